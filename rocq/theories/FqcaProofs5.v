(** The cells of a layout that has been written and read back. *)
From Coq Require Import ZArith Lia Bool String Ascii List.
From stdpp Require Import gmap list.
From Verif Require Import CoordModel CoordSpec GridModel CoordMap ClockModel CellModel FqcaModel FqcaSpec FqcaProofs FqcaProofs2 FqcaProofs3 FqcaProofs4.
From Coq Require Import List.
Import ListNotations.
Local Open Scope Z_scope.

Lemma here_type l c t : ob (assign_cell_type qca l c t) c =
  let '(_, m, n, _, _, k) := ob l c in
  (if t_is_empty qca t then None else Some t, if t_is_empty qca t then None else m, n,
   negb (t_is_empty qca t) && t_is_input qca t, negb (t_is_empty qca t) && negb (t_is_input qca t) && t_is_output qca t, k).
Proof. rewrite ob_type, decide_True by reflexivity. reflexivity. Qed.
Lemma here_mode l c m : ob (assign_cell_mode qca l c m) c = let '(t, _, n, i, o, k) := ob l c in (t, if m =? 0 then None else Some m, n, i, o, k).
Proof. rewrite ob_mode, decide_True by reflexivity. reflexivity. Qed.
Lemma here_name l c m : ob (assign_cell_name l c m) c = let '(t, md, _, i, o, k) := ob l c in (t, md, if String.eqb m "" then None else Some m, i, o, k).
Proof. rewrite ob_name, decide_True by reflexivity. reflexivity. Qed.
Lemma here_clock l c n : glob l -> 0 <= n < 4 -> ob (c_assign_clock l c n) c = let '(t, md, nm, i, o, _) := ob l c in (t, md, nm, i, o, Some n).
Proof. intros G Hn. rewrite ob_clock, decide_True by reflexivity. rewrite (gl_num _ G), Z.mod_small by exact Hn. reflexivity. Qed.

Definition nothing : option Z * option Z * option string * bool * bool * option Z := (None, None, None, false, false, None).
Definition char_type (a : ascii) : Z := if is_digit a then q_normal else if is_alpha a then q_normal else if Ascii.eqb a "-" then q_const0 else q_const1.
Definition mode_opt (z : Z) : option Z := if z =? 0 then None else Some (layer_mode z).
Definition char_ob (a : ascii) (z : Z) : option Z * option Z * option string * bool * bool * option Z :=
  if is_space a then nothing else (Some (char_type a), mode_opt z, None, false, false, if is_digit a then Some (dval a) else None).
Lemma dval_range a : 0 <= dval a < 4.
Proof. unfold dval. apply Z.mod_pos_bound. lia. Qed.
Lemma rem_even z : 0 <= z -> (Z.rem z 2 =? 0) = Z.even z.
Proof. intros Hz. rewrite Z.rem_mod_nonneg by lia. rewrite Zmod_even. destruct (Z.even z); reflexivity. Qed.
Lemma step_here chr l c : glob l -> ob l c = nothing -> 0 <= cz c -> ob (cell_step chr l c) c = char_ob (chr c) (cz c).
Proof.
  intros G O Hz. unfold cell_step, char_ob, char_type, mode_opt, layer_mode. destruct (is_space (chr c)); [exact O|]. cbv zeta. rewrite rem_even by exact Hz.
  pose proof (dval_range (chr c)) as Hr.
  destruct (is_digit (chr c)), (is_alpha (chr c)), (Ascii.eqb (chr c) "-"), (cz c =? 0), (Z.even (cz c));
    rewrite ?here_mode, ?here_clock by (try apply glob_type; assumption); rewrite ?here_type, O; reflexivity.
Qed.
Lemma def_here pi po nm cdg l c t m : glob l -> ob l c = (Some t, m, None, false, false, None) -> (pi c = true -> po c = false) ->
  ob (def_step pi po nm cdg l c) c =
  (Some (if pi c then t_input qca else if po c then t_output qca else t), m,
   if String.eqb (unspaced (nm c)) "" then None else Some (unspaced (nm c)), pi c, po c, Some (dval (cdg c))).
Proof.
  intros G O X. unfold def_step. cbv zeta. pose proof (dval_range (cdg c)) as Hr.
  rewrite here_clock; [|destruct (pi c), (po c), (negb _); repeat (first [apply glob_name|apply glob_type]); exact G|exact Hr].
  destruct (String.eqb_spec (nm c) "") as [E|E]; cbn [negb].
  - rewrite E. change (unspaced "") with ""%string. change (String.eqb "" "") with true. cbv iota.
    destruct (pi c) eqn:E1; [rewrite (X eq_refl)|destruct (po c)]; rewrite ?here_type, O; reflexivity.
  - rewrite here_name. destruct (pi c) eqn:E1; [rewrite (X eq_refl)|destruct (po c)]; rewrite ?here_type, O; reflexivity.
Qed.

(** Queries from what is stored. *)
Lemma q_type l d : get_cell_type qca l d = default (t_empty qca) (fst (fst (fst (fst (fst (ob l d)))))).
Proof. reflexivity. Qed.
Lemma q_mode l d : get_cell_mode l d = default 0 (snd (fst (fst (fst (fst (ob l d)))))).
Proof. reflexivity. Qed.
Lemma q_name l d : get_cell_name l d = default ""%string (snd (fst (fst (fst (ob l d))))).
Proof. reflexivity. Qed.
Lemma q_pi l d : c_is_pi l d = snd (fst (fst (ob l d))).
Proof. reflexivity. Qed.
Lemma q_po l d : c_is_po l d = snd (fst (ob l d)).
Proof. reflexivity. Qed.
Lemma q_clock l d : glob l -> cd d = false -> cell_clock_number l d = Some (default 0 (snd (ob l d))).
Proof.
  intros [] E. unfold cell_clock_number. rewrite gl_x, gl_y. cbn [Z.eqb orb]. rewrite !Z.quot_1_r. f_equal.
  assert (Ed : live (cx d) (cy d) (cz d) = d) by (destruct d; cbn in *; subst; reflexivity). rewrite Ed.
  unfold get_clock_number, sc_at. rewrite gl_reg, gl_fn. unfold ob. cbn [snd]. destruct (_ !! d); reflexivity.
Qed.
Lemma default_name s : default ""%string (if String.eqb s "" then None else Some s) = s.
Proof. destruct (String.eqb_spec s "") as [->|N]; reflexivity. Qed.

Section Cells.
  Variable k : kind.
  Hypothesis k_qca : k <> Siqad.
  Variable l : clayout.
  Variable vias : bool.
  Let ar := cl_dim (c_cl l).
  Let W := S (Z.to_nat (cx ar)).
  Let H := S (Z.to_nat (cy ar)).
  Let P := if vias then (2 * Z.to_nat (cz ar) + 1)%nat else S (Z.to_nat (cz ar)).
  Hypothesis dims : dims_ok k ar (Z.of_nat P).
  Hypothesis LY : fqca_layout l.
  Hypothesis types : forall c, In (get_cell_type qca l c) (t_types qca).
  Hypothesis pis : forall c, c_is_pi l c = (get_cell_type qca l c =? t_input qca).
  Hypothesis pos_ : forall c, c_is_po l c = (get_cell_type qca l c =? t_output qca).
  Let cells := all_cells W H P.
  Let chr := chrt l vias.
  Let T := tgt vias.
  Let B := back vias.
  Let l' := l_back l vias.
  Let labcells := map fst (labs_t l vias).

  Lemma labcells_eq : labcells = map T (labs_of l (src_cells l)).
  Proof using LY pis pos_.
    unfold labcells, labs_t. rewrite map_map. cbn [fst]. change (fun x : coord * ascii => tgt vias x.1) with (fun x : coord * ascii => T (fst x)).
    rewrite <- (map_map fst T). f_equal. unfold src_labs. apply map_fst_combine. exact (few l LY pis pos_).
  Qed.
  Lemma T_inj a b : cd a = false -> cd b = false -> T a = T b -> a = b.
  Proof. intros Ha Hb E. rewrite <- (back_tgt vias a Ha), <- (back_tgt vias b Hb). unfold T in E. rewrite E. reflexivity. Qed.
  Lemma src_live c : In c (labs_of l (src_cells l)) -> cd c = false.
  Proof. intros Hc. unfold labs_of in Hc. apply filter_In in Hc. destruct Hc as [Hc _]. unfold src_cells in Hc. apply in_all in Hc. apply Hc. Qed.
  Lemma labcells_nodup : List.NoDup labcells.
  Proof using LY pis pos_.
    rewrite labcells_eq.
    assert (N : List.NoDup (labs_of l (src_cells l))) by (unfold labs_of; apply List.NoDup_filter, nodup_all).
    pose proof src_live as SL. revert N SL. generalize (labs_of l (src_cells l)). induction l0 as [|a r IH]; intros N SL; [constructor|].
    inversion N; subst. cbn [map]. constructor.
    - intros X. apply in_map_iff in X. destruct X as (b & E & Hb). assert (b = a) as -> by (apply T_inj; [apply SL; right; exact Hb|apply SL; left; reflexivity|exact E]). contradiction.
    - apply IH; [assumption|]. intros c Hc. apply SL. right. exact Hc.
  Qed.
  Lemma in_labcells d : In d labcells <-> exists c, inb ar c /\ lab_b l c = true /\ d = T c.
  Proof using dims LY pis pos_.
    rewrite labcells_eq, in_map_iff. split.
    - intros (c & <- & Hc). exists c. unfold labs_of in Hc. apply filter_In in Hc. destruct Hc as [H1 H2]. split; [apply (src_inb l (dpos k l vias dims)), H1|]. split; [exact H2|reflexivity].
    - intros (c & Hc & Hl & ->). exists c. split; [reflexivity|]. unfold labs_of. apply filter_In. split; [apply (src_inb l (dpos k l vias dims)), Hc|exact Hl].
  Qed.
  Let l1 := fold_left (cell_step chr) cells l_init.
  Lemma glob1 : glob l1. Proof. apply keeps_fold; [apply cell_step_glob|apply init_glob]. Qed.
  Lemma init_nothing d : ob l_init d = nothing.
  Proof. reflexivity. Qed.
  Lemma ob1_in d : In d cells -> ob l1 d = char_ob (chr d) (cz d).
  Proof.
    intros Hd. destruct (fold_in _ (cell_step_elsewhere chr) (cell_step_glob chr) cells l_init d init_glob (nodup_all W H P) Hd) as (l0 & G & O & E).
    unfold l1. rewrite E. apply step_here; [exact G|rewrite O; apply init_nothing|]. apply in_all in Hd. lia.
  Qed.
  Lemma ob1_out d : ~ In d cells -> ob l1 d = nothing.
  Proof. intros Hd. unfold l1. rewrite fold_out; [apply init_nothing|apply cell_step_elsewhere|exact Hd]. Qed.
  Lemma ob_l' d : ob l' d = ob (fold_left (def_step (pi' l vias) (po' l vias) (nm' l vias) (cd' l vias)) labcells l1) d.
  Proof. reflexivity. Qed.
  Lemma glob' : glob l'.
  Proof. destruct (keeps_fold _ (def_step_glob (pi' l vias) (po' l vias) (nm' l vias) (cd' l vias)) labcells l1 glob1) as [A1 A2 A3 A4 A5]. split; assumption. Qed.
  Lemma ob_unlabelled d : ~ In d labcells -> ob l' d = ob l1 d.
  Proof. intros Hd. rewrite ob_l'. apply fold_out; [apply def_step_elsewhere|exact Hd]. Qed.
  Lemma ob_labelled c : inb ar c -> lab_b l c = true ->
    ob l' (T c) = (Some (get_cell_type qca l c), mode_opt (cz (T c)),
      if String.eqb (unspaced (get_cell_name l c)) "" then None else Some (unspaced (get_cell_name l c)), c_is_pi l c, c_is_po l c, Some (dval (clkd l c))).
  Proof using dims LY types pis pos_.
    intros Hc Hl. assert (HT : In (T c) labcells) by (apply in_labcells; exists c; auto).
    assert (HC : In (T c) cells) by exact (in_tgt k l vias dims c Hc).
    rewrite ob_l'. destruct (fold_in _ (def_step_elsewhere _ _ _ _) (def_step_glob (pi' l vias) (po' l vias) (nm' l vias) (cd' l vias)) labcells l1 (T c) glob1 labcells_nodup HT) as (l0 & G & O & E).
    rewrite E. assert (EB : back vias (T c) = c) by (apply back_tgt; apply Hc).
    assert (A : is_alpha (chr (T c)) = true).
    { unfold labcells in HT. apply in_map_iff in HT. destruct HT as ([c1 d1] & E1 & H1). cbn [fst] in E1. subst c1.
      destruct (labs_t_ok k l vias dims LY pis pos_ _ _ H1) as (_ & E2 & E3 & _). subst d1. exact E3. }
    destruct (alpha_not_digit _ A) as [A1 A2].
    rewrite (def_here _ _ _ _ l0 (T c) q_normal (mode_opt (cz (T c)))).
    - unfold pi', po', nm', cd'. rewrite EB. rewrite pis, pos_.
      assert (ET : Some (if get_cell_type qca l c =? t_input qca then t_input qca else if get_cell_type qca l c =? t_output qca then t_output qca else q_normal) = Some (get_cell_type qca l c)).
      { f_equal. destruct (Z.eqb_spec (get_cell_type qca l c) (t_input qca)) as [->|N1]; [reflexivity|]. destruct (Z.eqb_spec (get_cell_type qca l c) (t_output qca)) as [->|N2]; [reflexivity|].
        assert (Hlab : labelled l c) by (apply (lab_iff l pis pos_); exact Hl). destruct Hlab as (L1 & L2).
        pose proof (types c) as Ht. cbn [t_types qca In] in Ht. change (t_input qca) with 105 in N1. change (t_output qca) with 111 in N2. unfold cell_at in L1. change (t_empty qca) with 32 in L1. change (t_input qca) with 105 in L2. change (t_output qca) with 111 in L2.
        destruct Ht as [Ht|[Ht|[Ht|[Ht|[Ht|[Ht|[]]]]]]]; try (unfold q_normal; congruence).
        - assert (K : get_cell_name l c = ""%string) by (apply (fq_constants _ LY); left; symmetry; exact Ht). destruct L2 as [L2|[L2|L2]]; congruence.
        - assert (K : get_cell_name l c = ""%string) by (apply (fq_constants _ LY); right; symmetry; exact Ht). destruct L2 as [L2|[L2|L2]]; congruence. }
      rewrite ET. reflexivity.
    - exact G.
    - rewrite O, ob1_in by exact HC. unfold char_ob, char_type. rewrite A2, A1, A. reflexivity.
    - unfold pi', po'. rewrite EB, pis, pos_. rewrite Z.eqb_eq, Z.eqb_neq. intros ->. discriminate.
  Qed.
  Lemma not_lab c : cd c = false -> lab_b l c = false -> ~ In (T c) labcells.
  Proof using dims LY pis pos_.
    intros Hd Hl X. apply in_labcells in X. destruct X as (c' & Hc' & Hl' & E). assert (c = c') as -> by (apply T_inj; [exact Hd|apply Hc'|exact E]). congruence.
  Qed.

  Theorem back_inside c : inb ar c -> same_cell l c l' (T c) /\ (cell_at l c -> get_cell_mode l' (T c) = layer_mode (cz (T c))).
  Proof using dims LY types pis pos_.
    intros Hc. assert (HC : In (T c) cells) by exact (in_tgt k l vias dims c Hc). assert (Hd : cd c = false) by apply Hc.
    assert (MO : forall z, default 0 (mode_opt z) = layer_mode z).
    { intros z. unfold mode_opt, layer_mode. destruct (z =? 0); reflexivity. }
    destruct (clock_text_ok l (lyt_clocks l LY) c Hc) as [_ CK].
    unfold same_cell. rewrite (q_type l' (T c)), (q_mode l' (T c)), (q_name l' (T c)), (q_pi l' (T c)), (q_po l' (T c)). rewrite (q_clock l' (T c) glob' eq_refl).
    destruct (lab_b l c) eqn:Hl.
    - rewrite ob_labelled by assumption. cbn [fst snd default]. rewrite default_name, MO, CK. repeat split; reflexivity.
    - rewrite ob_unlabelled by (apply not_lab; assumption). rewrite ob1_in by exact HC. change (chr (T c)) with (chrt l vias (tgt vias c)). rewrite (chrt_tgt l vias c Hd).
      unfold lab_b in Hl. unfold chw. unfold char_ob, char_type.
      destruct (is_empty_cell qca l c) eqn:Ee.
      + cbn [fst snd default is_space]. change (is_space " ") with true. cbv iota. unfold nothing. cbn [fst snd default].
        assert (ET : get_cell_type qca l c = t_empty qca) by (unfold is_empty_cell, t_is_empty in Ee; apply Z.eqb_eq; exact Ee).
        rewrite pis, pos_, ET. repeat split; try reflexivity; intros X; exfalso; apply X; exact ET.
      + cbn [negb andb] in Hl. rewrite Hl. unfold is_labeled in Hl. apply orb_false_iff in Hl. destruct Hl as [Hl Hpo]. apply orb_false_iff in Hl. destruct Hl as [Hl Hpi].
        apply negb_false_iff in Hl. apply String.eqb_eq in Hl. rewrite Hpi, Hpo, Hl. change (unspaced "") with ""%string.
        rewrite pis in Hpi. rewrite pos_ in Hpo. apply Z.eqb_neq in Hpi, Hpo. pose proof (types c) as Ht. cbn [t_types qca In] in Ht.
        assert (Hn : cell_at l c) by (apply empty_iff; exact Ee). unfold cell_at in Hn. change (t_empty qca) with 32 in Hn. change (t_input qca) with 105 in Hpi. change (t_output qca) with 111 in Hpo.
        destruct (Z.eqb_spec (get_cell_type qca l c) q_const0) as [E0|E0].
        { change (is_space "-") with false. change (is_digit "-") with false. change (is_alpha "-") with false. rewrite Ascii.eqb_refl. cbn [fst snd default]. rewrite MO, E0. 
          repeat split; try reflexivity. intros _ X. exfalso. apply X. left. exact E0. }
        destruct (Z.eqb_spec (get_cell_type qca l c) q_const1) as [E1|E1].
        { change (is_space "+") with false. change (is_digit "+") with false. change (is_alpha "+") with false. change (Ascii.eqb "+" "-") with false. cbn [fst snd default]. rewrite MO, E1.
          repeat split; try reflexivity. intros _ X. exfalso. apply X. right. exact E1. }
        assert (EN : get_cell_type qca l c = q_normal).
        { unfold q_const0, q_const1, q_normal in *. destruct Ht as [Ht|[Ht|[Ht|[Ht|[Ht|[Ht|[]]]]]]]; congruence. }
        assert (DS : is_space (clkd l c) = false).
        { pose proof (clkd_digit l c) as Dg. unfold is_space, FglModel.is_space. unfold is_digit in Dg. rewrite andb_true_iff, !Nat.leb_le in Dg.
          apply orb_false_iff. rewrite Nat.eqb_neq, andb_false_iff, !Nat.leb_gt. lia. }
        rewrite DS, clkd_digit. cbn [fst snd default]. rewrite MO, EN, CK. repeat split; reflexivity.
  Qed.
  (** A via. *)
  Theorem back_via d : In d cells -> odd_plane vias d = true ->
    get_cell_type qca l' d = (if get_cell_mode l (B d) =? m_vertical then q_normal else t_empty qca) /\
    get_cell_name l' d = ""%string /\
    (get_cell_mode l (B d) = m_vertical -> get_cell_mode l' d = layer_mode (cz d) /\ cell_clock_number l' d = cell_clock_number l (B d)).
  Proof using dims LY pis pos_.
    intros Hd Ho. destruct (in_back k l vias dims d Hd) as [Hb _]. fold B in Hb.
    assert (NL : ~ In d labcells).
    { intros X. apply in_labcells in X. destruct X as (c & _ & _ & ->). revert Ho. unfold odd_plane, T, tgt. cbn [cz live]. destruct vias; [|discriminate].
      rewrite Z.odd_mul. discriminate. }
    destruct (clock_text_ok l (lyt_clocks l LY) (B d) Hb) as [_ CK].
    assert (Hdl : cd d = false) by (apply in_all in Hd; apply Hd).
    rewrite (q_type l' d), (q_mode l' d), (q_name l' d), (q_clock l' d glob' Hdl). rewrite ob_unlabelled by exact NL. rewrite ob1_in by exact Hd. unfold chr, chrt. rewrite Ho. fold B. unfold viach, char_ob, char_type.
    destruct (Z.eqb_spec (get_cell_mode l (B d)) m_vertical) as [E|E].
    - assert (DS : is_space (clkd l (B d)) = false).
        { pose proof (clkd_digit l (B d)) as Dg. unfold is_space, FglModel.is_space. unfold is_digit in Dg. rewrite andb_true_iff, !Nat.leb_le in Dg.
          apply orb_false_iff. rewrite Nat.eqb_neq, andb_false_iff, !Nat.leb_gt. lia. }
      rewrite DS, clkd_digit. cbn [fst snd default]. split; [reflexivity|]. split; [reflexivity|]. intros _. rewrite CK. split; [|reflexivity].
      unfold mode_opt, layer_mode. destruct (cz d =? 0); reflexivity.
    - change (is_space " ") with true. cbv iota. unfold nothing. cbn [fst snd default]. split; [reflexivity|]. split; [reflexivity|]. intros X. contradiction.
  Qed.
  Theorem back_outside d : ~ In d cells -> ob l' d = nothing.
  Proof using dims LY pis pos_.
    intros Hd. rewrite ob_unlabelled; [apply ob1_out, Hd|]. intros X. apply in_labcells in X. destruct X as (c & Hc & _ & ->). apply Hd. exact (in_tgt k l vias dims c Hc).
  Qed.
  Lemma nonspace d : In d cells -> is_space (chr d) = false <-> cell_at l' d.
  Proof using dims LY types pis pos_.
    intros Hd. unfold cell_at. rewrite q_type. destruct (in_dec (fun a b => decide (a = b)) d labcells) as [Hi|Hi].
    - pose proof Hi as Hi0. apply in_labcells in Hi. destruct Hi as (c & Hc & Hl & ->). rewrite ob_labelled by assumption. cbn [fst snd default].
      unfold labcells in Hi0. apply in_map_iff in Hi0. destruct Hi0 as ([c1 d1] & E1 & H1). cbn [fst] in E1. subst c1.
      destruct (labs_t_ok k l vias dims LY pis pos_ _ _ H1) as (_ & E2 & E3 & _). subst d1. destruct (alpha_not_digit _ E3) as [_ A2].
      split; [intros _|intros _; exact A2]. apply (lab_iff l pis pos_) in Hl. apply Hl.
    - rewrite ob_unlabelled by exact Hi. rewrite ob1_in by exact Hd. unfold char_ob. destruct (is_space (chr d)).
      + split; [discriminate|]. intros X. exfalso. apply X. reflexivity.
      + split; [intros _|reflexivity]. cbn [fst snd default]. unfold char_type. destruct (is_digit (chr d)), (is_alpha (chr d)), (Ascii.eqb (chr d) "-"); discriminate.
  Qed.
  Theorem back_dims : dims_fit l'.
  Proof using dims LY types pis pos_.
    assert (OUT : forall d, cell_at l' d -> In d cells).
    { intros d Hd. destruct (in_dec (fun a b => decide (a = b)) d cells) as [Hi|Hi]; [exact Hi|]. exfalso. apply Hd. rewrite q_type, back_outside by exact Hi. reflexivity. }
    unfold dims_fit. cbv zeta. change (cl_dim (c_cl l')) with (m_read chr W H P). unfold m_read. fold cells.
    destruct (max_fold chr cx maxish_x cells dead0) as (X1 & X2 & X3). destruct (max_fold chr cy maxish_y cells dead0) as (Y1 & Y2 & Y3).
    destruct (max_fold chr cz maxish_z cells dead0) as (Z1 & Z2 & Z3). cbn [cx cy cz dead0] in X1, X3, Y1, Y3, Z1, Z3.
    split; [|repeat split; try assumption].
    - intros d Hd. pose proof (OUT d Hd) as Hi. assert (Hs : is_space (chr d) = false) by (apply nonspace; assumption).
      specialize (X2 d Hi Hs). specialize (Y2 d Hi Hs). specialize (Z2 d Hi Hs). apply in_all in Hi. destruct Hi as (I1 & I2 & I3 & I4). repeat split; try assumption; lia.
    - intros Hp. destruct X3 as [X3|(c & C1 & C2 & C3)]; [lia|]. exists c. split; [apply nonspace; assumption|exact C3].
    - intros Hp. destruct Y3 as [Y3|(c & C1 & C2 & C3)]; [lia|]. exists c. split; [apply nonspace; assumption|exact C3].
    - intros Hp. destruct Z3 as [Z3|(c & C1 & C2 & C3)]; [lia|]. exists c. split; [apply nonspace; assumption|exact C3].
  Qed.
End Cells.
