(** Reading what has been written. *)
From Coq Require Import ZArith Lia Bool String Ascii List.
From stdpp Require Import gmap list.
From Verif Require Import CoordModel CoordSpec GridModel CoordMap ClockModel CellModel FqcaModel FqcaSpec FqcaProofs FqcaProofs2 FqcaProofs3.
From Coq Require Import List.
Import ListNotations.
Local Open Scope Z_scope.

Lemma flat_map_ext_in {A B} (f g : A -> list B) l : (forall a, In a l -> f a = g a) -> flat_map f l = flat_map g l.
Proof. induction l as [|a r IH]; intros E; [reflexivity|]. cbn [flat_map]. rewrite E by (left; reflexivity). rewrite IH; [reflexivity|]. intros b Hb. apply E. right. exact Hb. Qed.
Lemma flat_map_map {A B C} (f : B -> list C) (g : A -> B) l : flat_map f (map g l) = flat_map (fun a => f (g a)) l.
Proof. induction l as [|a r IH]; [reflexivity|]. cbn. rewrite IH. reflexivity. Qed.
Lemma flat_map_flat_map {A B C} (f : B -> list C) (g : A -> list B) l : flat_map f (flat_map g l) = flat_map (fun a => flat_map f (g a)) l.
Proof. induction l as [|a r IH]; [reflexivity|]. cbn. rewrite flat_map_app, IH. reflexivity. Qed.

(** The planes of a file with vias. *)
Lemma zs_snoc n : zs (S n) = zs n ++ [Z.of_nat n].
Proof. unfold zs. rewrite seq_S, map_app. reflexivity. Qed.
Lemma interleave n : flat_map (fun z => [2 * z; 2 * z + 1]) (zs n) = zs (2 * n).
Proof.
  induction n as [|n IH]; [reflexivity|]. rewrite zs_snoc, flat_map_app, IH. replace (2 * S n)%nat with (S (S (2 * n))) by lia. rewrite !zs_snoc, <- app_assoc.
  f_equal. cbn [flat_map app]. repeat f_equal; lia.
Qed.

Lemma const_head b : forall name ver repo, one_line name -> one_line ver -> one_line repo ->
  ~ In nl (head_text name ver repo) /\ (b = true -> re_comment (strip (head_text name ver repo)) = true).
Proof.
  intros name ver repo Hn Hv Hr. unfold one_line in *. fold (str name) in Hn. fold (str ver) in Hv. fold (str repo) in Hr. split.
  - unfold head_text. intros X. repeat (apply in_app_or in X as [X|X]); try contradiction;
      try (vm_compute in X; repeat (destruct X as [X|X]; [discriminate X|]); exact X).
    destruct (String.eqb name ""); [destruct X|]. apply in_app_or in X as [X|X]; [contradiction|].
    vm_compute in X; repeat (destruct X as [X|X]; [discriminate X|]); exact X.
  - intros _. unfold head_text. rewrite !strip_app. change (strip (str "[ ")) with (str "["). change (strip (str ") ]")) with ([")"%char] ++ ["]"%char]).
    unfold re_comment. rewrite after_app, !app_assoc, before_last_snoc. reflexivity.
Qed.

Section Back.
  Variable k : kind.
  Hypothesis k_qca : k <> Siqad.
  Variable l : clayout.
  Variable vias : bool.
  Let ar := cl_dim (c_cl l).
  Let W := S (Z.to_nat (cx ar)).
  Let H := S (Z.to_nat (cy ar)).
  Let D := S (Z.to_nat (cz ar)).
  Let P := if vias then (2 * Z.to_nat (cz ar) + 1)%nat else D.
  Hypothesis dims : dims_ok k ar (Z.of_nat P).
  Hypothesis LY : fqca_layout l.
  Hypothesis types : forall c, In (get_cell_type qca l c) (t_types qca).
  Hypothesis pis : forall c, c_is_pi l c = (get_cell_type qca l c =? t_input qca).
  Hypothesis pos_ : forall c, c_is_po l c = (get_cell_type qca l c =? t_output qca).

  Definition tgt (c : coord) : coord := live (cx c) (cy c) (if vias then 2 * cz c else cz c).
  Definition back (c : coord) : coord := live (cx c) (cy c) (if vias then cz c / 2 else cz c).
  Lemma back_tgt c : cd c = false -> back (tgt c) = c.
  Proof using Type. clear. intros E. destruct c as [d x y z]. cbn in E. subst d. unfold back, tgt. cbn [cx cy cz live]. destruct vias; [|reflexivity]. rewrite (Z.mul_comm 2), Z.div_mul by lia. reflexivity. Qed.
  Definition odd_plane (c : coord) : bool := vias && Z.odd (cz c).
  Definition chrt (c : coord) : ascii := if odd_plane c then viach l (back c) else chw l (back c).
  Lemma chrt_good c : good_char (chrt c).
  Proof. unfold chrt. destruct (odd_plane c); [apply viach_good|apply chw_good]. Qed.
  Lemma chrt_tgt c : cd c = false -> chrt (tgt c) = chw l c.
  Proof using Type.
    clear dims P D. intros E. unfold chrt, odd_plane. rewrite back_tgt by exact E. unfold tgt. cbn [cz live]. destruct vias; [|reflexivity].
    rewrite Z.odd_mul. reflexivity.
  Qed.

  Lemma empty_iff c : is_empty_cell qca l c = false <-> cell_at l c.
  Proof. unfold is_empty_cell, t_is_empty, cell_at. rewrite Z.eqb_neq. reflexivity. Qed.
  Lemma lab_iff c : lab_b l c = true <-> labelled l c.
  Proof using pis pos_.
    unfold lab_b, labelled, is_labeled. rewrite andb_true_iff, negb_true_iff, empty_iff, !orb_true_iff, negb_true_iff, pis, pos_, !Z.eqb_eq.
    destruct (String.eqb_spec (get_cell_name l c) "") as [E|E]; intuition congruence.
  Qed.
  Lemma few : (length (labs_of l (src_cells l)) <= 52)%nat.
  Proof using LY pis pos_.
    apply (fq_labels _ LY). - unfold labs_of. apply List.NoDup_filter. apply nodup_all.
    - intros c Hc. unfold labs_of in Hc. apply filter_In in Hc. apply lab_iff, Hc.
  Qed.
  Lemma dpos : 0 <= cx ar /\ 0 <= cy ar /\ 0 <= cz ar.
  Proof using dims. unfold dims_ok in dims. destruct dims as ((? & ?) & (? & ?) & ? & ?). auto. Qed.
  Lemma lyt_clocks : forall c, inb ar c -> exists n, cell_clock_number l c = Some n /\ 0 <= n < 4.
  Proof using LY. exact (fq_clocks _ LY). Qed.
  Let cells := all_cells W H P.
  Lemma in_tgt c : inb ar c -> In (tgt c) cells.
  Proof using dims.
    intros (Hd & Hx & Hy & Hz). pose proof dpos as (? & ? & ?). apply in_all. unfold tgt, W, H, P, D. cbn [cd cx cy cz live]. destruct vias; repeat split; lia.
  Qed.
  Lemma in_back c : In c cells -> inb ar (back c) /\ (odd_plane c = false -> tgt (back c) = c).
  Proof using dims.
    intros Hc. apply in_all in Hc. destruct Hc as (Hd & Hx & Hy & Hz). pose proof dpos as (? & ? & ?).
    unfold inb, back, tgt, odd_plane. cbn [cd cx cy cz live]. unfold W, H, P, D in *. destruct c as [d x y z]; cbn [cd cx cy cz] in *. subst d.
    destruct vias.
    - split; [repeat split; try lia; pose proof (Z.div_pos z 2 ltac:(lia) ltac:(lia)); try lia; apply Z.div_le_upper_bound; lia|].
      cbn [andb]. intros Ho. rewrite <- Z.negb_even, negb_false_iff in Ho. apply Z.even_spec in Ho. destruct Ho as (q & ->).
      rewrite (Z.mul_comm 2 q), Z.div_mul by lia. unfold live. f_equal. lia.
    - split; [repeat split; lia|]. intros _. reflexivity.
  Qed.

  Definition labs_t : list (coord * ascii) := map (fun cd => (tgt (fst cd), snd cd)) (src_labs l).
  Lemma in_src_labs c d : In (c, d) (src_labs l) -> inb ar c /\ lab_b l c = true /\ d = chw l c /\ is_alpha d = true.
  Proof using dims LY pis pos_.
    intros Hi. unfold src_labs in Hi. apply in_combine_nth in Hi; [|unfold labs_of; apply List.NoDup_filter, nodup_all].
    destruct Hi as (I1 & I2 & I3). unfold labs_of in I1. apply filter_In in I1. destruct I1 as [I1 I4]. split; [apply (src_inb l dpos), I1|]. split; [exact I4|].
    split; [|rewrite I2; apply alphabet_alpha, nth_In, I3]. rewrite I2. unfold chw. unfold lab_b in I4. apply andb_true_iff in I4. destruct I4 as [I4 I5].
    apply negb_true_iff in I4. rewrite I4, I5. reflexivity.
  Qed.
  Lemma labs_t_ok c d : In (c, d) labs_t -> In c cells /\ d = chrt c /\ is_alpha d = true /\ is_digit (clkd l (back c)) = true.
  Proof using dims LY pis pos_.
    unfold labs_t. intros Hi. apply in_map_iff in Hi. destruct Hi as ((c0 & d0) & E & Hi). cbn [fst snd] in E. injection E as <- <-.
    destruct (in_src_labs _ _ Hi) as (I1 & I2 & I3 & I4). split; [apply in_tgt, I1|]. split; [rewrite chrt_tgt by apply I1; exact I3|]. split; [exact I4|apply clkd_digit].
  Qed.
  Lemma digit_not_alpha a : is_digit a = true -> is_alpha a = false.
  Proof. intros E. destruct (is_alpha a) eqn:A; [|reflexivity]. destruct (alpha_not_digit _ A) as [N _]. congruence. Qed.
  Lemma alpha_lab c : inb ar c -> is_alpha (chw l c) = true -> lab_b l c = true /\ In c (labs_of l (src_cells l)) /\
    chw l c = nth (pos c (labs_of l (src_cells l))) alphabet " "%char.
  Proof using dims.
    intros Hc A. unfold chw in *. unfold lab_b. destruct (is_empty_cell qca l c) eqn:E1; [discriminate A|]. destruct (is_labeled l c) eqn:E2.
    - split; [reflexivity|]. split; [|reflexivity]. unfold labs_of. apply filter_In. split; [apply (src_inb l dpos), Hc|]. unfold lab_b. rewrite E1, E2. reflexivity.
    - destruct (_ =? q_const0); [discriminate A|]. destruct (_ =? q_const1); [discriminate A|]. rewrite digit_not_alpha in A by apply clkd_digit. discriminate A.
  Qed.
  Lemma chrt_inj c c' : In c cells -> In c' cells -> is_alpha (chrt c) = true -> chrt c = chrt c' -> c = c'.
  Proof using dims LY pis pos_.
    intros Hc Hc' A E. assert (A' : is_alpha (chrt c') = true) by (rewrite <- E; exact A).
    destruct (in_back _ Hc) as [B1 B2]. destruct (in_back _ Hc') as [B1' B2']. unfold chrt in *.
    assert (V : forall c0, is_alpha (viach l c0) = false).
    { intros c0. unfold viach. destruct (_ =? _); [apply digit_not_alpha, clkd_digit|reflexivity]. }
    destruct (odd_plane c); [rewrite V in A; discriminate A|]. destruct (odd_plane c'); [rewrite V in A'; discriminate A'|].
    rewrite <- (B2 eq_refl), <- (B2' eq_refl). f_equal.
    destruct (alpha_lab _ B1 A) as (_ & I1 & E1). destruct (alpha_lab _ B1' A') as (_ & I2 & E2). rewrite E1, E2 in E.
    destruct (pos_in _ _ I1) as [P1 N1]. destruct (pos_in _ _ I2) as [P2 N2]. pose proof few as F.
    assert (EP : pos (back c) (labs_of l (src_cells l)) = pos (back c') (labs_of l (src_cells l))).
    { refine (proj1 (List.NoDup_nth alphabet " "%char) nodup_alphabet _ _ _ _ E); rewrite alphabet_length; lia. }
    rewrite EP in N1. rewrite N1 in N2. apply (Some_inj (A := coord)). exact N2.
  Qed.

  Lemma planes_eq : flat_map (z_lines l vias) (zs D) = flat_map (plane_lines chrt W H) (zs P).
  Proof using dims.
    clear types pis pos_ LY k_qca. pose proof dpos as (_ & _ & Hz).
    assert (L0 : forall z, map (fun y => rowt (chw l) y z (zs W)) (zs H) = map (fun y => row_text chrt W y (if vias then 2 * z else z)) (zs H)).
    { intros z. apply map_ext. intros y. unfold rowt, row_text. apply flat_map_ext_in. intros x _.
      change (live x y (if vias then 2 * z else z)) with (tgt (live x y z)). rewrite chrt_tgt by reflexivity. reflexivity. }
    assert (L1 : vias = true -> forall z, map (fun y => rowt (viach l) y z (zs W)) (zs H) = map (fun y => row_text chrt W y (2 * z + 1)) (zs H)).
    { intros EV z. apply map_ext. intros y. unfold rowt, row_text. apply flat_map_ext_in. intros x _.
      unfold chrt, odd_plane, back. rewrite EV. cbn [cx cy cz live andb]. rewrite Z.odd_add, Z.odd_mul. cbn [Z.odd andb xorb].
      replace ((2 * z + 1) / 2) with z by (Z.div_mod_to_equations; lia). reflexivity. }
    unfold P. destruct vias eqn:EV.
    - assert (Q : flat_map (z_lines l true) (zs (Z.to_nat (cz ar))) = flat_map (plane_lines chrt W H) (zs (2 * Z.to_nat (cz ar)))).
      { rewrite <- interleave, flat_map_flat_map. apply flat_map_ext_in. intros z Hi. apply in_zs in Hi. unfold z_lines, via_at. cbn [andb].
        fold ar. destruct (Z.eqb_spec z (cz ar)); [lia|]. cbn [negb flat_map]. rewrite app_nil_r. unfold plane_lines. cbn [app].
        rewrite L0, (L1 eq_refl). reflexivity. }
      unfold D. rewrite zs_snoc, flat_map_app. rewrite Q. replace (2 * Z.to_nat (cz ar) + 1)%nat with (S (2 * Z.to_nat (cz ar))) by lia.
      rewrite zs_snoc, flat_map_app. f_equal. cbn [flat_map]. rewrite !app_nil_r. unfold z_lines, via_at, plane_lines. cbn [andb]. fold ar.
      destruct (Z.eqb_spec (Z.of_nat (Z.to_nat (cz ar))) (cz ar)); [|lia]. cbn [negb]. rewrite app_nil_r, L0.
      replace (2 * Z.of_nat (Z.to_nat (cz ar))) with (Z.of_nat (2 * Z.to_nat (cz ar))) by lia. reflexivity.
    - apply flat_map_ext_in. intros z _. unfold z_lines, via_at, plane_lines. cbn [andb]. rewrite app_nil_r, L0. reflexivity.
  Qed.

  Definition pi' (c : coord) : bool := c_is_pi l (back c).
  Definition po' (c : coord) : bool := c_is_po l (back c).
  Definition nm' (c : coord) : string := get_cell_name l (back c).
  Definition cd' (c : coord) : ascii := clkd l (back c).
  Definition l_back : clayout := c_resize (l_read chrt W H P pi' po' nm' cd' labs_t) (m_read chrt W H P).

  Theorem write_read name ver repo : one_line name -> one_line ver -> one_line repo ->
    exists t, write_fqca_layout name ver repo vias l = FOk t /\ read_fqca_layout k t = FOk l_back.
  Proof using k_qca dims LY pis pos_.
    intros Hn Hv Hr. destruct (const_head true name ver repo Hn Hv Hr) as [C1 C2]. specialize (C2 eq_refl).
    rewrite (write_ok l dpos lyt_clocks few). eexists. split; [reflexivity|].
    assert (E : forall hd, [hd; []] ++ flat_map (z_lines l vias) (zs D) ++ [sep_text W; []; []; str "$"; []] ++
      flat_map (fun cd => def_lines (snd cd) (c_is_pi l (fst cd)) (c_is_po l (fst cd)) (get_cell_name l (fst cd)) (clkd l (fst cd))) (src_labs l) =
      file_lines chrt W H P pi' po' nm' cd' labs_t hd).
    { intros hd. unfold file_lines. rewrite planes_eq. do 3 f_equal. unfold labs_t. rewrite flat_map_map. apply flat_map_ext_in. intros [c d] Hi. cbn [fst snd].
      destruct (in_src_labs _ _ Hi) as (Hb & _). unfold pi', po', nm', cd'. rewrite back_tgt by apply Hb. reflexivity. }
    fold W. fold D. unfold ar, W, D in E |- *. rewrite E. destruct dims as (D1 & D2 & D3 & D4).
    apply read_file.
    - exact k_qca.
    - unfold W. lia.
    - unfold H. lia.
    - exact D4.
    - apply chrt_good.
    - apply labs_t_ok.
    - apply chrt_inj.
    - exact C1.
    - exact C2.
    - intros c Hc. unfold labs_t in Hc. rewrite map_map in Hc. apply in_map_iff in Hc. destruct Hc as ((c0 & d0) & <- & Hi). cbn [fst snd].
      destruct (in_src_labs _ _ Hi) as (Hb & Hl & _). unfold nm'. rewrite back_tgt by apply Hb. apply (fq_names _ LY). apply lab_iff in Hl. apply Hl.
  Qed.
End Back.
