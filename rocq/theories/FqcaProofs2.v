(** What the reader makes of a whole file: the second section, and the cells of the resulting layout. *)
From Coq Require Import ZArith Lia Bool String Ascii List.
From stdpp Require Import gmap list.
From Verif Require Import CoordModel CoordSpec GridModel CoordMap ClockModel CellModel FqcaModel FqcaSpec FqcaProofs.
From Coq Require Import List.
Import ListNotations.
Local Open Scope Z_scope.

Lemma after_app p t : after p (p ++ t) = Some t.
Proof. induction p as [|a r IH]; [reflexivity|]. cbn [app after]. rewrite Ascii.eqb_refl. exact IH. Qed.
Lemma before_last_snoc c t : before_last c (t ++ [c]) = Some t.
Proof. unfold before_last. rewrite rev_app_distr. cbn [rev app]. rewrite Ascii.eqb_refl, rev_involutive. reflexivity. Qed.
Lemma text_eqb_false a b : a <> b -> text_eqb a b = false.
Proof. intros N. destruct (text_eqb a b) eqn:E; [|reflexivity]. apply text_eqb_spec in E. congruence. Qed.

(** *** Definitions of labelled cells *)
Definition opt_line (b : bool) (t : text) : list text := if b then [t] else [].
Definition def_lines (d : ascii) (pi po : bool) (nm : string) (cd : ascii) : list text :=
  [[d; ":"%char]] ++ opt_line pi (str "- input") ++ opt_line po (str "- output") ++
  opt_line (negb (String.eqb nm "")) (str "- label = """ ++ str nm ++ str """") ++ [str "- clock = " ++ [cd]; []].
Definition def_step (pi po : coord -> bool) (nm : coord -> string) (cdig : coord -> ascii) (l : clayout) (c : coord) : clayout :=
  let l1 := if pi c then assign_cell_type qca l c (t_input qca) else l in
  let l2 := if po c then assign_cell_type qca l1 c (t_output qca) else l1 in
  let l3 := if negb (String.eqb (nm c) "") then assign_cell_name l2 c (unspaced (nm c)) else l2 in
  c_assign_clock l3 c (dval (cdig c)).
Definition dstate (l : clayout) (layer row : Z) (mx cur : coord) (mp : list (ascii * coord)) : rst := mkR l true layer row mx cur mp.

Section Defs.
  Variable k : kind.
  Variables layer row : Z.
  Variable mx : coord.
  Variable mp : list (ascii * coord).
  Lemma empty_line s n : parse_line k s n [] = FOk s.
  Proof. reflexivity. Qed.
  Lemma id_line l cur n d c : is_alpha d = true -> find_label mp d = Some c ->
    parse_line k (dstate l layer row mx cur mp) n [d; ":"%char] = FOk (dstate l layer row mx c mp).
  Proof.
    intros A F. assert (Es : is_space d = false).
    { destruct (is_space d) eqn:E; [|reflexivity]. exfalso. revert A E. unfold is_alpha, is_space, FglModel.is_space. intros A E.
      apply orb_true_iff in A. apply orb_true_iff in E. rewrite !andb_true_iff, !Nat.leb_le in A. rewrite Nat.eqb_eq, !andb_true_iff, !Nat.leb_le in E. lia. }
    unfold parse_line. cbn [r_defs dstate]. assert (E : strip [d; ":"%char] = [d; ":"%char]).
    { unfold strip. cbn [List.filter]. rewrite Es. reflexivity. }
    rewrite E. unfold parse_definition, re_id, is_word. rewrite A. cbn [orb andb]. rewrite Ascii.eqb_refl. unfold dstate. cbn [r_map r_lyt r_defs r_layer r_row r_max]. rewrite F. reflexivity.
  Qed.
  Lemma input_line l cur n : parse_line k (dstate l layer row mx cur mp) n (str "- input") = FOk (dstate (assign_cell_type qca l cur (t_input qca)) layer row mx cur mp).
  Proof. reflexivity. Qed.
  Lemma output_line l cur n : parse_line k (dstate l layer row mx cur mp) n (str "- output") = FOk (dstate (assign_cell_type qca l cur (t_output qca)) layer row mx cur mp).
  Proof. reflexivity. Qed.
  Lemma label_line l cur n nm : parse_line k (dstate l layer row mx cur mp) n (str "- label = """ ++ str nm ++ str """") =
    FOk (dstate (assign_cell_name l cur (unspaced nm)) layer row mx cur mp).
  Proof.
    unfold parse_line. change (str "- label = """ ++ str nm ++ str """") with ("-"%char :: str " label = """ ++ str nm ++ str """") at 1. cbv iota.
    unfold dstate at 1. cbn [r_defs]. rewrite !strip_app. change (strip (str "- label = """)) with (str "-label="""). change (strip (str """")) with [""""%char].
    assert (E : re_label (str "-label=""" ++ strip (str nm) ++ [""""%char]) = Some (strip (str nm))).
    { unfold re_label. rewrite after_app. apply before_last_snoc. }
    unfold parse_definition. change (str "-label=""" ++ strip (str nm) ++ [""""%char]) with ("-"%char :: "l"%char :: "a"%char :: str "bel=""" ++ strip (str nm) ++ [""""%char]) at 1 2. 
    cbv iota. unfold re_id. cbv iota.
    rewrite (text_eqb_false _ (str "-input")) by discriminate. rewrite (text_eqb_false _ (str "-output")) by discriminate. rewrite E. reflexivity.
  Qed.
  Lemma clock_line l cur n cdg : glob l -> is_digit cdg = true -> parse_line k (dstate l layer row mx cur mp) n (str "- clock = " ++ [cdg]) =
    FOk (dstate (c_assign_clock l cur (dval cdg)) layer row mx cur mp).
  Proof.
    intros G D. assert (Es : is_space cdg = false).
    { destruct (is_space cdg) eqn:E; [|reflexivity]. exfalso. revert D E. unfold is_digit, is_space, FglModel.is_space. intros A E.
      apply orb_true_iff in E. rewrite !andb_true_iff, !Nat.leb_le in A. rewrite Nat.eqb_eq, !andb_true_iff, !Nat.leb_le in E. lia. }
    unfold parse_line. change (str "- clock = " ++ [cdg]) with ("-"%char :: str " clock = " ++ [cdg]) at 1. cbv iota.
    unfold dstate at 1. cbn [r_defs]. rewrite !strip_app. change (strip (str "- clock = ")) with (str "-clock=").
    assert (E0 : strip [cdg] = [cdg]) by (unfold strip; cbn [List.filter]; rewrite Es; reflexivity). rewrite E0.
    assert (E : re_clock (str "-clock=" ++ [cdg]) = Some cdg) by (unfold re_clock; rewrite after_app, D; reflexivity).
    assert (E1 : re_label (str "-clock=" ++ [cdg]) = None) by reflexivity.
    unfold parse_definition. change (str "-clock=" ++ [cdg]) with ("-"%char :: "c"%char :: "l"%char :: str "ock=" ++ [cdg]) at 1 2.
    cbv iota. unfold re_id. cbv iota.
    rewrite (text_eqb_false _ (str "-input")) by discriminate. rewrite (text_eqb_false _ (str "-output")) by discriminate. rewrite E1, E.
    unfold set_lyt, dstate, to_clock_number, num_clocks, dval. cbn [r_lyt r_cur r_defs r_layer r_row r_max r_map]. rewrite (gl_num _ G). reflexivity.
  Qed.
  Variables (pi po : coord -> bool) (nm : coord -> string) (cdig : coord -> ascii).
  Lemma def_step_glob : keeps (def_step pi po nm cdig).
  Proof. intros l c G. unfold def_step. cbv zeta. apply glob_clock. destruct (pi c), (po c), (negb _); repeat (first [apply glob_name|apply glob_type]); exact G. Qed.
  Lemma def_step_elsewhere : elsewhere (def_step pi po nm cdig).
  Proof.
    intros l c d N. unfold def_step. cbv zeta. rewrite ob_clock, (decide_False (P := d = c)) by exact N.
    destruct (pi c), (po c), (negb _); rewrite ?ob_name, ?ob_type, ?(decide_False (P := d = c)) by exact N;
      rewrite ?ob_type, ?(decide_False (P := d = c)) by exact N; rewrite ?ob_type, ?(decide_False (P := d = c)) by exact N; reflexivity.
  Qed.
  Lemma def_block l cur n d c : glob l -> is_alpha d = true -> find_label mp d = Some c -> is_digit (cdig c) = true ->
    parse_lines k (dstate l layer row mx cur mp) n (def_lines d (pi c) (po c) (nm c) (cdig c)) =
    FOk (dstate (def_step pi po nm cdig l c) layer row mx c mp).
  Proof.
    intros G A F D. unfold def_lines, def_step, opt_line. cbn [app parse_lines]. rewrite (id_line _ _ _ _ c) by assumption. cbn [fbind].
    rewrite !parse_lines_app. destruct (pi c); cbn [parse_lines fbind app]; rewrite ?input_line; cbn [fbind];
    rewrite !parse_lines_app; destruct (po c); cbn [parse_lines fbind app]; rewrite ?output_line; cbn [fbind];
    rewrite !parse_lines_app; destruct (negb _); cbn [parse_lines fbind app]; rewrite ?label_line; cbn [fbind];
    rewrite clock_line by (try exact D; repeat (first [apply glob_name|apply glob_type]); exact G); cbn [fbind]; rewrite empty_line; reflexivity.
  Qed.
  Lemma def_blocks : forall labs l cur n, glob l ->
    (forall c d, In (c, d) labs -> is_alpha d = true /\ find_label mp d = Some c /\ is_digit (cdig c) = true) ->
    exists cur', parse_lines k (dstate l layer row mx cur mp) n
      (flat_map (fun cd => def_lines (snd cd) (pi (fst cd)) (po (fst cd)) (nm (fst cd)) (cdig (fst cd))) labs) =
    FOk (dstate (fold_left (def_step pi po nm cdig) (map fst labs) l) layer row mx cur' mp).
  Proof.
    induction labs as [|[c d] r IH]; intros l cur n G HL; [exists cur; reflexivity|].
    destruct (HL c d (or_introl eq_refl)) as (A & F & D). cbn [flat_map map fst snd fold_left]. rewrite parse_lines_app, def_block by assumption. cbn [fbind].
    apply IH; [apply def_step_glob; exact G|]. intros c' d' Hi. apply HL. right. exact Hi.
  Qed.
End Defs.

(** *** Files *)
  Lemma alpha_not_digit a : is_alpha a = true -> is_digit a = false /\ is_space a = false.
  Proof.
    unfold is_alpha, is_digit, is_space, FglModel.is_space. rewrite orb_true_iff, !andb_true_iff, !Nat.leb_le. intros A. split.
    - apply andb_false_iff. rewrite !Nat.leb_gt. lia.
    - apply orb_false_iff. rewrite Nat.eqb_neq, andb_false_iff, !Nat.leb_gt. lia.
  Qed.
Section Files.
  Variable k : kind.
  Hypothesis k_qca : k <> Siqad.
  Variable chr : coord -> ascii.
  Variables W H P : nat.
  Hypothesis W_ok : (0 < W)%nat /\ Z.of_nat W <= 2 ^ 31.
  Hypothesis H_ok : Z.of_nat H <= 2 ^ 31.
  Hypothesis P_ok : Z.of_nat P <= match k with Offset => 2 | _ => 2 ^ 31 end.
  Hypothesis good : forall c, good_char (chr c).
  Variables (pi po : coord -> bool) (nm : coord -> string) (cdig : coord -> ascii).
  Variable labs : list (coord * ascii).
  Let cells := all_cells W H P.
  Hypothesis labs_ok : forall c d, In (c, d) labs -> In c cells /\ d = chr c /\ is_alpha d = true /\ is_digit (cdig c) = true.
  Hypothesis inj : forall c c', In c cells -> In c' cells -> is_alpha (chr c) = true -> chr c = chr c' -> c = c'.
  Variable head : text.

  Definition file_lines : list text :=
    [head; []] ++ flat_map (plane_lines chr W H) (zs P) ++ [sep_text W; []; []; str "$"; []] ++
    flat_map (fun cd => def_lines (snd cd) (pi (fst cd)) (po (fst cd)) (nm (fst cd)) (cdig (fst cd))) labs.
  Definition l_init : clayout := r_lyt r_init.
  Definition l_read : clayout :=
    fold_left (def_step pi po nm cdig) (map fst labs) (fold_left (cell_step chr) cells l_init).
  Definition m_read : coord := fold_left (max_step chr) cells dead0.

  Lemma core_fold cs : forall l m p, fold_left (core_step chr) cs (l, m, p) =
    (fold_left (cell_step chr) cs l, fold_left (max_step chr) cs m, fold_left (map_step chr) cs p).
  Proof. induction cs as [|c r IH]; intros l m p; [reflexivity|]. apply IH. Qed.
  Lemma find_map : forall cs p a c, (forall c', In c' cs -> is_alpha (chr c') = true -> chr c' = a -> c' = c) ->
    is_alpha a = true -> chr c = a ->
    (In c cs \/ find_label p a = Some c) -> find_label (fold_left (map_step chr) cs p) a = Some c.
  Proof.
    induction cs as [|c0 r IH]; intros p a c U A E Hor; [destruct Hor as [[]|Hf]; exact Hf|].
    cbn [fold_left]. apply IH; [intros c' Hc; apply U; right; exact Hc|exact A|exact E|].
    unfold map_step. destruct (decide (chr c0 = a)) as [E0|E0].
    - right. assert (c0 = c) as -> by (apply U; [left; reflexivity|rewrite E0; exact A|exact E0]).
      destruct (alpha_not_digit _ A) as [D S0]. rewrite E, S0, D, A. unfold find_label. cbn [List.find fst snd]. rewrite Ascii.eqb_refl. reflexivity.
    - destruct Hor as [[->|Hi]|Hf]; [congruence|left; exact Hi|right].
      destruct (is_space (chr c0)); [exact Hf|]. destruct (is_digit (chr c0)); [exact Hf|]. destruct (is_alpha (chr c0)); [|exact Hf].
      unfold find_label in *. cbn [List.find fst snd]. destruct (Ascii.eqb_spec (chr c0) a); [congruence|exact Hf].
  Qed.
  Lemma init_glob : glob l_init.
  Proof. split; reflexivity. Qed.

  Theorem read_file : ~ In nl head -> re_comment (strip head) = true ->
    (forall c, In c (map fst labs) -> one_line (nm c)) ->
    read_fqca_layout k (unlines file_lines) = FOk (c_resize l_read m_read).
  Proof using k_qca W_ok H_ok P_ok good labs_ok inj.
    intros Hh Hc Hn. unfold read_fqca_layout. rewrite getlines_unlines.
    2: { intros ln Hl. unfold file_lines in Hl. apply in_app_or in Hl. destruct Hl as [[<-|[<-|[]]]|Hl]; [exact Hh|intros []|].
         apply in_app_or in Hl. destruct Hl as [Hl|Hl].
         - apply in_flat_map in Hl. destruct Hl as (p & _ & [<-|Hl]).
           + unfold sep_text. intros X. apply in_flat_map in X. destruct X as (x & _ & X). revert X. change (str "= ") with ["="%char; " "%char]. intros [X|[X|[]]]; discriminate X.
           + apply in_map_iff in Hl. destruct Hl as (y & <- & _). intros X. destruct (in_row _ _ _ _ _ X) as [E|(x & E)]; [discriminate E|].
             destruct (good (live x y p)) as [G|[G|[G|[G|G]]]]; rewrite <- E in G; discriminate G.
         - apply in_app_or in Hl. destruct Hl as [Hl|Hl].
           + destruct Hl as [<-|Hl].
             { unfold sep_text. intros X. apply in_flat_map in X. destruct X as (x & _ & X). revert X. change (str "= ") with ["="%char; " "%char]. intros [X|[X|[]]]; discriminate X. }
             destruct Hl as [<-|[<-|[<-|[<-|[]]]]]; intros X; vm_compute in X; try exact X. destruct X as [X|[]]. discriminate X.
           + apply in_flat_map in Hl. destruct Hl as ((c & d) & Hi & Hl). cbn [fst snd] in Hl. destruct (labs_ok c d Hi) as (_ & _ & A & D).
             unfold def_lines, opt_line in Hl. repeat (apply in_app_or in Hl as [Hl|Hl]).
             * destruct Hl as [<-|[]]. intros [X|[X|[]]]; [subst d; discriminate A|discriminate X].
             * destruct (pi c); [|destruct Hl]. destruct Hl as [<-|[]]. intros X. vm_compute in X. repeat (destruct X as [X|X]; [discriminate X|]). exact X.
             * destruct (po c); [|destruct Hl]. destruct Hl as [<-|[]]. intros X. vm_compute in X. repeat (destruct X as [X|X]; [discriminate X|]). exact X.
             * destruct (negb _); [|destruct Hl]. destruct Hl as [<-|[]]. intros X. apply in_app_or in X. destruct X as [X|X]; [|apply in_app_or in X; destruct X as [X|X]].
               -- vm_compute in X. repeat (destruct X as [X|X]; [discriminate X|]). exact X.
               -- exact (Hn c (in_map fst _ _ Hi) X).
               -- vm_compute in X. repeat (destruct X as [X|X]; [discriminate X|]). exact X.
             * destruct Hl as [<-|[<-|[]]]; [|intros []]. intros X. apply in_app_or in X. destruct X as [X|[X|[]]].
               -- vm_compute in X. repeat (destruct X as [X|X]; [discriminate X|]). exact X.
               -- rewrite X in D. discriminate D. }
    unfold file_lines. cbn [app parse_lines].
    assert (E0 : forall n, parse_line k r_init n head = FOk r_init).
    { intros n. unfold parse_line. destruct head as [|c0 r0] eqn:Eh; [reflexivity|]. rewrite <- Eh in *. cbn [r_defs r_init]. rewrite Hc. reflexivity. }
    rewrite E0. cbn [fbind]. rewrite empty_line. cbn [fbind]. rewrite parse_lines_app.
    assert (HP : Z.of_nat P <= 2 ^ 31) by (destruct k; lia).
    destruct (planes_ok k k_qca chr W H P W_ok H_ok P_ok good HP P 0 (l_init, dead0, []) (1 + 1 + 1) 0 init_glob ltac:(lia)) as (row' & E).
    change (state (l_init, dead0, []) (Z.of_nat 0) 0) with r_init in E. unfold zs. rewrite E. cbn [fbind]. clear E. rewrite core_fold.
    cbn [app parse_lines]. rewrite (sep_line k W W_ok) by lia. cbn [fbind]. do 2 (rewrite empty_line; cbn [fbind]).
    match goal with |- context [parse_line k ?s ?n (str "$")] => change (parse_line k s n (str "$")) with (FOk (mkR (r_lyt s) true (r_layer s) (r_row s) (r_max s) (r_cur s) (r_map s))) end.
    cbn [fbind]. rewrite empty_line. cbn [fbind]. unfold state. cbn [r_lyt r_layer r_row r_max r_cur r_map fst snd].
    match goal with |- context [parse_lines k (mkR ?l true ?la ?ro ?mx ?cu ?mp) ?n _] =>
      destruct (def_blocks k la ro mx mp pi po nm cdig labs l cu n) as (cur' & E) end.
    - apply keeps_fold; [apply cell_step_glob|apply init_glob].
    - intros c d Hi. destruct (labs_ok c d Hi) as (Hci & -> & A & D). split; [exact A|]. split; [|exact D].
      apply find_map; [|exact A|reflexivity|left; exact Hci]. intros c' Hc' A' E'. apply inj; assumption.
    - unfold dstate in E. rewrite E. reflexivity.
  Qed.
End Files.

(** *** The dimensions that are read *)
Definition maxish (f : coord -> Z) : Prop := forall m c, f (grow m c) = Z.max (f m) (f c).
Lemma maxish_x : maxish cx. Proof. intros m c. unfold grow. cbn [cx]. destruct (cx c >? cx m) eqn:E; lia. Qed.
Lemma maxish_y : maxish cy. Proof. intros m c. unfold grow. cbn [cy]. destruct (cy c >? cy m) eqn:E; lia. Qed.
Lemma maxish_z : maxish cz. Proof. intros m c. unfold grow. cbn [cz]. destruct (cz c >? cz m) eqn:E; lia. Qed.
Lemma max_fold chr f : maxish f -> forall cs m, let r := fold_left (max_step chr) cs m in
  f m <= f r /\ (forall c, In c cs -> is_space (chr c) = false -> f c <= f r) /\
  (f r = f m \/ exists c, In c cs /\ is_space (chr c) = false /\ f c = f r).
Proof.
  intros M. induction cs as [|c r IH]; intros m; cbv zeta; cbn [fold_left].
  - split; [lia|]. split; [intros c []|left; reflexivity].
  - specialize (IH (max_step chr m c)). cbv zeta in IH. destruct IH as (I1 & I2 & I3). unfold max_step in *. destruct (is_space (chr c)) eqn:E.
    + split; [exact I1|]. split.
      * intros c' [->|Hi] Hs; [congruence|]. apply I2; assumption.
      * destruct I3 as [I3|(c' & Hi & R)]; [left; exact I3|right; exists c'; split; [right; exact Hi|exact R]].
    + rewrite M in I1, I3. split; [lia|]. split.
      * intros c' [->|Hi] Hs; [lia|]. apply I2; assumption.
      * destruct I3 as [I3|(c' & Hi & R)]; [|right; exists c'; split; [right; exact Hi|exact R]].
        destruct (Z.max_spec (f m) (f c)) as [[_ Em]|[_ Em]]; [right; exists c; split; [left; reflexivity|split; [exact E|lia]]|left; lia].
Qed.
