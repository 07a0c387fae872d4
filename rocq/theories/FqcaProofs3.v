(** What the writer writes. *)
From Coq Require Import ZArith Lia Bool String Ascii List.
From stdpp Require Import gmap list.
From Verif Require Import CoordModel CoordSpec GridModel CoordMap ClockModel CellModel FqcaModel FqcaSpec FqcaProofs FqcaProofs2.
From Coq Require Import List.
Import ListNotations.
Local Open Scope Z_scope.

(** *** Lists of cells *)
Lemma in_zs n x : In x (zs n) <-> 0 <= x < Z.of_nat n.
Proof.
  unfold zs. rewrite in_map_iff. split.
  - intros (m & <- & Hm). apply in_seq in Hm. lia.
  - intros Hx. exists (Z.to_nat x). split; [lia|]. apply in_seq. lia.
Qed.
Lemma in_all W H P c : In c (all_cells W H P) <-> cd c = false /\ 0 <= cx c < Z.of_nat W /\ 0 <= cy c < Z.of_nat H /\ 0 <= cz c < Z.of_nat P.
Proof.
  unfold all_cells, plane_cells, row_cells. rewrite in_flat_map. split.
  - intros (p & Hp & Hc). apply in_flat_map in Hc. destruct Hc as (y & Hy & Hc). apply in_map_iff in Hc. destruct Hc as (x & <- & Hx).
    apply in_zs in Hp, Hy, Hx. cbn [cd cx cy cz live]. auto.
  - intros (Hd & Hx & Hy & Hz). exists (cz c). split; [apply in_zs; exact Hz|]. apply in_flat_map. exists (cy c). split; [apply in_zs; exact Hy|].
    apply in_map_iff. exists (cx c). split; [|apply in_zs; exact Hx]. destruct c. cbn in *. subst. reflexivity.
Qed.
Lemma nodup_zs n : List.NoDup (zs n).
Proof. unfold zs. apply FinFun.Injective_map_NoDup; [intros a b; lia|apply seq_NoDup]. Qed.
Lemma nodup_flat_map {A B} (f : A -> list B) (key : B -> A) : forall l, List.NoDup l -> (forall a, In a l -> List.NoDup (f a)) ->
  (forall a b, In a l -> In b (f a) -> key b = a) -> List.NoDup (flat_map f l).
Proof.
  induction l as [|a r IH]; intros N Hf Hk; [constructor|]. inversion N as [|? ? N1 N2]; subst. cbn [flat_map].
  assert (G : forall u v : list B, List.NoDup u -> List.NoDup v -> (forall x, In x u -> ~ In x v) -> List.NoDup (u ++ v)).
  { clear. induction u as [|x u IH]; intros v Nu Nv D; [exact Nv|]. inversion Nu; subst. cbn [app]. constructor.
    - intros X. apply in_app_or in X. destruct X as [X|X]; [contradiction|]. exact (D x (or_introl eq_refl) X).
    - apply IH; [assumption|assumption|]. intros y Hy. apply D. right. exact Hy. }
  apply G.
  - apply Hf. left. reflexivity.
  - apply IH; [exact N2|intros; apply Hf; right; assumption|intros; apply Hk; [right|]; assumption].
  - intros x Hx X. apply in_flat_map in X. destruct X as (b & Hb & X).
    apply N1. rewrite <- (Hk a x (or_introl eq_refl) Hx), (Hk b x (or_intror Hb) X). exact Hb.
Qed.
Lemma nodup_all W H P : List.NoDup (all_cells W H P).
Proof.
  unfold all_cells. apply (nodup_flat_map _ cz); [apply nodup_zs| |].
  - intros p _. unfold plane_cells. apply (nodup_flat_map _ cy); [apply nodup_zs| |].
    + intros y _. unfold row_cells. apply FinFun.Injective_map_NoDup; [|apply nodup_zs]. intros a b E. apply (f_equal cx) in E. exact E.
    + intros y c _ Hc. apply in_map_iff in Hc. destruct Hc as (x & <- & _). reflexivity.
  - intros p c _ Hc. apply in_flat_map in Hc. destruct Hc as (y & _ & Hc). apply in_map_iff in Hc. destruct Hc as (x & <- & _). reflexivity.
Qed.

(** *** Designators *)
Fixpoint pos (c : coord) (L : list coord) : nat :=
  match L with [] => 0%nat | d :: r => if decide (d = c) then 0%nat else S (pos c r) end.
Lemma pos_split c L R : ~ In c L -> pos c (L ++ c :: R) = length L.
Proof.
  induction L as [|d r IH]; intros N; cbn [app pos].
  - rewrite decide_True by reflexivity. reflexivity.
  - rewrite decide_False by (intros ->; apply N; left; reflexivity). cbn [length]. rewrite IH; [reflexivity|]. intros X. apply N. right. exact X.
Qed.
Lemma pos_in c L : In c L -> (pos c L < length L)%nat /\ nth_error L (pos c L) = Some c.
Proof.
  induction L as [|d r IH]; intros Hi; [destruct Hi|]. cbn [pos]. destruct (decide (d = c)) as [->|N].
  - cbn [length nth_error]. split; [lia|reflexivity].
  - destruct Hi as [->|Hi]; [congruence|]. destruct (IH Hi) as [I1 I2]. cbn [length nth_error]. split; [lia|exact I2].
Qed.
Lemma combine_snoc {A B} (L : list A) : forall (M : list B) a b, nth_error M (length L) = Some b ->
  List.combine (L ++ [a]) M = List.combine L M ++ [(a, b)].
Proof.
  induction L as [|x r IH]; intros M a b E; destruct M as [|m M']; cbn in E; try discriminate.
  - injection E as ->. reflexivity.
  - cbn. rewrite (IH M' a b E). reflexivity.
Qed.
Lemma skipn_nth {A} (d : A) : forall n L, (n < length L)%nat -> skipn n L = nth n L d :: skipn (S n) L.
Proof. induction n as [|n IH]; intros [|a r] Hn; cbn [length] in Hn; try lia; [reflexivity|]. cbn [nth]. change (drop (S n) (a :: r)) with (drop n r). rewrite (IH r) by lia. reflexivity. Qed.
Lemma in_combine_nth (L : list coord) : forall (M : text) c d, In (c, d) (List.combine L M) -> List.NoDup L -> In c L /\ d = nth (pos c L) M " "%char /\ (pos c L < length M)%nat.
Proof.
  induction L as [|x r IH]; intros [|m M'] c d Hi N; cbn [List.combine] in Hi; try (destruct Hi; fail).
  inversion N as [|? ? N1 N2]; subst. destruct Hi as [E|Hi].
  - injection E as -> ->. cbn [pos]. rewrite decide_True by reflexivity. split; [left; reflexivity|]. split; [reflexivity|]. cbn [length]. lia.
  - destruct (IH M' c d Hi N2) as (I1 & I2 & I3). cbn [pos]. rewrite decide_False by (intros ->; contradiction). split; [right; exact I1|].
    split; [exact I2|]. cbn [length]. lia.
Qed.
Lemma map_fst_combine {A B} (L : list A) : forall (M : list B), (length L <= length M)%nat -> map fst (List.combine L M) = L.
Proof. induction L as [|a r IH]; intros [|m M'] E; cbn [length] in E; try lia; [reflexivity|reflexivity|]. cbn. rewrite IH by lia. reflexivity. Qed.
Lemma nodup_alphabet : List.NoDup alphabet.
Proof. apply (List.NoDup_count_occ ascii_dec). intros x. destruct x as [[] [] [] [] [] [] [] []]; vm_compute; repeat constructor. Qed.
Lemma alphabet_alpha : forall a, In a alphabet -> is_alpha a = true.
Proof. apply forallb_forall. vm_compute. reflexivity. Qed.
Lemma alphabet_length : length alphabet = 52%nat.
Proof. reflexivity. Qed.

(** *** Characters *)
Definition dig (n : Z) : ascii := ascii_of_nat (48 + Z.to_nat n).
Lemma dig_cases n : 0 <= n < 4 -> num_text n = [dig n] /\ is_digit (dig n) = true /\ dval (dig n) = n.
Proof. intros Hn. assert (n = 0 \/ n = 1 \/ n = 2 \/ n = 3) as [->|[->|[->| ->]]] by lia; repeat split; vm_compute; reflexivity. Qed.

Section Writer.
  Variable l : clayout.
  Let ar := cl_dim (c_cl l).
  Let W := S (Z.to_nat (cx ar)).
  Let H := S (Z.to_nat (cy ar)).
  Let D := S (Z.to_nat (cz ar)).
  Hypothesis dim_pos : 0 <= cx ar /\ 0 <= cy ar /\ 0 <= cz ar.
  Hypothesis clocks : forall c, inb ar c -> exists n, cell_clock_number l c = Some n /\ 0 <= n < 4.

  Definition src_cells : list coord := all_cells W H D.
  Definition lab_b (c : coord) : bool := negb (is_empty_cell qca l c) && is_labeled l c.
  Definition labs_of (cs : list coord) : list coord := List.filter lab_b cs.
  Hypothesis few : (length (labs_of src_cells) <= 52)%nat.

  Definition clkd (c : coord) : ascii :=
    match cell_clock_number l c with Some n => if (0 <=? n) && (n <? 4) then dig n else "0"%char | None => "0"%char end.
  Definition chw (c : coord) : ascii :=
    if is_empty_cell qca l c then " "%char
    else if is_labeled l c then nth (pos c (labs_of src_cells)) alphabet " "%char
    else if get_cell_type qca l c =? q_const0 then "-"%char
    else if get_cell_type qca l c =? q_const1 then "+"%char
    else clkd c.
  Definition viach (c : coord) : ascii := if get_cell_mode l c =? m_vertical then clkd c else " "%char.

  Lemma clkd_digit c : is_digit (clkd c) = true.
  Proof using Type. clear few clocks dim_pos. unfold clkd. destruct (cell_clock_number l c) as [n|]; [|reflexivity]. destruct ((0 <=? n) && (n <? 4)) eqn:E; [|reflexivity]. apply (dig_cases n). lia. Qed.
  Lemma clock_text_ok c : inb ar c -> clock_text l c = FOk [clkd c] /\ cell_clock_number l c = Some (dval (clkd c)).
  Proof using clocks.
    clear few dim_pos. intros Hc. destruct (clocks c Hc) as (n & E & Hn). unfold clock_text, clkd. rewrite E. destruct ((0 <=? n) && (n <? 4)) eqn:E1; [|lia].
    destruct (dig_cases n Hn) as (E2 & _ & E3). rewrite E2, E3. split; reflexivity.
  Qed.
  Lemma chw_good c : good_char (chw c).
  Proof using Type.
    clear few clocks dim_pos. unfold good_char, chw. destruct (is_empty_cell qca l c); [left; reflexivity|]. destruct (is_labeled l c).
    - destruct (Nat.lt_ge_cases (pos c (labs_of src_cells)) (length alphabet)) as [Hl|Hl].
      + right. right. left. apply alphabet_alpha, nth_In, Hl.
      + left. apply nth_overflow, Hl.
    - destruct (_ =? q_const0); [right; right; right; left; reflexivity|]. destruct (_ =? q_const1); [right; right; right; right; reflexivity|].
      right. left. apply clkd_digit.
  Qed.
  Lemma viach_good c : good_char (viach c).
  Proof using Type. clear few clocks dim_pos. unfold good_char, viach. destruct (_ =? _); [right; left; apply clkd_digit|left; reflexivity]. Qed.

  Lemma src_inb c : In c src_cells <-> inb ar c.
  Proof using dim_pos. clear few clocks. unfold src_cells. rewrite in_all. unfold inb, W, H, D. destruct dim_pos as (? & ? & ?). split; intros (? & ? & ? & ?); repeat split; try assumption; lia. Qed.

  Definition wstate (done : list coord) : wst := mkW (skipn (length (labs_of done)) alphabet) (List.combine (labs_of done) alphabet).
  Lemma write_cell_ok done c rest : src_cells = done ++ c :: rest -> write_cell l (wstate done) c = FOk ([chw c; " "%char], wstate (done ++ [c])).
  Proof using dim_pos clocks few.
    intros E. assert (Hc : inb ar c) by (apply src_inb; rewrite E; apply in_or_app; right; left; reflexivity).
    assert (Nd : ~ In c done).
    { pose proof (nodup_all W H D) as N. fold src_cells in N. rewrite E in N. apply List.NoDup_remove_2 in N. intros X. apply N. apply in_or_app. left. exact X. }
    assert (Es : labs_of (done ++ [c]) = labs_of done ++ (if lab_b c then [c] else [])) by (unfold labs_of; rewrite List.filter_app; reflexivity).
    unfold write_cell, chw, wstate. rewrite Es.
    assert (Eb : lab_b c = negb (is_empty_cell qca l c) && is_labeled l c) by reflexivity.
    destruct (is_empty_cell qca l c) eqn:Ee; [cbn [negb andb] in Eb; rewrite Eb, app_nil_r; reflexivity|].
    destruct (is_labeled l c) eqn:El; cbn [negb andb] in Eb; rewrite Eb.
    - assert (Ep : pos c (labs_of src_cells) = length (labs_of done)).
      { rewrite E. unfold labs_of. rewrite List.filter_app. cbn [List.filter]. rewrite Eb. apply pos_split.
        intros X. apply filter_In in X. apply Nd, X. }
      assert (Hl : (length (labs_of done) < length alphabet)%nat).
      { rewrite alphabet_length. pose proof few as F. rewrite E in F. unfold labs_of in F. rewrite List.filter_app, app_length in F. cbn [List.filter] in F.
        rewrite Eb in F. cbn [length] in F. unfold labs_of. lia. }
      rewrite Ep. unfold next_cell_designator. cbn [w_iter w_lab]. rewrite (skipn_nth " "%char) by exact Hl. cbn [fbind].
      rewrite (combine_snoc _ _ c (nth (length (labs_of done)) alphabet " "%char)) by (apply nth_error_nth'; exact Hl).
      cbn [w_iter w_lab]. rewrite app_length. cbn [length]. rewrite Nat.add_1_r. reflexivity.
    - rewrite app_nil_r. destruct (_ =? q_const0); [reflexivity|]. destruct (_ =? q_const1); [reflexivity|].
      destruct (clock_text_ok c Hc) as [E1 _]. rewrite E1. reflexivity.
  Qed.
  Lemma write_via_ok c : inb ar c -> write_via_cell l c = FOk [viach c; " "%char].
  Proof using clocks. intros Hc. unfold write_via_cell, viach. destruct (_ =? _); [|reflexivity]. destruct (clock_text_ok c Hc) as [E1 _]. rewrite E1. reflexivity. Qed.

  Definition rowt (f : coord -> ascii) (y z : Z) (xs : list Z) : text := flat_map (fun x => [f (live x y z); " "%char]) xs.
  Lemma write_row_ok via y z : forall xs done rest, src_cells = done ++ map (fun x => live x y z) xs ++ rest ->
    write_row l via y z xs (wstate done) =
    FOk (rowt chw y z xs, if via then rowt viach y z xs else [], wstate (done ++ map (fun x => live x y z) xs)).
  Proof using dim_pos clocks few.
    induction xs as [|x r IH]; intros done rest E.
    - cbn [write_row rowt flat_map map]. rewrite app_nil_r. destruct via; reflexivity.
    - cbn [map app] in E. cbn [write_row]. rewrite (write_cell_ok done _ _ E). cbn [fbind].
      assert (Hc : inb ar (live x y z)) by (apply src_inb; rewrite E; apply in_or_app; right; left; reflexivity).
      specialize (IH (done ++ [live x y z]) rest). rewrite <- !app_assoc in IH. cbn [app] in IH. specialize (IH E).
      destruct via; cbn [fbind]; rewrite ?write_via_ok by exact Hc; cbn [fbind]; rewrite IH; cbn [fbind fst snd map]; reflexivity.
  Qed.
  Lemma write_rows_ok via z : forall ys done rest, src_cells = done ++ flat_map (fun y => row_cells W y z) ys ++ rest ->
    write_rows l via z ys (wstate done) =
    FOk (unlines (map (fun y => rowt chw y z (zs W)) ys), if via then unlines (map (fun y => rowt viach y z (zs W)) ys) else [],
         wstate (done ++ flat_map (fun y => row_cells W y z) ys)).
  Proof using dim_pos clocks few.
    induction ys as [|y r IH]; intros done rest E.
    - cbn [write_rows flat_map map unlines]. rewrite app_nil_r. destruct via; reflexivity.
    - cbn [flat_map] in E. rewrite <- app_assoc in E. cbn [write_rows].
      pose proof (write_row_ok via y z (zs W) done _ E) as R. fold ar. unfold upto. fold W. change (map Z.of_nat (seq 0 W)) with (zs W). rewrite R. cbn [fbind]. clear R.
      specialize (IH (done ++ row_cells W y z) rest). rewrite <- app_assoc in IH. specialize (IH E). fold (row_cells W y z). rewrite IH. cbn [fbind fst snd flat_map map unlines].
      destruct via; rewrite <- !app_assoc; reflexivity.
  Qed.
  Definition via_at (vias : bool) (z : Z) : bool := vias && negb (z =? cz ar).
  Definition z_lines (vias : bool) (z : Z) : list text :=
    sep_text W :: map (fun y => rowt chw y z (zs W)) (zs H) ++
    (if via_at vias z then sep_text W :: map (fun y => rowt viach y z (zs W)) (zs H) else []).
  Lemma write_layers_ok vias : forall zl done rest, src_cells = done ++ flat_map (plane_cells W H) zl ++ rest ->
    write_layers l vias zl (wstate done) = FOk (unlines (flat_map (z_lines vias) zl), wstate (done ++ flat_map (plane_cells W H) zl)).
  Proof using dim_pos clocks few.
    induction zl as [|z r IH]; intros done rest E.
    - cbn [write_layers flat_map unlines]. rewrite app_nil_r. reflexivity.
    - cbn [flat_map] in E. rewrite <- app_assoc in E. cbn [write_layers]. fold ar. fold (via_at vias z).
      pose proof (write_rows_ok (via_at vias z) z (zs H) done _ E) as R. unfold upto. fold H. change (map Z.of_nat (seq 0 H)) with (zs H). rewrite R. cbn [fbind]. clear R.
      specialize (IH (done ++ plane_cells W H z) rest). rewrite <- app_assoc in IH. specialize (IH E). fold (plane_cells W H z). rewrite IH. cbn [fbind fst snd flat_map].
      rewrite <- app_assoc. unfold z_lines at 2. change (write_layer_separator l) with (sep_text W ++ [nl]).
      assert (UC : forall a r, unlines (a :: r) = (a ++ [nl]) ++ unlines r) by reflexivity.
      destruct (via_at vias z); rewrite ?app_nil_r; cbn [app]; rewrite ?UC, ?unlines_app, ?UC, <- ?app_assoc; reflexivity.
  Qed.
  Lemma layout_definition_ok vias : write_layout_definition l vias = FOk (unlines (flat_map (z_lines vias) (zs D) ++ [sep_text W]), wstate src_cells).
  Proof using dim_pos clocks few.
    unfold write_layout_definition. pose proof (write_layers_ok vias (zs D) [] []) as R. cbn [app] in R. rewrite app_nil_r in R. specialize (R eq_refl).
    change (wstate []) with w_init in R. unfold upto. fold ar. fold D. change (map Z.of_nat (seq 0 D)) with (zs D). rewrite R. cbn [fbind].
    rewrite unlines_app. cbn [unlines flat_map]. rewrite app_nil_r. reflexivity.
  Qed.
  Lemma labeled_ok c d : inb ar c -> write_labeled_cell l (c, d) = FOk (unlines (def_lines d (c_is_pi l c) (c_is_po l c) (get_cell_name l c) (clkd c))).
  Proof using clocks.
    intros Hc. unfold write_labeled_cell. cbn [fst snd]. destruct (clock_text_ok c Hc) as [E1 _]. rewrite E1. cbn [fbind]. f_equal.
    unfold def_lines, opt_line. rewrite !unlines_app. cbn [unlines flat_map]. 
    destruct (c_is_pi l c), (c_is_po l c), (negb _); cbn [flat_map app unlines]; rewrite ?app_nil_r, <- ?app_assoc; reflexivity.
  Qed.
  Lemma cell_definition_ok : forall L, (forall c d, In (c, d) L -> inb ar c) -> write_cell_definition l L =
    FOk (unlines (flat_map (fun cd => def_lines (snd cd) (c_is_pi l (fst cd)) (c_is_po l (fst cd)) (get_cell_name l (fst cd)) (clkd (fst cd))) L)).
  Proof using clocks.
    induction L as [|[c d] r IH]; intros HL; [reflexivity|]. cbn [write_cell_definition]. rewrite labeled_ok by (apply (HL c d); left; reflexivity).
    cbn [fbind]. rewrite IH by (intros c' d' Hi; apply (HL c' d'); right; exact Hi). cbn [fbind flat_map fst snd]. rewrite unlines_app. reflexivity.
  Qed.
  Definition head_text (name ver repo : string) : text :=
    str "[ " ++ (if String.eqb name "" then [] else str name ++ str " - ") ++ str "generated by " ++ str ver ++ str " (" ++ str repo ++ str ") ]".
  Definition src_labs : list (coord * ascii) := List.combine (labs_of src_cells) alphabet.
  Theorem write_ok name ver repo vias : write_fqca_layout name ver repo vias l =
    FOk (unlines ([head_text name ver repo; []] ++ flat_map (z_lines vias) (zs D) ++ [sep_text W; []; []; str "$"; []] ++
      flat_map (fun cd => def_lines (snd cd) (c_is_pi l (fst cd)) (c_is_po l (fst cd)) (get_cell_name l (fst cd)) (clkd (fst cd))) src_labs)).
  Proof using dim_pos clocks few.
    unfold write_fqca_layout. rewrite layout_definition_ok. cbn [fbind]. rewrite cell_definition_ok.
    2: { intros c d Hi. cbn [wstate w_lab] in Hi. apply in_combine_l in Hi. unfold labs_of in Hi. apply filter_In in Hi. apply src_inb, Hi. }
    cbn [fbind wstate w_lab]. f_equal. fold src_labs. rewrite !unlines_app. cbn [unlines flat_map]. unfold write_header, head_text, section_separator.
    rewrite ?app_nil_r, <- !app_assoc. cbn [app]. rewrite <- ?app_assoc. reflexivity.
  Qed.
End Writer.
