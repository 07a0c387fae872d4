(** Proofs about SidbModel.v, part 2: charge indices of a surface, local potentials, validity and energy in terms of the
    charge distribution a surface holds. *)
From Coq Require Import ZArith QArith Qcanon Bool List Lia Lqa Permutation.
From Verif Require Import CoordModel CoordProofs UtilModel SidbModel SidbSpec SidbProofs.
Import ListNotations.
Local Open Scope Z_scope.

(** ** Charge indices *)

Lemma set_charge_same d : set_charge d (d_charge d) = d.
Proof. destruct d; reflexivity. Qed.

Lemma charge_set d l : d_charge d = l -> d = set_charge d l.
Proof. intros <-. symmetry. apply set_charge_same. Qed.

(** The value of the digits [D] of the elements of a list, first element most significant. *)
Fixpoint valD (b : Z) (D : coord -> Z) (l : list coord) : Z :=
  match l with [] => 0 | c :: r => D c * b ^ Z.of_nat (length r) + valD b D r end.
Lemma weighted_valD b D l k top acc : top = Z.of_nat (k + length l) - 1 ->
  fold_left Z.add (map (fun ic : nat * coord => D (snd ic) * b ^ (top - Z.of_nat (fst ic))) (combine (seq k (length l)) l)) acc =
  acc + valD b D l.
Proof.
  revert k acc. induction l as [|c l IH]; intros k acc E; [cbn; lia|]. cbn [length seq combine map fold_left valD fst snd].
  cbn [length] in E. rewrite IH by (rewrite E; lia).
  replace (top - Z.of_nat k) with (Z.of_nat (length l)) by lia. lia.
Qed.
Lemma valD_ext b D E l : (forall c, In c l -> D c = E c) -> valD b D l = valD b E l.
Proof.
  induction l as [|c l IH]; intros H; [reflexivity|]. cbn. rewrite (H c), IH; auto using in_eq. intros x Hx. apply H. right; exact Hx.
Qed.
Lemma number_from_valD b a f (l : list coord) : number_from b a (map f l) = a * b ^ Z.of_nat (length l) + valD b (fun c => digit (f c)) l.
Proof.
  revert a. induction l as [|c l IH]; intros a; [cbn; lia|]. cbn [map number_from valD length]. rewrite IH.
  rewrite Nat2Z.inj_succ, Z.pow_succ_r by lia. lia.
Qed.
Lemma number_valD b f (l : list coord) : number b (map f l) = valD b (fun c => digit (f c)) l.
Proof. unfold number. rewrite number_from_valD. lia. Qed.
Lemma valD_range b f (l : list coord) : base_ok b -> (forall c, In c l -> allowed b (f c)) ->
  0 <= number b (map f l) < b ^ Z.of_nat (length l).
Proof.
  intros B H. rewrite number_lnum, <- (map_length f l), <- (rev_length (map f l)). apply lnum_range; [exact B|].
  apply Forall_rev, Forall_map, Forall_forall. exact H.
Qed.

(** The surface holds the charge states [f] of the SiDBs [cells], in this order. *)
Definition charges (cells : list coord) (d : cds) (f : coord -> cs) : Prop :=
  d_order d = cells /\ d_charge d = map f cells.

Lemma charges_digit cells d f c : NoDup cells -> charges cells d f -> In c cells ->
  nth (Z.to_nat (cell_to_index d c)) (d_charge d) NON = f c.
Proof.
  intros N [O C] I. unfold cell_to_index. rewrite O, C. destruct (index_in_nth c cells I) as [B E].
  rewrite (nth_map f cells _ dead0) by lia. rewrite E. reflexivity.
Qed.
Lemma charges_get cells d f c : NoDup cells -> charges cells d f -> In c cells -> get_charge_state d c = f c.
Proof.
  intros N C I. unfold get_charge_state. rewrite (charges_digit cells d f c N C I).
  destruct C as [O _]. unfold cell_to_index. rewrite O. destruct (index_in_nth c cells I) as [B _].
  destruct (Z.eqb_spec (index_in c cells) (-1)); [lia|reflexivity].
Qed.

Lemma to_index_plain cells d f : NoDup cells -> charges cells d f -> is_dead (d_dep d) = true -> d_three d = [] ->
  to_index d = set_sub (set_base (set_idx d (number (p_base (d_par d)) (map f cells))) (p_base (d_par d))) 0.
Proof.
  intros N C D T. unfold to_index. rewrite D, T. cbn [negb]. unfold num_cells. rewrite (proj1 C).
  rewrite (weighted_valD _ (fun c => sgn (nth (Z.to_nat (cell_to_index d c)) (d_charge d) NON) + 1)) by lia.
  rewrite number_valD.
  erewrite valD_ext; [reflexivity|]. intros c Hc. cbv beta. rewrite (charges_digit cells d f c N C Hc). apply sgn_digit.
Qed.
(** With a dependent cell and no three-state cells. *)
Lemma to_index_dep cells d f : NoDup cells -> charges cells d f -> is_dead (d_dep d) = false -> d_three d = [] ->
  In (d_dep d) cells ->
  to_index d = set_sub (set_base (set_idx d
    (number (p_base (d_par d)) (map f (filter (fun c => negb (coord_eqb c (d_dep d))) cells)))) (p_base (d_par d))) 0.
Proof.
  intros N C D T I. unfold to_index. rewrite D, T. cbn [negb]. unfold num_cells. rewrite (proj1 C).
  assert (L : length cells = S (length (filter (fun c => negb (coord_eqb c (d_dep d))) cells))).
  { clear C D T. set (x := d_dep d) in *. clearbody x. induction cells as [|c l IH]; [destruct I|].
    apply NoDup_cons_iff in N. destruct N as [N1 N2]. cbn [filter length]. destruct (coord_eqb c x) eqn:E.
    - apply coord_eqb_spec in E. subst c. cbn [negb]. f_equal. clear IH I N2.
      induction l as [|y l IH]; [reflexivity|]. cbn [filter length]. destruct (coord_eqb y x) eqn:E.
      + apply coord_eqb_spec in E. subst. exfalso. apply N1. left. reflexivity.
      + cbn. f_equal. apply IH. intros H. apply N1. right. exact H.
    - cbn [negb length]. f_equal. apply IH; [exact N2|]. destruct I as [->|I]; [rewrite coord_eqb_refl in E; discriminate|exact I]. }
  rewrite (weighted_valD _ (fun c => sgn (nth (Z.to_nat (cell_to_index d c)) (d_charge d) NON) + 1)) by lia.
  rewrite number_valD.
  erewrite valD_ext; [reflexivity|]. intros c Hc. apply filter_In in Hc. cbv beta.
  rewrite (charges_digit cells d f c N C (proj1 Hc)). apply sgn_digit.
Qed.

Lemma to_index_general_ok cells d f : charges cells d f ->
  to_index_general d = set_base (set_idx d (number (p_base (d_par d)) (map f cells))) (p_base (d_par d)).
Proof.
  intros [O C]. unfold to_index_general, num_cells, indices. rewrite O, C. do 2 f_equal.
  rewrite number_valD.
  assert (E : map (fun i : nat => (sgn (nth i (map f cells) NON) + 1) * p_base (d_par d) ^ (Z.of_nat (length cells) - 1 - Z.of_nat i))
    (seq 0 (length cells)) = map (fun ic : nat * coord => digit (f (snd ic)) * p_base (d_par d) ^ (Z.of_nat (length cells) - 1 - Z.of_nat (fst ic)))
    (combine (seq 0 (length cells)) cells)).
  { apply nth_ext with (d := 0) (d' := 0); rewrite !map_length, ?combine_length, seq_length; [lia|].
    intros i Hi. rewrite (nth_map _ _ i 0%nat) by (rewrite seq_length; lia).
    rewrite (nth_map _ _ i (0%nat, dead0)) by (rewrite combine_length, seq_length; lia).
    rewrite combine_nth by (rewrite seq_length; reflexivity). cbn [fst snd]. rewrite seq_nth by lia. cbn [Nat.add].
    rewrite (nth_map f cells i dead0) by lia. rewrite sgn_digit. reflexivity. }
  rewrite E, (weighted_valD _ (fun c => digit (f c))) by lia. reflexivity.
Qed.

(** The loop that writes digits. *)
Lemma digits_loop_ok b : base_ok b -> forall r fuel q d done_,
  d_charge d = rev r ++ done_ -> 0 <= q < b ^ Z.of_nat (length r) -> q < 2 ^ Z.of_nat fuel ->
  digits_loop (S fuel) b (-1) q (Z.of_nat (length r) - 1) d =
  (set_charge d (rev (wr b q r) ++ done_), Z.of_nat (length r) - 1 - Z.of_nat (ndigits b q (length r))).
Proof.
  intros B. induction r as [|s r IH]; intros fuel q d done_ C H F.
  - cbn in H. assert (q = 0) by lia. subst q. cbn [digits_loop].
    change (0 <? 0) with false. cbn [wr length rev app ndigits] in *. f_equal. apply charge_set, C.
  - cbn [digits_loop wr ndigits length]. destruct (Z.ltb_spec 0 q) as [Q|Q].
    2:{ f_equal; [apply charge_set, C|lia]. }
    change (0 <=? -1) with false. cbn [andb].
    assert (Bb : 2 <= b) by (destruct B; lia).
    destruct fuel as [|fuel]; [cbn in F; lia|].
    replace (Z.of_nat (S (length r)) - 1) with (Z.of_nat (length r)) by lia.
    assert (A : assign_by_index d (Z.of_nat (length r)) (of_sign (q mod b - 1)) =
                set_charge d (rev r ++ of_sign (q mod b - 1) :: done_)).
    { unfold assign_by_index. rewrite C. cbn [rev]. rewrite <- app_assoc. cbn [app].
      rewrite app_length, rev_length. cbn [length].
      destruct (Z.leb_spec 0 (Z.of_nat (length r))); [|lia].
      destruct (Z.ltb_spec (Z.of_nat (length r)) (Z.of_nat (length r + S (length done_)))); [|lia]. cbn [andb].
      f_equal. rewrite Nat2Z.id. replace (length r) with (length (rev r)) by apply rev_length.
      generalize (rev r). intros m. induction m as [|x m IHm]; [reflexivity|]. cbn. rewrite IHm. reflexivity. }
    rewrite A. cbn [length] in H. rewrite Nat2Z.inj_succ, Z.pow_succ_r in H by lia.
    rewrite (IH fuel (q / b) _ (of_sign (q mod b - 1) :: done_)); [|reflexivity| |].
    + cbn [set_charge]. f_equal; [|lia]. unfold set_charge at 1. cbn [rev]. rewrite <- app_assoc. reflexivity.
    + split; [apply Z.div_pos; lia|apply Z.div_lt_upper_bound; lia].
    + rewrite Nat2Z.inj_succ, Z.pow_succ_r in F by lia. apply Z.div_lt_upper_bound; [lia|].
      assert (0 < 2 ^ Z.of_nat fuel) by (apply Z.pow_pos_nonneg; lia). nia.
Qed.

Lemma ndigits_le b q m : (ndigits b q m <= m)%nat.
Proof. revert q. induction m as [|m IH]; intros q; cbn; [lia|]. destruct (0 <? q); [|lia]. specialize (IH (q / b)). lia. Qed.
Lemma wr_all_split b q r : base_ok b -> 0 <= q ->
  wr_all b q r = firstn (ndigits b q (length r)) (wr b q r) ++ repeat NEG (length r - ndigits b q (length r)).
Proof.
  intros B. revert q. induction r as [|s r IH]; intros q Q; [reflexivity|]. cbn [wr_all wr ndigits length].
  destruct (Z.ltb_spec 0 q).
  - cbn [firstn app Nat.sub]. f_equal. apply IH. apply Z.div_pos; destruct B; lia.
  - assert (q = 0) by lia. subst. rewrite Zmod_0_l, Zdiv_0_l. cbn [firstn app Nat.sub repeat]. f_equal.
    rewrite wr_all_0 by exact B. clear. induction r; cbn; congruence.
Qed.
Lemma reset_ok m : forall k d pre post, d_charge d = repeat NEG k ++ pre ++ post -> length pre = m ->
  fold_left (fun d i => assign_by_index d (Z.of_nat i) NEG) (seq k m) d = set_charge d (repeat NEG (k + m) ++ post).
Proof.
  induction m as [|m IH]; intros k d pre post C L.
  - destruct pre; [|discriminate]. cbn. rewrite Nat.add_0_r. cbn in C. rewrite <- C. symmetry. apply set_charge_same.
  - destruct pre as [|x pre]; [discriminate|]. cbn [length] in L. injection L as L. cbn [seq fold_left].
    assert (A : assign_by_index d (Z.of_nat k) NEG = set_charge d (repeat NEG (S k) ++ pre ++ post)).
    { unfold assign_by_index. rewrite C, !app_length, repeat_length. cbn [length].
      destruct (Z.leb_spec 0 (Z.of_nat k)); [|lia].
      destruct (Z.ltb_spec (Z.of_nat k) (Z.of_nat (k + (S (length pre) + length post)))) ; [|lia].
      cbn [andb]. f_equal. rewrite Nat2Z.id. clear. induction k as [|k IHk]; [reflexivity|].
      cbn [repeat app upd] in *. rewrite IHk. reflexivity. }
    rewrite A. rewrite (IH (S k) _ pre post); [|reflexivity|exact L].
    replace (k + S m)%nat with (S k + m)%nat by lia. reflexivity.
Qed.

Lemma index_to_cd_plain cells d b ignore : base_ok b -> d_base d = b -> is_dead (d_dep d) = true ->
  Forall (fun c => is_dead c = false) cells -> d_order d = cells -> length (d_charge d) = length cells ->
  0 < d_idx d < b ^ Z.of_nat (length cells) -> d_idx d < 2 ^ 64 ->
  index_to_charge_distribution d ignore =
  set_charge d (rev ((if ignore then wr else wr_all) b (d_idx d) (rev (d_charge d)))).
Proof.
  intros B Eb D L O Len H F. unfold index_to_charge_distribution.
  destruct (Z.eqb_spec (d_idx d) 0); [lia|].
  assert (I : cell_to_index d (d_dep d) = -1).
  { unfold cell_to_index. rewrite O. apply index_in_none. intros C. rewrite Forall_forall in L. rewrite (L _ C) in D. discriminate. }
  rewrite I, Eb. unfold num_cells. rewrite O, <- Len, <- rev_length.
  rewrite (digits_loop_ok b B (rev (d_charge d)) 64 (d_idx d) d []).
  - rewrite app_nil_r. destruct ignore; [reflexivity|].
    set (r := rev (d_charge d)). set (nd := ndigits b (d_idx d) (length r)).
    assert (Hn : (nd <= length r)%nat) by apply ndigits_le.
    replace (Z.to_nat (Z.of_nat (length r) - 1 - Z.of_nat nd + 1)) with (length r - nd)%nat by lia.
    rewrite (reset_ok (length r - nd) 0 _ (rev (skipn nd (wr b (d_idx d) r))) (rev (firstn nd (wr b (d_idx d) r)))).
    + cbn [Nat.add]. change (set_charge (set_charge d (rev (wr b (d_idx d) r)))) with (set_charge d). apply f_equal.
      rewrite (wr_all_split b _ r B) by lia. rewrite rev_app_distr. f_equal. fold nd.
      generalize (length r - nd)%nat. clear. intros m0. induction m0 as [|m IH]; [reflexivity|]. cbn [repeat rev]. rewrite <- IH.
      clear. induction m as [|m IH]; [reflexivity|]. cbn. rewrite <- IH. reflexivity.
    + cbn [repeat app d_charge set_charge]. rewrite <- rev_app_distr, firstn_skipn. reflexivity.
    + rewrite rev_length, skipn_length, wr_length. reflexivity.
  - rewrite rev_involutive, app_nil_r. reflexivity.
  - rewrite rev_length, Len. lia.
  - exact F.
Qed.
