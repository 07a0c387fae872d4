(** The binary heap, and optimality of A*. *)
From Coq Require Import ZArith Bool List Permutation Lia.
From stdpp Require Import gmap list.
From Verif Require Import CoordModel CoordSpec CoordProofs GridModel GridSpec CoordMap PathModel PathSpec PathProofs.
Import ListNotations.
Local Open Scope Z_scope.

(** * The heap loses and invents nothing *)
Lemma insert_perm {A} (l : list A) : forall i x y, l !! i = Some y -> Permutation (y :: <[i := x]> l) (x :: l).
Proof.
  induction l as [|a l IH]; intros [|i] x y H; try discriminate.
  - inversion H; subst. cbn. apply perm_swap.
  - cbn in *. etransitivity; [apply perm_swap|]. etransitivity; [|apply perm_swap]. constructor. apply IH, H.
Qed.
Lemma insert_swap {A} (l : list A) i j a v : l !! i = Some a -> i <> j -> (j < length l)%nat ->
  Permutation (<[i := v]> (<[j := a]> l)) (<[j := v]> l).
Proof.
  intros Hi Hne Hj. destruct (lookup_lt_is_Some_2 l j Hj) as [b Hb].
  assert (K : Permutation (a :: b :: <[i := v]> (<[j := a]> l)) (a :: b :: <[j := v]> l)).
  { assert (E1 : (<[j := a]> l) !! i = Some a) by (rewrite list_lookup_insert_ne by congruence; exact Hi).
    etransitivity; [apply perm_swap|]. etransitivity; [apply perm_skip, (insert_perm _ i v a E1)|].
    etransitivity; [apply perm_swap|]. etransitivity; [apply perm_skip, (insert_perm _ j a b Hb)|].
    etransitivity; [apply perm_swap|]. apply perm_skip. symmetry. apply (insert_perm _ j v b Hb). }
  apply Permutation_cons_inv in K. apply Permutation_cons_inv in K. exact K.
Qed.
Section HeapPerm.
Context {V : Type} (gt : V -> V -> bool).
Notation E := (coord * V)%type.
Lemma div2_lt p : (Nat.div2 p < S p)%nat.
Proof. rewrite Nat.div2_div. apply Nat.lt_succ_r, Nat.div_le_upper_bound; lia. Qed.
Lemma sift_up_perm f : forall (h : list E) hole v, (hole < length h)%nat -> Permutation (sift_up gt f h hole v) (<[hole := v]> h).
Proof.
  induction f as [|f IH]; intros h hole v Hh; cbn [sift_up]; [reflexivity|]. destruct hole as [|p]; [reflexivity|].
  pose proof (div2_lt p). destruct (h !! Nat.div2 p) as [pv|] eqn:Ep; [|apply lookup_ge_None in Ep; lia].
  destruct (comp gt pv v); [|reflexivity]. etransitivity; [apply IH; rewrite insert_length; lia|].
  apply insert_swap; [exact Ep|lia|exact Hh].
Qed.
Lemma sift_up_length f : forall (h : list E) hole v, (hole < length h)%nat -> length (sift_up gt f h hole v) = length h.
Proof. intros. rewrite (Permutation_length (sift_up_perm _ _ _ _ H)). apply insert_length. Qed.
Lemma sift_down_perm f : forall (h : list E) hole v, (hole < length h)%nat -> (length h < f + hole)%nat ->
  Permutation (sift_down gt f h (length h) hole v) (<[hole := v]> h).
Proof.
  induction f as [|f IH]; intros h hole v Hh Hf; [lia|]. cbn [sift_down].
  destruct (Nat.ltb_spec hole (Nat.div2 (length h - 1))) as [Hlt|Hge].
  - assert (Hr : (2 * (hole + 1) < length h)%nat).
    { rewrite Nat.div2_div in Hlt. pose proof (Nat.div_mod (length h - 1) 2 ltac:(lia)). pose proof (Nat.mod_upper_bound (length h - 1) 2 ltac:(lia)). lia. }
    destruct (h !! (2 * (hole + 1))%nat) as [a|] eqn:Ea; [|apply lookup_ge_None in Ea; lia].
    destruct (h !! (2 * (hole + 1) - 1)%nat) as [b|] eqn:Eb; [|apply lookup_ge_None in Eb; lia].
    destruct (comp gt a b).
    + pose proof (IH (<[hole := b]> h) (2 * (hole + 1) - 1)%nat v) as K. rewrite insert_length in K. etransitivity; [apply K; lia|].
      apply insert_swap; [exact Eb|lia|exact Hh].
    + pose proof (IH (<[hole := a]> h) (2 * (hole + 1))%nat v) as K. rewrite insert_length in K. etransitivity; [apply K; lia|].
      apply insert_swap; [exact Ea|lia|exact Hh].
  - match goal with |- context [if ?c then _ else _] => destruct c eqn:Ec end.
    + apply andb_true_iff in Ec as [Ec Ec3]. apply andb_true_iff in Ec as [Ec1 Ec2]. apply Nat.leb_le in Ec2. apply Nat.eqb_eq in Ec3.
      assert (Hl : (2 * hole + 1 < length h)%nat).
      { rewrite Ec3, Nat.div2_div. pose proof (Nat.div_mod (length h - 2) 2 ltac:(lia)). lia. }
      destruct (h !! (2 * hole + 1)%nat) as [b|] eqn:Eb; [|apply lookup_ge_None in Eb; lia].
      etransitivity; [apply sift_up_perm; rewrite insert_length; lia|]. apply insert_swap; [exact Eb|lia|exact Hh].
    + apply sift_up_perm, Hh.
Qed.
Lemma heap_queue_ok : queue_ok (heap gt).
Proof.
  split; [|split].
  - intros l e. cbn [q_push heap]. unfold heap_push. etransitivity; [apply sift_up_perm; rewrite app_length; cbn; lia|].
    rewrite list_insert_id; [symmetry; apply Permutation_cons_append|]. rewrite lookup_app_r by lia. rewrite Nat.sub_diag. reflexivity.
  - intros l e Ht. cbn [q_top q_pop heap] in *. destruct l as [|x [|y l]]; [discriminate|inversion Ht; reflexivity|]. inversion Ht; subst x. clear Ht.
    set (h := e :: y :: l). assert (Hl : (2 <= length h)%nat) by (cbn; lia).
    destruct (exists_last (l := h) ltac:(discriminate)) as (h' & v & Eh).
    change (Permutation (e :: match last h with Some v => sift_down gt (length h) (take (length h - 1) h) (length h - 1) 0 v | None => [] end) h).
    rewrite Eh, last_snoc. assert (El : length h = S (length h')) by (rewrite Eh, app_length; cbn; lia).
    rewrite <- Eh, El. replace (S (length h') - 1)%nat with (length h') by lia.
    assert (Et : take (length h') h = h') by (rewrite Eh, take_app; reflexivity). rewrite Et.
    assert (He : h' !! 0%nat = Some e). { rewrite <- Et. destruct h' as [|z h']; [cbn in El; lia|]. reflexivity. }
    etransitivity; [apply perm_skip, sift_down_perm; lia|]. rewrite (insert_perm h' 0 v e He), Eh. apply Permutation_cons_append.
  - intros [|x l]; cbn; split; congruence.
Qed.
End HeapPerm.

(** * Order of the heap (integer values) *)
Notation zgt := (fun a b : Z => b <? a).
Definition par (i : nat) : nat := Nat.div2 (i - 1).
Definition is_heap (h : list (coord * Z)) : Prop :=
  forall i a b, (0 < i)%nat -> h !! i = Some a -> h !! par i = Some b -> b.2 <= a.2.
(** [h] is a heap apart from the hole. *)
Definition heap_but (h : list (coord * Z)) (hole : nat) : Prop :=
  (forall i a b, (0 < i)%nat -> i <> hole -> par i <> hole -> h !! i = Some a -> h !! par i = Some b -> b.2 <= a.2) /\
  (forall i a b, (0 < i)%nat -> (0 < hole)%nat -> par i = hole -> h !! i = Some a -> h !! par hole = Some b -> b.2 <= a.2).
Lemma par_lt i : (0 < i)%nat -> (par i < i)%nat.
Proof. intros H. unfold par. destruct i; [lia|]. replace (S i - 1)%nat with i by lia. apply div2_lt. Qed.
Lemma par_spec i k : (0 < i)%nat -> par i = k <-> (i = 2 * k + 1 \/ i = 2 * k + 2)%nat.
Proof.
  intros H. unfold par. rewrite Nat.div2_div. pose proof (Nat.div_mod (i - 1) 2 ltac:(lia)). pose proof (Nat.mod_upper_bound (i - 1) 2 ltac:(lia)). lia.
Qed.
Lemma lookup_insert_case {A} (l : list A) i j x a : (<[i := x]> l) !! j = Some a -> (i = j /\ a = x) \/ (i <> j /\ l !! j = Some a).
Proof.
  intros H. destruct (Nat.eq_dec i j) as [->|Hne]; [|right; rewrite list_lookup_insert_ne in H by exact Hne; auto].
  left. apply list_lookup_insert_Some in H. destruct H as [(H & -> & _)|[H _]]; [auto|congruence].
Qed.
Lemma sift_up_heap f : forall h hole v, (hole <= f)%nat -> (hole < length h)%nat -> heap_but h hole ->
  (forall i a, (0 < i)%nat -> par i = hole -> h !! i = Some a -> v.2 <= a.2) -> is_heap (sift_up zgt f h hole v).
Proof.
  induction f as [|f IH]; intros h hole v Hf Hh [H1 H2] Hv; cbn [sift_up].
  - assert (hole = 0%nat) by lia. subst. intros i a b Hi Ha Hb. pose proof (par_lt i Hi).
    apply lookup_insert_case in Ha as [[K _]|[K Ha]]; [lia|]. apply lookup_insert_case in Hb as [[K1 ->]|[K1 Hb]].
    + eapply Hv; [exact Hi|congruence|exact Ha].
    + eapply H1; eauto.
  - destruct hole as [|p].
    { intros i a b Hi Ha Hb. apply lookup_insert_case in Ha as [[K _]|[K Ha]]; [lia|]. apply lookup_insert_case in Hb as [[K1 ->]|[K1 Hb]].
      + eapply Hv; [exact Hi|congruence|exact Ha].
      + eapply H1; eauto. }
    assert (Epar : par (S p) = Nat.div2 p) by (unfold par; f_equal; lia).
    pose proof (div2_lt p). destruct (h !! Nat.div2 p) as [pv|] eqn:Ep; [|apply lookup_ge_None in Ep; lia].
    unfold comp. destruct (Z.ltb_spec v.2 pv.2) as [Hc|Hc].
    + apply IH; [lia|rewrite insert_length; lia| |].
      * split.
        -- intros i a b Hi Hi1 Hi2 Ha Hb. apply lookup_insert_case in Ha as [[K ->]|[K Ha]]; [exfalso; apply Hi2; rewrite <- K; exact Epar|].
           apply lookup_insert_case in Hb as [[K1 ->]|[K1 Hb]].
           ++ eapply (H2 i a pv); [exact Hi|lia|congruence|exact Ha|rewrite Epar; exact Ep].
           ++ eapply H1; eauto.
        -- intros i a b Hi Hp Hpi Ha Hb. 
           assert (Hpp : (par (Nat.div2 p) < Nat.div2 p)%nat) by (apply par_lt; exact Hp).
           apply lookup_insert_case in Hb as [[K1 _]|[K1 Hb]]; [lia|].
           assert (Hbp : b.2 <= pv.2) by (eapply (H1 (Nat.div2 p)); [exact Hp|lia|lia|exact Ep|exact Hb]).
           apply lookup_insert_case in Ha as [[K ->]|[K Ha]]; [exact Hbp|].
           assert (pv.2 <= a.2) by (eapply (H1 i); [exact Hi|congruence|lia|exact Ha|rewrite Hpi; exact Ep]). lia.
      * intros i a Hi Hpi Ha. apply lookup_insert_case in Ha as [[K ->]|[K Ha]]; [lia|].
        assert (pv.2 <= a.2) by (eapply (H1 i); [exact Hi|congruence|lia|exact Ha|rewrite Hpi; exact Ep]). lia.
    + intros i a b Hi Ha Hb. apply lookup_insert_case in Ha as [[K ->]|[K Ha]].
      * subst i. rewrite Epar in Hb. apply lookup_insert_case in Hb as [[K1 _]|[K1 Hb]]; [lia|]. rewrite Ep in Hb. inversion Hb; subst. exact Hc.
      * apply lookup_insert_case in Hb as [[K1 ->]|[K1 Hb]]; [eapply Hv; [exact Hi|congruence|exact Ha]|eapply H1; eauto].
Qed.
Lemma sift_down_heap f : forall h hole v, (hole < length h)%nat -> (length h < f + hole)%nat -> heap_but h hole ->
  is_heap (sift_down zgt f h (length h) hole v).
Proof.
  induction f as [|f IH]; intros h hole v Hh Hf [H1 H2]; [lia|]. cbn [sift_down].
  assert (Hmove : forall s b, par s = hole -> (0 < s)%nat -> (s < length h)%nat -> h !! s = Some b ->
     (forall i a, (0 < i)%nat -> par i = hole -> h !! i = Some a -> b.2 <= a.2) -> heap_but (<[hole := b]> h) s).
  { intros s b Hs Hs0 Hsl Hb Hmin. pose proof (par_lt s Hs0) as Hlt. split.
    - intros i a b' Hi Hi1 Hi2 Ha Hb'. apply lookup_insert_case in Ha as [[K ->]|[K Ha]].
      + subst i. pose proof (par_lt hole Hi). apply lookup_insert_case in Hb' as [[K1 _]|[K1 Hb']]; [lia|].
        eapply (H2 s); [exact Hs0|exact Hi|exact Hs|exact Hb|exact Hb'].
      + apply lookup_insert_case in Hb' as [[K1 ->]|[K1 Hb']]; [eapply Hmin; [exact Hi|congruence|exact Ha]|eapply H1; eauto].
    - intros i a b' Hi _ Hpi Ha Hb'. pose proof (par_lt i Hi). rewrite Hs in Hb'. apply lookup_insert_case in Hb' as [[_ ->]|[K1 _]]; [|lia].
      apply lookup_insert_case in Ha as [[K _]|[K Ha]]; [lia|]. eapply (H1 i); [exact Hi|lia|lia|exact Ha|rewrite Hpi; exact Hb]. }
  destruct (Nat.ltb_spec hole (Nat.div2 (length h - 1))) as [Hlt|Hge].
  - assert (Hr : (2 * (hole + 1) < length h)%nat).
    { rewrite Nat.div2_div in Hlt. pose proof (Nat.div_mod (length h - 1) 2 ltac:(lia)). pose proof (Nat.mod_upper_bound (length h - 1) 2 ltac:(lia)). lia. }
    destruct (h !! (2 * (hole + 1))%nat) as [a|] eqn:Ea; [|apply lookup_ge_None in Ea; lia].
    destruct (h !! (2 * (hole + 1) - 1)%nat) as [b|] eqn:Eb; [|apply lookup_ge_None in Eb; lia].
    assert (Hch : forall i x, (0 < i)%nat -> par i = hole -> h !! i = Some x -> x = a \/ x = b).
    { intros i x Hi Hpi Hx. apply par_spec in Hpi; [|exact Hi]. destruct Hpi as [Hpi|Hpi].
      - right. replace (2 * (hole + 1) - 1)%nat with i in Eb by lia. congruence.
      - left. replace (2 * (hole + 1))%nat with i in Ea by lia. congruence. }
    unfold comp. destruct (Z.ltb_spec b.2 a.2) as [Hc|Hc].
    + pose proof (IH (<[hole := b]> h) (2 * (hole + 1) - 1)%nat v) as K. rewrite insert_length in K. apply K; [lia|lia|].
      apply Hmove; [apply par_spec; lia|lia|lia|exact Eb|]. intros i x Hi Hpi Hx. destruct (Hch i x Hi Hpi Hx); subst; lia.
    + pose proof (IH (<[hole := a]> h) (2 * (hole + 1))%nat v) as K. rewrite insert_length in K. apply K; [lia|lia|].
      apply Hmove; [apply par_spec; lia|lia|lia|exact Ea|]. intros i x Hi Hpi Hx. destruct (Hch i x Hi Hpi Hx); subst; lia.
  - pose proof (Nat.div_mod (length h - 1) 2 ltac:(lia)) as D1. pose proof (Nat.mod_upper_bound (length h - 1) 2 ltac:(lia)) as D2.
    rewrite Nat.div2_div in Hge.
    match goal with |- context [if ?c then _ else _] => destruct c eqn:Ec end.
    + apply andb_true_iff in Ec as [Ec Ec3]. apply andb_true_iff in Ec as [Ec1 Ec2]. apply Nat.leb_le in Ec2. apply Nat.eqb_eq in Ec3. apply Nat.even_spec in Ec1 as [m Em].
      assert (Hl : (2 * hole + 2 = length h)%nat).
      { rewrite Ec3, Nat.div2_div, Em. replace (2 * m - 2)%nat with ((m - 1) * 2)%nat by lia. rewrite Nat.div_mul by lia. lia. }
      destruct (h !! (2 * hole + 1)%nat) as [b|] eqn:Eb; [|apply lookup_ge_None in Eb; lia].
      apply sift_up_heap; [lia|rewrite insert_length; lia| |].
      * apply Hmove; [apply par_spec; lia|lia|lia|exact Eb|]. intros i x Hi Hpi Hx. apply par_spec in Hpi; [|exact Hi].
        destruct Hpi as [Hpi|Hpi]; [subst i; rewrite Eb in Hx; inversion Hx; lia|]. apply lookup_lt_Some in Hx. lia.
      * intros i a Hi Hpi Ha. apply par_spec in Hpi; [|exact Hi]. apply lookup_lt_Some in Ha. rewrite insert_length in Ha. lia.
    + apply sift_up_heap; [lia|exact Hh|split; assumption|]. intros i a Hi Hpi Ha. exfalso. apply par_spec in Hpi; [|exact Hi]. apply lookup_lt_Some in Ha.
      assert (Hl : (2 * hole + 2 = length h)%nat) by lia.
      replace (Nat.even (length h)) with true in Ec by (symmetry; apply Nat.even_spec; exists (hole + 1)%nat; lia).
      replace (Nat.leb 2 (length h)) with true in Ec by (symmetry; apply Nat.leb_le; lia). cbn [andb] in Ec. apply Nat.eqb_neq in Ec. apply Ec.
      rewrite Nat.div2_div. replace (length h - 2)%nat with (hole * 2)%nat by lia. rewrite Nat.div_mul by lia. reflexivity.
Qed.
Lemma heap_push_heap h v : is_heap h -> is_heap (heap_push zgt h v).
Proof.
  intros H. unfold heap_push. apply sift_up_heap; [lia|rewrite app_length; cbn; lia| |].
  - split.
    + intros i a b Hi Hi1 Hi2 Ha Hb. assert (i < length h)%nat by (apply lookup_lt_Some in Ha; rewrite app_length in Ha; cbn in Ha; lia).
      pose proof (par_lt i Hi). rewrite lookup_app_l in Ha by lia. rewrite lookup_app_l in Hb by lia. eapply H; eauto.
    + intros i a b Hi _ Hpi Ha _. pose proof (par_lt i Hi). apply lookup_lt_Some in Ha. rewrite app_length in Ha. cbn in Ha. lia.
  - intros i a Hi Hpi Ha. pose proof (par_lt i Hi). apply lookup_lt_Some in Ha. rewrite app_length in Ha. cbn in Ha. lia.
Qed.
Lemma heap_pop_heap h : is_heap h -> is_heap (heap_pop zgt h).
Proof.
  intros H. destruct h as [|x [|y l]]; [exact H|intros i a b _ K; destruct i; discriminate|].
  set (h := x :: y :: l) in *. destruct (exists_last (l := h) ltac:(discriminate)) as (h' & v & Eh).
  change (is_heap (match last h with Some v => sift_down zgt (length h) (take (length h - 1) h) (length h - 1) 0 v | None => [] end)).
  assert (El : length h = S (length h')) by (rewrite Eh, app_length; cbn; lia). assert (El2 : (2 <= length h)%nat) by (cbn; lia).
  rewrite Eh at 1. rewrite last_snoc. rewrite El. replace (S (length h') - 1)%nat with (length h') by lia.
  assert (Et : take (length h') h = h') by (rewrite Eh, take_app; reflexivity). rewrite Et.
  apply sift_down_heap; [lia|lia|]. split.
  - intros i a b Hi _ _ Ha Hb. eapply (H i); [exact Hi| |]; rewrite Eh; apply lookup_app_l_Some; assumption.
  - intros i a b _ K. lia.
Qed.
Lemma heap_min h e : is_heap h -> head h = Some e -> forall e', In e' h -> e.2 <= e'.2.
Proof.
  intros H He e' Hin. apply elem_of_list_In, elem_of_list_lookup in Hin as [i Hi]. revert e' Hi.
  induction i as [i IH] using (well_founded_induction Wf_nat.lt_wf). intros e' Hi. destruct (Nat.eq_dec i 0%nat) as [->|Hn].
  - destruct h; [discriminate|]. cbn in *. inversion He; inversion Hi; subst. lia.
  - pose proof (par_lt i ltac:(lia)) as Hp. pose proof (lookup_lt_Some _ _ _ Hi) as Hl.
    destruct (lookup_lt_is_Some_2 h (par i) ltac:(lia)) as [b Hb]. pose proof (IH _ Hp b Hb). pose proof (H i e' b ltac:(lia) Hi Hb). lia.
Qed.
