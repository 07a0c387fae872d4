(** Proofs about rank views: the check, creation from given ranks, and what the calls do. *)
From Coq Require Import ZArith Bool List Permutation Lia.
From stdpp Require Import gmap list sorting.
From Verif Require Import FanoutModel FanoutSpec DepthSpec DepthModel DepthProofs DepthProofs2 RankModel RankSpec RankProofs RankProofs2 RankProofs3.
Import ListNotations.

(** ** check_validity *)

Lemma check_rank_true st l r : forall k, check_rank st l k r = Some true <-> forall i n, r !! i = Some n -> r_level st n = Some l /\ r_pos st !! n = Some (k + i).
Proof.
  induction r as [|a r IH]; intros k; cbn [check_rank].
  - split; [intros _ i n H; destruct i; discriminate H|reflexivity].
  - split.
    + destruct (r_level st a) as [la|] eqn:La; [|discriminate]. destruct (Nat.eqb_spec la l) as [->|]; [|discriminate]. cbn [negb]. destruct (r_pos st !! a) as [q|] eqn:Pa; [|discriminate].
      destruct (Nat.eqb_spec q k) as [->|]; [|discriminate]. cbn [negb]. intros H i n Hi. destruct i as [|i].
      * injection Hi as <-. rewrite Nat.add_0_r. split; assumption.
      * cbn in Hi. destruct (proj1 (IH (S k)) H i n Hi) as [X Y]. split; [exact X|]. rewrite Y. f_equal. lia.
    + intros H. destruct (H 0 a eq_refl) as [La Pa]. rewrite La, Pa, Nat.add_0_r, !Nat.eqb_refl. cbn [negb]. apply IH. intros i n Hi. destruct (H (S i) n Hi) as [X Y]. split; [exact X|]. rewrite Y. f_equal. lia.
Qed.
Lemma check_ranks_true st rs : forall l, check_ranks st l rs = Some true <-> forall k r i n, rs !! k = Some r -> r !! i = Some n -> r_level st n = Some (l + k) /\ r_pos st !! n = Some i.
Proof.
  induction rs as [|q rs IH]; intros l; cbn [check_ranks].
  - split; [intros _ k r i n H; discriminate H|reflexivity].
  - split.
    + destruct (check_rank st l 0 q) as [[|]|] eqn:E; [|discriminate|discriminate]. intros H k r i n Hk Hi. destruct k as [|k].
      * injection Hk as <-. rewrite Nat.add_0_r. exact (proj1 (check_rank_true st l q 0) E i n Hi).
      * cbn in Hk. rewrite Nat.add_succ_r. exact (proj1 (IH (S l)) H k r i n Hk Hi).
    + intros H. assert (E : check_rank st l 0 q = Some true). { apply check_rank_true. intros i n Hi. destruct (H 0 q i n eq_refl Hi) as [X Y]. rewrite Nat.add_0_r in X. split; assumption. }
      rewrite E. apply IH. intros k r i n Hk Hi. destruct (H (S k) r i n Hk Hi) as [X Y]. rewrite Nat.add_succ_r in X. split; assumption.
Qed.
Lemma at_rank st l i n : at_rank_position st l i = Some n <-> exists r, r_ranks st !! l = Some r /\ r !! i = Some n.
Proof.
  unfold at_rank_position. destruct (r_ranks st !! l) as [r|]; [|split; [discriminate|intros (r & H & _); discriminate H]].
  split; [intros H; exists r; split; [reflexivity|exact H]|intros (q & [= <-] & H); exact H].
Qed.
Lemma check_true st : check_validity st = Some true <-> forall l i n, at_rank_position st l i = Some n -> r_level st n = Some l /\ rank_position st n = Some i.
Proof.
  unfold check_validity. rewrite check_ranks_true. split.
  - intros H l i n Hn. apply at_rank in Hn as (r & A & B). exact (H l r i n A B).
  - intros H k r i n A B. apply H, at_rank. exists r. split; assumption.
Qed.

(** ** Given ranks *)

Lemma insert_at_level st n l : r_level st n = Some l -> insert_at st n l = insert_in_rank st n.
Proof. intros H. unfold insert_in_rank. rewrite H. reflexivity. Qed.
Notation ins := (fun n st => if t_is_constant (r_net st) n then Some st else insert_in_rank st n).
Lemma insert_keeps st n st' : insert_in_rank st n = Some st' -> r_net st' = r_net st /\ r_view st' = r_view st.
Proof.
  unfold insert_in_rank, insert_at. destruct (r_level st n) as [l|]; [|discriminate]. destruct (r_ranks st !! l) as [r|]; [|discriminate]. intros [= <-]. split; reflexivity.
Qed.
Lemma insert_rank_init net v i r : (forall n, In n r -> t_is_constant net n = false -> v_levels v !! n = Some i) -> forall st, r_net st = net -> r_view st = v ->
  insert_rank i r st = fold_o ins r st.
Proof.
  induction r as [|n r IH]; intros L st N V; [reflexivity|]. unfold insert_rank. cbn [fold_o]. destruct (t_is_constant (r_net st) n) eqn:C.
  - apply IH; [intros m Hm; apply L; right; exact Hm|exact N|exact V].
  - rewrite insert_at_level. 2: { unfold r_level. rewrite V. apply L; [left; reflexivity|rewrite <- N; exact C]. }
    destruct (insert_in_rank st n) as [st1|] eqn:E; [|reflexivity]. destruct (insert_keeps st n st1 E) as [N1 V1]. apply IH; [intros m Hm; apply L; right; exact Hm|congruence|congruence].
Qed.
Lemma fold_o_app {A B} (f : A -> B -> option B) l1 : forall l2 s, fold_o f (l1 ++ l2) s = match fold_o f l1 s with Some s' => fold_o f l2 s' | None => None end.
Proof. induction l1 as [|a l1 IH]; intros l2 s; [reflexivity|]. cbn. destruct (f a s); [apply IH|reflexivity]. Qed.
Lemma fold_keeps ns : forall st st', fold_o ins ns st = Some st' -> r_net st' = r_net st /\ r_view st' = r_view st.
Proof.
  induction ns as [|n ns IH]; intros st st' H; cbn [fold_o] in H; [injection H as <-; split; reflexivity|]. destruct (t_is_constant (r_net st) n); [exact (IH st st' H)|].
  destruct (insert_in_rank st n) as [st1|] eqn:E; [|discriminate]. destruct (IH st1 st' H) as [A B]. destruct (insert_keeps st n st1 E) as [C D]. split; congruence.
Qed.
Lemma insert_ranks_init net v rs : forall i, (forall l r n, rs !! l = Some r -> In n r -> t_is_constant net n = false -> v_levels v !! n = Some (i + l)) -> forall st, r_net st = net -> r_view st = v ->
  insert_ranks i rs st = fold_o ins (concat rs) st.
Proof.
  induction rs as [|r rs IH]; intros i L st N V; [reflexivity|]. cbn [insert_ranks concat]. rewrite fold_o_app.
  rewrite (insert_rank_init net v i r); [|intros n Hn C; rewrite (L 0 r n eq_refl Hn C); f_equal; lia|exact N|exact V].
  destruct (fold_o ins r st) as [st1|] eqn:E; [|reflexivity]. destruct (fold_keeps r st st1 E) as [N1 V1].
  apply IH; [|congruence|congruence]. intros l q n Hl Hn C. rewrite (L (S l) q n Hl Hn C). f_equal. lia.
Qed.
(** Where the inserted nodes end up. *)
Lemma insert_rank_lists i r : forall st st', insert_rank i r st = Some st' -> r_net st' = r_net st /\
  forall l, r_ranks st' !! l = if Nat.eqb l i then option_map (fun q => q ++ List.filter (fun n => negb (t_is_constant (r_net st) n)) r) (r_ranks st !! l) else r_ranks st !! l.
Proof.
  induction r as [|n r IH]; intros st st' H; unfold insert_rank in H; cbn [fold_o] in H.
  - injection H as <-. split; [reflexivity|]. intros l. destruct (Nat.eqb l i); [|reflexivity]. destruct (r_ranks st !! l) as [q|]; [|reflexivity]. cbn. rewrite app_nil_r. reflexivity.
  - destruct (t_is_constant (r_net st) n) eqn:C.
    + destruct (IH st st' H) as [N L]. split; [exact N|]. intros l. rewrite L. cbn [List.filter]. rewrite C. reflexivity.
    + destruct (insert_at st n i) as [st1|] eqn:E; [|discriminate]. destruct (IH st1 st' H) as [N L]. unfold insert_at in E. destruct (r_ranks st !! i) as [q|] eqn:Eq; [|discriminate]. injection E as <-.
      cbn [r_net r_ranks] in *. split; [exact N|]. intros l. rewrite L. cbn [List.filter]. rewrite C. cbn [negb]. destruct (Nat.eqb_spec l i) as [->|Ne]; [|apply list_lookup_insert_ne; congruence].
      rewrite list_lookup_insert by exact (lookup_lt_Some _ _ _ Eq). rewrite Eq. cbn. rewrite <- app_assoc. reflexivity.
Qed.
Lemma insert_ranks_lists rs : forall i st st', insert_ranks i rs st = Some st' ->
  (forall l, l < i -> r_ranks st' !! l = r_ranks st !! l) /\ forall l r, rs !! l = Some r -> r_ranks st' !! (i + l) = option_map (fun q => q ++ List.filter (fun n => negb (t_is_constant (r_net st) n)) r) (r_ranks st !! (i + l)).
Proof.
  induction rs as [|r rs IH]; intros i st st' H; cbn [insert_ranks] in H; [injection H as <-; split; [reflexivity|intros l r X; discriminate X]|].
  destruct (insert_rank i r st) as [st1|] eqn:E; [|discriminate]. destruct (insert_rank_lists i r st st1 E) as [N1 L1]. destruct (IH (S i) st1 st' H) as [Lo Hi]. split.
  - intros l Hl. rewrite Lo by lia. rewrite L1. destruct (Nat.eqb_spec l i); [lia|reflexivity].
  - intros l q Hl. destruct l as [|l].
    + injection Hl as <-. rewrite Nat.add_0_r, Lo by lia. rewrite L1, Nat.eqb_refl. reflexivity.
    + cbn in Hl. replace (i + S l) with (S i + l) by lia. rewrite (Hi l q Hl), N1. f_equal. rewrite L1. destruct (Nat.eqb_spec (S i + l) i); [lia|reflexivity].
Qed.
Lemma new_view_with_ok net rs : complete net -> fits_32 net -> all_used net -> List.NoDup (concat rs) -> (forall n, ranked_node net n -> In n (concat rs)) ->
  (forall n, In n (concat rs) -> n < length (t_nodes net)) -> (forall l r n, rs !! l = Some r -> In n r -> ranked_node net n -> lg net n l) ->
  exists st, new_view_with net rs = Some st /\ inv st /\ r_net st = net /\
    forall l r, get_ranks st l = Some r -> r = List.filter (fun n => negb (t_is_constant net n)) (default [] (rs !! l)).
Proof.
  intros Cm F U Nd All Ex Lev. destruct (started net Cm F) as (v & E & L & B). unfold new_view_with. rewrite E. set (st0 := mkR net v ∅ (replicate (S (depth v)) []) 0).
  assert (Lv : forall l r n, rs !! l = Some r -> In n r -> t_is_constant net n = false -> v_levels v !! n = Some l).
  { intros l r n Hl Hn C. assert (Rn : ranked_node net n) by (apply const_bool; [exact C|apply Ex, in_concat; exists r; split; [apply elem_of_list_In; eapply elem_of_list_lookup_2; exact Hl|exact Hn]]).
    apply L. split; [exact (U n Rn)|exact (Lev l r n Hl Hn Rn)]. }
  pose proof (insert_ranks_init net v rs 0 Lv st0 eq_refl eq_refl) as Ei.
  pose proof (init_okay (concat rs) (fun _ => False) st0 (empty_okay (v_levels v) (S (depth v)))) as H. cbn [st0 r_net r_ranks] in H. rewrite replicate_length in H.
  specialize (H (proj2 (NoDup_ListNoDup _) Nd) (fun _ _ X => X) B). fold st0 in H. rewrite <- Ei in H. destruct (insert_ranks 0 rs st0) as [st|] eqn:Es.
  - destruct H as (R & E1 & E2 & Ln0 & _). change (r_net st0) with net in E1. change (r_view st0) with v in E2. exists st. split; [reflexivity|]. split; [|split; [exact E1|]].
    + constructor.
      * rewrite E1. exact Cm.
      * rewrite E1. unfold r_level. rewrite E2. intros n k _ H. apply L in H. apply H.
      * rewrite E1. unfold r_level. rewrite E2. intros n b k Hb H. apply L in H as [_ H]. exact (longest_fun _ _ _ _ _ _ H (longest_const _ _ _ _ _ Hb)).
      * unfold okay in *. eapply ranked_ext; [reflexivity| |exact R]. intros m. rewrite E1. split.
        -- intros [[]|[H C]]. apply const_bool; [exact C|]. apply Ex, elem_of_list_In. exact H.
        -- intros H. right. split; [apply elem_of_list_In, All; exact H|]. apply ranked_bool in H. apply H.
      * intros Er. rewrite Er in Ln0. cbn in Ln0. lia.
    + destruct (insert_ranks_lists rs 0 st0 st Es) as [_ Hl]. intros l r Hr. unfold get_ranks in Hr. destruct (rs !! l) as [q|] eqn:Eq.
      * specialize (Hl l q Eq). cbn [Nat.add] in Hl. rewrite Hr in Hl. cbn [st0 r_ranks r_net] in Hl. destruct (replicate (S (depth v)) [] !! l) as [e|] eqn:Ee; [|discriminate Hl]. apply lookup_replicate in Ee as [-> _]. cbn in Hl. injection Hl as ->. reflexivity.
      * cbn. destruct r as [|n r]; [reflexivity|]. destruct (rk_in _ _ _ _ _ R l (n :: r) 0 n Hr eq_refl) as (Dn & Ll & _). destruct Dn as [[]|[Hn C]].
        apply elem_of_list_In, in_concat in Hn as (q & Hq & Hn). apply elem_of_list_In, elem_of_list_lookup in Hq as [l' Hq]. change (r_net st0) with net in C. pose proof (Lv l' q n Hq Hn C) as X. rewrite E2 in Ll. congruence.
  - destruct H as (n & Hn & C & Hl). exfalso. apply elem_of_list_In, in_concat in Hn as (q & Hq & Hn). apply elem_of_list_In, elem_of_list_lookup in Hq as [l' Hq]. pose proof (Lv l' q n Hq Hn C) as X. unfold r_level in Hl. cbn [st0 r_view] in Hl. congruence.
Qed.

(** ** What the calls do *)

Lemma swap_defined st a b : inv st -> ((exists st', swap a b st = Some st') <-> exists l, r_level st a = Some l /\ r_level st b = Some l /\ ranked_node (r_net st) a /\ ranked_node (r_net st) b).
Proof.
  intros I. pose proof (iv_ok st I) as R. split.
  - intros [st' H]. destruct (swap_some _ a b st st' R H) as (l & p & q & r & La & Lb & Pa & Pb & _). exists l. split; [exact La|]. split; [exact Lb|].
    split; apply (rk_dom _ _ _ _ _ R); eauto.
  - intros (l & La & Lb & Ra & Rb). destruct (rk_all _ _ _ _ _ R a Ra) as (la & ra & i & A1 & A2 & A3 & A4). destruct (rk_all _ _ _ _ _ R b Rb) as (lb & rb & j & B1 & B2 & B3 & B4).
    unfold r_level in La, Lb. rewrite La in A1. injection A1 as <-. rewrite Lb in B1. injection B1 as <-. rewrite A2 in B2. injection B2 as <-.
    unfold swap, r_level. rewrite La, Lb, A3, B3, Nat.eqb_refl, A2, A4, B4. eexists. reflexivity.
Qed.
Lemma swap_effect st a b st' : inv st -> swap a b st = Some st' -> forall l i n, at_rank_position st l i = Some n ->
  at_rank_position st' l i = Some (if Nat.eqb n a then b else if Nat.eqb n b then a else n).
Proof.
  intros I H l i n Hn. pose proof (iv_ok st I) as R. destruct (swap_some _ a b st st' R H) as (l' & p & q & r & La & Lb & Pa & Pb & E & ->).
  assert (Ra : ranked_node (r_net st) a) by (apply (rk_dom _ _ _ _ _ R); eauto). assert (Rb : ranked_node (r_net st) b) by (apply (rk_dom _ _ _ _ _ R); eauto).
  pose proof (pos_at _ st a l' p r R Ra La Pa E) as Xa. pose proof (pos_at _ st b l' q r R Rb Lb Pb E) as Xb. rewrite Xa, Xb.
  apply at_rank in Hn as (r0 & A & B). destruct (rk_in _ _ _ _ _ R l r0 i n A B) as (_ & Ln & Pn). apply at_rank. cbn [r_ranks]. destruct (Nat.eq_dec l l') as [->|Ne].
  - rewrite E in A. injection A as <-. eexists. split; [apply list_lookup_insert; exact (lookup_lt_Some _ _ _ E)|]. rewrite (swap_at r p q a b i Xa Xb).
    destruct (decide (i = q)) as [->|N1].
    + rewrite Xb in B. injection B as <-. destruct (Nat.eqb_spec b a) as [->|]; [reflexivity|]. rewrite Nat.eqb_refl. reflexivity.
    + destruct (decide (i = p)) as [->|N2].
      * rewrite Xa in B. injection B as <-. rewrite Nat.eqb_refl. reflexivity.
      * destruct (Nat.eqb_spec n a) as [->|]; [congruence|]. destruct (Nat.eqb_spec n b) as [->|]; [congruence|]. exact B.
  - exists r0. split; [rewrite list_lookup_insert_ne by congruence; exact A|]. unfold r_level in La, Lb.
    destruct (Nat.eqb_spec n a) as [->|]; [congruence|]. destruct (Nat.eqb_spec n b) as [->|]; [congruence|]. exact B.
Qed.
Lemma set_from_defined rs : forall l st, (forall k r, rs !! k = Some r -> exists q, r_ranks st !! (l + k) = Some q /\ Permutation q r) -> exists st', set_from l rs st = Some st'.
Proof.
  induction rs as [|r rs IH]; intros l st H; cbn [set_from]; [eexists; reflexivity|]. destruct (H 0 r eq_refl) as (q & Q & P). rewrite Nat.add_0_r in Q.
  assert (X : set_ranks l r st = Some (mkR (r_net st) (r_view st) (renumber (r_pos st) 0 r) (<[l := r]> (r_ranks st)) (r_width st))) by (apply set_ranks_some; exists q; repeat split; assumption).
  rewrite X. apply IH. cbn [r_ranks]. intros k r' Hk. destruct (H (S k) r' Hk) as (q' & Q' & P'). exists q'. split; [|exact P'].
  rewrite list_lookup_insert_ne by lia. rewrite <- Q'. f_equal. lia.
Qed.
Lemma set_from_needs rs : forall l st st', set_from l rs st = Some st' -> forall k r, rs !! k = Some r -> exists q, r_ranks st !! (l + k) = Some q /\ Permutation q r.
Proof.
  induction rs as [|r rs IH]; intros l st st' H k r' Hk; [discriminate Hk|]. cbn [set_from] in H. destruct (set_ranks l r st) as [st1|] eqn:E; [|discriminate].
  apply set_ranks_some in E as (q & Q & P & ->). destruct k as [|k].
  - injection Hk as <-. rewrite Nat.add_0_r. exists q. split; assumption.
  - cbn in Hk. destruct (IH (S l) _ _ H k r' Hk) as (q' & Q' & P'). cbn [r_ranks] in Q'. rewrite list_lookup_insert_ne in Q' by lia. exists q'. split; [|exact P']. rewrite <- Q'. f_equal. lia.
Qed.
