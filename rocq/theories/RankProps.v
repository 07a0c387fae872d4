(** C98: rank views hold every input and gate at its level, and reordering them keeps it so. *)
From Coq Require Import ZArith Bool List Permutation Lia.
From stdpp Require Import gmap list sorting.
From Verif Require Import FanoutModel FanoutSpec DepthSpec DepthModel DepthProofs DepthProofs2 DepthProps RankModel RankSpec RankProofs RankProofs2 RankProofs3 RankProofs4.
Import ListNotations.

(** A view of a network is in order; it can be made exactly of the networks all of whose inputs and gates are used. *)
Theorem C98_create : forall net, complete net -> fits_32 net ->
  (all_used net <-> exists st, new_view net = Some st) /\ (forall st, new_view net = Some st -> in_order st /\ r_net st = net).
Proof.
  intros net C F. pose proof (new_view_spec net C F) as H. destruct (new_view net) as [st|]; split.
  - split; [intros _; exists st; reflexivity|intros _; apply H].
  - intros st' [= <-]. split; [apply inv_order, H|apply H].
  - split; [intros U; contradiction|intros [st X]; discriminate X].
  - intros st X. discriminate X.
Qed.
Print Assumptions C98_create.

(** The view made of given ranks lists them as given (constants are left out), and is in order. *)
Theorem C98_create_with : forall net rs, complete net -> fits_32 net -> all_used net -> List.NoDup (concat rs) -> (forall n, ranked_node net n -> In n (concat rs)) ->
  (forall n, In n (concat rs) -> n < length (t_nodes net)) -> (forall l r n, rs !! l = Some r -> In n r -> ranked_node net n -> longest net false unit_cost n l) ->
  exists st, new_view_with net rs = Some st /\ in_order st /\ r_net st = net /\
    forall l r, get_ranks st l = Some r -> r = List.filter (fun n => negb (t_is_constant net n)) (default [] (rs !! l)).
Proof.
  intros net rs C F U N A Ex L. destruct (new_view_with_ok net rs C F U N A Ex L) as (st & E & I & En & G). exists st. split; [exact E|]. split; [apply inv_order; exact I|]. split; [exact En|exact G].
Qed.
Print Assumptions C98_create_with.

(** Whatever is called on a view, it remains in order. *)
Theorem C98_invariant : forall sort net st ops st', sorts sort -> complete net -> new_view net = Some st -> proper_ops sort st ops st' -> fits_32 (r_net st') -> in_order st'.
Proof.
  intros sort net st ops st' Hs C H P F. assert (N : r_net st = net). { unfold new_view in H. destruct (update_levels net _ _); [|discriminate]. apply init_net in H. exact H. }
  apply inv_order. pose proof (steps_net sort Hs st ops st' P) as L. eapply steps_inv; [exact Hs| |exact P|exact F].
  pose proof (new_view_spec net C) as X. rewrite H in X. apply X. rewrite <- N. unfold fits_32 in *. lia.
Qed.
Print Assumptions C98_invariant.

(** Views that calls lead to. *)
Definition reachable (sort : (nat -> nat -> bool) -> list nat -> list nat) (st : rview) : Prop :=
  exists net st0 ops, complete net /\ new_view net = Some st0 /\ proper_ops sort st0 ops st /\ fits_32 (r_net st).
Lemma reachable_inv sort st : sorts sort -> reachable sort st -> inv st.
Proof.
  intros Hs (net & st0 & ops & C & H & P & F). assert (N : r_net st0 = net). { unfold new_view in H. destruct (update_levels net _ _); [|discriminate]. apply init_net in H. exact H. }
  pose proof (steps_net sort Hs st0 ops st P) as L. eapply steps_inv; [exact Hs| |exact P|exact F]. pose proof (new_view_spec net C) as X. rewrite H in X. apply X. rewrite <- N. unfold fits_32 in *. lia.
Qed.

(** What swapping does, and when it is defined. *)
Theorem C98_swap : forall sort st a b, sorts sort -> reachable sort st ->
  ((exists st', swap a b st = Some st') <-> exists l i j, at_rank_position st l i = Some a /\ at_rank_position st l j = Some b) /\
  forall st', swap a b st = Some st' -> r_net st' = r_net st /\ width st' = width st /\ length (get_all_ranks st') = length (get_all_ranks st) /\
    forall l i n, at_rank_position st l i = Some n -> at_rank_position st' l i = Some (if Nat.eqb n a then b else if Nat.eqb n b then a else n).
Proof.
  intros sort st a b Hs Re. pose proof (reachable_inv sort st Hs Re) as I. pose proof (iv_ok st I) as R. split.
  - rewrite (swap_defined st a b I). split.
    + intros (l & La & Lb & Ra & Rb). destruct (rk_all _ _ _ _ _ R a Ra) as (la & ra & i & A1 & A2 & _ & A4). destruct (rk_all _ _ _ _ _ R b Rb) as (lb & rb & j & B1 & B2 & _ & B4).
      unfold r_level in La, Lb. rewrite La in A1. injection A1 as <-. rewrite Lb in B1. injection B1 as <-. exists l, i, j. split; apply at_rank; [exists ra|exists rb]; split; assumption.
    + intros (l & i & j & A & B). apply at_rank in A as (r & A1 & A2). apply at_rank in B as (r' & B1 & B2). destruct (rk_in _ _ _ _ _ R l r i a A1 A2) as (X1 & X2 & _). destruct (rk_in _ _ _ _ _ R l r' j b B1 B2) as (Y1 & Y2 & _).
      exists l. split; [exact X2|]. split; [exact Y2|]. split; assumption.
  - intros st' H. split; [|split; [|split; [|exact (swap_effect st a b st' I H)]]]; destruct (swap_some _ a b st st' R H) as (l & p & q & r & _ & _ & _ & _ & _ & ->); [reflexivity|reflexivity|apply insert_length].
Qed.
Print Assumptions C98_swap.

(** Ranks may be replaced by permutations of themselves, one by one or all at once; nothing else changes. *)
Theorem C98_set_ranks : forall sort st l nodes, sorts sort -> reachable sort st ->
  ((exists st', set_ranks l nodes st = Some st') <-> exists r, get_ranks st l = Some r /\ Permutation r nodes) /\
  forall st', set_ranks l nodes st = Some st' -> r_net st' = r_net st /\ width st' = width st /\ get_ranks st' l = Some nodes /\ forall k, k <> l -> get_ranks st' k = get_ranks st k.
Proof.
  intros sort st l nodes _ _. split.
  - split.
    + intros [st' H]. apply set_ranks_some in H as (r & E & P & _). exists r. split; assumption.
    + intros (r & E & P). eexists. apply set_ranks_some. exists r. split; [exact E|]. split; [exact P|reflexivity].
  - intros st' H. apply set_ranks_some in H as (r & E & P & ->). do 2 (split; [reflexivity|]). unfold get_ranks. cbn [r_ranks]. split; [apply list_lookup_insert; exact (lookup_lt_Some _ _ _ E)|].
    intros k Nk. apply list_lookup_insert_ne. congruence.
Qed.
Print Assumptions C98_set_ranks.
Theorem C98_set_all_ranks : forall sort st rs, sorts sort -> reachable sort st ->
  ((exists st', set_all_ranks rs st = Some st') <-> Forall2 (@Permutation nat) (get_all_ranks st) rs) /\
  forall st', set_all_ranks rs st = Some st' -> r_net st' = r_net st /\ get_all_ranks st' = rs.
Proof.
  intros sort st rs Hs Re. pose proof (reachable_inv sort st Hs Re) as I. unfold set_all_ranks, get_all_ranks. destruct (Nat.eqb_spec (length rs) (length (r_ranks st))) as [El|Nl].
  - split; [split|].
    + intros [st' H]. apply Forall2_same_length_lookup. split; [symmetry; exact El|]. intros i q r Hq Hr. destruct (set_from_needs rs 0 st st' H i r Hr) as (q' & Q & P). cbn in Q. rewrite Hq in Q. injection Q as <-. exact P.
    + intros H. apply set_from_defined. intros k r Hk. destruct (Forall2_lookup_r _ _ _ _ _ H Hk) as (q & Q & P). exists q. split; [exact Q|exact P].
    + intros st' H. destruct (set_from_okay _ rs 0 st st' (iv_ok st I) H) as (_ & N & _ & L & _ & A). split; [exact N|]. apply list_eq. intros k. destruct (rs !! k) as [r|] eqn:E; [exact (A k r E)|].
      apply lookup_ge_None in E. apply lookup_ge_None. lia.
  - split; [split|].
    + intros [st' H]. discriminate H.
    + intros H. apply Forall2_length in H. congruence.
    + intros st' H. discriminate H.
Qed.
Print Assumptions C98_set_all_ranks.

(** Sorting a rank orders it by the comparison. *)
Theorem C98_sort : forall sort st l cmp, sorts sort -> reachable sort st ->
  ((exists st', sort_rank sort l cmp st = Some st') <-> l < length (get_all_ranks st)) /\
  forall st', sort_rank sort l cmp st = Some st' -> r_net st' = r_net st /\ (forall k, k <> l -> get_ranks st' k = get_ranks st k) /\
    exists r r', get_ranks st l = Some r /\ get_ranks st' l = Some r' /\ Permutation r r' /\ (orders cmp -> sorted_by cmp r').
Proof.
  intros sort st l cmp Hs _. unfold sort_rank, get_all_ranks, get_ranks. split.
  - destruct (r_ranks st !! l) as [r|] eqn:E.
    + split; [intros _; exact (lookup_lt_Some _ _ _ E)|intros _; eexists; reflexivity].
    + apply lookup_ge_None in E. split; [intros [st' H]; discriminate H|lia].
  - intros st' H. destruct (r_ranks st !! l) as [r|] eqn:E; [|discriminate]. injection H as <-. cbn [r_net r_ranks]. split; [reflexivity|]. split; [intros k Nk; apply list_lookup_insert_ne; congruence|].
    exists r, (sort cmp r). split; [reflexivity|]. split; [apply list_lookup_insert; exact (lookup_lt_Some _ _ _ E)|]. apply Hs.
Qed.
Print Assumptions C98_sort.

(** The inputs are listed as rank 0 has them; rearranging puts rank 0 in the order of the network's inputs. *)
Theorem C98_inputs : forall sort st, sorts sort -> reachable sort st ->
  foreach_pi sort st = get_ranks st 0 /\ (exists r, get_ranks st 0 = Some r /\ Permutation r (t_pis (r_net st))) /\
  exists st', rearrange_pis st = Some st' /\ r_net st' = r_net st /\ get_ranks st' 0 = Some (t_pis (r_net st)) /\ (forall k, k <> 0 -> get_ranks st' k = get_ranks st k).
Proof.
  intros sort st Hs Re. pose proof (reachable_inv sort st Hs Re) as I. split; [exact (foreach_pi_rank sort Hs st I)|]. destruct (rank_zero st I) as (r & E & P). split; [exists r; split; assumption|].
  destruct (C98_set_ranks sort st 0 (t_pis (r_net st)) Hs Re) as [D Ef]. destruct (proj2 D) as [st' H]; [exists r; split; assumption|]. exists st'. split; [exact H|]. destruct (Ef st' H) as (A & _ & B & C). split; [exact A|split; assumption].
Qed.
Print Assumptions C98_inputs.

(** All nodes are visited once and after their fan-ins; the gates in the same order. *)
Theorem C98_foreach : forall sort st, sorts sort -> reachable sort st -> topological (r_net st) (foreach_node st) /\
  foreach_gate st = List.filter (fun n => match t_nodes (r_net st) !! n with Some TPi => false | _ => true end) (foreach_node st) /\
  (forall n, In n (foreach_gate st) <-> exists lit ch, t_nodes (r_net st) !! n = Some (TGate lit ch)).
Proof.
  intros sort st Hs Re. pose proof (reachable_inv sort st Hs Re) as I. pose proof (foreach_topological st I) as T. split; [exact T|]. destruct T as (_ & M & _).
  assert (E : foreach_gate st = List.filter (fun n => match t_nodes (r_net st) !! n with Some TPi => false | _ => true end) (foreach_node st)).
  { unfold foreach_gate, foreach_node. apply filter_ext. intros n. unfold is_ci. destruct (t_nodes (r_net st) !! n) as [[b| |lit ch]|]; reflexivity. }
  split; [exact E|]. intros n. rewrite E, filter_In, M. split.
  - intros [(x & Ex & Nx) Np]. rewrite Ex in Np. destruct x as [b| |lit ch]; [elim (Nx b eq_refl)|discriminate Np|]. exists lit, ch. exact Ex.
  - intros (lit & ch & Ex). split; [exists (TGate lit ch); split; [exact Ex|discriminate]|rewrite Ex; reflexivity].
Qed.
Print Assumptions C98_foreach.

(** Adding a gate or an input puts it last in the rank of its level, and moves no other node. *)
Theorem C98_add : forall sort st o, sorts sort -> reachable sort st -> (o = RAddPi \/ exists lit ch, o = RAddGate lit ch) -> proper_op (r_net st) o -> (Z.of_nat (S (length (t_nodes (r_net st)))) < 2 ^ 32)%Z ->
  let n := length (t_nodes (r_net st)) in
  exists st' l, rstep sort o st = Some st' /\ longest (r_net st') false unit_cost n l /\
    t_nodes (r_net st') = t_nodes (r_net st) ++ [match o with RAddGate lit ch => TGate lit ch | _ => TPi end] /\
    forall k, default [] (get_ranks st' k) = default [] (get_ranks st k) ++ (if Nat.eqb k l then [n] else []).
Proof.
  intros sort st o Hs Re Ho P F n. pose proof (reachable_inv sort st Hs Re) as I.
  assert (X : exists net', (rstep sort o st = rank_on_add n (with_net st net')) /\ complete net' /\ t_nodes net' = t_nodes (r_net st) ++ [match o with RAddGate lit ch => TGate lit ch | _ => TPi end]).
  { destruct Ho as [->|(lit & ch & ->)]; eexists; (split; [reflexivity|]); (split; [|reflexivity]); [apply complete_pi, I|destruct P; apply complete_gate; [apply I|assumption|assumption]]. }
  destruct X as (net' & E & C & En). destruct (add_node st net' _ I En C) as (st' & E' & I' & N' & (l & L & Ok & Ol) & _).
  - unfold fits_32. rewrite En, app_length. cbn [length]. rewrite Nat.add_1_r. exact F.
  - destruct Ho as [->|(lit & ch & ->)]; discriminate.
  - exists st', l. rewrite E. split; [exact E'|]. split; [|split; [rewrite N'; exact En|]].
    + apply (iv_lev st' I' n l); [|exact L]. rewrite N'. apply (grow_ranked (r_net st) net' _ En); [destruct Ho as [->|(lit & ch & ->)]; discriminate|right; reflexivity].
    + intros k. unfold get_ranks. destruct (Nat.eqb_spec k l) as [->|Ne]; [exact Ol|rewrite app_nil_r; exact (Ok k Ne)].
Qed.
Print Assumptions C98_add.

(** The check says whether each listed node is listed at its level and at its position, and holds of all views that calls lead to; it does not say that all nodes are listed. *)
Theorem C98_check : forall st, (check_validity st = Some true <-> forall l i n, at_rank_position st l i = Some n -> r_level st n = Some l /\ rank_position st n = Some i) /\
  (forall sort, sorts sort -> reachable sort st -> check_validity st = Some true).
Proof.
  intros st. split; [apply check_true|]. intros sort Hs Re. pose proof (inv_order st (reachable_inv sort st Hs Re)) as O. apply check_true. intros l i n H. split; [apply (io_level st O l i n H)|exact (io_position st O l i n H)].
Qed.
Print Assumptions C98_check.

(** ** A network and its view *)

Lemma skew_complete : complete net_skew.
Proof.
  exists [5; 6; 7]. split; [exact net_skew_ok|]. intros n lit ch H. do 8 (destruct n as [|n]; [first [discriminate H|cbn; tauto]|]). discriminate H.
Qed.
Lemma skew_used : all_used net_skew.
Proof.
  intros n (x & E & Nx). pose proof (net_skew_live) as L.
  assert (X : n = 2 \/ n = 3 \/ n = 4 \/ In n [5; 6; 7]) by (do 8 (destruct n as [|n]; [first [injection E as <-; elim (Nx _ eq_refl)|cbn; tauto]|]); discriminate E).
  clear E Nx x. destruct X as [->|[->|[->|X]]]; [| | |exact (L n X)].
  - exists 7. split; [right; left; reflexivity|]. exists (1 + 0). apply (tail_step net_skew unit_cost 2 7); [right; left; reflexivity|constructor].
  - exists 6. split; [left; reflexivity|]. exists (1 + (1 + 0)). apply (tail_step net_skew unit_cost 3 5); [right; left; reflexivity|]. apply (tail_step net_skew unit_cost 5 6); [left; reflexivity|constructor].
  - exists 6. split; [left; reflexivity|]. exists (1 + 0). apply (tail_step net_skew unit_cost 4 6); [right; left; reflexivity|constructor].
Qed.
(** Insertion sort is a sort. *)
Fixpoint ins_one (cmp : nat -> nat -> bool) (x : nat) (l : list nat) : list nat := match l with [] => [x] | a :: l => if cmp x a then x :: a :: l else a :: ins_one cmp x l end.
Definition ins_sort (cmp : nat -> nat -> bool) (l : list nat) : list nat := fold_right (ins_one cmp) [] l.
Lemma ins_one_perm cmp x l : Permutation (x :: l) (ins_one cmp x l).
Proof. induction l as [|a l IH]; [reflexivity|]. cbn. destruct (cmp x a); [reflexivity|]. rewrite <- IH. constructor. Qed.
Lemma ins_sorts : sorts ins_sort.
Proof.
  intros cmp l. split; [induction l as [|a l IH]; [reflexivity|]; cbn; rewrite <- ins_one_perm, <- IH; reflexivity|]. intros (H0 & Tr & Nt).
  assert (X : StronglySorted (fun a b => cmp b a = false) (ins_sort cmp l)).
  { induction l as [|x l IH]; [constructor|]. cbn. revert IH. fold (ins_sort cmp l). generalize (ins_sort cmp l). clear l. induction l as [|a l IH]; intros H; cbn; [repeat constructor|].
    apply StronglySorted_inv in H as [H1 H2]. destruct (cmp x a) eqn:E.
    - assert (Ax : cmp a x = false) by (destruct (cmp a x) eqn:E'; [|reflexivity]; pose proof (Tr x a x E E') as Y; destruct (cmp x x) eqn:Z; [|discriminate Y]; exfalso; rewrite (H0 x) in Z; discriminate Z).
      constructor; [constructor; assumption|]. constructor; [exact Ax|]. eapply Forall_impl; [exact H2|]. intros b Hb. exact (Nt b a x Hb Ax).
    - constructor; [exact (IH H1)|]. eapply Permutation_Forall; [apply ins_one_perm|]. constructor; assumption. }
  intros i j a b Hij Ha Hb. revert i j Hij Ha Hb. induction X as [|c q X IH F]; intros i j Hij Ha Hb; [discriminate Ha|]. destruct j as [|j]; [lia|]. destruct i as [|i].
  - injection Ha as <-. rewrite Forall_forall in F. apply F. apply elem_of_list_lookup. exists j. exact Hb.
  - exact (IH i j ltac:(lia) Ha Hb).
Qed.
Definition skew_ranks (net : tnet) (f : rview -> option (list (list nat))) : option (list (list nat)) := match new_view net with Some st => f st | None => None end.

Example C98_nonvacuous : sorts ins_sort /\ complete net_skew /\ all_used net_skew /\ fits_32 net_skew /\
  skew_ranks net_skew (fun st => Some (get_all_ranks st)) = Some [[2; 3; 4]; [5]; [6]; [7]] /\
  skew_ranks net_skew (fun st => option_map get_all_ranks (swap 2 4 st)) = Some [[4; 3; 2]; [5]; [6]; [7]] /\
  skew_ranks net_skew (fun st => option_map get_all_ranks (swap 2 5 st)) = None /\
  skew_ranks net_skew (fun st => option_map get_all_ranks (rrun (fun _ l => l) [RSwap 2 4; RAddGate 2 [7]; RAddPi; RAddGate 4 [9; 4]] st)) = Some [[4; 3; 2; 9]; [5; 10]; [6]; [7]; [8]] /\
  skew_ranks net_skew (fun st => option_map get_all_ranks (rrun (fun _ l => l) [RSet 0 [3; 4; 2]; RAddGate 2 [7]; RRearrange; RAddPo 8; RUpdate] st)) = Some [[2; 3; 4]; [5]; [6]; [7]; [8]] /\
  skew_ranks net_skew (fun st => option_map get_all_ranks (rrun ins_sort [RSort 0 (fun a b => Nat.ltb b a)] st)) = Some [[4; 3; 2]; [5]; [6]; [7]] /\
  option_map get_all_ranks (new_view_with net_skew [[4; 2; 3]; [5]; [6]; [7]]) = Some [[4; 2; 3]; [5]; [6]; [7]].
Proof. split; [exact ins_sorts|]. split; [exact skew_complete|]. split; [exact skew_used|]. split; [unfold fits_32; vm_compute; reflexivity|]. repeat split; vm_compute; reflexivity. Qed.

(** ** What does not hold *)

(** A network with a gate that no output uses has no view: the constructor accesses the ranks at an unknown level. *)
Theorem C98_unused_refuted : exists net, complete net /\ fits_32 net /\ new_view net = None.
Proof.
  exists (mkT (t_nodes net_skew ++ [TGate 2 [7]]) (t_pis net_skew) (t_pos net_skew)). split; [|split; [unfold fits_32; vm_compute; reflexivity|vm_compute; reflexivity]].
  apply complete_gate; [exact skew_complete|discriminate|]. intros c [<-|[]]. cbn. lia.
Qed.
Print Assumptions C98_unused_refuted.
(** With given ranks that lack nodes, the check holds although the view is not in order. *)
Theorem C98_check_refuted : exists net rs st, complete net /\ all_used net /\ new_view_with net rs = Some st /\ check_validity st = Some true /\ ~ in_order st.
Proof.
  assert (X : exists st, new_view_with net_skew [[2; 3]; [5]] = Some st /\ check_validity st = Some true /\ r_net st = net_skew /\ r_pos st !! 7 = None).
  { destruct (new_view_with net_skew [[2; 3]; [5]]) as [st|] eqn:E; [|vm_compute in E; discriminate E]. exists st. split; [reflexivity|].
    assert (Y : match new_view_with net_skew [[2; 3]; [5]] with Some st => check_validity st = Some true /\ r_net st = net_skew /\ r_pos st !! 7 = None | None => False end) by (vm_compute; repeat split). rewrite E in Y. exact Y. }
  destruct X as (st & E & Cv & N & P). exists net_skew, [[2; 3]; [5]], st. split; [exact skew_complete|]. split; [exact skew_used|]. split; [exact E|]. split; [exact Cv|]. clear E Cv.
  intros O. assert (Rn : ranked_node (r_net st) 7) by (rewrite N; exists (TGate 4 [6; 2]); split; [reflexivity|discriminate]). destruct (io_all st O 7 Rn) as (l & i & A). pose proof (io_position st O l i 7 A) as Q. unfold rank_position in Q. rewrite P in Q. discriminate Q.
Qed.
Print Assumptions C98_check_refuted.
(** An input created through the view is not ranked; listing the inputs then fails. *)
Theorem C98_create_pi_refuted : exists st, (exists net, complete net /\ new_view net = Some st) /\ ~ in_order (create_pi st) /\ forall sort, foreach_pi sort (create_pi st) = None.
Proof.
  assert (X : exists st, new_view net_skew = Some st /\ r_net st = net_skew /\ r_pos st !! 8 = None).
  { destruct (new_view net_skew) as [st|] eqn:E; [|vm_compute in E; discriminate E]. exists st. split; [reflexivity|].
    assert (Y : match new_view net_skew with Some st => r_net st = net_skew /\ r_pos st !! 8 = None | None => False end) by (vm_compute; repeat split). rewrite E in Y. exact Y. }
  destruct X as (st & E & N & P). exists st. split; [exists net_skew; split; [exact skew_complete|exact E]|]. clear E. split.
  - intros O. assert (Rn : ranked_node (r_net (create_pi st)) 8) by (unfold create_pi; rewrite N; exists TPi; split; [reflexivity|discriminate]). destruct (io_all _ O 8 Rn) as (l & i & A). pose proof (io_position _ O l i 8 A) as Q. unfold rank_position in Q. change (r_pos (create_pi st)) with (r_pos st) in Q. rewrite P in Q. discriminate Q.
  - intros sort. unfold foreach_pi. change (r_pos (create_pi st)) with (r_pos st). unfold create_pi. rewrite N. cbn [r_net with_net t_pis net_skew t_nodes length app forallb]. rewrite P.
    rewrite (bool_decide_eq_false_2 (is_Some None)) by (intros [x Hx]; discriminate Hx). rewrite !andb_false_r. reflexivity.
Qed.
Print Assumptions C98_create_pi_refuted.
