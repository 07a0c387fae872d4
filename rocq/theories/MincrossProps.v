(** C99: minimizing crossings permutes the ranks of a balanced view, tells the exact number of crossings, and never makes them more. *)
From Coq Require Import ZArith QArith Bool List Permutation Lia.
From stdpp Require Import gmap list sorting.
From Verif Require Import FanoutModel FanoutSpec DepthSpec DepthModel DepthProofs DepthProofs2 DepthProofs3 DepthProps RankModel RankSpec RankProofs RankProofs2 RankProofs3 RankProofs4 RankProps MincrossModel MincrossSpec MincrossProofs MincrossProofs2 MincrossProofs3.
Import ListNotations.
Open Scope nat_scope.

Lemma reachable_fits sort st : reachable sort st -> fits_32 (r_net st).
Proof. intros (net & st0 & ops & _ & _ & _ & F). exact F. Qed.
Lemma reachable_ready sort st : sorts sort -> reachable sort st -> up_to_date st -> is_balanced (r_net st) false = Some true -> ready (foreach_gate st) st.
Proof.
  intros Hs Re U B. pose proof (reachable_inv sort st Hs Re) as I. apply balanced_ready; [exact I|exact (reachable_fits sort st Re)|exact U|exact B|exact (gates_nodup st I)|].
  apply (C98_foreach sort st Hs Re).
Qed.
Lemma good_start gates p st : ready gates st -> good gates p st st.
Proof. intros R. constructor; [exact R|reflexivity|reflexivity|apply perm_refl|reflexivity]. Qed.
Lemma ops_snoc sort st ops st' o st'' : proper_ops sort st ops st' -> proper_op (r_net st') o -> rstep sort o st' = Some st'' -> proper_ops sort st (ops ++ [o]) st''.
Proof. induction 1 as [s|s o1 s1 ops s2 P E H IH]; intros P' E'; [econstructor; [exact P'|exact E'|constructor]|]. cbn [app]. econstructor; [exact P|exact E|exact (IH P' E')]. Qed.

(** On views that are up to date, crossings are minimized exactly of the networks that are balanced, whatever the parameters, the rounding, the
    convergence test and the sorting. The result is a view of the same network whose ranks are those of the given view in another order; the number
    returned is that of its crossings, and the given view has not fewer. Rank 0 stays as it is if inputs are fixed, and all ranks do if only counting. *)
Theorem C99_mincross : forall sort rnd improves p st, sorts sort -> reachable sort st -> up_to_date st ->
  ((exists st' k, mincross sort rnd improves p st = Some (st', k)) <-> path_balanced (r_net st)) /\
  forall st' k, mincross sort rnd improves p st = Some (st', k) ->
    r_net st' = r_net st /\ reachable sort st' /\ up_to_date st' /\ in_order st' /\ Forall2 (@Permutation nat) (get_all_ranks st) (get_all_ranks st') /\
    crossings (r_net st') (get_all_ranks st') k /\ (exists k0, crossings (r_net st) (get_all_ranks st) k0 /\ k <= k0) /\
    (fixed_pis p = true -> get_ranks st' 0 = get_ranks st 0) /\ (optimize p = false -> st' = st).
Proof.
  intros sort rnd improves p st Hs Re U. pose proof (reachable_inv sort st Hs Re) as I. destruct (current_balanced st I (reachable_fits sort st Re) U) as (b & Eb & Hb). unfold mincross. rewrite Eb. destruct b.
  - pose proof (reachable_ready sort st Hs Re U Eb) as R. pose proof (good_start (foreach_gate st) p st R) as G. destruct (ncross_ok _ st R) as (k0 & _ & C0).
    destruct (run_good sort rnd improves (foreach_gate st) p st Hs k0 G C0) as (st1 & k1 & E & G1 & C1 & L1 & O1 & best & S1). rewrite E. split; [split; [intros _; apply Hb; reflexivity|intros _; eauto]|].
    intros st' k X. injection X as <- <-. split; [apply G1|].
    assert (Re1 : reachable sort st1). { destruct S1 as [S1|S1]; [|rewrite S1; exact Re]. destruct Re as (net & s0 & ops & Cn & Nv & P & F). exists net, s0, (ops ++ [RSetAll best]). split; [exact Cn|]. split; [exact Nv|]. split; [|rewrite (gd_net _ _ _ _ G1); exact F]. eapply ops_snoc; [exact P|exact Logic.I|exact S1]. }
    split; [exact Re1|]. split; [eapply keep_current; [exact U|apply G1|apply G1|symmetry; exact (Forall2_length _ _ _ (gd_perm _ _ _ _ G1))]|].
    split; [apply inv_order, (reachable_inv sort st1 Hs Re1)|]. split; [apply G1|]. split; [rewrite (gd_net _ _ _ _ G1); exact C1|]. split; [exists k0; split; [exact C0|exact L1]|]. split; [apply G1|exact O1].
  - split; [split; [intros (st' & k & X); discriminate X|intros P; apply Hb in P; discriminate P]|]. intros st' k X. discriminate X.
Qed.
Print Assumptions C99_mincross.

(** A view has one number of crossings. *)
Theorem C99_number : forall net rs k k', crossings net rs k -> crossings net rs k' -> k = k'.
Proof. exact crossings_fun. Qed.
Print Assumptions C99_number.

(** New views are up to date, so are those whose ranks were updated, and reordering ranks keeps them so. *)
Theorem C99_current : (forall net st, new_view net = Some st -> up_to_date st) /\ (forall st st', update_ranks st = Some st' -> up_to_date st') /\
  forall sort o st st', up_to_date st -> (forall lit ch, o <> RAddGate lit ch) -> o <> RAddPi -> (forall f, o <> RAddPo f) -> rstep sort o st = Some st' -> up_to_date st'.
Proof. split; [exact new_current|]. split; [exact update_current|exact step_current]. Qed.
Print Assumptions C99_current.

(** The comparison of nodes that is given to std::sort is a strict weak ordering, whatever the medians: nodes without neighbours come last. *)
Theorem C99_comparison : forall m asc, orders (by_median m asc) /\
  forall a b, (default 0%Q (m !! a) == -1)%Q -> by_median m asc a b = false /\ (~ (default 0%Q (m !! b) == -1)%Q -> by_median m asc b a = true).
Proof.
  intros m asc. split; [apply by_median_orders|]. intros a b A. split; [|intros B; apply by_median_true; split; [exact B|left; exact A]]. apply not_true_iff_false. intros H. apply by_median_true in H as [H _]. contradiction.
Qed.
Print Assumptions C99_comparison.

(** ** A network whose inputs and gates are listed the wrong way round *)

Definition net_twist : tnet := mkT [TConst false; TConst true; TPi; TPi; TPi; TGate 4 [4; 3]; TGate 4 [2; 3]; TGate 2 [6]; TGate 2 [5]] [2; 3; 4] [7; 8].
Definition on_view {A} (net : tnet) (f : rview -> option A) : option A := match new_view net with Some st => f st | None => None end.
Definition run_twist (p : mparams) : option (list (list nat) * nat) :=
  on_view net_twist (fun st => option_map (fun x => (get_all_ranks (fst x), snd x)) (mincross ins_sort (fun q => q) (fun a b => Nat.ltb a b) p st)).
Lemma twist_complete : complete net_twist.
Proof.
  exists [5; 6; 7; 8]. split.
  - apply (network_of_list 3 [TGate 4 [4; 3]; TGate 4 [2; 3]; TGate 2 [6]; TGate 2 [5]] [7; 8]).
    + intros x Hx. cbn in Hx. destruct Hx as [<-|[<-|[<-|[<-|[]]]]]; eexists _, _; (split; [reflexivity|discriminate]).
    + split.
      * intros i x c Hi Hc. do 9 (destruct i as [|i]; [injection Hi as <-; cbn in Hc; lia|]). discriminate Hi.
      * intros c Hc. cbn in *. lia.
  - intros n lit ch H. do 9 (destruct n as [|n]; [first [discriminate H|cbn; tauto]|]). discriminate H.
Qed.
Lemma new_reachable sort net st : complete net -> fits_32 net -> new_view net = Some st -> reachable sort st /\ up_to_date st /\ r_net st = net.
Proof.
  intros C F H. pose proof (new_view_spec net C F) as X. rewrite H in X. destruct X as (_ & N & _). split; [|split; [exact (new_current net st H)|exact N]].
  exists net, st, []. split; [exact C|]. split; [exact H|]. split; [constructor|]. rewrite N. exact F.
Qed.

(** A view of it, up to date and balanced; of four crossings none is left, with and without fixed inputs. *)
Example C99_nonvacuous : sorts ins_sort /\ (exists st, new_view net_twist = Some st /\ reachable ins_sort st /\ up_to_date st /\ path_balanced (r_net st)) /\
  run_twist (mkMP false false 10 3 4) = Some ([[2; 3; 4]; [5; 6]; [7; 8]], 4) /\ run_twist (mkMP false true 10 3 4) = Some ([[2; 3; 4]; [6; 5]; [7; 8]], 0) /\
  run_twist (mkMP true true 10 3 4) = Some ([[2; 3; 4]; [6; 5]; [7; 8]], 0) /\
  by_median (<[1 := 2%Q]> (<[2 := no_median]> ∅)) true 1 2 = true /\ by_median (<[1 := 2%Q]> (<[2 := no_median]> ∅)) true 2 1 = false.
Proof.
  split; [exact ins_sorts|]. split; [|split; [vm_compute; reflexivity|split; [vm_compute; reflexivity|split; [vm_compute; reflexivity|split; vm_compute; reflexivity]]]].
  assert (F : fits_32 net_twist) by (unfold fits_32; vm_compute; reflexivity).
  assert (B : is_balanced net_twist false = Some true) by (vm_compute; reflexivity).
  destruct (new_view net_twist) as [st|] eqn:E; [|vm_compute in E; discriminate E]. destruct (new_reachable ins_sort net_twist st twist_complete F E) as (Re & U & N). exists st. split; [reflexivity|]. split; [exact Re|]. split; [exact U|].
  destruct (current_balanced st (reachable_inv _ _ ins_sorts Re) (reachable_fits _ _ Re) U) as (b & Eb & Hb). rewrite N, B in Eb. injection Eb as <-. apply Hb. reflexivity.
Qed.

(** Without updating its ranks, a view to which an input and an output were added need not be up to date: of a network without gates, the depth becomes 1
    but there is one rank only, and even counting reads a rank that does not exist, although the network is balanced and the view is in order. *)
Definition net_plain : tnet := mkT [TConst false; TConst true; TPi] [2] [2].
Lemma plain_complete : complete net_plain.
Proof.
  exists []. split.
  - apply (network_of_list 1 [] [2]); [intros x []|]. split; [intros i x c Hi Hc; do 3 (destruct i as [|i]; [injection Hi as <-; cbn in Hc; lia|]); discriminate Hi|intros c Hc; cbn in *; lia].
  - intros n lit ch H. do 3 (destruct n as [|n]; [discriminate H|]). discriminate H.
Qed.
Theorem C99_outdated_refuted : exists st, reachable ins_sort st /\ in_order st /\ path_balanced (r_net st) /\ forall rnd improves fixed mi mq ri, mincross ins_sort rnd improves (mkMP fixed false mi mq ri) st = None.
Proof.
  destruct (new_view net_plain) as [s0|] eqn:E; [|vm_compute in E; discriminate E].
  assert (F : fits_32 net_plain) by (unfold fits_32; vm_compute; reflexivity). destruct (new_reachable ins_sort net_plain s0 plain_complete F E) as (_ & _ & N0).
  assert (X : on_view net_plain (fun st => match rstep ins_sort RAddPi st with Some s1 => Some (r_net s1, (r_net (create_po 3 s1), is_balanced (r_net (create_po 3 s1)) false, get_all_ranks (create_po 3 s1), depth (r_view (create_po 3 s1)))) | None => None end) =
    Some (mkT [TConst false; TConst true; TPi; TPi] [2; 3] [2], (mkT [TConst false; TConst true; TPi; TPi] [2; 3] [2; 3], Some true, [[2; 3]], 1))) by (vm_compute; reflexivity).
  unfold on_view in X. rewrite E in X. destruct (rstep ins_sort RAddPi s0) as [s1|] eqn:E1; [|discriminate X]. set (s2 := create_po 3 s1) in *.
  assert (Y : forall (A B : tnet) (c d : tnet * option bool * list (list nat) * nat), Some (A, c) = Some (B, d) -> A = B /\ fst (fst (fst c)) = fst (fst (fst d)) /\ snd (fst (fst c)) = snd (fst (fst d)) /\ snd (fst c) = snd (fst d) /\ snd c = snd d).
  { intros A B c d [= -> ->]. split; [reflexivity|split; [reflexivity|split; [reflexivity|split; reflexivity]]]. }
  apply Y in X as (N1 & N2 & B2 & R2 & D2). cbn [fst snd] in N2, B2, R2, D2.
  assert (Re : reachable ins_sort s2).
  { exists net_plain, s0, [RAddPi; RAddPo 3]. split; [exact plain_complete|]. split; [exact E|]. split; [|rewrite N2; unfold fits_32; vm_compute; reflexivity].
    econstructor; [exact Logic.I|exact E1|]. econstructor; [cbn [proper_op]; rewrite N1; cbn; lia|reflexivity|constructor]. }
  exists s2. split; [exact Re|]. split; [apply inv_order, (reachable_inv _ _ ins_sorts Re)|]. split.
  - destruct (C75_check_exact_partial (r_net s2) [] false) as (b & Eb & Hb).
    + rewrite N2. apply (network_of_list 2 [] [2; 3]); [intros x []|]. split; [intros i x c Hi Hc; do 4 (destruct i as [|i]; [injection Hi as <-; cbn in Hc; lia|]); discriminate Hi|intros c Hc; cbn in *; lia].
    + intros n [].
    + intros n lit ch H. rewrite N2 in H. do 4 (destruct n as [|n]; [discriminate H|]). discriminate H.
    + rewrite N2. vm_compute. reflexivity.
    + rewrite B2 in Eb. injection Eb as <-. apply Hb. reflexivity.
  - intros rnd improves fixed mi mq ri. unfold mincross. rewrite B2. unfold mincross_run. cbn [optimize]. unfold ncross. rewrite D2. cbn [seq fold_o]. unfold ncross_rank, rank_width, get_ranks. unfold get_all_ranks in R2. rewrite R2. cbn. reflexivity.
Qed.
Print Assumptions C99_outdated_refuted.
