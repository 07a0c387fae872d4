(** Properties of path finding: C36-C41 and C46. *)
From Coq Require Import ZArith Bool List Permutation Lia Sorted.
From stdpp Require Import gmap list.
From Verif Require Import CoordModel CoordSpec CoordProofs GridModel GridSpec GridProofs CoordMap ClockModel ClockSpec ClockProofs GateModel GateSpec GateProps CellModel PathModel PathSpec PathProofs PathProofs2 PathProofs3 PathProofs4 PathProofs5 PathProofs6 PathProofs7 PathProofs8.
Import ListNotations.
Local Open Scope Z_scope.

(** Examples: a 3 x 3 layout with and without clocking, one obstructed tile and one obstructed connection. *)
Definition ex3 : clocked := std_layout Cartesian (live 2 2 0) (TWODDWAVE FOUR).
Definition ex_lay : olayout := mkO (OPlain ex3) {[ live 1 1 0 ]} {[ (live 0 0 0, live 1 0 0) ]}.
Lemma ex_routable : routable ex_lay.
Proof. split; [unfold dim_ok; cbn; lia|cbn; lia]. Qed.
Ltac by_step := repeat match goal with |- _ /\ _ => split end; try (vm_compute; intuition congruence); try (cbn; unfold square_touch; cbn; lia); try (unfold inb; cbn; lia); try (intros; discriminate).

(** * C36: distances *)

(** Manhattan and Chebyshev distance are metrics on the positions. *)
Theorem C36_metrics : metric manhattan_distance /\ metric chebyshev_distance.
Proof. split; [exact manhattan_metric|exact chebyshev_metric]. Qed.
Print Assumptions C36_metrics.

(** The squared Euclidean distance does not depend on the direction, vanishes exactly between equal positions, and obeys
    Pythagoras: it is the sum of the squares of the larger and of the smaller axis distance. *)
Theorem C36_squared_euclidean : forall s t d, squared_euclidean_distance s t = Some d ->
  squared_euclidean_distance t s = Some d /\ (d = 0 <-> cx s = cx t /\ cy s = cy t) /\
  d = chebyshev_distance s t ^ 2 + (manhattan_distance s t - chebyshev_distance s t) ^ 2 /\
  chebyshev_distance s t ^ 2 <= d <= manhattan_distance s t ^ 2.
Proof.
  intros s t d. unfold squared_euclidean_distance, chebyshev_distance, manhattan_distance.
  set (x := cx s - cx t). set (y := cy s - cy t). replace (cx t - cx s) with (- x) by lia. replace (cy t - cy s) with (- y) by lia.
  cbv zeta. replace (- x * - x + - y * - y) with (x * x + y * y) by ring.
  destruct (x * x + y * y <? 9007199254740992) eqn:E; [|discriminate]. intros H. injection H as <-.
  split; [reflexivity|]. split.
  { split; [intros H0; assert (x = 0 /\ y = 0) by nia; lia|intros [H1 H2]; replace x with 0 by lia; replace y with 0 by lia; reflexivity]. }
  rewrite <- (Z.abs_square x), <- (Z.abs_square y). pose proof (Z.abs_nonneg x). pose proof (Z.abs_nonneg y).
  generalize dependent (Z.abs x). generalize dependent (Z.abs y). clear. intros b Hb a Ha.
  destruct (Z.max_spec a b) as [[? ->]|[? ->]]; rewrite !Z.pow_2_r; split; try split; nia.
Qed.
Print Assumptions C36_squared_euclidean.

(** Manhattan distance never exceeds the number of steps of a walk over adjacent tiles of a Cartesian
    layout; and there is always a walk of exactly this length in a layout without obstructions. *)
Theorem C36_manhattan_bound : forall ar s t, inb ar s -> inb ar t -> cz s = cz t ->
  (forall p, walk (fun u v => inb ar v /\ touch Cartesian u v) s t p -> manhattan_distance s t <= Z.of_nat (length p) - 1) /\
  exists p, walk (fun u v => inb ar v /\ touch Cartesian u v) s t p /\ manhattan_distance s t = Z.of_nat (length p) - 1.
Proof.
  intros ar s t Hs Ht Hz. split.
  - intros p. clear. induction 1 as [s|s u t p [_ H] Hw IH]; cbn [length]; [unfold manhattan_distance; lia|].
    cbn [touch] in H. unfold square_touch in H. unfold manhattan_distance in *. lia.
  - remember (Z.to_nat (manhattan_distance s t)) as k eqn:Ek. revert s Hs Hz Ek. induction k as [|k IH]; intros s Hs Hz Ek; unfold manhattan_distance in *.
    + assert (s = t). { destruct Hs as (D1 & _), Ht as (D2 & _). destruct s, t; cbn in *. f_equal; try congruence; lia. } subst. exists [t]. split; [apply walk_end|cbn; lia].
    + assert (exists u, inb ar u /\ cz u = cz s /\ square_touch s u /\ Z.abs (cx u - cx t) + Z.abs (cy u - cy t) = Z.of_nat k) as (u & Hu & Hzu & H1 & H2).
      { destruct (Z.lt_trichotomy (cx s) (cx t)) as [E|[E|E]].
        - exists (live (cx s + 1) (cy s) (cz s)). unfold inb, square_touch in *. cbn [live cd cx cy cz]. repeat split; try lia.
        - destruct (Z.lt_ge_cases (cy s) (cy t)).
          + exists (live (cx s) (cy s + 1) (cz s)). unfold inb, square_touch in *. cbn [live cd cx cy cz]. repeat split; try lia.
          + exists (live (cx s) (cy s - 1) (cz s)). unfold inb, square_touch in *. cbn [live cd cx cy cz]. repeat split; try lia.
        - exists (live (cx s - 1) (cy s) (cz s)). unfold inb, square_touch in *. cbn [live cd cx cy cz]. repeat split; try lia. }
      destruct (IH u Hu ltac:(lia) ltac:(lia)) as (p & Hp & Hl). exists (s :: p). split; [eapply walk_step; [split; [exact Hu|exact H1]|exact Hp]|]. cbn [length]. lia.
Qed.
Print Assumptions C36_manhattan_bound.
(** The same for the steps of path finding, with crossings, clocking and obstructions. *)
Theorem C36_manhattan_permitted : forall clk l cr tgt s t p, routable l -> cl_topo (o_clocked l) = Cartesian -> inb (cl_dim (o_clocked l)) s ->
  walk (permitted (pf_of clk l) cr tgt) s t p -> manhattan_distance s t <= Z.of_nat (length p) - 1.
Proof.
  intros clk l cr tgt s t p HL Ht Hs Hw. induction Hw as [s|s u t p H Hw IH]; cbn [length]; [unfold manhattan_distance; lia|].
  pose proof (permitted_touch clk l HL cr tgt s u Hs H) as K. rewrite Ht in K. cbn [touch] in K.
  pose proof (manhattan_touch s u t K). specialize (IH (permitted_inb clk l HL cr tgt s u Hs H)). lia.
Qed.
Print Assumptions C36_manhattan_permitted.
(** Not so on hexagonal layouts, although the heuristic is used there as well. *)
Theorem C36_manhattan_hex_refuted : exists a ar s t p, dim_ok ar /\ inb ar s /\ inb ar t /\
  walk (fun u v => inb ar v /\ touch (Hex a) u v) s t p /\ Z.of_nat (length p) - 1 < manhattan_distance s t.
Proof.
  exists OddRow, (live 2 2 0), (live 0 0 0), (live 1 2 0), [live 0 0 0; live 0 1 0; live 1 2 0]. split; [unfold dim_ok; cbn; lia|]. split; [unfold inb; cbn; lia|]. split; [unfold inb; cbn; lia|]. split; [|vm_compute; reflexivity].
  apply walk_step with (live 0 1 0); [|apply walk_step with (live 1 2 0); [|apply walk_end]].
  all: split; [unfold inb; cbn; lia|]; split; [reflexivity|]; left; exists 1, 1; split; [auto|]; split; [auto|]; split; reflexivity.
Qed.
Print Assumptions C36_manhattan_hex_refuted.

(** On 2DDWave, every walk along the clock flow has exactly the length given by the 2DDWave distance, there is one
    if and only if neither coordinate decreases, and the value for unreachable tiles is never a length. *)
Theorem C36_twoddwave_exact : forall ar n s t, dim_ok ar -> inb ar s -> inb ar t -> cz s = cz t ->
  let step := fun u v => In v (outgoing_clocked_zones (std_layout Cartesian ar (TWODDWAVE n)) u) in
  (forall p, walk step s t p -> Z.of_nat (length p) - 1 = twoddwave_distance s t) /\
  ((exists p, walk step s t p) <-> cx s <= cx t /\ cy s <= cy t) /\
  ((exists p, walk step s t p) <-> twoddwave_distance s t <> 4294967295).
Proof.
  intros ar n s t Hd Hs Ht Hz step.
  assert (E : (exists p, walk step s t p) <-> cx s <= cx t /\ cy s <= cy t).
  { split; [intros (p & Hp); apply dd_walk in Hp; [|exact Hd|exact Hs]; lia|]. intros [Hx Hy].
    apply (dd_exists ar n Hd (Z.to_nat (cx t - cx s + (cy t - cy s)))); auto; lia. }
  split; [intros p Hp; apply (dd_walk ar n Hd s t p Hp Hs)|]. split; [exact E|]. rewrite E. unfold twoddwave_distance, manhattan_distance.
  destruct Hd as (D1 & D2 & _), Hs as (_ & S1 & S2 & _), Ht as (_ & T1 & T2 & _).
  destruct (Z.leb_spec (cx s) (cx t)), (Z.leb_spec (cy s) (cy t)); cbn [andb]; lia.
Qed.
Print Assumptions C36_twoddwave_exact.

(** Pre-computed distance maps return the values of the distance function, on layouts with one layer ... *)
Theorem C36_distance_map_partial : forall ar fuel f, dim_ok ar -> cz ar = 0 -> (Z.to_nat (volume ar) <= fuel)%nat ->
  exists m, initialize_distance_map fuel ar f = Some m /\
    forall s t, inb ar s -> inb ar t -> df_call (distance_map_functor ar m) s t = Some (f s t).
Proof. exact distance_map_ok. Qed.
Print Assumptions C36_distance_map_partial.
(** ... but creating one on any layout with a crossing layer writes outside of the allocated matrix. *)
Theorem C36_distance_map_refuted : forall ar fuel f, dim_ok ar -> cz ar = 1 -> (Z.to_nat (volume ar) <= fuel)%nat ->
  initialize_distance_map fuel ar f = None.
Proof. exact distance_map_fails. Qed.
Print Assumptions C36_distance_map_refuted.
(** Sparse maps do not have this problem. *)
Theorem C36_sparse_map : forall ar fuel f, dim_ok ar -> (Z.to_nat (volume ar) <= fuel)%nat ->
  exists m, initialize_sparse_distance_map fuel ar f = Some m /\
    (forall s t, inb ar s -> inb ar t -> df_call (sparse_distance_map_functor m) s t = Some (f s t)) /\
    (forall s t, ~ (inb ar s /\ inb ar t) -> df_call (sparse_distance_map_functor m) s t = None).
Proof. exact sparse_map_ok. Qed.
Print Assumptions C36_sparse_map.
(** The cache is transparent as long as the distances do not change between the calls ... *)
Theorem C36_cache_partial : forall f qs, cache_run ∅ (map (fun q => (f, q)) qs) = map (fun q => f q.1 q.2) qs.
Proof.
  intros f qs. rewrite (cache_ok f).
  - rewrite map_map. reflexivity.
  - apply List.Forall_forall. intros q Hq. apply in_map_iff in Hq as (q' & <- & _). reflexivity.
  - intros s t d H. rewrite lookup_empty in H. discriminate.
Qed.
Print Assumptions C36_cache_partial.
(** ... but it keeps stale values if they do, e.g. because the layout passed to it changed. *)
Theorem C36_cache_refuted : exists qs, cache_run ∅ qs <> map (fun q => q.1 q.2.1 q.2.2) qs.
Proof.
  exists [((fun _ _ => 1), (live 0 0 0, live 1 0 0)); ((fun _ _ => 3), (live 0 0 0, live 1 0 0))]. vm_compute. discriminate.
Qed.
Print Assumptions C36_cache_refuted.
(** Handed to A*, which stores a copy of their base class, distance maps are ignored altogether: A* then sees the distance 0. *)
Theorem C36_map_in_a_star_refuted : forall ar m tgt c, v_dist (u64_ops (distance_map_functor ar m) unit_cost tgt) c = 0 /\
  forall sm, v_dist (u64_ops (sparse_distance_map_functor sm) unit_cost tgt) c = 0.
Proof. intros. split; reflexivity. Qed.
Print Assumptions C36_map_in_a_star_refuted.

Example C36_nonvacuous : dim_ok (live 2 2 0) /\ inb (live 2 2 0) (live 2 1 0) /\ manhattan_distance (live 0 0 0) (live 2 1 0) = 3 /\
  twoddwave_distance (live 0 0 0) (live 2 1 0) = 3 /\ twoddwave_distance (live 2 0 0) (live 1 1 0) = 4294967295 /\
  (exists m, initialize_distance_map 9 (live 2 2 0) manhattan_distance = Some m /\ df_call (distance_map_functor (live 2 2 0) m) (live 0 0 0) (live 2 1 0) = Some 3).
Proof.
  split; [unfold dim_ok; cbn; lia|]. split; [unfold inb; cbn; lia|]. do 3 (split; [reflexivity|]).
  destruct (C36_distance_map_partial (live 2 2 0) 9 manhattan_distance) as (m & E & H); [unfold dim_ok; cbn; lia|reflexivity|apply Nat.leb_le; vm_compute; reflexivity|].
  exists m. split; [exact E|]. apply H; unfold inb; cbn; lia.
Qed.

(** * C37: A* returns only valid paths *)

(** For any costs and heuristic of any numeric type, any priority queue and any layout: a non-empty result is a loop-less path of permitted steps. *)
Theorem C37_a_star_valid : forall V (O : vops V) (Q : queue V) L cr src tgt fuel p, queue_ok Q ->
  a_star O Q L cr src tgt fuel = Some p -> p <> [] -> is_path (permitted L cr tgt) src tgt p.
Proof.
  intros V O Q L cr src tgt fuel p HQ E Hn. pose proof (a_star_ok O Q HQ L cr src tgt fuel) as H. rewrite E in H. destruct p; [congruence|exact H].
Qed.
Print Assumptions C37_a_star_valid.
(** Without crossings: every step goes to a touching tile inside the layout that is free or the target, over a free connection, and follows the clocking if there is one. *)
Theorem C37_a_star_ground : forall V (O : vops V) (Q : queue V) clk l src tgt fuel p, queue_ok Q -> routable l -> inb (cl_dim (o_clocked l)) src -> cz src = 0 ->
  a_star O Q (pf_of clk l) false src tgt fuel = Some p -> p <> [] -> is_path (layout_step clk l tgt) src tgt p.
Proof.
  intros V O Q clk l src tgt fuel p HQ HL Hs Hz E Hn. destruct (C37_a_star_valid V O Q _ _ _ _ _ _ HQ E Hn) as [H1 H2]. split; [|exact H2].
  apply (proj1 (ground_walks clk l HL tgt src tgt p Hs Hz)), H1.
Qed.
Print Assumptions C37_a_star_ground.
(** The binary heap of the standard library is such a queue. *)
Theorem C37_heap_is_queue : forall V (gt : V -> V -> bool), queue_ok (heap gt).
Proof. intros. apply heap_queue_ok. Qed.
Print Assumptions C37_heap_is_queue.
Definition ex_star (fuel : nat) : option (list coord) :=
  a_star (u64_ops (distance_functor manhattan_distance) unit_cost (live 2 1 0)) (heap zgt) (pf_of false ex_lay) false (live 0 0 0) (live 2 1 0) fuel.
Example C37_nonvacuous : queue_ok (heap zgt) /\ routable ex_lay /\ inb (cl_dim (o_clocked ex_lay)) (live 0 0 0) /\
  ex_star 9 = Some [live 0 0 0; live 0 1 0; live 0 2 0; live 1 2 0; live 2 2 0; live 2 1 0].
Proof. split; [apply heap_queue_ok|]. split; [exact ex_routable|]. split; [unfold inb; cbn; lia|vm_compute; reflexivity]. Qed.

(** * C38: A* is complete *)

(** It terminates within as many expansions as there are coordinates, and an empty result means that there is no walk at all. *)
Theorem C38_a_star_complete : forall V (O : vops V) (Q : queue V) clk l cr src tgt fuel, queue_ok Q -> routable l -> inb (cl_dim (o_clocked l)) src ->
  (Z.to_nat (volume (cl_dim (o_clocked l))) <= fuel)%nat ->
  exists p, a_star O Q (pf_of clk l) cr src tgt fuel = Some p /\ (p = [] <-> forall q, ~ walk (permitted (pf_of clk l) cr tgt) src tgt q).
Proof.
  intros V O Q clk l cr src tgt fuel HQ HL Hs Hf. pose proof (a_star_ok O Q HQ (pf_of clk l) cr src tgt fuel) as H.
  destruct (a_star O Q (pf_of clk l) cr src tgt fuel) as [[|x p]|].
  - exists []. split; [reflexivity|]. tauto.
  - exists (x :: p). split; [reflexivity|]. split; [discriminate|]. intros K. exfalso. exact (K _ (proj1 H)).
  - exfalso. destruct (universe_exists l HL (permitted (pf_of clk l) cr tgt) src (fun u v => permitted_inb clk l HL cr tgt u v) Hs) as (U & HU & HUl & _). specialize (H U HU). lia.
Qed.
Print Assumptions C38_a_star_complete.
Theorem C38_a_star_ground : forall V (O : vops V) (Q : queue V) clk l src tgt fuel, queue_ok Q -> routable l -> inb (cl_dim (o_clocked l)) src -> cz src = 0 ->
  (Z.to_nat (volume (cl_dim (o_clocked l))) <= fuel)%nat ->
  exists p, a_star O Q (pf_of clk l) false src tgt fuel = Some p /\ (p = [] <-> forall q, ~ walk (layout_step clk l tgt) src tgt q).
Proof.
  intros V O Q clk l src tgt fuel HQ HL Hs Hz Hf. destruct (C38_a_star_complete V O Q clk l false src tgt fuel HQ HL Hs Hf) as (p & E & H). exists p. split; [exact E|]. rewrite H.
  split; intros K q Hq; apply (K q), (proj1 (ground_walks clk l HL tgt src tgt q Hs Hz)), Hq.
Qed.
Print Assumptions C38_a_star_ground.
(** a_star_distance is "infinity" exactly if there is no walk; otherwise it is the number of steps of a loop-less path. *)
Theorem C38_a_star_distance : forall Q clk l src tgt fuel, queue_ok Q -> routable l -> inb (cl_dim (o_clocked l)) src -> cz src = 0 ->
  (Z.to_nat (volume (cl_dim (o_clocked l))) <= fuel)%nat ->
  exists d, a_star_distance Q (pf_of clk l) fuel src tgt = Some d /\
    ((d = 2 ^ 64 - 1 /\ forall q, ~ walk (layout_step clk l tgt) src tgt q) \/
     (d < 2 ^ 63 /\ exists p, is_path (layout_step clk l tgt) src tgt p /\ d = Z.of_nat (length p) - 1)).
Proof.
  intros Q clk l src tgt fuel HQ HL Hs Hz Hf. unfold a_star_distance.
  destruct (C38_a_star_ground Z (u64_ops (distance_functor manhattan_distance) unit_cost tgt) Q clk l src tgt fuel HQ HL Hs Hz Hf) as (p & E & H). rewrite E.
  destruct p as [|x p]; [eexists; split; [reflexivity|]; left; split; [reflexivity|apply H; reflexivity]|].
  pose proof (C37_a_star_ground _ _ _ clk l src tgt fuel (x :: p) HQ HL Hs Hz E ltac:(discriminate)) as Hp.
  eexists. split; [reflexivity|]. right. split; [|exists (x :: p); split; [exact Hp|reflexivity]].
  destruct (universe_exists l HL (permitted (pf_of clk l) false tgt) src (fun u v => permitted_inb clk l HL false tgt u v) Hs) as (U & HU & HUl & HUi).
  assert (Hle : (length (x :: p) <= length U)%nat).
  { apply NoDup_incl_length; [apply Hp|]. destruct Hp as [Hw _]. apply (proj1 (ground_walks clk l HL tgt src tgt _ Hs Hz)) in Hw.
    clear -Hw HU. destruct HU as [H1 H2]. induction Hw as [s|s u t q Hst Hw IH]; intros c [<-|Hc]; auto; [destruct Hc|]. apply IH; [apply (H2 s u H1 Hst)|exact Hc]. }
  pose proof (volume_small l HL) as Hv. rewrite HUl in Hle. set (n := length (x :: p)) in *. lia.
Qed.
Print Assumptions C38_a_star_distance.
Example C38_nonvacuous : queue_ok (heap zgt) /\ routable ex_lay /\ inb (cl_dim (o_clocked ex_lay)) (live 0 0 0) /\ (Z.to_nat (volume (cl_dim (o_clocked ex_lay))) <= 9)%nat /\
  a_star_distance (heap zgt) (pf_of false ex_lay) 9 (live 0 0 0) (live 2 1 0) = Some 5 /\
  a_star_distance (heap zgt) (pf_of true ex_lay) 9 (live 2 1 0) (live 0 0 0) = Some 18446744073709551615.
Proof. split; [apply heap_queue_ok|]. split; [exact ex_routable|]. split; [unfold inb; cbn; lia|]. split; [apply Nat.leb_le; vm_compute; reflexivity|]. split; vm_compute; reflexivity. Qed.

(** * C39: A* paths are shortest *)

(** Refuted: entries of the open list are changed in place without restoring the heap, so a longer path can be returned. *)
Definition bad_lay : olayout := mkO (OPlain (std_layout Cartesian (live 6 6 0) (TWODDWAVE FOUR)))
  (list_to_set (map (fun p => live p.1 p.2 0) [(0,5);(1,0);(1,2);(1,3);(1,6);(2,1);(2,4);(2,6);(3,0);(3,2);(5,4)])) ∅.
Definition bad_better : list coord :=
  [live 6 4 0; live 6 5 0; live 5 5 0; live 4 5 0; live 3 5 0; live 2 5 0; live 1 5 0; live 1 4 0; live 0 4 0; live 0 3 0].
Definition bad_path : list coord :=
  [live 6 4 0; live 6 3 0; live 5 3 0; live 4 3 0; live 3 3 0; live 3 4 0; live 3 5 0; live 2 5 0; live 1 5 0; live 1 4 0; live 0 4 0; live 0 3 0].
Ltac one_step := split; [repeat split; vm_compute; discriminate|]; split; [split; reflexivity|]; split; [intros; first [discriminate|vm_compute; reflexivity]|]; split; [first [left; vm_compute; reflexivity|right; reflexivity]|vm_compute; reflexivity].
Ltac go_walk := lazymatch goal with
  | |- walk _ _ _ [_] => apply walk_end
  | |- walk _ _ _ (_ :: ?b :: _) => apply walk_step with b; [one_step|go_walk] end.
Theorem C39_heap_refuted : exists l src tgt q p, routable l /\ cl_topo (o_clocked l) = Cartesian /\ inb (cl_dim (o_clocked l)) src /\
  a_star (u64_ops (distance_functor manhattan_distance) unit_cost tgt) (heap zgt) (pf_of false l) false src tgt 49 = Some q /\
  walk (layout_step false l tgt) src tgt p /\ (length p < length q)%nat.
Proof.
  exists bad_lay, (live 6 4 0), (live 0 3 0), bad_path, bad_better. split; [split; [repeat split; vm_compute; congruence|split; vm_compute; congruence]|].
  split; [reflexivity|]. split; [repeat split; vm_compute; discriminate|]. split; [vm_compute; reflexivity|]. split; [unfold bad_better; go_walk|cbn; lia].
Qed.
Print Assumptions C39_heap_refuted.

(** What is missing for the full statement is only the queue: with any priority queue that delivers a lowest entry, also after entries
    were lowered in place, the default heuristic and unit costs give shortest paths on Cartesian layouts, with or without crossings. *)
Theorem C39_lowest_first_partial : forall Q clk l cr src tgt fuel q, queue_ok Q -> lowest_first Z.le Q -> routable l -> cl_topo (o_clocked l) = Cartesian ->
  inb (cl_dim (o_clocked l)) src -> inb (cl_dim (o_clocked l)) tgt ->
  a_star (u64_ops (distance_functor manhattan_distance) unit_cost tgt) Q (pf_of clk l) cr src tgt fuel = Some q -> q <> [] ->
  forall p, walk (permitted (pf_of clk l) cr tgt) src tgt p -> (length q <= length p)%nat.
Proof.
  intros Q clk l cr src tgt fuel q HQ Hlow HL Ht Hs Hg. destruct (universe_exists l HL (permitted (pf_of clk l) cr tgt) src (fun u v => permitted_inb clk l HL cr tgt u v) Hs) as (U & HU & HUl & HUi).
  pose proof (volume_small l HL) as Hv. apply (a_star_opt_lowest Q HQ Hlow (pf_of clk l) cr src tgt manhattan_distance U HU).
  - rewrite HUl. lia.
  - intros c Hc. apply HUi in Hc. destruct HL as [(D1 & D2 & _) _], Hc as (_ & C1 & C2 & _), Hg as (_ & G1 & G2 & _). unfold manhattan_distance. lia.
  - intros u v Hu Hs'. apply HUi in Hu. pose proof (permitted_touch clk l HL cr tgt u v Hu Hs') as K. rewrite Ht in K. exact (manhattan_touch u v tgt K).
Qed.
Print Assumptions C39_lowest_first_partial.
(** With the standard library's heap: on every layout, if the heuristic is constantly zero - which is also what A* sees if it is given a distance map. *)
Theorem C39_zero_partial : forall clk l cr src tgt fuel q d, (forall a b, df_base d a b = 0) -> routable l -> inb (cl_dim (o_clocked l)) src ->
  a_star (u64_ops d unit_cost tgt) (heap zgt) (pf_of clk l) cr src tgt fuel = Some q -> q <> [] ->
  forall p, walk (permitted (pf_of clk l) cr tgt) src tgt p -> (length q <= length p)%nat.
Proof.
  intros clk l cr src tgt fuel q d Hd HL Hs. destruct (universe_exists l HL (permitted (pf_of clk l) cr tgt) src (fun u v => permitted_inb clk l HL cr tgt u v) Hs) as (U & HU & HUl & HUi).
  pose proof (volume_small l HL) as Hv. intros E. apply (dijkstra_opt (pf_of clk l) cr src tgt U HU) with (fuel := fuel); [rewrite HUl; lia|].
  rewrite <- E. set (O1 := u64_ops (distance_functor (fun _ _ => 0)) unit_cost tgt). set (O2 := u64_ops d unit_cost tgt).
  assert (Hx : forall cur st w, explore O1 (heap zgt) (pf_of clk l) cr tgt cur st w = explore O2 (heap zgt) (pf_of clk l) cr tgt cur st w).
  { intros cur st w. unfold explore. assert (Ed : forall v, v_dist O2 v = v_dist O1 v) by (intros v; cbn; rewrite Hd; reflexivity).
    destruct (enter (pf_of clk l) cr tgt cur w); [|reflexivity]. rewrite !Ed. reflexivity. }
  assert (Hf : forall cur ws st, fold_left (explore O1 (heap zgt) (pf_of clk l) cr tgt cur) ws st = fold_left (explore O2 (heap zgt) (pf_of clk l) cr tgt cur) ws st).
  { intros cur. induction ws as [|w ws IH]; intros st; cbn [fold_left]; [reflexivity|]. rewrite Hx. apply IH. }
  unfold a_star. assert (G : forall n st, a_run O1 (heap zgt) (pf_of clk l) cr src tgt n st = a_run O2 (heap zgt) (pf_of clk l) cr src tgt n st).
  { induction n as [|n IH]; intros st; cbn [a_run]; [reflexivity|]. destruct (q_top (heap zgt) (a_open st)) as [[cur f]|]; [|reflexivity]. destruct (coord_eqb cur tgt); [reflexivity|]. rewrite Hf. apply IH. }
  apply G.
Qed.
Print Assumptions C39_zero_partial.
(** On layouts with one of the linear clocking schemes all paths have the same length, whatever the queue and the heuristic. *)
Theorem C39_linear_partial : forall V (O : vops V) Q l t ar s cr src tgt fuel q, queue_ok Q -> dim_ok ar -> o_clocked l = std_layout t ar s -> waves t s -> inb ar src ->
  a_star O Q (pf_of true l) cr src tgt fuel = Some q -> q <> [] ->
  forall p, walk (permitted (pf_of true l) cr tgt) src tgt p -> length q = length p.
Proof.
  intros V O Q l t ar s cr src tgt fuel q HQ Hd El Hw Hs E Hn p Hp. destruct (C37_a_star_valid _ _ _ _ _ _ _ _ _ HQ E Hn) as [Hq _].
  pose proof (walk_wave l t ar s cr tgt Hd El Hw _ _ _ Hs Hq). pose proof (walk_wave l t ar s cr tgt Hd El Hw _ _ _ Hs Hp). lia.
Qed.
Print Assumptions C39_linear_partial.
Example C39_nonvacuous : queue_ok search_queue /\ lowest_first Z.le search_queue /\
  (exists q, a_star (u64_ops (distance_functor manhattan_distance) unit_cost (live 0 3 0)) search_queue (pf_of false bad_lay) false (live 6 4 0) (live 0 3 0) 49 = Some q /\ length q = 10%nat) /\
  waves Cartesian (TWODDWAVE FOUR) /\ o_clocked ex_lay = std_layout Cartesian (live 2 2 0) (TWODDWAVE FOUR) /\
  a_star (u64_ops (distance_functor manhattan_distance) unit_cost (live 2 1 0)) (heap zgt) (pf_of true ex_lay) false (live 0 1 0) (live 1 2 0) 9 = Some [live 0 1 0; live 0 2 0; live 1 2 0].
Proof.
  split; [apply search_queue_ok|]. split; [apply search_queue_ok|]. split; [exists bad_better; split; [vm_compute; reflexivity|reflexivity]|].
  split; [split; [exact I|congruence]|]. split; [reflexivity|vm_compute; reflexivity].
Qed.

(** * C40: enumeration of all paths *)

(** The result contains exactly the loop-less permitted paths, each once. *)
Theorem C40_enumerates : forall clk l cr src tgt fuel, routable l -> inb (cl_dim (o_clocked l)) src -> (Z.to_nat (volume (cl_dim (o_clocked l))) <= fuel)%nat ->
  exists out, enumerate_all_paths fuel (pf_of clk l) cr src tgt = Some out /\ List.NoDup out /\
    forall q, In q out <-> is_path (e_permitted (pf_of clk l) cr tgt) src tgt q.
Proof.
  intros clk l cr src tgt fuel HL Hs Hf. pose proof (enumerate_all_ok fuel (pf_of clk l) cr src tgt) as H.
  destruct (enumerate_all_paths fuel (pf_of clk l) cr src tgt) as [out|].
  - exists out. split; [reflexivity|]. split; [|apply H]. apply H. exists (inb (cl_dim (o_clocked l))). split; [exact Hs|]. split.
    + intros u v. apply e_permitted_inb, HL.
    + intros u Hu. apply entered_nodup; assumption.
  - exfalso. destruct (universe_exists l HL (e_permitted (pf_of clk l) cr tgt) src (fun u v => e_permitted_inb clk l HL cr tgt u v) Hs) as (U & HU & HUl & _). specialize (H U HU). lia.
Qed.
Print Assumptions C40_enumerates.
Theorem C40_enumerates_ground : forall clk l src tgt fuel, routable l -> inb (cl_dim (o_clocked l)) src -> cz src = 0 -> (Z.to_nat (volume (cl_dim (o_clocked l))) <= fuel)%nat ->
  exists out, enumerate_all_paths fuel (pf_of clk l) false src tgt = Some out /\ List.NoDup out /\
    forall q, In q out <-> is_path (layout_step clk l tgt) src tgt q.
Proof.
  intros clk l src tgt fuel HL Hs Hz Hf. destruct (C40_enumerates clk l false src tgt fuel HL Hs Hf) as (out & E & Hn & H). exists out. split; [exact E|]. split; [exact Hn|].
  intros q. rewrite H. unfold is_path. rewrite (proj2 (ground_walks clk l HL tgt src tgt q Hs Hz)). reflexivity.
Qed.
Print Assumptions C40_enumerates_ground.
Example C40_nonvacuous : routable ex_lay /\ inb (cl_dim (o_clocked ex_lay)) (live 0 0 0) /\ (Z.to_nat (volume (cl_dim (o_clocked ex_lay))) <= 9)%nat /\
  enumerate_all_paths 9 (pf_of false ex_lay) false (live 1 0 0) (live 2 2 0) =
    Some [[live 1 0 0; live 2 0 0; live 2 1 0; live 2 2 0]; [live 1 0 0; live 0 0 0; live 0 1 0; live 0 2 0; live 1 2 0; live 2 2 0]].
Proof.
  split; [exact ex_routable|]. split; [unfold inb; cbn; lia|]. split; [apply Nat.leb_le; vm_compute; reflexivity|]. vm_compute. reflexivity.
Qed.

(** * C41: Yen's algorithm *)

(** It returns at most k (but at least one if there is any) different loop-less permitted paths; the obstructions are restored.
    Missing: the source must not be obstructed by the user, and 0 counts as 1. *)
Theorem C41_yen_partial : forall Q clk l cr src tgt fuel k, queue_ok Q -> routable l -> inb (cl_dim (o_clocked l)) src -> src ∉ o_coords l -> (cr = true -> built l) ->
  (Z.to_nat (volume (cl_dim (o_clocked l))) <= fuel)%nat ->
  exists res, yen Q clk cr src tgt fuel l k = Some (l, res) /\ (length res <= Nat.max 1 k)%nat /\ List.NoDup res /\
    (forall p, In p res -> is_path (permitted (pf_of clk l) cr tgt) src tgt p) /\
    (res = [] <-> forall p, ~ walk (permitted (pf_of clk l) cr tgt) src tgt p).
Proof.
  intros Q clk l cr src tgt fuel k HQ HL Hs Ho Hb Hf. destruct (yen_layout Q HQ clk cr src tgt fuel l HL Ho Hs Hb Hf k) as (res & H1 & H2 & H3 & H4 & H5 & _). exists res. auto.
Qed.
Print Assumptions C41_yen_partial.
Theorem C41_yen_ground_partial : forall Q clk l src tgt fuel k, queue_ok Q -> routable l -> inb (cl_dim (o_clocked l)) src -> cz src = 0 -> src ∉ o_coords l ->
  (Z.to_nat (volume (cl_dim (o_clocked l))) <= fuel)%nat ->
  exists res, yen Q clk false src tgt fuel l k = Some (l, res) /\ (length res <= Nat.max 1 k)%nat /\ List.NoDup res /\
    (forall p, In p res -> is_path (layout_step clk l tgt) src tgt p) /\
    (res = [] <-> forall p, ~ walk (layout_step clk l tgt) src tgt p).
Proof.
  intros Q clk l src tgt fuel k HQ HL Hs Hz Ho Hf. destruct (C41_yen_partial Q clk l false src tgt fuel k HQ HL Hs Ho ltac:(discriminate) Hf) as (res & H1 & H2 & H3 & H4 & H5).
  exists res. split; [exact H1|]. split; [exact H2|]. split; [exact H3|].
  split; [intros p Hp; destruct (H4 p Hp) as [K1 K2]; split; [apply (proj1 (ground_walks clk l HL tgt src tgt p Hs Hz)), K1|exact K2]|].
  rewrite H5. split; intros K p Hp; apply (K p), (proj1 (ground_walks clk l HL tgt src tgt p Hs Hz)), Hp.
Qed.
Print Assumptions C41_yen_ground_partial.
(** An obstruction the user put on the source is lost. *)
Definition y_lay : olayout := mkO (OPlain (std_layout Cartesian (live 1 1 0) (TWODDWAVE FOUR))) {[ live 0 0 0 ]} ∅.
Definition y_result : option (olayout * list (list coord)) := yen (heap zgt) false false (live 0 0 0) (live 1 1 0) 4 y_lay 2.
Theorem C41_source_refuted : exists l src tgt k, routable l /\ inb (cl_dim (o_clocked l)) src /\ inb (cl_dim (o_clocked l)) tgt /\
  match yen (heap zgt) false false src tgt 4 l k with
  | Some (l', res) => is_obstructed_coordinate l src = true /\ is_obstructed_coordinate l' src = false /\ length res = 2%nat
  | None => False
  end.
Proof.
  exists y_lay, (live 0 0 0), (live 1 1 0), 2%nat. split; [split; [repeat split; vm_compute; congruence|split; vm_compute; congruence]|].
  split; [repeat split; vm_compute; discriminate|]. split; [repeat split; vm_compute; discriminate|]. vm_compute. auto.
Qed.
Print Assumptions C41_source_refuted.
(** Asked for no path, it returns one. *)
Theorem C41_zero_refuted : exists l src tgt, routable l /\ src ∉ o_coords l /\
  match yen (heap zgt) false false src tgt 9 l 0 with Some (_, res) => length res = 1%nat | None => False end.
Proof.
  exists ex_lay, (live 0 0 0), (live 2 1 0). split; [exact ex_routable|]. split; [|vm_compute; reflexivity]. unfold ex_lay. cbn [o_coords]. rewrite elem_of_singleton. discriminate.
Qed.
Print Assumptions C41_zero_refuted.
Example C41_nonvacuous : routable ex_lay /\ inb (cl_dim (o_clocked ex_lay)) (live 0 1 0) /\ live 0 1 0 ∉ o_coords ex_lay /\ (Z.to_nat (volume (cl_dim (o_clocked ex_lay))) <= 9)%nat /\
  match yen (heap zgt) false false (live 0 1 0) (live 2 2 0) 9 ex_lay 5 with Some (l, res) => res = [[live 0 1 0; live 0 2 0; live 1 2 0; live 2 2 0]] | None => False end.
Proof.
  split; [exact ex_routable|]. split; [unfold inb; cbn; lia|]. split; [unfold ex_lay; cbn [o_coords]; rewrite elem_of_singleton; discriminate|]. split; [apply Nat.leb_le; vm_compute; reflexivity|]. vm_compute. reflexivity.
Qed.

(** * C46: Yen's algorithm returns k paths if there are k, and they are the shortest ones *)

(** On layouts with one of the linear clocking schemes (where all paths have the same length): fewer than k paths are returned only if these are all. *)
Theorem C46_linear_partial : forall Q l t ar s cr src tgt fuel k, queue_ok Q -> dim_ok ar -> o_clocked l = std_layout t ar s -> waves t s -> inb ar src -> src ∉ o_coords l -> (cr = true -> built l) ->
  (Z.to_nat (volume ar) <= fuel)%nat -> (1 <= k)%nat ->
  exists res, yen Q true cr src tgt fuel l k = Some (l, res) /\ List.NoDup res /\ (forall p, In p res -> is_path (permitted (pf_of true l) cr tgt) src tgt p) /\
    (length res = k \/ forall q, is_path (permitted (pf_of true l) cr tgt) src tgt q -> In q res) /\
    (forall p q, In p res -> is_path (permitted (pf_of true l) cr tgt) src tgt q -> (length p <= length q)%nat).
Proof.
  intros Q l t ar s cr src tgt fuel k HQ Hd El Hw Hs Ho Hb Hf Hk. pose proof (std_routable l t ar s Hd El) as HL.
  assert (Ear : cl_dim (o_clocked l) = ar) by (rewrite El; reflexivity).
  destruct (yen_layout Q HQ true cr src tgt fuel l HL Ho ltac:(rewrite Ear; exact Hs) Hb ltac:(rewrite Ear; exact Hf) k) as (res & H1 & H2 & H3 & H4 & H5 & H6).
  exists res. split; [exact H1|]. split; [exact H3|]. split; [exact H4|]. split.
  - apply (H6 (wave t s)); [|exact Hk]. rewrite Ear. intros u v Hu Huv. exact (permitted_wave l t ar s cr tgt u v Hd El Hw Hu Huv).
  - intros p q Hp [Hq _]. destruct (H4 p Hp) as [Hpw _].
    pose proof (walk_wave l t ar s cr tgt Hd El Hw _ _ _ Hs Hq). pose proof (walk_wave l t ar s cr tgt Hd El Hw _ _ _ Hs Hpw). lia.
Qed.
Print Assumptions C46_linear_partial.
(** Refuted in general: paths are missed, because connections are blocked for every known path with the same coordinates before the spur node,
    even if it leaves from a different coordinate. On an empty 3 x 3 layout, a user who asks for 7 paths from the centre to its right neighbour gets 5, and one of the missing
    ones is shorter than one of those returned. *)
Definition grid3 : olayout := mkO (OPlain (std_layout Cartesian (live 2 2 0) (TWODDWAVE FOUR))) ∅ ∅.
Definition missed : list coord := [live 1 1 0; live 0 1 0; live 0 2 0; live 1 2 0; live 2 2 0; live 2 1 0].
Theorem C46_complete_refuted : exists l src tgt k q, routable l /\ src ∉ o_coords l /\ is_path (layout_step false l tgt) src tgt q /\
  match yen (heap zgt) false false src tgt 9 l k with Some (_, res) => (length res < k)%nat /\ q ∉ res /\ exists p, p ∈ res /\ (length q < length p)%nat | None => False end.
Proof.
  exists grid3, (live 1 1 0), (live 2 1 0), 7%nat, missed. split; [split; [repeat split; vm_compute; congruence|split; vm_compute; congruence]|].
  split; [unfold grid3; cbn [o_coords]; apply not_elem_of_empty|]. split.
  - split; [unfold missed; go_walk|]. apply NoDup_ListNoDup. apply (bool_decide_unpack _). vm_compute. exact I.
  - assert (E : match yen (heap zgt) false false (live 1 1 0) (live 2 1 0) 9 grid3 7 with Some (_, res) => Nat.ltb (length res) 7 && bool_decide (missed ∉ res) && bool_decide (Exists (fun p => (length missed < length p)%nat) res) | None => false end = true) by (vm_compute; reflexivity).
    destruct (yen _ _ _ _ _ _ _ _) as [[l' res]|]; [|discriminate]. apply andb_true_iff in E as [E E3]. apply andb_true_iff in E as [E1 E2]. split; [apply Nat.ltb_lt, E1|]. apply bool_decide_eq_true in E2. split; [exact E2|]. apply bool_decide_eq_true in E3. apply list.Exists_exists in E3. exact E3.
Qed.
Print Assumptions C46_complete_refuted.
Example C46_nonvacuous : waves Cartesian (TWODDWAVE FOUR) /\ o_clocked grid3 = std_layout Cartesian (live 2 2 0) (TWODDWAVE FOUR) /\
  match yen (heap zgt) true false (live 0 0 0) (live 2 2 0) 9 grid3 10 with Some (_, res) => length res = 6%nat | None => False end.
Proof. split; [split; [exact I|congruence]|]. split; [reflexivity|vm_compute; reflexivity]. Qed.
