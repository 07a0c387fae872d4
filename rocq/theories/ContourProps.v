(** Properties C85-C86: contour tracing in two dimensions and boundary collection in three and more. *)
From Coq Require Import ZArith Bool List Lia Permutation.
From stdpp Require Import gmap list.
From Verif Require Import UtilModel OpDomModel OpDomSpec OpDomProofs OpDomProofs2 ContourModel ContourProofs ContourProofs2.
Import ListNotations.

(** The stored domain holds exactly the statuses of the samples, which are points of the sweep: what C83 shows of the sampling that
    precedes the tracing. *)
Definition sampled (dims : list nat) (op : point -> bool) (samples : list point) (dom : gmap point bool) : Prop :=
  (forall s, In s samples -> on_grid dims s) /\ forall p b, dom !! p = Some b <-> In p samples /\ b = op p.
Lemma sampled_ok dims op samples dom : sampled dims op samples dom ->
  dom_ok op dom /\ forall s, In s samples -> on_grid dims s /\ is_Some (dom !! s).
Proof.
  intros [G H]. split; [intros p b Hb; apply H in Hb; apply Hb|]. intros s Hs. split; [auto|]. exists (op s). apply H. auto.
Qed.

(** * C85 *)
(** The trace of the contour through an operational point ends if and only if the point has an operational neighbour, or no neighbours
    at all. *)
Theorem C85_trace_ends_iff : forall op nx ny start dom,
  (forall p b, dom !! p = Some b -> b = op p) -> on_grid [nx; ny] start -> op start = true ->
  (exists rounds r, trace_contour op nx ny rounds start dom = Some r) <->
  ((exists m, adjacent [nx; ny] start m /\ op m = true) \/ forall m, ~ adjacent [nx; ny] start m).
Proof. intros op nx ny start dom D G O. apply trace_contour_ends; assumption. Qed.
Print Assumptions C85_trace_ends_iff.
(** A traced contour is a closed curve of adjacent operational points through the point it was started from; all its points are recorded,
    and what is recorded is right. *)
Theorem C85_closed_curve : forall op nx ny rounds start dom contour dom',
  (forall p b, dom !! p = Some b -> b = op p) -> on_grid [nx; ny] start -> op start = true -> is_Some (dom !! start) ->
  trace_contour op nx ny rounds start dom = Some (contour, dom') ->
  head contour = Some start /\ chain [nx; ny] contour /\
  (contour = [start] \/ exists z, last contour = Some z /\ adjacent [nx; ny] z start) /\
  (forall p, In p contour -> op p = true /\ dom' !! p = Some true) /\
  (forall p b, dom' !! p = Some b -> b = op p) /\ (forall p, is_Some (dom !! p) -> is_Some (dom' !! p)).
Proof.
  intros op nx ny rounds start dom contour dom' D G O K H.
  destruct (trace_contour_result _ _ _ _ _ _ _ _ D G O K H) as (H1 & H2 & H3 & H4 & H5 & H6).
  split; [exact H5|]. split; [exact H3|]. split; [exact H6|]. split; [|split; [exact H1|exact H2]].
  intros p Hp. rewrite Forall_forall in H4. destruct (H4 p) as [Op [b Hb]]; [apply elem_of_list_In; exact Hp|]. split; [exact Op|].
  rewrite Hb. f_equal. rewrite (H1 _ _ Hb). exact Op.
Qed.
Print Assumptions C85_closed_curve.
(** If every operational point has an operational neighbour, contour tracing ends for all samples; whenever it ends, all recorded statuses
    are right, all samples are recorded, and every operational sample has been inferred to be operational. *)
Theorem C85_ends_partial : forall op nx ny samples dom, sampled [nx; ny] op samples dom ->
  (forall p, on_grid [nx; ny] p -> op p = true -> exists m, adjacent [nx; ny] p m /\ op m = true) ->
  exists rounds res, length (all_points [nx; ny]) <= rounds /\ trace_contour_curve op nx ny rounds samples dom [] = Some res.
Proof.
  intros op nx ny samples dom HS NI. destruct (sampled_ok _ _ _ _ HS) as [D K].
  apply curve_ends; try assumption; [constructor|intros p []].
Qed.
Print Assumptions C85_ends_partial.
Theorem C85_statuses : forall op nx ny rounds samples dom dom' inferred, sampled [nx; ny] op samples dom ->
  length (all_points [nx; ny]) <= rounds ->
  trace_contour_curve op nx ny rounds samples dom [] = Some (dom', inferred) ->
  (forall p b, dom' !! p = Some b -> b = op p) /\ (forall s, In s samples -> dom' !! s = Some (op s)) /\
  (forall s, In s samples -> op s = true -> In s inferred).
Proof.
  intros op nx ny rounds samples dom dom' inferred HS Hr H. destruct (sampled_ok _ _ _ _ HS) as [D K].
  destruct (curve_result op nx ny rounds Hr samples dom [] dom' inferred D K ltac:(constructor) ltac:(intros p []) H) as (H1 & H2 & _ & H4).
  split; [exact H1|]. split; [|exact H4]. intros s Hs. destruct (K s Hs) as [_ Ks]. apply H2 in Ks. destruct Ks as [b Hb].
  rewrite Hb. f_equal. apply H1. exact Hb.
Qed.
Print Assumptions C85_statuses.
(** Contour tracing does not end when it hits an isolated operational point. *)
Theorem C85_isolated_refuted : exists op nx ny samples dom, sampled [nx; ny] op samples dom /\
  forall rounds, trace_contour_curve op nx ny rounds samples dom [] = None.
Proof.
  set (op := fun p : list nat => bool_decide (p = [1; 1])).
  exists op, 3, 3, [[1; 1]], {[ [1; 1] := true ]}.
  assert (D : forall p b, ({[ [1; 1] := true ]} : gmap point bool) !! p = Some b <-> In p [[1; 1]] /\ b = op p).
  { intros p b. destruct (decide (p = [1; 1])) as [->|N].
    - rewrite lookup_singleton. unfold op. rewrite bool_decide_true by reflexivity. split; [intros [= <-]; split; [left|]; reflexivity|].
      intros [_ ->]. reflexivity.
    - rewrite lookup_singleton_ne by congruence. split; [discriminate|]. intros [[H|[]] _]. congruence. }
  split; [split; [intros s [<-|[]]; repeat constructor; lia|exact D]|].
  intros rounds. cbn [trace_contour_curve]. rewrite lookup_singleton. rewrite bool_decide_false by apply not_elem_of_nil.
  assert (Ef : find_contour_point op {[ [1; 1] := true ]} [1; 1] =
    ([1; 1], add_value {[ [1; 1] := true ]} [0; 1] false)).
  { reflexivity. }
  rewrite Ef. clear Ef.
  assert (D1 : dom_ok op (add_value {[ [1; 1] := true ]} [0; 1] false)).
  { intros p b Hb. apply add_value_lookup in Hb. destruct Hb as [Hb|(-> & -> & _)]; [apply D in Hb; apply Hb|reflexivity]. }
  destruct (trace_contour op 3 3 rounds [1; 1] _) eqn:Et; [exfalso|reflexivity].
  assert (G : on_grid [3; 3] [1; 1]) by (repeat constructor; lia).
  destruct (proj1 (trace_contour_ends op 3 3 [1; 1] _ D1 G eq_refl)) as [(m & (_ & _ & N) & Om)|N].
  - eauto.
  - unfold op in Om. apply bool_decide_eq_true in Om. congruence.
  - apply (N [0; 1]). split; [repeat constructor; lia|]. split; [repeat constructor; unfold close; lia|discriminate].
Qed.
Print Assumptions C85_isolated_refuted.
(** The trace stops when it comes back to its starting point, even if the contour goes on from there: the curve then does not enclose the
    region, and points far away from it are inferred to be operational although they are not. The operational points here are a
    row and one diagonal neighbour of its left end; they are all connected, and without holes. *)
Theorem C85_inferred_refuted : exists op nx ny samples dom rounds dom' inferred, sampled [nx; ny] op samples dom /\
  (forall p, on_grid [nx; ny] p -> op p = true -> exists m, adjacent [nx; ny] p m /\ op m = true) /\
  trace_contour_curve op nx ny rounds samples dom [] = Some (dom', inferred) /\
  In [0; 0] inferred /\ op [0; 0] = false /\ In [6; 4] inferred /\ op [6; 4] = false.
Proof.
  set (pts := [[5; 2]; [4; 2]; [3; 2]; [2; 2]; [1; 3]] : list point).
  set (op := fun p : list nat => bool_decide (p ∈ pts)).
  set (dom := {[ [5; 2] := true ]} : gmap point bool).
  assert (S0 : sampled [7; 5] op [[5; 2]] dom).
  { split; [intros s [<-|[]]; repeat constructor; lia|]. intros p b. unfold dom. destruct (decide (p = [5; 2])) as [->|N].
    - rewrite lookup_singleton. split; [intros [= <-]; split; [left; reflexivity|vm_compute; reflexivity]|]. intros [_ ->]. reflexivity.
    - rewrite lookup_singleton_ne by congruence. split; [discriminate|]. intros [[H|[]] _]. congruence. }
  assert (C : match trace_contour_curve op 7 5 100 [[5; 2]] dom [] with
              | Some (_, inf) => bool_decide ([0; 0] ∈ inf) && bool_decide ([6; 4] ∈ inf)
              | None => false
              end = true) by (vm_compute; reflexivity).
  destruct (trace_contour_curve op 7 5 100 [[5; 2]] dom []) as [[dom' inf]|] eqn:E; [|discriminate].
  apply andb_true_iff in C. destruct C as [C1 C2]. apply bool_decide_eq_true in C1, C2. rewrite elem_of_list_In in C1, C2.
  exists op, 7, 5, [[5; 2]], dom, 100, dom', inf. split; [exact S0|]. split; [|split; [exact E|]].
  - intros p _ Hp. unfold op in Hp. apply bool_decide_eq_true in Hp. rewrite elem_of_list_In in Hp.
    assert (A : forall a b c d, c < 7 -> d < 5 -> close a c -> close b d -> [c; d] <> [a; b] -> adjacent [7; 5] [a; b] [c; d]).
    { intros a b c d H1 H2 H3 H4 H5. split; [constructor; [|constructor; [|constructor]]; assumption|].
      split; [constructor; [|constructor; [|constructor]]; assumption|exact H5]. }
    unfold close in A.
    destruct Hp as [<-|[<-|[<-|[<-|[<-|[]]]]]];
      [exists [4; 2]|exists [5; 2]|exists [4; 2]|exists [3; 2]|exists [2; 2]]; (split; [apply A; try lia; discriminate|vm_compute; reflexivity]).
  - split; [exact C1|]. split; [reflexivity|]. split; [exact C2|reflexivity].
Qed.
Print Assumptions C85_inferred_refuted.
(** A two by two block of operational points, sampled at its right end. *)
Definition block (p : list nat) : bool := match p with [x; y] => ((1 <=? x) && (x <=? 2)) && ((1 <=? y) && (y <=? 2)) | _ => false end.
Example C85_nonvacuous :
  match trace_contour_curve block 5 5 100 [[2; 1]] {[ [2; 1] := true ]} [] with
  | Some (dom', inferred) => inferred = [[2; 1]] /\ dom' !! [1; 2] = Some true /\ dom' !! [3; 3] = Some false /\ dom' !! [4; 4] = None
  | None => False
  end /\
  match trace_contour block 5 5 100 [1; 1] {[ [1; 1] := true ]} with
  | Some (contour, _) => contour = [[1; 1]; [1; 2]; [2; 2]; [2; 1]]
  | None => False
  end.
Proof. vm_compute. auto. Qed.

(** * C86 *)
(** In any number of dimensions: the collection of the boundaries ends, everything recorded is right, all samples are recorded, and every
    operational sample has been inferred to be operational. *)
Theorem C86_statuses : forall dims op rounds samples dom, dims <> [] -> sampled dims op samples dom ->
  length (all_points dims) <= rounds ->
  exists dom' inferred, trace_boundary_surface dims op rounds samples dom [] = Some (dom', inferred) /\
  (forall p b, dom' !! p = Some b -> b = op p) /\ (forall s, In s samples -> dom' !! s = Some (op s)) /\
  (forall s, In s samples -> op s = true -> In s inferred).
Proof.
  intros dims op rounds samples dom Nd HS Hr. destruct (sampled_ok _ _ _ _ HS) as [D K].
  destruct (trace_surface_ok dims op rounds Nd Hr samples dom [] D K ltac:(constructor) ltac:(intros p [])) as (d' & i' & E & D' & G' & _ & S' & _).
  exists d', i'. split; [exact E|]. split; [exact D'|]. split; [|exact S']. intros s Hs. destruct (K s Hs) as [_ Ks]. apply G' in Ks.
  destruct Ks as [b Hb]. rewrite Hb. f_equal. apply D'. exact Hb.
Qed.
Print Assumptions C86_statuses.
(** If the regions of the operational samples have no holes: for every operational sample the whole boundary of its region is recorded,
    together with all neighbours of boundary points, and all points inferred to be operational are operational and belong to the
    region of some sample point. *)
Theorem C86_boundary : forall dims op rounds samples dom dom' inferred, dims <> [] -> sampled dims op samples dom ->
  length (all_points dims) <= rounds ->
  (forall s, In s samples -> op s = true -> hole_free dims op s) ->
  trace_boundary_surface dims op rounds samples dom [] = Some (dom', inferred) ->
  (forall p, In p inferred -> op p = true /\ exists s0, region dims op s0 p) /\
  (forall s p, In s samples -> op s = true -> region dims op s p -> boundary dims op p ->
     dom' !! p = Some true /\ forall m, adjacent dims p m -> dom' !! m = Some (op m)).
Proof.
  intros dims op rounds samples dom dom' inferred Nd HS Hr HF H. destruct (sampled_ok _ _ _ _ HS) as [D K].
  destruct (trace_surface_ok dims op rounds Nd Hr samples dom [] D K ltac:(constructor) ltac:(intros p [])) as (d' & i' & E & D' & G' & _ & S' & R').
  rewrite E in H. injection H as -> ->. specialize (R' HF ltac:(intros p [])). split.
  - intros p Hp. destruct (R' p Hp) as (s0 & A1 & _). split; [eapply region_op; eauto|eauto].
  - intros s p Hs Os Rp Bp. destruct (R' s (S' s Hs Os)) as (s0 & A1 & A2 & A3 & A4).
    destruct (K s Hs) as [Gs _].
    assert (Rec : recorded_surface dims op dom' s) by exact (recorded_everywhere dims op dom' s s0 Gs A3 A2 A1 A4).
    assert (Ns : s <> []) by (intros ->; inversion Gs; subst; congruence).
    destruct (leftmost_exists op s Ns Os) as (l & Hl).
    destruct (Rec l Hl p (HF s Hs Os l p Hl Rp Bp)) as [[b Hb] M]. split.
    + rewrite Hb. f_equal. rewrite (D' _ _ Hb). apply Bp.
    + intros m Hm. destruct (M m Hm) as [c Hc]. rewrite Hc. f_equal. apply D'. exact Hc.
Qed.
Print Assumptions C86_boundary.
(** Two operational points in a sweep of 4 times 3 times 3 points, sampled at the right one. *)
Definition pair3 (p : list nat) : bool := bool_decide (p = [1; 1; 1]) || bool_decide (p = [2; 1; 1]).
Example C86_nonvacuous :
  let dom := {[ [2; 1; 1] := true ]} : gmap point bool in
  sampled [4; 3; 3] pair3 [[2; 1; 1]] dom /\ hole_free [4; 3; 3] pair3 [2; 1; 1] /\
  match trace_boundary_surface [4; 3; 3] pair3 36 [[2; 1; 1]] dom [] with
  | Some (dom', inferred) => dom' !! [1; 1; 1] = Some true /\ dom' !! [0; 2; 2] = Some false /\ inferred = [[2; 1; 1]]
  | None => False
  end.
Proof.
  cbv zeta. split; [|split].
  - split; [intros s [<-|[]]; repeat constructor; lia|]. intros p b. destruct (decide (p = [2; 1; 1])) as [->|N].
    + rewrite lookup_singleton. split; [intros [= <-]; split; [left; reflexivity|vm_compute; reflexivity]|]. intros [_ ->]. reflexivity.
    + rewrite lookup_singleton_ne by congruence. split; [discriminate|]. intros [[H|[]] _]. congruence.
  - intros l p Hl Hp Bp.
    assert (G : on_grid [4; 3; 3] [2; 1; 1]) by (repeat constructor; lia).
    pose proof (leftmost_boundary [4; 3; 3] pair3 [2; 1; 1] l G Hl) as Bl.
    assert (El : l = [1; 1; 1]).
    { apply (leftmost_unique pair3 [2; 1; 1]); [exact Hl|]. exists 2, 1, [1; 1]. split; [reflexivity|]. split; [reflexivity|]. split; [lia|]. split.
      - intros k H1 H2. assert (k = 1 \/ k = 2) as [-> | ->] by lia; reflexivity.
      - right. exists 0. split; reflexivity. }
    subst l. apply region_op in Hp. unfold pair3 in Hp. apply orb_true_iff in Hp. destruct Hp as [Hp|Hp]; apply bool_decide_eq_true in Hp; subst p.
    + apply surface_start. exact Bl.
    + eapply surface_next; [apply surface_start; exact Bl| |exact Bp].
      split; [exact G|]. split; [repeat constructor; lia|discriminate].
  - vm_compute. auto.
Qed.
