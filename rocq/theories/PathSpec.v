(** Specifications for path finding. *)
From Coq Require Import ZArith Bool List Permutation.
From Verif Require Import CoordModel CoordSpec GridModel GridSpec ClockModel GateModel CellModel PathModel.
Import ListNotations.
Local Open Scope Z_scope.

(** A walk from [s] to [t] whose consecutive coordinates are related by [step]. *)
Inductive walk (step : coord -> coord -> Prop) : coord -> coord -> list coord -> Prop :=
| walk_end s : walk step s s [s]
| walk_step s u t p : step s u -> walk step u t p -> walk step s t (s :: p).
(** A loop-less path. *)
Definition is_path (step : coord -> coord -> Prop) (s t : coord) (p : list coord) : Prop :=
  walk step s t p /\ NoDup p.

(** The steps path finding may take on a layout towards the target [tgt]. From [u], the layout
    offers a neighbour; the coordinate [g] below it is entered unless it is obstructed (the target may
    always be entered). If crossings are allowed, an obstructed wire tile can be crossed in the layer
    above. Obstructed connections are never used. *)
Inductive permitted (L : pf) (crossings : bool) (tgt u v : coord) : Prop :=
| enter_free w : In w (pf_succ L u) -> v = pf_below L w -> (pf_obst L v = false \/ v = tgt) ->
    pf_conn L u v = false -> permitted L crossings tgt u v
| enter_crossing w g : In w (pf_succ L u) -> g = pf_below L w -> crossings = true -> pf_obst L g = true -> g <> tgt ->
    v = pf_above L g -> v <> g -> (pf_cross L u g = true \/ v = tgt) -> (pf_obst L v = false \/ v = tgt) ->
    pf_conn L u v = false -> permitted L crossings tgt u v.
(** The same for the enumeration of all paths, which does not cross into a target in the crossing layer. *)
Inductive e_permitted (L : pf) (crossings : bool) (tgt u v : coord) : Prop :=
| e_enter_free w : In w (pf_succ L u) -> v = pf_below L w -> (pf_obst L v = false \/ v = tgt) ->
    pf_conn L u v = false -> e_permitted L crossings tgt u v
| e_enter_crossing w g : In w (pf_succ L u) -> g = pf_below L w -> crossings = true -> pf_obst L g = true -> g <> tgt ->
    v = pf_above L g -> v <> g -> v <> tgt -> pf_cross L u g = true -> pf_obst L v = false ->
    pf_conn L u v = false -> e_permitted L crossings tgt u v.

(** A step on the ground layer of a grid: to a touching tile of the layout that is free or the target,
    over a free connection, with the data flow [flow]. *)
Definition grid_step (t : topo) (ar : coord) (obst : coord -> bool) (conn : coord -> coord -> bool) (flow : coord -> coord -> Prop)
    (tgt u v : coord) : Prop :=
  inb ar v /\ touch t u v /\ flow u v /\ (obst v = false \/ v = tgt) /\ conn u v = false.
(** Data flow: into the zone with the next clock number. *)
Definition next_zone (cl : clocked) (u v : coord) : Prop := get_clock_number cl v = (get_clock_number cl u + 1) mod num_clocks cl.
(** Steps on the ground layer of an obstruction layout. *)
Definition layout_step (clk : bool) (l : olayout) (tgt u v : coord) : Prop :=
  grid_step (cl_topo (o_clocked l)) (cl_dim (o_clocked l)) (is_obstructed_coordinate l) (is_obstructed_connection l)
    (fun u v => clk = true -> next_zone (o_clocked l) u v) tgt u v.
(** Layouts path finding is used on: representable dimensions, at least one clock phase. *)
Definition routable (l : olayout) : Prop := dim_ok (cl_dim (o_clocked l)) /\ 1 <= num_clocks (o_clocked l) <= 255.

(** Gate-level layouts are built by calls of the interface. *)
Definition built (l : olayout) : Prop :=
  match o_base l with OGate st => exists cl ops, g_run (g_empty cl) ops = Some st | _ => True end.

(** Any implementation of a priority queue's container operations: nothing is lost or invented. *)
Definition queue_ok {V} (Q : queue V) : Prop :=
  (forall l e, Permutation (q_push Q l e) (e :: l)) /\
  (forall l e, q_top Q l = Some e -> Permutation (e :: q_pop Q l) l) /\
  (forall l, q_top Q l = None <-> l = []).
(** ... that always delivers an entry with the lowest value. *)
Definition lowest_first {V} (le : V -> V -> Prop) (Q : queue V) : Prop :=
  forall l e, q_top Q l = Some e -> forall e', In e' l -> le (snd e) (snd e').
(** [U] contains every coordinate reachable from [s]. *)
Definition universe (step : coord -> coord -> Prop) (s : coord) (U : list coord) : Prop :=
  In s U /\ forall u v, In u U -> step u v -> In v U.

(** A metric on the (x, y) positions. *)
Definition metric (d : coord -> coord -> Z) : Prop :=
  (forall a b, 0 <= d a b) /\ (forall a b, d a b = 0 <-> cx a = cx b /\ cy a = cy b) /\
  (forall a b, d a b = d b a) /\ (forall a b c, d a c <= d a b + d b c).
