(** Clockings that let data flow along all connections. *)
From Coq Require Import ZArith Bool List.
From stdpp Require Import gmap list.
From Verif Require Import CoordModel GridModel GridSpec ClockModel GateModel GateSpec RouteSpec.
Import ListNotations.
Open Scope Z_scope.

(** The layout is built by calls of the interface; no tile holds a node that is marked as dead. *)
Record clk_input (cl : clocked) (ops : list gop) (st : glayout) : Prop := {
  ci_run : reached cl ops st;
  ci_const : moves_no_constant ops;
  ci_dim : dim_ok (cl_dim cl);
  ci_inside : places_inside (cl_dim cl) ops;
  ci_clocks : 1 <= num_clocks (g_cl st) <= 255;
  ci_size : Z.of_nat (length (g_nodes st)) < 2 ^ 32;
  ci_alive : forall t, occupied st t -> is_dead st (get_node st t) = false
}.
Definition ground (t : coord) : coord := live (cx t) (cy t) 0.
(** What crosses an occupied tile is a wire. *)
Definition wires_cross (st : glayout) : Prop :=
  forall t, occupied st t -> cz t = 1 -> occupied st (ground t) -> is_wire st (get_node st t) = true.
(** Nothing is in the crossing layer above an empty tile. *)
Definition no_bridges (st : glayout) : Prop := forall t, occupied st t -> cz t = 1 -> occupied st (ground t).
(** Clock numbers for the occupied tiles: each tile has the clock number that follows the one of each tile it is connected to, and crossing tiles
    have the same one. *)
Definition valid_clocking (st : glayout) (f : coord -> Z) : Prop :=
  (forall t, occupied st t -> 0 <= f t < num_clocks (g_cl st)) /\
  (forall u v, occupied st v -> In u (incoming_data_flow false st v) -> f v = (f u + 1) mod num_clocks (g_cl st)) /\
  (forall t, occupied st t -> cz t = 1 -> occupied st (ground t) -> f t = f (ground t)).
(** The current clocking lets data flow from no node to two others. *)
Definition no_branches (st : glayout) : Prop := forall n, (length (foreach_fanout true st n) <= 1)%nat.
(** It does not let data flow in cycles: the data paths have at most [b] steps. *)
Definition no_cycles (st : glayout) (b : nat) : Prop :=
  exists rank : nat -> nat, forall n m, In m (foreach_fanout true st n) -> (rank n < rank m <= b)%nat.
(** The same layout with another clocking of the same number of clocks. *)
Definition reclocked (st st' : glayout) : Prop :=
  st' = with_cl st (g_cl st') /\ cl_topo (g_cl st') = cl_topo (g_cl st) /\ cl_dim (g_cl st') = cl_dim (g_cl st) /\
  num_clocks (g_cl st') = num_clocks (g_cl st).
