(** Specification of crossings: when a path may run above a wire. *)
From Coq Require Import ZArith Bool List.
From Verif Require Import CoordModel CoordSpec GridModel ClockModel GateModel GateSpec CellSpec.
Import ListNotations.
Local Open Scope Z_scope.

(** The position of [c] in the ground layer. *)
Definition ground (c : coord) : coord := live (cx c) (cy c) 0.
(** Coming from [u], the wire on [g] can be crossed: it is neither an input nor an output, it receives data and passes it on,
    and (if [u] itself is in the crossing layer, above something) it is not fed from the position of [u], so that no two wires run on top of each other along
    the same connection. *)
Definition crossable (st : glayout) (u g : coord) : Prop :=
  hosts_wire st g /\ is_pi st (get_node st g) = false /\ is_po st (get_node st g) = false /\
  incoming_data_flow true st g <> [] /\ outgoing_data_flow true st g <> [] /\
  (cz u = 1 -> forall i, In i (incoming_data_flow true st g) -> ~ same_spot i u).
