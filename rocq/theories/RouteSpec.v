(** Specifications for routing, critical paths and design rules. *)
From Coq Require Import ZArith Bool List.
From stdpp Require Import relations.
From Verif Require Import CoordModel CoordSpec GridModel GridSpec ClockModel GateModel GateSpec PathSpec RouteModel.
Import ListNotations.
Local Open Scope Z_scope.

(** ** Design rules *)

(** A tile of the layout with a node on it. *)
Definition occupied (st : glayout) (t : coord) : Prop := inb (cl_dim (g_cl st)) t /\ is_empty_tile st t = false.
(** The node on [t] has a fan-in that is placed on [u] ([u] is the dead tile if it is not placed). *)
Definition connected (st : glayout) (u t : coord) : Prop :=
  occupied st t /\ exists c, In c (n_children (node_at st (get_node st t))) /\ u = get_tile st (get_node st c).
(** Two tiles touch, possibly in different layers. *)
Definition next_to (st : glayout) (u t : coord) : Prop :=
  inb (cl_dim (g_cl st)) u /\ touch (cl_topo (g_cl st)) (live (cx t) (cy t) (cz u)) u.
Definition io_node (st : glayout) (n : nat) : Prop := In n (g_in st) \/ exists o, In o (g_out st) /\ n = get_node st o.

(** The rules: connected tiles touch; data flows along the clocking; every occupied tile receives data or is an input, and passes
    it on or is an output; wires in the crossing layer run above wires; there are inputs and outputs, and they are placed. *)
Record rules (st : glayout) : Prop := mkRules {
  r_adjacent : forall u t, connected st u t -> next_to st u t;
  r_clocked  : forall u t, connected st u t -> next_zone (g_cl st) u t;
  r_receives : forall t, occupied st t -> incoming_data_flow true st t <> [] \/ is_pi st (get_node st t) = true;
  r_passes   : forall t, occupied st t -> outgoing_data_flow true st t <> [] \/ is_po st (get_node st t) = true;
  r_crossing : forall t, hosts_wire st t -> is_dead st (get_node st t) = false -> cz t = 1 -> hosts_wire st (live (cx t) (cy t) 0);
  r_has_io   : g_in st <> [] /\ g_out st <> [];
  r_io       : forall n, io_node st n -> placed st n
}.
(** What is only warned about: unplaced nodes that are alive, dead nodes that are placed, inputs and outputs that are not
    pins (wires) or not at the border. *)
Record practices (st : glayout) : Prop := mkPractices {
  p_placed : forall n, (2 <= n < length (g_nodes st))%nat -> is_dead st n = false -> placed st n;
  p_alive  : forall t, occupied st t -> is_dead st (get_node st t) = false;
  p_pins   : forall n, io_node st n -> is_wire st n = true;
  p_border : forall n, io_node st n -> let t := get_tile st n in let ar := cl_dim (g_cl st) in
               cx t = 0 \/ cx t = cx ar \/ cy t = 0 \/ cy t = cy ar
}.

(** ** Critical paths *)

(** Data flows from [u] to [v]. *)
Definition flows (st : glayout) (u v : coord) : Prop := In u (incoming_data_flow true st v).
(** A tile that receives no data. *)
Definition source_tile (st : glayout) (s : coord) : Prop := is_empty_tile st s = false /\ incoming_data_flow true st s = [].
(** A data path through the layout that ends on [t]. *)
Definition data_path (st : glayout) (t : coord) (p : list coord) : Prop := exists s, source_tile st s /\ walk (flows st) s t p.
(** [L] is the number of tiles of a longest data path that ends on a tile with property [T] (0 if there is none). *)
Definition longest (st : glayout) (T : coord -> Prop) (L : Z) : Prop :=
  (forall t p, T t -> data_path st t p -> Z.of_nat (length p) <= L) /\
  ((exists t p, T t /\ data_path st t p /\ Z.of_nat (length p) = L) \/ (L = 0 /\ forall t p, T t -> ~ data_path st t p)).
(** All data arriving at a tile left the first tile in the same clock cycle: there are time stamps that grow by one
    with every tile, and sources start with their clock number. *)
Definition synchronous (st : glayout) : Prop := exists stamp : coord -> Z,
  (forall s, source_tile st s -> stamp s = get_clock_number (g_cl st) s) /\
  (forall u v, flows st u v -> is_pi_tile st v = false /\ stamp v = stamp u + 1).
(** [D] is the largest difference between the longest paths to two predecessors of a tile from which data reaches an output. *)
Definition spread (st : glayout) (D : Z) : Prop :=
  (forall o t u u' a b, In o (g_out st) -> rtc (flows st) t o -> flows st u t -> flows st u' t ->
     longest st (eq u) a -> longest st (eq u') b -> a - b <= D) /\
  (D = 0 \/ exists o t u u' a b, In o (g_out st) /\ rtc (flows st) t o /\ flows st u t /\ flows st u' t /\
     longest st (eq u) a /\ longest st (eq u') b /\ a - b = D).
(** All data enters in the same clock phase, nothing flows into inputs, and only gates have several predecessors. *)
Definition aligned (st : glayout) (c0 : Z) : Prop :=
  (forall s v, source_tile st s -> flows st s v -> get_clock_number (g_cl st) s = c0) /\
  (forall u v, flows st u v -> is_pi_tile st v = false) /\
  (forall u u' v, flows st u v -> flows st u' v -> is_wire_tile st v = true -> u = u').

(** ** Routing *)

(** The tile of a wire: the coordinate itself, or the one above if it is occupied. *)
Definition spot (st : glayout) (c : coord) : coord := if is_empty_tile st c then c else above (cl_dim (g_cl st)) c.
(** A wire that only forwards data: no input, no output, no fan-out. *)
Definition forwards (st : glayout) (n : nat) : Prop :=
  is_wire st n = true /\ is_pi st n = false /\ is_po st n = false /\ (length (foreach_fanout true st n) <= 1)%nat.
Definition routing_wire (st : glayout) (t : coord) : Prop := cd t = false /\ is_empty_tile st t = false /\ forwards st (get_node st t).
(** Data passes from node [n] to node [m]. *)
Definition passes (st : glayout) (n m : nat) : Prop := In m (foreach_fanout true st n).
(** Data passes from [n] through forwarding wires only to [m]. *)
Inductive through_wires (st : glayout) (n : nat) : nat -> Prop :=
| tw_here m : passes st n m -> through_wires st n m
| tw_wire w m : through_wires st n w -> forwards st w -> passes st w m -> through_wires st n m.
(** Data from an input arrives at a node. *)
Inductive fed (st : glayout) : nat -> Prop :=
| fed_pi n m : In n (g_in st) -> passes st n m -> fed st m
| fed_next n m : fed st n -> passes st n m -> fed st m.
(** A routing objective: a connection through wires, or a direct one, from an input, gate or fan-out to a gate, fan-out or output. *)
Definition objective (st : glayout) (a b : coord) : Prop := exists n m, a = get_tile st n /\ b = get_tile st m /\
  (In n (g_in st) \/ (fed st n /\ ~ forwards st n)) /\ through_wires st n m /\ ~ forwards st m.
