(** Specification of orthogonal physical design. *)
From Coq Require Import ZArith Bool String List.
From stdpp Require Import gmap list strings pretty.
From Verif Require Import CoordModel CoordSpec GridModel GridSpec ClockModel ClockSpec GateModel GateSpec RouteModel RouteSpec HexaSpec OrthoModel.
Import ListNotations.
Local Open Scope Z_scope.

Definition is_input (x : onode) : bool := match x with OPi _ => true | OGate _ _ => false end.
(** The number of inputs listed before node [n]. *)
Definition inputs_before (net : onet) (n : nat) : nat := length (List.filter is_input (take n (o_nodes net))).

(** The values of the nodes of a network under an assignment of its inputs. *)
Inductive computes (net : onet) (env : nat -> bool) : nat -> bool -> Prop :=
| computes_input n nm : o_nodes net !! n = Some (OPi nm) -> computes net env n (env (inputs_before net n))
| computes_gate n f ch vs b : o_nodes net !! n = Some (OGate f ch) -> Forall2 (computes net env) ch vs -> boolean_meaning f vs = Some b ->
    computes net env n b.

(** How often a node is used: as a fan-in and as an output. *)
Definition uses (net : onet) (n : nat) : nat :=
  (list_sum (map (fun x => match x with OPi _ => 0 | OGate _ ch => count_occ Nat.eq_dec ch n end) (o_nodes net)) +
   count_occ Nat.eq_dec (map fst (o_pos net)) n)%nat.

(** The networks [orthogonal] works on after fan-out substitution: buffers and inverters with one fan-in, two-input gates with two, in
    topological order, without unused gates; inputs are used at most once and gates at most twice. *)
Record mapped (net : onet) : Prop := mkMapped {
  mp_size : o_nodes net <> [];
  mp_order : forall n f ch c, o_nodes net !! n = Some (OGate f ch) -> In c ch -> (c < n)%nat;
  mp_arity : forall n f ch, o_nodes net !! n = Some (OGate f ch) ->
    (length ch = 1%nat /\ (f = Fbuf \/ f = Fnot)) \/ (length ch = 2%nat /\ f <> Fbuf /\ f <> Fnot /\ f <> Fmaj);
  mp_pi : forall n nm, o_nodes net !! n = Some (OPi nm) -> (uses net n <= 1)%nat;
  mp_gate : forall n f ch, o_nodes net !! n = Some (OGate f ch) -> (1 <= uses net n <= 2)%nat;
  mp_out : forall n nm, In (n, nm) (o_pos net) -> (n < length (o_nodes net))%nat
}.
(** No gate has the same node as both fan-ins. *)
Definition distinct_fanins (net : onet) : Prop := forall n f a b, o_nodes net !! n = Some (OGate f [a; b]) -> a <> b.
(** The value of every gate is independent of the order of its fan-ins. *)
Definition symmetric_gates (net : onet) : Prop := forall n f ch, o_nodes net !! n = Some (OGate f ch) -> comparison f = false.
(** Nodes that are outputs are used for nothing else. *)
Definition simple_outputs (net : onet) : Prop := forall n nm, In (n, nm) (o_pos net) -> uses net n = 1%nat.
(** The layout is small enough for the coordinate type. *)
Definition fits (net : onet) : Prop := Z.of_nat (3 * length (o_nodes net) + length (o_pos net)) < 2 ^ 30.

(** [st] is a layout of [net]. *)
Record realises (net : onet) (st : glayout) : Prop := mkRealises {
  (* same inputs and outputs in the same order, with their names *)
  re_inputs  : length (g_in st) = length (List.filter is_input (o_nodes net));
  re_names   : forall n nm, o_nodes net !! n = Some (OPi nm) -> nm <> ""%string -> get_input_name st (inputs_before net n) = nm;
  re_outputs : length (g_out st) = length (o_pos net);
  re_onames  : forall i n nm, o_pos net !! i = Some (n, nm) -> nm <> ""%string -> get_output_name st i = nm;
  (* under every assignment each output carries the value the network computes, and no other *)
  re_function : forall env i n nm o, o_pos net !! i = Some (n, nm) -> g_out st !! i = Some o ->
    (exists b, computes net env n b) /\ forall b, carries st env o b <-> computes net env n b;
  (* every node sits on a tile of the layout; inputs on the western border, outputs on the eastern border *)
  re_inside : forall t n, cd t = false -> g_tn st !! t = Some n -> inb (cl_dim (g_cl st)) t;
  re_west : forall n, In n (g_in st) -> placed st n /\ cx (get_tile st n) = 0;
  re_east : forall o, In o (g_out st) -> occupied st o /\ cx o = cx (cl_dim (g_cl st));
  (* two-layer tiles are crossings of two wires *)
  re_crossing : forall t, occupied st t -> cz t = 1 -> is_wire st (get_node st t) = true /\ occupied st (live (cx t) (cy t) 0) /\
    is_wire st (get_node st (live (cx t) (cy t) 0)) = true
}.
