(** Specification of orthogonal on networks that are not fan-out substituted. *)
From Coq Require Import ZArith Bool String List.
From stdpp Require Import gmap list strings pretty.
From Verif Require Import CoordModel CoordSpec GridModel GridSpec ClockModel ClockSpec GateModel GateSpec RouteModel RouteSpec HexaSpec OrthoModel FanoutModel FanoutSpec FlowModel.
Import ListNotations.

(** The meaning of the literals of technology networks: create_buf has literal 2, create_not 3, create_and 4, ... *)
Definition meaning (lit : nat) (vs : list bool) : option bool :=
  match lit, vs with
  | 2, [a] => Some a
  | 3, [a] => Some (negb a)
  | 4, [a; b] => Some (a && b)
  | 5, [a; b] => Some (negb (a && b))
  | 6, [a; b] => Some (a || b)
  | 7, [a; b] => Some (negb (a || b))
  | 8, [a; b] => Some (negb a && b)
  | 9, [a; b] => Some (negb (negb a && b))
  | 10, [a; b] => Some (a && negb b)
  | 11, [a; b] => Some (negb (a && negb b))
  | 12, [a; b] => Some (xorb a b)
  | 13, [a; b] => Some (negb (xorb a b))
  | 14, [a; b; c] => Some ((a && b) || (a && c) || (b && c))
  | _, _ => None
  end.

(** Inputs first, then every gate after its fan-ins. *)
Definition topological (net : tnet) (view : list nat) : Prop :=
  exists gates, view = t_pis net ++ gates /\ List.NoDup gates /\ (forall n, In n gates <-> exists lit ch, t_nodes net !! n = Some (TGate lit ch)) /\
    forall i n c, view !! i = Some n -> In c (t_fanins net n) -> t_is_constant net c = false -> exists j, j < i /\ view !! j = Some c.

(** Networks of buffers, inverters and symmetric two-input gates with distinct fan-ins and without constants, in which every gate is used. *)
Record plain (net : tnet) (order : list nat) : Prop := mkPlain {
  pl_net : network net order;
  pl_all : forall n lit ch, t_nodes net !! n = Some (TGate lit ch) -> In n order;
  pl_gate : forall n lit ch, t_nodes net !! n = Some (TGate lit ch) -> exists f, fn_of lit = Some f /\ comparison f = false /\
    ((length ch = 1 /\ (f = Fbuf \/ f = Fnot)) \/ (length ch = 2 /\ f <> Fbuf /\ f <> Fnot /\ f <> Fmaj));
  pl_simple : simple_fanins net;
  pl_const : forall n c, In c (t_fanins net n) \/ In c (t_pos net) -> t_is_constant net c = false;
  pl_used : forall n lit ch, t_nodes net !! n = Some (TGate lit ch) -> 1 <= used net n;
  pl_inputs : t_pis net <> []
}.
(** Outputs are used for nothing else. *)
Definition separate_outputs (net : tnet) : Prop := forall n, In n (t_pos net) -> used net n = 1.
(** The layout is small enough for the coordinate type. *)
Definition manageable (net : tnet) (order : list nat) : Prop :=
  (Z.of_nat (3 * (length (t_pis net) + length order + list_sum (map (used net) (t_pis net ++ order))) + length (t_pos net)) < 2 ^ 30)%Z.

(** [st] is a layout of [net]. *)
Record lays_out (net : tnet) (ins outs : list string) (st : glayout) : Prop := mkLaysOut {
  lo_inputs : length (g_in st) = length (t_pis net);
  lo_names : forall k nm, k < length (t_pis net) -> ins !! k = Some nm -> nm <> ""%string -> get_input_name st k = nm;
  lo_outputs : length (g_out st) = length (t_pos net);
  lo_onames : forall k nm, k < length (t_pos net) -> outs !! k = Some nm -> nm <> ""%string -> get_output_name st k = nm;
  lo_function : forall env k n o, t_pos net !! k = Some n -> g_out st !! k = Some o ->
    (exists b, value meaning net env n b) /\ forall b, carries st env o b <-> value meaning net env n b;
  lo_west : forall n, In n (g_in st) -> placed st n /\ cx (get_tile st n) = 0%Z;
  lo_east : forall o, In o (g_out st) -> occupied st o /\ cx o = cx (cl_dim (g_cl st));
  lo_inside : forall t n, cd t = false -> g_tn st !! t = Some n -> inb (cl_dim (g_cl st)) t
}.
