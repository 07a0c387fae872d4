(** Specification of fan-out substitution. *)
From Coq Require Import ZArith Bool List.
From stdpp Require Import gmap list.
From Verif Require Import FanoutModel.
Import ListNotations.

(** The values of the nodes of a network; [sem] gives the meaning of the literals. *)
Inductive value (sem : nat -> list bool -> option bool) (net : tnet) (env : nat -> bool) : nat -> bool -> Prop :=
| value_const n b : t_nodes net !! n = Some (TConst b) -> value sem net env n b
| value_input n k : t_nodes net !! n = Some TPi -> t_pis net !! k = Some n -> value sem net env n (env k)
| value_gate n lit ch vs b : t_nodes net !! n = Some (TGate lit ch) -> Forall2 (value sem net env) ch vs -> sem lit vs = Some b ->
    value sem net env n b.

(** A network as technology networks store it: two constants, then inputs and gates; [order] lists gates in topological order,
    among them all that outputs and listed gates depend on. *)
Record network (net : tnet) (order : list nat) : Prop := mkNetwork {
  nw_0 : t_nodes net !! 0 = Some (TConst false);
  nw_1 : t_nodes net !! 1 = Some (TConst true);
  nw_const : forall n b, t_nodes net !! n = Some (TConst b) -> n < 2;
  nw_pis : forall n, In n (t_pis net) <-> t_nodes net !! n = Some TPi;
  nw_pis_once : List.NoDup (t_pis net);
  nw_order : List.NoDup order;
  nw_gates : forall n, In n order -> exists lit ch, t_nodes net !! n = Some (TGate lit ch) /\ ch <> [];
  nw_topo : forall i n c, order !! i = Some n -> In c (t_fanins net n) ->
    match t_nodes net !! c with Some (TGate _ _) => exists j, j < i /\ order !! j = Some c | Some _ => True | None => False end;
  nw_pos : forall c, In c (t_pos net) -> match t_nodes net !! c with Some (TGate _ _) => In c order | Some _ => True | None => False end
}.
(** Both networks have equally many inputs and outputs, and each output has the same value under every assignment. *)
Definition equivalent (sem : nat -> list bool -> option bool) (a b : tnet) : Prop :=
  length (t_pis a) = length (t_pis b) /\ length (t_pos a) = length (t_pos b) /\
  forall env k n m v, t_pos a !! k = Some n -> t_pos b !! k = Some m -> value sem a env n v <-> value sem b env m v.
(** The literal of buffers is the identity. *)
Definition buffers (sem : nat -> list bool -> option bool) : Prop := forall b, sem 2 [b] = Some b.
(** No gate has a fan-in twice. *)
Definition simple_fanins (net : tnet) : Prop := forall n lit ch, t_nodes net !! n = Some (TGate lit ch) -> List.NoDup ch.
(** The uses of a node: as a fan-in of a gate (as often as it is one) and as an output. *)
Definition used (net : tnet) (n : nat) : nat :=
  list_sum (map (fun x => match x with TGate _ ch => count_occ Nat.eq_dec ch n | _ => 0 end) (t_nodes net)) + count_occ Nat.eq_dec (t_pos net) n.
(** Buffers are used at most [degree] times, everything else (and buffers that are used once) at most [threshold] times. *)
Definition within_limits (net : tnet) (degree threshold : nat) : Prop :=
  forall n x, t_nodes net !! n = Some x ->
    match x with
    | TConst _ => True
    | TGate 2 _ => used net n <= degree /\ (used net n <= 1 -> used net n <= threshold)
    | _ => used net n <= threshold
    end.
(** The counters fit 32-bit integers. *)
Definition small (net : tnet) (ps : fparams) : Prop :=
  (Z.of_nat (ps_degree ps) < 2 ^ 31 /\ Z.of_nat (ps_threshold ps) < 2 ^ 31 /\ forall n, Z.of_nat (fanout_size net n) < 2 ^ 31)%Z.
(** The buffers that have to be added for the uses of a node beyond the threshold: each takes one output and gives [degree] of them. *)
Definition buffers_for (net : tnet) (degree threshold n : nat) : nat := (used net n - threshold + (degree - 2)) / (degree - 1).
(** A buffer of the source that is used more than once but within the degree. *)
Definition fine_buffer (net : tnet) (degree n : nat) : bool :=
  match t_nodes net !! n with Some (TGate 2 _) => Nat.ltb 1 (used net n) && Nat.leb (used net n) degree | _ => false end.
