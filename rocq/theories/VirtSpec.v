(** Specification of virtual inputs, miters and equivalence checking. *)
From Coq Require Import ZArith Bool List.
From stdpp Require Import gmap list.
From Verif Require Import FanoutModel FanoutSpec VirtModel.
Import ListNotations.

(** The values of all outputs of a network under an assignment. *)
Definition outputs (sem : nat -> list bool -> option bool) (net : tnet) (env : nat -> bool) (vs : list bool) : Prop :=
  Forall2 (value sem net env) (t_pos net) vs.
(** Every assignment gives the outputs values. *)
Definition evaluates (sem : nat -> list bool -> option bool) (net : tnet) : Prop := forall env, exists vs, outputs sem net env vs.

(** The node that the [k]-th call creates: nodes are numbered from 2, outputs are no nodes. *)
Definition makes_node (c : vcall) : bool := match c with CPo _ => false | _ => true end.
Definition created (l : list vcall) (k : nat) : nat := 2 + length (List.filter makes_node (take k l)).
Definition calls_of (p : vcall -> bool) (l : list vcall) : nat := length (List.filter p l).
Definition is_CPi (c : vcall) : bool := match c with CPi => true | _ => false end.
Definition is_CVirtual (c : vcall) : bool := match c with CVirtual _ => true | _ => false end.

(** Virtual inputs are inputs; each belongs to one input, which is not virtual. *)
Record vwell (vn : vnet) : Prop := mkVwell {
  vw_once : List.NoDup (map fst (v_virtual vn));
  vw_in : forall v r, In (v, r) (v_virtual vn) -> In v (t_pis (v_net vn)) /\ In r (t_pis (v_net vn)) /\ ~ In r (map fst (v_virtual vn))
}.
(** The inputs that are not virtual, in their order. *)
Definition reals (vn : vnet) : list nat :=
  List.filter (fun n => if in_dec Nat.eq_dec n (map fst (v_virtual vn)) then false else true) (t_pis (v_net vn)).
(** The input that an input stands for. *)
Definition stands_for (vn : vnet) (n r : nat) : Prop := In (n, r) (v_virtual vn) \/ (n = r /\ ~ In n (map fst (v_virtual vn))).
(** [env] assigns all inputs, [e] only those that are not virtual: each input has the value of the input it stands for. *)
Definition spreads (vn : vnet) (e env : nat -> bool) : Prop :=
  forall k n r i, t_pis (v_net vn) !! k = Some n -> stands_for vn n r -> reals vn !! i = Some r -> env k = e i.
(** No output is driven by a virtual input. *)
Definition no_virtual_outputs (vn : vnet) : Prop := forall c, In c (t_pos (v_net vn)) -> ~ In c (map fst (v_virtual vn)).

(** Exclusive or and or have the literals 12 and 6 of technology networks. *)
Definition xor_or (sem : nat -> list bool -> option bool) : Prop :=
  (forall a b, sem 12 [a; b] = Some (xorb a b)) /\ (forall a b, sem 6 [a; b] = Some (orb a b)).

(** A solver whose answers are right: the output of the miter is never 1, or is 1 for the counter example. *)
Definition answers_right (sem : nat -> list bool -> option bool) (solve : tnet -> answer) (m : tnet) : Prop :=
  match solve m with
  | Unknown => True
  | Equivalent => forall env, ~ outputs sem m env [true]
  | Differs cex => outputs sem m (fun k => nth k cex false) [true]
  end.
Definition violation_free (d : design) : Prop := match d_layout d with Some (k, _) => k = 0 | None => True end.
(** Logic networks count as having throughput 1/1. *)
Definition throughput_of (d : design) : Z := match d_layout d with Some (_, t) => t | None => 1%Z end.
