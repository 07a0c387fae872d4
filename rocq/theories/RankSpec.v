(** Specification of rank views. *)
From Coq Require Import ZArith Bool List Permutation.
From stdpp Require Import gmap list.
From Verif Require Import FanoutModel FanoutSpec DepthSpec DepthModel RankModel.
Import ListNotations.

(** The nodes that are ranked: inputs and gates. *)
Definition ranked_node (net : tnet) (n : nat) : Prop := exists x, t_nodes net !! n = Some x /\ forall b, x <> TConst b.
(** A network all of whose gates are in topological order, none of them without a fan-in. *)
Definition complete (net : tnet) : Prop := exists order, network net order /\ forall n lit ch, t_nodes net !! n = Some (TGate lit ch) -> In n order.
Definition fits_32 (net : tnet) : Prop := (Z.of_nat (length (t_nodes net)) < 2 ^ 32)%Z.
(** Every input and every gate is used by some output. *)
Definition all_used (net : tnet) : Prop := forall n, ranked_node net n -> live net unit_cost n.

(** The view is in order: its ranks hold exactly the inputs and gates, each at the level that is the length of the longest path to it and at the
    position that [rank_position] tells; the width is that of the widest rank. *)
Record in_order (st : rview) : Prop := {
  io_level : forall l i n, at_rank_position st l i = Some n -> longest (r_net st) false unit_cost n l /\ r_level st n = Some l;
  io_position : forall l i n, at_rank_position st l i = Some n -> rank_position st n = Some i;
  io_only : forall l i n, at_rank_position st l i = Some n -> ranked_node (r_net st) n;
  io_all : forall n, ranked_node (r_net st) n -> exists l i, at_rank_position st l i = Some n;
  io_widest : forall l w, rank_width st l = Some w -> w <= width st;
  io_width : exists l, rank_width st l = Some (width st)
}.

(** What may be added: gates with fan-ins that exist, and outputs that exist. *)
Definition proper_op (net : tnet) (o : rop) : Prop :=
  match o with
  | RAddGate _ ch => ch <> [] /\ forall c, In c ch -> c < length (t_nodes net)
  | RAddPo f => f < length (t_nodes net)
  | _ => True
  end.
Inductive proper_ops (sort : (nat -> nat -> bool) -> list nat -> list nat) : rview -> list rop -> rview -> Prop :=
  | p_nil st : proper_ops sort st [] st
  | p_cons st o st' ops st'' : proper_op (r_net st) o -> rstep sort o st = Some st' -> proper_ops sort st' ops st'' -> proper_ops sort st (o :: ops) st''.

(** Sorting. *)
Definition orders (cmp : nat -> nat -> bool) : Prop :=
  (forall a, cmp a a = false) /\ (forall a b c, cmp a b = true -> cmp b c = true -> cmp a c = true) /\
  (forall a b c, cmp a b = false -> cmp b c = false -> cmp a c = false).
Definition sorted_by (cmp : nat -> nat -> bool) (l : list nat) : Prop := forall i j a b, i < j -> l !! i = Some a -> l !! j = Some b -> cmp b a = false.
Definition sorts (sort : (nat -> nat -> bool) -> list nat -> list nat) : Prop :=
  forall cmp l, Permutation l (sort cmp l) /\ (orders cmp -> sorted_by cmp (sort cmp l)).

(** A list of the nodes of which each comes after its fan-ins. *)
Definition topological (net : tnet) (l : list nat) : Prop :=
  List.NoDup l /\ (forall n, In n l <-> ranked_node net n) /\
  forall i n c, l !! i = Some n -> In c (t_fanins net n) -> ranked_node net c -> exists j, j < i /\ l !! j = Some c.
