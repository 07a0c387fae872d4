(** Specification of breadth-first topological orders. *)
From Coq Require Import ZArith Bool List.
From stdpp Require Import gmap list.
From Verif Require Import FanoutModel FanoutSpec DepthSpec DepthModel RankModel.
Import ListNotations.

(** No gate on which [n] depends, nor [n] itself, has a fan-in twice. *)
Definition distinct_below (net : tnet) (n : nat) : Prop := forall m, reaches net unit_cost m n -> List.NoDup (t_fanins net m).
(** [l] lists nodes of the network, each once and after its fan-ins, by levels: no node comes after one to which a longer path leads. *)
Record breadth_first (net : tnet) (l : list nat) : Prop := {
  bf_once : List.NoDup l;
  bf_nodes : forall n, In n l -> n < length (t_nodes net);
  bf_after : forall i n c, l !! i = Some n -> In c (t_fanins net n) -> exists j, j < i /\ l !! j = Some c;
  bf_levels : forall i j a b ka kb, i < j -> l !! i = Some a -> l !! j = Some b -> longest net false unit_cost a ka -> longest net false unit_cost b kb -> ka <= kb;
  bf_sources : exists r, l = 0 :: 1 :: t_pis net ++ r /\ forall n, In n r -> exists lit ch, t_nodes net !! n = Some (TGate lit ch)
}.
