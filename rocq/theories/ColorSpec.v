(** What it means to color a graph. *)
From Coq Require Import List Permutation.
From Verif Require Import ColorModel.
Import ListNotations.

Definition joined (g : graph) (v w : nat) : Prop := In (v, w) (g_edges g) \/ In (w, v) (g_edges g).
(** All edges join two different vertices of the graph, and the vertices are listed in some order. *)
Definition graph_ok (g : graph) (order : list nat) : Prop :=
  (forall v w, In (v, w) (g_edges g) -> v < g_size g /\ w < g_size g /\ v <> w) /\ Permutation order (seq 0 (g_size g)).
(** Every vertex has one of [k] colors, and joined vertices have different colors. *)
Definition proper (g : graph) (k : nat) (col : nat -> nat) : Prop :=
  (forall v, v < g_size g -> col v < k) /\ forall v w, joined g v w -> col v <> col w.
(** A set of vertices all of which are joined. *)
Definition clique (g : graph) (c : list nat) : Prop :=
  NoDup c /\ (forall v, In v c -> v < g_size g) /\ forall v w, In v c -> In w c -> v <> w -> joined g v w.
(** One of [k] colors occurs in every clique. *)
Definition common_color (cliques : list (list nat)) (k : nat) (col : nat -> nat) : Prop :=
  exists c, c < k /\ forall l, In l cliques -> exists v, In v l /\ col v = c.
(** [k] colors suffice (for a coloring with a common color if [frequency] is set). *)
Definition colorable (g : graph) (cliques : list (list nat)) (frequency : bool) (k : nat) : Prop :=
  exists col, proper g k col /\ (frequency = true -> common_color cliques k col).
