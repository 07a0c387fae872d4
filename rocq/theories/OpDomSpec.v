(** What operational domains should contain, in terms of the points of the sweep and of the operational status of each. *)
From Coq Require Import Bool List Arith.
Import ListNotations.

(** A point of the sweep: one step index per dimension, each smaller than the number of indices of the dimension. *)
Definition on_grid (dims p : list nat) : Prop := Forall2 lt p dims.
(** Two steps are at most one apart. *)
Definition close (x y : nat) : Prop := x <= S y /\ y <= S x.
(** A different point of the sweep whose steps are all at most one apart. *)
Definition adjacent (dims p m : list nat) : Prop := on_grid dims m /\ Forall2 close p m /\ m <> p.
(** A point of the sweep that is one step further in exactly one dimension. *)
Definition beside (dims p m : list nat) : Prop :=
  on_grid dims m /\ exists pre x y post, p = pre ++ x :: post /\ m = pre ++ y :: post /\ (y = S x \/ x = S y).

(** The points flood fill reaches: neighbours of operational samples and of reached operational points. *)
Inductive reached (dims : list nat) (op : list nat -> bool) (samples : list (list nat)) : list nat -> Prop :=
| reached_sample p m : In p samples -> op p = true -> adjacent dims p m -> reached dims op samples m
| reached_next p m : reached dims op samples p -> op p = true -> adjacent dims p m -> reached dims op samples m.

(** The point on the left end of the run of operational points to the left of a point. *)
Definition leftmost (op : list nat -> bool) (p l : list nat) : Prop :=
  exists x y rest, p = x :: rest /\ l = y :: rest /\ y <= x /\ (forall k, y <= k -> k <= x -> op (k :: rest) = true) /\
    (y = 0 \/ exists z, y = S z /\ op (z :: rest) = false).
(** A point with the first or last step of some dimension. *)
Definition at_edge (dims p : list nat) : Prop :=
  exists d x n, nth_error p d = Some x /\ nth_error dims d = Some n /\ (x = 0 \/ S x = n).
(** An operational point at the edge of the sweep or next to a non-operational point. *)
Definition boundary (dims : list nat) (op : list nat -> bool) (p : list nat) : Prop :=
  op p = true /\ (at_edge dims p \/ exists m, adjacent dims p m /\ op m = false).
(** The boundary points connected with a boundary point by boundary points. *)
Inductive surface (dims : list nat) (op : list nat -> bool) (start : list nat) : list nat -> Prop :=
| surface_start : boundary dims op start -> surface dims op start start
| surface_next p m : surface dims op start p -> adjacent dims p m -> boundary dims op m -> surface dims op start m.
(** The operational points connected with an operational point by steps in one dimension. *)
Inductive region (dims : list nat) (op : list nat -> bool) (s : list nat) : list nat -> Prop :=
| region_start : op s = true -> region dims op s s
| region_next p m : region dims op s p -> beside dims p m -> op m = true -> region dims op s m.
(** The region of a point has no holes: its boundary is connected. *)
Definition hole_free (dims : list nat) (op : list nat -> bool) (s : list nat) : Prop :=
  forall l p, leftmost op s l -> region dims op s p -> boundary dims op p -> surface dims op l p.
(** Consecutive points are adjacent. *)
Fixpoint chain (dims : list nat) (l : list (list nat)) : Prop :=
  match l with a :: ((b :: _) as l') => adjacent dims a b /\ chain dims l' | _ => True end.
