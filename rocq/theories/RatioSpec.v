(** Specification of the operational ratio around a point. *)
From Coq Require Import Bool List.
From Verif Require Import OpDomSpec.
Import ListNotations.

(** The operational points connected with a point by operational points, each adjacent to the one before. *)
Inductive island (dims : list nat) (op : list nat -> bool) (s : list nat) : list nat -> Prop :=
| island_start : op s = true -> island dims op s s
| island_next p m : island dims op s p -> adjacent dims p m -> op m = true -> island dims op s m.
(** The list has exactly the given members, each once. *)
Definition enumerates {A} (l : list A) (P : A -> Prop) : Prop := NoDup l /\ forall x, In x l <-> P x.
