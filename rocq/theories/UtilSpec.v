(** Specifications for the iterators and utility functions. *)
From Coq Require Import ZArith Bool List Sorting.
From Verif Require Import CoordModel.
Import ListNotations.
Local Open Scope Z_scope.

(** Two 64-bit words differ in exactly one bit. *)
Definition one_bit_apart (a b : Z) : Prop :=
  exists k, 0 <= k < 64 /\ forall j, 0 <= j -> (Z.testbit a j <> Z.testbit b j <-> j = k).

(** Pascal's triangle. *)
Fixpoint choose (n k : nat) : Z :=
  match k, n with
  | O, _ => 1
  | S _, O => 0
  | S k', S n' => choose n' k' + choose n' k
  end.

(** The aspect ratios of layouts with [n] tiles. *)
Definition ratio_of (n : Z) (c : coord) : Prop :=
  cd c = false /\ cz c = 0 /\ 0 <= cx c /\ 0 <= cy c /\ (cx c + 1) * (cy c + 1) = n.

(** A choice of [k] of the positions 0 .. n-1, listed in increasing order. *)
Definition is_choice (k n : nat) (c : list nat) : Prop :=
  length c = k /\ StronglySorted lt c /\ Forall (fun p => (p < n)%nat) c.
(** Lexicographic order of equally long lists. *)
Fixpoint lex_lt (a b : list nat) : Prop :=
  match a, b with
  | x :: a', y :: b' => (x < y)%nat \/ (x = y /\ lex_lt a' b')
  | _, _ => False
  end.

(** The number a list of digits denotes, digit [i] counting the elements of the i-th set. *)
Definition mixed_radix {A} (sets : list (list A)) (ds : list nat) : nat :=
  fold_left (fun acc p => (acc * length (fst p) + snd p)%nat) (combine sets ds) 0%nat.
Definition product (ns : list nat) : nat := fold_right Nat.mul 1%nat ns.

(** [i] is a position of [L] at which two consecutive elements of [S] occur. *)
Definition shared_at {E} (L S : list E) (i : nat) : Prop :=
  exists j a b, nth_error L i = Some a /\ nth_error L (1 + i) = Some b /\
                nth_error S j = Some a /\ nth_error S (1 + j) = Some b.
