(** Boolean constraints handed to a SAT solver (the bill library is a dependency that is not part of /repo).

    Simplifications. Clauses are disjunctions of literals. The literals returned by bill::add_tseytin_and, add_tseytin_or and
    add_tseytin_equals are replaced by the formulas they stand for; the auxiliary variables are not modelled. The solver itself is an
    argument of everything that uses it; it answers satisfiable with a model or unsatisfiable (no time-outs). *)
From Coq Require Import Bool List.
Import ListNotations.

Inductive form (V : Type) :=
| FLit (polarity : bool) (v : V)
| FAnd (l : list (form V))
| FOr (l : list (form V)).
Arguments FLit {V}. Arguments FAnd {V}. Arguments FOr {V}.

Fixpoint holds {V} (m : V -> bool) (f : form V) : bool :=
  match f with
  | FLit p v => Bool.eqb p (m v)
  | FAnd l => forallb (holds m) l
  | FOr l => existsb (holds m) l
  end.
(** bill::at_least_one; a clause with the negations of two variables; bill::add_tseytin_equals as a clause. *)
Definition at_least_one {V} (vs : list V) : form V := FOr (map (FLit true) vs).
Definition not_both {V} (v w : V) : form V := FOr [FLit false v; FLit false w].
Definition same {V} (v w : V) : form V := FAnd [FOr [FLit false v; FLit true w]; FOr [FLit true v; FLit false w]].

Definition solver (V : Type) := list (form V) -> option (V -> bool).
