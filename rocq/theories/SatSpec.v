(** A SAT solver whose answers are right: models satisfy all constraints, and unsatisfiable means that nothing does. *)
From Coq Require Import Bool List.
From Verif Require Import SatModel.

Definition satisfies {V} (m : V -> bool) (fs : list (form V)) : Prop := forall f, In f fs -> holds m f = true.
Definition right_solver {V} (s : solver V) : Prop := forall fs,
  match s fs with
  | Some m => satisfies m fs
  | None => forall m, ~ satisfies m fs
  end.
