(** Vocabulary for the coordinate properties (independent of the model's algorithms). *)
From Coq Require Import ZArith.
From Verif Require Import CoordModel.
Local Open Scope Z_scope.

(** [c] is a live coordinate of the box spanned by the origin and the aspect ratio [ar]. *)
Definition inb (ar c : coord) : Prop :=
  cd c = false /\ 0 <= cx c <= cx ar /\ 0 <= cy c <= cy ar /\ 0 <= cz c <= cz ar.

(** Aspect ratios a layout of each coordinate kind can have: offset coordinates are 31-bit
    (and must leave room for the end-of-row increment), cube coordinates are non-negative,
    SiQAD layouts always have z = 1 (cartesian_layout::initialize_dimension). *)
Definition ar_ok (k : kind) (ar : coord) : Prop :=
  match k with
  | Offset => u_wf ar /\ cx ar < 2 ^ 31 - 1 /\ cy ar < 2 ^ 31 - 1
  | Cube => 0 <= cx ar /\ 0 <= cy ar /\ 0 <= cz ar
  | Siqad => 0 <= cx ar /\ 0 <= cy ar /\ cz ar = 1
  end.

(** Absolute dimer row of a SiQAD coordinate. *)
Definition dimer_row (c : coord) : Z := 2 * cy c + cz c.
