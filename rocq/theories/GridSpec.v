(** Geometry used to state the adjacency properties. *)
From Coq Require Import ZArith.
From Verif Require Import CoordModel CoordSpec GridModel.
Local Open Scope Z_scope.

(** Two squares of one layer share an edge. *)
Definition square_touch (a b : coord) : Prop :=
  cz a = cz b /\ Z.abs (cx a - cx b) + Z.abs (cy a - cy b) = 1.

(** Centre of a hexagon in a doubled drawing: in row arrangements every second row is shifted
    right by half a hexagon, in column arrangements every second column is shifted down. *)
Definition hex_px (a : hex_arr) (c : coord) : Z :=
  match a with
  | OddRow => 2 * cx c + cy c mod 2
  | EvenRow => 2 * cx c + (1 - cy c mod 2)
  | _ => cx c
  end.
Definition hex_py (a : hex_arr) (c : coord) : Z :=
  match a with
  | OddColumn => 2 * cy c + cx c mod 2
  | EvenColumn => 2 * cy c + (1 - cx c mod 2)
  | _ => cy c
  end.

(** Displacement of the centres of two hexagons. *)
Definition hex_disp (a : hex_arr) (c n : coord) (dx dy : Z) : Prop :=
  hex_px a n - hex_px a c = dx /\ hex_py a n - hex_py a c = dy.

(** Two hexagons of one layer share an edge: their centres differ by a diagonal half step, or by
    a full step along the row (pointy-top) or the column (flat-top). *)
Definition hex_touch (a : hex_arr) (c n : coord) : Prop :=
  cz c = cz n /\
  ((exists sx sy, (sx = 1 \/ sx = -1) /\ (sy = 1 \/ sy = -1) /\ hex_disp a c n sx sy) \/
   (exists s, (s = 2 \/ s = -2) /\
      if pointy a then hex_disp a c n s 0 else hex_disp a c n 0 s)).

Definition touch (t : topo) (c n : coord) : Prop :=
  match t with Cartesian => square_touch c n | Hex a => hex_touch a c n end.

(** Dimensions of layouts over offset coordinates that leave the 31-bit maximum unused. *)
Definition dim_ok (ar : coord) : Prop :=
  0 <= cx ar < 2 ^ 31 - 1 /\ 0 <= cy ar < 2 ^ 31 - 1 /\ 0 <= cz ar <= 1.
