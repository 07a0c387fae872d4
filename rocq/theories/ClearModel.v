(** Model of include/fiction/algorithms/simulation/sidb/defect_clearance.hpp.

    Simplifications.
    - Distances (sidb_nm_distance, doubles) are rational numbers given by an arbitrary function; infinity is a value of its own.
    - The cells of the layout and the points of the domain are given as lists in the order in which they are visited. *)
From Coq Require Import ZArith QArith Qcanon Bool List.
From Verif Require Import CoordModel SidbModel.
Import ListNotations.

(** double: a number or std::numeric_limits<double>::infinity(). *)
Inductive ext := Fin (q : Qc) | Inf.
(** operator< *)
Definition ext_ltb (a b : ext) : bool := match a, b with Fin a, Fin b => qltb a b | Fin _, Inf => true | Inf, _ => false end.

Section Clearance.
Variable dist : coord -> coord -> Qc.
Variable cells : list coord.
(** cell<Lyt>{} *)
Variable nowhere : coord.
(** defect_clearance.hpp:60-72: the distance of the closest cell, and the position of the defect. *)
Definition closest (pos : coord) : ext * coord :=
  fold_left (fun acc c => if ext_ltb (Fin (dist c pos)) (fst acc) then (Fin (dist c pos), pos) else acc) cells (Inf, nowhere).
(** defect_clearance.hpp:53-79: one point of the domain; true: INFLUENTIAL. *)
Definition clearance_step (acc : ext * coord) (x : coord * bool) : ext * coord :=
  if negb (snd x) then acc else let m := closest (fst x) in if ext_ltb (fst acc) (fst m) then m else acc.
(** defect_clearance.hpp:46-82, calculate_defect_clearance: the distance and the position. *)
Definition calculate_defect_clearance (domain : list (coord * bool)) : ext * coord := fold_left clearance_step domain (Fin (Q2Qc 0), nowhere).
End Clearance.
