(** Model of include/fiction/algorithms/simulation/sidb/detect_bdl_pairs.hpp.

    Simplifications.
    - Distances are rational numbers, given by an arbitrary function (sidb_nm_distance, a double) of two cells.
    - std::ranges::sort is an arbitrary function; the theorems assume that it sorts by comparisons that are strict weak orderings.
    - The order in which the layout visits its cells, inputs and outputs is arbitrary ([visit]).
    - Loop counters do not wrap at 2^32. *)
From Coq Require Import ZArith QArith Bool List.
From stdpp Require Import gmap list.
From Verif Require Import CoordModel CellModel.
From Coq Require Import List.
Import ListNotations.
Local Open Scope Z_scope.

(** detect_bdl_pairs.hpp:28-43, the members type, upper and lower. *)
Record bdl_pair := mkBdl { p_type : Z; p_upper : coord; p_lower : coord }.

Section Operators.
Variable k : kind.
(** detect_bdl_pairs.hpp:66, operator== *)
Definition bdl_eqb (a b : bdl_pair) : bool := (p_type a =? p_type b) && coord_eqb (p_upper a) (p_upper b) && coord_eqb (p_lower a) (p_lower b).
(** detect_bdl_pairs.hpp:73-80, operator< *)
Definition bdl_ltb (a b : bdl_pair) : bool :=
  if negb (coord_eqb (p_upper a) (p_upper b)) then k_ltb k (p_upper a) (p_upper b) else k_ltb k (p_lower a) (p_lower b).
(** detect_bdl_pairs.hpp:88-111, operator<=, operator> and operator>= *)
Definition bdl_leb (a b : bdl_pair) : bool := bdl_ltb a b || bdl_eqb a b.
Definition bdl_gtb (a b : bdl_pair) : bool := negb (bdl_leb a b).
Definition bdl_geb (a b : bdl_pair) : bool := negb (bdl_ltb a b).
(** detect_bdl_pairs.hpp:118-132, equal_ignore_type and not_equal_ignore_type *)
Definition equal_ignore_type (a b : bdl_pair) : bool := coord_eqb (p_upper a) (p_upper b) && coord_eqb (p_lower a) (p_lower b).
Definition not_equal_ignore_type (a b : bdl_pair) : bool := negb (equal_ignore_type a b).
(** detect_bdl_pairs.hpp:142-158, has_same_y_coordinate and has_same_x_coordinate *)
Definition has_same_y_coordinate (a b : bdl_pair) : bool := (cy (p_upper a) =? cy (p_upper b)) && (cy (p_lower a) =? cy (p_lower b)).
Definition has_same_x_coordinate (a b : bdl_pair) : bool := (cx (p_upper a) =? cx (p_upper b)) && (cx (p_lower a) =? cx (p_lower b)).
End Operators.

(** detect_bdl_pairs.hpp:164-176, the parameters. *)
Record bparams := mkBP { minimum_distance : Q; maximum_distance : Q }.
(** detect_bdl_pairs.hpp:215-245, pairwise_dot_distance. *)
Record pdd := mkPDD { sidb1 : coord; sidb2 : coord; distance : Q }.
(** operator< of doubles. *)
Definition q_ltb (a b : Q) : bool := negb (Qle_bool b a).
(** detect_bdl_pairs.hpp:267-268, dot_distance_comparator. *)
Definition by_distance (a b : pdd) : bool := q_ltb (distance a) (distance b).

Section Detect.
Variable k : kind.
Variable dist : coord -> coord -> Q.
Variable sort : forall A : Type, (A -> A -> bool) -> list A -> list A.
Variable visit : list coord -> list coord.
Variable l : clayout.
Variable ps : bparams.

(** detect_bdl_pairs.hpp:249-263, compute_pairwise_dot_distances: dots[i] and dots[j] for i < j. *)
Fixpoint pairwise (dots : list coord) : list pdd :=
  match dots with [] => [] | a :: r => map (fun b => mkPDD a b (dist a b)) r ++ pairwise r end.
(** detect_bdl_pairs.hpp:309-319: the two dots in order. *)
Definition new_pair (d : pdd) : bdl_pair :=
  if gtb_of (k_ltb k) (sidb1 d) (sidb2 d) then mkBdl (get_cell_type sidb l (sidb1 d)) (sidb2 d) (sidb1 d)
  else mkBdl (get_cell_type sidb l (sidb1 d)) (sidb1 d) (sidb2 d).
(** detect_bdl_pairs.hpp:287-324, the loop: the pairs that are appended from here on. *)
Fixpoint pair_loop (pw : list pdd) (paired : gset coord) : list bdl_pair :=
  match pw with
  | [] => []
  | d :: r =>
    if q_ltb (distance d) (minimum_distance ps) then pair_loop r paired
    else if q_ltb (maximum_distance ps) (distance d) then []
    else if bool_decide (sidb1 d ∈ paired) || bool_decide (sidb2 d ∈ paired) then pair_loop r paired
    else new_pair d :: pair_loop r ({[sidb2 d]} ∪ ({[sidb1 d]} ∪ paired))
  end.
(** detect_bdl_pairs.hpp:209-330, pair_up_dots. *)
Definition pair_up_dots (dots : list coord) : list bdl_pair := sort _ (bdl_ltb k) (pair_loop (sort _ by_distance (pairwise dots)) ∅).
(** detect_bdl_pairs.hpp:333-368, the dots of a type. *)
Definition dots_of_type (t : Z) : list coord :=
  if t =? t_input sidb then visit (c_foreach_pi l)
  else if t =? t_output sidb then visit (c_foreach_po l)
  else List.filter (fun c => get_cell_type sidb l c =? t) (visit (foreach_cell l)).
(** sidb_technology::cell_type::NORMAL *)
Definition s_normal : Z := 120.
(** detect_bdl_pairs.hpp:194-389, detect_bdl_pairs; [None]: the assertion fails (202). *)
Definition detect_bdl_pairs (type : option Z) : option (list bdl_pair) :=
  if Qle_bool (minimum_distance ps) (maximum_distance ps)
  then Some (match type with
             | Some t => pair_up_dots (dots_of_type t)
             | None => pair_up_dots (dots_of_type (t_input sidb)) ++ pair_up_dots (dots_of_type (t_output sidb)) ++ pair_up_dots (dots_of_type s_normal)
             end)
  else None.
End Detect.
