(** A Gallina model of what is done with the results of simulations of SiDB layouts:
    include/fiction/algorithms/simulation/sidb/sidb_simulation_result.hpp, minimum_energy.hpp, energy_distribution.hpp,
    is_ground_state.hpp, equivalence_check_for_simulation_results.hpp, can_positive_charges_occur.hpp.

    A result is the list of its charge distributions; the other members (name, run time, parameters) are left out. As in
    SidbModel.v, doubles are rational numbers. *)
From Coq Require Import ZArith QArith Qcanon Bool List.
From Verif Require Import CoordModel UtilModel SidbModel.
Import ListNotations.
Local Open Scope Z_scope.

(** std::abs(a - b) < constants::ERROR_MARGIN. *)
Definition qabs (x : Qc) : Qc := if qltb x (Q2Qc 0) then (- x)%Qc else x.
Definition close (a b : Qc) : bool := qltb (qabs (a - b)) margin.

(** std::set<uint64_t>: the elements in ascending order. *)
Fixpoint zinsert (i : Z) (s : list Z) : list Z :=
  match s with
  | [] => [i]
  | x :: r => if i <? x then i :: s else if i =? x then s else x :: zinsert i r
  end.
Definition zset (l : list Z) : list Z := fold_left (fun s i => zinsert i s) l [].

(** minimum_energy_distribution (minimum_energy.hpp:49-62): std::min_element returns the first smallest element. *)
Fixpoint min_element (best : cds) (l : list cds) : cds :=
  match l with
  | [] => best
  | x :: r => min_element (if qltb (d_energy x) (d_energy best) then x else best) r
  end.

(** minimum_energy (minimum_energy.hpp:28-41); None: the range is empty (infinity). *)
Definition minimum_energy (l : list cds) : option Qc :=
  match l with
  | [] => None
  | x :: r => Some (d_energy (min_element x r))
  end.

(** groundstates (sidb_simulation_result.hpp:75-112). The loop of lines 82-86 stores the charge index in the charge
    distributions of the result. *)
Definition groundstates (res : list cds) : list cds :=
  let res := map to_index_general res in
  match minimum_energy res with
  | None => []
  | Some m =>
    flat_map (fun i =>
      match find (fun d => (d_idx d =? i) && close (d_energy d) m) res with
      | Some d => [d]
      | None => []
      end) (zset (map d_idx res))
  end.

(** is_ground_state (is_ground_state.hpp:29-71). *)
Definition is_ground_state (heuristic exact : list cds) : bool :=
  match exact with
  | [] => false
  | _ =>
    let e := groundstates exact in
    let h := groundstates heuristic in
    Nat.eqb (length e) (length h) &&
    forallb (fun d => existsb (fun i => i =? d_idx d) (map d_idx h)) e
  end.

(** std::set<double>. *)
Fixpoint qinsert (v : Qc) (s : list Qc) : list Qc :=
  match s with
  | [] => [v]
  | x :: r => if qltb v x then v :: s else if qltb x v then x :: qinsert v r else s
  end.

(** The loop of calculate_energy_distribution over the charge indices (energy_distribution.hpp:208-238): unique_energies
    and unique_cds. *)
Definition collect (res : list cds) (st : list Qc * list cds) (i : Z) : list Qc * list cds :=
  match find (fun d => d_idx d =? i) res with
  | None => st
  | Some d =>
    let '(es, u) := st in
    (if existsb (fun e => close (d_energy d) e) es then es else qinsert (d_energy d) es, u ++ [d])
  end.

(** calculate_energy_distribution (energy_distribution.hpp:182-250): the states of the distribution in ascending order of
    their energies. *)
Definition calculate_energy_distribution (res : list cds) : list (Qc * Z) :=
  let res := map to_index_general res in
  let '(es, u) := fold_left (collect res) (zset (map d_idx res)) ([], []) in
  map (fun e => (e, Z.of_nat (length (filter (fun d => close (d_energy d) e) u)))) es.

(** energy_distribution::get_nth_state (energy_distribution.hpp:70-83). *)
Definition get_nth_state (dist : list (Qc * Z)) (n : nat) : option (Qc * Z) := nth_error dist n.

(** energy_distribution::degeneracy (energy_distribution.hpp:91-105). *)
Fixpoint degeneracy_from (dist : list (Qc * Z)) (energy : Qc) (n : Z) : option Z :=
  match dist with
  | [] => None
  | (key, _) :: r => if close key energy then Some n else degeneracy_from r energy (n + 1)
  end.
Definition degeneracy (dist : list (Qc * Z)) (energy : Qc) : option Z := degeneracy_from dist energy 0.

(** std::ranges::sort by the charge index; the order of elements with equal indices does not matter, see the uses. *)
Fixpoint insert_idx (d : cds) (l : list cds) : list cds :=
  match l with
  | [] => [d]
  | x :: r => if d_idx x <? d_idx d then x :: insert_idx d r else d :: l
  end.
Definition sort_idx (l : list cds) : list cds := fold_right insert_idx [] l.

(** check_simulation_results_for_equivalence (equivalence_check_for_simulation_results.hpp:29-104). *)
Definition check_equivalence (r1 r2 : list cds) : bool :=
  Nat.eqb (length r1) (length r2) &&
  match r1, r2 with
  | d1 :: _, d2 :: _ => Nat.eqb (length (d_order d1)) (length (d_order d2))
  | _, _ => true
  end &&
  Nat.eqb (length (zset (map d_idx r1))) (length r1) &&
  Nat.eqb (length (zset (map d_idx r2))) (length r2) &&
  forallb (fun dd =>
    let '(d1, d2) := dd in
    negb (qltb margin (qabs (d_energy d1 - d_energy d2))) &&
    forallb (fun c => cs_eqb (get_charge_state d1 c) (get_charge_state d2 c)) (d_order d1))
    (combine (sort_idx r1) (sort_idx r2)).

(** can_positive_charges_occur (can_positive_charges_occur.hpp:29-51). *)
Definition can_positive_charges_occur phi (k : kind) (l : layout) (p : params) : bool :=
  let d := new_surface phi k l default_params NEG in
  let d := assign_all_charge_states (assign_physical_parameters phi d p) NEG in
  existsb (fun i => qltb (positive_lower d i) (minus_int d i)) (seq 0 (length (l_cells l))).
