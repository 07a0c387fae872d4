(** Model of include/fiction/algorithms/simulation/sidb/quicksim.hpp and of adjacent_search of
    include/fiction/technology/charge_distribution_surface.hpp:1553-1612, on top of SidbModel.v.

    Line numbers of the form (:n) refer to quicksim.hpp.

    Simplifications.
    - The distance of two SiDBs in nanometres (get_nm_distance_by_indices) is a parameter [dist] of the model.
    - The random numbers are a parameter: [rnd z n k s] is the number drawn by thread [z] in its iteration [n] for the
      [k]-th SiDB of unknown charge state in the step [s] of its search; std::uniform_int_distribution is the remainder by
      the number of candidates, so every candidate can be drawn. The generator is a function-local static of adjacent_search
      that all threads use without synchronization: that data race is not modelled.
    - The clock is a parameter: [late z n k] tells that thread [z] finds the time limit reached before it starts
      with the [k]-th SiDB in its iteration [n].
    - Threads share nothing but the vector of results, which they append to under a mutex, and the flag of the time limit:
      the model lists the results of each thread, and the vector is an interleaving of these lists.
    - Run time and the other fields of the result but the charge distributions are left out. *)
From Coq Require Import ZArith QArith Qcanon Bool List.
From Verif Require Import CoordModel UtilModel SidbModel.
Import ListNotations.

Section QuickSim.
Context (phi : Qc -> Qc -> coord -> coord -> Qc) (k : kind) (dist : coord -> coord -> Qc).

(** get_nm_distance_by_indices: charge_distribution_surface.hpp:823-826. *)
Definition distance (d : cds) (i j : nat) : Qc := dist (nth i (d_order d) dead0) (nth j (d_order d) dead0).

(** dist_min: charge_distribution_surface.hpp:1571-1574. The infinity the accumulation starts with is left out, since
    negative_indices is never empty. *)
Definition dist_min (d : cds) (neg : list nat) (u : nat) : Qc :=
  match neg with
  | [] => Q2Qc 0
  | o :: r => fold_left (fun acc o => if qltb (distance d u o) acc then distance d u o else acc) r (distance d u o)
  end.

(** index_vector: charge_distribution_surface.hpp:1564-1576. *)
Definition neutral_indices (d : cds) : list nat :=
  filter (fun i => cs_eqb (nth i (d_charge d) NON) NEU) (seq 0 (length (d_charge d))).

(** dist_max: charge_distribution_surface.hpp:1555 and 1579-1582. *)
Definition dist_max (d : cds) (neg : list nat) : Qc :=
  fold_left (fun m u => if qltb m (dist_min d neg u) then dist_min d neg u else m) (neutral_indices d) (Q2Qc 0).

(** index_vector[candidates[...]]: charge_distribution_surface.hpp:1585-1594. *)
Definition candidates (alpha : Qc) (d : cds) (neg : list nat) : list nat :=
  filter (fun u => Qle_bool (this (alpha * dist_max d neg)%Qc) (this (dist_min d neg u))) (neutral_indices d).

(** adjacent_search: charge_distribution_surface.hpp:1553-1612. *)
Definition adjacent_search (alpha : Qc) (r : nat) (d : cds) (neg : list nat) : cds * list nat :=
  match candidates alpha d neg with
  | [] => (d, neg)
  | cand => let i := nth (r mod length cand) cand 0%nat in (place_electron d i, neg ++ [i])
  end.

(** assign_charge_state_by_index for each of a list of indices with KEEP_CHARGE_INDEX (:216-221). *)
Definition assign_negative (d : cds) (l : list nat) : cds :=
  fold_left (fun d i => assign_by_index d (Z.of_nat i) NEG) l d.

(** The same with UPDATE_CHARGE_INDEX, the default (:155-158). *)
Definition assign_negative_update (d : cds) (l : list nat) : cds :=
  fold_left (fun d i => to_index (assign_by_index d (Z.of_nat i) NEG)) l d.

(** is_physically_valid, charge_distribution_to_index and emplace_back (:225-231 and :240-246): the surface after it and
    what has been appended. *)
Definition record (d : cds) : cds * list cds :=
  if d_valid d then let d := to_index d in (d, [d]) else (d, []).

(** The loop over num (:235-247): [n] steps, the first of which has the number [s]. *)
Fixpoint search (alpha : Qc) (r : nat -> nat) (n s : nat) (d : cds) (neg : list nat) : cds * list cds :=
  match n with
  | O => (d, [])
  | S n =>
    let '(d, neg) := adjacent_search alpha (r s) d neg in
    let '(d, out) := record (validity_check d) in
    let '(d, rest) := search alpha r n (S s) d neg in
    (d, out ++ rest)
  end.

(** The body of the loop over the SiDBs of unknown charge state after the check of the time limit (:210-247). *)
Definition start_at (alpha : Qc) (r : nat -> nat) (pre : list nat) (unknown : nat) (u : nat) (d : cds) : cds * list cds :=
  let d := set_charge d (map (fun _ => NEU) (d_charge d)) in
  let neg := pre ++ [u] in
  let d := assign_negative d neg in
  let '(d, out) := record (update_after_charge_change phi d false true false) in
  let '(d, rest) := search alpha r (unknown - 1) 0 d neg in
  (d, out ++ rest).

(** What a thread does: what it appends, and whether it finds the time limit reached or accesses a vector outside its
    bounds. *)
Record run := mkRun { r_out : list cds; r_late : bool; r_ub : bool }.

(** The loops of a thread (:192-249) over the iterations [n] and the numbers [j] of the SiDBs [u] of unknown charge state. *)
Fixpoint rounds (alpha : Qc) (r : nat -> nat -> nat -> nat) (late : nat -> nat -> bool) (pre : list nat) (unknown : nat)
    (todo : list (nat * (nat * nat))) (d : cds) : run :=
  match todo with
  | [] => mkRun [] false (d_ub d)
  | (n, (j, u)) :: todo =>
    if late n j then mkRun [] true (d_ub d)
    else
      let '(d, out) := start_at alpha (r n j) pre unknown u d in
      let rest := rounds alpha r late pre unknown todo d in
      mkRun (out ++ r_out rest) (r_late rest) (r_ub rest)
  end.

(** A thread (:182-250). *)
Definition thread (alpha : Qc) (r : nat -> nat -> nat -> nat) (late : nat -> nat -> bool) (iterations : nat)
    (pre unknown : list nat) (d : cds) : run :=
  if Nat.eqb (length pre) (length (d_order d)) then mkRun [] false (d_ub d)
  else rounds alpha r late pre (length unknown)
         (list_prod (seq 0 iterations) (combine (seq 0 (length unknown)) unknown)) d.

(** What a call does: undefined behaviour, std::nullopt, or a result: the charge distributions that have been appended before
    the threads start and those that each thread has appended. *)
Inductive outcome := Undefined | Nothing | Found (first : list cds) (threads : list (list cds)).

Section Simulation.
Context (l : layout) (p : params).

(** The surface after the base number has been assigned (:110-115). *)
Definition prepared : cds :=
  assign_base_number (assign_physical_parameters phi (set_eng (new_surface phi k l default_params NEG) QUICKSIM) p) 2.

(** The surface with all SiDBs negatively charged (:116-117). *)
Definition all_negative : cds := update_after_charge_change phi (assign_all_charge_states prepared NEG) false true false.

(** predefined_negative_sidb_indices (:118). *)
Definition predefined : list nat := negative_sidb_detection all_negative.

(** The surface with all SiDBs neutrally charged (:127-128). *)
Definition all_neutral : cds := update_after_charge_change phi (assign_all_charge_states all_negative NEU) false true false.

(** all_sidb_indices_with_unknown_charge_state (:140-153). *)
Definition unknowns : list nat :=
  filter (fun i => negb (existsb (Nat.eqb i) predefined))
    (map (fun c => Z.to_nat (cell_to_index all_neutral c)) (d_order all_neutral)).

(** The surface the threads copy (:155-160). *)
Definition started : cds := update_after_charge_change phi (assign_negative_update all_neutral predefined) false true false.

(** What is appended before the threads start (:121-124, :130-136, :161-164). *)
Definition firsts : list cds :=
  (if d_valid all_negative then [all_negative] else []) ++
  (if negb (match predefined with [] => true | _ => false end) && d_valid all_neutral then [all_neutral] else []) ++
  (if d_valid started then [started] else []).

(** The threads (:167-256). *)
Definition runs (steps threads : nat) (alpha : Qc) (rnd : nat -> nat -> nat -> nat -> nat) (late : nat -> nat -> nat -> bool) : list run :=
  map (fun z => thread alpha (rnd z) (late z) (Nat.max (steps / Nat.max threads 1) 1) predefined unknowns started)
      (seq 0 (Nat.max threads 1)).

(** quicksim (:74-267) with the parameters iteration_steps, number_threads, alpha and simulation_parameters. *)
Definition quicksim (steps threads : nat) (alpha : Qc)
    (rnd : nat -> nat -> nat -> nat -> nat) (late : nat -> nat -> nat -> bool) : outcome :=
  if Nat.eqb steps 0 || match l_cells l with [] => true | _ => false end then Nothing
  else
    let rs := runs steps threads alpha rnd late in
    if existsb r_ub rs then Undefined
    else if existsb r_late rs || match firsts ++ concat (map r_out rs) with [] => true | _ => false end then Nothing
    else Found firsts (map r_out rs).
End Simulation.

End QuickSim.
