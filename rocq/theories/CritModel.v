(** Model of include/fiction/algorithms/simulation/sidb/calculate_energy_and_state_type.hpp, occupation_probability_of_excited_states.hpp
    and critical_temperature.hpp.

    Simplifications.
    - Doubles are rational numbers, as in SidbModel.v. The Boltzmann factor is an arbitrary function of the energy above the minimum and the temperature.
    - Charge distributions are an arbitrary type with an energy and the signs of the charges of cells. The simulation engine, calculate_energy_distribution
      (see ResultModel.v) and can_positive_charges_occur are arbitrary: a pattern carries what they return. verify_logic_match is an arbitrary predicate.
    - std::ranges::sort is an arbitrary function; the theorems assume that it sorts.
    - The statistics are left out. *)
From Coq Require Import ZArith QArith Qcanon Qround Bool List.
From Verif Require Import CoordModel SidbModel ResultModel.
Import ListNotations.
Local Open Scope Z_scope.

(** Energies with state types; true: ACCEPTED. *)
Definition energies := list (Qc * bool).

Section States.
Variable L : Type.
Variable energy : L -> Qc.
(** charge_state_to_sign(get_charge_state(c)) *)
Variable sign : L -> coord -> Z.
Variable sort : energies -> energies.

(** calculate_energy_and_state_type.hpp:88-99: the state type; [outs] are the lower dots of the output pairs, [bits] the bits of the truth tables at the input index. *)
Fixpoint state_type (outs : list coord) (bits : list bool) (l : L) : bool :=
  match outs, bits with
  | o :: outs, b :: bits => if Bool.eqb (negb (- sign l o =? 0)) b then state_type outs bits l else false
  | _, _ => true
  end.
(** calculate_energy_and_state_type.hpp:64-109, calculate_energy_and_state_type_with_kinks_accepted *)
Definition kinks_accepted (outs : list coord) (bits : list bool) (dist : list Qc) (lays : list L) : energies :=
  sort (flat_map (fun e => flat_map (fun l => if close (energy l) e then [(e, state_type outs bits l)] else []) lays) dist).
(** calculate_energy_and_state_type.hpp:143-158: the loop over the charge distributions for one energy. *)
Fixpoint rejected_loop (matches : L -> bool) (e : Qc) (lays : list L) : energies :=
  match lays with
  | [] => []
  | l :: r => if close (energy l) e then (e, true) :: (if matches l then rejected_loop matches e r else [(e, false)]) else rejected_loop matches e r
  end.
(** calculate_energy_and_state_type.hpp:125-163, calculate_energy_and_state_type_with_kinks_rejected *)
Definition kinks_rejected (matches : L -> bool) (dist : list Qc) (lays : list L) : energies := flat_map (fun e => rejected_loop matches e lays) dist.
End States.

Section Critical.
(** calculate_boltzmann_factor: the energy above the minimum and the temperature in hundredths of a kelvin. *)
Variable boltz : Qc -> nat -> Qc.
Variable confidence_level max_temperature : Qc.

(** std::ranges::min_element: the smallest energy. *)
Fixpoint est_min (best : Qc) (l : energies) : Qc := match l with [] => best | x :: r => est_min (if qltb (fst x) best then fst x else best) r end.
(** occupation_probability_of_excited_states.hpp, occupation_probability_gate_based *)
Definition occupation (est : energies) (t : nat) : Qc :=
  match est with
  | [] => Q2Qc 0
  | x :: r =>
    let m := est_min (fst x) r in
    let partition := fold_left (fun s x => (s + boltz (fst x - m) t)%Qc) est (Q2Qc 0) in
    let p := fold_left (fun s x => if negb (snd x) then (s + boltz (fst x - m) t)%Qc else s) est (Q2Qc 0) in
    (p / partition)%Qc
  end.
(** std::round *)
Definition qround (x : Qc) : Z := if qltb x (Q2Qc 0) then - Qfloor (this (- x)%Qc + (1 # 2)) else Qfloor (this x + (1 # 2)).
(** math_utils.hpp:30-34, round_to_n_decimal_places(number, 6) *)
Definition round6 (x : Qc) : Qc := (qz (qround (x * qz 1000000)) / qz 1000000)%Qc.
(** critical_temperature.hpp:406-432, is_ground_state_transparent *)
Definition transparent (est : energies) (m : Qc) : bool := existsb (fun x => close (round6 (fst x)) (round6 m) && snd x) est.
Definition temp (i : nat) : Qc := (qz (Z.of_nat i) / qz 100)%Qc.
(** critical_temperature.hpp:447-462 and 366-381: the loop over the temperatures, [n] of them from [i] on. *)
Fixpoint temperatures (occ : nat -> Qc) (n i : nat) (ct : Qc) : Qc :=
  match n with
  | O => ct
  | S n =>
    if qltb (1 - confidence_level) (occ i) && qltb (temp i) ct then temp i
    else temperatures occ n (S i) (if qltb (qabs (temp i - max_temperature)) (Q2Qc (1 # 1000)) && qltb (temp i) ct then max_temperature else ct)
  end.
(** critical_temperature.hpp:439-463, determine_critical_temperature *)
Definition num_temps : nat := Z.to_nat (Qfloor (this (max_temperature * qz 100)%Qc)).
Definition determine (est : energies) (ct : Qc) : Qc := temperatures (occupation est) num_temps 1 ct.

(** occupation_probability_of_excited_states.hpp, occupation_probability_non_gate_based; [dist]: energies with degeneracies in ascending order. *)
Definition occupation_all (dist : list (Qc * Z)) (t : nat) : Qc :=
  match dist with
  | [] => Q2Qc 0
  | x :: _ =>
    let m := fst x in
    let partition := fold_left (fun s x => (s + qz (snd x) * boltz (fst x - m) t)%Qc) dist (Q2Qc 0) in
    let p := fold_left (fun s x => if qltb margin (qabs (round6 (fst x) - round6 m)) then (s + qz (snd x) * boltz (fst x - m) t)%Qc else s) dist (Q2Qc 0) in
    (p / partition)%Qc
  end.
(** critical_temperature.hpp:358: the number of temperatures. *)
Definition num_iterations : nat := Z.to_nat (qround (max_temperature * qz 100)).
(** critical_temperature.hpp:287-382, non_gate_based_simulation; [None]: QuickSim finds nothing. *)
Definition non_gate_based (dist : option (list (Qc * Z))) : Qc :=
  match dist with None => max_temperature | Some d => temperatures (occupation_all d) num_iterations 1 max_temperature end.

Variable L : Type.
(** What is computed for an input pattern: can_positive_charges_occur, the charge distributions, their energies and the bits of the truth tables. *)
Record pattern := mkPat { p_positive : bool; p_results : list L; p_dist : list Qc; p_bits : list bool }.
Variable states : pattern -> energies.
(** critical_temperature.hpp:222-282: the loop over the input patterns; [None]: the first element of an empty vector is read. *)
Fixpoint patterns (ps : list pattern) (ct : Qc) : option Qc :=
  match ps with
  | [] => Some ct
  | p :: ps =>
    if p_positive p then Some (Q2Qc 0)
    else match p_results p with
    | [] => Some (Q2Qc 0)
    | _ =>
      match states p with
      | [] => None
      | x :: _ => if transparent (states p) (fst x) then patterns ps (determine (states p) ct) else patterns ps (Q2Qc 0)
      end
    end
  end.
(** critical_temperature.hpp:181-284, gate_based_simulation; the critical temperature starts at the maximum. *)
Definition gate_based (num_cells : nat) (ps : list pattern) : option Qc :=
  if Nat.eqb num_cells 0 then Some (Q2Qc 0) else if Nat.ltb 1 num_cells then patterns ps max_temperature else Some max_temperature.
End Critical.
Arguments mkPat {L}. Arguments p_positive {L}. Arguments p_results {L}. Arguments p_dist {L}. Arguments p_bits {L}.
