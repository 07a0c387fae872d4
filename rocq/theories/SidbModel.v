(** Model of include/fiction/technology/charge_distribution_surface.hpp, of
    include/fiction/algorithms/simulation/sidb/exhaustive_ground_state_simulation.hpp, quickexact.hpp (the
    gray_code_iterator is the one of UtilModel.v).

    Line numbers of the form (:n) refer to charge_distribution_surface.hpp.

    Simplifications.
    - Physical quantities (doubles in the code) are rational numbers: every double is a rational number, and the rounding
      of the arithmetic operations is not modelled. Sums are therefore independent of the order of their summands.
    - The screened Coulomb potential without charge, k() / (distance * 1E-9) * exp(-distance / lambda_tf) *
      ELEMENTARY_CHARGE, of the functions of lines 835-849 and 1818-1847 is a parameter
      [phi epsilon_r lambda_tf c1 c2] of the model: k() * epsilon_r / defect.epsilon_r is K_E / defect.epsilon_r, so the
      two functions are the same function of the medium and of the two positions.
    - std::pow on integers is the exact power: true as long as the result does not exceed 2^53.
    - Accesses through an index outside a vector (undefined behaviour) set the flag [d_ub].
    - The layout type is a plain SiDB cell-level layout or an SiDB defect surface, not itself a charge distribution
      surface: the branches for the latter (quickexact.hpp:251-262 and 479-490) are left out. *)
From Coq Require Import ZArith QArith Qcanon Bool List.
From Verif Require Import CoordModel UtilModel.
Import ListNotations.
Local Open Scope Z_scope.

(** enum sidb_charge_state: include/fiction/technology/sidb_charge_state.hpp:19-25. *)
Inductive cs := NEG | NEU | POS | NON.

(** Equality of charge states. *)
Definition cs_eqb (a b : cs) : bool :=
  match a, b with NEG, NEG | NEU, NEU | POS, POS | NON, NON => true | _, _ => false end.

(** charge_state_to_sign: sidb_charge_state.hpp:53-70. *)
Definition sgn (s : cs) : Z := match s with NEG => -1 | POS => 1 | _ => 0 end.

(** sign_to_charge_state: sidb_charge_state.hpp:77-98. *)
Definition of_sign (z : Z) : cs :=
  if z =? -1 then NEG else if z =? 0 then NEU else if z =? 1 then POS else NON.

(** static_cast<double> of an integer. *)
Definition qz (z : Z) : Qc := Q2Qc (inject_Z z).

(** a < b on doubles. *)
Definition qltb (a b : Qc) : bool := negb (Qle_bool (this b) (this a)).

(** constants::ERROR_MARGIN: include/fiction/technology/constants.hpp:18. *)
Definition margin : Qc := Q2Qc (1 # 1000000).

(** The literal 0.5. *)
Definition half : Qc := Q2Qc (1 # 2).

(** sidb_simulation_parameters: include/fiction/algorithms/simulation/sidb/sidb_simulation_parameters.hpp:47-60. *)
Record params := mkP { p_base : Z; p_mu : Qc; p_eps : Qc; p_lambda : Qc }.

(** mu_plus(): sidb_simulation_parameters.hpp:71-74. *)
Definition mu_plus (p : params) : Qc := (p_mu p - Q2Qc (59 # 100))%Qc.

(** The default parameters: sidb_simulation_parameters.hpp:32-34. *)
Definition default_params : params := mkP 3 (Q2Qc (-32 # 100)) (Q2Qc (56 # 10)) (Q2Qc 5).

(** Assigning another base number to the parameters (simulation_parameters.base = base). *)
Definition with_base (p : params) (b : Z) : params := mkP b (p_mu p) (p_eps p) (p_lambda p).

(** sidb_defect: include/fiction/technology/sidb_defects.hpp:111-135; [df_ctype] tells whether the type is one of the
    types that count as charged whatever the charge is (DB, SI_VACANCY, ARSENIC). *)
Record defect := mkDf { df_ctype : bool; df_charge : Z; df_eps : Qc; df_lambda : Qc }.

(** is_charged_defect_type: sidb_defects.hpp:147-151. *)
Definition is_charged_defect (f : defect) : bool := negb (df_charge f =? 0) || df_ctype f.

(** enum sidb_simulation_engine: include/fiction/algorithms/simulation/sidb/sidb_simulation_engine.hpp:24-47. *)
Inductive engine := EXGS | QUICKSIM | QUICKEXACT | CLUSTERCOMPLETE.

(** An SiDB layout: the positions of its SiDBs, in the order of foreach_cell, and its atomic defects
    (include/fiction/technology/sidb_defect_surface.hpp; none for a plain layout). *)
Record layout := mkL { l_cells : list coord; l_defects : list (coord * defect) }.

(* The storage of a charge distribution surface:
   include/fiction/technology/charge_distribution_surface.hpp:184-344.  The distance matrix
   (:255) is left out: the only use of a distance here is inside the potential [phi]. *)
Record cds := mkD {
  d_eng : engine;  (* engine (:215) *)
  d_par : params;  (* simulation_parameters (:219) *)
  d_bounds : list (Qc * Qc * Qc * Qc);  (* charge_transition_threshold_bounds (:228) *)
  d_order : list coord;  (* sidb_order (:232) *)
  d_two : list coord;  (* sidb_order_without_three_state_cells (:236) *)
  d_charge : list cs;  (* cell_charge (:240) *)
  d_pot : list (list Qc);  (* pot_mat (:259) *)
  d_extmap : list (coord * Qc);  (* local_external_potential_map (:264) *)
  d_defpot : list Qc;  (* local_pot_caused_by_defects (:268) *)
  d_ext : list Qc;  (* local_ext_pot (:272) *)
  d_int : list Qc;  (* local_int_pot (:276) *)
  d_intdef : list (coord * Qc);  (* local_int_pot_at_defect (:280) *)
  d_extdef : list (coord * Qc);  (* local_ext_pot_at_defect (:284) *)
  d_energy : Qc;  (* system_energy (:288) *)
  d_valid : bool;  (* validity (:292) *)
  d_idx : Z;  (* charge_index_and_base.first (:297) *)
  d_base : Z;  (* charge_index_and_base.second (:297) *)
  d_sub : Z;  (* charge_index_sublayout (:302) *)
  d_max : Z;  (* max_charge_index (:307) *)
  d_maxsub : Z;  (* max_charge_index_sulayout (:312) *)
  d_gray : Z * Z;  (* cell_history_gray_code (:317) *)
  d_hist : list (Z * Z);  (* cell_history (:322) *)
  d_defs : list (coord * defect);  (* defects (:326) *)
  d_dep : coord;  (* dependent_cell (:330) *)
  d_depi : Z;  (* dependent_cell_index (:334) *)
  d_three : list coord;  (* three_state_cells (:339) *)
  d_depsub : bool;  (* dependent_cell_in_sub_layout (:343) *)
  d_ub : bool  (* not in the code: set once an access outside a container has happened *)
}.

(* Field updates (assignments to one member of the storage, same lines). *)
(* engine (:215) *)
Definition set_eng (d : cds) (v : engine) : cds :=
  mkD v (d_par d) (d_bounds d) (d_order d) (d_two d) (d_charge d) (d_pot d) (d_extmap d) (d_defpot d) (d_ext d) (d_int d) (d_intdef d) (d_extdef d) (d_energy d) (d_valid d) (d_idx d) (d_base d) (d_sub d) (d_max d) (d_maxsub d) (d_gray d) (d_hist d) (d_defs d) (d_dep d) (d_depi d) (d_three d) (d_depsub d) (d_ub d).
(* simulation_parameters (:219) *)
Definition set_par (d : cds) (v : params) : cds :=
  mkD (d_eng d) v (d_bounds d) (d_order d) (d_two d) (d_charge d) (d_pot d) (d_extmap d) (d_defpot d) (d_ext d) (d_int d) (d_intdef d) (d_extdef d) (d_energy d) (d_valid d) (d_idx d) (d_base d) (d_sub d) (d_max d) (d_maxsub d) (d_gray d) (d_hist d) (d_defs d) (d_dep d) (d_depi d) (d_three d) (d_depsub d) (d_ub d).
(* charge_transition_threshold_bounds (:228) *)
Definition set_bounds (d : cds) (v : list (Qc * Qc * Qc * Qc)) : cds :=
  mkD (d_eng d) (d_par d) v (d_order d) (d_two d) (d_charge d) (d_pot d) (d_extmap d) (d_defpot d) (d_ext d) (d_int d) (d_intdef d) (d_extdef d) (d_energy d) (d_valid d) (d_idx d) (d_base d) (d_sub d) (d_max d) (d_maxsub d) (d_gray d) (d_hist d) (d_defs d) (d_dep d) (d_depi d) (d_three d) (d_depsub d) (d_ub d).
(* sidb_order (:232) *)
Definition set_order (d : cds) (v : list coord) : cds :=
  mkD (d_eng d) (d_par d) (d_bounds d) v (d_two d) (d_charge d) (d_pot d) (d_extmap d) (d_defpot d) (d_ext d) (d_int d) (d_intdef d) (d_extdef d) (d_energy d) (d_valid d) (d_idx d) (d_base d) (d_sub d) (d_max d) (d_maxsub d) (d_gray d) (d_hist d) (d_defs d) (d_dep d) (d_depi d) (d_three d) (d_depsub d) (d_ub d).
(* sidb_order_without_three_state_cells (:236) *)
Definition set_two (d : cds) (v : list coord) : cds :=
  mkD (d_eng d) (d_par d) (d_bounds d) (d_order d) v (d_charge d) (d_pot d) (d_extmap d) (d_defpot d) (d_ext d) (d_int d) (d_intdef d) (d_extdef d) (d_energy d) (d_valid d) (d_idx d) (d_base d) (d_sub d) (d_max d) (d_maxsub d) (d_gray d) (d_hist d) (d_defs d) (d_dep d) (d_depi d) (d_three d) (d_depsub d) (d_ub d).
(* cell_charge (:240) *)
Definition set_charge (d : cds) (v : list cs) : cds :=
  mkD (d_eng d) (d_par d) (d_bounds d) (d_order d) (d_two d) v (d_pot d) (d_extmap d) (d_defpot d) (d_ext d) (d_int d) (d_intdef d) (d_extdef d) (d_energy d) (d_valid d) (d_idx d) (d_base d) (d_sub d) (d_max d) (d_maxsub d) (d_gray d) (d_hist d) (d_defs d) (d_dep d) (d_depi d) (d_three d) (d_depsub d) (d_ub d).
(* pot_mat (:259) *)
Definition set_pot (d : cds) (v : list (list Qc)) : cds :=
  mkD (d_eng d) (d_par d) (d_bounds d) (d_order d) (d_two d) (d_charge d) v (d_extmap d) (d_defpot d) (d_ext d) (d_int d) (d_intdef d) (d_extdef d) (d_energy d) (d_valid d) (d_idx d) (d_base d) (d_sub d) (d_max d) (d_maxsub d) (d_gray d) (d_hist d) (d_defs d) (d_dep d) (d_depi d) (d_three d) (d_depsub d) (d_ub d).
(* local_external_potential_map (:264) *)
Definition set_extmap (d : cds) (v : list (coord * Qc)) : cds :=
  mkD (d_eng d) (d_par d) (d_bounds d) (d_order d) (d_two d) (d_charge d) (d_pot d) v (d_defpot d) (d_ext d) (d_int d) (d_intdef d) (d_extdef d) (d_energy d) (d_valid d) (d_idx d) (d_base d) (d_sub d) (d_max d) (d_maxsub d) (d_gray d) (d_hist d) (d_defs d) (d_dep d) (d_depi d) (d_three d) (d_depsub d) (d_ub d).
(* local_pot_caused_by_defects (:268) *)
Definition set_defpot (d : cds) (v : list Qc) : cds :=
  mkD (d_eng d) (d_par d) (d_bounds d) (d_order d) (d_two d) (d_charge d) (d_pot d) (d_extmap d) v (d_ext d) (d_int d) (d_intdef d) (d_extdef d) (d_energy d) (d_valid d) (d_idx d) (d_base d) (d_sub d) (d_max d) (d_maxsub d) (d_gray d) (d_hist d) (d_defs d) (d_dep d) (d_depi d) (d_three d) (d_depsub d) (d_ub d).
(* local_ext_pot (:272) *)
Definition set_ext (d : cds) (v : list Qc) : cds :=
  mkD (d_eng d) (d_par d) (d_bounds d) (d_order d) (d_two d) (d_charge d) (d_pot d) (d_extmap d) (d_defpot d) v (d_int d) (d_intdef d) (d_extdef d) (d_energy d) (d_valid d) (d_idx d) (d_base d) (d_sub d) (d_max d) (d_maxsub d) (d_gray d) (d_hist d) (d_defs d) (d_dep d) (d_depi d) (d_three d) (d_depsub d) (d_ub d).
(* local_int_pot (:276) *)
Definition set_int (d : cds) (v : list Qc) : cds :=
  mkD (d_eng d) (d_par d) (d_bounds d) (d_order d) (d_two d) (d_charge d) (d_pot d) (d_extmap d) (d_defpot d) (d_ext d) v (d_intdef d) (d_extdef d) (d_energy d) (d_valid d) (d_idx d) (d_base d) (d_sub d) (d_max d) (d_maxsub d) (d_gray d) (d_hist d) (d_defs d) (d_dep d) (d_depi d) (d_three d) (d_depsub d) (d_ub d).
(* local_int_pot_at_defect (:280) *)
Definition set_intdef (d : cds) (v : list (coord * Qc)) : cds :=
  mkD (d_eng d) (d_par d) (d_bounds d) (d_order d) (d_two d) (d_charge d) (d_pot d) (d_extmap d) (d_defpot d) (d_ext d) (d_int d) v (d_extdef d) (d_energy d) (d_valid d) (d_idx d) (d_base d) (d_sub d) (d_max d) (d_maxsub d) (d_gray d) (d_hist d) (d_defs d) (d_dep d) (d_depi d) (d_three d) (d_depsub d) (d_ub d).
(* local_ext_pot_at_defect (:284) *)
Definition set_extdef (d : cds) (v : list (coord * Qc)) : cds :=
  mkD (d_eng d) (d_par d) (d_bounds d) (d_order d) (d_two d) (d_charge d) (d_pot d) (d_extmap d) (d_defpot d) (d_ext d) (d_int d) (d_intdef d) v (d_energy d) (d_valid d) (d_idx d) (d_base d) (d_sub d) (d_max d) (d_maxsub d) (d_gray d) (d_hist d) (d_defs d) (d_dep d) (d_depi d) (d_three d) (d_depsub d) (d_ub d).
(* system_energy (:288) *)
Definition set_energy (d : cds) (v : Qc) : cds :=
  mkD (d_eng d) (d_par d) (d_bounds d) (d_order d) (d_two d) (d_charge d) (d_pot d) (d_extmap d) (d_defpot d) (d_ext d) (d_int d) (d_intdef d) (d_extdef d) v (d_valid d) (d_idx d) (d_base d) (d_sub d) (d_max d) (d_maxsub d) (d_gray d) (d_hist d) (d_defs d) (d_dep d) (d_depi d) (d_three d) (d_depsub d) (d_ub d).
(* validity (:292) *)
Definition set_valid (d : cds) (v : bool) : cds :=
  mkD (d_eng d) (d_par d) (d_bounds d) (d_order d) (d_two d) (d_charge d) (d_pot d) (d_extmap d) (d_defpot d) (d_ext d) (d_int d) (d_intdef d) (d_extdef d) (d_energy d) v (d_idx d) (d_base d) (d_sub d) (d_max d) (d_maxsub d) (d_gray d) (d_hist d) (d_defs d) (d_dep d) (d_depi d) (d_three d) (d_depsub d) (d_ub d).
(* charge_index_and_base.first (:297) *)
Definition set_idx (d : cds) (v : Z) : cds :=
  mkD (d_eng d) (d_par d) (d_bounds d) (d_order d) (d_two d) (d_charge d) (d_pot d) (d_extmap d) (d_defpot d) (d_ext d) (d_int d) (d_intdef d) (d_extdef d) (d_energy d) (d_valid d) v (d_base d) (d_sub d) (d_max d) (d_maxsub d) (d_gray d) (d_hist d) (d_defs d) (d_dep d) (d_depi d) (d_three d) (d_depsub d) (d_ub d).
(* charge_index_and_base.second (:297) *)
Definition set_base (d : cds) (v : Z) : cds :=
  mkD (d_eng d) (d_par d) (d_bounds d) (d_order d) (d_two d) (d_charge d) (d_pot d) (d_extmap d) (d_defpot d) (d_ext d) (d_int d) (d_intdef d) (d_extdef d) (d_energy d) (d_valid d) (d_idx d) v (d_sub d) (d_max d) (d_maxsub d) (d_gray d) (d_hist d) (d_defs d) (d_dep d) (d_depi d) (d_three d) (d_depsub d) (d_ub d).
(* charge_index_sublayout (:302) *)
Definition set_sub (d : cds) (v : Z) : cds :=
  mkD (d_eng d) (d_par d) (d_bounds d) (d_order d) (d_two d) (d_charge d) (d_pot d) (d_extmap d) (d_defpot d) (d_ext d) (d_int d) (d_intdef d) (d_extdef d) (d_energy d) (d_valid d) (d_idx d) (d_base d) v (d_max d) (d_maxsub d) (d_gray d) (d_hist d) (d_defs d) (d_dep d) (d_depi d) (d_three d) (d_depsub d) (d_ub d).
(* max_charge_index (:307) *)
Definition set_max (d : cds) (v : Z) : cds :=
  mkD (d_eng d) (d_par d) (d_bounds d) (d_order d) (d_two d) (d_charge d) (d_pot d) (d_extmap d) (d_defpot d) (d_ext d) (d_int d) (d_intdef d) (d_extdef d) (d_energy d) (d_valid d) (d_idx d) (d_base d) (d_sub d) v (d_maxsub d) (d_gray d) (d_hist d) (d_defs d) (d_dep d) (d_depi d) (d_three d) (d_depsub d) (d_ub d).
(* max_charge_index_sulayout (:312) *)
Definition set_maxsub (d : cds) (v : Z) : cds :=
  mkD (d_eng d) (d_par d) (d_bounds d) (d_order d) (d_two d) (d_charge d) (d_pot d) (d_extmap d) (d_defpot d) (d_ext d) (d_int d) (d_intdef d) (d_extdef d) (d_energy d) (d_valid d) (d_idx d) (d_base d) (d_sub d) (d_max d) v (d_gray d) (d_hist d) (d_defs d) (d_dep d) (d_depi d) (d_three d) (d_depsub d) (d_ub d).
(* cell_history_gray_code (:317) *)
Definition set_gray (d : cds) (v : Z * Z) : cds :=
  mkD (d_eng d) (d_par d) (d_bounds d) (d_order d) (d_two d) (d_charge d) (d_pot d) (d_extmap d) (d_defpot d) (d_ext d) (d_int d) (d_intdef d) (d_extdef d) (d_energy d) (d_valid d) (d_idx d) (d_base d) (d_sub d) (d_max d) (d_maxsub d) v (d_hist d) (d_defs d) (d_dep d) (d_depi d) (d_three d) (d_depsub d) (d_ub d).
(* cell_history (:322) *)
Definition set_hist (d : cds) (v : list (Z * Z)) : cds :=
  mkD (d_eng d) (d_par d) (d_bounds d) (d_order d) (d_two d) (d_charge d) (d_pot d) (d_extmap d) (d_defpot d) (d_ext d) (d_int d) (d_intdef d) (d_extdef d) (d_energy d) (d_valid d) (d_idx d) (d_base d) (d_sub d) (d_max d) (d_maxsub d) (d_gray d) v (d_defs d) (d_dep d) (d_depi d) (d_three d) (d_depsub d) (d_ub d).
(* defects (:326) *)
Definition set_defs (d : cds) (v : list (coord * defect)) : cds :=
  mkD (d_eng d) (d_par d) (d_bounds d) (d_order d) (d_two d) (d_charge d) (d_pot d) (d_extmap d) (d_defpot d) (d_ext d) (d_int d) (d_intdef d) (d_extdef d) (d_energy d) (d_valid d) (d_idx d) (d_base d) (d_sub d) (d_max d) (d_maxsub d) (d_gray d) (d_hist d) v (d_dep d) (d_depi d) (d_three d) (d_depsub d) (d_ub d).
(* dependent_cell (:330) *)
Definition set_dep (d : cds) (v : coord) : cds :=
  mkD (d_eng d) (d_par d) (d_bounds d) (d_order d) (d_two d) (d_charge d) (d_pot d) (d_extmap d) (d_defpot d) (d_ext d) (d_int d) (d_intdef d) (d_extdef d) (d_energy d) (d_valid d) (d_idx d) (d_base d) (d_sub d) (d_max d) (d_maxsub d) (d_gray d) (d_hist d) (d_defs d) v (d_depi d) (d_three d) (d_depsub d) (d_ub d).
(* dependent_cell_index (:334) *)
Definition set_depi (d : cds) (v : Z) : cds :=
  mkD (d_eng d) (d_par d) (d_bounds d) (d_order d) (d_two d) (d_charge d) (d_pot d) (d_extmap d) (d_defpot d) (d_ext d) (d_int d) (d_intdef d) (d_extdef d) (d_energy d) (d_valid d) (d_idx d) (d_base d) (d_sub d) (d_max d) (d_maxsub d) (d_gray d) (d_hist d) (d_defs d) (d_dep d) v (d_three d) (d_depsub d) (d_ub d).
(* three_state_cells (:339) *)
Definition set_three (d : cds) (v : list coord) : cds :=
  mkD (d_eng d) (d_par d) (d_bounds d) (d_order d) (d_two d) (d_charge d) (d_pot d) (d_extmap d) (d_defpot d) (d_ext d) (d_int d) (d_intdef d) (d_extdef d) (d_energy d) (d_valid d) (d_idx d) (d_base d) (d_sub d) (d_max d) (d_maxsub d) (d_gray d) (d_hist d) (d_defs d) (d_dep d) (d_depi d) v (d_depsub d) (d_ub d).
(* dependent_cell_in_sub_layout (:343) *)
Definition set_depsub (d : cds) (v : bool) : cds :=
  mkD (d_eng d) (d_par d) (d_bounds d) (d_order d) (d_two d) (d_charge d) (d_pot d) (d_extmap d) (d_defpot d) (d_ext d) (d_int d) (d_intdef d) (d_extdef d) (d_energy d) (d_valid d) (d_idx d) (d_base d) (d_sub d) (d_max d) (d_maxsub d) (d_gray d) (d_hist d) (d_defs d) (d_dep d) (d_depi d) (d_three d) v (d_ub d).
(* not in the code: set once an access outside a container has happened *)
Definition set_ub (d : cds) (v : bool) : cds :=
  mkD (d_eng d) (d_par d) (d_bounds d) (d_order d) (d_two d) (d_charge d) (d_pot d) (d_extmap d) (d_defpot d) (d_ext d) (d_int d) (d_intdef d) (d_extdef d) (d_energy d) (d_valid d) (d_idx d) (d_base d) (d_sub d) (d_max d) (d_maxsub d) (d_gray d) (d_hist d) (d_defs d) (d_dep d) (d_depi d) (d_three d) (d_depsub d) v.

(** Lists. *)

(** l[i] = v for an index inside the vector. *)
Fixpoint upd {A} (i : nat) (v : A) (l : list A) : list A :=
  match l, i with
  | [], _ => []
  | _ :: r, O => v :: r
  | x :: r, S i => x :: upd i v r
  end.

(** The sum a loop accumulates in a variable that starts at 0.0. *)
Definition sumq (l : list Qc) : Qc := fold_right Qcplus (Q2Qc 0) l.

(** std::ranges::find on a vector of cells together with std::ranges::distance; -1 if absent. *)
Fixpoint index_in (c : coord) (l : list coord) : Z :=
  match l with
  | [] => -1
  | x :: r => if coord_eqb x c then 0 else let i := index_in c r in if i =? -1 then -1 else i + 1
  end.

(** Lookup in an unordered_map from cells (operator[] creates the value 0). *)
Fixpoint lookup_pot (c : coord) (m : list (coord * Qc)) : Qc :=
  match m with
  | [] => Q2Qc 0
  | (x, v) :: r => if coord_eqb x c then v else lookup_pot c r
  end.

(** m[c] += v. *)
Fixpoint add_pot (c : coord) (v : Qc) (m : list (coord * Qc)) : list (coord * Qc) :=
  match m with
  | [] => [(c, (Q2Qc 0 + v)%Qc)]
  | (x, w) :: r => if coord_eqb x c then (x, (w + v)%Qc) :: r else (x, w) :: add_pot c v r
  end.

(** defects.find(c). *)
Fixpoint find_defect (c : coord) (m : list (coord * defect)) : option defect :=
  match m with
  | [] => None
  | (x, f) :: r => if coord_eqb x c then Some f else find_defect c r
  end.

(** Insertion into a sorted vector. *)
Fixpoint insert_sorted (ltb : coord -> coord -> bool) (c : coord) (l : list coord) : list coord :=
  match l with
  | [] => [c]
  | x :: r => if ltb x c then x :: insert_sorted ltb c r else c :: x :: r
  end.

(** std::ranges::sort with the operator< of the coordinate type. *)
Definition sort_cells (ltb : coord -> coord -> bool) (l : list coord) : list coord :=
  fold_right (insert_sorted ltb) [] l.

Section Surface.
Context (phi : Qc -> Qc -> coord -> coord -> Qc) (k : kind).

(** num_cells() of the layout: the number of SiDBs, which is the size of sidb_order after initialize() (:2215-2218). *)
Definition num_cells (d : cds) : Z := Z.of_nat (length (d_order d)).

(** The loop variable of for (i = 0; i < sidb_order.size(); ++i). *)
Definition indices (d : cds) : list nat := seq 0 (length (d_order d)).

(** pot_mat[i][j]. *)
Definition pot (d : cds) (i j : nat) : Qc := nth j (nth i (d_pot d) []) (Q2Qc 0).

(** charge_state_to_sign(cell_charge[i]) as a double. *)
Definition qsign (d : cds) (i : nat) : Qc := qz (sgn (nth i (d_charge d) NON)).

(** cell_to_index (:556-564). *)
Definition cell_to_index (d : cds) (c : coord) : Z := index_in c (d_order d).

(** determine_effective_charge_transition_thresholds (:456-470). *)
Definition determine_thresholds (d : cds) : cds :=
  set_bounds d
    (map (fun i =>
       let e := nth i (d_ext d) (Q2Qc 0) in
       let p := d_par d in
       ((e - p_mu p + margin, e - mu_plus p - margin, e - p_mu p - margin, e - mu_plus p + margin)%Qc))
     (indices d)).

(** charge_transition_threshold_bounds[i][...] (:151-169). *)
Definition bound (d : cds) (i : nat) : Qc * Qc * Qc * Qc :=
  nth i (d_bounds d) (Q2Qc 0, Q2Qc 0, Q2Qc 0, Q2Qc 0).
Definition negative_upper (d : cds) (i : nat) : Qc := let '(a, _, _, _) := bound d i in a.
Definition positive_lower (d : cds) (i : nat) : Qc := let '(_, b, _, _) := bound d i in b.
Definition neutral_lower (d : cds) (i : nat) : Qc := let '(_, _, c, _) := bound d i in c.
Definition neutral_upper (d : cds) (i : nat) : Qc := let '(_, _, _, e) := bound d i in e.

(** -local_int_pot[i]. *)
Definition minus_int (d : cds) (i : nat) : Qc := (- nth i (d_int d) (Q2Qc 0))%Qc.

(** initialize_potential_matrix (:2297-2309) with calculate_chargeless_potential_between_sidbs_by_index (:835-849). *)
Definition initialize_potential_matrix (d : cds) : cds :=
  set_pot d
    (map (fun a => map (fun b => phi (p_eps (d_par d)) (p_lambda (d_par d)) a b) (d_order d)) (d_order d)).

(** charge_distribution_to_index_general (:1361-1378). *)
Definition to_index_general (d : cds) : cds :=
  let base := p_base (d_par d) in
  let n := num_cells d in
  set_base
    (set_idx d
      (fold_left Z.add
        (map (fun i => (sgn (nth i (d_charge d) NON) + 1) * base ^ (n - 1 - Z.of_nat i)) (indices d)) 0))
    base.

(** get_charge_state (:740-748). *)
Definition get_charge_state (d : cds) (c : coord) : cs :=
  let i := cell_to_index d c in
  if i =? -1 then NON else nth (Z.to_nat i) (d_charge d) NON.

(** get_charge_state_by_index (:755-763). *)
Definition get_charge_state_by_index (d : cds) (i : Z) : cs :=
  if (0 <=? i) && (i <? Z.of_nat (length (d_charge d))) then nth (Z.to_nat i) (d_charge d) NON else NON.

(** charge_distribution_to_index (:1383-1472). *)
Definition to_index (d : cds) : cds :=
  let base := p_base (d_par d) in
  let n := num_cells d in
  let digit c := sgn (nth (Z.to_nat (cell_to_index d c)) (d_charge d) NON) + 1 in
  let weighted (l : list coord) (b : Z) (top : Z) :=
    fold_left Z.add (map (fun ic => digit (snd ic) * b ^ (top - Z.of_nat (fst ic)))
                         (combine (seq 0 (length l)) l)) 0 in
  let t := d_three d in
  let nt := Z.of_nat (length t) in
  let '(first, sub) :=
    if negb (is_dead (d_dep d)) then
      if negb (match t with [] => true | _ => false end) then
        (weighted (filter (fun c => negb (coord_eqb c (d_dep d))) (d_two d)) 2 (n - 1 - 1), weighted t 3 (nt - 1))
      else
        (weighted (filter (fun c => negb (coord_eqb c (d_dep d))) (d_order d)) base (n - 1 - 1), 0)
    else
      if negb (match t with [] => true | _ => false end) then
        (weighted (d_two d) 2 (n - 1), weighted t 3 (nt - 1))
      else (weighted (d_order d) base (n - 1), 0) in
  set_sub (set_base (set_idx d first) base) sub.

(** assign_charge_state with KEEP_CHARGE_INDEX (:572-584). *)
Definition assign_charge_state_keep (d : cds) (c : coord) (s : cs) : cds :=
  let i := cell_to_index d c in
  if i =? -1 then d else set_charge d (upd (Z.to_nat i) s (d_charge d)).

(** assign_charge_state with UPDATE_CHARGE_INDEX, the default (:572-584). *)
Definition assign_charge_state (d : cds) (c : coord) (s : cs) : cds := to_index (assign_charge_state_keep d c s).

(** assign_charge_state_by_index with KEEP_CHARGE_INDEX (:591-601). *)
Definition assign_by_index (d : cds) (i : Z) (s : cs) : cds :=
  if (0 <=? i) && (i <? Z.of_nat (length (d_charge d)))
  then set_charge d (upd (Z.to_nat i) s (d_charge d))
  else set_ub d true.

(** assign_all_charge_states with UPDATE_CHARGE_INDEX, the default (:608-619). *)
Definition assign_all_charge_states (d : cds) (s : cs) : cds :=
  to_index (set_charge d (map (fun _ => s) (d_charge d))).

(** update_local_internal_potential with NEGLECT (:930-943): local_int_pot starts as local_pot_caused_by_defects, and
    the sum over the row of the potential matrix is added to each of its entries. *)
Definition update_int_neglect (d : cds) : cds :=
  set_int d
    (map (fun i =>
       (nth i (d_defpot d) (Q2Qc 0) + sumq (map (fun j => (pot d i j * qsign d j)%Qc) (indices d)))%Qc)
     (indices d)).

(** The loop over j of lines 953-958 and 966-972: adds [pot_mat[i][j] * diff] to every entry of local_int_pot. *)
Definition add_row (d : cds) (i : nat) (diff : Qc) : cds :=
  set_int d (map (fun j => (nth j (d_int d) (Q2Qc 0) + pot d i j * diff)%Qc) (indices d)).

(** update_local_internal_potential with CONSIDER (:944-975). *)
Definition update_int_consider (d : cds) : cds :=
  if p_base (d_par d) =? 2 then
    let '(first, second) := d_gray d in
    if first =? -1 then d
    else add_row d (Z.to_nat first) (qz (sgn (nth (Z.to_nat first) (d_charge d) NON) - second))
  else
    fold_left (fun d h => add_row d (Z.to_nat (fst h)) (qsign d (Z.to_nat (fst h)) - qz (snd h))%Qc) (d_hist d) d.

(** update_local_external_potential (:981-999). *)
Definition update_ext (d : cds) : cds :=
  fold_left
    (fun d ce =>
       match find_defect (fst ce) (d_defs d) with
       | None =>
         let i := cell_to_index d (fst ce) in
         if i =? -1 then set_ub d true else set_ext d (upd (Z.to_nat i) (snd ce) (d_ext d))
       | Some _ => set_extdef d (ce :: d_extdef d)
       end)
    (d_extmap d)
    (set_extdef (set_ext d (map (fun _ => Q2Qc 0) (d_order d))) []).

(** chargeless_potential_generated_by_defect_at_given_distance (:1836-1847) times the charge of the defect at [c2], at
    the position [c1]. *)
Definition defect_pot (c1 c2 : coord) (f : defect) : Qc :=
  (phi (df_eps f) (df_lambda f) c1 c2 * qz (df_charge f))%Qc.

(** update_local_defect_potential (:1004-1029). *)
Definition update_defect_pot (d : cds) : cds :=
  set_intdef d
    (map (fun cf1 =>
       (fst cf1,
        (sumq (map (fun cf2 => defect_pot (fst cf1) (fst cf2) (snd cf2)) (d_defs d)) +
         sumq (map (fun i => (phi (p_eps (d_par d)) (p_lambda (d_par d)) (fst cf1) (nth i (d_order d) dead0) *
                              qsign d i)%Qc) (indices d)))%Qc))
     (d_defs d)).

(** recompute_electrostatic_potential_energy (:1191-1227). *)
Definition recompute_energy (d : cds) : cds :=
  match d_eng d with
  | QUICKSIM =>
    set_energy d (half * sumq (map (fun i => (nth i (d_int d) (Q2Qc 0) * qsign d i)%Qc) (indices d)))%Qc
  | _ =>
    let d := update_defect_pot (update_ext d) in
    let ext := (sumq (map (fun i => (nth i (d_ext d) (Q2Qc 0) * qsign d i)%Qc) (indices d)) +
                sumq (map (fun cf => (lookup_pot (fst cf) (d_extdef d) * qz (df_charge (snd cf)))%Qc) (d_defs d)))%Qc in
    let int := (sumq (map (fun i => (nth i (d_int d) (Q2Qc 0) * qsign d i)%Qc) (indices d)) +
                sumq (map (fun cf => (lookup_pot (fst cf) (d_intdef d) * qz (df_charge (snd cf)))%Qc) (d_defs d)))%Qc in
    set_energy d (ext + half * int)%Qc
  end.

(** The lambda hop_del of is_configuration_stable (:1272-1277). *)
Definition hop_del (d : cds) (i j : nat) : Qc :=
  (nth i (d_ext d) (Q2Qc 0) - nth j (d_ext d) (Q2Qc 0) +
   half * (nth i (d_int d) (Q2Qc 0) - nth j (d_int d) (Q2Qc 0) - pot d i j))%Qc.

(** is_configuration_stable (:1270-1304). *)
Definition is_configuration_stable (d : cds) : bool :=
  forallb (fun i =>
    cs_eqb (nth i (d_charge d) NON) POS ||
    forallb (fun j =>
      (sgn (nth j (d_charge d) NON) <=? sgn (nth i (d_charge d) NON)) ||
      negb (qltb (hop_del d i j) (- margin)%Qc)) (indices d)) (indices d).

(** The condition of the loop of validity_check (:1314-1325). *)
Definition population_stable_at (d : cds) (i : nat) : bool :=
  match nth i (d_charge d) NON with
  | NEG => qltb (minus_int d i) (negative_upper d i)
  | POS => qltb (positive_lower d i) (minus_int d i)
  | NEU => qltb (neutral_lower d i) (minus_int d i) && qltb (minus_int d i) (neutral_upper d i)
  | NON => false
  end.

(** validity_check (:1309-1337). *)
Definition validity_check (d : cds) : cds :=
  set_valid d (forallb (population_stable_at d) (indices d) && is_configuration_stable d).

(** The change of the dependent cell to the charge state [s] (:1943-1956, :1966-1980 and :1985-1998). *)
Definition switch_dependent (d : cds) (s : cs) : cds :=
  let di := Z.to_nat (d_depi d) in
  if cs_eqb (nth di (d_charge d) NON) s then d
  else
    let diff := qz (- sgn (nth di (d_charge d) NON) + sgn s) in
    set_charge
      (set_int d
        (map (fun i => if Nat.eqb i di then nth i (d_int d) (Q2Qc 0)
                       else (nth i (d_int d) (Q2Qc 0) + pot d i di * diff)%Qc) (indices d)))
      (upd di s (d_charge d)).

(** update_charge_state_of_dependent_cell (:1934-2001). *)
Definition update_dependent (d : cds) : cds :=
  if is_dead (d_dep d) then d
  else
    let di := Z.to_nat (d_depi d) in
    if qltb (minus_int d di) (negative_upper d di) then switch_dependent d NEG
    else if qltb (positive_lower d di) (minus_int d di) then
      if (d_base d =? 3) || negb (match d_three d with [] => true | _ => false end)
      then switch_dependent d POS else d
    else switch_dependent d NEU.

(** update_after_charge_change (:1248-1263); [var]: VARIABLE, [en]: UPDATE_ENERGY, [hist]: CONSIDER. *)
Definition update_after_charge_change (d : cds) (var en hist : bool) : cds :=
  let d := if hist then update_int_consider d else update_int_neglect d in
  let d := if var then update_dependent d else d in
  let d := if en then recompute_energy d else d in
  validity_check d.

(** The foreach_cell loop of add_sidb_defect_to_potential_landscape (:674-685, :689-702) and erase_defect (:719-728):
    adds [f c1] to the two potentials of every SiDB c1. *)
Definition shift_pots (d : cds) (f : coord -> Qc) : cds :=
  set_int
    (set_defpot d (map (fun i => (nth i (d_defpot d) (Q2Qc 0) + f (nth i (d_order d) dead0))%Qc) (indices d)))
    (map (fun i => (nth i (d_int d) (Q2Qc 0) + f (nth i (d_order d) dead0))%Qc) (indices d)).

(** add_sidb_defect_to_potential_landscape (:661-707). *)
Definition add_defect (d : cds) (c : coord) (f : defect) : cds :=
  if negb (is_charged_defect f) || negb (cell_to_index d c =? -1) then d
  else
    match find_defect c (d_defs d) with
    | None => shift_pots (set_defs d (d_defs d ++ [(c, f)])) (fun c1 => defect_pot c1 c f)
    | Some g =>
      let d := shift_pots d (fun c1 => (defect_pot c1 c f - defect_pot c1 c g)%Qc) in
      set_defs d (filter (fun cf => negb (coord_eqb (fst cf) c)) (d_defs d) ++ [(c, f)])
    end.

(** erase_defect (:712-733). *)
Definition erase_defect (d : cds) (c : coord) : cds :=
  match find_defect c (d_defs d) with
  | None => d
  | Some g =>
    let d := shift_pots d (fun c1 => (- defect_pot c1 c g)%Qc) in
    update_defect_pot (set_defs d (filter (fun cf => negb (coord_eqb (fst cf) c)) (d_defs d)))
  end.

(** initialize (:2208-2244) on a fresh storage with the given parameters, in the configuration
    CHARGE_LOCATION_AND_ELECTROSTATIC; also the constructor from a layout (:375-386). *)
Definition new_surface (l : layout) (p : params) (s : cs) : cds :=
  let n := Z.of_nat (length (l_cells l)) in
  let d := mkD EXGS p [] (sort_cells (k_ltb k) (l_cells l)) [] (map (fun _ => s) (l_cells l)) [] [] [] [] [] [] []
               (Q2Qc 0) false 0 0 0 (p_base p ^ n - 1) 0 (0, 0) [] [] dead0 0 [] false false in
  let d := to_index d in
  let d := initialize_potential_matrix d in
  let d := set_defpot d (map (fun _ => Q2Qc 0) (l_cells l)) in
  let d := update_int_neglect d in
  let d := fold_left (fun d cf => add_defect d (fst cf) (snd cf)) (l_defects l) d in
  validity_check (determine_thresholds (recompute_energy d)).

(** assign_physical_parameters (:519-530). *)
Definition assign_physical_parameters (d : cds) (p : params) : cds :=
  let d := set_base (set_par d p) (p_base p) in
  let d := set_max d (p_base p ^ num_cells d - 1) in
  validity_check (determine_thresholds (recompute_energy (update_int_neglect (initialize_potential_matrix d)))).

(** assign_dependent_cell (:628-635). *)
Definition assign_dependent_cell (d : cds) (c : coord) : cds :=
  set_depi (set_max (set_dep d c) (p_base (d_par d) ^ (num_cells d - 1) - 1)) (cell_to_index d c).

(** assign_base_number (:641-654). *)
Definition assign_base_number (d : cds) (b : Z) : cds :=
  let d := set_base (set_par d (with_base (d_par d) b)) b in
  if negb (is_dead (d_dep d)) then set_max d (b ^ (num_cells d - 1) - 1) else set_max d (b ^ num_cells d - 1).

(** negative_sidb_detection (:779-799). *)
Definition negative_sidb_detection (d : cds) : list nat :=
  filter (fun i =>
    qltb (- (nth i (d_int d) (Q2Qc 0) + nth i (d_ext d) (Q2Qc 0)) + p_mu (d_par d))%Qc (- margin)%Qc) (indices d).

(** assign_global_external_potential (:1855-1869). *)
Definition assign_global_external_potential (d : cds) (v : Qc) : cds :=
  if Qc_eq_bool v (Q2Qc 0) then d
  else
    let d := set_extmap d (fold_left (fun m c => add_pot c v m) (d_order d) (d_extmap d)) in
    determine_thresholds (update_ext d).

(** assign_local_external_potential (:1876-1889). *)
Definition assign_local_external_potential (d : cds) (m : list (coord * Qc)) : cds :=
  let d := set_extmap d (fold_left (fun m ce => add_pot (fst ce) (snd ce) m) m (d_extmap d)) in
  match m with [] => d | _ => determine_thresholds (update_ext d) end.

(** reset_local_external_potentials (:1904-1910). *)
Definition reset_local_external_potentials (d : cds) : cds :=
  determine_thresholds (update_ext (set_extmap d [])).

(** The while loop of index_to_charge_distribution (:2429-2450); returns the final value of counter as well. A loop on
    a 64-bit number runs at most 64 times for a base of at least 2. *)
Fixpoint digits_loop (fuel : nat) (base dep quot counter : Z) (d : cds) : cds * Z :=
  match fuel with
  | O => (set_ub d true, counter)
  | S fuel =>
    if 0 <? quot then
      let s := of_sign (quot mod base - 1) in
      let counter := if (0 <=? dep) && (counter =? dep) then counter - 1 else counter in
      digits_loop fuel base dep (quot / base) (counter - 1) (assign_by_index d counter s)
    else (d, counter)
  end.

(** index_to_charge_distribution (:2411-2462); [ignore]: IGNORE_LEADING_ZEROES. *)
Definition index_to_charge_distribution (d : cds) (ignore : bool) : cds :=
  if d_idx d =? 0 then assign_all_charge_states d NEG
  else
    let '(d, counter) :=
      digits_loop 65 (d_base d) (cell_to_index d (d_dep d)) (d_idx d) (num_cells d - 1) d in
    if ignore then d
    else fold_left (fun d i => assign_by_index d (Z.of_nat i) NEG) (seq 0 (Z.to_nat (counter + 1))) d.

(** The two while loops of index_to_charge_distribution_for_quickexact_simulation (:2345-2366 and :2375-2402): the
    digits of [quot] are assigned to the cells of [l] from position [counter] downwards, skipping the position [skip],
    and the changes are recorded. *)
Fixpoint history_loop (fuel : nat) (base : Z) (l : list coord) (skip : option Z) (quot counter : Z) (d : cds) : cds :=
  match fuel with
  | O => set_ub d true
  | S fuel =>
    if 0 <? quot then
      let counter := match skip with Some s => if counter =? s then counter - 1 else counter | None => counter end in
      let s := of_sign (quot mod base - 1) in
      let c := if counter <? 0 then dead0 else nth (Z.to_nat counter) l dead0 in
      let i := cell_to_index d c in
      let old := get_charge_state_by_index d i in
      let d := if cs_eqb old s then d
               else assign_by_index (set_hist d (d_hist d ++ [(i, sgn old)])) i s in
      history_loop fuel base l skip (quot / base) (counter - 1) d
    else d
  end.

(** index_to_charge_distribution_for_quickexact_simulation (:2316-2403). *)
Definition index_to_charge_distribution_quickexact (d : cds) : cds :=
  let d := set_hist d [] in
  let d := if d_sub d =? 0
           then fold_left (fun d c => assign_charge_state_keep d c NEG) (d_three d) d else d in
  let d := if d_idx d =? 0
           then fold_left (fun d c => assign_charge_state_keep d c NEG) (d_two d) d else d in
  let d := history_loop 65 3 (d_three d) None (d_sub d) (Z.of_nat (length (d_three d)) - 1) d in
  history_loop 65 (d_base d) (d_two d) (Some (index_in (d_dep d) (d_two d))) (d_idx d)
               (Z.of_nat (length (d_two d)) - 1) d.

(** increase_charge_index_by_one (:1495-1515). *)
Definition increase_charge_index_by_one (d : cds) (var en hist : bool) : cds :=
  if d_max d <=? d_idx d then d
  else
    let d := set_idx d (d_idx d + 1) in
    let d := match d_eng d with
             | QUICKEXACT => index_to_charge_distribution_quickexact d
             | _ => index_to_charge_distribution d true
             end in
    update_after_charge_change d var en hist.

(** assign_charge_index with UPDATE_CHARGE_DISTRIBUTION, the default (:1532-1543). *)
Definition assign_charge_index (d : cds) (i : Z) : cds := index_to_charge_distribution (set_idx d i) false.

(** assign_base_number_to_three (:2252-2276). *)
Definition assign_base_number_to_three (d : cds) : cds :=
  let d := set_base (set_par d (with_base (d_par d) 3)) 2 in
  let nt := Z.of_nat (length (d_three d)) in
  let d :=
    if negb (is_dead (d_dep d)) then
      match d_three d with
      | [] => d
      | _ => set_maxsub (set_max d (2 ^ (num_cells d - 1 - nt) - 1)) (3 ^ nt - 1)
      end
    else set_maxsub (set_max d (3 ^ num_cells d - 1)) (3 ^ nt - 1) in
  if d_max d =? 0 then assign_charge_index d 0 else d.

(** is_three_state_simulation_required (:1622-1679). *)
Definition is_three_state_simulation_required (d : cds) : cds * bool :=
  let d := update_after_charge_change d false true false in
  let reach := filter (fun i => negb (qltb (minus_int d i) (positive_lower d i))) (indices d) in
  let cells := map (fun i => nth i (d_order d) dead0) reach in
  let d := set_depsub d (existsb (fun c => coord_eqb c (d_dep d)) cells) in
  let three := filter (fun c => negb (coord_eqb c (d_dep d))) cells in
  let d := set_three d (sort_cells (k_ltb k) three) in
  let d := set_two d (sort_cells (k_ltb k)
             (filter (fun c => (index_in c (d_three d) =? -1) && negb (coord_eqb c (d_dep d))) (d_order d))) in
  match three with
  | [] => (d, false)
  | _ => (assign_base_number_to_three d, true)
  end.

(** increase_charge_index_of_sub_layout_by_one (:2074-2094). *)
Definition increase_sub_index_by_one (d : cds) (var en hist : bool) : cds :=
  if d_maxsub d <=? d_sub d then d
  else
    let d := set_sub d (d_sub d + 1) in
    let d := match d_eng d with
             | QUICKEXACT => index_to_charge_distribution_quickexact d
             | _ => index_to_charge_distribution d true
             end in
    update_after_charge_change d var en hist.

(** reset_charge_index_sub_layout (:2123-2136). *)
Definition reset_sub_index (d : cds) : cds :=
  let d := set_sub d 0 in
  let d := match d_eng d with
           | QUICKEXACT => index_to_charge_distribution_quickexact d
           | _ => index_to_charge_distribution d false
           end in
  update_after_charge_change d true false true.

(** The while loop of charge_index_gray_code_to_charge_distribution (:2034-2037): the position of the lowest bit set. *)
Fixpoint lowest_bit (fuel : nat) (diff i : Z) : Z :=
  match fuel with
  | O => i
  | S fuel => if (i <? 64) && negb (Z.testbit diff i) then lowest_bit fuel diff (i + 1) else i
  end.

(** charge_index_gray_code_to_charge_distribution (:2018-2062). *)
Definition gray_code_to_charge_distribution (d : cds) (new old : Z) : cds :=
  let diff := Z.lxor new old in
  if diff =? 0 then set_gray d (-1, 0)
  else
    let i := lowest_bit 64 diff 0 in
    let sign_old := - b2z (Z.testbit old i) in
    let sign_new := - b2z (Z.testbit new i) in
    let cell := if i <? d_depi d then i else i + 1 in
    assign_by_index (set_gray d (cell, sign_old)) cell (of_sign sign_new).

(** assign_charge_index_by_gray_code (:2108-2119) with assign_charge_index_by_two_gray_codes (:2153-2157). *)
Definition assign_charge_index_by_gray_code (d : cds) (new old : Z) (var en hist : bool) : cds :=
  if new <=? d_max d then
    update_after_charge_change (gray_code_to_charge_distribution (set_idx d new) new old) var en hist
  else d.

(** adjacent_search (:1553-1612) after its random choice: an SiDB with the index [i] becomes negatively charged. *)
Definition place_electron (d : cds) (i : nat) : cds :=
  let d := set_charge d (upd i NEG (d_charge d)) in
  let d := set_energy d (d_energy d - nth i (d_int d) (Q2Qc 0))%Qc in
  set_int d (map (fun j => (nth j (d_int d) (Q2Qc 0) - pot d j i)%Qc) (indices d)).

(** The loop of exhaustive_ground_state_simulation (exhaustive_ground_state_simulation.hpp:63-76). The flag tells that
    the loop has been cut off. *)
Fixpoint exgs_loop (fuel : nat) (d : cds) (res : list cds) : list cds * bool :=
  if d_idx d <? d_max d then
    match fuel with
    | O => (res, true)
    | S fuel =>
      let res := if d_valid d then res ++ [d] else res in
      exgs_loop fuel (increase_charge_index_by_one d false true false) res
    end
  else (if d_valid d then res ++ [d] else res, d_ub d).

(** exhaustive_ground_state_simulation (exhaustive_ground_state_simulation.hpp:37-81): the charge distributions of the
    result and whether undefined behaviour has been met. *)
Definition exgs (l : layout) (p : params) : list cds * bool :=
  match l_cells l with
  | [] => ([], false)
  | _ =>
    let d := new_surface l default_params NEG in
    let d := assign_physical_parameters (set_eng d EXGS) p in
    let d := update_after_charge_change (assign_all_charge_states d NEG) false true false in
    exgs_loop (Z.to_nat (d_max d)) d []
  end.

(** quickexact_params (quickexact.hpp:34-68); [qe_auto]: base_number_detection is ON. *)
Record qe_params := mkQ { qe_par : params; qe_auto : bool; qe_local : list (coord * Qc); qe_global : Qc }.

(** The charge distribution that is added to the result (quickexact.hpp:321-332 and the same lines in
    three_state_simulation). *)
Definition record_result (charge_lyt charge_layout : cds) : cds :=
  to_index_general
    (update_after_charge_change
      (fold_left (fun d c => assign_charge_state_keep d c (get_charge_state charge_layout c))
                 (d_order charge_layout) charge_lyt) false true false).

(** "if (charge_layout.is_physically_valid())" and the lines that follow it. *)
Definition record_if_valid (charge_lyt d : cds) (res : list cds) : list cds :=
  if d_valid d then res ++ [record_result charge_lyt d] else res.

(** two_state_simulation (quickexact.hpp:300-334). *)
Definition two_state_simulation (charge_lyt d : cds) : list cds * bool :=
  let d := assign_base_number d 2 in
  let '(d, _, res) :=
    fold_left
      (fun (st : cds * Z * list cds) (i : nat) =>
         let '(d, prev, res) := st in
         let g := gray_deref (gray_new (Z.of_nat i)) in
         let d := assign_charge_index_by_gray_code d g prev true false true in
         (d, g, record_if_valid charge_lyt d res))
      (seq 0 (Z.to_nat (d_max d + 1))) (d, 0, []) in
  (res, d_ub d).

(** The loops over the sub layout (quickexact.hpp:364-403 and 418-455). *)
Fixpoint sub_loop (fuel : nat) (charge_lyt d : cds) (res : list cds) : cds * list cds :=
  if d_sub d <? d_maxsub d then
    match fuel with
    | O => (set_ub d true, res)
    | S fuel => sub_loop fuel charge_lyt (increase_sub_index_by_one d true false true) (record_if_valid charge_lyt d res)
    end
  else (d, record_if_valid charge_lyt d res).

(** The loop over the charge index (quickexact.hpp:362-415). *)
Fixpoint main_loop (fuel : nat) (charge_lyt d : cds) (res : list cds) : cds * list cds :=
  if d_idx d <? d_max d then
    match fuel with
    | O => (set_ub d true, res)
    | S fuel =>
      let '(d, res) := sub_loop (Z.to_nat (d_maxsub d)) charge_lyt d res in
      let d := if d_maxsub d =? 0 then d else reset_sub_index d in
      main_loop fuel charge_lyt (increase_charge_index_by_one d true false false) res
    end
  else (d, res).

(** three_state_simulation (quickexact.hpp:349-455). *)
Definition three_state_simulation (charge_lyt d : cds) : list cds * bool :=
  let d := update_after_charge_change (assign_all_charge_states d NEG) false true false in
  let d := fst (is_three_state_simulation_required d) in
  let d := update_after_charge_change d true true false in
  let '(d, res) := main_loop (Z.to_nat (d_max d)) charge_lyt d [] in
  let '(d, res) := sub_loop (Z.to_nat (d_maxsub d)) charge_lyt d res in
  (res, d_ub d).

(** conduct_simulation (quickexact.hpp:228-291) on the layout without the pre-assigned SiDBs [pre], whose first SiDB is
    [dep]; [three]: base number THREE. *)
Definition conduct_simulation (q : qe_params) (charge_lyt : cds) (l : layout) (pre : list coord) (dep : coord)
    (three : bool) : list cds * bool :=
  let charge_lyt := assign_base_number charge_lyt (if three then 3 else 2) in
  let p := qe_par q in
  let d := set_eng (new_surface l default_params NEG) QUICKEXACT in
  let d := assign_physical_parameters d p in
  let d := update_after_charge_change (assign_all_charge_states d NEU) false true false in
  let d := assign_dependent_cell d dep in
  let d := assign_global_external_potential (assign_local_external_potential d (qe_local q)) (qe_global q) in
  let d := fold_left (fun d c => add_defect d c (mkDf false (-1) (p_eps (d_par d)) (p_lambda (d_par d)))) pre d in
  let d := update_after_charge_change d true true false in
  if three then three_state_simulation charge_lyt d else two_state_simulation charge_lyt d.

(** The loop for a single SiDB (quickexact.hpp:143-159). *)
Fixpoint single_loop (fuel : nat) (d : cds) (res : list cds) : list cds * bool :=
  if d_idx d <? d_max d then
    match fuel with
    | O => (res, true)
    | S fuel =>
      let res := if d_valid d then res ++ [d] else res in
      single_loop fuel (increase_charge_index_by_one d true true false) res
    end
  else (if d_valid d then res ++ [d] else res, d_ub d).

(** quickexact (quickexact.hpp:77-171, 475-521 and 561-570). *)
Definition quickexact (l : layout) (q : qe_params) : list cds * bool :=
  let p := qe_par q in
  let d := new_surface l default_params NEG in
  let d := assign_physical_parameters (assign_all_charge_states d NEG) p in
  let d := assign_global_external_potential (assign_local_external_potential d (qe_local q)) (qe_global q) in
  let pre := map (fun i => nth i (d_order d) dead0) (negative_sidb_detection d) in
  let order := d_order d in
  let '(d, three) :=
    if qe_auto q then is_three_state_simulation_required d else (d, p_base p =? 3) in
  match l_cells l with
  | [] => ([], d_ub d)
  | [_] =>
    let d := assign_base_number d (if three then 3 else 2) in
    single_loop (Z.to_nat (d_max d)) d []
  | _ =>
    match filter (fun c => index_in c pre =? -1) order with
    | [] => ([d], d_ub d)
    | dep :: _ =>
      let '(res, ub) :=
        conduct_simulation q d (mkL (filter (fun c => index_in c pre =? -1) (l_cells l)) (l_defects l)) pre dep three in
      (res, ub || d_ub d)
    end
  end.

End Surface.
