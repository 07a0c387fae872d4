(** What a charge distribution of a layout of silicon dangling bonds (SiDBs) is, which charge distributions are physically
    valid, what their energy is and how they are numbered. Nothing here refers to the way the code computes these things;
    only the data types (positions, charge states, parameters, defects, layouts) are those of SidbModel.v. *)
From Coq Require Import ZArith QArith Qcanon Bool List.
From Verif Require Import CoordModel SidbModel.
Import ListNotations.
Local Open Scope Qc_scope.

(** The charge of an SiDB in units of the elementary charge. *)
Definition charge (s : cs) : Qc := match s with NEG => - (1) | POS => 1 | _ => 0 end.

(** The sum of [F] over the elements of a list. *)
Definition total {A} (F : A -> Qc) (l : list A) : Qc := fold_right (fun x acc => F x + acc) 0 l.

(** The sum of [F] over all unordered pairs of elements of a list. *)
Fixpoint total_pairs {A} (F : A -> A -> Qc) (l : list A) : Qc :=
  match l with
  | [] => 0
  | x :: r => total (F x) r + total_pairs F r
  end.

(** Charge states that a simulation with the given base number may assign. *)
Definition allowed (base : Z) (s : cs) : Prop :=
  match s with NEG | NEU => True | POS => base = 3%Z | NON => False end.

(** A charge distribution assigns a charge state to every SiDB of the layout. *)
Definition distribution := coord -> cs.

Section Physics.
(** [phi e l a b]: potential at [a] of a positive elementary charge at [b] in a medium with the relative permittivity [e]
    and the screening length [l]; [p]: simulation parameters; [cells]: the SiDBs; [defects]: the atomic defects; [ext]:
    the external electrostatic potential. *)
Context (phi : Qc -> Qc -> coord -> coord -> Qc) (p : params) (cells : list coord) (defects : list (coord * defect))
        (ext : coord -> Qc).

(** Potential at [a] of a unit charge at [b]. *)
Definition coulomb (a b : coord) : Qc := phi (p_eps p) (p_lambda p) a b.

(** Potential at [a] of all defects. *)
Definition defect_field (a : coord) : Qc :=
  total (fun cf => phi (df_eps (snd cf)) (df_lambda (snd cf)) a (fst cf) * qz (df_charge (snd cf))) defects.

(** Potential at the position [a] that the SiDBs and the defects generate. *)
Definition potential (f : distribution) (a : coord) : Qc :=
  defect_field a + total (fun b => coulomb a b * charge (f b)) cells.

(** The electrostatic energy of the SiDBs: their mutual interaction and their interaction with defects and external
    potential. *)
Definition energy (f : distribution) : Qc :=
  total_pairs (fun a b => coulomb a b * charge (f a) * charge (f b)) cells +
  total (fun a => (defect_field a + ext a) * charge (f a)) cells.

(** Population stability: the charge state of an SiDB is consistent with the position of its charge transition levels,
    shifted by the local potential, relative to the Fermi level. *)
Definition population_stable (f : distribution) (a : coord) : Prop :=
  let v := potential f a + ext a in
  match f a with
  | NEG => p_mu p - v < margin
  | NEU => - margin < p_mu p - v /\ mu_plus p - v < margin
  | POS => - margin < mu_plus p - v
  | NON => False
  end.

(** An electron leaves the SiDB [a] and arrives at the SiDB [b]. *)
Definition raised (s : cs) : cs := match s with NEG => NEU | NEU => POS | _ => s end.
Definition lowered (s : cs) : cs := match s with POS => NEU | NEU => NEG | _ => s end.
Definition hop (a b : coord) (f : distribution) : distribution :=
  fun c => if coord_eqb c a then raised (f c) else if coord_eqb c b then lowered (f c) else f c.

(** Configuration stability: no hop of one electron to a less negatively charged SiDB lowers the energy (by more than the
    numerical tolerance). *)
Definition configuration_stable (f : distribution) : Prop :=
  forall a b, In a cells -> In b cells -> charge (f a) < charge (f b) ->
    - (margin + margin) <= energy (hop a b f) - energy f.

(** A physically valid charge distribution is stable in both senses. *)
Definition physically_valid (f : distribution) : Prop :=
  (forall a, In a cells -> population_stable f a) /\ configuration_stable f.

End Physics.

(** The number of a charge distribution: the charges, increased by one, of the SiDBs are the digits of the number, first
    SiDB first. *)
Definition digit (s : cs) : Z := match s with NEG => 0 | NEU => 1 | POS => 2 | NON => 1 end.
Fixpoint number_from (base acc : Z) (l : list cs) : Z :=
  match l with
  | [] => acc
  | s :: r => number_from base (acc * base + digit s) r
  end.
Definition number (base : Z) (l : list cs) : Z := number_from base 0 l.

(** The surface [d] holds the distribution [f] on the given SiDBs. *)
Definition holds (cells : list coord) (d : cds) (f : distribution) : Prop :=
  forall c, In c cells -> get_charge_state d c = f c.

(** ** Histories of calls on a charge distribution surface *)

(** What a user has told the surface: simulation parameters, charged defects, external potential and charge states;
    [c_current]: the charge states have been assigned under the present base number, so that the charge index is theirs. *)
Record conf := mkConf {
  c_params : params; c_defects : list (coord * defect); c_ext : coord -> Qc; c_dist : distribution; c_current : bool
}.

(** The calls. *)
Inductive op :=
| OAssign (c : coord) (s : cs)
| OAssignAll (s : cs)
| OIndex (i : Z)
| ONext
| OParams (p : params)
| OAddDefect (c : coord) (g : defect)
| OEraseDefect (c : coord)
| OGlobal (v : Qc)
| OLocal (m : list (coord * Qc))
| OReset
| OUpdate (energy : bool).

(** The external potential that a list of assignments adds at [c]. *)
Definition added (m : list (coord * Qc)) (c : coord) : Qc := total (fun ce => if coord_eqb (fst ce) c then snd ce else 0) m.

Definition on (c : coord) (l : list coord) : bool := existsb (fun x => coord_eqb x c) l.
Definition without (c : coord) (m : list (coord * defect)) : list (coord * defect) :=
  filter (fun cf => negb (coord_eqb (fst cf) c)) m.

(** The effect of a call on a surface with the given SiDBs; calls outside this relation are misuse: base numbers other than
    2 and 3, charge indices that are too large, stepping from a charge index that is not current, external potentials at
    positions without SiDB. *)
Inductive step (cells : list coord) (A : conf) : op -> conf -> Prop :=
| s_assign c s : s <> NON ->
    step cells A (OAssign c s)
      (mkConf (c_params A) (c_defects A) (c_ext A)
              (fun x => if coord_eqb x c then s else c_dist A x) true)
| s_all s : s <> NON ->
    step cells A (OAssignAll s) (mkConf (c_params A) (c_defects A) (c_ext A) (fun _ => s) true)
| s_index i f : (forall c, In c cells -> allowed (p_base (c_params A)) (f c)) -> number (p_base (c_params A)) (map f cells) = i ->
    step cells A (OIndex i) (mkConf (c_params A) (c_defects A) (c_ext A) f true)
| s_next f : c_current A = true -> (forall c, In c cells -> allowed (p_base (c_params A)) (c_dist A c)) ->
    (forall c, In c cells -> allowed (p_base (c_params A)) (f c)) ->
    number (p_base (c_params A)) (map f cells) = (number (p_base (c_params A)) (map (c_dist A) cells) + 1)%Z ->
    step cells A ONext (mkConf (c_params A) (c_defects A) (c_ext A) f true)
| s_params p : p_base p = 2%Z \/ p_base p = 3%Z ->
    step cells A (OParams p)
      (mkConf p (c_defects A) (c_ext A) (c_dist A) (c_current A && Z.eqb (p_base p) (p_base (c_params A))))
| s_add c g :
    step cells A (OAddDefect c g)
      (mkConf (c_params A) (if is_charged_defect g && negb (on c cells) then without c (c_defects A) ++ [(c, g)] else c_defects A)
              (c_ext A) (c_dist A) (c_current A))
| s_erase c :
    step cells A (OEraseDefect c)
      (mkConf (c_params A) (without c (c_defects A)) (c_ext A) (c_dist A) (c_current A))
| s_global v :
    step cells A (OGlobal v)
      (mkConf (c_params A) (c_defects A) (fun c => c_ext A c + v) (c_dist A) (c_current A))
| s_local m : (forall c, In c (map fst m) -> In c cells) ->
    step cells A (OLocal m)
      (mkConf (c_params A) (c_defects A) (fun c => c_ext A c + added m c) (c_dist A) (c_current A))
| s_reset : step cells A OReset (mkConf (c_params A) (c_defects A) (fun _ => 0) (c_dist A) (c_current A))
| s_update e : step cells A (OUpdate e) A.

(** The same calls on the model. *)
Definition exec (phi : Qc -> Qc -> coord -> coord -> Qc) (d : cds) (o : op) : cds :=
  match o with
  | OAssign c s => assign_charge_state d c s
  | OAssignAll s => assign_all_charge_states d s
  | OIndex i => assign_charge_index d i
  | ONext => increase_charge_index_by_one phi d false true false
  | OParams p => assign_physical_parameters phi d p
  | OAddDefect c g => add_defect phi d c g
  | OEraseDefect c => erase_defect phi d c
  | OGlobal v => assign_global_external_potential d v
  | OLocal m => assign_local_external_potential d m
  | OReset => reset_local_external_potentials d
  | OUpdate e => update_after_charge_change phi d false e false
  end.

(** Layouts: no position holds two SiDBs, two defects, or an SiDB and a defect; positions are proper ones. *)
Record proper_layout (l : layout) : Prop := mkProper {
  pl_cells : NoDup (l_cells l);
  pl_live : Forall (fun c => is_dead c = false) (l_cells l);
  pl_defects : NoDup (map fst (l_defects l));
  pl_apart : forall c, In c (map fst (l_defects l)) -> ~ In c (l_cells l)
}.

(** [tracked phi k l d A]: the surface [d] has been created from the layout [l] and then been subject to calls; [A] is what
    these calls amount to. The SiDBs are numbered in the order of their positions. *)
Inductive tracked (phi : Qc -> Qc -> coord -> coord -> Qc) (k : kind) (l : layout) : cds -> conf -> Prop :=
| t_new p s : p_base p = 2%Z \/ p_base p = 3%Z -> s <> NON ->
    tracked phi k l (new_surface phi k l p s)
            (mkConf p (filter (fun cf => is_charged_defect (snd cf)) (l_defects l)) (fun _ => 0) (fun _ => s) true)
| t_call d A o A' : tracked phi k l d A -> step (sort_cells (k_ltb k) (l_cells l)) A o A' -> tracked phi k l (exec phi d o) A'.
