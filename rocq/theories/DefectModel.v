(** Model of include/fiction/technology/sidb_defects.hpp, of include/fiction/technology/sidb_defect_surface.hpp and of
    include/fiction/technology/sidb_surface_analysis.hpp.

    Simplifications. Relative permittivity and screening distance are rational numbers. The arithmetic on signed coordinates is exact.
    Hash maps and sets are finite maps and lists. *)
From Coq Require Import ZArith QArith Bool List.
From stdpp Require Import gmap list.
From Verif Require Import CoordModel GridModel CoordMap ClockModel GateModel CellModel RouteModel LibModel.
Import List ListNotations.
Local Open Scope Z_scope.

(** ** Defects *)

(** sidb_defects.hpp:24-91, sidb_defect_type *)
Inductive defect_type := DNone | DB | SiVacancy | SingleDihydride | DihydridePair | OneByOne | ThreeByOne | Siloxane | RaisedSi
  | MissingDimer | EtchPit | StepEdge | Gunk | Arsenic | DUnknown.
Global Instance defect_type_eq_dec : EqDecision defect_type.
Proof. solve_decision. Defined.
Definition type_eqb (a b : defect_type) : bool := bool_decide (a = b).
(** sidb_defects.hpp:101-141, sidb_defect *)
Record sdefect := mkSD { sd_type : defect_type; sd_charge : Z; sd_eps : Q; sd_lambda : Q }.
(** sidb_defects.hpp:106-108: the defaults of the constructor. *)
Definition of_type (t : defect_type) : sdefect := mkSD t 0 0%Q 0%Q.
(** sidb_defects.hpp:150-154 *)
Definition is_charged_defect_type (d : sdefect) : bool :=
  negb (sd_charge d =? 0) || type_eqb (sd_type d) DB || type_eqb (sd_type d) SiVacancy || type_eqb (sd_type d) Arsenic.
(** sidb_defects.hpp:163-166 *)
Definition is_neutral_defect_type (d : sdefect) : bool := negb (type_eqb (sd_type d) DNone) && negb (is_charged_defect_type d).
(** sidb_defects.hpp:174-199 *)
Definition is_positively_charged_defect (d : sdefect) : bool := 0 <? sd_charge d.
Definition is_negatively_charged_defect (d : sdefect) : bool := sd_charge d <? 0.
Definition is_neutrally_charged_defect (d : sdefect) : bool := sd_charge d =? 0.
(** sidb_defects.hpp:232-257, defect_extent; [co] and [no] are the overwrites for charged and neutral defects. *)
Definition defect_extent (d : sdefect) (co no : option (Z * Z)) : Z * Z :=
  if is_charged_defect_type d then match co with Some e => e | None => (26, 13) end
  else if is_neutral_defect_type d then match no with Some e => e | None => (1, 0) end
  else (0, 0).

(** ** Defect surfaces *)

(** sidb_defect_surface.hpp:61-69: the parameters (types to ignore) and the defects; the layout below by its coordinates and size. *)
Record surface := mkSurf { s_kind : kind; s_dim : coord; s_ignore : list defect_type; s_defects : gmap coord sdefect }.
Definition set_defects (s : surface) (m : gmap coord sdefect) : surface := mkSurf (s_kind s) (s_dim s) (s_ignore s) m.
(** sidb_defect_surface.hpp:87-117, the constructors. *)
Definition new_surface (k : kind) (ar : coord) (ig : list defect_type) : surface := mkSurf k ar ig ∅.
(** sidb_defect_surface.hpp:136-147, assign_sidb_defect *)
Definition assign_sidb_defect (s : surface) (c : coord) (d : sdefect) : surface :=
  let m := delete c (s_defects s) in
  set_defects s
    (if negb (type_eqb (sd_type d) DNone) && negb (existsb (type_eqb (sd_type d)) (s_ignore s)) then <[c := d]> m else m).
(** sidb_defect_surface.hpp:169-177, get_sidb_defect *)
Definition get_sidb_defect (s : surface) (c : coord) : sdefect :=
  match s_defects s !! c with Some d => d | None => of_type DNone end.
(** [insert] of a hash map leaves the value of a key that is already there. *)
Definition map_insert (m : gmap coord sdefect) (c : coord) (d : sdefect) : gmap coord sdefect :=
  match m !! c with Some _ => m | None => <[c := d]> m end.
(** sidb_defect_surface.hpp:154-163, move_sidb_defect *)
Definition move_sidb_defect (s : surface) (src tgt : coord) : surface :=
  let d := get_sidb_defect s src in
  if type_eqb (sd_type d) DNone then s else set_defects s (delete src (map_insert (s_defects s) tgt d)).
(** sidb_defect_surface.hpp:268-273, foreach_sidb_defect *)
Definition foreach_sidb_defect (s : surface) : list (coord * sdefect) := map_to_list (s_defects s).
Definition count_defects (f : sdefect -> bool) (s : surface) : Z :=
  Z.of_nat (List.length (List.filter (fun cd => f (snd cd)) (foreach_sidb_defect s))).
(** sidb_defect_surface.hpp:183-262 *)
Definition num_defects (s : surface) : Z := Z.of_nat (size (s_defects s)).
Definition num_positively_charged_defects (s : surface) : Z := count_defects is_positively_charged_defect s.
Definition num_negatively_charged_defects (s : surface) : Z := count_defects is_negatively_charged_defect s.
Definition num_charged_defects (s : surface) : Z := num_positively_charged_defects s + num_negatively_charged_defects s.
Definition num_neutral_defects (s : surface) : Z := count_defects is_neutral_defect_type s.
(** Coordinates from 64-bit numbers: unsigned fields of 31 bits, or signed integers (exact). *)
Definition to_coordinate (k : kind) (x y z : Z) : coord :=
  match k with Offset => live (w31 x) (w31 y) z | _ => live x y z end.
(** All numbers from [a] to [b]. *)
Definition range (a b : Z) : list Z := map (fun i => a + Z.of_nat i) (seq 0 (Z.to_nat (b - a + 1))).
(** sidb_defect_surface.hpp:287-319, affected_sidbs *)
Definition affected_sidbs (s : surface) (c : coord) (co no : option (Z * Z)) : list coord :=
  let d := get_sidb_defect s c in
  if type_eqb (sd_type d) DNone then [] else
  let '(h, v) := defect_extent d co no in
  List.filter (is_within_bounds (s_dim s))
    (flat_map (fun y => map (fun x => to_coordinate (s_kind s) x y (cz c)) (range (cx c - h) (cx c + h))) (range (cy c - v) (cy c + v))).
(** The overwrites are pairs of 64-bit numbers here, and are converted to pairs of 16-bit numbers in each call. *)
Definition to_16 (o : option (Z * Z)) : option (Z * Z) := option_map (fun e => (fst e mod 2 ^ 16, snd e mod 2 ^ 16)) o.
(** sidb_defect_surface.hpp:333-352, all_affected_sidbs *)
Definition all_affected_sidbs (s : surface) (co no : option (Z * Z)) : list coord :=
  flat_map (fun cd => affected_sidbs s (fst cd) (to_16 co) (to_16 no)) (foreach_sidb_defect s).

(** Calls on a surface. *)
Inductive dop := DAssign (c : coord) (d : sdefect) | DMove (src tgt : coord).
Definition dstep (s : surface) (o : dop) : surface :=
  match o with DAssign c d => assign_sidb_defect s c d | DMove a b => move_sidb_defect s a b end.
Definition drun (s : surface) (ops : list dop) : surface := fold_left dstep ops s.

(** ** Surface analysis *)

Section Analysis.
(** Functions of gates and lists of ports: only compared and copied. *)
Variables F P : Type.
(** get_functional_implementations and get_gate_ports of the library. *)
Variable impls : list (F * list gate).
Variable gate_ports : gate -> option (list P).
(** The sizes of its gates and the tiles they are laid out for. *)
Variables gx gy : Z.
Variable p : plan.

(** sidb_surface_analysis.hpp:102-116: some cell that is not empty (' ') is at an affected position. *)
Definition compromised (aff : list coord) (g : gate) (t : coord) : bool :=
  existsb (fun y => existsb (fun x =>
    negb (cell_at 32 g (Z.to_nat x) (Z.to_nat y) =? 32) &&
    existsb (coord_eqb (relative_to_absolute_cell_position gx gy p t x y)) aff) (range 0 (gx - 1))) (range 0 (gy - 1)).
(** sidb_surface_analysis.hpp:92-142, analyze_gate: what is appended to the black list, in the order of the calls.
    [None]: a gate has no ports ([at] throws inside of noexcept). *)
Fixpoint analyze_gate (aff : list coord) (t : coord) (f : F) (gs : list gate) : option (list (coord * F * P)) :=
  match gs with
  | [] => Some []
  | g :: gs' =>
      match (if compromised aff g t then gate_ports g else Some []), analyze_gate aff t f gs' with
      | Some ps, Some r => Some (map (fun q => (t, f, q)) ps ++ r)
      | _, _ => None
      end
  end.
(** A loop over a list that may end in an exception. *)
Fixpoint collect {A B} (h : A -> option (list B)) (l : list A) : option (list B) :=
  match l with
  | [] => Some []
  | a :: r => match h a, collect h r with Some x, Some y => Some (x ++ y) | _, _ => None end
  end.
(** sidb_surface_analysis.hpp:61-157, sidb_surface_analysis, with the size [ar] of the gate-level layout. *)
Definition sidb_surface_analysis (ar : coord) (s : surface) (co no : option (Z * Z)) : option (list (coord * F * P)) :=
  let aff := all_affected_sidbs s co no in
  match foreach_coordinate Offset (Z.to_nat (volume ar)) ar dead0 dead0 with
  | None => None
  | Some ts => collect (fun t => collect (fun fi => analyze_gate aff t (fst fi) (snd fi)) impls) ts
  end.
End Analysis.
(** The lists of ports at [black_list[t][f]]. *)
Definition black_list {F P} (same : F -> F -> bool) (r : list (coord * F * P)) (t : coord) (f : F) : list P :=
  map snd (List.filter (fun e => coord_eqb (fst (fst e)) t && same (snd (fst e)) f) r).
