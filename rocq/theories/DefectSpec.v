(** Specifications for SiDB defect surfaces and their analysis. *)
From Coq Require Import ZArith QArith Bool List.
From stdpp Require Import gmap.
From Verif Require Import CoordModel CoordSpec GridModel CoordMap LibModel LibSpec DefectModel.
Import List ListNotations.
Local Open Scope Z_scope.

(** ** What a history of calls should leave behind *)

Definition board := coord -> option sdefect.
Definition put (b : board) (c : coord) (o : option sdefect) : board := fun c' => if decide (c' = c) then o else b c'.
(** A defect is shown unless it is none or its type is to be ignored. *)
Definition shown (ig : list defect_type) (d : sdefect) : Prop := sd_type d <> DNone /\ ~ In (sd_type d) ig.
(** Assignments replace, moves take the defect from its source to its target. *)
Inductive wish (ig : list defect_type) (b : board) : dop -> board -> Prop :=
  | w_shown c d : shown ig d -> wish ig b (DAssign c d) (put b c (Some d))
  | w_hidden c d : ~ shown ig d -> wish ig b (DAssign c d) (put b c None)
  | w_idle a t : b a = None -> wish ig b (DMove a t) b
  | w_move a t d : b a = Some d -> wish ig b (DMove a t) (put (put b a None) t (Some d)).
Inductive wishes (ig : list defect_type) : board -> list dop -> board -> Prop :=
  | w_nil b : wishes ig b [] b
  | w_cons b o b' ops b'' : wish ig b o b' -> wishes ig b' ops b'' -> wishes ig b (o :: ops) b''.
(** No defect is moved onto a defect (or onto itself). *)
Definition clear_moves (ig : list defect_type) (ops : list dop) : Prop :=
  forall l a t r b d, ops = l ++ DMove a t :: r -> wishes ig (fun _ => None) l b -> b a = Some d -> b t = None.
(** What the surface tells. *)
Definition tells (s : surface) (b : board) : Prop := forall c, get_sidb_defect s c = match b c with Some d => d | None => of_type DNone end.

(** ** Counting *)

Definition counted (n : Z) (Q : coord -> Prop) : Prop := exists l, List.NoDup l /\ (forall c, In c l <-> Q c) /\ n = Z.of_nat (List.length l).
Definition defective (s : surface) (c : coord) : Prop := sd_type (get_sidb_defect s c) <> DNone.
(** The types that are charged as a rule. *)
Definition charged_type (t : defect_type) : Prop := t = DB \/ t = SiVacancy \/ t = Arsenic.

(** ** Positions that are too close to a defect *)

Definition charged_kind (d : sdefect) : Prop := sd_charge d <> 0 \/ charged_type (sd_type d).
(** The distances to keep: 26 and 13 positions from charged defects, 1 and 0 from others, unless overwritten. *)
Definition keep_away (co no : option (Z * Z)) (d : sdefect) (h v : Z) : Prop :=
  (charged_kind d -> (h, v) = match co with Some e => e | None => (26, 13) end) /\
  (~ charged_kind d -> (h, v) = match no with Some e => e | None => (1, 0) end).
Definition affects (s : surface) (co no : option (Z * Z)) (c q : coord) : Prop :=
  defective s c /\ exists h v, keep_away co no (get_sidb_defect s c) h v /\
    cd q = false /\ Z.abs (cx q - cx c) <= h /\ Z.abs (cy q - cy c) <= v /\ cz q = cz c.
(** Overwrites are pairs of 16-bit numbers. *)
Definition is_16 (o : option (Z * Z)) : Prop := match o with Some (h, v) => 0 <= h < 2 ^ 16 /\ 0 <= v < 2 ^ 16 | None => True end.
(** The surface, and the positions of defects, keep clear of the largest coordinates. *)
Definition roomy (c : coord) : Prop := 0 <= cx c < 2 ^ 31 - 2 ^ 16 /\ 0 <= cy c < 2 ^ 31 - 2 ^ 16 /\ 0 <= cz c <= 1.
Definition at_roomy (s : surface) : Prop := roomy (s_dim s) /\ forall c, defective s c -> roomy c.
(** The positions that a layout with signed coordinates takes to be within its bounds: negative coordinates are. *)
Definition below (ar q : coord) : Prop := cx q <= cx ar /\ cy q <= cy ar /\ cz q <= cz ar.

(** ** The black list *)

(** The gate has a cell on tile [t] that a defect affects. *)
Definition hit (s : surface) (co no : option (Z * Z)) (gx gy : Z) (p : plan) (t : coord) (g : gate) : Prop :=
  exists x y c, in_gate gx gy x y /\ cell_at 32 g (Z.to_nat x) (Z.to_nat y) <> 32 /\
    affects s co no c (cell_of gx gy p t x y) /\ inb (s_dim s) (cell_of gx gy p t x y).
(** The ports of those gates that are hit, in order. *)
Inductive listed {P} (h : gate -> Prop) (ports : gate -> option (list P)) : list gate -> list P -> Prop :=
  | l_nil : listed h ports [] []
  | l_hit g gs ps r : h g -> ports g = Some ps -> listed h ports gs r -> listed h ports (g :: gs) (ps ++ r)
  | l_miss g gs r : ~ h g -> listed h ports gs r -> listed h ports (g :: gs) r.
