(** Specifications for clocking schemes and clocked layouts. *)
From Coq Require Import ZArith Bool String Ascii List.
From Verif Require Import CoordModel CoordSpec GridModel GridSpec ClockModel.
Import ListNotations.
Local Open Scope Z_scope.

(** Documented lookup names with the name and number of phases of the scheme they denote. *)
Definition documented : list (string * (string * Z)) :=
  [("OPEN", ("OPEN", 4)); ("OPEN3", ("OPEN", 3)); ("OPEN4", ("OPEN", 4));
   ("COLUMNAR", ("COLUMNAR", 4)); ("COLUMNAR3", ("COLUMNAR", 3)); ("COLUMNAR4", ("COLUMNAR", 4));
   ("ROW", ("ROW", 4)); ("ROW3", ("ROW", 3)); ("ROW4", ("ROW", 4));
   ("2DDWAVE", ("2DDWAVE", 4)); ("2DDWAVE3", ("2DDWAVE", 3)); ("2DDWAVE4", ("2DDWAVE", 4));
   ("2DDWAVEHEX", ("2DDWAVEHEX", 4)); ("2DDWAVEHEX3", ("2DDWAVEHEX", 3)); ("2DDWAVEHEX4", ("2DDWAVEHEX", 4));
   ("USE", ("USE", 4)); ("RES", ("RES", 4)); ("ESR", ("ESR", 4)); ("CFE", ("CFE", 4));
   ("RIPPLE", ("RIPPLE", 4)); ("SRS", ("SRS", 4)); ("BANCS", ("BANCS", 3))]%string.

(** Two characters are the same letter up to case: equal, or an ASCII letter in both cases. *)
Definition same_letter (a b : ascii) : Prop :=
  a = b \/
  (exists k, (k < 26)%nat /\
     ((nat_of_ascii a = 65 + k /\ nat_of_ascii b = 97 + k)%nat \/
      (nat_of_ascii a = 97 + k /\ nat_of_ascii b = 65 + k)%nat)).
Inductive same_word : string -> string -> Prop :=
| sw_nil : same_word EmptyString EmptyString
| sw_cons a b s t : same_letter a b -> same_word s t -> same_word (String a s) (String b t).

(** The period of each scheme's cut-out in x and y. *)
Definition period (t : topo) (s : std_scheme) : Z * Z :=
  match s with
  | OPEN _ => (1, 1)
  | COLUMNAR THREE | ROW THREE | TWODDWAVE THREE => (3, 3)
  | TWODDWAVE_HEX n =>
      match t, n with
      | Cartesian, _ => (4, 4)
      | Hex a, THREE => if pointy a then (3, 6) else (6, 3)
      | Hex a, FOUR => if pointy a then (4, 8) else (8, 4)
      end
  | BANCS => (3, 6)
  | _ => (4, 4)
  end.

(** Distance a wave front of a linear scheme has travelled when it reaches a zone. *)
Definition wave (t : topo) (s : std_scheme) (c : coord) : Z :=
  match s with
  | COLUMNAR _ => cx c
  | ROW _ => cy c
  | TWODDWAVE _ => cx c + cy c
  | TWODDWAVE_HEX _ =>
      match t with
      | Cartesian => cx c + cy c
      | Hex OddRow => cx c + (cy c + 1) / 2
      | Hex EvenRow => cx c + cy c / 2
      | Hex OddColumn => cy c + (cx c + 1) / 2
      | Hex EvenColumn => cy c + cx c / 2
      end
  | _ => 0
  end.
Definition linear (s : std_scheme) : Prop :=
  match s with COLUMNAR _ | ROW _ | TWODDWAVE _ | TWODDWAVE_HEX _ => True | _ => False end.

(** Pairs of grid and scheme for which the declared maximum degrees are wrong. *)
Definition degree_exception (t : topo) (s : std_scheme) : bool :=
  match t, s with
  | Hex a, COLUMNAR _ => pointy a
  | Hex a, ROW _ => negb (pointy a)
  | Hex _, TWODDWAVE THREE => true
  | Hex _, BANCS => true
  | _, _ => false
  end.

(** The last number assigned to a zone in a history (most recent assignment last). *)
Definition last_assigned (hist : list (coord * Z)) (c : coord) : option Z :=
  option_map snd (List.find (fun p => if coord_eqb (fst p) c then true else false) (List.rev hist)).

(** A layout of grid [t], dimension [ar], clocked by the pre-defined scheme [s]. *)
Definition std_layout (t : topo) (ar : coord) (s : std_scheme) : clocked := mkCL t ar (clocking t s).
