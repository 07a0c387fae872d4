(** Specifications for the QCA ONE gate library. *)
From Coq Require Import ZArith Bool String List.
From stdpp Require Import gmap.
From Verif Require Import CoordModel CoordSpec GridModel GridSpec CoordMap ClockModel ClockSpec GateModel GateSpec CellModel CellSpec RouteModel RouteSpec LibModel LibSpec.
Import List ListNotations.
Local Open Scope Z_scope.

(** ** Rotations *)

Definition square (n : nat) (g : gate) : Prop := List.length g = n /\ forall r, In r g -> List.length r = n.

(** ** Ports *)

(** The sides of a tile, where they lead, and the cell in their middle. *)
Inductive side := SideN | SideE | SideS | SideW.
Definition sides : list side := [SideN; SideE; SideS; SideW].
Definition dx (s : side) : Z := match s with SideE => 1 | SideW => -1 | _ => 0 end.
Definition dy (s : side) : Z := match s with SideS => 1 | SideN => -1 | _ => 0 end.
Definition opposite (s : side) : side := match s with SideN => SideS | SideE => SideW | SideS => SideN | SideW => SideE end.
Definition port_x (s : side) : Z := match s with SideE => 4 | SideW => 0 | _ => 2 end.
Definition port_y (s : side) : Z := match s with SideS => 4 | SideN => 0 | _ => 2 end.
(** Data arrives at tile [t] from a tile (of any layer) beyond side [s]; leaves it to such a tile. *)
Definition enters (st : glayout) (t : coord) (s : side) : Prop :=
  exists u, In u (incoming_data_flow true st t) /\ cx u = cx t + dx s /\ cy u = cy t + dy s.
Definition leaves (st : glayout) (t : coord) (s : side) : Prop :=
  exists u, In u (outgoing_data_flow true st t) /\ cx u = cx t + dx s /\ cy u = cy t + dy s.
Definition used (st : glayout) (t : coord) (s : side) : Prop := enters st t s \/ leaves st t s.

(** Kinds of nodes: literals 2 to 14 are the functions of the layout's nodes. *)
Inductive node_kind := KFanout2 | KFanout3 | KWire | KInverter | KAnd | KOr | KMajority | KOther.
Definition kind_of (st : glayout) (t : coord) : node_kind :=
  let n := get_node st t in
  let fo := List.length (outgoing_data_flow true st t) in
  match n_lit (node_at st n) with
  | 2 => match fo with 2%nat => KFanout2 | 3%nat => KFanout3 | _ => KWire end
  | 3 => KInverter
  | 4 => KAnd
  | 6 => KOr
  | 14 => KMajority
  | _ => KOther
  end.
(** Nothing dangles: inverters and gates have inputs and outputs, and majority gates and threefold fan-outs use all four sides. *)
Definition regular (st : glayout) (t : coord) : Prop :=
  match kind_of st t with
  | KFanout3 | KMajority => forall s, used st t s
  | KInverter | KAnd | KOr => (exists s, enters st t s) /\ exists s, leaves st t s
  | _ => True
  end.
Definition on_border (x y : Z) : Prop := x = 0 \/ x = 4 \/ y = 0 \/ y = 4.

(** How many sides of a tile have a property. *)
Definition side_count (f : side -> bool) : nat := List.length (List.filter f sides).
(** Which tiles QCA ONE has a gate for, given the sides at which data enters and leaves. *)
Definition supported (k : node_kind) (i o : side -> bool) : Prop :=
  match k with
  | KFanout2 => side_count i = 1%nat /\ side_count o = 2%nat
  | KFanout3 | KMajority => True
  | KWire | KInverter => (side_count i <= 1)%nat /\ (side_count o <= 1)%nat /\ (1 <= side_count i + side_count o)%nat
  | KAnd | KOr => side_count i = 2%nat /\ (side_count o = 1%nat \/ (side_count o = 0%nat /\ i SideE = false))
  | KOther => False
  end.

(** ** Cells *)

(** The cell in the middle of side [s] of tile [t]. *)
Definition port_cell (t : coord) (s : side) : coord := cell_of 5 5 PCartesian t (port_x s) (port_y s).
Definition neighbours (a b : coord) : Prop := cz a = cz b /\ Z.abs (cx a - cx b) + Z.abs (cy a - cy b) = 1.
(** A cell of the crossing layer that ends there: at most one of its four neighbours is a cell. *)
Definition ends_at (l : clayout) (c : coord) : Prop :=
  cd c = false /\ cz c = 1 /\ get_cell_type qca l c <> 32 /\
  forall a b, neighbours c a -> neighbours c b -> cd a = false -> cd b = false -> get_cell_type qca l a <> 32 -> get_cell_type qca l b <> 32 -> a = b.

(** ** Gates *)

(** Cells of a gate that touch each other pass a signal on; a signal that can only jump across a corner is inverted. *)
Definition cell_there (g : gate) (q : Z * Z) : Prop := in_gate 5 5 (fst q) (snd q) /\ gate_cell qca g (fst q) (snd q) <> 32.
Definition beside (p q : Z * Z) : Prop := Z.abs (fst p - fst q) + Z.abs (snd p - snd q) = 1.
Definition diagonal (p q : Z * Z) : Prop := Z.abs (fst p - fst q) = 1 /\ Z.abs (snd p - snd q) = 1.
Inductive linked (g : gate) (p : Z * Z) : Z * Z -> Prop :=
| linked_here : cell_there g p -> linked g p p
| linked_on q r : linked g p q -> cell_there g r -> beside q r -> linked g p r.
Definition inverts (g : gate) (p q : Z * Z) : Prop := ~ linked g p q /\ exists a b, linked g p a /\ linked g q b /\ diagonal a b.
(** The cells at and next to the middle of a side. *)
Definition port_at (s : side) : Z * Z := (port_x s, port_y s).
Definition arm_at (s : side) : Z * Z := (port_x s - dx s, port_y s - dy s).
(** A majority vote: the centre touches exactly four cells, each of them the inner end of a straight arm from the middle of a side. *)
Definition shows (g : gate) (q : Z * Z) (v : Z) : Prop := gate_cell qca g (fst q) (snd q) = v.
Definition voter (g : gate) : Prop := shows g (2, 2) 120 /\ (forall s, shows g (arm_at s) 120 /\ beside (arm_at s) (2, 2) /\ beside (port_at s) (arm_at s)) /\
  forall q, cell_there g q -> q = (2, 2) \/ exists s, q = arm_at s \/ q = port_at s.
