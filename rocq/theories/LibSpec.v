(** Specifications for the application of gate libraries. *)
From Coq Require Import ZArith Bool String List.
From stdpp Require Import gmap.
From Verif Require Import CoordModel CoordSpec GridModel GridSpec CoordMap ClockModel GateModel GateSpec CellModel CellSpec RouteModel RouteSpec LibModel.
Import List ListNotations.
Local Open Scope Z_scope.

(** ** Laying out tiles *)

(** Tile [t] carries a node of the layout. *)
Definition hosts (st : glayout) (t : coord) : Prop := occupied st t /\ is_dead st (get_node st t) = false.
Definition all_placed (st : glayout) : Prop := forall n, (2 <= n < List.length (g_nodes st))%nat -> is_dead st n = false -> placed st n.
(** Column and row of the first cell of a tile. In shifted and hexagonal layouts half a tile is half of its cells, rounded down, and the
    rows (or columns) of hexagons overlap by a quarter. *)
Definition corner_x (gx : Z) (p : plan) (t : coord) : Z :=
  match p with
  | PCartesian => cx t * gx
  | PShifted a => if pointy a then hex_px a t * gx / 2 else cx t * gx
  | PHexagonal a => if pointy a then hex_px a t * gx / 2 else cx t * (3 * gx / 4)
  end.
Definition corner_y (gy : Z) (p : plan) (t : coord) : Z :=
  match p with
  | PCartesian => cy t * gy
  | PShifted a => if pointy a then cy t * gy else hex_py a t * gy / 2
  | PHexagonal a => if pointy a then cy t * (3 * gy / 4) else hex_py a t * gy / 2
  end.
(** The cell in column [x] and row [y] of tile [t]. *)
Definition cell_of (gx gy : Z) (p : plan) (t : coord) (x y : Z) : coord := live (corner_x gx p t + x) (corner_y gy p t + y) (cz t).
Definition in_gate (gx gy x y : Z) : Prop := 0 <= x < gx /\ 0 <= y < gy.
(** Tiles have at least one cell and all cells have coordinates of 31 bits. *)
Definition fits (gx gy : Z) (ar : coord) : Prop :=
  1 <= gx < 2 ^ 16 /\ 1 <= gy < 2 ^ 16 /\ (cx ar + 2) * gx < 2 ^ 31 /\ (cy ar + 2) * gy < 2 ^ 31.
(** The gates of a library have the size of a tile. *)
Definition gate_size (gx gy : Z) (g : gate) : Prop := Z.of_nat (List.length g) = gy /\ forall r, In r g -> Z.of_nat (List.length r) = gx.
Definition library_size (gx gy : Z) (lib : library) : Prop := forall st t g, lib st t = Some g -> gate_size gx gy g.
(** The cell of a gate. *)
Definition gate_cell (T : tech) (g : gate) (x y : Z) : Z := cell_at (t_empty T) g (Z.to_nat x) (Z.to_nat y).
(** Hexagons overlap: the tiles whose gates have a cell at [c]. *)
Definition claims (T : tech) (gx gy : Z) (p : plan) (lib : library) (st : glayout) (c t : coord) : Prop :=
  hosts st t /\ exists g x y, lib st t = Some g /\ in_gate gx gy x y /\ c = cell_of gx gy p t x y /\ gate_cell T g x y <> t_empty T.
Definition rectangular (p : plan) : Prop := match p with PHexagonal _ => False | _ => True end.
(** Layouts built by calls, all of whose nodes are on tiles. *)
Definition laid_out (cl : clocked) (ops : list gop) (st : glayout) : Prop :=
  reached cl ops st /\ moves_no_constant ops /\ dim_ok (cl_dim cl) /\ places_inside (cl_dim cl) ops /\ all_placed st.
