(** Specifications for cell-level layouts, obstruction layouts and bounding boxes. *)
From Coq Require Import ZArith Bool String List.
From Verif Require Import CoordModel CoordSpec GridModel GridSpec GateModel CellModel.
Import ListNotations.
Local Open Scope Z_scope.

(** The technologies of the library. *)
Definition technologies : list tech := [qca; mol_qca; inml; sidb].
(** Cell modes exist only in technologies with modes; elsewhere [cell_mode] is an empty struct. *)
Definition modes_exist (T : tech) (ops : list cop) : Prop :=
  t_modes T = false -> forall c m, In (AssignMode c m) ops -> m = 0.

(** What a history of calls says about a cell: the last assignment decides ([hist] is in
    chronological order, so the first relevant call of the reversed list counts). *)
Fixpoint latest {O A} (f : O -> option A) (dflt : A) (rev_hist : list O) : A :=
  match rev_hist with
  | [] => dflt
  | o :: r => match f o with Some a => a | None => latest f dflt r end
  end.
Definition spec_type (T : tech) (hist : list cop) (c : coord) : Z :=
  latest (fun o => match o with AssignType c' ct => if coord_eqb c' c then Some ct else None | _ => None end)
         (t_empty T) (rev hist).
(** Deleting a cell resets its mode. *)
Definition spec_mode (T : tech) (hist : list cop) (c : coord) : Z :=
  latest (fun o => match o with
                   | AssignMode c' m => if coord_eqb c' c then Some m else None
                   | AssignType c' ct => if coord_eqb c' c && (ct =? t_empty T) then Some 0 else None
                   | _ => None end) 0 (rev hist).
Definition spec_name (hist : list cop) (c : coord) : string :=
  latest (fun o => match o with AssignName c' n => if coord_eqb c' c then Some n else None | _ => None end)
         ""%string (rev hist).
Definition spec_tile_size (x y : Z) (hist : list cop) : Z * Z :=
  latest (fun o => match o with SetTileSize a b => Some (a, b) | _ => None end) (x, y) (rev hist).

(** The list [L] enumerates exactly the coordinates with property [P], each once. *)
Definition enumerates (L : list coord) (P : coord -> Prop) : Prop :=
  NoDup L /\ forall c, In c L <-> P c.

(** Cell [c] lies in the tile in column [tx] and row [ty] of a layout cut into tiles of sx by sy cells. *)
Definition in_tile (sx sy tx ty : Z) (c : coord) : Prop :=
  tx * sx <= cx c < (tx + 1) * sx /\ ty * sy <= cy c < (ty + 1) * sy.

(** The last call concerning coordinate [c] (connection [p]) marked it. *)
Definition marked_coordinate (hist : list oop) (c : coord) : bool :=
  latest (fun o => match o with
                   | ObstructCoordinate c' => if coord_eqb c' c then Some true else None
                   | ClearCoordinate c' => if coord_eqb c' c then Some false else None
                   | ClearCoordinates => Some false
                   | _ => None end) false (rev hist).
Definition marked_connection (hist : list oop) (s t : coord) : bool :=
  latest (fun o => match o with
                   | ObstructConnection s' t' => if coord_eqb s' s && coord_eqb t' t then Some true else None
                   | ClearConnection s' t' => if coord_eqb s' s && coord_eqb t' t then Some false else None
                   | ClearConnections => Some false
                   | _ => None end) false (rev hist).

(** The calls of a history that go to the layout underneath. *)
Definition gate_calls (ops : list oop) : list gop := flat_map (fun o => match o with OnGate g => [g] | _ => [] end) ops.
Definition cell_calls (ops : list oop) : list cop := flat_map (fun o => match o with OnCell g => [g] | _ => [] end) ops.

(** Two coordinates are on the same spot of the grid, in whatever layer. *)
Definition same_spot (a b : coord) : Prop := cx a = cx b /\ cy a = cy b.

(** The spots of [a] and [b] are mirror images of each other with respect to the spot of [c]. *)
Definition opposite_sides (tp : topo) (c a b : coord) : Prop :=
  match tp with
  | Cartesian => cx a + cx b = 2 * cx c /\ cy a + cy b = 2 * cy c
  | Hex h => hex_px h a + hex_px h b = 2 * hex_px h c /\ hex_py h a + hex_py h b = 2 * hex_py h c
  end.

(** [lo] and [hi] span the smallest rectangle around the coordinates with property [P], measured by
    the column [cx] and the row [row]. *)
Definition tight_box (row : coord -> Z) (lo hi : coord) (P : coord -> Prop) : Prop :=
  (forall c, P c -> cx lo <= cx c <= cx hi /\ row lo <= row c <= row hi) /\
  (exists c, P c /\ cx c = cx lo) /\ (exists c, P c /\ cx c = cx hi) /\
  (exists c, P c /\ row c = row lo) /\ (exists c, P c /\ row c = row hi).
(** The row of a coordinate of each kind. *)
Definition row_of (k : kind) : coord -> Z := match k with Siqad => dimer_row | _ => cy end.
(** Coordinates a layout of each kind can hold (live, within the field widths; for SiQAD
    coordinates with a dimer row in the 32-bit range). *)
Definition k_valid (k : kind) (c : coord) : Prop :=
  cd c = false /\
  match k with Offset => u_wf c | Cube => c_wf c | Siqad => s_wf c /\ in_i32 (dimer_row c) end.
(** All cells a history creates or deletes have valid coordinates. *)
Definition valid_cells (k : kind) (ops : list cop) : Prop :=
  forall c ct, In (AssignType c ct) ops -> k_valid k c.
