(** Model of include/fiction/layouts/cell_level_layout.hpp, obstruction_layout.hpp and
    bounding_box.hpp, of the cell predicates of include/fiction/technology/cell_technologies.hpp
    and of the directional signal queries of include/fiction/layouts/gate_level_layout.hpp. *)
From Coq Require Import ZArith Bool String List.
From stdpp Require Import gmap list strings.
From Verif Require Import CoordModel GridModel CoordMap ClockModel GateModel.
Import ListNotations.
Local Open Scope Z_scope.

(** ** Cell technologies *)

(** cell_technologies.hpp: a technology is an enumeration of 8-bit cell types, three of which are
    distinguished, and possibly cell modes (8-bit, NORMAL = 0). *)
Record tech := mkT { t_empty : Z; t_input : Z; t_output : Z; t_modes : bool; t_types : list Z }.
(** qca_technology, cell_technologies.hpp:24-57 (cell_type, cell_mode); characters by their code. *)
Definition qca : tech := mkT 32 105 111 true [32; 120; 105; 111; 48; 49].
(** mol_qca_technology, 215-270. *)
Definition mol_qca : tech := mkT 32 105 111 true [32; 97; 98; 99; 100; 105; 111; 48; 49].
(** inml_technology, 498-548: no modes. *)
Definition inml : tech := mkT 32 105 111 false [32; 120; 105; 111; 117; 100; 110; 99; 102].
(** sidb_technology, 702-738: no modes. *)
Definition sidb : tech := mkT 32 105 111 false [32; 120; 105; 111; 108].
(** is_empty_cell, is_input_cell, is_output_cell, is_normal_cell_mode of each technology
    (e.g. 88-91, 110-124, 151-154; 673-676 and 807-810 for technologies without modes). *)
Definition t_is_empty (T : tech) (ct : Z) : bool := ct =? t_empty T.
Definition t_is_input (T : tech) (ct : Z) : bool := ct =? t_input T.
Definition t_is_output (T : tech) (ct : Z) : bool := ct =? t_output T.
Definition t_is_normal_mode (T : tech) (m : Z) : bool := if t_modes T then m =? 0 else true.

(** ** Cell-level layouts *)

(** cell_level_layout.hpp:60-82, the storage (the layout name has no influence on anything else). *)
Record clayout := mkCell {
  c_cl   : clocked;               (* the clocked layout underneath *)
  c_tsx  : Z; c_tsy : Z;          (* tile sizes, uint16_t *)
  c_type : gmap coord Z;
  c_mode : gmap coord Z;
  c_name : gmap coord string;
  c_in   : gset coord;
  c_out  : gset coord
}.

(** cell_level_layout.hpp:96-103, constructor. *)
Definition c_new (cl : clocked) (tsx tsy : Z) : clayout := mkCell cl tsx tsy ∅ ∅ ∅ ∅ ∅.

(** cell_level_layout.hpp:164-188, assign_cell_type. *)
Definition assign_cell_type (T : tech) (l : clayout) (c : coord) (ct : Z) : clayout :=
  let i := c_in l ∖ {[ c ]} in
  let o := c_out l ∖ {[ c ]} in
  if t_is_empty T ct
  then mkCell (c_cl l) (c_tsx l) (c_tsy l) (delete c (c_type l)) (delete c (c_mode l)) (c_name l) i o
  else
    let ty := <[ c := ct ]> (c_type l) in
    if t_is_input T ct then mkCell (c_cl l) (c_tsx l) (c_tsy l) ty (c_mode l) (c_name l) ({[ c ]} ∪ i) o
    else if t_is_output T ct then mkCell (c_cl l) (c_tsx l) (c_tsy l) ty (c_mode l) (c_name l) i ({[ c ]} ∪ o)
    else mkCell (c_cl l) (c_tsx l) (c_tsy l) ty (c_mode l) (c_name l) i o.

(** cell_level_layout.hpp:195-203, get_cell_type; 243-246, is_empty_cell. *)
Definition get_cell_type (T : tech) (l : clayout) (c : coord) : Z := default (t_empty T) (c_type l !! c).
Definition is_empty_cell (T : tech) (l : clayout) (c : coord) : bool := t_is_empty T (get_cell_type T l c).

(** cell_level_layout.hpp:254-264, assign_cell_mode; 271-279, get_cell_mode. *)
Definition assign_cell_mode (T : tech) (l : clayout) (c : coord) (m : Z) : clayout :=
  mkCell (c_cl l) (c_tsx l) (c_tsy l) (c_type l)
    (if t_is_normal_mode T m then delete c (c_mode l) else <[ c := m ]> (c_mode l))
    (c_name l) (c_in l) (c_out l).
Definition get_cell_mode (l : clayout) (c : coord) : Z := default 0 (c_mode l !! c).

(** cell_level_layout.hpp:287-297, assign_cell_name; 304-312, get_cell_name. *)
Definition assign_cell_name (l : clayout) (c : coord) (n : string) : clayout :=
  mkCell (c_cl l) (c_tsx l) (c_tsy l) (c_type l) (c_mode l)
    (if String.eqb n "" then delete c (c_name l) else <[ c := n ]> (c_name l)) (c_in l) (c_out l).
Definition get_cell_name (l : clayout) (c : coord) : string := default ""%string (c_name l !! c).

(** cell_level_layout.hpp:340-421: num_cells, is_empty, num_pis, num_pos, is_pi, is_po. *)
Definition num_cells (l : clayout) : Z := Z.of_nat (size (c_type l)).
Definition c_is_empty (l : clayout) : bool := Nat.eqb (size (c_type l)) 0.
Definition c_num_pis (l : clayout) : Z := Z.of_nat (size (c_in l)) mod 2 ^ 32.
Definition c_num_pos (l : clayout) : Z := Z.of_nat (size (c_out l)) mod 2 ^ 32.
Definition c_is_pi (l : clayout) (c : coord) : bool := bool_decide (c ∈ c_in l).
Definition c_is_po (l : clayout) (c : coord) : bool := bool_decide (c ∈ c_out l).

(** cell_level_layout.hpp:433-441, 454-462: set_tile_size_x, set_tile_size_y. *)
Definition set_tile_size (l : clayout) (x y : Z) : clayout :=
  mkCell (c_cl l) x y (c_type l) (c_mode l) (c_name l) (c_in l) (c_out l).

(** cell_level_layout.hpp:478-481, get_clock_number. Division by a tile size of zero is undefined
    ([None]); C++ integer division truncates towards zero. *)
Definition cell_clock_number (l : clayout) (c : coord) : option Z :=
  if (c_tsx l =? 0) || (c_tsy l =? 0) then None
  else Some (get_clock_number (c_cl l) (live (Z.quot (cx c) (c_tsx l)) (Z.quot (cy c) (c_tsy l)) (cz c))).

(** cell_level_layout.hpp:501-560: foreach_cell, foreach_pi, foreach_po: the hash containers are
    visited in an unspecified order; the model fixes one. *)
Definition foreach_cell (l : clayout) : list coord := (map_to_list (c_type l)).*1.
Definition c_foreach_pi (l : clayout) : list coord := elements (c_in l).
Definition c_foreach_po (l : clayout) : list coord := elements (c_out l).
(** cell_level_layout.hpp:211-236: get_cells_by_type, num_cells_of_given_type. *)
Definition get_cells_by_type (T : tech) (l : clayout) (ct : Z) : list coord :=
  List.filter (fun c => get_cell_type T l c =? ct) (foreach_cell l).
Definition num_cells_of_given_type (T : tech) (l : clayout) (ct : Z) : Z :=
  Z.of_nat (length (get_cells_by_type T l ct)).

(** The mutating calls of a cell-level layout and their histories. *)
Inductive cop :=
| AssignType (c : coord) (ct : Z)
| AssignMode (c : coord) (m : Z)
| AssignName (c : coord) (n : string)
| SetTileSize (x y : Z).
Definition c_step (T : tech) (l : clayout) (o : cop) : clayout :=
  match o with
  | AssignType c ct => assign_cell_type T l c ct
  | AssignMode c m => assign_cell_mode T l c m
  | AssignName c n => assign_cell_name l c n
  | SetTileSize x y => set_tile_size l x y
  end.
Definition c_run (T : tech) (l : clayout) (ops : list cop) : clayout := fold_left (c_step T) ops l.

(** ** Directional signal queries of gate-level layouts *)

(** gate_level_layout.hpp:1332-1350, is_incoming_signal; 1469-1487, is_outgoing_signal. *)
Definition is_incoming_signal (rc : bool) (st : glayout) (t s : coord) : bool :=
  let ar := cl_dim (g_cl st) in
  existsb (fun i => coord_eqb i s || coord_eqb (above ar i) s || coord_eqb (below ar i) s)
          (foreach_fanin rc st (get_node st t)).
Definition is_outgoing_signal (rc : bool) (st : glayout) (t s : coord) : bool :=
  let ar := cl_dim (g_cl st) in
  existsb (fun o => let ot := get_tile st o in
                    coord_eqb ot s || coord_eqb (above ar ot) s || coord_eqb (below ar ot) s)
          (foreach_fanout rc st (get_node st t)).
(** gate_level_layout.hpp:1359-1437 (incoming) and 1496-1573 (outgoing): the same query for the
    coordinate in the direction [dir]; on Cartesian layouts only the four axis directions occur. *)
Definition has_incoming_from (dir : coord -> coord -> coord) (rc : bool) (st : glayout) (t : coord) : bool :=
  is_incoming_signal rc st t (dir (cl_dim (g_cl st)) t).
Definition has_outgoing_to (dir : coord -> coord -> coord) (rc : bool) (st : glayout) (t : coord) : bool :=
  is_outgoing_signal rc st t (dir (cl_dim (g_cl st)) t).
(** gate_level_layout.hpp:1446-1450, 1582-1586 *)
Definition has_no_incoming_signal (rc : bool) (st : glayout) (t : coord) : bool :=
  fanin_size rc st (get_node st t) =? 0.
Definition has_no_outgoing_signal (rc : bool) (st : glayout) (t : coord) : bool :=
  fanout_size rc st (get_node st t) =? 0.
(** gate_level_layout.hpp:1607-1630 with foreach_adjacent_opposite_coordinates of the grid. *)
Definition has_opposite_incoming_and_outgoing_signals (rc : bool) (st : glayout) (t : coord) : bool :=
  let ar := cl_dim (g_cl st) in
  let pairs := match cl_topo (g_cl st) with Cartesian => c_opposites ar t | Hex a => hex_opposites a ar t end in
  existsb (fun p => (is_incoming_signal rc st t (fst p) && is_outgoing_signal rc st t (snd p)) ||
                    (is_incoming_signal rc st t (snd p) && is_outgoing_signal rc st t (fst p))) pairs.

(** ** Obstruction layouts *)

(** The layout underneath: gate-level, cell-level or one without an occupation query. *)
Inductive obase := OPlain (l : clocked) | OGate (st : glayout) | OCell (T : tech) (l : clayout).
(** obstruction_layout.hpp:45-71 *)
Record olayout := mkO { o_base : obase; o_coords : gset coord; o_conns : gset (coord * coord) }.
Definition o_new (b : obase) : olayout := mkO b ∅ ∅.
Inductive oop :=
| ObstructCoordinate (c : coord)
| ObstructConnection (src tgt : coord)
| ClearCoordinate (c : coord)
| ClearConnection (src tgt : coord)
| ClearCoordinates
| ClearConnections
| OnGate (o : gop)      (* calls of the inherited interface *)
| OnCell (o : cop).
(** obstruction_layout.hpp:77-131. [None] is undefined behaviour of the inherited call (see
    GateModel) or a call the layout type does not have. *)
Definition o_step (l : olayout) (o : oop) : option olayout :=
  match o with
  | ObstructCoordinate c => Some (mkO (o_base l) ({[ c ]} ∪ o_coords l) (o_conns l))
  | ObstructConnection s t => Some (mkO (o_base l) (o_coords l) ({[ (s, t) ]} ∪ o_conns l))
  | ClearCoordinate c => Some (mkO (o_base l) (o_coords l ∖ {[ c ]}) (o_conns l))
  | ClearConnection s t => Some (mkO (o_base l) (o_coords l) (o_conns l ∖ {[ (s, t) ]}))
  | ClearCoordinates => Some (mkO (o_base l) ∅ (o_conns l))
  | ClearConnections => Some (mkO (o_base l) (o_coords l) ∅)
  | OnGate g => match o_base l with
                | OGate st => match g_step st g with Some st' => Some (mkO (OGate st') (o_coords l) (o_conns l)) | None => None end
                | _ => None
                end
  | OnCell g => match o_base l with
                | OCell T cl => Some (mkO (OCell T (c_step T cl g)) (o_coords l) (o_conns l))
                | _ => None
                end
  end.
Fixpoint o_run (l : olayout) (ops : list oop) : option olayout :=
  match ops with
  | [] => Some l
  | o :: r => match o_step l o with Some l' => o_run l' r | None => None end
  end.
(** obstruction_layout.hpp:138-156, is_obstructed_coordinate. *)
Definition is_obstructed_coordinate (l : olayout) (c : coord) : bool :=
  if bool_decide (c ∈ o_coords l) then true
  else match o_base l with
       | OGate st => negb (is_empty_tile st c)
       | OCell T cl => negb (is_empty_cell T cl c)
       | OPlain _ => false
       end.
(** obstruction_layout.hpp:164-180, is_obstructed_connection. *)
Definition is_obstructed_connection (l : olayout) (src tgt : coord) : bool :=
  if bool_decide ((src, tgt) ∈ o_conns l) then true
  else match o_base l with
       | OGate st => is_incoming_signal true st tgt src || is_outgoing_signal true st src tgt
       | _ => false
       end.

(** ** Bounding boxes *)

(** bounding_box.hpp:208-228, the members; sizes as [None] if the signed subtraction overflows. *)
Record bbox := mkB { bb_min : coord; bb_max : coord; bb_x : option Z; bb_y : option Z }.
(** Value-initialised members before the constructor's first update. *)
Definition bb_init : bbox := mkB (live 0 0 0) (live 0 0 0) (Some 0) (Some 0).

(** [max.x - min.x] stored in decltype(min.x): uint64_t for offset coordinates, int32_t otherwise. *)
Definition bb_diff (k : kind) (d : Z) : option Z :=
  match k with
  | Offset => Some (d mod 2 ^ 64)
  | _ => if (i32_min <=? d) && (d <=? i32_max) then Some d else None
  end.

(** bounding_box.hpp:72-98, update_min_max. *)
Definition bb_upd (k : kind) (m : coord * coord) (c : coord) : coord * coord :=
  let (mn, mx) := m in
  match k with
  | Siqad =>
      let s := to_fiction_coord c in
      let a := to_fiction_coord mn in
      let b := to_fiction_coord mx in
      (to_siqad_coord (mkC (cd a) (Z.min (cx a) (cx s)) (Z.min (cy a) (cy s)) (cz a)),
       to_siqad_coord (mkC (cd b) (Z.max (cx b) (cx s)) (Z.max (cy b) (cy s)) (cz b)))
  | _ => (mkC (cd mn) (Z.min (cx mn) (cx c)) (Z.min (cy mn) (cy c)) (cz mn),
          mkC (cd mx) (Z.max (cx mx) (cx c)) (Z.max (cy mx) (cy c)) (cz mx))
  end.

(** bounding_box.hpp:102-105 and 129-132, start values. numeric_limits of the 64-bit type behind
    the 31-bit fields of offset coordinates is truncated to the field by the constructor. *)
Definition bb_start (k : kind) : coord * coord :=
  match k with
  | Offset => (live (2 ^ 31 - 1) (2 ^ 31 - 1) 0, live 0 0 0)
  | Cube => (live i32_max i32_max 0, live i32_min i32_min 0)
  | Siqad => (live i32_max i32_max 1, live i32_min i32_min 0)
  end.

(** bounding_box.hpp:51-166, update_bounding_box. [defects] is [Some] of the defect locations for
    defect surfaces, [None] for other layouts; [occ] are the visited non-empty coordinates. *)
Definition bb_update (k : kind) (b : bbox) (empty : bool) (defects : option (list coord)) (occ : list coord) : bbox :=
  if empty && match defects with Some d => Nat.eqb (length d) 0 | None => true end
  then mkB (live 0 0 0) (live 0 0 0) (bb_x b) (bb_y b)
  else
    let m0 := fold_left (bb_upd k) occ (bb_start k) in
    let m :=
      match defects with
      | None => m0
      | Some d =>
          let (mn, mx) := m0 in
          let (dn, dx) := fold_left (bb_upd k) d m0 in
          match k with
          | Siqad => (live (Z.min (cx mn) (cx dn)) (Z.min (cy mn) (cy dn)) (Z.min (cz mn) (cz dn)),
                      live (Z.max (cx mx) (cx dx)) (Z.max (cy mx) (cy dx)) (Z.max (cz mx) (cz dx)))
          | _ => (dn, dx)
          end
      end in
    mkB (fst m) (snd m) (bb_diff k (cx (snd m) - cx (fst m))) (bb_diff k (cy (snd m) - cy (fst m))).

(** Cell-level layouts (bounding_box.hpp:107 for SiQAD coordinates, 146-156 otherwise). *)
Definition bb_cells (k : kind) (T : tech) (b : bbox) (l : clayout) (defects : option (list coord)) : bbox :=
  bb_update k b (c_is_empty l) defects
    (match k with
     | Siqad => foreach_cell l
     | _ => List.filter (fun c => negb (is_empty_cell T l c)) (foreach_cell l)
     end).
(** Gate-level layouts use offset coordinates (bounding_box.hpp:134-144): all coordinates of the
    layout are visited. *)
Definition bb_gates (b : bbox) (st : glayout) : option bbox :=
  let ar := cl_dim (g_cl st) in
  match foreach_coordinate Offset (Z.to_nat (volume ar)) ar dead0 dead0 with
  | Some cs => Some (bb_update Offset b (is_empty st) None (List.filter (fun c => negb (is_empty_tile st c)) cs))
  | None => None
  end.
