(** Model of include/fiction/algorithms/physical_design/apply_gate_library.hpp, of relative_to_absolute_cell_position in
    include/fiction/utils/layout_utils.hpp, of include/fiction/technology/fcn_gate_library.hpp and of
    include/fiction/technology/qca_one_library.hpp.

    Simplifications. Cell-level layouts use offset coordinates. The layout name, progress bars, parameterized libraries and defect surfaces
    are left out. *)
From Coq Require Import ZArith Bool String Ascii List.
From stdpp Require Import gmap list.
From Verif Require Import CoordModel GridModel CoordMap ClockModel GateModel CellModel RouteModel.
Import List ListNotations.
Open Scope string_scope.
Open Scope list_scope.
Open Scope Z_scope.

(** ** Gate libraries *)

(** fcn_gate_library.hpp:143-151: an array of rows of cell types. *)
Notation gate := (list (list Z)).
Definition cell_at (e : Z) (g : gate) (x y : nat) : Z := nth x (nth y g []) e.
(** fcn_gate_library.hpp:182-185, cell_list_to_gate: characters are cell types. *)
Definition cells (rows : list string) : gate := map (fun r => map (fun a => Z.of_N (N_of_ascii a)) (list_ascii_of_string r)) rows.
(** fcn_gate_library.hpp:287-300, transpose. For gates that are not square the loops leave the arrays: the model is for squares of size [n]. *)
Definition transpose (e : Z) (n : nat) (g : gate) : gate :=
  map (fun y => map (fun x => cell_at e g y x) (seq 0 n)) (seq 0 n).
(** fcn_gate_library.hpp:307-328 *)
Definition reverse_columns (g : gate) : gate := map (@rev Z) g.
Definition reverse_rows (g : gate) : gate := rev g.
(** fcn_gate_library.hpp:192-215; the empty cell type is ' ' in all technologies. *)
Definition rotate_90 (n : nat) (g : gate) : gate := reverse_columns (transpose 32 n g).
Definition rotate_180 (n : nat) (g : gate) : gate := reverse_columns (reverse_rows g).
Definition rotate_270 (n : nat) (g : gate) : gate := transpose 32 n (reverse_columns g).
(** fcn_gate_library.hpp:223-243, merge, for squares of size [n]: the first index is the row although it is called x. *)
Definition merge (n : nat) (gates : list gate) : gate :=
  map (fun y => map (fun x => fold_left (fun m g => if cell_at 32 g x y =? 32 then m else cell_at 32 g x y) gates 32) (seq 0 n)) (seq 0 n).
(** fcn_gate_library.hpp:252-261, mark_cell. *)
Definition mark_cell (g : gate) (x y : nat) (mark : Z) : gate := alter (fun r => <[x := mark]> r) y g.

(** ** Positions of cells *)

(** The gate-level layouts that cells are laid out for: Cartesian, shifted Cartesian and hexagonal. A shifted Cartesian layout is a hexagonal one
    (shifted_cartesian_layout.hpp) whose tiles are rectangles. *)
Inductive plan := PCartesian | PShifted (a : hex_arr) | PHexagonal (a : hex_arr).
(** Which tiles are shifted (layout_utils.hpp:100-131 and 152-183): odd or even rows or columns. *)
Definition shifted_tile (a : hex_arr) (t : coord) : bool :=
  match a with
  | OddRow => cy t mod 2 =? 1
  | EvenRow => cy t mod 2 =? 0
  | OddColumn => cx t mod 2 =? 1
  | EvenColumn => cx t mod 2 =? 0
  end.
Definition w31 (z : Z) : Z := z mod 2 ^ 31.
(** layout_utils.hpp:65-196, relative_to_absolute_cell_position, with coordinates of 31 bits; half of a size is rounded down. *)
Definition relative_to_absolute_cell_position (gx gy : Z) (p : plan) (t : coord) (rx ry : Z) : coord :=
  let shift a (x y : Z) :=
    if shifted_tile a t then if pointy a then (w31 (x + gx / 2), y) else (x, w31 (y + gy / 2)) else (x, y) in
  let '(x, y) :=
    match p with
    | PCartesian => (w31 (cx t * gx), w31 (cy t * gy))
    | PShifted a => shift a (w31 (cx t * gx)) (w31 (cy t * gy))
    | PHexagonal a => if pointy a then shift a (w31 (cx t * gx)) (w31 (cy t * (gy * 3 / 4)))
                      else shift a (w31 (cx t * (gx * 3 / 4))) (w31 (cy t * gy))
    end in
  live (w31 (x + rx)) (w31 (y + ry)) (cz t).

(** ** Applying a gate library *)

(** apply_gate_library.hpp:255-274, determine_aspect_ratio_for_cell_level_layout. *)
Definition cell_aspect_ratio (gx gy : Z) (p : plan) (ar : coord) : coord :=
  let pos t := relative_to_absolute_cell_position gx gy p t (gx - 1) (gy - 1) in
  let fx := if cx ar =? 0 then 0 else 1 in
  let fy := if cy ar =? 0 then 0 else 1 in
  live (Z.max (cx (pos (live (cx ar) 0 0))) (cx (pos (live (cx ar) fy 0))))
       (Z.max (cy (pos (live 0 (cy ar) 0))) (cy (pos (live fx (cy ar) 0)))) (cz ar).
(** apply_gate_library.hpp:43-63, the constructor: the clocking scheme is taken over. *)
Definition cell_layout (gx gy : Z) (p : plan) (st : glayout) : clayout :=
  c_new (mkCL Cartesian (cell_aspect_ratio gx gy p (cl_dim (g_cl st))) (cl_scheme (g_cl st))) gx gy.
(** apply_gate_library.hpp:221-246, assign_gate, as the calls it makes; [c] is the first cell of the tile. *)
Definition assign_cell (T : tech) (pos : coord) (name : string) (ct : Z) : list cop :=
  (if t_is_empty T ct then [] else [AssignType pos ct]) ++
  (if t_is_input T ct || t_is_output T ct then [AssignName pos name] else []).
Fixpoint assign_row (T : tech) (c : coord) (y x : Z) (row : list Z) (name : string) : list cop :=
  match row with
  | [] => []
  | ct :: r => assign_cell T (live (w31 (cx c + x)) (w31 (cy c + y)) (cz c)) name ct ++ assign_row T c y (x + 1) r name
  end.
Fixpoint assign_rows (T : tech) (c : coord) (y : Z) (g : gate) (name : string) : list cop :=
  match g with
  | [] => []
  | row :: r => assign_row T c y 0 row name ++ assign_rows T c (y + 1) r name
  end.
(** A library: set_up_gate of a layout and a tile; [None]: an exception is thrown. *)
Definition library := glayout -> coord -> option gate.
(** apply_gate_library.hpp:84-102, the loop over the nodes, as the calls it makes. *)
Fixpoint apply_gates (T : tech) (gx gy : Z) (p : plan) (lib : library) (st : glayout) (ns : list nat) : option (list cop) :=
  match ns with
  | [] => Some []
  | n :: r =>
      let t := get_tile st n in
      match lib st t, apply_gates T gx gy p lib st r with
      | Some g, Some ops => Some (assign_rows T (relative_to_absolute_cell_position gx gy p t 0 0) 0 g (get_name st n) ++ ops)
      | _, _ => None
      end
  end.
(** apply_gate_library.hpp:77-131, run_static_gate_library without post-layout optimization. [None]: an exception is thrown. *)
Definition apply_gate_library (T : tech) (gx gy : Z) (p : plan) (lib : library) (st : glayout) : option clayout :=
  option_map (c_run T (cell_layout gx gy p st))
    (apply_gates T gx gy p lib st (List.filter (fun n => negb (is_constant n)) (foreach_node st))).

(** ** QCA ONE *)

(** cell_ports.hpp:28-78, 175-215: positions are compared by x and y only; sets of positions as lists. *)
Record ports := mkP { inp : list (Z * Z); out : list (Z * Z) }.
Definition pos_in (l : list (Z * Z)) (p : Z * Z) : bool := existsb (fun q => (fst p =? fst q) && (snd p =? snd q)) l.
Definition same_set (a b : list (Z * Z)) : bool := forallb (pos_in b) a && forallb (pos_in a) b.
Definition same_ports (p q : ports) : bool := same_set (inp p) (inp q) && same_set (out p) (out q).
Definition map_at (m : list (ports * gate)) (p : ports) : option gate := option_map snd (List.find (fun e => same_ports (fst e) p) m).

(** qca_one_library.hpp:212-219 *)
Definition STRAIGHT_INVERTER : gate := cells ["  x  "; " xxx "; " x x "; "  x  "; "  x  "].
(** qca_one_library.hpp:221-228 *)
Definition BENT_INVERTER : gate := cells ["  x  "; "  x  "; "   xx"; "     "; "     "].
(** qca_one_library.hpp:230-237 *)
Definition CONJUNCTION : gate := cells ["  0  "; "  x  "; "xxxxx"; "  x  "; "  x  "].
(** qca_one_library.hpp:239-246 *)
Definition DISJUNCTION : gate := cells ["  1  "; "  x  "; "xxxxx"; "  x  "; "  x  "].
(** qca_one_library.hpp:248-255 *)
Definition MAJORITY : gate := cells ["  x  "; "  x  "; "xxxxx"; "  x  "; "  x  "].
(** qca_one_library.hpp:257-264 *)
Definition FAN_OUT_1_2 : gate := cells ["     "; "     "; "xxxxx"; "  x  "; "  x  "].
(** qca_one_library.hpp:266-273 *)
Definition FAN_OUT_1_3 : gate := cells ["  x  "; "  x  "; "xxxxx"; "  x  "; "  x  "].
(** qca_one_library.hpp:279-286 *)
Definition PRIMARY_INPUT_PORT : gate := cells ["  x  "; "  x  "; "  i  "; "     "; "     "].
(** qca_one_library.hpp:288-295 *)
Definition PRIMARY_OUTPUT_PORT : gate := cells ["  x  "; "  x  "; "  o  "; "     "; "     "].
(** qca_one_library.hpp:297-304 *)
Definition CENTER_WIRE : gate := cells ["  x  "; "  x  "; "  x  "; "  x  "; "  x  "].
(** qca_one_library.hpp:306-313 *)
Definition INNER_SIDE_WIRE : gate := cells ["   x "; "   x "; "   x "; "   x "; "   x "].
(** qca_one_library.hpp:315-322 *)
Definition OUTER_SIDE_WIRE : gate := cells ["    x"; "    x"; "    x"; "    x"; "    x"].
(** qca_one_library.hpp:324-331 *)
Definition CENTER_BENT_WIRE : gate := cells ["  x  "; "  x  "; "  xxx"; "     "; "     "].

(** qca_one_library.hpp:395-439 *)
Definition WIRE_MAP : list (ports * gate) :=
  [(mkP [] [(2, 0)], PRIMARY_INPUT_PORT);
   (mkP [] [(4, 2)], rotate_90 5 PRIMARY_INPUT_PORT);
   (mkP [] [(2, 4)], rotate_180 5 PRIMARY_INPUT_PORT);
   (mkP [] [(0, 2)], rotate_270 5 PRIMARY_INPUT_PORT);
   (mkP [(2, 0)] [], PRIMARY_OUTPUT_PORT);
   (mkP [(4, 2)] [], rotate_90 5 PRIMARY_OUTPUT_PORT);
   (mkP [(2, 4)] [], rotate_180 5 PRIMARY_OUTPUT_PORT);
   (mkP [(0, 2)] [], rotate_270 5 PRIMARY_OUTPUT_PORT);
   (mkP [(2, 0)] [(2, 4)], CENTER_WIRE);
   (mkP [(2, 4)] [(2, 0)], CENTER_WIRE);
   (mkP [(0, 2)] [(4, 2)], rotate_90 5 CENTER_WIRE);
   (mkP [(4, 2)] [(0, 2)], rotate_90 5 CENTER_WIRE);
   (mkP [(3, 0)] [(3, 4)], INNER_SIDE_WIRE);
   (mkP [(3, 4)] [(3, 0)], INNER_SIDE_WIRE);
   (mkP [(0, 3)] [(4, 3)], rotate_90 5 INNER_SIDE_WIRE);
   (mkP [(4, 3)] [(0, 3)], rotate_90 5 INNER_SIDE_WIRE);
   (mkP [(1, 0)] [(1, 4)], rotate_180 5 INNER_SIDE_WIRE);
   (mkP [(1, 4)] [(1, 0)], rotate_180 5 INNER_SIDE_WIRE);
   (mkP [(0, 1)] [(4, 1)], rotate_270 5 INNER_SIDE_WIRE);
   (mkP [(4, 1)] [(0, 1)], rotate_270 5 INNER_SIDE_WIRE);
   (mkP [(4, 0)] [(4, 4)], OUTER_SIDE_WIRE);
   (mkP [(4, 4)] [(4, 0)], OUTER_SIDE_WIRE);
   (mkP [(0, 4)] [(4, 4)], rotate_90 5 OUTER_SIDE_WIRE);
   (mkP [(4, 4)] [(0, 4)], rotate_90 5 OUTER_SIDE_WIRE);
   (mkP [(0, 0)] [(0, 4)], rotate_180 5 OUTER_SIDE_WIRE);
   (mkP [(0, 4)] [(0, 0)], rotate_180 5 OUTER_SIDE_WIRE);
   (mkP [(0, 0)] [(4, 0)], rotate_270 5 OUTER_SIDE_WIRE);
   (mkP [(4, 0)] [(0, 0)], rotate_270 5 OUTER_SIDE_WIRE);
   (mkP [(2, 0)] [(4, 2)], CENTER_BENT_WIRE);
   (mkP [(4, 2)] [(2, 0)], CENTER_BENT_WIRE);
   (mkP [(4, 2)] [(2, 4)], rotate_90 5 CENTER_BENT_WIRE);
   (mkP [(2, 4)] [(4, 2)], rotate_90 5 CENTER_BENT_WIRE);
   (mkP [(0, 2)] [(2, 4)], rotate_180 5 CENTER_BENT_WIRE);
   (mkP [(2, 4)] [(0, 2)], rotate_180 5 CENTER_BENT_WIRE);
   (mkP [(2, 0)] [(0, 2)], rotate_270 5 CENTER_BENT_WIRE);
   (mkP [(0, 2)] [(2, 0)], rotate_270 5 CENTER_BENT_WIRE)].
(** qca_one_library.hpp:443-467 *)
Definition INVERTER_MAP : list (ports * gate) :=
  [(mkP [(2, 0)] [(2, 4)], STRAIGHT_INVERTER);
   (mkP [(4, 2)] [(0, 2)], rotate_90 5 STRAIGHT_INVERTER);
   (mkP [(2, 4)] [(2, 0)], rotate_180 5 STRAIGHT_INVERTER);
   (mkP [(0, 2)] [(4, 2)], rotate_270 5 STRAIGHT_INVERTER);
   (mkP [(2, 0)] [], STRAIGHT_INVERTER);
   (mkP [(4, 2)] [], rotate_90 5 STRAIGHT_INVERTER);
   (mkP [(2, 4)] [], rotate_180 5 STRAIGHT_INVERTER);
   (mkP [(0, 2)] [], rotate_270 5 STRAIGHT_INVERTER);
   (mkP [] [(2, 4)], STRAIGHT_INVERTER);
   (mkP [] [(0, 2)], rotate_90 5 STRAIGHT_INVERTER);
   (mkP [] [(2, 0)], rotate_180 5 STRAIGHT_INVERTER);
   (mkP [] [(4, 2)], rotate_270 5 STRAIGHT_INVERTER);
   (mkP [(2, 0)] [(4, 2)], BENT_INVERTER);
   (mkP [(4, 2)] [(2, 0)], BENT_INVERTER);
   (mkP [(4, 2)] [(2, 4)], rotate_90 5 BENT_INVERTER);
   (mkP [(2, 4)] [(4, 2)], rotate_90 5 BENT_INVERTER);
   (mkP [(0, 2)] [(2, 4)], rotate_180 5 BENT_INVERTER);
   (mkP [(2, 4)] [(0, 2)], rotate_180 5 BENT_INVERTER);
   (mkP [(2, 0)] [(0, 2)], rotate_270 5 BENT_INVERTER);
   (mkP [(0, 2)] [(2, 0)], rotate_270 5 BENT_INVERTER)].
(** qca_one_library.hpp:471-486 *)
Definition CONJUNCTION_MAP : list (ports * gate) :=
  [(mkP [(0, 2); (2, 4)] [(4, 2)], CONJUNCTION);
   (mkP [(0, 2); (4, 2)] [(2, 4)], CONJUNCTION);
   (mkP [(2, 4); (4, 2)] [(0, 2)], CONJUNCTION);
   (mkP [(0, 2); (2, 4)] [(2, 0)], rotate_90 5 CONJUNCTION);
   (mkP [(0, 2); (2, 0)] [(2, 4)], rotate_90 5 CONJUNCTION);
   (mkP [(2, 4); (2, 0)] [(0, 2)], rotate_90 5 CONJUNCTION);
   (mkP [(0, 2); (4, 2)] [(2, 0)], rotate_180 5 CONJUNCTION);
   (mkP [(0, 2); (2, 0)] [(4, 2)], rotate_180 5 CONJUNCTION);
   (mkP [(4, 2); (2, 0)] [(0, 2)], rotate_180 5 CONJUNCTION);
   (mkP [(2, 4); (4, 2)] [(2, 0)], rotate_270 5 CONJUNCTION);
   (mkP [(2, 4); (2, 0)] [(4, 2)], rotate_270 5 CONJUNCTION);
   (mkP [(4, 2); (2, 0)] [(2, 4)], rotate_270 5 CONJUNCTION)].
(** qca_one_library.hpp:490-505 *)
Definition DISJUNCTION_MAP : list (ports * gate) :=
  [(mkP [(0, 2); (2, 4)] [(4, 2)], DISJUNCTION);
   (mkP [(0, 2); (4, 2)] [(2, 4)], DISJUNCTION);
   (mkP [(2, 4); (4, 2)] [(0, 2)], DISJUNCTION);
   (mkP [(0, 2); (2, 4)] [(2, 0)], rotate_90 5 DISJUNCTION);
   (mkP [(0, 2); (2, 0)] [(2, 4)], rotate_90 5 DISJUNCTION);
   (mkP [(2, 4); (2, 0)] [(0, 2)], rotate_90 5 DISJUNCTION);
   (mkP [(0, 2); (4, 2)] [(2, 0)], rotate_180 5 DISJUNCTION);
   (mkP [(0, 2); (2, 0)] [(4, 2)], rotate_180 5 DISJUNCTION);
   (mkP [(4, 2); (2, 0)] [(0, 2)], rotate_180 5 DISJUNCTION);
   (mkP [(2, 4); (4, 2)] [(2, 0)], rotate_270 5 DISJUNCTION);
   (mkP [(2, 4); (2, 0)] [(4, 2)], rotate_270 5 DISJUNCTION);
   (mkP [(4, 2); (2, 0)] [(2, 4)], rotate_270 5 DISJUNCTION)].
(** qca_one_library.hpp:509-524 *)
Definition FANOUT_MAP : list (ports * gate) :=
  [(mkP [(4, 2)] [(0, 2); (2, 4)], FAN_OUT_1_2);
   (mkP [(2, 4)] [(0, 2); (4, 2)], FAN_OUT_1_2);
   (mkP [(0, 2)] [(2, 4); (4, 2)], FAN_OUT_1_2);
   (mkP [(2, 0)] [(0, 2); (2, 4)], rotate_90 5 FAN_OUT_1_2);
   (mkP [(2, 4)] [(0, 2); (2, 0)], rotate_90 5 FAN_OUT_1_2);
   (mkP [(0, 2)] [(2, 4); (2, 0)], rotate_90 5 FAN_OUT_1_2);
   (mkP [(2, 0)] [(0, 2); (4, 2)], rotate_180 5 FAN_OUT_1_2);
   (mkP [(4, 2)] [(0, 2); (2, 0)], rotate_180 5 FAN_OUT_1_2);
   (mkP [(0, 2)] [(4, 2); (2, 0)], rotate_180 5 FAN_OUT_1_2);
   (mkP [(2, 0)] [(2, 4); (4, 2)], rotate_270 5 FAN_OUT_1_2);
   (mkP [(4, 2)] [(2, 4); (2, 0)], rotate_270 5 FAN_OUT_1_2);
   (mkP [(2, 4)] [(4, 2); (2, 0)], rotate_270 5 FAN_OUT_1_2)].

(** qca_one_library.hpp:148-204, determine_port_routing. *)
Definition determine_port_routing (st : glayout) (t : coord) : ports :=
  let i (dir : coord -> coord -> coord) (p : Z * Z) := if has_incoming_from dir true st t then [p] else [] in
  let o (dir : coord -> coord -> coord) (p : Z * Z) := if has_outgoing_to dir true st t then [p] else [] in
  let n := get_node st t in
  let gate_tile := negb (is_wire st n) && negb (n_lit (node_at st n) =? 3) in
  mkP (i north (2, 0) ++ i east (4, 2) ++ i south (2, 4) ++ i west (0, 2) ++
       (if gate_tile && has_no_incoming_signal true st t then [(0, 2)] else []))
      (o north (2, 0) ++ o east (4, 2) ++ o south (2, 4) ++ o west (0, 2) ++
       (if gate_tile && has_no_outgoing_signal true st t then [(4, 2)] else [])).
(** qca_one_library.hpp:46-111, set_up_gate. *)
Inductive setup := SGate (g : gate) | SOrientation (p : ports) | SType.
Definition from_map (m : list (ports * gate)) (p : ports) : setup := match map_at m p with Some g => SGate g | None => SOrientation p end.
Definition qca_one_set_up_gate (st : glayout) (t : coord) : setup :=
  let n := get_node st t in
  let p := determine_port_routing st t in
  let lit := n_lit (node_at st n) in
  if is_fanout st n && (fanout_size true st n =? 2) then from_map FANOUT_MAP p
  else if is_fanout st n && (fanout_size true st n =? 3) then SGate FAN_OUT_1_3
  else if is_wire st n then from_map WIRE_MAP p
  else if lit =? 3 then from_map INVERTER_MAP p
  else if lit =? 4 then from_map CONJUNCTION_MAP p
  else if lit =? 6 then from_map DISJUNCTION_MAP p
  else if lit =? 14 then SGate MAJORITY
  else SType.
Definition qca_one : library := fun st t => match qca_one_set_up_gate st t with SGate g => Some g | _ => None end.
(** qca_one_library.hpp:119-145, post_layout_optimization: NORMAL is 'x', VERTICAL is 2. *)
Definition via_step (l : clayout) (c : coord) : clayout :=
  if is_crossing_layer c && negb (is_empty_cell qca l c) &&
     (Z.of_nat (length (List.filter (fun ac => negb (is_empty_cell qca l ac)) (c_adjacent (cl_dim (c_cl l)) c))) <=? 1)
  then let g := live (cx c) (cy c) 0 in
       c_run qca l [AssignMode c 2; AssignType g 120; AssignMode g 2]
  else l.
(** [None]: the loop over the coordinates does not end. *)
Definition post_layout_optimization (l : clayout) : option clayout :=
  let ar := cl_dim (c_cl l) in
  option_map (fun cs => fold_left via_step cs l) (foreach_coordinate Offset (Z.to_nat (volume ar)) ar dead0 dead0).
(** apply_gate_library<qca_cell_clk_lyt, qca_one_library>. *)
Definition apply_qca_one (st : glayout) : option clayout :=
  match apply_gate_library qca 5 5 PCartesian qca_one st with
  | Some l => post_layout_optimization l
  | None => None
  end.
