(** Model of include/fiction/algorithms/physical_design/orthogonal.hpp with the helpers it calls from
    utils/placement_utils.hpp and utils/network_utils.hpp.

    Simplifications.
    - The network is the one [orthogonal_impl] works on: already fanout-substituted, listed in the order of its topological view. A node is
      its position in that list. Constants (and gates with a constant fan-in, which [place] turns into gates without) are left out.
    - [fanout_view] lists the fan-outs of a node in the order of the underlying network, here in topological order. The order only matters
      for nodes with two gates as fan-outs, where the code either visits both or is not meant to be called.
    - Coordinates are unbounded here; the theorems assume that the layout size fits the coordinate type.
    - [restore_names], which assigns the same names to inputs and outputs again and names inner wires, and the statistics are left out.
    - Argument evaluation order is unspecified in C++: [wire_south] is evaluated before [wire_east] (they touch different tiles). *)
From Coq Require Import ZArith Bool String List.
From stdpp Require Import gmap list strings pretty.
From Verif Require Import CoordModel GridModel CoordMap ClockModel GateModel.
Import ListNotations.
Local Open Scope Z_scope.

(** A node of a technology network and the network in topological order; outputs with their names ("" = no name). *)
Inductive onode := OPi (name : string) | OGate (f : gate_fn) (ch : list nat).
Record onet := mkNet { o_nodes : list onode; o_pos : list (nat * string) }.

Definition o_size (net : onet) : nat := length (o_nodes net).
Definition o_node (net : onet) (n : nat) : onode := default (OPi "") (o_nodes net !! n).
(** network_utils.hpp:189-213, fanins (without constants). *)
Definition o_fanins (net : onet) (n : nat) : list nat := match o_node net n with OPi _ => [] | OGate _ ch => ch end.
Definition o_is_pi (net : onet) (n : nat) : bool := match o_node net n with OPi _ => true | OGate _ _ => false end.
(** mockturtle's fanout_view: the gates that have [n] as a fan-in, each once. *)
Definition o_fanouts (net : onet) (n : nat) : list nat :=
  List.filter (fun m => existsb (Nat.eqb n) (o_fanins net m)) (seq 0 (o_size net)).
Definition o_is_po (net : onet) (n : nat) : bool := existsb (fun p => Nat.eqb (fst p) n) (o_pos net).

(** *** Colouring, orthogonal.hpp:70-169 *)
Inductive color := Null | East | South.
Definition color_eqb (a b : color) : bool :=
  match a, b with Null, Null | East, East | South, South => true | _, _ => false end.
(** orthogonal.hpp:83-86 *)
Definition opposite_color (c : color) : color := match c with East => South | _ => East end.
(** edge_color_view.hpp:55-64 *)
Definition edge_color (ec : gmap (nat * nat) color) (e : nat * nat) : color := default Null (ec !! e).

Fixpoint fold_opt {A S} (f : A -> S -> option S) (l : list A) (s : S) : option S :=
  match l with [] => Some s | a :: r => match f a s with Some s' => fold_opt f r s' | None => None end end.

Definition edge_eqb (a b : nat * nat) : bool := Nat.eqb (fst a) (fst b) && Nat.eqb (snd a) (snd b).
(** orthogonal.hpp:89-122, recursively_paint_edges; [None] if the recursion does not end within [fuel] levels. *)
Fixpoint paint_edges (fuel : nat) (net : onet) (e : nat * nat) (c : color) (ec : gmap (nat * nat) color) : option (gmap (nat * nat) color) :=
  match fuel with
  | O => None
  | S fuel =>
    if negb (color_eqb (edge_color ec e) Null) then Some ec
    else
      let ec1 := <[e := c]> ec in
      match fold_opt (fun o => if edge_eqb (fst e, o) e then Some else paint_edges fuel net (fst e, o) (opposite_color c)) (o_fanouts net (fst e)) ec1 with
      | None => None
      | Some ec2 =>
        fold_opt (fun i => if edge_eqb (i, snd e) e then Some else paint_edges fuel net (i, snd e) c) (o_fanins net (snd e)) ec2
      end
  end.

(** orthogonal.hpp:124-169, east_south_edge_coloring: one gate. *)
Definition paint_gate (fuel : nat) (net : onet) (n : nat) (ec : gmap (nat * nat) color) : option (gmap (nat * nat) color) :=
  if o_is_pi net n then Some ec
  else
    let c := if existsb (fun f => color_eqb (edge_color ec (f, n)) East) (o_fanins net n) then East else South in
    fold_opt (fun f => paint_edges fuel net (f, n) c) (o_fanins net n) ec.
(** The number of edges bounds the depth of the recursion. *)
Definition paint_fuel (net : onet) : nat := S (S (list_sum (map (fun n => length (o_fanins net n)) (seq 0 (o_size net))))).
Definition edge_coloring (net : onet) : option (gmap (nat * nat) color) :=
  fold_opt (paint_gate (paint_fuel net) net) (rev (seq 0 (o_size net))) ∅.
(** orthogonal.hpp:146-158: the colour of a gate once its fan-in edges are painted (painted edges are never repainted). *)
Definition node_color (net : onet) (ec : gmap (nat * nat) color) (n : nat) : color :=
  if o_is_pi net n then Null
  else if forallb (fun f => color_eqb (edge_color ec (f, n)) East) (o_fanins net n) then East
  else if forallb (fun f => color_eqb (edge_color ec (f, n)) South) (o_fanins net n) then South
  else Null.

(** orthogonal.hpp:203-224, is_eastern_po_orientation_available: looks at the first fan-out only. *)
Definition eastern_po_available (net : onet) (ec : gmap (nat * nat) color) (n : nat) : bool :=
  match o_fanouts net n with [] => true | m :: _ => negb (color_eqb (node_color net ec m) East) end.

(** orthogonal.hpp:480-497: the nodes that occur in the list of outputs again. *)
Fixpoint repeated (seen : list nat) (l : list nat) : list nat :=
  match l with [] => [] | n :: r => (if existsb (Nat.eqb n) seen then [n] else []) ++ repeated (seen ++ [n]) r end.
Definition multi_output_nodes (net : onet) : list nat := repeated [] (map fst (o_pos net)).
Definition is_multi (net : onet) (n : nat) : bool := existsb (Nat.eqb n) (multi_output_nodes net).

(** orthogonal.hpp:226-287, determine_layout_size. *)
Definition count (p : nat -> bool) (l : list nat) : Z := Z.of_nat (length (List.filter p l)).
Definition node_columns (net : onet) (ec : gmap (nat * nat) color) (n : nat) : Z :=
  (if o_is_pi net n then count (fun m => color_eqb (node_color net ec m) South) (o_fanouts net n)
   else match node_color net ec n with South => 0 | _ => 1 end) +
  (if o_is_po net n && eastern_po_available net ec n then 1 else 0).
Definition node_rows (net : onet) (ec : gmap (nat * nat) color) (n : nat) : Z :=
  (if o_is_pi net n then 0 else match node_color net ec n with East => 0 | _ => 1 end) +
  (if o_is_po net n && negb (eastern_po_available net ec n) then 1 else 0).
Definition zsum (f : nat -> Z) (l : list nat) : Z := fold_right (fun n s => f n + s) 0 l.
Definition layout_size (net : onet) (ec : gmap (nat * nat) color) : coord :=
  let all := seq 0 (o_size net) in
  live (zsum (node_columns net ec) all)
       (count (o_is_pi net) all - 1 + zsum (node_rows net ec) all + Z.of_nat (length (multi_output_nodes net))) 1.

(** *** Wires and gates *)
(** The loop bodies of wire_east and wire_south (orthogonal.hpp:289-329): a buffer on each cell, in the layer above if the ground is taken. *)
Fixpoint wire (st : glayout) (a : coord) (cells : list (Z * Z)) : glayout * coord :=
  match cells with
  | [] => (st, a)
  | (x, y) :: r =>
    let t0 := live x y 0 in
    let t := if is_empty_tile st t0 then t0 else above (cl_dim (g_cl st)) t0 in
    wire (create_fn st Fbuf [a] t) t r
  end.
Definition zseq (a : Z) (k : nat) : list Z := map (fun i => a + Z.of_nat i) (seq 0 k).
(** orthogonal.hpp:289-307 and 309-329. *)
Definition wire_east (st : glayout) (src dest : coord) : glayout * coord :=
  wire st src (map (fun x => (x, cy src)) (zseq (cx src + 1) (Z.to_nat (cx dest - cx src - 1)))).
Definition wire_south (st : glayout) (src dest : coord) : glayout * coord :=
  wire st src (map (fun y => (cx src, y)) (zseq (cy src + 1) (Z.to_nat (cy dest - cy src - 1)))).

Definition binary (f : gate_fn) : bool := match f with Fbuf | Fnot | Fmaj => false | _ => true end.
Definition unary (f : gate_fn) : bool := match f with Fbuf | Fnot => true | _ => false end.
(** placement_utils.hpp:119-146 and 162-257, place; [None] for a node that is not supported. *)
Definition place1 (st : glayout) (t : coord) (f : gate_fn) (a : coord) : option glayout :=
  if unary f then Some (create_fn st f [a] t) else None.
Definition place2 (st : glayout) (t : coord) (f : gate_fn) (a b : coord) : option glayout :=
  if binary f then Some (create_fn st f [a; b] t) else None.

(** orthogonal.hpp:331-345, connect_and_place for two fan-ins. *)
Definition connect_and_place2 (st : glayout) (t : coord) (f : gate_fn) (p1 p2 : coord) : option glayout :=
  let '(p1, p2) := if coord_ltb p2 p1 then (p2, p1) else (p1, p2) in
  let '(st, a) := wire_south st p1 t in
  let '(st, b) := wire_east st p2 t in
  place2 st t f a b.
(** orthogonal.hpp:347-363, connect_and_place for one fan-in. *)
Definition connect_and_place1 (st : glayout) (t : coord) (f : gate_fn) (p : coord) : option glayout :=
  if is_westwards_of t p then let '(st, a) := wire_east st p t in place1 st t f a
  else if is_northwards_of t p then let '(st, a) := wire_south st p t in place1 st t f a
  else None.

(** placement_utils.hpp:41-71, reserve_input_nodes. *)
Definition o_pi_names (net : onet) : list string :=
  flat_map (fun n => match n with OPi nm => [nm] | OGate _ _ => [] end) (o_nodes net).
Fixpoint reserve_loop (st : glayout) (names : list string) : glayout :=
  match names with [] => st | nm :: r => reserve_loop (create_pi st nm (live 0 0 0)) r end.
Definition reserve_input_nodes (st : glayout) (net : onet) : option glayout :=
  let st := reserve_loop st (o_pi_names net) in move_node st (get_node st (live 0 0 0)) const0 [].

(** The state of the placement loop (orthogonal.hpp:505-652): layout, latest_pos, node2pos, number of inputs placed so far. *)
Record ostate := mkOS { os_lyt : glayout; os_x : Z; os_y : Z; os_pos : list coord; os_pis : nat }.
Definition os_at (s : ostate) (n : nat) : coord := default const0 (os_pos s !! n).

(** orthogonal.hpp:641-647: an additional row for an output that leaves to the south. *)
Definition po_row (net : onet) (ec : gmap (nat * nat) color) (n : nat) : Z :=
  if o_is_po net n && (negb (eastern_po_available net ec n) || is_multi net n) then 1 else 0.

(** orthogonal.hpp:519-654, the body of the loop for node [n]. *)
Definition place_node (net : onet) (ec : gmap (nat * nat) color) (n : nat) (s : ostate) : option ostate :=
  let st := os_lyt s in let X := os_x s in let Y := os_y s in
  let dy := po_row net ec n in
  match o_node net n with
  | OPi _ =>
    match move_node st (2 + os_pis s) (live 0 Y 0) [] with
    | None => None
    | Some st =>
      if match o_fanouts net n with [] => false | m :: _ => color_eqb (node_color net ec m) South end then
        let '(st, a) := wire_east st (live 0 Y 0) (live X Y 0) in
        Some (mkOS (create_fn st Fbuf [a] (live X Y 0)) (X + 1) (Y + 1 + dy) (os_pos s ++ [live X Y 0]) (S (os_pis s)))
      else Some (mkOS st X (Y + 1 + dy) (os_pos s ++ [live 0 Y 0]) (S (os_pis s)))
    end
  | OGate f [f1] =>
    let p := os_at s f1 in
    match node_color net ec n with
    | East =>
      let t := live X (cy p) 0 in
      match connect_and_place1 st t f p with Some st => Some (mkOS st (X + 1) (Y + dy) (os_pos s ++ [t]) (os_pis s)) | None => None end
    | South =>
      let t := live (cx p) Y 0 in
      match connect_and_place1 st t f p with Some st => Some (mkOS st X (Y + 1 + dy) (os_pos s ++ [t]) (os_pis s)) | None => None end
    | Null => None
    end
  | OGate f [f1; f2] =>
    let p1 := os_at s f1 in let p2 := os_at s f2 in
    match node_color net ec n with
    | East =>
      let '(p1, p2) := if cy p2 <? cy p1 then (p2, p1) else (p1, p2) in
      let t := live X (cy p2) 0 in
      let '(st, p1) := wire_east st p1 (live (X + 1) (cy p1) 0) in
      match connect_and_place2 st t f p1 p2 with Some st => Some (mkOS st (X + 1) (Y + dy) (os_pos s ++ [t]) (os_pis s)) | None => None end
    | South =>
      let '(p1, p2) := if cx p1 <? cx p2 then (p2, p1) else (p1, p2) in
      let t := live (cx p1) Y 0 in
      let '(st, p2) := wire_south st p2 (live (cx p2) (Y + 1) 0) in
      match connect_and_place2 st t f p1 p2 with Some st => Some (mkOS st X (Y + 1 + dy) (os_pos s ++ [t]) (os_pis s)) | None => None end
    | Null =>
      let ar := cl_dim (g_cl st) in
      let '(p1, p2) := if negb (is_empty_tile st (east ar p1)) || negb (is_empty_tile st (south ar p2)) then (p2, p1) else (p1, p2) in
      let t := live X Y 0 in
      let '(st, p1) := wire_east st p1 (live (X + 1) (cy p1) 0) in
      let '(st, p2) := wire_south st p2 (live (cx p2) (Y + 1) 0) in
      match connect_and_place2 st t f p1 p2 with Some st => Some (mkOS st (X + 1) (Y + 1 + dy) (os_pos s ++ [t]) (os_pis s)) | None => None end
    end
  | OGate _ _ => None
  end.

(** orthogonal.hpp:384-430, place_outputs: one output; [k] counts the outputs, [seen] lists the nodes of the earlier ones. *)
Definition place_output (net : onet) (ec : gmap (nat * nat) color) (pos : list coord) (seen : list nat) (k : nat) (n : nat) (name : string) (st : glayout) : glayout :=
  let n_s := default const0 (pos !! n) in
  let ar := cl_dim (g_cl st) in
  let multi := existsb (Nat.eqb n) seen in
  let nm := if String.eqb name "" then ("po" +:+ pretty k)%string else name in
  let '(st, t) := if negb (eastern_po_available net ec n) || multi then wire_south st n_s (live (cx n_s) (cy n_s + 2) 0) else (st, n_s) in
  if is_at_eastern_border ar (live (cx t + 1) (cy t) 0) && negb multi then create_po st n_s nm (live (cx t + 1) (cy t) (cz t))
  else
    let t' := eastern_border_of ar t in
    let '(st, a) := wire_east st t t' in create_po st a nm t'.
Fixpoint place_outputs (net : onet) (ec : gmap (nat * nat) color) (pos : list coord) (seen : list nat) (k : nat) (l : list (nat * string)) (st : glayout) : glayout :=
  match l with
  | [] => st
  | (n, nm) :: r => place_outputs net ec pos (seen ++ [n]) (S k) r (place_output net ec pos seen k n nm st)
  end.

(** orthogonal.hpp:472-671, run; 708-722, orthogonal. *)
Inductive ores := Thrown | Undefined | Done (st : glayout).
Definition orthogonal (net : onet) (clks : num_clks) : ores :=
  if existsb (fun n => Nat.ltb 2 (length (o_fanins net n))) (seq 0 (o_size net)) then Thrown
  else
    match edge_coloring net with
    | None => Undefined
    | Some ec =>
      match reserve_input_nodes (g_empty (mkCL Cartesian (layout_size net ec) (twoddwave_clocking Cartesian clks))) net with
      | None => Undefined
      | Some st =>
        match fold_opt (place_node net ec) (seq 0 (o_size net)) (mkOS st 1 0 [] 0) with
        | None => Undefined
        | Some s => Done (place_outputs net ec (os_pos s) [] 0 (o_pos net) (os_lyt s))
        end
      end
    end.
