(** Model of include/fiction/layouts/gate_level_layout.hpp: nodes, tiles, signals, counters,
    primary inputs and outputs, data flow, node functions.

    Simplifications.
    - A [signal] is a 64-bit word that packs a tile. The packing is a bijection between words and
      tiles (Theorem C01_pack_round_trip), so a signal is represented by the tile it packs.
    - The two hash maps are std++ finite maps. A node is its index in the node vector.
    - Event listeners, the user-controlled [value]/[visited]/[trav_id] fields and the layout name
      are not modelled: no modelled function reads them.
    - [data[0].h1] (fan-out counter and dead flag) and the counters are 32-bit words: explicit wraps.
    - An out-of-range node index in [move_node]/[connect] is undefined behaviour: result [None]. *)
From Coq Require Import ZArith Bool String List.
From stdpp Require Import gmap list strings pretty.
From Verif Require Import CoordModel GridModel CoordMap ClockModel.
Import ListNotations.
Local Open Scope Z_scope.

(** gate_level_layout.hpp:124-137, one entry of the node vector. *)
Record gnode := mkN { n_children : list coord; n_refs : Z; n_lit : Z }.

(** gate_level_layout.hpp:101-122 and mockturtle's storage (nodes, inputs, outputs). *)
Record glayout := mkG {
  g_cl    : clocked;            (* the clocked layout underneath *)
  g_nodes : list gnode;
  g_tn    : gmap coord nat;     (* tile_node_map *)
  g_nt    : gmap nat coord;     (* node_tile_map *)
  g_in    : list nat;           (* inputs: nodes *)
  g_out   : list coord;         (* outputs: signals *)
  g_gates : Z; g_wires : Z; g_cross : Z;
  g_names : gmap nat string
}.

Definition w32 (z : Z) : Z := z mod 4294967296.

Definition with_nodes st v := mkG (g_cl st) v (g_tn st) (g_nt st) (g_in st) (g_out st) (g_gates st) (g_wires st) (g_cross st) (g_names st).
Definition with_maps st a b := mkG (g_cl st) (g_nodes st) a b (g_in st) (g_out st) (g_gates st) (g_wires st) (g_cross st) (g_names st).
Definition with_in st v := mkG (g_cl st) (g_nodes st) (g_tn st) (g_nt st) v (g_out st) (g_gates st) (g_wires st) (g_cross st) (g_names st).
Definition with_out st v := mkG (g_cl st) (g_nodes st) (g_tn st) (g_nt st) (g_in st) v (g_gates st) (g_wires st) (g_cross st) (g_names st).
Definition with_counts st g w c := mkG (g_cl st) (g_nodes st) (g_tn st) (g_nt st) (g_in st) (g_out st) (w32 g) (w32 w) (w32 c) (g_names st).
Definition with_names st v := mkG (g_cl st) (g_nodes st) (g_tn st) (g_nt st) (g_in st) (g_out st) (g_gates st) (g_wires st) (g_cross st) v.
Definition with_cl st v := mkG v (g_nodes st) (g_tn st) (g_nt st) (g_in st) (g_out st) (g_gates st) (g_wires st) (g_cross st) (g_names st).

(** gate_level_layout.hpp:106-107: const0 = 0x8000000000000000, const1 = 0xc000000000000000. *)
Definition const0 : coord := mkC true 0 0 0.
Definition const1 : coord := mkC true 0 0 1.

(** gate_level_layout.hpp:158-188 with initialize_truth_table_cache (1719-1729): an empty layout has
    the two constant nodes, mapped to their reserved dead tiles (110-113). *)
Definition g_empty (cl : clocked) : glayout :=
  mkG cl [mkN [] 0 0; mkN [] 0 1]
      (<[const0 := 0%nat]> (<[const1 := 1%nat]> ∅)) (<[0%nat := const0]> (<[1%nat := const1]> ∅))
      [] [] 0 0 0 ∅.

(** gate_level_layout.hpp:666-684, get_node: 0 for a tile without a node. *)
Definition get_node (st : glayout) (t : coord) : nat := default 0%nat (g_tn st !! t).
(** gate_level_layout.hpp:692-700, get_tile: the default-constructed (dead) tile if not placed;
    make_signal (720-723) packs the result. *)
Definition get_tile (st : glayout) (n : nat) : coord := default const0 (g_nt st !! n).

(** gate_level_layout.hpp:248-256 *)
Definition is_constant (n : nat) : bool := Nat.leb n 1.
(** Node record; the default is never read for a node of the layout. *)
Definition node_at (st : glayout) (n : nat) : gnode := default (mkN [] 0 0) (g_nodes st !! n).
(** gate_level_layout.hpp:709-712 *)
Definition is_dead (st : glayout) (n : nat) : bool := Z.testbit (n_refs (node_at st n)) 31.
(** gate_level_layout.hpp:881-903: is_wire, is_wire_tile; 997-1008 is_empty_tile. *)
Definition is_wire (st : glayout) (n : nat) : bool := n_lit (node_at st n) =? 2.
Definition is_empty_tile (st : glayout) (t : coord) : bool := Nat.eqb (get_node st t) 0.
(** gate_level_layout.hpp:288-323: is_pi, is_po. *)
Definition is_pi (st : glayout) (n : nat) : bool := existsb (Nat.eqb n) (g_in st).
Definition is_po (st : glayout) (n : nat) : bool := existsb (fun p => Nat.eqb (get_node st p) n) (g_out st).
(** gate_level_layout.hpp:871-874 *)
Definition is_gate (st : glayout) (n : nat) : bool := (2 <=? n_lit (node_at st n)) && negb (is_pi st n).

(** Counters and lists as reported: gate_level_layout.hpp:550-617. *)
Definition gl_size (st : glayout) : Z := w32 (Z.of_nat (length (g_nodes st))).
Definition num_pis (st : glayout) : Z := w32 (Z.of_nat (length (g_in st))).
Definition num_pos (st : glayout) : Z := w32 (Z.of_nat (length (g_out st))).
Definition num_gates (st : glayout) : Z := g_gates st.
Definition num_wires (st : glayout) : Z := g_wires st.
Definition num_crossings (st : glayout) : Z := g_cross st.
Definition is_empty (st : glayout) : bool := (num_gates st =? 0) && (num_wires st =? 0).

(** gate_level_layout.hpp:376-399: set_name, get_name. *)
Definition set_name (st : glayout) (n : nat) (s : string) : glayout := with_names st (<[n := s]> (g_names st)).
Definition get_name (st : glayout) (n : nat) : string := default ""%string (g_names st !! n).
(** gate_level_layout.hpp:417-450: get_input_name, get_output_name. *)
Definition get_input_name (st : glayout) (i : nat) : string :=
  match g_in st !! i with Some n => get_name st n | None => ""%string end.
Definition get_output_name (st : glayout) (i : nat) : string :=
  match g_out st !! i with Some s => get_name st (get_node st s) | None => ""%string end.

(** data[0].h1++ / data[0].h1-- on the node behind a signal. *)
Definition inc_ref (st : glayout) (s : coord) : glayout :=
  with_nodes st (alter (fun x => mkN (n_children x) (w32 (n_refs x + 1)) (n_lit x)) (get_node st s) (g_nodes st)).
Definition dec_ref (st : glayout) (s : coord) : glayout :=
  with_nodes st (alter (fun x => mkN (n_children x) (w32 (n_refs x - 1)) (n_lit x)) (get_node st s) (g_nodes st)).
(** gate_level_layout.hpp:1783-1797: kill_node, revive_node. *)
Definition kill_node (st : glayout) (n : nat) : glayout :=
  if is_constant n then st
  else with_nodes st (alter (fun x => mkN (n_children x) (Z.lor (n_refs x) 2147483648) (n_lit x)) n (g_nodes st)).
Definition revive_node (st : glayout) (n : nat) : glayout :=
  if is_constant n then st
  else with_nodes st (alter (fun x => mkN (n_children x) (Z.land (n_refs x) 2147483647) (n_lit x)) n (g_nodes st)).
Definition set_children (st : glayout) (n : nat) (ch : list coord) : glayout :=
  with_nodes st (alter (fun x => mkN ch (n_refs x) (n_lit x)) n (g_nodes st)).

(** The crossing tests of clear_tile (808-819) and assign_node (1766-1775). *)
Definition cross_delta (st : glayout) (t : coord) : Z :=
  let ar := cl_dim (g_cl st) in
  (if is_crossing_layer t && negb (is_empty_tile st (below ar t)) then 1 else 0) +
  (if is_ground_layer t && is_crossing_layer (above ar t) && negb (is_empty_tile st (above ar t)) then 1 else 0).

(** std::find_if + erase (822-827): drop the first match. *)
Fixpoint erase_first {A} (p : A -> bool) (l : list A) : list A :=
  match l with [] => [] | x :: r => if p x then r else x :: erase_first p r end.

(** gate_level_layout.hpp:795-842, clear_tile. *)
Definition clear_tile (st : glayout) (t : coord) : glayout :=
  match g_tn st !! t with
  | None => st
  | Some n =>
    let st1 :=
      if cd t then st
      else if is_wire st n then
        with_out (with_counts st (g_gates st) (g_wires st - 1) (g_cross st - cross_delta st t))
                 (erase_first (fun p => Nat.eqb (get_node st p) n) (g_out st))
      else with_counts st (g_gates st - 1) (g_wires st) (g_cross st) in
    let st2 := kill_node st1 n in
    with_maps st2 (delete t (g_tn st2)) (delete n (g_nt st2))
  end.

(** gate_level_layout.hpp:1750-1781, assign_node. *)
Definition assign_node (st : glayout) (t : coord) (n : nat) : glayout :=
  if cd t then st
  else
    let st1 := clear_tile st t in
    let st2 := with_maps st1 (<[t := n]> (g_tn st1)) (<[n := t]> (g_nt st1)) in
    if is_wire st2 n
    then with_counts st2 (g_gates st2) (g_wires st2 + 1) (g_cross st2 + cross_delta st2 t)
    else with_counts st2 (g_gates st2 + 1) (g_wires st2) (g_cross st2).

(** emplace_back on the node vector; the index of the new node is the old size. *)
Definition push_node (st : glayout) (ch : list coord) (lit : Z) : glayout :=
  with_nodes st (g_nodes st ++ [mkN ch 0 lit]).

(** [name.empty() ? fmt::format(...) : name] *)
Definition default_name (name dflt : string) : string := if String.eqb name "" then dflt else name.

(** gate_level_layout.hpp:258-268, create_pi. *)
Definition create_pi (st : glayout) (name : string) (t : coord) : glayout :=
  let n := length (g_nodes st) in
  let st1 := push_node st [] 2 in
  let st2 := with_in st1 (g_in st1 ++ [n]) in
  let st3 := set_name st2 n (default_name name ("pi" +:+ pretty (length (g_in st2)))) in
  assign_node st3 t n.

(** gate_level_layout.hpp:270-284, create_po. *)
Definition create_po (st : glayout) (s : coord) (name : string) (t : coord) : glayout :=
  let n := length (g_nodes st) in
  let st1 := push_node st [] 2 in
  let st2 := with_out st1 (g_out st1 ++ [t]) in
  let st3 := set_name st2 n (default_name name ("po" +:+ pretty (length (g_out st2)))) in
  let st4 := assign_node st3 t n in
  let st5 := inc_ref st4 s in
  set_children st5 n (n_children (node_at st5 n) ++ [s]).

(** gate_level_layout.hpp:1808-1833, create_node_from_literal, behind create_buf ... create_maj
    (454-517) and create_node (519-529) for a non-empty list of children. *)
Definition create_lit (st : glayout) (ch : list coord) (lit : Z) (t : coord) : glayout :=
  let n := length (g_nodes st) in
  let st1 := push_node st ch lit in
  let st2 := fold_left inc_ref ch st1 in
  assign_node st2 t n.

(** gate_level_layout.hpp:732-766, move_node. *)
Definition move_node (st : glayout) (n : nat) (t : coord) (new_ch : list coord) : option glayout :=
  if Nat.ltb n (length (g_nodes st)) then
    let old_t := get_tile st n in
    let st1 := fold_left dec_ref (n_children (node_at st n)) st in
    let st2 := set_children st1 n [] in
    let st3 :=
      if coord_eqb t old_t then st2
      else
        let st3 := if cd t then st2
                   else with_out st2 (map (fun p => if coord_eqb p old_t then t else p) (g_out st2)) in
        let st4 := clear_tile st3 old_t in
        let st5 := assign_node st4 t n in
        revive_node st5 n in
    let st6 := set_children st3 n (n_children (node_at st3 n) ++ new_ch) in
    Some (fold_left inc_ref new_ch st6)
  else None.

(** gate_level_layout.hpp:776-784, connect. *)
Definition connect (st : glayout) (s : coord) (n : nat) : option glayout :=
  if is_constant n then Some st
  else if Nat.ltb n (length (g_nodes st)) then Some (set_children st n (n_children (node_at st n) ++ [s]))
  else None.

(** The mutating API. *)
Inductive gop :=
| CreatePi (name : string) (t : coord)
| CreatePo (s : coord) (name : string) (t : coord)
| CreateLit (children : list coord) (lit : Z) (t : coord)
| MoveNode (n : nat) (t : coord) (children : list coord)
| Connect (s : coord) (n : nat)
| ClearTile (t : coord)
| SetName (n : nat) (name : string)
| AssignClock (t : coord) (k : Z).

Definition g_step (st : glayout) (o : gop) : option glayout :=
  match o with
  | CreatePi nm t => Some (create_pi st nm t)
  | CreatePo s nm t => Some (create_po st s nm t)
  | CreateLit ch l t => Some (create_lit st ch l t)
  | MoveNode n t ch => move_node st n t ch
  | Connect s n => connect st s n
  | ClearTile t => Some (clear_tile st t)
  | SetName n nm => Some (set_name st n nm)
  | AssignClock t k => Some (with_cl st (assign_clock_number (g_cl st) t k))
  end.

Fixpoint g_run (st : glayout) (ops : list gop) : option glayout :=
  match ops with
  | [] => Some st
  | o :: r => match g_step st o with Some st' => g_run st' r | None => None end
  end.

(** *** Iteration, gate_level_layout.hpp:1022-1088 *)
Definition foreach_pi (st : glayout) : list nat := g_in st.
Definition foreach_po (st : glayout) : list coord := g_out st.
Definition foreach_node (st : glayout) : list nat :=
  List.filter (fun n => negb (is_dead st n)) (seq 0 (length (g_nodes st))).
Definition foreach_gate (st : glayout) : list nat :=
  List.filter (fun n => is_gate st n && negb (is_dead st n)) (seq 2 (length (g_nodes st) - 2)).
Definition foreach_wire (st : glayout) : list nat :=
  List.filter (fun n => is_wire st n && negb (is_dead st n)) (seq 2 (length (g_nodes st) - 2)).

(** *** Data flow *)
(** gate_level_layout.hpp:1835-1846, is_child *)
Definition is_child (st : glayout) (n : nat) (s : coord) : bool := existsb (coord_eqb s) (n_children (node_at st n)).

(** gate_level_layout.hpp:1102-1131, foreach_fanin<RespectClocking>: the signals passed to fn. *)
Definition foreach_fanin (rc : bool) (st : glayout) (n : nat) : list coord :=
  if is_constant n then []
  else
    let nt := get_tile st n in
    let l := g_cl st in
    map (fun c => get_tile st (get_node st c))
      (List.filter (fun c => let ct := get_tile st (get_node st c) in
                 is_adjacent_elevation_of (cl_topo l) (cl_dim l) nt ct &&
                 (if rc then is_incoming_clocked l nt ct else true))
              (n_children (node_at st n))).
(** gate_level_layout.hpp:1168-1221, foreach_fanout<RespectClocking>: the nodes passed to fn. *)
Definition fanout_at (st : glayout) (nt : coord) (out_t : coord) : list nat :=
  let ar := cl_dim (g_cl st) in
  let app adj_t := if is_child st (get_node st adj_t) nt then [get_node st adj_t] else [] in
  app out_t ++
  (if coord_eqb (above ar out_t) out_t then [] else app (above ar out_t)) ++
  (if coord_eqb (below ar out_t) out_t then [] else app (below ar out_t)).
Definition foreach_fanout (rc : bool) (st : glayout) (n : nat) : list nat :=
  if is_constant n then []
  else
    let nt := get_tile st n in
    let l := g_cl st in
    flat_map (fanout_at st nt) (if rc then outgoing_clocked_zones l nt else adjacent (cl_topo l) (cl_dim l) nt).
(** gate_level_layout.hpp:627-654, fanin_size, fanout_size; 1141-1152, 1231-1243 data flow. *)
Definition fanin_size (rc : bool) (st : glayout) (n : nat) : Z := Z.of_nat (length (foreach_fanin rc st n)).
Definition fanout_size (rc : bool) (st : glayout) (n : nat) : Z := Z.of_nat (length (foreach_fanout rc st n)).
Definition incoming_data_flow (rc : bool) (st : glayout) (t : coord) : list coord := foreach_fanin rc st (get_node st t).
Definition outgoing_data_flow (rc : bool) (st : glayout) (t : coord) : list coord :=
  map (get_tile st) (foreach_fanout rc st (get_node st t)).

(** *** Node functions *)
(** gate_level_layout.hpp:1719-1748 with mockturtle's truth table cache, which stores each inserted
    function (or its complement, if bit 0 is set) under the next even literal and answers odd
    literals with the complement. Result: number of variables and function word.
    Literals 0/1 are the constants, 2 = complement of lit_not = 0x1. *)
Definition fn_word (lit : Z) : option (Z * Z) :=
  match lit with
  | 0 => Some (0, 0)  | 1 => Some (0, 1)
  | 2 => Some (1, 2)  | 3 => Some (1, 1)      (* buffer (complement of 0x1), not 0x1 *)
  | 4 => Some (2, 8)  | 5 => Some (2, 7)      (* and 0x8, nand *)
  | 6 => Some (2, 14) | 7 => Some (2, 1)      (* or 0xe, nor *)
  | 8 => Some (2, 2)  | 9 => Some (2, 13)     (* lt 0x2, ge *)
  | 10 => Some (2, 4) | 11 => Some (2, 11)    (* le 0xb is not normal: its complement is stored *)
  | 12 => Some (2, 6) | 13 => Some (2, 9)     (* xor 0x6, xnor *)
  | 14 => Some (3, 232) | 15 => Some (3, 23)  (* maj 0xe8, minority *)
  | _ => None
  end.
(** gate_level_layout.hpp:1289-1316, compute: fan-in j contributes bit j of the index. *)
Fixpoint pattern (vs : list bool) : Z :=
  match vs with [] => 0 | b :: r => (if b then 1 else 0) + 2 * pattern r end.
Definition compute_lit (lit : Z) (vs : list bool) : option bool :=
  match fn_word lit with
  | Some (k, w) => if Z.of_nat (length vs) =? k then Some (Z.testbit w (pattern vs)) else None
  | None => None
  end.
Definition compute (st : glayout) (n : nat) (vs : list bool) : option bool := compute_lit (n_lit (node_at st n)) vs.

(** The literals behind the creation functions, gate_level_layout.hpp:454-517. *)
Inductive gate_fn := Fbuf | Fnot | Fand | Fnand | For | Fnor | Flt | Fge | Fgt | Fle | Fxor | Fxnor | Fmaj.
Definition lit_of (f : gate_fn) : Z :=
  match f with
  | Fbuf => 2 | Fnot => 3 | Fand => 4 | Fnand => 5 | For => 6 | Fnor => 7 | Flt => 8 | Fge => 9
  | Fgt => 10 | Fle => 11 | Fxor => 12 | Fxnor => 13 | Fmaj => 14
  end.
Definition create_fn (st : glayout) (f : gate_fn) (ch : list coord) (t : coord) : glayout := create_lit st ch (lit_of f) t.
