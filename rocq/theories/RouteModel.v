(** Model of include/fiction/utils/routing_utils.hpp (route_path, extract_routing_objectives, clear_routing),
    include/fiction/algorithms/properties/critical_path_length_and_throughput.hpp and
    include/fiction/algorithms/verification/design_rule_violations.hpp. *)
From Coq Require Import ZArith Bool List.
From stdpp Require Import gmap list.
From Verif Require Import CoordModel GridModel CoordMap ClockModel GateModel.
Import ListNotations.
Local Open Scope Z_scope.

(** gate_level_layout.hpp:306-309, 333-336, 995-998 and 964-967: is_pi_tile, is_po_tile, is_wire_tile, is_fanout. *)
Definition is_pi_tile (st : glayout) (t : coord) : bool := is_pi st (get_node st t).
Definition is_po_tile (st : glayout) (t : coord) : bool := is_po st (get_node st t).
Definition is_wire_tile (st : glayout) (t : coord) : bool := is_wire st (get_node st t).
Definition is_fanout (st : glayout) (n : nat) : bool := is_wire st n && (1 <? fanout_size true st n).

(** ** Routing *)

(** routing_utils.hpp:205-208, the loop over the inner coordinates of the path: layout and current signal. *)
Definition route_hop (s : glayout * coord) (c : coord) : glayout * coord :=
  let '(st, sig) := s in
  let t := if is_empty_tile st c then c else above (cl_dim (g_cl st)) c in
  (create_lit st [sig] 2 t, t).
(** routing_utils.hpp:198-212, route_path; iterating from the second to the last but one coordinate is undefined for
    shorter paths: [None]. *)
Definition route_path (st : glayout) (path : list coord) : option glayout :=
  match path with
  | src :: rest =>
    match rest with
    | [] => None
    | _ => let '(st1, sig) := fold_left route_hop (removelast rest) (st, src) in
           connect st1 sig (get_node st1 (List.last rest src))
    end
  | [] => None
  end.

(** routing_utils.hpp:238-240, is_connection_wire. *)
Definition is_connection_wire (st : glayout) (n : nat) : bool :=
  is_wire st n && negb (is_fanout st n) && negb (is_pi st n) && negb (is_po st n).
(** routing_utils.hpp:241-265, recursively_traverse_paths. The state: visited nodes and objectives found so far. [None]: recursion
    deeper than the fuel. *)
Fixpoint traverse (fuel : nat) (st : glayout) (recent : coord) (n : nat) (acc : gset nat * list (coord * coord))
    : option (gset nat * list (coord * coord)) :=
  match fuel with
  | O => None
  | S f =>
    let '(visited, objectives) := acc in
    let conn := is_connection_wire st n in
    let current := if conn then recent else get_tile st n in
    let objectives1 := if conn then objectives else objectives ++ [(recent, current)] in
    if bool_decide (n ∈ visited) then Some (visited, objectives1)
    else fold_left (fun a m => match a with Some x => traverse f st current m x | None => None end)
                   (foreach_fanout true st n) (Some ({[ n ]} ∪ visited, objectives1))
  end.
(** routing_utils.hpp:229-275, extract_routing_objectives. *)
Definition extract_routing_objectives (fuel : nat) (st : glayout) : option (list (coord * coord)) :=
  option_map snd
    (fold_left (fun a pi => fold_left (fun a m => match a with Some x => traverse fuel st (get_tile st pi) m x | None => None end)
                                      (foreach_fanout true st pi) a)
               (foreach_pi st) (Some (∅, []))).

(** routing_utils.hpp:292-312, the function clear_routing applies to each node. *)
Definition clear_step (st : glayout) (g : nat) : option glayout :=
  if is_constant g then Some st
  else
    let t := get_tile st g in
    if is_wire st g && negb (is_fanout st g) && negb (is_pi st g) && negb (is_po st g) then Some (clear_tile st t)
    else move_node st g t [].
(** routing_utils.hpp:283-313, clear_routing. foreach_node checks deadness when it reaches a node. *)
Definition clear_routing (st : glayout) : option glayout :=
  fold_left (fun a g => match a with Some s => if is_dead s g then Some s else clear_step s g | None => None end)
            (seq 0 (length (g_nodes st))) (Some st).

(** ** Critical path length and throughput *)

(** critical_path_length_and_throughput.hpp:80-86, path_info. *)
Record path_info := mkPI { pi_length : Z; pi_delay : Z; pi_diff : Z }.
Definition w64 (z : Z) : Z := z mod 18446744073709551616.
(** std::sort by length on at most 16 elements is a (stable) insertion sort; libstdc++, bits/stl_algo.h. *)
Fixpoint insert_info (x : path_info) (l : list path_info) : list path_info :=
  match l with
  | [] => [x]
  | y :: r => if pi_length x <? pi_length y then x :: l else y :: insert_info x r
  end.
Definition sort_infos (l : list path_info) : list path_info := fold_left (fun a x => insert_info x a) l [].
(** critical_path_length_and_throughput.hpp:114-138: the dominant path. *)
Definition dominant (infos : list path_info) : path_info :=
  match infos with
  | [i] => i
  | _ => match sort_infos infos with
         | [] => mkPI 0 0 0
         | f :: r => let b := List.last (f :: r) f in
                     let d := w64 (pi_delay b - pi_delay f) in
                     (* static_cast<int64_t>, std::abs *)
                     mkPI (pi_length b) (pi_delay b) (if d <? 9223372036854775808 then d else 18446744073709551616 - d)
         end
  end.
(** critical_path_length_and_throughput.hpp:90-149, signal_delay; the second component is the delay cache. [None]: recursion deeper than the fuel. *)
Fixpoint signal_delay (fuel : nat) (st : glayout) (t : coord) (cache : gmap coord path_info)
    : option (path_info * gmap coord path_info) :=
  match fuel with
  | O => None
  | S f =>
    if is_empty_tile st t then Some (mkPI 0 0 0, cache)
    else
      match incoming_data_flow true st t with
      | [] => Some (mkPI 1 (get_clock_number (g_cl st) t) 0, cache)
      | idf =>
        match cache !! t with
        | Some i => Some (i, cache)
        | None =>
          match fold_left (fun a u => match a with
                                      | Some (infos, c) => match signal_delay f st u c with
                                                           | Some (i, c') => Some (infos ++ [i], c')
                                                           | None => None end
                                      | None => None end) idf (Some ([], cache)) with
          | None => None
          | Some (infos, cache1) =>
            let infos1 := if is_pi_tile st t
                          then infos ++ [mkPI 1 ((get_clock_number (g_cl st) t + (num_clocks (g_cl st) - 1)) mod num_clocks (g_cl st)) 0]
                          else infos in
            let d := dominant infos1 in
            let p := mkPI (w64 (pi_length d + 1)) (w64 (pi_delay d + 1)) (pi_diff d) in
            Some (p, if is_wire_tile st t then cache1 else <[t := p]> cache1)
          end
        end
      end
  end.
(** critical_path_length_and_throughput.hpp:44-69, run: critical path length and throughput. *)
Definition critical_path_and_throughput (fuel : nat) (st : glayout) : option (Z * Z) :=
  match fold_left (fun a po => match a with
                               | Some (l, c) => match signal_delay fuel st po c with
                                                | Some (i, c') => Some (Z.max (pi_length i) l, c')
                                                | None => None end
                               | None => None end) (foreach_po st) (Some (0, ∅)) with
  | None => None
  | Some (l, cache) =>
    let max_diff := fold_left (fun m e => Z.max m (pi_diff (snd e))) (map_to_list cache) 0 in
    Some (l, max_diff / num_clocks (g_cl st) + 1)
  end.

(** ** Design rule violations *)

(** Each check returns the sites it logs; every logged site counts once. [tiles]: the sequence of foreach_tile
    (tile_based_layout.hpp:67-70, foreach_coordinate). *)
Section Drv.
Context (st : glayout) (tiles : list coord).
Let l := g_cl st.
(** design_rule_violations.hpp:315-343, unplaced_nodes_check (warnings). *)
Definition unplaced_nodes : list nat := List.filter (fun n => negb (is_constant n) && cd (get_tile st n)) (foreach_node st).
(** design_rule_violations.hpp:349-379, placed_dead_nodes_check (warnings). *)
Definition placed_dead_nodes : list coord :=
  List.filter (fun t => negb (is_empty_tile st t) && is_dead st (get_node st t)) tiles.
(** The connections examined by non_adjacent_connections_check and clocked_data_flow_check: tile and tile of the fan-in. *)
Definition connections : list (coord * coord) :=
  flat_map (fun t => if is_empty_tile st t then []
                     else map (fun c => (t, get_tile st (get_node st c))) (n_children (node_at st (get_node st t)))) tiles.
(** design_rule_violations.hpp:385-421. *)
Definition non_adjacent_connections : list (coord * coord) :=
  List.filter (fun p => negb (is_adjacent_elevation_of (cl_topo l) (cl_dim l) (fst p) (snd p))) connections.
(** design_rule_violations.hpp:427-460. *)
Definition missing_connections : list coord :=
  List.filter (fun t => negb (is_empty_tile st t) &&
                   (((fanout_size true st (get_node st t) =? 0) && negb (is_po_tile st t)) ||
                    ((fanin_size true st (get_node st t) =? 0) && negb (is_pi_tile st t)))) tiles.
(** design_rule_violations.hpp:466-492. *)
Definition crossing_gates : list nat :=
  List.filter (fun w => is_crossing_layer (get_tile st w) && negb (is_wire_tile st (below (cl_dim l) (get_tile st w)))) (foreach_wire st).
(** design_rule_violations.hpp:498-534. *)
Definition improperly_clocked : list (coord * coord) :=
  List.filter (fun p => negb (is_incoming_clocked l (fst p) (snd p))) connections.
(** design_rule_violations.hpp:539-577: number of violations. The counters of the loops are 32-bit as well. *)
Definition has_io_violations : Z := (if num_pis st =? 0 then 1 else 0) + (if num_pos st =? 0 then 1 else 0).
(** The I/O nodes, in the order of the checks below. *)
Definition io_nodes : list nat := foreach_pi st ++ map (get_node st) (foreach_po st).
(** design_rule_violations.hpp:583-608, 614-639 (warnings), 645-670 (warnings). *)
Definition empty_io : list nat := List.filter (fun n => is_empty_tile st (get_tile st n)) io_nodes.
Definition io_pins : list nat := List.filter (fun n => negb (is_wire st n)) io_nodes.
Definition border_io : list nat := List.filter (fun n => negb (is_at_any_border (cl_dim l) (get_tile st n))) io_nodes.

(** design_rule_violations.hpp:138-195, run with all checks enabled: numbers of violations and warnings. All checks
    are skipped on empty layouts. *)
Definition drv_counts : Z * Z :=
  if is_empty st then (0, 0)
  else (Z.of_nat (length non_adjacent_connections + length missing_connections + length crossing_gates +
                  length improperly_clocked + length empty_io) + has_io_violations,
        Z.of_nat (length unplaced_nodes + length placed_dead_nodes + length io_pins + length border_io)).
End Drv.
(** design_rule_violations.hpp:692-713, gate_level_drvs. *)
Definition gate_level_drvs (fuel : nat) (st : glayout) : option (Z * Z) :=
  match foreach_coordinate Offset fuel (cl_dim (g_cl st)) dead0 dead0 with
  | Some tiles => Some (drv_counts st tiles)
  | None => None
  end.
