(** Model of include/fiction/algorithms/graph/generate_edge_intersection_graph.hpp and
    include/fiction/algorithms/physical_design/color_routing.hpp.

    Simplifications. A vertex of the graph is its label, the position of its path among all paths. Statistics that are only printed are
    left out. *)
From Coq Require Import ZArith Bool List.
From stdpp Require Import gmap list.
From Verif Require Import CoordModel GridModel CoordMap ClockModel GateModel CellModel PathModel RouteModel UtilModel SatModel ColorModel.
Import ListNotations.

(** ** Edge intersection graphs *)

(** generate_edge_intersection_graph.hpp:174-258, labeled_layout_coordinate_lookup_path: the coordinates, and the set of those that were
    added by the member function append. *)
Record lpath := mkL { lp_coords : list coord; lp_elements : list coord }.
(** routing_utils.hpp:56-64; default-constructed coordinates for empty paths. *)
Definition lp_source (p : lpath) : coord := hd (live 0 0 0) (lp_coords p).
Definition lp_target (p : lpath) : coord := List.last (lp_coords p) (live 0 0 0).
(** generate_edge_intersection_graph.hpp:200-212; the range from the second to the last but one coordinate is undefined for paths with
    fewer than two coordinates: [None]. *)
Definition has_intersection_with (p other : lpath) : option bool :=
  if coord_eqb (lp_source p) (lp_source other) && coord_eqb (lp_target p) (lp_target other) then Some true
  else match lp_coords other with
       | _ :: ((_ :: _) as r) => Some (existsb (fun c => existsb (coord_eqb c) (lp_elements p)) (removelast r))
       | _ => None
       end.
(** generate_edge_intersection_graph.hpp:224-236 *)
Definition has_overlap_with (p other : lpath) : option bool :=
  if coord_eqb (lp_source p) (lp_source other) && coord_eqb (lp_target p) (lp_target other) then Some true
  else match find_first_two_of coord_eqb (lp_coords other) (lp_coords p) with
       | Some r => Some (negb (Nat.eqb r (length (lp_coords other))))
       | None => None
       end.

(** generate_edge_intersection_graph.hpp:38-51 *)
Record epg_params := mkEP { ep_crossings : bool; ep_limit : option nat }.
(** The graph and the statistics of generate_edge_intersection_graph.hpp:53-75. *)
Record epg := mkEpg { e_paths : list lpath; e_edges : list (nat * nat); e_cliques : list (list nat); e_unroutable : nat }.
Definition epg_empty : epg := mkEpg [] [] [] 0.

(** generate_edge_intersection_graph.hpp:101-116: enumerate_all_paths appends coordinates (enumerate_all_paths.hpp:127), while the paths
    of yen_k_shortest_paths are filled by push_back, reverse and insert (a_star.hpp:336-351, k_shortest_paths.hpp:88, 127-131), which
    leave the set empty. *)
Definition objective_paths (Q : queue Z) (fuel : nat) (b : obase) (ps : epg_params) (obj : coord * coord) : option (list lpath) :=
  match ep_limit ps with
  | None => option_map (map (fun p => mkL p p)) (enumerate_all_paths fuel (pf_of true (o_new b)) (ep_crossings ps) obj.1 obj.2)
  | Some k => option_map (fun r => map (fun p => mkL p []) r.2) (yen Q true (ep_crossings ps) obj.1 obj.2 fuel (o_new b) k)
  end.
(** generate_edge_intersection_graph.hpp:320-328: the stored paths a new path is compared to, [i] being the label of the first one. *)
Fixpoint intersection_edges (crossings : bool) (p : lpath) (label : nat) (stored : list lpath) (i : nat) : option (list (nat * nat)) :=
  match stored with
  | [] => Some []
  | s :: r =>
      match (if crossings then has_overlap_with p s else has_intersection_with p s), intersection_edges crossings p label r (S i) with
      | Some hit, Some l => Some (if hit then (label, i) :: l else l)
      | _, _ => None
      end
  end.
(** generate_edge_intersection_graph.hpp:315-331, create_intersection_edges. *)
Fixpoint create_intersection_edges (crossings : bool) (ps : list lpath) (label : nat) (stored : list lpath) : option (list (nat * nat)) :=
  match ps with
  | [] => Some []
  | p :: r => match intersection_edges crossings p label stored 0, create_intersection_edges crossings r (S label) stored with
              | Some l, Some l' => Some (l ++ l')
              | _, _ => None
              end
  end.
(** generate_edge_intersection_graph.hpp:298-308, connect_clique: for_each_combination leaves the paths in their order when it ends. *)
Definition connect_clique (label : nat) (n : nat) : list (nat * nat) :=
  map (fun c => (label + nth 0 c 0, label + nth 1 c 0)) (all_combinations 2 n).
(** generate_edge_intersection_graph.hpp:99-137: one objective. *)
Definition add_objective (crossings : bool) (g : epg) (ps : list lpath) : option epg :=
  let label := length (e_paths g) in
  match create_intersection_edges crossings ps label (e_paths g) with
  | None => None
  | Some l =>
      Some (mkEpg (e_paths g ++ ps) (e_edges g ++ (if 1 <? length ps then connect_clique label (length ps) else []) ++ l)
                  (match ps with [] => e_cliques g | _ => e_cliques g ++ [seq label (length ps)] end)
                  (match ps with [] => S (e_unroutable g) | _ => e_unroutable g end))
  end.
(** generate_edge_intersection_graph.hpp:94-147, run. *)
Definition generate_edge_intersection_graph (Q : queue Z) (fuel : nat) (b : obase) (objectives : list (coord * coord)) (ps : epg_params)
    : option epg :=
  fold_left (fun acc obj => match acc, objective_paths Q fuel b ps obj with
                            | Some g, Some paths => add_objective (ep_crossings ps) g paths
                            | _, _ => None
                            end) objectives (Some epg_empty).
Definition epg_graph (g : epg) : graph := mkG (length (e_paths g)) (e_edges g).

(** ** Color routing *)

(** color_routing.hpp:27-51; [cr_sat]: the engine is SAT and not one of the heuristics. *)
Record color_params := mkCP { cr_partial : bool; cr_crossings : bool; cr_limit : option nat; cr_sat : bool; cr_partial_sat : bool }.
(** What is not modelled: the order in which hash maps list vertices and colors, the solver, and the heuristics: a color for each
    vertex of a graph, and the number of colors. *)
Record color_env := mkCE {
  ce_vertices : nat -> list nat;
  ce_colors : nat -> list nat;
  ce_sat : solver (nat * nat);
  ce_heuristic : graph -> (nat -> option nat) * nat
}.
(** graph_coloring.hpp:682-688 and 910-919: the most frequent color and its frequency; both 0 if there are no colors. *)
Definition frequency_stats (n : nat) (col : nat -> option nat) (colors : list nat) : nat * nat :=
  match colors with
  | [] => (0, 0)
  | c :: r => let b := most_frequent n col c r in (b, frequency_of n col b)
  end.
(** graph_coloring.hpp:705-775, run: the coloring, the most frequent color and its frequency. If SAT finds nothing, a heuristic is
    used. [None]: undefined behaviour. *)
Definition determine_vertex_coloring (env : color_env) (engine_sat : bool) (g : graph) (cliques : list (list nat)) (frequency : bool)
    (t : tactic) : option ((nat -> option nat) * (nat * nat)) :=
  let n := g_size g in
  let heuristic := let '(col, k) := ce_heuristic env g in Some (col, frequency_stats n col (seq 0 k)) in
  if engine_sat then
    match search g (ce_vertices env n) cliques frequency (ce_sat env) t with
    | Found k m => let col := extract (ce_vertices env n) n k m in Some (col, frequency_stats n col (ce_colors env k))
    | Nothing => heuristic
    | _ => None
    end
  else heuristic.
(** color_routing.hpp:155-175, conduct_routing: the layout and the number of paths laid. [None]: coloring.at throws inside a function
    that must not, or undefined behaviour of route_path. *)
Fixpoint conduct_routing (paths : list lpath) (col : nat -> option nat) (color : nat) (vertices : list nat) (st : glayout)
    : option (glayout * nat) :=
  match vertices with
  | [] => Some (st, 0)
  | v :: r =>
      match col v, nth_error paths v with
      | Some c, Some p =>
          if c =? color then
            match route_path st (lp_coords p) with
            | Some st' => option_map (fun x => (x.1, S x.2)) (conduct_routing paths col color r st')
            | None => None
            end
          else conduct_routing paths col color r st
      | _, _ => None
      end
  end.
(** color_routing.hpp:88-123, run: the result, the layout and number_of_unsatisfied_objectives, an unsigned number. *)
Definition color_routing (Q : queue Z) (fuel : nat) (env : color_env) (st : glayout) (objectives : list (coord * coord)) (ps : color_params)
    : option (bool * glayout * Z) :=
  match generate_edge_intersection_graph Q fuel (OGate st) objectives (mkEP (cr_crossings ps) (cr_limit ps)) with
  | None => None
  | Some g =>
      if negb (cr_partial ps) && (0 <? e_unroutable g) then Some (false, st, 0%Z)
      else
        match determine_vertex_coloring env (cr_sat ps) (epg_graph g) (e_cliques g) (negb (cr_partial_sat ps)) Ascending with
        | None => None
        | Some (col, (color, freq)) =>
            if negb (cr_partial ps) && negb (freq =? length (e_cliques g)) then Some (false, st, 0%Z)
            else match conduct_routing (e_paths g) col color (ce_vertices env (length (e_paths g))) st with
                 | None => None
                 | Some (st', laid) => Some (true, st', w64 (Z.of_nat (length objectives) - Z.of_nat laid))
                 end
        end
  end.
