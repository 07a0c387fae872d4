(** Model of the SAT-based vertex coloring of graphs (include/fiction/algorithms/graph/graph_coloring.hpp).

    Simplifications. The vertices of a graph are the numbers below [g_size]; [order] is the order in which the graph (a hash map) lists
    them. Edges are listed in the order of their insertion. The heuristic engines are a vendored library and an argument of
    what uses them. *)
From Coq Require Import Bool List Arith Lia.
From stdpp Require Import list.
From Verif Require Import SatModel.
Import ListNotations.

Record graph := mkG { g_size : nat; g_edges : list (nat * nat) }.
(** undirected_graph: begin_adjacent ... end_adjacent. *)
Definition adjacent_to (g : graph) (v : nat) : list nat :=
  flat_map (fun e => if fst e =? v then [snd e] else if snd e =? v then [fst e] else []) (g_edges g).

(** A vertex and a color. *)
Notation vc := (nat * nat)%type.
(** graph_coloring.hpp:397-410: one variable per vertex and color. variables[...] yields variable 0, the first one added, for a pair
    without a variable. *)
Definition variable (order : list nat) (k : nat) (v c : nat) : vc :=
  if bool_decide (v ∈ order) && (c <? k) then (v, c) else (hd 0 order, 0).

Section handler.
Variable g : graph.
Variable order : list nat.
Variable cliques : list (list nat).
Variable frequency : bool. (* clique_size_color_frequency *)

(** graph_coloring.hpp:215-224: std::max_element finds the first of the largest cliques; q is its size, but at least 1. *)
Fixpoint max_clique (best : list nat) (l : list (list nat)) : list nat :=
  match l with
  | [] => best
  | c :: l' => max_clique (if length best <? length c then c else best) l'
  end.
Definition largest_clique : list nat := match cliques with [] => [] | c :: l => max_clique c l end.
Definition q : nat := Nat.max (length largest_clique) 1.

(** graph_coloring.hpp:427-440 *)
Definition at_least_one_color_per_vertex (k : nat) : list (form vc) :=
  map (fun v => at_least_one (map (variable order k v) (seq 0 k))) order.
(** graph_coloring.hpp:447-464 *)
Definition at_most_one_color_per_vertex (k : nat) : list (form vc) :=
  flat_map (fun c1 => flat_map (fun c2 => map (fun v => not_both (variable order k v c1) (variable order k v c2)) order)
                               (seq (S c1) (k - S c1))) (seq 0 k).
(** graph_coloring.hpp:470-484 *)
Definition exclude_identical_adjacent_colors (k : nat) : list (form vc) :=
  flat_map (fun e => map (fun c => not_both (variable order k (fst e) c) (variable order k (snd e) c)) (seq 0 k)) (g_edges g).
(** graph_coloring.hpp:490-520 *)
Definition color_frequency_equal_to_largest_clique_size (k : nat) : list (form vc) :=
  [FOr (map (fun c => FAnd (map (fun clique => FOr (map (fun v => FLit true (variable order k v c)) clique)) cliques)) (seq 0 k))].
(** graph_coloring.hpp:528-590, pre_assign_largest_clique: the vertices painted first, with colors 0, 1, ..., and the order that starts
    with them. *)
Definition painted (k : nat) : list nat :=
  match largest_clique with
  | _ :: _ => firstn (Nat.min k q) largest_clique
  | [] => match order with
          | [] => []
          | v :: _ => v :: match adjacent_to g v with [] => [] | av :: _ => [av] end
          end
  end.
Definition paint (k : nat) : list (form vc) :=
  map (fun '(c, v) => FLit true (variable order k v c)) (combine (seq 0 (length (painted k))) (painted k)).
Definition clique_first_ordering (k : nat) : list nat :=
  painted k ++ List.filter (fun v => negb (bool_decide (v ∈ painted k))) order.
(** graph_coloring.hpp:598-632, transform_solution_to_lexicographical_minimum, [pre] being the vertices in front of v1. *)
Fixpoint lexicographical (k : nat) (pre l : list nat) : list (form vc) :=
  match l with
  | [] => []
  | v1 :: l' =>
      map (fun c1 => FOr (FLit false (variable order k v1 c1) ::
                          flat_map (fun v2 => map (fun c2 => FLit true (variable order k v2 c2)) (seq (c1 - 1) (k - (c1 - 1)))) (pre ++ [v1])))
          (seq 1 (k - 1)) ++ lexicographical k (pre ++ [v1]) l'
  end.
(** graph_coloring.hpp:227-248, check_k_coloring. *)
Definition k_coloring (k : nat) : list (form vc) :=
  at_least_one_color_per_vertex k ++ at_most_one_color_per_vertex k ++ exclude_identical_adjacent_colors k ++
  paint k ++ lexicographical k [] (clique_first_ordering k) ++
  (if frequency then color_frequency_equal_to_largest_clique_size k else []).

Variable sat : solver vc.
Definition check_k (k : nat) : option (vc -> bool) := sat (k_coloring k).

(** What a search returns: a number of colors with a model, nothing, a null pointer that is then dereferenced, or it does not return. *)
Inductive found := Found (k : nat) (m : vc -> bool) | Nothing | NullPointer | NoReturn.

(** graph_coloring.hpp:250-261; [steps] is the number of values of k still to be tried. *)
Fixpoint ascending_from (steps k : nat) : found :=
  match steps with
  | O => Nothing
  | S s => match check_k k with Some m => Found k m | None => ascending_from s (S k) end
  end.
Definition ascending : found := ascending_from (g_size g + 1 - q) q.
(** graph_coloring.hpp:263-280; k is unsigned: for q = 1 the condition k >= q - 1 always holds, and 0 is followed by 2^64 - 1. *)
Fixpoint descending_from (k : nat) (recent : found) : found :=
  if q - 1 <=? k then
    match check_k k with
    | None => recent
    | Some m => match k with O => NoReturn | S k' => descending_from k' (Found k m) end
    end
  else Nothing.
Definition descending : found := descending_from (g_size g) NullPointer.
(** graph_coloring.hpp:282-327: doubling, then std::ranges::partition_point on the numbers from [first], [len] of them, with the
    predicate that k colors are not enough. *)
Fixpoint doubling (rounds h : nat) : nat * option (nat * (vc -> bool)) :=
  match rounds with
  | O => (h, None)
  | S r => if g_size g + 1 <=? h then (h, None)
           else match check_k h with Some m => (h, Some (h, m)) | None => doubling r (h * 2) end
  end.
Fixpoint partition_point (rounds first len : nat) (recent : found) : found :=
  match rounds with
  | O => recent
  | S r => match len with
           | O => recent
           | S _ => let half := len / 2 in
                    let mid := first + half in
                    match check_k mid with
                    | Some m => partition_point r first half (Found mid m)
                    | None => partition_point r (mid + 1) (len - (half + 1)) recent
                    end
           end
  end.
Definition binary : found :=
  match doubling (g_size g + 1) q with
  | (h, Some (k, m)) => if h =? q then Found k m else partition_point (h / 2 + 1) (h / 2) (h / 2 + 1) (Found k m)
  | (h, None) => partition_point (h / 2 + 1) (h / 2) (h / 2 + 1) Nothing
  end.
Inductive tactic := Ascending | Descending | Binary.
Definition search (t : tactic) : found := match t with Ascending => ascending | Descending => descending | Binary => binary end.
End handler.

(** graph_coloring.hpp:656-690, extract_vertex_coloring: the last color whose variable is true; [None]: the vertex is not painted. *)
Definition color_of (order : list nat) (k : nat) (m : vc -> bool) (v : nat) : option nat :=
  fold_left (fun acc c => if m (variable order k v c) then Some c else acc) (seq 0 k) None.
Definition extract (order : list nat) (n k : nat) (m : vc -> bool) : nat -> option nat :=
  fun v => if v <? n then color_of order k m v else None.
(** graph_coloring.hpp:691-700 and 906-919: the number of vertices of a color and std::max_element over the colors, listed in the order
    [colors]. *)
Definition frequency_of (n : nat) (col : nat -> option nat) (c : nat) : nat :=
  length (List.filter (fun v => bool_decide (col v = Some c)) (seq 0 n)).
Fixpoint most_frequent (n : nat) (col : nat -> option nat) (best : nat) (l : list nat) : nat :=
  match l with
  | [] => best
  | c :: l' => most_frequent n col (if frequency_of n col best <? frequency_of n col c then c else best) l'
  end.
(** graph_coloring.hpp:980-997, is_valid_vertex_coloring; [painted_vertices] is v_coloring.size(). *)
Definition is_valid_vertex_coloring (g : graph) (order : list nat) (painted_vertices : nat) (col : nat -> option nat) : bool :=
  (painted_vertices =? g_size g) &&
  forallb (fun v1 => negb (existsb (fun v2 => bool_decide (col v1 = col v2)) (adjacent_to g v1))) order.
