(** Model of include/fiction/algorithms/path_finding/{distance,distance_map,cost,a_star,
    enumerate_all_paths,k_shortest_paths}.hpp, of is_crossable_wire in
    include/fiction/utils/routing_utils.hpp and of searchable_priority_queue in
    include/fiction/utils/stl_utils.hpp. *)
From Coq Require Import ZArith Bool List.
From stdpp Require Import gmap list.
From Verif Require Import CoordModel GridModel CoordMap ClockModel GateModel CellModel.
Import ListNotations.
Local Open Scope Z_scope.

(** ** What path finding asks a layout *)

(** The calls of a_star.hpp:196-276 and enumerate_all_paths.hpp:121-192 to the layout. [pf_succ]: the coordinates
    visited by foreach_outgoing_clocked_zone (clocked layouts) or foreach_adjacent_coordinate,
    in order; [pf_obst], [pf_conn]: is_obstructed_coordinate, is_obstructed_connection (constantly
    false for layouts without these functions); [pf_cross]: is_crossable_wire. *)
Record pf := mkPF {
  pf_succ  : coord -> list coord;
  pf_above : coord -> coord;
  pf_below : coord -> coord;
  pf_obst  : coord -> bool;
  pf_conn  : coord -> coord -> bool;
  pf_cross : coord -> coord -> bool
}.

(** routing_utils.hpp:151-185, is_crossable_wire (the assertion is not modelled). *)
Definition is_crossable_wire (st : glayout) (src successor : coord) : bool :=
  let n := get_node st successor in
  if is_wire st n && negb (is_pi st n) && negb (is_po st n)
  then if has_no_incoming_signal true st successor || has_no_outgoing_signal true st successor then false
       else if is_ground_layer src then true
       else negb (is_incoming_signal true st successor (get_tile st (get_node st (below (cl_dim (g_cl st)) src))))
  else false.

(** A grid without clocking and obstructions. *)
Definition pf_grid (t : topo) (ar : coord) : pf :=
  mkPF (adjacent t ar) (above ar) (below ar) (fun _ => false) (fun _ _ => false) (fun _ _ => false).
(** A clocked layout without obstructions. *)
Definition pf_clocked (cl : clocked) : pf :=
  let ar := cl_dim cl in
  mkPF (outgoing_clocked_zones cl) (above ar) (below ar) (fun _ => false) (fun _ _ => false) (fun _ _ => false).
(** The clocked layout an obstruction layout is based on. *)
Definition o_clocked (l : olayout) : clocked :=
  match o_base l with OPlain cl => cl | OGate st => g_cl st | OCell _ c => c_cl c end.
(** An obstruction layout; [clk] tells whether its type has a clocking interface (gate-level and
    cell-level layouts always do). *)
Definition pf_of (clk : bool) (l : olayout) : pf :=
  let cl := o_clocked l in let ar := cl_dim cl in
  mkPF (if clk then outgoing_clocked_zones cl else adjacent (cl_topo cl) ar) (above ar) (below ar)
       (is_obstructed_coordinate l) (is_obstructed_connection l)
       (match o_base l with OGate st => is_crossable_wire st | _ => fun _ _ => false end).

(** ** Distances *)

(** distance.hpp:32-39, manhattan_distance (on coordinates whose components fit into int64_t). *)
Definition manhattan_distance (s t : coord) : Z := Z.abs (cx s - cx t) + Z.abs (cy s - cy t).
(** distance.hpp:77-86, squared_euclidean_distance; the arithmetic is done in doubles, which is exact
    as long as all intermediate results stay below 2^53; [None] otherwise (not modelled). *)
Definition squared_euclidean_distance (s t : coord) : option Z :=
  let d := (cx s - cx t) * (cx s - cx t) + (cy s - cy t) * (cy s - cy t) in
  if d <? 9007199254740992 then Some d else None.
(** distance.hpp:105-112, twoddwave_distance. *)
Definition twoddwave_distance (s t : coord) : Z :=
  if (cx s <=? cx t) && (cy s <=? cy t) then manhattan_distance s t else 4294967295.
(** distance.hpp:128-135, chebyshev_distance. *)
Definition chebyshev_distance (s t : coord) : Z := Z.max (Z.abs (cx s - cx t)) (Z.abs (cy s - cy t)).
(** cost.hpp:27-33, unit_cost. *)
Definition unit_cost (s t : coord) : Z := 1.

(** distance.hpp:147-185, distance_functor: an object with a stored function (df_base, what the class
    itself calls) and possibly an overridden call operator (df_call). [None] is an exception. *)
Record dfunctor := mkDF { df_base : coord -> coord -> Z; df_call : coord -> coord -> option Z }.
Definition distance_functor (f : coord -> coord -> Z) : dfunctor := mkDF f (fun s t => Some (f s t)).

(** distance_map.hpp:53-71, initialize_distance_map on offset coordinates: an area x area matrix,
    filled in the order of foreach_coordinate; [None] is a write outside of the matrix. *)
Definition dm_row (f : coord -> coord -> Z) (c1 : coord) (cs : list coord) (row : list Z) : option (list Z) :=
  foldl (fun r p => match r with
                    | Some v => if Nat.ltb (p.1) (length v) then Some (<[p.1 := f c1 p.2]> v) else None
                    | None => None end)
        (Some row) (imap (fun i c => (i, c)) cs).
Definition initialize_distance_map (fuel : nat) (ar : coord) (f : coord -> coord -> Z) : option (list (list Z)) :=
  let n := Z.to_nat (area ar) in
  match foreach_coordinate Offset fuel ar dead0 dead0 with
  | None => None
  | Some cs =>
    foldl (fun m p => match m with
                      | Some v => match v !! p.1 with
                                  | Some row => match dm_row f p.2 cs row with
                                                | Some row' => Some (<[p.1 := row']> v)
                                                | None => None end
                                  | None => match cs with [] => Some v | _ => None end
                                  end
                      | None => None end)
          (Some (replicate n (replicate n 0))) (imap (fun i c => (i, c)) cs)
  end.
(** distance_map.hpp:114-162, distance_map_functor; coordinate_index 158-161. *)
Definition coordinate_index (ar c : coord) : Z := cy c * (cx ar + 1) + cx c.
Definition distance_map_functor (ar : coord) (m : list (list Z)) : dfunctor :=
  mkDF (fun _ _ => 0)
       (fun s t => match m !! Z.to_nat (coordinate_index ar s) with
                   | Some row => row !! Z.to_nat (coordinate_index ar t)
                   | None => None end).
(** distance_map.hpp:86-105, initialize_sparse_distance_map. *)
Definition initialize_sparse_distance_map (fuel : nat) (ar : coord) (f : coord -> coord -> Z) : option (gmap (coord * coord) Z) :=
  match foreach_coordinate Offset fuel ar dead0 dead0 with
  | None => None
  | Some cs => Some (foldl (fun m c1 => foldl (fun m' c2 => <[(c1, c2) := f c1 c2]> m') m cs) ∅ cs)
  end.
(** distance_map.hpp:170-205, sparse_distance_map_functor. *)
Definition sparse_distance_map_functor (m : gmap (coord * coord) Z) : dfunctor :=
  mkDF (fun _ _ => 0) (fun s t => m !! (s, t)).
(** distance_map.hpp:246-261, one call of smart_distance_cache_functor: result and new cache. The
    stored function is called with the layout of the call, so it may differ from call to call. *)
Definition cache_query (cache : gmap (coord * coord) Z) (f : coord -> coord -> Z) (s t : coord) : Z * gmap (coord * coord) Z :=
  match cache !! (s, t) with
  | Some d => (d, cache)
  | None => (f s t, <[(s, t) := f s t]> cache)
  end.
(** A sequence of calls, each with the distance function of the layout at that time. *)
Fixpoint cache_run (cache : gmap (coord * coord) Z) (qs : list ((coord -> coord -> Z) * (coord * coord))) : list Z :=
  match qs with
  | [] => []
  | (f, (s, t)) :: r => let '(d, c) := cache_query cache f s t in d :: cache_run c r
  end.

(** ** Values of costs and distances *)

(** a_star.hpp:110-113, g_f_type with its arithmetic and comparisons. *)
Record vops (V : Type) := mkV {
  v_zero : V;
  v_add  : V -> V -> V;
  v_ge   : V -> V -> bool;
  v_gt   : V -> V -> bool;
  v_cost : coord -> coord -> V;
  v_dist : coord -> V           (* distance(layout, _, objective.target), cast to g_f_type *)
}.
Arguments mkV {V}. Arguments v_zero {V}. Arguments v_add {V}. Arguments v_ge {V}. Arguments v_gt {V}. Arguments v_cost {V}. Arguments v_dist {V}.
(** The default types: uint64_t distances and uint8_t costs, arithmetic in uint64_t. A* keeps a
    copy of the base class of the distance functor (a_star.hpp:101), so overridden call operators are ignored. *)
Definition u64_ops (d : dfunctor) (cost : coord -> coord -> Z) (tgt : coord) : vops Z :=
  mkV 0 (fun a b => (a + b) mod 18446744073709551616) (fun a b => b <=? a) (fun a b => b <? a)
      (fun s t => cost s t mod 18446744073709551616) (fun c => df_base d c tgt mod 18446744073709551616).

(** ** The priority queue *)

(** stl_utils.hpp:63-126: a std::priority_queue whose container can be searched and (through begin/find)
    written to. Its implementation is left to the standard library: [q_top], [q_pop], [q_push]
    on the underlying container. *)
Record queue (V : Type) := mkQ {
  q_top  : list (coord * V) -> option (coord * V);
  q_pop  : list (coord * V) -> list (coord * V);
  q_push : list (coord * V) -> coord * V -> list (coord * V)
}.
Arguments mkQ {V}. Arguments q_top {V}. Arguments q_pop {V}. Arguments q_push {V}.

(** The binary heap of libstdc++ (bits/stl_heap.h); [comp a b] is a.f > b.f (std::greater, a_star.hpp:132-135).
    __push_heap: sift up; *)
Section Heap.
Context {V : Type} (gt : V -> V -> bool).
Notation E := (coord * V)%type.
Definition comp (a b : E) : bool := gt a.2 b.2.
Fixpoint sift_up (fuel : nat) (h : list E) (hole : nat) (v : E) : list E :=
  match fuel with
  | O => <[hole := v]> h
  | S f => match hole with
           | O => <[hole := v]> h
           | S p => let parent := Nat.div2 p in
                    match h !! parent with
                    | Some pv => if comp pv v then sift_up f (<[hole := pv]> h) parent v else <[hole := v]> h
                    | None => h
                    end
           end
  end.
(** __adjust_heap: move the hole at [hole] down to a leaf, then sift up. [len] is the heap length. *)
Fixpoint sift_down (fuel : nat) (h : list E) (len hole : nat) (v : E) : list E :=
  match fuel with
  | O => h
  | S f =>
    if Nat.ltb hole (Nat.div2 (len - 1)) then
      let r := (2 * (hole + 1))%nat in
      match h !! r, h !! (r - 1)%nat with
      | Some a, Some b => if comp a b then sift_down f (<[hole := b]> h) len (r - 1) v
                          else sift_down f (<[hole := a]> h) len r v
      | _, _ => h
      end
    else if Nat.even len && Nat.leb 2 len && Nat.eqb hole (Nat.div2 (len - 2)) then
      let l := (2 * hole + 1)%nat in
      match h !! l with
      | Some b => sift_up len (<[hole := b]> h) l v
      | None => h
      end
    else sift_up len h hole v
  end.
(** std::priority_queue::push = push_back + std::push_heap. *)
Definition heap_push (h : list E) (v : E) : list E := sift_up (length h) (h ++ [v]) (length h) v.
(** std::priority_queue::pop = std::pop_heap + pop_back: the last element fills the hole at the root. *)
Definition heap_pop (h : list E) : list E :=
  match h with
  | [] => []
  | [_] => []
  | _ => match last h with
         | Some v => sift_down (length h) (take (length h - 1) h) (length h - 1) 0 v
         | None => []
         end
  end.
Definition heap : queue V := mkQ head heap_pop heap_push.
End Heap.

(** ** A* *)

(** a_star.hpp:139-167, the state: open list (container of the queue), closed list, g-values, origins. *)
Record astate (V : Type) := mkA {
  a_open : list (coord * V); a_closed : gset coord; a_g : gmap coord V; a_from : gmap coord coord }.
Arguments mkA {V}. Arguments a_open {V}. Arguments a_closed {V}. Arguments a_g {V}. Arguments a_from {V}.

(** a_star.hpp:198-240, the first part of explore_successor: which coordinate is entered when the layout offers [w]. *)
Definition enter (L : pf) (crossings : bool) (tgt cur w : coord) : option coord :=
  let s := pf_below L w in
  let chosen :=
    if pf_obst L s && negb (coord_eqb s tgt) then
      if crossings && (pf_cross L cur s || coord_eqb (pf_above L s) tgt) then
        let a := pf_above L s in
        if negb (coord_eqb a s) && (negb (pf_obst L a) || coord_eqb a tgt) then Some a else None
      else None
    else Some s in
  match chosen with
  | Some v => if pf_conn L cur v then None else Some v
  | None => None
  end.

(** stl_utils.hpp:101-104, find; a_star.hpp:122-137, the equality only compares the coordinates. *)
Fixpoint find_open {V} (v : coord) (l : list (coord * V)) (i : nat) : option nat :=
  match l with
  | [] => None
  | e :: r => if coord_eqb e.1 v then Some i else find_open v r (S i)
  end.

Section AStar.
Context {V : Type} (O : vops V) (Q : queue V) (L : pf) (crossings : bool) (src tgt : coord).

(** a_star.hpp:294-302, g. *)
Definition a_gval (st : astate V) (c : coord) : V := default (v_zero O) (a_g st !! c).

(** a_star.hpp:238-275, the rest of explore_successor. *)
Definition explore (cur : coord) (st : astate V) (w : coord) : astate V :=
  match enter L crossings tgt cur w with
  | None => st
  | Some v =>
    if bool_decide (v ∈ a_closed st) then st
    else
      let tentative := v_add O (a_gval st cur) (v_cost O cur v) in
      let f := v_add O tentative (v_dist O v) in
      match find_open v (a_open st) 0 with
      | Some i =>
          if v_ge O tentative (a_gval st v) then st
          else mkA (<[i := (v, f)]> (a_open st)) (a_closed st) (<[v := tentative]> (a_g st)) (<[v := cur]> (a_from st))
      | None => mkA (q_push Q (a_open st) (v, f)) (a_closed st) (<[v := tentative]> (a_g st)) (<[v := cur]> (a_from st))
      end
  end.

(** a_star.hpp:337-353, reconstruct_path; [None]: came_from.at throws, or the loop exceeds the fuel. *)
Fixpoint reconstruct (fuel : nat) (from : gmap coord coord) (c : coord) : option (list coord) :=
  if coord_eqb c src then Some [src]
  else match fuel with
       | Datatypes.O => None
       | S n => match from !! c with
                | None => None
                | Some p => match reconstruct n from p with Some l => Some (l ++ [c]) | None => None end
                end
       end.

(** a_star.hpp:62-90, run (with get_lowest_f_coord, 173-179, and expand, 185-287). [None]: fuel exhausted. *)
Fixpoint a_run (fuel : nat) (st : astate V) : option (list coord) :=
  match q_top Q (a_open st) with
  | None => Some []
  | Some (cur, _) =>
    let open1 := q_pop Q (a_open st) in
    if coord_eqb cur tgt then reconstruct (S (size (a_closed st))) (a_from st) tgt
    else match fuel with
         | Datatypes.O => None
         | S n =>
           let st1 := mkA open1 ({[ cur ]} ∪ a_closed st) (a_g st) (a_from st) in
           a_run n (fold_left (explore cur) (pf_succ L cur) st1)
         end
  end.
(** a_star.hpp:46-55, constructor. *)
Definition a_init : astate V := mkA (q_push Q [] (src, v_zero O)) ∅ ∅ ∅.
Definition a_star (fuel : nat) : option (list coord) := a_run fuel a_init.
End AStar.

(** a_star.hpp:420-441, a_star_distance for Dist = uint64_t, with the default functors. *)
Definition a_star_distance (Q : queue Z) (L : pf) (fuel : nat) (src tgt : coord) : option Z :=
  match a_star (u64_ops (distance_functor manhattan_distance) unit_cost tgt) Q L false src tgt fuel with
  | None => None
  | Some [] => Some (2 ^ 64 - 1)
  | Some p => Some (Z.of_nat (length p) - 1)
  end.

(** ** Enumeration of all paths *)

(** enumerate_all_paths.hpp:133-176, which coordinate is entered when the layout offers [w]. *)
Definition e_enter (L : pf) (crossings : bool) (tgt cur w : coord) : option coord :=
  let s := pf_below L w in
  let chosen :=
    if pf_obst L s && negb (coord_eqb s tgt) then
      if crossings && pf_cross L cur s then
        let a := pf_above L s in
        if negb (coord_eqb a s) && negb (coord_eqb a tgt) && negb (pf_obst L a) then Some a else None
      else None
    else Some s in
  match chosen with
  | Some v => if pf_conn L cur v then None else Some v
  | None => None
  end.

(** enumerate_all_paths.hpp:118-205, recursively_enumerate_all_paths: the set of visited coordinates
    after the call and the paths added to the collection, in order; [None]: recursion deeper than the fuel. *)
Fixpoint enumerate (fuel : nat) (L : pf) (crossings : bool) (tgt src : coord) (p : list coord) (visited : gset coord)
    : option (gset coord * list (list coord)) :=
  match fuel with
  | O => None
  | S n =>
    let visited1 := {[ src ]} ∪ visited in
    let p1 := p ++ [src] in
    if coord_eqb src tgt then Some (visited1 ∖ {[ src ]}, [p1])
    else
      match fold_left
              (fun acc w => match acc with
                 | None => None
                 | Some (vis, out) =>
                   match e_enter L crossings tgt src w with
                   | None => acc
                   | Some v => if bool_decide (v ∈ vis) then acc
                               else match enumerate n L crossings tgt v p1 vis with
                                    | None => None
                                    | Some (vis', out') => Some (vis', out ++ out')
                                    end
                   end
                 end)
              (pf_succ L src) (Some (visited1, [])) with
      | None => None
      | Some (vis, out) => Some (vis ∖ {[ src ]}, out)
      end
  end.
(** enumerate_all_paths.hpp:45-57, run. *)
Definition enumerate_all_paths (fuel : nat) (L : pf) (crossings : bool) (src tgt : coord) : option (list (list coord)) :=
  option_map snd (enumerate fuel L crossings tgt src [] ∅).

(** ** Yen's algorithm *)

(** std::set<Path>: lexicographic order of vectors of coordinates. *)
Fixpoint path_ltb (a b : list coord) : bool :=
  match a, b with
  | _, [] => false
  | [], _ :: _ => true
  | x :: a', y :: b' => coord_ltb x y || (negb (coord_ltb y x) && path_ltb a' b')
  end.
(** routing_utils.hpp:113-117, path_set::add. *)
Fixpoint set_add (p : list coord) (s : list (list coord)) : list (list coord) :=
  match s with
  | [] => [p]
  | x :: r => if path_ltb p x then p :: s else if path_ltb x p then x :: set_add p r else s
  end.
(** std::ranges::min_element with path_cost (k_shortest_paths.hpp:137-144, 189-192): the first shortest path; and its removal. *)
Fixpoint shortest_of (best : list coord) (s : list (list coord)) : list coord :=
  match s with
  | [] => best
  | x :: r => shortest_of (if Nat.ltb (length x) (length best) then x else best) r
  end.
Fixpoint remove_path (p : list coord) (s : list (list coord)) : list (list coord) :=
  match s with
  | [] => []
  | x :: r => if bool_decide (x = p) then r else x :: remove_path p r
  end.

Section Yen.
Context (Q : queue Z) (clk crossings : bool) (src tgt : coord) (fuel : nat).
(** The A* calls of k_shortest_paths.hpp:47-50 and 109-113: Manhattan distance and unit costs. *)
Definition y_star (lay : olayout) (s : coord) : option (list coord) :=
  a_star (u64_ops (distance_functor manhattan_distance) unit_cost tgt) Q (pf_of clk lay) crossings s tgt fuel.
Definition o_do (lay : olayout) (o : oop) : olayout := default lay (o_step lay o).
(** k_shortest_paths.hpp:83-95: the connections to block. *)
Definition y_connections (A : list (list coord)) (root : list coord) (i : nat) : list (coord * coord) :=
  flat_map (fun p => if Nat.ltb (i + 1) (length p) && bool_decide (take i p = root)
                     then match p !! i, p !! (i + 1)%nat with Some a, Some b => [(a, b)] | _, _ => [] end
                     else []) A.
(** k_shortest_paths.hpp:76-132: one spur, i.e. one iteration of the loop over i; the new layout and candidates.
    [None] is a failure of A*. *)
Definition y_spur (A : list (list coord)) (latest : list coord) (st : olayout * list (list coord)) (i : nat)
    : option (olayout * list (list coord)) :=
  let '(lay, B) := st in
  match latest !! i with
  | None => None
  | Some spur =>
    let root := take i latest in
    let conns := y_connections A root i in
    let coords := List.filter (fun r => negb (coord_eqb r spur)) root in
    let lay1 := fold_left (fun l c => o_do l (ObstructConnection c.1 c.2)) conns lay in
    let lay2 := fold_left (fun l c => o_do l (ObstructCoordinate c)) coords lay1 in
    match y_star lay2 spur with
    | None => None
    | Some spur_path =>
      let B' := match spur_path with [] => B | _ => set_add (root ++ spur_path) B end in
      let lay3 := fold_left (fun l c => o_do l (ClearCoordinate c)) coords lay2 in
      let lay4 := fold_left (fun l c => o_do l (ClearConnection c.1 c.2)) conns lay3 in
      Some (lay4, B')
    end
  end.
(** k_shortest_paths.hpp:71-147: the loop over k, [rounds] further rounds; the final layout and paths. *)
Fixpoint y_loop (rounds : nat) (lay : olayout) (A B : list (list coord)) : option (olayout * list (list coord)) :=
  match rounds with
  | O => Some (lay, A)
  | S n =>
    let latest := default [] (last A) in
    match fold_left (fun acc i => match acc with None => None | Some st => y_spur A latest st i end)
                    (seq 0 (length latest - 1)) (Some (lay, B)) with
    | None => None
    | Some (lay', B') =>
      match B' with
      | [] => Some (lay', A)
      | x :: r => let b := shortest_of x r in y_loop n lay' (A ++ [b]) (remove_path b B')
      end
    end
  end.
(** k_shortest_paths.hpp:39-70, constructor and run. [lay] is the obstruction layout made from the
    argument: a fresh one (o_new) for layouts without obstructions; otherwise it shares the
    obstructions with the caller's layout (obstruction_layout.hpp:35-40, the storage is a shared_ptr), so the returned layout is what the
    caller sees afterwards. *)
Definition yen (lay : olayout) (k : nat) : option (olayout * list (list coord)) :=
  match y_star lay src with
  | None => None
  | Some [] => Some (lay, [])
  | Some p => y_loop (k - 1) lay [p] []
  end.
End Yen.
