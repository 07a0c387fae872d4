(** Model of include/fiction/algorithms/physical_design/determine_clocking.hpp.

    Simplifications. A variable of the SAT instance is a pair of a tile and a clock number; it is assumed that the tiles of different
    nodes differ. The counter of symmetry_breaking is an int; its overflow after 2^31 calls is not modelled. *)
From Coq Require Import ZArith Bool List Arith.
From stdpp Require Import gmap list.
From Verif Require Import CoordMap CoordModel GridModel ClockModel GateModel SatModel.
Import ListNotations.
Open Scope nat_scope.

Notation tc := (coord * nat)%type.

Section handler.
Variable st : glayout.

(** determine_clocking.hpp:69-86, the loop of the constructor, which is also the loop of the constraints: the tiles of all nodes but the constants. *)
Definition clk_nodes : list nat := List.filter (fun n => negb (is_constant n)) (foreach_node st).
Definition clk_tiles : list coord := map (get_tile st) clk_nodes.
Definition clk_count : nat := Z.to_nat (num_clocks (g_cl st)).
Definition clks_of : list nat := seq 0 clk_count.
(** determine_clocking.hpp:80-84 and 131: operator[] of the hash map yields variable 0, the first one added, for a pair without a variable. *)
Definition clk_var (t : coord) (c : nat) : tc :=
  if bool_decide (t ∈ clk_tiles) && (c <? clk_count) then (t, c) else (hd const0 clk_tiles, 0).
(** determine_clocking.hpp:136-160 *)
Definition at_least_one_clock_number_per_tile : list (form tc) :=
  map (fun t => at_least_one (map (clk_var t) clks_of)) clk_tiles.
(** determine_clocking.hpp:164-189 *)
Definition at_most_one_clock_number_per_tile : list (form tc) :=
  flat_map (fun c1 => flat_map (fun c2 => map (fun t => not_both (clk_var t c1) (clk_var t c2)) clk_tiles)
                               (seq (S c1) (clk_count - S c1))) clks_of.
(** determine_clocking.hpp:193-230 *)
Definition exclude_clock_assignments_that_violate_information_flow : list (form tc) :=
  flat_map (fun t1 => flat_map (fun t2 => flat_map (fun c1 => flat_map (fun c2 =>
    if (c2 + 1) mod clk_count =? c1 then [] else [not_both (clk_var t1 c1) (clk_var t2 c2)]) clks_of) clks_of)
    (incoming_data_flow false st t1)) clk_tiles.
(** determine_clocking.hpp:234-260 *)
Definition ensure_same_clock_number_on_crossing_tiles : list (form tc) :=
  flat_map (fun w => let t := get_tile st w in
    if is_ground_layer t then []
    else map (fun c => same (clk_var t c) (clk_var (below (cl_dim (g_cl st)) t) c)) clks_of) (foreach_wire st).
(** determine_clocking.hpp:265-294: the counter is captured by value in the one closure that calls itself, so it is shared by all calls. Each
    fan-out is passed to the functor by a loop of its own (gate_level_layout.hpp:1181-1189), so [return false] ends that loop only, and the
    recursion visits all fan-outs. The result: constraints and counter. [None]: more nested calls than [fuel]. *)
Fixpoint recurse (fuel : nat) (n : nat) (clk : nat) : option (list (form tc) * nat) :=
  match fuel with
  | 0 => None
  | S k =>
      (fix go (l : list nat) (acc : list (form tc)) (clk : nat) : option (list (form tc) * nat) :=
         match l with
         | [] => Some (acc, clk)
         | m :: r => match recurse k m clk with Some (fs, clk') => go r (acc ++ fs) clk' | None => None end
         end) (foreach_fanout true st n) [FLit true (clk_var (get_tile st n) (clk mod clk_count))] (S clk)
  end.
Definition symmetry_breaking (fuel : nat) : option (list (form tc)) :=
  match foreach_pi st with
  | [] => Some []
  | pi :: _ => option_map fst (recurse fuel pi 0)
  end.
(** determine_clocking.hpp:94-113: all constraints. *)
Definition clk_constraints (fuel : nat) : option (list (form tc)) :=
  option_map (fun sb => at_least_one_clock_number_per_tile ++ at_most_one_clock_number_per_tile ++
    exclude_clock_assignments_that_violate_information_flow ++ ensure_same_clock_number_on_crossing_tiles ++ sb) (symmetry_breaking fuel).
(** determine_clocking.hpp:300-325 *)
Definition clk_writes (m : tc -> bool) : list (coord * nat) :=
  flat_map (fun n => let t := get_tile st n in
    flat_map (fun c => if m (clk_var t c) then [(t, c); (above (cl_dim (g_cl st)) t, c); (below (cl_dim (g_cl st)) t, c)] else []) clks_of) clk_nodes.
Definition assign_clock_numbers (m : tc -> bool) : glayout :=
  with_cl st (fold_left (fun cl w => assign_clock_number cl (fst w) (Z.of_nat (snd w))) (clk_writes m) (g_cl st)).
(** determine_clocking.hpp:339-377, run: the result and the layout. [None]: the recursion does not end. *)
Definition determine_clocking (fuel : nat) (sat : solver tc) : option (bool * glayout) :=
  if is_empty st then Some (true, st)
  else match clk_constraints fuel with
       | None => None
       | Some fs => match sat fs with Some m => Some (true, assign_clock_numbers m) | None => Some (false, st) end
       end.
End handler.
