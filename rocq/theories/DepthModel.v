(** Models of include/fiction/networks/views/static_depth_view.hpp and
    include/fiction/algorithms/network_transformation/network_balancing.hpp on technology networks.

    Simplifications.
    - Technology networks have no complemented signals and no registers, so that [count_complements] and [foreach_ri] have no effect.
    - mockturtle's depth_view, which network_balancing uses and which is not part of the repository, computes levels as static_depth_view does;
      nodes that no output depends on have level 0 there.
    - The source network is already converted and the order of its topological view is an argument, as in FanoutModel.
    - Recursion has fuel; running out of it is an error value. *)
From Coq Require Import ZArith Bool List.
From stdpp Require Import gmap list.
From Verif Require Import FanoutModel.
Import ListNotations.

(** Arithmetic of uint32_t. *)
Definition u32 (z : Z) : nat := Z.to_nat (z mod 4294967296)%Z.
Definition add32 (a b : nat) : nat := u32 (Z.of_nat a + Z.of_nat b)%Z.

Section depth.
(** static_depth_view.hpp:24-34 and 50-54: the parameter [pi_cost] and the cost function of nodes. *)
Context (net : tnet) (pi_cost : bool) (cost : nat -> nat).

(** The set of visited nodes and the levels computed so far. *)
Record dstate := mkD { d_visited : gset nat; d_levels : gmap nat nat }.
Definition get_level (st : dstate) (n : nat) : nat := default 0 (d_levels st !! n).
Definition set_level (n k : nat) (st : dstate) : dstate := mkD (d_visited st) (<[n := k]> (d_levels st)).
Definition is_ci (n : nat) : bool := match t_nodes net !! n with Some TPi => true | _ => false end.

Fixpoint fold_level (f : nat -> dstate -> option (dstate * nat)) (l : list nat) (level : nat) (st : dstate) : option (dstate * nat) :=
  match l with
  | [] => Some (st, level)
  | c :: r => match f c st with Some (st, k) => fold_level f r (Nat.max level k) st | None => None end
  end.
(** static_depth_view.hpp:340-371, compute_levels of a node: the new state and the level; [None]: out of fuel. *)
Fixpoint compute_level (fuel : nat) (n : nat) (st : dstate) : option (dstate * nat) :=
  match fuel with
  | O => None
  | S fuel =>
    if decide (n ∈ d_visited st) then Some (mkD (d_visited st) (<[n := get_level st n]> (d_levels st)), get_level st n)
    else
      let st := mkD ({[n]} ∪ d_visited st) (d_levels st) in
      if t_is_constant net n then Some (set_level n 0 st, 0)
      else if is_ci n then let k := if pi_cost then u32 (Z.of_nat (cost n) - 1) else 0 in Some (set_level n k st, k)
      else match fold_level (compute_level fuel) (t_fanins net n) 0 st with
           | Some (st, level) => Some (set_level n (add32 level (cost n)) st, add32 level (cost n))
           | None => None
           end
  end.
(** static_depth_view.hpp:431-453, set_critical_path; the argument is the set of nodes marked so far. *)
Fixpoint set_critical_path (fuel : nat) (levels : dstate) (n : nat) (crit : gset nat) : option (gset nat) :=
  match fuel with
  | O => None
  | S fuel =>
    let crit := {[n]} ∪ crit in
    if negb (t_is_constant net n) && negb (pi_cost && is_ci n) then
      fold_o (fun c crit => if Nat.eqb (add32 (get_level levels c) (cost n)) (get_level levels n) && negb (bool_decide (c ∈ crit))
                            then set_critical_path fuel levels c crit else Some crit) (t_fanins net n) crit
    else Some crit
  end.
(** The depth view: levels, depth and marked nodes. *)
Record dview := mkV { v_levels : gmap nat nat; v_depth : nat; v_crit : gset nat }.
(** static_depth_view.hpp:376-425 and 294-303, compute_levels of the network and update_levels. *)
Definition update_levels : option dview :=
  let fuel := S (length (t_nodes net)) in
  match fold_o (fun f acc => match compute_level fuel f (fst acc) with Some (st, k) => Some (st, Nat.max (snd acc) k) | None => None end) (t_pos net) (mkD ∅ ∅, 0) with
  | None => None
  | Some (st, depth) =>
    match fold_o (fun f crit => if Nat.eqb (get_level st f) depth then set_critical_path fuel st f crit else Some crit) (t_pos net) ∅ with
    | None => None
    | Some crit => Some (mkV (d_levels st) depth crit)
    end
  end.
(** static_depth_view.hpp:254-273, level (which throws for nodes without level), depth and is_on_critical_path. *)
Definition level (v : dview) (n : nat) : option nat := v_levels v !! n.
Definition depth (v : dview) : nat := v_depth v.
Definition is_on_critical_path (v : dview) (n : nat) : bool := bool_decide (n ∈ v_crit v).
End depth.

(** static_depth_view.hpp:310-334, on_add: [net] already contains the new node [n]. *)
Definition on_add (net : tnet) (cost : nat -> nat) (v : dview) (n : nat) : dview :=
  let lv := fold_left (fun acc f => Nat.max acc (default 0 (v_levels v !! f))) (t_fanins net n) 0 in
  let k := if is_ci net n then lv else add32 lv (cost n) in
  let missing := List.filter (fun f => negb (bool_decide (is_Some (v_levels v !! f)))) (t_fanins net n) in
  mkV (<[n := k]> (fold_left (fun m f => <[f := 0]> m) missing (v_levels v))) (Nat.max (v_depth v) (add32 lv (cost n))) (v_crit v).

(** *** network_balancing.hpp *)
Section balancing.
Context (net : tnet) (order : list nat) (unify_outputs : bool).

(** The levels of depth_view (unit costs); 0 for nodes that no output depends on. *)
Definition ntk_depth : option (gmap nat nat) := option_map v_levels (update_levels net false (fun _ => 1)).
Definition lvl (lv : gmap nat nat) (n : nat) : nat := default 0 (lv !! n).
(** network_balancing.hpp:60-67, insert_buf_chain: the new state and the new child. *)
Fixpoint insert_buf_chain (num : nat) (child : nat) (st : fstate) : fstate * nat :=
  match num with O => (st, child) | S num => insert_buf_chain num (next_node st) (create_buf st child) end.
(** network_balancing.hpp:80-95, the fan-ins of a gate. *)
Fixpoint balance_fanins (lv : gmap nat nat) (n : nat) (l : list nat) (st : fstate) : fstate * list nat :=
  match l with
  | [] => (st, [])
  | f :: r =>
    let '(st, child) := if t_is_constant net f then (st, old2new st f)
      else insert_buf_chain (u32 (Z.of_nat (lvl lv n) - Z.of_nat (lvl lv f) - 1)) (old2new st f) st in
    let '(st, cs) := balance_fanins lv n r st in (st, child :: cs)
  end.
(** network_balancing.hpp:74-99, one gate. *)
Definition balance_gate (lv : gmap nat nat) (n : nat) (st : fstate) : option fstate :=
  match t_nodes net !! n with
  | Some (TGate lit ch) => let '(st, ch') := balance_fanins lv n ch st in Some (set_map (push st (TGate lit ch')) n (next_node st))
  | _ => None
  end.
Definition add_po (f : nat) (st : fstate) : fstate := mkF (f_nodes st) (f_pos st ++ [f]) (f_map st) (f_avail st) (f_draws st).
(** network_balancing.hpp:106-120, one output. *)
Definition balance_po (lv : gmap nat nat) (max_po_level : nat) (n : nat) (st : fstate) : option fstate :=
  let tgt := old2new st n in
  let '(st, tgt) := if unify_outputs then insert_buf_chain (u32 (Z.of_nat max_po_level - Z.of_nat (lvl lv n))) tgt st else (st, tgt) in
  Some (add_po tgt st).
(** network_balancing.hpp:57-126, run; [None]: the maximum of no outputs is read (or out of fuel). *)
Definition network_balancing : option tnet :=
  match ntk_depth with
  | None => None
  | Some lv =>
    match fold_o (balance_gate lv) order (copy_network net) with
    | None => None
    | Some st =>
      match t_pos net with
      | [] => None
      | _ :: _ =>
        match fold_o (balance_po lv (list_max (map (lvl lv) (t_pos net)))) (t_pos net) st with
        | None => None
        | Some st => Some (mkT (f_nodes st) (seq 2 (length (t_pis net))) (f_pos st))
        end
      end
    end
  end.
(** Whether neighbours in a list differ (std::ranges::adjacent_find with not_equal_to). *)
Fixpoint neighbours_differ (l : list nat) : bool :=
  match l with a :: ((b :: _) as r) => negb (Nat.eqb a b) || neighbours_differ r | _ => false end.
(** network_balancing.hpp:142-180, is_balanced; all gates are checked. *)
Definition is_balanced : option bool :=
  match ntk_depth with
  | None => None
  | Some lv => Some (
      forallb (fun n => forallb (fun f => t_is_constant net f || negb (Nat.ltb 0 (u32 (Z.of_nat (lvl lv n) - Z.of_nat (lvl lv f) - 1)))) (t_fanins net n)) (seq 0 (length (t_nodes net))) &&
      negb (unify_outputs && neighbours_differ (map (lvl lv) (t_pos net))))
  end.
End balancing.
