(** Model of include/fiction/networks/views/bfs_topo_view.hpp on technology networks.

    Simplifications.
    - mockturtle's fanout_view, which is not part of the repository, lists for each node the gates that have it as a fan-in, each once, in the order
      of the gates; foreach_node visits all nodes by index.
    - The traversal marks are the set [b_visited]; running out of fuel is the outcome [None].
    - Iterating over nodes is the list of the nodes visited. *)
From Coq Require Import ZArith Bool List.
From stdpp Require Import gmap list.
From Verif Require Import FanoutModel DepthModel.
Import ListNotations.

Section Bfs.
Variable net : tnet.

(** mockturtle's foreach_fanout. *)
Definition bfs_fanouts (n : nat) : list nat := List.filter (fun g => existsb (Nat.eqb n) (t_fanins net g)) (seq 0 (length (t_nodes net))).
(** The variables of update_bfs_topo: q, topo_order, the marks and unvisited_fanin_count. *)
Record bstate := mkB { b_queue : list nat; b_topo : list nat; b_visited : gset nat; b_count : gmap nat nat }.
(** bfs_topo_view.hpp:196-207 and 216-225: an unmarked node is marked, listed and put into the queue. *)
Definition bfs_source (n : nat) (st : bstate) : bstate :=
  if bool_decide (n ∈ b_visited st) then st else mkB (b_queue st ++ [n]) (b_topo st ++ [n]) ({[n]} ∪ b_visited st) (b_count st).
(** bfs_topo_view.hpp:209-214: the numbers of fan-ins. *)
Definition bfs_counts : gmap nat nat := fold_left (fun m n => <[n := u32 (Z.of_nat (length (t_fanins net n)))]> m) (seq 0 (length (t_nodes net))) ∅.
(** bfs_topo_view.hpp:189-225 *)
Definition bfs_start : bstate := fold_left (fun st n => bfs_source n st) (0 :: 1 :: t_pis net) (mkB [] [] ∅ bfs_counts).
(** bfs_topo_view.hpp:232-247: one fan-out. *)
Definition bfs_child (c : nat) (st : bstate) : bstate :=
  if bool_decide (c ∈ b_visited st) then st
  else
    let k := u32 (Z.of_nat (default 0 (b_count st !! c)) - 1) in
    let count := <[c := k]> (b_count st) in
    if Nat.eqb k 0 then mkB (b_queue st ++ [c]) (b_topo st ++ [c]) ({[c]} ∪ b_visited st) count
    else mkB (b_queue st) (b_topo st) (b_visited st) count.
(** bfs_topo_view.hpp:227-248: the loop. *)
Fixpoint bfs_loop (fuel : nat) (st : bstate) : option bstate :=
  match b_queue st with
  | [] => Some st
  | n :: q =>
    match fuel with
    | O => None
    | S fuel => bfs_loop fuel (fold_left (fun st c => bfs_child c st) (bfs_fanouts n) (mkB q (b_topo st) (b_visited st) (b_count st)))
    end
  end.
(** bfs_topo_view.hpp:187-249, update_bfs_topo: topo_order. *)
Definition topo_order : option (list nat) := option_map b_topo (bfs_loop (length (t_nodes net)) bfs_start).

(** ** What the view tells, given topo_order *)

Variable topo : list nat.
(** bfs_topo_view.hpp:92-95, size *)
Definition bfs_size : nat := u32 (Z.of_nat (length topo)).
(** bfs_topo_view.hpp:104-105; the constants of technology networks are two nodes. *)
Definition gate_offset : nat := u32 (1 + Z.of_nat (length (t_pis net)) + 1).
(** bfs_topo_view.hpp:102-107, num_gates *)
Definition bfs_num_gates : nat := u32 (Z.of_nat (length topo) - Z.of_nat gate_offset).
(** bfs_topo_view.hpp:115-118, node_to_index: the number of nodes if the node is not listed. *)
Fixpoint find_index (l : list nat) (n : nat) : nat := match l with [] => 0 | a :: l => if Nat.eqb a n then 0 else S (find_index l n) end.
Definition node_to_index (n : nat) : nat := u32 (Z.of_nat (find_index topo n)).
(** bfs_topo_view.hpp:126-129, index_to_node; [None]: std::out_of_range *)
Definition index_to_node (i : nat) : option nat := topo !! i.
(** bfs_topo_view.hpp:138-181, foreach_node, foreach_node_reverse, foreach_gate and foreach_gate_reverse. *)
Definition bfs_foreach_node : list nat := topo.
Definition bfs_foreach_node_reverse : list nat := rev topo.
Definition bfs_foreach_gate : list nat := skipn gate_offset topo.
Definition bfs_foreach_gate_reverse : list nat := firstn (length topo - gate_offset) (rev topo).
End Bfs.
