(** Specification of depth and balance of networks. *)
From Coq Require Import ZArith Bool List.
From stdpp Require Import gmap list.
From Verif Require Import FanoutModel FanoutSpec.
Import ListNotations.

Section spec.
Context (net : tnet) (pi_cost : bool) (cost : nat -> nat).
(** [chain n k]: some path from a constant or an input to [n] costs [k]. *)
Inductive chain : nat -> nat -> Prop :=
| chain_const n b : t_nodes net !! n = Some (TConst b) -> chain n 0
| chain_input n : t_nodes net !! n = Some TPi -> chain n (if pi_cost then cost n - 1 else 0)
| chain_gate n c k : In c (t_fanins net n) -> chain c k -> chain n (k + cost n).
(** [tail n o w]: some path from [n] to [o] costs [w], not counting [n]. *)
Inductive tail : nat -> nat -> nat -> Prop :=
| tail_here n : tail n n 0
| tail_step c n o w : In c (t_fanins net n) -> tail n o w -> tail c o (cost n + w).
Definition reaches (n o : nat) : Prop := exists w, tail n o w.
(** Some output depends on [n]. *)
Definition live (n : nat) : Prop := exists o, In o (t_pos net) /\ reaches n o.
(** [k] is the cost of the most expensive path to [n]. *)
Definition longest (n k : nat) : Prop := chain n k /\ forall k', chain n k' -> k' <= k.
(** No sum of costs leaves the type of levels. *)
Definition short (order : list nat) : Prop := (Z.of_nat (list_sum (map cost (t_pis net ++ order))) < 2 ^ 32)%Z.
End spec.

(** [route n k]: some path of [k] gates leads to [n] from an input or from a gate fed by constants only; constants are not followed. *)
Inductive route (net : tnet) : nat -> nat -> Prop :=
| route_const n b : t_nodes net !! n = Some (TConst b) -> route net n 0
| route_input n : t_nodes net !! n = Some TPi -> route net n 0
| route_start n lit ch : t_nodes net !! n = Some (TGate lit ch) -> (forall c, In c ch -> t_is_constant net c = true) -> route net n 1
| route_gate n c k : In c (t_fanins net n) -> t_is_constant net c = false -> route net c k -> route net n (S k).
(** All paths to a gate are equally long. *)
Definition path_balanced (net : tnet) : Prop := forall n k k', route net n k -> route net n k' -> k = k'.
(** All paths to outputs are equally long. *)
Definition outputs_unified (net : tnet) : Prop := forall o o' k k', In o (t_pos net) -> In o' (t_pos net) -> route net o k -> route net o' k' -> k = k'.
(** The number of gates on a longest path to an output. *)
Definition network_depth (net : tnet) (d : nat) : Prop :=
  (forall o k, In o (t_pos net) -> chain net false (fun _ => 1) o k -> k <= d) /\ exists o, In o (t_pos net) /\ chain net false (fun _ => 1) o d.
