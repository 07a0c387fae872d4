(** Specification of the number of crossings. *)
From Coq Require Import ZArith Bool List.
From stdpp Require Import gmap list.
From Verif Require Import FanoutModel DepthModel RankModel.
Import ListNotations.

(** A wire leads from position [i] of rank [r] to position [j] of the next rank. *)
Definition wire (net : tnet) (rs : list (list nat)) (r i j : nat) : Prop :=
  exists rank rank' u v, rs !! r = Some rank /\ rs !! S r = Some rank' /\ rank !! i = Some u /\ rank' !! j = Some v /\ In u (t_fanins net v).
(** Two wires between the same ranks cross if their order at the one rank is not that at the other. *)
Definition cross (net : tnet) (rs : list (list nat)) (x : nat * ((nat * nat) * (nat * nat))) : Prop :=
  let '(r, ((i, j), (i', j'))) := x in wire net rs r i j /\ wire net rs r i' j' /\ i < i' /\ j' < j.
(** [k] is the number of crossings. *)
Definition crossings (net : tnet) (rs : list (list nat)) (k : nat) : Prop :=
  exists l, List.NoDup l /\ (forall x, In x l <-> cross net rs x) /\ length l = k.

(** The levels are those of the network, and there is a rank for each level up to its depth. *)
Definition up_to_date (st : rview) : Prop := update_levels (r_net st) false unit_cost = Some (r_view st) /\ length (get_all_ranks st) = S (depth (r_view st)).
