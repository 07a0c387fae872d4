(** Model of the statistics of operational domains (include/fiction/algorithms/simulation/sidb/operational_domain.hpp) and of
    include/fiction/algorithms/simulation/sidb/operational_domain_ratio.hpp.

    Simplifications.
    - As in OpDomModel.v. The given parameter point is its step point (to_step_point). Counters do not wrap at 2^64.
    - The quotient is a rational number, without rounding. *)
From Coq Require Import ZArith QArith Bool List.
From stdpp Require Import gmap list.
From Verif Require Import OpDomModel.
From Coq Require Import List.
Import ListNotations.

(** operational_domain.hpp:371-394, operational_domain_stats: the counters filled from the domain. *)
Record op_stats := mkStats { num_operational : nat; num_non_operational : nat; num_total : nat }.
(** operational_domain.hpp:1961-1982, log_stats; [order] is the order in which op_domain.for_each passes over the stored points. *)
Definition log_stats (dims : list nat) (dom : gmap (list nat) bool) (order : list (list nat)) : op_stats :=
  let '(a, b) := fold_left (fun ab p => match dom !! p with
    | Some true => (S (fst ab), snd ab)
    | Some false => (fst ab, S (snd ab))
    | None => ab end) order (0, 0)%nat in
  mkStats a b (fold_left (fun product n => product * n)%nat dims 1%nat).
(** operational_domain_ratio.hpp:48-67, operational_domain_ratio, after the flood fill without random samples from the given point. *)
Definition operational_domain_ratio (dims : list nat) (dom : gmap (list nat) bool) (order : list (list nat)) : Q :=
  let st := log_stats dims dom order in inject_Z (Z.of_nat (num_operational st)) / inject_Z (Z.of_nat (num_total st)).
