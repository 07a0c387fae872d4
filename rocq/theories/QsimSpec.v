(** What a QuickSim result is: the vector of charge distributions, when several threads append to it. *)
From Coq Require Import List.
From Verif Require Import SidbModel QsimModel.
Import ListNotations.

(** [interleaving ls r]: the lists [ls] are each a subsequence of [r], and together they make up [r]: threads append their
    elements one at a time, in their own order, in any order among each other. *)
Inductive interleaving {A} : list (list A) -> list A -> Prop :=
| i_done ls : Forall (fun l => l = []) ls -> interleaving ls []
| i_step before x l after r : interleaving (before ++ l :: after) r -> interleaving (before ++ (x :: l) :: after) (x :: r).

(** [returns o r]: a call with the outcome [o] may return the charge distributions [r]. *)
Definition returns (o : outcome) (r : list cds) : Prop :=
  match o with
  | Found first threads => exists rest, interleaving threads rest /\ r = first ++ rest
  | _ => False
  end.
