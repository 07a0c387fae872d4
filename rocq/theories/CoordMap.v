(** Finite maps and sets keyed by coordinates (std++ [gmap]): the model of the hash maps
    (phmap) the layouts store their contents in. Only infrastructure, no code is modelled here. *)
From stdpp Require Import gmap numbers.
From Verif Require Import CoordModel.

Global Instance coord_eq_dec : EqDecision coord.
Proof. solve_decision. Defined.

Global Program Instance coord_countable : Countable coord :=
  inj_countable' (fun c => (cd c, cx c, cy c, cz c)) (fun p => mkC p.1.1.1 p.1.1.2 p.1.2 p.2) _.
Next Obligation. intros [d x y z]; reflexivity. Qed.
