(** Specification of the defect clearance. *)
From Coq Require Import QArith Qcanon List.
From Verif Require Import CoordModel ClearModel.

Section Spec.
Variable dist : coord -> coord -> Qc.
Variable cells : list coord.
(** The distance of a position to the closest cell. *)
Definition nearest (pos : coord) (d : Qc) : Prop := (exists c, In c cells /\ dist c pos = d) /\ forall c, In c cells -> (d <= dist c pos)%Qc.
(** The largest distance of an influential position to the layout, or 0. *)
Definition largest (domain : list (coord * bool)) (d : Qc) : Prop :=
  (Q2Qc 0 <= d)%Qc /\ (forall p d', In (p, true) domain -> nearest p d' -> (d' <= d)%Qc) /\ (d = Q2Qc 0 \/ exists p, In (p, true) domain /\ nearest p d).
End Spec.
