(** Specification of BDL pairs. *)
From Coq Require Import ZArith QArith Bool List Sorted Permutation.
From Verif Require Import CoordModel CellModel CellSpec BdlModel.
Import ListNotations.

(** A comparison is a strict weak ordering of the elements with property [P]. *)
Definition strict_weak {A} (P : A -> Prop) (lt : A -> A -> bool) : Prop :=
  (forall a, P a -> lt a a = false) /\ (forall a b c, P a -> P b -> P c -> lt a b = true -> lt b c = true -> lt a c = true) /\
  (forall a b c, P a -> P b -> P c -> lt a b = false -> lt b c = false -> lt a c = false).
(** What std::sort guarantees. *)
Definition sorting (sort : forall A : Type, (A -> A -> bool) -> list A -> list A) : Prop :=
  forall A (lt : A -> A -> bool) l, strict_weak (fun x => In x l) lt -> Permutation (sort A lt l) l /\ StronglySorted (fun a b => lt b a = false) (sort A lt l).

Definition on (c : coord) (p : bdl_pair) : Prop := c = p_upper p \/ c = p_lower p.
(** Pairs by their upper dots, those with the same upper dot by their lower dots. *)
Definition pair_before (k : kind) (p q : bdl_pair) : Prop :=
  k_ltb k (p_upper p) (p_upper q) = true \/ (p_upper p = p_upper q /\ k_ltb k (p_lower p) (p_lower q) = true).

Section Spec.
Variable k : kind.
Variable dist : coord -> coord -> Q.
Variable lo hi : Q.
(** The dots that are paired up. *)
Variable dot : coord -> Prop.
Variable t : Z.

Definition in_range (a b : coord) : Prop := (lo <= dist a b /\ dist a b <= hi)%Q.
Record pairing (l : list bdl_pair) : Prop := {
  pr_sorted : StronglySorted (pair_before k) l;
  pr_type : forall p, In p l -> p_type p = t;
  pr_dots : forall p, In p l -> dot (p_upper p) /\ dot (p_lower p) /\ k_ltb k (p_upper p) (p_lower p) = true;
  pr_range : forall p, In p l -> in_range (p_upper p) (p_lower p);
  (** no dot is in two pairs *)
  pr_disjoint : forall p q c, In p l -> In q l -> on c p -> on c q -> p = q;
  (** of two dots in range one is in a pair that is at most as far apart *)
  pr_stable : forall a b, dot a -> dot b -> a <> b -> in_range a b -> exists p, In p l /\ (on a p \/ on b p) /\ (dist (p_upper p) (p_lower p) <= dist a b)%Q }.

(** No two pairs of dots in range are at the same distance. *)
Definition no_ties : Prop := forall a b c d, dot a -> dot b -> dot c -> dot d -> a <> b -> c <> d -> in_range a b -> (dist a b == dist c d)%Q -> (a = c /\ b = d) \/ (a = d /\ b = c).
End Spec.

(** The distance does not depend on the order of the cells. *)
Definition symmetric (dist : coord -> coord -> Q) : Prop := forall a b, (dist a b == dist b a)%Q.
(** The layout visits all its cells once, in some order. *)
Definition visits (visit : list coord -> list coord) : Prop := forall l, Permutation (visit l) l.
