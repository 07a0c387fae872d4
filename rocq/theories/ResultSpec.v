(** What the results of simulations of SiDB layouts are, and when distributions and energies are the same. *)
From Coq Require Import ZArith QArith Qcanon Bool List.
From Verif Require Import CoordModel SidbModel SidbSpec.
Import ListNotations.
Local Open Scope Z_scope.

(** The charge distributions of a result: surfaces with the given SiDBs and base number, whose charge states are among those
    that the base number admits. *)
Definition surfaces (cells : list coord) (b : Z) (R : list cds) : Prop :=
  forall r, In r R -> d_order r = cells /\ length (d_charge r) = length cells /\ p_base (d_par r) = b /\
    (forall c, In c cells -> allowed b (get_charge_state r c)).

(** Two surfaces hold the same charge distribution. *)
Definition same (cells : list coord) (r s : cds) : Prop := forall c, In c cells -> get_charge_state r c = get_charge_state s c.

(** No two elements of the list hold the same charge distribution. *)
Definition distinct (cells : list coord) (R : list cds) : Prop :=
  forall i j d, (i < j < length R)%nat -> ~ same cells (nth i R d) (nth j R d).

(** Two energies that are equal up to the numerical tolerance. *)
Definition about (a b : Qc) : Prop := (a - b < margin)%Qc /\ (b - a < margin)%Qc.

(** No other distribution of the result has a lower energy (up to the numerical tolerance). *)
Definition lowest (R : list cds) (e : Qc) : Prop := forall r, In r R -> (e < d_energy r + margin)%Qc.

(** [U] has one representative for each distribution of [R] with the property [F] and no others. *)
Definition represents (cells : list coord) (R : list cds) (F : cds -> Prop) (U : list cds) : Prop :=
  distinct cells U /\ (forall u, In u U -> exists r, In r R /\ F r /\ same cells u r) /\
  (forall r, In r R -> F r -> exists u, In u U /\ same cells u r).

(** Every distribution of [R] with the property [F] is also one of [S] with the property [G]. *)
Definition within (cells : list coord) (R : list cds) (F : cds -> Prop) (S : list cds) (G : cds -> Prop) : Prop :=
  forall r, In r R -> F r -> exists s, In s S /\ G s /\ same cells r s.

(** The stored charge indices are the numbers of the distributions. *)
Definition numbered (cells : list coord) (b : Z) (R : list cds) : Prop :=
  forall r, In r R -> d_idx r = number b (map (get_charge_state r) cells).

(** The energies of two distributions differ by the numerical tolerance at most. *)
Definition similar (r s : cds) : Prop := (d_energy r - d_energy s <= margin)%Qc /\ (d_energy s - d_energy r <= margin)%Qc.
