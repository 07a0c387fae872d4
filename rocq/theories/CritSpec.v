(** Specification of the critical temperature of a gate. *)
From Coq Require Import ZArith QArith Qcanon Qround Bool List Sorted Permutation.
From Verif Require Import CoordModel SidbModel ResultModel CritModel.
Import ListNotations.
Local Open Scope Z_scope.

(** Sorting by energies. *)
Definition sorts (sort : energies -> energies) : Prop := forall l, Permutation (sort l) l /\ StronglySorted (fun a b => (fst a <= fst b)%Qc) (sort l).
Definition total (l : list Qc) : Qc := fold_right Qcplus (Q2Qc 0) l.
(** Energies in microelectronvolts, rounded. *)
Definition micro (x : Qc) : Z := if qltb x (Q2Qc 0) then - Qfloor ((- this x) * 1000000 + (1 # 2)) else Qfloor (this x * 1000000 + (1 # 2)).

Section Gate.
Variable boltz : Qc -> nat -> Qc.
Variable L : Type.
Variable energy : L -> Qc.
Variable sign : L -> coord -> Z.

(** The energies of the distribution are those of the charge distributions, each once. Two energies are equal or further apart than the error margin. *)
Definition distributed (p : pattern L) : Prop :=
  NoDup (p_dist p) /\ (forall e, In e (p_dist p) <-> exists l, In l (p_results p) /\ energy l = e) /\
  forall l m, In l (p_results p) -> In m (p_results p) -> (qabs (energy l - energy m) < Q2Qc (1 # 1000000))%Qc -> energy l = energy m.
Definition lowest (lays : list L) (e : Qc) : Prop := (exists l, In l lays /\ energy l = e) /\ forall l, In l lays -> (e <= energy l)%Qc.
(** Gates: [right p l] tells that the charge distribution shows the wanted outputs. *)
Section Right.
Variable right : pattern L -> L -> Prop.
(** A pattern works: no positive charges, and one of the ground states (up to a microelectronvolt) is right. *)
Definition works (p : pattern L) : Prop :=
  p_positive p = false /\ exists e l, lowest (p_results p) e /\ In l (p_results p) /\ micro (energy l) = micro e /\ right p l.
(** The probability of a wrong state at a temperature. *)
Definition probability (p : pattern L) (t : nat) (q : Qc) : Prop :=
  exists e w, lowest (p_results p) e /\ (forall l, In l (p_results p) -> (w l = true <-> ~ right p l)) /\
  q = (total (map (fun l => boltz (energy l - e) t) (filter w (p_results p))) / total (map (fun l => boltz (energy l - e) t) (p_results p)))%Qc.
(** The critical temperature: 0 if a pattern does not work; otherwise the lowest multiple of 0.01 K up to the maximum at which
    a wrong state is too probable for a pattern, or the maximum if there is none. *)
Definition critical (confidence max : Qc) (ps : list (pattern L)) (ct : Qc) : Prop :=
  ((exists p, In p ps /\ ~ works p) -> ct = Q2Qc 0) /\
  ((forall p, In p ps -> works p) ->
    (ct <= max)%Qc /\
    (ct = max \/ exists i p q, (1 <= i)%nat /\ ct = Q2Qc (Z.of_nat i # 100) /\ In p ps /\ probability p i q /\ (1 - confidence < q)%Qc) /\
    forall i p q, (1 <= i)%nat -> (Q2Qc (Z.of_nat i # 100) <= max)%Qc -> In p ps -> probability p i q -> (1 - confidence < q)%Qc -> (ct <= Q2Qc (Z.of_nat i # 100))%Qc).
End Right.
(** A layout without inputs and outputs: [dist] lists the energies of its charge distributions in ascending order, with the number of charge distributions of each. *)
Definition counted (lays : list L) (dist : list (Qc * Z)) : Prop :=
  StronglySorted (fun a b => (fst a < fst b)%Qc) dist /\ (forall e, (exists n, In (e, n) dist) <-> exists l, In l lays /\ energy l = e) /\ forall e n, In (e, n) dist -> n = Z.of_nat (length (filter (fun l => if Qc_eq_dec (energy l) e then true else false) lays)).
(** The probability of an excited state: its energy, rounded to microelectronvolts, is more than one above the lowest. *)
Definition excited (lays : list L) (t : nat) (q : Qc) : Prop :=
  exists e, lowest lays e /\ q = (total (map (fun l => boltz (energy l - e) t) (filter (fun l => micro e + 1 <? micro (energy l)) lays)) / total (map (fun l => boltz (energy l - e) t) lays))%Qc.
Definition critical_all (confidence max : Qc) (lays : list L) (ct : Qc) : Prop :=
  (ct <= max)%Qc /\ (ct = max \/ exists i q, (1 <= i)%nat /\ ct = Q2Qc (Z.of_nat i # 100) /\ excited lays i q /\ (1 - confidence < q)%Qc) /\
  forall i q, (1 <= i)%nat -> (Q2Qc (Z.of_nat i # 100) <= max)%Qc -> excited lays i q -> (1 - confidence < q)%Qc -> (ct <= Q2Qc (Z.of_nat i # 100))%Qc.
(** All outputs are as wanted: 1 if the lower dot is charged. *)
Definition outputs_right (outs : list coord) (p : pattern L) (l : L) : Prop := Forall2 (fun o b => sign l o <> 0 <-> b = true) outs (p_bits p).
End Gate.
