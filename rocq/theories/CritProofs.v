(** Proofs for C103. *)
From Coq Require Import ZArith QArith Qcanon Qround Bool List Sorted Permutation Lia Lqa.
From Verif Require Import CoordModel SidbModel SidbProofs ResultModel CritModel CritSpec.
Import ListNotations.
Local Open Scope Z_scope.

(** ** Numbers *)

Lemma this_mul a b : (this (a * b)%Qc == this a * this b)%Q.
Proof. unfold Qcmult. cbn [this Q2Qc]. apply Qred_correct. Qed.
Lemma this_qz z : (this (qz z) == inject_Z z)%Q.
Proof. unfold qz. cbn [this Q2Qc]. apply Qred_correct. Qed.
Lemma this_Q2Qc q : (this (Q2Qc q) == q)%Q.
Proof. cbn [this Q2Qc]. apply Qred_correct. Qed.
Lemma this_div a z : 0 < z -> (this (a / qz z)%Qc == this a / inject_Z z)%Q.
Proof.
  intros Hz. unfold Qcdiv. rewrite this_mul. unfold Qcinv. rewrite this_Q2Qc, this_qz. reflexivity.
Qed.
Lemma temp_grid i : temp i = Q2Qc (Z.of_nat i # 100).
Proof.
  apply Qc_is_canon. unfold temp. rewrite this_div by lia. rewrite this_qz, this_Q2Qc. unfold Qdiv, Qeq. cbn. lia.
Qed.
Lemma temp_le i j : (i <= j)%nat -> (temp i <= temp j)%Qc.
Proof. intros H. rewrite !temp_grid. unfold Qcle. rewrite !this_Q2Qc. unfold Qle. cbn. lia. Qed.
Lemma temp_lt i j : (temp i < temp j)%Qc -> (i < j)%nat.
Proof. rewrite !temp_grid. unfold Qclt. rewrite !this_Q2Qc. unfold Qlt. cbn. lia. Qed.
Lemma temp_pos i : (1 <= i)%nat -> (Q2Qc 0 < temp i)%Qc.
Proof. intros H. rewrite temp_grid. unfold Qclt. rewrite !this_Q2Qc. unfold Qlt. cbn. lia. Qed.
Lemma num_temps_spec mx i : (1 <= i)%nat -> (i < 1 + num_temps mx)%nat <-> (temp i <= mx)%Qc.
Proof.
  intros Hi. rewrite temp_grid. unfold num_temps, Qcle. rewrite this_Q2Qc.
  assert (E : Qfloor (this (mx * qz 100)%Qc) = Qfloor (this mx * 100)) by (apply Qfloor_comp; rewrite this_mul, this_qz; reflexivity). rewrite E. clear E. set (m := this mx).
  pose proof (Qfloor_le (m * 100)) as A. pose proof (Qlt_floor (m * 100)) as B. split; intros H.
  - assert (C : Z.of_nat i <= Qfloor (m * 100)) by lia. assert (D : (inject_Z (Z.of_nat i) <= m * 100)%Q) by (eapply Qle_trans; [|exact A]; rewrite <- Zle_Qle; exact C).
    assert (F : (Z.of_nat i # 100 == inject_Z (Z.of_nat i) * (1 # 100))%Q) by (unfold Qeq; cbn; lia). rewrite F. lra.
  - assert (D : (inject_Z (Z.of_nat i) <= m * 100)%Q). { assert (F : (Z.of_nat i # 100 == inject_Z (Z.of_nat i) * (1 # 100))%Q) by (unfold Qeq; cbn; lia). rewrite F in H. lra. }
    assert (C : (inject_Z (Z.of_nat i) < inject_Z (Qfloor (m * 100) + 1))%Q) by (eapply Qle_lt_trans; [exact D|exact B]). rewrite <- Zlt_Qlt in C. lia.
Qed.
Lemma qround_micro x : qround (x * qz 1000000) = micro x.
Proof.
  unfold qround, micro. assert (E : (this (x * qz 1000000)%Qc == this x * 1000000)%Q) by (rewrite this_mul, this_qz; reflexivity).
  assert (S : qltb (x * qz 1000000) (Q2Qc 0) = qltb x (Q2Qc 0)).
  { destruct (qltb x (Q2Qc 0)) eqn:X.
    - apply qltb_spec. apply qltb_spec in X. unfold Qclt in *. rewrite E. rewrite this_Q2Qc in *. lra.
    - apply qltb_false. apply qltb_false in X. unfold Qcle in *. rewrite E. rewrite this_Q2Qc in *. lra. }
  rewrite S. destruct (qltb x (Q2Qc 0)).
  - f_equal. apply Qfloor_comp. unfold Qcopp. rewrite this_Q2Qc, E. ring.
  - apply Qfloor_comp. rewrite E. reflexivity.
Qed.
Lemma qabs_lt a b m : (qabs (a - b) < m)%Qc <-> (a - b < m)%Qc /\ (b - a < m)%Qc.
Proof.
  unfold qabs. destruct (qltb (a - b) (Q2Qc 0)) eqn:E.
  - apply qltb_spec in E. clear -E. split; [intros H; split; qlin|intros [_ H]; qlin].
  - apply qltb_false in E. clear -E. split; [intros H; split; qlin|intros [H _]; qlin].
Qed.
Lemma close_lt a b : close a b = true <-> (qabs (a - b) < Q2Qc (1 # 1000000))%Qc.
Proof. unfold close. apply qltb_spec. Qed.
Lemma close_round a b : close (round6 a) (round6 b) = true <-> micro a = micro b.
Proof.
  rewrite close_lt, qabs_lt. unfold round6. rewrite !qround_micro. set (x := micro a). set (y := micro b). clearbody x y. clear a b.
  unfold Qclt. rewrite !this_sub, !this_div, !this_qz, !this_Q2Qc by lia. unfold Qdiv, Qminus, Qlt, Qplus, Qmult, Qopp, Qinv, inject_Z. cbn. lia.
Qed.

(** ** The loop over the temperatures *)

Section Loop.
Variable boltz : Qc -> nat -> Qc.
Variable conf mx : Qc.
Notation temps := (temperatures conf mx).
Notation occ := (occupation boltz).
Definition grid (ct : Qc) : Prop := (ct <= mx)%Qc /\ (ct = mx \/ exists j, ct = temp j).
Lemma grid_keep ct i : grid ct -> (if qltb (qabs (temp i - mx)) (Q2Qc (1 # 1000)) && qltb (temp i) ct then mx else ct) = ct.
Proof.
  intros [Le [->|(j & ->)]]; [destruct (_ && _); reflexivity|]. destruct (qltb (qabs (temp i - mx)) (Q2Qc (1 # 1000))) eqn:A; [|reflexivity]. destruct (qltb (temp i) (temp j)) eqn:B; [|reflexivity].
  exfalso. apply qltb_spec in A, B. apply temp_lt in B. apply qabs_lt in A as [_ A]. revert A Le. rewrite !temp_grid. unfold Qclt, Qcle. rewrite this_sub, !this_Q2Qc. intros A Le.
  assert (Z.of_nat i + 1 <= Z.of_nat j) as C by lia. assert (D : ((Z.of_nat i # 100) + (1 # 100) <= (Z.of_nat j # 100))%Q) by (unfold Qle, Qplus; cbn; lia). lra.
Qed.
Lemma temps_spec (occ : nat -> Qc) n : forall i ct, grid ct -> let r := temps occ n i ct in (r <= ct)%Qc /\ (r = ct \/ exists k, (i <= k < i + n)%nat /\ r = temp k /\ (1 - conf < occ k)%Qc) /\
  forall k, (i <= k < i + n)%nat -> (1 - conf < occ k)%Qc -> (r <= temp k)%Qc.
Proof.
  induction n as [|n IH]; intros i ct G; cbn [temperatures].
  - split; [apply Qcle_refl|]. split; [left; reflexivity|]. intros k Hk. lia.
  - cbv zeta. rewrite grid_keep by exact G. destruct (qltb (1 - conf) (occ i)) eqn:A; cbn [andb].
    + apply qltb_spec in A. destruct (qltb (temp i) ct) eqn:B.
      * apply qltb_spec in B. split; [apply Qclt_le_weak, B|]. split; [right; exists i; split; [lia|auto]|]. intros k Hk _. apply temp_le. lia.
      * apply qltb_false in B. destruct (IH (S i) ct G) as (C1 & C2 & C3). split; [exact C1|]. split; [destruct C2 as [C2|(k & Hk & C2)]; [left; exact C2|right; exists k; split; [lia|exact C2]]|].
        intros k Hk O. destruct (Nat.eq_dec k i) as [->|Nk]; [eapply Qcle_trans; [exact C1|exact B]|apply C3; [lia|exact O]].
    + apply qltb_false in A. destruct (IH (S i) ct G) as (C1 & C2 & C3). split; [exact C1|]. split; [destruct C2 as [C2|(k & Hk & C2)]; [left; exact C2|right; exists k; split; [lia|exact C2]]|].
      intros k Hk O. destruct (Nat.eq_dec k i) as [->|Nk]; [elim (Qclt_not_le _ _ O A)|apply C3; [lia|exact O]].
Qed.
Lemma temps_zero (occ : nat -> Qc) n : forall i, (1 <= i)%nat -> temps occ n i (Q2Qc 0) = Q2Qc 0.
Proof.
  induction n as [|n IH]; intros i Hi; [reflexivity|]. cbn [temperatures]. assert (Z : qltb (temp i) (Q2Qc 0) = false) by (apply qltb_false, Qclt_le_weak, temp_pos, Hi). rewrite Z, !andb_false_r. apply IH. lia.
Qed.

(** ** The loop over the patterns *)

Variable L : Type.
Variable st : pattern L -> energies.
Notation pats := (patterns boltz conf mx L st).
(** Patterns for which the loop goes on without setting the temperature to 0. *)
Definition fine (p : pattern L) : Prop := p_positive p = false /\ p_results p <> [] /\ exists x r, st p = x :: r /\ transparent (st p) (fst x) = true.
Definition safe (p : pattern L) : Prop := p_positive p = false -> p_results p <> [] -> st p <> [].
Lemma pats_zero ps : (forall p, In p ps -> safe p) -> pats ps (Q2Qc 0) = Some (Q2Qc 0).
Proof.
  induction ps as [|p ps IH]; intros S; [reflexivity|]. cbn [patterns]. destruct (p_positive p) eqn:P; [reflexivity|]. destruct (p_results p) as [|l ls] eqn:R; [reflexivity|].
  destruct (st p) as [|x r] eqn:E; [elim (S p (or_introl eq_refl) P); [rewrite R; discriminate|exact E]|]. unfold determine. rewrite temps_zero by lia. destruct (transparent _ _); apply IH; intros q Hq; apply S; right; exact Hq.
Qed.
Lemma pats_bad ps : (forall p, In p ps -> safe p) -> (exists p, In p ps /\ ~ fine p) -> forall ct, pats ps ct = Some (Q2Qc 0).
Proof.
  induction ps as [|p ps IH]; intros S (b & Hb & B) ct; [destruct Hb|]. cbn [patterns]. destruct (p_positive p) eqn:P; [reflexivity|]. destruct (p_results p) as [|l ls] eqn:R; [reflexivity|].
  destruct (st p) as [|x r] eqn:E; [elim (S p (or_introl eq_refl) P); [rewrite R; discriminate|exact E]|].
  assert (S' : forall q, In q ps -> safe q) by (intros q Hq; apply S; right; exact Hq). destruct (transparent (x :: r) (fst x)) eqn:T; [|apply pats_zero, S'].
  apply IH; [exact S'|]. destruct Hb as [<-|Hb]; [|exists b; auto]. elim B. split; [exact P|]. split; [rewrite R; discriminate|]. exists x, r. split; [exact E|]. rewrite E. exact T.
Qed.
Lemma pats_fine ps : (forall p, In p ps -> fine p) -> forall ct, grid ct -> exists r, pats ps ct = Some r /\ (r <= ct)%Qc /\
  (r = ct \/ exists p k, In p ps /\ (1 <= k)%nat /\ r = temp k /\ (1 - conf < occ (st p) k)%Qc) /\
  forall p k, In p ps -> (1 <= k)%nat -> (temp k <= mx)%Qc -> (1 - conf < occ (st p) k)%Qc -> (r <= temp k)%Qc.
Proof.
  induction ps as [|p ps IH]; intros F ct G.
  - exists ct. split; [reflexivity|]. split; [apply Qcle_refl|]. split; [left; reflexivity|]. intros p k [].
  - destruct (F p (or_introl eq_refl)) as (P & R & x & r & E & T). cbn [patterns]. rewrite P. destruct (p_results p) as [|l ls]; [elim R; reflexivity|]. rewrite E in *. rewrite T.
    destruct (temps_spec (occ (x :: r)) (num_temps mx) 1 ct G) as (C1 & C2 & C3). fold (determine boltz conf mx (x :: r) ct) in C1, C2, C3. set (c := determine boltz conf mx (x :: r) ct) in *.
    assert (G' : grid c). { split; [eapply Qcle_trans; [exact C1|apply (proj1 G)]|]. destruct C2 as [->|(k & _ & -> & _)]; [apply (proj2 G)|right; exists k; reflexivity]. }
    destruct (IH (fun q Hq => F q (or_intror Hq)) c G') as (r' & E' & D1 & D2 & D3). exists r'. split; [exact E'|]. split; [eapply Qcle_trans; [exact D1|exact C1]|]. split.
    + destruct D2 as [->|(q & k & Hq & D2)]; [|right; exists q, k; split; [right; exact Hq|exact D2]]. destruct C2 as [C2|(k & Hk & C2 & O)]; [left; exact C2|]. right. exists p, k. split; [left; reflexivity|]. split; [lia|]. split; [exact C2|]. rewrite E. exact O.
    + intros q k [<-|Hq] Hk Hm O; [|eapply D3; eassumption]. rewrite E in O. eapply Qcle_trans; [exact D1|]. apply C3; [|exact O]. split; [exact Hk|]. apply num_temps_spec; assumption.
Qed.
End Loop.

(** ** Energies and state types *)

Lemma flat_map_app_perm {A B} (f g : A -> list B) D : Permutation (flat_map (fun e => f e ++ g e) D) (flat_map f D ++ flat_map g D).
Proof.
  induction D as [|e D IH]; [constructor|]. cbn. rewrite IH, <- !app_assoc. apply Permutation_app_head. rewrite !app_assoc. apply Permutation_app_tail, Permutation_app_comm.
Qed.
Lemma flat_map_one {A B} (F : A -> bool) (h : A -> B) e0 D : NoDup D -> In e0 D -> (forall e, In e D -> (F e = true <-> e = e0)) -> flat_map (fun e => if F e then [h e] else []) D = [h e0].
Proof.
  induction D as [|e D IH]; intros N H HF; [destruct H|]. apply NoDup_cons_iff in N as [N1 N2]. cbn. destruct (F e) eqn:E.
  - apply HF in E; [|left; reflexivity]. subst e0. cbn. f_equal. assert (Z : forall D', (forall x, In x D' -> F x = false) -> flat_map (fun e => if F e then [h e] else []) D' = []). { induction D' as [|x D' IH']; intros H'; [reflexivity|]. cbn. rewrite (H' x (or_introl eq_refl)). apply IH'. intros y Hy. apply H'. right. exact Hy. }
    apply Z. intros x Hx. destruct (F x) eqn:X; [|reflexivity]. apply HF in X; [|right; exact Hx]. subst x. contradiction.
  - destruct H as [->|H]; [exfalso; assert (X : F e0 = true) by (apply HF; [left|]; reflexivity); congruence|]. cbn. apply IH; [exact N2|exact H|]. intros x Hx. apply HF. right. exact Hx.
Qed.
Section Est.
Variable L : Type.
Variable energy : L -> Qc.
Lemma listing (lab : L -> bool) D lays : NoDup D -> (forall l, In l lays -> In (energy l) D) -> (forall l e, In l lays -> In e D -> (close (energy l) e = true <-> e = energy l)) ->
  Permutation (flat_map (fun e => flat_map (fun l => if close (energy l) e then [(e, lab l)] else []) lays) D) (map (fun l => (energy l, lab l)) lays).
Proof.
  intros N. induction lays as [|l lays IH]; intros H C.
  - cbn. clear. induction D as [|e D IH]; [constructor|exact IH].
  - cbn [flat_map map]. rewrite (flat_map_app_perm (fun e => if close (energy l) e then [(e, lab l)] else [])). rewrite (flat_map_one (fun e => close (energy l) e) (fun e => (e, lab l)) (energy l)).
    + cbn. constructor. apply IH; [intros x Hx; apply H; right; exact Hx|intros x e Hx He; apply C; [right; exact Hx|exact He]].
    + exact N.
    + apply H. left. reflexivity.
    + intros e He. apply C; [left; reflexivity|exact He].
Qed.
Lemma est_min_spec : forall (l : energies) b, let m := est_min b l in (m <= b)%Qc /\ (forall x, In x l -> (m <= fst x)%Qc) /\ (m = b \/ exists x, In x l /\ m = fst x).
Proof.
  induction l as [|x l IH]; intros b; cbn [est_min]; cbv zeta.
  - split; [apply Qcle_refl|]. split; [intros x []|left; reflexivity].
  - destruct (IH (if qltb (fst x) b then fst x else b)) as (A & B & C). destruct (qltb (fst x) b) eqn:E.
    + apply qltb_spec in E. split; [eapply Qcle_trans; [exact A|apply Qclt_le_weak, E]|]. split; [intros y [<-|Hy]; [exact A|apply B, Hy]|]. right. destruct C as [C|(y & Hy & C)]; [exists x; split; [left; reflexivity|exact C]|exists y; split; [right; exact Hy|exact C]].
    + apply qltb_false in E. split; [exact A|]. split; [intros y [<-|Hy]; [eapply Qcle_trans; [exact A|exact E]|apply B, Hy]|]. destruct C as [C|(y & Hy & C)]; [left; exact C|right; exists y; split; [right; exact Hy|exact C]].
Qed.
Lemma lowest_unique lays e e' : lowest L energy lays e -> lowest L energy lays e' -> e = e'.
Proof. intros [(l & Hl & <-) A] [(m & Hm & <-) B]. apply Qcle_antisym; [apply A, Hm|apply B, Hl]. Qed.
Lemma fold_total {A} (f : A -> Qc) l : forall a, fold_left (fun s x => (s + f x)%Qc) l a = (a + total (map f l))%Qc.
Proof. induction l as [|x l IH]; intros a; unfold total in *; cbn [fold_left map fold_right]; [rewrite Qcplus_0_r; reflexivity|]. rewrite IH. apply eq_sym, Qcplus_assoc. Qed.
Lemma fold_total_if {A} (f : A -> Qc) (c : A -> bool) l : forall a, fold_left (fun s x => if c x then (s + f x)%Qc else s) l a = (a + total (map f (filter c l)))%Qc.
Proof. induction l as [|x l IH]; intros a; unfold total in *; cbn [fold_left map fold_right filter]; [rewrite Qcplus_0_r; reflexivity|]. rewrite IH. destruct (c x); cbn [map fold_right]; [apply eq_sym, Qcplus_assoc|reflexivity]. Qed.
Lemma total_perm l m : Permutation l m -> total l = total m.
Proof. intros P. unfold total. induction P; cbn [fold_right]; [reflexivity|rewrite IHP; reflexivity|rewrite !Qcplus_assoc; f_equal; apply Qcplus_comm|congruence]. Qed.
Lemma filter_perm {A} (c : A -> bool) l m : Permutation l m -> Permutation (filter c l) (filter c m).
Proof. intros P. induction P; cbn; [constructor|destruct (c x); [constructor|]; assumption|destruct (c x), (c y); try apply Permutation_refl; apply perm_swap|eapply perm_trans; eassumption]. Qed.

Variable boltz : Qc -> nat -> Qc.
(** Any list of the states with their types gives the probability and finds right ground states. *)
Lemma occupation_ok (est : energies) (lab : L -> bool) lays t e : Permutation est (map (fun l => (energy l, lab l)) lays) -> lowest L energy lays e ->
  occupation boltz est t = (total (map (fun l => boltz (energy l - e) t) (filter (fun l => negb (lab l)) lays)) / total (map (fun l => boltz (energy l - e) t) lays))%Qc.
Proof.
  intros P Lo. destruct est as [|x r] eqn:E.
  - apply Permutation_nil in P. destruct lays; [|discriminate P]. destruct Lo as [(l & [] & _) _].
  - unfold occupation. assert (M : est_min (fst x) r = e).
    { destruct (est_min_spec r (fst x)) as (A & B & C). set (m := est_min (fst x) r) in *. apply (lowest_unique lays); [|exact Lo].
      assert (B' : forall y, In y (x :: r) -> (m <= fst y)%Qc) by (intros y [<-|Hy]; [exact A|apply B, Hy]).
      assert (C' : exists y, In y (x :: r) /\ m = fst y) by (destruct C as [C|(y & Hy & C)]; [exists x; split; [left; reflexivity|exact C]|exists y; split; [right; exact Hy|exact C]]). split.
      - destruct C' as (y & Hy & ->). eapply Permutation_in in Hy; [|exact P]. apply in_map_iff in Hy as (l & <- & Hl). exists l. auto.
      - intros l Hl. apply (B' (energy l, lab l)). eapply Permutation_in; [apply Permutation_sym, P|]. apply in_map_iff. exists l. auto. }
    cbv zeta. rewrite M. rewrite fold_total, fold_total_if. rewrite !Qcplus_0_l. apply f_equal2.
    + rewrite (total_perm _ _ (Permutation_map _ (filter_perm (fun x => negb (snd x)) _ _ P))). f_equal. clear. induction lays as [|l lays IH]; [reflexivity|]. cbn. destruct (lab l); cbn; [exact IH|rewrite IH; reflexivity].
    + rewrite (total_perm _ _ (Permutation_map _ P)). rewrite map_map. reflexivity.
Qed.
Lemma transparent_ok (est : energies) (lab : L -> bool) lays e : Permutation est (map (fun l => (energy l, lab l)) lays) -> transparent est e = true <-> exists l, In l lays /\ micro (energy l) = micro e /\ lab l = true.
Proof.
  intros P. unfold transparent. rewrite existsb_exists. split.
  - intros (x & Hx & H). apply andb_prop in H as [A B]. apply close_round in A. eapply Permutation_in in Hx; [|exact P]. apply in_map_iff in Hx as (l & <- & Hl). exists l. auto.
  - intros (l & Hl & A & B). exists (energy l, lab l). split; [eapply Permutation_in; [apply Permutation_sym, P|]; apply in_map_iff; exists l; auto|]. apply andb_true_intro. split; [apply close_round, A|exact B].
Qed.
End Est.

(** ** Layouts without inputs and outputs *)

Lemma num_iterations_ge mx i : (1 <= i)%nat -> (temp i <= mx)%Qc -> (i < 1 + num_iterations mx)%nat.
Proof.
  intros Hi H. pose proof (proj2 (num_temps_spec mx i Hi) H) as A. unfold num_temps in A. unfold num_iterations. enough (Qfloor (this (mx * qz 100)%Qc) <= qround (mx * qz 100)) by lia.
  unfold qround. assert (P : qltb (mx * qz 100) (Q2Qc 0) = false).
  { apply qltb_false. pose proof (temp_pos i Hi) as T. unfold Qcle, Qclt in *. rewrite this_mul, this_qz, this_Q2Qc in *. change (inject_Z 100) with 100%Q. lra. }
  rewrite P. apply Qfloor_resp_le. lra.
Qed.
Lemma far_round a b : (b <= a)%Qc -> qltb margin (qabs (round6 a - round6 b)) = (micro b + 1 <? micro a).
Proof.
  intros Hab. assert (M : micro b <= micro a).
  { unfold micro. destruct (qltb a (Q2Qc 0)) eqn:A, (qltb b (Q2Qc 0)) eqn:B.
    - apply -> Z.opp_le_mono. apply Qfloor_resp_le. unfold Qcle in Hab. lra.
    - apply qltb_spec in A. apply qltb_false in B. elim (Qclt_not_le _ _ A). eapply Qcle_trans; [exact B|exact Hab].
    - apply qltb_spec in B. apply qltb_false in A. unfold Qclt, Qcle in *. rewrite this_Q2Qc in *. assert (X : (0 <= Qfloor (- this b * 1000000 + (1 # 2)))%Z) by (change 0 with (Qfloor 0); apply Qfloor_resp_le; lra). assert (Y : (0 <= Qfloor (this a * 1000000 + (1 # 2)))%Z) by (change 0 with (Qfloor 0); apply Qfloor_resp_le; lra). lia.
    - apply Qfloor_resp_le. unfold Qcle in Hab. lra. }
  destruct (Z.ltb_spec (micro b + 1) (micro a)) as [H|H].
  - apply qltb_spec. apply Qcnot_le_lt. intros C. assert (D : (qabs (round6 a - round6 b) < Q2Qc (2 # 1000000))%Qc) by (eapply Qcle_lt_trans; [exact C|reflexivity]). apply qabs_lt in D as [D _].
    revert D. unfold round6. rewrite !qround_micro. set (x := micro a) in *. set (y := micro b) in *. clearbody x y. unfold Qclt. rewrite this_sub, !this_div, !this_qz, this_Q2Qc by lia. unfold Qdiv, Qminus, Qlt, Qplus, Qmult, Qopp, Qinv, inject_Z. cbn. lia.
  - apply qltb_false. apply Qcnot_lt_le. intros C. unfold qabs in C. revert C. unfold round6. rewrite !qround_micro. set (x := micro a) in *. set (y := micro b) in *. clearbody x y.
    destruct (qltb _ _); unfold Qclt; rewrite ?this_opp, this_sub, !this_div, !this_qz, this_margin by lia; unfold Qdiv, Qminus, Qlt, Qplus, Qmult, Qopp, Qinv, inject_Z; cbn; lia.
Qed.
Section All.
Variable L : Type.
Variable energy : L -> Qc.
Definition count (lays : list L) (e : Qc) : Z := Z.of_nat (length (filter (fun l => if Qc_eq_dec (energy l) e then true else false) lays)).
Lemma total_add {A} (f g : A -> Qc) D : total (map (fun e => (f e + g e)%Qc) D) = (total (map f D) + total (map g D))%Qc.
Proof using. unfold total. induction D as [|e D IH]; cbn [map fold_right]; [rewrite Qcplus_0_l; reflexivity|]. rewrite IH. rewrite <- !Qcplus_assoc. f_equal. rewrite !Qcplus_assoc. f_equal. apply Qcplus_comm. Qed.
Lemma total_zero {A} (f : A -> Qc) D : (forall e, In e D -> f e = Q2Qc 0) -> total (map f D) = Q2Qc 0.
Proof using. unfold total. induction D as [|e D IH]; intros H; cbn [map fold_right]; [reflexivity|]. rewrite (H e (or_introl eq_refl)), IH; [apply Qcplus_0_l|]. intros x Hx. apply H. right. exact Hx. Qed.
Lemma total_one (g : Qc -> Qc) e0 D : NoDup D -> In e0 D -> total (map (fun e => if Qc_eq_dec e0 e then g e else Q2Qc 0) D) = g e0.
Proof using.
  intros N H. induction D as [|e D IH]; [destruct H|]. apply NoDup_cons_iff in N as [N1 N2]. change (total (map ?f (e :: D))) with (f e + total (map f D))%Qc. cbv beta. destruct (Qc_eq_dec e0 e) as [->|Ne].
  - rewrite total_zero; [apply Qcplus_0_r|]. intros x Hx. destruct (Qc_eq_dec e x) as [->|_]; [contradiction|reflexivity].
  - destruct H as [->|H]; [elim Ne; reflexivity|]. rewrite IH by assumption. apply Qcplus_0_l.
Qed.
Lemma total_count (g : Qc -> Qc) D lays : NoDup D -> (forall l, In l lays -> In (energy l) D) -> total (map (fun e => (qz (count lays e) * g e)%Qc) D) = total (map (fun l => g (energy l)) lays).
Proof using.
  intros N. induction lays as [|l lays IH]; intros H.
  - apply total_zero. intros e _. change (qz (count [] e)) with (Q2Qc 0). apply Qcmult_0_l.
  - change (total (map (fun l => g (energy l)) (l :: lays))) with (g (energy l) + total (map (fun l => g (energy l)) lays))%Qc.
    rewrite <- IH by (intros x Hx; apply H; right; exact Hx). rewrite <- (total_one g (energy l) D N) by (apply H; left; reflexivity). rewrite <- total_add. f_equal. apply map_ext. intros e.
    unfold count. cbn [filter]. destruct (Qc_eq_dec (energy l) e) as [E|E]; [|rewrite Qcplus_0_l; reflexivity]. cbn [length]. rewrite Nat2Z.inj_succ, <- Z.add_1_l, qz_add. change (qz 1) with (Q2Qc 1). rewrite Qcmult_plus_distr_l, Qcmult_1_l. reflexivity.
Qed.
Lemma total_filter {A} (f : A -> Qc) (c : A -> bool) l : total (map f (filter c l)) = total (map (fun x => if c x then f x else Q2Qc 0) l).
Proof using. unfold total. induction l as [|x l IH]; [reflexivity|]. cbn [filter map fold_right]. destruct (c x); cbn [map fold_right]; rewrite IH; [reflexivity|symmetry; apply Qcplus_0_l]. Qed.
Variable boltz : Qc -> nat -> Qc.
Lemma occupation_all_ok lays dist t e : counted L energy lays dist -> lowest L energy lays e ->
  occupation_all boltz dist t = (total (map (fun l => boltz (energy l - e) t) (filter (fun l => micro e + 1 <? micro (energy l)) lays)) / total (map (fun l => boltz (energy l - e) t) lays))%Qc.
Proof using.
  intros (S & C & N) Lo.
  assert (ND : NoDup (map fst dist)). { clear - S. induction S as [|x d S IH F]; [constructor|]. cbn. constructor; [|exact IH]. intros X. apply in_map_iff in X as (y & E & Hy). rewrite Forall_forall in F. specialize (F y Hy). rewrite E in F. elim (Qclt_not_le _ _ F). apply Qcle_refl. }
  assert (Cov : forall l, In l lays -> In (energy l) (map fst dist)). { intros l Hl. destruct (proj2 (C (energy l))) as (n & Hn); [exists l; auto|]. apply in_map_iff. exists (energy l, n). auto. }
  assert (Su : forall g, total (map (fun x => (qz (snd x) * g (fst x))%Qc) dist) = total (map (fun l => g (energy l)) lays)).
  { intros g. rewrite <- (total_count g (map fst dist) lays ND Cov), map_map. f_equal. apply map_ext_in. intros [e' n] Hx. cbn [fst snd]. rewrite (N e' n Hx). reflexivity. }
  destruct dist as [|x r] eqn:E; [destruct Lo as [(l & Hl & _) _]; destruct (Cov l Hl)|].
  assert (M : fst x = e). { apply (lowest_unique L energy lays); [|exact Lo]. split; [apply C; exists (snd x); left; destruct x; reflexivity|]. intros l Hl. specialize (Cov l Hl). cbn in Cov. destruct Cov as [<-|Cov]; [apply Qcle_refl|]. apply in_map_iff in Cov as (y & <- & Hy). apply StronglySorted_inv in S as [_ S]. rewrite Forall_forall in S. apply Qclt_le_weak, S, Hy. }
  unfold occupation_all. cbv zeta. rewrite M. rewrite fold_total, (fold_total_if (fun x0 => (qz (snd x0) * boltz (fst x0 - e) t)%Qc)). rewrite !Qcplus_0_l. apply f_equal2.
  - rewrite !total_filter. rewrite <- (Su (fun e' => if micro e + 1 <? micro e' then boltz (e' - e) t else Q2Qc 0)). f_equal. apply map_ext_in. intros y Hy. rewrite far_round.
    + destruct (micro e + 1 <? micro (fst y)); [reflexivity|]. symmetry. apply Qcmult_0_r.
    + destruct (proj1 (C (fst y))) as (l & Hl & <-); [exists (snd y); destruct y; exact Hy|]. apply (proj2 Lo), Hl.
  - apply (Su (fun e' => boltz (e' - e) t)).
Qed.
Lemma non_gate_ok conf mx lays dist : counted L energy lays dist -> lays <> [] -> critical_all boltz L energy conf mx lays (non_gate_based boltz conf mx (Some dist)).
Proof using.
  intros Co Ne. assert (Lo : exists e, lowest L energy lays e).
  { clear - Ne. induction lays as [|l r IH]; [elim Ne; reflexivity|]. destruct r as [|m r]; [exists (energy l); split; [exists l; split; [left|]; reflexivity|intros x [<-|[]]; apply Qcle_refl]|]. destruct IH as (e & (x & Hx & <-) & A); [discriminate|]. destruct (qltb (energy l) (energy x)) eqn:E.
    - apply qltb_spec in E. exists (energy l). split; [exists l; split; [left|]; reflexivity|]. intros y [<-|Hy]; [apply Qcle_refl|]. eapply Qcle_trans; [apply Qclt_le_weak, E|apply A, Hy].
    - apply qltb_false in E. exists (energy x). split; [exists x; split; [right; exact Hx|reflexivity]|]. intros y [<-|Hy]; [exact E|apply A, Hy]. }
  unfold non_gate_based. destruct (temps_spec boltz conf mx (occupation_all boltz dist) (num_iterations mx) 1 mx) as (A & B & C); [split; [apply Qcle_refl|left; reflexivity]|]. cbv zeta in A, B, C. set (r := temperatures conf mx (occupation_all boltz dist) (num_iterations mx) 1 mx) in *. split; [exact A|]. split.
  - destruct B as [B|(k & Hk & B & O)]; [left; exact B|]. right. exists k, (occupation_all boltz dist k). split; [lia|]. split; [rewrite <- temp_grid; exact B|]. split; [|exact O]. destruct Lo as (e & Lo). exists e. split; [exact Lo|]. apply occupation_all_ok; assumption.
  - intros i q Hi Hm (e & Le & ->) O. rewrite <- temp_grid in *. apply C; [split; [exact Hi|apply num_iterations_ge; assumption]|]. rewrite (occupation_all_ok lays dist i e Co Le). exact O.
Qed.
End All.
