(** Proofs about BDL pairs. *)
From Coq Require Import ZArith QArith Bool List Sorted Permutation Lia Lqa.
From stdpp Require Import gmap list.
From Verif Require Import CoordModel CoordProofs CellModel CellSpec CellProofs BdlModel BdlSpec.
From Coq Require Import List.
Import ListNotations.

Lemma q_ltb_true a b : q_ltb a b = true <-> (a < b)%Q.
Proof. unfold q_ltb. rewrite negb_true_iff. split; intros H; [apply Qnot_le_lt; intros X; apply Qle_bool_iff in X; congruence|destruct (Qle_bool b a) eqn:E; [|reflexivity]; apply Qle_bool_iff in E; lra]. Qed.
Lemma q_ltb_false a b : q_ltb a b = false <-> (b <= a)%Q.
Proof. unfold q_ltb. rewrite negb_false_iff. apply Qle_bool_iff. Qed.
Lemma by_distance_weak P : strict_weak P by_distance.
Proof.
  unfold by_distance. split; [intros a _; apply q_ltb_false; lra|]. split; intros a b c _ _ _; [rewrite !q_ltb_true; lra|rewrite !q_ltb_false; lra].
Qed.

Lemma coord_eq_iff a b : coord_eqb a b = true <-> a = b.
Proof.
  unfold coord_eqb. rewrite !andb_true_iff, eqb_true_iff, !Z.eqb_eq. destruct a, b; cbn. split; [intros (((? & ?) & ?) & ?); congruence|intros E; injection E as -> -> -> ->; tauto].
Qed.
Lemma bdl_ltb_iff k p q : bdl_ltb k p q = true <-> pair_before k p q.
Proof.
  unfold bdl_ltb, pair_before. destruct (coord_eqb (p_upper p) (p_upper q)) eqn:E; cbn [negb].
  - apply coord_eq_iff in E. split; [intros H; right; split; assumption|intros [H|[_ H]]; [|exact H]]. rewrite E, k_ltb_irrefl in H. discriminate H.
  - split; [intros H; left; exact H|intros [H|[H _]]; [exact H|]]. apply coord_eq_iff in H. congruence.
Qed.
Lemma before_irrefl k p : ~ pair_before k p p.
Proof. intros [H|[_ H]]; rewrite k_ltb_irrefl in H; discriminate H. Qed.
Lemma before_trans k p q r : pair_before k p q -> pair_before k q r -> pair_before k p r.
Proof.
  unfold pair_before. intros [A|[A A']] [B|[B B']].
  - left. eapply k_ltb_trans; eassumption.
  - left. rewrite <- B. exact A.
  - left. rewrite A. exact B.
  - right. split; [congruence|eapply k_ltb_trans; eassumption].
Qed.
Definition plive (p : bdl_pair) : Prop := cd (p_upper p) = false /\ cd (p_lower p) = false.
Lemma before_total k p q : plive p -> plive q -> pair_before k p q \/ (p_upper p = p_upper q /\ p_lower p = p_lower q) \/ pair_before k q p.
Proof.
  intros [A B] [C D]. unfold pair_before. destruct (k_ltb_total k (p_upper p) (p_upper q)) as [H|[H|H]]; [congruence| | |]; [tauto| |tauto].
  destruct (k_ltb_total k (p_lower p) (p_lower q)) as [X|[X|X]]; [congruence| | |]; [tauto|tauto|]. right. right. right. split; [congruence|exact X].
Qed.
Lemma bdl_weak k (P : bdl_pair -> Prop) : (forall p, P p -> plive p) -> strict_weak P (bdl_ltb k).
Proof.
  intros L. split; [intros a _; destruct (bdl_ltb k a a) eqn:E; [|reflexivity]; apply bdl_ltb_iff, before_irrefl in E; destruct E|]. split.
  - intros a b c _ _ _. rewrite !bdl_ltb_iff. apply before_trans.
  - intros a b c Pa Pb Pc A B. destruct (bdl_ltb k a c) eqn:E; [|reflexivity]. exfalso. apply bdl_ltb_iff in E.
    destruct (before_total k a b (L a Pa) (L b Pb)) as [X|[[X Y]|X]]; [apply bdl_ltb_iff in X; congruence| |].
    + assert (Z : pair_before k b c) by (unfold pair_before in *; rewrite <- X, <- Y; exact E). apply bdl_ltb_iff in Z. congruence.
    + pose proof (before_trans k b a c X E) as Z. apply bdl_ltb_iff in Z. congruence.
Qed.

(** ** Pairwise distances *)

Section Pw.
Variable dist : coord -> coord -> Q.

Lemma pairwise_in dots : List.NoDup dots -> forall d, In d (pairwise dist dots) -> In (sidb1 d) dots /\ In (sidb2 d) dots /\ sidb1 d <> sidb2 d /\ distance d = dist (sidb1 d) (sidb2 d).
Proof using.
  induction 1 as [|a r Hn N IH]; intros d H; [destruct H|]. cbn [pairwise] in H. apply in_app_iff in H as [H|H].
  - apply in_map_iff in H as (b & <- & Hb). cbn. split; [left; reflexivity|]. split; [right; exact Hb|]. split; [intros ->; contradiction|reflexivity].
  - destruct (IH d H) as (A & B & C & D). split; [right; exact A|]. split; [right; exact B|]. split; [exact C|exact D].
Qed.
Lemma pairwise_all dots a b : In a dots -> In b dots -> a <> b -> In (mkPDD a b (dist a b)) (pairwise dist dots) \/ In (mkPDD b a (dist b a)) (pairwise dist dots).
Proof using.
  induction dots as [|x r IH]; intros A B N; [destruct A|]. cbn [pairwise]. rewrite !in_app_iff. destruct A as [->|A], B as [->|B].
  - contradiction.
  - left. left. apply in_map_iff. exists b. split; [reflexivity|exact B].
  - right. left. apply in_map_iff. exists a. split; [reflexivity|exact A].
  - destruct (IH A B N); tauto.
Qed.
End Pw.

Section Loop.
Variable k : kind.
Variable l : clayout.
Variable ps : bparams.
Notation loop := (pair_loop k l ps).
Lemma on_new c d : on c (new_pair k l d) <-> c = sidb1 d \/ c = sidb2 d.
Proof using. unfold on, new_pair. destruct (gtb_of _ _ _); cbn; tauto. Qed.
Lemma loop_in pw : forall paired p, In p (loop pw paired) -> exists d, In d pw /\ p = new_pair k l d /\ (minimum_distance ps <= distance d /\ distance d <= maximum_distance ps)%Q /\ sidb1 d ∉ paired /\ sidb2 d ∉ paired.
Proof using.
  induction pw as [|d r IH]; intros paired p H; [destruct H|]. cbn [pair_loop] in H.
  assert (Tl : forall q, In p (loop r q) -> paired ⊆ q -> exists d0, In d0 (d :: r) /\ p = new_pair k l d0 /\ (minimum_distance ps <= distance d0 /\ distance d0 <= maximum_distance ps)%Q /\ sidb1 d0 ∉ paired /\ sidb2 d0 ∉ paired).
  { intros q X Sub. destruct (IH q p X) as (d0 & A & B & C & D & E). exists d0. split; [right; exact A|]. split; [exact B|]. split; [exact C|]. set_solver. }
  destruct (q_ltb (distance d) _) eqn:E1; [exact (Tl paired H ltac:(set_solver))|]. destruct (q_ltb _ (distance d)) eqn:E2; [destruct H|].
  case_bool_decide as P1; [exact (Tl paired H ltac:(set_solver))|]. case_bool_decide as P2; [exact (Tl paired H ltac:(set_solver))|]. cbn [orb] in H.
  destruct H as [<-|H]; [|exact (Tl _ H ltac:(set_solver))]. exists d. split; [left; reflexivity|]. split; [reflexivity|]. apply q_ltb_false in E1, E2. split; [split; assumption|]. split; assumption.
Qed.
Lemma loop_disjoint pw : forall paired, List.NoDup (loop pw paired) /\ forall p q c, In p (loop pw paired) -> In q (loop pw paired) -> on c p -> on c q -> p = q.
Proof using.
  induction pw as [|d r IH]; intros paired; [split; [constructor|intros p q c []]|]. cbn [pair_loop].
  destruct (q_ltb (distance d) _) eqn:E1; [apply IH|]. destruct (q_ltb _ (distance d)) eqn:E2; [split; [constructor|intros p q c []]|].
  case_bool_decide as P1; [apply IH|]. case_bool_decide as P2; [apply IH|]. cbn [orb]. set (q0 := _ ∪ _) in *. destruct (IH q0) as [N D].
  assert (X : forall p c, In p (loop r q0) -> on c p -> on c (new_pair k l d) -> False).
  { intros p c Hp Hc Hd. destruct (loop_in r q0 p Hp) as (d0 & _ & -> & _ & A & B). rewrite on_new in Hc, Hd. unfold q0 in *. destruct Hc as [Hc|Hc], Hd as [Hd|Hd]; subst c; [rewrite Hd in A|rewrite Hd in A|rewrite Hd in B|rewrite Hd in B]; set_solver. }
  split.
  - constructor; [|exact N]. intros Hin. apply (X _ (sidb1 d) Hin); rewrite on_new; left; reflexivity.
  - intros p q c [<-|Hp] [<-|Hq] Cp Cq; [reflexivity| | |exact (D p q c Hp Hq Cp Cq)]; exfalso; [exact (X q c Hq Cq Cp)|exact (X p c Hp Cp Cq)].
Qed.
Lemma loop_stable pw : StronglySorted (fun a b => by_distance b a = false) pw -> forall paired d, In d pw -> (minimum_distance ps <= distance d /\ distance d <= maximum_distance ps)%Q ->
  sidb1 d ∈ paired \/ sidb2 d ∈ paired \/ exists d0, In d0 pw /\ In (new_pair k l d0) (loop pw paired) /\ (sidb1 d = sidb1 d0 \/ sidb1 d = sidb2 d0 \/ sidb2 d = sidb1 d0 \/ sidb2 d = sidb2 d0) /\ (distance d0 <= distance d)%Q.
Proof using.
  induction 1 as [|h r Sr IH Fa]; intros paired d Hd R; [destruct Hd|]. rewrite Forall_forall in Fa. cbn [pair_loop].
  assert (Le : (distance h <= distance d)%Q). { destruct Hd as [->|Hd]; [lra|]. apply Fa in Hd. unfold by_distance in Hd. apply q_ltb_false in Hd. exact Hd. }
  assert (Tl : In d r -> forall q, sidb1 d ∈ q \/ sidb2 d ∈ q \/ exists d0, In d0 (h :: r) /\ In (new_pair k l d0) (loop r q) /\ (sidb1 d = sidb1 d0 \/ sidb1 d = sidb2 d0 \/ sidb2 d = sidb1 d0 \/ sidb2 d = sidb2 d0) /\ (distance d0 <= distance d)%Q).
  { intros X q. destruct (IH q d X R) as [A|[A|(d0 & A & B)]]; [tauto|tauto|]. right. right. exists d0. split; [right; exact A|exact B]. }
  destruct (q_ltb (distance h) _) eqn:E1. { apply q_ltb_true in E1. destruct Hd as [->|Hd]; [lra|exact (Tl Hd paired)]. }
  destruct (q_ltb _ (distance h)) eqn:E2. { apply q_ltb_true in E2. lra. }
  case_bool_decide as P1. { cbn [orb]. destruct Hd as [->|Hd]; [tauto|exact (Tl Hd paired)]. }
  case_bool_decide as P2. { cbn [orb]. destruct Hd as [->|Hd]; [tauto|exact (Tl Hd paired)]. }
  cbn [orb]. set (q0 := {[sidb2 h]} ∪ ({[sidb1 h]} ∪ paired)).
  assert (Hh : forall x, x ∈ q0 -> x ∈ paired \/ x = sidb1 h \/ x = sidb2 h) by (intros x Hx; unfold q0 in Hx; set_solver).
  assert (Me : (sidb1 d = sidb1 h \/ sidb1 d = sidb2 h \/ sidb2 d = sidb1 h \/ sidb2 d = sidb2 h) -> exists d0, In d0 (h :: r) /\ In (new_pair k l d0) (new_pair k l h :: loop r q0) /\ (sidb1 d = sidb1 d0 \/ sidb1 d = sidb2 d0 \/ sidb2 d = sidb1 d0 \/ sidb2 d = sidb2 d0) /\ (distance d0 <= distance d)%Q).
  { intros X. exists h. split; [left; reflexivity|]. split; [left; reflexivity|]. split; [exact X|exact Le]. }
  destruct Hd as [->|Hd]; [right; right; apply Me; tauto|]. destruct (Tl Hd q0) as [A|[A|(d0 & A & B & C)]].
  - apply Hh in A as [A|A]; [left; exact A|right; right; apply Me; tauto].
  - apply Hh in A as [A|A]; [right; left; exact A|right; right; apply Me; tauto].
  - right. right. exists d0. split; [exact A|]. split; [right; exact B|exact C].
Qed.
End Loop.

(** ** Sorting *)

Lemma sorted_strict k L : (forall p, In p L -> plive p) -> List.NoDup L -> (forall p q, In p L -> In q L -> p_upper p = p_upper q -> p = q) ->
  StronglySorted (fun a b => bdl_ltb k b a = false) L -> StronglySorted (pair_before k) L.
Proof.
  intros Li N U Hs. induction Hs as [|a r Sr IH Fa]; [constructor|]. inversion N; subst. constructor.
  - apply IH; [intros p Hp; apply Li; right; exact Hp|assumption|intros p q Hp Hq; apply U; right; assumption].
  - rewrite Forall_forall in *. intros b Hb. pose proof Hb as Hb'. specialize (Fa b Hb). destruct (before_total k a b) as [X|[[X _]|X]]; [apply Li; left; reflexivity|apply Li; right; exact Hb'|exact X| |].
    + exfalso. apply H1. rewrite (U a b (or_introl eq_refl) (or_intror Hb') X). exact Hb'.
    + apply bdl_ltb_iff in X. congruence.
Qed.
Lemma sorted_unique k L1 : forall L2, StronglySorted (pair_before k) L1 -> StronglySorted (pair_before k) L2 -> (forall p, In p L1 <-> In p L2) -> L1 = L2.
Proof.
  induction L1 as [|a r IH]; intros [|b s] S1 S2 E.
  - reflexivity.
  - exfalso. apply (E b). left. reflexivity.
  - exfalso. apply (E a). left. reflexivity.
  - inversion S1 as [|? ? S1' F1]; inversion S2 as [|? ? S2' F2]; subst. rewrite Forall_forall in F1, F2.
    assert (F1' : forall x, In x r -> pair_before k a x) by (intros x Hx; apply F1, Hx). assert (F2' : forall x, In x s -> pair_before k b x) by (intros x Hx; apply F2, Hx).
    assert (Eq : a = b). { destruct (proj1 (E a) (or_introl eq_refl)) as [X|X]; [congruence|]. destruct (proj2 (E b) (or_introl eq_refl)) as [Y|Y]; [congruence|]. exfalso. exact (before_irrefl k a (before_trans k a b a (F1' b Y) (F2' a X))). }
    subst b. f_equal. apply IH; [exact S1'|exact S2'|]. intros p. split; intros Hp.
    + destruct (proj1 (E p) (or_intror Hp)) as [<-|X]; [|exact X]. exfalso. exact (before_irrefl k a (F1' a Hp)).
    + destruct (proj2 (E p) (or_intror Hp)) as [<-|X]; [|exact X]. exfalso. exact (before_irrefl k a (F2' a Hp)).
Qed.

(** ** The pairs *)

Section Main.
Variable k : kind.
Variable dist : coord -> coord -> Q.
Variable sort : forall A : Type, (A -> A -> bool) -> list A -> list A.
Variable l : clayout.
Variable ps : bparams.
Hypothesis Hsort : sorting sort.
Hypothesis Hsym : symmetric dist.
Variable dots : list coord.
Variable t : Z.
Hypothesis Nd : List.NoDup dots.
Hypothesis Lv : forall c, In c dots -> cd c = false.
Hypothesis Ty : forall c, In c dots -> get_cell_type sidb l c = t.

Lemma new_facts d : In (sidb1 d) dots -> In (sidb2 d) dots -> sidb1 d <> sidb2 d ->
  p_type (new_pair k l d) = t /\ In (p_upper (new_pair k l d)) dots /\ In (p_lower (new_pair k l d)) dots /\ k_ltb k (p_upper (new_pair k l d)) (p_lower (new_pair k l d)) = true /\
  (dist (p_upper (new_pair k l d)) (p_lower (new_pair k l d)) == dist (sidb1 d) (sidb2 d))%Q.
Proof using Hsym Lv Ty.
  intros A B N. unfold new_pair, gtb_of. destruct (k_ltb k (sidb2 d) (sidb1 d)) eqn:E; cbn.
  - split; [apply Ty, A|]. split; [exact B|]. split; [exact A|]. split; [exact E|apply Hsym].
  - split; [apply Ty, A|]. split; [exact A|]. split; [exact B|]. split; [|reflexivity].
    destruct (k_ltb_total k (sidb1 d) (sidb2 d)) as [X|[X|X]]; [rewrite (Lv _ A), (Lv _ B); reflexivity|exact X|contradiction|congruence].
Qed.
Lemma pair_up_ok : pairing k dist (minimum_distance ps) (maximum_distance ps) (fun c => In c dots) t (pair_up_dots k dist sort l ps dots).
Proof using All.
  unfold pair_up_dots. destruct (Hsort _ by_distance (pairwise dist dots) (by_distance_weak _)) as [Pm So]. set (pw := sort pdd _ _) in *.
  assert (Pw : forall d, In d pw -> In (sidb1 d) dots /\ In (sidb2 d) dots /\ sidb1 d <> sidb2 d /\ distance d = dist (sidb1 d) (sidb2 d)) by (intros d Hd; apply (pairwise_in dist dots Nd), (Permutation_in _ Pm), Hd).
  destruct (loop_disjoint k l ps pw ∅) as [Nl Dl]. pose proof (loop_in k l ps pw ∅) as Li. pose proof (loop_stable k l ps pw So ∅) as St. set (L := pair_loop k l ps pw ∅) in *.
  assert (Fa : forall p, In p L -> p_type p = t /\ In (p_upper p) dots /\ In (p_lower p) dots /\ k_ltb k (p_upper p) (p_lower p) = true /\ in_range dist (minimum_distance ps) (maximum_distance ps) (p_upper p) (p_lower p)).
  { intros p Hp. destruct (Li p Hp) as (d & Hd & -> & R & _). destruct (Pw d Hd) as (A & B & C & D). destruct (new_facts d A B C) as (F1 & F2 & F3 & F4 & F5). split; [exact F1|]. split; [exact F2|]. split; [exact F3|]. split; [exact F4|]. unfold in_range. rewrite D in R. lra. }
  assert (Pl : forall p, In p L -> plive p) by (intros p Hp; destruct (Fa p Hp) as (_ & A & B & _); split; apply Lv; assumption).
  destruct (Hsort _ (bdl_ltb k) L (bdl_weak k _ Pl)) as [Pm2 So2]. set (R := sort bdl_pair _ _) in *.
  assert (Ri : forall p, In p R <-> In p L) by (intros p; split; apply Permutation_in; [exact Pm2|apply Permutation_sym, Pm2]).
  split.
  - apply sorted_strict; [intros p Hp; apply Pl, Ri, Hp|exact (Permutation_NoDup (Permutation_sym Pm2) Nl)| |exact So2]. intros p q Hp Hq E. apply (Dl p q (p_upper p)); [apply Ri, Hp|apply Ri, Hq|left; reflexivity|left; exact E].
  - intros p Hp. apply Fa, Ri, Hp.
  - intros p Hp. apply Ri, Fa in Hp. tauto.
  - intros p Hp. apply Ri, Fa in Hp. tauto.
  - intros p q c Hp Hq. apply Dl; apply Ri; assumption.
  - intros a b Ha Hb N Rg.
    assert (X : forall d, In d pw -> ((sidb1 d = a /\ sidb2 d = b) \/ (sidb1 d = b /\ sidb2 d = a)) -> exists p, In p R /\ (on a p \/ on b p) /\ (dist (p_upper p) (p_lower p) <= dist a b)%Q).
    { intros d Hd Eq. destruct (Pw d Hd) as (A & B & C & D). assert (Dq : (distance d == dist a b)%Q) by (rewrite D; destruct Eq as [[-> ->]|[-> ->]]; [reflexivity|apply Hsym]).
      destruct (St d Hd) as [Z|[Z|(d0 & Hd0 & Hn & Sh & Le)]]; [unfold in_range in Rg; lra|set_solver|set_solver|]. exists (new_pair k l d0). split; [apply Ri, Hn|].
      destruct (Pw d0 Hd0) as (A0 & B0 & C0 & D0). destruct (new_facts d0 A0 B0 C0) as (_ & _ & _ & _ & F5). split; [|rewrite F5, <- D0; lra].
      rewrite !on_new. destruct Eq as [[Ea Eb]|[Ea Eb]]; rewrite Ea, Eb in Sh; tauto. }
    destruct (pairwise_all dist dots a b Ha Hb N) as [Y|Y]; apply (Permutation_in _ (Permutation_sym Pm)) in Y; apply (X _ Y); cbn; tauto.
Qed.
End Main.

(** ** Uniqueness *)

Section Unique.
Variable k : kind.
Variable dist : coord -> coord -> Q.
Variable lo hi : Q.
Variable dot : coord -> Prop.
Variable t : Z.
Hypothesis Nt : no_ties dist lo hi dot.

Lemma pairing_unique L1 L2 : pairing k dist lo hi dot t L1 -> pairing k dist lo hi dot t L2 -> L1 = L2.
Proof using Nt.
  intros P1 P2. apply (sorted_unique k); [exact (pr_sorted _ _ _ _ _ _ _ P1)|exact (pr_sorted _ _ _ _ _ _ _ P2)|].
  set (dp := fun p => dist (p_upper p) (p_lower p)). set (closer := fun p => List.filter (fun q => q_ltb (dp q) (dp p)) (L1 ++ L2)).
  assert (Ne : forall p, k_ltb k (p_upper p) (p_lower p) = true -> p_upper p <> p_lower p) by (intros p H E; rewrite E, k_ltb_irrefl in H; discriminate H).
  assert (One : forall n, forall A B, pairing k dist lo hi dot t A -> pairing k dist lo hi dot t B -> (forall p, length (closer p) < n -> In p B -> In p A)%nat -> (forall p, In p A \/ In p B -> In p (L1 ++ L2)) ->
     forall p, (length (closer p) < S n)%nat -> In p A -> In p B).
  { intros n A B PA PB IH Sub p Hn Hp. destruct (pr_dots _ _ _ _ _ _ _ PA p Hp) as (Du & Dl & Lt). pose proof (pr_range _ _ _ _ _ _ _ PA p Hp) as Rg.
    destruct (pr_stable _ _ _ _ _ _ _ PB _ _ Du Dl (Ne p Lt) Rg) as (q & Hq & Sh & Le). fold (dp q) in Le. fold (dp p) in Le.
    destruct (pr_dots _ _ _ _ _ _ _ PB q Hq) as (Qu & Ql & Qlt). destruct (Qlt_le_dec (dp q) (dp p)) as [L|L].
    - assert (Hc : (length (closer q) < length (closer p))%nat).
      { unfold closer. assert (Hin : In q (L1 ++ L2)) by (apply Sub; right; exact Hq). revert Hin. generalize (L1 ++ L2). intros M Hin.
        assert (Mo : forall M, (length (List.filter (fun r => q_ltb (dp r) (dp q)) M) <= length (List.filter (fun r => q_ltb (dp r) (dp p)) M))%nat).
        { induction M0 as [|r M0 IHM]; [reflexivity|]. cbn [List.filter]. destruct (q_ltb (dp r) (dp q)) eqn:E; [|destruct (q_ltb (dp r) (dp p)); cbn; lia]. apply q_ltb_true in E. assert (E' : q_ltb (dp r) (dp p) = true) by (apply q_ltb_true; lra). rewrite E'. cbn. lia. }
        apply in_split in Hin as (m1 & m2 & ->). rewrite !filter_app, !app_length. cbn [List.filter]. assert (E1 : q_ltb (dp q) (dp q) = false) by (apply q_ltb_false; lra). assert (E2 : q_ltb (dp q) (dp p) = true) by (apply q_ltb_true; exact L). rewrite E1, E2. cbn [length]. pose proof (Mo m1). pose proof (Mo m2). lia. }
      assert (HqA : In q A) by (apply (IH q); [lia|exact Hq]). destruct Sh as [Sh|Sh].
      + rewrite (pr_disjoint _ _ _ _ _ _ _ PA p q (p_upper p) Hp HqA (or_introl eq_refl) Sh). exact Hq.
      + rewrite (pr_disjoint _ _ _ _ _ _ _ PA p q (p_lower p) Hp HqA (or_intror eq_refl) Sh). exact Hq.
    - assert (Eq : (dp p == dp q)%Q) by lra. destruct (Nt _ _ _ _ Du Dl Qu Ql (Ne p Lt) (Ne q Qlt) Rg Eq) as [[X Y]|[X Y]].
      + assert (p = q); [|subst; exact Hq]. pose proof (pr_type _ _ _ _ _ _ _ PA p Hp). pose proof (pr_type _ _ _ _ _ _ _ PB q Hq). destruct p, q; cbn in *; congruence.
      + exfalso. rewrite X, Y in Lt. pose proof (k_ltb_trans k _ _ _ Lt Qlt) as Z. rewrite k_ltb_irrefl in Z. discriminate Z. }
  assert (Both : forall n p, (length (closer p) < n)%nat -> (In p L1 -> In p L2) /\ (In p L2 -> In p L1)).
  { induction n as [|n IH]; [intros p H; lia|]. intros p H. split.
    - apply (One n L1 L2 P1 P2); [intros q Hq; apply IH; exact Hq|intros q Hq; apply in_app_iff; exact Hq|exact H].
    - apply (One n L2 L1 P2 P1); [intros q Hq; apply IH; exact Hq|intros q Hq; apply in_app_iff; tauto|exact H]. }
  intros p. destruct (Both (S (length (closer p))) p (Nat.lt_succ_diag_r _)). split; assumption.
Qed.
End Unique.
