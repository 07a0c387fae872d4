(** Facts about mapped networks and their colouring; the rows and columns that stay free. *)
From Coq Require Import ZArith Bool String List Lia.
From stdpp Require Import gmap list strings pretty.
From Verif Require Import CoordModel CoordSpec CoordProofs GridModel GridSpec CoordMap ClockModel GateModel GateSpec GateProofs GateProofs2 GateProofs3
  RouteModel RouteSpec RouteProofs BuildProofs OrthoModel OrthoSpec OrthoProofs OrthoProofs2 OrthoProofs3 OrthoProofs4 OrthoProofs5.
Import ListNotations.
Local Open Scope Z_scope.

(** *** Sums and counts *)
Lemma zsum_app f l1 l2 : zsum f (l1 ++ l2) = zsum f l1 + zsum f l2.
Proof. induction l1 as [|a l IH]; cbn [zsum fold_right app]; [reflexivity|]. unfold zsum in *. cbn. lia. Qed.
Lemma zsum_S f n : zsum f (seq 0 (S n)) = zsum f (seq 0 n) + f n.
Proof. rewrite seq_S, zsum_app. cbn. lia. Qed.
Lemma zsum_nonneg (f : nat -> Z) l : (forall n : nat, 0 <= f n) -> 0 <= zsum f l.
Proof. intros H. induction l as [|a l IH]; cbn; [lia|]. specialize (H a). unfold zsum in IH. lia. Qed.
Lemma zsum_le (f g : nat -> Z) l : (forall n, In n l -> f n <= g n) -> zsum f l <= zsum g l.
Proof.
  induction l as [|a l IH]; intros H; cbn; [lia|]. pose proof (H a (or_introl eq_refl)). assert (zsum f l <= zsum g l) by (apply IH; intros n Hn; apply H; right; exact Hn).
  unfold zsum in *. lia.
Qed.
Lemma zsum_plus (f g : nat -> Z) l : zsum (fun n => f n + g n) l = zsum f l + zsum g l.
Proof. induction l as [|a l IH]; cbn; [lia|]. unfold zsum in *. lia. Qed.
Lemma zsum_prefix (f : nat -> Z) n m : (forall k : nat, 0 <= f k) -> (n <= m)%nat -> zsum f (seq 0 n) <= zsum f (seq 0 m).
Proof. intros H Hl. induction Hl as [|k Hl IH]; [lia|]. rewrite zsum_S. specialize (H k). lia. Qed.
Lemma zsum_count (p : nat -> bool) l : zsum (fun n => if p n then 1 else 0) l = count p l.
Proof. unfold count. induction l as [|a l IH]; cbn; [reflexivity|]. unfold zsum in IH. rewrite IH. destruct (p a); cbn [length]; lia. Qed.

Lemma repeated_In n : forall l seen, In n (repeated seen l) -> In n l /\ (2 <= count_occ Nat.eq_dec seen n + count_occ Nat.eq_dec l n)%nat.
Proof.
  induction l as [|a l IH]; intros seen H; [destruct H|]. cbn [repeated] in H. apply in_app_or in H as [H|H].
  - destruct (existsb (Nat.eqb a) seen) eqn:E; [|destruct H]. destruct H as [->|[]]. apply existsb_exists in E as (x & Hx & E). apply Nat.eqb_eq in E. subst x.
    split; [left; reflexivity|]. apply (count_occ_In Nat.eq_dec) in Hx. cbn. destruct (Nat.eq_dec n n); [lia|congruence].
  - apply IH in H as [H1 H2]. split; [right; exact H1|]. rewrite count_occ_app in H2. cbn in *. destruct (Nat.eq_dec a n); lia.
Qed.

Lemma lit_meaning f vs b : boolean_meaning f vs = Some b -> comparison f = false -> compute_lit (lit_of f) vs = Some b.
Proof.
  intros H Hc. destruct f; try discriminate Hc; destruct vs as [|x [|y [|z [|w r]]]]; try discriminate H; cbn in H; injection H as <-;
    try (destruct x); try (destruct y); try (destruct z); reflexivity.
Qed.
Lemma lit_sym f x y b : boolean_meaning f [x; y] = Some b -> comparison f = false -> compute_lit (lit_of f) [y; x] = Some b.
Proof. intros H Hc. destruct f; try discriminate Hc; try discriminate H; cbn in H; injection H as <-; destruct x, y; reflexivity. Qed.

Section network.
Context (net : onet) (Hm : mapped net) (Hd : distinct_fanins net).
Notation edge := (edge net).
Notation N := (o_size net).

Lemma node_lt n : (n < N)%nat -> o_nodes net !! n = Some (o_node net n).
Proof. intros H. unfold o_node. destruct (lookup_lt_is_Some_2 (o_nodes net) n H) as (x & ->). reflexivity. Qed.
Lemma edge_gate u v : edge u v -> exists f ch, o_nodes net !! v = Some (OGate f ch) /\ o_fanins net v = ch /\ In u ch.
Proof.
  intros H. pose proof (fanins_size _ _ _ H) as Hv. apply node_lt in Hv. unfold OrthoProofs.edge, o_fanins in *. destruct (o_node net v) as [nm|f ch] eqn:E; [destruct H|].
  exists f, ch. rewrite Hv. auto.
Qed.
Lemma edge_lt u v : edge u v -> (u < v)%nat /\ (v < N)%nat.
Proof using Hm.
  intros H. split; [|eapply fanins_size; exact H]. destruct (edge_gate _ _ H) as (f & ch & A & _ & B). eapply mp_order; eassumption.
Qed.
Lemma fanins_cases v : o_fanins net v = [] \/ (exists a, o_fanins net v = [a]) \/ exists a b, o_fanins net v = [a; b] /\ a <> b.
Proof using Hm Hd.
  unfold o_fanins, o_node. destruct (o_nodes net !! v) as [[nm|f ch]|] eqn:E; cbn; [auto| |auto]. right.
  destruct (mp_arity _ Hm _ _ _ E) as [[Hl _]|[Hl _]]; destruct ch as [|a [|b [|c r]]]; try discriminate Hl; [left; eauto|right; exists a, b; split; [reflexivity|eapply Hd; exact E]].
Qed.
Lemma pi_lookup n : o_is_pi net n = true -> (n < N)%nat -> exists nm, o_nodes net !! n = Some (OPi nm).
Proof. intros H Hn. rewrite (node_lt n Hn). unfold o_is_pi in H. destruct (o_node net n) as [nm|]; [eauto|discriminate H]. Qed.

(** *** Uses *)
Definition nouts (u : nat) : nat := count_occ Nat.eq_dec (map fst (o_pos net)) u.
Lemma filter_sum (p : nat -> bool) (g : nat -> nat) l : (forall m, In m l -> p m = true -> (1 <= g m)%nat) -> (length (List.filter p l) <= list_sum (map g l))%nat.
Proof.
  induction l as [|a l IH]; intros H; [cbn; lia|]. cbn [List.filter map list_sum fold_right]. assert (length (List.filter p l) <= list_sum (map g l))%nat by (apply IH; intros m Hm'; apply H; right; exact Hm').
  destruct (p a) eqn:E; cbn [length]; [specialize (H a (or_introl eq_refl) E)|]; unfold list_sum in *; cbn; lia.
Qed.
Lemma map_nodes {B} (g : onode -> B) : map g (o_nodes net) = map (fun m => g (o_node net m)) (seq 0 N).
Proof.
  unfold o_size, o_node. generalize (OPi ""). intros d. generalize (o_nodes net). intros l. induction l as [|a l IH] using rev_ind; [reflexivity|].
  rewrite app_length, Nat.add_1_r, seq_S, !map_app, IH. cbn. f_equal.
  - apply map_ext_in. intros m H. apply in_seq in H. rewrite lookup_app_l by lia. reflexivity.
  - rewrite lookup_app_r by lia. rewrite Nat.sub_diag. reflexivity.
Qed.
Lemma uses_ge u : (length (o_fanouts net u) + nouts u <= uses net u)%nat.
Proof.
  unfold uses, nouts. apply Nat.add_le_mono_r. unfold o_fanouts. rewrite (map_nodes (fun x => match x with OPi _ => 0%nat | OGate _ ch => count_occ Nat.eq_dec ch u end)).
  apply filter_sum. intros m _ H. apply existsb_exists in H as (x & Hx & E). apply Nat.eqb_eq in E. subst x. unfold o_fanins in Hx. destruct (o_node net m) as [|f ch]; [destruct Hx|].
  apply (count_occ_In Nat.eq_dec) in Hx. lia.
Qed.
Lemma uses_edge u : (1 <= uses net u)%nat -> (exists v, edge u v) \/ (1 <= nouts u)%nat.
Proof.
  unfold uses, nouts. intros H. destruct (Nat.eq_dec (count_occ Nat.eq_dec (map fst (o_pos net)) u) 0%nat) as [E|]; [|right; lia]. left.
  rewrite E, Nat.add_0_r, (map_nodes (fun x => match x with OPi _ => 0%nat | OGate _ ch => count_occ Nat.eq_dec ch u end)) in H. revert H.
  induction (seq 0 N) as [|a l IH]; [cbn; lia|]. cbn [map list_sum fold_right]. intros H. destruct (Nat.eq_dec (match o_node net a with OPi _ => 0 | OGate _ ch => count_occ Nat.eq_dec ch u end)%nat 0%nat) as [E0|E0].
  - apply IH. unfold list_sum in *. rewrite E0 in H. exact H.
  - exists a. unfold OrthoProofs.edge, o_fanins. destruct (o_node net a) as [|f ch]; [congruence|]. apply (count_occ_In Nat.eq_dec). lia.
Qed.
Lemma uses_le u : (u < N)%nat -> (uses net u <= if o_is_pi net u then 1 else 2)%nat.
Proof using Hm.
  intros H. unfold o_is_pi. pose proof (node_lt u H) as E. destruct (o_node net u) as [nm|f ch]; [eapply mp_pi; eassumption|eapply mp_gate; eassumption].
Qed.
Lemma po_nouts u : o_is_po net u = true <-> (1 <= nouts u)%nat.
Proof.
  unfold o_is_po, nouts. rewrite existsb_exists. split.
  - intros ((n & nm) & Hi & E). apply Nat.eqb_eq in E. cbn in E. subst n. apply (in_map fst) in Hi. apply (count_occ_In Nat.eq_dec) in Hi. cbn in Hi. lia.
  - intros H. assert (Hi : In u (map fst (o_pos net))) by (apply (count_occ_In Nat.eq_dec); lia). apply in_map_iff in Hi as (x & <- & Hx). exists x. split; [exact Hx|apply Nat.eqb_refl].
Qed.
Lemma multi_nouts u : is_multi net u = true -> (2 <= nouts u)%nat.
Proof. unfold is_multi, nouts. intros H. apply existsb_exists in H as (x & Hx & E). apply Nat.eqb_eq in E. subst x. apply repeated_In in Hx as [_ H]. exact H. Qed.
Lemma po_lt u : o_is_po net u = true -> (u < N)%nat.
Proof using Hm. unfold o_is_po. intros H. apply existsb_exists in H as ((n & nm) & Hi & E). apply Nat.eqb_eq in E. cbn in E. subst n. eapply mp_out; eassumption. Qed.
Lemma no_use u : ~ (u < N)%nat -> o_fanouts net u = [].
Proof using Hm. intros H. destruct (o_fanouts net u) as [|m r] eqn:E; [reflexivity|]. destruct H. assert (edge u m) by (apply In_fanouts; rewrite E; left; reflexivity). pose proof (edge_lt _ _ H). lia. Qed.
Lemma fanouts_two u : (length (o_fanouts net u) <= 2)%nat.
Proof using Hm.
  destruct (le_lt_dec N u) as [H|H]; [rewrite no_use by lia; cbn; lia|]. pose proof (uses_ge u). pose proof (uses_le u H). destruct (o_is_pi net u); lia.
Qed.
Lemma two_edges u v w : edge u v -> edge u w -> v <> w -> (2 <= length (o_fanouts net u))%nat.
Proof.
  intros Hv Hw Hne. apply In_fanouts in Hv, Hw. destruct (o_fanouts net u) as [|x [|y r]]; cbn in *; [tauto| |lia]. destruct Hv as [<-|[]], Hw as [<-|[]]. congruence.
Qed.
Lemma po_edge u v w : o_is_po net u = true -> edge u v -> edge u w -> v = w.
Proof using Hm.
  intros Hp Hv Hw. destruct (Nat.eq_dec v w) as [|Hn]; [assumption|]. exfalso. pose proof (two_edges _ _ _ Hv Hw Hn). apply po_nouts in Hp.
  pose proof (uses_ge u). pose proof (uses_le u) as L. destruct (edge_lt _ _ Hv). specialize (L ltac:(lia)). destruct (o_is_pi net u); lia.
Qed.
Lemma po_edge_fanouts u v : o_is_po net u = true -> edge u v -> o_fanouts net u = [v].
Proof using Hm.
  intros Hp Hv. pose proof (NoDup_fanouts net u) as ND. destruct (o_fanouts net u) as [|x [|y r]] eqn:E.
  - apply In_fanouts in Hv. rewrite E in Hv. destruct Hv.
  - f_equal. apply (po_edge u); [exact Hp| |exact Hv]. apply In_fanouts. rewrite E. left. reflexivity.
  - exfalso. inversion ND as [|? ? Hn _]. subst. apply Hn. assert (x = y); [|subst; left; reflexivity]. apply (po_edge u); [exact Hp| |]; apply In_fanouts; rewrite E; cbn; auto.
Qed.
Lemma multi_no_edge u v : is_multi net u = true -> edge u v -> False.
Proof using Hm.
  intros Hp Hv. apply multi_nouts in Hp. pose proof (uses_ge u). pose proof (uses_le u) as L. destruct (edge_lt _ _ Hv). specialize (L ltac:(lia)).
  apply In_fanouts in Hv. destruct (o_fanouts net u); [destruct Hv|]. cbn in *. destruct (o_is_pi net u); lia.
Qed.
Lemma pi_edge u v w : o_is_pi net u = true -> edge u v -> edge u w -> v = w.
Proof using Hm.
  intros Hp Hv Hw. destruct (Nat.eq_dec v w) as [|Hn]; [assumption|]. exfalso. pose proof (two_edges _ _ _ Hv Hw Hn).
  pose proof (uses_ge u). pose proof (uses_le u) as L. destruct (edge_lt _ _ Hv). specialize (L ltac:(lia)). rewrite Hp in L. lia.
Qed.
Lemma pi_po u : o_is_pi net u = true -> o_is_po net u = true -> o_fanouts net u = [] /\ is_multi net u = false.
Proof using Hm.
  intros Hp Hq. pose proof (po_lt _ Hq) as Hu. pose proof (uses_ge u). pose proof (uses_le u Hu) as L. rewrite Hp in L. pose proof (proj1 (po_nouts u) Hq). split.
  - destruct (o_fanouts net u); [reflexivity|cbn in *; lia].
  - destruct (is_multi net u) eqn:E; [|reflexivity]. apply multi_nouts in E. lia.
Qed.

(** *** Colours *)
Context (ec : gmap (nat * nat) color) (Hpa : painted net 0 ec).
Notation col u v := (edge_color ec (u, v)).
Notation nc := (node_color net ec).
Notation avail := (eastern_po_available net ec).

Lemma col_ok u v : edge u v -> col u v = East \/ col u v = South.
Proof using Hpa. intros H. pose proof (pa_all _ _ _ Hpa u v ltac:(lia) H). destruct (edge_color ec (u, v)); auto; congruence. Qed.
Lemma siblings u v w : edge u v -> edge u w -> v <> w -> col u v = East -> col u w = South.
Proof using Hpa. intros A B Hn E. destruct (pa_sib _ _ _ Hpa u v w A B Hn) as [[H _]|[_ H]]; [congruence|rewrite H, E; reflexivity]. Qed.
Lemma siblings' u v w : edge u v -> edge u w -> v <> w -> col u v = South -> col u w = East.
Proof using Hpa. intros A B Hn E. destruct (pa_sib _ _ _ Hpa u v w A B Hn) as [[H _]|[_ H]]; [congruence|rewrite H, E; reflexivity]. Qed.
Lemma edge_not_pi u v : edge u v -> o_is_pi net v = false.
Proof. unfold OrthoProofs.edge, o_fanins, o_is_pi. destruct (o_node net v); [intros []|reflexivity]. Qed.
Lemma nc_exc v : exc net ec v -> nc v = Null.
Proof.
  intros (a & b & E & Ha & Hb & _). unfold node_color. rewrite (edge_not_pi a) by (unfold OrthoProofs.edge; rewrite E; left; reflexivity).
  rewrite E. cbn [forallb]. rewrite Ha, Hb. reflexivity.
Qed.
Lemma nc_edge u v : edge u v -> ~ exc net ec v -> nc v = col u v.
Proof using Hm Hd Hpa.
  intros H Hx. unfold node_color. rewrite (edge_not_pi u v H). assert (S : forall a, In a (o_fanins net v) -> col a v = col u v).
  { intros a Ha. apply (pa_sps _ _ _ Hpa); [exact Ha|exact H|]. tauto. }
  destruct (col_ok _ _ H) as [C|C]; rewrite C in *.
  - rewrite (proj2 (forallb_forall _ _)); [reflexivity|]. intros a Ha. rewrite (S a Ha). reflexivity.
  - assert (F : forallb (fun f => color_eqb (col f v) East) (o_fanins net v) = false).
    { unfold OrthoProofs.edge in H. destruct (o_fanins net v) as [|a r]; [destruct H|]. cbn [forallb]. rewrite (S a) by (left; reflexivity). reflexivity. }
    rewrite F, (proj2 (forallb_forall _ _)); [reflexivity|]. intros a Ha. rewrite (S a Ha). reflexivity.
Qed.
Lemma some_edge_dec (p : nat -> bool) f : (exists w, p w = true /\ edge f w) \/ ~ (exists w, p w = true /\ edge f w).
Proof.
  destruct (existsb p (o_fanouts net f)) eqn:E.
  - left. apply existsb_exists in E as (w & Hw & Ep). exists w. split; [exact Ep|apply In_fanouts, Hw].
  - right. intros (w & Ep & Hw). apply In_fanouts in Hw. assert (existsb p (o_fanouts net f) = true) by (apply existsb_exists; eauto). congruence.
Qed.
Lemma exc_dec v : exc net ec v \/ ~ exc net ec v.
Proof.
  unfold exc. destruct (o_fanins net v) as [|a [|b [|c r]]] eqn:E; try (right; intros (x & y & H & _); discriminate H).
  destruct (some_edge_dec (fun w => Nat.ltb w v) a) as [(w1 & L1 & W1)|W1]; [|right; intros (x & y & H & _ & _ & (w & L & W) & _); injection H as <- <-; apply W1; exists w; split; [apply Nat.ltb_lt; exact L|exact W]].
  destruct (some_edge_dec (fun w => negb (Nat.eqb w v)) b) as [(w2 & L2 & W2)|W2]; [|right; intros (x & y & H & _ & _ & _ & (w & L & W)); injection H as <- <-; apply W2; exists w; split; [apply negb_true_iff, Nat.eqb_neq; exact L|exact W]].
  destruct (col a v) eqn:Ca; try (right; intros (x & y & H & C & _); injection H as <- <-; congruence).
  destruct (col b v) eqn:Cb; try (right; intros (x & y & H & _ & C & _); injection H as <- <-; congruence).
  left. exists a, b. split; [reflexivity|]. split; [exact Ca|]. split; [exact Cb|]. split.
  - exists w1. split; [apply Nat.ltb_lt; exact L1|exact W1].
  - exists w2. split; [apply Nat.eqb_neq, negb_true_iff; exact L2|exact W2].
Qed.
Lemma exc_two v f : exc net ec v -> edge f v -> exists w, w <> v /\ edge f w.
Proof.
  intros (a & b & E & _ & _ & (w1 & L1 & W1) & (w2 & L2 & W2)) Hf. unfold OrthoProofs.edge in Hf. rewrite E in Hf. destruct Hf as [<-|[<-|[]]]; [exists w1; split; [lia|exact W1]|exists w2; auto].
Qed.
Lemma po_not_exc u v : o_is_po net u = true -> edge u v -> ~ exc net ec v.
Proof using Hm. intros Hp He Hx. destruct (exc_two _ _ Hx He) as (w & Hn & Hw). apply Hn. eapply po_edge; eassumption. Qed.
Lemma pi_not_exc u v : o_is_pi net u = true -> edge u v -> ~ exc net ec v.
Proof using Hm. intros Hp He Hx. destruct (exc_two _ _ Hx He) as (w & Hn & Hw). apply Hn. eapply pi_edge; eassumption. Qed.
Lemma po_avail u v : o_is_po net u = true -> edge u v -> avail u = true <-> col u v = South.
Proof using Hm Hd Hpa.
  intros Hp He. unfold eastern_po_available. rewrite (po_edge_fanouts _ _ Hp He), (nc_edge u v He (po_not_exc _ _ Hp He)).
  destruct (col_ok _ _ He) as [-> | ->]; cbn; split; congruence.
Qed.
Lemma no_edge_avail u : (forall v, ~ edge u v) -> avail u = true.
Proof.
  intros H. unfold eastern_po_available. destruct (o_fanouts net u) as [|m r] eqn:E; [reflexivity|]. destruct (H m). apply In_fanouts. rewrite E. left. reflexivity.
Qed.
(** A fan-in pair of different colours. *)
Lemma nc_null v : o_is_pi net v = false -> (v < N)%nat -> nc v = Null -> exc net ec v.
Proof using Hm Hd Hpa.
  intros Hp Hv Hc. unfold node_color in Hc. rewrite Hp in Hc.
  destruct (forallb (fun f => color_eqb (col f v) East) (o_fanins net v)) eqn:F1; [discriminate Hc|].
  destruct (forallb (fun f => color_eqb (col f v) South) (o_fanins net v)) eqn:F2; [discriminate Hc|].
  destruct (fanins_cases v) as [E|[(a & E)|(a & b & E & Hab)]]; rewrite E in F1, F2; cbn [forallb] in F1, F2; [discriminate F1| |].
  - exfalso. destruct (col_ok a v) as [C|C]; [unfold OrthoProofs.edge; rewrite E; left; reflexivity| |]; rewrite C in F1, F2; cbn in F1, F2; congruence.
  - assert (Ea : edge a v) by (unfold OrthoProofs.edge; rewrite E; left; reflexivity). assert (Eb : edge b v) by (unfold OrthoProofs.edge; rewrite E; right; left; reflexivity).
    assert (Hne : col a v <> col b v). { intros H. rewrite H in F1, F2. destruct (col_ok _ _ Eb) as [C|C]; rewrite C in F1, F2; cbn in F1, F2; congruence. }
    destruct (exc_dec v) as [H|H]; [exact H|]. destruct Hne. rewrite <- (nc_edge a v Ea H). apply nc_edge; assumption.
Qed.
End network.
