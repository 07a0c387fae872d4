(** The throughput of layouts whose data enters in one clock phase. *)
From Coq Require Import ZArith Bool List Lia ZifyBool.
From stdpp Require Import gmap list.
From Verif Require Import CoordModel CoordSpec CoordProofs GridModel GridSpec GridProofs GridProps CoordMap ClockModel ClockProofs
  GateModel GateSpec GateProofs GateProofs2 GateProofs3 PathSpec RouteModel RouteSpec RouteProofs RouteProofs2.
Import ListNotations.
Local Open Scope Z_scope.

Definition low (l : list path_info) (x : path_info) : Prop := In x l /\ forall y, In y l -> pi_length x <= pi_length y.
Definition high (l : list path_info) (x : path_info) : Prop := In x l /\ forall y, In y l -> pi_length y <= pi_length x.
Lemma dominant_diff l c0 : l <> [] -> (forall i, In i l -> pi_delay i = w64 (c0 + pi_length i - 1) /\ 0 <= pi_length i < 2 ^ 63) ->
  exists b f, high l b /\ low l f /\ pi_length (dominant l) = pi_length b /\ pi_delay (dominant l) = pi_delay b /\
    pi_diff (dominant l) = if Nat.eqb (length l) 1 then pi_diff b else pi_length b - pi_length f.
Proof.
  intros Hl Ha. unfold dominant. destruct l as [|x [|y r]]; [congruence| |].
  - exists x, x. assert (high [x] x /\ low [x] x) as [H1 H2] by (split; (split; [left; reflexivity|intros z [<-|[]]; lia])). cbn. auto.
  - destruct (sort_spec (x :: y :: r)) as [S1 S2]. destruct (sort_infos (x :: y :: r)) as [|f q] eqn:E.
    { exfalso. destruct (proj2 (S2 x)). left. reflexivity. }
    destruct (last_ascending f q S1) as [L1 L2]. cbv zeta. cbn [pi_length pi_delay pi_diff]. set (b := List.last (f :: q) f) in *.
    assert (Hf : In f (x :: y :: r)) by (apply S2; left; reflexivity). assert (Hb : In b (x :: y :: r)) by (apply S2, L1).
    exists b, f. split; [split; [exact Hb|intros z Hz; apply L2, S2, Hz]|]. split.
    { split; [exact Hf|]. intros z Hz. apply S2 in Hz as [<-|Hz]; [lia|]. apply S1, Hz. }
    split; [reflexivity|]. split; [reflexivity|]. change (Nat.eqb (length (x :: y :: r)) 1) with false. cbv iota.
    destruct (Ha b Hb) as [D1 B1], (Ha f Hf) as [D2 B2]. rewrite D1, D2.
    assert (K : pi_length f <= pi_length b) by (apply L2; left; reflexivity).
    assert (W : w64 (w64 (c0 + pi_length b - 1) - w64 (c0 + pi_length f - 1)) = pi_length b - pi_length f).
    { unfold w64. rewrite <- Zminus_mod. replace (c0 + pi_length b - 1 - (c0 + pi_length f - 1)) with (pi_length b - pi_length f) by lia.
      apply Z.mod_small. change 18446744073709551616 with (2 ^ 64). lia. }
    rewrite W. change 9223372036854775808 with (2 ^ 63). destruct (Z.ltb_spec (pi_length b - pi_length f) (2 ^ 63)); lia.
Qed.

Section Throughput.
Context (st : glayout) (Hw : wf st) (Hsz : Z.of_nat (length (g_nodes st)) < 2 ^ 63) (c0 : Z) (Hc0 : 0 <= c0 < 2 ^ 64) (Hal : aligned st c0).
(** The differences at tiles data passes on its way to [t]. *)
Definition gap_at (t : coord) (d : Z) : Prop := 0 <= d /\ (d = 0 \/ exists t' u u' a b, rtc (flows st) t' t /\ flows st u t' /\ flows st u' t' /\
  longest st (eq u) a /\ longest st (eq u') b /\ a - b = d).
Definition info_ok (t : coord) (i : path_info) : Prop :=
  len_ok st t (pi_length i) /\ (forall v, flows st t v -> pi_delay i = w64 (c0 + pi_length i - 1)) /\ gap_at t (pi_diff i).
Definition covers (t : coord) (i : path_info) : Prop :=
  forall u u' a b, flows st u t -> flows st u' t -> longest st (eq u) a -> longest st (eq u') b -> a - b <= pi_diff i.
Definition merges (t : coord) : Prop := is_wire_tile st t = false /\ incoming_data_flow true st t <> [] /\ is_empty_tile st t = false.
Definition cached_before (c : gmap coord path_info) (t : coord) : Prop := forall t', rtc (flows st) t' t -> merges t' -> is_Some (c !! t').
Definition cache_ok (c : gmap coord path_info) : Prop := forall t i, c !! t = Some i -> info_ok t i /\ covers t i /\ cached_before c t.
Lemma cached_mono c c' t : (forall x, is_Some (c !! x) -> is_Some (c' !! x)) -> cached_before c t -> cached_before c' t.
Proof. intros H K t' H1 H2. apply H, K; assumption. Qed.

Definition delay_ok (f : nat) : Prop := forall t c i c', cache_ok c -> signal_delay f st t c = Some (i, c') ->
  cache_ok c' /\ (forall x, is_Some (c !! x) -> is_Some (c' !! x)) /\ info_ok t i /\ cached_before c' t /\
  (forall x, is_Some (c' !! x) -> is_Some (c !! x) \/ rtc (flows st) x t).
Lemma fold_delay_ok f : delay_ok f -> forall idf infos0 c infos c', cache_ok c -> fold_delay st f idf (Some (infos0, c)) = Some (infos, c') ->
  cache_ok c' /\ (forall x, is_Some (c !! x) -> is_Some (c' !! x)) /\ (forall u, In u idf -> cached_before c' u) /\
  (forall x, is_Some (c' !! x) -> is_Some (c !! x) \/ exists u, In u idf /\ rtc (flows st) x u) /\
  exists l, infos = infos0 ++ l /\ Forall2 info_ok idf l.
Proof.
  intros Hs. induction idf as [|u r IH]; intros infos0 c infos c' Hc H.
  - injection H as <- <-. split; [exact Hc|]. split; [auto|]. split; [intros u []|]. split; [auto|]. exists []. rewrite app_nil_r. split; [reflexivity|constructor].
  - rewrite fold_delay_cons in H. destruct (signal_delay f st u c) as [[i c1]|] eqn:E; [|discriminate].
    destruct (Hs _ _ _ _ Hc E) as (H1 & H2 & H3 & H4 & H5). destruct (IH _ _ _ _ H1 H) as (G1 & G2 & G3 & G5 & (l & -> & G4)). split; [exact G1|].
    split; [auto|]. split; [intros v [<-|Hv]; [eapply cached_mono; eassumption|apply G3, Hv]|]. split.
    + intros x Hx. destruct (G5 x Hx) as [K|(v & Hv & K)]; [|right; exists v; cbn; auto]. destruct (H5 x K) as [K'|K']; [auto|right; exists u; cbn; auto].
    + exists (i :: l). rewrite <- app_assoc. split; [reflexivity|constructor; assumption].
Qed.
Lemma before_next c t : (forall u, flows st u t -> cached_before c u) -> (merges t -> is_Some (c !! t)) -> cached_before c t.
Proof.
  intros H1 H2 t' Hr Hm. apply rtc_inv_r in Hr as [->|(u & Hu & Hf)]; [apply H2, Hm|]. eapply H1; eassumption.
Qed.
Lemma gap_next u t d : flows st u t -> gap_at u d -> gap_at t d.
Proof.
  intros Hf [H0 [->|(t' & v & v' & a & b & H1 & H2)]]; split; auto. right. exists t', v, v', a, b. split; [eapply rtc_r; eassumption|exact H2].
Qed.
Lemma signal_delay_ok f : delay_ok f.
Proof.
  induction f as [|f IH]; intros t c i c' Hc H; [discriminate|].
  assert (HL : len_ok st t (pi_length i)).
  { eapply (signal_delay_length st Hw ltac:(lia) (S f) t c i c'); [|exact H]. intros x j Hx. apply (Hc x j Hx). }
  cbn [signal_delay] in H.
  destruct (is_empty_tile st t) eqn:He.
  { injection H as <- <-. split; [exact Hc|]. split; [auto|]. split.
    - split; [exact HL|]. split; [intros v Hv; apply flow_info in Hv as ([_ K] & _); [congruence|exact Hw]|]. split; [cbn; lia|left; reflexivity].
    - split; [|auto]. apply before_next; [intros u Hu; exfalso; eapply no_flow_empty; eassumption|]. intros (_ & _ & K). congruence. }
  destruct (incoming_data_flow true st t) as [|v0 vs] eqn:Ef.
  { injection H as <- <-. split; [exact Hc|]. split; [auto|]. split.
    - split; [exact HL|]. split; [|split; [cbn; lia|left; reflexivity]]. intros v Hv. cbn [pi_delay pi_length].
      destruct Hal as (A1 & _). rewrite (A1 t v) by (try split; assumption). replace (c0 + 1 - 1) with c0 by lia.
      unfold w64. symmetry. apply Z.mod_small. exact Hc0.
    - split; [|auto]. apply before_next; [intros u Hu; unfold flows in Hu; rewrite Ef in Hu; destruct Hu|]. intros (_ & K & _). contradiction. }
  destruct (c !! t) as [i0|] eqn:Ec; [injection H as <- <-; split; [exact Hc|]; split; [auto|]; split; [apply (Hc t i0 Ec)|]; split; [apply (Hc t i0 Ec)|auto]|].
  change (fold_left _ (v0 :: vs) (Some ([], c))) with (fold_delay st f (v0 :: vs) (Some ([], c))) in H.
  destruct (fold_delay st f (v0 :: vs) (Some ([], c))) as [[infos c1]|] eqn:Efd; [|discriminate].
  destruct (fold_delay_ok f IH _ _ _ _ _ Hc Efd) as (Hc1 & Hsub & Hbef & Hnew & (l & El & HF)). cbn [app] in El. subst l.
  assert (Hin : forall u, flows st u t <-> In u (v0 :: vs)) by (intros u; unfold flows; rewrite Ef; tauto).
  assert (Hpi : is_pi_tile st t = false) by (destruct Hal as (_ & A2 & _); apply (A2 v0), Hin; left; reflexivity).
  rewrite Hpi in H. cbv zeta in H. injection H as Hi Hc'.
  assert (Hne : infos <> []) by (intros ->; inversion HF).
  assert (Hocc : forall u, flows st u t -> is_empty_tile st u = false) by (intros u Hu; apply flow_info in Hu; [apply Hu|exact Hw]).
  assert (H1 : forall x, In x infos -> exists u, flows st u t /\ info_ok u x).
  { intros x Hx. destruct (F2_r _ _ _ _ HF Hx) as (u & Hu & Hl). exists u. rewrite Hin. auto. }
  assert (H2 : forall u a, flows st u t -> longest st (eq u) a -> exists x, In x infos /\ info_ok u x /\ pi_length x = a).
  { intros u a Hu Ha. destruct (F2_l _ _ _ u HF (proj1 (Hin u) Hu)) as (x & Hx & Hok). exists x. split; [exact Hx|]. split; [exact Hok|].
    eapply longest_unique; [apply Hok|exact Ha]. }
  assert (Hd : forall x, In x infos -> pi_delay x = w64 (c0 + pi_length x - 1) /\ 0 <= pi_length x < 2 ^ 63).
  { intros x Hx. destruct (H1 x Hx) as (u & Hu & (K1 & K2 & _)). split; [apply (K2 t Hu)|]. pose proof (longest_bound st u _ Hw (proj1 K1)). lia. }
  destruct (dominant_diff infos c0 Hne Hd) as (b & lo & [Hb1 Hb2] & [Hl1 Hl2] & E1 & E2 & E3).
  destruct (H1 b Hb1) as (ub & Hub & Hokb). destruct (H1 lo Hl1) as (ul & Hul & Hokl).
  assert (Hb63 : 0 <= pi_length b < 2 ^ 63) by apply Hd, Hb1.
  assert (Eb : w64 (pi_length b + 1) = pi_length b + 1) by (unfold w64; apply Z.mod_small; change 18446744073709551616 with (2 ^ 64); lia).
  assert (Hinfo : info_ok t i).
  { split; [exact HL|]. subst i. cbn [pi_length pi_delay pi_diff]. rewrite E1, E2, E3. split.
    - intros v Hv. destruct (Hd b Hb1) as [-> _]. rewrite Eb. unfold w64. rewrite Zplus_mod_idemp_l. f_equal. lia.
    - destruct (Nat.eqb (length infos) 1); [eapply gap_next; [exact Hub|apply Hokb]|]. split; [specialize (Hb2 lo Hl1); lia|].
      right. exists t, ub, ul, (pi_length b), (pi_length lo). split; [apply rtc_refl|]. split; [exact Hub|]. split; [exact Hul|].
      split; [apply Hokb|]. split; [apply Hokl|reflexivity]. }
  assert (Hcov : covers t i).
  { intros u u' a a' Hu Hu' Ha Ha'. destruct (H2 u a Hu Ha) as (x & Hx & _ & <-), (H2 u' a' Hu' Ha') as (x' & Hx' & _ & <-).
    subst i. cbn [pi_diff]. rewrite E3. destruct (Nat.eqb_spec (length infos) 1) as [El|El].
    - destruct infos as [|z [|z' r]]; try discriminate. destruct Hx as [<-|[]], Hx' as [<-|[]]. rewrite Z.sub_diag.
      destruct Hb1 as [<-|[]]. apply Hokb.
    - specialize (Hb2 x Hx). specialize (Hl2 x' Hx'). lia. }
  assert (Hsub' : forall x, is_Some (c1 !! x) -> is_Some (c' !! x)).
  { intros x Hx. subst c'. destruct (is_wire_tile st t); [exact Hx|]. destruct (decide (t = x)) as [<-|Hn]; [rewrite lookup_insert; eauto|rewrite lookup_insert_ne by exact Hn; exact Hx]. }
  assert (Hbt : cached_before c' t).
  { apply before_next.
    - intros u Hu. eapply cached_mono; [exact Hsub'|]. apply Hbef, Hin, Hu.
    - intros (K & _). subst c'. rewrite K, lookup_insert. eauto. }
  assert (Hnew' : forall x, is_Some (c' !! x) -> is_Some (c !! x) \/ rtc (flows st) x t).
  { intros x Hx. assert (K : is_Some (c1 !! x) \/ x = t).
    { subst c'. destruct (is_wire_tile st t); [auto|]. destruct (decide (t = x)) as [<-|Hn]; [auto|]. rewrite lookup_insert_ne in Hx by exact Hn. auto. }
    destruct K as [K| ->]; [|right; apply rtc_refl]. destruct (Hnew x K) as [K'|(u & Hu & K')]; [auto|]. right. eapply rtc_r; [exact K'|]. apply Hin, Hu. }
  split; [|split; [auto|split; [exact Hinfo|split; [exact Hbt|exact Hnew']]]].
  intros x j Hx. destruct (is_wire_tile st t) eqn:Ew.
  - rewrite <- Hc' in Hx. destruct (Hc1 x j Hx) as (K1 & K2 & K3). split; [exact K1|]. split; [exact K2|]. eapply cached_mono; eassumption.
  - destruct (decide (t = x)) as [<-|Hn].
    + rewrite <- Hc', lookup_insert in Hx. injection Hx as <-. rewrite Hi. auto.
    + rewrite <- Hc', lookup_insert_ne in Hx by exact Hn. destruct (Hc1 x j Hx) as (K1 & K2 & K3). split; [exact K1|]. split; [exact K2|]. eapply cached_mono; eassumption.
Qed.

Lemma fold_pos_ok f : forall pos m c L c', cache_ok c -> fold_pos st f pos (Some (m, c)) = Some (L, c') ->
  cache_ok c' /\ (forall x, is_Some (c !! x) -> is_Some (c' !! x)) /\ (forall o, In o pos -> cached_before c' o) /\
  (forall x, is_Some (c' !! x) -> is_Some (c !! x) \/ exists o, In o pos /\ rtc (flows st) x o).
Proof.
  induction pos as [|u r IH]; intros m c L c' Hc H.
  - injection H as <- <-. split; [exact Hc|]. split; [auto|]. split; [intros o []|auto].
  - rewrite fold_pos_cons in H. destruct (signal_delay f st u c) as [[i c1]|] eqn:E; [|discriminate].
    destruct (signal_delay_ok f _ _ _ _ Hc E) as (H1 & H2 & H3 & H4 & H5). destruct (IH _ _ _ _ H1 H) as (G1 & G2 & G3 & G5). split; [exact G1|].
    split; [auto|]. split; [intros v [<-|Hv]; [eapply cached_mono; eassumption|apply G3, Hv]|].
    intros x Hx. destruct (G5 x Hx) as [K|(v & Hv & K)]; [|right; exists v; cbn; auto]. destruct (H5 x K) as [K'|K']; [auto|right; exists u; cbn; auto].
Qed.
Lemma fold_max_spec (l : list (coord * path_info)) m0 : let D := fold_left (fun m e => Z.max m (pi_diff (snd e))) l m0 in
  m0 <= D /\ (forall e, In e l -> pi_diff (snd e) <= D) /\ (D = m0 \/ exists e, In e l /\ pi_diff (snd e) = D).
Proof.
  revert m0. induction l as [|e l IH]; intros m0; cbn [fold_left]; [split; [lia|]; split; [intros e []|auto]|].
  destruct (IH (Z.max m0 (pi_diff (snd e)))) as (H1 & H2 & H3). split; [lia|]. split.
  - intros x [<-|Hx]; [lia|apply H2, Hx].
  - destruct H3 as [->|(x & Hx & <-)]; [|right; exists x; cbn; auto]. destruct (Z.max_spec m0 (pi_diff (snd e))) as [[_ ->]|[_ ->]]; [right; exists e; cbn; auto|auto].
Qed.

Lemma throughput_spread f L x : critical_path_and_throughput f st = Some (L, x) -> exists D, spread st D /\ x = D / num_clocks (g_cl st) + 1.
Proof.
  unfold critical_path_and_throughput, foreach_po. change (fold_left _ (g_out st) _) with (fold_pos st f (g_out st) (Some (0, ∅))).
  destruct (fold_pos st f (g_out st) (Some (0, ∅))) as [[l c]|] eqn:E; [|discriminate]. cbv zeta. intros H. injection H as _ <-.
  destruct (fold_pos_ok f (g_out st) 0 ∅ l c) as (H1 & _ & H3 & H4); [intros t i K; rewrite lookup_empty in K; discriminate|exact E|].
  destruct (fold_max_spec (map_to_list c) 0) as (M1 & M2 & M3). set (D := fold_left _ (map_to_list c) 0) in *. exists D. split; [|reflexivity]. split.
  - intros o t u u' a b Ho Hr Hu Hu' Ha Hb. destruct (is_wire_tile st t) eqn:Ew.
    + destruct Hal as (_ & _ & A3). rewrite (A3 u u' t Hu Hu' Ew) in Ha. rewrite (longest_unique _ _ _ _ Ha Hb). lia.
    + assert (Hm : merges t).
      { split; [exact Ew|]. split; [intros K; unfold flows in Hu; rewrite K in Hu; destruct Hu|]. apply flow_info in Hu; [apply Hu|exact Hw]. }
      destruct (H3 o Ho t Hr Hm) as (i & Hi). destruct (H1 t i Hi) as (_ & Hc & _). specialize (Hc u u' a b Hu Hu' Ha Hb).
      specialize (M2 (t, i)). cbn [snd] in M2. assert (In (t, i) (map_to_list c)) as Hin by (apply elem_of_list_In, elem_of_map_to_list, Hi). specialize (M2 Hin). lia.
  - destruct M3 as [M3|((t & i) & Hin & M3)]; [left; exact M3|]. cbn [snd] in M3. apply elem_of_list_In, elem_of_map_to_list in Hin.
    destruct (H1 t i Hin) as ((_ & _ & G0 & G) & _). destruct G as [G|(t' & u & u' & a & b & G1 & G2 & G3 & G4 & G5 & G6)]; [left; lia|right].
    destruct (H4 t (ex_intro _ i Hin)) as [K|(o & Ho & K)]; [rewrite lookup_empty in K; destruct K; discriminate|].
    exists o, t', u, u', a, b. rewrite <- M3. split; [exact Ho|]. split; [eapply rtc_transitive; eassumption|]. auto.
Qed.
End Throughput.
