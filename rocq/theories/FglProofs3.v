(** What is written for a finished layout, and what the reader creates from it. *)
From Coq Require Import ZArith Bool String Ascii List Lia Permutation.
From stdpp Require Import gmap list strings.
From Verif Require Import CoordModel CoordSpec CoordProofs GridModel GridSpec GridProps CoordMap ClockModel ClockSpec ClockProofs
  GateModel GateSpec GateProofs GateProofs2 GateProofs3 RouteModel RouteSpec RouteProofs BuildProofs FglModel FglSpec FglProofs FglProofs2.
From Verif Require HexaProofs3.
From Coq Require Import String List.
Import ListNotations.
Local Open Scope nat_scope.

(** Inputs are wires. *)
Lemma step_pi_wire st o st' : inv0 st -> (forall n, In n (g_in st) -> n < length (g_nodes st) /\ n_lit (node_at st n) = 2%Z) -> g_step st o = Some st' ->
  (forall n, In n (g_in st') -> n < length (g_nodes st') /\ n_lit (node_at st' n) = 2%Z).
Proof.
  intros Hi H E n Hn. destruct (step_in st o st' E) as [K|[K L]].
  - rewrite K in Hn. destruct (H n Hn) as [A B]. destruct (step_lit st o st' n E A) as [C D]. split; [lia|]. congruence.
  - destruct o as [nm t|s nm t|ch lit t|m t ch|s m|t|m nm|t kk].
    + rewrite K in Hn. apply in_app_iff in Hn. destruct Hn as [Hn|[<-|[]]].
      * destruct (H n Hn) as [A B]. destruct (step_lit st _ st' n E A) as [C D]. split; [lia|]. congruence.
      * cbn [g_step] in E. inversion E; subst; clear E. split; [lia|]. unfold create_pi. cbv zeta. rewrite assign_lit.
        match goal with |- n_lit (node_at ?x ?k) = _ => change (node_at x k) with (node_at (push_node st [] 2) k) end. rewrite node_at_push_new. reflexivity.
    + exfalso. assert (g_in st' = g_in st) as E0.
      { cbn [g_step] in E. inversion E; subst. unfold create_po. cbv zeta. rewrite (fr_in _ _ (setch_frame _ _ _)), (fr_in _ _ (inc_frame _ _)), assign_in. reflexivity. }
      rewrite E0 in K. apply (f_equal (@List.length nat)) in K. rewrite app_length in K. cbn in K. lia.
    + exfalso. assert (g_in st' = g_in st) as E0.
      { cbn [g_step] in E. inversion E; subst. unfold create_lit. cbv zeta. rewrite assign_in, (fr_in _ _ (incs_frame _ _)). reflexivity. }
      rewrite E0 in K. apply (f_equal (@List.length nat)) in K. rewrite app_length in K. cbn in K. lia.
    + exfalso. cbn [g_step] in E. destruct (lt_dec m (length (g_nodes st))) as [Hm|Hm].
      2: { unfold move_node in E. apply Nat.ltb_nlt in Hm. rewrite Hm in E. discriminate. }
      rewrite move_node_unfold in E by exact Hm. inversion E; subst; clear E.
      rewrite (fr_len _ _ (incs_frame _ _)), (fr_len _ _ (setch_frame _ _ _)) in L. unfold mv_place in L. destruct (coord_eqb t (get_tile st m)).
      * rewrite (fr_len _ _ (mv_start_frame st m)) in L. lia.
      * rewrite (fr_len _ _ (revive_frame _ _)), assign_len, clear_len in L. destruct (mv_relabel_maps st m t) as (_ & _ & L2 & _). rewrite L2 in L. lia.
    + exfalso. cbn [g_step] in E. unfold connect in E. destruct (is_constant m); [inversion E; subst; lia|].
      destruct (Nat.ltb m (length (g_nodes st))); [|discriminate]. inversion E; subst. rewrite (fr_len _ _ (setch_frame _ _ _)) in L. lia.
    + exfalso. cbn [g_step] in E. inversion E; subst. rewrite clear_len in L. lia.
    + exfalso. cbn [g_step] in E. inversion E; subst. cbn in L. lia.
    + exfalso. cbn [g_step] in E. inversion E; subst. cbn in L. lia.
Qed.
Lemma run_pi_wire ops : forall st st', inv0 st -> (forall n, In n (g_in st) -> n < length (g_nodes st) /\ n_lit (node_at st n) = 2%Z) ->
  g_run st ops = Some st' -> forall n, In n (g_in st') -> n_lit (node_at st' n) = 2%Z.
Proof.
  induction ops as [|o r IH]; intros st st' Hi H E n Hn; cbn in E; [inversion E; subst; apply H, Hn|].
  destruct (g_step st o) as [s1|] eqn:E1; [|discriminate]. apply (IH s1 st'); [eapply inv0_step; eauto|eapply step_pi_wire; eauto|exact E|exact Hn].
Qed.
Lemma pi_wire cl ops st : reached cl ops st -> forall n, In n (g_in st) -> n_lit (node_at st n) = 2%Z.
Proof. intros R. apply (run_pi_wire ops (g_empty cl)); [apply inv0_empty|intros n []|exact R]. Qed.

(** The clocking after a history. *)
Lemma run_assigns ops : forall st st', g_run st ops = Some st' ->
  exists hist, g_cl st' = assign_all (g_cl st) hist /\ forall p, In p hist -> In (AssignClock (fst p) (snd p)) ops.
Proof.
  induction ops as [|o r IH]; intros st st' E; cbn in E.
  - inversion E; subst. exists []. split; [reflexivity|intros ? []].
  - destruct (g_step st o) as [s1|] eqn:E1; [|discriminate]. destruct (IH _ _ E) as (h & H1 & H2).
    assert (D : (exists t k, o = AssignClock t k) \/ forall t k, o <> AssignClock t k) by (destruct o; [right; discriminate..|left; eauto]).
    destruct D as [(t & k & ->)|D].
    + cbn [g_step] in E1. inversion E1; subst. exists ((t, k) :: h). split; [exact H1|]. intros p [<-|Hp]; [left; reflexivity|right; apply H2, Hp].
    + exists h. rewrite (step_cl _ _ _ E1 D) in H1. split; [exact H1|]. intros p Hp. right. apply H2, Hp.
Qed.

Section Layout.
Variables (cl : clocked) (ops : list gop) (st : glayout).
Hypothesis HI : fgl_input cl ops st.
Lemma HW : wf st.
Proof. destruct HI as [R M D P _ _ _ _]. exact (wf_reached _ _ _ R M (proj1 D) P). Qed.
Lemma HN : List.NoDup (g_in st).
Proof. destruct HI as [R M D P _ _ _ _]. exact (HexaProofs3.nodup_reached _ _ _ R M (proj1 D) P). Qed.
Let F := fg_finished _ _ _ HI.
Definition good (n : nat) : Prop := 2 <= n /\ placed st n.

Lemma good_occ n : good n -> occupied st (get_tile st n) /\ get_node st (get_tile st n) = n /\ n < length (g_nodes st).
Proof.
  intros [Hn Hp]. unfold placed in Hp. destruct (g_nt st !! n) as [t|] eqn:E; [|unfold get_tile in Hp; rewrite E in Hp; discriminate].
  assert (E0 : get_tile st n = t) by (unfold get_tile; rewrite E; reflexivity). rewrite E0 in *.
  pose proof (proj2 (i_bij _ (i_0 _ (w_1 _ HW)) t n) E) as E'. assert (G : get_node st t = n) by (unfold get_node; rewrite E'; reflexivity).
  split; [|split; [exact G|eapply (i_rng _ (i_0 _ (w_1 _ HW))); exact E']]. split; [eapply (w_in _ HW); eassumption|].
  unfold is_empty_tile. rewrite G. apply Nat.eqb_neq. lia.
Qed.
Lemma occ_good t : occupied st t -> good (get_node st t) /\ get_tile st (get_node st t) = t.
Proof.
  intros [B E]. destruct (occ_live st t (w_1 _ HW) E (proj1 B)) as (H1 & H2 & H3). split; [|exact H2]. split; [exact H1|]. unfold placed. rewrite H2. apply B.
Qed.
Lemma good_const n : good n -> is_constant n = false.
Proof. intros [H _]. apply Nat.leb_gt. lia. Qed.
Lemma flow_at n s : good n -> In s (foreach_fanin true st n) ->
  occupied st s /\ is_adjacent_elevation_of (cl_topo (g_cl st)) (cl_dim (g_cl st)) (get_tile st n) s = true /\ is_incoming_clocked (g_cl st) (get_tile st n) s = true.
Proof.
  intros G H. destruct (good_occ n G) as (O & E & _). unfold foreach_fanin in H. rewrite (good_const n G) in H.
  apply in_map_iff in H. destruct H as (c & <- & H). apply filter_In in H. destruct H as [_ H]. apply andb_true_iff in H. destruct H as [H1 H2].
  split; [|split; assumption]. pose proof (proj1 (C08_elevation _ _ _ _ (w_dim _ HW) (proj1 O)) H1) as (Bu & T & _).
  assert (Du : cd (get_tile st (get_node st c)) = false) by apply Bu.
  assert (M2 : 2 <= get_node st c).
  { unfold get_tile in Du. destruct (g_nt st !! get_node st c) as [u|] eqn:En; [|discriminate]. cbn in Du.
    eapply (i_live _ (w_1 _ HW)); [apply (i_bij _ (i_0 _ (w_1 _ HW))); exact En|exact Du]. }
  apply good_occ. split; [exact M2|exact Du].
Qed.
Lemma flow_data n : good n -> incoming_data_flow true st (get_tile st n) = foreach_fanin true st n.
Proof. intros G. unfold incoming_data_flow. rewrite (proj1 (proj2 (good_occ n G))). reflexivity. Qed.

Lemma pi_good n : In n (g_in st) -> good n /\ is_pi st n = true.
Proof.
  intros H. split; [split; [apply (w_pis _ HW), H|apply (fi_pi _ F), H]|]. unfold is_pi. apply existsb_exists. exists n. split; [exact H|apply Nat.eqb_refl].
Qed.
Lemma pi_iff n : is_pi st n = true <-> In n (g_in st).
Proof. unfold is_pi. apply seen_iff. Qed.
Lemma po_iff n : is_po st n = true <-> exists t, In t (g_out st) /\ get_node st t = n.
Proof.
  unfold is_po. rewrite existsb_exists. split; intros (t & H & E); exists t; (split; [exact H|]); [apply Nat.eqb_eq, E|apply Nat.eqb_eq; exact E].
Qed.
Lemma po_good t : In t (g_out st) -> good (get_node st t) /\ get_tile st (get_node st t) = t.
Proof. intros H. apply occ_good. apply (fi_po _ F t H). Qed.

(** *** The order *)
Lemma good_preds n m : good n -> In m (preds st n) -> good m /\ exists s, In s (foreach_fanin true st n) /\ get_node st s = m /\ get_tile st m = s.
Proof.
  intros G H. unfold preds in H. apply in_map_iff in H. destruct H as (s & <- & H). destruct (flow_at n s G H) as (O & _).
  destruct (occ_good s O) as [A B]. split; [exact A|]. exists s. auto.
Qed.
Lemma const_preds n : n <= 1 -> preds st n = [].
Proof. intros H. unfold preds, foreach_fanin, is_constant. apply Nat.leb_le in H. rewrite H. reflexivity. Qed.
Lemma pi_preds n : In n (g_in st) -> preds st n = [].
Proof.
  intros H. pose proof (fi_pi _ F n H) as (_ & K & _). rewrite flow_data in K by (apply pi_good, H). unfold preds. rewrite K. reflexivity.
Qed.
Lemma start_ordered l : (forall n, In n l -> preds st n = []) -> ordered st l.
Proof.
  induction l as [|x l IH] using rev_ind; intros H; [constructor|]. constructor; [apply IH; intros n Hn; apply H, in_app_iff; left; exact Hn|].
  intros m Hm. rewrite H in Hm by (apply in_app_iff; right; left; reflexivity). destruct Hm.
Qed.
Definition start : list nat := 0 :: 1 :: g_in st.
Lemma start_nodup : List.NoDup start.
Proof.
  unfold start. constructor; [|constructor; [|exact HN]]; cbn; intros K.
  - destruct K as [K|K]; [discriminate|]. pose proof (w_pis _ HW 0 K). lia.
  - pose proof (w_pis _ HW 1 K). lia.
Qed.
Lemma order_exists : exists new,
  topo_order st = Some (start ++ new) /\ List.NoDup (start ++ new) /\ ordered st (start ++ new) /\
  (forall n, In n new -> good n) /\
  (forall t, In t (g_out st) -> In (get_node st t) new) /\
  (outputs_last st -> List.filter (is_po st) new = map (get_node st) (g_out st)).
Proof.
  destruct (fi_acyclic _ F) as [rank Hr].
  assert (R1 : forall n m, good n -> In m (preds st n) -> rank (get_tile st m) < rank (get_tile st n)).
  { intros n m G H. destruct (good_preds n m G H) as (_ & s & Hs & E & ->). apply Hr. unfold flows. rewrite flow_data by exact G. exact Hs. }
  assert (R2 : forall n m, good n -> In m (preds st n) -> good m) by (intros n m G H; apply (good_preds n m G H)).
  assert (R3 : forall n, good n -> n < length (g_nodes st)) by (intros n G; apply (good_occ n G)).
  assert (S0 : ordered st start).
  { apply start_ordered. intros n [<-|[<-|H]]; [apply const_preds; lia|apply const_preds; lia|apply pi_preds, H]. }
  assert (GO : forall p, In p (map (get_node st) (g_out st)) -> good p).
  { intros p H. apply in_map_iff in H. destruct H as (t & <- & H). apply po_good, H. }
  destruct (outs_ok st (fun n => rank (get_tile st n)) (length (g_nodes st)) good R1 R2 R3 (map (get_node st) (g_out st)) start start_nodup S0 GO)
    as (segs & E & ND & OR & FS & NE).
  exists (concat segs).
  assert (GN : forall n, In n (concat segs) -> good n).
  { intros n Hn. apply in_concat in Hn. destruct Hn as (seg & Hs & Hn). 
    assert (K : exists p, In p (map (get_node st) (g_out st)) /\ (seg = [] \/ exists s, seg = s ++ [p] /\ forall x, In x s -> is_pred st good x)).
    { clear -FS Hs. revert FS Hs. generalize (start ++ concat segs). intros al FS. induction FS as [|p sg ps ss [_ Hp] _ IH]; intros Hs; [destruct Hs|].
      destruct Hs as [<-|Hs]; [exists p; split; [left; reflexivity|exact Hp]|]. destruct (IH Hs) as (q & Hq & K). exists q. split; [right; exact Hq|exact K]. }
    destruct K as (p & Hp & [->|(s & -> & Ps)]); [destruct Hn|]. apply in_app_iff in Hn. destruct Hn as [Hn|[<-|[]]]; [|apply GO, Hp].
    destruct (Ps n Hn) as (y & Gy & Hy). exact (R2 y n Gy Hy). }
  assert (OI : forall t, In t (g_out st) -> In (get_node st t) (concat segs)).
  { intros t Ht. assert (K : In (get_node st t) (start ++ concat segs)).
    { assert (H : In (get_node st t) (map (get_node st) (g_out st))) by (apply in_map, Ht). revert H. generalize (get_node st t). intros p Hp.
      clear -FS Hp. revert FS Hp. generalize (start ++ concat segs). intros al FS. induction FS as [|q sg ps ss [Hq _] _ IH]; intros Hp; [destruct Hp|].
      destruct Hp as [<-|Hp]; [exact Hq|apply IH, Hp]. }
    apply in_app_iff in K. destruct K as [K|K]; [exfalso|exact K]. destruct (po_good t Ht) as [[G2 _] _]. pose proof (fi_po _ F t Ht) as (_ & _ & NP & _).
    destruct K as [K|[K|K]]; [lia|lia|]. apply pi_iff in K. congruence. }
  assert (E' : topo_order st = Some (start ++ concat segs)).
  { rewrite <- E. unfold topo_order. fold start. apply fold_preds. }
  split; [exact E'|]. split; [exact ND|]. split; [exact OR|]. split; [exact GN|]. split; [exact OI|].
  intros OL.
  assert (NP : forall p, In p (map (get_node st) (g_out st)) -> ~ is_pred st good p).
  { intros p Hp (y & Gy & Hy). apply in_map_iff in Hp. destruct Hp as (t & <- & Ht). destruct (good_preds y _ Gy Hy) as (_ & s & Hs & E1 & E2).
    destruct (po_good t Ht) as [_ E3]. rewrite E3 in E2. subst s. apply (OL t (get_tile st y) Ht). unfold flows. rewrite flow_data by exact Gy. exact Hs. }
  assert (NI : forall p, In p (map (get_node st) (g_out st)) -> ~ In p start).
  { intros p Hp K. apply in_map_iff in Hp. destruct Hp as (t & <- & Ht). destruct (po_good t Ht) as [[G2 _] _]. pose proof (fi_po _ F t Ht) as (_ & _ & NP' & _).
    destruct K as [K|[K|K]]; [lia|lia|]. apply pi_iff in K. congruence. }
  assert (NDO : List.NoDup (map (get_node st) (g_out st))).
  { pose proof (fi_pos _ F) as H. clear -H HI F. assert (K : forall t, In t (g_out st) -> get_tile st (get_node st t) = t) by (intros t Ht; apply po_good, Ht).
    revert H K. induction (g_out st) as [|t r IH]; intros H K; [constructor|]. inversion H; subst. cbn. constructor.
    - intros Q. apply in_map_iff in Q. destruct Q as (u & E & Hu). assert (u = t); [|subst; contradiction].
      rewrite <- (K u (or_intror Hu)), <- (K t (or_introl eq_refl)). congruence.
    - apply IH; [assumption|]. intros u Hu. apply K. right. exact Hu. }
  specialize (NE (fun p Hp => conj (NP p Hp) (NI p Hp)) NDO).
  assert (PO : forall p, In p (map (get_node st) (g_out st)) <-> is_po st p = true).
  { intros p. rewrite po_iff, in_map_iff. split; intros (t & A & B); exists t; auto. }
  assert (Q : forall outs sgs al, (forall p, In p outs -> is_po st p = true) -> 
     Forall2 (fun p seg => In p al /\ (seg = [] \/ exists s, seg = s ++ [p] /\ forall x, In x s -> is_pred st good x)) outs sgs ->
     Forall2 (fun (_ : nat) seg => seg <> []) outs sgs -> List.filter (is_po st) (concat sgs) = outs).
  { intros outs sgs al PP H. induction H as [|p sg ps ss [_ Hp] _ IH]; intros H'; [reflexivity|]. inversion H'; subst. cbn [concat]. rewrite List.filter_app, IH; [|intros q Hq; apply PP; right; exact Hq|assumption].
    destruct Hp as [->|(s & -> & Ps)]; [contradiction|]. rewrite List.filter_app. cbn [List.filter]. rewrite (PP p (or_introl eq_refl)).
    assert (List.filter (is_po st) s = []) as ->; [|reflexivity].
    clear -Ps NP PO. induction s as [|x s IH]; [reflexivity|]. cbn [List.filter]. destruct (is_po st x) eqn:Ex.
    - exfalso. apply (NP x); [apply PO, Ex|]. apply Ps. left. reflexivity.
    - apply IH. intros y Hy. apply Ps. right. exact Hy. }
  apply (Q _ _ _ (fun p Hp => proj1 (PO p) Hp) FS NE).
Qed.
End Layout.
