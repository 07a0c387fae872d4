(** Orthogonal on arbitrary networks: the two steps together. *)
From Coq Require Import ZArith Bool String List Lia Permutation.
From stdpp Require Import gmap list strings pretty.
From Verif Require Import CoordModel CoordSpec GridModel GridSpec ClockModel ClockSpec GateModel GateSpec RouteModel RouteSpec HexaSpec OrthoModel OrthoSpec OrthoProofs OrthoProofs7 OrthoProofs11 OrthoProps
  FanoutModel FanoutSpec FanoutProofs FanoutProofs2 FanoutProofs3 FanoutProofs4 FlowModel FlowSpec FlowProofs FlowProofs2.
Import ListNotations.
Local Open Scope nat_scope.

Lemma sum_le (f g : nat -> nat) l : (forall x, In x l -> f x <= g x) -> list_sum (map f l) <= list_sum (map g l).
Proof. induction l as [|a l IH]; intros H; [apply Nat.le_refl|]. change (f a + list_sum (map f l) <= g a + list_sum (map g l)). pose proof (H a (or_introl eq_refl)). specialize (IH ltac:(intros x Hx; apply H; right; exact Hx)). lia. Qed.
Lemma lays_out_equivalent net net' ins outs st : equivalent meaning net net' -> lays_out net' ins outs st -> lays_out net ins outs st.
Proof.
  intros (E1 & E2 & E3) [L1 L2 L3 L4 L5 L6 L7 L8]. constructor; try assumption.
  - congruence.
  - intros k nm Hk. rewrite E1 in Hk. apply L2, Hk.
  - congruence.
  - intros k nm Hk. rewrite E2 in Hk. apply L4, Hk.
  - intros env k n o Hn Ho. assert (Hlt : k < length (t_pos net')) by (rewrite <- E2; eapply lookup_lt_Some, Hn). destruct (lookup_lt_is_Some_2 _ _ Hlt) as (m & Hm').
    destruct (L5 env k m o Hm' Ho) as [(b & A) B]. split; [exists b; apply (E3 env k n m b Hn Hm'), A|]. intros b'. rewrite B. symmetry. apply (E3 env k n m b' Hn Hm').
Qed.
Section design.
Context (net : tnet) (order : list nat) (P : plain net order) (Hm : manageable net order).
Lemma substituted : exists net', fanout_substitution net order default_params (fun _ => 0) = Some net' /\ sound net net' /\ equivalent meaning net net' /\
  network net' (seq (2 + length (t_pis net)) (length (t_nodes net') - (2 + length (t_pis net)))) /\ length (t_pis net') = length (t_pis net) /\
  length (t_nodes net') <= 2 + length (t_pis net) + length order + list_sum (map (used net) (t_pis net ++ order)).
Proof using All.
  pose proof (flow_small net order P Hm) as S. pose proof (Hd2) as D.
  destruct (run_ok meaning meaning_buffers net order (pl_net _ _ P) default_params (fun _ => 0) D S) as (st & own & E & I & R & Q & L).
  eexists. split; [exact E|]. split; [eapply result_sound; try eassumption; apply L; [cbn; lia|apply (pl_simple _ _ P)]|].
  destruct (run_equivalent meaning meaning_buffers net order (pl_net _ _ P) default_params (fun _ => 0) D S) as (n2 & E2 & Q2). rewrite E in E2. injection E2 as <-. split; [exact Q2|].
  destruct (run_network meaning meaning_buffers net order (pl_net _ _ P) default_params (fun _ => 0) D S _ E) as [W1 W2]. split; [exact W1|]. split; [exact W2|].
  rewrite (run_size meaning meaning_buffers net order (pl_net _ _ P) default_params (fun _ => 0) D S _ E). apply Nat.add_le_mono_l, sum_le. intros x _. rewrite <- fo_used. destruct (kk_value net order P Hm x) as [(_ & _ & ->)|[-> _]]; lia.
Qed.
Lemma view_size net' o' view : network net' o' -> topological net' view -> length view <= length (t_nodes net') - 2.
Proof.
  intros W T. assert (ND : List.NoDup view).
  { destruct T as (gates & -> & ND & G & _). apply NoDup_ListNoDup, NoDup_app. split; [apply NoDup_ListNoDup, (nw_pis_once _ _ W)|]. split; [|apply NoDup_ListNoDup, ND].
    intros x H1 H2. apply elem_of_list_In in H1, H2. apply (nw_pis _ _ W) in H1. apply G in H2 as (lit & ch & H2). congruence. }
  rewrite <- (seq_length (length (t_nodes net') - 2) 2). apply NoDup_incl_length; [exact ND|]. intros x Hx. apply in_seq.
  assert (H : t_nodes net' !! x = Some TPi \/ exists lit ch, t_nodes net' !! x = Some (TGate lit ch)). { destruct T as (gates & -> & _ & G & _). apply in_app_or in Hx as [Hx|Hx]; [left; apply (nw_pis _ _ W), Hx|right; apply G, Hx]. }
  assert (x <> 0 /\ x <> 1). { pose proof (nw_0 _ _ W) as Z0. pose proof (nw_1 _ _ W) as Z1. split; intros ->; destruct H as [H|(lit & ch & H)]; congruence. }
  assert (x < length (t_nodes net')) by (destruct H as [H|(lit & ch & H)]; eapply lookup_lt_Some, H). lia.
Qed.
Lemma design_ok view ins outs clks : (forall net', fanout_substitution net order default_params (fun _ => 0) = Some net' -> topological net' (view net')) ->
  (separate_outputs net \/ forall net', fanout_substitution net order default_params (fun _ => 0) = Some net' -> no_southern_exit (listed net' (view net') ins outs)) ->
  exists st, orthogonal_design net order view ins outs clks = Done st /\ lays_out net ins outs st /\
  (t_pos net <> [] -> (forall n, In n (t_pis net) -> used net n <> 0) ->
    rules st /\ forall fuel, Z.to_nat (volume (cl_dim (g_cl st))) <= fuel -> exists warnings, gate_level_drvs fuel st = Some (0%Z, warnings)).
Proof using All.
  intros Hv Hx. destruct substituted as (net' & E & [S1 S2 S3 S4 S5 S6 S7] & Q & W & Wp & Sz). unfold orthogonal_design. rewrite E. assert (T : topological net' (view net')) by (apply Hv, E).
  set (o' := seq (2 + length (t_pis net)) (length (t_nodes net') - (2 + length (t_pis net)))) in *.
  assert (Hg : forall n lit ch, t_nodes net' !! n = Some (TGate lit ch) -> In n o' /\ exists f, fn_of lit = Some f /\ comparison f = false /\ ((length ch = 1 /\ (f = Fbuf \/ f = Fnot)) \/ (length ch = 2 /\ f <> Fbuf /\ f <> Fnot /\ f <> Fmaj))).
  { intros n lit ch H. split; [|exact (S1 n lit ch H)]. apply in_seq. pose proof (lookup_lt_Some _ _ _ H) as Hlt. 
    assert (2 + length (t_pis net) <= n); [|lia]. destruct (Nat.lt_ge_cases n (2 + length (t_pis net))) as [Hlt2|]; [|assumption]. exfalso.
    destruct n as [|[|n]]; [rewrite (nw_0 _ _ W) in H; discriminate H|rewrite (nw_1 _ _ W) in H; discriminate H|].
    destruct (run_ok meaning meaning_buffers net order (pl_net _ _ P) default_params (fun _ => 0) Hd2 (flow_small net order P Hm)) as (st & own & E2 & _). rewrite E in E2. injection E2 as ->.
    assert (In (S (S n)) (t_pis (mkT (f_nodes st) (seq 2 (length (t_pis net))) (f_pos st)))) by (apply in_seq; lia). apply (nw_pis _ _ W) in H0. congruence. }
  assert (Hne : t_pis net' <> []) by (pose proof (pl_inputs _ _ P) as N0; intros X; rewrite X in Wp; destruct (t_pis net); [congruence|discriminate Wp]).
  pose proof (N_mapped net' o' W ins outs Hg S2 S3 S4 S5 Hne (view net') T) as M1. pose proof (N_distinct net' o' W ins outs Hg S2 S3 S4 S5 Hne (view net') T) as M2.
  pose proof (N_symmetric net' o' W ins outs Hg S2 S3 S4 S5 Hne (view net') T) as M3. 
  assert (M4 : no_southern_exit (listed net' (view net') ins outs)).
  { destruct Hx as [Hx|Hx]; [intros ec _; apply (simple_roomy _ M1), (N_simple_outputs net' o' W ins outs Hg S2 S3 S4 S5 Hne (view net') T), S7, Hx|apply Hx, E]. }
  assert (M5 : fits (listed net' (view net') ins outs)).
  { unfold fits. rewrite N_length. cbn [listed o_pos]. rewrite imap_length. destruct Q as (_ & <- & _). pose proof (view_size net' o' (view net') W T) as V. unfold manageable in Hm. lia. }
  destruct (C67_shared_outputs_partial _ clks M1 M2 M3 M4 M5) as (st & D & R). exists st. split; [exact D|].
  split; [eapply lays_out_equivalent; [exact Q|]; eapply (N_realised net' o' W ins outs Hg S2 S3 S4 S5 Hne (view net') T), R|].
  intros Hp Hu. destruct (C68_layout_is_clean_partial (listed net' (view net') ins outs) clks M1 M2 M3) as (st' & D' & C1 & C2); [exact M4|exact M5| | |].
  - intros X. apply (f_equal (@length _)) in X. cbn [listed o_pos] in X. rewrite imap_length in X. destruct Q as (_ & Q & _). rewrite <- Q in X. destruct (t_pos net); [congruence|discriminate X].
  - intros k nm H. destruct (N_pi net' o' W ins outs Hg S2 S3 S4 S5 Hne (view net') T k nm H) as (n & Hn & Hpi & _). rewrite (uses_N net' o' W ins outs Hg S2 S3 S4 S5 Hne (view net') T k n Hn). apply S6; assumption.
  - rewrite D in D'. injection D' as <-. split; [exact C1|exact C2].
Qed.
(** The order in which the nodes were created is topological. *)
Lemma creation_order net' : fanout_substitution net order default_params (fun _ => 0) = Some net' -> topological net' (seq 2 (length (t_nodes net') - 2)).
Proof using All.
  intros E. destruct (run_ok meaning meaning_buffers net order (pl_net _ _ P) default_params (fun _ => 0) Hd2 (flow_small net order P Hm)) as (st & own & E2 & I & _).
  destruct (run_network meaning meaning_buffers net order (pl_net _ _ P) default_params (fun _ => 0) Hd2 (flow_small net order P Hm) net' E) as [W Wp].
  destruct substituted as (n2 & E3 & [_ _ S3 _ _ _ _] & _). rewrite E in E3. injection E3 as <-.
  rewrite E in E2. injection E2 as ->. cbn [t_nodes t_pis t_pos] in *. rewrite seq_length in *. set (p := length (t_pis net)) in *.
  assert (Hin : forall n, 2 <= n < 2 + p -> f_nodes st !! n = Some TPi) by (intros n Hn; apply (nw_pis _ _ W); apply in_seq; lia).
  assert (Hlen : 2 + p <= length (f_nodes st)).
  { destruct (Nat.eq_dec p 0) as [->|N]; [pose proof (lookup_lt_Some _ _ _ (nw_1 _ _ W)); cbn in *; lia|]. pose proof (lookup_lt_Some _ _ _ (Hin (1 + p) ltac:(lia))). lia. }
  exists (seq (2 + p) (length (f_nodes st) - (2 + p))). split; [|split; [apply List.seq_NoDup|split]].
  - cbn [t_pis]. rewrite <- seq_app. f_equal. lia.
  - cbn [t_nodes]. intros n. rewrite in_seq. split.
    + intros Hn. destruct (nw_gates _ _ W n ltac:(apply in_seq; lia)) as (lit & ch & Hg & _). eauto.
    + intros (lit & ch & Hg). pose proof (lookup_lt_Some _ _ _ Hg). assert (2 + p <= n); [|lia]. destruct (Nat.lt_ge_cases n (2 + p)) as [Hlt|]; [|assumption]. exfalso. destruct n as [|[|n]]; [pose proof (nw_0 _ _ W) as Z; cbn in Z; congruence|pose proof (nw_1 _ _ W) as Z; cbn in Z; congruence|]. rewrite (Hin (S (S n)) ltac:(lia)) in Hg. discriminate Hg.
  - intros i n c Hi Hc C. apply lookup_seq in Hi as [-> Hi]. assert (Hc2 : c < 2 + i). { pose proof (b_scoped _ _ _ _ (i_base _ _ _ _ _ _ _ _ I)) as [Sc _]. unfold t_fanins in Hc. cbn [t_nodes] in Hc. destruct (f_nodes st !! (2 + i)) as [[| |lit ch]|] eqn:Eg; try destruct Hc. eapply Sc; [exact Eg|]. exact Hc. }
    pose proof (S3 _ c (or_introl Hc)) as Hge. exists (c - 2). split; [lia|]. apply lookup_seq. lia.
Qed.
End design.
