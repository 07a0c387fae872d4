(** Proofs about design rule checks. *)
From Coq Require Import ZArith Bool List Lia ZifyBool.
From stdpp Require Import gmap list.
From Verif Require Import CoordModel CoordSpec CoordProofs GridModel GridSpec GridProofs GridProps CoordMap ClockModel ClockProofs
  GateModel GateSpec GateProofs GateProofs2 GateProofs3 PathSpec RouteModel RouteSpec.
Import ListNotations.
Local Open Scope Z_scope.

(** What every layout built inside its dimensions satisfies. *)
Record wf (st : glayout) : Prop := mkWf {
  w_1 :> inv1 st;
  w_clean : const_clean st;
  w_dim : dim_ok (cl_dim (g_cl st));
  w_in : forall t n, g_tn st !! t = Some n -> cd t = false -> inb (cl_dim (g_cl st)) t;
  w_lit0 : n_lit (node_at st 0) = 0;
  w_dead : forall t k, g_tn st !! t = Some k -> cd t = true -> (t = const0 /\ k = 0%nat) \/ (t = const1 /\ k = 1%nat);
  w_pis : forall n, In n (g_in st) -> (2 <= n < length (g_nodes st))%nat }.

Lemma step_in st o st' : g_step st o = Some st' ->
  g_in st' = g_in st \/ (g_in st' = g_in st ++ [length (g_nodes st)] /\ length (g_nodes st') = S (length (g_nodes st))).
Proof.
  intros E. destruct o as [nm t|s nm t|ch lit t|m t ch|s m|t|m nm|t kk]; cbn [g_step] in E.
  - inversion E; subst; clear E. unfold create_pi. cbv zeta. rewrite assign_len, assign_in. right.
    cbn [set_name with_names with_in push_node with_nodes g_nodes g_in]. rewrite app_length. split; [reflexivity|simpl; lia].
  - inversion E; subst; clear E. unfold create_po. cbv zeta.
    rewrite (fr_in _ _ (setch_frame _ _ _)), (fr_in _ _ (inc_frame _ _)), assign_in. left. reflexivity.
  - inversion E; subst; clear E. unfold create_lit. cbv zeta. rewrite assign_in, (fr_in _ _ (incs_frame _ _)). left. reflexivity.
  - destruct (lt_dec m (length (g_nodes st))) as [Hm|Hm].
    2: { unfold move_node in E. apply Nat.ltb_nlt in Hm. rewrite Hm in E. discriminate. }
    rewrite move_node_unfold in E by exact Hm. inversion E; subst; clear E.
    rewrite (fr_in _ _ (incs_frame _ _)), (fr_in _ _ (setch_frame _ _ _)).
    unfold mv_place. destruct (coord_eqb t (get_tile st m)).
    + rewrite (fr_in _ _ (mv_start_frame st m)). auto.
    + rewrite (fr_in _ _ (revive_frame _ _)), assign_in, clear_in. left. unfold mv_relabel.
      destruct (cd t); cbn; apply (fr_in _ _ (mv_start_frame st m)).
  - unfold connect in E. destruct (is_constant m); [inversion E; subst; auto|].
    destruct (Nat.ltb m (length (g_nodes st))); [|discriminate]. inversion E; subst. auto.
  - inversion E; subst. rewrite clear_in. auto.
  - inversion E; subst. auto.
  - inversion E; subst. auto.
Qed.

Lemma step_lit st o st' n : g_step st o = Some st' -> (n < length (g_nodes st))%nat ->
  (length (g_nodes st) <= length (g_nodes st'))%nat /\ n_lit (node_at st' n) = n_lit (node_at st n).
Proof.
  intros E Hn. destruct o as [nm t|s nm t|ch lit t|m t ch|s m|t|m nm|t kk]; cbn [g_step] in E.
  - inversion E; subst; clear E. unfold create_pi. cbv zeta. rewrite assign_len, assign_lit.
    cbn [set_name with_names with_in push_node with_nodes g_nodes]. rewrite app_length. split; [lia|].
    change (n_lit (node_at (push_node st [] 2) n) = n_lit (node_at st n)). rewrite node_at_push_old by exact Hn. reflexivity.
  - inversion E; subst; clear E. unfold create_po. cbv zeta.
    rewrite (fr_len _ _ (setch_frame _ _ _)), (fr_len _ _ (inc_frame _ _)), assign_len.
    rewrite (fr_lit _ _ (setch_frame _ _ _)), (fr_lit _ _ (inc_frame _ _)), assign_lit.
    cbn [set_name with_names with_out push_node with_nodes g_nodes]. rewrite app_length. split; [lia|].
    change (n_lit (node_at (push_node st [] 2) n) = n_lit (node_at st n)). rewrite node_at_push_old by exact Hn. reflexivity.
  - inversion E; subst; clear E. unfold create_lit. cbv zeta. rewrite assign_len, assign_lit.
    rewrite (fr_len _ _ (incs_frame _ _)), (fr_lit _ _ (incs_frame _ _)), node_at_push_old by exact Hn.
    cbn [push_node with_nodes g_nodes]. rewrite app_length. split; [lia|reflexivity].
  - destruct (lt_dec m (length (g_nodes st))) as [Hm|Hm].
    2: { unfold move_node in E. apply Nat.ltb_nlt in Hm. rewrite Hm in E. discriminate. }
    rewrite move_node_unfold in E by exact Hm. inversion E; subst; clear E.
    rewrite (fr_len _ _ (incs_frame _ _)), (fr_lit _ _ (incs_frame _ _)), (fr_len _ _ (setch_frame _ _ _)), (fr_lit _ _ (setch_frame _ _ _)).
    unfold mv_place. destruct (coord_eqb t (get_tile st m)).
    + rewrite (fr_len _ _ (mv_start_frame st m)), (fr_lit _ _ (mv_start_frame st m)). auto.
    + rewrite (fr_len _ _ (revive_frame _ _)), (fr_lit _ _ (revive_frame _ _)), assign_len, assign_lit, clear_len, clear_lit.
      destruct (mv_relabel_maps st m t) as (_ & _ & E3 & _ & _ & _ & _ & _ & _ & _ & E11). rewrite E3. split; [lia|].
      unfold node_at at 1. rewrite E11. apply (fr_lit _ _ (mv_start_frame st m)).
  - unfold connect in E. destruct (is_constant m); [inversion E; subst; auto|].
    destruct (Nat.ltb m (length (g_nodes st))); [|discriminate]. inversion E; subst.
    rewrite (fr_len _ _ (setch_frame _ _ _)), (fr_lit _ _ (setch_frame _ _ _)). auto.
  - inversion E; subst. rewrite clear_len, clear_lit. auto.
  - inversion E; subst. auto.
  - inversion E; subst. auto.
Qed.

Lemma assign_tn_dead st t n u k : g_tn (assign_node st t n) !! u = Some k -> cd u = true -> g_tn st !! u = Some k.
Proof.
  rewrite assign_tn. destruct (cd t) eqn:E; [auto|]. intros H Hu. rewrite lookup_insert_ne in H; [exact H|]. intros ->. congruence.
Qed.
Lemma step_tn_dead st o st' u k : g_step st o = Some st' -> g_tn st' !! u = Some k -> cd u = true -> g_tn st !! u = Some k.
Proof.
  intros Hs Hu Hd. destruct o as [nm t|s nm t|ch lit t|n t ch|s n|t|n nm|t kk]; cbn [g_step] in *.
  - inversion Hs; subst; clear Hs. apply assign_tn_dead in Hu; auto.
  - inversion Hs; subst; clear Hs. unfold create_po in Hu. cbv zeta in Hu.
    rewrite (fr_tn _ _ (setch_frame _ _ _)), (fr_tn _ _ (inc_frame _ _)) in Hu.
    apply assign_tn_dead in Hu; auto.
  - inversion Hs; subst; clear Hs. unfold create_lit in Hu. cbv zeta in Hu.
    apply assign_tn_dead in Hu; auto. rewrite (fr_tn _ _ (incs_frame _ _)) in Hu. auto.
  - destruct (lt_dec n (length (g_nodes st))) as [Hn|Hn].
    2: { unfold move_node in Hs. apply Nat.ltb_nlt in Hn. rewrite Hn in Hs. discriminate. }
    rewrite move_node_unfold in Hs by exact Hn. inversion Hs; subst; clear Hs.
    rewrite (fr_tn _ _ (incs_frame _ _)), (fr_tn _ _ (setch_frame _ _ _)) in Hu. revert Hu. unfold mv_place.
    destruct (coord_eqb t (get_tile st n)).
    + rewrite (fr_tn _ _ (mv_start_frame st n)). auto.
    + rewrite (fr_tn _ _ (revive_frame _ _)). intros Hu. apply assign_tn_dead in Hu; auto.
      rewrite clear_tn in Hu. apply lookup_delete_Some in Hu as [_ Hu].
      destruct (mv_relabel_maps st n t) as (E1 & _). rewrite E1 in Hu. auto.
  - unfold connect in Hs. destruct (is_constant n); [inversion Hs; subst; auto|].
    destruct (Nat.ltb n (length (g_nodes st))); [|discriminate]. inversion Hs; subst; auto.
  - inversion Hs; subst. rewrite clear_tn in Hu. apply lookup_delete_Some in Hu as [_ Hu]. auto.
  - inversion Hs; subst. auto.
  - inversion Hs; subst. auto.
Qed.

Lemma wf_step st o st' : wf st -> moves_no_constant [o] -> places_inside (cl_dim (g_cl st)) [o] -> g_step st o = Some st' -> wf st'.
Proof.
  intros [H1 Hc Hd Hin Hl Hz Hpi] Hm Hp E. destruct (step_dim _ _ _ E) as [Ed _]. constructor.
  - eapply inv1_step; eauto.
  - eapply clean_step; eauto. apply H1.
  - rewrite Ed. exact Hd.
  - rewrite Ed. intros u k Hu Du. destruct (step_tn _ _ _ _ _ E Hu Du) as [HH|HH]; [eapply Hin; eauto|].
    inversion Hp as [|? ? Hp1 _]; subst.
    destruct o; cbn in HH, Hp1; try discriminate HH; inversion HH; subst; auto.
  - rewrite <- Hl. eapply step_lit; [exact E|]. pose proof (i_two _ H1). lia.
  - intros t k Hk Dt. apply Hz; [|exact Dt]. eapply step_tn_dead; eauto.
  - pose proof (i_two _ H1) as H2. destruct (step_lit _ _ _ 0 E ltac:(lia)) as [Hle _].
    intros n Hn. destruct (step_in _ _ _ E) as [Ei|[Ei El]]; rewrite Ei in Hn.
    + specialize (Hpi n Hn). lia.
    + apply in_app_iff in Hn as [Hn|[<-|[]]]; [specialize (Hpi n Hn)|]; lia.
Qed.
Lemma wf_run ops : forall st st', wf st -> moves_no_constant ops -> places_inside (cl_dim (g_cl st)) ops -> g_run st ops = Some st' -> wf st'.
Proof.
  induction ops as [|o r IH]; intros st st' Hw Hm Hp Hr; cbn in Hr; [inversion Hr; subst; exact Hw|].
  destruct (g_step st o) as [s1|] eqn:E; [|discriminate].
  inversion Hm as [|? ? M1 M2]; subst. inversion Hp as [|? ? P1 P2]; subst.
  assert (W1 : wf s1). { eapply wf_step; [exact Hw| | |exact E]; constructor; auto. }
  eapply IH; [exact W1|exact M2| |exact Hr]. rewrite (proj1 (step_dim _ _ _ E)). exact P2.
Qed.
Lemma wf_reached cl ops st : reached cl ops st -> moves_no_constant ops -> dim_ok (cl_dim cl) -> places_inside (cl_dim cl) ops -> wf st.
Proof.
  intros Hr Hm Hd Hp. eapply wf_run; [|exact Hm| |exact Hr]; [|exact Hp]. constructor.
  - apply inv1_empty.
  - intros [|[|n]] Hn; try lia; reflexivity.
  - exact Hd.
  - intros t n Ht Dt. exfalso. cbn in Ht. destruct (decide (t = const0)) as [->|N0]; [discriminate Dt|].
    rewrite lookup_insert_ne in Ht by congruence. destruct (decide (t = const1)) as [->|N1]; [discriminate Dt|].
    rewrite lookup_insert_ne in Ht by congruence. rewrite lookup_empty in Ht. discriminate.
  - reflexivity.
  - intros t k Hk Dt. cbn in Hk. destruct (decide (t = const0)) as [->|N0]; [rewrite lookup_insert in Hk; left; split; congruence|].
    rewrite lookup_insert_ne in Hk by congruence. destruct (decide (t = const1)) as [->|N1]; [rewrite lookup_insert in Hk; right; split; congruence|].
    rewrite lookup_insert_ne in Hk by congruence. rewrite lookup_empty in Hk. discriminate.
  - intros n [].
Qed.

(** Occupied tiles and placed nodes. *)
Lemma occ_some st t : inv1 st -> is_empty_tile st t = false -> g_tn st !! t = Some (get_node st t) /\ (1 <= get_node st t)%nat.
Proof.
  intros Hi He. unfold is_empty_tile in He. apply Nat.eqb_neq in He. unfold get_node in *.
  destruct (g_tn st !! t) as [k|]; simpl in *; [split; [reflexivity|lia]|congruence].
Qed.
Lemma occ_live st t : inv1 st -> is_empty_tile st t = false -> cd t = false ->
  (2 <= get_node st t)%nat /\ get_tile st (get_node st t) = t /\ (get_node st t < length (g_nodes st))%nat.
Proof.
  intros Hi He Hd. destruct (occ_some st t Hi He) as [E _]. split; [|split].
  - eapply i_live; eauto.
  - pose proof (proj1 (i_bij _ (i_0 _ Hi) _ _) E) as E'. unfold get_tile. rewrite E'. reflexivity.
  - eapply i_rng; eauto. apply Hi.
Qed.
Lemma tile_live st n : inv1 st -> (2 <= n)%nat -> cd (get_tile st n) = false ->
  is_empty_tile st (get_tile st n) = false /\ get_node st (get_tile st n) = n.
Proof.
  intros Hi Hn Hd. destruct (placed_some st n (i_0 _ Hi) Hd) as [_ E].
  assert (get_node st (get_tile st n) = n) as Hg. { unfold get_node. rewrite E. reflexivity. }
  split; [|exact Hg]. unfold is_empty_tile. rewrite Hg. apply Nat.eqb_neq. lia.
Qed.
Lemma tile_crossing st n : inv1 st -> (2 <= n)%nat -> is_crossing_layer (get_tile st n) = true -> cd (get_tile st n) = false.
Proof.
  intros Hi Hn Hc. unfold get_tile in *. destruct (g_nt st !! n) as [t|] eqn:E; simpl in *; [|discriminate].
  destruct (cd t) eqn:Ed; [|reflexivity]. exfalso. apply (i_bij _ (i_0 _ Hi)) in E. pose proof (i_dead _ (i_0 _ Hi) _ _ E Ed). lia.
Qed.
Lemma node_const0 st : wf st -> get_node st const0 = 0%nat.
Proof.
  intros Hw. unfold get_node. destruct (g_tn st !! const0) as [k|] eqn:E; [|reflexivity].
  destruct (w_dead _ Hw _ _ E eq_refl) as [[_ ->]|[H _]]; [reflexivity|discriminate].
Qed.
Lemma node_one st t : wf st -> get_node st t = 1%nat -> t = const1.
Proof.
  intros Hw H. unfold get_node in H. destruct (g_tn st !! t) as [k|] eqn:E; simpl in H; [subst|discriminate].
  destruct (cd t) eqn:Ed.
  - destruct (w_dead _ Hw _ _ E Ed) as [[_ K]|[K _]]; [discriminate|exact K].
  - pose proof (i_live _ (w_1 _ Hw) _ _ E Ed). lia.
Qed.
Lemma placed_iff0 st : wf st -> is_empty_tile st (get_tile st 0) = true /\ ~ placed st 0.
Proof.
  intros Hw. unfold placed, get_tile. destruct (g_nt st !! 0%nat) as [t|] eqn:E; simpl.
  - apply (i_bij _ (i_0 _ (w_1 _ Hw))) in E. split; [unfold is_empty_tile, get_node; rewrite E; reflexivity|].
    intros K. pose proof (i_live _ (w_1 _ Hw) _ _ E K). lia.
  - split; [|discriminate]. unfold is_empty_tile. rewrite node_const0 by exact Hw. reflexivity.
Qed.
Lemma placed_iff st n : wf st -> (2 <= n)%nat -> is_empty_tile st (get_tile st n) = false <-> placed st n.
Proof.
  intros Hw Hn. pose proof (w_1 _ Hw) as Hi. split.
  - intros He. unfold placed. destruct (cd (get_tile st n)) eqn:Ed; [|reflexivity]. exfalso.
    unfold get_tile in *. destruct (g_nt st !! n) as [t|] eqn:E; simpl in *.
    + apply (i_bij _ (i_0 _ Hi)) in E. pose proof (i_dead _ (i_0 _ Hi) _ _ E Ed). lia.
    + unfold is_empty_tile in He. rewrite (node_const0 _ Hw) in He. discriminate.
  - intros Hp. apply tile_live; auto.
Qed.

Lemma connections_In st tiles : (forall c, In c tiles <-> inb (cl_dim (g_cl st)) c) ->
  forall t u, In (t, u) (connections st tiles) <-> connected st u t.
Proof.
  intros HT t u. unfold connections, connected, occupied. rewrite in_flat_map. split.
  - intros (t' & Ht' & Hin). destruct (is_empty_tile st t') eqn:E; [destruct Hin|].
    apply in_map_iff in Hin as (c & Hc & Hin). inversion Hc; subst. split; [split; [apply HT, Ht'|exact E]|]. exists c. auto.
  - intros [[Ht E] (c & Hc & ->)]. exists t. split; [apply HT, Ht|]. rewrite E. apply in_map_iff. exists c. auto.
Qed.
Lemma filter_nil {A} (p : A -> bool) l : List.filter p l = [] <-> forall x, In x l -> p x = false.
Proof.
  induction l as [|a r IH]; cbn; [split; auto; intros _ x []|]. destruct (p a) eqn:E.
  - split; [discriminate|]. intros H. rewrite (H a) in E by auto. discriminate.
  - rewrite IH. split; intros H x; [intros [->|Hx]; auto|auto].
Qed.
Lemma below_crossing ar t : dim_ok ar -> inb ar t -> is_crossing_layer t = true -> cz t = 1 /\ below ar t = live (cx t) (cy t) 0.
Proof.
  intros (_ & _ & Hz) (Hd & Hx & Hy & Hzt) Hc. unfold is_crossing_layer in Hc. assert (cz t = 1) as E by lia.
  split; [exact E|]. unfold below. rewrite E, Hd. reflexivity.
Qed.

Section Sites.
Context (st : glayout) (tiles : list coord) (Hw : wf st) (Hn : 1 <= num_clocks (g_cl st) <= 255)
  (HT : forall c, In c tiles <-> inb (cl_dim (g_cl st)) c).

Lemma site_adjacent t u : In (t, u) (non_adjacent_connections st tiles) <-> connected st u t /\ ~ next_to st u t.
Proof.
  unfold non_adjacent_connections. rewrite filter_In, (connections_In _ _ HT), negb_true_iff. cbn [fst snd].
  split; intros [Hc H]; (split; [exact Hc|]); destruct Hc as [[Ht _] _].
  - intros [Hu Hto]. assert (is_adjacent_elevation_of (cl_topo (g_cl st)) (cl_dim (g_cl st)) t u = true) as E; [|congruence].
    apply C08_elevation; auto; [apply Hw|]. split; [exact Hu|]. split; [exact Hto|].
    destruct (w_dim _ Hw) as (_ & _ & Hz), Ht as (_ & _ & _ & Hzt), Hu as (_ & _ & _ & Hzu). lia.
  - apply not_true_iff_false. intros E. apply H. apply C08_elevation in E; auto; [|apply Hw]. split; tauto.
Qed.
Lemma site_clocked t u : In (t, u) (improperly_clocked st tiles) <-> connected st u t /\ (u = t \/ ~ next_zone (g_cl st) u t).
Proof.
  unfold improperly_clocked. rewrite filter_In, (connections_In _ _ HT), negb_true_iff, in_out. cbn [fst snd].
  rewrite <- not_true_iff_false, out_clocked_iff by exact Hn. unfold next_zone.
  split; intros [Hc H]; (split; [exact Hc|]).
  - destruct (decide (u = t)) as [E|E]; [left; exact E|right]. intros K. apply H. split; assumption.
  - intros [H1 H2]. destruct H; auto.
Qed.
Lemma site_missing t : In t (missing_connections st tiles) <-> occupied st t /\
  ((outgoing_data_flow true st t = [] /\ is_po st (get_node st t) = false) \/
   (incoming_data_flow true st t = [] /\ is_pi st (get_node st t) = false)).
Proof.
  assert (E0 : forall A (l : list A), (Z.of_nat (length l) =? 0) = true <-> l = []).
  { intros A [|a r]; cbn [length]; split; intros H; try reflexivity; try discriminate; exfalso; lia. }
  unfold missing_connections, occupied, outgoing_data_flow, incoming_data_flow, is_po_tile, is_pi_tile, fanout_size, fanin_size.
  rewrite filter_In, HT, !andb_true_iff, orb_true_iff, !andb_true_iff, !negb_true_iff, !E0.
  assert (forall l, map (get_tile st) l = [] <-> l = []) as Em by (intros [|a r]; split; intros H; reflexivity || discriminate).
  rewrite Em. tauto.
Qed.
Lemma site_crossing n : In n (crossing_gates st) <->
  exists t, hosts_wire st t /\ get_node st t = n /\ is_dead st n = false /\ cz t = 1 /\ ~ hosts_wire st (live (cx t) (cy t) 0).
Proof.
  pose proof (w_1 _ Hw) as Hi.
  assert (Hb : forall t, is_wire_tile st (live (cx t) (cy t) 0) = true <-> hosts_wire st (live (cx t) (cy t) 0)).
  { intros t. unfold hosts_wire, is_wire_tile, is_empty_tile, is_wire. split; [|tauto]. intros H. split; [reflexivity|]. split; [|exact H].
    destruct (Nat.eqb_spec (get_node st (live (cx t) (cy t) 0)) 0) as [E|E]; [|reflexivity].
    rewrite E, (w_lit0 _ Hw) in H. discriminate. }
  assert (HL : (length (g_nodes st) >= 2)%nat) by (apply Hi).
  unfold crossing_gates, foreach_wire. rewrite !filter_In, in_seq, !andb_true_iff, !negb_true_iff. split.
  - intros [[Hr [Hwi Hde]] [Hc Hbe]]. exists (get_tile st n).
    assert (Hd : cd (get_tile st n) = false) by (apply tile_crossing; auto; lia).
    destruct (tile_live st n Hi ltac:(lia) Hd) as [He Hg].
    assert (Hin : inb (cl_dim (g_cl st)) (get_tile st n)) by (eapply w_in; [exact Hw|apply (occ_some st _ Hi He)|exact Hd]).
    destruct (below_crossing _ _ (w_dim _ Hw) Hin Hc) as [Ez Eb]. rewrite Eb in Hbe.
    split; [|split; [exact Hg|split; [exact Hde|split; [exact Ez|]]]].
    + split; [exact Hd|]. split; [exact He|]. rewrite Hg. exact Hwi.
    + intros K. apply Hb in K. congruence.
  - intros (t & (Hd & He & Hwi) & <- & Hde & Hz & Hnw). destruct (occ_live st t Hi He Hd) as (H2 & Hg & Hr).
    assert (Hin : inb (cl_dim (g_cl st)) t) by (eapply w_in; [exact Hw|apply (occ_some st _ Hi He)|exact Hd]).
    assert (Hc : is_crossing_layer t = true) by (unfold is_crossing_layer; lia).
    destruct (below_crossing _ _ (w_dim _ Hw) Hin Hc) as [Ez Eb]. rewrite Hg, Eb.
    split; [split; [lia|split; assumption]|]. split; [exact Hc|].
    apply not_true_iff_false. intros K. apply Hnw, Hb, K.
Qed.
Lemma io_In n : In n (io_nodes st) <-> io_node st n.
Proof.
  unfold io_nodes, io_node, foreach_pi, foreach_po. rewrite in_app_iff, in_map_iff. split; intros [H|(o & H1 & H2)]; eauto.
Qed.
Lemma site_pins n : In n (io_pins st) <-> io_node st n /\ is_wire st n = false.
Proof. unfold io_pins. rewrite filter_In, io_In, negb_true_iff. tauto. Qed.
Lemma site_border n : In n (border_io st) <-> io_node st n /\
  ~ (let t := get_tile st n in let ar := cl_dim (g_cl st) in cx t = 0 \/ cx t = cx ar \/ cy t = 0 \/ cy t = cy ar).
Proof.
  unfold border_io. rewrite filter_In, io_In, negb_true_iff, <- not_true_iff_false. cbv zeta.
  unfold is_at_any_border, is_at_northern_border, is_at_eastern_border, is_at_southern_border, is_at_western_border.
  rewrite !orb_true_iff, !Z.eqb_eq. tauto.
Qed.
Lemma site_unplaced n : In n (unplaced_nodes st) <-> (2 <= n < length (g_nodes st))%nat /\ is_dead st n = false /\ ~ placed st n.
Proof.
  unfold unplaced_nodes, foreach_node, placed, is_constant. rewrite !filter_In, in_seq, andb_true_iff, !negb_true_iff, Nat.leb_gt, not_false_iff_true.
  split; intros H; repeat split; try tauto; lia.
Qed.
Lemma site_dead t : In t (placed_dead_nodes st tiles) <-> occupied st t /\ is_dead st (get_node st t) = true.
Proof. unfold placed_dead_nodes, occupied. rewrite filter_In, HT, andb_true_iff, negb_true_iff. tauto. Qed.
Lemma site_io n : ~ In const1 (g_out st) -> In n (empty_io st) <-> io_node st n /\ ~ placed st n.
Proof.
  intros H1. unfold empty_io. rewrite filter_In, io_In.
  assert (forall n, io_node st n -> is_empty_tile st (get_tile st n) = true <-> ~ placed st n) as HH; [|split; intros [A B]; (split; [exact A|]); apply HH; auto].
  intros m Hm. destruct (le_lt_dec 2 m) as [H2|H2].
  - rewrite <- placed_iff by auto. rewrite not_false_iff_true. tauto.
  - destruct m as [|[|m]]; [| |lia].
    + split; intros _; apply placed_iff0; exact Hw.
    + exfalso. destruct Hm as [Hm|(o & Ho & E)].
      * apply (w_pis _ Hw) in Hm. lia.
      * symmetry in E. apply node_one in E; auto. subst. auto.
Qed.

Lemma len0 {A} (l : list A) : length l = 0%nat <-> l = [].
Proof. destruct l; split; intros; try reflexivity; discriminate. Qed.
Lemma none_in {A} (l : list A) : l = [] <-> forall x, ~ In x l.
Proof. split; [intros -> x []|]. destruct l as [|a r]; [reflexivity|]. intros H. destruct (H a). left. reflexivity. Qed.
Lemma none_in2 {A B} (l : list (A * B)) : l = [] <-> forall x y, ~ In (x, y) l.
Proof. rewrite none_in. split; [intros H x y; apply H|intros H [x y]; apply H]. Qed.
Lemma occupied_dec t : occupied st t \/ ~ occupied st t.
Proof.
  unfold occupied. destruct (is_empty_tile st t) eqn:E; [right; intros [_ K]; discriminate|].
  destruct (in_dec (fun a b => decide (a = b)) t tiles) as [H|H]; rewrite HT in H; [left; auto|right; tauto].
Qed.
Lemma dnn b : ~ b = false <-> b = true.
Proof. destruct b; split; congruence. Qed.

Lemma drv_violations : ~ In const1 (g_out st) -> Z.of_nat (length (g_in st)) < 2 ^ 32 -> Z.of_nat (length (g_out st)) < 2 ^ 32 ->
  fst (drv_counts st tiles) = 0 <-> is_empty st = true \/ rules st.
Proof.
  intros H1 Li Lo. unfold drv_counts. destruct (is_empty st) eqn:Ee; [cbn; split; auto|]. cbn [fst].
  assert (Hio : has_io_violations st = 0 <-> g_in st <> [] /\ g_out st <> []).
  { assert (W : forall A (l : list A), Z.of_nat (length l) < 2 ^ 32 -> (w32 (Z.of_nat (length l)) =? 0) = true <-> l = []).
    { intros A l Hl. unfold w32. rewrite Z.mod_small by (split; [lia|exact Hl]). rewrite <- len0. lia. }
    unfold has_io_violations, num_pis, num_pos. pose proof (W _ _ Li) as W1. pose proof (W _ _ Lo) as W2.
    rewrite <- W1, <- W2. destruct (w32 (Z.of_nat (length (g_in st))) =? 0), (w32 (Z.of_nat (length (g_out st))) =? 0); split; intros H;
      try (exfalso; lia); try reflexivity; try (exfalso; tauto). split; discriminate. }
  assert (Hnn : 0 <= has_io_violations st) by (unfold has_io_violations; destruct (_ =? 0), (_ =? 0); lia).
  transitivity (non_adjacent_connections st tiles = [] /\ missing_connections st tiles = [] /\ crossing_gates st = [] /\
                improperly_clocked st tiles = [] /\ empty_io st = [] /\ has_io_violations st = 0).
  { rewrite <- !len0. lia. }
  rewrite Hio, (none_in2 (non_adjacent_connections _ _)), (none_in2 (improperly_clocked _ _)), (none_in (missing_connections _ _)),
    (none_in (crossing_gates _)), (none_in (empty_io _)).
  split.
  - intros (A1 & A2 & A3 & A4 & A5 & A6). right.
    assert (Hadj : forall u t, connected st u t -> next_to st u t).
    { intros u t Hc. assert (is_adjacent_elevation_of (cl_topo (g_cl st)) (cl_dim (g_cl st)) t u = true) as E.
      { apply not_false_iff_true. intros E. apply (A1 t u). unfold non_adjacent_connections.
        rewrite filter_In, (connections_In _ _ HT), negb_true_iff. split; [exact Hc|exact E]. }
      pose proof Hc as [[Ht _] _]. apply C08_elevation in E; auto; [|apply Hw]. split; tauto. }
    constructor.
    + exact Hadj.
    + intros u t Hc. specialize (A4 t u). rewrite site_clocked in A4. unfold next_zone in *.
      destruct (Z.eq_dec (get_clock_number (g_cl st) t) ((get_clock_number (g_cl st) u + 1) mod num_clocks (g_cl st))) as [E|E]; [exact E|].
      exfalso. apply A4. split; auto.
    + intros t Ht. specialize (A2 t). rewrite site_missing in A2.
      destruct (incoming_data_flow true st t) as [|a r]; [right|left; discriminate].
      apply not_false_iff_true. intros K. apply A2. split; auto.
    + intros t Ht. specialize (A2 t). rewrite site_missing in A2.
      destruct (outgoing_data_flow true st t) as [|a r]; [right|left; discriminate].
      apply not_false_iff_true. intros K. apply A2. split; auto.
    + intros t Ht Hde Hz. unfold hosts_wire at 1. split; [reflexivity|].
      specialize (A3 (get_node st t)). rewrite site_crossing in A3.
      destruct (is_empty_tile st (live (cx t) (cy t) 0)) eqn:E1, (is_wire st (get_node st (live (cx t) (cy t) 0))) eqn:E2; auto;
        exfalso; apply A3; exists t; (repeat split; try apply Ht; auto); intros (_ & K1 & K2); congruence.
    + exact A6.
    + intros n Hio'. specialize (A5 n). rewrite site_io in A5 by exact H1. unfold placed in *.
      apply not_true_iff_false. intros K. apply A5. split; [exact Hio'|congruence].
  - intros [K|[R1 R2 R3 R4 R5 R6 R7]]; [discriminate|]. repeat split; try tauto.
    + intros t u K. apply site_adjacent in K as [K1 K2]. apply K2, R1, K1.
    + intros t K. apply site_missing in K as [K1 [[K2 K3]|[K2 K3]]].
      * destruct (R4 t K1); congruence.
      * destruct (R3 t K1); congruence.
    + intros n K. apply site_crossing in K as (t & K1 & K2 & K3 & K4 & K5). apply K5, R5; auto. rewrite K2. exact K3.
    + intros t u K. apply site_clocked in K as [K1 [K2|K2]]; [|apply K2, R2, K1]. subst u.
      destruct (R1 _ _ K1) as [K3 K4]. rewrite <- (inb_live_eta _ _ K3) in K4. eapply touch_irrefl; eauto.
    + intros n K. apply site_io in K as [K1 K2]; [|exact H1]. apply K2, R7, K1.
Qed.

Lemma drv_warnings : snd (drv_counts st tiles) = 0 <-> is_empty st = true \/ practices st.
Proof.
  unfold drv_counts. destruct (is_empty st) eqn:Ee; [cbn; split; auto|]. cbn [snd].
  transitivity (unplaced_nodes st = [] /\ placed_dead_nodes st tiles = [] /\ io_pins st = [] /\ border_io st = []).
  { rewrite <- !len0. lia. }
  rewrite (none_in (unplaced_nodes _)), (none_in (placed_dead_nodes _ _)), (none_in (io_pins _)), (none_in (border_io _)). split.
  - intros (A1 & A2 & A3 & A4). right. constructor.
    + intros n Hr Hde. specialize (A1 n). rewrite site_unplaced in A1. unfold placed in *.
      apply not_true_iff_false. intros K. apply A1. split; [exact Hr|split; [exact Hde|congruence]].
    + intros t Ht. specialize (A2 t). rewrite site_dead in A2. apply not_true_iff_false. intros K. apply A2. auto.
    + intros n Hio. specialize (A3 n). rewrite site_pins in A3. apply not_false_iff_true. intros K. apply A3. auto.
    + intros n Hio. specialize (A4 n). rewrite site_border in A4. cbv zeta in *.
      destruct (Z.eq_dec (cx (get_tile st n)) 0); auto. destruct (Z.eq_dec (cx (get_tile st n)) (cx (cl_dim (g_cl st)))); auto.
      destruct (Z.eq_dec (cy (get_tile st n)) 0); auto. destruct (Z.eq_dec (cy (get_tile st n)) (cy (cl_dim (g_cl st)))); auto.
      exfalso. apply A4. split; [exact Hio|]. intros [?|[?|[?|?]]]; auto.
  - intros [K|[R1 R2 R3 R4]]; [discriminate|]. repeat split.
    + intros n K. apply site_unplaced in K as (K1 & K2 & K3). apply K3, R1; auto.
    + intros t K. apply site_dead in K as [K1 K2]. rewrite R2 in K2 by exact K1. discriminate.
    + intros n K. apply site_pins in K as [K1 K2]. rewrite R3 in K2 by exact K1. discriminate.
    + intros n K. apply site_border in K as [K1 K2]. apply K2, R4, K1.
Qed.
End Sites.
