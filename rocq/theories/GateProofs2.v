(** More lemmas about gate-level layouts: data flow, crossings, reference counts. *)
From Coq Require Import ZArith Bool String List Lia ZifyBool.
From stdpp Require Import gmap list strings pretty.
From Verif Require Import CoordModel CoordSpec CoordProofs GridModel GridSpec GridProofs GridProps CoordMap ClockModel ClockSpec ClockProofs GateModel GateSpec GateProofs.
Import ListNotations.
Local Open Scope Z_scope.

(** ** Data flow (C21) *)
Lemma node_of_tile st n u : inv0 st -> placed st n -> (2 <= n)%nat -> (get_node st u = n <-> u = get_tile st n).
Proof.
  intros Hi Hp Hn. destruct (placed_some st n Hi Hp) as [_ Ht]. unfold get_node. split.
  - destruct (g_tn st !! u) as [k|] eqn:E; simpl; [|lia]. intros ->. apply (i_bij _ Hi) in E, Ht. congruence.
  - intros ->. rewrite Ht. reflexivity.
Qed.
Lemma is_child_In st n s : is_child st n s = true <-> In s (n_children (node_at st n)).
Proof.
  unfold is_child. rewrite existsb_exists. split.
  - intros (x & Hin & E). apply coord_eqb_spec in E. subst. exact Hin.
  - intros H. exists s. split; [exact H|apply coord_eqb_refl].
Qed.
Lemma fanin_In rc st n m : inv0 st -> placed st m -> (2 <= n)%nat -> (2 <= m)%nat ->
  In (get_tile st m) (foreach_fanin rc st n) <->
  In (get_tile st m) (n_children (node_at st n)) /\
  is_adjacent_elevation_of (cl_topo (g_cl st)) (cl_dim (g_cl st)) (get_tile st n) (get_tile st m) = true /\
  (if rc then is_incoming_clocked (g_cl st) (get_tile st n) (get_tile st m) else true) = true.
Proof.
  intros Hi Hpm Hn Hm. unfold foreach_fanin.
  destruct (is_constant n) eqn:Ec; [unfold is_constant in Ec; apply Nat.leb_le in Ec; lia|]. cbv zeta.
  rewrite in_map_iff. split.
  - intros (c & Hc & Hin). apply filter_In in Hin as [Hin Hcond].
    assert (Hk : get_node st c = m).
    { unfold get_tile at 1 in Hc. destruct (g_nt st !! get_node st c) as [u|] eqn:E; simpl in Hc.
      - destruct (placed_some st m Hi Hpm) as [_ T]. apply (i_bij _ Hi) in E. congruence.
      - unfold placed in Hpm. rewrite <- Hc in Hpm. discriminate. }
    apply (node_of_tile st m c Hi Hpm Hm) in Hk. subst c. rewrite Hc in Hcond. apply andb_prop in Hcond as [H1 H2].
    auto.
  - intros (Hin & H1 & H2). exists (get_tile st m).
    assert (get_node st (get_tile st m) = m) as E by (apply (node_of_tile st m _ Hi Hpm Hm); reflexivity).
    rewrite E. split; [reflexivity|]. apply filter_In. split; [exact Hin|]. rewrite E, H1, H2. reflexivity.
Qed.
Lemma fanout_In rc st n m : inv0 st -> placed st n -> (2 <= n)%nat -> (2 <= m)%nat ->
  In n (foreach_fanout rc st m) <->
  In (get_tile st m) (n_children (node_at st n)) /\
  exists u, In u (if rc then outgoing_clocked_zones (g_cl st) (get_tile st m)
                  else adjacent (cl_topo (g_cl st)) (cl_dim (g_cl st)) (get_tile st m)) /\
    (u = get_tile st n \/
     (above (cl_dim (g_cl st)) u <> u /\ above (cl_dim (g_cl st)) u = get_tile st n) \/
     (below (cl_dim (g_cl st)) u <> u /\ below (cl_dim (g_cl st)) u = get_tile st n)).
Proof.
  intros Hi Hpn Hn Hm. unfold foreach_fanout.
  destruct (is_constant m) eqn:Ec; [unfold is_constant in Ec; apply Nat.leb_le in Ec; lia|]. cbv zeta.
  rewrite in_flat_map.
  assert (Happ : forall u, In n (if is_child st (get_node st u) (get_tile st m) then [get_node st u] else []) <->
             In (get_tile st m) (n_children (node_at st n)) /\ u = get_tile st n).
  { intros u. destruct (is_child st (get_node st u) (get_tile st m)) eqn:E.
    - apply is_child_In in E. simpl. split.
      + intros [H|[]]. split; [rewrite <- H; exact E|]. apply (node_of_tile st n u Hi Hpn Hn), H.
      + intros [_ H]. left. apply (node_of_tile st n u Hi Hpn Hn), H.
    - simpl. split; [tauto|]. intros [H ->]. apply is_child_In in H.
      rewrite (proj2 (node_of_tile st n _ Hi Hpn Hn) eq_refl) in E. congruence. }
  unfold fanout_at. cbv zeta. split.
  - intros (u & Hu & Hin). rewrite !in_app_iff in Hin. destruct Hin as [Hin|[Hin|Hin]].
    + apply Happ in Hin as [H ->]. split; [exact H|]. exists (get_tile st n). auto.
    + destruct (coord_eqb (above (cl_dim (g_cl st)) u) u) eqn:E; [destruct Hin|].
      apply Happ in Hin as [H E']. split; [exact H|]. exists u. split; [exact Hu|]. right; left.
      split; [apply coord_eqb_false, E|exact E'].
    + destruct (coord_eqb (below (cl_dim (g_cl st)) u) u) eqn:E; [destruct Hin|].
      apply Happ in Hin as [H E']. split; [exact H|]. exists u. split; [exact Hu|]. right; right.
      split; [apply coord_eqb_false, E|exact E'].
  - intros (H & u & Hu & Hc). exists u. split; [exact Hu|]. rewrite !in_app_iff. destruct Hc as [->|[[N E]|[N E]]].
    + left. apply Happ. auto.
    + right; left. apply coord_eqb_false in N. rewrite N. apply Happ. auto.
    + right; right. apply coord_eqb_false in N. rewrite N. apply Happ. auto.
Qed.
Lemma elevation_out t ar a b : dim_ok ar -> inb ar a -> inb ar b ->
  is_adjacent_elevation_of t ar a b = true <->
  In (live (cx a) (cy a) (cz b)) (adjacent t ar b).
Proof.
  intros Hd Ha Hb. rewrite C08_elevation by assumption. rewrite adjacent_spec by assumption.
  rewrite (touch_sym t b). destruct Hd as (_ & _ & Hz), Ha as (Da & Xa & Ya & Za), Hb as (Db & Xb & Yb & Zb).
  unfold inb. cbn [live cd cx cy cz]. split; [intros (_ & H & _)|intros (_ & H)]; repeat split; auto; lia.
Qed.
Lemma levels ar u a : dim_ok ar -> inb ar u -> inb ar a ->
  (u = a \/ (above ar u <> u /\ above ar u = a) \/ (below ar u <> u /\ below ar u = a)) <->
  u = live (cx a) (cy a) (cz u).
Proof.
  intros (_ & _ & Hz) (Du & Xu & Yu & Zu) (Da & Xa & Ya & Za).
  destruct u as [du xu yu zu], a as [da xa ya za]. cbn [cd cx cy cz] in *. subst. unfold above, below, live. cbn [cd cx cy cz].
  destruct (cz ar <? zu) eqn:E1; [lia|]. destruct (zu <? cz ar) eqn:E2, (zu =? 0) eqn:E3.
  - split.
    + intros [H|[[_ H]|[H _]]]; [inversion H; reflexivity|inversion H; reflexivity|exfalso; apply H; reflexivity].
    + intros H. inversion H; subst. destruct (Z.eq_dec za zu) as [->|]; [left; reflexivity|]. right; left.
      split; [intros K; inversion K; lia|]. f_equal. lia.
  - exfalso; lia.
  - split.
    + intros [H|[[H _]|[H _]]]; try (exfalso; apply H; reflexivity). inversion H; subst; reflexivity.
    + intros H. inversion H; subst. left. f_equal. lia.
  - split.
    + intros [H|[[H _]|[_ H]]]; try (exfalso; apply H; reflexivity); inversion H; subst; reflexivity.
    + intros H. inversion H; subst. destruct (Z.eq_dec za zu) as [->|]; [left; reflexivity|]. right; right.
      split; [intros K; inversion K; lia|]. f_equal. lia.
Qed.
Lemma inb_live_eta ar c : inb ar c -> c = live (cx c) (cy c) (cz c).
Proof. intros (H & _). destruct c; cbn in *. subst. reflexivity. Qed.

Lemma duality rc st n m : inv0 st -> dim_ok (cl_dim (g_cl st)) -> (rc = true -> layer_uniform (g_cl st)) ->
  1 <= num_clocks (g_cl st) <= 255 ->
  (2 <= n)%nat -> (2 <= m)%nat -> inb (cl_dim (g_cl st)) (get_tile st n) -> inb (cl_dim (g_cl st)) (get_tile st m) ->
  In (get_tile st m) (foreach_fanin rc st n) <-> In n (foreach_fanout rc st m).
Proof.
  intros Hi Hd Hu Hk Hn Hm In_ Im.
  assert (Hpn : placed st n) by apply In_. assert (Hpm : placed st m) by apply Im.
  rewrite fanin_In, fanout_In by assumption. set (a := get_tile st n) in *. set (b := get_tile st m) in *.
  set (l := g_cl st) in *.
  assert (Heq : forall P : coord -> Prop,
    (exists u, (In u (adjacent (cl_topo l) (cl_dim l) b) /\ P u) /\
       (u = a \/ (above (cl_dim l) u <> u /\ above (cl_dim l) u = a) \/ (below (cl_dim l) u <> u /\ below (cl_dim l) u = a))) <->
    is_adjacent_elevation_of (cl_topo l) (cl_dim l) a b = true /\ P (live (cx a) (cy a) (cz b))).
  { intros P. rewrite elevation_out by assumption. split.
    - intros (u & (Hu1 & HP) & Hl). pose proof Hu1 as Hu2. apply adjacent_spec in Hu2 as [Hub Ht]; [|assumption..].
      apply levels in Hl; [|assumption..]. apply touch_z in Ht. rewrite Ht. rewrite <- Hl. auto.
    - intros (H1 & HP). exists (live (cx a) (cy a) (cz b)). split; [auto|].
      apply levels; [assumption| |assumption|reflexivity]. apply adjacent_spec in H1 as [H1 _]; assumption. }
  destruct rc.
  - specialize (Hu eq_refl). specialize (Heq (fun u => is_outgoing_clocked l b u = true)).
    assert (Hz : (exists u, In u (outgoing_clocked_zones l b) /\
       (u = a \/ (above (cl_dim l) u <> u /\ above (cl_dim l) u = a) \/ (below (cl_dim l) u <> u /\ below (cl_dim l) u = a))) <->
       is_adjacent_elevation_of (cl_topo l) (cl_dim l) a b = true /\ is_outgoing_clocked l b (live (cx a) (cy a) (cz b)) = true).
    { rewrite <- Heq. unfold outgoing_clocked_zones. setoid_rewrite filter_In. reflexivity. }
    rewrite Hz. rewrite in_out. rewrite !out_clocked_iff by assumption.
    pose proof (Hu (cx a) (cy a) (cz a) (cz b)) as Hlu. rewrite <- (inb_live_eta _ _ In_) in Hlu. rewrite <- Hlu.
    split.
    + intros (H1 & H2 & H3 & H4). split; [exact H1|]. split; [exact H2|]. split; [|exact H4].
      intros E. apply elevation_out in H2; [|assumption..]. apply adjacent_spec in H2 as [_ H2]; [|assumption..].
      rewrite <- E in H2. exact (touch_irrefl _ _ H2).
    + intros (H1 & H2 & H3 & H4). split; [exact H1|]. split; [exact H2|]. split; [|exact H4].
      intros E. apply H3. rewrite <- E. apply (inb_live_eta _ _ Im).
  - specialize (Heq (fun _ => True)). split.
    + intros (H1 & H2 & _). split; [exact H1|]. apply proj2 in Heq. destruct (Heq (conj H2 I)) as (u & (K1 & _) & K2). eauto.
    + intros (H1 & u & K1 & K2). split; [exact H1|]. split; [|reflexivity]. apply Heq. exists u. auto.
Qed.

(** Constant nodes never get fan-ins, so every reported fan-out is a real node. *)
Definition const_clean (st : glayout) : Prop := forall n, (n <= 1)%nat -> n_children (node_at st n) = [].
Lemma clean_step st o st' : inv0 st -> const_clean st -> moves_no_constant [o] -> g_step st o = Some st' -> const_clean st'.
Proof.
  intros Hi Hc Hm Hs k Hk. pose proof (i_two _ Hi) as H2.
  destruct o as [nm t|s nm t|ch lit t|n t ch|s n|t|n nm|t kk]; cbn [g_step] in Hs.
  - inversion Hs; subst; clear Hs. unfold create_pi. cbv zeta. rewrite assign_children.
    change (n_children (node_at (push_node st [] 2) k) = []). rewrite node_at_push_old by lia. apply Hc, Hk.
  - inversion Hs; subst; clear Hs. unfold create_po. cbv zeta. rewrite setch_children.
    + destruct (Nat.eqb_spec k (length (g_nodes st))); [lia|]. unfold inc_ref. rewrite children_alter by reflexivity.
      rewrite assign_children. change (n_children (node_at (push_node st [] 2) k) = []). rewrite node_at_push_old by lia. apply Hc, Hk.
    + rewrite (fr_len _ _ (inc_frame _ _)), assign_len. cbn [set_name with_names with_out push_node with_nodes g_nodes].
      rewrite app_length. simpl. lia.
  - inversion Hs; subst; clear Hs. unfold create_lit. cbv zeta. rewrite assign_children, incs_children, node_at_push_old by lia. apply Hc, Hk.
  - destruct (lt_dec n (length (g_nodes st))) as [Hn|Hn].
    2: { unfold move_node in Hs. apply Nat.ltb_nlt in Hn. rewrite Hn in Hs. discriminate. }
    rewrite move_node_unfold in Hs by exact Hn. inversion Hs; subst; clear Hs. inversion Hm as [|? ? Hm1 _]; subst.
    rewrite incs_children.
    assert (Hl : length (g_nodes (mv_start st n)) = length (g_nodes st)) by apply (mv_start_frame st n).
    destruct (mv_relabel_maps st n t) as (E1 & E2 & E3 & E4 & E5 & E6 & E7 & E8 & E9 & E10 & E11).
    assert (Hst : n_children (node_at (mv_start st n) k) = []).
    { unfold mv_start. rewrite setch_children by (rewrite (fr_len _ _ (decs_frame _ _)); exact Hn).
      destruct (Nat.eqb_spec k n); [lia|]. rewrite decs_children. apply Hc, Hk. }
    rewrite setch_children.
    + destruct (Nat.eqb_spec k n); [lia|]. unfold mv_place. destruct (coord_eqb t (get_tile st n)); [exact Hst|].
      rewrite revive_children, assign_children, clear_children. unfold node_at in *. rewrite E11. exact Hst.
    + unfold mv_place. destruct (coord_eqb t (get_tile st n)); [lia|].
      rewrite (fr_len _ _ (revive_frame _ _)), assign_len, clear_len, E3. exact Hn.
  - unfold connect in Hs. destruct (is_constant n) eqn:Ec; [inversion Hs; subst; apply Hc, Hk|].
    destruct (Nat.ltb n (length (g_nodes st))) eqn:El; [|discriminate]. inversion Hs; subst; clear Hs.
    apply Nat.ltb_lt in El. rewrite setch_children by exact El. unfold is_constant in Ec. apply Nat.leb_gt in Ec.
    destruct (Nat.eqb_spec k n); [lia|]. apply Hc, Hk.
  - inversion Hs; subst. rewrite clear_children. apply Hc, Hk.
  - inversion Hs; subst. apply Hc, Hk.
  - inversion Hs; subst. apply Hc, Hk.
Qed.
Lemma clean_run ops : forall st st', inv1 st -> const_clean st -> moves_no_constant ops -> g_run st ops = Some st' -> const_clean st'.
Proof.
  induction ops as [|o r IH]; intros st st' Hi Hc Hm; simpl.
  - intros [= <-]. exact Hc.
  - inversion Hm as [|? ? Ho Hr]; subst.
    assert (Hm1 : moves_no_constant [o]) by (constructor; [exact Ho|constructor]).
    destruct (g_step st o) as [s1|] eqn:E; [|discriminate]. apply IH; auto.
    + eapply inv1_step; eauto.
    + eapply clean_step; eauto. apply Hi.
Qed.
Lemma fanout_real rc st m k : inv1 st -> const_clean st -> In k (foreach_fanout rc st m) ->
  (2 <= k)%nat /\ get_node st (get_tile st k) = k /\ In (get_tile st m) (n_children (node_at st k)).
Proof.
  intros Hi Hc. unfold foreach_fanout. destruct (is_constant m); [intros []|]. cbv zeta. rewrite in_flat_map.
  intros (u & _ & Hin).
  assert (Happ : forall u, In k (if is_child st (get_node st u) (get_tile st m) then [get_node st u] else []) ->
     (2 <= k)%nat /\ get_node st (get_tile st k) = k /\ In (get_tile st m) (n_children (node_at st k))).
  { intros v. destruct (is_child st (get_node st v) (get_tile st m)) eqn:E; [|intros []].
    apply is_child_In in E. intros [H|[]]. rewrite H in E. split; [|split; [|exact E]].
    - destruct (le_lt_dec 2 k); [assumption|]. rewrite Hc in E by lia. destruct E.
    - assert (Hk : (2 <= k)%nat). { destruct (le_lt_dec 2 k); [assumption|]. rewrite Hc in E by lia. destruct E. }
      unfold get_node in H. destruct (g_tn st !! v) as [j|] eqn:Ev; simpl in H; [|lia]. subst j.
      pose proof Ev as Ev'. apply (i_bij _ (i_0 _ Hi)) in Ev'. unfold get_tile. rewrite Ev'. simpl.
      unfold get_node. rewrite Ev. reflexivity. }
  unfold fanout_at in Hin. cbv zeta in Hin. rewrite !in_app_iff in Hin. destruct Hin as [Hin|[Hin|Hin]].
  - eapply Happ, Hin.
  - destruct (coord_eqb _ _) in Hin; [destruct Hin|]. eapply Happ, Hin.
  - destruct (coord_eqb _ _) in Hin; [destruct Hin|]. eapply Happ, Hin.
Qed.
