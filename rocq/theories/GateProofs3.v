(** Lemmas about the crossing counter and the reference counts of gate-level layouts. *)
From Coq Require Import ZArith Bool String List Lia ZifyBool.
From stdpp Require Import gmap list strings pretty.
From Verif Require Import CoordModel CoordSpec CoordProofs GridModel GridSpec GridProofs CoordMap ClockModel ClockSpec ClockProofs GateModel GateSpec GateProofs.
Import ListNotations.
Local Open Scope Z_scope.

(** ** Crossings (C20) *)
Definition occ (m : gmap coord nat) (t : coord) : bool := match m !! t with Some _ => true | None => false end.
Definition crossf (w : nat -> bool) (m : gmap coord nat) (t : coord) (n : nat) : bool :=
  negb (cd t) && (cz t =? 1) && w n && occ m (live (cx t) (cy t) 0).
Definition crossings (w : nat -> bool) (m : gmap coord nat) : nat := cnt (crossf w m) m.
Definition other (t : coord) : coord := live (cx t) (cy t) (1 - cz t).
(** Tiles carry layer 0 or 1, and a gate is alone at its position. *)
Definition flat (m : gmap coord nat) : Prop := forall t n, m !! t = Some n -> cd t = false -> cz t = 0 \/ cz t = 1.
Definition alone (w : nat -> bool) (m : gmap coord nat) : Prop :=
  forall t n, m !! t = Some n -> cd t = false -> w n = false -> m !! other t = None.

Definition at_u (f : coord -> nat -> bool) (m : gmap coord nat) (u : coord) : bool :=
  match m !! u with Some k => f u k | None => false end.
Lemma cnt_flip f g m u : (forall t n, m !! t = Some n -> t <> u -> f t n = g t n) ->
  (cnt f m + Nat.b2n (at_u g m u) = cnt g m + Nat.b2n (at_u f m u))%nat.
Proof.
  intros H. unfold at_u. destruct (m !! u) as [k|] eqn:E.
  - rewrite (cnt_delete f m u k E), (cnt_delete g m u k E).
    rewrite (cnt_ext f g (delete u m)).
    + destruct (f u k), (g u k); simpl; lia.
    + intros t n Ht. apply lookup_delete_Some in Ht as [Hne Ht]. apply H; auto.
  - rewrite (cnt_ext f g m); [lia|]. intros t n Ht. apply H; [exact Ht|]. congruence.
Qed.

Lemma live_eta t : cd t = false -> live (cx t) (cy t) (cz t) = t.
Proof. destruct t; cbn. intros ->. reflexivity. Qed.
Lemma other_other t : cd t = false -> other (other t) = t.
Proof. intros H. unfold other, live. cbn [cx cy cz]. rewrite <- (live_eta t H) at 4. unfold live. f_equal. lia. Qed.
Lemma other_ne t : cz t = 0 \/ cz t = 1 -> other t <> t.
Proof. intros H E. unfold other, live in E. destruct t; cbn in *. inversion E. lia. Qed.

Lemma crossings_insert w m t n : m !! t = None -> cd t = false -> (cz t = 0 \/ cz t = 1) ->
  flat (<[t := n]> m) -> alone w (<[t := n]> m) ->
  crossings w (<[t := n]> m) = (crossings w m + if w n && occ m (other t) then 1 else 0)%nat.
Proof.
  intros Hno Hd Hz Hfl Hal. unfold crossings. rewrite cnt_insert by exact Hno.
  assert (Hoth : occ (<[t := n]> m) (other t) = occ m (other t)).
  { unfold occ. rewrite lookup_insert_ne; [reflexivity|]. intros E. symmetry in E. exact (other_ne t Hz E). }
  destruct Hz as [Hz|Hz].
  - (* ground tile: only the tile above can become a crossing *)
    unfold crossf at 1. rewrite Hz. cbn [Z.eqb]. rewrite andb_false_r. cbn [andb].
    pose proof (cnt_flip (crossf w (<[t:=n]> m)) (crossf w m) m (other t)) as Hf.
    assert (Hpre : forall u k, m !! u = Some k -> u <> other t -> crossf w (<[t:=n]> m) u k = crossf w m u k).
    { intros u k Hu Hne. unfold crossf. destruct (cd u) eqn:Hdu; [reflexivity|]. destruct (cz u =? 1) eqn:Hzu; [|reflexivity].
      f_equal. unfold occ. rewrite lookup_insert_ne; [reflexivity|]. intros E. apply Hne.
      rewrite <- (live_eta u Hdu). unfold other. rewrite E. cbn [live cx cy cz]. f_equal. lia. }
    specialize (Hf Hpre).
    assert (Hg : at_u (crossf w m) m (other t) = false).
    { unfold at_u. destruct (m !! other t) as [k|]; [|reflexivity]. unfold crossf.
      assert (live (cx (other t)) (cy (other t)) 0 = t) as ->.
      { unfold other. cbn [live cx cy]. rewrite <- Hz. apply live_eta, Hd. }
      unfold occ. rewrite Hno. apply andb_false_r. }
    rewrite Hg in Hf. cbn [Nat.b2n] in Hf.
    assert (Hv : at_u (crossf w (<[t:=n]> m)) m (other t) = w n && occ m (other t)).
    { unfold at_u, occ. destruct (m !! other t) as [k|] eqn:Eo; [|rewrite andb_false_r; reflexivity]. rewrite andb_true_r.
      unfold crossf. assert (live (cx (other t)) (cy (other t)) 0 = t) as ->.
      { unfold other. cbn [live cx cy]. rewrite <- Hz. apply live_eta, Hd. }
      unfold occ. rewrite lookup_insert. unfold other at 1 2. cbn [live cd cz]. rewrite Hz. cbn [Z.sub Z.eqb negb andb Z.opp Z.add].
      rewrite andb_true_r.
      assert (Ho : (<[t:=n]> m) !! other t = Some k).
      { rewrite lookup_insert_ne; [exact Eo|]. intros E. symmetry in E. exact (other_ne t (or_introl Hz) E). }
      destruct (w k) eqn:Wk, (w n) eqn:Wn; try reflexivity; exfalso.
      - pose proof (Hal t n (lookup_insert _ _ _) Hd Wn). congruence.
      - pose proof (Hal (other t) k Ho eq_refl Wk) as Hx. rewrite other_other in Hx by exact Hd.
        rewrite lookup_insert in Hx. discriminate. }
    rewrite Hv in Hf. destruct (w n && occ m (other t)); simpl in *; lia.
  - (* crossing layer: only the tile itself can be a new crossing *)
    rewrite (cnt_ext (crossf w (<[t:=n]> m)) (crossf w m) m).
    + unfold crossf at 1. rewrite Hd, Hz. cbn [negb andb Z.eqb Pos.eqb].
      assert (live (cx t) (cy t) 0 = other t) as -> by (unfold other; rewrite Hz; reflexivity).
      rewrite Hoth. change (1 =? 1) with true. cbn [andb]. destruct (w n && occ m (other t)); lia.
    + intros u k Hu. unfold crossf. f_equal. unfold occ. rewrite lookup_insert_ne; [reflexivity|].
      intros E. rewrite E in Hz. cbn in Hz. discriminate.
Qed.

Record inv3 (st : glayout) : Prop := {
  i3_1 :> inv1 st;
  i3_dim : dim_ok (cl_dim (g_cl st));
  i3_in : forall t n, g_tn st !! t = Some n -> cd t = false -> inb (cl_dim (g_cl st)) t;
  i3_x : g_cross st = w32 (Z.of_nat (crossings (is_wire st) (g_tn st))) }.

Lemma cross_delta_occ st t : inv1 st -> dim_ok (cl_dim (g_cl st)) ->
  (forall t n, g_tn st !! t = Some n -> cd t = false -> inb (cl_dim (g_cl st)) t) ->
  inb (cl_dim (g_cl st)) t ->
  cross_delta st t = if occ (g_tn st) (other t) then 1 else 0.
Proof.
  intros Hi (_ & _ & Hz) Hin (Hd & Hx & Hy & Hzt). unfold cross_delta. cbv zeta.
  assert (Hem : forall u, cd u = false -> negb (is_empty_tile st u) = occ (g_tn st) u).
  { intros u Hdu. unfold is_empty_tile, get_node, occ. destruct (g_tn st !! u) as [k|] eqn:E; [|reflexivity]. simpl.
    pose proof (i_live _ Hi _ _ E Hdu). destruct k; [lia|reflexivity]. }
  unfold is_crossing_layer at 1, is_ground_layer, below.
  destruct (cz t =? 0) eqn:E0.
  - assert (Hz0 : cz t = 0) by lia. rewrite Hz0. change (0 <? 0) with false. cbn [andb].
    unfold above. rewrite Hz0. destruct (cz (cl_dim (g_cl st)) <? 0) eqn:E1; [lia|].
    destruct (0 <? cz (cl_dim (g_cl st))) eqn:E2.
    + unfold is_crossing_layer; cbn [cz]. rewrite Hd. change (0 <? 0 + 1) with true. cbn [andb].
      rewrite Hem by reflexivity. unfold other, live. rewrite Hz0. change (1 - 0) with (0 + 1).
      destruct (occ _ _); reflexivity.
    + unfold is_crossing_layer. rewrite Hz0. change (0 <? 0) with false. cbn [andb].
      destruct (occ (g_tn st) (other t)) eqn:Eo; [|reflexivity]. exfalso.
      unfold occ in Eo. destruct (g_tn st !! other t) as [k|] eqn:Ek; [|discriminate].
      destruct (Hin _ _ Ek eq_refl) as (_ & _ & _ & K). unfold other in K. cbn [live cz] in K. lia.
  - assert (Hz1 : cz t = 1) by lia. rewrite Hz1. change (0 <? 1) with true. cbn [andb]. rewrite Hd.
    rewrite Hem by reflexivity. unfold other, live. rewrite Hz1. change (1 - 1) with 0. destruct (occ _ _); reflexivity.
Qed.

Lemma nsg_alone st : inv1 st -> dim_ok (cl_dim (g_cl st)) ->
  (forall t n, g_tn st !! t = Some n -> cd t = false -> inb (cl_dim (g_cl st)) t) ->
  no_stacked_gate st -> alone (is_wire st) (g_tn st).
Proof.
  intros Hi (_ & _ & Hz) Hin Hs t n Ht Hd Hw.
  assert (Hg : hosts_gate st t).
  { apply hosts_gate_iff; [exact Hi|]. exists n. unfold live_at. rewrite Hd, Hw. auto. }
  destruct (Hin t n Ht Hd) as (_ & _ & _ & Hzt).
  assert (Hn : cz t <> cz (other t)) by (unfold other; cbn; lia).
  pose proof (Hs t (other t) Hg eq_refl eq_refl Hn eq_refl) as He.
  unfold is_empty_tile, get_node in He. destruct (g_tn st !! other t) as [k|] eqn:E; [|reflexivity].
  pose proof (i_live _ Hi _ _ E eq_refl). simpl in He. apply Nat.eqb_eq in He. lia.
Qed.
Lemma alone_delete w m t : alone w m -> alone w (delete t m).
Proof. intros H u n Hu Hd Hw. apply lookup_delete_Some in Hu as [_ Hu]. apply lookup_delete_None. right. eapply H; eauto. Qed.
Lemma alone_ext w w' m : (forall t n, m !! t = Some n -> w n = w' n) -> alone w m -> alone w' m.
Proof. intros E H t n Ht Hd Hw. apply (H t n Ht Hd). rewrite (E t n Ht). exact Hw. Qed.
Lemma crossings_ext w w' m : (forall t n, m !! t = Some n -> w n = w' n) -> crossings w m = crossings w' m.
Proof. intros E. apply cnt_ext. intros t n Ht. unfold crossf. rewrite (E t n Ht). reflexivity. Qed.
Lemma inside_flat ar m : dim_ok ar -> (forall t n, m !! t = Some n -> cd t = false -> inb ar t) -> flat m.
Proof. intros (_ & _ & Hz) H t n Ht Hd. destruct (H t n Ht Hd) as (_ & _ & _ & K). lia. Qed.

Lemma inv3_clear st t : inv3 st -> alone (is_wire st) (g_tn st) ->
  inv3 (clear_tile st t) /\ alone (is_wire (clear_tile st t)) (g_tn (clear_tile st t)).
Proof.
  intros [H1 Hdim Hin Hx] Hal.
  assert (Hw : forall u n, g_tn st !! u = Some n -> is_wire (clear_tile st t) n = is_wire st n) by (intros; unfold is_wire; rewrite clear_lit; reflexivity).
  split.
  - constructor.
    + apply inv1_clear, H1.
    + rewrite clear_cl. exact Hdim.
    + intros u n. rewrite clear_tn, clear_cl, lookup_delete_Some. intros [_ Hu]. eauto.
    + rewrite clear_cross, clear_tn. rewrite (crossings_ext _ (is_wire st)) by (intros; unfold is_wire; rewrite clear_lit; reflexivity).
      destruct (g_tn st !! t) as [n|] eqn:E.
      2: { rewrite delete_notin by exact E. exact Hx. }
      destruct (cd t) eqn:Hd.
      { rewrite Hx. f_equal. f_equal. unfold crossings.
        rewrite (cnt_delete _ _ _ _ E). unfold crossf at 1. rewrite Hd. cbn [negb andb]. cbn [Nat.add].
        apply cnt_ext. intros u k Hu. unfold crossf. f_equal. unfold occ. rewrite lookup_delete_ne; [reflexivity|].
        intros Eu. rewrite Eu in Hd. discriminate. }
      pose proof (Hin t n E Hd) as Hb.
      assert (Hzt : cz t = 0 \/ cz t = 1) by (destruct Hdim as (_ & _ & ?), Hb as (_ & _ & _ & ?); lia).
      pose proof (crossings_insert (is_wire st) (delete t (g_tn st)) t n (lookup_delete _ _) Hd Hzt) as Hci.
      rewrite (insert_delete _ _ _ E) in Hci. specialize (Hci (inside_flat _ _ Hdim Hin) Hal).
      assert (Ho : occ (delete t (g_tn st)) (other t) = occ (g_tn st) (other t)).
      { unfold occ. rewrite lookup_delete_ne; [reflexivity|]. intros E'. symmetry in E'. exact (other_ne t Hzt E'). }
      rewrite Ho in Hci. rewrite Hx, Hci. rewrite (cross_delta_occ st t H1 Hdim Hin Hb).
      destruct (is_wire st n); cbn [andb].
      * rewrite w32_sub. f_equal. destruct (occ (g_tn st) (other t)); lia.
      * rewrite w32_idem. f_equal. lia.
  - rewrite clear_tn. apply alone_delete. eapply alone_ext; [|exact Hal]. intros u n Hu. symmetry. eapply Hw, Hu.
Qed.

Lemma inv3_assign st t n : inv3 st -> alone (is_wire st) (g_tn st) -> (cd t = false -> inb (cl_dim (g_cl st)) t) ->
  (2 <= n < length (g_nodes st))%nat -> g_nt st !! n = None ->
  alone (is_wire (assign_node st t n)) (g_tn (assign_node st t n)) -> inv3 (assign_node st t n).
Proof.
  intros Hi Hal Hb Hn Hnone Hal'. destruct (cd t) eqn:Hd.
  { unfold assign_node. rewrite Hd. exact Hi. }
  specialize (Hb eq_refl). destruct (inv3_clear st t Hi Hal) as [[C1 Cdim Cin Cx] _].
  pose proof Hi as [H1 Hdim Hin Hx]. constructor.
  - apply inv1_assign; auto.
  - rewrite assign_cl. exact Hdim.
  - intros u m. rewrite assign_tn, assign_cl, Hd, lookup_insert_Some. intros [[<- <-]|[_ Hu]]; [auto|eauto].
  - assert (Hzt : cz t = 0 \/ cz t = 1) by (destruct Hdim as (_ & _ & ?), Hb as (_ & _ & _ & ?); lia).
    rewrite assign_tn, Hd in *.
    rewrite (crossings_ext _ (is_wire st)) by (intros; unfold is_wire; rewrite assign_lit; reflexivity).
    set (m0 := g_tn (clear_tile st t)).
    assert (Em : <[t:=n]> (g_tn st) = <[t:=n]> m0) by (unfold m0; rewrite clear_tn, insert_delete_insert; reflexivity).
    assert (Hno : m0 !! t = None) by (unfold m0; rewrite clear_tn; apply lookup_delete).
    assert (Hal2 : alone (is_wire st) (<[t:=n]> m0)).
    { rewrite <- Em. eapply alone_ext; [|exact Hal']. intros; unfold is_wire; rewrite assign_lit; reflexivity. }
    assert (Hfl : flat (<[t:=n]> m0)).
    { intros u k. rewrite lookup_insert_Some. intros [[<- <-]|[_ Hu]] Hdu; [exact Hzt|].
      eapply inside_flat; [exact Cdim|exact Cin|exact Hu|exact Hdu]. }
    rewrite Em, (crossings_insert _ _ _ _ Hno Hd Hzt Hfl Hal2).
    assert (Ex : g_cross (clear_tile st t) = w32 (Z.of_nat (crossings (is_wire st) m0))).
    { rewrite Cx. f_equal. f_equal. apply crossings_ext. intros; unfold is_wire; rewrite clear_lit; reflexivity. }
    unfold assign_node. rewrite Hd. cbv zeta.
    set (st2 := with_maps (clear_tile st t) _ _).
    assert (Hw2 : is_wire st2 n = is_wire st n).
    { unfold is_wire. change (node_at st2 n) with (node_at (clear_tile st t) n). rewrite clear_lit. reflexivity. }
    rewrite Hw2. destruct (is_wire st n) eqn:Wn; cbn [with_counts g_cross andb].
    + change (g_cross st2) with (g_cross (clear_tile st t)). rewrite Ex, w32_add. f_equal.
      assert (Hi2 : inv1 st2 \/ True) by (right; exact I).
      assert (Hcd : cross_delta st2 t = if occ m0 (other t) then 1 else 0).
      { (* evaluated on the map with t inserted; the other tile is unaffected *)
        transitivity (cross_delta (clear_tile st t) t).
        - unfold cross_delta. change (g_cl st2) with (g_cl (clear_tile st t)). cbv zeta.
          assert (Hsame : forall u, u <> t -> is_empty_tile st2 u = is_empty_tile (clear_tile st t) u).
          { intros u Hu. unfold is_empty_tile, get_node, st2. cbn [with_maps g_tn]. rewrite lookup_insert_ne by auto. reflexivity. }
          f_equal.
          + destruct (is_crossing_layer t) eqn:Ecl; [|reflexivity]. rewrite Hsame; [reflexivity|].
            intros E. unfold is_crossing_layer in Ecl. unfold below in E. destruct (cz t =? 0) eqn:E0; [lia|].
            apply (f_equal cz) in E. cbn [cz] in E. lia.
          + destruct (is_ground_layer t) eqn:Eg; [|reflexivity].
            destruct (is_crossing_layer (above (cl_dim (g_cl (clear_tile st t))) t)) eqn:Ecl; [|reflexivity].
            rewrite Hsame; [reflexivity|]. intros E. rewrite E in Ecl. unfold is_ground_layer in Eg. unfold is_crossing_layer in Ecl. lia.
        - rewrite (cross_delta_occ (clear_tile st t) t); auto. rewrite clear_cl. exact Hb. }
      rewrite Hcd. destruct (occ m0 (other t)); lia.
    + change (g_cross st2) with (g_cross (clear_tile st t)). rewrite Ex, w32_idem. f_equal. lia.
Qed.

Lemma inv3_same st st' : inv1 st' -> g_cl st' = g_cl st -> g_tn st' = g_tn st ->
  (forall t n, g_tn st !! t = Some n -> n_lit (node_at st' n) = n_lit (node_at st n)) ->
  g_cross st' = g_cross st -> inv3 st -> inv3 st'.
Proof.
  intros H1 E0 E1 E2 E3 [_ Hd Hin Hx]. constructor; auto.
  - rewrite E0. exact Hd.
  - intros t n. rewrite E1, E0. apply Hin.
  - rewrite E3, Hx, E1. f_equal. f_equal. apply crossings_ext. intros t n Ht. unfold is_wire. rewrite (E2 t n Ht). reflexivity.
Qed.
Lemma inv3_frame st st' : frame st st' -> inv3 st -> inv3 st'.
Proof.
  intros F Hi. apply (inv3_same st); auto; try apply F.
  - eapply inv1_frame; [exact F|apply Hi].
  - intros t n _. apply F.
Qed.
Lemma alone_frame st st' : frame st st' -> alone (is_wire st) (g_tn st) <-> alone (is_wire st') (g_tn st').
Proof.
  intros F. rewrite (fr_tn _ _ F). split; apply alone_ext; intros; rewrite (is_wire_frame _ _ _ F); reflexivity.
Qed.

Lemma inv3_step st o st' : inv3 st -> alone (is_wire st) (g_tn st) -> alone (is_wire st') (g_tn st') ->
  moves_no_constant [o] -> places_inside (cl_dim (g_cl st)) [o] -> g_step st o = Some st' -> inv3 st'.
Proof.
  intros Hi Hal Hal' Hm Hpl Hs. pose proof (i_two _ (i_0 _ (i3_1 _ Hi))) as H2. pose proof (i3_1 _ Hi) as H1.
  inversion Hpl as [|? ? Hp1 _]; subst.
  destruct o as [nm t|s nm t|ch lit t|n t ch|s n|t|n nm|t k]; cbn [g_step] in Hs.
  - inversion Hs; subst; clear Hs. revert Hal'. unfold create_pi. cbv zeta. intros Hal'.
    assert (Hp : inv1 (push_node st [] 2)) by apply inv1_push, Hi.
    assert (Hpo : forall u m, g_tn st !! u = Some m -> node_at (push_node st [] 2) m = node_at st m).
    { intros u m Hu. apply node_at_push_old. eapply i_rng; [apply H1|exact Hu]. }
    apply inv3_assign; auto.
    + apply (inv3_same st); auto.
      * apply (inv1_same (push_node st [] 2)); auto. eapply inv0_same; [| | |apply Hp]; reflexivity.
      * intros u m Hu. change (n_lit (node_at (push_node st [] 2) m) = n_lit (node_at st m)). rewrite (Hpo u m Hu). reflexivity.
    + eapply alone_ext; [|exact Hal]. intros u m Hu.
      change (is_wire st m = is_wire (push_node st [] 2) m). unfold is_wire. rewrite (Hpo u m Hu). reflexivity.
    + cbn [set_name with_names with_in push_node with_nodes g_nodes]. rewrite app_length. simpl. lia.
    + cbn [set_name with_names with_in push_node with_nodes g_nt]. apply inv0_fresh, H1.
  - inversion Hs; subst; clear Hs. revert Hal'. unfold create_po. cbv zeta. intros Hal'.
    assert (Hp : inv1 (push_node st [] 2)) by apply inv1_push, Hi.
    assert (Hpo : forall u m, g_tn st !! u = Some m -> node_at (push_node st [] 2) m = node_at st m).
    { intros u m Hu. apply node_at_push_old. eapply i_rng; [apply H1|exact Hu]. }
    eapply inv3_frame; [apply setch_frame|]. eapply inv3_frame; [apply inc_frame|].
    apply <- alone_frame in Hal'; [|apply setch_frame]. apply <- alone_frame in Hal'; [|apply inc_frame].
    apply inv3_assign; auto.
    + apply (inv3_same st); auto.
      * apply (inv1_same (push_node st [] 2)); auto. eapply inv0_same; [| | |apply Hp]; reflexivity.
      * intros u m Hu. change (n_lit (node_at (push_node st [] 2) m) = n_lit (node_at st m)). rewrite (Hpo u m Hu). reflexivity.
    + eapply alone_ext; [|exact Hal]. intros u m Hu.
      change (is_wire st m = is_wire (push_node st [] 2) m). unfold is_wire. rewrite (Hpo u m Hu). reflexivity.
    + cbn [set_name with_names with_out push_node with_nodes g_nodes]. rewrite app_length. simpl. lia.
    + cbn [set_name with_names with_out push_node with_nodes g_nt]. apply inv0_fresh, H1.
  - inversion Hs; subst; clear Hs. revert Hal'. unfold create_lit. cbv zeta. intros Hal'.
    pose proof (incs_frame ch (push_node st ch lit)) as F.
    assert (Hpo : forall u m, g_tn st !! u = Some m -> node_at (push_node st ch lit) m = node_at st m).
    { intros u m Hu. apply node_at_push_old. eapply i_rng; [apply H1|exact Hu]. }
    assert (Hp3 : inv3 (push_node st ch lit)).
    { apply (inv3_same st); auto; [apply inv1_push, H1|]. intros u m Hu. rewrite (Hpo u m Hu). reflexivity. }
    apply inv3_assign; auto.
    + eapply inv3_frame; [apply F|exact Hp3].
    + apply (alone_frame _ _ F). eapply alone_ext; [|exact Hal]. intros u m Hu. unfold is_wire. rewrite (Hpo u m Hu). reflexivity.
    + rewrite (fr_cl _ _ F). exact Hp1.
    + rewrite (fr_len _ _ F). cbn [push_node with_nodes g_nodes]. rewrite app_length. simpl. lia.
    + rewrite (fr_nt _ _ F). cbn [push_node with_nodes g_nt]. apply inv0_fresh, H1.
  - destruct (lt_dec n (length (g_nodes st))) as [Hn|Hn].
    2: { unfold move_node in Hs. apply Nat.ltb_nlt in Hn. rewrite Hn in Hs. discriminate. }
    rewrite move_node_unfold in Hs by exact Hn. inversion Hs; subst; clear Hs.
    inversion Hm as [|? ? Hm1 _]; subst.
    eapply inv3_frame; [apply incs_frame|]. eapply inv3_frame; [apply setch_frame|].
    apply <- alone_frame in Hal'; [|apply incs_frame]. apply <- alone_frame in Hal'; [|apply setch_frame].
    pose proof (mv_start_frame st n) as F. revert Hal'.
    unfold mv_place. destruct (coord_eqb t (get_tile st n)); intros Hal'.
    { eapply inv3_frame; [apply F|exact Hi]. }
    eapply inv3_frame; [apply revive_frame|]. apply <- alone_frame in Hal'; [|apply revive_frame].
    destruct (mv_relabel_maps st n t) as (E1 & E2 & E3 & E4 & E5 & E6 & E7 & E8 & _).
    assert (Hr1 : inv1 (mv_relabel st n t)).
    { apply (inv1_same st); auto. eapply inv0_same; [exact E1|exact E2|exact E3|apply H1]. }
    assert (Hr : inv3 (mv_relabel st n t)) by (apply (inv3_same st); auto).
    assert (Halr : alone (is_wire (mv_relabel st n t)) (g_tn (mv_relabel st n t))).
    { rewrite E1. eapply alone_ext; [|exact Hal]. intros; unfold is_wire; rewrite E5; reflexivity. }
    destruct (inv3_clear _ (get_tile st n) Hr Halr) as [Hc Hcal].
    apply inv3_assign; auto.
    + rewrite clear_cl, E4. exact Hp1.
    + rewrite clear_len, E3. split; [exact Hm1|exact Hn].
    + assert (get_tile st n = get_tile (mv_relabel st n t) n) as -> by (unfold get_tile; congruence).
      apply clear_own_none, Hr1.
  - unfold connect in Hs. destruct (is_constant n); [inversion Hs; subst; exact Hi|].
    destruct (Nat.ltb n (length (g_nodes st))); [|discriminate]. inversion Hs; subst; clear Hs.
    eapply inv3_frame; [apply setch_frame|exact Hi].
  - inversion Hs; subst. apply inv3_clear; auto.
  - inversion Hs; subst. apply (inv3_same st); auto. apply (inv1_same st); auto. eapply inv0_same; [| | |apply H1]; reflexivity.
  - inversion Hs; subst. pose proof Hi as [K1 K2 K3 K4]. constructor; auto.
    apply (inv1_same st); auto. eapply inv0_same; [| | |apply H1]; reflexivity.
Qed.

Definition target (o : gop) : option coord :=
  match o with CreatePi _ t | CreatePo _ _ t | CreateLit _ _ t | MoveNode _ t _ => Some t | _ => None end.
Lemma assign_tn_sub st t n u k : g_tn (assign_node st t n) !! u = Some k -> cd u = false ->
  g_tn st !! u = Some k \/ (u = t).
Proof.
  rewrite assign_tn. destruct (cd t); [auto|]. rewrite lookup_insert_Some. intros [[<- _]|[_ H]]; auto.
Qed.
Lemma step_tn st o st' u k : g_step st o = Some st' -> g_tn st' !! u = Some k -> cd u = false ->
  g_tn st !! u = Some k \/ target o = Some u.
Proof.
  intros Hs Hu Hd. destruct o as [nm t|s nm t|ch lit t|n t ch|s n|t|n nm|t kk]; cbn [g_step target] in *.
  - inversion Hs; subst; clear Hs. apply assign_tn_sub in Hu as [Hu| ->]; auto.
  - inversion Hs; subst; clear Hs. unfold create_po in Hu. cbv zeta in Hu.
    rewrite (fr_tn _ _ (setch_frame _ _ _)), (fr_tn _ _ (inc_frame _ _)) in Hu.
    apply assign_tn_sub in Hu as [Hu| ->]; auto.
  - inversion Hs; subst; clear Hs. unfold create_lit in Hu. cbv zeta in Hu.
    apply assign_tn_sub in Hu as [Hu| ->]; auto. rewrite (fr_tn _ _ (incs_frame _ _)) in Hu. auto.
  - destruct (lt_dec n (length (g_nodes st))) as [Hn|Hn].
    2: { unfold move_node in Hs. apply Nat.ltb_nlt in Hn. rewrite Hn in Hs. discriminate. }
    rewrite move_node_unfold in Hs by exact Hn. inversion Hs; subst; clear Hs.
    rewrite (fr_tn _ _ (incs_frame _ _)), (fr_tn _ _ (setch_frame _ _ _)) in Hu. revert Hu. unfold mv_place.
    destruct (coord_eqb t (get_tile st n)).
    + rewrite (fr_tn _ _ (mv_start_frame st n)). auto.
    + rewrite (fr_tn _ _ (revive_frame _ _)). intros Hu. apply assign_tn_sub in Hu as [Hu| ->]; auto.
      rewrite clear_tn in Hu. apply lookup_delete_Some in Hu as [_ Hu].
      destruct (mv_relabel_maps st n t) as (E1 & _). rewrite E1 in Hu. auto.
  - unfold connect in Hs. destruct (is_constant n); [inversion Hs; subst; auto|].
    destruct (Nat.ltb n (length (g_nodes st))); [|discriminate]. inversion Hs; subst; auto.
  - inversion Hs; subst. rewrite clear_tn in Hu. apply lookup_delete_Some in Hu as [_ Hu]. auto.
  - inversion Hs; subst. auto.
  - inversion Hs; subst. auto.
Qed.
Lemma step_dim st o st' : g_step st o = Some st' -> cl_dim (g_cl st') = cl_dim (g_cl st) /\ cl_topo (g_cl st') = cl_topo (g_cl st).
Proof.
  intros Hs. destruct o as [nm t|s nm t|ch lit t|n t ch|s n|t|n nm|t kk]; cbn [g_step] in *.
  - inversion Hs; subst; clear Hs. unfold create_pi. cbv zeta. rewrite assign_cl. auto.
  - inversion Hs; subst; clear Hs. unfold create_po. cbv zeta.
    rewrite (fr_cl _ _ (setch_frame _ _ _)), (fr_cl _ _ (inc_frame _ _)), assign_cl. auto.
  - inversion Hs; subst; clear Hs. unfold create_lit. cbv zeta. rewrite assign_cl, (fr_cl _ _ (incs_frame _ _)). auto.
  - destruct (lt_dec n (length (g_nodes st))) as [Hn|Hn].
    2: { unfold move_node in Hs. apply Nat.ltb_nlt in Hn. rewrite Hn in Hs. discriminate. }
    rewrite move_node_unfold in Hs by exact Hn. inversion Hs; subst; clear Hs.
    rewrite (fr_cl _ _ (incs_frame _ _)), (fr_cl _ _ (setch_frame _ _ _)). unfold mv_place.
    destruct (coord_eqb t (get_tile st n)).
    + rewrite (fr_cl _ _ (mv_start_frame st n)). auto.
    + rewrite (fr_cl _ _ (revive_frame _ _)), assign_cl, clear_cl.
      destruct (mv_relabel_maps st n t) as (_ & _ & _ & E4 & _). rewrite E4. auto.
  - unfold connect in Hs. destruct (is_constant n); [inversion Hs; subst; auto|].
    destruct (Nat.ltb n (length (g_nodes st))); [|discriminate]. inversion Hs; subst; auto.
  - inversion Hs; subst. rewrite clear_cl. auto.
  - inversion Hs; subst. auto.
  - inversion Hs; subst. auto.
Qed.

Lemma step_cl st o st' : g_step st o = Some st' -> (forall t k, o <> AssignClock t k) -> g_cl st' = g_cl st.
Proof.
  intros Hs Hna. destruct o as [nm t|s nm t|ch lit t|n t ch|s n|t|n nm|t kk]; cbn [g_step] in *.
  - inversion Hs; subst; clear Hs. unfold create_pi. cbv zeta. rewrite assign_cl. reflexivity.
  - inversion Hs; subst; clear Hs. unfold create_po. cbv zeta.
    rewrite (fr_cl _ _ (setch_frame _ _ _)), (fr_cl _ _ (inc_frame _ _)), assign_cl. reflexivity.
  - inversion Hs; subst; clear Hs. unfold create_lit. cbv zeta. rewrite assign_cl, (fr_cl _ _ (incs_frame _ _)). reflexivity.
  - destruct (lt_dec n (length (g_nodes st))) as [Hn|Hn].
    2: { unfold move_node in Hs. apply Nat.ltb_nlt in Hn. rewrite Hn in Hs. discriminate. }
    rewrite move_node_unfold in Hs by exact Hn. inversion Hs; subst; clear Hs.
    rewrite (fr_cl _ _ (incs_frame _ _)), (fr_cl _ _ (setch_frame _ _ _)). unfold mv_place.
    destruct (coord_eqb t (get_tile st n)).
    + rewrite (fr_cl _ _ (mv_start_frame st n)). reflexivity.
    + rewrite (fr_cl _ _ (revive_frame _ _)), assign_cl, clear_cl.
      destruct (mv_relabel_maps st n t) as (_ & _ & _ & E4 & _). rewrite E4. reflexivity.
  - unfold connect in Hs. destruct (is_constant n); [inversion Hs; subst; auto|].
    destruct (Nat.ltb n (length (g_nodes st))); [|discriminate]. inversion Hs; subst; reflexivity.
  - inversion Hs; subst. rewrite clear_cl. reflexivity.
  - inversion Hs; subst. reflexivity.
  - destruct (Hna _ _ eq_refl).
Qed.
Lemma run_cl ops : forall st st', g_run st ops = Some st' -> (forall t k, ~ In (AssignClock t k) ops) -> g_cl st' = g_cl st.
Proof.
  induction ops as [|o r IH]; intros st st' Hr Hn; cbn in Hr; [inversion Hr; reflexivity|].
  destruct (g_step st o) as [s1|] eqn:E; [|discriminate].
  rewrite (IH s1 st' Hr) by (intros t k H; apply (Hn t k); right; exact H).
  eapply step_cl; [exact E|]. intros t k ->. apply (Hn t k). left. reflexivity.
Qed.

Lemma inv3_run ops : forall st st', inv3 st -> always no_stacked_gate st ops -> moves_no_constant ops ->
  places_inside (cl_dim (g_cl st)) ops -> g_run st ops = Some st' -> inv3 st'.
Proof.
  induction ops as [|o r IH]; intros st st' Hi Hal Hm Hp; simpl.
  - intros [= <-]. exact Hi.
  - inversion Hm as [|? ? Ho Hr]; subst. inversion Hp as [|? ? Po Pr]; subst. cbn in Hal. destruct Hal as [Hn Hal].
    destruct (g_step st o) as [s1|] eqn:E; [|discriminate].
    assert (Hm1 : moves_no_constant [o]) by (constructor; [exact Ho|constructor]).
    assert (H1 : inv1 s1) by (eapply inv1_step; [apply Hi|exact Hm1|exact E]).
    destruct (step_dim _ _ _ E) as [Ed _].
    assert (Hin : forall t n, g_tn s1 !! t = Some n -> cd t = false -> inb (cl_dim (g_cl s1)) t).
    { intros u k Hu Hd. rewrite Ed. destruct (step_tn _ _ _ _ _ E Hu Hd) as [H|H]; [eapply i3_in; eauto|].
      destruct o; cbn in H, Po; inversion H; subst; auto. }
    assert (Hn1 : no_stacked_gate s1) by (destruct r; cbn in Hal; apply Hal).
    apply IH; auto.
    + eapply inv3_step; [exact Hi| | |exact Hm1|constructor; [exact Po|constructor]|exact E].
      * apply nsg_alone; auto; apply Hi.
      * apply nsg_alone; auto. rewrite Ed. apply Hi.
    + rewrite Ed. exact Pr.
Qed.
Lemma inv3_empty cl : dim_ok (cl_dim cl) -> inv3 (g_empty cl).
Proof.
  intros Hd. constructor.
  - apply inv1_empty.
  - exact Hd.
  - intros t n. cbn [g_empty g_tn]. rewrite !lookup_insert_Some, lookup_empty.
    intros [[<- _]|[_ [[<- _]|[_ H]]]]; discriminate.
  - reflexivity.
Qed.
Lemma crossing_iff st t : inv3 st -> crossing_at st t <-> exists n, g_tn st !! t = Some n /\ crossf (is_wire st) (g_tn st) t n = true.
Proof.
  intros Hi. unfold crossing_at. rewrite hosts_wire_iff by apply Hi. unfold live_at, crossf.
  assert (Hem : forall u, cd u = false -> is_empty_tile st u = negb (occ (g_tn st) u)).
  { intros u Hdu. unfold is_empty_tile, get_node, occ. destruct (g_tn st !! u) as [k|] eqn:E; [|reflexivity]. simpl.
    pose proof (i_live _ (i3_1 _ Hi) _ _ E Hdu). destruct k; [lia|reflexivity]. }
  rewrite (Hem (live (cx t) (cy t) 0) eq_refl). split.
  - intros ((n & E & Hl) & Hz & Ho). exists n. split; [exact E|]. apply andb_prop in Hl as [-> ->]. rewrite Hz.
    apply negb_false_iff in Ho. rewrite Ho. reflexivity.
  - intros (n & E & Hl). apply andb_prop in Hl as [Hl Ho]. apply andb_prop in Hl as [Hl Hw]. apply andb_prop in Hl as [Hd Hz].
    split; [exists n; rewrite Hd, Hw; auto|]. split; [lia|]. rewrite Ho. reflexivity.
Qed.
Lemma crossings_exact st : inv3 st -> Z.of_nat (length (g_nodes st)) < 2 ^ 32 -> how_many (crossing_at st) (num_crossings st).
Proof.
  intros Hi Hl. pose proof (size_tn_le st (i_0 _ (i3_1 _ Hi))) as Hs.
  destruct (cnt_list (crossf (is_wire st) (g_tn st)) (g_tn st)) as (L & ND & HL & HLen). exists L.
  split; [exact ND|]. split.
  - intros t. rewrite HL. symmetry. apply crossing_iff, Hi.
  - unfold num_crossings. rewrite (i3_x _ Hi). unfold crossings. rewrite <- HLen. unfold w32. apply Z.mod_small.
    pose proof (cnt_le_size (crossf (is_wire st) (g_tn st)) (g_tn st)). lia.
Qed.

(** ** Reference counts (C24) *)
Definition cnt_c (c : coord) (l : list coord) : Z := Z.of_nat (count_occ coord_eq_dec l c).
Fixpoint occs (ns : list gnode) (c : coord) : Z :=
  match ns with [] => 0 | x :: r => cnt_c c (n_children x) + occs r c end.
Lemma cnt_c_nonneg c l : 0 <= cnt_c c l.
Proof. unfold cnt_c. lia. Qed.
Lemma cnt_c_cons c x l : cnt_c c (x :: l) = (if coord_eqb x c then 1 else 0) + cnt_c c l.
Proof.
  unfold cnt_c. cbn [count_occ]. destruct (coord_eq_dec x c) as [->|Hne].
  - rewrite coord_eqb_refl. lia.
  - apply coord_eqb_false in Hne. rewrite Hne. lia.
Qed.
Lemma cnt_c_app c a b : cnt_c c (a ++ b) = cnt_c c a + cnt_c c b.
Proof. unfold cnt_c. rewrite count_occ_app. lia. Qed.
Lemma occs_nonneg ns c : 0 <= occs ns c.
Proof. induction ns; cbn; [lia|]. pose proof (cnt_c_nonneg c (n_children a)). lia. Qed.
Lemma occs_app a b c : occs (a ++ b) c = occs a c + occs b c.
Proof. induction a; cbn; [reflexivity|]. rewrite IHa. lia. Qed.
Lemma occs_alter ns n f c x : ns !! n = Some x -> occs (alter f n ns) c = occs ns c - cnt_c c (n_children x) + cnt_c c (n_children (f x)).
Proof.
  revert n. induction ns as [|y ns IH]; intros n Hn; [discriminate|]. destruct n as [|n].
  - inversion Hn; subst. cbn. lia.
  - change (alter f (S n) (y :: ns)) with (y :: alter f n ns). cbn [occs]. rewrite (IH n Hn). lia.
Qed.
Lemma occs_alter_same ns n f c : (forall x, n_children (f x) = n_children x) -> occs (alter f n ns) c = occs ns c.
Proof.
  intros Hf. destruct (ns !! n) as [x|] eqn:E.
  - rewrite (occs_alter _ _ _ _ _ E), Hf. lia.
  - f_equal. apply list_alter_id' || idtac. revert n E. induction ns as [|y ns IH]; intros n E; [reflexivity|].
    destruct n; [discriminate|]. change (alter f (S n) (y :: ns)) with (y :: alter f n ns). f_equal. apply IH, E.
Qed.
Lemma occs_ge ns n x c : ns !! n = Some x -> cnt_c c (n_children x) <= occs ns c.
Proof.
  revert n. induction ns as [|y ns IH]; intros n Hn; [discriminate|]. destruct n as [|n]; cbn.
  - inversion Hn; subst. pose proof (occs_nonneg ns c). lia.
  - pose proof (IH n Hn). pose proof (cnt_c_nonneg c (n_children y)). lia.
Qed.
Lemma occs_zero ns c : (forall x, In x ns -> ~ In c (n_children x)) -> occs ns c = 0.
Proof.
  induction ns as [|y ns IH]; intros H; [reflexivity|]. cbn. rewrite IH by (intros; apply H; right; assumption).
  unfold cnt_c. rewrite (proj1 (count_occ_not_In coord_eq_dec _ _)); [lia|]. apply H. left. reflexivity.
Qed.

(** [refs_ok owed K st]: every placed node has a clean counter that, together with what is still
    owed, covers all its references; every other node is flagged dead. *)
Record refs_ok (owed : list coord) (K : Z) (st : glayout) : Prop := {
  r_cnt : forall m t, g_nt st !! m = Some t -> (2 <= m)%nat ->
    0 <= n_refs (node_at st m) <= K /\ occs (g_nodes st) t <= n_refs (node_at st m) + cnt_c t owed;
  r_dead : forall m, (2 <= m < length (g_nodes st))%nat -> g_nt st !! m = None -> is_dead st m = true }.

Lemma refs_alter st n f m : n_refs (node_at (with_nodes st (alter f n (g_nodes st))) m) =
  if Nat.eqb m n then match g_nodes st !! n with Some x => n_refs (f x) | None => 0 end else n_refs (node_at st m).
Proof.
  unfold node_at; cbn [with_nodes g_nodes]. destruct (Nat.eqb_spec m n) as [->|Hne].
  - rewrite list_lookup_alter. destruct (g_nodes st !! n); reflexivity.
  - rewrite list_lookup_alter_ne by auto. reflexivity.
Qed.
Lemma node_lookup st n : (n < length (g_nodes st))%nat -> g_nodes st !! n = Some (node_at st n).
Proof. intros H. unfold node_at. destruct (lookup_lt_is_Some_2 _ _ H) as [x ->]. reflexivity. Qed.
Lemma nt_get_node st m t : inv0 st -> g_nt st !! m = Some t -> get_node st t = m.
Proof. intros Hi H. apply (i_bij _ Hi) in H. unfold get_node. rewrite H. reflexivity. Qed.
Lemma get_node_nt st s m : inv0 st -> get_node st s = m -> (2 <= m)%nat -> g_nt st !! m = Some s.
Proof.
  intros Hi H Hm. unfold get_node in H. destruct (g_tn st !! s) as [k|] eqn:E; simpl in H; [|lia].
  subst. apply (i_bij _ Hi), E.
Qed.
Lemma get_node_lt st s : inv0 st -> (get_node st s < length (g_nodes st))%nat.
Proof.
  intros Hi. unfold get_node. destruct (g_tn st !! s) as [k|] eqn:E; simpl; [eapply i_rng; eauto|].
  pose proof (i_two _ Hi). lia.
Qed.

Lemma refs_inc st s owed K : inv0 st -> K < 2 ^ 31 -> refs_ok (s :: owed) K st -> refs_ok owed (K + 1) (inc_ref st s).
Proof.
  intros Hi HK [H1 H2]. pose proof (inc_frame st s) as F. constructor.
  - intros m t Hm Hm2. rewrite (fr_nt _ _ F) in Hm. destruct (H1 m t Hm Hm2) as [Hr Ho].
    unfold inc_ref at 3. cbn [with_nodes g_nodes]. rewrite occs_alter_same by reflexivity.
    unfold inc_ref. rewrite refs_alter. rewrite cnt_c_cons in Ho.
    destruct (Nat.eqb_spec m (get_node st s)) as [E|Hne].
    + assert (Hmt : s = t). { symmetry in E. apply (get_node_nt st s m Hi E) in Hm2. congruence. }
      subst t. rewrite coord_eqb_refl in Ho. rewrite <- E. rewrite node_lookup; [|rewrite E; apply get_node_lt, Hi].
      cbn [n_refs]. unfold w32. rewrite Z.mod_small by lia. lia.
    + assert (Hst : coord_eqb s t = false).
      { apply coord_eqb_false. intros ->. apply Hne. symmetry. apply nt_get_node; auto. }
      rewrite Hst in Ho. split; lia.
  - intros m Hm Hnone. rewrite (fr_nt _ _ F) in Hnone. rewrite (fr_len _ _ F) in Hm.
    unfold is_dead, inc_ref. rewrite refs_alter. destruct (Nat.eqb_spec m (get_node st s)) as [E|Hne].
    + symmetry in E. rewrite (get_node_nt st s m Hi E) in Hnone by lia. discriminate.
    + apply H2; auto.
Qed.
Lemma refs_incs ch : forall st owed K, inv0 st -> K + Z.of_nat (length ch) < 2 ^ 31 -> refs_ok (ch ++ owed) K st ->
  refs_ok owed (K + Z.of_nat (length ch)) (fold_left inc_ref ch st).
Proof.
  induction ch as [|c ch IH]; intros st owed K Hi HK H.
  - cbn. rewrite Z.add_0_r. exact H.
  - cbn [fold_left length]. replace (K + Z.of_nat (S (length ch))) with (K + 1 + Z.of_nat (length ch)) by lia.
    cbn [length] in HK. apply IH; [eapply inv0_frame; [apply inc_frame|exact Hi]|lia|]. apply refs_inc; auto. lia.
Qed.
Lemma refs_dec st s owed K : inv0 st -> K < 2 ^ 31 -> refs_ok owed K st ->
  cnt_c s owed < occs (g_nodes st) s -> refs_ok (s :: owed) K (dec_ref st s).
Proof.
  intros Hi HK [H1 H2] Hlt. pose proof (dec_frame st s) as F. constructor.
  - intros m t Hm Hm2. rewrite (fr_nt _ _ F) in Hm. destruct (H1 m t Hm Hm2) as [Hr Ho].
    unfold dec_ref at 3. cbn [with_nodes g_nodes]. rewrite occs_alter_same by reflexivity.
    unfold dec_ref. rewrite refs_alter. rewrite cnt_c_cons.
    destruct (Nat.eqb_spec m (get_node st s)) as [E|Hne].
    + assert (Hmt : s = t). { symmetry in E. apply (get_node_nt st s m Hi E) in Hm2. congruence. }
      subst t. rewrite coord_eqb_refl. rewrite <- E. rewrite node_lookup; [|rewrite E; apply get_node_lt, Hi].
      cbn [n_refs]. unfold w32. rewrite Z.mod_small by lia. lia.
    + assert (Hst : coord_eqb s t = false).
      { apply coord_eqb_false. intros ->. apply Hne. symmetry. apply nt_get_node; auto. }
      rewrite Hst. split; lia.
  - intros m Hm Hnone. rewrite (fr_nt _ _ F) in Hnone. rewrite (fr_len _ _ F) in Hm.
    unfold is_dead, dec_ref. rewrite refs_alter. destruct (Nat.eqb_spec m (get_node st s)) as [E|Hne].
    + symmetry in E. rewrite (get_node_nt st s m Hi E) in Hnone by lia. discriminate.
    + apply H2; auto.
Qed.
Lemma occs_dec st s c : occs (g_nodes (dec_ref st s)) c = occs (g_nodes st) c.
Proof. unfold dec_ref. cbn [with_nodes g_nodes]. apply occs_alter_same. reflexivity. Qed.
Lemma refs_decs ch : forall st owed K, inv0 st -> K < 2 ^ 31 -> refs_ok owed K st ->
  (forall c, cnt_c c (ch ++ owed) <= occs (g_nodes st) c) ->
  refs_ok (rev ch ++ owed) K (fold_left dec_ref ch st).
Proof.
  induction ch as [|c ch IH]; intros st owed K Hi HK H Hle; [exact H|].
  cbn [fold_left rev]. rewrite <- app_assoc. cbn [app]. apply IH; auto.
  - eapply inv0_frame; [apply dec_frame|exact Hi].
  - apply refs_dec; auto. specialize (Hle c). cbn [app] in Hle. rewrite cnt_c_cons, coord_eqb_refl, cnt_c_app in Hle.
    pose proof (cnt_c_nonneg c ch). lia.
  - intros d. rewrite occs_dec. specialize (Hle d). cbn [app] in Hle. rewrite cnt_c_cons in Hle.
    rewrite !cnt_c_app, cnt_c_cons. rewrite cnt_c_app in Hle. lia.
Qed.
Lemma cnt_c_rev c l : cnt_c c (rev l) = cnt_c c l.
Proof.
  induction l as [|x l IH]; [reflexivity|]. cbn [rev]. rewrite cnt_c_app, cnt_c_cons, IH, cnt_c_cons.
  replace (cnt_c c []) with 0 by reflexivity. lia.
Qed.
Lemma setch_refs st n ch m : n_refs (node_at (set_children st n ch) m) = n_refs (node_at st m).
Proof.
  unfold set_children. rewrite refs_alter. destruct (Nat.eqb_spec m n) as [->|]; [|reflexivity].
  unfold node_at. destruct (g_nodes st !! n); reflexivity.
Qed.
Lemma setch_occs st n ch c : (n < length (g_nodes st))%nat ->
  occs (g_nodes (set_children st n ch)) c = occs (g_nodes st) c - cnt_c c (n_children (node_at st n)) + cnt_c c ch.
Proof. intros Hn. unfold set_children. cbn [with_nodes g_nodes]. rewrite (occs_alter _ _ _ _ _ (node_lookup st n Hn)). reflexivity. Qed.
Lemma refs_setch st n ch owed owed' K : (n < length (g_nodes st))%nat -> refs_ok owed K st ->
  (forall c, cnt_c c ch + cnt_c c owed <= cnt_c c (n_children (node_at st n)) + cnt_c c owed') ->
  refs_ok owed' K (set_children st n ch).
Proof.
  intros Hn [H1 H2] Hle. pose proof (setch_frame st n ch) as F. constructor.
  - intros m t Hm Hm2. rewrite (fr_nt _ _ F) in Hm. destruct (H1 m t Hm Hm2) as [Hr Ho].
    rewrite setch_refs, setch_occs by exact Hn. split; [exact Hr|]. specialize (Hle t). lia.
  - intros m Hm Hnone. rewrite (fr_nt _ _ F) in Hnone. rewrite (fr_len _ _ F) in Hm. unfold is_dead. rewrite setch_refs. apply H2; auto.
Qed.
Lemma refs_weaken owed K K' st : K <= K' -> refs_ok owed K st -> refs_ok owed K' st.
Proof. intros HK [H1 H2]. constructor; auto. intros m t Hm H. destruct (H1 m t Hm H). split; [lia|assumption]. Qed.
Lemma refs_same owed K st st' : g_nodes st' = g_nodes st -> g_nt st' = g_nt st -> refs_ok owed K st -> refs_ok owed K st'.
Proof.
  intros E1 E2 [H1 H2]. constructor.
  - intros m t. unfold node_at. rewrite E1, E2. apply H1.
  - intros m. unfold is_dead, node_at. rewrite E1, E2. apply H2.
Qed.
Lemma clear_refs st t m : n_refs (node_at (clear_tile st t) m) =
  match g_tn st !! t with
  | Some n => if (Nat.eqb m n) && negb (is_constant n) then
                match g_nodes st !! n with Some x => Z.lor (n_refs x) 2147483648 | None => 0 end
              else n_refs (node_at st m)
  | None => n_refs (node_at st m)
  end.
Proof.
  unfold clear_tile. destruct (g_tn st !! t) as [n|]; [|reflexivity]. cbv zeta.
  set (st1 := if cd t then st else _).
  assert (E : g_nodes st1 = g_nodes st) by (unfold st1; destruct (cd t); [reflexivity|]; destruct (is_wire st n); reflexivity).
  change (n_refs (node_at (with_maps (kill_node st1 n) _ _) m)) with (n_refs (node_at (kill_node st1 n) m)).
  unfold kill_node. destruct (is_constant n).
  - rewrite andb_false_r. unfold node_at. rewrite E. reflexivity.
  - rewrite andb_true_r. rewrite refs_alter. rewrite E. destruct (Nat.eqb m n); [reflexivity|]. unfold node_at. rewrite E. reflexivity.
Qed.
Lemma clear_occs st t c : occs (g_nodes (clear_tile st t)) c = occs (g_nodes st) c.
Proof.
  unfold clear_tile. destruct (g_tn st !! t) as [n|]; [|reflexivity]. cbv zeta.
  set (st1 := if cd t then st else _).
  assert (E : g_nodes st1 = g_nodes st) by (unfold st1; destruct (cd t); [reflexivity|]; destruct (is_wire st n); reflexivity).
  cbn [with_maps g_nodes]. unfold kill_node. destruct (is_constant n); [rewrite E; reflexivity|].
  cbn [with_nodes g_nodes]. rewrite occs_alter_same by reflexivity. rewrite E. reflexivity.
Qed.
Lemma dead_lor r : Z.testbit (Z.lor r 2147483648) 31 = true.
Proof. rewrite Z.lor_spec. change (Z.testbit 2147483648 31) with true. apply orb_true_r. Qed.
Lemma alive_small r : 0 <= r < 2 ^ 31 -> Z.testbit r 31 = false.
Proof.
  intros [H0 H1]. destruct (Z.eq_dec r 0) as [->|]; [reflexivity|]. apply Z.bits_above_log2; [lia|]. apply Z.log2_lt_pow2; lia.
Qed.
Lemma revive_kill r : 0 <= r < 2 ^ 31 -> Z.land (Z.lor r 2147483648) 2147483647 = r.
Proof.
  intros Hr. rewrite Z.land_lor_distr_l. change (Z.land 2147483648 2147483647) with 0. rewrite Z.lor_0_r.
  change 2147483647 with (Z.ones 31). rewrite Z.land_ones by lia. apply Z.mod_small. exact Hr.
Qed.
Lemma refs_clear st t owed K : inv0 st -> refs_ok owed K st -> refs_ok owed K (clear_tile st t).
Proof.
  intros Hi [H1 H2]. constructor.
  - intros m u Hm Hm2. rewrite clear_occs, clear_refs. rewrite clear_nt in Hm.
    destruct (g_tn st !! t) as [n|] eqn:E; [|apply H1; auto]. apply lookup_delete_Some in Hm as [Hne Hm].
    destruct (Nat.eqb_spec m n); [congruence|]. cbn [andb]. apply H1; auto.
  - intros m Hm Hnone. rewrite clear_len in Hm. unfold is_dead. rewrite clear_refs. rewrite clear_nt in Hnone.
    destruct (g_tn st !! t) as [n|] eqn:E; [|apply H2; auto].
    destruct (Nat.eqb_spec m n) as [->|Hne].
    + assert (is_constant n = false) as -> by (unfold is_constant; apply Nat.leb_gt; lia). cbn [negb andb].
      rewrite node_lookup by lia. apply dead_lor.
    + cbn [andb]. apply H2; [exact Hm|]. rewrite lookup_delete_ne in Hnone by auto. exact Hnone.
Qed.
(** Placing a node whose counter is clean on a free tile nobody refers to. *)
Lemma refs_assign st t n owed K : inv1 st -> free_tile st t -> (2 <= n < length (g_nodes st))%nat -> g_nt st !! n = None ->
  (forall m u, g_nt st !! m = Some u -> (2 <= m)%nat ->
     0 <= n_refs (node_at st m) <= K /\ occs (g_nodes st) u <= n_refs (node_at st m) + cnt_c u owed) ->
  (forall m, (2 <= m < length (g_nodes st))%nat -> m <> n -> g_nt st !! m = None -> is_dead st m = true) ->
  0 <= n_refs (node_at st n) <= K -> occs (g_nodes st) t <= cnt_c t owed ->
  refs_ok owed K (assign_node st t n).
Proof.
  intros Hi Hf Hn Hnone H1 H2 Hrn Hot. pose proof (free_none st t Hi Hf) as E. destruct Hf as [Hd _].
  assert (Ec : clear_tile st t = st) by (unfold clear_tile; rewrite E; reflexivity).
  assert (En : g_nodes (assign_node st t n) = g_nodes st) by (rewrite assign_nodes, Hd, Ec; reflexivity).
  constructor.
  - intros m u. rewrite assign_nt, Hd, Ec, En. unfold node_at. rewrite En. fold (node_at st m). rewrite lookup_insert_Some.
    intros [[<- <-]|[Hne Hu]] Hm2; [split; [exact Hrn|lia]|]. apply H1; auto.
  - intros m Hm. rewrite assign_nt, Hd, Ec. rewrite lookup_insert_None. intros [Hu Hne].
    unfold is_dead, node_at. rewrite En. rewrite En in Hm. apply H2; auto.
Qed.

Lemma referenced_occs st t : ~ referenced st t -> occs (g_nodes st) t = 0.
Proof.
  intros H. apply occs_zero. intros x Hx Hin. apply H. apply elem_of_list_In, elem_of_list_lookup in Hx as [i Hi].
  exists i. unfold node_at. rewrite Hi. exact Hin.
Qed.
Lemma cnt_c_notin c l : ~ In c l -> cnt_c c l = 0.
Proof. intros H. unfold cnt_c. rewrite (proj1 (count_occ_not_In coord_eq_dec _ _) H). reflexivity. Qed.

Lemma refs_step st o st' K : inv1 st -> ref_tidy st o -> g_step st o = Some st' -> 0 <= K ->
  K + Z.of_nat (refs_of o) < 2 ^ 31 -> refs_ok [] K st -> refs_ok [] (K + Z.of_nat (refs_of o)) st'.
Proof.
  intros Hi [Ht Hr] Hs HK0 HK H. pose proof (i_two _ (i_0 _ Hi)) as H2. pose proof (i_0 _ Hi) as H0. pose proof H as [Hc Hdead].
  assert (Hold : forall m u, g_nt st !! m = Some u -> (m < length (g_nodes st))%nat).
  { intros m u Hu. apply (i_bij _ H0) in Hu. eapply i_rng; eauto. }
  destruct o as [nm t|s nm t|ch lit t|n t ch|s n|t|n nm|t kk]; cbn [g_step refs_of] in *.
  - inversion Hs; subst; clear Hs. cbn [tidy] in Ht. rewrite Z.add_0_r. unfold create_pi. cbv zeta.
    set (st1 := set_name _ _ _).
    assert (Hi1 : inv1 st1).
    { assert (Hp : inv1 (push_node st [] 2)) by apply inv1_push, Hi.
      apply (inv1_same (push_node st [] 2)); auto. eapply inv0_same; [| | |apply Hp]; reflexivity. }
    assert (Hlen1 : length (g_nodes st1) = S (length (g_nodes st))).
    { unfold st1. cbn [set_name with_names with_in push_node with_nodes g_nodes]. rewrite app_length. simpl. lia. }
    assert (Hnd : forall m, node_at st1 m = node_at (push_node st [] 2) m) by reflexivity.
    assert (Hoc : forall c, occs (g_nodes st1) c = occs (g_nodes st) c).
    { intros c. unfold st1. cbn [set_name with_names with_in push_node with_nodes g_nodes]. rewrite occs_app. cbn.
      change (cnt_c c []) with 0. lia. }
    apply refs_assign; auto.
    + lia.
    + apply (inv0_fresh st H0).
    + intros m u Hu Hm. change (g_nt st1) with (g_nt st) in Hu. rewrite Hnd, Hoc, node_at_push_old by eauto. apply Hc; auto.
    + intros m Hm Hne Hu. unfold is_dead. rewrite Hnd, node_at_push_old by lia. apply Hdead; [lia|exact Hu].
    + rewrite Hnd, node_at_push_new. cbn. lia.
    + rewrite Hoc, (referenced_occs st t Hr). apply cnt_c_nonneg.
  - inversion Hs; subst; clear Hs. cbn [tidy] in Ht. unfold create_po. cbv zeta.
    set (st1 := set_name _ _ _).
    assert (Hi1 : inv1 st1).
    { assert (Hp : inv1 (push_node st [] 2)) by apply inv1_push, Hi.
      apply (inv1_same (push_node st [] 2)); auto. eapply inv0_same; [| | |apply Hp]; reflexivity. }
    assert (Hlen1 : length (g_nodes st1) = S (length (g_nodes st))).
    { unfold st1. cbn [set_name with_names with_out push_node with_nodes g_nodes]. rewrite app_length. simpl. lia. }
    assert (Hnd : forall m, node_at st1 m = node_at (push_node st [] 2) m) by reflexivity.
    assert (Hoc : forall c, occs (g_nodes st1) c = occs (g_nodes st) c).
    { intros c. unfold st1. cbn [set_name with_names with_out push_node with_nodes g_nodes]. rewrite occs_app. cbn.
      change (cnt_c c []) with 0. lia. }
    assert (HA : refs_ok [] K (assign_node st1 t (length (g_nodes st)))).
    { apply refs_assign; auto.
      - lia.
      - apply (inv0_fresh st H0).
      - intros m u Hu Hm. change (g_nt st1) with (g_nt st) in Hu. rewrite Hnd, Hoc, node_at_push_old by eauto. apply Hc; auto.
      - intros m Hm Hne Hu. unfold is_dead. rewrite Hnd, node_at_push_old by lia. apply Hdead; [lia|exact Hu].
      - rewrite Hnd, node_at_push_new. cbn. lia.
      - rewrite Hoc, (referenced_occs st t Hr). apply cnt_c_nonneg. }
    assert (HIa : inv1 (assign_node st1 t (length (g_nodes st)))).
    { apply inv1_assign; auto; [lia|]. apply (inv0_fresh st H0). }
    set (st4 := assign_node st1 t (length (g_nodes st))) in *.
    (* one reference is added first and used by the new child afterwards *)
    set (n := length (g_nodes st)) in *.
    assert (Hl4 : length (g_nodes st4) = S n) by (unfold st4; rewrite assign_len; exact Hlen1).
    assert (Hswap : forall st5, st5 = inc_ref st4 s ->
              set_children st5 n (n_children (node_at st5 n) ++ [s]) = inc_ref (set_children st4 n (n_children (node_at st4 n) ++ [s])) s).
    { intros st5 ->. unfold inc_ref at 1 2. rewrite children_alter by reflexivity.
      assert (Eg : get_node (set_children st4 n (n_children (node_at st4 n) ++ [s])) s = get_node st4 s) by reflexivity.
      unfold set_children at 1, inc_ref at 1. rewrite Eg. unfold set_children. cbn [with_nodes g_nodes].
      unfold with_nodes; cbn [g_cl g_tn g_nt g_in g_out g_gates g_wires g_cross g_names]. f_equal.
      destruct (Nat.eq_dec n (get_node st4 s)) as [<-|Hne].
      - rewrite <- !list_alter_compose. apply list_alter_ext; [|reflexivity]. intros x _. reflexivity.
      - rewrite list_alter_commute by auto. reflexivity. }
    rewrite (Hswap _ eq_refl).
    apply refs_inc.
    + eapply inv0_frame; [apply setch_frame|apply HIa].
    + lia.
    + eapply refs_setch; [rewrite Hl4; lia|exact HA|]. intros c. rewrite cnt_c_app, cnt_c_cons. change (cnt_c c []) with 0. lia.
  - inversion Hs; subst; clear Hs. cbn [tidy] in Ht. destruct Hr as [Hr Hnin]. unfold create_lit. cbv zeta.
    set (n := length (g_nodes st)) in *.
    assert (Hp : refs_ok ch K (push_node st ch lit) \/ True) by (right; exact I). clear Hp.
    pose proof (incs_frame ch (push_node st ch lit)) as F.
    (* the new node is neither placed nor dead while the references are counted: count them without it *)
    assert (HQ : forall l st1 K1 owed, inv0 st1 -> (n < length (g_nodes st1))%nat -> g_nt st1 !! n = None ->
       K1 + Z.of_nat (length l) < 2 ^ 31 ->
       (forall m u, g_nt st1 !! m = Some u -> (2 <= m)%nat ->
          0 <= n_refs (node_at st1 m) <= K1 /\ occs (g_nodes st1) u <= n_refs (node_at st1 m) + cnt_c u (l ++ owed)) ->
       (forall m, (2 <= m < length (g_nodes st1))%nat -> m <> n -> g_nt st1 !! m = None -> is_dead st1 m = true) ->
       n_refs (node_at st1 n) = 0 ->
       let st2 := fold_left inc_ref l st1 in
       (forall m u, g_nt st2 !! m = Some u -> (2 <= m)%nat ->
          0 <= n_refs (node_at st2 m) <= K1 + Z.of_nat (length l) /\ occs (g_nodes st2) u <= n_refs (node_at st2 m) + cnt_c u owed) /\
       (forall m, (2 <= m < length (g_nodes st2))%nat -> m <> n -> g_nt st2 !! m = None -> is_dead st2 m = true) /\
       n_refs (node_at st2 n) = 0 /\ (forall c, occs (g_nodes st2) c = occs (g_nodes st1) c)).
    { clear -H2. induction l as [|c l IH]; intros st1 K1 owed I0 Hlen Hno HK Q1 Q2 Q3.
      - cbn. rewrite Z.add_0_r. auto.
      - cbn [fold_left length]. cbn [length] in HK.
        pose proof (inc_frame st1 c) as F1.
        assert (Hgn : get_node st1 c <> n).
        { intros E. apply (get_node_nt st1 c n I0) in E; [congruence|lia]. }
        specialize (IH (inc_ref st1 c) (K1 + 1) owed).
        assert (Hocc : forall d, occs (g_nodes (inc_ref st1 c)) d = occs (g_nodes st1) d).
        { intros d. unfold inc_ref. cbn [with_nodes g_nodes]. apply occs_alter_same. reflexivity. }
        destruct IH as (R1 & R2 & R3 & R4).
        + eapply inv0_frame; [exact F1|exact I0].
        + rewrite (fr_len _ _ F1). exact Hlen.
        + rewrite (fr_nt _ _ F1). exact Hno.
        + lia.
        + intros m u Hm Hm2. rewrite (fr_nt _ _ F1) in Hm. destruct (Q1 m u Hm Hm2) as [Hr Ho]. rewrite Hocc.
          cbn [app] in Ho. rewrite cnt_c_cons in Ho. unfold inc_ref. rewrite refs_alter.
          destruct (Nat.eqb_spec m (get_node st1 c)) as [E|Hne].
          * assert (Hmt : c = u). { symmetry in E. apply (get_node_nt st1 c m I0 E) in Hm2. congruence. }
            subst u. rewrite coord_eqb_refl in Ho. rewrite <- E. rewrite node_lookup; [|rewrite E; apply get_node_lt, I0].
            cbn [n_refs]. unfold w32. rewrite Z.mod_small by lia. lia.
          * assert (Hst : coord_eqb c u = false).
            { apply coord_eqb_false. intros ->. apply Hne. symmetry. apply nt_get_node; auto. }
            rewrite Hst in Ho. split; lia.
        + intros m Hm Hne Hnone. rewrite (fr_nt _ _ F1) in Hnone. rewrite (fr_len _ _ F1) in Hm.
          unfold is_dead, inc_ref. rewrite refs_alter. destruct (Nat.eqb_spec m (get_node st1 c)) as [E|Hne'].
          * symmetry in E. rewrite (get_node_nt st1 c m I0 E) in Hnone by lia. discriminate.
          * apply Q2; auto.
        + unfold inc_ref. rewrite refs_alter. destruct (Nat.eqb_spec n (get_node st1 c)); [congruence|exact Q3].
        + split; [intros m u Hm Hm2; destruct (R1 m u Hm Hm2); split; [lia|assumption]|].
          split; [exact R2|]. split; [exact R3|]. intros d. rewrite R4. apply Hocc. }
    destruct (HQ ch (push_node st ch lit) K []) as (R1 & R2 & R3 & R4).
    + apply inv0_push, H0.
    + cbn [push_node with_nodes g_nodes]. rewrite app_length. simpl. unfold n. lia.
    + apply (inv0_fresh st H0).
    + exact HK.
    + intros m u Hu Hm. change (g_nt (push_node st ch lit)) with (g_nt st) in Hu.
      rewrite node_at_push_old by eauto. destruct (Hc m u Hu Hm) as [K1 K2]. split; [exact K1|].
      cbn [push_node with_nodes g_nodes]. rewrite occs_app. cbn [occs n_children]. rewrite app_nil_r. change (cnt_c u []) with 0 in K2. lia.
    + intros m Hm Hne Hu. unfold is_dead. cbn [push_node with_nodes g_nodes] in Hm. rewrite app_length in Hm. cbn in Hm.
      unfold n in *. rewrite node_at_push_old by lia. apply Hdead; [lia|exact Hu].
    + unfold n. rewrite node_at_push_new. reflexivity.
    + apply refs_assign; auto.
      * eapply inv1_frame; [exact F|]. apply inv1_push, Hi.
      * eapply free_tile_same; [|exact Ht]. apply F.
      * rewrite (fr_len _ _ F). cbn [push_node with_nodes g_nodes]. rewrite app_length. simpl. unfold n. lia.
      * rewrite (fr_nt _ _ F). apply (inv0_fresh st H0).
      * rewrite R3. lia.
      * rewrite R4. cbn [push_node with_nodes g_nodes]. rewrite occs_app. cbn [occs n_children].
        rewrite (referenced_occs st t Hr), (cnt_c_notin t ch Hnin). reflexivity.
  - destruct Ht as (Hn2 & Hp & Hfree). destruct (placed_some st n H0 Hp) as [Hnt Htn].
    assert (Hn : (n < length (g_nodes st))%nat) by eauto.
    rewrite move_node_unfold in Hs by exact Hn. inversion Hs; subst st'; clear Hs.
    (* start: drop the old children *)
    assert (HS : refs_ok [] K (mv_start st n)).
    { unfold mv_start. set (old := n_children (node_at st n)).
      assert (HD : refs_ok (rev old ++ []) K (fold_left dec_ref old st)).
      { apply refs_decs; auto; [lia|]. intros c. rewrite app_nil_r. eapply occs_ge. apply node_lookup, Hn. }
      rewrite app_nil_r in HD. eapply refs_setch; [rewrite (fr_len _ _ (decs_frame _ _)); exact Hn|exact HD|].
      intros c. rewrite decs_children. fold old. rewrite cnt_c_rev. change (cnt_c c []) with 0. lia. }
    assert (HM : refs_ok [] K (mv_place st n t) /\ inv0 (mv_place st n t) /\ length (g_nodes (mv_place st n t)) = length (g_nodes st)).
    { unfold mv_place. destruct (coord_eqb t (get_tile st n)) eqn:Et.
      - split; [exact HS|]. split; [eapply inv0_frame; [apply mv_start_frame|exact H0]|]. apply (mv_start_frame st n).
      - destruct Hfree as [Hfree|Hx]; [|subst t; rewrite coord_eqb_refl in Et; discriminate].
        destruct Hr as [Hx|Hr]; [subst t; rewrite coord_eqb_refl in Et; discriminate|].
        destruct (mv_relabel_maps st n t) as (E1 & E2 & E3 & E4 & E5 & E6 & E7 & E8 & E9 & E10 & E11).
        set (r := mv_relabel st n t) in *. set (old := get_tile st n) in *.
        assert (Hr1 : inv1 r).
        { apply (inv1_same st); auto. eapply inv0_same; [exact E1|exact E2|exact E3|apply H0]. }
        assert (HRr : refs_ok [] K r).
        { eapply refs_same; [exact E11| |exact HS]. rewrite E2. symmetry. apply (mv_start_frame st n). }
        pose proof (refs_clear r old [] K (i_0 _ Hr1) HRr) as [HC1 HC2].
        pose proof (inv1_clear r old Hr1) as HCi.
        assert (Hno : g_nt (clear_tile r old) !! n = None).
        { rewrite clear_nt, E1, Htn, E2. apply lookup_delete. }
        assert (Hrn : 0 <= n_refs (node_at r n) <= K).
        { apply (r_cnt _ _ _ HRr n old); [rewrite E2; exact Hnt|exact Hn2]. }
        assert (Hfree' : free_tile (clear_tile r old) t).
        { destruct Hfree as [F1 F2]. split; [exact F1|]. unfold is_empty_tile, get_node in *. rewrite clear_tn, E1.
          rewrite lookup_delete_ne; [exact F2|]. intros Eo. rewrite <- Eo in Et. rewrite coord_eqb_refl in Et. discriminate. }
        (* assign and revive: push the revival first, it only touches n *)
        assert (Hrev : n_refs (node_at (revive_node (assign_node (clear_tile r old) t n) n) n) = n_refs (node_at r n)).
        { unfold revive_node. assert (is_constant n = false) as -> by (unfold is_constant; apply Nat.leb_gt; lia).
          rewrite refs_alter, Nat.eqb_refl.
          assert (Ec : clear_tile (clear_tile r old) t = clear_tile r old).
          { unfold clear_tile at 1. rewrite (free_none _ t HCi Hfree'). reflexivity. }
          rewrite assign_nodes. destruct Hfree as [Hd _]. rewrite Hd, Ec.
          rewrite node_lookup by (rewrite clear_len, E3; exact Hn). cbn [n_refs].
          rewrite clear_refs, E1. rewrite Htn, Nat.eqb_refl.
          assert (is_constant n = false) as -> by (unfold is_constant; apply Nat.leb_gt; lia). cbn [andb negb].
          rewrite node_lookup by (rewrite E3; exact Hn). apply revive_kill. lia. }
        assert (Hlen : length (g_nodes (revive_node (assign_node (clear_tile r old) t n) n)) = length (g_nodes st)).
        { rewrite (fr_len _ _ (revive_frame _ _)), assign_len, clear_len. exact E3. }
        split; [|split; [|exact Hlen]].
        2: { eapply inv0_frame; [apply revive_frame|]. apply inv0_assign; [apply HCi|rewrite clear_len, E3; exact Hn|exact Hno]. }
        assert (Hoc : forall c, occs (g_nodes (revive_node (assign_node (clear_tile r old) t n) n)) c = occs (g_nodes r) c).
        { intros c. unfold revive_node. assert (is_constant n = false) as -> by (unfold is_constant; apply Nat.leb_gt; lia).
          cbn [with_nodes g_nodes]. rewrite occs_alter_same by reflexivity. rewrite assign_nodes. destruct Hfree as [Hd _]. rewrite Hd.
          rewrite !clear_occs. reflexivity. }
        assert (Hoth : forall m, m <> n -> n_refs (node_at (revive_node (assign_node (clear_tile r old) t n) n) m) = n_refs (node_at (clear_tile r old) m)).
        { intros m Hne. unfold revive_node. assert (is_constant n = false) as -> by (unfold is_constant; apply Nat.leb_gt; lia).
          rewrite refs_alter. destruct (Nat.eqb_spec m n); [congruence|].
          assert (Ec : clear_tile (clear_tile r old) t = clear_tile r old).
          { unfold clear_tile at 1. rewrite (free_none _ t HCi Hfree'). reflexivity. }
          unfold node_at. rewrite assign_nodes. destruct Hfree as [Hd _]. rewrite Hd, Ec. reflexivity. }
        assert (Hnt' : g_nt (revive_node (assign_node (clear_tile r old) t n) n) = <[n := t]> (g_nt (clear_tile r old))).
        { rewrite (fr_nt _ _ (revive_frame _ _)). apply (assign_free (clear_tile r old) t n HCi Hfree'); [|exact Hno].
          rewrite clear_len, E3. split; [exact Hn2|exact Hn]. }
        assert (Hot : occs (g_nodes r) t = 0).
        { rewrite E11. unfold mv_start. rewrite setch_occs by (rewrite (fr_len _ _ (decs_frame _ _)); exact Hn).
          rewrite decs_children. assert (Hdd : forall l s c, occs (g_nodes (fold_left dec_ref l s)) c = occs (g_nodes s) c).
          { induction l as [|x l IH]; intros s c; [reflexivity|]. cbn [fold_left]. rewrite IH, occs_dec. reflexivity. }
          rewrite Hdd, (referenced_occs st t Hr). change (cnt_c t []) with 0.
          rewrite (cnt_c_notin t); [reflexivity|]. intros Hin. apply Hr. exists n. exact Hin. }
        constructor.
        + intros m u. rewrite Hnt', lookup_insert_Some, Hoc. intros [[<- <-]|[Hne Hu]] Hm2.
          * rewrite Hrev, Hot. change (cnt_c t []) with 0. lia.
          * rewrite Hoth by auto. destruct (HC1 m u Hu Hm2) as [C1 C2]. rewrite clear_occs in C2. auto.
        + intros m Hm. rewrite Hnt', lookup_insert_None. intros [Hu Hne]. unfold is_dead. rewrite Hoth by auto.
          apply HC2; [rewrite clear_len, E3; lia|exact Hu]. }
    destruct HM as (HM & HMi & HMl).
    apply refs_incs.
    + eapply inv0_frame; [apply setch_frame|exact HMi].
    + exact HK.
    + eapply refs_setch; [rewrite HMl; exact Hn|exact HM|]. intros c. rewrite app_nil_r, cnt_c_app. change (cnt_c c []) with 0. lia.
  - destruct Hr.
  - inversion Hs; subst. rewrite Z.add_0_r. apply refs_clear; auto.
  - inversion Hs; subst. rewrite Z.add_0_r. eapply refs_same; [| |exact H]; reflexivity.
  - inversion Hs; subst. rewrite Z.add_0_r. eapply refs_same; [| |exact H]; reflexivity.
Qed.
Lemma refs_run ops : forall st st' K, inv1 st -> each_call ref_tidy st ops -> g_run st ops = Some st' -> 0 <= K ->
  K + total_refs ops < 2 ^ 31 -> refs_ok [] K st -> refs_ok [] (K + total_refs ops) st' /\ inv1 st'.
Proof.
  induction ops as [|o r IH]; intros st st' K Hi Hc Hr HK HT H; cbn in *.
  - inversion Hr; subst. unfold total_refs. cbn. rewrite Z.add_0_r. auto.
  - destruct Hc as [Ho Hc]. destruct (g_step st o) as [s1|] eqn:E; [|discriminate].
    assert (ET : total_refs (o :: r) = Z.of_nat (refs_of o) + total_refs r).
    { unfold total_refs. cbn [map list_sum]. rewrite <- Nat2Z.inj_add. reflexivity. }
    assert (Hpos : 0 <= total_refs r) by (unfold total_refs; lia).
    rewrite ET in *. rewrite Z.add_assoc in *. apply (IH s1); auto.
    + eapply inv1_step; [exact Hi|eapply tidy_no_const; apply Ho|exact E].
    + lia.
    + apply (refs_step st); auto. lia.
Qed.
Lemma refs_empty cl : refs_ok [] 0 (g_empty cl).
Proof.
  constructor.
  - intros m t. cbn [g_empty g_nt]. rewrite !lookup_insert_Some, lookup_empty. intros [[<- _]|[_ [[<- _]|[_ H]]]] Hm; [lia|lia|discriminate].
  - intros m Hm. cbn in Hm. lia.
Qed.
