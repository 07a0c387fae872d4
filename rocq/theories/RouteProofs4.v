(** Proofs about removing the routing of a layout. *)
From Coq Require Import ZArith Bool List Lia ZifyBool.
From stdpp Require Import gmap list.
From Verif Require Import CoordModel CoordSpec CoordProofs GridModel GridSpec GridProofs GridProps CoordMap ClockModel ClockProofs
  GateModel GateSpec GateProofs GateProofs2 GateProofs3 PathSpec RouteModel RouteSpec RouteProofs.
Import ListNotations.
Local Open Scope Z_scope.

Lemma conn_forwards st n : is_connection_wire st n = true <-> forwards st n.
Proof.
  unfold is_connection_wire, is_fanout, forwards, fanout_size. destruct (is_wire st n); cbn [andb negb].
  - destruct (is_pi st n), (is_po st n); cbn; rewrite ?andb_true_r, ?andb_false_r; split; intros H; try discriminate; try tauto.
    + destruct H as (_ & K & _). discriminate.
    + destruct H as (_ & K & _). discriminate.
    + destruct H as (_ & _ & K & _). discriminate.
    + repeat split; auto. lia.
    + lia.
  - split; [discriminate|]. intros [K _]. discriminate.
Qed.

(** Fan-outs after some nodes have lost their connections or their place. *)
Lemma flat_map_len {A B} (f g : A -> list B) l : (forall x, In x l -> (length (f x) <= length (g x))%nat) ->
  (length (flat_map f l) <= length (flat_map g l))%nat.
Proof.
  induction l as [|a r IH]; intros H; cbn [flat_map]; [lia|]. rewrite !app_length. specialize (H a (or_introl eq_refl)) as Ha.
  specialize (IH (fun x Hx => H x (or_intror Hx))). lia.
Qed.
Lemma flat_map_ext_in {A B} (f g : A -> list B) l : (forall x, In x l -> f x = g x) -> flat_map f l = flat_map g l.
Proof.
  induction l as [|a r IH]; intros H; cbn [flat_map]; [reflexivity|]. rewrite (H a) by (left; reflexivity). f_equal. apply IH. intros x Hx. apply H. right. exact Hx.
Qed.
(** [s] is [st] with some fan-ins and places removed. *)
Record weaker (st s : glayout) : Prop := mkWeaker {
  wk_cl : g_cl s = g_cl st;
  wk_node : forall t, get_node s t = get_node st t \/ get_node s t = 0%nat;
  wk_ch : forall m, n_children (node_at s m) = n_children (node_at st m) \/ n_children (node_at s m) = [];
  wk_0 : n_children (node_at s 0) = [] }.
Definition app_at (st : glayout) (nt adj : coord) : list nat := if is_child st (get_node st adj) nt then [get_node st adj] else [].
Lemma app_at_weaker st s nt adj : weaker st s -> app_at s nt adj = app_at st nt adj \/ app_at s nt adj = [].
Proof.
  intros [H1 H2 H3 H4]. unfold app_at, is_child. destruct (H2 adj) as [->| ->].
  - destruct (H3 (get_node st adj)) as [->| ->]; cbn; auto.
  - rewrite H4. cbn. auto.
Qed.
Lemma fanout_at_app st nt u : fanout_at st nt u =
  app_at st nt u ++ (if coord_eqb (above (cl_dim (g_cl st)) u) u then [] else app_at st nt (above (cl_dim (g_cl st)) u)) ++
  (if coord_eqb (below (cl_dim (g_cl st)) u) u then [] else app_at st nt (below (cl_dim (g_cl st)) u)).
Proof. reflexivity. Qed.
Lemma fanout_weaker st s n : weaker st s -> get_tile s n = get_tile st n ->
  (length (foreach_fanout true s n) <= length (foreach_fanout true st n))%nat.
Proof.
  intros W E. pose proof W as [Ecl _ _ _]. unfold foreach_fanout. destruct (is_constant n); [lia|]. cbv zeta. rewrite E, Ecl.
  apply flat_map_len. intros u _. rewrite !fanout_at_app, Ecl, !app_length.
  assert (A : forall v, (length (app_at s (get_tile st n) v) <= length (app_at st (get_tile st n) v))%nat).
  { intros v. destruct (app_at_weaker st s (get_tile st n) v W) as [->| ->]; cbn; lia. }
  pose proof (A u). pose proof (A (above (cl_dim (g_cl st)) u)). pose proof (A (below (cl_dim (g_cl st)) u)).
  destruct (coord_eqb _ u), (coord_eqb _ u); cbn [length]; lia.
Qed.
Lemma fanout_same st s n : weaker st s -> get_tile s n = get_tile st n ->
  (forall m, In m (foreach_fanout true st n) -> n_children (node_at s m) = n_children (node_at st m) /\ forall t, get_node st t = m -> get_node s t = m) ->
  foreach_fanout true s n = foreach_fanout true st n.
Proof.
  intros W E H. pose proof W as [Ecl _ _ _]. unfold foreach_fanout in *. destruct (is_constant n); [reflexivity|]. cbv zeta in *. rewrite E, Ecl.
  apply flat_map_ext_in. intros u Hu. rewrite !fanout_at_app, Ecl.
  assert (A : forall v, (forall m, In m (app_at st (get_tile st n) v) -> In m (fanout_at st (get_tile st n) u)) -> app_at s (get_tile st n) v = app_at st (get_tile st n) v).
  { intros v Hv. destruct (app_at_weaker st s (get_tile st n) v W) as [K|K]; [exact K|]. unfold app_at at 2.
    destruct (is_child st (get_node st v) (get_tile st n)) eqn:Ec; [|rewrite K; reflexivity].
    assert (In (get_node st v) (fanout_at st (get_tile st n) u)) as Hm by (apply Hv; unfold app_at; rewrite Ec; left; reflexivity).
    destruct (H (get_node st v)) as [H1 H2]; [apply in_flat_map; exists u; auto|].
    unfold app_at. rewrite (H2 v eq_refl). unfold is_child in *. rewrite H1, Ec. reflexivity. }
  rewrite fanout_at_app in A. rewrite A.
  - destruct (coord_eqb (above (cl_dim (g_cl st)) u) u) eqn:E1, (coord_eqb (below (cl_dim (g_cl st)) u) u) eqn:E2; rewrite ?A; auto; intros m Hm; rewrite !in_app_iff; auto.
  - intros m Hm. rewrite !in_app_iff. auto.
Qed.

(** Fan-out wires are older than what they feed. *)
Definition fanouts_first (st : glayout) : Prop := forall n m, is_wire st n = true -> (2 <= length (foreach_fanout true st n))%nat -> passes st n m -> (n < m)%nat.

(** State of the loop before node [k]. *)
Record loop_inv (st s : glayout) (K : Z) (k : nat) : Prop := mkLoop {
  li_1 : inv1 s; li_clean : const_clean s; li_refs : refs_ok [] K s;
  li_cl : g_cl s = g_cl st; li_in : g_in s = g_in st; li_out : g_out s = g_out st; li_names : g_names s = g_names st;
  li_len : length (g_nodes s) = length (g_nodes st);
  li_lit : forall m, n_lit (node_at s m) = n_lit (node_at st m);
  li_next : forall n, (k <= n)%nat -> g_nt s !! n = g_nt st !! n /\ n_children (node_at s n) = n_children (node_at st n);
  li_low : forall n, (n <= 1)%nat -> g_nt s !! n = g_nt st !! n;
  li_done : forall n, (2 <= n < k)%nat ->
    (g_nt st !! n = None -> g_nt s !! n = None /\ (n_children (node_at s n) = n_children (node_at st n))) /\
    (forall t, g_nt st !! n = Some t -> if is_connection_wire st n then g_nt s !! n = None /\ n_children (node_at s n) = n_children (node_at st n)
                                        else g_nt s !! n = Some t /\ n_children (node_at s n) = []) }.

Lemma loop_nt st s K k n : loop_inv st s K k -> g_nt s !! n = g_nt st !! n \/ g_nt s !! n = None.
Proof.
  intros J. destruct (le_lt_dec k n) as [H|H]; [left; apply (li_next _ _ _ _ J n H)|].
  destruct (le_lt_dec 2 n) as [H2|H2]; [|left; apply (li_low _ _ _ _ J); lia].
  destruct (li_done _ _ _ _ J n ltac:(lia)) as [D1 D2]. destruct (g_nt st !! n) as [t|] eqn:E; [|right; apply D1; reflexivity].
  specialize (D2 t eq_refl). destruct (is_connection_wire st n); [right|left]; apply D2.
Qed.
Lemma loop_weaker st s K k : inv1 st -> const_clean st -> loop_inv st s K k -> weaker st s.
Proof.
  intros Hi Hc J. constructor.
  - apply J.
  - intros t. unfold get_node. destruct (g_tn s !! t) as [n|] eqn:E; simpl; [|auto].
    apply (i_bij _ (i_0 _ (li_1 _ _ _ _ J))) in E. destruct (loop_nt _ _ _ _ n J) as [E'|E']; [|congruence].
    rewrite E in E'. symmetry in E'. apply (i_bij _ (i_0 _ Hi)) in E'. rewrite E'. auto.
  - intros m. destruct (le_lt_dec k m) as [H|H]; [left; apply (li_next _ _ _ _ J m H)|].
    destruct (le_lt_dec 2 m) as [H2|H2]; [|right; apply (li_clean _ _ _ _ J); lia].
    destruct (li_done _ _ _ _ J m ltac:(lia)) as [D1 D2]. destruct (g_nt st !! m) as [t|] eqn:E; [|left; apply D1; reflexivity].
    specialize (D2 t eq_refl). destruct (is_connection_wire st m); [left|right]; apply D2.
  - apply (li_clean _ _ _ _ J). lia.
Qed.
Lemma loop_conn st s K k : inv1 st -> const_clean st -> fanouts_first st -> loop_inv st s K k -> (2 <= k)%nat -> is_connection_wire s k = is_connection_wire st k.
Proof.
  intros Hi Hc Ho J Hk. pose proof (loop_weaker _ _ _ _ Hi Hc J) as W.
  destruct (li_next _ _ _ _ J k (le_n _)) as [Ent _].
  assert (Et : get_tile s k = get_tile st k) by (unfold get_tile; rewrite Ent; reflexivity).
  assert (Ew : is_wire s k = is_wire st k) by (unfold is_wire; rewrite (li_lit _ _ _ _ J); reflexivity).
  assert (Ep : is_pi s k = is_pi st k) by (unfold is_pi; rewrite (li_in _ _ _ _ J); reflexivity).
  assert (Eo : is_po s k = is_po st k).
  { unfold is_po. rewrite (li_out _ _ _ _ J).
    assert (G : forall p, Nat.eqb (get_node s p) k = Nat.eqb (get_node st p) k).
    { intros p. apply Bool.eq_iff_eq_true. rewrite !Nat.eqb_eq. split; intros H.
      - apply (get_node_nt s p k (i_0 _ (li_1 _ _ _ _ J))) in H; [|exact Hk]. rewrite Ent in H. eapply nt_get_node; [apply Hi|exact H].
      - apply (get_node_nt st p k (i_0 _ Hi)) in H; [|exact Hk]. rewrite <- Ent in H. eapply nt_get_node; [apply (li_1 _ _ _ _ J)|exact H]. }
    induction (g_out st) as [|p r IH]; [reflexivity|]. cbn [existsb]. rewrite G, IH. reflexivity. }
  unfold is_connection_wire, is_fanout. rewrite Ew, Ep, Eo. destruct (is_wire st k) eqn:Ewk; [|reflexivity]. cbn [andb].
  f_equal. f_equal. f_equal. unfold fanout_size.
  destruct (le_lt_dec 2 (length (foreach_fanout true st k))) as [Hl|Hl].
  - rewrite (fanout_same st s k W Et); [reflexivity|]. intros m Hm. pose proof (Ho k m Ewk Hl Hm) as Hlt.
    destruct (li_next _ _ _ _ J m ltac:(lia)) as [Em Ec]. split; [exact Ec|]. intros t Ht.
    apply (get_node_nt st t m (i_0 _ Hi)) in Ht; [|lia]. rewrite <- Em in Ht. eapply nt_get_node; [apply (li_1 _ _ _ _ J)|exact Ht].
  - pose proof (fanout_weaker st s k W Et). apply Bool.eq_iff_eq_true. rewrite !Z.ltb_lt. lia.
Qed.

Lemma clear_wire_out s n t : inv1 s -> (2 <= n)%nat -> g_nt s !! n = Some t -> is_po s n = false -> g_out (clear_tile s t) = g_out s.
Proof.
  intros Hi Hn Ht Hp. apply (i_bij _ (i_0 _ Hi)) in Ht. rewrite clear_out, Ht.
  assert (E : erase_first (fun p => Nat.eqb (get_node s p) n) (g_out s) = g_out s).
  { apply erase_first_none. intros x Hx. unfold is_po in Hp. apply not_true_iff_false. intros K. apply not_true_iff_false in Hp. apply Hp.
    apply existsb_exists. exists x. auto. }
  rewrite E. destruct (cd t), (is_wire s n); reflexivity.
Qed.

Lemma loop_step st s K k : inv1 st -> const_clean st -> fanouts_first st -> 0 <= K < 2 ^ 31 ->
  (forall m t, g_nt st !! m = Some t -> (2 <= m)%nat -> cd t = false) ->
  loop_inv st s K k -> (k < length (g_nodes st))%nat ->
  exists s', (if is_dead s k then Some s else clear_step s k) = Some s' /\ loop_inv st s' K (S k).
Proof.
  intros Hi Hc Ho HK Hlive J Hk. pose proof J as [J1 J2 J3 Jcl Jin Jout Jnm Jlen Jlit Jnext Jlow Jdone].
  destruct (Jnext k (le_n _)) as [Ent Ech].
  destruct (le_lt_dec 2 k) as [Hk2|Hk2].
  2: { exists s. split.
    - destruct (is_dead s k); [reflexivity|]. unfold clear_step. assert (is_constant k = true) as -> by (unfold is_constant; apply Nat.leb_le; lia). reflexivity.
    - constructor; auto; [intros n Hn; apply Jnext; lia|intros n Hn; apply Jdone; lia]. }
  destruct (g_nt st !! k) as [t|] eqn:Et.
  2: { (* not placed: dead *)
    exists s. rewrite (r_dead _ _ _ J3 k ltac:(lia) Ent). split; [reflexivity|].
    constructor; auto; [intros n Hn; apply Jnext; lia|]. intros n Hn. destruct (Nat.eq_dec n k) as [->|Hne]; [|apply Jdone; lia].
    split; [auto|]. intros u Hu. congruence. }
  assert (Dt := Hlive k t Et Hk2).
  assert (Hal : is_dead s k = false).
  { unfold is_dead. apply alive_small. pose proof (r_cnt _ _ _ J3 k t Ent Hk2). lia. }
  assert (Hpl : placed s k) by (unfold placed, get_tile; rewrite Ent; exact Dt).
  assert (Htile : get_tile s k = t) by (unfold get_tile; rewrite Ent; reflexivity).
  pose proof (loop_conn st s K k Hi Hc Ho J Hk2) as Econn.
  rewrite Hal. unfold clear_step. assert (is_constant k = false) as -> by (unfold is_constant; apply Nat.leb_gt; lia).
  rewrite Htile. cbv zeta.
  replace (is_wire s k && negb (is_fanout s k) && negb (is_pi s k) && negb (is_po s k)) with (is_connection_wire s k) by reflexivity.
  rewrite Econn. destruct (is_connection_wire st k) eqn:Ec.
  - eexists. split; [reflexivity|].
    assert (Hpo : is_po s k = false).
    { unfold is_connection_wire in Econn. rewrite !andb_true_iff, !negb_true_iff in Econn. apply Econn. }
    assert (Etn : g_tn s !! t = Some k) by (apply (i_bij _ (i_0 _ J1)); exact Ent).
    assert (Hnt : forall n, g_nt (clear_tile s t) !! n = if Nat.eqb n k then None else g_nt s !! n).
    { intros n. rewrite clear_nt, Etn. destruct (Nat.eqb_spec n k) as [->|Hne]; [apply lookup_delete|apply lookup_delete_ne; congruence]. }
    constructor.
    + apply inv1_clear, J1.
    + intros n Hn. rewrite clear_children. apply J2, Hn.
    + apply refs_clear; [apply J1|exact J3].
    + rewrite clear_cl. exact Jcl.
    + rewrite clear_in. exact Jin.
    + rewrite (clear_wire_out s k t J1 Hk2 Ent Hpo). exact Jout.
    + rewrite clear_names. exact Jnm.
    + rewrite clear_len. exact Jlen.
    + intros m. rewrite clear_lit. apply Jlit.
    + intros n Hn. rewrite Hnt, clear_children. destruct (Nat.eqb_spec n k); [lia|]. apply Jnext. lia.
    + intros n Hn. rewrite Hnt. destruct (Nat.eqb_spec n k); [lia|]. apply Jlow, Hn.
    + intros n Hn. rewrite Hnt, clear_children. destruct (Nat.eqb_spec n k) as [->|Hne].
      * rewrite Et, Ec. split; [discriminate|]. intros u _. auto.
      * apply Jdone. lia.
  - destruct (move_node s k t []) as [s'|] eqn:Em.
    2: { exfalso. unfold move_node in Em. rewrite Jlen in Em. apply Nat.ltb_lt in Hk. rewrite Hk in Em. discriminate. }
    exists s'. split; [reflexivity|].
    assert (Ho1 : ref_tidy s (MoveNode k t [])) by (split; [split; [exact Hk2|split; [exact Hpl|right; symmetry; exact Htile]]|left; symmetry; exact Htile]).
    assert (Es : g_step s (MoveNode k t []) = Some s') by exact Em.
    destruct (move_tidy s k t [] s' J1 Hk2 Hpl (or_intror (eq_sym Htile)) Em) as (M1 & M2 & M3 & M4 & M5 & M6 & M7 & M8 & M9 & _).
    assert (Hnt : forall n, g_nt s' !! n = g_nt s !! n).
    { intros n. rewrite M2. destruct (decide (k = n)) as [<-|Hne]; [rewrite lookup_insert, Ent; reflexivity|rewrite lookup_insert_ne by exact Hne; reflexivity]. }
    constructor.
    + eapply inv1_step; [exact J1| |exact Es]. constructor; [exact Hk2|constructor].
    + eapply clean_step; [apply J1|exact J2| |exact Es]. constructor; [exact Hk2|constructor].
    + pose proof (refs_step s (MoveNode k t []) s' K J1 Ho1 Es ltac:(lia)) as R. cbn [refs_of length] in R. rewrite Z.add_0_r in R. apply R; [lia|exact J3].
    + rewrite M6. exact Jcl.
    + rewrite M4. exact Jin.
    + rewrite M3, Htile. rewrite <- Jout. transitivity (map (fun p => p) (g_out s)); [|apply map_id]. apply map_ext. intros p.
      destruct (coord_eqb p t) eqn:E; [apply coord_eqb_spec in E; auto|reflexivity].
    + rewrite M5. exact Jnm.
    + rewrite M7. exact Jlen.
    + intros m. rewrite M8. apply Jlit.
    + intros n Hn. rewrite Hnt, M9. destruct (Nat.eqb_spec n k); [lia|]. apply Jnext. lia.
    + intros n Hn. rewrite Hnt. apply Jlow, Hn.
    + intros n Hn. rewrite Hnt, M9. destruct (Nat.eqb_spec n k) as [->|Hne].
      * rewrite Et, Ec. split; [discriminate|]. intros u Hu. split; [congruence|reflexivity].
      * apply Jdone. lia.
Qed.

Lemma clear_loop st s K k n : inv1 st -> const_clean st -> fanouts_first st -> 0 <= K < 2 ^ 31 ->
  (forall m t, g_nt st !! m = Some t -> (2 <= m)%nat -> cd t = false) ->
  loop_inv st s K k -> (k + n <= length (g_nodes st))%nat ->
  exists s', fold_left (fun a g => match a with Some s => if is_dead s g then Some s else clear_step s g | None => None end) (seq k n) (Some s) = Some s' /\
    loop_inv st s' K (k + n).
Proof.
  intros Hi Hc Ho HK Hl. revert s k. induction n as [|n IH]; intros s k J Hk; [exists s; rewrite Nat.add_0_r; auto|].
  destruct (loop_step st s K k Hi Hc Ho HK Hl J ltac:(lia)) as (s1 & E & J1). cbn [seq fold_left]. rewrite E.
  destruct (IH s1 (S k) J1 ltac:(lia)) as (s2 & E2 & J2). exists s2. split; [exact E2|]. replace (k + S n)%nat with (S k + n)%nat by lia. exact J2.
Qed.

Lemma clear_routing_ok st K : inv1 st -> const_clean st -> refs_ok [] K st -> fanouts_first st -> 0 <= K < 2 ^ 31 ->
  exists s, clear_routing st = Some s /\ loop_inv st s K (length (g_nodes st)).
Proof.
  intros Hi Hc Hr Ho HK.
  assert (Hl : forall m t, g_nt st !! m = Some t -> (2 <= m)%nat -> cd t = false).
  { intros m t Hm H2. apply (i_bij _ (i_0 _ Hi)) in Hm. destruct (cd t) eqn:D; [|reflexivity]. pose proof (i_dead _ (i_0 _ Hi) _ _ Hm D). lia. }
  unfold clear_routing. destruct (clear_loop st st K 0 (length (g_nodes st)) Hi Hc Ho HK Hl) as (s & E & J); [|lia|exists s; auto].
  constructor; auto. intros n Hn. lia.
Qed.

(** The result, tile by tile. *)
Lemma cleared_tiles st s K : inv1 st -> const_clean st -> loop_inv st s K (length (g_nodes st)) -> forall t, cd t = false ->
  (routing_wire st t -> is_empty_tile s t = true) /\
  (~ routing_wire st t -> get_node s t = get_node st t /\ (is_empty_tile st t = false -> n_children (node_at s (get_node st t)) = [])).
Proof.
  intros Hi Hc J t Dt. pose proof (li_1 _ _ _ _ J) as J1.
  assert (Hsome : forall n, g_tn s !! t = Some n -> g_nt s !! n = Some t /\ g_tn st !! t = Some n).
  { intros n Hn. apply (i_bij _ (i_0 _ J1)) in Hn. split; [exact Hn|]. destruct (loop_nt _ _ _ _ n J) as [E|E]; [|congruence].
    rewrite Hn in E. symmetry in E. apply (i_bij _ (i_0 _ Hi)). exact E. }
  unfold routing_wire, is_empty_tile, get_node. destruct (g_tn st !! t) as [n|] eqn:E; simpl.
  - assert (H2 : (2 <= n)%nat) by (eapply (i_live _ Hi); [exact E|exact Dt]).
    assert (Hn : (n < length (g_nodes st))%nat) by (eapply i_rng; [apply Hi|exact E]).
    pose proof E as E'. apply (i_bij _ (i_0 _ Hi)) in E'. destruct (li_done _ _ _ _ J n ltac:(lia)) as [_ D]. specialize (D t E').
    rewrite <- conn_forwards. destruct (is_connection_wire st n) eqn:Ec.
    + split; [intros _|intros K0; exfalso; apply K0; repeat split; auto; apply Nat.eqb_neq; lia].
      destruct (g_tn s !! t) as [m|] eqn:Es; [|reflexivity]. destruct (Hsome m eq_refl) as [K1 K2]. injection K2 as <-. destruct D. congruence.
    + split; [intros (_ & _ & K0); discriminate|]. intros _. destruct D as [D1 D2]. apply (i_bij _ (i_0 _ J1)) in D1. rewrite D1. auto.
  - assert (g_tn s !! t = None) as -> by (destruct (g_tn s !! t) as [m|] eqn:Es; [destruct (Hsome m eq_refl); congruence|reflexivity]).
    split; [reflexivity|]. intros _. split; [reflexivity|discriminate].
Qed.
