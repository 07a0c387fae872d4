(** Proofs about routing along a path. *)
From Coq Require Import ZArith Bool List Lia ZifyBool.
From stdpp Require Import gmap list.
From Verif Require Import CoordModel CoordSpec CoordProofs GridModel GridSpec GridProofs GridProps CoordMap ClockModel ClockProofs
  GateModel GateSpec GateProofs GateProofs2 GateProofs3 PathSpec RouteModel RouteSpec RouteProofs RouteProofs2.
Import ListNotations.
Local Open Scope Z_scope.

(** Creating a wire on a free tile. *)
Record added (st st' : glayout) (sig t : coord) : Prop := mkAdded {
  a_inv : inv1 st';
  a_len : length (g_nodes st') = S (length (g_nodes st));
  a_tn : g_tn st' = <[t := length (g_nodes st)]> (g_tn st);
  a_nt : g_nt st' = <[length (g_nodes st) := t]> (g_nt st);
  a_old : forall m, (m < length (g_nodes st))%nat -> n_children (node_at st' m) = n_children (node_at st m) /\ n_lit (node_at st' m) = n_lit (node_at st m);
  a_new : n_children (node_at st' (length (g_nodes st))) = [sig] /\ n_lit (node_at st' (length (g_nodes st))) = 2;
  a_in : g_in st' = g_in st; a_out : g_out st' = g_out st; a_cl : g_cl st' = g_cl st; a_names : g_names st' = g_names st }.
Lemma create_wire_added st sig t : inv1 st -> free_tile st t -> added st (create_lit st [sig] 2 t) sig t.
Proof.
  intros Hi Hf. pose proof (free_none st t Hi Hf) as Hnone. pose proof (i_two _ (i_0 _ Hi)) as H2. pose proof Hf as [Hd _].
  unfold create_lit. cbv zeta. cbn [fold_left]. set (n := length (g_nodes st)).
  set (st2 := inc_ref (push_node st [sig] 2) sig).
  pose proof (inc_frame (push_node st [sig] 2) sig) as F. fold st2 in F.
  assert (Hi2 : inv1 st2) by (eapply inv1_frame; [exact F|apply inv1_push, Hi]).
  assert (Hl2 : length (g_nodes st2) = S n).
  { rewrite (fr_len _ _ F). cbn [push_node with_nodes g_nodes]. rewrite app_length. cbn [length]. fold n. lia. }
  assert (Htn2 : g_tn st2 = g_tn st) by (rewrite (fr_tn _ _ F); reflexivity).
  assert (Hnt2 : g_nt st2 = g_nt st) by (rewrite (fr_nt _ _ F); reflexivity).
  assert (Hf2 : free_tile st2 t) by (eapply free_tile_same; eauto).
  assert (Hn2 : g_nt st2 !! n = None) by (rewrite Hnt2; apply inv0_fresh, Hi).
  assert (Hch : forall m, n_children (node_at st2 m) = n_children (node_at (push_node st [sig] 2) m)).
  { intros m. unfold st2, inc_ref. apply children_alter. reflexivity. }
  destruct (assign_free st2 t n Hi2 Hf2 ltac:(lia) Hn2) as (E1 & E2 & E3).
  constructor.
  - apply inv1_assign; auto. lia.
  - rewrite assign_len. exact Hl2.
  - rewrite assign_tn, Hd, Htn2. reflexivity.
  - rewrite E1, Hnt2. reflexivity.
  - intros m Hm. rewrite assign_children, assign_lit, Hch, (fr_lit _ _ F), node_at_push_old by exact Hm. auto.
  - rewrite assign_children, assign_lit, Hch, (fr_lit _ _ F). unfold n. rewrite node_at_push_new. auto.
  - rewrite E3, (fr_in _ _ F). reflexivity.
  - rewrite E2, (fr_out _ _ F). reflexivity.
  - rewrite assign_cl, (fr_cl _ _ F). reflexivity.
  - rewrite assign_names, (fr_names _ _ F). reflexivity.
Qed.
Lemma create_wire_wf st sig t : wf st -> free_tile st t -> inb (cl_dim (g_cl st)) t -> wf (create_lit st [sig] 2 t).
Proof.
  intros Hw Hf Hin. apply (wf_step st (CreateLit [sig] 2 t)); auto.
  - constructor; [exact I|constructor].
  - constructor; [intros _; exact Hin|constructor].
Qed.

Lemma hops st src inner : inv1 st -> NoDup (map (spot st) inner) -> (forall t, In t (map (spot st) inner) -> free_tile st t) ->
  exists st', fold_left route_hop inner (st, src) = (st', List.last (src :: map (spot st) inner) src) /\ inv1 st' /\
    length (g_nodes st') = (length (g_nodes st) + length inner)%nat /\
    g_in st' = g_in st /\ g_out st' = g_out st /\ g_cl st' = g_cl st /\ g_names st' = g_names st /\
    (forall m, (m < length (g_nodes st))%nat -> n_children (node_at st' m) = n_children (node_at st m) /\ n_lit (node_at st' m) = n_lit (node_at st m)
       /\ g_nt st' !! m = g_nt st !! m) /\
    (forall t, ~ In t (map (spot st) inner) -> g_tn st' !! t = g_tn st !! t) /\
    (forall i t u, map (spot st) inner !! i = Some t -> (src :: map (spot st) inner) !! i = Some u ->
       let n := (length (g_nodes st) + i)%nat in
       g_tn st' !! t = Some n /\ n_lit (node_at st' n) = 2 /\ n_children (node_at st' n) = [u]).
Proof.
  revert st src. induction inner as [|c r IH]; intros st src Hi Hn Hf.
  - exists st. cbn [map fold_left]. split; [reflexivity|]. split; [exact Hi|]. split; [cbn; lia|]. repeat split; auto; destruct i; discriminate.
  - cbn [map] in *. pose proof (Hf (spot st c) (or_introl eq_refl)) as Hfc.
    pose proof (create_wire_added st src (spot st c) Hi Hfc) as A. set (s1 := create_lit st [src] 2 (spot st c)) in *.
    apply NoDup_cons in Hn as [Hn1 Hn2].
    assert (Hfree : forall t, free_tile st t -> t <> spot st c -> free_tile s1 t).
    { intros t [F1 F2] Hne. split; [exact F1|]. unfold is_empty_tile, get_node in *. rewrite (a_tn _ _ _ _ A).
      rewrite lookup_insert_ne by congruence. exact F2. }
    assert (Hsp : forall c', In (spot st c') (map (spot st) r) -> spot s1 c' = spot st c').
    { intros c' Hc'. pose proof (Hf _ (or_intror Hc')) as Hfree'. unfold spot. rewrite (a_cl _ _ _ _ A).
      assert (is_empty_tile s1 c' = is_empty_tile st c') as ->; [|reflexivity].
      destruct (decide (c' = spot st c)) as [E|E].
      - assert (is_empty_tile st c' = true) as E0 by (rewrite E; apply Hfc).
        assert (spot st c' = c') as E1 by (unfold spot; rewrite E0; reflexivity). exfalso. apply Hn1. rewrite E1, <- E in *. apply elem_of_list_In, Hc'.
      - unfold is_empty_tile, get_node. rewrite (a_tn _ _ _ _ A), lookup_insert_ne by congruence. reflexivity. }
    assert (Emap : map (spot s1) r = map (spot st) r).
    { apply map_ext_in. intros c' Hc'. apply Hsp, in_map, Hc'. }
    destruct (IH s1 (spot st c) (a_inv _ _ _ _ A)) as (st' & E & Hi' & L' & I' & O' & C' & N' & Hold & Htn & Hnew).
    { rewrite Emap. exact Hn2. }
    { rewrite Emap. intros t Ht. apply Hfree; [apply Hf; right; exact Ht|]. intros ->. apply Hn1, elem_of_list_In, Ht. }
    rewrite Emap in *. exists st'. cbn [fold_left]. change (route_hop (st, src) c) with (s1, spot st c). split.
    { rewrite E. f_equal. generalize (map (spot st) r) as q. intros q. change (List.last (src :: spot st c :: q) src) with (List.last (spot st c :: q) src).
      clear. generalize (spot st c). induction q as [|z q IH]; intros x; [reflexivity|].
      change (List.last (z :: q) x = List.last (z :: q) src). destruct q as [|w q]; [reflexivity|].
      clear IH. revert z w. induction q as [|y q IH]; intros z w; [reflexivity|]. apply (IH w y). }
    split; [exact Hi'|]. split; [rewrite L', (a_len _ _ _ _ A); cbn [length]; lia|].
    split; [rewrite I'; apply A|]. split; [rewrite O'; apply A|]. split; [rewrite C'; apply A|]. split; [rewrite N'; apply A|].
    assert (L1 := a_len _ _ _ _ A).
    split; [|split].
    + intros m Hm. destruct (Hold m ltac:(lia)) as (K1 & K2 & K3). destruct (a_old _ _ _ _ A m Hm) as [K4 K5].
      split; [congruence|]. split; [congruence|]. rewrite K3, (a_nt _ _ _ _ A), lookup_insert_ne by lia. reflexivity.
    + intros t Ht. rewrite Htn by (intros K; apply Ht; right; exact K). rewrite (a_tn _ _ _ _ A), lookup_insert_ne; [reflexivity|].
      intros K. apply Ht. left. exact K.
    + intros i t u Hi1 Hi2. cbv zeta. destruct i as [|i].
      * cbn in Hi1, Hi2. injection Hi1 as <-. injection Hi2 as <-. rewrite Nat.add_0_r.
        rewrite Htn by (intros K; apply Hn1, elem_of_list_In, K). rewrite (a_tn _ _ _ _ A), lookup_insert.
        destruct (Hold (length (g_nodes st)) ltac:(lia)) as (K1 & K2 & _). destruct (a_new _ _ _ _ A) as [K4 K5].
        repeat split; congruence.
      * cbn in Hi1. change ((src :: spot st c :: map (spot st) r) !! S i) with ((spot st c :: map (spot st) r) !! i) in Hi2.
        specialize (Hnew i t u Hi1 Hi2). cbv zeta in Hnew. rewrite L1 in Hnew. replace (length (g_nodes st) + S i)%nat with (S (length (g_nodes st)) + i)%nat by lia. exact Hnew.
Qed.

Lemma route_path_ok st src inner tgt : inv1 st -> NoDup (map (spot st) inner) -> (forall t, In t (map (spot st) inner) -> free_tile st t) ->
  cd tgt = false -> is_empty_tile st tgt = false ->
  exists st', route_path st (src :: inner ++ [tgt]) = Some st' /\ inv1 st' /\
    length (g_nodes st') = (length (g_nodes st) + length inner)%nat /\
    g_in st' = g_in st /\ g_out st' = g_out st /\ g_cl st' = g_cl st /\ g_names st' = g_names st /\
    (forall m, (m < length (g_nodes st))%nat ->
       n_children (node_at st' m) = n_children (node_at st m) ++ (if Nat.eqb m (get_node st tgt) then [List.last (src :: map (spot st) inner) src] else []) /\
       n_lit (node_at st' m) = n_lit (node_at st m) /\ g_nt st' !! m = g_nt st !! m) /\
    (forall t, ~ In t (map (spot st) inner) -> g_tn st' !! t = g_tn st !! t) /\
    (forall i t u, map (spot st) inner !! i = Some t -> (src :: map (spot st) inner) !! i = Some u ->
       let n := (length (g_nodes st) + i)%nat in
       g_tn st' !! t = Some n /\ n_lit (node_at st' n) = 2 /\ n_children (node_at st' n) = [u]).
Proof.
  intros Hi Hn Hf Hd He. destruct (hops st src inner Hi Hn Hf) as (s & E & Hi' & L' & I' & O' & C' & N' & Hold & Htn & Hnew).
  destruct (occ_live st tgt Hi He Hd) as (T2 & _ & T3).
  assert (Et : get_node s tgt = get_node st tgt).
  { unfold get_node. rewrite Htn; [reflexivity|]. intros K. destruct (Hf _ K) as [_ K2]. congruence. }
  unfold route_path. destruct (inner ++ [tgt]) as [|z zs] eqn:Ez; [destruct inner; discriminate|]. rewrite <- Ez. clear z zs Ez.
  rewrite removelast_last, E, last_last, Et. unfold connect.
  destruct (is_constant (get_node st tgt)) eqn:Ec; [unfold is_constant in Ec; apply Nat.leb_le in Ec; lia|].
  destruct (Nat.ltb_spec (get_node st tgt) (length (g_nodes s))) as [Hlt|Hlt]; [|exfalso; lia].
  eexists. split; [reflexivity|]. set (ch := _ ++ _).
  pose proof (setch_frame s (get_node st tgt) ch) as F.
  split; [eapply inv1_frame; eauto|]. split; [rewrite (fr_len _ _ F); exact L'|].
  split; [rewrite (fr_in _ _ F); exact I'|]. split; [rewrite (fr_out _ _ F); exact O'|]. split; [rewrite (fr_cl _ _ F); exact C'|]. split; [rewrite (fr_names _ _ F); exact N'|].
  split; [|split].
  - intros m Hm. destruct (Hold m Hm) as (K1 & K2 & K3). rewrite setch_children by exact Hlt. rewrite (fr_lit _ _ F), (fr_nt _ _ F).
    split; [|auto]. destruct (Nat.eqb_spec m (get_node st tgt)) as [->|Hne]; [|rewrite app_nil_r; exact K1].
    subst ch. rewrite K1. reflexivity.
  - intros t Ht. rewrite (fr_tn _ _ F). apply Htn, Ht.
  - intros i t u H1 H2. cbv zeta. rewrite (fr_tn _ _ F), (fr_lit _ _ F), setch_children by exact Hlt.
    destruct (Hnew i t u H1 H2) as (K1 & K2 & K3). cbv zeta in *. split; [exact K1|]. split; [exact K2|].
    destruct (Nat.eqb_spec (length (g_nodes st) + i) (get_node st tgt)) as [Hbad|_]; [exfalso; lia|exact K3].
Qed.

(** Routing keeps layouts well-formed. *)
Lemma route_path_wf st src inner tgt st' : wf st -> NoDup (map (spot st) inner) -> (forall t, In t (map (spot st) inner) -> free_tile st t) ->
  (forall t, In t (map (spot st) inner) -> inb (cl_dim (g_cl st)) t) ->
  cd tgt = false -> is_empty_tile st tgt = false -> route_path st (src :: inner ++ [tgt]) = Some st' -> wf st'.
Proof.
  intros Hw Hn Hf Hb Hd He Hr. pose proof (w_1 _ Hw) as Hi.
  destruct (route_path_ok st src inner tgt Hi Hn Hf Hd He) as (s & E & Hi' & L' & I' & O' & C' & N' & Hold & Htn & Hnew).
  rewrite E in Hr. injection Hr as <-. pose proof (i_two _ (i_0 _ Hi)) as H2. destruct (occ_live st tgt Hi He Hd) as (T2 & _ & T3).
  assert (Hin : forall t n, g_tn s !! t = Some n -> In t (map (spot st) inner) \/ g_tn st !! t = Some n).
  { intros t n Ht. destruct (in_dec (fun a b => decide (a = b)) t (map (spot st) inner)) as [K|K]; [left; exact K|right]. rewrite <- Htn; assumption. }
  constructor.
  - exact Hi'.
  - intros n Hn1. destruct (Hold n ltac:(lia)) as (-> & _ & _). rewrite (w_clean _ Hw n Hn1).
    destruct (Nat.eqb_spec n (get_node st tgt)); [lia|reflexivity].
  - rewrite C'. apply Hw.
  - rewrite C'. intros t n Ht Dt. destruct (Hin t n Ht) as [K|K]; [apply Hb, K|eapply w_in; eauto].
  - destruct (Hold 0%nat ltac:(lia)) as (_ & -> & _). apply Hw.
  - intros t k Ht Dt. destruct (Hin t k Ht) as [K|K]; [destruct (Hf _ K); congruence|]. eapply w_dead; eauto.
  - rewrite I', L'. intros n Hn1. pose proof (w_pis _ Hw n Hn1). lia.
Qed.

(** Connections between neighbours along the clocking carry data. *)
Lemma flow_intro st u v : wf st -> 1 <= num_clocks (g_cl st) <= 255 -> occupied st u -> occupied st v ->
  In u (n_children (node_at st (get_node st v))) -> next_to st u v -> next_zone (g_cl st) u v -> flows st u v.
Proof.
  intros Hw Hn [Iu Eu] [Iv Ev] Hc [_ Ht] Hz. pose proof (w_1 _ Hw) as Hi.
  destruct (occ_live st u Hi Eu (proj1 Iu)) as (U2 & Ut & _). destruct (occ_live st v Hi Ev (proj1 Iv)) as (V2 & Vt & _).
  unfold flows, incoming_data_flow, foreach_fanin. destruct (is_constant (get_node st v)) eqn:Ec; [unfold is_constant in Ec; apply Nat.leb_le in Ec; lia|].
  cbv zeta. apply in_map_iff. exists u. split; [exact Ut|]. apply filter_In. split; [exact Hc|]. rewrite Ut, Vt. apply andb_true_iff. split.
  - apply C08_elevation; [apply Hw|exact Iv|]. split; [exact Iu|]. split; [exact Ht|].
    destruct (w_dim _ Hw) as (_ & _ & Hd), Iu as (_ & _ & _ & Z1), Iv as (_ & _ & _ & Z2). lia.
  - rewrite in_out, out_clocked_iff by exact Hn. split; [|exact Hz]. intros ->. rewrite <- (inb_live_eta _ _ Iv) in Ht. eapply touch_irrefl; eauto.
Qed.
Lemma single_flow st u v : wf st -> 1 <= num_clocks (g_cl st) <= 255 -> occupied st u -> occupied st v ->
  n_children (node_at st (get_node st v)) = [u] -> next_to st u v -> next_zone (g_cl st) u v -> incoming_data_flow true st v = [u].
Proof.
  intros Hw Hn Hu Hv Hc Ht Hz. assert (flows st u v) as Hf by (apply flow_intro; auto; rewrite Hc; left; reflexivity).
  unfold flows in Hf. revert Hf. unfold incoming_data_flow, foreach_fanin. destruct (is_constant (get_node st v)); [intros []|]. cbv zeta.
  rewrite Hc. cbn [List.filter]. destruct (_ && _); cbn [map]; [|intros []]. intros [->|[]]. reflexivity.
Qed.
