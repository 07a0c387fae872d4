(** Proofs about the SAT-based determination of clock numbers. *)
From Coq Require Import ZArith Bool List Arith Lia.
From stdpp Require Import gmap list.
From Verif Require Import CoordMap CoordModel CoordSpec CoordProofs GridModel GridSpec GridProofs GridProps ClockModel ClockProofs GateModel GateSpec GateProofs GateProofs2 GateProofs3 RouteSpec RouteProofs SatModel SatSpec DetclkModel DetclkSpec.
Import ListNotations.
Open Scope nat_scope.

Lemma In_flat {A B} (f : A -> list B) l b : In b (flat_map f l) <-> exists a, In a l /\ In b (f a).
Proof. apply in_flat_map. Qed.

(** ** Writing clock numbers *)
Section writes.
Notation wr := (fun cl (w : coord * nat) => assign_clock_number cl (fst w) (Z.of_nat (snd w))).
Lemma writes_frame ws : forall cl, cl_topo (fold_left wr ws cl) = cl_topo cl /\ cl_dim (fold_left wr ws cl) = cl_dim cl /\ num_clocks (fold_left wr ws cl) = num_clocks cl.
Proof. induction ws as [|w ws IH]; intros cl; [auto|]. cbn [fold_left]. destruct (IH (assign_clock_number cl (fst w) (Z.of_nat (snd w)))) as (-> & -> & ->). auto. Qed.
Lemma write_at cl t k c : get_clock_number (assign_clock_number cl t k) c = if decide (c = t) then (k mod num_clocks cl)%Z else
  match sc_override (cl_scheme cl) !! c with Some n => n | None => sc_fn (cl_scheme cl) c end.
Proof.
  unfold get_clock_number, assign_clock_number, sc_at, sc_set. cbn. destruct (decide (c = t)) as [->|N]; [rewrite lookup_insert; reflexivity|].
  rewrite lookup_insert_ne by congruence. reflexivity.
Qed.
Lemma writes_keep ws : forall cl c v, sc_regular (cl_scheme cl) = false -> get_clock_number cl c = v -> (forall w, In w ws -> fst w = c -> (Z.of_nat (snd w) mod num_clocks cl)%Z = v) ->
  get_clock_number (fold_left wr ws cl) c = v.
Proof.
  induction ws as [|w ws IH]; intros cl c v R E H; [exact E|]. cbn [fold_left]. apply IH; [reflexivity| |intros w' Hw Ew; apply H; [right|]; assumption].
  rewrite write_at. destruct (decide (c = fst w)) as [Ec|_]; [apply H; [left; reflexivity|congruence]|].
  unfold get_clock_number, sc_at in E. rewrite R in E. exact E.
Qed.
Lemma writes_at ws : forall cl c v, (exists w, In w ws /\ fst w = c) -> (forall w, In w ws -> fst w = c -> (Z.of_nat (snd w) mod num_clocks cl)%Z = v) ->
  get_clock_number (fold_left wr ws cl) c = v.
Proof.
  induction ws as [|w ws IH]; intros cl c v (w0 & H0 & E0) H; [destruct H0|]. cbn [fold_left]. destruct (decide (c = fst w)) as [Ec|Nc].
  - apply writes_keep; [reflexivity| |intros w' Hw Ew; apply H; [right|]; assumption]. rewrite write_at. destruct (decide (c = fst w)); [|contradiction]. apply H; [left; reflexivity|congruence].
  - apply IH; [|intros w' Hw Ew; apply H; [right|]; assumption]. destruct H0 as [<-|H0]; [congruence|]. exists w0. auto.
Qed.
End writes.

Section main.
Variable st : glayout.
Hypothesis HW : wf st.
Hypothesis NC : (1 <= num_clocks (g_cl st) <= 255)%Z.
Hypothesis AL : forall t, occupied st t -> is_dead st (get_node st t) = false.
Notation tiles := (clk_tiles st).
Notation N := (clk_count st).
Notation var := (clk_var st).
Notation ar := (cl_dim (g_cl st)).

Lemma count_pos : 1 <= N /\ Z.of_nat N = num_clocks (g_cl st).
Proof. unfold clk_count. lia. Qed.
Lemma occupied_at t : occupied st t -> 2 <= get_node st t < length (g_nodes st) /\ get_tile st (get_node st t) = t.
Proof. intros [B E]. destruct (occ_live st t (w_1 _ HW) E (proj1 B)) as (H1 & H2 & H3). auto. Qed.
Lemma placed_occ n : 2 <= n -> cd (get_tile st n) = false -> occupied st (get_tile st n) /\ get_node st (get_tile st n) = n.
Proof.
  intros Hn Hp. destruct (g_nt st !! n) as [t|] eqn:E; [|unfold get_tile in Hp; rewrite E in Hp; discriminate].
  assert (E0 : get_tile st n = t) by (unfold get_tile; rewrite E; reflexivity). rewrite E0 in *.
  pose proof (proj2 (i_bij _ (i_0 _ (w_1 _ HW)) t n) E) as E'. assert (G : get_node st t = n) by (unfold get_node; rewrite E'; reflexivity).
  split; [|exact G]. split; [eapply w_in; eassumption|]. unfold is_empty_tile. rewrite G. apply Nat.eqb_neq. lia.
Qed.
Lemma clk_nodes_in n : In n (clk_nodes st) <-> 2 <= n < length (g_nodes st) /\ is_dead st n = false.
Proof.
  unfold clk_nodes, foreach_node. rewrite !filter_In, in_seq. unfold is_constant. rewrite !negb_true_iff, Nat.leb_gt. intuition lia.
Qed.
Lemma tiles_in t : occupied st t -> In t tiles.
Proof.
  intros O. destruct (occupied_at t O) as [R E]. unfold clk_tiles. rewrite <- E. apply in_map, clk_nodes_in. split; [exact R|apply AL; exact O].
Qed.
Lemma tiles_out t : In t tiles -> occupied st t \/ cd t = true.
Proof.
  intros H. unfold clk_tiles in H. apply in_map_iff in H. destruct H as (n & <- & H). apply clk_nodes_in in H. destruct (cd (get_tile st n)) eqn:E; [right; reflexivity|left].
  apply placed_occ; [lia|exact E].
Qed.
Lemma var_in t c : In t tiles -> c < N -> var t c = (t, c).
Proof. intros Ht Hc. unfold clk_var. rewrite bool_decide_true by (apply elem_of_list_In; exact Ht). apply Nat.ltb_lt in Hc. rewrite Hc. reflexivity. Qed.
(** Connections lead from occupied to occupied tiles. *)
Lemma conn_occ u v : In v tiles -> In u (incoming_data_flow false st v) -> occupied st v /\ occupied st u /\ u <> v /\ is_adjacent_elevation_of (cl_topo (g_cl st)) ar v u = true.
Proof.
  intros Tv H. assert (O : occupied st v).
  { destruct (tiles_out v Tv) as [O|D]; [exact O|]. exfalso. revert H. unfold incoming_data_flow, foreach_fanin. destruct (is_constant (get_node st v)) eqn:E; [intros []|]. intros _.
    unfold is_constant in E. apply Nat.leb_gt in E. unfold get_node in E. destruct (g_tn st !! v) as [n|] eqn:En; [|cbn in E; lia]. cbn in E. pose proof (i_dead _ (i_0 _ (w_1 _ HW)) v n En D). lia. }
  split; [exact O|]. destruct (occupied_at v O) as [R E]. unfold incoming_data_flow, foreach_fanin in H. destruct (is_constant (get_node st v)) eqn:Ec; [destruct H|].
  apply in_map_iff in H. destruct H as (c & <- & H). apply filter_In in H. destruct H as [_ H]. rewrite E, andb_true_r in H.
  pose proof (proj1 (C08_elevation _ _ _ _ (w_dim _ HW) (proj1 O)) H) as (Bu & T & _).
  assert (Du : cd (get_tile st (get_node st c)) = false) by apply Bu.
  assert (M2 : 2 <= get_node st c).
  { unfold get_tile in Du. destruct (g_nt st !! get_node st c) as [u|] eqn:En; [|discriminate]. cbn in Du.
    eapply (i_live _ (w_1 _ HW)); [apply (i_bij _ (i_0 _ (w_1 _ HW))); exact En|exact Du]. }
  split; [apply placed_occ; assumption|]. split; [|exact H].
  intros K. rewrite K in T. rewrite live_eta in T by apply O. revert T. apply touch_irrefl.
Qed.

(** ** From models to clockings *)
Lemma clock_of fuel fs m : clk_constraints st fuel = Some fs -> satisfies m fs ->
  exists F : coord -> nat,
    (forall t, In t tiles -> F t < N /\ forall c, c < N -> (m (t, c) = true <-> c = F t)) /\
    (forall u v, In v tiles -> In u (incoming_data_flow false st v) -> (F u + 1) mod N = F v) /\
    (forall t, occupied st t -> cz t = 1%Z -> occupied st (ground t) -> is_wire st (get_node st t) = true -> F t = F (ground t)).
Proof.
  intros E S1. unfold clk_constraints in E. destruct (symmetry_breaking st fuel) as [sb|]; [|discriminate]. injection E as <-.
  assert (A1 : forall t, In t tiles -> exists c, c < N /\ m (t, c) = true).
  { intros t Ht. assert (K : holds m (at_least_one (map (var t) (clks_of st))) = true).
    { apply S1. apply in_app_iff. left. unfold at_least_one_clock_number_per_tile. apply in_map_iff. eauto. }
    unfold at_least_one in K. cbn [holds] in K. rewrite map_map in K. apply existsb_exists in K. destruct K as (f & Hf & K). apply in_map_iff in Hf. destruct Hf as (c & <- & Hc).
    unfold clks_of in Hc. apply in_seq in Hc. cbn [holds] in K. rewrite var_in in K by (try assumption; lia). exists c. split; [lia|]. destruct (m (t, c)); [reflexivity|discriminate]. }
  assert (A2 : forall t c1 c2, In t tiles -> c1 < c2 -> c2 < N -> m (t, c1) = true -> m (t, c2) = true -> False).
  { intros t c1 c2 Ht L1 L2 K1 K2. assert (K : holds m (not_both (var t c1) (var t c2)) = true).
    { apply S1. apply in_app_iff. right. apply in_app_iff. left. unfold at_most_one_clock_number_per_tile. apply in_flat_map. exists c1. split; [unfold clks_of; apply in_seq; lia|].
      apply in_flat_map. exists c2. split; [apply in_seq; lia|]. apply in_map_iff. eauto. }
    rewrite !var_in in K by (try assumption; lia). cbn in K. rewrite K1, K2 in K. discriminate. }
  assert (A3 : forall u v c1 c2, In v tiles -> In u (incoming_data_flow false st v) -> c1 < N -> c2 < N -> m (v, c1) = true -> m (u, c2) = true -> (c2 + 1) mod N = c1).
  { intros u v c1 c2 Hv Hu L1 L2 K1 K2. destruct (Nat.eqb_spec ((c2 + 1) mod N) c1) as [E|D]; [exact E|exfalso].
    destruct (conn_occ u v Hv Hu) as (_ & Ou & _). pose proof (tiles_in u Ou) as Tu.
    assert (K : holds m (not_both (var v c1) (var u c2)) = true).
    { apply S1. apply in_app_iff. right. apply in_app_iff. right. apply in_app_iff. left. unfold exclude_clock_assignments_that_violate_information_flow.
      apply in_flat_map. exists v. split; [exact Hv|]. apply in_flat_map. exists u. split; [exact Hu|]. apply in_flat_map. exists c1. split; [unfold clks_of; apply in_seq; lia|].
      apply in_flat_map. exists c2. split; [unfold clks_of; apply in_seq; lia|]. apply Nat.eqb_neq in D. rewrite D. left. reflexivity. }
    rewrite !var_in in K by assumption. cbn in K. rewrite K1, K2 in K. discriminate. }
  assert (A4 : forall t c, occupied st t -> cz t = 1%Z -> occupied st (ground t) -> is_wire st (get_node st t) = true -> c < N -> m (t, c) = m (ground t, c)).
  { intros t c O Z1 Og Wt Lc. destruct (occupied_at t O) as [R Et].
    assert (K : holds m (same (var t c) (var (below ar t) c)) = true).
    { apply S1. apply in_app_iff. right. apply in_app_iff. right. apply in_app_iff. right. apply in_app_iff. left. unfold ensure_same_clock_number_on_crossing_tiles.
      apply in_flat_map. exists (get_node st t). split; [unfold foreach_wire; apply filter_In; split; [apply in_seq; lia|rewrite Wt, (AL t O); reflexivity]|].
      cbv zeta. rewrite Et. unfold is_ground_layer. rewrite Z1. cbn [Z.eqb]. apply in_map_iff. exists c. split; [reflexivity|unfold clks_of; apply in_seq; lia]. }
    assert (Eb : below ar t = ground t). { apply below_crossing; [apply HW|apply O|unfold is_crossing_layer; rewrite Z1; reflexivity]. }
    rewrite Eb, !var_in in K by first [assumption|apply tiles_in; assumption]. cbn in K. destruct (m (t, c)), (m (ground t, c)); cbn in K; congruence. }
  assert (UQ : forall t c1 c2, In t tiles -> c1 < N -> c2 < N -> m (t, c1) = true -> m (t, c2) = true -> c1 = c2).
  { intros t c1 c2 Ht L1 L2 K1 K2. destruct (Nat.lt_total c1 c2) as [L|[L|L]]; [exfalso; eapply (A2 t c1 c2); eassumption|exact L|exfalso; eapply (A2 t c2 c1); eassumption]. }
  set (F := fun t => match List.find (fun c => m (t, c)) (clks_of st) with Some c => c | None => 0 end).
  assert (FF : forall t, In t tiles -> F t < N /\ m (t, F t) = true).
  { intros t Ht. unfold F. destruct (List.find _ _) as [c|] eqn:E; [apply find_some in E; destruct E as [E1 E2]; unfold clks_of in E1; apply in_seq in E1; split; [lia|exact E2]|].
    destruct (A1 t Ht) as (c & Lc & K). pose proof (find_none _ _ E c) as X. cbv beta in X. rewrite K in X. exfalso. assert (true = false) by (apply X; unfold clks_of; apply in_seq; lia). discriminate. }
  exists F. split; [|split].
  - intros t Ht. destruct (FF t Ht) as [L K]. split; [exact L|]. intros c Lc. split; [intros Kc; eapply UQ; eassumption|intros ->; exact K].
  - intros u v Hv Hu. destruct (conn_occ u v Hv Hu) as (_ & Ou & _). destruct (FF v Hv), (FF u (tiles_in u Ou)). eapply A3; eassumption.
  - intros t O Z1 Og Wt. destruct (FF t (tiles_in t O)) as [L1 K1], (FF _ (tiles_in _ Og)) as [L2 K2]. rewrite (A4 t (F t)) in K1 by assumption. eapply UQ; [apply tiles_in; exact Og|exact L1|exact L2|exact K1|exact K2].
Qed.

(** The clock numbers that are assigned. *)
Lemma column t t' : occupied st t -> (t' = above ar t \/ t' = below ar t) -> occupied st t' -> t' = t \/ (cz t = 1%Z /\ t' = ground t) \/ (cz t' = 1%Z /\ t = ground t').
Proof.
  intros [(Dt & _ & _ & Zt) _] H [(Dt' & _ & _ & Zt') _]. destruct (w_dim _ HW) as (_ & _ & Zd). destruct t as [d x y z]. cbn in Dt, Zt. subst d. unfold above, below, ground, live in *. cbn [cd cx cy cz] in *.
  destruct (Z.ltb_spec (cz ar) z); [lia|]. destruct (Z.ltb_spec z (cz ar)), (Z.eqb_spec z 0); destruct H as [->| ->]; cbn [cx cy cz cd] in *; auto; try lia.
  - right; right. split; [lia|]. subst z. reflexivity.
  - right; left. split; [lia|]. f_equal. lia.
Qed.
Lemma dead_column t : cd t = true -> cd (above ar t) = true /\ cd (below ar t) = true.
Proof.
  intros D. unfold above, below, set_d. destruct t as [d x y z]. cbn in *. subst d. destruct (cz ar <? z)%Z, (z <? cz ar)%Z, (z =? 0)%Z; auto.
Qed.
Lemma assigned m (F : coord -> nat) :
  (forall t, In t tiles -> F t < N /\ forall c, c < N -> (m (t, c) = true <-> c = F t)) ->
  (forall t, occupied st t -> cz t = 1%Z -> occupied st (ground t) -> F t = F (ground t)) ->
  let cl := g_cl (assign_clock_numbers st m) in
  (forall t, occupied st t -> get_clock_number cl t = Z.of_nat (F t)) /\
  (forall t, occupied st t -> get_clock_number cl (live (cx t) (cy t) 0) = Z.of_nat (F t) /\
     (cz ar = 1%Z -> get_clock_number cl (live (cx t) (cy t) 1) = Z.of_nat (F t))).
Proof.
  intros HF HC. cbv zeta. cbn [assign_clock_numbers with_cl g_cl].
  assert (WI : forall w, In w (clk_writes st m) <-> exists t, In t tiles /\ snd w = F t /\ (fst w = t \/ fst w = above ar t \/ fst w = below ar t)).
  { intros w. unfold clk_writes. rewrite in_flat_map. split.
    - intros (n & Hn & Hw). cbv zeta in Hw. assert (Ht : In (get_tile st n) tiles) by (unfold clk_tiles; apply in_map; exact Hn). apply in_flat_map in Hw. destruct Hw as (c & Hc & Hw).
      unfold clks_of in Hc. apply in_seq in Hc. rewrite var_in in Hw by (try assumption; lia). exists (get_tile st n). split; [exact Ht|]. destruct (m (get_tile st n, c)) eqn:Em; [|destruct Hw].
      apply (proj2 (HF _ Ht)) in Em; [|lia]. destruct Hw as [<-|[<-|[<-|[]]]]; cbn; auto.
    - intros (t & Ht & Es & Ef). pose proof Ht as Ht'. unfold clk_tiles in Ht. apply in_map_iff in Ht. destruct Ht as (n & En & Hn). exists n. split; [exact Hn|]. cbv zeta. rewrite En.
      apply in_flat_map. exists (F t). destruct (HF t Ht') as [L K]. split; [unfold clks_of; apply in_seq; lia|]. rewrite var_in by assumption.
      assert (Em : m (t, F t) = true) by (apply K; [exact L|reflexivity]). rewrite Em. destruct w as [c k]. cbn in *. subst k. destruct Ef as [->|[->| ->]]; auto. }
  destruct count_pos as [Np Nz].
  assert (AT : forall c k, k < N -> (exists t, In t tiles /\ (c = t \/ c = above ar t \/ c = below ar t)) ->
    (forall t, In t tiles -> (c = t \/ c = above ar t \/ c = below ar t) -> F t = k) ->
    get_clock_number (fold_left (fun cl w => assign_clock_number cl (fst w) (Z.of_nat (snd w))) (clk_writes st m) (g_cl st)) c = Z.of_nat k).
  { intros c k Lk (t & Ht & Ec) H. apply writes_at.
    - exists (c, F t). split; [|reflexivity]. apply WI. exists t. cbn. auto.
    - intros w Hw Ew. apply WI in Hw. destruct Hw as (t' & Ht' & Es & Ef). rewrite Ew in Ef. rewrite Es, (H t' Ht' Ef), <- Nz. apply Z.mod_small. lia. }
  assert (COL : forall t t', occupied st t -> In t' tiles -> (t = t' \/ t = above ar t' \/ t = below ar t') -> F t' = F t).
  { intros t t' O T' H. destruct (tiles_out t' T') as [O'|D].
    - destruct H as [->|H]; [reflexivity|]. destruct (column t' t O' H O) as [->|[[Z1 ->]|[Z1 ->]]]; [reflexivity|apply HC; assumption|symmetry; apply HC; assumption].
    - exfalso. destruct (dead_column t' D) as [D1 D2]. destruct O as [(Dt & _) _]. destruct H as [->|[->| ->]]; congruence. }
  assert (SELF : forall t, occupied st t -> get_clock_number (fold_left (fun cl w => assign_clock_number cl (fst w) (Z.of_nat (snd w))) (clk_writes st m) (g_cl st)) t = Z.of_nat (F t)).
  { intros t O. apply AT; [apply HF, tiles_in, O|exists t; split; [apply tiles_in, O|auto]|]. intros t' T' H. apply COL; assumption. }
  split; [exact SELF|]. intros t O.
  assert (OTH : forall z, (z = 0 \/ z = 1)%Z -> (z <= cz ar)%Z -> get_clock_number (fold_left (fun cl w => assign_clock_number cl (fst w) (Z.of_nat (snd w))) (clk_writes st m) (g_cl st)) (live (cx t) (cy t) z) = Z.of_nat (F t)).
  { intros z Hz Lz. destruct O as [B E]. destruct (w_dim _ HW) as (_ & _ & Zd). pose proof B as (Dt & Xt & Yt & Zt).
    assert (NB : live (cx t) (cy t) z = t \/ live (cx t) (cy t) z = above ar t \/ live (cx t) (cy t) z = below ar t).
    { destruct t as [d x y z0]. cbn in Dt, Zt. subst d. unfold above, below, live. cbn [cd cx cy cz]. assert (C0 : (z0 = 0 \/ z0 = 1)%Z) by lia.
      destruct C0 as [->| ->], Hz as [->| ->]; [left; reflexivity|right; left|right; right; reflexivity|left; reflexivity].
      destruct (Z.ltb_spec (cz ar) 0); [lia|]. destruct (Z.ltb_spec 0 (cz ar)); [reflexivity|lia]. }
    destruct (is_empty_tile st (live (cx t) (cy t) z)) eqn:Ez.
    - apply AT; [apply HF, tiles_in; split; assumption|exists t; split; [apply tiles_in; split; assumption|exact NB]|].
      intros t' T' H. destruct (tiles_out t' T') as [O'|D].
      + destruct H as [<-|H]; [destruct O'; congruence|]. assert (t' = t) as ->; [|reflexivity].
        assert (Nt : t' <> live (cx t) (cy t) z) by (intros ->; destruct O'; congruence). assert (Nt2 : t <> live (cx t) (cy t) z) by (intros K; rewrite <- K in Ez; congruence).
        destruct O' as [(D' & X' & Y' & Z') _]. destruct t' as [d' x' y' z'], t as [d x y z0]. cbn in *. subst d d'. unfold above, below, live in *. cbn [cd cx cy cz] in *.
        assert (XY : x' = x /\ y' = y). { destruct (Z.ltb_spec (cz ar) z'); [lia|]. destruct (Z.ltb_spec z' (cz ar)), (Z.eqb_spec z' 0), H as [H|H]; injection H; auto. }
        destruct XY as [-> ->]. assert (z' <> z) by (intros ->; apply Nt; reflexivity). assert (z0 <> z) by (intros ->; apply Nt2; reflexivity). f_equal. lia.
      + exfalso. destruct (dead_column t' D) as [D1 D2]. destruct H as [H|[H|H]]; apply (f_equal cd) in H; cbn in H; congruence.
    - assert (O' : occupied st (live (cx t) (cy t) z)). { split; [|exact Ez]. unfold inb. cbn. repeat split; try assumption; lia. }
      rewrite SELF by exact O'. f_equal. symmetry. apply COL; [exact O'|apply tiles_in; split; assumption|exact NB]. }
  split; [apply OTH; [auto|apply (w_dim _ HW)]|intros Ez; apply OTH; [auto|lia]].
Qed.

(** ** From clockings to models *)
Section complete.
Variable f : coord -> Z.
Hypothesis VF : valid_clocking st f.
Variable t0 : coord.
Definition turned (t : coord) : nat := Z.to_nat ((f t - f t0) mod num_clocks (g_cl st)).
Definition turned_model (v : coord * nat) : bool := snd v =? turned (fst v).
Lemma turned_lt t : turned t < N.
Proof. unfold turned, clk_count. pose proof (Z.mod_pos_bound (f t - f t0) (num_clocks (g_cl st)) ltac:(lia)). lia. Qed.
Lemma turned_next u v : In v tiles -> In u (incoming_data_flow false st v) -> turned v = (turned u + 1) mod N.
Proof.
  intros Tv Hu. destruct VF as (_ & V & _). destruct (conn_occ u v Tv Hu) as (Ov & _). specialize (V u v Ov Hu). unfold turned. rewrite V. destruct count_pos as [Np Nz].
  set (n := num_clocks (g_cl st)) in *. apply Nat2Z.inj. rewrite Nat2Z.inj_mod, Nat2Z.inj_add, Nz, !Z2Nat.id by (apply Z.mod_pos_bound; lia).
  change (Z.of_nat 1) with 1%Z. rewrite Zplus_mod_idemp_l, Zminus_mod_idemp_l. f_equal. lia.
Qed.
Lemma turned_start : turned t0 = 0.
Proof. unfold turned. rewrite Z.sub_diag. reflexivity. Qed.
Hypothesis NB : no_bridges st.
Hypothesis BR : no_branches st.
Lemma turned_holds t c : In t tiles -> c < N -> turned_model (var t c) = (c =? turned t).
Proof. intros Ht Hc. rewrite var_in by assumption. reflexivity. Qed.
Lemma fanout_conn n m : occupied st (get_tile st n) -> 2 <= n -> In m (foreach_fanout true st n) ->
  2 <= m /\ occupied st (get_tile st m) /\ In (get_tile st n) (incoming_data_flow false st (get_tile st m)).
Proof.
  intros O Hn H. pose proof (i_0 _ (w_1 _ HW)) as I0.
  assert (M : exists t, inb ar t /\ get_node st t = m /\ is_child st m (get_tile st n) = true).
  { revert H. unfold foreach_fanout. destruct (is_constant n); [intros []|]. cbv zeta. intros H. apply in_flat_map in H. destruct H as (u & Hu & H).
    unfold outgoing_clocked_zones in Hu. apply filter_In in Hu. destruct Hu as [Hu _]. apply adjacent_spec in Hu; [|apply HW|apply O]. destruct Hu as [Bu _].
    unfold fanout_at in H. cbv zeta in H. rewrite !in_app_iff in H.
    assert (Z : forall t, In m (if is_child st (get_node st t) (get_tile st n) then [get_node st t] else []) -> get_node st t = m /\ is_child st m (get_tile st n) = true).
    { intros t Ht. destruct (is_child st (get_node st t) (get_tile st n)) eqn:E; [|destruct Ht]. destruct Ht as [<-|[]]. auto. }
    destruct H as [H|[H|H]].
    - exists u. split; [exact Bu|apply Z; exact H].
    - destruct (coord_eqb (above ar u) u); [destruct H|]. exists (above ar u). split; [apply above_inb; exact Bu|apply Z; exact H].
    - destruct (coord_eqb (below ar u) u); [destruct H|]. exists (below ar u). split; [apply below_inb; exact Bu|apply Z; exact H]. }
  destruct M as (t & Bt & Em & Ch).
  assert (M2 : 2 <= m).
  { destruct (le_lt_dec 2 m) as [L|L]; [exact L|exfalso]. unfold is_child in Ch. pose proof (w_clean _ HW m ltac:(lia)) as Cl. rewrite Cl in Ch. discriminate. }
  assert (Ot : occupied st t). { split; [exact Bt|]. unfold is_empty_tile. rewrite Em. apply Nat.eqb_neq. lia. }
  destruct (occupied_at t Ot) as [_ Et]. rewrite Em in Et. rewrite Et. split; [exact M2|]. split; [exact Ot|]. unfold incoming_data_flow. rewrite Em.
  assert (D : In m (foreach_fanout false st n)).
  { revert H. unfold foreach_fanout. destruct (is_constant n); [auto|]. cbv zeta. rewrite !in_flat_map. intros (u & Hu & H). exists u. split; [|exact H]. unfold outgoing_clocked_zones in Hu. apply filter_In in Hu. apply Hu. }
  apply (duality false st m n I0 (w_dim _ HW)); try assumption; [discriminate|rewrite Et; exact Bt|apply O].
Qed.
Lemma recurse_holds fuel : forall n clk fs clk', 2 <= n -> occupied st (get_tile st n) -> turned (get_tile st n) = clk mod N ->
  recurse st fuel n clk = Some (fs, clk') -> forall g, In g fs -> holds turned_model g = true.
Proof.
  induction fuel as [|k IH]; intros n clk fs clk' Hn O E H g Hg; [discriminate|]. cbn [recurse] in H.
  assert (H0 : holds turned_model (FLit true (var (get_tile st n) (clk mod N))) = true).
  { cbn [holds]. rewrite turned_holds; [|apply tiles_in; exact O|apply Nat.mod_upper_bound; pose proof count_pos; lia]. rewrite E, Nat.eqb_refl. reflexivity. }
  pose proof (BR n) as L. pose proof (fanout_conn n) as FC. destruct (foreach_fanout true st n) as [|m [|? ?]]; [| |cbn in L; lia].
  - injection H as <- _. destruct Hg as [<-|[]]. exact H0.
  - destruct (recurse st k m (S clk)) as [[fs1 clk1]|] eqn:Er; [|discriminate]. injection H as <- _. destruct Hg as [<-|Hg]; [exact H0|].
    destruct (FC m O Hn (or_introl eq_refl)) as (Hm & Om & C). eapply (IH m (S clk)); [exact Hm|exact Om| |exact Er|exact Hg].
    rewrite (turned_next (get_tile st n) (get_tile st m)) by first [assumption|apply tiles_in; assumption]. rewrite E. destruct count_pos as [Np _].
    rewrite Nat.add_mod_idemp_l by lia. f_equal. lia.
Qed.
Hypothesis PI : forall pi rest, foreach_pi st = pi :: rest -> 2 <= pi /\ occupied st (get_tile st pi) /\ t0 = get_tile st pi.
Lemma turned_satisfies fuel fs : clk_constraints st fuel = Some fs -> satisfies turned_model fs.
Proof.
  intros E g Hg. unfold clk_constraints in E. destruct (symmetry_breaking st fuel) as [sb|] eqn:Sb; [|discriminate]. injection E as <-. rewrite !in_app_iff in Hg.
  destruct Hg as [Hg|[Hg|[Hg|[Hg|Hg]]]].
  - unfold at_least_one_clock_number_per_tile in Hg. apply in_map_iff in Hg. destruct Hg as (t & <- & Ht). unfold at_least_one. cbn [holds]. apply existsb_exists.
    exists (FLit true (var t (turned t))). pose proof (turned_lt t) as L. split; [rewrite map_map; apply in_map_iff; exists (turned t); split; [reflexivity|unfold clks_of; apply in_seq; lia]|].
    cbn [holds]. rewrite turned_holds, Nat.eqb_refl by assumption. reflexivity.
  - unfold at_most_one_clock_number_per_tile in Hg. apply in_flat_map in Hg. destruct Hg as (c1 & H1 & Hg). apply in_flat_map in Hg. destruct Hg as (c2 & H2 & Hg). apply in_map_iff in Hg. destruct Hg as (t & <- & Ht).
    unfold clks_of in H1. apply in_seq in H1, H2. cbn [not_both holds existsb]. rewrite !turned_holds by (try assumption; lia).
    destruct (Nat.eqb_spec c1 (turned t)), (Nat.eqb_spec c2 (turned t)); try reflexivity. lia.
  - unfold exclude_clock_assignments_that_violate_information_flow in Hg. apply in_flat_map in Hg. destruct Hg as (v & Hv & Hg). apply in_flat_map in Hg. destruct Hg as (u & Hu & Hg).
    apply in_flat_map in Hg. destruct Hg as (c1 & H1 & Hg). apply in_flat_map in Hg. destruct Hg as (c2 & H2 & Hg). unfold clks_of in H1, H2. apply in_seq in H1, H2.
    destruct (Nat.eqb_spec ((c2 + 1) mod N) c1) as [|D]; [destruct Hg|]. destruct Hg as [<-|[]]. destruct (conn_occ u v Hv Hu) as (_ & Ou & _).
    cbn [not_both holds existsb]. rewrite !turned_holds by first [assumption|apply tiles_in; assumption|lia].
    destruct (Nat.eqb_spec c1 (turned v)) as [->|], (Nat.eqb_spec c2 (turned u)) as [->|]; try reflexivity. rewrite (turned_next u v Hv Hu) in D. congruence.
  - unfold ensure_same_clock_number_on_crossing_tiles in Hg. apply in_flat_map in Hg. destruct Hg as (w & Hw & Hg). cbv zeta in Hg.
    destruct (is_ground_layer (get_tile st w)) eqn:Gr; [destruct Hg|]. apply in_map_iff in Hg. destruct Hg as (c & <- & Hc). unfold clks_of in Hc. apply in_seq in Hc.
    unfold foreach_wire in Hw. apply filter_In in Hw. destruct Hw as [Hw Hw2]. apply in_seq in Hw. apply andb_true_iff in Hw2. destruct Hw2 as [_ Hd]. apply negb_true_iff in Hd.
    unfold is_ground_layer in Gr. apply Z.eqb_neq in Gr.
    destruct (cd (get_tile st w)) eqn:Dw.
    { exfalso. unfold get_tile in Dw, Gr. destruct (g_nt st !! w) as [t|] eqn:En; [|apply Gr; reflexivity]. cbn in Dw. apply (i_bij _ (i_0 _ (w_1 _ HW))) in En. pose proof (i_dead _ (i_0 _ (w_1 _ HW)) t w En Dw). lia. }
    destruct (placed_occ w ltac:(lia) Dw) as [O G]. set (t := get_tile st w) in *. assert (Z1 : cz t = 1%Z). { destruct O as [(_ & _ & _ & Zt) _]. pose proof (w_dim _ HW) as (_ & _ & Zd). lia. }
    pose proof (NB t O Z1) as Og. assert (Eb : below ar t = ground t) by (apply below_crossing; [apply HW|apply O|unfold is_crossing_layer; rewrite Z1; reflexivity]).
    rewrite Eb. cbn [same holds forallb existsb]. rewrite !turned_holds by first [assumption|apply tiles_in; assumption|lia].
    assert (ET : turned t = turned (ground t)). { unfold turned. destruct VF as (_ & _ & V). rewrite (V t O Z1 Og). reflexivity. }
    rewrite ET. destruct (c =? turned (ground t)); reflexivity.
  - unfold symmetry_breaking in Sb. destruct (foreach_pi st) as [|pi rest] eqn:Ep; [injection Sb as <-; destruct Hg|]. destruct (PI pi rest eq_refl) as (H2 & O & E0).
    destruct (recurse st fuel pi 0) as [[fs1 c1]|] eqn:Er; [|discriminate]. injection Sb as <-. eapply recurse_holds; [exact H2|exact O| |exact Er|exact Hg].
    rewrite <- E0, turned_start. symmetry. apply Nat.mod_0_l. pose proof count_pos. lia.
Qed.
End complete.
End main.
