(** C90: determining clock numbers with a SAT solver. *)
From Coq Require Import ZArith Bool String List Arith Lia.
From stdpp Require Import gmap list.
From Verif Require Import CoordMap CoordModel CoordSpec CoordProofs GridModel GridSpec GridProofs GridProps ClockModel ClockProofs GateModel GateSpec GateProofs GateProofs2 GateProofs3 GateProps RouteSpec RouteProofs SatModel SatSpec ColorProofs ColorProofs2 ClockSpec DetclkModel DetclkSpec DetclkProofs.
Import List ListNotations.
Open Scope nat_scope.

Lemma input_wf cl ops st : clk_input cl ops st -> wf st.
Proof. intros [R M D P _ _ _]. exact (wf_reached _ _ _ R M D P). Qed.
Lemma input_empty cl ops st : clk_input cl ops st -> is_empty st = true -> forall t, ~ occupied st t.
Proof. intros [R M D P _ S _] E t [[Dt _] O]. rewrite (proj1 (C19_is_empty cl ops st R M S) E t Dt) in O. discriminate. Qed.
Lemma no_flow st t rc : wf st -> ~ occupied st t -> incoming_data_flow rc st t = [].
Proof.
  intros HW O. unfold incoming_data_flow, foreach_fanin. destruct (is_constant (get_node st t)) eqn:E; [reflexivity|]. exfalso. unfold is_constant in E. apply Nat.leb_gt in E. apply O.
  unfold get_node in E. destruct (g_tn st !! t) as [n|] eqn:En; [|cbn in E; lia]. cbn in E. destruct (cd t) eqn:D; [pose proof (i_dead _ (i_0 _ (w_1 _ HW)) t n En D); lia|].
  split; [eapply w_in; eassumption|]. unfold is_empty_tile, get_node. rewrite En. cbn. apply Nat.eqb_neq. lia.
Qed.
Lemma reclocked_refl st : reclocked st st.
Proof. split; [destruct st; reflexivity|auto]. Qed.

(** If the result is [true], only the clocking has changed, and data flows along every connection of the layout; tiles above each other have the same
    clock number. If it is [false], the layout is as before. For every current clocking and every right solver. *)
Theorem C90_sound : forall cl ops st fuel sat r st', clk_input cl ops st -> wires_cross st -> right_solver sat ->
  determine_clocking st fuel sat = Some (r, st') ->
  (r = false -> st' = st) /\
  (r = true -> reclocked st st' /\ (forall t, incoming_data_flow true st' t = incoming_data_flow false st t) /\
     (forall t, occupied st t -> (0 <= get_clock_number (g_cl st') t < num_clocks (g_cl st))%Z /\
        get_clock_number (g_cl st') (ground t) = get_clock_number (g_cl st') t /\
        (cz (cl_dim (g_cl st)) = 1%Z -> get_clock_number (g_cl st') (live (cx t) (cy t) 1) = get_clock_number (g_cl st') t))).
Proof.
  intros cl ops st fuel sat r st' CI WC RS E. pose proof (input_wf _ _ _ CI) as HW. destruct CI as [R M D P NC SZ AL] eqn:ECI. unfold determine_clocking in E.
  destruct (is_empty st) eqn:Em.
  { injection E as <- <-. split; [discriminate|]. intros _. pose proof (input_empty _ _ _ CI Em) as NO. split; [apply reclocked_refl|]. split; [|intros t O; destruct (NO t O)].
    intros t. rewrite !no_flow by (try exact HW; apply NO). reflexivity. }
  destruct (clk_constraints st fuel) as [fs|] eqn:Ec; [|discriminate]. pose proof (RS fs) as RF. destruct (sat fs) as [m|] eqn:Es; [|injection E as <- <-; split; [reflexivity|discriminate]].
  injection E as <- <-. split; [discriminate|]. intros _.
  destruct (clock_of st HW NC AL fuel fs m Ec RF) as (F & F1 & F2 & F3).
  assert (F4 : forall t, occupied st t -> cz t = 1%Z -> occupied st (ground t) -> F t = F (ground t)) by (intros t O Z1 Og; apply F3; try assumption; apply WC; assumption).
  pose proof (assigned st HW NC AL m F F1 F4) as [A1 A2]. cbv zeta in A1, A2. destruct (count_pos st NC) as [Np Nz].
  assert (RC : reclocked st (assign_clock_numbers st m)).
  { split; [reflexivity|]. cbn [assign_clock_numbers with_cl g_cl]. destruct (writes_frame (clk_writes st m) (g_cl st)) as (-> & -> & ->). auto. }
  split; [exact RC|]. split.
  - intros t. destruct RC as (_ & T & Dm & Nn). unfold incoming_data_flow, foreach_fanin.
    change (get_tile (assign_clock_numbers st m)) with (get_tile st). change (get_node (assign_clock_numbers st m)) with (get_node st). change (node_at (assign_clock_numbers st m)) with (node_at st).
    destruct (is_constant (get_node st t)) eqn:Ek; [reflexivity|]. cbv zeta. rewrite T, Dm.
    f_equal. apply filter_ext_in. intros c Hc. destruct (is_adjacent_elevation_of _ _ _ _) eqn:Ea; [|reflexivity]. cbn [andb].
    assert (Gt : occupied st t /\ get_tile st (get_node st t) = t).
    { unfold is_constant in Ek. apply Nat.leb_gt in Ek. unfold get_node in Ek. destruct (g_tn st !! t) as [n|] eqn:En; [|cbn in Ek; lia]. cbn in Ek.
      destruct (cd t) eqn:Dt; [pose proof (i_dead _ (i_0 _ (w_1 _ HW)) t n En Dt); lia|].
      assert (O : occupied st t). { split; [eapply w_in; eassumption|]. unfold is_empty_tile, get_node. rewrite En. cbn. apply Nat.eqb_neq. lia. }
      split; [exact O|]. apply (occupied_at st HW t O). }
    destruct Gt as [O Gt]. rewrite Gt in *. set (u := get_tile st (get_node st c)) in *.
    assert (IF : In u (incoming_data_flow false st t)).
    { unfold incoming_data_flow, foreach_fanin. rewrite Ek. cbv zeta. apply in_map_iff. exists c. split; [reflexivity|]. apply filter_In. split; [exact Hc|]. rewrite Gt. fold u. rewrite Ea. reflexivity. }
    destruct (conn_occ st HW NC AL u t (tiles_in st HW NC AL t O) IF) as (_ & Ou & Nu & _). unfold is_incoming_clocked. rewrite (A1 t O), (A1 u Ou), Nn.
    rewrite <- (F2 u t (tiles_in st HW NC AL t O) IF). apply andb_true_iff. split.
    + apply negb_true_iff. destruct (coord_eqb t u) eqn:Et; [|reflexivity]. exfalso. apply Nu. symmetry. apply coord_eqb_spec. exact Et.
    + apply Z.eqb_eq. rewrite <- Nz, Nat2Z.inj_mod, Nat2Z.inj_add. change (Z.of_nat 1) with 1%Z. apply Z.mod_small.
      pose proof (Z.mod_pos_bound (Z.of_nat (F u) + 1) (Z.of_nat (clk_count st)) ltac:(lia)). lia.
  - intros t O. destruct (A2 t O) as [B1 B2]. rewrite (A1 t O). split; [destruct (F1 t (tiles_in st HW NC AL t O)); lia|]. split; [exact B1|]. intros Z1. apply B2. exact Z1.
Qed.
Print Assumptions C90_sound.

(** If the current clocking neither branches nor is cyclic, and nothing crosses an empty tile, the result is [true] iff there is a valid clocking. *)
Theorem C90_exact_partial : forall cl ops st fuel b sat, clk_input cl ops st -> wires_cross st -> right_solver sat -> no_bridges st -> no_branches st ->
  no_cycles st b -> b < fuel -> (forall pi, In pi (g_in st) -> placed st pi) ->
  exists r st', determine_clocking st fuel sat = Some (r, st') /\ (r = true <-> exists f, valid_clocking st f).
Proof.
  intros cl ops st fuel b sat CI WC RS NB BR (rank & NCy) FB PI. pose proof (input_wf _ _ _ CI) as HW. destruct CI as [R M D P NC SZ AL] eqn:ECI.
  unfold determine_clocking. destruct (is_empty st) eqn:Em.
  { exists true, st. split; [reflexivity|]. split; [|reflexivity]. intros _. pose proof (input_empty _ _ _ CI Em) as NO. exists (fun _ => 0%Z).
    split; [intros t O; destruct (NO t O)|]. split; [intros u v O; destruct (NO v O)|intros t O; destruct (NO t O)]. }
  assert (TR : forall fuel n clk, (exists m, In n (foreach_fanout true st m)) \/ rank n <= b -> b < fuel + rank n -> recurse st fuel n clk <> None).
  { induction fuel0 as [|k IH]; intros n clk H L; [destruct H as [[m H]|H]; [pose proof (NCy m n H)|]; cbn in L; lia|]. cbn [recurse].
    assert (IH' : forall m, In m (foreach_fanout true st n) -> forall clk, recurse st k m clk <> None). { intros m Hm clk'. apply IH; [left; eauto|]. pose proof (NCy n m Hm). lia. }
    generalize [FLit true (clk_var st (get_tile st n) (clk mod clk_count st))] as acc, (S clk) as c. induction (foreach_fanout true st n) as [|m l IHl]; intros acc c; [discriminate|].
    pose proof (IH' m (or_introl eq_refl) c) as K. destruct (recurse st k m c) as [[fs c']|]; [|congruence]. apply IHl. intros m' Hm'. apply IH'. right. exact Hm'. }
  assert (TS : exists sb, symmetry_breaking st fuel = Some sb).
  { unfold symmetry_breaking. destruct (foreach_pi st) as [|pi rest]; [eauto|].
    assert (K : recurse st fuel pi 0 <> None).
    { destruct fuel as [|k]; [lia|]. cbn [recurse]. assert (IH' : forall m, In m (foreach_fanout true st pi) -> forall clk, recurse st k m clk <> None).
      { intros m Hm clk'. apply TR; [left; eauto|]. pose proof (NCy pi m Hm). lia. }
      generalize [FLit true (clk_var st (get_tile st pi) (0 mod clk_count st))] as acc, 1 as c. induction (foreach_fanout true st pi) as [|m l IHl]; intros acc c; [discriminate|].
      pose proof (IH' m (or_introl eq_refl) c) as K. destruct (recurse st k m c) as [[fs c']|]; [|congruence]. apply IHl. intros m' Hm'. apply IH'. right. exact Hm'. }
    destruct (recurse st fuel pi 0) as [[fs c']|]; [cbn; eauto|congruence]. }
  destruct TS as [sb Sb]. destruct (clk_constraints st fuel) as [fs|] eqn:Ec; [|unfold clk_constraints in Ec; rewrite Sb in Ec; discriminate].
  pose proof (RS fs) as RF. destruct (sat fs) as [m|] eqn:Es.
  - eexists _, _. split; [reflexivity|]. split; [|reflexivity]. intros _. destruct (clock_of st HW NC AL fuel fs m Ec RF) as (F & F1 & F2 & F3). destruct (count_pos st NC) as [Np Nz].
    exists (fun t => Z.of_nat (F t)). split; [|split].
    + intros t O. destruct (F1 t (tiles_in st HW NC AL t O)). lia.
    + intros u v O Hu. rewrite <- (F2 u v (tiles_in st HW NC AL v O) Hu), Nat2Z.inj_mod, Nat2Z.inj_add, Nz. reflexivity.
    + intros t O Z1 Og. f_equal. apply F3; try assumption. apply WC; assumption.
  - eexists _, _. split; [reflexivity|]. split; [discriminate|]. intros (f & VF). exfalso.
    assert (PI' : forall pi rest, foreach_pi st = pi :: rest -> 2 <= pi /\ occupied st (get_tile st pi) /\ get_tile st (hd 0 (foreach_pi st)) = get_tile st pi).
    { intros pi rest Ep. assert (Hin : In pi (g_in st)) by (unfold foreach_pi in Ep; rewrite Ep; left; reflexivity). pose proof (w_pis _ HW pi Hin) as H2.
      split; [lia|]. split; [apply (placed_occ st HW AL); [lia|apply PI; exact Hin]|rewrite Ep; reflexivity]. }
    exact (RF _ (turned_satisfies st HW NC AL f VF (get_tile st (hd 0 (foreach_pi st))) NB BR PI' fuel fs Ec)).
Qed.
Print Assumptions C90_exact_partial.

(** In particular it is exact for layouts without a clocking: all clock numbers are 0. *)
Theorem C90_unclocked : forall cl ops st fuel sat, clk_input cl ops st -> wires_cross st -> right_solver sat -> no_bridges st ->
  (forall t, get_clock_number (g_cl st) t = 0%Z) -> (2 <= num_clocks (g_cl st))%Z -> 1 <= fuel -> (forall pi, In pi (g_in st) -> placed st pi) ->
  exists r st', determine_clocking st fuel sat = Some (r, st') /\ (r = true <-> exists f, valid_clocking st f).
Proof.
  intros cl ops st fuel sat CI WC RS NB Z N2 FB PI. assert (NC : (num_clocks (g_cl st) <= 255)%Z) by apply CI.
  assert (E : forall n, foreach_fanout true st n = []).
  { intros n. unfold foreach_fanout. destruct (is_constant n); [reflexivity|]. cbv zeta. replace (outgoing_clocked_zones (g_cl st) (get_tile st n)) with (@nil coord); [reflexivity|].
    unfold outgoing_clocked_zones. induction (adjacent _ _ _) as [|u l IH]; [reflexivity|]. cbn [List.filter].
    assert (K : is_outgoing_clocked (g_cl st) (get_tile st n) u = false); [|rewrite K; exact IH].
    unfold is_outgoing_clocked. rewrite !Z. rewrite (Z.mod_small (0 + 1) (num_clocks (g_cl st))) by lia. apply andb_false_r. }
  apply (C90_exact_partial cl ops st fuel 0 sat CI WC RS NB); [intros n; rewrite E; cbn; lia|exists (fun _ => 0); intros n m H; rewrite E in H; destruct H|lia|exact PI].
Qed.
Print Assumptions C90_unclocked.

(** *** Concrete layouts *)
Definition tiles_of (st : glayout) : list coord := map (get_tile st) (seq 2 (length (g_nodes st) - 2)).
Lemma occ_check st (P : coord -> bool) : wf st -> forallb P (tiles_of st) = true -> forall t, occupied st t -> P t = true.
Proof.
  intros HW H t O. rewrite forallb_forall in H. apply H. destruct (occupied_at st HW t O) as [L E]. apply in_map_iff. exists (get_node st t). split; [exact E|]. apply in_seq. lia.
Qed.
Lemma input_check cl ops : match g_run (g_empty cl) ops with Some _ => true | None => false end = true -> moves_no_constant ops -> dim_ok (cl_dim cl) -> places_inside (cl_dim cl) ops ->
  (let st := final cl ops in (1 <=? num_clocks (g_cl st))%Z && (num_clocks (g_cl st) <=? 255)%Z && (Z.of_nat (length (g_nodes st)) <? 2 ^ 32)%Z &&
     forallb (fun t => negb (is_dead st (get_node st t))) (tiles_of st)) = true ->
  clk_input cl ops (final cl ops).
Proof.
  intros R M D P C. cbv zeta in C. rewrite !andb_true_iff in C. destruct C as [[[C1 C2] C3] C4]. apply Z.leb_le in C1, C2. apply Z.ltb_lt in C3.
  pose proof (reached_final cl ops R) as R'. pose proof (wf_reached _ _ _ R' M D P) as HW. split; try assumption; [auto|].
  intros t O. apply negb_true_iff. exact (occ_check _ (fun t => negb (is_dead (final cl ops) (get_node (final cl ops) t))) HW C4 t O).
Qed.
Definition crossings_ok (st : glayout) : bool := forallb (fun t => negb (cz t =? 1)%Z || is_wire st (get_node st t)) (tiles_of st).
Lemma wires_check st : wf st -> crossings_ok st = true -> wires_cross st.
Proof.
  intros HW H t O Z1 _. pose proof (occ_check st _ HW H t O) as K. cbv beta in K. rewrite Z1 in K. exact K.
Qed.
Definition clocking_ok (st : glayout) (f : coord -> Z) : bool :=
  forallb (fun v => (0 <=? f v)%Z && (f v <? num_clocks (g_cl st))%Z && forallb (fun u => (f v =? (f u + 1) mod num_clocks (g_cl st))%Z) (incoming_data_flow false st v) &&
    (f v =? f (ground v))%Z) (tiles_of st).
Lemma clocking_check st f : wf st -> clocking_ok st f = true -> valid_clocking st f.
Proof.
  intros HW H. assert (K : forall t, occupied st t -> (0 <= f t < num_clocks (g_cl st))%Z /\ (forall u, In u (incoming_data_flow false st t) -> f t = ((f u + 1) mod num_clocks (g_cl st))%Z) /\ f t = f (ground t)).
  { intros t O. pose proof (occ_check st _ HW H t O) as K. cbv beta in K. rewrite !andb_true_iff in K. destruct K as [[[K1 K2] K3] K4]. apply Z.leb_le in K1. apply Z.ltb_lt in K2. apply Z.eqb_eq in K4.
    split; [lia|]. split; [|exact K4]. intros u Hu. rewrite forallb_forall in K3. apply Z.eqb_eq. apply K3. exact Hu. }
  split; [|split]; [intros t O; apply K; exact O|intros u v O Hu; apply K; assumption|intros t O _ _; apply K; exact O].
Qed.
Lemma occ_dec st t : occupied st t \/ ~ occupied st t.
Proof. assert (D : Decision (occupied st t)) by (unfold occupied, inb; apply _). destruct D; auto. Qed.
Lemma constraints_sb st fuel fs sb f : clk_constraints st fuel = Some fs -> symmetry_breaking st fuel = Some sb -> In f sb -> In f fs.
Proof. intros E H Hf. unfold clk_constraints in E. rewrite H in E. injection E as <-. rewrite !in_app_iff. auto 10. Qed.
Lemma constraints_cross st fuel fs f : clk_constraints st fuel = Some fs -> In f (ensure_same_clock_number_on_crossing_tiles st) -> In f fs.
Proof. intros E Hf. unfold clk_constraints in E. destruct (symmetry_breaking st fuel); [|discriminate]. injection E as <-. rewrite !in_app_iff. auto 10. Qed.
Definition flat (t : coord) : bool := (cz t =? 0)%Z.
Lemma flat_bridges st : wf st -> forallb flat (tiles_of st) = true -> no_bridges st.
Proof. intros HW H t O Z1. pose proof (occ_check st _ HW H t O) as K. unfold flat in K. rewrite Z1 in K. discriminate. Qed.

(** A layout that is clocked already is reported not to be clockable if its first input has two fan-outs: the clock numbers that break the
    symmetry are counted along a depth-first search of the fan-outs. *)
Definition wave_cl : clocked := std_layout Cartesian (live 2 2 1) (TWODDWAVE FOUR).
Definition branch_ops : list gop :=
  [CreatePi "a" (live 0 0 0); CreatePo (live 0 0 0) "f" (live 1 0 0); CreatePo (live 0 0 0) "g" (live 0 1 0)].
Theorem C90_fanout_refuted : exists cl ops st, clk_input cl ops st /\ wires_cross st /\ no_bridges st /\
  (forall t, incoming_data_flow true st t = incoming_data_flow false st t) /\ valid_clocking st (get_clock_number (g_cl st)) /\
  (forall sat, right_solver sat -> determine_clocking st 3 sat = Some (false, st)).
Proof.
  exists wave_cl, branch_ops, (final wave_cl branch_ops). set (st := final wave_cl branch_ops).
  assert (CI : clk_input wave_cl branch_ops st).
  { apply input_check; [vm_compute; reflexivity|repeat constructor|unfold dim_ok; cbn; lia|repeat constructor; unfold inb; simpl; intros; repeat split; lia|vm_compute; reflexivity]. }
  pose proof (input_wf _ _ _ CI) as HW.
  split; [exact CI|]. split; [apply wires_check; [exact HW|vm_compute; reflexivity]|]. split; [apply flat_bridges; [exact HW|vm_compute; reflexivity]|]. split.
  { intros t. destruct (occ_dec st t) as [O|O]; [|rewrite !no_flow by assumption; reflexivity].
    set (P := fun t => if list_eq_dec (decide_rel eq) (incoming_data_flow true st t) (incoming_data_flow false st t) then true else false).
    assert (K : P t = true) by (apply (occ_check st P HW); [vm_compute; reflexivity|exact O]). unfold P in K. destruct (list_eq_dec _ _ _) as [K'|]; [exact K'|discriminate]. }
  split; [apply clocking_check; [exact HW|vm_compute; reflexivity]|].
  intros sat RS. unfold determine_clocking. assert (E : is_empty st = false) by (vm_compute; reflexivity). rewrite E. destruct CI as [R M D P NC SZ AL].
  destruct (clk_constraints st 3) as [fs|] eqn:Ec.
  2: { exfalso. assert (K : match clk_constraints st 3 with Some _ => true | None => false end = true) by (vm_compute; reflexivity). rewrite Ec in K. discriminate. }
  pose proof (RS fs) as RF. destruct (sat fs) as [m|]; [exfalso|reflexivity].
  destruct (clock_of st HW NC AL 3 fs m Ec RF) as (F & F1 & F2 & _).
  assert (Sb : symmetry_breaking st 3 = Some [FLit true (live 0 0 0, 0); FLit true (live 1 0 0, 1); FLit true (live 0 1 0, 2)] \/
               symmetry_breaking st 3 = Some [FLit true (live 0 0 0, 0); FLit true (live 0 1 0, 1); FLit true (live 1 0 0, 2)]) by (vm_compute; auto).
  assert (Sub : forall sb, symmetry_breaking st 3 = Some sb -> forall f, In f sb -> In f fs).
  { intros sb H f Hf. exact (constraints_sb _ _ _ _ _ Ec H Hf). }
  assert (N4 : clk_count st = 4) by (vm_compute; reflexivity).
  assert (T : forall t, In t [live 0 0 0; live 1 0 0; live 0 1 0] -> In t (clk_tiles st)) by (intros t Ht; exact Ht).
  assert (L : forall t c, In t [live 0 0 0; live 1 0 0; live 0 1 0] -> c < 4 -> In (FLit true (t, c)) fs -> F t = c).
  { intros t c Ht Hc Hf. symmetry. apply (F1 t (T t Ht)); [rewrite N4; exact Hc|]. apply RF in Hf. cbn in Hf. destruct (m (t, c)); [reflexivity|discriminate Hf]. }
  assert (G : forall v, In v [live 1 0 0; live 0 1 0] -> (F (live 0 0 0) + 1) mod 4 = F v).
  { intros v Hv. assert (Hi : In (live 0 0 0) (incoming_data_flow false st v)) by (destruct Hv as [<-|[<-|[]]]; vm_compute; left; reflexivity).
    assert (Ht : In v (clk_tiles st)) by (apply T; right; exact Hv). pose proof (F2 _ _ Ht Hi) as Q. rewrite N4 in Q. exact Q. }
  assert (I0 : In (live 0 0 0) [live 0 0 0; live 1 0 0; live 0 1 0]) by (left; reflexivity). assert (I1 : In (live 1 0 0) [live 1 0 0; live 0 1 0]) by (left; reflexivity).
  assert (I2 : In (live 0 1 0) [live 1 0 0; live 0 1 0]) by (right; left; reflexivity).
  destruct Sb as [Sb|Sb]; specialize (Sub _ Sb).
  - pose proof (L _ 0 I0 ltac:(lia) (Sub _ (or_introl eq_refl))) as L0. pose proof (L _ 2 (or_intror I2) ltac:(lia) (Sub _ (or_intror (or_intror (or_introl eq_refl))))) as L2.
    pose proof (G _ I2) as G2. rewrite L0, L2 in G2. discriminate G2.
  - pose proof (L _ 0 I0 ltac:(lia) (Sub _ (or_introl eq_refl))) as L0. pose proof (L _ 2 (or_intror I1) ltac:(lia) (Sub _ (or_intror (or_intror (or_introl eq_refl))))) as L2.
    pose proof (G _ I1) as G2. rewrite L0, L2 in G2. discriminate G2.
Qed.
Print Assumptions C90_fanout_refuted.

(** A wire in the crossing layer above an empty tile: variable 0 stands for the clock numbers of the empty tile, and the layout is reported not to
    be clockable. *)
Definition bridge_ops : list gop :=
  [CreatePi "a" (live 0 0 0); CreateLit [live 0 0 0] 2 (live 1 0 1); CreatePo (live 1 0 1) "f" (live 2 0 0)].
Theorem C90_bridge_refuted : exists cl ops st, clk_input cl ops st /\ wires_cross st /\
  valid_clocking st (get_clock_number (g_cl st)) /\
  (forall sat, right_solver sat -> determine_clocking st 4 sat = Some (false, st)).
Proof.
  exists wave_cl, bridge_ops, (final wave_cl bridge_ops). set (st := final wave_cl bridge_ops).
  assert (CI : clk_input wave_cl bridge_ops st).
  { apply input_check; [vm_compute; reflexivity|repeat constructor|unfold dim_ok; cbn; lia|repeat constructor; unfold inb; simpl; intros; repeat split; lia|vm_compute; reflexivity]. }
  pose proof (input_wf _ _ _ CI) as HW.
  split; [exact CI|]. split; [apply wires_check; [exact HW|vm_compute; reflexivity]|].
  split; [apply clocking_check; [exact HW|vm_compute; reflexivity]|].
  intros sat RS. unfold determine_clocking. assert (E : is_empty st = false) by (vm_compute; reflexivity). rewrite E. destruct CI as [R M D P NC SZ AL].
  destruct (clk_constraints st 4) as [fs|] eqn:Ec.
  2: { exfalso. assert (K : match clk_constraints st 4 with Some _ => true | None => false end = true) by (vm_compute; reflexivity). rewrite Ec in K. discriminate. }
  pose proof (RS fs) as RF. destruct (sat fs) as [m|]; [exfalso|reflexivity].
  destruct (clock_of st HW NC AL 4 fs m Ec RF) as (F & F1 & F2 & _).
  assert (N4 : clk_count st = 4) by (vm_compute; reflexivity).
  assert (Cr : ensure_same_clock_number_on_crossing_tiles st = map (fun c => same (live 1 0 1, c) (live 0 0 0, 0)) [0; 1; 2; 3]) by (vm_compute; reflexivity).
  assert (Sa : forall c, In c [0; 1; 2; 3] -> m (live 1 0 1, c) = m (live 0 0 0, 0)).
  { intros c Hc. assert (Hf : In (same (live 1 0 1, c) (live 0 0 0, 0)) fs).
    { apply (constraints_cross _ _ _ _ Ec). rewrite Cr. apply in_map_iff. eauto. }
    apply RF in Hf. apply holds_same in Hf. exact Hf. }
  assert (T : In (live 1 0 1) (clk_tiles st)) by (vm_compute; right; left; reflexivity). destruct (F1 _ T) as [L U]. rewrite N4 in *.
  assert (M0 : m (live 0 0 0, 0) = true). { rewrite <- (Sa (F (live 1 0 1))); [apply U; [exact L|reflexivity]|]. clear - L. apply (in_seq 4 0). lia. }
  pose proof (proj1 (U 0 ltac:(lia)) (eq_trans (Sa 0 (or_introl eq_refl)) M0)) as U0. pose proof (proj1 (U 1 ltac:(lia)) (eq_trans (Sa 1 (or_intror (or_introl eq_refl))) M0)) as U1. rewrite <- U0 in U1. discriminate U1.
Qed.
Print Assumptions C90_bridge_refuted.

(** A layout with a loop, clocked such that data flows along it: the search that breaks the symmetry never ends. *)
Definition use_cl : clocked := std_layout Cartesian (live 2 2 0) USE.
Definition loop_ops : list gop :=
  [CreatePi "a" (live 2 1 0); CreateLit [live 2 1 0] 4 (live 1 1 0); CreateLit [live 1 1 0] 2 (live 0 1 0); CreateLit [live 0 1 0] 2 (live 0 0 0);
   CreateLit [live 0 0 0] 2 (live 1 0 0); Connect (live 1 0 0) 3].
Theorem C90_loop_refuted : exists cl ops st, clk_input cl ops st /\ wires_cross st /\ no_bridges st /\ (forall t, occupied st t -> length (outgoing_data_flow true st t) <= 1) /\
  valid_clocking st (get_clock_number (g_cl st)) /\ (forall fuel sat, determine_clocking st fuel sat = None).
Proof.
  exists use_cl, loop_ops, (final use_cl loop_ops). set (st := final use_cl loop_ops).
  assert (CI : clk_input use_cl loop_ops st).
  { apply input_check; [vm_compute; reflexivity|repeat constructor|unfold dim_ok; cbn; lia|repeat constructor; unfold inb; simpl; intros; repeat split; lia|vm_compute; reflexivity]. }
  pose proof (input_wf _ _ _ CI) as HW.
  assert (F2 : foreach_fanout true st 2 = [3]) by (vm_compute; reflexivity).
  assert (F3 : foreach_fanout true st 3 = [4]) by (vm_compute; reflexivity).
  assert (F4 : foreach_fanout true st 4 = [5]) by (vm_compute; reflexivity).
  assert (F5 : foreach_fanout true st 5 = [6]) by (vm_compute; reflexivity).
  assert (F6 : foreach_fanout true st 6 = [3]) by (vm_compute; reflexivity).
  split; [exact CI|]. split; [apply wires_check; [exact HW|vm_compute; reflexivity]|]. split; [apply flat_bridges; [exact HW|vm_compute; reflexivity]|].
  split.
  { intros t O. apply Nat.leb_le. apply (occ_check st (fun t => length (outgoing_data_flow true st t) <=? 1) HW); [vm_compute; reflexivity|exact O]. }
  split; [apply clocking_check; [exact HW|vm_compute; reflexivity]|].
  intros fuel sat. unfold determine_clocking. assert (E : is_empty st = false) by (vm_compute; reflexivity). rewrite E.
  assert (K : forall fuel n clk, In n [2; 3; 4; 5; 6] -> recurse st fuel n clk = None).
  { induction fuel0 as [|k IH]; intros n clk Hn; [reflexivity|]. cbn [recurse].
    destruct Hn as [<-|[<-|[<-|[<-|[<-|[]]]]]]; rewrite ?F2, ?F3, ?F4, ?F5, ?F6; cbn beta iota; rewrite IH by (clear; cbn; auto 10); reflexivity. }
  assert (P : foreach_pi st = [2]) by (vm_compute; reflexivity).
  unfold clk_constraints, symmetry_breaking. rewrite P, K by (left; reflexivity). reflexivity.
Qed.
Print Assumptions C90_loop_refuted.

(** A layout without clocking: an input, a wire, and an output around a corner. *)
Definition open_cl : clocked := std_layout Cartesian (live 2 2 0) (OPEN THREE).
Definition open_ops : list gop :=
  [CreatePi "a" (live 0 0 0); CreateLit [live 0 0 0] 2 (live 1 0 0); CreatePo (live 1 0 0) "f" (live 1 1 0)].
Definition clocks_of (r : option (bool * glayout)) : option (bool * list Z) :=
  option_map (fun x => (fst x, map (get_clock_number (g_cl (snd x))) [live 0 0 0; live 1 0 0; live 1 1 0])) r.
Lemma clocks_result (r : option (bool * glayout)) b l : clocks_of r = Some (b, l) ->
  exists st', r = Some (b, st') /\ map (get_clock_number (g_cl st')) [live 0 0 0; live 1 0 0; live 1 1 0] = l.
Proof. destruct r as [[b' st']|]; [|discriminate]. unfold clocks_of. cbn [option_map fst snd]. intros H. exists st'. split; congruence. Qed.
Example C90_nonvacuous : let st := final open_cl open_ops in
  clk_input open_cl open_ops st /\ wires_cross st /\ right_solver (brute (V := coord * nat)) /\ no_bridges st /\ (forall t, get_clock_number (g_cl st) t = 0%Z) /\
  (2 <= num_clocks (g_cl st))%Z /\ (forall pi, In pi (g_in st) -> placed st pi) /\
  exists st', determine_clocking st 1 brute = Some (true, st') /\ map (get_clock_number (g_cl st')) [live 0 0 0; live 1 0 0; live 1 1 0] = [0; 1; 2]%Z.
Proof.
  set (st := final open_cl open_ops). cbv zeta.
  assert (CI : clk_input open_cl open_ops st).
  { apply input_check; [vm_compute; reflexivity|repeat constructor|unfold dim_ok; cbn; lia|repeat constructor; unfold inb; simpl; intros; repeat split; lia|vm_compute; reflexivity]. }
  pose proof (input_wf _ _ _ CI) as HW.
  assert (C : g_cl st = open_cl). { change (g_cl st = g_cl (g_empty open_cl)). apply (run_cl open_ops); [apply CI|]. intros t k H. repeat (destruct H as [H|H]; [discriminate H|]). destruct H. }
  split; [exact CI|]. split; [apply wires_check; [exact HW|vm_compute; reflexivity]|]. split; [apply brute_right|]. split; [apply flat_bridges; [exact HW|vm_compute; reflexivity]|].
  split; [intros t; rewrite C; reflexivity|]. split; [rewrite C; cbn; lia|]. split.
  - assert (G : g_in st = [2]) by (vm_compute; reflexivity). intros pi H. rewrite G in H. destruct H as [<-|[]]. vm_compute. reflexivity.
  - apply clocks_result. vm_compute. reflexivity.
Qed.
