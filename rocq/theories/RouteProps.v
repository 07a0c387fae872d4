(** C47-C51: design rules, critical paths, routing. *)
From Coq Require Import ZArith Lia Bool String List.
From stdpp Require Import gmap.
From Verif Require Import CoordModel CoordSpec CoordProofs GridModel GridSpec GridProofs CoordMap ClockModel ClockSpec ClockProofs
  GateModel GateSpec GateProofs GateProofs2 GateProofs3 GateProps PathSpec PathProofs5
  RouteModel RouteSpec RouteProofs RouteProofs2 RouteProofs3 RouteProofs4 RouteProofs5 RouteProofs6.
Import ListNotations.
Local Open Scope Z_scope.

Lemma got {A} (d : A) o : match o with Some _ => true | None => false end = true -> o = Some (default d o).
Proof. destruct o; [reflexivity|discriminate]. Qed.

(** * C47 *)

(** The check reports no violation exactly when the rules hold, and no warning exactly when the practices are followed
    (layouts without any node on a tile pass by definition). *)
Theorem C47_clean_iff : forall cl ops st fuel, reached cl ops st -> moves_no_constant ops -> dim_ok (cl_dim cl) -> places_inside (cl_dim cl) ops ->
  1 <= num_clocks (g_cl st) <= 255 -> (Z.to_nat (volume (cl_dim (g_cl st))) <= fuel)%nat ->
  ~ In const1 (g_out st) -> Z.of_nat (List.length (g_in st)) < 2 ^ 32 -> Z.of_nat (List.length (g_out st)) < 2 ^ 32 ->
  exists v w, gate_level_drvs fuel st = Some (v, w) /\ 0 <= v /\ 0 <= w /\
    (v = 0 <-> is_empty st = true \/ rules st) /\ (w = 0 <-> is_empty st = true \/ practices st).
Proof.
  intros cl ops st fuel Hr Hm Hd Hp Hn Hf Hc Hi Ho. pose proof (wf_reached cl ops st Hr Hm Hd Hp) as Hw. unfold gate_level_drvs.
  destruct (foreach_coordinate_full Offset _ fuel (dim_ok_ar_ok _ (w_dim _ Hw)) Hf) as (cs & -> & Hcs & _).
  assert (HT : forall c, In c cs <-> inb (cl_dim (g_cl st)) c) by exact Hcs.
  exists (fst (drv_counts st cs)), (snd (drv_counts st cs)). split; [destruct (drv_counts st cs); reflexivity|].
  split; [|split; [|split]].
  - unfold drv_counts. destruct (is_empty st); cbn [fst]; [lia|]. unfold has_io_violations. destruct (num_pis st =? 0), (num_pos st =? 0); lia.
  - unfold drv_counts. destruct (is_empty st); cbn [snd]; lia.
  - apply drv_violations; assumption.
  - apply drv_warnings; assumption.
Qed.
Print Assumptions C47_clean_iff.

(** What is counted, check by check. *)
Theorem C47_sites : forall cl ops st tiles, reached cl ops st -> moves_no_constant ops -> dim_ok (cl_dim cl) -> places_inside (cl_dim cl) ops ->
  1 <= num_clocks (g_cl st) <= 255 -> (forall c, In c tiles <-> inb (cl_dim (g_cl st)) c) ->
  (forall t u, In (t, u) (non_adjacent_connections st tiles) <-> connected st u t /\ ~ next_to st u t) /\
  (forall t u, In (t, u) (improperly_clocked st tiles) <-> connected st u t /\ (u = t \/ ~ next_zone (g_cl st) u t)) /\
  (forall t, In t (missing_connections st tiles) <-> occupied st t /\
     ((outgoing_data_flow true st t = [] /\ is_po st (get_node st t) = false) \/
      (incoming_data_flow true st t = [] /\ is_pi st (get_node st t) = false))) /\
  (forall n, In n (crossing_gates st) <-> exists t, hosts_wire st t /\ get_node st t = n /\ is_dead st n = false /\ cz t = 1 /\
     ~ hosts_wire st (live (cx t) (cy t) 0)) /\
  (forall n, In n (unplaced_nodes st) <-> (2 <= n < List.length (g_nodes st))%nat /\ is_dead st n = false /\ ~ placed st n) /\
  (forall t, In t (placed_dead_nodes st tiles) <-> occupied st t /\ is_dead st (get_node st t) = true) /\
  (forall n, In n (io_pins st) <-> io_node st n /\ is_wire st n = false) /\
  (forall n, In n (border_io st) <-> io_node st n /\
     ~ (let t := get_tile st n in let ar := cl_dim (g_cl st) in cx t = 0 \/ cx t = cx ar \/ cy t = 0 \/ cy t = cy ar)) /\
  (~ In const1 (g_out st) -> forall n, In n (empty_io st) <-> io_node st n /\ ~ placed st n).
Proof.
  intros cl ops st tiles Hr Hm Hd Hp Hn HT. pose proof (wf_reached cl ops st Hr Hm Hd Hp) as Hw.
  split; [intros t u; apply site_adjacent; assumption|]. split; [intros t u; apply site_clocked; assumption|].
  split; [intros t; apply site_missing; assumption|]. split; [intros n; eapply site_crossing; eassumption|].
  split; [intros n; eapply site_unplaced; eassumption|]. split; [intros t; apply site_dead; assumption|].
  split; [intros n; eapply site_pins; eassumption|]. split; [intros n; eapply site_border; eassumption|]. intros Hc n. eapply site_io; eassumption.
Qed.
Print Assumptions C47_sites.

Definition ex_bad : list gop :=
  [CreatePi "a" (live 0 1 0); CreateLit [live 0 1 0] 2 (live 2 1 0); CreateLit [live 2 1 0] 2 (live 2 2 1); CreatePo (live 2 2 1) "f" (live 3 2 0)].
Example C47_nonvacuous : exists st, reached ex_cl ex_ops st /\ moves_no_constant ex_ops /\ places_inside (cl_dim ex_cl) ex_ops /\
  gate_level_drvs 50 st = Some (0, 1) /\
  exists st2, reached ex_cl ex_bad st2 /\ moves_no_constant ex_bad /\ places_inside (cl_dim ex_cl) ex_bad /\
  gate_level_drvs 50 st2 = Some (5, 1).
Proof.
  run_to ex_cl ex_ops. split; [repeat constructor|]. split; [repeat constructor; try discriminate; cbn; lia|].
  split; [vm_compute; reflexivity|]. run_to ex_cl ex_bad. split; [repeat constructor|]. split; [repeat constructor; try discriminate; cbn; lia|].
  vm_compute. reflexivity.
Qed.

(** Finding: an output on the tile of constant 1 has no place, and no check reports it. *)
Definition ex_const_po : list gop := ex_ops ++ [CreatePo (live 2 1 0) "g" const1].
Theorem C47_constant_output_refuted : exists cl ops st fuel w, reached cl ops st /\ moves_no_constant ops /\ dim_ok (cl_dim cl) /\ places_inside (cl_dim cl) ops /\
  (Z.to_nat (volume (cl_dim (g_cl st))) <= fuel)%nat /\ gate_level_drvs fuel st = Some (0, w) /\ is_empty st = false /\ ~ rules st.
Proof.
  exists ex_cl, ex_const_po, (final ex_cl ex_const_po), 50%nat, 3. split; [apply reached_final; vm_compute; reflexivity|].
  split; [repeat constructor|]. split; [cbn; unfold dim_ok; cbn; lia|]. split; [repeat constructor; try discriminate; cbn; lia|].
  split; [apply Nat.leb_le; vm_compute; reflexivity|]. split; [vm_compute; reflexivity|]. split; [vm_compute; reflexivity|].
  intros [_ _ _ _ _ _ R]. specialize (R 1%nat). assert (placed (final ex_cl ex_const_po) 1) as K; [|vm_compute in K; discriminate].
  apply R. right. exists const1. split; [vm_compute; tauto|vm_compute; reflexivity].
Qed.
Print Assumptions C47_constant_output_refuted.

(** * C48 *)

(** The reported critical path length is the number of tiles of a longest data path to an output. *)
Theorem C48_critical_path : forall cl ops st fuel L x, reached cl ops st -> moves_no_constant ops -> dim_ok (cl_dim cl) -> places_inside (cl_dim cl) ops ->
  Z.of_nat (List.length (g_nodes st)) < 2 ^ 64 -> critical_path_and_throughput fuel st = Some (L, x) ->
  longest st (fun t => In t (g_out st)) L.
Proof. intros cl ops st fuel L x Hr Hm Hd Hp Hl H. eapply critical_path_longest; [eapply wf_reached; eassumption|exact Hl|exact H]. Qed.
Print Assumptions C48_critical_path.

(** The computation ends on layouts with a linear clocking scheme (columnar, row, 2DDWave and their hexagonal variants). *)
Theorem C48_terminates_partial : forall topo ar s ops st fuel, reached (std_layout topo ar s) ops st -> moves_no_constant ops -> dim_ok ar -> places_inside ar ops ->
  g_cl st = std_layout topo ar s -> waves topo s -> (Z.to_nat (cx ar + cy ar + 1) < fuel)%nat ->
  exists L x, critical_path_and_throughput fuel st = Some (L, x).
Proof.
  intros topo ar s ops st fuel Hr Hm Hd Hp Hc Hs Hf. pose proof (wf_reached _ ops st Hr Hm Hd Hp) as Hw.
  assert (Hn : 1 <= num_clocks (g_cl st) <= 255) by (rewrite Hc; destruct s as [[]|[]|[]|[]|[]| | | | | | | ], topo as [|[]]; cbn; lia).
  assert (Hu : forall x y z1 z2, get_clock_number (g_cl st) (live x y z1) = get_clock_number (g_cl st) (live x y z2)).
  { intros x y z1 z2. rewrite Hc. destruct s as [[]|[]|[]|[]|[]| | | | | | | ], topo as [|[]]; reflexivity. }
  assert (Hwv : forall c, inb ar c -> 0 <= wave topo s c <= cx ar + cy ar).
  { intros c (_ & Hx & Hy & _). destruct s as [n|n|n|n|n| | | | | | | ], topo as [|[]]; cbn [wave];
      Z.div_mod_to_equations; lia. }
  apply (critical_path_total st (fun t => Z.to_nat (Z.min (wave topo s t) (cx ar + cy ar + 1)))).
  - intros u v Huv. pose proof (flow_wave_st st topo ar s Hw Hc Hn Hs Hu u v Huv) as E.
    destruct (flow_info st u v Hw Huv) as ([Iu _] & [Iv _] & _). rewrite Hc in Iu, Iv. apply Hwv in Iu, Iv. lia.
  - intros t Ht. lia.
Qed.
Print Assumptions C48_terminates_partial.

(** If all data that meets on a tile is equally old, the throughput is 1/1. *)
Theorem C48_balanced_throughput_partial : forall cl ops st fuel L x, reached cl ops st -> moves_no_constant ops -> dim_ok (cl_dim cl) -> places_inside (cl_dim cl) ops ->
  1 <= num_clocks (g_cl st) -> (forall t, 0 <= get_clock_number (g_cl st) t < 2 ^ 64) -> synchronous st ->
  critical_path_and_throughput fuel st = Some (L, x) -> x = 1.
Proof. intros cl ops st fuel L x Hr Hm Hd Hp Hn Hc Hs H. eapply throughput_sync; [eapply wf_reached; eassumption|exact Hn|exact Hc|exact Hs|exact H]. Qed.
Print Assumptions C48_balanced_throughput_partial.

Example C48_nonvacuous : exists st, reached ex_cl ex_ops st /\ critical_path_and_throughput 10 st = Some (4, 1) /\ synchronous st /\
  data_path st (live 3 1 0) [live 0 1 0; live 1 1 0; live 2 1 0; live 3 1 0].
Proof.
  run_to ex_cl ex_ops. split; [vm_compute; reflexivity|].
  assert (Hw : wf (final ex_cl ex_ops)).
  { apply (wf_reached ex_cl ex_ops); [apply reached_final; vm_compute; reflexivity|repeat constructor|unfold dim_ok; cbn; lia|repeat constructor; try discriminate; cbn; lia]. }
  assert (Hocc : forall t, is_empty_tile (final ex_cl ex_ops) t = false -> cd t = false -> exists k, In k [2; 3; 4; 5; 6]%nat /\ t = get_tile (final ex_cl ex_ops) k).
  { intros t He Dt. destruct (occ_live _ t (w_1 _ Hw) He Dt) as (H1 & H2 & H3). exists (get_node (final ex_cl ex_ops) t). split; [|symmetry; exact H2].
    assert (EL : List.length (g_nodes (final ex_cl ex_ops)) = 7%nat) by (vm_compute; reflexivity). rewrite EL in H3. clear -H1 H3.
    revert H1 H3. generalize (get_node (final ex_cl ex_ops) t). intros k H1 H3. cbn [In]. lia. }
  split.
  - exists (fun t => cx t + cy t). split.
    + intros s [He Hi]. destruct (cd s) eqn:Ds.
      * destruct (occ_some _ s (w_1 _ Hw) He) as [E H1]. destruct (w_dead _ Hw _ _ E Ds) as [[_ K]|[K _]]; [lia|]. rewrite K. vm_compute. reflexivity.
      * destruct (Hocc s He Ds) as (k & Hk & ->). cbn [In] in Hk.
        destruct Hk as [<-|[<-|[<-|[<-|[<-|[]]]]]]; try (vm_compute; reflexivity); vm_compute in Hi; discriminate Hi.
    + intros u v Huv. destruct (flow_info _ u v Hw Huv) as (_ & [Iv Ev] & _ & _ & Hc & _). destruct (Hocc v Ev (proj1 Iv)) as (k & Hk & ->). clear -Hc Hk.
      cbn [In] in Hk. destruct Hk as [<-|[<-|[<-|[<-|[<-|[]]]]]]; vm_compute in Hc; decompose [or] Hc; subst; try contradiction; vm_compute; auto.
  - exists (live 0 1 0). split; [split; vm_compute; reflexivity|]. apply walk_step with (live 1 1 0); [vm_compute; tauto|].
    apply walk_step with (live 2 1 0); [vm_compute; tauto|]. apply walk_step with (live 3 1 0); [vm_compute; tauto|]. apply walk_end.
Qed.

(** If all data enters in the same clock phase, the denominator of the throughput is one more than the largest difference between
    paths that meet on a tile, in full clock cycles. *)
Theorem C48_throughput_partial : forall cl ops st fuel L x c0, reached cl ops st -> moves_no_constant ops -> dim_ok (cl_dim cl) -> places_inside (cl_dim cl) ops ->
  Z.of_nat (List.length (g_nodes st)) < 2 ^ 63 -> 0 <= c0 < 2 ^ 64 -> aligned st c0 ->
  critical_path_and_throughput fuel st = Some (L, x) -> exists D, spread st D /\ x = D / num_clocks (g_cl st) + 1.
Proof. intros cl ops st fuel L x c0 Hr Hm Hd Hp Hl Hc Ha H. eapply throughput_spread; [eapply wf_reached; eassumption|exact Hl|exact Hc|exact Ha|exact H]. Qed.
Print Assumptions C48_throughput_partial.

Definition flow_pairs (st : glayout) : list (coord * coord) :=
  flat_map (fun k => map (fun u => (u, get_tile st k)) (incoming_data_flow true st (get_tile st k))) (seq 0 (List.length (g_nodes st))).
Lemma flows_pairs st u v : wf st -> flows st u v -> In (u, v) (flow_pairs st).
Proof.
  intros Hw H. destruct (flow_info _ u v Hw H) as (_ & [Iv Ev] & _). destruct (occ_live _ v (w_1 _ Hw) Ev (proj1 Iv)) as (H1 & H2 & H3).
  apply in_flat_map. exists (get_node st v). split; [apply in_seq; lia|]. rewrite H2. apply in_map_iff. exists u. auto.
Qed.
Definition is_nil {A} (l : list A) : bool := match l with [] => true | _ => false end.
Definition ex_skew : list gop :=
  [CreatePi "a" (live 0 1 0); CreatePi "b" (live 1 4 0); CreateLit [live 0 1 0] 2 (live 1 1 0); CreateLit [live 1 1 0] 2 (live 2 1 0);
   CreateLit [live 2 1 0] 2 (live 2 2 0); CreateLit [live 2 2 0] 2 (live 2 3 0); CreateLit [live 2 3 0; live 1 4 0] 4 (live 2 4 0);
   CreatePo (live 2 4 0) "f" (live 3 4 0)].
Lemma ex_skew_wf : wf (final ex_cl ex_skew).
Proof.
  apply (wf_reached ex_cl ex_skew); [apply reached_final; vm_compute; reflexivity|repeat constructor|unfold dim_ok; cbn; lia|repeat constructor; try discriminate; cbn; lia].
Qed.
Lemma alignedb st c : wf st -> forallb (fun p => negb (is_nil (incoming_data_flow true st (fst p))) || (get_clock_number (g_cl st) (fst p) =? c)) (flow_pairs st) = true ->
  forallb (fun p => negb (is_pi_tile st (snd p))) (flow_pairs st) = true ->
  forallb (fun p => forallb (fun q => negb (is_wire_tile st (snd p) && coord_eqb (snd p) (snd q)) || coord_eqb (fst p) (fst q)) (flow_pairs st)) (flow_pairs st) = true ->
  aligned st c.
Proof.
  intros Hw K1 K2 K3. rewrite forallb_forall in K1, K2, K3. split; [|split].
  - intros s v [_ Hs] H. specialize (K1 _ (flows_pairs _ _ _ Hw H)). cbn [fst] in K1. rewrite Hs in K1. apply Z.eqb_eq, K1.
  - intros u v H. specialize (K2 _ (flows_pairs _ _ _ Hw H)). apply negb_true_iff, K2.
  - intros u u' v H H' Ew. specialize (K3 _ (flows_pairs _ _ _ Hw H)). rewrite forallb_forall in K3. specialize (K3 _ (flows_pairs _ _ _ Hw H')).
    cbn [fst snd] in K3. rewrite Ew, coord_eqb_refl in K3. apply coord_eqb_spec, K3.
Qed.
Lemma ex_skew_aligned : aligned (final ex_cl ex_skew) 1.
Proof. apply alignedb; [exact ex_skew_wf|vm_compute; reflexivity|vm_compute; reflexivity|vm_compute; reflexivity]. Qed.
Example C48_skewed : exists st, reached ex_cl ex_skew st /\ critical_path_and_throughput 10 st = Some (7, 2) /\ aligned st 1.
Proof. run_to ex_cl ex_skew. split; [vm_compute; reflexivity|exact ex_skew_aligned]. Qed.

(** Finding: with a feedback loop the recursion does not end. This layout passes all design-rule checks. *)
Definition ex_loop_cl : clocked := std_layout Cartesian (live 2 2 0) USE.
Definition ex_loop : list gop :=
  [CreatePi "a" (live 2 1 0); CreateLit [live 2 1 0] 4 (live 1 1 0); CreateLit [live 1 1 0] 2 (live 0 1 0); CreateLit [live 0 1 0] 2 (live 0 0 0);
   CreateLit [live 0 0 0] 2 (live 1 0 0); Connect (live 1 0 0) 3; CreatePo (live 1 1 0) "f" (live 1 2 0)].
Theorem C48_cyclic_refuted : exists cl ops st, reached cl ops st /\ moves_no_constant ops /\ dim_ok (cl_dim cl) /\ places_inside (cl_dim cl) ops /\
  rules st /\ practices st /\ forall fuel, critical_path_and_throughput fuel st = None.
Proof.
  exists ex_loop_cl, ex_loop, (final ex_loop_cl ex_loop).
  assert (Hr : reached ex_loop_cl ex_loop (final ex_loop_cl ex_loop)) by (apply reached_final; vm_compute; reflexivity).
  assert (Hm : moves_no_constant ex_loop) by (repeat constructor).
  assert (Hd : dim_ok (cl_dim ex_loop_cl)) by (unfold dim_ok; cbn; lia).
  assert (Hp : places_inside (cl_dim ex_loop_cl) ex_loop) by (repeat constructor; try discriminate; cbn; lia).
  split; [exact Hr|]. split; [exact Hm|]. split; [exact Hd|]. split; [exact Hp|].
  destruct (C47_clean_iff ex_loop_cl ex_loop _ 9 Hr Hm Hd Hp) as (v & w & E & _ & _ & [V _] & [W _]);
    [vm_compute; split; discriminate|apply Nat.leb_le; vm_compute; reflexivity|vm_compute; intuition discriminate|vm_compute; reflexivity|vm_compute; reflexivity|].
  assert (E0 : gate_level_drvs 9 (final ex_loop_cl ex_loop) = Some (0, 0)) by (vm_compute; reflexivity). rewrite E0 in E. injection E as <- <-.
  assert (Hne : is_empty (final ex_loop_cl ex_loop) <> true) by (vm_compute; discriminate).
  split; [destruct (V eq_refl); [contradiction|assumption]|]. split; [destruct (W eq_refl); [contradiction|assumption]|].
  intros fuel. apply (critical_path_cycle _ (fun t => In t [live 1 2 0; live 1 1 0; live 1 0 0; live 0 0 0; live 0 1 0]) fuel (live 1 2 0)).
  - intros t [<-|[<-|[<-|[<-|[<-|[]]]]]].
    + split; [vm_compute; reflexivity|]. exists (live 1 1 0). split; vm_compute; tauto.
    + split; [vm_compute; reflexivity|]. exists (live 1 0 0). split; vm_compute; tauto.
    + split; [vm_compute; reflexivity|]. exists (live 0 0 0). split; vm_compute; tauto.
    + split; [vm_compute; reflexivity|]. exists (live 0 1 0). split; vm_compute; tauto.
    + split; [vm_compute; reflexivity|]. exists (live 1 1 0). split; vm_compute; tauto.
  - vm_compute. tauto.
  - vm_compute. tauto.
Qed.
Print Assumptions C48_cyclic_refuted.

(** * C49 *)

(** Routing a signal along a path whose inner tiles (or the tiles above them) are free: every inner tile gets a new wire that is
    fed by its predecessor, the target gets the last wire as a further fan-in, and nothing else changes. *)
Theorem C49_route_path : forall cl ops st src inner tgt, reached cl ops st -> moves_no_constant ops ->
  List.NoDup (map (spot st) inner) -> (forall t, In t (map (spot st) inner) -> free_tile st t) -> cd tgt = false -> is_empty_tile st tgt = false ->
  exists st', route_path st (src :: inner ++ [tgt]) = Some st' /\
    g_in st' = g_in st /\ g_out st' = g_out st /\ g_cl st' = g_cl st /\ g_names st' = g_names st /\
    List.length (g_nodes st') = (List.length (g_nodes st) + List.length inner)%nat /\
    (forall t, ~ In t (map (spot st) inner) -> get_node st' t = get_node st t) /\
    (forall m, (m < List.length (g_nodes st))%nat -> get_tile st' m = get_tile st m /\ n_lit (node_at st' m) = n_lit (node_at st m) /\
       n_children (node_at st' m) = n_children (node_at st m) ++ (if Nat.eqb m (get_node st tgt) then [List.last (src :: map (spot st) inner) src] else [])) /\
    (forall i t u, map (spot st) inner !! i = Some t -> (src :: map (spot st) inner) !! i = Some u ->
       let n := get_node st' t in (List.length (g_nodes st) <= n)%nat /\ get_tile st' n = t /\ is_wire st' n = true /\ n_children (node_at st' n) = [u]).
Proof.
  intros cl ops st src inner tgt Hr Hm Hnd Hfree Dt He.
  assert (Hi : inv1 st) by (eapply inv1_run; [apply inv1_empty|exact Hm|exact Hr]).
  destruct (route_path_ok st src inner tgt Hi ltac:(apply NoDup_ListNoDup; exact Hnd) Hfree Dt He) as (st' & E & I' & L & A1 & A2 & A3 & A4 & A5 & A6 & A7).
  exists st'. split; [exact E|]. split; [exact A1|]. split; [exact A2|]. split; [exact A3|]. split; [exact A4|]. split; [exact L|].
  split; [intros t Ht; unfold get_node; rewrite (A6 t Ht); reflexivity|]. split.
  - intros m Hlt. destruct (A5 m Hlt) as (B1 & B2 & B3). split; [unfold get_tile; rewrite B3; reflexivity|]. split; [exact B2|exact B1].
  - intros i t u Ht Hu. destruct (A7 i t u Ht Hu) as (B1 & B2 & B3). unfold get_node. rewrite B1. simpl. split; [lia|].
    split; [unfold get_tile; apply (i_bij _ (i_0 _ I')) in B1; rewrite B1; reflexivity|]. split; [unfold is_wire; rewrite B2; reflexivity|exact B3].
Qed.
Print Assumptions C49_route_path.

(** If the path moreover follows the clocking from tile to touching tile, data flows along it. *)
Theorem C49_data_flow : forall cl ops st src inner tgt, reached cl ops st -> moves_no_constant ops -> dim_ok (cl_dim cl) -> places_inside (cl_dim cl) ops ->
  1 <= num_clocks (g_cl st) <= 255 ->
  List.NoDup (map (spot st) inner) -> (forall t, In t (map (spot st) inner) -> free_tile st t /\ inb (cl_dim (g_cl st)) t) ->
  cd src = false -> is_empty_tile st src = false -> cd tgt = false -> is_empty_tile st tgt = false ->
  let route := src :: map (spot st) inner ++ [tgt] in
  (forall i u v, route !! i = Some u -> route !! S i = Some v -> next_to st u v /\ next_zone (g_cl st) u v) ->
  exists st', route_path st (src :: inner ++ [tgt]) = Some st' /\
    (forall i u v, route !! i = Some u -> route !! S i = Some v -> flows st' u v) /\
    (forall i u v, route !! i = Some u -> map (spot st) inner !! i = Some v -> incoming_data_flow true st' v = [u]).
Proof.
  intros cl ops st src inner tgt Hr Hm Hd Hp Hn Hnd Hfree Ds Es Dt Et route Hstep.
  pose proof (wf_reached cl ops st Hr Hm Hd Hp) as Hw.
  assert (Hf : forall t, In t (map (spot st) inner) -> free_tile st t) by (intros t Ht; apply Hfree, Ht).
  assert (Hnd' : base.NoDup (map (spot st) inner)) by (apply NoDup_ListNoDup; exact Hnd).
  destruct (route_path_ok st src inner tgt (w_1 _ Hw) Hnd' Hf Dt Et) as (st' & E & I' & L & A1 & A2 & A3 & A4 & A5 & A6 & A7).
  assert (Hw' : wf st') by (eapply route_path_wf; [exact Hw|exact Hnd'|exact Hf|intros t Ht; apply Hfree, Ht|exact Dt|exact Et|exact E]).
  exists st'. split; [exact E|].
  assert (Hnot : forall t, is_empty_tile st t = false -> ~ In t (map (spot st) inner)).
  { intros t Ht Hin. destruct (Hf t Hin) as [_ K]. congruence. }
  assert (Hold : forall t, cd t = false -> is_empty_tile st t = false -> occupied st' t /\ get_node st' t = get_node st t).
  { intros t D Ht. assert (G : get_node st' t = get_node st t) by (unfold get_node; rewrite (A6 t (Hnot t Ht)); reflexivity).
    split; [|exact G]. split; [rewrite A3; destruct (occ_some st t (w_1 _ Hw) Ht) as [K _]; eapply w_in; eassumption|].
    unfold is_empty_tile in *. rewrite G. exact Ht. }
  assert (Hlen : (2 <= List.length (g_nodes st))%nat) by apply (i_two _ (i_0 _ (w_1 _ Hw))).
  assert (Hnew : forall i t, map (spot st) inner !! i = Some t -> occupied st' t).
  { intros i t Ht. destruct ((src :: map (spot st) inner) !! i) as [u|] eqn:Eu.
    - destruct (A7 i t u Ht Eu) as (B1 & _). split; [rewrite A3; apply Hfree; apply elem_of_list_In, elem_of_list_lookup; eauto|].
      unfold is_empty_tile, get_node. rewrite B1. simpl. apply Nat.eqb_neq. lia.
    - exfalso. apply lookup_ge_None in Eu. apply lookup_lt_Some in Ht. cbn [List.length] in Eu. lia. }
  assert (Hocc : forall i u, (src :: map (spot st) inner) !! i = Some u -> occupied st' u).
  { intros [|i] u Hu; [injection Hu as <-; apply Hold; assumption|]. eapply Hnew. exact Hu. }
  assert (Hin : forall i u v, route !! i = Some u -> map (spot st) inner !! i = Some v ->
    (src :: map (spot st) inner) !! i = Some u /\ next_to st' u v /\ next_zone (g_cl st') u v).
  { intros i u v Hu Hv. assert (E1 : route !! S i = Some v) by (unfold route; cbn; apply lookup_app_l_Some; exact Hv).
    destruct (Hstep i u v Hu E1) as [N1 N2]. unfold next_to in *. rewrite A3. split; [|split; assumption].
    unfold route in Hu. change (src :: map (spot st) inner ++ [tgt]) with ((src :: map (spot st) inner) ++ [tgt]) in Hu.
    rewrite lookup_app_l in Hu; [exact Hu|]. apply lookup_lt_Some in Hv. cbn. lia. }
  assert (Hn' : 1 <= num_clocks (g_cl st') <= 255) by (rewrite A3; exact Hn).
  assert (Hr1 : forall i, route !! S i = (map (spot st) inner ++ [tgt]) !! i) by reflexivity.
  split.
  - intros i u v Hu Hv. destruct (le_lt_dec (List.length inner) i) as [Hi|Hi].
    + assert (i = List.length inner) as ->.
      { rewrite Hr1 in Hv. apply lookup_lt_Some in Hv. rewrite app_length, map_length in Hv. cbn in Hv. lia. }
      destruct (Hstep _ u v Hu Hv) as [N1 N2].
      assert (v = tgt) as ->. { rewrite Hr1, lookup_app_r, map_length, Nat.sub_diag in Hv by (rewrite map_length; lia). cbn in Hv. congruence. }
      assert (Eu : (src :: map (spot st) inner) !! List.length inner = Some u).
      { unfold route in Hu. change (src :: map (spot st) inner ++ [tgt]) with ((src :: map (spot st) inner) ++ [tgt]) in Hu.
        rewrite lookup_app_l in Hu; [exact Hu|]. cbn. rewrite map_length. lia. }
      assert (El : List.last (src :: map (spot st) inner) src = u).
      { pose proof (last_lookup (src :: map (spot st) inner)) as K. cbn [List.length Nat.pred] in K. rewrite map_length in K. rewrite Eu in K.
        apply last_Some in K as (l' & K). rewrite K. apply List.last_last. }
      destruct (Hold tgt Dt Et) as [Ot Gt]. apply flow_intro; auto.
      * eapply Hocc. exact Eu.
      * rewrite Gt. destruct (occ_live st tgt (w_1 _ Hw) Et Dt) as (_ & _ & Hlt). destruct (A5 _ Hlt) as (B1 & _). rewrite B1, Nat.eqb_refl, El.
        apply in_or_app. right. left. reflexivity.
      * unfold next_to in *. rewrite A3. exact N1.
      * rewrite A3. exact N2.
    + assert (Hv' : map (spot st) inner !! i = Some v).
      { rewrite Hr1, lookup_app_l in Hv; [exact Hv|]. rewrite map_length. exact Hi. }
      destruct (Hin i u v Hu Hv') as (Hu' & N1 & N2). destruct (A7 i v u Hv' Hu') as (B1 & _ & B3). apply flow_intro; auto.
      * eapply Hocc. exact Hu'.
      * eapply Hnew. exact Hv'.
      * unfold get_node. rewrite B1. simpl. rewrite B3. left. reflexivity.
  - intros i u v Hu Hv. destruct (Hin i u v Hu Hv) as (Hu' & N1 & N2). destruct (A7 i v u Hv Hu') as (B1 & _ & B3). apply single_flow; auto.
    + eapply Hocc. exact Hu'.
    + eapply Hnew. exact Hv.
    + unfold get_node. rewrite B1. simpl. exact B3.
Qed.
Print Assumptions C49_data_flow.

(** Two routes that cross: the second wire on (1,1) goes to the crossing layer. *)
Definition ex_pins : list gop :=
  [CreatePi "a" (live 0 1 0); CreatePi "b" (live 1 0 0); CreatePo const0 "f" (live 3 1 0); CreatePo const0 "g" (live 1 2 0)].
Definition ex_routed : glayout := default (g_empty ex_cl) (route_path (final ex_cl ex_pins) [live 0 1 0; live 1 1 0; live 2 1 0; live 3 1 0]).
Definition ex_routed2 : glayout := default (g_empty ex_cl) (route_path ex_routed [live 1 0 0; live 1 1 0; live 1 2 0]).
Example C49_nonvacuous :
  List.NoDup (map (spot (final ex_cl ex_pins)) [live 1 1 0; live 2 1 0]) /\ free_tile (final ex_cl ex_pins) (live 1 1 0) /\
  route_path (final ex_cl ex_pins) [live 0 1 0; live 1 1 0; live 2 1 0; live 3 1 0] = Some ex_routed /\
  flows ex_routed (live 0 1 0) (live 1 1 0) /\ flows ex_routed (live 2 1 0) (live 3 1 0) /\
  map (spot ex_routed) [live 1 1 0] = [live 1 1 1] /\ route_path ex_routed [live 1 0 0; live 1 1 0; live 1 2 0] = Some ex_routed2 /\
  flows ex_routed2 (live 1 0 0) (live 1 1 1) /\ flows ex_routed2 (live 1 1 1) (live 1 2 0).
Proof.
  split; [repeat constructor; vm_compute; intuition discriminate|]. split; [split; vm_compute; reflexivity|]. split; [apply got; vm_compute; reflexivity|].
  split; [vm_compute; tauto|]. split; [vm_compute; tauto|]. split; [vm_compute; reflexivity|]. split; [apply got; vm_compute; reflexivity|].
  split; vm_compute; tauto.
Qed.

(** * C50 *)

(** On layouts built without [connect], [clear_routing] removes exactly the wires that only forward data. Everything else stays
    where it is, loses its fan-ins, and inputs, outputs and names are kept. Fan-out wires have to be older than what they feed. *)
Theorem C50_clear_routing_partial : forall cl ops st, reached cl ops st -> each_call ref_tidy (g_empty cl) ops -> total_refs ops < 2 ^ 31 ->
  (forall n m, is_wire st n = true -> (2 <= List.length (foreach_fanout true st n))%nat -> passes st n m -> (n < m)%nat) ->
  exists s, clear_routing st = Some s /\ g_in s = g_in st /\ g_out s = g_out st /\ g_names s = g_names st /\ g_cl s = g_cl st /\
    (forall n, n_lit (node_at s n) = n_lit (node_at st n)) /\
    forall t, cd t = false ->
      (routing_wire st t -> is_empty_tile s t = true) /\
      (~ routing_wire st t -> get_node s t = get_node st t /\ (is_empty_tile st t = false -> n_children (node_at s (get_node st t)) = [])).
Proof.
  intros cl ops st Hr Ht Hk Ho.
  assert (Hm : moves_no_constant ops). { eapply each_call_no_const; [|exact Ht|exact Hr]. intros s o [H _]. exact H. }
  assert (H0 : 0 <= total_refs ops).
  { clear. unfold total_refs. lia. }
  destruct (refs_run ops (g_empty cl) st 0 (inv1_empty cl) Ht Hr) as [Hrefs Hi]; [lia|lia|apply refs_empty|]. rewrite Z.add_0_l in Hrefs.
  assert (Hc : const_clean st).
  { eapply clean_run; [apply inv1_empty| |exact Hm|exact Hr]. intros x Hx. destruct x as [|[|x]]; [reflexivity|reflexivity|lia]. }
  destruct (clear_routing_ok st (total_refs ops) Hi Hc Hrefs Ho ltac:(lia)) as (s & E & J). exists s. split; [exact E|].
  split; [apply J|]. split; [apply J|]. split; [apply J|]. split; [apply J|]. split; [apply J|].
  apply (cleared_tiles st s (total_refs ops) Hi Hc J).
Qed.
Print Assumptions C50_clear_routing_partial.

Definition fanouts_firstb (st : glayout) : bool :=
  forallb (fun n => negb (is_wire st n && (2 <=? List.length (foreach_fanout true st n))%nat) || forallb (fun m => n <? m)%nat (foreach_fanout true st n))
          (seq 0 (List.length (g_nodes st))).
Lemma fanouts_firstb_ok st : fanouts_firstb st = true ->
  forall n m, is_wire st n = true -> (2 <= List.length (foreach_fanout true st n))%nat -> passes st n m -> (n < m)%nat.
Proof.
  intros H n m Hw Hl Hp. unfold fanouts_firstb in H. rewrite forallb_forall in H. destruct (le_lt_dec (List.length (g_nodes st)) n) as [K|K].
  - exfalso. unfold is_wire, node_at in Hw. rewrite lookup_ge_None_2 in Hw by exact K. discriminate Hw.
  - specialize (H n ltac:(apply in_seq; lia)). apply Nat.leb_le in Hl. rewrite Hw, Hl in H. cbn [andb negb orb] in H. rewrite forallb_forall in H.
    apply Nat.ltb_lt. apply H. exact Hp.
Qed.
Definition ex_fan : list gop :=
  [CreatePi "a" (live 0 1 0); CreateLit [live 0 1 0] 2 (live 1 1 0); CreateLit [live 1 1 0] 2 (live 2 1 0); CreateLit [live 1 1 0] 3 (live 1 2 0);
   CreateLit [live 2 1 0; live 1 2 0] 4 (live 2 2 0); CreatePo (live 2 2 0) "f" (live 3 2 0)].
Example C50_nonvacuous : exists st, reached ex_cl ex_fan st /\ each_call ref_tidy (g_empty ex_cl) ex_fan /\ total_refs ex_fan < 2 ^ 31 /\
  (forall n m, is_wire st n = true -> (2 <= List.length (foreach_fanout true st n))%nat -> passes st n m -> (n < m)%nat) /\
  ~ routing_wire st (live 1 1 0) /\ routing_wire st (live 2 1 0).
Proof.
  run_to ex_cl ex_fan. split; [apply (each_callb_ok ref_tidy ref_tidyb ref_tidyb_ok); vm_compute; reflexivity|]. split; [vm_compute; reflexivity|].
  split; [apply fanouts_firstb_ok; vm_compute; reflexivity|].
  split; [intros (_ & _ & _ & _ & _ & K); vm_compute in K; lia|]. repeat split; vm_compute; first [reflexivity|lia].
Qed.

(** Finding: [connect] does not count the reference it adds (C24), so [clear_routing] un-counts it below zero; the last wire of every
    route laid by [route_path] is then marked dead and not removed. *)
Definition ex_pins2 : list gop := [CreatePi "a" (live 0 1 0); CreatePo const0 "f" (live 3 1 0)].
Definition ex_route2 : glayout := default (g_empty ex_cl) (route_path (final ex_cl ex_pins2) [live 0 1 0; live 1 1 0; live 2 1 0; live 3 1 0]).
Definition ex_cleared2 : glayout := default (g_empty ex_cl) (clear_routing ex_route2).
Theorem C50_routed_refuted : exists cl ops st path st' s t, reached cl ops st /\ each_call tidy (g_empty cl) ops /\
  route_path st path = Some st' /\ clear_routing st' = Some s /\ routing_wire st' t /\ is_empty_tile s t = false /\ is_dead s (get_node s t) = true.
Proof.
  exists ex_cl, ex_pins2, (final ex_cl ex_pins2), [live 0 1 0; live 1 1 0; live 2 1 0; live 3 1 0], ex_route2, ex_cleared2, (live 2 1 0).
  split; [apply reached_final; vm_compute; reflexivity|]. split; [apply (each_callb_ok tidy tidyb tidyb_ok); vm_compute; reflexivity|].
  split; [apply got; vm_compute; reflexivity|]. split; [apply got; vm_compute; reflexivity|]. split; [repeat split; vm_compute; first [reflexivity|lia]|].
  split; vm_compute; reflexivity.
Qed.
Print Assumptions C50_routed_refuted.

(** Finding: a fan-out wire is removed if everything it feeds is older. *)
Definition ex_late : list gop :=
  [CreatePi "a" (live 0 1 0); CreateLit [] 2 (live 2 1 0); CreateLit [] 3 (live 1 2 0); CreateLit [live 0 1 0] 2 (live 1 1 0);
   MoveNode 3 (live 2 1 0) [live 1 1 0]; MoveNode 4 (live 1 2 0) [live 1 1 0]].
Definition ex_late_cleared : glayout := default (g_empty ex_cl) (clear_routing (final ex_cl ex_late)).
Theorem C50_order_refuted : exists cl ops st s t, reached cl ops st /\ each_call ref_tidy (g_empty cl) ops /\ total_refs ops < 2 ^ 31 /\
  clear_routing st = Some s /\ cd t = false /\ is_empty_tile st t = false /\ ~ routing_wire st t /\ is_empty_tile s t = true.
Proof.
  exists ex_cl, ex_late, (final ex_cl ex_late), ex_late_cleared, (live 1 1 0).
  split; [apply reached_final; vm_compute; reflexivity|]. split; [apply (each_callb_ok ref_tidy ref_tidyb ref_tidyb_ok); vm_compute; reflexivity|].
  split; [vm_compute; reflexivity|]. split; [apply got; vm_compute; reflexivity|]. split; [reflexivity|]. split; [vm_compute; reflexivity|].
  split; [intros (_ & _ & _ & _ & _ & K); vm_compute in K; lia|vm_compute; reflexivity].
Qed.
Print Assumptions C50_order_refuted.

(** * C51 *)

(** The extraction ends, finds only routing objectives, and finds all of them if no wire has two drivers. *)
Theorem C51_objectives : forall cl ops st fuel, reached cl ops st -> moves_no_constant ops -> (List.length (g_nodes st) < fuel)%nat ->
  exists objs, extract_routing_objectives fuel st = Some objs /\
    (forall a b, In (a, b) objs -> objective st a b) /\
    ((forall w n n', forwards st w -> passes st n w -> passes st n' w -> n = n') -> forall a b, objective st a b -> In (a, b) objs).
Proof.
  intros cl ops st fuel Hr Hm Hf. assert (Hi : inv1 st) by (eapply inv1_run; [apply inv1_empty|exact Hm|exact Hr]).
  destruct (objectives_total st fuel Hi Hf) as (O & E). exists O. split; [exact E|]. split; [eapply objectives_sound; exact E|].
  intros Hd. eapply objectives_complete; [exact Hd|exact E].
Qed.
Print Assumptions C51_objectives.

(** Finding: data of a second driver of a wire is not followed. *)
Definition ex_two_cl : clocked := std_layout Cartesian (live 4 4 0) (TWODDWAVE FOUR).
Definition ex_two : list gop :=
  [CreatePi "a" (live 0 1 0); CreatePi "b" (live 1 0 0); CreateLit [live 0 1 0; live 1 0 0] 2 (live 1 1 0); CreatePo (live 1 1 0) "f" (live 2 1 0)].
Theorem C51_two_drivers_refuted : exists cl ops st objs a b, reached cl ops st /\ moves_no_constant ops /\
  extract_routing_objectives 10 st = Some objs /\ objective st a b /\ ~ In (a, b) objs.
Proof.
  exists ex_two_cl, ex_two, (final ex_two_cl ex_two), [(live 0 1 0, live 2 1 0)], (live 1 0 0), (live 2 1 0).
  split; [apply reached_final; vm_compute; reflexivity|]. split; [repeat constructor|]. split; [vm_compute; reflexivity|]. split.
  - exists 3%nat, 5%nat. split; [vm_compute; reflexivity|]. split; [vm_compute; reflexivity|]. split; [left; vm_compute; tauto|]. split.
    + apply tw_wire with 4%nat; [apply tw_here; vm_compute; tauto|repeat split; vm_compute; first [reflexivity|lia]|vm_compute; tauto].
    + intros (_ & _ & K & _). vm_compute in K. discriminate.
  - intros [K|[]]. discriminate.
Qed.
Print Assumptions C51_two_drivers_refuted.

Example C51_nonvacuous : exists st, reached ex_cl ex_fan st /\
  extract_routing_objectives 10 st = Some [(live 0 1 0, live 1 1 0); (live 1 1 0, live 2 2 0); (live 2 2 0, live 3 2 0);
    (live 1 1 0, live 1 2 0); (live 1 2 0, live 2 2 0)] /\ objective st (live 1 1 0) (live 2 2 0).
Proof.
  run_to ex_cl ex_fan. split; [vm_compute; reflexivity|]. exists 3%nat, 6%nat. split; [vm_compute; reflexivity|]. split; [vm_compute; reflexivity|].
  split; [right; split; [apply fed_pi with 2%nat; vm_compute; tauto|intros (_ & _ & _ & K); vm_compute in K; lia]|]. split.
  - apply tw_wire with 4%nat; [apply tw_here; vm_compute; tauto|repeat split; vm_compute; first [reflexivity|lia]|vm_compute; tauto].
  - intros (K & _). vm_compute in K. discriminate.
Qed.
