(** Properties C53 and C54: the 45 degree turn and hexagonalization. *)
From Coq Require Import ZArith Bool String List Lia ZifyBool.
From stdpp Require Import gmap list numbers strings.
From Verif Require Import CoordModel CoordSpec CoordProofs GridModel GridSpec GridProofs GridProps CoordMap ClockModel ClockSpec ClockProofs ClockProps
  GateModel GateSpec GateProofs GateProofs2 GateProofs3 GateProps PathSpec RouteModel RouteSpec RouteProofs RouteProofs2 RouteProofs3 BuildProofs HexaModel HexaSpec HexaProofs HexaProofs2 HexaProofs3.
Import ListNotations.
Local Open Scope Z_scope.

(** * C53 *)

(** The tiles of a Cartesian layout, turned by 45 degrees, lie on the even-row hexagonal grid: the centre of the image of a tile is the centre of the
    tile turned in the plane (and shifted by the same amount for all tiles). *)
Theorem C53_turned : forall ar t, inb ar t -> cx ar + cy ar < 2 ^ 31 ->
  turned (1 + 2 * ((cy ar + 1) / 2)) t (to_hex (cy ar + 1) t).
Proof.
  intros ar t Ht Hb. change (2 ^ 31) with 2147483648 in Hb. rewrite (to_hex_eq ar t Ht Hb). unfold turned, hex_px, hex_py, hex_col. cbn. repeat split. zdiv.
Qed.
Print Assumptions C53_turned.
(** All images fit into the hexagonal layout spanned by the images of the two corners the code uses for its dimensions, and different tiles have
    different images. *)
Theorem C53_fits : forall ar t, inb ar t -> cx ar + cy ar < 2 ^ 31 -> 0 <= cz ar ->
  inb (live (cx (to_hex (cy ar + 1) (live (cx ar) 0 0))) (cy (to_hex (cy ar + 1) (live (cx ar) (cy ar) 0))) (cz ar)) (to_hex (cy ar + 1) t).
Proof.
  intros ar t Ht Hb Hz. change (2 ^ 31) with 2147483648 in Hb. pose proof Ht as (D & X & Y & Z).
  rewrite !(to_hex_eq ar) by (try exact Hb; try exact Ht; unfold inb; cbn; lia). pose proof (hex_col_bounds ar t Ht). unfold inb. cbn.
  replace (cx ar - 0) with (cx ar) by lia. repeat split; lia.
Qed.
Print Assumptions C53_fits.
Theorem C53_injective : forall ar t u, inb ar t -> inb ar u -> cx ar + cy ar < 2 ^ 31 -> to_hex (cy ar + 1) t = to_hex (cy ar + 1) u -> t = u.
Proof.
  intros ar t u Ht Hu Hb E. destruct (C53_turned ar t Ht Hb) as (P1 & P2 & P3 & _). destruct (C53_turned ar u Hu Hb) as (Q1 & Q2 & Q3 & _).
  rewrite E in P1, P2, P3. rewrite (inb_live_eta _ _ Ht), (inb_live_eta _ _ Hu). f_equal; lia.
Qed.
Print Assumptions C53_injective.
(** Tiles of one layer that share an edge have images that share an edge, and the clock zones agree: what is 2DDWave-clocked before is
    row-clocked after, with the same numbers. *)
Theorem C53_adjacency : forall ar t u, inb ar t -> inb ar u -> cx ar + cy ar < 2 ^ 31 -> touch Cartesian t u ->
  touch (Hex EvenRow) (to_hex (cy ar + 1) t) (to_hex (cy ar + 1) u).
Proof.
  intros ar t u Ht Hu Hb [Tz Hn]. destruct (C53_turned ar t Ht Hb) as (P1 & P2 & P3 & _). destruct (C53_turned ar u Hu Hb) as (Q1 & Q2 & Q3 & _).
  split; [congruence|]. left. exists ((cx u - cy u) - (cx t - cy t)), ((cx u + cy u) - (cx t + cy t)). split; [lia|]. split; [lia|]. split; lia.
Qed.
Print Assumptions C53_adjacency.
Theorem C53_clocking : forall ar dim nc t, inb ar t -> cx ar + cy ar < 2 ^ 31 ->
  get_clock_number (std_layout (Hex EvenRow) dim (ROW nc)) (to_hex (cy ar + 1) t) = get_clock_number (std_layout Cartesian ar (TWODDWAVE nc)) t.
Proof.
  intros ar dim nc t Ht Hb. pose proof Ht as (D & X & Y & Z). change (2 ^ 31) with 2147483648 in Hb.
  unfold get_clock_number, std_layout. cbn [cl_scheme]. rewrite (to_hex_eq ar t Ht Hb). pose proof (hex_col_bounds ar t Ht) as B.
  pose proof (hex_col_small ar ltac:(lia) ltac:(lia) Hb).
  rewrite !C11_linear_waves; try exact I; try (change (2 ^ 64) with 18446744073709551616; cbn [cx cy live]; lia).
  destruct nc; reflexivity.
Qed.
Print Assumptions C53_clocking.
Example C53_nonvacuous : inb (live 4 3 1) (live 2 3 1) /\ inb (live 4 3 1) (live 3 3 1) /\ touch Cartesian (live 2 3 1) (live 3 3 1) /\
  to_hex 4 (live 2 3 1) = live 2 5 1 /\ to_hex 4 (live 3 3 1) = live 2 6 1 /\ to_hex 4 (live 0 3 0) = live 1 3 0 /\ to_hex 4 (live 4 0 0) = live 4 4 0.
Proof. split; [|split; [|split]]; [unfold inb; cbn; lia|unfold inb; cbn; lia|split; [reflexivity|cbn; lia]|compute_all]. Qed.

(** * C54 *)

(** Every layout the algorithm is made for is converted, and the result is the same circuit on a hexagonal row-clocked layout: the same nodes
    with the same functions, data flow, inputs, outputs and names, every node on the tile the 45 degree turn gives, with one common shift.
    The layout is cut to the bounding box: some node is in column 0, one in the last column and one in the last row. *)
Theorem C54_hexagonalization : forall ar nc ops src,
  reached (std_layout Cartesian ar (TWODDWAVE nc)) ops src -> moves_no_constant ops -> dim_ok ar -> places_inside ar ops ->
  g_cl src = std_layout Cartesian ar (TWODDWAVE nc) -> cx ar + cy ar < 2 ^ 31 - 1 -> convertible src ->
  exists h image s, hexagonalization src = Some h /\ mirrors src h image /\ (forall t, occupied src t -> turned s t (image t)) /\
    (exists w ht, g_cl h = std_layout (Hex EvenRow) (live w ht (cz ar)) (ROW FOUR)) /\
    ((exists t, occupied src t) -> (exists u, occupied h u /\ cx u = 0) /\ (exists u, occupied h u /\ cx u = cx (cl_dim (g_cl h))) /\
       (exists u, occupied h u /\ cy u = cy (cl_dim (g_cl h)))).
Proof.
  intros ar nc ops src Hr Hm Hd Hp Hcl Hb Hcv. change (2 ^ 31 - 1) with 2147483647 in Hb.
  pose proof (wf_reached _ _ _ Hr Hm Hd Hp) as Hwf. pose proof (nodup_reached _ _ _ Hr Hm Hd Hp) as Hnd.
  destruct (hexa_ok src ar nc Hwf Hcl Hcv Hnd ltac:(lia) Hb) as (h & E & M & G & _ & T).
  exists h, (to_hex_offset (cy ar + 1) (get_offset src (cx ar + 1) (cy ar + 1))), (1 + 2 * ((cy ar + 1) / 2) - 2 * get_offset src (cx ar + 1) (cy ar + 1)).
  split; [exact E|]. split; [exact M|]. split; [intros t Ot; apply (image_turned src ar nc); auto; lia|]. split; [exact G|].
  intros (t0 & O0). destruct (T t0 O0) as ((a & Oa & Ea) & (b & Ob & Eb) & (c & Oc & Ec)).
  split; [|split]; [eexists; split; [apply (m_occupied _ _ _ M); exists a|]|eexists; split; [apply (m_occupied _ _ _ M); exists b|]|eexists; split; [apply (m_occupied _ _ _ M); exists c|]]; eauto.
Qed.
Print Assumptions C54_hexagonalization.

(** Under every assignment of the inputs each output of the result carries exactly the values the output of the original carries, and there is
    such a value. *)
Theorem C54_same_function : forall ar nc ops src,
  reached (std_layout Cartesian ar (TWODDWAVE nc)) ops src -> moves_no_constant ops -> dim_ok ar -> places_inside ar ops ->
  g_cl src = std_layout Cartesian ar (TWODDWAVE nc) -> cx ar + cy ar < 2 ^ 31 - 1 -> convertible src ->
  exists h, hexagonalization src = Some h /\ length (g_in h) = length (g_in src) /\ length (g_out h) = length (g_out src) /\
    forall env i o, g_out src !! i = Some o -> exists o', g_out h !! i = Some o' /\
      (exists b, carries src env o b) /\ forall b, carries h env o' b <-> carries src env o b.
Proof.
  intros ar nc ops src Hr Hm Hd Hp Hcl Hb Hcv. destruct (C54_hexagonalization ar nc ops src Hr Hm Hd Hp Hcl Hb Hcv) as (h & image & s & E & M & _).
  pose proof (wf_reached _ _ _ Hr Hm Hd Hp) as Hwf. pose proof (nodup_reached _ _ _ Hr Hm Hd Hp) as Hnd.
  exists h. split; [exact E|].
  split; [rewrite <- (map_length (get_tile h)), (m_inputs _ _ _ M), map_length; reflexivity|]. split; [rewrite (m_outputs _ _ _ M), map_length; reflexivity|].
  intros env i o Ho. exists (image o). assert (In o (g_out src)) as Hin by (apply elem_of_list_In; eapply elem_of_list_lookup_2; eauto).
  destruct (cv_out _ Hcv o Hin) as (Oo & _). split; [rewrite (m_outputs _ _ _ M), list_lookup_fmap, Ho; reflexivity|].
  split; [apply (carries_total src ar nc Hwf Hcl Hcv env _ o Oo (Nat.lt_succ_diag_r _))|].
  assert (Hpi : forall n, In n (g_in src) -> occupied src (get_tile src n)).
  { intros n Hn. apply (pi_tile_occ src ar nc Hwf Hcl Hcv n Hn). }
  intros b. split; intros Hc.
  - apply (proj1 (values_bwd src h image env Hwf M Hpi) _ _ Hc o Oo eq_refl).
  - apply (proj1 (values_fwd src h image env M) _ _ Hc).
Qed.
Print Assumptions C54_same_function.

(** A layout with a crossing, an inverter and an AND gate. *)
Definition hexa_ops : list gop :=
  [CreatePi "a" (live 0 1 0); CreatePi "b" (live 2 0 0);
   CreateLit [live 0 1 0] 3 (live 1 1 0); CreateLit [live 2 0 0] 2 (live 2 1 0); CreateLit [live 1 1 0] 2 (live 2 1 1);
   CreateLit [live 2 1 1] 2 (live 3 1 0); CreateLit [live 2 1 0] 2 (live 2 2 0);
   CreateLit [live 2 2 0; live 3 1 0] 4 (live 3 2 0); CreatePo (live 3 2 0) "f" (live 4 2 0)].
Example C54_nonvacuous : exists src h, reached ex_cl hexa_ops src /\ moves_no_constant hexa_ops /\ dim_ok (cl_dim ex_cl) /\ places_inside (cl_dim ex_cl) hexa_ops /\
  g_cl src = ex_cl /\ convertible src /\ occupied src (live 2 1 1) /\
  hexagonalization src = Some h /\ cl_dim (g_cl h) = live 1 6 1 /\ g_out h = [live 1 6 0] /\ is_empty_tile h (live 1 3 1) = false /\
  incoming_data_flow true h (live 1 5 0) = [live 0 4 0; live 1 4 0].
Proof.
  exists (final ex_cl hexa_ops), (default (g_empty ex_cl) (hexagonalization (final ex_cl hexa_ops))).
  assert (R : reached ex_cl hexa_ops (final ex_cl hexa_ops)) by (apply reached_final; vm_compute; reflexivity).
  assert (M : moves_no_constant hexa_ops) by (repeat constructor).
  assert (D : dim_ok (cl_dim ex_cl)) by (unfold dim_ok; cbn; lia).
  assert (P : places_inside (cl_dim ex_cl) hexa_ops).
  { unfold places_inside, hexa_ops. repeat (apply Forall_cons; split; [cbn; intros; unfold inb; cbn; lia|]). apply Forall_nil. exact I. }
  refine (conj R (conj M (conj D (conj P _)))). split; [reflexivity|].
  split; [apply convb_ok; [apply (wf_reached _ _ _ R M D P)|vm_compute; reflexivity]|].
  split.
  { assert (E : g_cl (final ex_cl hexa_ops) = ex_cl) by reflexivity. unfold occupied. rewrite E. clear. split; [unfold inb; cbn; lia|vm_compute; reflexivity]. }
  split; [|compute_all].
  assert (K : match hexagonalization (final ex_cl hexa_ops) with Some _ => true | None => false end = true) by (vm_compute; reflexivity).
  destruct (hexagonalization (final ex_cl hexa_ops)); [reflexivity|discriminate K].
Qed.

(** Findings: the hypotheses of [convertible] are needed, and the code does not check them. *)
Definition hexa_of (ops : list gop) : glayout := default (g_empty ex_cl) (hexagonalization (final ex_cl ops)).
Lemma hexa_of_some ops : match hexagonalization (final ex_cl ops) with Some _ => true | None => false end = true -> hexagonalization (final ex_cl ops) = Some (hexa_of ops).
Proof. unfold hexa_of. destruct (hexagonalization (final ex_cl ops)); [reflexivity|discriminate]. Qed.

(** An output may also drive another tile: on the original every tile but the input receives data, on the result the wire behind the output does not. *)
Definition hexa_tap : list gop :=
  [CreatePi "a" (live 0 0 0); CreatePo (live 0 0 0) "f" (live 1 0 0); CreateLit [live 1 0 0] 2 (live 2 0 0); CreatePo (live 2 0 0) "g" (live 3 0 0)].
Theorem C54_output_fanout_refuted : exists ops src h u, reached ex_cl ops src /\ moves_no_constant ops /\ hexagonalization src = Some h /\
  (forall t, In t [live 1 0 0; live 2 0 0; live 3 0 0] -> incoming_data_flow true src t = [live (cx t - 1) 0 0]) /\
  is_empty_tile h u = false /\ is_pi h (get_node h u) = false /\ incoming_data_flow true h u = [].
Proof.
  exists hexa_tap, (final ex_cl hexa_tap), (hexa_of hexa_tap), (live 1 2 0).
  split; [apply reached_final; vm_compute; reflexivity|]. split; [repeat constructor|].
  split; [apply hexa_of_some; vm_compute; reflexivity|].
  split; [intros t [<-|[<-|[<-|[]]]]; vm_compute; reflexivity|]. compute_all.
Qed.
Print Assumptions C54_output_fanout_refuted.
(** Three-input gates vanish. *)
Definition hexa_maj : list gop :=
  [CreatePi "a" (live 0 1 0); CreatePi "b" (live 1 0 0); CreatePi "c" (live 1 0 1);
   CreateLit [live 0 1 0; live 1 0 0; live 1 0 1] 14 (live 1 1 0); CreatePo (live 1 1 0) "f" (live 2 1 0)].
Theorem C54_majority_refuted : exists ops src h, reached ex_cl ops src /\ moves_no_constant ops /\ hexagonalization src = Some h /\
  incoming_data_flow true src (live 1 1 0) = [live 0 1 0; live 1 0 0; live 1 0 1] /\ n_lit (node_at src (get_node src (live 1 1 0))) = 14 /\
  length (g_nodes src) = 7%nat /\ length (g_nodes h) = 6%nat /\ existsb (fun n => n_lit n =? 14) (g_nodes h) = false.
Proof.
  exists hexa_maj, (final ex_cl hexa_maj), (hexa_of hexa_maj).
  split; [apply reached_final; vm_compute; reflexivity|]. split; [repeat constructor|].
  split; [apply hexa_of_some; vm_compute; reflexivity|]. compute_all.
Qed.
Print Assumptions C54_majority_refuted.
(** A node of the crossing layer left of everything on the ground layer is moved to the largest coordinate, and the 5 x 5 layout becomes more than
    two billion tiles wide. *)
Definition hexa_left : list gop :=
  [CreatePi "a" (live 0 2 1); CreateLit [live 0 2 1] 2 (live 1 2 1); CreateLit [live 1 2 1] 2 (live 2 2 0); CreatePo (live 2 2 0) "f" (live 3 2 0)].
Theorem C54_crossing_layer_refuted : exists ops src h, reached ex_cl ops src /\ moves_no_constant ops /\ hexagonalization src = Some h /\
  incoming_data_flow true src (live 1 2 1) = [live 0 2 1] /\ cx (cl_dim (g_cl h)) = 2147483647.
Proof.
  exists hexa_left, (final ex_cl hexa_left), (hexa_of hexa_left).
  split; [apply reached_final; vm_compute; reflexivity|]. split; [repeat constructor|].
  split; [apply hexa_of_some; vm_compute; reflexivity|]. compute_all.
Qed.
Print Assumptions C54_crossing_layer_refuted.
