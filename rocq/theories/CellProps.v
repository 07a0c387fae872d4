(** Properties C26, C27, C28, C30, C43, C44: cell-level layouts, obstruction layouts, bounding boxes
    and directional signal queries. *)
From Coq Require Import ZArith Bool String List Lia ZifyBool.
From stdpp Require Import gmap list strings.
From Verif Require Import CoordModel CoordSpec CoordProofs CoordProps GridModel GridSpec GridProofs GridProps CoordMap
  ClockModel ClockSpec ClockProofs GateModel GateSpec GateProofs GateProofs2 GateProofs3 GateProps CellModel CellSpec CellProofs.
Import ListNotations.
Local Open Scope Z_scope.

(** * C26 *)
Theorem C26_last_assignment_counts : forall T cl x y ops c, In T technologies -> modes_exist T ops ->
  let l := c_run T (c_new cl x y) ops in
  get_cell_type T l c = spec_type T ops c /\
  get_cell_mode l c = spec_mode T ops c /\
  get_cell_name l c = spec_name ops c /\
  (is_empty_cell T l c = true <-> spec_type T ops c = t_empty T) /\
  (c_is_pi l c = true <-> spec_type T ops c = t_input T) /\
  (c_is_po l c = true <-> spec_type T ops c = t_output T).
Proof.
  intros T cl x y ops c HT Hm. cbv zeta. pose proof (cell_inv_run T HT cl x y ops) as Hi.
  split; [apply (ci_type _ _ _ Hi)|]. split; [apply mode_run, Hm|]. split; [apply (ci_name _ _ _ Hi)|].
  unfold is_empty_cell, t_is_empty, get_cell_type, c_is_pi, c_is_po. rewrite !bool_decide_eq_true, Z.eqb_eq.
  rewrite (ci_type _ _ _ Hi), (ci_in _ _ _ Hi), (ci_out _ _ _ Hi). tauto.
Qed.
Print Assumptions C26_last_assignment_counts.

(** Enumerations visit exactly the cells of the asked kind, each once; counters are their lengths. *)
Theorem C26_enumerations : forall T cl x y ops, In T technologies ->
  let l := c_run T (c_new cl x y) ops in
  enumerates (foreach_cell l) (fun c => spec_type T ops c <> t_empty T) /\
  num_cells l = Z.of_nat (length (foreach_cell l)) /\
  (c_is_empty l = true <-> forall c, spec_type T ops c = t_empty T) /\
  enumerates (c_foreach_pi l) (fun c => spec_type T ops c = t_input T) /\
  (Z.of_nat (length (c_foreach_pi l)) < 2 ^ 32 -> c_num_pis l = Z.of_nat (length (c_foreach_pi l))) /\
  enumerates (c_foreach_po l) (fun c => spec_type T ops c = t_output T) /\
  (Z.of_nat (length (c_foreach_po l)) < 2 ^ 32 -> c_num_pos l = Z.of_nat (length (c_foreach_po l))) /\
  (forall ct, ct <> t_empty T -> enumerates (get_cells_by_type T l ct) (fun c => spec_type T ops c = ct) /\
     num_cells_of_given_type T l ct = Z.of_nat (length (get_cells_by_type T l ct))).
Proof.
  intros T cl x y ops HT. cbv zeta. pose proof (cell_inv_run T HT cl x y ops) as Hi. set (l := c_run _ _ _) in *.
  split; [apply foreach_cell_enum, Hi|]. split; [unfold num_cells; rewrite foreach_cell_length; reflexivity|].
  split. { unfold c_is_empty. rewrite size_nil. split.
    - intros E c. rewrite <- (ci_type _ _ _ Hi), E, lookup_empty. reflexivity.
    - intros H. apply map_eq. intros c. rewrite lookup_empty. specialize (H c). rewrite <- (ci_type _ _ _ Hi) in H.
      destruct (c_type l !! c) as [ct|] eqn:E; [|reflexivity]. exfalso. apply (ci_some _ _ _ Hi _ _ E). exact H. }
  split; [apply set_enum, (ci_in _ _ _ Hi)|].
  split. { intros H. unfold c_num_pis, c_foreach_pi, size, set_size in *. simpl in *. apply Z.mod_small. lia. }
  split; [apply set_enum, (ci_out _ _ _ Hi)|].
  split. { intros H. unfold c_num_pos, c_foreach_po, size, set_size in *. simpl in *. apply Z.mod_small. lia. }
  intros ct Hct. split; [apply by_type_enum; assumption|reflexivity].
Qed.
Print Assumptions C26_enumerations.

Definition ex_cells : list cop :=
  [AssignType (live 0 0 0) 105; AssignName (live 0 0 0) "a"; AssignType (live 1 0 0) 120; AssignType (live 2 0 0) 111;
   AssignMode (live 1 0 0) 1; AssignType (live 0 0 0) 120; AssignType (live 3 0 0) 105; SetTileSize 5 5].
Example C26_nonvacuous : let l := c_run qca (c_new ex_cl 1 1) ex_cells in
  modes_exist qca ex_cells /\ num_cells l = 4 /\ c_num_pis l = 1 /\ c_num_pos l = 1 /\
  get_cell_mode l (live 1 0 0) = 1 /\ get_cell_name l (live 0 0 0) = "a"%string /\ c_is_pi l (live 0 0 0) = false.
Proof. cbv zeta. split; [intros H; discriminate H|]. compute_all. Qed.

(** * C27 *)
(** Assigning the empty type removes the cell with its type, mode and I/O role and leaves all other
    cells alone; missing from the full property: the name (see below). *)
Theorem C27_delete_partial : forall T cl x y ops c, In T technologies -> modes_exist T ops ->
  let l := c_run T (c_new cl x y) ops in
  let l' := assign_cell_type T l c (t_empty T) in
  get_cell_type T l' c = t_empty T /\ is_empty_cell T l' c = true /\ get_cell_mode l' c = 0 /\
  c_is_pi l' c = false /\ c_is_po l' c = false /\ ~ In c (foreach_cell l') /\
  (forall d, d <> c -> get_cell_type T l' d = get_cell_type T l d /\ get_cell_mode l' d = get_cell_mode l d /\
     c_is_pi l' d = c_is_pi l d /\ c_is_po l' d = c_is_po l d /\ (In d (foreach_cell l') <-> In d (foreach_cell l))) /\
  (forall d, get_cell_name l' d = get_cell_name l d).
Proof.
  intros T cl x y ops c HT Hm. cbv zeta. set (l := c_run _ _ _).
  assert (E : assign_cell_type T l c (t_empty T) =
    mkCell (c_cl l) (c_tsx l) (c_tsy l) (delete c (c_type l)) (delete c (c_mode l)) (c_name l) (c_in l ∖ {[ c ]}) (c_out l ∖ {[ c ]})).
  { unfold assign_cell_type, t_is_empty. rewrite Z.eqb_refl. reflexivity. }
  rewrite E. unfold is_empty_cell, get_cell_type, get_cell_mode, c_is_pi, c_is_po, get_cell_name, t_is_empty.
  setoid_rewrite foreach_cell_In. cbn [c_type c_mode c_in c_out c_name].
  rewrite !lookup_delete, Z.eqb_refl.
  split; [reflexivity|]. split; [reflexivity|]. split; [reflexivity|].
  split; [apply bool_decide_eq_false; set_solver|]. split; [apply bool_decide_eq_false; set_solver|].
  split; [intros [? ?]; discriminate|]. split; [|reflexivity].
  intros d Hd. rewrite !lookup_delete_ne by congruence. split; [reflexivity|]. split; [reflexivity|].
  split; [apply bool_decide_ext; set_solver|]. split; [apply bool_decide_ext; set_solver|]. reflexivity.
Qed.
Print Assumptions C27_delete_partial.

(** Finding: the name survives the deletion and is inherited by a cell created there later. *)
Theorem C27_name_survives_refuted : exists ops c, let l := c_run qca (c_new ex_cl 1 1) ops in
  get_cell_name l c = "a"%string /\ get_cell_name (assign_cell_type qca l c 32) c = "a"%string /\
  num_cells (assign_cell_type qca l c 32) = 0 /\
  get_cell_name (assign_cell_type qca (assign_cell_type qca l c 32) c 120) c = "a"%string.
Proof. exists [AssignType (live 0 0 0) 105; AssignName (live 0 0 0) "a"], (live 0 0 0). cbv zeta. compute_all. Qed.
Print Assumptions C27_name_survives_refuted.

Example C27_nonvacuous : let l := c_run qca (c_new ex_cl 1 1) ex_cells in
  is_empty_cell qca l (live 1 0 0) = false /\ get_cell_mode l (live 1 0 0) = 1 /\
  num_cells (assign_cell_type qca l (live 1 0 0) 32) = 3.
Proof. cbv zeta. compute_all. Qed.

(** * C28 *)
(** Coordinates: gate-level layouts (starting from any reachable one). *)
Theorem C28_coordinates_gate : forall st0 ops l c, o_run (o_new (OGate st0)) ops = Some l ->
  exists st, g_run st0 (gate_calls ops) = Some st /\
  (is_obstructed_coordinate l c = true <-> marked_coordinate ops c = true \/ is_empty_tile st c = false).
Proof.
  intros st0 ops l c Hr. destruct (base_gate ops (o_new (OGate st0)) st0 l eq_refl Hr) as (st & Hst & Hb). exists st. split; [exact Hst|].
  destruct (marks_run _ _ _ Hr) as [Hm _]. unfold is_obstructed_coordinate. rewrite <- Hm, Hb.
  case_bool_decide; [tauto|]. rewrite negb_true_iff. tauto.
Qed.
Print Assumptions C28_coordinates_gate.

(** Coordinates: cell-level layouts and layouts without content. *)
Theorem C28_coordinates_cell : forall T l0 ops l c, o_run (o_new (OCell T l0)) ops = Some l ->
  (is_obstructed_coordinate l c = true <->
   marked_coordinate ops c = true \/ is_empty_cell T (c_run T l0 (cell_calls ops)) c = false).
Proof.
  intros T l0 ops l c Hr. pose proof (base_cell T ops (o_new (OCell T l0)) l0 l eq_refl Hr) as Hb.
  destruct (marks_run _ _ _ Hr) as [Hm _]. unfold is_obstructed_coordinate. rewrite <- Hm, Hb.
  case_bool_decide; [tauto|]. rewrite negb_true_iff. tauto.
Qed.
Print Assumptions C28_coordinates_cell.
Theorem C28_plain : forall cl ops l c s t, o_run (o_new (OPlain cl)) ops = Some l ->
  (is_obstructed_coordinate l c = marked_coordinate ops c) /\ (is_obstructed_connection l s t = marked_connection ops s t).
Proof.
  intros cl ops l c s t Hr.
  assert (Hb : o_base l = OPlain cl).
  { revert Hr. generalize (eq_refl : o_base (o_new (OPlain cl)) = OPlain cl). generalize (o_new (OPlain cl)).
    induction ops as [|o r IH]; intros l1 H1; simpl; [intros E; inversion E; subst; exact H1|].
    destruct (o_step l1 o) as [l2|] eqn:E; [|discriminate]. apply IH.
    destruct o; simpl in E; try (inversion E; subst; exact H1); rewrite H1 in E; discriminate. }
  destruct (marks_run _ _ _ Hr) as [Hm Hn]. unfold is_obstructed_coordinate, is_obstructed_connection. rewrite Hb.
  split.
  - specialize (Hm c). case_bool_decide; destruct (marked_coordinate ops c); intuition congruence.
  - specialize (Hn s t). case_bool_decide; destruct (marked_connection ops s t); intuition congruence.
Qed.
Print Assumptions C28_plain.

(** Connections: a gate-level layout occupies the connection from [src] to [tgt] if information flows into
    [tgt] from the spot of [src] or out of [src] to the spot of [tgt] (on whatever layer). *)
Theorem C28_connections_gate : forall cl ops0 st0 ops l src tgt,
  reached cl ops0 st0 -> moves_no_constant ops0 -> moves_no_constant (gate_calls ops) -> dim_ok (cl_dim cl) ->
  inb (cl_dim cl) src -> inb (cl_dim cl) tgt ->
  o_run (o_new (OGate st0)) ops = Some l ->
  exists st, g_run st0 (gate_calls ops) = Some st /\
  (is_obstructed_connection l src tgt = true <->
   marked_connection ops src tgt = true \/
   (exists i, In i (incoming_data_flow true st tgt) /\ same_spot i src) \/
   (exists o, In o (outgoing_data_flow true st src) /\ same_spot o tgt)).
Proof.
  intros cl ops0 st0 ops l src tgt Hr0 Hm0 Hm1 Hd Hs Ht Hr.
  destruct (base_gate ops (o_new (OGate st0)) st0 l eq_refl Hr) as (st & Hst & Hb). exists st. split; [exact Hst|].
  assert (Ed : cl_dim (g_cl st) = cl_dim cl). { rewrite (dim_run _ _ _ Hst), (dim_run _ _ _ Hr0). reflexivity. }
  assert (Hi0 : inv1 st0). { eapply inv1_run; [apply inv1_empty|exact Hm0|exact Hr0]. }
  assert (Hc0 : const_clean st0).
  { eapply clean_run; [apply inv1_empty| |exact Hm0|exact Hr0]. intros x Hx. destruct x as [|[|x]]; [reflexivity|reflexivity|lia]. }
  assert (Hi : inv1 st). { eapply inv1_run; [exact Hi0|exact Hm1|exact Hst]. }
  assert (Hc : const_clean st). { eapply clean_run; [exact Hi0|exact Hc0|exact Hm1|exact Hst]. }
  destruct (marks_run _ _ _ Hr) as [_ Hm]. unfold is_obstructed_connection. rewrite <- Hm, Hb.
  rewrite <- Ed in Hd, Hs, Ht.
  case_bool_decide; [tauto|]. rewrite orb_true_iff.
  rewrite (incoming_iff true st tgt src (i_0 _ Hi) Hd Ht), (outgoing_iff true st src tgt Hi Hc Hd Hs). tauto.
Qed.
Print Assumptions C28_connections_gate.

Definition ex_obs : list oop :=
  [ObstructCoordinate (live 4 4 0); OnGate (CreatePi "a" (live 0 1 0)); ObstructConnection (live 2 2 0) (live 2 3 0);
   OnGate (CreateLit [live 0 1 0] 2 (live 1 1 0)); ObstructCoordinate (live 3 3 0); ClearCoordinate (live 4 4 0)].
Example C28_nonvacuous : exists l, o_run (o_new (OGate (g_empty ex_cl))) ex_obs = Some l /\
  moves_no_constant (gate_calls ex_obs) /\
  map (is_obstructed_coordinate l) [live 4 4 0; live 3 3 0; live 1 1 0; live 2 1 0] = [false; true; true; false] /\
  is_obstructed_connection l (live 0 1 0) (live 1 1 0) = true /\
  is_obstructed_connection l (live 1 1 0) (live 0 1 0) = false /\
  is_obstructed_connection l (live 2 2 0) (live 2 3 0) = true.
Proof.
  destruct (o_run (o_new (OGate (g_empty ex_cl))) ex_obs) as [l|] eqn:E.
  2: { exfalso. assert (H : match o_run (o_new (OGate (g_empty ex_cl))) ex_obs with Some _ => true | None => false end = true) by (vm_compute; reflexivity).
       rewrite E in H. discriminate. }
  exists l. split; [reflexivity|]. split; [repeat constructor|].
  assert (Hg : forall (A : Type) (f : olayout -> A) v,
     match o_run (o_new (OGate (g_empty ex_cl))) ex_obs with Some l => f l | None => v end = v -> f l = v).
  { intros A f v. rewrite E. auto. }
  split; [apply (Hg _ (fun l => map (is_obstructed_coordinate l) _)); vm_compute; reflexivity|].
  split; [apply (Hg _ (fun l => is_obstructed_connection l _ _)); vm_compute; reflexivity|].
  split; [apply (Hg _ (fun l => is_obstructed_connection l _ _)); vm_compute; reflexivity|].
  apply (Hg _ (fun l => is_obstructed_connection l _ _)); vm_compute; reflexivity.
Qed.

(** * C30 *)
(** A non-empty cell-level layout: the corners span the smallest rectangle around the cells. *)
Theorem C30_cells : forall k T cl x y ops b, In T technologies -> valid_cells k ops ->
  let l := c_run T (c_new cl x y) ops in
  let b' := bb_cells k T b l None in
  c_is_empty l = false ->
  tight_box (row_of k) (bb_min b') (bb_max b') (fun c => is_empty_cell T l c = false).
Proof.
  intros k T cl x y ops b HT Hv. cbv zeta. intros He. pose proof (cell_inv_run T HT cl x y ops) as Hi. set (l := c_run _ _ _) in *.
  unfold bb_cells, bb_update. rewrite He. cbn [andb].
  set (occ := match k with Siqad => _ | _ => _ end).
  assert (Hocc : forall c, In c occ <-> is_empty_cell T l c = false).
  { intros c. assert (H1 : In c (foreach_cell l) <-> is_empty_cell T l c = false).
    { rewrite foreach_cell_In, (cell_dom T ops l c Hi). unfold is_empty_cell, t_is_empty, get_cell_type. rewrite (ci_type _ _ _ Hi). lia. }
    unfold occ. destruct k; [rewrite filter_In, H1, negb_true_iff; tauto|rewrite filter_In, H1, negb_true_iff; tauto|exact H1]. }
  assert (Hval : forall c, In c occ -> k_valid k c).
  { intros c Hc. apply Hocc in Hc. unfold is_empty_cell, t_is_empty, get_cell_type in Hc. rewrite (ci_type _ _ _ Hi) in Hc.
    destruct (spec_type_assigned T ops c ltac:(lia)) as [ct Hct]. eapply Hv, Hct. }
  assert (Hne : occ <> []).
  { intros E. assert (Hall : forall c, spec_type T ops c = t_empty T).
    { intros c. destruct (Z.eq_dec (spec_type T ops c) (t_empty T)) as [H|H]; [exact H|]. exfalso.
      apply (cell_dom T ops l c Hi) in H. assert (Hin : In c occ).
      { apply Hocc. unfold is_empty_cell, t_is_empty, get_cell_type. destruct H as [ct E']. rewrite E'. simpl.
        pose proof (ci_some _ _ _ Hi _ _ E'). lia. }
      rewrite E in Hin. destruct Hin. }
    apply (C26_enumerations T cl x y ops HT) in Hall. fold l in Hall. congruence. }
  destruct (bb_fold_tight k occ Hne Hval) as ((A1 & A2 & A3 & A4 & A5) & _). cbv zeta in *.
  cbn [bb_min bb_max fst snd]. set (m := fold_left _ _ _) in *.
  unfold tight_box. setoid_rewrite <- Hocc. repeat (split; [assumption|]). assumption.
Qed.
Print Assumptions C30_cells.

(** The sizes are the differences of the corners (unless the signed subtraction overflows). *)
Theorem C30_sizes : forall k T cl x y ops b, In T technologies -> valid_cells k ops ->
  let l := c_run T (c_new cl x y) ops in
  let b' := bb_cells k T b l None in
  c_is_empty l = false ->
  let dx := cx (bb_max b') - cx (bb_min b') in
  let dy := cy (bb_max b') - cy (bb_min b') in
  0 <= dx /\ 0 <= dy /\
  (k = Offset \/ in_i32 dx -> bb_x b' = Some dx) /\ (k = Offset \/ in_i32 dy -> bb_y b' = Some dy).
Proof.
  intros k T cl x y ops b HT Hv. cbv zeta. intros He.
  pose proof (C30_cells k T cl x y ops b HT Hv He) as (A1 & (c1 & P1 & E1) & (c2 & P2 & E2) & (c3 & P3 & E3) & (c4 & P4 & E4)).
  set (l := c_run _ _ _) in *. pose proof (cell_inv_run T HT cl x y ops) as Hi. fold l in Hi.
  assert (Hval : forall c, is_empty_cell T l c = false -> k_valid k c).
  { intros c Hc. unfold is_empty_cell, t_is_empty, get_cell_type in Hc. rewrite (ci_type _ _ _ Hi) in Hc.
    destruct (spec_type_assigned T ops c ltac:(lia)) as [ct Hct]. eapply Hv, Hct. }
  set (b' := bb_cells k T b l None) in *.
  assert (Ex : bb_x b' = bb_diff k (cx (bb_max b') - cx (bb_min b')) /\ bb_y b' = bb_diff k (cy (bb_max b') - cy (bb_min b'))).
  { unfold b', bb_cells, bb_update. rewrite He. cbn [andb bb_x bb_y bb_min bb_max]. auto. }
  destruct Ex as [-> ->].
  assert (Hx : 0 <= cx (bb_max b') - cx (bb_min b')) by (specialize (A1 c1 P1); lia).
  assert (Hy : 0 <= cy (bb_max b') - cy (bb_min b') /\ (k = Offset -> cy (bb_max b') - cy (bb_min b') < 2 ^ 31)).
  { pose proof (A1 c3 P3) as K. destruct k; cbn [row_of] in *.
    - destruct (Hval c4 P4) as (_ & _ & Hu & _), (Hval c3 P3) as (_ & _ & Hu3 & _). unfold in_u in *. split; [lia|intros _; lia].
    - split; [lia|discriminate].
    - split; [|discriminate].
      assert (Hn : k_valid Siqad (bb_min b') /\ k_valid Siqad (bb_max b')).
      { unfold b', bb_cells, bb_update. rewrite He. cbn [andb bb_min bb_max].
        destruct (bb_fold_tight Siqad (foreach_cell l)) as (_ & _ & _ & H).
        - intros E. apply (in_nil (a := c3)). rewrite <- E. apply foreach_cell_In, (cell_dom T ops l c3 Hi).
          unfold is_empty_cell, t_is_empty, get_cell_type in P3. rewrite (ci_type _ _ _ Hi) in P3. lia.
        - intros c Hc. apply Hval. apply foreach_cell_In, (cell_dom T ops l c Hi) in Hc. unfold is_empty_cell, t_is_empty, get_cell_type.
          rewrite (ci_type _ _ _ Hi). lia.
        - apply H. reflexivity. }
      destruct Hn as [(_ & (_ & _ & Z1) & _) (_ & (_ & _ & Z2) & _)]. unfold in_u, dimer_row in *. change (2 ^ 1) with 2 in *. lia. }
  split; [exact Hx|]. split; [apply Hy|]. split.
  - intros Hc. destruct k.
    + destruct (Hval c2 P2) as (_ & Hu & _), (Hval c1 P1) as (_ & Hu1 & _). unfold in_u in *. apply bb_diff_offset. lia.
    + destruct Hc as [Hc|Hc]; [discriminate|]. apply bb_diff_signed; [discriminate|exact Hc].
    + destruct Hc as [Hc|Hc]; [discriminate|]. apply bb_diff_signed; [discriminate|exact Hc].
  - intros Hc. destruct k.
    + apply bb_diff_offset. destruct Hy as [H1 H2]. specialize (H2 eq_refl). lia.
    + destruct Hc as [Hc|Hc]; [discriminate|]. apply bb_diff_signed; [discriminate|exact Hc].
    + destruct Hc as [Hc|Hc]; [discriminate|]. apply bb_diff_signed; [discriminate|exact Hc].
Qed.
Print Assumptions C30_sizes.

(** Defect surfaces with Cartesian coordinates: the box is tight around cells and defects. *)
Theorem C30_defects : forall k T cl x y ops b D, In T technologies -> valid_cells k ops -> k <> Siqad ->
  (forall d, In d D -> k_valid k d) ->
  let l := c_run T (c_new cl x y) ops in
  let b' := bb_cells k T b l (Some D) in
  (c_is_empty l = false \/ D <> []) ->
  tight_box cy (bb_min b') (bb_max b') (fun c => is_empty_cell T l c = false \/ In c D).
Proof.
  intros k T cl x y ops b D HT Hv Hk HD. cbv zeta. intros He. pose proof (cell_inv_run T HT cl x y ops) as Hi. set (l := c_run _ _ _) in *.
  unfold bb_cells, bb_update.
  replace (c_is_empty l && Nat.eqb (length D) 0) with false.
  2: { destruct He as [-> |H]; [reflexivity|]. destruct D; [congruence|]. symmetry. apply andb_false_r. }
  set (occ := match k with Siqad => _ | _ => _ end).
  assert (Hocc : forall c, In c occ <-> is_empty_cell T l c = false).
  { intros c. assert (H1 : In c (foreach_cell l) <-> is_empty_cell T l c = false).
    { rewrite foreach_cell_In, (cell_dom T ops l c Hi). unfold is_empty_cell, t_is_empty, get_cell_type. rewrite (ci_type _ _ _ Hi). lia. }
    unfold occ. destruct k; [rewrite filter_In, H1, negb_true_iff; tauto|rewrite filter_In, H1, negb_true_iff; tauto|exact H1]. }
  assert (Hval : forall c, In c (occ ++ D) -> k_valid k c).
  { intros c Hc. apply in_app_or in Hc as [Hc|Hc]; [|apply HD, Hc].
    apply Hocc in Hc. unfold is_empty_cell, t_is_empty, get_cell_type in Hc. rewrite (ci_type _ _ _ Hi) in Hc.
    destruct (spec_type_assigned T ops c ltac:(lia)) as [ct Hct]. eapply Hv, Hct. }
  assert (Hne : occ ++ D <> []).
  { intros E. apply app_eq_nil in E as [E E']. destruct He as [He|He]; [|congruence].
    assert (Hall : forall c, spec_type T ops c = t_empty T).
    { intros c. destruct (Z.eq_dec (spec_type T ops c) (t_empty T)) as [H|H]; [exact H|]. exfalso.
      apply (cell_dom T ops l c Hi) in H. assert (Hin : In c occ).
      { apply Hocc. unfold is_empty_cell, t_is_empty, get_cell_type. destruct H as [ct E1]. rewrite E1. simpl.
        pose proof (ci_some _ _ _ Hi _ _ E1). lia. }
      rewrite E in Hin. destruct Hin. }
    apply (C26_enumerations T cl x y ops HT) in Hall. fold l in Hall. congruence. }
  destruct (bb_fold_tight k (occ ++ D) Hne Hval) as ((A1 & A2 & A3 & A4 & A5) & _). cbv zeta in *.
  rewrite <- fold_defects in A1, A2, A3, A4, A5. cbv zeta in *.
  set (m0 := fold_left (bb_upd k) occ (bb_start k)) in *.
  assert (Em : (let (mn, mx) := m0 in let (dn, dx) := fold_left (bb_upd k) D m0 in
     match k with Siqad => (live (Z.min (cx mn) (cx dn)) (Z.min (cy mn) (cy dn)) (Z.min (cz mn) (cz dn)),
                      live (Z.max (cx mx) (cx dx)) (Z.max (cy mx) (cy dx)) (Z.max (cz mx) (cz dx))) | _ => (dn, dx) end) = fold_left (bb_upd k) D m0).
  { destruct m0 as [mn mx]. destruct (fold_left (bb_upd k) D (mn, mx)) as [dn dx]. destruct k; [reflexivity|reflexivity|congruence]. }
  rewrite Em. cbn [bb_min bb_max]. set (m := fold_left (bb_upd k) D m0) in *.
  assert (Hrow : row_of k = cy) by (destruct k; [reflexivity|reflexivity|congruence]). rewrite Hrow in *.
  unfold tight_box. setoid_rewrite <- Hocc. setoid_rewrite <- in_app_iff. repeat (split; [assumption|]). assumption.
Qed.
Print Assumptions C30_defects.

(** Defect surfaces with SiQAD coordinates: everything is enclosed, but the rows may be off by one
    (missing from the full property: tightness of the rows; see below). *)
Theorem C30_siqad_defects_partial : forall T cl x y ops b D, In T technologies -> valid_cells Siqad ops ->
  (forall d, In d D -> k_valid Siqad d) -> D <> [] ->
  let l := c_run T (c_new cl x y) ops in
  let b' := bb_cells Siqad T b l (Some D) in
  c_is_empty l = false ->
  let P := fun c => is_empty_cell T l c = false \/ In c D in
  (forall c, P c -> cx (bb_min b') <= cx c <= cx (bb_max b') /\ dimer_row (bb_min b') <= dimer_row c <= dimer_row (bb_max b')) /\
  (exists c, P c /\ cx c = cx (bb_min b')) /\ (exists c, P c /\ cx c = cx (bb_max b')) /\
  (exists c, P c /\ dimer_row c <= dimer_row (bb_min b') + 1) /\ (exists c, P c /\ dimer_row (bb_max b') - 1 <= dimer_row c).
Proof.
  intros T cl x y ops b D HT Hv HD HDne. cbv zeta. intros He. pose proof (cell_inv_run T HT cl x y ops) as Hi. set (l := c_run _ _ _) in *.
  assert (H1 : forall c, In c (foreach_cell l) <-> is_empty_cell T l c = false).
  { intros c. rewrite foreach_cell_In, (cell_dom T ops l c Hi). unfold is_empty_cell, t_is_empty, get_cell_type. rewrite (ci_type _ _ _ Hi). lia. }
  assert (Hval : forall c, In c (foreach_cell l) -> k_valid Siqad c).
  { intros c Hc. apply H1 in Hc. unfold is_empty_cell, t_is_empty, get_cell_type in Hc. rewrite (ci_type _ _ _ Hi) in Hc.
    destruct (spec_type_assigned T ops c ltac:(lia)) as [ct Hct]. eapply Hv, Hct. }
  assert (Hne : foreach_cell l <> []).
  { intros E. unfold c_is_empty in He. rewrite <- foreach_cell_length, E in He. discriminate. }
  destruct (bb_fold_tight Siqad (foreach_cell l) Hne Hval) as ((A1 & A2 & A3 & A4 & A5) & _ & _ & A6).
  destruct (bb_fold_tight Siqad (foreach_cell l ++ D)) as ((B1 & B2 & B3 & B4 & B5) & _ & _ & B6).
  { intros E. apply app_eq_nil in E as [_ E]. congruence. }
  { intros c Hc. apply in_app_or in Hc as [Hc|Hc]; auto. }
  cbv zeta in *. rewrite <- fold_defects in *. cbv zeta in *. cbn [row_of] in *.
  unfold bb_cells, bb_update. rewrite He. cbn [andb bb_min bb_max].
  set (m0 := fold_left (bb_upd Siqad) (foreach_cell l) (bb_start Siqad)) in *.
  destruct (A6 eq_refl) as [VN VX]. destruct (B6 eq_refl) as [WN WX]. clear A6 B6.
  set (m := fold_left (bb_upd Siqad) D m0) in *. destruct m0 as [mn mx], m as [dn dx]. cbn [fst snd live cx cy cz] in *.
  destruct VN as (_ & (_ & _ & zn) & _), VX as (_ & (_ & _ & zx) & _), WN as (_ & (_ & _ & zdn) & _), WX as (_ & (_ & _ & zdx) & _).
  unfold in_u in *. change (2 ^ 1) with 2 in *.
  assert (Hrel : cx dn <= cx mn /\ cx mx <= cx dx /\ dimer_row dn <= dimer_row mn /\ dimer_row mx <= dimer_row dx).
  { destruct A2 as (c2 & P2 & <-), A3 as (c3 & P3 & <-), A4 as (c4 & P4 & <-), A5 as (c5 & P5 & <-).
    pose proof (B1 c2 (in_or_app _ _ _ (or_introl P2))). pose proof (B1 c3 (in_or_app _ _ _ (or_introl P3))).
    pose proof (B1 c4 (in_or_app _ _ _ (or_introl P4))). pose proof (B1 c5 (in_or_app _ _ _ (or_introl P5))). lia. }
  clear A1 A2 A3 A4 A5. setoid_rewrite <- H1. setoid_rewrite <- in_app_iff.
  unfold dimer_row in *. cbn [live cx cy cz].
  split. { intros c Hc. specialize (B1 c Hc). lia. }
  destruct B2 as (c2 & P2 & E2), B3 as (c3 & P3 & E3), B4 as (c4 & P4 & E4), B5 as (c5 & P5 & E5).
  split; [exists c2; split; [exact P2|lia]|]. split; [exists c3; split; [exact P3|lia]|].
  split; [exists c4; split; [exact P4|lia]|]. exists c5. split; [exact P5|lia].
Qed.
Print Assumptions C30_siqad_defects_partial.

(** Finding: corners of SiQAD defect surfaces combine y and z independently; a cell in row 2 and a
    defect in row 1 give a box that starts in row 0, where nothing is. *)
Theorem C30_siqad_defects_refuted : exists ops D, valid_cells Siqad ops /\ (forall d, In d D -> k_valid Siqad d) /\
  let l := c_run sidb (c_new ex_cl 1 1) ops in
  let b := bb_cells Siqad sidb bb_init l (Some D) in
  c_is_empty l = false /\ dimer_row (bb_min b) = 0 /\
  (forall c, is_empty_cell sidb l c = false \/ In c D -> 1 <= dimer_row c).
Proof.
  exists [AssignType (live 0 1 0) 120], [live 0 0 1].
  assert (V1 : k_valid Siqad (live 0 1 0)) by (unfold k_valid, s_wf, in_i32, in_u, i32_min, i32_max, dimer_row; cbn [live cd cx cy cz]; repeat split; lia).
  assert (V2 : k_valid Siqad (live 0 0 1)) by (unfold k_valid, s_wf, in_i32, in_u, i32_min, i32_max, dimer_row; cbn [live cd cx cy cz]; repeat split; lia).
  split; [intros c ct [E|[]]; inversion E; subst; exact V1|]. split; [intros d [<-|[]]; exact V2|]. cbv zeta.
  split; [vm_compute; reflexivity|]. split; [vm_compute; reflexivity|].
  intros c [H|[<-|[]]]; [|unfold dimer_row; cbn [live cy cz]; lia].
  unfold is_empty_cell, t_is_empty in H. destruct (C26_last_assignment_counts sidb ex_cl 1 1 [AssignType (live 0 1 0) 120] c) as (E & _).
  { simpl; tauto. } { intros _ d m [K|[]]; discriminate. }
  rewrite E in H. unfold spec_type in H. simpl rev in H. cbn [latest] in H. destruct (coord_eqb (live 0 1 0) c) eqn:Ec; [|vm_compute in H; discriminate].
  apply coord_eqb_spec in Ec. subst c. unfold dimer_row; cbn [live cy cz]; lia.
Qed.
Print Assumptions C30_siqad_defects_refuted.

(** A non-empty gate-level layout whose nodes were all placed inside it. *)
Theorem C30_gates : forall cl ops st b, reached cl ops st -> moves_no_constant ops ->
  ar_ok Offset (cl_dim cl) -> places_inside (cl_dim cl) ops -> Z.of_nat (length (g_nodes st)) < 2 ^ 32 -> is_empty st = false ->
  exists b', bb_gates b st = Some b' /\
    tight_box cy (bb_min b') (bb_max b') (fun t => cd t = false /\ is_empty_tile st t = false) /\
    bb_x b' = Some (cx (bb_max b') - cx (bb_min b')) /\ bb_y b' = Some (cy (bb_max b') - cy (bb_min b')).
Proof.
  intros cl ops st b Hr Hm Hok Hp Hl He.
  destruct (inside_run ops (g_empty cl) st Hp Hr) as [Ed Hin].
  { intros t n Ht Hd. exfalso. unfold g_empty in Ht. cbn [g_tn] in Ht. apply lookup_insert_Some in Ht as [[<- _]|[_ Ht]]; [discriminate Hd|].
    apply lookup_insert_Some in Ht as [[<- _]|[_ Ht]]; [discriminate Hd|]. rewrite lookup_empty in Ht. discriminate. }
  cbn [g_empty g_cl] in Ed.
  unfold bb_gates. rewrite Ed in *. change (volume (cl_dim cl)) with (k_volume Offset (cl_dim cl)).
  destruct (foreach_coordinate_full Offset (cl_dim cl) _ Hok (le_n _)) as (cs & -> & Hcs & _).
  eexists. split; [reflexivity|]. unfold bb_update. rewrite He. cbn [andb].
  set (occ := List.filter _ cs).
  assert (Hocc : forall t, In t occ <-> cd t = false /\ is_empty_tile st t = false).
  { intros t. unfold occ. rewrite filter_In, Hcs, negb_true_iff. split; [intros [H1 H2]; split; [apply H1|exact H2]|].
    intros [H1 H2]. split; [|exact H2]. unfold is_empty_tile, get_node in H2. destruct (g_tn st !! t) as [n|] eqn:E; [|discriminate].
    eapply Hin; eauto. }
  assert (Hval : forall c, In c occ -> k_valid Offset c).
  { intros c Hc. unfold occ in Hc. apply filter_In in Hc as [Hc _]. apply Hcs in Hc. destruct Hc as (Hd & Hx & Hy & Hz).
    destruct Hok as ((Wx & Wy & Wz) & _). unfold k_valid, u_wf, in_u in *. repeat split; auto; lia. }
  assert (Hne : occ <> []).
  { intros E. assert (is_empty st = true); [|congruence]. apply (C19_is_empty cl ops st Hr Hm Hl). intros t Hd.
    destruct (is_empty_tile st t) eqn:Et; [reflexivity|]. assert (In t occ) by (apply Hocc; auto). rewrite E in *. contradiction. }
  destruct (bb_fold_tight Offset occ Hne Hval) as ((A1 & A2 & A3 & A4 & A5) & _). cbv zeta in *. cbn [bb_min bb_max bb_x bb_y row_of] in *.
  set (m := fold_left _ _ _) in *. split.
  - unfold tight_box. setoid_rewrite <- Hocc. repeat (split; [assumption|]). assumption.
  - destruct A2 as (c2 & P2 & E2), A3 as (c3 & P3 & E3), A4 as (c4 & P4 & E4), A5 as (c5 & P5 & E5).
    pose proof (A1 c2 P2). pose proof (A1 c4 P4). destruct (Hval c2 P2) as (_ & V2 & _), (Hval c3 P3) as (_ & V3 & _), (Hval c4 P4) as (_ & _ & V4 & _), (Hval c5 P5) as (_ & _ & V5 & _).
    unfold in_u in *. split; apply bb_diff_offset; lia.
Qed.
Print Assumptions C30_gates.

(** Empty layouts: both corners are the origin; on construction the sizes are zero. *)
Theorem C30_empty : forall k T l, c_is_empty l = true -> bb_cells k T bb_init l None = bb_init.
Proof. intros k T l H. unfold bb_cells, bb_update. rewrite H. reflexivity. Qed.
Print Assumptions C30_empty.

(** Finding: updating the box of a layout that was emptied resets the corners but not the sizes. *)
Theorem C30_stale_sizes_refuted : exists l l', l' = assign_cell_type qca (assign_cell_type qca l (live 0 0 0) 32) (live 3 2 0) 32 /\
  c_is_empty l' = true /\
  let b := bb_cells Offset qca (bb_cells Offset qca bb_init l None) l' None in
  bb_min b = live 0 0 0 /\ bb_max b = live 0 0 0 /\ bb_x b = Some 3 /\ bb_y b = Some 2.
Proof.
  exists (c_run qca (c_new ex_cl 1 1) [AssignType (live 0 0 0) 120; AssignType (live 3 2 0) 120]). eexists. split; [reflexivity|].
  cbv zeta. compute_all.
Qed.
Print Assumptions C30_stale_sizes_refuted.

(** Finding: a gate-level layout whose only node was placed outside its bounds gets an inverted box. *)
Theorem C30_outside_refuted : exists cl ops st b, reached cl ops st /\ is_empty st = false /\ bb_gates bb_init st = Some b /\
  cx (bb_max b) < cx (bb_min b).
Proof.
  exists (std_layout Cartesian (live 1 1 0) (TWODDWAVE FOUR)), [CreatePi "a" (live 3 3 0)].
  match goal with |- exists st b, reached ?c ?o st /\ _ => exists (final c o) end.
  match goal with |- exists b, _ /\ _ /\ bb_gates bb_init ?s = _ /\ _ => exists (default bb_init (bb_gates bb_init s)) end.
  split; [apply reached_final; vm_compute; reflexivity|]. split; [vm_compute; reflexivity|]. split; vm_compute; reflexivity.
Qed.
Print Assumptions C30_outside_refuted.

Example C30_nonvacuous : valid_cells Offset ex_cells /\
  c_is_empty (c_run qca (c_new ex_cl 1 1) ex_cells) = false /\
  bb_cells Offset qca bb_init (c_run qca (c_new ex_cl 1 1) ex_cells) None = mkB (live 0 0 0) (live 3 0 0) (Some 3) (Some 0) /\
  (exists st, reached ex_cl ex_ops st /\ ar_ok Offset (cl_dim ex_cl) /\ places_inside (cl_dim ex_cl) ex_ops /\
     bb_gates bb_init st = Some (mkB (live 0 0 0) (live 3 1 0) (Some 3) (Some 1))).
Proof.
  split.
  { intros c ct H. unfold ex_cells in H. simpl in H. repeat (destruct H as [H|H]; [inversion H; subst;
      unfold k_valid, u_wf, in_u; cbn [live cd cx cy cz]; repeat split; lia|]). destruct H. }
  split; [vm_compute; reflexivity|]. split; [vm_compute; reflexivity|].
  run_to ex_cl ex_ops. split; [unfold ar_ok, u_wf, in_u; cbn; repeat split; lia|].
  split; [|vm_compute; reflexivity]. unfold places_inside, ex_ops. repeat constructor; cbn; lia.
Qed.

(** * C43 *)
(** All cells of a tile belong to the clock zone of the tile. *)
Theorem C43_cells_of_a_tile : forall T cl x y ops sx sy tx ty c, spec_tile_size x y ops = (sx, sy) ->
  0 < sx -> 0 < sy -> 0 <= tx -> 0 <= ty -> in_tile sx sy tx ty c ->
  cell_clock_number (c_run T (c_new cl x y) ops) c = Some (get_clock_number cl (live tx ty (cz c))).
Proof.
  intros T cl x y ops sx sy tx ty c Hs Hsx Hsy Htx Hty (Hx & Hy).
  destruct (tile_size_run T cl x y ops) as [E1 E2]. cbv zeta in *. set (l := c_run _ _ _) in *.
  rewrite Hs in E2. inversion E2 as [[E3 E4]]. clear E2.
  unfold cell_clock_number. rewrite E1, E3, E4.
  replace ((sx =? 0) || (sy =? 0)) with false by lia.
  assert (Hq : forall s t v, 0 < s -> 0 <= t -> t * s <= v < (t + 1) * s -> Z.quot v s = t).
  { intros s t v Hs0 Ht Hv. rewrite Z.quot_div_nonneg by nia. symmetry. apply (Z.div_unique v s t (v - t * s)); nia. }
  rewrite (Hq sx tx), (Hq sy ty) by assumption. reflexivity.
Qed.
Print Assumptions C43_cells_of_a_tile.

(** Finding: division truncates towards zero, so on signed coordinates the tiles on both sides of
    zero fall together: two cells in different tiles of a columnar clocking get the same zone. *)
Theorem C43_negative_refuted : exists cl c d, 
  in_tile 5 5 (-1) 0 c /\ in_tile 5 5 0 0 d /\
  get_clock_number cl (live (-1) 0 0) <> get_clock_number cl (live 0 0 0) /\
  cell_clock_number (c_new cl 5 5) c = cell_clock_number (c_new cl 5 5) d.
Proof.
  exists (std_layout Cartesian (live 9 9 0) (COLUMNAR FOUR)), (live (-1) 0 0), (live 1 0 0).
  unfold in_tile; cbn [live cx cy]. repeat split; try lia; vm_compute; congruence.
Qed.
Print Assumptions C43_negative_refuted.

Example C43_nonvacuous : spec_tile_size 1 1 ex_cells = (5, 5) /\ in_tile 5 5 2 1 (live 14 5 0) /\
  cell_clock_number (c_run qca (c_new ex_cl 1 1) ex_cells) (live 14 5 0) = Some 3.
Proof. split; [reflexivity|]. split; [unfold in_tile; cbn [live cx cy]; lia|]. vm_compute. reflexivity. Qed.

(** * C44 *)
(** Signal queries agree with the data flow: [s] is incoming to (outgoing from) [t] if some fan-in
    (fan-out) of the node on [t] is on the spot of [s]. *)
Theorem C44_signals : forall cl ops st rc t s, reached cl ops st -> moves_no_constant ops -> dim_ok (cl_dim cl) ->
  inb (cl_dim cl) t ->
  (is_incoming_signal rc st t s = true <-> inb (cl_dim cl) s /\ exists i, In i (incoming_data_flow rc st t) /\ same_spot i s) /\
  (is_outgoing_signal rc st t s = true <-> inb (cl_dim cl) s /\ exists o, In o (outgoing_data_flow rc st t) /\ same_spot o s) /\
  (has_no_incoming_signal rc st t = true <-> incoming_data_flow rc st t = []) /\
  (has_no_outgoing_signal rc st t = true <-> outgoing_data_flow rc st t = []).
Proof.
  intros cl ops st rc t s Hr Hm Hd Ht.
  assert (Ed : cl_dim (g_cl st) = cl_dim cl). { rewrite (dim_run _ _ _ Hr). reflexivity. }
  assert (Hi : inv1 st). { eapply inv1_run; [apply inv1_empty|exact Hm|exact Hr]. }
  assert (Hc : const_clean st).
  { eapply clean_run; [apply inv1_empty| |exact Hm|exact Hr]. intros x Hx. destruct x as [|[|x]]; [reflexivity|reflexivity|lia]. }
  rewrite <- Ed in *. split; [apply incoming_iff; auto; apply Hi|]. split; [apply outgoing_iff; auto|].
  unfold has_no_incoming_signal, has_no_outgoing_signal, fanin_size, fanout_size, incoming_data_flow, outgoing_data_flow. split.
  - destruct (foreach_fanin rc st (get_node st t)); simpl; [tauto|]. split; [lia|discriminate].
  - destruct (foreach_fanout rc st (get_node st t)); simpl; [tauto|]. split; [lia|discriminate].
Qed.
Print Assumptions C44_signals.

(** Data flow comes from (goes to) spots that touch. *)
Lemma flow_touches cl ops st rc t : reached cl ops st -> moves_no_constant ops -> dim_ok (cl_dim cl) -> inb (cl_dim cl) t ->
  (forall i, In i (incoming_data_flow rc st t) -> inb (cl_dim cl) i /\ touch (cl_topo cl) (live (cx t) (cy t) (cz i)) i) /\
  (forall o, In o (outgoing_data_flow rc st t) -> inb (cl_dim cl) o /\ touch (cl_topo cl) t (live (cx o) (cy o) (cz t))).
Proof.
  intros Hr Hm Hd Ht.
  assert (Ed : cl_dim (g_cl st) = cl_dim cl). { rewrite (dim_run _ _ _ Hr). reflexivity. }
  assert (Et : cl_topo (g_cl st) = cl_topo cl). { rewrite (topo_run _ _ _ Hr). reflexivity. }
  assert (Hi : inv1 st). { eapply inv1_run; [apply inv1_empty|exact Hm|exact Hr]. }
  assert (Hc : const_clean st).
  { eapply clean_run; [apply inv1_empty| |exact Hm|exact Hr]. intros x Hx. destruct x as [|[|x]]; [reflexivity|reflexivity|lia]. }
  rewrite <- Et.
  split.
  { intros i Hin. unfold incoming_data_flow in Hin. rewrite <- Ed in *.
    destruct (is_empty_tile st t) eqn:Ee.
    { unfold is_empty_tile in Ee. apply Nat.eqb_eq in Ee. rewrite Ee in Hin. destruct Hin. }
    assert (Eg : get_tile st (get_node st t) = t) by (apply tile_node; [apply Hi|apply Ht|exact Ee]).
    unfold foreach_fanin in Hin. destruct (is_constant _); [destruct Hin|]. cbv zeta in Hin. apply in_map_iff in Hin as (c & <- & Hcf).
    apply filter_In in Hcf as [_ Hcf]. apply andb_prop in Hcf as [Hcf _]. rewrite Eg in Hcf. apply C08_elevation in Hcf as (H1 & H2 & _); [|assumption..].
    split; [exact H1|exact H2]. }
  { intros o Hin. unfold outgoing_data_flow in Hin. rewrite <- Ed in *.
    destruct (is_empty_tile st t) eqn:Ee.
    { unfold is_empty_tile in Ee. apply Nat.eqb_eq in Ee. rewrite Ee in Hin. destruct Hin. }
    assert (Eg : get_tile st (get_node st t) = t) by (apply tile_node; [apply Hi|apply Ht|exact Ee]).
    apply in_map_iff in Hin as (k & <- & Hk).
    assert (Hin : inb (cl_dim (g_cl st)) (get_tile st k)) by (eapply fanout_inb; [exact Hi|exact Hc|exact Hd| |exact Hk]; rewrite Eg; exact Ht).
    split; [exact Hin|]. destruct (fanout_real rc st _ k Hi Hc Hk) as (Hk2 & Hg & _).
    apply fanout_In in Hk; [|apply Hi|apply Hin|exact Hk2|].
    2: { unfold is_empty_tile in Ee. apply Nat.eqb_neq in Ee. unfold foreach_fanout in Hk.
         destruct (get_node st t) as [|[|q]]; [congruence|simpl in Hk; destruct Hk|lia]. }
    destruct Hk as (_ & u & Hu & Hl). rewrite Eg in Hu.
    assert (Hu' : In u (adjacent (cl_topo (g_cl st)) (cl_dim (g_cl st)) t)).
    { destruct rc; [unfold outgoing_clocked_zones in Hu; apply filter_In in Hu as [Hu _]|]; exact Hu. }
    apply adjacent_spec in Hu' as [Hub Htu]; [|assumption..].
    apply levels in Hl; [|assumption..]. pose proof (touch_z _ _ _ Htu) as Hz.
    rewrite <- Hz in Hl. rewrite Hl in Htu. exact Htu. }
Qed.

(** The four axis directions: the query asks for data flow from (to) the neighbouring spot. *)
Theorem C44_directions : forall cl ops st rc t dir dx dy, reached cl ops st -> moves_no_constant ops -> dim_ok (cl_dim cl) ->
  inb (cl_dim cl) t -> In (dir, (dx, dy)) [(north, (0, -1)); (south, (0, 1)); (east, (1, 0)); (west, (-1, 0))] ->
  (has_incoming_from dir rc st t = true <->
     exists i, In i (incoming_data_flow rc st t) /\ cx i = cx t + dx /\ cy i = cy t + dy) /\
  (has_outgoing_to dir rc st t = true <->
     exists o, In o (outgoing_data_flow rc st t) /\ cx o = cx t + dx /\ cy o = cy t + dy).
Proof.
  intros cl ops st rc t dir dx dy Hr Hm Hd Ht Hdir.
  assert (Ed : cl_dim (g_cl st) = cl_dim cl). { rewrite (dim_run _ _ _ Hr). reflexivity. }
  assert (Hi : inv1 st). { eapply inv1_run; [apply inv1_empty|exact Hm|exact Hr]. }
  assert (Hc : const_clean st).
  { eapply clean_run; [apply inv1_empty| |exact Hm|exact Hr]. intros x Hx. destruct x as [|[|x]]; [reflexivity|reflexivity|lia]. }
  assert (Hns : forall c d, inb (cl_dim cl) c -> cz c = cz d -> touch (cl_topo cl) c d -> ~ same_spot c (live (cx d) (cy d) (cz d))).
  { intros c d Hcb Hz Htc [E1 E2]. cbn [live cx cy] in *. destruct d as [dd xx yy zz]. cbn [cx cy cz] in *. subst.
    destruct c as [dc xc yc zc]. destruct Hcb as (Hdc & _). cbn [cd cx cy cz] in *. subst. destruct (cl_topo cl); unfold touch, square_touch, hex_touch, hex_disp, hex_px, hex_py in Htc; cbn [cx cy cz] in Htc; [lia|].
    destruct a; destruct Htc as (_ & [(sx & sy & ? & ? & ? & ?)|(sx & ? & ? & ?)]); lia. }
  destruct (flow_touches cl ops st rc t Hr Hm Hd Ht) as [F1 F2].
  assert (Din : forall i, In i (incoming_data_flow rc st t) -> inb (cl_dim cl) i /\ ~ same_spot i t).
  { intros i Hin. destruct (F1 i Hin) as [H1 H2]. split; [exact H1|]. apply touch_sym in H2.
    specialize (Hns i (live (cx t) (cy t) (cz i)) H1 eq_refl H2). exact Hns. }
  assert (Dout : forall o, In o (outgoing_data_flow rc st t) -> inb (cl_dim cl) o /\ ~ same_spot o t).
  { intros o Hin. destruct (F2 o Hin) as [H1 H2]. split; [exact H1|]. intros [E1 E2].
    apply (Hns t (live (cx o) (cy o) (cz t)) Ht eq_refl H2). split; cbn [live cx cy]; congruence. }
  assert (Hdr : (dir (cl_dim cl) t = t /\ forall c, inb (cl_dim cl) c -> ~ (cx c = cx t + dx /\ cy c = cy t + dy)) \/
                (inb (cl_dim cl) (dir (cl_dim cl) t) /\ cx (dir (cl_dim cl) t) = cx t + dx /\ cy (dir (cl_dim cl) t) = cy t + dy)).
  { destruct Ht as (D & X & Y & Zz). simpl in Hdir.
    destruct Hdir as [E|[E|[E|[E|[]]]]]; inversion E; subst; unfold north, south, east, west, inb; destruct t as [dt xt yt zt]; cbn [cd cx cy cz] in *.
    - destruct (yt =? 0) eqn:E1; [left; split; [reflexivity|intros c (_ & ? & ? & _) [? ?]; lia]|right; cbn [cd cx cy cz]; repeat split; auto; lia].
    - destruct (cy (cl_dim cl) <? yt) eqn:E1; [lia|]. destruct (yt <? cy (cl_dim cl)) eqn:E2; [right; cbn [cd cx cy cz]; repeat split; auto; lia|left; split; [reflexivity|intros c (_ & ? & ? & _) [? ?]; lia]].
    - destruct (cx (cl_dim cl) <? xt) eqn:E1; [lia|]. destruct (xt <? cx (cl_dim cl)) eqn:E2; [right; cbn [cd cx cy cz]; repeat split; auto; lia|left; split; [reflexivity|intros c (_ & ? & ? & _) [? ?]; lia]].
    - destruct (xt =? 0) eqn:E1; [left; split; [reflexivity|intros c (_ & ? & ? & _) [? ?]; lia]|right; cbn [cd cx cy cz]; repeat split; auto; lia]. }
  destruct (C44_signals cl ops st rc t (dir (cl_dim cl) t) Hr Hm Hd Ht) as (S1 & S2 & _).
  unfold has_incoming_from, has_outgoing_to. rewrite Ed. rewrite S1, S2. unfold same_spot.
  destruct Hdr as [[E Hno]|(Hib & E1 & E2)].
  - rewrite E. split; split.
    + intros (_ & i & Hin & Hs). exfalso. apply (Din i Hin). exact Hs.
    + intros (i & Hin & Hs). exfalso. apply (Hno i); [apply Din, Hin|exact Hs].
    + intros (_ & i & Hin & Hs). exfalso. apply (Dout i Hin). exact Hs.
    + intros (i & Hin & Hs). exfalso. apply (Hno i); [apply Dout, Hin|exact Hs].
  - rewrite E1, E2. split; (split; [intros (_ & H); exact H|intros H; split; [exact Hib|exact H]]).
Qed.
Print Assumptions C44_directions.

(** Opposite signals: data flows straight through the tile. *)
Theorem C44_opposite : forall cl ops st rc t, reached cl ops st -> moves_no_constant ops -> dim_ok (cl_dim cl) ->
  inb (cl_dim cl) t ->
  (has_opposite_incoming_and_outgoing_signals rc st t = true <->
   exists i o, In i (incoming_data_flow rc st t) /\ In o (outgoing_data_flow rc st t) /\ opposite_sides (cl_topo cl) t i o).
Proof.
  intros cl ops st rc t Hr Hm Hd Ht.
  assert (Ed : cl_dim (g_cl st) = cl_dim cl). { rewrite (dim_run _ _ _ Hr). reflexivity. }
  assert (Et : cl_topo (g_cl st) = cl_topo cl). { rewrite (topo_run _ _ _ Hr). reflexivity. }
  destruct (flow_touches cl ops st rc t Hr Hm Hd Ht) as [F1 F2].
  unfold has_opposite_incoming_and_outgoing_signals. rewrite Et, Ed. cbv zeta.
  set (pairs := match cl_topo cl with Cartesian => _ | Hex a => _ end).
  assert (Hp1 : forall p q, In (p, q) pairs -> opposite_sides (cl_topo cl) t p q /\ opposite_sides (cl_topo cl) t q p).
  { intros p q. unfold pairs. destruct (cl_topo cl) as [|a].
    - intros H. apply C08_opposites in H as (_ & _ & _ & _ & H); [|exact Ht]. unfold opposite_sides. lia.
    - intros H. destruct (C10_opposites a (cl_dim cl) t Hd Ht) as [H1 _]. destruct (H1 p q H) as (_ & _ & _ & _ & dx & dy & [? ?] & [? ?]).
      unfold opposite_sides. lia. }
  assert (Hflat : forall i, inb (cl_dim cl) i -> inb (cl_dim cl) (live (cx i) (cy i) (cz t))).
  { intros i (_ & X & Y & _). destruct Ht as (_ & _ & _ & Zt). unfold inb. cbn [live cd cx cy cz]. auto. }
  assert (Hp2 : forall i o, inb (cl_dim cl) i -> inb (cl_dim cl) o ->
    touch (cl_topo cl) t (live (cx i) (cy i) (cz t)) -> touch (cl_topo cl) t (live (cx o) (cy o) (cz t)) ->
    opposite_sides (cl_topo cl) t i o ->
    In (live (cx i) (cy i) (cz t), live (cx o) (cy o) (cz t)) pairs \/ In (live (cx o) (cy o) (cz t), live (cx i) (cy i) (cz t)) pairs).
  { intros i o Hib Hob Hti Hto Hop. apply Hflat in Hib, Hob. unfold pairs. destruct (cl_topo cl) as [|a].
    - rewrite !C08_opposites by exact Ht. unfold touch, square_touch, opposite_sides in *. cbn [live cx cy cz] in *.
      assert (H : (cx i = cx t /\ cx o = cx t /\ cy i = cy t - 1 /\ cy o = cy t + 1) \/ (cx i = cx t /\ cx o = cx t /\ cy o = cy t - 1 /\ cy i = cy t + 1) \/
                  (cy i = cy t /\ cy o = cy t /\ cx i = cx t + 1 /\ cx o = cx t - 1) \/ (cy i = cy t /\ cy o = cy t /\ cx o = cx t + 1 /\ cx i = cx t - 1)) by lia.
      intuition lia.
    - destruct (C10_opposites a (cl_dim cl) t Hd Ht) as [_ H2].
      apply (H2 _ _ (hex_px a i - hex_px a t) (hex_py a i - hex_py a t)); auto.
      + split; destruct a; reflexivity.
      + unfold opposite_sides in Hop. split.
        * replace (hex_px a (live (cx o) (cy o) (cz t))) with (hex_px a o) by (destruct a; reflexivity). lia.
        * replace (hex_py a (live (cx o) (cy o) (cz t))) with (hex_py a o) by (destruct a; reflexivity). lia. }
  assert (Hside : forall p q i o, same_spot i p -> same_spot o q -> opposite_sides (cl_topo cl) t p q -> opposite_sides (cl_topo cl) t i o).
  { intros p q i o [E1 E2] [E3 E4]. unfold opposite_sides. destruct (cl_topo cl) as [|a]; [rewrite E1, E2, E3, E4; auto|].
    unfold hex_px, hex_py. destruct a; rewrite E1, E2, E3, E4; auto. }
  assert (S : forall p, (is_incoming_signal rc st t p = true <-> inb (cl_dim cl) p /\ exists i, In i (incoming_data_flow rc st t) /\ same_spot i p) /\
                        (is_outgoing_signal rc st t p = true <-> inb (cl_dim cl) p /\ exists o, In o (outgoing_data_flow rc st t) /\ same_spot o p)).
  { intros p. destruct (C44_signals cl ops st rc t p Hr Hm Hd Ht) as (S1 & S2 & _). auto. }
  rewrite existsb_exists. split.
  - intros ((p & q) & Hpq & H). cbn [fst snd] in H. destruct (Hp1 p q Hpq) as [O1 O2].
    rewrite orb_true_iff, !andb_true_iff in H. destruct H as [[H1 H2]|[H1 H2]];
    apply S in H1 as (_ & i & Hi & Ei); apply S in H2 as (_ & o & Ho & Eo); exists i, o; eauto.
  - intros (i & o & Hi & Ho & Hop). destruct (F1 i Hi) as [Bi Ti]. destruct (F2 o Ho) as [Bo To].
    assert (Ti' : touch (cl_topo cl) t (live (cx i) (cy i) (cz t))).
    { revert Ti. destruct (cl_topo cl) as [|a]; unfold touch, square_touch, hex_touch, hex_disp, hex_px, hex_py; cbn [live cx cy cz]; [lia|].
      destruct a; cbn [pointy]; intros [_ H]; (split; [reflexivity|exact H]). }
    assert (Si : is_incoming_signal rc st t (live (cx i) (cy i) (cz t)) = true).
    { apply S. split; [apply Hflat, Bi|]. exists i. split; [exact Hi|split; reflexivity]. }
    assert (So : is_outgoing_signal rc st t (live (cx o) (cy o) (cz t)) = true).
    { apply S. split; [apply Hflat, Bo|]. exists o. split; [exact Ho|split; reflexivity]. }
    destruct (Hp2 i o Bi Bo Ti' To Hop) as [H|H]; (eexists; split; [exact H|]); cbn [fst snd]; rewrite Si, So, ?orb_true_r; reflexivity.
Qed.
Print Assumptions C44_opposite.

Example C44_nonvacuous : exists st, reached ex_cl ex_ops st /\ inb (cl_dim ex_cl) (live 1 1 0) /\
  map (fun d => has_incoming_from d true st (live 1 1 0)) [north; south; east; west] = [true; false; false; true] /\
  map (fun d => has_outgoing_to d true st (live 1 1 0)) [north; south; east; west] = [false; false; true; false] /\
  has_opposite_incoming_and_outgoing_signals true st (live 1 1 0) = true.
Proof.
  run_to ex_cl ex_ops. split; [unfold inb; cbn; lia|]. compute_all.
Qed.
