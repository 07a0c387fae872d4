(** C93: writing a gate-level layout to an FGL file and reading it back. *)
From Coq Require Import ZArith Bool String Ascii List Lia Permutation.
From stdpp Require Import gmap list strings.
From Verif Require Import CoordModel CoordSpec CoordProofs GridModel GridSpec GridProps CoordMap ClockModel ClockSpec ClockProofs
  GateModel GateSpec GateProofs GateProps RouteModel RouteSpec RouteProofs FglModel FglSpec FglProofs3 FglProofs4 FglProofs5 DetclkProps.
From Coq Require Import String List.
Import ListNotations.
Local Open Scope Z_scope.

(** A finished layout is written without an error. Reading the file into an empty layout of the same topology gives the same
    layout back, and its name. *)
Theorem C93_round_trip : forall cl ops st name name0 cl0, fgl_input cl ops st -> plain name = true -> cl_topo cl0 = cl_topo cl ->
  exists doc st', write_fgl name st = Ok doc /\ read_fgl name0 (g_empty cl0) doc = Ok (if blank name then name0 else name, st') /\ same_layout st st'.
Proof. intros cl ops st name name0 cl0 H P T. destruct (round_trip cl ops st name name0 cl0 H P T) as (doc & st' & A & B & C & _). eauto. Qed.
Print Assumptions C93_round_trip.
(** If no output drives anything, the outputs come back in their order. *)
Theorem C93_output_order : forall cl ops st st', fgl_input cl ops st -> outputs_last st -> reread st = Ok st' -> outputs_of st' = outputs_of st.
Proof.
  intros cl ops st st' H O E. pose proof (proj1 (gate_cl_shape _ _ _ (fg_run _ _ _ H))) as T.
  destruct (round_trip cl ops st "layout" "" (mkCL (cl_topo (g_cl st)) (live 0 0 0) (clocking (cl_topo (g_cl st)) (OPEN FOUR))) H eq_refl T) as (doc & st2 & A & B & _ & D).
  unfold reread in E. rewrite A in E. cbn [rbind] in E. rewrite B in E. cbn [rbind] in E. injection E as <-. apply D, O.
Qed.
Print Assumptions C93_output_order.
(** A written file is not read into a layout of another topology. *)
Theorem C93_topology : forall name st doc name0 st0, plain name = true -> write_fgl name st = Ok doc -> cl_topo (g_cl st0) <> cl_topo (g_cl st) ->
  read_fgl name0 st0 doc = Throws.
Proof.
  intros name st doc name0 st0 P E N. unfold write_fgl in E. destruct (topo_gates st) as [gates|]; [|discriminate]. cbv zeta in E.
  match type of E with rbind ?x _ = _ => destruct x as [fs| |]; cbn [rbind] in E; try discriminate E end. injection E as <-.
  eapply (other_topology _ _ _ (topology_name (cl_topo (g_cl st)))); [reflexivity|reflexivity|destruct (cl_topo (g_cl st)) as [|[]]; split; reflexivity| |].
  - cbn. unfold blank in *. destruct (all_chars is_space name); [discriminate|]. rewrite P. discriminate.
  - intros K. apply N. destruct (cl_topo (g_cl st)) as [|[]], (cl_topo (g_cl st0)) as [|[]]; try discriminate K; reflexivity.
Qed.
Print Assumptions C93_topology.

(** ** Deciding that a layout is finished, for the examples *)
Definition name_ok (s : string) : bool := negb (blank s) && plain s.
Definition no_flow (st : glayout) (t : coord) : bool := match incoming_data_flow true st t with [] => true | _ => false end.
Definition all_fns : list gate_fn := [Fbuf; Fnot; Fand; Fnand; For; Fnor; Flt; Fge; Fgt; Fle; Fxor; Fxnor; Fmaj].
Definition coord_in (t : coord) (l : list coord) : bool := existsb (fun u => bool_decide (u = t)) l.
Fixpoint used_b (fuel : nat) (st : glayout) (t : coord) : bool :=
  coord_in t (g_out st) ||
  match fuel with O => false | S f => existsb (fun u => coord_in t (incoming_data_flow true st u) && used_b f st u) (tiles_of st) end.
Definition finished_b (st : glayout) (rank : coord -> nat) : bool :=
  forallb (fun n => negb (cd (get_tile st n)) && no_flow st (get_tile st n) && name_ok (get_name st n)) (g_in st) &&
  forallb (fun t => bool_decide (occupied st t) && is_wire st (get_node st t) && negb (is_pi st (get_node st t)) && name_ok (get_name st (get_node st t))) (g_out st) &&
  bool_decide (base.NoDup (g_out st)) &&
  forallb (fun t => is_pi st (get_node st t) ||
    (existsb (fun f => (n_lit (node_at st (get_node st t)) =? lit_of f) && Nat.eqb (length (incoming_data_flow true st t)) (arity f)) all_fns &&
     used_b 3 st t)) (tiles_of st) &&
  forallb (fun n => forallb (fun s => Nat.ltb (rank s) (rank (get_tile st n))) (foreach_fanin true st n)) (seq 0 (length (g_nodes st))).
Lemma coord_in_spec t l : coord_in t l = true -> In t l.
Proof. unfold coord_in. rewrite existsb_exists. intros (u & H & E). apply bool_decide_eq_true in E. subst u. exact H. Qed.
Lemma used_b_spec st fuel : forall t, used_b fuel st t = true -> used st t.
Proof.
  induction fuel as [|f IH]; intros t H; cbn [used_b] in H; apply orb_true_iff in H; destruct H as [H|H]; try (apply used_output, coord_in_spec, H); [discriminate H|].
  apply existsb_exists in H. destruct H as (u & _ & H). apply andb_true_iff in H. destruct H as [H1 H2]. eapply used_next; [apply coord_in_spec, H1|apply IH, H2].
Qed.
Lemma name_ok_spec s : name_ok s = true -> printable s.
Proof. unfold name_ok. rewrite andb_true_iff, negb_true_iff. auto. Qed.
Lemma finished_check st rank : wf st -> finished_b st rank = true -> finished st.
Proof.
  intros W H. unfold finished_b in H. rewrite !andb_true_iff in H. destruct H as [[[[H1 H2] H3] H4] H5]. rewrite forallb_forall in H1, H2, H5.
  constructor.
  - intros n Hn. specialize (H1 n Hn). rewrite !andb_true_iff in H1. destruct H1 as [[A B] C]. apply negb_true_iff in A. split; [exact A|]. split; [|apply name_ok_spec, C].
    unfold no_flow in B. destruct (incoming_data_flow true st (get_tile st n)); [reflexivity|discriminate].
  - intros t Ht. specialize (H2 t Ht). rewrite !andb_true_iff in H2. destruct H2 as [[[A B] C] D]. apply bool_decide_eq_true in A. apply negb_true_iff in C.
    split; [exact A|]. split; [exact B|]. split; [exact C|apply name_ok_spec, D].
  - apply bool_decide_eq_true in H3. apply NoDup_ListNoDup, H3.
  - intros t O NP. pose proof (occ_check st _ W H4 t O) as K. cbv beta in K. rewrite NP in K. cbn [orb] in K. apply andb_true_iff in K. destruct K as [K _].
    apply existsb_exists in K. destruct K as (f & _ & K). apply andb_true_iff in K. destruct K as [K1 K2]. exists f. split; [apply Z.eqb_eq, K1|apply Nat.eqb_eq, K2].
  - intros t O NP. pose proof (occ_check st _ W H4 t O) as K. cbv beta in K. rewrite NP in K. cbn [orb] in K. apply andb_true_iff in K. destruct K as [_ K]. eapply used_b_spec, K.
  - exists rank. intros s t Hf. unfold flows, incoming_data_flow in Hf. unfold get_node in Hf.
    destruct (g_tn st !! t) as [n|] eqn:E; [|destruct Hf]. cbn [default] in Hf.
    pose proof (i_rng _ (i_0 _ (w_1 _ W)) _ _ E) as R. pose proof (proj1 (i_bij _ (i_0 _ (w_1 _ W)) t n) E) as E2.
    specialize (H5 n ltac:(apply in_seq; lia)). rewrite forallb_forall in H5. specialize (H5 s Hf). apply Nat.ltb_lt in H5.
    assert (get_tile st n = t) as ET by (unfold get_tile; rewrite E2; reflexivity). rewrite ET in H5. exact H5.
Qed.
Lemma last_check st : wf st -> forallb (fun n => forallb (fun s => negb (coord_in s (g_out st))) (foreach_fanin true st n)) (seq 0 (length (g_nodes st))) = true -> outputs_last st.
Proof.
  intros W K s t Hs Hf. rewrite forallb_forall in K. unfold flows, incoming_data_flow in Hf.
  assert (L : (get_node st t < length (g_nodes st))%nat).
  { unfold get_node. destruct (g_tn st !! t) as [n|] eqn:E; [exact (i_rng _ (i_0 _ (w_1 _ W)) _ _ E)|]. pose proof (i_two _ (i_0 _ (w_1 _ W))). cbn [default]. lia. }
  specialize (K (get_node st t) ltac:(apply in_seq; lia)). rewrite forallb_forall in K. specialize (K s Hf). apply negb_true_iff in K.
  assert (coord_in s (g_out st) = true) as K2 by (unfold coord_in; apply existsb_exists; exists s; split; [exact Hs|apply bool_decide_eq_true; reflexivity]). congruence.
Qed.
Definition ground_b (ops : list gop) : bool := forallb (fun o => match o with AssignClock t _ => cz t =? 0 | _ => true end) ops.
Lemma input_fgl cl ops rank v : cl_scheme cl = clocking (cl_topo cl) v -> get_clocking_scheme (cl_topo cl) (sc_name (clocking (cl_topo cl) v)) = Some (clocking (cl_topo cl) v) ->
  match g_run (g_empty cl) ops with Some _ => true | None => false end = true -> moves_no_constant ops -> dim_ok (cl_dim cl) /\ cd (cl_dim cl) = false -> places_inside (cl_dim cl) ops ->
  ground_b ops = true -> (Z.of_nat (length (g_nodes (final cl ops))) <? 2 ^ 31) = true -> finished_b (final cl ops) rank = true -> fgl_input cl ops (final cl ops).
Proof.
  intros V G R M D P Gr Sz Fi. pose proof (reached_final cl ops R) as RF. constructor; auto.
  - rewrite V. exact G.
  - intros t k H. unfold ground_b in Gr. rewrite forallb_forall in Gr. specialize (Gr _ H). apply Z.eqb_eq, Gr.
  - apply Z.ltb_lt, Sz.
  - eapply finished_check; [exact (wf_reached _ _ _ RF M (proj1 D) P)|exact Fi].
Qed.
Definition slope (t : coord) : nat := Z.to_nat (cx t + cy t).

(** ** What is lost *)
Lemma reread_proj {A} (f : glayout -> A) st a : (match reread st with Ok s => Some (f s) | _ => None end) = Some a -> exists st', reread st = Ok st' /\ f st' = a.
Proof. destruct (reread st) as [s| |]; try discriminate. intros [= <-]. eauto. Qed.
Lemma occ_by st t : bool_decide (occupied st t) = true -> occupied st t.
Proof. intros H. exact (proj1 (bool_decide_eq_true _) H). Qed.
Ltac placed_inside := repeat constructor; unfold inb; simpl; intros; repeat split; lia.

(** A wire on three-phase 2DDWAVE clocking comes back with four phases: the name in the file is the same for both. *)
Definition wave3_cl : clocked := std_layout Cartesian (live 2 2 1) (TWODDWAVE THREE).
Definition pair_ops : list gop := [CreatePi "a" (live 0 0 0); CreatePo (live 0 0 0) "f" (live 1 0 0)].
Theorem C93_three_phases_refuted : exists cl ops st st', reached cl ops st /\ places_inside (cl_dim cl) ops /\ finished st /\
  num_clocks (g_cl st) = 3 /\ reread st = Ok st' /\ num_clocks (g_cl st') = 4.
Proof.
  set (st := final wave3_cl pair_ops).
  assert (R : reached wave3_cl pair_ops st) by (apply reached_final; vm_compute; reflexivity).
  assert (P : places_inside (cl_dim wave3_cl) pair_ops) by placed_inside.
  assert (W : wf st) by (apply (wf_reached wave3_cl pair_ops); [exact R|repeat constructor|unfold dim_ok; cbn; lia|exact P]).
  destruct (reread_proj (fun s => num_clocks (g_cl s)) st 4) as (st' & E1 & E2); [vm_compute; reflexivity|].
  exists wave3_cl, pair_ops, st, st'. split; [exact R|]. split; [exact P|]. split; [apply (finished_check st slope W); vm_compute; reflexivity|].
  split; [vm_compute; reflexivity|]. split; [exact E1|exact E2].
Qed.
Print Assumptions C93_three_phases_refuted.

(** Clock numbers of the crossing layer are not written: the connection through it is lost. *)
Definition above_cl : clocked := std_layout Cartesian (live 2 2 1) (TWODDWAVE FOUR).
Definition above_ops : list gop :=
  [CreatePi "a" (live 0 0 0); CreateLit [live 0 0 0] 2 (live 1 0 1); CreatePo (live 1 0 1) "f" (live 2 0 0);
   AssignClock (live 0 0 0) 3; AssignClock (live 1 0 1) 0; AssignClock (live 2 0 0) 1].
Theorem C93_crossing_clocks_refuted : exists cl ops st st' t, reached cl ops st /\ places_inside (cl_dim cl) ops /\ finished st /\
  get_clocking_scheme (cl_topo cl) (sc_name (cl_scheme cl)) = Some (cl_scheme cl) /\ occupied st t /\
  reread st = Ok st' /\ get_clock_number (g_cl st') t <> get_clock_number (g_cl st) t /\ incoming_data_flow true st' t <> incoming_data_flow true st t.
Proof.
  set (st := final above_cl above_ops).
  assert (R : reached above_cl above_ops st) by (apply reached_final; vm_compute; reflexivity).
  assert (P : places_inside (cl_dim above_cl) above_ops) by placed_inside.
  assert (W : wf st) by (apply (wf_reached above_cl above_ops); [exact R|repeat constructor|unfold dim_ok; cbn; lia|exact P]).
  destruct (reread_proj (fun s => (get_clock_number (g_cl s) (live 1 0 1), incoming_data_flow true s (live 1 0 1))) st (1, [])) as (st' & E1 & E2); [vm_compute; reflexivity|].
  exists above_cl, above_ops, st, st', (live 1 0 1). split; [exact R|]. split; [exact P|]. split; [apply (finished_check st slope W); vm_compute; reflexivity|].
  split; [reflexivity|]. split; [apply occ_by; vm_compute; reflexivity|]. split; [exact E1|].
  apply pair_equal_spec in E2. destruct E2 as [E2 E3]. rewrite E2, E3. split; intros K; vm_compute in K; discriminate K.
Qed.
Print Assumptions C93_crossing_clocks_refuted.

(** A gate from which no output is reached is not written. *)
Definition unused_ops : list gop := [CreatePi "a" (live 0 0 0); CreatePo (live 0 0 0) "f" (live 1 0 0); CreateLit [live 0 0 0] 3 (live 0 1 0)].
Theorem C93_unused_refuted : exists cl ops st st' t, reached cl ops st /\ places_inside (cl_dim cl) ops /\ occupied st t /\
  incoming_data_flow true st t <> [] /\ reread st = Ok st' /\ is_empty_tile st' t = true.
Proof.
  set (st := final above_cl unused_ops).
  assert (R : reached above_cl unused_ops st) by (apply reached_final; vm_compute; reflexivity).
  destruct (reread_proj (fun s => is_empty_tile s (live 0 1 0)) st true) as (st' & E1 & E2); [vm_compute; reflexivity|].
  exists above_cl, unused_ops, st, st', (live 0 1 0). split; [exact R|]. split; [placed_inside|]. split; [apply occ_by; vm_compute; reflexivity|].
  split; [intros K; vm_compute in K; discriminate K|]. split; [exact E1|exact E2].
Qed.
Print Assumptions C93_unused_refuted.

(** An input whose tile has been cleared is written with a tile of its own, and is there after reading. *)
Definition cleared_ops : list gop :=
  [CreatePi "a" (live 0 1 0); CreatePi "b" (live 1 0 0); CreatePo (live 1 0 0) "f" (live 2 0 0); ClearTile (live 0 1 0)].
Theorem C93_cleared_input_refuted : exists cl ops st st' t, reached cl ops st /\ places_inside (cl_dim cl) ops /\ is_empty_tile st t = true /\
  reread st = Ok st' /\ cd t = false /\ is_empty_tile st' t = false /\ num_wires st' = num_wires st + 1.
Proof.
  set (st := final above_cl cleared_ops).
  assert (R : reached above_cl cleared_ops st) by (apply reached_final; vm_compute; reflexivity).
  destruct (reread_proj (fun s => (is_empty_tile s (live 0 0 0), num_wires s)) st (false, 3)) as (st' & E1 & E2); [vm_compute; reflexivity|].
  exists above_cl, cleared_ops, st, st', (live 0 0 0). split; [exact R|]. split; [placed_inside|]. split; [vm_compute; reflexivity|].
  split; [exact E1|]. split; [reflexivity|]. apply pair_equal_spec in E2. destruct E2 as [E2 E3]. split; [exact E2|]. rewrite E3. vm_compute. reflexivity.
Qed.
Print Assumptions C93_cleared_input_refuted.

(** A layout with an output that nothing flows into, because it is too far away, is written but the file is refused. *)
Definition far_ops : list gop := [CreatePi "a" (live 0 0 0); CreatePo (live 0 0 0) "f" (live 2 0 0)].
Theorem C93_unconnected_refuted : exists cl ops st doc, reached cl ops st /\ places_inside (cl_dim cl) ops /\ write_fgl "layout" st = Ok doc /\ reread st = Throws.
Proof.
  set (st := final above_cl far_ops).
  assert (R : reached above_cl far_ops st) by (apply reached_final; vm_compute; reflexivity).
  destruct (write_fgl "layout" st) as [doc| |] eqn:E.
  2, 3: exfalso; assert (K : match write_fgl "layout" st with Ok _ => true | _ => false end = true) by (vm_compute; reflexivity); rewrite E in K; discriminate K.
  exists above_cl, far_ops, st, doc. split; [exact R|]. split; [placed_inside|]. split; [exact E|]. vm_compute. reflexivity.
Qed.
Print Assumptions C93_unconnected_refuted.

(** If an output drives another one that was created earlier, the two change places. *)
Definition chain_ops : list gop := [CreatePi "a" (live 0 0 0); CreatePo (live 1 0 0) "g" (live 2 0 0); CreatePo (live 0 0 0) "f" (live 1 0 0)].
Lemma chain_input : fgl_input above_cl chain_ops (final above_cl chain_ops).
Proof.
  apply (input_fgl above_cl chain_ops slope (TWODDWAVE FOUR));
    [reflexivity|reflexivity|vm_compute; reflexivity|repeat constructor|split; [unfold dim_ok; cbn; lia|reflexivity]|placed_inside|vm_compute; reflexivity..].
Qed.
Theorem C93_output_order_refuted : exists cl ops st st', fgl_input cl ops st /\ reread st = Ok st' /\
  map snd (outputs_of st) = ["g"; "f"]%string /\ map snd (outputs_of st') = ["f"; "g"]%string.
Proof.
  destruct (reread_proj (fun s => map snd (outputs_of s)) (final above_cl chain_ops) ["f"; "g"]%string) as (st' & E1 & E2); [vm_compute; reflexivity|].
  exists above_cl, chain_ops, (final above_cl chain_ops), st'. split; [exact chain_input|]. split; [exact E1|]. split; [vm_compute; reflexivity|exact E2].
Qed.
Print Assumptions C93_output_order_refuted.

(** A file that numbers an output before the gate that drives it is read without an error, but the two are not connected. *)
Definition late_file : xml :=
  Elem "fgl" "" [layout_xml "late" above_cl;
    Elem "gates" "" [fun_xml (mkFG 0 "PO" "f" (live 1 0 0) [live 0 0 0]); pi_xml (mkFG 1 "PI" "a" (live 0 0 0) [])]].
Theorem C93_numbering_refuted : exists s st', read_fgl "" (g_empty above_cl) late_file = Ok (s, st') /\
  is_empty_tile st' (live 0 0 0) = false /\ is_empty_tile st' (live 1 0 0) = false /\ n_children (node_at st' (get_node st' (live 1 0 0))) = [const0].
Proof.
  destruct (read_fgl "" (g_empty above_cl) late_file) as [[s st']| |] eqn:E.
  2, 3: exfalso; assert (K : match read_fgl "" (g_empty above_cl) late_file with Ok _ => true | _ => false end = true) by (vm_compute; reflexivity); rewrite E in K; discriminate K.
  exists s, st'. split; [reflexivity|].
  assert (K : match read_fgl "" (g_empty above_cl) late_file with Ok (_, x) => (is_empty_tile x (live 0 0 0), is_empty_tile x (live 1 0 0), n_children (node_at x (get_node x (live 1 0 0)))) | _ => (true, true, []) end
      = (false, false, [const0])) by (vm_compute; reflexivity).
  rewrite E in K. injection K as K1 K2 K3. auto.
Qed.
Print Assumptions C93_numbering_refuted.

(** An AND of two inputs, with a wire in the crossing layer and a changed clock number. *)
Definition and_ops : list gop :=
  [CreatePi "a" (live 0 1 0); CreatePi "b" (live 1 0 0); CreateLit [live 0 1 0; live 1 0 0] 4 (live 1 1 0);
   CreateLit [live 1 1 0] 2 (live 2 1 1); CreatePo (live 2 1 1) "f" (live 2 2 0); AssignClock (live 0 0 0) 2].
Lemma and_input : fgl_input above_cl and_ops (final above_cl and_ops).
Proof.
  apply (input_fgl above_cl and_ops slope (TWODDWAVE FOUR));
    [reflexivity|reflexivity|vm_compute; reflexivity|repeat constructor|split; [unfold dim_ok; cbn; lia|reflexivity]|placed_inside|vm_compute; reflexivity..].
Qed.
Example C93_nonvacuous : exists cl ops st st', fgl_input cl ops st /\ outputs_last st /\ reread st = Ok st' /\
  num_gates st' = 1 /\ num_wires st' = 4 /\ incoming_data_flow true st' (live 1 1 0) = [live 0 1 0; live 1 0 0] /\ get_clock_number (g_cl st') (live 0 0 0) = 2.
Proof.
  destruct (reread_proj (fun s => (num_gates s, num_wires s, incoming_data_flow true s (live 1 1 0), get_clock_number (g_cl s) (live 0 0 0))) (final above_cl and_ops)
    (1, 4, [live 0 1 0; live 1 0 0], 2)) as (st' & E1 & E2); [vm_compute; reflexivity|].
  exists above_cl, and_ops, (final above_cl and_ops), st'. split; [exact and_input|]. split.
  - apply last_check; [exact (HW _ _ _ and_input)|vm_compute; reflexivity].
  - split; [exact E1|]. repeat (apply pair_equal_spec in E2; destruct E2 as [E2 ?]). auto.
Qed.
Example C93_topology_nonvacuous : exists doc, write_fgl "layout" (final above_cl pair_ops) = Ok doc /\ cl_topo (g_cl (g_empty (std_layout (Hex EvenRow) (live 1 1 0) (ROW FOUR)))) <> cl_topo (g_cl (final above_cl pair_ops)).
Proof.
  destruct (write_fgl "layout" (final above_cl pair_ops)) as [doc| |] eqn:E.
  2, 3: exfalso; assert (K : match write_fgl "layout" (final above_cl pair_ops) with Ok _ => true | _ => false end = true) by (vm_compute; reflexivity); rewrite E in K; discriminate K.
  exists doc. split; [reflexivity|]. vm_compute. discriminate.
Qed.
