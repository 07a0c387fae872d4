(** Proofs about the application of gate libraries: the cells of the result. *)
From Coq Require Import ZArith Lia Bool String List.
From stdpp Require Import gmap.
From Verif Require Import CoordModel CoordSpec CoordProofs GridModel GridSpec CoordMap ClockModel GateModel GateSpec GateProofs GateProofs2 GateProofs3 CellModel CellSpec CellProofs
  RouteModel RouteSpec RouteProofs LibModel LibSpec LibProofs.
Import List ListNotations.
Local Open Scope Z_scope.

Section Apply.
Context (T : tech) (HT : In T technologies) (gx gy : Z) (p : plan) (lib : library) (HL : library_size gx gy lib)
  (st : glayout) (HW : wf st) (HF : fits gx gy (cl_dim (g_cl st))) (HA : all_placed st).

Definition todo : list nat := List.filter (fun n => negb (is_constant n)) (foreach_node st).

Lemma todo_hosts n : In n todo -> hosts st (get_tile st n) /\ get_node st (get_tile st n) = n.
Proof using HW HA.
  unfold todo, foreach_node. rewrite !filter_In, in_seq, !negb_true_iff. unfold is_constant. rewrite Nat.leb_gt. intros (((_ & L) & D) & C).
  pose proof (HA n ltac:(lia) D) as P. unfold placed in P. unfold get_tile in *. destruct (g_nt st !! n) as [t|] eqn:E; [|discriminate P]. cbn in *.
  pose proof E as E'. apply (i_bij _ (i_0 _ HW)) in E'.
  assert (N : get_node st t = n) by (unfold get_node; rewrite E'; reflexivity).
  split; [|exact N]. split; [|rewrite N; exact D]. split; [eapply (w_in _ HW); eassumption|]. unfold is_empty_tile. rewrite N. apply Nat.eqb_neq. lia.
Qed.
Lemma hosts_todo t : hosts st t -> In (get_node st t) todo /\ get_tile st (get_node st t) = t.
Proof using HW.
  intros [[I E] D]. assert (G : get_tile st (get_node st t) = t) by (apply tile_node; [apply HW|apply I|exact E]). split; [|exact G].
  unfold todo, foreach_node. rewrite !filter_In, in_seq, !negb_true_iff. unfold is_empty_tile in E. 
  assert (X : (2 <= get_node st t < List.length (g_nodes st))%nat).
  { unfold get_node in *. destruct (g_tn st !! t) as [n|] eqn:En; [|discriminate E]. cbn in *.
    split; [apply (i_live _ HW t); [exact En|apply I]|apply (i_rng _ (i_0 _ HW) t); exact En]. }
  repeat split; [lia|lia|exact D|]. unfold is_constant. apply Nat.leb_gt. lia.
Qed.

(** Which cells are assigned. *)
Definition cell_claim (t : coord) (c : coord) (ct : Z) : Prop :=
  exists g x y, lib st t = Some g /\ in_gate gx gy x y /\ c = cell_of gx gy p t x y /\ ct = gate_cell T g x y.
Lemma gate_nth g x y ct : gate_size gx gy g ->
  (in_gate gx gy x y /\ ct = gate_cell T g x y) <-> (exists row, nth_error g (Z.to_nat y) = Some row /\ nth_error row (Z.to_nat x) = Some ct) /\ 0 <= x /\ 0 <= y.
Proof using.
  intros [S1 S2]. unfold gate_cell, cell_at, in_gate. split.
  - intros ((X & Y) & ->). split; [|lia].
    destruct (nth_error g (Z.to_nat y)) as [row|] eqn:E; [|apply nth_error_None in E; lia]. exists row. split; [reflexivity|].
    rewrite (nth_error_nth _ _ _ E). apply nth_error_In in E. specialize (S2 _ E). apply nth_error_nth'. lia.
  - intros ((row & E1 & E2) & X & Y). rewrite (nth_error_nth _ _ _ E1), (nth_error_nth _ _ _ E2).
    pose proof (proj1 (nth_error_Some g (Z.to_nat y)) ltac:(congruence)). apply nth_error_In in E1. specialize (S2 _ E1).
    pose proof (proj1 (nth_error_Some row (Z.to_nat x)) ltac:(congruence)). split; [lia|reflexivity].
Qed.
Lemma calls ops o : apply_gates T gx gy p lib st todo = Some ops ->
  (In o ops <-> exists t c ct, hosts st t /\ cell_claim t c ct /\ In o (assign_cell T c (get_name st (get_node st t)) ct)).
Proof using HL HW HF HA.
  intros E. rewrite (in_gates _ _ _ _ _ _ _ _ o E). clear E. split.
  - intros (n & g & Hn & Eg & H). destruct (todo_hosts n Hn) as [HH En]. exists (get_tile st n). rewrite in_rows in H. destruct H as (j & row & i & ct & E1 & E2 & H).
    rewrite En. 
    assert (It : inb (cl_dim (g_cl st)) (get_tile st n)) by (destruct HH as [[It _] _]; exact It).
    rewrite (position gx gy _ HF _ It) in H by (destruct HF as (A & B & _); unfold in_gate; lia).
    assert (GS : in_gate gx gy (Z.of_nat i) (Z.of_nat j) /\ ct = gate_cell T g (Z.of_nat i) (Z.of_nat j)) by (apply gate_nth; [eapply HL; exact Eg|]; rewrite !Nat2Z.id; split; [exists row; auto|lia]).
    destruct GS as [GI GC]. exists (cell_of gx gy p (get_tile st n) (Z.of_nat i) (Z.of_nat j)), ct. split; [exact HH|]. split; [exists g, (Z.of_nat i), (Z.of_nat j); auto|].
    pose proof (corner_range gx gy _ HF _ It p) as (R1 & R2 & R3 & R4). pose proof HF as (F1 & F2 & F3 & F4). destruct GI as [GX GY].
    cbn [cell_of cx cy cz live] in H. rewrite !w31_id in H by lia. rewrite !Z.add_0_r in H. rewrite ?Z.add_0_l in H. exact H.
  - intros (t & c & ct & HH & (g & x & y & Eg & GI & -> & ->) & H). destruct (hosts_todo t HH) as [Hn En]. exists (get_node st t), g. split; [exact Hn|]. rewrite En. split; [exact Eg|].
    assert (It : inb (cl_dim (g_cl st)) t) by (destruct HH as [[It _] _]; exact It).
    rewrite in_rows. destruct (proj1 (gate_nth g x y _ (HL _ _ _ Eg)) (conj GI eq_refl)) as ((row & E1 & E2) & X & Y).
    exists (Z.to_nat y), row, (Z.to_nat x), (gate_cell T g x y). split; [exact E1|]. split; [exact E2|].
    rewrite (position gx gy _ HF _ It) by (destruct HF as (A & B & _); unfold in_gate; lia).
    pose proof (corner_range gx gy _ HF _ It p) as (R1 & R2 & R3 & R4). pose proof HF as (F1 & F2 & F3 & F4). destruct GI as [GX GY].
    cbn [cell_of cx cy cz live]. rewrite !Z2Nat.id by lia. rewrite !w31_id by lia. rewrite !Z.add_0_r, ?Z.add_0_l. exact H.
Qed.
Lemma call_type ops c ct : apply_gates T gx gy p lib st todo = Some ops ->
  (In (AssignType c ct) ops <-> exists t, hosts st t /\ cell_claim t c ct /\ ct <> t_empty T).
Proof using HL HW HF HA.
  intros E. rewrite (calls _ _ E). split.
  - intros (t & c' & ct' & H & C & A). unfold assign_cell, t_is_empty in A. apply in_app_iff in A as [A|A].
    + destruct (ct' =? t_empty T) eqn:X; [destruct A|]. destruct A as [A|[]]. injection A as -> ->. exists t. split; [exact H|]. split; [exact C|lia].
    + destruct (_ || _) in A; [|destruct A]. destruct A as [A|[]]. discriminate A.
  - intros (t & H & C & N). exists t, c, ct. split; [exact H|]. split; [exact C|]. unfold assign_cell, t_is_empty. apply in_app_iff. left.
    destruct (ct =? t_empty T) eqn:X; [lia|]. left; reflexivity.
Qed.
Lemma call_name ops c nm : apply_gates T gx gy p lib st todo = Some ops ->
  (In (AssignName c nm) ops <-> exists t ct, hosts st t /\ cell_claim t c ct /\ (ct = t_input T \/ ct = t_output T) /\ nm = get_name st (get_node st t)).
Proof using HL HW HF HA.
  intros E. rewrite (calls _ _ E). split.
  - intros (t & c' & ct' & H & C & A). unfold assign_cell, t_is_input, t_is_output in A. apply in_app_iff in A as [A|A].
    + destruct (t_is_empty T ct'); [destruct A|]. destruct A as [A|[]]. discriminate A.
    + destruct ((ct' =? t_input T) || (ct' =? t_output T)) eqn:X; [|destruct A]. destruct A as [A|[]]. injection A as -> <-. exists t, ct'. split; [exact H|]. split; [exact C|]. split; [lia|reflexivity].
  - intros (t & ct & H & C & N & ->). exists t, c, ct. split; [exact H|]. split; [exact C|]. unfold assign_cell, t_is_input, t_is_output. apply in_app_iff. right.
    replace ((ct =? t_input T) || (ct =? t_output T)) with true by lia. left; reflexivity.
Qed.

(** The result: all tiles with a cell at [c] agree, or there is none. *)
Lemma type_none ops c : apply_gates T gx gy p lib st todo = Some ops -> (forall t, ~ claims T gx gy p lib st c t) -> spec_type T ops c = t_empty T.
Proof using HL HW HF HA.
  intros E N. apply latest_none. intros o Ho. rewrite <- in_rev in Ho. destruct o as [c' ct| | |]; try reflexivity. destruct (coord_eqb c' c) eqn:X; [|reflexivity]. exfalso.
  apply coord_eqb_spec in X. subst c'. apply (call_type _ _ _ E) in Ho as (t & H & (g & x & y & A) & D). apply (N t). split; [exact H|]. exists g, x, y.
  destruct A as (A1 & A2 & A3 & A4). subst ct. auto.
Qed.
Lemma type_some ops c t ct : apply_gates T gx gy p lib st todo = Some ops -> hosts st t -> cell_claim t c ct -> ct <> t_empty T ->
  (forall t', claims T gx gy p lib st c t' -> t' = t) -> (forall ct', cell_claim t c ct' -> ct' = ct) -> spec_type T ops c = ct.
Proof using HL HW HF HA.
  intros E H C N U V. apply latest_all.
  - intros o a Ho Ea. rewrite <- in_rev in Ho. destruct o as [c' ct'| | |]; try discriminate Ea. destruct (coord_eqb c' c) eqn:X; [|discriminate Ea]. injection Ea as ->.
    apply coord_eqb_spec in X. subst c'. apply (call_type _ _ _ E) in Ho as (t' & H' & C' & D'). 
    assert (t' = t). { apply U. split; [exact H'|]. destruct C' as (g & x & y & A1 & A2 & A3 & A4). subst a. exists g, x, y. auto. }
    subst t'. apply V. exact C'.
  - exists (AssignType c ct). rewrite <- in_rev. split; [apply (call_type _ _ _ E); exists t; auto|]. rewrite (proj2 (coord_eqb_spec c c) eq_refl). discriminate.
Qed.
Lemma claim_unique t c ct ct' : hosts st t -> cell_claim t c ct -> cell_claim t c ct' -> ct' = ct.
Proof using.
  intros H (g & x & y & E & GI & -> & ->) (g' & x' & y' & E' & GI' & Ec & ->). rewrite E in E'. injection E' as <-. unfold cell_of in Ec. inversion Ec as [[E1 E2]].
  replace x' with x by lia. replace y' with y by lia. reflexivity.
Qed.
Lemma claims_cell t c : claims T gx gy p lib st c t <-> hosts st t /\ exists ct, cell_claim t c ct /\ ct <> t_empty T.
Proof using.
  unfold claims, cell_claim. split.
  - intros (H & g & x & y & A & B & C & D). split; [exact H|]. exists (gate_cell T g x y). split; [exists g, x, y; auto|exact D].
  - intros (H & ct & (g & x & y & A & B & C & ->) & D). split; [exact H|]. exists g, x, y. auto.
Qed.
End Apply.
