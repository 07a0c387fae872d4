(** Property theorems for orthogonal as it is called: fan-out substitution, placement and routing (C72, C73). *)
From Coq Require Import ZArith Bool String List Lia.
From stdpp Require Import gmap list strings pretty.
From Verif Require Import CoordModel CoordSpec GridModel GridSpec ClockModel ClockSpec GateModel GateSpec RouteModel RouteSpec HexaSpec OrthoModel OrthoSpec OrthoProps
  FanoutModel FanoutSpec FanoutProofs FanoutProofs3 FanoutProofs4 FanoutProps FlowModel FlowSpec FlowProofs FlowProofs2 FlowProofs3.
Import ListNotations.
Local Open Scope nat_scope.

(** [view] lists the substituted network in a topological order. *)
Definition viewed (net : tnet) (order : list nat) (view : tnet -> list nat) : Prop :=
  forall net', fanout_substitution net order default_params (fun _ => 0) = Some net' -> topological net' (view net').

(** *** C72: the layout computes the functions of the network that was handed in *)
Theorem C72_layout_of_source_partial net order view ins outs clks : plain net order -> separate_outputs net -> manageable net order -> viewed net order view ->
  exists st, orthogonal_design net order view ins outs clks = Done st /\ lays_out net ins outs st.
Proof. intros P S M V. destruct (design_ok net order P M view ins outs clks V (or_introl S)) as (st & A & B & _). eauto. Qed.
Print Assumptions C72_layout_of_source_partial.
(** The order in which the nodes of the substituted network were created can always be taken. *)
Theorem C72_creation_order net order : plain net order -> manageable net order -> viewed net order (fun net' => seq 2 (length (t_nodes net') - 2)).
Proof. intros P M net' E. exact (creation_order net order P M net' E). Qed.
Print Assumptions C72_creation_order.
(** Outputs may be shared if no output has to leave towards the south in the substituted network. *)
Theorem C72_shared_outputs_partial net order view ins outs clks : plain net order -> manageable net order -> viewed net order view ->
  (forall net', fanout_substitution net order default_params (fun _ => 0) = Some net' -> no_southern_exit (listed net' (view net') ins outs)) ->
  exists st, orthogonal_design net order view ins outs clks = Done st /\ lays_out net ins outs st.
Proof. intros P M V S. destruct (design_ok net order P M view ins outs clks V (or_intror S)) as (st & A & B & _). eauto. Qed.
Print Assumptions C72_shared_outputs_partial.

(** *** C73: the layout of the network that was handed in breaks no design rule *)
Theorem C73_layout_of_source_clean_partial net order view ins outs clks : plain net order -> separate_outputs net -> manageable net order -> viewed net order view ->
  t_pos net <> [] -> (forall n, In n (t_pis net) -> used net n <> 0) ->
  exists st, orthogonal_design net order view ins outs clks = Done st /\ rules st /\
    forall fuel, Z.to_nat (volume (cl_dim (g_cl st))) <= fuel -> exists warnings, gate_level_drvs fuel st = Some (0%Z, warnings).
Proof. intros P S M V Hp Hu. destruct (design_ok net order P M view ins outs clks V (or_introl S)) as (st & A & _ & B). destruct (B Hp Hu) as [B1 B2]. eauto. Qed.
Print Assumptions C73_layout_of_source_clean_partial.

(** *** Concrete networks *)
Definition gates_of (net : tnet) : list nat := List.filter (fun n => match t_nodes net !! n with Some (TGate _ _) => true | _ => false end) (seq 0 (length (t_nodes net))).
Definition node_ok (net : tnet) (n : nat) : bool :=
  match t_nodes net !! n with
  | Some (TConst b) => if b then Nat.eqb n 1 else Nat.eqb n 0
  | Some TPi => existsb (Nat.eqb n) (t_pis net)
  | Some (TGate lit ch) => bool_decide (base.NoDup ch) && Nat.leb 1 (used net n) && forallb (fun c => Nat.leb 2 c && Nat.ltb c n) ch &&
      match fn_of lit with Some f => negb (comparison f) && match f with Fbuf | Fnot => Nat.eqb (length ch) 1 | Fmaj => false | _ => Nat.eqb (length ch) 2 end | None => false end
  | None => false
  end.
Definition plain_b (net : tnet) : bool :=
  match t_nodes net with TConst false :: TConst true :: _ => true | _ => false end && forallb (node_ok net) (seq 0 (length (t_nodes net))) &&
  forallb (fun n => match t_nodes net !! n with Some TPi => true | _ => false end) (t_pis net) && bool_decide (base.NoDup (t_pis net)) &&
  forallb (fun c => Nat.leb 2 c && Nat.ltb c (length (t_nodes net))) (t_pos net) && negb (Nat.eqb (length (t_pis net)) 0).
Lemma gates_of_In net n : In n (gates_of net) <-> exists lit ch, t_nodes net !! n = Some (TGate lit ch).
Proof.
  unfold gates_of. rewrite filter_In, in_seq. destruct (t_nodes net !! n) as [[b| |lit ch]|] eqn:E; split; try (intros [_ X]; discriminate X); try (intros (l & c & X); discriminate X).
  - intros _. eauto.
  - intros _. apply lookup_lt_Some in E. split; [lia|reflexivity].
Qed.
Lemma filter_sorted (f : nat -> bool) : forall len s i j a b, i < j -> List.filter f (seq s len) !! i = Some a -> List.filter f (seq s len) !! j = Some b -> a < b.
Proof.
  induction len as [|len IH]; intros s i j a b Hij Ha Hb; [discriminate Ha|]. cbn [seq List.filter] in Ha, Hb. destruct (f s).
  - destruct j as [|j]; [lia|]. cbn in Hb. destruct i as [|i]; [|apply (IH (S s) i j); [lia|exact Ha|exact Hb]]. injection Ha as <-. apply elem_of_list_lookup_2, elem_of_list_In, filter_In in Hb as [Hb _]. apply in_seq in Hb. lia.
  - eapply IH; eassumption.
Qed.
Lemma plain_by net : plain_b net = true -> plain net (gates_of net).
Proof.
  unfold plain_b. rewrite !andb_true_iff, !forallb_forall, negb_true_iff. intros (((((A0 & A) & B) & C) & D) & F).
  assert (NO : forall n x, t_nodes net !! n = Some x -> node_ok net n = true) by (intros n x E; apply A, in_seq; apply lookup_lt_Some in E; lia).
  assert (Hfan : forall n c, In c (t_fanins net n) -> 2 <= c < n). { intros n c Hc. unfold t_fanins in Hc. destruct (t_nodes net !! n) as [[b| |lit ch]|] eqn:E; try destruct Hc. pose proof (NO n _ E) as K. unfold node_ok in K. rewrite E, !andb_true_iff, forallb_forall in K. destruct K as (((_ & _) & K) & _). specialize (K c Hc). apply andb_true_iff in K as [K1 K2]. apply Nat.leb_le in K1. apply Nat.ltb_lt in K2. lia. }
  assert (Hcon : forall n b, t_nodes net !! n = Some (TConst b) -> n < 2). { intros n b E. pose proof (NO n _ E) as K. unfold node_ok in K. rewrite E in K. destruct b; apply Nat.eqb_eq in K; lia. }
  assert (Hpos : forall c, In c (t_pos net) -> 2 <= c < length (t_nodes net)). { intros c Hc. specialize (D c Hc). apply andb_true_iff in D as [K1 K2]. apply Nat.leb_le in K1. apply Nat.ltb_lt in K2. lia. }
  constructor.
  - constructor.
    + destruct (t_nodes net) as [|[[] | | ] [|[[] | | ] l]]; try discriminate A0. reflexivity.
    + destruct (t_nodes net) as [|[[] | | ] [|[[] | | ] l]]; try discriminate A0. reflexivity.
    + exact Hcon.
    + intros n. split; [intros H; specialize (B n H); destruct (t_nodes net !! n) as [[| |]|]; try discriminate B; reflexivity|]. intros E. pose proof (NO n _ E) as K. unfold node_ok in K. rewrite E in K. apply existsb_exists in K as (x & Hx & K). apply Nat.eqb_eq in K. subst x. exact Hx.
    + apply nodup_by, C.
    + apply List.NoDup_filter, List.seq_NoDup.
    + intros n H. apply gates_of_In in H as (lit & ch & E). exists lit, ch. split; [exact E|]. intros ->. pose proof (NO n _ E) as K. unfold node_ok in K. rewrite E, !andb_true_iff in K. destruct K as (_ & K). destruct (fn_of lit) as [f|]; [|discriminate K]. apply andb_true_iff in K as [_ K]. destruct f; discriminate K.
    + intros i n c Hi Hc. pose proof (Hfan n c Hc) as Hlt. destruct (t_nodes net !! c) as [[b| |lit ch]|] eqn:E; [exact Logic.I|exact Logic.I| |].
      * assert (Hin : In c (gates_of net)) by (apply gates_of_In; eauto). apply elem_of_list_In, elem_of_list_lookup in Hin as (j & Hj). exists j. split; [|exact Hj]. destruct (Nat.lt_trichotomy i j) as [L|[->|L]]; [|rewrite Hi in Hj; injection Hj as ->; lia|exact L]. pose proof (filter_sorted _ _ _ i j n c L Hi Hj). lia.
      * apply lookup_ge_None in E. assert (n < length (t_nodes net)); [|lia]. unfold t_fanins in Hc. destruct (t_nodes net !! n) as [x|] eqn:En; [|destruct Hc]. eapply lookup_lt_Some, En.
    + intros c Hc. destruct (lookup_lt_is_Some_2 (t_nodes net) c ltac:(apply Hpos, Hc)) as (x & E). rewrite E. destruct x; [exact Logic.I|exact Logic.I|]. apply gates_of_In. eauto.
  - intros n lit ch E. apply gates_of_In. eauto.
  - intros n lit ch E. pose proof (NO n _ E) as K. unfold node_ok in K. rewrite E, !andb_true_iff in K. destruct K as (_ & K). destruct (fn_of lit) as [f|]; [|discriminate K]. exists f. split; [reflexivity|]. apply andb_true_iff in K as [K1 K]. apply negb_true_iff in K1. split; [exact K1|].
    destruct f; try discriminate K; apply Nat.eqb_eq in K; (left; split; [exact K|auto]; fail) || (right; split; [exact K|repeat split; discriminate]).
  - intros n lit ch E. pose proof (NO n _ E) as K. unfold node_ok in K. rewrite E, !andb_true_iff in K. destruct K as (((K & _) & _) & _). apply nodup_by, K.
  - intros n c [H|H]; [apply Hfan in H|apply Hpos in H]; unfold t_is_constant; destruct (t_nodes net !! c) as [[b| |]|] eqn:E; try reflexivity; apply Hcon in E; lia.
  - intros n lit ch E. pose proof (NO n _ E) as K. unfold node_ok in K. rewrite E, !andb_true_iff in K. destruct K as (((_ & K) & _) & _). apply Nat.leb_le, K.
  - intros X. rewrite X in F. discriminate F.
Qed.
(** A full adder of two-input gates: every input is used twice or more. *)
Definition net_fa : tnet := mkT [TConst false; TConst true; TPi; TPi; TPi; TGate 12 [2; 3]; TGate 12 [5; 4]; TGate 4 [2; 3]; TGate 4 [5; 4]; TGate 6 [7; 8]] [2; 3; 4] [6; 9].
Definition created (net' : tnet) : list nat := seq 2 (length (t_nodes net') - 2).
Example C72_nonvacuous : plain net_fa (gates_of net_fa) /\ separate_outputs net_fa /\ manageable net_fa (gates_of net_fa) /\ viewed net_fa (gates_of net_fa) created /\
  match orthogonal_design net_fa (gates_of net_fa) created ["a"; "b"; "cin"]%string ["s"; "cout"]%string FOUR with
  | Done st => length (g_in st) = 3 /\ length (g_out st) = 2 /\ get_output_name st 1 = "cout"%string /\ cl_dim (g_cl st) <> live 0 0 0 | _ => False end.
Proof.
  assert (P : plain net_fa (gates_of net_fa)) by (apply plain_by; vm_compute; reflexivity). assert (M : manageable net_fa (gates_of net_fa)) by (vm_compute; reflexivity).
  split; [exact P|]. split; [intros n [<-|[<-|[]]]; reflexivity|]. split; [exact M|]. split; [apply C72_creation_order; assumption|]. vm_compute. repeat split; discriminate.
Qed.
Example C73_nonvacuous : t_pos net_fa <> [] /\ forall n, In n (t_pis net_fa) -> used net_fa n <> 0.
Proof. split; [discriminate|]. intros n [<-|[<-|[<-|[]]]]; vm_compute; discriminate. Qed.

(** *** What fails *)
(** Outputs that are used elsewhere: the first output, b & a, is reported as true for a = 1 and b = 0. *)
Definition net_tap : tnet := mkT [TConst false; TConst true; TPi; TPi; TGate 2 [3]; TGate 2 [2]; TGate 2 [5]; TGate 4 [4; 6]; TGate 2 [6]; TGate 2 [5]; TGate 4 [4; 9]; TGate 2 [10]; TGate 4 [8; 11]; TGate 4 [11; 9]] [2; 3] [7; 8; 12; 13].
Theorem C72_shared_outputs_refuted : exists net order view st, plain net order /\ manageable net order /\ viewed net order view /\
  orthogonal_design net order view [] [] FOUR = Done st /\ ~ lays_out net [] [] st.
Proof.
  assert (P : plain net_tap (gates_of net_tap)) by (apply plain_by; vm_compute; reflexivity). assert (M : manageable net_tap (gates_of net_tap)) by (vm_compute; reflexivity).
  exists net_tap, (gates_of net_tap), created. pose (env := fun i => Nat.eqb i 0).
  assert (K : match orthogonal_design net_tap (gates_of net_tap) created [] [] FOUR with Done st => match g_out st !! 0 with Some o => ev 100 st env o | None => None end | _ => None end = Some true) by (vm_compute; reflexivity).
  destruct (orthogonal_design net_tap (gates_of net_tap) created [] [] FOUR) as [| |st]; [discriminate K..|]. exists st. split; [exact P|]. split; [exact M|]. split; [apply C72_creation_order; assumption|]. split; [reflexivity|]. intros L.
  destruct (g_out st !! 0) as [o|] eqn:E; [|discriminate K]. apply ev_sound in K. apply (proj2 (lo_function _ _ _ _ L env 0 7 o eq_refl E) true) in K. clear L E.
  apply (value_gate_inv meaning net_tap env 7 true 4 [4; 6] eq_refl) in K as (vs & F & V). inversion F as [|? x ? ? Hx F2]; subst. inversion F2 as [|? y ? ? Hy F3]; subst. inversion F3; subst. clear F F2 F3.
  apply (value_gate_inv meaning net_tap env 4 x 2 [3] eq_refl) in Hx as (vs & F & W). inversion F as [|? z ? ? Hz F2]; subst. inversion F2; subst. inversion Hz as [? ? X|? j X Xj|? ? ? ? ? X]; subst; try discriminate X.
  destruct j as [|[|j]]; try discriminate Xj. cbn in W. injection W as <-. destruct y; discriminate V.
Qed.
Print Assumptions C72_shared_outputs_refuted.
