(** C18-C25, C42: gate-level layouts. *)
From Coq Require Import ZArith Lia Bool String List.
From stdpp Require Import gmap.
From Verif Require Import CoordModel CoordSpec CoordProofs GridModel GridSpec GridProofs CoordMap ClockModel ClockSpec ClockProofs
  GateModel GateSpec GateProofs GateProofs2 GateProofs3.
Import ListNotations.
Local Open Scope Z_scope.

(** Layouts for the examples. *)
Definition ex_cl : clocked := std_layout Cartesian (live 4 4 1) (TWODDWAVE FOUR).
Definition ex_ops : list gop :=
  [CreatePi "a" (live 0 1 0); CreatePi "b" (live 1 0 0);
   CreateLit [live 0 1 0; live 1 0 0] 4 (live 1 1 0);
   CreateLit [live 1 1 0] 2 (live 2 1 0);
   CreatePo (live 2 1 0) "f" (live 3 1 0)].

(** The state a history ends in, for the examples. *)
Definition final (cl : clocked) (ops : list gop) : glayout := default (g_empty cl) (g_run (g_empty cl) ops).
Lemma reached_final cl ops : match g_run (g_empty cl) ops with Some _ => true | None => false end = true -> reached cl ops (final cl ops).
Proof. unfold reached, final. destruct (g_run (g_empty cl) ops); [reflexivity|discriminate]. Qed.
Ltac run_to cl ops := exists (final cl ops); split; [apply reached_final; vm_compute; reflexivity|].
Ltac compute_all := repeat (split; [vm_compute; reflexivity|]); vm_compute; reflexivity.

(** Decision procedures for the disciplines of histories, for the examples. *)
Definition freeb (st : glayout) (t : coord) : bool := negb (cd t) && is_empty_tile st t.
Definition tidyb (st : glayout) (o : gop) : bool :=
  match o with
  | CreatePi _ t | CreatePo _ _ t | CreateLit _ _ t => freeb st t
  | MoveNode n t _ => Nat.leb 2 n && negb (cd (get_tile st n)) && (freeb st t || coord_eqb t (get_tile st n))
  | _ => true
  end.
Definition unrefb (st : glayout) (t : coord) : bool :=
  forallb (fun x => negb (existsb (coord_eqb t) (n_children x))) (g_nodes st).
Definition ref_tidyb (st : glayout) (o : gop) : bool :=
  tidyb st o &&
  match o with
  | CreatePi _ t | CreatePo _ _ t => unrefb st t
  | CreateLit ch _ t => unrefb st t && negb (existsb (coord_eqb t) ch)
  | MoveNode n t _ => coord_eqb t (get_tile st n) || unrefb st t
  | Connect _ _ => false
  | _ => true
  end.
Fixpoint each_callb (P : glayout -> gop -> bool) (st : glayout) (ops : list gop) : bool :=
  match ops with
  | [] => true
  | o :: r => if P st o then match g_step st o with Some st' => each_callb P st' r | None => true end else false
  end.
Lemma each_callb_ok (P : glayout -> gop -> Prop) Pb : (forall st o, Pb st o = true -> P st o) ->
  forall ops st, each_callb Pb st ops = true -> each_call P st ops.
Proof.
  intros HP. induction ops as [|o r IH]; intros st H; cbn in *; [exact I|].
  destruct (Pb st o) eqn:E; [|discriminate]. split; [apply HP, E|]. destruct (g_step st o); [apply IH, H|exact I].
Qed.
Lemma tidyb_ok st o : tidyb st o = true -> tidy st o.
Proof.
  assert (Hf : forall t, freeb st t = true -> free_tile st t).
  { intros t H. apply andb_prop in H as [H1 H2]. apply negb_true_iff in H1. split; assumption. }
  destruct o; cbn [tidy tidyb]; auto. intros H. apply andb_prop in H as [H H3]. apply andb_prop in H as [H1 H2].
  apply Nat.leb_le in H1. apply negb_true_iff in H2. split; [exact H1|]. split; [exact H2|].
  apply orb_prop in H3 as [H3|H3]; [left; apply Hf, H3|right; apply coord_eqb_spec, H3].
Qed.
Lemma unref st t : unrefb st t = true -> ~ referenced st t.
Proof.
  intros H (m & Hin). unfold node_at in Hin. destruct (g_nodes st !! m) as [x|] eqn:E; simpl in Hin; [|destruct Hin].
  assert (Hx : In x (g_nodes st)) by (apply elem_of_list_In, elem_of_list_lookup; eauto).
  unfold unrefb in H. rewrite forallb_forall in H. specialize (H x Hx). apply negb_true_iff in H.
  assert (existsb (coord_eqb t) (n_children x) = true); [|congruence].
  apply existsb_exists. exists t. rewrite coord_eqb_refl. auto.
Qed.
Lemma ref_tidyb_ok st o : ref_tidyb st o = true -> ref_tidy st o.
Proof.
  intros H. apply andb_prop in H as [H1 H2]. split; [apply tidyb_ok, H1|]. destruct o; auto; try discriminate.
  - apply unref, H2.
  - apply unref, H2.
  - apply andb_prop in H2 as [H2 H3]. split; [apply unref, H2|]. intros Hin. apply negb_true_iff in H3.
    assert (existsb (coord_eqb t) children = true); [|congruence]. apply existsb_exists. exists t. rewrite coord_eqb_refl. auto.
  - apply orb_prop in H2 as [H2|H2]; [left; apply coord_eqb_spec, H2|right; apply unref, H2].
Qed.

(** * C18 *)

(** After any history (any arguments, overwriting, moves of constants included), a tile that is not
    dead hosts a node exactly when that node reports the tile. *)
Theorem C18_bijection : forall cl ops st, reached cl ops st ->
  forall t n, cd t = false -> (2 <= n)%nat -> (get_node st t = n <-> get_tile st n = t).
Proof.
  intros cl ops st Hr t n Hd Hn. assert (Hi : inv0 st) by (eapply inv0_run; [apply inv0_empty|exact Hr]).
  unfold get_node, get_tile. split.
  - destruct (g_tn st !! t) as [k|] eqn:E; simpl; intros H; [|lia]. subst k. apply (i_bij _ Hi) in E. rewrite E. reflexivity.
  - destruct (g_nt st !! n) as [u|] eqn:E; simpl; intros H; subst; [|discriminate]. apply (i_bij _ Hi) in E. rewrite E. reflexivity.
Qed.
Print Assumptions C18_bijection.

(** No tile hosts a node that does not exist, and unless a constant node is moved no constant sits on a live tile. *)
Theorem C18_range : forall cl ops st, reached cl ops st -> forall t, cd t = false -> is_empty_tile st t = false ->
  (get_node st t < List.length (g_nodes st))%nat /\ (moves_no_constant ops -> (2 <= get_node st t)%nat).
Proof.
  intros cl ops st Hr t Hd Ht. assert (Hi : inv0 st) by (eapply inv0_run; [apply inv0_empty|exact Hr]).
  unfold is_empty_tile, get_node in *. destruct (g_tn st !! t) as [k|] eqn:E; simpl in *; [|discriminate].
  split; [eapply i_rng; eauto|]. intros Hm. assert (Hi1 : inv1 st) by (eapply inv1_run; [apply inv1_empty|exact Hm|exact Hr]).
  eapply i_live; eauto.
Qed.
Print Assumptions C18_range.

Example C18_nonvacuous : exists st, reached ex_cl (ex_ops ++ [MoveNode 4 (live 2 2 0) []; CreatePi "c" (live 1 0 0); ClearTile (live 2 1 0)]) st /\
  get_node st (live 2 2 0) = 4%nat /\ get_tile st 4 = live 2 2 0 /\
  get_node st (live 1 0 0) = 7%nat /\ get_tile st 3 = const0 /\ is_empty_tile st (live 1 1 0) = true /\
  is_empty_tile st (live 2 1 0) = true /\ get_tile st 5 = const0.
Proof.
  run_to ex_cl (ex_ops ++ [MoveNode 4 (live 2 2 0) []; CreatePi "c" (live 1 0 0); ClearTile (live 2 1 0)]). compute_all.
Qed.

(** * C19 *)
Theorem C19_counters : forall cl ops st, reached cl ops st -> moves_no_constant ops ->
  Z.of_nat (List.length (g_nodes st)) < 2 ^ 32 ->
  how_many (hosts_wire st) (num_wires st) /\ how_many (hosts_gate st) (num_gates st).
Proof.
  intros cl ops st Hr Hm Hl. apply counters_exact; [|exact Hl]. eapply inv1_run; [apply inv1_empty|exact Hm|exact Hr].
Qed.
Print Assumptions C19_counters.

(** In particular a layout reports to be empty exactly if no live tile hosts anything. *)
Theorem C19_is_empty : forall cl ops st, reached cl ops st -> moves_no_constant ops ->
  Z.of_nat (List.length (g_nodes st)) < 2 ^ 32 ->
  (is_empty st = true <-> forall t, cd t = false -> is_empty_tile st t = true).
Proof.
  intros cl ops st Hr Hm Hl. destruct (C19_counters cl ops st Hr Hm Hl) as [(L1 & _ & H1 & E1) (L2 & _ & H2 & E2)].
  unfold is_empty. rewrite E1, E2. rewrite andb_true_iff, !Z.eqb_eq. split.
  - intros [B A] t Hd. destruct L1; [|simpl in A; lia]. destruct L2; [|simpl in B; lia].
    destruct (is_empty_tile st t) eqn:Et; [reflexivity|]. destruct (is_wire st (get_node st t)) eqn:Ew.
    + destruct (proj2 (H1 t)). repeat split; auto.
    + destruct (proj2 (H2 t)). repeat split; auto.
  - intros H. split; cycle 1.
    + destruct L1 as [|t]; [reflexivity|]. destruct (proj1 (H1 t) (or_introl eq_refl)) as (A & B & _). rewrite H in B by exact A. discriminate.
    + destruct L2 as [|t]; [reflexivity|]. destruct (proj1 (H2 t) (or_introl eq_refl)) as (A & B & _). rewrite H in B by exact A. discriminate.
Qed.
Print Assumptions C19_is_empty.

(** Moving a constant node onto a live tile makes a counter wrong: its tile is counted as a gate although
    the tile of constant 0 stays empty. *)
Theorem C19_constant_moved_refuted : exists cl ops st, reached cl ops st /\ num_gates st = 1 /\
  forall t, cd t = false -> is_empty_tile st t = true.
Proof.
  exists ex_cl, [MoveNode 0 (live 0 0 0) []]. run_to ex_cl [MoveNode 0 (live 0 0 0) []]. split; [vm_compute; reflexivity|].
  intros t Hd. destruct (decide (t = live 0 0 0)) as [->|Hne]; [vm_compute; reflexivity|].
  unfold is_empty_tile, get_node. match goal with |- context [g_tn ?s !! t] => destruct (g_tn s !! t) as [k|] eqn:E end; [|reflexivity].
  assert (Hs : g_step (g_empty ex_cl) (MoveNode 0 (live 0 0 0) []) = Some (final ex_cl [MoveNode 0 (live 0 0 0) []])) by reflexivity.
  destruct (step_tn _ _ _ _ _ Hs E Hd) as [H|H]; [|inversion H; congruence].
  cbn [g_empty g_tn] in H. rewrite !lookup_insert_Some, lookup_empty in H.
  destruct H as [[<- _]|[_ [[<- _]|[_ H]]]]; discriminate.
Qed.
Print Assumptions C19_constant_moved_refuted.

Example C19_nonvacuous : exists st, reached ex_cl (ex_ops ++ [ClearTile (live 1 0 0)]) st /\
  moves_no_constant (ex_ops ++ [ClearTile (live 1 0 0)]) /\ Z.of_nat (List.length (g_nodes st)) < 2 ^ 32 /\
  num_wires st = 3 /\ num_gates st = 1.
Proof. run_to ex_cl (ex_ops ++ [ClearTile (live 1 0 0)]). split; [repeat constructor|]. compute_all. Qed.

(** * C20 *)

(** Missing for the full property: histories in which a gate shares its position with something in the
    other layer; see C20_crossings_refuted. *)
Theorem C20_crossings_partial : forall cl ops st, reached cl ops st -> moves_no_constant ops ->
  dim_ok (cl_dim cl) -> places_inside (cl_dim cl) ops -> always no_stacked_gate (g_empty cl) ops ->
  Z.of_nat (List.length (g_nodes st)) < 2 ^ 32 -> how_many (crossing_at st) (num_crossings st).
Proof.
  intros cl ops st Hr Hm Hd Hp Ha Hl. apply crossings_exact; [|exact Hl].
  eapply inv3_run; [apply inv3_empty, Hd|exact Ha|exact Hm|exact Hp|exact Hr].
Qed.
Print Assumptions C20_crossings_partial.

(** Finding: with a gate below a crossing wire the counter drifts. Placing the wire first and the gate
    second counts no crossing, removing the wire subtracts one: 2^32-1 crossings on a layout without wires. *)
Theorem C20_crossings_refuted :
  (exists cl ops st, reached cl ops st /\ moves_no_constant ops /\ dim_ok (cl_dim cl) /\ places_inside (cl_dim cl) ops /\
     num_wires st = 0 /\ num_crossings st = 4294967295) /\
  (exists cl ops st, reached cl ops st /\ moves_no_constant ops /\ dim_ok (cl_dim cl) /\ places_inside (cl_dim cl) ops /\
     is_empty st = true /\ num_crossings st = 1).
Proof.
  split.
  - exists ex_cl, [CreateLit [] 2 (live 1 1 1); CreateLit [] 4 (live 1 1 0); ClearTile (live 1 1 1)].
    match goal with |- exists st, reached ?c ?o st /\ _ => run_to c o end.
    split; [repeat constructor|]. split; [unfold dim_ok; simpl; lia|].
    split; [repeat constructor; unfold inb; simpl; intros; repeat split; lia|]. compute_all.
  - exists ex_cl, [CreateLit [] 4 (live 1 1 0); CreateLit [] 2 (live 1 1 1); ClearTile (live 1 1 0); ClearTile (live 1 1 1)].
    match goal with |- exists st, reached ?c ?o st /\ _ => run_to c o end.
    split; [repeat constructor|]. split; [unfold dim_ok; simpl; lia|].
    split; [repeat constructor; unfold inb; simpl; intros; repeat split; lia|]. compute_all.
Qed.
Print Assumptions C20_crossings_refuted.

Definition ex_cross : list gop :=
  [CreatePi "a" (live 0 1 0); CreatePi "b" (live 1 0 0); CreateLit [live 0 1 0] 2 (live 1 1 0); CreateLit [live 1 0 0] 2 (live 1 1 1)].
Lemma always_prefix (P : glayout -> Prop) ops : forall st,
  (forall k st', (k <= List.length ops)%nat -> g_run st (firstn k ops) = Some st' -> P st') -> always P st ops.
Proof.
  induction ops as [|o r IH]; intros st H; cbn.
  - split; [|exact I]. apply (H 0%nat); [lia|reflexivity].
  - split; [apply (H 0%nat); [lia|reflexivity]|]. destruct (g_step st o) as [s1|] eqn:E; [|exact I].
    apply IH. intros k st' Hk Hr. apply (H (S k)); [simpl; lia|]. cbn. rewrite E. exact Hr.
Qed.
Example C20_nonvacuous : exists st, reached ex_cl ex_cross st /\ moves_no_constant ex_cross /\ dim_ok (cl_dim ex_cl) /\
  places_inside (cl_dim ex_cl) ex_cross /\ always no_stacked_gate (g_empty ex_cl) ex_cross /\ num_crossings st = 1.
Proof.
  run_to ex_cl ex_cross. split; [repeat constructor|]. split; [unfold dim_ok; simpl; lia|].
  split; [repeat constructor; unfold inb; simpl; intros; repeat split; lia|]. split; [|vm_compute; reflexivity].
  assert (H : forall st, inv1 st -> (forall t, is_empty_tile st t = false -> cd t = false -> is_wire st (get_node st t) = true) -> no_stacked_gate st).
  { intros st _ H t u (H1 & H2 & H3). rewrite H in H3 by auto. discriminate. }
  assert (Hpre : forall k, (k <= 4)%nat -> no_stacked_gate (final ex_cl (firstn k ex_cross))).
  { intros k Hk. set (st := final ex_cl (firstn k ex_cross)).
    assert (Hr : reached ex_cl (firstn k ex_cross) st).
    { apply reached_final. do 5 (destruct k as [|k]; [vm_compute; reflexivity|]). lia. }
    assert (Hi : inv1 st).
    { eapply inv1_run; [apply inv1_empty| |exact Hr]. apply Forall_take. repeat constructor. }
    apply H; [exact Hi|]. intros t Ht Hd. unfold is_empty_tile, get_node in *.
    destruct (g_tn st !! t) as [n|] eqn:E; simpl in *; [|discriminate].
    pose proof (i_rng _ (i_0 _ Hi) _ _ E) as Hlt. pose proof (i_live _ Hi _ _ E Hd) as H2.
    assert (Hall : forallb (fun x => n_lit x =? 2) (skipn 2 (g_nodes st)) = true).
    { unfold st. clear -Hk. do 5 (destruct k as [|k]; [vm_compute; reflexivity|]). lia. }
    unfold is_wire. rewrite forallb_forall in Hall. apply Hall.
    apply elem_of_list_In, elem_of_list_lookup. exists (n - 2)%nat. rewrite lookup_drop.
    replace (2 + (n - 2))%nat with n by lia. apply node_lookup, Hlt. }
  apply always_prefix. intros k st Hk Hr. assert (st = final ex_cl (firstn k ex_cross)) as ->; [|apply Hpre, Hk].
  unfold final. rewrite Hr. reflexivity.
Qed.

(** * C21 *)
Theorem C21_duality : forall cl ops st rc n m, reached cl ops st -> dim_ok (cl_dim (g_cl st)) ->
  (rc = true -> layer_uniform (g_cl st)) -> 1 <= num_clocks (g_cl st) <= 255 ->
  (2 <= n)%nat -> (2 <= m)%nat -> inb (cl_dim (g_cl st)) (get_tile st n) -> inb (cl_dim (g_cl st)) (get_tile st m) ->
  (In (get_tile st m) (foreach_fanin rc st n) <-> In n (foreach_fanout rc st m)).
Proof.
  intros cl ops st rc n m Hr. intros. apply duality; auto. eapply inv0_run; [apply inv0_empty|exact Hr].
Qed.
Print Assumptions C21_duality.

(** Every reported fan-out is a placed node that has the asking node's tile among its children. *)
Theorem C21_fanout_sound : forall cl ops st rc m k, reached cl ops st -> moves_no_constant ops ->
  In k (foreach_fanout rc st m) ->
  (2 <= k)%nat /\ get_node st (get_tile st k) = k /\ In (get_tile st m) (n_children (node_at st k)).
Proof.
  intros cl ops st rc m k Hr Hm. apply fanout_real.
  - eapply inv1_run; [apply inv1_empty|exact Hm|exact Hr].
  - eapply clean_run; [apply inv1_empty| |exact Hm|exact Hr].
    intros x Hx. destruct x as [|[|x]]; [reflexivity|reflexivity|lia].
Qed.
Print Assumptions C21_fanout_sound.

(** Finding: if the clock zone of a crossing tile is overridden, the two sides disagree under clocking. *)
Theorem C21_layer_clocks_refuted : exists cl ops st n m, reached cl ops st /\ moves_no_constant ops /\
  dim_ok (cl_dim (g_cl st)) /\ inb (cl_dim (g_cl st)) (get_tile st n) /\ inb (cl_dim (g_cl st)) (get_tile st m) /\
  foreach_fanin true st n = [get_tile st m] /\ foreach_fanout true st m = [].
Proof.
  exists ex_cl, [CreatePi "a" (live 0 0 0); AssignClock (live 1 0 0) 3; CreateLit [live 0 0 0] 2 (live 1 0 1)].
  match goal with |- exists st n m, reached ?c ?o st /\ _ => exists (final c o) end.
  exists 3%nat, 2%nat. split; [apply reached_final; vm_compute; reflexivity|]. split; [repeat constructor|].
  split; [unfold dim_ok; vm_compute; repeat split; congruence|].
  split; [unfold inb; vm_compute; repeat split; congruence|].
  split; [unfold inb; vm_compute; repeat split; congruence|]. split; vm_compute; reflexivity.
Qed.
Print Assumptions C21_layer_clocks_refuted.

Example C21_nonvacuous : exists st, reached ex_cl ex_ops st /\ dim_ok (cl_dim (g_cl st)) /\ layer_uniform (g_cl st) /\
  num_clocks (g_cl st) = 4 /\ foreach_fanin true st 4 = [live 0 1 0; live 1 0 0] /\
  foreach_fanout true st 2 = [4%nat] /\ foreach_fanout true st 4 = [5%nat] /\ foreach_fanout true st 5 = [6%nat].
Proof.
  run_to ex_cl ex_ops. split; [unfold dim_ok; vm_compute; repeat split; congruence|].
  split; [|compute_all].
  rewrite (run_cl ex_ops (g_empty ex_cl)); [|apply reached_final; vm_compute; reflexivity|cbn; intuition discriminate]. intros x y z1 z2. reflexivity.
Qed.

(** * C22 *)

(** The lists of primary inputs and outputs are the I/O nodes the history created and did not remove.
    Missing for the full property: histories that overwrite occupied tiles or create I/O pins without a
    place; see the two findings below. *)
Theorem C22_io_exact_partial : forall cl ops st, reached cl ops st -> each_call tidy (g_empty cl) ops ->
  let a := io_run (g_empty cl) (mkIO [] []) ops in
  foreach_pi st = io_in a /\
  foreach_po st = map (get_tile st) (io_out a) /\ List.NoDup (io_out a) /\
  (forall n, is_pi st n = true <-> In n (io_in a)) /\
  (forall n, (2 <= n)%nat -> (is_po st n = true <-> In n (io_out a))) /\
  (forall n, In n (io_out a) -> placed st n).
Proof.
  intros cl ops st Hr Ht a.
  destruct (io_run_ok ops (g_empty cl) st (mkIO [] []) (inv1_empty cl) Ht Hr) as [(Hin & Hout & HND & Hall) Hi].
  { split; [reflexivity|]. split; [reflexivity|]. split; [constructor|intros n []]. }
  fold a in Hin, Hout, HND, Hall.
  assert (Hpl : forall n, In n (io_out a) -> get_node st (get_tile st n) = n /\ placed st n).
  { intros n Hn. destruct (Hall n Hn) as (A & B & _). destruct (placed_some st n (i_0 _ Hi) B) as [_ C].
    unfold get_node. rewrite C. auto. }
  split; [exact Hin|]. split; [exact Hout|]. split; [exact HND|]. split; [|split].
  - intros n. unfold is_pi. rewrite existsb_exists, Hin. split.
    + intros (x & Hx & E). apply Nat.eqb_eq in E. subst. exact Hx.
    + intros Hx. exists n. rewrite Nat.eqb_refl. auto.
  - intros n Hn. unfold is_po. rewrite existsb_exists, Hout. split.
    + intros (x & Hx & E). apply Nat.eqb_eq in E. apply in_map_iff in Hx as (k & <- & Hk).
      rewrite (proj1 (Hpl k Hk)) in E. subst. exact Hk.
    + intros Hx. exists (get_tile st n). split; [apply in_map, Hx|]. rewrite (proj1 (Hpl n Hx)). apply Nat.eqb_refl.
  - intros n Hn. apply Hpl, Hn.
Qed.
Print Assumptions C22_io_exact_partial.

(** Finding: creating a primary output on an occupied wire tile loses the new output: it is placed, but
    not listed. *)
Theorem C22_overwrite_refuted : exists cl ops st, reached cl ops st /\
  (exists pre s nm t, ops = pre ++ [CreatePo s nm t] /\ cd t = false /\ get_node st t = 4%nat /\ List.length (g_nodes st) = 5%nat) /\
  num_pos st = 0 /\ is_po st 4 = false.
Proof.
  exists ex_cl, [CreatePi "a" (live 0 0 0); CreateLit [live 0 0 0] 2 (live 1 0 0); CreatePo (live 0 0 0) "f" (live 1 0 0)].
  match goal with |- exists st, reached ?c ?o st /\ _ => run_to c o end. split.
  - exists [CreatePi "a" (live 0 0 0); CreateLit [live 0 0 0] 2 (live 1 0 0)], (live 0 0 0), "f"%string, (live 1 0 0).
    split; [reflexivity|]. compute_all.
  - compute_all.
Qed.
Print Assumptions C22_overwrite_refuted.

(** Finding: two outputs created without a place share one entry; placing one of them relabels both. *)
Theorem C22_unplaced_refuted : exists cl ops st, reached cl ops st /\
  ops = [CreatePi "a" (live 0 0 0); CreatePo (live 0 0 0) "f" const0; CreatePo (live 0 0 0) "g" const0; MoveNode 3 (live 1 0 0) [live 0 0 0]] /\
  foreach_po st = [live 1 0 0; live 1 0 0] /\ is_po st 4 = false.
Proof.
  exists ex_cl. eexists. eexists. split; [|split; [reflexivity|]]; [apply reached_final; vm_compute; reflexivity|]. compute_all.
Qed.
Print Assumptions C22_unplaced_refuted.

Definition ex_tidy : list gop := ex_ops ++ [CreatePo (live 1 1 0) "g" (live 1 2 0); MoveNode 6 (live 2 2 0) [live 2 1 0]; ClearTile (live 1 2 0)].
Example C22_nonvacuous : exists st, reached ex_cl ex_tidy st /\ each_call tidy (g_empty ex_cl) ex_tidy /\
  foreach_pi st = [2; 3]%nat /\ foreach_po st = [live 2 2 0].
Proof.
  run_to ex_cl ex_tidy. split; [|compute_all].
  apply (each_callb_ok tidy tidyb tidyb_ok). vm_compute. reflexivity.
Qed.

(** * C23 *)

(** Moving a placed node to a free tile (or onto its own tile, to change its fan-in): tiles, functions,
    fan-ins, names, I/O lists and counters. *)
Theorem C23_move : forall cl ops st n t ch st', reached cl ops st -> moves_no_constant ops ->
  (2 <= n)%nat -> placed st n -> (free_tile st t \/ t = get_tile st n) -> move_node st n t ch = Some st' ->
  get_tile st' n = t /\ get_node st' t = n /\
  (forall m, m <> n -> get_tile st' m = get_tile st m) /\
  (forall u, u <> t -> u <> get_tile st n -> get_node st' u = get_node st u) /\
  (t <> get_tile st n -> is_empty_tile st' (get_tile st n) = true) /\
  (forall m vs, compute st' m vs = compute st m vs) /\
  n_children (node_at st' n) = ch /\
  (forall m, m <> n -> n_children (node_at st' m) = n_children (node_at st m)) /\
  (forall m, get_name st' m = get_name st m) /\
  foreach_pi st' = foreach_pi st /\
  foreach_po st' = map (fun p => if coord_eqb p (get_tile st n) then t else p) (foreach_po st) /\
  num_wires st' = num_wires st /\ num_gates st' = num_gates st /\ gl_size st' = gl_size st /\ g_cl st' = g_cl st.
Proof.
  intros cl ops st n t ch st' Hr Hm Hn Hp Hf Hmv.
  assert (Hi : inv1 st) by (eapply inv1_run; [apply inv1_empty|exact Hm|exact Hr]).
  destruct (move_tidy st n t ch st' Hi Hn Hp Hf Hmv) as (A1 & A2 & A3 & A4 & A5 & A6 & A7 & A8 & A9 & A10 & A11).
  destruct (placed_some st n (i_0 _ Hi) Hp) as [Hnt Htn].
  split; [unfold get_tile; rewrite A2, lookup_insert; reflexivity|].
  split; [unfold get_node; rewrite A1; unfold moved_tn; destruct (coord_eqb t (get_tile st n)) eqn:E;
          [apply coord_eqb_spec in E; rewrite E, Htn; reflexivity|rewrite lookup_insert; reflexivity]|].
  split; [intros m Hne; unfold get_tile; rewrite A2, lookup_insert_ne by auto; reflexivity|].
  split; [intros u H1 H2; unfold get_node; rewrite A1; unfold moved_tn; destruct (coord_eqb t (get_tile st n)); [reflexivity|];
          rewrite lookup_insert_ne, lookup_delete_ne by auto; reflexivity|].
  split; [intros H1; unfold is_empty_tile, get_node; rewrite A1; unfold moved_tn; apply coord_eqb_false in H1 as H2; rewrite H2;
          rewrite lookup_insert_ne, lookup_delete by auto; reflexivity|].
  split; [intros m vs; unfold compute; rewrite A8; reflexivity|].
  split; [rewrite A9, Nat.eqb_refl; reflexivity|].
  split; [intros m Hne; rewrite A9; apply Nat.eqb_neq in Hne; rewrite Hne; reflexivity|].
  split; [intros m; unfold get_name; rewrite A5; reflexivity|].
  split; [exact A4|]. split; [exact A3|]. split; [exact A10|]. split; [exact A11|]. split; [unfold gl_size; rewrite A7; reflexivity|exact A6].
Qed.
Print Assumptions C23_move.

Example C23_nonvacuous : exists st st', reached ex_cl ex_ops st /\ moves_no_constant ex_ops /\ placed st 6 /\ free_tile st (live 2 2 0) /\
  move_node st 6 (live 2 2 0) [live 2 1 0] = Some st' /\ foreach_po st = [live 3 1 0] /\ foreach_po st' = [live 2 2 0].
Proof.
  exists (final ex_cl ex_ops), (default (g_empty ex_cl) (move_node (final ex_cl ex_ops) 6 (live 2 2 0) [live 2 1 0])).
  split; [apply reached_final; vm_compute; reflexivity|]. split; [repeat constructor|]. split; [vm_compute; reflexivity|].
  split; [split; vm_compute; reflexivity|].
  split; [|compute_all].
  assert (Hs : match move_node (final ex_cl ex_ops) 6 (live 2 2 0) [live 2 1 0] with Some _ => true | None => false end = true) by (vm_compute; reflexivity).
  destruct (move_node _ _ _ _); [reflexivity|discriminate].
Qed.

(** * C24 *)

(** Under the stated discipline the nodes reported alive are exactly the placed ones. Missing for the
    full property: [connect], overwriting, and placing a node on a tile that another node still names as
    a fan-in; see the findings below. *)
Theorem C24_alive_iff_placed_partial : forall cl ops st, reached cl ops st -> each_call ref_tidy (g_empty cl) ops ->
  total_refs ops < 2 ^ 31 ->
  forall n, (2 <= n < List.length (g_nodes st))%nat -> (is_dead st n = false <-> placed st n).
Proof.
  intros cl ops st Hr Ht Hk n Hn.
  destruct (refs_run ops (g_empty cl) st 0 (inv1_empty cl) Ht Hr) as [[H1 H2] Hi]; [lia|lia|apply refs_empty|].
  unfold placed, get_tile. destruct (g_nt st !! n) as [t|] eqn:E; simpl.
  - destruct (H1 n t E) as [[Ha Hb] _]; [lia|]. unfold is_dead. rewrite alive_small by lia. split; [|reflexivity].
    intros _. apply (i_bij _ (i_0 _ Hi)) in E. destruct (cd t) eqn:Ed; [|reflexivity].
    pose proof (i_dead _ (i_0 _ Hi) _ _ E Ed). lia.
  - rewrite (H2 n Hn E). split; discriminate.
Qed.
Print Assumptions C24_alive_iff_placed_partial.

(** Hence the node iterators visit exactly the placed nodes (besides the constants), each once, and
    split them into wires and others. *)
Theorem C24_foreach_partial : forall cl ops st, reached cl ops st -> each_call ref_tidy (g_empty cl) ops ->
  total_refs ops < 2 ^ 31 ->
  List.NoDup (foreach_node st) /\ List.NoDup (foreach_gate st) /\ List.NoDup (foreach_wire st) /\
  (forall n, (2 <= n)%nat -> (In n (foreach_node st) <-> placed st n)) /\
  (forall n, In n (foreach_wire st) <-> (2 <= n)%nat /\ placed st n /\ is_wire st n = true) /\
  (forall n, In n (foreach_gate st) <-> (2 <= n)%nat /\ placed st n /\ is_gate st n = true).
Proof.
  intros cl ops st Hr Ht Hk.
  assert (Hm : moves_no_constant ops). { eapply each_call_no_const; [|exact Ht|exact Hr]. intros s o [H _]. exact H. }
  assert (Hi : inv1 st) by (eapply inv1_run; [apply inv1_empty|exact Hm|exact Hr]).
  pose proof (i_two _ (i_0 _ Hi)) as H2.
  assert (Hpl : forall n, placed st n -> (n < List.length (g_nodes st))%nat).
  { intros n Hp. destruct (placed_some st n (i_0 _ Hi) Hp) as [_ Hx]. eapply i_rng; [apply Hi|exact Hx]. }
  assert (Hal : forall n, (2 <= n < List.length (g_nodes st))%nat -> (negb (is_dead st n) = true <-> placed st n)).
  { intros n Hn. rewrite negb_true_iff. eapply C24_alive_iff_placed_partial; eauto. }
  split; [apply List.NoDup_filter, seq_NoDup|]. split; [apply List.NoDup_filter, seq_NoDup|]. split; [apply List.NoDup_filter, seq_NoDup|].
  split; [|split].
  - intros n Hn. unfold foreach_node. rewrite filter_In, in_seq. split.
    + intros [H1 H3]. apply Hal; [lia|exact H3].
    + intros Hp. pose proof (Hpl n Hp). split; [lia|]. apply Hal; [lia|exact Hp].
  - intros n. unfold foreach_wire. rewrite filter_In, in_seq, andb_true_iff. split.
    + intros (H1 & H3 & H4). split; [lia|]. split; [apply Hal; [lia|exact H4]|exact H3].
    + intros (H1 & Hp & H3). pose proof (Hpl n Hp). split; [lia|]. split; [exact H3|]. apply Hal; [lia|exact Hp].
  - intros n. unfold foreach_gate. rewrite filter_In, in_seq, andb_true_iff. split.
    + intros (H1 & H3 & H4). split; [lia|]. split; [apply Hal; [lia|exact H4]|exact H3].
    + intros (H1 & Hp & H3). pose proof (Hpl n Hp). split; [lia|]. split; [exact H3|]. apply Hal; [lia|exact Hp].
Qed.
Print Assumptions C24_foreach_partial.

(** Finding: a tidy history without [connect] after which a placed node is reported dead: a node placed
    where a removed fan-in used to be inherits its references, and its counter underflows. *)
Theorem C24_underflow_refuted : exists cl ops st n, reached cl ops st /\ each_call tidy (g_empty cl) ops /\
  (forall s m, ~ In (Connect s m) ops) /\ placed st n /\ (2 <= n)%nat /\ is_dead st n = true /\ ~ In n (foreach_node st).
Proof.
  exists ex_cl, [CreatePi "A" (live 0 0 0); CreateLit [live 0 0 0] 2 (live 1 0 0); MoveNode 2 (live 0 1 0) [];
                 CreatePi "B" (live 0 0 0); MoveNode 3 (live 1 1 0) [live 0 1 0]].
  match goal with |- exists st n, reached ?c ?o st /\ _ => exists (final c o) end.
  exists 4%nat. split; [apply reached_final; vm_compute; reflexivity|]. split.
  { apply (each_callb_ok tidy tidyb tidyb_ok). vm_compute. reflexivity. }
  split; [intros s m Hin; cbn in Hin; intuition discriminate|]. split; [vm_compute; reflexivity|]. split; [lia|].
  split; [vm_compute; reflexivity|]. vm_compute. intuition lia.
Qed.
Print Assumptions C24_underflow_refuted.

(** Finding: [connect] does not count the reference it adds; the next [move_node] un-counts it. *)
Theorem C24_connect_refuted : exists cl ops st n, reached cl ops st /\ each_call tidy (g_empty cl) ops /\
  placed st n /\ (2 <= n)%nat /\ is_dead st n = true.
Proof.
  exists ex_cl, [CreatePi "A" (live 0 0 0); CreateLit [] 2 (live 1 0 0); Connect (live 0 0 0) 3; MoveNode 3 (live 1 1 0) []].
  match goal with |- exists st n, reached ?c ?o st /\ _ => exists (final c o) end.
  exists 2%nat. split; [apply reached_final; vm_compute; reflexivity|]. split.
  { apply (each_callb_ok tidy tidyb tidyb_ok). vm_compute. reflexivity. }
  split; [vm_compute; reflexivity|]. split; [lia|]. vm_compute. reflexivity.
Qed.
Print Assumptions C24_connect_refuted.

(** Finding: a node created without a place is not placed and not dead. *)
Theorem C24_unplaced_refuted : exists cl ops st n, reached cl ops st /\ (2 <= n < List.length (g_nodes st))%nat /\
  is_dead st n = false /\ ~ placed st n.
Proof.
  exists ex_cl, [CreatePi "A" const0], (final ex_cl [CreatePi "A" const0]), 2%nat. split; [apply reached_final; vm_compute; reflexivity|]. split; [vm_compute; lia|].
  split; [vm_compute; reflexivity|]. vm_compute. discriminate.
Qed.
Print Assumptions C24_unplaced_refuted.

Example C24_nonvacuous : exists st, reached ex_cl ex_tidy st /\ each_call ref_tidy (g_empty ex_cl) ex_tidy /\
  total_refs ex_tidy < 2 ^ 31 /\ foreach_node st = [0; 1; 2; 3; 4; 5; 6]%nat /\ List.length (g_nodes st) = 8%nat /\
  is_dead st 7 = true.
Proof.
  run_to ex_cl ex_tidy. split; [|compute_all].
  apply (each_callb_ok ref_tidy ref_tidyb ref_tidyb_ok). vm_compute. reflexivity.
Qed.

(** * C25 *)
Theorem C25_clear : forall cl ops st t, reached cl ops st -> moves_no_constant ops -> cd t = false ->
  let st' := clear_tile st t in
  is_empty_tile st' t = true /\
  (forall u, u <> t -> get_node st' u = get_node st u) /\
  (forall n, n <> get_node st t -> get_tile st' n = get_tile st n) /\
  (is_empty_tile st t = false -> ~ placed st' (get_node st t) /\ is_dead st' (get_node st t) = true) /\
  (forall n, n <> get_node st t -> is_dead st' n = is_dead st n) /\
  (forall n vs, compute st' n vs = compute st n vs) /\
  (forall n, n_children (node_at st' n) = n_children (node_at st n)) /\
  (forall n, get_name st' n = get_name st n) /\
  foreach_pi st' = foreach_pi st /\
  (forall p, In p (foreach_po st') -> In p (foreach_po st)) /\
  (forall p, In p (foreach_po st) -> p <> t -> In p (foreach_po st')) /\
  gl_size st' = gl_size st /\ g_cl st' = g_cl st.
Proof.
  intros cl ops st t Hr Hm Hd st'.
  assert (Hi : inv1 st) by (eapply inv1_run; [apply inv1_empty|exact Hm|exact Hr]).
  assert (Hi' : inv1 st') by (apply inv1_clear, Hi).
  split; [unfold is_empty_tile, get_node, st'; rewrite clear_tn, lookup_delete; reflexivity|].
  split; [intros u Hu; unfold get_node, st'; rewrite clear_tn, lookup_delete_ne by auto; reflexivity|].
  split. { intros n Hn. unfold get_tile, st'. rewrite clear_nt. unfold get_node in Hn. destruct (g_tn st !! t); [|reflexivity].
           simpl in Hn. rewrite lookup_delete_ne by auto. reflexivity. }
  split. { intros He. unfold is_empty_tile, get_node in *. destruct (g_tn st !! t) as [k|] eqn:E; simpl in *; [|discriminate].
           pose proof (i_live _ Hi _ _ E Hd) as H2. pose proof (i_rng _ (i_0 _ Hi) _ _ E) as Hlt. split.
           - unfold placed, get_tile, st'. rewrite clear_nt, E, lookup_delete. simpl. discriminate.
           - unfold is_dead, st'. rewrite clear_refs, E, Nat.eqb_refl.
             assert (is_constant k = false) as -> by (unfold is_constant; apply Nat.leb_gt; lia). cbn [andb negb].
             rewrite node_lookup by exact Hlt. apply dead_lor. }
  split. { intros n Hn. unfold is_dead, st'. rewrite clear_refs. unfold get_node in Hn. destruct (g_tn st !! t); [|reflexivity].
           simpl in Hn. apply Nat.eqb_neq in Hn. rewrite Hn. reflexivity. }
  split; [intros n vs; unfold compute, st'; rewrite clear_lit; reflexivity|].
  split; [intros n; apply clear_children|].
  split; [intros n; unfold get_name, st'; rewrite clear_names; reflexivity|].
  split; [apply clear_in|].
  assert (Hout : g_out st' = match g_tn st !! t with
            | Some n => if is_wire st n then erase_first (fun p => Nat.eqb (get_node st p) n) (g_out st) else g_out st
            | None => g_out st end).
  { unfold st'. rewrite clear_out. destruct (g_tn st !! t); [|reflexivity]. rewrite Hd. cbn. reflexivity. }
  assert (Her : forall n l p, (In p (erase_first (fun p => Nat.eqb (get_node st p) n) l) -> In p l) /\
                 (In p l -> get_node st p <> n -> In p (erase_first (fun p => Nat.eqb (get_node st p) n) l))).
  { intros n l p. induction l as [|x l IH]; simpl; [tauto|]. destruct (Nat.eqb_spec (get_node st x) n) as [E|E]; simpl.
    - split; [auto|]. intros [->|H] Hx; [congruence|exact H].
    - split; [intros [->|H]; [auto|right; apply IH, H]|]. intros [->|H] Hx; [auto|right; apply IH; auto]. }
  unfold foreach_po. rewrite Hout. split; [|split; [|split]].
  - intros p. destruct (g_tn st !! t) as [k|]; [|auto]. destruct (is_wire st k); [apply Her|auto].
  - intros p Hp Hne. destruct (g_tn st !! t) as [k|] eqn:E; [|auto]. destruct (is_wire st k); [|auto].
    apply Her; [exact Hp|]. intros Hk. apply Hne. unfold get_node in Hk.
    destruct (g_tn st !! p) as [j|] eqn:Ep; simpl in Hk.
    + subst j. apply (i_bij _ (i_0 _ Hi)) in E. apply (i_bij _ (i_0 _ Hi)) in Ep. congruence.
    + pose proof (i_live _ Hi _ _ E Hd). lia.
  - unfold gl_size, st'. rewrite clear_len. reflexivity.
  - apply clear_cl.
Qed.
Print Assumptions C25_clear.

Example C25_nonvacuous : exists st, reached ex_cl ex_ops st /\ is_empty_tile st (live 3 1 0) = false /\
  foreach_po st = [live 3 1 0] /\ foreach_po (clear_tile st (live 3 1 0)) = [] /\
  num_wires st = 4 /\ num_wires (clear_tile st (live 3 1 0)) = 3.
Proof. run_to ex_cl ex_ops. compute_all. Qed.

(** * C42 *)

(** A node made by a creation function computes the Boolean function the function is named after. Missing
    for the full property: the four comparisons; see C42_comparisons_refuted. *)
Theorem C42_functions_partial : forall st f ch t vs, comparison f = false -> List.length vs = List.length ch ->
  compute (create_fn st f ch t) (List.length (g_nodes st)) vs = boolean_meaning f vs.
Proof.
  intros st f ch t vs Hc Hl. unfold compute, create_fn, create_lit. cbv zeta.
  rewrite assign_lit. rewrite (fr_lit _ _ (incs_frame _ _)). rewrite node_at_push_new. cbn [n_lit].
  destruct f; try discriminate Hc; destruct vs as [|a [|b [|c [|d vs]]]]; try reflexivity;
    repeat match goal with x : bool |- _ => destruct x end; try reflexivity;
    unfold compute_lit; cbn [fn_word lit_of]; cbn [List.length];
    match goal with |- (if ?e =? ?k then _ else _) = _ => replace (e =? k) with false; [reflexivity|symmetry; apply Z.eqb_neq; lia] end.
Qed.
Print Assumptions C42_functions_partial.

(** Finding: less-than and its three relatives compute the comparison with the operands swapped. *)
Theorem C42_comparisons_refuted : forall st f ch t a b, comparison f = true ->
  compute (create_fn st f ch t) (List.length (g_nodes st)) [a; b] = boolean_meaning f [b; a] /\
  compute (create_fn st f ch t) (List.length (g_nodes st)) [false; true] <> boolean_meaning f [false; true].
Proof.
  intros st f ch t a b Hc. unfold compute, create_fn, create_lit. cbv zeta.
  rewrite assign_lit. rewrite (fr_lit _ _ (incs_frame _ _)). rewrite node_at_push_new. cbn [n_lit].
  destruct f; try discriminate Hc; destruct a, b; split; try reflexivity; vm_compute; discriminate.
Qed.
Print Assumptions C42_comparisons_refuted.

(** A created node keeps its function through any later history. *)
Theorem C42_function_kept : forall ops st st' n vs, g_run st ops = Some st' -> (n < List.length (g_nodes st))%nat ->
  compute st' n vs = compute st n vs.
Proof.
  induction ops as [|o r IH]; intros st st' n vs Hr Hn; cbn in Hr; [inversion Hr; reflexivity|].
  destruct (g_step st o) as [s1|] eqn:E; [|discriminate].
  assert (Hs : (List.length (g_nodes st) <= List.length (g_nodes s1))%nat /\ n_lit (node_at s1 n) = n_lit (node_at st n)).
  { destruct o as [nm t|s nm t|ch lit t|m t ch|s m|t|m nm|t kk]; cbn [g_step] in E.
    - inversion E; subst; clear E. unfold create_pi. cbv zeta. rewrite assign_len, assign_lit.
      cbn [set_name with_names with_in push_node with_nodes g_nodes]. rewrite app_length. split; [lia|].
      change (n_lit (node_at (push_node st [] 2) n) = n_lit (node_at st n)). rewrite node_at_push_old by exact Hn. reflexivity.
    - inversion E; subst; clear E. unfold create_po. cbv zeta.
      rewrite (fr_len _ _ (setch_frame _ _ _)), (fr_len _ _ (inc_frame _ _)), assign_len.
      rewrite (fr_lit _ _ (setch_frame _ _ _)), (fr_lit _ _ (inc_frame _ _)), assign_lit.
      cbn [set_name with_names with_out push_node with_nodes g_nodes]. rewrite app_length. split; [lia|].
      change (n_lit (node_at (push_node st [] 2) n) = n_lit (node_at st n)). rewrite node_at_push_old by exact Hn. reflexivity.
    - inversion E; subst; clear E. unfold create_lit. cbv zeta. rewrite assign_len, assign_lit.
      rewrite (fr_len _ _ (incs_frame _ _)), (fr_lit _ _ (incs_frame _ _)), node_at_push_old by exact Hn.
      cbn [push_node with_nodes g_nodes]. rewrite app_length. split; [lia|reflexivity].
    - destruct (lt_dec m (List.length (g_nodes st))) as [Hm|Hm].
      2: { unfold move_node in E. apply Nat.ltb_nlt in Hm. rewrite Hm in E. discriminate. }
      rewrite move_node_unfold in E by exact Hm. inversion E; subst; clear E.
      rewrite (fr_len _ _ (incs_frame _ _)), (fr_lit _ _ (incs_frame _ _)), (fr_len _ _ (setch_frame _ _ _)), (fr_lit _ _ (setch_frame _ _ _)).
      unfold mv_place. destruct (coord_eqb t (get_tile st m)).
      + rewrite (fr_len _ _ (mv_start_frame st m)), (fr_lit _ _ (mv_start_frame st m)). auto.
      + rewrite (fr_len _ _ (revive_frame _ _)), (fr_lit _ _ (revive_frame _ _)), assign_len, assign_lit, clear_len, clear_lit.
        destruct (mv_relabel_maps st m t) as (_ & _ & E3 & _ & _ & _ & _ & _ & _ & _ & E11). rewrite E3. split; [lia|].
        unfold node_at at 1. rewrite E11. apply (fr_lit _ _ (mv_start_frame st m)).
    - unfold connect in E. destruct (is_constant m); [inversion E; subst; auto|].
      destruct (Nat.ltb m (List.length (g_nodes st))); [|discriminate]. inversion E; subst.
      rewrite (fr_len _ _ (setch_frame _ _ _)), (fr_lit _ _ (setch_frame _ _ _)). auto.
    - inversion E; subst. rewrite clear_len, clear_lit. auto.
    - inversion E; subst. auto.
    - inversion E; subst. auto. }
  destruct Hs as [Hl Hlit]. rewrite (IH s1 st' n vs Hr) by lia. unfold compute. rewrite Hlit. reflexivity.
Qed.
Print Assumptions C42_function_kept.

Example C42_nonvacuous : exists st, reached ex_cl ex_ops st /\
  compute st 4 [true; true] = Some true /\ compute st 4 [true; false] = Some false /\
  compute (create_fn st Fmaj [live 0 0 0; live 0 0 0; live 0 0 0] (live 0 0 1)) 7 [true; false; true] = Some true.
Proof. run_to ex_cl ex_ops. compute_all. Qed.
