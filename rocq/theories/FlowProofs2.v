(** Orthogonal on arbitrary networks: listing the substituted network, and the layout. *)
From Coq Require Import ZArith Bool String List Lia Permutation.
From stdpp Require Import gmap list strings pretty.
From Verif Require Import CoordModel CoordSpec GridModel GridSpec ClockModel ClockSpec GateModel GateSpec RouteModel RouteSpec HexaSpec OrthoModel OrthoSpec OrthoProofs OrthoProofs7 OrthoProofs11
  FanoutModel FanoutSpec FanoutProofs FanoutProofs2 FanoutProofs3 FanoutProofs4 FlowModel FlowSpec FlowProofs.
Import ListNotations.
Local Open Scope nat_scope.

Lemma index_lookup n l : In n l -> l !! index n l = Some n.
Proof. induction l as [|a l IH]; intros H; [destruct H|]. cbn. destruct (Nat.eqb_spec a n) as [->|N]; [reflexivity|]. destruct H as [H|H]; [contradiction|]. apply IH, H. Qed.
Lemma index_of n l i : List.NoDup l -> l !! i = Some n -> index n l = i.
Proof.
  intros ND H. assert (Hin : In n l) by (eapply elem_of_list_In, elem_of_list_lookup_2, H). eapply NoDup_lookup; [apply NoDup_ListNoDup, ND|apply index_lookup, Hin|exact H].
Qed.

Lemma imap_fst_map (f : nat -> nat) (g : nat -> string) (l : list nat) : map fst (imap (fun k n => (f n, g k)) l) = map f l.
Proof. revert g. induction l as [|a l IH]; intros g; [reflexivity|]. cbn. f_equal. apply (IH (fun k => g (S k))). Qed.
Section listing.
Context (net : tnet) (order : list nat) (Hnet : network net order) (ins outs : list string).
Context (Hgate : forall n lit ch, t_nodes net !! n = Some (TGate lit ch) -> In n order /\ exists f, fn_of lit = Some f /\ comparison f = false /\
    ((length ch = 1 /\ (f = Fbuf \/ f = Fnot)) \/ (length ch = 2 /\ f <> Fbuf /\ f <> Fnot /\ f <> Fmaj))).
Context (Hsimple : forall n lit ch, t_nodes net !! n = Some (TGate lit ch) -> List.NoDup ch).
Context (Hconst : forall n c, In c (t_fanins net n) \/ In c (t_pos net) -> 2 <= c).
Context (Hused : forall n lit ch, t_nodes net !! n = Some (TGate lit ch) -> 1 <= used net n <= 2).
Context (Hpi : forall n, t_nodes net !! n = Some TPi -> used net n <= 1).
Context (Hne : t_pis net <> []).
Context (view : list nat) (Hview : topological net view).
Notation N := (listed net view ins outs).

Lemma view_In n : In n view <-> t_nodes net !! n = Some TPi \/ exists lit ch, t_nodes net !! n = Some (TGate lit ch).
Proof using All. destruct Hview as (gates & -> & _ & G & _). rewrite in_app_iff, (nw_pis _ _ Hnet), G. reflexivity. Qed.
Lemma view_NoDup : List.NoDup view.
Proof using All.
  destruct Hview as (gates & -> & ND & G & _). apply NoDup_ListNoDup, NoDup_app. split; [apply NoDup_ListNoDup, (nw_pis_once _ _ Hnet)|]. split; [|apply NoDup_ListNoDup, ND].
  intros x H1 H2. apply elem_of_list_In in H1, H2. apply (nw_pis _ _ Hnet) in H1. apply G in H2 as (lit & ch & H2). congruence.
Qed.
Lemma view_lookup k n : view !! k = Some n -> t_nodes net !! n = Some TPi \/ exists lit ch, t_nodes net !! n = Some (TGate lit ch).
Proof using All. intros H. apply view_In. eapply elem_of_list_In, elem_of_list_lookup_2, H. Qed.
Definition node_of (n : nat) : onode := match t_nodes net !! n with
  | Some (TGate lit ch) => OGate (default Fbuf (fn_of lit)) (map (fun c => index c view) ch) | _ => OPi (default "" (ins !! index n (t_pis net))) end.
Lemma N_lookup k : o_nodes N !! k = node_of <$> (view !! k).
Proof. cbn [listed o_nodes]. apply (list_lookup_fmap node_of). Qed.
Lemma N_length : length (o_nodes N) = length view.
Proof. cbn. apply map_length. Qed.
(** The fan-ins of a gate are listed before it. *)
Lemma child_ok n c : In c (t_fanins net n) -> t_is_constant net c = false /\ In c view.
Proof using All.
  intros H. pose proof (Hconst n c (or_introl H)) as H2. assert (Hn : exists lit ch, t_nodes net !! n = Some (TGate lit ch)). { unfold t_fanins in H. destruct (t_nodes net !! n) as [[| |lit ch]|]; try (destruct H; fail). eauto. }
  destruct Hn as (lit & ch & Hn). destruct (Hgate n lit ch Hn) as [Ho _]. apply elem_of_list_In, elem_of_list_lookup in Ho as (i & Hi). pose proof (nw_topo _ _ Hnet i n c Hi H) as T. unfold t_is_constant. rewrite view_In.
  destruct (t_nodes net !! c) as [[b| |l' c']|] eqn:Ec; [|split; [reflexivity|auto]|split; [reflexivity|right; eauto]|destruct T]. pose proof (nw_const _ _ Hnet c b Ec). lia.
Qed.
Lemma pos_ok' c : In c (t_pos net) -> In c view.
Proof using All.
  intros H. pose proof (Hconst 0 c (or_intror H)) as H2. pose proof (nw_pos _ _ Hnet c H) as T. rewrite view_In. destruct (t_nodes net !! c) as [[b| |l' c']|] eqn:Ec; [|auto|right; eauto|destruct T]. pose proof (nw_const _ _ Hnet c b Ec). lia.
Qed.
Lemma child_before k n c : view !! k = Some n -> In c (t_fanins net n) -> index c view < k.
Proof using All.
  intros H Hc. destruct (child_ok n c Hc) as [C Hin]. pose proof view_NoDup as ND. destruct Hview as (gates & _ & _ & _ & T). destruct (T k n c H Hc C) as (j & Hj & E). rewrite (index_of c view j ND E). exact Hj.
Qed.
Lemma N_gate k f ch' : o_nodes N !! k = Some (OGate f ch') -> exists n lit ch, view !! k = Some n /\ t_nodes net !! n = Some (TGate lit ch) /\ fn_of lit = Some f /\ ch' = map (fun c => index c view) ch.
Proof using All.
  rewrite N_lookup. destruct (view !! k) as [n|]; [|discriminate]. cbn. unfold node_of. intros H. destruct (t_nodes net !! n) as [[b| |lit ch]|] eqn:E; try discriminate H. destruct (Hgate n lit ch E) as [_ (g & F & _)]. rewrite F in H. cbn in H. injection H as <- <-. exists n, lit, ch. auto.
Qed.
Lemma N_pi k nm : o_nodes N !! k = Some (OPi nm) -> exists n, view !! k = Some n /\ t_nodes net !! n = Some TPi /\ nm = default "" (ins !! index n (t_pis net)).
Proof using All.
  rewrite N_lookup. destruct (view !! k) as [n|] eqn:Ev; [|discriminate]. cbn. unfold node_of. intros H. exists n. split; [reflexivity|]. destruct (view_lookup k n Ev) as [E|(lit & ch & E)]; rewrite E in H; [|discriminate H]. injection H as <-. auto.
Qed.
Lemma gate_N k n lit ch : view !! k = Some n -> t_nodes net !! n = Some (TGate lit ch) -> exists f, fn_of lit = Some f /\ o_nodes N !! k = Some (OGate f (map (fun c => index c view) ch)).
Proof using All. intros Hk E. destruct (Hgate n lit ch E) as [_ (g & F & _)]. exists g. split; [exact F|]. rewrite N_lookup, Hk. cbn. unfold node_of. rewrite E, F. reflexivity. Qed.
Lemma pi_N k n : view !! k = Some n -> t_nodes net !! n = Some TPi -> o_nodes N !! k = Some (OPi (default "" (ins !! index n (t_pis net)))).
Proof. intros Hk E. rewrite N_lookup, Hk. cbn. unfold node_of. rewrite E. reflexivity. Qed.

(** *** Uses *)
Lemma count_index ch k n : (forall c, In c ch -> In c view) -> view !! k = Some n -> count_occ Nat.eq_dec (map (fun c => index c view) ch) k = count_occ Nat.eq_dec ch n.
Proof using All.
  intros H Hk. induction ch as [|c ch IH]; [reflexivity|]. cbn [map count_occ]. specialize (IH ltac:(intros x Hx; apply H; right; exact Hx)). pose proof (index_lookup c view (H c (or_introl eq_refl))) as Hc.
  destruct (Nat.eq_dec (index c view) k) as [E|E], (Nat.eq_dec c n) as [E'|E']; try congruence. destruct E. rewrite E'. apply index_of; [apply view_NoDup|exact Hk].
Qed.
Lemma uses_N k n : view !! k = Some n -> uses N k = used net n.
Proof using All.
  intros Hk. unfold uses, used. f_equal.
  - cbn [listed o_nodes]. rewrite map_map.
    rewrite (list_sum_ext _ (fun m => count_occ Nat.eq_dec (t_fanins net m) n)).
    2:{ intros m Hm. unfold t_fanins. pose proof (child_ok m) as CO. unfold t_fanins in CO. destruct (t_nodes net !! m) as [[b| |lit ch]|]; try reflexivity. cbn. apply count_index; [intros c Hc; apply CO, Hc|exact Hk]. }
    rewrite (list_sum_ext (fun x => match x with TGate _ ch => count_occ Nat.eq_dec ch n | _ => 0 end) (fun x => count_occ Nat.eq_dec (t_children x) n)) by (intros [| |] _; reflexivity). rewrite sum_nodes.
    rewrite (list_sum_ext (fun i => match t_nodes net !! i with Some x => count_occ Nat.eq_dec (t_children x) n | None => 0 end) (fun m => count_occ Nat.eq_dec (t_fanins net m) n)) by (intros i _; unfold t_fanins; destruct (t_nodes net !! i); reflexivity).
    symmetry. apply sum_support; [apply List.seq_NoDup|apply view_NoDup| |].
    + intros x Hx. apply in_seq. apply view_In in Hx as [E|(lit & ch & E)]; apply lookup_lt_Some in E; lia.
    + intros x _ Hx. unfold t_fanins. destruct (t_nodes net !! x) as [[b| |lit ch]|] eqn:E; try reflexivity. destruct Hx. apply view_In. right. eauto.
  - cbn [listed o_pos]. transitivity (count_occ Nat.eq_dec (map (fun c => index c view) (t_pos net)) k).
    + f_equal. rewrite <- (imap_fst_map (fun c => index c view) (fun i => default "" (outs !! i))). reflexivity.
    + apply count_index; [intros c Hc; apply pos_ok', Hc|exact Hk].
Qed.
Lemma N_pos i p : o_pos N !! i = Some p -> exists n, t_pos net !! i = Some n /\ p = (index n view, default "" (outs !! i)).
Proof. cbn [listed o_pos]. rewrite list_lookup_imap. destruct (t_pos net !! i) as [n|]; [|discriminate]. cbn. intros [= <-]. eauto. Qed.
Lemma N_pos_In k nm : In (k, nm) (o_pos N) -> exists n, In n (t_pos net) /\ k = index n view.
Proof. intros H. apply elem_of_list_In, elem_of_list_lookup in H as (i & H). apply N_pos in H as (n & Hn & [= -> _]). exists n. split; [eapply elem_of_list_In, elem_of_list_lookup_2, Hn|reflexivity]. Qed.

(** *** The conditions of placement and routing *)
Lemma N_mapped : mapped N.
Proof using All.
  constructor.
  - intros E. pose proof N_length as L. rewrite E in L. destruct Hview as (gates & -> & _). rewrite app_length in L. destruct (t_pis net); [congruence|discriminate L].
  - intros k f ch' c H Hc. destruct (N_gate k f ch' H) as (n & lit & ch & Hk & Hn & _ & ->). apply in_map_iff in Hc as (x & <- & Hx). eapply child_before; [exact Hk|]. unfold t_fanins. rewrite Hn. exact Hx.
  - intros k f ch' H. destruct (N_gate k f ch' H) as (n & lit & ch & Hk & Hn & F & ->). rewrite map_length. destruct (Hgate n lit ch Hn) as [_ (g & F' & _ & A)]. rewrite F in F'. injection F' as <-. exact A.
  - intros k nm H. destruct (N_pi k nm H) as (n & Hk & Hn & _). rewrite (uses_N k n Hk). apply Hpi, Hn.
  - intros k f ch' H. destruct (N_gate k f ch' H) as (n & lit & ch & Hk & Hn & _). rewrite (uses_N k n Hk). eapply Hused, Hn.
  - intros k nm H. destruct (N_pos_In k nm H) as (n & Hn & ->). rewrite N_length. eapply lookup_lt_Some, index_lookup, pos_ok', Hn.
Qed.
Lemma N_distinct : distinct_fanins N.
Proof using All.
  intros k f a b H E. destruct (N_gate k f _ H) as (n & lit & ch & Hk & Hn & _ & Ech). pose proof (Hsimple n lit ch Hn) as ND. destruct ch as [|x [|y [|z l]]]; try discriminate Ech. injection Ech as -> ->.
  assert (Hx : In x view) by (apply (child_ok n); unfold t_fanins; rewrite Hn; left; reflexivity). assert (Hy : In y view) by (apply (child_ok n); unfold t_fanins; rewrite Hn; right; left; reflexivity).
  apply index_lookup in Hx, Hy. rewrite E, Hy in Hx. injection Hx as ->. inversion ND as [|? ? X _]; subst. apply X. left. reflexivity.
Qed.
Lemma N_symmetric : symmetric_gates N.
Proof using All. intros k f ch' H. destruct (N_gate k f ch' H) as (n & lit & ch & _ & Hn & F & _). destruct (Hgate n lit ch Hn) as [_ (g & F' & C & _)]. congruence. Qed.
Lemma N_simple_outputs : separate_outputs net -> simple_outputs N.
Proof using All. intros Hout k nm H. destruct (N_pos_In k nm H) as (n & Hn & ->). rewrite (uses_N _ n); [apply Hout, Hn|apply index_lookup, pos_ok', Hn]. Qed.

(** *** Values *)
Lemma inputs_before_pi k n : view !! k = Some n -> t_nodes net !! n = Some TPi -> inputs_before N k = k /\ t_pis net !! k = Some n.
Proof using All.
  intros Hk Hn. destruct Hview as (gates & E & ND & G & _). assert (Hlt : k < length (t_pis net)).
  { destruct (Nat.lt_ge_cases k (length (t_pis net))) as [|Hge]; [assumption|]. exfalso. rewrite E, lookup_app_r in Hk by exact Hge. apply elem_of_list_lookup_2, elem_of_list_In, G in Hk as (lit & ch & Hk). congruence. }
  split; [|rewrite E, lookup_app_l in Hk by exact Hlt; exact Hk].
  unfold inputs_before. cbn [listed o_nodes]. change (map ?f view) with (f <$> view). rewrite <- fmap_take. rewrite E, take_app_le by lia.
  assert (H : forall l, (forall x, In x l -> t_nodes net !! x = Some TPi) -> length (List.filter is_input ((fun n : nat => match t_nodes net !! n with Some (TGate lit ch) => OGate (default Fbuf (fn_of lit)) (map (fun c => index c (t_pis net ++ gates)) ch) | _ => OPi (default "" (ins !! index n (t_pis net))) end) <$> l)) = length l).
  { clear. induction l as [|a l IH]; intros H; [reflexivity|]. cbn. rewrite (H a (or_introl eq_refl)). cbn. f_equal. apply IH. intros x Hx. apply H. right. exact Hx. }
  rewrite H; [rewrite take_length; lia|]. intros x Hx. apply (nw_pis _ _ Hnet). apply elem_of_list_In in Hx. apply elem_of_list_In. eapply elem_of_take in Hx as (j & Hx & _). eapply elem_of_list_lookup_2, Hx.
Qed.
Lemma computes_inv_gate net0 env k f ch b : o_nodes net0 !! k = Some (OGate f ch) -> computes net0 env k b <-> exists vs, Forall2 (computes net0 env) ch vs /\ boolean_meaning f vs = Some b.
Proof.
  intros H. split.
  - intros C. inversion C as [? ? E|? ? ? vs ? E F S]; subst; rewrite H in E; [discriminate E|]. injection E as <- <-. eauto.
  - intros (vs & F & S). eapply computes_gate; eassumption.
Qed.
Lemma computes_inv_pi net0 env k nm b : o_nodes net0 !! k = Some (OPi nm) -> computes net0 env k b <-> b = env (inputs_before net0 k).
Proof.
  intros H. split.
  - intros C. inversion C as [? ? E|? ? ? vs ? E F S]; subst; [reflexivity|rewrite H in E; discriminate E].
  - intros ->. eapply computes_input, H.
Qed.
Lemma values_N env : forall k n b, view !! k = Some n -> computes N env k b <-> value meaning net env n b.
Proof using All.
  induction k as [k IH] using lt_wf_ind. intros n b Hk. destruct (view_lookup k n Hk) as [E|(lit & ch & E)].
  - rewrite (computes_inv_pi N env k _ b (pi_N k n Hk E)). destruct (inputs_before_pi k n Hk E) as [Ib Hp]. rewrite Ib. split.
    + intros ->. eapply value_input; eassumption.
    + intros V. inversion V as [? ? X|? j X Xj|? ? ? ? ? X]; subst; rewrite E in X; try discriminate X. f_equal. eapply NoDup_lookup; [apply NoDup_ListNoDup, (nw_pis_once _ _ Hnet)|exact Xj|exact Hp].
  - destruct (gate_N k n lit ch Hk E) as (f & F & EN). rewrite (computes_inv_gate N env k f _ b EN). rewrite (value_gate_inv _ _ env n b lit ch E). assert (MF : forall vs, meaning lit vs = boolean_meaning f vs) by (intros vs; rewrite meaning_fn, F; reflexivity).
    assert (FF : forall vs, Forall2 (computes N env) (map (fun c => index c view) ch) vs <-> Forall2 (value meaning net env) ch vs).
    { assert (Hc : forall c, In c ch -> index c view < k /\ In c view) by (intros c Hc; split; [eapply child_before; [exact Hk|]|apply (child_ok n)]; unfold t_fanins; rewrite E; exact Hc). clear E EN. induction ch as [|c ch IHc]; intros vs; [split; intros X; inversion X; constructor|].
      specialize (IHc ltac:(intros x Hx; apply Hc; right; exact Hx)). destruct (Hc c (or_introl eq_refl)) as [Hlt Hin]. cbn [map]. split; intros X; inversion X as [|? y ? l X1 X2]; subst; (constructor; [apply (IH _ Hlt c y (index_lookup c view Hin)), X1|apply IHc, X2]). }
    split; intros (vs & V & S); exists vs; (split; [apply FF, V|]); [rewrite MF|rewrite <- MF]; exact S.
Qed.

(** *** The layout of the listed network *)
Lemma N_inputs : length (List.filter is_input (o_nodes N)) = length (t_pis net).
Proof using All.
  cbn [listed o_nodes]. pose proof (view_lookup) as VL. destruct Hview as (gates & E & ND & G & _). rewrite E. rewrite map_app, List.filter_app, app_length.
  assert (A : forall (v l : list nat), (forall x, In x l -> t_nodes net !! x = Some TPi) -> length (List.filter is_input (map (fun n : nat => match t_nodes net !! n with Some (TGate lit ch) => OGate (default Fbuf (fn_of lit)) (map (fun c => index c v) ch) | _ => OPi (default "" (ins !! index n (t_pis net))) end) l)) = length l).
  { clear. intros v. induction l as [|a l IH]; intros H; [reflexivity|]. cbn. rewrite (H a (or_introl eq_refl)). cbn. f_equal. apply IH. intros x Hx. apply H. right. exact Hx. }
  assert (B : forall (v l : list nat), (forall x, In x l -> exists lit ch, t_nodes net !! x = Some (TGate lit ch)) -> length (List.filter is_input (map (fun n : nat => match t_nodes net !! n with Some (TGate lit ch) => OGate (default Fbuf (fn_of lit)) (map (fun c => index c v) ch) | _ => OPi (default "" (ins !! index n (t_pis net))) end) l)) = 0).
  { clear. intros v. induction l as [|a l IH]; intros H; [reflexivity|]. cbn. destruct (H a (or_introl eq_refl)) as (lit & ch & Ea). rewrite Ea. cbn. apply IH. intros x Hx. apply H. right. exact Hx. }
  rewrite A, B; [lia|intros x Hx; apply G, Hx|intros x Hx; apply (nw_pis _ _ Hnet), Hx].
Qed.
Lemma N_realised st : realises N st -> lays_out net ins outs st.
Proof using All.
  intros [R1 R2 R3 R4 R5 R6 R7 R8 _]. constructor.
  - rewrite R1. apply N_inputs.
  - intros k nm Hk Hnm Hne'. destruct (lookup_lt_is_Some_2 _ _ Hk) as (n & Hn). assert (Hv : view !! k = Some n) by (destruct Hview as (gates & -> & _); apply lookup_app_l_Some, Hn).
    assert (Hp : t_nodes net !! n = Some TPi) by (apply (nw_pis _ _ Hnet); eapply elem_of_list_In, elem_of_list_lookup_2, Hn). pose proof (pi_N k n Hv Hp) as E. rewrite (index_of n (t_pis net) k (nw_pis_once _ _ Hnet) Hn), Hnm in E. cbn in E.
    pose proof (R2 k nm E Hne') as G. rewrite (proj1 (inputs_before_pi k n Hv Hp)) in G. exact G.
  - rewrite R3. cbn [listed o_pos]. apply imap_length.
  - intros k nm Hk Hnm Hne'. destruct (lookup_lt_is_Some_2 _ _ Hk) as (n & Hn). apply (R4 k (index n view) nm); [|exact Hne']. cbn [listed o_pos]. rewrite list_lookup_imap, Hn. cbn. rewrite Hnm. reflexivity.
  - intros env k n o Hn Ho. assert (Hin : view !! index n view = Some n) by (apply index_lookup, pos_ok'; eapply elem_of_list_In, elem_of_list_lookup_2, Hn).
    destruct (R5 env k (index n view) (default "" (outs !! k)) o) as [(b & A) B]; [cbn [listed o_pos]; rewrite list_lookup_imap, Hn; reflexivity|exact Ho|].
    split; [exists b; apply (values_N env _ n b Hin), A|]. intros b'. rewrite B. apply (values_N env _ n b' Hin).
  - exact R7.
  - exact R8.
  - exact R6.
Qed.
End listing.
