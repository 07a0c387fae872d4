(** Proofs about balancing. *)
From Coq Require Import ZArith Bool List Lia.
From stdpp Require Import gmap list.
From Verif Require Import FanoutModel FanoutSpec FanoutProofs FanoutProofs2 FanoutProofs3 FanoutProofs4 DepthModel DepthSpec DepthProofs.
Import ListNotations.

(** A network made of constants, inputs and gates after their fan-ins. *)
Lemma network_of_list p gs pos : (forall x, In x gs -> exists lit ch, x = TGate lit ch /\ ch <> []) -> scoped ([TConst false; TConst true] ++ repeat TPi p ++ gs) pos ->
  network (mkT ([TConst false; TConst true] ++ repeat TPi p ++ gs) (seq 2 p) pos) (seq (2 + p) (length gs)).
Proof.
  intros Hg [S1 S2]. set (nodes := [TConst false; TConst true] ++ repeat TPi p ++ gs) in *. assert (Len : length nodes = 2 + p + length gs) by (unfold nodes; rewrite !app_length, repeat_length; cbn; lia).
  assert (Hpi : forall n, 2 <= n < 2 + p -> nodes !! n = Some TPi).
  { intros n Hn. unfold nodes. rewrite lookup_app_r by (cbn; lia). rewrite lookup_app_l by (rewrite repeat_length; cbn; lia). cbn [length]. assert (H : forall p j, j < p -> repeat TPi p !! j = Some TPi) by (clear; induction p as [|p IH]; intros [|j] H; [lia|lia|reflexivity|apply IH; lia]). apply H. lia. }
  assert (Hgt : forall n x, 2 + p <= n -> nodes !! n = Some x -> exists lit ch, x = TGate lit ch /\ ch <> []).
  { intros n x Hn H. unfold nodes in H. rewrite lookup_app_r in H by (cbn; lia). rewrite lookup_app_r in H by (rewrite repeat_length; cbn; lia). apply Hg. eapply elem_of_list_In, elem_of_list_lookup_2, H. }
  constructor; cbn [t_nodes t_pis t_pos].
  - reflexivity.
  - reflexivity.
  - intros n b H. destruct (Nat.lt_ge_cases n 2) as [|H2]; [assumption|]. exfalso. destruct (Nat.lt_ge_cases n (2 + p)) as [H3|H3]; [rewrite Hpi in H by lia; discriminate H|]. destruct (Hgt n _ H3 H) as (lit & ch & E & _). discriminate E.
  - intros n. rewrite in_seq. split; [intros H; apply Hpi; lia|]. intros H. destruct (Nat.lt_ge_cases n 2) as [H2|H2]; [destruct n as [|[|n]]; [discriminate H|discriminate H|lia]|]. destruct (Nat.lt_ge_cases n (2 + p)) as [H3|H3]; [lia|]. destruct (Hgt n _ H3 H) as (lit & ch & E & _). discriminate E.
  - apply List.seq_NoDup.
  - apply List.seq_NoDup.
  - intros n H. apply in_seq in H. destruct (lookup_lt_is_Some_2 nodes n ltac:(lia)) as (x & Hx). destruct (Hgt n x ltac:(lia) Hx) as (lit & ch & -> & Hne). eauto.
  - intros i n c Hi Hc. apply lookup_seq in Hi as [-> Hi]. unfold t_fanins in Hc. cbn [t_nodes] in Hc. destruct (nodes !! (2 + p + i)) as [x|] eqn:E; [|destruct Hc]. pose proof (S1 _ x c E Hc) as Lt. destruct (nodes !! c) as [y|] eqn:Ec; [|apply lookup_ge_None in Ec; lia].
    destruct y as [b| |lit ch]; [exact Logic.I|exact Logic.I|]. assert (2 + p <= c). { destruct (Nat.lt_ge_cases c (2 + p)) as [H3|]; [|assumption]. exfalso. destruct c as [|[|c]]; [discriminate Ec|discriminate Ec|]. rewrite Hpi in Ec by lia. discriminate Ec. }
    exists (c - (2 + p)). split; [lia|]. apply lookup_seq. lia.
  - intros c Hc. pose proof (S2 c Hc) as Lt. destruct (lookup_lt_is_Some_2 nodes c Lt) as (y & Ec). rewrite Ec. destruct y as [b| |lit ch]; [exact Logic.I|exact Logic.I|]. apply in_seq. assert (2 + p <= c); [|lia]. destruct (Nat.lt_ge_cases c (2 + p)) as [H3|]; [|assumption]. exfalso. destruct c as [|[|c]]; [discriminate Ec|discriminate Ec|]. rewrite Hpi in Ec by lia. discriminate Ec.
Qed.

Notation ps1 := (mkP BREADTH 2 1).
Lemma D2 : 2 <= ps_degree ps1.
Proof. cbn. lia. Qed.
Notation unit_cost := (fun _ : nat => 1).
Section balancing.
Context (sem : nat -> list bool -> option bool) (Hbuf : buffers sem) (net : tnet) (order : list nat) (Hnet : network net order).
Context (lv : gmap nat nat) (Hlv : forall n k, lv !! n = Some k <-> live net unit_cost n /\ longest net false unit_cost n k) (Hlive : forall n, In n order -> live net unit_cost n).
Context (Hshort : short net unit_cost order).
Notation K0 := (0 :: 1 :: t_pis net).
Notation dpis := (seq 2 (length (t_pis net))).
Notation lev := (lvl lv).
Notation longest := (longest net false unit_cost).

(** *** Levels of the source *)
Lemma live_down n c : In c (t_fanins net n) -> live net unit_cost n -> live net unit_cost c.
Proof. intros H (o & Ho & R). exists o. split; [exact Ho|]. eapply reaches_step; eassumption. Qed.
Lemma lev_0 n k : longest n k -> k = 0 -> lev n = 0.
Proof using Hlv. intros L ->. unfold lvl. destruct (lv !! n) as [k|] eqn:E; [|reflexivity]. cbn. apply Hlv in E as [_ E]. eapply longest_fun; eassumption. Qed.
Lemma lev_const n b : t_nodes net !! n = Some (TConst b) -> lev n = 0.
Proof using Hlv. intros E. eapply lev_0; [eapply longest_const, E|reflexivity]. Qed.
Lemma lev_pi n : t_nodes net !! n = Some TPi -> lev n = 0.
Proof using Hlv. intros E. eapply lev_0; [eapply (longest_input net false unit_cost), E|reflexivity]. Qed.
Lemma longest_exists n : known net order n -> exists k, longest n k.
Proof using Hnet Hshort.
  remember (rank order n) as r eqn:Er. revert n Er. induction r as [r IH] using lt_wf_ind. intros n -> K. pose proof K as K'. unfold known in K'. destruct (t_nodes net !! n) as [[b| |lit ch]|] eqn:E; [exists 0; eapply longest_const, E|eexists; eapply longest_input, E| |destruct K'].
  assert (Hf : forall c, In c (t_fanins net n) -> exists k, longest c k) by (intros c Hc; destruct (fanin_known net order Hnet n c K Hc) as (_ & Kc & R); eapply IH; [exact R|reflexivity|exact Kc]).
  assert (M : forall l, l <> [] -> (forall c, In c l -> exists k, longest c k) -> exists m, (forall c, In c l -> exists k, longest c k /\ k <= m) /\ exists c, In c l /\ longest c m).
  { clear. induction l as [|a l IH]; intros Hne H; [contradiction|]. destruct (H a (or_introl eq_refl)) as (k & Hk). destruct l as [|b l]; [exists k; split; [intros c [<-|[]]; exists k; split; [exact Hk|lia]|exists a; split; [left; reflexivity|exact Hk]]|].
    destruct (IH ltac:(discriminate) (fun c Hc => H c (or_intror Hc))) as (m & A & c & Hc & B). exists (Nat.max k m). split.
    - intros x [<-|Hx]; [exists k; split; [exact Hk|lia]|]. destruct (A x Hx) as (j & Hj & Le). exists j. split; [exact Hj|lia].
    - destruct (Nat.max_spec k m) as [[_ ->]|[_ ->]]; [exists c; split; [right; exact Hc|exact B]|exists a; split; [left; reflexivity|exact Hk]]. }
  destruct (M (t_fanins net n)) as (m & A & B); [|exact Hf|].
  - destruct (nw_gates _ _ Hnet n K') as (l2 & c2 & E2 & Hne). unfold t_fanins. rewrite E2. exact Hne.
  - exists (m + 1). apply (longest_gate net order Hnet false unit_cost); assumption.
Qed.
Lemma lev_longest n : known net order n -> live net unit_cost n -> longest n (lev n).
Proof using All. intros K L. destruct (longest_exists n K) as (k & Hk). unfold lvl. rewrite (proj2 (Hlv n k) (conj L Hk)). exact Hk. Qed.
Lemma order_known n : In n order -> known net order n.
Proof using Hnet. intros H. unfold known. destruct (nw_gates _ _ Hnet n H) as (lit & ch & -> & _). exact H. Qed.
(** The level of a gate: above all fan-ins, and one above some fan-in. *)
Lemma lev_above n c : In n order -> In c (t_fanins net n) -> S (lev c) <= lev n.
Proof using All.
  intros Ho Hc. destruct (fanin_known net order Hnet n c (order_known n Ho) Hc) as (_ & Kc & _). pose proof (lev_longest c Kc (live_down n c Hc (Hlive n Ho))) as [Lc _].
  pose proof (proj2 (lev_longest n (order_known n Ho) (Hlive n Ho)) _ (chain_gate _ _ _ n c _ Hc Lc)) as X. cbn beta in X. lia.
Qed.
Lemma lev_reach n : In n order -> exists c, In c (t_fanins net n) /\ lev n = S (lev c).
Proof using All.
  intros Ho. destruct (lev_longest n (order_known n Ho) (Hlive n Ho)) as [C _]. destruct (nw_gates _ _ Hnet n Ho) as (lit & ch & E & _). inversion C as [? ? X|? X|? c k Hc Ck]; subst; [congruence|congruence|]. exists c. split; [exact Hc|].
  destruct (fanin_known net order Hnet n c (order_known n Ho) Hc) as (_ & Kc & _). pose proof (proj2 (lev_longest c Kc (live_down n c Hc (Hlive n Ho))) _ Ck). pose proof (lev_above n c Ho Hc). lia.
Qed.
Lemma lev_bound n : known net order n -> (Z.of_nat (lev n) < 2 ^ 32)%Z.
Proof using All.
  intros K. unfold lvl. destruct (lv !! n) as [k|] eqn:E; [|cbn; lia]. cbn. apply Hlv in E as [_ [C _]]. eapply (chain_small net order Hnet false unit_cost); [exact Hshort|discriminate|exact C|exact K].
Qed.
Lemma diff_exact n c : In n order -> In c (t_fanins net n) -> u32 (Z.of_nat (lev n) - Z.of_nat (lev c) - 1) = lev n - lev c - 1.
Proof using All. intros Ho Hc. pose proof (lev_above n c Ho Hc). pose proof (lev_bound n (order_known n Ho)). rewrite u32_small by lia. lia. Qed.

(** *** The network under construction: values, heights and the gates that were added *)
Definition height_ok (ht : list nat) (x : tnode) (h : nat) : Prop :=
  match x with TGate _ ch => (forall c, In c ch -> c < 2 \/ exists hc, ht !! c = Some hc /\ h = S hc) /\ ((forall c, In c ch -> c < 2) -> h = 1) | _ => h = 0 end.
Record work (st : fstate) (own ht : list nat) (kn : list nat) : Prop := mkWork {
  w_base : base sem net st own;
  w_map : forall n r, f_map st !! n = Some r -> own !! r = Some n /\ ht !! r = Some (lev n) /\ (r < 2 <-> t_is_constant net n = true);
  w_known : forall n, In n kn -> is_Some (f_map st !! n);
  w_nodes : exists gs, f_nodes st = f_nodes (copy_network net) ++ gs /\ forall x, In x gs -> exists lit ch, x = TGate lit ch /\ ch <> [];
  w_len : length ht = length (f_nodes st);
  w_height : forall i x h, f_nodes st !! i = Some x -> ht !! i = Some h -> height_ok ht x h
}.
Lemma height_more ht ht' x h : height_ok ht x h -> height_ok (ht ++ ht') x h.
Proof. destruct x as [| |lit ch]; cbn; auto. intros [A B]. split; [|exact B]. intros c Hc. destruct (A c Hc) as [|(hc & E & F)]; [auto|right; exists hc; split; [apply lookup_app_l_Some, E|exact F]]. Qed.
Lemma work_add st own ht kn lit ch n h : work st own ht kn -> base sem net (push st (TGate lit ch)) (own ++ [n]) -> ch <> [] -> height_ok ht (TGate lit ch) h -> work (push st (TGate lit ch)) (own ++ [n]) (ht ++ [h]) kn.
Proof.
  intros W B Hne Hh. constructor.
  - exact B.
  - intros m r E. cbn [push f_map] in E. destruct (w_map _ _ _ _ W m r E) as (A1 & A2 & A3). split; [apply lookup_app_l_Some, A1|]. split; [apply lookup_app_l_Some, A2|exact A3].
  - exact (w_known _ _ _ _ W).
  - destruct (w_nodes _ _ _ _ W) as (gs & E & G). exists (gs ++ [TGate lit ch]). split; [cbn; rewrite E, app_assoc; reflexivity|]. intros x Hx. apply in_app_or in Hx as [Hx|[<-|[]]]; [apply G, Hx|]. eauto.
  - cbn [push f_nodes]. rewrite !app_length, (w_len _ _ _ _ W). reflexivity.
  - cbn [push f_nodes]. intros i x k Hi Hk. apply height_more. pose proof (w_len _ _ _ _ W) as L. apply lookup_app_Some in Hi as [Hi|[Hl Hi]].
    + rewrite lookup_app_l in Hk by (rewrite L; eapply lookup_lt_Some, Hi). eapply w_height; eassumption.
    + rewrite lookup_app_r in Hk by lia. rewrite L in Hk. destruct (i - length (f_nodes st)) as [|j]; [|destruct j; discriminate Hi]. injection Hi as <-. injection Hk as <-. exact Hh.
Qed.
(** Paths in a list of nodes. *)
Inductive path (nodes : list tnode) : nat -> nat -> Prop :=
| path_here i : path nodes i i
| path_step i j k x : nodes !! j = Some x -> In i (t_children x) -> path nodes j k -> path nodes i k.
Lemma path_more nodes ns i j : path nodes i j -> path (nodes ++ ns) i j.
Proof. induction 1 as [|? ? ? ? H1 H2 _ IH]; [constructor|]. eapply path_step; [apply lookup_app_l_Some, H1|exact H2|exact IH]. Qed.
Lemma path_trans nodes i j k : path nodes i j -> path nodes j k -> path nodes i k.
Proof. induction 1; [auto|]. intros. eapply path_step; eauto. Qed.
(** What a step leaves in place. *)
Definition keeps (st : fstate) (own ht : list nat) (st' : fstate) (own' ht' : list nat) : Prop :=
  f_map st' = f_map st /\ f_pos st' = f_pos st /\ (exists o, own' = own ++ o) /\ (exists h, ht' = ht ++ h) /\ exists ns, f_nodes st' = f_nodes st ++ ns.
Lemma keeps_refl st own ht : keeps st own ht st own ht.
Proof. split; [reflexivity|]. split; [reflexivity|]. split; [|split]; exists []; rewrite app_nil_r; reflexivity. Qed.
Lemma keeps_trans st own ht st1 own1 ht1 st2 own2 ht2 : keeps st own ht st1 own1 ht1 -> keeps st1 own1 ht1 st2 own2 ht2 -> keeps st own ht st2 own2 ht2.
Proof. intros (A & B & (o & ->) & (h & ->) & (ns & E)) (A' & B' & (o' & ->) & (h' & ->) & (ns' & E')). split; [congruence|]. split; [congruence|]. split; [exists (o ++ o')|split; [exists (h ++ h')|exists (ns ++ ns'); rewrite E', E]]; rewrite app_assoc; reflexivity. Qed.
Lemma keeps_path st own ht st' own' ht' i j : keeps st own ht st' own' ht' -> path (f_nodes st) i j -> path (f_nodes st') i j.
Proof. intros (_ & _ & _ & _ & (ns & ->)). apply path_more. Qed.
Lemma keeps_lookup st own ht st' own' ht' c n h : keeps st own ht st' own' ht' -> own !! c = Some n -> ht !! c = Some h -> own' !! c = Some n /\ ht' !! c = Some h.
Proof. intros (_ & _ & (o & ->) & (k & ->) & _) A B. split; apply lookup_app_l_Some; assumption. Qed.
Lemma const_below st own ht kn c : work st own ht kn -> c < 2 -> ht !! c = Some 0.
Proof.
  intros W Hc. destruct (w_nodes _ _ _ _ W) as (gs & E & _). pose proof (w_len _ _ _ _ W) as L. assert (Hx : exists b, f_nodes st !! c = Some (TConst b)) by (rewrite E; unfold copy_network; cbn [f_nodes]; destruct c as [|[|c]]; [eexists; reflexivity|eexists; reflexivity|lia]).
  destruct Hx as (b & Hx). destruct (lookup_lt_is_Some_2 ht c) as (h & Hh); [rewrite L; eapply lookup_lt_Some, Hx|]. pose proof (w_height _ _ _ _ W c _ h Hx Hh) as X. cbn in X. congruence.
Qed.
Lemma chain_ok : forall num child st own ht kn n h, work st own ht kn -> own !! child = Some n -> ht !! child = Some h ->
  exists st' own' ht' child', insert_buf_chain num child st = (st', child') /\ work st' own' ht' kn /\ keeps st own ht st' own' ht' /\ own' !! child' = Some n /\ ht' !! child' = Some (h + num) /\ (child' < 2 -> num = 0 /\ child' = child) /\
  path (f_nodes st') child child' /\ forall i, length (f_nodes st) <= i < length (f_nodes st') -> path (f_nodes st') i child'.
Proof using Hbuf.
  induction num as [|num IH]; intros child st own ht kn n h W Ho Hh.
  - exists st, own, ht, child. split; [reflexivity|]. split; [exact W|]. split; [apply keeps_refl|]. split; [exact Ho|]. split; [rewrite Nat.add_0_r; exact Hh|]. split; [auto|]. split; [constructor|intros; lia].
  - cbn [insert_buf_chain]. assert (W1 : work (create_buf st child) (own ++ [n]) (ht ++ [S h]) kn).
    { apply work_add; [exact W|apply (base_buf sem Hbuf net ps1 (fun _ => 0) D2); [apply (w_base _ _ _ _ W)|exact Ho]|discriminate|]. cbn. split; [intros c [<-|[]]; right; eauto|]. intros X. specialize (X child (or_introl eq_refl)). rewrite (const_below _ _ _ _ _ W X) in Hh. congruence. }
    pose proof (b_len _ _ _ _ (w_base _ _ _ _ W)) as Lo. pose proof (w_len _ _ _ _ W) as Lh.
    destruct (IH (next_node st) (create_buf st child) (own ++ [n]) (ht ++ [S h]) kn n (S h) W1) as (st' & own' & ht' & c' & E & W' & Kp & O' & H' & X & P1 & P2).
    + unfold next_node. rewrite <- Lo, lookup_app_r, Nat.sub_diag by lia. reflexivity.
    + unfold next_node. rewrite <- Lh, lookup_app_r, Nat.sub_diag by lia. reflexivity.
    + exists st', own', ht', c'. split; [exact E|]. split; [exact W'|]. split; [eapply keeps_trans; [|exact Kp]; split; [reflexivity|]; split; [reflexivity|]; split; [|split]; eexists; reflexivity|]. split; [exact O'|]. split; [rewrite H'; f_equal; lia|]. split; [|split].
      2: { eapply (path_step _ child (next_node st) c' (TGate 2 [child])); [|left; reflexivity|exact P1]. destruct Kp as (_ & _ & _ & _ & (ns & ->)). apply lookup_app_l_Some. unfold next_node. cbn [create_buf push f_nodes]. rewrite lookup_app_r, Nat.sub_diag by lia. reflexivity. }
      2: { intros i Hi. destruct (Nat.eq_dec i (next_node st)) as [->|N]; [exact P1|]. apply P2. unfold next_node in N. cbn [create_buf push f_nodes]. rewrite app_length. cbn. lia. }
      intros Y. destruct (X Y) as [_ ->]. exfalso. unfold next_node in Y. destruct (w_nodes _ _ _ _ W) as (gs & En & _). rewrite En in Y. unfold copy_network in Y. cbn [f_nodes] in Y. rewrite !app_length in Y. cbn in Y. lia.
Qed.
Lemma fanins_ok n : In n order -> forall l st own ht kn, work st own ht kn -> (forall c, In c l -> In c (t_fanins net n) /\ In c kn) ->
  exists st' own' ht' cs, balance_fanins net lv n l st = (st', cs) /\ work st' own' ht' kn /\ keeps st own ht st' own' ht' /\ Forall2 (fun c x => own' !! x = Some c /\ (x < 2 <-> t_is_constant net c = true) /\ (t_is_constant net c = false -> ht' !! x = Some (lev n - 1)) /\ exists r, f_map st !! c = Some r /\ path (f_nodes st') r x) l cs /\
  forall i, length (f_nodes st) <= i < length (f_nodes st') -> exists x, In x cs /\ path (f_nodes st') i x.
Proof using All.
  intros Hn. induction l as [|c l IH]; intros st own ht kn W Hl; [exists st, own, ht, []; split; [reflexivity|]; split; [exact W|]; split; [apply keeps_refl|split; [constructor|intros; lia]]|].
  cbn [balance_fanins]. destruct (Hl c (or_introl eq_refl)) as [Hc Hk]. destruct (w_known _ _ _ _ W c Hk) as (r & Er). destruct (w_map _ _ _ _ W c r Er) as (Or & Hr & Cr).
  assert (S1 : exists st1 own1 ht1 x, (if t_is_constant net c then (st, old2new st c) else insert_buf_chain (u32 (Z.of_nat (lev n) - Z.of_nat (lev c) - 1)) (old2new st c) st) = (st1, x) /\ work st1 own1 ht1 kn /\ keeps st own ht st1 own1 ht1 /\
    own1 !! x = Some c /\ (x < 2 <-> t_is_constant net c = true) /\ (exists hx, ht1 !! x = Some hx /\ (t_is_constant net c = false -> hx = lev n - 1)) /\
    path (f_nodes st1) r x /\ forall i, length (f_nodes st) <= i < length (f_nodes st1) -> path (f_nodes st1) i x).
  { unfold old2new. rewrite Er. cbn [default]. destruct (t_is_constant net c) eqn:Ec.
    - exists st, own, ht, r. split; [reflexivity|]. split; [exact W|]. split; [apply keeps_refl|]. split; [exact Or|]. split; [exact Cr|]. split; [exists (lev c); split; [exact Hr|discriminate]|]. split; [constructor|intros; lia].
    - rewrite (diff_exact n c Hn Hc). destruct (chain_ok (lev n - lev c - 1) r st own ht kn c (lev c) W Or Hr) as (st1 & own1 & ht1 & x & E & W1 & Kp & Ox & Hx & X & P1 & P2). exists st1, own1, ht1, x. split; [exact E|]. split; [exact W1|]. split; [exact Kp|]. split; [exact Ox|]. split.
      + split; [|discriminate]. intros Y. destruct (X Y) as [_ ->]. apply Cr, Y.
      + split; [|split; [exact P1|exact P2]]. exists (lev c + (lev n - lev c - 1)). split; [exact Hx|]. intros _. pose proof (lev_above n c Hn Hc). lia. }
  destruct S1 as (st1 & own1 & ht1 & x & -> & W1 & Kp1 & Ox & Cx & (hx & Hx & Lx) & P1 & P2).
  destruct (IH st1 own1 ht1 kn W1 (fun y Hy => Hl y (or_intror Hy))) as (st2 & own2 & ht2 & cs & E2 & W2 & Kp2 & F2 & G2). rewrite E2. exists st2, own2, ht2, (x :: cs). split; [reflexivity|]. split; [exact W2|]. split; [eapply keeps_trans; eassumption|].
  destruct (keeps_lookup _ _ _ _ _ _ x c hx Kp2 Ox Hx) as [O2 H2]. split.
  - constructor.
    + split; [exact O2|]. split; [exact Cx|]. split; [intros Y; rewrite H2, (Lx Y); reflexivity|]. exists r. split; [exact Er|]. eapply keeps_path; eassumption.
    + destruct Kp1 as (Km & _). rewrite <- Km. exact F2.
  - intros i Hi. destruct (Nat.lt_ge_cases i (length (f_nodes st1))) as [H|H].
    + exists x. split; [left; reflexivity|]. eapply keeps_path; [exact Kp2|]. apply P2. lia.
    + destruct (G2 i) as (y & Hy & Py); [lia|]. exists y. split; [right; exact Hy|exact Py].
Qed.
(** Every gate leads to the image of a gate; images of fan-ins lead to images of gates. *)
Definition linked (st : fstate) : Prop :=
  (forall i, 2 + length (t_pis net) <= i < length (f_nodes st) -> exists m r, In m order /\ f_map st !! m = Some r /\ path (f_nodes st) i r) /\
  (forall m r c, In m order -> f_map st !! m = Some r -> In c (t_fanins net m) -> exists rc, f_map st !! c = Some rc /\ path (f_nodes st) rc r).
Lemma gate_ok n st own ht kn : In n order -> ~ In n kn -> (forall c, In c (t_fanins net n) -> In c kn) -> work st own ht kn -> (forall m, is_Some (f_map st !! m) -> In m kn) -> linked st -> f_pos st = [] ->
  exists st' own' ht', balance_gate net lv n st = Some st' /\ work st' own' ht' (n :: kn) /\ (forall m, is_Some (f_map st' !! m) -> In m (n :: kn)) /\ linked st' /\ f_pos st' = [].
Proof using All.
  intros Hn Hnk Hf W Hm HL Hp. destruct (nw_gates _ _ Hnet n Hn) as (lit & ch & E & Hne). unfold balance_gate. rewrite E. assert (Ef : t_fanins net n = ch) by (unfold t_fanins; rewrite E; reflexivity). rewrite Ef in Hf.
  destruct (fanins_ok n Hn ch st own ht kn W) as (st1 & own1 & ht1 & cs & E1 & W1 & Kall & F & G); [intros c Hc; rewrite Ef; auto|]. rewrite E1. pose proof Kall as (Km & Kp & _).
  assert (Lc : length cs = length ch) by (symmetry; eapply Forall2_length, F). assert (Hcs : forall x, In x cs -> exists c, In c ch /\ own1 !! x = Some c /\ (x < 2 <-> t_is_constant net c = true) /\ (t_is_constant net c = false -> ht1 !! x = Some (lev n - 1)) /\ exists r, f_map st !! c = Some r /\ path (f_nodes st1) r x).
  { clear - F. induction F as [|c x l l' H _ IH]; intros y Hy; [destruct Hy|]. destruct Hy as [<-|Hy]; [exists c; split; [left; reflexivity|exact H]|]. destruct (IH y Hy) as (c' & Hc' & X). exists c'. split; [right; exact Hc'|exact X]. }
  assert (B : base sem net (push st1 (TGate lit cs)) (own1 ++ [n])).
  { apply (base_push sem net ps1 D2); [apply (w_base _ _ _ _ W1)|intros x Hx; destruct (Hcs x Hx) as (c & _ & O & _); eapply lookup_lt_Some, O|]. intros env b. rewrite (value_gate_inv sem net env n b lit ch E).
    assert (FF : forall vs, Forall2 (value sem (mkT (f_nodes st1) dpis []) env) cs vs <-> Forall2 (value sem net env) ch vs).
    { pose proof (w_base _ _ _ _ W1) as B1. clear - F B1. induction F as [|f f' l l' [H _] _ IH]; intros vs; [split; intros X; inversion X; constructor|]. split; intros X; inversion X as [|? y ? r X1 X2]; subst; (constructor; [apply (b_val _ _ _ _ B1 _ _ env y H), X1|apply IH, X2]). }
    split; intros (vs & V & S); exists vs; (split; [apply FF, V|exact S]). }
  destruct (lev_reach n Hn) as (c0 & Hc0 & L0). rewrite Ef in Hc0.
  assert (Hh : height_ok ht1 (TGate lit cs) (lev n)).
  { cbn. split.
    - intros x Hx. destruct (Hcs x Hx) as (c & Hc & _ & Cx & Lx & _). destruct (t_is_constant net c) eqn:Ec; [left; apply Cx; reflexivity|right]. exists (lev n - 1). split; [apply Lx; reflexivity|lia].
    - intros All. rewrite L0. f_equal. assert (C0 : t_is_constant net c0 = true). { clear - F All Hc0. induction F as [|c x l l' (_ & H & _) _ IH]; [destruct Hc0|]. destruct Hc0 as [->|Hc0]; [apply H, All; left; reflexivity|apply IH; [exact Hc0|intros y Hy; apply All; right; exact Hy]]. }
      unfold t_is_constant in C0. destruct (t_nodes net !! c0) as [[b| |]|] eqn:Ec0; try discriminate C0. eapply lev_const, Ec0. }
  assert (W2 : work (push st1 (TGate lit cs)) (own1 ++ [n]) (ht1 ++ [lev n]) kn) by (apply work_add; [exact W1|exact B|intros ->; destruct ch; [contradiction|discriminate Lc]|exact Hh]).
  pose proof (b_len _ _ _ _ (w_base _ _ _ _ W1)) as Lo. pose proof (w_len _ _ _ _ W1) as Lh.
  exists (set_map (push st1 (TGate lit cs)) n (next_node st1)), (own1 ++ [n]), (ht1 ++ [lev n]). split; [reflexivity|]. split; [|split; [|split]].
  - constructor; cbn [set_map push f_nodes f_pos f_map].
    + destruct B as [B1 B2 B3]. constructor; assumption.
    + intros m r H. destruct (Nat.eq_dec n m) as [<-|N].
      * rewrite lookup_insert in H. injection H as <-. unfold next_node. split; [rewrite <- Lo, lookup_app_r, Nat.sub_diag by lia; reflexivity|]. split; [rewrite <- Lh, lookup_app_r, Nat.sub_diag by lia; reflexivity|].
        unfold t_is_constant. rewrite E. split; [|discriminate]. intros Y. exfalso. destruct (w_nodes _ _ _ _ W1) as (gs & En & _). rewrite En in Y. unfold copy_network in Y. cbn [f_nodes] in Y. rewrite !app_length in Y. cbn in Y. lia.
      * rewrite lookup_insert_ne in H by exact N. apply (w_map _ _ _ _ W2 m r H).
    + intros m [<-|H]; [rewrite lookup_insert; eauto|]. destruct (Nat.eq_dec n m) as [<-|N]; [contradiction|]. rewrite lookup_insert_ne by exact N. apply (w_known _ _ _ _ W2 m H).
    + apply (w_nodes _ _ _ _ W2).
    + apply (w_len _ _ _ _ W2).
    + apply (w_height _ _ _ _ W2).
  - cbn [set_map push f_map]. intros m H. destruct (Nat.eq_dec n m) as [<-|N]; [left; reflexivity|]. rewrite lookup_insert_ne in H by exact N. right. apply Hm. rewrite Km in H. exact H.
  - assert (Nn : (f_nodes st1 ++ [TGate lit cs]) !! next_node st1 = Some (TGate lit cs)) by (unfold next_node; rewrite lookup_app_r, Nat.sub_diag by lia; reflexivity).
    assert (Last : forall x, In x cs -> path (f_nodes st1 ++ [TGate lit cs]) x (next_node st1)) by (intros x Hx; eapply path_step; [exact Nn|exact Hx|constructor]).
    destruct HL as [L1 L2]. unfold linked. cbn [set_map push f_nodes f_map]. split.
    + intros i Hi. rewrite app_length in Hi. cbn [length] in Hi. destruct (Nat.lt_ge_cases i (length (f_nodes st))) as [H|H].
      * destruct (L1 i) as (m & r & Hm1 & Hm2 & Pm); [lia|]. exists m, r. split; [exact Hm1|]. split; [|apply path_more; eapply keeps_path; eassumption]. rewrite lookup_insert_ne; [rewrite Km; exact Hm2|]. intros <-. apply Hnk, Hm. eauto.
      * exists n, (next_node st1). split; [exact Hn|]. split; [apply lookup_insert|]. destruct (Nat.eq_dec i (next_node st1)) as [->|N]; [constructor|]. unfold next_node in N. destruct (G i) as (x & Hx & Px); [lia|]. eapply path_trans; [apply path_more, Px|apply Last, Hx].
    + intros m r c Ho Hr Hc. destruct (Nat.eq_dec n m) as [<-|N].
      * rewrite lookup_insert in Hr. injection Hr as <-. rewrite Ef in Hc. assert (exists x, In x cs /\ exists rc, f_map st !! c = Some rc /\ path (f_nodes st1) rc x) as (x & Hx & rc & Hrc & Px).
        { clear - F Hc. induction F as [|f x l l' (_ & _ & _ & H) _ IH]; [destruct Hc|]. destruct Hc as [->|Hc]; [exists x; split; [left; reflexivity|exact H]|]. destruct (IH Hc) as (y & Hy & X). exists y. split; [right; exact Hy|exact X]. }
        exists rc. split; [|eapply path_trans; [apply path_more, Px|apply Last, Hx]]. rewrite lookup_insert_ne; [rewrite Km; exact Hrc|]. intros <-. apply Hnk, Hm. eauto.
      * rewrite lookup_insert_ne in Hr by exact N. rewrite Km in Hr. destruct (L2 m r c Ho Hr Hc) as (rc & Hrc & Pr). exists rc. split; [|apply path_more; eapply keeps_path; eassumption]. rewrite lookup_insert_ne; [rewrite Km; exact Hrc|]. intros <-. apply Hnk, Hm. eauto.
  - cbn. congruence.
Qed.
Lemma gates_all : forall l done st own ht, order = done ++ l -> work st own ht (rev done ++ K0) -> (forall m, is_Some (f_map st !! m) -> In m (rev done ++ K0)) -> linked st -> f_pos st = [] ->
  exists st' own' ht', fold_o (balance_gate net lv) l st = Some st' /\ work st' own' ht' (rev order ++ K0) /\ linked st' /\ f_pos st' = [].
Proof using All.
  induction l as [|n l IH]; intros done st own ht E W Hm HL Hp; cbn [fold_o].
  - rewrite app_nil_r in E. subst done. exists st, own, ht. auto.
  - assert (Hn : In n order) by (rewrite E; apply in_or_app; right; left; reflexivity). destruct (nw_gates _ _ Hnet n Hn) as (lit & ch & En & _).
    destruct (gate_ok n st own ht (rev done ++ K0) Hn) as (st1 & own1 & ht1 & E1 & W1 & M1 & L1 & P1); [| |exact W|exact Hm|exact HL|exact Hp|].
    + intros H. apply in_app_or in H as [H|H].
      * rewrite <- in_rev in H. pose proof (nw_order _ _ Hnet) as ND. rewrite E in ND. eapply List.NoDup_remove_2; [exact ND|]. apply in_or_app. left. exact H.
      * destruct H as [<-|[<-|H]]; [rewrite (nw_0 _ _ Hnet) in En|rewrite (nw_1 _ _ Hnet) in En|apply (nw_pis _ _ Hnet) in H; rewrite H in En]; discriminate En.
    + intros c Hc. assert (Hi : order !! length done = Some n) by (rewrite E, lookup_app_r, Nat.sub_diag by lia; reflexivity). pose proof (nw_topo _ _ Hnet _ _ _ Hi Hc) as T. apply in_or_app. destruct (t_nodes net !! c) as [[b| |]|] eqn:Ec; [| | |destruct T].
      * right. pose proof (nw_const _ _ Hnet c b Ec). destruct c as [|[|c]]; [left; reflexivity|right; left; reflexivity|lia].
      * right. right. right. apply (nw_pis _ _ Hnet), Ec.
      * left. destruct T as (j & Lt & Hj). rewrite E, lookup_app_l in Hj by exact Lt. rewrite <- in_rev. eapply elem_of_list_In, elem_of_list_lookup_2, Hj.
    + rewrite E1. apply (IH (done ++ [n]) st1 own1 ht1); [rewrite <- app_assoc; exact E|rewrite rev_unit; exact W1|rewrite rev_unit; exact M1|exact L1|exact P1].
Qed.
Lemma start_work : exists ht, work (copy_network net) K0 ht K0 /\ (forall m, is_Some (f_map (copy_network net) !! m) -> In m K0) /\ linked (copy_network net) /\ f_pos (copy_network net) = [].
Proof using All.
  pose proof (start_base sem net order Hnet ps1 D2) as SO. pose proof (start_len net) as SL. exists (repeat 0 (length (f_nodes (copy_network net)))).
  assert (R0 : forall k m, m < k -> repeat 0 k !! m = Some 0) by (clear; induction k as [|k IH]; intros [|m] H; [lia|lia|reflexivity|apply IH; lia]).
  assert (ML : forall n k, f_map (copy_network net) !! n = Some k <-> K0 !! k = Some n) by (intros n k; apply (M0_lookup net order Hnet ps1 D2)).
  assert (SN : forall k n, K0 !! k = Some n -> exists x, t_nodes net !! n = Some x /\ f_nodes (copy_network net) !! k = Some x /\ match x with TGate _ _ => False | _ => True end) by (intros k n; apply (start_node net order Hnet ps1 D2)).
  split; [|split; [|split; [split|reflexivity]]].
  - constructor.
    + exact SO.
    + intros n r H. apply ML in H. destruct (SN r n H) as (x & Hx & Hy & G). split; [exact H|]. split.
      * rewrite R0 by (rewrite SL; eapply lookup_lt_Some, H). f_equal. destruct x as [b| |]; [symmetry; eapply lev_const, Hx|symmetry; eapply lev_pi, Hx|destruct G].
      * unfold t_is_constant. rewrite Hx. destruct r as [|[|r]]; cbn in H; [injection H as <-|injection H as <-|].
        -- rewrite (nw_0 _ _ Hnet) in Hx. injection Hx as <-. split; [reflexivity|lia].
        -- rewrite (nw_1 _ _ Hnet) in Hx. injection Hx as <-. split; [reflexivity|lia].
        -- split; [lia|]. destruct x as [b| |]; [|discriminate|discriminate]. intros _. exfalso. pose proof (nw_const _ _ Hnet n b Hx). change (t_pis net !! r = Some n) in H. apply elem_of_list_lookup_2, elem_of_list_In, (nw_pis _ _ Hnet) in H. congruence.
    + intros n H. apply elem_of_list_In, elem_of_list_lookup in H as (k & H). exists k. apply ML, H.
    + exists []. split; [rewrite app_nil_r; reflexivity|intros x []].
    + apply repeat_length.
    + intros i x h Hx Hh. pose proof (lookup_lt_Some _ _ _ Hx) as Lt. rewrite (R0 _ i Lt) in Hh. injection Hh as <-. rewrite SL in Lt. destruct (lookup_lt_is_Some_2 K0 i Lt) as (n & Hn). destruct (SN i n Hn) as (y & _ & Hy & G). rewrite Hx in Hy. injection Hy as <-. destruct x; [reflexivity|reflexivity|destruct G].
  - intros m [r H]. apply ML in H. eapply elem_of_list_In, elem_of_list_lookup_2, H.
  - intros i Hi. rewrite SL in Hi. cbn in Hi. lia.
  - intros m r c Ho H _. apply ML in H. destruct (SN r m H) as (x & Hx & _ & G). destruct (nw_gates _ _ Hnet m Ho) as (lit & ch & E & _). rewrite Hx in E. injection E as ->. destruct G.
Qed.

(** *** Outputs *)
Notation top := (list_max (map lev (t_pos net))).
Lemma pos_done c : In c (t_pos net) -> In c (rev order ++ K0).
Proof using Hnet.
  intros H. pose proof (nw_pos _ _ Hnet c H) as P. apply in_or_app. destruct (t_nodes net !! c) as [[b| |]|] eqn:Ec; [| | |destruct P].
  - right. pose proof (nw_const _ _ Hnet c b Ec). destruct c as [|[|c]]; [left; reflexivity|right; left; reflexivity|lia].
  - right. right. right. apply (nw_pis _ _ Hnet), Ec.
  - left. rewrite <- in_rev. exact P.
Qed.
Lemma top_ge n : In n (t_pos net) -> lev n <= top.
Proof. intros H. pose proof (proj1 (list_max_le (map lev (t_pos net)) top) (le_n _)) as F. rewrite List.Forall_forall in F. apply F, in_map, H. Qed.
Lemma top_small : (Z.of_nat top < 2 ^ 32)%Z.
Proof using All.
  assert (H : top = 0 \/ exists n, In n (t_pos net) /\ lev n = top).
  { generalize (t_pos net) as l. induction l as [|a l IH]; [left; reflexivity|]. right. change (list_max (map lev (a :: l))) with (Nat.max (lev a) (list_max (map lev l))). destruct (Nat.max_spec (lev a) (list_max (map lev l))) as [[_ E]|[_ E]]; rewrite E; [|exists a; split; [left; reflexivity|reflexivity]]. destruct IH as [E0|(n & Hn & En)]; [exists a; split; [left; reflexivity|lia]|exists n; split; [right; exact Hn|exact En]]. }
  destruct H as [->|(n & Hn & <-)]; [cbn; lia|]. apply lev_bound. pose proof (pos_known net order Hnet n Hn). assumption.
Qed.
Definition placed (u : bool) (st : fstate) (own ht : list nat) (n p : nat) : Prop :=
  own !! p = Some n /\ ht !! p = Some (if u then top else lev n) /\ exists r, f_map st !! n = Some r /\ path (f_nodes st) r p.
Definition served (st : fstate) : Prop :=
  forall i, 2 + length (t_pis net) <= i < length (f_nodes st) -> (exists m r, In m order /\ f_map st !! m = Some r /\ path (f_nodes st) i r) \/ exists p, In p (f_pos st) /\ path (f_nodes st) i p.
Definition edges (st : fstate) : Prop := forall m r c, In m order -> f_map st !! m = Some r -> In c (t_fanins net m) -> exists rc, f_map st !! c = Some rc /\ path (f_nodes st) rc r.
Lemma outputs_all u : forall l done st own ht, t_pos net = done ++ l -> work st own ht (rev order ++ K0) -> served st -> edges st -> Forall2 (placed u st own ht) done (f_pos st) ->
  exists st' own' ht', fold_o (balance_po u lv top) l st = Some st' /\ work st' own' ht' (rev order ++ K0) /\ served st' /\ edges st' /\ Forall2 (placed u st' own' ht') (t_pos net) (f_pos st').
Proof using All.
  induction l as [|n l IH]; intros done st own ht E W HS HE F; cbn [fold_o].
  - rewrite app_nil_r in E. rewrite E. exists st, own, ht. auto.
  - assert (Hn : In n (t_pos net)) by (rewrite E; apply in_or_app; right; left; reflexivity). destruct (w_known _ _ _ _ W n (pos_done n Hn)) as (r & Er). destruct (w_map _ _ _ _ W n r Er) as (Or & Hr & _).
    assert (S1 : exists st1 own1 ht1 p, (if u then insert_buf_chain (u32 (Z.of_nat top - Z.of_nat (lev n))) (old2new st n) st else (st, old2new st n)) = (st1, p) /\ work st1 own1 ht1 (rev order ++ K0) /\ keeps st own ht st1 own1 ht1 /\
      own1 !! p = Some n /\ ht1 !! p = Some (if u then top else lev n) /\ path (f_nodes st1) r p /\ forall i, length (f_nodes st) <= i < length (f_nodes st1) -> path (f_nodes st1) i p).
    { unfold old2new. rewrite Er. cbn [default]. destruct u.
      - pose proof (top_ge n Hn) as Lt. pose proof top_small as Sm. rewrite u32_small by lia. destruct (chain_ok (Z.to_nat (Z.of_nat top - Z.of_nat (lev n))) r st own ht (rev order ++ K0) n (lev n) W Or Hr) as (st1 & own1 & ht1 & p & E1 & W1 & Kp & Op & Hp & _ & P1 & P2).
        exists st1, own1, ht1, p. split; [exact E1|]. split; [exact W1|]. split; [exact Kp|]. split; [exact Op|]. split; [rewrite Hp; f_equal; lia|]. split; assumption.
      - exists st, own, ht, r. split; [reflexivity|]. split; [exact W|]. split; [apply keeps_refl|]. split; [exact Or|]. split; [exact Hr|]. split; [constructor|intros; lia]. }
    destruct S1 as (st1 & own1 & ht1 & p & E1 & W1 & Kp & Op & Hp & P1 & P2). unfold balance_po. rewrite E1. pose proof Kp as (Km & Kpos & _).
    apply (IH (done ++ [n]) (add_po p st1) own1 ht1).
    + rewrite <- app_assoc. exact E.
    + destruct W1 as [B A2 A3 A4 A5 A6]. constructor; try assumption. destruct B as [B1 [S1 S2] B3]. constructor; try assumption. cbn [add_po f_nodes f_pos]. split; [exact S1|]. intros c Hc. apply in_app_or in Hc as [Hc|[<-|[]]]; [apply S2, Hc|]. rewrite <- B1. eapply lookup_lt_Some, Op.
    + intros i Hi. cbn [add_po f_nodes f_pos f_map] in *. destruct (Nat.lt_ge_cases i (length (f_nodes st))) as [H|H].
      * destruct (HS i) as [(m & r' & H1 & H2 & H3)|(q & H1 & H2)]; [lia|left; exists m, r'; split; [exact H1|]; rewrite Km; split; [exact H2|eapply keeps_path; eassumption]|]. right. exists q. split; [apply in_or_app; left; rewrite Kpos; exact H1|eapply keeps_path; eassumption].
      * right. exists p. split; [apply in_or_app; right; left; reflexivity|apply P2; lia].
    + intros m r' c H1 H2 H3. cbn [add_po f_nodes f_map] in *. rewrite Km in *. destruct (HE m r' c H1 H2 H3) as (rc & H4 & H5). exists rc. split; [exact H4|eapply keeps_path; eassumption].
    + cbn [add_po f_pos]. apply Forall2_app; [|constructor; [|constructor]].
      * rewrite Kpos. eapply Forall2_impl; [exact F|]. intros a q (H1 & H2 & r' & H3 & H4). destruct (keeps_lookup _ _ _ _ _ _ _ _ _ Kp H1 H2) as [H5 H6]. split; [exact H5|]. split; [exact H6|]. exists r'. cbn [add_po f_nodes f_map]. rewrite Km. split; [exact H3|eapply keeps_path; eassumption].
      * split; [exact Op|]. split; [exact Hp|]. exists r. cbn [add_po f_nodes f_map]. rewrite Km. split; assumption.
Qed.
End balancing.
