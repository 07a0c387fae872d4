(** Proofs about balancing: the result and the check. *)
From Coq Require Import ZArith Bool List Lia.
From stdpp Require Import gmap list.
From Verif Require Import FanoutModel FanoutSpec FanoutProofs FanoutProofs2 FanoutProofs3 FanoutProofs4 DepthModel DepthSpec DepthProofs DepthProofs2.
Import ListNotations.

Notation unit_cost := (fun _ : nat => 1).
Lemma depth_levels net order : network net order -> short net unit_cost order ->
  exists lv, ntk_depth net = Some lv /\ forall n k, lv !! n = Some k <-> live net unit_cost n /\ longest net false unit_cost n k.
Proof.
  intros Hnet Hs. destruct (update_ok net order Hnet false unit_cost Hs) as (v & E & L & _); [discriminate|]. exists (v_levels v). split; [unfold ntk_depth; rewrite E; reflexivity|exact L].
Qed.

(** *** Heights that fit all gates *)
Section heights.
Context (net : tnet) (order : list nat) (Hnet : network net order) (h : nat -> nat).
Context (Hc : forall n b, t_nodes net !! n = Some (TConst b) -> h n = 0) (Hp : forall n, t_nodes net !! n = Some TPi -> h n = 0).
Context (Hg : forall n lit ch, t_nodes net !! n = Some (TGate lit ch) -> (forall c, In c ch -> t_is_constant net c = false -> h n = S (h c)) /\ ((forall c, In c ch -> t_is_constant net c = true) -> h n = 1)).
Lemma route_height n k : route net n k -> k = h n.
Proof using All.
  induction 1 as [n b E|n E|n lit ch E All|n c k Hin Nc _ IH].
  - symmetry. eapply Hc, E.
  - symmetry. eapply Hp, E.
  - symmetry. apply (proj2 (Hg n lit ch E)), All.
  - destruct (fanin_gate net n c Hin) as (lit & ch & E & Hch). rewrite (proj1 (Hg n lit ch E) c Hch Nc), IH. reflexivity.
Qed.
Lemma gate_pos n lit ch : t_nodes net !! n = Some (TGate lit ch) -> 1 <= h n.
Proof using Hg.
  intros E. destruct (Hg n lit ch E) as [A B]. assert (D : (exists c, In c ch /\ t_is_constant net c = false) \/ forall c, In c ch -> t_is_constant net c = true).
  { clear. induction ch as [|c l IH]; [right; intros c []|]. destruct (t_is_constant net c) eqn:Ec; [|left; exists c; split; [left; reflexivity|exact Ec]]. destruct IH as [(d & Hd & Ed)|IH]; [left; exists d; split; [right; exact Hd|exact Ed]|]. right. intros d [<-|Hd]; auto. }
  destruct D as [(c & Hin & Ec)|D]; [rewrite (A c Hin Ec); lia|rewrite (B D); lia].
Qed.
Lemma chain_height n k : chain net false unit_cost n k -> k <= h n.
Proof using All.
  induction 1 as [n b E|n E|n c k Hin _ IH]; [lia|lia|]. destruct (fanin_gate net n c Hin) as (lit & ch & E & Hch). destruct (t_is_constant net c) eqn:Ec.
  - unfold t_is_constant in Ec. destruct (t_nodes net !! c) as [[b| |]|] eqn:En; try discriminate Ec. rewrite (Hc c b En) in IH. pose proof (gate_pos n lit ch E). lia.
  - rewrite (proj1 (Hg n lit ch E) c Hch Ec). lia.
Qed.
Lemma height_longest n : known net order n -> longest net false unit_cost n (h n).
Proof using All.
  intros K. split; [|intros k Hk; apply chain_height, Hk]. remember (rank order n) as r eqn:Er. revert n Er K. induction r as [r IH] using lt_wf_ind. intros n -> K. pose proof K as K'. unfold known in K'. destruct (t_nodes net !! n) as [[b| |lit ch]|] eqn:E; [rewrite (Hc n b E); eapply chain_const, E|rewrite (Hp n E); apply (chain_input net false unit_cost n E)| |destruct K'].
  destruct (nw_gates _ _ Hnet n K') as (l2 & c2 & E2 & Hne). rewrite E in E2. injection E2 as <- <-. assert (Ef : t_fanins net n = ch) by (unfold t_fanins; rewrite E; reflexivity).
  assert (D : (exists c, In c ch /\ t_is_constant net c = false) \/ forall c, In c ch -> t_is_constant net c = true).
  { clear. induction ch as [|c l IH]; [right; intros c []|]. destruct (t_is_constant net c) eqn:Ec; [|left; exists c; split; [left; reflexivity|exact Ec]]. destruct IH as [(d & Hd & Ed)|IH]; [left; exists d; split; [right; exact Hd|exact Ed]|]. right. intros d [<-|Hd]; auto. }
  destruct (Hg n lit ch E) as [A B]. destruct D as [(c & Hin & Ec)|D].
  - rewrite (A c Hin Ec). replace (S (h c)) with (h c + 1) by lia. rewrite <- Ef in Hin. apply (chain_gate net false unit_cost n c (h c) Hin). destruct (fanin_known net order Hnet n c K Hin) as (_ & Kc & R). eapply IH; [exact R|reflexivity|exact Kc].
  - rewrite (B D). destruct ch as [|c ch]; [contradiction|]. specialize (D c (or_introl eq_refl)). unfold t_is_constant in D. destruct (t_nodes net !! c) as [[b| |]|] eqn:En; try discriminate D. apply (chain_gate net false unit_cost n c 0); [rewrite Ef; left; reflexivity|eapply chain_const, En].
Qed.
End heights.

(** *** The result of balancing *)
Section result.
Context (sem : nat -> list bool -> option bool) (Hbuf : buffers sem) (net : tnet) (order : list nat) (Hnet : network net order).
Context (Hlive : forall n, In n order -> live net unit_cost n) (Hshort : short net unit_cost order) (Hne : t_pos net <> []).
Notation K0 := (0 :: 1 :: t_pis net).
Notation dpis := (seq 2 (length (t_pis net))).
Lemma balancing_ok u : exists lv st own ht, ntk_depth net = Some lv /\ (forall n k, lv !! n = Some k <-> live net unit_cost n /\ longest net false unit_cost n k) /\
  network_balancing net order u = Some (mkT (f_nodes st) dpis (f_pos st)) /\ work sem net lv st own ht (rev order ++ K0) /\ served net order st /\ edges net order st /\ Forall2 (placed net lv u st own ht) (t_pos net) (f_pos st).
Proof using All.
  destruct (depth_levels net order Hnet Hshort) as (lv & E & Hlv).
  destruct (start_work sem Hbuf net order Hnet lv Hlv Hlive Hshort) as (ht0 & W0 & M0 & L0 & P0).
  destruct (gates_all sem Hbuf net order Hnet lv Hlv Hlive Hshort order [] (copy_network net) K0 ht0 eq_refl W0 M0 L0 P0) as (st1 & own1 & ht1 & E1 & W1 & [LA LB] & P1).
  destruct (outputs_all sem Hbuf net order Hnet lv Hlv Hlive Hshort u (t_pos net) [] st1 own1 ht1 eq_refl W1) as (st2 & own2 & ht2 & E2 & W2 & S2 & Ed2 & F2); [intros i Hi; left; apply LA, Hi|exact LB|rewrite P1; constructor|].
  exists lv, st2, own2, ht2. split; [exact E|]. split; [exact Hlv|]. split; [|auto]. unfold network_balancing. rewrite E, E1. destruct (t_pos net) as [|a l] eqn:Ep; [contradiction|]. rewrite E2. reflexivity.
Qed.
Section fixed.
Context (u : bool) (lv : gmap nat nat) (Hlv : forall n k, lv !! n = Some k <-> live net unit_cost n /\ longest net false unit_cost n k) (st : fstate) (own ht : list nat).
Context (W : work sem net lv st own ht (rev order ++ K0)) (HS : served net order st) (HE : edges net order st) (F : Forall2 (placed net lv u st own ht) (t_pos net) (f_pos st)).
Notation net' := (mkT (f_nodes st) dpis (f_pos st)).
Notation order' := (seq (2 + length (t_pis net)) (length (f_nodes st) - (2 + length (t_pis net)))).
Notation lev := (lvl lv).
Lemma res_equivalent : equivalent sem net net'.
Proof using All.
  split; [cbn; rewrite seq_length; reflexivity|]. split; [cbn; eapply Forall2_length, F|]. cbn [t_pos]. intros env k n m v H1 H2. rewrite value_pos. assert (P : placed net lv u st own ht n m) by (eapply Forall2_lookup_lr in F; eassumption). symmetry. apply (b_val _ _ _ _ (w_base _ _ _ _ _ _ _ W)), P.
Qed.
Lemma res_shape : exists gs, f_nodes st = [TConst false; TConst true] ++ repeat TPi (length (t_pis net)) ++ gs /\ length gs = length (f_nodes st) - (2 + length (t_pis net)) /\ forall x, In x gs -> exists lit ch, x = TGate lit ch /\ ch <> [].
Proof using W.
  destruct (w_nodes _ _ _ _ _ _ _ W) as (gs & E & G). exists gs. assert (E' : f_nodes st = [TConst false; TConst true] ++ repeat TPi (length (t_pis net)) ++ gs).
  { rewrite E. unfold copy_network. cbn [f_nodes]. cbn [app]. do 2 f_equal. f_equal. generalize (t_pis net) as l. induction l as [|a l IH]; [reflexivity|]. cbn. rewrite IH. reflexivity. }
  split; [exact E'|]. split; [|exact G]. rewrite E', !app_length, repeat_length. cbn. lia.
Qed.
Lemma res_network : network net' order'.
Proof using All.
  destruct res_shape as (gs & E & L & G). rewrite <- L. destruct (b_scoped _ _ _ _ (w_base _ _ _ _ _ _ _ W)) as [S1 S2]. rewrite E in S1, S2 |- *. apply network_of_list; [exact G|split; assumption].
Qed.
Definition hgt (i : nat) : nat := default 0 (ht !! i).
Lemma res_height i x : f_nodes st !! i = Some x -> ht !! i = Some (hgt i).
Proof using W. intros H. unfold hgt. destruct (lookup_lt_is_Some_2 ht i) as (h & ->); [|reflexivity]. rewrite (w_len _ _ _ _ _ _ _ W). eapply lookup_lt_Some, H. Qed.
Lemma res_const c : t_is_constant net' c = true <-> c < 2.
Proof using All.
  unfold t_is_constant. cbn [t_nodes]. pose proof res_network as N. split.
  - destruct (f_nodes st !! c) as [[b| |]|] eqn:E; try discriminate. intros _. eapply (nw_const _ _ N), E.
  - intros H. pose proof (nw_0 _ _ N) as N0. pose proof (nw_1 _ _ N) as N1. cbn [t_nodes] in N0, N1. destruct c as [|[|c]]; [rewrite N0; reflexivity|rewrite N1; reflexivity|lia].
Qed.
Lemma hgt_const n b : f_nodes st !! n = Some (TConst b) -> hgt n = 0.
Proof using W. intros E. apply (w_height _ _ _ _ _ _ _ W n _ _ E (res_height n _ E)). Qed.
Lemma hgt_pi n : f_nodes st !! n = Some TPi -> hgt n = 0.
Proof using W. intros E. apply (w_height _ _ _ _ _ _ _ W n _ _ E (res_height n _ E)). Qed.
Lemma hgt_gate n lit ch : f_nodes st !! n = Some (TGate lit ch) -> (forall c, In c ch -> t_is_constant net' c = false -> hgt n = S (hgt c)) /\ ((forall c, In c ch -> t_is_constant net' c = true) -> hgt n = 1).
Proof using All.
  intros E. destruct (w_height _ _ _ _ _ _ _ W n _ _ E (res_height n _ E)) as [A B]. split.
  - intros c Hc N. destruct (A c Hc) as [H|(hc & H1 & H2)]; [apply res_const in H; congruence|]. rewrite H2. unfold hgt at 1. rewrite H1. reflexivity.
  - intros All. apply B. intros c Hc. apply res_const, All, Hc.
Qed.
Lemma res_balanced : path_balanced net'.
Proof using All.
  intros n k k' R R'. rewrite (route_height net' order' res_network hgt hgt_const hgt_pi hgt_gate n k R), (route_height net' order' res_network hgt hgt_const hgt_pi hgt_gate n k' R'). reflexivity. Qed.
Lemma res_longest i : i < length (f_nodes st) -> longest net' false unit_cost i (hgt i).
Proof using All.
  intros Hi. apply (height_longest net' order' res_network hgt hgt_const hgt_pi hgt_gate). unfold known. cbn [t_nodes]. destruct (lookup_lt_is_Some_2 (f_nodes st) i Hi) as (x & E). rewrite E. destruct x as [| |lit ch]; [exact Logic.I|exact Logic.I|]. apply in_seq.
  destruct (Nat.lt_ge_cases i (2 + length (t_pis net))) as [Lt|]; [exfalso|lia]. pose proof res_network as N. pose proof (nw_0 _ _ N) as N0. pose proof (nw_1 _ _ N) as N1. cbn [t_nodes] in N0, N1. destruct i as [|[|i]]; [congruence|congruence|].
  assert (f_nodes st !! S (S i) = Some TPi); [|congruence]. apply (nw_pis _ _ N). cbn [t_pis]. apply in_seq. lia.
Qed.
Lemma res_outputs k n m : t_pos net !! k = Some n -> f_pos st !! k = Some m -> m < length (f_nodes st) /\ hgt m = if u then list_max (map lev (t_pos net)) else lev n.
Proof using All.
  intros H1 H2. assert (P : placed net lv u st own ht n m) by (eapply Forall2_lookup_lr in F; eassumption). destruct P as (P1 & P2 & _). split; [rewrite <- (w_len _ _ _ _ _ _ _ W); eapply lookup_lt_Some, P2|]. unfold hgt. rewrite P2. reflexivity.
Qed.
(** Every gate of the result leads to an output. *)
Lemma path_reaches i j : path (f_nodes st) i j -> reaches net' unit_cost i j.
Proof. induction 1 as [i|i j k x H1 H2 _ IH]; [exists 0; constructor|]. eapply reaches_step; [|exact IH]. unfold t_fanins. cbn [t_nodes]. rewrite H1. exact H2. Qed.
Lemma up_known n o w : tail net unit_cost n o w -> known net order o -> known net order n.
Proof using Hnet. induction 1 as [|c n o w Hin _ IH]; [auto|]. intros K. eapply (fanin_known net order Hnet), Hin. apply IH, K. Qed.
Lemma source_path n o w : tail net unit_cost n o w -> known net order o -> forall r, f_map st !! n = Some r -> exists ro, f_map st !! o = Some ro /\ path (f_nodes st) r ro.
Proof using Hnet HE W.
  induction 1 as [n|c n o w Hin T IH]; intros K r Hr; [exists r; split; [exact Hr|constructor]|]. destruct (fanin_known net order Hnet n c (up_known n o w T K) Hin) as (Ho & _).
  destruct (w_known _ _ _ _ _ _ _ W n) as (rn & Hn); [apply in_or_app; left; rewrite <- in_rev; exact Ho|]. destruct (IH K rn Hn) as (ro & H1 & H2). exists ro. split; [exact H1|]. destruct (HE n rn c Ho Hn Hin) as (rc & H3 & H4). rewrite Hr in H3. injection H3 as <-. eapply path_trans; eassumption.
Qed.
Lemma res_live i : In i order' -> live net' unit_cost i.
Proof using All.
  intros Hi. apply in_seq in Hi. destruct (HS i) as [(m & r & H1 & H2 & H3)|(p & H1 & H2)]; [lia| |exists p; split; [exact H1|apply path_reaches, H2]].
  destruct (Hlive m H1) as (o & Ho & (w & T)). destruct (source_path m o w T (pos_known net order Hnet o Ho) r H2) as (ro & H4 & H5). apply elem_of_list_In, elem_of_list_lookup in Ho as (k & Hk). destruct (Forall2_lookup_l _ _ _ _ _ F Hk) as (p & Hp & (_ & _ & r' & H6 & H7)).
  rewrite H4 in H6. injection H6 as <-. exists p. split; [eapply elem_of_list_In, elem_of_list_lookup_2, Hp|]. apply path_reaches. eapply path_trans; [exact H3|]. eapply path_trans; eassumption.
Qed.
End fixed.
End result.

(** *** The check *)
Definition first_fanin (_ : nat) (vs : list bool) : option bool := head vs.
Lemma first_fanin_buf : buffers first_fanin.
Proof. intros b. reflexivity. Qed.
Section check.
Context (net : tnet) (order : list nat) (Hnet : network net order) (Hlive : forall n, In n order -> live net unit_cost n) (Hshort : short net unit_cost order).
Context (Hall : forall n lit ch, t_nodes net !! n = Some (TGate lit ch) -> In n order).
Lemma differ_false l : neighbours_differ l = false <-> forall a b, In a l -> In b l -> a = b.
Proof.
  induction l as [|a l IH]; [split; [intros _ ? ? []|reflexivity]|]. destruct l as [|b l]; [split; [intros _ x y [<-|[]] [<-|[]]; reflexivity|reflexivity]|].
  change (neighbours_differ (a :: b :: l)) with (negb (Nat.eqb a b) || neighbours_differ (b :: l)). rewrite orb_false_iff, negb_false_iff, Nat.eqb_eq, IH. split.
  - intros [-> H] x y Hx Hy. assert (forall z, In z (b :: b :: l) -> z = b) as Z by (intros z [<-|Hz]; [reflexivity|apply H; [exact Hz|left; reflexivity]]). rewrite (Z x Hx), (Z y Hy). reflexivity.
  - intros H. split; [apply H; [left|right; left]; reflexivity|]. intros x y Hx Hy. apply H; right; assumption.
Qed.
Lemma route_exists n : known net order n -> exists k, route net n k.
Proof using Hnet.
  remember (rank order n) as r eqn:Er. revert n Er. induction r as [r IH] using lt_wf_ind. intros n -> K. pose proof K as K'. unfold known in K'. destruct (t_nodes net !! n) as [[b| |lit ch]|] eqn:E; [exists 0; eapply route_const, E|exists 0; eapply route_input, E| |destruct K'].
  assert (D : (exists c, In c ch /\ t_is_constant net c = false) \/ forall c, In c ch -> t_is_constant net c = true).
  { clear. induction ch as [|c l IH]; [right; intros c []|]. destruct (t_is_constant net c) eqn:Ec; [|left; exists c; split; [left; reflexivity|exact Ec]]. destruct IH as [(d & Hd & Ed)|IH]; [left; exists d; split; [right; exact Hd|exact Ed]|]. right. intros d [<-|Hd]; auto. }
  destruct D as [(c & Hin & Ec)|D]; [|exists 1; eapply route_start; eassumption]. assert (Hf : In c (t_fanins net n)) by (unfold t_fanins; rewrite E; exact Hin). destruct (fanin_known net order Hnet n c K Hf) as (_ & Kc & R). destruct (IH _ R c eq_refl Kc) as (k & Hk). exists (S k). eapply route_gate; eassumption.
Qed.
(** In a balanced network levels are lengths of paths. *)
Lemma check_ok u : exists b, is_balanced net u = Some b /\ (b = true <-> path_balanced net /\ (u = true -> outputs_unified net)).
Proof using All.
  destruct (depth_levels net order Hnet Hshort) as (lv & E & Hlv). unfold is_balanced. rewrite E. eexists. split; [reflexivity|]. clear E.
  pose proof (lev_const net lv Hlv) as LC. pose proof (lev_pi net lv Hlv) as LP.
  pose proof (lev_above) as LA. specialize (LA first_fanin first_fanin_buf net order Hnet lv Hlv Hlive Hshort).
  pose proof (lev_reach) as LR. specialize (LR first_fanin first_fanin_buf net order Hnet lv Hlv Hlive Hshort).
  pose proof (diff_exact) as DE. specialize (DE first_fanin first_fanin_buf net order Hnet lv Hlv Hlive Hshort).
  pose proof (DepthProofs2.lev_longest) as LL. specialize (LL first_fanin first_fanin_buf net order Hnet lv Hlv Hlive Hshort).
  set (lev := lvl lv) in *.
  assert (Kd : forall n x, t_nodes net !! n = Some x -> known net order n) by (intros n x Hx; unfold known; rewrite Hx; destruct x; [exact Logic.I|exact Logic.I|eapply Hall, Hx]).
  (* the test of one fan-in *)
  assert (T : forallb (fun n => forallb (fun f => t_is_constant net f || negb (Nat.ltb 0 (u32 (Z.of_nat (lev n) - Z.of_nat (lev f) - 1)))) (t_fanins net n)) (seq 0 (length (t_nodes net))) = true <-> forall n c, In c (t_fanins net n) -> t_is_constant net c = false -> lev n = S (lev c)).
  { rewrite forallb_forall. split.
    - intros H n c Hc Nc. destruct (fanin_gate net n c Hc) as (lit & ch & En & _). assert (Hn : In n (seq 0 (length (t_nodes net)))) by (apply in_seq; split; [lia|]; eapply lookup_lt_Some, En). specialize (H n Hn). rewrite forallb_forall in H. specialize (H c Hc). rewrite Nc in H. cbn [orb] in H.
      apply negb_true_iff, Nat.ltb_ge in H. rewrite DE in H; [|eapply Hall, En|exact Hc]. pose proof (LA n c (Hall n lit ch En) Hc). lia.
    - intros H n _. apply forallb_forall. intros c Hc. destruct (t_is_constant net c) eqn:Nc; [reflexivity|]. cbn [orb]. destruct (fanin_gate net n c Hc) as (lit & ch & En & _). rewrite DE by (try exact Hc; eapply Hall, En). rewrite (H n c Hc Nc). apply negb_true_iff, Nat.ltb_ge. lia. }
  (* heights from the test *)
  assert (HG : (forall n c, In c (t_fanins net n) -> t_is_constant net c = false -> lev n = S (lev c)) -> forall n lit ch, t_nodes net !! n = Some (TGate lit ch) -> (forall c, In c ch -> t_is_constant net c = false -> lev n = S (lev c)) /\ ((forall c, In c ch -> t_is_constant net c = true) -> lev n = 1)).
  { intros H n lit ch En. assert (Ef : t_fanins net n = ch) by (unfold t_fanins; rewrite En; reflexivity). split; [intros c Hc; apply H; rewrite Ef; exact Hc|]. intros All. destruct (LR n (Hall n lit ch En)) as (c & Hc & ->). f_equal. rewrite Ef in Hc. specialize (All c Hc). unfold t_is_constant in All. destruct (t_nodes net !! c) as [[b| |]|] eqn:Ec; try discriminate All. eapply LC, Ec. }
  (* lengths of routes in a balanced network *)
  assert (RB : path_balanced net -> forall n k, route net n k -> k = lev n).
  { intros B. assert (X : forall r n k, rank order n = r -> known net order n -> route net n k -> k = lev n).
    { induction r as [r IH] using lt_wf_ind. intros n k Er K R. pose proof K as K'. unfold known in K'. destruct (t_nodes net !! n) as [[b| |lit ch]|] eqn:En; [| | |destruct K'].
      - rewrite (B n k 0 R (route_const _ _ _ En)). symmetry. eapply LC, En.
      - rewrite (B n k 0 R (route_input _ _ En)). symmetry. eapply LP, En.
      - destruct (LR n K') as (c & Hc & Lc). destruct (fanin_known net order Hnet n c K Hc) as (_ & Kc & Rc). destruct (t_is_constant net c) eqn:Nc.
        + (* the highest fan-in is a constant *)
          assert (L1 : lev n = 1). { rewrite Lc. f_equal. unfold t_is_constant in Nc. destruct (t_nodes net !! c) as [[b| |]|] eqn:Ec; try discriminate Nc. eapply LC, Ec. }
          rewrite L1. inversion R as [? ? X|? X|? ? ? X All|? d j Hd Nd Rd]; subst; [congruence|congruence|reflexivity|]. f_equal. destruct (fanin_known net order Hnet n d K Hd) as (_ & Kd' & Rd'). rewrite (IH _ Rd' d j eq_refl Kd' Rd). pose proof (LA n d K' Hd). lia.
        + destruct (route_exists c Kc) as (j & Rj). rewrite (B n k (S j) R (route_gate _ _ _ _ Hc Nc Rj)), Lc. f_equal. eapply (IH _); [|reflexivity|exact Kc|exact Rj]. subst r. exact Rc. }
    intros n k R. eapply X; [reflexivity| |exact R]. destruct R as [n b En|n En|n lit ch En _|n c k Hc _ _]; [eapply Kd, En|eapply Kd, En|eapply Kd, En|]. destruct (fanin_gate net n c Hc) as (lit & ch & En & _). eapply Kd, En. }
  rewrite andb_true_iff, T. split.
  - intros [H U]. pose proof (route_height net order Hnet lev LC LP (HG H)) as RH. split; [intros n k k' R R'; rewrite (RH _ _ R), (RH _ _ R'); reflexivity|]. intros ->. cbn [andb] in U. apply negb_true_iff in U. rewrite differ_false in U. intros o o' k k' Ho Ho' R R'. rewrite (RH _ _ R), (RH _ _ R'). apply U; apply in_map; assumption.
  - intros [B U]. split.
    + intros n c Hc Nc. destruct (fanin_gate net n c Hc) as (lit & ch & En & _). destruct (fanin_known net order Hnet n c (Kd n _ En) Hc) as (_ & Kc & _). destruct (route_exists c Kc) as (j & Rj). rewrite <- (RB B c j Rj). symmetry. apply (RB B). eapply route_gate; eassumption.
    + destruct u; [|reflexivity]. cbn [andb]. apply negb_true_iff, differ_false. intros a b Ha Hb. apply in_map_iff in Ha as (o & <- & Ho). apply in_map_iff in Hb as (o' & <- & Ho'). destruct (route_exists o (pos_known net order Hnet o Ho)) as (k & Rk). destruct (route_exists o' (pos_known net order Hnet o' Ho')) as (k' & Rk').
      rewrite <- (RB B o k Rk), <- (RB B o' k' Rk'). exact (U eq_refl o o' k k' Ho Ho' Rk Rk').
Qed.
End check.
