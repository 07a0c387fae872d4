(** Proofs about crossing minimization: the views of balanced networks. *)
From Coq Require Import ZArith QArith Bool List Permutation Lia.
From stdpp Require Import gmap list sorting.
From Verif Require Import FanoutModel FanoutSpec DepthSpec DepthModel DepthProofs DepthProofs2 DepthProofs3 RankModel RankSpec RankProofs RankProofs2 RankProofs3 RankProofs4 MincrossModel MincrossSpec MincrossProofs MincrossProofs2.
Import ListNotations.
Open Scope nat_scope.

(** ** Views that are up to date *)

Lemma current_used st : inv st -> fits_32 (r_net st) -> up_to_date st -> all_used (r_net st).
Proof.
  intros I F [E _] n Rn. destruct (inv_level st n I Rn) as (k & K & _). destruct (started (r_net st) (iv_net st I) F) as (v & Ev & L & _). rewrite E in Ev. injection Ev as <-. apply (L n k). exact K.
Qed.
Lemma current_balanced st : inv st -> fits_32 (r_net st) -> up_to_date st -> exists b, is_balanced (r_net st) false = Some b /\ (b = true <-> path_balanced (r_net st)).
Proof.
  intros I F U. pose proof (current_used st I F U) as A. destruct (iv_net st I) as (order & N & All). pose proof (network_short _ order N F) as Sh.
  destruct (check_ok (r_net st) order N) with (u := false) as (b & E & B); [|exact Sh|exact All|].
  - intros n Hn. apply A. destruct (nw_gates _ _ N n Hn) as (lit & ch & En & _). exists (TGate lit ch). split; [exact En|discriminate].
  - exists b. split; [exact E|]. rewrite B. split; [intros [H _]; exact H|intros H; split; [exact H|discriminate]].
Qed.
Lemma balanced_ready st gates : inv st -> fits_32 (r_net st) -> up_to_date st -> is_balanced (r_net st) false = Some true -> List.NoDup gates ->
  (forall g, In g gates <-> exists lit ch, t_nodes (r_net st) !! g = Some (TGate lit ch)) -> ready gates st.
Proof.
  intros I F U B Nd G. pose proof (current_used st I F U) as A. pose proof U as [E Len]. destruct (iv_net st I) as (order & N & All). pose proof (network_short _ order N F) as Sh.
  destruct (started (r_net st) (iv_net st I) F) as (v & Ev & L & _). rewrite E in Ev. injection Ev as <-. set (lv := v_levels (r_view st)) in *.
  assert (Hlive : forall n, In n order -> live (r_net st) unit_cost n). { intros n Hn. apply A. destruct (nw_gates _ _ N n Hn) as (lit & ch & En & _). exists (TGate lit ch). split; [exact En|discriminate]. }
  assert (Hin : forall w u, In u (t_fanins (r_net st) w) -> In w order). { intros w u H. destruct (fanin_gate (r_net st) w u H) as (lit & ch & Ew & _). exact (All w lit ch Ew). }
  assert (Some_level : forall w, known (r_net st) order w -> live (r_net st) unit_cost w -> r_level st w = Some (lvl lv w)).
  { intros w K Lw. apply (L w). split; [exact Lw|]. exact (DepthProofs2.lev_longest first_fanin first_fanin_buf (r_net st) order N lv L Hlive Sh w K Lw). }
  assert (Fan : forall w u, In u (t_fanins (r_net st) w) -> known (r_net st) order u /\ live (r_net st) unit_cost u).
  { intros w u H. split; [|exact (live_down (r_net st) w u H (Hlive w (Hin w u H)))]. apply (fanin_known (r_net st) order N w u); [|exact H]. exact (order_known (r_net st) order N w (Hin w u H)). }
  constructor; [exact I|exact Nd|exact G| | |exact Len].
  - intros w u k Hu Ru Lu. destruct (Fan w u Hu) as [Ku Vu]. pose proof (Hin w u Hu) as Hw. rewrite (Some_level u Ku Vu) in Lu. injection Lu as <-.
    rewrite (Some_level w (order_known _ _ N w Hw) (Hlive w Hw)). f_equal.
    pose proof (DepthProofs2.lev_above first_fanin first_fanin_buf (r_net st) order N lv L Hlive Sh w u Hw Hu) as Ab. pose proof (DepthProofs2.diff_exact first_fanin first_fanin_buf (r_net st) order N lv L Hlive Sh w u Hw Hu) as Df.
    unfold is_balanced, ntk_depth in B. change (fun _ : nat => 1) with unit_cost in B. rewrite E in B. cbn [option_map] in B. injection B as B. apply andb_true_iff in B as [B _]. rewrite forallb_forall in B.
    destruct (fanin_gate (r_net st) w u Hu) as (lit & ch & Ew & _). specialize (B w ltac:(apply in_seq; apply lookup_lt_Some in Ew; lia)). rewrite forallb_forall in B. specialize (B u Hu).
    apply orb_true_iff in B as [B|B]; [destruct (ranked_bool _ _ Ru) as [X _]; rewrite X in B; discriminate B|]. apply negb_true_iff, Nat.ltb_ge in B. fold lv in B. rewrite Df in B. lia.
  - intros w u Hu. destruct (Fan w u Hu) as [Ku Vu]. rewrite (Some_level u Ku Vu). eauto.
Qed.
Lemma gates_nodup st : inv st -> List.NoDup (foreach_gate st).
Proof. intros I. unfold foreach_gate. apply List.NoDup_filter. exact (proj1 (foreach_topological st I)). Qed.

(** ** Which operations keep views up to date *)

Lemma insert_count st n st' : insert_in_rank st n = Some st' -> length (r_ranks st') = length (r_ranks st).
Proof.
  unfold insert_in_rank, insert_at. destruct (r_level st n) as [l|]; [|discriminate]. destruct (r_ranks st !! l) as [r|]; [|discriminate]. intros [= <-]. apply insert_length.
Qed.
Lemma init_count ns : forall st st', fold_o (fun n st => if t_is_constant (r_net st) n then Some st else insert_in_rank st n) ns st = Some st' -> length (r_ranks st') = length (r_ranks st).
Proof.
  induction ns as [|n ns IH]; intros st st' H; cbn [fold_o] in H; [injection H as <-; reflexivity|]. destruct (t_is_constant (r_net st) n); [exact (IH st st' H)|].
  destruct (insert_in_rank st n) as [st1|] eqn:E; [|discriminate]. rewrite (IH st1 st' H). exact (insert_count st n st1 E).
Qed.
Lemma init_current net v w st : update_levels net false unit_cost = Some v -> init_ranks (mkR net v ∅ (replicate (S (depth v)) []) w) = Some st -> up_to_date st /\ r_net st = net.
Proof.
  intros E H. unfold init_ranks in H. destruct (fold_keeps _ _ _ H) as [N V]. pose proof (init_count _ _ _ H) as L. cbn [r_net r_view r_ranks] in *. split; [|exact N]. split; [rewrite N, V; exact E|]. unfold get_all_ranks. rewrite L, V. apply replicate_length.
Qed.
Lemma new_current net st : new_view net = Some st -> up_to_date st.
Proof. unfold new_view. destruct (update_levels net false unit_cost) as [v|] eqn:E; [|discriminate]. intros H. exact (proj1 (init_current net v 0 st E H)). Qed.
Lemma update_current st st' : update_ranks st = Some st' -> up_to_date st'.
Proof. unfold update_ranks. destruct (update_levels (r_net st) false unit_cost) as [v|] eqn:E; [|discriminate]. intros H. exact (proj1 (init_current _ v _ st' E H)). Qed.
Lemma keep_current st st' : up_to_date st -> r_net st' = r_net st -> r_view st' = r_view st -> length (r_ranks st') = length (r_ranks st) -> up_to_date st'.
Proof. intros [E L] N V C. split; [rewrite N, V; exact E|]. unfold get_all_ranks in *. rewrite C, V. exact L. Qed.
Lemma set_ranks_keeps l nodes st st' : set_ranks l nodes st = Some st' -> r_net st' = r_net st /\ r_view st' = r_view st /\ length (r_ranks st') = length (r_ranks st).
Proof. intros H. apply set_ranks_some in H as (r & _ & _ & ->). cbn [r_net r_view r_ranks]. rewrite insert_length. split; [reflexivity|split; reflexivity]. Qed.
Lemma set_from_keeps rs : forall l st st', set_from l rs st = Some st' -> r_net st' = r_net st /\ r_view st' = r_view st /\ length (r_ranks st') = length (r_ranks st).
Proof.
  induction rs as [|r rs IH]; intros l st st' H; cbn [set_from] in H; [injection H as <-; split; [reflexivity|split; reflexivity]|]. destruct (set_ranks l r st) as [st1|] eqn:E; [|discriminate].
  destruct (IH _ _ _ H) as (A & B & C). destruct (set_ranks_keeps _ _ _ _ E) as (A' & B' & C'). rewrite A, B, C. split; [exact A'|split; [exact B'|exact C']].
Qed.
Lemma step_current sort o st st' : up_to_date st -> (forall lit ch, o <> RAddGate lit ch) -> o <> RAddPi -> (forall f, o <> RAddPo f) -> rstep sort o st = Some st' -> up_to_date st'.
Proof.
  intros U NG NP NO H. destruct o as [a b|l nodes|rs|l cmp| | | |lit ch|f]; cbn [rstep] in H; [| | | | | |elim (NP eq_refl)|elim (NG lit ch eq_refl)|elim (NO f eq_refl)].
  - unfold swap in H. destruct (r_level st a) as [la|]; [|discriminate]. destruct (r_level st b) as [lb|]; [|discriminate]. destruct (r_pos st !! a) as [pa|]; [|discriminate]. destruct (r_pos st !! b) as [pb|]; [|discriminate].
    destruct (Nat.eqb la lb); [|discriminate]. destruct (r_ranks st !! la) as [r|]; [|discriminate]. destruct (r !! pa) as [x|]; [|discriminate]. destruct (r !! pb) as [y|]; [|discriminate]. injection H as <-.
    eapply keep_current; [exact U|reflexivity|reflexivity|apply insert_length].
  - destruct (set_ranks_keeps _ _ _ _ H) as (A & B & C). exact (keep_current st st' U A B C).
  - unfold set_all_ranks in H. destruct (Nat.eqb _ _); [|discriminate]. destruct (set_from_keeps _ _ _ _ H) as (A & B & C). exact (keep_current st st' U A B C).
  - unfold sort_rank in H. destruct (r_ranks st !! l) as [r|]; [|discriminate]. injection H as <-. eapply keep_current; [exact U|reflexivity|reflexivity|apply insert_length].
  - destruct (set_ranks_keeps _ _ _ _ H) as (A & B & C). exact (keep_current st st' U A B C).
  - exact (update_current st st' H).
Qed.

(** ** The comparison by medians *)

Lemma Qle_false a b : Qle_bool a b = false <-> (b < a)%Q.
Proof. rewrite <- not_true_iff_false, Qle_bool_iff. split; [apply Qnot_le_lt|apply Qlt_not_le]. Qed.
Lemma Qeq_false a b : Qeq_bool a b = false <-> ~ (a == b)%Q.
Proof. rewrite <- not_true_iff_false, Qeq_bool_iff. reflexivity. Qed.
Lemma by_median_true m asc a b : let q n := default 0%Q (m !! n) in
  by_median m asc a b = true <-> ~ (q a == no_median)%Q /\ ((q b == no_median)%Q \/ if asc then (q a < q b)%Q else (q b < q a)%Q).
Proof.
  cbv zeta. unfold by_median. set (x := default 0%Q (m !! a)). set (y := default 0%Q (m !! b)). destruct (Qeq_bool x no_median) eqn:X.
  - apply Qeq_bool_iff in X. split; [discriminate|intros [H _]; contradiction].
  - apply Qeq_false in X. destruct (Qeq_bool y no_median) eqn:Y; [apply Qeq_bool_iff in Y; split; [intros _; split; [exact X|left; exact Y]|reflexivity]|]. apply Qeq_false in Y.
    destruct asc; rewrite negb_true_iff, Qle_false; (split; [intros H; split; [exact X|right; exact H]|intros [_ [H|H]]; [contradiction|exact H]]).
Qed.
Lemma by_median_orders m asc : orders (by_median m asc).
Proof.
  assert (F : forall a b, by_median m asc a b = false <-> (default 0%Q (m !! a) == no_median)%Q \/ (~ (default 0%Q (m !! b) == no_median)%Q /\ if asc then (default 0%Q (m !! b) <= default 0%Q (m !! a))%Q else (default 0%Q (m !! a) <= default 0%Q (m !! b))%Q)).
  { intros a b. rewrite <- not_true_iff_false, (by_median_true m asc a b). set (x := default 0%Q (m !! a)). set (y := default 0%Q (m !! b)). split.
    - intros H. destruct (Qeq_dec x no_median) as [X|X]; [left; exact X|right]. split; [intros Y; apply H; split; [exact X|left; exact Y]|]. destruct asc; apply Qnot_lt_le; intros Z; apply H; (split; [exact X|right; exact Z]).
    - intros [X|[Y Z]] [X' [Y'|Z']]; try contradiction. destruct asc; exact (Qlt_not_le _ _ Z' Z). }
  split; [|split].
  - intros a. apply F. destruct (Qeq_dec (default 0%Q (m !! a)) no_median) as [X|X]; [left; exact X|right; split; [exact X|destruct asc; apply Qle_refl]].
  - intros a b c H1 H2. apply by_median_true in H1 as [A H1]. apply by_median_true in H2 as [B H2]. apply by_median_true. split; [exact A|]. destruct H1 as [H1|H1]; [contradiction|]. destruct H2 as [H2|H2]; [left; exact H2|right]. destruct asc; eapply Qlt_trans; eassumption.
  - intros a b c H1 H2. apply F in H1. apply F in H2. apply F. destruct H1 as [H1|[B H1]]; [left; exact H1|]. destruct H2 as [H2|[C H2]]; [contradiction|]. right. split; [exact C|]. destruct asc; eapply Qle_trans; eassumption.
Qed.
