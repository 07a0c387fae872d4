(** Proofs about rank views: levels, creation, growth. *)
From Coq Require Import ZArith Bool List Permutation Lia.
From stdpp Require Import gmap list sorting.
From Verif Require Import FanoutModel FanoutSpec DepthSpec DepthModel DepthProofs DepthProofs2 RankModel RankSpec RankProofs.
Import ListNotations.

Notation lg net := (longest net false unit_cost).

(** ** Networks *)

Lemma const_bool net n : t_is_constant net n = false -> n < length (t_nodes net) -> ranked_node net n.
Proof.
  unfold t_is_constant. intros H L. apply lookup_lt_is_Some in L as [x E]. rewrite E in H. exists x. split; [exact E|]. intros b ->. discriminate.
Qed.
Lemma ranked_bool net n : ranked_node net n -> t_is_constant net n = false /\ n < length (t_nodes net).
Proof. intros (x & E & N). split; [|exact (lookup_lt_Some _ _ _ E)]. unfold t_is_constant. rewrite E. destruct x as [b| |]; [elim (N b eq_refl)|reflexivity|reflexivity]. Qed.
Lemma network_short net order : network net order -> fits_32 net -> short net unit_cost order.
Proof.
  intros N F. unfold short, fits_32 in *. assert (L : list_sum (map (fun _ : nat => 1) (t_pis net ++ order)) = length (t_pis net ++ order)).
  { generalize (t_pis net ++ order). intros l. induction l as [|a l IH]; [reflexivity|]. cbn. f_equal. exact IH. }
  rewrite L. assert (X : length (t_pis net ++ order) <= length (seq 0 (length (t_nodes net)))).
  { apply NoDup_incl_length.
    - apply NoDup_ListNoDup, NoDup_app. split; [apply NoDup_ListNoDup, (nw_pis_once _ _ N)|]. split; [|apply NoDup_ListNoDup, (nw_order _ _ N)].
      intros n H1 H2. apply elem_of_list_In in H1, H2. apply (nw_pis _ _ N) in H1. destruct (nw_gates _ _ N n H2) as (lit & ch & E & _). congruence.
    - intros n H. apply in_seq. cbn. split; [lia|]. apply in_app_iff in H as [H|H]; [apply (nw_pis _ _ N) in H|destruct (nw_gates _ _ N n H) as (lit & ch & H' & _); rename H' into H0];
        eapply lookup_lt_Some; eassumption. }
  rewrite seq_length in X. lia.
Qed.
Lemma chain_tail net cost n k o w : chain net false cost n k -> tail net cost n o w -> chain net false cost o (k + w).
Proof.
  intros C T. revert k C. induction T as [n|c n o w Hc T IH]; intros k C; [rewrite Nat.add_0_r; exact C|].
  rewrite Nat.add_assoc. apply IH. eapply chain_gate; eassumption.
Qed.
Lemma in_known net order n : network net order -> (forall n lit ch, t_nodes net !! n = Some (TGate lit ch) -> In n order) -> n < length (t_nodes net) -> known net order n.
Proof. intros N A L. unfold known. apply lookup_lt_is_Some in L as [x E]. rewrite E. destruct x; [exact I|exact I|eapply A; exact E]. Qed.
Lemma fanin_lt net n c : complete net -> In c (t_fanins net n) -> c < length (t_nodes net).
Proof.
  intros (order & N & A) H. destruct (fanin_gate net n c H) as (lit & ch & E & _). destruct (fanin_known net order N n c) as (_ & K & _); [|exact H|].
  - apply in_known; [exact N|exact A|]. eapply lookup_lt_Some; exact E.
  - unfold known in K. destruct (t_nodes net !! c) eqn:Ec; [eapply lookup_lt_Some; exact Ec|destruct K].
Qed.

(** ** The invariant *)

Record inv (st : rview) : Prop := {
  iv_net : complete (r_net st);
  iv_lev : forall n k, ranked_node (r_net st) n -> r_level st n = Some k -> lg (r_net st) n k;
  iv_const : forall n b k, t_nodes (r_net st) !! n = Some (TConst b) -> r_level st n = Some k -> k = 0;
  iv_ok : okay (ranked_node (r_net st)) st;
  iv_some : r_ranks st <> []
}.
Lemma inv_level st n : inv st -> ranked_node (r_net st) n -> exists k, r_level st n = Some k /\ lg (r_net st) n k.
Proof. intros I H. destruct (rk_all _ _ _ _ _ (iv_ok st I) n H) as (l & _ & _ & E & _). exists l. split; [exact E|exact (iv_lev st I n l H E)]. Qed.
Lemma inv_order st : inv st -> in_order st.
Proof.
  intros I. pose proof (iv_ok st I) as R. unfold okay in R.
  assert (A : forall l i n, at_rank_position st l i = Some n -> exists r, r_ranks st !! l = Some r /\ r !! i = Some n).
  { intros l i n H. unfold at_rank_position in H. destruct (r_ranks st !! l) as [r|]; [exists r; split; [reflexivity|exact H]|discriminate]. }
  constructor.
  - intros l i n H. destruct (A l i n H) as (r & E & Ei). destruct (rk_in _ _ _ _ _ R l r i n E Ei) as (D & L & P). split; [exact (iv_lev st I n l D L)|exact L].
  - intros l i n H. destruct (A l i n H) as (r & E & Ei). apply (rk_in _ _ _ _ _ R l r i n E Ei).
  - intros l i n H. destruct (A l i n H) as (r & E & Ei). apply (rk_in _ _ _ _ _ R l r i n E Ei).
  - intros n D. destruct (rk_all _ _ _ _ _ R n D) as (l & r & i & _ & E & _ & Ei). exists l, i. unfold at_rank_position. rewrite E. exact Ei.
  - intros l w H. unfold rank_width in H. destruct (r_ranks st !! l) as [r|] eqn:E; [|discriminate]. injection H as <-. exact (rk_le _ _ _ _ _ R l r E).
  - unfold rank_width, width. destruct (rk_max _ _ _ _ _ R) as [Z|(l & r & E & W)].
    + pose proof (iv_some st I) as Ne. destruct (r_ranks st) as [|r rs] eqn:Er; [contradiction|]. exists 0. cbn. f_equal.
      assert (X : length r <= r_width st) by (apply (rk_le _ _ _ _ _ R 0 r); reflexivity). lia.
    + exists l. rewrite E. cbn. f_equal. exact W.
Qed.

(** ** Creation *)

Lemma started net : complete net -> fits_32 net -> exists v, update_levels net false unit_cost = Some v /\
  (forall n k, v_levels v !! n = Some k <-> live net unit_cost n /\ lg net n k) /\ (forall n k, v_levels v !! n = Some k -> k < S (depth v)).
Proof.
  intros (order & N & A) F. pose proof (network_short net order N F) as Sh.
  destruct (update_ok net order N false unit_cost Sh) as (v & E & L & B & _); [discriminate|]. exists v. split; [exact E|]. split; [exact L|].
  intros n k H. apply L in H as [(o & Ho & w & T) [C _]]. specialize (B o (k + w) Ho (chain_tail net unit_cost n k o w C T)). lia.
Qed.
Definition raise (w : nat) (st : rview) : rview := mkR (r_net st) (r_view st) (r_pos st) (r_ranks st) (Nat.max w (r_width st)).
Lemma raise_insert w st n : insert_in_rank (raise w st) n = option_map (raise w) (insert_in_rank st n).
Proof.
  unfold insert_in_rank, insert_at. change (r_level (raise w st) n) with (r_level st n). destruct (r_level st n) as [l|]; [|reflexivity].
  cbn [raise r_ranks]. destruct (r_ranks st !! l) as [r|]; [|reflexivity]. cbn. unfold raise. cbn. f_equal. f_equal. lia.
Qed.
Lemma raise_init w ns : forall st, fold_o (fun n st => if t_is_constant (r_net st) n then Some st else insert_in_rank st n) ns (raise w st) =
  option_map (raise w) (fold_o (fun n st => if t_is_constant (r_net st) n then Some st else insert_in_rank st n) ns st).
Proof.
  induction ns as [|n ns IH]; intros st; [reflexivity|]. cbn [fold_o]. change (r_net (raise w st)) with (r_net st). destruct (t_is_constant (r_net st) n); [apply IH|].
  rewrite raise_insert. destruct (insert_in_rank st n) as [st1|]; [apply IH|reflexivity].
Qed.
Lemma init_levels net v : complete net -> fits_32 net -> (forall n k, v_levels v !! n = Some k <-> live net unit_cost n /\ lg net n k) ->
  (forall n k, v_levels v !! n = Some k -> k < S (depth v)) ->
  match init_ranks (mkR net v ∅ (replicate (S (depth v)) []) 0) with
  | Some st => inv st /\ r_net st = net /\ r_view st = v /\ all_used net
  | None => ~ all_used net
  end.
Proof.
  intros Cm F L B. unfold init_ranks. cbn [r_net]. set (st0 := mkR net v ∅ (replicate (S (depth v)) []) 0).
  pose proof (init_okay (seq 0 (length (t_nodes net))) (fun _ => False) st0 (empty_okay (v_levels v) (S (depth v)))) as H. cbn [st0 r_net r_ranks] in H.
  specialize (H (NoDup_seq _ _) (fun _ _ X => X)). rewrite replicate_length in H. specialize (H B).
  destruct (fold_o _ (seq 0 (length (t_nodes net))) st0) as [st|].
  - destruct H as (R & E1 & E2 & Ln0 & Lv). change (r_view st0) with v in E2.
    assert (Us : all_used net).
    { intros n Hn. destruct (ranked_bool net n Hn) as [C Ln]. specialize (Lv n). rewrite elem_of_seq in Lv. specialize (Lv ltac:(lia) C). unfold r_level in Lv. cbn [r_view] in Lv.
      destruct (v_levels v !! n) as [k|] eqn:E; [|contradiction]. apply L in E. apply E. }
    split; [|split; [exact E1|split; [exact E2|exact Us]]]. constructor.
    + rewrite E1. exact Cm.
    + rewrite E1. unfold r_level. rewrite E2. intros n k _ H. apply L in H. apply H.
    + rewrite E1. unfold r_level. rewrite E2. intros n b k Hb H. apply L in H as [_ H]. exact (longest_fun _ _ _ _ _ _ H (longest_const _ _ _ _ _ Hb)).
    + unfold okay in *. eapply ranked_ext; [reflexivity| |exact R]. intros m. rewrite E1. rewrite elem_of_seq. split.
      * intros [[]|[H C]]. apply const_bool; [exact C|lia].
      * intros H. apply ranked_bool in H as [C Lm]. right. split; [lia|exact C].
    + intros Er. rewrite Er in Ln0. cbn in Ln0. lia.
  - destruct H as (n & Hn & C & E). apply elem_of_seq in Hn. intros Us. assert (Rn : ranked_node net n) by (apply const_bool; [exact C|lia]).
    specialize (Us n Rn). unfold r_level in E. cbn [r_view] in E. destruct Cm as (order & N & A).
    destruct (longest_exists net order N (network_short net order N F) n (in_known net order n N A ltac:(lia))) as [k K].
    assert (X : v_levels v !! n = Some k) by (apply L; split; assumption). change (v_levels (r_view st0)) with (v_levels v) in E. congruence.
Qed.
Lemma new_view_spec net : complete net -> fits_32 net ->
  match new_view net with Some st => inv st /\ r_net st = net /\ all_used net | None => ~ all_used net end.
Proof.
  intros C F. destruct (started net C F) as (v & E & L & B). unfold new_view. rewrite E. pose proof (init_levels net v C F L B) as H.
  destruct (init_ranks _) as [st|]; [|exact H]. destruct H as (I & N & _ & U). split; [exact I|split; [exact N|exact U]].
Qed.
Lemma width_le lv lv' (D : nat -> Prop) pos pos' rs rs' w w' : ranked lv D pos rs w -> ranked lv' D pos' rs' w' -> (forall n, D n -> lv !! n = lv' !! n) -> w <= w'.
Proof.
  intros R R' E. destruct (rk_max _ _ _ _ _ R) as [->|(l & r & Hr & <-)]; [lia|]. destruct r as [|n r]; [cbn; lia|].
  destruct (rk_in _ _ _ _ _ R l _ 0 n Hr eq_refl) as (Dn & Ln & _). destruct (rk_all _ _ _ _ _ R' n Dn) as (l' & r' & i & A & B & _ & _).
  rewrite <- E in A by exact Dn. rewrite Ln in A. injection A as <-. etransitivity; [|exact (rk_le _ _ _ _ _ R' l r' B)].
  apply NoDup_incl_length; [apply NoDup_ListNoDup; exact (rank_nodup _ _ _ _ _ _ _ R Hr)|]. intros m Hm. apply elem_of_list_In in Hm. apply elem_of_list_In.
  apply (rank_mem _ _ _ _ _ _ _ m R Hr) in Hm as [Dm Lm]. apply (rank_mem _ _ _ _ _ _ _ m R' B). split; [exact Dm|]. rewrite <- E by exact Dm. exact Lm.
Qed.
Lemma update_spec st : inv st -> fits_32 (r_net st) ->
  match update_ranks st with Some st' => inv st' /\ r_net st' = r_net st /\ all_used (r_net st) | None => ~ all_used (r_net st) end.
Proof.
  intros I F. destruct (started (r_net st) (iv_net st I) F) as (v & E & L & B). unfold update_ranks. rewrite E. pose proof (init_levels (r_net st) v (iv_net st I) F L B) as H.
  set (st0 := mkR (r_net st) v ∅ (replicate (S (depth v)) []) 0) in H.
  change (mkR (r_net st) v ∅ (replicate (S (depth v)) []) (r_width st)) with (mkR (r_net st0) (r_view st0) (r_pos st0) (r_ranks st0) (r_width st)).
  replace (mkR (r_net st0) (r_view st0) (r_pos st0) (r_ranks st0) (r_width st)) with (raise (r_width st) st0) by (unfold raise; cbn; rewrite Nat.max_0_r; reflexivity).
  unfold init_ranks in *. change (r_net (raise (r_width st) st0)) with (r_net st0). rewrite raise_init.
  destruct (fold_o _ _ st0) as [st1|]; [|exact H]. destruct H as (I1 & N1 & V1 & U). cbn [option_map]. split; [|split; [exact N1|exact U]].
  assert (W : r_width st = r_width st1).
  { assert (Eq : forall n, ranked_node (r_net st) n -> v_levels (r_view st) !! n = v_levels (r_view st1) !! n).
    { intros n Hn. destruct (inv_level st n I Hn) as (k & K1 & K2). assert (Hn1 : ranked_node (r_net st1) n) by (rewrite N1; exact Hn).
      destruct (inv_level st1 n I1 Hn1) as (k' & K1' & K2'). rewrite N1 in K2'. unfold r_level in *. rewrite K1, K1'. f_equal. exact (longest_fun _ _ _ _ _ _ K2 K2'). }
    pose proof (iv_ok st I) as R. pose proof (iv_ok st1 I1) as R1. unfold okay in R, R1. rewrite N1 in R1. change (r_net st0) with (r_net st) in R1. apply Nat.le_antisymm.
    - eapply width_le; [exact R|exact R1|exact Eq].
    - eapply width_le; [exact R1|exact R|]. intros n Hn. symmetry. exact (Eq n Hn). }
  replace (raise (r_width st) st1) with st1; [exact I1|]. unfold raise. rewrite W, Nat.max_id. destruct st1; reflexivity.
Qed.

(** ** Growth *)

Section Growth.
Context (net net' : tnet) (x : tnode).
Hypothesis En : t_nodes net' = t_nodes net ++ [x].
Notation len := (length (t_nodes net)).
Hypothesis Cm : complete net.
Lemma grow_old n : n < len -> t_nodes net' !! n = t_nodes net !! n.
Proof using En. intros H. rewrite En. apply lookup_app_l. exact H. Qed.
Lemma grow_new : t_nodes net' !! len = Some x.
Proof using En. rewrite En, lookup_app_r by lia. rewrite Nat.sub_diag. reflexivity. Qed.
Lemma grow_fanins n : n < len -> t_fanins net' n = t_fanins net n.
Proof using En. intros H. unfold t_fanins. rewrite grow_old by exact H. reflexivity. Qed.
Lemma grow_chain n k : n < len -> (chain net' false unit_cost n k <-> chain net false unit_cost n k).
Proof using All.
  intros H. split; intros C; revert H.
  - induction C as [n b E|n E|n c k Hc C IH]; intros H.
    + rewrite grow_old in E by exact H. eapply chain_const; exact E.
    + rewrite grow_old in E by exact H. apply (chain_input net false); exact E.
    + rewrite grow_fanins in Hc by exact H. apply (chain_gate net false unit_cost n c); [exact Hc|]. apply IH. exact (fanin_lt net n c Cm Hc).
  - induction C as [n b E|n E|n c k Hc C IH]; intros H.
    + rewrite <- grow_old in E by exact H. eapply chain_const; exact E.
    + rewrite <- grow_old in E by exact H. apply (chain_input net' false); exact E.
    + apply (chain_gate net' false unit_cost n c); [rewrite grow_fanins by exact H; exact Hc|]. apply IH. exact (fanin_lt net n c Cm Hc).
Qed.
Lemma grow_longest n k : n < len -> (lg net' n k <-> lg net n k).
Proof using All.
  intros H. split; intros [C M]; (split; [apply (grow_chain n k H); exact C|]); intros k' C'; apply M; apply (grow_chain n k' H); exact C'.
Qed.
Lemma grow_ranked n : (forall b, x <> TConst b) -> (ranked_node net' n <-> ranked_node net n \/ n = len).
Proof using En.
  intros Hx. split.
  - intros (y & E & N). pose proof (lookup_lt_Some _ _ _ E) as L. rewrite En, app_length in L. cbn in L. destruct (Nat.eq_dec n len) as [->|Ne]; [right; reflexivity|left].
    rewrite grow_old in E by lia. exists y. split; assumption.
  - intros [(y & E & N)| ->].
    + exists y. split; [|exact N]. rewrite grow_old by exact (lookup_lt_Some _ _ _ E). exact E.
    + exists x. split; [exact grow_new|exact Hx].
Qed.
End Growth.

Lemma complete_pi net : complete net -> complete (mkT (t_nodes net ++ [TPi]) (t_pis net ++ [length (t_nodes net)]) (t_pos net)).
Proof.
  intros (order & N & A). set (net' := mkT _ _ _). assert (En : t_nodes net' = t_nodes net ++ [TPi]) by reflexivity.
  assert (Old : forall n y, t_nodes net !! n = Some y -> t_nodes net' !! n = Some y) by (intros n y E; rewrite (grow_old net net' TPi En n (lookup_lt_Some _ _ _ E)); exact E).
  assert (Inv : forall n y, t_nodes net' !! n = Some y -> t_nodes net !! n = Some y \/ n = length (t_nodes net) /\ y = TPi).
  { intros n y E. rewrite En in E. apply lookup_app_Some in E as [E|[L E]]; [left; exact E|right]. destruct (n - length (t_nodes net)) as [|k] eqn:K; [|discriminate E]. cbn in E. injection E as <-. split; [lia|reflexivity]. }
  exists order. split; [constructor|].
  - apply Old, (nw_0 _ _ N).
  - apply Old, (nw_1 _ _ N).
  - intros n b E. destruct (Inv n _ E) as [E'|[_ E']]; [exact (nw_const _ _ N n b E')|discriminate E'].
  - intros n. cbn [t_pis net']. rewrite in_app_iff. split.
    + intros [H|[<-|[]]]; [apply Old, (nw_pis _ _ N); exact H|exact (grow_new net net' TPi En)].
    + intros E. destruct (Inv n _ E) as [E'|[-> _]]; [left; apply (nw_pis _ _ N); exact E'|right; left; reflexivity].
  - cbn [t_pis net']. apply NoDup_ListNoDup, NoDup_app. split; [apply NoDup_ListNoDup, (nw_pis_once _ _ N)|]. split; [|apply NoDup_singleton].
    intros n H1 H2. apply elem_of_list_singleton in H2. apply elem_of_list_In, (nw_pis _ _ N) in H1. pose proof (lookup_lt_Some _ _ _ H1). lia.
  - exact (nw_order _ _ N).
  - intros n H. destruct (nw_gates _ _ N n H) as (lit & ch & E & Ne). exists lit, ch. split; [apply Old; exact E|exact Ne].
  - intros i n c Hi Hc. assert (Hn : In n order) by (apply elem_of_list_In; eapply elem_of_list_lookup_2; exact Hi). destruct (nw_gates _ _ N n Hn) as (lit & ch & E & _).
    rewrite (grow_fanins net net' TPi En n (lookup_lt_Some _ _ _ E)) in Hc. pose proof (nw_topo _ _ N i n c Hi Hc) as T. destruct (t_nodes net !! c) as [y|] eqn:Ec; [|destruct T]. rewrite (Old c y Ec). exact T.
  - intros c Hc. pose proof (nw_pos _ _ N c Hc) as T. destruct (t_nodes net !! c) as [y|] eqn:Ec; [|destruct T]. rewrite (Old c y Ec). exact T.
  - intros n lit ch E. destruct (Inv n _ E) as [E'|[_ E']]; [exact (A n lit ch E')|discriminate E'].
Qed.
Lemma complete_gate net lit ch : complete net -> ch <> [] -> (forall c, In c ch -> c < length (t_nodes net)) -> complete (mkT (t_nodes net ++ [TGate lit ch]) (t_pis net) (t_pos net)).
Proof.
  intros (order & N & A) Ne Hch. set (net' := mkT _ _ _). set (x := TGate lit ch). set (len := length (t_nodes net)). assert (En : t_nodes net' = t_nodes net ++ [x]) by reflexivity.
  assert (Old : forall n y, t_nodes net !! n = Some y -> t_nodes net' !! n = Some y) by (intros n y E; rewrite (grow_old net net' x En n (lookup_lt_Some _ _ _ E)); exact E).
  assert (Inv : forall n y, t_nodes net' !! n = Some y -> t_nodes net !! n = Some y \/ n = len /\ y = x).
  { intros n y E. rewrite En in E. apply lookup_app_Some in E as [E|[L E]]; [left; exact E|right]. destruct (n - length (t_nodes net)) as [|k] eqn:K; [|discriminate E]. cbn in E. injection E as <-. split; [unfold len; lia|reflexivity]. }
  exists (order ++ [len]). split; [constructor|].
  - apply Old, (nw_0 _ _ N).
  - apply Old, (nw_1 _ _ N).
  - intros n b E. destruct (Inv n _ E) as [E'|[_ E']]; [exact (nw_const _ _ N n b E')|discriminate E'].
  - intros n. cbn [t_pis net']. split; [intros H; apply Old, (nw_pis _ _ N); exact H|]. intros E. destruct (Inv n _ E) as [E'|[_ E']]; [apply (nw_pis _ _ N); exact E'|discriminate E'].
  - exact (nw_pis_once _ _ N).
  - apply NoDup_ListNoDup, NoDup_app. split; [apply NoDup_ListNoDup, (nw_order _ _ N)|]. split; [|apply NoDup_singleton].
    intros n H1 H2. apply elem_of_list_singleton in H2. apply elem_of_list_In in H1. destruct (nw_gates _ _ N n H1) as (l' & c' & E & _). pose proof (lookup_lt_Some _ _ _ E). unfold len in H2. lia.
  - intros n H. apply in_app_iff in H as [H|[<-|[]]].
    + destruct (nw_gates _ _ N n H) as (l' & c' & E & Ne'). exists l', c'. split; [apply Old; exact E|exact Ne'].
    + exists lit, ch. split; [exact (grow_new net net' x En)|exact Ne].
  - intros i n c Hi Hc. apply lookup_app_Some in Hi as [Hi|[Li Hi]].
    + assert (Hn : In n order) by (apply elem_of_list_In; eapply elem_of_list_lookup_2; exact Hi). destruct (nw_gates _ _ N n Hn) as (l' & c' & E & _).
      rewrite (grow_fanins net net' x En n (lookup_lt_Some _ _ _ E)) in Hc. pose proof (nw_topo _ _ N i n c Hi Hc) as T. destruct (t_nodes net !! c) as [y|] eqn:Ec; [|destruct T]. rewrite (Old c y Ec).
      destruct y; [exact T|exact T|]. destruct T as (j & Hj & Ej). exists j. split; [exact Hj|]. apply lookup_app_l_Some. exact Ej.
    + destruct (i - length order) as [|k] eqn:K; [|discriminate Hi]. cbn in Hi. injection Hi as <-. unfold t_fanins, len in Hc. rewrite (grow_new net net' x En) in Hc. cbn [x t_children] in Hc.
      pose proof (Hch c Hc) as Lc. apply lookup_lt_is_Some in Lc as [y Ec]. rewrite (Old c y Ec). destruct y as [| |l' c']; [exact I|exact I|]. pose proof (A c l' c' Ec) as Hin.
      apply elem_of_list_In, elem_of_list_lookup in Hin as [j Hj]. exists j. pose proof (lookup_lt_Some _ _ _ Hj). split; [lia|]. apply lookup_app_l_Some. exact Hj.
  - intros c Hc. pose proof (nw_pos _ _ N c Hc) as T. destruct (t_nodes net !! c) as [y|] eqn:Ec; [|destruct T]. rewrite (Old c y Ec). destruct y; [exact T|exact T|]. apply in_app_iff. left. exact T.
  - intros n l' c' E. apply in_app_iff. destruct (Inv n _ E) as [E'|[-> _]]; [left; exact (A n l' c' E')|right; left; reflexivity].
Qed.
Lemma complete_po net f : complete net -> f < length (t_nodes net) -> complete (mkT (t_nodes net) (t_pis net) (t_pos net ++ [f])).
Proof.
  intros (order & N & A) Hf. exists order. split; [|exact A]. destruct N as [H0 H1 H2 H3 H4 H5 H6 H7 H8]. constructor; try assumption.
  intros c Hc. cbn [t_pos t_nodes] in *. apply in_app_iff in Hc as [Hc|[<-|[]]]; [exact (H8 c Hc)|]. apply lookup_lt_is_Some in Hf as [y E]. rewrite E. destruct y; [exact I|exact I|]. eapply A; exact E.
Qed.
