(** Proofs about the number of crossings. *)
From Coq Require Import ZArith QArith Bool List Permutation Lia.
From stdpp Require Import gmap list sorting.
From Verif Require Import FanoutModel FanoutSpec DepthSpec DepthModel DepthProofs DepthProofs2 RankModel RankSpec RankProofs RankProofs2 RankProofs3 RankProofs4 MincrossModel MincrossSpec.
Import ListNotations.
Open Scope nat_scope.

Lemma map_o_some {A B} (f : A -> option B) l : (forall a, In a l -> is_Some (f a)) -> exists l', map_o f l = Some l' /\ Forall2 (fun a b => f a = Some b) l l'.
Proof.
  induction l as [|a l IH]; intros H; [exists []; split; [reflexivity|constructor]|]. destruct (H a (or_introl eq_refl)) as [b E]. destruct IH as (l' & E' & F); [intros c Hc; apply H; right; exact Hc|].
  exists (b :: l'). cbn. rewrite E, E'. split; [reflexivity|]. constructor; assumption.
Qed.

(** ** Penalties *)

Definition between (k n : nat) (x : nat) : bool := Nat.leb k x && Nat.ltb x (k + n).
Lemma between_split pre k n : length (List.filter (between k (S n)) pre) = count_occ Nat.eq_dec pre k + length (List.filter (between (S k) n) pre).
Proof.
  induction pre as [|x pre IH]; [reflexivity|]. cbn [List.filter count_occ]. unfold between at 1 4. destruct (Nat.eq_dec x k) as [->|Ne].
  - replace (Nat.leb k k && Nat.ltb k (k + S n)) with true by (symmetry; apply andb_true_iff; rewrite Nat.leb_le, Nat.ltb_lt; lia).
    replace (Nat.leb (S k) k && Nat.ltb k (S k + n)) with false by (symmetry; apply andb_false_iff; rewrite Nat.leb_gt, Nat.ltb_ge; lia). cbn [length]. rewrite IH. lia.
  - replace (Nat.leb k x && Nat.ltb x (k + S n)) with (Nat.leb (S k) x && Nat.ltb x (S k + n)).
    + destruct (Nat.leb (S k) x && Nat.ltb x (S k + n)); cbn [length]; rewrite IH; lia.
    + destruct (Nat.leb_spec (S k) x), (Nat.leb_spec k x), (Nat.ltb_spec x (S k + n)), (Nat.ltb_spec x (k + S n)); cbn; reflexivity || lia.
Qed.
Lemma penalties_some pen pre : (forall k a, pen !! k = Some a -> a = count_occ Nat.eq_dec pre k) -> forall n k, k + n <= length pen -> penalties pen k n = Some (length (List.filter (between k n) pre)).
Proof.
  intros H. induction n as [|n IH]; intros k L.
  - cbn. f_equal. symmetry. apply length_zero_iff_nil. induction pre as [|x pre IHp]; [reflexivity|]. cbn. unfold between at 1.
    replace (Nat.leb k x && Nat.ltb x (k + 0)) with false by (symmetry; apply andb_false_iff; rewrite Nat.leb_gt, Nat.ltb_ge; lia).
    clear - k. induction pre as [|y pre IH]; [reflexivity|]. cbn. unfold between at 1. replace (Nat.leb k y && Nat.ltb y (k + 0)) with false by (symmetry; apply andb_false_iff; rewrite Nat.leb_gt, Nat.ltb_ge; lia). exact IH.
  - cbn [penalties]. destruct (pen !! k) as [a|] eqn:E; [|apply lookup_ge_None in E; lia]. rewrite IH by lia. rewrite between_split, (H k a E). reflexivity.
Qed.
Definition above (q : nat) (pre : list nat) : nat := length (List.filter (fun k => Nat.ltb q k) pre).
Lemma above_between pre q m : (forall x, In x pre -> x <= m) -> above q pre = length (List.filter (between (S q) (m - q)) pre).
Proof.
  intros H. unfold above. f_equal. apply filter_ext_in. intros x Hx. specialize (H x Hx). unfold between. destruct (Nat.ltb_spec q x), (Nat.leb_spec (S q) x), (Nat.ltb_spec x (S q + (m - q))); cbn; reflexivity || lia.
Qed.
(** Crossings of wires to [tsl], given wires to [pre] from earlier nodes. *)
Fixpoint cr (pre : list nat) (tsl : list (list nat)) : nat := match tsl with [] => 0 | ts :: tsl => list_sum (map (fun q => above q pre) ts) + cr (pre ++ ts) tsl end.

Definition pen_ok (w : nat) (pre : list nat) (pm : list nat * nat) : Prop :=
  length (fst pm) = S w /\ (forall k a, fst pm !! k = Some a -> a = count_occ Nat.eq_dec pre k) /\ (forall x, In x pre -> x <= snd pm) /\ snd pm <= w.
Lemma penalize_ok w ts : forall pre pm, pen_ok w pre pm -> (forall q, In q ts -> q <= w) -> exists pm', fold_o penalize ts pm = Some pm' /\ pen_ok w (pre ++ ts) pm'.
Proof.
  induction ts as [|q ts IH]; intros pre pm P H; [exists pm; rewrite app_nil_r; split; [reflexivity|exact P]|]. destruct P as (L & C & M & W). cbn [fold_o]. unfold penalize at 1.
  pose proof (H q (or_introl eq_refl)) as Hq. assert (Lq : q < length (fst pm)) by lia. apply lookup_lt_is_Some in Lq as [a Ea]. rewrite Ea.
  replace (pre ++ q :: ts) with ((pre ++ [q]) ++ ts) by (rewrite <- app_assoc; reflexivity). apply IH; [|intros x Hx; apply H; right; exact Hx]. unfold pen_ok. cbn [fst snd]. split; [rewrite insert_length; exact L|].
  split; [|split; [|lia]].
  - intros k b Hb. rewrite count_occ_app. cbn [count_occ]. destruct (Nat.eq_dec q k) as [->|Ne].
    + rewrite list_lookup_insert in Hb by exact (lookup_lt_Some _ _ _ Ea). injection Hb as <-. rewrite (C k a Ea). lia.
    + rewrite list_lookup_insert_ne in Hb by exact Ne. rewrite (C k b Hb). lia.
  - intros x Hx. apply in_app_iff in Hx as [Hx|[<-|[]]]; [specialize (M x Hx); lia|lia].
Qed.
Lemma node_ok gates st n w pre pm t ts : pen_ok w pre pm -> map_o (rank_position st) (fanouts gates st n) = Some ts -> (forall q, In q ts -> q <= w) ->
  exists pm', ncross_node gates st n (pm, t) = Some (pm', t + list_sum (map (fun q => above q pre) ts)) /\ pen_ok w (pre ++ ts) pm'.
Proof.
  intros P E H. unfold ncross_node. rewrite E. cbn [fst snd]. destruct (penalize_ok w ts pre pm P H) as (pm' & E' & P'). rewrite E'. exists pm'. split; [|exact P'].
  destruct P as (L & C & M & W).
  assert (X : forall l t, (forall q, In q l -> q <= w) -> fold_o (fun q t => match penalties (fst pm) (S q) (snd pm - q) with Some c => Some (t + c) | None => None end) l t = Some (t + list_sum (map (fun q => above q pre) l))).
  { clear - L C M W. induction l as [|q l IH]; intros t H; [cbn; f_equal; lia|]. cbn [fold_o map list_sum]. specialize (H q (or_introl eq_refl)) as Le.
    assert (Pe : penalties (fst pm) (S q) (snd pm - q) = Some (above q pre)).
    { rewrite (above_between pre q (snd pm) M). destruct (Nat.le_gt_cases (snd pm) q) as [Lq|Gq].
      - replace (snd pm - q) with 0 by lia. cbn [penalties]. f_equal. symmetry. apply length_zero_iff_nil. clear. induction pre as [|x pre IH]; [reflexivity|]. cbn. unfold between at 1.
        replace (Nat.leb (S q) x && Nat.ltb x (S q + 0)) with false by (symmetry; apply andb_false_iff; rewrite Nat.leb_gt, Nat.ltb_ge; lia). exact IH.
      - apply (penalties_some (fst pm) pre C). lia. }
    rewrite Pe, IH by (intros x Hx; apply H; right; exact Hx). f_equal. change (list_sum (above q pre :: map (fun q0 => above q0 pre) l)) with (above q pre + list_sum (map (fun q0 => above q0 pre) l)). lia. }
  rewrite (X ts t H). reflexivity.
Qed.
Lemma nodes_ok gates st w ns tsl : Forall2 (fun n ts => map_o (rank_position st) (fanouts gates st n) = Some ts /\ forall q, In q ts -> q <= w) ns tsl ->
  forall pre pm t, pen_ok w pre pm -> exists pm', fold_o (ncross_node gates st) ns (pm, t) = Some (pm', t + cr pre tsl).
Proof.
  induction 1 as [|n ts ns tsl [E H] F IH]; intros pre pm t P; [exists pm; cbn; rewrite Nat.add_0_r; reflexivity|]. cbn [fold_o cr].
  destruct (node_ok gates st n w pre pm t ts P E H) as (pm1 & E1 & P1). rewrite E1. destruct (IH (pre ++ ts) pm1 (t + list_sum (map (fun q => above q pre) ts)) P1) as (pm2 & E2). exists pm2. rewrite E2. f_equal. f_equal. lia.
Qed.

(** ** Pairs of wires *)

Fixpoint wires (i : nat) (tsl : list (list nat)) : list (nat * nat) := match tsl with [] => [] | ts :: tsl => map (pair i) ts ++ wires (S i) tsl end.
Fixpoint pairs (i : nat) (pre : list (nat * nat)) (tsl : list (list nat)) : list ((nat * nat) * (nat * nat)) :=
  match tsl with
  | [] => []
  | ts :: tsl => flat_map (fun q => map (fun w => (w, (i, q))) (List.filter (fun w => Nat.ltb q (snd w)) pre)) ts ++ pairs (S i) (pre ++ map (pair i) ts) tsl
  end.
Lemma wires_in tsl : forall i a j, In (a, j) (wires i tsl) <-> exists k ts, a = i + k /\ tsl !! k = Some ts /\ In j ts.
Proof.
  induction tsl as [|ts tsl IH]; intros i a j; cbn [wires]; [split; [intros []|intros (k & ts & _ & H & _); discriminate H]|]. rewrite in_app_iff, in_map_iff, IH. split.
  - intros [(x & [= <- <-] & Hx)|(k & ts' & -> & A & B)]; [exists 0, ts; split; [lia|]; split; [reflexivity|exact Hx]|exists (S k), ts'; split; [lia|split; assumption]].
  - intros (k & ts' & -> & A & B). destruct k as [|k]; [left; injection A as ->; exists j; split; [f_equal; lia|exact B]|right; exists k, ts'; split; [lia|split; assumption]].
Qed.
Lemma pairs_length tsl : forall i pre, length (pairs i pre tsl) = cr (map snd pre) tsl.
Proof.
  induction tsl as [|ts tsl IH]; intros i pre; [reflexivity|]. cbn [pairs cr]. rewrite app_length, IH, map_app, map_map. cbn [snd]. rewrite map_id. f_equal. clear IH.
  induction ts as [|q ts IH]; [reflexivity|]. cbn [flat_map map]. rewrite app_length, IH, map_length. match goal with |- _ = list_sum (?a :: ?l) => change (list_sum (a :: l)) with (a + list_sum l) end. f_equal. unfold above. clear. induction pre as [|x pre IH]; [reflexivity|]. cbn [List.filter map]. destruct (Nat.ltb q (snd x)); cbn [length]; rewrite IH; reflexivity.
Qed.
Lemma pairs_in tsl : forall i pre w w', In (w, w') (pairs i pre tsl) <-> In w' (wires i tsl) /\ snd w' < snd w /\ (In w pre \/ In w (wires i tsl) /\ fst w < fst w').
Proof.
  induction tsl as [|ts tsl IH]; intros i pre w w'; cbn [pairs wires]; [cbn [In]; tauto|]. rewrite !in_app_iff, IH.
  assert (Lo : forall x, In x (wires (S i) tsl) -> S i <= fst x) by (intros [a j] H; apply wires_in in H as (k & _ & -> & _); cbn; lia).
  assert (F : In (w, w') (flat_map (fun q => map (fun w => (w, (i, q))) (List.filter (fun w => Nat.ltb q (snd w)) pre)) ts) <-> In w' (map (pair i) ts) /\ snd w' < snd w /\ In w pre).
  { rewrite in_flat_map, in_map_iff. split.
    - intros (q & Hq & H). apply in_map_iff in H as (x & [= -> <-] & H). apply filter_In in H as [H1 H2]. apply Nat.ltb_lt in H2. cbn. split; [exists q; split; [reflexivity|exact Hq]|split; assumption].
    - intros ((q & <- & Hq) & L & H). exists q. split; [exact Hq|]. apply in_map_iff. exists w. split; [reflexivity|]. apply filter_In. split; [exact H|]. apply Nat.ltb_lt. exact L. }
  rewrite F. assert (Mi : forall x, In x (map (pair i) ts) -> fst x = i) by (intros x H; apply in_map_iff in H as (q & <- & _); reflexivity). split.
  - intros [(A & B & C)|(A & B & C)]; [tauto|]. split; [tauto|]. split; [exact B|]. rewrite in_app_iff in C. destruct C as [[C|C]|C]; [tauto| |tauto]. right. split; [tauto|]. rewrite (Mi w C). specialize (Lo w' A). lia.
  - intros ([A|A] & B & C).
    + destruct C as [C|[[C|C] D]]; [tauto| |].
      * rewrite (Mi w C), (Mi w' A) in D. lia.
      * specialize (Lo w C). rewrite (Mi w' A) in D. lia.
    + right. split; [exact A|]. split; [exact B|]. rewrite in_app_iff. tauto.
Qed.
Lemma pairs_nodup tsl : forall i pre, List.NoDup pre -> (forall w, In w pre -> fst w < i) -> (forall ts, In ts tsl -> List.NoDup ts) -> List.NoDup (pairs i pre tsl).
Proof.
  induction tsl as [|ts tsl IH]; intros i pre N L T; [constructor|]. cbn [pairs]. pose proof (T ts (or_introl eq_refl)) as Nt.
  assert (Mi : forall x, In x (map (pair i) ts) -> fst x = i) by (intros x H; apply in_map_iff in H as (q & <- & _); reflexivity).
  apply NoDup_ListNoDup, NoDup_app. split; [|split].
  - clear - N Nt. induction Nt as [|q ts Nq Nt IH]; [constructor|]. cbn [flat_map]. apply NoDup_app. split; [|split; [|exact IH]].
    + apply NoDup_fmap_2; [intros a b [= H]; exact H|]. apply NoDup_ListNoDup, List.NoDup_filter. exact N.
    + intros x H1 H2. apply elem_of_list_In, in_map_iff in H1 as (y & <- & _). apply elem_of_list_In, in_flat_map in H2 as (q' & Hq' & H2). apply in_map_iff in H2 as (z & [= _ ->] & _). contradiction.
  - intros [w w'] H1 H2. apply elem_of_list_In, in_flat_map in H1 as (q & _ & H1). apply in_map_iff in H1 as (x & [= _ <-] & _). apply elem_of_list_In, pairs_in in H2 as (H2 & _). apply wires_in in H2 as (k & _ & H2 & _). lia.
  - apply NoDup_ListNoDup, IH; [| |intros x Hx; apply T; right; exact Hx].
    + apply NoDup_ListNoDup, NoDup_app. split; [apply NoDup_ListNoDup; exact N|]. split; [|apply NoDup_fmap_2; [intros a b [= H]; exact H|apply NoDup_ListNoDup; exact Nt]].
      intros x H1 H2. apply elem_of_list_In in H1, H2. specialize (L x H1). rewrite (Mi x H2) in L. lia.
    + intros w H. apply in_app_iff in H as [H|H]; [specialize (L w H); lia|rewrite (Mi w H); lia].
Qed.

(** ** Ranks *)

Record ready (gates : list nat) (st : rview) : Prop := {
  rd_inv : inv st;
  rd_gates : List.NoDup gates;
  rd_gate : forall g, In g gates <-> exists lit ch, t_nodes (r_net st) !! g = Some (TGate lit ch);
  rd_bal : forall v u k, In u (t_fanins (r_net st) v) -> ranked_node (r_net st) u -> r_level st u = Some k -> r_level st v = Some (S k);
  rd_const : forall v u, In u (t_fanins (r_net st) v) -> is_Some (r_level st u);
  rd_len : length (r_ranks st) = S (depth (r_view st))
}.
Lemma fanouts_in gates st n g : ready gates st -> (In g (fanouts gates st n) <-> In n (t_fanins (r_net st) g)).
Proof.
  intros R. unfold fanouts. rewrite filter_In, existsb_exists. split.
  - intros [_ (x & Hx & E)]. apply Nat.eqb_eq in E. subst x. exact Hx.
  - intros H. split; [|exists n; split; [exact H|apply Nat.eqb_refl]]. apply (rd_gate gates st R). destruct (fanin_gate (r_net st) g n H) as (lit & ch & E & _). exists lit, ch. exact E.
Qed.
Lemma gate_ranked net g : (exists lit ch, t_nodes net !! g = Some (TGate lit ch)) -> ranked_node net g.
Proof. intros (lit & ch & E). exists (TGate lit ch). split; [exact E|discriminate]. Qed.
Lemma fanout_ranked gates st n g : ready gates st -> In g (fanouts gates st n) -> ranked_node (r_net st) g.
Proof. intros R H. apply (fanouts_in gates st n g R) in H. destruct (fanin_gate (r_net st) g n H) as (lit & ch & E & _). apply gate_ranked. exists lit, ch. exact E. Qed.
Lemma ranked_pos gates st n : ready gates st -> ranked_node (r_net st) n -> is_Some (r_pos st !! n).
Proof. intros R H. destruct (rk_all _ _ _ _ _ (iv_ok st (rd_inv _ _ R)) n H) as (l & r & i & _ & _ & P & _). eauto. Qed.
Lemma fanout_positions gates st n : ready gates st -> exists ts, map_o (rank_position st) (fanouts gates st n) = Some ts /\ Forall2 (fun a b => rank_position st a = Some b) (fanouts gates st n) ts.
Proof. intros R. apply map_o_some. intros g Hg. exact (ranked_pos gates st g R (fanout_ranked gates st n g R Hg)). Qed.
Lemma targets gates st r rank rank' i u : ready gates st -> r_ranks st !! r = Some rank -> r_ranks st !! S r = Some rank' -> rank !! i = Some u ->
  exists ts, map_o (rank_position st) (fanouts gates st u) = Some ts /\ List.NoDup ts /\ forall j, In j ts <-> exists v, rank' !! j = Some v /\ In u (t_fanins (r_net st) v).
Proof.
  intros R Er Er' Eu. destruct (fanout_positions gates st u R) as (ts & E & F). exists ts. split; [exact E|]. pose proof (iv_ok st (rd_inv _ _ R)) as O. unfold okay in O.
  destruct (rk_in _ _ _ _ _ O r rank i u Er Eu) as (Du & Lu & _).
  assert (At : forall g j, In u (t_fanins (r_net st) g) -> rank_position st g = Some j -> rank' !! j = Some g).
  { intros g j Hg Pj. assert (Dg : ranked_node (r_net st) g) by (apply (fanout_ranked gates st u g R), (fanouts_in gates st u g R); exact Hg).
    pose proof (rd_bal _ _ R g u r Hg Du Lu) as Lg. exact (pos_at _ st g (S r) j rank' O Dg Lg Pj Er'). }
  assert (Fi : forall g, In g (fanouts gates st u) -> In u (t_fanins (r_net st) g)) by (intros g H; apply (fanouts_in gates st u g R); exact H).
  assert (Nf : List.NoDup (fanouts gates st u)) by (apply List.NoDup_filter, (rd_gates _ _ R)). split.
  - apply NoDup_ListNoDup, NoDup_alt. intros a b j Ha Hb. destruct (Forall2_lookup_r _ _ _ _ _ F Ha) as (ga & Ga & Pa). destruct (Forall2_lookup_r _ _ _ _ _ F Hb) as (gb & Gb & Pb).
    assert (Xa : rank' !! j = Some ga) by (apply At; [apply Fi, elem_of_list_In, elem_of_list_lookup; eauto|exact Pa]). assert (Xb : rank' !! j = Some gb) by (apply At; [apply Fi, elem_of_list_In, elem_of_list_lookup; eauto|exact Pb]).
    rewrite Xa in Xb. injection Xb as <-. apply NoDup_ListNoDup in Nf. exact (NoDup_lookup _ _ _ _ Nf Ga Gb).
  - intros j. split.
    + intros H. apply elem_of_list_In, elem_of_list_lookup in H as [a Ha]. destruct (Forall2_lookup_r _ _ _ _ _ F Ha) as (g & Hg & Pg). assert (Hu : In u (t_fanins (r_net st) g)) by (apply Fi, elem_of_list_In, elem_of_list_lookup; eauto).
      exists g. split; [exact (At g j Hu Pg)|exact Hu].
    + intros (v & Ev & Hv). assert (Hf : In v (fanouts gates st u)) by (apply (fanouts_in gates st u v R); exact Hv). apply elem_of_list_In, elem_of_list_lookup in Hf as [a Ha].
      destruct (Forall2_lookup_l _ _ _ _ _ F Ha) as (q & Hq & Pq). destruct (rk_in _ _ _ _ _ O (S r) rank' j v Er' Ev) as (_ & _ & Pv). unfold rank_position in Pq. rewrite Pv in Pq. injection Pq as <-. apply elem_of_list_In, elem_of_list_lookup. eauto.
Qed.
Lemma rank_ok gates st r : ready gates st -> r < depth (r_view st) -> exists l, List.NoDup l /\ (forall t, ncross_rank gates st r t = Some (t + length l)) /\
  forall w w', In (w, w') l <-> wire (r_net st) (r_ranks st) r (fst w) (snd w) /\ wire (r_net st) (r_ranks st) r (fst w') (snd w') /\ fst w < fst w' /\ snd w' < snd w.
Proof.
  intros R Lr. pose proof (rd_len _ _ R) as Ln. assert (E1 : is_Some (r_ranks st !! r)) by (apply lookup_lt_is_Some; lia). assert (E2 : is_Some (r_ranks st !! S r)) by (apply lookup_lt_is_Some; lia).
  destruct E1 as [rank Er]. destruct E2 as [rank' Er'].
  assert (X : exists tsl, Forall2 (fun u ts => map_o (rank_position st) (fanouts gates st u) = Some ts /\ List.NoDup ts /\ forall j, In j ts <-> exists v, rank' !! j = Some v /\ In u (t_fanins (r_net st) v)) rank tsl).
  { assert (Y : forall u, In u rank -> exists ts, map_o (rank_position st) (fanouts gates st u) = Some ts /\ List.NoDup ts /\ forall j, In j ts <-> exists v, rank' !! j = Some v /\ In u (t_fanins (r_net st) v)).
    { intros u Hu. apply elem_of_list_In, elem_of_list_lookup in Hu as [i Hi]. exact (targets gates st r rank rank' i u R Er Er' Hi). }
    clear Er. induction rank as [|u rank IH]; [exists []; constructor|]. destruct (Y u (or_introl eq_refl)) as [ts Hts]. destruct IH as [tsl F]; [intros x Hx; apply Y; right; exact Hx|]. exists (ts :: tsl). constructor; assumption. }
  destruct X as [tsl F]. exists (pairs 0 [] tsl).
  assert (W : forall i j, In (i, j) (wires 0 tsl) <-> wire (r_net st) (r_ranks st) r i j).
  { intros i j. rewrite wires_in. split.
    - intros (k & ts & -> & Hk & Hj). cbn [Nat.add]. destruct (Forall2_lookup_r _ _ _ _ _ F Hk) as (u & Hu & _ & _ & J). destruct (proj1 (J j) Hj) as (v & Hv & Hi). exists rank, rank', u, v. do 4 (split; [assumption|]). exact Hi.
    - intros (q & q' & u & v & A & B & C & D & Hi). rewrite Er in A. injection A as <-. rewrite Er' in B. injection B as <-. destruct (Forall2_lookup_l _ _ _ _ _ F C) as (ts & Ht & _ & _ & J). exists i, ts. split; [reflexivity|]. split; [exact Ht|]. apply (proj2 (J j)). exists v. split; assumption. }
  split; [|split].
  - apply pairs_nodup; [constructor|intros w []|]. intros ts Ht. apply elem_of_list_In, elem_of_list_lookup in Ht as [i Hi]. destruct (Forall2_lookup_r _ _ _ _ _ F Hi) as (u & _ & _ & N & _). exact N.
  - intros t. unfold ncross_rank, rank_width, get_ranks. rewrite Er, Er'. cbn [option_map]. rewrite pairs_length.
    assert (F' : Forall2 (fun n ts => map_o (rank_position st) (fanouts gates st n) = Some ts /\ forall q, In q ts -> q <= length rank') rank tsl).
    { eapply Forall2_impl; [exact F|]. intros u ts (A & _ & J). split; [exact A|]. intros q Hq. destruct (proj1 (J q) Hq) as (v & Hv & _). apply lookup_lt_Some in Hv. lia. }
    destruct (nodes_ok gates st (length rank') rank tsl F' [] (replicate (S (length rank')) 0, 0) t) as [pm E]; [|rewrite E; reflexivity].
    split; [apply replicate_length|]. split; [|split; [intros x []|cbn; lia]]. intros k a H. cbn [fst] in H. apply lookup_replicate in H as [-> _]. reflexivity.
  - intros [i j] [i' j']. rewrite pairs_in, <- !W. cbn [fst snd]. cbn [In]. tauto.
Qed.
Lemma ncross_ok gates st : ready gates st -> exists k, ncross gates st = Some k /\ crossings (r_net st) (r_ranks st) k.
Proof.
  intros R. assert (X : forall rs t, List.NoDup rs -> (forall r, In r rs -> r < depth (r_view st)) -> exists L, List.NoDup L /\ fold_o (ncross_rank gates st) rs t = Some (t + length L) /\
    forall r i j i' j', In (r, ((i, j), (i', j'))) L <-> In r rs /\ wire (r_net st) (r_ranks st) r i j /\ wire (r_net st) (r_ranks st) r i' j' /\ i < i' /\ j' < j).
  { induction rs as [|r rs IH]; intros t N B; [exists []; split; [constructor|]; split; [cbn; f_equal; lia|]; intros; cbn; tauto|]. inversion N as [|? ? N1 N2]; subst.
    destruct (rank_ok gates st r R (B r (or_introl eq_refl))) as (l & Nl & El & Hl). destruct (IH (t + length l) N2) as (L & NL & EL & HL); [intros x Hx; apply B; right; exact Hx|].
    exists (map (pair r) l ++ L). split; [|split].
    - apply NoDup_ListNoDup, NoDup_app. split; [apply NoDup_fmap_2; [intros a b [= H]; exact H|apply NoDup_ListNoDup; exact Nl]|]. split; [|apply NoDup_ListNoDup; exact NL].
      intros (r' & (i & j) & (i' & j')) H1 H2. apply elem_of_list_In, in_map_iff in H1 as (y & [= <- _] & _). apply elem_of_list_In, HL in H2 as [H2 _]. contradiction.
    - cbn [fold_o]. rewrite El, EL, app_length, map_length. f_equal. lia.
    - intros r' i j i' j'. rewrite in_app_iff, HL, in_map_iff. split.
      + intros [(y & Ey & H)|[H1 H2]]; [|split; [right; exact H1|exact H2]]. inversion Ey; subst. apply Hl in H. split; [left; reflexivity|exact H].
      + intros [[<-|H1] H2]; [left; eexists; split; [reflexivity|]; apply Hl; exact H2|right; split; assumption]. }
  destruct (X (seq 0 (depth (r_view st))) 0) as (L & NL & EL & HL); [apply seq_NoDup|intros r H; apply in_seq in H; lia|]. exists (length L). split; [unfold ncross; rewrite EL; reflexivity|].
  exists L. split; [exact NL|]. split; [|reflexivity]. intros (r & (i & j) & (i' & j')). rewrite HL. unfold cross. split; [intros [_ H]; exact H|]. intros H. split; [|exact H].
  destruct H as [(q & q' & u & v & _ & B & _) _]. apply lookup_lt_Some in B. pose proof (rd_len _ _ R). apply in_seq. lia.
Qed.
Lemma crossings_fun net rs k k' : crossings net rs k -> crossings net rs k' -> k = k'.
Proof.
  intros (l & N & H & <-) (l' & N' & H' & <-). apply Permutation_length, NoDup_Permutation; [apply NoDup_ListNoDup; exact N|apply NoDup_ListNoDup; exact N'|]. intros x. rewrite !elem_of_list_In, H, H'. reflexivity.
Qed.
