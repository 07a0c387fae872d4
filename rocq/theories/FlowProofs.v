(** Orthogonal on arbitrary networks: the substituted network. *)
From Coq Require Import ZArith Bool String List Lia Permutation.
From stdpp Require Import gmap list strings.
From Verif Require Import ClockModel GateModel GateSpec OrthoModel FanoutModel FanoutSpec FanoutProofs FanoutProofs2 FanoutProofs3 FanoutProofs4 FlowModel FlowSpec.
Import ListNotations.

(** *** Sums *)
Lemma sum_perm (f : nat -> nat) l1 l2 : Permutation l1 l2 -> list_sum (map f l1) = list_sum (map f l2).
Proof. unfold list_sum. induction 1; cbn in *; lia. Qed.
Lemma sum_zero {A} (f : A -> nat) l : (forall x, In x l -> f x = 0) -> list_sum (map f l) = 0.
Proof. unfold list_sum. induction l as [|a l IH]; intros H; [reflexivity|]. cbn. rewrite (H a (or_introl eq_refl)). apply IH. intros x Hx. apply H. right. exact Hx. Qed.
Lemma sum_support (f : nat -> nat) l1 l2 : List.NoDup l1 -> List.NoDup l2 -> (forall x, In x l2 -> In x l1) -> (forall x, In x l1 -> ~ In x l2 -> f x = 0) ->
  list_sum (map f l1) = list_sum (map f l2).
Proof.
  intros N1 N2 I Z. assert (P : Permutation l1 (l2 ++ List.filter (fun x => negb (if in_dec Nat.eq_dec x l2 then true else false)) l1)).
  { apply Permutation.NoDup_Permutation; [exact N1| |].
    - apply NoDup_ListNoDup, NoDup_app. split; [apply NoDup_ListNoDup, N2|]. split; [|apply NoDup_ListNoDup, List.NoDup_filter, N1]. intros x H1 H2. apply elem_of_list_In in H1. apply elem_of_list_In, filter_In in H2 as [_ H2]. destruct (in_dec Nat.eq_dec x l2); [discriminate H2|contradiction].
    - intros x. rewrite in_app_iff, filter_In. destruct (in_dec Nat.eq_dec x l2) as [H|H]; cbn; [split; auto|]. split; [auto|]. intros [K|[K _]]; [contradiction|exact K]. }
  rewrite (sum_perm f _ _ P), map_app, list_sum_app. rewrite (sum_zero f (List.filter _ l1)); [lia|]. intros x Hx. apply filter_In in Hx as [H1 H2]. apply Z; [exact H1|]. destruct (in_dec Nat.eq_dec x l2); [discriminate H2|assumption].
Qed.
Lemma sum_tight (f : nat -> nat) b l : (forall i, In i l -> f i <= b) -> list_sum (map f l) = b * length l -> forall i, In i l -> f i = b.
Proof.
  unfold list_sum. induction l as [|a l IH]; intros H E i Hi; [destruct Hi|]. cbn in E. assert (B : fold_right Nat.add 0 (map f l) <= b * length l).
  { clear - H. induction l as [|c l IH]; cbn; [lia|]. pose proof (H c ltac:(right; left; reflexivity)). assert (fold_right Nat.add 0 (map f l) <= b * length l) by (apply IH; intros x [<-|Hx]; apply H; [left; reflexivity|right; right; exact Hx]). lia. }
  pose proof (H a (or_introl eq_refl)). destruct Hi as [<-|Hi]; [lia|]. apply IH; [intros x Hx; apply H; right; exact Hx|unfold list_sum; lia|exact Hi].
Qed.

Lemma owner_of (own l l' : list nat) c : Forall2 (fun n f => own !! f = Some n) l l' -> In c l' -> exists n, In n l /\ own !! c = Some n.
Proof. induction 1 as [|g g' l l' E F IH]; intros H; [destruct H|]. destruct H as [->|H]; [exists g; split; [left; reflexivity|exact E]|]. destruct (IH H) as (f & A & B). exists f. split; [right; exact A|exact B]. Qed.

Section flow.
Context (net : tnet) (order : list nat) (P : plain net order) (Hm : manageable net order).
Notation Hnet := (pl_net _ _ P).
Notation ps := default_params.
Notation fo := (fanout_size net).
Notation K0 := (0 :: 1 :: t_pis net).
Notation ALL := (concat (map (t_fanins net) order) ++ t_pos net).

Lemma meaning_fn lit vs : meaning lit vs = match fn_of lit with Some f => boolean_meaning f vs | None => None end.
Proof. do 15 (destruct lit as [|lit]; [destruct vs as [|? [|? [|? [|]]]]; reflexivity|]). reflexivity. Qed.
Lemma meaning_buffers : buffers meaning.
Proof. intros b. reflexivity. Qed.
(** Every reference is to an input or a gate. *)
Lemma fanin_known m c : In c (t_fanins net m) -> In c (t_pis net ++ order).
Proof using P.
  intros Hc. unfold t_fanins in Hc. destruct (t_nodes net !! m) as [[b| |lit ch]|] eqn:E; try (destruct Hc; fail). pose proof (pl_all _ _ P m lit ch E) as Hin. apply elem_of_list_In, elem_of_list_lookup in Hin as (i & Hi).
  assert (Hf : In c (t_fanins net m)) by (unfold t_fanins; rewrite E; exact Hc). pose proof (nw_topo _ _ Hnet i m c Hi Hf) as T. pose proof (pl_const _ _ P m c (or_introl Hf)) as C. unfold t_is_constant in C.
  destruct (t_nodes net !! c) as [[b| |lit' ch']|] eqn:Ec; [discriminate C| | |destruct T]; apply in_or_app; [left; apply (nw_pis _ _ Hnet), Ec|right; eapply pl_all; eassumption].
Qed.
Lemma pos_known c : In c (t_pos net) -> In c (t_pis net ++ order).
Proof using P.
  intros Hc. pose proof (nw_pos _ _ Hnet c Hc) as T. pose proof (pl_const _ _ P 0 c (or_intror Hc)) as C. unfold t_is_constant in C.
  destruct (t_nodes net !! c) as [[b| |lit' ch']|] eqn:Ec; [discriminate C| | |destruct T]; apply in_or_app; [left; apply (nw_pis _ _ Hnet), Ec|right; exact T].
Qed.
Lemma fo_used n : fo n = used net n.
Proof. symmetry. apply used_fsize. Qed.
Lemma fo_unknown n : ~ In n (t_pis net ++ order) -> fo n = 0.
Proof using P.
  intros N. unfold fanout_size, fsize. rewrite (proj1 (count_occ_not_In Nat.eq_dec _ _)); [|intros H; apply N, pos_known, H]. rewrite sum_nodes. rewrite sum_zero; [reflexivity|]. intros i _.
  destruct (t_nodes net !! i) as [x|] eqn:E; [|reflexivity]. apply count_occ_not_In. intros H. apply N, (fanin_known i). unfold t_fanins. rewrite E. exact H.
Qed.
Lemma sum_member (f : nat -> nat) n l : In n l -> f n <= list_sum (map f l).
Proof. unfold list_sum. induction l as [|a l IH]; intros H; [destruct H|]. cbn. destruct H as [<-|H]; [lia|]. specialize (IH H). lia. Qed.
Lemma flow_small : small net ps.
Proof using P Hm.
  split; [reflexivity|]. split; [reflexivity|]. intros n. unfold manageable in Hm. destruct (in_dec Nat.eq_dec n (t_pis net ++ order)) as [H|H].
  - rewrite fo_used. pose proof (sum_member (used net) n _ H). lia.
  - rewrite (fo_unknown n H). reflexivity.
Qed.
Lemma all_exact m : count_occ Nat.eq_dec ALL m = fo m.
Proof using P.
  rewrite count_occ_app. unfold fanout_size, fsize. f_equal. rewrite count_concat, map_map, sum_nodes.
  rewrite <- (sum_support (fun n => count_occ Nat.eq_dec (t_fanins net n) m) (seq 0 (length (t_nodes net))) order).
  - apply list_sum_ext. intros i _. unfold t_fanins. destruct (t_nodes net !! i); reflexivity.
  - apply List.seq_NoDup.
  - apply (nw_order _ _ Hnet).
  - intros x Hx. destruct (nw_gates _ _ Hnet x Hx) as (lit & ch & E & _). apply in_seq. apply lookup_lt_Some in E. lia.
  - intros x _ Hx. unfold t_fanins. destruct (t_nodes net !! x) as [[b| |lit ch]|] eqn:E; try reflexivity. destruct Hx. eapply pl_all; eassumption.
Qed.

(** *** The substituted network *)
Record sound (net' : tnet) : Prop := mkSound {
  so_gate : forall n lit ch, t_nodes net' !! n = Some (TGate lit ch) -> exists f, fn_of lit = Some f /\ comparison f = false /\
    ((length ch = 1 /\ (f = Fbuf \/ f = Fnot)) \/ (length ch = 2 /\ f <> Fbuf /\ f <> Fnot /\ f <> Fmaj));
  so_simple : forall n lit ch, t_nodes net' !! n = Some (TGate lit ch) -> List.NoDup ch;
  so_const : forall n c, In c (t_fanins net' n) \/ In c (t_pos net') -> 2 <= c;
  so_used : forall n lit ch, t_nodes net' !! n = Some (TGate lit ch) -> 1 <= used net' n <= 2;
  so_pi : forall n, t_nodes net' !! n = Some TPi -> used net' n <= 1;
  so_pi1 : (forall n, In n (t_pis net) -> used net n <> 0) -> forall n, t_nodes net' !! n = Some TPi -> used net' n <> 0;
  so_pos : separate_outputs net -> separate_outputs net'
}.
Lemma Hd2 : 2 <= ps_degree ps.
Proof. cbn. lia. Qed.
Section result.
Context (st : fstate) (own : list nat) (I : inv meaning net ps st own (rev order ++ K0) (rev order ++ rev (t_pis net)) ALL) (R : roots net st)
  (Hpos : Forall2 (fun n f => own !! f = Some n) (t_pos net) (f_pos st)) (L : lim net ps st own).
Notation fs := (fsize (f_nodes st) (f_pos st)).
Notation net' := (mkT (f_nodes st) (seq 2 (length (t_pis net))) (f_pos st)).
Lemma own_known b n : own !! b = Some n -> t_is_constant net n = false -> In n (t_pis net ++ order).
Proof using P I.
  intros H C. pose proof (i_own _ _ _ _ _ _ _ _ I b n H) as K. apply in_app_or in K as [K|K]; [apply in_or_app; right; rewrite in_rev; exact K|].
  destruct K as [<-|[<-|K]]; [unfold t_is_constant in C; rewrite (nw_0 _ _ Hnet) in C; discriminate C|unfold t_is_constant in C; rewrite (nw_1 _ _ Hnet) in C; discriminate C|apply in_or_app; left; exact K].
Qed.
Lemma kt_known n : In n (t_pis net ++ order) -> kt net ps (rev order ++ rev (t_pis net)) n = kk net ps n.
Proof. intros H. unfold kt. destruct (in_dec Nat.eq_dec n _) as [|N]; [reflexivity|]. destruct N. apply in_app_or in H as [H|H]; apply in_or_app; [right|left]; rewrite <- in_rev; exact H. Qed.
Lemma kk_value n : (is_fanout net n = true /\ fo n = 2 /\ kk net ps n = 0) \/ (kk net ps n = fo n - 1 /\ (is_fanout net n = true -> fo n <= 2 -> False)).
Proof using P Hm.
  destruct flow_small as (S1 & S2 & S3). unfold kk. destruct (is_fanout net n && Nat.leb (fo n) (ps_degree ps)) eqn:E.
  - left. apply andb_true_iff in E as [E1 E2]. apply Nat.leb_le in E2. cbn in E2. split; [exact E1|]. split; [|reflexivity]. unfold is_fanout in E1. apply andb_true_iff in E1 as [_ E1]. apply Nat.ltb_lt in E1. lia.
  - right. split.
    + unfold num_fanouts. rewrite !(i32_small ps Hd2) by (specialize (S3 n); cbn; lia). cbn [ps_threshold ps_degree default_params]. change (Z.max (Z.of_nat 2 - 1) 1) with 1%Z. rewrite Z.div_1_r. lia.
    + intros E1 E2. rewrite E1 in E. cbn [andb] in E. apply Nat.leb_gt in E. cbn in E. lia.
Qed.
(** The number of uses of every node. *)
Lemma uses_value b n : own !! b = Some n -> t_is_constant net n = false ->
  (is_fanout net n = true /\ fo n = 2 /\ f_map st !! n = Some b /\ fs b = 2) \/
  ((is_fanout net n = true -> fo n <= 2 -> False) /\ ((f_map st !! n = Some b /\ fs b = Nat.min (fo n) 1) \/ (f_map st !! n <> Some b /\ fs b = 2))).
Proof using P Hm I L.
  intros Hb C. pose proof (own_known b n Hb C) as Hk. pose proof (i_total _ _ _ _ _ _ _ _ I n) as T. rewrite all_exact, (kt_known n Hk) in T.
  assert (Hkn : In n (rev order ++ K0)) by (apply (i_own _ _ _ _ _ _ _ _ I b n Hb)). pose proof (i_size _ _ _ _ _ _ _ _ I n Hkn) as S. rewrite (kt_known n Hk) in S.
  destruct (i_known _ _ _ _ _ _ _ _ I n Hkn) as (r & Hr). pose proof (i_map _ _ _ _ _ _ _ _ I _ _ Hr) as Ho. unfold total in T.
  destruct (sum_split fs r (owned own n) (owned_NoDup _ _)) as [A B]; [apply owned_In, Ho|]. rewrite A in T. rewrite B in S. injection S as S.
  destruct (kk_value n) as [(F1 & F2 & F3)|[F1 F2]].
  - left. split; [exact F1|]. split; [exact F2|]. rewrite F3 in S, T. destruct (List.remove Nat.eq_dec r (owned own n)) as [|y l] eqn:Er; [|discriminate S]. cbn in T.
    assert (b = r). { destruct (Nat.eq_dec b r) as [|N]; [assumption|]. exfalso. assert (H : In b (List.remove Nat.eq_dec r (owned own n))) by (apply List.in_in_remove; [exact N|apply owned_In, Hb]). rewrite Er in H. destruct H. }
    subst b. split; [exact Hr|]. lia.
  - right. split; [exact F2|]. set (l := List.remove Nat.eq_dec r (owned own n)) in *.
    assert (Lr : fs r <= 1). { destruct (L n r Ho C) as [[_ [H|[H1 H2]]]|[H _]]; [exact H|destruct (F2 H1 H2)|contradiction]. }
    assert (Ll : forall i, In i l -> fs i <= 2). { intros i Hi. apply List.in_remove in Hi as [Hi Hn]. apply owned_In in Hi. destruct (L n i Hi C) as [[H _]|[_ H]]; [congruence|exact H]. }
    assert (Lsum : list_sum (map fs l) <= 2 * length l). { clear - Ll. unfold list_sum. induction l as [|a l IH]; cbn; [lia|]. pose proof (Ll a (or_introl eq_refl)). assert (fold_right Nat.add 0 (map fs l) <= 2 * length l) by (apply IH; intros i Hi; apply Ll; right; exact Hi). lia. }
    rewrite F1 in *. assert (E : fs r = Nat.min (fo n) 1 /\ list_sum (map fs l) = 2 * length l) by (rewrite S in *; lia). destruct E as [E1 E2]. destruct (Nat.eq_dec b r) as [->|N]; [left; auto|]. right. split; [congruence|].
    apply (sum_tight fs 2 l Ll E2). apply List.in_in_remove; [exact N|apply owned_In, Hb].
Qed.
Lemma own_not_const b n : own !! b = Some n -> t_is_constant net n = false -> 2 <= b.
Proof using P I R.
  intros H C. destruct (Nat.lt_ge_cases b 2) as [Hb|Hb]; [|exact Hb]. exfalso. assert (E : own !! b = Some b).
  { apply (i_map _ _ _ _ _ _ _ _ I). apply R. destruct b as [|[|b]]; [reflexivity|reflexivity|lia]. }
  rewrite H in E. injection E as ->. unfold t_is_constant in C. destruct b as [|[|b]]; [rewrite (nw_0 _ _ Hnet) in C|rewrite (nw_1 _ _ Hnet) in C|lia]; discriminate C.
Qed.
Lemma node_own b y : f_nodes st !! b = Some y -> exists n, own !! b = Some n.
Proof using I. intros H. apply lookup_lt_is_Some_2. rewrite (b_len _ _ _ _ (i_base _ _ _ _ _ _ _ _ I)). eapply lookup_lt_Some, H. Qed.
Lemma nonroot_not_const b n : own !! b = Some n -> f_map st !! n <> Some b -> t_is_constant net n = false.
Proof using P I.
  intros H N. destruct (i_full _ _ _ _ _ _ _ _ I n b H N) as (q & Eq & _). destruct (i_avail _ _ _ _ _ _ _ _ I n q Eq) as [Ht _]. apply in_app_or in Ht as [Ht|Ht]; rewrite <- in_rev in Ht.
  - destruct (nw_gates _ _ Hnet n Ht) as (lit & ch & E & _). unfold t_is_constant. rewrite E. reflexivity.
  - apply (nw_pis _ _ Hnet) in Ht. unfold t_is_constant. rewrite Ht. reflexivity.
Qed.
Lemma result_used b : used net' b = fs b.
Proof. rewrite used_fsize. reflexivity. Qed.
Lemma node_cases b y : f_nodes st !! b = Some y -> exists n, own !! b = Some n /\
  ((f_map st !! n = Some b /\ exists x, t_nodes net !! n = Some x /\ same_kind own x y) \/ (f_map st !! n <> Some b /\ t_is_constant net n = false /\ exists c, y = TGate 2 [c] /\ own !! c = Some n)).
Proof using P I.
  intros H. destruct (node_own b y H) as (n & Hn). exists n. split; [exact Hn|]. destruct (i_kind _ _ _ _ _ _ _ _ I n b Hn) as (y' & Hy & K). rewrite H in Hy. injection Hy as <-. destruct K as [K|[K1 K2]]; [left; exact K|right]. split; [exact K1|]. split; [eapply nonroot_not_const; eassumption|exact K2].
Qed.
Lemma result_sound : sound net'.
Proof using All.
  constructor.
  - cbn [t_nodes]. intros b lit ch H. destruct (node_cases b _ H) as (n & Hn & [[K1 (x & Hx & K)]|[K1 [_ (c & E & _)]]]).
    + destruct x as [| |l0 ch0]; try destruct K. subst l0. destruct (pl_gate _ _ P n lit ch0 Hx) as (f & F1 & F2 & F3). exists f. split; [exact F1|]. split; [exact F2|]. match goal with F : Forall2 _ ch0 ch |- _ => rewrite <- (Forall2_length _ _ _ F) end. exact F3.
    + injection E as -> ->. exists Fbuf. split; [reflexivity|]. split; [reflexivity|]. left. auto.
  - cbn [t_nodes]. intros b lit ch H. destruct (node_cases b _ H) as (n & Hn & [[K1 (x & Hx & K)]|[K1 [_ (c & E & _)]]]).
    + destruct x as [| |l0 ch0]; try destruct K. pose proof (pl_simple _ _ P n l0 ch0 Hx) as ND. match goal with F : Forall2 _ ch0 ch |- _ => clear - F ND; induction F as [|f f' l l' E F2 IH]; [constructor|] end. inversion ND as [|? ? N1 N2]; subst. constructor; [|apply IH, N2].
      intros Hin. apply N1. clear - F2 E Hin. induction F2 as [|g g' l l' E' F3 IH]; [destruct Hin|]. destruct Hin as [->|Hin]; [left; congruence|right; auto].
    + injection E as -> ->. constructor; [intros []|constructor].
  - cbn [t_pos]. intros b c [H|H].
    + unfold t_fanins in H. cbn [t_nodes] in H. destruct (f_nodes st !! b) as [y|] eqn:Hy; [|destruct H]. destruct (node_cases b _ Hy) as (n & Hn & [[K1 (x & Hx & K)]|[K1 [Kc (c' & -> & Ko)]]]).
      * destruct y as [| |lit ch]; try (destruct H; fail). destruct x as [| |l0 ch0]; try destruct K. cbn [t_children] in H.
        match goal with F : Forall2 _ ch0 ch |- _ => assert (exists f, In f ch0 /\ own !! c = Some f) as (f & Hf & Hc) by (clear - F H; induction F as [|g g' l l' E F2 IH]; [destruct H|]; destruct H as [->|H]; [exists g; split; [left; reflexivity|exact E]|destruct (IH H) as (f & A & B); exists f; split; [right; exact A|exact B]]) end.
        eapply own_not_const; [exact Hc|]. apply (pl_const _ _ P n). left. unfold t_fanins. rewrite Hx. exact Hf.
      * destruct H as [<-|[]]. eapply own_not_const; eassumption.
    + assert (exists n, In n (t_pos net) /\ own !! c = Some n) as (n & Hn & Hc) by (eapply owner_of; eassumption).
      eapply own_not_const; [exact Hc|]. apply (pl_const _ _ P 0). right. exact Hn.
  - intros b lit ch H. rewrite result_used. cbn [t_nodes] in H. destruct (node_cases b _ H) as (n & Hn & K).
    assert (C : t_is_constant net n = false). { destruct K as [[K1 (x & Hx & K)]|[_ [K _]]]; [|exact K]. destruct x; try destruct K. unfold t_is_constant. rewrite Hx. reflexivity. }
    destruct (uses_value b n Hn C) as [(_ & _ & _ & U)|[_ [[U1 U2]|[U1 U2]]]]; [lia| |lia]. destruct K as [[K1 (x & Hx & K)]|[K1 _]]; [|contradiction]. destruct x as [| |l0 ch0]; try destruct K. pose proof (pl_used _ _ P n l0 ch0 Hx) as Hu. rewrite <- fo_used in Hu. lia.
  - intros b H. rewrite result_used. cbn [t_nodes] in H. destruct (node_cases b _ H) as (n & Hn & [[K1 (x & Hx & K)]|[_ [_ (c & E & _)]]]); [|discriminate E]. destruct x; try destruct K. assert (C : t_is_constant net n = false) by (unfold t_is_constant; rewrite Hx; reflexivity).
    destruct (uses_value b n Hn C) as [(U & _)|[_ [[U1 U2]|[U1 U2]]]]; [unfold is_fanout, is_buf in U; rewrite Hx in U; discriminate U|lia|contradiction].
  - intros Hu b H. rewrite result_used. cbn [t_nodes] in H. destruct (node_cases b _ H) as (n & Hn & [[K1 (x & Hx & K)]|[_ [_ (c & E & _)]]]); [|discriminate E]. destruct x; try destruct K. assert (C : t_is_constant net n = false) by (unfold t_is_constant; rewrite Hx; reflexivity).
    destruct (uses_value b n Hn C) as [(U & _)|[_ [[U1 U2]|[U1 U2]]]]; [unfold is_fanout, is_buf in U; rewrite Hx in U; discriminate U| |contradiction]. specialize (Hu n (proj2 (nw_pis _ _ Hnet n) Hx)). rewrite <- fo_used in Hu. lia.
  - intros Hsep c H. cbn [t_pos] in H. rewrite result_used. assert (exists n, In n (t_pos net) /\ own !! c = Some n) as (n & Hn & Hc) by (eapply owner_of; eassumption).
    assert (C : t_is_constant net n = false) by (apply (pl_const _ _ P 0); right; exact Hn). pose proof (Hsep n Hn) as Hu. rewrite <- fo_used in Hu.
    assert (Hk : In n (t_pis net ++ order)) by (apply pos_known, Hn). pose proof (i_size _ _ _ _ _ _ _ _ I n (i_own _ _ _ _ _ _ _ _ I c n Hc)) as S. rewrite (kt_known n Hk) in S.
    destruct (uses_value c n Hc C) as [(_ & U & _)|[_ [[U1 U2]|[U1 U2]]]]; [lia|lia|]. exfalso. destruct (kk_value n) as [(_ & F & _)|[F _]]; [lia|]. rewrite F, Hu in S. cbn in S.
    destruct (i_known _ _ _ _ _ _ _ _ I n (i_own _ _ _ _ _ _ _ _ I c n Hc)) as (r & Hr). pose proof (i_map _ _ _ _ _ _ _ _ I _ _ Hr) as Ho. apply owned_In in Ho, Hc. destruct (owned own n) as [|a [|a2 l]]; [destruct Ho| |discriminate S]. destruct Ho as [->|[]], Hc as [->|[]]. contradiction.
Qed.
End result.
End flow.
