(** Fan-out substitution: the whole run. *)
From Coq Require Import ZArith Bool List Lia Permutation.
From stdpp Require Import gmap list.
From Verif Require Import FanoutModel FanoutSpec FanoutProofs FanoutProofs2 FanoutProofs3.
Import ListNotations.

(** *** Counting references *)
Lemma list_sum_submseteq (f : nat -> nat) l1 l2 : l1 ⊆+ l2 -> list_sum (map f l1) <= list_sum (map f l2).
Proof. unfold list_sum. induction 1; cbn in *; lia. Qed.
Lemma sum_nodes (g : tnode -> nat) nodes : list_sum (map g nodes) = list_sum (map (fun i => match nodes !! i with Some x => g x | None => 0 end) (seq 0 (length nodes))).
Proof.
  induction nodes as [|x nodes IH] using rev_ind; [reflexivity|]. rewrite map_app, list_sum_app, IH, app_length, Nat.add_1_r, seq_S, map_app, list_sum_app. cbn [map list_sum fold_right Nat.add]. rewrite lookup_app_r, Nat.sub_diag by lia. cbn. f_equal.
  apply list_sum_ext. intros i Hi. apply in_seq in Hi. rewrite lookup_app_l by lia. reflexivity.
Qed.
Lemma count_concat (l : list (list nat)) m : count_occ Nat.eq_dec (concat l) m = list_sum (map (fun ch => count_occ Nat.eq_dec ch m) l).
Proof. induction l as [|a l IH]; [reflexivity|]. cbn [concat map list_sum fold_right]. rewrite count_occ_app, IH. reflexivity. Qed.
Lemma order_count net order m : List.NoDup order -> (forall n, In n order -> n < length (t_nodes net)) ->
  count_occ Nat.eq_dec (concat (map (t_fanins net) order) ++ t_pos net) m <= fanout_size net m.
Proof.
  intros ND Hlt. rewrite count_occ_app. unfold fanout_size, fsize. apply Nat.add_le_mono_r. rewrite count_concat, map_map, (sum_nodes (fun x => count_occ Nat.eq_dec (t_children x) m)).
  rewrite (list_sum_ext (fun n => count_occ Nat.eq_dec (t_fanins net n) m) (fun i => match t_nodes net !! i with Some x => count_occ Nat.eq_dec (t_children x) m | None => 0 end)).
  - apply list_sum_submseteq, NoDup_submseteq; [apply NoDup_ListNoDup, ND|]. intros x Hx. apply elem_of_list_In in Hx. apply elem_of_list_In, in_seq. specialize (Hlt x Hx). lia.
  - intros i _. unfold t_fanins. destruct (t_nodes net !! i); reflexivity.
Qed.
Lemma map_opt_ok {A B} (g : A -> option B) (P : A -> B -> Prop) l : (forall a, In a l -> exists b, g a = Some b /\ P a b) -> exists v, map_opt g l = Some v /\ Forall2 P l v.
Proof.
  induction l as [|a l IH]; intros H; [exists []; split; [reflexivity|constructor]|]. destruct (H a (or_introl eq_refl)) as (b & E & Pb). destruct IH as (v & Ev & F); [intros x Hx; apply H; right; exact Hx|].
  exists (b :: v). cbn. rewrite E, Ev. split; [reflexivity|constructor; assumption].
Qed.

Section run.
Context (sem : nat -> list bool -> option bool) (Hbuf : buffers sem) (net : tnet) (order : list nat) (Hnet : network net order) (ps : fparams) (rnd : nat -> nat).
Notation d := (ps_degree ps).
Notation thr := (ps_threshold ps).
Context (Hd : 2 <= d) (Hsmall : small net ps).
Notation dpis := (seq 2 (length (t_pis net))).
Notation fo := (fanout_size net).
Notation inv := (inv sem net ps).
Notation K0 := (0 :: 1 :: t_pis net).
Notation ALL := (concat (map (t_fanins net) order) ++ t_pos net).

Lemma K0_nodup : List.NoDup K0.
Proof using Hnet.
  assert (H : forall n, In n (t_pis net) -> n <> 0 /\ n <> 1). { intros n Hn. apply (nw_pis _ _ Hnet) in Hn. pose proof (nw_0 _ _ Hnet). pose proof (nw_1 _ _ Hnet). split; intros ->; congruence. }
  constructor; [|constructor; [|apply (nw_pis_once _ _ Hnet)]].
  - intros [X|X]; [discriminate X|]. destruct (H 0 X) as [Y _]. congruence.
  - intros X. destruct (H 1 X) as [_ Y]. congruence.
Qed.
Lemma order_fresh n : In n order -> ~ In n K0.
Proof using All.
  intros H K. destruct (nw_gates _ _ Hnet n H) as (lit & ch & E & _). destruct K as [<-|[<-|K]]; [rewrite (nw_0 _ _ Hnet) in E; discriminate E|rewrite (nw_1 _ _ Hnet) in E; discriminate E|].
  apply (nw_pis _ _ Hnet) in K. congruence.
Qed.
Lemma const_iff n : In n K0 -> t_is_constant net n = true -> n = 0 \/ n = 1.
Proof using All. intros [<-|[<-|H]] C; auto. apply (nw_pis _ _ Hnet) in H. unfold t_is_constant in C. rewrite H in C. discriminate C. Qed.
Lemma pi_not_const n : In n (t_pis net) -> t_is_constant net n = false.
Proof using All. intros H. apply (nw_pis _ _ Hnet) in H. unfold t_is_constant. rewrite H. reflexivity. Qed.
Lemma gate_not_const n : In n order -> t_is_constant net n = false.
Proof using All. intros H. destruct (nw_gates _ _ Hnet n H) as (lit & ch & E & _). unfold t_is_constant. rewrite E. reflexivity. Qed.

(** *** The start *)
Notation M0 := (combine (t_pis net) dpis ++ [(0, 0); (1, 1)]).
Lemma combine_seq (l : list nat) s n k : In (n, k) (combine l (seq s (length l))) <-> s <= k /\ l !! (k - s) = Some n.
Proof.
  revert s. induction l as [|a l IH]; intros s; cbn [combine seq length].
  - split; [intros []|intros [_ H]; discriminate H].
  - cbn [In]. rewrite IH. split.
    + intros [[= <- <-]|[H1 H2]]; [split; [lia|]; rewrite Nat.sub_diag; reflexivity|]. split; [lia|]. replace (k - s) with (S (k - S s)) by lia. exact H2.
    + intros [H1 H2]. destruct (Nat.eq_dec k s) as [->|]; [left; rewrite Nat.sub_diag in H2; injection H2 as ->; reflexivity|right]. split; [lia|]. replace (k - s) with (S (k - S s)) in H2 by lia. exact H2.
Qed.
Lemma M0_In n k : In (n, k) M0 <-> K0 !! k = Some n.
Proof.
  rewrite in_app_iff, combine_seq. destruct k as [|[|k]]; cbn.
  - split; [intros [[H _]|[[= <-]|[[=]|[]]]]; [lia|reflexivity]|intros [= <-]; auto].
  - split; [intros [[H _]|[[=]|[[= <-]|[]]]]; [lia|reflexivity]|intros [= <-]; auto].
  - rewrite Nat.sub_0_r. split; [intros [[_ H]|[[=]|[[=]|[]]]]; exact H|intros H; left; split; [lia|exact H]].
Qed.
Lemma M0_keys : List.NoDup (map fst M0).
Proof using Hd Hnet.
  rewrite map_app. cbn. assert (E : map fst (combine (t_pis net) dpis) = t_pis net).
  { generalize 2. generalize (t_pis net) as l. induction l as [|a l IH]; intros s; [reflexivity|]. cbn. rewrite IH. reflexivity. }
  rewrite E. eapply Permutation_NoDup; [|apply K0_nodup]. apply (Permutation_app_comm [0; 1] (t_pis net)).
Qed.
Lemma M0_lookup n k : f_map (copy_network net) !! n = Some k <-> K0 !! k = Some n.
Proof using Hd Hnet.
  unfold copy_network. cbn [f_map]. rewrite <- elem_of_list_to_map by (apply NoDup_ListNoDup, M0_keys). rewrite elem_of_list_In. apply M0_In.
Qed.
Lemma start_fs i : fsize (f_nodes (copy_network net)) [] i = 0.
Proof.
  unfold fsize, copy_network. cbn [f_nodes app map list_sum fold_right t_children count_occ]. rewrite map_map. induction (t_pis net) as [|a l IH]; [reflexivity|]. exact IH.
Qed.
Lemma start_node k n : K0 !! k = Some n -> exists x, t_nodes net !! n = Some x /\ f_nodes (copy_network net) !! k = Some x /\ match x with TGate _ _ => False | _ => True end.
Proof using Hd Hnet.
  unfold copy_network. cbn [f_nodes]. destruct k as [|[|k]]; cbn.
  - intros [= <-]. exists (TConst false). split; [apply (nw_0 _ _ Hnet)|split; [reflexivity|exact Logic.I]].
  - intros [= <-]. exists (TConst true). split; [apply (nw_1 _ _ Hnet)|split; [reflexivity|exact Logic.I]].
  - intros H. change (t_pis net !! k = Some n) in H. exists TPi. split; [apply (nw_pis _ _ Hnet), elem_of_list_In, elem_of_list_lookup_2 with k, H|]. split; [|exact Logic.I]. refine (eq_trans (list_lookup_fmap (fun _ : nat => TPi) (t_pis net) k) _). rewrite H. reflexivity.
Qed.
Lemma start_len : length (f_nodes (copy_network net)) = length K0.
Proof. unfold copy_network. cbn. rewrite map_length. reflexivity. Qed.
Lemma start_base : base sem net (copy_network net) K0.
Proof using Hd Hnet.
  constructor.
  - symmetry. apply start_len.
  - split; [|intros c []]. intros i x c Hx Hc. assert (Hi : i < length K0) by (rewrite <- start_len; eapply lookup_lt_Some, Hx). destruct (lookup_lt_is_Some_2 K0 i Hi) as (n & Hn). destruct (start_node i n Hn) as (y & _ & Hy & G). rewrite Hx in Hy. injection Hy as <-. destruct x; [destruct Hc|destruct Hc|destruct G].
  - intros i n env b H. destruct (start_node i n H) as (x & H1 & H2 & G). split; intros V.
    + inversion V as [? c E|? k E Ek|? lit ch vs ? E]; subst; cbn [t_nodes t_pis] in *; rewrite H2 in E; injection E as ->; [apply value_const, H1| |destruct G].
        apply value_input; [exact H1|]. assert (k < length (t_pis net)) by (rewrite <- (seq_length (length (t_pis net)) 2); eapply lookup_lt_Some, Ek). rewrite lookup_seq_lt in Ek by assumption. injection Ek as <-. exact H.
    + inversion V as [? c E|? k E Ek|? lit ch vs ? E]; subst; rewrite H1 in E; injection E as ->; [apply value_const, H2| |destruct G].
        apply value_input; [exact H2|]. cbn [t_pis]. assert (Hk : K0 !! (S (S k)) = Some n) by exact Ek. assert (i = S (S k)) as -> by (eapply NoDup_lookup; [apply NoDup_ListNoDup, K0_nodup|exact H|exact Hk]). apply lookup_seq_lt. eapply lookup_lt_Some, Ek.
Qed.
Lemma start_ok : inv (copy_network net) K0 K0 [] [].
Proof using All.
  assert (Hfs : forall i, fsize (f_nodes (copy_network net)) (f_pos (copy_network net)) i = 0) by apply start_fs.
  constructor.
  - apply start_base.
  - intros n r H. apply M0_lookup, H.
  - intros n H. apply elem_of_list_In, elem_of_list_lookup in H as (k & H). exists k. apply M0_lookup, H.
  - intros i n H. eapply elem_of_list_In, elem_of_list_lookup_2, H.
  - intros n [].
  - intros n [].
  - intros n. unfold total. rewrite (list_sum_ext _ (fun _ => 0)) by (intros i _; apply Hfs). transitivity 0; [|reflexivity]. generalize (owned K0 n) as l. induction l as [|a l IH]; [reflexivity|exact IH].
  - intros n H. change (length (owned K0 n) = 1). apply elem_of_list_In, elem_of_list_lookup in H as (k & H). pose proof (proj2 (owned_In K0 n k) H) as Hk. pose proof (owned_NoDup K0 n) as ND.
    assert (U : forall i, In i (owned K0 n) -> i = k) by (intros i Hi; apply owned_In in Hi; eapply NoDup_lookup; [apply NoDup_ListNoDup, K0_nodup|exact Hi|exact H]).
    destruct (owned K0 n) as [|a [|b l]]; [destruct Hk|reflexivity|]. exfalso. inversion ND as [|? ? N _]; subst. apply N. left. rewrite (U a), (U b); cbn; auto.
  - intros n q H. unfold copy_network in H. cbn in H. rewrite lookup_empty in H. discriminate H.
  - intros n b H Hn. destruct Hn. apply M0_lookup, H.
  - intros n b H. destruct (start_node b n H) as (x & H1 & H2 & G). exists x. split; [exact H2|]. left. split; [apply M0_lookup, H|]. exists x. split; [exact H1|]. destruct x; [reflexivity|exact Logic.I|destruct G].
Qed.
Lemma start_lim : lim net ps (copy_network net) K0.
Proof using All. intros n b H _. left. split; [apply M0_lookup, H|]. left. unfold copy_network at 2. cbn [f_pos]. rewrite start_fs. lia. Qed.

Definition roots (st : fstate) : Prop := forall k n, K0 !! k = Some n -> f_map st !! n = Some k.

(** *** The inputs *)
Lemma pis_ok : forall l P st own, t_pis net = P ++ l -> inv st own K0 (rev P) [] -> roots st -> f_pos st = [] ->
  exists st' own', fold_o (generate_fanout_tree net ps rnd) l st = Some st' /\ inv st' own' K0 (rev (t_pis net)) [] /\ roots st' /\ f_pos st' = [] /\ (1 <= thr -> lim net ps st own -> lim net ps st' own').
Proof using All.
  induction l as [|n l IH]; intros P st own E I Hr Hp; cbn [fold_o].
  - exists st, own. rewrite app_nil_r in E. replace (rev (t_pis net)) with (rev P) by congruence. auto.
  - assert (Hn : ~ In n (rev P)). { rewrite <- in_rev. pose proof (nw_pis_once _ _ Hnet) as N. rewrite E in N. apply NoDup_remove_2 in N. intros H. apply N, in_or_app. left. exact H. }
    assert (HK : In n K0) by (right; right; rewrite E; apply in_or_app; right; left; reflexivity).
    destruct (gen_step sem Hbuf net ps rnd Hd Hsmall st own K0 (rev P) [] n I HK Hn ltac:(intros [])) as (st1 & own1 & E1 & I1 & P1 & M1 & L1). rewrite E1.
    destruct (IH (P ++ [n]) st1 own1) as (st2 & own2 & E2 & I2 & R2 & P2 & L2).
    + rewrite <- app_assoc. exact E.
    + rewrite rev_unit. exact I1.
    + intros k m H. rewrite M1. apply Hr, H.
    + congruence.
    + exists st2, own2. auto 10.
Qed.

(** *** The gates *)
Lemma topo_known done n l c : order = done ++ n :: l -> In c (t_fanins net n) -> In c (rev done ++ K0).
Proof using All.
  intros E Hc. assert (Ho : order !! length done = Some n) by (rewrite E, lookup_app_r, Nat.sub_diag by lia; reflexivity). pose proof (nw_topo _ _ Hnet _ _ _ Ho Hc) as T.
  destruct (t_nodes net !! c) as [[b| |lit ch]|] eqn:Ec; [| | |destruct T].
  - apply in_or_app. right. pose proof (nw_const _ _ Hnet c b Ec) as H. destruct c as [|[|c]]; [left; reflexivity|right; left; reflexivity|lia].
  - apply in_or_app. right. right. right. apply (nw_pis _ _ Hnet), Ec.
  - destruct T as (j & Hj & Hl). apply in_or_app. left. rewrite <- in_rev. rewrite E, lookup_app_l in Hl by exact Hj. eapply elem_of_list_In, elem_of_list_lookup_2, Hl.
Qed.
Lemma all_count m : count_occ Nat.eq_dec ALL m <= fo m.
Proof using All.
  apply order_count; [apply (nw_order _ _ Hnet)|]. intros n H. destruct (nw_gates _ _ Hnet n H) as (lit & ch & E & _). eapply lookup_lt_Some, E.
Qed.
Lemma treed_not_const done l m : order = done ++ l -> In m (rev done ++ rev (t_pis net)) -> t_is_constant net m = false.
Proof using All.
  intros E H. apply in_app_or in H as [H|H]; rewrite <- in_rev in H; [apply gate_not_const; rewrite E; apply in_or_app; left; exact H|apply pi_not_const, H].
Qed.
Lemma known_treed done c : In c (rev done ++ K0) -> In c (rev done ++ rev (t_pis net)) \/ t_is_constant net c = true.
Proof using All.
  intros H. apply in_app_or in H as [H|[<-|[<-|H]]].
  - left. apply in_or_app. left. exact H.
  - right. unfold t_is_constant. rewrite (nw_0 _ _ Hnet). reflexivity.
  - right. unfold t_is_constant. rewrite (nw_1 _ _ Hnet). reflexivity.
  - left. apply in_or_app. right. apply in_rev in H. exact H.
Qed.
Lemma gates_ok : forall l done st own, order = done ++ l -> inv st own (rev done ++ K0) (rev done ++ rev (t_pis net)) (concat (map (t_fanins net) done)) -> roots st -> f_pos st = [] ->
  exists st' own', fold_o (substitute_gate net ps rnd) l st = Some st' /\ inv st' own' (rev order ++ K0) (rev order ++ rev (t_pis net)) (concat (map (t_fanins net) order)) /\ roots st' /\ f_pos st' = [] /\
    (1 <= thr -> simple_fanins net -> lim net ps st own -> lim net ps st' own').
Proof using All.
  induction l as [|n l IH]; intros done st own E I Hr Hp; cbn [fold_o].
  - exists st, own. rewrite app_nil_r in E. rewrite <- E in I. auto.
  - assert (Hn : In n order) by (rewrite E; apply in_or_app; right; left; reflexivity). destruct (nw_gates _ _ Hnet n Hn) as (lit & ch & Hx & _). unfold substitute_gate at 1. rewrite Hx.
    assert (Hfi : t_fanins net n = ch) by (unfold t_fanins; rewrite Hx; reflexivity).
    assert (Hch : forall c, In c ch -> In c (rev done ++ K0)) by (intros c Hc; eapply topo_known; [exact E|rewrite Hfi; exact Hc]).
    assert (Hnk : ~ In n (rev done ++ K0)).
    { intros H. apply in_app_or in H as [H|H]; [|exact (order_fresh n Hn H)]. pose proof (nw_order _ _ Hnet) as N. rewrite E in N. apply NoDup_remove_2 in N. apply N, in_or_app. left. rewrite in_rev. exact H. }
    destruct (map_opt_ok (fun f => if t_is_constant net f then Some (old2new st f) else get_fanout ps st f) (picked net ps st own) ch) as (ch' & Ech & F).
    { intros f Hf. pose proof (Hch f Hf) as Hk. destruct (t_is_constant net f) eqn:C.
      - exists (old2new st f). split; [reflexivity|]. split; [|left; exact C]. apply (i_map _ _ _ _ _ _ _ _ I). eapply old2new_known; eassumption.
      - eapply (get_fanout_ok sem Hbuf net ps rnd Hd Hsmall); [exact I|exact Hk| |intros m Hm; eapply treed_not_const; eassumption]. left. destruct (known_treed done f Hk) as [T|T]; [|congruence]. split; [exact T|].
        pose proof (all_count f) as A. rewrite E, map_app, concat_app, !count_occ_app in A. cbn [map concat] in A. rewrite count_occ_app, Hfi in A. apply (count_occ_In Nat.eq_dec) in Hf. lia. }
    rewrite Ech. destruct (gate_push sem Hbuf net ps rnd Hd Hsmall st own _ _ _ n lit ch ch' I Hnk Hx Hch F) as [I1 L1]. set (st1 := set_map (push st (TGate lit ch')) n (next_node st)) in *.
    destruct (gen_step sem Hbuf net ps rnd Hd Hsmall st1 _ _ _ _ n I1) as (st2 & own2 & E2 & I2 & P2 & M2 & L2).
    + left. reflexivity.
    + intros H. apply Hnk, (i_treed _ _ _ _ _ _ _ _ I), H.
    + intros H. apply in_app_or in H as [H|H]; [apply Hnk, (i_refs _ _ _ _ _ _ _ _ I), H|apply Hnk, Hch, H].
    + rewrite E2. destruct (IH (done ++ [n]) st2 own2) as (st3 & own3 & E3 & I3 & R3 & P3 & L3).
      * rewrite <- app_assoc. exact E.
      * rewrite rev_unit, map_app, concat_app. cbn [map concat]. rewrite app_nil_r, Hfi. exact I2.
      * intros k m H. rewrite M2. unfold st1. cbn [set_map push f_map]. rewrite lookup_insert_ne; [apply Hr, H|]. intros <-. apply (order_fresh n Hn). eapply elem_of_list_In, elem_of_list_lookup_2, H.
      * rewrite P2. exact Hp.
      * exists st3, own3. split; [exact E3|]. split; [exact I3|]. split; [exact R3|]. split; [exact P3|]. intros T S L. apply L3; [exact T|exact S|]. apply L2; [exact T|]. apply L1; [|exact L]. eapply S, Hx.
Qed.

(** *** The outputs *)
Lemma pos_ok : forall l P st own, t_pos net = P ++ l -> inv st own (rev order ++ K0) (rev order ++ rev (t_pis net)) (concat (map (t_fanins net) order) ++ P) -> roots st -> Forall2 (fun n f => own !! f = Some n) P (f_pos st) ->
  exists st', fold_o (substitute_po ps) l st = Some st' /\ inv st' own (rev order ++ K0) (rev order ++ rev (t_pis net)) ALL /\ roots st' /\ Forall2 (fun n f => own !! f = Some n) (t_pos net) (f_pos st') /\
    (lim net ps st own -> lim net ps st' own).
Proof using All.
  induction l as [|n l IH]; intros P st own E I Hr Hp; cbn [fold_o].
  - exists st. rewrite app_nil_r in E. rewrite <- E in I, Hp. auto.
  - assert (Hk : In n (rev order ++ K0)).
    { pose proof (nw_pos _ _ Hnet n) as T. rewrite E in T. specialize (T ltac:(apply in_or_app; right; left; reflexivity)). destruct (t_nodes net !! n) as [[b| |lit ch]|] eqn:En; [| | |destruct T]; apply in_or_app.
      - right. pose proof (nw_const _ _ Hnet n b En) as H. destruct n as [|[|n]]; [left; reflexivity|right; left; reflexivity|lia].
      - right. right. right. apply (nw_pis _ _ Hnet), En.
      - left. rewrite <- in_rev. exact T. }
    destruct (get_fanout_ok sem Hbuf net ps rnd Hd Hsmall st own _ _ _ n I Hk) as (f & Ef & Pf).
    + destruct (known_treed order n Hk) as [T|T]; [left|right; exact T]. split; [exact T|]. pose proof (all_count n) as A. rewrite E, app_assoc, (count_occ_app Nat.eq_dec) in A. cbn [count_occ] in A. destruct (Nat.eq_dec n n); [lia|congruence].
    + intros m Hm. eapply (treed_not_const order []); [rewrite app_nil_r; reflexivity|exact Hm].
    + unfold substitute_po at 1. rewrite Ef. destruct (po_push sem Hbuf net ps rnd Hd Hsmall st own _ _ _ n f I Hk Pf) as [I1 L1].
      destruct (IH (P ++ [n]) (mkF (f_nodes st) (f_pos st ++ [f]) (f_map st) (f_avail st) (f_draws st)) own) as (st2 & E2 & I2 & R2 & P2 & L2).
      * rewrite <- app_assoc. exact E.
      * rewrite app_assoc. exact I1.
      * exact Hr.
      * cbn [f_pos]. apply Forall2_app; [exact Hp|]. constructor; [apply Pf|constructor].
      * exists st2. auto 10.
Qed.

(** *** The result *)
Lemma run_ok : exists st own, fanout_substitution net order ps rnd = Some (mkT (f_nodes st) dpis (f_pos st)) /\
  inv st own (rev order ++ K0) (rev order ++ rev (t_pis net)) ALL /\ roots st /\ Forall2 (fun n f => own !! f = Some n) (t_pos net) (f_pos st) /\ (1 <= thr -> simple_fanins net -> lim net ps st own).
Proof using All.
  destruct (pis_ok (t_pis net) [] (copy_network net) K0 eq_refl start_ok) as (st1 & own1 & E1 & I1 & R1 & P1 & L1); [intros k n H; apply M0_lookup, H|reflexivity|].
  destruct (gates_ok order [] st1 own1 eq_refl I1 R1 P1) as (st2 & own2 & E2 & I2 & R2 & P2 & L2).
  destruct (pos_ok (t_pos net) [] st2 own2 eq_refl) as (st3 & E3 & I3 & R3 & P3 & L3); [rewrite app_nil_r; exact I2|exact R2|rewrite P2; constructor|].
  exists st3, own2. unfold fanout_substitution. rewrite E1, E2, E3. split; [reflexivity|]. split; [exact I3|]. split; [exact R3|]. split; [exact P3|]. intros T S. apply L3, L2, L1, start_lim; assumption.
Qed.
Lemma run_equivalent : exists net', fanout_substitution net order ps rnd = Some net' /\ equivalent sem net net'.
Proof using All.
  destruct run_ok as (st & own & E & I & _ & P & _). eexists. split; [exact E|]. split; [cbn; rewrite seq_length; reflexivity|]. split; [cbn; eapply Forall2_length, P|].
  cbn [t_pos]. intros env k n m v H1 H2. rewrite value_pos. assert (Ho : own !! m = Some n) by (eapply Forall2_lookup_lr in P; eassumption). symmetry. apply (b_val _ _ _ _ (i_base _ _ _ _ _ _ _ _ I)), Ho.
Qed.
Lemma ref_use_le st own b n : inv st own (rev order ++ K0) (rev order ++ rev (t_pis net)) ALL -> own !! b = Some n -> fsize (f_nodes st) (f_pos st) b <= kt net ps (rev order ++ rev (t_pis net)) n + fo n.
Proof using All.
  intros I Hb. pose proof (i_total _ _ _ _ _ _ _ _ I n) as T. unfold total in T. destruct (sum_split (fsize (f_nodes st) (f_pos st)) b (owned own n) (owned_NoDup _ _)) as [A _]; [apply owned_In, Hb|]. pose proof (all_count n). lia.
Qed.
Lemma used_fsize net' n : used net' n = fsize (t_nodes net') (t_pos net') n.
Proof. unfold used, fsize. f_equal. apply list_sum_ext. intros [b| |lit ch] _; reflexivity. Qed.
Lemma run_limits net' : fanout_substitution net order ps rnd = Some net' -> 1 <= thr <= d -> simple_fanins net -> within_limits net' d thr.
Proof using All.
  intros E [T1 T2] S. destruct run_ok as (st & own & E' & I & _ & _ & L). rewrite E in E'. injection E' as ->. specialize (L T1 S). intros b y Hy. cbn [t_nodes] in Hy.
  rewrite used_fsize. cbn [t_nodes t_pos]. assert (Hb : b < length own) by (rewrite (b_len _ _ _ _ (i_base _ _ _ _ _ _ _ _ I)); eapply lookup_lt_Some, Hy). destruct (lookup_lt_is_Some_2 own b Hb) as (n & Hn).
  destruct (i_kind _ _ _ _ _ _ _ _ I n b Hn) as (y' & Hy' & K). rewrite Hy in Hy'. injection Hy' as <-. pose proof (L n b Hn) as Lb.
  assert (Fan : forall lit ch, t_nodes net !! n = Some (TGate lit ch) -> is_fanout net n = true -> fo n <= d -> lit = 2 /\ fsize (f_nodes st) (f_pos st) b <= d).
  { intros lit ch Hg Hf Hle. unfold is_fanout, is_buf in Hf. rewrite Hg in Hf. split; [destruct lit as [|[|[|]]]; try discriminate Hf; reflexivity|].
    pose proof (ref_use_le st own b n I Hn) as U. enough (kt net ps (rev order ++ rev (t_pis net)) n = 0) by lia. unfold kt. destruct (in_dec Nat.eq_dec n _); [|reflexivity]. unfold kk, is_fanout, is_buf. rewrite Hg, Hf. rewrite (proj2 (Nat.leb_le _ _) Hle). reflexivity. }
  destruct K as [[K1 (x & Hx & K2)]|[K1 (c & -> & _)]].
  - destruct y as [c| |lit ch]; [exact Logic.I| |].
    + destruct x as [| |]; try destruct K2. assert (C : t_is_constant net n = false) by (unfold t_is_constant; rewrite Hx; reflexivity). destruct (Lb C) as [[_ [H|[H _]]]|[H _]]; [exact H| |contradiction]. unfold is_fanout, is_buf in H. rewrite Hx in H. discriminate H.
    + destruct x as [| |lit0 ch0]; try (destruct K2; fail). destruct K2 as [-> _]. assert (C : t_is_constant net n = false) by (unfold t_is_constant; rewrite Hx; reflexivity). destruct (Lb C) as [[_ [H|[H1 H2]]]|[H _]]; [| |contradiction].
      * destruct lit as [|[|[|]]]; try exact H. lia.
      * destruct (Fan _ _ Hx H1 H2) as [-> H]. lia.
  - assert (C : t_is_constant net n = false).
    { destruct (i_full _ _ _ _ _ _ _ _ I n b Hn K1) as (q & Eq & _). destruct (i_avail _ _ _ _ _ _ _ _ I n q Eq) as [Ht _]. eapply (treed_not_const order []); [rewrite app_nil_r; reflexivity|exact Ht]. }
    destruct (Lb C) as [[H _]|[_ H]]; [contradiction|]. lia.
Qed.

(** The result is again a network. *)
Lemma own_prefix st own : inv st own (rev order ++ K0) (rev order ++ rev (t_pis net)) ALL -> roots st -> forall k n, K0 !! k = Some n -> own !! k = Some n.
Proof using All. intros I R k n H. apply (i_map _ _ _ _ _ _ _ _ I), R, H. Qed.
Lemma run_network net' : fanout_substitution net order ps rnd = Some net' ->
  network net' (seq (2 + length (t_pis net)) (length (t_nodes net') - (2 + length (t_pis net)))) /\ length (t_pis net') = length (t_pis net).
Proof using All.
  intros E. destruct run_ok as (st & own & E' & I & R & P & _). rewrite E in E'. injection E' as ->. cbn [t_nodes t_pis]. split; [|apply seq_length].
  pose proof (own_prefix st own I R) as OP. pose proof (i_base _ _ _ _ _ _ _ _ I) as B. pose proof (b_len _ _ _ _ B) as Hl. pose proof (b_scoped _ _ _ _ B) as [Sc1 Sc2].
  assert (Low : forall k n, K0 !! k = Some n -> exists x y, t_nodes net !! n = Some x /\ f_nodes st !! k = Some y /\ same_kind own x y /\ match x with TGate _ _ => False | _ => True end).
  { intros k n H. destruct (i_kind _ _ _ _ _ _ _ _ I n k (OP _ _ H)) as (y & Hy & [[_ (x & Hx & K)]|[N _]]); [|destruct N; apply R, H]. destruct (start_node k n H) as (x' & H1 & _ & G). rewrite Hx in H1. injection H1 as <-. eauto 8. }
  assert (Hlen : length K0 <= length (f_nodes st)).
  { destruct (Nat.le_gt_cases (length K0) (length (f_nodes st))) as [H|H]; [exact H|]. destruct (lookup_lt_is_Some_2 K0 (length (f_nodes st)) H) as (n & Hn). destruct (Low _ _ Hn) as (x & y & _ & Hy & _). apply lookup_lt_Some in Hy. lia. }
  cbn [length] in Hlen. set (np := length (t_pis net)) in *.
  assert (High : forall i y, f_nodes st !! i = Some y -> 2 + np <= i -> exists lit ch, y = TGate lit ch /\ ch <> []).
  { intros i y Hy Hi. assert (Hb : i < length own) by (rewrite Hl; eapply lookup_lt_Some, Hy). destruct (lookup_lt_is_Some_2 own i Hb) as (n & Hn).
    assert (NK : In n K0 -> f_map st !! n <> Some i). { intros H Hm. apply elem_of_list_In, elem_of_list_lookup in H as (k & H). pose proof (R k n H) as Hk. rewrite Hm in Hk. injection Hk as ->. apply lookup_lt_Some in H. cbn [length] in H. fold np in H. lia. }
    destruct (i_kind _ _ _ _ _ _ _ _ I n i Hn) as (y' & Hy' & K). rewrite Hy in Hy'. injection Hy' as <-. destruct K as [[K1 (x & Hx & K)]|[_ (c & -> & _)]]; [|exists 2, [c]; split; [reflexivity|discriminate]].
    pose proof (i_own _ _ _ _ _ _ _ _ I i n Hn) as Hkn. apply in_app_or in Hkn as [Hkn|Hkn]; [|destruct (NK Hkn K1)]. rewrite <- in_rev in Hkn. destruct (nw_gates _ _ Hnet n Hkn) as (lit & ch & Hg & Hne). rewrite Hx in Hg. injection Hg as ->.
    destruct y as [| |lit' ch']; try destruct K. exists lit', ch'. split; [reflexivity|]. intros ->. match goal with F : Forall2 _ ch [] |- _ => apply Forall2_length in F end. destruct ch; [congruence|discriminate]. }
  assert (LowIn : forall i y, f_nodes st !! i = Some y -> i < 2 + np -> exists n x, K0 !! i = Some n /\ t_nodes net !! n = Some x /\ same_kind own x y /\ match x with TGate _ _ => False | _ => True end).
  { intros i y Hy Hi. destruct (lookup_lt_is_Some_2 K0 i) as (n & Hn); [cbn; fold np; lia|]. destruct (Low _ _ Hn) as (x & y' & H1 & H2 & H3 & H4). rewrite Hy in H2. injection H2 as <-. eauto 8. }
  constructor; cbn [t_nodes t_pis t_pos].
  - destruct (Low 0 0 eq_refl) as (x & y & Hx & Hy & K & _). rewrite (nw_0 _ _ Hnet) in Hx. injection Hx as <-. destruct y; try destruct K. exact Hy.
  - destruct (Low 1 1 eq_refl) as (x & y & Hx & Hy & K & _). rewrite (nw_1 _ _ Hnet) in Hx. injection Hx as <-. destruct y; try destruct K. exact Hy.
  - intros i b Hy. destruct (Nat.lt_ge_cases i (2 + np)) as [Hi|Hi]; [|destruct (High _ _ Hy Hi) as (? & ? & [=] & _)]. destruct (LowIn _ _ Hy Hi) as (n & x & Hn & Hx & K & _). destruct x; try destruct K. pose proof (nw_const _ _ Hnet n _ Hx) as H.
    assert (K0 !! n = Some n) by (destruct n as [|[|n]]; [reflexivity|reflexivity|lia]). assert (i = n) by (eapply NoDup_lookup; [apply NoDup_ListNoDup, K0_nodup|eassumption|assumption]). lia.
  - intros i. rewrite in_seq. split.
    + intros Hi. destruct i as [|[|k]]; [lia|lia|]. destruct (lookup_lt_is_Some_2 (t_pis net) k) as (n & Hn); [fold np; lia|]. destruct (Low (S (S k)) n Hn) as (x & y & Hx & Hy & K & _).
      assert (Hp : t_nodes net !! n = Some TPi) by (apply (nw_pis _ _ Hnet); eapply elem_of_list_In, elem_of_list_lookup_2, Hn). rewrite Hx in Hp. injection Hp as ->. destruct y; try destruct K. exact Hy.
    + intros Hy. destruct (Nat.lt_ge_cases i (2 + np)) as [Hi|Hi]; [|destruct (High _ _ Hy Hi) as (? & ? & [=] & _)]. split; [|lia]. destruct (LowIn _ _ Hy Hi) as (n & x & Hn & Hx & K & _). destruct x; try destruct K.
      destruct i as [|[|i]]; [| |lia]; injection Hn as <-; [rewrite (nw_0 _ _ Hnet) in Hx|rewrite (nw_1 _ _ Hnet) in Hx]; discriminate Hx.
  - apply List.seq_NoDup.
  - apply List.seq_NoDup.
  - intros i Hi. apply in_seq in Hi. destruct (lookup_lt_is_Some_2 (f_nodes st) i ltac:(lia)) as (y & Hy). destruct (High i y Hy ltac:(lia)) as (lit & ch & -> & Hne). eauto.
  - intros i m c Hi Hc. assert (Hi' : i < length (f_nodes st) - (2 + np)) by (rewrite <- (seq_length (length (f_nodes st) - (2 + np)) (2 + np)); eapply lookup_lt_Some, Hi). rewrite lookup_seq_lt in Hi by exact Hi'. injection Hi as <-.
    assert (exists y, f_nodes st !! (2 + np + i) = Some y /\ In c (t_children y)) as (y & Hy & Hc'). { clear - Hc. unfold t_fanins in Hc. cbn [t_nodes] in Hc. destruct (f_nodes st !! S (S (np + i))) as [y|] eqn:Ey in Hc; [exists y; split; [exact Ey|exact Hc]|destruct Hc]. } pose proof (Sc1 _ _ _ Hy Hc') as Hlt. destruct (lookup_lt_is_Some_2 (f_nodes st) c) as (z & Hz); [lia|]. rewrite Hz. destruct z as [| |lit ch]; [exact Logic.I|exact Logic.I|].
    destruct (Nat.lt_ge_cases c (2 + np)) as [Hs|Hs].
    + exfalso. destruct (LowIn _ _ Hz Hs) as (n & x & _ & _ & K & G). destruct x; [destruct K|destruct K|destruct G].
    + exists (c - (2 + np)). split; [lia|]. rewrite lookup_seq_lt by lia. f_equal. lia.
  - intros c Hc. pose proof (Sc2 c Hc) as Hlt. destruct (lookup_lt_is_Some_2 (f_nodes st) c Hlt) as (z & Hz). rewrite Hz. destruct z as [| |lit ch]; [exact Logic.I|exact Logic.I|]. apply in_seq.
    destruct (Nat.lt_ge_cases c (2 + np)) as [Hs|Hs]; [|lia]. exfalso. destruct (LowIn _ _ Hz Hs) as (n & x & _ & _ & K & G). destruct x; [destruct K|destruct K|destruct G].
Qed.

(** The number of nodes. *)
Lemma sum_owned own known : List.NoDup known -> (forall i n, own !! i = Some n -> In n known) -> list_sum (map (fun n => length (owned own n)) known) = length own.
Proof.
  intros ND. induction own as [|m own IH] using rev_ind; intros H.
  - rewrite (list_sum_ext _ (fun _ => 0)) by reflexivity. clear. induction known; [reflexivity|assumption].
  - rewrite (list_sum_ext _ (fun n => length (owned own n) + (if Nat.eq_dec m n then 1 else 0))) by (intros n _; rewrite owned_push, app_length; destruct (Nat.eqb_spec m n), (Nat.eq_dec m n); congruence || reflexivity).
    rewrite list_sum_plus, sum_one by exact ND. rewrite IH, app_length; [|intros i n Hi; apply (H i n); apply lookup_app_l_Some, Hi]. destruct (in_dec Nat.eq_dec m known) as [|N]; [reflexivity|]. destruct N. apply (H (length own)). rewrite lookup_app_r, Nat.sub_diag by lia. reflexivity.
Qed.
Lemma run_size net' : fanout_substitution net order ps rnd = Some net' -> length (t_nodes net') = 2 + length (t_pis net) + length order + list_sum (map (kk net ps) (t_pis net ++ order)).
Proof using All.
  intros E. destruct run_ok as (st & own & E' & I & R & P & _). rewrite E in E'. injection E' as ->. cbn [t_nodes]. rewrite <- (b_len _ _ _ _ (i_base _ _ _ _ _ _ _ _ I)).
  assert (ND : List.NoDup (rev order ++ K0)).
  { apply NoDup_ListNoDup, NoDup_app. split; [apply NoDup_ListNoDup, NoDup_rev, (nw_order _ _ Hnet)|]. split; [|apply NoDup_ListNoDup, K0_nodup]. intros x Hx Hk. apply elem_of_list_In in Hx, Hk. rewrite <- in_rev in Hx. exact (order_fresh x Hx Hk). }
  rewrite <- (sum_owned own (rev order ++ K0) ND (i_own _ _ _ _ _ _ _ _ I)).
  rewrite (list_sum_ext _ (fun n => 1 + kt net ps (rev order ++ rev (t_pis net)) n)) by (intros n Hn; apply (i_size _ _ _ _ _ _ _ _ I n Hn)). rewrite (list_sum_plus (fun _ => 1)).
  assert (S1 : forall l : list nat, list_sum (map (fun _ => 1) l) = length l) by (clear; unfold list_sum; induction l as [|a l IHl]; [reflexivity|]; cbn in *; lia). rewrite S1, app_length, rev_length. cbn [length].
  enough (S2 : list_sum (map (kt net ps (rev order ++ rev (t_pis net))) (rev order ++ K0)) = list_sum (map (kk net ps) (t_pis net ++ order))) by lia.
  assert (P1 : Permutation (rev order ++ K0) (0 :: 1 :: t_pis net ++ order)). { rewrite (Permutation_app_comm (rev order) K0). cbn. do 2 apply perm_skip. apply Permutation_app_head. symmetry. apply Permutation_rev. }
  assert (PS : forall (f : nat -> nat) l1 l2, Permutation l1 l2 -> list_sum (map f l1) = list_sum (map f l2)) by (unfold list_sum; induction 1; cbn in *; lia). rewrite (PS _ _ _ P1). cbn [map list_sum fold_right].
  assert (Z : forall c, t_is_constant net c = true -> kt net ps (rev order ++ rev (t_pis net)) c = 0). { intros c C. unfold kt. destruct (in_dec Nat.eq_dec c _) as [H|]; [|reflexivity]. rewrite (treed_not_const order [] c) in C; [discriminate C|rewrite app_nil_r; reflexivity|exact H]. }
  rewrite (Z 0), (Z 1) by (unfold t_is_constant; rewrite ?(nw_0 _ _ Hnet), ?(nw_1 _ _ Hnet); reflexivity). cbn. apply list_sum_ext. intros n Hn. unfold kt. destruct (in_dec Nat.eq_dec n _) as [|N]; [reflexivity|]. destruct N. apply in_app_or in Hn as [Hn|Hn]; apply in_or_app; [right|left]; rewrite <- in_rev; exact Hn.
Qed.
End run.

(** *** The check *)
Lemma check_iff net ps : 1 <= ps_threshold ps -> is_fanout_substituted net ps = true <->
  forall n x, t_nodes net !! n = Some x -> match x with TConst _ => True | TGate 2 _ => used net n <= ps_degree ps \/ used net n <= 1 | _ => used net n <= ps_threshold ps end.
Proof.
  intros T. unfold is_fanout_substituted. rewrite forallb_forall. split.
  - intros H n x Hx. specialize (H n ltac:(apply in_seq; apply lookup_lt_Some in Hx; lia)). unfold t_is_constant, is_fanout, is_buf in H. rewrite Hx in H. rewrite used_fsize. fold (fanout_size net n). destruct x as [b| |lit ch]; [exact Logic.I| |].
    + cbn in H. apply Nat.leb_le, H.
    + destruct lit as [|[|[|]]]; cbn [orb andb] in H; try (apply Nat.leb_le, H). destruct (Nat.ltb_spec 1 (fanout_size net n)); apply Nat.leb_le in H; lia.
  - intros H n Hn. apply in_seq in Hn. destruct (lookup_lt_is_Some_2 (t_nodes net) n ltac:(lia)) as (x & Hx). specialize (H n x Hx). unfold t_is_constant, is_fanout, is_buf. rewrite Hx. rewrite used_fsize in H. fold (fanout_size net n) in H.
    destruct x as [b| |lit ch]; [reflexivity|apply Nat.leb_le, H|]. destruct lit as [|[|[|]]]; cbn [orb andb]; try (apply Nat.leb_le, H). destruct (Nat.ltb_spec 1 (fanout_size net n)); apply Nat.leb_le; lia.
Qed.
