(** Virtual inputs, miters and equivalence checking: proofs about deletion and miters. *)
From Coq Require Import ZArith Bool List Lia Permutation.
From stdpp Require Import gmap list.
From Verif Require Import FanoutModel FanoutSpec FanoutProofs DepthProofs2 VirtModel VirtSpec VirtProofs.
Import ListNotations.

Definition nodes0 (p : nat) : list tnode := [TConst false; TConst true] ++ repeat TPi p.
Lemma map_pi (l : list nat) : map (fun _ => TPi) l = repeat TPi (length l).
Proof. induction l as [|a l IH]; [reflexivity|]. cbn. rewrite IH. reflexivity. Qed.
Lemma nodes0_length p : length (nodes0 p) = 2 + p.
Proof. unfold nodes0. rewrite app_length, repeat_length. reflexivity. Qed.
Lemma nodes0_pi p i : i < p -> nodes0 p !! (2 + i) = Some TPi.
Proof.
  intros H. unfold nodes0. rewrite lookup_app_r by (cbn; lia). cbn [length]. replace (2 + i - 2) with i by lia. revert i H. induction p as [|p IH]; intros [|i] H; [lia|lia|reflexivity|apply IH; lia].
Qed.
Lemma nodes0_leaf p i x : nodes0 p !! i = Some x -> t_children x = [].
Proof.
  intros H. assert (In x (nodes0 p)) as Hx by (eapply elem_of_list_In, elem_of_list_lookup_2, H). destruct Hx as [<-|[<-|Hx]]; [reflexivity|reflexivity|]. apply repeat_spec in Hx. subst. reflexivity.
Qed.
Lemma nodes0_scoped p : scoped (nodes0 p) [].
Proof. split; [|intros c []]. intros i x c Hi Hc. rewrite (nodes0_leaf _ _ _ Hi) in Hc. destruct Hc. Qed.

Section init.
Context (sem : nat -> list bool -> option bool) (net : tnet) (order : list nat) (Hnet : network net order).
Context (ps : list nat) (Hnd : List.NoDup ps) (Hps : forall n, In n ps -> In n (t_pis net)).
Context (R : (nat -> bool) -> (nat -> bool) -> Prop).
Context (HR : forall e e', R e e' -> forall i n k, ps !! i = Some n -> t_pis net !! k = Some n -> e k = e' i).
Notation m0 := (list_to_map (combine ps (seq 2 (length ps)) ++ [(0, 0); (1, 1)]) : gmap nat nat).
Notation dpis := (seq 2 (length ps)).
Lemma ps_big n : In n ps -> 2 <= n.
Proof using Hnet Hps.
  intros H. apply Hps, (nw_pis _ _ Hnet) in H. destruct n as [|[|n]]; [rewrite (nw_0 _ _ Hnet) in H; discriminate H|rewrite (nw_1 _ _ Hnet) in H; discriminate H|lia].
Qed.
Lemma combine_fst {A B} (l : list A) (k : list B) : length l = length k -> map fst (combine l k) = l.
Proof using. revert k. induction l as [|a l IH]; intros [|b k] H; try discriminate H; [reflexivity|]. cbn. rewrite IH; [reflexivity|]. cbn in H. lia. Qed.
Lemma m0_keys : List.NoDup (map fst (combine ps dpis ++ [(0, 0); (1, 1)])).
Proof using Hnet Hps Hnd.
  rewrite map_app, combine_fst by (rewrite seq_length; reflexivity). cbn [map fst]. apply NoDup_ListNoDup, NoDup_app. split; [apply NoDup_ListNoDup, Hnd|]. split.
  - intros x Hx H. apply elem_of_list_In, ps_big in Hx. apply elem_of_list_In in H. destruct H as [<-|[<-|[]]]; lia.
  - apply NoDup_ListNoDup. constructor; [intros [H|[]]; discriminate H|]. constructor; [intros []|constructor].
Qed.
Lemma combine_lookup i n : ps !! i = Some n -> In (n, 2 + i) (combine ps dpis).
Proof using.
  intros H. assert (G : forall (l : list nat) s i n, l !! i = Some n -> In (n, s + i) (combine l (seq s (length l)))).
  { clear. induction l as [|a l IH]; intros s i n H; [rewrite lookup_nil in H; discriminate H|]. cbn [length seq combine]. destruct i as [|i]; [injection H as <-; left; f_equal; lia|]. right. replace (s + S i) with (S s + i) by lia. apply IH, H. }
  apply G, H.
Qed.
Lemma m0_in n r : In (n, r) (combine ps dpis ++ [(0, 0); (1, 1)]) -> m0 !! n = Some r.
Proof using Hnet Hps Hnd. intros H. apply elem_of_list_to_map_1; [apply NoDup_ListNoDup, m0_keys|apply elem_of_list_In, H]. Qed.
Lemma m0_pi i n : ps !! i = Some n -> m0 !! n = Some (2 + i).
Proof using Hnet Hps Hnd. intros H. apply m0_in, in_or_app. left. apply combine_lookup, H. Qed.
Lemma m0_const n : n < 2 -> m0 !! n = Some n.
Proof using Hnet Hps Hnd. intros H. apply m0_in, in_or_app. right. destruct n as [|[|n]]; [left; reflexivity|right; left; reflexivity|lia]. Qed.
Lemma m0_other n : 2 <= n -> ~ In n ps -> m0 !! n = None.
Proof using.
  intros H H'. apply not_elem_of_list_to_map_1. intros Hn. apply elem_of_list_In in Hn. change (In n (map fst (combine ps dpis ++ [(0, 0); (1, 1)]))) in Hn. rewrite map_app, combine_fst in Hn by (rewrite seq_length; reflexivity).
  apply in_app_or in Hn as [Hn|[<-|[<-|[]]]]; [contradiction|cbn in H; lia|cbn in H; lia].
Qed.
Lemma init_covers gs : scoped (nodes0 (length ps) ++ gs) [] -> covers sem net dpis R (nodes0 (length ps) ++ gs) m0 (fun n => n < 2 \/ In n ps).
Proof using Hnet Hps Hnd HR.
  intros Hs. apply covers_more; [exact Hs|]. intros n Hn. destruct (Nat.lt_ge_cases n 2) as [H2|H2].
  - exists n. split; [apply m0_const, H2|]. split; [rewrite nodes0_length; lia|]. intros e e' b _.
    assert (E : exists v, t_nodes net !! n = Some (TConst v) /\ nodes0 (length ps) !! n = Some (TConst v)).
    { destruct n as [|[|n]]; [exists false; split; [apply (nw_0 _ _ Hnet)|reflexivity]|exists true; split; [apply (nw_1 _ _ Hnet)|reflexivity]|lia]. }
    destruct E as (v & E1 & E2). split; intros V.
    + inversion V as [? ? E|? ? E ?|? ? ? ? ? E]; subst; cbn [t_nodes] in E; rewrite E2 in E; try discriminate E. injection E as <-. apply value_const, E1.
    + inversion V as [? ? E|? ? E ?|? ? ? ? ? E]; subst; rewrite E1 in E; try discriminate E. injection E as <-. apply value_const, E2.
  - destruct Hn as [Hn|Hn]; [lia|]. pose proof Hn as Hn'. apply elem_of_list_In, elem_of_list_lookup in Hn' as (i & Hi). pose proof (lookup_lt_Some _ _ _ Hi) as Hl.
    exists (2 + i). split; [apply m0_pi, Hi|]. split; [rewrite nodes0_length; lia|]. intros e e' b He. pose proof (Hps n Hn) as Hp. pose proof (proj1 (nw_pis _ _ Hnet n) Hp) as En.
    apply elem_of_list_In, elem_of_list_lookup in Hp as (k & Hk). pose proof (HR e e' He i n k Hi Hk) as Hv. split; intros V.
    + inversion V as [? ? E|? j E Ej|? ? ? ? ? E]; subst; cbn [t_nodes t_pis] in *; rewrite nodes0_pi in E by exact Hl; try discriminate E. apply lookup_seq in Ej as [Ej _]. replace j with i by lia. rewrite <- Hv. eapply value_input; eassumption.
    + inversion V as [? ? E|? j E Ej|? ? ? ? ? E]; subst; rewrite En in E; try discriminate E. replace j with k by (pose proof (nw_pis_once _ _ Hnet) as N; apply NoDup_ListNoDup in N; eapply NoDup_lookup; eassumption).
      rewrite Hv. apply value_input; cbn [t_nodes t_pis]; [apply nodes0_pi, Hl|]. apply lookup_seq. lia.
Qed.
Lemma leaf_cases c : leaf net c -> c < 2 \/ In c (t_pis net).
Proof using Hnet. unfold leaf. destruct (t_nodes net !! c) as [[b| |l ch]|] eqn:E; [|intros _; right; apply (nw_pis _ _ Hnet), E|intros []|intros []]. intros _. left. eapply (nw_const _ _ Hnet), E. Qed.
Lemma leaf_const c : c < 2 -> leaf net c.
Proof using Hnet. intros H. unfold leaf. destruct c as [|[|c]]; [rewrite (nw_0 _ _ Hnet)|rewrite (nw_1 _ _ Hnet)|lia]; exact Logic.I. Qed.
Lemma leaf_pi c : In c (t_pis net) -> leaf net c.
Proof using Hnet. intros H. unfold leaf. rewrite (proj1 (nw_pis _ _ Hnet c) H). exact Logic.I. Qed.
Lemma gate_not_pi c lit ch : t_nodes net !! c = Some (TGate lit ch) -> ~ In c (t_pis net) /\ 2 <= c.
Proof using Hnet. intros E. split; [intros H; apply (nw_pis _ _ Hnet) in H; congruence|]. destruct c as [|[|c]]; [rewrite (nw_0 _ _ Hnet) in E; discriminate E|rewrite (nw_1 _ _ Hnet) in E; discriminate E|lia]. Qed.
End init.

(** *** Virtual inputs *)
Lemma virtual_iff vn n : is_virtual_pi vn n = true <-> In n (map fst (v_virtual vn)).
Proof.
  unfold is_virtual_pi. rewrite existsb_exists. split.
  - intros (p & Hp & E). apply Nat.eqb_eq in E. subst. apply in_map, Hp.
  - intros H. apply in_map_iff in H as (p & <- & Hp). exists p. split; [exact Hp|apply Nat.eqb_refl].
Qed.
Lemma real_pis_reals vn : real_pis vn = reals vn.
Proof.
  unfold real_pis, reals. apply filter_ext_in'. intros n _. destruct (in_dec Nat.eq_dec n (map fst (v_virtual vn))) as [H|H].
  - apply virtual_iff in H. rewrite H. reflexivity.
  - destruct (is_virtual_pi vn n) eqn:E; [apply virtual_iff in E; contradiction|reflexivity].
Qed.
Lemma reals_In vn n : In n (reals vn) <-> In n (t_pis (v_net vn)) /\ ~ In n (map fst (v_virtual vn)).
Proof. unfold reals. rewrite filter_In. destruct (in_dec Nat.eq_dec n (map fst (v_virtual vn))); intuition congruence. Qed.
Lemma get_real vn v r : List.NoDup (map fst (v_virtual vn)) -> In (v, r) (v_virtual vn) -> get_real_pi vn v = Some r.
Proof.
  unfold get_real_pi. induction (v_virtual vn) as [|[a b] l IH]; intros Hd H; [destruct H|]. cbn [find fst]. inversion Hd as [|? ? Ha Hd']; subst. destruct H as [[= -> ->]|H].
  - rewrite Nat.eqb_refl. reflexivity.
  - destruct (Nat.eqb_spec a v) as [->|]; [destruct Ha; change v with (fst (v, r)); apply in_map, H|]. apply IH; assumption.
Qed.
Lemma get_real_inv vn v r : get_real_pi vn v = Some r -> In (v, r) (v_virtual vn).
Proof.
  unfold get_real_pi. destruct (find _ _) as [[a b]|] eqn:E; [|discriminate]. intros [= <-]. apply find_some in E as [H E]. apply Nat.eqb_eq in E. cbn in E. subst. exact H.
Qed.

Lemma outputs_map sem net net' (env env' : nat -> bool) (f : nat -> nat) pos vs :
  (forall n b, In n pos -> value sem net' env' (f n) b <-> value sem net env n b) ->
  Forall2 (value sem net' env') (map f pos) vs <-> Forall2 (value sem net env) pos vs.
Proof.
  revert vs. induction pos as [|p pos IH]; intros vs H; [split; intros F; inversion F; constructor|]. cbn [map]. specialize (fun vs => IH vs ltac:(intros n b Hn; apply H; right; exact Hn)).
  split; intros F; inversion F as [|? v ? l Fv Fl]; subst; (constructor; [apply (H p v (or_introl eq_refl)), Fv|apply IH, Fl]).
Qed.

Section deletion.
Context (sem : nat -> list bool -> option bool) (vn : vnet) (order : list nat).
Context (Hnet : network (v_net vn) order) (Hw : vwell vn).
Notation net := (v_net vn).
Definition target (c : nat) : nat := match get_real_pi vn c with Some r => r | None => c end.
Lemma target_real c : ~ In c (map fst (v_virtual vn)) -> target c = c.
Proof using. intros H. unfold target. destruct (get_real_pi vn c) as [r|] eqn:E; [|reflexivity]. apply get_real_inv in E. destruct H. change c with (fst (c, r)). apply in_map, E. Qed.
Lemma remap_target c : real_fanin vn c = Some (target c).
Proof using Hw.
  unfold real_fanin. destruct (is_virtual_pi vn c) eqn:E.
  - apply virtual_iff, in_map_iff in E as ([v r] & E & Hr). cbn in E. subst. unfold target. rewrite (get_real vn c r (vw_once _ Hw) Hr). reflexivity.
  - rewrite target_real; [reflexivity|]. intros H. apply virtual_iff in H. congruence.
Qed.
Lemma stands_target c : In c (t_pis net) -> stands_for vn c (target c) /\ In (target c) (reals vn).
Proof using Hw.
  intros H. unfold stands_for, target. destruct (get_real_pi vn c) as [r|] eqn:E.
  - apply get_real_inv in E. split; [left; exact E|]. apply reals_In. destruct (vw_in _ Hw c r E) as (_ & H1 & H2). auto.
  - assert (N : ~ In c (map fst (v_virtual vn))). { intros N. apply in_map_iff in N as ([v r] & Ev & Hr). cbn in Ev. subst. rewrite (get_real vn c r (vw_once _ Hw) Hr) in E. discriminate E. }
    split; [right; auto|]. apply reals_In. auto.
Qed.
Lemma reals_nodup : List.NoDup (reals vn).
Proof using Hnet. apply List.NoDup_filter, (nw_pis_once _ _ Hnet). Qed.
Lemma deletion_run : exists gs m, delete_virtual_pis_run vn order = Some (mkT (nodes0 (length (reals vn)) ++ gs) (seq 2 (length (reals vn))) (map (g_new m) (t_pos net))) /\
  length gs = length order /\ scoped (nodes0 (length (reals vn)) ++ gs) (map (g_new m) (t_pos net)) /\ (forall x, In x gs -> exists lit ch, x = TGate lit ch /\ ch <> []) /\
  (forall v, In v (map fst (v_virtual vn)) -> g_new m v = 0) /\
  (forall e env, spreads vn e env -> forall n b, In n (t_pos net) -> ~ In n (map fst (v_virtual vn)) ->
     value sem (mkT (nodes0 (length (reals vn)) ++ gs) (seq 2 (length (reals vn))) []) e (g_new m n) b <-> value sem net env n b).
Proof using Hnet Hw.
  set (ps := reals vn). set (R := fun env e : nat -> bool => spreads vn e env).
  assert (HR : forall e e', R e e' -> forall i n k, ps !! i = Some n -> t_pis net !! k = Some n -> e k = e' i).
  { intros e e' He i n k Hi Hk. apply (He k n n i Hk); [|exact Hi]. right. split; [reflexivity|]. apply elem_of_list_lookup_2, elem_of_list_In, reals_In in Hi. apply Hi. }
  assert (Hps : forall n, In n ps -> In n (t_pis net)) by (intros n Hn; apply reals_In in Hn; apply Hn).
  assert (Hvb : forall v, In v (map fst (v_virtual vn)) -> In v (t_pis net)).
  { intros v Hv. apply in_map_iff in Hv as ([a r] & <- & Hr). apply (vw_in _ Hw a r Hr). }
  pose proof (init_covers sem net order Hnet ps reals_nodup Hps R HR [] ltac:(rewrite app_nil_r; apply nodes0_scoped)) as C0. rewrite app_nil_r in C0.
  assert (Hcov : exists gs m', fold_o (copy_gate net (real_fanin vn)) order (nodes0 (length ps), list_to_map (combine ps (seq 2 (length ps)) ++ [(0, 0); (1, 1)])) = Some (nodes0 (length ps) ++ gs, m') /\
    length gs = length order /\ scoped (nodes0 (length ps) ++ gs) [] /\ (forall x, In x gs -> exists lit ch, x = TGate lit ch /\ ch <> []) /\
    (forall n, ~ In n order -> m' !! n = (list_to_map (combine ps (seq 2 (length ps)) ++ [(0, 0); (1, 1)]) : gmap nat nat) !! n) /\
    covers sem net (seq 2 (length ps)) R (nodes0 (length ps) ++ gs) m' (fun n => (n < 2 \/ In n ps) \/ In n order)).
  { apply (copy_ok sem net order Hnet (seq 2 (length ps)) R (real_fanin vn) target) with (done := []).
    - intros c lit ch E. rewrite remap_target. rewrite target_real; [auto|]. intros H. apply Hvb in H. apply (gate_not_pi net order Hnet c lit ch E) in H as [].
    - intros c L. split; [apply remap_target|]. intros e e' b He. destruct (leaf_cases net order Hnet c L) as [Hc|Hc].
      + rewrite target_real; [reflexivity|]. intros H. apply Hvb in H. pose proof (proj1 (nw_pis _ _ Hnet c) H) as E. destruct c as [|[|c]]; [rewrite (nw_0 _ _ Hnet) in E; discriminate E|rewrite (nw_1 _ _ Hnet) in E; discriminate E|lia].
      + destruct (stands_target c Hc) as [St Hr]. pose proof (Hps _ Hr) as Ht. pose proof Ht as Ht'. apply elem_of_list_In, elem_of_list_lookup in Ht' as (j & Hj). pose proof Hc as Hc'. apply elem_of_list_In, elem_of_list_lookup in Hc' as (k & Hk).
        pose proof Hr as Hr'. apply elem_of_list_In, elem_of_list_lookup in Hr' as (i & Hi).
        assert (E1 : e k = e' i) by exact (He k c (target c) i Hk St Hi). assert (E2 : e j = e' i) by exact (HR e e' He i _ j Hi Hj).
        assert (P : forall x q v, In x (t_pis net) -> t_pis net !! q = Some x -> value sem net e x v <-> v = e q).
        { intros x q v Hx Hq. pose proof (proj1 (nw_pis _ _ Hnet x) Hx) as Ex. split.
          - intros V. inversion V as [? ? E|? q' E Eq|? ? ? ? ? E]; subst; rewrite Ex in E; try discriminate E. f_equal. pose proof (nw_pis_once _ _ Hnet) as N. apply NoDup_ListNoDup in N. eapply NoDup_lookup; eassumption.
          - intros ->. eapply value_input; eassumption. }
        rewrite (P _ j b Ht Hj), (P _ k b Hc Hk), E1, E2. reflexivity.
    - intros c L. destruct (leaf_cases net order Hnet c L) as [Hc|Hc]; [|right; apply stands_target, Hc].
      left. rewrite target_real; [exact Hc|]. intros H. apply Hvb in H. pose proof (proj1 (nw_pis _ _ Hnet c) H) as E. destruct c as [|[|c]]; [rewrite (nw_0 _ _ Hnet) in E; discriminate E|rewrite (nw_1 _ _ Hnet) in E; discriminate E|lia].
    - intros c [Hc|Hc]; [eapply leaf_const; eassumption|eapply leaf_pi; [eassumption|apply Hps, Hc]].
    - reflexivity.
    - apply nodes0_scoped.
    - intros n [Hn|[]]. apply C0, Hn. }
  destruct Hcov as (gs & m & E & Lg & S & G & M & C). exists gs, m.
  assert (Hd : forall n, In n (t_pos net) -> ~ In n (map fst (v_virtual vn)) -> (n < 2 \/ In n ps) \/ In n order).
  { intros n Hn Hv. pose proof (nw_pos _ _ Hnet n Hn) as T. destruct (t_nodes net !! n) as [[b| |l ch]|] eqn:En; [| |right; exact T|destruct T].
    - left. left. eapply (nw_const _ _ Hnet), En.
    - left. right. apply reals_In. split; [apply (nw_pis _ _ Hnet), En|exact Hv]. }
  assert (Hz : forall v, In v (map fst (v_virtual vn)) -> g_new m v = 0).
  { intros v Hv. unfold g_new. rewrite M.
    - rewrite m0_other; [reflexivity| |intros H; apply reals_In in H as [_ H]; contradiction]. pose proof (Hvb v Hv) as H. apply (nw_pis _ _ Hnet) in H. destruct v as [|[|v]]; [rewrite (nw_0 _ _ Hnet) in H; discriminate H|rewrite (nw_1 _ _ Hnet) in H; discriminate H|lia].
    - intros H. destruct (nw_gates _ _ Hnet v H) as (l & ch & Ev & _). destruct (gate_not_pi net order Hnet v l ch Ev) as [Hn _]. apply Hn, Hvb, Hv. }
  split.
  { unfold delete_virtual_pis_run, init_copy. rewrite map_pi, real_pis_reals. fold ps. change ([TConst false; TConst true] ++ repeat TPi (length ps)) with (nodes0 (length ps)). rewrite E. reflexivity. }
  split; [exact Lg|]. split.
  { split; [apply S|]. intros c Hc. apply in_map_iff in Hc as (n & <- & Hn). destruct (in_dec Nat.eq_dec n (map fst (v_virtual vn))) as [Hv|Hv]; [rewrite (Hz n Hv), app_length, nodes0_length; lia|].
    destruct (C n (Hd n Hn Hv)) as (r & Er & Hr & _). unfold g_new. rewrite Er. exact Hr. }
  split; [exact G|]. split; [exact Hz|]. intros e env He n b Hn Hv. destruct (C n (Hd n Hn Hv)) as (r & Er & Hr & V). unfold g_new. rewrite Er. apply V, He.
Qed.
End deletion.
