(** Theorems: virtual inputs, their removal, miters, equivalence checking and substituted outputs. *)
From Coq Require Import ZArith Bool List Lia Permutation.
From stdpp Require Import gmap list.
From Verif Require Import FanoutModel FanoutSpec FanoutProofs DepthProofs2 FlowSpec VirtModel VirtSpec VirtProofs VirtProofs2 VirtProofs3.
Import ListNotations.

(** C77: whatever calls build a network, its inputs are partitioned into real and virtual ones; every virtual input is the node that a call
    of create_virtual_pi made, and stands for the real input given to that call; the counts are the numbers of calls. *)
Theorem C77_virtual_inputs l vn : v_calls l = Some vn ->
  num_real_pis vn = calls_of is_CPi l /\ num_virtual_pis vn = calls_of is_CVirtual l /\
  real_size vn = 2 + calls_of makes_node l - calls_of is_CVirtual l /\
  Permutation (t_pis (v_net vn)) (real_pis vn ++ virtual_pis vn) /\ List.NoDup (t_pis (v_net vn)) /\
  (forall n, is_real_pi vn n = true <-> In n (real_pis vn)) /\
  (forall n, is_virtual_pi vn n = true <-> In n (virtual_pis vn)) /\
  (forall v r, get_real_pi vn v = Some r <-> exists k, l !! k = Some (CVirtual r) /\ v = created l k) /\
  (forall v r, get_real_pi vn v = Some r -> is_virtual_pi vn v = true /\ is_real_pi vn r = true) /\
  vwell vn /\ exists order, network (v_net vn) order.
Proof.
  intros E. pose proof (calls_ok l vn E) as I. pose proof (called_network l vn I) as Hnet. pose proof (c_well _ _ I) as W. destruct (c_count _ _ I) as [K1 K2].
  assert (Rp : forall n, is_real_pi vn n = true <-> In n (real_pis vn)).
  { intros n. rewrite real_pis_reals, reals_In, (c_pis _ _ I). unfold is_real_pi. destruct (is_virtual_pi vn n) eqn:Ev.
    - apply virtual_iff in Ev. destruct (t_nodes (v_net vn) !! n) as [[b| |? ?]|]; (split; [discriminate|intros [_ H]; contradiction]).
    - assert (~ In n (map fst (v_virtual vn))) by (intros H; apply virtual_iff in H; congruence). destruct (t_nodes (v_net vn) !! n) as [[b| |? ?]|]; cbn; (split; [auto; discriminate|intros [H' _]; try discriminate H'; reflexivity]). }
  assert (Gr : forall v r, get_real_pi vn v = Some r <-> In (v, r) (v_virtual vn)).
  { intros v r. split; [apply get_real_inv|apply get_real, (vw_once _ W)]. }
  split. { unfold num_real_pis, num_virtual_pis. lia. }
  split; [exact K1|]. split. { unfold real_size, num_virtual_pis. rewrite (c_nodes _ _ I). lia. }
  split.
  { apply NoDup_Permutation.
    - apply NoDup_ListNoDup, (c_once _ _ I).
    - apply NoDup_app. split; [apply NoDup_ListNoDup, List.NoDup_filter, (c_once _ _ I)|]. split; [|apply NoDup_ListNoDup, (vw_once _ W)]. intros x Hx Hv. apply elem_of_list_In in Hx, Hv. rewrite real_pis_reals, reals_In in Hx. destruct Hx. contradiction.
    - intros x. rewrite !elem_of_list_In, in_app_iff, real_pis_reals, reals_In. unfold virtual_pis. split.
      + intros Hx. destruct (in_dec Nat.eq_dec x (map fst (v_virtual vn))); auto.
      + intros [[H _]|H]; [exact H|]. apply in_map_iff in H as ([v r] & <- & H). apply (vw_in _ W v r H). }
  split; [exact (c_once _ _ I)|]. split; [exact Rp|]. split; [apply virtual_iff|]. split; [intros v r; rewrite Gr; apply (c_virtual _ _ I)|]. split.
  { intros v r H. apply Gr in H. split; [apply virtual_iff; change v with (fst (v, r)); apply in_map, H|]. apply Rp. rewrite real_pis_reals, reals_In. destruct (vw_in _ W v r H) as (_ & A & B). auto. }
  split; [exact W|]. exists (gates_of (v_net vn)). exact Hnet.
Qed.
Print Assumptions C77_virtual_inputs.
(** Two inputs, two copies of the first and a copy of the second; two gates. *)
Definition c77_calls := [CPi; CVirtual 2; CPi; CVirtual 4; CGate 4 [3; 4]; CVirtual 2; CGate 12 [7; 5]; CPo 6; CPo 8; CPo 2].
Definition c77_vn := mkV (mkT [TConst false; TConst true; TPi; TPi; TPi; TPi; TGate 4 [3; 4]; TPi; TGate 12 [7; 5]] [2; 3; 4; 5; 7] [6; 8; 2]) [(3, 2); (5, 4); (7, 2)].
Example C77_nonvacuous : v_calls c77_calls = Some c77_vn /\ num_real_pis c77_vn = 2 /\ get_real_pi c77_vn 7 = Some 2 /\ v_calls (c77_calls ++ [CVirtual 3]) = None.
Proof. repeat split. Qed.

(** C78: removing the virtual inputs leaves the real ones, in their order, and the outputs keep their values when every virtual input
    has the value of the input it stands for. Missing: outputs that virtual inputs drive directly. *)
Theorem C78_deletion_partial sem vn order : network (v_net vn) order -> vwell vn -> no_virtual_outputs vn ->
  exists net' order', delete_virtual_pis vn order = Some net' /\ network net' order' /\
    length (t_pis net') = length (reals vn) /\ length (t_pos net') = length (t_pos (v_net vn)) /\
    (v_virtual vn <> [] -> length (t_nodes net') = 2 + length (reals vn) + length order) /\
    forall e env, spreads vn e env -> forall vs, outputs sem net' e vs <-> outputs sem (v_net vn) env vs.
Proof.
  intros Hnet Hw Ho. destruct (v_virtual vn) as [|[v r] l] eqn:Ev.
  - exists (v_net vn), order. unfold delete_virtual_pis, num_virtual_pis. rewrite Ev. split; [reflexivity|]. split; [exact Hnet|].
    assert (Er : reals vn = t_pis (v_net vn)). { unfold reals. rewrite Ev. cbn [map]. induction (t_pis (v_net vn)) as [|a k IH]; [reflexivity|]. cbn [List.filter]. destruct (in_dec Nat.eq_dec a []) as [[]|]. f_equal. exact IH. }
    rewrite Er. split; [reflexivity|]. split; [reflexivity|]. split; [intros []; reflexivity|]. intros e env He vs.
    assert (Hk : forall k n, t_pis (v_net vn) !! k = Some n -> env k = e k). { intros k n Hk. apply (He k n n k Hk); [right; rewrite Ev; split; [reflexivity|intros []]|rewrite Er; exact Hk]. }
    unfold outputs. split; intros F; (eapply Forall2_impl; [exact F|]; intros n b V; eapply value_env; [|exact V]; intros k m Hm; specialize (Hk k m Hm); congruence).
  - assert (Hne : Nat.eqb (num_virtual_pis vn) 0 = false) by (unfold num_virtual_pis; rewrite Ev; reflexivity). unfold delete_virtual_pis. rewrite Hne. rewrite <- Ev in *. clear v r l Ev Hne.
    destruct (deletion_run sem vn order Hnet Hw) as (gs & m & E & L & S & G & Z & V). rewrite E. eexists _, _. split; [reflexivity|]. unfold nodes0 in *. rewrite <- !(assoc_L app) in *. split; [apply network_of_list; [exact G|exact S]|]. cbn [t_pis t_pos t_nodes].
    split; [apply seq_length|]. split; [apply map_length|]. split; [intros _; rewrite !app_length, repeat_length, L; cbn; lia|].
    intros e env He vs. unfold outputs. cbn [t_pos]. apply outputs_map. intros n b Hn. rewrite (value_pos sem e). apply V; [exact He|exact Hn|apply Ho, Hn].
Qed.
Print Assumptions C78_deletion_partial.
(** An output that a virtual input drives becomes the constant 0. *)
Theorem C78_virtual_output_zero vn order net' k v : network (v_net vn) order -> vwell vn -> delete_virtual_pis vn order = Some net' ->
  t_pos (v_net vn) !! k = Some v -> In v (virtual_pis vn) -> t_pos net' !! k = Some 0 /\ t_nodes net' !! 0 = Some (TConst false).
Proof.
  intros Hnet Hw E Hk Hv. unfold delete_virtual_pis in E. destruct (Nat.eqb (num_virtual_pis vn) 0) eqn:Ez.
  - apply Nat.eqb_eq in Ez. unfold num_virtual_pis in Ez. unfold virtual_pis in Hv. destruct (v_virtual vn); [destruct Hv|discriminate Ez].
  - destruct (deletion_run meaning vn order Hnet Hw) as (gs & m & E' & _ & _ & _ & Z & _). rewrite E' in E. injection E as <-. cbn [t_pos t_nodes]. split; [|reflexivity]. change (map (g_new m) (t_pos (v_net vn))) with (g_new m <$> t_pos (v_net vn)). rewrite list_lookup_fmap, Hk. cbn. rewrite (Z v Hv). reflexivity.
Qed.
Print Assumptions C78_virtual_output_zero.
Definition c78_vn := mkV (mkT [TConst false; TConst true; TPi; TPi] [2; 3] [3]) [(3, 2)].
(** So outputs do not keep their values in general. *)
Theorem C78_virtual_output_refuted : exists vn order net' e env, network (v_net vn) order /\ vwell vn /\ delete_virtual_pis vn order = Some net' /\ spreads vn e env /\
  outputs meaning (v_net vn) env [true] /\ outputs meaning net' e [false].
Proof.
  exists c78_vn, [], (mkT [TConst false; TConst true; TPi] [2] [0]), (fun _ => true), (fun _ => true). split.
  { pose proof (called_network [CPi; CVirtual 2; CPo 3] c78_vn (calls_ok [CPi; CVirtual 2; CPo 3] c78_vn eq_refl)) as H. exact H. }
  split. { exact (c_well _ _ (calls_ok [CPi; CVirtual 2; CPo 3] c78_vn eq_refl)). }
  split; [reflexivity|]. split; [intros k n r i _ _ _; reflexivity|]. split.
  - constructor; [|constructor]. apply (value_input meaning (v_net c78_vn) (fun _ => true) 3 1); reflexivity.
  - constructor; [|constructor]. apply value_const. reflexivity.
Qed.
Print Assumptions C78_virtual_output_refuted.
Example C78_nonvacuous : network (v_net c77_vn) [6; 8] /\ vwell c77_vn /\ no_virtual_outputs c77_vn /\
  delete_virtual_pis c77_vn [6; 8] = Some (mkT [TConst false; TConst true; TPi; TPi; TGate 4 [2; 3]; TGate 12 [2; 3]] [2; 3] [4; 5; 2]) /\
  spreads c77_vn (fun k => Nat.eqb k 1) (fun k => Nat.eqb k 2 || Nat.eqb k 3).
Proof.
  split. { exact (called_network c77_calls c77_vn (calls_ok c77_calls c77_vn eq_refl)). }
  split. { exact (c_well _ _ (calls_ok c77_calls c77_vn eq_refl)). }
  split. { intros c Hc Hv. cbn in Hc, Hv. lia. } split; [reflexivity|].
  intros k n r i Hk Hst Hi. change (reals c77_vn) with [2; 4] in Hi. cbn in Hst. destruct k as [|[|[|[|[|k]]]]]; cbn in Hk; try discriminate Hk; injection Hk as <-; destruct i as [|[|i]]; cbn in Hi; try discriminate Hi; injection Hi as <-; cbn; try reflexivity; exfalso;
    (destruct Hst as [[H|[H|[H|[]]]]|[H H']]; try discriminate H; try (injection H; intros; lia); apply H'; auto).
Qed.

(** C79: there is no miter exactly if the numbers of inputs (without virtual ones) or of outputs differ. *)
Theorem C79_no_miter a oa oa' b ob ob' na nb : delete_virtual_pis a oa = Some na -> delete_virtual_pis b ob = Some nb -> network na oa' -> network nb ob' ->
  (virtual_miter a oa oa' b ob ob' = Some None <-> length (reals a) <> length (reals b) \/ length (t_pos (v_net a)) <> length (t_pos (v_net b))).
Proof.
  intros Ea Eb Ha Hb.
  assert (Sz : forall vn order net', delete_virtual_pis vn order = Some net' -> length (t_pis net') = length (reals vn) /\ length (t_pos net') = length (t_pos (v_net vn))).
  { intros vn order net' E. unfold delete_virtual_pis in E. destruct (Nat.eqb (num_virtual_pis vn) 0) eqn:Ez.
    - injection E as <-. split; [|reflexivity]. apply Nat.eqb_eq in Ez. unfold num_virtual_pis in Ez. unfold reals. destruct (v_virtual vn); [|discriminate Ez]. cbn [map]. induction (t_pis (v_net vn)) as [|x k IH]; [reflexivity|]. cbn [List.filter]. destruct (in_dec Nat.eq_dec x []) as [[]|]. cbn. f_equal. exact IH.
    - unfold delete_virtual_pis_run in E. destruct (fold_o _ _ _) as [[nodes m]|]; [|discriminate E]. injection E as <-. cbn [t_pis t_pos]. rewrite seq_length, map_length, real_pis_reals. auto. }
  destruct (Sz a oa na Ea) as [A1 A2]. destruct (Sz b ob nb Eb) as [B1 B2]. rewrite <- A1, <- A2, <- B1, <- B2. unfold virtual_miter. rewrite Ea, Eb.
  destruct (Nat.eq_dec (length (t_pis na)) (length (t_pis nb))) as [H1|H1]; [destruct (Nat.eq_dec (length (t_pos na)) (length (t_pos nb))) as [H2|H2]|].
  - destruct (miter_ok (fun l vs => match l, vs with 12, [x; y] => Some (xorb x y) | 6, [x; y] => Some (orb x y) | _, _ => None end) ltac:(split; reflexivity) na oa' nb ob' Ha Hb H1 H2) as (gs & o & E & _). rewrite E. split; [discriminate|lia].
  - unfold miter. rewrite (proj2 (Nat.eqb_neq _ _) H2), orb_true_r. split; [auto|reflexivity].
  - unfold miter. rewrite (proj2 (Nat.eqb_neq _ _) H1). split; [auto|reflexivity].
Qed.
Print Assumptions C79_no_miter.
Lemma differ_iff va vb v : v = differ va vb <-> (v = true <-> va <> vb).
Proof. unfold differ. destruct (List.list_eq_dec Bool.bool_dec va vb); destruct v; intuition congruence. Qed.
Lemma miter_outputs sem a oa b ob : xor_or sem -> network a oa -> network b ob -> length (t_pis a) = length (t_pis b) -> length (t_pos a) = length (t_pos b) ->
  exists m order, miter a oa b ob = Some (Some m) /\ network m order /\ length (t_pis m) = length (t_pis a) /\ length (t_pos m) = 1 /\
    forall env va vb, outputs sem a env va -> outputs sem b env vb -> forall v, outputs sem m env [v] <-> (v = true <-> va <> vb).
Proof.
  intros Hsem Ha Hb H1 H2. destruct (miter_ok sem Hsem a oa b ob Ha Hb H1 H2) as (gs & o & E & S & G & _ & V). eexists _, (seq (2 + length (t_pis a)) (length gs)). split; [exact E|].
  split. { unfold nodes0 in *. rewrite <- !(assoc_L app) in *. apply network_of_list; assumption. }
  cbn [t_pis t_pos]. split; [apply seq_length|]. split; [reflexivity|]. intros env va vb Fa Fb v. specialize (V env va vb Fa Fb). unfold outputs. cbn [t_pos]. rewrite <- differ_iff. split.
  - intros F. inversion F as [|? ? ? ? Fv _]; subst. apply value_pos in Fv. eapply (value_unique sem (mkT (nodes0 (length (t_pis a)) ++ gs) (seq 2 (length (t_pis a))) []) env); [|apply List.seq_NoDup|exact Fv|exact V]. cbn. eapply scoped_nil, S.
  - intros ->. constructor; [|constructor]. apply value_pos, V.
Qed.
(** Otherwise the miter has the real inputs and one output, which is 1 exactly when some output of the two networks differs. *)
Theorem C79_miter_exact sem a oa oa' b ob ob' : xor_or sem ->
  network (v_net a) oa -> vwell a -> no_virtual_outputs a -> network (v_net b) ob -> vwell b -> no_virtual_outputs b ->
  (forall na, delete_virtual_pis a oa = Some na -> network na oa') -> (forall nb, delete_virtual_pis b ob = Some nb -> network nb ob') ->
  length (reals a) = length (reals b) -> length (t_pos (v_net a)) = length (t_pos (v_net b)) ->
  exists m order, virtual_miter a oa oa' b ob ob' = Some (Some m) /\ network m order /\ length (t_pis m) = length (reals a) /\ length (t_pos m) = 1 /\
    forall e ea eb va vb, spreads a e ea -> spreads b e eb -> outputs sem (v_net a) ea va -> outputs sem (v_net b) eb vb ->
      forall v, outputs sem m e [v] <-> (v = true <-> va <> vb).
Proof.
  intros Hsem Na Wa Oa Nb Wb Ob Ta Tb H1 H2.
  destruct (C78_deletion_partial sem a oa Na Wa Oa) as (na & _ & Ea & _ & A1 & A2 & _ & A3).
  destruct (C78_deletion_partial sem b ob Nb Wb Ob) as (nb & _ & Eb & _ & B1 & B2 & _ & B3).
  destruct (miter_outputs sem na oa' nb ob' Hsem (Ta _ Ea) (Tb _ Eb) ltac:(congruence) ltac:(congruence)) as (m & order & E & N & L1 & L2 & V).
  exists m, order. unfold virtual_miter. rewrite Ea, Eb. split; [exact E|]. split; [exact N|]. split; [congruence|]. split; [exact L2|].
  intros e ea eb va vb Sa Sb Fa Fb. apply V; [apply (A3 e ea Sa), Fa|apply (B3 e eb Sb), Fb].
Qed.
Print Assumptions C79_miter_exact.
Lemma meaning_xor_or : xor_or meaning.
Proof. split; intros [|] [|]; reflexivity. Qed.
(** The network from above against one without virtual inputs. *)
Definition c79_b := mkV (mkT [TConst false; TConst true; TPi; TPi; TGate 6 [2; 3]; TGate 12 [2; 3]] [2; 3] [4; 5; 2]) [].
Lemma c79_b_calls : v_calls [CPi; CPi; CGate 6 [2; 3]; CGate 12 [2; 3]; CPo 4; CPo 5; CPo 2] = Some c79_b.
Proof. reflexivity. Qed.
Definition c79_m := mkT [TConst false; TConst true; TPi; TPi; TGate 4 [2; 3]; TGate 12 [2; 3]; TGate 6 [2; 3]; TGate 12 [2; 3]; TGate 12 [4; 6]; TGate 12 [5; 7]; TGate 12 [2; 2]; TGate 6 [9; 10]; TGate 6 [8; 11]] [2; 3] [12].
Example C79_nonvacuous : xor_or meaning /\ network (v_net c77_vn) [6; 8] /\ vwell c77_vn /\ no_virtual_outputs c77_vn /\ network (v_net c79_b) [4; 5] /\ vwell c79_b /\ no_virtual_outputs c79_b /\
  (forall na, delete_virtual_pis c77_vn [6; 8] = Some na -> network na [4; 5]) /\ (forall nb, delete_virtual_pis c79_b [4; 5] = Some nb -> network nb [4; 5]) /\
  virtual_miter c77_vn [6; 8] [4; 5] c79_b [4; 5] [4; 5] = Some (Some c79_m) /\ virtual_miter c77_vn [6; 8] [4; 5] c78_vn [] [] = Some None.
Proof.
  pose proof (calls_ok _ _ c79_b_calls) as Ib. destruct C78_nonvacuous as (N & W & O & E & _).
  split; [exact meaning_xor_or|]. split; [exact N|]. split; [exact W|]. split; [exact O|]. split; [exact (called_network _ _ Ib)|]. split; [exact (c_well _ _ Ib)|]. split; [intros c _ []|].
  split. { intros na Ea. rewrite E in Ea. injection Ea as <-. refine (called_network [CPi; CPi; CGate 4 [2; 3]; CGate 12 [2; 3]; CPo 4; CPo 5; CPo 2] (mkV (mkT [TConst false; TConst true; TPi; TPi; TGate 4 [2; 3]; TGate 12 [2; 3]] [2; 3] [4; 5; 2]) []) (calls_ok _ _ _)). reflexivity. }
  split. { intros nb Eb. injection Eb as <-. exact (called_network _ _ Ib). }
  split; reflexivity.
Qed.

(** C80: with a solver that answers and whose answers are right, the verdict says whether both designs are free of violations and
    equivalent; of those it calls strongly equivalent exactly the ones with equal throughputs; counter examples are genuine. *)
Theorem C80_verdict sem solve spec impl : xor_or sem ->
  network (d_net spec) (d_order spec) -> network (d_net impl) (d_order impl) -> evaluates sem (d_net spec) -> evaluates sem (d_net impl) ->
  (forall m, answers_right sem solve m) ->
  exists ty st, equivalence_checking solve spec impl = Some (ty, st) /\ eq_eq st = ty /\
    (ty <> NO -> violation_free spec /\ violation_free impl /\ equivalent sem (d_net spec) (d_net impl)) /\
    ((forall m, solve m <> Unknown) -> violation_free spec -> violation_free impl -> equivalent sem (d_net spec) (d_net impl) -> ty <> NO) /\
    (ty = STRONG -> throughput_of spec = throughput_of impl) /\ (ty = WEAK -> throughput_of spec <> throughput_of impl) /\
    (ty <> NO -> eq_tp_spec st = throughput_of spec /\ eq_tp_impl st = throughput_of impl /\ eq_tp_diff st = Z.abs (throughput_of spec - throughput_of impl)) /\
    (eq_cex st <> [] -> exists vs vi, outputs sem (d_net spec) (fun k => nth k (eq_cex st) false) vs /\ outputs sem (d_net impl) (fun k => nth k (eq_cex st) false) vi /\ vs <> vi).
Proof.
  intros Hsem Ns Ni Es Ei Hsolve.
  assert (Uq : forall net order, network net order -> forall env n b b', value sem net env n b -> value sem net env n b' -> b = b').
  { intros net order N env n b b' V. revert b'. revert n b V. fix IH 3. intros n b V b' V'. destruct V as [n b E|n k E Ek|n lit ch vs b E F S].
    - inversion V' as [? ? E'|? ? E' ?|? ? ? ? ? E']; subst; congruence.
    - inversion V' as [? ? E'|? k' E' Ek'|? ? ? ? ? E']; subst; try congruence. f_equal. pose proof (nw_pis_once _ _ N) as Nd. apply NoDup_ListNoDup in Nd. eapply NoDup_lookup; eassumption.
    - inversion V' as [? ? E'|? ? E' ?|? lit' ch' vs' ? E' F' S']; subst; try congruence. rewrite E in E'. injection E' as <- <-.
      enough (vs = vs') by congruence. clear E S S' V'. revert vs' F'. induction F as [|c v l l' Fc Fl IHl]; intros vs' F'; inversion F' as [|? v' ? l'' Fc' Fl']; subst; [reflexivity|]. f_equal; [exact (IH c v Fc v' Fc')|apply IHl, Fl']. }
  assert (Uo : forall net order, network net order -> forall env vs vs', outputs sem net env vs -> outputs sem net env vs' -> vs = vs').
  { intros net order N env. unfold outputs. induction (t_pos net) as [|p l IH]; intros vs vs' F F'; inversion F as [|? v ? k Fv Fl]; inversion F' as [|? v' ? k' Fv' Fl']; subst; [reflexivity|]. f_equal; [eapply Uq; eassumption|apply IH; assumption]. }
  assert (Ev : length (t_pis (d_net spec)) = length (t_pis (d_net impl)) -> length (t_pos (d_net spec)) = length (t_pos (d_net impl)) ->
    (equivalent sem (d_net spec) (d_net impl) <-> forall env vs vi, outputs sem (d_net spec) env vs -> outputs sem (d_net impl) env vi -> vs = vi)).
  { intros L1 L2. split.
    - intros (_ & _ & H) env vs vi Fs Fi. apply list_eq. intros k. pose proof (Forall2_length _ _ _ Fs) as K1. pose proof (Forall2_length _ _ _ Fi) as K2.
      destruct (Nat.lt_ge_cases k (length vs)) as [Hk|Hk]; [|rewrite (proj2 (lookup_ge_None vs k)), (proj2 (lookup_ge_None vi k)) by lia; reflexivity].
      destruct (lookup_lt_is_Some_2 vs k Hk) as (x & Hx). destruct (lookup_lt_is_Some_2 vi k ltac:(lia)) as (y & Hy). destruct (lookup_lt_is_Some_2 (t_pos (d_net spec)) k ltac:(lia)) as (n & Hn). destruct (lookup_lt_is_Some_2 (t_pos (d_net impl)) k ltac:(lia)) as (m & Hm).
      rewrite Hx, Hy. f_equal. pose proof (Forall2_lookup_lr _ _ _ _ _ _ Fs Hn Hx) as Vx. pose proof (Forall2_lookup_lr _ _ _ _ _ _ Fi Hm Hy) as Vy. apply (H env k n m x Hn Hm) in Vx. eapply Uq; [exact Ni|exact Vx|exact Vy].
    - intros H. split; [exact L1|]. split; [exact L2|]. intros env k n m v Hn Hm. destruct (Es env) as (vs & Fs). destruct (Ei env) as (vi & Fi). pose proof (H env vs vi Fs Fi) as <-.
      pose proof (Forall2_length _ _ _ Fs) as K1. pose proof (lookup_lt_Some _ _ _ Hn) as Hk. destruct (lookup_lt_is_Some_2 vs k ltac:(lia)) as (x & Hx). pose proof (Forall2_lookup_lr _ _ _ _ _ _ Fs Hn Hx) as Vx. pose proof (Forall2_lookup_lr _ _ _ _ _ _ Fi Hm Hx) as Vy.
      split; intros V; [replace v with x by (eapply Uq; [exact Ns|exact Vx|exact V])|replace v with x by (eapply Uq; [exact Ni|exact Vy|exact V])]; assumption. }
  assert (D : forall d, has_drvs d = true <-> ~ violation_free d).
  { intros d. unfold has_drvs, violation_free. destruct (d_layout d) as [[k t]|]; [|split; [discriminate|intros H; destruct H; exact Logic.I]]. destruct (Nat.eqb_spec k 0); cbn; split; congruence. }
  assert (Rej : forall st, eq_eq st = NO -> eq_cex st = [] -> (solve = solve) ->
     (~ ((forall m, solve m <> Unknown) /\ violation_free spec /\ violation_free impl /\ equivalent sem (d_net spec) (d_net impl))) ->
     equivalence_checking solve spec impl = Some (NO, st) -> exists ty st, equivalence_checking solve spec impl = Some (ty, st) /\ eq_eq st = ty /\
    (ty <> NO -> violation_free spec /\ violation_free impl /\ equivalent sem (d_net spec) (d_net impl)) /\
    ((forall m, solve m <> Unknown) -> violation_free spec -> violation_free impl -> equivalent sem (d_net spec) (d_net impl) -> ty <> NO) /\
    (ty = STRONG -> throughput_of spec = throughput_of impl) /\ (ty = WEAK -> throughput_of spec <> throughput_of impl) /\
    (ty <> NO -> eq_tp_spec st = throughput_of spec /\ eq_tp_impl st = throughput_of impl /\ eq_tp_diff st = Z.abs (throughput_of spec - throughput_of impl)) /\
    (eq_cex st <> [] -> exists vs vi, outputs sem (d_net spec) (fun k => nth k (eq_cex st) false) vs /\ outputs sem (d_net impl) (fun k => nth k (eq_cex st) false) vi /\ vs <> vi)).
  { intros st E1 E2 _ Hn E. exists NO, st. split; [exact E|]. split; [exact E1|]. split; [congruence|]. split; [intros; destruct Hn; auto|]. split; [discriminate|]. split; [discriminate|]. split; [congruence|]. intros H. congruence. }
  unfold equivalence_checking in *. destruct (has_drvs spec) eqn:Ds.
  { apply (Rej eq_stats0); try reflexivity. intros (_ & H & _). apply D in Ds. contradiction. }
  destruct (has_drvs impl) eqn:Di.
  { apply (Rej eq_stats0); try reflexivity. intros (_ & _ & H & _). apply D in Di. contradiction. }
  assert (Vs : violation_free spec). { destruct (d_layout spec) as [[k t]|] eqn:El; unfold has_drvs in Ds; unfold violation_free; rewrite El in *; [|exact Logic.I]. destruct (Nat.eqb_spec k 0); [assumption|discriminate Ds]. }
  assert (Vi : violation_free impl). { destruct (d_layout impl) as [[k t]|] eqn:El; unfold has_drvs in Di; unfold violation_free; rewrite El in *; [|exact Logic.I]. destruct (Nat.eqb_spec k 0); [assumption|discriminate Di]. }
  destruct (Nat.eq_dec (length (t_pis (d_net spec))) (length (t_pis (d_net impl)))) as [L1|L1]; [destruct (Nat.eq_dec (length (t_pos (d_net spec))) (length (t_pos (d_net impl)))) as [L2|L2]|].
  - destruct (miter_outputs sem _ _ _ _ Hsem Ns Ni L1 L2) as (m & order & E & _ & _ & _ & V). specialize (Hsolve m). unfold answers_right in Hsolve. rewrite E in *. destruct (solve m) as [| |cex] eqn:Sm.
    + apply (Rej eq_stats0); try reflexivity. intros (H & _). exact (H m Sm).
    + assert (Eq : equivalent sem (d_net spec) (d_net impl)).
      { apply (Ev L1 L2). intros env vs vi Fs Fi. destruct (List.list_eq_dec Bool.bool_dec vs vi) as [|Hne]; [assumption|]. destruct (Hsolve env). apply (V env vs vi Fs Fi). split; auto. }
      eexists _, _. split; [reflexivity|]. cbn [eq_eq eq_cex eq_tp_spec eq_tp_impl eq_tp_diff]. split; [reflexivity|]. split; [auto|]. change (d_throughput spec) with (throughput_of spec). change (d_throughput impl) with (throughput_of impl).
      destruct (Z.eqb_spec (Z.abs (throughput_of spec - throughput_of impl)) 0) as [Hz|Hz]; (split; [discriminate|]); (split; [intros; try discriminate; lia|]); (split; [intros; try discriminate; lia|]); (split; [auto|]); congruence.
    + destruct (Es (fun k => nth k cex false)) as (vs & Fs). destruct (Ei (fun k => nth k cex false)) as (vi & Fi). assert (Hne : vs <> vi) by (apply (V _ vs vi Fs Fi true); [exact Hsolve|reflexivity]).
      eexists _, _. split; [reflexivity|]. cbn [eq_eq eq_cex eq_tp_spec eq_tp_impl eq_tp_diff]. split; [reflexivity|]. split; [congruence|]. split.
      { intros _ _ _ Eq _. apply (Ev L1 L2) with (env := fun k => nth k cex false) (vs := vs) (vi := vi) in Eq; auto. }
      split; [discriminate|]. split; [discriminate|]. split; [congruence|]. intros _. exists vs, vi. auto.
  - assert (E : miter (d_net spec) (d_order spec) (d_net impl) (d_order impl) = Some None) by (unfold miter; rewrite (proj2 (Nat.eqb_neq _ _) L2), orb_true_r; reflexivity). rewrite E in *.
    apply (Rej eq_stats0); try reflexivity. intros (_ & _ & _ & _ & H & _). contradiction.
  - assert (E : miter (d_net spec) (d_order spec) (d_net impl) (d_order impl) = Some None) by (unfold miter; rewrite (proj2 (Nat.eqb_neq _ _) L1); reflexivity). rewrite E in *.
    apply (Rej eq_stats0); try reflexivity. intros (_ & _ & _ & H & _). contradiction.
Qed.
Print Assumptions C80_verdict.
(** A logic network as the specification: strong equivalence is equivalence with throughput 1/1, as documented. *)
Corollary C80_network_specification sem solve spec impl ty st : xor_or sem ->
  network (d_net spec) (d_order spec) -> network (d_net impl) (d_order impl) -> evaluates sem (d_net spec) -> evaluates sem (d_net impl) ->
  (forall m, answers_right sem solve m) -> (forall m, solve m <> Unknown) -> d_layout spec = None ->
  equivalence_checking solve spec impl = Some (ty, st) ->
  (ty = STRONG <-> equivalent sem (d_net spec) (d_net impl) /\ violation_free impl /\ throughput_of impl = 1%Z) /\
  (ty = WEAK <-> equivalent sem (d_net spec) (d_net impl) /\ violation_free impl /\ throughput_of impl <> 1%Z).
Proof.
  intros Hsem Ns Ni Es Ei Hs Hu El E. destruct (C80_verdict sem solve spec impl Hsem Ns Ni Es Ei Hs) as (ty' & st' & E' & _ & A & B & C & D & _). rewrite E in E'. injection E' as <- <-.
  assert (Ts : throughput_of spec = 1%Z) by (unfold throughput_of; rewrite El; reflexivity). assert (Vs : violation_free spec) by (unfold violation_free; rewrite El; exact Logic.I). rewrite Ts in *.
  split; split.
  - intros ->. destruct (A ltac:(discriminate)) as (_ & H1 & H2). specialize (C eq_refl). auto.
  - intros (H1 & H2 & H3). specialize (B Hu Vs H2 H1). destruct ty; [congruence| |reflexivity]. specialize (D eq_refl). congruence.
  - intros ->. destruct (A ltac:(discriminate)) as (_ & H1 & H2). specialize (D eq_refl). auto.
  - intros (H1 & H2 & H3). specialize (B Hu Vs H2 H1). destruct ty; [congruence|reflexivity|]. specialize (C eq_refl). congruence.
Qed.
Print Assumptions C80_network_specification.

(** A solver that tries all assignments of two inputs on a network; used for examples. *)
Definition c80_net := mkT [TConst false; TConst true; TPi; TGate 3 [2]] [2] [3].
Definition c80_des (l : option (nat * Z)) := mkDes c80_net [3] l.
Lemma c80_network : network c80_net [3].
Proof. refine (called_network [CPi; CGate 3 [2]; CPo 3] (mkV c80_net []) (calls_ok _ _ _)). reflexivity. Qed.
Lemma c80_evaluates : evaluates meaning c80_net.
Proof.
  intros env. exists [negb (env 0)]. constructor; [|constructor]. apply (value_gate meaning c80_net env 3 3 [2] [env 0]); [reflexivity| |reflexivity]. constructor; [|constructor]. apply (value_input meaning c80_net env 2 0); reflexivity.
Qed.
(** The documentation promises strong equivalence only if all layouts have throughput 1/1; two layouts with throughput 1/2 get it, too. *)
Theorem C80_strong_refuted : exists solve spec impl st,
  network (d_net spec) (d_order spec) /\ network (d_net impl) (d_order impl) /\ evaluates meaning (d_net spec) /\ evaluates meaning (d_net impl) /\
  (forall m, answers_right meaning solve m) /\ equivalence_checking solve spec impl = Some (STRONG, st) /\ d_layout impl = Some (0, 2%Z) /\ throughput_of impl <> 1%Z.
Proof.
  set (m := mkT [TConst false; TConst true; TPi; TGate 3 [2]; TGate 3 [2]; TGate 12 [3; 4]] [2] [5]).
  assert (DN : forall x y : tnode, {x = y} + {x <> y}) by (decide equality; try apply Bool.bool_dec; try apply Nat.eq_dec; apply List.list_eq_dec, Nat.eq_dec).
  assert (DT : forall x y : tnet, {x = y} + {x <> y}) by (decide equality; try (apply List.list_eq_dec, Nat.eq_dec); apply List.list_eq_dec, DN).
  exists (fun x => if DT x m then Equivalent else Unknown), (c80_des (Some (0, 2%Z))), (c80_des (Some (0, 2%Z))), (mkEq STRONG 2 2 0 []).
  split; [exact c80_network|]. split; [exact c80_network|]. split; [exact c80_evaluates|]. split; [exact c80_evaluates|]. split.
  { intros x. unfold answers_right. destruct (DT x m) as [->|]; [|exact Logic.I]. intros env F.
    destruct (miter_outputs meaning c80_net [3] c80_net [3] meaning_xor_or c80_network c80_network eq_refl eq_refl) as (m' & order & E & _ & _ & _ & V). assert (E' : m' = m) by (vm_compute in E; injection E as <-; reflexivity). subst m'.
    destruct (c80_evaluates env) as (vs & Fs). destruct (V env vs vs Fs Fs true) as [H _]. destruct (proj1 (H F) eq_refl). reflexivity. }
  split. { unfold equivalence_checking, c80_des. cbn [has_drvs d_layout d_net d_order Nat.eqb negb]. replace (miter c80_net [3] c80_net [3]) with (Some (Some m)) by reflexivity. destruct (DT m m) as [|N]; [reflexivity|destruct N; reflexivity]. }
  split; [reflexivity|]. cbn. lia.
Qed.
Print Assumptions C80_strong_refuted.
Example C80_nonvacuous : xor_or meaning /\ network c80_net [3] /\ evaluates meaning c80_net /\
  equivalence_checking (fun _ => Equivalent) (c80_des None) (c80_des (Some (0, 1%Z))) = Some (STRONG, mkEq STRONG 1 1 0 []) /\
  equivalence_checking (fun _ => Equivalent) (c80_des None) (c80_des (Some (0, 3%Z))) = Some (WEAK, mkEq WEAK 1 3 2 []) /\
  equivalence_checking (fun _ => Equivalent) (c80_des None) (c80_des (Some (4, 1%Z))) = Some (NO, eq_stats0) /\
  equivalence_checking (fun _ => Differs [true]) (c80_des None) (c80_des None) = Some (NO, mkEq NO 1 1 0 [true]).
Proof. split; [exact meaning_xor_or|]. split; [exact c80_network|]. split; [exact c80_evaluates|]. repeat split. Qed.

(** C81: after substituting the outputs, every output is driven by a buffer that has no other use, the network computes the same,
    all old nodes are as before, and outputs that had such a buffer keep it. *)
Theorem C81_substituted_outputs sem net : buffers sem -> scoped (t_nodes net) (t_pos net) -> let net' := substitute_po_signals net in
  equivalent sem net net' /\ t_pis net' = t_pis net /\ (exists gs, t_nodes net' = t_nodes net ++ gs) /\
  (forall k q, t_pos net' !! k = Some q -> exists a, t_nodes net' !! q = Some (TGate 2 a) /\ used net' q = 1) /\
  (forall k p a, t_pos net !! k = Some p -> t_nodes net !! p = Some (TGate 2 a) -> used net p = 1 -> t_pos net' !! k = Some p).
Proof.
  intros Hb Hs net'. pose proof (sub_all net Hs) as I. fold net' in I. destruct (s_gs _ _ _ I) as (gs & Eg & Hg).
  assert (Uf : forall n x, used n x = fanout_size n x).
  { intros n x. unfold used, fanout_size, fsize. f_equal. apply list_sum_ext. intros [b| |l ch] _; reflexivity. }
  assert (Nd : forall p, needs net p = false -> exists a, t_nodes net !! p = Some (TGate 2 a) /\ fanout_size net p <= 1).
  { intros p H. unfold needs, is_fanout, is_buf in H. destruct (t_nodes net !! p) as [[b| |[|[|[|l]]] ch]|]; try discriminate H. exists ch. split; [reflexivity|]. change (Nat.ltb 1 (fanout_size net p) = false) in H. apply Nat.ltb_ge in H. exact H. }
  assert (Out : forall k p, t_pos net !! k = Some p -> exists q, t_pos net' !! k = Some q /\ if needs net p then length (t_nodes net) <= q /\ t_nodes net' !! q = Some (TGate 2 [p]) else q = p).
  { intros k p Hp. apply (s_done _ _ _ I k p); [eapply lookup_lt_Some, Hp|exact Hp]. }
  assert (Vold : forall env n b, n < length (t_nodes net) -> value sem net' env n b <-> value sem net env n b).
  { intros env n b Hn. assert (S' : scoped (t_nodes net ++ gs) []) by (rewrite <- Eg; eapply scoped_nil, (s_scoped _ _ _ I)).
    pose proof (value_more sem env (t_pis net) (t_nodes net) gs S' n b Hn) as M. assert (E1 : net' = mkT (t_nodes net ++ gs) (t_pis net) (t_pos net')) by (rewrite <- Eg, <- (s_pis _ _ _ I); destruct net'; reflexivity). rewrite E1. cbn [t_pos]. rewrite (value_pos sem env), M. destruct net as [ns pi po]. cbn. symmetry. apply value_pos. }
  assert (Hpl : forall k p, t_pos net !! k = Some p -> p < length (t_nodes net)) by (intros k p Hp; apply Hs; eapply elem_of_list_In, elem_of_list_lookup_2, Hp).
  split.
  { split; [rewrite (s_pis _ _ _ I); reflexivity|]. split; [symmetry; apply (s_len _ _ _ I)|]. intros env k n m v Hn Hm. destruct (Out k n Hn) as (q & Hq & K). rewrite Hm in Hq. injection Hq as <-. pose proof (Hpl k n Hn) as Hl. destruct (needs net n).
    - destruct K as [_ K]. rewrite <- (Vold env n v Hl). split.
      + intros V. eapply value_gate; [exact K|constructor; [exact V|constructor]|apply Hb].
      + intros V. inversion V as [? ? E|? ? E ?|? ? ? vs ? E F S]; subst; rewrite K in E; try discriminate E. injection E as <- <-. inversion F as [|? x ? l Fx Fl]; subst. inversion Fl; subst. rewrite Hb in S. injection S as <-. exact Fx.
    - subst m. symmetry. apply Vold, Hl. }
  split; [apply (s_pis _ _ _ I)|]. split; [exists gs; exact Eg|]. split.
  - intros k q Hq. assert (Hk : k < length (t_pos net)) by (rewrite <- (s_len _ _ _ I); eapply lookup_lt_Some, Hq). destruct (lookup_lt_is_Some_2 _ _ Hk) as (p & Hp). destruct (Out k p Hp) as (q' & Hq' & K). rewrite Hq in Hq'. injection Hq' as <-. rewrite Uf. destruct (needs net p) eqn:En.
    + destruct K as [K1 K2]. exists [p]. split; [exact K2|]. apply (s_new _ _ _ I). split; [exact K1|eapply lookup_lt_Some, K2].
    + subst q. destruct (Nd p En) as (a & Ea & Hf). exists a. split; [rewrite Eg; apply lookup_app_l_Some, Ea|]. rewrite (s_count _ _ _ I p (Hpl k p Hp)). enough (1 <= fanout_size net p) by lia.
      unfold fanout_size, fsize. assert (In p (t_pos net)) as Hi by (eapply elem_of_list_In, elem_of_list_lookup_2, Hp). apply (count_occ_In Nat.eq_dec) in Hi. lia.
  - intros k p a Hp Ea Hu. destruct (Out k p Hp) as (q & Hq & K). rewrite Hq. f_equal. destruct (needs net p) eqn:En; [|exact K]. exfalso. unfold needs, is_fanout, is_buf in En. rewrite Ea in En. cbn in En. rewrite Uf in Hu. rewrite Hu in En. discriminate En.
Qed.
Print Assumptions C81_substituted_outputs.
(** An input, a gate, a buffer shared by two outputs, and a buffer that already has one output. *)
Definition c81_net := mkT [TConst false; TConst true; TPi; TPi; TGate 4 [2; 3]; TGate 2 [4]; TGate 2 [2]] [2; 3] [4; 5; 6; 5; 2].
Example C81_nonvacuous : buffers meaning /\ scoped (t_nodes c81_net) (t_pos c81_net) /\
  substitute_po_signals c81_net = mkT [TConst false; TConst true; TPi; TPi; TGate 4 [2; 3]; TGate 2 [4]; TGate 2 [2]; TGate 2 [4]; TGate 2 [5]; TGate 2 [5]; TGate 2 [2]] [2; 3] [7; 8; 6; 9; 10].
Proof.
  split; [intros [|]; reflexivity|]. split; [|reflexivity].
  exact (c_scoped _ _ (calls_ok [CPi; CPi; CGate 4 [2; 3]; CGate 2 [4]; CGate 2 [2]; CPo 4; CPo 5; CPo 6; CPo 5; CPo 2] (mkV c81_net []) eq_refl)).
Qed.
