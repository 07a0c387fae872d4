(** Proofs about ResultModel.v. *)
From Coq Require Import ZArith QArith Qcanon Bool List Lia Permutation Sorting.Sorted.
From Verif Require Import CoordModel CoordProofs UtilModel SidbModel SidbSpec SidbProofs SidbProofs2 SidbProofs3 SidbProofs4 SidbProofs5 SidbProofs6 SidbProofs10
  SidbProofs12 ResultModel ResultSpec.
Import ListNotations.
Local Open Scope Z_scope.

Lemma qabs_lt x m : qltb (qabs x) m = true <-> (x < m)%Qc /\ (- x < m)%Qc.
Proof.
  unfold qabs. destruct (qltb x (Q2Qc 0)) eqn:E; rewrite qltb_spec.
  - apply qltb_spec in E. split; [intros H; split; [|exact H]; revert E H; generalize x, m; clear; intros x m E H; qlin|tauto].
  - apply qltb_false in E. split; [intros H; split; [exact H|]; revert E H; generalize x, m; clear; intros x m E H; qlin|tauto].
Qed.
Lemma close_spec a b : close a b = true <-> about a b.
Proof.
  unfold close, about. rewrite qabs_lt. replace (- (a - b))%Qc with (b - a)%Qc by ring. reflexivity.
Qed.
Lemma about_refl a : about a a.
Proof. assert (Z : (0 < margin)%Qc) by reflexivity. unfold about. set (m := margin) in *. clearbody m. split; revert Z; clear; intros Z; qlin. Qed.
Lemma about_sym a b : about a b -> about b a.
Proof. unfold about. tauto. Qed.

Lemma zinsert_in i s x : In x (zinsert i s) <-> x = i \/ In x s.
Proof.
  induction s as [|y s IH]; cbn; [intuition|]. destruct (i <? y); [cbn; intuition|]. destruct (Z.eqb_spec i y); [subst; cbn; intuition|]. cbn. rewrite IH. intuition.
Qed.
Lemma zinsert_sorted i s : StronglySorted Z.lt s -> StronglySorted Z.lt (zinsert i s).
Proof.
  intros S. induction S as [|y s S IH F]; cbn; [repeat constructor|]. destruct (Z.ltb_spec i y).
  - constructor; [constructor; assumption|]. constructor; [exact H|]. eapply Forall_impl; [|exact F]. intros; lia.
  - destruct (Z.eqb_spec i y); [constructor; assumption|]. constructor; [exact IH|]. apply Forall_forall. intros x Hx. apply zinsert_in in Hx.
    rewrite Forall_forall in F. destruct Hx as [->|Hx]; [lia|apply F, Hx].
Qed.
Lemma zset_gen l : forall s, StronglySorted Z.lt s -> StronglySorted Z.lt (fold_left (fun s i => zinsert i s) l s) /\
  forall x, In x (fold_left (fun s i => zinsert i s) l s) <-> In x l \/ In x s.
Proof.
  induction l as [|i l IH]; intros s S; [split; [exact S|cbn; tauto]|]. cbn [fold_left]. destruct (IH (zinsert i s) (zinsert_sorted i s S)) as [H1 H2]. split; [exact H1|].
  intros x. rewrite H2, zinsert_in. cbn. intuition.
Qed.
Lemma zset_in l x : In x (zset l) <-> In x l.
Proof. destruct (zset_gen l [] (SSorted_nil _)) as [_ H]. unfold zset. rewrite H. cbn. tauto. Qed.
Lemma zset_sorted l : StronglySorted Z.lt (zset l).
Proof. apply (zset_gen l [] (SSorted_nil _)). Qed.
Lemma sorted_nodupZ s : StronglySorted Z.lt s -> NoDup s.
Proof.
  intros S. induction S as [|x s S IH F]; constructor; auto. intros X. rewrite Forall_forall in F. specialize (F x X). lia.
Qed.
Lemma zset_nodup l : NoDup (zset l).
Proof. apply sorted_nodupZ, zset_sorted. Qed.
Lemma zset_length l : length (zset l) = length l <-> NoDup l.
Proof.
  split.
  - intros E. apply (@NoDup_incl_NoDup Z (zset l)); [apply zset_nodup|lia|intros x; apply zset_in].
  - intros N. apply Permutation_length, NoDup_Permutation; [apply zset_nodup|exact N|apply zset_in].
Qed.

Lemma min_element_ok l : forall b, In (min_element b l) (b :: l) /\ forall x, In x (b :: l) -> (d_energy (min_element b l) <= d_energy x)%Qc.
Proof.
  induction l as [|y l IH]; intros b; cbn [min_element].
  - split; [left; reflexivity|]. intros x [<-|[]]. apply Qcle_refl.
  - destruct (IH (if qltb (d_energy y) (d_energy b) then y else b)) as [H1 H2]. set (w := if qltb (d_energy y) (d_energy b) then y else b) in *.
    assert (W : (d_energy w <= d_energy y)%Qc /\ (d_energy w <= d_energy b)%Qc /\ (w = y \/ w = b)).
    { unfold w. destruct (qltb (d_energy y) (d_energy b)) eqn:E.
      - apply qltb_spec in E. repeat split; [apply Qcle_refl|apply Qclt_le_weak, E|left; reflexivity].
      - apply qltb_false in E. repeat split; [exact E|apply Qcle_refl|right; reflexivity]. }
    destruct W as (W1 & W2 & W3). split.
    + destruct H1 as [H1|H1]; [rewrite <- H1; cbn; destruct W3 as [->| ->]; auto|right; right; exact H1].
    + intros x Hx. specialize (H2 w (or_introl eq_refl)) as Hw. destruct Hx as [<-|[<-|Hx]]; [eapply Qcle_trans; eassumption|eapply Qcle_trans; eassumption|].
      apply H2. right. exact Hx.
Qed.

Section Results.
Context (cells : list coord) (Hnd : NoDup cells) (b : Z) (Hb : base_ok b).

Definition state (r : cds) : coord -> cs := get_charge_state r.
Lemma surface_charges r : d_order r = cells -> length (d_charge r) = length cells -> charges cells r (state r).
Proof.
  intros O L. split; [exact O|]. apply (nth_ext _ _ NON NON); [rewrite map_length; exact L|]. intros i Hi. rewrite L in Hi.
  rewrite (nth_indep (map (state r) cells) NON (state r dead0)) by (rewrite map_length; exact Hi). rewrite map_nth. unfold state, get_charge_state, cell_to_index. rewrite O.
  destruct (index_in_nth (nth i cells dead0) cells (nth_In _ _ Hi)) as [B E].
  destruct (Z.eqb_spec (index_in (nth i cells dead0) cells) (-1)) as [X|X]; [lia|].
  assert (Q : Z.to_nat (index_in (nth i cells dead0) cells) = i).
  { apply (proj1 (NoDup_nth cells dead0) Hnd); [lia|exact Hi|exact E]. }
  rewrite Q. apply nth_indep. lia.
Qed.

Lemma general_idx r : d_order r = cells -> length (d_charge r) = length cells -> p_base (d_par r) = b ->
  d_idx (to_index_general r) = number b (map (state r) cells).
Proof. intros O L B. rewrite (to_index_general_ok cells r (state r)) by (apply surface_charges; assumption). rewrite B. reflexivity. Qed.
Lemma general_state r c : get_charge_state (to_index_general r) c = get_charge_state r c.
Proof. reflexivity. Qed.
Lemma general_energy r : d_energy (to_index_general r) = d_energy r.
Proof. reflexivity. Qed.

Lemma idx_same R r s : surfaces cells b R -> In r R -> In s R -> (d_idx (to_index_general r) = d_idx (to_index_general s) <-> same cells r s).
Proof.
  intros S Hr Hs. destruct (S r Hr) as (O & L & B & A). destruct (S s Hs) as (O' & L' & B' & A'). rewrite !general_idx by assumption. split.
  - intros E. apply number_inj in E; [|exact Hb|exact A|exact A']. intros c Hc. apply (map_agree _ _ cells E c Hc).
  - intros E. f_equal. apply map_ext_in. exact E.
Qed.

(** Lists with increasing charge indices have no two equal distributions. *)
Lemma sorted_distinct R U : surfaces cells b R -> (forall u, In u U -> exists r, In r R /\ u = to_index_general r) -> NoDup (map d_idx U) -> distinct cells U.
Proof.
  intros S H N i j d Hij E.
  destruct (H (nth i U d)) as (r & Hr & Er); [apply nth_In; lia|]. destruct (H (nth j U d)) as (s & Hs & Es); [apply nth_In; lia|].
  assert (X : d_idx (nth i U d) = d_idx (nth j U d)). { rewrite Er, Es in *. apply (idx_same R); assumption. }
  rewrite <- !(map_nth d_idx) in X. apply (proj1 (NoDup_nth (map d_idx U) (d_idx d)) N) in X; rewrite ?map_length; lia.
Qed.

(** The elements that a search for each charge index finds. *)
Lemma find_map_nodup (P : cds -> Z -> bool) R : (forall d i, P d i = true -> d_idx d = i) ->
  forall s, NoDup s -> let U := flat_map (fun i => match find (fun d => P d i) R with Some d => [d] | None => [] end) s in
  NoDup (map d_idx U) /\ forall u, In u U -> In (d_idx u) s.
Proof.
  intros HP s. induction s as [|i s IH]; intros N; [split; [constructor|intros u []]|]. apply NoDup_cons_iff in N. destruct N as [N1 N2]. destruct (IH N2) as [I1 I2].
  cbn [flat_map]. destruct (find (fun d => P d i) R) as [d|] eqn:F; [|split; [exact I1|intros u Hu; right; apply I2, Hu]].
  apply find_some in F. destruct F as [_ F]. apply HP in F. cbn [app map]. split.
  - constructor; [|exact I1]. intros X. apply in_map_iff in X. destruct X as (u & E & Hu). apply I2 in Hu. rewrite E, F in Hu. contradiction.
  - intros u [<-|Hu]; [left; symmetry; exact F|right; apply I2, Hu].
Qed.

Lemma groundstates_ok R : surfaces cells b R -> let G := groundstates R in
  (forall g, In g G -> exists r, In r R /\ g = to_index_general r /\ lowest R (d_energy r)) /\
  (forall r, In r R -> lowest R (d_energy r) -> exists g, In g G /\ same cells g r) /\
  NoDup (map d_idx G) /\ distinct cells G.
Proof.
  intros S. cbv zeta. destruct R as [|x0 R0]; [split; [intros ? []|split; [intros ? []|split; [apply NoDup_nil|intros i j d H; cbn in H; lia]]]|].
  set (R := x0 :: R0) in *.
  assert (Mn : exists m, minimum_energy (map to_index_general R) = Some m /\ (exists r, In r R /\ d_energy r = m) /\ forall r, In r R -> (m <= d_energy r)%Qc).
  { unfold R, minimum_energy. cbn [map]. eexists. split; [reflexivity|]. destruct (min_element_ok (map to_index_general R0) (to_index_general x0)) as [H1 H2]. split.
    - assert (X : In (min_element (to_index_general x0) (map to_index_general R0)) (map to_index_general (x0 :: R0))) by exact H1.
      apply in_map_iff in X. destruct X as (r & E & Hr). exists r. split; [exact Hr|]. rewrite <- E. reflexivity.
    - intros r Hr. apply (H2 (to_index_general r)). apply (in_map to_index_general) in Hr. exact Hr. }
  destruct Mn as (m & M1 & (rm & Hrm & Em) & M2).
  assert (Cl : forall e, (m <= e)%Qc -> (close e m = true <-> (e < m + margin)%Qc)).
  { intros e He. rewrite close_spec. unfold about. set (mm := margin) in *. assert (Z : (0 < mm)%Qc) by reflexivity. clearbody mm. clear -He Z. split; [intros [H _]; qlin|intros H; split; qlin]. }
  assert (Lo : forall r, In r R -> (close (d_energy r) m = true <-> lowest R (d_energy r))).
  { intros r Hr. rewrite (Cl _ (M2 r Hr)). split.
    - intros H s Hs. eapply Qclt_le_trans; [exact H|]. apply Qcplus_le_compat; [apply M2, Hs|apply Qcle_refl].
    - intros H. rewrite <- Em. apply H, Hrm. }
  unfold groundstates. rewrite M1. set (R' := map to_index_general R).
  set (P := fun (d : cds) (i : Z) => (d_idx d =? i) && close (d_energy d) m).
  assert (HP : forall d i, P d i = true -> d_idx d = i) by (intros d i H; apply andb_true_iff in H; apply Z.eqb_eq, H).
  destruct (find_map_nodup P R' HP (zset (map d_idx R')) (zset_nodup _)) as [N1 N2].
  change (fun i => match find (fun d => (d_idx d =? i) && close (d_energy d) m) R' with Some d => [d] | None => [] end)
    with (fun i => match find (fun d => P d i) R' with Some d => [d] | None => [] end).
  set (G := flat_map _ _) in *.
  assert (G1 : forall g, In g G -> exists r, In r R /\ g = to_index_general r /\ lowest R (d_energy r)).
  { intros g Hg. apply in_flat_map in Hg. destruct Hg as (i & Hi & Hg). destruct (find (fun d => P d i) R') as [d|] eqn:F; [|contradiction]. destruct Hg as [<-|[]].
    apply find_some in F. destruct F as [F1 F2]. apply in_map_iff in F1. destruct F1 as (r & Er & Hr). exists r. split; [exact Hr|]. split; [symmetry; exact Er|].
    apply (Lo r Hr). apply andb_true_iff in F2. destruct F2 as [_ F2]. rewrite <- Er in F2. exact F2. }
  split; [exact G1|]. split; [|split; [exact N1|apply (sorted_distinct R); [exact S| |exact N1]]].
  - intros r Hr Lr. set (i := d_idx (to_index_general r)).
    assert (Hi : In i (zset (map d_idx R'))) by (apply zset_in, in_map, in_map, Hr).
    destruct (find (fun d => P d i) R') as [g|] eqn:F.
    + exists g. split; [apply in_flat_map; exists i; split; [exact Hi|rewrite F; left; reflexivity]|].
      apply find_some in F. destruct F as [F1 F2]. apply in_map_iff in F1. destruct F1 as (s & Es & Hs). apply HP in F2. rewrite <- Es in *.
      apply (idx_same R s r S Hs Hr). exact F2.
    + exfalso. pose proof (find_none _ _ F (to_index_general r) (in_map _ _ _ Hr)) as X. unfold P in X. unfold i in X. rewrite Z.eqb_refl in X. cbn [andb] in X.
      apply (Lo r Hr) in Lr. change (d_energy (to_index_general r)) with (d_energy r) in X. congruence.
  - intros u Hu. destruct (G1 u Hu) as (r & Hr & Er & _). exists r. auto.
Qed.

(** ** Energy distribution *)

Definition apart (a c : Qc) : Prop := (a + margin <= c)%Qc.
Lemma qinsert_in v s x : In x (qinsert v s) <-> x = v \/ In x s.
Proof.
  induction s as [|y s IH]; cbn; [intuition|]. destruct (qltb v y) eqn:E1; [cbn; intuition|]. destruct (qltb y v) eqn:E2; [cbn; rewrite IH; intuition|].
  apply qltb_false in E1, E2. assert (y = v) by (apply Qcle_antisym; assumption). subst. cbn. intuition.
Qed.
Lemma not_about a c : ~ about a c -> apart a c \/ apart c a.
Proof.
  intros N. unfold apart. destruct (qltb c (a + margin)) eqn:E1; [|left; apply qltb_false, E1]. destruct (qltb a (c + margin)) eqn:E2; [|right; apply qltb_false, E2].
  apply qltb_spec in E1, E2. exfalso. apply N. unfold about. set (m := margin) in *. clearbody m. clear N. split; [clear E1|clear E2]; qlin.
Qed.
Lemma apart_not_lt a c : apart a c -> qltb c a = false.
Proof. unfold apart. intros H. apply qltb_false. assert (Z : (0 < margin)%Qc) by reflexivity. set (m := margin) in *. clearbody m. qlin. Qed.
Lemma qinsert_sorted v s : StronglySorted apart s -> (forall x, In x s -> ~ about v x) -> StronglySorted apart (qinsert v s).
Proof.
  intros S. induction S as [|y s S IH F]; intros N; cbn; [repeat constructor|]. specialize (IH (fun x Hx => N x (or_intror Hx))).
  rewrite Forall_forall in F. destruct (not_about v y (N y (or_introl eq_refl))) as [A|A].
  - destruct (qltb v y) eqn:E.
    + constructor; [constructor; [exact S|apply Forall_forall, F]|]. constructor; [exact A|]. apply Forall_forall. intros x Hx. specialize (F x Hx).
      unfold apart in *. assert (Z : (0 < margin)%Qc) by reflexivity. set (m := margin) in *. clearbody m. clear -A F Z. qlin.
    + apply qltb_false in E. exfalso. unfold apart in A. assert (Z : (0 < margin)%Qc) by reflexivity. set (m := margin) in *. clearbody m. clear -A E Z.
      assert (X : (0 < 0)%Qc) by qlin. discriminate X.
  - rewrite (apart_not_lt y v A). destruct (qltb y v) eqn:E2.
    + constructor; [exact IH|]. apply Forall_forall. intros x Hx. apply qinsert_in in Hx. destruct Hx as [->|Hx]; [exact A|apply F, Hx].
    + apply qltb_false in E2. exfalso. unfold apart in A. assert (Z : (0 < margin)%Qc) by reflexivity. set (m := margin) in *. clearbody m. clear -A E2 Z.
      assert (X : (0 < 0)%Qc) by qlin. discriminate X.
Qed.

Definition covers (es : list Qc) (u : list cds) : Prop :=
  StronglySorted apart es /\ (forall e, In e es -> exists d, In d u /\ d_energy d = e) /\ (forall d, In d u -> exists e, In e es /\ about (d_energy d) e).
Lemma collect_ok R s : forall es u, covers es u ->
  let st := fold_left (collect R) s (es, u) in
  covers (fst st) (snd st) /\ snd st = u ++ flat_map (fun i => match find (fun d => d_idx d =? i) R with Some d => [d] | None => [] end) s.
Proof.
  induction s as [|i s IH]; intros es u C; [cbn; split; [exact C|rewrite app_nil_r; reflexivity]|]. cbn zeta. cbn [fold_left flat_map]. remember (collect R (es, u) i) as st0 eqn:E0. unfold collect in E0.
  destruct (find (fun d => d_idx d =? i) R) as [d|]; subst st0; [|apply IH, C].
  set (es' := if existsb (fun e => close (d_energy d) e) es then es else qinsert (d_energy d) es).
  assert (C' : covers es' (u ++ [d])).
  { destruct C as (C1 & C2 & C3). unfold es'. destruct (existsb (fun e => close (d_energy d) e) es) eqn:E.
    - split; [exact C1|]. split.
      + intros e He. destruct (C2 e He) as (x & Hx & Ex). exists x. split; [apply in_or_app; left; exact Hx|exact Ex].
      + intros x Hx. apply in_app_or in Hx. destruct Hx as [Hx|[<-|[]]]; [apply C3, Hx|]. apply existsb_exists in E. destruct E as (e & He & Ce). exists e. split; [exact He|apply close_spec, Ce].
    - split; [|split].
      + apply qinsert_sorted; [exact C1|]. intros x Hx A. apply close_spec in A. assert (X : existsb (fun e => close (d_energy d) e) es = true) by (apply existsb_exists; exists x; auto). congruence.
      + intros e He. apply qinsert_in in He. destruct He as [->|He]; [exists d; split; [apply in_or_app; right; left; reflexivity|reflexivity]|].
        destruct (C2 e He) as (x & Hx & Ex). exists x. split; [apply in_or_app; left; exact Hx|exact Ex].
      + intros x Hx. apply in_app_or in Hx. destruct Hx as [Hx|[<-|[]]].
        * destruct (C3 x Hx) as (e & He & Ae). exists e. split; [apply qinsert_in; right; exact He|exact Ae].
        * exists (d_energy d). split; [apply qinsert_in; left; reflexivity|apply about_refl]. }
  destruct (IH es' (u ++ [d]) C') as [H1 H2]. split; [exact H1|]. rewrite H2, <- app_assoc. reflexivity.
Qed.

Definition coherent (R : list cds) : Prop := forall r s, In r R -> In s R -> same cells r s -> d_energy r = d_energy s.

Lemma distribution_parts R : surfaces cells b R -> exists es u,
  calculate_energy_distribution R = map (fun e => (e, Z.of_nat (length (filter (fun d => close (d_energy d) e) u)))) es /\ covers es u /\
  NoDup (map d_idx u) /\ (forall x, In x u -> exists r, In r R /\ x = to_index_general r) /\ (forall r, In r R -> exists x, In x u /\ same cells x r).
Proof.
  intros S. unfold calculate_energy_distribution. set (R' := map to_index_general R).
  destruct (collect_ok R' (zset (map d_idx R')) [] []) as [H1 H2]; [split; [constructor|split; intros ? []]|].
  destruct (fold_left (collect R') (zset (map d_idx R')) ([], [])) as [es u]. cbn [fst snd] in *. exists es, u. split; [reflexivity|]. split; [exact H1|]. cbn [app] in H2.
  set (P := fun (d : cds) (i : Z) => d_idx d =? i).
  assert (HP : forall d i, P d i = true -> d_idx d = i) by (intros d i H; apply Z.eqb_eq, H).
  destruct (find_map_nodup P R' HP (zset (map d_idx R')) (zset_nodup _)) as [N1 N2]. unfold P in N1, N2. cbv zeta in N1, N2. rewrite <- H2 in *. split; [exact N1|]. split.
  - intros x Hx. rewrite H2 in Hx. apply in_flat_map in Hx. destruct Hx as (i & Hi & Hx). destruct (find (fun d => d_idx d =? i) R') as [d|] eqn:F; [|contradiction].
    destruct Hx as [<-|[]]. apply find_some in F. destruct F as [F1 _]. apply in_map_iff in F1. destruct F1 as (r & E & Hr). exists r. split; [exact Hr|symmetry; exact E].
  - intros r Hr. set (i := d_idx (to_index_general r)). assert (Hi : In i (zset (map d_idx R'))) by (apply zset_in, in_map, in_map, Hr).
    destruct (find (fun d => d_idx d =? i) R') as [g|] eqn:F.
    + exists g. split; [rewrite H2; apply in_flat_map; exists i; split; [exact Hi|rewrite F; left; reflexivity]|].
      apply find_some in F. destruct F as [F1 F2]. apply Z.eqb_eq in F2. apply in_map_iff in F1. destruct F1 as (s & Es & Hs). rewrite <- Es in *.
      apply (idx_same R s r S Hs Hr). exact F2.
    + exfalso. pose proof (find_none _ _ F (to_index_general r) (in_map _ _ _ Hr)) as X. cbn beta in X. unfold i in X. rewrite Z.eqb_refl in X. discriminate.
Qed.

Lemma nodup_filter_map {A B} (g : A -> B) (F : A -> bool) (m : list A) : NoDup (map g m) -> NoDup (map g (filter F m)).
Proof.
  induction m as [|x m IH]; intros N; [constructor|]. cbn [map filter] in *. apply NoDup_cons_iff in N. destruct N as [N1 N2]. destruct (F x); [|apply IH, N2]. cbn [map].
  constructor; [|apply IH, N2]. intros X. apply N1. apply in_map_iff in X. destruct X as (y & E & Hy). apply filter_In in Hy. rewrite <- E. apply in_map, Hy.
Qed.

Lemma distribution_ok R : surfaces cells b R -> coherent R -> let D := calculate_energy_distribution R in
  (forall e n, In (e, n) D -> (exists r, In r R /\ d_energy r = e) /\ exists U, represents cells R (fun r => about (d_energy r) e) U /\ n = Z.of_nat (length U)) /\
  (forall r, In r R -> exists e n, In (e, n) D /\ about (d_energy r) e) /\
  StronglySorted (fun x y => apart (fst x) (fst y)) D.
Proof.
  intros S Co. cbv zeta. destruct (distribution_parts R S) as (es & u & -> & (C1 & C2 & C3) & N & U1 & U2). split; [|split].
  - intros e n H. apply in_map_iff in H. destruct H as (e' & E & He). injection E as -> <-. split.
    + destruct (C2 e He) as (d & Hd & Ed). destruct (U1 d Hd) as (r & Hr & ->). exists r. auto.
    + exists (filter (fun d => close (d_energy d) e) u). split; [|reflexivity]. split; [|split].
      * apply (sorted_distinct R); [exact S| |apply nodup_filter_map, N]. intros x Hx. apply filter_In in Hx. apply U1, Hx.
      * intros x Hx. apply filter_In in Hx. destruct Hx as [Hx Ax]. destruct (U1 x Hx) as (r & Hr & ->). exists r. split; [exact Hr|]. split; [apply close_spec, Ax|]. intros c _. reflexivity.
      * intros r Hr Ar. destruct (U2 r Hr) as (x & Hx & Sx). exists x. split; [|exact Sx]. apply filter_In. split; [exact Hx|]. apply close_spec.
        destruct (U1 x Hx) as (r' & Hr' & ->). change (d_energy (to_index_general r')) with (d_energy r'). rewrite (Co r' r Hr' Hr Sx). exact Ar.
  - intros r Hr. destruct (U2 r Hr) as (x & Hx & Sx). destruct (C3 x Hx) as (e & He & Ae). exists e. eexists. split; [apply in_map_iff; exists e; split; [reflexivity|exact He]|].
    destruct (U1 x Hx) as (r' & Hr' & ->). rewrite <- (Co r' r Hr' Hr Sx). exact Ae.
  - clear -C1. induction C1 as [|e es S IH F]; cbn [map]; constructor; [exact IH|]. apply Forall_map. exact F.
Qed.

Definition separated (R : list cds) : Prop := forall r s, In r R -> In s R -> about (d_energy r) (d_energy s) -> d_energy r = d_energy s.
Lemma count_one e (es : list Qc) : NoDup es -> In e es -> forall F : Qc -> bool, (forall x, In x es -> (F x = true <-> x = e)) -> length (filter F es) = 1%nat.
Proof.
  intros N H F HF. induction es as [|x es IH]; [contradiction|]. apply NoDup_cons_iff in N. destruct N as [N1 N2]. cbn [filter].
  destruct (F x) eqn:Fx.
  - apply HF in Fx; [|left; reflexivity]. subst x. cbn [length]. f_equal.
    destruct (filter F es) as [|y r] eqn:E; [reflexivity|]. exfalso. assert (Y : In y (filter F es)) by (rewrite E; left; reflexivity). apply filter_In in Y. destruct Y as [Y1 Y2].
    apply HF in Y2; [|right; exact Y1]. subst y. contradiction.
  - apply IH; [exact N2| |intros y Hy; apply HF; right; exact Hy]. destruct H as [->|H]; [|exact H]. exfalso. assert (X : F e = true) by (apply HF; [left|]; reflexivity). congruence.
Qed.
Lemma double_count {A B} (F : A -> B -> bool) (l : list A) (m : list B) :
  fold_right Z.add 0 (map (fun y => Z.of_nat (length (filter (fun x => F x y) l))) m) = fold_right Z.add 0 (map (fun x => Z.of_nat (length (filter (fun y => F x y) m))) l).
Proof.
  induction l as [|x l IH]; cbn [filter map fold_right].
  - induction m as [|y m IH]; [reflexivity|]. cbn. exact IH.
  - rewrite <- IH. clear IH. induction m as [|y m IH]; [reflexivity|]. cbn [map fold_right filter]. rewrite IH. destruct (F x y); cbn [length]; lia.
Qed.
Lemma distribution_total R : surfaces cells b R -> coherent R -> separated R ->
  exists U, represents cells R (fun _ => True) U /\ fold_right Z.add 0 (map snd (calculate_energy_distribution R)) = Z.of_nat (length U).
Proof.
  intros S Co Se. destruct (distribution_parts R S) as (es & u & -> & (C1 & C2 & C3) & N & U1 & U2). exists u. split; [split; [|split]|].
  - apply (sorted_distinct R); assumption.
  - intros x Hx. destruct (U1 x Hx) as (r & Hr & ->). exists r. split; [exact Hr|]. split; [exact I|]. intros c _. reflexivity.
  - intros r Hr _. apply U2, Hr.
  - rewrite map_map. cbn [snd]. rewrite (double_count (fun d e => close (d_energy d) e) u es).
    assert (One : forall d, In d u -> length (filter (fun e => close (d_energy d) e) es) = 1%nat).
    { intros d Hd. destruct (C3 d Hd) as (e & He & Ae).
      assert (Eq : forall e, In e es -> about (d_energy d) e -> e = d_energy d).
      { intros e' He' Ae'. destruct (C2 e' He') as (d' & Hd' & Ed'). subst e'. destruct (U1 d Hd) as (r & Hr & ->). destruct (U1 d' Hd') as (r' & Hr' & ->).
        symmetry. exact (Se r r' Hr Hr' Ae'). }
      apply (count_one (d_energy d)).
      - clear -C1. induction C1 as [|x es S IH F]; constructor; [|exact IH]. intros X. rewrite Forall_forall in F. specialize (F x X). unfold apart in F.
        assert (Z : (0 < margin)%Qc) by reflexivity. set (m := margin) in *. clearbody m. assert (Y : (0 < 0)%Qc) by (clear -F Z; qlin). discriminate Y.
      - rewrite <- (Eq e He Ae). exact He.
      - intros x Hx. split; [intros X; apply Eq; [exact Hx|apply close_spec, X]|intros ->; apply close_spec, about_refl]. }
    clear -One. induction u as [|d u IH]; [reflexivity|]. cbn [map fold_right length]. rewrite (One d (or_introl eq_refl)), IH by (intros x Hx; apply One; right; exact Hx). lia.
Qed.

(** ** Comparing the ground states of two simulations *)
Lemma is_ground_state_ok H E : surfaces cells b H -> surfaces cells b E ->
  (is_ground_state H E = true <-> E <> [] /\
   within cells E (fun r => lowest E (d_energy r)) H (fun r => lowest H (d_energy r)) /\
   within cells H (fun r => lowest H (d_energy r)) E (fun r => lowest E (d_energy r))).
Proof.
  intros SH SE. destruct (groundstates_ok H SH) as (H1 & H2 & H3 & _). destruct (groundstates_ok E SE) as (E1 & E2 & E3 & _).
  set (GH := groundstates H) in *. set (GE := groundstates E) in *.
  assert (S' : surfaces cells b (H ++ E)) by (intros r Hr; apply in_app_or in Hr; destruct Hr; auto).
  assert (Ix : forall r s, In r E -> In s H -> (d_idx (to_index_general r) = d_idx (to_index_general s) <-> same cells r s)).
  { intros r s Hr Hs. apply (idx_same (H ++ E)); [exact S'|apply in_or_app; right; exact Hr|apply in_or_app; left; exact Hs]. }
  assert (Q : is_ground_state H E = true <-> E <> [] /\ length GE = length GH /\ incl (map d_idx GE) (map d_idx GH)).
  { unfold is_ground_state. fold GH GE. destruct E as [|e0 E0]; [split; [discriminate|intros [X _]; contradiction]|].
    rewrite andb_true_iff, Nat.eqb_eq, forallb_forall. split.
    - intros [L F]. split; [discriminate|]. split; [exact L|]. intros i Hi. apply in_map_iff in Hi. destruct Hi as (d & <- & Hd). specialize (F d Hd). apply existsb_exists in F.
      destruct F as (j & Hj & Ej). apply Z.eqb_eq in Ej. subst j. exact Hj.
    - intros (_ & L & F). split; [exact L|]. intros d Hd. apply existsb_exists. exists (d_idx d). split; [apply F, in_map, Hd|apply Z.eqb_refl]. }
  rewrite Q. clear Q. split.
  - intros (N & L & I). split; [exact N|].
    assert (I' : incl (map d_idx GH) (map d_idx GE)) by (apply NoDup_length_incl; [exact E3|rewrite !map_length; lia|exact I]).
    split; intros r Hr Lr.
    + destruct (E2 r Hr Lr) as (g & Hg & Sg). destruct (E1 g Hg) as (r' & Hr' & Eg & _). apply (in_map d_idx) in Hg. apply I in Hg. apply in_map_iff in Hg.
      destruct Hg as (h & Eh & Hh). destruct (H1 h Hh) as (s & Hs & Es & Ls). exists s. split; [exact Hs|]. split; [exact Ls|].
      rewrite Eg, Es in *. symmetry in Eh. apply (Ix r' s Hr' Hs) in Eh. intros c Hc. rewrite <- (Eh c Hc). symmetry. apply (Sg c Hc).
    + destruct (H2 r Hr Lr) as (g & Hg & Sg). destruct (H1 g Hg) as (r' & Hr' & Eg & _). apply (in_map d_idx) in Hg. apply I' in Hg. apply in_map_iff in Hg.
      destruct Hg as (h & Eh & Hh). destruct (E1 h Hh) as (s & Hs & Es & Ls). exists s. split; [exact Hs|]. split; [exact Ls|].
      rewrite Eg, Es in *. apply (Ix s r' Hs Hr') in Eh. intros c Hc. rewrite (Eh c Hc). symmetry. apply (Sg c Hc).
  - intros (N & W1 & W2). split; [exact N|].
    assert (I1 : incl (map d_idx GE) (map d_idx GH)).
    { intros i Hi. apply in_map_iff in Hi. destruct Hi as (g & <- & Hg). destruct (E1 g Hg) as (r & Hr & -> & Lr). destruct (W1 r Hr Lr) as (s & Hs & Ls & Sr).
      destruct (H2 s Hs Ls) as (h & Hh & Sh). destruct (H1 h Hh) as (s' & Hs' & Eh & _). apply in_map_iff. exists h. split; [|exact Hh]. rewrite Eh. symmetry. apply (Ix r s' Hr Hs').
      intros c Hc. rewrite (Sr c Hc). rewrite Eh in Sh. symmetry. apply (Sh c Hc). }
    assert (I2 : incl (map d_idx GH) (map d_idx GE)).
    { intros i Hi. apply in_map_iff in Hi. destruct Hi as (g & <- & Hg). destruct (H1 g Hg) as (r & Hr & -> & Lr). destruct (W2 r Hr Lr) as (s & Hs & Ls & Sr).
      destruct (E2 s Hs Ls) as (h & Hh & Sh). destruct (E1 h Hh) as (s' & Hs' & Eh & _). apply in_map_iff. exists h. split; [|exact Hh]. rewrite Eh. apply (Ix s' r Hs' Hr).
      intros c Hc. rewrite (Sr c Hc). rewrite Eh in Sh. apply (Sh c Hc). }
    split; [|exact I1]. pose proof (NoDup_incl_length E3 I1) as L1. pose proof (NoDup_incl_length H3 I2) as L2. rewrite !map_length in *. lia.
Qed.
End Results.

(** ** Comparing two results *)
Lemma insert_idx_perm d l : Permutation (insert_idx d l) (d :: l).
Proof. induction l as [|x l IH]; [reflexivity|]. cbn. destruct (d_idx x <? d_idx d); [rewrite IH; apply perm_swap|reflexivity]. Qed.
Lemma sort_idx_perm l : Permutation (sort_idx l) l.
Proof. induction l as [|x l IH]; [reflexivity|]. cbn. rewrite insert_idx_perm, IH. reflexivity. Qed.
Lemma insert_idx_sorted d l : StronglySorted (fun x y => d_idx x <= d_idx y) l -> StronglySorted (fun x y => d_idx x <= d_idx y) (insert_idx d l).
Proof.
  induction 1 as [|x l S IH F]; cbn; [repeat constructor|]. destruct (Z.ltb_spec (d_idx x) (d_idx d)).
  - constructor; [exact IH|]. apply Forall_forall. intros y Hy. apply (Permutation_in _ (insert_idx_perm d l)) in Hy. rewrite Forall_forall in F. destruct Hy as [<-|Hy]; [lia|apply F, Hy].
  - constructor; [constructor; assumption|]. constructor; [lia|]. rewrite Forall_forall in F. apply Forall_forall. intros y Hy. specialize (F y Hy). lia.
Qed.
Lemma sort_idx_sorted l : StronglySorted (fun x y => d_idx x <= d_idx y) (sort_idx l).
Proof. induction l as [|x l IH]; [constructor|]. cbn. apply insert_idx_sorted, IH. Qed.

(** Numbers in any base compare like their digits. *)
Fixpoint lex (u v : list cs) : Prop :=
  match u, v with
  | x :: u', y :: v' => digit x < digit y \/ digit x = digit y /\ lex u' v'
  | _, _ => False
  end.
Lemma digit_bound b s : base_ok b -> allowed b s -> 0 <= digit s < b.
Proof. intros [-> | ->] A; destruct s; cbn in *; try lia; try discriminate; contradiction. Qed.
Lemma number_lex b : base_ok b -> forall u v a c, length u = length v -> Forall (allowed b) u -> Forall (allowed b) v ->
  (number_from b a u < number_from b c v <-> a < c \/ a = c /\ lex u v).
Proof.
  intros B. induction u as [|x u IH]; intros [|y v] a c L Fu Fv; try discriminate; [cbn; intuition lia|]. inversion Fu; inversion Fv; subst. cbn [number_from lex].
  rewrite IH by (cbn in L; auto; lia). pose proof (digit_bound b x B H1). pose proof (digit_bound b y B H5). destruct B as [-> | ->]; split; intros; intuition nia.
Qed.
Lemma lex_digits u v : lex u v -> ~ lex v u.
Proof. revert v. induction u as [|x u IH]; intros [|y v]; cbn; try tauto. intros [H|[H1 H2]] [H'|[H1' H2']]; try lia. exact (IH _ H2 H2'). Qed.

Lemma sorted_perm_eq {A} (lt : A -> A -> Prop) (irr : forall x y, lt x y -> ~ lt y x) (l m : list A) :
  StronglySorted lt l -> StronglySorted lt m -> (forall x, In x l <-> In x m) -> l = m.
Proof.
  intros S. revert m. induction S as [|x l S IH F]; intros m Sm E.
  - destruct m as [|y m]; [reflexivity|]. exfalso. apply (proj2 (E y)). left. reflexivity.
  - destruct m as [|y m]; [exfalso; apply (proj1 (E x)); left; reflexivity|]. inversion Sm as [|? ? Sm' Fm]; subst. rewrite Forall_forall in F, Fm.
    assert (x = y).
    { destruct (proj1 (E x) (or_introl eq_refl)) as [H|H]; [symmetry; exact H|]. destruct (proj2 (E y) (or_introl eq_refl)) as [H'|H']; [exact H'|].
      exfalso. apply (irr x y); [apply F, H'|apply Fm, H]. }
    subst y. f_equal. apply IH; [exact Sm'|]. intros z. split; intros Hz.
    + destruct (proj1 (E z) (or_intror Hz)) as [<-|H]; [|exact H]. exfalso. apply (irr x x); apply F, Hz.
    + destruct (proj2 (E z) (or_intror Hz)) as [<-|H]; [|exact H]. exfalso. apply (irr x x); apply Fm, Hz.
Qed.

Section Compare.
Context (cells : list coord) (Hnd : NoDup cells).
Definition vec (r : cds) : list cs := map (get_charge_state r) cells.
Lemma vec_same r s : vec r = vec s <-> same cells r s.
Proof. split; [intros E c Hc; apply (map_agree _ _ cells E c Hc)|intros E; apply map_ext_in, E]. Qed.
Lemma distinct_vec R : distinct cells R <-> NoDup (map vec R).
Proof.
  split.
  - intros D. destruct R as [|x R']; [constructor|]. set (R := x :: R') in *. apply (NoDup_nth (map vec R) (vec x)). intros i j Hi Hj E. rewrite map_length in Hi, Hj. rewrite !map_nth in E.
    apply vec_same in E. destruct (Nat.lt_trichotomy i j) as [Lt|[Eq|Lt]]; [|exact Eq|]; exfalso.
    + apply (D i j x); [lia|exact E].
    + apply (D j i x); [lia|]. intros c Hc. symmetry. apply E, Hc.
  - intros N i j d Hij E. apply vec_same in E. pose proof (proj1 (NoDup_nth (map vec R) (vec d)) N i j) as X. rewrite !map_length, !map_nth in X. specialize (X ltac:(lia) ltac:(lia) E). lia.
Qed.
Lemma vec_allowed b R r : surfaces cells b R -> In r R -> Forall (allowed b) (vec r).
Proof. intros S Hr. apply Forall_forall. intros s Hs. apply in_map_iff in Hs. destruct Hs as (c & <- & Hc). apply (S r Hr), Hc. Qed.
Lemma numbered_idx b R : base_ok b -> surfaces cells b R -> numbered cells b R -> (NoDup (map d_idx R) <-> NoDup (map vec R)).
Proof.
  intros B S Nu. assert (E : forall r s, In r R -> In s R -> (d_idx r = d_idx s <-> vec r = vec s)).
  { intros r s Hr Hs. rewrite (Nu r Hr), (Nu s Hs). split; [|intros E; unfold vec in E; rewrite E; reflexivity]. apply number_inj; [exact B|apply (S r Hr)|apply (S s Hs)]. }
  clear -E. induction R as [|x R IH]; [split; constructor|]. cbn [map]. rewrite !NoDup_cons_iff, IH by (intros; apply E; right; assumption).
  assert (X : In (d_idx x) (map d_idx R) <-> In (vec x) (map vec R)); [|tauto]. rewrite !in_map_iff. split; intros (y & Ey & Hy); exists y; (split; [|exact Hy]); apply E; auto; [right|left|right|left]; auto.
Qed.
Lemma sorted_vec b R : base_ok b -> surfaces cells b R -> numbered cells b R -> NoDup (map vec R) -> StronglySorted lex (map vec (sort_idx R)).
Proof.
  intros B S Nu N. pose proof (sort_idx_sorted R) as So. pose proof (sort_idx_perm R) as P.
  assert (N' : NoDup (map d_idx (sort_idx R))).
  { apply (numbered_idx b R B S Nu) in N. eapply Permutation_NoDup; [|exact N]. apply Permutation_map, Permutation_sym, P. }
  assert (In' : forall r, In r (sort_idx R) -> In r R) by (intros r Hr; apply (Permutation_in _ P Hr)).
  clear N P. induction So as [|x l So IH F]; [constructor|]. cbn [map] in *. apply NoDup_cons_iff in N'. destruct N' as [N1 N2]. constructor; [apply IH; [exact N2|intros; apply In'; right; assumption]|].
  apply Forall_forall. intros v Hv. apply in_map_iff in Hv. destruct Hv as (y & <- & Hy). rewrite Forall_forall in F. specialize (F y Hy).
  assert (Lt : d_idx x < d_idx y). { assert (d_idx x <> d_idx y) by (intros E; apply N1; rewrite E; apply in_map, Hy). lia. }
  rewrite (Nu x), (Nu y) in Lt by (apply In'; cbn; auto). unfold number in Lt. apply (number_lex b B) in Lt.
  - destruct Lt as [Lt|[_ Lt]]; [lia|exact Lt].
  - rewrite !map_length. reflexivity.
  - apply (vec_allowed b R); [exact S|apply In'; left; reflexivity].
  - apply (vec_allowed b R); [exact S|apply In'; right; exact Hy].
Qed.

Lemma similar_spec r s : negb (qltb margin (qabs (d_energy r - d_energy s))) = true <-> similar r s.
Proof.
  rewrite negb_true_iff, qltb_false. unfold similar, qabs. set (x := d_energy r) in *. set (y := d_energy s) in *. set (m := margin) in *. assert (Z : (0 < m)%Qc) by reflexivity. clearbody x y m.
  destruct (qltb (x - y) (Q2Qc 0)) eqn:E.
  - apply qltb_spec in E. assert (E' : (x - y < 0)%Qc) by exact E. clear E. clear -E' Z. split; [intros H; split; qlin|intros [H1 H2]; clear H1; qlin].
  - apply qltb_false in E. assert (E' : (0 <= x - y)%Qc) by exact E. clear E. clear -E' Z. split; [intros H; split; qlin|intros [H1 H2]; exact H1].
Qed.
Lemma cs_eqb_eq x y : cs_eqb x y = true <-> x = y.
Proof. destruct x, y; cbn; split; intros; congruence. Qed.

Lemma check_equivalence_ok b1 b2 R1 R2 : base_ok b1 -> base_ok b2 -> surfaces cells b1 R1 -> surfaces cells b2 R2 -> numbered cells b1 R1 -> numbered cells b2 R2 ->
  (check_equivalence R1 R2 = true <-> distinct cells R1 /\ distinct cells R2 /\
   (forall r, In r R1 -> exists s, In s R2 /\ same cells r s /\ similar r s) /\ (forall s, In s R2 -> exists r, In r R1 /\ same cells r s)).
Proof.
  intros B1 B2 S1 S2 U1 U2. unfold check_equivalence. rewrite !andb_true_iff, !Nat.eqb_eq. 
  assert (ZL : forall R, length (zset (map d_idx R)) = length R <-> NoDup (map d_idx R)) by (intros R; rewrite <- zset_length, map_length; reflexivity).
  rewrite !ZL, (numbered_idx b1 R1 B1 S1 U1), (numbered_idx b2 R2 B2 S2 U2), !distinct_vec, forallb_forall.
  pose proof (sort_idx_perm R1) as P1. pose proof (sort_idx_perm R2) as P2. set (T1 := sort_idx R1) in *. set (T2 := sort_idx R2) in *.
  assert (I1 : forall r, In r T1 <-> In r R1) by (intros r; split; [apply (Permutation_in _ P1)|apply (Permutation_in _ (Permutation_sym P1))]).
  assert (I2 : forall r, In r T2 <-> In r R2) by (intros r; split; [apply (Permutation_in _ P2)|apply (Permutation_in _ (Permutation_sym P2))]).
  assert (Pair : forall d1 d2, In (d1, d2) (combine T1 T2) ->
    (negb (qltb margin (qabs (d_energy d1 - d_energy d2))) && forallb (fun c => cs_eqb (get_charge_state d1 c) (get_charge_state d2 c)) (d_order d1) = true <-> similar d1 d2 /\ same cells d1 d2)).
  { intros d1 d2 H. rewrite andb_true_iff, similar_spec. apply in_combine_l in H. apply I1 in H. rewrite (proj1 (S1 d1 H)). rewrite forallb_forall.
    apply and_iff_compat_l. split; intros X c Hc; apply cs_eqb_eq || apply cs_eqb_eq; apply X, Hc. }
  split.
  - intros ((((L & _) & N1) & N2) & F). split; [exact N1|]. split; [exact N2|].
    assert (LT : length T1 = length T2) by (rewrite (Permutation_length P1), (Permutation_length P2); exact L).
    split.
    + intros r Hr. apply I1 in Hr. destruct (In_nth T1 r r Hr) as (i & Hi & Ei). exists (nth i T2 r).
      assert (Hp : In (r, nth i T2 r) (combine T1 T2)).
      { rewrite <- Ei at 1. rewrite <- (combine_nth T1 T2 i r r LT). apply nth_In. rewrite combine_length. lia. }
      specialize (F _ Hp). cbn beta iota in F. apply (Pair _ _ Hp) in F. destruct F as [F1 F2]. split; [apply I2, nth_In; lia|]. split; assumption.
    + intros s Hs. apply I2 in Hs. destruct (In_nth T2 s s Hs) as (i & Hi & Ei). exists (nth i T1 s).
      assert (Hp : In (nth i T1 s, s) (combine T1 T2)).
      { rewrite <- Ei at 2. rewrite <- (combine_nth T1 T2 i s s LT). apply nth_In. rewrite combine_length. lia. }
      specialize (F _ Hp). cbn beta iota in F. apply (Pair _ _ Hp) in F. destruct F as [F1 F2]. split; [apply I1, nth_In; lia|exact F2].
  - intros (N1 & N2 & W1 & W2).
    assert (V : forall v, In v (map vec R1) <-> In v (map vec R2)).
    { intros v. rewrite !in_map_iff. split.
      - intros (r & <- & Hr). destruct (W1 r Hr) as (s & Hs & Sa & _). exists s. split; [symmetry; apply vec_same, Sa|exact Hs].
      - intros (s & <- & Hs). destruct (W2 s Hs) as (r & Hr & Sa). exists r. split; [apply vec_same, Sa|exact Hr]. }
    assert (L : length R1 = length R2).
    { rewrite <- (map_length vec R1), <- (map_length vec R2). apply Nat.le_antisymm; apply NoDup_incl_length; try assumption; intros v Hv; apply V, Hv. }
    split; [|].
    + split; [split; [split; [exact L|]|exact N1]|exact N2]. destruct R1 as [|x1 R1'], R2 as [|x2 R2']; auto. rewrite (proj1 (S1 x1 (or_introl eq_refl))), (proj1 (S2 x2 (or_introl eq_refl))). apply Nat.eqb_refl.
    + assert (E : map vec T1 = map vec T2).
      { apply (sorted_perm_eq lex lex_digits); [apply (sorted_vec b1); assumption|apply (sorted_vec b2); assumption|].
        intros v. rewrite !in_map_iff. specialize (V v). rewrite !in_map_iff in V. split.
        - intros (r & Er & Hr). apply I1 in Hr. destruct (proj1 V (ex_intro _ r (conj Er Hr))) as (s & Es & Hs). exists s. split; [exact Es|apply I2, Hs].
        - intros (r & Er & Hr). apply I2 in Hr. destruct (proj2 V (ex_intro _ r (conj Er Hr))) as (s & Es & Hs). exists s. split; [exact Es|apply I1, Hs]. }
      intros (d1, d2) Hp. apply (Pair _ _ Hp).
      assert (Q : vec d1 = vec d2).
      { clear -E Hp. generalize dependent T2. generalize T1. clear. intros T1. induction T1 as [|x T1 IH]; intros [|y T2] E H; try contradiction. cbn [map] in E. injection E as E1 E2.
        destruct H as [H|H]; [injection H as <- <-; exact E1|apply (IH T2 E2 H)]. }
      pose proof (in_combine_l _ _ _ _ Hp) as H1. apply I1 in H1. pose proof (in_combine_r _ _ _ _ Hp) as H2. apply I2 in H2.
      destruct (W1 d1 H1) as (s & Hs & Sa & Si). assert (s = d2).
      { apply vec_same in Sa. rewrite Q in Sa. clear -N2 Hs H2 Sa. apply In_nth with (d := s) in Hs. apply In_nth with (d := s) in H2. destruct Hs as (i & Hi & Ei). destruct H2 as (j & Hj & Ej).
        pose proof (proj1 (NoDup_nth (map vec R2) (vec s)) N2 i j) as X. rewrite !map_length, !map_nth, Ei, Ej in X. specialize (X Hi Hj (eq_sym Sa)). subst j. congruence. }
      subst s. split; [exact Si|apply vec_same, Q].
Qed.
End Compare.

(** ** Positively charged SiDBs *)
Lemma all_int d s : d_int (assign_all_charge_states d s) = d_int d.
Proof. unfold assign_all_charge_states. destruct (to_index_shape (set_charge d (map (fun _ => s) (d_charge d)))) as (i & u & ->). reflexivity. Qed.
Lemma existsb_false {A} (P : A -> bool) l : existsb P l = false -> forall x, In x l -> P x = false.
Proof. intros H x Hx. destruct (P x) eqn:E; [|reflexivity]. assert (X : existsb P l = true) by (apply existsb_exists; exists x; auto). congruence. Qed.
Section Positive.
Context (phi : Qc -> Qc -> coord -> coord -> Qc) (Po : forall e l a c, (0 <= phi e l a c)%Qc) (cells : list coord) (N : NoDup cells) (p : params).
Lemma negative_surface d0 A : Ok phi cells d0 A -> forall i, (i < length cells)%nat ->
  let d := assign_all_charge_states (assign_physical_parameters phi d0 p) NEG in c_dist A = (fun _ => NEG) ->
  qltb (positive_lower d i) (minus_int d i) =
  qltb (c_ext A (nth i cells dead0) - mu_plus p - margin)%Qc (- lp phi p cells (defect_field phi (c_defects A)) (fun _ => NEG) (nth i cells dead0))%Qc.
Proof.
  intros O i Hi. cbv zeta. intros E. pose proof (core_ok phi cells _ _ O) as C0. rewrite E in C0.
  destruct (core_params phi cells N d0 _ _ _ _ p C0) as (C1 & J1 & _). set (d1 := assign_physical_parameters phi d0 p) in *. clearbody d1. clear C0 O.
  destruct (core_all phi cells N d1 _ _ _ _ NEG ltac:(discriminate) C1) as (C2 & _). rewrite <- (all_int d1 NEG) in J1.
  set (d2 := assign_all_charge_states d1 NEG) in *. clearbody d2. pose proof (st_bounds _ _ _ _ _ _ (co_static _ _ _ _ _ _ _ C2)) as B. clear C2 C1.
  unfold minus_int, positive_lower, bound. rewrite J1, B. rewrite !(nth_map _ cells i dead0) by exact Hi. reflexivity.
Qed.
Lemma low_positive defs f c : (- (margin) < mu_plus p - (potential phi p cells defs f c + 0))%Qc ->
  qltb (0 - mu_plus p - margin)%Qc (- lp phi p cells (defect_field phi defs) (fun _ => NEG) c)%Qc = true.
Proof.
  intros H. apply qltb_spec. pose proof (lp_low phi Po p cells defs f c) as Lw. unfold lp in Lw at 2. fold (potential phi p cells defs f c) in Lw.
  set (x := lp phi p cells (defect_field phi defs) (fun _ => NEG) c) in *. set (y := potential phi p cells defs f c) in *. set (z := mu_plus p) in *. set (m := margin) in *. clearbody x y z m.
  clear -H Lw. qlin.
Qed.
End Positive.
Lemma no_positive phi (Po : forall e l a c, (0 <= phi e l a c)%Qc) k l p (Hl : proper_layout l) :
  can_positive_charges_occur phi k l p = false -> forall f, (forall a, In a (l_cells l) -> population_stable phi p (l_cells l) (l_defects l) (fun _ => 0%Qc) f a) ->
  forall c, In c (l_cells l) -> f c <> POS.
Proof.
  intros C f Pf c Hc E. pose proof (sort_perm (k_ltb k) (l_cells l)) as Pm. pose proof (sorted_nodup k l (pl_cells _ Hl)) as N.
  destruct (new_surface_ok phi k l default_params NEG Hl ltac:(right; reflexivity) ltac:(discriminate)) as (O & _).
  unfold can_positive_charges_occur in C. remember (new_surface phi k l default_params NEG) as d0 eqn:E0. clear E0.
  remember (sort_cells (k_ltb k) (l_cells l)) as cells eqn:Ec.
  assert (Hc' : In c cells) by (apply (Permutation_in _ (Permutation_sym Pm)), Hc).
  destruct (In_nth cells c dead0 Hc') as (i & Hi & Ei).
  pose proof (existsb_false _ _ C i) as X. rewrite in_seq in X. specialize (X ltac:(rewrite <- (Permutation_length Pm); clear -Hi; lia)). cbn beta in X. clear C.
  pose proof (negative_surface phi cells N p d0 _ O i Hi eq_refl) as Q. cbv zeta in Q. rewrite Q, Ei in X. clear Q.
  cbn [surface_conf c_ext c_defects] in X. specialize (Pf c Hc). unfold population_stable in Pf. rewrite E in Pf.
  rewrite <- (potential_perm phi p cells (l_cells l) _ (l_defects l) f c Pm (filter_field phi _)) in Pf.
  apply (low_positive phi Po) in Pf. rewrite Pf in X. discriminate X.
Qed.
