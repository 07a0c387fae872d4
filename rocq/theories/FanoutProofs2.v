(** Fan-out substitution: fan-out trees. *)
From Coq Require Import ZArith Bool List Lia Permutation.
From stdpp Require Import gmap list.
From Verif Require Import FanoutModel FanoutSpec FanoutProofs.
Import ListNotations.

Section trees.
Context (sem : nat -> list bool -> option bool) (Hbuf : buffers sem) (net : tnet) (ps : fparams) (rnd : nat -> nat).
Notation d := (ps_degree ps).
Context (Hd : 2 <= d).
Notation dpis := (seq 2 (length (t_pis net))).
Notation fs st := (fsize (f_nodes st) (f_pos st)).

(** The network under construction: [own] gives the source node of each node. *)
Record base (st : fstate) (own : list nat) : Prop := mkBase {
  b_len : length own = length (f_nodes st);
  b_scoped : scoped (f_nodes st) (f_pos st);
  b_val : forall i n env b, own !! i = Some n -> value sem (mkT (f_nodes st) dpis []) env i b <-> value sem net env n b
}.
Lemma base_push st own lit ch n : base st own -> (forall c, In c ch -> c < length own) ->
  (forall env b, (exists vs, Forall2 (value sem (mkT (f_nodes st) dpis []) env) ch vs /\ sem lit vs = Some b) <-> value sem net env n b) ->
  base (push st (TGate lit ch)) (own ++ [n]).
Proof.
  intros [A B C] Hc Hv. rewrite A in Hc. constructor; cbn [push f_nodes f_pos].
  - rewrite !app_length, A. reflexivity.
  - apply scoped_push; assumption.
  - intros i m env b Hi. apply lookup_app_Some in Hi as [Hi|[Hl Hi]].
    + rewrite <- (C _ _ env b Hi). eapply value_old; [exact B|]. apply lookup_lt_Some in Hi. lia.
    + destruct (i - length own) as [|k] eqn:E; [|destruct k; discriminate Hi]. injection Hi as ->. assert (i = length (f_nodes st)) by lia. subst i. rewrite value_new by eassumption. apply Hv.
Qed.
Lemma base_buf st own c n : base st own -> own !! c = Some n -> base (create_buf st c) (own ++ [n]).
Proof using All.
  intros B H. apply base_push; [exact B|intros x [<-|[]]; eapply lookup_lt_Some, H|]. intros env b. rewrite <- (b_val _ _ B c n env b H). split.
  - intros (vs & F & S). inversion F as [|? y ? l Fx Fl]; subst. inversion Fl; subst. rewrite Hbuf in S. injection S as <-. exact Fx.
  - intros V. exists [b]. split; [constructor; [exact V|constructor]|apply Hbuf].
Qed.

Section one.
Context (st0 : fstate) (own0 : list nat) (n r : nat) (Hb0 : base st0 own0) (Hr : own0 !! r = Some n).
Notation L0 := (length (f_nodes st0)).

(** [k] buffers have been added to the tree of [n]. *)
Record grown (k : nat) (st : fstate) : Prop := mkGrown {
  g_nodes : exists bufs, f_nodes st = f_nodes st0 ++ bufs /\ length bufs = k /\ forall x, In x bufs -> exists c, x = TGate 2 [c] /\ (own0 ++ repeat n k) !! c = Some n;
  g_pos : f_pos st = f_pos st0; g_map : f_map st = f_map st0; g_avail : f_avail st = f_avail st0;
  g_base : base st (own0 ++ repeat n k);
  g_total : forall m, total (own0 ++ repeat n k) (f_nodes st) (f_pos st) m = total own0 (f_nodes st0) (f_pos st0) m + (if Nat.eqb m n then k else 0);
  g_fs : forall i, i < L0 -> fs st i = fs st0 i + (if Nat.eqb i r then Nat.min k 1 else 0)
}.
Lemma grown_len k st : grown k st -> length (f_nodes st) = L0 + k.
Proof. intros G. destruct (g_nodes _ _ G) as (bufs & -> & H & _). rewrite app_length. lia. Qed.
Lemma grown_own k st c : grown k st -> L0 <= c < L0 + k -> (own0 ++ repeat n k) !! c = Some n.
Proof using All.
  intros G Hc. pose proof (b_len _ _ Hb0) as E. rewrite lookup_app_r by lia. assert (H : forall k j, j < k -> repeat n k !! j = Some n) by (clear; induction k as [|k IH]; intros [|j] Hj; [lia|lia|reflexivity|apply IH; lia]). apply H. lia.
Qed.
Lemma repeat_S_app {A} (a : A) k : repeat a (S k) = repeat a k ++ [a].
Proof. induction k as [|k IH]; [reflexivity|]. cbn [repeat app] in *. f_equal. exact IH. Qed.
Lemma root_lt : r < L0.
Proof using All. pose proof (lookup_lt_Some _ _ _ Hr). rewrite (b_len _ _ Hb0) in H. exact H. Qed.
Lemma grow_0 : grown 0 st0.
Proof using All.
  constructor; try reflexivity.
  - exists []. rewrite app_nil_r. repeat split. intros x [].
  - cbn. rewrite app_nil_r. exact Hb0.
  - intros m. cbn. rewrite app_nil_r. destruct (Nat.eqb m n); lia.
  - intros i _. cbn. destruct (Nat.eqb i r); lia.
Qed.
Lemma fs_buf st c i : fs (create_buf st c) i = fs st i + (if Nat.eqb c i then 1 else 0).
Proof. cbn [create_buf push f_nodes f_pos]. rewrite fsize_push. cbn. destruct (Nat.eq_dec c i), (Nat.eqb_spec c i); congruence || lia. Qed.
Lemma grow_step k st c : grown k st -> (k = 0 /\ c = r) \/ (1 <= k /\ L0 <= c < L0 + k) -> grown (S k) (create_buf st c).
Proof using All.
  intros G Hc. pose proof (grown_len _ _ G) as Hl. pose proof root_lt as Hrl. assert (Ho : (own0 ++ repeat n k) !! c = Some n).
  { destruct Hc as [[-> ->]|[_ Hc]]; [cbn; rewrite app_nil_r; exact Hr|eapply grown_own; eassumption]. }
  destruct G as [(bufs & E & Lk & Bk) P1 P2 P3 B T F]. constructor; cbn [create_buf push f_nodes f_pos f_map f_avail]; try assumption.
  - exists (bufs ++ [TGate 2 [c]]). rewrite E, app_assoc, app_length. cbn. split; [reflexivity|]. split; [lia|]. intros x Hx. change (n :: repeat n k) with (repeat n (S k)). rewrite repeat_S_app, app_assoc. apply in_app_or in Hx as [Hx|[<-|[]]]; [destruct (Bk x Hx) as (c' & -> & Hc'); exists c'|exists c]; (split; [reflexivity|apply lookup_app_l_Some; assumption]).
  - rewrite repeat_S_app, app_assoc. apply base_buf; assumption.
  - intros m. rewrite repeat_S_app, app_assoc. rewrite total_push; [|apply (b_len _ _ B)|apply (b_scoped _ _ B)|].
    + rewrite T. cbn [t_children List.filter]. unfold owns. rewrite Ho. rewrite (Nat.eqb_sym n m). destruct (Nat.eqb m n); cbn; lia.
    + cbn. intros x [<-|[]]. rewrite <- (b_len _ _ B). eapply lookup_lt_Some, Ho.
  - intros i Hi. pose proof (fs_buf st c i) as Fb. cbn [create_buf push f_nodes f_pos] in Fb. rewrite Fb, (F i Hi). destruct Hc as [[-> ->]|[H1 Hc]].
    + rewrite (Nat.eqb_sym r i). destruct (Nat.eqb i r); cbn; lia.
    + destruct (Nat.eqb_spec c i); [lia|]. destruct (Nat.eqb i r); lia.
Qed.
Lemma fs_new k st : grown k st -> fs st (L0 + k) = 0.
Proof. intros G. apply fsize_fresh; [apply (b_scoped _ _ (g_base _ _ G))|]. rewrite (grown_len _ _ G). lia. Qed.

(** The finished tree. *)
Record tree (k : nat) (st : fstate) (q : list nat) : Prop := mkTree {
  tr_grown : grown k st;
  tr_cap : forall b, L0 <= b < L0 + k -> fs st b <= d /\ (In b q \/ d <= fs st b);
  tr_q : forall b, In b q -> L0 <= b < L0 + k;
  tr_ne : q <> []
}.

Lemma depth_loop : forall k j st q, 1 <= j -> grown j st -> q = seq L0 j -> (forall b, L0 <= b < L0 + j -> fs st b <= 1) -> fs st (L0 + j - 1) = 0 ->
  tree (j + k) (fst (depth_tree k (L0 + j - 1) q st)) (snd (depth_tree k (L0 + j - 1) q st)).
Proof using All.
  induction k as [|k IH]; intros j st q Hj G Hq H1 H0.
  - cbn. rewrite Nat.add_0_r. constructor; [exact G| | |].
    + intros b Hb. split; [specialize (H1 b Hb); lia|]. left. subst q. apply in_seq. lia.
    + intros b Hb. subst q. apply in_seq in Hb. lia.
    + subst q. destruct j; [lia|discriminate].
  - cbn [depth_tree]. pose proof (grown_len _ _ G) as Hl. unfold next_node. rewrite Hl. replace (j + S k) with (S j + k) by lia.
    assert (Hc : (j = 0 /\ L0 + j - 1 = r) \/ (1 <= j /\ L0 <= L0 + j - 1 < L0 + j)) by (right; lia). pose proof (grow_step j st _ G Hc) as G'.
    pose proof (fs_new _ _ G) as Hn. specialize (IH (S j) (create_buf st (L0 + j - 1)) (q ++ [L0 + j])). replace (L0 + S j - 1) with (L0 + j) in IH by lia. apply IH; [lia|exact G'|rewrite seq_S; congruence| |].
    + intros b Hb. rewrite fs_buf. destruct (Nat.eqb_spec (L0 + j - 1) b) as [<-|Hne]; [lia|]. destruct (Nat.eq_dec b (L0 + j)) as [->|]; [lia|]. specialize (H1 b ltac:(lia)). lia.
    + rewrite fs_buf. destruct (Nat.eqb_spec (L0 + j - 1) (L0 + j)); lia.
Qed.
Lemma depth_ok k : 1 <= k -> tree k (fst (depth_tree k r [] st0)) (snd (depth_tree k r [] st0)).
Proof using All.
  intros Hk. destruct k as [|k]; [lia|]. cbn [depth_tree]. unfold next_node. pose proof (grow_step 0 st0 r grow_0 (or_introl (conj eq_refl eq_refl))) as G.
  pose proof (fs_new _ _ grow_0) as Hn. rewrite Nat.add_0_r in Hn. pose proof root_lt. pose proof (depth_loop k 1 (create_buf st0 r) [L0] ltac:(lia) G eq_refl) as D.
  replace (L0 + 1 - 1) with L0 in D by lia. apply D.
  - intros b Hb. replace b with L0 by lia. rewrite fs_buf. destruct (Nat.eqb_spec r L0); lia.
  - rewrite fs_buf. destruct (Nat.eqb_spec r L0); lia.
Qed.

(** The queue (or vector) of the other strategies holds every buffer as often as it has free outputs. *)
Definition slots (j : nat) (st : fstate) (q : list nat) : Prop :=
  grown j st /\ ((j = 0 /\ q = [r]) \/ (1 <= j /\ (forall b, In b q -> L0 <= b < L0 + j) /\ (forall b, L0 <= b < L0 + j -> count_occ Nat.eq_dec q b + fs st b = d) /\ q <> [])).
Lemma count_repeat b c k : count_occ Nat.eq_dec (repeat c k) b = if Nat.eqb c b then k else 0.
Proof. induction k as [|k IH]; cbn; [destruct (Nat.eqb c b); reflexivity|]. rewrite IH. destruct (Nat.eq_dec c b), (Nat.eqb_spec c b); congruence || lia. Qed.
Lemma slots_step j st q c q' : slots j st q -> Permutation q (c :: q') -> slots (S j) (create_buf st c) (q' ++ repeat (next_node st) d).
Proof using All.
  intros [G S] P. pose proof (grown_len _ _ G) as Hl. unfold next_node. rewrite Hl. pose proof (fs_new _ _ G) as Hn. pose proof root_lt as Hrl.
  assert (Hc : (j = 0 /\ c = r) \/ (1 <= j /\ L0 <= c < L0 + j)).
  { destruct S as [[-> ->]|(Hj & A & _)]; [left|right].
    - apply Permutation_length_1_inv in P. injection P as -> _. auto.
    - split; [exact Hj|]. apply A. eapply Permutation_in; [symmetry; exact P|left; reflexivity]. }
  split; [apply grow_step; assumption|]. right. split; [lia|]. destruct S as [[-> ->]|(Hj & A & C & _)].
  - apply Permutation_length_1_inv in P. injection P as -> ->. cbn [app]. split; [intros b Hb; apply repeat_spec in Hb; lia|]. split.
    + intros b Hb. replace b with (L0 + 0) by lia. rewrite count_repeat, Nat.eqb_refl, fs_buf, Hn. destruct (Nat.eqb_spec r (L0 + 0)); lia.
    + destruct d as [|e]; [lia|discriminate].
  - split; [|split].
    + intros b Hb. apply in_app_or in Hb as [Hb|Hb]; [|apply repeat_spec in Hb; lia]. specialize (A b). assert (In b q) by (eapply Permutation_in; [symmetry; exact P|right; exact Hb]). specialize (A H). lia.
    + intros b Hb. rewrite count_occ_app, count_repeat, fs_buf. pose proof (proj1 (Permutation_count_occ Nat.eq_dec _ _) P b) as Q. cbn in Q.
      destruct (Nat.eq_dec b (L0 + j)) as [->|Hne].
      * rewrite Nat.eqb_refl. assert (Z : count_occ Nat.eq_dec q (L0 + j) = 0) by (apply count_occ_not_In; intros H; specialize (A _ H); lia). destruct (Nat.eq_dec c (L0 + j)), (Nat.eqb_spec c (L0 + j)); lia.
      * specialize (C b ltac:(lia)). destruct (Nat.eqb_spec (L0 + j) b); [lia|]. destruct (Nat.eq_dec c b), (Nat.eqb_spec c b); congruence || lia.
    + destruct d as [|e]; [lia|]. cbn. destruct q'; discriminate.
Qed.
Lemma slots_tree k st q : 1 <= k -> slots k st q -> tree k st q.
Proof using All.
  intros Hk [G [[E _]|(_ & A & C & N)]]; [lia|]. constructor; [exact G| |exact A|exact N]. intros b Hb. specialize (C b Hb). split; [lia|].
  destruct (in_dec Nat.eq_dec b q) as [|Hn]; [left; assumption|]. right. apply (count_occ_not_In Nat.eq_dec) in Hn. lia.
Qed.
Lemma slots_ne j st q : slots j st q -> q <> [].
Proof. intros [_ [[_ ->]|(_ & _ & _ & H)]]; [discriminate|exact H]. Qed.
Lemma breadth_loop : forall k j st q, slots j st q -> exists st' q', breadth_tree ps k q st = Some (st', q') /\ slots (j + k) st' q'.
Proof using All.
  induction k as [|k IH]; intros j st q S; cbn [breadth_tree].
  - exists st, q. rewrite Nat.add_0_r. auto.
  - destruct q as [|c q]; [destruct (slots_ne _ _ _ S eq_refl)|]. destruct (IH (1 + j) _ _ (slots_step j st _ c q S (Permutation_refl _))) as (st' & q' & E & S'). exists st', q'. split; [exact E|]. replace (j + Datatypes.S k) with (1 + j + k) by lia. exact S'.
Qed.
Lemma swap_pop_perm i v : i < length v -> Permutation v (nth i v 0 :: swap_pop i v).
Proof.
  intros Hi. unfold swap_pop. destruct (exists_last (l := v)) as (w & x & ->); [intros ->; cbn in Hi; lia|]. rewrite app_length in *. cbn [length] in *. rewrite last_last.
  replace (length w + 1 - 1) with (length w) by lia. destruct (Nat.eq_dec i (length w)) as [->|Hn].
  - rewrite insert_app_r_alt by lia. rewrite take_app. rewrite nth_middle. symmetry. apply Permutation_cons_append.
  - rewrite insert_app_l by lia. rewrite take_app_alt by (rewrite insert_length; reflexivity). rewrite app_nth1 by lia.
    assert (Hw : w !! i = Some (nth i w 0)). { destruct (lookup_lt_is_Some_2 w i ltac:(lia)) as (y & Hy). rewrite Hy. f_equal. symmetry. rewrite <- (nth_lookup_Some w i 0 y Hy). reflexivity. }
    transitivity (x :: w); [symmetry; apply Permutation_cons_append|]. rewrite insert_take_drop by lia. rewrite <- (take_drop_middle w i _ Hw) at 1.
    rewrite (Permutation_middle (take i w) (drop (S i) w) (nth i w 0)) || idtac. 
    etransitivity; [apply perm_skip; symmetry; apply Permutation_middle|]. etransitivity; [apply perm_swap|]. apply perm_skip. apply Permutation_middle.
Qed.
Lemma grown_draws k st x : grown k st -> grown k (mkF (f_nodes st) (f_pos st) (f_map st) (f_avail st) x).
Proof. intros [A B C D E F G]. destruct E as [E1 E2 E3]. constructor; cbn [f_nodes f_pos f_map f_avail]; try assumption. constructor; assumption. Qed.
Lemma random_loop : forall k j st q, slots j st q -> exists st' q', random_tree ps rnd k q st = Some (st', q') /\ slots (j + k) st' q'.
Proof using All.
  induction k as [|k IH]; intros j st q S; cbn [random_tree].
  - exists st, q. rewrite Nat.add_0_r. auto.
  - destruct q as [|c q]; [destruct (slots_ne _ _ _ S eq_refl)|]. set (v := c :: q) in *. cbv zeta. set (i := rnd (f_draws st) mod length v).
    assert (Hi : i < length v) by (apply Nat.mod_upper_bound; discriminate). pose proof (slots_step j st v _ _ S (swap_pop_perm i v Hi)) as S1.
    match goal with |- context[random_tree ps rnd k ?a ?b] => destruct (IH (1 + j) b a) as (st' & q' & E & S') end.
    + destruct S1 as [G1 S1]. split; [apply grown_draws, G1|exact S1].
    + exists st', q'. split; [exact E|]. replace (j + Datatypes.S k) with (1 + j + k) by lia. exact S'.
Qed.
Lemma slots_0 : slots 0 st0 [r].
Proof using All. split; [apply grow_0|left; auto]. Qed.
Lemma tree_ok k : 1 <= k -> exists st q, match ps_strategy ps with
     | DEPTH => Some (depth_tree k r [] st0) | BREADTH => breadth_tree ps k [r] st0 | RANDOM => random_tree ps rnd k [r] st0 end = Some (st, q) /\ tree k st q.
Proof using All.
  intros Hk. destruct (ps_strategy ps).
  - destruct (breadth_loop k 0 st0 [r] slots_0) as (st & q & E & S). exists st, q. split; [exact E|apply slots_tree; assumption].
  - destruct (depth_tree k r [] st0) as [st q] eqn:E. pose proof (depth_ok k Hk) as T. rewrite E in T. exists st, q. auto.
  - destruct (random_loop k 0 st0 [r] slots_0) as (st & q & E & S). exists st, q. split; [exact E|apply slots_tree; assumption].
Qed.
End one.
End trees.
