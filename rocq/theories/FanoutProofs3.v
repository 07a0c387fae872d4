(** Fan-out substitution: the invariant of the construction. *)
From Coq Require Import ZArith Bool List Lia Permutation.
From stdpp Require Import gmap list.
From Verif Require Import FanoutModel FanoutSpec FanoutProofs FanoutProofs2.
Import ListNotations.

Section main.
Context (sem : nat -> list bool -> option bool) (Hbuf : buffers sem) (net : tnet) (ps : fparams) (rnd : nat -> nat).
Notation d := (ps_degree ps).
Notation thr := (ps_threshold ps).
Context (Hd : 2 <= d) (Hsmall : small net ps).
Notation dpis := (seq 2 (length (t_pis net))).
Notation fs st := (fsize (f_nodes st) (f_pos st)).
Notation fo := (fanout_size net).
Notation base := (base sem net).

(** The number of buffers a node gets. *)
Definition kk (n : nat) : nat := if is_fanout net n && Nat.leb (fo n) d then 0 else num_fanouts net ps n.
Lemma i32_small z : (0 <= z < 2 ^ 31)%Z -> i32 z = z.
Proof. intros H. unfold i32. rewrite Z.mod_small by lia. lia. Qed.
Lemma kk_enough n : (is_fanout net n = true /\ fo n <= d /\ kk n = 0) \/ fo n <= thr + kk n * (d - 1).
Proof using All.
  unfold kk. destruct (is_fanout net n && Nat.leb (fo n) d) eqn:E.
  - apply andb_true_iff in E as [E1 E2]. apply Nat.leb_le in E2. auto.
  - right. destruct Hsmall as (S1 & S2 & S3). unfold num_fanouts. rewrite !i32_small by (specialize (S3 n); lia). set (a := Z.max (Z.of_nat (fo n) - Z.of_nat thr) 0). set (b := Z.max (Z.of_nat d - 1) 1). clear - Hd a b.
    assert (Hb : (b = Z.of_nat (d - 1))%Z) by lia. assert (Hb1 : (1 <= b)%Z) by lia. assert (Ha : (Z.of_nat (fo n) - Z.of_nat thr <= a)%Z) by lia. assert (Ha0 : (0 <= a)%Z) by lia. clearbody a.
    assert (H : (a <= (a + b - 1) / b * b)%Z) by (Z.div_mod_to_equations; nia). assert (0 <= (a + b - 1) / b)%Z by (apply Z.div_pos; lia).
    enough (Z.of_nat (fo n) <= Z.of_nat (thr + Z.to_nat ((a + b - 1) / b) * (d - 1)))%Z by lia. rewrite Nat2Z.inj_add, Nat2Z.inj_mul, Z2Nat.id by assumption. rewrite <- Hb. lia.
Qed.

Definition same_kind (own : list nat) (x y : tnode) : Prop :=
  match x, y with TConst a, TConst b => a = b | TPi, TPi => True | TGate l ch, TGate l' ch' => l = l' /\ Forall2 (fun f f' => own !! f' = Some f) ch ch' | _, _ => False end.
Lemma same_kind_app own more x y : same_kind own x y -> same_kind (own ++ more) x y.
Proof. destruct x, y; cbn; auto. intros [-> F]. split; [reflexivity|]. eapply Forall2_impl; [exact F|]. cbn. intros a b H. apply lookup_app_l_Some, H. Qed.
Definition kt (treed : list nat) (n : nat) : nat := if in_dec Nat.eq_dec n treed then kk n else 0.

Record inv (st : fstate) (own known treed refs : list nat) : Prop := mkInv {
  i_base : base st own;
  i_map : forall n r, f_map st !! n = Some r -> own !! r = Some n;
  i_known : forall n, In n known -> exists r, f_map st !! n = Some r;
  i_own : forall i n, own !! i = Some n -> In n known;
  i_refs : forall n, In n refs -> In n known;
  i_treed : forall n, In n treed -> In n known;
  i_total : forall n, total own (f_nodes st) (f_pos st) n = kt treed n + count_occ Nat.eq_dec refs n;
  i_size : forall n, In n known -> length (owned own n) = 1 + kt treed n;
  i_avail : forall n q, f_avail st !! n = Some q -> In n treed /\ forall b, In b q -> own !! b = Some n /\ f_map st !! n <> Some b;
  i_full : forall n b, own !! b = Some n -> f_map st !! n <> Some b -> exists q, f_avail st !! n = Some q /\ (In b q \/ d <= fs st b);
  i_kind : forall n b, own !! b = Some n -> exists y, f_nodes st !! b = Some y /\
     ((f_map st !! n = Some b /\ exists x, t_nodes net !! n = Some x /\ same_kind own x y) \/ (f_map st !! n <> Some b /\ exists c, y = TGate 2 [c] /\ own !! c = Some n))
}.
(** The limits of the uses. *)
Definition lim (st : fstate) (own : list nat) : Prop :=
  forall n b, own !! b = Some n -> t_is_constant net n = false ->
    (f_map st !! n = Some b /\ (fs st b <= thr \/ (is_fanout net n = true /\ fo n <= d))) \/ (f_map st !! n <> Some b /\ fs st b <= d).

Lemma old2new_known st own known treed refs n : inv st own known treed refs -> In n known -> f_map st !! n = Some (old2new st n).
Proof. intros I H. destruct (i_known _ _ _ _ _ I n H) as (r & E). unfold old2new. rewrite E. reflexivity. Qed.

(** *** Choosing a node for a reference *)
Definition picked (st : fstate) (own : list nat) (f f' : nat) : Prop :=
  own !! f' = Some f /\
  (t_is_constant net f = true \/ (f_map st !! f = Some f' /\ (fs st f' < thr \/ (is_fanout net f = true /\ fo f <= d))) \/ (f_map st !! f <> Some f' /\ fs st f' < d)).
Lemma find_fanout_spec st q : match find_fanout ps st q with Some c => In c q /\ fs st c < d | None => forall c, In c q -> d <= fs st c end.
Proof.
  induction q as [|c q IH]; cbn [find_fanout]; [intros ? []|]. destruct (Nat.leb_spec d (fs st c)).
  - destruct (find_fanout ps st q) as [x|]; [split; [right; apply IH|apply IH]|]. intros x [<-|Hx]; auto.
  - split; [left; reflexivity|assumption].
Qed.
Lemma full_sum st own known treed refs n r : inv st own known treed refs -> f_map st !! n = Some r -> In n known ->
  thr <= fs st r -> (forall b, own !! b = Some n -> f_map st !! n <> Some b -> d <= fs st b) -> thr + kt treed n * (d - 1) <= count_occ Nat.eq_dec refs n.
Proof using Hd.
  intros I Hr Hk Ht Hf. pose proof (i_total _ _ _ _ _ I n) as T. unfold total in T. pose proof (i_size _ _ _ _ _ I n Hk) as S.
  assert (Hin : In r (owned own n)) by (apply owned_In, (i_map _ _ _ _ _ I), Hr). destruct (sum_split (fs st) r (owned own n) (owned_NoDup _ _) Hin) as [A B].
  rewrite A in T. rewrite B in S. assert (G : d * length (List.remove Nat.eq_dec r (owned own n)) <= list_sum (map (fs st) (List.remove Nat.eq_dec r (owned own n)))).
  { apply sum_ge. intros i Hi. apply List.in_remove in Hi as [Hi Hne]. apply owned_In in Hi. apply Hf; [exact Hi|]. congruence. }
  injection S as S. rewrite S in G. destruct d as [|e]; [lia|]. rewrite Nat.mul_comm in G. nia.
Qed.
Lemma get_fanout_ok st own known treed refs f : inv st own known treed refs -> In f known -> (In f treed /\ count_occ Nat.eq_dec refs f < fo f) \/ t_is_constant net f = true ->
  (forall m, In m treed -> t_is_constant net m = false) ->
  exists f', get_fanout ps st f = Some f' /\ picked st own f f'.
Proof using All.
  intros I Hk Hf Ht. pose proof (old2new_known _ _ _ _ _ f I Hk) as Hr. unfold get_fanout. set (r := old2new st f) in *. pose proof (i_map _ _ _ _ _ I _ _ Hr) as Ho.
  destruct (Nat.leb_spec thr (fs st r)) as [Hle|Hlt].
  2:{ exists r. split; [reflexivity|]. split; [exact Ho|]. right. left. auto. }
  destruct (f_avail st !! f) as [q|] eqn:Ea; cbn [default].
  - destruct (i_avail _ _ _ _ _ I _ _ Ea) as [It Iq]. destruct Hf as [[_ Hc]|Hf]; [|rewrite (Ht _ It) in Hf; discriminate Hf].
    pose proof (find_fanout_spec st q) as F. destruct (find_fanout ps st q) as [c|] eqn:E.
    + destruct F as [F1 F2]. destruct (Iq c F1) as [G1 G2]. exists c. destruct q as [|x q]; [destruct F1|]. split; [exact E|]. split; [exact G1|]. right. right. auto.
    + assert (Full : forall b, own !! b = Some f -> f_map st !! f <> Some b -> d <= fs st b).
      { intros b H1 H2. destruct (i_full _ _ _ _ _ I f b H1 H2) as (q' & E' & H). rewrite Ea in E'. injection E' as <-. destruct H as [H|H]; [apply F, H|exact H]. }
      pose proof (full_sum _ _ _ _ _ _ _ I Hr Hk Hle Full) as FS. unfold kt in FS. destruct (in_dec Nat.eq_dec f treed); [|contradiction]. destruct (kk_enough f) as [(K1 & K2 & K3)|K]; [|lia].
      destruct q as [|x q].
      * exists r. split; [reflexivity|]. split; [exact Ho|]. right. left. auto.
      * exfalso. destruct (Iq x (or_introl eq_refl)) as [G1 G2]. pose proof (i_size _ _ _ _ _ I f Hk) as S. unfold kt in S. destruct (in_dec Nat.eq_dec f treed); [|contradiction]. rewrite K3 in S.
        assert (A : In x (owned own f)) by (apply owned_In, G1). assert (B : In r (owned own f)) by (apply owned_In, Ho). destruct (owned own f) as [|y [|z l]]; [destruct A| |discriminate S]. destruct A as [<-|[]], B as [->|[]]. congruence.
  - exists r. split; [reflexivity|]. split; [exact Ho|]. destruct Hf as [[It Hc]|Hf]; [|left; exact Hf]. right. left. split; [exact Hr|]. right.
    assert (Full : forall b, own !! b = Some f -> f_map st !! f <> Some b -> d <= fs st b). { intros b H1 H2. destruct (i_full _ _ _ _ _ I f b H1 H2) as (q' & E' & H). congruence. }
    pose proof (full_sum _ _ _ _ _ _ _ I Hr Hk Hle Full) as FS. unfold kt in FS. destruct (in_dec Nat.eq_dec f treed); [|contradiction]. destruct (kk_enough f) as [(K1 & K2 & K3)|K]; [auto|lia].
Qed.

(** *** A fan-out tree *)
Lemma kt_cons treed n m : kt (n :: treed) m = if Nat.eqb m n then kk n else kt treed m.
Proof.
  unfold kt. destruct (Nat.eqb_spec m n) as [->|Hne].
  - destruct (in_dec Nat.eq_dec n (n :: treed)) as [|H]; [reflexivity|]. destruct H. left. reflexivity.
  - destruct (in_dec Nat.eq_dec m (n :: treed)) as [[H|H]|H], (in_dec Nat.eq_dec m treed) as [K|K]; try reflexivity; try congruence; try contradiction. destruct H. right. exact K.
Qed.
Lemma kt_none treed n : ~ In n treed -> kt treed n = 0.
Proof. intros H. unfold kt. destruct (in_dec Nat.eq_dec n treed); [contradiction|reflexivity]. Qed.
Lemma owned_repeat own m k n : length (owned (own ++ repeat m k) n) = length (owned own n) + (if Nat.eqb n m then k else 0).
Proof.
  induction k as [|k IH]; [cbn; rewrite app_nil_r; destruct (Nat.eqb n m); lia|]. rewrite repeat_S_app, app_assoc, owned_push, app_length, IH, (Nat.eqb_sym m n). destruct (Nat.eqb n m); cbn; lia.
Qed.
Lemma lookup_own_app (own : list nat) m k b n : (own ++ repeat m k) !! b = Some n -> (own !! b = Some n /\ b < length own) \/ (n = m /\ length own <= b < length own + k).
Proof.
  intros H. apply lookup_app_Some in H as [H|[Hl H]]; [left; split; [exact H|eapply lookup_lt_Some, H]|]. right. pose proof (lookup_lt_Some _ _ _ H) as Hk. rewrite repeat_length in Hk. split; [|lia].
  apply elem_of_list_lookup_2, elem_of_list_In, repeat_spec in H. exact H.
Qed.
Lemma gen_step st own known treed refs n : inv st own known treed refs -> In n known -> ~ In n treed -> ~ In n refs ->
  exists st' own', generate_fanout_tree net ps rnd n st = Some st' /\ inv st' own' known (n :: treed) refs /\ f_pos st' = f_pos st /\ f_map st' = f_map st /\ (1 <= thr -> lim st own -> lim st' own').
Proof using All.
  intros I Hk Ht Hrf. pose proof (old2new_known _ _ _ _ _ n I Hk) as Hr. unfold generate_fanout_tree. set (r := old2new st n) in *.
  assert (Same : kk n = 0 -> inv st own known (n :: treed) refs).
  { intros K. assert (E : forall m, kt (n :: treed) m = kt treed m) by (intros m; rewrite kt_cons; destruct (Nat.eqb_spec m n) as [->|]; [rewrite K, kt_none by assumption; reflexivity|reflexivity]).
    destruct I. constructor; auto.
    - intros m [<-|H]; auto.
    - intros m. rewrite E. auto.
    - intros m. rewrite E. auto.
    - intros m q Hq. destruct (i_avail0 m q Hq). split; [right; assumption|assumption]. }
  unfold kk in Same. destruct (is_fanout net n && Nat.leb (fo n) d) eqn:Esk; [exists st, own; auto 8|]. destruct (Nat.eqb_spec (num_fanouts net ps n) 0) as [E0|E0]; [exists st, own; auto 8|]. clear Same.
  pose proof (i_map _ _ _ _ _ I _ _ Hr) as Ho. pose proof (i_base _ _ _ _ _ I) as B.
  destruct (tree_ok sem Hbuf net ps rnd Hd st own n r B Ho (num_fanouts net ps n) ltac:(lia)) as (st1 & q & E & T). set (k := num_fanouts net ps n) in *. assert (Hkk : kk n = k) by (unfold kk; rewrite Esk; reflexivity).
  rewrite E. clear E. exists (set_avail st1 n q), (own ++ repeat n k). split; [reflexivity|]. destruct T as [G Cap Q Ne]. pose proof (b_len _ _ _ _ B) as Hlen. pose proof (grown_len _ _ ps Hd _ _ _ _ _ _ G) as Hl1.
  pose proof (lookup_lt_Some _ _ _ Ho) as Hrl.
  assert (Hnone : f_avail st !! n = None). { destruct (f_avail st !! n) as [q'|] eqn:E; [|reflexivity]. destruct (i_avail _ _ _ _ _ I _ _ E) as [H _]. contradiction. }
  assert (Hnew : forall b, length own <= b < length own + k -> (own ++ repeat n k) !! b = Some n). { intros b Hb. eapply (grown_own sem Hbuf net ps rnd Hd st own n r B Ho); [exact G|]. lia. }
  assert (Hroot : fs st r = 0).
  { pose proof (i_total _ _ _ _ _ I n) as Tn. rewrite kt_none in Tn by exact Ht. rewrite (proj1 (count_occ_not_In Nat.eq_dec _ _) Hrf) in Tn. unfold total in Tn. destruct (sum_split (fs st) r (owned own n) (owned_NoDup _ _)) as [A _]; [apply owned_In, Ho|]. lia. }
  assert (Hold : forall m b, own !! b = Some m -> m <> n -> fs st1 b = fs st b).
  { intros m b Hb Hm. rewrite (g_fs _ _ _ _ _ _ _ _ G b); [|rewrite <- Hlen; eapply lookup_lt_Some, Hb]. destruct (Nat.eqb_spec b r) as [->|]; [congruence|lia]. }
  assert (Honly : forall b, own !! b = Some n -> b = r).
  { intros b Hb. pose proof (i_size _ _ _ _ _ I n Hk) as S. rewrite kt_none in S by exact Ht. apply owned_In in Hb. apply owned_In in Ho. destruct (owned own n) as [|y [|z l]]; [destruct Hb| |discriminate S]. destruct Hb as [<-|[]], Ho as [->|[]]. reflexivity. }
  pose proof (g_map _ _ _ _ _ _ _ _ G) as Em. pose proof (g_avail _ _ _ _ _ _ _ _ G) as Eav. pose proof (g_pos _ _ _ _ _ _ _ _ G) as Ep. destruct (g_nodes _ _ _ _ _ _ _ _ G) as (bufs & En & Lb & Kb).
  split; [|split; [cbn; exact Ep|split; [cbn; exact Em|]]].
  - constructor; cbn [set_avail f_nodes f_pos f_map f_avail]; rewrite ?Em, ?Eav.
    + destruct (g_base _ _ _ _ _ _ _ _ G) as [X1 X2 X3]. constructor; cbn [set_avail f_nodes f_pos]; assumption.
    + intros m x H. rewrite lookup_app_l; [apply (i_map _ _ _ _ _ I), H|]. eapply lookup_lt_Some, (i_map _ _ _ _ _ I), H.
    + apply (i_known _ _ _ _ _ I).
    + intros b m H. apply lookup_own_app in H as [[H _]|[-> _]]; [apply (i_own _ _ _ _ _ I _ _ H)|exact Hk].
    + apply (i_refs _ _ _ _ _ I).
    + intros m [<-|H]; [exact Hk|apply (i_treed _ _ _ _ _ I), H].
    + intros m. rewrite (g_total _ _ _ _ _ _ _ _ G), (i_total _ _ _ _ _ I m), kt_cons. destruct (Nat.eqb_spec m n) as [->|]; [rewrite kt_none by exact Ht; lia|lia].
    + intros m Hm. rewrite owned_repeat, (i_size _ _ _ _ _ I m Hm), kt_cons. destruct (Nat.eqb_spec m n) as [->|]; [rewrite kt_none by exact Ht; lia|lia].
    + intros m q' H. destruct (Nat.eq_dec m n) as [->|Hne].
      * rewrite lookup_insert in H. injection H as <-. split; [left; reflexivity|]. intros b Hb. specialize (Q b Hb). split; [apply Hnew; lia|]. rewrite Hr. intros [= ->]. lia.
      * rewrite lookup_insert_ne in H by congruence. destruct (i_avail _ _ _ _ _ I _ _ H) as [H1 H2]. split; [right; exact H1|]. intros b Hb. destruct (H2 b Hb) as [H3 H4]. split; [|exact H4]. rewrite lookup_app_l; [exact H3|eapply lookup_lt_Some, H3].
    + intros m b H Hnr. apply lookup_own_app in H as [[H Hb]|[-> Hb]].
      * destruct (Nat.eq_dec m n) as [->|Hne]; [rewrite (Honly b H) in Hnr; contradiction|]. destruct (i_full _ _ _ _ _ I m b H Hnr) as (q' & H1 & H2). exists q'. rewrite lookup_insert_ne by congruence. split; [exact H1|]. rewrite (Hold m b H Hne). exact H2.
      * exists q. rewrite lookup_insert. split; [reflexivity|]. apply Cap. lia.
    + intros m b H. apply lookup_own_app in H as [[H Hb]|[-> Hb]].
      * destruct (i_kind _ _ _ _ _ I m b H) as (y & Hy & K). exists y. split; [rewrite En; apply lookup_app_l_Some, Hy|]. destruct K as [[K1 (x & K2 & K3)]|K]; [left; split; [exact K1|]; exists x; split; [exact K2|apply same_kind_app, K3]|right]. destruct K as [K1 (c' & K2 & K3)]. split; [exact K1|]. exists c'. split; [exact K2|apply lookup_app_l_Some, K3].
      * destruct (lookup_lt_is_Some_2 bufs (b - length (f_nodes st)) ltac:(lia)) as (y & Hy). exists y. split; [rewrite En, lookup_app_r by lia; exact Hy|]. right. split; [rewrite Hr; intros [= ->]; lia|]. apply Kb. eapply elem_of_list_In, elem_of_list_lookup_2, Hy.
  - intros H1 L m b H Hc. cbn [set_avail f_nodes f_pos f_map]. rewrite Em. apply lookup_own_app in H as [[H Hb]|[-> Hb]].
    + destruct (Nat.eq_dec m n) as [->|Hne].
      * rewrite (Honly b H). left. split; [exact Hr|]. left. rewrite (g_fs _ _ _ _ _ _ _ _ G r) by lia. rewrite Nat.eqb_refl, Hroot. lia.
      * rewrite (Hold m b H Hne). apply L; assumption.
    + right. split; [rewrite Hr; intros [= ->]; lia|]. apply Cap. lia.
Qed.

(** *** A gate *)
Lemma value_gate_inv env n b lit ch : t_nodes net !! n = Some (TGate lit ch) -> value sem net env n b <-> exists vs, Forall2 (value sem net env) ch vs /\ sem lit vs = Some b.
Proof.
  intros H. split.
  - intros V. inversion V as [? ? E|? ? E ?|? ? ? vs ? E F S]; subst; rewrite H in E; try discriminate E. injection E as <- <-. eauto.
  - intros (vs & F & S). eapply value_gate; eassumption.
Qed.
Lemma filter_owns (own ch ch' : list nat) m : Forall2 (fun f f' => own !! f' = Some f) ch ch' -> length (List.filter (owns own m) ch') = count_occ Nat.eq_dec ch m.
Proof.
  induction 1 as [|f f' l l' H _ IH]; [reflexivity|]. cbn [List.filter count_occ]. unfold owns at 1. rewrite H. destruct (Nat.eqb_spec f m), (Nat.eq_dec f m); try congruence; cbn; lia.
Qed.
Lemma picked_own st own ch ch' : Forall2 (picked st own) ch ch' -> Forall2 (fun f f' => own !! f' = Some f) ch ch'.
Proof. induction 1 as [|f f' l l' [H _] _ IH]; constructor; assumption. Qed.
Lemma own_lt (own ch ch' : list nat) c : Forall2 (fun f f' => own !! f' = Some f) ch ch' -> In c ch' -> c < length own.
Proof. induction 1 as [|f f' l l' H _ IH]; intros Hc; [destruct Hc|]. destruct Hc as [<-|Hc]; [eapply lookup_lt_Some, H|auto]. Qed.
Lemma picked_count st own ch ch' f b : List.NoDup ch -> Forall2 (picked st own) ch ch' -> own !! b = Some f ->
  count_occ Nat.eq_dec ch' b = 0 \/ (count_occ Nat.eq_dec ch' b = 1 /\ picked st own f b).
Proof.
  intros ND F Hb. induction F as [|g g' l l' P F IH]; [left; reflexivity|]. inversion ND as [|? ? N1 N2]; subst. specialize (IH N2). cbn [count_occ]. destruct (Nat.eq_dec g' b) as [->|]; [|exact IH].
  right. destruct P as [P1 P2]. rewrite Hb in P1. injection P1 as <-. split; [|split; assumption]. enough (count_occ Nat.eq_dec l' b = 0) by lia. apply count_occ_not_In. intros H.
  apply N1. clear - F H Hb. induction F as [|g g' l l' [P _] F IH]; [destruct H|]. destruct H as [->|H]; [left; congruence|right; auto].
Qed.
Lemma gate_push st own known treed refs n lit ch ch' : inv st own known treed refs -> ~ In n known -> t_nodes net !! n = Some (TGate lit ch) ->
  (forall c, In c ch -> In c known) -> Forall2 (picked st own) ch ch' ->
  inv (set_map (push st (TGate lit ch')) n (next_node st)) (own ++ [n]) (n :: known) treed (refs ++ ch) /\
  (List.NoDup ch -> lim st own -> lim (set_map (push st (TGate lit ch')) n (next_node st)) (own ++ [n])).
Proof using All.
  intros I Hn Hx Hc F. pose proof (picked_own _ _ _ _ F) as Fo. pose proof (i_base _ _ _ _ _ I) as B. pose proof (b_len _ _ _ _ B) as Hlen.
  assert (Hlt : forall c, In c ch' -> c < length own) by (intros c H; eapply own_lt; eassumption).
  assert (Hno : forall b, own !! b <> Some n) by (intros b H; apply Hn, (i_own _ _ _ _ _ I _ _ H)).
  assert (Hlook : forall b m, (own ++ [n]) !! b = Some m -> (own !! b = Some m /\ b < length own /\ m <> n) \/ (m = n /\ b = length own)).
  { intros b m H. apply lookup_app_Some in H as [H|[Hl H]]; [left; split; [exact H|split; [eapply lookup_lt_Some, H|intros ->; exact (Hno _ H)]]|]. right. destruct (b - length own) as [|j] eqn:Ej; [|destruct j; discriminate H]. injection H as <-. split; [reflexivity|lia]. }
  assert (Hfs : forall b, fs (set_map (push st (TGate lit ch')) n (next_node st)) b = fs st b + count_occ Nat.eq_dec ch' b) by (intros b; cbn [set_map push f_nodes f_pos]; rewrite fsize_push; reflexivity).
  assert (Hmap : forall m, m <> n -> <[n := next_node st]> (f_map st) !! m = f_map st !! m) by (intros; apply lookup_insert_ne; congruence).
  assert (Htr : ~ In n treed) by (intros H; apply Hn, (i_treed _ _ _ _ _ I), H). assert (Hrf : ~ In n refs) by (intros H; apply Hn, (i_refs _ _ _ _ _ I), H).
  split.
  - constructor.
    + enough (Bp : base (push st (TGate lit ch')) (own ++ [n])) by (destruct Bp as [X1 X2 X3]; constructor; cbn [set_map f_nodes f_pos] in *; assumption).
      apply (base_push sem net ps Hd); [exact B|exact Hlt|]. intros env b. rewrite (value_gate_inv env n b lit ch Hx).
      assert (FF : forall vs, Forall2 (value sem (mkT (f_nodes st) dpis []) env) ch' vs <-> Forall2 (value sem net env) ch vs).
      { clear - Fo B. induction Fo as [|f f' l l' H _ IH]; intros vs; [split; intros X; inversion X; constructor|]. split; intros X; inversion X as [|? y ? r X1 X2]; subst; (constructor; [apply (b_val _ _ _ _ B _ _ env y H), X1|apply IH, X2]). }
      split; intros (vs & V & S); exists vs; (split; [apply FF, V|exact S]).
    + cbn [set_map push f_map]. intros m x H. destruct (Nat.eq_dec m n) as [->|Hne].
      * rewrite lookup_insert in H. injection H as <-. unfold next_node. rewrite <- Hlen, lookup_app_r, Nat.sub_diag by lia. reflexivity.
      * rewrite Hmap in H by assumption. pose proof (i_map _ _ _ _ _ I _ _ H) as H'. rewrite lookup_app_l; [exact H'|eapply lookup_lt_Some, H'].
    + cbn [set_map push f_map]. intros m [<-|H]; [rewrite lookup_insert; eauto|]. rewrite Hmap by (intros ->; contradiction). apply (i_known _ _ _ _ _ I _ H).
    + intros b m H. destruct (Hlook b m H) as [(H1 & _)|[-> _]]; [right; apply (i_own _ _ _ _ _ I _ _ H1)|left; reflexivity].
    + intros m H. apply in_app_or in H as [H|H]; right; [apply (i_refs _ _ _ _ _ I _ H)|apply Hc, H].
    + intros m H. right. apply (i_treed _ _ _ _ _ I _ H).
    + intros m. cbn [set_map push f_nodes f_pos]. rewrite total_push; [|exact Hlen|apply (b_scoped _ _ _ _ B)|intros c H; rewrite <- Hlen; apply Hlt, H]. rewrite (i_total _ _ _ _ _ I m). cbn [t_children]. rewrite (filter_owns _ _ _ _ Fo), count_occ_app. lia.
    + intros m [<-|H].
      * rewrite owned_push, Nat.eqb_refl, app_length. rewrite kt_none by exact Htr. destruct (owned own n) as [|y l] eqn:Eo; [reflexivity|]. exfalso. apply (Hno y), owned_In. rewrite Eo. left. reflexivity.
      * rewrite owned_push. destruct (Nat.eqb_spec n m) as [->|]; [contradiction|]. rewrite app_nil_r. apply (i_size _ _ _ _ _ I _ H).
    + cbn [set_map push f_avail f_map]. intros m q H. destruct (i_avail _ _ _ _ _ I _ _ H) as [H1 H2]. split; [exact H1|]. intros b Hb. destruct (H2 b Hb) as [H3 H4]. rewrite Hmap by (intros ->; contradiction). split; [|exact H4]. rewrite lookup_app_l; [exact H3|eapply lookup_lt_Some, H3].
    + intros m b H Hnr. rewrite Hfs. cbn [set_map push f_avail f_map] in *. destruct (Hlook b m H) as [(H1 & H2 & H3)|[-> ->]].
      * rewrite Hmap in Hnr by assumption. destruct (i_full _ _ _ _ _ I m b H1 Hnr) as (q & Eq & D). exists q. split; [exact Eq|]. destruct D as [D|D]; [left; exact D|right; lia].
      * rewrite lookup_insert in Hnr. unfold next_node in Hnr. congruence.
    + cbn [set_map push f_nodes f_map]. intros m b H. destruct (Hlook b m H) as [(H1 & H2 & H3)|[-> ->]].
      * destruct (i_kind _ _ _ _ _ I m b H1) as (y & Hy & K). exists y. rewrite Hmap by assumption. split; [apply lookup_app_l_Some, Hy|]. destruct K as [[K1 (x & K2 & K3)]|K]; [left; split; [exact K1|]; exists x; split; [exact K2|apply same_kind_app, K3]|right]. destruct K as [K1 (c' & K2 & K3)]. split; [exact K1|]. exists c'. split; [exact K2|apply lookup_app_l_Some, K3].
      * exists (TGate lit ch'). rewrite Hlen. split; [rewrite lookup_app_r, Nat.sub_diag by lia; reflexivity|]. left. rewrite lookup_insert. split; [reflexivity|]. exists (TGate lit ch). split; [exact Hx|]. split; [reflexivity|]. eapply Forall2_impl; [exact Fo|]. cbn. intros a c H'. apply lookup_app_l_Some, H'.
  - intros ND L m b H Hcn. rewrite Hfs. cbn [set_map push f_map]. destruct (Hlook b m H) as [(H1 & H2 & H3)|[-> ->]].
    + rewrite Hmap by assumption. specialize (L m b H1 Hcn). destruct (picked_count st own ch ch' m b ND F H1) as [->|[-> [_ P]]]; [rewrite Nat.add_0_r; exact L|].
      destruct P as [P|[[P1 P2]|[P1 P2]]]; [congruence| |].
      * left. split; [exact P1|]. destruct P2 as [P2|P2]; [left; lia|right; exact P2].
      * right. split; [exact P1|lia].
    + left. rewrite lookup_insert. unfold next_node. rewrite Hlen. split; [reflexivity|]. left. rewrite fsize_fresh; [|apply (b_scoped _ _ _ _ B)|lia].
      rewrite (proj1 (count_occ_not_In Nat.eq_dec _ _)); [lia|]. intros Hx'. specialize (Hlt _ Hx'). lia.
Qed.

(** *** An output *)
Lemma po_push st own known treed refs n f : inv st own known treed refs -> In n known -> picked st own n f ->
  inv (mkF (f_nodes st) (f_pos st ++ [f]) (f_map st) (f_avail st) (f_draws st)) own known treed (refs ++ [n]) /\
  (lim st own -> lim (mkF (f_nodes st) (f_pos st ++ [f]) (f_map st) (f_avail st) (f_draws st)) own).
Proof using All.
  intros I Hn [P1 P2]. pose proof (i_base _ _ _ _ _ I) as B. split.
  - constructor; cbn [f_nodes f_pos f_map f_avail].
    + destruct B as [X1 X2 X3]. constructor; cbn [f_nodes f_pos]; [exact X1| |exact X3]. apply scoped_po; [exact X2|]. rewrite <- X1. eapply lookup_lt_Some, P1.
    + apply (i_map _ _ _ _ _ I).
    + apply (i_known _ _ _ _ _ I).
    + apply (i_own _ _ _ _ _ I).
    + intros m H. apply in_app_or in H as [H|[<-|[]]]; [apply (i_refs _ _ _ _ _ I _ H)|exact Hn].
    + apply (i_treed _ _ _ _ _ I).
    + intros m. rewrite total_po, (i_total _ _ _ _ _ I m), count_occ_app. unfold owns. rewrite P1. cbn. destruct (Nat.eqb_spec n m), (Nat.eq_dec n m); congruence || lia.
    + apply (i_size _ _ _ _ _ I).
    + apply (i_avail _ _ _ _ _ I).
    + intros m b H Hnr. destruct (i_full _ _ _ _ _ I m b H Hnr) as (q & Eq & D). exists q. split; [exact Eq|]. rewrite fsize_po. destruct D as [D|D]; [left; exact D|right; lia].
    + apply (i_kind _ _ _ _ _ I).
  - intros L m b H Hc. cbn [f_nodes f_pos f_map]. rewrite fsize_po. specialize (L m b H Hc). destruct (Nat.eq_dec f b) as [->|]; [|rewrite Nat.add_0_r; exact L].
    rewrite H in P1. injection P1 as ->. destruct P2 as [P2|[[P2 P3]|[P2 P3]]]; [congruence| |].
    + left. split; [exact P2|]. destruct P3 as [P3|P3]; [left; lia|right; exact P3].
    + right. split; [exact P2|lia].
Qed.
End main.
