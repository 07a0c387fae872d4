(** Proofs about SidbModel.v, part 1: rational numbers, sums, vectors indexed by the SiDBs, charge indices. *)
From Coq Require Import ZArith QArith Qcanon Bool List Lia Lqa Permutation.
From Verif Require Import CoordModel CoordProofs UtilModel SidbModel SidbSpec.
Import ListNotations.
Local Open Scope Z_scope.

(** ** Rational numbers *)

Lemma this_add a b : (this (a + b)%Qc == this a + this b)%Q.
Proof. apply Qred_correct. Qed.
Lemma this_opp a : (this (- a)%Qc == - this a)%Q.
Proof. apply Qred_correct. Qed.
Lemma this_sub a b : (this (a - b)%Qc == this a - this b)%Q.
Proof. unfold Qcminus. rewrite this_add, this_opp. reflexivity. Qed.
Lemma this_mul a b : (this (a * b)%Qc == this a * this b)%Q.
Proof. apply Qred_correct. Qed.
Lemma this_half : (this half == 1 # 2)%Q.
Proof. reflexivity. Qed.
Lemma this_margin : (this margin == 1 # 1000000)%Q.
Proof. reflexivity. Qed.
Lemma this_0 : (this (Q2Qc 0) == 0)%Q.
Proof. reflexivity. Qed.
Lemma this_1 : (this (Q2Qc 1) == 1)%Q.
Proof. reflexivity. Qed.
Lemma mu_plus_this p : (this (mu_plus p) == this (p_mu p) - (59 # 100))%Q.
Proof. unfold mu_plus. rewrite this_sub. apply Qplus_inj_l. reflexivity. Qed.

(** Linear arithmetic over Qc; products of variables are atoms. *)
Ltac qpush H :=
  repeat first [ setoid_rewrite this_add in H | setoid_rewrite this_sub in H | setoid_rewrite this_opp in H
               | setoid_rewrite this_half in H | setoid_rewrite this_margin in H | setoid_rewrite mu_plus_this in H ].
Ltac qgoal :=
  repeat first [ rewrite this_add | rewrite this_sub | rewrite this_opp | rewrite this_half | rewrite this_margin
               | rewrite mu_plus_this ].
Ltac qhyps :=
  repeat match goal with
  | H : (this ?a < this ?b)%Q |- _ => revert H
  | H : (this ?a <= this ?b)%Q |- _ => revert H
  | H : (this ?a == this ?b)%Q |- _ => revert H
  end.
Ltac qlin :=
  unfold Qclt, Qcle in *; qhyps; repeat setoid_rewrite this_add; repeat setoid_rewrite this_sub; 
  repeat setoid_rewrite this_opp; repeat setoid_rewrite this_add; repeat setoid_rewrite this_sub; 
  repeat setoid_rewrite this_opp; repeat setoid_rewrite this_half; repeat setoid_rewrite this_margin;
  repeat setoid_rewrite mu_plus_this; repeat setoid_rewrite this_0; repeat setoid_rewrite this_1; intros; lra.

Lemma qltb_spec a b : qltb a b = true <-> (a < b)%Qc.
Proof.
  unfold qltb, Qclt. rewrite negb_true_iff. split.
  - intros H. apply Qnot_le_lt. intros C. apply Qle_bool_iff in C. congruence.
  - intros H. destruct (Qle_bool (this b) (this a)) eqn:E; [|reflexivity]. apply Qle_bool_iff in E.
    exfalso. apply (Qlt_not_le _ _ H E).
Qed.
Lemma qltb_false a b : qltb a b = false <-> (b <= a)%Qc.
Proof.
  unfold qltb, Qcle. rewrite negb_false_iff. apply Qle_bool_iff.
Qed.

Lemma qz_add a b : qz (a + b) = (qz a + qz b)%Qc.
Proof. unfold qz. apply Qc_is_canon. rewrite this_add. cbn [this Q2Qc]. rewrite !Qred_correct. rewrite inject_Z_plus. reflexivity. Qed.
Lemma qz_opp a : qz (- a) = (- qz a)%Qc.
Proof. unfold qz. apply Qc_is_canon. rewrite this_opp. cbn [this Q2Qc]. rewrite !Qred_correct. rewrite inject_Z_opp. reflexivity. Qed.
Lemma qz_sub a b : qz (a - b) = (qz a - qz b)%Qc.
Proof. unfold Z.sub. rewrite qz_add, qz_opp. reflexivity. Qed.
Lemma qz_sgn s : qz (sgn s) = charge s.
Proof. destruct s; apply Qc_is_canon; reflexivity. Qed.
Lemma half_double x : (half * (x + x) = x)%Qc.
Proof. apply Qc_is_canon. rewrite this_mul, this_add, this_half. ring. Qed.
Lemma half_le x y : (half * x < y)%Qc <-> (x < y + y)%Qc.
Proof.
  assert (E : (x = half * x + half * x)%Qc) by (transitivity (half * (x + x))%Qc; [symmetry; apply half_double|ring]).
  split; intros H.
  - rewrite E. qlin.
  - rewrite E in H. qlin.
Qed.
Lemma sgn_digit s : sgn s + 1 = digit s.
Proof. destruct s; reflexivity. Qed.
Lemma charge_lt s t : (charge s < charge t)%Qc <-> sgn s < sgn t.
Proof. destruct s, t; split; intros H; try reflexivity; try lia; try (exfalso; vm_compute in H; congruence). Qed.

(** ** Sums *)

Lemma sumq_map {A} (F : A -> Qc) l : sumq (map F l) = total F l.
Proof. induction l as [|x l IH]; [reflexivity|]. cbn. unfold sumq in IH. rewrite IH. reflexivity. Qed.
Lemma total_cons {A} (F : A -> Qc) x l : total F (x :: l) = (F x + total F l)%Qc.
Proof. reflexivity. Qed.
Lemma total_app {A} (F : A -> Qc) l m : total F (l ++ m) = (total F l + total F m)%Qc.
Proof. induction l as [|x l IH]; cbn [app]; rewrite ?total_cons, ?IH; [cbn; ring|ring]. Qed.
Lemma total_ext {A} (F G : A -> Qc) l : (forall x, In x l -> F x = G x) -> total F l = total G l.
Proof.
  induction l as [|x l IH]; intros H; [reflexivity|]. rewrite !total_cons, (H x), IH; auto using in_eq.
  intros y Hy. apply H. right; exact Hy.
Qed.
Lemma total_perm {A} (F : A -> Qc) l m : Permutation l m -> total F l = total F m.
Proof. induction 1; rewrite ?total_cons; [reflexivity|congruence|ring|congruence]. Qed.
Lemma total_plus {A} (F G : A -> Qc) l : total (fun x => (F x + G x)%Qc) l = (total F l + total G l)%Qc.
Proof. induction l as [|x l IH]; [cbn; ring|]. rewrite !total_cons, IH. ring. Qed.
Lemma total_scale {A} (F : A -> Qc) k l : total (fun x => (k * F x)%Qc) l = (k * total F l)%Qc.
Proof. induction l as [|x l IH]; [cbn; ring|]. rewrite !total_cons, IH. ring. Qed.
Lemma total_0 {A} (l : list A) : total (fun _ => 0%Qc) l = 0%Qc.
Proof. induction l as [|x l IH]; [reflexivity|]. rewrite total_cons, IH. ring. Qed.
Lemma total_map {A B} (F : B -> Qc) (g : A -> B) l : total F (map g l) = total (fun x => F (g x)) l.
Proof. induction l as [|x l IH]; [reflexivity|]. cbn [map]. rewrite !total_cons, IH. reflexivity. Qed.
Lemma total_le {A} (F G : A -> Qc) l : (forall x, In x l -> (F x <= G x)%Qc) -> (total F l <= total G l)%Qc.
Proof.
  induction l as [|x l IH]; intros H; [apply Qcle_refl|]. rewrite !total_cons. apply Qcplus_le_compat; auto using in_eq.
  apply IH. intros y Hy. apply H. right; exact Hy.
Qed.
Lemma total_single {A} (F : A -> Qc) l a : NoDup l -> In a l -> (forall b, In b l -> b <> a -> F b = 0%Qc) ->
  total F l = F a.
Proof.
  induction l as [|x l IH]; intros N I H; [destruct I|]. apply NoDup_cons_iff in N. destruct N as [N1 N2].
  rewrite total_cons. destruct I as [->|I].
  - rewrite (total_ext _ (fun _ => 0%Qc)), total_0; [ring|]. intros b Hb. apply H; [right; exact Hb|]. intros ->. auto.
  - rewrite IH; [|exact N2|exact I|intros b Hb; apply H; right; exact Hb].
    rewrite (H x); [ring|left; reflexivity|intros ->; auto].
Qed.
(** The double sum of a symmetric function without diagonal counts every pair twice. *)
Lemma total_double {A} (F : A -> A -> Qc) l : (forall a b, F a b = F b a) -> (forall a, In a l -> F a a = 0%Qc) ->
  total (fun a => total (F a) l) l = (total_pairs F l + total_pairs F l)%Qc.
Proof.
  intros S. induction l as [|x l IH]; intros D; [cbn; ring|].
  rewrite total_cons. cbn [total_pairs].
  rewrite (total_ext (fun a => total (F a) (x :: l)) (fun a => (F x a + total (F a) l)%Qc) l)
    by (intros a _; rewrite total_cons, (S a x); reflexivity).
  rewrite total_plus, IH by (intros a Ha; apply D; right; exact Ha). rewrite total_cons, (D x (or_introl eq_refl)).
  ring.
Qed.

(** ** Lists *)

Lemma map_seq_nth {A B} (G : A -> B) (l : list A) x : map (fun i => G (nth i l x)) (seq 0 (length l)) = map G l.
Proof.
  induction l as [|a l IH]; [reflexivity|]. cbn [length seq map nth]. f_equal. rewrite <- seq_shift, map_map. exact IH.
Qed.
Lemma map_seq {A B} (G : nat -> B) (H : A -> B) (l : list A) x : (forall i, (i < length l)%nat -> G i = H (nth i l x)) ->
  map G (seq 0 (length l)) = map H l.
Proof.
  intros E. rewrite <- (map_seq_nth H l x). apply map_ext_in. intros i Hi. apply in_seq in Hi. apply E. lia.
Qed.
Lemma forallb_seq {A} (G : nat -> bool) (H : A -> bool) (l : list A) x :
  (forall i, (i < length l)%nat -> G i = H (nth i l x)) -> forallb G (seq 0 (length l)) = forallb H l.
Proof.
  intros E. pose proof (map_seq G H l x E) as M.
  assert (F : forall (B : Type) (K : B -> bool) m, forallb K m = forallb (fun b => b) (map K m)).
  { intros B K m. induction m as [|b m IH]; [reflexivity|]. cbn. rewrite IH. reflexivity. }
  rewrite F, (F _ H), M. reflexivity.
Qed.
Lemma total_seq {A} (G : nat -> Qc) (H : A -> Qc) (l : list A) x :
  (forall i, (i < length l)%nat -> G i = H (nth i l x)) -> total G (seq 0 (length l)) = total H l.
Proof. intros E. rewrite <- !sumq_map. f_equal. apply (map_seq _ _ _ x E). Qed.
Lemma nth_map {A B} (f : A -> B) l i x y : (i < length l)%nat -> nth i (map f l) y = f (nth i l x).
Proof. intros H. rewrite (nth_indep _ y (f x)) by (rewrite map_length; exact H). apply map_nth. Qed.

Lemma upd_length {A} i (v : A) l : length (upd i v l) = length l.
Proof. revert i. induction l as [|x l IH]; intros [|i]; cbn; auto. Qed.
Lemma upd_nth {A} i (v : A) l j x : (i < length l)%nat -> nth j (upd i v l) x = if Nat.eqb j i then v else nth j l x.
Proof.
  revert i j. induction l as [|y l IH]; intros [|i] [|j] H; cbn in *; try lia; auto. apply IH. lia.
Qed.

Lemma index_in_nth c l : In c l -> 0 <= index_in c l < Z.of_nat (length l) /\
  nth (Z.to_nat (index_in c l)) l dead0 = c.
Proof.
  induction l as [|x l IH]; intros H; [destruct H|]. cbn [index_in].
  destruct (coord_eqb x c) eqn:E.
  - apply coord_eqb_spec in E. subst. split; [cbn [length]; lia|reflexivity].
  - destruct H as [->|H]; [rewrite coord_eqb_refl in E; discriminate|]. destruct (IH H) as [B N].
    destruct (Z.eqb_spec (index_in c l) (-1)); [lia|]. split; [cbn [length]; lia|].
    replace (Z.to_nat (index_in c l + 1)) with (S (Z.to_nat (index_in c l))) by lia. exact N.
Qed.
Lemma index_in_none c l : ~ In c l -> index_in c l = -1.
Proof.
  induction l as [|x l IH]; intros H; [reflexivity|]. cbn [index_in].
  destruct (coord_eqb x c) eqn:E.
  - apply coord_eqb_spec in E. subst. exfalso. apply H. left. reflexivity.
  - rewrite IH; [reflexivity|]. intros C. apply H. right. exact C.
Qed.
Lemma index_in_In c l : index_in c l = -1 <-> ~ In c l.
Proof.
  split; [|apply index_in_none]. intros E H. apply index_in_nth in H. lia.
Qed.
Lemma index_in_at l i : NoDup l -> (i < length l)%nat -> index_in (nth i l dead0) l = Z.of_nat i.
Proof.
  intros N H. assert (I : In (nth i l dead0) l) by (apply nth_In; exact H).
  destruct (index_in_nth _ _ I) as [B E]. 
  assert (Z.to_nat (index_in (nth i l dead0) l) = i); [|lia].
  apply (proj1 (NoDup_nth l dead0) N); [lia|exact H|exact E].
Qed.

(** Replacing one charge state. *)
Definition fupd (f : coord -> cs) (c : coord) (s : cs) : coord -> cs := fun x => if coord_eqb x c then s else f x.

Lemma upd_index {A} (f g : coord -> A) c l v : NoDup l -> In c l -> g c = v ->
  (forall x, In x l -> x <> c -> g x = f x) -> upd (Z.to_nat (index_in c l)) v (map f l) = map g l.
Proof.
  intros N I Gc H. destruct (index_in_nth c l I) as [B E]. set (i := Z.to_nat (index_in c l)) in *.
  assert (Hi : (i < length l)%nat) by lia. clearbody i.
  apply nth_ext with (d := f dead0) (d' := g dead0); [rewrite upd_length, !map_length; reflexivity|].
  intros j Hj. rewrite upd_length, map_length in Hj. rewrite upd_nth by (rewrite map_length; exact Hi).
  rewrite !map_nth. destruct (Nat.eqb_spec j i) as [->|Ne].
  - rewrite E. auto.
  - symmetry. apply H; [apply nth_In; exact Hj|]. intros C. apply Ne. apply (proj1 (NoDup_nth l dead0) N); auto. congruence.
Qed.
Lemma upd_fupd f c l s : NoDup l -> In c l -> upd (Z.to_nat (index_in c l)) s (map f l) = map (fupd f c s) l.
Proof.
  intros N I. apply upd_index; auto.
  - unfold fupd. rewrite coord_eqb_refl. reflexivity.
  - intros x _ Hx. unfold fupd. destruct (coord_eqb x c) eqn:E; [apply coord_eqb_spec in E; contradiction|reflexivity].
Qed.

Lemma insert_perm ltb c l : Permutation (insert_sorted ltb c l) (c :: l).
Proof.
  induction l as [|x l IH]; [apply Permutation_refl|]. cbn [insert_sorted]. destruct (ltb x c); [|apply Permutation_refl].
  rewrite IH. apply perm_swap.
Qed.
Lemma sort_perm ltb l : Permutation (sort_cells ltb l) l.
Proof.
  induction l as [|x l IH]; [apply Permutation_refl|]. cbn [sort_cells fold_right]. rewrite insert_perm. constructor. exact IH.
Qed.

(** ** Numbers and digits *)

Definition base_ok (b : Z) : Prop := b = 2 \/ b = 3.
Lemma digit_of_sign b r : base_ok b -> 0 <= r < b -> digit (of_sign (r - 1)) = r /\ allowed b (of_sign (r - 1)).
Proof.
  intros [->| ->] H.
  - assert (r = 0 \/ r = 1) as [->| ->] by lia; split; reflexivity || exact I.
  - assert (r = 0 \/ r = 1 \/ r = 2) as [->|[->| ->]] by lia; split; reflexivity || exact I.
Qed.
Lemma digit_range b s : base_ok b -> allowed b s -> 0 <= digit s < b.
Proof. intros [->| ->]; destruct s; cbn; intros H; try lia; try contradiction. Qed.
Lemma of_sign_digit b s : base_ok b -> allowed b s -> of_sign (digit s - 1) = s.
Proof. intros _; destruct s; cbn; intros H; try reflexivity; contradiction. Qed.

(** Value of the digits, least significant first. *)
Fixpoint lnum (b : Z) (r : list cs) : Z := match r with [] => 0 | s :: r => digit s + b * lnum b r end.
Lemma number_from_app b a l m : number_from b a (l ++ m) = number_from b (number_from b a l) m.
Proof. revert a. induction l as [|s l IH]; intros a; [reflexivity|]. cbn. apply IH. Qed.
Lemma number_lnum b l : number b l = lnum b (rev l).
Proof.
  unfold number. induction l as [|s l IH] using rev_ind; [reflexivity|].
  rewrite number_from_app, rev_app_distr. cbn. rewrite IH. lia.
Qed.
Lemma lnum_range b r : base_ok b -> Forall (allowed b) r -> 0 <= lnum b r < b ^ Z.of_nat (length r).
Proof.
  intros B. induction 1 as [|s r Hs Hr IH]; [cbn; lia|]. cbn [lnum length].
  pose proof (digit_range b s B Hs). rewrite Nat2Z.inj_succ, Z.pow_succ_r by lia. destruct B as [->| ->]; nia.
Qed.
Lemma lnum_inj b r r' : base_ok b -> Forall (allowed b) r -> Forall (allowed b) r' -> length r = length r' ->
  lnum b r = lnum b r' -> r = r'.
Proof.
  intros B H. revert r'. induction H as [|s r Hs Hr IH]; intros r' H' L E; destruct r' as [|s' r']; try discriminate; [reflexivity|].
  inversion H' as [|? ? Hs' Hr']; subst. cbn in L, E.
  pose proof (digit_range b s B Hs). pose proof (digit_range b s' B Hs').
  assert (digit s = digit s' /\ lnum b r = lnum b r') as [E1 E2] by (destruct B as [->| ->]; lia).
  f_equal; [|apply IH; auto]. rewrite <- (of_sign_digit b s B Hs), <- (of_sign_digit b s' B Hs'), E1. reflexivity.
Qed.

(** Writing the digits of [q] over the list [r], least significant first; the rest of [r] stays. *)
Fixpoint wr (b q : Z) (r : list cs) : list cs :=
  match r with
  | [] => []
  | s :: r' => if 0 <? q then of_sign (q mod b - 1) :: wr b (q / b) r' else s :: r'
  end.
Lemma wr_length b q r : length (wr b q r) = length r.
Proof. revert q. induction r as [|s r IH]; intros q; [reflexivity|]. cbn. destruct (0 <? q); cbn; auto. Qed.
Lemma wr_0 b r : wr b 0 r = r.
Proof. destruct r; reflexivity. Qed.
Lemma wr_same b r : base_ok b -> Forall (allowed b) r -> wr b (lnum b r) r = r.
Proof.
  intros B. induction 1 as [|s r Hs Hr IH]; [reflexivity|]. cbn [wr lnum].
  pose proof (digit_range b s B Hs). pose proof (lnum_range b r B Hr).
  destruct (Z.ltb_spec 0 (digit s + b * lnum b r)); [|reflexivity].
  replace ((digit s + b * lnum b r) mod b) with (digit s)
    by (rewrite Z.mul_comm, Z.mod_add, Z.mod_small; destruct B; lia).
  replace ((digit s + b * lnum b r) / b) with (lnum b r)
    by (rewrite Z.mul_comm, Z.div_add, Z.div_small; destruct B; lia).
  rewrite IH, (of_sign_digit b s B Hs). reflexivity.
Qed.
(** Adding one: ignoring the leading zeroes is sound. *)
Lemma wr_succ b r : base_ok b -> Forall (allowed b) r -> lnum b r + 1 < b ^ Z.of_nat (length r) ->
  Forall (allowed b) (wr b (lnum b r + 1) r) /\ lnum b (wr b (lnum b r + 1) r) = lnum b r + 1.
Proof.
  intros B. induction 1 as [|s r Hs Hr IH]; [cbn; lia|]. intros H. cbn [length] in H. rewrite Nat2Z.inj_succ, Z.pow_succ_r in H by lia.
  cbn [wr lnum] in *. pose proof (digit_range b s B Hs) as D. pose proof (lnum_range b r B Hr) as R.
  set (x := lnum b r) in *. assert (Bb : 2 <= b) by (destruct B; lia).
  destruct (Z.ltb_spec 0 (digit s + b * x + 1)); [|nia].
  pose proof (digit_of_sign b ((digit s + b * x + 1) mod b) B ltac:(apply Z.mod_pos_bound; lia)) as [D1 D2].
  cbn [lnum]. rewrite D1.
  destruct (Z.eq_dec (digit s + 1) b) as [C|C].
  - replace ((digit s + b * x + 1) / b) with (x + 1) by (apply (Z.div_unique _ b _ 0); lia).
    replace ((digit s + b * x + 1) mod b) with 0 by (apply (Z.mod_unique _ b (x + 1)); lia).
    destruct IH as [I1 I2]; [nia|]. split.
    + constructor; [apply (digit_of_sign b 0 B); lia|exact I1].
    + rewrite I2. lia.
  - replace ((digit s + b * x + 1) / b) with x by (apply (Z.div_unique _ b _ (digit s + 1)); lia).
    replace ((digit s + b * x + 1) mod b) with (digit s + 1) by (apply (Z.mod_unique _ b x); lia).
    unfold x. rewrite (wr_same b r B Hr). split; [|lia].
    constructor; [apply (digit_of_sign b _ B); lia|exact Hr].
Qed.

(** Number of digits written. *)
Fixpoint ndigits (b q : Z) (m : nat) : nat :=
  match m with O => O | S m => if 0 <? q then S (ndigits b (q / b) m) else O end.
(** Writing the digits and then NEGATIVE: the number is written from scratch. *)
Fixpoint wr_all (b q : Z) (r : list cs) : list cs :=
  match r with
  | [] => []
  | _ :: r' => of_sign (q mod b - 1) :: wr_all b (q / b) r'
  end.
Lemma wr_all_0 b r : base_ok b -> wr_all b 0 r = map (fun _ => NEG) r.
Proof.
  intros B. induction r as [|s r IH]; [reflexivity|]. cbn [wr_all map]. rewrite Zmod_0_l, Zdiv_0_l, IH. reflexivity.
Qed.
Lemma wr_all_num b r q : base_ok b -> 0 <= q < b ^ Z.of_nat (length r) ->
  Forall (allowed b) (wr_all b q r) /\ lnum b (wr_all b q r) = q.
Proof.
  intros B. revert q. induction r as [|s r IH]; intros q H; [cbn in *; split; [constructor|lia]|].
  cbn [length] in H. rewrite Nat2Z.inj_succ, Z.pow_succ_r in H by lia. cbn [wr_all lnum].
  assert (Bb : 2 <= b) by (destruct B; lia).
  pose proof (digit_of_sign b (q mod b) B ltac:(apply Z.mod_pos_bound; lia)) as [D1 D2].
  destruct (IH (q / b)) as [I1 I2]; [split; [apply Z.div_pos; lia|apply Z.div_lt_upper_bound; lia]|].
  split; [constructor; assumption|]. rewrite D1, I2. pose proof (Z.div_mod q b ltac:(lia)). lia.
Qed.
Lemma wr_all_length b q r : length (wr_all b q r) = length r.
Proof. revert q. induction r as [|s r IH]; intros q; [reflexivity|]. cbn. auto. Qed.
