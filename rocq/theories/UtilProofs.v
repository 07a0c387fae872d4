(** Lemmas about the iterators and utility functions. *)
From Coq Require Import ZArith Bool List Lia Sorting ZifyBool.
From Verif Require Import CoordModel UtilModel UtilSpec.
Import ListNotations.
Local Open Scope Z_scope.

(** ** Gray codes *)
Lemma bin_cases n : n = 2 * (n / 2) + Z.b2z (Z.odd n).
Proof. pose proof (Zmod_odd n) as H. pose proof (Z.div_mod n 2 ltac:(lia)). destruct (Z.odd n); cbn [Z.b2z]; lia. Qed.
Lemma nonneg_ind (P : Z -> Prop) : (forall n, 0 <= n -> (forall m, 0 <= m < n -> P m) -> P n) -> forall n, 0 <= n -> P n.
Proof.
  intros H n Hn. cut (0 <= n -> P n); [auto|]. pattern n. apply Z_lt_induction; [|exact Hn].
  intros x IH Hx. apply H; [exact Hx|]. intros m Hm. apply IH; lia.
Qed.
Lemma gray_double q b : 0 <= q -> binary_to_gray (2 * q + Z.b2z b) = 2 * binary_to_gray q + Z.b2z (xorb b (Z.odd q)).
Proof.
  intros Hq. unfold binary_to_gray. apply Z.bits_inj'. intros j Hj. rewrite Z.lxor_spec, Z.shiftr_spec by lia.
  replace (j + 1) with (Z.succ j) by lia. rewrite Z.testbit_succ_r by lia.
  destruct (Z.eq_dec j 0) as [->|Hn].
  - rewrite !Z.testbit_0_r. rewrite Z.bit0_odd. reflexivity.
  - replace j with (Z.succ (j - 1)) at 1 3 by lia. rewrite !Z.testbit_succ_r by lia.
    rewrite Z.lxor_spec, Z.shiftr_spec by lia. replace (j - 1 + 1) with j by lia. reflexivity.
Qed.
Lemma gray_nonneg n : 0 <= n -> 0 <= binary_to_gray n.
Proof. intros H. unfold binary_to_gray. apply Z.lxor_nonneg. rewrite Z.shiftr_nonneg. lia. Qed.
Lemma gray_one_bit n : 0 <= n -> exists k, 0 <= k /\ 2 ^ k <= n + 1 /\
  forall j, 0 <= j -> (Z.testbit (binary_to_gray n) j <> Z.testbit (binary_to_gray (n + 1)) j <-> j = k).
Proof.
  intros Hn. pattern n. revert n Hn. apply nonneg_ind. intros n Hn IH.
  pose proof (bin_cases n) as En. set (q := n / 2) in *. assert (Hq : 0 <= q) by (apply Z.div_pos; lia).
  destruct (Z.odd n) eqn:Eo; cbn [Z.b2z] in En.
  - assert (Hqn : 0 <= q < n) by lia. destruct (IH q Hqn) as (k & Hk & Hk2 & Hd). exists (k + 1). split; [lia|].
    split. { rewrite Z.pow_add_r by lia. change (2 ^ 1) with 2. lia. }
    intros j Hj. replace (n + 1) with (2 * (q + 1) + Z.b2z false) by (cbn [Z.b2z]; lia). rewrite En at 1.
    change (2 * q + 1) with (2 * q + Z.b2z true). rewrite !gray_double by lia.
    rewrite Z.odd_add. change (Z.odd 1) with true. rewrite xorb_false_l, (xorb_comm (Z.odd q)).
    destruct (Z.eq_dec j 0) as [->|Hj0].
    + rewrite !Z.testbit_0_r. split; [congruence|lia].
    + replace j with (Z.succ (j - 1)) by lia. rewrite !Z.testbit_succ_r by lia. rewrite Hd by lia. lia.
  - exists 0. split; [lia|]. split; [change (2 ^ 0) with 1; lia|]. intros j Hj.
    replace (n + 1) with (2 * q + Z.b2z true) by (cbn [Z.b2z]; lia). rewrite En at 1.
    change (2 * q + 0) with (2 * q + Z.b2z false). rewrite !gray_double by lia.
    destruct (Z.eq_dec j 0) as [->|Hj0].
    + rewrite !Z.testbit_0_r. destruct (Z.odd q); cbn; split; congruence.
    + replace j with (Z.succ (j - 1)) by lia. rewrite !Z.testbit_succ_r by lia. split; [congruence|lia].
Qed.
Lemma gray_lt w : 0 <= w -> forall n, 0 <= n < 2 ^ w -> 0 <= binary_to_gray n < 2 ^ w.
Proof.
  intros Hw. pattern w. apply natlike_ind; [|clear w Hw|exact Hw].
  - intros n Hn. change (2 ^ 0) with 1 in *. assert (n = 0) by lia. subst. cbn. lia.
  - intros w Hw IH n Hn. rewrite Z.pow_succ_r in * by lia. pose proof (bin_cases n) as En.
    rewrite En, gray_double by (apply Z.div_pos; lia).
    assert (Hb : forall b, 0 <= Z.b2z b <= 1) by (intros []; cbn; lia).
    pose proof (Hb (Z.odd n)). pose proof (Hb (xorb (Z.odd n) (Z.odd (n / 2)))).
    assert (Hq : 0 <= n / 2 < 2 ^ w) by lia. specialize (IH _ Hq). lia.
Qed.
Lemma gray_inj n m : 0 <= n -> 0 <= m -> binary_to_gray n = binary_to_gray m -> n = m.
Proof.
  intros Hn. revert m. pattern n. revert n Hn. apply nonneg_ind. intros n Hn IH m Hm E.
  pose proof (bin_cases n) as En. pose proof (bin_cases m) as Em.
  assert (Hq : 0 <= n / 2) by (apply Z.div_pos; lia). assert (Hr : 0 <= m / 2) by (apply Z.div_pos; lia).
  destruct (Z.eq_dec n 0) as [->|Hn0].
  - (* n = 0: by the code being zero, descend on m *)
    clear IH En Hq Em Hr. revert E. pattern m. revert m Hm. apply nonneg_ind. intros m Hm IHm E.
    pose proof (bin_cases m) as Em. assert (Hr : 0 <= m / 2) by (apply Z.div_pos; lia).
    destruct (Z.eq_dec m 0) as [->|Hm0]; [reflexivity|]. exfalso. rewrite Em, gray_double in E by lia.
    change (binary_to_gray 0) with 0 in E. assert (Hb : forall b, 0 <= Z.b2z b <= 1) by (intros []; cbn; lia).
    pose proof (Hb (xorb (Z.odd m) (Z.odd (m / 2)))). pose proof (Hb (Z.odd m)). pose proof (gray_nonneg _ Hr).
    assert (E0 : 0 = m / 2). { apply IHm; [lia|]. change (binary_to_gray 0) with 0. lia. }
    assert (Eo : Z.odd m = true) by (destruct (Z.odd m); cbn [Z.b2z] in Em; [reflexivity|lia]).
    rewrite Eo, <- E0 in E. vm_compute in E. discriminate.
  - rewrite En, Em, !gray_double in E by lia.
    assert (E1 : binary_to_gray (n / 2) = binary_to_gray (m / 2) /\ xorb (Z.odd n) (Z.odd (n / 2)) = xorb (Z.odd m) (Z.odd (m / 2))).
    { destruct (xorb (Z.odd n) (Z.odd (n / 2))), (xorb (Z.odd m) (Z.odd (m / 2))); cbn [Z.b2z] in E; split; try reflexivity; lia. }
    destruct E1 as [E1 E2]. apply IH in E1; [|lia|lia]. rewrite <- E1 in E2, Em.
    assert (Z.odd n = Z.odd m) by (destruct (Z.odd n), (Z.odd m), (Z.odd (n / 2)); cbn in E2; congruence).
    rewrite En, Em. congruence.
Qed.
Lemma gray_surj w : 0 <= w -> forall t, 0 <= t < 2 ^ w -> exists n, 0 <= n < 2 ^ w /\ binary_to_gray n = t.
Proof.
  intros Hw. pattern w. apply natlike_ind; [|clear w Hw|exact Hw].
  - intros t Ht. change (2 ^ 0) with 1 in *. exists 0. split; [lia|]. assert (t = 0) by lia. subst. reflexivity.
  - intros w Hw IH t Ht. rewrite Z.pow_succ_r in * by lia. pose proof (bin_cases t) as Et.
    assert (Hb : forall b, 0 <= Z.b2z b <= 1) by (intros []; cbn; lia). pose proof (Hb (Z.odd t)).
    destruct (IH (t / 2)) as (n & Hn & En); [lia|]. exists (2 * n + Z.b2z (xorb (Z.odd t) (Z.odd n))).
    pose proof (Hb (xorb (Z.odd t) (Z.odd n))). split; [lia|]. rewrite gray_double, En by lia.
    rewrite xorb_assoc, xorb_nilpotent, xorb_false_r. symmetry. exact Et.
Qed.

(** ** Aspect ratios *)
Lemma ratio_small x y : 0 <= x < 2 ^ 31 -> 0 <= y < 2 ^ 31 -> ratio x y = live x y 0.
Proof. intros Hx Hy. unfold ratio. rewrite !Z.mod_small by assumption. reflexivity. Qed.
Lemma factorize_In n c : 1 <= n <= 2 ^ 31 -> In c (factorize n) <-> ratio_of n c.
Proof.
  intros Hn. unfold factorize. rewrite in_flat_map.
  assert (Hs : 0 <= Z.sqrt n) by apply Z.sqrt_nonneg.
  assert (Hy : forall i, 1 <= i <= Z.sqrt n -> n mod i = 0 -> n = i * (n / i) /\ i <= n / i /\ n / i <= n).
  { intros i Hi Hm. pose proof (Z.div_mod n i ltac:(lia)). pose proof (Z.sqrt_spec n ltac:(lia)) as [H1 _]. nia. }
  split.
  - intros (j & Hj & Hin). apply in_seq in Hj. cbv zeta in Hin. set (i := Z.of_nat j) in *. assert (Hi : 1 <= i <= Z.sqrt n) by lia.
    destruct (Z.eqb_spec (n mod i) 0) as [Em|]; [|destruct Hin]. destruct (Hy i Hi Em) as (E & H1 & H2).
    assert (Hr : forall x y, 0 <= x < 2 ^ 31 -> 0 <= y < 2 ^ 31 -> (x + 1) * (y + 1) = n -> c = ratio x y -> ratio_of n c).
    { intros x y Hx Hy' Ep ->. rewrite ratio_small by assumption. unfold ratio_of, live; cbn [cd cx cy cz]. lia. }
    destruct (i - 1 =? n / i - 1); cbn [In] in Hin.
    + destruct Hin as [<-|[]]. apply (Hr (i - 1) (n / i - 1)); try lia. reflexivity.
    + destruct Hin as [<-|[<-|[]]]; [apply (Hr (i - 1) (n / i - 1)); try lia; reflexivity|apply (Hr (n / i - 1) (i - 1)); try lia; reflexivity].
  - intros (Hd & Hz & Hx & Hy' & E). destruct c as [d x y z]; cbn [cd cx cy cz] in *. subst d z.
    set (i := Z.min (x + 1) (y + 1)).
    assert (Hi : 1 <= i <= Z.sqrt n). { split; [lia|]. apply Z.sqrt_le_square; [lia|lia|]. unfold i. nia. }
    exists (Z.to_nat i). split; [apply in_seq; lia|]. cbv zeta. rewrite Z2Nat.id by lia.
    assert (Hb : x < n /\ y < n) by nia.
    assert (Hdiv : n mod i = 0 /\ n / i = Z.max (x + 1) (y + 1)).
    { assert (En : n = Z.max (x + 1) (y + 1) * i) by (unfold i; nia). split; [rewrite En; apply Z.mod_mul; lia|rewrite En; apply Z.div_mul; lia]. }
    destruct Hdiv as [-> ->]. rewrite Z.eqb_refl. unfold i. destruct (Z.le_ge_cases x y).
    + rewrite Z.min_l, Z.max_r by lia. replace (x + 1 - 1) with x by lia. replace (y + 1 - 1) with y by lia.
      rewrite !ratio_small by lia. destruct (x =? y); left; reflexivity.
    + rewrite Z.min_r, Z.max_l by lia. replace (x + 1 - 1) with x by lia. replace (y + 1 - 1) with y by lia.
      rewrite !ratio_small by lia. destruct (Z.eqb_spec y x) as [->|]; [left; reflexivity|right; left; reflexivity].
Qed.
Lemma NoDup_flat_map {A B} (f : A -> list B) (l : list A) : NoDup l -> (forall a, In a l -> NoDup (f a)) ->
  (forall a b x, In a l -> In b l -> In x (f a) -> In x (f b) -> a = b) -> NoDup (flat_map f l).
Proof.
  induction l as [|a l IH]; intros Hl Hf Hd; [constructor|]. inversion Hl; subst. cbn [flat_map].
  assert (Happ : forall l1 l2 : list B, NoDup l1 -> NoDup l2 -> (forall x, In x l1 -> ~ In x l2) -> NoDup (l1 ++ l2)).
  { intros l1 l2 H3 H4 H5. induction l1 as [|x l1 IH1]; [exact H4|]. inversion H3; subst. cbn. constructor.
    - rewrite in_app_iff. intros [H|H]; [contradiction|]. apply (H5 x); [left; reflexivity|exact H].
    - apply IH1; [assumption|]. intros y Hy. apply H5. right; exact Hy. }
  apply Happ.
  - apply Hf. left; reflexivity.
  - apply IH; [assumption|intros; apply Hf; right; assumption|]. intros b c x Hb Hc. apply Hd; right; assumption.
  - intros x Hx Hin. apply in_flat_map in Hin as (b & Hb & Hxb). assert (a = b) by (eapply Hd; eauto; [left; reflexivity|right; exact Hb]).
    subst. contradiction.
Qed.
Lemma factorize_NoDup n : 1 <= n <= 2 ^ 31 -> NoDup (factorize n).
Proof.
  intros Hn. unfold factorize.
  assert (Hs : 0 <= Z.sqrt n) by apply Z.sqrt_nonneg.
  assert (Hy : forall i, 1 <= i <= Z.sqrt n -> n mod i = 0 -> n = i * (n / i) /\ i <= n / i /\ n / i <= n).
  { intros i Hi Hm. pose proof (Z.div_mod n i ltac:(lia)). pose proof (Z.sqrt_spec n ltac:(lia)) as [H1 _]. nia. }
  apply NoDup_flat_map; [apply seq_NoDup| |].
  - intros j Hj. apply in_seq in Hj. cbv zeta. set (i := Z.of_nat j) in *. destruct (Z.eqb_spec (n mod i) 0) as [Em|]; [|constructor].
    destruct (Hy i ltac:(lia) Em) as (E & H1 & H2).
    destruct (Z.eqb_spec (i - 1) (n / i - 1)) as [Ee|Ee]; [constructor; [intros []|constructor]|].
    rewrite !ratio_small by lia. constructor; [intros [H|[]]; inversion H; lia|constructor; [intros []|constructor]].
  - intros a b x Ha Hb. apply in_seq in Ha, Hb. cbv zeta. set (i := Z.of_nat a) in *. set (j := Z.of_nat b) in *.
    destruct (Z.eqb_spec (n mod i) 0) as [Ei|]; [|intros []]. destruct (Z.eqb_spec (n mod j) 0) as [Ej|]; [|intros _ []].
    destruct (Hy i ltac:(lia) Ei) as (E1 & H1 & H2). destruct (Hy j ltac:(lia) Ej) as (E2 & H3 & H4).
    rewrite !ratio_small by lia.
    assert (Hx : forall i, In x (if i - 1 =? n / i - 1 then [live (i - 1) (n / i - 1) 0] else [live (i - 1) (n / i - 1) 0; live (n / i - 1) (i - 1) 0]) ->
       i <= n / i -> Z.min (cx x) (cy x) = i - 1).
    { intros k H Hk. destruct (k - 1 =? n / k - 1); cbn [In] in H; [destruct H as [<-|[]]|destruct H as [<-|[<-|[]]]]; cbn [live cx cy]; lia. }
    intros Hi Hj. apply Hx in Hi; [|exact H1]. apply Hx in Hj; [|exact H3]. lia.
Qed.
Lemma factorize_nonempty n : 1 <= n <= 2 ^ 31 -> factorize n <> [].
Proof.
  intros Hn E. assert (H : In (live 0 (n - 1) 0) (factorize n)).
  { apply factorize_In; [exact Hn|]. unfold ratio_of, live; cbn [cd cx cy cz]. lia. }
  rewrite E in H. destruct H.
Qed.
Lemma ar_next_ok fuel num : (1 <= fuel)%nat -> 0 <= num < 2 ^ 31 -> ar_next fuel num = Some (mkAr (num + 1) (factorize (num + 1)) 0).
Proof.
  intros Hf Hn. destruct fuel as [|f]; [lia|]. cbn [ar_next]. unfold u64. rewrite Z.mod_small by lia.
  destruct (factorize (num + 1)) eqn:E; [|reflexivity]. exfalso. apply (factorize_nonempty (num + 1)); [lia|exact E].
Qed.
(** Reading to the end of one list of factors. *)
Lemma ar_read_step fuel n l : (1 <= fuel)%nat -> forall k len, 
  k = length l -> (0 < length l)%nat -> n < 2 ^ 31 -> 0 <= n -> (0 < len)%nat ->
  ar_read fuel (k + len) (mkAr n l 0) =
  match ar_read fuel len (mkAr (n + 1) (factorize (n + 1)) 0) with Some r => Some (l ++ r) | None => None end.
Proof.
  intros Hf.
  assert (G : forall k pos len, (pos + k)%nat = length l -> (0 < k)%nat -> n < 2 ^ 31 -> 0 <= n -> (0 < len)%nat ->
    ar_read fuel (k + len) (mkAr n l pos) =
    match ar_read fuel len (mkAr (n + 1) (factorize (n + 1)) 0) with Some r => Some (skipn pos l ++ r) | None => None end).
  { induction k as [|k IH]; intros pos len Hk H0 Hn Hn0 Hl; [lia|]. cbn [ar_read Nat.add]. unfold ar_deref. cbn [ar_factors ar_pos].
    destruct (nth_error l pos) as [c|] eqn:Ec; [|apply nth_error_None in Ec; lia].
    assert (Es : skipn pos l = c :: skipn (S pos) l).
    { clear - Ec. revert l Ec. induction pos as [|p IH]; intros [|x l] Ec; cbn in Ec; try discriminate; [inversion Ec; reflexivity|]. cbn. apply IH, Ec. }
    destruct (k + len)%nat as [|m] eqn:Em; [lia|]. unfold ar_incr. cbn [ar_pos ar_factors ar_num].
    destruct (Nat.eqb_spec (S pos) (length l)) as [El|El].
    - assert (k = 0)%nat by lia. subst k. cbn in Em. rewrite ar_next_ok by lia. rewrite <- Em.
      destruct (ar_read fuel len _); [|reflexivity]. rewrite Es. replace (skipn (S pos) l) with (@nil coord) by (rewrite El; symmetry; apply skipn_all). reflexivity.
    - rewrite <- Em. rewrite IH by lia. destruct (ar_read fuel len _); [|reflexivity]. rewrite Es. reflexivity. }
  intros k len Hk H0 Hn Hn0 Hl. rewrite (G k 0%nat len) by lia. reflexivity.
Qed.
Lemma ar_read_last fuel n l : forall k, k = length l -> (0 < k)%nat -> ar_read fuel k (mkAr n l 0) = Some l.
Proof.
  assert (G : forall k pos, (pos + k)%nat = length l -> (0 < k)%nat -> ar_read fuel k (mkAr n l pos) = Some (skipn pos l)).
  { induction k as [|k IH]; intros pos Hk H0; [lia|]. cbn [ar_read]. unfold ar_deref. cbn [ar_factors ar_pos].
    destruct (nth_error l pos) as [c|] eqn:Ec; [|apply nth_error_None in Ec; lia].
    assert (Es : skipn pos l = c :: skipn (S pos) l).
    { clear - Ec. revert l Ec. induction pos as [|p IH]; intros [|x l] Ec; cbn in Ec; try discriminate; [inversion Ec; reflexivity|]. cbn. apply IH, Ec. }
    rewrite Es. destruct k as [|k]. { replace (skipn (S pos) l) with (@nil coord); [reflexivity|]. symmetry. apply skipn_all2. lia. }
    unfold ar_incr. cbn [ar_pos ar_factors ar_num]. destruct (Nat.eqb_spec (S pos) (length l)) as [El|El]; [lia|].
    rewrite IH by lia. reflexivity. }
  intros k Hk H0. rewrite (G k 0%nat) by lia. reflexivity.
Qed.
Lemma ar_read_all fuel : (1 <= fuel)%nat -> forall d n, 1 <= n -> n + Z.of_nat d <= 2 ^ 31 ->
  let Fs := map (fun i => factorize (n + Z.of_nat i)) (seq 0 (S d)) in
  ar_read fuel (length (concat Fs)) (mkAr n (factorize n) 0) = Some (concat Fs).
Proof.
  intros Hf. induction d as [|d IH]; intros n Hn Hd.
  - cbn [map seq concat]. cbv zeta. rewrite app_nil_r. replace (n + Z.of_nat 0) with n by lia. apply ar_read_last; [reflexivity|].
    destruct (factorize n) eqn:E; [|cbn; lia]. exfalso. apply (factorize_nonempty n); [lia|exact E].
  - cbv zeta. set (k := S d). cbn [seq map concat]. replace (n + Z.of_nat 0) with n by lia. rewrite app_length.
    rewrite <- seq_shift, map_map.
    assert (Em : map (fun x => factorize (n + Z.of_nat (S x))) (seq 0 k) = map (fun i => factorize (n + 1 + Z.of_nat i)) (seq 0 k)).
    { apply map_ext. intros x. f_equal. lia. }
    rewrite Em. subst k. specialize (IH (n + 1) ltac:(lia) ltac:(lia)). cbv zeta in IH.
    assert (Hne : forall v, 1 <= v <= 2 ^ 31 -> (0 < length (factorize v))%nat).
    { intros v Hv. destruct (factorize v) eqn:E; [|cbn; lia]. exfalso. apply (factorize_nonempty v); [lia|exact E]. }
    rewrite ar_read_step; try lia.
    + rewrite IH. reflexivity.
    + apply Hne. lia.
    + cbn [seq map concat]. rewrite app_length. replace (n + 1 + Z.of_nat 0) with (n + 1) by lia. pose proof (Hne (n + 1) ltac:(lia)). lia.
Qed.

(** ** Binomial coefficients *)
Lemma choose_0 n : choose n 0 = 1.
Proof. destruct n; reflexivity. Qed.
Lemma choose_big n : forall k, (n < k)%nat -> choose n k = 0.
Proof. induction n as [|n IH]; intros [|k] H; try lia; cbn; [reflexivity|]. rewrite !IH by lia. reflexivity. Qed.
Lemma choose_diag n : choose n n = 1.
Proof. induction n as [|n IH]; [reflexivity|]. cbn. rewrite IH, choose_big by lia. reflexivity. Qed.
Lemma choose_nonneg n : forall k, 0 <= choose n k.
Proof. induction n as [|n IH]; intros [|k]; cbn; try lia. pose proof (IH k). pose proof (IH (S k)). lia. Qed.
Lemma choose_absorb n : forall k, Z.of_nat (S k) * choose (S n) (S k) = Z.of_nat (S n) * choose n k.
Proof.
  induction n as [|n IH]; intros k.
  - destruct k as [|k]; [reflexivity|]. cbn [choose]. lia.
  - change (choose (S (S n)) (S k)) with (choose (S n) k + choose (S n) (S k)). rewrite Z.mul_add_distr_l, IH.
    destruct k as [|k]; [rewrite !choose_0; lia|].
    change (choose (S n) (S k)) with (choose n k + choose n (S k)) at 2.
    pose proof (IH k) as H. change (choose (S n) (S k)) with (choose n k + choose n (S k)) in H |- *. lia.
Qed.
Lemma choose_step n k : (k <= n)%nat -> Z.of_nat (S k) * choose n (S k) = Z.of_nat (n - k) * choose n k.
Proof.
  intros H. pose proof (choose_absorb n k) as E. change (choose (S n) (S k)) with (choose n k + choose n (S k)) in E.
  rewrite Nat2Z.inj_sub by lia. lia.
Qed.
Lemma choose_sym n : forall k, (k <= n)%nat -> choose n (n - k) = choose n k.
Proof.
  induction n as [|n IH]; intros k Hk; [replace k with 0%nat by lia; reflexivity|].
  destruct k as [|k]. { rewrite Nat.sub_0_r, choose_diag, choose_0. reflexivity. }
  destruct (Nat.eq_dec k n) as [->|Hn]. { rewrite Nat.sub_diag, choose_0, choose_diag. reflexivity. }
  replace (S n - S k)%nat with (S (n - S k)) by lia. cbn [choose].
  replace (S (n - S k)) with (n - k)%nat by lia. rewrite !IH by lia. lia.
Qed.
Lemma choose_mono n k : (2 * k <= n)%nat -> forall i, (i <= k)%nat -> Z.of_nat i * choose n i <= Z.of_nat k * choose n k.
Proof.
  intros Hk i Hi. induction k as [|k IH]; [replace i with 0%nat by lia; lia|].
  destruct (Nat.eq_dec i (S k)) as [->|]; [lia|]. etransitivity; [apply IH; lia|].
  rewrite choose_step by lia. pose proof (choose_nonneg n k). rewrite Nat2Z.inj_sub by lia. nia.
Qed.
Lemma binom_loop_ok n k : (2 * k <= n)%nat -> Z.of_nat n < 2 ^ 64 -> Z.of_nat k * choose n k < 2 ^ 64 ->
  forall j fuel, (j <= k)%nat -> (j <= fuel)%nat ->
  binom_loop fuel (Z.of_nat n) (Z.of_nat k) (Z.of_nat (S (k - j))) (choose n (k - j)) = Some (choose n k).
Proof.
  intros Hk Hn Hb. induction j as [|j IH]; intros fuel Hj Hf.
  - rewrite Nat.sub_0_r. destruct fuel; cbn [binom_loop]; (destruct (Z.leb_spec (Z.of_nat (S k)) (Z.of_nat k)); [lia|reflexivity]).
  - destruct fuel as [|f]; [lia|]. cbn [binom_loop].
    destruct (Z.leb_spec (Z.of_nat (S (k - S j))) (Z.of_nat k)); [|lia].
    replace (Z.of_nat (S (k - S j)) =? 0) with false by lia.
    pose proof (choose_mono n k Hk (k - j) ltac:(lia)) as Hm.
    pose proof (choose_step n (k - S j) ltac:(lia)) as E. replace (S (k - S j)) with (k - j)%nat in * by lia.
    unfold u64. rewrite (Z.mod_small (Z.of_nat (k - j) + 1)) by lia.
    rewrite (Z.mod_small (Z.of_nat n + 1 - Z.of_nat (k - j))) by lia.
    replace (Z.of_nat n + 1 - Z.of_nat (k - j)) with (Z.of_nat (n - (k - S j))) by lia.
    rewrite Z.mul_comm, <- E. pose proof (choose_nonneg n (k - j)).
    rewrite Z.mod_small by nia. rewrite Z.mul_comm, Z.div_mul by lia.
    replace (Z.of_nat (k - j) + 1) with (Z.of_nat (S (k - j))) by lia. apply IH; lia.
Qed.

(** ** Cartesian products *)
Lemma cart_snoc {A} (sets : list (list A)) d : cartesian_combinations (sets ++ [d]) =
  flat_map (fun p => map (fun e => p ++ [e]) d) (cartesian_combinations sets).
Proof. unfold cartesian_combinations. rewrite fold_left_app. reflexivity. Qed.
Lemma flat_map_const_length {A B C} (f : A -> B -> C) (d : list B) (l : list A) :
  length (flat_map (fun p => map (f p) d) l) = (length l * length d)%nat.
Proof. induction l as [|a l IH]; [reflexivity|]. cbn. rewrite app_length, map_length, IH. reflexivity. Qed.
Lemma nth_flat_map {A B C} (f : A -> B -> C) (d : list B) (l : list A) q i p e :
  nth_error l q = Some p -> nth_error d i = Some e ->
  nth_error (flat_map (fun p => map (f p) d) l) (q * length d + i) = Some (f p e).
Proof.
  revert l. induction q as [|q IH]; intros [|a l] Hp He; cbn in Hp; try discriminate; cbn [flat_map].
  - inversion Hp; subst. assert (i < length d)%nat by (apply nth_error_Some; congruence).
    rewrite nth_error_app1 by (rewrite map_length; lia). cbn. apply map_nth_error, He.
  - assert (i < length d)%nat by (apply nth_error_Some; congruence).
    rewrite nth_error_app2 by (rewrite map_length; cbn; lia). rewrite map_length.
    replace (S q * length d + i - length d)%nat with (q * length d + i)%nat by (cbn; lia). apply IH; assumption.
Qed.
Lemma product_snoc l n : product (l ++ [n]) = (product l * n)%nat.
Proof. induction l as [|a l IH]; cbn; [lia|]. unfold product in IH. rewrite IH. lia. Qed.
Lemma cart_length {A} (sets : list (list A)) : length (cartesian_combinations sets) = product (map (@length A) sets).
Proof.
  induction sets as [|d sets IH] using rev_ind; [reflexivity|].
  rewrite cart_snoc, flat_map_const_length, IH, map_app. cbn [map]. rewrite product_snoc. reflexivity.
Qed.
Lemma Forall2_snoc_inv {A B} (R : A -> B -> Prop) l1 a l2 : Forall2 R l1 (l2 ++ [a]) ->
  exists l1' x, l1 = l1' ++ [x] /\ Forall2 R l1' l2 /\ R x a.
Proof.
  revert l1. induction l2 as [|b l2 IH]; intros l1 H; cbn in H; inversion H as [|x y l l' Hxy Hl]; subst.
  - inversion Hl; subst. exists [], x. auto.
  - destruct (IH _ Hl) as (l1' & z & -> & H1 & H2). exists (x :: l1'), z. auto.
Qed.
Lemma Forall2_len {A B} (R : A -> B -> Prop) l1 l2 : Forall2 R l1 l2 -> length l1 = length l2.
Proof. induction 1; cbn; congruence. Qed.
Lemma cart_nth {A} (sets : list (list A)) : forall ds es, Forall2 (fun i s => (i < length s)%nat) ds sets ->
  length es = length sets -> (forall j i s, nth_error ds j = Some i -> nth_error sets j = Some s -> nth_error es j = nth_error s i) ->
  nth_error (cartesian_combinations sets) (mixed_radix sets ds) = Some es.
Proof.
  induction sets as [|d sets IH] using rev_ind; intros ds es Hd He Hn.
  - inversion Hd; subst. destruct es; [reflexivity|discriminate].
  - apply Forall2_snoc_inv in Hd as (ds' & i & -> & Hd & Hi).
    assert (Hlen : length ds' = length sets) by (eapply Forall2_len; eassumption).
    destruct (exists_last (l := es)) as (es' & e & ->). { intros ->. rewrite app_length in He. cbn in He. lia. }
    rewrite !app_length in He. cbn in He.
    rewrite cart_snoc. unfold mixed_radix. 
    assert (Ec : combine (sets ++ [d]) (ds' ++ [i]) = combine sets ds' ++ [(d, i)]).
    { clear - Hlen. revert ds' Hlen. induction sets as [|s sets IH]; intros [|x ds'] H; cbn in *; try discriminate; [reflexivity|]. rewrite IH by lia. reflexivity. }
    rewrite Ec, fold_left_app. cbn [fold_left fst snd]. fold (mixed_radix sets ds').
    apply (nth_flat_map (fun p e => p ++ [e])).
    + apply IH; [exact Hd|lia|]. intros j i' s' H1 H2.
      assert (j < length ds')%nat by (apply nth_error_Some; congruence).
      specialize (Hn j i' s'). rewrite !nth_error_app1 in Hn by lia. auto.
    + specialize (Hn (length ds') i d). rewrite nth_error_app2, Nat.sub_diag in Hn by lia.
      rewrite nth_error_app2 in Hn by lia. rewrite Hlen, Nat.sub_diag in Hn.
      rewrite nth_error_app2 in Hn by lia. replace (length sets - length es')%nat with 0%nat in Hn by lia.
      cbn in Hn. symmetry. apply Hn; reflexivity.
Qed.
Lemma cart_In {A} (sets : list (list A)) c : In c (cartesian_combinations sets) <-> Forall2 (fun e s => In e s) c sets.
Proof.
  revert c. induction sets as [|d sets IH] using rev_ind; intros c.
  - cbn. split; [intros [<-|[]]; constructor|]. intros H; inversion H; auto.
  - rewrite cart_snoc, in_flat_map. split.
    + intros (p & Hp & Hc). apply in_map_iff in Hc as (e & <- & He). apply Forall2_app; [apply IH, Hp|auto].
    + intros H. apply Forall2_snoc_inv in H as (p & e & -> & Hp & He). exists p. split; [apply IH, Hp|]. apply in_map_iff; eauto.
Qed.

(** ** Combinations *)
(** All choices of [k] elements of [L], in the order of [L]. *)
Fixpoint combos {E} (k : nat) (L : list E) : list (list E) :=
  match k, L with
  | O, _ => [[]]
  | S _, [] => []
  | S k', x :: r => map (cons x) (combos k' r) ++ combos k r
  end.
Lemma combos_big {E} (L : list E) : forall k, (length L < k)%nat -> combos k L = [].
Proof. induction L as [|x L IH]; intros [|k] H; cbn [length combos] in *; try lia; [reflexivity|]. rewrite !IH by lia. reflexivity. Qed.
Lemma combos_full {E} (L : list E) : combos (length L) L = [L].
Proof. induction L as [|x L IH]; [reflexivity|]. cbn [length combos]. rewrite IH, (combos_big L) by lia. reflexivity. Qed.
Lemma rotate_spec {E} (A B : list E) : rotate_discontinuous A B = (firstn (length A) (B ++ A), skipn (length A) (B ++ A)).
Proof.
  unfold rotate_discontinuous. destruct (Nat.leb_spec (length A) (length B)) as [H|H].
  - rewrite firstn_app, skipn_app. replace (length A - length B)%nat with 0%nat by lia. cbn [firstn skipn]. rewrite app_nil_r. reflexivity.
  - rewrite firstn_app, skipn_app, (firstn_all2 B), (skipn_all2 B) by lia. reflexivity.
Qed.
Section Combine.
Context {E : Type}.
Notation comb := (@combine_discontinuous E).
Definition rotated (inner : bool) (A B : list E) : list E * list E :=
  if inner then match A ++ B with [] => (A, B) | l0 :: rest => (firstn (length A) rest, l0 :: skipn (length A) rest) end
  else (A, B).
Lemma loop_spec d pre body :
  (forall a A1 B, length A1 = d -> B <> [] -> body a A1 B = 
     (map (app (pre ++ [a])) (combos d (A1 ++ B)), rotated true A1 B)) ->
  forall n a A1 B, length A1 = d -> n = length B ->
  exists v h r fr, combine_loop body n a A1 B = (v, (h, r, fr)) /\
    v ++ [pre ++ h :: r] = map (app pre) (combos (S d) (a :: A1 ++ B)) /\
    h :: r = skipn (length B) (a :: A1 ++ B) /\ fr = firstn (length B) (a :: A1 ++ B).
Proof.
  intros Hb. induction n as [|n IH]; intros a A1 B Ha Hn.
  - destruct B; [|discriminate]. exists [], a, A1, []. cbn [combine_loop]. split; [reflexivity|].
    rewrite app_nil_r. rewrite <- Ha. change (S (length A1)) with (length (a :: A1)). rewrite combos_full. auto.
  - destruct B as [|b B]; [discriminate|]. cbn [combine_loop]. rewrite Hb by (assumption || discriminate).
    unfold rotated. destruct (A1 ++ b :: B) as [|l0 rest] eqn:EL; [destruct A1; discriminate|].
    assert (Hlen : length rest = (d + length B)%nat).
    { apply (f_equal (@length E)) in EL. rewrite app_length in EL. cbn in EL. lia. }
    destruct (IH l0 (firstn (length A1) rest) (skipn (length A1) rest)) as (v & h & r & fr & Hl & Hv & Hh & Hf).
    { rewrite firstn_length. lia. } { rewrite skipn_length. cbn in Hn. lia. }
    rewrite Hl. rewrite firstn_skipn in Hv, Hh, Hf.
    assert (Hsk : length (skipn (length A1) rest) = length B) by (rewrite skipn_length; lia). rewrite Hsk in *.
    eexists _, h, r, (a :: fr). split; [reflexivity|]. split; [|split; [exact Hh|cbn [length firstn]; rewrite Hf; reflexivity]].
    rewrite <- app_assoc, Hv. set (L1 := l0 :: rest).
    change (combos (S d) (a :: L1)) with (map (cons a) (combos d L1) ++ combos (S d) L1). rewrite map_app, map_map. f_equal.
    apply map_ext. intros x. rewrite <- app_assoc. reflexivity.
Qed.
Lemma combine_spec d : forall inner pre A B, length A = d -> 
  (d = 0%nat \/ B = [] -> comb d inner pre A B = ([pre ++ A], (A, B))) /\
  ((0 < d)%nat -> B <> [] -> comb d inner pre A B = (map (app pre) (combos d (A ++ B)), rotated inner A B)).
Proof.
  induction d as [|d IH]; intros inner pre A B HA.
  - split; [reflexivity|lia].
  - split; [intros [H|H]; [lia|subst; cbn [combine_discontinuous]; destruct A; reflexivity]|].
    intros _ HB. destruct A as [|a A']; [discriminate|]. destruct B as [|b B]; [congruence|]. cbn [combine_discontinuous].
    set (body := fun (a : E) (A1 B : list E) => _).
    destruct (loop_spec d pre body) with (n := length (b :: B)) (a := a) (A1 := A') (B := b :: B) as (v & h & r & fr & Hl & Hv & Hh & Hf).
    { intros x A1 B1 H1 H2. unfold body. destruct d as [|d'].
      - destruct A1; [|discriminate]. cbn [app combos rotated]. destruct B1; [congruence|]. cbn. rewrite app_nil_r. reflexivity.
      - apply IH; [exact H1|lia|exact H2]. }
    { cbn in HA. lia. } { reflexivity. }
    rewrite Hl, Hv. cbn [app] in *. set (L := a :: A' ++ b :: B) in *.
    assert (HL : length L = (S d + length (b :: B))%nat) by (unfold L; cbn in *; rewrite app_length; cbn; lia).
    assert (Hr : fr ++ h :: r = L) by (rewrite Hh, Hf; apply firstn_skipn).
    assert (Hlr : length (h :: r) = S d) by (rewrite Hh, skipn_length; lia).
    destruct inner.
    + destruct fr as [|f0 fr'].
      { exfalso. apply (f_equal (@length E)) in Hf. rewrite firstn_length in Hf. cbn in Hf. lia. }
      rewrite rotate_spec, Hlr. f_equal. unfold rotated.
      replace ((a :: A') ++ b :: B) with (f0 :: fr' ++ h :: r) by (symmetry; exact (eq_sym Hr)). rewrite HA. reflexivity.
    + rewrite rotate_spec, Hr, Hlr. f_equal. unfold rotated. unfold L. rewrite <- HA.
      change (a :: A' ++ b :: B) with ((a :: A') ++ b :: B). rewrite firstn_app, skipn_app, firstn_all, skipn_all, Nat.sub_diag. cbn. rewrite app_nil_r. reflexivity.
Qed.
End Combine.
Lemma all_combinations_combos k n : (0 < k)%nat -> (k <= n)%nat -> all_combinations k n = combos k (seq 0 n).
Proof.
  intros Hk Hn. unfold all_combinations. destruct (Nat.ltb_spec n k); [lia|]. destruct (Nat.eqb_spec k 0); [lia|]. cbv zeta.
  assert (Hl : length (firstn k (seq 0 n)) = k) by (rewrite firstn_length, seq_length; lia).
  destruct (combine_spec k false [] _ (skipn k (seq 0 n)) Hl) as [H1 H2].
  destruct (skipn k (seq 0 n)) as [|x r] eqn:E.
  - rewrite H1 by auto. cbn [fst app]. assert (Ek : k = n). { apply (f_equal (@length nat)) in E. rewrite skipn_length, seq_length in E. cbn in E. lia. }
    subst. rewrite firstn_all2 by (rewrite seq_length; lia). rewrite <- (seq_length n 0) at 2. rewrite combos_full. reflexivity.
  - rewrite H2 by (lia || discriminate). cbn [fst]. rewrite <- E, firstn_skipn. erewrite map_ext; [apply map_id|]. reflexivity.
Qed.
Lemma combos_In k : forall n a c, In c (combos k (seq a n)) <->
  length c = k /\ StronglySorted lt c /\ Forall (fun p => (a <= p < a + n)%nat) c.
Proof.
  intros n. revert k. induction n as [|n IH]; intros k a c; cbn [seq].
  - destruct k; cbn [combos].
    + split; [intros [<-|[]]; repeat constructor|]. intros (H & _). destruct c; [left; reflexivity|discriminate].
    + split; [intros []|]. intros (H & _ & HF). destruct c; [discriminate|]. inversion HF; lia.
  - destruct k as [|k]; cbn [combos].
    + split; [intros [<-|[]]; repeat constructor|]. intros (H & _). destruct c; [left; reflexivity|discriminate].
    + rewrite in_app_iff, in_map_iff, IH. split.
      * intros [(c' & <- & Hc)|(H1 & H2 & H3)].
        -- apply IH in Hc as (H1 & H2 & H3). split; [cbn; lia|]. split.
           ++ constructor; [exact H2|]. eapply Forall_impl; [|exact H3]. cbn; intros; lia.
           ++ constructor; [lia|]. eapply Forall_impl; [|exact H3]. cbn; intros; lia.
        -- split; [exact H1|]. split; [exact H2|]. eapply Forall_impl; [|exact H3]. cbn; intros; lia.
      * intros (H1 & H2 & H3). destruct c as [|x c]; [discriminate|]. inversion H2 as [|? ? Hs Hf]; subst. inversion H3 as [|? ? Hx Hc]; subst.
        destruct (Nat.eq_dec x a) as [->|Hn].
        -- left. exists c. split; [reflexivity|]. apply IH. split; [cbn in H1; lia|]. split; [exact Hs|].
           rewrite Forall_forall in *. intros p Hp. specialize (Hf p Hp). specialize (Hc p Hp). lia.
        -- right. split; [exact H1|]. split; [exact H2|]. constructor; [lia|]. rewrite Forall_forall in *. intros p Hp. specialize (Hf p Hp). specialize (Hc p Hp). lia.
Qed.
Lemma combos_length k : forall n a, Z.of_nat (length (combos k (seq a n))) = choose n k.
Proof.
  intros n. revert k. induction n as [|n IH]; intros k a; destruct k as [|k]; cbn [seq combos choose]; try reflexivity.
  rewrite app_length, map_length, Nat2Z.inj_add, !IH. reflexivity.
Qed.
Lemma combos_sorted k : forall n a, StronglySorted lex_lt (combos k (seq a n)).
Proof.
  intros n. revert k. induction n as [|n IH]; intros k a; destruct k as [|k]; cbn [seq combos]; try (repeat constructor; fail).
  assert (Happ : forall l1 l2, StronglySorted lex_lt l1 -> StronglySorted lex_lt l2 -> (forall x y, In x l1 -> In y l2 -> lex_lt x y) ->
     StronglySorted lex_lt (l1 ++ l2)).
  { intros l1 l2 H1 H2 H3. induction H1 as [|x l1 Hs IH1 Hf]; [exact H2|]. cbn. constructor.
    - apply IH1. intros; apply H3; [right|]; assumption.
    - rewrite Forall_forall in *. intros y Hy. apply in_app_iff in Hy as [Hy|Hy]; [apply Hf, Hy|apply H3; [left; reflexivity|exact Hy]]. }
  apply Happ; [|apply IH|].
  - specialize (IH k (S a)). induction IH as [|x l Hs IH1 Hf]; cbn; constructor; [exact IH1|].
    rewrite Forall_forall in *. intros y Hy. apply in_map_iff in Hy as (z & <- & Hz). cbn. right. split; [reflexivity|]. apply Hf, Hz.
  - intros x y Hx Hy. apply in_map_iff in Hx as (z & <- & Hz). apply combos_In in Hy as (H1 & _ & H3). destruct y as [|y0 y]; [discriminate|].
    inversion H3; subst. cbn. left. lia.
Qed.
Lemma lex_irrefl c : ~ lex_lt c c.
Proof. induction c as [|x c IH]; cbn; [tauto|]. intros [H|[_ H]]; [lia|auto]. Qed.
Lemma sorted_NoDup l : StronglySorted lex_lt l -> NoDup l.
Proof.
  induction 1 as [|x l Hs IH Hf]; constructor; [|exact IH]. intros H. rewrite Forall_forall in Hf. exact (lex_irrefl _ (Hf _ H)).
Qed.

(** ** find_first_two_of *)
Lemma inner_two_spec {E} (eqb : E -> E -> bool) : (forall a b, eqb a b = true <-> a = b) ->
  forall S a b, inner_two eqb a b S = true <-> exists j, nth_error S j = Some a /\ nth_error S (1 + j) = Some b.
Proof.
  intros He. induction S as [|x S IH]; intros a b.
  - cbn. split; [discriminate|]. intros (j & H & _). destruct j; discriminate.
  - destruct S as [|y S'].
    + cbn. split; [discriminate|]. intros (j & _ & H). destruct j as [|j]; cbn in H; [discriminate|destruct j; discriminate].
    + change (inner_two eqb a b (x :: y :: S')) with (if eqb a x && eqb b y then true else inner_two eqb a b (y :: S')).
      destruct (eqb a x && eqb b y) eqn:Ex.
      * apply andb_prop in Ex as [H1 H2]. apply He in H1, H2. subst. split; [intros _; exists 0%nat; auto|reflexivity].
      * rewrite IH. split; [intros (j & H1 & H2); exists (Datatypes.S j); auto|].
        intros (j & H1 & H2). destruct j as [|j]; [|exists j; auto]. cbn in H1, H2. inversion H1; inversion H2; subst.
        assert (eqb a a && eqb b b = true) by (apply andb_true_intro; split; apply He; reflexivity). congruence.
Qed.
Lemma outer_two_spec {E} (eqb : E -> E -> bool) : (forall a b, eqb a b = true <-> a = b) -> forall S L,
  let r := outer_two eqb L S in
  (forall i, (i < r)%nat -> ~ shared_at L S i) /\ (shared_at L S r \/ (r = length L /\ forall i, ~ shared_at L S i)).
Proof.
  intros He S. induction L as [|a L IH]; cbv zeta.
  - cbn. split; [lia|]. right. split; [reflexivity|]. intros i (j & x & y & H & _). destruct i; discriminate.
  - destruct L as [|b L'].
    + cbn. split.
      * intros i Hi (j & x & y & _ & H & _). destruct i as [|i]; cbn in H; [discriminate|destruct i; discriminate].
      * right. split; [reflexivity|]. intros i (j & x & y & _ & H & _). destruct i as [|i]; cbn in H; [discriminate|destruct i; discriminate].
    + change (outer_two eqb (a :: b :: L') S) with (if inner_two eqb a b S then 0%nat else Datatypes.S (outer_two eqb (b :: L') S)).
      destruct (inner_two eqb a b S) eqn:Ei.
      * split; [lia|]. left. apply (inner_two_spec eqb He) in Ei as (j & H1 & H2). exists j, a, b. auto.
      * assert (H0 : ~ shared_at (a :: b :: L') S 0).
        { intros (j & x & y & H1 & H2 & H3 & H4). cbn in H1, H2. inversion H1; inversion H2; subst.
          assert (inner_two eqb x y S = true) by (apply (inner_two_spec eqb He); eauto). congruence. }
        assert (Hs : forall i, shared_at (a :: b :: L') S (Datatypes.S i) <-> shared_at (b :: L') S i) by (intros i; reflexivity).
        cbv zeta in IH. destruct IH as [IH1 IH2]. split.
        -- intros [|i] Hi; [exact H0|]. rewrite Hs. apply IH1. lia.
        -- destruct IH2 as [H|[H1 H2]]; [left; apply Hs, H|]. right. split; [rewrite H1; reflexivity|].
           intros [|i]; [exact H0|]. rewrite Hs. apply H2.
Qed.
