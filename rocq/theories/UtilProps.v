(** Properties C31-C35 and C45: iterators and utility functions. *)
From Coq Require Import ZArith Bool List Lia Sorting ZifyBool.
From Verif Require Import CoordModel UtilModel UtilSpec UtilProofs.
Import ListNotations.
Local Open Scope Z_scope.

(** * C31 *)
(** After any history of moves, one step forward or backward changes exactly one bit of the value,
    also where the 64-bit position wraps around. *)
Lemma gray_run_inv start ops : 0 <= start < 2 ^ 64 ->
  let g := gray_run (gray_new start) ops in
  gr_start g = start /\ 0 <= gr_cur g < 2 ^ 64 /\ gr_code g = binary_to_gray (gr_cur g).
Proof.
  intros Hs. unfold gray_run. assert (G : forall g, gr_start g = start /\ 0 <= gr_cur g < 2 ^ 64 /\ gr_code g = binary_to_gray (gr_cur g) ->
    let g' := fold_left gray_step ops g in gr_start g' = start /\ 0 <= gr_cur g' < 2 ^ 64 /\ gr_code g' = binary_to_gray (gr_cur g')).
  { induction ops as [|o ops IH]; intros g Hg; [exact Hg|]. cbn [fold_left]. apply IH. destruct Hg as (H1 & _ & _).
    destruct o; cbn; (split; [exact H1|split; [apply Z.mod_pos_bound; lia|reflexivity]]). }
  apply G. cbn. auto.
Qed.
Lemma gray_cycle n : 0 <= n < 2 ^ 64 -> one_bit_apart (binary_to_gray n) (binary_to_gray (u64 (n + 1))).
Proof.
  intros Hn. unfold u64. destruct (Z.eq_dec (n + 1) (2 ^ 64)) as [E|E].
  - rewrite E, Z_mod_same_full. replace n with (2 ^ 64 - 1) by lia. exists 63. split; [lia|].
    change (binary_to_gray (2 ^ 64 - 1)) with (2 ^ 63). change (binary_to_gray 0) with 0. intros j Hj.
    rewrite Z.bits_0. destruct (Z.eq_dec j 63) as [->|Hne]; [rewrite Z.pow2_bits_true by lia; split; [reflexivity|discriminate]|].
    rewrite Z.pow2_bits_false by lia. split; [congruence|lia].
  - rewrite Z.mod_small by lia. destruct (gray_one_bit n ltac:(lia)) as (k & Hk & Hp & Hd). exists k. split; [|exact Hd].
    split; [exact Hk|]. destruct (Z.lt_ge_cases k 64) as [H|H]; [exact H|]. exfalso.
    pose proof (Z.pow_le_mono_r 2 64 k ltac:(lia) H). lia.
Qed.
Theorem C31_one_bit_per_step : forall start ops, 0 <= start < 2 ^ 64 ->
  let g := gray_run (gray_new start) ops in
  one_bit_apart (gray_deref g) (gray_deref (gray_step g GInc)) /\
  one_bit_apart (gray_deref (gray_step g GDec)) (gray_deref g).
Proof.
  intros start ops Hs. cbv zeta. destruct (gray_run_inv start ops Hs) as (_ & H2 & H3). cbv zeta in *.
  set (g := gray_run _ _) in *. unfold gray_deref. cbn [gray_step gray_goto gr_code]. rewrite H3. split; [apply gray_cycle, H2|].
  assert (Hd : 0 <= u64 (gr_cur g - 1) < 2 ^ 64) by (apply Z.mod_pos_bound; lia).
  pose proof (gray_cycle _ Hd) as K. replace (u64 (u64 (gr_cur g - 1) + 1)) with (gr_cur g) in K; [exact K|].
  unfold u64. rewrite Zplus_mod_idemp_l. replace (gr_cur g - 1 + 1) with (gr_cur g) by lia. symmetry. apply Z.mod_small. exact H2.
Qed.
Print Assumptions C31_one_bit_per_step.

(** The value is a function of the position; for every width w it maps the first 2^w positions
    one-to-one onto the w-bit words. Two iterators are equal exactly if they are at the same position. *)
Theorem C31_every_code_once : forall w, 0 <= w <= 64 ->
  (forall n, 0 <= n < 2 ^ w -> 0 <= gray_deref (gray_new n) < 2 ^ w) /\
  (forall t, 0 <= t < 2 ^ w -> exists n, 0 <= n < 2 ^ w /\ gray_deref (gray_new n) = t /\
     forall m, 0 <= m -> gray_deref (gray_new m) = t -> m = n).
Proof.
  intros w Hw. unfold gray_deref, gray_new. cbn [gr_code]. split; [intros n Hn; apply gray_lt; lia|].
  intros t Ht. destruct (gray_surj w ltac:(lia) t Ht) as (n & Hn & E). exists n. split; [exact Hn|]. split; [exact E|].
  intros m Hm Em. apply gray_inj; [lia|lia|congruence].
Qed.
Print Assumptions C31_every_code_once.

Theorem C31_position_decides : forall s1 ops1 s2 ops2, 0 <= s1 < 2 ^ 64 -> 0 <= s2 < 2 ^ 64 ->
  let a := gray_run (gray_new s1) ops1 in let b := gray_run (gray_new s2) ops2 in
  (gray_eqb a b = true <-> gr_cur a = gr_cur b) /\
  gray_deref a = gray_deref (gray_new (gr_cur a)) /\
  (forall k, 0 <= k < 2 ^ 64 -> gray_at a k = gray_deref (gray_new ((s1 + k) mod 2 ^ 64))).
Proof.
  intros s1 ops1 s2 ops2 H1 H2. cbv zeta. destruct (gray_run_inv s1 ops1 H1) as (A1 & A2 & A3). destruct (gray_run_inv s2 ops2 H2) as (_ & B2 & B3).
  cbv zeta in *. unfold gray_eqb, gray_deref, gray_at. rewrite A1, A3, B3, Z.eqb_eq. split; [|split; [reflexivity|reflexivity]].
  split; [intros E; apply gray_inj; [lia|lia|exact E]|congruence].
Qed.
Print Assumptions C31_position_decides.

(** Moves cancel: forward and backward by the same amount is the identity on the whole iterator;
    the difference operator measures moves. *)
Theorem C31_moves_cancel : forall start ops m, 0 <= start < 2 ^ 64 ->
  let g := gray_run (gray_new start) ops in
  gray_step (gray_step g GInc) GDec = g /\ gray_step (gray_step g GDec) GInc = g /\
  gray_step (gray_step g (GAdd m)) (GSub m) = g /\ gray_step (gray_step g (GSub m)) (GAdd m) = g /\
  (gr_cur g < 2 ^ 63 -> 0 <= gr_cur g + m < 2 ^ 63 -> gray_diff (gray_plus g m) g = Some m).
Proof.
  intros start ops m Hs. cbv zeta. destruct (gray_run_inv start ops Hs) as (_ & H2 & H3). cbv zeta in *.
  set (g := gray_run _ _) in *.
  assert (R : forall x y, x + y = 0 -> gray_goto (gray_goto g (gr_cur g + x)) (u64 (gr_cur g + x) + y) = g).
  { intros x y E. unfold gray_goto. cbn [gr_start]. unfold u64. rewrite Zplus_mod_idemp_l.
    replace (gr_cur g + x + y) with (gr_cur g) by lia. rewrite Z.mod_small by exact H2. rewrite <- H3. destruct g; reflexivity. }
  cbn [gray_step gray_goto gr_cur]. split; [apply (R 1 (-1)); lia|]. split; [apply (R (-1) 1); lia|].
  split; [apply (R m (-m)); lia|]. split; [apply (R (-m) m); lia|].
  intros Hc Hm. unfold gray_diff, gray_plus. cbn [gray_step gray_goto gr_cur]. unfold i64, u64.
  rewrite (Z.mod_small (gr_cur g + m)) by lia. rewrite !Z.mod_small by lia.
  replace (gr_cur g + m + 2 ^ 63 - 2 ^ 63 - (gr_cur g + 2 ^ 63 - 2 ^ 63)) with m by lia.
  replace ((- 2 ^ 63 <=? m) && (m <? 2 ^ 63)) with true by lia. reflexivity.
Qed.
Print Assumptions C31_moves_cancel.

(** Finding: the order operators compare Gray codes, not positions: the successor of an iterator
    can be smaller than the iterator. *)
Theorem C31_order_refuted : exists n, let g := gray_new n in gray_ltb (gray_step g GInc) g = true /\ gr_cur g < gr_cur (gray_step g GInc).
Proof. exists 2. cbn. split; reflexivity. Qed.
Print Assumptions C31_order_refuted.

Example C31_nonvacuous : map (fun n => gray_deref (gray_new n)) [0; 1; 2; 3; 4; 5; 6; 7] = [0; 1; 3; 2; 6; 7; 5; 4] /\
  gray_deref (gray_run (gray_new 5) [GInc; GAdd 3; GDec; GSub 6]) = 3.
Proof. split; vm_compute; reflexivity. Qed.

(** * C32 *)
(** Reading the iterator that starts with n tiles yields, for n, n+1, ... in turn, all aspect
    ratios with that many tiles, each once. Holds as long as dimensions fit into 31 bits. *)
Theorem C32_enumerates : forall fuel n d, (1 <= fuel)%nat -> 1 <= n -> n + Z.of_nat d <= 2 ^ 31 ->
  exists it Fs, ar_new fuel n = Some it /\ length Fs = S d /\
    ar_read fuel (length (concat Fs)) it = Some (concat Fs) /\
    forall i F, nth_error Fs i = Some F -> NoDup F /\ forall c, In c F <-> ratio_of (n + Z.of_nat i) c.
Proof.
  intros fuel n d Hf Hn Hd. eexists. exists (map (fun i => factorize (n + Z.of_nat i)) (seq 0 (S d))).
  split. { unfold ar_new. replace (n =? 0) with false by lia. cbv iota. apply ar_next_ok; lia. }
  split; [rewrite map_length, seq_length; reflexivity|].
  split. { replace (n - 1 + 1) with n by lia. apply ar_read_all; lia. }
  intros i F E. assert (Hi : (i < S d)%nat). { rewrite <- (seq_length (S d) 0), <- (map_length (fun i => factorize (n + Z.of_nat i))). apply nth_error_Some. congruence. }
  assert (Es : nth_error (seq 0 (S d)) i = Some i) by (rewrite (nth_error_nth' _ 0%nat) by (rewrite seq_length; lia); rewrite seq_nth by lia; reflexivity).
  rewrite (map_nth_error _ _ _ Es) in E. assert (EF : F = factorize (n + Z.of_nat i)) by congruence. rewrite EF.
  split; [apply factorize_NoDup; lia|intros c; apply factorize_In; lia].
Qed.
Print Assumptions C32_enumerates.
Theorem C32_start_zero : forall fuel, ar_new fuel 0 = ar_new fuel 1.
Proof. reflexivity. Qed.
Print Assumptions C32_start_zero.

(** Findings: the order of iterators is not the iteration order, and <= is no order at all. *)
Theorem C32_order_refuted : exists a b, ar_new 1 4 = Some a /\ ar_incr 1 a = Some b /\ ar_ltb a b = false /\ ar_ltb b a = true /\
  ar_leb a b = true /\ ar_leb b a = true /\ ar_eqb a b = false.
Proof.
  exists (mkAr 4 [live 0 3 0; live 3 0 0; live 1 1 0] 0), (mkAr 4 [live 0 3 0; live 3 0 0; live 1 1 0] 1).
  vm_compute. repeat apply conj; reflexivity.
Qed.
Print Assumptions C32_order_refuted.

(** Finding: copies keep pointing into the vector of the original. The result of a postfix
    increment that leaves a list of factors cannot be dereferenced, and a copy cannot be incremented. *)
Definition ob0 (n : Z) : arobj := match ob_new 1 0 n with Some o => o | None => mkObj 0 [] 0 0 0 0 end.
Definition ob1 (n : Z) : list arobj := match ob_post_incr 1 [ob0 n] 0 with Some h => h | None => [] end.
Theorem C32_copies_refuted : exists o h,
  ob_new 1 0 1 = Some o /\ ob_deref [o] 0 = Some (live 0 0 0) /\
  ob_post_incr 1 [o] 0 = Some h /\ ob_deref h 0 = Some (live 0 1 0) /\ ob_deref h 1 = None /\
  (forall h', ob_copy [o] 0 = Some h' -> forall fuel, ob_incr fuel h' 1 = None).
Proof.
  exists (ob0 1), (ob1 1). split; [vm_compute; reflexivity|]. split; [vm_compute; reflexivity|]. split; [vm_compute; reflexivity|].
  split; [vm_compute; reflexivity|]. split; [vm_compute; reflexivity|]. intros h' H fuel. vm_compute in H. inversion H; subst. reflexivity.
Qed.
Print Assumptions C32_copies_refuted.

Example C32_nonvacuous : exists it, ar_new 1 4 = Some it /\
  ar_read 1 9 it = Some [live 0 3 0; live 3 0 0; live 1 1 0; live 0 4 0; live 4 0 0; live 0 5 0; live 5 0 0; live 1 2 0; live 2 1 0].
Proof. exists (mkAr 4 [live 0 3 0; live 3 0 0; live 1 1 0] 0). split; vm_compute; reflexivity. Qed.

(** * C33 *)
Theorem C33_binomial : forall fuel n k, 0 <= n < 2 ^ 64 -> 0 <= k < 2 ^ 63 -> (Z.to_nat k <= fuel)%nat ->
  Z.min k (n - k) * choose (Z.to_nat n) (Z.to_nat k) < 2 ^ 64 ->
  binomial_coefficient fuel n k = Some (choose (Z.to_nat n) (Z.to_nat k)).
Proof.
  intros fuel n k Hn Hk Hf Hb. unfold binomial_coefficient. destruct (Z.ltb_spec n k) as [H|H].
  { rewrite choose_big by lia. reflexivity. }
  cbv zeta. unfold u64. rewrite Z.mod_small by lia. set (N := Z.to_nat n) in *. set (K := Z.to_nat k) in *.
  replace n with (Z.of_nat N) by lia. destruct (Z.ltb_spec (Z.of_nat N) (2 * k)) as [H2|H2].
  - rewrite <- (choose_sym N K) in * by lia.
    replace (Z.of_nat N - k) with (Z.of_nat (N - K)) by lia.
    pose proof (binom_loop_ok N (N - K) ltac:(lia) ltac:(lia)) as L.
    assert (Hb' : Z.of_nat (N - K) * choose N (N - K) < 2 ^ 64) by (replace (Z.of_nat (N - K)) with (Z.min k (n - k)) by lia; exact Hb).
    specialize (L Hb' (N - K)%nat fuel (le_n _) ltac:(lia)). rewrite Nat.sub_diag, choose_0 in L. exact L.
  - replace k with (Z.of_nat K) by lia. pose proof (binom_loop_ok N K ltac:(lia) ltac:(lia)) as L.
    assert (Hb' : Z.of_nat K * choose N K < 2 ^ 64) by (replace (Z.of_nat K) with (Z.min k (n - k)) by lia; exact Hb).
    specialize (L Hb' K fuel (le_n _) ltac:(lia)). rewrite Nat.sub_diag, choose_0 in L. exact L.
Qed.
Print Assumptions C33_binomial.
(** Symmetry needs no bound: both calls run the same loop. *)
Theorem C33_symmetric : forall fuel n k, 0 <= n < 2 ^ 63 -> 0 <= k <= n -> binomial_coefficient fuel n k = binomial_coefficient fuel n (n - k).
Proof.
  intros fuel n k Hn Hk. unfold binomial_coefficient, u64. rewrite !Z.mod_small by lia. cbv zeta.
  replace (n <? k) with false by lia. replace (n <? n - k) with false by lia.
  destruct (Z.ltb_spec n (2 * k)), (Z.ltb_spec n (2 * (n - k))); try lia; f_equal; lia.
Qed.
Print Assumptions C33_symmetric.
(** Findings: although the result fits into 64 bits, the intermediate product may not; and for the
    largest arguments the loop never ends. *)
Theorem C33_overflow_refuted : exists n k, 0 <= k <= n /\ n < 2 ^ 33 /\ choose (Z.to_nat n) (Z.to_nat k) < 2 ^ 64 /\
  binomial_coefficient 2 n k = Some (2 ^ 31) /\ choose (Z.to_nat n) (Z.to_nat k) = 2 ^ 31 * (2 ^ 32 + 1).
Proof.
  exists (2 ^ 32 + 1), 2. assert (E : choose (Z.to_nat (2 ^ 32 + 1)) (Z.to_nat 2) = 2 ^ 31 * (2 ^ 32 + 1)).
  { remember (Z.to_nat (2 ^ 32 + 1)) as N eqn:EN. assert (HN : Z.of_nat N = 2 ^ 32 + 1) by lia. clear EN.
    change (Z.to_nat 2) with 2%nat. pose proof (choose_step N 0 ltac:(lia)) as E1. pose proof (choose_step N 1 ltac:(lia)) as E2.
    rewrite choose_0 in E1. nia. }
  split; [lia|]. split; [lia|]. split; [rewrite E; lia|]. split; [vm_compute; reflexivity|exact E].
Qed.
Print Assumptions C33_overflow_refuted.
Lemma binom_loop_endless fuel n : forall i r, 0 <= i < 2 ^ 64 -> binom_loop fuel n (2 ^ 64 - 1) i r = None.
Proof.
  induction fuel as [|f IH]; intros i r Hi; cbn [binom_loop]; (destruct (Z.leb_spec i (2 ^ 64 - 1)); [|lia]); [reflexivity|].
  destruct (i =? 0); [reflexivity|]. apply IH. apply Z.mod_pos_bound. lia.
Qed.
Theorem C33_diverges_refuted : forall fuel, binomial_coefficient fuel (2 ^ 64 - 1) (2 ^ 64 - 1) = None /\
  choose (Z.to_nat (2 ^ 64 - 1)) (Z.to_nat (2 ^ 64 - 1)) = 1.
Proof.
  intros fuel. split; [|apply choose_diag]. unfold binomial_coefficient.
  destruct (Z.ltb_spec (2 ^ 64 - 1) (2 ^ 64 - 1)) as [H|_]; [lia|]. cbv zeta.
  replace (2 ^ 64 - 1 <? u64 (2 * (2 ^ 64 - 1))) with false by reflexivity. apply binom_loop_endless. lia.
Qed.
Print Assumptions C33_diverges_refuted.
Example C33_nonvacuous : binomial_coefficient 10 20 10 = Some 184756 /\ choose 20 10 = 184756 /\ Z.min 10 (20 - 10) * 184756 < 2 ^ 64.
Proof. split; [vm_compute; reflexivity|]. split; [vm_compute; reflexivity|lia]. Qed.

(** * C34 *)
(** Missing from the full property: k = 0, see below. *)
Theorem C34_choices_partial : forall k n, (0 < k)%nat ->
  (forall c, In c (all_combinations k n) <-> is_choice k n c) /\ NoDup (all_combinations k n) /\
  StronglySorted lex_lt (all_combinations k n) /\ Z.of_nat (length (all_combinations k n)) = choose n k.
Proof.
  intros k n Hk. destruct (Nat.le_gt_cases k n) as [H|H].
  - rewrite all_combinations_combos by assumption. split; [|split; [apply sorted_NoDup, combos_sorted|split; [apply combos_sorted|apply combos_length]]].
    intros c. rewrite combos_In. unfold is_choice. split; intros (H1 & H2 & H3); (split; [exact H1|split; [exact H2|]]);
    (eapply Forall_impl; [|exact H3]); cbn; intros; lia.
  - assert (E : all_combinations k n = []) by (unfold all_combinations; destruct (Nat.ltb_spec n k); [reflexivity|lia]).
    rewrite E. split; [|split; [constructor|split; [constructor|rewrite choose_big by lia; reflexivity]]].
    intros c. split; [intros []|]. intros (H1 & H2 & H3). exfalso.
    assert (Hin : incl c (seq 0 n)). { intros p Hp. apply in_seq. rewrite Forall_forall in H3. specialize (H3 p Hp). lia. }
    assert (Hnd : NoDup c). { clear - H2. induction H2 as [|x l Hs IH Hf]; constructor; [|exact IH]. intros Hx. rewrite Forall_forall in Hf. specialize (Hf _ Hx). lia. }
    pose proof (NoDup_incl_length Hnd Hin) as K. rewrite seq_length in K. lia.
Qed.
Print Assumptions C34_choices_partial.
(** Finding: no entities can be distributed in one way, but the function returns no combination. *)
Theorem C34_nothing_refuted : forall n, all_combinations 0 n = [] /\ is_choice 0 n [] /\ choose n 0 = 1.
Proof. intros n. split; [reflexivity|]. split; [|apply choose_0]. split; [reflexivity|split; constructor]. Qed.
Print Assumptions C34_nothing_refuted.
Example C34_nonvacuous : all_combinations 2 4 = [[0; 1]; [0; 2]; [0; 3]; [1; 2]; [1; 3]; [2; 3]]%nat.
Proof. vm_compute. reflexivity. Qed.

(** * C35 *)
(** The combination at the position denoted by the digits ds consists of the ds_j-th elements; the
    number of combinations is the product of the sizes. *)
Theorem C35_positions : forall (A : Type) (sets : list (list A)) ds es,
  Forall2 (fun i s => (i < length s)%nat) ds sets -> length es = length sets ->
  (forall j i s, nth_error ds j = Some i -> nth_error sets j = Some s -> nth_error es j = nth_error s i) ->
  nth_error (cartesian_combinations sets) (mixed_radix sets ds) = Some es /\
  length (cartesian_combinations sets) = product (map (@length A) sets).
Proof. intros A sets ds es H1 H2 H3. split; [apply cart_nth; assumption|apply cart_length]. Qed.
Print Assumptions C35_positions.
Theorem C35_members : forall (A : Type) (sets : list (list A)) c,
  In c (cartesian_combinations sets) <-> Forall2 (fun e s => In e s) c sets.
Proof. intros A sets c. apply cart_In. Qed.
Print Assumptions C35_members.
Theorem C35_once : forall (A : Type) (sets : list (list A)), Forall (@NoDup A) sets -> NoDup (cartesian_combinations sets).
Proof.
  intros A sets. induction sets as [|d sets IH] using rev_ind; intros H; [repeat constructor; intros []|].
  apply Forall_app in H as [H1 H2]. inversion H2; subst. rewrite cart_snoc. apply NoDup_flat_map; [apply IH, H1| |].
  - intros p _. apply FinFun.Injective_map_NoDup; [|assumption]. intros x y E. apply app_inj_tail in E. apply E.
  - intros p q c _ _ Hp Hq. apply in_map_iff in Hp as (e & <- & _). apply in_map_iff in Hq as (f & E & _). apply app_inj_tail in E. symmetry. apply E.
Qed.
Print Assumptions C35_once.
Example C35_nonvacuous : cartesian_combinations [[1; 2]; [3]; [4; 5]] = [[1; 3; 4]; [1; 3; 5]; [2; 3; 4]; [2; 3; 5]] /\
  mixed_radix [[1; 2]; [3]; [4; 5]] [1; 0; 0]%nat = 2%nat.
Proof. split; reflexivity. Qed.

(** * C45 *)
Theorem C45_first_shared_pair : forall (E : Type) (eqb : E -> E -> bool), (forall a b, eqb a b = true <-> a = b) ->
  forall L S, L <> [] -> S <> [] ->
  exists r, find_first_two_of eqb L S = Some r /\ (r <= length L)%nat /\
    (r < length L -> shared_at L S r)%nat /\ (forall i, (i < r)%nat -> ~ shared_at L S i) /\
    (r = length L -> forall i, ~ shared_at L S i).
Proof.
  intros E eqb He L S HL HS. exists (outer_two eqb L S).
  destruct (outer_two_spec eqb He S L) as [H1 H2]. cbv zeta in *.
  split. { destruct L as [|a [|b L]]; [congruence|reflexivity|]. destruct S; [congruence|reflexivity]. }
  assert (Hs : forall i, shared_at L S i -> (i < length L)%nat). { intros i (j & a & b & H & _). apply nth_error_Some. congruence. }
  destruct H2 as [H2|[H2 H3]].
  - pose proof (Hs _ H2). split; [lia|]. split; [auto|]. split; [exact H1|]. intros; lia.
  - split; [lia|]. split; [lia|]. split; [exact H1|]. intros _. exact H3.
Qed.
Print Assumptions C45_first_shared_pair.
(** Finding: an empty range (or an empty pattern) is undefined behaviour. *)
Theorem C45_empty_refuted : find_first_two_of Z.eqb [] [1; 2] = None /\ find_first_two_of Z.eqb [1; 2] [] = None.
Proof. split; reflexivity. Qed.
Print Assumptions C45_empty_refuted.
Example C45_nonvacuous : find_first_two_of Z.eqb [0; 1; 1; 2; 3; 3] [1; 2; 3; 3] = Some 2%nat /\ shared_at [0; 1; 1; 2; 3; 3] [1; 2; 3; 3] 2.
Proof. split; [reflexivity|]. exists 0%nat, 1, 2. auto. Qed.
