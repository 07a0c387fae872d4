(** Proofs about SidbModel.v, part 9: the two-state loop of QuickExact, which steps through the Gray code. *)
From Coq Require Import ZArith QArith Qcanon Bool List Lia Lqa Permutation Sorted.
From Verif Require Import CoordModel CoordProofs UtilModel UtilProofs SidbModel SidbSpec SidbProofs SidbProofs2 SidbProofs3 SidbProofs4 SidbProofs5 SidbProofs7 SidbProofs8.
Import ListNotations.
Local Open Scope Z_scope.

Lemma lowest_bit_eq diff k : (forall j, 0 <= j < k -> Z.testbit diff j = false) -> Z.testbit diff k = true -> k < 64 ->
  forall fuel i, 0 <= i <= k -> k - i <= Z.of_nat fuel -> lowest_bit fuel diff i = k.
Proof.
  intros F T K. induction fuel as [|fuel IH]; intros i Hi Hf; cbn [lowest_bit]; [lia|].
  destruct (Z.eq_dec i k) as [->|Ne].
  - rewrite T. cbn [negb]. rewrite andb_false_r. reflexivity.
  - rewrite (F i) by lia. destruct (Z.ltb_spec i 64); [|lia]. cbn [negb andb]. apply IH; lia.
Qed.
Lemma pow2_bits w a b : 0 <= w -> 0 <= a < 2 ^ w -> 0 <= b < 2 ^ w -> (forall i, 0 <= i < w -> Z.testbit a i = Z.testbit b i) -> a = b.
Proof.
  intros Hw Ha Hb E. apply Z.bits_inj'. intros j Hj. destruct (Z.lt_ge_cases j w) as [L|L]; [apply E; lia|].
  assert (X : forall x, 0 <= x < 2 ^ w -> Z.testbit x j = false).
  { intros x Hx. destruct (Z.eq_dec x 0) as [->|N0]; [apply Z.bits_0|]. apply Z.bits_above_log2; [lia|].
    apply Z.log2_lt_pow2; [lia|]. apply (Z.lt_le_trans _ (2 ^ w)); [lia|]. apply Z.pow_le_mono_r; lia. }
  rewrite !X by assumption. reflexivity.
Qed.
Lemma index_nth (cells : list coord) i : NoDup cells -> (i < length cells)%nat -> index_in (nth i cells dead0) cells = Z.of_nat i.
Proof.
  intros N H. destruct (index_in_nth (nth i cells dead0) cells (nth_In cells dead0 H)) as [B E].
  assert (Z.to_nat (index_in (nth i cells dead0) cells) = i); [|lia].
  apply (proj1 (NoDup_nth cells dead0) N); auto. lia.
Qed.

Section Gray.
Context (phi : Qc -> Qc -> coord -> coord -> Qc)
        (phi_self : forall e l a, phi e l a a = 0%Qc) (phi_sym : forall e l a b, phi e l a b = phi e l b a)
        (cells : list coord) (Hnd : NoDup cells) (p : params) (ext dp : coord -> Qc) (dep : coord) (Hdep : In dep cells)
        (Hsize : 3 ^ Z.of_nat (length cells) <= 2 ^ 53).
Let lpf := lp phi p cells dp.
Let vld := validb phi p cells ext dp.
Let w := Z.of_nat (length cells) - 1.
Let depi := index_in dep cells.
Let Snp := Snap phi cells p ext dp dep.
Let Rn := Run phi cells p ext dp dep.

Definition skip (i : Z) : Z := if i <? depi then i else i + 1.
Definition cell (i : Z) : coord := nth (Z.to_nat (skip i)) cells dead0.
Lemma depi_range : 0 <= depi < Z.of_nat (length cells) /\ nth (Z.to_nat depi) cells dead0 = dep.
Proof. apply index_in_nth, Hdep. Qed.
Lemma w_bound : 0 <= w < 64.
Proof.
  pose proof depi_range as [R _]. unfold w. split; [lia|]. destruct (Z.lt_ge_cases (Z.of_nat (length cells)) 64) as [L|L]; [lia|].
  exfalso. assert (3 ^ 64 <= 3 ^ Z.of_nat (length cells)) by (apply Z.pow_le_mono_r; lia).
  assert (2 ^ 53 < 3 ^ 64) by reflexivity. lia.
Qed.
Lemma skip_range i : 0 <= i < w -> 0 <= skip i < Z.of_nat (length cells) /\ skip i <> depi.
Proof. intros H. unfold w in H. unfold skip. destruct (Z.ltb_spec i depi); lia. Qed.
Lemma cell_in i : 0 <= i < w -> In (cell i) cells /\ cell i <> dep /\ index_in (cell i) cells = skip i.
Proof.
  intros H. destruct (skip_range i H) as [R N]. assert (I : index_in (cell i) cells = skip i).
  { unfold cell. rewrite index_nth by (auto; lia). lia. }
  split; [apply nth_In; lia|]. split; [|exact I]. intros E. rewrite E in I. fold depi in I. congruence.
Qed.
Lemma cell_inj i j : 0 <= i < w -> 0 <= j < w -> cell i = cell j -> i = j.
Proof.
  intros Hi Hj E. destruct (cell_in i Hi) as (_ & _ & I1). destruct (cell_in j Hj) as (_ & _ & I2). rewrite E in I1. rewrite I2 in I1.
  unfold skip in I1. destruct (Z.ltb_spec i depi), (Z.ltb_spec j depi); lia.
Qed.
Lemma cell_surj c : In c cells -> c <> dep -> exists i, 0 <= i < w /\ cell i = c.
Proof.
  intros Hc Ne. destruct (index_in_nth c cells Hc) as [R E]. pose proof depi_range as [Rd Ed]. set (j := index_in c cells) in *.
  assert (j <> depi). { intros X. apply Ne. rewrite <- E, <- Ed, X. reflexivity. }
  exists (if j <? depi then j else j - 1). unfold cell, skip, w. destruct (Z.ltb_spec j depi).
  - destruct (Z.ltb_spec j depi); [|lia]. split; [lia|exact E].
  - destruct (Z.ltb_spec (j - 1) depi); [lia|]. replace (j - 1 + 1) with j by lia. split; [lia|exact E].
Qed.

Definition Bits (f : coord -> cs) (g : Z) : Prop := forall i, 0 <= i < w -> f (cell i) = if Z.testbit g i then NEG else NEU.
Lemma bits_inj f f' g : Bits f g -> Bits f' g -> forall c, In c cells -> c <> dep -> f c = f' c.
Proof. intros B B' c Hc Ne. destruct (cell_surj c Hc Ne) as (i & Hi & <-). rewrite (B i Hi), (B' i Hi). reflexivity. Qed.
Lemma bits_agree f f' g : Bits f g -> (forall c, In c cells -> c <> dep -> f c = f' c) -> Bits f' g.
Proof. intros B E i Hi. destruct (cell_in i Hi) as (H1 & H2 & _). rewrite <- E by assumption. apply B, Hi. Qed.
Lemma bits_fupd f g x : Bits f g -> Bits (fupd f dep x) g.
Proof.
  intros B. apply (bits_agree f); auto. intros c Hc Ne. unfold fupd. apply coord_eqb_false in Ne. rewrite Ne. reflexivity.
Qed.
Lemma bits_code f g g' : 0 <= g < 2 ^ w -> 0 <= g' < 2 ^ w -> Bits f g -> Bits f g' -> g = g'.
Proof.
  intros H H' B B'. apply (pow2_bits w); auto; [apply w_bound|]. intros i Hi. specialize (B i Hi). specialize (B' i Hi).
  rewrite B in B'. destruct (Z.testbit g i), (Z.testbit g' i); congruence.
Qed.
Lemma bits_exist f : (forall c, In c cells -> c <> dep -> f c = NEG \/ f c = NEU) -> exists g, 0 <= g < 2 ^ w /\ Bits f g.
Proof.
  intros A. assert (X : forall k, 0 <= k <= w -> exists g, 0 <= g < 2 ^ k /\ forall i, 0 <= i < k -> f (cell i) = if Z.testbit g i then NEG else NEU).
  { intros k Hk. assert (Z.of_nat (Z.to_nat k) = k) by lia. revert H Hk. generalize (Z.to_nat k) as m. intros m. revert k.
    induction m as [|m IH]; intros k E Hk.
    - exists 0. assert (k = 0) by lia. subst. split; [cbn; lia|]. intros; lia.
    - destruct (IH (k - 1)) as (g & Hg & Bg); [lia|lia|].
      destruct (cell_in (k - 1) ltac:(lia)) as (C1 & C2 & _).
      assert (T : forall x, Z.testbit (g + Z.b2z x * 2 ^ (k - 1)) (k - 1) = x).
      { intros x. rewrite Z.testbit_eqb by lia. rewrite Z.div_add by (apply Z.pow_nonzero; lia). rewrite Z.div_small by lia.
        destruct x; reflexivity. }
      assert (T' : forall x i, 0 <= i < k - 1 -> Z.testbit (g + Z.b2z x * 2 ^ (k - 1)) i = Z.testbit g i).
      { intros x i Hi. rewrite !Z.testbit_eqb by lia. replace (Z.b2z x * 2 ^ (k - 1)) with ((Z.b2z x * 2 ^ (k - 1 - i)) * 2 ^ i).
        - rewrite Z.div_add by (apply Z.pow_nonzero; lia). replace (k - 1 - i) with (1 + (k - 2 - i)) by lia.
          rewrite Z.pow_add_r by lia. replace (Z.b2z x * (2 ^ 1 * 2 ^ (k - 2 - i))) with ((Z.b2z x * 2 ^ (k - 2 - i)) * 2) by (cbn; ring).
          rewrite Z.mod_add by lia. reflexivity.
        - rewrite <- Z.mul_assoc, <- Z.pow_add_r by lia. do 2 f_equal. lia. }
      exists (g + Z.b2z (cs_eqb (f (cell (k - 1))) NEG) * 2 ^ (k - 1)). split.
      + assert (2 ^ k = 2 * 2 ^ (k - 1)) by (rewrite <- Z.pow_succ_r by lia; f_equal; lia). destruct (cs_eqb _ _); cbn [Z.b2z]; lia.
      + intros i Hi. destruct (Z.eq_dec i (k - 1)) as [->|Ni].
        * rewrite T. destruct (A (cell (k - 1)) C1 C2) as [-> | ->]; reflexivity.
        * rewrite T' by lia. apply Bg. lia. }
  apply X. pose proof w_bound. lia.
Qed.

(** One step. *)
Definition Two (d : cds) : Prop := p_base (d_par d) = 2 /\ d_max d = 2 ^ w - 1.
Lemma frame_two d d' : frame d' = frame d -> Two d -> Two d' /\ b3 d' = b3 d.
Proof.
  unfold frame, Two, b3. intros E [T1 T2]. injection E as F1 F2 F3 F4 F5 F6 F7 F8. rewrite F1, F2, F5, F6. repeat split; assumption.
Qed.
Lemma run_gray d f x : Rn d f -> Rn (set_gray d x) f.
Proof.
  intros [S C F D Q J]. split; auto; [|destruct D; split; auto].
  destruct S as [S1 S2 S3 S4 S5 S6 S7 S8 S9 S10 S11 S12 S13]. split; cbn; auto.
Qed.
Lemma gray_step d f m : Rn d f -> d_int d = map (lpf f) cells -> Two d -> 0 <= m < 2 ^ w ->
  let prev := if m =? 0 then 0 else binary_to_gray (m - 1) in
  Bits f prev ->
  let d' := assign_charge_index_by_gray_code phi d (binary_to_gray m) prev true false true in
  exists f', Snp d' f' /\ Bits f' (binary_to_gray m) /\ Two d' /\ b3 d' = b3 d.
Proof.
  intros R J [T1 T2] Hm prev B d'. unfold d', assign_charge_index_by_gray_code. clear d'. pose proof w_bound as Hw.
  pose proof (gray_lt w ltac:(lia) m Hm) as Hg. rewrite T2. destruct (Z.leb_spec (binary_to_gray m) (2 ^ w - 1)); [|lia].
  pose proof (run_idx phi cells p ext dp dep d f (binary_to_gray m) R) as R0.
  set (d0 := set_idx d (binary_to_gray m)) in *. unfold gray_code_to_charge_distribution. cbv zeta.
  destruct (Z.eqb_spec m 0) as [->|Nm]; cbv zeta in B; unfold prev in *.
  - change (binary_to_gray 0) with 0 in *. change (Z.lxor 0 0 =? 0) with true. cbv iota.
    assert (R1 : Rn (set_gray d0 (-1, 0)) f) by (apply run_gray, R0).
    assert (U : update_int_consider (set_gray d0 (-1, 0)) = set_int (set_gray d0 (-1, 0)) (map (lpf f) cells)).
    { unfold update_int_consider. change (p_base (d_par (set_gray d0 (-1, 0)))) with (p_base (d_par d)). rewrite T1.
      change (2 =? 2) with true. cbv iota. cbn [d_gray set_gray]. change (-1 =? -1) with true. cbv iota. rewrite <- J. destruct d; reflexivity. }
    destruct (refresh phi phi_self phi_sym cells Hnd p ext dp dep _ f false true R1 U) as (S1 & S2 & _).
    eexists. split; [exact S1|]. split; [apply bits_fupd, B|].
    exact (frame_two _ _ S2 (conj T1 T2)).
  - destruct (gray_one_bit (m - 1) ltac:(lia)) as (k & Hk & Kp & Kd). replace (m - 1 + 1) with m in * by lia.
    set (old := binary_to_gray (m - 1)) in *. set (new := binary_to_gray m) in *.
    assert (Kw : k < w). { apply (Z.pow_lt_mono_r_iff 2); lia. }
    assert (X : forall j, 0 <= j -> Z.testbit (Z.lxor new old) j = (j =? k)).
    { intros j Hj. rewrite Z.lxor_spec. specialize (Kd j Hj). destruct (Z.eqb_spec j k) as [E|E].
      - apply Kd in E. destruct (Z.testbit new j), (Z.testbit old j); try reflexivity; congruence.
      - destruct (Z.testbit new j) eqn:E1, (Z.testbit old j) eqn:E2; try reflexivity; exfalso; apply E, Kd; congruence. }
    assert (N0 : Z.lxor new old <> 0). { intros E. pose proof (X k Hk) as Y. rewrite E, Z.bits_0, Z.eqb_refl in Y. discriminate. }
    destruct (Z.eqb_spec (Z.lxor new old) 0); [contradiction|].
    rewrite (lowest_bit_eq (Z.lxor new old) k).
    2:{ intros j Hj. rewrite X by lia. apply Z.eqb_neq. lia. } 2:{ rewrite X by lia. apply Z.eqb_refl. } 2:{ lia. } 2:{ lia. } 2:{ lia. }
    change (d_depi d0) with (d_depi d). rewrite (dp_idx _ _ _ (rn_dep _ _ _ _ _ _ _ _ R)). fold depi. fold (skip k).
    destruct (cell_in k ltac:(lia)) as (C1 & C2 & C3). destruct (skip_range k ltac:(lia)) as [Sr _].
    set (s := of_sign (- b2z (Z.testbit new k))).
    assert (Es : s = if Z.testbit new k then NEG else NEU) by (unfold s; destruct (Z.testbit new k); reflexivity).
    assert (Eo : - b2z (Z.testbit old k) = sgn (f (cell k))) by (rewrite (B k) by lia; destruct (Z.testbit old k); reflexivity).
    rewrite Eo. unfold assign_by_index. change (d_charge (set_gray d0 (skip k, sgn (f (cell k))))) with (d_charge d).
    pose proof (rn_charges _ _ _ _ _ _ _ _ R) as C. rewrite (proj2 C), map_length.
    replace ((0 <=? skip k) && (skip k <? Z.of_nat (length cells))) with true by (symmetry; apply andb_true_iff; lia).
    rewrite <- C3, (upd_fupd f (cell k) cells s Hnd C1).
    set (d1 := set_charge (set_gray d0 (index_in (cell k) cells, sgn (f (cell k)))) (map (fupd f (cell k) s) cells)).
    assert (R1 : Rn d1 (fupd f (cell k) s)).
    { pose proof (run_gray d0 f (index_in (cell k) cells, sgn (f (cell k))) R0) as R1.
      pose proof (run_with phi cells p ext dp dep _ f (fupd f (cell k) s) (d_hist d) R1) as R2.
      assert (G : forall c, In c cells -> fupd f (cell k) s c <> NON).
      { intros c Hc. unfold fupd. destruct (coord_eqb c (cell k)); [rewrite Es; destruct (Z.testbit new k); discriminate|]. apply R, Hc. }
      specialize (R2 G). unfold d1, d0 in *. destruct d; exact R2. }
    assert (U : update_int_consider d1 = set_int d1 (map (lpf (fupd f (cell k) s)) cells)).
    { apply (consider_gray phi phi_self phi_sym cells Hnd p ext dp d1 f (cell k) s); auto.
      - apply R1. - apply R1. }
    destruct (refresh phi phi_self phi_sym cells Hnd p ext dp dep _ _ false true R1 U) as (S1 & S2 & _).
    eexists. split; [exact S1|]. split; [|].
    + apply bits_fupd. intros i Hi. unfold fupd. destruct (coord_eqb (cell i) (cell k)) eqn:E.
      * apply coord_eqb_spec in E. apply cell_inj in E; [|lia|lia]. subst i. exact Es.
      * rewrite (B i Hi). apply coord_eqb_false in E. assert (i <> k) by (intros ->; contradiction).
        destruct (Bool.bool_dec (Z.testbit old i) (Z.testbit new i)) as [<-|Y]; [reflexivity|]. exfalso. apply H0, Kd; [lia|exact Y].
    + exact (frame_two _ _ S2 (conj T1 T2)).
Qed.

(** The loop. *)
Let body cl := fun (st : cds * Z * list cds) (i : nat) =>
  let '(d, prev, res) := st in
  let g := gray_deref (gray_new (Z.of_nat i)) in
  let d := assign_charge_index_by_gray_code phi d g prev true false true in
  (d, g, record_if_valid phi cl d res).

Lemma gray_loop_ok cl k : forall m d f res, Rn d f -> d_int d = map (lpf f) cells -> Two d ->
  Z.of_nat (m + k) <= 2 ^ w ->
  Bits f (if Z.of_nat m =? 0 then 0 else binary_to_gray (Z.of_nat m - 1)) ->
  exists d' g' ds, fold_left (body cl) (seq m k) (d, if Z.of_nat m =? 0 then 0 else binary_to_gray (Z.of_nat m - 1), res) =
      (d', g', res ++ map (record_result phi cl) ds) /\ d_ub d' = false /\
    (forall x, In x ds -> exists h j, Snp x h /\ vld h = true /\ Bits h (binary_to_gray j) /\ Z.of_nat m <= j < Z.of_nat (m + k)) /\
    (forall h j, Bits h (binary_to_gray j) -> Z.of_nat m <= j < Z.of_nat (m + k) -> settled phi cells p ext dp dep (b3 d) h -> vld h = true ->
       exists x, In x ds /\ charges cells x h) /\
    NoDup (map d_charge ds).
Proof.
  induction k as [|k IH]; intros m d f res R J T L B.
  - cbn [seq fold_left]. eexists _, _, []. split; [rewrite app_nil_r; reflexivity|]. split; [apply (st_ub _ _ _ _ _ _ (rn_static _ _ _ _ _ _ _ _ R))|].
    split; [intros x []|]. split; [intros; lia|constructor].
  - cbn [seq fold_left]. unfold body at 2. unfold gray_deref, gray_new. cbn [gr_code].
    destruct (gray_step d f (Z.of_nat m) R J T ltac:(lia) B) as (f' & S1 & S2 & S3 & S4). cbv zeta in S1, S2, S3, S4.
    set (d1 := assign_charge_index_by_gray_code phi d (binary_to_gray (Z.of_nat m)) _ true false true) in *.
    destruct (IH (S m) d1 f' (record_if_valid phi cl d1 res)) as (d' & g' & ds & U1 & U2 & U3 & U4 & U5); auto.
    { apply S1. } { apply S1. } { lia. }
    { destruct (Z.eqb_spec (Z.of_nat (S m)) 0); [lia|]. replace (Z.of_nat (S m) - 1) with (Z.of_nat m) by lia. exact S2. }
    assert (Pv : (if Z.of_nat (S m) =? 0 then 0 else binary_to_gray (Z.of_nat (S m) - 1)) = binary_to_gray (Z.of_nat m)).
    { destruct (Z.eqb_spec (Z.of_nat (S m)) 0); [lia|]. f_equal. lia. }
    rewrite Pv in U1.
    exists d', g', ((if d_valid d1 then [d1] else []) ++ ds). split; [rewrite U1, record_app, map_app, app_assoc; reflexivity|].
    split; [exact U2|]. rewrite (sn_valid _ _ _ _ _ _ _ _ S1). fold vld. split; [|split].
    + intros x Hx. apply in_app_or in Hx. destruct Hx as [Hx|Hx].
      * destruct (vld f') eqn:V; [|destruct Hx]. destruct Hx as [<-|[]]. exists f', (Z.of_nat m). repeat (split; [assumption|]). lia.
      * destruct (U3 x Hx) as (h & j & H1 & H2 & H3 & H4). exists h, j. repeat (split; [assumption|]). lia.
    + intros h j Bh Rj St V. destruct (Z.eq_dec j (Z.of_nat m)) as [->|Ne].
      * rewrite <- S4 in St. pose proof (snap_settled phi cells p ext dp dep d1 h f' S1 St (bits_inj h f' _ Bh S2)) as E.
        assert (Vf : vld f' = true) by (rewrite <- V; apply validb_agree, E). rewrite Vf. exists d1. split; [left; reflexivity|].
        destruct (rn_charges _ _ _ _ _ _ _ _ (sn_run _ _ _ _ _ _ _ _ S1)) as [C1 C2]. split; [exact C1|]. rewrite C2. apply map_ext_in, E.
      * destruct (U4 h j Bh ltac:(lia)) as (x & Hx & Cx); [rewrite S4; exact St|exact V|]. exists x. split; [apply in_or_app; right; exact Hx|exact Cx].
    + destruct (vld f') eqn:V; [|exact U5]. cbn [app map]. constructor; [|exact U5]. intros C. apply in_map_iff in C. destruct C as (y & Ey & Hy).
      destruct (U3 y Hy) as (h & j & H1 & H2 & H3 & H4).
      assert (E : map h cells = map f' cells).
      { rewrite <- (proj2 (rn_charges _ _ _ _ _ _ _ _ (sn_run _ _ _ _ _ _ _ _ S1))), <- (proj2 (rn_charges _ _ _ _ _ _ _ _ (sn_run _ _ _ _ _ _ _ _ H1))). exact Ey. }
      pose proof (bits_agree h f' _ H3 (fun c Hc _ => map_agree h f' cells E c Hc)) as B2.
      pose proof w_bound. assert (Q : binary_to_gray j = binary_to_gray (Z.of_nat m)).
      { apply (bits_code f'); auto; apply gray_lt; lia. }
      apply gray_inj in Q; lia.
Qed.
End Gray.
