(** Proofs about SidbModel.v, part 8: the loops of QuickExact over the charge indices of the two parts of the layout. *)
From Coq Require Import ZArith QArith Qcanon Bool List Lia Lqa Permutation Sorted.
From Verif Require Import CoordModel CoordProofs UtilModel SidbModel SidbSpec SidbProofs SidbProofs2 SidbProofs3 SidbProofs4 SidbProofs5 SidbProofs7.
Import ListNotations.
Local Open Scope Z_scope.

Section Loops.
Context (phi : Qc -> Qc -> coord -> coord -> Qc)
        (phi_self : forall e l a, phi e l a a = 0%Qc) (phi_sym : forall e l a b, phi e l a b = phi e l b a)
        (cells : list coord) (Hnd : NoDup cells) (p : params) (ext dp : coord -> Qc) (dep : coord).
Let lpf := lp phi p cells dp.
Let vld := validb phi p cells ext dp.
Let dnx b := depnext phi cells p ext dp b dep.

(** The surface holds [f]; its other fields are as they should be, but potentials and validity may be out of date. *)
Record Run (d : cds) (f : coord -> cs) : Prop := mkRun {
  rn_static : Static phi d cells p ext dp;
  rn_charges : charges cells d f;
  rn_some : forall c, In c cells -> f c <> NON;
  rn_dep : Dep cells d dep;
  rn_eng : d_eng d = QUICKEXACT;
  rn_int : exists ip, d_int d = map ip cells
}.
(** Everything is up to date. *)
Record Snap (d : cds) (f : coord -> cs) : Prop := mkSnap {
  sn_run : Run d f;
  sn_int : d_int d = map (lpf f) cells;
  sn_valid : d_valid d = vld f;
  sn_rule : f dep = dnx (b3 d) f
}.
(** The fields that the updates do not touch. *)
Definition frame (d : cds) := (d_base d, d_max d, d_maxsub d, d_two d, d_three d, p_base (d_par d), d_idx d, d_sub d).

Lemma dnx_agree b f g : (forall c, In c cells -> f c = g c) -> In dep cells -> dnx b f = dnx b g.
Proof.
  intros E I. unfold dnx, depnext. rewrite (lp_agree phi p cells dp f g dep E), (E dep I). reflexivity.
Qed.
Lemma dnx_idem b f : In dep cells -> dnx b (fupd f dep (dnx b f)) = dnx b f.
Proof.
  intros I. unfold dnx at 1. unfold depnext. rewrite (lp_self phi phi_self cells Hnd p dp f dep _ I).
  destruct (bnd p ext dep) as [[[nu pl] nl] uu] eqn:B. destruct (qltb (- lp phi p cells dp f dep) nu) eqn:Q1.
  - unfold dnx, depnext. rewrite B, Q1. reflexivity.
  - destruct (qltb pl (- lp phi p cells dp f dep)) eqn:Q2.
    + unfold fupd. rewrite coord_eqb_refl. unfold dnx, depnext. rewrite B, Q1, Q2. destruct b; reflexivity.
    + unfold dnx, depnext. rewrite B, Q1, Q2. reflexivity.
Qed.
Lemma fupd_some f s : (forall c, In c cells -> f c <> NON) -> s <> NON -> forall c, In c cells -> fupd f dep s c <> NON.
Proof. intros F S c Hc. unfold fupd. destruct (coord_eqb c dep); auto. Qed.
Lemma dnx_some b f : f dep <> NON -> dnx b f <> NON.
Proof.
  unfold dnx, depnext. intros H. destruct (bnd p ext dep) as [[[nu pl] nl] uu].
  destruct (qltb _ _); [discriminate|]. destruct (qltb _ _); [|discriminate]. destruct b; [discriminate|exact H].
Qed.

Lemma refresh d f e hist : Run d f ->
  (if (hist : bool) then update_int_consider d else update_int_neglect d) = set_int d (map (lpf f) cells) ->
  let f' := fupd f dep (dnx (b3 d) f) in
  Snap (update_after_charge_change phi d true e hist) f' /\ frame (update_after_charge_change phi d true e hist) = frame d /\
  d_defs (update_after_charge_change phi d true e hist) = d_defs d /\ d_par (update_after_charge_change phi d true e hist) = d_par d.
Proof.
  intros [S C F D Q J] E f'. pose proof (dp_in _ _ _ D) as I. unfold update_after_charge_change. rewrite E.
  assert (S0 : Static phi (set_int d (map (lpf f) cells)) cells p ext dp).
  { destruct S as [S1 S2 S3 S4 S5 S6 S7 S8 S9 S10 S11 S12 S13]. split; cbn; auto. }
  assert (D0 : Dep cells (set_int d (map (lpf f) cells)) dep) by (destruct D; split; auto).
  rewrite (dependent_eq phi phi_self phi_sym cells Hnd p ext dp (set_int d (map (lpf f) cells)) dep f S0 C eq_refl D0).
  change (b3 (set_int d (map (lpf f) cells))) with (b3 d). fold (dnx (b3 d) f). fold f'.
  change (set_int (set_int d ?x)) with (set_int d). fold lpf.
  set (d1 := set_charge (set_int d (map (lpf f') cells)) (map f' cells)).
  assert (S1 : Static phi d1 cells p ext dp).
  { clear S0. destruct S as [S1 S2 S3 S4 S5 S6 S7 S8 S9 S10 S11 S12 S13]. split; cbn; auto. }
  assert (C1 : charges cells d1 f') by (split; [apply C|reflexivity]).
  assert (F1 : forall c, In c cells -> f' c <> NON) by (apply fupd_some; auto; apply dnx_some; auto).
  assert (R1 : f' dep = dnx (b3 d) f').
  { unfold f' at 2. rewrite dnx_idem by exact I. unfold f', fupd. rewrite coord_eqb_refl. reflexivity. }
  destruct e.
  - rewrite (recompute_eq phi d1 cells p ext dp f' Hnd C1 (st_eps _ _ _ _ _ _ S1) (st_lambda _ _ _ _ _ _ S1)
      (st_keys _ _ _ _ _ _ S1) (st_keys_in _ _ _ _ _ _ S1) (st_look _ _ _ _ _ _ S1) (st_nodef _ _ _ _ _ _ S1) eq_refl).
    2:{ change (d_eng d <> QUICKSIM). rewrite Q. discriminate. }
    match goal with |- Snap (validity_check ?x) _ /\ _ => set (d2 := x) end.
    rewrite (validity_eq phi d2 cells p ext dp f' C1 (st_pot _ _ _ _ _ _ S1) eq_refl (st_bounds _ _ _ _ _ _ S1) eq_refl).
    split; [|repeat split]. split; [split|reflexivity|reflexivity|exact R1]; auto.
    + destruct S1 as [T1 T2 T3 T4 T5 T6 T7 T8 T9 T10 T11 T12 T13]. split; cbn; auto.
    + destruct D. split; auto.
    + exists (lpf f'). reflexivity.
  - rewrite (validity_eq phi d1 cells p ext dp f' C1 (st_pot _ _ _ _ _ _ S1) (st_ext _ _ _ _ _ _ S1) (st_bounds _ _ _ _ _ _ S1) eq_refl).
    split; [|repeat split]. split; [split|reflexivity|reflexivity|exact R1]; auto.
    + destruct S1 as [T1 T2 T3 T4 T5 T6 T7 T8 T9 T10 T11 T12 T13]. split; cbn; auto.
    + destruct D. split; auto.
    + exists (lpf f'). reflexivity.
Qed.
Lemma refresh_neglect d f e : Run d f ->
  let f' := fupd f dep (dnx (b3 d) f) in
  Snap (update_after_charge_change phi d true e false) f' /\ frame (update_after_charge_change phi d true e false) = frame d /\
  d_defs (update_after_charge_change phi d true e false) = d_defs d /\ d_par (update_after_charge_change phi d true e false) = d_par d.
Proof.
  intros R. apply refresh; [exact R|]. apply neglect_eq; [apply R|apply (st_pot _ _ _ _ _ _ (rn_static _ _ R))|apply (st_defpot _ _ _ _ _ _ (rn_static _ _ R))].
Qed.

(** The state that the rule gives whatever the state of the dependent SiDB has been. *)
Definition settled (b : bool) (f : coord -> cs) : Prop := forall x, dnx b (fupd f dep x) = f dep.
Lemma snap_settled d f g : Snap d g -> settled (b3 d) f -> (forall c, In c cells -> c <> dep -> f c = g c) ->
  forall c, In c cells -> g c = f c.
Proof.
  intros Sn St E c Hc. destruct (coord_dec c dep) as [->|Ne]; [|symmetry; apply E; auto].
  rewrite (sn_rule _ _ Sn), <- (St (g dep)). apply dnx_agree; [|exact Hc]. intros x Hx. unfold fupd.
  destruct (coord_eqb x dep) eqn:X; [apply coord_eqb_spec in X; subst; reflexivity|]. apply coord_eqb_false in X. symmetry. apply E; auto.
Qed.

(** ** Charge indices for the two parts of the layout *)
Section Parts.
Context (two three : list coord) (b : Z) (Hb : base_ok b) (Hparts : Permutation cells (dep :: two ++ three))
        (Hsize : 3 ^ Z.of_nat (length cells) <= 2 ^ 53).

Lemma parts_nodup : NoDup (two ++ three) /\ ~ In dep (two ++ three).
Proof. pose proof (Permutation_NoDup Hparts Hnd) as N. apply NoDup_cons_iff in N. tauto. Qed.
Lemma two_in c : In c two -> In c cells /\ c <> dep /\ ~ In c three.
Proof.
  intros H. destruct parts_nodup as [N1 N2]. split; [|split].
  - apply (Permutation_in _ (Permutation_sym Hparts)). right. apply in_or_app. left. exact H.
  - intros ->. apply N2, in_or_app. left. exact H.
  - intros X. clear -N1 H X. induction two as [|y l IH]; [destruct H|]. cbn in N1. apply NoDup_cons_iff in N1.
    destruct H as [->|H]; [apply (proj1 N1), in_or_app; right; exact X|apply IH; [exact H|apply N1]].
Qed.
Lemma three_in c : In c three -> In c cells /\ c <> dep.
Proof.
  intros H. destruct parts_nodup as [N1 N2]. split.
  - apply (Permutation_in _ (Permutation_sym Hparts)). right. apply in_or_app. right. exact H.
  - intros ->. apply N2, in_or_app. right. exact H.
Qed.
Lemma cell_cases c : In c cells -> c <> dep -> In c two \/ In c three.
Proof. intros H Ne. apply (Permutation_in _ Hparts) in H. destruct H as [H|H]; [congruence|]. apply in_app_or, H. Qed.
Lemma app_parts : NoDup two /\ NoDup three.
Proof.
  destruct parts_nodup as [N _]. clear -N. revert N. induction two as [|x l IH]; intros N; [split; [constructor|exact N]|].
  cbn in N. apply NoDup_cons_iff in N. destruct N as [N1 N2]. destruct (IH N2) as [I1 I2]. split; [|exact I2].
  constructor; [|exact I1]. intros X. apply N1, in_or_app. left. exact X.
Qed.
Lemma part_size b' (l : list coord) q : base_ok b' -> (length l <= length cells)%nat -> q < b' ^ Z.of_nat (length l) -> q < 2 ^ 64.
Proof.
  intros B L Q. assert (b' ^ Z.of_nat (length l) <= 3 ^ Z.of_nat (length cells)).
  { transitivity (3 ^ Z.of_nat (length l)); [apply Z.pow_le_mono_l; destruct B; lia|apply Z.pow_le_mono_r; lia]. }
  assert (2 ^ 53 < 2 ^ 64) by reflexivity. lia.
Qed.
Lemma part_length : (length two <= length cells)%nat /\ (length three <= length cells)%nat.
Proof. rewrite (Permutation_length Hparts). cbn [length]. rewrite app_length. lia. Qed.

(** The two charge indices of [f]. *)
Definition Dig (f : coord -> cs) (i s : Z) : Prop :=
  (forall c, In c two -> allowed b (f c)) /\ (forall c, In c three -> allowed 3 (f c)) /\
  lnum b (map f (rev two)) = i /\ lnum 3 (map f (rev three)) = s.

Lemma allowed_rev b' (f : coord -> cs) l : (forall c, In c l -> allowed b' (f c)) <-> Forall (allowed b') (map f (rev l)).
Proof.
  rewrite Forall_forall. split; intros H.
  - intros s Hs. apply in_map_iff in Hs. destruct Hs as (c & <- & Hc). apply H. rewrite in_rev. exact Hc.
  - intros c Hc. apply H. apply in_map. rewrite <- in_rev. exact Hc.
Qed.
Lemma dig_range f i s : Dig f i s -> 0 <= i < b ^ Z.of_nat (length two) /\ 0 <= s < 3 ^ Z.of_nat (length three).
Proof.
  intros (A1 & A2 & <- & <-). split.
  - pose proof (lnum_range b (map f (rev two)) Hb (proj1 (allowed_rev b f two) A1)) as R. rewrite map_length, rev_length in R. exact R.
  - pose proof (lnum_range 3 (map f (rev three)) (or_intror eq_refl) (proj1 (allowed_rev 3 f three) A2)) as R. rewrite map_length, rev_length in R. exact R.
Qed.
Lemma dig_agree f g i s : Dig f i s -> (forall c, In c cells -> c <> dep -> f c = g c) -> Dig g i s.
Proof.
  intros (A1 & A2 & A3 & A4) E. assert (E2 : forall c, In c two -> f c = g c) by (intros c Hc; apply two_in in Hc; apply E; tauto).
  assert (E3 : forall c, In c three -> f c = g c) by (intros c Hc; apply three_in in Hc; apply E; tauto).
  split; [|split; [|split]].
  - intros c Hc. rewrite <- (E2 c Hc). auto.
  - intros c Hc. rewrite <- (E3 c Hc). auto.
  - rewrite <- A3. f_equal. apply map_ext_in. intros c Hc. rewrite <- in_rev in Hc. symmetry. auto.
  - rewrite <- A4. f_equal. apply map_ext_in. intros c Hc. rewrite <- in_rev in Hc. symmetry. auto.
Qed.
Lemma dig_fupd f i s x : Dig f i s -> Dig (fupd f dep x) i s.
Proof.
  intros D. apply (dig_agree f); auto. intros c Hc Ne. unfold fupd. apply coord_eqb_false in Ne. rewrite Ne. reflexivity.
Qed.
Lemma dig_inj f g i s : Dig f i s -> Dig g i s -> forall c, In c cells -> c <> dep -> f c = g c.
Proof.
  intros (A1 & A2 & A3 & A4) (B1 & B2 & B3 & B4) c Hc Ne.
  assert (E2 : map f (rev two) = map g (rev two)).
  { apply (lnum_inj b); auto; try (apply allowed_rev; assumption); [rewrite !map_length; reflexivity|congruence]. }
  assert (E3 : map f (rev three) = map g (rev three)).
  { apply (lnum_inj 3); auto; try (apply allowed_rev; assumption); [right; reflexivity|rewrite !map_length; reflexivity|congruence]. }
  destruct (cell_cases c Hc Ne) as [H|H].
  - apply (map_agree f g (rev two) E2). rewrite <- in_rev. exact H.
  - apply (map_agree f g (rev three) E3). rewrite <- in_rev. exact H.
Qed.
Lemma lnum_zero b' l : base_ok b' -> Forall (allowed b') l -> lnum b' l = 0 -> Forall (fun s => s = NEG) l.
Proof.
  intros B. induction 1 as [|s r Hs Hr IH]; intros E; [constructor|]. cbn [lnum] in E.
  pose proof (digit_range b' s B Hs). pose proof (lnum_range b' r B Hr).
  assert (digit s = 0 /\ lnum b' r = 0) as [E1 E2] by (destruct B as [->| ->]; lia).
  constructor; [|auto]. rewrite <- (of_sign_digit b' s B Hs), E1. reflexivity.
Qed.
Lemma all_neg b' (f : coord -> cs) l : base_ok b' -> (forall c, In c l -> allowed b' (f c)) -> lnum b' (map f (rev l)) = 0 ->
  forall c, In c l -> f c = NEG.
Proof.
  intros B A E c Hc. pose proof (lnum_zero b' _ B (proj1 (allowed_rev b' f l) A) E) as F. rewrite Forall_forall in F.
  apply F. apply in_map. rewrite <- in_rev. exact Hc.
Qed.

(** Fields of the surface that the loops rely on. *)
Record Parts (d : cds) : Prop := mkParts {
  pt_two : d_two d = two; pt_three : d_three d = three; pt_base : d_base d = b;
  pt_max : d_max d = b ^ Z.of_nat (length two) - 1; pt_maxsub : d_maxsub d = 3 ^ Z.of_nat (length three) - 1;
  pt_pbase : three <> [] -> p_base (d_par d) <> 2
}.
Lemma frame_parts d d' : frame d' = frame d -> Parts d -> Parts d' /\ d_idx d' = d_idx d /\ d_sub d' = d_sub d /\ b3 d' = b3 d.
Proof.
  unfold frame. intros E [P1 P2 P3 P4 P5 P6]. injection E as E1 E2 E3 E4 E5 E6 E7 E8. split; [|split; [|split]]; auto.
  - split; try congruence. intros X. rewrite E6. auto.
  - unfold b3. rewrite E1, E5. reflexivity.
Qed.

(** The distribution before the digits are written. *)
Definition start (i s : Z) (f : coord -> cs) (x : coord) : cs :=
  if (i =? 0) && existsb (coord_eqb x) two then NEG else if (s =? 0) && existsb (coord_eqb x) three then NEG else f x.

Lemma dep_index d : Dep cells d dep -> d_two d = two -> index_in (d_dep d) (d_two d) = -1.
Proof.
  intros D T. rewrite (dp_dep _ _ _ D), T. apply index_in_none. intros X. destruct parts_nodup as [_ N]. apply N, in_or_app. left. exact X.
Qed.
Lemma quickexact_index d f i s : Run d f -> Parts d -> d_idx d = i -> d_sub d = s ->
  0 <= i < b ^ Z.of_nat (length two) -> 0 <= s < 3 ^ Z.of_nat (length three) ->
  exists g cs, index_to_charge_distribution_quickexact d = set_hist (set_charge d (map g cells)) (recs cells (start i s f) cs) /\
    NoDup cs /\ (forall c, In c cs -> In c cells) /\ (forall c, ~ In c cs -> g c = start i s f c) /\ g dep = f dep /\
    map g (rev three) = wr 3 s (map (start i s f) (rev three)) /\ map g (rev two) = wr b i (map (start i s f) (rev two)).
Proof.
  intros R P Ei Es Ri Rs. unfold index_to_charge_distribution_quickexact.
  pose proof (rn_charges _ _ R) as C. destruct app_parts as [N2 N3]. destruct part_length as [L2 L3].
  change (d_sub (set_hist d [])) with (d_sub d). change (d_three (set_hist d [])) with (d_three d).
  rewrite Es, (pt_three _ P).
  set (f1 x := if (s =? 0) && existsb (coord_eqb x) three then NEG else f x).
  assert (E1 : (if s =? 0 then fold_left (fun d0 c => assign_charge_state_keep d0 c NEG) three (set_hist d []) else set_hist d []) =
    set_charge (set_hist d []) (map f1 cells)).
  { unfold f1. destruct (s =? 0); cbn [andb].
    - apply (fold_neg cells Hnd three (set_hist d []) f C).
    - apply charge_set. exact (proj2 C). }
  rewrite E1. cbv zeta.
  change (d_idx (set_charge (set_hist d []) (map f1 cells))) with (d_idx d).
  change (d_two (set_charge (set_hist d []) (map f1 cells))) with (d_two d). rewrite Ei, (pt_two _ P).
  set (f2 := start i s f).
  assert (C1 : charges cells (set_charge (set_hist d []) (map f1 cells)) f1) by (split; [apply C|reflexivity]).
  assert (E2 : (if i =? 0 then fold_left (fun d0 c => assign_charge_state_keep d0 c NEG) two (set_charge (set_hist d []) (map f1 cells)) else set_charge (set_hist d []) (map f1 cells)) =
    set_charge (set_hist d []) (map f2 cells)).
  { unfold f2, start. destruct (i =? 0); cbn [andb].
    - rewrite (fold_neg cells Hnd two _ f1 C1). reflexivity.
    - reflexivity. }
  rewrite E2. set (d2 := set_charge (set_hist d []) (map f2 cells)).
  change (d_three d2) with (d_three d). change (d_sub d2) with (d_sub d). rewrite Es, (pt_three _ P).
  assert (C2 : charges cells d2 f2) by (split; [apply C|reflexivity]).
  assert (F2 : forall c, In c cells -> f2 c <> NON).
  { intros c Hc. unfold f2, start. destruct (_ && _); [discriminate|]. destruct (_ && _); [discriminate|]. apply R, Hc. }
  assert (I3 : forall c, In c three -> In c cells) by (intros c Hc; apply three_in, Hc).
  assert (I2 : forall c, In c two -> In c cells) by (intros c Hc; apply two_in, Hc).
  destruct (history_ok cells Hnd 3 None ltac:(right; reflexivity) (or_introl eq_refl) (rev three) 64 s d2 f2 []) as (g & cs & G1 & G2 & G3 & G4 & G5).
  { rewrite app_nil_r, rev_involutive. exact N3. } { rewrite app_nil_r, rev_involutive. exact I3. } { exact C2. }
  { rewrite rev_length. exact Rs. } { apply (part_size 3 three); auto; [right; reflexivity|lia]. }
  { intros c Hc. rewrite <- in_rev in Hc. apply F2, I3, Hc. }
  rewrite app_nil_r, rev_involutive, rev_length in G1. rewrite G1.
  set (d3 := set_hist (set_charge d2 (map g cells)) (d_hist d2 ++ recs cells f2 cs)).
  change (d_base d3) with (d_base d). change (d_two d3) with (d_two d). change (d_dep d3) with (d_dep d). change (d_idx d3) with (d_idx d).
  rewrite (dep_index d (rn_dep _ _ R) (pt_two _ P)), (pt_two _ P), (pt_base _ P), Ei.
  assert (C3 : charges cells d3 g) by (split; [apply C|reflexivity]).
  assert (G3' : forall c, In c cs -> In c three) by (intros c Hc; rewrite in_rev; apply G3, Hc).
  assert (Ge : forall c, In c two -> g c = f2 c).
  { intros c Hc. apply G4. intros X. apply (two_in c Hc). apply G3', X. }
  destruct (history_ok cells Hnd b (Some (-1)) Hb (or_intror eq_refl) (rev two) 64 i d3 g []) as (h & ct & H1 & H2 & H3 & H4 & H5).
  { rewrite app_nil_r, rev_involutive. exact N2. } { rewrite app_nil_r, rev_involutive. exact I2. } { exact C3. }
  { rewrite rev_length. exact Ri. } { apply (part_size b two); auto; lia. }
  { intros c Hc. rewrite <- in_rev in Hc. rewrite (Ge c Hc). apply F2, I2, Hc. }
  rewrite app_nil_r, rev_involutive, rev_length in H1. rewrite H1.
  assert (H3' : forall c, In c ct -> In c two) by (intros c Hc; rewrite in_rev; apply H3, Hc).
  exists h, (cs ++ ct). split; [|split; [|split; [|split; [|split; [|split]]]]].
  - unfold d3, d2. cbn [d_hist set_hist set_charge app].
    change (set_hist (set_charge (set_hist (set_charge (set_charge (set_hist d ?h0) ?x) ?y) ?h1) ?z) ?w) with (set_hist (set_charge d z) w).
    f_equal. unfold recs. rewrite map_app. f_equal. apply map_ext_in. intros c Hc. rewrite (Ge c (H3' c Hc)). reflexivity.
  - apply NoDup_app_disj; auto.
    intros c X Y. apply (two_in c (H3' c Y)). apply G3', X.
  - intros c Hc. apply in_app_or in Hc. destruct Hc as [Hc|Hc]; [apply I3, G3', Hc|apply I2, H3', Hc].
  - intros c Nc. rewrite H4 by (intros X; apply Nc, in_or_app; right; exact X). apply G4. intros X. apply Nc, in_or_app. left. exact X.
  - destruct parts_nodup as [_ Nd]. rewrite H4 by (intros X; apply Nd, in_or_app; left; apply H3', X).
    rewrite G4 by (intros X; apply Nd, in_or_app; right; apply G3', X). unfold f2, start.
    replace (existsb (coord_eqb dep) two) with false; [replace (existsb (coord_eqb dep) three) with false; [rewrite !andb_false_r; reflexivity|]|].
    + symmetry. apply not_true_is_false. intros X. apply existsb_coord in X. apply Nd, in_or_app. right. exact X.
    + symmetry. apply not_true_is_false. intros X. apply existsb_coord in X. apply Nd, in_or_app. left. exact X.
  - rewrite <- G5. apply map_ext_in. intros c Hc. rewrite <- in_rev in Hc. apply H4. intros X. apply (two_in c (H3' c X)), Hc.
  - rewrite H5. f_equal. apply map_ext_in. intros c Hc. rewrite <- in_rev in Hc. apply Ge, Hc.
Qed.

Lemma start_two i s f c : In c two -> start i s f c = if i =? 0 then NEG else f c.
Proof.
  intros H. unfold start. rewrite (proj2 (existsb_coord c two) H), andb_true_r.
  destruct (i =? 0); [reflexivity|]. replace (existsb (coord_eqb c) three) with false; [rewrite andb_false_r; reflexivity|].
  symmetry. apply not_true_is_false. intros X. apply existsb_coord in X. apply (two_in c H), X.
Qed.
Lemma start_three i s f c : In c three -> start i s f c = if s =? 0 then NEG else f c.
Proof.
  intros H. unfold start. replace (existsb (coord_eqb c) two) with false.
  - rewrite andb_false_r, (proj2 (existsb_coord c three) H), andb_true_r. reflexivity.
  - symmetry. apply not_true_is_false. intros X. apply existsb_coord in X. apply (two_in c X), H.
Qed.
Lemma start_same i s f : Dig f i s -> forall c, In c cells -> start i s f c = f c.
Proof.
  intros (A1 & A2 & A3 & A4) c Hc. unfold start. destruct (Z.eqb_spec i 0) as [Ei|Ei].
  - destruct (existsb (coord_eqb c) two) eqn:X; cbn [andb].
    + apply existsb_coord in X. symmetry. apply (all_neg b f two Hb A1); [congruence|exact X].
    + destruct (Z.eqb_spec s 0) as [Es|Es]; [|reflexivity]. destruct (existsb (coord_eqb c) three) eqn:Y; [|reflexivity].
      apply existsb_coord in Y. cbn. symmetry. apply (all_neg 3 f three (or_intror eq_refl) A2); [congruence|exact Y].
  - cbn [andb]. destruct (Z.eqb_spec s 0) as [Es|Es]; [|reflexivity]. destruct (existsb (coord_eqb c) three) eqn:Y; [|reflexivity].
    apply existsb_coord in Y. cbn. symmetry. apply (all_neg 3 f three (or_intror eq_refl) A2); [congruence|exact Y].
Qed.

Lemma run_with d f g h : Run d f -> (forall c, In c cells -> g c <> NON) -> Run (set_hist (set_charge d (map g cells)) h) g.
Proof.
  intros [S C F D Q J] G. split; auto.
  - destruct S as [S1 S2 S3 S4 S5 S6 S7 S8 S9 S10 S11 S12 S13]. split; cbn; auto.
  - split; [apply C|reflexivity].
  - destruct D. split; auto.
Qed.
Lemma run_idx d f i : Run d f -> Run (set_idx d i) f.
Proof.
  intros [S C F D Q J]. split; auto; [|destruct D; split; auto].
  destruct S as [S1 S2 S3 S4 S5 S6 S7 S8 S9 S10 S11 S12 S13]. split; cbn; auto.
Qed.
Lemma run_sub d f i : Run d f -> Run (set_sub d i) f.
Proof.
  intros [S C F D Q J]. split; auto; [|destruct D; split; auto].
  destruct S as [S1 S2 S3 S4 S5 S6 S7 S8 S9 S10 S11 S12 S13]. split; cbn; auto.
Qed.

(** Digits that have been written. *)
Lemma written g f2 i s i0 s0 : (forall c, In c two -> allowed b (f2 c)) -> (forall c, In c three -> allowed 3 (f2 c)) ->
  lnum b (map f2 (rev two)) = i0 -> lnum 3 (map f2 (rev three)) = s0 ->
  (i = i0 \/ i = i0 + 1) -> (s = s0 \/ s = s0 + 1) -> i < b ^ Z.of_nat (length two) -> s < 3 ^ Z.of_nat (length three) ->
  map g (rev three) = wr 3 s (map f2 (rev three)) -> map g (rev two) = wr b i (map f2 (rev two)) -> Dig g i s.
Proof.
  intros A2 A3 E2 E3 Ci Cs Li Ls W3 W2.
  apply allowed_rev in A2. apply allowed_rev in A3.
  assert (K2 : Forall (allowed b) (map g (rev two)) /\ lnum b (map g (rev two)) = i).
  { rewrite W2. destruct Ci as [-> | ->].
    - rewrite <- E2, (wr_same b _ Hb A2). split; auto.
    - rewrite <- E2. apply wr_succ; auto. rewrite map_length, rev_length. lia. }
  assert (K3 : Forall (allowed 3) (map g (rev three)) /\ lnum 3 (map g (rev three)) = s).
  { rewrite W3. destruct Cs as [-> | ->].
    - rewrite <- E3, (wr_same 3 _ (or_intror eq_refl) A3). split; auto.
    - rewrite <- E3. apply wr_succ; auto; [right; reflexivity|]. rewrite map_length, rev_length. lia. }
  destruct K2 as [K21 K22], K3 as [K31 K32]. split; [|split; [|split]]; auto; apply allowed_rev; assumption.
Qed.
Lemma written_some g f i s : Dig g i s -> g dep = f dep -> f dep <> NON -> forall c, In c cells -> g c <> NON.
Proof.
  intros (A1 & A2 & _) E N c Hc. destruct (coord_dec c dep) as [->|Ne]; [rewrite E; exact N|].
  destruct (cell_cases c Hc Ne) as [H|H]; [apply (allowed_some b), A1, H|apply (allowed_some 3), A2, H].
Qed.

(** The next charge index of the sub layout. *)
Lemma sub_step d f i s : Snap d f -> Dig f i s -> Parts d -> d_idx d = i -> d_sub d = s -> s < d_maxsub d ->
  let d' := increase_sub_index_by_one phi d true false true in
  exists f', Snap d' f' /\ Dig f' i (s + 1) /\ Parts d' /\ d_idx d' = i /\ d_sub d' = s + 1 /\ b3 d' = b3 d.
Proof.
  intros Sn Dg P Ei Es L d'. unfold d', increase_sub_index_by_one. clear d'.
  destruct (Z.leb_spec (d_maxsub d) (d_sub d)); [lia|]. cbv zeta. change (d_eng (set_sub d (d_sub d + 1))) with (d_eng d).
  pose proof (sn_run _ _ Sn) as R. rewrite (rn_eng _ _ R). rewrite Es.
  destruct (dig_range f i s Dg) as [Ri Rs]. rewrite (pt_maxsub _ P) in L.
  pose proof (run_sub d f (s + 1) R) as R1.
  assert (P1 : Parts (set_sub d (s + 1))) by (destruct P; split; auto).
  destruct (quickexact_index (set_sub d (s + 1)) f i (s + 1) R1 P1 Ei eq_refl Ri ltac:(lia)) as (g & cs & G1 & G2 & G3 & G4 & G5 & G6 & G7).
  pose proof Dg as (A1 & A2 & A3 & A4).
  assert (Fe : forall c, In c cells -> start i (s + 1) f c = f c).
  { intros c Hc. unfold start. destruct (Z.eqb_spec (s + 1) 0); [lia|]. cbn [andb].
    destruct (Z.eqb_spec i 0) as [Ei0|Ei0]; [|reflexivity]. destruct (existsb (coord_eqb c) two) eqn:X; [|reflexivity].
    apply existsb_coord in X. cbn. symmetry. apply (all_neg b f two Hb A1); [congruence|exact X]. }
  assert (Me : forall l, (forall c, In c l -> In c cells) -> map (start i (s + 1) f) (rev l) = map f (rev l)).
  { intros l Hl. apply map_ext_in. intros c Hc. rewrite <- in_rev in Hc. apply Fe, Hl, Hc. }
  rewrite Me in G6 by (intros c Hc; apply three_in, Hc). rewrite Me in G7 by (intros c Hc; apply two_in, Hc).
  assert (Dg' : Dig g i (s + 1)) by (apply (written g f i (s + 1) i s); auto; lia).
  pose proof (written_some g f i (s + 1) Dg' G5 (rn_some _ _ R dep (dp_in _ _ _ (rn_dep _ _ R)))) as Gn.
  rewrite G1. set (d2 := set_hist (set_charge (set_sub d (s + 1)) (map g cells)) (recs cells (start i (s + 1) f) cs)).
  assert (R2 : Run d2 g) by (apply (run_with _ f); auto).
  assert (NB : three <> []).
  { intros X. rewrite X in Rs. cbn in Rs. rewrite X in L. cbn in L. lia. }
  assert (U : update_int_consider d2 = set_int d2 (map (lpf g) cells)).
  { apply (consider_hist phi phi_self phi_sym cells Hnd p ext dp d2 f g cs); auto.
    - apply R2. - apply R2. - apply Sn. - apply (pt_pbase _ P NB).
    - cbn [d_hist d2 set_hist]. unfold recs. apply map_ext_in. intros c Hc. rewrite Fe by (apply G3, Hc). reflexivity.
    - intros c Hc Nc. rewrite (G4 c Nc), (Fe c Hc). reflexivity. }
  destruct (refresh d2 g false true R2 U) as (T1 & T2 & _).
  assert (P2 : Parts d2) by (destruct P; split; auto).
  destruct (frame_parts d2 _ T2 P2) as (T3 & T4 & T5 & T6).
  eexists. split; [exact T1|]. split; [apply dig_fupd, Dg'|]. split; [exact T3|]. split; [rewrite T4; exact Ei|]. split; [rewrite T5; reflexivity|].
  rewrite T6. reflexivity.
Qed.

(** Back to the first charge index of the sub layout; the potentials are not kept up to date. *)
Lemma reset_step d f i s : Snap d f -> Dig f i s -> Parts d -> d_idx d = i -> d_sub d = s -> three <> [] ->
  let d' := reset_sub_index phi d in
  exists f', Run d' f' /\ Dig f' i 0 /\ Parts d' /\ d_idx d' = i /\ d_sub d' = 0 /\ b3 d' = b3 d.
Proof.
  intros Sn Dg P Ei Es NB d'. unfold d', reset_sub_index. clear d'. cbv zeta.
  change (d_eng (set_sub d 0)) with (d_eng d). pose proof (sn_run _ _ Sn) as R. rewrite (rn_eng _ _ R).
  destruct (dig_range f i s Dg) as [Ri Rs].
  pose proof (run_sub d f 0 R) as R1.
  assert (P1 : Parts (set_sub d 0)) by (destruct P; split; auto).
  destruct (quickexact_index (set_sub d 0) f i 0 R1 P1 Ei eq_refl Ri ltac:(lia)) as (g & cs & G1 & G2 & G3 & G4 & G5 & G6 & G7).
  pose proof Dg as (A1 & A2 & A3 & A4).
  assert (S2 : forall c, In c two -> start i 0 f c = f c).
  { intros c Hc. rewrite (start_two i 0 f c Hc). destruct (Z.eqb_spec i 0); [|reflexivity].
    symmetry. apply (all_neg b f two Hb A1); [congruence|exact Hc]. }
  assert (S3 : forall c, In c three -> start i 0 f c = NEG) by (intros c Hc; rewrite (start_three i 0 f c Hc); reflexivity).
  assert (Z3 : lnum 3 (map (start i 0 f) (rev three)) = 0).
  { assert (X : forall l, (forall c, In c l -> In c three) -> lnum 3 (map (start i 0 f) l) = 0).
    { induction l as [|c l IH]; intros Hl; [reflexivity|]. cbn [map lnum]. rewrite S3 by (apply Hl; left; reflexivity).
      rewrite IH by (intros x Hx; apply Hl; right; exact Hx). reflexivity. }
    apply X. intros c Hc. rewrite in_rev. exact Hc. }
  assert (Dg' : Dig g i 0).
  { apply (written g (start i 0 f) i 0 i 0); auto; try lia.
    - intros c Hc. rewrite (S2 c Hc). auto.
    - intros c Hc. rewrite (S3 c Hc). exact I.
    - transitivity (lnum b (map f (rev two))); [|exact A3]. f_equal. apply map_ext_in. intros c Hc. rewrite <- in_rev in Hc. auto. }
  pose proof (written_some g f i 0 Dg' G5 (rn_some _ _ R dep (dp_in _ _ _ (rn_dep _ _ R)))) as Gn.
  rewrite G1. set (d2 := set_hist (set_charge (set_sub d 0) (map g cells)) (recs cells (start i 0 f) cs)).
  assert (R2 : Run d2 g) by (apply (run_with _ f); auto).
  unfold update_after_charge_change. destruct (rn_int _ _ R2) as [ip Jp].
  destruct (consider_stale phi phi_self phi_sym cells p ext dp d2 ip (start i 0 f) cs (rn_static _ _ R2) Jp (pt_pbase _ P NB) eq_refl G3) as [ip' E'].
  rewrite E'. destruct R2 as [T1 T2 T3 T4 T5 T6].
  assert (S0 : Static phi (set_int d2 (map ip' cells)) cells p ext dp).
  { destruct T1 as [U1 U2 U3 U4 U5 U6 U7 U8 U9 U10 U11 U12 U13]. split; cbn; auto. }
  assert (D0 : Dep cells (set_int d2 (map ip' cells)) dep) by (destruct T4; split; auto).
  destruct (dependent_stale phi phi_self phi_sym cells Hnd p ext dp (set_int d2 (map ip' cells)) dep g ip' S0 T2 eq_refl D0) as (x & ip2 & Ex & Nx).
  rewrite Ex. unfold validity_check. cbv zeta.
  exists (fupd g dep x). split; [|split; [apply dig_fupd, Dg'|split; [destruct P; split; auto|split; [exact Ei|split; reflexivity]]]].
  split; auto.
  - destruct S0 as [U1 U2 U3 U4 U5 U6 U7 U8 U9 U10 U11 U12 U13]. split; cbn; auto.
  - split; [apply T2|reflexivity].
  - apply fupd_some; auto. apply Nx, Gn, T4.
  - destruct T4. split; auto.
  - exists ip2. reflexivity.
Qed.

(** The next charge index. *)
Lemma index_step d f i : Run d f -> Dig f i 0 -> Parts d -> d_idx d = i -> d_sub d = 0 -> i < d_max d ->
  let d' := increase_charge_index_by_one phi d true false false in
  exists f', Snap d' f' /\ Dig f' (i + 1) 0 /\ Parts d' /\ d_idx d' = i + 1 /\ d_sub d' = 0 /\ b3 d' = b3 d.
Proof.
  intros R Dg P Ei Es L d'. unfold d', increase_charge_index_by_one. clear d'.
  destruct (Z.leb_spec (d_max d) (d_idx d)); [lia|]. cbv zeta. change (d_eng (set_idx d (d_idx d + 1))) with (d_eng d).
  rewrite (rn_eng _ _ R). rewrite Ei.
  destruct (dig_range f i 0 Dg) as [Ri Rs]. rewrite (pt_max _ P) in L.
  pose proof (run_idx d f (i + 1) R) as R1.
  assert (P1 : Parts (set_idx d (i + 1))) by (destruct P; split; auto).
  destruct (quickexact_index (set_idx d (i + 1)) f (i + 1) 0 R1 P1 eq_refl Es ltac:(lia) Rs) as (g & cs & G1 & G2 & G3 & G4 & G5 & G6 & G7).
  pose proof Dg as (A1 & A2 & A3 & A4).
  assert (Fe : forall c, In c cells -> start (i + 1) 0 f c = f c).
  { intros c Hc. unfold start. destruct (Z.eqb_spec (i + 1) 0); [lia|]. cbn [andb]. change (0 =? 0) with true. cbn [andb].
    destruct (existsb (coord_eqb c) three) eqn:X; [|reflexivity].
    apply existsb_coord in X. symmetry. apply (all_neg 3 f three (or_intror eq_refl) A2); [congruence|exact X]. }
  assert (Me : forall l, (forall c, In c l -> In c cells) -> map (start (i + 1) 0 f) (rev l) = map f (rev l)).
  { intros l Hl. apply map_ext_in. intros c Hc. rewrite <- in_rev in Hc. apply Fe, Hl, Hc. }
  rewrite Me in G6 by (intros c Hc; apply three_in, Hc). rewrite Me in G7 by (intros c Hc; apply two_in, Hc).
  assert (Dg' : Dig g (i + 1) 0) by (apply (written g f (i + 1) 0 i 0); auto; lia).
  pose proof (written_some g f (i + 1) 0 Dg' G5 (rn_some _ _ R dep (dp_in _ _ _ (rn_dep _ _ R)))) as Gn.
  rewrite G1. set (d2 := set_hist (set_charge (set_idx d (i + 1)) (map g cells)) (recs cells (start (i + 1) 0 f) cs)).
  assert (R2 : Run d2 g) by (apply (run_with _ f); auto).
  destruct (refresh_neglect d2 g false R2) as (T1 & T2 & _).
  assert (P2 : Parts d2) by (destruct P; split; auto).
  destruct (frame_parts d2 _ T2 P2) as (T3 & T4 & T5 & T6).
  eexists. split; [exact T1|]. split; [apply dig_fupd, Dg'|]. split; [exact T3|]. split; [rewrite T4; reflexivity|]. split; [rewrite T5; exact Es|].
  rewrite T6. reflexivity.
Qed.

(** ** The loops *)
Let K := 3 ^ Z.of_nat (length three).
Definition code (d : cds) : Z := d_idx d * K + d_sub d.
Definition Vis (bb : bool) (lo hi : Z) (ds : list cds) : Prop :=
  (forall d, In d ds -> exists f i s, Snap d f /\ Dig f i s /\ vld f = true /\ d_idx d = i /\ d_sub d = s /\ b3 d = bb /\ lo <= code d < hi) /\
  (forall f i s, Dig f i s -> lo <= i * K + s < hi -> settled bb f -> vld f = true -> exists d, In d ds /\ charges cells d f) /\
  StronglySorted Z.lt (map code ds).

Lemma sorted_app (l m : list Z) : StronglySorted Z.lt l -> StronglySorted Z.lt m -> (forall x y, In x l -> In y m -> x < y) ->
  StronglySorted Z.lt (l ++ m).
Proof.
  intros Sl Sm L. induction Sl as [|x l Sl IH F]; [exact Sm|]. cbn. constructor.
  - apply IH. intros a y Ha. apply L. right. exact Ha.
  - apply Forall_app. split; [exact F|]. apply Forall_forall. intros y Hy. apply L; [left; reflexivity|exact Hy].
Qed.
Lemma vis_app bb lo mid hi a c : lo <= mid <= hi -> Vis bb lo mid a -> Vis bb mid hi c -> Vis bb lo hi (a ++ c).
Proof.
  intros Lm (A1 & A2 & A3) (B1 & B2 & B3). split; [|split].
  - intros d Hd. apply in_app_or in Hd. destruct Hd as [Hd|Hd].
    + destruct (A1 d Hd) as (f & i & s & H1 & H2 & H3 & H4 & H5 & H6 & H7). exists f, i, s. repeat (split; [assumption|]). lia.
    + destruct (B1 d Hd) as (f & i & s & H1 & H2 & H3 & H4 & H5 & H6 & H7). exists f, i, s. repeat (split; [assumption|]). lia.
  - intros f i s Dg R St V. destruct (Z.lt_ge_cases (i * K + s) mid) as [L|L].
    + destruct (A2 f i s Dg ltac:(lia) St V) as (d & Hd & C). exists d. split; [apply in_or_app; left; exact Hd|exact C].
    + destruct (B2 f i s Dg ltac:(lia) St V) as (d & Hd & C). exists d. split; [apply in_or_app; right; exact Hd|exact C].
  - rewrite map_app. apply sorted_app; auto. intros x y Hx Hy. apply in_map_iff in Hx, Hy. destruct Hx as (d & <- & Hd), Hy as (d' & <- & Hd').
    destruct (A1 d Hd) as (f & i & s & _ & _ & _ & _ & _ & _ & H7). destruct (B1 d' Hd') as (f' & i' & s' & _ & _ & _ & _ & _ & _ & H7'). lia.
Qed.
Lemma code_inj i s i' s' : 0 <= s < K -> 0 <= s' < K -> i * K + s = i' * K + s' -> i = i' /\ s = s'.
Proof. intros. assert (i = i') by nia. subst. split; [reflexivity|lia]. Qed.
Lemma vis_one d f i s : Snap d f -> Dig f i s -> d_idx d = i -> d_sub d = s ->
  Vis (b3 d) (i * K + s) (i * K + s + 1) (if d_valid d then [d] else []).
Proof.
  intros Sn Dg Ei Es. rewrite (sn_valid _ _ Sn). split; [|split].
  - intros x Hx. destruct (vld f) eqn:V; [|destruct Hx]. destruct Hx as [<-|[]]. exists f, i, s. repeat (split; [assumption|]).
    split; [reflexivity|]. unfold code. rewrite Ei, Es. lia.
  - intros g i' s' Dg' R St V. destruct (dig_range _ _ _ Dg) as [_ Rs]. destruct (dig_range _ _ _ Dg') as [_ Rs'].
    destruct (code_inj i' s' i s Rs' Rs ltac:(lia)) as [-> ->].
    pose proof (snap_settled d g f Sn St (dig_inj g f i s Dg' Dg)) as E.
    assert (Vf : vld f = true) by (rewrite <- V; apply validb_agree, E).
    rewrite Vf. exists d. split; [left; reflexivity|]. destruct (rn_charges _ _ (sn_run _ _ Sn)) as [C1 C2]. split; [exact C1|].
    rewrite C2. apply map_ext_in, E.
  - destruct (vld f); cbn; repeat constructor.
Qed.
Lemma record_app cl d res : record_if_valid phi cl d res = res ++ map (record_result phi cl) (if d_valid d then [d] else []).
Proof. unfold record_if_valid. destruct (d_valid d); [reflexivity|symmetry; apply app_nil_r]. Qed.

Lemma sub_loop_ok cl fuel : forall d f i s res, Snap d f -> Dig f i s -> Parts d -> d_idx d = i -> d_sub d = s ->
  d_maxsub d - s <= Z.of_nat fuel ->
  exists d' f' ds, sub_loop phi fuel cl d res = (d', res ++ map (record_result phi cl) ds) /\
    Vis (b3 d) (i * K + s) (i * K + K) ds /\ Snap d' f' /\ Dig f' i (K - 1) /\ Parts d' /\ d_idx d' = i /\ d_sub d' = K - 1 /\ b3 d' = b3 d.
Proof.
  induction fuel as [|fuel IH]; intros d f i s res Sn Dg P Ei Es Fu; pose proof (pt_maxsub _ P) as M; fold K in M;
    destruct (dig_range _ _ _ Dg) as [_ Rs]; fold K in Rs; cbn [sub_loop]; rewrite Es; destruct (Z.ltb_spec s (d_maxsub d)) as [L|L].
  - lia.
  - assert (s = K - 1) by lia. exists d, f, (if d_valid d then [d] else []). rewrite record_app. split; [reflexivity|].
    split; [|rewrite <- H; repeat (split; [assumption|]); reflexivity].
    replace (i * K + K) with (i * K + s + 1) by lia. apply (vis_one d f i s); auto.
  - destruct (sub_step d f i s Sn Dg P Ei Es L) as (f' & T1 & T2 & T3 & T4 & T5 & T6).
    set (d' := increase_sub_index_by_one phi d true false true) in *.
    destruct (IH d' f' i (s + 1) (record_if_valid phi cl d res) T1 T2 T3 T4 T5) as (d2 & f2 & ds & U1 & U2 & U3 & U4 & U5 & U6 & U7 & U8).
    { rewrite (pt_maxsub _ T3). fold K. lia. }
    exists d2, f2, ((if d_valid d then [d] else []) ++ ds). split; [|split; [|split; [exact U3|split; [exact U4|split; [exact U5|split; [exact U6|split; [exact U7|congruence]]]]]]].
    + rewrite U1, record_app, map_app, app_assoc. reflexivity.
    + apply (vis_app _ _ (i * K + s + 1)); [lia|apply (vis_one d f i s); auto|]. rewrite <- T6.
      replace (i * K + s + 1) with (i * K + (s + 1)) by lia. exact U2.
  - assert (s = K - 1) by lia. exists d, f, (if d_valid d then [d] else []). rewrite record_app. split; [reflexivity|].
    split; [|rewrite <- H; repeat (split; [assumption|]); reflexivity].
    replace (i * K + K) with (i * K + s + 1) by lia. apply (vis_one d f i s); auto.
Qed.

Lemma main_loop_ok cl fuel : forall d f i res, Snap d f -> Dig f i 0 -> Parts d -> d_idx d = i -> d_sub d = 0 ->
  d_max d - i <= Z.of_nat fuel ->
  exists d' f' ds, main_loop phi fuel cl d res = (d', res ++ map (record_result phi cl) ds) /\
    Vis (b3 d) (i * K) (d_max d * K) ds /\ Snap d' f' /\ Dig f' (d_max d) 0 /\ Parts d' /\ d_idx d' = d_max d /\ d_sub d' = 0 /\ b3 d' = b3 d.
Proof.
  assert (HK : 0 < K) by (apply Z.pow_pos_nonneg; lia).
  assert (Stop : forall d f i res, Snap d f -> Dig f i 0 -> Parts d -> d_idx d = i -> d_sub d = 0 -> d_max d <= i ->
    exists d' f' ds, (d, res) = (d', res ++ map (record_result phi cl) ds) /\
    Vis (b3 d) (i * K) (d_max d * K) ds /\ Snap d' f' /\ Dig f' (d_max d) 0 /\ Parts d' /\ d_idx d' = d_max d /\ d_sub d' = 0 /\ b3 d' = b3 d).
  { intros d f i res Sn Dg P Ei Es L. pose proof (pt_max _ P) as M. destruct (dig_range _ _ _ Dg) as [Ri _].
    assert (i = d_max d) by lia. exists d, f, []. split; [rewrite app_nil_r; reflexivity|].
    split; [|rewrite <- H; repeat (split; [assumption|]); reflexivity]. split; [|split]; [intros x []| |constructor].
    intros g i' s' _ R. rewrite H in R. lia. }
  induction fuel as [|fuel IH]; intros d f i res Sn Dg P Ei Es Fu; pose proof (pt_max _ P) as M;
    destruct (dig_range _ _ _ Dg) as [Ri _]; cbn [main_loop]; rewrite Ei; destruct (Z.ltb_spec i (d_max d)) as [L|L].
  - lia.
  - apply (Stop d f i); auto.
  - destruct (sub_loop_ok cl (Z.to_nat (d_maxsub d)) d f i 0 res Sn Dg P Ei Es) as (d1 & f1 & ds & U1 & U2 & U3 & U4 & U5 & U6 & U7 & U8).
    { rewrite (pt_maxsub _ P). fold K. lia. }
    rewrite U1. rewrite (pt_maxsub _ U5). fold K.
    set (d2 := if K - 1 =? 0 then d1 else reset_sub_index phi d1).
    assert (X : exists f2, Run d2 f2 /\ Dig f2 i 0 /\ Parts d2 /\ d_idx d2 = i /\ d_sub d2 = 0 /\ b3 d2 = b3 d1).
    { unfold d2. destruct (Z.eqb_spec (K - 1) 0) as [E|E].
      - exists f1. rewrite E in U4, U7. split; [apply U3|]. repeat (split; [assumption|]). reflexivity.
      - apply (reset_step d1 f1 i (K - 1)); auto. intros Y. apply E. unfold K. rewrite Y. reflexivity. }
    destruct X as (f2 & X1 & X2 & X3 & X4 & X5 & X6).
    destruct (index_step d2 f2 i X1 X2 X3 X4 X5) as (f3 & Y1 & Y2 & Y3 & Y4 & Y5 & Y6). { rewrite (pt_max _ X3). lia. }
    set (d3 := increase_charge_index_by_one phi d2 true false false) in *.
    destruct (IH d3 f3 (i + 1) (res ++ map (record_result phi cl) ds) Y1 Y2 Y3 Y4 Y5) as (d4 & f4 & ds' & Z1 & Z2 & Z3 & Z4 & Z5 & Z6 & Z7 & Z8).
    { rewrite (pt_max _ Y3). lia. }
    assert (MM : d_max d3 = d_max d) by (rewrite (pt_max _ Y3), M; reflexivity). rewrite MM in *.
    exists d4, f4, (ds ++ ds'). split; [rewrite Z1, map_app, app_assoc; reflexivity|].
    split; [|split; [exact Z3|split; [exact Z4|split; [exact Z5|split; [exact Z6|split; [exact Z7|congruence]]]]]].
    apply (vis_app _ _ ((i + 1) * K)); [nia| |].
    + replace (i * K) with (i * K + 0) by lia. replace ((i + 1) * K) with (i * K + K) by lia. exact U2.
    + replace (b3 d) with (b3 d3) by congruence. exact Z2.
  - apply (Stop d f i); auto.
Qed.

(** Both loops: what they record. *)
Lemma loops_ok cl d f : Snap d f -> Dig f 0 0 -> Parts d -> d_idx d = 0 -> d_sub d = 0 ->
  exists ds d', (let '(d1, res) := main_loop phi (Z.to_nat (d_max d)) cl d [] in sub_loop phi (Z.to_nat (d_maxsub d1)) cl d1 res) =
    (d', map (record_result phi cl) ds) /\ d_ub d' = false /\
    (forall x, In x ds -> exists g, Snap x g /\ vld g = true) /\
    (forall g, (forall c, In c two -> allowed b (g c)) -> (forall c, In c three -> allowed 3 (g c)) -> settled (b3 d) g -> vld g = true ->
       exists x, In x ds /\ charges cells x g) /\
    NoDup (map d_charge ds).
Proof.
  intros Sn Dg P Ei Es. destruct (dig_range _ _ _ Dg) as [Ri Rs]. fold K in Rs. pose proof (pt_max _ P) as M.
  destruct (main_loop_ok cl (Z.to_nat (d_max d)) d f 0 [] Sn Dg P Ei Es) as (d1 & f1 & ds & U1 & U2 & U3 & U4 & U5 & U6 & U7 & U8); [lia|].
  rewrite U1. destruct (sub_loop_ok cl (Z.to_nat (d_maxsub d1)) d1 f1 (d_max d) 0 ([] ++ map (record_result phi cl) ds) U3 U4 U5 U6 U7) as (d2 & f2 & ds' & T1 & T2 & T3 & T4 & T5 & _).
  { rewrite (pt_maxsub _ U5). fold K. lia. }
  exists (ds ++ ds'), d2. split; [rewrite T1, map_app; reflexivity|]. split; [apply (st_ub _ _ _ _ _ _ (rn_static _ _ (sn_run _ _ T3)))|].
  assert (V : Vis (b3 d) 0 (d_max d * K + K) (ds ++ ds')).
  { apply (vis_app _ _ (d_max d * K)); [nia| |].
    - exact U2.
    - rewrite <- U8. replace (d_max d * K) with (d_max d * K + 0) at 1 by lia. exact T2. }
  destruct V as (V1 & V2 & V3). split; [|split].
  - intros x Hx. destruct (V1 x Hx) as (g & i & s & H1 & _ & H3 & _). exists g. split; assumption.
  - intros g A2 A3 St Vg. assert (Dgg : Dig g (lnum b (map g (rev two))) (lnum 3 (map g (rev three)))) by (repeat split; auto).
    destruct (dig_range _ _ _ Dgg) as [R1 R2]. fold K in R2. apply (V2 g _ _ Dgg); auto. nia.
  - clear V2. clear U1 U2 T1 T2. revert V1 V3. generalize (ds ++ ds') as l. induction l as [|x l IH]; intros V1 V3; [constructor|].
    cbn [map] in *. inversion V3 as [|? ? S3 F3]; subst. constructor; [|apply IH; auto; intros y Hy; apply V1; right; exact Hy].
    intros C. apply in_map_iff in C. destruct C as (y & Ey & Hy).
    destruct (V1 x (or_introl eq_refl)) as (g & i & s & G1 & G2 & _ & G3 & G4 & _). destruct (V1 y (or_intror Hy)) as (h & i' & s' & H1 & H2 & _ & H3 & H4 & _).
    rewrite Forall_forall in F3. specialize (F3 (code y) (in_map code _ _ Hy)).
    assert (E : map g cells = map h cells).
    { rewrite <- (proj2 (rn_charges _ _ (sn_run _ _ G1))), <- (proj2 (rn_charges _ _ (sn_run _ _ H1))). symmetry. exact Ey. }
    pose proof (dig_agree g h i s G2 (fun c Hc _ => map_agree g h cells E c Hc)) as (_ & _ & Q1 & Q2). destruct H2 as (_ & _ & Q3 & Q4).
    unfold code in F3. rewrite G3, G4, H3, H4 in F3. assert (i = i') by congruence. assert (s = s') by congruence. subst. lia.
Qed.
End Parts.
End Loops.
