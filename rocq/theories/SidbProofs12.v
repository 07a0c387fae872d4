(** Proofs about SidbModel.v, part 12: SiDBs that are negatively charged in every physically valid charge distribution may
    be replaced by charged defects. *)
From Coq Require Import ZArith QArith Qcanon Bool List Lia Lqa Permutation Sorted.
From Verif Require Import CoordModel CoordProofs UtilModel SidbModel SidbSpec SidbProofs SidbProofs2 SidbProofs3 SidbProofs4 SidbProofs5 SidbProofs7 SidbProofs8 SidbProofs10.
Import ListNotations.
Local Open Scope Z_scope.

Section Reduce.
Context (phi : Qc -> Qc -> coord -> coord -> Qc)
        (phi_self : forall e l a, phi e l a a = 0%Qc) (phi_sym : forall e l a b, phi e l a b = phi e l b a)
        (phi_pos : forall e l a b, (0 <= phi e l a b)%Qc)
        (p : params) (cells : list coord) (Hnd : NoDup cells) (defs : list (coord * defect)) (v : Qc).
Let ext := fun _ : coord => v.
Let lpf := lp phi p cells (defect_field phi defs).
Definition certain (c : coord) : bool := qltb (- (lpf (fun _ => NEG) c + v) + p_mu p)%Qc (- margin)%Qc.
Definition pre : list coord := filter certain cells.
Context (rem : list coord) (Hrem : Permutation rem (filter (fun c => index_in c pre =? -1) cells)).
Let defs' := defs ++ map (fun c => (c, electron p)) pre.
Let lpr := lp phi p rem (defect_field phi defs').
Definition full (h : coord -> cs) (a : coord) : cs := if existsb (coord_eqb a) rem then h a else NEG.

Lemma in_pre c : In c pre <-> In c cells /\ certain c = true.
Proof. apply filter_In. Qed.
Lemma in_rem c : In c rem <-> In c cells /\ certain c = false.
Proof.
  rewrite (Permutation_in' eq_refl Hrem), filter_In, Z.eqb_eq. split; intros [H1 H2]; (split; [exact H1|]).
  - destruct (certain c) eqn:E; [|reflexivity]. assert (X : In c pre) by (apply in_pre; auto). destruct (index_in_nth c pre X). lia.
  - apply index_in_none. intros X. apply in_pre in X. destruct X. congruence.
Qed.
Lemma rem_nodup : NoDup rem.
Proof. apply (Permutation_NoDup (Permutation_sym Hrem)), NoDup_filter, Hnd. Qed.
Lemma split_cells : Permutation cells (pre ++ rem).
Proof.
  apply NoDup_Permutation; [exact Hnd| |].
  - apply NoDup_app_disj; [apply NoDup_filter, Hnd|apply rem_nodup|]. intros c H1 H2. apply in_pre in H1. apply in_rem in H2. destruct H1, H2. congruence.
  - intros c. rewrite in_app_iff, in_pre, in_rem. destruct (certain c); intuition congruence.
Qed.
Lemma full_rem h c : In c rem -> full h c = h c.
Proof. intros H. unfold full. rewrite (proj2 (existsb_coord c rem)) by exact H. reflexivity. Qed.
Lemma full_pre h c : In c pre -> full h c = NEG.
Proof.
  intros H. unfold full. destruct (existsb (coord_eqb c) rem) eqn:E; [|reflexivity]. apply existsb_coord in E. apply in_rem in E. apply in_pre in H. destruct E, H. congruence.
Qed.

Lemma lp_reduce h a : lpr h a = lpf (full h) a.
Proof.
  unfold lpr, lpf, lp, defs'. rewrite defect_field_app.
  assert (E : defect_field phi (map (fun c => (c, electron p)) pre) a = total (fun b => coulomb phi p a b * charge (full h b))%Qc pre).
  { unfold defect_field. rewrite total_map. apply total_ext. intros c Hc. rewrite (full_pre h c Hc). reflexivity. }
  rewrite E, (total_perm _ _ _ split_cells), total_app, (total_ext (fun b => (coulomb phi p a b * charge (full h b))%Qc) (fun b => (coulomb phi p a b * charge (h b))%Qc) rem).
  - ring.
  - intros c Hc. rewrite (full_rem h c Hc). reflexivity.
Qed.

(** The potential is lowest when all SiDBs are negatively charged. *)
Lemma charge_low s : (charge NEG <= charge s)%Qc.
Proof. destruct s; cbn; try apply Qcle_refl; apply Qcle_alt; vm_compute; discriminate. Qed.
Lemma lp_low f a : (lpf (fun _ => NEG) a <= lpf f a)%Qc.
Proof.
  unfold lpf, lp. apply Qcplus_le_compat; [apply Qcle_refl|]. apply total_le. intros b _. rewrite (Qcmult_comm _ (charge NEG)), (Qcmult_comm _ (charge (f b))).
  apply Qcmult_le_compat_r; [apply charge_low|apply phi_pos].
Qed.
Lemma lp_low_at f a b : In b cells -> f b <> NEG -> f b <> NON -> (lpf (fun _ => NEG) a + coulomb phi p a b <= lpf f a)%Qc.
Proof.
  intros Hb Nb No. pose proof (lp_low (fupd f b NEG) a) as L. unfold lpf in L |- *.
  rewrite (lp_fupd phi cells Hnd p _ f b NEG a Hb) in L.
  assert (C : (coulomb phi p a b <= coulomb phi p a b * (charge (f b) - charge NEG))%Qc).
  { rewrite <- (Qcmult_1_r (coulomb phi p a b)) at 1. rewrite (Qcmult_comm _ (charge (f b) - charge NEG)), (Qcmult_comm _ 1).
    apply Qcmult_le_compat_r; [|apply phi_pos]. destruct (f b); try contradiction; apply Qcle_alt; vm_compute; discriminate. }
  set (x := lp phi p cells (defect_field phi defs) (fun _ => NEG) a) in *. set (y := lp phi p cells (defect_field phi defs) f a) in *.
  replace (coulomb phi p a b * (charge NEG - charge (f b)))%Qc with (- (coulomb phi p a b * (charge (f b) - charge NEG)))%Qc in L by ring.
  set (z := (coulomb phi p a b * (charge (f b) - charge NEG))%Qc) in *. set (w := coulomb phi p a b) in *. clearbody x y z w. clear -L C. qlin.
Qed.

(** SiDBs of [pre] are negatively charged in every stable distribution. *)
Lemma certain_neg f c : In c cells -> certain c = true -> popb p ext (lpf f) f c = true -> f c = NEG.
Proof.
  intros Hc Ce P. unfold certain in Ce. apply qltb_spec in Ce. pose proof (lp_low f c) as L. unfold popb, bnd, ext in P. unfold mu_plus in P.
  set (x := lpf (fun _ => NEG) c) in *. set (y := lpf f c) in *. clearbody x y.
  destruct (f c); [reflexivity| | |discriminate]; exfalso.
  - apply andb_true_iff in P. destruct P as [P _]. apply qltb_spec in P. clear -Ce P L. qlin.
  - apply qltb_spec in P. assert (Z : (0 < Q2Qc (59 # 100))%Qc) by reflexivity. set (k := Q2Qc (59 # 100)) in *. clearbody k. clear -Ce P L Z. qlin.
Qed.
Lemma certain_pop f c : certain c = true -> f c = NEG -> popb p ext (lpf f) f c = true.
Proof.
  intros Ce E. unfold certain in Ce. apply qltb_spec in Ce. pose proof (lp_low f c) as L. unfold popb, bnd, ext. rewrite E. apply qltb_spec.
  assert (Z : (0 < margin)%Qc) by reflexivity. set (x := lpf (fun _ => NEG) c) in *. set (y := lpf f c) in *. set (m := margin) in *. clearbody x y m. clear -Ce L Z. qlin.
Qed.
Lemma popb_low f c : In c cells -> f c <> NEG -> popb p ext (lpf f) f c = true -> (lpf f c < p_mu p + margin - v)%Qc.
Proof.
  intros Hc N P. unfold popb, bnd, ext in P. unfold mu_plus in P. set (y := lpf f c) in *. clearbody y.
  destruct (f c); [contradiction| | |discriminate].
  - apply andb_true_iff in P. destruct P as [P _]. apply qltb_spec in P. clear -P. qlin.
  - apply qltb_spec in P. assert (Z : (0 < Q2Qc (59 # 100))%Qc) by reflexivity. set (k := Q2Qc (59 # 100)) in *. clearbody k. clear -P Z. qlin.
Qed.

Lemma valid_up h : (forall c, In c rem -> h c <> NON) -> validb phi p rem ext (defect_field phi defs') h = true ->
  validb phi p cells ext (defect_field phi defs) (full h) = true.
Proof.
  intros NN V. unfold validb in *. apply andb_true_iff in V. destruct V as [V1 V2]. fold lpr in V1, V2. fold lpf.
  rewrite forallb_forall in V1. apply andb_true_iff.
  assert (Pop : forall c, In c cells -> popb p ext (lpf (full h)) (full h) c = true).
  { intros c Hc. destruct (certain c) eqn:Ce.
    - apply certain_pop; [exact Ce|]. apply full_pre, in_pre. auto.
    - assert (R : In c rem) by (apply in_rem; auto). specialize (V1 c R). unfold popb in *. rewrite lp_reduce in V1. rewrite (full_rem h c R). exact V1. }
  split; [apply forallb_forall, Pop|].
  unfold hopsb in *. rewrite forallb_forall in V2. apply forallb_forall. intros a Ha. apply orb_true_iff.
  destruct (cs_eqb (full h a) POS) eqn:Pa; [left; reflexivity|right]. apply forallb_forall. intros b Hb. apply orb_true_iff.
  destruct (Z.leb_spec (sgn (full h b)) (sgn (full h a))) as [L|L]; [left; reflexivity|right]. apply negb_true_iff, qltb_false.
  assert (Rb : In b rem).
  { apply in_rem. split; [exact Hb|]. destruct (certain b) eqn:Cb; [|reflexivity]. rewrite (full_pre h b) in L by (apply in_pre; auto). cbn in L. destruct (full h a); cbn in L; lia. }
  destruct (certain a) eqn:Ca.
  - assert (Fa : full h a = NEG) by (apply full_pre, in_pre; auto). rewrite Fa in L.
    assert (Nb : full h b <> NEG) by (intros E; rewrite E in L; cbn in L; lia).
    pose proof (popb_low (full h) b Hb Nb (Pop b Hb)) as P1.
    assert (P2 := lp_low_at (full h) a b Hb Nb ltac:(rewrite full_rem by exact Rb; apply NN, Rb)).
    unfold certain in Ca. apply qltb_spec in Ca. unfold hopq, ext.
    set (x := lpf (fun _ => NEG) a) in *. set (y := lpf (full h) a) in *. set (z := lpf (full h) b) in *. set (w := coulomb phi p a b) in *.
    assert (D : (0 <= y - z - w)%Qc) by (clearbody x y z w; clear -P1 P2 Ca; qlin).
    assert (D2 : (0 <= half * (y - z - w))%Qc).
    { rewrite Qcmult_comm. replace 0%Qc with (0 * half)%Qc by ring. apply Qcmult_le_compat_r; [exact D|]. apply Qcle_alt. vm_compute. discriminate. }
    assert (Z : (0 < margin)%Qc) by reflexivity. set (t := (half * (y - z - w))%Qc) in *. set (m := margin) in *. clearbody t m. clear -D2 Z. qlin.
  - assert (Ra : In a rem) by (apply in_rem; auto). specialize (V2 a Ra). apply orb_true_iff in V2. destruct V2 as [V2|V2].
    + rewrite (full_rem h a Ra) in Pa. congruence.
    + rewrite forallb_forall in V2. specialize (V2 b Rb). apply orb_true_iff in V2. rewrite (full_rem h a Ra), (full_rem h b Rb) in L.
      destruct V2 as [V2|V2]; [apply Z.leb_le in V2; lia|]. apply negb_true_iff, qltb_false in V2. unfold hopq in *. rewrite !lp_reduce in V2. exact V2.
Qed.

Lemma lp_agree_in f g a : (forall c, In c cells -> f c = g c) -> lpf f a = lpf g a.
Proof. intros E. apply lp_agree, E. Qed.
Lemma valid_down f : validb phi p cells ext (defect_field phi defs) f = true ->
  (forall c, In c cells -> f c = full f c) /\ validb phi p rem ext (defect_field phi defs') f = true.
Proof.
  intros V. unfold validb in *. apply andb_true_iff in V. destruct V as [V1 V2]. fold lpr. fold lpf in V1, V2. rewrite forallb_forall in V1.
  assert (E : forall c, In c cells -> f c = full f c).
  { intros c Hc. destruct (certain c) eqn:Ce.
    - rewrite full_pre by (apply in_pre; auto). apply certain_neg; auto.
    - rewrite full_rem; [reflexivity|]. apply in_rem. auto. }
  split; [exact E|].
  assert (Lp : forall a, lpr f a = lpf f a) by (intros a; rewrite lp_reduce; symmetry; apply lp_agree_in, E).
  assert (Sub : forall c, In c rem -> In c cells) by (intros c Hc; apply in_rem in Hc; apply Hc).
  apply andb_true_iff. split.
  - apply forallb_forall. intros c Hc. specialize (V1 c (Sub c Hc)). unfold popb in *. rewrite Lp. exact V1.
  - unfold hopsb in *. rewrite forallb_forall in V2. apply forallb_forall. intros a Ha. specialize (V2 a (Sub a Ha)). apply orb_true_iff in V2. apply orb_true_iff.
    destruct V2 as [V2|V2]; [left; exact V2|right]. rewrite forallb_forall in V2. apply forallb_forall. intros b Hb. specialize (V2 b (Sub b Hb)).
    unfold hopq in *. rewrite !Lp. exact V2.
Qed.

(** An SiDB can only be positively charged if it could be so next to negatively charged SiDBs. *)
Lemma pos_reach f c : f c = POS -> popb p ext (lpf f) f c = true -> qltb (- lpf (fun _ => NEG) c)%Qc (v - mu_plus p - margin)%Qc = false.
Proof.
  intros E P. unfold popb, bnd, ext in P. rewrite E in P. apply qltb_spec in P. apply qltb_false. pose proof (lp_low f c) as L.
  set (x := lpf (fun _ => NEG) c) in *. set (y := lpf f c) in *. set (z := mu_plus p) in *. clearbody x y z. clear -P L. qlin.
Qed.
End Reduce.

(** Neutral SiDBs stay clear of the tolerance around the transition levels. *)
Definition clear_cut phi p cells defs (ext : coord -> Qc) (f : distribution) : Prop :=
  forall a, In a cells -> f a = NEU ->
    (margin <= p_mu p - (potential phi p cells defs f a + ext a))%Qc /\ (mu_plus p - (potential phi p cells defs f a + ext a) <= - margin)%Qc.

Lemma valid_settled phi (phi_self : forall e l a, phi e l a a = 0%Qc) p cells (Hnd : NoDup cells) defs ext f dep : In dep cells ->
  clear_cut phi p cells defs ext f -> popb p ext (lp phi p cells (defect_field phi defs) f) f dep = true ->
  settled phi cells p ext (defect_field phi defs) dep true f.
Proof.
  intros Hd Cc P x. unfold depnext. rewrite (lp_self phi phi_self cells Hnd p _ f dep x Hd).
  specialize (Cc dep Hd). change (potential phi p cells defs f dep) with (lp phi p cells (defect_field phi defs) f dep) in Cc.
  unfold popb in P. set (w := lp phi p cells (defect_field phi defs) f dep) in *. unfold bnd in *.
  destruct (f dep).
  - rewrite P. reflexivity.
  - destruct (Cc eq_refl) as [C1 C2]. set (e := ext dep) in *. set (mp := mu_plus p) in *. set (m := margin) in *. clearbody w e mp m.
    assert (Q1 : qltb (- w) (e - p_mu p + m) = false) by (apply qltb_false; clear -C1; qlin).
    assert (Q2 : qltb (e - mp - m) (- w) = false) by (apply qltb_false; clear -C2; qlin).
    rewrite Q1, Q2. reflexivity.
  - assert (Q1 : qltb (- w) (ext dep - p_mu p + margin) = false).
    { apply qltb_spec in P. apply qltb_false. unfold mu_plus in P. assert (Z : (margin + margin < Q2Qc (59 # 100))%Qc) by reflexivity.
      set (k := Q2Qc (59 # 100)) in *. set (e := ext dep) in *. set (m := margin) in *. clearbody w e m k. clear -P Z. qlin. }
    rewrite Q1, P. reflexivity.
  - discriminate.
Qed.
