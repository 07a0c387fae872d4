(** Proofs about SidbModel.v, part 5: the stored validity and energy against the specification; new surfaces; the
    exhaustive simulation. *)
From Coq Require Import ZArith QArith Qcanon Bool List Lia Lqa Permutation Sorting.Sorted.
From Verif Require Import CoordModel CoordProofs UtilModel SidbModel SidbSpec SidbProofs SidbProofs2 SidbProofs3 SidbProofs4.
Import ListNotations.
Local Open Scope Z_scope.

Section Spec.
Context (phi : Qc -> Qc -> coord -> coord -> Qc)
        (phi_self : forall e l a, phi e l a a = 0%Qc) (phi_sym : forall e l a b, phi e l a b = phi e l b a).

(** Indicator functions. *)
Definition ind (a c : coord) : Qc := if coord_eqb c a then 1%Qc else 0%Qc.
Lemma total_ind F a cells : NoDup cells -> In a cells -> total (fun c => (F c * ind a c)%Qc) cells = F a.
Proof.
  intros N I. rewrite (total_single _ cells a N I).
  - unfold ind. rewrite coord_eqb_refl. ring.
  - intros b _ Hb. unfold ind. apply coord_eqb_false in Hb. rewrite Hb. ring.
Qed.

Section Layout.
Context (p : params) (cells : list coord) (defs : list (coord * defect)) (ext : coord -> Qc) (Hnd : NoDup cells).
Let V := coulomb phi p.
Let u c := (defect_field phi defs c + ext c)%Qc.

Lemma V_self a : V a a = 0%Qc.
Proof. apply phi_self. Qed.
Lemma V_sym a b : V a b = V b a.
Proof. apply phi_sym. Qed.

(** Energy of arbitrary charges, as a quadratic form. *)
Definition quad (q : coord -> Qc) : Qc := total (fun a => total (fun b => (V a b * q a * q b)%Qc) cells) cells.
Definition lin (q : coord -> Qc) : Qc := total (fun a => (u a * q a)%Qc) cells.
Lemma energy_quad f : energy phi p cells defs ext f = (half * quad (fun c => charge (f c)) + lin (fun c => charge (f c)))%Qc.
Proof.
  unfold energy, quad, lin. f_equal.
  rewrite (total_double (fun a b => V a b * charge (f a) * charge (f b))%Qc).
  - fold V. symmetry. apply half_double.
  - intros a b. rewrite (V_sym a b). ring.
  - intros a _. rewrite V_self. ring.
Qed.
Lemma total_swap {A B} (F : A -> B -> Qc) l m : total (fun a => total (F a) m) l = total (fun b => total (fun a => F a b) l) m.
Proof.
  induction l as [|x l IH]; [cbn; symmetry; apply total_0|]. rewrite total_cons, IH, <- total_plus. reflexivity.
Qed.
Lemma quad_change q a b : In a cells -> In b cells ->
  quad (fun c => q c + ind a c - ind b c)%Qc =
  (quad q + (total (fun c => V a c * q c) cells - total (fun c => V b c * q c) cells - V a b) +
            (total (fun c => V a c * q c) cells - total (fun c => V b c * q c) cells - V a b))%Qc.
Proof.
  intros Ia Ib. unfold quad.
  transitivity (total (fun x => (total (fun y => V x y * q x * q y) cells + (q x * (V x a - V x b) +
     (ind a x - ind b x) * (total (fun y => V x y * q y) cells + V x a - V x b)))%Qc) cells).
  { apply total_ext. intros x _.
    transitivity (total (fun y => ((V x y * q x * q y + (ind a x - ind b x) * (V x y * q y)) + (V x y * (q x + ind a x - ind b x)) * ind a y
                    + (- (V x y * (q x + ind a x - ind b x))) * ind b y))%Qc cells).
    { apply total_ext. intros y _. ring. }
    rewrite !total_plus, total_scale, !(total_ind (fun y => V x y * (q x + ind a x - ind b x))%Qc a cells Hnd Ia),
      (total_ind (fun y => - (V x y * (q x + ind a x - ind b x)))%Qc b cells Hnd Ib). ring. }
  rewrite total_plus, total_plus.
  set (W x := total (fun y => (V x y * q y)%Qc) cells).
  assert (E1 : total (fun x => (q x * (V x a - V x b))%Qc) cells = (W a - W b)%Qc).
  { transitivity (total (fun x => (V a x * q x + (- (1)) * (V b x * q x))%Qc) cells).
    - apply total_ext. intros x _. rewrite (V_sym x a), (V_sym x b). ring.
    - rewrite total_plus, total_scale. unfold W. ring. }
  assert (E2 : total (fun x => ((ind a x - ind b x) * (W x + V x a - V x b))%Qc) cells =
    ((W a + V a a - V a b) - (W b + V b a - V b b))%Qc).
  { transitivity (total (fun x => ((W x + V x a - V x b) * ind a x + (- (1)) * ((W x + V x a - V x b) * ind b x))%Qc) cells).
    - apply total_ext. intros x _. ring.
    - rewrite total_plus, total_scale, !(total_ind (fun x => W x + V x a - V x b)%Qc) by auto. ring. }
  unfold W in E1, E2. rewrite E1, E2, !V_self, (V_sym b a). ring.
Qed.
Lemma lin_change q a b : In a cells -> In b cells -> lin (fun c => q c + ind a c - ind b c)%Qc = (lin q + u a - u b)%Qc.
Proof.
  intros Ia Ib. unfold lin.
  transitivity (total (fun x => (u x * q x + (u x * ind a x + (- (1)) * (u x * ind b x)))%Qc) cells).
  - apply total_ext. intros x _. ring.
  - rewrite total_plus, total_plus, total_scale, !(total_ind u) by auto. ring.
Qed.
Lemma quad_ext q q' : (forall c, In c cells -> q c = q' c) -> quad q = quad q'.
Proof. intros H. unfold quad. apply total_ext. intros a Ha. apply total_ext. intros b Hb. rewrite (H a Ha), (H b Hb). reflexivity. Qed.
Lemma lin_ext q q' : (forall c, In c cells -> q c = q' c) -> lin q = lin q'.
Proof. intros H. unfold lin. apply total_ext. intros a Ha. rewrite (H a Ha). reflexivity. Qed.

Lemma charge_hop f a b c : f a <> NON -> f b <> NON -> (charge (f a) < charge (f b))%Qc ->
  charge (hop a b f c) = (charge (f c) + ind a c - ind b c)%Qc.
Proof.
  intros Na Nb L. assert (Ne : a <> b) by (intros ->; revert L; apply Qlt_irrefl).
  unfold hop, ind. destruct (coord_eqb c a) eqn:Ea.
  - apply coord_eqb_spec in Ea. subst c. destruct (coord_eqb a b) eqn:Eb; [apply coord_eqb_spec in Eb; contradiction|].
    apply charge_lt in L. destruct (f a), (f b); cbn in L; try lia; try contradiction; cbn [raised charge]; ring.
  - destruct (coord_eqb c b) eqn:Eb; [|ring].
    apply coord_eqb_spec in Eb. subst c. apply charge_lt in L.
    destruct (f a), (f b); cbn in L; try lia; try contradiction; cbn [lowered charge]; ring.
Qed.

(** The energy difference of a hop. *)
Lemma hop_energy f a b : In a cells -> In b cells -> f a <> NON -> f b <> NON -> (charge (f a) < charge (f b))%Qc ->
  (energy phi p cells defs ext (hop a b f) - energy phi p cells defs ext f)%Qc =
  ((potential phi p cells defs f a + ext a) - (potential phi p cells defs f b + ext b) - V a b)%Qc.
Proof.
  intros Ia Ib Na Nb L. rewrite !energy_quad.
  rewrite (quad_ext (fun c => charge (hop a b f c)) (fun c => charge (f c) + ind a c - ind b c)%Qc) by (intros; apply charge_hop; auto).
  rewrite (lin_ext (fun c => charge (hop a b f c)) (fun c => charge (f c) + ind a c - ind b c)%Qc) by (intros; apply charge_hop; auto).
  rewrite quad_change, lin_change by auto. unfold potential, u. fold V.
  set (X := (total (fun c => V a c * charge (f c)) cells - total (fun c => V b c * charge (f c)) cells - V a b)%Qc).
  transitivity (half * (X + X) + (defect_field phi defs a + ext a) - (defect_field phi defs b + ext b))%Qc; [ring|].
  rewrite half_double. unfold X. ring.
Qed.

Lemma popb_spec f a : popb p ext (lp phi p cells (defect_field phi defs) f) f a = true <-> population_stable phi p cells defs ext f a.
Proof.
  unfold popb, population_stable, bnd. change (lp phi p cells (defect_field phi defs) f a) with (potential phi p cells defs f a).
  set (v := potential phi p cells defs f a). destruct (f a).
  - rewrite qltb_spec. split; intros; qlin.
  - rewrite andb_true_iff, !qltb_spec. split; intros [H1 H2]; split; qlin.
  - rewrite qltb_spec. split; intros; qlin.
  - split; [discriminate|intros []].
Qed.
Lemma double_half x : (half * x + half * x)%Qc = x.
Proof. rewrite <- Qcmult_plus_distr_r. apply half_double. Qed.
(** The model's hop criterion. *)
Lemma hopsb_spec f : (forall c, In c cells -> f c <> NON) ->
  (hopsb phi p cells ext (lp phi p cells (defect_field phi defs) f) f = true <->
   forall a b, In a cells -> In b cells -> (charge (f a) < charge (f b))%Qc ->
     (- (margin + margin) <= energy phi p cells defs ext (hop a b f) - energy phi p cells defs ext f + (ext a - ext b))%Qc).
Proof.
  intros NN. unfold hopsb. rewrite forallb_forall. split.
  - intros H a b Ia Ib L. specialize (H a Ia). apply orb_true_iff in H. destruct H as [H|H].
    + exfalso. apply charge_lt in L. destruct (f a), (f b); cbn in *; try discriminate; try lia; exfalso; eapply NN; eauto.
    + rewrite forallb_forall in H. specialize (H b Ib). apply orb_true_iff in H. destruct H as [H|H].
      * apply charge_lt in L. apply Z.leb_le in H. lia.
      * apply negb_true_iff, qltb_false in H. rewrite hop_energy by auto. unfold hopq in H. unfold V.
        change (lp phi p cells (defect_field phi defs) f) with (potential phi p cells defs f) in H.
        set (pa := potential phi p cells defs f a) in *. set (pb := potential phi p cells defs f b) in *.
        set (x := (pa - pb - coulomb phi p a b)%Qc) in *. pose proof (double_half x) as D.
        replace (pa + ext a - (pb + ext b) - coulomb phi p a b + (ext a - ext b))%Qc with
          ((ext a - ext b + half * x) + (ext a - ext b + half * x))%Qc.
        2:{ transitivity ((half * x + half * x) + (ext a - ext b) + (ext a - ext b))%Qc; [ring|]. rewrite D. unfold x. ring. }
        set (y := (ext a - ext b + half * x)%Qc) in *. clearbody y. clear -H. qlin.
  - intros H a Ia. apply orb_true_iff. destruct (cs_eqb (f a) POS) eqn:P; [left; reflexivity|right].
    apply forallb_forall. intros b Ib. apply orb_true_iff. destruct (Z.leb_spec (sgn (f b)) (sgn (f a))) as [L|L]; [left; reflexivity|right].
    apply negb_true_iff, qltb_false. apply charge_lt in L. specialize (H a b Ia Ib L). rewrite hop_energy in H by auto.
    unfold hopq. unfold V in H.
    change (lp phi p cells (defect_field phi defs) f) with (potential phi p cells defs f).
    set (pa := potential phi p cells defs f a) in *. set (pb := potential phi p cells defs f b) in *.
    set (x := (pa - pb - coulomb phi p a b)%Qc) in *. pose proof (double_half x) as D.
    replace (pa + ext a - (pb + ext b) - coulomb phi p a b + (ext a - ext b))%Qc with
      ((ext a - ext b + half * x) + (ext a - ext b + half * x))%Qc in H.
    2:{ transitivity ((half * x + half * x) + (ext a - ext b) + (ext a - ext b))%Qc; [ring|]. rewrite D. unfold x. ring. }
    set (y := (ext a - ext b + half * x)%Qc) in *. clearbody y. clear -H. qlin.
Qed.
Lemma validb_spec f : (forall c, In c cells -> f c <> NON) -> (forall a b, In a cells -> In b cells -> ext a = ext b) ->
  (validb phi p cells ext (defect_field phi defs) f = true <-> physically_valid phi p cells defs ext f).
Proof.
  intros NN U. unfold validb, physically_valid. rewrite andb_true_iff, hopsb_spec by exact NN. rewrite forallb_forall.
  unfold configuration_stable. split; intros [H1 H2]; split.
  - intros a Ha. apply popb_spec, H1, Ha.
  - intros a b Ia Ib L. specialize (H2 a b Ia Ib L). rewrite (U a b Ia Ib) in H2.
    replace (energy phi p cells defs ext (hop a b f) - energy phi p cells defs ext f + (ext b - ext b))%Qc
      with (energy phi p cells defs ext (hop a b f) - energy phi p cells defs ext f)%Qc in H2 by ring. exact H2.
  - intros a Ha. apply popb_spec, H1, Ha.
  - intros a b Ia Ib L. specialize (H2 a b Ia Ib L). rewrite (U a b Ia Ib).
    replace (energy phi p cells defs ext (hop a b f) - energy phi p cells defs ext f + (ext b - ext b))%Qc
      with (energy phi p cells defs ext (hop a b f) - energy phi p cells defs ext f)%Qc by ring. exact H2.
Qed.

(** Energy: defects in the same medium as the SiDBs. *)
Definition defect_pairs : Qc :=
  total_pairs (fun x y => (coulomb phi p (fst x) (fst y) * qz (df_charge (snd x)) * qz (df_charge (snd y)))%Qc) defs.
Lemma lookup_map m (F : coord * defect -> Qc) cf : NoDup (map fst m) -> In cf m ->
  lookup_pot (fst cf) (map (fun x => (fst x, F x)) m) = F cf.
Proof.
  induction m as [|x m IH]; intros N I; [destruct I|]. cbn [map fst] in *. apply NoDup_cons_iff in N. destruct N as [N1 N2].
  cbn [lookup_pot]. destruct I as [->|I].
  - rewrite coord_eqb_refl. reflexivity.
  - destruct (coord_eqb (fst x) (fst cf)) eqn:E; [|apply IH; auto].
    apply coord_eqb_spec in E. exfalso. apply N1. rewrite E. apply in_map, I.
Qed.
Lemma en_val_spec f : NoDup (map fst defs) ->
  Forall (fun cf => df_eps (snd cf) = p_eps p /\ df_lambda (snd cf) = p_lambda p) defs ->
  en_val phi p cells ext (defect_field phi defs) defs f = (energy phi p cells defs ext f + defect_pairs)%Qc.
Proof.
  intros N M. rewrite Forall_forall in M. rewrite energy_quad. unfold en_val.
  set (q := fun c => charge (f c)).
  assert (D : forall a, defect_field phi defs a = total (fun cf => (V a (fst cf) * qz (df_charge (snd cf)))%Qc) defs).
  { intros a. unfold defect_field. apply total_ext. intros cf Hc. destruct (M cf Hc) as [-> ->]. reflexivity. }
  assert (E1 : total (fun c => (lp phi p cells (defect_field phi defs) f c * charge (f c))%Qc) cells =
    (total (fun c => (defect_field phi defs c * q c)%Qc) cells + quad q)%Qc).
  { unfold quad. rewrite <- total_plus. apply total_ext. intros c _. unfold lp. fold V.
    transitivity (defect_field phi defs c * q c + q c * total (fun b => V c b * charge (f b)) cells)%Qc; [unfold q; ring|].
    f_equal. rewrite <- total_scale. apply total_ext. intros b _. unfold q. ring. }
  assert (E2 : total (fun cf => (lookup_pot (fst cf) (intdefs phi p cells defs f) * qz (df_charge (snd cf)))%Qc) defs =
    (defect_pairs + defect_pairs + total (fun c => (defect_field phi defs c * q c)%Qc) cells)%Qc).
  { transitivity (total (fun x => (total (fun y => (V (fst x) (fst y) * qz (df_charge (snd x)) * qz (df_charge (snd y)))%Qc) defs +
        total (fun c => (V c (fst x) * qz (df_charge (snd x)) * q c)%Qc) cells)%Qc) defs).
    - apply total_ext. intros x Hx. unfold intdefs.
      rewrite (lookup_map defs (fun cf1 => (total (fun cf2 => defect_pot phi (fst cf1) (fst cf2) (snd cf2)) defs +
         total (fun c => coulomb phi p (fst cf1) c * charge (f c)) cells)%Qc) x N Hx).
      rewrite Qcmult_plus_distr_l, Qcmult_comm, <- total_scale. f_equal.
      + apply total_ext. intros y Hy. unfold defect_pot. destruct (M y Hy) as [-> ->]. unfold V, coulomb. ring.
      + rewrite Qcmult_comm, <- total_scale. apply total_ext. intros c _. fold V. rewrite (V_sym (fst x) c). unfold q. ring.
    - rewrite total_plus. f_equal.
      + apply (total_double (fun x y : coord * defect => (V (fst x) (fst y) * qz (df_charge (snd x)) * qz (df_charge (snd y)))%Qc)).
        * intros x y. rewrite (V_sym (fst x) (fst y)). ring.
        * intros x _. rewrite V_self. ring.
      + rewrite total_swap. apply total_ext. intros c _. rewrite D, Qcmult_comm, <- total_scale. apply total_ext. intros x _. ring. }
  rewrite E1, E2. unfold lin. fold q.
  assert (E3 : total (fun a => (u a * q a)%Qc) cells =
    (total (fun c => (ext c * charge (f c))%Qc) cells + total (fun c => (defect_field phi defs c * q c)%Qc) cells)%Qc).
  { rewrite <- total_plus. apply total_ext. intros c _. unfold u, q. ring. }
  rewrite E3. set (X := total (fun c => (defect_field phi defs c * q c)%Qc) cells).
  set (T := total (fun c => (ext c * charge (f c))%Qc) cells).
  transitivity (T + ((half * X + half * X) + half * quad q + (half * defect_pairs + half * defect_pairs)))%Qc; [ring|].
  rewrite !double_half. ring.
Qed.
End Layout.
End Spec.

(** ** New surfaces *)
Section New.
Context (phi : Qc -> Qc -> coord -> coord -> Qc) (k : kind).

Definition surface_conf (l : layout) (p : params) (s : cs) : conf :=
  mkConf p (filter (fun cf => is_charged_defect (snd cf)) (l_defects l)) (fun _ => 0%Qc) (fun _ => s) true.

Lemma sorted_nodup l : NoDup (l_cells l) -> NoDup (sort_cells (k_ltb k) (l_cells l)).
Proof. intros N. apply (Permutation_NoDup (Permutation_sym (sort_perm _ _)) N). Qed.
Lemma sorted_live l : Forall (fun c => is_dead c = false) (l_cells l) -> Forall (fun c => is_dead c = false) (sort_cells (k_ltb k) (l_cells l)).
Proof.
  intros F. apply Forall_forall. intros c Hc. rewrite Forall_forall in F. apply F. apply (Permutation_in _ (sort_perm (k_ltb k) (l_cells l)) Hc).
Qed.
Lemma sorted_in l c : In c (sort_cells (k_ltb k) (l_cells l)) <-> In c (l_cells l).
Proof.
  split; intros H; [apply (Permutation_in _ (sort_perm (k_ltb k) (l_cells l)) H)|
    apply (Permutation_in _ (Permutation_sym (sort_perm (k_ltb k) (l_cells l))) H)].
Qed.
Lemma const_map {A B C} (x : C) (l : list A) (m : list B) : length l = length m -> map (fun _ => x) l = map (fun _ => x) m.
Proof. revert m. induction l as [|a l IH]; intros [|b m] H; try discriminate; [reflexivity|]. cbn. f_equal. apply IH. cbn in H. lia. Qed.

Lemma new_surface_ok l p s (cells := sort_cells (k_ltb k) (l_cells l)) : proper_layout l -> base_ok (p_base p) -> s <> NON ->
  Ok phi cells (new_surface phi k l p s) (surface_conf l p s) /\
  Fresh phi cells (new_surface phi k l p s) (surface_conf l p s) /\
  d_energy (new_surface phi k l p s) = energy_of phi cells (surface_conf l p s).
Proof.
  intros [P1 P2 P3 P4] B Ns. pose proof (sorted_nodup l P1) as N. pose proof (sorted_live l P2) as L. fold cells in N, L.
  assert (Len : length cells = length (l_cells l)) by (apply Permutation_length, sort_perm).
  unfold new_surface. fold cells. rewrite <- Len. rewrite (const_map s (l_cells l) cells), (const_map (Q2Qc 0) (l_cells l) cells) by auto.
  set (d0 := mkD _ _ _ _ _ _ _ _ _ _ _ _ _ _ _ _ _ _ _ _ _ _ _ _ _ _ _ _).
  assert (C0 : charges cells d0 (fun _ => s)) by (split; reflexivity).
  rewrite (to_index_plain cells d0 (fun _ => s) N C0 eq_refl eq_refl). unfold initialize_potential_matrix.
  match goal with |- context [update_int_neglect ?x] => set (d1 := x) end.
  rewrite (neglect_eq phi d1 cells p (fun _ => Q2Qc 0) (fun _ => s) C0 eq_refl eq_refl).
  match goal with |- context [fold_left _ _ ?x] => set (d2 := x) end.
  rewrite (add_defects_eq phi cells (l_defects l) d2 (fun _ => Q2Qc 0) (lp phi p cells (fun _ => Q2Qc 0) (fun _ => s))
    eq_refl eq_refl eq_refl).
  2:{ exact P3. } 2:{ intros c Hc Ic. apply (P4 c Hc). apply sorted_in, Ic. }
  set (fil := filter (fun cf : coord * defect => is_charged_defect (snd cf)) (l_defects l)).
  set (dp := defect_field phi fil).
  assert (Fd : forall a, defect_field phi (l_defects l) a = dp a).
  { intros a. symmetry. apply (defect_field_filter phi (l_defects l) a). }
  rewrite (map_ext (fun a => (Q2Qc 0 + defect_field phi (l_defects l) a)%Qc) dp) by (intros; rewrite Fd; change (Q2Qc 0) with 0%Qc; ring).
  rewrite (map_ext (fun a => (lp phi p cells (fun _ => Q2Qc 0) (fun _ => s) a + defect_field phi (l_defects l) a)%Qc) (lp phi p cells dp (fun _ => s)))
    by (intros; rewrite Fd; unfold lp; change (Q2Qc 0) with 0%Qc; ring).
  change (d_defs d2 ++ filter charged (l_defects l)) with fil.
  set (d3 := set_int (set_defpot (set_defs d2 fil) (map dp cells)) (map (lp phi p cells dp (fun _ => s)) cells)).
  assert (Nf : NoDup (map fst fil)).
  { unfold fil. clear -P3. induction (l_defects l) as [|x m IH]; [constructor|]. cbn [map] in P3. apply NoDup_cons_iff in P3.
    destruct P3 as [H1 H2]. cbn [filter]. destruct (is_charged_defect (snd x)); [|auto]. cbn [map]. constructor; [|auto].
    intros C. apply H1. apply in_map_iff in C. destruct C as (y & E & Hy). apply filter_In in Hy. rewrite <- E. apply in_map, Hy. }
  assert (Af : forall c, In c cells -> find_defect c fil = None).
  { intros c Hc. apply find_defect_none. intros C. apply in_map_iff in C. destruct C as (y & E & Hy). apply filter_In in Hy.
    apply (P4 c); [rewrite <- E; apply in_map, Hy|apply sorted_in, Hc]. }
  rewrite (recompute_eq phi d3 cells p (fun _ => 0%Qc) dp (fun _ => s) N C0 eq_refl eq_refl).
  2:{ constructor. } 2:{ intros c []. } 2:{ reflexivity. } 2:{ exact Af. } 2:{ reflexivity. } 2:{ discriminate. }
  match goal with |- context [determine_thresholds ?x] => set (d4 := x) end.
  rewrite (thresholds_eq d4 cells p (fun _ => 0%Qc) eq_refl eq_refl eq_refl).
  rewrite (validity_eq phi (set_bounds d4 (map (bnd p (fun _ => 0%Qc)) cells)) cells p (fun _ => 0%Qc) dp (fun _ => s) C0
    eq_refl eq_refl eq_refl eq_refl).
  split; [|split].
  - split; try reflexivity; auto.
    + split; try reflexivity; auto; [constructor|intros c []].
    + apply Forall_forall. intros x Hx. apply filter_In in Hx. apply Hx.
    + exists (lp phi p cells dp (fun _ => s)). reflexivity.
  - split; [exact C0|reflexivity|reflexivity].
  - reflexivity.
Qed.

Theorem tracked_ok l d A : proper_layout l -> 3 ^ Z.of_nat (length (l_cells l)) <= 2 ^ 53 -> tracked phi k l d A ->
  Ok phi (sort_cells (k_ltb k) (l_cells l)) d A.
Proof.
  intros P S H. induction H as [p s B Ns|d A o A' T IH St].
  - apply new_surface_ok; auto.
  - apply (ok_step phi _ (sorted_nodup l (pl_cells _ P)) (sorted_live l (pl_live _ P))) with (A := A); auto.
    rewrite (Permutation_length (sort_perm (k_ltb k) (l_cells l))). exact S.
Qed.

(** ** The exhaustive simulation *)
Lemma forallb_agree {A} (F G : A -> bool) l : (forall x, In x l -> F x = G x) -> forallb F l = forallb G l.
Proof.
  induction l as [|x l IH]; intros H; [reflexivity|]. cbn. rewrite (H x), IH; auto using in_eq. intros y Hy. apply H. right; exact Hy.
Qed.
Lemma lp_agree p cells dp f g c : (forall x, In x cells -> f x = g x) -> lp phi p cells dp f c = lp phi p cells dp g c.
Proof. intros M. unfold lp. f_equal. apply total_ext. intros b Hb. rewrite (M b Hb). reflexivity. Qed.
Lemma validb_agree p cells ext dp f g : (forall x, In x cells -> f x = g x) -> validb phi p cells ext dp f = validb phi p cells ext dp g.
Proof.
  intros M. unfold validb, hopsb. f_equal; apply forallb_agree; intros a Ha.
  - unfold popb. rewrite (M a Ha), (lp_agree p cells dp f g a M). reflexivity.
  - rewrite (M a Ha). f_equal. apply forallb_agree. intros b Hb. unfold hopq. rewrite (M b Hb), !(lp_agree p cells dp f g _ M). reflexivity.
Qed.

Section Loop.
Context (cells : list coord) (Hnd : NoDup cells) (Hlive : Forall (fun c => is_dead c = false) cells)
        (Hsize : 3 ^ Z.of_nat (length cells) <= 2 ^ 53) (p : params) (defs : list (coord * defect)) (B : base_ok (p_base p)).
Let ext : coord -> Qc := fun _ => 0%Qc.
Let cf f := mkConf p defs ext f true.
Let num f := number (p_base p) (map f cells).
Definition Good (d : cds) (f : distribution) : Prop :=
  Ok phi cells d (cf f) /\ Fresh phi cells d (cf f) /\ d_energy d = energy_of phi cells (cf f) /\
  (forall c, In c cells -> allowed (p_base p) (f c)).
Let vb f := validb phi p cells ext (defect_field phi defs) f.

Lemma exgs_loop_ok fuel : forall d f res, Good d f -> d_max d - d_idx d <= Z.of_nat fuel ->
  exists R, exgs_loop phi fuel d res = (res ++ R, false) /\
    (forall r, In r R -> exists g, Good r g /\ vb g = true /\ num f <= num g) /\
    (forall g, (forall c, In c cells -> allowed (p_base p) (g c)) -> num f <= num g -> vb g = true ->
       exists r, In r R /\ charges cells r g) /\
    StronglySorted Z.lt (map d_idx R).
Proof.
  assert (Same : forall d f g, Good d f -> map f cells = map g cells -> vb g = true -> vb f = true /\ charges cells d g).
  { intros d f g (O & E & _) Eg Vg. split.
    - rewrite <- Vg. apply validb_agree, map_agree, Eg.
    - destruct (el_charges _ _ _ _ _ _ _ E) as [E1 E2]. split; [exact E1|]. rewrite E2. exact Eg. }
  induction fuel as [|fuel IH]; intros d f res G Fu; pose proof G as (O & E & En & Al);
    pose proof (ok_max _ _ _ _ O) as Mx; pose proof (ok_idx _ _ _ _ O eq_refl) as Ix;
    cbn [c_params c_dist cf] in Mx, Ix; pose proof (valD_range _ f cells B Al) as Rg;
    cbn [exgs_loop]; destruct (Z.ltb_spec (d_idx d) (d_max d)) as [L|L].
  1: lia.
  1,3: rewrite (st_ub _ _ _ _ _ _ (ok_static _ _ _ _ O)), (el_valid _ _ _ _ _ _ _ E); exists (if vb f then [d] else []);
    (split; [|split; [|split]]);
    [unfold vb; cbn [c_params c_ext c_defects c_dist cf]; destruct (validb phi p cells ext (defect_field phi defs) f); [reflexivity|rewrite app_nil_r; reflexivity]
    |intros r Hr; destruct (vb f) eqn:Vf; [|destruct Hr]; destruct Hr as [<-|[]]; exists f; split; [exact G|split; [exact Vf|apply Z.le_refl]]
    |intros g Ag Lg Vg;
     assert (Eg : map f cells = map g cells) by
       (apply (number_inj (p_base p)); auto; pose proof (valD_range _ g cells B Ag); unfold num in Lg; lia);
     destruct (Same d f g G Eg Vg) as [Vf Cg]; rewrite Vf; exists d; split; [left; reflexivity|exact Cg]
    |destruct (vb f); cbn; repeat constructor].
  cbv zeta.
  destruct (number_surj (p_base p) (num f + 1) cells B Hnd) as (f' & Af' & Nf'); [unfold num; lia|].
  destruct (ok_next phi cells Hnd Hlive Hsize d (cf f) f' O eq_refl Al Af' Nf') as (O' & E' & En').
  set (d' := increase_charge_index_by_one phi d false true false) in *.
  assert (G' : Good d' f') by (split; [exact O'|split; [exact E'|split; [exact En'|exact Af']]]).
  destruct (IH d' f' (if d_valid d then res ++ [d] else res) G') as (R & R1 & R2 & R3 & R4).
  { rewrite (ok_max _ _ _ _ O'), (ok_idx _ _ _ _ O' eq_refl). cbn [c_params c_dist cf]. unfold num in Nf'. lia. }
  rewrite R1, (el_valid _ _ _ _ _ _ _ E). cbn [c_params c_ext c_defects c_dist cf].
  fold (vb f). exists ((if vb f then [d] else []) ++ R). split; [|split; [|split]].
  - destruct (vb f); [rewrite <- app_assoc; reflexivity|reflexivity].
  - intros r Hr. apply in_app_or in Hr. destruct Hr as [Hr|Hr].
    + destruct (vb f) eqn:Vf; [|destruct Hr]. destruct Hr as [<-|[]]. exists f. split; [exact G|split; [exact Vf|apply Z.le_refl]].
    + destruct (R2 r Hr) as (g & Gg & Vg & Lg). exists g. split; [exact Gg|split; [exact Vg|]]. unfold num in *. lia.
  - intros g Ag Lg Vg. destruct (Z.eq_dec (num f) (num g)) as [Eq|Ne].
    + assert (Eg : map f cells = map g cells) by (apply (number_inj (p_base p)); auto).
      destruct (Same d f g G Eg Vg) as [Vf Cg]. rewrite Vf. exists d. split; [left; reflexivity|exact Cg].
    + destruct (R3 g Ag) as (r & Hr & Cr); auto; [unfold num in *; lia|]. exists r. split; [apply in_or_app; right; exact Hr|exact Cr].
  - destruct (vb f); cbn [app map]; [|exact R4]. constructor; [exact R4|]. apply Forall_forall. intros i Hi.
    apply in_map_iff in Hi. destruct Hi as (r & <- & Hr). destruct (R2 r Hr) as (g & (Og & _) & _ & Lg).
    rewrite (ok_idx _ _ _ _ Og eq_refl), Ix. cbn [c_params c_dist cf]. unfold num in *. lia.
Qed.
End Loop.

(** The exhaustive simulation as a whole. *)
Lemma exgs_ok l p (cells := sort_cells (k_ltb k) (l_cells l)) (defs := filter (fun cf => is_charged_defect (snd cf)) (l_defects l)) :
  proper_layout l -> base_ok (p_base p) -> 3 ^ Z.of_nat (length (l_cells l)) <= 2 ^ 53 -> l_cells l <> [] ->
  exists R, exgs phi k l p = (R, false) /\
    (forall r, In r R -> exists g, Good cells p defs r g /\ validb phi p cells (fun _ => 0%Qc) (defect_field phi defs) g = true) /\
    (forall g, (forall c, In c cells -> allowed (p_base p) (g c)) -> validb phi p cells (fun _ => 0%Qc) (defect_field phi defs) g = true ->
       exists r, In r R /\ charges cells r g) /\
    StronglySorted Z.lt (map d_idx R).
Proof.
  intros P B S Ne. unfold exgs. destruct (l_cells l) as [|c0 cs0] eqn:El; [contradiction|]. clear Ne.
  assert (N : NoDup cells) by (unfold cells; rewrite <- El; apply sorted_nodup, P).
  assert (L : Forall (fun c => is_dead c = false) cells) by (unfold cells; rewrite <- El; apply sorted_live, P).
  assert (Len : 3 ^ Z.of_nat (length cells) <= 2 ^ 53).
  { unfold cells. rewrite (Permutation_length (sort_perm (k_ltb k) (c0 :: cs0))). exact S. }
  destruct (new_surface_ok l default_params NEG P) as (O1 & _ & _); [right; reflexivity|discriminate|].
  rewrite El in O1. fold cells in O1.
  set (d1 := new_surface phi k l default_params NEG) in *.
  assert (O1' : Ok phi cells (set_eng d1 EXGS) (surface_conf l default_params NEG)).
  { replace (set_eng d1 EXGS) with d1; [exact O1|]. pose proof (ok_eng _ _ _ _ O1) as Q. destruct d1; cbn in Q |- *. rewrite Q. reflexivity. }
  pose proof (ok_params phi cells N _ _ p O1' B) as O2. cbn [surface_conf c_params c_defects c_ext c_dist c_current] in O2.
  fold defs in O2.
  pose proof (ok_assign_all phi cells N _ _ NEG O2 ltac:(discriminate)) as O3. cbn [c_params c_defects c_ext c_dist c_current] in O3.
  destruct (ok_update phi cells N _ _ true O3) as (O4 & E4 & En4 & I4).
  match goal with |- context [exgs_loop _ _ ?x _] => set (d4 := x) in * end.
  assert (G : Good cells p defs d4 (fun _ => NEG)).
  { split; [exact O4|split; [exact E4|split; [apply En4; reflexivity|intros; exact I]]]. }
  destruct (exgs_loop_ok cells N L Len p defs B (Z.to_nat (d_max d4)) d4 (fun _ => NEG) [] G) as (R & R1 & R2 & R3 & R4).
  { rewrite (ok_max _ _ _ _ O4), (ok_idx _ _ _ _ O4 eq_refl). cbn [c_params c_dist]. rewrite all_neg_number.
    assert (0 < p_base p ^ Z.of_nat (length cells)) by (apply Z.pow_pos_nonneg; [destruct B; lia|lia]). lia. }
  exists R. split; [exact R1|split; [|split; [|exact R4]]].
  - intros r Hr. destruct (R2 r Hr) as (g & Gg & Vg & _). exists g. split; assumption.
  - intros g Ag Vg. apply R3; auto. rewrite all_neg_number. apply (valD_range _ g cells B Ag).
Qed.
End New.
