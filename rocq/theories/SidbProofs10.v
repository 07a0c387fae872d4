(** Proofs about SidbModel.v, part 10: from the calls that prepare QuickExact to its loops. *)
From Coq Require Import ZArith QArith Qcanon Bool List Lia Lqa Permutation Sorted.
From Verif Require Import CoordModel CoordProofs UtilModel UtilProofs SidbModel SidbSpec SidbProofs SidbProofs2 SidbProofs3 SidbProofs4 SidbProofs5 SidbProofs7 SidbProofs8 SidbProofs9.
Import ListNotations.
Local Open Scope Z_scope.

Lemma filter_seq (P : coord -> bool) (cells : list coord) (Q : nat -> bool) :
  (forall i, (i < length cells)%nat -> Q i = P (nth i cells dead0)) ->
  map (fun i => nth i cells dead0) (filter Q (seq 0 (length cells))) = filter P cells.
Proof.
  intros E. assert (X : forall pre post, cells = pre ++ post ->
    map (fun i => nth i cells dead0) (filter Q (seq (length pre) (length post))) = filter P post).
  { intros pre post. revert pre. induction post as [|c post IH]; intros pre Ec; [reflexivity|]. cbn [length seq filter].
    assert (Hn : nth (length pre) cells dead0 = c) by (rewrite Ec, app_nth2, Nat.sub_diag by lia; reflexivity).
    rewrite E by (rewrite Ec, app_length; cbn; lia). rewrite Hn.
    specialize (IH (pre ++ [c])). rewrite app_length, <- app_assoc in IH. cbn [length app] in IH. rewrite Nat.add_1_r in IH.
    destruct (P c); cbn [map]; [rewrite Hn; f_equal|]; apply IH, Ec. }
  apply (X [] cells eq_refl).
Qed.

Section Core.
Context (phi : Qc -> Qc -> coord -> coord -> Qc) (cells : list coord) (Hnd : NoDup cells).

Record Core (d : cds) (p : params) (ext : coord -> Qc) (defs : list (coord * defect)) (f : coord -> cs) : Prop := mkCore {
  co_static : Static phi d cells p ext (defect_field phi defs);
  co_charges : charges cells d f;
  co_some : forall c, In c cells -> f c <> NON;
  co_eng : d_eng d <> QUICKSIM;
  co_defs : d_defs d = defs;
  co_nd : NoDup (map fst defs);
  co_int : exists ip, d_int d = map ip cells
}.
Definition rest (d : cds) :=
  (d_eng d, d_par d, d_idx d, d_sub d, d_base d, d_max d, d_maxsub d, (d_two d, d_three d, d_dep d, d_depi d)).

Lemma core_ok d A : Ok phi cells d A -> Core d (c_params A) (c_ext A) (c_defects A) (c_dist A).
Proof. intros O. split; try apply O. rewrite (ok_eng _ _ _ _ O). discriminate. Qed.

(** Calls that only touch fields which [Core] does not mention. *)
Ltac core_copy := intros [[S1 S2 S3 S4 S5 S6 S7 S8 S9 S10 S11 S12 S13] C2 C3 C4 C5 C6 C7]; split; cbn; auto; split; cbn; auto.
Lemma core_eng d p ext defs f e : e <> QUICKSIM -> Core d p ext defs f -> Core (set_eng d e) p ext defs f.
Proof. intros E. core_copy. Qed.
Lemma core_base d p ext defs f b : Core d p ext defs f -> Core (assign_base_number d b) p ext defs f.
Proof.
  assert (X : forall m, Core d p ext defs f -> Core (set_max (set_base (set_par d (with_base (d_par d) b)) b) m) p ext defs f) by (intros m; core_copy).
  intros C. unfold assign_base_number. destruct (negb _); apply X, C.
Qed.
Lemma core_dep d p ext defs f c : Core d p ext defs f -> Core (assign_dependent_cell d c) p ext defs f.
Proof. unfold assign_dependent_cell. core_copy. Qed.

Lemma core_params d p0 ext defs f p : Core d p0 ext defs f ->
  let d' := assign_physical_parameters phi d p in
  Core d' p ext defs f /\ d_int d' = map (lp phi p cells (defect_field phi defs) f) cells /\
  d_valid d' = validb phi p cells ext (defect_field phi defs) f /\
  d_energy d' = en_val phi p cells ext (defect_field phi defs) defs f /\
  rest d' = (d_eng d, p, d_idx d, d_sub d, p_base p, p_base p ^ Z.of_nat (length cells) - 1, d_maxsub d, (d_two d, d_three d, d_dep d, d_depi d)).
Proof.
  intros [[S1 S2 S3 S4 S5 S6 S7 S8 S9 S10 S11 S12 S13] C C3 C4 C5 C6 C7] d'. unfold d', assign_physical_parameters, num_cells. clear d'.
  cbn [d_order set_base set_par]. rewrite (proj1 C).
  set (d1 := set_max (set_base (set_par d p) (p_base p)) (p_base p ^ Z.of_nat (length cells) - 1)).
  unfold initialize_potential_matrix. change (d_par d1) with p. change (d_order d1) with (d_order d). rewrite (proj1 C).
  set (d2 := set_pot d1 _).
  assert (C2 : charges cells d2 f) by exact C.
  rewrite (neglect_eq phi d2 cells p (defect_field phi defs) f C2 eq_refl S6).
  set (v := lp phi p cells (defect_field phi defs) f).
  rewrite (recompute_eq phi (set_int d2 (map v cells)) cells p ext (defect_field phi defs) f Hnd C2
    eq_refl eq_refl S9 S10 S11 S12 eq_refl C4).
  match goal with |- context [determine_thresholds ?x] => set (d3 := x) end.
  rewrite (thresholds_eq d3 cells p ext S1 eq_refl eq_refl).
  rewrite (validity_eq phi (set_bounds d3 (map (bnd p ext) cells)) cells p ext (defect_field phi defs) f C2
    eq_refl eq_refl eq_refl eq_refl).
  split; [|split; [reflexivity|split; [reflexivity|split; [|reflexivity]]]].
  - split; cbn; auto; [split; cbn; auto|exists v; reflexivity].
  - unfold d3. cbn. rewrite C5. reflexivity.
Qed.

Lemma to_index_shape d : exists i s, to_index d = set_sub (set_base (set_idx d i) (p_base (d_par d))) s.
Proof. unfold to_index. cbv zeta. destruct (if negb (is_dead (d_dep d)) then _ else _) as [i s]. exists i, s. reflexivity. Qed.
Lemma weighted_zero (D : coord -> Z) (l : list (nat * coord)) b top : (forall c, D c = 0) ->
  fold_left Z.add (map (fun ic => D (snd ic) * b ^ (top - Z.of_nat (fst ic))) l) 0 = 0.
Proof.
  intros E. induction l as [|x l IH]; [reflexivity|]. cbn [map fold_left]. rewrite E, Z.mul_0_l, Z.add_0_l. exact IH.
Qed.
Lemma to_index_neg d : cells <> [] -> charges cells d (fun _ => NEG) -> d_idx (to_index d) = 0 /\ d_sub (to_index d) = 0.
Proof.
  intros Ne C. assert (D : forall c, sgn (nth (Z.to_nat (cell_to_index d c)) (d_charge d) NON) + 1 = 0).
  { intros c. unfold cell_to_index. rewrite (proj1 C), (proj2 C). rewrite (nth_map (fun _ => NEG) cells _ dead0); [reflexivity|].
    destruct (in_dec coord_dec c cells) as [I|I].
    - destruct (index_in_nth c cells I) as [B _]. lia.
    - rewrite (index_in_none _ _ I). change (Z.to_nat (-1)) with 0%nat. destruct cells; [contradiction|cbn; lia]. }
  unfold to_index. cbv zeta.
  rewrite !(weighted_zero (fun c => sgn (nth (Z.to_nat (cell_to_index d c)) (d_charge d) NON) + 1)) by exact D.
  destruct (negb (is_dead (d_dep d))); destruct (negb match d_three d with [] => true | _ => false end); split; reflexivity.
Qed.
Lemma core_all d p ext defs f s : s <> NON -> Core d p ext defs f ->
  let d' := assign_all_charge_states d s in
  Core d' p ext defs (fun _ => s) /\ d_ext d' = d_ext d /\
  exists i u, rest d' = (d_eng d, d_par d, i, u, p_base (d_par d), d_max d, d_maxsub d, (d_two d, d_three d, d_dep d, d_depi d)) /\
    (s = NEG -> cells <> [] -> i = 0 /\ u = 0).
Proof.
  intros Ns [[S1 S2 S3 S4 S5 S6 S7 S8 S9 S10 S11 S12 S13] C C3 C4 C5 C6 C7] d'. unfold d', assign_all_charge_states. clear d'.
  rewrite (proj2 C), map_map. destruct (to_index_shape (set_charge d (map (fun _ => s) cells))) as (i & u & E). rewrite E.
  split; [split; cbn; auto; [split; cbn; auto|split; [apply C|reflexivity]]|]. split; [reflexivity|].
  exists i, u. split; [reflexivity|]. intros -> Ne.
  assert (C1 : charges cells (set_charge d (map (fun _ => NEG) cells)) (fun _ => NEG)) by (split; [apply C|reflexivity]).
  pose proof (to_index_neg _ Ne C1) as Z. rewrite E in Z. exact Z.
Qed.
Lemma core_update d p ext defs f e : Core d p ext defs f ->
  let d' := update_after_charge_change phi d false e false in
  Core d' p ext defs f /\ d_int d' = map (lp phi p cells (defect_field phi defs) f) cells /\
  d_valid d' = validb phi p cells ext (defect_field phi defs) f /\ rest d' = rest d /\
  (e = true -> d_energy d' = en_val phi p cells ext (defect_field phi defs) defs f).
Proof.
  intros [S C C3 C4 C5 C6 C7] d'. unfold d'. clear d'. destruct e.
  - rewrite (update_fixed_energy_eq phi d cells _ _ _ _ Hnd S C C4), C5.
    split; [|split; [reflexivity|split; [reflexivity|split; reflexivity]]].
    destruct S as [S1 S2 S3 S4 S5 S6 S7 S8 S9 S10 S11 S12 S13]. split; cbn; auto; [split; cbn; auto|eexists; reflexivity].
  - rewrite (update_fixed_eq phi d cells _ _ _ _ Hnd S C).
    split; [|split; [reflexivity|split; [reflexivity|split; [reflexivity|discriminate]]]].
    destruct S as [S1 S2 S3 S4 S5 S6 S7 S8 S9 S10 S11 S12 S13]. split; cbn; auto; [split; cbn; auto|eexists; reflexivity].
Qed.
Lemma core_ext d p ext ext' defs f : (forall c, In c cells -> ext c = ext' c) -> Core d p ext defs f -> Core d p ext' defs f.
Proof. intros E [S C2 C3 C4 C5 C6 C7]. split; auto. eapply Static_ext; eauto. Qed.
Lemma core_global d p defs f v : Core d p (fun _ => 0%Qc) defs f ->
  let d' := assign_global_external_potential (assign_local_external_potential d []) v in
  Core d' p (fun _ => v) defs f /\ d_int d' = d_int d /\ d_valid d' = d_valid d /\ d_energy d' = d_energy d /\ rest d' = rest d.
Proof.
  intros Co d'. unfold d', assign_local_external_potential. clear d'. cbn [fold_left].
  replace (set_extmap d (d_extmap d)) with d by (destruct d; reflexivity).
  unfold assign_global_external_potential. destruct (Qc_eq_bool v (Q2Qc 0)) eqn:E.
  - apply Qc_eq_bool_correct in E. subst v. split; [|repeat split]. exact Co.
  - destruct Co as [[S1 S2 S3 S4 S5 S6 S7 S8 S9 S10 S11 S12 S13] C C3 C4 C5 C6 C7]. rewrite (proj1 C).
    assert (Fe : fold_left (fun m c => add_pot c v m) cells (d_extmap d) =
      fold_left (fun e ce => add_pot (fst ce) (snd ce) e) (map (fun c => (c, v)) cells) (d_extmap d)).
    { generalize (d_extmap d). clear. induction cells as [|x l IH]; intros e; [reflexivity|]. cbn. apply IH. }
    rewrite Fe. destruct (add_all phi (map (fun c => (c, v)) cells) (d_extmap d) S9) as (H1 & H2 & H3).
    set (em := fold_left _ (map (fun c => (c, v)) cells) (d_extmap d)) in *.
    assert (K : forall c, In c (map fst em) -> In c cells).
    { intros c Hc. destruct (H2 c Hc) as [Hc'|Hc']; [apply S10, Hc'|]. rewrite map_map, map_id in Hc'. exact Hc'. }
    assert (L : forall c, In c cells -> lookup_pot c em = v).
    { intros c Hc. rewrite H3, (S11 c Hc). unfold added. rewrite total_map. cbn [fst snd].
      rewrite (total_single _ cells c Hnd Hc); [rewrite coord_eqb_refl; ring|].
      intros b _ Hb. apply coord_eqb_false in Hb. rewrite Hb. reflexivity. }
    rewrite (update_ext_eq phi (set_extmap d em) cells (fun _ => v) Hnd S1 H1 K L S12).
    match goal with |- context [determine_thresholds ?x] => rewrite (thresholds_eq x cells p (fun _ => v) S1 eq_refl S2) end.
    split; [|repeat split]. split; cbn; auto. split; cbn; auto.
Qed.

Definition electron (p : params) : defect := mkDf false (-1) (p_eps p) (p_lambda p).
Lemma core_pre d p ext defs f pre : Core d p ext defs f -> NoDup (map fst defs ++ pre) -> (forall c, In c pre -> ~ In c cells) ->
  let d' := fold_left (fun d c => add_defect phi d c (mkDf false (-1) (p_eps (d_par d)) (p_lambda (d_par d)))) pre d in
  Core d' p ext (defs ++ map (fun c => (c, electron p)) pre) f /\ rest d' = rest d.
Proof.
  intros [[S1 S2 S3 S4 S5 S6 S7 S8 S9 S10 S11 S12 S13] C C3 C4 C5 C6 [ip J]] N A d'.
  assert (E : d' = fold_left (fun d cf => add_defect phi d (fst cf) (snd cf)) (map (fun c => (c, electron p)) pre) d).
  { unfold d'. clear -S3 S4. assert (Q : p_eps (d_par d) = p_eps p /\ p_lambda (d_par d) = p_lambda p) by (split; assumption).
    clear S3 S4. revert d Q. induction pre as [|c pre IH]; intros d [Q1 Q2]; [reflexivity|]. cbn [fold_left map fst snd].
    rewrite Q1, Q2. apply IH. unfold add_defect. destruct (negb _ || negb _); [split; assumption|].
    destruct (find_defect c (d_defs d)); split; assumption. }
  rewrite E. clear d' E.
  assert (N' : NoDup (map fst (d_defs d ++ map (fun c => (c, electron p)) pre))).
  { rewrite map_app, map_map, map_id, C5. exact N. }
  rewrite (add_defects_eq phi cells _ d (defect_field phi defs) ip S1 S6 J N').
  2:{ rewrite map_map, map_id. exact A. }
  assert (Fl : filter charged (map (fun c => (c, electron p)) pre) = map (fun c => (c, electron p)) pre).
  { clear. induction pre as [|c l IH]; [reflexivity|]. cbn [map filter]. unfold charged at 1. cbn [snd electron is_charged_defect df_charge].
    rewrite IH. reflexivity. }
  rewrite Fl, C5. split; [|reflexivity]. split; cbn; auto.
  - split; cbn; auto.
    + apply map_ext. intros a. symmetry. apply defect_field_app.
    + intros c Hc. apply find_defect_none. rewrite map_app, map_map, map_id. intros X. apply in_app_or in X. destruct X as [X|X].
      * rewrite <- C5 in X. specialize (S12 c Hc). apply find_defect_none in S12. contradiction.
      * apply (A c X Hc).
  - rewrite map_app, map_map, map_id. exact N.
  - eexists. reflexivity.
Qed.

(** Copying the charge states of the part [sub] of the layout. *)
Lemma fold_keep F l : forall d f, charges cells d f ->
  fold_left (fun d c => assign_charge_state_keep d c (F c)) l d =
  set_charge d (map (fun x => if existsb (coord_eqb x) l then F x else f x) cells).
Proof.
  induction l as [|c l IH]; intros d f C.
  - cbn [fold_left existsb]. apply charge_set. exact (proj2 C).
  - cbn [fold_left]. rewrite (keep_eq cells Hnd d f c (F c) C).
    rewrite (IH _ (fun x => if coord_eqb x c then F c else f x)) by (split; [apply C|reflexivity]).
    change (set_charge (set_charge d ?x)) with (set_charge d). f_equal. apply map_ext. intros x. cbn [existsb].
    destruct (coord_eqb x c) eqn:E; [apply coord_eqb_spec in E; subst|]; destruct (existsb (coord_eqb _) l); reflexivity.
Qed.
Lemma record_core cl p ext defs f0 sub x h : Core cl p ext defs f0 -> NoDup sub -> charges sub x h ->
  (forall c, In c sub -> In c cells /\ h c <> NON) ->
  let r := record_result phi cl x in
  let f := fun a => if existsb (coord_eqb a) sub then h a else f0 a in
  Core r p ext defs f /\ d_valid r = validb phi p cells ext (defect_field phi defs) f /\
  d_energy r = en_val phi p cells ext (defect_field phi defs) defs f.
Proof.
  intros Co Ns Cx Hs r f. unfold r, record_result. clear r. pose proof (co_charges _ _ _ _ _ Co) as C.
  rewrite (proj1 Cx), (fold_keep (get_charge_state x) sub cl f0 C).
  assert (E : map (fun a => if existsb (coord_eqb a) sub then get_charge_state x a else f0 a) cells = map f cells).
  { apply map_ext. intros a. unfold f. destruct (existsb (coord_eqb a) sub) eqn:X; [|reflexivity]. apply existsb_coord in X.
    apply (charges_get sub x h a Ns Cx X). }
  rewrite E. assert (Co1 : Core (set_charge cl (map f cells)) p ext defs f).
  { destruct Co as [[S1 S2 S3 S4 S5 S6 S7 S8 S9 S10 S11 S12 S13] C2 C3 C4 C5 C6 C7]. split; cbn; auto.
    - split; cbn; auto.
    - split; [apply C|reflexivity].
    - intros c Hc. unfold f. destruct (existsb (coord_eqb c) sub) eqn:X; [|apply C3, Hc]. apply existsb_coord in X. apply Hs, X. }
  destruct (core_update _ _ _ _ _ true Co1) as (U1 & U2 & U3 & U4 & U5).
  set (d := update_after_charge_change phi (set_charge cl (map f cells)) false true false) in *.
  split; [|split; [exact U3|apply U5; reflexivity]].
  unfold to_index_general. destruct U1 as [[S1 S2 S3 S4 S5 S6 S7 S8 S9 S10 S11 S12 S13] C2 C3 C4 C5 C6 C7]. split; cbn; auto. split; cbn; auto.
Qed.
End Core.
