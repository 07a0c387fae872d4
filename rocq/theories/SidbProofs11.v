(** Proofs about SidbModel.v, part 11: the simulation of the SiDBs that QuickExact has not assigned beforehand. *)
From Coq Require Import ZArith QArith Qcanon Bool List Lia Lqa Permutation Sorted.
From Verif Require Import CoordModel CoordProofs UtilModel UtilProofs SidbModel SidbSpec SidbProofs SidbProofs2 SidbProofs3 SidbProofs4 SidbProofs5 SidbProofs7 SidbProofs8 SidbProofs9 SidbProofs10.
Import ListNotations.
Local Open Scope Z_scope.

Lemma recompute_keep phi d : (d_maxsub (recompute_energy phi d), d_two (recompute_energy phi d), d_sub (recompute_energy phi d)) = (d_maxsub d, d_two d, d_sub d).
Proof.
  assert (E : (d_maxsub (update_ext d), d_two (update_ext d), d_sub (update_ext d)) = (d_maxsub d, d_two d, d_sub d)).
  { unfold update_ext. set (d0 := set_extdef (set_ext d (map (fun _ => Q2Qc 0) (d_order d))) []).
    transitivity (d_maxsub d0, d_two d0, d_sub d0); [|reflexivity]. generalize d0. clear. induction (d_extmap d) as [|x m IH]; intros y; [reflexivity|].
    cbn [fold_left]. rewrite IH. destruct (find_defect _ _); [reflexivity|]. cbv zeta. destruct (_ =? -1); reflexivity. }
  unfold recompute_energy. destruct (d_eng d); exact E || reflexivity.
Qed.
Lemma new_maxsub phi k l p s : d_maxsub (new_surface phi k l p s) = 0 /\ d_two (new_surface phi k l p s) = [] /\ d_sub (new_surface phi k l p s) = 0.
Proof.
  unfold new_surface.
  match goal with |- context [fold_left ?F ?m ?x] => assert (E : forall m' y, let z := fold_left F m' y in
    (d_maxsub z, d_two z, d_sub z) = (d_maxsub y, d_two y, d_sub y)) end.
  { induction m' as [|cf m' IH]; intros y; [reflexivity|]. cbn [fold_left]. cbv zeta in *. rewrite IH. unfold add_defect.
    destruct (_ || _); [reflexivity|]. destruct (find_defect _ _); reflexivity. }
  match goal with |- context [fold_left ?F ?m ?x] => set (z := fold_left F m x); specialize (E m x); fold z in E end. cbv zeta in E.
  assert (X : (d_maxsub (validity_check (determine_thresholds (recompute_energy phi z))), d_two (validity_check (determine_thresholds (recompute_energy phi z))),
    d_sub (validity_check (determine_thresholds (recompute_energy phi z)))) = (d_maxsub z, d_two z, d_sub z)) by (exact (recompute_keep phi z)).
  rewrite E in X. split; [|split]; [exact (f_equal (fun t => fst (fst t)) X)|exact (f_equal (fun t => snd (fst t)) X)|exact (f_equal snd X)].
Qed.

Section Conduct.
Context (phi : Qc -> Qc -> coord -> coord -> Qc) (k : kind)
        (phi_self : forall e l a, phi e l a a = 0%Qc) (phi_sym : forall e l a b, phi e l a b = phi e l b a)
        (l : layout) (Hl : proper_layout l) (Hsize : 3 ^ Z.of_nat (length (l_cells l)) <= 2 ^ 53)
        (p : params) (Hb : base_ok (p_base p)) (v : Qc) (pre : list coord) (Hpre : NoDup pre)
        (Happ : forall c, In c pre -> ~ In c (l_cells l) /\ ~ In c (map fst (l_defects l)))
        (dep : coord) (Hdep : In dep (l_cells l)).
Let cells := sort_cells (k_ltb k) (l_cells l).
Let defs := filter (fun cf => is_charged_defect (snd cf)) (l_defects l) ++ map (fun c => (c, electron p)) pre.
Let dp := defect_field phi defs.
Let ext := fun _ : coord => v.
Let lpf := lp phi p cells dp.
Let vld := validb phi p cells ext dp.
Let Snp := Snap phi cells p ext dp dep.
Let Rn := Run phi cells p ext dp dep.
Let Hnd : NoDup cells := sorted_nodup k l (pl_cells _ Hl).

Lemma dep_cells : In dep cells. Proof. apply sorted_in, Hdep. Qed.
Lemma dep_live : is_dead dep = false.
Proof. pose proof (pl_live _ Hl) as F. rewrite Forall_forall in F. apply F, Hdep. Qed.
Lemma ncells : length cells = length (l_cells l).
Proof. apply Permutation_length, sort_perm. Qed.
Lemma cells_pos : (1 <= length cells)%nat.
Proof. rewrite ncells. destruct (In_nth _ _ dead0 Hdep) as (n & Hn & _). lia. Qed.
Lemma size_cells : 3 ^ Z.of_nat (length cells) <= 2 ^ 53.
Proof. rewrite ncells. exact Hsize. Qed.
Lemma defs_nodup : NoDup (map fst defs).
Proof.
  unfold defs. rewrite map_app, map_map, map_id. apply NoDup_app_disj.
  - pose proof (pl_defects _ Hl) as P. clear -P. induction (l_defects l) as [|x m IH]; [constructor|]. cbn [map] in P. apply NoDup_cons_iff in P.
    destruct P as [H1 H2]. cbn [filter]. destruct (is_charged_defect (snd x)); [|auto]. cbn [map]. constructor; [|auto].
    intros C. apply H1. apply in_map_iff in C. destruct C as (y & E & Hy). apply filter_In in Hy. rewrite <- E. apply in_map, Hy.
  - exact Hpre.
  - intros c Hc Hp. apply (Happ c Hp). apply in_map_iff in Hc. destruct Hc as (y & <- & Hy). apply filter_In in Hy. apply in_map, Hy.
Qed.

Lemma run_core d f : Rn d f -> d_defs d = defs -> Core phi cells d p ext defs f.
Proof.
  intros [S C F D Q J] E. split; auto; [rewrite Q; discriminate|apply defs_nodup].
Qed.
Lemma core_run d f : Core phi cells d p ext defs f -> d_eng d = QUICKEXACT -> d_dep d = dep -> d_depi d = index_in dep cells -> Rn d f.
Proof.
  intros [S C F D Q N J] E1 E2 E3. split; auto. split; auto; [apply dep_live|apply dep_cells].
Qed.

(** What conduct_simulation prepares. *)
Definition prepare (d : cds) : cds :=
  let d := set_eng d QUICKEXACT in
  let d := assign_physical_parameters phi d p in
  let d := update_after_charge_change phi (assign_all_charge_states d NEU) false true false in
  let d := assign_dependent_cell d dep in
  let d := assign_global_external_potential (assign_local_external_potential d []) v in
  let d := fold_left (fun d c => add_defect phi d c (mkDf false (-1) (p_eps (d_par d)) (p_lambda (d_par d)))) pre d in
  update_after_charge_change phi d true true false.
Definition prepared : cds := prepare (new_surface phi k l default_params NEG).
Definition Ready (d : cds) : Prop := exists f, Snp d f /\ (forall c, In c cells -> c <> dep -> f c = NEU) /\ d_defs d = defs /\ d_par d = p /\
  d_base d = p_base p /\ d_max d = p_base p ^ (Z.of_nat (length cells) - 1) - 1 /\ d_maxsub d = 0 /\ d_three d = [].
Definition prepare1 (d : cds) : cds :=
  update_after_charge_change phi (assign_all_charge_states (assign_physical_parameters phi (set_eng d QUICKEXACT) p) NEU) false true false.
Definition prepare2 (d : cds) : cds :=
  let d := assign_global_external_potential (assign_local_external_potential d []) v in
  fold_left (fun d c => add_defect phi d c (mkDf false (-1) (p_eps (d_par d)) (p_lambda (d_par d)))) pre d.
Lemma prepare_split d : prepare d = update_after_charge_change phi (prepare2 (assign_dependent_cell (prepare1 d) dep)) true true false.
Proof. reflexivity. Qed.
Let fil := filter (fun cf => is_charged_defect (snd cf)) (l_defects l).
Lemma prepare1_ok d0 : Ok phi cells d0 (surface_conf l default_params NEG) -> d_maxsub d0 = 0 ->
  Core phi cells (prepare1 d0) p (fun _ => 0%Qc) fil (fun _ => NEU) /\ exists i u m t e j,
  rest (prepare1 d0) = (QUICKEXACT, p, i, u, p_base p, m, 0, (t, [], e, j)).
Proof.
  intros O M0. pose proof (ok_three _ _ _ _ O) as T0.
  assert (C0 : Core phi cells (set_eng d0 QUICKEXACT) default_params (fun _ => 0%Qc) fil (fun _ => NEG)).
  { apply core_eng; [discriminate|]. exact (core_ok phi cells d0 _ O). }
  destruct (core_params phi cells Hnd _ _ _ _ _ p C0) as (C1 & _ & _ & _ & R1).
  unfold prepare1. set (d1 := assign_physical_parameters phi (set_eng d0 QUICKEXACT) p) in *. clearbody d1.
  destruct (core_all phi cells Hnd d1 p _ _ _ NEU ltac:(discriminate) C1) as (C2 & _ & i & u & R2 & _).
  set (d2 := assign_all_charge_states d1 NEU) in *. clearbody d2.
  destruct (core_update phi cells Hnd d2 _ _ _ _ true C2) as (C3 & _ & _ & R3 & _).
  set (d3 := update_after_charge_change phi d2 false true false) in *. clearbody d3.
  split; [exact C3|]. rewrite R3, R2. unfold rest in R1.
  injection R1 as A1 A2 A3 A4 A5 A6 A7 A8 A9 A10 A11. rewrite A1, A2, A7, A9.
  change (d_maxsub (set_eng d0 QUICKEXACT)) with (d_maxsub d0). change (d_three (set_eng d0 QUICKEXACT)) with (d_three d0).
  rewrite M0, T0. repeat eexists.
Qed.

Lemma prepare2_ok d : Core phi cells d p (fun _ => 0%Qc) fil (fun _ => NEU) ->
  Core phi cells (prepare2 d) p ext defs (fun _ => NEU) /\ rest (prepare2 d) = rest d.
Proof.
  intros C4. destruct (core_global phi cells Hnd d _ _ _ v C4) as (C5 & _ & _ & _ & R5).
  unfold prepare2. set (d5 := assign_global_external_potential (assign_local_external_potential d []) v) in *. clearbody d5.
  destruct (core_pre phi cells d5 _ _ _ _ pre C5) as (C6 & R6).
  { pose proof defs_nodup as X. unfold defs in X. rewrite map_app, map_map, map_id in X. exact X. }
  { intros c Hc X. apply sorted_in in X. exact (proj1 (Happ c Hc) X). }
  split; [exact C6|]. rewrite <- R5. exact R6.
Qed.
Lemma prepare3_ok d : Core phi cells d p (fun _ => 0%Qc) fil (fun _ => NEU) ->
  Core phi cells (assign_dependent_cell d dep) p (fun _ => 0%Qc) fil (fun _ => NEU) /\
  rest (assign_dependent_cell d dep) = (d_eng d, d_par d, d_idx d, d_sub d, d_base d, p_base (d_par d) ^ (Z.of_nat (length cells) - 1) - 1, d_maxsub d,
    (d_two d, d_three d, dep, index_in dep cells)).
Proof.
  intros C. split; [apply core_dep, C|]. rewrite <- (st_order _ _ _ _ _ _ (co_static _ _ _ _ _ _ _ C)). reflexivity.
Qed.
Lemma prepare4_ok d i u t : Core phi cells d p ext defs (fun _ => NEU) ->
  rest d = (QUICKEXACT, p, i, u, p_base p, p_base p ^ (Z.of_nat (length cells) - 1) - 1, 0, (t, [], dep, index_in dep cells)) ->
  Ready (update_after_charge_change phi d true true false).
Proof.
  intros C R. unfold rest in R. injection R as A1 A2 A3 A4 A5 A6 A7 A8 A9 A10 A11.
  assert (R : Rn d (fun _ => NEU)) by (apply core_run; assumption).
  destruct (refresh_neglect phi phi_self phi_sym cells Hnd p ext dp dep d (fun _ => NEU) true R) as (Sn & Fr & Df & Pr).
  set (d7 := update_after_charge_change phi d true true false) in *. clearbody d7.
  unfold frame in Fr. injection Fr as H1 H2 H3 H4 H5 H6 H7 H8.
  eexists. split; [exact Sn|]. split.
  { intros c Hc Ne. unfold fupd. apply coord_eqb_false in Ne. rewrite Ne. reflexivity. }
  split; [rewrite Df; exact (co_defs _ _ _ _ _ _ _ C)|]. repeat split; etransitivity; eassumption.
Qed.
Lemma prepare_ok d0 : Ok phi cells d0 (surface_conf l default_params NEG) -> d_maxsub d0 = 0 -> Ready (prepare d0).
Proof.
  intros O M. rewrite prepare_split. destruct (prepare1_ok d0 O M) as (C1 & i & u & m & t & e & j & R1).
  set (d1 := prepare1 d0) in *. clearbody d1. destruct (prepare3_ok d1 C1) as (C2 & R2). set (d2 := assign_dependent_cell d1 dep) in *. clearbody d2.
  destruct (prepare2_ok d2 C2) as (C3 & R3). set (d3 := prepare2 d2) in *. clearbody d3.
  unfold rest in R1. injection R1 as A1 A2 A3 A4 A5 A6 A7 A8 A9 A10 A11.
  apply (prepare4_ok d3 i u t C3). rewrite R3, R2, A1, A2, A3, A4, A5, A7, A8, A9. reflexivity.
Qed.
Lemma prepared_ok : Ready prepared.
Proof.
  destruct (new_surface_ok phi k l default_params NEG Hl) as (O & _ & _); [right; reflexivity|discriminate|].
  apply prepare_ok; [exact O|]. apply (new_maxsub phi k l default_params NEG).
Qed.

Lemma settled_weak b f : settled phi cells p ext dp dep true f -> f dep <> POS -> settled phi cells p ext dp dep b f.
Proof.
  intros St Np x. specialize (St x). unfold depnext in *. destruct (bnd p ext dep) as [[[nu pl] nl] uu]. destruct (qltb _ nu); [exact St|].
  destruct (qltb pl _); [congruence|exact St].
Qed.

(** The two-state simulation. *)
Lemma two_state_ok cl d0 : Ready d0 -> exists ds, two_state_simulation phi cl d0 = (map (record_result phi cl) ds, false) /\
  (forall x, In x ds -> exists h, charges cells x h /\ (forall c, In c cells -> h c <> NON) /\ vld h = true) /\
  (forall g, (forall c, In c cells -> g c = NEG \/ g c = NEU) -> settled phi cells p ext dp dep true g -> vld g = true ->
     exists x, In x ds /\ charges cells x g) /\
  NoDup (map d_charge ds).
Proof.
  intros (f & [Rf Jf Vf _] & Nf & Df & Pf & Bf & Mf & Sf & Tf).
  unfold two_state_simulation. set (d := assign_base_number d0 2).
  assert (Ed : d = set_max (set_base (set_par d0 (with_base (d_par d0) 2)) 2) (2 ^ (Z.of_nat (length cells) - 1) - 1)).
  { unfold d, assign_base_number. change (d_dep (set_base (set_par d0 (with_base (d_par d0) 2)) 2)) with (d_dep d0).
    rewrite (dp_dep _ _ _ (rn_dep _ _ _ _ _ _ _ _ Rf)), dep_live. cbn [negb]. unfold num_cells.
    change (d_order (set_base (set_par d0 (with_base (d_par d0) 2)) 2)) with (d_order d0).
    rewrite (st_order _ _ _ _ _ _ (rn_static _ _ _ _ _ _ _ _ Rf)). reflexivity. }
  assert (Rd : Rn d f).
  { rewrite Ed. destruct Rf as [[S1 S2 S3 S4 S5 S6 S7 S8 S9 S10 S11 S12 S13] C F [D1 D2 D3 D4] Q J]. split; cbn; auto; split; cbn; auto. }
  assert (Jd : d_int d = map (lpf f) cells) by (rewrite Ed; exact Jf).
  assert (Td : Two cells d) by (rewrite Ed; split; reflexivity).
  assert (Bd : b3 d = false) by (unfold b3; rewrite Ed; cbn; rewrite Tf; reflexivity).
  pose proof cells_pos as N1.
  assert (Em : d_max d + 1 = 2 ^ (Z.of_nat (length cells) - 1)) by (rewrite (proj2 Td); lia).
  assert (P0 : 0 < 2 ^ (Z.of_nat (length cells) - 1)) by (apply Z.pow_pos_nonneg; lia).
  destruct (gray_loop_ok phi phi_self phi_sym cells Hnd p ext dp dep dep_cells size_cells cl (Z.to_nat (d_max d + 1)) 0 d f [] Rd Jd Td) as (d' & g' & ds & U1 & U2 & U3 & U4 & U5).
  { rewrite Em. cbn [Nat.add]. rewrite Z2Nat.id by lia. lia. }
  { intros i Hi. destruct (cell_in phi cells Hnd p dp dep i Hi) as (I1 & I2 & _). change (Z.of_nat 0 =? 0) with true. cbn iota. rewrite Z.bits_0. apply Nf; assumption. }
  exists ds. split; [|split; [|split; [|exact U5]]].
  - change (if Z.of_nat 0 =? 0 then 0 else binary_to_gray (Z.of_nat 0 - 1)) with 0 in U1. cbv zeta in U1 |- *. rewrite U1, U2. reflexivity.
  - intros x Hx. destruct (U3 x Hx) as (h & j & [Rx _ _ _] & Vx & _). exists h. split; [apply Rx|]. split; [apply Rx|]. exact Vx.
  - intros g Ag Sg Vg. destruct (bits_exist phi phi_self phi_sym cells Hnd p ext dp dep dep_cells size_cells g) as (n & Rn' & Bn).
    { intros c Hc _. apply Ag, Hc. }
    assert (Hj : exists j, 0 <= j < 2 ^ (Z.of_nat (length cells) - 1) /\ binary_to_gray j = n) by (apply gray_surj; [lia|exact Rn']).
    destruct Hj as (j & Rj & <-). apply (U4 g j Bn).
    + rewrite Em. cbn [Nat.add]. rewrite Z2Nat.id by lia. lia.
    + apply settled_weak; [exact Sg|]. destruct (Ag dep dep_cells); congruence.
    + exact Vg.
Qed.

(** The three-state simulation: SiDBs that may become positively charged. *)
Definition reachable (c : coord) : bool := negb (qltb (- lpf (fun _ => NEG) c)%Qc (let '(_, pl, _, _) := bnd p ext c in pl)).
Definition three_part : list coord := sort_cells (k_ltb k) (filter (fun c => negb (coord_eqb c dep)) (filter reachable cells)).
Definition two_part : list coord :=
  sort_cells (k_ltb k) (filter (fun c => (index_in c three_part =? -1) && negb (coord_eqb c dep)) cells).
Lemma in_three c : In c three_part <-> In c cells /\ reachable c = true /\ c <> dep.
Proof.
  unfold three_part. rewrite <- (Permutation_in' eq_refl (Permutation_sym (sort_perm (k_ltb k) _))), !filter_In, negb_true_iff, coord_eqb_false. tauto.
Qed.
Lemma in_two c : In c two_part <-> In c cells /\ ~ In c three_part /\ c <> dep.
Proof.
  unfold two_part. rewrite <- (Permutation_in' eq_refl (Permutation_sym (sort_perm (k_ltb k) _))), filter_In, andb_true_iff, negb_true_iff, coord_eqb_false, Z.eqb_eq.
  split; intros (H1 & H2 & H3); repeat split; auto.
  - intros X. destruct (index_in_nth c three_part X). lia.
  - apply index_in_none, H2.
Qed.
Lemma parts_perm : Permutation cells (dep :: two_part ++ three_part).
Proof.
  apply NoDup_Permutation; [exact Hnd| |].
  - constructor.
    + intros X. apply in_app_or in X. destruct X as [X|X]; [apply in_two in X|apply in_three in X]; exact (proj2 (proj2 X) eq_refl).
    + apply NoDup_app_disj.
      * apply (Permutation_NoDup (Permutation_sym (sort_perm _ _))), NoDup_filter, Hnd.
      * apply (Permutation_NoDup (Permutation_sym (sort_perm _ _))), NoDup_filter, NoDup_filter, Hnd.
      * intros c H1 H2. apply in_two in H1. exact (proj1 (proj2 H1) H2).
  - intros c. cbn [In]. rewrite in_app_iff, in_two. split.
    + intros Hc. destruct (coord_dec c dep) as [->|Ne]; [left; reflexivity|right]. destruct (in_dec coord_dec c three_part); [right; assumption|left; auto].
    + intros [<-|[X|X]]; [apply dep_cells|apply X|apply in_three, X].
Qed.
Lemma parts_len : Z.of_nat (length cells) - 1 = Z.of_nat (length two_part) + Z.of_nat (length three_part).
Proof. rewrite (Permutation_length parts_perm). cbn [length]. rewrite app_length. lia. Qed.

Definition part_base : Z := match three_part, two_part with [], _ => p_base p | _, [] => 3 | _, _ => 2 end.
Lemma part_base_ok : base_ok part_base.
Proof. unfold part_base. destruct three_part; [exact Hb|]. destruct two_part; [right|left]; reflexivity. Qed.

(** After is_three_state_simulation_required. *)
Lemma detect_shape d m t e j : Core phi cells d p ext defs (fun _ => NEG) ->
  rest d = (QUICKEXACT, p, 0, 0, p_base p, m, 0, (t, e, dep, j)) ->
  exists d', Core phi cells d' p ext defs (fun _ => NEG) /\
    rest d' = (QUICKEXACT, p, 0, 0, p_base p, m, 0, (two_part, three_part, dep, j)) /\
    fst (is_three_state_simulation_required phi k d) = match three_part with [] => d' | _ => assign_base_number_to_three d' end /\
    (snd (is_three_state_simulation_required phi k d) = true <-> three_part <> []).
Proof.
  intros C R. destruct (core_update phi cells Hnd d _ _ _ _ true C) as (C1 & J1 & _ & R1 & _).
  unfold is_three_state_simulation_required. set (d1 := update_after_charge_change phi d false true false) in *. clearbody d1.
  rewrite R in R1. unfold rest in R1. injection R1 as A1 A2 A3 A4 A5 A6 A7 A8 A9 A10 A11.
  pose proof (co_static _ _ _ _ _ _ _ C1) as S1.
  assert (E : map (fun i => nth i (d_order d1) dead0) (filter (fun i => negb (qltb (minus_int d1 i) (positive_lower d1 i))) (indices d1)) = filter reachable cells).
  { unfold indices. rewrite (st_order _ _ _ _ _ _ S1). apply filter_seq. intros i Hi. unfold reachable, minus_int, positive_lower, bound.
    rewrite J1, (st_bounds _ _ _ _ _ _ S1). rewrite !(nth_map _ cells _ dead0) by exact Hi. reflexivity. }
  rewrite E, A10. cbv zeta. fold three_part.
  set (d2 := set_two _ _).
  assert (E2 : d2 = set_two (set_three (set_depsub d1 (existsb (fun c => coord_eqb c dep) (filter reachable cells))) three_part) two_part).
  { unfold d2. cbn [d_dep d_three d_order set_depsub set_three]. rewrite A10. fold three_part. f_equal. unfold two_part. f_equal.
    rewrite (st_order _ _ _ _ _ _ S1). reflexivity. }
  clearbody d2. subst d2. set (d2 := set_two _ _).
  assert (C2 : Core phi cells d2 p ext defs (fun _ => NEG)).
  { destruct C1 as [[T1 T2 T3 T4 T5 T6 T7 T8 T9 T10 T11 T12 T13] C2 C3 C4 C5 C6 C7]. split; cbn; auto. split; cbn; auto. }
  assert (R2 : rest d2 = (QUICKEXACT, p, 0, 0, p_base p, m, 0, (two_part, three_part, dep, j))).
  { unfold rest, d2. cbn. rewrite A1, A2, A3, A4, A5, A6, A7, A10, A11. reflexivity. }
  exists d2. split; [exact C2|]. split; [exact R2|].
  assert (Z : three_part = [] <-> filter (fun c => negb (coord_eqb c dep)) (filter reachable cells) = []).
  { unfold three_part. split; intros X; [|rewrite X; reflexivity]. apply Permutation_nil. rewrite <- X. apply sort_perm. }
  change (d_dep (set_depsub d1 (existsb (fun c => coord_eqb c dep) (filter reachable cells)))) with (d_dep d1). rewrite A10.
  destruct (filter (fun c => negb (coord_eqb c dep)) (filter reachable cells)) eqn:F.
  - rewrite (proj2 Z eq_refl). split; [reflexivity|]. cbn. split; [discriminate|intros X; contradiction X; reflexivity].
  - destruct three_part eqn:T; [destruct Z as [Z _]; specialize (Z eq_refl); discriminate|]. split; [reflexivity|]. cbn. split; [discriminate|reflexivity].
Qed.

Lemma to_three_ok d m : Core phi cells d p ext defs (fun _ => NEG) ->
  rest d = (QUICKEXACT, p, 0, 0, p_base p, m, 0, (two_part, three_part, dep, index_in dep cells)) -> three_part <> [] ->
  Rn (assign_base_number_to_three d) (fun _ => NEG) /\ Parts two_part three_part part_base (assign_base_number_to_three d) /\
  d_idx (assign_base_number_to_three d) = 0 /\ d_sub (assign_base_number_to_three d) = 0.
Proof.
  intros C R Nt. unfold rest in R. injection R as A1 A2 A3 A4 A5 A6 A7 A8 A9 A10 A11.
  set (d2 := set_maxsub (set_max (set_base (set_par d (with_base p 3)) 2) (2 ^ Z.of_nat (length two_part) - 1)) (3 ^ Z.of_nat (length three_part) - 1)).
  assert (E : assign_base_number_to_three d = if d_max d2 =? 0 then assign_charge_index d2 0 else d2).
  { unfold assign_base_number_to_three. cbv zeta.
    change (d_dep (set_base (set_par d (with_base (d_par d) 3)) 2)) with (d_dep d). rewrite A10, dep_live. cbn [negb].
    change (d_three (set_base (set_par d (with_base (d_par d) 3)) 2)) with (d_three d). rewrite A9.
    destruct three_part as [|x t] eqn:T; [contradiction|]. rewrite <- T in *. unfold d2.
    replace (num_cells (set_base (set_par d (with_base (d_par d) 3)) 2) - 1 - Z.of_nat (length three_part)) with (Z.of_nat (length two_part)).
    - rewrite A2, ?T. reflexivity.
    - unfold num_cells. change (d_order (set_base (set_par d (with_base (d_par d) 3)) 2)) with (d_order d).
      rewrite (st_order _ _ _ _ _ _ (co_static _ _ _ _ _ _ _ C)). pose proof parts_len. lia. }
  rewrite E. clear E.
  assert (C2 : Core phi cells d2 p ext defs (fun _ => NEG)).
  { destruct C as [[T1 T2 T3 T4 T5 T6 T7 T8 T9 T10 T11 T12 T13] C2 C3 C4 C5 C6 C7]. rewrite A2 in *. split; cbn; auto. split; cbn; auto. }
  change (d_max d2) with (2 ^ Z.of_nat (length two_part) - 1).
  assert (Pb : three_part <> [] -> 3 <> 2) by discriminate.
  destruct (2 ^ Z.of_nat (length two_part) - 1 =? 0) eqn:Q.
  - apply Z.eqb_eq in Q. assert (T0 : two_part = []).
    { destruct two_part; [reflexivity|]. cbn [length] in Q. rewrite Nat2Z.inj_succ, Z.pow_succ_r in Q by lia. lia. }
    unfold assign_charge_index, index_to_charge_distribution. change (d_idx (set_idx d2 0) =? 0) with true. cbn iota.
    assert (C3 : Core phi cells (set_idx d2 0) p ext defs (fun _ => NEG)).
    { destruct C2 as [[T1 T2 T3 T4 T5 T6 T7 T8 T9 T10 T11 T12 T13] C2 C3 C4 C5 C6 C7]. split; cbn; auto. split; cbn; auto. }
    destruct (core_all phi cells Hnd (set_idx d2 0) p _ _ _ NEG ltac:(discriminate) C3) as (C4 & _ & i & u & R4 & Z4).
    set (d4 := assign_all_charge_states (set_idx d2 0) NEG) in *. clearbody d4.
    destruct (Z4 eq_refl) as [-> ->]. { pose proof cells_pos as X. intros Y. rewrite Y in X. cbn in X. lia. }
    unfold rest in R4. injection R4 as B1 B2 B3 B4 B5 B6 B7 B8 B9 B10 B11.
    assert (Pbase : part_base = 3). { unfold part_base. rewrite T0. destruct three_part; [contradiction|reflexivity]. }
    split; [|split; [|split; assumption]].
    + apply core_run; [exact C4| | |]; [rewrite B1; exact A1|rewrite B10; exact A10|rewrite B11; exact A11].
    + split; rewrite ?Pbase.
      * rewrite B8. exact A8.
      * rewrite B9. exact A9.
      * exact B5.
      * rewrite B6, T0. reflexivity.
      * exact B7.
      * intros _. rewrite B2. discriminate.
  - apply Z.eqb_neq in Q. assert (Pbase : part_base = 2).
    { unfold part_base. destruct three_part; [contradiction|]. destruct two_part; [|reflexivity]. contradiction Q. reflexivity. }
    split; [|split; [|split; assumption]].
    + apply core_run; [exact C2|exact A1|exact A10|exact A11].
    + split; rewrite ?Pbase; auto.
Qed.

Lemma lnum_neg b (f : coord -> cs) m : (forall c, In c m -> f c = NEG) -> lnum b (map f (rev m)) = 0.
Proof.
  intros E. assert (F : forall c, In c (rev m) -> f c = NEG) by (intros c Hc; apply E; rewrite in_rev; exact Hc). clear E.
  induction (rev m) as [|c r IH]; [reflexivity|]. cbn [map lnum]. rewrite (F c (or_introl eq_refl)), IH by (intros x Hx; apply F; right; exact Hx). cbn [digit]. lia.
Qed.

(** The three-state simulation. *)
Lemma three_state_ok cl d0 : Ready d0 -> exists ds, three_state_simulation phi k cl d0 = (map (record_result phi cl) ds, false) /\
  (forall x, In x ds -> exists h, charges cells x h /\ (forall c, In c cells -> h c <> NON) /\ vld h = true) /\
  (forall g, (forall c, In c cells -> g c <> NON) -> (forall c, In c cells -> g c = POS -> p_base p = 3 /\ (c = dep \/ reachable c = true)) ->
     settled phi cells p ext dp dep true g -> vld g = true -> exists x, In x ds /\ charges cells x g) /\
  NoDup (map d_charge ds).
Proof.
  intros (f & [Rf Jf Vf _] & Nf & Df & Pf & Bf & Mf & Sf & Tf).
  pose proof (run_core d0 f Rf Df) as C0. destruct (rn_dep _ _ _ _ _ _ _ _ Rf) as [Dp1 _ _ Dp2]. pose proof (rn_eng _ _ _ _ _ _ _ _ Rf) as Eg.
  unfold three_state_simulation.
  destruct (core_all phi cells Hnd d0 p _ _ _ NEG ltac:(discriminate) C0) as (C1 & _ & i & u & R1 & Z1).
  set (d1 := assign_all_charge_states d0 NEG) in *. clearbody d1.
  destruct (Z1 eq_refl) as [-> ->]. { pose proof cells_pos as X. intros Y. rewrite Y in X. cbn in X. lia. }
  destruct (core_update phi cells Hnd d1 _ _ _ _ true C1) as (C2 & _ & _ & R2 & _).
  set (d2 := update_after_charge_change phi d1 false true false) in *. clearbody d2.
  rewrite Eg, Pf, Mf, Sf, Tf, Dp1, Dp2 in R1. rewrite R1 in R2. clear R1 Z1.
  destruct (detect_shape d2 _ _ _ _ C2 R2) as (d3 & C3 & R3 & E3 & _). rewrite E3. clear E3.
  set (d4 := match three_part with [] => d3 | _ => assign_base_number_to_three d3 end).
  assert (X : Rn d4 (fun _ => NEG) /\ Parts two_part three_part part_base d4 /\ d_idx d4 = 0 /\ d_sub d4 = 0).
  { destruct (list_eq_dec coord_dec three_part []) as [T|T].
    - unfold d4. rewrite T. unfold rest in R3. injection R3 as A1 A2 A3 A4 A5 A6 A7 A8 A9 A10 A11. split; [|split; [|split; assumption]].
      + apply core_run; assumption.
      + assert (Pb : part_base = p_base p) by (unfold part_base; rewrite T; reflexivity). pose proof parts_len as L. rewrite T in L. cbn [length] in L. rewrite T in A9.
        split; rewrite ?Pb; auto.
        rewrite A6, L. f_equal. f_equal. lia.
    - unfold d4. pose proof (to_three_ok d3 _ C3 R3 T) as Y. destruct three_part; [contradiction|exact Y]. }
  clearbody d4. destruct X as (R4 & P4 & I4 & S4).
  destruct (refresh_neglect phi phi_self phi_sym cells Hnd p ext dp dep d4 (fun _ => NEG) true R4) as (Sn & Fr & _ & _).
  set (d5 := update_after_charge_change phi d4 true true false) in *. clearbody d5.
  destruct (frame_parts two_part three_part part_base d4 d5 Fr P4) as (P5 & I5 & S5 & B5).
  destruct (loops_ok phi phi_self phi_sym cells Hnd p ext dp dep two_part three_part part_base part_base_ok parts_perm size_cells cl d5 _ Sn) as (ds & d' & U1 & U2 & U3 & U4 & U5).
  { split; [|split; [|split]].
    - intros c Hc. apply in_two in Hc. unfold fupd. rewrite (proj2 (coord_eqb_false c dep)) by apply Hc. exact I.
    - intros c Hc. apply in_three in Hc. unfold fupd. rewrite (proj2 (coord_eqb_false c dep)) by apply Hc. exact I.
    - apply lnum_neg. intros c Hc. apply in_two in Hc. unfold fupd. rewrite (proj2 (coord_eqb_false c dep)) by apply Hc. reflexivity.
    - apply lnum_neg. intros c Hc. apply in_three in Hc. unfold fupd. rewrite (proj2 (coord_eqb_false c dep)) by apply Hc. reflexivity. }
  { exact P5. } { rewrite I5. exact I4. } { rewrite S5. exact S4. }
  exists ds. split; [|split; [|split; [|exact U5]]].
  - destruct (main_loop phi (Z.to_nat (d_max d5)) cl d5 []) as [d6 res]. rewrite U1, U2. reflexivity.
  - intros x Hx. destruct (U3 x Hx) as (h & [Rx _ _ _] & Vx). exists h. split; [apply Rx|]. split; [apply Rx|exact Vx].
  - intros g Ng Pg Sg Vg. apply U4.
    + intros c Hc. apply in_two in Hc. destruct Hc as (H1 & H2 & H3). destruct (g c) eqn:G; try exact I; [|contradiction (Ng c H1 G)].
      destruct (Pg c H1 G) as [_ [E|E]]; [contradiction|]. contradiction H2. apply in_three. auto.
    + intros c Hc. apply in_three in Hc. destruct (g c) eqn:G; try exact I; [reflexivity|]. apply (Ng c); [apply Hc|exact G].
    + rewrite B5. unfold b3. rewrite (pt_base _ _ _ _ P4), (pt_three _ _ _ _ P4). destruct (part_base =? 3) eqn:Q; [exact Sg|]. cbn [orb].
      destruct three_part eqn:T; [|exact Sg]. cbn [negb]. apply settled_weak; [exact Sg|]. intros G. destruct (Pg dep dep_cells G) as [E _].
      unfold part_base in Q. rewrite T, E in Q. discriminate.
    + exact Vg.
Qed.
End Conduct.
