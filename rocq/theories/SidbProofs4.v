(** Proofs about SidbModel.v, part 4: histories of calls on a surface. *)
From Coq Require Import ZArith QArith Qcanon Bool List Lia Lqa Permutation.
From Verif Require Import CoordModel CoordProofs UtilModel SidbModel SidbSpec SidbProofs SidbProofs2 SidbProofs3.
Import ListNotations.
Local Open Scope Z_scope.

(** Numbers and distributions. *)
Lemma number_inj b f g (l : list coord) : base_ok b -> (forall c, In c l -> allowed b (f c)) -> (forall c, In c l -> allowed b (g c)) ->
  number b (map f l) = number b (map g l) -> map f l = map g l.
Proof.
  intros B F G E. rewrite !number_lnum in E. apply lnum_inj in E; auto.
  - apply (f_equal (@rev cs)) in E. rewrite !rev_involutive in E. exact E.
  - apply Forall_rev, Forall_forall. intros x Hx. apply in_map_iff in Hx. destruct Hx as (c & <- & Hc). auto.
  - apply Forall_rev, Forall_forall. intros x Hx. apply in_map_iff in Hx. destruct Hx as (c & <- & Hc). auto.
  - rewrite !rev_length, !map_length. reflexivity.
Qed.
(** A list as a distribution. *)
Fixpoint dist_of (cells : list coord) (l : list cs) (c : coord) : cs :=
  match cells, l with
  | x :: cells, s :: l => if coord_eqb x c then s else dist_of cells l c
  | _, _ => NON
  end.
Lemma dist_of_map cells l : NoDup cells -> length l = length cells -> map (dist_of cells l) cells = l.
Proof.
  revert l. induction cells as [|x cells IH]; intros l N L; destruct l as [|s l]; try discriminate; [reflexivity|].
  apply NoDup_cons_iff in N. destruct N as [N1 N2]. cbn [map dist_of]. rewrite coord_eqb_refl. f_equal.
  transitivity (map (dist_of cells l) cells); [|apply IH; [exact N2|cbn in L; lia]]. apply map_ext_in. intros c Hc.
  destruct (coord_eqb x c) eqn:E; [|reflexivity]. apply coord_eqb_spec in E. subst. contradiction.
Qed.
Lemma number_surj b i (l : list coord) : base_ok b -> NoDup l -> 0 <= i < b ^ Z.of_nat (length l) ->
  exists f, (forall c, In c l -> allowed b (f c)) /\ number b (map f l) = i.
Proof.
  intros B N H. set (r := wr_all b i (repeat NEG (length l))).
  destruct (wr_all_num b (repeat NEG (length l)) i B) as [W1 W2]; [rewrite repeat_length; exact H|]. fold r in W1, W2.
  exists (dist_of l (rev r)).
  assert (E : map (dist_of l (rev r)) l = rev r).
  { apply dist_of_map; auto. rewrite rev_length. unfold r. rewrite wr_all_length, repeat_length. reflexivity. }
  split.
  - intros c Hc. apply (in_map (dist_of l (rev r))) in Hc. rewrite E in Hc. rewrite <- in_rev in Hc.
    rewrite Forall_forall in W1. apply W1, Hc.
  - rewrite E, number_lnum, rev_involutive. exact W2.
Qed.

Lemma map_agree {A B} (f g : A -> B) l : map f l = map g l -> forall x, In x l -> f x = g x.
Proof.
  induction l as [|y l IH]; intros E x H; [destruct H|]. cbn in E. injection E as E1 E2. destruct H as [->|H]; auto.
Qed.

Section Histories.
Context (phi : Qc -> Qc -> coord -> coord -> Qc).

(** What holds of a surface at any time. *)
Record Ok (cells : list coord) (d : cds) (A : conf) : Prop := mkOk {
  ok_static : Static phi d cells (c_params A) (c_ext A) (defect_field phi (c_defects A));
  ok_charges : charges cells d (c_dist A);
  ok_some : forall c, In c cells -> c_dist A c <> NON;
  ok_base : base_ok (p_base (c_params A));
  ok_par : d_par d = c_params A;
  ok_dbase : d_base d = p_base (c_params A);
  ok_max : d_max d = p_base (c_params A) ^ Z.of_nat (length cells) - 1;
  ok_dep : d_dep d = dead0;
  ok_three : d_three d = [];
  ok_eng : d_eng d = EXGS;
  ok_defs : d_defs d = c_defects A;
  ok_defs_nd : NoDup (map fst (c_defects A));
  ok_defs_ch : Forall (fun cf => is_charged_defect (snd cf) = true) (c_defects A);
  ok_int : exists ip, d_int d = map ip cells;
  ok_idx : c_current A = true -> d_idx d = number (p_base (c_params A)) (map (c_dist A) cells)
}.

Lemma Static_ext d cells p ext ext' dp dp' : Static phi d cells p ext dp ->
  (forall c, In c cells -> ext c = ext' c) -> (forall c, In c cells -> dp c = dp' c) -> Static phi d cells p ext' dp'.
Proof.
  intros [S1 S2 S3 S4 S5 S6 S7 S8 S9 S10 S11 S12 S13] E D. split; auto.
  - rewrite S6. apply map_ext_in, D.
  - rewrite S7. apply map_ext_in, E.
  - rewrite S8. apply map_ext_in. intros c Hc. unfold bnd. rewrite (E c Hc). reflexivity.
  - intros c Hc. rewrite <- (E c Hc). auto.
Qed.

Section Fixed.
Context (cells : list coord) (Hnd : NoDup cells) (Hlive : Forall (fun c => is_dead c = false) cells)
        (Hsize : 3 ^ Z.of_nat (length cells) <= 2 ^ 53).

Lemma dead_not : index_in dead0 cells = -1.
Proof. apply index_in_none. intros C. rewrite Forall_forall in Hlive. apply Hlive in C. discriminate. Qed.
Lemma base_size b : base_ok b -> b ^ Z.of_nat (length cells) <= 2 ^ 53.
Proof.
  intros [->| ->]; [|exact Hsize]. etransitivity; [|exact Hsize]. apply Z.pow_le_mono_l. lia.
Qed.

Lemma assign_keep_charges d f c s : charges cells d f ->
  charges cells (assign_charge_state_keep d c s) (fun x => if coord_eqb x c then s else f x) /\
  assign_charge_state_keep d c s = set_charge d (map (fun x => if coord_eqb x c then s else f x) cells).
Proof.
  intros [O C]. assert (E : assign_charge_state_keep d c s = set_charge d (map (fun x => if coord_eqb x c then s else f x) cells)).
  { unfold assign_charge_state_keep, cell_to_index. rewrite O. destruct (Z.eqb_spec (index_in c cells) (-1)) as [E|E].
    - apply index_in_In in E. apply charge_set. rewrite C. apply map_ext_in. intros x Hx.
      destruct (coord_eqb x c) eqn:X; [|reflexivity]. apply coord_eqb_spec in X. subst. contradiction.
    - apply f_equal. rewrite C. apply (upd_index f); auto.
      + destruct (in_dec (fun a b => match coord_eqb a b as r return coord_eqb a b = r -> {a = b} + {a <> b} with
          | true => fun e => left (proj1 (coord_eqb_spec a b) e)
          | false => fun e => right (proj1 (coord_eqb_false a b) e) end eq_refl) c cells) as [Y|Y]; [exact Y|].
        apply index_in_none in Y. contradiction.
      + rewrite coord_eqb_refl. reflexivity.
      + intros x _ Hx. apply coord_eqb_false in Hx. rewrite Hx. reflexivity. }
  split; [|exact E]. rewrite E. split; [exact O|reflexivity].
Qed.

(** Storing charges and their index keeps everything else. *)
Lemma ok_store d A f b i sub : Ok cells d A -> (forall c, In c cells -> f c <> NON) -> b = p_base (c_params A) ->
  i = number (p_base (c_params A)) (map f cells) ->
  Ok cells (set_sub (set_base (set_idx (set_charge d (map f cells)) i) b) sub)
     (mkConf (c_params A) (c_defects A) (c_ext A) f true).
Proof.
  intros [[S1 S2 S3 S4 S5 S6 S7 S8 S9 S10 S11 S12 S13] O2 O3 O4 O5 O6 O7 O8 O9 O10 O11 O12 O13 O14 O15] F -> ->.
  split; cbn; auto. { split; cbn; auto. } { split; [exact S1|reflexivity]. }
Qed.
Lemma ok_store_idx d A f i : Ok cells d A -> (forall c, In c cells -> f c <> NON) ->
  i = number (p_base (c_params A)) (map f cells) ->
  Ok cells (set_charge (set_idx d i) (map f cells)) (mkConf (c_params A) (c_defects A) (c_ext A) f true).
Proof.
  intros O F E. pose proof (ok_store d A f (d_base d) i (d_sub d) O F (ok_dbase _ _ _ O) E) as H. destruct d; exact H.
Qed.
Lemma ok_to_index d A f : Ok cells d A -> (forall c, In c cells -> f c <> NON) ->
  to_index (set_charge d (map f cells)) =
  set_sub (set_base (set_idx (set_charge d (map f cells)) (number (p_base (c_params A)) (map f cells))) (p_base (c_params A))) 0.
Proof.
  intros O F. rewrite (to_index_plain cells (set_charge d (map f cells)) f); auto.
  - cbn [d_par set_charge]. rewrite (ok_par _ _ _ O). reflexivity.
  - split; [apply (ok_charges _ _ _ O)|reflexivity].
  - cbn [d_dep set_charge]. rewrite (ok_dep _ _ _ O). reflexivity.
  - apply (ok_three _ _ _ O).
Qed.
Lemma ok_assign d A c s : Ok cells d A -> s <> NON ->
  Ok cells (assign_charge_state d c s)
     (mkConf (c_params A) (c_defects A) (c_ext A) (fun x => if coord_eqb x c then s else c_dist A x) true).
Proof.
  intros O F. unfold assign_charge_state. rewrite (proj2 (assign_keep_charges d (c_dist A) c s (ok_charges _ _ _ O))).
  assert (G : forall x, In x cells -> (if coord_eqb x c then s else c_dist A x) <> NON).
  { intros x Hx. destruct (coord_eqb x c); [exact F|apply (ok_some _ _ _ O), Hx]. }
  rewrite (ok_to_index d A _ O G). apply ok_store; auto.
Qed.
Lemma ok_assign_all d A s : Ok cells d A -> s <> NON ->
  Ok cells (assign_all_charge_states d s) (mkConf (c_params A) (c_defects A) (c_ext A) (fun _ => s) true).
Proof.
  intros O F. unfold assign_all_charge_states. rewrite (proj2 (ok_charges _ _ _ O)), map_map.
  rewrite (ok_to_index d A (fun _ => s) O) by auto. apply ok_store; auto.
Qed.
Lemma allowed_some b s : allowed b s -> s <> NON.
Proof. destruct s; [discriminate|discriminate|discriminate|intros []]. Qed.
Lemma all_neg_number b : number b (map (fun _ : coord => NEG) cells) = 0.
Proof.
  rewrite number_lnum, <- map_rev. induction (rev cells) as [|x l IH]; [reflexivity|]. cbn. rewrite IH. lia.
Qed.

(** Index to distribution: the two flavours write the same digits when the higher digits are already right. *)
Lemma ok_index_gen d A f (ignore : bool) (i := number (p_base (c_params A)) (map f cells)) : Ok cells d A ->
  (forall c, In c cells -> allowed (p_base (c_params A)) (f c)) ->
  rev ((if ignore then wr else wr_all) (p_base (c_params A)) i (rev (map (c_dist A) cells))) = map f cells ->
  Ok cells (index_to_charge_distribution (set_idx d i) ignore) (mkConf (c_params A) (c_defects A) (c_ext A) f true).
Proof.
  intros O F W. pose proof (valD_range _ f cells (ok_base _ _ _ O) F) as R. fold i in R.
  pose proof (base_size _ (ok_base _ _ _ O)).
  assert (F' : forall c, In c cells -> f c <> NON) by (intros; eapply allowed_some; eauto).
  destruct (Z.eq_dec i 0) as [Z0|Z0].
  - unfold index_to_charge_distribution. cbn [d_idx set_idx]. rewrite Z0. change (0 =? 0) with true. cbv iota.
    assert (E : map f cells = map (fun _ => NEG) cells).
    { apply (number_inj (p_base (c_params A))); auto; [apply O|intros; exact I|]. rewrite all_neg_number. exact Z0. }
    unfold assign_all_charge_states. cbn [d_charge set_idx]. rewrite (proj2 (ok_charges _ _ _ O)), map_map, <- E.
    pose proof (ok_to_index d A f O F') as T.
    assert (O' : Ok cells (set_idx d 0) (mkConf (c_params A) (c_defects A) (c_ext A) (c_dist A) false)).
    { destruct O as [[S1 S2 S3 S4 S5 S6 S7 S8 S9 S10 S11 S12 S13] O2 O3 O4 O5 O6 O7 O8 O9 O10 O11 O12 O13 O14 O15].
      split; cbn; auto; [split; cbn; auto|discriminate]. }
    rewrite (ok_to_index (set_idx d 0) _ f O' F'). apply (ok_store (set_idx d 0) _ f _ _ _ O'); auto.
  - rewrite (index_to_cd_plain cells (set_idx d i) (p_base (c_params A)) ignore).
    + cbn [d_idx d_charge set_idx]. rewrite (proj2 (ok_charges _ _ _ O)), W. apply (ok_store_idx d A f i O F' eq_refl).
    + apply O.
    + apply (ok_dbase _ _ _ O).
    + cbn [d_dep set_idx]. rewrite (ok_dep _ _ _ O). reflexivity.
    + exact Hlive.
    + apply (ok_charges _ _ _ O).
    + cbn [d_charge set_idx]. rewrite (proj2 (ok_charges _ _ _ O)). apply map_length.
    + cbn [d_idx set_idx]. lia.
    + cbn [d_idx set_idx]. lia.
Qed.
Lemma allowed_list b f (l : list coord) : (forall c, In c l -> allowed b (f c)) -> Forall (allowed b) (rev (map f l)).
Proof.
  intros F. apply Forall_rev, Forall_forall. intros x Hx. apply in_map_iff in Hx. destruct Hx as (c & <- & Hc). auto.
Qed.
Lemma ok_index d A f : Ok cells d A -> (forall c, In c cells -> allowed (p_base (c_params A)) (f c)) ->
  Ok cells (assign_charge_index d (number (p_base (c_params A)) (map f cells)))
     (mkConf (c_params A) (c_defects A) (c_ext A) f true).
Proof.
  intros O F. unfold assign_charge_index. apply (ok_index_gen d A f false O F). cbv iota.
  pose proof (valD_range _ f cells (ok_base _ _ _ O) F) as R.
  destruct (wr_all_num (p_base (c_params A)) (rev (map (c_dist A) cells)) (number (p_base (c_params A)) (map f cells)))
    as [W1 W2]; [apply O|rewrite rev_length, map_length; exact R|].
  transitivity (rev (rev (map f cells))); [f_equal|apply rev_involutive]. apply (lnum_inj (p_base (c_params A))); auto.
  - apply O.
  - apply allowed_list, F.
  - rewrite wr_all_length, !rev_length, !map_length. reflexivity.
  - rewrite W2. apply number_lnum.
Qed.
Lemma ok_next_index d A f : Ok cells d A -> (forall c, In c cells -> allowed (p_base (c_params A)) (c_dist A c)) ->
  (forall c, In c cells -> allowed (p_base (c_params A)) (f c)) ->
  number (p_base (c_params A)) (map f cells) = number (p_base (c_params A)) (map (c_dist A) cells) + 1 ->
  Ok cells (index_to_charge_distribution (set_idx d (number (p_base (c_params A)) (map f cells))) true)
     (mkConf (c_params A) (c_defects A) (c_ext A) f true).
Proof.
  intros O Fo F E. apply (ok_index_gen d A f true O F). cbv iota. rewrite E.
  pose proof (valD_range _ f cells (ok_base _ _ _ O) F) as R. rewrite E in R.
  pose proof (allowed_list _ _ _ Fo) as Ao. pose proof (allowed_list _ _ _ F) as Af.
  rewrite (number_lnum _ (map (c_dist A) cells)) in *. rewrite number_lnum in E.
  destruct (wr_succ (p_base (c_params A)) (rev (map (c_dist A) cells)) (ok_base _ _ _ O) Ao) as [W1 W2].
  { rewrite rev_length, map_length. lia. }
  transitivity (rev (rev (map f cells))); [f_equal|apply rev_involutive]. apply (lnum_inj (p_base (c_params A))); auto.
  - apply O.
  - rewrite wr_length, !rev_length, !map_length. reflexivity.
  - rewrite W2. lia.
Qed.

(** update_after_charge_change: what is stored afterwards. *)
Definition Fresh (d : cds) (A : conf) : Prop :=
  Elec phi d cells (c_params A) (c_ext A) (defect_field phi (c_defects A)) (c_dist A).
Definition energy_of (A : conf) : Qc :=
  en_val phi (c_params A) cells (c_ext A) (defect_field phi (c_defects A)) (c_defects A) (c_dist A).
Lemma ok_update d A e : Ok cells d A ->
  Ok cells (update_after_charge_change phi d false e false) A /\
  Fresh (update_after_charge_change phi d false e false) A /\
  (e = true -> d_energy (update_after_charge_change phi d false e false) = energy_of A) /\
  d_idx (update_after_charge_change phi d false e false) = d_idx d.
Proof.
  intros O. pose proof (ok_static _ _ _ O) as S. pose proof (ok_charges _ _ _ O) as C.
  set (v := lp phi (c_params A) cells (defect_field phi (c_defects A)) (c_dist A)).
  destruct e.
  - rewrite (update_fixed_energy_eq phi d cells _ _ _ _ Hnd S C) by (rewrite (ok_eng _ _ _ O); discriminate).
    rewrite (ok_defs _ _ _ O). fold v. split; [|split; [|split]].
    + destruct O as [[S1 S2 S3 S4 S5 S6 S7 S8 S9 S10 S11 S12 S13] O2 O3 O4 O5 O6 O7 O8 O9 O10 O11 O12 O13 O14 O15].
      split; cbn; auto; [split; cbn; auto|exists v; reflexivity].
    + split; [exact C|reflexivity|reflexivity].
    + reflexivity.
    + reflexivity.
  - rewrite (update_fixed_eq phi d cells _ _ _ _ Hnd S C). fold v. split; [|split; [|split]].
    + destruct O as [[S1 S2 S3 S4 S5 S6 S7 S8 S9 S10 S11 S12 S13] O2 O3 O4 O5 O6 O7 O8 O9 O10 O11 O12 O13 O14 O15].
      split; cbn; auto; [split; cbn; auto|exists v; reflexivity].
    + split; [exact C|reflexivity|reflexivity].
    + discriminate.
    + reflexivity.
Qed.

Lemma ok_next d A f : Ok cells d A -> c_current A = true ->
  (forall c, In c cells -> allowed (p_base (c_params A)) (c_dist A c)) ->
  (forall c, In c cells -> allowed (p_base (c_params A)) (f c)) ->
  number (p_base (c_params A)) (map f cells) = number (p_base (c_params A)) (map (c_dist A) cells) + 1 ->
  Ok cells (increase_charge_index_by_one phi d false true false) (mkConf (c_params A) (c_defects A) (c_ext A) f true) /\
  Fresh (increase_charge_index_by_one phi d false true false) (mkConf (c_params A) (c_defects A) (c_ext A) f true) /\
  d_energy (increase_charge_index_by_one phi d false true false) = energy_of (mkConf (c_params A) (c_defects A) (c_ext A) f true).
Proof.
  intros O Cu Fo F E. pose proof (valD_range _ f cells (ok_base _ _ _ O) F) as R.
  unfold increase_charge_index_by_one. rewrite (ok_max _ _ _ O), (ok_idx _ _ _ O Cu).
  destruct (Z.leb_spec (p_base (c_params A) ^ Z.of_nat (length cells) - 1) (number (p_base (c_params A)) (map (c_dist A) cells))); [lia|].
  cbv zeta. rewrite <- E. change (d_eng (set_idx d (number (p_base (c_params A)) (map f cells)))) with (d_eng d).
  rewrite (ok_eng _ _ _ O). pose proof (ok_next_index d A f O Fo F E) as N.
  destruct (ok_update _ _ true N) as (U1 & U2 & U3 & _). split; [exact U1|split; [exact U2|apply U3; reflexivity]].
Qed.

(** The other calls. *)
Lemma ok_params d A p : Ok cells d A -> base_ok (p_base p) ->
  Ok cells (assign_physical_parameters phi d p)
     (mkConf p (c_defects A) (c_ext A) (c_dist A) (c_current A && Z.eqb (p_base p) (p_base (c_params A)))).
Proof.
  intros O B. unfold assign_physical_parameters, num_cells. cbn [d_order set_base set_par].
  pose proof (ok_charges _ _ _ O) as C. rewrite (proj1 C).
  set (d1 := set_max (set_base (set_par d p) (p_base p)) (p_base p ^ Z.of_nat (length cells) - 1)).
  unfold initialize_potential_matrix. change (d_par d1) with p. change (d_order d1) with (d_order d). rewrite (proj1 C).
  set (d2 := set_pot d1 _).
  assert (C2 : charges cells d2 (c_dist A)) by exact C.
  destruct O as [[S1 S2 S3 S4 S5 S6 S7 S8 S9 S10 S11 S12 S13] O2 O3 O4 O5 O6 O7 O8 O9 O10 O11 O12 O13 O14 O15].
  rewrite (neglect_eq phi d2 cells p (defect_field phi (c_defects A)) (c_dist A) C2 eq_refl S6).
  set (v := lp phi p cells (defect_field phi (c_defects A)) (c_dist A)).
  rewrite (recompute_eq phi (set_int d2 (map v cells)) cells p (c_ext A) (defect_field phi (c_defects A)) (c_dist A) Hnd C2
    eq_refl eq_refl S9 S10 S11 S12 eq_refl).
  2:{ change (d_eng d <> QUICKSIM). rewrite O10. discriminate. }
  match goal with |- Ok _ (validity_check (determine_thresholds ?x)) _ => set (d3 := x) end.
  rewrite (thresholds_eq d3 cells p (c_ext A) S1 eq_refl eq_refl).
  rewrite (validity_eq phi (set_bounds d3 (map (bnd p (c_ext A)) cells)) cells p (c_ext A) (defect_field phi (c_defects A)) (c_dist A) C2
    eq_refl eq_refl eq_refl eq_refl).
  split; cbn; auto; [split; cbn; auto|exists v; reflexivity|].
  intros H. apply andb_true_iff in H. destruct H as [H1 H2]. apply Z.eqb_eq in H2. rewrite H2. auto.
Qed.

Lemma on_spec c l : on c l = negb (index_in c l =? -1).
Proof.
  unfold on. induction l as [|x l IH]; [reflexivity|]. cbn [existsb index_in]. destruct (coord_eqb x c); [reflexivity|].
  cbn [orb]. rewrite IH. cbv zeta. destruct (Z.eqb_spec (index_in c l) (-1)) as [E|E]; [reflexivity|].
  assert (H : 0 <= index_in c l).
  { clear -E. induction l as [|y r IH]; cbn in *; [lia|]. destruct (coord_eqb y c); [lia|].
    destruct (Z.eqb_spec (index_in c r) (-1)); [lia|]. specialize (IH n). lia. }
  destruct (Z.eqb_spec (index_in c l + 1) (-1)); [lia|reflexivity].
Qed.
Lemma without_none c m : ~ In c (map fst m) -> without c m = m.
Proof.
  induction m as [|[x g] m IH]; intros H; [reflexivity|]. cbn [without filter fst]. destruct (coord_eqb x c) eqn:E.
  - apply coord_eqb_spec in E. subst. exfalso. apply H. left. reflexivity.
  - cbn [negb]. f_equal. apply IH. intros C. apply H. right. exact C.
Qed.
Lemma without_keys c m x : In x (map fst (without c m)) -> In x (map fst m) /\ x <> c.
Proof.
  intros H. apply in_map_iff in H. destruct H as (cf & <- & H). apply filter_In in H. destruct H as [H1 H2]. split.
  - apply in_map, H1.
  - apply negb_true_iff, coord_eqb_false in H2. exact H2.
Qed.
Lemma without_nodup c m : NoDup (map fst m) -> NoDup (map fst (without c m)).
Proof.
  induction m as [|[x g] m IH]; intros H; [constructor|]. cbn [map fst] in H. apply NoDup_cons_iff in H. destruct H as [H1 H2].
  cbn [without filter fst]. destruct (coord_eqb x c); cbn [negb]; [auto|]. cbn [map fst]. constructor; [|auto].
  intros C. apply H1. apply (without_keys c m x C).
Qed.
Lemma field_without c g m a : NoDup (map fst m) -> find_defect c m = Some g ->
  defect_field phi (without c m) a = (defect_field phi m a - defect_pot phi a c g)%Qc.
Proof.
  unfold defect_field. induction m as [|[x h] m IH]; intros N F; [discriminate|]. cbn [map fst] in N.
  apply NoDup_cons_iff in N. destruct N as [N1 N2]. cbn [find_defect] in F. cbn [without filter fst]. rewrite total_cons.
  destruct (coord_eqb x c) eqn:E; cbn [negb].
  - apply coord_eqb_spec in E. subst x. injection F as ->. fold (without c m). rewrite without_none by exact N1.
    unfold defect_pot. cbn [fst snd]. ring.
  - rewrite total_cons. fold (without c m). rewrite IH by assumption. ring.
Qed.
Lemma shift_eq d dp ip (h : coord -> Qc) : d_order d = cells -> d_defpot d = map dp cells -> d_int d = map ip cells ->
  shift_pots d h = set_int (set_defpot d (map (fun a => (dp a + h a)%Qc) cells)) (map (fun a => (ip a + h a)%Qc) cells).
Proof.
  intros O D J. unfold shift_pots, indices. rewrite O.
  rewrite (map_seq _ (fun a => (dp a + h a)%Qc) cells dead0).
  2:{ intros i Hi. rewrite D, (nth_map dp cells i dead0) by exact Hi. reflexivity. }
  rewrite (map_seq _ (fun a => (ip a + h a)%Qc) cells dead0).
  2:{ intros i Hi. rewrite J, (nth_map ip cells i dead0) by exact Hi. reflexivity. }
  reflexivity.
Qed.

Lemma ok_defects d A m dp' ip' idf : Ok cells d A -> NoDup (map fst m) ->
  Forall (fun cf => is_charged_defect (snd cf) = true) m -> (forall c, In c (map fst m) -> ~ In c cells) ->
  (forall c, In c cells -> dp' c = defect_field phi m c) ->
  Ok cells (set_intdef (set_int (set_defpot (set_defs d m) (map dp' cells)) (map ip' cells)) idf)
     (mkConf (c_params A) m (c_ext A) (c_dist A) (c_current A)).
Proof.
  intros [[S1 S2 S3 S4 S5 S6 S7 S8 S9 S10 S11 S12 S13] O2 O3 O4 O5 O6 O7 O8 O9 O10 O11 O12 O13 O14 O15] N Ch Ap E.
  split; cbn; auto; [|exists ip'; reflexivity]. split; cbn; auto.
  - apply map_ext_in, E.
  - intros c Hc. apply find_defect_none. intros C. apply (Ap c C Hc).
Qed.
Lemma ok_defects' d A m dp' ip' : Ok cells d A -> NoDup (map fst m) ->
  Forall (fun cf => is_charged_defect (snd cf) = true) m -> (forall c, In c (map fst m) -> ~ In c cells) ->
  (forall c, In c cells -> dp' c = defect_field phi m c) ->
  Ok cells (set_int (set_defpot (set_defs d m) (map dp' cells)) (map ip' cells))
     (mkConf (c_params A) m (c_ext A) (c_dist A) (c_current A)).
Proof.
  intros O N Ch Ap E. pose proof (ok_defects d A m dp' ip' (d_intdef d) O N Ch Ap E) as H. destruct d; exact H.
Qed.
Lemma forall_without c m (P : coord * defect -> Prop) : Forall P m -> Forall P (without c m).
Proof. intros H. apply Forall_forall. intros x Hx. apply filter_In in Hx. rewrite Forall_forall in H. apply H, Hx. Qed.
Lemma defects_apart d A : Ok cells d A -> forall c, In c (map fst (c_defects A)) -> ~ In c cells.
Proof.
  intros O c Hc Ic. pose proof (st_nodef _ _ _ _ _ _ (ok_static _ _ _ O) c Ic) as F. rewrite (ok_defs _ _ _ O) in F.
  apply find_defect_none in F. contradiction.
Qed.
Lemma conf_eta A : mkConf (c_params A) (c_defects A) (c_ext A) (c_dist A) (c_current A) = A.
Proof. destruct A; reflexivity. Qed.

Lemma ok_add d A c g : Ok cells d A ->
  Ok cells (add_defect phi d c g)
     (mkConf (c_params A) (if is_charged_defect g && negb (on c cells) then without c (c_defects A) ++ [(c, g)] else c_defects A)
             (c_ext A) (c_dist A) (c_current A)).
Proof.
  intros O. pose proof (ok_charges _ _ _ O) as [OC _]. pose proof (st_defpot _ _ _ _ _ _ (ok_static _ _ _ O)) as D.
  destruct (ok_int _ _ _ O) as [ip J]. pose proof (defects_apart d A O) as Ap.
  unfold add_defect, cell_to_index. rewrite OC, on_spec, negb_involutive.
  destruct (is_charged_defect g) eqn:Ch; cbn [negb orb andb]; [|rewrite conf_eta; exact O].
  destruct (Z.eqb_spec (index_in c cells) (-1)) as [E|E]; cbn [negb]; [|rewrite conf_eta; exact O].
  apply index_in_In in E. rewrite (ok_defs _ _ _ O).
  assert (N : NoDup (map fst (without c (c_defects A) ++ [(c, g)]))).
  { rewrite map_app. cbn [map fst]. apply (Permutation_NoDup (Permutation_cons_append _ c)). constructor.
    - intros C. apply without_keys in C. tauto.
    - apply without_nodup, O. }
  assert (F : Forall (fun cf => is_charged_defect (snd cf) = true) (without c (c_defects A) ++ [(c, g)])).
  { apply Forall_app. split; [apply forall_without, O|repeat constructor; exact Ch]. }
  assert (Ap' : forall x, In x (map fst (without c (c_defects A) ++ [(c, g)])) -> ~ In x cells).
  { intros x Hx. rewrite map_app in Hx. apply in_app_or in Hx. destruct Hx as [Hx|[<-|[]]]; [|exact E].
    apply Ap. apply (without_keys c _ x Hx). }
  destruct (find_defect c (c_defects A)) as [h|] eqn:Fd.
  - rewrite (shift_eq d _ ip _ OC D J).
    cbn [d_defs set_int set_defpot]. rewrite (ok_defs _ _ _ O). fold (without c (c_defects A)).
    match goal with |- Ok _ (set_defs (set_int (set_defpot d ?a) ?b) ?m) _ =>
      change (Ok cells (set_int (set_defpot (set_defs d m) a) b) (mkConf (c_params A) m (c_ext A) (c_dist A) (c_current A))) end.
    apply ok_defects'; auto. intros x Hx. rewrite defect_field_app, (field_without c h) by (auto; apply O).
    unfold defect_field at 3. unfold defect_pot, total. cbn [fold_right fst snd]. ring.
  - apply find_defect_none in Fd. rewrite (without_none c _ Fd) in *.
    rewrite (shift_eq (set_defs d (c_defects A ++ [(c, g)])) _ ip _ OC D J).
    apply ok_defects'; auto. intros x Hx. rewrite defect_field_app.
    unfold defect_field at 3. unfold defect_pot, total. cbn [fold_right fst snd]. ring.
Qed.
Lemma ok_erase d A c : Ok cells d A ->
  Ok cells (erase_defect phi d c)
     (mkConf (c_params A) (without c (c_defects A)) (c_ext A) (c_dist A) (c_current A)).
Proof.
  intros O. pose proof (ok_charges _ _ _ O) as [OC _]. pose proof (st_defpot _ _ _ _ _ _ (ok_static _ _ _ O)) as D.
  destruct (ok_int _ _ _ O) as [ip J]. pose proof (defects_apart d A O) as Ap.
  unfold erase_defect. rewrite (ok_defs _ _ _ O). destruct (find_defect c (c_defects A)) as [h|] eqn:Fd.
  - rewrite (shift_eq d _ ip _ OC D J).
    cbn [d_defs set_int set_defpot]. rewrite (ok_defs _ _ _ O). fold (without c (c_defects A)).
    unfold update_defect_pot.
    match goal with |- Ok _ (set_intdef (set_defs (set_int (set_defpot d ?a) ?b) ?m) ?e) _ =>
      change (Ok cells (set_intdef (set_int (set_defpot (set_defs d m) a) b) e) (mkConf (c_params A) m (c_ext A) (c_dist A) (c_current A))) end.
    apply ok_defects; auto.
    + apply without_nodup, O.
    + apply forall_without, O.
    + intros x Hx. apply Ap, (without_keys c _ x Hx).
    + intros x Hx. rewrite (field_without c h) by (auto; apply O). ring.
  - apply find_defect_none in Fd. rewrite (without_none c _ Fd), conf_eta. exact O.
Qed.

(** External potentials. *)
Lemma lookup_add c v x m : lookup_pot x (add_pot c v m) = (lookup_pot x m + (if coord_eqb c x then v else 0))%Qc.
Proof.
  induction m as [|[y w] m IH]; cbn [add_pot lookup_pot].
  - destruct (coord_eqb c x); change (Q2Qc 0) with 0%Qc; ring.
  - destruct (coord_eqb y c) eqn:E1; cbn [lookup_pot]; destruct (coord_eqb y x) eqn:E2.
    + apply coord_eqb_spec in E1, E2. subst. rewrite coord_eqb_refl. reflexivity.
    + apply coord_eqb_spec in E1. subst. rewrite E2. ring.
    + apply coord_eqb_spec in E2. subst. replace (coord_eqb c x) with false; [ring|].
      symmetry. apply coord_eqb_false in E1. apply coord_eqb_false. congruence.
    + exact IH.
Qed.
Lemma add_keys c v m : NoDup (map fst m) -> NoDup (map fst (add_pot c v m)).
Proof.
  assert (K : forall x, In x (map fst (add_pot c v m)) -> In x (map fst m) \/ x = c).
  { intros x. induction m as [|[y w] m IH]; cbn [add_pot map fst].
    - cbn. intuition.
    - destruct (coord_eqb y c); cbn [map fst In]; [tauto|]. intuition. }
  revert K. induction m as [|[y w] m IH]; intros K N; cbn [add_pot].
  - cbn. constructor; [tauto|constructor].
  - cbn [map fst] in N. apply NoDup_cons_iff in N. destruct N as [N1 N2]. destruct (coord_eqb y c) eqn:E; cbn [map fst].
    + constructor; assumption.
    + assert (K' : forall x, In x (map fst (add_pot c v m)) -> In x (map fst m) \/ x = c).
      { clear. intros x. induction m as [|[y w] m IH]; cbn [add_pot map fst].
        - cbn. intuition.
        - destruct (coord_eqb y c); cbn [map fst In]; [tauto|]. intuition. }
      constructor; [|apply IH; assumption]. intros C. apply K' in C. apply coord_eqb_false in E. destruct C as [C|C]; [contradiction|congruence].
Qed.
Lemma add_keys_in c v m x : In x (map fst (add_pot c v m)) -> In x (map fst m) \/ x = c.
Proof.
  induction m as [|[y w] m IH]; cbn [add_pot map fst].
  - cbn. intuition.
  - destruct (coord_eqb y c); cbn [map fst In]; [tauto|]. intuition.
Qed.
Lemma add_all m : forall e, NoDup (map fst e) ->
  let e' := fold_left (fun e ce => add_pot (fst ce) (snd ce) e) m e in
  NoDup (map fst e') /\ (forall x, In x (map fst e') -> In x (map fst e) \/ In x (map fst m)) /\
  forall x, lookup_pot x e' = (lookup_pot x e + added m x)%Qc.
Proof.
  induction m as [|[c v] m IH]; intros e N; cbn [fold_left fst snd].
  - repeat split; auto. intros x. unfold added, total. cbn. ring.
  - destruct (IH (add_pot c v e) (add_keys c v e N)) as (H1 & H2 & H3). repeat split; auto.
    + intros x Hx. cbn [map fst In]. destruct (H2 x Hx) as [Hx'|Hx']; [|tauto]. apply add_keys_in in Hx'. intuition.
    + intros x. rewrite H3, lookup_add. unfold added. rewrite total_cons. cbn [fst snd]. ring.
Qed.
Lemma ok_set_ext d A em ext' : Ok cells d A -> NoDup (map fst em) -> (forall c, In c (map fst em) -> In c cells) ->
  (forall c, In c cells -> lookup_pot c em = ext' c) ->
  Ok cells (determine_thresholds (update_ext (set_extmap d em)))
     (mkConf (c_params A) (c_defects A) ext' (c_dist A) (c_current A)).
Proof.
  intros [[S1 S2 S3 S4 S5 S6 S7 S8 S9 S10 S11 S12 S13] O2 O3 O4 O5 O6 O7 O8 O9 O10 O11 O12 O13 O14 O15] N K L.
  rewrite (update_ext_eq phi (set_extmap d em) cells ext' Hnd S1 N K L S12).
  match goal with |- Ok _ (determine_thresholds ?x) _ => rewrite (thresholds_eq x cells (c_params A) ext' S1 eq_refl S2) end.
  split; cbn; auto. split; cbn; auto.
Qed.
Lemma ok_ext d A ext' : Ok cells d A -> (forall c, In c cells -> c_ext A c = ext' c) ->
  Ok cells d (mkConf (c_params A) (c_defects A) ext' (c_dist A) (c_current A)).
Proof.
  intros [S O2 O3 O4 O5 O6 O7 O8 O9 O10 O11 O12 O13 O14 O15] E. split; cbn; auto. eapply Static_ext; eauto.
Qed.
Lemma ok_local d A m : Ok cells d A -> (forall c, In c (map fst m) -> In c cells) ->
  Ok cells (assign_local_external_potential d m)
     (mkConf (c_params A) (c_defects A) (fun c => c_ext A c + added m c)%Qc (c_dist A) (c_current A)).
Proof.
  intros O I. pose proof (ok_static _ _ _ O) as S. unfold assign_local_external_potential.
  destruct (add_all m (d_extmap d) (st_keys _ _ _ _ _ _ S)) as (H1 & H2 & H3).
  destruct m as [|ce m].
  - cbn [fold_left]. replace (set_extmap d (d_extmap d)) with d by (destruct d; reflexivity).
    apply ok_ext; auto. intros c _. unfold added, total. cbn. ring.
  - apply ok_set_ext; auto.
    + intros c Hc. destruct (H2 c Hc) as [Hc'|Hc']; [apply (st_keys_in _ _ _ _ _ _ S), Hc'|apply I, Hc'].
    + intros c Hc. rewrite H3. f_equal. apply (st_look _ _ _ _ _ _ S), Hc.
Qed.
Lemma ok_global d A v : Ok cells d A ->
  Ok cells (assign_global_external_potential d v)
     (mkConf (c_params A) (c_defects A) (fun c => c_ext A c + v)%Qc (c_dist A) (c_current A)).
Proof.
  intros O. pose proof (ok_static _ _ _ O) as S. unfold assign_global_external_potential.
  destruct (Qc_eq_bool v (Q2Qc 0)) eqn:E.
  - apply Qc_eq_bool_correct in E. subst v. apply ok_ext; auto. intros c _. change (Q2Qc 0) with 0%Qc. ring.
  - rewrite (proj1 (ok_charges _ _ _ O)).
    assert (Fe : fold_left (fun m c => add_pot c v m) cells (d_extmap d) =
      fold_left (fun e ce => add_pot (fst ce) (snd ce) e) (map (fun c => (c, v)) cells) (d_extmap d)).
    { generalize (d_extmap d). clear. induction cells as [|x l IH]; intros e; [reflexivity|]. cbn. apply IH. }
    rewrite Fe. destruct (add_all (map (fun c => (c, v)) cells) (d_extmap d) (st_keys _ _ _ _ _ _ S)) as (H1 & H2 & H3).
    apply ok_set_ext; auto.
    + intros c Hc. destruct (H2 c Hc) as [Hc'|Hc']; [apply (st_keys_in _ _ _ _ _ _ S), Hc'|].
      rewrite map_map, map_id in Hc'. exact Hc'.
    + intros c Hc. rewrite H3. f_equal; [apply (st_look _ _ _ _ _ _ S), Hc|].
      unfold added. rewrite total_map. cbn [fst snd]. rewrite (total_single _ cells c Hnd Hc); [rewrite coord_eqb_refl; reflexivity|].
      intros b _ Hb. apply coord_eqb_false in Hb. rewrite Hb. reflexivity.
Qed.

Theorem ok_step d A o A' : Ok cells d A -> step cells A o A' -> Ok cells (exec phi d o) A'.
Proof.
  intros O H. destruct H; cbn [exec].
  - apply ok_assign; auto.
  - apply ok_assign_all; auto.
  - subst i. apply ok_index; auto.
  - apply ok_next; auto.
  - apply ok_params; auto.
  - apply ok_add; auto.
  - apply ok_erase; auto.
  - apply ok_global; auto.
  - apply ok_local; auto.
  - unfold reset_local_external_potentials. apply ok_set_ext; auto; [constructor|intros c []].
  - apply ok_update; auto.
Qed.
End Fixed.
End Histories.
