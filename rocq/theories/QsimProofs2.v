(** Proofs about QsimModel.v, part 2: the surface before the threads start; soundness of the whole simulation. *)
From Coq Require Import ZArith QArith Qcanon Bool List Lia Lqa Permutation.
From Verif Require Import CoordModel CoordProofs UtilModel SidbModel SidbSpec SidbProofs SidbProofs2 SidbProofs3 SidbProofs4 SidbProofs5
  QsimModel QsimSpec QsimProofs.
Import ListNotations.
Local Open Scope Z_scope.

(** Interleavings. *)
Lemma interleaving_in {A} (ls : list (list A)) r : interleaving ls r -> forall x, In x r <-> In x (concat ls).
Proof.
  induction 1 as [ls H|before x l after r H IH]; intros y.
  - split; [intros []|]. intros Hy. apply in_concat in Hy. destruct Hy as (l & Hl & Hy). rewrite Forall_forall in H.
    rewrite (H l Hl) in Hy. exact Hy.
  - cbn [In]. rewrite (IH y), !concat_app, !in_app_iff. cbn [concat]. rewrite !in_app_iff. cbn [In]. tauto.
Qed.
(** One thread after the other. *)
Lemma interleaving_nil {A} (ls : list (list A)) r : interleaving ls r -> interleaving ([] :: ls) r.
Proof.
  induction 1 as [ls H|before x l after r H IH].
  - apply i_done. constructor; auto.
  - apply (i_step ([] :: before) x l after r). exact IH.
Qed.
Lemma interleaving_concat {A} (ls : list (list A)) : interleaving ls (concat ls).
Proof.
  induction ls as [|l ls IH]; [apply i_done; constructor|]. cbn [concat].
  induction l as [|x l IHl]; [apply interleaving_nil, IH|]. apply (i_step [] x l ls). exact IHl.
Qed.

Section QuickSimProofs.
Context (phi : Qc -> Qc -> coord -> coord -> Qc) (k : kind) (dist : coord -> coord -> Qc)
        (phi_self : forall e l a, phi e l a a = 0%Qc) (phi_sym : forall e l a b, phi e l a b = phi e l b a).
Context (l : layout) (Hl : proper_layout l) (Hdef : l_defects l = []) (p : params).
Let cells := sort_cells (k_ltb k) (l_cells l).
Let p2 := with_base p 2.
Let Hnd : NoDup cells := sorted_nodup k l (pl_cells _ Hl).
Let Hlive : Forall (fun c => is_dead c = false) cells := sorted_live k l (pl_live _ Hl).

Notation prepared := (prepared phi k l p).
Notation all_negative := (all_negative phi k l p).
Notation all_neutral := (all_neutral phi k l p).
Notation predefined := (predefined phi k l p).
Notation unknowns := (unknowns phi k l p).
Notation started := (started phi k l p).
Notation firsts := (firsts phi k l p).
Notation runs := (runs phi k dist l p).

Lemma prepare_ok d0 : Ok phi cells d0 (surface_conf l default_params NEG) ->
  QOk phi p2 cells (assign_base_number (assign_physical_parameters phi (set_eng d0 QUICKSIM) p) 2) (fun _ => NEG).
Proof.
  intros O.
  unfold assign_physical_parameters, num_cells. cbn [d_order set_base set_par set_eng].
  pose proof (ok_charges _ _ _ _ O) as C. rewrite (proj1 C).
  set (d1 := set_max (set_base (set_par (set_eng d0 QUICKSIM) p) (p_base p)) (p_base p ^ Z.of_nat (length cells) - 1)).
  unfold initialize_potential_matrix. change (d_par d1) with p. change (d_order d1) with (d_order d0). rewrite (proj1 C).
  set (d2 := set_pot d1 _).
  assert (C2 : charges cells d2 (fun _ => NEG)) by exact C.
  destruct O as [[S1 S2 S3 S4 S5 S6 S7 S8 S9 S10 S11 S12 S13] O2 O3 O4 O5 O6 O7 O8 O9 O10 O11 O12 O13 O14 O15].
  assert (S6' : d_defpot d0 = map (no_def phi) cells).
  { rewrite S6. unfold surface_conf, no_def. cbn [c_defects]. rewrite Hdef. reflexivity. }
  rewrite (neglect_eq phi d2 cells p (no_def phi) (fun _ => NEG) C2 eq_refl S6').
  set (d3 := set_int d2 _).
  assert (R : exists e, recompute_energy phi d3 = set_energy d3 e) by (eexists; unfold recompute_energy; reflexivity).
  destruct R as [e R]. rewrite R. set (d4 := set_energy d3 e).
  rewrite (thresholds_eq d4 cells p no_ext S1 S7 eq_refl).
  rewrite (validity_eq phi (set_bounds d4 (map (bnd p no_ext) cells)) cells p no_ext (no_def phi) (fun _ => NEG) C2
    eq_refl S7 eq_refl eq_refl).
  set (d5 := set_valid _ _).
  assert (B : assign_base_number d5 2 = set_max (set_base (set_par d5 p2) 2) (2 ^ num_cells d5 - 1)).
  { unfold assign_base_number. cbn [d_dep set_base set_par].
    change (d_dep d5) with (d_dep d0). rewrite O8. reflexivity. }
  rewrite B. split; try reflexivity.
  - split; try reflexivity; auto.
  - exact C2.
  - intros c _. left. reflexivity.
  - exact O8.
  - exact O9.
Qed.
Lemma prepared_ok : QOk phi p2 cells prepared (fun _ => NEG).
Proof.
  apply prepare_ok. apply (new_surface_ok phi k l default_params NEG Hl); [right; reflexivity|discriminate].
Qed.

Lemma assign_all_ok d f s : QOk phi p2 cells d f -> s = NEG \/ s = NEU ->
  let d' := assign_all_charge_states d s in
  QOk phi p2 cells d' (fun _ => s) /\ d_idx d' = number 2 (map (fun _ => s) cells) /\ d_base d' = 2.
Proof.
  intros O Hs. cbv zeta. unfold assign_all_charge_states. rewrite (proj2 (qk_charges _ _ _ _ _ O)), map_map.
  assert (O1 : QOk phi p2 cells (set_charge d (map (fun _ => s) cells)) (fun _ => s)) by (apply (qok_set_charge phi p2 cells d f); auto).
  rewrite (q_to_index phi p2 cells Hnd _ _ O1). split; [apply qok_index, O1|split; reflexivity].
Qed.
Lemma update_full d f : QOk phi p2 cells d f -> d_idx d = number 2 (map f cells) -> d_base d = 2 ->
  let d' := update_after_charge_change phi d false true false in
  QOk phi p2 cells d' f /\ QFresh phi p2 cells d' f /\ d_valid d' = vb phi p2 cells f /\ d_idx d' = number 2 (map f cells) /\ d_base d' = 2.
Proof.
  intros O I B. cbv zeta. pose proof (q_update phi phi_self phi_sym p2 cells d f O) as (U1 & U2 & U3 & U4 & U5). cbv zeta in *.
  rewrite U4, U5. auto.
Qed.
Definition Full (d : cds) (f : coord -> cs) : Prop :=
  QOk phi p2 cells d f /\ QFresh phi p2 cells d f /\ d_valid d = vb phi p2 cells f /\ d_idx d = number 2 (map f cells) /\ d_base d = 2.
Lemma all_negative_ok : Full all_negative (fun _ => NEG).
Proof. destruct (assign_all_ok _ _ NEG prepared_ok (or_introl eq_refl)) as (A & B & C). apply (update_full _ _ A B C). Qed.
Lemma all_neutral_ok : Full all_neutral (fun _ => NEU).
Proof. destruct (assign_all_ok _ _ NEU (proj1 all_negative_ok) (or_intror eq_refl)) as (A & B & C). apply (update_full _ _ A B C). Qed.
Lemma predefined_lt i : In i predefined -> (i < length cells)%nat.
Proof.
  unfold predefined, negative_sidb_detection, indices. rewrite (proj1 (qk_charges _ _ _ _ _ (proj1 all_negative_ok))).
  intros H. apply filter_In in H. destruct H as [H _]. apply in_seq in H. lia.
Qed.
Lemma order_indices : map (fun c => Z.to_nat (cell_to_index all_neutral c)) (d_order all_neutral) = seq 0 (length cells).
Proof.
  unfold cell_to_index. rewrite (proj1 (qk_charges _ _ _ _ _ (proj1 all_neutral_ok))).
  apply nth_ext with (d := 0%nat) (d' := 0%nat); rewrite map_length, ?seq_length; [reflexivity|].
  intros i Hi. rewrite (nth_map _ cells i dead0) by exact Hi. rewrite (index_in_at cells i Hnd Hi), seq_nth by exact Hi. lia.
Qed.
Lemma unknowns_in i : In i unknowns <-> (i < length cells)%nat /\ ~ In i predefined.
Proof.
  unfold unknowns. rewrite order_indices, filter_In, in_seq, negb_true_iff. split.
  - intros [H1 H2]. split; [lia|]. intros C. assert (existsb (Nat.eqb i) predefined = true) as E; [|rewrite E in H2; discriminate].
    apply existsb_exists. exists i. split; [exact C|apply Nat.eqb_refl].
  - intros [H1 H2]. split; [lia|]. destruct (existsb (Nat.eqb i) predefined) eqn:E; [|reflexivity].
    apply existsb_exists in E. destruct E as (j & Hj & E). apply Nat.eqb_eq in E. subst j. contradiction.
Qed.
Lemma started_ok : Full started (negs cells predefined).
Proof.
  destruct all_neutral_ok as (A1 & A2 & A3 & A4 & A5).
  destruct (assign_update_ok phi p2 cells Hnd predefined all_neutral _ A1 predefined_lt A4 A5) as (B1 & B2 & B3).
  apply (update_full _ _ B1 B2 B3).
Qed.

Lemma quicksim_eq steps threads alpha rnd late : steps <> 0%nat -> l_cells l <> [] ->
  quicksim phi k dist l p steps threads alpha rnd late =
  let rs := runs steps threads alpha rnd late in
  if existsb r_ub rs then Undefined
  else if existsb r_late rs || match firsts ++ concat (map r_out rs) with [] => true | _ => false end then Nothing
  else Found firsts (map r_out rs).
Proof.
  intros H1 H2. unfold quicksim. rewrite (proj2 (Nat.eqb_neq steps 0) H1).
  assert (E : match l_cells l with [] => true | _ => false end = false).
  { clear - H2. destruct (l_cells l); [contradiction|reflexivity]. }
  rewrite E. reflexivity.
Qed.

Lemma full_recorded d f : Full d f -> d_valid d = true -> Recorded phi p2 cells d f.
Proof. intros (F1 & F2 & F3 & F4 & F5) V. rewrite V in F3. repeat (split; auto). Qed.
Lemma firsts_ok d : In d firsts -> exists f, Recorded phi p2 cells d f.
Proof.
  unfold firsts. rewrite !in_app_iff. intros [H|[H|H]].
  - destruct (d_valid all_negative) eqn:V; [|destruct H]. destruct H as [<-|[]]. eexists. apply (full_recorded _ _ all_negative_ok V).
  - destruct (negb _ && d_valid all_neutral) eqn:V; [|destruct H]. apply andb_true_iff in V. destruct H as [<-|[]].
    eexists. apply (full_recorded _ _ all_neutral_ok (proj2 V)).
  - destruct (d_valid started) eqn:V; [|destruct H]. destruct H as [<-|[]]. eexists. apply (full_recorded _ _ started_ok V).
Qed.
Lemma runs_ok steps threads alpha rnd late x : In x (runs steps threads alpha rnd late) ->
  r_ub x = false /\ forall d, In d (r_out x) -> exists f, Recorded phi p2 cells d f.
Proof.
  intros H. apply in_map_iff in H. destruct H as (z & <- & _).
  apply (q_thread phi dist phi_self phi_sym p2 cells Hnd _ _ _ _ _ _ _ _ (proj1 started_ok)).
  - apply predefined_lt.
  - intros i Hi. exact (proj1 (proj1 (unknowns_in i) Hi)).
Qed.
Lemma runs_ub steps threads alpha rnd late : existsb r_ub (runs steps threads alpha rnd late) = false.
Proof.
  destruct existsb eqn:E; [|reflexivity]. apply existsb_exists in E. destruct E as (x & Hx & U).
  rewrite (proj1 (runs_ok _ _ _ _ _ x Hx)) in U. discriminate.
Qed.
Lemma quicksim_sound steps threads alpha rnd late :
  quicksim phi k dist l p steps threads alpha rnd late <> Undefined /\
  forall res, returns (quicksim phi k dist l p steps threads alpha rnd late) res -> forall d, In d res -> exists f, Recorded phi p2 cells d f.
Proof.
  destruct (Nat.eqb steps 0 || match l_cells l with [] => true | _ => false end) eqn:E.
  { unfold quicksim. rewrite E. split; [discriminate|intros res []]. }
  apply orb_false_iff in E. destruct E as [E1 E2]. apply Nat.eqb_neq in E1.
  assert (E3 : l_cells l <> []) by (intros C; rewrite C in E2; discriminate).
  rewrite (quicksim_eq steps threads alpha rnd late E1 E3). cbv zeta. rewrite runs_ub.
  destruct (existsb r_late _ || _); [split; [discriminate|intros res []]|]. split; [discriminate|].
  intros res (rest & Hi & ->) d Hd. apply in_app_iff in Hd. destruct Hd as [Hd|Hd]; [apply firsts_ok, Hd|].
  rewrite (interleaving_in _ _ Hi) in Hd. apply in_concat in Hd. destruct Hd as (o & Ho & Hd). apply in_map_iff in Ho.
  destruct Ho as (x & <- & Hx). apply (runs_ok _ _ _ _ _ x Hx), Hd.
Qed.
End QuickSimProofs.
