(** C55-C58, C60: charge distribution surfaces and the exhaustive simulation of their physically valid charge distributions.

    [phi] is the electrostatic potential between two positions. The theorems hold for every function [phi] with the two
    properties that the code ensures: an SiDB generates no potential at its own position, and the potential between two
    positions is symmetric. *)
From Coq Require Import ZArith QArith Qcanon Bool List Lia Permutation Sorting.Sorted.
From Verif Require Import CoordModel CoordProofs UtilModel SidbModel SidbSpec SidbProofs SidbProofs2 SidbProofs3 SidbProofs4
  SidbProofs5 SidbProofs6.
Import ListNotations.
Local Open Scope Z_scope.

Definition no_self (phi : Qc -> Qc -> coord -> coord -> Qc) : Prop := forall e l a, phi e l a a = 0%Qc.
Definition symmetric (phi : Qc -> Qc -> coord -> coord -> Qc) : Prop := forall e l a b, phi e l a b = phi e l b a.

(** Charge indices are exact for that many SiDBs: pow() of the C++ library returns a double. *)
Definition small (l : layout) : Prop := 3 ^ Z.of_nat (length (l_cells l)) <= 2 ^ 53.
Definition ordered (k : kind) (l : layout) : list coord := sort_cells (k_ltb k) (l_cells l).

(** ** Concrete layouts *)

(** A screened-looking rational potential. *)
Definition ex_phi (e la : Qc) (a b : coord) : Qc :=
  let m := Z.abs (cx a - cx b) + Z.abs (cy a - cy b) in
  if m =? 0 then Q2Qc 0 else Q2Qc (Qmake 1 (Z.to_pos m)).
Lemma ex_phi_self : no_self ex_phi.
Proof. intros e l a. unfold ex_phi. rewrite !Z.sub_diag. reflexivity. Qed.
Lemma ex_phi_sym : symmetric ex_phi.
Proof.
  intros e l a b. unfold ex_phi. replace (cx b - cx a) with (- (cx a - cx b)) by lia.
  replace (cy b - cy a) with (- (cy a - cy b)) by lia. rewrite !Z.abs_opp. reflexivity.
Qed.
Definition ex_at (x y : Z) : coord := mkC false x y 0.
Definition ex_layout : layout :=
  mkL [ex_at 7 0; ex_at 1 0; ex_at 0 0] [(ex_at 4 3, mkDf false (-1) (Q2Qc (56 # 10)) (Q2Qc 5))].
Lemma ex_proper : proper_layout ex_layout.
Proof.
  split.
  - repeat constructor; cbn; intuition discriminate.
  - repeat constructor.
  - repeat constructor; cbn; intuition discriminate.
  - cbn. intros c [<-|[]]. intuition discriminate.
Qed.
Definition ex_par : params := mkP 3 (Q2Qc (-1 # 4)) (Q2Qc (56 # 10)) (Q2Qc 5).

(** ** C55: charge indices number the charge distributions *)

Theorem C55_charge_index phi k l d A : proper_layout l -> small l -> tracked phi k l d A ->
  (* the charge states are those that have been assigned, and the charge index is their number *)
  holds (l_cells l) d (c_dist A) /\
  (c_current A = true -> d_idx d = number (p_base (c_params A)) (map (c_dist A) (ordered k l))) /\
  (* assigning a charge index yields the distribution with that number *)
  (forall i, 0 <= i < p_base (c_params A) ^ Z.of_nat (length (l_cells l)) ->
    d_idx (assign_charge_index d i) = i /\
    (forall c, In c (l_cells l) -> allowed (p_base (c_params A)) (get_charge_state (assign_charge_index d i) c)) /\
    number (p_base (c_params A)) (map (get_charge_state (assign_charge_index d i)) (ordered k l)) = i) /\
  (* different distributions have different numbers *)
  (forall f g, (forall c, In c (l_cells l) -> allowed (p_base (c_params A)) (f c)) ->
    (forall c, In c (l_cells l) -> allowed (p_base (c_params A)) (g c)) ->
    number (p_base (c_params A)) (map f (ordered k l)) = number (p_base (c_params A)) (map g (ordered k l)) ->
    forall c, In c (l_cells l) -> f c = g c).
Proof.
  intros P S T. pose proof (tracked_ok phi k l d A P S T) as O. fold (ordered k l) in O.
  pose proof (sorted_nodup k l (pl_cells _ P)) as N. fold (ordered k l) in N.
  pose proof (sorted_live k l (pl_live _ P)) as L. fold (ordered k l) in L.
  pose proof (sort_perm (k_ltb k) (l_cells l)) as Pm. fold (ordered k l) in Pm.
  assert (In' : forall c, In c (ordered k l) <-> In c (l_cells l)) by (intros; apply sorted_in).
  assert (Sz : 3 ^ Z.of_nat (length (ordered k l)) <= 2 ^ 53) by (rewrite (Permutation_length Pm); exact S).
  split; [|split; [|split]].
  - apply (holds_perm _ _ _ _ Pm), (charges_holds _ _ _ N), O.
  - apply O.
  - intros i Hi. rewrite <- (Permutation_length Pm) in Hi.
    destruct (number_surj _ i (ordered k l) (ok_base _ _ _ _ O) N Hi) as (f & Af & Nf).
    pose proof (ok_index phi _ N L Sz d A f O Af) as O'. rewrite Nf in O'.
    assert (G : forall c, In c (ordered k l) -> get_charge_state (assign_charge_index d i) c = f c).
    { intros c Hc. apply (charges_get _ _ _ _ N (ok_charges _ _ _ _ O') Hc). }
    split; [|split].
    + rewrite (ok_idx _ _ _ _ O' eq_refl). exact Nf.
    + intros c Hc. apply In' in Hc. rewrite (G c Hc). auto.
    + rewrite (map_ext_in _ f) by exact G. exact Nf.
  - intros f g Af Ag E c Hc. apply In' in Hc. revert c Hc. apply map_agree, (number_inj (p_base (c_params A))); auto.
    + apply O.
    + intros c Hc. apply Af, In', Hc.
    + intros c Hc. apply Ag, In', Hc.
Qed.
Print Assumptions C55_charge_index.

(** Charge states assigned one by one: + 0 - has the number 2 * 9 + 1 * 3 + 0 (the SiDBs are ordered by position). *)
Definition ex_surface : cds :=
  exec ex_phi (exec ex_phi (new_surface ex_phi Cube ex_layout ex_par NEG) (OAssign (ex_at 0 0) POS)) (OAssign (ex_at 1 0) NEU).
Definition ex_conf : conf :=
  mkConf ex_par (l_defects ex_layout) (fun _ => 0%Qc)
    (fun x => if coord_eqb x (ex_at 1 0) then NEU else if coord_eqb x (ex_at 0 0) then POS else NEG) true.
Example C55_nonvacuous : small ex_layout /\ tracked ex_phi Cube ex_layout ex_surface ex_conf /\ d_idx ex_surface = 21 /\
  map (get_charge_state (assign_charge_index ex_surface 7)) (ordered Cube ex_layout) = [NEG; POS; NEU].
Proof.
  split; [vm_compute; discriminate|split; [|split; vm_compute; reflexivity]].
  eapply t_call; [eapply t_call; [apply t_new with (p := ex_par) (s := NEG); [right; reflexivity|discriminate]|]|].
  - apply s_assign. discriminate.
  - apply (s_assign _ (mkConf ex_par (l_defects ex_layout) (fun _ => 0%Qc) (fun x => if coord_eqb x (ex_at 0 0) then POS else NEG) true)).
    discriminate.
Qed.

(** ** C56: stepping through the charge indices visits every distribution exactly once *)

Theorem C56_enumeration phi k l d A : proper_layout l -> small l -> tracked phi k l d A ->
  forall f, (forall c, In c (l_cells l) -> allowed (p_base (c_params A)) (f c)) ->
  let d0 := assign_charge_index d 0 in
  let n := Z.to_nat (number (p_base (c_params A)) (map f (ordered k l))) in
  (* the distribution is found after as many steps as its number says *)
  Z.of_nat n <= d_max d /\ holds (l_cells l) (steps phi n d0) f /\
  (* and at no other step *)
  forall m, Z.of_nat m <= d_max d -> holds (l_cells l) (steps phi m d0) f -> m = n.
Proof.
  intros P S T f Af. cbv zeta. pose proof (tracked_ok phi k l d A P S T) as O. fold (ordered k l) in O.
  pose proof (sorted_nodup k l (pl_cells _ P)) as N. fold (ordered k l) in N.
  pose proof (sorted_live k l (pl_live _ P)) as L. fold (ordered k l) in L.
  pose proof (sort_perm (k_ltb k) (l_cells l)) as Pm. fold (ordered k l) in Pm.
  assert (In' : forall c, In c (ordered k l) <-> In c (l_cells l)) by (intros; apply sorted_in).
  assert (Sz : 3 ^ Z.of_nat (length (ordered k l)) <= 2 ^ 53) by (rewrite (Permutation_length Pm); exact S).
  assert (Af' : forall c, In c (ordered k l) -> allowed (p_base (c_params A)) (f c)) by (intros c Hc; apply Af, In', Hc).
  pose proof (valD_range _ f (ordered k l) (ok_base _ _ _ _ O) Af') as R.
  pose proof (ok_index phi _ N L Sz d A (fun _ => NEG) O (fun _ _ => I)) as O0. rewrite all_neg_number in O0.
  assert (St : forall m g, (forall c, In c (ordered k l) -> allowed (p_base (c_params A)) (g c)) ->
    number (p_base (c_params A)) (map g (ordered k l)) = Z.of_nat m -> holds (ordered k l) (steps phi m (assign_charge_index d 0)) g).
  { intros m g Ag Ng. destruct (steps_ok phi _ N L Sz m _ _ g O0 eq_refl (fun _ _ => I) Ag) as (g' & Mg & Og).
    - cbn [c_params c_dist]. rewrite all_neg_number. exact Ng.
    - intros c Hc. rewrite (charges_get _ _ _ _ N (ok_charges _ _ _ _ Og) Hc). apply Mg, Hc. }
  rewrite (ok_max _ _ _ _ O). split; [lia|split].
  - apply (holds_perm _ _ _ _ Pm). apply St; [exact Af'|lia].
  - intros m Hm Hf. destruct (number_surj (p_base (c_params A)) (Z.of_nat m) (ordered k l) (ok_base _ _ _ _ O) N) as (g & Ag & Ng); [lia|].
    assert (E : map g (ordered k l) = map f (ordered k l)).
    { apply map_ext_in. intros c Hc. rewrite <- (St m g Ag Ng c Hc). apply Hf, In', Hc. }
    rewrite E in Ng. lia.
Qed.
Print Assumptions C56_enumeration.

Example C56_nonvacuous : d_max ex_surface = 26 /\
  map (get_charge_state (steps ex_phi 21 (assign_charge_index ex_surface 0))) (ordered Cube ex_layout) = [POS; NEU; NEG].
Proof. split; vm_compute; reflexivity. Qed.

(** ** C57: the exhaustive simulation finds exactly the physically valid charge distributions *)

Theorem C57_exhaustive phi k l p : no_self phi -> symmetric phi -> proper_layout l -> small l -> l_cells l <> [] ->
  p_base p = 2 \/ p_base p = 3 ->
  exists R, exgs phi k l p = (R, false) /\
  (* a distribution is physically valid if and only if one of the results holds it *)
  (forall f, (forall c, In c (l_cells l) -> allowed (p_base p) (f c)) ->
     (physically_valid phi p (l_cells l) (l_defects l) (fun _ => 0%Qc) f <-> exists r, In r R /\ holds (l_cells l) r f)) /\
  (* no result holds anything else *)
  (forall r, In r R -> forall c, In c (l_cells l) -> allowed (p_base p) (get_charge_state r c)) /\
  (* no distribution is reported twice *)
  (forall i j, (i < j < length R)%nat ->
     exists c, In c (l_cells l) /\ get_charge_state (nth i R (new_surface phi k l p NEG)) c <> get_charge_state (nth j R (new_surface phi k l p NEG)) c).
Proof.
  intros Ps Sy P S Ne B. pose proof (sort_perm (k_ltb k) (l_cells l)) as Pm.
  pose proof (sorted_nodup k l (pl_cells _ P)) as N.
  destruct (exgs_ok phi k l p P B S Ne) as (R & R1 & R2 & R3 & R4).
  set (cells := sort_cells (k_ltb k) (l_cells l)) in *. set (defs := filter _ (l_defects l)) in *.
  assert (In' : forall c, In c cells <-> In c (l_cells l)) by (intros; apply sorted_in).
  assert (Vs : forall g, (forall c, In c cells -> allowed (p_base p) (g c)) ->
    (validb phi p cells (fun _ => 0%Qc) (defect_field phi defs) g = true <-> physically_valid phi p (l_cells l) (l_defects l) (fun _ => 0%Qc) g)).
  { intros g Ag. rewrite (validb_spec phi Ps Sy p cells defs (fun _ => 0%Qc) N g); [|intros c Hc; apply (allowed_some (p_base p)); auto|auto].
    split; apply (valid_perm phi Ps Sy).
    - exact Pm.
    - apply filter_field.
    - apply Permutation_sym, Pm.
    - intros a. symmetry. apply filter_field. }
  exists R. split; [exact R1|split; [|split]].
  - intros f Af. assert (Af' : forall c, In c cells -> allowed (p_base p) (f c)) by (intros c Hc; apply Af, In', Hc).
    split.
    + intros V. destruct (R3 f Af') as (r & Hr & Cr); [apply Vs; auto|]. exists r. split; [exact Hr|].
      apply (holds_perm _ _ _ _ Pm), (charges_holds _ _ _ N), Cr.
    + intros (r & Hr & Cr). destruct (R2 r Hr) as (g & (O & _ & _ & Ag) & Vg).
      apply (valid_agree phi Ps Sy) with (f := g).
      * intros c Hc. apply (holds_agree (l_cells l) r); auto. apply (holds_perm _ _ _ _ Pm), (charges_holds _ _ _ N), O.
      * apply Vs; auto.
  - intros r Hr c Hc. destruct (R2 r Hr) as (g & (O & _ & _ & Ag) & Vg). apply In' in Hc.
    rewrite (charges_get _ _ _ _ N (ok_charges _ _ _ _ O) Hc). apply Ag, Hc.
  - intros i j Hij. set (z := new_surface phi k l p NEG).
    assert (Hi : In (nth i R z) R) by (apply nth_In; lia). assert (Hj : In (nth j R z) R) by (apply nth_In; lia).
    destruct (R2 _ Hi) as (g & (Og & _ & _ & Ag) & _). destruct (R2 _ Hj) as (h & (Oh & _ & _ & Ah) & _).
    assert (Lt : d_idx (nth i R z) < d_idx (nth j R z)).
    { rewrite <- !(map_nth d_idx). clear -R4 Hij. revert i j Hij. rewrite <- (map_length d_idx R). generalize (d_idx z).
      induction R4 as [|x L SL IH F]; intros w i j Hij; [cbn in Hij; lia|]. destruct j as [|j]; [lia|]. destruct i as [|i]; cbn [nth].
      - rewrite Forall_forall in F. apply F, nth_In. cbn in Hij. lia.
      - apply IH. cbn in Hij. lia. }
    rewrite (ok_idx _ _ _ _ Og eq_refl), (ok_idx _ _ _ _ Oh eq_refl) in Lt. cbn [c_params c_dist] in Lt.
    assert (X : exists c, In c cells /\ g c <> h c).
    { clear -Lt. assert (D : forall m : list coord, (exists c, In c m /\ g c <> h c) \/ map g m = map h m).
      { induction m as [|x m IH]; [right; reflexivity|]. destruct IH as [(c & Hc & Q)|IH]; [left; exists c; split; [right; exact Hc|exact Q]|].
        assert (De : {g x = h x} + {g x <> h x}) by decide equality. destruct De as [De|De].
        - right. cbn. congruence.
        - left. exists x. split; [left; reflexivity|exact De]. }
      destruct (D cells) as [X|X]; [exact X|]. rewrite X in Lt. lia. }
    destruct X as (c & Hc & Q). exists c. split; [apply In', Hc|].
    rewrite (charges_get _ _ _ _ N (ok_charges _ _ _ _ Og) Hc), (charges_get _ _ _ _ N (ok_charges _ _ _ _ Oh) Hc). exact Q.
Qed.
Print Assumptions C57_exhaustive.

Example C57_nonvacuous : small ex_layout /\
  map (fun r => map (get_charge_state r) (l_cells ex_layout)) (fst (exgs ex_phi Cube ex_layout ex_par)) = [[NEG; POS; NEG]; [NEG; NEG; POS]].
Proof. split; [vm_compute; discriminate|vm_compute; reflexivity]. Qed.

(** ** C58: the validity that a surface reports *)

(** Proved for external potentials that are the same at all SiDBs, e.g. one that has been assigned globally. Missing: local
    external potentials, see [C58_validity_refuted]. *)
Theorem C58_validity_partial phi k l d A e : no_self phi -> symmetric phi -> proper_layout l -> small l -> tracked phi k l d A ->
  (forall a b, In a (l_cells l) -> In b (l_cells l) -> c_ext A a = c_ext A b) ->
  d_valid (exec phi d (OUpdate e)) = true <->
  physically_valid phi (c_params A) (l_cells l) (c_defects A) (c_ext A) (c_dist A).
Proof.
  intros Ps Sy P S T U. pose proof (tracked_ok phi k l d A P S T) as O.
  pose proof (sorted_nodup k l (pl_cells _ P)) as N. pose proof (sort_perm (k_ltb k) (l_cells l)) as Pm.
  destruct (ok_update phi _ N d A e O) as (O' & F & _). cbn [exec]. rewrite (el_valid _ _ _ _ _ _ _ F).
  rewrite (validb_spec phi Ps Sy _ _ (c_defects A) (c_ext A) N).
  - split; apply (valid_perm phi Ps Sy); try (intros a; reflexivity); [exact Pm|apply Permutation_sym, Pm].
  - apply O.
  - intros a b Ia Ib. apply sorted_in in Ia, Ib. apply U; assumption.
Qed.
Print Assumptions C58_validity_partial.

(** The population part holds for all external potentials: whatever the surface reports as valid is population stable. *)
Theorem C58_population phi k l d A e : no_self phi -> symmetric phi -> proper_layout l -> small l -> tracked phi k l d A ->
  d_valid (exec phi d (OUpdate e)) = true ->
  forall a, In a (l_cells l) -> population_stable phi (c_params A) (l_cells l) (c_defects A) (c_ext A) (c_dist A) a.
Proof.
  intros Ps Sy P S T V a Ia. pose proof (tracked_ok phi k l d A P S T) as O.
  pose proof (sorted_nodup k l (pl_cells _ P)) as N. pose proof (sort_perm (k_ltb k) (l_cells l)) as Pm.
  destruct (ok_update phi _ N d A e O) as (O' & F & _). cbn [exec] in V. rewrite (el_valid _ _ _ _ _ _ _ F) in V.
  apply andb_true_iff in V. destruct V as [V _]. rewrite forallb_forall in V. apply (sorted_in k l a) in Ia. specialize (V a Ia).
  apply popb_spec in V. unfold population_stable in *.
  rewrite <- (potential_perm phi (c_params A) _ _ (c_defects A) (c_defects A) (c_dist A) a Pm) by (intros x; reflexivity). exact V.
Qed.
Print Assumptions C58_population.

(** A surface whose distribution is valid, and one whose distribution is not, under a global external potential. *)
Definition ex_biased (s : cs) : cds :=
  exec ex_phi (exec ex_phi (exec ex_phi (new_surface ex_phi Cube ex_layout ex_par NEG) (OAssign (ex_at 0 0) POS))
    (OAssign (ex_at 7 0) s)) (OGlobal (Q2Qc (1 # 100))).
Example C58_nonvacuous :
  d_valid (exec ex_phi (ex_biased NEG) (OUpdate true)) = true /\ d_valid (exec ex_phi (ex_biased NEU) (OUpdate true)) = false /\
  exists A, tracked ex_phi Cube ex_layout (ex_biased NEG) A /\ forall a b, c_ext A a = c_ext A b.
Proof.
  split; [vm_compute; reflexivity|split; [vm_compute; reflexivity|]].
  eexists. split.
  - eapply t_call; [eapply t_call; [eapply t_call; [apply t_new with (p := ex_par) (s := NEG); [right; reflexivity|discriminate]|]|]|].
    + apply s_assign. discriminate.
    + apply s_assign. discriminate.
    + apply s_global.
  - reflexivity.
Qed.

(** A layout, parameters and a local external potential for which the surface reports a valid distribution although an
    electron that hops from the first SiDB to the second one lowers the energy. *)
Definition bad_layout : layout := mkL [ex_at 4 0; ex_at 10 0] [(ex_at 0 0, mkDf false (-1) (Q2Qc (56 # 10)) (Q2Qc 5))].
Definition bad_par : params := mkP 3 (Q2Qc (-1 # 5)) (Q2Qc (56 # 10)) (Q2Qc 5).
Definition bad_surface : cds :=
  exec ex_phi (exec ex_phi (new_surface ex_phi Cube bad_layout bad_par NEG) (OAssign (ex_at 10 0) NEU))
    (OLocal [(ex_at 4 0, Q2Qc (1 # 10))]).
Theorem C58_validity_refuted :
  exists phi k l d A e, no_self phi /\ symmetric phi /\ proper_layout l /\ small l /\ tracked phi k l d A /\
  d_valid (exec phi d (OUpdate e)) = true /\
  ~ physically_valid phi (c_params A) (l_cells l) (c_defects A) (c_ext A) (c_dist A).
Proof.
  exists ex_phi, Cube, bad_layout, bad_surface,
    (mkConf bad_par (l_defects bad_layout) (fun c => 0 + added [(ex_at 4 0, Q2Qc (1 # 10))] c)%Qc
       (fun x => if coord_eqb x (ex_at 10 0) then NEU else NEG) true), true.
  split; [apply ex_phi_self|split; [apply ex_phi_sym|split; [|split; [|split; [|split]]]]].
  - split.
    + repeat constructor; cbn; intuition discriminate.
    + repeat constructor.
    + repeat constructor; cbn; intuition discriminate.
    + cbn. intros c [<-|[]]. intuition discriminate.
  - vm_compute. discriminate.
  - eapply t_call; [eapply t_call; [apply t_new with (p := bad_par) (s := NEG); [right; reflexivity|discriminate]|]|].
    + apply s_assign. discriminate.
    + apply (s_local _ (mkConf bad_par (l_defects bad_layout) (fun _ => 0%Qc) (fun x => if coord_eqb x (ex_at 10 0) then NEU else NEG) true)).
      cbn. intros c [<-|[]]. left. reflexivity.
  - vm_compute. reflexivity.
  - intros [_ H]. specialize (H (ex_at 4 0) (ex_at 10 0) (or_introl eq_refl) (or_intror (or_introl eq_refl)) eq_refl).
    apply qltb_false in H. revert H.
    match goal with |- ?x = false -> False => assert (E : x = true) by (vm_compute; reflexivity); rewrite E end. discriminate.
Qed.
Print Assumptions C58_validity_refuted.

(** ** C60: the energy that a surface reports *)

(** Proved for defects that see the same permittivity and screening length as the SiDBs. Missing: defects with their own
    material parameters, see [C60_energy_refuted]. *)
Theorem C60_energy_partial phi k l d A : no_self phi -> symmetric phi -> proper_layout l -> small l -> tracked phi k l d A ->
  Forall (fun cf => df_eps (snd cf) = p_eps (c_params A) /\ df_lambda (snd cf) = p_lambda (c_params A)) (c_defects A) ->
  d_energy (exec phi d (OUpdate true)) =
  (energy phi (c_params A) (l_cells l) (c_defects A) (c_ext A) (c_dist A) +
   total_pairs (fun x y => coulomb phi (c_params A) (fst x) (fst y) * qz (df_charge (snd x)) * qz (df_charge (snd y))) (c_defects A))%Qc.
Proof.
  intros Ps Sy P S T M. pose proof (tracked_ok phi k l d A P S T) as O.
  pose proof (sorted_nodup k l (pl_cells _ P)) as N. pose proof (sort_perm (k_ltb k) (l_cells l)) as Pm.
  destruct (ok_update phi _ N d A true O) as (_ & _ & En & _). cbn [exec]. rewrite (En eq_refl). unfold energy_of.
  rewrite (en_val_spec phi Ps Sy); [|apply O|exact M]. unfold defect_pairs. f_equal.
  apply (energy_perm phi Ps Sy); [exact Pm|intros a; reflexivity].
Qed.
Print Assumptions C60_energy_partial.

(** The energies of the results of the exhaustive simulation. *)
Theorem C60_exhaustive_energy_partial phi k l p : no_self phi -> symmetric phi -> proper_layout l -> small l -> l_cells l <> [] ->
  p_base p = 2 \/ p_base p = 3 ->
  Forall (fun cf => df_eps (snd cf) = p_eps p /\ df_lambda (snd cf) = p_lambda p) (l_defects l) ->
  forall r f, In r (fst (exgs phi k l p)) -> holds (l_cells l) r f ->
  d_energy r =
  (energy phi p (l_cells l) (l_defects l) (fun _ => 0) f +
   total_pairs (fun x y => coulomb phi p (fst x) (fst y) * qz (df_charge (snd x)) * qz (df_charge (snd y))) (l_defects l))%Qc.
Proof.
  intros Ps Sy P S Ne B M r f Hr Hf. pose proof (sort_perm (k_ltb k) (l_cells l)) as Pm.
  pose proof (sorted_nodup k l (pl_cells _ P)) as N.
  destruct (exgs_ok phi k l p P B S Ne) as (R & R1 & R2 & _ & _). rewrite R1 in Hr. cbn [fst] in Hr.
  destruct (R2 r Hr) as (g & (O & _ & En & _) & _). rewrite En. unfold energy_of. cbn [c_params c_ext c_defects c_dist].
  rewrite (en_val_spec phi Ps Sy); [|apply (ok_defs_nd _ _ _ _ O)|].
  - rewrite pairs_filter. unfold defect_pairs. f_equal.
    rewrite (energy_perm phi Ps Sy p _ (l_cells l) _ (l_defects l) (fun _ => 0%Qc) g Pm (filter_field phi _)).
    apply (energy_agree phi Ps Sy). intros c Hc.
    apply (holds_agree (l_cells l) r); auto. apply (holds_perm _ _ _ _ Pm), (charges_holds _ _ _ N), O.
  - apply Forall_forall. intros x Hx. apply filter_In in Hx. rewrite Forall_forall in M. apply M, Hx.
Qed.
Print Assumptions C60_exhaustive_energy_partial.

Example C60_nonvacuous :
  Forall (fun cf => df_eps (snd cf) = p_eps ex_par /\ df_lambda (snd cf) = p_lambda ex_par) (l_defects ex_layout) /\
  map (fun r => this (d_energy r)) (fst (exgs ex_phi Cube ex_layout ex_par)) = [(-37 # 42)%Q; (-11 # 14)%Q].
Proof.
  split; [|vm_compute; reflexivity].
  apply Forall_forall. cbn [l_defects ex_layout]. intros x [<-|[]]. split; reflexivity.
Qed.

(** A defect in another medium: the difference between the reported energies of two distributions is not the difference
    between their energies. *)
Definition ex_phi2 (e la : Qc) (a b : coord) : Qc := (e * ex_phi e la a b)%Qc.
Definition other_layout : layout := mkL [ex_at 4 0] [(ex_at 0 0, mkDf false (-1) (Q2Qc 1) (Q2Qc 5))].
Definition other_par : params := mkP 3 (Q2Qc (-1 # 5)) (Q2Qc 2) (Q2Qc 5).
Lemma qc_neq a b : Qc_eq_bool a b = false -> a <> b.
Proof.
  intros E ->. unfold Qc_eq_bool in E. destruct (Qc_eq_dec b b) as [_|C]; [discriminate|contradiction].
Qed.
Theorem C60_energy_refuted :
  exists phi k l d A d' A', no_self phi /\ symmetric phi /\ proper_layout l /\ small l /\ tracked phi k l d A /\ tracked phi k l d' A' /\
  c_params A = c_params A' /\ c_defects A = c_defects A' /\ (forall c, c_ext A c = c_ext A' c) /\
  (d_energy (exec phi d (OUpdate true)) - d_energy (exec phi d' (OUpdate true)) <>
   energy phi (c_params A) (l_cells l) (c_defects A) (c_ext A) (c_dist A) -
   energy phi (c_params A) (l_cells l) (c_defects A) (c_ext A) (c_dist A'))%Qc.
Proof.
  exists ex_phi2, Cube, other_layout, (new_surface ex_phi2 Cube other_layout other_par NEG), (surface_conf other_layout other_par NEG),
    (new_surface ex_phi2 Cube other_layout other_par NEU), (surface_conf other_layout other_par NEU).
  split; [|split; [|split; [|split; [|split; [|split; [|split; [|split; [|split]]]]]]]].
  - intros e l a. unfold ex_phi2. rewrite ex_phi_self. ring.
  - intros e l a b. unfold ex_phi2. rewrite ex_phi_sym. reflexivity.
  - split.
    + repeat constructor; cbn; intuition discriminate.
    + repeat constructor.
    + repeat constructor; cbn; intuition discriminate.
    + cbn. intros c [<-|[]]. intuition discriminate.
  - vm_compute. discriminate.
  - apply t_new; [right; reflexivity|discriminate].
  - apply t_new; [right; reflexivity|discriminate].
  - reflexivity.
  - reflexivity.
  - reflexivity.
  - apply qc_neq. vm_compute. reflexivity.
Qed.
Print Assumptions C60_energy_refuted.
