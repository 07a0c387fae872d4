(** Proofs about SidbModel.v, part 6: the specification does not depend on the order of the SiDBs nor on neutral defects. *)
From Coq Require Import ZArith QArith Qcanon Bool List Lia Permutation Sorting.Sorted.
From Verif Require Import CoordModel CoordProofs UtilModel SidbModel SidbSpec SidbProofs SidbProofs2 SidbProofs3 SidbProofs4 SidbProofs5.
Import ListNotations.
Local Open Scope Z_scope.

Section Perm.
Context (phi : Qc -> Qc -> coord -> coord -> Qc)
        (phi_self : forall e l a, phi e l a a = 0%Qc) (phi_sym : forall e l a b, phi e l a b = phi e l b a).

Definition same_field (m n : list (coord * defect)) : Prop := forall a, defect_field phi m a = defect_field phi n a.
Lemma filter_field m : same_field (filter (fun cf => is_charged_defect (snd cf)) m) m.
Proof. intros a. apply (defect_field_filter phi m a). Qed.

Lemma potential_perm p cells cells' m n f a : Permutation cells cells' -> same_field m n ->
  potential phi p cells m f a = potential phi p cells' n f a.
Proof. intros P F. unfold potential. rewrite (F a). f_equal. apply total_perm, P. Qed.
Lemma energy_perm p cells cells' m n ext f : Permutation cells cells' -> same_field m n ->
  energy phi p cells m ext f = energy phi p cells' n ext f.
Proof.
  intros P F. rewrite !(energy_quad phi phi_self phi_sym). unfold quad, lin. f_equal; [f_equal|].
  - rewrite (total_perm _ _ _ P). apply total_ext. intros a _. apply total_perm, P.
  - rewrite (total_perm _ _ _ P). apply total_ext. intros a _. rewrite (F a). reflexivity.
Qed.
Lemma valid_perm p cells cells' m n ext f : Permutation cells cells' -> same_field m n ->
  physically_valid phi p cells m ext f -> physically_valid phi p cells' n ext f.
Proof.
  intros P F [H1 H2]. split.
  - intros a Ha. specialize (H1 a (Permutation_in _ (Permutation_sym P) Ha)). unfold population_stable in *.
    rewrite <- (potential_perm p cells cells' m n f a P F). exact H1.
  - intros a b Ia Ib L. rewrite <- !(energy_perm p cells cells' m n ext _ P F).
    apply H2; auto; apply (Permutation_in _ (Permutation_sym P)); assumption.
Qed.
Lemma valid_agree p cells m ext f g : (forall c, In c cells -> f c = g c) ->
  physically_valid phi p cells m ext f -> physically_valid phi p cells m ext g.
Proof.
  intros M [H1 H2].
  assert (En : forall f g, (forall c, In c cells -> f c = g c) -> energy phi p cells m ext f = energy phi p cells m ext g).
  { intros f' g' M'. rewrite !(energy_quad phi phi_self phi_sym). unfold quad, lin. f_equal; [f_equal|].
    - apply total_ext. intros a Ha. apply total_ext. intros b Hb. rewrite (M' a Ha), (M' b Hb). reflexivity.
    - apply total_ext. intros a Ha. rewrite (M' a Ha). reflexivity. }
  split.
  - intros a Ha. specialize (H1 a Ha). unfold population_stable in *. rewrite <- (M a Ha).
    replace (potential phi p cells m g a) with (potential phi p cells m f a); [exact H1|].
    unfold potential. f_equal. apply total_ext. intros b Hb. rewrite (M b Hb). reflexivity.
  - intros a b Ia Ib L. rewrite <- (M a Ia), <- (M b Ib) in L. specialize (H2 a b Ia Ib L).
    rewrite <- (En f g M). replace (energy phi p cells m ext (hop a b g)) with (energy phi p cells m ext (hop a b f)); [exact H2|].
    apply En. intros c Hc. unfold hop. rewrite (M c Hc). reflexivity.
Qed.
Lemma energy_agree p cells m ext f g : (forall c, In c cells -> f c = g c) ->
  energy phi p cells m ext f = energy phi p cells m ext g.
Proof.
  intros M'. rewrite !(energy_quad phi phi_self phi_sym). unfold quad, lin. f_equal; [f_equal|].
  - apply total_ext. intros a Ha. apply total_ext. intros b Hb. rewrite (M' a Ha), (M' b Hb). reflexivity.
  - apply total_ext. intros a Ha. rewrite (M' a Ha). reflexivity.
Qed.
(** Neutral defects do not contribute to the energy of the defects. *)
Lemma pairs_filter p m :
  defect_pairs phi p (filter (fun cf => is_charged_defect (snd cf)) m) = defect_pairs phi p m.
Proof.
  unfold defect_pairs. induction m as [|x m IH]; [reflexivity|]. cbn [filter].
  assert (T : forall y, total (fun z => (coulomb phi p (fst y) (fst z) * qz (df_charge (snd y)) * qz (df_charge (snd z)))%Qc)
     (filter (fun cf => is_charged_defect (snd cf)) m) =
     total (fun z => (coulomb phi p (fst y) (fst z) * qz (df_charge (snd y)) * qz (df_charge (snd z)))%Qc) m).
  { intros y. clear IH. induction m as [|z m IH]; [reflexivity|]. cbn [filter]. rewrite total_cons.
    destruct (is_charged_defect (snd z)) eqn:E; [rewrite total_cons, IH; reflexivity|].
    rewrite IH, (charge_uncharged z E). ring. }
  cbn [total_pairs]. destruct (is_charged_defect (snd x)) eqn:E.
  - cbn [total_pairs]. rewrite IH, T. reflexivity.
  - rewrite IH. rewrite (charge_uncharged x E).
    rewrite (total_ext _ (fun _ => 0%Qc)) by (intros; ring). rewrite total_0. ring.
Qed.
End Perm.

Lemma charges_holds cells d f : NoDup cells -> charges cells d f -> holds cells d f.
Proof. intros N C c Hc. apply (charges_get cells d f c N C Hc). Qed.
Lemma holds_perm cells cells' d f : Permutation cells cells' -> holds cells d f -> holds cells' d f.
Proof. intros P H c Hc. apply H. apply (Permutation_in _ (Permutation_sym P) Hc). Qed.
Lemma holds_agree cells d f g : holds cells d f -> holds cells d g -> forall c, In c cells -> f c = g c.
Proof. intros F G c Hc. rewrite <- (F c Hc). apply G, Hc. Qed.

(** Stepping through all charge indices. *)
Section Enumerate.
Context (phi : Qc -> Qc -> coord -> coord -> Qc) (cells : list coord) (Hnd : NoDup cells)
  (Hlive : Forall (fun c => is_dead c = false) cells) (Hsize : 3 ^ Z.of_nat (length cells) <= 2 ^ 53).
Fixpoint steps (n : nat) (d : cds) : cds := match n with O => d | S n => increase_charge_index_by_one phi (steps n d) false true false end.
Lemma steps_ok n : forall d A f, Ok phi cells d A -> c_current A = true -> (forall c, In c cells -> allowed (p_base (c_params A)) (c_dist A c)) ->
  (forall c, In c cells -> allowed (p_base (c_params A)) (f c)) ->
  number (p_base (c_params A)) (map f cells) = number (p_base (c_params A)) (map (c_dist A) cells) + Z.of_nat n ->
  exists f', (forall c, In c cells -> f' c = f c) /\ Ok phi cells (steps n d) (mkConf (c_params A) (c_defects A) (c_ext A) f' true).
Proof.
  induction n as [|n IH]; intros d A f O Cu Al Af E.
  - exists (c_dist A). split.
    + apply map_agree, (number_inj (p_base (c_params A))); auto; [apply O|lia].
    + cbn [steps]. rewrite <- Cu, conf_eta. exact O.
  - pose proof (valD_range _ _ cells (ok_base _ _ _ _ O) Af) as R. pose proof (valD_range _ _ cells (ok_base _ _ _ _ O) Al) as R'.
    destruct (number_surj (p_base (c_params A)) (number (p_base (c_params A)) (map (c_dist A) cells) + Z.of_nat n) cells)
      as (g & Ag & Ng); [apply O|exact Hnd|lia|].
    destruct (IH d A g O Cu Al Ag Ng) as (g' & Mg & Og).
    assert (Eg : map g' cells = map g cells) by (apply map_ext_in, Mg).
    exists f. split; [auto|]. cbn [steps].
    apply (ok_next phi cells Hnd Hlive Hsize _ _ f Og eq_refl); cbn [c_params c_dist]; auto.
    + intros c Hc. rewrite (Mg c Hc). auto.
    + rewrite Eg. lia.
Qed.
End Enumerate.
