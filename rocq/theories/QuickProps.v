(** C61, C62: the QuickExact simulation of the physically valid charge distributions.

    [phi] is the electrostatic potential between two positions. The theorems hold for every function [phi] with the three
    properties that the code ensures: an SiDB generates no potential at its own position, the potential between two
    positions is symmetric, and the potential of a positive charge is not negative. *)
From Coq Require Import ZArith QArith Qcanon Bool List Lia Permutation Sorting.Sorted.
From Verif Require Import CoordModel CoordProofs UtilModel SidbModel SidbSpec SidbProofs SidbProofs2 SidbProofs3 SidbProofs4
  SidbProofs5 SidbProofs6 SidbProofs7 SidbProofs8 SidbProofs10 SidbProofs11 SidbProofs12 SidbProofs13 SidbProps.
Import ListNotations.
Local Open Scope Z_scope.

Definition repulsive (phi : Qc -> Qc -> coord -> coord -> Qc) : Prop := forall e l a b, (0 <= phi e l a b)%Qc.
Lemma ex_phi_pos : repulsive ex_phi.
Proof.
  intros e l a b. unfold ex_phi. destruct (_ =? 0); [discriminate|].
  generalize (Z.to_pos (Z.abs (cx a - cx b) + Z.abs (cy a - cy b))) as m. intros m. unfold Qcle, Q2Qc, this. rewrite !Qred_correct. discriminate.
Qed.

(** The simulation is set up as documented: no local external potentials; the base number is determined automatically, or
    there is no global external potential, or there is more than one SiDB. *)
Record set_up (l : layout) (q : qe_params) : Prop := mkSetUp {
  su_cells : l_cells l <> [];
  su_base : p_base (qe_par q) = 2 \/ p_base (qe_par q) = 3;
  su_local : qe_local q = [];
  su_fresh : qe_auto q = true \/ qe_global q = 0%Qc \/ length (l_cells l) <> 1%nat
}.

(** No neutral SiDB is closer to one of its charge transition levels than the numerical tolerance. *)
Definition clearly_neutral phi p cells defects (ext : coord -> Qc) (f : distribution) : Prop :=
  forall a, In a cells -> f a = NEU ->
    (margin <= p_mu p - (potential phi p cells defects f a + ext a))%Qc /\ (margin <= - (mu_plus p - (potential phi p cells defects f a + ext a)))%Qc.

(** ** C61: every result of QuickExact is physically valid *)

Theorem C61_sound phi k l q : no_self phi -> symmetric phi -> repulsive phi -> proper_layout l -> small l -> set_up l q ->
  exists R, quickexact phi k l q = (R, false) /\
  forall r, In r R ->
    (forall c, In c (l_cells l) -> get_charge_state r c <> NON) /\
    physically_valid phi (qe_par q) (l_cells l) (l_defects l) (fun _ => qe_global q) (get_charge_state r).
Proof.
  intros Ps Sy Po P S [Ne B Lo Fr]. pose proof (sort_perm (k_ltb k) (l_cells l)) as Pm.
  pose proof (sorted_nodup k l (pl_cells _ P)) as N.
  destruct (quickexact_ok phi k Ps Sy Po l P S q B Lo Fr) as (R & R1 & G). destruct (G Ne) as (G1 & _). exists R. split; [exact R1|].
  intros r Hr. destruct (G1 r Hr) as (f & [C1 C2 C3] & _).
  assert (A : forall c, In c (l_cells l) -> f c = get_charge_state r c).
  { intros c Hc. symmetry. apply (charges_get _ _ _ _ N C1). apply (sorted_in k l c), Hc. }
  split; [intros c Hc; rewrite <- (A c Hc); apply C2, (sorted_in k l c), Hc|].
  apply (valid_agree phi Ps Sy) with (f := f); [exact A|].
  apply (validb_spec phi Ps Sy) in C3; [|exact N|exact C2|auto].
  revert C3. apply (valid_perm phi Ps Sy); [exact Pm|apply filter_field].
Qed.
Print Assumptions C61_sound.


(** A layout with a charged defect, three SiDBs and a global external potential. *)
Definition ex_qe : qe_params := mkQ ex_par true [] (Q2Qc (1 # 100)).
Example C61_nonvacuous : small ex_layout /\ set_up ex_layout ex_qe /\
  map (fun r => (map (get_charge_state r) (l_cells ex_layout), this (d_energy r))) (fst (quickexact ex_phi Cube ex_layout ex_qe)) =
  [([NEG; NEG; POS], (-557 # 700)%Q); ([NEG; POS; NEG], (-1871 # 2100)%Q)].
Proof.
  split; [vm_compute; discriminate|]. split; [|vm_compute; reflexivity]. split; [discriminate|right; reflexivity|reflexivity|left; reflexivity].
Qed.

Ltac concrete_layout :=
  split; [repeat first [apply NoDup_nil|apply NoDup_cons; [cbn; intuition discriminate|]]|repeat constructor|apply NoDup_nil|cbn; tauto].

(** Local external potentials: memory outside of a vector is accessed if a potential is assigned to an SiDB that is certainly
    negatively charged. *)
Definition far_layout : layout := mkL [ex_at 0 0; ex_at 100 0; ex_at 101 0] [].
Theorem C61_local_potential_refuted :
  exists phi k l q, no_self phi /\ symmetric phi /\ repulsive phi /\ proper_layout l /\ small l /\ l_cells l <> [] /\
  p_base (qe_par q) = 3 /\ qe_auto q = true /\ qe_global q = 0%Qc /\ Forall (fun ce => In (fst ce) (l_cells l)) (qe_local q) /\
  snd (quickexact phi k l q) = true.
Proof.
  exists ex_phi, Cube, far_layout, (mkQ ex_par true [(ex_at 0 0, Q2Qc (1 # 100))] 0%Qc).
  split; [apply ex_phi_self|split; [apply ex_phi_sym|split; [apply ex_phi_pos|split; [concrete_layout|split; [vm_compute; discriminate|]]]]].
  split; [discriminate|]. split; [reflexivity|]. split; [reflexivity|]. split; [reflexivity|]. split; [|vm_compute; reflexivity].
  constructor; [left; reflexivity|constructor].
Qed.
Print Assumptions C61_local_potential_refuted.

(** A single SiDB with a global external potential and without automatic detection of the base number: a distribution that is
    not valid is reported. *)
Theorem C61_single_refuted :
  exists phi k l q r, no_self phi /\ symmetric phi /\ repulsive phi /\ proper_layout l /\ small l /\ l_cells l <> [] /\
  p_base (qe_par q) = 3 /\ qe_local q = [] /\ In r (fst (quickexact phi k l q)) /\
  ~ physically_valid phi (qe_par q) (l_cells l) (l_defects l) (fun _ => qe_global q) (get_charge_state r).
Proof.
  set (l := mkL [ex_at 0 0] []). set (q := mkQ ex_par false [] (Q2Qc (-1 # 2))).
  exists ex_phi, Cube, l, q, (hd (new_surface ex_phi Cube l ex_par NEG) (fst (quickexact ex_phi Cube l q))).
  split; [apply ex_phi_self|split; [apply ex_phi_sym|split; [apply ex_phi_pos|split; [concrete_layout|split; [vm_compute; discriminate|]]]]].
  split; [discriminate|]. split; [reflexivity|]. split; [reflexivity|].
  assert (E : map (fun r => get_charge_state r (ex_at 0 0)) (fst (quickexact ex_phi Cube l q)) = [NEG; NEU]) by (vm_compute; reflexivity).
  destruct (fst (quickexact ex_phi Cube l q)) as [|r [|r' [|r'' R]]]; try discriminate E. cbn [hd]. injection E as E1 _. split; [left; reflexivity|].
  intros [V _]. specialize (V (ex_at 0 0) (or_introl eq_refl)). unfold population_stable, potential in V. cbn [l_cells l total fold_right] in V. rewrite E1 in V.
  apply qltb_spec in V. vm_compute in V. discriminate.
Qed.
Print Assumptions C61_single_refuted.

(** The energies of the results, except when the base number is not determined automatically, there is a global external
    potential and the result has negatively charged SiDBs only. Missing: that case, see [C61_energy_refuted], and defects with
    their own material parameters, see [C60_energy_refuted]. *)
Theorem C61_energy_partial phi k l q : no_self phi -> symmetric phi -> repulsive phi -> proper_layout l -> small l -> set_up l q ->
  Forall (fun cf => df_eps (snd cf) = p_eps (qe_par q) /\ df_lambda (snd cf) = p_lambda (qe_par q)) (l_defects l) ->
  forall r f, In r (fst (quickexact phi k l q)) -> holds (l_cells l) r f ->
  qe_auto q = true \/ qe_global q = 0%Qc \/ (exists c, In c (l_cells l) /\ f c <> NEG) ->
  d_valid r = true /\
  d_energy r =
  (energy phi (qe_par q) (l_cells l) (l_defects l) (fun _ => qe_global q) f +
   total_pairs (fun x y => coulomb phi (qe_par q) (fst x) (fst y) * qz (df_charge (snd x)) * qz (df_charge (snd y))) (l_defects l))%Qc.
Proof.
  intros Ps Sy Po P S [Ne B Lo Fr] M r f Hr Hf Cs. pose proof (sort_perm (k_ltb k) (l_cells l)) as Pm.
  pose proof (sorted_nodup k l (pl_cells _ P)) as N.
  destruct (quickexact_ok phi k Ps Sy Po l P S q B Lo Fr) as (R & R1 & G). destruct (G Ne) as (G1 & _). rewrite R1 in Hr. cbn [fst] in Hr.
  destruct (G1 r Hr) as (g & [C1 C2 C3] & St).
  assert (A : forall c, In c (l_cells l) -> g c = f c).
  { intros c Hc. apply (holds_agree (l_cells l) r); auto. apply (holds_perm _ _ _ _ Pm), (charges_holds _ _ _ N), C1. }
  destruct St as [S1 S2].
  { destruct Cs as [Cs|[Cs|(c & Hc & Cs)]]; [left; left; exact Cs|left; right; exact Cs|right]. exists c. split; [apply (sorted_in k l c), Hc|rewrite (A c Hc); exact Cs]. }
  split; [rewrite S1; exact C3|]. rewrite S2.
  rewrite (en_val_spec phi Ps Sy).
  - rewrite pairs_filter. unfold defect_pairs. f_equal.
    rewrite (energy_perm phi Ps Sy (qe_par q) _ (l_cells l) _ (l_defects l) (fun _ => qe_global q) g Pm (filter_field phi _)).
    apply (energy_agree phi Ps Sy), A.
  - pose proof (pl_defects _ P) as D. clear -D. induction (l_defects l) as [|x m IH]; [constructor|]. cbn [filter map] in *. apply NoDup_cons_iff in D. destruct D as [D1 D2].
    destruct (is_charged_defect (snd x)); [|apply IH, D2]. cbn [map]. constructor; [|apply IH, D2]. intros X. apply D1.
    apply in_map_iff in X. destruct X as (y & E & Hy). apply filter_In in Hy. rewrite <- E. apply in_map, Hy.
  - apply Forall_forall. intros x Hx. apply filter_In in Hx. rewrite Forall_forall in M. apply M, Hx.
Qed.
Print Assumptions C61_energy_partial.

(** Two SiDBs far apart, a global external potential and no automatic detection of the base number: the reported energy does
    not take the external potential into account. *)
Theorem C61_energy_refuted :
  exists phi k l q r f, no_self phi /\ symmetric phi /\ repulsive phi /\ proper_layout l /\ small l /\ set_up l q /\ l_defects l = [] /\
  In r (fst (quickexact phi k l q)) /\ holds (l_cells l) r f /\
  d_energy r <> energy phi (qe_par q) (l_cells l) (l_defects l) (fun _ => qe_global q) f.
Proof.
  set (l := mkL [ex_at 0 0; ex_at 100 0] []). set (q := mkQ ex_par false [] (Q2Qc (1 # 100))).
  exists ex_phi, Cube, l, q, (hd (new_surface ex_phi Cube l ex_par NEG) (fst (quickexact ex_phi Cube l q))), (fun _ => NEG).
  split; [apply ex_phi_self|split; [apply ex_phi_sym|split; [apply ex_phi_pos|split; [concrete_layout|split; [vm_compute; discriminate|]]]]].
  split; [split; [discriminate|right; reflexivity|reflexivity|right; right; discriminate]|]. split; [reflexivity|].
  assert (E : map (fun r => (get_charge_state r (ex_at 0 0), get_charge_state r (ex_at 100 0), Qc_eq_bool (d_energy r) (Q2Qc (1 # 100)))) (fst (quickexact ex_phi Cube l q)) = [(NEG, NEG, true)])
    by (vm_compute; reflexivity).
  destruct (fst (quickexact ex_phi Cube l q)) as [|r [|r' R]]; try discriminate E. cbn [hd]. injection E as E1 E2 E3. split; [left; reflexivity|].
  split; [intros c [<-|[<-|[]]]; assumption|]. apply Qc_eq_bool_correct in E3. rewrite E3. apply qc_neq. vm_compute. reflexivity.
Qed.
Print Assumptions C61_energy_refuted.

(** ** C62: QuickExact finds every physically valid charge distribution *)

(** Proved for distributions without neutral SiDBs within the numerical tolerance of a charge transition level. Missing:
    the other ones, see [C62_complete_refuted]. *)
Theorem C62_complete_partial phi k l q : no_self phi -> symmetric phi -> repulsive phi -> proper_layout l -> small l -> set_up l q ->
  let R := fst (quickexact phi k l q) in
  (forall f, (forall c, In c (l_cells l) -> allowed (p_base (qe_par q)) (f c)) ->
    physically_valid phi (qe_par q) (l_cells l) (l_defects l) (fun _ => qe_global q) f ->
    clearly_neutral phi (qe_par q) (l_cells l) (l_defects l) (fun _ => qe_global q) f ->
    exists r, In r R /\ holds (l_cells l) r f) /\
  (* no distribution is reported twice *)
  (forall i j, (i < j < length R)%nat ->
     exists c, In c (l_cells l) /\ get_charge_state (nth i R (new_surface phi k l (qe_par q) NEG)) c <> get_charge_state (nth j R (new_surface phi k l (qe_par q) NEG)) c).
Proof.
  intros Ps Sy Po P S [Ne B Lo Fr]. pose proof (sort_perm (k_ltb k) (l_cells l)) as Pm.
  pose proof (sorted_nodup k l (pl_cells _ P)) as N.
  assert (In' : forall c, In c (sort_cells (k_ltb k) (l_cells l)) <-> In c (l_cells l)) by (intros; apply sorted_in).
  destruct (quickexact_ok phi k Ps Sy Po l P S q B Lo Fr) as (R & R1 & G). destruct (G Ne) as (G1 & G2 & G3). rewrite R1. cbn [fst]. cbv zeta. split.
  - intros f Af Vf Cf. destruct (G2 f) as (r & Hr & Cr).
    + intros c Hc. apply Af, In', Hc.
    + intros a Ha Na. destruct (Cf a (proj1 (In' a) Ha) Na) as [H1 H2].
      rewrite (potential_perm phi (qe_par q) _ (l_cells l) _ (l_defects l) f a Pm (filter_field phi _)).
      split; [exact H1|]. clear -H2. set (x := (mu_plus (qe_par q) - _)%Qc) in *. clearbody x. qlin.
    + apply (validb_spec phi Ps Sy); [exact N|intros c Hc; apply (allowed_some (p_base (qe_par q))), Af, In', Hc|auto|].
      revert Vf. apply (valid_perm phi Ps Sy); [apply Permutation_sym, Pm|intros a; symmetry; apply filter_field].
    + exists r. split; [exact Hr|]. apply (holds_perm _ _ _ _ Pm), (charges_holds _ _ _ N), Cr.
  - intros i j Hij. set (z := new_surface phi k l (qe_par q) NEG). clearbody z.
    assert (Hi : In (nth i R z) R) by (apply nth_In; lia). assert (Hj : In (nth j R z) R) by (apply nth_In; lia).
    destruct (G1 _ Hi) as (g & [Cg _ _] & _). destruct (G1 _ Hj) as (h & [Ch _ _] & _).
    set (cells := sort_cells (k_ltb k) (l_cells l)) in *.
    assert (X : exists c, In c cells /\ g c <> h c).
    { assert (D : forall m : list coord, (exists c, In c m /\ g c <> h c) \/ map g m = map h m).
      { clear. induction m as [|x m IH]; [right; reflexivity|]. destruct IH as [(c & Hc & Q)|IH]; [left; exists c; split; [right; exact Hc|exact Q]|].
        assert (De : {g x = h x} + {g x <> h x}) by decide equality. destruct De as [De|De].
        - right. cbn. congruence.
        - left. exists x. split; [left; reflexivity|exact De]. }
      destruct (D cells) as [X|X]; [exact X|]. exfalso.
      rewrite <- (proj2 Cg), <- (proj2 Ch), <- !(map_nth d_charge) in X.
      apply (proj1 (NoDup_nth (map d_charge R) (d_charge z)) G3 i j) in X; rewrite ?map_length; lia. }
    destruct X as (c & Hc & Q). exists c. split; [apply In', Hc|].
    rewrite (charges_get _ _ _ _ N Cg Hc), (charges_get _ _ _ _ N Ch Hc). exact Q.
Qed.
Print Assumptions C62_complete_partial.

Example C62_nonvacuous : set_up ex_layout ex_qe /\
  physically_valid ex_phi ex_par (l_cells ex_layout) (l_defects ex_layout) (fun _ => qe_global ex_qe)
    (fun c => if coord_eqb c (ex_at 1 0) then POS else NEG) /\
  clearly_neutral ex_phi ex_par (l_cells ex_layout) (l_defects ex_layout) (fun _ => qe_global ex_qe)
    (fun c => if coord_eqb c (ex_at 1 0) then POS else NEG).
Proof.
  split; [apply C61_nonvacuous|]. split.
  - apply (validb_spec ex_phi ex_phi_self ex_phi_sym).
    + apply (pl_cells _ ex_proper).
    + intros c _. destruct (coord_eqb _ _); discriminate.
    + reflexivity.
    + vm_compute. reflexivity.
  - intros a _. destruct (coord_eqb _ _); discriminate.
Qed.
(** The same for a distribution with neutral SiDBs: the three SiDBs of an angle. *)
Definition angle_layout : layout := mkL [ex_at 0 0; ex_at 2 0; ex_at 0 2] [].
Example C62_nonvacuous_neutral : set_up angle_layout (mkQ ex_par true [] 0%Qc) /\
  physically_valid ex_phi ex_par (l_cells angle_layout) (l_defects angle_layout) (fun _ => 0%Qc) (fun c => if coord_eqb c (ex_at 0 0) then NEG else NEU) /\
  clearly_neutral ex_phi ex_par (l_cells angle_layout) (l_defects angle_layout) (fun _ => 0%Qc) (fun c => if coord_eqb c (ex_at 0 0) then NEG else NEU).
Proof.
  split; [split; [discriminate|right; reflexivity|reflexivity|left; reflexivity]|]. split.
  - apply (validb_spec ex_phi ex_phi_self ex_phi_sym).
    + cbn [l_cells angle_layout]. repeat first [apply NoDup_nil|apply NoDup_cons; [cbn; intuition discriminate|]].
    + intros c _. destruct (coord_eqb _ _); discriminate.
    + reflexivity.
    + vm_compute. reflexivity.
  - intros a [<-|[<-|[<-|[]]]]; intros Na; try discriminate Na; split; apply qltb_false; vm_compute; reflexivity.
Qed.

(** A neutral SiDB within the tolerance: a physically valid distribution (that the exhaustive simulation reports) is missing. *)
Definition pair_layout : layout := mkL [ex_at 0 0; ex_at 2 0] [].
Definition pair_par : params := mkP 3 (Q2Qc (-1 # 2)) (Q2Qc (56 # 10)) (Q2Qc 5).
Theorem C62_complete_refuted :
  exists phi k l q f, no_self phi /\ symmetric phi /\ repulsive phi /\ proper_layout l /\ small l /\ set_up l q /\
  (forall c, In c (l_cells l) -> allowed (p_base (qe_par q)) (f c)) /\
  physically_valid phi (qe_par q) (l_cells l) (l_defects l) (fun _ => qe_global q) f /\
  ~ exists r, In r (fst (quickexact phi k l q)) /\ holds (l_cells l) r f.
Proof.
  set (q := mkQ pair_par true [] 0%Qc). exists ex_phi, Cube, pair_layout, q, (fun c => if coord_eqb c (ex_at 0 0) then NEU else NEG).
  split; [apply ex_phi_self|split; [apply ex_phi_sym|split; [apply ex_phi_pos|split; [concrete_layout|split; [vm_compute; discriminate|]]]]].
  split; [split; [discriminate|right; reflexivity|reflexivity|left; reflexivity]|]. split; [|split].
  - intros c _. destruct (coord_eqb _ _); exact I.
  - apply (validb_spec ex_phi ex_phi_self ex_phi_sym).
    + cbn [l_cells pair_layout]. repeat first [apply NoDup_nil|apply NoDup_cons; [cbn; intuition discriminate|]].
    + intros c _. destruct (coord_eqb _ _); discriminate.
    + reflexivity.
    + vm_compute. reflexivity.
  - intros (r & Hr & Hf). apply (in_map (fun r => get_charge_state r (ex_at 0 0))) in Hr.
    rewrite (Hf (ex_at 0 0)) in Hr by (left; reflexivity).
    assert (E : map (fun r => get_charge_state r (ex_at 0 0)) (fst (quickexact ex_phi Cube pair_layout q)) = [NEG; NEG]) by (vm_compute; reflexivity).
    rewrite E in Hr. clear E Hf. destruct Hr as [Hr|[Hr|[]]]; discriminate Hr.
Qed.
Print Assumptions C62_complete_refuted.

(** The base number 2 and automatic detection of the base number: positively charged SiDBs are possible, and the distribution
    with the lowest energy has one, but no result with a positively charged SiDB is reported. *)
Theorem C62_detection_refuted :
  exists phi k l q f, no_self phi /\ symmetric phi /\ repulsive phi /\ proper_layout l /\ small l /\ set_up l q /\ qe_auto q = true /\
  (forall c, In c (l_cells l) -> f c <> NON) /\
  physically_valid phi (qe_par q) (l_cells l) (l_defects l) (fun _ => qe_global q) f /\
  clearly_neutral phi (qe_par q) (l_cells l) (l_defects l) (fun _ => qe_global q) f /\
  forall r, In r (fst (quickexact phi k l q)) ->
    ~ holds (l_cells l) r f /\
    (energy phi (qe_par q) (l_cells l) (l_defects l) (fun _ => qe_global q) f < energy phi (qe_par q) (l_cells l) (l_defects l) (fun _ => qe_global q) (get_charge_state r))%Qc.
Proof.
  set (p := mkP 2 (Q2Qc (-1 # 4)) (Q2Qc (56 # 10)) (Q2Qc 5)). set (q := mkQ p true [] 0%Qc).
  exists ex_phi, Cube, angle_layout, q, (fun c => if coord_eqb c (ex_at 0 0) then POS else NEG).
  split; [apply ex_phi_self|split; [apply ex_phi_sym|split; [apply ex_phi_pos|split; [concrete_layout|split; [vm_compute; discriminate|]]]]].
  split; [split; [discriminate|left; reflexivity|reflexivity|left; reflexivity]|]. split; [reflexivity|]. split; [|split; [|split]].
  - intros c _. destruct (coord_eqb _ _); discriminate.
  - apply (validb_spec ex_phi ex_phi_self ex_phi_sym).
    + cbn [l_cells angle_layout]. repeat first [apply NoDup_nil|apply NoDup_cons; [cbn; intuition discriminate|]].
    + intros c _. destruct (coord_eqb _ _); discriminate.
    + reflexivity.
    + vm_compute. reflexivity.
  - intros a _. destruct (coord_eqb _ _); discriminate.
  - intros r Hr.
    assert (E : map (fun r => (get_charge_state r (ex_at 0 0), get_charge_state r (ex_at 2 0), get_charge_state r (ex_at 0 2))) (fst (quickexact ex_phi Cube angle_layout q)) =
      [(NEU, NEG, NEU); (NEU, NEU, NEG); (NEG, NEU, NEU)]) by (vm_compute; reflexivity).
    apply (in_map (fun r => (get_charge_state r (ex_at 0 0), get_charge_state r (ex_at 2 0), get_charge_state r (ex_at 0 2)))) in Hr. rewrite E in Hr. clear E. split.
    + intros H. specialize (H (ex_at 0 0) (or_introl eq_refl)). change (coord_eqb (ex_at 0 0) (ex_at 0 0)) with true in H. cbn iota in H.
      destruct Hr as [Hr|[Hr|[Hr|[]]]]; injection Hr as Hr _ _; rewrite H in Hr; discriminate Hr.
    + unfold energy. cbn [l_cells angle_layout total_pairs total fold_right].
      destruct Hr as [Hr|[Hr|[Hr|[]]]]; injection Hr as <- <- <-; apply qltb_spec; vm_compute; reflexivity.
Qed.
Print Assumptions C62_detection_refuted.
