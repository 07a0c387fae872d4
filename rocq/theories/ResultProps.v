(** C63-C66: what the results of simulations of SiDB layouts say about ground states, energies and positively charged SiDBs.

    The results are lists of charge distribution surfaces; [surfaces cells b R] (ResultSpec.v) holds for the results of every
    simulation with the base number [b]. *)
From Coq Require Import ZArith QArith Qcanon Bool List Lia Permutation Sorting.Sorted.
From Verif Require Import CoordModel CoordProofs UtilModel SidbModel SidbSpec SidbProofs SidbProofs2 SidbProofs3 SidbProofs4
  SidbProofs5 SidbProofs6 SidbProps QuickProps ResultModel ResultSpec ResultProofs.
Import ListNotations.
Local Open Scope Z_scope.

(** The results of the exhaustive simulation. *)
Lemma exgs_surfaces phi k l p R : proper_layout l -> small l -> l_cells l <> [] -> p_base p = 2 \/ p_base p = 3 -> exgs phi k l p = (R, false) ->
  surfaces (ordered k l) (p_base p) R /\ numbered (ordered k l) (p_base p) R.
Proof.
  intros P S Ne B E. destruct (exgs_ok phi k l p P B S Ne) as (R' & R1 & R2 & _ & _). rewrite E in R1. injection R1 as <-.
  pose proof (sorted_nodup k l (pl_cells _ P)) as N. fold (ordered k l) in *.
  assert (G : forall r, In r R -> exists g, charges (ordered k l) r g /\ (forall c, In c (ordered k l) -> allowed (p_base p) (g c)) /\ d_par r = p /\ d_idx r = number (p_base p) (map g (ordered k l))).
  { intros r Hr. destruct (R2 r Hr) as (g & (O & _ & _ & Ag) & _). exists g. split; [apply (ok_charges _ _ _ _ O)|]. split; [exact Ag|]. split; [exact (ok_par _ _ _ _ O)|].
    apply (ok_idx _ _ _ _ O eq_refl). }
  split.
  - intros r Hr. destruct (G r Hr) as (g & C & A & Pr & _). split; [apply C|]. split; [rewrite (proj2 C), map_length; reflexivity|]. split; [rewrite Pr; reflexivity|].
    intros c Hc. rewrite (charges_get _ _ _ _ N C Hc). apply A, Hc.
  - intros r Hr. destruct (G r Hr) as (g & C & _ & _ & I). rewrite I. f_equal. apply map_ext_in. intros c Hc. symmetry. apply (charges_get _ _ _ _ N C Hc).
Qed.

(** ** C63: ground states *)

Theorem C63_groundstates cells b R : NoDup cells -> b = 2 \/ b = 3 -> surfaces cells b R ->
  represents cells R (fun r => lowest R (d_energy r)) (groundstates R).
Proof.
  intros N B S. destruct (groundstates_ok cells N b B R S) as (G1 & G2 & _ & G4). split; [exact G4|]. split; [|exact G2].
  intros g Hg. destruct (G1 g Hg) as (r & Hr & -> & L). exists r. split; [exact Hr|]. split; [exact L|]. intros c _. reflexivity.
Qed.
Print Assumptions C63_groundstates.

(** The ground states of the exhaustive simulation are the physically valid distributions with the least energy. Missing:
    defects with their own material parameters, see [C60_energy_refuted]. *)
Theorem C63_exhaustive_partial phi k l p : no_self phi -> symmetric phi -> proper_layout l -> small l -> l_cells l <> [] ->
  p_base p = 2 \/ p_base p = 3 ->
  Forall (fun cf => df_eps (snd cf) = p_eps p /\ df_lambda (snd cf) = p_lambda p) (l_defects l) ->
  let valid := fun f => (forall c, In c (l_cells l) -> allowed (p_base p) (f c)) /\ physically_valid phi p (l_cells l) (l_defects l) (fun _ => 0%Qc) f in
  let E := energy phi p (l_cells l) (l_defects l) (fun _ => 0%Qc) in
  let G := groundstates (fst (exgs phi k l p)) in
  (forall f, (exists g, In g G /\ holds (l_cells l) g f) <-> valid f /\ forall h, valid h -> (E f < E h + margin)%Qc) /\
  (forall i j d, (i < j < length G)%nat -> exists c, In c (l_cells l) /\ get_charge_state (nth i G d) c <> get_charge_state (nth j G d) c).
Proof.
  intros Ps Sy P S Ne B M. cbv zeta. pose proof (C60_exhaustive_energy_partial phi k l p Ps Sy P S Ne B M) as En.
  destruct (C57_exhaustive phi k l p Ps Sy P S Ne B) as (R & ER & V & A & _). destruct (exgs_surfaces phi k l p R P S Ne B ER) as [Su _].
  rewrite ER in *. cbn [fst] in *. pose proof (sorted_nodup k l (pl_cells _ P)) as N. fold (ordered k l) in N.
  destruct (C63_groundstates (ordered k l) (p_base p) R N B Su) as (G1 & G2 & G3).
  assert (In' : forall c, In c (ordered k l) <-> In c (l_cells l)) by (intros c; apply sorted_in).
  set (D := total_pairs _ (l_defects l)) in En. set (E := energy phi p (l_cells l) (l_defects l) (fun _ => 0%Qc)) in *.
  assert (Low : forall r f, In r R -> holds (l_cells l) r f -> (lowest R (d_energy r) <->
    forall h, (forall c, In c (l_cells l) -> allowed (p_base p) (h c)) /\ physically_valid phi p (l_cells l) (l_defects l) (fun _ => 0%Qc) h -> (E f < E h + margin)%Qc)).
  { intros r f Hr Hf. rewrite (En r f Hr Hf). split.
    - intros L h [Ah Vh]. apply (V h Ah) in Vh. destruct Vh as (s & Hs & Hh). specialize (L s Hs). rewrite (En s h Hs Hh) in L.
      set (x := E f) in *. set (y := E h) in *. set (m := margin) in *. clearbody x y m D. clear -L. qlin.
    - intros L s Hs. assert (Hh : holds (l_cells l) s (get_charge_state s)) by (intros c _; reflexivity). rewrite (En s _ Hs Hh).
      assert (Vs : (forall c, In c (l_cells l) -> allowed (p_base p) (get_charge_state s c)) /\ physically_valid phi p (l_cells l) (l_defects l) (fun _ => 0%Qc) (get_charge_state s)).
      { split; [exact (A s Hs)|]. apply (V _ (A s Hs)). exists s. split; [exact Hs|exact Hh]. }
      specialize (L _ Vs). set (x := E f) in *. set (y := E (get_charge_state s)) in *. set (m := margin) in *. clearbody x y m D. clear -L. qlin. }
  split.
  - intros f. split.
    + intros (g & Hg & Hf). destruct (G2 g Hg) as (r & Hr & Lr & Sr).
      assert (Hrf : holds (l_cells l) r f). { intros c Hc. rewrite <- (Hf c Hc). symmetry. apply Sr, In', Hc. }
      assert (Af : forall c, In c (l_cells l) -> allowed (p_base p) (f c)) by (intros c Hc; rewrite <- (Hrf c Hc); apply (A r Hr c Hc)).
      split; [split; [exact Af|apply (V f Af); exists r; auto]|]. apply (Low r f Hr Hrf), Lr.
    + intros ([Af Vf] & L). apply (V f Af) in Vf. destruct Vf as (r & Hr & Hf). apply (Low r f Hr Hf) in L. destruct (G3 r Hr L) as (g & Hg & Sg). exists g. split; [exact Hg|].
      intros c Hc. rewrite <- (Hf c Hc). apply Sg, In', Hc.
  - intros i j d Hij. specialize (G1 i j d Hij). set (x := nth i (groundstates R) d) in *. set (y := nth j (groundstates R) d) in *. clearbody x y.
    assert (De : forall m : list coord, (exists c, In c m /\ get_charge_state x c <> get_charge_state y c) \/ (forall c, In c m -> get_charge_state x c = get_charge_state y c)).
    { clear. induction m as [|c m [(c' & Hc & Q)|IH]]; [right; intros c []|left; exists c'; split; [right; exact Hc|exact Q]|].
      assert (Dc : {get_charge_state x c = get_charge_state y c} + {get_charge_state x c <> get_charge_state y c}) by decide equality. destruct Dc as [Dc|Dc].
      - right. intros c' [<-|Hc]; auto.
      - left. exists c. split; [left; reflexivity|exact Dc]. }
    destruct (De (ordered k l)) as [(c & Hc & Q)|X]; [exists c; split; [apply In', Hc|exact Q]|contradiction].
Qed.
Print Assumptions C63_exhaustive_partial.

Example C63_nonvacuous : surfaces (ordered Cube ex_layout) 3 (fst (exgs ex_phi Cube ex_layout ex_par)) /\
  map (fun r => map (get_charge_state r) (l_cells ex_layout)) (groundstates (fst (exgs ex_phi Cube ex_layout ex_par))) = [[NEG; POS; NEG]].
Proof.
  split; [|vm_compute; reflexivity].
  destruct (exgs ex_phi Cube ex_layout ex_par) as [R u] eqn:E. assert (u = false). { change u with (snd (R, u)). rewrite <- E. vm_compute. reflexivity. }
  subst u. apply (exgs_surfaces ex_phi Cube ex_layout ex_par R ex_proper); [vm_compute; discriminate|discriminate|right; reflexivity|exact E].
Qed.

(** Whether a heuristic has found the ground states of an exact simulation. Missing: results with different base numbers, see
    [C63_comparison_refuted]. *)
Theorem C63_comparison_partial cells b H E : NoDup cells -> b = 2 \/ b = 3 -> surfaces cells b H -> surfaces cells b E ->
  is_ground_state H E = true <-> E <> [] /\
  within cells E (fun r => lowest E (d_energy r)) H (fun r => lowest H (d_energy r)) /\
  within cells H (fun r => lowest H (d_energy r)) E (fun r => lowest E (d_energy r)).
Proof. intros N B SH SE. apply (is_ground_state_ok cells N b B); assumption. Qed.
Print Assumptions C63_comparison_partial.

(** QuickExact determines that two charge states suffice for two SiDBs. Its result is the same as that of the exhaustive
    simulation, but the comparison of the ground states fails. *)
Definition facing_layout : layout := mkL [ex_at 0 0; ex_at 2 0] [].
Theorem C63_comparison_refuted :
  exists phi l p, no_self phi /\ symmetric phi /\ repulsive phi /\ proper_layout l /\ small l /\
  let H := fst (quickexact phi Cube l (mkQ p true [] 0%Qc)) in let E := fst (exgs phi Cube l p) in
  E <> [] /\ map (fun r => map (get_charge_state r) (l_cells l)) H = map (fun r => map (get_charge_state r) (l_cells l)) E /\
  map (fun r => this (d_energy r)) H = map (fun r => this (d_energy r)) E /\
  is_ground_state E E = true /\ is_ground_state H E = false.
Proof.
  exists ex_phi, facing_layout, ex_par.
  split; [apply ex_phi_self|split; [apply ex_phi_sym|split; [apply ex_phi_pos|split; [concrete_layout|split; [vm_compute; discriminate|]]]]].
  cbv zeta. split; [|split; [vm_compute; reflexivity|split; [vm_compute; reflexivity|split; vm_compute; reflexivity]]].
  intros X. apply (f_equal (@length cds)) in X. vm_compute in X. discriminate X.
Qed.
Print Assumptions C63_comparison_refuted.

(** ** C64: the energy distribution *)

(** Each entry of the energy distribution is the energy of a result together with the number of distinct distributions with
    that energy; the energies of all results are there, in increasing order. The hypothesis says that equal distributions of
    the result have the same energy. *)
Theorem C64_distribution cells b R : NoDup cells -> b = 2 \/ b = 3 -> surfaces cells b R ->
  (forall r s, In r R -> In s R -> same cells r s -> d_energy r = d_energy s) ->
  let D := calculate_energy_distribution R in
  (forall e n, In (e, n) D -> (exists r, In r R /\ d_energy r = e) /\
     exists U, represents cells R (fun r => about (d_energy r) e) U /\ n = Z.of_nat (length U)) /\
  (forall r, In r R -> exists e n, In (e, n) D /\ about (d_energy r) e) /\
  StronglySorted (fun x y => (fst x + margin <= fst y)%Qc) D.
Proof. intros N B S Co. apply (distribution_ok cells N b B R S Co). Qed.
Print Assumptions C64_distribution.

(** The numbers of states add up to the number of distinct distributions. Proved if different energies differ by the numerical
    tolerance at least. Missing: other energies, see [C64_total_refuted]. *)
Theorem C64_total_partial cells b R : NoDup cells -> b = 2 \/ b = 3 -> surfaces cells b R ->
  (forall r s, In r R -> In s R -> same cells r s -> d_energy r = d_energy s) ->
  (forall r s, In r R -> In s R -> about (d_energy r) (d_energy s) -> d_energy r = d_energy s) ->
  exists U, represents cells R (fun _ => True) U /\ fold_right Z.add 0 (map snd (calculate_energy_distribution R)) = Z.of_nat (length U).
Proof. intros N B S Co Se. apply (distribution_total cells N b B R S Co Se). Qed.
Print Assumptions C64_total_partial.

(** The n-th state. *)
Theorem C64_nth_state R n e m : get_nth_state (calculate_energy_distribution R) n = Some (e, m) <->
  exists pre post, calculate_energy_distribution R = pre ++ (e, m) :: post /\ length pre = n.
Proof.
  unfold get_nth_state. split.
  - intros H. apply nth_error_split in H. destruct H as (pre & post & H1 & H2). exists pre, post. auto.
  - intros (pre & post & -> & <-). rewrite nth_error_app2, Nat.sub_diag by lia. reflexivity.
Qed.
Print Assumptions C64_nth_state.

Example C64_nonvacuous :
  map (fun x => (this (fst x), snd x)) (calculate_energy_distribution (fst (exgs ex_phi Cube ex_layout ex_par))) = [((-37 # 42)%Q, 1); ((-11 # 14)%Q, 1)] /\
  map (fun x => (this (fst x), snd x)) (calculate_energy_distribution (fst (exgs ex_phi Cube facing_layout ex_par))) = [(0%Q, 2)].
Proof. split; vm_compute; reflexivity. Qed.

(** The number of states that [degeneracy] returns for an energy is not the number of states with that energy: it is the
    position of the energy in the distribution. *)
Theorem C64_degeneracy_refuted :
  exists phi l p e, no_self phi /\ symmetric phi /\ proper_layout l /\ small l /\
  let D := calculate_energy_distribution (fst (exgs phi Cube l p)) in D = [(e, 2)] /\ degeneracy D e = Some 0.
Proof.
  exists ex_phi, facing_layout, ex_par, 0%Qc. split; [apply ex_phi_self|split; [apply ex_phi_sym|split; [concrete_layout|split; [vm_compute; discriminate|]]]]. cbv zeta.
  set (D := calculate_energy_distribution (fst (exgs ex_phi Cube facing_layout ex_par))).
  assert (E : map (fun x => (this (fst x), snd x)) D = [(0%Q, 2)]) by (vm_compute; reflexivity). clearbody D.
  destruct D as [|[e n] [|y r]]; try discriminate E. injection E as E1 E2. subst n.
  assert (e = 0%Qc) by (apply Qc_is_canon; rewrite E1; reflexivity). subst e. split; [reflexivity|]. vm_compute. reflexivity.
Qed.
Print Assumptions C64_degeneracy_refuted.

(** Three distributions whose energies differ by less than the tolerance from one to the next: the second is counted twice. *)
Definition close_par : params := mkP 3 (Q2Qc (-1 # 4)) (Q2Qc (56 # 10)) (Q2Qc 5).
Definition close_result : list cds :=
  let l := mkL [ex_at 0 0] [] in
  let d s e := set_energy (new_surface ex_phi Cube l close_par s) (Q2Qc e) in
  [d NEG 0%Q; d NEU (18 # 10000000)%Q; d POS (9 # 10000000)%Q].
Theorem C64_total_refuted :
  exists cells R, NoDup cells /\ surfaces cells 3 R /\ (forall r s, In r R -> In s R -> same cells r s -> d_energy r = d_energy s) /\
  length R = 3%nat /\ fold_right Z.add 0 (map snd (calculate_energy_distribution R)) = 4.
Proof.
  exists [ex_at 0 0], close_result. split; [apply NoDup_cons; [intros []|apply NoDup_nil]|].
  assert (Q : map (fun r => get_charge_state r (ex_at 0 0)) close_result = [NEG; NEU; POS]) by (vm_compute; reflexivity).
  split; [|split; [|split; [reflexivity|vm_compute; reflexivity]]].
  - intros r Hr. assert (X : exists s e, s <> NON /\ r = set_energy (new_surface ex_phi Cube (mkL [ex_at 0 0] []) close_par s) e).
    { destruct Hr as [<-|[<-|[<-|[]]]]; [exists NEG|exists NEU|exists POS]; eexists; (split; [discriminate|reflexivity]). }
    destruct X as (s & e & Ns & ->). destruct s; try contradiction; (split; [vm_compute; reflexivity|split; [vm_compute; reflexivity|split; [vm_compute; reflexivity|]]]);
      intros c [<-|[]]; vm_compute; auto.
  - intros r s Hr Hs Sa. specialize (Sa (ex_at 0 0) (or_introl eq_refl)). destruct Hr as [<-|[<-|[<-|[]]]], Hs as [<-|[<-|[<-|[]]]]; try reflexivity; exfalso; vm_compute in Sa; discriminate Sa.
Qed.
Print Assumptions C64_total_refuted.

(** ** C65: equivalence of two results *)

Theorem C65_equivalence cells b1 b2 R1 R2 : NoDup cells -> b1 = 2 \/ b1 = 3 -> b2 = 2 \/ b2 = 3 ->
  surfaces cells b1 R1 -> surfaces cells b2 R2 -> numbered cells b1 R1 -> numbered cells b2 R2 ->
  check_equivalence R1 R2 = true <->
  distinct cells R1 /\ distinct cells R2 /\
  (forall r, In r R1 -> exists s, In s R2 /\ same cells r s /\ similar r s) /\ (forall s, In s R2 -> exists r, In r R1 /\ same cells r s).
Proof. intros N B1 B2 S1 S2 U1 U2. apply (check_equivalence_ok cells b1 b2); assumption. Qed.
Print Assumptions C65_equivalence.

(** The result of the exhaustive simulation does not depend on the base number, nor on the order in which the SiDBs have been
    placed, unless some SiDB is positively charged. *)
Example C65_nonvacuous : let R1 := fst (exgs ex_phi Cube facing_layout ex_par) in
  let R2 := fst (exgs ex_phi Cube (mkL (rev (l_cells facing_layout)) []) (with_base ex_par 2)) in
  numbered (ordered Cube facing_layout) 3 R1 /\ numbered (ordered Cube facing_layout) 2 R2 /\ length R1 = 2%nat /\ check_equivalence R1 R2 = true.
Proof.
  cbv zeta. split; [|split; [|split; vm_compute; reflexivity]].
  - destruct (exgs ex_phi Cube facing_layout ex_par) as [R u] eqn:E. assert (u = false). { change u with (snd (R, u)). rewrite <- E. vm_compute. reflexivity. }
    subst u. apply (exgs_surfaces ex_phi Cube facing_layout ex_par R); [concrete_layout|vm_compute; discriminate|discriminate|right; reflexivity|exact E].
  - set (l := mkL (rev (l_cells facing_layout)) []). destruct (exgs ex_phi Cube l (with_base ex_par 2)) as [R u] eqn:E. assert (u = false). { change u with (snd (R, u)). rewrite <- E. vm_compute. reflexivity. }
    subst u. apply (exgs_surfaces ex_phi Cube l (with_base ex_par 2) R); [concrete_layout|vm_compute; discriminate|discriminate|left; reflexivity|exact E].
Qed.

(** ** C66: positively charged SiDBs *)

Theorem C66_no_positive phi k l p : repulsive phi -> proper_layout l -> can_positive_charges_occur phi k l p = false ->
  forall f, physically_valid phi p (l_cells l) (l_defects l) (fun _ => 0%Qc) f -> forall c, In c (l_cells l) -> f c <> POS.
Proof. intros Po P C f [V _] c Hc. exact (no_positive phi Po k l p P C f V c Hc). Qed.
Print Assumptions C66_no_positive.

(** The exhaustive simulation with two charge states then misses nothing. *)
Theorem C66_two_states phi k l p : no_self phi -> symmetric phi -> repulsive phi -> proper_layout l -> small l -> l_cells l <> [] -> p_base p = 3 ->
  can_positive_charges_occur phi k l p = false ->
  forall f, (exists r, In r (fst (exgs phi k l p)) /\ holds (l_cells l) r f) <-> (exists r, In r (fst (exgs phi k l (with_base p 2))) /\ holds (l_cells l) r f).
Proof.
  intros Ps Sy Po P S Ne B C f.
  destruct (C57_exhaustive phi k l p Ps Sy P S Ne (or_intror B)) as (R & ER & V & A & _).
  destruct (C57_exhaustive phi k l (with_base p 2) Ps Sy P S Ne (or_introl eq_refl)) as (R' & ER' & V' & A' & _). rewrite ER, ER'. cbn [fst]. clear ER ER'.
  assert (Same : physically_valid phi (with_base p 2) (l_cells l) (l_defects l) (fun _ => 0%Qc) f <-> physically_valid phi p (l_cells l) (l_defects l) (fun _ => 0%Qc) f) by (destruct p; reflexivity).
  rewrite B in *. change (p_base (with_base p 2)) with 2 in *. split.
  - intros (r & Hr & Hf). assert (Af : forall c, In c (l_cells l) -> allowed 3 (f c)) by (intros c Hc; rewrite <- (Hf c Hc); apply (A r Hr c Hc)).
    assert (Vf : physically_valid phi p (l_cells l) (l_defects l) (fun _ => 0%Qc) f) by (apply (V f Af); exists r; auto).
    apply (V' f); [|apply Same, Vf]. intros c Hc. specialize (Af c Hc). pose proof (C66_no_positive phi k l p Po P C f Vf c Hc). destruct (f c); try contradiction; exact I.
  - intros (r & Hr & Hf). assert (Af : forall c, In c (l_cells l) -> allowed 2 (f c)) by (intros c Hc; rewrite <- (Hf c Hc); apply (A' r Hr c Hc)).
    apply (V f); [|apply Same, (V' f Af); exists r; auto]. intros c Hc. specialize (Af c Hc). destruct (f c); cbn in *; auto; discriminate.
Qed.
Print Assumptions C66_two_states.

Example C66_nonvacuous : proper_layout facing_layout /\ can_positive_charges_occur ex_phi Cube facing_layout ex_par = false /\
  can_positive_charges_occur ex_phi Cube ex_layout ex_par = true.
Proof. split; [concrete_layout|split; vm_compute; reflexivity]. Qed.
