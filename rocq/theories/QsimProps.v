(** C96: the charge distributions that QuickSim finds.

    [phi] is the electrostatic potential between two positions and [dist] their distance. The theorems hold for all random
    numbers [rnd], for all points in time [late] at which the threads find the time limit reached, and for every order in
    which the threads append what they have found. *)
From Coq Require Import ZArith QArith Qcanon Bool List Lia Permutation.
From Verif Require Import CoordModel CoordProofs UtilModel SidbModel SidbSpec SidbProofs SidbProofs2 SidbProofs3 SidbProofs4
  SidbProofs5 SidbProofs6 SidbProps QuickProps QsimModel QsimSpec QsimProofs QsimProofs2 QsimProofs3.
Import ListNotations.
Local Open Scope Z_scope.

(** The base number is of no account for the physics. *)
Lemma valid_base phi p b cells m ext f : physically_valid phi (with_base p b) cells m ext f <-> physically_valid phi p cells m ext f.
Proof. destruct p; reflexivity. Qed.
Lemma energy_base phi p b cells m ext f : energy phi (with_base p b) cells m ext f = energy phi p cells m ext f.
Proof. destruct p; reflexivity. Qed.

(** ** C96: every result of QuickSim is physically valid, and none is out of its reach *)

Theorem C96_sound phi k dist l p steps threads alpha rnd late : no_self phi -> symmetric phi -> proper_layout l -> small l -> l_defects l = [] ->
  quicksim phi k dist l p steps threads alpha rnd late <> Undefined /\
  forall res, returns (quicksim phi k dist l p steps threads alpha rnd late) res -> forall d, In d res ->
  exists f, holds (l_cells l) d f /\
    (forall c, In c (l_cells l) -> f c = NEG \/ f c = NEU) /\
    physically_valid phi p (l_cells l) [] (fun _ => 0%Qc) f /\
    d_valid d = true /\
    d_energy d = energy phi p (l_cells l) [] (fun _ => 0%Qc) f /\
    d_base d = 2 /\ d_idx d = number 2 (map f (ordered k l)).
Proof.
  intros Ps Sy P _ D. destruct (quicksim_sound phi k dist Ps Sy l P D p steps threads alpha rnd late) as [H1 H2].
  split; [exact H1|]. intros res Hr d Hd. destruct (H2 res Hr d Hd) as (f & O & F & V & Vb & I & B). exists f.
  pose proof (sort_perm (k_ltb k) (l_cells l)) as Pm. pose proof (sorted_nodup k l (pl_cells _ P)) as N.
  split; [exact (holds_perm _ _ _ _ Pm (charges_holds _ _ _ N (qk_charges _ _ _ _ _ O)))|].
  assert (Two : forall c, In c (sort_cells (k_ltb k) (l_cells l)) -> f c <> NON).
  { intros c Hc. destruct (qk_two _ _ _ _ _ O c Hc) as [-> | ->]; discriminate. }
  split; [intros c Hc; exact (qk_two _ _ _ _ _ O c (Permutation_in _ (Permutation_sym Pm) Hc))|].
  split; [|split; [exact V|split; [|split; [exact B|exact I]]]].
  - unfold vb, no_def in Vb. apply (validb_spec phi Ps Sy) in Vb; [|exact N|exact Two|reflexivity].
    apply (valid_base phi p 2). exact (valid_perm phi Ps Sy _ _ _ [] [] _ f Pm (fun _ => eq_refl) Vb).
  - rewrite (qf_energy _ _ _ _ _ F). unfold en. rewrite (energy_perm phi Ps Sy _ _ (l_cells l) [] [] no_ext f Pm (fun _ => eq_refl)).
    apply energy_base.
Qed.
Print Assumptions C96_sound.

(** Without a demand on the distance to the SiDBs that are negatively charged already (alpha is 0) and without a time limit,
    every physically valid distribution of negative and neutral charges is found if the random numbers are right. *)
Theorem C96_reach phi k dist l p steps threads alpha late f : no_self phi -> symmetric phi -> repulsive phi -> (forall a b, 0 <= dist a b)%Qc ->
  proper_layout l -> small l -> l_defects l = [] -> l_cells l <> [] -> steps <> 0%nat -> (alpha <= 0)%Qc -> (forall z n j, late z n j = false) ->
  (forall c, In c (l_cells l) -> f c = NEG \/ f c = NEU) -> physically_valid phi p (l_cells l) [] (fun _ => 0%Qc) f ->
  exists rnd,
    (exists res, returns (quicksim phi k dist l p steps threads alpha rnd late) res) /\
    forall res, returns (quicksim phi k dist l p steps threads alpha rnd late) res -> exists d, In d res /\ holds (l_cells l) d f.
Proof.
  intros Ps Sy Po Dp P _ D Ne St Al Lt Two V.
  pose proof (sort_perm (k_ltb k) (l_cells l)) as Pm. pose proof (sorted_nodup k l (pl_cells _ P)) as N.
  assert (Two' : forall c, In c (sort_cells (k_ltb k) (l_cells l)) -> f c = NEG \/ f c = NEU).
  { intros c Hc. exact (Two c (Permutation_in _ Pm Hc)). }
  assert (Vb : vb phi (with_base p 2) (sort_cells (k_ltb k) (l_cells l)) f = true).
  { unfold vb, no_def. apply (validb_spec phi Ps Sy); [exact N| |reflexivity|].
    - intros c Hc. destruct (Two' c Hc) as [-> | ->]; discriminate.
    - apply (valid_base phi p 2). exact (valid_perm phi Ps Sy _ _ _ [] [] _ f (Permutation_sym Pm) (fun _ => eq_refl) V). }
  destruct (quicksim_reach phi k dist Ps Sy Po Dp alpha Al l P D p steps threads late f St Ne Lt Vb Two')
    as (rnd & fs & ts & E & x & h & Hx & (O & _) & A).
  exists rnd. rewrite E. split; [exists (fs ++ concat ts), (concat ts); split; [apply interleaving_concat|reflexivity]|].
  intros res (rest & Hi & ->). exists x. split.
  - apply in_or_app. apply in_app_or in Hx. destruct Hx as [Hx|Hx]; [left; exact Hx|right; apply (interleaving_in _ _ Hi), Hx].
  - intros c Hc. rewrite (charges_get _ _ _ _ N (qk_charges _ _ _ _ _ O) (Permutation_in _ (Permutation_sym Pm) Hc)).
    apply A, (Permutation_in _ (Permutation_sym Pm)), Hc.
Qed.
Print Assumptions C96_reach.

(** A layout whose distribution of the lowest energy has a positively charged SiDB: no run of QuickSim finds it, whatever the
    parameters and the random numbers are. *)
Theorem C96_positive_refuted :
  exists phi k l p f, no_self phi /\ symmetric phi /\ repulsive phi /\ proper_layout l /\ small l /\ l_defects l = [] /\
  (forall c, In c (l_cells l) -> f c <> NON) /\ physically_valid phi p (l_cells l) [] (fun _ => 0%Qc) f /\
  forall dist steps threads alpha rnd late res d, returns (quicksim phi k dist l p steps threads alpha rnd late) res -> In d res ->
    ~ holds (l_cells l) d f /\
    (energy phi p (l_cells l) [] (fun _ => 0%Qc) f < energy phi p (l_cells l) [] (fun _ => 0%Qc) (get_charge_state d))%Qc.
Proof.
  assert (PL : proper_layout angle_layout) by concrete_layout.
  exists ex_phi, Cube, angle_layout, ex_par, (fun c => if coord_eqb c (ex_at 0 0) then POS else NEG).
  split; [apply ex_phi_self|split; [apply ex_phi_sym|split; [apply ex_phi_pos|split; [exact PL|split; [vm_compute; discriminate|split; [reflexivity|]]]]]].
  split; [intros c _; destruct (coord_eqb _ _); discriminate|]. split.
  - apply (validb_spec ex_phi ex_phi_self ex_phi_sym).
    + cbn [l_cells angle_layout]. repeat first [apply NoDup_nil|apply NoDup_cons; [cbn; intuition discriminate|]].
    + intros c _. destruct (coord_eqb _ _); discriminate.
    + reflexivity.
    + vm_compute. reflexivity.
  - intros dist steps threads alpha rnd late res d Hr Hd.
    destruct (C96_sound ex_phi Cube dist angle_layout ex_par steps threads alpha rnd late ex_phi_self ex_phi_sym PL ltac:(vm_compute; discriminate) eq_refl) as [_ H].
    destruct (H res Hr d Hd) as (g & Hg & Two & _). clear H Hr Hd. split.
    + intros Hf. pose proof (Hg (ex_at 0 0) (or_introl eq_refl)) as E1. rewrite (Hf (ex_at 0 0) (or_introl eq_refl)) in E1.
      change (coord_eqb (ex_at 0 0) (ex_at 0 0)) with true in E1. cbn iota in E1.
      destruct (Two (ex_at 0 0) (or_introl eq_refl)) as [E|E]; rewrite E in E1; discriminate E1.
    + rewrite (energy_agree ex_phi ex_phi_self ex_phi_sym ex_par _ [] _ (get_charge_state d) g Hg).
      unfold energy. cbn [l_cells angle_layout total_pairs total fold_right].
      destruct (Two (ex_at 0 0) (or_introl eq_refl)) as [-> | ->], (Two (ex_at 2 0) (or_intror (or_introl eq_refl))) as [-> | ->],
        (Two (ex_at 0 2) (or_intror (or_intror (or_introl eq_refl)))) as [-> | ->]; apply qltb_spec; vm_compute; reflexivity.
Qed.
Print Assumptions C96_positive_refuted.

(** A pair of close SiDBs between two others: two threads find the two distributions with one SiDB of the pair neutral, and
    nothing is returned if one of the threads runs into the time limit. *)
Definition qs_layout : layout := mkL [ex_at 38 0; ex_at 18 0; ex_at 20 0; ex_at 0 0] [].
Definition qs_dist (a b : coord) : Qc := Q2Qc (inject_Z (Z.abs (cx a - cx b))).
Definition qs_run (late : nat -> nat -> nat -> bool) : outcome :=
  quicksim ex_phi Cube qs_dist qs_layout ex_par 4 2 (Q2Qc (7 # 10)) (fun z n k s => z + n + k + s)%nat late.
Definition qs_show (o : outcome) : option (list (list (list cs))) :=
  match o with Found fs ts => Some (map (map (fun d => map (get_charge_state d) (l_cells qs_layout))) (fs :: ts)) | _ => None end.
Example C96_nonvacuous : proper_layout qs_layout /\ small qs_layout /\
  (let a := [NEG; NEG; NEU; NEG] in let b := [NEG; NEU; NEG; NEG] in
   qs_show (qs_run (fun _ _ _ => false)) = Some [[]; [a; b; a; b]; [a; b; a; b]]) /\ qs_show (qs_run (fun z _ _ => Nat.eqb z 1)) = None /\
  (exists res, returns (qs_run (fun _ _ _ => false)) res) /\
  (forall a b, 0 <= qs_dist a b)%Qc /\
  physically_valid ex_phi ex_par (l_cells qs_layout) [] (fun _ => 0%Qc) (fun c => if coord_eqb c (ex_at 18 0) then NEU else NEG).
Proof.
  assert (PL : proper_layout qs_layout) by concrete_layout.
  split; [exact PL|]. split; [vm_compute; discriminate|]. split; [vm_compute; reflexivity|]. split; [vm_compute; reflexivity|].
  split; [|split].
  - assert (E : qs_show (qs_run (fun _ _ _ => false)) <> None) by (vm_compute; discriminate).
    destruct (qs_run (fun _ _ _ => false)) as [| |fs ts]; [contradiction|contradiction|].
    exists (fs ++ concat ts), (concat ts). split; [apply interleaving_concat|reflexivity].
  - intros a b. unfold qs_dist. unfold Qcle, Q2Qc, this. rewrite !Qred_correct. change 0%Q with (inject_Z 0). rewrite <- Zle_Qle. lia.
  - apply (validb_spec ex_phi ex_phi_self ex_phi_sym).
    + cbn [l_cells qs_layout]. repeat first [apply NoDup_nil|apply NoDup_cons; [cbn; intuition discriminate|]].
    + intros c _. destruct (coord_eqb _ _); discriminate.
    + reflexivity.
    + vm_compute. reflexivity.
Qed.
