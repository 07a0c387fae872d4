(** Properties C82-C84: neighbourhoods of sample points, grid search and random sampling on any number of threads, concurrent flood fill. *)
From Coq Require Import ZArith Bool List Lia Permutation.
From stdpp Require Import gmap list.
From Verif Require Import UtilModel UtilProps OpDomModel OpDomSpec OpDomProofs OpDomProofs2.
Import ListNotations.

(** * C82 *)
(** The neighbourhoods of a point of the sweep list exactly the points of the sweep at most one step away in every dimension, or one
    step away in exactly one dimension, each once; in two dimensions the clockwise list has the same points. *)
Theorem C82_moore : forall dims sp, on_grid dims sp ->
  List.NoDup (moore_neighborhood dims sp) /\ forall m, In m (moore_neighborhood dims sp) <-> adjacent dims sp m.
Proof.
  intros dims sp G. split; [apply moore_nodup, on_grid_length, G|]. intros m. apply moore_in, on_grid_length, G.
Qed.
Print Assumptions C82_moore.
Theorem C82_moore_2d : forall nx ny x y, x < nx -> y < ny ->
  List.NoDup (moore_neighborhood_2d nx ny x y) /\
  (forall m, In m (moore_neighborhood_2d nx ny x y) <-> adjacent [nx; ny] [x; y] m) /\
  Permutation (moore_neighborhood_2d nx ny x y) (moore_neighborhood [nx; ny] [x; y]).
Proof.
  intros nx ny x y Hx Hy. assert (G : on_grid [nx; ny] [x; y]) by (repeat constructor; assumption).
  split; [apply moore_2d_nodup|]. split; [intros m; apply moore_2d_in; assumption|].
  apply NoDup_Permutation; [apply NoDup_ListNoDup, moore_2d_nodup|apply NoDup_ListNoDup, moore_nodup; reflexivity|].
  intros m. rewrite !elem_of_list_In, moore_2d_in, moore_in by (assumption || reflexivity). reflexivity.
Qed.
Print Assumptions C82_moore_2d.
Theorem C82_von_neumann : forall dims sp, on_grid dims sp ->
  List.NoDup (von_neumann_neighborhood dims sp) /\ forall m, In m (von_neumann_neighborhood dims sp) <-> beside dims sp m.
Proof. intros dims sp G. split; [apply von_neumann_nodup, G|]. intros m. apply von_neumann_in, G. Qed.
Print Assumptions C82_von_neumann.
Example C82_nonvacuous :
  moore_neighborhood_2d 3 2 1 0 = [[2; 0]; [0; 0]; [0; 1]; [1; 1]; [2; 1]] /\
  moore_neighborhood [3; 2] [1; 0] = [[0; 0]; [2; 0]; [0; 1]; [1; 1]; [2; 1]] /\
  length (moore_neighborhood [3; 3; 3] [1; 1; 1]) = 26 /\
  von_neumann_neighborhood [3; 3; 3] [1; 0; 2] = [[0; 0; 2]; [2; 0; 2]; [1; 1; 2]; [1; 0; 1]].
Proof. repeat split; vm_compute; reflexivity. Qed.

(** * C83 *)
(** Whatever the number of threads and however they are scheduled: once all threads have finished, exactly the given points are
    stored, with their statuses, and pairwise distinct points have each been simulated exactly once. *)
Theorem C83_points : forall op threads points schedule,
  let s := par_run op schedule (par_start threads points) in
  par_finished s ->
  (forall p b, p_dom s !! p = Some b <-> In p points /\ b = op p) /\
  (List.NoDup points -> Permutation (p_log s) points).
Proof.
  intros op threads points schedule s F. assert (I0 : pinv op points s) by apply par_run_inv, par_start_inv.
  pose proof (par_finished_remaining _ F) as R. split.
  - intros p b. split.
    + intros H. destruct (pi_sound _ _ _ I0 _ _ H) as (H1 & H2 & _). auto.
    + intros [H ->]. destruct (pi_cover _ _ _ I0 p H) as [[b Hb]|Hr]; [|rewrite R in Hr; destruct Hr].
      destruct (pi_sound _ _ _ I0 _ _ Hb) as (_ & <- & _). exact Hb.
  - intros ND. pose proof (pi_once _ _ _ I0 ND) as P. rewrite R, app_nil_r in P. symmetry. exact P.
Qed.
Print Assumptions C83_points.
(** Grid search stores every point of the sweep with its status, in whichever order they were shuffled. *)
Theorem C83_grid_search : forall dims op threads order schedule, Permutation order (all_points dims) ->
  let s := par_run op schedule (par_start threads order) in
  par_finished s ->
  (forall p b, p_dom s !! p = Some b <-> on_grid dims p /\ b = op p) /\
  List.NoDup (p_log s) /\ (forall p, In p (p_log s) <-> on_grid dims p) /\ length (p_log s) = fold_right Nat.mul 1 dims.
Proof.
  intros dims op threads order schedule P s F. destruct (C83_points op threads order schedule F) as [H1 H2]. fold s in H1, H2.
  assert (ND : List.NoDup (all_points dims)).
  { unfold all_points. apply C35_once. clear. induction dims; constructor; [apply seq_NoDup|assumption]. }
  assert (ND' : List.NoDup order) by (eapply Permutation_NoDup; [symmetry; exact P|exact ND]).
  specialize (H2 ND'). split; [|split; [|split]].
  - intros p b. rewrite H1. assert (E : In p order <-> on_grid dims p).
    { rewrite <- all_points_in. split; intros H; [eapply Permutation_in; [exact P|exact H]|eapply Permutation_in; [symmetry; exact P|exact H]]. }
    rewrite E. reflexivity.
  - eapply Permutation_NoDup; [symmetry; exact H2|exact ND'].
  - intros p. rewrite <- all_points_in. split; intros H.
    + eapply Permutation_in; [exact P|]. eapply Permutation_in; [exact H2|exact H].
    + eapply Permutation_in; [symmetry; exact H2|]. eapply Permutation_in; [symmetry; exact P|exact H].
  - rewrite H2, P. unfold all_points. rewrite UtilProofs.cart_length, map_map.
    clear. induction dims as [|n dims IH]; [reflexivity|]. cbn [map UtilSpec.product fold_right]. rewrite seq_length. cbn. f_equal. exact IH.
Qed.
Print Assumptions C83_grid_search.
(** The threads take at most two steps per point together, and none of them can be stuck before it has finished. *)
Theorem C83_terminates : forall op threads points schedule,
  let s := par_run op schedule (par_start threads points) in
  par_moves op schedule (par_start threads points) <= 2 * length points /\
  ((forall i, par_step op i s = None) -> par_finished s) /\
  exists rest, par_finished (par_run op (schedule ++ rest) (par_start threads points)).
Proof.
  intros op threads points schedule s. split; [|split].
  - pose proof (par_moves_bound op schedule (par_start threads points)). rewrite par_start_cost in H. lia.
  - apply par_stuck.
  - destruct (par_complete op _ s (le_n _)) as (rest & Hr). exists rest. unfold par_run in *. rewrite fold_left_app. exact Hr.
Qed.
Print Assumptions C83_terminates.
Definition even_sum (p : list nat) : bool := Nat.even (list_sum p).
Example C83_nonvacuous :
  let s := par_run even_sum (concat (repeat [0; 1; 2] 8)) (par_start 3 (all_points [2; 3])) in
  slices 3 (all_points [2; 3]) = [[[0; 0]; [0; 1]]; [[0; 2]; [1; 0]]; [[1; 1]; [1; 2]]] /\
  par_finished s /\ length (p_log s) = 6 /\ p_dom s !! [1; 1] = Some true /\ p_dom s !! [1; 2] = Some false.
Proof.
  split; [reflexivity|]. split; [|vm_compute; auto]. unfold par_finished. vm_compute. repeat constructor.
Qed.

(** * C84 *)
(** Whatever the number of threads, the order in which stored points are passed over, the interleaving of the threads and the spurious
    wake-ups: once flood fill has ended, the stored points are exactly the samples and the points reached from operational samples
    through operational points, each with its status. *)
Theorem C84_flood_fill : forall dims op threads samples schedule keys events,
  (forall p, In p samples -> on_grid dims p) ->
  let s1 := par_run op schedule (par_start threads samples) in
  par_finished s1 ->
  (forall p, In p keys <-> is_Some (p_dom s1 !! p)) ->
  let s2 := fill_run dims op events (fill_start dims threads (p_dom s1) keys) in
  fill_finished s2 ->
  forall p b, f_dom s2 !! p = Some b <-> (In p samples \/ reached dims op samples p) /\ b = op p.
Proof.
  intros dims op threads samples schedule keys events G s1 F1 K s2 F2.
  destruct (C83_points op threads samples schedule F1) as [H1 _]. fold s1 in H1.
  assert (K' : forall p, In p keys <-> In p samples).
  { intros p. rewrite K. split; [intros [b Hb]; apply H1 in Hb; apply Hb|intros Hp; exists (op p); apply H1; auto]. }
  assert (I2 : finv dims op samples s2) by (apply fill_run_inv; [exact G|]; apply fill_start_inv; assumption).
  apply (fill_result dims op samples s2 I2 F2).
Qed.
Print Assumptions C84_flood_fill.
(** In particular the result does not depend on the threads. *)
Theorem C84_schedule_independent : forall dims op samples threads schedule keys events threads' schedule' keys' events',
  (forall p, In p samples -> on_grid dims p) ->
  let s1 := par_run op schedule (par_start threads samples) in
  let s1' := par_run op schedule' (par_start threads' samples) in
  par_finished s1 -> par_finished s1' ->
  (forall p, In p keys <-> is_Some (p_dom s1 !! p)) -> (forall p, In p keys' <-> is_Some (p_dom s1' !! p)) ->
  let s2 := fill_run dims op events (fill_start dims threads (p_dom s1) keys) in
  let s2' := fill_run dims op events' (fill_start dims threads' (p_dom s1') keys') in
  fill_finished s2 -> fill_finished s2' -> f_dom s2 = f_dom s2'.
Proof.
  intros dims op samples threads schedule keys events threads' schedule' keys' events' G s1 s1' F1 F1' K K' s2 s2' F2 F2'.
  pose proof (C84_flood_fill dims op threads samples schedule keys events G F1 K F2) as A.
  pose proof (C84_flood_fill dims op threads' samples schedule' keys' events' G F1' K' F2') as B. cbv zeta in A, B. fold s1 s2 in A. fold s1' s2' in B.
  apply map_eq. intros p. destruct (f_dom s2 !! p) as [b|] eqn:E.
  - symmetry. apply B, A, E.
  - destruct (f_dom s2' !! p) as [b|] eqn:E'; [|reflexivity]. apply B, A in E'. congruence.
Qed.
Print Assumptions C84_schedule_independent.
(** No point is simulated twice, provided that the samples are pairwise distinct. *)
Theorem C84_simulated_once : forall dims op threads samples schedule keys events,
  (forall p, In p samples -> on_grid dims p) -> List.NoDup samples ->
  let s1 := par_run op schedule (par_start threads samples) in
  par_finished s1 ->
  (forall p, In p keys <-> is_Some (p_dom s1 !! p)) ->
  let s2 := fill_run dims op events (fill_start dims threads (p_dom s1) keys) in
  List.NoDup (p_log s1 ++ f_log s2) /\
  (fill_finished s2 -> forall p, In p (p_log s1 ++ f_log s2) <-> is_Some (f_dom s2 !! p)).
Proof.
  intros dims op threads samples schedule keys events G ND s1 F1 K s2.
  destruct (C83_points op threads samples schedule F1) as [H1 HP]. fold s1 in H1, HP. specialize (HP ND).
  assert (K' : forall p, In p keys <-> In p samples).
  { intros p. rewrite K. split; [intros [b Hb]; apply H1 in Hb; apply Hb|intros Hp; exists (op p); apply H1; auto]. }
  assert (I2 : finv dims op samples s2) by (apply fill_run_inv; [exact G|]; apply fill_start_inv; assumption).
  assert (SL : forall p, In p (f_log s2) -> In p (f_scheduled s2)).
  { intros p Hp. eapply Permutation_in; [symmetry; apply (fi_perm _ _ _ _ I2)|]. apply in_or_app. auto. }
  split.
  - apply NoDup_ListNoDup, NoDup_app. split; [apply NoDup_ListNoDup; eapply Permutation_NoDup; [symmetry; exact HP|exact ND]|]. split.
    + intros p Hp1 Hp2. apply elem_of_list_In in Hp1, Hp2. apply SL in Hp2. apply (fi_sched _ _ _ _ I2) in Hp2.
      apply Hp2. eapply Permutation_in; eauto.
    + pose proof (Permutation_NoDup (fi_perm _ _ _ _ I2) (fi_nodup _ _ _ _ I2)) as N. apply NoDup_ListNoDup, NoDup_app in N. apply N.
  - intros F2 p. destruct (fill_result dims op samples s2 I2 F2) as (R1 & _ & R3). rewrite in_app_iff, R3. split.
    + intros [H|[H _]]; exists (op p); apply R1; [|auto]. split; [|reflexivity]. left. eapply Permutation_in; eauto.
    + intros [b Hb]. apply R1 in Hb. destruct Hb as [[H|H] _]; [left; eapply Permutation_in; [symmetry; exact HP|exact H]|].
      destruct (in_dec (List.list_eq_dec Nat.eq_dec) p samples) as [Hs|Hs]; [left; eapply Permutation_in; [symmetry; exact HP|exact Hs]|auto].
Qed.
Print Assumptions C84_simulated_once.
(** The workers never block each other for good: if none of them can go on, all have returned; apart from one step per spurious wake-up
    the number of their steps is bounded, and any run can be completed. *)
Theorem C84_terminates : forall dims op threads samples schedule keys,
  (forall p, In p samples -> on_grid dims p) ->
  let s1 := par_run op schedule (par_start threads samples) in
  par_finished s1 ->
  (forall p, In p keys <-> is_Some (p_dom s1 !! p)) ->
  let s0 := fill_start dims threads (p_dom s1) keys in
  (exists bound, forall events, fill_moves dims op events s0 <= bound + spurious events) /\
  (forall events, (forall i, fill_step dims op i (fill_run dims op events s0) = None) -> fill_finished (fill_run dims op events s0)) /\
  (forall events, exists rest, fill_finished (fill_run dims op (events ++ map Run rest) s0)).
Proof.
  intros dims op threads samples schedule keys G s1 F1 K s0.
  destruct (C83_points op threads samples schedule F1) as [H1 _]. fold s1 in H1.
  assert (K' : forall p, In p keys <-> In p samples).
  { intros p. rewrite K. split; [intros [b Hb]; apply H1 in Hb; apply Hb|intros Hp; exists (op p); apply H1; auto]. }
  assert (I0 : finv dims op samples s0) by (apply fill_start_inv; assumption).
  split; [|split].
  - exists (fcost dims s0). intros events. pose proof (fill_moves_bound dims op samples G events s0 I0). lia.
  - intros events H. apply (fill_stuck dims op samples); [|exact H]. apply fill_run_inv; assumption.
  - intros events. pose proof (fill_run_inv dims op samples G events s0 I0) as I1.
    destruct (fill_complete dims op samples G _ _ I1 (le_n _)) as (rest & Hr). exists rest. unfold fill_run in *. rewrite fold_left_app. exact Hr.
Qed.
Print Assumptions C84_terminates.
(** "No parameter point is simulated twice" fails if the given starting point is also drawn as a random sample: two threads find it
    unknown and both simulate it. *)
Theorem C84_once_refuted : exists op samples schedule,
  let s := par_run op schedule (par_start 2 samples) in
  par_finished s /\ p_log s = [[0; 0]; [0; 0]].
Proof.
  exists even_sum, [[0; 0]; [0; 0]], [0; 1; 0; 1]. split; [unfold par_finished; vm_compute; repeat constructor|vm_compute; reflexivity].
Qed.
Print Assumptions C84_once_refuted.
(** A flood fill with two workers on a sweep of 4 times 2 points, of which the first two columns are operational. *)
Definition left_half (p : list nat) : bool := match p with x :: _ => x <? 2 | [] => false end.
Example C84_nonvacuous :
  let s1 := par_run left_half [0; 0] (par_start 2 [[0; 0]]) in
  let s2 := fill_run [4; 2] left_half (concat (repeat [Run 0; Run 1; Spurious 1] 30)) (fill_start [4; 2] 2 (p_dom s1) [[0; 0]]) in
  par_finished s1 /\ fill_finished s2 /\ length (f_log s2) = 5 /\ f_dom s2 !! [2; 1] = Some false /\ f_dom s2 !! [3; 1] = None.
Proof.
  split; [unfold par_finished; vm_compute; repeat constructor|].
  split; [unfold fill_finished; vm_compute; repeat constructor|]. vm_compute. auto.
Qed.
