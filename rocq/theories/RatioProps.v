(** C106: statistics of operational domains and the operational ratio around a point. *)
From Coq Require Import ZArith QArith Bool List Lia Permutation.
From stdpp Require Import gmap list.
From Verif Require Import UtilModel OpDomModel OpDomSpec OpDomProofs OpDomProofs2 OpDomProps RatioModel RatioSpec.
From Verif Require Import UtilProps.
From Coq Require Import List.
Import ListNotations.
Open Scope nat_scope.

Lemma product_shift l a : fold_left (fun product n => product * n) l a = a * fold_right Nat.mul 1 l.
Proof. revert a. induction l as [|n l IH]; intros a; cbn; [lia|]. rewrite IH. lia. Qed.
Definition holds (b : bool) (o : option bool) : bool := match o with Some c => eqb b c | None => false end.
Lemma stats_fold (dom : gmap (list nat) bool) order a b :
  fold_left (fun ab p => match dom !! p with Some true => (S (fst ab), snd ab) | Some false => (fst ab, S (snd ab)) | None => ab end) order (a, b) =
  (a + length (List.filter (fun p => holds true (dom !! p)) order), b + length (List.filter (fun p => holds false (dom !! p)) order)).
Proof.
  revert a b. induction order as [|p order IH]; intros a b; cbn [fold_left List.filter]; [cbn; f_equal; lia|].
  destruct (dom !! p) as [[]|]; cbn [holds eqb fst snd length]; rewrite IH; cbn [length]; f_equal; lia.
Qed.
Lemma enumerate_length {A} (l l' : list A) P : enumerates l P -> enumerates l' P -> length l = length l'.
Proof.
  intros [N M] [N' M']. apply Nat.le_antisymm; apply NoDup_incl_length; try assumption; intros x Hx; [apply M', M, Hx|apply M, M', Hx].
Qed.
Lemma grid_enum dims : enumerates (all_points dims) (on_grid dims) /\ length (all_points dims) = fold_right Nat.mul 1 dims.
Proof.
  assert (ND : List.NoDup (all_points dims)). { unfold all_points. apply C35_once. clear. induction dims; constructor; [apply seq_NoDup|assumption]. }
  split; [split; [exact ND|apply all_points_in]|].
  destruct (C83_terminates (fun _ => true) 1 (all_points dims) []) as (_ & _ & (rest & F)).
  destruct (C83_grid_search dims (fun _ => true) 1 (all_points dims) ([] ++ rest) (Permutation_refl _) F) as (_ & N & M & L). rewrite <- L. eapply enumerate_length; [split; [exact ND|apply all_points_in]|split; [exact N|exact M]].
Qed.

(** The counters are the numbers of points stored as operational and as non-operational and of all points of the sweep. *)
Theorem C106_stats : forall dims (dom : gmap (list nat) bool) order, enumerates order (fun p => is_Some (dom !! p)) ->
  let st := log_stats dims dom order in
  (forall l, enumerates l (fun p => dom !! p = Some true) -> num_operational st = length l) /\
  (forall l, enumerates l (fun p => dom !! p = Some false) -> num_non_operational st = length l) /\
  (forall l, enumerates l (on_grid dims) -> num_total st = length l) /\
  num_operational st + num_non_operational st = length order.
Proof.
  intros dims dom order [N M] st. unfold st, log_stats. rewrite stats_fold. cbn [num_operational num_non_operational num_total plus].
  assert (E : forall b, enumerates (List.filter (fun p => holds b (dom !! p)) order) (fun p => dom !! p = Some b)).
  { intros b. split; [apply List.NoDup_filter, N|]. intros p. rewrite filter_In, M. unfold holds. destruct (dom !! p) as [c|]; [|split; [intros [_ H]; discriminate H|discriminate]]. rewrite eqb_true_iff. split; [intros [_ ->]; reflexivity|intros [= ->]; split; [eauto|reflexivity]]. }
  split; [intros l H; apply (enumerate_length _ _ _ (E true) H)|]. split; [intros l H; apply (enumerate_length _ _ _ (E false) H)|]. split.
  - intros l H. rewrite product_shift, Nat.mul_1_l. destruct (grid_enum dims) as [G <-]. apply (enumerate_length _ _ _ G H).
  - clear - M. assert (A : forall p, In p order -> is_Some (dom !! p)) by (intros p; apply M). clear M. induction order as [|p order IH]; [reflexivity|]. cbn [List.filter length]. specialize (IH (fun q Hq => A q (or_intror Hq))). destruct (A p (or_introl eq_refl)) as [[] ->]; cbn; lia.
Qed.
Print Assumptions C106_stats.

Lemma reached_island dims op pp p : (In p [pp] \/ reached dims op [pp] p) /\ op p = true <-> island dims op pp p.
Proof.
  split.
  - intros [[[<-|[]]|R] O]; [apply island_start, O|]. revert O. induction R as [q m Hq Oq A|q m R IH Oq A]; intros O.
    + destruct Hq as [<-|[]]. eapply island_next; [apply island_start, Oq|exact A|exact O].
    + eapply island_next; [apply IH, Oq|exact A|exact O].
  - induction 1 as [O|q m _ [Q Oq] A O]; [split; [left; left; reflexivity|exact O]|]. split; [right|exact O]. destruct Q as [Q|Q]; [eapply reached_sample|eapply reached_next]; eauto.
Qed.
Lemma island_grid dims op pp p : on_grid dims pp -> island dims op pp p -> on_grid dims p.
Proof. intros G. induction 1 as [|q m _ _ [A _]]; assumption. Qed.

(** The ratio is the number of operational points connected with the given point divided by the number of all points of the sweep, for all
    schedules, numbers of threads and orders. *)
Theorem C106_ratio : forall dims op pp threads schedule keys events order, on_grid dims pp ->
  let s1 := par_run op schedule (par_start threads [pp]) in
  par_finished s1 -> (forall p, In p keys <-> is_Some (p_dom s1 !! p)) ->
  let s2 := fill_run dims op events (fill_start dims threads (p_dom s1) keys) in
  fill_finished s2 -> enumerates order (fun p => is_Some (f_dom s2 !! p)) ->
  let ratio := operational_domain_ratio dims (f_dom s2) order in
  (exists l, enumerates l (island dims op pp)) /\
  (forall l grid, enumerates l (island dims op pp) -> enumerates grid (on_grid dims) -> (ratio == inject_Z (Z.of_nat (length l)) / inject_Z (Z.of_nat (length grid)))%Q) /\
  (0 <= ratio <= 1)%Q /\ (ratio == 0 <-> op pp = false)%Q.
Proof.
  intros dims op pp threads schedule keys events order G s1 F1 K s2 F2 E ratio.
  assert (D : forall p b, f_dom s2 !! p = Some b <-> (In p [pp] \/ reached dims op [pp] p) /\ b = op p).
  { apply (C84_flood_fill dims op threads [pp] schedule keys events); [intros p [<-|[]]; exact G|exact F1|exact K|exact F2]. }
  assert (Is : forall p, f_dom s2 !! p = Some true <-> island dims op pp p) by (intros p; rewrite D, <- reached_island; intuition congruence).
  destruct (C106_stats dims (f_dom s2) order E) as (A & _ & T & _).
  assert (Ex : exists l, enumerates l (island dims op pp)).
  { exists (List.filter (fun p => holds true (f_dom s2 !! p)) order). destruct E as [N M]. split; [apply List.NoDup_filter, N|]. intros p. rewrite filter_In, M, <- Is. unfold holds. destruct (f_dom s2 !! p) as [[]|]; cbn; intuition (eauto; discriminate). }
  assert (A' : forall l, enumerates l (island dims op pp) -> num_operational (log_stats dims (f_dom s2) order) = length l).
  { intros l [N M]. apply A. split; [exact N|]. intros p. rewrite M. symmetry. apply Is. }
  split; [exact Ex|]. split; [intros l grid Hl Hg; unfold ratio, operational_domain_ratio; rewrite (A' l Hl), (T grid Hg); reflexivity|].
  destruct Ex as (l & Hl). destruct (grid_enum dims) as [Hg _]. unfold ratio, operational_domain_ratio. cbv zeta. rewrite (A' l Hl), (T _ Hg).
  assert (Pos : 0 < length (all_points dims)). { destruct (all_points dims) eqn:X; [|cbn; lia]. destruct Hg as [_ Hg]. apply Hg in G. destruct G. }
  assert (Le : length l <= length (all_points dims)). { apply NoDup_incl_length; [apply Hl|]. intros p Hp. apply Hg. apply (island_grid dims op pp); [exact G|]. apply Hl, Hp. }
  assert (Pq : (0 < inject_Z (Z.of_nat (length (all_points dims))))%Q) by (change 0%Q with (inject_Z 0); rewrite <- Zlt_Qlt; lia).
  split; [split|].
  - apply Qle_shift_div_l; [exact Pq|]. rewrite Qmult_0_l. change 0%Q with (inject_Z 0). rewrite <- Zle_Qle. lia.
  - apply Qle_shift_div_r; [exact Pq|]. rewrite Qmult_1_l, <- Zle_Qle. lia.
  - split.
    + intros Z. destruct (op pp) eqn:O; [|reflexivity]. exfalso. assert (I : In pp l) by (apply Hl, island_start, O). assert (L : 0 < length l) by (destruct l; [destruct I|cbn; lia]).
      assert (X : (0 < inject_Z (Z.of_nat (length l)) / inject_Z (Z.of_nat (length (all_points dims))))%Q) by (apply Qlt_shift_div_l; [exact Pq|]; rewrite Qmult_0_l; change 0%Q with (inject_Z 0); rewrite <- Zlt_Qlt; lia). rewrite Z in X. discriminate X.
    + intros O. destruct l as [|p l]; [reflexivity|]. exfalso. assert (I : island dims op pp p) by (apply Hl; left; reflexivity). clear - O I. induction I; [congruence|assumption].
Qed.
Print Assumptions C106_ratio.

(** A sweep of 4 times 2 points whose first two columns are operational, from the point (0, 1). *)
Example C106_nonvacuous :
  let s1 := par_run left_half [0; 0] (par_start 2 [[0; 1]]) in
  let s2 := fill_run [4; 2] left_half (concat (repeat [Run 0; Run 1; Spurious 1] 30)) (fill_start [4; 2] 2 (p_dom s1) [[0; 1]]) in
  let order := [[2; 1]; [0; 0]; [1; 0]; [0; 1]; [1; 1]; [2; 0]] in
  on_grid [4; 2] [0; 1] /\ par_finished s1 /\ fill_finished s2 /\ enumerates order (fun p => is_Some (f_dom s2 !! p)) /\
  Qeq (operational_domain_ratio [4; 2] (f_dom s2) order) (1 # 2) /\ num_non_operational (log_stats [4; 2] (f_dom s2) order) = 2.
Proof.
  intros s1 s2 order. split; [repeat constructor|]. split; [unfold par_finished; vm_compute; repeat constructor|]. split; [unfold fill_finished; vm_compute; repeat constructor|].
  assert (Mp : map_to_list (f_dom s2) ≡ₚ map (fun p => (p, left_half p)) order). { vm_compute. apply NoDup_Permutation; [apply (bool_decide_unpack _); vm_compute; exact Logic.I|apply (bool_decide_unpack _); vm_compute; exact Logic.I|]. intros x. rewrite !elem_of_cons, elem_of_nil. tauto. }
  split; [split|].
  - apply NoDup_ListNoDup, (bool_decide_unpack _). vm_compute. exact Logic.I.
  - intros p. split.
    + intros H. cbn in H. repeat (destruct H as [<-|H]; [eexists; vm_compute; reflexivity|]). destruct H.
    + intros [b H]. apply elem_of_map_to_list in H. rewrite Mp in H. apply elem_of_list_In, in_map_iff in H as (q & [= <- _] & Hq). exact Hq.
  - vm_compute. auto.
Qed.
