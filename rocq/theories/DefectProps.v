(** C97: SiDB defect surfaces and the black lists derived from them. *)
From Coq Require Import ZArith QArith Bool List Lia.
From stdpp Require Import gmap.
From Verif Require Import CoordModel CoordSpec CoordProofs GridModel GridSpec CoordMap ClockModel GateModel CellModel RouteModel LibModel LibSpec LibProofs
  DefectModel DefectSpec DefectProofs DefectProofs2.
Import List ListNotations.
Local Open Scope Z_scope.

(** ** Storing defects *)

(** After any history of assignments and moves that moves no defect onto another one, every coordinate shows what it should. *)
Theorem C97_store k ar ig ops b : clear_moves ig ops -> wishes ig (fun _ => None) ops b -> tells (drun (new_surface k ar ig) ops) b.
Proof.
  intros Cl W c. pose proof (wishes_run ig ops Cl ops [] (new_surface k ar ig) (fun _ => None) b eq_refl (w_nil _ _) (clean_new k ar ig) eq_refl
    (fun c => lookup_empty c) W c) as H. unfold get_sidb_defect. rewrite H. reflexivity.
Qed.
(** There is such an outcome for every history. *)
Theorem C97_store_total ig ops : exists b, wishes ig (fun _ => None) ops b.
Proof. apply wishes_total. Qed.
(** Whatever the history: what the surface shows was assigned to it, and is neither none nor of a type to ignore; its size stays. *)
Theorem C97_genuine k ar ig ops c : defective (drun (new_surface k ar ig) ops) c ->
  shown ig (get_sidb_defect (drun (new_surface k ar ig) ops) c) /\ exists c', In (DAssign c' (get_sidb_defect (drun (new_surface k ar ig) ops) c)) ops.
Proof.
  set (s := drun _ ops). intros D. pose proof (clean_run ops _ (clean_new k ar ig)) as C. fold s in C.
  apply (get_lookup s c C) in D. destruct (s_defects s !! c) as [d|] eqn:E; [|elim D; reflexivity]. rewrite (get_some s c d E). split.
  - pose proof (C c d E) as H. unfold s in H. rewrite (proj2 (proj2 (run_frame ops (new_surface k ar ig)))) in H. exact H.
  - destruct (origin ops (new_surface k ar ig) c d (clean_new k ar ig) E) as [(c' & H)|H]; [|exact H]. cbn in H. rewrite lookup_empty in H. discriminate.
Qed.
(** Without the hypothesis on moves: a defect that is moved to where it is is deleted, and one that is moved onto another one is. *)
Theorem C97_move_refuted : exists ig ops ops' b b',
  wishes ig (fun _ => None) ops b /\ ~ tells (drun (new_surface Offset (live 9 9 0) ig) ops) b /\
  wishes ig (fun _ => None) ops' b' /\ ~ tells (drun (new_surface Offset (live 9 9 0) ig) ops') b'.
Proof.
  exists [], [DAssign (live 1 1 0) (of_type Siloxane); DMove (live 1 1 0) (live 1 1 0)],
    [DAssign (live 1 1 0) (of_type Siloxane); DAssign (live 2 2 0) (of_type DB); DMove (live 1 1 0) (live 2 2 0)].
  assert (Sh : forall t, t <> DNone -> shown [] (of_type t)) by (intros t H; split; [exact H|intros []]).
  eexists _, _. split; [|split; [|split]].
  - eapply w_cons; [apply w_shown; apply Sh; discriminate|]. eapply w_cons; [eapply w_move; reflexivity|]. apply w_nil.
  - intros T. specialize (T (live 1 1 0)). apply (f_equal sd_type) in T. vm_compute in T. discriminate T.
  - eapply w_cons; [apply w_shown; apply Sh; discriminate|]. eapply w_cons; [apply w_shown; apply Sh; discriminate|].
    eapply w_cons; [eapply w_move; reflexivity|]. apply w_nil.
  - intros T. specialize (T (live 2 2 0)). apply (f_equal sd_type) in T. vm_compute in T. discriminate T.
Qed.
(** A copy is not changed by calls on the original: surfaces of the model are values. What a call leaves as it is: *)
Theorem C97_frame k ar ig ops o c : let s := drun (new_surface k ar ig) ops in
  (forall x d, o = DAssign x d -> c <> x) -> (forall a t, o = DMove a t -> c <> a /\ c <> t) -> get_sidb_defect (dstep s o) c = get_sidb_defect s c.
Proof.
  intros s H1 H2. pose proof (clean_run ops _ (clean_new k ar ig)) as C. fold s in C. unfold get_sidb_defect. destruct o as [x d|a t]; cbn [dstep].
  - rewrite assign_lookup. destruct (decide (c = x)) as [E|_]; [elim (H1 x d eq_refl E)|reflexivity].
  - rewrite move_lookup by exact C. destruct (H2 a t eq_refl) as [Na Nt]. destruct (s_defects s !! a); [|reflexivity].
    destruct (decide (c = a)); [contradiction|]. destruct (decide (c = t)); [contradiction|reflexivity].
Qed.

(** ** Counting defects *)

Theorem C97_counts k ar ig ops : let s := drun (new_surface k ar ig) ops in
  counted (num_defects s) (defective s) /\
  counted (num_positively_charged_defects s) (fun c => 0 < sd_charge (get_sidb_defect s c)) /\
  counted (num_negatively_charged_defects s) (fun c => sd_charge (get_sidb_defect s c) < 0) /\
  counted (num_charged_defects s) (fun c => sd_charge (get_sidb_defect s c) <> 0) /\
  counted (num_neutral_defects s) (fun c => defective s c /\ sd_charge (get_sidb_defect s c) = 0 /\ ~ charged_type (sd_type (get_sidb_defect s c))).
Proof. intros s. apply counts, clean_run, clean_new. Qed.
(** Every defect is counted as charged or neutral if those of a charged type have a charge. *)
Theorem C97_sum k ar ig ops : let s := drun (new_surface k ar ig) ops in
  (forall c, charged_type (sd_type (get_sidb_defect s c)) -> sd_charge (get_sidb_defect s c) <> 0) ->
  num_charged_defects s + num_neutral_defects s = num_defects s.
Proof.
  intros s H. pose proof (clean_run ops _ (clean_new k ar ig)) as Cl. fold s in Cl. destruct (counts s Cl) as (Hd & _ & _ & Hc & Hn).
  apply (counted_same _ _ (defective s)); [|exact Hd]. destruct Hc as (l & N & I & E), Hn as (l' & N' & I' & E'). exists (l ++ l'). split; [|split].
  - apply NoDup_ListNoDup. apply NoDup_app. split; [apply NoDup_ListNoDup; exact N|]. split; [|apply NoDup_ListNoDup; exact N'].
    intros x Hx Hy. apply elem_of_list_In in Hx, Hy. apply I in Hx. apply I' in Hy. exact (Hx (proj1 (proj2 Hy))).
  - intros c. rewrite in_app_iff, I, I'. split.
    + intros [Hx|Hx]; [|exact (proj1 Hx)]. intros E0. destruct (s_defects s !! c) as [d|] eqn:L.
      * rewrite (get_some s c d L) in E0. exact (proj1 (Cl c d L) E0).
      * rewrite (get_none s c L) in Hx. apply Hx. reflexivity.
    + intros D. destruct (Z.eq_dec (sd_charge (get_sidb_defect s c)) 0) as [Z0|Z0]; [right|left; exact Z0].
      split; [exact D|]. split; [exact Z0|]. intros T. exact (H c T Z0).
  - rewrite E, E', app_length. lia.
Qed.
(** Otherwise not: a dangling bond without a charge is in neither number. *)
Theorem C97_sum_refuted : exists ops, let s := drun (new_surface Offset (live 9 9 0) []) ops in
  num_defects s = 1 /\ num_charged_defects s = 0 /\ num_neutral_defects s = 0.
Proof. exists [DAssign (live 1 1 0) (of_type DB)]. vm_compute. repeat split. Qed.

(** ** Affected positions *)

Theorem C97_affected ar ig ops c co no q : let s := drun (new_surface Offset ar ig) ops in
  roomy ar -> roomy c -> is_16 co -> is_16 no ->
  (In q (affected_sidbs s c co no) <-> affects s co no c q /\ inb ar q).
Proof.
  intros s R Rc H1 H2. destruct (run_frame ops (new_surface Offset ar ig)) as (K & D & _). fold s in K, D. cbn in K, D.
  rewrite <- D. apply affected_offset; try assumption; [rewrite D; exact R|intros _; exact Rc].
Qed.
(** With signed coordinates, also positions with negative coordinates are reported. *)
Theorem C97_affected_signed k ar ig ops c co no q : let s := drun (new_surface k ar ig) ops in
  k <> Offset -> (In q (affected_sidbs s c co no) <-> affects s co no c q /\ below ar q).
Proof.
  intros s N. destruct (run_frame ops (new_surface k ar ig)) as (K & D & _). fold s in K, D. cbn in K, D.
  rewrite <- D. apply affected_signed. rewrite K. exact N.
Qed.
Theorem C97_all_affected ar ig ops co no q : let s := drun (new_surface Offset ar ig) ops in
  roomy ar -> (forall c, defective s c -> roomy c) -> is_16 co -> is_16 no ->
  (In q (all_affected_sidbs s co no) <-> (exists c, affects s co no c q) /\ inb ar q).
Proof.
  intros s R Rc H1 H2. destruct (run_frame ops (new_surface Offset ar ig)) as (K & D & _). fold s in K, D. cbn in K, D.
  rewrite <- D. apply all_offset; try assumption; [apply clean_run, clean_new|]. split; [rewrite D; exact R|exact Rc].
Qed.
Theorem C97_all_affected_signed k ar ig ops co no q : let s := drun (new_surface k ar ig) ops in
  k <> Offset -> is_16 co -> is_16 no -> (In q (all_affected_sidbs s co no) <-> (exists c, affects s co no c q) /\ below ar q).
Proof.
  intros s N H1 H2. destruct (run_frame ops (new_surface k ar ig)) as (K & D & _). fold s in K, D. cbn in K, D.
  rewrite <- D. apply all_signed; try assumption; [apply clean_run, clean_new|rewrite K; exact N].
Qed.
(** The overwrites have 64 bits but only 16 of them count: a distance of 65536 is one of 0. *)
Theorem C97_overwrite_refuted : exists ar ops q, let s := drun (new_surface Offset ar []) ops in
  affects s (Some (65536, 0)) None (live 1 1 0) q /\ inb ar q /\ ~ In q (all_affected_sidbs s (Some (65536, 0)) None).
Proof.
  exists (live 9 9 0), [DAssign (live 1 1 0) (of_type DB)], (live 2 1 0). split; [|split].
  - split; [unfold defective; vm_compute; discriminate|]. exists 65536, 0. split; [|cbn; repeat split; lia].
    split; [reflexivity|]. intros N. elim N. right. left. reflexivity.
  - vm_compute; repeat split; discriminate.
  - intros H. vm_compute in H. destruct H as [H|[]]. discriminate H.
Qed.

(** ** Surface analysis *)

(** The black list names, for each tile and each function, the ports of exactly those implementations that have a cell too close
    to a defect, in the order of the library. *)
Theorem C97_analysis {F P} (impls : list (F * list gate)) (ports : gate -> option (list P)) gx gy p ar sar ig ops co no same r :
  let s := drun (new_surface Offset sar ig) ops in
  ar_ok Offset ar -> fits gx gy ar -> roomy sar -> (forall c, defective s c -> roomy c) -> is_16 co -> is_16 no ->
  List.NoDup (map fst impls) -> (forall a b, same a b = true <-> a = b) ->
  sidb_surface_analysis F P impls ports gx gy p ar s co no = Some r ->
  (forall t f gs, inb ar t -> In (f, gs) impls -> listed (hit s co no gx gy p t) ports gs (black_list same r t f)) /\
  (forall t f, ~ (inb ar t /\ In f (map fst impls)) -> black_list same r t f = []).
Proof.
  intros s Ha Hf R Rc H1 H2 N Hs E. destruct (run_frame ops (new_surface Offset sar ig)) as (K & D & _). fold s in K, D. cbn in K, D.
  assert (Ro : at_roomy s) by (split; [rewrite D; exact R|exact Rc]). pose proof (clean_run ops _ (clean_new Offset sar ig)) as C. fold s in C. split.
  - intros t f gs Ht I. eapply listed_black; eassumption.
  - intros t f Nt. eapply black_nil; eassumption.
Qed.
(** It fails (the program ends) exactly if a gate that is hit has no ports. *)
Theorem C97_analysis_fails {F P} (impls : list (F * list gate)) (ports : gate -> option (list P)) gx gy p ar sar ig ops co no :
  let s := drun (new_surface Offset sar ig) ops in
  ar_ok Offset ar -> fits gx gy ar -> roomy sar -> (forall c, defective s c -> roomy c) -> is_16 co -> is_16 no ->
  (sidb_surface_analysis F P impls ports gx gy p ar s co no = None <->
   exists t f gs g, inb ar t /\ In (f, gs) impls /\ In g gs /\ hit s co no gx gy p t g /\ ports g = None).
Proof.
  intros s Ha Hf R Rc H1 H2. destruct (run_frame ops (new_surface Offset sar ig)) as (K & D & _). fold s in K, D. cbn in K, D.
  apply analysis_fails; try assumption; [apply clean_run, clean_new|split; [rewrite D; exact R|exact Rc]].
Qed.
Print Assumptions C97_store.
Print Assumptions C97_store_total.
Print Assumptions C97_genuine.
Print Assumptions C97_move_refuted.
Print Assumptions C97_frame.
Print Assumptions C97_counts.
Print Assumptions C97_sum.
Print Assumptions C97_sum_refuted.
Print Assumptions C97_affected.
Print Assumptions C97_affected_signed.
Print Assumptions C97_all_affected.
Print Assumptions C97_all_affected_signed.
Print Assumptions C97_overwrite_refuted.
Print Assumptions C97_analysis.
Print Assumptions C97_analysis_fails.

(** A surface with a charged and a neutral defect, one of them moved, and one that is ignored; tiles of three by two cells. *)
Definition ex_ops : list dop :=
  [DAssign (live 5 1 0) (mkSD DB (-1) 5%Q 5%Q); DAssign (live 0 0 0) (of_type Siloxane); DMove (live 0 0 0) (live 8 3 0); DAssign (live 3 3 0) (of_type Gunk)].
Definition ex_surface : surface := drun (new_surface Offset (live 8 3 0) [Gunk]) ex_ops.
Definition ex_impls : list (nat * list gate) := [(1%nat, [[[88; 32; 32]; [32; 32; 32]]; [[32; 32; 32]; [32; 32; 88]]]); (2%nat, [[[32; 88; 32]; [32; 32; 32]]])].
Definition ex_ports (g : gate) : option (list nat) := Some [Z.to_nat (fold_left (fun a r => fold_left (fun b z => 2 * b + (if z =? 32 then 0 else 1)) r a) g 0)].
Example C97_nonvacuous :
  clear_moves [Gunk] ex_ops /\
  (num_defects ex_surface, num_charged_defects ex_surface, num_neutral_defects ex_surface) = (2, 1, 1) /\
  affected_sidbs ex_surface (live 5 1 0) (Some (1, 1)) None =
    [live 4 0 0; live 5 0 0; live 6 0 0; live 4 1 0; live 5 1 0; live 6 1 0; live 4 2 0; live 5 2 0; live 6 2 0] /\
  (ar_ok Offset (live 2 1 0) /\ fits 3 2 (live 2 1 0) /\ roomy (live 8 3 0) /\ (forall c, defective ex_surface c -> roomy c)) /\
  match sidb_surface_analysis nat nat ex_impls ex_ports 3 2 PCartesian (live 2 1 0) ex_surface (Some (1, 1)) None with
  | Some r => map (fun tf => black_list Nat.eqb r (fst tf) (snd tf))
                [(live 0 0 0, 1); (live 1 0 0, 1); (live 1 0 0, 2); (live 2 0 0, 1); (live 1 1 0, 2); (live 2 1 0, 1); (live 2 1 0, 2)]%nat =
              [[]; [1]; [16]; [32]; [16]; [32; 1]; []]%nat
  | None => False
  end.
Proof.
  split; [|split; [vm_compute; reflexivity|split; [vm_compute; reflexivity|split; [|vm_compute; reflexivity]]]].
  - intros l a t r b d E W Hb. unfold ex_ops in E. destruct l as [|? l]; [discriminate E|injection E as <- E].
    destruct l as [|? l]; [discriminate E|injection E as <- E]. destruct l as [|? l].
    + injection E as <- <- <-. inversion W as [|? ? b1 ? ? W1 W2]; subst. inversion W2 as [|? ? b2 ? ? W3 W4]; subst. inversion W4; subst.
      inversion W1; subst; inversion W3; subst; reflexivity.
    + injection E as <- E. destruct l as [|? l]; [discriminate E|injection E as <- E]. destruct l; discriminate E.
  - split; [vm_compute; repeat split; discriminate|]. split; [vm_compute; repeat split; discriminate|]. split; [vm_compute; repeat split; discriminate|].
    intros c D. apply (get_lookup ex_surface c (clean_run ex_ops _ (clean_new _ _ _))) in D.
    destruct (s_defects ex_surface !! c) as [d|] eqn:E; [|elim D; reflexivity]. apply in_foreach in E.
    assert (H : forall e, In e (foreach_sidb_defect ex_surface) -> fst e = live 5 1 0 \/ fst e = live 8 3 0).
    { intros e. vm_compute. intros [<-|[<-|[]]]; [left|right]; reflexivity. }
    destruct (H _ E) as [Hc|Hc]; cbn [fst] in Hc; rewrite Hc; vm_compute; repeat split; discriminate.
Qed.
