(** Proofs about the QCA ONE gate library: vias. *)
From Coq Require Import ZArith Lia Bool String List.
From stdpp Require Import gmap.
From Verif Require Import CoordModel CoordSpec CoordProofs GridModel GridSpec GridProofs GridProps CoordMap ClockModel ClockSpec GateModel GateSpec GateProofs GateProofs2 GateProofs3
  CellModel CellSpec CellProofs CellProps RouteModel RouteSpec RouteProofs LibModel LibSpec LibProofs LibProofs2 LibProps QcaSpec QcaProofs QcaProofs2 QcaProofs3.
Import List ListNotations.
Local Open Scope Z_scope.

Definition ground_of (c : coord) : coord := live (cx c) (cy c) 0.
Definition via_at (l : clayout) (c : coord) : bool :=
  is_crossing_layer c && negb (is_empty_cell qca l c) &&
  (Z.of_nat (List.length (List.filter (fun ac => negb (is_empty_cell qca l ac)) (c_adjacent (cl_dim (c_cl l)) c))) <=? 1).

Lemma via_unfold l c : via_step l c = if via_at l c then c_run qca l [AssignMode c 2; AssignType (ground_of c) 120; AssignMode (ground_of c) 2] else l.
Proof. reflexivity. Qed.
Lemma via_cl l c : c_cl (via_step l c) = c_cl l.
Proof. rewrite via_unfold. destruct (via_at l c); reflexivity. Qed.
Lemma via_type l c d : get_cell_type qca (via_step l c) d = if via_at l c && coord_eqb (ground_of c) d then 120 else get_cell_type qca l d.
Proof.
  rewrite via_unfold. destruct (via_at l c); [|reflexivity]. cbn [andb]. unfold get_cell_type.
  change (c_type (c_run qca l [AssignMode c 2; AssignType (ground_of c) 120; AssignMode (ground_of c) 2])) with (<[ground_of c := 120]> (c_type l)).
  rewrite coord_eqb_dec. destruct (decide (ground_of c = d)) as [<-|N].
  - rewrite lookup_insert, bool_decide_true by reflexivity. reflexivity.
  - rewrite lookup_insert_ne, bool_decide_false by exact N. reflexivity.
Qed.
Lemma via_mode l c d : get_cell_mode (via_step l c) d = if via_at l c && (coord_eqb c d || coord_eqb (ground_of c) d) then 2 else get_cell_mode l d.
Proof.
  rewrite via_unfold. destruct (via_at l c); [|reflexivity]. cbn [andb]. unfold get_cell_mode.
  change (c_mode (c_run qca l [AssignMode c 2; AssignType (ground_of c) 120; AssignMode (ground_of c) 2])) with (<[ground_of c := 2]> (<[c := 2]> (c_mode l))).
  rewrite !coord_eqb_dec. destruct (decide (ground_of c = d)) as [<-|N].
  - rewrite lookup_insert. rewrite (bool_decide_true (ground_of c = ground_of c)) by reflexivity. rewrite orb_true_r. reflexivity.
  - rewrite lookup_insert_ne by exact N. rewrite (bool_decide_false (ground_of c = d)) by exact N. rewrite orb_false_r. destruct (decide (c = d)) as [<-|N'].
    + rewrite lookup_insert, bool_decide_true by reflexivity. reflexivity.
    + rewrite lookup_insert_ne, bool_decide_false by exact N'. reflexivity.
Qed.

Lemma adjacent_layer ar c a : In a (c_adjacent ar c) -> cz a = cz c.
Proof.
  unfold c_adjacent. rewrite filter_In. intros [H _]. unfold north, east, south, west in H. cbn [In] in H.
  destruct H as [<-|[<-|[<-|[<-|[]]]]]; repeat match goal with |- context [if ?b then _ else _] => destruct b end; reflexivity.
Qed.
Lemma via_keeps l c c' : via_at (via_step l c) c' = via_at l c'.
Proof.
  unfold via_at. rewrite via_cl.
  assert (K : forall d, cz d <> 0 -> is_empty_cell qca (via_step l c) d = is_empty_cell qca l d).
  { intros d N. unfold is_empty_cell. rewrite via_type. replace (coord_eqb (ground_of c) d) with false; [rewrite andb_false_r; reflexivity|].
    symmetry. apply not_true_iff_false. rewrite coord_eqb_spec. intros <-. apply N. reflexivity. }
  destruct (is_crossing_layer c') eqn:X; [|reflexivity]. cbn [andb]. unfold is_crossing_layer in X.
  rewrite K by lia. do 2 f_equal. apply (f_equal (fun n => Z.of_nat (List.length n))). apply filter_ext_in. intros a Ha. rewrite K; [reflexivity|]. apply adjacent_layer in Ha. lia.
Qed.
Lemma via_fold cs : forall l,
  c_cl (fold_left via_step cs l) = c_cl l /\
  (forall d, get_cell_type qca (fold_left via_step cs l) d = if existsb (fun c => via_at l c && coord_eqb (ground_of c) d) cs then 120 else get_cell_type qca l d) /\
  (forall d, get_cell_mode (fold_left via_step cs l) d = if existsb (fun c => via_at l c && (coord_eqb c d || coord_eqb (ground_of c) d)) cs then 2 else get_cell_mode l d).
Proof.
  induction cs as [|c r IH]; intros l; [auto|]. cbn [fold_left existsb]. destruct (IH (via_step l c)) as (I1 & I2 & I3). split; [rewrite I1; apply via_cl|].
  assert (EX : forall f : coord -> coord -> bool, forall d, existsb (fun c' => via_at (via_step l c) c' && f c' d) r = existsb (fun c' => via_at l c' && f c' d) r).
  { intros f d. clear. induction r as [|a r IH]; [reflexivity|]. cbn. rewrite via_keeps, IH. reflexivity. }
  split; intros d.
  - rewrite I2, (EX (fun c' d => coord_eqb (ground_of c') d)), via_type. destruct (existsb _ r); [rewrite orb_true_r; reflexivity|]. rewrite orb_false_r. reflexivity.
  - rewrite I3, (EX (fun c' d => coord_eqb c' d || coord_eqb (ground_of c') d)), via_mode. destruct (existsb _ r); [rewrite orb_true_r; reflexivity|]. rewrite orb_false_r. reflexivity.
Qed.
