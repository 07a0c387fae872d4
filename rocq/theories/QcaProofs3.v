(** Proofs about the QCA ONE gate library: supported tiles, pins. *)
From Coq Require Import ZArith Lia Bool String List.
From stdpp Require Import gmap.
From Verif Require Import CoordModel CoordSpec CoordProofs GridModel GridSpec CoordMap ClockModel ClockSpec GateModel GateSpec GateProofs GateProofs2 GateProofs3
  CellModel CellSpec CellProofs CellProps RouteModel RouteSpec RouteProofs LibModel LibSpec LibProofs LibProofs2 LibProps QcaSpec QcaProofs QcaProofs2.
Import List ListNotations.
Local Open Scope Z_scope.

Definition found (m : list (ports * gate)) (p : ports) : bool := match map_at m p with Some _ => true | None => false end.
Definition any (f : side -> bool) : bool := f SideN || f SideE || f SideS || f SideW.
Definition supportedb (k : node_kind) (i o : side -> bool) : bool :=
  match k with
  | KFanout2 => Nat.eqb (side_count i) 1 && Nat.eqb (side_count o) 2
  | KFanout3 | KMajority => true
  | KWire | KInverter => Nat.leb (side_count i) 1 && Nat.leb (side_count o) 1 && Nat.leb 1 (side_count i + side_count o)
  | KAnd | KOr => Nat.eqb (side_count i) 2 && (Nat.eqb (side_count o) 1 || (Nat.eqb (side_count o) 0 && negb (i SideE)))
  | KOther => false
  end.
Lemma supportedb_iff k i o : supportedb k i o = true <-> supported k i o.
Proof.
  destruct k; cbn [supportedb supported]; rewrite ?andb_true_iff, ?orb_true_iff, ?andb_true_iff, ?Nat.eqb_eq, ?Nat.leb_le, ?negb_true_iff; try tauto; split; try discriminate; try reflexivity; auto; tauto.
Qed.
Definition mk (a b c d : bool) (s : side) : bool := match s with SideN => a | SideE => b | SideS => c | SideW => d end.
Definition bools : list bool := [true; false].
Definition all_sides : list (side -> bool) := flat_map (fun a => flat_map (fun b => flat_map (fun c => map (mk a b c) bools) bools) bools) bools.
Lemma all_sides_in f : exists g, In g all_sides /\ forall s, g s = f s.
Proof.
  exists (mk (f SideN) (f SideE) (f SideS) (f SideW)). split; [|intros []; reflexivity].
  destruct (f SideN), (f SideE), (f SideS), (f SideW); cbn; auto 20.
Qed.
Definition keys_ok (k : node_kind) (gt : bool) (m : list (ports * gate)) : bool :=
  forallb (fun i => forallb (fun o => existsb (fun s => i s && o s) sides || eqb (found m (rt gt (negb (any i)) (negb (any o)) i o)) (supportedb k i o)) all_sides) all_sides.
Lemma wire_keys : keys_ok KWire false WIRE_MAP = true. Proof. vm_compute. reflexivity. Qed.
Lemma inverter_keys : keys_ok KInverter false INVERTER_MAP = true. Proof. vm_compute. reflexivity. Qed.
Lemma and_keys : keys_ok KAnd true CONJUNCTION_MAP = true. Proof. vm_compute. reflexivity. Qed.
Lemma or_keys : keys_ok KOr true DISJUNCTION_MAP = true. Proof. vm_compute. reflexivity. Qed.
Lemma fanout_keys : keys_ok KFanout2 false FANOUT_MAP = true. Proof. vm_compute. reflexivity. Qed.

Lemma keys k gt m i o : keys_ok k gt m = true -> (forall s, i s && o s = false) ->
  found m (rt gt (negb (any i)) (negb (any o)) i o) = supportedb k i o.
Proof.
  intros H D. destruct (all_sides_in i) as (i' & Hi & Ei), (all_sides_in o) as (o' & Ho & Eo).
  unfold keys_ok in H. rewrite forallb_forall in H. specialize (H i' Hi). rewrite forallb_forall in H. specialize (H o' Ho).
  assert (X : rt gt (negb (any i)) (negb (any o)) i o = rt gt (negb (any i')) (negb (any o')) i' o') by (unfold rt, any; rewrite !Ei, !Eo; reflexivity).
  assert (Y : supportedb k i o = supportedb k i' o') by (unfold supportedb, side_count, sides; cbn [List.filter]; rewrite !Ei, !Eo; reflexivity).
  rewrite X, Y. apply orb_prop in H as [H|H]; [|apply eqb_prop; exact H].
  apply existsb_exists in H as (s & _ & H). rewrite Ei, Eo, D in H. discriminate H.
Qed.

Section Tile.
Context (cl : clocked) (ops : list gop) (st : glayout) (L : laid_out cl ops st) (HC : cl_topo cl = Cartesian) (t : coord) (It : inb (cl_dim cl) t).

(** On Cartesian layouts all data flows through one of the four sides. *)
Lemma flow_side : (forall u, In u (incoming_data_flow true st t) -> exists s, cx u = cx t + dx s /\ cy u = cy t + dy s) /\
  (forall u, In u (outgoing_data_flow true st t) -> exists s, cx u = cx t + dx s /\ cy u = cy t + dy s).
Proof using L HC It.
  destruct L as (R & M & D & P & _). destruct (flow_touches cl ops st true t R M D It) as [F1 F2].
  assert (K : forall a b c d, Z.abs (a - b) + Z.abs (c - d) = 1 -> exists s, b = a + dx s /\ d = c + dy s).
  { intros a b c d H. assert ((b = a /\ d = c - 1) \/ (b = a + 1 /\ d = c) \/ (b = a /\ d = c + 1) \/ (b = a - 1 /\ d = c)) as [H1|[H1|[H1|H1]]] by lia;
    [exists SideN|exists SideE|exists SideS|exists SideW]; cbn; lia. }
  rewrite HC in F1, F2. split.
  - intros u H. destruct (F1 u H) as [_ [_ T]]. cbn [cx cy live] in T. apply K in T as (s & T1 & T2). exists s. auto.
  - intros u H. destruct (F2 u H) as [_ [_ T]]. cbn [cx cy live] in T. apply K in T as (s & T1 & T2). exists s. auto.
Qed.
Lemma nin_any : has_no_incoming_signal true st t = negb (any (iside st t)).
Proof using L HC It.
  pose proof (iside_iff cl ops st L t It) as II. apply eq_true_iff_eq. rewrite (nin_iff cl ops st L t It), negb_true_iff. unfold any. split.
  - intros E. destruct (iside st t SideN) eqn:A; [apply II in A as (u & H & _); rewrite E in H; destruct H|]. destruct (iside st t SideE) eqn:B; [apply II in B as (u & H & _); rewrite E in H; destruct H|].
    destruct (iside st t SideS) eqn:C; [apply II in C as (u & H & _); rewrite E in H; destruct H|]. destruct (iside st t SideW) eqn:D; [apply II in D as (u & H & _); rewrite E in H; destruct H|]. reflexivity.
  - intros E. destruct (incoming_data_flow true st t) as [|u r] eqn:F; [reflexivity|]. exfalso. destruct (proj1 flow_side u) as (s & H1 & H2); [rewrite F; left; reflexivity|].
    assert (X : iside st t s = true) by (apply II; exists u; split; [rewrite F; left; reflexivity|auto]). rewrite !orb_false_iff in E. destruct E as [[[E1 E2] E3] E4]. destruct s; congruence.
Qed.
Lemma nout_any : has_no_outgoing_signal true st t = negb (any (oside st t)).
Proof using L HC It.
  pose proof (oside_iff cl ops st L t It) as II. apply eq_true_iff_eq. rewrite (nout_iff cl ops st L t It), negb_true_iff. unfold any. split.
  - intros E. destruct (oside st t SideN) eqn:A; [apply II in A as (u & H & _); rewrite E in H; destruct H|]. destruct (oside st t SideE) eqn:B; [apply II in B as (u & H & _); rewrite E in H; destruct H|].
    destruct (oside st t SideS) eqn:C; [apply II in C as (u & H & _); rewrite E in H; destruct H|]. destruct (oside st t SideW) eqn:D; [apply II in D as (u & H & _); rewrite E in H; destruct H|]. reflexivity.
  - intros E. destruct (outgoing_data_flow true st t) as [|u r] eqn:F; [reflexivity|]. exfalso. destruct (proj2 flow_side u) as (s & H1 & H2); [rewrite F; left; reflexivity|].
    assert (X : oside st t s = true) by (apply II; exists u; split; [rewrite F; left; reflexivity|auto]). rewrite !orb_false_iff in E. destruct E as [[[E1 E2] E3] E4]. destruct s; congruence.
Qed.

Lemma supported_gate i o : (forall s, i s = true <-> enters st t s) -> (forall s, o s = true <-> leaves st t s) -> (forall s, ~ (enters st t s /\ leaves st t s)) ->
  ((exists g, qca_one st t = Some g) <-> supported (kind_of st t) i o).
Proof using L HC It.
  intros Hi Ho D. rewrite <- supportedb_iff. 
  assert (Ei : forall s, i s = iside st t s) by (intros s; apply eq_true_iff_eq; rewrite Hi, (iside_iff cl ops st L t It); reflexivity).
  assert (Eo : forall s, o s = oside st t s) by (intros s; apply eq_true_iff_eq; rewrite Ho, (oside_iff cl ops st L t It); reflexivity).
  assert (Y : forall k, supportedb k i o = supportedb k (iside st t) (oside st t)) by (intros k; unfold supportedb, side_count, sides; cbn [List.filter]; rewrite !Ei, !Eo; reflexivity).
  assert (DD : forall s, iside st t s && oside st t s = false).
  { intros s. destruct (iside st t s) eqn:A, (oside st t s) eqn:B; try reflexivity. exfalso. apply (D s). split; [apply (iside_iff cl ops st L t It), A|apply (oside_iff cl ops st L t It), B]. }
  assert (F : forall m b, found m (determine_port_routing st t) = b -> ((exists g, map_at m (determine_port_routing st t) = Some g) <-> b = true)).
  { intros m b <-. unfold found. destruct (map_at m _) as [g|]; split; intros; try reflexivity; [exists g; reflexivity|destruct H; discriminate|discriminate]. }
  rewrite Y, setup_kind. pose proof (gtile_kind st t) as GT. pose proof (routing st t) as RT. rewrite nin_any, nout_any in RT.
  destruct (kind_of st t); rewrite GT in RT.
  - apply F. rewrite RT. exact (keys _ _ _ _ _ fanout_keys DD).
  - split; intros; [reflexivity|exists FAN_OUT_1_3; reflexivity].
  - apply F. rewrite RT. exact (keys _ _ _ _ _ wire_keys DD).
  - apply F. rewrite RT. exact (keys _ _ _ _ _ inverter_keys DD).
  - apply F. rewrite RT. exact (keys _ _ _ _ _ and_keys DD).
  - apply F. rewrite RT. exact (keys _ _ _ _ _ or_keys DD).
  - split; intros; [reflexivity|exists MAJORITY; reflexivity].
  - split; [intros (g & X); discriminate X|discriminate].
Qed.

(** Pins. *)
Lemma no_pin_entry m k g x y : no_pins m = true -> In (k, g) m -> in_gate 5 5 x y -> gcell g (x, y) <> 105 /\ gcell g (x, y) <> 111.
Proof using.
  intros H I G. unfold no_pins in H. rewrite forallb_forall in H. specialize (H _ I). cbn [snd] in H. rewrite forallb_forall in H. specialize (H _ (cells_in x y G)).
  apply andb_prop in H as [H1 H2]. apply negb_true_iff in H1, H2. apply Z.eqb_neq in H1, H2. auto.
Qed.
Lemma inp_nil : inp (rt false (negb (any (iside st t))) (negb (any (oside st t))) (iside st t) (oside st t)) = [] <-> incoming_data_flow true st t = [].
Proof using L HC It.
  rewrite <- (nin_iff cl ops st L t It), nin_any, negb_true_iff. unfold rt, any. cbn [inp andb].
  destruct (iside st t SideN), (iside st t SideE), (iside st t SideS), (iside st t SideW); cbn; split; intros; try reflexivity; discriminate.
Qed.
Lemma out_nil : out (rt false (negb (any (iside st t))) (negb (any (oside st t))) (iside st t) (oside st t)) = [] <-> outgoing_data_flow true st t = [].
Proof using L HC It.
  rewrite <- (nout_iff cl ops st L t It), nout_any, negb_true_iff. unfold rt, any. cbn [out andb].
  destruct (oside st t SideN), (oside st t SideE), (oside st t SideS), (oside st t SideW); cbn; split; intros; try reflexivity; discriminate.
Qed.
Lemma nil_ext {A} (a b : list A) : (forall q, In q a <-> In q b) -> isnil a = true <-> b = [].
Proof using.
  intros H. destruct a as [|x a], b as [|y b]; cbn; split; intros; try reflexivity; try discriminate.
  - exfalso. apply (proj2 (H y)). left. reflexivity.
  - exfalso. apply (proj1 (H x)). left. reflexivity.
Qed.
Lemma pin_cells g x y : qca_one st t = Some g -> in_gate 5 5 x y ->
  (gcell g (x, y) = 105 <-> kind_of st t = KWire /\ incoming_data_flow true st t = [] /\ x = 2 /\ y = 2) /\
  (gcell g (x, y) = 111 <-> kind_of st t = KWire /\ outgoing_data_flow true st t = [] /\ x = 2 /\ y = 2).
Proof using L HC It.
  intros E G. rewrite setup_kind in E.
  assert (OT : forall k, kind_of st t <> KWire -> In (k, g) (INVERTER_MAP ++ CONJUNCTION_MAP ++ DISJUNCTION_MAP ++ FANOUT_MAP ++ [(mkP [] [], MAJORITY); (mkP [] [], FAN_OUT_1_3)]) ->
    (gcell g (x, y) = 105 <-> kind_of st t = KWire /\ incoming_data_flow true st t = [] /\ x = 2 /\ y = 2) /\ (gcell g (x, y) = 111 <-> kind_of st t = KWire /\ outgoing_data_flow true st t = [] /\ x = 2 /\ y = 2)).
  { intros k N I. destruct (no_pin_entry _ k g x y other_pins I G) as [N1 N2]. split; (split; [intros X; contradiction|intros (X & _); contradiction]). }
  pose proof (gtile_kind st t) as GT. pose proof (routing st t) as RT. rewrite nin_any, nout_any in RT.
  destruct (kind_of st t) eqn:K; rewrite GT in RT.
  - apply map_at_some in E as (k & I & _). apply (OT k); [congruence|]. rewrite !in_app_iff. tauto.
  - injection E as <-. apply (OT (mkP [] [])); [congruence|]. rewrite !in_app_iff. do 4 right. right. left. reflexivity.
  - clear OT. apply map_at_some in E as (k & I & I1 & I2). rewrite RT in I1, I2. pose proof wire_pins as H. unfold pins_ok in H. rewrite forallb_forall in H. specialize (H _ I). cbn [fst snd] in H. cbv zeta in H.
    rewrite !andb_true_iff in H. destruct H as [[H1 H2] H3]. apply eqb_prop in H1, H2. rewrite forallb_forall in H3. specialize (H3 _ (cells_in x y G)).
    pose proof (nil_ext _ _ I1) as N1. rewrite inp_nil in N1. pose proof (nil_ext _ _ I2) as N2. rewrite out_nil in N2. rewrite H1, Z.eqb_eq in N1. rewrite H2, Z.eqb_eq in N2.
    cbn [fst snd] in H3. apply orb_prop in H3 as [H3|H3].
    + apply andb_prop in H3 as [X1 X2]. apply negb_true_iff in X1, X2. apply Z.eqb_neq in X1, X2. split; (split; [intros X; contradiction|]).
      * intros (_ & X & -> & ->). exfalso. apply X1, N1, X.
      * intros (_ & X & -> & ->). exfalso. apply X2, N2, X.
    + apply andb_prop in H3 as [X1 X2]. apply Z.eqb_eq in X1, X2. subst x y. rewrite N1, N2. split; split; auto; intros (_ & X & _); exact X.
  - apply map_at_some in E as (k & I & _). apply (OT k); [congruence|]. rewrite !in_app_iff. tauto.
  - apply map_at_some in E as (k & I & _). apply (OT k); [congruence|]. rewrite !in_app_iff. tauto.
  - apply map_at_some in E as (k & I & _). apply (OT k); [congruence|]. rewrite !in_app_iff. tauto.
  - injection E as <-. apply (OT (mkP [] [])); [congruence|]. rewrite !in_app_iff. do 4 right. left. reflexivity.
  - discriminate E.
Qed.
End Tile.
