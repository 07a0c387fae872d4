(** Proofs about the QCA ONE gate library: the gates of a layout. *)
From Coq Require Import ZArith Lia Bool String List.
From stdpp Require Import gmap.
From Verif Require Import CoordModel CoordSpec CoordProofs GridModel GridSpec CoordMap ClockModel ClockSpec GateModel GateSpec GateProofs GateProofs2 GateProofs3
  CellModel CellSpec CellProofs CellProps RouteModel RouteSpec RouteProofs LibModel LibSpec LibProofs LibProofs2 LibProps QcaSpec QcaProofs.
Import List ListNotations.
Local Open Scope Z_scope.

Definition dir_of (s : side) : coord -> coord -> coord := match s with SideN => north | SideE => east | SideS => south | SideW => west end.
Definition iside (st : glayout) (t : coord) (s : side) : bool := has_incoming_from (dir_of s) true st t.
Definition oside (st : glayout) (t : coord) (s : side) : bool := has_outgoing_to (dir_of s) true st t.
Definition gtile (st : glayout) (t : coord) : bool := negb (is_wire st (get_node st t)) && negb (n_lit (node_at st (get_node st t)) =? 3).

(** The ports of a tile as a function of eleven bits. *)
Definition bit (b : bool) (q : Z * Z) : list (Z * Z) := if b then [q] else [].
Definition rt (gt ni no : bool) (i o : side -> bool) : ports :=
  mkP (bit (i SideN) (2, 0) ++ bit (i SideE) (4, 2) ++ bit (i SideS) (2, 4) ++ bit (i SideW) (0, 2) ++ bit (gt && ni) (0, 2))
      (bit (o SideN) (2, 0) ++ bit (o SideE) (4, 2) ++ bit (o SideS) (2, 4) ++ bit (o SideW) (0, 2) ++ bit (gt && no) (4, 2)).
Lemma routing st t : determine_port_routing st t = rt (gtile st t) (has_no_incoming_signal true st t) (has_no_outgoing_signal true st t) (iside st t) (oside st t).
Proof. reflexivity. Qed.
Lemma bit_in b q r : In r (bit b q) <-> b = true /\ r = q.
Proof. destruct b; cbn; [split; [intros [<-|[]]; auto|intros [_ ->]; auto]|split; [intros []|intros [H _]; discriminate H]]. Qed.
Lemma rt_inp gt ni no i o q : In q (inp (rt gt ni no i o)) <-> (exists s, q = port s /\ i s = true) \/ (gt && ni = true /\ q = port SideW).
Proof.
  unfold rt. cbn [inp]. rewrite !in_app_iff, !bit_in. split.
  - intros [[E ->]|[[E ->]|[[E ->]|[[E ->]|[E ->]]]]]; [left; exists SideN|left; exists SideE|left; exists SideS|left; exists SideW|right]; auto.
  - intros [(s & -> & E)|[E ->]]; [destruct s|]; auto 10.
Qed.
Lemma rt_out gt ni no i o q : In q (out (rt gt ni no i o)) <-> (exists s, q = port s /\ o s = true) \/ (gt && no = true /\ q = port SideE).
Proof.
  unfold rt. cbn [out]. rewrite !in_app_iff, !bit_in. split.
  - intros [[E ->]|[[E ->]|[[E ->]|[[E ->]|[E ->]]]]]; [left; exists SideN|left; exists SideE|left; exists SideS|left; exists SideW|right]; auto.
  - intros [(s & -> & E)|[E ->]]; [destruct s|]; auto 10.
Qed.
Lemma port_inj s s' : port s = port s' -> s = s'.
Proof. destruct s, s'; intros H; try reflexivity; discriminate H. Qed.

(** Which gate is looked up. *)
Lemma setup_kind st t : qca_one st t =
  match kind_of st t with
  | KFanout2 => map_at FANOUT_MAP (determine_port_routing st t)
  | KFanout3 => Some FAN_OUT_1_3
  | KWire => map_at WIRE_MAP (determine_port_routing st t)
  | KInverter => map_at INVERTER_MAP (determine_port_routing st t)
  | KAnd => map_at CONJUNCTION_MAP (determine_port_routing st t)
  | KOr => map_at DISJUNCTION_MAP (determine_port_routing st t)
  | KMajority => Some MAJORITY
  | KOther => None
  end.
Proof.
  assert (FM : forall m p, match from_map m p with SGate g => Some g | _ => None end = map_at m p) by (intros; unfold from_map; destruct (map_at m p); reflexivity).
  unfold qca_one, qca_one_set_up_gate, kind_of, is_fanout, is_wire, outgoing_data_flow. cbv zeta. rewrite map_length. unfold fanout_size.
  generalize (determine_port_routing st t) as p. intros p. generalize (List.length (foreach_fanout true st (get_node st t))) as f. intros f. generalize (n_lit (node_at st (get_node st t))) as lit. intros lit.
  destruct (Z.eqb_spec lit 2) as [->|N2].
  - cbn [andb Z.eqb Pos.eqb]. destruct f as [|[|[|[|f]]]].
    + cbn. apply FM.
    + cbn. apply FM.
    + cbn. apply FM.
    + reflexivity.
    + replace (1 <? Z.of_nat (S (S (S (S f))))) with true by lia. replace (Z.of_nat (S (S (S (S f)))) =? 2) with false by lia. replace (Z.of_nat (S (S (S (S f)))) =? 3) with false by lia. cbn. apply FM.
  - cbn [andb]. destruct (Z.eqb_spec lit 3) as [->|N3]; [apply FM|]. destruct (Z.eqb_spec lit 4) as [->|N4]; [apply FM|]. destruct (Z.eqb_spec lit 6) as [->|N6]; [apply FM|].
    destruct (Z.eqb_spec lit 14) as [->|N14]; [reflexivity|]. destruct lit as [|q|q]; try reflexivity. do 4 (destruct q as [q|q|]; try reflexivity; try (exfalso; lia)).
Qed.

(** All gates have five rows of five cells. *)
Lemma table_size m k g : size_ok m = true -> In (k, g) m -> gate_size 5 5 g.
Proof.
  intros H I. unfold size_ok in H. rewrite forallb_forall in H. specialize (H _ I). cbn [snd] in H. apply andb_prop in H as [H1 H2]. apply Nat.eqb_eq in H1. split; [lia|].
  intros r Hr. rewrite forallb_forall in H2. specialize (H2 r Hr). apply Nat.eqb_eq in H2. lia.
Qed.
Lemma qca_one_size : library_size 5 5 qca_one.
Proof.
  intros st t g E. rewrite setup_kind in E. 
  destruct (kind_of st t); try (apply map_at_some in E as (k & I & _); apply (table_size _ k g sizes); rewrite !in_app_iff; tauto); try discriminate E; injection E as <-.
  - apply (table_size _ (mkP [] []) FAN_OUT_1_3 sizes). rewrite !in_app_iff. do 5 right. right. left. reflexivity.
  - apply (table_size _ (mkP [] []) MAJORITY sizes). rewrite !in_app_iff. do 5 right. left. reflexivity.
Qed.

Section Tile.
Context (cl : clocked) (ops : list gop) (st : glayout) (L : laid_out cl ops st) (t : coord) (It : inb (cl_dim cl) t).

Lemma iside_iff s : iside st t s = true <-> enters st t s.
Proof using L It.
  destruct L as (R & M & D & P & _). unfold iside, enters.
  destruct (C44_directions cl ops st true t (dir_of s) (dx s) (dy s) R M D It) as [H _]; [destruct s; cbn; auto|exact H].
Qed.
Lemma oside_iff s : oside st t s = true <-> leaves st t s.
Proof using L It.
  destruct L as (R & M & D & P & _). unfold oside, leaves.
  destruct (C44_directions cl ops st true t (dir_of s) (dx s) (dy s) R M D It) as [_ H]; [destruct s; cbn; auto|exact H].
Qed.
Lemma nin_iff : has_no_incoming_signal true st t = true <-> incoming_data_flow true st t = [].
Proof using L It. destruct L as (R & M & D & P & _). apply (C44_signals cl ops st true t t R M D It). Qed.
Lemma nout_iff : has_no_outgoing_signal true st t = true <-> outgoing_data_flow true st t = [].
Proof using L It. destruct L as (R & M & D & P & _). apply (C44_signals cl ops st true t t R M D It). Qed.
Lemma enters_some s : enters st t s -> has_no_incoming_signal true st t = false.
Proof using L It. intros (u & H & _). destruct (has_no_incoming_signal true st t) eqn:E; [|reflexivity]. apply nin_iff in E. rewrite E in H. destruct H. Qed.
Lemma leaves_some s : leaves st t s -> has_no_outgoing_signal true st t = false.
Proof using L It. intros (u & H & _). destruct (has_no_outgoing_signal true st t) eqn:E; [|reflexivity]. apply nout_iff in E. rewrite E in H. destruct H. Qed.

Lemma gtile_kind : gtile st t = match kind_of st t with KFanout2 | KFanout3 | KWire | KInverter => false | _ => true end.
Proof using.
  unfold gtile, kind_of, is_wire. cbv zeta. generalize (List.length (outgoing_data_flow true st t)) as f. intros f. generalize (n_lit (node_at st (get_node st t))) as lit. intros lit.
  destruct (Z.eqb_spec lit 2) as [->|N2]; [destruct f as [|[|[|[|f]]]]; reflexivity|]. destruct (Z.eqb_spec lit 3) as [->|N3]; [reflexivity|].
  destruct lit as [|q|q]; try reflexivity. do 4 (destruct q as [q|q|]; try reflexivity; try (exfalso; lia)).
Qed.

(** Used sides have a normal cell at their port. *)
Lemma used_port g s : qca_one st t = Some g -> used st t s -> gcell g (port s) = 120.
Proof using L It.
  intros E U. rewrite setup_kind in E.
  assert (K : In (port s) (inp (determine_port_routing st t)) \/ In (port s) (out (determine_port_routing st t))).
  { rewrite routing, rt_inp, rt_out. destruct U as [U|U]; [left; left; exists s; split; [reflexivity|apply iside_iff, U]|right; left; exists s; split; [reflexivity|apply oside_iff, U]]. }
  assert (T : forall m, ports_ok m = true -> map_at m (determine_port_routing st t) = Some g -> gcell g (port s) = 120).
  { intros m H A. apply map_at_some in A as (k & I & I1 & I2). apply (ports_entry m k g s H I). rewrite I1, I2. exact K. }
  destruct (kind_of st t).
  - exact (T _ fanout_ports E).
  - injection E as <-. destruct s; reflexivity.
  - exact (T _ wire_ports E).
  - exact (T _ inverter_ports E).
  - exact (T _ and_ports E).
  - exact (T _ or_ports E).
  - injection E as <-. destruct s; reflexivity.
  - discriminate E.
Qed.

(** Nothing else is at the border. *)
Lemma borders_all g cells x y : forallb (fun q => (gcell g q =? 32) || is_port q) borders = true -> cells = gcell g (x, y) -> in_gate 5 5 x y -> on_border x y -> cells <> 32 -> exists s, (x, y) = port s.
Proof using.
  intros H -> G B N. rewrite forallb_forall in H. specialize (H _ (borders_in x y G B)). apply orb_prop in H as [H|H]; [apply Z.eqb_eq in H; contradiction|]. apply is_port_iff, H.
Qed.
Lemma border_cell g x y : qca_one st t = Some g -> regular st t -> in_gate 5 5 x y -> on_border x y -> gcell g (x, y) <> 32 ->
  exists s, (x, y) = port s /\ (used st t s \/ (kind_of st t = KAnd /\ gcell g (x, y) = 48) \/ (kind_of st t = KOr /\ gcell g (x, y) = 49)).
Proof using L It.
  intros E RG G B N. rewrite setup_kind in E. unfold regular in RG. pose proof gtile_kind as GT.
  assert (T : forall ex cst m, borders_ok ex cst m = true -> (gtile st t = true -> (exists s, enters st t s) /\ exists s, leaves st t s) -> (ex = true -> (exists s, enters st t s) /\ exists s, leaves st t s) ->
    map_at m (determine_port_routing st t) = Some g -> exists s, (x, y) = port s /\ (used st t s \/ gcell g (x, y) = cst)).
  { intros ex cst m H HG HE A. apply map_at_some in A as (k & I & I1 & I2). rewrite routing in I1, I2.
    assert (Q1 : forall q, In q (inp k) -> exists s, q = port s /\ enters st t s).
    { intros q Hq. apply I1, rt_inp in Hq as [(s & -> & Hs)|[Hs ->]]; [exists s; split; [reflexivity|apply iside_iff, Hs]|].
      exfalso. apply andb_prop in Hs as [Hs1 Hs2]. destruct (HG Hs1) as [(s & Hs) _]. rewrite (enters_some s Hs) in Hs2. discriminate Hs2. }
    assert (Q2 : forall q, In q (out k) -> exists s, q = port s /\ leaves st t s).
    { intros q Hq. apply I2, rt_out in Hq as [(s & -> & Hs)|[Hs ->]]; [exists s; split; [reflexivity|apply oside_iff, Hs]|].
      exfalso. apply andb_prop in Hs as [Hs1 Hs2]. destruct (HG Hs1) as [_ (s & Hs)]. rewrite (leaves_some s Hs) in Hs2. discriminate Hs2. }
    destruct (borders_entry ex cst m k g x y H I) as (s & Es & Hs); try assumption.
    - intros q [Hq|Hq]; [destruct (Q1 q Hq) as (s & -> & _)|destruct (Q2 q Hq) as (s & -> & _)]; exists s; reflexivity.
    - intros Ex. destruct (HE Ex) as [(s & Hs) (s' & Hs')]. split; intros X.
      + assert (Y : In (port s) (inp k)) by (apply I1, rt_inp; left; exists s; split; [reflexivity|apply iside_iff, Hs]). rewrite X in Y. destruct Y.
      + assert (Y : In (port s') (out k)) by (apply I2, rt_out; left; exists s'; split; [reflexivity|apply oside_iff, Hs']). rewrite X in Y. destruct Y.
    - exists s. split; [exact Es|]. destruct Hs as [Hs|[Hs|Hs]]; [left; left|left; right|right; exact Hs].
      + destruct (Q1 _ Hs) as (s' & Ep & He). apply port_inj in Ep. subst s'. exact He.
      + destruct (Q2 _ Hs) as (s' & Ep & He). apply port_inj in Ep. subst s'. exact He. }
  destruct (kind_of st t).
  - destruct (T _ _ _ fanout_borders) as (s & Es & [U|U]); [congruence|discriminate|exact E|exists s; auto|contradiction].
  - injection E as <-. destruct (borders_all FAN_OUT_1_3 _ x y eq_refl eq_refl G B N) as (s & Es). exists s. auto.
  - destruct (T _ _ _ wire_borders) as (s & Es & [U|U]); [congruence|discriminate|exact E|exists s; auto|contradiction].
  - destruct (T _ _ _ inverter_borders) as (s & Es & [U|U]); [congruence|intros _; exact RG|exact E|exists s; auto|contradiction].
  - destruct (T _ _ _ and_borders) as (s & Es & [U|U]); [intros _; exact RG|discriminate|exact E|exists s; auto|exists s; auto].
  - destruct (T _ _ _ or_borders) as (s & Es & [U|U]); [intros _; exact RG|discriminate|exact E|exists s; auto|exists s; auto 6].
  - injection E as <-. destruct (borders_all MAJORITY _ x y eq_refl eq_refl G B N) as (s & Es). exists s. auto.
  - discriminate E.
Qed.
End Tile.
