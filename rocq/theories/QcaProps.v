(** C92: the QCA ONE gate library. *)
From Coq Require Import ZArith Lia Bool String List.
From stdpp Require Import gmap.
From Verif Require Import CoordModel CoordSpec CoordProofs GridModel GridSpec GridProofs GridProps CoordMap ClockModel ClockSpec GateModel GateSpec GateProofs GateProofs2 GateProofs3 GateProps
  CellModel CellSpec CellProofs CellProps RouteModel RouteSpec RouteProofs RouteProofs2 RouteProps LibModel LibSpec LibProofs LibProofs2 LibProps
  QcaSpec QcaProofs QcaProofs2 QcaProofs3 QcaProofs4 QcaProofs5 QcaProofs6 QcaProofs7 DetclkProps.
Import List ListNotations.
Local Open Scope Z_scope.

(** The layouts considered: Cartesian, with all nodes on tiles, and a clocking that does not depend on the layer. *)
Definition qca_input (cl : clocked) (ops : list gop) (st : glayout) : Prop :=
  laid_out cl ops st /\ cl_topo cl = Cartesian /\ fits 5 5 (cl_dim cl) /\ layer_uniform (g_cl st) /\ 3 <= num_clocks (g_cl st) <= 255.

(** Rotations of gates: a quarter turn clockwise, two and three of them. *)
Theorem C92_rotations : forall n g, square n g ->
  (forall x y, (x < n)%nat -> (y < n)%nat -> cell_at 32 (rotate_90 n g) (n - 1 - y) x = cell_at 32 g x y) /\
  square n (rotate_90 n g) /\ rotate_180 n g = rotate_90 n (rotate_90 n g) /\ rotate_270 n g = rotate_90 n (rotate_90 n (rotate_90 n g)) /\
  rotate_90 n (rotate_90 n (rotate_90 n (rotate_90 n g))) = g.
Proof.
  intros n g S0. split; [intros; apply rot90_at; assumption|]. split; [apply rot90_square|].
  assert (B : forall h x y, (x < n)%nat -> (y < n)%nat -> cell_at 32 (rotate_90 n h) x y = cell_at 32 h y (n - 1 - x)).
  { intros h x y Hx Hy. rewrite <- (rot90_at n h y (n - 1 - x)) by lia. f_equal. lia. }
  split; [|split].
  - apply (square_ext n); [apply rot180_square, S0|apply rot90_square|]. intros x y Hx Hy. rewrite !B by lia.
    rewrite <- (rot180_at n g (n - 1 - x) (n - 1 - y) S0) by lia. f_equal; lia.
  - apply (square_ext n); [apply rot270_square|apply rot90_square|]. intros x y Hx Hy. rewrite !B by lia.
    rewrite <- (rot270_at n g (n - 1 - y) (n - 1 - (n - 1 - x)) S0) by lia. f_equal; lia.
  - apply (square_ext n); [apply rot90_square|exact S0|]. intros x y Hx Hy. rewrite !B by lia. f_equal; lia.
Qed.
Print Assumptions C92_rotations.

(** The library is applied exactly if it has a gate for the kind of every node and the sides its data enters and leaves. *)
Theorem C92_supported : forall cl ops st i o, qca_input cl ops st ->
  (forall t s, hosts st t -> i t s = true <-> enters st t s) -> (forall t s, hosts st t -> o t s = true <-> leaves st t s) ->
  ((exists l, apply_qca_one st = Some l) <-> forall t, hosts st t -> supported (kind_of st t) (i t) (o t)).
Proof.
  intros cl ops st i o (L & HC & F & U & N) Hi Ho.
  assert (T : forall t, hosts st t -> (exists g, qca_one st t = Some g) <-> supported (kind_of st t) (i t) (o t)).
  { intros t H. apply (supported_gate cl ops st L HC t (hosts_in cl ops st L t H)); [intros s; apply Hi, H|intros s; apply Ho, H|].
    intros s. apply (one_way cl ops st L U ltac:(lia) s t); [lia|apply H]. }
  split.
  - intros (l & E) t H. apply T; [exact H|]. unfold apply_qca_one in E. destruct (apply_gate_library _ _ _ _ _ _) as [l0|] eqn:E0; [|discriminate E]. apply (has_gate cl ops st L l0 E0 t H).
  - intros H. destruct (apply_gate_library qca 5 5 PCartesian qca_one st) as [l0|] eqn:E0.
    + destruct (optimized cl ops st L F l0 E0) as (l & E & _). exists l. exact E.
    + exfalso. apply (C91_applies qca 5 5 PCartesian qca_one cl ops st L) in E0 as (t & Ht & X). destruct (proj2 (T t Ht) (H t Ht)) as (g & Eg). rewrite Eg in X. discriminate X.
Qed.
Print Assumptions C92_supported.

Lemma first_result st l : apply_qca_one st = Some l -> exists l0, apply_gate_library qca 5 5 PCartesian qca_one st = Some l0.
Proof. unfold apply_qca_one. destruct (apply_gate_library _ _ _ _ _ _) as [l0|]; [|discriminate]. intros _. exists l0. reflexivity. Qed.

(** Vias: where a wire of the crossing layer ends, it and the cell below become vertical, and a cell is put there if there is none. Everything else
    stays as the gates of the library have it. *)
Theorem C92_vias : forall cl ops st l, qca_input cl ops st -> apply_qca_one st = Some l ->
  exists l0, apply_gate_library qca 5 5 PCartesian qca_one st = Some l0 /\
  (forall x y, ends_at l0 (live x y 1) -> get_cell_type qca l (live x y 0) = 120 /\ get_cell_mode l (live x y 0) = 2 /\ get_cell_mode l (live x y 1) = 2) /\
  (forall x y, ~ ends_at l0 (live x y 1) -> get_cell_type qca l (live x y 0) = get_cell_type qca l0 (live x y 0) /\ get_cell_mode l (live x y 0) = 0 /\ get_cell_mode l (live x y 1) = 0) /\
  (forall x y, get_cell_type qca l (live x y 1) = get_cell_type qca l0 (live x y 1)).
Proof.
  intros cl ops st l (L & HC & F & _) E. destruct (first_result st l E) as (l0 & E0). exists l0. split; [exact E0|].
  destruct (optimized cl ops st L F l0 E0) as (l' & E' & O1 & O2 & O3 & _). rewrite E in E'. injection E' as <-. split; [exact O1|]. split; [exact O2|].
  intros x y. apply O3. discriminate.
Qed.
Print Assumptions C92_vias.

(** In the middle of every side that data passes there is a normal cell. *)
Theorem C92_ports : forall cl ops st l t s, qca_input cl ops st -> apply_qca_one st = Some l -> hosts st t -> used st t s -> get_cell_type qca l (port_cell t s) = 120.
Proof.
  intros cl ops st l t s (L & HC & F & _) E H Us. destruct (first_result st l E) as (l0 & E0). pose proof (used_cell cl ops st L F l0 E0 t s H Us) as K.
  destruct (optimized cl ops st L F l0 E0) as (l' & E' & O1 & O2 & O3 & _). rewrite E in E'. injection E' as <-.
  destruct (Z.eq_dec (cz t) 0) as [Z|Z]; [|rewrite O3; [exact K|exact Z]]. unfold port_cell, cell_of in *. rewrite Z in *.
  set (x := corner_x 5 PCartesian t + port_x s) in *. set (y := corner_y 5 PCartesian t + port_y s) in *.
  assert (Dc : Decision (get_cell_type qca l (live x y 0) = 120)) by apply _. destruct Dc as [->|N']; [reflexivity|].
  destruct (O2 x y) as (-> & _); [|exact K]. intros X. apply N'. exact (proj1 (O1 x y X)).
Qed.
Print Assumptions C92_ports.

(** Apart from vias there are no other cells at the border of a tile than these and the constant 0 or 1 that makes a majority gate a conjunction or
    disjunction. *)
Theorem C92_borders : forall cl ops st l t x y, qca_input cl ops st -> apply_qca_one st = Some l -> hosts st t -> regular st t -> in_gate 5 5 x y -> on_border x y ->
  let c := cell_of 5 5 PCartesian t x y in
  get_cell_type qca l c <> 32 -> cz t = 1 \/ get_cell_mode l c <> 2 ->
  exists s, c = port_cell t s /\ (used st t s \/ (kind_of st t = KAnd /\ get_cell_type qca l c = 48) \/ (kind_of st t = KOr /\ get_cell_type qca l c = 49)).
Proof.
  intros cl ops st l t x y (L & HC & F & _) E H RG G B c N V. destruct (first_result st l E) as (l0 & E0).
  destruct (optimized cl ops st L F l0 E0) as (l' & E' & O1 & O2 & O3 & _). rewrite E in E'. injection E' as <-.
  assert (T : get_cell_type qca l c = get_cell_type qca l0 c).
  { destruct (Z.eq_dec (cz t) 0) as [Z|Z]; [|apply O3; exact Z]. destruct V as [V|V]; [rewrite Z in V; discriminate V|]. subst c. unfold cell_of in *. rewrite Z in *. apply O2. intros X. apply V. exact (proj1 (proj2 (O1 _ _ X))). }
  rewrite T in *. destruct (has_gate cl ops st L l0 E0 t H) as (g & Eg). subst c. rewrite (cell_type cl ops st L F l0 E0 t g x y H Eg G) in *.
  destruct (border_cell cl ops st L t (hosts_in cl ops st L t H) g x y Eg RG G B N) as (s & Es & K). exists s. unfold port in Es. inversion Es. split; [reflexivity|]. subst. exact K.
Qed.
Print Assumptions C92_borders.

(** Connected tiles of one layer are joined: the cells in the middle of their common side face each other. *)
Theorem C92_joined : forall cl ops st l u t, qca_input cl ops st -> apply_qca_one st = Some l -> hosts st u -> hosts st t -> flows st u t -> cz u = cz t ->
  exists s, neighbours (port_cell u s) (port_cell t (opposite s)) /\ get_cell_type qca l (port_cell u s) = 120 /\ get_cell_type qca l (port_cell t (opposite s)) = 120.
Proof.
  intros cl ops st l u t Q E Hu Ht Fl Z. pose proof Q as (L & HC & F & U & N). destruct (flow_sides cl ops st L HC U ltac:(lia) u t Fl) as (s & X & Y & U1 & U2). exists s.
  split; [|split; [exact (C92_ports cl ops st l u s Q E Hu U1)|exact (C92_ports cl ops st l t (opposite s) Q E Ht U2)]].
  destruct (facing u t s X Y) as [X' Y']. split; [exact Z|]. rewrite X', Y'. destruct s; cbn [dx dy]; lia.
Qed.
Print Assumptions C92_joined.

(** Connections between the layers go through vias: the wire [k] of the crossing layer, connected to tile [m] of the ground layer, ends in a via
    whose lower cell faces the cell in the middle of [m]'s side, provided that no wire passes this side in the crossing layer too. *)
Theorem C92_crossed : forall cl ops st l k m, qca_input cl ops st -> apply_qca_one st = Some l -> hosts st k -> hosts st m -> cz k = 1 -> cz m = 0 -> kind_of st k = KWire ->
  flows st k m \/ flows st m k ->
  exists s, cx m = cx k + dx s /\ cy m = cy k + dy s /\
    let above := live (cx m) (cy m) 1 in
    ((hosts st above -> kind_of st above = KWire /\ ~ used st above (opposite s)) ->
     let v := port_cell k s in let g := live (cx v) (cy v) 0 in
     get_cell_type qca l v = 120 /\ get_cell_mode l v = 2 /\ get_cell_type qca l g = 120 /\ get_cell_mode l g = 2 /\
     neighbours g (port_cell m (opposite s)) /\ get_cell_type qca l (port_cell m (opposite s)) = 120).
Proof.
  intros cl ops st l k m Q E Hk Hm Zk Zm KW Fl. pose proof Q as (L & HC & F & U & N).
  assert (S0 : exists s, cx m = cx k + dx s /\ cy m = cy k + dy s /\ used st k s /\ used st m (opposite s)).
  { destruct Fl as [Fl|Fl]; [exact (flow_sides cl ops st L HC U ltac:(lia) k m Fl)|]. destruct (flow_sides cl ops st L HC U ltac:(lia) m k Fl) as (s & X & Y & U1 & U2).
    exists (opposite s). replace (opposite (opposite s)) with s by (destruct s; reflexivity). split; [|split; [|split; assumption]]; destruct s; cbn in *; lia. }
  destruct S0 as (s & X & Y & Uk & Um). exists s. split; [exact X|]. split; [exact Y|]. intros above HA v g.
  destruct (first_result st l E) as (l0 & E0). pose proof (used_cell cl ops st L F l0 E0 k s Hk Uk) as Tk. destruct (facing k m s X Y) as [X' Y'].
  assert (En : ends_at l0 (live (cx v) (cy v) 1)).
  { assert (Ev : live (cx v) (cy v) 1 = v) by (subst v; unfold port_cell, cell_of; rewrite Zk; reflexivity). rewrite Ev.
    split; [reflexivity|]. split; [exact Zk|]. split; [subst v; rewrite Tk; discriminate|].
    assert (W : forall a, neighbours v a -> cd a = false -> get_cell_type qca l0 a <> 32 -> a = cell_of 5 5 PCartesian k (port_x s - dx s) (port_y s - dy s)).
    { intros a Na Da Ta. destruct (cell_tile cl ops st L F l0 E0 a Ta) as (t' & x' & y' & g' & Ht' & Eg' & G' & Ea & Tg). subst a.
      pose proof Na as NS. apply neighbour_side in NS as (r & R1 & R2 & R3). destruct (coord_eqb t' k) eqn:QE.
      - apply coord_eqb_spec in QE. subst t'. assert (r <> s).
        { intros ->. subst v. unfold port_cell, cell_of in R1, R2. cbn [cx cy live] in R1, R2. destruct G' as [G1 G2]. destruct s; cbn [dx dy port_x port_y] in R1, R2; lia. }
        assert (Dx : x' = port_x s + dx r /\ y' = port_y s + dy r) by (subst v; unfold port_cell, cell_of in R1, R2; cbn [cx cy live] in R1, R2; lia). destruct Dx as [-> ->].
        assert (DS : r = opposite s \/ r <> opposite s) by (clear; destruct r, s; cbn; first [left; reflexivity|right; discriminate]). destruct DS as [->|NO]; [destruct s; reflexivity|]. exfalso.
        assert (Bo : on_border (port_x s + dx r) (port_y s + dy r)) by (unfold on_border; destruct s, r; cbn; try lia; try (exfalso; apply NO; reflexivity); exfalso; auto).
        assert (Rg : regular st k) by (unfold regular; rewrite KW; exact Logic.I).
        destruct (border_cell cl ops st L k (hosts_in cl ops st L k Hk) g' _ _ Eg' Rg G' Bo Tg) as (q & Eq & _). unfold port in Eq. inversion Eq as [[E1 E2]].
        destruct s, r, q; cbn in E1, E2; try lia; try (apply NO; reflexivity); auto.
      - exfalso. assert (NE : k <> t') by (intros <-; rewrite (proj2 (coord_eqb_spec k k) eq_refl) in QE; discriminate QE).
        pose proof (hosts_in cl ops st L k Hk) as Ik. pose proof (hosts_in cl ops st L t' Ht') as It'.
        destruct (meeting k t' (port_x s) (port_y s) x' y' (port_gate s) G' NE (proj1 Ik) (proj1 It') Na) as (q & Q1 & Q2 & Q3 & _ & B' & Q4 & Q5 & QN & QE' & QS & QW).
        assert (q = s) as -> by (destruct q, s; cbn in *; try reflexivity; exfalso; auto; first [specialize (QN eq_refl)|specialize (QE' eq_refl)|specialize (QS eq_refl)|specialize (QW eq_refl)]; lia).
        assert (Ea : t' = above). { subst above. destruct t' as [d a b c]. destruct It' as (D' & _). cbn in *. subst. f_equal; lia. }
        subst t'. destruct (HA Ht') as [KA NU]. assert (Rg : regular st above) by (unfold regular; rewrite KA; exact Logic.I).
        destruct (border_cell cl ops st L above It' g' x' y' Eg' Rg G' B' Tg) as (q & Eq & K). unfold port in Eq. inversion Eq as [[E1 E2]]. subst x' y'.
        destruct K as [K|[[K _]|[K _]]]; [|rewrite KA in K; discriminate K|rewrite KA in K; discriminate K]. apply NU.
        assert (q = opposite s) as -> by (destruct q, s; cbn in *; try reflexivity; exfalso; lia). exact K. }
    intros a b Na Nb Da Db Ta Tb. rewrite (W a Na Da Ta), (W b Nb Db Tb). reflexivity. }
  destruct (optimized cl ops st L F l0 E0) as (l' & E' & O1 & O2 & O3 & _). rewrite E in E'. injection E' as <-. destruct (O1 _ _ En) as (V1 & V2 & V3).
  assert (Ev : live (cx v) (cy v) 1 = v) by (subst v; unfold port_cell, cell_of; rewrite Zk; reflexivity). rewrite Ev in V3.
  split; [exact (C92_ports cl ops st l k s Q E Hk Uk)|]. split; [exact V3|]. split; [exact V1|]. split; [exact V2|]. split; [|exact (C92_ports cl ops st l m (opposite s) Q E Hm Um)].
  split; [symmetry; exact Zm|]. subst g v. cbn [cx cy live]. rewrite X', Y'. destruct s; cbn [dx dy]; lia.
Qed.
Print Assumptions C92_crossed.

(** On layouts without a crossing layer, tiles that are not connected do not influence each other: their cells do not touch, but for constants. *)
Theorem C92_separate : forall cl ops st l t t' x y x' y', qca_input cl ops st -> cz (cl_dim cl) = 0 -> (forall v, hosts st v -> regular st v) -> apply_qca_one st = Some l ->
  hosts st t -> hosts st t' -> t <> t' -> in_gate 5 5 x y -> in_gate 5 5 x' y' ->
  let c := cell_of 5 5 PCartesian t x y in let c' := cell_of 5 5 PCartesian t' x' y' in
  neighbours c c' -> get_cell_type qca l c <> 32 -> get_cell_type qca l c' <> 32 ->
  flows st t t' \/ flows st t' t \/ (In (get_cell_type qca l c) [48; 49] /\ In (get_cell_type qca l c') [48; 49]).
Proof.
  intros cl ops st l t t' x y x' y' Q Z0 RG E H H' NE G G' c c' NB T T'. pose proof Q as (L & HC & F & U & N).
  assert (OT : forall c, cz c = 0 -> cd c = false -> get_cell_mode l c <> 2).
  { intros d Zd Dd M. destruct (first_result st l E) as (l0 & E0). destruct (optimized cl ops st L F l0 E0) as (l' & E' & O1 & O2 & O3 & _). rewrite E in E'. injection E' as <-.
    destruct d as [dd a b z]. cbn in Zd, Dd. subst. destruct (O2 a b) as (_ & M0 & _); [|unfold live in M0; rewrite M0 in M; discriminate M]. intros En. destruct En as (_ & _ & Tn & _).
    pose proof (cell_inside cl ops st L F l0 E0 _ Tn) as (_ & _ & _ & Iz). destruct (C91_aspect_ratio qca 5 5 PCartesian qca_one cl ops st l0 qca_tech qca_one_size L F E0) as (_ & _ & _ & Ez & _).
    rewrite Ez, Z0 in Iz. cbn in Iz. lia. }
  pose proof (hosts_in cl ops st L t H) as It. pose proof (hosts_in cl ops st L t' H') as It'.
  assert (Zt : cz t = 0) by (destruct It as (_ & _ & _ & I); lia). assert (Zt' : cz t' = 0) by (destruct It' as (_ & _ & _ & I); lia).
  destruct (meeting t t' x y x' y' G G' NE (proj1 It) (proj1 It') NB) as (s & Q1 & Q2 & Q3 & B & B' & Q4 & Q5 & QN & QE & QS & QW).
  destruct (C92_borders cl ops st l t x y Q E H (RG t H) G B T) as (a & Ea & Ka); [right; apply OT; [exact Zt|reflexivity]|].
  destruct (C92_borders cl ops st l t' x' y' Q E H' (RG t' H') G' B' T') as (b & Eb & Kb); [right; apply OT; [exact Zt'|reflexivity]|].
  unfold port_cell, cell_of in Ea, Eb. inversion Ea as [[A1 A2]]. inversion Eb as [[B1 B2]]. apply Z.add_cancel_l in A1, A2, B1, B2.
  assert (a = s). { clear - A1 A2 QN QE QS QW. destruct a, s; cbn in *; try reflexivity; exfalso; first [specialize (QN eq_refl)|specialize (QE eq_refl)|specialize (QS eq_refl)|specialize (QW eq_refl)]; lia. } subst a.
  assert (b = opposite s). { clear - A1 A2 B1 B2 Q4 Q5. destruct b, s; cbn in *; try reflexivity; exfalso; lia. } subst b.
  assert (UF : forall v w r, hosts st v -> hosts st w -> cx w = cx v + dx r -> cy w = cy v + dy r -> used st v r -> flows st v w \/ flows st w v).
  { intros v w r Hv Hw Xw Yw [(u & Fu & Xu & Yu)|(u & Fu & Xu & Yu)].
    - right. destruct (laid_wf _ _ _ L) as (HW & _ & ED). destruct (flow_info st u v HW Fu) as (Ou & _). destruct Ou as [Iu _]. rewrite ED in Iu. pose proof (hosts_in cl ops st L w Hw) as Iw.
      replace w with u; [exact Fu|]. destruct u as [du xu yu zu], w as [dw xw yw zw]. destruct Iu as (Du & _ & _ & Iuz), Iw as (Dw & _ & _ & Iwz). rewrite Z0 in Iuz, Iwz. cbn in *. subst. f_equal. lia.
    - left. apply (out_flow cl ops st L U ltac:(lia)) in Fu; [|apply Hv]. destruct (laid_wf _ _ _ L) as (HW & _ & ED). destruct (flow_info st v u HW Fu) as (_ & Ou & _). destruct Ou as [Iu _]. rewrite ED in Iu. pose proof (hosts_in cl ops st L w Hw) as Iw.
      replace w with u; [exact Fu|]. destruct u as [du xu yu zu], w as [dw xw yw zw]. destruct Iu as (Du & _ & _ & Iuz), Iw as (Dw & _ & _ & Iwz). rewrite Z0 in Iuz, Iwz. cbn in *. subst. f_equal. lia. }
  destruct Ka as [Ka|Ka]; [destruct (UF t t' s H H' Q1 Q2 Ka); auto|].
  destruct Kb as [Kb|Kb]; [destruct (UF t' t (opposite s) H' H) as [K|K]; auto; destruct s; cbn in *; lia|].
  right. right. fold c in Ka. fold c' in Kb. split; [destruct Ka as [[_ ->]|[_ ->]]|destruct Kb as [[_ ->]|[_ ->]]]; cbn; auto.
Qed.
Print Assumptions C92_separate.

(** The inputs and outputs of the cell layout: the centres of the wires that receive no data, or pass none on, with the names of their nodes. *)
Theorem C92_pins : forall cl ops st l, qca_input cl ops st -> apply_qca_one st = Some l ->
  (forall c, c_is_pi l c = true <-> exists t, hosts st t /\ kind_of st t = KWire /\ incoming_data_flow true st t = [] /\ c = cell_of 5 5 PCartesian t 2 2 /\ (cz t = 0 -> get_cell_mode l c <> 2)) /\
  (forall c, c_is_po l c = true <-> exists t, hosts st t /\ kind_of st t = KWire /\ outgoing_data_flow true st t = [] /\ c = cell_of 5 5 PCartesian t 2 2 /\ (cz t = 0 -> get_cell_mode l c <> 2)) /\
  (forall t, hosts st t -> kind_of st t = KWire -> incoming_data_flow true st t = [] \/ outgoing_data_flow true st t = [] ->
     get_cell_name l (cell_of 5 5 PCartesian t 2 2) = get_name st (get_node st t)).
Proof.
  intros cl ops st l (L & HC & F & _) E. destruct (first_result st l E) as (l0 & E0). destruct (optimized_run st l0 l E0 E) as [IO NM].
  destruct (optimized cl ops st L F l0 E0) as (l' & E' & O1 & O2 & O3 & _). rewrite E in E'. injection E' as <-.
  assert (G22 : in_gate 5 5 2 2) by (unfold in_gate; lia).
  assert (K : forall c v, v <> 32 -> v <> 120 -> get_cell_type qca l c = v <-> get_cell_type qca l0 c = v /\ (cd c = false -> cz c = 0 -> get_cell_mode l c <> 2)).
  { intros c v N1 N2. destruct (Z.eq_dec (cz c) 0) as [Z|Z]; [|rewrite (O3 c Z); tauto]. destruct c as [d x y z]. cbn in Z. subst z. destruct d.
    - split; [intros T; exfalso|intros [T _]; exfalso].
      + assert (T0 : get_cell_type qca l0 (mkC true x y 0) = v).
        { unfold apply_qca_one in E. rewrite E0 in E. unfold post_layout_optimization in E. destruct (foreach_coordinate _ _ _) as [cs|]; [|discriminate E]. cbn [option_map] in E. injection E as <-.
          destruct (via_fold cs l0) as (_ & V2 & _). rewrite V2 in T. destruct (existsb _ cs) eqn:EX; [exfalso; apply N2; symmetry; exact T|exact T]. }
        assert (I : inb (cl_dim (c_cl l0)) (mkC true x y 0)) by (apply (cell_inside cl ops st L F l0 E0); rewrite T0; exact N1). destruct I as (D & _). discriminate D.
      + assert (I : inb (cl_dim (c_cl l0)) (mkC true x y 0)) by (apply (cell_inside cl ops st L F l0 E0); rewrite T; exact N1). destruct I as (D & _). discriminate D.
    - change (mkC false x y 0) with (live x y 0). cbn [cd cz live]. split.
      + intros T. assert (NE : ~ ends_at l0 (live x y 1)) by (intros X; apply N2; rewrite <- T; exact (proj1 (O1 x y X))). destruct (O2 x y NE) as (T1 & M & _). rewrite T1 in T. split; [exact T|]. intros _ _. rewrite M. discriminate.
      + intros [T M]. rewrite <- T. assert (NE : ~ ends_at l0 (live x y 1)) by (intros X; exact (M eq_refl eq_refl (proj1 (proj2 (O1 x y X))))). exact (proj1 (O2 x y NE)). }
  assert (P : forall c (b : bool) (f : coord -> list coord) v, v = (if b then 105 else 111) -> (f = if b then incoming_data_flow true st else outgoing_data_flow true st) ->
     get_cell_type qca l c = v <-> exists t, hosts st t /\ kind_of st t = KWire /\ f t = [] /\ c = cell_of 5 5 PCartesian t 2 2 /\ (cz t = 0 -> get_cell_mode l c <> 2)).
  { intros c b f v -> ->. rewrite K by (destruct b; discriminate). split.
    - intros [T M]. destruct (cell_tile cl ops st L F l0 E0 c) as (t & x & y & g & H & Eg & G & -> & _); [rewrite T; destruct b; discriminate|].
      rewrite (cell_type cl ops st L F l0 E0 t g x y H Eg G) in T. destruct (pin_cells cl ops st L HC t (hosts_in cl ops st L t H) g x y Eg G) as [P1 P2].
      exists t. destruct b; [apply P1 in T as (A1 & A2 & -> & ->)|apply P2 in T as (A1 & A2 & -> & ->)]; (split; [exact H|split; [exact A1|split; [exact A2|split; [reflexivity|intros Z; apply M; [reflexivity|exact Z]]]]]).
    - intros (t & H & A1 & A2 & -> & M). split; [|intros _ Z; apply M, Z]. destruct (has_gate cl ops st L l0 E0 t H) as (g & Eg). rewrite (cell_type cl ops st L F l0 E0 t g 2 2 H Eg G22).
      destruct (pin_cells cl ops st L HC t (hosts_in cl ops st L t H) g 2 2 Eg G22) as [P1 P2]. destruct b; [apply P1|apply P2]; auto. }
  split; [intros c; rewrite (proj1 (IO c)); apply (P c true); reflexivity|]. split; [intros c; rewrite (proj2 (IO c)); apply (P c false); reflexivity|].
  intros t H A1 A2. rewrite NM. destruct (has_gate cl ops st L l0 E0 t H) as (g & Eg).
  rewrite (proj1 (proj2 (C91_pins qca 5 5 PCartesian qca_one cl ops st l0 qca_tech Logic.I qca_one_size L F E0)) t g 2 2 H Eg G22).
  destruct (pin_cells cl ops st L HC t (hosts_in cl ops st L t H) g 2 2 Eg G22) as [P1 P2]. unfold gcell in P1, P2. cbn [fst snd] in P1, P2. cbn [t_input t_output qca].
  destruct A2 as [A2|A2]; [rewrite (proj2 P1) by auto|rewrite (proj2 P2) by auto]; reflexivity.
Qed.
Print Assumptions C92_pins.

(** Within gates: wires and fan-outs link every side that data enters to every side that it leaves; inverters let it jump across a corner. *)
Theorem C92_conducts : forall cl ops st t g a b, qca_input cl ops st -> hosts st t -> qca_one st t = Some g -> enters st t a -> leaves st t b ->
  (In (kind_of st t) [KWire; KFanout2; KFanout3] -> linked g (port_at a) (port_at b)) /\ (kind_of st t = KInverter -> inverts g (port_at a) (port_at b)).
Proof.
  intros cl ops st t g a b (L & _) H Eg Ha Hb. pose proof (hosts_in cl ops st L t H) as It.
  split; intros K; [exact (conducts cl ops st L t It g a b Eg K Ha Hb)|exact (inversion_ cl ops st L t It g a b Eg K Ha Hb)].
Qed.
Print Assumptions C92_conducts.

(** In wires, inputs and outputs, the cell in the centre (the pin of inputs and outputs, see [C92_pins]) is linked to every side that data passes. *)
Theorem C92_centre : forall cl ops st t g s, qca_input cl ops st -> hosts st t -> qca_one st t = Some g -> kind_of st t = KWire -> used st t s -> linked g (2, 2) (port_at s).
Proof. intros cl ops st t g s (L & _) H Eg K U. exact (centre cl ops st L t (hosts_in cl ops st L t H) g s Eg K U). Qed.
Print Assumptions C92_centre.

(** Conjunctions, disjunctions and majorities vote in their centre, conjunctions with a 0 and disjunctions with a 1 at the side that is not used. *)
Theorem C92_votes : forall cl ops st t g, qca_input cl ops st -> hosts st t -> qca_one st t = Some g -> regular st t -> In (kind_of st t) [KAnd; KOr; KMajority] ->
  voter g /\ forall s, (used st t s -> shows g (port_at s) 120) /\ (~ used st t s -> shows g (port_at s) (match kind_of st t with KAnd => 48 | _ => 49 end)).
Proof.
  intros cl ops st t g (L & _) H Eg RG K. pose proof (hosts_in cl ops st L t H) as It. unfold regular in RG. rewrite setup_kind in Eg. destruct K as [K|[K|[K|[]]]]; rewrite <- K in *.
  - exact (votes cl ops st L t It 48 _ g and_vote Eg (proj1 RG) (proj2 RG)).
  - exact (votes cl ops st L t It 49 _ g or_vote Eg (proj1 RG) (proj2 RG)).
  - injection Eg as <-. split; [apply voterb_ok; vm_compute; reflexivity|]. intros s. split; [intros _; destruct s; reflexivity|]. intros X. exfalso. apply X, RG.
Qed.
Print Assumptions C92_votes.

(** ** Swapped signals *)

Lemma qca_check cl ops s : cl = std_layout Cartesian (cl_dim cl) s -> In s [TWODDWAVE FOUR; USE] -> laid_out cl ops (final cl ops) ->
  (forall t k, ~ In (AssignClock t k) ops) -> fits 5 5 (cl_dim cl) -> qca_input cl ops (final cl ops).
Proof.
  intros E S0 L NA F. assert (C : g_cl (final cl ops) = cl). { change (g_cl (final cl ops) = g_cl (g_empty cl)). apply (run_cl ops); [apply L|exact NA]. }
  split; [exact L|]. split; [rewrite E; reflexivity|]. split; [exact F|]. rewrite C. split.
  - intros x y z1 z2. rewrite E. destruct S0 as [<-|[<-|[]]]; reflexivity.
  - rewrite E. destruct S0 as [<-|[<-|[]]]; cbn; lia.
Qed.
Lemma qca_result st cs (a : list Z * list Z) : option_map (fun l => (map (get_cell_type qca l) cs, map (get_cell_mode l) cs)) (apply_qca_one st) = Some a ->
  exists l, apply_qca_one st = Some l /\ map (get_cell_type qca l) cs = fst a /\ map (get_cell_mode l) cs = snd a.
Proof. destruct (apply_qca_one st) as [l|]; [|discriminate]. cbn [option_map]. intros E. exists l. inversion E. auto. Qed.

Lemma four {A} (a b c d x y z w : A) : [a; b; c; d] = [x; y; z; w] -> a = x /\ b = y /\ c = z /\ d = w.
Proof. intros H. inversion H. auto. Qed.
Lemma wire_tile st t : occupied st t -> negb (GateModel.is_dead st (get_node st t)) && match kind_of st t with KWire => true | _ => false end = true -> hosts st t /\ kind_of st t = KWire.
Proof.
  intros O K. apply andb_prop in K as [K1 K2]. split; [split; [exact O|apply negb_true_iff, K1]|]. destruct (kind_of st t); try discriminate K2. reflexivity.
Qed.
Lemma regular_tile st t u : match kind_of st t with KWire => true | KAnd => coord_eqb t u | _ => false end = true -> (exists s, enters st u s) /\ (exists s, leaves st u s) -> regular st t.
Proof.
  intros K H. unfold regular. destruct (kind_of st t); try discriminate K; [exact Logic.I|]. apply coord_eqb_spec in K. subst t. exact H.
Qed.

(** The condition of C92_crossed is necessary: on a layout that breaks no design rule, two wires change layers at the same place, in opposite
    directions. No via is placed, both stay in their layers, and the outputs of the cell layout are swapped. *)
Definition swap_cl : clocked := std_layout Cartesian (live 3 2 1) (TWODDWAVE FOUR).
Definition swap_ops : list gop :=
  [CreatePi "a" (live 0 1 0); CreatePi "b" (live 1 0 0); CreateLit [live 0 1 0] 2 (live 1 1 0); CreateLit [live 1 0 0] 2 (live 1 1 1);
   CreateLit [live 1 1 0] 2 (live 2 1 1); CreateLit [live 1 1 1] 2 (live 2 1 0); CreatePo (live 2 1 1) "f" (live 3 1 0); CreatePo (live 2 1 0) "g" (live 2 2 0)].
Theorem C92_swap_refuted : exists cl ops st l a0 a1 b0 b1, qca_input cl ops st /\ rules st /\ practices st /\ (forall t, occupied st t -> hosts st t /\ kind_of st t = KWire) /\ apply_qca_one st = Some l /\
  cz a0 = 0 /\ cz a1 = 1 /\ cz b0 = 0 /\ cz b1 = 1 /\ cx a0 = cx a1 /\ cy a0 = cy a1 /\ cx b0 = cx b1 /\ cy b0 = cy b1 /\
  flows st a0 b1 /\ flows st a1 b0 /\ ~ flows st a0 b0 /\ ~ flows st a1 b1 /\
  (forall a b, In (a, b) [(a0, b0); (a1, b1)] -> neighbours (port_cell a SideE) (port_cell b SideW) /\
     forall c, In c [port_cell a SideE; port_cell b SideW] -> get_cell_type qca l c = 120 /\ get_cell_mode l c = 0).
Proof.
  set (st := final swap_cl swap_ops).
  assert (L : laid_out swap_cl swap_ops st).
  { apply laid_check; [vm_compute; reflexivity|repeat constructor|unfold dim_ok; cbn; lia|repeat constructor; unfold inb; simpl; intros; repeat split; lia|vm_compute; reflexivity]. }
  destruct (qca_result st [port_cell (live 1 1 0) SideE; port_cell (live 2 1 0) SideW; port_cell (live 1 1 1) SideE; port_cell (live 2 1 1) SideW] ([120; 120; 120; 120], [0; 0; 0; 0]))
    as (l & El & ET & EM); [vm_compute; reflexivity|]. cbn [map fst snd] in ET, EM. apply four in ET as (T1 & T2 & T3 & T4). apply four in EM as (M1 & M2 & M3 & M4).
  exists swap_cl, swap_ops, st, l, (live 1 1 0), (live 1 1 1), (live 2 1 0), (live 2 1 1).
  split. { apply (qca_check swap_cl swap_ops (TWODDWAVE FOUR)); [reflexivity|left; reflexivity|exact L| |unfold fits; cbn; lia]. intros t k H. repeat (destruct H as [H|H]; [discriminate H|]). destruct H. }
  pose proof L as (Hr & Hm & Hd & Hp & _).
  destruct (C47_clean_iff swap_cl swap_ops st 24 Hr Hm Hd Hp) as (v & w & E & _ & _ & [V _] & [W _]);
    [vm_compute; split; discriminate|apply Nat.leb_le; vm_compute; reflexivity|vm_compute; intuition discriminate|vm_compute; reflexivity|vm_compute; reflexivity|].
  assert (E0 : gate_level_drvs 24 st = Some (0, 0)) by (vm_compute; reflexivity). rewrite E0 in E. injection E as <- <-.
  assert (Hne : is_empty st <> true) by (vm_compute; discriminate).
  split; [destruct (V eq_refl) as [X|X]; [exfalso; exact (Hne X)|exact X]|]. split; [destruct (W eq_refl) as [X|X]; [exfalso; exact (Hne X)|exact X]|]. 
  split. { intros t O. assert (HW : wf st) by (exact (wf_reached _ _ _ Hr Hm Hd Hp)).
    assert (K : negb (GateModel.is_dead st (get_node st t)) && match kind_of st t with KWire => true | _ => false end = true).
    { apply (occ_check st (fun t => negb (GateModel.is_dead st (get_node st t)) && match kind_of st t with KWire => true | _ => false end) HW); [vm_compute; reflexivity|exact O]. }
    exact (wire_tile st t O K). }
  split; [exact El|]. do 8 (split; [reflexivity|]).
  split; [vm_compute; left; reflexivity|]. split; [vm_compute; left; reflexivity|]. split; [vm_compute; intros [X|[]]; discriminate X|]. split; [vm_compute; intros [X|[]]; discriminate X|].
  intros a b [H|[H|[]]]; injection H as <- <-; (split; [split; reflexivity|]); intros c [<-|[<-|[]]]; split; assumption.
Qed.
Print Assumptions C92_swap_refuted.

(** A conjunction with a wire crossing another. *)
Definition cross_cl : clocked := std_layout Cartesian (live 2 2 1) (TWODDWAVE FOUR).
Definition cross_ops : list gop :=
  [CreatePi "a" (live 0 1 0); CreatePi "b" (live 1 0 0); CreateLit [live 0 1 0] 2 (live 1 1 0); CreateLit [live 1 0 0] 2 (live 1 1 1); CreatePi "c" (live 0 2 0);
   CreateLit [live 1 1 1; live 0 2 0] 4 (live 1 2 0); CreatePo (live 1 2 0) "f" (live 2 2 0); CreatePo (live 1 1 0) "g" (live 2 1 0)].
Example C92_nonvacuous : let st := final cross_cl cross_ops in qca_input cross_cl cross_ops st /\ (forall t, hosts st t -> regular st t) /\
  hosts st (live 1 1 1) /\ hosts st (live 1 2 0) /\ kind_of st (live 1 1 1) = KWire /\ kind_of st (live 1 2 0) = KAnd /\ flows st (live 1 1 1) (live 1 2 0) /\ ~ hosts st (live 1 2 1) /\
  hosts st (live 0 2 0) /\ flows st (live 0 2 0) (live 1 2 0) /\ incoming_data_flow true st (live 0 2 0) = [] /\
  exists l, apply_qca_one st = Some l /\ map (get_cell_type qca l) [cell_of 5 5 PCartesian (live 0 2 0) 2 2; port_cell (live 1 1 1) SideS] = [105; 120] /\
    map (get_cell_mode l) [cell_of 5 5 PCartesian (live 0 2 0) 2 2; port_cell (live 1 1 1) SideS] = [0; 2].
Proof.
  set (st := final cross_cl cross_ops). cbv zeta.
  assert (L : laid_out cross_cl cross_ops st).
  { apply laid_check; [vm_compute; reflexivity|repeat constructor|unfold dim_ok; cbn; lia|repeat constructor; unfold inb; simpl; intros; repeat split; lia|vm_compute; reflexivity]. }
  split. { apply (qca_check cross_cl cross_ops (TWODDWAVE FOUR)); [reflexivity|left; reflexivity|exact L| |unfold fits; cbn; lia]. intros t k H. repeat (destruct H as [H|H]; [discriminate H|]). destruct H. }
  split.
  { pose proof L as (Hr & Hm & Hd & Hp & _). assert (HW : wf st) by (exact (wf_reached _ _ _ Hr Hm Hd Hp)). intros t [O _].
    assert (K : match kind_of st t with KWire => true | KAnd => coord_eqb t (live 1 2 0) | _ => false end = true).
    { apply (occ_check st (fun t => match kind_of st t with KWire => true | KAnd => coord_eqb t (live 1 2 0) | _ => false end) HW); [vm_compute; reflexivity|exact O]. }
    apply (regular_tile st t (live 1 2 0) K). split; [exists SideW, (live 0 2 0)|exists SideE, (live 2 2 0)]; (split; [vm_compute; auto|split; reflexivity]). }
  split; [split; [vm_compute; repeat split; discriminate|vm_compute; reflexivity]|]. split; [split; [vm_compute; repeat split; discriminate|vm_compute; reflexivity]|].
  split; [vm_compute; reflexivity|]. split; [vm_compute; reflexivity|]. split; [vm_compute; left; reflexivity|].
  split. { intros [[_ K] _]. vm_compute in K. discriminate K. }
  split; [split; [vm_compute; repeat split; discriminate|vm_compute; reflexivity]|]. split; [vm_compute; auto|]. split; [vm_compute; reflexivity|].
  destruct (qca_result st [cell_of 5 5 PCartesian (live 0 2 0) 2 2; port_cell (live 1 1 1) SideS] ([105; 120], [0; 2])) as (l & El & ET & EM); [vm_compute; reflexivity|]. exists l. auto.
Qed.
