(** Proofs about the QCA ONE gate library: the cells of whole layouts. *)
From Coq Require Import ZArith Lia Bool String List.
From stdpp Require Import gmap.
From Verif Require Import CoordModel CoordSpec CoordProofs GridModel GridSpec GridProofs GridProps CoordMap ClockModel ClockSpec GateModel GateSpec GateProofs GateProofs2 GateProofs3 GateProps
  CellModel CellSpec CellProofs CellProps RouteModel RouteSpec RouteProofs LibModel LibSpec LibProofs LibProofs2 LibProps QcaSpec QcaProofs QcaProofs2 QcaProofs3 QcaProofs4.
Import List ListNotations.
Local Open Scope Z_scope.

Section Layout.
Context (cl : clocked) (ops : list gop) (st : glayout) (L : laid_out cl ops st) (HC : cl_topo cl = Cartesian) (F : fits 5 5 (cl_dim cl))
  (l0 : clayout) (E0 : apply_gate_library qca 5 5 PCartesian qca_one st = Some l0).

Lemma qca_tech : In qca technologies.
Proof using. left. reflexivity. Qed.
Lemma cell_type t g x y : hosts st t -> qca_one st t = Some g -> in_gate 5 5 x y -> get_cell_type qca l0 (cell_of 5 5 PCartesian t x y) = gcell g (x, y).
Proof using L F E0. intros H Eg G. apply (proj1 (C91_cells qca 5 5 PCartesian qca_one cl ops st l0 qca_tech Logic.I qca_one_size L F E0)); assumption. Qed.
Lemma cell_tile c : get_cell_type qca l0 c <> 32 -> exists t x y g, hosts st t /\ qca_one st t = Some g /\ in_gate 5 5 x y /\ c = cell_of 5 5 PCartesian t x y /\ gcell g (x, y) <> 32.
Proof using L F E0.
  intros N. destruct (proj2 (C91_cells qca 5 5 PCartesian qca_one cl ops st l0 qca_tech Logic.I qca_one_size L F E0) c N) as (t & x & y & H & G & ->).
  assert (K : exists g, qca_one st t = Some g).
  { destruct (qca_one st t) as [g|] eqn:X; [exists g; reflexivity|]. exfalso.
    pose proof (proj2 (C91_applies qca 5 5 PCartesian qca_one cl ops st L) (ex_intro _ t (conj H X))) as Y. rewrite Y in E0. discriminate E0. }
  destruct K as (g & Eg). exists t, x, y, g. rewrite (cell_type t g x y H Eg G) in N. auto.
Qed.
Lemma has_gate t : hosts st t -> exists g, qca_one st t = Some g.
Proof using L E0.
  intros H. destruct (qca_one st t) as [g|] eqn:X; [exists g; reflexivity|]. exfalso.
  pose proof (proj2 (C91_applies qca 5 5 PCartesian qca_one cl ops st L) (ex_intro _ t (conj H X))) as Y. rewrite Y in E0. discriminate E0.
Qed.
Lemma hosts_in t : hosts st t -> inb (cl_dim cl) t.
Proof using L. intros [[I _] _]. destruct (laid_wf _ _ _ L) as (_ & _ & <-). exact I. Qed.
Lemma cell_inside c : get_cell_type qca l0 c <> 32 -> inb (cl_dim (c_cl l0)) c.
Proof using L F E0. apply (C91_aspect_ratio qca 5 5 PCartesian qca_one cl ops st l0 qca_tech qca_one_size L F E0). Qed.
Lemma cells_dim : dim_ok (cl_dim (c_cl l0)).
Proof using L F E0.
  destruct (C91_aspect_ratio qca 5 5 PCartesian qca_one cl ops st l0 qca_tech qca_one_size L F E0) as (_ & (t & It & Ex) & (t' & It' & Ey) & Ez & _).
  destruct L as (_ & _ & (D1 & D2 & D3) & _). destruct F as (_ & _ & F1 & F2). cbn [corner_x corner_y] in Ex, Ey. destruct It as (_ & X & _), It' as (_ & _ & Y & _). unfold dim_ok. lia.
Qed.

(** Where cells end. *)
Lemma ends_via c : inb (cl_dim (c_cl l0)) c -> (via_at l0 c = true <-> ends_at l0 c).
Proof using L F E0.
  intros I. pose proof cells_dim as (_ & _ & DZ). unfold via_at, ends_at, is_empty_cell, t_is_empty, is_crossing_layer. cbn [t_empty qca].
  rewrite !andb_true_iff, negb_true_iff, Z.eqb_neq, Z.leb_le. 
  pose proof (c_adjacent_NoDup (cl_dim (c_cl l0)) c I) as ND. pose proof (fun a => c_adjacent_spec (cl_dim (c_cl l0)) c a I) as AD.
  set (P := fun ac => negb (get_cell_type qca l0 ac =? 32)) in *. change (List.filter (fun ac => negb (get_cell_type qca l0 ac =? 32))) with (List.filter P).
  assert (IN : forall a, In a (List.filter P (c_adjacent (cl_dim (c_cl l0)) c)) <-> neighbours c a /\ cd a = false /\ get_cell_type qca l0 a <> 32).
  { intros a. rewrite filter_In, AD. unfold P. rewrite negb_true_iff, Z.eqb_neq. unfold neighbours, square_touch. split.
    - intros ((Ia & T) & N). split; [exact T|]. split; [apply Ia|exact N].
    - intros (T & _ & N). split; [|exact N]. split; [apply cell_inside, N|exact T]. }
  assert (ND' : List.NoDup (List.filter P (c_adjacent (cl_dim (c_cl l0)) c))) by (apply List.NoDup_filter; exact ND).
  split.
  - intros ((Hz & N) & Le). split; [apply I|]. split; [destruct I as (_ & _ & _ & Iz); lia|]. split; [exact N|]. intros a b Na Nb Da Db Ta Tb.
    assert (Ka : In a (List.filter P (c_adjacent (cl_dim (c_cl l0)) c))) by (apply IN; auto). assert (Kb : In b (List.filter P (c_adjacent (cl_dim (c_cl l0)) c))) by (apply IN; auto).
    destruct (List.filter P _) as [|q [|q' r]]; [destruct Ka| |cbn in Le; lia]. destruct Ka as [<-|[]], Kb as [<-|[]]. reflexivity.
  - intros (_ & Hz & N & U). split; [split; [lia|exact N]|]. destruct (List.filter P _) as [|q [|q' r]] eqn:EL; [cbn; lia|cbn; lia|]. exfalso.
    assert (Kq : In q (q :: q' :: r)) by (left; reflexivity). assert (Kq' : In q' (q :: q' :: r)) by (right; left; reflexivity).
    apply IN in Kq as (A1 & A2 & A3). apply IN in Kq' as (B1 & B2 & B3). inversion ND' as [|? ? X _]; subst. apply X. left. symmetry. apply U; assumption.
Qed.

(** The modes before the optimization. *)
Lemma mode_zero c : get_cell_mode l0 c = 0.
Proof using L F E0.
  destruct (applied _ _ _ _ _ _ _ E0) as (cs & Ec & ->). unfold cell_layout. rewrite (mode_run qca); [|intros X; discriminate X].
  assert (K : forall r, (forall o, In o r -> match o with AssignMode _ _ => False | _ => True end) ->
     latest (fun o => match o with AssignMode c' m => if coord_eqb c' c then Some m else None | AssignType c' ct => if coord_eqb c' c && (ct =? t_empty qca) then Some 0 else None | _ => None end) 0 r = 0).
  { induction r as [|o r IH]; intros H; [reflexivity|]. cbn [latest]. specialize (IH (fun o' h => H o' (or_intror h))). specialize (H o (or_introl eq_refl)).
    destruct o; try exact IH; [destruct (_ && _); [reflexivity|exact IH]|destruct H]. }
  apply K. intros o Ho. rewrite <- in_rev in Ho. eapply in_gates in Ho; [|exact Ec]. destruct Ho as (n & g & _ & _ & Ho). apply in_rows in Ho as (j & row & i & ct & _ & _ & Ho).
  unfold assign_cell in Ho. apply in_app_iff in Ho as [Ho|Ho]; [destruct (t_is_empty qca ct)|destruct (_ || _)]; try destruct Ho as [<-|[]]; try destruct Ho; exact Logic.I.
Qed.

(** The optimization. *)
Lemma optimized : exists l, apply_qca_one st = Some l /\
  (forall x y, ends_at l0 (live x y 1) -> get_cell_type qca l (live x y 0) = 120 /\ get_cell_mode l (live x y 0) = 2 /\ get_cell_mode l (live x y 1) = 2) /\
  (forall x y, ~ ends_at l0 (live x y 1) -> get_cell_type qca l (live x y 0) = get_cell_type qca l0 (live x y 0) /\ get_cell_mode l (live x y 0) = 0 /\ get_cell_mode l (live x y 1) = 0) /\
  (forall c, cz c <> 0 -> get_cell_type qca l c = get_cell_type qca l0 c) /\ cl_dim (c_cl l) = cl_dim (c_cl l0).
Proof using L F E0.
  unfold apply_qca_one. rewrite E0. unfold post_layout_optimization. change (volume (cl_dim (c_cl l0))) with (k_volume Offset (cl_dim (c_cl l0))).
  destruct (foreach_coordinate_full Offset (cl_dim (c_cl l0)) _ (dim_ok_ar_ok _ cells_dim) (le_n _)) as (cs & -> & Hcs & _). cbn [option_map].
  exists (fold_left via_step cs l0). split; [reflexivity|]. destruct (via_fold cs l0) as (V1 & V2 & V3). rewrite V1.
  assert (G : forall c, via_at l0 c = true -> In c cs -> exists x y, c = live x y 1).
  { intros c V I. apply Hcs in I. apply ends_via in V as (D & Z1 & _); [|exact I]. destruct c as [d x y z]. cbn in D, Z1. subst. exists x, y. reflexivity. }
  assert (XT : forall x y, existsb (fun c => via_at l0 c && coord_eqb (ground_of c) (live x y 0)) cs = true <-> ends_at l0 (live x y 1)).
  { intros x y. rewrite existsb_exists. split.
    - intros (c & I & H). apply andb_prop in H as [H1 H2]. apply coord_eqb_spec in H2. destruct (G c H1 I) as (a & b & ->). unfold ground_of in H2. cbn in H2. injection H2 as -> ->. apply ends_via; [apply Hcs, I|exact H1].
    - intros H. assert (I : inb (cl_dim (c_cl l0)) (live x y 1)) by (apply cell_inside; apply H). exists (live x y 1). split; [apply Hcs, I|]. apply andb_true_intro. split; [apply ends_via; assumption|]. apply coord_eqb_spec. reflexivity. }
  assert (XM0 : forall x y, existsb (fun c => via_at l0 c && (coord_eqb c (live x y 0) || coord_eqb (ground_of c) (live x y 0))) cs = true <-> ends_at l0 (live x y 1)).
  { intros x y. rewrite <- XT, !existsb_exists. split; intros (c & I & H); exists c; split; [exact I| |exact I|]; apply andb_prop in H as [H1 H2]; rewrite H1; cbn [andb].
    - apply orb_prop in H2 as [H2|H2]; [|exact H2]. exfalso. apply coord_eqb_spec in H2. destruct (G c H1 I) as (a & b & ->). discriminate H2.
    - rewrite H2. apply orb_true_r. }
  assert (XM1 : forall x y, existsb (fun c => via_at l0 c && (coord_eqb c (live x y 1) || coord_eqb (ground_of c) (live x y 1))) cs = true <-> ends_at l0 (live x y 1)).
  { intros x y. rewrite existsb_exists. split.
    - intros (c & I & H). apply andb_prop in H as [H1 H2]. apply orb_prop in H2 as [H2|H2]; apply coord_eqb_spec in H2; [|discriminate H2]. subst c. apply ends_via; [apply Hcs, I|exact H1].
    - intros H. assert (I : inb (cl_dim (c_cl l0)) (live x y 1)) by (apply cell_inside; apply H). exists (live x y 1). split; [apply Hcs, I|]. apply andb_true_intro. split; [apply ends_via; assumption|].
      apply orb_true_intro. left. apply coord_eqb_spec. reflexivity. }
  split; [|split; [|split; [|reflexivity]]].
  - intros x y H. rewrite V2, !V3. rewrite (proj2 (XT x y) H), (proj2 (XM0 x y) H), (proj2 (XM1 x y) H). auto.
  - intros x y H. rewrite V2, !V3. rewrite (not_true_is_false _ (fun h => H (proj1 (XT x y) h))), (not_true_is_false _ (fun h => H (proj1 (XM0 x y) h))), (not_true_is_false _ (fun h => H (proj1 (XM1 x y) h))), !mode_zero. auto.
  - intros c N. rewrite V2. replace (existsb _ cs) with false; [reflexivity|]. symmetry. apply not_true_iff_false. rewrite existsb_exists. intros (k & _ & H). apply andb_prop in H as [_ H]. apply coord_eqb_spec in H. subst c. apply N. reflexivity.
Qed.
Lemma still_there l c : apply_qca_one st = Some l -> cd c = false -> 0 <= cz c -> get_cell_type qca l0 c <> 32 -> get_cell_type qca l c <> 32.
Proof using L F E0.
  intros E D Z0 N. destruct optimized as (l' & E' & O1 & O2 & O3 & _). rewrite E in E'. injection E' as <-.
  destruct (Z.eq_dec (cz c) 0) as [Z|Z]; [|rewrite O3 by exact Z; exact N]. destruct c as [d x y z]. cbn in D, Z. subst d z. change (mkC false x y 0) with (live x y 0) in *.
  assert (Dc : Decision (get_cell_type qca l (live x y 0) = 120)) by apply _. destruct Dc as [->|N']; [discriminate|].
  destruct (O2 x y) as (-> & _); [|exact N]. intros H. apply N'. apply O1, H.
Qed.

(** ** Connections *)
Lemma port_gate s : in_gate 5 5 (port_x s) (port_y s).
Proof using. destruct s; unfold in_gate; cbn; lia. Qed.
Lemma port_border s : on_border (port_x s) (port_y s).
Proof using. destruct s; unfold on_border; cbn; lia. Qed.
Lemma used_cell t s : hosts st t -> used st t s -> get_cell_type qca l0 (port_cell t s) = 120.
Proof using L F E0.
  intros H U. destruct (has_gate t H) as (g & Eg). unfold port_cell. rewrite (cell_type t g _ _ H Eg (port_gate s)). apply (used_port cl ops st L t (hosts_in t H) g s Eg U).
Qed.
Lemma facing t u s : cx u = cx t + dx s -> cy u = cy t + dy s -> cx (port_cell u (opposite s)) = cx (port_cell t s) + dx s /\ cy (port_cell u (opposite s)) = cy (port_cell t s) + dy s.
Proof using. intros X Y. unfold port_cell, cell_of. cbn [corner_x corner_y cx cy live]. rewrite X, Y. destruct s; cbn [dx dy opposite port_x port_y]; lia. Qed.
Lemma neighbour_side c a : neighbours c a -> exists r, cx a = cx c + dx r /\ cy a = cy c + dy r /\ cz a = cz c.
Proof using.
  intros [Z H]. assert ((cx a = cx c /\ cy a = cy c - 1) \/ (cx a = cx c + 1 /\ cy a = cy c) \/ (cx a = cx c /\ cy a = cy c + 1) \/ (cx a = cx c - 1 /\ cy a = cy c)) as [K|[K|[K|K]]] by lia;
  [exists SideN|exists SideE|exists SideS|exists SideW]; cbn; lia.
Qed.
Lemma tile_eq t u x y x' y' : inb (cl_dim cl) t -> inb (cl_dim cl) u -> in_gate 5 5 x y -> in_gate 5 5 x' y' -> cell_of 5 5 PCartesian t x y = cell_of 5 5 PCartesian u x' y' -> t = u /\ x = x' /\ y = y'.
Proof using F. intros. apply (cells_apart 5 5 (cl_dim cl) PCartesian t u x y x' y' Logic.I F); assumption. Qed.

(** Two neighbouring cells of different tiles face each other. *)
Lemma meeting t t' x y x' y' : in_gate 5 5 x y -> in_gate 5 5 x' y' -> t <> t' -> cd t = false -> cd t' = false -> neighbours (cell_of 5 5 PCartesian t x y) (cell_of 5 5 PCartesian t' x' y') ->
  exists s, cx t' = cx t + dx s /\ cy t' = cy t + dy s /\ cz t' = cz t /\ on_border x y /\ on_border x' y' /\ x' = x - 4 * dx s /\ y' = y - 4 * dy s /\
    (s = SideN -> y = 0) /\ (s = SideE -> x = 4) /\ (s = SideS -> y = 4) /\ (s = SideW -> x = 0).
Proof using.
  intros [X Y] [X' Y'] NE D D' H. apply neighbour_side in H as (r & H1 & H2 & H3). unfold cell_of in H1, H2, H3. cbn [corner_x corner_y cx cy cz live] in H1, H2, H3.
  exists r. destruct t as [d a b c], t' as [d' a' b' c']. cbn [cd cx cy cz] in *. subst d d' c'.
  assert (NE' : ~ (a = a' /\ b = b')) by (intros [-> ->]; apply NE; reflexivity). unfold on_border.
  destruct r; cbn [dx dy] in *; repeat split; try (intros; discriminate); try (intros _); try lia.
Qed.
End Layout.
