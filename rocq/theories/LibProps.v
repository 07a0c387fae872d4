(** C91: application of gate libraries. *)
From Coq Require Import ZArith Lia Bool String List.
From stdpp Require Import gmap.
From Verif Require Import CoordModel CoordSpec CoordProofs GridModel GridSpec CoordMap ClockModel ClockSpec GateModel GateSpec GateProofs GateProofs2 GateProofs3 GateProps
  CellModel CellSpec CellProofs RouteModel RouteSpec RouteProofs RouteProps LibModel LibSpec LibProofs LibProofs2.
Import List ListNotations.
Local Open Scope Z_scope.

Lemma laid_wf cl ops st : laid_out cl ops st -> wf st /\ all_placed st /\ cl_dim (g_cl st) = cl_dim cl.
Proof. intros (R & M & D & P & A). split; [exact (wf_reached _ _ _ R M D P)|]. split; [exact A|]. exact (dim_run _ _ _ R). Qed.
Lemma applied T gx gy p lib st l : apply_gate_library T gx gy p lib st = Some l ->
  exists ops, apply_gates T gx gy p lib st (todo st) = Some ops /\ l = c_run T (cell_layout gx gy p st) ops.
Proof. unfold apply_gate_library. fold (todo st). destruct (apply_gates _ _ _ _ _ _ _) as [ops|]; [|discriminate]. cbn. intros E. injection E as <-. exists ops. auto. Qed.

(** The library is applied unless it cannot realise some gate. *)
Theorem C91_applies : forall T gx gy p lib cl ops st, laid_out cl ops st ->
  (apply_gate_library T gx gy p lib st = None <-> exists t, hosts st t /\ lib st t = None).
Proof.
  intros T gx gy p lib cl ops st L. destruct (laid_wf _ _ _ L) as (HW & HA & _). unfold apply_gate_library. fold (todo st).
  transitivity (apply_gates T gx gy p lib st (todo st) = None); [destruct (apply_gates _ _ _ _ _ _ _); split; intros; try discriminate; reflexivity|].
  rewrite gates_none. split.
  - intros (n & Hn & E). exists (get_tile st n). split; [apply todo_hosts; assumption|exact E].
  - intros (t & H & E). destruct (hosts_todo st HW t H) as [Hn G]. exists (get_node st t). rewrite G. auto.
Qed.
Print Assumptions C91_applies.

(** On Cartesian and shifted Cartesian layouts every tile shows its gate, cell by cell, and there are no other cells. *)
Theorem C91_cells : forall T gx gy p lib cl ops st l, In T technologies -> rectangular p -> library_size gx gy lib -> laid_out cl ops st -> fits gx gy (cl_dim cl) ->
  apply_gate_library T gx gy p lib st = Some l ->
  (forall t g x y, hosts st t -> lib st t = Some g -> in_gate gx gy x y -> get_cell_type T l (cell_of gx gy p t x y) = gate_cell T g x y) /\
  (forall c, get_cell_type T l c <> t_empty T -> exists t x y, hosts st t /\ in_gate gx gy x y /\ c = cell_of gx gy p t x y).
Proof.
  intros T gx gy p lib cl ops st l HT RP HL L F E. destruct (laid_wf _ _ _ L) as (HW & HA & ED). rewrite <- ED in F. destruct (applied _ _ _ _ _ _ _ E) as (cs & Ec & ->).
  pose proof (cell_inv_run T HT (mkCL Cartesian (cell_aspect_ratio gx gy p (cl_dim (g_cl st))) (cl_scheme (g_cl st))) gx gy cs) as CI. fold (cell_layout gx gy p st) in CI.
  unfold get_cell_type. split.
  - intros t g x y H Eg GI. rewrite (ci_type _ _ _ CI).
    assert (U : forall t', claims T gx gy p lib st (cell_of gx gy p t x y) t' -> t' = t).
    { intros t' (H' & g' & x' & y' & _ & GI' & Ec' & _). destruct H as [[I1 _] _], H' as [[I2 _] _]. destruct (cells_apart gx gy _ p t t' x y x' y' RP F I1 I2 GI GI' Ec') as [-> _]. reflexivity. }
    destruct (Z.eq_dec (gate_cell T g x y) (t_empty T)) as [X|X].
    + rewrite X. eapply type_none; [eassumption..|]. intros t' C. pose proof (U _ C). subst t'. destruct C as (_ & g' & x' & y' & Eg' & GI' & Ec' & N).
      apply N. rewrite Eg in Eg'. injection Eg' as <-. unfold cell_of in Ec'. inversion Ec' as [[E1 E2]]. replace x' with x by lia. replace y' with y by lia. exact X.
    + apply (type_some T gx gy p lib HL st HW F HA cs _ t _ Ec H); [exists g, x, y; auto|exact X|exact U|].
      intros ct' C'. eapply claim_unique; [exact H| |exact C']. exists g, x, y. auto.
  - intros c. rewrite (ci_type _ _ _ CI). intros N.
    destruct (latest_some (fun o => match o with AssignType c' ct => if coord_eqb c' c then Some ct else None | _ => None end) (t_empty T) (rev cs)) as [(o & Ho & Eo)|X]; [|exfalso; exact (N X)].
    rewrite <- in_rev in Ho. destruct o as [c' ct| | |]; try discriminate Eo. destruct (coord_eqb c' c) eqn:X; [|discriminate Eo]. apply coord_eqb_spec in X. subst c'.
    eapply call_type in Ho; [|eassumption..]. destruct Ho as (t & H & (g & x & y & _ & GI & Ec' & _) & _). exists t, x, y. auto.
Qed.
Print Assumptions C91_cells.

(** On hexagonal layouts, whose tiles overlap, this holds wherever at most one gate has a cell. *)
Theorem C91_hexagons : forall T gx gy p lib cl ops st l c, In T technologies -> library_size gx gy lib -> laid_out cl ops st -> fits gx gy (cl_dim cl) ->
  apply_gate_library T gx gy p lib st = Some l ->
  (get_cell_type T l c <> t_empty T <-> exists t, claims T gx gy p lib st c t) /\
  (forall t g x y, hosts st t -> lib st t = Some g -> in_gate gx gy x y -> c = cell_of gx gy p t x y -> gate_cell T g x y <> t_empty T ->
     (forall t', claims T gx gy p lib st c t' -> t' = t) -> get_cell_type T l c = gate_cell T g x y).
Proof.
  intros T gx gy p lib cl ops st l c HT HL L F E. destruct (laid_wf _ _ _ L) as (HW & HA & ED). rewrite <- ED in F. destruct (applied _ _ _ _ _ _ _ E) as (cs & Ec & ->).
  pose proof (cell_inv_run T HT (mkCL Cartesian (cell_aspect_ratio gx gy p (cl_dim (g_cl st))) (cl_scheme (g_cl st))) gx gy cs) as CI. fold (cell_layout gx gy p st) in CI.
  unfold get_cell_type. rewrite (ci_type _ _ _ CI). split; [split|].
  - intros N.
    destruct (latest_some (fun o => match o with AssignType c' ct => if coord_eqb c' c then Some ct else None | _ => None end) (t_empty T) (rev cs)) as [(o & Ho & Eo)|X]; [|exfalso; exact (N X)].
    rewrite <- in_rev in Ho. destruct o as [c' ct| | |]; try discriminate Eo. destruct (coord_eqb c' c) eqn:X; [|discriminate Eo]. apply coord_eqb_spec in X. subst c'.
    eapply call_type in Ho; [|eassumption..]. destruct Ho as (t & H & C & D). exists t. apply claims_cell. split; [exact H|]. exists ct. auto.
  - intros (t & C). apply claims_cell in C as (H & ct & C & D).
    destruct (latest_some (fun o => match o with AssignType c' ct => if coord_eqb c' c then Some ct else None | _ => None end) (t_empty T) (rev cs)) as [(o & Ho & Eo)|X].
    + rewrite <- in_rev in Ho. destruct o as [c' ct'| | |]; try discriminate Eo. destruct (coord_eqb c' c) eqn:X; [|discriminate Eo]. injection Eo as Eo. 
      eapply call_type in Ho; [|eassumption..]. destruct Ho as (t' & _ & _ & D'). unfold spec_type. rewrite <- Eo. exact D'.
    + exfalso. assert (K : In (AssignType c ct) cs) by (eapply call_type; [eassumption..|]; exists t; auto).
      assert (A : forall o a, In o (rev cs) -> match o with AssignType c' ct => if coord_eqb c' c then Some ct else None | _ => None end = Some a -> a <> t_empty T).
      { intros o a Ho Ea. rewrite <- in_rev in Ho. destruct o as [c' ct'| | |]; try discriminate Ea. destruct (coord_eqb c' c) eqn:X'; [|discriminate Ea]. injection Ea as ->.
        eapply call_type in Ho; [|eassumption..]. destruct Ho as (t' & _ & _ & D'). exact D'. }
      rewrite in_rev in K. revert X A K. clear. induction (rev cs) as [|o r IH]; intros X A K; [destruct K|]. cbn [latest] in X. destruct o as [c' ct'| | |].
      * destruct (coord_eqb c' c) eqn:Y.
        -- apply (A (AssignType c' ct') ct'); [left; reflexivity|rewrite Y; reflexivity|exact X].
        -- destruct K as [K|K]; [injection K as -> ->; rewrite (proj2 (coord_eqb_spec c c) eq_refl) in Y; discriminate Y|]. apply IH; [exact X| |exact K]. intros o a Ho. apply A. right. exact Ho.
      * destruct K as [K|K]; [discriminate K|]. apply IH; [exact X| |exact K]. intros o a Ho. apply A. right. exact Ho.
      * destruct K as [K|K]; [discriminate K|]. apply IH; [exact X| |exact K]. intros o a Ho. apply A. right. exact Ho.
      * destruct K as [K|K]; [discriminate K|]. apply IH; [exact X| |exact K]. intros o a Ho. apply A. right. exact Ho.
  - intros t g x y H Eg GI Ec' N U. apply (type_some T gx gy p lib HL st HW F HA cs _ t _ Ec H); [exists g, x, y; auto|exact N|exact U|].
    intros ct' C'. eapply claim_unique; [exact H| |exact C']. exists g, x, y. auto.
Qed.
Print Assumptions C91_hexagons.

(** All cells are inside the aspect ratio, which is as small as a layout of all tiles allows. *)
Theorem C91_aspect_ratio : forall T gx gy p lib cl ops st l, In T technologies -> library_size gx gy lib -> laid_out cl ops st -> fits gx gy (cl_dim cl) ->
  apply_gate_library T gx gy p lib st = Some l ->
  let ar := cl_dim (c_cl l) in
  (forall c, get_cell_type T l c <> t_empty T -> inb ar c) /\
  (exists t, inb (cl_dim cl) t /\ cx ar = corner_x gx p t + gx - 1) /\ (exists t, inb (cl_dim cl) t /\ cy ar = corner_y gy p t + gy - 1) /\ cz ar = cz (cl_dim cl) /\
  (forall t, inb (cl_dim cl) t -> corner_x gx p t + gx - 1 <= cx ar /\ corner_y gy p t + gy - 1 <= cy ar).
Proof.
  intros T gx gy p lib cl ops st l HT HL L F E ar. pose proof (C91_hexagons T gx gy p lib cl ops st l) as HX. 
  destruct (laid_wf _ _ _ L) as (HW & HA & ED). 
  assert (EA : ar = cell_aspect_ratio gx gy p (cl_dim cl)).
  { unfold ar. destruct (applied _ _ _ _ _ _ _ E) as (cs & Ec & ->). rewrite <- ED. transitivity (cl_dim (c_cl (cell_layout gx gy p st))); [|reflexivity].
    generalize (cell_layout gx gy p st). clear. induction cs as [|o r IH]; intros l; [reflexivity|]. change (c_run T l (o :: r)) with (c_run T (c_step T l o) r). rewrite IH. destruct o; cbn; try reflexivity.
    unfold assign_cell_type. cbv zeta. destruct (t_is_empty T ct); [reflexivity|]. destruct (t_is_input T ct); [reflexivity|]. destruct (t_is_output T ct); reflexivity. }
  assert (D : dim_ok (cl_dim cl)) by apply L.
  destruct (aspect gx gy p (cl_dim cl) D F) as (A1 & A2 & A3 & A4). rewrite EA. split; [|split; [exact A2|split; [exact A3|split; [exact A4|]]]].
  - intros c N. apply (proj1 (HX c HT HL L F E)) in N as (t & (H & g & x & y & _ & GI & -> & _)). apply A1; [|exact GI]. destruct H as [[I _] _]. rewrite ED in I. exact I.
  - intros t It. assert (GI : in_gate gx gy (gx - 1) (gy - 1)) by (destruct F as (G1 & G2 & _); unfold in_gate; lia).
    pose proof (A1 t _ _ It GI) as (_ & K1 & K2 & _). cbn [cell_of cx cy live] in K1, K2. lia.
Qed.
Print Assumptions C91_aspect_ratio.

(** The input and output cells of a tile carry the name of its node; the inputs and outputs of the cell layout are exactly these cells, and no
    other cell has a name. *)
Theorem C91_pins : forall T gx gy p lib cl ops st l, In T technologies -> rectangular p -> library_size gx gy lib -> laid_out cl ops st -> fits gx gy (cl_dim cl) ->
  apply_gate_library T gx gy p lib st = Some l ->
  (forall c, (c_is_pi l c = true <-> get_cell_type T l c = t_input T) /\ (c_is_po l c = true <-> get_cell_type T l c = t_output T)) /\
  (forall t g x y, hosts st t -> lib st t = Some g -> in_gate gx gy x y ->
     get_cell_name l (cell_of gx gy p t x y) =
       if (gate_cell T g x y =? t_input T) || (gate_cell T g x y =? t_output T) then get_name st (get_node st t) else ""%string) /\
  (forall c, get_cell_name l c <> ""%string -> get_cell_type T l c = t_input T \/ get_cell_type T l c = t_output T).
Proof.
  intros T gx gy p lib cl ops st l HT RP HL L F E. destruct (C91_cells T gx gy p lib cl ops st l HT RP HL L F E) as [TY _].
  destruct (laid_wf _ _ _ L) as (HW & HA & ED). rewrite <- ED in F. destruct (applied _ _ _ _ _ _ _ E) as (cs & Ec & El).
  pose proof (cell_inv_run T HT (mkCL Cartesian (cell_aspect_ratio gx gy p (cl_dim (g_cl st))) (cl_scheme (g_cl st))) gx gy cs) as CI. fold (cell_layout gx gy p st) in CI. rewrite <- El in CI.
  assert (NM : forall t g x y nm, hosts st t -> lib st t = Some g -> in_gate gx gy x y -> (In (AssignName (cell_of gx gy p t x y) nm) cs <->
     (gate_cell T g x y = t_input T \/ gate_cell T g x y = t_output T) /\ nm = get_name st (get_node st t))).
  { intros t g x y nm H Eg GI. rewrite (call_name T gx gy p lib HL st HW F HA cs _ nm Ec). split.
    - intros (t' & ct & H' & (g' & x' & y' & Eg' & GI' & Ec' & ->) & IO & ->). destruct H as [[I1 O1] D1], H' as [[I2 O2] D2].
      destruct (cells_apart gx gy _ p t t' x y x' y' RP F I1 I2 GI GI' Ec') as (<- & <- & <-). rewrite Eg in Eg'. injection Eg' as <-. auto.
    - intros [IO ->]. exists t, (gate_cell T g x y). split; [exact H|]. split; [exists g, x, y; auto|]. auto. }
  split; [|split].
  - intros c. unfold c_is_pi, c_is_po, get_cell_type. rewrite !bool_decide_eq_true, (ci_in _ _ _ CI), (ci_out _ _ _ CI), (ci_type _ _ _ CI). tauto.
  - intros t g x y H Eg GI. rewrite (ci_name _ _ _ CI). specialize (NM t g x y).
    destruct ((gate_cell T g x y =? t_input T) || (gate_cell T g x y =? t_output T)) eqn:X.
    + apply latest_all.
      * intros o a Ho Ea. rewrite <- in_rev in Ho. destruct o as [| |c' nm|]; try discriminate Ea. destruct (coord_eqb c' _) eqn:Y; [|discriminate Ea]. injection Ea as ->. apply coord_eqb_spec in Y. subst c'.
        apply (NM a H Eg GI) in Ho. apply Ho.
      * exists (AssignName (cell_of gx gy p t x y) (get_name st (get_node st t))). rewrite <- in_rev. split; [apply (NM _ H Eg GI); split; [lia|reflexivity]|]. rewrite (proj2 (coord_eqb_spec _ _) eq_refl). discriminate.
    + apply latest_none. intros o Ho. rewrite <- in_rev in Ho. destruct o as [| |c' nm|]; try reflexivity. destruct (coord_eqb c' _) eqn:Y; [|reflexivity]. apply coord_eqb_spec in Y. subst c'.
      apply (NM nm H Eg GI) in Ho. lia.
  - intros c. rewrite (ci_name _ _ _ CI). intros N.
    destruct (latest_some (fun o => match o with AssignName c' nm => if coord_eqb c' c then Some nm else None | _ => None end) ""%string (rev cs)) as [(o & Ho & Eo)|X]; [|exfalso; exact (N X)].
    rewrite <- in_rev in Ho. destruct o as [| |c' nm|]; try discriminate Eo. destruct (coord_eqb c' c) eqn:X; [|discriminate Eo]. apply coord_eqb_spec in X. subst c'.
    eapply call_name in Ho; [|eassumption..]. destruct Ho as (t & ct & H & (g & x & y & Eg & GI & -> & ->) & IO & _). rewrite (TY t g x y H Eg GI). exact IO.
Qed.
Print Assumptions C91_pins.

(** On Cartesian layouts a cell has the clock number of its tile. *)
Theorem C91_clock_numbers : forall T gx gy lib cl ops st l t x y, In T technologies -> laid_out cl ops st -> fits gx gy (cl_dim cl) ->
  apply_gate_library T gx gy PCartesian lib st = Some l -> inb (cl_dim cl) t -> in_gate gx gy x y ->
  cell_clock_number l (cell_of gx gy PCartesian t x y) = Some (get_clock_number (g_cl st) t).
Proof.
  intros T gx gy lib cl ops st l t x y HT L F E It [X Y]. destruct (applied _ _ _ _ _ _ _ E) as (cs & Ec & ->). destruct F as (G1 & G2 & _).
  assert (K : forall cs l, (forall o, In o cs -> match o with SetTileSize _ _ => False | _ => True end) -> c_cl (c_run T l cs) = c_cl l /\ c_tsx (c_run T l cs) = c_tsx l /\ c_tsy (c_run T l cs) = c_tsy l).
  { clear. induction cs as [|o r IH]; intros l H; [auto|]. change (c_run T l (o :: r)) with (c_run T (c_step T l o) r). destruct (IH (c_step T l o)) as (-> & -> & ->); [intros o' Ho'; apply H; right; exact Ho'|].
    specialize (H o (or_introl eq_refl)). destruct o; cbn; try (auto; fail); [|destruct H].
    unfold assign_cell_type. cbv zeta. destruct (t_is_empty T ct); [auto|]. destruct (t_is_input T ct); [auto|]. destruct (t_is_output T ct); auto. }
  destruct (K cs (cell_layout gx gy PCartesian st)) as (K1 & K2 & K3).
  { intros o Ho. eapply in_gates in Ho; [|exact Ec]. destruct Ho as (n & g & _ & _ & Ho). apply in_rows in Ho as (j & row & i & ct & _ & _ & Ho).
    unfold assign_cell in Ho. apply in_app_iff in Ho as [Ho|Ho]; [destruct (t_is_empty T ct)|destruct (_ || _)]; try destruct Ho as [<-|[]]; try destruct Ho; exact Logic.I. }
  unfold cell_clock_number. rewrite K1, K2, K3. cbn [cell_layout c_new c_tsx c_tsy c_cl cell_of corner_x corner_y cx cy cz live].
  destruct ((gx =? 0) || (gy =? 0)) eqn:Z0; [lia|]. f_equal. unfold get_clock_number. cbn [cl_scheme]. destruct It as (D & IX & IY & IZ).
  rewrite !Z.quot_div_nonneg by nia. rewrite !(Z.add_comm (_ * _)), !Z.div_add, !Z.div_small by lia. destruct t as [d a b c]. cbn in *. subst d. reflexivity.
Qed.
Print Assumptions C91_clock_numbers.

(** ** Clock numbers elsewhere *)

Lemma laid_check cl ops : match g_run (g_empty cl) ops with Some _ => true | None => false end = true -> moves_no_constant ops -> dim_ok (cl_dim cl) -> places_inside (cl_dim cl) ops ->
  forallb (fun n => is_dead (final cl ops) n || negb (cd (get_tile (final cl ops) n))) (seq 2 (List.length (g_nodes (final cl ops)) - 2)) = true -> laid_out cl ops (final cl ops).
Proof.
  intros R M D P A. split; [exact (reached_final cl ops R)|]. split; [exact M|]. split; [exact D|]. split; [exact P|]. intros n Hn Hd.
  rewrite forallb_forall in A. specialize (A n). rewrite Hd in A. apply negb_true_iff. apply A, in_seq. lia.
Qed.
Lemma lib_result T gx gy p lib st f (a : Z * option Z) :
  option_map (fun l => (get_cell_type T l f, cell_clock_number l f)) (apply_gate_library T gx gy p lib st) = Some a ->
  exists l, apply_gate_library T gx gy p lib st = Some l /\ get_cell_type T l f = fst a /\ cell_clock_number l f = snd a.
Proof. destruct (apply_gate_library _ _ _ _ _ _) as [l|]; [|discriminate]. cbn [option_map]. intros E. exists l. inversion E. auto. Qed.

(** A library whose every gate is a block of 4 by 4 cells. *)
Definition block : library := fun _ _ => Some [[120; 120; 120; 120]; [120; 120; 120; 120]; [120; 120; 120; 120]; [120; 120; 120; 120]].
Lemma block_size : library_size 4 4 block.
Proof. intros st t g E. injection E as <-. split; [reflexivity|]. intros r Hr. repeat (destruct Hr as [<-|Hr]; [reflexivity|]). destruct Hr. Qed.

(** On hexagonal layouts, whose rows are three quarters of a tile apart, the clock number of a cell is looked up as if they were a whole tile apart:
    the cells of row 3 of a row-clocked layout begin with the clock number of row 2. *)
Definition rows_cl : clocked := std_layout (Hex EvenRow) (live 1 3 0) (ROW FOUR).
Definition rows_ops : list gop := [CreatePi "a" (live 0 0 0); CreateLit [live 0 0 0] 2 (live 1 1 0); CreateLit [live 1 1 0] 2 (live 0 2 0); CreatePo (live 0 2 0) "f" (live 1 3 0)].
Theorem C91_hexagon_clocks_refuted : exists cl ops st l a t x y, cl_topo cl = Hex a /\ laid_out cl ops st /\ fits 4 4 (cl_dim cl) /\ library_size 4 4 block /\
  apply_gate_library sidb 4 4 (PHexagonal a) block st = Some l /\ hosts st t /\ in_gate 4 4 x y /\ get_cell_type sidb l (cell_of 4 4 (PHexagonal a) t x y) = 120 /\
  cell_clock_number l (cell_of 4 4 (PHexagonal a) t x y) <> Some (get_clock_number (g_cl st) t).
Proof.
  set (st := final rows_cl rows_ops).
  assert (L : laid_out rows_cl rows_ops st).
  { apply laid_check; [vm_compute; reflexivity|repeat constructor|unfold dim_ok; cbn; lia|repeat constructor; unfold inb; simpl; intros; repeat split; lia|vm_compute; reflexivity]. }
  destruct (lib_result sidb 4 4 (PHexagonal EvenRow) block st (cell_of 4 4 (PHexagonal EvenRow) (live 1 3 0) 0 0) (120, Some 2)) as (l & El & E1 & E2); [vm_compute; reflexivity|].
  exists rows_cl, rows_ops, st, l, EvenRow, (live 1 3 0), 0, 0.
  assert (C : get_clock_number (g_cl st) (live 1 3 0) = 3) by (vm_compute; reflexivity).
  split; [reflexivity|]. split; [exact L|]. split; [unfold fits; cbn; lia|]. split; [exact block_size|]. split; [exact El|].
  split; [split; [vm_compute; repeat split; discriminate|vm_compute; reflexivity]|]. split; [unfold in_gate; lia|]. split; [exact E1|].
  rewrite E2, C. intros X. discriminate X.
Qed.
Print Assumptions C91_hexagon_clocks_refuted.

(** On shifted Cartesian layouts the second half of a shifted tile gets the clock number of the next column. *)
Definition columns_cl : clocked := std_layout (Hex OddRow) (live 1 1 0) (COLUMNAR FOUR).
Definition columns_ops : list gop := [CreatePi "a" (live 0 1 0); CreatePo (live 0 1 0) "f" (live 1 1 0)].
Theorem C91_shifted_clocks_refuted : exists cl ops st l a t x y, cl_topo cl = Hex a /\ laid_out cl ops st /\ fits 4 4 (cl_dim cl) /\ library_size 4 4 block /\
  apply_gate_library qca 4 4 (PShifted a) block st = Some l /\ hosts st t /\ in_gate 4 4 x y /\ get_cell_type qca l (cell_of 4 4 (PShifted a) t x y) = 120 /\
  cell_clock_number l (cell_of 4 4 (PShifted a) t x y) <> Some (get_clock_number (g_cl st) t).
Proof.
  set (st := final columns_cl columns_ops).
  assert (L : laid_out columns_cl columns_ops st).
  { apply laid_check; [vm_compute; reflexivity|repeat constructor|unfold dim_ok; cbn; lia|repeat constructor; unfold inb; simpl; intros; repeat split; lia|vm_compute; reflexivity]. }
  destruct (lib_result qca 4 4 (PShifted OddRow) block st (cell_of 4 4 (PShifted OddRow) (live 0 1 0) 2 0) (120, Some 1)) as (l & El & E1 & E2); [vm_compute; reflexivity|].
  exists columns_cl, columns_ops, st, l, OddRow, (live 0 1 0), 2, 0.
  assert (C : get_clock_number (g_cl st) (live 0 1 0) = 0) by (vm_compute; reflexivity).
  split; [reflexivity|]. split; [exact L|]. split; [unfold fits; cbn; lia|]. split; [exact block_size|]. split; [exact El|].
  split; [split; [vm_compute; repeat split; discriminate|vm_compute; reflexivity]|]. split; [unfold in_gate; lia|]. split; [exact E1|].
  rewrite E2, C. intros X. discriminate X.
Qed.
Print Assumptions C91_shifted_clocks_refuted.

(** QCA ONE on a layout with an inverter and a crossing layer. *)
Definition inv_cl : clocked := std_layout Cartesian (live 2 1 1) (TWODDWAVE FOUR).
Definition inv_ops : list gop := [CreatePi "a" (live 0 0 0); CreateLit [live 0 0 0] 3 (live 1 0 0); CreatePo (live 1 0 0) "f" (live 2 0 0)].
Example C91_nonvacuous : In qca technologies /\ rectangular PCartesian /\ laid_out inv_cl inv_ops (final inv_cl inv_ops) /\ fits 5 5 (cl_dim inv_cl) /\
  hosts (final inv_cl inv_ops) (live 1 0 0) /\ in_gate 5 5 0 2 /\
  exists l, apply_gate_library qca 5 5 PCartesian qca_one (final inv_cl inv_ops) = Some l /\ get_cell_type qca l (cell_of 5 5 PCartesian (live 1 0 0) 0 2) = 120 /\
    cell_clock_number l (cell_of 5 5 PCartesian (live 1 0 0) 0 2) = Some 1.
Proof.
  split; [left; reflexivity|]. split; [exact Logic.I|]. split.
  { apply laid_check; [vm_compute; reflexivity|repeat constructor|unfold dim_ok; cbn; lia|repeat constructor; unfold inb; simpl; intros; repeat split; lia|vm_compute; reflexivity]. }
  split; [unfold fits; cbn; lia|]. split; [split; [vm_compute; repeat split; discriminate|vm_compute; reflexivity]|]. split; [unfold in_gate; lia|].
  apply (lib_result qca 5 5 PCartesian qca_one (final inv_cl inv_ops) (cell_of 5 5 PCartesian (live 1 0 0) 0 2) (120, Some 1)). vm_compute. reflexivity.
Qed.
Example C91_none_nonvacuous : exists st t, laid_out inv_cl [CreatePi "a" (live 0 0 0); CreateLit [live 0 0 0] 5 (live 1 0 0)] st /\ hosts st t /\ qca_one st t = None.
Proof.
  exists (final inv_cl [CreatePi "a" (live 0 0 0); CreateLit [live 0 0 0] 5 (live 1 0 0)]), (live 1 0 0). split.
  { apply laid_check; [vm_compute; reflexivity|repeat constructor|unfold dim_ok; cbn; lia|repeat constructor; unfold inb; simpl; intros; repeat split; lia|vm_compute; reflexivity]. }
  split; [split; [vm_compute; repeat split; discriminate|vm_compute; reflexivity]|]. vm_compute. reflexivity.
Qed.
