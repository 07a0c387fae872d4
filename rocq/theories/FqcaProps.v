(** Property C94: QCA layouts survive being written to an FQCA file and read back. *)
From Coq Require Import ZArith Lia Bool String Ascii List.
From stdpp Require Import gmap list.
From Verif Require Import CoordModel CoordSpec GridModel CoordMap ClockModel CellModel CellSpec CellProofs
  FqcaModel FqcaSpec FqcaProofs FqcaProofs2 FqcaProofs3 FqcaProofs4 FqcaProofs5.
From Coq Require Import List.
Import ListNotations.
Local Open Scope Z_scope.

Lemma run_facts cl sx sy ops : qca_history ops -> let l := c_run qca (c_new cl sx sy) ops in
  (forall c, In (get_cell_type qca l c) (t_types qca)) /\
  (forall c, c_is_pi l c = (get_cell_type qca l c =? t_input qca)) /\
  (forall c, c_is_po l c = (get_cell_type qca l c =? t_output qca)) /\ c_cl l = cl.
Proof.
  intros HH. cbv zeta. assert (HT : In qca technologies) by (left; reflexivity).
  pose proof (cell_inv_run qca HT cl sx sy ops) as Hi. split; [|split; [|split]].
  - intros c. unfold get_cell_type. rewrite (ci_type _ _ _ Hi). unfold spec_type. 
    assert (G : forall h, (forall c ct, In (AssignType c ct) h -> In ct (t_types qca)) ->
      In (latest (fun o => match o with AssignType c' ct => if coord_eqb c' c then Some ct else None | _ => None end) (t_empty qca) h) (t_types qca)).
    { induction h as [|o r IH]; intros Hh; [left; reflexivity|]. cbn [latest]. specialize (IH (fun c0 ct X => Hh c0 ct (or_intror X))).
      destruct o as [c' ct| | |]; try exact IH. destruct (coord_eqb c' c); [|exact IH]. apply (Hh c' ct). left. reflexivity. }
    apply G. intros c0 ct Hin. apply (HH c0 ct). apply in_rev. exact Hin.
  - intros c. apply eq_true_iff_eq. unfold c_is_pi, get_cell_type. rewrite bool_decide_eq_true, Z.eqb_eq, (ci_type _ _ _ Hi), (ci_in _ _ _ Hi). reflexivity.
  - intros c. apply eq_true_iff_eq. unfold c_is_po, get_cell_type. rewrite bool_decide_eq_true, Z.eqb_eq, (ci_type _ _ _ Hi), (ci_out _ _ _ Hi). reflexivity.
  - apply (proj1 (tile_size_run qca cl sx sy ops)).
Qed.

(** * C94 *)

(** A layout is written and read back as the same layout: all cells with their types, their roles, their names (up to white
    space) and, except for constants, their clock numbers. The dimensions become the smallest ones around the cells; the modes
    become those of the layers. *)
Theorem C94_round_trip : forall k cl sx sy ops name ver repo,
  let l := c_run qca (c_new cl sx sy) ops in
  k <> Siqad -> qca_history ops -> fqca_layout l -> dims_ok k (cl_dim cl) (cz (cl_dim cl) + 1) ->
  one_line name -> one_line ver -> one_line repo ->
  exists t l', write_fqca_layout name ver repo false l = FOk t /\ read_fqca_layout k t = FOk l' /\
  (forall c, same_cell l c l' c) /\ dims_fit l' /\ (forall c, cell_at l c -> get_cell_mode l' c = layer_mode (cz c)).
Proof.
  intros k cl sx sy ops name ver repo l Hk HH LY DI Hn Hv Hr. destruct (run_facts cl sx sy ops HH) as (F1 & F2 & F3 & F4). fold l in F1, F2, F3, F4.
  rewrite <- F4 in DI.
  assert (DI' : dims_ok k (cl_dim (c_cl l)) (Z.of_nat (if false then (2 * Z.to_nat (cz (cl_dim (c_cl l))) + 1)%nat else S (Z.to_nat (cz (cl_dim (c_cl l))))))).
  { cbv iota. replace (Z.of_nat (S (Z.to_nat (cz (cl_dim (c_cl l)))))) with (cz (cl_dim (c_cl l)) + 1); [exact DI|]. destruct DI as (_ & _ & ? & _). lia. }
  destruct (write_read k Hk l false DI' LY F2 F3 name ver repo Hn Hv Hr) as (t & E1 & E2).
  exists t, (l_back l false). split; [exact E1|]. split; [exact E2|].
  assert (TG : forall c, cd c = false -> tgt false c = c) by (intros [d x y z] E; cbn in E; subst d; reflexivity).
  assert (IN : forall c, inb (cl_dim (c_cl l)) c -> same_cell l c (l_back l false) c /\ (cell_at l c -> get_cell_mode (l_back l false) c = layer_mode (cz c))).
  { intros c Hc. pose proof (back_inside k l false DI' LY F1 F2 F3 c Hc) as B. rewrite TG in B by apply Hc. exact B. }
  split; [|split].
  - intros c. destruct (in_dec (fun a b => decide (a = b)) c (src_cells l)) as [Hi|Hi].
    + apply IN. apply (src_inb l (dpos k l false DI')). exact Hi.
    + assert (NC : ~ cell_at l c).
      { intros X. apply Hi. apply (src_inb l (dpos k l false DI')). apply (fq_inside _ LY). exact X. }
      assert (ET : get_cell_type qca l c = t_empty qca).
      { destruct (Z.eq_dec (get_cell_type qca l c) (t_empty qca)) as [E|E]; [exact E|contradiction]. }
      pose proof (back_outside k l false DI' LY F2 F3 c Hi) as O. unfold same_cell. rewrite q_type, q_pi, q_po, O, F2, F3, ET.
      split; [reflexivity|]. split; [reflexivity|]. split; [reflexivity|]. split; intros X; contradiction.
  - apply (back_dims k l false DI' LY F1 F2 F3).
  - intros c Hc. apply IN; [apply (fq_inside _ LY)|]; exact Hc.
Qed.
Print Assumptions C94_round_trip.

(** With vias between the layers, layer z becomes layer 2 z, and every vertical cell gets a cell with its clock number above it. *)
Theorem C94_vias : forall k cl sx sy ops name ver repo,
  let l := c_run qca (c_new cl sx sy) ops in
  k <> Siqad -> qca_history ops -> fqca_layout l -> dims_ok k (cl_dim cl) (2 * cz (cl_dim cl) + 1) ->
  one_line name -> one_line ver -> one_line repo ->
  exists t l', write_fqca_layout name ver repo true l = FOk t /\ read_fqca_layout k t = FOk l' /\
  (forall x y z, same_cell l (live x y z) l' (live x y (2 * z))) /\ dims_fit l' /\
  (forall x y z, cell_at l' (live x y (2 * z + 1)) <-> inb (cl_dim cl) (live x y z) /\ z < cz (cl_dim cl) /\ get_cell_mode l (live x y z) = m_vertical) /\
  (forall x y z, cell_at l' (live x y (2 * z + 1)) ->
     get_cell_type qca l' (live x y (2 * z + 1)) = q_normal /\ get_cell_name l' (live x y (2 * z + 1)) = ""%string /\
     cell_clock_number l' (live x y (2 * z + 1)) = cell_clock_number l (live x y z)) /\
  (forall c, cell_at l' c -> get_cell_mode l' c = layer_mode (cz c)).
Proof.
  intros k cl sx sy ops name ver repo l Hk HH LY DI Hn Hv Hr. destruct (run_facts cl sx sy ops HH) as (F1 & F2 & F3 & F4). fold l in F1, F2, F3, F4.
  rewrite <- F4 in DI |- *.
  assert (DI' : dims_ok k (cl_dim (c_cl l)) (Z.of_nat (if true then (2 * Z.to_nat (cz (cl_dim (c_cl l))) + 1)%nat else S (Z.to_nat (cz (cl_dim (c_cl l))))))).
  { cbv iota. replace (Z.of_nat (2 * Z.to_nat (cz (cl_dim (c_cl l))) + 1)) with (2 * cz (cl_dim (c_cl l)) + 1); [exact DI|]. destruct DI as (_ & _ & ? & _). lia. }
  destruct (write_read k Hk l true DI' LY F2 F3 name ver repo Hn Hv Hr) as (t & E1 & E2).
  exists t, (l_back l true). split; [exact E1|]. split; [exact E2|].
  set (ar := cl_dim (c_cl l)) in *. pose proof (dpos k l true DI') as (DX & DY & DZ). fold ar in DX, DY, DZ.
  set (cells := all_cells (S (Z.to_nat (cx ar))) (S (Z.to_nat (cy ar))) (2 * Z.to_nat (cz ar) + 1)).
  assert (IC : forall x y z, In (live x y z) cells <-> 0 <= x <= cx ar /\ 0 <= y <= cy ar /\ 0 <= z <= 2 * cz ar).
  { intros x y z. unfold cells. rewrite in_all. cbn [cd cx cy cz live]. split; [intros (_ & ? & ? & ?)|intros (? & ? & ?)]; repeat split; lia. }
  assert (OUT : forall c, ~ In c cells -> ob (l_back l true) c = nothing) by exact (back_outside k l true DI' LY F2 F3).
  assert (LIVE : forall c, cell_at (l_back l true) c -> In c cells).
  { intros c Hc. destruct (in_dec (fun a b => decide (a = b)) c cells) as [Hi|Hi]; [exact Hi|]. exfalso. apply Hc. rewrite q_type, OUT by exact Hi. reflexivity. }
  assert (VIA : forall x y z, In (live x y (2 * z + 1)) cells ->
    get_cell_type qca (l_back l true) (live x y (2 * z + 1)) = (if get_cell_mode l (live x y z) =? m_vertical then q_normal else t_empty qca) /\
    get_cell_name (l_back l true) (live x y (2 * z + 1)) = ""%string /\
    (get_cell_mode l (live x y z) = m_vertical -> get_cell_mode (l_back l true) (live x y (2 * z + 1)) = layer_mode (2 * z + 1) /\
      cell_clock_number (l_back l true) (live x y (2 * z + 1)) = cell_clock_number l (live x y z))).
  { intros x y z Hi. pose proof (back_via k l true DI' LY F2 F3 (live x y (2 * z + 1)) Hi) as B.
    assert (Eb : back true (live x y (2 * z + 1)) = live x y z).
    { unfold back. cbn [cx cy cz live]. replace ((2 * z + 1) / 2) with z by (Z.div_mod_to_equations; lia). reflexivity. }
    rewrite Eb in B. apply B. unfold odd_plane. cbn [cz live andb]. rewrite Z.odd_add, Z.odd_mul. reflexivity. }
  assert (SAME : forall x y z, inb ar (live x y z) -> same_cell l (live x y z) (l_back l true) (live x y (2 * z)) /\
    (cell_at l (live x y z) -> get_cell_mode (l_back l true) (live x y (2 * z)) = layer_mode (2 * z))).
  { intros x y z Hc. exact (back_inside k l true DI' LY F1 F2 F3 (live x y z) Hc). }
  split; [|split; [|split; [|split]]].
  - intros x y z. destruct (in_dec (fun a b => decide (a = b)) (live x y z) (src_cells l)) as [Hi|Hi].
    + apply SAME. apply (src_inb l (dpos k l true DI')). exact Hi.
    + assert (NC : ~ cell_at l (live x y z)).
      { intros X. apply Hi. apply (src_inb l (dpos k l true DI')). apply (fq_inside _ LY). exact X. }
      assert (ET : get_cell_type qca l (live x y z) = t_empty qca).
      { destruct (Z.eq_dec (get_cell_type qca l (live x y z)) (t_empty qca)) as [E|E]; [exact E|contradiction]. }
      assert (O : ob (l_back l true) (live x y (2 * z)) = nothing).
      { apply OUT. intros X. apply Hi. apply (src_inb l (dpos k l true DI')). apply IC in X. fold ar. unfold inb. cbn [cd cx cy cz live]. repeat split; lia. }
      unfold same_cell. rewrite q_type, q_pi, q_po, O, F2, F3, ET.
      split; [reflexivity|]. split; [reflexivity|]. split; [reflexivity|]. split; intros X; contradiction.
  - apply (back_dims k l true DI' LY F1 F2 F3).
  - intros x y z. split.
    + intros Hc. pose proof (LIVE _ Hc) as Hi. destruct (VIA x y z Hi) as (V1 & _). unfold cell_at in Hc. rewrite V1 in Hc. apply IC in Hi.
      destruct (Z.eqb_spec (get_cell_mode l (live x y z)) m_vertical) as [E|E]; [|exfalso; apply Hc; reflexivity].
      split; [unfold inb; cbn [cd cx cy cz live]; repeat split; lia|]. split; [lia|exact E].
    + intros ((_ & Hx & Hy & Hz) & Hz' & E). cbn [cx cy cz live] in Hx, Hy, Hz.
      destruct (VIA x y z) as (V1 & _); [apply IC; repeat split; lia|]. unfold cell_at. rewrite V1, E, Z.eqb_refl. discriminate.
  - intros x y z Hc. pose proof (LIVE _ Hc) as Hi. destruct (VIA x y z Hi) as (V1 & V2 & V3). unfold cell_at in Hc. rewrite V1 in *.
    destruct (Z.eqb_spec (get_cell_mode l (live x y z)) m_vertical) as [E|E]; [|exfalso; apply Hc; reflexivity].
    split; [reflexivity|]. split; [exact V2|]. apply V3. exact E.
  - intros [d x y z] Hc. pose proof (LIVE _ Hc) as Hi. assert (d = false) as -> by (unfold cells in Hi; apply in_all in Hi; apply Hi).
    change (mkC false x y z) with (live x y z) in *. cbn [cz live]. pose proof (Z.div_mod z 2 ltac:(lia)) as DM. rewrite Zmod_odd in DM. destruct (Z.odd z).
    + rewrite DM in Hc, Hi |- *. destruct (VIA x y (z / 2) Hi) as (V1 & V2 & V3). unfold cell_at in Hc. rewrite V1 in Hc.
      destruct (Z.eqb_spec (get_cell_mode l (live x y (z / 2))) m_vertical) as [E|E]; [|exfalso; apply Hc; reflexivity]. apply V3. exact E.
    + rewrite Z.add_0_r in DM. rewrite DM in Hc, Hi |- *. apply IC in Hi.
      assert (Hb : inb ar (live x y (z / 2))) by (unfold inb; cbn [cd cx cy cz live]; repeat split; lia).
      destruct (SAME _ _ _ Hb) as [S1 S2]. apply S2. destruct S1 as (S1 & _). unfold cell_at in *. rewrite <- S1. exact Hc.
Qed.
Print Assumptions C94_vias.

(** ** The theorems apply to a layout *)

Definition clock_ok (l : clayout) (c : coord) : bool := match cell_clock_number l c with Some n => (0 <=? n) && (n <? 4) | None => false end.
Definition cell_ok (l : clayout) (c : coord) : bool :=
  existsb (coord_eqb c) (src_cells l) && forallb (fun a => negb (Ascii.eqb a nl)) (list_ascii_of_string (get_cell_name l c)) &&
  (negb ((get_cell_type qca l c =? q_const0) || (get_cell_type qca l c =? q_const1)) || String.eqb (get_cell_name l c) "").

Lemma layout_check l : 0 <= cx (cl_dim (c_cl l)) /\ 0 <= cy (cl_dim (c_cl l)) /\ 0 <= cz (cl_dim (c_cl l)) ->
  forallb (clock_ok l) (src_cells l) = true -> forallb (cell_ok l) (foreach_cell l) = true -> (length (foreach_cell l) <= 52)%nat -> fqca_layout l.
Proof.
  intros DP H1 H2 H3. rewrite forallb_forall in H1, H2.
  assert (FC : forall c, cell_at l c -> In c (foreach_cell l)).
  { intros c Hc. unfold cell_at, get_cell_type in Hc. unfold foreach_cell. destruct (c_type l !! c) as [t|] eqn:E; [|exfalso; apply Hc; reflexivity].
    apply elem_of_list_In. apply elem_of_list_fmap. exists (c, t). split; [reflexivity|]. apply elem_of_map_to_list. exact E. }
  assert (OK : forall c, cell_at l c -> cell_ok l c = true) by (intros c Hc; apply H2, FC, Hc).
  constructor.
  - intros c Hc. specialize (OK c Hc). unfold cell_ok in OK. rewrite !andb_true_iff in OK. destruct OK as [[O _] _]. apply existsb_exists in O.
    destruct O as (d & Hd & Ed). apply CoordProofs.coord_eqb_spec in Ed. subst d. apply (src_inb l DP). exact Hd.
  - intros c Hc. apply (src_inb l DP) in Hc. specialize (H1 c Hc). unfold clock_ok in H1. destruct (cell_clock_number l c) as [n|]; [|discriminate].
    exists n. split; [reflexivity|]. apply andb_true_iff in H1. destruct H1 as [A B]. apply Z.leb_le in A. apply Z.ltb_lt in B. split; assumption.
  - intros c Hc. assert (Ha : cell_at l c) by (unfold cell_at; destruct Hc as [-> | ->]; discriminate). specialize (OK c Ha). unfold cell_ok in OK.
    rewrite !andb_true_iff in OK. destruct OK as [_ O]. destruct Hc as [E|E]; rewrite E in O; cbn in O; apply String.eqb_eq; exact O.
  - intros c Hc. specialize (OK c Hc). unfold cell_ok in OK. rewrite !andb_true_iff in OK. destruct OK as [[_ O] _]. rewrite forallb_forall in O.
    intros X. specialize (O nl X). rewrite Ascii.eqb_refl in O. discriminate.
  - intros L HL HH. apply Nat.le_trans with (length (foreach_cell l)); [|exact H3]. apply NoDup_incl_length; [exact HL|]. intros c Hc. apply FC. apply HH. exact Hc.
Qed.

Definition ex_cl : clocked := mkCL Cartesian (live 2 1 1) (clocking Cartesian (TWODDWAVE FOUR)).
(** An input, a wire that crosses below another one, a via, a constant and an output. *)
Definition ex_ops : list cop :=
  [AssignType (live 0 0 0) 105; AssignName (live 0 0 0) "a"; AssignType (live 1 0 0) 120; AssignMode (live 1 0 0) 2; AssignType (live 2 0 0) 111;
   AssignName (live 2 0 0) "out"; AssignType (live 1 1 0) 48; AssignType (live 1 1 1) 120; AssignMode (live 1 1 1) 3].
Definition ex_l : clayout := c_run qca (c_new ex_cl 1 1) ex_ops.

Lemma ex_history : qca_history ex_ops.
Proof.
  assert (E : forallb (fun o => match o with AssignType _ ct => existsb (Z.eqb ct) (t_types qca) | _ => true end) ex_ops = true) by reflexivity.
  rewrite forallb_forall in E. intros c ct Hi. specialize (E _ Hi). cbn beta iota in E. apply existsb_exists in E. destruct E as (x & Hx & Ex).
  apply Z.eqb_eq in Ex. subst x. exact Hx.
Qed.
Lemma ex_layout : fqca_layout ex_l.
Proof.
  apply layout_check; [vm_compute; repeat split; discriminate|vm_compute; reflexivity|vm_compute; reflexivity|vm_compute; repeat constructor].
Qed.
Lemma one_line_check s : forallb (fun a => negb (Ascii.eqb a nl)) (list_ascii_of_string s) = true -> one_line s.
Proof. intros O X. rewrite forallb_forall in O. specialize (O nl X). rewrite Ascii.eqb_refl in O. discriminate. Qed.

Example C94_nonvacuous : exists t l', write_fqca_layout "adder" "fiction v0.6" "repo" false ex_l = FOk t /\ read_fqca_layout Offset t = FOk l' /\
  (forall c, same_cell ex_l c l' c) /\ dims_fit l' /\ (forall c, cell_at ex_l c -> get_cell_mode l' c = layer_mode (cz c)).
Proof.
  apply (C94_round_trip Offset ex_cl 1 1 ex_ops); [discriminate|exact ex_history|exact ex_layout| | | |]; [|apply one_line_check; reflexivity..].
  vm_compute. repeat split; discriminate.
Qed.
Example C94_vias_nonvacuous : exists t l', write_fqca_layout "" "fiction v0.6" "repo" true ex_l = FOk t /\ read_fqca_layout Cube t = FOk l' /\
  cell_at l' (live 1 0 1) /\ cell_clock_number l' (live 1 0 1) = Some 1 /\ cell_at l' (live 1 1 2) /\ ~ cell_at l' (live 0 0 1).
Proof.
  destruct (C94_vias Cube ex_cl 1 1 ex_ops "" "fiction v0.6" "repo") as (t & l' & E1 & E2 & S & _ & V1 & V2 & _);
    [discriminate|exact ex_history|exact ex_layout|vm_compute; repeat split; discriminate|apply one_line_check; reflexivity..|].
  exists t, l'. split; [exact E1|]. split; [exact E2|].
  assert (C1 : cell_at l' (live 1 0 1)).
  { apply (V1 1 0 0). split; [vm_compute; repeat split; discriminate|]. split; [reflexivity|reflexivity]. }
  split; [exact C1|]. split; [|split].
  - etransitivity; [exact (proj2 (proj2 (V2 1 0 0 C1)))|reflexivity].
  - destruct (S 1 1 1) as (S1 & _). unfold cell_at. change (live 1 1 2) with (live 1 1 (2 * 1)). rewrite S1. vm_compute. discriminate.
  - intros X. apply (V1 0 0 0) in X. destruct X as (_ & _ & X). vm_compute in X. discriminate.
Qed.

(** ** What the file does not keep *)

(** What reading a written layout shows: the value of [f], or nothing if writing or reading fails. *)
Definition after {A} (k : kind) (vias : bool) (l : clayout) (f : clayout -> A) : option A :=
  match write_fqca_layout "n" "v" "r" vias l with
  | FOk t => match read_fqca_layout k t with FOk l' => Some (f l') | _ => None end
  | _ => None
  end.
Definition small (ops : list cop) : clayout := c_run qca (c_new (mkCL Cartesian (live 2 1 1) (clocking Cartesian (TWODDWAVE FOUR))) 1 1) ops.

(** Modes are not written: they become those of the layers. *)
Theorem C94_modes_refuted : let l := small [AssignType (live 1 1 0) 120; AssignMode (live 1 1 0) 2; AssignType (live 1 1 1) 120; AssignMode (live 1 1 1) 3] in
  after Offset false l (fun l' => (get_cell_mode l' (live 1 1 0), get_cell_mode l' (live 1 1 1))) = Some (0, 2) /\
  (get_cell_mode l (live 1 1 0), get_cell_mode l (live 1 1 1)) = (2, 3).
Proof. split; vm_compute; reflexivity. Qed.
Print Assumptions C94_modes_refuted.

(** The clock numbers of constants are lost. *)
Theorem C94_constant_clock_refuted : let l := small [AssignType (live 1 1 0) 48] in
  after Offset false l (fun l' => (get_cell_type qca l' (live 1 1 0), cell_clock_number l' (live 1 1 0))) = Some (48, Some 0) /\
  cell_clock_number l (live 1 1 0) = Some 2.
Proof. split; vm_compute; reflexivity. Qed.
Print Assumptions C94_constant_clock_refuted.

(** A constant with a name is read as a normal cell. *)
Theorem C94_named_constant_refuted : let l := small [AssignType (live 1 1 0) 48; AssignName (live 1 1 0) "zero"] in
  after Offset false l (fun l' => get_cell_type qca l' (live 1 1 0)) = Some q_normal /\ get_cell_type qca l (live 1 1 0) = q_const0.
Proof. split; vm_compute; reflexivity. Qed.
Print Assumptions C94_named_constant_refuted.

(** Names lose their white space. *)
Theorem C94_names_refuted : let l := small [AssignType (live 1 1 0) 105; AssignName (live 1 1 0) "a b"] in
  after Offset false l (fun l' => get_cell_name l' (live 1 1 0)) = Some "ab"%string /\ get_cell_name l (live 1 1 0) = "a b"%string.
Proof. split; vm_compute; reflexivity. Qed.
Print Assumptions C94_names_refuted.

(** A name with a line feed, or such a name of the layout, makes the file unreadable. *)
Theorem C94_line_feed_refuted : let l := small [AssignType (live 1 1 0) 105; AssignName (live 1 1 0) (String nl "a")] in
  after Offset false l (fun _ => tt) = None /\ after Offset false (small [AssignType (live 1 1 0) 105]) (fun _ => tt) = Some tt /\
  match write_fqca_layout (String nl "a") "v" "r" false (small []) with FOk t => read_fqca_layout Offset t | _ => FUndefined end = UnsupportedCharacter "["%char.
Proof. split; [|split]; vm_compute; reflexivity. Qed.
Print Assumptions C94_line_feed_refuted.

(** Empty columns and rows at the far ends are lost. *)
Theorem C94_dimensions_refuted : let l := small [AssignType (live 1 0 0) 120] in
  after Offset false l (fun l' => (cx (cl_dim (c_cl l')), cy (cl_dim (c_cl l')), cz (cl_dim (c_cl l')))) = Some (1, 0, 0) /\
  (cx (cl_dim (c_cl l)), cy (cl_dim (c_cl l)), cz (cl_dim (c_cl l))) = (2, 1, 1).
Proof. split; vm_compute; reflexivity. Qed.
Print Assumptions C94_dimensions_refuted.

(** With vias and coordinates of one layer bit, the crossing layer is read onto the ground layer. *)
Theorem C94_vias_refuted : let l := small [AssignType (live 1 1 0) 48; AssignType (live 1 1 1) 120] in
  after Offset true l (fun l' => (get_cell_type qca l' (live 1 1 0), get_cell_type qca l' (live 1 1 1))) = Some (q_normal, t_empty qca) /\
  after Cube true l (fun l' => (get_cell_type qca l' (live 1 1 0), get_cell_type qca l' (live 1 1 2))) = Some (q_const0, q_normal).
Proof. split; vm_compute; reflexivity. Qed.
Print Assumptions C94_vias_refuted.

(** A layout with 53 inputs cannot be written; one with 52 inputs can. *)
Definition inputs (n : nat) : clayout :=
  c_run qca (c_new (mkCL Cartesian (live 99 0 0) (clocking Cartesian (TWODDWAVE FOUR))) 1 1) (map (fun i => AssignType (live (Z.of_nat i) 0 0) 105) (seq 0 n)).
Theorem C94_labels_refuted : write_fqca_layout "n" "v" "r" false (inputs 53) = OutOfCellNames /\ after Offset false (inputs 52) c_num_pis = Some 52.
Proof. split; vm_compute; reflexivity. Qed.
Print Assumptions C94_labels_refuted.
