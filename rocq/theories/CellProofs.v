(** Proofs about cell-level layouts, obstruction layouts and bounding boxes. *)
From Coq Require Import ZArith Bool String List Lia ZifyBool.
From stdpp Require Import gmap list strings.
From Verif Require Import CoordModel CoordSpec CoordProofs CoordProps GridModel GridSpec GridProofs GridProps CoordMap
  ClockModel ClockSpec ClockProofs GateModel GateSpec GateProofs GateProofs2 GateProofs3 CellModel CellSpec.
Import ListNotations.
Local Open Scope Z_scope.

(** ** Cell-level layouts *)

Lemma c_run_app T l ops o : c_run T l (ops ++ [o]) = c_step T (c_run T l ops) o.
Proof. unfold c_run. rewrite fold_left_app. reflexivity. Qed.

Lemma coord_eqb_dec a b : coord_eqb a b = bool_decide (a = b).
Proof.
  destruct (coord_eqb a b) eqn:E; symmetry.
  - apply bool_decide_eq_true, coord_eqb_spec, E.
  - apply bool_decide_eq_false, coord_eqb_false, E.
Qed.

Lemma size_nil (m : gmap coord Z) : Nat.eqb (size m) 0 = true <-> m = ∅.
Proof. rewrite Nat.eqb_eq. apply map_size_empty_iff. Qed.

Section Cells.
Context (T : tech) (HT : In T technologies).
Lemma tech_distinct : t_empty T <> t_input T /\ t_empty T <> t_output T /\ t_input T <> t_output T.
Proof. simpl in HT. destruct HT as [<-|[<-|[<-|[<-|[]]]]]; repeat split; discriminate. Qed.

Record cell_inv (hist : list cop) (l : clayout) : Prop := {
  ci_type : forall c, default (t_empty T) (c_type l !! c) = spec_type T hist c;
  ci_some : forall c ct, c_type l !! c = Some ct -> ct <> t_empty T;
  ci_name : forall c, get_cell_name l c = spec_name hist c;
  ci_in : forall c, c ∈ c_in l <-> spec_type T hist c = t_input T;
  ci_out : forall c, c ∈ c_out l <-> spec_type T hist c = t_output T
}.

Lemma spec_type_snoc hist o c : spec_type T (hist ++ [o]) c =
  match o with AssignType c' ct => if coord_eqb c' c then ct else spec_type T hist c | _ => spec_type T hist c end.
Proof. unfold spec_type. rewrite rev_app_distr. destruct o; simpl; try reflexivity. destruct (coord_eqb c0 c); reflexivity. Qed.
Lemma spec_name_snoc hist o c : spec_name (hist ++ [o]) c =
  match o with AssignName c' n => if coord_eqb c' c then n else spec_name hist c | _ => spec_name hist c end.
Proof. unfold spec_name. rewrite rev_app_distr. destruct o; simpl; try reflexivity. destruct (coord_eqb c0 c); reflexivity. Qed.
Lemma spec_mode_snoc hist o c : spec_mode T (hist ++ [o]) c =
  match o with
  | AssignMode c' m => if coord_eqb c' c then m else spec_mode T hist c
  | AssignType c' ct => if coord_eqb c' c && (ct =? t_empty T) then 0 else spec_mode T hist c
  | _ => spec_mode T hist c end.
Proof.
  unfold spec_mode. rewrite rev_app_distr. destruct o; simpl; try reflexivity.
  - destruct (coord_eqb c0 c && _); reflexivity.
  - destruct (coord_eqb c0 c); reflexivity.
Qed.

Lemma cell_inv_new cl x y : cell_inv [] (c_new cl x y).
Proof.
  destruct tech_distinct as (H1 & H2 & H3).
  split; unfold spec_type, get_cell_name; cbn [c_new c_type c_name c_in c_out rev latest].
  - intros c. rewrite lookup_empty. reflexivity.
  - intros c ct. rewrite lookup_empty. discriminate.
  - intros c. rewrite lookup_empty. reflexivity.
  - intros c. split; [intros H; exfalso; revert H; apply not_elem_of_empty|congruence].
  - intros c. split; [intros H; exfalso; revert H; apply not_elem_of_empty|congruence].
Qed.

Lemma cell_inv_step hist l o : cell_inv hist l -> cell_inv (hist ++ [o]) (c_step T l o).
Proof.
  destruct tech_distinct as (H1 & H2 & H3).
  intros [It Is In_ Ii Io]. destruct o as [c0 ct|c0 m|c0 n|x y]; cbn [c_step].
  - unfold assign_cell_type, t_is_empty, t_is_input, t_is_output.
    destruct (Z.eqb_spec ct (t_empty T)) as [E|E]; [|destruct (Z.eqb_spec ct (t_input T)) as [E1|E1]; [|destruct (Z.eqb_spec ct (t_output T)) as [E2|E2]]];
    (split; unfold get_cell_name; cbn [c_type c_mode c_name c_in c_out];
     [ intros c; rewrite spec_type_snoc, coord_eqb_dec; case_bool_decide as Hc; subst;
       [rewrite ?lookup_delete, ?lookup_insert; reflexivity|rewrite ?lookup_delete_ne, ?lookup_insert_ne by assumption; apply It]
     | intros c k Hk; destruct (decide (c0 = c)) as [->|Hne];
       [rewrite ?lookup_delete, ?lookup_insert in Hk; congruence
       |rewrite ?lookup_delete_ne, ?lookup_insert_ne in Hk by assumption; eapply Is, Hk]
     | intros c; rewrite spec_name_snoc; apply In_
     | intros c; rewrite spec_type_snoc, coord_eqb_dec; case_bool_decide as Hc; subst;
       [try (split; [set_solver|congruence]); try (split; [congruence|set_solver])
       |rewrite <- Ii; set_solver]
     | intros c; rewrite spec_type_snoc, coord_eqb_dec; case_bool_decide as Hc; subst;
       [try (split; [set_solver|congruence]); try (split; [congruence|set_solver])
       |rewrite <- Io; set_solver] ]).
  - split; cbn [assign_cell_mode c_type c_name c_in c_out].
    + intros c. rewrite spec_type_snoc. apply It.
    + exact Is.
    + intros c. rewrite spec_name_snoc. apply In_.
    + intros c. rewrite spec_type_snoc. apply Ii.
    + intros c. rewrite spec_type_snoc. apply Io.
  - split; cbn [assign_cell_name c_type c_name c_in c_out].
    + intros c. rewrite spec_type_snoc. apply It.
    + exact Is.
    + intros c. rewrite spec_name_snoc, coord_eqb_dec. unfold get_cell_name, assign_cell_name in *; cbn [c_name].
      destruct (String.eqb_spec n "") as [->|Hn]; case_bool_decide as Hc; subst.
      * rewrite lookup_delete. reflexivity.
      * rewrite lookup_delete_ne by assumption. apply In_.
      * rewrite lookup_insert. reflexivity.
      * rewrite lookup_insert_ne by assumption. apply In_.
    + intros c. rewrite spec_type_snoc. apply Ii.
    + intros c. rewrite spec_type_snoc. apply Io.
  - split; cbn [set_tile_size c_type c_name c_in c_out].
    + intros c. rewrite spec_type_snoc. apply It.
    + exact Is.
    + intros c. rewrite spec_name_snoc. apply In_.
    + intros c. rewrite spec_type_snoc. apply Ii.
    + intros c. rewrite spec_type_snoc. apply Io.
Qed.

Lemma cell_inv_run cl x y ops : cell_inv ops (c_run T (c_new cl x y) ops).
Proof.
  induction ops as [|o r IH] using rev_ind; [apply cell_inv_new|]. rewrite c_run_app. apply cell_inv_step, IH.
Qed.

Lemma mode_run cl x y ops c : modes_exist T ops -> get_cell_mode (c_run T (c_new cl x y) ops) c = spec_mode T ops c.
Proof.
  induction ops as [|o r IH] using rev_ind; intros Hm.
  - unfold get_cell_mode. cbn [c_run fold_left c_new c_mode]. rewrite lookup_empty. reflexivity.
  - rewrite c_run_app, spec_mode_snoc.
    assert (Hm' : modes_exist T r). { intros E d m Hd. apply (Hm E d m). apply in_or_app; auto. }
    specialize (IH Hm'). unfold get_cell_mode in *. destruct o as [c0 ct|c0 m|c0 n|a b]; cbn [c_step].
    + unfold assign_cell_type, t_is_empty. rewrite coord_eqb_dec.
      destruct (ct =? t_empty T); [|rewrite andb_false_r; destruct (t_is_input T ct), (t_is_output T ct); exact IH].
      rewrite andb_true_r. cbn [c_mode]. case_bool_decide; subst; [rewrite lookup_delete; reflexivity|].
      rewrite lookup_delete_ne by assumption. exact IH.
    + cbn [assign_cell_mode c_mode]. unfold t_is_normal_mode. rewrite coord_eqb_dec.
      assert (Hm0 : t_modes T = false -> m = 0). { intros E. apply (Hm E c0 m). apply in_or_app; right; left; reflexivity. }
      destruct (if t_modes T then m =? 0 else true) eqn:En.
      * assert (m = 0) as ->. { destruct (t_modes T); [lia|auto]. }
        case_bool_decide; subst; [rewrite lookup_delete; reflexivity|]. rewrite lookup_delete_ne by assumption. exact IH.
      * case_bool_decide; subst; [rewrite lookup_insert; reflexivity|]. rewrite lookup_insert_ne by assumption. exact IH.
    + exact IH.
    + exact IH.
Qed.

Lemma tile_size_run cl x y ops : let l := c_run T (c_new cl x y) ops in
  c_cl l = cl /\ (c_tsx l, c_tsy l) = spec_tile_size x y ops.
Proof.
  cbv zeta. induction ops as [|o r [IH1 IH2]] using rev_ind; [split; reflexivity|].
  rewrite c_run_app. unfold spec_tile_size in *. rewrite rev_app_distr.
  destruct o; cbn [c_step rev app latest].
  - unfold assign_cell_type. destruct (t_is_empty T ct), (t_is_input T ct), (t_is_output T ct); split; assumption.
  - split; assumption.
  - split; assumption.
  - split; [assumption|reflexivity].
Qed.

Lemma cell_dom ops l c : cell_inv ops l -> is_Some (c_type l !! c) <-> spec_type T ops c <> t_empty T.
Proof.
  intros Hi. rewrite <- (ci_type _ _ Hi). destruct (c_type l !! c) as [ct|] eqn:E; simpl.
  - split; [intros _; eapply ci_some; eauto|eauto].
  - split; [intros [? ?]; discriminate|congruence].
Qed.

Lemma foreach_cell_In l c : In c (foreach_cell l) <-> is_Some (c_type l !! c).
Proof.
  unfold foreach_cell. rewrite <- elem_of_list_In, elem_of_list_fmap. split.
  - intros ((k & v) & -> & H). apply elem_of_map_to_list in H. eauto.
  - intros [v H]. exists (c, v). split; [reflexivity|]. apply elem_of_map_to_list, H.
Qed.
Lemma foreach_cell_NoDup l : List.NoDup (foreach_cell l).
Proof. apply NoDup_ListNoDup, NoDup_fst_map_to_list. Qed.
Lemma foreach_cell_length l : length (foreach_cell l) = size (c_type l).
Proof. unfold foreach_cell. rewrite fmap_length. reflexivity. Qed.
Lemma foreach_cell_enum ops l : cell_inv ops l -> enumerates (foreach_cell l) (fun c => spec_type T ops c <> t_empty T).
Proof. intros Hi. split; [apply foreach_cell_NoDup|]. intros c. rewrite foreach_cell_In. apply cell_dom, Hi. Qed.
Lemma set_enum (s : gset coord) (P : coord -> Prop) : (forall c, c ∈ s <-> P c) -> enumerates (elements s) P.
Proof.
  intros H. split; [apply NoDup_ListNoDup, NoDup_elements|]. intros c. rewrite <- elem_of_list_In, elem_of_elements. apply H.
Qed.
Lemma by_type_enum ops l ct : cell_inv ops l -> ct <> t_empty T ->
  enumerates (get_cells_by_type T l ct) (fun c => spec_type T ops c = ct).
Proof.
  intros Hi Hct. split; [apply List.NoDup_filter, foreach_cell_NoDup|]. intros c. unfold get_cells_by_type.
  rewrite filter_In, foreach_cell_In, (cell_dom ops l c Hi). unfold get_cell_type. rewrite (ci_type _ _ Hi). 
  split; [intros [_ H]; lia|intros ->; split; [exact Hct|lia]].
Qed.
End Cells.

(** ** Signals *)
Lemma spot ar i s : dim_ok ar -> inb ar i ->
  coord_eqb i s || coord_eqb (above ar i) s || coord_eqb (below ar i) s = true <-> inb ar s /\ same_spot i s.
Proof.
  intros (_ & _ & Hz) (Di & Xi & Yi & Zi). rewrite !orb_true_iff, !coord_eqb_spec.
  destruct i as [di xi yi zi], s as [ds xs ys zs]. unfold same_spot, inb, above, below. cbn [cd cx cy cz] in *. subst di.
  destruct (cz ar <? zi) eqn:E1; [lia|]. destruct (zi <? cz ar) eqn:E2, (zi =? 0) eqn:E3; split;
  try (intros [[H|H]|H]; inversion H; subst; repeat split; lia);
  intros ((-> & HX & HY & HZ) & -> & ->).
  - destruct (Z.eq_dec zs zi) as [->|]; [auto|]. left; right. f_equal; lia.
  - lia.
  - left; left. f_equal; lia.
  - destruct (Z.eq_dec zs zi) as [->|]; [auto|]. right. f_equal; lia.
Qed.

Lemma tile_node st t : inv0 st -> cd t = false -> is_empty_tile st t = false -> get_tile st (get_node st t) = t.
Proof.
  intros Hi Hd He. unfold is_empty_tile, get_node in *. destruct (g_tn st !! t) as [n|] eqn:E; simpl in *; [|discriminate].
  apply (i_bij _ Hi) in E. unfold get_tile. rewrite E. reflexivity.
Qed.

Lemma fanin_inb rc st n i : dim_ok (cl_dim (g_cl st)) -> inb (cl_dim (g_cl st)) (get_tile st n) ->
  In i (foreach_fanin rc st n) -> inb (cl_dim (g_cl st)) i.
Proof.
  intros Hd Hb. unfold foreach_fanin. destruct (is_constant n); [intros []|]. cbv zeta. rewrite in_map_iff.
  intros (c & <- & Hc). apply filter_In in Hc as [_ Hc]. apply andb_prop in Hc as [Hc _].
  apply C08_elevation in Hc; tauto.
Qed.
Lemma fanout_inb rc st m k : inv1 st -> const_clean st -> dim_ok (cl_dim (g_cl st)) ->
  inb (cl_dim (g_cl st)) (get_tile st m) ->
  In k (foreach_fanout rc st m) -> inb (cl_dim (g_cl st)) (get_tile st k).
Proof.
  intros Hi Hc Hd Hb Hk. destruct (fanout_real rc st m k Hi Hc Hk) as (Hk2 & Hg & _).
  unfold foreach_fanout in Hk. destruct (is_constant m); [destruct Hk|]. cbv zeta in Hk. apply in_flat_map in Hk as (u & Hu & Hin).
  assert (Hub : inb (cl_dim (g_cl st)) u).
  { destruct rc; [unfold outgoing_clocked_zones in Hu; apply filter_In in Hu as [Hu _]|];
    apply adjacent_spec in Hu as [Hu _]; assumption. }
  assert (Happ : forall v, inb (cl_dim (g_cl st)) v ->
    In k (if is_child st (get_node st v) (get_tile st m) then [get_node st v] else []) -> inb (cl_dim (g_cl st)) (get_tile st k)).
  { intros v Hv. destruct (is_child _ _ _); [|intros []]. intros [<-|[]].
    rewrite tile_node; [exact Hv|apply Hi|apply Hv|]. unfold is_empty_tile. apply Nat.eqb_neq. lia. }
  unfold fanout_at in Hin. cbv zeta in Hin. rewrite !in_app_iff in Hin. destruct Hin as [Hin|[Hin|Hin]].
  - eapply Happ, Hin. exact Hub.
  - destruct (coord_eqb _ _) in Hin; [destruct Hin|]. eapply Happ, Hin. apply above_inb, Hub.
  - destruct (coord_eqb _ _) in Hin; [destruct Hin|]. eapply Happ, Hin. apply below_inb, Hub.
Qed.

Lemma incoming_iff rc st t s : inv0 st -> dim_ok (cl_dim (g_cl st)) -> inb (cl_dim (g_cl st)) t ->
  (is_incoming_signal rc st t s = true <->
   inb (cl_dim (g_cl st)) s /\ exists i, In i (incoming_data_flow rc st t) /\ same_spot i s).
Proof.
  intros Hi Hd Ht. unfold is_incoming_signal, incoming_data_flow. cbv zeta. rewrite existsb_exists.
  destruct (is_empty_tile st t) eqn:E.
  - unfold is_empty_tile in E. apply Nat.eqb_eq in E. rewrite E. unfold foreach_fanin. simpl. split.
    + intros (x & [] & _).
    + intros (_ & x & [] & _).
  - assert (Hg : inb (cl_dim (g_cl st)) (get_tile st (get_node st t))) by (rewrite tile_node; [exact Ht|exact Hi|apply Ht|exact E]).
    split.
    + intros (i & Hin & H). apply spot in H as [H1 H2]; [|exact Hd|eapply fanin_inb; eauto]. split; [exact H1|]. eauto.
    + intros (H1 & i & Hin & H2). exists i. split; [exact Hin|]. apply spot; [exact Hd|eapply fanin_inb; eauto|]. auto.
Qed.
Lemma outgoing_iff rc st t s : inv1 st -> const_clean st -> dim_ok (cl_dim (g_cl st)) -> inb (cl_dim (g_cl st)) t ->
  (is_outgoing_signal rc st t s = true <->
   inb (cl_dim (g_cl st)) s /\ exists o, In o (outgoing_data_flow rc st t) /\ same_spot o s).
Proof.
  intros Hi Hc Hd Ht. unfold is_outgoing_signal, outgoing_data_flow. cbv zeta. rewrite existsb_exists.
  destruct (is_empty_tile st t) eqn:E.
  - unfold is_empty_tile in E. apply Nat.eqb_eq in E. rewrite E. unfold foreach_fanout. simpl. split.
    + intros (x & [] & _).
    + intros (_ & x & [] & _).
  - assert (Hg : inb (cl_dim (g_cl st)) (get_tile st (get_node st t))) by (rewrite tile_node; [exact Ht|apply Hi|apply Ht|exact E]).
    setoid_rewrite in_map_iff. split.
    + intros (i & Hin & H). apply spot in H as [H1 H2]; [|exact Hd|eapply fanout_inb; eauto]. split; [exact H1|]. exists (get_tile st i). eauto.
    + intros (H1 & o & (i & <- & Hin) & H2). exists i. split; [exact Hin|]. apply spot; [exact Hd|eapply fanout_inb; eauto|]. auto.
Qed.

(** ** Obstructions *)
Lemma o_run_app l ops o : o_run l (ops ++ [o]) = match o_run l ops with Some l' => o_step l' o | None => None end.
Proof.
  revert l. induction ops as [|p r IH]; intros l; simpl.
  - destruct (o_step l o); reflexivity.
  - destruct (o_step l p); [apply IH|reflexivity].
Qed.
Lemma marks_run b ops : forall l, o_run (o_new b) ops = Some l ->
  (forall c, c ∈ o_coords l <-> marked_coordinate ops c = true) /\
  (forall s t, (s, t) ∈ o_conns l <-> marked_connection ops s t = true).
Proof.
  induction ops as [|o r IH] using rev_ind; intros l.
  - simpl. intros E. inversion E; subst. cbn [o_new o_coords o_conns]. unfold marked_coordinate, marked_connection; simpl.
    split; intros; (split; [intros H; exfalso; revert H; apply not_elem_of_empty|discriminate]).
  - rewrite o_run_app. destruct (o_run (o_new b) r) as [l0|] eqn:E0; [|discriminate]. destruct (IH l0 eq_refl) as [I1 I2].
    unfold marked_coordinate, marked_connection in *. setoid_rewrite rev_app_distr.
    destruct o; cbn [o_step rev app latest]; intros E.
    + inversion E; subst; clear E. cbn [o_coords o_conns]. split; [|assumption].
      intros c'. rewrite coord_eqb_dec. case_bool_decide; subst; [split; [reflexivity|set_solver]|rewrite <- I1; set_solver].
    + inversion E; subst; clear E. cbn [o_coords o_conns]. split; [assumption|].
      intros s' t'. rewrite !coord_eqb_dec. case_bool_decide; case_bool_decide; subst; simpl; try (rewrite <- I2; set_solver).
      split; [reflexivity|set_solver].
    + inversion E; subst; clear E. cbn [o_coords o_conns]. split; [|assumption].
      intros c'. rewrite coord_eqb_dec. case_bool_decide; subst; [split; [set_solver|discriminate]|rewrite <- I1; set_solver].
    + inversion E; subst; clear E. cbn [o_coords o_conns]. split; [assumption|].
      intros s' t'. rewrite !coord_eqb_dec. case_bool_decide; case_bool_decide; subst; simpl; try (rewrite <- I2; set_solver).
      split; [set_solver|discriminate].
    + inversion E; subst; clear E. cbn [o_coords o_conns]. split; [|assumption]. intros c'. split; [set_solver|discriminate].
    + inversion E; subst; clear E. cbn [o_coords o_conns]. split; [assumption|]. intros s' t'. split; [set_solver|discriminate].
    + destruct (o_base l0) as [|st|]; [discriminate| |discriminate]. destruct (g_step st o); [|discriminate]. inversion E; subst. split; assumption.
    + destruct (o_base l0) as [| |T cl]; [discriminate|discriminate|]. inversion E; subst. split; assumption.
Qed.

(** The layout underneath evolves by the inherited calls alone. *)
Lemma base_gate ops : forall l st l', o_base l = OGate st -> o_run l ops = Some l' ->
  exists st', g_run st (gate_calls ops) = Some st' /\ o_base l' = OGate st'.
Proof.
  induction ops as [|o r IH]; intros l st l' Hb; simpl.
  - intros E. inversion E; subst. eauto.
  - destruct (o_step l o) as [l1|] eqn:E; [|discriminate]. intros Hr.
    destruct o; simpl in E; try (inversion E; subst; eapply IH; [|exact Hr]; exact Hb).
    + rewrite Hb in E. destruct (g_step st o) as [st1|] eqn:Es; [|discriminate]. inversion E; subst.
      cbn [gate_calls flat_map app]. cbn [g_run]. rewrite Es. eapply IH; [|exact Hr]; reflexivity.
    + rewrite Hb in E. discriminate.
Qed.
Lemma base_cell T ops : forall l cl l', o_base l = OCell T cl -> o_run l ops = Some l' ->
  o_base l' = OCell T (c_run T cl (cell_calls ops)).
Proof.
  induction ops as [|o r IH]; intros l cl l' Hb; simpl.
  - intros E. inversion E; subst. exact Hb.
  - destruct (o_step l o) as [l1|] eqn:E; [|discriminate]. intros Hr.
    destruct o; simpl in E; try (inversion E; subst; eapply IH; [|exact Hr]; exact Hb).
    + rewrite Hb in E. discriminate.
    + rewrite Hb in E. inversion E; subst. cbn [cell_calls flat_map app]. 
      change (c_run T cl (o :: flat_map (fun o => match o with OnCell g => [g] | _ => [] end) r)) with (c_run T (c_step T cl o) (cell_calls r)).
      eapply IH; [|exact Hr]; reflexivity.
Qed.

(** ** Bounding boxes *)

Lemma bb_fold_plain k L : k <> Siqad -> forall mn mx,
  let m := fold_left (bb_upd k) L (mn, mx) in
  cd (fst m) = cd mn /\ cd (snd m) = cd mx /\ cz (fst m) = cz mn /\ cz (snd m) = cz mx /\
  (forall c, In c L -> cx (fst m) <= cx c <= cx (snd m) /\ cy (fst m) <= cy c <= cy (snd m)) /\
  (cx (fst m) <= cx mn /\ cy (fst m) <= cy mn /\ cx mx <= cx (snd m) /\ cy mx <= cy (snd m)) /\
  (cx (fst m) = cx mn \/ exists c, In c L /\ cx c = cx (fst m)) /\
  (cx (snd m) = cx mx \/ exists c, In c L /\ cx c = cx (snd m)) /\
  (cy (fst m) = cy mn \/ exists c, In c L /\ cy c = cy (fst m)) /\
  (cy (snd m) = cy mx \/ exists c, In c L /\ cy c = cy (snd m)).
Proof.
  intros Hk. cbv zeta. induction L as [|a L IH]; intros mn mx.
  - simpl. repeat split; auto; try lia; intros c [].
  - cbn [fold_left]. set (m' := bb_upd k (mn, mx) a).
    assert (E : m' = (mkC (cd mn) (Z.min (cx mn) (cx a)) (Z.min (cy mn) (cy a)) (cz mn),
          mkC (cd mx) (Z.max (cx mx) (cx a)) (Z.max (cy mx) (cy a)) (cz mx))).
    { unfold m', bb_upd. destruct k; [reflexivity|reflexivity|congruence]. }
    rewrite E. clear E m'.
    destruct (IH (mkC (cd mn) (Z.min (cx mn) (cx a)) (Z.min (cy mn) (cy a)) (cz mn))
                 (mkC (cd mx) (Z.max (cx mx) (cx a)) (Z.max (cy mx) (cy a)) (cz mx)))
      as (A1 & A2 & A3 & A4 & A5 & A6 & A7 & A8 & A9 & A10).
    cbn [cd cx cy cz] in *. set (m := fold_left _ _ _) in *.
    split; [exact A1|]. split; [exact A2|]. split; [exact A3|]. split; [exact A4|]. split.
    { intros c [<-|Hc]; [lia|apply A5, Hc]. }
    split; [lia|].
    assert (Hmin : forall f lo v, (v = Z.min lo (f a) \/ exists c, In c L /\ f c = v) -> v = lo \/ exists c, (a = c \/ In c L) /\ f c = v).
    { intros f lo v [H|(c & H1 & H2)]; [|right; exists c; auto]. destruct (Z.le_gt_cases lo (f a)); [left; lia|].
      right. exists a. split; [auto|lia]. }
    assert (Hmin' : forall f lo v, (v = Z.min lo (f a) \/ exists c, In c L /\ f c = v) -> v = lo \/ exists c, (a = c \/ In c L) /\ f c = v) by exact Hmin.
    assert (Hmax : forall f lo v, (v = Z.max lo (f a) \/ exists c, In c L /\ f c = v) -> v = lo \/ exists c, (a = c \/ In c L) /\ f c = v).
    { intros f lo v [H|(c & H1 & H2)]; [|right; exists c; auto]. destruct (Z.le_gt_cases lo (f a)).
      - right. exists a. split; [auto|lia].
      - left. lia. }
    clear Hmin'. cbn [In]. repeat split; [apply (Hmin cx)|apply (Hmax cx)|apply (Hmin cy)|apply (Hmax cy)]; assumption.
Qed.

Definition flat_cube (c : coord) : Prop := c_wf c /\ cd c = false /\ cz c = 0.
Lemma tf_flat c : k_valid Siqad c -> flat_cube (to_fiction_coord c) /\
  cx (to_fiction_coord c) = cx c /\ cy (to_fiction_coord c) = dimer_row c.
Proof.
  intros (Hd & (Hx & Hy & Hz) & Hr). rewrite C04_siqad_saturates by exact Hd.
  unfold flat_cube, c_wf, in_i32, i32_min, i32_max in *. cbn [live cd cx cy cz]. repeat split; lia.
Qed.
Lemma ts_valid c : flat_cube c -> k_valid Siqad (to_siqad_coord c) /\ to_fiction_coord (to_siqad_coord c) = c /\
  dimer_row (to_siqad_coord c) = cy c /\ cx (to_siqad_coord c) = cx c.
Proof.
  intros (Hw & Hd & Hz). destruct (proj2 C04_siqad_roundtrip c Hw Hd Hz) as (H1 & H2 & H3 & H4).
  split; [|auto]. split; [unfold to_siqad_coord; destruct (0 <=? cy c); reflexivity|]. split; [exact H1|]. rewrite H2. apply Hw.
Qed.
Lemma flat_min a b : flat_cube a -> flat_cube b -> flat_cube (mkC (cd a) (Z.min (cx a) (cx b)) (Z.min (cy a) (cy b)) (cz a)).
Proof. unfold flat_cube, c_wf, in_i32, i32_min, i32_max. cbn [cd cx cy cz]. intros. repeat split; lia || tauto. Qed.
Lemma flat_max a b : flat_cube a -> flat_cube b -> flat_cube (mkC (cd a) (Z.max (cx a) (cx b)) (Z.max (cy a) (cy b)) (cz a)).
Proof. unfold flat_cube, c_wf, in_i32, i32_min, i32_max. cbn [cd cx cy cz]. intros. repeat split; lia || tauto. Qed.
Lemma bb_siqad L : (forall c, In c L -> k_valid Siqad c) -> forall mn mx,
  flat_cube (to_fiction_coord mn) -> flat_cube (to_fiction_coord mx) ->
  let m := fold_left (bb_upd Siqad) L (mn, mx) in
  let M := fold_left (bb_upd Cube) (map to_fiction_coord L) (to_fiction_coord mn, to_fiction_coord mx) in
  to_fiction_coord (fst m) = fst M /\ to_fiction_coord (snd m) = snd M /\
  flat_cube (fst M) /\ flat_cube (snd M) /\
  (L <> [] -> fst m = to_siqad_coord (fst M) /\ snd m = to_siqad_coord (snd M)).
Proof.
  cbv zeta. induction L as [|a L IH]; intros HL mn mx Hn Hx.
  - cbn [map fold_left fst snd]. repeat (split; [solve [auto]|]). congruence.
  - cbn [map fold_left]. destruct (tf_flat a (HL a (or_introl eq_refl))) as (Ha & _ & _).
    set (A := mkC (cd (to_fiction_coord mn)) (Z.min (cx (to_fiction_coord mn)) (cx (to_fiction_coord a)))
                  (Z.min (cy (to_fiction_coord mn)) (cy (to_fiction_coord a))) (cz (to_fiction_coord mn))).
    set (B := mkC (cd (to_fiction_coord mx)) (Z.max (cx (to_fiction_coord mx)) (cx (to_fiction_coord a)))
                  (Z.max (cy (to_fiction_coord mx)) (cy (to_fiction_coord a))) (cz (to_fiction_coord mx))).
    change (bb_upd Siqad (mn, mx) a) with (to_siqad_coord A, to_siqad_coord B).
    change (bb_upd Cube (to_fiction_coord mn, to_fiction_coord mx) (to_fiction_coord a)) with (A, B).
    destruct (ts_valid A (flat_min _ _ Hn Ha)) as (A1 & A2 & _). destruct (ts_valid B (flat_max _ _ Hx Ha)) as (B1 & B2 & _).
    destruct (IH (fun c Hc => HL c (or_intror Hc)) (to_siqad_coord A) (to_siqad_coord B)) as (I1 & I2 & I3 & I4 & I5).
    { rewrite A2. apply flat_min; assumption. }
    { rewrite B2. apply flat_max; assumption. }
    rewrite A2, B2 in *. split; [exact I1|]. split; [exact I2|]. split; [exact I3|]. split; [exact I4|]. intros _.
    destruct L as [|b L']; [split; reflexivity|]. apply I5. discriminate.
Qed.

Lemma bb_start_flat : flat_cube (to_fiction_coord (fst (bb_start Siqad))) /\ flat_cube (to_fiction_coord (snd (bb_start Siqad))) /\
  to_fiction_coord (fst (bb_start Siqad)) = live i32_max i32_max 0 /\ to_fiction_coord (snd (bb_start Siqad)) = live i32_min i32_min 0.
Proof. cbn [bb_start fst snd]. repeat split; vm_compute; congruence. Qed.

(** The corners that one fold over all occupied coordinates computes. *)
Lemma bb_fold_tight k L : L <> [] -> (forall c, In c L -> k_valid k c) ->
  let m := fold_left (bb_upd k) L (bb_start k) in
  tight_box (row_of k) (fst m) (snd m) (fun c => In c L) /\
  cd (fst m) = false /\ cd (snd m) = false /\
  (k = Siqad -> k_valid Siqad (fst m) /\ k_valid Siqad (snd m)).
Proof.
  intros Hne HL. cbv zeta.
  assert (Hone : exists a, In a L) by (destruct L as [|a L']; [congruence|exists a; left; reflexivity]).
  destruct Hone as [a0 Ha0].
  assert (Plain : forall k' (f : coord -> coord) mn mx, k' <> Siqad ->
    (forall c, In c L -> cx mx <= cx (f c) <= cx mn /\ cy mx <= cy (f c) <= cy mn) ->
    let m := fold_left (bb_upd k') (map f L) (mn, mx) in
    (forall c, In c L -> cx (fst m) <= cx (f c) <= cx (snd m) /\ cy (fst m) <= cy (f c) <= cy (snd m)) /\
    (exists c, In c L /\ cx (f c) = cx (fst m)) /\ (exists c, In c L /\ cx (f c) = cx (snd m)) /\
    (exists c, In c L /\ cy (f c) = cy (fst m)) /\ (exists c, In c L /\ cy (f c) = cy (snd m)) /\
    cd (fst m) = cd mn /\ cd (snd m) = cd mx).
  { intros k' f mn mx Hk Hb. cbv zeta.
    destruct (bb_fold_plain k' (map f L) Hk mn mx) as (A1 & A2 & _ & _ & A5 & A6 & A7 & A8 & A9 & A10).
    set (m := fold_left _ _ _) in *.
    assert (H5 : forall c, In c L -> cx (fst m) <= cx (f c) <= cx (snd m) /\ cy (fst m) <= cy (f c) <= cy (snd m)).
    { intros c Hc. apply A5, in_map, Hc. }
    pose proof (Hb a0 Ha0) as Hb0. pose proof (H5 a0 Ha0) as Hm0.
    split; [exact H5|].
    assert (Hget : forall (g : coord -> Z) v w, (v = w \/ exists c, In c (map f L) /\ g c = v) -> (v = w -> g (f a0) = v) -> exists c, In c L /\ g (f c) = v).
    { intros g v w [E|(c & Hc & E)] H; [exists a0; auto|]. apply in_map_iff in Hc as (d & <- & Hd). exists d; auto. }
    split; [apply (Hget cx _ _ A7); lia|]. split; [apply (Hget cx _ _ A8); lia|].
    split; [apply (Hget cy _ _ A9); lia|]. split; [apply (Hget cy _ _ A10); lia|]. auto. }
  unfold tight_box. destruct k.
  - destruct (Plain Offset (fun c => c) (fst (bb_start Offset)) (snd (bb_start Offset)) ltac:(discriminate)) as (B1 & B2 & B3 & B4 & B5 & B6 & B7).
    { intros c Hc. destruct (HL c Hc) as (_ & H1 & H2 & _). unfold in_u in *. cbn [bb_start fst snd live cx cy]. lia. }
    rewrite map_id in *. change (fst (bb_start Offset), snd (bb_start Offset)) with (bb_start Offset) in *.
    split; [repeat (split; [assumption|]); assumption|]. split; [exact B6|]. split; [exact B7|]. discriminate.
  - destruct (Plain Cube (fun c => c) (fst (bb_start Cube)) (snd (bb_start Cube)) ltac:(discriminate)) as (B1 & B2 & B3 & B4 & B5 & B6 & B7).
    { intros c Hc. destruct (HL c Hc) as (_ & H1 & H2 & _). unfold in_i32 in *. cbn [bb_start fst snd live cx cy]. lia. }
    rewrite map_id in *. change (fst (bb_start Cube), snd (bb_start Cube)) with (bb_start Cube) in *.
    split; [repeat (split; [assumption|]); assumption|]. split; [exact B6|]. split; [exact B7|]. discriminate.
  - destruct bb_start_flat as (F1 & F2 & F3 & F4).
    destruct (bb_siqad L HL _ _ F1 F2) as (S1 & S2 & S3 & S4 & S5). destruct (S5 Hne) as [S6 S7]. clear S5.
    destruct (Plain Cube to_fiction_coord (to_fiction_coord (fst (bb_start Siqad))) (to_fiction_coord (snd (bb_start Siqad))) ltac:(discriminate))
      as (B1 & B2 & B3 & B4 & B5 & B6 & B7).
    { intros c Hc. destruct (tf_flat c (HL c Hc)) as ((Hw & _) & _ & _). rewrite F3, F4. unfold c_wf, in_i32 in *. cbn [live cx cy]. lia. }
    change (fst (bb_start Siqad), snd (bb_start Siqad)) with (bb_start Siqad) in *.
    set (m := fold_left (bb_upd Siqad) L (bb_start Siqad)) in *. set (M := fold_left (bb_upd Cube) _ _) in *.
    destruct (ts_valid _ S3) as (V1 & _ & V2 & V3). destruct (ts_valid _ S4) as (W1 & _ & W2 & W3).
    rewrite <- S6 in V1, V2, V3. rewrite <- S7 in W1, W2, W3. cbn [row_of].
    assert (Hf : forall c, In c L -> cx (to_fiction_coord c) = cx c /\ cy (to_fiction_coord c) = dimer_row c).
    { intros c Hc. destruct (tf_flat c (HL c Hc)) as (_ & ? & ?); auto. }
    rewrite V2, V3, W2, W3.
    assert (Hex : forall (g h : coord -> Z) v, (forall c, In c L -> g (to_fiction_coord c) = h c) ->
       (exists c, In c L /\ g (to_fiction_coord c) = v) -> exists c, In c L /\ h c = v).
    { intros g h v Hgh (c & H1 & H2). exists c. split; [exact H1|]. rewrite <- Hgh by exact H1. exact H2. }
    split; [|split; [apply V1|split; [apply W1|auto]]].
    split. { intros c Hc. destruct (Hf c Hc) as [<- <-]. apply B1, Hc. }
    split; [apply (Hex cx cx); [intros c Hc; apply Hf, Hc|exact B2]|]. split; [apply (Hex cx cx); [intros c Hc; apply Hf, Hc|exact B3]|].
    split; [apply (Hex cy dimer_row); [intros c Hc; apply Hf, Hc|exact B4]|]. apply (Hex cy dimer_row); [intros c Hc; apply Hf, Hc|exact B5].
Qed.

Lemma fold_defects k L D : let m0 := fold_left (bb_upd k) L (bb_start k) in
  fold_left (bb_upd k) D m0 = fold_left (bb_upd k) (L ++ D) (bb_start k).
Proof. cbv zeta. rewrite fold_left_app. reflexivity. Qed.

Lemma inside_run ops : forall st st', places_inside (cl_dim (g_cl st)) ops -> g_run st ops = Some st' ->
  (forall t n, g_tn st !! t = Some n -> cd t = false -> inb (cl_dim (g_cl st)) t) ->
  cl_dim (g_cl st') = cl_dim (g_cl st) /\
  (forall t n, g_tn st' !! t = Some n -> cd t = false -> inb (cl_dim (g_cl st')) t).
Proof.
  induction ops as [|o r IH]; intros st st' Hp; simpl.
  - intros E. inversion E; subst. auto.
  - inversion Hp as [|? ? Ho Hr]; subst. destruct (g_step st o) as [s1|] eqn:E; [|discriminate].
    intros Hrun Hin. destruct (step_dim _ _ _ E) as [Ed _].
    destruct (IH s1 st') as [I1 I2].
    + rewrite Ed. exact Hr.
    + exact Hrun.
    + intros t n Ht Hd. rewrite Ed. destruct (step_tn _ _ _ _ _ E Ht Hd) as [K|K]; [eapply Hin; eauto|].
      destruct o; simpl in K; try discriminate; inversion K; subst; apply Ho, Hd.
    + split; [congruence|exact I2].
Qed.
Lemma dim_run ops : forall st st', g_run st ops = Some st' -> cl_dim (g_cl st') = cl_dim (g_cl st).
Proof.
  induction ops as [|o r IH]; intros st st'; simpl; [intros E; inversion E; reflexivity|].
  destruct (g_step st o) as [s1|] eqn:E; [|discriminate]. intros H. rewrite (IH _ _ H). apply (step_dim _ _ _ E).
Qed.
Lemma topo_run ops : forall st st', g_run st ops = Some st' -> cl_topo (g_cl st') = cl_topo (g_cl st).
Proof.
  induction ops as [|o r IH]; intros st st'; simpl; [intros E; inversion E; reflexivity|].
  destruct (g_step st o) as [s1|] eqn:E; [|discriminate]. intros H. rewrite (IH _ _ H). apply (step_dim _ _ _ E).
Qed.
Lemma bb_diff_offset d : 0 <= d < 2 ^ 64 -> bb_diff Offset d = Some d.
Proof. intros. unfold bb_diff. rewrite Z.mod_small by lia. reflexivity. Qed.
Lemma bb_diff_signed k d : k <> Offset -> in_i32 d -> bb_diff k d = Some d.
Proof. unfold in_i32. intros Hk Hd. unfold bb_diff. destruct k; [congruence| |]; destruct ((i32_min <=? d) && (d <=? i32_max)) eqn:E; try reflexivity; lia. Qed.

(** Cells stay where a history puts them. *)
Lemma spec_type_assigned T ops c : spec_type T ops c <> t_empty T -> exists ct, In (AssignType c ct) ops.
Proof.
  unfold spec_type. setoid_rewrite in_rev. induction (rev ops) as [|o r IH]; simpl; [congruence|].
  assert (K : (exists ct, In (AssignType c ct) r) -> exists ct, o = AssignType c ct \/ In (AssignType c ct) r) by (intros [k Hk]; eauto).
  destruct o as [c' ct| | |]; try (intros H; apply K, IH, H).
  destruct (coord_eqb c' c) eqn:E; [|intros H; apply K, IH, H].
  intros _. apply coord_eqb_spec in E. subst. eauto.
Qed.
