(** Proofs about SiDB defect surfaces. *)
From Coq Require Import ZArith QArith Bool List Lia.
From stdpp Require Import gmap.
From Verif Require Import CoordModel CoordSpec CoordProofs GridModel GridSpec CoordMap ClockModel GateModel CellModel RouteModel LibModel LibSpec LibProofs
  DefectModel DefectSpec.
Import List ListNotations.
Local Open Scope Z_scope.

Lemma type_eqb_true a b : type_eqb a b = true <-> a = b.
Proof. unfold type_eqb. apply bool_decide_eq_true. Qed.
Lemma type_eqb_false a b : type_eqb a b = false <-> a <> b.
Proof. unfold type_eqb. apply bool_decide_eq_false. Qed.
Lemma in_ignore t ig : existsb (type_eqb t) ig = true <-> In t ig.
Proof. rewrite existsb_exists. split; [intros (x & H & E); apply type_eqb_true in E; subst; exact H|]. intros H. exists t. split; [exact H|apply type_eqb_true; reflexivity]. Qed.
Lemma shownb ig d : negb (type_eqb (sd_type d) DNone) && negb (existsb (type_eqb (sd_type d)) ig) = true <-> shown ig d.
Proof.
  unfold shown. rewrite andb_true_iff, !negb_true_iff, type_eqb_false, <- in_ignore. rewrite not_true_iff_false. reflexivity.
Qed.

Global Instance shown_dec ig d : Decision (shown ig d).
Proof. destruct (negb (type_eqb (sd_type d) DNone) && negb (existsb (type_eqb (sd_type d)) ig)) eqn:E; [left; apply shownb; exact E|right; rewrite <- shownb; congruence]. Defined.

(** ** The map of defects *)

Definition clean (s : surface) : Prop := forall c d, s_defects s !! c = Some d -> shown (s_ignore s) d.
Lemma step_frame s o : s_kind (dstep s o) = s_kind s /\ s_dim (dstep s o) = s_dim s /\ s_ignore (dstep s o) = s_ignore s.
Proof. destruct o; cbn [dstep]; [|unfold move_sidb_defect; destruct type_eqb]; repeat split. Qed.
Lemma run_frame ops : forall s, s_kind (drun s ops) = s_kind s /\ s_dim (drun s ops) = s_dim s /\ s_ignore (drun s ops) = s_ignore s.
Proof.
  induction ops as [|o ops IH]; intros s; [repeat split|].
  change (drun s (o :: ops)) with (drun (dstep s o) ops). destruct (IH (dstep s o)) as (-> & -> & ->). apply step_frame.
Qed.
Lemma get_lookup s c : clean s -> (sd_type (get_sidb_defect s c) <> DNone <-> s_defects s !! c <> None).
Proof.
  intros C. unfold get_sidb_defect. destruct (s_defects s !! c) as [d|] eqn:E; [|cbn; split; intros H; elim H; reflexivity].
  split; [discriminate|]. intros _. exact (proj1 (C c d E)).
Qed.
Lemma assign_lookup s c d x : s_defects (assign_sidb_defect s c d) !! x =
  if decide (x = c) then (if decide (shown (s_ignore s) d) then Some d else None) else s_defects s !! x.
Proof.
  unfold assign_sidb_defect. cbn [set_defects s_defects]. destruct (negb _ && negb _) eqn:E.
  - apply (proj1 (shownb _ _)) in E. destruct (decide (x = c)) as [->|N].
    + rewrite lookup_insert. destruct (decide (shown _ d)) as [|N]; [reflexivity|contradiction].
    + rewrite lookup_insert_ne, lookup_delete_ne by congruence. reflexivity.
  - destruct (decide (x = c)) as [->|N].
    + rewrite lookup_delete. destruct (decide (shown _ d)) as [Sh|]; [apply (proj2 (shownb _ _)) in Sh; congruence|reflexivity].
    + rewrite lookup_delete_ne by congruence. reflexivity.
Qed.
Lemma move_lookup s a t x : clean s -> s_defects (move_sidb_defect s a t) !! x =
  match s_defects s !! a with
  | None => s_defects s !! x
  | Some d => if decide (x = a) then None else if decide (x = t) then match s_defects s !! t with Some e => Some e | None => Some d end else s_defects s !! x
  end.
Proof.
  intros C. unfold move_sidb_defect, get_sidb_defect. destruct (s_defects s !! a) as [d|] eqn:E.
  - pose proof (proj1 (C a d E)) as N. destruct (type_eqb (sd_type d) DNone) eqn:T; [apply type_eqb_true in T; contradiction|].
    cbn [set_defects s_defects]. destruct (decide (x = a)) as [->|Na]; [apply lookup_delete|].
    rewrite lookup_delete_ne by congruence. unfold map_insert. destruct (s_defects s !! t) as [e|] eqn:Et.
    + destruct (decide (x = t)) as [->|]; [exact Et|reflexivity].
    + destruct (decide (x = t)) as [->|]; [apply lookup_insert|]. rewrite lookup_insert_ne by congruence. reflexivity.
  - cbn. reflexivity.
Qed.
Lemma clean_step s o : clean s -> clean (dstep s o).
Proof.
  intros C. intros c d. rewrite (proj2 (proj2 (step_frame s o))). destruct o as [x e|a t]; cbn [dstep].
  - rewrite assign_lookup. destruct (decide (c = x)); [|apply C]. destruct (decide (shown _ e)); [|discriminate]. intros [= <-]. assumption.
  - rewrite move_lookup by exact C. destruct (s_defects s !! a) as [e|] eqn:E; [|apply C].
    destruct (decide (c = a)); [discriminate|]. destruct (decide (c = t)); [|apply C].
    destruct (s_defects s !! t) as [e'|] eqn:Et; intros [= <-]; [exact (C _ _ Et)|exact (C _ _ E)].
Qed.
Lemma clean_run ops : forall s, clean s -> clean (drun s ops).
Proof. induction ops as [|o ops IH]; intros s C; [exact C|]. exact (IH _ (clean_step s o C)). Qed.
Lemma clean_new k ar ig : clean (new_surface k ar ig).
Proof. intros c d H. cbn in H. rewrite lookup_empty in H. discriminate. Qed.

(** ** The wish *)

Lemma wish_step s b o b' : clean s -> (forall c, s_defects s !! c = b c) -> wish (s_ignore s) b o b' ->
  (forall a t d, o = DMove a t -> b a = Some d -> b t = None) -> forall c, s_defects (dstep s o) !! c = b' c.
Proof.
  intros C E W Cl c. inversion W; subst; cbn [dstep]; unfold put.
  - rewrite assign_lookup. destruct (decide (shown _ d)); [|contradiction]. destruct (decide (c = c0)); [reflexivity|apply E].
  - rewrite assign_lookup. destruct (decide (shown _ d)); [contradiction|]. destruct (decide (c = c0)); [reflexivity|apply E].
  - rewrite move_lookup by exact C. rewrite E, H. apply E.
  - rewrite move_lookup by exact C. rewrite (E a), H. pose proof (Cl a t d eq_refl H) as Ht. rewrite (E t), Ht.
    destruct (decide (c = a)) as [->|]; [destruct (decide (a = t)) as [->|]; [congruence|reflexivity]|].
    destruct (decide (c = t)); [reflexivity|apply E].
Qed.
Lemma wishes_app ig l : forall b o b' b'', wishes ig b l b' -> wish ig b' o b'' -> wishes ig b (l ++ [o]) b''.
Proof.
  induction l as [|x l IH]; intros b o b' b'' W1 W2; inversion W1; subst; cbn.
  - eapply w_cons; [exact W2|apply w_nil].
  - eapply w_cons; [eassumption|]. eapply IH; eassumption.
Qed.
Lemma wishes_run ig all : clear_moves ig all -> forall ops l s b b', all = l ++ ops -> wishes ig (fun _ => None) l b -> clean s -> s_ignore s = ig ->
  (forall c, s_defects s !! c = b c) -> wishes ig b ops b' -> forall c, s_defects (drun s ops) !! c = b' c.
Proof.
  intros Cl. induction ops as [|o ops IH]; intros l s b b' Ea Wl C I E W; inversion W; subst; [exact E|]. change (drun s (o :: ops)) with (drun (dstep s o) ops).
  eapply (IH (l ++ [o]) (dstep s o)); [rewrite <- app_assoc; reflexivity|eapply wishes_app; eassumption|apply clean_step, C| | |eassumption].
  - apply (proj2 (proj2 (step_frame s o))).
  - apply (wish_step s b); [exact C|exact E|assumption|]. intros a t d -> Hb. eapply Cl; [reflexivity|exact Wl|exact Hb].
Qed.
Lemma wishes_total ig ops : forall b, exists b', wishes ig b ops b'.
Proof.
  induction ops as [|o ops IH]; intros b; [exists b; apply w_nil|].
  assert (H : exists b', wish ig b o b').
  { destruct o as [c d|a t].
    - destruct (decide (shown ig d)); eexists; [apply w_shown|apply w_hidden]; assumption.
    - destruct (b a) as [d|] eqn:E; eexists; [eapply w_move|apply w_idle]; exact E. }
  destruct H as [b' H]. destruct (IH b') as [b'' H']. exists b''. eapply w_cons; eassumption.
Qed.
Lemma origin ops : forall s c d, clean s -> s_defects (drun s ops) !! c = Some d -> (exists c', s_defects s !! c' = Some d) \/ exists c', In (DAssign c' d) ops.
Proof.
  induction ops as [|o ops IH]; intros s c d C H; [left; exists c; exact H|]. change (drun s (o :: ops)) with (drun (dstep s o) ops) in H.
  destruct (IH _ _ _ (clean_step s o C) H) as [(c' & H')|(c' & H')]; [|right; exists c'; right; exact H'].
  destruct o as [x e|a t]; cbn [dstep] in H'.
  - rewrite assign_lookup in H'. destruct (decide (c' = x)); [|left; exists c'; exact H']. destruct (decide (shown _ e)); [|discriminate].
    injection H' as ->. right. exists x. left. reflexivity.
  - rewrite move_lookup in H' by exact C. destruct (s_defects s !! a) as [e|] eqn:E; [|left; exists c'; exact H'].
    destruct (decide (c' = a)); [discriminate|]. destruct (decide (c' = t)); [|left; exists c'; exact H'].
    destruct (s_defects s !! t) as [e'|] eqn:Et; injection H' as ->; left; eexists; eassumption.
Qed.

(** ** Counting *)

Lemma in_foreach s c d : In (c, d) (foreach_sidb_defect s) <-> s_defects s !! c = Some d.
Proof. unfold foreach_sidb_defect. rewrite <- elem_of_list_In. apply elem_of_map_to_list. Qed.
Lemma nodup_foreach s : List.NoDup (map fst (foreach_sidb_defect s)).
Proof. apply NoDup_ListNoDup. apply NoDup_fst_map_to_list. Qed.
Lemma nodup_filter_fst {A B} (f : A * B -> bool) l : List.NoDup (map fst l) -> List.NoDup (map fst (List.filter f l)).
Proof.
  induction l as [|a l IH]; intros N; [exact N|]. cbn in *. inversion N as [|? ? N1 N2]; subst. destruct (f a); [|exact (IH N2)].
  cbn. constructor; [|exact (IH N2)]. intros H. apply N1. apply in_map_iff in H as (x & <- & Hx). apply filter_In in Hx as [Hx _].
  apply in_map. exact Hx.
Qed.
Lemma counted_filter f s (Q : coord -> Prop) : (forall c d, s_defects s !! c = Some d -> (f d = true <-> Q c)) -> (forall c, s_defects s !! c = None -> ~ Q c) ->
  counted (count_defects f s) Q.
Proof.
  intros H1 H2. exists (map fst (List.filter (fun cd => f (snd cd)) (foreach_sidb_defect s))).
  split; [apply nodup_filter_fst, nodup_foreach|]. split; [|unfold count_defects; rewrite map_length; reflexivity].
  intros c. rewrite in_map_iff. split.
  - intros ((x & d) & <- & H). apply filter_In in H as [H Hf]. apply in_foreach in H. exact (proj1 (H1 _ _ H) Hf).
  - intros Hq. destruct (s_defects s !! c) as [d|] eqn:E; [|exfalso; exact (H2 c E Hq)]. exists (c, d). split; [reflexivity|].
    apply filter_In. split; [apply in_foreach; exact E|]. exact (proj2 (H1 c d E) Hq).
Qed.
Lemma num_count s : num_defects s = count_defects (fun _ => true) s.
Proof.
  unfold num_defects, count_defects, foreach_sidb_defect. change (size (s_defects s)) with (List.length (map_to_list (s_defects s))). f_equal.
  induction (map_to_list (s_defects s)) as [|a l IH]; [reflexivity|]. cbn. f_equal. exact IH.
Qed.
Lemma counted_same n m Q : counted n Q -> counted m Q -> n = m.
Proof.
  intros (l & N & H & ->) (l' & N' & H' & ->). f_equal. apply Nat.le_antisymm; apply NoDup_incl_length; try assumption;
    intros x Hx; [apply H', H|apply H, H']; exact Hx.
Qed.
Lemma get_some s c d : s_defects s !! c = Some d -> get_sidb_defect s c = d.
Proof. intros E. unfold get_sidb_defect. rewrite E. reflexivity. Qed.
Lemma get_none s c : s_defects s !! c = None -> get_sidb_defect s c = of_type DNone.
Proof. intros E. unfold get_sidb_defect. rewrite E. reflexivity. Qed.
Lemma counts s : clean s ->
  counted (num_defects s) (defective s) /\
  counted (num_positively_charged_defects s) (fun c => 0 < sd_charge (get_sidb_defect s c)) /\
  counted (num_negatively_charged_defects s) (fun c => sd_charge (get_sidb_defect s c) < 0) /\
  counted (num_charged_defects s) (fun c => sd_charge (get_sidb_defect s c) <> 0) /\
  counted (num_neutral_defects s) (fun c => defective s c /\ sd_charge (get_sidb_defect s c) = 0 /\ ~ charged_type (sd_type (get_sidb_defect s c))).
Proof.
  intros C.
  assert (Hp : counted (num_positively_charged_defects s) (fun c => 0 < sd_charge (get_sidb_defect s c))).
  { apply counted_filter; [|intros c E; rewrite (get_none _ _ E); cbn; lia]. intros c d E. rewrite (get_some _ _ _ E). apply Z.ltb_lt. }
  assert (Hn : counted (num_negatively_charged_defects s) (fun c => sd_charge (get_sidb_defect s c) < 0)).
  { apply counted_filter; [|intros c E; rewrite (get_none _ _ E); cbn; lia]. intros c d E. rewrite (get_some _ _ _ E). apply Z.ltb_lt. }
  split; [|split; [exact Hp|split; [exact Hn|split]]].
  - rewrite num_count. apply counted_filter.
    + intros c d E. split; [intros _|reflexivity]. unfold defective. rewrite (get_some _ _ _ E). exact (proj1 (C c d E)).
    + intros c E H. apply H. rewrite (get_none _ _ E). reflexivity.
  - destruct Hp as (l & N & H & E), Hn as (l' & N' & H' & E'). exists (l ++ l'). split; [|split].
    + apply NoDup_ListNoDup. apply NoDup_app. split; [apply NoDup_ListNoDup; exact N|]. split; [|apply NoDup_ListNoDup; exact N'].
      intros x Hx Hy. apply elem_of_list_In in Hx, Hy. apply H in Hx. apply H' in Hy. lia.
    + intros c. rewrite in_app_iff, H, H'. lia.
    + unfold num_charged_defects. rewrite E, E', app_length. lia.
  - apply counted_filter.
    + intros c d E. unfold defective. rewrite (get_some _ _ _ E). unfold is_neutral_defect_type, is_charged_defect_type, charged_type.
      rewrite andb_true_iff, !negb_true_iff, !orb_false_iff, negb_false_iff, Z.eqb_eq, !type_eqb_false. tauto.
    + intros c E [H _]. apply H. rewrite (get_none _ _ E). reflexivity.
Qed.

(** ** Affected positions *)

Lemma in_range a b x : In x (range a b) <-> a <= x <= b.
Proof.
  unfold range. rewrite in_map_iff. split.
  - intros (i & <- & H). apply in_seq in H. lia.
  - intros H. exists (Z.to_nat (x - a)). split; [lia|]. apply in_seq. lia.
Qed.
Lemma charged_kindb d : is_charged_defect_type d = true <-> charged_kind d.
Proof.
  unfold is_charged_defect_type, charged_kind, charged_type. rewrite !orb_true_iff, negb_true_iff, Z.eqb_neq, !type_eqb_true. tauto.
Qed.
Lemma extent_spec co no d h v : sd_type d <> DNone -> (keep_away co no d h v <-> defect_extent d co no = (h, v)).
Proof.
  intros N. unfold keep_away, defect_extent, is_neutral_defect_type. destruct (is_charged_defect_type d) eqn:E.
  - apply charged_kindb in E. split; [intros [H _]; symmetry; exact (H E)|]. intros <-. split; [reflexivity|intros H; elim (H E)].
  - assert (M : ~ charged_kind d) by (rewrite <- charged_kindb; congruence).
    destruct (type_eqb (sd_type d) DNone) eqn:T; [apply type_eqb_true in T; contradiction|]. cbn [negb andb].
    split; [intros [_ H]; symmetry; exact (H M)|]. intros <-. split; [intros H; elim (M H)|reflexivity].
Qed.
Lemma in_bounds ar q : is_within_bounds ar q = true <-> below ar q.
Proof. unfold is_within_bounds, below. rewrite !andb_true_iff, !Z.leb_le. tauto. Qed.
Lemma in_affected s c co no q : In q (affected_sidbs s c co no) <->
  defective s c /\ exists h v x y, keep_away co no (get_sidb_defect s c) h v /\ Z.abs (x - cx c) <= h /\ Z.abs (y - cy c) <= v /\
    q = to_coordinate (s_kind s) x y (cz c) /\ below (s_dim s) q.
Proof.
  unfold affected_sidbs, defective. destruct (type_eqb (sd_type (get_sidb_defect s c)) DNone) eqn:T.
  - apply type_eqb_true in T. split; [intros []|intros [H _]; contradiction].
  - apply type_eqb_false in T. destruct (defect_extent (get_sidb_defect s c) co no) as [h v] eqn:E. rewrite filter_In, in_bounds, in_flat_map. split.
    + intros [(y & Hy & H) B]. apply in_map_iff in H as (x & <- & Hx). apply in_range in Hx, Hy. split; [exact T|].
      exists h, v, x, y. split; [apply (extent_spec _ _ _ _ _ T); exact E|]. repeat split; try (exact B || lia); apply B.
    + intros [_ (h' & v' & x & y & K & Hx & Hy & -> & B)]. apply (extent_spec _ _ _ _ _ T) in K. rewrite E in K. injection K as -> ->. split; [|exact B].
      exists y. split; [apply in_range; lia|]. apply in_map_iff. exists x. split; [reflexivity|apply in_range; lia].
Qed.
Lemma affected_signed s c co no q : s_kind s <> Offset -> (In q (affected_sidbs s c co no) <-> affects s co no c q /\ below (s_dim s) q).
Proof.
  intros K. rewrite in_affected. unfold affects. replace (to_coordinate (s_kind s)) with live by (destruct (s_kind s); [contradiction|reflexivity|reflexivity]).
  split.
  - intros [D (h & v & x & y & A & Hx & Hy & -> & B)]. split; [|exact B]. split; [exact D|]. exists h, v. repeat split; assumption || reflexivity || apply A.
  - intros [[D (h & v & A & Hd & Hx & Hy & Hz)] B]. split; [exact D|]. exists h, v, (cx q), (cy q). repeat split; try assumption; try apply A; try apply B.
    destruct q as [e x y z]; cbn in *. subst. reflexivity.
Qed.
Lemma bound_16 co no d h v : is_16 co -> is_16 no -> keep_away co no d h v -> 0 <= h < 2 ^ 16 /\ 0 <= v < 2 ^ 16.
Proof.
  intros H1 H2 [K1 K2]. destruct (is_charged_defect_type d) eqn:E.
  - apply charged_kindb in E. specialize (K1 E). destruct co as [[a b]|]; injection K1 as -> ->; [exact H1|lia].
  - assert (M : ~ charged_kind d) by (rewrite <- charged_kindb; congruence). specialize (K2 M). destruct no as [[a b]|]; injection K2 as -> ->; [exact H2|lia].
Qed.
Lemma w31_in z b : - 2 ^ 16 < z < 2 ^ 31 -> b < 2 ^ 31 - 2 ^ 16 -> w31 z <= b -> w31 z = z /\ 0 <= z.
Proof.
  unfold w31. intros Hz Hb H. destruct (Z_lt_dec z 0) as [N|N].
  - exfalso. rewrite <- (Z.mod_add z 1 (2 ^ 31)) in H by lia. rewrite Z.mod_small in H by lia. lia.
  - rewrite Z.mod_small by lia. lia.
Qed.
Lemma affected_offset s c co no q : s_kind s = Offset -> roomy (s_dim s) -> (defective s c -> roomy c) -> is_16 co -> is_16 no ->
  (In q (affected_sidbs s c co no) <-> affects s co no c q /\ inb (s_dim s) q).
Proof.
  intros K R Rc H1 H2. rewrite in_affected. unfold affects. rewrite K. cbn [to_coordinate]. split.
  - intros [D (h & v & x & y & A & Hx & Hy & -> & B)]. destruct (bound_16 _ _ _ _ _ H1 H2 A) as [Bh Bv]. specialize (Rc D).
    destruct B as (B1 & B2 & B3). cbn [live cx cy cz] in B1, B2, B3. destruct R as (R1 & R2 & R3), Rc as (C1 & C2 & C3).
    destruct (w31_in x (cx (s_dim s))) as [Ex Px]; [lia|lia|exact B1|]. destruct (w31_in y (cy (s_dim s))) as [Ey Py]; [lia|lia|exact B2|].
    rewrite Ex, Ey in *. split; [|split; [reflexivity|cbn [live cx cy cz]; lia]]. split; [exact D|]. exists h, v.
    split; [exact A|]. cbn [live cd cx cy cz]. repeat split; assumption.
  - intros [[D (h & v & A & Hd & Hx & Hy & Hz)] (I1 & I2 & I3 & I4)]. split; [exact D|]. exists h, v, (cx q), (cy q). destruct R as (R1 & R2 & R3).
    split; [exact A|]. split; [exact Hx|]. split; [exact Hy|]. split.
    + unfold w31. rewrite !Z.mod_small by lia. destruct q as [e x y z]; cbn in *. subst. reflexivity.
    + unfold below. lia.
Qed.
Lemma to_16_id o : is_16 o -> to_16 o = o.
Proof. destruct o as [[h v]|]; [|reflexivity]. intros [H1 H2]. cbn. rewrite !Z.mod_small by assumption. reflexivity. Qed.
Lemma all_offset s co no q : clean s -> s_kind s = Offset -> at_roomy s -> is_16 co -> is_16 no ->
  (In q (all_affected_sidbs s co no) <-> (exists c, affects s co no c q) /\ inb (s_dim s) q).
Proof.
  intros C K [R Rc] H1 H2. unfold all_affected_sidbs. rewrite !to_16_id by assumption. rewrite in_flat_map. split.
  - intros ([c d] & _ & H). cbn [fst] in H. apply (affected_offset s c co no q K R (Rc c) H1 H2) in H as [A I]. split; [exists c; exact A|exact I].
  - intros [[c A] I]. pose proof (proj1 A) as D. apply (get_lookup s c C) in D. destruct (s_defects s !! c) as [d|] eqn:E; [|elim D; reflexivity].
    exists (c, d). split; [apply in_foreach; exact E|]. cbn [fst]. apply (affected_offset s c co no q K R (Rc c) H1 H2). split; assumption.
Qed.
Lemma all_signed s co no q : clean s -> s_kind s <> Offset -> is_16 co -> is_16 no ->
  (In q (all_affected_sidbs s co no) <-> (exists c, affects s co no c q) /\ below (s_dim s) q).
Proof.
  intros C K H1 H2. unfold all_affected_sidbs. rewrite !to_16_id by assumption. rewrite in_flat_map. split.
  - intros ([c d] & _ & H). cbn [fst] in H. apply (affected_signed s c co no q K) in H as [A I]. split; [exists c; exact A|exact I].
  - intros [[c A] I]. pose proof (proj1 A) as D. apply (get_lookup s c C) in D. destruct (s_defects s !! c) as [d|] eqn:E; [|elim D; reflexivity].
    exists (c, d). split; [apply in_foreach; exact E|]. cbn [fst]. apply (affected_signed s c co no q K). split; assumption.
Qed.
