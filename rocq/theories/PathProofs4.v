(** Path enumeration. *)
From Coq Require Import ZArith Bool List Permutation Lia.
From stdpp Require Import gmap list.
From Verif Require Import CoordModel CoordSpec CoordProofs GridModel GridSpec GridProofs CoordMap ClockModel ClockProofs GateModel CellModel PathModel PathSpec PathProofs.
Import ListNotations.
Local Open Scope Z_scope.

Lemma e_enter_permitted L cr tgt u v :
  (exists w, In w (pf_succ L u) /\ e_enter L cr tgt u w = Some v) <-> e_permitted L cr tgt u v.
Proof.
  split.
  - intros (w & Hw & E). unfold e_enter in E.
    destruct (pf_obst L (pf_below L w)) eqn:Eo; cbn [andb] in E.
    + destruct (coord_eqb (pf_below L w) tgt) eqn:Et; cbn [negb] in E.
      * destruct (pf_conn L u (pf_below L w)) eqn:Ec; [discriminate|]. inversion E; subst. apply coord_eqb_spec in Et.
        eapply e_enter_free; eauto.
      * destruct cr; cbn [andb] in E; [|discriminate].
        destruct (pf_cross L u (pf_below L w)) eqn:Ex; [|discriminate].
        destruct (coord_eqb (pf_above L (pf_below L w)) (pf_below L w)) eqn:E1; [discriminate|].
        destruct (coord_eqb (pf_above L (pf_below L w)) tgt) eqn:E2; [discriminate|].
        destruct (pf_obst L (pf_above L (pf_below L w))) eqn:E3; [discriminate|]. cbn [negb andb] in E.
        destruct (pf_conn L u (pf_above L (pf_below L w))) eqn:Ec; [discriminate|]. inversion E; subst.
        eapply (e_enter_crossing L true tgt u _ w); try reflexivity; try assumption; intros K; apply coord_eqb_spec in K; congruence.
    + destruct (pf_conn L u (pf_below L w)) eqn:Ec; [discriminate|]. inversion E; subst. eapply e_enter_free; eauto.
  - intros [w Hw Hv Ho Hc|w g Hw Hg Hcr Hog Hgt Hv Hvg Hvt Hx Hov Hc]; exists w; (split; [exact Hw|]); unfold e_enter.
    + rewrite <- Hv. destruct Ho as [Ho|Ho].
      * rewrite Ho. cbn [andb]. rewrite Hc. reflexivity.
      * replace (coord_eqb v tgt) with true by (symmetry; apply coord_eqb_spec; exact Ho). rewrite andb_false_r, Hc. reflexivity.
    + rewrite <- Hg, Hog. subst cr. replace (coord_eqb g tgt) with false by (symmetry; apply not_true_is_false; rewrite coord_eqb_spec; exact Hgt).
      cbn [negb andb]. rewrite <- Hv, Hx.
      replace (coord_eqb v g) with false by (symmetry; apply not_true_is_false; rewrite coord_eqb_spec; exact Hvg).
      replace (coord_eqb v tgt) with false by (symmetry; apply not_true_is_false; rewrite coord_eqb_spec; exact Hvt).
      rewrite Hov. cbn [negb andb]. rewrite Hc. reflexivity.
Qed.

Lemma walk_last step s t p : walk step s t p -> In t p.
Proof. induction 1; [left; reflexivity|right; assumption]. Qed.
Lemma walk_head step s t p : walk step s t p -> exists r, p = s :: r.
Proof. inversion 1; eauto. Qed.

Section Enum.
Context (L : pf) (crossings : bool) (tgt : coord).
Notation step := (e_permitted L crossings tgt).
(** The entered coordinates, in order. *)
Definition entered (u : coord) : list coord := omap (e_enter L crossings tgt u) (pf_succ L u).

(** [r] continues the path from [v] to the target without using [vis]. *)
Definition cont (vis : gset coord) (v : coord) (r : list coord) : Prop :=
  is_path step v tgt r /\ forall x, In x r -> x ∉ vis.

Definition e_fold (n : nat) (p1 : list coord) (src : coord) :=
  (fun acc w => match acc with
                 | None => None
                 | Some (vis, out) =>
                   match e_enter L crossings tgt src w with
                   | None => acc
                   | Some v => if bool_decide (v ∈ vis) then acc
                               else match enumerate n L crossings tgt v p1 vis with
                                    | None => None
                                    | Some (vis', out') => Some (vis', out ++ out')
                                    end
                   end
                 end).
Lemma e_fold_none n p1 src ws : fold_left (e_fold n p1 src) ws None = None.
Proof. induction ws; [reflexivity|exact IHws]. Qed.

(** All coordinates reachable from [v] are left without duplicates. *)
Definition dupfree (v : coord) : Prop := exists P : coord -> Prop, P v /\ (forall u w, P u -> step u w -> P w) /\ (forall u, P u -> List.NoDup (entered u)).
Lemma dupfree_step u v : dupfree u -> step u v -> dupfree v.
Proof. intros (P & H1 & H2 & H3) Hs. exists P. eauto. Qed.
Definition good_out (p : list coord) (vis : gset coord) (v : coord) (out : list (list coord)) : Prop :=
  (forall q, In q out <-> exists r, q = p ++ r /\ cont vis v r) /\ (dupfree v -> List.NoDup out).

Lemma fold_ok n p1 src : (forall v vis vis' out, v ∉ vis -> enumerate n L crossings tgt v p1 vis = Some (vis', out) -> vis' = vis /\ good_out p1 vis v out) ->
  forall ws vis out0 vis' out, fold_left (e_fold n p1 src) ws (Some (vis, out0)) = Some (vis', out) ->
  vis' = vis /\ exists out1, out = out0 ++ out1 /\
    (forall q, In q out1 <-> exists v r, In v (omap (e_enter L crossings tgt src) ws) /\ q = p1 ++ r /\ cont vis v r) /\
    ((forall v, In v (omap (e_enter L crossings tgt src) ws) -> dupfree v) -> List.NoDup (omap (e_enter L crossings tgt src) ws) -> List.NoDup out1).
Proof.
  intros IH. induction ws as [|w ws IHw]; intros vis out0 vis' out E; cbn [fold_left] in E.
  - inversion E; subst. split; [reflexivity|]. exists []. rewrite app_nil_r. split; [reflexivity|]. split; [|intros _ _; constructor].
    intros q. split; [intros []|]. intros (v & r & [] & _).
  - unfold e_fold at 2 in E. cbn [omap list_omap]. destruct (e_enter L crossings tgt src w) as [v|] eqn:Ee.
    2:{ apply IHw, E. }
    case_bool_decide as Hv.
    + destruct (IHw _ _ _ _ E) as (-> & out1 & -> & H1 & H2). split; [reflexivity|]. exists out1. split; [reflexivity|]. split.
      * intros q. rewrite H1. split; intros (v' & r & K1 & K2 & K3); exists v', r; (split; [|auto]).
        -- right. exact K1.
        -- destruct K1 as [<-|K1]; [|exact K1]. exfalso. destruct K3 as [[Kw _] Kd]. destruct (walk_head _ _ _ _ Kw) as (r' & ->). apply (Kd v (or_introl eq_refl)), Hv.
      * intros G Hn. apply H2; [intros; apply G; right; assumption|]. inversion Hn; assumption.
    + destruct (enumerate n L crossings tgt v p1 vis) as [[vis1 out']|] eqn:En; [|rewrite e_fold_none in E; discriminate].
      destruct (IH _ _ _ _ Hv En) as [-> [G1 G2]].
      destruct (IHw _ _ _ _ E) as (-> & out1 & -> & H1 & H2). split; [reflexivity|]. exists (out' ++ out1). rewrite app_assoc. split; [reflexivity|]. split.
      * intros q. rewrite in_app_iff, G1, H1. split.
        -- intros [(r & K1 & K2)|(v' & r & K1 & K2 & K3)]; [exists v, r|exists v', r]; (split; [|auto]); [left; reflexivity|right; exact K1].
        -- intros (v' & r & [<-|K1] & K2 & K3); [left; exists r; auto|right; exists v', r; auto].
      * intros G Hn. inversion Hn as [|? ? Hni Hn']; subst. apply NoDup_ListNoDup, list.NoDup_app. split; [apply NoDup_ListNoDup, G2, G; left; reflexivity|]. split; [|apply NoDup_ListNoDup, H2; [intros; apply G; right; assumption|assumption]].
        intros q Hq1 Hq2. apply elem_of_list_In in Hq1, Hq2. apply G1 in Hq1 as (r & -> & [[Kw _] _]). apply H1 in Hq2 as (v' & r' & K1 & K2 & [[Kw' _] _]).
        apply app_inv_head in K2. subst r'. destruct (walk_head _ _ _ _ Kw) as (x & ->). destruct (walk_head _ _ _ _ Kw') as (x' & K). inversion K; subst. contradiction.
Qed.

Lemma enumerate_ok n : forall v p vis vis' out, v ∉ vis -> enumerate n L crossings tgt v p vis = Some (vis', out) -> vis' = vis /\ good_out p vis v out.
Proof.
  induction n as [|n IH]; intros v p vis vis' out Hv E; cbn [enumerate] in E; [discriminate|].
  assert (Hvis : ({[v]} ∪ vis) ∖ {[v]} = vis) by set_solver.
  destruct (coord_eqb v tgt) eqn:Ev.
  - apply coord_eqb_spec in Ev. subst v. inversion E; subst vis' out. split; [exact Hvis|]. split; [|intros _; repeat constructor; intros []].
    intros q. cbn [In]. split.
    + intros [<-|[]]. exists [tgt]. split; [reflexivity|]. split; [split; [apply walk_end|repeat constructor; intros []]|]. intros x [<-|[]]. exact Hv.
    + intros (r & -> & [[Kw Kn] _]). left. inversion Kw as [|? u ? r' Hs Kw']; subst; [reflexivity|]. exfalso. inversion Kn; subst. apply walk_last in Kw'. contradiction.
  - change (match fold_left (e_fold n (p ++ [v]) v) (pf_succ L v) (Some ({[v]} ∪ vis, [])) with
            | Some (vis0, out0) => Some (vis0 ∖ {[v]}, out0) | None => None end = Some (vis', out)) in E.
    destruct (fold_left (e_fold n (p ++ [v]) v) (pf_succ L v) (Some ({[v]} ∪ vis, []))) as [[vis1 out1]|] eqn:Ef; [|discriminate].
    inversion E; subst vis' out1. clear E.
    destruct (fold_ok n (p ++ [v]) v (fun v0 vis0 vis0' out0 => IH v0 (p ++ [v]) vis0 vis0' out0) _ _ _ _ _ Ef) as (-> & out' & -> & H1 & H2).
    split; [exact Hvis|]. split.
    + intros q. cbn [app]. rewrite H1. split.
      * intros (u & r & K1 & -> & [[Kw Kn] Kd]). exists (v :: r). rewrite <- app_assoc. split; [reflexivity|].
        assert (Hst : step v u). { apply e_enter_permitted. apply elem_of_list_In, elem_of_list_omap in K1 as (w & K1 & K2). exists w. split; [apply elem_of_list_In, K1|exact K2]. }
        split; [split; [eapply walk_step; eauto|]|].
        -- constructor; [|exact Kn]. intros Hin. apply Kd in Hin. set_solver.
        -- intros x [<-|Hx]; [exact Hv|]. apply Kd in Hx. set_solver.
      * intros (r & -> & [[Kw Kn] Kd]). inversion Kw as [s0 E1|s0 u t0 r' Hs Kw' E1]; subst.
        { exfalso. rewrite coord_eqb_refl in Ev. discriminate. }
        exists u, r'. split; [|split; [rewrite <- app_assoc; reflexivity|]].
        -- apply e_enter_permitted in Hs as (w & K1 & K2). apply elem_of_list_In, elem_of_list_omap. exists w. split; [apply elem_of_list_In, K1|exact K2].
        -- inversion Kn; subst. split; [split; assumption|]. intros x Hx. rewrite elem_of_union, elem_of_singleton. intros [->|K]; [contradiction|]. exact (Kd x (or_intror Hx) K).
    + intros G. cbn [app]. apply H2; [|destruct G as (P & G1 & _ & G3); exact (G3 v G1)].
      intros u Hu. apply (dupfree_step v u G). apply e_enter_permitted. apply elem_of_list_In, elem_of_list_omap in Hu as (w & K1 & K2). exists w. split; [apply elem_of_list_In, K1|exact K2].
Qed.

(** Enough fuel. *)
Lemma enumerate_some U : (forall u v, In u U -> step u v -> In v U) -> forall n v p vis, In v U -> v ∉ vis ->
  (size (list_to_set U ∖ vis : gset coord) <= n)%nat -> exists r, enumerate n L crossings tgt v p vis = Some r.
Proof.
  intros HU. induction n as [|n IH]; intros v p vis Hin Hv Hn; assert (Hin' : v ∈ (list_to_set U : gset coord)) by (apply elem_of_list_to_set, elem_of_list_In, Hin).
  - exfalso. assert (K : size (list_to_set U ∖ vis : gset coord) = O) by lia. apply size_empty_iff in K. set_solver.
  - cbn [enumerate]. destruct (coord_eqb v tgt); [eauto|].
    change (exists r, match fold_left (e_fold n (p ++ [v]) v) (pf_succ L v) (Some ({[v]} ∪ vis, [])) with
            | Some (vis0, out0) => Some (vis0 ∖ {[v]}, out0) | None => None end = Some r).
    assert (Hsz : (size (list_to_set U ∖ ({[v]} ∪ vis) : gset coord) <= n)%nat).
    { assert (E : (list_to_set U ∖ ({[v]} ∪ vis) : gset coord) = (list_to_set U ∖ vis) ∖ {[v]}) by set_solver. rewrite E.
      assert (Hsub : {[v]} ⊆ (list_to_set U ∖ vis : gset coord)) by set_solver. rewrite size_difference by exact Hsub. rewrite size_singleton. lia. }
    assert (G : forall ws out0, (forall w, In w ws -> In w (pf_succ L v)) -> exists r, fold_left (e_fold n (p ++ [v]) v) ws (Some ({[v]} ∪ vis, out0)) = Some r).
    { induction ws as [|w ws IHw]; intros out0 Hws; cbn [fold_left]; [eauto|]. unfold e_fold at 2.
      destruct (e_enter L crossings tgt v w) as [u|] eqn:Ee; [|apply IHw; intros; apply Hws; right; assumption].
      case_bool_decide as Hu; [apply IHw; intros; apply Hws; right; assumption|].
      assert (Hst : step v u) by (apply e_enter_permitted; exists w; split; [apply Hws; left; reflexivity|exact Ee]).
      destruct (IH u (p ++ [v]) ({[v]} ∪ vis) (HU _ _ Hin Hst) Hu Hsz) as ([vis' out'] & E). rewrite E.
      destruct (enumerate_ok _ _ _ _ _ _ Hu E) as [-> _]. apply IHw. intros; apply Hws; right; assumption. }
    destruct (G (pf_succ L v) [] (fun w H => H)) as ([vis1 out1] & E). rewrite E. eauto.
Qed.
End Enum.

Lemma enumerate_all_ok fuel L cr src tgt :
  match enumerate_all_paths fuel L cr src tgt with
  | Some out => (forall q, In q out <-> is_path (e_permitted L cr tgt) src tgt q) /\
                (dupfree L cr tgt src -> List.NoDup out)
  | None => forall U, universe (e_permitted L cr tgt) src U -> (fuel < length U)%nat
  end.
Proof.
  unfold enumerate_all_paths. destruct (enumerate fuel L cr tgt src [] ∅) as [[vis out]|] eqn:E; cbn [option_map snd].
  - destruct (enumerate_ok L cr tgt fuel src [] ∅ vis out ltac:(set_solver) E) as (_ & H1 & H2). split; [|exact H2]. intros q. rewrite H1. split.
    + intros (r & -> & K & _). exact K.
    + intros K. exists q. split; [reflexivity|]. split; [exact K|]. set_solver.
  - intros U [H1 H2]. destruct (Nat.le_gt_cases (length U) fuel) as [K|K]; [|exact K]. exfalso.
    destruct (enumerate_some L cr tgt U H2 fuel src [] ∅ H1 ltac:(set_solver)) as (r & Er); [|congruence].
    rewrite difference_empty_L. etransitivity; [|exact K]. clear. induction U as [|a U IH]; cbn [list_to_set]; [rewrite size_empty; lia|].
    cbn [length]. assert (Hs : (size ({[a]} ∪ list_to_set U : gset coord) <= size ({[a]} : gset coord) + size (list_to_set U : gset coord))%nat).
    { rewrite size_union_alt. pose proof (subseteq_size (list_to_set U ∖ {[a]} : gset coord) (list_to_set U) ltac:(set_solver)). lia. }
    rewrite size_singleton in Hs. lia.
Qed.
