(** Proofs about the concurrent flood fill (see OpDomModel.v, OpDomSpec.v). *)
From Coq Require Import ZArith Bool List Lia Permutation.
From stdpp Require Import gmap list.
From Verif Require Import UtilModel OpDomModel OpDomSpec OpDomProofs.
Import ListNotations.

Lemma on_grid_length dims p : on_grid dims p -> length p = length dims.
Proof. apply Forall2_length. Qed.

Lemma schedule_points_ok pts : forall q sc, exists new,
  schedule_points pts (q, sc) = (q ++ new, sc ++ new) /\ List.NoDup new /\
  (forall m, In m new -> In m pts /\ ~ In m sc) /\ (forall m, In m pts -> In m (sc ++ new)).
Proof.
  induction pts as [|p pts IH]; intros q sc.
  - exists []. rewrite !app_nil_r. cbn. split; [reflexivity|]. split; [constructor|]. split; tauto.
  - unfold schedule_points. cbn [fold_left fst snd]. fold (schedule_points pts).
    case_bool_decide as Hd.
    + rewrite elem_of_list_In in Hd.
      destruct (IH q sc) as (new & E & ND & N & C). exists new. split; [exact E|]. split; [exact ND|]. split.
      * intros m Hm. destruct (N m Hm). split; [right; assumption|assumption].
      * intros m [<-|Hm]; [apply in_or_app; auto|auto].
    + rewrite elem_of_list_In in Hd.
      destruct (IH (q ++ [p]) (sc ++ [p])) as (new & E & ND & N & C). exists (p :: new).
      unfold schedule_points in E. rewrite E, <- !app_assoc. cbn [app]. split; [reflexivity|]. split; [|split].
      * constructor; [|exact ND]. intros Hp. destruct (N _ Hp) as [_ Hn]. apply Hn. apply in_or_app. right. left. reflexivity.
      * intros m [<-|Hm]; [split; [left; reflexivity|exact Hd]|].
        destruct (N m Hm) as [H1 H2]. split; [right; exact H1|]. intros H. apply H2. apply in_or_app. auto.
      * intros m [<-|Hm]; [apply in_or_app; right; left; reflexivity|].
        specialize (C m Hm). rewrite <- app_assoc in C. exact C.
Qed.

(** ** Workers *)
Definition inflight (w : wstate) : list point := match w with WBusy sp | WSim sp => [sp] | _ => [] end.
Definition busy (w : wstate) : nat := match w with WReady | WWait | WDone => 0 | _ => 1 end.
Definition covers (w : wstate) (p m : point) : Prop :=
  match w with
  | WNbrs sp todo found => sp = p /\ (In m todo \/ In m found)
  | WReport sp found => sp = p /\ In m found
  | _ => False
  end.

Lemma Exists_insert {A} (P : A -> Prop) (l : list A) i x y : l !! i = Some x -> Exists P l ->
  Exists P (<[i := y]> l) \/ P x.
Proof.
  revert i. induction l as [|a l IH]; intros [|i] H E; cbn in H; try discriminate.
  - injection H as ->. change (<[0:=y]> (x :: l)) with (y :: l). inversion E; subst; auto.
  - change (<[S i:=y]> (a :: l)) with (a :: <[i:=y]> l). inversion E; subst; [auto|].
    destruct (IH i H H1); auto.
Qed.
Lemma Exists_insert_new {A} (P : A -> Prop) (l : list A) i x y : l !! i = Some x -> P y -> Exists P (<[i := y]> l).
Proof.
  intros H Hy. apply Exists_exists. exists y. split; [|exact Hy]. apply elem_of_list_lookup. exists i.
  apply list_lookup_insert. eapply lookup_lt_Some; eauto.
Qed.
Lemma covers_wake w p m : covers w p m -> covers (wake w) p m.
Proof. destruct w; cbn; auto. Qed.

Section Fill.
Context (dims : list nat) (op : point -> bool) (samples : list point).
Context (samples_grid : forall p, In p samples -> on_grid dims p).

Notation reach := (reached dims op samples).

Lemma reached_grid p : reach p -> on_grid dims p.
Proof. intros H. destruct H as [? ? ? ? [H _]|? ? ? ? [H _]]; exact H. Qed.

(** What a worker knows. *)
Definition wok (w : wstate) : Prop :=
  match w with
  | WBusy sp | WSim sp => reach sp
  | WNbrs sp todo found => op sp = true /\ (forall m, In m todo -> reach m) /\ (forall m, In m found -> reach m /\ ~ In m samples)
  | WReport sp found => forall m, In m found -> reach m /\ ~ In m samples
  | _ => True
  end.

Record finv (s : fstate) : Prop := {
  fi_sound : forall p b, f_dom s !! p = Some b -> b = op p /\ (In p samples \/ In p (f_log s));
  fi_samples : forall p, In p samples -> is_Some (f_dom s !! p);
  fi_sched : forall p, In p (f_scheduled s) -> reach p /\ ~ In p samples;
  fi_nodup : List.NoDup (f_scheduled s);
  fi_perm : Permutation (f_scheduled s) (f_log s ++ f_queue s ++ concat (map inflight (f_workers s)));
  fi_log : forall p, In p (f_log s) -> is_Some (f_dom s !! p);
  fi_closed : forall p m, f_dom s !! p = Some true -> adjacent dims p m ->
      In m samples \/ In m (f_scheduled s) \/ Exists (fun w => covers w p m) (f_workers s);
  fi_wok : Forall wok (f_workers s);
  fi_active : f_active s = list_sum (map busy (f_workers s));
  fi_fin : f_finished s = true -> f_queue s = [] /\ f_active s = 0;
  fi_end : f_queue s = [] -> f_active s = 0 -> f_workers s <> [] -> f_finished s = true;
  fi_wait : In WWait (f_workers s) -> f_queue s = [] /\ f_finished s = false;
  fi_done : In WDone (f_workers s) -> f_finished s = true;
  fi_none : f_workers s = [] -> f_queue s = [] }.

Lemma in_insert {A} (l : list A) i (x y : A) : In y (<[i := x]> l) -> y = x \/ In y l.
Proof. rewrite <- !elem_of_list_In. intros H. apply elem_of_list_lookup in H. destruct H as [j Hj].
  destruct (decide (i = j)) as [->|N].
  - destruct (decide (j < length l)) as [L|L].
    + rewrite list_lookup_insert in Hj by exact L. injection Hj as ->. auto.
    + rewrite list_insert_ge in Hj by lia. right. eapply elem_of_list_lookup_2; eauto.
  - rewrite list_lookup_insert_ne in Hj by exact N. right. eapply elem_of_list_lookup_2; eauto.
Qed.
Lemma insert_nil {A} (l : list A) i (x : A) : <[i := x]> l = [] -> l = [].
Proof. intros H. apply (f_equal length) in H. rewrite insert_length in H. destruct l; [reflexivity|discriminate]. Qed.
Lemma busy_pos (ws : list wstate) i w : ws !! i = Some w -> busy w <= list_sum (map busy ws).
Proof.
  revert i. induction ws as [|a ws IH]; intros [|i] H; cbn in H; try discriminate.
  - injection H as ->. cbn. lia.
  - specialize (IH i H). cbn [map]. unfold list_sum in *. cbn [foldr fold_right]. lia.
Qed.

(** A worker that neither pops nor reports changes only its own state, and possibly the stored domain. *)
Lemma local_inv s i w0 w dom log :
  finv s -> f_workers s !! i = Some w0 ->
  busy w = busy w0 -> wok w ->
  w <> WWait -> w <> WDone ->
  (forall p b, dom !! p = Some b -> b = op p /\ (In p samples \/ In p log)) ->
  (forall p, is_Some (f_dom s !! p) -> is_Some (dom !! p)) ->
  (forall p, In p log -> is_Some (dom !! p)) ->
  Permutation (f_log s ++ inflight w0) (log ++ inflight w) ->
  (forall p m, dom !! p = Some true -> adjacent dims p m ->
     f_dom s !! p = Some true \/ In m samples \/ In m (f_scheduled s) \/ covers w p m) ->
  (forall p m, covers w0 p m -> covers w p m \/ In m samples \/ In m (f_scheduled s)) ->
  finv (mkF dom (f_queue s) (f_scheduled s) (f_active s) (f_finished s) (<[i := w]> (f_workers s)) log).
Proof.
  intros [I1 I2 I3 I4 I5 I6 I7 I8 I9 I10 I11 I12 I13 I14] Hi Hb Hw NW ND D1 D2 D3 D4 D5 D6.
  split; cbn [f_dom f_queue f_scheduled f_active f_finished f_workers f_log].
  - exact D1.
  - auto.
  - exact I3.
  - exact I4.
  - rewrite I5.
    pose proof (concat_map_insert inflight (f_workers s) i w0 (WReport [] []) (inflight w0) Hi) as E.
    cbn [inflight] in E. rewrite app_nil_r in E. specialize (E (Permutation_refl _)).
    assert (Hi' : <[i:=WReport [] []]> (f_workers s) !! i = Some (WReport [] []))
      by (apply list_lookup_insert; eapply lookup_lt_Some; eauto).
    assert (E' : concat (map inflight (<[i:=w]> (f_workers s))) ≡ₚ
                 inflight w ++ concat (map inflight (<[i:=WReport [] []]> (f_workers s)))).
    { assert (Hi2 : <[i:=w]> (f_workers s) !! i = Some w)
        by (apply list_lookup_insert; eapply lookup_lt_Some; eauto).
      pose proof (concat_map_insert inflight _ i w (WReport [] []) (inflight w) Hi2) as E2.
      cbn [inflight] in E2. rewrite app_nil_r in E2. specialize (E2 (Permutation_refl _)).
      rewrite list_insert_insert in E2. exact E2. }
    rewrite E, E'. set (R := concat (map inflight (<[i:=WReport [] []]> (f_workers s)))). clearbody R.
    rewrite (app_assoc (f_queue s)), (Permutation_app_comm (f_queue s) (inflight w0)), <- app_assoc.
    rewrite (app_assoc (f_queue s) (inflight w)), (Permutation_app_comm (f_queue s) (inflight w)), <- app_assoc.
    rewrite !(app_assoc _ _ (f_queue s ++ R)). rewrite D4. reflexivity.
  - exact D3.
  - intros p m Hp Hm. destruct (D5 p m Hp Hm) as [H|[H|[H|H]]]; auto.
    + destruct (I7 p m H Hm) as [H'|[H'|H']]; auto.
      destruct (Exists_insert _ _ _ _ w Hi H') as [H''|H'']; [auto|].
      destruct (D6 p m H'') as [H3|[H3|H3]]; auto. right. right. eapply Exists_insert_new; eauto.
    + right. right. eapply Exists_insert_new; eauto.
  - apply Forall_insert; assumption.
  - rewrite I9. pose proof (sum_insert busy _ i _ w Hi). lia.
  - exact I10.
  - intros Hq Ha Hn. apply I11; auto. intros E. apply Hn. rewrite E. reflexivity.
  - intros H. apply in_insert in H. destruct H as [H|H]; [congruence|auto].
  - intros H. apply in_insert in H. destruct H as [H|H]; [congruence|auto].
  - intros H. apply insert_nil in H. auto.
Qed.

Lemma NoDup_app_disjoint {A} (l1 l2 : list A) x : List.NoDup (l1 ++ l2) -> In x l1 -> In x l2 -> False.
Proof.
  intros ND H1 H2. apply NoDup_ListNoDup in ND. apply NoDup_app in ND. destruct ND as (_ & ND & _).
  apply (ND x); apply elem_of_list_In; assumption.
Qed.
Lemma inflight_in ws i w p : ws !! i = Some w -> In p (inflight w) -> In p (concat (map inflight ws)).
Proof.
  intros H Hp. apply in_concat. exists (inflight w). split; [|exact Hp]. apply in_map.
  apply elem_of_list_In. eapply elem_of_list_lookup_2; eauto.
Qed.
(** A point that is queued or in flight is not stored. *)
Lemma inflight_unknown s i w p : finv s -> f_workers s !! i = Some w -> In p (inflight w) -> f_dom s !! p = None.
Proof.
  intros I0 Hi Hp. destruct (f_dom s !! p) as [b|] eqn:E; [exfalso|reflexivity].
  pose proof (inflight_in _ _ _ _ Hi Hp) as Hc.
  assert (Hs : In p (f_scheduled s)).
  { eapply Permutation_in; [symmetry; apply (fi_perm s I0)|]. apply in_or_app. right. apply in_or_app. auto. }
  destruct (fi_sound s I0 _ _ E) as [_ [H|H]].
  - destruct (fi_sched s I0 p Hs). contradiction.
  - assert (ND : List.NoDup (f_log s ++ f_queue s ++ concat (map inflight (f_workers s))))
      by (eapply Permutation_NoDup; [apply (fi_perm s I0)|apply (fi_nodup s I0)]).
    eapply NoDup_app_disjoint; [exact ND|exact H|]. apply in_or_app. auto.
Qed.

Lemma moore_reach sp m : (reach sp \/ In sp samples) -> op sp = true -> In m (moore_neighborhood dims sp) -> reach m.
Proof.
  intros H Ho Hm. assert (G : on_grid dims sp) by (destruct H; [apply reached_grid; assumption|auto]).
  apply moore_in in Hm; [|apply on_grid_length; exact G]. destruct H as [H|H]; [eapply reached_next; eauto|eapply reached_sample; eauto].
Qed.

Lemma wake_In w ws : In w (map wake ws) -> In w ws \/ (w = WReady /\ In WWait ws).
Proof. intros H. apply in_map_iff in H. destruct H as ([] & <- & Hv); cbn; auto. Qed.
Lemma wake_no_wait ws : ~ In WWait (map wake ws).
Proof. intros H. apply in_map_iff in H. destruct H as ([] & E & Hv); cbn in E; discriminate. Qed.
Lemma wake_inflight ws : map inflight (map wake ws) = map inflight ws.
Proof. rewrite map_map. apply map_ext. intros []; reflexivity. Qed.
Lemma wake_busy ws : map busy (map wake ws) = map busy ws.
Proof. rewrite map_map. apply map_ext. intros []; reflexivity. Qed.

Lemma fill_step_inv i s s' : finv s -> fill_step dims op i s = Some s' -> finv s'.
Proof.
  intros I0 H. unfold fill_step in H.
  destruct (f_workers s !! i) as [[| |sp|sp|sp [|m todo] found|sp found|]|] eqn:Hi; try discriminate.
  - (* before taking the lock *)
    destruct (f_queue s) as [|sp q] eqn:Hq.
    + injection H as <-. destruct I0 as [I1 I2 I3 I4 I5 I6 I7 I8 I9 I10 I11 I12 I13 I14]. rewrite Hq in *.
      set (w := if f_finished s then WDone else WWait).
      assert (Ew : busy w = 0 /\ inflight w = [] /\ wok w /\ forall p m, ~ covers w p m)
        by (unfold w; destruct (f_finished s); cbn; auto).
      destruct Ew as (W1 & W2 & W3 & W4).
      split; cbn [f_dom f_queue f_scheduled f_active f_finished f_workers f_log]; auto.
      * rewrite I5. pose proof (concat_map_insert inflight _ i _ w [] Hi) as E. rewrite W2 in E. cbn [inflight app] in E.
        rewrite (E (Permutation_refl _)). reflexivity.
      * intros p m Hp Hm. destruct (I7 p m Hp Hm) as [H|[H|H]]; auto. right. right.
        destruct (Exists_insert _ _ _ _ w Hi H) as [H'|H']; [exact H'|cbn in H'; contradiction].
      * apply Forall_insert; assumption.
      * rewrite I9. pose proof (sum_insert busy _ i _ w Hi) as E. rewrite W1 in E. cbn [busy] in E. lia.
      * intros E1 E2 E3. apply I11; auto. intros E. apply E3. rewrite E. reflexivity.
      * intros H. split; [reflexivity|]. apply in_insert in H. destruct H as [H|H].
        -- unfold w in H. destruct (f_finished s); [discriminate|reflexivity].
        -- apply I12. exact H.
      * intros H. apply in_insert in H. destruct H as [H|H]; [|auto].
        unfold w in H. destruct (f_finished s); [reflexivity|discriminate].
    + injection H as <-. destruct I0 as [I1 I2 I3 I4 I5 I6 I7 I8 I9 I10 I11 I12 I13 I14]. rewrite Hq in *.
      assert (Hsp : In sp (f_scheduled s)).
      { eapply Permutation_in; [symmetry; exact I5|]. apply in_or_app. right. apply in_or_app. left. left. reflexivity. }
      split; cbn [f_dom f_queue f_scheduled f_active f_finished f_workers f_log]; auto.
      * rewrite I5.
        assert (Hi2 : <[i:=WBusy sp]> (f_workers s) !! i = Some (WBusy sp))
          by (apply list_lookup_insert; eapply lookup_lt_Some; eauto).
        pose proof (concat_map_insert inflight _ i _ WReady [sp] Hi2 (Permutation_refl _)) as E2.
        rewrite list_insert_insert, (list_insert_id _ i WReady Hi) in E2. rewrite E2.
        apply Permutation_app_head. cbn [app]. apply Permutation_middle.
      * intros p m Hp Hm. destruct (I7 p m Hp Hm) as [H|[H|H]]; auto. right. right.
        destruct (Exists_insert _ _ _ _ (WBusy sp) Hi H) as [H'|H']; [exact H'|cbn in H'; contradiction].
      * apply Forall_insert; [assumption|]. cbn. apply I3. exact Hsp.
      * rewrite I9. pose proof (sum_insert busy _ i _ (WBusy sp) Hi) as E. cbn [busy] in E. lia.
      * intros Hf. destruct (I10 Hf) as [H1 _]. discriminate.
      * intros _ E. discriminate.
      * intros H. apply in_insert in H. destruct H as [H|H]; [discriminate|]. destruct (I12 H) as [H1 _]. discriminate.
      * intros H. apply in_insert in H. destruct H as [H|H]; [discriminate|auto].
      * intros H. apply insert_nil in H. specialize (I14 H). discriminate.
  - (* popped *)
    pose proof (inflight_unknown _ _ _ sp I0 Hi ltac:(left; reflexivity)) as Hu. rewrite Hu in H. injection H as <-.
    pose proof (proj1 (Forall_lookup _ _) (fi_wok s I0) _ _ Hi) as Hw. cbn in Hw.
    apply (local_inv s i (WBusy sp)); cbn; auto; try discriminate; try apply I0; try tauto.
  - (* simulated *)
    injection H as <-.
    pose proof (inflight_unknown _ _ _ sp I0 Hi ltac:(left; reflexivity)) as Hu.
    pose proof (proj1 (Forall_lookup _ _) (fi_wok s I0) _ _ Hi) as Hw. cbn in Hw.
    assert (G : on_grid dims sp) by (apply reached_grid; exact Hw).
    set (w := if op sp then WNbrs sp (moore_neighborhood dims sp) [] else WReport sp []).
    apply (local_inv s i (WSim sp) w); auto.
    + unfold w. destruct (op sp); reflexivity.
    + unfold w. destruct (op sp) eqn:Eo; cbn; [|tauto]. split; [exact Eo|]. split; [|tauto].
      intros m Hm. eapply moore_reach; eauto.
    + unfold w. destruct (op sp); discriminate.
    + unfold w. destruct (op sp); discriminate.
    + intros p b Hb. apply add_value_lookup in Hb. destruct Hb as [Hb|(-> & -> & _)].
      * destruct (fi_sound s I0 _ _ Hb) as [H1 [H2|H2]]; (split; [exact H1|]); [auto|right; apply in_or_app; auto].
      * split; [reflexivity|]. right. apply in_or_app. right. left. reflexivity.
    + intros p. apply add_value_mono.
    + intros p Hp. apply in_app_or in Hp. destruct Hp as [Hp|[<-|[]]]; [apply add_value_mono, (fi_log s I0); exact Hp|apply add_value_there].
    + assert (E : inflight w = []) by (unfold w; destruct (op sp); reflexivity). rewrite E, app_nil_r. reflexivity.
    + intros p m Hp Hm. apply add_value_lookup in Hp. destruct Hp as [Hp|(-> & Ho & _)]; [auto|].
      right. right. right. unfold w. rewrite <- Ho. cbn. split; [reflexivity|]. left. apply moore_in; [apply on_grid_length; exact G|exact Hm].
    + intros p m [].
  - (* all neighbours looked up *)
    injection H as <-.
    pose proof (proj1 (Forall_lookup _ _) (fi_wok s I0) _ _ Hi) as Hw. cbn in Hw.
    apply (local_inv s i (WNbrs sp [] found)); cbn; auto; try discriminate; try apply I0; try tauto.
  - (* one neighbour looked up *)
    injection H as <-.
    pose proof (proj1 (Forall_lookup _ _) (fi_wok s I0) _ _ Hi) as Hw. cbn in Hw. destruct Hw as (W1 & W2 & W3).
    apply (local_inv s i (WNbrs sp (m :: todo) found)); auto; try discriminate; try apply I0; try reflexivity.
    + cbn. split; [exact W1|]. split; [intros m' Hm'; apply W2; right; exact Hm'|].
      destruct (f_dom s !! m) as [b|] eqn:Em; [exact W3|]. intros m' Hm'. apply in_app_or in Hm'. destruct Hm' as [Hm'|[<-|[]]]; [auto|].
      split; [apply W2; left; reflexivity|]. intros Hs. destruct (fi_samples s I0 _ Hs) as [? Hx]. congruence.
    + intros p m' (-> & Hc). cbn. destruct (f_dom s !! m) as [b|] eqn:Em.
      * destruct Hc as [[<-|Hc]|Hc]; auto. right. destruct (fi_sound s I0 _ _ Em) as [_ [Hs|Hs]]; auto.
        right. eapply Permutation_in; [symmetry; apply (fi_perm s I0)|]. apply in_or_app. auto.
      * left. split; [reflexivity|]. destruct Hc as [[<-|Hc]|Hc]; auto; right; apply in_or_app; [right; left; reflexivity|auto].
  - (* report *)
    pose proof (proj1 (Forall_lookup _ _) (fi_wok s I0) _ _ Hi) as Hw. cbn in Hw.
    destruct (schedule_points_ok found (f_queue s) (f_scheduled s)) as (new & E & ND & N & C). rewrite E in H. cbn [fst snd] in H.
    injection H as <-.
    destruct I0 as [I1 I2 I3 I4 I5 I6 I7 I8 I9 I10 I11 I12 I13 I14].
    pose proof (busy_pos _ _ _ Hi) as Hb. cbn [busy] in Hb.
    assert (Hf : f_finished s = false).
    { destruct (f_finished s); [|reflexivity]. destruct (I10 eq_refl) as [_ H0]. lia. }
    pose proof (sum_insert busy _ i _ WReady Hi) as Eb. cbn [busy] in Eb.
    set (ws := <[i:=WReady]> (f_workers s)) in *.
    set (fin := match f_queue s ++ new with [] => f_active s - 1 =? 0 | _ :: _ => false end).
    set (ws' := if fin || match f_queue s ++ new with [] => false | _ :: _ => true end then map wake ws else ws).
    assert (W1 : map inflight ws' = map inflight ws) by (unfold ws'; destruct (_ || _); [apply wake_inflight|reflexivity]).
    assert (W2 : map busy ws' = map busy ws) by (unfold ws'; destruct (_ || _); [apply wake_busy|reflexivity]).
    assert (W3 : forall w, In w ws' -> In w ws \/ w = WReady).
    { intros w Hw'. unfold ws' in Hw'. destruct (_ || _) in Hw'; [|auto]. apply wake_In in Hw'. tauto. }
    assert (W4 : forall p m, Exists (fun w => covers w p m) ws -> Exists (fun w => covers w p m) ws').
    { intros p m Hx. unfold ws'. destruct (_ || _); [|exact Hx]. apply Exists_exists in Hx. destruct Hx as (w & H1 & H2).
      apply Exists_exists. exists (wake w). split; [apply elem_of_list_In, in_map, elem_of_list_In; exact H1|apply covers_wake; exact H2]. }
    assert (Wn : ws' = [] -> ws = []).
    { unfold ws'. destruct (_ || _); [|auto]. destruct ws; [auto|discriminate]. }
    split; cbn [f_dom f_queue f_scheduled f_active f_finished f_workers f_log]; auto.
    + intros p Hp. apply in_app_or in Hp. destruct Hp as [Hp|Hp]; [auto|]. apply Hw. apply N. exact Hp.
    + apply NoDup_ListNoDup. apply NoDup_app. split; [apply NoDup_ListNoDup; exact I4|]. split; [|apply NoDup_ListNoDup; exact ND].
      intros x H1 H2. apply elem_of_list_In in H1, H2. destruct (N x H2). contradiction.
    + rewrite W1, I5. pose proof (concat_map_insert inflight _ i _ WReady [] Hi (Permutation_refl _)) as E2. cbn [app] in E2.
      rewrite E2. fold ws. rewrite <- !app_assoc. apply Permutation_app_head. apply Permutation_app_head. apply Permutation_app_comm.
    + intros p m Hp Hm. destruct (I7 p m Hp Hm) as [H|[H|H]]; [auto|right; left; apply in_or_app; auto|].
      destruct (Exists_insert _ _ _ _ WReady Hi H) as [H'|H']; [right; right; apply W4; exact H'|].
      cbn in H'. destruct H' as [_ H']. right. left. apply C. exact H'.
    + apply Forall_forall. intros w Hw'. apply elem_of_list_In in Hw'. apply W3 in Hw'. destruct Hw' as [Hw'|Hw']; [|subst w; exact Logic.I].
      apply in_insert in Hw'. destruct Hw' as [Hw'|Hw']; [subst w; exact Logic.I|]. rewrite Forall_forall in I8. apply I8, elem_of_list_In, Hw'.
    + rewrite W2. lia.
    + unfold fin. destruct (f_queue s ++ new); [|discriminate]. intros H. apply Nat.eqb_eq in H. auto.
    + intros E1 E2 _. unfold fin. rewrite E1. apply Nat.eqb_eq. exact E2.
    + intros H. unfold ws' in H. destruct (fin || _) eqn:En.
      * apply wake_no_wait in H. contradiction.
      * apply orb_false_iff in En. destruct En as [En1 En2]. split; [|exact En1]. destruct (f_queue s ++ new); [reflexivity|discriminate].
    + intros H. apply W3 in H. destruct H as [H|H]; [|discriminate]. apply in_insert in H. destruct H as [H|H]; [discriminate|].
      specialize (I13 H). congruence.
    + intros H. apply Wn in H. apply insert_nil in H. rewrite H in Hi. discriminate.
Qed.

Lemma fill_event_inv s e : finv s -> finv (fill_event dims op s e).
Proof.
  intros I0. destruct e as [i|i]; cbn [fill_event].
  - destruct (fill_step dims op i s) eqn:E; [eapply fill_step_inv; eauto|exact I0].
  - destruct (f_workers s !! i) as [w|] eqn:Hi; [|exact I0]. destruct w; try exact I0.
    destruct I0 as [I1 I2 I3 I4 I5 I6 I7 I8 I9 I10 I11 I12 I13 I14].
    split; cbn [f_dom f_queue f_scheduled f_active f_finished f_workers f_log]; auto.
    + rewrite I5. pose proof (concat_map_insert inflight _ i _ WReady [] Hi (Permutation_refl _)) as E2. cbn [app] in E2.
      rewrite E2. reflexivity.
    + intros p m Hp Hm. destruct (I7 p m Hp Hm) as [H|[H|H]]; auto. right. right.
      destruct (Exists_insert _ _ _ _ WReady Hi H) as [H'|H']; [exact H'|cbn in H'; contradiction].
    + apply Forall_insert; [assumption|exact Logic.I].
    + rewrite I9. pose proof (sum_insert busy _ i _ WReady Hi) as E. cbn [busy] in E. lia.
    + intros E1 E2 E3. apply I11; auto. intros E. apply E3. rewrite E. reflexivity.
    + intros H. apply in_insert in H. destruct H as [H|H]; [discriminate|auto].
    + intros H. apply in_insert in H. destruct H as [H|H]; [discriminate|auto].
    + intros H. apply insert_nil in H. auto.
Qed.
Lemma fill_run_inv events s : finv s -> finv (fill_run dims op events s).
Proof.
  revert s. induction events as [|e l IH]; intros s I0; cbn [fill_run fold_left]; [exact I0|]. apply IH, fill_event_inv, I0.
Qed.

(** ** The start *)
Context (dom0 : gmap point bool).
Context (dom0_ok : forall p b, dom0 !! p = Some b <-> In p samples /\ b = op p).

Lemma seed_ok keys : forall q0, (forall p, In p keys -> In p samples) ->
  let P (q : list point) done := List.NoDup q /\ (forall p, In p q -> reach p /\ ~ In p samples) /\
      (forall p m, In p done -> op p = true -> adjacent dims p m -> In m samples \/ In m q) in
  forall done, P q0 done ->
  exists q, fold_left (fun q sp => match dom0 !! sp with
                         | Some true => schedule_points (unknown_neighborhood dims dom0 sp) q
                         | _ => q
                         end) keys (q0, q0) = (q, q) /\ P q (done ++ keys).
Proof.
  induction keys as [|k keys IH]; intros q0 Hk P done HP.
  - exists q0. rewrite app_nil_r. split; [reflexivity|exact HP].
  - cbn [fold_left].
    assert (Hs : In k samples) by (apply Hk; left; reflexivity).
    assert (Ek : dom0 !! k = Some (op k)) by (apply dom0_ok; auto).
    replace (done ++ k :: keys) with ((done ++ [k]) ++ keys) by (rewrite <- app_assoc; reflexivity).
    destruct (op k) eqn:Eo.
    + rewrite Ek.
      destruct (schedule_points_ok (unknown_neighborhood dims dom0 k) q0 q0) as (new & E & ND & N & C). rewrite E.
      apply IH; [intros p Hp; apply Hk; right; exact Hp|].
      destruct HP as (P1 & P2 & P3). split; [|split].
      * apply NoDup_ListNoDup. apply NoDup_app. split; [apply NoDup_ListNoDup; exact P1|]. split; [|apply NoDup_ListNoDup; exact ND].
        intros x H1 H2. apply elem_of_list_In in H1, H2. destruct (N x H2). contradiction.
      * intros p Hp. apply in_app_or in Hp. destruct Hp as [Hp|Hp]; [auto|]. destruct (N p Hp) as [Hn _].
        unfold unknown_neighborhood in Hn. apply filter_In in Hn. destruct Hn as [Hn1 Hn2]. split; [eapply moore_reach; eauto|].
        intros Hps. assert (Ep : dom0 !! p = Some (op p)) by (apply dom0_ok; auto). rewrite Ep in Hn2. discriminate.
      * intros p m Hp Ho Ha. apply in_app_or in Hp. destruct Hp as [Hp|[<-|[]]].
        -- destruct (P3 p m Hp Ho Ha); [auto|right; apply in_or_app; auto].
        -- destruct (dom0 !! m) as [b|] eqn:Em; [left; apply dom0_ok in Em; apply Em|]. right. apply C.
           unfold unknown_neighborhood. apply filter_In. rewrite Em. split; [|reflexivity].
           apply moore_in; [apply on_grid_length; auto|exact Ha].
    + rewrite Ek. apply IH; [intros p Hp; apply Hk; right; exact Hp|].
      destruct HP as (P1 & P2 & P3). split; [exact P1|]. split; [exact P2|].
      intros p m Hp Ho Ha. apply in_app_or in Hp. destruct Hp as [Hp|[<-|[]]]; [eauto|congruence].
Qed.

Lemma fill_start_inv threads keys : (forall p, In p keys <-> In p samples) -> finv (fill_start dims threads dom0 keys).
Proof.
  intros Hk. destruct (seed_ok keys [] (fun p => proj1 (Hk p)) []) as (q & E & Q1 & Q2 & Q3).
  { split; [constructor|]. split; intros; contradiction. }
  cbn [app] in Q3. unfold fill_start, seed_queue. rewrite E. cbn [fst snd].
  assert (Z : list_sum (map busy (match q with [] => [] | _ :: _ => repeat WReady (Nat.max threads 1) end)) = 0 /\
    concat (map inflight (match q with [] => [] | _ :: _ => repeat WReady (Nat.max threads 1) end)) = []).
  { destruct q; [auto|]. generalize (Nat.max threads 1). intros n. induction n as [|n [IH1 IH2]]; [auto|]. auto. }
  destruct Z as [Z1 Z2].
  assert (R : forall w, In w (match q with [] => [] | _ :: _ => repeat WReady (Nat.max threads 1) end) -> w = WReady).
  { intros w Hw. destruct q; [contradiction|]. apply repeat_spec in Hw. exact Hw. }
  split; cbn [f_dom f_queue f_scheduled f_active f_finished f_workers f_log].
  - intros p b Hp. apply dom0_ok in Hp. tauto.
  - intros p Hp. exists (op p). apply dom0_ok. auto.
  - exact Q2.
  - exact Q1.
  - rewrite Z2, app_nil_r. reflexivity.
  - intros p [].
  - intros p m Hp Ha. apply dom0_ok in Hp. destruct Hp as [Hp Ho]. destruct (Q3 p m ltac:(apply Hk; exact Hp) ltac:(auto) Ha); auto.
  - apply Forall_forall. intros w Hw. apply elem_of_list_In in Hw. rewrite (R w Hw). exact Logic.I.
  - rewrite Z1. reflexivity.
  - discriminate.
  - intros -> _ Hn. destruct Hn. reflexivity.
  - intros Hw. apply R in Hw. discriminate.
  - intros Hw. apply R in Hw. discriminate.
  - destruct q; [auto|]. intros Hn. destruct (Nat.max threads 1) eqn:Em; [lia|discriminate].
Qed.

(** ** The end *)
Lemma fill_result s : finv s -> fill_finished s ->
  (forall p b, f_dom s !! p = Some b <-> (In p samples \/ reach p) /\ b = op p) /\
  List.NoDup (f_log s) /\ (forall p, In p (f_log s) <-> reach p /\ ~ In p samples).
Proof.
  intros I0 F. pose proof I0 as [I1 I2 I3 I4 I5 I6 I7 I8 I9 I10 I11 I12 I13 I14].
  assert (Q : f_queue s = []).
  { destruct (f_workers s) as [|w ws] eqn:Ew; [apply I14; reflexivity|]. unfold fill_finished in F. rewrite Ew in F.
    inversion F; subst. apply I10. apply I13. left. reflexivity. }
  assert (C : concat (map inflight (f_workers s)) = []).
  { unfold fill_finished in F. clear -F. induction F as [|w ws Hw F IH]; [reflexivity|]. cbn. rewrite Hw, IH. reflexivity. }
  rewrite Q, C, app_nil_r in I5. cbn [app] in I5. rewrite app_nil_r in I5 || idtac.
  assert (NC : forall p m, ~ Exists (fun w => covers w p m) (f_workers s)).
  { intros p m Hx. apply Exists_exists in Hx. destruct Hx as (w & Hw & Hc). unfold fill_finished in F. rewrite Forall_forall in F.
    rewrite (F w Hw) in Hc. exact Hc. }
  assert (K : forall p, In p samples \/ In p (f_scheduled s) -> is_Some (f_dom s !! p)).
  { intros p [H|H]; [auto|]. apply I6. eapply Permutation_in; eauto. }
  assert (R : forall p, reach p -> In p samples \/ In p (f_scheduled s)).
  { intros p Hp. induction Hp as [p m Hp Ho Ha|p m Hp IH Ho Ha].
    - destruct (I2 p Hp) as [b Hb]. destruct (I1 _ _ Hb) as [Eb _]. rewrite Ho in Eb. subst b.
      destruct (I7 p m Hb Ha) as [H|[H|H]]; auto. destruct (NC _ _ H).
    - destruct (K p IH) as [b Hb]. destruct (I1 _ _ Hb) as [Eb _]. rewrite Ho in Eb. subst b.
      destruct (I7 p m Hb Ha) as [H|[H|H]]; auto. destruct (NC _ _ H). }
  split; [|split].
  - intros p b. split.
    + intros Hp. destruct (I1 _ _ Hp) as [Hb Hs]. split; [|exact Hb]. destruct Hs as [Hs|Hs]; [auto|]. right. apply I3.
      eapply Permutation_in; [symmetry; exact I5|exact Hs].
    + intros [Hp ->]. assert (is_Some (f_dom s !! p)) as [b Hb] by (apply K; destruct Hp; auto).
      destruct (I1 _ _ Hb) as [<- _]. exact Hb.
  - eapply Permutation_NoDup; eauto.
  - intros p. split.
    + intros Hp. apply I3. eapply Permutation_in; [symmetry; exact I5|exact Hp].
    + intros [Hp Hn]. destruct (R p Hp) as [H|H]; [contradiction|]. eapply Permutation_in; eauto.
Qed.

(** ** Progress *)
Lemma fill_stuck s : finv s -> (forall i, fill_step dims op i s = None) -> fill_finished s.
Proof.
  intros I0 H. unfold fill_finished.
  assert (W : Forall (fun w => w = WWait \/ w = WDone) (f_workers s)).
  { apply Forall_lookup. intros i w Hi. specialize (H i). unfold fill_step in H. rewrite Hi in H.
    destruct w as [| |sp|sp|sp [|m todo] found|sp found|]; try discriminate; auto. destruct (f_queue s); discriminate. }
  assert (D : In WWait (f_workers s) \/ Forall (fun w => w = WDone) (f_workers s)).
  { clear -W. induction W as [|w ws Hw W IH]; [right; constructor|]. destruct Hw as [-> | ->]; [left; left; reflexivity|].
    destruct IH as [IH|IH]; [left; right; exact IH|right; constructor; auto]. }
  destruct D as [Hw|Hw].
  - exfalso. destruct (fi_wait s I0 Hw) as [Hq Hf].
    assert (A : f_active s = 0).
    { rewrite (fi_active s I0). clear -W. induction W as [|w ws Hw W IH]; [reflexivity|]. cbn.
      change (busy w + list_sum (map busy ws) = 0). destruct Hw as [-> | ->]; exact IH. }
    rewrite (fi_end s I0 Hq A) in Hf; [discriminate|]. intros E. rewrite E in Hw. contradiction.
  - exact Hw.
Qed.

(** ** Termination *)
Definition nbrs (p : point) : nat := length (moore_neighborhood dims p).
Definition wcost (w : wstate) : nat :=
  match w with
  | WReady => 1 | WWait | WDone => 0
  | WBusy sp => nbrs sp + 5 | WSim sp => nbrs sp + 4 | WNbrs _ todo _ => length todo + 3 | WReport _ _ => 2
  end.
Definition ucost (W : nat) (sched : list point) : nat :=
  list_sum (map (fun p => if bool_decide (p ∈ sched) then 0 else nbrs p + 5 + W) (all_points dims)).
Definition qcost (q : list point) : nat := list_sum (map (fun p => nbrs p + 5) q).
Definition fcost (s : fstate) : nat :=
  let W := length (f_workers s) in
  ucost W (f_scheduled s) + qcost (f_queue s) + list_sum (map wcost (f_workers s)) + (if f_finished s then 0 else W).

Lemma ucost_new W new : forall sched, List.NoDup new -> (forall p, In p new -> In p (all_points dims) /\ ~ In p sched) ->
  ucost W (sched ++ new) + qcost new + length new * W <= ucost W sched.
Proof.
  induction new as [|p new IH]; intros sched ND H.
  - rewrite app_nil_r. cbn. lia.
  - inversion ND; subst. replace (sched ++ p :: new) with ((sched ++ [p]) ++ new) by (rewrite <- app_assoc; reflexivity).
    assert (IH' : ucost W ((sched ++ [p]) ++ new) + qcost new + length new * W <= ucost W (sched ++ [p])).
    { apply IH; [assumption|]. intros r Hr. destruct (H r) as [H1 H2']; [right; exact Hr|]. split; [exact H1|].
      intros Hs. apply in_app_or in Hs. destruct Hs as [Hs|[<-|[]]]; contradiction. }
    assert (E : ucost W (sched ++ [p]) + (nbrs p + 5 + W) <= ucost W sched).
    { destruct (H p) as [Hg Hn]; [left; reflexivity|]. unfold ucost. revert Hg. generalize (all_points dims). intros G.
      assert (M : forall L : list point, list_sum (map (fun r => if bool_decide (r ∈ sched ++ [p]) then 0 else nbrs r + 5 + W) L) <=
        list_sum (map (fun r => if bool_decide (r ∈ sched) then 0 else nbrs r + 5 + W) L)).
      { intros L. induction L as [|r L IHL]; [reflexivity|]. cbn [map]. unfold list_sum in *. cbn [foldr fold_right].
        case_bool_decide as D1; case_bool_decide as D2; try lia. destruct D1. apply elem_of_app. auto. }
      induction G as [|r G IHG]; [intros []|]. intros [->|Hg]; cbn [map]; unfold list_sum in *; cbn [foldr fold_right].
      - rewrite bool_decide_true by (apply elem_of_app; right; apply elem_of_list_singleton; reflexivity).
        rewrite bool_decide_false by (rewrite elem_of_list_In; exact Hn). specialize (M G). lia.
      - specialize (IHG Hg). case_bool_decide as D1; case_bool_decide as D2; try lia.
        destruct D1. apply elem_of_app. auto. }
    unfold qcost, list_sum in *. cbn [map foldr fold_right length]. lia.
Qed.
Lemma qcost_app a b : qcost (a ++ b) = qcost a + qcost b.
Proof. unfold qcost. rewrite map_app, list_sum_app. reflexivity. Qed.
Lemma wake_cost ws : list_sum (map wcost (map wake ws)) <= list_sum (map wcost ws) + length ws /\
  (~ In WWait ws -> list_sum (map wcost (map wake ws)) = list_sum (map wcost ws)).
Proof.
  induction ws as [|w ws [IH1 IH2]]; [auto|]. unfold list_sum in *. cbn [map foldr fold_right length]. split.
  - destruct w; cbn [wake wcost]; lia.
  - intros N. rewrite IH2 by (intros H; apply N; right; exact H). f_equal. destruct w; try reflexivity. destruct N. left. reflexivity.
Qed.

Lemma fill_step_cost i s s' : finv s -> fill_step dims op i s = Some s' -> fcost s' < fcost s.
Proof.
  intros I0 H. unfold fill_step in H.
  destruct (f_workers s !! i) as [w|] eqn:Hi; [|discriminate].
  assert (L : forall w', length (<[i:=w']> (f_workers s)) = length (f_workers s)) by (intros; apply insert_length).
  pose proof (fun w' => sum_insert wcost _ i _ w' Hi) as SI.
  destruct w as [| |sp|sp|sp [|m todo] found|sp found|]; try discriminate.
  - destruct (f_queue s) as [|sp q] eqn:Hq; injection H as <-; unfold fcost; cbn [f_dom f_queue f_scheduled f_active f_finished f_workers f_log];
      rewrite L, ?Hq.
    + specialize (SI (if f_finished s then WDone else WWait)). destruct (f_finished s); cbn [wcost] in SI; lia.
    + specialize (SI (WBusy sp)). cbn [wcost] in SI. unfold qcost, list_sum in *. cbn [map foldr fold_right]. lia.
  - injection H as <-. unfold fcost. cbn [f_dom f_queue f_scheduled f_active f_finished f_workers f_log]. rewrite L.
    match goal with |- context [<[i := ?w']> _] => specialize (SI w') end.
    destruct (f_dom s !! sp) as [[|]|]; cbn [wcost] in SI; unfold nbrs in *; lia.
  - injection H as <-. unfold fcost. cbn [f_dom f_queue f_scheduled f_active f_finished f_workers f_log]. rewrite L.
    match goal with |- context [<[i := ?w']> _] => specialize (SI w') end.
    destruct (op sp); cbn [wcost] in SI; unfold nbrs in *; lia.
  - injection H as <-. unfold fcost. cbn [f_dom f_queue f_scheduled f_active f_finished f_workers f_log]. rewrite L.
    match goal with |- context [<[i := ?w']> _] => specialize (SI w') end. cbn [wcost length] in SI. lia.
  - injection H as <-. unfold fcost. cbn [f_dom f_queue f_scheduled f_active f_finished f_workers f_log]. rewrite L.
    match goal with |- context [<[i := ?w']> _] => specialize (SI w') end. cbn [wcost length] in SI. lia.
  - pose proof (proj1 (Forall_lookup _ _) (fi_wok s I0) _ _ Hi) as Hw. cbn in Hw.
    destruct (schedule_points_ok found (f_queue s) (f_scheduled s)) as (new & E & ND & N & C). rewrite E in H. cbn [fst snd] in H.
    injection H as <-. unfold fcost. cbn [f_dom f_queue f_scheduled f_active f_finished f_workers f_log].
    pose proof (busy_pos _ _ _ Hi) as Hb. cbn [busy] in Hb.
    assert (Hf : f_finished s = false).
    { destruct (f_finished s) eqn:Ef; [|reflexivity]. destruct (fi_fin s I0 Ef) as [_ H0]. rewrite (fi_active s I0) in H0. lia. }
    rewrite Hf. specialize (SI WReady). cbn [wcost] in SI.
    specialize (L WReady). set (ws := <[i:=WReady]> (f_workers s)) in *.
    assert (U : ucost (length (f_workers s)) (f_scheduled s ++ new) + qcost new + length new * length (f_workers s) <=
                ucost (length (f_workers s)) (f_scheduled s)).
    { apply ucost_new; [exact ND|]. intros p Hp. destruct (N p Hp) as [H1 H2]. split; [|exact H2].
      apply all_points_in. apply reached_grid. apply Hw. exact H1. }
    rewrite qcost_app. destruct (wake_cost ws) as [K1 K2].
    destruct (f_queue s ++ new) as [|a b] eqn:Eq.
    + apply app_eq_nil in Eq. destruct Eq as [Eq1 ->]. rewrite orb_false_r.
      destruct (f_active s - 1 =? 0); rewrite ?map_length, ?L; cbn [length] in U; lia.
    + cbn [orb]. rewrite map_length, L. destruct new as [|n new].
      * rewrite app_nil_r in Eq.
        assert (NW : ~ In WWait ws).
        { intros Hx. apply in_insert in Hx. destruct Hx as [Hx|Hx]; [discriminate|]. destruct (fi_wait s I0 Hx) as [Hx1 _].
          rewrite Hx1 in Eq. discriminate. }
        rewrite (K2 NW). cbn [length] in U. lia.
      * cbn [length] in U. nia.
Qed.

Lemma fill_moves_bound events : forall s, finv s ->
  fill_moves dims op events s + fcost (fill_run dims op events s) <= fcost s + spurious events.
Proof.
  induction events as [|e l IH]; intros s I0; cbn [fill_moves fill_run fold_left spurious]; [lia|].
  destruct e as [i|i]; cbn [fill_event].
  - destruct (fill_step dims op i s) as [s'|] eqn:E.
    + pose proof (fill_step_cost _ _ _ I0 E). pose proof (fill_step_inv _ _ _ I0 E) as I1. specialize (IH s' I1). unfold fill_run in IH. lia.
    + specialize (IH s I0). unfold fill_run in IH. lia.
  - pose proof (fill_event_inv s (Spurious i) I0) as I1. cbn [fill_event] in I1. specialize (IH _ I1). unfold fill_run in IH.
    match goal with |- _ <= _ => idtac end.
    assert (Cst : fcost (match f_workers s !! i with
      | Some WWait => mkF (f_dom s) (f_queue s) (f_scheduled s) (f_active s) (f_finished s) (<[i := WReady]> (f_workers s)) (f_log s)
      | _ => s end) <= S (fcost s)).
    { destruct (f_workers s !! i) as [[]|] eqn:Hi; try lia. unfold fcost.
      cbn [f_dom f_queue f_scheduled f_active f_finished f_workers f_log]. rewrite insert_length.
      pose proof (sum_insert wcost _ i _ WReady Hi) as SI. cbn [wcost] in SI. lia. }
    lia.
Qed.

Lemma fill_complete : forall n s, finv s -> fcost s <= n -> exists schedule, fill_finished (fill_run dims op (map Run schedule) s).
Proof.
  induction n as [|n IH]; intros s I0 Hn.
  - exists []. cbn. apply (fill_stuck s I0). intros i. destruct (fill_step dims op i s) eqn:E; [|reflexivity].
    apply fill_step_cost in E; [lia|exact I0].
  - destruct (decide (Exists (fun i => is_Some (fill_step dims op i s)) (seq 0 (length (f_workers s))))) as [F|F].
    + apply Exists_exists in F. destruct F as (i & _ & s' & E).
      destruct (IH s') as (l & Hl); [eapply fill_step_inv; eauto|apply fill_step_cost in E; [lia|exact I0]|].
      exists (i :: l). cbn [map fill_run fold_left fill_event]. rewrite E. exact Hl.
    + exists []. cbn. apply (fill_stuck s I0). intros i. destruct (fill_step dims op i s) as [s'|] eqn:E; [exfalso|reflexivity].
      apply F. apply Exists_exists. exists i. split; [|eauto]. apply elem_of_list_In, in_seq.
      unfold fill_step in E. destruct (f_workers s !! i) eqn:Hi; [|discriminate]. apply lookup_lt_Some in Hi. lia.
Qed.
End Fill.
