(** Proofs about the extraction of routing objectives. *)
From Coq Require Import ZArith Bool List Lia ZifyBool.
From stdpp Require Import gmap list.
From Verif Require Import CoordModel CoordSpec CoordProofs GridModel GridSpec GridProofs CoordMap ClockModel ClockProofs
  GateModel GateSpec GateProofs GateProofs2 GateProofs3 PathSpec RouteModel RouteSpec RouteProofs RouteProofs4.
Import ListNotations.
Local Open Scope Z_scope.

Definition trav_fold (f : nat) (st : glayout) (cur : coord) := fold_left (fun (a : option (gset nat * list (coord * coord))) m => match a with Some x => traverse f st cur m x | None => None end).
Lemma trav_fold_none f st cur l : trav_fold f st cur l None = None.
Proof. induction l; cbn; auto. Qed.

(** Where data on a node comes from. *)
Definition start (st : glayout) (s : nat) : Prop := In s (g_in st) \/ (fed st s /\ ~ forwards st s).
Lemma in_pi st s : In s (g_in st) -> is_pi st s = true.
Proof. intros H. unfold is_pi. apply existsb_exists. exists s. split; [exact H|apply Nat.eqb_refl]. Qed.
Lemma start_not_forwards st s : start st s -> ~ forwards st s.
Proof. intros [H|[_ H]]; [|exact H]. intros (_ & K & _). rewrite (in_pi _ _ H) in K. discriminate. Qed.
Lemma through_fed st s n : start st s -> through_wires st s n -> fed st n.
Proof.
  intros Hs Ht. induction Ht as [m Hm|w m Hw IH _ Hm].
  - destruct Hs as [Hs|[Hs _]]; [eapply fed_pi; eassumption|eapply fed_next; eassumption].
  - eapply fed_next; eassumption.
Qed.

(** ** Soundness *)
Lemma traverse_sound st f : forall r n V O V' O', (exists s, r = get_tile st s /\ start st s /\ through_wires st s n) ->
  (forall a b, In (a, b) O -> objective st a b) -> traverse f st r n (V, O) = Some (V', O') -> forall a b, In (a, b) O' -> objective st a b.
Proof.
  induction f as [|f IH]; intros r n V O V' O' Hr HO H; [discriminate|]. cbn [traverse] in H. cbv zeta in H.
  destruct Hr as (s & Er & Hs & Ht).
  set (conn := is_connection_wire st n) in *. set (cur := if conn then r else get_tile st n) in *.
  set (O1 := if conn then O else O ++ [(r, cur)]) in *.
  assert (HO1 : forall a b, In (a, b) O1 -> objective st a b).
  { subst O1 cur. destruct conn eqn:Ec; [exact HO|]. intros a b [Hin|[E|[]]]%in_app_iff; [apply HO, Hin|]. injection E as <- <-.
    exists s, n. split; [exact Er|]. split; [reflexivity|]. split; [exact Hs|]. split; [exact Ht|]. intros K%conn_forwards. subst conn. congruence. }
  case_bool_decide as Hv; [injection H as <- <-; exact HO1|].
  assert (Hc : exists s, cur = get_tile st s /\ start st s /\ forall m, passes st n m -> through_wires st s m).
  { subst cur. destruct conn eqn:Ec.
    - exists s. split; [exact Er|]. split; [exact Hs|]. intros m Hm. eapply tw_wire; [exact Ht| |exact Hm]. apply conn_forwards. exact Ec.
    - exists n. split; [reflexivity|]. split; [|intros m Hm; apply tw_here, Hm]. right. split; [eapply through_fed; eassumption|].
      intros K%conn_forwards. subst conn. congruence. }
  clear HO Ht Er Hs s. destruct Hc as (s & Ec & Hs & Hm). change (trav_fold f st cur (foreach_fanout true st n) (Some ({[n]} ∪ V, O1)) = Some (V', O')) in H.
  assert (Hl : forall m, In m (foreach_fanout true st n) -> through_wires st s m) by exact Hm. clear Hm Hv.
  revert H. generalize dependent O1. generalize ({[n]} ∪ V). induction (foreach_fanout true st n) as [|m l IHl]; intros W O1 HO1 H.
  - cbn in H. injection H as <- <-. exact HO1.
  - cbn [trav_fold fold_left] in H. destruct (traverse f st cur m (W, O1)) as [[V1 O2]|] eqn:E.
    + apply (IHl ltac:(intros x Hx; apply Hl; right; exact Hx) V1 O2); [|exact H]. eapply IH; [|exact HO1|exact E]. exists s. split; [exact Ec|]. split; [exact Hs|]. apply Hl. left. reflexivity.
    + change (trav_fold f st cur l None = Some (V', O')) in H. rewrite trav_fold_none in H. discriminate.
Qed.

(** ** Completeness *)
Definition origin (st : glayout) (x : nat) (c : coord) : Prop :=
  if is_connection_wire st x then exists s, c = get_tile st s /\ start st s /\ through_wires st s x else c = get_tile st x.
Definition handled (st : glayout) (V : gset nat) (O : list (coord * coord)) (c : coord) (m : nat) : Prop :=
  m ∈ V /\ (is_connection_wire st m = false -> In (c, get_tile st m) O).
Lemma handled_mono st V O V' O' c m : V ⊆ V' -> (forall x, In x O -> In x O') -> handled st V O c m -> handled st V' O' c m.
Proof. intros H1 H2 [K1 K2]. split; [set_solver|]. intros H. apply H2, K2, H. Qed.
Definition progress (st : glayout) (V : gset nat) (O : list (coord * coord)) (V' : gset nat) (O' : list (coord * coord)) : Prop :=
  V ⊆ V' /\ (forall x, In x O -> In x O') /\
  forall x, x ∈ V' -> x ∉ V -> exists c, origin st x c /\ forall m, passes st x m -> handled st V' O' c m.
Lemma progress_refl st V O : progress st V O V O.
Proof. split; [set_solver|]. split; [auto|]. intros x H1 H2. contradiction. Qed.
Lemma progress_trans st V O V1 O1 V2 O2 : progress st V O V1 O1 -> progress st V1 O1 V2 O2 -> progress st V O V2 O2.
Proof.
  intros (A1 & A2 & A3) (B1 & B2 & B3). split; [set_solver|]. split; [auto|]. intros x H1 H2.
  destruct (decide (x ∈ V1)) as [H|H]; [|apply B3; auto]. destruct (A3 x H H2) as (c & Hc & Hm). exists c. split; [exact Hc|].
  intros m Hp. eapply handled_mono; [exact B1|exact B2|apply Hm, Hp].
Qed.
Lemma traverse_complete st f : forall r n V O V' O', (exists s, r = get_tile st s /\ start st s /\ through_wires st s n) ->
  traverse f st r n (V, O) = Some (V', O') -> progress st V O V' O' /\ handled st V' O' r n.
Proof.
  induction f as [|f IH]; intros r n V O V' O' Hr H; [discriminate|]. cbn [traverse] in H. cbv zeta in H.
  destruct Hr as (s & Er & Hs & Ht).
  destruct (is_connection_wire st n) eqn:Ec; cbv iota in H.
  - (* a wire *)
    case_bool_decide as Hv; [injection H as <- <-; split; [apply progress_refl|]; split; [exact Hv|congruence]|].
    change (trav_fold f st r (foreach_fanout true st n) (Some ({[n]} ∪ V, O)) = Some (V', O')) in H.
    assert (Hl : forall m, In m (foreach_fanout true st n) -> through_wires st s m).
    { intros m Hm. eapply tw_wire; [exact Ht| |exact Hm]. apply conn_forwards. exact Ec. }
    assert (G : progress st ({[n]} ∪ V) O V' O' /\ forall m, passes st n m -> handled st V' O' r m).
    { clear Hv. revert H Hl. unfold passes. generalize ({[n]} ∪ V). clear V. revert O. induction (foreach_fanout true st n) as [|m l IHl]; intros O V H Hl.
      - injection H as <- <-. split; [apply progress_refl|]. intros m [].
      - cbn [trav_fold fold_left] in H. destruct (traverse f st r m (V, O)) as [[V1 O1]|] eqn:E.
        2: { change (trav_fold f st r l None = Some (V', O')) in H. rewrite trav_fold_none in H. discriminate. }
        destruct (IH r m V O V1 O1) as [P1 Hh]; [exists s; split; [exact Er|split; [exact Hs|apply Hl; left; reflexivity]]|exact E|].
        destruct (IHl O1 V1 H) as [P2 Hr2]; [intros x Hx; apply Hl; right; exact Hx|].
        split; [eapply progress_trans; eassumption|]. intros x [<-|Hx]; [|apply Hr2, Hx].
        destruct P2 as (Q1 & Q2 & _). eapply handled_mono; eassumption. }
    destruct G as [(G1 & G2 & G3) G4]. split; [|split; [set_solver|congruence]]. split; [set_solver|]. split; [exact G2|].
    intros x H1 H2. destruct (Nat.eq_dec x n) as [->|Hne]; [|apply G3; set_solver].
    exists r. split; [unfold origin; rewrite Ec; exists s; auto|exact G4].
  - (* a gate, a fan-out or an I/O pin *)
    case_bool_decide as Hv.
    { injection H as <- <-. split; [|split; [exact Hv|intros _; apply in_or_app; right; left; reflexivity]].
      split; [set_solver|]. split; [intros x Hx; apply in_or_app; auto|]. intros x H1 H2. contradiction. }
    change (trav_fold f st (get_tile st n) (foreach_fanout true st n) (Some ({[n]} ∪ V, O ++ [(r, get_tile st n)])) = Some (V', O')) in H.
    assert (Hn : start st n).
    { right. split; [eapply through_fed; eassumption|]. intros K%conn_forwards. congruence. }
    assert (Hl : forall m, In m (foreach_fanout true st n) -> through_wires st n m) by (intros m Hm; apply tw_here, Hm).
    assert (G : progress st ({[n]} ∪ V) (O ++ [(r, get_tile st n)]) V' O' /\ forall m, passes st n m -> handled st V' O' (get_tile st n) m).
    { clear Hv. revert H Hl. unfold passes. generalize ({[n]} ∪ V), (O ++ [(r, get_tile st n)]). clear V O. induction (foreach_fanout true st n) as [|m l IHl]; intros V O H Hl.
      - injection H as <- <-. split; [apply progress_refl|]. intros m [].
      - cbn [trav_fold fold_left] in H. destruct (traverse f st (get_tile st n) m (V, O)) as [[V1 O1]|] eqn:E.
        2: { change (trav_fold f st (get_tile st n) l None = Some (V', O')) in H. rewrite trav_fold_none in H. discriminate. }
        destruct (IH (get_tile st n) m V O V1 O1) as [P1 Hh]; [exists n; split; [reflexivity|split; [exact Hn|apply Hl; left; reflexivity]]|exact E|].
        destruct (IHl V1 O1 H) as [P2 Hr2]; [intros x Hx; apply Hl; right; exact Hx|].
        split; [eapply progress_trans; eassumption|]. intros x [<-|Hx]; [|apply Hr2, Hx].
        destruct P2 as (Q1 & Q2 & _). eapply handled_mono; eassumption. }
    destruct G as [(G1 & G2 & G3) G4]. split.
    + split; [set_solver|]. split; [intros x Hx; apply G2, in_or_app; auto|]. intros x H1 H2.
      destruct (Nat.eq_dec x n) as [->|Hne]; [|apply G3; set_solver]. exists (get_tile st n). split; [unfold origin; rewrite Ec; reflexivity|exact G4].
    + split; [set_solver|]. intros _. apply G2, in_or_app. right. left. reflexivity.
Qed.

(** Wires with one predecessor carry the data of one start. *)
Definition single_driver (st : glayout) : Prop := forall w n n', forwards st w -> passes st n w -> passes st n' w -> n = n'.
Lemma origin_unique st s s' w : single_driver st -> forwards st w -> start st s -> start st s' -> through_wires st s w -> through_wires st s' w -> s = s'.
Proof.
  intros Hd Hw Hs Hs' H. revert Hw. induction H as [m Hm|w m Hw IH Hf Hm]; intros Hfm H'.
  - inversion H' as [x Hx|w x Hw' Hf' Hx]; subst; [eapply Hd; eassumption|]. exfalso. apply (start_not_forwards _ _ Hs).
    rewrite (Hd m s w Hfm Hm Hx). exact Hf'.
  - inversion H' as [x Hx|w' x Hw' Hf' Hx]; subst.
    + exfalso. apply (start_not_forwards _ _ Hs'). rewrite (Hd m s' w Hfm Hx Hm). exact Hf.
    + apply IH; [exact Hf|]. rewrite (Hd m w w' Hfm Hm Hx). exact Hw'.
Qed.

Definition pis_fold (f : nat) (st : glayout) := fold_left (fun (a : option (gset nat * list (coord * coord))) pi => trav_fold f st (get_tile st pi) (foreach_fanout true st pi) a).
Lemma pis_fold_none f st l : pis_fold f st l None = None.
Proof. induction l as [|p l IH]; [reflexivity|]. cbn [pis_fold fold_left]. rewrite trav_fold_none. exact IH. Qed.
Lemma trav_list st f r s l V O V' O' : r = get_tile st s -> start st s -> (forall m, In m l -> passes st s m) ->
  trav_fold f st r l (Some (V, O)) = Some (V', O') ->
  progress st V O V' O' /\ (forall m, In m l -> handled st V' O' r m) /\
  ((forall a b, In (a, b) O -> objective st a b) -> forall a b, In (a, b) O' -> objective st a b).
Proof.
  intros Er Hs. revert V O. induction l as [|m l IH]; intros V O Hl H.
  - injection H as <- <-. split; [apply progress_refl|]. split; [intros m []|auto].
  - cbn [trav_fold fold_left] in H. destruct (traverse f st r m (V, O)) as [[V1 O1]|] eqn:E.
    2: { change (trav_fold f st r l None = Some (V', O')) in H. rewrite trav_fold_none in H. discriminate. }
    assert (Hx : exists s, r = get_tile st s /\ start st s /\ through_wires st s m).
    { exists s. split; [exact Er|]. split; [exact Hs|]. apply tw_here, Hl. left. reflexivity. }
    destruct (traverse_complete st f r m V O V1 O1 Hx E) as [P1 Hh].
    destruct (IH V1 O1 ltac:(intros x Hx'; apply Hl; right; exact Hx') H) as (P2 & P3 & P4).
    split; [eapply progress_trans; eassumption|]. split.
    + intros x [<-|Hx']; [|apply P3, Hx']. destruct P2 as (Q1 & Q2 & _). eapply handled_mono; eassumption.
    + intros HO. apply P4. eapply traverse_sound; eassumption.
Qed.
Lemma pis_run st f l V O V' O' : (forall s, In s l -> In s (g_in st)) -> pis_fold f st l (Some (V, O)) = Some (V', O') ->
  progress st V O V' O' /\ (forall s m, In s l -> passes st s m -> handled st V' O' (get_tile st s) m) /\
  ((forall a b, In (a, b) O -> objective st a b) -> forall a b, In (a, b) O' -> objective st a b).
Proof.
  revert V O. induction l as [|s l IH]; intros V O Hl H.
  - injection H as <- <-. split; [apply progress_refl|]. split; [intros s m []|auto].
  - cbn [pis_fold fold_left] in H. destruct (trav_fold f st (get_tile st s) (foreach_fanout true st s) (Some (V, O))) as [[V1 O1]|] eqn:E.
    2: { change (pis_fold f st l None = Some (V', O')) in H. rewrite pis_fold_none in H. discriminate. }
    destruct (trav_list st f (get_tile st s) s (foreach_fanout true st s) V O V1 O1 eq_refl (or_introl (Hl s (or_introl eq_refl))) (fun m Hm => Hm) E) as (P1 & P2 & P3).
    destruct (IH V1 O1 ltac:(intros x Hx; apply Hl; right; exact Hx) H) as (Q1 & Q2 & Q3).
    split; [eapply progress_trans; eassumption|]. split; [|auto].
    intros x m [<-|Hx] Hm; [|apply Q2; auto]. destruct Q1 as (R1 & R2 & _). eapply handled_mono; [exact R1|exact R2|]. apply P2, Hm.
Qed.
Lemma objectives_sound st f O : extract_routing_objectives f st = Some O -> forall a b, In (a, b) O -> objective st a b.
Proof.
  unfold extract_routing_objectives, foreach_pi. intros H. change (option_map snd (pis_fold f st (g_in st) (Some (∅, []))) = Some O) in H.
  destruct (pis_fold f st (g_in st) (Some (∅, []))) as [[V' O']|] eqn:E; [|discriminate]. injection H as <-.
  apply (pis_run st f (g_in st) ∅ [] V' O' (fun s Hs => Hs) E). intros a b [].
Qed.
Lemma objectives_complete st f O : single_driver st -> extract_routing_objectives f st = Some O -> forall a b, objective st a b -> In (a, b) O.
Proof.
  intros Hd. unfold extract_routing_objectives, foreach_pi. intros H. change (option_map snd (pis_fold f st (g_in st) (Some (∅, []))) = Some O) in H.
  destruct (pis_fold f st (g_in st) (Some (∅, []))) as [[V' O']|] eqn:E; [|discriminate]. injection H as <-.
  destruct (pis_run st f (g_in st) ∅ [] V' O' (fun s Hs => Hs) E) as ((_ & _ & P1) & P2 & _).
  assert (F : forall n, fed st n -> n ∈ V').
  { intros n Hn. induction Hn as [n m Hn Hm|n m Hn IH Hm]; [apply (P2 n m Hn Hm)|]. destruct (P1 n IH ltac:(set_solver)) as (c & _ & Hc). apply (Hc m Hm). }
  intros a b (n & m & -> & -> & Hs & Ht & Hm). fold (start st n) in Hs.
  assert (G : handled st V' O' (get_tile st n) m).
  { inversion Ht as [x Hx|w x Hw Hf Hx]; subst.
    - destruct Hs as [Hs|[Hs Hf]]; [apply P2; auto|]. destruct (P1 n (F n Hs) ltac:(set_solver)) as (c & Ho & Hc). unfold origin in Ho.
      destruct (is_connection_wire st n) eqn:Ec; [exfalso; apply Hf, conn_forwards, Ec|]. rewrite Ho in Hc. apply Hc, Hx.
    - assert (Hwv : w ∈ V') by (apply F; eapply through_fed; eassumption). destruct (P1 w Hwv ltac:(set_solver)) as (c & Ho & Hc). unfold origin in Ho.
      assert (is_connection_wire st w = true) as Ec by (apply conn_forwards; exact Hf). rewrite Ec in Ho. destruct Ho as (s & -> & Hs' & Hw').
      rewrite (origin_unique st n s w Hd Hf Hs Hs' Hw Hw'). apply Hc, Hx. }
  apply G. destruct (is_connection_wire st m) eqn:Ec; [|reflexivity]. exfalso. apply Hm, conn_forwards, Ec.
Qed.

(** ** Termination *)
Definition todo (st : glayout) (V : gset nat) : nat := size (list_to_set (seq 0 (length (g_nodes st))) ∖ V).
Lemma todo_mono st V W : V ⊆ W -> (todo st W <= todo st V)%nat.
Proof. intros H. unfold todo. apply subseteq_size. set_solver. Qed.
Lemma todo_add st V n : (n < length (g_nodes st))%nat -> n ∉ V -> (todo st ({[n]} ∪ V) < todo st V)%nat.
Proof.
  intros Hn Hv. unfold todo. apply subset_size. split; [set_solver|]. intros H. assert (n ∈ (list_to_set (seq 0 (length (g_nodes st))) : gset nat) ∖ V) as K.
  { apply elem_of_difference. split; [|exact Hv]. apply elem_of_list_to_set, elem_of_list_In, in_seq. lia. }
  apply H in K. set_solver.
Qed.
Lemma fanout_bound st n m : inv1 st -> passes st n m -> (m < length (g_nodes st))%nat.
Proof.
  intros Hi H. unfold passes, foreach_fanout in H. destruct (is_constant n); [destruct H|]. cbv zeta in H. apply in_flat_map in H.
  destruct H as (u & _ & H). rewrite fanout_at_app in H.
  assert (B : forall t, (get_node st t < length (g_nodes st))%nat).
  { intros t. unfold get_node. destruct (g_tn st !! t) as [k|] eqn:E; simpl; [eapply i_rng; [apply Hi|exact E]|]. pose proof (i_two _ (i_0 _ Hi)). lia. }
  assert (A : forall t, In m (app_at st (get_tile st n) t) -> (m < length (g_nodes st))%nat).
  { intros t Ht. unfold app_at in Ht. destruct (is_child _ _ _); [|destruct Ht]. destruct Ht as [<-|[]]. apply B. }
  rewrite !in_app_iff in H. destruct H as [H|[H|H]]; [exact (A _ H)| |].
  - destruct (coord_eqb _ u); [destruct H|exact (A _ H)].
  - destruct (coord_eqb _ u); [destruct H|exact (A _ H)].
Qed.
Lemma traverse_total st f : inv1 st -> forall r n V O, (todo st V < f)%nat -> (n < length (g_nodes st))%nat ->
  exists V' O', traverse f st r n (V, O) = Some (V', O') /\ V ⊆ V'.
Proof.
  intros Hi. induction f as [|f IH]; intros r n V O Hf Hn; [lia|]. cbn [traverse]. cbv zeta.
  case_bool_decide as Hv; [do 2 eexists; split; [reflexivity|set_solver]|].
  set (cur := if is_connection_wire st n then r else get_tile st n). generalize (if is_connection_wire st n then O else O ++ [(r, cur)]). clear O. intros O.
  pose proof (todo_add st V n Hn Hv) as Ht.
  assert (G : forall l V1 O1, (forall m, In m l -> (m < length (g_nodes st))%nat) -> {[n]} ∪ V ⊆ V1 -> exists V' O', trav_fold f st cur l (Some (V1, O1)) = Some (V', O') /\ V1 ⊆ V').
  { induction l as [|m l IHl]; intros V1 O1 Hl Hs; [exists V1, O1; split; [reflexivity|set_solver]|].
    destruct (IH cur m V1 O1) as (V2 & O2 & E & H2); [pose proof (todo_mono st _ _ Hs); lia|apply Hl; left; reflexivity|].
    destruct (IHl V2 O2) as (V3 & O3 & E3 & H3); [intros x Hx; apply Hl; right; exact Hx|set_solver|].
    exists V3, O3. cbn [trav_fold fold_left]. rewrite E. split; [exact E3|set_solver]. }
  destruct (G (foreach_fanout true st n) ({[n]} ∪ V) O) as (V' & O' & E & H); [intros m Hm; eapply fanout_bound; eassumption|set_solver|].
  exists V', O'. split; [exact E|set_solver].
Qed.
Lemma objectives_total st f : inv1 st -> (length (g_nodes st) < f)%nat -> exists O, extract_routing_objectives f st = Some O.
Proof.
  intros Hi Hf. unfold extract_routing_objectives, foreach_pi.
  assert (Hb : forall V, (todo st V < f)%nat).
  { intros V. pose proof (todo_mono st ∅ V ltac:(set_solver)) as H. enough (todo st ∅ <= length (g_nodes st))%nat by lia. unfold todo.
    rewrite difference_empty_L. rewrite size_list_to_set by apply NoDup_ListNoDup, seq_NoDup. rewrite seq_length. lia. }
  assert (G2 : forall r l V O, (forall m, In m l -> (m < length (g_nodes st))%nat) -> exists V' O', trav_fold f st r l (Some (V, O)) = Some (V', O')).
  { intros r. induction l as [|m l IHl]; intros V O Hl; [exists V, O; reflexivity|].
    destruct (traverse_total st f Hi r m V O (Hb V) (Hl m (or_introl eq_refl))) as (V1 & O1 & E & _).
    destruct (IHl V1 O1 ltac:(intros x Hx; apply Hl; right; exact Hx)) as (V2 & O2 & E2). exists V2, O2. cbn [trav_fold fold_left]. rewrite E. exact E2. }
  assert (G3 : forall l V O, exists V' O', pis_fold f st l (Some (V, O)) = Some (V', O')).
  { induction l as [|s l IHl]; intros V O; [exists V, O; reflexivity|].
    destruct (G2 (get_tile st s) (foreach_fanout true st s) V O) as (V1 & O1 & E); [intros m Hm; eapply fanout_bound; eassumption|].
    destruct (IHl V1 O1) as (V2 & O2 & E2). exists V2, O2. cbn [pis_fold fold_left]. rewrite E. exact E2. }
  destruct (G3 (g_in st) ∅ []) as (V & O & E). exists O. change (option_map snd (pis_fold f st (g_in st) (Some (∅, []))) = Some O). rewrite E. reflexivity.
Qed.
