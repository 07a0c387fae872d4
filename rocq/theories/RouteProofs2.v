(** Proofs about critical path length and throughput. *)
From Coq Require Import ZArith Bool List Lia ZifyBool.
From stdpp Require Import gmap list.
From Verif Require Import CoordModel CoordSpec CoordProofs GridModel GridSpec GridProofs GridProps CoordMap ClockModel ClockSpec ClockProofs
  GateModel GateSpec GateProofs GateProofs2 GateProofs3 PathModel PathSpec PathProofs PathProofs3 PathProofs4 PathProofs5 PathProofs6 RouteModel RouteSpec RouteProofs.
Import ListNotations.
Local Open Scope Z_scope.

(** ** Data flow *)
Lemma flow_info st u v : wf st -> flows st u v ->
  occupied st u /\ occupied st v /\ (2 <= get_node st u)%nat /\ (2 <= get_node st v)%nat /\
  In u (n_children (node_at st (get_node st v))) /\
  touch (cl_topo (g_cl st)) (live (cx v) (cy v) (cz u)) u /\ is_incoming_clocked (g_cl st) v u = true.
Proof.
  intros Hw H. pose proof (w_1 _ Hw) as Hi. unfold flows, incoming_data_flow, foreach_fanin in H.
  destruct (is_constant (get_node st v)) eqn:Ec; [destruct H|]. unfold is_constant in Ec. apply Nat.leb_gt in Ec. cbv zeta in H.
  assert (Ev : is_empty_tile st v = false) by (unfold is_empty_tile; apply Nat.eqb_neq; lia).
  assert (Dv : cd v = false).
  { destruct (cd v) eqn:D; [|reflexivity]. exfalso. destruct (occ_some st v Hi Ev) as [E _].
    pose proof (i_dead _ (i_0 _ Hi) _ _ E D). lia. }
  destruct (occ_live st v Hi Ev Dv) as (_ & Gv & _). rewrite Gv in H.
  assert (Iv : inb (cl_dim (g_cl st)) v) by (eapply w_in; [exact Hw|apply (occ_some st _ Hi Ev)|exact Dv]).
  apply in_map_iff in H as (c & <- & H). apply filter_In in H as [Hc H]. apply andb_prop in H as [Ha Hk].
  apply C08_elevation in Ha as (Iu & Tu & _); [|apply Hw|exact Iv].
  assert (K2 : (2 <= get_node st c)%nat).
  { destruct (le_lt_dec 2 (get_node st c)) as [K|K]; [exact K|]. exfalso. destruct Iu as (Du & _). revert Du. unfold get_tile.
    destruct (g_nt st !! get_node st c) as [t|] eqn:E; simpl; [|discriminate]. intros Du.
    apply (i_bij _ (i_0 _ Hi)) in E. pose proof (i_live _ Hi _ _ E Du). lia. }
  assert (Du := proj1 Iu). destruct (tile_live st _ Hi K2 Du) as [Eu Gu].
  assert (c = get_tile st (get_node st c)) as Ecc.
  { apply (node_of_tile st (get_node st c) c (i_0 _ Hi)); [exact Du|exact K2|reflexivity]. }
  repeat split; auto; try apply Iu; try apply Iv; rewrite <- Ecc; auto.
Qed.
Lemma no_flow_empty st u t : wf st -> is_empty_tile st t = true -> ~ flows st u t.
Proof. intros Hw He H. apply flow_info in H; auto. destruct H as (_ & [_ K] & _). congruence. Qed.

Lemma walk_inv_last step s t p : walk step s t p -> (s = t /\ p = [s]) \/ exists u q, walk step s u q /\ step u t /\ p = q ++ [t].
Proof.
  induction 1 as [s|s u t p Hs Hw IH]; [left; auto|]. right. destruct IH as [[-> ->]|(w & q & H1 & H2 & ->)].
  - exists s, [s]. split; [apply walk_end|]. split; [exact Hs|reflexivity].
  - exists w, (s :: q). split; [eapply walk_step; eauto|]. split; [exact H2|reflexivity].
Qed.
Lemma data_path_last st t p : wf st -> data_path st t p ->
  (source_tile st t /\ p = [t]) \/ (incoming_data_flow true st t <> [] /\ exists u q, data_path st u q /\ flows st u t /\ p = q ++ [t]).
Proof.
  intros Hw (s & Hs & H). apply walk_inv_last in H as [[-> ->]|(u & q & H1 & H2 & ->)]; [left; auto|].
  right. split; [|exists u, q; split; [exists s; auto|auto]]. intros E. unfold flows in H2. rewrite E in H2. destruct H2.
Qed.
Lemma data_path_snoc st t u q : data_path st u q -> flows st u t -> data_path st t (q ++ [t]).
Proof. intros (s & Hs & H) Hf. exists s. split; [exact Hs|]. eapply walk_snoc; eauto. Qed.
Lemma data_path_occ st t p : wf st -> data_path st t p -> forall x, In x p -> is_empty_tile st x = false.
Proof.
  intros Hw (s & [Hs _] & H) x Hx. destruct (walk_entered _ _ _ _ H x Hx) as [->|(u & Hu)]; [exact Hs|].
  apply flow_info in Hu; auto. apply Hu.
Qed.
Lemma data_path_source st t p : data_path st t p -> source_tile st t -> p = [t] \/ exists u, flows st u t.
Proof.
  intros (s & Hs & H) Ht. apply walk_inv_last in H as [[-> ->]|(u & q & H1 & H2 & ->)]; [left; auto|right; eauto].
Qed.

(** The longest of all data paths to a tile visits no tile twice. *)
Lemma walk_pump step s t p : walk step s t p -> ~ NoDup p -> exists q, walk step s t q /\ (length p < length q)%nat.
Proof.
  induction 1 as [s|s u t p Hs Hw IH]; intros Hd; [destruct Hd; constructor; [apply not_elem_of_nil|constructor]|].
  destruct (decide (NoDup p)) as [Hp|Hp].
  - destruct (decide (s ∈ p)) as [Hin|Hin]; [|destruct Hd; constructor; assumption].
    assert (G : forall u p, walk step u t p -> s ∈ p -> exists q, walk step u s q).
    { clear. induction 1 as [a|a b t p Ha Hw IH]; intros Hi.
      - apply elem_of_list_singleton in Hi as ->. exists [a]. apply walk_end.
      - apply elem_of_cons in Hi as [->|Hi]; [exists [a]; apply walk_end|]. destruct (IH Hi) as (q & Hq).
        exists (a :: q). eapply walk_step; eauto. }
    destruct (G _ _ Hw Hin) as (q & Hq). exists (s :: q ++ p). split.
    + destruct (walk_inv_last _ _ _ _ Hq) as [[-> ->]|(w & r & W1 & W2 & ->)].
      * eapply walk_step; [exact Hs|]. cbn [app]. eapply walk_step; [exact Hs|exact Hw].
      * eapply walk_step; [exact Hs|]. rewrite <- app_assoc. eapply walk_app; [exact W1|exact W2|]. cbn [app].
        eapply walk_step; [exact Hs|exact Hw].
    + cbn [length]. rewrite app_length. pose proof (walk_nonempty _ _ _ _ Hq). lia.
  - destruct (IH Hp) as (q & Hq & Hl). exists (s :: q). split; [eapply walk_step; eauto|cbn [length]; lia].
Qed.
Lemma NoDup_keys st p : inv0 st -> NoDup p -> (forall x, In x p -> is_Some (g_tn st !! x)) -> (length p <= length (g_nodes st))%nat.
Proof.
  intros Hi Hn Hk. etransitivity; [|apply size_tn_le, Hi]. rewrite <- size_dom.
  assert (E : size (list_to_set p : gset coord) = length p) by (apply size_list_to_set, Hn). rewrite <- E. apply subseteq_size.
  intros x Hx. apply elem_of_list_to_set in Hx. apply elem_of_dom, Hk. apply elem_of_list_In, Hx.
Qed.
Lemma longest_bound st t L : wf st -> longest st (eq t) L -> 0 <= L <= Z.of_nat (length (g_nodes st)).
Proof.
  intros Hw [H1 [(t' & p & <- & Hp & <-)|[-> _]]]; [|split; lia].
  split; [lia|]. apply inj_le. apply NoDup_keys.
  - apply Hw.
  - destruct (decide (NoDup p)) as [Hn|Hn]; [exact Hn|]. exfalso. destruct Hp as (s & Hs & Hp).
    destruct (walk_pump _ _ _ _ Hp Hn) as (q & Hq & Hl). specialize (H1 t q eq_refl (ex_intro _ s (conj Hs Hq))). lia.
  - intros x Hx. destruct (occ_some st x (w_1 _ Hw) (data_path_occ _ _ _ Hw Hp x Hx)) as [E _]. rewrite E. eauto.
Qed.

(** ** The dominant path *)
Definition is_max (l : list path_info) (m : Z) : Prop := (forall i, In i l -> pi_length i <= m) /\ exists i, In i l /\ pi_length i = m.
Fixpoint ascending (l : list path_info) : Prop :=
  match l with [] => True | x :: r => (forall y, In y r -> pi_length x <= pi_length y) /\ ascending r end.
Lemma insert_In x l y : In y (insert_info x l) <-> y = x \/ In y l.
Proof.
  induction l as [|z r IH]; cbn [insert_info In]; [intuition auto|]. destruct (pi_length x <? pi_length z); cbn [In]; [intuition auto|rewrite IH; intuition auto].
Qed.
Lemma insert_ascending x l : ascending l -> ascending (insert_info x l).
Proof.
  induction l as [|z r IH]; cbn [insert_info ascending]; [intros _; split; [intros y []|exact I]|]. intros [H1 H2].
  destruct (Z.ltb_spec (pi_length x) (pi_length z)) as [E|E]; cbn [ascending].
  - split; [|split; assumption]. intros y [<-|Hy]; [lia|]. specialize (H1 y Hy). lia.
  - split; [|apply IH, H2]. intros y Hy. apply insert_In in Hy as [->|Hy]; [exact E|apply H1, Hy].
Qed.
Lemma sort_spec l : ascending (sort_infos l) /\ forall y, In y (sort_infos l) <-> In y l.
Proof.
  unfold sort_infos. assert (G : forall a, ascending a -> ascending (fold_left (fun a x => insert_info x a) l a) /\
    forall y, In y (fold_left (fun a x => insert_info x a) l a) <-> In y l \/ In y a).
  { induction l as [|x r IH]; intros a Ha; cbn [fold_left]; [split; [exact Ha|intros y; cbn; tauto]|].
    destruct (IH (insert_info x a) (insert_ascending x a Ha)) as [H1 H2]. split; [exact H1|]. intros y. rewrite H2, insert_In. cbn [In]. intuition auto. }
  destruct (G [] I) as [H1 H2]. split; [exact H1|]. intros y. rewrite H2. cbn. tauto.
Qed.
Lemma last_ascending f r : ascending (f :: r) -> In (List.last (f :: r) f) (f :: r) /\ forall y, In y (f :: r) -> pi_length y <= pi_length (List.last (f :: r) f).
Proof.
  enough (G : forall d x r, ascending (x :: r) -> In (List.last (x :: r) d) (x :: r) /\ forall y, In y (x :: r) -> pi_length y <= pi_length (List.last (x :: r) d)) by apply G.
  intros d x q. revert x. induction q as [|z q IH]; intros x [H1 H2]; [cbn; split; [auto|intros y [<-|[]]; lia]|].
  change (List.last (x :: z :: q) d) with (List.last (z :: q) d). destruct (IH z H2) as [G1 G2]. split; [right; exact G1|].
  intros y [<-|Hy]; [apply H1, G1|apply G2, Hy].
Qed.
Lemma dominant_max l : l <> [] -> is_max l (pi_length (dominant l)) /\ exists b, In b l /\ pi_delay (dominant l) = pi_delay b.
Proof.
  intros Hl. unfold dominant. destruct l as [|a [|b r]]; [congruence| |].
  - split; [|exists a; cbn; auto]. split; [intros i [<-|[]]; lia|exists a; cbn; auto].
  - destruct (sort_spec (a :: b :: r)) as [S1 S2]. destruct (sort_infos (a :: b :: r)) as [|f q] eqn:E.
    { exfalso. destruct (proj2 (S2 a)). left. reflexivity. }
    destruct (last_ascending f q S1) as [L1 L2]. cbv zeta. cbn [pi_length pi_delay]. apply S2 in L1. split; [|eauto]. split.
    + intros i Hi. apply L2, S2, Hi.
    + eauto.
Qed.
Lemma dominant_same l s : l <> [] -> (forall i, In i l -> pi_delay i = s /\ pi_diff i = 0) -> pi_delay (dominant l) = s /\ pi_diff (dominant l) = 0.
Proof.
  intros Hl Ha. destruct (dominant_max l Hl) as [_ (b & Hb & ->)]. split; [apply Ha, Hb|].
  unfold dominant. destruct l as [|x [|y r]]; [congruence|apply Ha; left; reflexivity|].
  destruct (sort_spec (x :: y :: r)) as [S1 S2]. destruct (sort_infos (x :: y :: r)) as [|f q] eqn:E; [reflexivity|].
  destruct (last_ascending f q S1) as [L1 _]. apply S2 in L1. cbv zeta. cbn [pi_diff].
  assert (In f (x :: y :: r)) as L2 by (apply S2; left; reflexivity).
  rewrite (proj1 (Ha _ L1)), (proj1 (Ha _ L2)), Z.sub_diag. reflexivity.
Qed.

(** ** signal_delay *)
Definition fold_delay st f idf acc :=
  fold_left (fun a u => match a with
                        | Some (infos, c) => match signal_delay f st u c with
                                             | Some (i, c') => Some (infos ++ [i], c')
                                             | None => None end
                        | None => None end) idf acc.
Lemma fold_delay_none st f idf : fold_delay st f idf None = None.
Proof. induction idf as [|u r IH]; [reflexivity|exact IH]. Qed.
Lemma fold_delay_cons st f u r infos c : fold_delay st f (u :: r) (Some (infos, c)) =
  match signal_delay f st u c with Some (i, c') => fold_delay st f r (Some (infos ++ [i], c')) | None => None end.
Proof. unfold fold_delay. cbn [fold_left]. destruct (signal_delay f st u c) as [[i c']|]; [reflexivity|apply fold_delay_none]. Qed.
Lemma fold_delay_inv st f (I : gmap coord path_info -> Prop) (R : coord -> path_info -> Prop) :
  (forall u c i c', I c -> signal_delay f st u c = Some (i, c') -> I c' /\ R u i) ->
  forall idf infos0 c infos c', I c -> fold_delay st f idf (Some (infos0, c)) = Some (infos, c') ->
    I c' /\ exists l, infos = infos0 ++ l /\ Forall2 R idf l.
Proof.
  intros Hs. induction idf as [|u r IH]; intros infos0 c infos c' Hc H.
  - injection H as <- <-. split; [exact Hc|]. exists []. rewrite app_nil_r. split; [reflexivity|constructor].
  - rewrite fold_delay_cons in H. destruct (signal_delay f st u c) as [[i c1]|] eqn:E; [|discriminate].
    destruct (Hs _ _ _ _ Hc E) as [H1 H2]. destruct (IH _ _ _ _ H1 H) as [H3 (l & -> & H4)]. split; [exact H3|].
    exists (i :: l). rewrite <- app_assoc. split; [reflexivity|constructor; assumption].
Qed.

Lemma F2_r {A B} (R : A -> B -> Prop) l1 l2 y : Forall2 R l1 l2 -> In y l2 -> exists x, In x l1 /\ R x y.
Proof. induction 1 as [|a b l1 l2 H HF IH]; [intros []|]. intros [<-|Hy]; [exists a; cbn; auto|]. destruct (IH Hy) as (x & ? & ?). exists x. cbn. auto. Qed.
Lemma F2_l {A B} (R : A -> B -> Prop) l1 l2 x : Forall2 R l1 l2 -> In x l1 -> exists y, In y l2 /\ R x y.
Proof. induction 1 as [|a b l1 l2 H HF IH]; [intros []|]. intros [<-|Hy]; [exists b; cbn; auto|]. destruct (IH Hy) as (y & ? & ?). exists y. cbn. auto. Qed.

Definition len_ok st t L := longest st (eq t) L /\ (is_empty_tile st t = false -> 1 <= L).
Definition cache_len st (c : gmap coord path_info) := forall t i, c !! t = Some i -> len_ok st t (pi_length i).

Lemma source_longest st t : wf st -> is_empty_tile st t = false -> incoming_data_flow true st t = [] -> longest st (eq t) 1.
Proof.
  intros Hw He Hf. split.
  - intros t' p <- Hp. destruct (data_path_last _ _ _ Hw Hp) as [[_ ->]|[K _]]; [cbn; lia|contradiction].
  - left. exists t, [t]. split; [reflexivity|]. split; [|reflexivity]. exists t. split; [split; assumption|apply walk_end].
Qed.
Lemma empty_longest st t : wf st -> is_empty_tile st t = true -> longest st (eq t) 0.
Proof.
  intros Hw He. assert (N : forall p, ~ data_path st t p).
  { intros p Hp. destruct (data_path_last _ _ _ Hw Hp) as [[[K _] _]|[_ (u & q & _ & Hf & _)]]; [congruence|]. eapply no_flow_empty; eauto. }
  split; [intros t' p <- Hp; destruct (N p Hp)|]. right. split; [reflexivity|]. intros t' p <- Hp. destruct (N p Hp).
Qed.
Lemma step_longest st t L : wf st -> incoming_data_flow true st t <> [] ->
  (forall u, flows st u t -> exists Lu, longest st (eq u) Lu /\ 1 <= Lu <= L) ->
  (exists u, flows st u t /\ longest st (eq u) L) -> 1 <= L -> longest st (eq t) (L + 1).
Proof.
  intros Hw Hf Hall (u0 & Hu0 & Hl0) HL. split.
  - intros t' p <- Hp. destruct (data_path_last _ _ _ Hw Hp) as [[[_ K] _]|[_ (u & q & Hq & Hu & ->)]]; [contradiction|].
    destruct (Hall u Hu) as (Lu & [H1 _] & Hle). specialize (H1 u q eq_refl Hq). rewrite app_length. cbn [length]. lia.
  - left. destruct Hl0 as [_ [(u & q & <- & Hq & El)|[K _]]]; [|lia]. exists t, (q ++ [t]). split; [reflexivity|].
    split; [eapply data_path_snoc; eauto|]. rewrite app_length. cbn [length]. lia.
Qed.

Lemma signal_delay_length st : wf st -> Z.of_nat (length (g_nodes st)) < 2 ^ 64 -> forall f t c i c', cache_len st c ->
  signal_delay f st t c = Some (i, c') -> cache_len st c' /\ len_ok st t (pi_length i).
Proof.
  intros Hw Hsz. induction f as [|f IH]; intros t c i c' Hc H; [discriminate|]. cbn [signal_delay] in H.
  destruct (is_empty_tile st t) eqn:He.
  { injection H as <- <-. split; [exact Hc|]. split; [apply empty_longest; assumption|congruence]. }
  destruct (incoming_data_flow true st t) as [|v0 vs] eqn:Ef.
  { injection H as <- <-. split; [exact Hc|]. split; [apply source_longest; assumption|cbn; lia]. }
  destruct (c !! t) as [i0|] eqn:Ec; [injection H as <- <-; split; [exact Hc|apply Hc, Ec]|].
  change (fold_left _ (v0 :: vs) (Some ([], c))) with (fold_delay st f (v0 :: vs) (Some ([], c))) in H.
  destruct (fold_delay st f (v0 :: vs) (Some ([], c))) as [[infos c1]|] eqn:Efd; [|discriminate].
  destruct (fold_delay_inv st f (cache_len st) (fun u i => len_ok st u (pi_length i)) ltac:(intros u c2 i2 c3 H1 H2; eapply IH; eauto)
    _ _ _ _ _ Hc Efd) as [Hc1 (l & El & HF)]. cbn [app] in El. subst l.
  cbv zeta in H. injection H as Hi Hc'.
  assert (Hin : forall u, flows st u t <-> In u (v0 :: vs)) by (intros u; unfold flows; rewrite Ef; tauto).
  assert (Hocc : forall u, flows st u t -> is_empty_tile st u = false) by (intros u Hu; apply flow_info in Hu; [apply Hu|exact Hw]).
  set (infos1 := if is_pi_tile st t then _ else _) in *.
  assert (Hne : infos <> []) by (intros ->; inversion HF).
  assert (Hne1 : infos1 <> []) by (unfold infos1; destruct (is_pi_tile st t); [intros K; apply app_eq_nil in K; tauto|exact Hne]).
  assert (H1 : forall x, In x infos -> exists u, flows st u t /\ len_ok st u (pi_length x)).
  { intros x Hx. destruct (F2_r _ _ _ _ HF Hx) as (u & Hu & Hl). exists u. rewrite Hin. auto. }
  assert (Hpos : forall x, In x infos -> 1 <= pi_length x).
  { intros x Hx. destruct (H1 x Hx) as (u & Hu & [_ Hl]). apply Hl, Hocc, Hu. }
  assert (Hmax : is_max infos (pi_length (dominant infos1))).
  { destruct (dominant_max _ Hne1) as [[M1 (b & M2 & M3)] _]. unfold infos1 in *. destruct (is_pi_tile st t); [|split; eauto].
    split; [intros x Hx; apply M1, in_app_iff; auto|]. apply in_app_iff in M2 as [M2|[<-|[]]]; [eauto|]. cbn [pi_length] in M3.
    destruct infos as [|x r]; [congruence|]. exists x. split; [left; reflexivity|].
    assert (pi_length x <= pi_length (dominant ((x :: r) ++ [mkPI 1 ((get_clock_number (g_cl st) t + (num_clocks (g_cl st) - 1)) mod num_clocks (g_cl st)) 0]))) by (apply M1, in_app_iff; left; left; reflexivity).
    specialize (Hpos x (or_introl eq_refl)). lia. }
  destruct Hmax as [M1 (b & M2 & M3)].
  assert (HL : longest st (eq t) (pi_length (dominant infos1) + 1)).
  { apply step_longest; auto.
    - rewrite Ef. discriminate.
    - intros u Hu. destruct (F2_l _ _ _ u HF (proj1 (Hin u) Hu)) as (x & Hx & [Hl Hl1]). exists (pi_length x). split; [exact Hl|].
      split; [apply Hl1, Hocc, Hu|apply M1, Hx].
    - destruct (H1 b M2) as (u & Hu & [Hl _]). exists u. split; [exact Hu|]. rewrite <- M3. exact Hl.
    - rewrite <- M3. apply Hpos, M2. }
  assert (HB := longest_bound _ _ _ Hw HL).
  assert (Ew : w64 (pi_length (dominant infos1) + 1) = pi_length (dominant infos1) + 1).
  { unfold w64. apply Z.mod_small. change 18446744073709551616 with (2 ^ 64). lia. }
  assert (HR : len_ok st t (w64 (pi_length (dominant infos1) + 1))).
  { rewrite Ew. split; [exact HL|]. intros _. specialize (Hpos b M2). lia. }
  split; [|subst i; exact HR]. subst c'. destruct (is_wire_tile st t); [exact Hc1|].
  intros t' i' Hl. destruct (decide (t = t')) as [<-|Hd].
  - rewrite lookup_insert in Hl. injection Hl as <-. exact HR.
  - rewrite lookup_insert_ne in Hl by exact Hd. apply Hc1, Hl.
Qed.

Lemma longest_unique st T a b : longest st T a -> longest st T b -> a = b.
Proof.
  intros [A1 A2] [B1 B2]. destruct A2 as [(t & p & H1 & H2 & <-)|[-> HA]], B2 as [(t' & p' & H1' & H2' & <-)|[-> HB]].
  - specialize (A1 _ _ H1' H2'). specialize (B1 _ _ H1 H2). lia.
  - destruct (HB _ _ H1 H2).
  - destruct (HA _ _ H1' H2').
  - reflexivity.
Qed.
Lemma longest_ext st (T U : coord -> Prop) L : (forall t, T t <-> U t) -> longest st T L -> longest st U L.
Proof.
  intros E [H1 H2]. split; [intros t p Ht; apply H1, E, Ht|]. destruct H2 as [(t & p & K & H)|[-> H]].
  - left. exists t, p. split; [apply E, K|exact H].
  - right. split; [reflexivity|]. intros t p Ht. apply H, E, Ht.
Qed.
Lemma longest_max st T t L1 L2 : longest st T L1 -> longest st (eq t) L2 -> longest st (fun u => T u \/ u = t) (Z.max L2 L1).
Proof.
  intros [A1 A2] [B1 B2]. split.
  - intros u p [Hu| ->] Hp; [specialize (A1 u p Hu Hp)|specialize (B1 t p eq_refl Hp)]; lia.
  - destruct (Z.max_spec L2 L1) as [[Hm ->]|[Hm ->]].
    + destruct A2 as [(u & p & K1 & K2 & K3)|[-> A2]]; [left; exists u, p; tauto|].
      destruct B2 as [(u & p & <- & K2 & K3)|[-> B2]]; [exfalso; lia|lia].
    + destruct B2 as [(u & p & <- & K2 & K3)|[-> B2]]; [left; exists t, p; tauto|].
      destruct A2 as [(u & p & K1 & K2 & K3)|[-> A2]]; [left; exists u, p; split; [tauto|split; [tauto|lia]]|].
      right. split; [reflexivity|]. intros u p [Hu| ->]; [apply A2, Hu|apply B2; reflexivity].
Qed.

(** The loop over the outputs. *)
Definition fold_pos st f pos acc :=
  fold_left (fun a po => match a with
                         | Some (l, c) => match signal_delay f st po c with
                                          | Some (i, c') => Some (Z.max (pi_length i) l, c')
                                          | None => None end
                         | None => None end) pos acc.
Lemma fold_pos_none st f pos : fold_pos st f pos None = None.
Proof. induction pos as [|u r IH]; [reflexivity|exact IH]. Qed.
Lemma fold_pos_cons st f u r m c : fold_pos st f (u :: r) (Some (m, c)) =
  match signal_delay f st u c with Some (i, c') => fold_pos st f r (Some (Z.max (pi_length i) m, c')) | None => None end.
Proof. unfold fold_pos. cbn [fold_left]. destruct (signal_delay f st u c) as [[i c']|]; [reflexivity|apply fold_pos_none]. Qed.

Lemma fold_pos_length st f : wf st -> Z.of_nat (length (g_nodes st)) < 2 ^ 64 -> forall pos m c L c' T, cache_len st c -> longest st T m ->
  fold_pos st f pos (Some (m, c)) = Some (L, c') -> longest st (fun t => T t \/ In t pos) L.
Proof.
  intros Hw Hsz. induction pos as [|u r IH]; intros m c L c' T Hc Hm H.
  - injection H as <- <-. eapply longest_ext; [|exact Hm]. intros t. cbn. tauto.
  - rewrite fold_pos_cons in H. destruct (signal_delay f st u c) as [[i c1]|] eqn:E; [|discriminate].
    destruct (signal_delay_length _ Hw Hsz _ _ _ _ _ Hc E) as [Hc1 [HL _]].
    eapply longest_ext; [|eapply IH; [exact Hc1| |exact H]].
    2: { eapply longest_max; [exact Hm|exact HL]. }
    intros t. cbn. intuition congruence.
Qed.
Lemma critical_path_longest st f L x : wf st -> Z.of_nat (length (g_nodes st)) < 2 ^ 64 ->
  critical_path_and_throughput f st = Some (L, x) -> longest st (fun t => In t (g_out st)) L.
Proof.
  intros Hw Hsz. unfold critical_path_and_throughput, foreach_po. change (fold_left _ (g_out st) _) with (fold_pos st f (g_out st) (Some (0, ∅))).
  destruct (fold_pos st f (g_out st) (Some (0, ∅))) as [[l c]|] eqn:E; [|discriminate]. cbv zeta. intros H. injection H as <- _.
  eapply longest_ext; [|eapply (fold_pos_length st f Hw Hsz _ _ _ _ _ (fun _ => False)); [| |exact E]].
  - cbn. tauto.
  - intros t i K. rewrite lookup_empty in K. discriminate.
  - split; [intros t p []|]. right. split; [reflexivity|]. intros t p [].
Qed.

(** Throughput of synchronous layouts. *)
Definition cache_sync (stamp : coord -> Z) (c : gmap coord path_info) :=
  forall t i, c !! t = Some i -> pi_delay i = w64 (stamp t) /\ pi_diff i = 0.
Lemma signal_delay_sync st stamp : wf st -> 0 <= num_clocks (g_cl st) ->
  (forall t, 0 <= get_clock_number (g_cl st) t < 2 ^ 64) ->
  (forall s, source_tile st s -> stamp s = get_clock_number (g_cl st) s) ->
  (forall u v, flows st u v -> is_pi_tile st v = false /\ stamp v = stamp u + 1) ->
  forall f t c i c', cache_sync stamp c -> signal_delay f st t c = Some (i, c') ->
    cache_sync stamp c' /\ (is_empty_tile st t = false -> pi_delay i = w64 (stamp t) /\ pi_diff i = 0).
Proof.
  intros Hw Hn Hck Hs Hf. induction f as [|f IH]; intros t c i c' Hc H; [discriminate|]. cbn [signal_delay] in H.
  destruct (is_empty_tile st t) eqn:He.
  { injection H as <- <-. split; [exact Hc|congruence]. }
  destruct (incoming_data_flow true st t) as [|v0 vs] eqn:Ef.
  { injection H as <- <-. split; [exact Hc|]. intros _. cbn [pi_delay pi_diff]. split; [|reflexivity].
    rewrite Hs by (split; assumption). unfold w64. rewrite Z.mod_small; [reflexivity|apply Hck]. }
  destruct (c !! t) as [i0|] eqn:Ec; [injection H as <- <-; split; [exact Hc|intros _; apply Hc, Ec]|].
  change (fold_left _ (v0 :: vs) (Some ([], c))) with (fold_delay st f (v0 :: vs) (Some ([], c))) in H.
  destruct (fold_delay st f (v0 :: vs) (Some ([], c))) as [[infos c1]|] eqn:Efd; [|discriminate].
  destruct (fold_delay_inv st f (cache_sync stamp) (fun u i => is_empty_tile st u = false -> pi_delay i = w64 (stamp u) /\ pi_diff i = 0)
    ltac:(intros u c2 i2 c3 H1 H2; eapply IH; eauto) _ _ _ _ _ Hc Efd) as [Hc1 (l & El & HF)]. cbn [app] in El. subst l.
  cbv zeta in H. injection H as Hi Hc'.
  assert (Hin : forall u, flows st u t <-> In u (v0 :: vs)) by (intros u; unfold flows; rewrite Ef; tauto).
  assert (Ep : is_pi_tile st t = false). { apply (Hf v0 t). apply Hin. left. reflexivity. } rewrite Ep in *.
  assert (Hne : infos <> []) by (intros ->; inversion HF).
  assert (HD : pi_delay (dominant infos) = w64 (stamp t - 1) /\ pi_diff (dominant infos) = 0).
  { apply dominant_same; [exact Hne|]. intros x Hx. destruct (F2_r _ _ _ _ HF Hx) as (u & Hu & Hl). apply Hin in Hu.
    destruct (Hf u t Hu) as [_ E]. replace (stamp t - 1) with (stamp u) by lia. apply Hl. apply flow_info in Hu; [apply Hu|exact Hw]. }
  destruct HD as [D1 D2].
  assert (HR : w64 (pi_delay (dominant infos) + 1) = w64 (stamp t)).
  { rewrite D1. unfold w64. rewrite Zplus_mod_idemp_l. f_equal. lia. }
  split; [|intros _; subst i; cbn [pi_delay pi_diff]; auto].
  subst c'. destruct (is_wire_tile st t); [exact Hc1|].
  intros t' i' Hl. destruct (decide (t = t')) as [<-|Hd].
  - rewrite lookup_insert in Hl. injection Hl as <-. cbn [pi_delay pi_diff]. auto.
  - rewrite lookup_insert_ne in Hl by exact Hd. apply Hc1, Hl.
Qed.
Lemma max_zero (l : list (coord * path_info)) : (forall e, In e l -> pi_diff (snd e) = 0) -> fold_left (fun m e => Z.max m (pi_diff (snd e))) l 0 = 0.
Proof.
  induction l as [|e r IH]; intros H; [reflexivity|]. cbn [fold_left]. rewrite (H e) by (left; reflexivity). apply IH. intros x Hx. apply H. right. exact Hx.
Qed.
Lemma throughput_sync st f L x : wf st -> 1 <= num_clocks (g_cl st) -> (forall t, 0 <= get_clock_number (g_cl st) t < 2 ^ 64) -> synchronous st ->
  critical_path_and_throughput f st = Some (L, x) -> x = 1.
Proof.
  intros Hw Hn Hck (stamp & Hs & Hf). unfold critical_path_and_throughput, foreach_po. change (fold_left _ (g_out st) _) with (fold_pos st f (g_out st) (Some (0, ∅))).
  destruct (fold_pos st f (g_out st) (Some (0, ∅))) as [[l c]|] eqn:E; [|discriminate]. cbv zeta. intros H. injection H as _ <-.
  assert (Hc : cache_sync stamp c).
  { assert (G : forall pos m c0 L c1, cache_sync stamp c0 -> fold_pos st f pos (Some (m, c0)) = Some (L, c1) -> cache_sync stamp c1).
    { induction pos as [|u r IH]; intros m c0 L0 c1 Hc0 H0; [injection H0 as _ <-; exact Hc0|]. rewrite fold_pos_cons in H0.
      destruct (signal_delay f st u c0) as [[i c2]|] eqn:E0; [|discriminate]. eapply IH; [|exact H0].
      eapply signal_delay_sync in E0; eauto; [apply E0|lia]. }
    eapply G; [|exact E]. intros t i K. rewrite lookup_empty in K. discriminate. }
  rewrite max_zero; [reflexivity|]. intros [t i] Hin. apply elem_of_list_In, elem_of_map_to_list in Hin. cbn [snd]. apply (Hc t i Hin).
Qed.

(** Termination if data flow is acyclic. *)
Lemma signal_delay_total st (rank : coord -> nat) : (forall u v, flows st u v -> (rank u < rank v)%nat) ->
  forall f t c, (rank t < f)%nat -> exists i c', signal_delay f st t c = Some (i, c').
Proof.
  intros Hr. induction f as [|f IH]; intros t c Hl; [lia|]. cbn [signal_delay].
  destruct (is_empty_tile st t); [eauto|]. destruct (incoming_data_flow true st t) as [|v0 vs] eqn:Ef; [eauto|].
  destruct (c !! t) as [i0|]; [eauto|].
  change (fold_left _ (v0 :: vs) (Some ([], c))) with (fold_delay st f (v0 :: vs) (Some ([], c))).
  assert (G : forall l infos0 c0, (forall u, In u l -> (rank u < f)%nat) -> exists infos c1, fold_delay st f l (Some (infos0, c0)) = Some (infos, c1)).
  { induction l as [|u r IHl]; intros infos0 c0 Hu; [unfold fold_delay; cbn; eauto|]. rewrite fold_delay_cons.
    destruct (IH u c0 (Hu u (or_introl eq_refl))) as (i & c1 & ->). apply IHl. intros w Hw. apply Hu. right. exact Hw. }
  destruct (G (v0 :: vs) [] c) as (infos & c1 & ->); [|eauto].
  intros u Hu. assert (flows st u t) as Hf by (unfold flows; rewrite Ef; exact Hu). specialize (Hr _ _ Hf). lia.
Qed.
Lemma critical_path_total st (rank : coord -> nat) f : (forall u v, flows st u v -> (rank u < rank v)%nat) ->
  (forall t, In t (g_out st) -> (rank t < f)%nat) -> exists L x, critical_path_and_throughput f st = Some (L, x).
Proof.
  intros Hr Hf. unfold critical_path_and_throughput, foreach_po. change (fold_left _ (g_out st) _) with (fold_pos st f (g_out st) (Some (0, ∅))).
  assert (G : forall l m c, (forall u, In u l -> (rank u < f)%nat) -> exists L c1, fold_pos st f l (Some (m, c)) = Some (L, c1)).
  { induction l as [|u r IHl]; intros m c Hu; [unfold fold_pos; cbn; eauto|]. rewrite fold_pos_cons.
    destruct (signal_delay_total st rank Hr f u c (Hu u (or_introl eq_refl))) as (i & c1 & ->). apply IHl. intros w Hw. apply Hu. right. exact Hw. }
  destruct (G (g_out st) 0 ∅ Hf) as (L & c & ->). eauto.
Qed.

(** No termination on tiles of a cycle, or behind one. *)
Lemma signal_delay_cycle st (C : coord -> Prop) : (forall t, C t -> is_empty_tile st t = false /\ exists u, C u /\ flows st u t) ->
  forall f t c i c', (forall u, C u -> c !! u = None) -> signal_delay f st t c = Some (i, c') -> ~ C t /\ (forall u, C u -> c' !! u = None).
Proof.
  intros HC. induction f as [|f IH]; intros t c i c' Hc H; [discriminate|]. cbn [signal_delay] in H.
  destruct (is_empty_tile st t) eqn:He.
  { injection H as <- <-. split; [|exact Hc]. intros K. destruct (HC t K) as [K1 _]. congruence. }
  destruct (incoming_data_flow true st t) as [|v0 vs] eqn:Ef.
  { injection H as <- <-. split; [|exact Hc]. intros K. destruct (HC t K) as [_ (u & _ & Hu)]. unfold flows in Hu. rewrite Ef in Hu. destruct Hu. }
  destruct (c !! t) as [i0|] eqn:Ec; [injection H as <- <-; split; [|exact Hc]; intros K; rewrite Hc in Ec by exact K; discriminate|].
  change (fold_left _ (v0 :: vs) (Some ([], c))) with (fold_delay st f (v0 :: vs) (Some ([], c))) in H.
  destruct (fold_delay st f (v0 :: vs) (Some ([], c))) as [[infos c1]|] eqn:Efd; [|discriminate].
  destruct (fold_delay_inv st f (fun c => forall u, C u -> c !! u = None) (fun u _ => ~ C u)
    ltac:(intros u c2 i2 c3 H1 H2; destruct (IH _ _ _ _ H1 H2); split; assumption) _ _ _ _ _ Hc Efd) as [Hc1 (l & _ & HF)].
  cbv zeta in H. injection H as _ <-.
  assert (Ht : ~ C t).
  { intros K. destruct (HC t K) as [_ (u & Cu & Hu)]. unfold flows in Hu. rewrite Ef in Hu. destruct (F2_l _ _ _ u HF Hu) as (y & _ & N). auto. }
  split; [exact Ht|]. destruct (is_wire_tile st t); [exact Hc1|]. intros u Cu. rewrite lookup_insert_ne; [apply Hc1, Cu|]. intros ->. auto.
Qed.
Lemma critical_path_cycle st (C : coord -> Prop) f t : (forall t, C t -> is_empty_tile st t = false /\ exists u, C u /\ flows st u t) ->
  In t (g_out st) -> C t -> critical_path_and_throughput f st = None.
Proof.
  intros HC Ht Ct. unfold critical_path_and_throughput, foreach_po. change (fold_left _ (g_out st) _) with (fold_pos st f (g_out st) (Some (0, ∅))).
  assert (G : forall l m c, (forall u, C u -> c !! u = None) -> In t l -> fold_pos st f l (Some (m, c)) = None).
  { induction l as [|u r IHl]; intros m c Hc Hl; [destruct Hl|]. rewrite fold_pos_cons.
    destruct (signal_delay f st u c) as [[i c1]|] eqn:E; [|reflexivity]. destruct (signal_delay_cycle st C HC _ _ _ _ _ Hc E) as [N Hc1].
    destruct Hl as [->|Hl]; [contradiction|]. apply IHl; assumption. }
  rewrite (G (g_out st) 0 ∅); [reflexivity| |exact Ht]. intros u _. apply lookup_empty.
Qed.

(** Clocking that only runs in one direction. *)
Lemma flow_wave_st st topo ar s : wf st -> g_cl st = std_layout topo ar s -> 1 <= num_clocks (g_cl st) <= 255 -> waves topo s ->
  (forall x y z1 z2, get_clock_number (g_cl st) (live x y z1) = get_clock_number (g_cl st) (live x y z2)) ->
  forall u v, flows st u v -> wave topo s v = wave topo s u + 1.
Proof.
  intros Hw E Hn Hwv Hlu u v Hf. destruct (flow_info _ _ _ Hw Hf) as ([Iu _] & [Iv _] & _ & _ & _ & Ht & Hk).
  assert (Ed : cl_dim (g_cl st) = ar) by (rewrite E; reflexivity). assert (Et : cl_topo (g_cl st) = topo) by (rewrite E; reflexivity).
  set (v' := live (cx v) (cy v) (cz u)) in *.
  assert (Hv' : In v' (outgoing_clocked_zones (g_cl st) u)).
  { apply outgoing_In; [apply Hw|exact Iu|exact Hn|]. split; [|split].
    - destruct Iu as (_ & _ & _ & Hz), Iv as (_ & Hx & Hy & _). subst v'. unfold inb, live; cbn [cd cx cy cz]. auto.
    - apply touch_sym. exact Ht.
    - rewrite in_out, out_clocked_iff in Hk by exact Hn. destruct Hk as [_ Hk]. rewrite <- Hk.
      rewrite (inb_live_eta _ _ Iv) at 1. apply Hlu. }
  rewrite E in Hv'. assert (Hd : dim_ok ar) by (rewrite <- Ed; apply Hw). rewrite Ed in Iu.
  rewrite <- (waves_flow topo ar s u v' Hd Hwv Iu Hv'). apply wave_xy; reflexivity.
Qed.
