(** Yen's algorithm. *)
From Coq Require Import ZArith Bool List Permutation Lia Sorted.
From stdpp Require Import gmap list.
From Verif Require Import CoordModel CoordSpec CoordProofs GridModel GridSpec GridProofs CoordMap ClockModel ClockSpec ClockProofs GateModel GateSpec CellModel PathModel PathSpec PathProofs PathProofs3 PathProofs4 PathProofs5.
Import ListNotations.
Local Open Scope Z_scope.
Notation path := (list coord).

(** * The candidate set *)
Lemma path_ltb_irrefl a : path_ltb a a = false.
Proof. induction a as [|x a IH]; [reflexivity|]. cbn. rewrite IH, andb_false_r, orb_false_r. apply not_true_is_false. rewrite coord_ltb_iff. lia. Qed.
Lemma path_ltb_cons x a y b : path_ltb (x :: a) (y :: b) = true <-> coord_ltb x y = true \/ (coord_ltb y x = false /\ path_ltb a b = true).
Proof. cbn. rewrite orb_true_iff, andb_true_iff, negb_true_iff. tauto. Qed.
Lemma coord_ltb_false a b : coord_ltb a b = false <-> ~ (cz a < cz b \/ (cz a = cz b /\ (cy a < cy b \/ (cy a = cy b /\ cx a < cx b)))).
Proof. rewrite <- coord_ltb_iff. destruct (coord_ltb a b); intuition congruence. Qed.
Lemma path_ltb_trans a : forall b c, path_ltb a b = true -> path_ltb b c = true -> path_ltb a c = true.
Proof.
  induction a as [|x a IH]; intros [|y b] [|z c] H1 H2; try discriminate; try reflexivity.
  rewrite path_ltb_cons in *. destruct H1 as [H1|[H1 H1']], H2 as [H2|[H2 H2']];
    rewrite ?coord_ltb_iff, ?coord_ltb_false in *; [left; lia|left; lia|left; lia|].
  destruct (coord_ltb x z) eqn:E; [left; apply coord_ltb_iff in E; exact E|]. right. split; [lia|]. eapply IH; eauto.
Qed.
Notation plt := (fun a b => path_ltb a b = true).
Lemma set_add_in p s q : In q (set_add p s) -> q = p \/ In q s.
Proof.
  induction s as [|x s IH]; cbn [set_add]; [intros [<-|[]]; left; reflexivity|].
  destruct (path_ltb p x); [intros [<-|H]; [left; reflexivity|right; exact H]|]. destruct (path_ltb x p); [|intros H; right; exact H].
  intros [<-|H]; [right; left; reflexivity|]. destruct (IH H); [left; assumption|right; right; assumption].
Qed.
Lemma set_add_sorted p s : StronglySorted plt s -> StronglySorted plt (set_add p s).
Proof.
  induction 1 as [|x s Hs IH Hx]; cbn [set_add]; [repeat constructor|].
  destruct (path_ltb p x) eqn:E1.
  - constructor; [constructor; assumption|]. constructor; [exact E1|]. eapply List.Forall_impl; [|exact Hx]. intros y Hy. eapply path_ltb_trans; eauto.
  - destruct (path_ltb x p) eqn:E2; [|constructor; assumption]. constructor; [exact IH|].
    apply List.Forall_forall. intros y Hy. apply set_add_in in Hy as [->|Hy]; [exact E2|]. rewrite List.Forall_forall in Hx. apply Hx, Hy.
Qed.
Lemma remove_in p s q : In q (remove_path p s) -> In q s.
Proof. induction s as [|x s IH]; cbn [remove_path]; [auto|]. case_bool_decide; [right; assumption|]. intros [K|K]; [left; exact K|right; apply IH, K]. Qed.
Lemma remove_sorted p s : StronglySorted plt s -> StronglySorted plt (remove_path p s) /\ ~ In p (remove_path p s).
Proof.
  induction 1 as [|x s Hs IH Hx]; cbn [remove_path]; [split; [constructor|intros []]|]. rewrite List.Forall_forall in Hx. case_bool_decide as E.
  - split; [exact Hs|]. subst x. intros K. apply Hx in K. rewrite path_ltb_irrefl in K. discriminate.
  - destruct IH as [I1 I2]. split.
    + constructor; [exact I1|]. apply List.Forall_forall. intros y Hy. apply Hx, (remove_in p), Hy.
    + intros [K|K]; [congruence|contradiction].
Qed.
Lemma shortest_in r : forall x, In (shortest_of x r) (x :: r).
Proof.
  induction r as [|y r IH]; intros x; cbn [shortest_of]; [left; reflexivity|]. specialize (IH (if Nat.ltb (length y) (length x) then y else x)).
  destruct IH as [K|K]; [|right; right; exact K]. rewrite <- K. destruct (Nat.ltb (length y) (length x)); [right; left|left]; reflexivity.
Qed.
Lemma shortest_min r : forall x q, In q (x :: r) -> (length (shortest_of x r) <= length q)%nat.
Proof.
  induction r as [|y r IH]; intros x q Hq; cbn [shortest_of]; [destruct Hq as [<-|[]]; lia|].
  destruct (Nat.ltb_spec (length y) (length x)) as [K|K]; destruct Hq as [<-|[<-|Hq]].
  - pose proof (IH y y (or_introl eq_refl)). lia.
  - apply IH. left. reflexivity.
  - apply IH. right. exact Hq.
  - apply IH. left. reflexivity.
  - pose proof (IH x x (or_introl eq_refl)). lia.
  - apply IH. right. exact Hq.
Qed.

(** * Temporary obstructions *)
Definition same_content (a b : olayout) : Prop := o_base a = o_base b.
Lemma obst_coords cs : forall l, let l' := fold_left (fun l c => o_do l (ObstructCoordinate c)) cs l in
  o_base l' = o_base l /\ o_conns l' = o_conns l /\ forall c, c ∈ o_coords l' <-> In c cs \/ c ∈ o_coords l.
Proof.
  induction cs as [|c cs IH]; intros l; cbn [fold_left]; [cbn; intuition|]. destruct (IH (o_do l (ObstructCoordinate c))) as (H1 & H2 & H3).
  cbn zeta in *. rewrite H1, H2. cbn [o_do o_step default o_base o_conns o_coords]. split; [reflexivity|]. split; [reflexivity|]. intros x. rewrite H3.
  change (o_coords (o_do l (ObstructCoordinate c))) with ({[ c ]} ∪ o_coords l). rewrite elem_of_union, elem_of_singleton. cbn [In]. intuition congruence.
Qed.
Lemma clear_coords cs : forall l, let l' := fold_left (fun l c => o_do l (ClearCoordinate c)) cs l in
  o_base l' = o_base l /\ o_conns l' = o_conns l /\ forall c, c ∈ o_coords l' <-> ~ In c cs /\ c ∈ o_coords l.
Proof.
  induction cs as [|c cs IH]; intros l; cbn [fold_left]; [cbn; intuition|]. destruct (IH (o_do l (ClearCoordinate c))) as (H1 & H2 & H3).
  cbn zeta in *. rewrite H1, H2. cbn [o_do o_step default o_base o_conns o_coords]. split; [reflexivity|]. split; [reflexivity|]. intros x. rewrite H3.
  change (o_coords (o_do l (ClearCoordinate c))) with (o_coords l ∖ {[ c ]}). rewrite elem_of_difference, elem_of_singleton. cbn [In]. intuition congruence.
Qed.
Lemma obst_conns cs : forall l, let l' := fold_left (fun l c => o_do l (ObstructConnection c.1 c.2)) cs l in
  o_base l' = o_base l /\ o_coords l' = o_coords l /\ forall c, c ∈ o_conns l' <-> In c cs \/ c ∈ o_conns l.
Proof.
  induction cs as [|c cs IH]; intros l; cbn [fold_left]; [cbn; intuition|]. destruct (IH (o_do l (ObstructConnection c.1 c.2))) as (H1 & H2 & H3).
  cbn zeta in *. rewrite H1, H2. cbn [o_do o_step default o_base o_conns o_coords]. split; [reflexivity|]. split; [reflexivity|]. intros x. rewrite H3.
  change (o_conns (o_do l (ObstructConnection c.1 c.2))) with ({[ (c.1, c.2) ]} ∪ o_conns l). rewrite <- surjective_pairing. rewrite elem_of_union, elem_of_singleton. cbn [In]. intuition congruence.
Qed.
Lemma clear_conns cs : forall l, let l' := fold_left (fun l c => o_do l (ClearConnection c.1 c.2)) cs l in
  o_base l' = o_base l /\ o_coords l' = o_coords l /\ forall c, c ∈ o_conns l' <-> ~ In c cs /\ c ∈ o_conns l.
Proof.
  induction cs as [|c cs IH]; intros l; cbn [fold_left]; [cbn; intuition|]. destruct (IH (o_do l (ClearConnection c.1 c.2))) as (H1 & H2 & H3).
  cbn zeta in *. rewrite H1, H2. cbn [o_do o_step default o_base o_conns o_coords]. split; [reflexivity|]. split; [reflexivity|]. intros x. rewrite H3.
  change (o_conns (o_do l (ClearConnection c.1 c.2))) with (o_conns l ∖ {[ (c.1, c.2) ]}). rewrite <- surjective_pairing. rewrite elem_of_difference, elem_of_singleton. cbn [In]. intuition congruence.
Qed.
Lemma olayout_eq (a b : olayout) : o_base a = o_base b -> o_coords a = o_coords b -> o_conns a = o_conns b -> a = b.
Proof. destruct a, b; cbn; intros; subst; reflexivity. Qed.
Lemma obst_mono a b c : o_base a = o_base b -> (forall c, c ∈ o_coords a -> c ∈ o_coords b) -> is_obstructed_coordinate b c = false -> is_obstructed_coordinate a c = false.
Proof.
  intros E H. unfold is_obstructed_coordinate. rewrite E. destruct (bool_decide_reflect (c ∈ o_coords a)) as [K|K], (bool_decide_reflect (c ∈ o_coords b)) as [K2|K2]; try discriminate; auto. exfalso. apply K2, H, K.
Qed.
Lemma conn_mono a b s t : o_base a = o_base b -> (forall c, c ∈ o_conns a -> c ∈ o_conns b) -> is_obstructed_connection b s t = false -> is_obstructed_connection a s t = false.
Proof.
  intros E H. unfold is_obstructed_connection. rewrite E. destruct (bool_decide_reflect ((s, t) ∈ o_conns a)) as [K|K], (bool_decide_reflect ((s, t) ∈ o_conns b)) as [K2|K2]; try discriminate; auto. exfalso. apply K2, H, K.
Qed.
Lemma o_clocked_base a b : o_base a = o_base b -> o_clocked a = o_clocked b.
Proof. intros E. unfold o_clocked. rewrite E. reflexivity. Qed.

Lemma walk_app step a b p c q : walk step a b p -> step b c -> forall t, walk step c t q -> walk step a t (p ++ q).
Proof. induction 1 as [|a u b p Hs Hw IH]; intros Hb t Hq; cbn [app]; eapply walk_step; eauto. Qed.
Lemma walk_split step a t p : walk step a t p -> forall i x, p !! i = Some x ->
  (i = 0%nat /\ x = a) \/ (exists y, p !! (i - 1)%nat = Some y /\ (0 < i)%nat /\ walk step a y (take i p) /\ step y x).
Proof.
  induction 1 as [a|a u t p Hs Hw IH]; intros i x Hi.
  - destruct i as [|i]; [|discriminate]. inversion Hi; auto.
  - destruct i as [|i]; [inversion Hi; auto|]. right. cbn in Hi. destruct (IH i x Hi) as [[-> ->]|(y & K1 & K2 & K3 & K4)].
    + exists a. split; [reflexivity|]. split; [lia|]. split; [|exact Hs]. cbn [take]. rewrite take_0. apply walk_end.
    + exists y. split; [replace (S i - 1)%nat with (S (i - 1)) by lia; exact K1|]. split; [lia|]. split; [|exact K4].
      destruct i as [|i]; [lia|]. cbn [take]. eapply walk_step; eauto.
Qed.
Lemma walk_lookup step a t p : walk step a t p -> forall i x y, p !! i = Some x -> p !! S i = Some y -> step x y.
Proof.
  induction 1 as [a|a u t p Hs Hw IH]; intros i x y Hx Hy; [destruct i; discriminate|]. destruct i as [|i]; cbn in *.
  - inversion Hx; subst. destruct (walk_head _ _ _ _ Hw) as (r & ->). inversion Hy; subst. exact Hs.
  - eapply IH; eauto.
Qed.
Lemma walk_mono (s1 s2 : coord -> coord -> Prop) a t p : (forall u v, s1 u v -> s2 u v) -> walk s1 a t p -> walk s2 a t p.
Proof. intros H. induction 1; [apply walk_end|eapply walk_step; eauto]. Qed.
Lemma walk_entered step a t p : walk step a t p -> forall x, In x p -> x = a \/ exists u, step u x.
Proof. induction 1 as [a|a u t p Hs Hw IH]; intros x [<-|Hx]; auto; [destruct Hx|]. destruct (IH x Hx) as [->|K]; eauto. Qed.
Lemma walk_two step a t p : walk step a t p -> a <> t -> exists u r, step a u /\ p = a :: u :: r.
Proof. intros [|b u t' r Hs Hw] Hne; [congruence|]. destruct (walk_head _ _ _ _ Hw) as (r' & ->). eauto. Qed.
Lemma walk_last_lookup step a t p : walk step a t p -> p !! (length p - 1)%nat = Some t.
Proof.
  induction 1 as [a|a u t p Hs Hw IH]; [reflexivity|]. pose proof (walk_nonempty _ _ _ _ Hw). cbn [length].
  replace (S (length p) - 1)%nat with (S (length p - 1)) by lia. exact IH.
Qed.

Lemma take_in {A} i (p : list A) x : In x (take i p) -> In x p.
Proof. revert p. induction i as [|i IH]; intros [|y p]; cbn; try tauto. intros [K|K]; auto. Qed.

Section YenProofs.
Context (Q : queue Z) (HQ : queue_ok Q) (clk cr : bool) (src tgt : coord) (fuel : nat) (lay : olayout).
Notation step := (permitted (pf_of clk lay) cr tgt).
Context (Hsrc : src ∉ o_coords lay)
        (Hcross : cr = true -> (cz tgt = 0 \/ is_obstructed_coordinate lay (below (cl_dim (o_clocked lay)) tgt) = true) /\ forall u g, pf_cross (pf_of clk lay) u g = true -> is_obstructed_coordinate lay g = true)
        (Hz : 0 <= cz (cl_dim (o_clocked lay)) <= 1)
        (I : coord -> Prop) (Isrc : I src) (Istep : forall u v, I u -> step u v -> I v)
        (Hinb : forall u v, I u -> In v (pf_succ (pf_of clk lay) u) -> inb (cl_dim (o_clocked lay)) v).

Lemma pf_succ_base a : o_base a = o_base lay -> pf_succ (pf_of clk a) = pf_succ (pf_of clk lay).
Proof. intros E. cbn [pf_of pf_succ]. rewrite (o_clocked_base _ _ E). reflexivity. Qed.
(** Obstructing more removes steps only. *)
Lemma permitted_more l2 u v : o_base l2 = o_base lay -> (forall c, c ∈ o_coords lay -> c ∈ o_coords l2) -> (forall c, c ∈ o_conns lay -> c ∈ o_conns l2) ->
  I u -> permitted (pf_of clk l2) cr tgt u v -> step u v.
Proof.
  intros Eb Hc Hn Hu H. symmetry in Eb. assert (Ecl := o_clocked_base _ _ Eb).
  assert (B : forall c, pf_below (pf_of clk l2) c = pf_below (pf_of clk lay) c) by (intros c; cbn [pf_of pf_below]; rewrite Ecl; reflexivity).
  assert (A : forall c, pf_above (pf_of clk l2) c = pf_above (pf_of clk lay) c) by (intros c; cbn [pf_of pf_above]; rewrite Ecl; reflexivity).
  assert (S : forall c, pf_succ (pf_of clk l2) c = pf_succ (pf_of clk lay) c) by (intros c; cbn [pf_of pf_succ]; rewrite Ecl; reflexivity).
  assert (X : forall c e, pf_cross (pf_of clk l2) c e = pf_cross (pf_of clk lay) c e) by (intros c e; cbn [pf_of pf_cross]; rewrite Eb; reflexivity).
  destruct H as [w Hw Hv Ho Hcn|w g Hw Hg Hcr Hog Hgt Hv Hvg Hx Hov Hcn].
  - rewrite S in Hw. rewrite B in Hv. eapply enter_free; [exact Hw|exact Hv| |].
    + destruct Ho as [Ho|Ho]; [left|right; exact Ho]. exact (obst_mono lay l2 v Eb Hc Ho).
    + exact (conn_mono lay l2 u v Eb Hn Hcn).
  - rewrite S in Hw. rewrite B in Hg. rewrite A in Hv. rewrite X in Hx. destruct (Hcross Hcr) as [Ht0 Hx0].
    assert (Hog' : is_obstructed_coordinate lay g = true).
    { destruct Hx as [Hx|Hx]; [exact (Hx0 _ _ Hx)|]. pose proof (Hinb _ _ Hu Hw) as (_ & _ & _ & Hwz). cbn [pf_of pf_above pf_below] in Hv, Hg.
      assert (E : cz tgt <> 0 /\ below (cl_dim (o_clocked lay)) tgt = g).
      { rewrite <- Hx, Hv. clear - Hwz Hv Hvg Hg Hz. subst v. revert Hvg. rewrite Hg. unfold above, below, set_d. destruct w as [dd xx yy zz]. cbn [cz cx cy cd] in *.
        destruct (Z.eqb_spec zz 0); cbn [cz cx cy cd]; repeat match goal with |- context [?a <? ?b] => destruct (Z.ltb_spec a b); cbn [cz cx cy cd] end; intros K; try lia; try congruence.
        - subst zz. split; [lia|]. reflexivity.
        - split; [lia|]. replace (zz - 1) with 0 by lia. reflexivity. }
      destruct E as [E1 E2]. rewrite <- E2. destruct Ht0 as [Ht0|Ht0]; [contradiction|exact Ht0]. }
    eapply enter_crossing; [exact Hw|exact Hg|exact Hcr|exact Hog'|exact Hgt|exact Hv|exact Hvg|exact Hx| |].
    + destruct Hov as [Hov|Hov]; [left; exact (obst_mono lay l2 v Eb Hc Hov)|right; exact Hov].
    + exact (conn_mono lay l2 u v Eb Hn Hcn).
Qed.
Lemma walk_I a t p : walk step a t p -> I a -> forall x, In x p -> I x.
Proof. induction 1 as [a|a u t p Hs Hw IH]; intros Ha x [<-|Hx]; auto; [destruct Hx|]. apply IH; [eapply Istep; eauto|exact Hx]. Qed.
Lemma walk_more l2 a t p : o_base l2 = o_base lay -> (forall c, c ∈ o_coords lay -> c ∈ o_coords l2) -> (forall c, c ∈ o_conns lay -> c ∈ o_conns l2) ->
  walk (permitted (pf_of clk l2) cr tgt) a t p -> I a -> walk step a t p.
Proof.
  intros H1 H2 H3. induction 1 as [a|a u t p Hs Hw IH]; intros Ha; [apply walk_end|]. apply permitted_more in Hs; [|assumption..].
  eapply walk_step; [exact Hs|]. apply IH. eapply Istep; eauto.
Qed.
Lemma permitted_free l2 u v : permitted (pf_of clk l2) cr tgt u v -> (is_obstructed_coordinate l2 v = false \/ v = tgt) /\ is_obstructed_connection l2 u v = false.
Proof. intros [w Hw Hv Ho Hcn|w g Hw Hg Hcr Hog Hgt Hv Hvg Hx Hov Hcn]; split; assumption. Qed.

(** The paths found so far are valid; candidates are valid and new. *)
Definition valid (p : path) : Prop := is_path step src tgt p.
Lemma root_free p i x : valid p -> (i < length p - 1)%nat -> In x (take i p) -> x ∉ o_coords lay /\ x <> tgt.
Proof.
  intros [Hw Hn] Hi Hx. split.
  - destruct (walk_entered _ _ _ _ Hw x (take_in _ _ _ Hx)) as [->|(u & Hu)]; [exact Hsrc|]. apply permitted_free in Hu as [[Hu|Hu] _].
    + unfold is_obstructed_coordinate in Hu. case_bool_decide; [discriminate|assumption].
    + exfalso. subst x. revert Hx. pose proof (walk_last_lookup _ _ _ _ Hw) as Hl. apply elem_of_list_split_length in Hl as (l1 & l2 & E & El).
      intros Hx. rewrite E in Hn. apply NoDup_remove_2 in Hn. apply Hn. apply in_or_app. left. rewrite E in Hx. rewrite take_app_le in Hx by lia. eapply take_in; exact Hx.
  - intros ->. pose proof (walk_last_lookup _ _ _ _ Hw) as Hl. apply elem_of_list_split_length in Hl as (l1 & l2 & E & El).
    rewrite E in Hn. apply NoDup_remove_2 in Hn. apply Hn. apply in_or_app. left. rewrite E in Hx. rewrite take_app_le in Hx by lia. eapply take_in; exact Hx.
Qed.
Lemma y_connections_in A root i c : In c (y_connections A root i) <->
  exists p, In p A /\ (i + 1 < length p)%nat /\ take i p = root /\ p !! i = Some c.1 /\ p !! (i + 1)%nat = Some c.2.
Proof.
  unfold y_connections. rewrite in_flat_map. split.
  - intros (p & Hp & Hc). destruct (Nat.ltb_spec (i + 1) (length p)) as [Hl|Hl]; cbn [andb] in Hc; [|destruct Hc]. case_bool_decide as Ht; [|destruct Hc].
    destruct (p !! i) eqn:E1; [|destruct Hc]. destruct (p !! (i + 1)%nat) eqn:E2; [|destruct Hc]. destruct Hc as [<-|[]]. exists p. auto.
  - intros (p & Hp & Hl & Ht & E1 & E2). exists p. split; [exact Hp|]. replace (Nat.ltb (i + 1) (length p)) with true by (symmetry; apply Nat.ltb_lt; exact Hl).
    cbn [andb]. rewrite bool_decide_eq_true_2 by exact Ht. rewrite E1, E2. left. symmetry. apply surjective_pairing.
Qed.
Lemma spur_ok A latest B i lay' B' : Forall valid A -> In latest A -> (i < length latest - 1)%nat ->
  y_spur Q clk cr tgt fuel A latest (lay, B) i = Some (lay', B') ->
  lay' = lay /\ (B' = B \/ exists q, B' = set_add q B /\ valid q /\ ~ In q A).
Proof.
  intros HA Hlat Hi E. rewrite List.Forall_forall in HA. pose proof (HA _ Hlat) as Hv. unfold y_spur in E.
  destruct (latest !! i) as [spur|] eqn:Es; [|discriminate]. cbv zeta in E.
  set (root := take i latest) in *. set (conns := y_connections A root i) in *.
  assert (Hspur : ~ In spur root).
  { destruct Hv as [_ Hn]. apply elem_of_list_split_length in Es as (l1 & l2 & E2 & El). unfold root. rewrite E2 in *. rewrite El, take_app. apply NoDup_remove_2 in Hn.
    intros K. apply Hn, in_or_app. left. exact K. }
  assert (Ecoords : forall x, In x (List.filter (fun r => negb (coord_eqb r spur)) root) <-> In x root).
  { intros x. rewrite List.filter_In. split; [tauto|]. intros Hx. split; [exact Hx|]. apply negb_true_iff, coord_eqb_false. intros ->. contradiction. }
  set (coords := List.filter _ root) in *.
  set (lay1 := fold_left (fun l c => o_do l (ObstructConnection c.1 c.2)) conns lay) in *.
  set (lay2 := fold_left (fun l c => o_do l (ObstructCoordinate c)) coords lay1) in *.
  destruct (obst_conns conns lay) as (A1 & A2 & A3). cbn zeta in A1, A2, A3. fold lay1 in A1, A2, A3.
  destruct (obst_coords coords lay1) as (B1 & B2 & B3). cbn zeta in B1, B2, B3. fold lay2 in B1, B2, B3.
  destruct (y_star Q clk cr tgt fuel lay2 spur) as [sp|] eqn:Ey; [|discriminate]. inversion E; subst B'. clear E. split.
  - subst lay'. set (lay3 := fold_left (fun l c => o_do l (ClearCoordinate c)) coords lay2).
    destruct (clear_coords coords lay2) as (C1 & C2 & C3). cbn zeta in C1, C2, C3. fold lay3 in C1, C2, C3.
    destruct (clear_conns conns lay3) as (D1 & D2 & D3). cbn zeta in D1, D2, D3. apply olayout_eq.
    + rewrite D1, C1, B1, A1. reflexivity.
    + rewrite D2. apply leibniz_equiv. intros x. rewrite C3, B3, A2, Ecoords. split; [tauto|]. intros Hx. split; [|right; exact Hx].
      intros K. apply (root_free latest i x Hv Hi) in K as [K _]. contradiction.
    + apply leibniz_equiv. intros x. rewrite D3, C2, B2, A3. split; [tauto|]. intros Hx. split; [|right; exact Hx].
      intros K. apply y_connections_in in K as (p & Hp & _ & _ & K1 & K2). destruct (HA p Hp) as [Hw _].
      rewrite Nat.add_1_r in K2. pose proof (walk_lookup _ _ _ _ Hw _ _ _ K1 K2) as Hs. apply permitted_free in Hs as [_ Hs].
      unfold is_obstructed_connection in Hs. case_bool_decide as K; [discriminate|]. apply K. rewrite <- surjective_pairing. exact Hx.
  - destruct sp as [|x sp]; [left; reflexivity|]. right. exists (root ++ x :: sp). split; [reflexivity|].
    pose proof (a_star_ok (u64_ops (distance_functor manhattan_distance) unit_cost tgt) Q HQ (pf_of clk lay2) cr spur tgt fuel) as Ha.
    unfold y_star in Ey. rewrite Ey in Ha. set (sp' := x :: sp) in *. destruct Ha as [Hsw Hsn].
    assert (Eb2 : o_base lay2 = o_base lay) by congruence.
    assert (Hm1 : forall c, c ∈ o_coords lay -> c ∈ o_coords lay2). { intros c Hc. apply B3. right. rewrite A2. exact Hc. }
    assert (Hm2 : forall c, c ∈ o_conns lay -> c ∈ o_conns lay2). { intros c Hc. rewrite B2. apply A3. right. exact Hc. }
    assert (Hdisj : forall y, In y sp' -> ~ In y root).
    { intros y Hy Hr. destruct (walk_entered _ _ _ _ Hsw y Hy) as [->|(u & Hu)]; [contradiction|]. apply permitted_free in Hu as [[Hu|Hu] _].
      - unfold is_obstructed_coordinate in Hu. rewrite bool_decide_eq_true_2 in Hu; [discriminate|]. apply B3. left. apply Ecoords, Hr.
      - apply (root_free latest i y Hv Hi) in Hr as [_ Hr]. contradiction. }
    assert (Hsw' : walk step spur tgt sp').
    { apply (walk_more lay2); [exact Eb2|exact Hm1|exact Hm2|exact Hsw|]. apply (walk_I _ _ _ (proj1 Hv) Isrc). apply elem_of_list_In, elem_of_list_lookup. eauto. }
    destruct Hv as [Hw Hn]. split; [split|].
    + destruct (walk_split _ _ _ _ Hw i spur Es) as [[-> ->]|(y & _ & _ & K3 & K4)]; [exact Hsw'|]. eapply walk_app; eauto.
    + apply NoDup_ListNoDup, list.NoDup_app. split; [|split].
      * apply NoDup_ListNoDup in Hn. rewrite <- (take_drop i latest) in Hn. apply list.NoDup_app in Hn as [Hn _]. exact Hn.
      * intros y K1 K2. apply elem_of_list_In in K1, K2. exact (Hdisj y K2 K1).
      * apply NoDup_ListNoDup, Hsn.
    + intros Hin. assert (Hlr : length root = i) by (unfold root; rewrite take_length; lia).
      assert (Hst : spur <> tgt).
      { intros ->. pose proof (walk_last_lookup _ _ _ _ Hw) as Hl. apply NoDup_ListNoDup in Hn. pose proof (NoDup_lookup _ _ _ _ Hn Es Hl). lia. }
      assert (exists u r', permitted (pf_of clk lay2) cr tgt spur u /\ sp' = spur :: u :: r') as (u & r' & Hs0 & Er).
      { exact (walk_two _ _ _ _ Hsw Hst). }
      apply permitted_free in Hs0 as [_ Hs0]. unfold is_obstructed_connection in Hs0. case_bool_decide as K; [discriminate|]. apply K. rewrite B2. apply A3. left.
      apply y_connections_in. exists (root ++ sp'). cbn [fst snd]. split; [exact Hin|]. rewrite Er. rewrite app_length. cbn [length].
      split; [lia|]. split; [rewrite <- Hlr at 1; apply take_app|]. split.
      * rewrite lookup_app_r by lia. rewrite Hlr, Nat.sub_diag. reflexivity.
      * rewrite lookup_app_r by lia. rewrite Hlr. replace (i + 1 - i)%nat with 1%nat by lia. reflexivity.
Qed.

Definition cands (A B : list path) : Prop := Forall valid B /\ StronglySorted plt B /\ forall q, In q B -> ~ In q A.
Lemma spurs_ok A latest : Forall valid A -> In latest A -> forall is_ B lay' B', (forall i, In i is_ -> (i < length latest - 1)%nat) -> cands A B ->
  fold_left (fun acc i => match acc with None => None | Some st => y_spur Q clk cr tgt fuel A latest st i end) is_ (Some (lay, B)) = Some (lay', B') ->
  lay' = lay /\ cands A B'.
Proof.
  intros HA Hl. induction is_ as [|i is_ IH]; intros B lay' B' Hi Hc E; cbn [fold_left] in E; [inversion E; subst; auto|].
  destruct (y_spur Q clk cr tgt fuel A latest (lay, B) i) as [[lay1 B1]|] eqn:E1.
  2:{ exfalso. clear -E. induction is_; [discriminate|apply IHis_, E]. }
  destruct (spur_ok _ _ _ _ _ _ HA Hl (Hi i (or_introl eq_refl)) E1) as (-> & K).
  apply (IH B1 lay' B'); [intros; apply Hi; right; assumption| |exact E].
  destruct K as [->|(q & -> & K1 & K2)]; [exact Hc|]. destruct Hc as (C1 & C2 & C3). split; [|split].
  - apply List.Forall_forall. intros x Hx. apply set_add_in in Hx as [->|Hx]; [exact K1|]. rewrite List.Forall_forall in C1. apply C1, Hx.
  - apply set_add_sorted, C2.
  - intros x Hx. apply set_add_in in Hx as [->|Hx]; [exact K2|apply C3, Hx].
Qed.
Lemma y_loop_ok rounds : forall A B lay' res, A <> [] -> Forall valid A -> List.NoDup A -> cands A B ->
  y_loop Q clk cr tgt fuel rounds lay A B = Some (lay', res) ->
  lay' = lay /\ Forall valid res /\ List.NoDup res /\ (length res <= length A + rounds)%nat /\ exists rest, res = A ++ rest.
Proof.
  induction rounds as [|n IH]; intros A B lay' res HA0 HA Hn Hc E; cbn [y_loop] in E.
  - inversion E; subst. split; [reflexivity|]. split; [exact HA|]. split; [exact Hn|]. split; [lia|]. exists []. rewrite app_nil_r. reflexivity.
  - destruct (exists_last HA0) as (A' & latest & EA). assert (EL : default [] (last A) = latest) by (rewrite EA, last_snoc; reflexivity). rewrite EL in E.
    assert (Hl : In latest A) by (rewrite EA; apply in_or_app; right; left; reflexivity).
    match type of E with match ?f with _ => _ end = _ => destruct f as [[lay1 B1]|] eqn:Ef; [|discriminate] end.
    assert (Hseq : forall i, In i (seq 0 (length latest - 1)) -> (i < length latest - 1)%nat) by (intros i Hi; apply in_seq in Hi; lia).
    destruct (spurs_ok A latest HA Hl _ _ _ _ Hseq Hc Ef) as (-> & C1 & C2 & C3).
    destruct B1 as [|x r].
    { inversion E; subst res lay'. split; [reflexivity|]. split; [exact HA|]. split; [exact Hn|]. split; [lia|]. exists []. rewrite app_nil_r. reflexivity. }
    set (b := shortest_of x r) in *. pose proof (shortest_in r x) as Hb. fold b in Hb.
    destruct (remove_sorted b (x :: r) C2) as [R1 R2].
    assert (G : lay' = lay /\ Forall valid res /\ List.NoDup res /\ (length res <= length (A ++ [b]) + n)%nat /\ exists rest, res = (A ++ [b]) ++ rest).
    { refine (IH (A ++ [b]) (remove_path b (x :: r)) lay' res _ _ _ _ E).
      - destruct A; discriminate.
      - apply List.Forall_forall. intros p Hp. rewrite List.Forall_forall in HA, C1. apply in_app_or in Hp as [Hp|[<-|[]]]; [apply HA, Hp|apply C1, Hb].
      - apply (Permutation_NoDup (l := b :: A)); [apply Permutation_cons_append|]. constructor; [apply C3, Hb|exact Hn].
      - split; [|split].
        + apply List.Forall_forall. intros p Hp. rewrite List.Forall_forall in C1. apply C1, (remove_in b), Hp.
        + exact R1.
        + intros q Hq Hqa. apply in_app_or in Hqa as [Hqa|[<-|[]]]; [apply (C3 q (remove_in _ _ _ Hq) Hqa)|contradiction]. }
    destruct G as (G1 & G2 & G3 & G4 & rest & G5). split; [exact G1|]. split; [exact G2|]. split; [exact G3|]. rewrite app_length in G4. cbn [length] in G4.
    split; [lia|]. exists (b :: rest). rewrite G5, <- app_assoc. reflexivity.
Qed.
Lemma yen_ok k lay' res : yen Q clk cr src tgt fuel lay k = Some (lay', res) ->
  lay' = lay /\ Forall valid res /\ List.NoDup res /\ (length res <= Nat.max 1 k)%nat.
Proof.
  unfold yen. unfold y_star. pose proof (a_star_ok (u64_ops (distance_functor manhattan_distance) unit_cost tgt) Q HQ (pf_of clk lay) cr src tgt fuel) as Ha.
  destruct (a_star _ Q (pf_of clk lay) cr src tgt fuel) as [[|x p]|]; [|intros E|discriminate].
  - intros E. inversion E; subst. repeat split; [constructor|constructor|cbn; lia].
  - destruct (y_loop_ok (k - 1) [x :: p] [] lay' res) as (G1 & G2 & G3 & G4 & _); [discriminate|constructor; [exact Ha|constructor]|repeat constructor; intros []| |exact E|].
    + split; [constructor|]. split; [constructor|]. intros q [].
    + split; [exact G1|]. split; [exact G2|]. split; [exact G3|]. cbn [length] in G4. lia.
Qed.
End YenProofs.
