(** Yen's algorithm finds all paths of layouts with a linear clocking. *)
From Coq Require Import ZArith Bool List Permutation Lia Sorted.
From stdpp Require Import gmap list.
From Verif Require Import CoordModel CoordSpec CoordProofs GridModel GridSpec GridProofs CoordMap ClockModel ClockSpec ClockProofs GateModel GateSpec CellModel PathModel PathSpec PathProofs PathProofs3 PathProofs4 PathProofs5 PathProofs6.
Import ListNotations.
Local Open Scope Z_scope.

Notation all_live p := (forall c, In c p -> cd c = false).
Lemma path_ltb_total a : forall b, all_live a -> all_live b -> path_ltb a b = false -> path_ltb b a = false -> a = b.
Proof.
  induction a as [|x a IH]; intros [|y b] Ha Hb H1 H2; try discriminate; [reflexivity|].
  assert (E : x = y).
  { apply not_true_iff_false in H1, H2. rewrite path_ltb_cons in H1, H2.
    assert (coord_ltb x y = false) as K1 by (destruct (coord_ltb x y); [exfalso; auto|reflexivity]).
    assert (coord_ltb y x = false) as K2 by (destruct (coord_ltb y x); [exfalso; auto|reflexivity]).
    rewrite coord_ltb_false in K1, K2. pose proof (Ha x (or_introl eq_refl)). pose proof (Hb y (or_introl eq_refl)).
    destruct x, y; cbn in *. f_equal; try congruence; lia. }
  subst y. f_equal. assert (K : coord_ltb x x = false) by (apply coord_ltb_false; lia).
  apply IH; [intros; apply Ha; right; assumption|intros; apply Hb; right; assumption| |].
  - apply not_true_iff_false in H1. rewrite path_ltb_cons in H1. destruct (path_ltb a b); [exfalso; auto|reflexivity].
  - apply not_true_iff_false in H2. rewrite path_ltb_cons in H2. destruct (path_ltb b a); [exfalso; auto|reflexivity].
Qed.
Lemma set_add_keeps p s q : In q s -> In q (set_add p s).
Proof.
  induction s as [|x s IH]; [intros []|]. cbn [set_add]. destruct (path_ltb p x); [right; assumption|]. destruct (path_ltb x p); [|auto].
  intros [K|K]; [left; exact K|right; apply IH, K].
Qed.
Lemma set_add_has p s : all_live p -> (forall q, In q s -> all_live q) -> In p (set_add p s).
Proof.
  intros Hp. induction s as [|x s IH]; intros Hs; cbn [set_add]; [left; reflexivity|]. destruct (path_ltb p x) eqn:E1; [left; reflexivity|].
  destruct (path_ltb x p) eqn:E2.
  - right. apply IH. intros q Hq. apply Hs. right. exact Hq.
  - left. symmetry. apply path_ltb_total; auto. apply Hs. left. reflexivity.
Qed.
Lemma remove_keeps p s q : In q s -> q <> p -> In q (remove_path p s).
Proof.
  induction s as [|x s IH]; [intros []|]. cbn [remove_path]. intros [->|K] Hne; case_bool_decide; subst; try contradiction; [left; reflexivity|exact K|right; apply IH; assumption].
Qed.

Section Complete.
Context (Q : queue Z) (HQ : queue_ok Q) (clk cr : bool) (src tgt : coord) (fuel : nat) (lay : olayout).
Notation step := (permitted (pf_of clk lay) cr tgt).
Context (Hsrc : src ∉ o_coords lay)
        (Hcross : cr = true -> (cz tgt = 0 \/ is_obstructed_coordinate lay (below (cl_dim (o_clocked lay)) tgt) = true) /\ forall u g, pf_cross (pf_of clk lay) u g = true -> is_obstructed_coordinate lay g = true)
        (Hz : 0 <= cz (cl_dim (o_clocked lay)) <= 1).
Context (P : coord -> Prop) (wv : coord -> Z) (Psrc : P src) (Plive : forall u, P u -> cd u = false)
        (Pstep : forall u v, P u -> step u v -> P v /\ wv v = wv u + 1)
        (Hinb : forall u v, P u -> In v (pf_succ (pf_of clk lay) u) -> inb (cl_dim (o_clocked lay)) v).
Lemma Pstep1 u v : P u -> step u v -> P v.
Proof. intros. eapply Pstep; eauto. Qed.
Notation valid := (valid clk cr src tgt lay).

(** Steps that enter none of the new obstructions remain. *)
Lemma permitted_kept l2 u v : o_base l2 = o_base lay -> (forall c, c ∈ o_coords lay -> c ∈ o_coords l2) ->
  (v ∈ o_coords l2 -> v ∈ o_coords lay) -> ((u, v) ∈ o_conns l2 -> (u, v) ∈ o_conns lay) ->
  step u v -> permitted (pf_of clk l2) cr tgt u v.
Proof.
  intros Eb Hc Hv1 Hn1 H. assert (Ecl := o_clocked_base _ _ Eb).
  assert (B : forall c, pf_below (pf_of clk l2) c = pf_below (pf_of clk lay) c) by (intros c; cbn [pf_of pf_below]; rewrite Ecl; reflexivity).
  assert (A : forall c, pf_above (pf_of clk l2) c = pf_above (pf_of clk lay) c) by (intros c; cbn [pf_of pf_above]; rewrite Ecl; reflexivity).
  assert (S : forall c, pf_succ (pf_of clk l2) c = pf_succ (pf_of clk lay) c) by (intros c; cbn [pf_of pf_succ]; rewrite Ecl; reflexivity).
  assert (X : forall c e, pf_cross (pf_of clk l2) c e = pf_cross (pf_of clk lay) c e) by (intros c e; cbn [pf_of pf_cross]; rewrite Eb; reflexivity).
  assert (F : is_obstructed_coordinate lay v = false -> is_obstructed_coordinate l2 v = false).
  { unfold is_obstructed_coordinate. rewrite Eb. destruct (bool_decide_reflect (v ∈ o_coords lay)) as [K|K]; [discriminate|].
    rewrite bool_decide_eq_false_2; [auto|]. intros K2. apply K, Hv1, K2. }
  assert (G : is_obstructed_connection lay u v = false -> is_obstructed_connection l2 u v = false).
  { unfold is_obstructed_connection. rewrite Eb. destruct (bool_decide_reflect ((u, v) ∈ o_conns lay)) as [K|K]; [discriminate|].
    rewrite bool_decide_eq_false_2; [auto|]. intros K2. apply K, Hn1, K2. }
  assert (T : forall g, is_obstructed_coordinate lay g = true -> is_obstructed_coordinate l2 g = true).
  { intros g K. apply not_false_iff_true. intros K2. apply (obst_mono lay l2 g (eq_sym Eb) Hc) in K2. congruence. }
  destruct H as [w Hw Hv Ho Hcn|w g Hw Hg Hcr Hog Hgt Hv Hvg Hx Hov Hcn].
  - rewrite <- S in Hw. rewrite <- B in Hv. eapply enter_free; [exact Hw|exact Hv| |].
    + destruct Ho as [Ho|Ho]; [left; apply F, Ho|right; exact Ho].
    + apply G, Hcn.
  - rewrite <- S in Hw. rewrite <- B in Hg. rewrite <- A in Hv. rewrite <- X in Hx. eapply enter_crossing; [exact Hw|exact Hg|exact Hcr|apply T, Hog|exact Hgt|exact Hv|exact Hvg|exact Hx| |].
    + destruct Hov as [Hov|Hov]; [left; apply F, Hov|right; exact Hov].
    + apply G, Hcn.
Qed.
Lemma walk_P a t p : walk step a t p -> P a -> forall i x, p !! i = Some x -> P x /\ wv x = wv a + Z.of_nat i.
Proof.
  induction 1 as [a|a u t p Hs Hw IH]; intros Ha i x Hi.
  - destruct i as [|i]; [|discriminate]. inversion Hi; subst. split; [exact Ha|lia].
  - destruct i as [|i]; [inversion Hi; subst; split; [exact Ha|lia]|]. destruct (Pstep _ _ Ha Hs) as [Hu Ew]. destruct (IH Hu i x Hi) as [K1 K2]. split; [exact K1|]. rewrite K2, Ew. lia.
Qed.
Lemma valid_live p : valid p -> all_live p.
Proof. intros [Hw _] c Hc. apply elem_of_list_In, elem_of_list_lookup in Hc as [i Hi]. apply Plive. exact (proj1 (walk_P _ _ _ Hw Psrc i c Hi)). Qed.
(** A valid path that extends a valid path is that path. *)
Lemma valid_prefix p q : valid p -> valid q -> forall j, (length q <= j)%nat -> take j p = take j q -> p = q.
Proof.
  intros [Hp Np] [Hq Nq] j Hj E. rewrite (take_ge q) in E by exact Hj. pose proof (walk_last_lookup _ _ _ _ Hp) as Lp. pose proof (walk_last_lookup _ _ _ _ Hq) as Lq.
  pose proof (walk_nonempty _ _ _ _ Hq) as Hn. pose proof (walk_nonempty _ _ _ _ Hp) as Hn'.
  assert (El : length q = Nat.min j (length p)) by (rewrite <- E; apply take_length).
  assert (Lp' : p !! (length q - 1)%nat = Some tgt). { rewrite <- (lookup_take p j) by lia. rewrite E. exact Lq. }
  apply NoDup_ListNoDup in Np. pose proof (NoDup_lookup _ _ _ _ Np Lp Lp') as K. rewrite take_ge in E by lia. exact E.
Qed.
Lemma take_lookup_eq (p q : list coord) j i : take j p = take j q -> (i < j)%nat -> p !! i = q !! i.
Proof. intros E Hi. rewrite <- (lookup_take p j i Hi), <- (lookup_take q j i Hi), E. reflexivity. Qed.
Lemma take_less (p q : list coord) j i : take j p = take j q -> (i <= j)%nat -> take i p = take i q.
Proof. intros E Hi. rewrite <- (Nat.min_l i j Hi), <- !take_take, E. reflexivity. Qed.
Lemma walk_drop (st : coord -> coord -> Prop) a t p : walk st a t p -> forall i x, p !! i = Some x -> walk st x t (drop i p).
Proof.
  induction 1 as [a|a u t p Hs Hw IH]; intros i x Hi.
  - destruct i as [|i]; [|discriminate]. inversion Hi; subst. apply walk_end.
  - destruct i as [|i]; [inversion Hi; subst; eapply walk_step; eauto|]. exact (IH i x Hi).
Qed.
Lemma walk_restrict (s1 s2 : coord -> coord -> Prop) a t p : walk s1 a t p ->
  (forall k x y, p !! k = Some x -> p !! S k = Some y -> s1 x y -> s2 x y) -> walk s2 a t p.
Proof.
  induction 1 as [a|a u t p Hs Hw IH]; intros H; [apply walk_end|]. destruct (walk_head _ _ _ _ Hw) as (r & E).
  eapply walk_step; [apply (H O a u); [reflexivity|rewrite E; reflexivity|exact Hs]|]. apply IH. intros k x y H1 H2. apply (H (S k)); assumption.
Qed.

Lemma spur_finds A latest B i lay' B' q : Forall valid A -> In latest A -> (i < length latest - 1)%nat -> valid q ->
  take (S i) latest = take (S i) q -> (forall p, In p A -> take (S (S i)) p <> take (S (S i)) q) -> (forall p, In p B -> all_live p) ->
  y_spur Q clk cr tgt fuel A latest (lay, B) i = Some (lay', B') -> exists c, In c B' /\ take (S i) c = take (S i) q.
Proof.
  intros HA Hlat Hi Hq Eq Hno HB E. rewrite List.Forall_forall in HA. pose proof (HA _ Hlat) as Hv. unfold y_spur in E.
  destruct (latest !! i) as [spur|] eqn:Es; [|discriminate]. cbv zeta in E.
  set (root := take i latest) in *. set (conns := y_connections A root i) in *.
  set (coords := List.filter _ root) in *.
  set (lay1 := fold_left (fun l c => o_do l (ObstructConnection c.1 c.2)) conns lay) in *.
  set (lay2 := fold_left (fun l c => o_do l (ObstructCoordinate c)) coords lay1) in *.
  destruct (obst_conns conns lay) as (A1 & A2 & A3). cbn zeta in A1, A2, A3. fold lay1 in A1, A2, A3.
  destruct (obst_coords coords lay1) as (B1 & B2 & B3). cbn zeta in B1, B2, B3. fold lay2 in B1, B2, B3.
  destruct (y_star Q clk cr tgt fuel lay2 spur) as [sp|] eqn:Ey; [|discriminate].
  assert (Eqi : q !! i = Some spur) by (rewrite <- (take_lookup_eq latest q (S i) i Eq) by lia; exact Es).
  assert (Hroot : root = take i q) by (apply (take_less latest q (S i)); [exact Eq|lia]).
  destruct Hq as [Hqw Hqn].
  assert (Hw2 : walk (permitted (pf_of clk lay2) cr tgt) spur tgt (drop i q)).
  { apply (walk_restrict step); [exact (walk_drop _ _ _ _ Hqw i spur Eqi)|]. intros k x y Hx Hy Hs. rewrite lookup_drop in Hx, Hy. apply permitted_kept; [congruence| | | |exact Hs].
    - intros c Hc. apply B3. right. rewrite A2. exact Hc.
    - intros Hyc. apply B3 in Hyc as [Hyc|Hyc]; [exfalso|rewrite A2 in Hyc; exact Hyc].
      apply List.filter_In in Hyc as [Hyc _]. rewrite Hroot in Hyc. apply elem_of_list_In, elem_of_list_lookup in Hyc as [m Hm].
      assert (Hmi : (m < i)%nat) by (apply lookup_lt_Some in Hm; rewrite take_length in Hm; lia). rewrite lookup_take in Hm by exact Hmi.
      apply NoDup_ListNoDup in Hqn. pose proof (NoDup_lookup _ _ _ _ Hqn Hm Hy). lia.
    - intros Hxy. rewrite B2 in Hxy. apply A3 in Hxy as [Hxy|Hxy]; [exfalso|exact Hxy].
      apply y_connections_in in Hxy as (p & Hp & Hlp & Htp & P1 & P2). cbn [fst snd] in P1, P2.
      destruct (HA p Hp) as [Hpw _]. destruct (walk_P _ _ _ Hpw Psrc _ _ P1) as [_ W1]. destruct (walk_P _ _ _ Hqw Psrc _ _ Hx) as [_ W2].
      assert (k = O) by lia. subst k. rewrite Nat.add_0_r in Hx. assert (x = spur) by congruence. subst x.
      apply (Hno p Hp). rewrite Nat.add_1_r in P2, Hy.
      rewrite (take_S_r p (S i) y), (take_S_r p i spur), (take_S_r q (S i) y), (take_S_r q i spur) by assumption. rewrite Htp, Hroot. reflexivity. }
  pose proof (a_star_ok (u64_ops (distance_functor manhattan_distance) unit_cost tgt) Q HQ (pf_of clk lay2) cr spur tgt fuel) as Ha.
  unfold y_star in Ey. rewrite Ey in Ha. destruct sp as [|x sp]; [exfalso; exact (Ha _ Hw2)|].
  inversion E. subst B'. exists (root ++ x :: sp).
  assert (Hlr : length root = i) by (unfold root; rewrite take_length; lia). split.
  - apply set_add_has; [|exact HB]. intros c Hc. apply in_app_or in Hc as [Hc|Hc]; [apply (valid_live latest Hv), (take_in i), Hc|].
    destruct Ha as [Haw _]. assert (Haw' : walk step spur tgt (x :: sp)).
    { apply (walk_more clk cr tgt lay Hcross Hz P Pstep1 Hinb lay2); [congruence| | |exact Haw|exact (proj1 (walk_P _ _ _ Hqw Psrc _ _ Eqi))].
      - intros c' Hc'. apply B3. right. rewrite A2. exact Hc'.
      - intros c' Hc'. rewrite B2. apply A3. right. exact Hc'. }
    apply elem_of_list_In, elem_of_list_lookup in Hc as [m Hm]. apply Plive. exact (proj1 (walk_P _ _ _ Haw' (proj1 (walk_P _ _ _ Hqw Psrc _ _ Eqi)) m c Hm)).
  - destruct Ha as [Haw _]. destruct (walk_head _ _ _ _ Haw) as (r & Er). rewrite Er.
    rewrite (take_S_r q i spur) by exact Eqi. rewrite <- Hroot. rewrite take_app_ge by lia. rewrite Hlr. replace (S i - i)%nat with 1%nat by lia. reflexivity.
Qed.

(** Between the paths found and those not found there is always a candidate. *)
Definition gap (A B : list (list coord)) : Prop := forall q j, valid q -> (1 <= j)%nat -> (exists p, In p A /\ take j p = take j q) ->
  (forall p, In p A -> take (S j) p <> take (S j) q) -> exists c, In c B /\ take j c = take j q.
Definition pre_gap (A : list (list coord)) (latest : list coord) (B : list (list coord)) : Prop := forall q j, valid q -> (1 <= j)%nat ->
  (exists p, In p A /\ take j p = take j q) -> (forall p, In p A -> take (S j) p <> take (S j) q) -> take j latest <> take j q ->
  exists c, In c B /\ take j c = take j q.
Lemma spur_keeps A latest B i lay' B' q : y_spur Q clk cr tgt fuel A latest (lay, B) i = Some (lay', B') -> In q B -> In q B'.
Proof.
  unfold y_spur. destruct (latest !! i); [|discriminate]. cbv zeta. destruct (y_star _ _ _ _ _ _ _) as [[|x sp]|]; [| |discriminate]; intros E Hq; inversion E; subst; [exact Hq|].
  apply set_add_keeps, Hq.
Qed.
Notation spurs A latest := (fold_left (fun acc i => match acc with None => None | Some st => y_spur Q clk cr tgt fuel A latest st i end)).
Lemma spurs_find A latest : Forall valid A -> In latest A -> forall is_ B lay' B', (forall i, In i is_ -> (i < length latest - 1)%nat) ->
  cands clk cr src tgt lay A B -> spurs A latest is_ (Some (lay, B)) = Some (lay', B') ->
  (forall q, In q B -> In q B') /\
  (forall i q, In i is_ -> valid q -> take (S i) latest = take (S i) q -> (forall p, In p A -> take (S (S i)) p <> take (S (S i)) q) ->
     exists c, In c B' /\ take (S i) c = take (S i) q).
Proof.
  intros HA Hl. induction is_ as [|i is_ IH]; intros B lay' B' Hi Hc E; cbn [fold_left] in E; [inversion E; subst; split; [auto|intros i q []]|].
  destruct (y_spur Q clk cr tgt fuel A latest (lay, B) i) as [[lay1 B1]|] eqn:E1.
  2:{ exfalso. clear -E. induction is_; [discriminate|apply IHis_, E]. }
  assert (E1' : spurs A latest [i] (Some (lay, B)) = Some (lay1, B1)) by (cbn [fold_left]; exact E1).
  destruct (spurs_ok Q HQ clk cr src tgt fuel lay Hsrc Hcross Hz P Psrc Pstep1 Hinb A latest HA Hl [i] B lay1 B1) as [-> Hc1]; [intros i' [<-|[]]; apply Hi; left; reflexivity|exact Hc|exact E1'|].
  destruct (IH B1 lay' B') as [K1 K2]; [intros; apply Hi; right; assumption|exact Hc1|exact E|]. split.
  - intros q Hq. apply K1. eapply spur_keeps; eauto.
  - intros i' q [<-|Hi'] Hq Eq Hno; [|apply K2; assumption].
    destruct (spur_finds A latest B i lay B1 q HA Hl (Hi i (or_introl eq_refl)) Hq Eq Hno) as (c & C1 & C2); [|exact E1|].
    + intros p Hp. destruct Hc as (Hc & _). rewrite List.Forall_forall in Hc. apply valid_live, Hc, Hp.
    + exists c. split; [apply K1, C1|exact C2].
Qed.
Lemma gap_after A latest B lay' B' : Forall valid A -> In latest A -> cands clk cr src tgt lay A B -> pre_gap A latest B ->
  spurs A latest (seq 0 (length latest - 1)) (Some (lay, B)) = Some (lay', B') -> gap A B'.
Proof.
  intros HA Hl Hc Hg E q j Hq Hj Hsh Hno.
  assert (Hseq : forall i, In i (seq 0 (length latest - 1)) -> (i < length latest - 1)%nat) by (intros i Hi; apply in_seq in Hi; lia).
  destruct (spurs_find A latest HA Hl _ B lay' B' Hseq Hc E) as [K1 K2].
  destruct (decide (take j latest = take j q)) as [Ej|Ej].
  - destruct j as [|i]; [lia|]. apply K2; [|exact Hq|exact Ej|exact Hno]. apply in_seq. split; [lia|].
    destruct (Nat.lt_ge_cases i (length latest - 1)) as [K|K]; [lia|exfalso].
    apply (Hno latest Hl). rewrite List.Forall_forall in HA. rewrite (valid_prefix q latest Hq (HA _ Hl) (S i)); [reflexivity|lia|congruence].
  - destruct (Hg q j Hq Hj Hsh Hno Ej) as (c & C1 & C2). exists c. split; [apply K1, C1|exact C2].
Qed.
Lemma gap_all A : A <> [] -> Forall valid A -> gap A [] -> forall q, valid q -> In q A.
Proof.
  intros HA0 HA Hg q Hq. rewrite List.Forall_forall in HA.
  destruct (decide (q ∈ A)) as [K|Hn]; [apply elem_of_list_In, K|exfalso]. rewrite elem_of_list_In in Hn.
  assert (G : forall j, (1 <= j)%nat -> exists p, In p A /\ take j p = take j q).
  { induction j as [|j IH]; [lia|]. intros _. destruct j as [|j].
    - destruct A as [|p A']; [congruence|]. exists p. split; [left; reflexivity|]. destruct (HA p (or_introl eq_refl)) as [Hp _]. destruct Hq as [Hqw _].
      destruct (walk_head _ _ _ _ Hp) as (r1 & ->). destruct (walk_head _ _ _ _ Hqw) as (r2 & ->). cbn. rewrite !take_0. reflexivity.
    - destruct (IH ltac:(lia)) as (p0 & P1 & P2).
      destruct (List.Exists_dec (fun p => take (S (S j)) p = take (S (S j)) q) A (fun p => decide _)) as [K|K]; [apply List.Exists_exists in K; exact K|].
      exfalso. destruct (Hg q (S j) Hq ltac:(lia)) as (c & [] & _); [exists p0; auto|]. intros p Hp E. apply K. apply List.Exists_exists. eauto. }
  destruct (G (S (length q)) ltac:(lia)) as (p & P1 & P2). apply Hn. rewrite <- (valid_prefix p q (HA p P1) Hq (S (length q))); [exact P1|lia|exact P2].
Qed.
Lemma y_loop_all rounds : forall A latest B lay' res, Forall valid (A ++ [latest]) -> List.NoDup (A ++ [latest]) -> cands clk cr src tgt lay (A ++ [latest]) B -> pre_gap (A ++ [latest]) latest B ->
  y_loop Q clk cr tgt fuel rounds lay (A ++ [latest]) B = Some (lay', res) ->
  length res = (length (A ++ [latest]) + rounds)%nat \/ (forall q, valid q -> In q res).
Proof.
  induction rounds as [|n IH]; intros A latest B lay' res HA Hn Hc Hg E; cbn [y_loop] in E; [inversion E; subst; left; lia|].
  rewrite last_snoc in E. cbn [default] in E.
  assert (Hl : In latest (A ++ [latest])) by (apply in_or_app; right; left; reflexivity).
  match type of E with match ?f with _ => _ end = _ => destruct f as [[lay1 B1]|] eqn:Ef; [|discriminate] end.
  assert (Hseq : forall i, In i (seq 0 (length latest - 1)) -> (i < length latest - 1)%nat) by (intros i Hi; apply in_seq in Hi; lia).
  destruct (spurs_ok Q HQ clk cr src tgt fuel lay Hsrc Hcross Hz P Psrc Pstep1 Hinb _ latest HA Hl _ _ _ _ Hseq Hc Ef) as (-> & C1 & C2 & C3).
  pose proof (gap_after _ latest B _ B1 HA Hl Hc Hg Ef) as Hgap.
  destruct B1 as [|x r].
  { injection E as _ Er. subst res. right. apply gap_all; [destruct A; discriminate|exact HA|exact Hgap]. }
  set (b := shortest_of x r) in *. pose proof (shortest_in r x) as Hb. fold b in Hb. destruct (remove_sorted b (x :: r) C2) as [R1 R2].
  destruct (IH (A ++ [latest]) b (remove_path b (x :: r)) lay' res) as [K|K]; [| | | |exact E| |right; exact K].
  - apply List.Forall_forall. intros p Hp. rewrite List.Forall_forall in HA, C1. apply in_app_or in Hp as [Hp|[<-|[]]]; [apply HA, Hp|apply C1, Hb].
  - apply (Permutation_NoDup (l := b :: A ++ [latest])); [apply Permutation_cons_append|]. constructor; [apply C3, Hb|exact Hn].
  - split; [|split].
    + apply List.Forall_forall. intros p Hp. rewrite List.Forall_forall in C1. apply C1, (remove_in b), Hp.
    + exact R1.
    + intros q Hq Hqa. apply in_app_or in Hqa as [Hqa|[<-|[]]]; [apply (C3 q (remove_in _ _ _ Hq) Hqa)|contradiction].
  - intros q j Hq Hj (p & Hp & Ep) Hno Hne. apply in_app_or in Hp as [Hp|[<-|[]]]; [|contradiction].
    destruct (Hgap q j Hq Hj) as (c & Hc1 & Hc2); [eauto|intros p' Hp'; apply Hno, in_or_app; left; exact Hp'|].
    exists c. split; [|exact Hc2]. apply remove_keeps; [exact Hc1|]. intros ->. contradiction.
  - left. rewrite K, !app_length. cbn [length]. lia.
Qed.
Lemma yen_all k lay' res : yen Q clk cr src tgt fuel lay k = Some (lay', res) -> (1 <= k)%nat ->
  length res = k \/ (forall q, valid q -> In q res).
Proof.
  unfold yen. unfold y_star. pose proof (a_star_ok (u64_ops (distance_functor manhattan_distance) unit_cost tgt) Q HQ (pf_of clk lay) cr src tgt fuel) as Ha.
  destruct (a_star _ Q (pf_of clk lay) cr src tgt fuel) as [[|x p]|]; [|intros E Hk|discriminate].
  - intros E _. right. intros q [Hq _]. exfalso. exact (Ha _ Hq).
  - destruct (y_loop_all (k - 1) [] (x :: p) [] lay' res) as [K|K]; [constructor; [exact Ha|constructor]|repeat constructor; intros []| | |exact E|left|right; exact K].
    + split; [constructor|]. split; [constructor|]. intros q [].
    + intros q j _ _ (p' & [<-|[]] & Ep) _ Hne. contradiction.
    + cbn [app length] in K. lia.
Qed.
End Complete.
