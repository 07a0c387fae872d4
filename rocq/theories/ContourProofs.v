(** Proofs about contour tracing in two dimensions (see ContourModel.v, OpDomSpec.v). *)
From Coq Require Import ZArith Bool List Lia Permutation.
From stdpp Require Import gmap list.
From Verif Require Import UtilModel OpDomModel OpDomSpec OpDomProofs OpDomProofs2 ContourModel.
Import ListNotations.

Definition dom_ok (op : point -> bool) (dom : gmap point bool) : Prop := forall p b, dom !! p = Some b -> b = op p.
(** The stored domain only grows. *)
Definition grows (dom dom' : gmap point bool) : Prop := forall p, is_Some (dom !! p) -> is_Some (dom' !! p).
Lemma grows_refl d : grows d d. Proof. intros p H. exact H. Qed.
Lemma grows_trans a b c : grows a b -> grows b c -> grows a c. Proof. intros H1 H2 p H. auto. Qed.

Lemma ask_ok op dom sp b dom' : dom_ok op dom -> ask op dom sp = (b, dom') ->
  b = op sp /\ dom_ok op dom' /\ grows dom dom' /\ is_Some (dom' !! sp).
Proof.
  intros D H. unfold ask in H. destruct (dom !! sp) as [c|] eqn:E; injection H as <- <-.
  - split; [apply D; exact E|]. split; [exact D|]. split; [apply grows_refl|eauto].
  - split; [reflexivity|]. split; [|split].
    + intros p b Hb. apply add_value_lookup in Hb. destruct Hb as [Hb|(-> & -> & _)]; [apply D; exact Hb|reflexivity].
    + intros p. apply add_value_mono.
    + apply add_value_there.
Qed.

Lemma walk_left_ok op rest : forall x dom l dom', dom_ok op dom -> walk_left op dom rest x x = (l, dom') ->
  dom_ok op dom' /\ grows dom dom' /\ l <= x /\ (forall k, l <= k -> k < x -> op (k :: rest) = true /\ is_Some (dom' !! (k :: rest))) /\
  (l = 0 \/ exists z, l = S z /\ op (z :: rest) = false).
Proof.
  induction x as [|x IH]; intros dom l dom' D H; cbn [walk_left] in H.
  - injection H as <- <-. split; [exact D|]. split; [apply grows_refl|]. split; [lia|]. split; [lia|auto].
  - destruct (ask op dom (x :: rest)) as [b d1] eqn:E. destruct (ask_ok _ _ _ _ _ D E) as (Hb & D1 & G1 & S1).
    destruct b.
    + destruct (IH _ _ _ D1 H) as (D2 & G2 & L & K & Z). split; [exact D2|]. split; [eapply grows_trans; eauto|]. split; [lia|]. split; [|exact Z].
      intros k H1 H2. destruct (Nat.eq_dec k x) as [->|N]; [split; [auto|apply G2; exact S1]|apply K; lia].
    + injection H as <- <-. split; [exact D1|]. split; [exact G1|]. split; [lia|]. split; [lia|]. right. exists x. auto.
Qed.

Lemma find_ok op dom sp l dom' : dom_ok op dom -> op sp = true -> is_Some (dom !! sp) -> sp <> [] ->
  find_contour_point op dom sp = (l, dom') ->
  dom_ok op dom' /\ grows dom dom' /\ leftmost op sp l /\ is_Some (dom' !! l).
Proof.
  intros D Ho Hk Hn H. destruct sp as [|x rest]; [congruence|]. cbn [find_contour_point] in H.
  destruct (walk_left op dom rest x x) as [y d1] eqn:E. injection H as <- <-.
  destruct (walk_left_ok _ _ _ _ _ _ D E) as (D1 & G & L & K & Z). split; [exact D1|]. split; [exact G|]. split.
  - exists x, y, rest. split; [reflexivity|]. split; [reflexivity|]. split; [exact L|]. split; [|exact Z].
    intros k H1 H2. destruct (Nat.eq_dec k x) as [->|N]; [exact Ho|apply K; lia].
  - destruct (Nat.eq_dec y x) as [->|N]; [apply G; exact Hk|]. apply K; lia.
Qed.

Lemma leftmost_op op p l : leftmost op p l -> op l = true.
Proof. intros (x & y & rest & -> & -> & L & K & _). apply K; lia. Qed.
Lemma leftmost_grid dims op p l : on_grid dims p -> leftmost op p l -> on_grid dims l.
Proof.
  intros G (x & y & rest & -> & -> & L & _). inversion G; subst. constructor; [lia|assumption].
Qed.
Lemma close_refl p : Forall2 close p p.
Proof. induction p; constructor; [unfold close; lia|assumption]. Qed.
Lemma beside_adjacent dims p m : beside dims p m -> adjacent dims p m.
Proof.
  intros (G & pre & x & y & post & -> & -> & H). split; [exact G|]. split.
  - apply Forall2_app; [apply close_refl|]. constructor; [unfold close; lia|apply close_refl].
  - intros E. apply app_inv_head in E. injection E as E. lia.
Qed.
Lemma adjacent_sym dims p m : on_grid dims p -> adjacent dims p m -> adjacent dims m p.
Proof.
  intros G (G' & F & N). split; [exact G|]. split; [|congruence].
  clear -F. induction F; constructor; [unfold close in *; lia|assumption].
Qed.
Lemma leftmost_boundary dims op p l : on_grid dims p -> leftmost op p l -> boundary dims op l.
Proof.
  intros G H. pose proof (leftmost_grid _ _ _ _ G H) as G'. split; [eapply leftmost_op; eauto|].
  destruct H as (x & y & rest & -> & -> & L & K & Z). destruct Z as [->|(z & -> & Z)].
  - left. destruct dims as [|n dims]; [inversion G|]. exists 0, 0, n. cbn. auto.
  - right. exists (z :: rest). split; [|exact Z]. apply beside_adjacent. split.
    + inversion G'; subst. constructor; [lia|assumption].
    + exists [], (S z), z, rest. auto.
Qed.

(** ** Rotating a neighbourhood *)
Lemma rotate_end (l : list point) bt r : List.NoDup (l ++ [bt]) -> exists a, head (l ++ [bt]) = Some a /\ rotate_until r (l ++ [bt]) bt = Some a.
Proof.
  intros ND. destruct (l ++ [bt]) as [|a l'] eqn:E; [destruct l; discriminate|]. exists a. split; [reflexivity|].
  assert (EL : List.last (a :: l') a = bt) by (rewrite <- E; apply List.last_last).
  destruct r; cbn [rotate_until]; rewrite bool_decide_true by exact EL; reflexivity.
Qed.
Lemma rotate_mid l1 : forall bt y l2 r, List.NoDup (l1 ++ bt :: y :: l2) -> S (length l1) <= r ->
  rotate_until r (l1 ++ bt :: y :: l2) bt = Some y.
Proof.
  assert (NL : forall (l1 : list point) bt y l2 d, List.NoDup (l1 ++ bt :: y :: l2) -> List.last (l1 ++ bt :: y :: l2) d <> bt).
  { intros l1' bt y l2 d ND E. apply NoDup_remove_2 in ND. apply ND. apply in_or_app. right.
    rewrite <- E. clear. revert bt. induction l1' as [|a l IH]; intros bt; cbn [app].
    - change (In (List.last (bt :: y :: l2) d) (y :: l2)). cbn [List.last].
      clear. revert y. induction l2 as [|z l IH]; intros y; [left; reflexivity|]. right. apply IH.
    - destruct (l ++ bt :: y :: l2) eqn:E; [destruct l; discriminate|]. specialize (IH bt). rewrite E in IH. exact IH. }
  induction l1 as [|a l1 IH]; intros bt y l2 r ND Hr.
  - cbn [app]. destruct r as [|r]; [cbn in Hr; lia|]. cbn [rotate_until].
    rewrite bool_decide_false by (apply (NL [] bt y l2 bt); exact ND).
    cbn [app]. assert (ND' : List.NoDup ((y :: l2) ++ [bt])).
    { eapply Permutation_NoDup; [|exact ND]. cbn [app]. change (bt :: y :: l2) with ([bt] ++ (y :: l2)).
      apply (Permutation_app_comm [bt] (y :: l2)). }
    destruct (rotate_end (y :: l2) bt r ND') as (b & Hb & E). cbn in Hb. injection Hb as <-. exact E.
  - cbn [app]. destruct r as [|r]; [cbn in Hr; lia|]. cbn [rotate_until].
    rewrite bool_decide_false by (apply (NL (a :: l1) bt y l2 a); exact ND).
    rewrite <- app_assoc. cbn [app]. apply IH; [|cbn in Hr; lia].
    eapply Permutation_NoDup; [|exact ND]. cbn [app].
    rewrite (Permutation_app_comm [a] (l1 ++ bt :: y :: l2) : a :: l1 ++ bt :: y :: l2 ≡ₚ _). rewrite <- app_assoc. reflexivity.
Qed.
(** The next point clockwise is the next one in the list, or the first one after the last. *)
Lemma next_clockwise_spec nb i bt : List.NoDup nb -> nb !! i = Some bt ->
  next_clockwise_point nb bt = nb !! (if S i =? length nb then 0 else S i) /\
  is_Some (nb !! (if S i =? length nb then 0 else S i)).
Proof.
  intros ND Hi. unfold next_clockwise_point. pose proof (take_drop_middle nb i bt Hi) as E.
  pose proof (lookup_lt_Some _ _ _ Hi) as Li.
  set (l1 := take i nb) in *. assert (L1 : length l1 = i) by (unfold l1; rewrite take_length; lia).
  destruct (drop (S i) nb) as [|y l2] eqn:Ed.
  - assert (Ln : length nb = S i) by (rewrite <- E, app_length, L1; cbn; lia). rewrite Ln, Nat.eqb_refl. rewrite <- E in ND |- *.
    destruct (rotate_end l1 bt (S i) ND) as (a & Ha & Er). rewrite Er. rewrite <- Ha. destruct (l1 ++ [bt]); cbn in *; split; eauto; discriminate.
  - assert (Ln : S i < length nb) by (rewrite <- E, app_length, L1; cbn; lia).
    destruct (Nat.eqb_spec (S i) (length nb)); [lia|]. rewrite <- E in ND. rewrite <- E at 2. rewrite rotate_mid; [|exact ND|lia].
    assert (Ey : nb !! S i = Some y).
    { rewrite <- E. rewrite lookup_app_r by lia. rewrite L1. replace (S i - i) with 1 by lia. reflexivity. }
    rewrite Ey. split; eauto.
Qed.
Lemma next_clockwise_in nb bt : List.NoDup nb -> In bt nb -> exists n, next_clockwise_point nb bt = Some n /\ In n nb.
Proof.
  intros ND H. apply elem_of_list_In, elem_of_list_lookup in H. destruct H as [i Hi].
  destruct (next_clockwise_spec _ _ _ ND Hi) as [E [n Hn]]. exists n. rewrite E. split; [exact Hn|].
  apply elem_of_list_In. eapply elem_of_list_lookup_2; eauto.
Qed.
Lemma next_clockwise_inj nb a b n : List.NoDup nb -> In a nb -> In b nb ->
  next_clockwise_point nb a = Some n -> next_clockwise_point nb b = Some n -> a = b.
Proof.
  intros ND Ha Hb Ea Eb. apply elem_of_list_In, elem_of_list_lookup in Ha, Hb. destruct Ha as [i Hi], Hb as [j Hj].
  destruct (next_clockwise_spec _ _ _ ND Hi) as [E1 _]. destruct (next_clockwise_spec _ _ _ ND Hj) as [E2 _].
  rewrite Ea in E1. rewrite Eb in E2. symmetry in E1, E2.
  pose proof (lookup_lt_Some _ _ _ Hi). pose proof (lookup_lt_Some _ _ _ Hj).
  apply NoDup_ListNoDup in ND. pose proof (NoDup_lookup _ _ _ _ ND E1 E2) as E.
  assert (i = j) by (destruct (Nat.eqb_spec (S i) (length nb)), (Nat.eqb_spec (S j) (length nb)); lia). subst j. congruence.
Qed.
(** Going round: every point of the neighbourhood comes up. *)
Lemma round nb (P : point -> Prop) a : List.NoDup nb -> In a nb -> P a ->
  (forall p n, In p nb -> P p -> next_clockwise_point nb p = Some n -> P n) -> forall m, In m nb -> P m.
Proof.
  intros ND Ha Pa St.
  assert (F : forall i k p q, nb !! i = Some p -> nb !! (i + k) = Some q -> P p -> P q).
  { intros i k. induction k as [|k IH]; intros p q Hp Hq Pp.
    - rewrite Nat.add_0_r in Hq. congruence.
    - pose proof (lookup_lt_Some _ _ _ Hq) as L. destruct (lookup_lt_is_Some_2 nb (i + k) ltac:(lia)) as [r Hr].
      specialize (IH p r Hp Hr Pp). destruct (next_clockwise_spec _ _ _ ND Hr) as [E _].
      destruct (Nat.eqb_spec (S (i + k)) (length nb)); [lia|]. rewrite Nat.add_succ_r in Hq. rewrite Hq in E.
      eapply St; [|exact IH|exact E]. apply elem_of_list_In. eapply elem_of_list_lookup_2; eauto. }
  apply elem_of_list_In, elem_of_list_lookup in Ha. destruct Ha as [i Hi]. pose proof (lookup_lt_Some _ _ _ Hi) as Li.
  destruct (lookup_lt_is_Some_2 nb (length nb - 1) ltac:(lia)) as [z Hz].
  assert (Pz : P z) by (apply (F i (length nb - 1 - i) a z Hi); [replace (i + (length nb - 1 - i)) with (length nb - 1) by lia; exact Hz|exact Pa]).
  destruct (lookup_lt_is_Some_2 nb 0 ltac:(lia)) as [f Hf].
  assert (Pf : P f).
  { destruct (next_clockwise_spec _ _ _ ND Hz) as [E _]. replace (S (length nb - 1)) with (length nb) in E by lia. rewrite Nat.eqb_refl, Hf in E.
    eapply St; [|exact Pz|exact E]. apply elem_of_list_In. eapply elem_of_list_lookup_2; eauto. }
  intros m Hm. apply elem_of_list_In, elem_of_list_lookup in Hm. destruct Hm as [j Hj]. apply (F 0 j f m Hf Hj Pf).
Qed.

Lemma iterS {A} (f : A -> A) k x : Nat.iter (S k) f x = f (Nat.iter k f x).
Proof. reflexivity. Qed.

(** ** Orbits of injective maps on finite sets return *)
Lemma orbit_returns {A} `{EqDecision A} (X : list A) (V : A -> Prop) (T : A -> A) x :
  (forall a, V a -> In a X) -> (forall a, V a -> V (T a)) -> (forall a b, V a -> V b -> T a = T b -> a = b) -> V x ->
  exists k, 0 < k /\ Nat.iter k T x = x.
Proof.
  intros HX HV HI Hx.
  assert (VI : forall n, V (Nat.iter n T x)) by (induction n; [exact Hx|apply HV; assumption]).
  assert (C : exists i k, 0 < k /\ Nat.iter i T x = Nat.iter (i + k) T x).
  { destruct (decide (NoDup (map (fun i => Nat.iter i T x) (seq 0 (S (length X)))))) as [ND|ND].
    - exfalso. assert (L : length (map (fun i => Nat.iter i T x) (seq 0 (S (length X)))) <= length X).
      { apply NoDup_incl_length; [apply NoDup_ListNoDup; exact ND|]. intros a Ha. apply in_map_iff in Ha. destruct Ha as (i & <- & _).
        apply HX, VI. }
      rewrite map_length, seq_length in L. lia.
    - assert (G : forall n s, ~ NoDup (map (fun i => Nat.iter i T x) (seq s n)) -> exists i k, 0 < k /\ Nat.iter i T x = Nat.iter (i + k) T x).
      { induction n as [|n IH]; intros s Hs; [destruct Hs; constructor|]. cbn [seq map] in Hs.
        destruct (decide (Nat.iter s T x ∈ map (fun i => Nat.iter i T x) (seq (S s) n))) as [E|E].
        - apply elem_of_list_In, in_map_iff in E. destruct E as (j & Ej & Hj). apply in_seq in Hj. exists s, (j - s). split; [lia|].
          replace (s + (j - s)) with j by lia. symmetry. exact Ej.
        - apply (IH (S s)). intros N. apply Hs. constructor; assumption. }
      eapply G; exact ND. }
  destruct C as (i & k & Hk & E). exists k. split; [exact Hk|]. symmetry.
  revert E. induction i as [|i IH]; intros E; [exact E|]. apply IH. cbn [Nat.add] in E. rewrite !iterS in E. apply HI; [apply VI|apply VI|exact E].
Qed.

(** ** The walk along the contour *)
Lemma chain_snoc dims l : forall c m, chain dims (l ++ [c]) -> adjacent dims c m -> chain dims ((l ++ [c]) ++ [m]).
Proof.
  induction l as [|a l IH]; intros c m H A.
  - cbn. auto.
  - cbn [app] in *. destruct l as [|b l]; cbn [app] in *.
    + cbn in *. tauto.
    + destruct H as [H1 H2]. split; [exact H1|]. apply (IH c m H2 A).
Qed.

Section Trace.
Context (op : point -> bool) (nx ny : nat).
Notation dims := [nx; ny].

Lemma ring_in c m : on_grid dims c -> In m (ring nx ny c) <-> adjacent dims c m.
Proof.
  intros G. inversion G as [|x ? c' ? Hx G']; subst. inversion G' as [|y ? c'' ? Hy G'']; subst. inversion G''; subst.
  cbn [ring]. apply moore_2d_in; assumption.
Qed.
Lemma ring_nodup c : List.NoDup (ring nx ny c).
Proof. destruct c as [|x [|y [|]]]; try constructor. apply moore_2d_nodup. Qed.

Definition valid (st : point * point) : Prop := on_grid dims (fst st) /\ op (fst st) = true /\ In (snd st) (ring nx ny (fst st)).
Definition T (st : point * point) : point * point :=
  let '(c, n) := st in
  if op n then (n, default [] (next_clockwise_point (ring nx ny n) c))
  else (c, default [] (next_clockwise_point (ring nx ny c) n)).

Lemma T_valid st : valid st -> valid (T st) /\
  next_clockwise_point (ring nx ny (fst (T st))) (if op (snd st) then fst st else snd st) = Some (snd (T st)).
Proof.
  destruct st as [c n]. intros (G & Oc & Hn). cbn [fst snd] in *. unfold T.
  assert (A : adjacent dims c n) by (apply ring_in; assumption).
  destruct (op n) eqn:On.
  - assert (Hc : In c (ring nx ny n)) by (apply ring_in; [apply A|apply adjacent_sym; assumption]).
    destruct (next_clockwise_in _ c (ring_nodup n) Hc) as (n' & E & Hn'). rewrite E. cbn [default fst snd]. split; [|exact E].
    split; [apply A|]. split; [exact On|exact Hn'].
  - destruct (next_clockwise_in _ n (ring_nodup c) Hn) as (n' & E & Hn'). rewrite E. cbn [default fst snd]. split; [|exact E].
    split; [exact G|]. split; [exact Oc|exact Hn'].
Qed.
Lemma T_inj a b : valid a -> valid b -> T a = T b -> a = b.
Proof.
  intros Va Vb E. pose proof (proj2 (T_valid _ Va)) as Ea. pose proof (proj2 (T_valid _ Vb)) as Eb.
  rewrite <- E in Eb. destruct a as [c1 n1], b as [c2 n2]. destruct Va as (G1 & O1 & N1), Vb as (G2 & O2 & N2). cbn [fst snd] in *.
  assert (I1 : In c1 (ring nx ny n1)) by (apply ring_in; [apply ring_in in N1; [apply N1|exact G1]|apply adjacent_sym; [exact G1|apply ring_in; assumption]]).
  assert (I2 : In c2 (ring nx ny n2)) by (apply ring_in; [apply ring_in in N2; [apply N2|exact G2]|apply adjacent_sym; [exact G2|apply ring_in; assumption]]).
  assert (F : fst (T (c1, n1)) = fst (T (c2, n2))) by (rewrite E; reflexivity).
  assert (F1 : fst (T (c1, n1)) = if op n1 then n1 else c1) by (cbn; destruct (op n1); reflexivity).
  assert (F2 : fst (T (c2, n2)) = if op n2 then n2 else c2) by (cbn; destruct (op n2); reflexivity).
  rewrite F1 in *. rewrite F2 in F. clear F1 F2.
  destruct (op n1) eqn:E1, (op n2) eqn:E2.
  - subst n2. f_equal. eapply next_clockwise_inj; [apply ring_nodup| | |exact Ea|exact Eb]; assumption.
  - subst c2. assert (c1 = n2) by (eapply next_clockwise_inj; [apply ring_nodup| | |exact Ea|exact Eb]; assumption). congruence.
  - subst n2. assert (n1 = c2) by (eapply next_clockwise_inj; [apply ring_nodup| | |exact Ea|exact Eb]; assumption). congruence.
  - subst c2. f_equal. eapply next_clockwise_inj; [apply ring_nodup| | |exact Ea|exact Eb]; assumption.
Qed.

Lemma iter_succ_r {A} (f : A -> A) k x : Nat.iter (S k) f x = Nat.iter k f (f x).
Proof. induction k as [|k IH]; [reflexivity|].
  change (f (Nat.iter (S k) f x) = f (Nat.iter k f (f x))). rewrite IH. reflexivity. Qed.

(** Starting from a point with an operational neighbour, the walk comes back to it. *)
Lemma walk_returns start n0 : valid (start, n0) -> (exists m, adjacent dims start m /\ op m = true) ->
  exists k, snd (Nat.iter k T (start, n0)) = start.
Proof.
  intros V (m & Am & Om).
  assert (VI : forall k, valid (Nat.iter k T (start, n0))) by (induction k; [exact V|apply T_valid; assumption]).
  destruct (orbit_returns (list_prod (all_points dims) (all_points dims)) valid T (start, n0)) as (k & Hk & Ek).
  { intros [c n] (G & _ & N). cbn [fst snd] in *. apply in_prod; apply all_points_in; [exact G|]. apply ring_in in N; [apply N|exact G]. }
  { intros a Ha. apply T_valid; exact Ha. }
  { exact T_inj. }
  { exact V. }
  (* there are finitely many states before the return: decide whether one of them has the start as the next point *)
  assert (Dec : (exists j, snd (Nat.iter j T (start, n0)) = start) \/ forall j, j < k -> snd (Nat.iter j T (start, n0)) <> start).
  { clear Ek Hk. induction k as [|k [IH|IH]]; [right; lia|left; exact IH|].
    destruct (decide (snd (Nat.iter k T (start, n0)) = start)) as [E|E]; [left; eauto|]. right. intros j Hj.
    destruct (Nat.eq_dec j k) as [->|]; [exact E|apply IH; lia]. }
  destruct Dec as [D|D]; [exact D|exfalso].
  (* then the walk never leaves the start *)
  assert (St : forall j, j <= k -> fst (Nat.iter (k - j) T (start, n0)) = start).
  { induction j as [|j IH]; intros Hj.
    - rewrite Nat.sub_0_r, Ek. reflexivity.
    - specialize (IH ltac:(lia)). replace (k - j) with (S (k - S j)) in IH by lia. rewrite iterS in IH.
      specialize (D (k - S j) ltac:(lia)). destruct (Nat.iter (k - S j) T (start, n0)) as [c n]. cbn [T fst snd] in *.
      destruct (op n); cbn [fst] in IH; congruence. }
  assert (Sn : forall j, j < k -> op (snd (Nat.iter j T (start, n0))) = false).
  { intros j Hj. pose proof (St (k - S j) ltac:(lia)) as E. replace (k - (k - S j)) with (S j) in E by lia. rewrite iterS in E.
    pose proof (D j Hj) as E2. destruct (Nat.iter j T (start, n0)) as [c n]. cbn [T fst snd] in *.
    destruct (op n) eqn:On; [cbn [fst] in E; congruence|reflexivity]. }
  (* so every neighbour of the start comes up, and is non-operational *)
  assert (H : op m = false); [|congruence].
  apply (round (ring nx ny start) (fun p => op p = false /\ exists j, j < k /\ p = snd (Nat.iter j T (start, n0))) n0).
  - apply ring_nodup.
  - apply V.
  - split; [apply (Sn 0 Hk)|]. exists 0. auto.
  - intros p n Hp (Op & j & Hj & ->) E.
    assert (Ej : snd (Nat.iter (S j) T (start, n0)) = n).
    { rewrite iterS. pose proof (St (k - j) ltac:(lia)) as E1. replace (k - (k - j)) with j in E1 by lia.
      destruct (Nat.iter j T (start, n0)) as [c q]. cbn [T fst snd] in *. subst c. rewrite Op, E. reflexivity. }
    destruct (Nat.eq_dec (S j) k) as [E2|E2].
    + rewrite E2, Ek in Ej. cbn in Ej. subst n. split; [apply (Sn 0 Hk)|]. exists 0. auto.
    + rewrite <- Ej. split; [apply Sn; lia|]. exists (S j). split; [lia|reflexivity].
  - apply ring_in; [apply V|exact Am].
Qed.

Lemma trace_loop_some start : forall rounds c n contour dom k, dom_ok op dom -> valid (c, n) -> k <= rounds ->
  snd (Nat.iter k T (c, n)) = start -> exists r, trace_loop op nx ny rounds start c n contour dom = Some r.
Proof.
  induction rounds as [|rounds IH]; intros c n contour dom k D V Hk E; cbn [trace_loop].
  - replace k with 0 in E by lia. cbn in E. rewrite bool_decide_true by exact E. eauto.
  - case_bool_decide as Hs; [eauto|].
    destruct k as [|k]; [cbn in E; contradiction|]. rewrite iter_succ_r in E.
    destruct (ask op dom n) as [b dom'] eqn:Ea. destruct (ask_ok _ _ _ _ _ D Ea) as (-> & D' & _).
    destruct (T_valid _ V) as [V' Ev]. cbn [fst snd] in Ev.
    assert (F : (if op n then n else c) = fst (T (c, n))) by (cbn; destruct (op n); reflexivity).
    rewrite F, Ev. apply (IH _ _ _ _ k); [exact D'|rewrite <- surjective_pairing; exact V'|lia|rewrite <- surjective_pairing; exact E].
Qed.

(** An isolated point is never left, and never found again. *)
Lemma trace_loop_isolated start : on_grid dims start -> (forall m, adjacent dims start m -> op m = false) ->
  forall rounds n contour dom, dom_ok op dom -> In n (ring nx ny start) -> trace_loop op nx ny rounds start start n contour dom = None.
Proof.
  intros G I0. induction rounds as [|rounds IH]; intros n contour dom D Hn; cbn [trace_loop].
  - rewrite bool_decide_false; [reflexivity|]. intros ->. apply ring_in in Hn; [|exact G]. destruct Hn as (_ & _ & N). congruence.
  - pose proof Hn as Hn0. apply ring_in in Hn; [|exact G]. rewrite bool_decide_false by (intros ->; destruct Hn as (_ & _ & N); congruence).
    destruct (ask op dom n) as [b dom'] eqn:Ea. destruct (ask_ok _ _ _ _ _ D Ea) as (-> & D' & _). rewrite (I0 n Hn).
    destruct (next_clockwise_in _ n (ring_nodup start) Hn0) as (n' & E & Hn'). rewrite E. apply IH; assumption.
Qed.

Lemma trace_loop_result start : forall rounds c n pre dom res dom', dom_ok op dom -> valid (c, n) ->
  chain dims (pre ++ [c]) -> Forall (fun p => op p = true /\ is_Some (dom !! p)) (pre ++ [c]) ->
  trace_loop op nx ny rounds start c n (pre ++ [c]) dom = Some (res, dom') ->
  dom_ok op dom' /\ grows dom dom' /\ chain dims res /\ Forall (fun p => op p = true /\ is_Some (dom' !! p)) res /\
  head res = head (pre ++ [c]) /\ (exists z, last res = Some z /\ adjacent dims z start) /\
  (forall p, In p (pre ++ [c]) -> In p res).
Proof.
  induction rounds as [|rounds IH]; intros c n pre dom res dom' D V Ch F H; cbn [trace_loop] in H.
  - case_bool_decide as Hs; [|discriminate]. injection H as <- <-. subst n. split; [exact D|]. split; [apply grows_refl|]. split; [exact Ch|].
    split; [exact F|]. split; [reflexivity|]. split; [|auto]. exists c. split; [apply last_snoc|]. apply ring_in; apply V.
  - case_bool_decide as Hs.
    + injection H as <- <-. subst n. split; [exact D|]. split; [apply grows_refl|]. split; [exact Ch|].
      split; [exact F|]. split; [reflexivity|]. split; [|auto]. exists c. split; [apply last_snoc|]. apply ring_in; apply V.
    + destruct (ask op dom n) as [b d1] eqn:Ea. destruct (ask_ok _ _ _ _ _ D Ea) as (-> & D1 & G1 & K1).
      destruct (T_valid _ V) as [V' Ev]. cbn [fst snd] in Ev.
      assert (F1 : (if op n then n else c) = fst (T (c, n))) by (cbn; destruct (op n); reflexivity).
      rewrite F1, Ev in H.
      assert (Fg : Forall (fun p => op p = true /\ is_Some (d1 !! p)) (pre ++ [c])).
      { eapply Forall_impl; [exact F|]. intros p [H1 H2]. split; [exact H1|apply G1; exact H2]. }
      assert (V2 : valid (fst (T (c, n)), snd (T (c, n)))) by (rewrite <- surjective_pairing; exact V').
      destruct (op n) eqn:On.
      * assert (Hc : fst (T (c, n)) = n) by (rewrite <- F1; reflexivity). rewrite Hc in H.
        assert (A : adjacent dims c n) by (apply ring_in; apply V).
        apply IH in H; [|exact D1|rewrite Hc in V2; exact V2|apply chain_snoc; assumption|apply Forall_app_2; [exact Fg|repeat constructor; assumption]].
        destruct H as (H1 & H2 & H3 & H4 & H5 & H6 & H7). split; [exact H1|]. split; [eapply grows_trans; eauto|]. split; [exact H3|].
        split; [exact H4|]. split; [rewrite H5; destruct pre; reflexivity|]. split; [exact H6|]. intros p Hp. apply H7. apply in_or_app. auto.
      * assert (Hc : fst (T (c, n)) = c) by (rewrite <- F1; reflexivity). rewrite Hc in H.
        apply IH in H; [|exact D1|rewrite Hc in V2; exact V2|exact Ch|exact Fg].
        destruct H as (H1 & H2 & H3 & H4 & H5 & H6 & H7). split; [exact H1|]. split; [eapply grows_trans; eauto|]. split; [exact H3|].
        split; [exact H4|]. split; [exact H5|]. split; [exact H6|exact H7].
Qed.

Lemma first_next start : on_grid dims start -> forall a l, ring nx ny start = a :: l ->
  exists x y n, start = [x; y] /\ (if x =? 0 then Some a else next_clockwise_point (a :: l) [x - 1; y]) = Some n /\ In n (ring nx ny start).
Proof.
  intros G a l E. inversion G as [|x ? c' ? Hx G']; subst. inversion G' as [|y ? c'' ? Hy G'']; subst. inversion G''; subst.
  destruct (Nat.eqb_spec x 0) as [Ex|Ex].
  - exists x, y, a. rewrite E. subst x. split; [reflexivity|]. split; [reflexivity|left; reflexivity].
  - assert (Hin : In [x - 1; y] (ring nx ny [x; y])).
    { apply ring_in; [exact G|]. apply beside_adjacent. split; [repeat constructor; lia|]. exists [], x, (x - 1), [y].
      split; [reflexivity|]. split; [reflexivity|]. lia. }
    destruct (next_clockwise_in _ _ (ring_nodup [x; y]) Hin) as (n & En & Hn). exists x, y, n. split; [reflexivity|].
    destruct (Nat.eqb_spec x 0); [lia|]. rewrite <- E. auto.
Qed.

(** The trace from an operational point ends if and only if the point has an operational neighbour, or no neighbours at all. *)
Lemma trace_contour_ends start dom : dom_ok op dom -> on_grid dims start -> op start = true ->
  (exists rounds r, trace_contour op nx ny rounds start dom = Some r) <->
  ((exists m, adjacent dims start m /\ op m = true) \/ forall m, ~ adjacent dims start m).
Proof.
  intros D G Os. pose proof (ring_in start) as RI. 
  assert (Es : exists x y, start = [x; y]).
  { inversion G as [|x ? c' ? Hx G']; subst. inversion G' as [|y ? c'' ? Hy G'']; subst. inversion G''; subst. eauto. }
  destruct (ring nx ny start) as [|a l] eqn:Er.
  - assert (N : forall m, ~ adjacent dims start m) by (intros m Hm; apply RI in Hm; [destruct Hm|exact G]).
    split; [auto|]. intros _. exists 0. unfold trace_contour. destruct Es as (x & y & ->). rewrite Er. cbn [trace_loop].
    rewrite bool_decide_true by reflexivity. eauto.
  - destruct (first_next start G a l Er) as (x & y & n & -> & En & Hn).
    split.
    + intros (rounds & r & H). left.
      destruct (decide (Exists (fun m => op m = true) (ring nx ny [x; y]))) as [Ex|Ex].
      * apply Exists_exists in Ex. destruct Ex as (m & Hm & Om). exists m. split; [|exact Om]. apply ring_in; [exact G|apply elem_of_list_In; exact Hm].
      * exfalso. unfold trace_contour in H. rewrite Er, En in H.
        rewrite trace_loop_isolated in H; [discriminate|exact G| |exact D|exact Hn].
        intros m Hm. destruct (op m) eqn:Om; [|reflexivity]. destruct Ex. apply Exists_exists. exists m. split; [|exact Om].
        apply elem_of_list_In, ring_in; assumption.
    + intros [Ex|Ex]; [|exfalso; apply (Ex n), ring_in; assumption].
      assert (V : valid ([x; y], n)) by (split; [exact G|split; [exact Os|exact Hn]]).
      destruct (walk_returns _ _ V Ex) as (k & Hk). exists k. unfold trace_contour. rewrite Er, En.
      eapply trace_loop_some; [exact D|exact V|reflexivity|exact Hk].
Qed.

Lemma trace_contour_result start dom rounds res dom' : dom_ok op dom -> on_grid dims start -> op start = true -> is_Some (dom !! start) ->
  trace_contour op nx ny rounds start dom = Some (res, dom') ->
  dom_ok op dom' /\ grows dom dom' /\ chain dims res /\ Forall (fun p => op p = true /\ is_Some (dom' !! p)) res /\
  head res = Some start /\ (res = [start] \/ exists z, last res = Some z /\ adjacent dims z start).
Proof.
  intros D G Os K H. unfold trace_contour in H.
  assert (Es : exists x y, start = [x; y]).
  { inversion G as [|x ? c' ? Hx G']; subst. inversion G' as [|y ? c'' ? Hy G'']; subst. inversion G''; subst. eauto. }
  destruct (ring nx ny start) as [|a l] eqn:Er.
  - destruct Es as (x & y & ->). assert (E : res = [[x; y]] /\ dom' = dom).
    { destruct rounds; cbn [trace_loop] in H; rewrite bool_decide_true in H by reflexivity; injection H as <- <-; auto. }
    destruct E as [-> ->]. split; [exact D|]. split; [apply grows_refl|]. split; [exact Logic.I|].
    split; [repeat constructor; assumption|]. split; [reflexivity|auto].
  - destruct (first_next start G a l Er) as (x & y & n & -> & En & Hn). rewrite En in H.
    assert (V : valid ([x; y], n)) by (split; [exact G|split; [exact Os|exact Hn]]).
    apply (trace_loop_result _ _ _ _ []) in H; [|exact D|exact V|exact Logic.I|repeat constructor; assumption].
    destruct H as (H1 & H2 & H3 & H4 & H5 & H6 & H7). split; [exact H1|]. split; [exact H2|]. split; [exact H3|]. split; [exact H4|].
    split; [exact H5|auto].
Qed.

(** More rounds do not change a result. *)
Lemma trace_loop_more start : forall r1 r2 c n contour dom res, r1 <= r2 ->
  trace_loop op nx ny r1 start c n contour dom = Some res -> trace_loop op nx ny r2 start c n contour dom = Some res.
Proof.
  induction r1 as [|r1 IH]; intros r2 c n contour dom res L H.
  - cbn [trace_loop] in H. case_bool_decide as Hs; [|discriminate]. destruct r2; cbn [trace_loop]; rewrite bool_decide_true by exact Hs; exact H.
  - destruct r2 as [|r2]; [lia|]. cbn [trace_loop] in *. case_bool_decide as Hs; [exact H|].
    destruct (ask op dom n) as [b d1]. destruct (next_clockwise_point _ _) as [n'|]; [|discriminate]. apply (IH r2); [lia|exact H].
Qed.
Lemma trace_contour_more r1 r2 start dom res : r1 <= r2 ->
  trace_contour op nx ny r1 start dom = Some res -> trace_contour op nx ny r2 start dom = Some res.
Proof.
  intros L H. unfold trace_contour in *. destruct start as [|x [|y [|]]]; try discriminate.
  destruct (ring nx ny [x; y]) as [|a l]; [eapply trace_loop_more; eauto|].
  destruct (if x =? 0 then _ else _) as [n|]; [|discriminate]. eapply trace_loop_more; eauto.
Qed.
End Trace.
