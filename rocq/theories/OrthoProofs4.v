(** Gates with their wires, and the rows and columns that stay free for signals that are still needed. *)
From Coq Require Import ZArith Bool String List Lia.
From stdpp Require Import gmap list strings pretty.
From Verif Require Import CoordModel CoordSpec CoordProofs GridModel GridSpec CoordMap ClockModel GateModel GateSpec GateProofs GateProofs2 GateProofs3
  RouteModel RouteSpec RouteProofs BuildProofs OrthoModel OrthoProofs2 OrthoProofs3.
Import ListNotations.
Local Open Scope Z_scope.

Lemma zseq_seq a n : zseq a n = map (fun i => a - 1 + Z.of_nat i) (seq 1 n).
Proof. unfold zseq. rewrite <- seq_shift, map_map. apply map_ext. intros i. lia. Qed.
Lemma wire_east_cells st a dest : wire_east st a dest = wire st a (cells true (cx a) (cy a) (Z.to_nat (cx dest - cx a - 1))).
Proof.
  unfold wire_east, cells. rewrite zseq_seq, map_map. f_equal. apply map_ext. intros i. unfold step_x, step_y. f_equal; lia.
Qed.
Lemma wire_south_cells st a dest : wire_south st a dest = wire st a (cells false (cx a) (cy a) (Z.to_nat (cy dest - cy a - 1))).
Proof.
  unfold wire_south, cells. rewrite zseq_seq, map_map. f_equal. apply map_ext. intros i. unfold step_x, step_y. f_equal; lia.
Qed.

Definition rowfree (G : gmap coord ent) (a y : Z) : Prop := forall t e, G !! t = Some e -> cy t = y -> a < cx t -> e_tag e = TV.
Definition colfree (G : gmap coord ent) (a x : Z) : Prop := forall t e, G !! t = Some e -> cx t = x -> a < cy t -> e_tag e = TH.

Lemma row_cfree G a x y : sound G -> rowfree G a y -> a < x -> cfree G true x y.
Proof.
  intros S R Hx. unfold cfree. destruct (G !! live x y 0) as [e|] eqn:E; [right|left; reflexivity].
  pose proof (R _ _ E eq_refl Hx) as Ht. split; [exists e; auto|]. destruct (G !! live x y 1) as [e1|] eqn:E1; [|reflexivity]. exfalso.
  pose proof (R _ _ E1 eq_refl Hx) as Ht1. destruct (s_cross _ S _ _ _ E1) as (e0 & H0 & H). assert (e0 = e) by congruence. subst e0. destruct H; intuition congruence.
Qed.
Lemma col_cfree G a x y : sound G -> colfree G a x -> a < y -> cfree G false x y.
Proof.
  intros S R Hy. unfold cfree. destruct (G !! live x y 0) as [e|] eqn:E; [right|left; reflexivity].
  pose proof (R _ _ E eq_refl Hy) as Ht. split; [exists e; auto|]. destruct (G !! live x y 1) as [e1|] eqn:E1; [|reflexivity]. exfalso.
  pose proof (R _ _ E1 eq_refl Hy) as Ht1. destruct (s_cross _ S _ _ _ E1) as (e0 & H0 & H). assert (e0 = e) by congruence. subst e0. destruct H; intuition congruence.
Qed.
Lemma adds_none G G' R x y z : adds G G' R -> (forall tg, ~ R x y tg) -> G !! live x y z = None -> G' !! live x y z = None.
Proof.
  intros [_ A] Hn H. destruct (G' !! live x y z) as [e|] eqn:E; [|reflexivity]. destruct (Hn _ (A _ _ E H)).
Qed.
Lemma adds_cfree G G' R d x y : adds G G' R -> (forall tg, ~ R x y tg) -> cfree G d x y -> cfree G' d x y.
Proof.
  intros A Hn [H|[(e & H & Ht) H1]].
  - left. eapply adds_none; eassumption.
  - right. split; [exists e; split; [eapply lookup_weaken; [exact H|apply A]|exact Ht]|eapply adds_none; eassumption].
Qed.

Section gates.
Context (cl : clocked) (names : list string) (DX DY : Z) (Hdim : cl_dim cl = live DX DY 1).
Notation good := (good cl names).
Notation inside := (inside DX DY).

(** What placing a node on [t] with the nodes on [src] as fan-ins achieves. *)
Record placing (G G' : gmap coord ent) (R : Z -> Z -> tag -> Prop) (src : list coord) (t : coord) : Prop := mkPlacing {
  pl_adds : adds G G' R;
  pl_tag : exists e, G' !! t = Some e /\ e_tag e = TN;
  pl_used : forall u, fetch G' u -> G !! u = None -> u = t \/ used G' u;
  pl_src : forall s, In s src -> used G' s
}.

(** One fan-in. *)
Lemma place1_ok d n k G outs st f p : good k G outs st -> fetch G p -> cz p = 0 -> unary f = true -> let x := cx p in let y := cy p in
  (forall i, 1 <= i <= Z.of_nat n -> inside (x + step_x d i) (y + step_y d i) /\ cfree G d (x + step_x d i) (y + step_y d i)) ->
  let x1 := x + step_x d (Z.of_nat (S n)) in let y1 := y + step_y d (Z.of_nat (S n)) in inside x1 y1 -> G !! live x1 y1 0 = None ->
  exists G' st', connect_and_place1 st (live x1 y1 0) f p = Some st' /\ good k G' outs st' /\
    placing G G' (fun x' y' tg => (tg = wtag d /\ exists i, 1 <= i <= Z.of_nat n /\ x' = x + step_x d i /\ y' = y + step_y d i) \/ (tg = TN /\ x' = x1 /\ y' = y1)) [p] (live x1 y1 0) /\
    (forall env v b, gval G env p v -> compute_lit (lit_of f) [v] = Some b -> gval G' env (live x1 y1 0) b) /\
    fetch G' (live (x + step_x d 1) (y + step_y d 1) 0).
Proof.
  intros Hg Hp Hz Hf x y Hc x1 y1 Hin Hn.
  destruct (wire_ok cl names DX DY Hdim d n k G outs st p Hg Hp Hc) as (G1 & st1 & a1 & W1 & Hg1 & S1 & X1 & Y1 & F1 & Z1). fold x y in W1, S1, X1, Y1, F1.
  assert (Hn1 : G1 !! live x1 y1 0 = None).
  { eapply adds_none; [apply S1| |exact Hn]. intros tg (_ & i & Hi & Hx & Hy). unfold x1, y1, step_x, step_y in *. destruct d; lia. }
  set (G2 := <[live x1 y1 0 := mkE [a1] (lit_of f) TN None false]> G1).
  assert (Sub : G1 ⊆ G2) by (apply insert_sub, Hn1).
  exists G2, (create_fn st1 f [a1] (live x1 y1 0)).
  assert (Ew : connect_and_place1 st (live x1 y1 0) f p = Some (create_fn st1 f [a1] (live x1 y1 0))).
  { unfold connect_and_place1, is_westwards_of, is_northwards_of. rewrite Hz. cbn [cz cx cy live]. fold x y. unfold x1, y1, step_x, step_y in *. destruct d; cbn [Z.eqb].
    - replace (y + 0 =? y) with true by lia. replace (x <? x + Z.of_nat (S n)) with true by lia. cbn [andb].
      rewrite wire_east_cells. cbn [cx live]. replace (Z.to_nat (cx p + Z.of_nat (S n) - cx p - 1)) with n by lia. fold x y.
      replace (Z.to_nat (x + Z.of_nat (S n) - x - 1)) with n by lia. rewrite W1. unfold place1. rewrite Hf. reflexivity.
    - replace (y + Z.of_nat (S n) =? y) with false by lia. cbn [andb]. replace (y <? y + Z.of_nat (S n)) with true by lia. replace (x + 0 =? x) with true by lia. cbn [andb].
      rewrite wire_south_cells. cbn [cy live]. fold x y. replace (Z.to_nat (y + Z.of_nat (S n) - y - 1)) with n by lia. rewrite W1. unfold place1. rewrite Hf. reflexivity. }
  split; [exact Ew|]. split; [|split; [|split]].
  - apply (put_ok cl names DX DY Hdim); [exact Hg1|exact Hin|exact Hn1|discriminate|]. intros c [<-|[]]. split; [apply S1|].
    unfold before. cbn [cx cy live]. rewrite X1, Y1. unfold x1, y1, step_x, step_y. destruct d; lia.
  - constructor.
    + eapply adds_trans; [eapply adds_weaken; [|apply S1]|]; [intros x' y' tg H; left; exact H|]. apply adds_put; [exact Hn1|]. right. auto.
    + eexists. split; [apply lookup_insert|reflexivity].
    + intros u Hu Hnu. apply fetch_insert in Hu as [->|Hu]; [auto|]. right. destruct (sd_used _ _ _ _ _ S1 u Hu Hnu) as [->|H].
      * eexists _, _. split; [apply lookup_insert|left; reflexivity].
      * eapply used_mono; eassumption.
    + intros s [<-|[]]. destruct (sd_src _ _ _ _ _ S1) as [->|H].
      * eexists _, _. split; [apply lookup_insert|left; reflexivity].
      * eapply used_mono; eassumption.
  - intros env v b Hv Hb. eapply gval_gate; [apply lookup_insert|reflexivity| |exact Hb]. cbn [e_ch]. constructor; [|constructor].
    apply (gval_mono _ _ env Sub). apply S1, Hv.
  - apply fetch_insert. destruct n as [|n]; [left; unfold x1, y1; f_equal|]. right. apply F1. lia.
Qed.

(** Two fan-ins: one north of the gate, one west of it. *)
Lemma place2_ok k G outs st f a b nv nh : good k G outs st -> fetch G a -> fetch G b -> cz a = 0 -> cz b = 0 -> binary f = true ->
  cy b = cy a + Z.of_nat (S nv) -> cx a = cx b + Z.of_nat (S nh) -> let x1 := cx a in let y1 := cy b in
  (forall y, cy a < y < y1 -> inside x1 y /\ cfree G false x1 y) -> (forall x, cx b < x < x1 -> inside x y1 /\ cfree G true x y1) ->
  inside x1 y1 -> G !! live x1 y1 0 = None ->
  exists G' st', connect_and_place2 st (live x1 y1 0) f a b = Some st' /\ good k G' outs st' /\
    placing G G' (fun x' y' tg => (tg = TV /\ x' = x1 /\ cy a < y' < y1) \/ (tg = TH /\ y' = y1 /\ cx b < x' < x1) \/ (tg = TN /\ x' = x1 /\ y' = y1)) [a; b] (live x1 y1 0) /\
    (forall env v w r, gval G env a v -> gval G env b w -> compute_lit (lit_of f) [v; w] = Some r -> gval G' env (live x1 y1 0) r) /\
    fetch G' (live (cx b + 1) y1 0).
Proof.
  intros Hg Ha Hb Hza Hzb Hf Hy Hx x1 y1 Hv Hh Hin Hn.
  destruct (wire_ok cl names DX DY Hdim false nv k G outs st a Hg Ha) as (G1 & st1 & a1 & W1 & Hg1 & S1 & X1 & Y1 & F1 & Z1).
  { intros i Hi. unfold step_x, step_y. rewrite Z.add_0_r. apply Hv. unfold y1. lia. }
  unfold step_x, step_y in S1, X1, Y1, F1.
  assert (Hb1 : fetch G1 b) by (eapply fetch_mono; [apply S1|exact Hb]).
  assert (Hn1 : G1 !! live x1 y1 0 = None).
  { eapply adds_none; [apply S1| |exact Hn]. intros tg (_ & i & Hi & Hx' & Hy'). unfold x1, y1 in *. lia. }
  destruct (wire_ok cl names DX DY Hdim true nh k G1 outs st1 b Hg1 Hb1) as (G2 & st2 & b1 & W2 & Hg2 & S2 & X2 & Y2 & F2 & Z2).
  { intros i Hi. unfold step_x, step_y. rewrite Z.add_0_r. destruct (Hh (cx b + i) ltac:(unfold x1; lia)) as [A B]. split; [exact A|].
    eapply adds_cfree; [apply S1| |exact B]. intros tg (_ & j & Hj & Hx' & Hy'). lia. }
  unfold step_x, step_y in S2, X2, Y2, F2.
  assert (Hn2 : G2 !! live x1 y1 0 = None).
  { eapply adds_none; [apply S2| |exact Hn1]. intros tg (_ & i & Hi & Hx' & Hy'). unfold x1, y1 in *. lia. }
  set (G3 := <[live x1 y1 0 := mkE [a1; b1] (lit_of f) TN None false]> G2).
  assert (Sub : G2 ⊆ G3) by (apply insert_sub, Hn2).
  assert (Sub1 : G1 ⊆ G2) by apply S2.
  assert (Ha2 : fetch G2 a1) by (eapply fetch_mono; [exact Sub1|apply S1]).
  exists G3, (create_fn st2 f [a1; b1] (live x1 y1 0)).
  assert (Ew : connect_and_place2 st (live x1 y1 0) f a b = Some (create_fn st2 f [a1; b1] (live x1 y1 0))).
  { unfold connect_and_place2. assert (El : coord_ltb b a = false).
    { unfold coord_ltb. rewrite Hza, Hzb. cbn. replace (cy b <? cy a) with false by lia. replace (cy b =? cy a) with false by lia. reflexivity. }
    rewrite El. rewrite wire_south_cells. cbn [cy live]. replace (Z.to_nat (y1 - cy a - 1)) with nv by (unfold y1; lia). rewrite W1.
    rewrite wire_east_cells. cbn [cx live]. replace (Z.to_nat (x1 - cx b - 1)) with nh by (unfold x1; lia). rewrite W2. unfold place2. rewrite Hf. reflexivity. }
  split; [exact Ew|]. split; [|split; [|split]].
  - apply (put_ok cl names DX DY Hdim); [exact Hg2|exact Hin|exact Hn2|discriminate|]. intros c [<-|[<-|[]]].
    + split; [exact Ha2|]. unfold before. cbn [cx cy live]. rewrite X1, Y1. unfold x1, y1. lia.
    + split; [apply S2|]. unfold before. cbn [cx cy live]. rewrite X2, Y2. unfold x1, y1. lia.
  - assert (Un : forall c, In c [a1; b1] -> used G3 c) by (intros c Hc; eexists _, _; split; [apply lookup_insert|exact Hc]).
    constructor.
    + eapply adds_trans; [eapply adds_weaken; [|apply S1]|eapply adds_trans; [eapply adds_weaken; [|apply S2]|]].
      * intros x' y' tg (-> & i & Hi & -> & ->). left. split; [reflexivity|]. unfold x1, y1. lia.
      * intros x' y' tg (-> & i & Hi & -> & ->). right. left. split; [reflexivity|]. unfold x1, y1. lia.
      * apply adds_put; [exact Hn2|]. right. right. auto.
    + eexists. split; [apply lookup_insert|reflexivity].
    + intros u Hu Hnu. apply fetch_insert in Hu as [->|Hu]; [auto|]. right. destruct (G1 !! u) as [e|] eqn:E1.
      * destruct (sd_used _ _ _ _ _ S1 u (ex_intro _ _ E1) Hnu) as [->|H]; [apply Un; left; reflexivity|]. eapply used_mono; [|exact H]. etransitivity; eassumption.
      * destruct (sd_used _ _ _ _ _ S2 u Hu E1) as [->|H]; [apply Un; right; left; reflexivity|]. eapply used_mono; eassumption.
    + intros s [<-|[<-|[]]].
      * destruct (sd_src _ _ _ _ _ S1) as [->|H]; [apply Un; left; reflexivity|]. eapply used_mono; [|exact H]. etransitivity; eassumption.
      * destruct (sd_src _ _ _ _ _ S2) as [->|H]; [apply Un; right; left; reflexivity|]. eapply used_mono; eassumption.
  - intros env v w r H1 H2 Hr. eapply gval_gate; [apply lookup_insert|reflexivity| |exact Hr]. cbn [e_ch]. constructor; [|constructor; [|constructor]].
    + apply (gval_mono _ _ env Sub), (gval_mono _ _ env Sub1). apply S1, H1.
    + apply (gval_mono _ _ env Sub). apply S2. eapply gval_mono; [apply S1|exact H2].
  - apply fetch_insert. destruct nh as [|nh].
    + left. f_equal. unfold x1. lia.
    + right. specialize (F2 1 ltac:(lia)). rewrite Z.add_0_r in F2. exact F2.
Qed.

(** *** Free rows and columns *)
(** [E]: nodes whose signal is still needed in the east; [S]: in the south; [P]: nodes with an output that leaves one row below. *)
Record geo (G : gmap coord ent) (pos : list coord) (X Y : Z) (E S P : nat -> Prop) : Prop := mkGeo {
  ge_box : forall t e, G !! t = Some e -> cx t < X /\ cy t < Y;
  ge_pos : forall u p, pos !! u = Some p -> cd p = false /\ cz p = 0 /\ exists e, G !! p = Some e /\ e_tag e = TN;
  ge_E : forall u, E u -> exists p, pos !! u = Some p /\ rowfree G (cx p) (cy p);
  ge_S : forall u, S u -> exists p, pos !! u = Some p /\ 1 <= cx p /\ colfree G (cy p) (cx p);
  ge_P : forall u, P u -> exists p, pos !! u = Some p /\ 1 <= cx p /\ cy p + 1 < Y /\ rowfree G (cx p - 1) (cy p + 1) /\ colfree G (cy p) (cx p);
  ge_EE : forall u v p q, E u -> E v -> pos !! u = Some p -> pos !! v = Some q -> cy p = cy q -> u = v;
  ge_EP : forall u v p q, E u -> P v -> pos !! u = Some p -> pos !! v = Some q -> cy p <> cy q + 1;
  ge_PP : forall u v p q, P u -> P v -> pos !! u = Some p -> pos !! v = Some q -> cy p = cy q -> u = v;
  ge_col : forall u v p q, S u \/ P u -> S v \/ P v -> pos !! u = Some p -> pos !! v = Some q -> cx p = cx q -> u = v
}.

(** What a placement step may add: wires along the rows [Rw] and the columns [Cl], everything else where they meet. *)
Definition fits_in (Rw Cl : Z -> Prop) (X' Y' tx ty : Z) (x y : Z) (tg : tag) : Prop :=
  (x < X' /\ y < Y') /\ (x = tx -> y <= ty) /\ (y = ty -> x <= tx) /\ ((tg = TH /\ Rw y) \/ (tg = TV /\ Cl x) \/ (Rw y /\ Cl x)).

Lemma geo_step G G' pos X Y X' Y' (E S P E' S' P' : nat -> Prop) Rw Cl tx ty : geo G pos X Y E S P ->
  adds G G' (fits_in Rw Cl X' Y' tx ty) -> X <= X' -> Y <= Y' ->
  (exists e, G' !! live tx ty 0 = Some e /\ e_tag e = TN) -> (X <= tx \/ Y <= ty) ->
  let n := length pos in
  (forall u p, u <> n -> pos !! u = Some p -> (E' u -> E u /\ ~ Rw (cy p)) /\ (S' u -> S u /\ ~ Cl (cx p)) /\ (P' u -> P u /\ ~ Rw (cy p + 1) /\ ~ Cl (cx p))) ->
  (forall u, E' u \/ S' u \/ P' u -> (u <= n)%nat) ->
  (E' n -> forall u p, u <> n -> pos !! u = Some p -> (E' u -> cy p <> ty) /\ (P' u -> cy p + 1 <> ty)) ->
  (S' n \/ P' n -> 1 <= tx /\ forall u p, u <> n -> pos !! u = Some p -> S' u \/ P' u -> cx p <> tx) ->
  (P' n -> Y <= ty /\ ty + 1 < Y' /\ forall t e, G' !! t = Some e -> cy t <= ty) ->
  geo G' (pos ++ [live tx ty 0]) X' Y' E' S' P'.
Proof.
  intros Hg [Sub A] HX HY Hnew Hcorner n Hold Hdom HE HS HP.
  assert (Lk : forall u p, (pos ++ [live tx ty 0]) !! u = Some p -> (u <> n /\ pos !! u = Some p) \/ (u = n /\ p = live tx ty 0)).
  { intros u p H. apply lookup_app_Some in H as [H|[Hge H]].
    - left. split; [|exact H]. apply lookup_lt_Some in H. unfold n. lia.
    - right. destruct (u - length pos)%nat as [|j] eqn:Ej; cbn in H; [|discriminate H]. unfold n. split; [lia|congruence]. }
  assert (Lt : forall u, (u <= n)%nat -> u <> n -> exists p, pos !! u = Some p).
  { intros u H1 H2. destruct (lookup_lt_is_Some_2 pos u ltac:(unfold n in *; lia)) as (p & Hp). exists p. exact Hp. }
  assert (LkO : forall u p, pos !! u = Some p -> (pos ++ [live tx ty 0]) !! u = Some p) by (intros u p H; apply lookup_app_l_Some; exact H).
  assert (LkN : (pos ++ [live tx ty 0]) !! n = Some (live tx ty 0)) by (rewrite lookup_app_r by (unfold n; lia); unfold n; rewrite Nat.sub_diag; reflexivity).
  assert (Rold : forall a y, rowfree G a y -> ~ Rw y -> rowfree G' a y).
  { intros a y R Hn t e H Hy Hx. destruct (G !! t) as [e0|] eqn:E0.
    - pose proof (lookup_weaken _ _ _ _ E0 Sub). assert (e0 = e) by congruence. subst e0. eapply R; eassumption.
    - destruct (A _ _ H E0) as (_ & _ & _ & [[_ Hr]|[[Hr _]|[Hr _]]]); [rewrite Hy in Hr; contradiction|exact Hr|rewrite Hy in Hr; contradiction]. }
  assert (Cold : forall a x, colfree G a x -> ~ Cl x -> colfree G' a x).
  { intros a x R Hn t e H Hx Hy. destruct (G !! t) as [e0|] eqn:E0.
    - pose proof (lookup_weaken _ _ _ _ E0 Sub). assert (e0 = e) by congruence. subst e0. eapply R; eassumption.
    - destruct (A _ _ H E0) as (_ & _ & _ & [[Hr _]|[[_ Hr]|[_ Hr]]]); [exact Hr|rewrite Hx in Hr; contradiction|rewrite Hx in Hr; contradiction]. }
  assert (Rnew : rowfree G' tx ty).
  { intros t e H Hy Hx. exfalso. destruct (G !! t) as [e0|] eqn:E0.
    - destruct (ge_box _ _ _ _ _ _ _ Hg _ _ E0). lia.
    - destruct (A _ _ H E0) as (_ & _ & Hr & _). specialize (Hr Hy). lia. }
  assert (Cnew : colfree G' ty tx).
  { intros t e H Hx Hy. exfalso. destruct (G !! t) as [e0|] eqn:E0.
    - destruct (ge_box _ _ _ _ _ _ _ Hg _ _ E0). lia.
    - destruct (A _ _ H E0) as (_ & Hr & _ & _). specialize (Hr Hx). lia. }
  assert (Hpb : forall u p, pos !! u = Some p -> cx p < X /\ cy p < Y).
  { intros u p H. destruct (ge_pos _ _ _ _ _ _ _ Hg _ _ H) as (_ & _ & e & He & _). eapply ge_box; eassumption. }
  constructor.
  - intros t e H. destruct (G !! t) as [e0|] eqn:E0; [destruct (ge_box _ _ _ _ _ _ _ Hg _ _ E0); lia|]. apply (A _ _ H E0).
  - intros u p H. apply Lk in H as [[_ H]|[_ ->]].
    + destruct (ge_pos _ _ _ _ _ _ _ Hg _ _ H) as (B1 & B2 & e & He & B3). split; [exact B1|]. split; [exact B2|]. exists e. split; [eapply lookup_weaken; eassumption|exact B3].
    + split; [reflexivity|]. split; [reflexivity|]. exact Hnew.
  - intros u Hu. destruct (Nat.eq_dec u n) as [->|N]; [exists (live tx ty 0); split; [exact LkN|exact Rnew]|].
    destruct (Lt u (Hdom u (or_introl Hu)) N) as (p & Hp). destruct (Hold u p N Hp) as (He & _ & _). destruct (He Hu) as [Eu Hr].
    destruct (ge_E _ _ _ _ _ _ _ Hg u Eu) as (q & Hq & HR). assert (q = p) by congruence. subst q. exists p. split; [auto|]. apply Rold; assumption.
  - intros u Hu. destruct (Nat.eq_dec u n) as [->|N]; [exists (live tx ty 0); split; [exact LkN|split; [apply (HS (or_introl Hu))|exact Cnew]]|].
    destruct (Lt u (Hdom u (or_intror (or_introl Hu))) N) as (p & Hp). destruct (Hold u p N Hp) as (_ & He & _). destruct (He Hu) as [Eu Hr].
    destruct (ge_S _ _ _ _ _ _ _ Hg u Eu) as (q & Hq & Hx & HR). assert (q = p) by congruence. subst q. exists p. split; [auto|]. split; [exact Hx|]. apply Cold; assumption.
  - intros u Hu. destruct (Nat.eq_dec u n) as [->|N].
    + destruct (HP Hu) as (B1 & B2 & B3). exists (live tx ty 0). split; [exact LkN|]. split; [apply (HS (or_intror Hu))|]. split; [exact B2|]. split; [|exact Cnew].
      intros t e H Hy Hx. exfalso. specialize (B3 _ _ H). cbn [cy live] in Hy. lia.
    + destruct (Lt u (Hdom u (or_intror (or_intror Hu))) N) as (p & Hp). destruct (Hold u p N Hp) as (_ & _ & He). destruct (He Hu) as (Eu & Hr & Hc).
      destruct (ge_P _ _ _ _ _ _ _ Hg u Eu) as (q & Hq & Hx & Hy & HR & HC). assert (q = p) by congruence. subst q. exists p. split; [auto|]. split; [exact Hx|].
      split; [lia|]. split; [apply Rold; assumption|apply Cold; assumption].
  - intros u v p q Hu Hv Hp Hq Hy. apply Lk in Hp as [[Nu Hp]|[-> ->]], Hq as [[Nv Hq]|[-> ->]]; auto.
    + eapply (ge_EE _ _ _ _ _ _ _ Hg); try eassumption; [apply (Hold u p Nu Hp), Hu|apply (Hold v q Nv Hq), Hv].
    + destruct (HE Hv u p Nu Hp) as [H _]. destruct (H Hu Hy).
    + destruct (HE Hu v q Nv Hq) as [H _]. destruct (H Hv (eq_sym Hy)).
  - intros u v p q Hu Hv Hp Hq. apply Lk in Hp as [[Nu Hp]|[-> ->]], Hq as [[Nv Hq]|[-> ->]]; auto.
    + eapply (ge_EP _ _ _ _ _ _ _ Hg); try eassumption; [apply (Hold u p Nu Hp), Hu|apply (Hold v q Nv Hq), Hv].
    + cbn [cy live]. destruct (HP Hv) as (B1 & _). destruct (Hpb _ _ Hp). lia.
    + cbn [cy live]. destruct (HE Hu v q Nv Hq) as [_ H]. intros H'. exact (H Hv (eq_sym H')).
    + cbn [cy live]. lia.
  - intros u v p q Hu Hv Hp Hq Hy. apply Lk in Hp as [[Nu Hp]|[-> ->]], Hq as [[Nv Hq]|[-> ->]]; auto.
    + eapply (ge_PP _ _ _ _ _ _ _ Hg); try eassumption; [apply (Hold u p Nu Hp), Hu|apply (Hold v q Nv Hq), Hv].
    + cbn [cy live] in Hy. destruct (HP Hv) as (B1 & _). destruct (Hpb _ _ Hp). lia.
    + cbn [cy live] in Hy. destruct (HP Hu) as (B1 & _). destruct (Hpb _ _ Hq). lia.
  - intros u v p q Hu Hv Hp Hq Hx. assert (Oo : forall u p, u <> n -> pos !! u = Some p -> S' u \/ P' u -> S u \/ P u).
    { clear -Hold. intros u p N H [H1|H1]; destruct (Hold u p N H) as (_ & B & C); [left; apply B, H1|right; apply C, H1]. }
    apply Lk in Hp as [[Nu Hp]|[-> ->]], Hq as [[Nv Hq]|[-> ->]]; auto.
    + eapply (ge_col _ _ _ _ _ _ _ Hg); try eassumption; [apply (Oo u p)|apply (Oo v q)]; assumption.
    + destruct (HS Hv) as (_ & H). destruct (H u p Nu Hp Hu Hx).
    + destruct (HS Hu) as (_ & H). destruct (H v q Nv Hq Hv (eq_sym Hx)).
Qed.
End gates.
