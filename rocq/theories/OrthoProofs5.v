(** The placement of one node, case by case. *)
From Coq Require Import ZArith Bool String List Lia.
From stdpp Require Import gmap list strings pretty.
From Verif Require Import CoordModel CoordSpec CoordProofs GridModel GridSpec CoordMap ClockModel GateModel GateSpec GateProofs GateProofs2 GateProofs3
  RouteModel RouteSpec RouteProofs BuildProofs OrthoModel OrthoProofs2 OrthoProofs3 OrthoProofs4.
Import ListNotations.
Local Open Scope Z_scope.

Lemma placing_weaken G G' (R R' : Z -> Z -> tag -> Prop) src t : (forall x y tg, R x y tg -> R' x y tg) -> placing G G' R src t -> placing G G' R' src t.
Proof. intros H [A B C D]. constructor; auto. eapply adds_weaken; eassumption. Qed.
Lemma adds_colfree G G' R a x : adds G G' R -> (forall y tg, R x y tg -> tg = TH) -> colfree G a x -> colfree G' a x.
Proof.
  intros [Sub A] Hr Hc t e H Hx Hy. destruct (G !! t) as [e0|] eqn:E0.
  - pose proof (lookup_weaken _ _ _ _ E0 Sub). assert (e0 = e) by congruence. subst e0. eapply Hc; eassumption.
  - apply (Hr (cy t)). rewrite <- Hx. eapply A; eassumption.
Qed.
Lemma adds_rowfree G G' R a y : adds G G' R -> (forall x tg, R x y tg -> tg = TV) -> rowfree G a y -> rowfree G' a y.
Proof.
  intros [Sub A] Hr Hc t e H Hx Hy. destruct (G !! t) as [e0|] eqn:E0.
  - pose proof (lookup_weaken _ _ _ _ E0 Sub). assert (e0 = e) by congruence. subst e0. eapply Hc; eassumption.
  - apply (Hr (cx t)). rewrite <- Hx. eapply A; eassumption.
Qed.
(** A strand, then a placement that uses its end. *)
Lemma strand_placing G1 G2 G3 R a b src t : strand G1 G2 R a b -> used G2 a -> placing G2 G3 R src t -> In b src -> placing G1 G3 R (a :: src) t.
Proof.
  intros [A1 A2 A3 A4 A5] Ua [B1 B2 B3 B4] Hb. constructor.
  - eapply adds_trans; eassumption.
  - exact B2.
  - intros u Hu Hn. destruct (G2 !! u) as [e|] eqn:E; [|eauto]. right. destruct (A4 u (ex_intro _ _ E) Hn) as [->|H]; [apply B4, Hb|].
    eapply used_mono; [apply B1|exact H].
  - intros s [<-|Hs]; [eapply used_mono; [apply B1|exact Ua]|apply B4, Hs].
Qed.
Lemma placing_src G G' R src src' t : (forall s, In s src' -> In s src) -> placing G G' R src t -> placing G G' R src' t.
Proof. intros H [A B C D]. constructor; auto. Qed.

Ltac fit := unfold fits_in; rewrite ?Z.add_0_r; split; [lia|]; split; [lia|]; split; [lia|];
  first [left; split; [reflexivity|lia] | right; left; split; [reflexivity|lia] | right; right; split; lia].

Section steps.
Context (cl : clocked) (names : list string) (DX DY : Z) (Hdim : cl_dim cl = live DX DY 1).
Notation good := (good cl names).
Context (k : nat) (G : gmap coord ent) (st : glayout) (pos : list coord) (X Y : Z) (E S P : nat -> Prop).
Context (Hgood : good k G [] st) (Hgeo : geo G pos X Y E S P) (HX1 : 1 <= X) (HXD : X <= DX + 1) (HYD : Y <= DY + 1).

Lemma pos_facts u p : pos !! u = Some p -> cd p = false /\ cz p = 0 /\ fetch G p /\ 0 <= cx p < X /\ 0 <= cy p < Y.
Proof using Hgood Hgeo.
  intros H. destruct (ge_pos _ _ _ _ _ _ _ Hgeo _ _ H) as (A & B & e & He & _). destruct (ge_box _ _ _ _ _ _ _ Hgeo _ _ He).
  destruct (s_live _ (gd_sound _ _ _ _ _ _ Hgood) _ _ He) as (_ & _ & ? & ?). repeat split; auto. exists e. exact He.
Qed.
Lemma col_X y z : G !! live X y z = None.
Proof using Hgeo. destruct (G !! live X y z) as [e|] eqn:H; [|reflexivity]. destruct (ge_box _ _ _ _ _ _ _ Hgeo _ _ H) as [H1 _]. cbn in H1. lia. Qed.
Lemma row_Y x z : G !! live x Y z = None.
Proof using Hgeo. destruct (G !! live x Y z) as [e|] eqn:H; [|reflexivity]. destruct (ge_box _ _ _ _ _ _ _ Hgeo _ _ H) as [_ H1]. cbn in H1. lia. Qed.
Lemma E_row u p : E u -> pos !! u = Some p -> rowfree G (cx p) (cy p).
Proof using Hgeo. intros Hu Hp. destruct (ge_E _ _ _ _ _ _ _ Hgeo u Hu) as (q & Hq & H). assert (q = p) by congruence. subst. exact H. Qed.
Lemma S_col u p : S u -> pos !! u = Some p -> colfree G (cy p) (cx p) /\ 1 <= cx p.
Proof using Hgeo. intros Hu Hp. destruct (ge_S _ _ _ _ _ _ _ Hgeo u Hu) as (q & Hq & H1 & H). assert (q = p) by congruence. subst. auto. Qed.

(** East, one fan-in. *)
Lemma east1_ok f u p : E u -> pos !! u = Some p -> unary f = true -> X <= DX ->
  exists G' st', connect_and_place1 st (live X (cy p) 0) f p = Some st' /\ good k G' [] st' /\
    placing G G' (fits_in (eq (cy p)) (eq X) (X + 1) Y X (cy p)) [p] (live X (cy p) 0) /\
    (forall env v b, gval G env p v -> compute_lit (lit_of f) [v] = Some b -> gval G' env (live X (cy p) 0) b) /\ fetch G' (live (cx p + 1) (cy p) 0).
Proof using Hdim Hgood Hgeo HX1 HXD HYD.
  intros Hu Hp Hf HX. destruct (pos_facts _ _ Hp) as (Dp & Zp & Fp & Bx & By).
  destruct (place1_ok cl names DX DY Hdim true (Z.to_nat (X - cx p - 1)) k G [] st f p Hgood Fp Zp Hf) as (G' & st' & A1 & A2 & A3 & A4 & A5).
  - intros i Hi. unfold step_x, step_y. split; [unfold inside; lia|]. rewrite Z.add_0_r. apply (row_cfree G (cx p)); [apply Hgood|eapply E_row; eassumption|lia].
  - unfold step_x, step_y, inside. lia.
  - unfold step_x, step_y. rewrite Z.add_0_r. replace (cx p + Z.of_nat (Datatypes.S (Z.to_nat (X - cx p - 1)))) with X by lia. apply col_X.
  - unfold step_x, step_y in A1, A3, A4, A5. rewrite Z.add_0_r in A1, A3, A4, A5. replace (cx p + Z.of_nat (Datatypes.S (Z.to_nat (X - cx p - 1)))) with X in A1, A3, A4 by lia.
    exists G', st'. split; [exact A1|]. split; [exact A2|]. split; [|split; [exact A4|exact A5]].
    eapply placing_weaken; [|exact A3]. intros x y tg [(-> & i & Hi & -> & ->)|(-> & -> & ->)]; fit.
Qed.
(** South, one fan-in. *)
Lemma south1_ok f u p : S u -> pos !! u = Some p -> unary f = true -> Y <= DY ->
  exists G' st', connect_and_place1 st (live (cx p) Y 0) f p = Some st' /\ good k G' [] st' /\
    placing G G' (fits_in (eq Y) (eq (cx p)) X (Y + 1) (cx p) Y) [p] (live (cx p) Y 0) /\
    (forall env v b, gval G env p v -> compute_lit (lit_of f) [v] = Some b -> gval G' env (live (cx p) Y 0) b).
Proof using Hdim Hgood Hgeo HX1 HXD HYD.
  intros Hu Hp Hf HX. destruct (pos_facts _ _ Hp) as (Dp & Zp & Fp & Bx & By). destruct (S_col _ _ Hu Hp) as [Cf _].
  destruct (place1_ok cl names DX DY Hdim false (Z.to_nat (Y - cy p - 1)) k G [] st f p Hgood Fp Zp Hf) as (G' & st' & A1 & A2 & A3 & A4 & A5).
  - intros i Hi. unfold step_x, step_y. split; [unfold inside; lia|]. rewrite Z.add_0_r. apply (col_cfree G (cy p)); [apply Hgood|exact Cf|lia].
  - unfold step_x, step_y, inside. lia.
  - unfold step_x, step_y. rewrite Z.add_0_r. replace (cy p + Z.of_nat (Datatypes.S (Z.to_nat (Y - cy p - 1)))) with Y by lia. apply row_Y.
  - unfold step_x, step_y in A1, A3, A4, A5. rewrite Z.add_0_r in A1, A3, A4, A5. replace (cy p + Z.of_nat (Datatypes.S (Z.to_nat (Y - cy p - 1)))) with Y in A1, A3, A4 by lia.
    exists G', st'. split; [exact A1|]. split; [exact A2|]. split; [|exact A4].
    eapply placing_weaken; [|exact A3]. intros x y tg [(-> & i & Hi & -> & ->)|(-> & -> & ->)]; fit.
Qed.

(** East, two fan-ins; the first is the northern one. *)
Lemma east2_ok f u1 p1 u2 p2 : E u1 -> E u2 -> pos !! u1 = Some p1 -> pos !! u2 = Some p2 -> cy p1 < cy p2 -> binary f = true -> X <= DX ->
  exists G' st', (let '(st1, a) := wire_east st p1 (live (X + 1) (cy p1) 0) in connect_and_place2 st1 (live X (cy p2) 0) f a p2) = Some st' /\ good k G' [] st' /\
    placing G G' (fits_in (fun r => r = cy p1 \/ r = cy p2) (eq X) (X + 1) Y X (cy p2)) [p1; p2] (live X (cy p2) 0) /\
    (forall env v w b, gval G env p1 v -> gval G env p2 w -> compute_lit (lit_of f) [v; w] = Some b -> gval G' env (live X (cy p2) 0) b) /\
    fetch G' (live (cx p1 + 1) (cy p1) 0) /\ fetch G' (live (cx p2 + 1) (cy p2) 0).
Proof using Hdim Hgood Hgeo HX1 HXD HYD.
  intros Hu1 Hu2 Hp1 Hp2 Hlt Hf HX. destruct (pos_facts _ _ Hp1) as (Dp1 & Zp1 & Fp1 & Bx1 & By1). destruct (pos_facts _ _ Hp2) as (Dp2 & Zp2 & Fp2 & Bx2 & By2).
  pose proof (E_row _ _ Hu1 Hp1) as R1. pose proof (E_row _ _ Hu2 Hp2) as R2.
  destruct (bend_ok cl names DX DY Hdim true (Z.to_nat (X - cx p1 - 1)) k G [] st p1 Hgood Fp1) as (G1 & st1 & W1 & Hg1 & S1 & U1 & F1).
  { intros i Hi. unfold step_x, step_y. split; [unfold inside; lia|]. rewrite Z.add_0_r. apply (row_cfree G (cx p1)); [apply Hgood|exact R1|lia]. }
  { unfold step_x, step_y, inside. lia. }
  { unfold step_x, step_y. rewrite Z.add_0_r. replace (cx p1 + Z.of_nat (Datatypes.S (Z.to_nat (X - cx p1 - 1)))) with X by lia. apply col_X. }
  unfold step_x, step_y in W1, S1, F1. rewrite Z.add_0_r in W1, S1.
  replace (cx p1 + Z.of_nat (Datatypes.S (Z.to_nat (X - cx p1 - 1)))) with X in W1, S1 by lia.
  rewrite wire_east_cells. cbn [cx live]. replace (Z.to_nat (X + 1 - cx p1 - 1)) with (Datatypes.S (Z.to_nat (X - cx p1 - 1))) by lia. rewrite W1.
  pose proof (sd_adds _ _ _ _ _ S1) as A1.
  set (Rw := fun r => r = cy p1 \/ r = cy p2).
  assert (S1' : strand G G1 (fits_in Rw (eq X) (X + 1) Y X (cy p2)) p1 (live X (cy p1) 0)).
  { eapply strand_weaken; [|exact S1]. intros x y tg [(-> & i & Hi & -> & ->)|(-> & -> & ->)]; unfold Rw; fit. }
  assert (Fp2' : fetch G1 p2) by (eapply fetch_mono; [apply A1|exact Fp2]).
  destruct (place2_ok cl names DX DY Hdim k G1 [] st1 f (live X (cy p1) 0) p2 (Z.to_nat (cy p2 - cy p1 - 1)) (Z.to_nat (X - cx p2 - 1)) Hg1) as (G' & st' & B1 & B2 & B3 & B4 & B5).
  - apply S1.
  - exact Fp2'.
  - reflexivity.
  - exact Zp2.
  - exact Hf.
  - cbn [cy live]. lia.
  - cbn [cx live]. lia.
  - cbn [cx cy live]. intros y Hy. split; [unfold inside; lia|]. left. eapply adds_none; [exact A1| |apply col_X].
    intros tg [(_ & i & Hi & Hx & Hy')|(_ & Hx & Hy')]; lia.
  - cbn [cx cy live]. intros x Hx. split; [unfold inside; lia|]. eapply adds_cfree; [exact A1| |apply (row_cfree G (cx p2)); [apply Hgood|exact R2|lia]].
    intros tg [(_ & i & Hi & Hx' & Hy')|(_ & Hx' & Hy')]; lia.
  - cbn [cx cy live]. unfold inside. lia.
  - cbn [cx live]. eapply adds_none; [exact A1| |apply col_X]. intros tg [(_ & i & Hi & Hx' & Hy')|(_ & Hx' & Hy')]; lia.
  - cbn [cx cy live] in B1, B3, B4, B5. exists G', st'. split; [exact B1|]. split; [exact B2|]. split; [|split; [|split]].
    + apply (placing_src _ _ _ [p1; live X (cy p1) 0; p2]); [intros s [<-|[<-|[]]]; cbn; auto|]. eapply (strand_placing G G1); [exact S1'|exact U1| |left; reflexivity].
      eapply placing_weaken; [|exact B3]. intros x y tg [(-> & -> & Hy)|[(-> & -> & Hx)|(-> & -> & ->)]]; unfold Rw; fit.
    + intros env v w b Hv Hw Hb. apply (B4 env v w b); [apply S1, Hv| |exact Hb]. eapply gval_mono; [apply A1|exact Hw].
    + specialize (F1 1 ltac:(lia)). rewrite Z.add_0_r in F1. eapply fetch_mono; [apply B3|exact F1].
    + exact B5.
Qed.

(** South, two fan-ins; the first is the eastern one. *)
Lemma south2_ok f u1 p1 u2 p2 : S u1 -> S u2 -> pos !! u1 = Some p1 -> pos !! u2 = Some p2 -> cx p2 < cx p1 -> binary f = true -> Y <= DY ->
  exists G' st', (let '(st1, b) := wire_south st p2 (live (cx p2) (Y + 1) 0) in connect_and_place2 st1 (live (cx p1) Y 0) f p1 b) = Some st' /\ good k G' [] st' /\
    placing G G' (fits_in (eq Y) (fun c => c = cx p1 \/ c = cx p2) X (Y + 1) (cx p1) Y) [p1; p2] (live (cx p1) Y 0) /\
    (forall env v w b, gval G env p1 v -> gval G env p2 w -> compute_lit (lit_of f) [v; w] = Some b -> gval G' env (live (cx p1) Y 0) b).
Proof using Hdim Hgood Hgeo HX1 HXD HYD.
  intros Hu1 Hu2 Hp1 Hp2 Hlt Hf HX. destruct (pos_facts _ _ Hp1) as (Dp1 & Zp1 & Fp1 & Bx1 & By1). destruct (pos_facts _ _ Hp2) as (Dp2 & Zp2 & Fp2 & Bx2 & By2).
  destruct (S_col _ _ Hu1 Hp1) as [C1 _]. destruct (S_col _ _ Hu2 Hp2) as [C2 _].
  destruct (bend_ok cl names DX DY Hdim false (Z.to_nat (Y - cy p2 - 1)) k G [] st p2 Hgood Fp2) as (G1 & st1 & W1 & Hg1 & S1 & U1 & F1).
  { intros i Hi. unfold step_x, step_y. split; [unfold inside; lia|]. rewrite Z.add_0_r. apply (col_cfree G (cy p2)); [apply Hgood|exact C2|lia]. }
  { unfold step_x, step_y, inside. lia. }
  { unfold step_x, step_y. rewrite Z.add_0_r. replace (cy p2 + Z.of_nat (Datatypes.S (Z.to_nat (Y - cy p2 - 1)))) with Y by lia. apply row_Y. }
  unfold step_x, step_y in W1, S1, F1. rewrite Z.add_0_r in W1, S1.
  replace (cy p2 + Z.of_nat (Datatypes.S (Z.to_nat (Y - cy p2 - 1)))) with Y in W1, S1 by lia.
  rewrite wire_south_cells. cbn [cy live]. replace (Z.to_nat (Y + 1 - cy p2 - 1)) with (Datatypes.S (Z.to_nat (Y - cy p2 - 1))) by lia. rewrite W1.
  pose proof (sd_adds _ _ _ _ _ S1) as A1.
  set (Cl := fun c => c = cx p1 \/ c = cx p2).
  assert (S1' : strand G G1 (fits_in (eq Y) Cl X (Y + 1) (cx p1) Y) p2 (live (cx p2) Y 0)).
  { eapply strand_weaken; [|exact S1]. intros x y tg [(-> & i & Hi & -> & ->)|(-> & -> & ->)]; unfold Cl; fit. }
  assert (Fp1' : fetch G1 p1) by (eapply fetch_mono; [apply A1|exact Fp1]).
  destruct (place2_ok cl names DX DY Hdim k G1 [] st1 f p1 (live (cx p2) Y 0) (Z.to_nat (Y - cy p1 - 1)) (Z.to_nat (cx p1 - cx p2 - 1)) Hg1) as (G' & st' & B1 & B2 & B3 & B4 & _).
  - exact Fp1'.
  - apply S1.
  - exact Zp1.
  - reflexivity.
  - exact Hf.
  - cbn [cy live]. lia.
  - cbn [cx live]. lia.
  - cbn [cx cy live]. intros y Hy. split; [unfold inside; lia|]. eapply adds_cfree; [exact A1| |apply (col_cfree G (cy p1)); [apply Hgood|exact C1|lia]].
    intros tg [(_ & i & Hi & Hx' & Hy')|(_ & Hx' & Hy')]; lia.
  - cbn [cx cy live]. intros x Hx. split; [unfold inside; lia|]. left. eapply adds_none; [exact A1| |apply row_Y].
    intros tg [(_ & i & Hi & Hx' & Hy')|(_ & Hx' & Hy')]; lia.
  - cbn [cx cy live]. unfold inside. lia.
  - cbn [cx cy live]. eapply adds_none; [exact A1| |apply row_Y]. intros tg [(_ & i & Hi & Hx' & Hy')|(_ & Hx' & Hy')]; lia.
  - cbn [cx cy live] in B1, B3, B4. exists G', st'. split; [exact B1|]. split; [exact B2|]. split.
    + apply (placing_src _ _ _ [p2; p1; live (cx p2) Y 0]); [intros s [<-|[<-|[]]]; cbn; auto|]. eapply (strand_placing G G1); [exact S1'|exact U1| |right; left; reflexivity].
      eapply placing_weaken; [|exact B3]. intros x y tg [(-> & -> & Hy)|[(-> & -> & Hx)|(-> & -> & ->)]]; unfold Cl; fit.
    + intros env v w b Hv Hw Hb. apply (B4 env v w b); [|apply S1, Hw|exact Hb]. eapply gval_mono; [apply A1|exact Hv].
Qed.

(** One fan-in from the west, one from the north. *)
Lemma corner2_ok f u1 p1 u2 p2 : E u1 -> S u2 -> pos !! u1 = Some p1 -> pos !! u2 = Some p2 -> binary f = true -> X <= DX -> Y <= DY ->
  exists G' st', (let '(st1, a) := wire_east st p1 (live (X + 1) (cy p1) 0) in let '(st2, b) := wire_south st1 p2 (live (cx p2) (Y + 1) 0) in
      connect_and_place2 st2 (live X Y 0) f a b) = Some st' /\ good k G' [] st' /\
    placing G G' (fits_in (fun r => r = cy p1 \/ r = Y) (fun c => c = X \/ c = cx p2) (X + 1) (Y + 1) X Y) [p1; p2] (live X Y 0) /\
    (forall env v w b, gval G env p1 v -> gval G env p2 w -> compute_lit (lit_of f) [v; w] = Some b -> gval G' env (live X Y 0) b) /\
    fetch G' (live (cx p1 + 1) (cy p1) 0).
Proof using Hdim Hgood Hgeo HX1 HXD HYD.
  intros Hu1 Hu2 Hp1 Hp2 Hf HX HY. destruct (pos_facts _ _ Hp1) as (Dp1 & Zp1 & Fp1 & Bx1 & By1). destruct (pos_facts _ _ Hp2) as (Dp2 & Zp2 & Fp2 & Bx2 & By2).
  pose proof (E_row _ _ Hu1 Hp1) as R1. destruct (S_col _ _ Hu2 Hp2) as [C2 _].
  destruct (bend_ok cl names DX DY Hdim true (Z.to_nat (X - cx p1 - 1)) k G [] st p1 Hgood Fp1) as (G1 & st1 & W1 & Hg1 & S1 & U1 & F1).
  { intros i Hi. unfold step_x, step_y. split; [unfold inside; lia|]. rewrite Z.add_0_r. apply (row_cfree G (cx p1)); [apply Hgood|exact R1|lia]. }
  { unfold step_x, step_y, inside. lia. }
  { unfold step_x, step_y. rewrite Z.add_0_r. replace (cx p1 + Z.of_nat (Datatypes.S (Z.to_nat (X - cx p1 - 1)))) with X by lia. apply col_X. }
  unfold step_x, step_y in W1, S1, F1. rewrite Z.add_0_r in W1, S1.
  replace (cx p1 + Z.of_nat (Datatypes.S (Z.to_nat (X - cx p1 - 1)))) with X in W1, S1 by lia.
  rewrite wire_east_cells. cbn [cx live]. replace (Z.to_nat (X + 1 - cx p1 - 1)) with (Datatypes.S (Z.to_nat (X - cx p1 - 1))) by lia. rewrite W1.
  pose proof (sd_adds _ _ _ _ _ S1) as A1.
  assert (Fp2' : fetch G1 p2) by (eapply fetch_mono; [apply A1|exact Fp2]).
  assert (C2' : colfree G1 (cy p2) (cx p2)).
  { eapply adds_colfree; [exact A1| |exact C2]. intros y tg [(-> & _)|(_ & Hx & _)]; [reflexivity|lia]. }
  assert (N1 : forall x, G1 !! live x Y 0 = None).
  { intros x. eapply adds_none; [exact A1| |apply row_Y]. intros tg [(_ & i & Hi & Hx' & Hy')|(_ & Hx' & Hy')]; lia. }
  destruct (bend_ok cl names DX DY Hdim false (Z.to_nat (Y - cy p2 - 1)) k G1 [] st1 p2 Hg1 Fp2') as (G2 & st2 & W2 & Hg2 & S2 & U2 & F2).
  { intros i Hi. unfold step_x, step_y. split; [unfold inside; lia|]. rewrite Z.add_0_r. apply (col_cfree G1 (cy p2)); [apply Hg1|exact C2'|lia]. }
  { unfold step_x, step_y, inside. lia. }
  { unfold step_x, step_y. rewrite Z.add_0_r. replace (cy p2 + Z.of_nat (Datatypes.S (Z.to_nat (Y - cy p2 - 1)))) with Y by lia. apply N1. }
  unfold step_x, step_y in W2, S2, F2. rewrite Z.add_0_r in W2, S2.
  replace (cy p2 + Z.of_nat (Datatypes.S (Z.to_nat (Y - cy p2 - 1)))) with Y in W2, S2 by lia.
  rewrite wire_south_cells. cbn [cy live]. replace (Z.to_nat (Y + 1 - cy p2 - 1)) with (Datatypes.S (Z.to_nat (Y - cy p2 - 1))) by lia. rewrite W2.
  pose proof (sd_adds _ _ _ _ _ S2) as A2.
  set (Rw := fun r => r = cy p1 \/ r = Y). set (Cl := fun c => c = X \/ c = cx p2).
  assert (S1' : strand G G1 (fits_in Rw Cl (X + 1) (Y + 1) X Y) p1 (live X (cy p1) 0)).
  { eapply strand_weaken; [|exact S1]. intros x y tg [(-> & i & Hi & -> & ->)|(-> & -> & ->)]; unfold Rw, Cl; fit. }
  assert (S2' : strand G1 G2 (fits_in Rw Cl (X + 1) (Y + 1) X Y) p2 (live (cx p2) Y 0)).
  { eapply strand_weaken; [|exact S2]. intros x y tg [(-> & i & Hi & -> & ->)|(-> & -> & ->)]; unfold Rw, Cl; fit. }
  assert (N2 : forall y, y <> cy p1 -> G2 !! live X y 0 = None).
  { intros y Hy. eapply adds_none; [exact A2| |].
    - intros tg [(_ & i & Hi & Hx' & Hy')|(_ & Hx' & Hy')]; lia.
    - eapply adds_none; [exact A1| |apply col_X]. intros tg [(_ & i & Hi & Hx' & Hy')|(_ & Hx' & Hy')]; lia. }
  destruct (place2_ok cl names DX DY Hdim k G2 [] st2 f (live X (cy p1) 0) (live (cx p2) Y 0) (Z.to_nat (Y - cy p1 - 1)) (Z.to_nat (X - cx p2 - 1)) Hg2) as (G' & st' & B1 & B2 & B3 & B4 & _).
  - eapply fetch_mono; [apply A2|apply S1].
  - apply S2.
  - reflexivity.
  - reflexivity.
  - exact Hf.
  - cbn [cy live]. lia.
  - cbn [cx live]. lia.
  - cbn [cx cy live]. intros y Hy. split; [unfold inside; lia|]. left. apply N2. lia.
  - cbn [cx cy live]. intros x Hx. split; [unfold inside; lia|]. left. eapply adds_none; [exact A2| |apply N1].
    intros tg [(_ & i & Hi & Hx' & Hy')|(_ & Hx' & Hy')]; lia.
  - cbn [cx cy live]. unfold inside. lia.
  - cbn [cx cy live]. apply N2. lia.
  - cbn [cx cy live] in B1, B3, B4. exists G', st'. split; [exact B1|]. split; [exact B2|]. split; [|split].
    + apply (placing_src _ _ _ [p1; p2; live X (cy p1) 0; live (cx p2) Y 0]); [intros s [<-|[<-|[]]]; cbn; auto|].
      eapply (strand_placing G G1); [exact S1'|exact U1| |right; left; reflexivity].
      eapply (strand_placing G1 G2); [exact S2'|exact U2| |right; left; reflexivity].
      eapply placing_weaken; [|exact B3]. intros x y tg [(-> & -> & Hy)|[(-> & -> & Hx)|(-> & -> & ->)]]; unfold Rw, Cl; fit.
    + intros env v w b Hv Hw Hb. apply (B4 env v w b); [|apply S2|exact Hb].
      * eapply gval_mono; [apply A2|apply S1, Hv].
      * eapply gval_mono; [apply A1|exact Hw].
    + specialize (F1 1 ltac:(lia)). rewrite Z.add_0_r in F1. eapply fetch_mono; [apply B3|]. eapply fetch_mono; [apply A2|exact F1].
Qed.

(** An input. *)
Lemma input_ok : (k < length names)%nat -> 0 <= Y <= DY -> let G' := <[live 0 Y 0 := mkE [] 2 TN (Some k) false]> G in
  exists st', move_node st (2 + k) (live 0 Y 0) [] = Some st' /\ good (Datatypes.S k) G' [] st' /\ (forall X' tx, X <= X' -> 0 <= tx -> adds G G' (fits_in (eq Y) (fun c => c = 0 \/ c = tx) X' (Y + 1) tx Y)) /\
    (forall env, gval G' env (live 0 Y 0) (env k)).
Proof using Hdim Hgood Hgeo HX1 HXD HYD.
  intros Hk HY G'. destruct Hgood as [L Snd]. destruct (lay_move cl names k G st (live 0 Y 0) L Hk eq_refl (row_Y 0 0)) as (st' & M & L').
  { apply (inside_inb cl DX DY Hdim); [unfold inside; lia|auto]. }
  exists st'. split; [exact M|]. split; [|split].
  - constructor; [exact L'|]. apply sound_put; cbn; auto; try lia; try congruence; try apply row_Y; try (intros c []); try tauto.
  - intros X' tx HX Htx. apply adds_put; [apply row_Y|]. unfold fits_in. split; [lia|]. split; [lia|]. split; [lia|]. right. right. auto.
  - intros env. eapply gval_pi; [apply lookup_insert|reflexivity].
Qed.
Lemma input_plain_ok : (k < length names)%nat -> 0 <= Y <= DY ->
  exists G' st', move_node st (2 + k) (live 0 Y 0) [] = Some st' /\ good (Datatypes.S k) G' [] st' /\
    placing G G' (fits_in (eq Y) (eq 0) X (Y + 1) 0 Y) [] (live 0 Y 0) /\ (forall env, gval G' env (live 0 Y 0) (env k)).
Proof using Hdim Hgood Hgeo HX1 HXD HYD.
  intros Hk HY. destruct (input_ok Hk HY) as (st' & A & B & C & D). eexists _, st'. split; [exact A|]. split; [exact B|]. split; [|exact D]. constructor.
  - eapply adds_weaken; [|apply (C X 0); lia]. intros x y tg (H1 & H2 & H3 & H4). unfold fits_in. split; [exact H1|]. split; [exact H2|]. split; [exact H3|].
    destruct H4 as [H4|[[H4 H5]|[H4 H5]]]; [auto| |]; right; [left|right]; split; auto; destruct H5; auto.
  - eexists. split; [apply lookup_insert|reflexivity].
  - intros u Hu Hn. apply fetch_insert in Hu as [->|(e & He)]; [auto|congruence].
  - intros s [].
Qed.
Lemma input_south_ok : (k < length names)%nat -> 0 <= Y <= DY -> X <= DX ->
  exists G' st' st1, move_node st (2 + k) (live 0 Y 0) [] = Some st1 /\
    (let '(st2, a) := wire_east st1 (live 0 Y 0) (live X Y 0) in create_fn st2 Fbuf [a] (live X Y 0)) = st' /\ good (Datatypes.S k) G' [] st' /\
    placing G G' (fits_in (eq Y) (fun c => c = 0 \/ c = X) (X + 1) (Y + 1) X Y) [] (live X Y 0) /\ (forall env, gval G' env (live X Y 0) (env k)).
Proof using Hdim Hgood Hgeo HX1 HXD HYD.
  intros Hk HY HX. destruct (input_ok Hk HY) as (st1 & A & B & C & D). set (G0 := <[live 0 Y 0 := mkE [] 2 TN (Some k) false]> G) in *.
  assert (F0 : fetch G0 (live 0 Y 0)) by (apply fetch_insert; auto).
  assert (N0 : forall x, 0 < x -> G0 !! live x Y 0 = None) by (intros x Hx; unfold G0; rewrite lookup_insert_ne by (intros [=]; lia); apply row_Y).
  destruct (wire_ok cl names DX DY Hdim true (Z.to_nat (X - 1)) (Datatypes.S k) G0 [] st1 (live 0 Y 0) B F0) as (G1 & st2 & a & W1 & Hg1 & S1 & X1 & Y1 & F1 & Z1).
  { cbn [cx cy live]. intros i Hi. unfold step_x, step_y. rewrite Z.add_0_r. split; [unfold inside; lia|]. left. apply N0. lia. }
  cbn [cx cy live] in W1, S1, X1, Y1, F1. unfold step_x, step_y in S1, X1, Y1, F1.
  assert (Hn1 : G1 !! live X Y 0 = None).
  { eapply adds_none; [apply S1| |apply N0; lia]. intros tg (_ & i & Hi & Hx' & Hy'). lia. }
  set (G2 := <[live X Y 0 := mkE [a] 2 TN None false]> G1).
  assert (Sub : G1 ⊆ G2) by (apply insert_sub, Hn1).
  assert (Ua : used G2 a) by (eexists _, _; split; [apply lookup_insert|left; reflexivity]).
  exists G2. eexists. exists st1. split; [exact A|]. split; [reflexivity|].
  rewrite wire_east_cells. cbn [cx cy live]. replace (Z.to_nat (X - 0 - 1)) with (Z.to_nat (X - 1)) by lia. rewrite W1. split; [|split].
  - apply (put_ok cl names DX DY Hdim (Datatypes.S k) G1 [] st2 [a] 2 X Y Hg1); [unfold inside; lia|exact Hn1|discriminate|]. intros c [<-|[]].
    split; [apply S1|]. unfold before. cbn [cx cy live]. lia.
  - constructor.
    + eapply adds_trans; [apply (C (X + 1) X); lia|]. eapply adds_trans; [eapply adds_weaken; [|apply S1]|].
      * intros x y tg (-> & i & Hi & -> & ->). unfold fits_in. split; [lia|]. split; [lia|]. split; [lia|]. left. split; [reflexivity|lia].
      * apply adds_put; [exact Hn1|]. unfold fits_in. split; [lia|]. split; [lia|]. split; [lia|]. right. right. auto.
    + eexists. split; [apply lookup_insert|reflexivity].
    + intros u Hu Hn. apply fetch_insert in Hu as [->|Hu]; [auto|]. right. destruct (G0 !! u) as [e|] eqn:E0.
      * unfold G0 in E0. apply lookup_insert_Some in E0 as [[<- _]|[_ E0]]; [|congruence].
        destruct (sd_src _ _ _ _ _ S1) as [H|H]; [rewrite <- H; exact Ua|eapply used_mono; eassumption].
      * destruct (sd_used _ _ _ _ _ S1 u Hu E0) as [->|H]; [exact Ua|eapply used_mono; eassumption].
    + intros s [].
  - intros env. eapply gval_gate; [apply lookup_insert|reflexivity| |].
    + cbn [e_ch]. constructor; [|constructor]. apply (gval_mono _ _ env Sub), (sd_val _ _ _ _ _ S1), D.
    + cbn [e_lit]. destruct (env k); reflexivity.
Qed.
End steps.
