(** Every step of the placement loop succeeds. *)
From Coq Require Import ZArith Bool String List Lia.
From stdpp Require Import gmap list strings pretty.
From Verif Require Import CoordModel CoordSpec CoordProofs GridModel GridSpec CoordMap ClockModel GateModel GateSpec GateProofs GateProofs2 GateProofs3
  RouteModel RouteSpec RouteProofs BuildProofs OrthoModel OrthoSpec OrthoProofs OrthoProofs2 OrthoProofs3 OrthoProofs4 OrthoProofs5 OrthoProofs6 OrthoProofs7.
Import ListNotations.
Local Open Scope Z_scope.

Section loop.
Context (net : onet) (Hm : mapped net) (Hd : distinct_fanins net) (Hsym : symmetric_gates net).
Context (ec : gmap (nat * nat) color) (Hpa : painted net 0 ec).
Notation edge := (edge net).
Notation N := (o_size net).
Notation col u v := (edge_color ec (u, v)).
Notation nc := (node_color net ec).
Notation avail := (eastern_po_available net ec).
Notation cE := (cE net ec). Notation cS := (cS net ec). Notation cP := (cP net ec).
Notation DX := (DX net ec). Notation DY := (DY net ec).
Context (Hroom : roomy net ec).
Context (cl : clocked) (Hdim : cl_dim cl = live DX DY 1).
Notation names := (o_pi_names net).
Notation good := (good cl names).
Notation linv := (linv net ec cl).

Lemma pi_no_P n k : o_is_pi net n = true -> ~ cP k n.
Proof using Hm.
  intros Hp (_ & Hq & H). destruct (pi_po net Hm n Hp Hq) as [F M]. rewrite M in H. destruct H as [H|H]; [|discriminate H].
  rewrite (no_edge_avail net ec) in H; [discriminate H|]. intros v Hv. apply In_fanouts in Hv. rewrite F in Hv. destruct Hv.
Qed.
Lemma east_no_P n k : nc n = East -> ~ cP k n.
Proof using Hroom. intros Hc (_ & Hq & H). destruct (Hroom n Hq Hc) as [A B]. rewrite A, B in H. destruct H as [H|H]; discriminate H. Qed.
Lemma P_row n k : cP k n -> po_row net ec n = 1.
Proof. intros (_ & Hq & H). unfold po_row. rewrite Hq. destruct H as [->| ->]; cbn; [reflexivity|]. rewrite orb_true_r. reflexivity. Qed.

Lemma pi_step n s G : linv n s G -> (n < N)%nat -> o_is_pi net n = true -> exists s' G', place_node net ec n s = Some s' /\ linv (S n) s' G'.
Proof using Hm Hd Hpa Hdim.
  intros L Hn Hpi. destruct (pi_lookup net n Hpi Hn) as (nm & Hnm). pose proof (node_lt net n Hn) as Hn'. rewrite Hnm in Hn'. injection Hn' as Hn'.
  pose proof (zsum_nonneg _ (seq 0 n) (colX_nonneg net ec)) as Zx. pose proof (zsum_nonneg _ (seq 0 n) (rowY_nonneg net ec)) as Zy.
  pose proof (colX_bound net ec n ltac:(lia)) as Bx. pose proof (colX_bound net ec (S n) ltac:(lia)) as Bx'. pose proof (rowY_bound net ec n ltac:(lia)) as By. pose proof (rowY_bound net ec (S n) ltac:(lia)) as By'.
  rewrite zsum_S in Bx', By'. pose proof (po_row_nonneg net ec n) as Zp.
  pose proof (li_X _ _ _ _ _ _ L) as EX. pose proof (li_Y _ _ _ _ _ _ L) as EY. pose proof (li_good _ _ _ _ _ _ L) as Hg. pose proof (li_geo _ _ _ _ _ _ L) as Hgeo.
  assert (Hk : (os_pis s < length names)%nat) by (rewrite (li_pis _ _ _ _ _ _ L); apply inputs_before_lt; assumption).
  assert (Hk' : S (os_pis s) = inputs_before net (S n)) by (rewrite inputs_before_S, Hpi, (li_pis _ _ _ _ _ _ L) by exact Hn; lia).
  assert (RY : rowY net ec n = 1 + po_row net ec n) by (unfold rowY; rewrite Hpi; reflexivity).
  assert (Hno : forall f, ~ edge f n). { intros f Hf. rewrite (edge_not_pi net f n Hf) in Hpi. discriminate Hpi. }
  assert (Hcv : forall env b, computes net env n b -> b = env (os_pis s)).
  { intros env b Hc. inversion Hc as [x y E|x f ch vs y E]; subst; [|congruence]. rewrite (li_pis _ _ _ _ _ _ L). reflexivity. }
  unfold place_node. rewrite <- Hn'.
  assert (CX : colX net ec n = if match o_fanouts net n with [] => false | m :: _ => color_eqb (nc m) South end then 1 else 0).
  { unfold colX. rewrite Hpi. destruct (o_fanouts net n) as [|m [|m' r]] eqn:E; [reflexivity| |].
    - unfold count. cbn [List.filter]. destruct (color_eqb (nc m) South); reflexivity.
    - exfalso. pose proof (NoDup_fanouts net n) as ND. rewrite E in ND. inversion ND as [|? ? Hx _]. subst. apply Hx. assert (m = m'); [|subst; left; reflexivity].
      apply (pi_edge net Hm n); [exact Hpi| |]; apply In_fanouts; rewrite E; cbn; auto. }
  destruct (match o_fanouts net n with [] => false | m :: _ => color_eqb (nc m) South end) eqn:Ef.
  - destruct (input_south_ok cl names DX DY Hdim (os_pis s) G (os_lyt s) (os_pos s) (os_x s) (os_y s) (cE n) (cS n) (cP n) Hg Hgeo ltac:(lia) ltac:(lia) ltac:(lia) Hk ltac:(lia) ltac:(lia))
      as (G' & st' & st1 & A1 & A2 & A3 & A4 & A5).
    rewrite A1. destruct (wire_east st1 (live 0 (os_y s) 0) (live (os_x s) (os_y s) 0)) as [st2 a] eqn:Ew. subst st'. eexists _, G'. split; [reflexivity|].
    eapply (finish net Hm Hd ec Hpa cl n s G (S (os_pis s)) G'); try eassumption; try lia; cbv beta; auto.
    + intros c [->| ->]; auto.
    + intros H. destruct (pi_no_P n (S n) Hpi H).
    + intros f p Hf. destruct (Hno f Hf).
    + intros env b Hc. rewrite (Hcv _ _ Hc). apply A5.
    + intros f p Hf. destruct (Hno f Hf).
  - destruct (input_plain_ok cl names DX DY Hdim (os_pis s) G (os_lyt s) (os_pos s) (os_x s) (os_y s) (cE n) (cS n) (cP n) Hg Hgeo ltac:(lia) ltac:(lia) ltac:(lia) Hk ltac:(lia))
      as (G' & st' & A1 & A2 & A3 & A4).
    rewrite A1. eexists _, G'. split; [reflexivity|].
    eapply (finish net Hm Hd ec Hpa cl n s G (S (os_pis s)) G'); try eassumption; try lia; cbv beta; auto.
    + intros _. split; [|apply pi_no_P; exact Hpi]. intros (_ & v & _ & He & Hc). destruct (o_fanouts net n) as [|m r] eqn:E.
      * apply In_fanouts in He. rewrite E in He. destruct He.
      * assert (m = v) by (apply (pi_edge net Hm n); [exact Hpi| |exact He]; apply In_fanouts; rewrite E; left; reflexivity). subst m.
        rewrite (nc_edge net Hm Hd ec Hpa n v He (pi_not_exc net Hm ec _ _ Hpi He)), Hc in Ef. discriminate Ef.
    + intros H. destruct (pi_no_P n (S n) Hpi H).
    + intros f p Hf. destruct (Hno f Hf).
    + intros env b Hc. rewrite (Hcv _ _ Hc). apply A4.
    + intros f p Hf. destruct (Hno f Hf).
Qed.

Lemma gate_step n s G : linv n s G -> (n < N)%nat -> o_is_pi net n = false -> exists s' G', place_node net ec n s = Some s' /\ linv (S n) s' G'.
Proof using Hm Hd Hsym Hpa Hroom Hdim.
  intros L Hn Hpi. pose proof (node_lt net n Hn) as Hnd. unfold o_is_pi in Hpi. destruct (o_node net n) as [|f ch] eqn:Eg; [discriminate Hpi|]. clear Hpi.
  assert (Hpi : o_is_pi net n = false) by (unfold o_is_pi; rewrite Eg; reflexivity). assert (Hfi : o_fanins net n = ch) by (unfold o_fanins; rewrite Eg; reflexivity).
  pose proof (Hsym _ _ _ Hnd) as Hcmp.
  pose proof (zsum_nonneg _ (seq 0 n) (colX_nonneg net ec)) as Zx. pose proof (zsum_nonneg _ (seq 0 n) (rowY_nonneg net ec)) as Zy.
  pose proof (colX_bound net ec n ltac:(lia)) as Bx. pose proof (colX_bound net ec (S n) ltac:(lia)) as Bx'. pose proof (rowY_bound net ec n ltac:(lia)) as By. pose proof (rowY_bound net ec (S n) ltac:(lia)) as By'.
  rewrite zsum_S in Bx', By'. pose proof (po_row_nonneg net ec n) as Zp.
  pose proof (li_X _ _ _ _ _ _ L) as EX. pose proof (li_Y _ _ _ _ _ _ L) as EY. pose proof (li_good _ _ _ _ _ _ L) as Hg. pose proof (li_geo _ _ _ _ _ _ L) as Hgeo. pose proof (li_len _ _ _ _ _ _ L) as Hlen.
  assert (Hk' : os_pis s = inputs_before net (S n)) by (rewrite inputs_before_S, Hpi, (li_pis _ _ _ _ _ _ L) by exact Hn; lia).
  assert (RY : rowY net ec n = (match nc n with East => 0 | _ => 1 end) + po_row net ec n) by (unfold rowY; rewrite Hpi; reflexivity).
  assert (CX : colX net ec n = match nc n with South => 0 | _ => 1 end) by (unfold colX; rewrite Hpi; reflexivity).
  assert (Hch : forall u, edge u n <-> In u ch) by (intros u; unfold OrthoProofs.edge; rewrite Hfi; reflexivity).
  assert (Hlt : forall u, In u ch -> (u < n)%nat) by (intros u Hu; apply (edge_lt net Hm u n); apply Hch; exact Hu).
  assert (Hpos : forall u, In u ch -> os_pos s !! u = Some (os_at s u)).
  { intros u Hu. unfold os_at. destruct (lookup_lt_is_Some_2 (os_pos s) u ltac:(specialize (Hlt u Hu); lia)) as (p & ->). reflexivity. }
  assert (HE : forall u, In u ch -> col u n = East -> cE n u) by (intros u Hu Hc; split; [auto|]; left; exists n; split; [lia|]; split; [apply Hch, Hu|exact Hc]).
  assert (HS : forall u, In u ch -> col u n = South -> cS n u) by (intros u Hu Hc; split; [auto|]; exists n; split; [lia|]; split; [apply Hch, Hu|exact Hc]).
  assert (Hval : forall u env b, In u ch -> computes net env u b -> gval G env (os_at s u) b) by (intros u env b Hu Hc; eapply li_val; [exact L|apply Hpos, Hu|exact Hc]).
  assert (Hfacts : forall u, In u ch -> cd (os_at s u) = false /\ cz (os_at s u) = 0 /\ fetch G (os_at s u) /\ 0 <= cx (os_at s u) < os_x s /\ 0 <= cy (os_at s u) < os_y s).
  { intros u Hu. eapply (pos_facts cl names (os_pis s) G (os_lyt s)); [exact Hg|exact Hgeo|apply Hpos, Hu]. }
  assert (Hcomp : forall env b, computes net env n b -> exists vs, Forall2 (computes net env) ch vs /\ boolean_meaning f vs = Some b).
  { intros env b Hc. clear Hfi. inversion Hc as [x y E|x f0 ch0 vs y E F B]; [congruence|]. exists vs. assert (f0 = f) as -> by congruence. assert (ch0 = ch) as -> by congruence. auto. }
  assert (HPn : cP (S n) n -> po_row net ec n = 1) by apply P_row.
  pose proof (east_no_P n (S n)) as HPe.
  assert (OP : forall u p, edge u n -> os_pos s !! u = Some p -> In u ch /\ p = os_at s u).
  { intros u p Hu Hp. apply Hch in Hu. split; [exact Hu|]. rewrite (Hpos u Hu) in Hp. congruence. }
  unfold place_node. rewrite Eg.
  destruct (mp_arity _ Hm _ _ _ Hnd) as [[Hl Hf]|[Hl Hf]].
  - (* one fan-in *)
    destruct ch as [|u [|? ?]]; try discriminate Hl. clear Hl.
    assert (Hu : In u [u]) by (left; reflexivity). assert (Ed : edge u n) by (apply Hch, Hu).
    assert (Hun : unary f = true) by (destruct Hf as [-> | ->]; reflexivity).
    assert (Nx : ~ exc net ec n) by (intros (a & b & E & _); rewrite Hfi in E; discriminate E).
    pose proof (nc_edge net Hm Hd ec Hpa u n Ed Nx) as Hnc. set (p := os_at s u) in *. destruct (Hfacts u Hu) as (_ & _ & _ & Fx & Fy). fold p in Fx, Fy. pose proof (Hpos u Hu) as Pu. fold p in Pu.
    assert (V : forall G' t, (forall env v b, gval G env p v -> compute_lit (lit_of f) [v] = Some b -> gval G' env t b) -> forall env b, computes net env n b -> gval G' env t b).
    { intros G' t H env b Hc. destruct (Hcomp _ _ Hc) as (vs & F2 & B). inversion F2 as [|? v ? vs' Hv F2']. subst. inversion F2'. subst. apply (H env v b); [apply Hval; [exact Hu|exact Hv]|].
      apply lit_meaning; assumption. }
    destruct (col_ok net ec Hpa u n Ed) as [C|C]; rewrite C in Hnc; rewrite Hnc in *.
    + destruct (east1_ok cl names DX DY Hdim (os_pis s) G (os_lyt s) (os_pos s) (os_x s) (os_y s) (cE n) (cS n) (cP n) Hg Hgeo ltac:(lia) ltac:(lia) ltac:(lia) f u p (HE u Hu C) (Hpos u Hu) Hun ltac:(lia))
        as (G' & st' & A1 & A2 & A3 & A4 & A5).
      rewrite A1. eexists _, G'. split; [reflexivity|].
      eapply (finish net Hm Hd ec Hpa cl n s G (os_pis s) G'); try eassumption; try lia; auto; try (intros H; first [destruct (HPe eq_refl H) | rewrite (HPn H); lia]).
      * intros r <-. right. exists u, p. auto 10.
      * intros v q Hv Hq. destruct (OP v q Hv Hq) as [[<-|[]] ->]. left. reflexivity.
      * intros v q Hv _ Hq. destruct (OP v q Hv Hq) as [[<-|[]] ->]. exact A5.
    + destruct (south1_ok cl names DX DY Hdim (os_pis s) G (os_lyt s) (os_pos s) (os_x s) (os_y s) (cE n) (cS n) (cP n) Hg Hgeo ltac:(lia) ltac:(lia) ltac:(lia) f u p (HS u Hu C) (Hpos u Hu) Hun ltac:(lia))
        as (G' & st' & A1 & A2 & A3 & A4).
      rewrite A1. eexists _, G'. split; [reflexivity|].
      destruct (S_col G (os_pos s) (os_x s) (os_y s) (cE n) (cS n) (cP n) Hgeo u p (HS u Hu C) (Hpos u Hu)) as [_ P1].
      eapply (finish net Hm Hd ec Hpa cl n s G (os_pis s) G'); try eassumption; try lia; auto; try (intros H; first [destruct (HPe eq_refl H) | rewrite (HPn H); lia]).
      * intros c <-. right. right. exists u, p. auto 10.
      * intros v q Hv Hq. destruct (OP v q Hv Hq) as [[<-|[]] ->]. left. reflexivity.
      * intros v q Hv Hc Hq. destruct (OP v q Hv Hq) as [[<-|[]] ->]. congruence.
  - (* two fan-ins *)
    destruct ch as [|u1 [|u2 [|? ?]]]; try discriminate Hl. clear Hl.
    assert (Hu1 : In u1 [u1; u2]) by (left; reflexivity). assert (Hu2 : In u2 [u1; u2]) by (right; left; reflexivity).
    assert (Ed1 : edge u1 n) by (apply Hch, Hu1). assert (Ed2 : edge u2 n) by (apply Hch, Hu2).
    assert (Hne : u1 <> u2) by (eapply Hd; exact Hnd).
    assert (Hbin : binary f = true) by (destruct Hf as (F1 & F2 & F3); destruct f; try reflexivity; congruence).
    set (p1 := os_at s u1) in *. set (p2 := os_at s u2) in *.
    pose proof (Hfacts u1 Hu1) as (D1 & Z1 & Ft1 & Fx1 & Fy1). pose proof (Hfacts u2 Hu2) as (D2 & Z2 & Ft2 & Fx2 & Fy2). fold p1 in D1, Z1, Ft1, Fx1, Fy1. fold p2 in D2, Z2, Ft2, Fx2, Fy2.
    pose proof (Hpos u1 Hu1) as Pu1. fold p1 in Pu1. pose proof (Hpos u2 Hu2) as Pu2. fold p2 in Pu2.
    assert (V12 : forall G' t, (forall env v w b, gval G env p1 v -> gval G env p2 w -> compute_lit (lit_of f) [v; w] = Some b -> gval G' env t b) ->
        forall env b, computes net env n b -> gval G' env t b).
    { intros G' t H env b Hc. destruct (Hcomp _ _ Hc) as (vs & F2 & B). inversion F2 as [|? v ? vs' Hv F2']. subst. inversion F2' as [|? w ? vs'' Hw F2'']. subst. inversion F2''. subst.
      apply (H env v w b); [apply Hval; assumption|apply Hval; assumption|]. apply lit_meaning; assumption. }
    assert (V21 : forall G' t, (forall env v w b, gval G env p2 v -> gval G env p1 w -> compute_lit (lit_of f) [v; w] = Some b -> gval G' env t b) ->
        forall env b, computes net env n b -> gval G' env t b).
    { intros G' t H env b Hc. destruct (Hcomp _ _ Hc) as (vs & F2 & B). inversion F2 as [|? v ? vs' Hv F2']. subst. inversion F2' as [|? w ? vs'' Hw F2'']. subst. inversion F2''. subst.
      apply (H env w v b); [apply Hval; assumption|apply Hval; assumption|]. apply lit_sym; assumption. }
    destruct (exc_dec net ec n) as [Hx|Nx].
    + pose proof (nc_exc net ec n Hx) as Hnc. destruct Hx as (a & b & E & Ca & Cb & (w1 & Lw & Ew) & _). rewrite Hfi in E. injection E as <- <-.
      rewrite Hnc in *.
      assert (Hsw : is_empty_tile (os_lyt s) (east (cl_dim (g_cl (os_lyt s))) p1) = false).
      { assert (Cw : col u1 w1 = East) by (apply (siblings' net ec Hpa u1 n w1); try assumption; lia).
        destruct (li_east _ _ _ _ _ _ L u1 w1 p1 Ew Lw Cw (Hpos u1 Hu1)) as (e & He).
        rewrite (ly_cl _ _ _ _ _ _ (gd_lay _ _ _ _ _ _ Hg)), Hdim. unfold east. cbn [cx live].
        destruct (DX <? cx p1) eqn:E1; [apply Z.ltb_lt in E1; lia|]. destruct (cx p1 <? DX) eqn:E2; [|apply Z.ltb_ge in E2; lia].
        rewrite D1, Z1. change (mkC false (cx p1 + 1) (cy p1) 0) with (live (cx p1 + 1) (cy p1) 0).
        destruct (is_empty_tile (os_lyt s) (live (cx p1 + 1) (cy p1) 0)) eqn:Em; [|reflexivity].
        apply (lay_empty _ _ _ _ _ _ (live (cx p1 + 1) (cy p1) 0) (gd_lay _ _ _ _ _ _ Hg) eq_refl) in Em. congruence. }
      rewrite Hsw. cbn [negb orb].
      destruct (corner2_ok cl names DX DY Hdim (os_pis s) G (os_lyt s) (os_pos s) (os_x s) (os_y s) (cE n) (cS n) (cP n) Hg Hgeo ltac:(lia) ltac:(lia) ltac:(lia)
          f u2 p2 u1 p1 (HE u2 Hu2 Cb) (HS u1 Hu1 Ca) (Hpos u2 Hu2) (Hpos u1 Hu1) Hbin ltac:(lia) ltac:(lia)) as (G' & st' & A1 & A2 & A3 & A4 & A5).
      destruct (wire_east (os_lyt s) p2 (live (os_x s + 1) (cy p2) 0)) as [st1 q1] eqn:W1. destruct (wire_south st1 p1 (live (cx p1) (os_y s + 1) 0)) as [st2 q2] eqn:W2.
      rewrite A1. eexists _, G'. split; [reflexivity|].
      eapply (finish net Hm Hd ec Hpa cl n s G (os_pis s) G'); try eassumption; try lia; cbv beta; auto; try (intros H; first [destruct (HPe eq_refl H) | rewrite (HPn H); lia]).
      * intros r [->| ->]; [right; exists u2, p2; auto 10|auto].
      * intros c [->| ->]; [auto|right; right; exists u1, p1; auto 10].
      * intros v q Hv Hq. destruct (OP v q Hv Hq) as [[<-|[<-|[]]] ->]; cbn; auto.
      * intros v q Hv Hc Hq. destruct (OP v q Hv Hq) as [[<-|[<-|[]]] ->]; [congruence|exact A5].
    + pose proof (nc_edge net Hm Hd ec Hpa u1 n Ed1 Nx) as C1. pose proof (nc_edge net Hm Hd ec Hpa u2 n Ed2 Nx) as C2.
      destruct (col_ok net ec Hpa u1 n Ed1) as [C|C]; rewrite C in C1; rewrite C1 in *; symmetry in C2.
      * assert (Hy : cy p1 <> cy p2).
        { intros H. apply Hne. eapply (ge_EE _ _ _ _ _ _ _ Hgeo); [apply HE; [exact Hu1|exact C]|apply HE; [exact Hu2|exact C2]|apply Hpos, Hu1|apply Hpos, Hu2|exact H]. }
        destruct (cy p2 <? cy p1) eqn:Eo; [apply Z.ltb_lt in Eo|apply Z.ltb_ge in Eo].
        -- destruct (east2_ok cl names DX DY Hdim (os_pis s) G (os_lyt s) (os_pos s) (os_x s) (os_y s) (cE n) (cS n) (cP n) Hg Hgeo ltac:(lia) ltac:(lia) ltac:(lia)
              f u2 p2 u1 p1 (HE u2 Hu2 C2) (HE u1 Hu1 C) (Hpos u2 Hu2) (Hpos u1 Hu1) Eo Hbin ltac:(lia)) as (G' & st' & A1 & A2 & A3 & A4 & A5 & A6).
           destruct (wire_east (os_lyt s) p2 (live (os_x s + 1) (cy p2) 0)) as [st1 q1] eqn:W1. rewrite A1. eexists _, G'. split; [reflexivity|].
           eapply (finish net Hm Hd ec Hpa cl n s G (os_pis s) G'); try eassumption; try lia; cbv beta; auto; try (intros H; first [destruct (HPe eq_refl H) | rewrite (HPn H); lia]).
           ++ intros r [->| ->]; right; [exists u2, p2|exists u1, p1]; auto 10.
           ++ intros v q Hv Hq. destruct (OP v q Hv Hq) as [[<-|[<-|[]]] ->]; cbn; auto.
           ++ intros v q Hv _ Hq. destruct (OP v q Hv Hq) as [[<-|[<-|[]]] ->]; [exact A6|exact A5].
        -- assert (Eo' : cy p1 < cy p2) by lia.
           destruct (east2_ok cl names DX DY Hdim (os_pis s) G (os_lyt s) (os_pos s) (os_x s) (os_y s) (cE n) (cS n) (cP n) Hg Hgeo ltac:(lia) ltac:(lia) ltac:(lia)
              f u1 p1 u2 p2 (HE u1 Hu1 C) (HE u2 Hu2 C2) (Hpos u1 Hu1) (Hpos u2 Hu2) Eo' Hbin ltac:(lia)) as (G' & st' & A1 & A2 & A3 & A4 & A5 & A6).
           destruct (wire_east (os_lyt s) p1 (live (os_x s + 1) (cy p1) 0)) as [st1 q1] eqn:W1. rewrite A1. eexists _, G'. split; [reflexivity|].
           eapply (finish net Hm Hd ec Hpa cl n s G (os_pis s) G'); try eassumption; try lia; cbv beta; auto; try (intros H; first [destruct (HPe eq_refl H) | rewrite (HPn H); lia]).
           ++ intros r [->| ->]; right; [exists u1, p1|exists u2, p2]; auto 10.
           ++ intros v q Hv Hq. destruct (OP v q Hv Hq) as [[<-|[<-|[]]] ->]; cbn; auto.
           ++ intros v q Hv _ Hq. destruct (OP v q Hv Hq) as [[<-|[<-|[]]] ->]; [exact A5|exact A6].
      * assert (Hy : cx p1 <> cx p2).
        { intros H. apply Hne. eapply (ge_col _ _ _ _ _ _ _ Hgeo); [left; apply HS; [exact Hu1|exact C]|left; apply HS; [exact Hu2|exact C2]|apply Hpos, Hu1|apply Hpos, Hu2|exact H]. }
        destruct (S_col G (os_pos s) (os_x s) (os_y s) (cE n) (cS n) (cP n) Hgeo u1 p1 (HS u1 Hu1 C) (Hpos u1 Hu1)) as [_ P1].
        destruct (S_col G (os_pos s) (os_x s) (os_y s) (cE n) (cS n) (cP n) Hgeo u2 p2 (HS u2 Hu2 C2) (Hpos u2 Hu2)) as [_ P2].
        destruct (cx p1 <? cx p2) eqn:Eo; [apply Z.ltb_lt in Eo|apply Z.ltb_ge in Eo].
        -- destruct (south2_ok cl names DX DY Hdim (os_pis s) G (os_lyt s) (os_pos s) (os_x s) (os_y s) (cE n) (cS n) (cP n) Hg Hgeo ltac:(lia) ltac:(lia) ltac:(lia)
              f u2 p2 u1 p1 (HS u2 Hu2 C2) (HS u1 Hu1 C) (Hpos u2 Hu2) (Hpos u1 Hu1) Eo Hbin ltac:(lia)) as (G' & st' & A1 & A2 & A3 & A4).
           destruct (wire_south (os_lyt s) p1 (live (cx p1) (os_y s + 1) 0)) as [st1 q1] eqn:W1. rewrite A1. eexists _, G'. split; [reflexivity|].
           eapply (finish net Hm Hd ec Hpa cl n s G (os_pis s) G'); try eassumption; try lia; cbv beta; auto; try (intros H; first [destruct (HPe eq_refl H) | rewrite (HPn H); lia]).
           ++ intros c [->| ->]; right; right; [exists u2, p2|exists u1, p1]; auto 10.
           ++ intros v q Hv Hq. destruct (OP v q Hv Hq) as [[<-|[<-|[]]] ->]; cbn; auto.
           ++ intros v q Hv Hc Hq. destruct (OP v q Hv Hq) as [[<-|[<-|[]]] ->]; congruence.
        -- assert (Eo' : cx p2 < cx p1) by lia.
           destruct (south2_ok cl names DX DY Hdim (os_pis s) G (os_lyt s) (os_pos s) (os_x s) (os_y s) (cE n) (cS n) (cP n) Hg Hgeo ltac:(lia) ltac:(lia) ltac:(lia)
              f u1 p1 u2 p2 (HS u1 Hu1 C) (HS u2 Hu2 C2) (Hpos u1 Hu1) (Hpos u2 Hu2) Eo' Hbin ltac:(lia)) as (G' & st' & A1 & A2 & A3 & A4).
           destruct (wire_south (os_lyt s) p2 (live (cx p2) (os_y s + 1) 0)) as [st1 q1] eqn:W1. rewrite A1. eexists _, G'. split; [reflexivity|].
           eapply (finish net Hm Hd ec Hpa cl n s G (os_pis s) G'); try eassumption; try lia; cbv beta; auto; try (intros H; first [destruct (HPe eq_refl H) | rewrite (HPn H); lia]).
           ++ intros c [->| ->]; right; right; [exists u1, p1|exists u2, p2]; auto 10.
           ++ intros v q Hv Hq. destruct (OP v q Hv Hq) as [[<-|[<-|[]]] ->]; cbn; auto.
           ++ intros v q Hv Hc Hq. destruct (OP v q Hv Hq) as [[<-|[<-|[]]] ->]; congruence.
Qed.

Lemma loop_ok st : good 0 ∅ [] st -> forall n, (n <= N)%nat -> exists s G, fold_opt (place_node net ec) (seq 0 n) (mkOS st 1 0 [] 0) = Some s /\ linv n s G.
Proof using Hm Hd Hsym Hpa Hroom Hdim.
  intros Hg. assert (App : forall (A S : Type) (h : A -> S -> option S) l a s, fold_opt h (l ++ [a]) s = match fold_opt h l s with Some s' => h a s' | None => None end).
  { clear. intros A S h l a. induction l as [|b l IH]; intros s; cbn; [destruct (h a s); reflexivity|]. destruct (h b s); [apply IH|reflexivity]. }
  induction n as [|n IH]; intros Hn.
  - exists (mkOS st 1 0 [] 0), ∅. split; [reflexivity|]. constructor; cbn; auto; try lia.
    + constructor.
      * intros t e H. rewrite lookup_empty in H. discriminate H.
      * intros u p H. destruct u; discriminate H.
      * intros u [H _]. lia.
      * intros u [H _]. lia.
      * intros u [H _]. lia.
      * intros u v p q [H _]. lia.
      * intros u v p q [H _]. lia.
      * intros u v p q [H _]. lia.
      * intros u v p q [[H _]|[H _]]; lia.
    + intros u p H. destruct u; discriminate H.
    + intros t (e & H). rewrite lookup_empty in H. discriminate H.
  - destruct (IH ltac:(lia)) as (s & G & E & L). rewrite seq_S, App, E. cbn [Nat.add]. destruct (o_is_pi net n) eqn:Ep.
    + apply (pi_step n s G L Hn Ep).
    + apply (gate_step n s G L Hn Ep).
Qed.
End loop.
