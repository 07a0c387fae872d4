(** The outputs. *)
From Coq Require Import ZArith Bool String List Lia.
From stdpp Require Import gmap list strings pretty.
From Verif Require Import CoordModel CoordSpec CoordProofs GridModel GridSpec CoordMap ClockModel GateModel GateSpec GateProofs GateProofs2 GateProofs3
  RouteModel RouteSpec RouteProofs BuildProofs OrthoModel OrthoSpec OrthoProofs OrthoProofs2 OrthoProofs3 OrthoProofs4 OrthoProofs5 OrthoProofs6 OrthoProofs7 OrthoProofs8.
Import ListNotations.
Local Open Scope Z_scope.

Lemma adds_rowfree_from G G' R a y : adds G G' R -> (forall x tg, a < x -> R x y tg -> tg = TV) -> rowfree G a y -> rowfree G' a y.
Proof.
  intros [Sub A] Hr Hc t e H Hy Hx. destruct (G !! t) as [e0|] eqn:E0.
  - pose proof (lookup_weaken _ _ _ _ E0 Sub). assert (e0 = e) by congruence. subst e0. eapply Hc; eassumption.
  - apply (Hr (cx t)); [exact Hx|]. rewrite <- Hy. eapply A; eassumption.
Qed.

Section run.
Context (cl : clocked) (names : list string) (DX DY : Z) (Hdim : cl_dim cl = live DX DY 1).
Notation good := (good cl names).

Lemma po_ok k G outs st a nm y : good k G outs st -> 0 <= DX -> 0 <= y <= DY -> G !! live DX y 0 = None -> fetch G a -> before a (live DX y 0) ->
  good k (<[live DX y 0 := mkE [a] 2 TN None true]> G) (outs ++ [(live DX y 0, nm)]) (create_po st a nm (live DX y 0)).
Proof using Hdim.
  intros [L S] HX HY Hn Ha Hb. constructor.
  - apply lay_po; [exact L|reflexivity|exact Hn|]. apply (inside_inb cl DX DY Hdim); [unfold inside; lia|auto].
  - apply sound_put; cbn [cd cz cx cy live e_tag e_ch e_pi]; auto; try lia; try congruence; try discriminate. intros c [<-|[]]. auto.
Qed.

(** From a tile to the eastern border. *)
Lemma run_east k G outs st a nm : good k G outs st -> fetch G a -> cz a = 0 -> 0 <= cx a < DX -> 0 <= cy a <= DY -> rowfree G (cx a) (cy a) ->
  (forall t e, G !! t = Some e -> cx t = DX -> e_tag e = TN) ->
  exists G', (let '(st1, b) := wire_east st a (live DX (cy a) 0) in good k G' (outs ++ [(live DX (cy a) 0, nm)]) (create_po st1 b nm (live DX (cy a) 0))) /\
    adds G G' (fun x y tg => y = cy a /\ cx a < x /\ ((tg = TH /\ x < DX) \/ (tg = TN /\ x = DX))) /\ used G' a /\
    (forall t, fetch G' t -> G !! t = None -> t = live DX (cy a) 0 \/ used G' t) /\
    (forall env b, gval G env a b -> gval G' env (live DX (cy a) 0) b) /\ (exists e, G' !! live DX (cy a) 0 = Some e /\ e_tag e = TN).
Proof using Hdim.
  intros Hg Ha Hz Hx Hy Hr Hb.
  destruct (wire_ok cl names DX DY Hdim true (Z.to_nat (DX - cx a - 1)) k G outs st a Hg Ha) as (G1 & st1 & b & W1 & Hg1 & S1 & X1 & Y1 & F1 & Z1).
  { intros i Hi. unfold step_x, step_y. rewrite Z.add_0_r. split; [unfold inside; lia|]. apply (row_cfree G (cx a)); [apply Hg|exact Hr|lia]. }
  rewrite wire_east_cells. cbn [cx live]. rewrite W1. unfold step_x, step_y in S1, X1, Y1. rewrite Z.add_0_r in Y1.
  assert (N0 : G !! live DX (cy a) 0 = None).
  { destruct (G !! live DX (cy a) 0) as [e|] eqn:E; [|reflexivity]. pose proof (Hb _ _ E eq_refl). pose proof (Hr _ _ E eq_refl ltac:(cbn; lia)). congruence. }
  assert (N1 : G1 !! live DX (cy a) 0 = None).
  { eapply adds_none; [apply S1| |exact N0]. intros tg (_ & i & Hi & H & _). lia. }
  set (G2 := <[live DX (cy a) 0 := mkE [b] 2 TN None true]> G1).
  assert (Sub : G1 ⊆ G2) by (apply insert_sub, N1).
  assert (Ub : used G2 b) by (eexists _, _; split; [apply lookup_insert|left; reflexivity]).
  exists G2. split; [|split; [|split; [|split; [|split]]]].
  - apply po_ok; [exact Hg1|lia|lia|exact N1|apply S1|]. left. cbn [cx cy live]. lia.
  - eapply adds_trans; [eapply adds_weaken; [|apply S1]|apply adds_put; [exact N1|]].
    + intros x y tg (-> & i & Hi & -> & ->). split; [lia|]. split; [lia|]. left. split; [reflexivity|lia].
    + split; [reflexivity|]. split; [lia|]. right. auto.
  - destruct (sd_src _ _ _ _ _ S1) as [H|H]; [rewrite <- H; exact Ub|eapply used_mono; eassumption].
  - intros t Ht Hn. apply fetch_insert in Ht as [->|Ht]; [auto|]. right. destruct (sd_used _ _ _ _ _ S1 t Ht Hn) as [->|H]; [exact Ub|eapply used_mono; eassumption].
  - intros env v Hv. eapply gval_gate; [apply lookup_insert|reflexivity| |].
    + cbn [e_ch]. constructor; [|constructor]. apply (gval_mono _ _ env Sub), S1, Hv.
    + cbn [e_lit]. destruct v; reflexivity.
  - eexists. split; [apply lookup_insert|reflexivity].
Qed.
End run.

Section outputs.
Context (net : onet) (Hm : mapped net) (Hd : distinct_fanins net) (Hsym : symmetric_gates net).
Context (ec : gmap (nat * nat) color) (Hpa : painted net 0 ec).
Notation edge := (edge net).
Notation N := (o_size net).
Notation col u v := (edge_color ec (u, v)).
Notation nc := (node_color net ec).
Notation avail := (eastern_po_available net ec).
Notation cE := (cE net ec). Notation cS := (cS net ec). Notation cP := (cP net ec).
Notation DX := (DX net ec). Notation DY := (DY net ec).
Context (Hroom : roomy net ec).
Context (cl : clocked) (Hdim : cl_dim cl = live DX DY 1).
Notation names := (o_pi_names net).
Notation good := (good cl names).
Notation linv := (linv net ec cl).
Context (pos : list coord) (Hpos : length pos = N) (k : nat).

(** What the outputs in [rem] still need, those in [seen] being placed. *)
Definition rE (seen rem : list nat) (u : nat) : Prop := avail u = true /\ In u rem /\ ~ In u seen.
Definition rP (seen rem : list nat) (u : nat) : Prop := In u rem /\ (avail u = false \/ (2 <= count_occ Nat.eq_dec (seen ++ rem) u)%nat).

Record oinv (seen rem : list nat) (G : gmap coord ent) (outs : list (coord * string)) (st : glayout) : Prop := mkOinv {
  oi_all : seen ++ rem = map fst (o_pos net);
  oi_good : good k G outs st;
  oi_len : length outs = length seen;
  oi_vals : forall i n t nm, seen !! i = Some n -> outs !! i = Some (t, nm) -> forall env b, computes net env n b -> gval G env t b;
  oi_outs : forall i t nm, outs !! i = Some (t, nm) -> cx t = DX /\ cz t = 0 /\ cd t = false;
  oi_names : forall i n nm t nm', o_pos net !! i = Some (n, nm) -> outs !! i = Some (t, nm') -> nm <> ""%string -> nm' = nm;
  oi_pos : forall u p, pos !! u = Some p -> cd p = false /\ cz p = 0 /\ fetch G p /\ 0 <= cx p < DX /\ 0 <= cy p <= DY;
  oi_pval : forall u p, pos !! u = Some p -> forall env b, computes net env u b -> gval G env p b;
  oi_border : forall t e, G !! t = Some e -> cx t = DX -> e_tag e = TN;
  oi_E : forall u p, rE seen rem u -> pos !! u = Some p -> rowfree G (cx p) (cy p);
  oi_P : forall u p, rP seen rem u -> pos !! u = Some p -> cy p + 1 <= DY /\ G !! live (cx p) (cy p + 1) 0 = None /\ rowfree G (cx p) (cy p + 1);
  oi_EE : forall u v p q, rE seen rem u -> rE seen rem v -> pos !! u = Some p -> pos !! v = Some q -> cy p = cy q -> u = v;
  oi_EP : forall u v p q, rE seen rem u -> rP seen rem v -> pos !! u = Some p -> pos !! v = Some q -> cy p <> cy q + 1;
  oi_PP : forall u v p q, rP seen rem u -> rP seen rem v -> pos !! u = Some p -> pos !! v = Some q -> cy p = cy q -> u = v;
  oi_east : forall u p, In u rem -> avail u = false -> pos !! u = Some p -> cx p + 1 < DX;
  oi_ends : forall t, fetch G t -> used G t \/ In t (map fst outs) \/ exists u, pos !! u = Some t /\ (In u rem \/ uses net u = 0%nat)
}.

Lemma nouts_le u : (count_occ Nat.eq_dec (map fst (o_pos net)) u <= 2)%nat.
Proof using Hm Hpos.
  destruct (o_is_po net u) eqn:E.
  - pose proof (po_lt net Hm u E) as Hu. pose proof (uses_ge net u) as H1. pose proof (uses_le net Hm u Hu) as H2. unfold nouts in H1. destruct (o_is_pi net u); lia.
  - destruct (count_occ Nat.eq_dec (map fst (o_pos net)) u) eqn:E2; [lia|]. assert (o_is_po net u = true) by (apply po_nouts; unfold nouts; lia). congruence.
Qed.
Lemma unavail_once u : o_is_po net u = true -> avail u = false -> count_occ Nat.eq_dec (map fst (o_pos net)) u = 1%nat.
Proof using Hm Hpos.
  intros Hp Ha. pose proof (proj1 (po_nouts net u) Hp) as H. unfold nouts in H. pose proof (po_lt net Hm u Hp) as Hu. pose proof (uses_ge net u) as H1. pose proof (uses_le net Hm u Hu) as H2. unfold nouts in H1.
  assert (length (o_fanouts net u) <> 0%nat). { unfold eastern_po_available in Ha. destruct (o_fanouts net u); [discriminate Ha|cbn; lia]. }
  destruct (o_is_pi net u); lia.
Qed.

Lemma place_output_ok seen n name rem G outs st : oinv seen (n :: rem) G outs st -> (exists i, o_pos net !! i = Some (n, name) /\ length seen = i) ->
  exists G' outs', oinv (seen ++ [n]) rem G' outs' (place_output net ec pos seen (length seen) n name st).
Proof using Hm Hd Hpa Hdim Hpos.
  intros I (i0 & Hi0 & Hlen).
  pose proof (oi_all _ _ _ _ _ I) as Hall. pose proof (nouts_le n) as Hcnt. rewrite <- Hall, count_occ_app in Hcnt. cbn [count_occ] in Hcnt. destruct (Nat.eq_dec n n) as [_|]; [|congruence].
  assert (Hpo : o_is_po net n = true) by (apply po_nouts; unfold nouts; rewrite <- Hall, count_occ_app; cbn [count_occ]; destruct (Nat.eq_dec n n); [lia|congruence]).
  pose proof (po_lt net Hm n Hpo) as HnN. destruct (lookup_lt_is_Some_2 pos n ltac:(lia)) as (p & Hp).
  destruct (oi_pos _ _ _ _ _ I n p Hp) as (Dp & Zp & Fp & Bx & By).
  assert (Emul : existsb (Nat.eqb n) seen = true <-> In n seen).
  { rewrite existsb_exists. split; [intros (x & Hx & E); apply Nat.eqb_eq in E; subst; exact Hx|intros H; exists n; split; [exact H|apply Nat.eqb_refl]]. }
  assert (Ear : cl_dim (g_cl st) = live DX DY 1) by (rewrite (ly_cl _ _ _ _ _ _ (gd_lay _ _ _ _ _ _ (oi_good _ _ _ _ _ I))); exact Hdim).
  (* what remains is claimed before *)
  assert (Erem : forall u, rE (seen ++ [n]) rem u -> rE seen (n :: rem) u /\ u <> n).
  { intros u (A1 & A2 & A3). rewrite in_app_iff in A3. split; [split; [exact A1|split; [right; exact A2|tauto]]|]. intros ->. apply A3. right. left. reflexivity. }
  assert (Prem : forall u, rP (seen ++ [n]) rem u -> rP seen (n :: rem) u).
  { intros u (A1 & A2). split; [right; exact A1|]. rewrite <- app_assoc in A2. exact A2. }
  set (nm' := if String.eqb name "" then ("po" +:+ pretty (length seen))%string else name).
  assert (Fin : forall G' y outs' st', outs' = outs ++ [(live DX y 0, nm')] -> G ⊆ G' -> good k G' outs' st' ->
      (forall env b, computes net env n b -> gval G' env (live DX y 0) b) ->
      (forall t e, G' !! t = Some e -> G !! t = None -> cy t = y /\ (cx t = DX -> e_tag e = TN)) ->
      (forall u q, rE (seen ++ [n]) rem u -> pos !! u = Some q -> cy q <> y) -> (forall u q, rP (seen ++ [n]) rem u -> pos !! u = Some q -> cy q + 1 <> y) ->
      (forall t, fetch G' t -> G !! t = None -> t = live DX y 0 \/ used G' t) -> used G' p ->
      oinv (seen ++ [n]) rem G' outs' st').
  { intros G' y outs' st' -> Sub Hg' Hv Hnew HyE HyP Hend Hup. constructor.
    - rewrite <- app_assoc. exact Hall.
    - exact Hg'.
    - rewrite !app_length, (oi_len _ _ _ _ _ I). reflexivity.
    - intros i u t nm Hu Ht env b Hc. apply lookup_app_Some in Ht as [Ht|[Hge Ht]].
      + rewrite lookup_app_l in Hu by (apply lookup_lt_Some in Ht; rewrite (oi_len _ _ _ _ _ I) in Ht; exact Ht). apply (gval_mono _ _ env Sub). eapply (oi_vals _ _ _ _ _ I); eassumption.
      + rewrite lookup_app_r in Hu by (rewrite (oi_len _ _ _ _ _ I) in Hge; exact Hge). rewrite (oi_len _ _ _ _ _ I) in Ht.
        destruct (i - length seen)%nat; cbn in Hu, Ht; [|discriminate Ht]. injection Hu as <-. injection Ht as <- <-. apply Hv, Hc.
    - intros i t nm Ht. apply lookup_app_Some in Ht as [Ht|[Hge Ht]]; [eapply (oi_outs _ _ _ _ _ I); exact Ht|].
      destruct (i - length outs)%nat; cbn in Ht; [|discriminate Ht]. injection Ht as <- <-. auto.
    - intros i u nm t nm1 Hi Ht Hne. apply lookup_app_Some in Ht as [Ht|[Hge Ht]]; [eapply (oi_names _ _ _ _ _ I); eassumption|].
      destruct (i - length outs)%nat eqn:Ei; cbn in Ht; [|discriminate Ht]. injection Ht as <- <-. rewrite (oi_len _ _ _ _ _ I) in *. assert (i = i0) by lia. subst i.
      rewrite Hi0 in Hi. injection Hi as -> ->. unfold nm'. destruct (String.eqb nm "") eqn:E; [apply String.eqb_eq in E; congruence|reflexivity].
    - intros u q Hq. destruct (oi_pos _ _ _ _ _ I u q Hq) as (A1 & A2 & A3 & A4 & A5). repeat (split; [first [assumption|eapply fetch_mono; eassumption]|]). assumption.
    - intros u q Hq env b Hc. apply (gval_mono _ _ env Sub). eapply (oi_pval _ _ _ _ _ I); eassumption.
    - intros t e Ht Hx. destruct (G !! t) as [e0|] eqn:E0; [|apply (Hnew _ _ Ht E0), Hx]. pose proof (lookup_weaken _ _ _ _ E0 Sub). assert (e0 = e) by congruence. subst e0. eapply (oi_border _ _ _ _ _ I); eassumption.
    - intros u q Hu Hq t e Ht Hy Hx. destruct (G !! t) as [e0|] eqn:E0.
      + pose proof (lookup_weaken _ _ _ _ E0 Sub). assert (e0 = e) by congruence. subst e0. eapply (oi_E _ _ _ _ _ I u q); try eassumption. apply Erem, Hu.
      + exfalso. apply (HyE u q Hu Hq). rewrite <- Hy. apply (Hnew _ _ Ht E0).
    - intros u q Hu Hq. destruct (oi_P _ _ _ _ _ I u q (Prem u Hu) Hq) as (A1 & A2 & A3). split; [exact A1|]. split.
      + destruct (G' !! live (cx q) (cy q + 1) 0) as [e|] eqn:E; [|reflexivity]. exfalso. apply (HyP u q Hu Hq). apply (Hnew _ _ E A2).
      + intros t e Ht Hy Hx. destruct (G !! t) as [e0|] eqn:E0.
        * pose proof (lookup_weaken _ _ _ _ E0 Sub). assert (e0 = e) by congruence. subst e0. eapply A3; eassumption.
        * exfalso. apply (HyP u q Hu Hq). rewrite <- Hy. apply (Hnew _ _ Ht E0).
    - intros u v q q' Hu Hv'. apply (oi_EE _ _ _ _ _ I); [apply Erem, Hu|apply Erem, Hv'].
    - intros u v q q' Hu Hv'. apply (oi_EP _ _ _ _ _ I); [apply Erem, Hu|apply Prem, Hv'].
    - intros u v q q' Hu Hv'. apply (oi_PP _ _ _ _ _ I); [apply Prem, Hu|apply Prem, Hv'].
    - intros u q Hu. apply (oi_east _ _ _ _ _ I). right. exact Hu.
    - intros t Ht. rewrite map_app, in_app_iff. destruct (G !! t) as [e0|] eqn:E0.
      + destruct (oi_ends _ _ _ _ _ I t (ex_intro _ _ E0)) as [H|[H|(u & Hu & H)]]; [left; eapply used_mono; eassumption|auto|].
        destruct H as [[<-|H]|H]; [left; assert (t = p) by congruence; subst t; exact Hup|right; right; exists u; auto|right; right; exists u; auto].
      + destruct (Hend t Ht E0) as [->|H]; [right; left; right; left; reflexivity|auto]. }
  assert (Hval : forall env b, computes net env n b -> gval G env p b) by (apply (oi_pval _ _ _ _ _ I); exact Hp).
  unfold place_output. rewrite Hp. cbn [default]. unfold id. rewrite Ear. fold nm'. unfold eastern_border_of, is_at_eastern_border. cbn [cx cy cz live].
  destruct (negb (avail n) || existsb (Nat.eqb n) seen) eqn:Edir.
  - (* leaves to the south *)
    assert (HP : rP seen (n :: rem) n).
    { split; [left; reflexivity|]. apply orb_true_iff in Edir as [H|H]; [left; apply negb_true_iff, H|]. right. apply Emul in H. apply (count_occ_In Nat.eq_dec) in H. rewrite count_occ_app. cbn [count_occ].
      destruct (Nat.eq_dec n n); [lia|congruence]. }
    assert (Hlast : ~ In n rem).
    { intros H. apply (count_occ_In Nat.eq_dec) in H. apply orb_true_iff in Edir as [Ha|Hs].
      - apply negb_true_iff in Ha. pose proof (unavail_once n Hpo Ha) as H1. rewrite <- Hall, count_occ_app in H1. cbn [count_occ] in H1. destruct (Nat.eq_dec n n); [lia|congruence].
      - apply Emul in Hs. apply (count_occ_In Nat.eq_dec) in Hs. lia. }
    destruct (oi_P _ _ _ _ _ I n p HP Hp) as (P1 & P2 & P3).
    destruct (bend_ok cl names DX DY Hdim false 0 k G outs st p (oi_good _ _ _ _ _ I) Fp) as (G1 & st1 & W1 & Hg1 & S1 & U1 & _).
    { intros i Hi. lia. }
    { unfold step_x, step_y, inside. cbn. lia. }
    { unfold step_x, step_y. cbn. rewrite Z.add_0_r. exact P2. }
    unfold step_x, step_y in W1, S1. rewrite Z.add_0_r in W1, S1. change (Z.of_nat 1) with 1 in W1, S1.
    rewrite wire_south_cells. cbn [cy live]. replace (Z.to_nat (cy p + 2 - cy p - 1)) with 1%nat by lia. rewrite W1. cbn [cx cy cz live].
    assert (Enb : (cx p + 1 =? DX) && negb (existsb (Nat.eqb n) seen) = false).
    { destruct (existsb (Nat.eqb n) seen) eqn:Es; [apply andb_false_r|]. rewrite orb_false_r in Edir. apply negb_true_iff in Edir.
      pose proof (oi_east _ _ _ _ _ I n p (or_introl eq_refl) Edir Hp). destruct (cx p + 1 =? DX) eqn:E; [apply Z.eqb_eq in E; lia|reflexivity]. }
    rewrite Enb. pose proof (sd_adds _ _ _ _ _ S1) as A1.
    destruct (run_east cl names DX DY Hdim k G1 outs st1 (live (cx p) (cy p + 1) 0) nm' Hg1) as (G2 & Hw & A2 & U2 & E2 & V2 & _).
    { apply S1. } { reflexivity. } { cbn. lia. } { cbn. lia. }
    { cbn [cx cy live]. eapply adds_rowfree_from; [exact A1| |exact P3]. intros x tg Hx [(_ & i & Hi & _)|(_ & -> & _)]; [cbn in Hi; lia|lia]. }
    { intros t e Ht Hx. destruct (G !! t) as [e0|] eqn:E0.
      - pose proof (lookup_weaken _ _ _ _ E0 (proj1 A1)). assert (e0 = e) by congruence. subst e0. eapply (oi_border _ _ _ _ _ I); eassumption.
      - destruct (proj2 A1 _ _ Ht E0) as [(_ & i & Hi & _)|(H & _)]; [cbn in Hi; lia|exact H]. }
    cbn [cx cy live] in Hw, A2, U2, E2, V2. destruct (wire_east st1 (live (cx p) (cy p + 1) 0) (live DX (cy p + 1) 0)) as [st2 b]. eexists G2, _.
    apply (Fin G2 (cy p + 1) _ _ eq_refl).
    + etransitivity; [apply A1|apply A2].
    + exact Hw.
    + intros env v Hc. apply V2, S1, Hval, Hc.
    + intros t e Ht E0. destruct (G1 !! t) as [e1|] eqn:E1.
      * pose proof (lookup_weaken _ _ _ _ E1 (proj1 A2)). assert (e1 = e) by congruence. subst e1. destruct (proj2 A1 _ _ E1 E0) as [(_ & i & Hi & _)|(Ht1 & _ & Hy1)]; [cbn in Hi; lia|]. auto.
      * destruct (proj2 A2 _ _ Ht E1) as (H1 & _ & H2). split; [exact H1|]. intros Hx. destruct H2 as [[_ H2]|[H2 _]]; [lia|exact H2].
    + intros u q Hu Hq H. destruct (Erem u Hu) as [Hu' _]. exact (oi_EP _ _ _ _ _ I u n q p Hu' HP Hq Hp H).
    + intros u q Hu Hq H. assert (u = n) by (apply (oi_PP _ _ _ _ _ I u n q p (Prem u Hu) HP Hq Hp); lia). subst u. destruct Hu as [Hu _]. contradiction.
    + intros t Ht E0. destruct (G1 !! t) as [e1|] eqn:E1; [|apply E2; assumption]. right. destruct (sd_used _ _ _ _ _ S1 t (ex_intro _ _ E1) E0) as [->|H]; [exact U2|].
      eapply used_mono; [apply A2|exact H].
    + eapply used_mono; [apply A2|exact U1].
  - (* leaves to the east *)
    apply orb_false_iff in Edir as [Ea Es]. apply negb_false_iff in Ea.
    assert (HE : rE seen (n :: rem) n). { split; [exact Ea|]. split; [left; reflexivity|]. intros H. apply Emul in H. congruence. }
    destruct (run_east cl names DX DY Hdim k G outs st p nm' (oi_good _ _ _ _ _ I) Fp Zp Bx By (oi_E _ _ _ _ _ I n p HE Hp) (oi_border _ _ _ _ _ I)) as (G2 & Hw & A2 & U2 & E2 & V2 & _).
    assert (Est : (if (cx p + 1 =? DX) && negb (existsb (Nat.eqb n) seen) then create_po st p nm' (live (cx p + 1) (cy p) (cz p))
        else let '(st1, a) := wire_east st p (live DX (cy p) (cz p)) in create_po st1 a nm' (live DX (cy p) (cz p))) =
        (let '(st1, a) := wire_east st p (live DX (cy p) 0) in create_po st1 a nm' (live DX (cy p) 0))).
    { rewrite Es, Zp, andb_true_r. destruct (cx p + 1 =? DX) eqn:E; [|reflexivity]. apply Z.eqb_eq in E. rewrite wire_east_cells. cbn [cx live].
      replace (Z.to_nat (DX - cx p - 1)) with 0%nat by lia. cbn. rewrite E. reflexivity. }
    rewrite Est. destruct (wire_east st p (live DX (cy p) 0)) as [st2 b]. eexists G2, _. apply (Fin G2 (cy p) _ _ eq_refl).
    + apply A2.
    + exact Hw.
    + intros env v Hc. apply V2, Hval, Hc.
    + intros t e Ht E0. destruct (proj2 A2 _ _ Ht E0) as (H1 & _ & H2). split; [exact H1|]. intros Hx. destruct H2 as [[_ H2]|[H2 _]]; [lia|exact H2].
    + intros u q Hu Hq H. destruct (Erem u Hu) as [Hu' Hun]. apply Hun. exact (oi_EE _ _ _ _ _ I u n q p Hu' HE Hq Hp H).
    + intros u q Hu Hq H. exact (oi_EP _ _ _ _ _ I n u p q HE (Prem u Hu) Hp Hq (eq_sym H)).
    + exact E2.
    + exact U2.
Qed.

Lemma place_outputs_ok : forall l seen G outs st, oinv seen (map fst l) G outs st -> (forall i x, l !! i = Some x -> o_pos net !! (length seen + i)%nat = Some x) ->
  exists G' outs', oinv (seen ++ map fst l) [] G' outs' (place_outputs net ec pos seen (length seen) l st).
Proof using Hm Hd Hpa Hdim Hpos.
  induction l as [|[n nm] l IH]; intros seen G outs st I Hl; cbn [place_outputs map fst].
  - exists G, outs. rewrite app_nil_r. exact I.
  - cbn [map fst] in I. destruct (place_output_ok seen n nm (map fst l) G outs st I) as (G1 & outs1 & I1).
    { exists (length seen). split; [|reflexivity]. specialize (Hl 0%nat (n, nm) eq_refl). rewrite Nat.add_0_r in Hl. exact Hl. }
    destruct (IH (seen ++ [n]) G1 outs1 _ I1) as (G2 & outs2 & I2).
    { intros i x Hx. rewrite app_length. cbn [length]. specialize (Hl (S i) x Hx). rewrite <- Hl. f_equal. lia. }
    exists G2, outs2. rewrite app_length in I2. cbn [length] in I2. rewrite Nat.add_1_r in I2. rewrite <- app_assoc in I2. exact I2.
Qed.
End outputs.
