(** Proofs about hexagonalization: histories, values on tiles, examples. *)
From Coq Require Import ZArith Bool String List Lia ZifyBool.
From stdpp Require Import gmap list numbers strings.
From Verif Require Import CoordModel CoordSpec CoordProofs GridModel GridSpec GridProofs GridProps CoordMap ClockModel ClockSpec ClockProofs
  GateModel GateSpec GateProofs GateProofs2 GateProofs3 PathSpec RouteModel RouteSpec RouteProofs RouteProofs2 RouteProofs3 BuildProofs HexaModel HexaSpec HexaProofs HexaProofs2.
Import ListNotations.
Local Open Scope Z_scope.

(** Inputs are created once. *)
Lemma nodup_run ops : forall st st', wf st -> List.NoDup (g_in st) -> moves_no_constant ops -> places_inside (cl_dim (g_cl st)) ops ->
  g_run st ops = Some st' -> List.NoDup (g_in st').
Proof.
  induction ops as [|o r IH]; intros st st' Hw Hn Hm Hp Hr; cbn in Hr; [inversion Hr; subst; exact Hn|].
  destruct (g_step st o) as [s1|] eqn:E; [|discriminate].
  inversion Hm as [|? ? M1 M2]; subst. inversion Hp as [|? ? P1 P2]; subst.
  assert (W1 : wf s1). { eapply wf_step; [exact Hw| | |exact E]; constructor; auto. }
  apply (IH s1 st'); auto.
  - destruct (step_in _ _ _ E) as [->|[-> _]]; [exact Hn|]. apply NoDup_ListNoDup in Hn. apply NoDup_ListNoDup. apply NoDup_app.
    split; [exact Hn|]. split; [|apply NoDup_singleton]. intros x Hx Hy. apply elem_of_list_singleton in Hy. subst x.
    apply elem_of_list_In in Hx. apply (w_pis _ Hw) in Hx. lia.
  - destruct (step_dim _ _ _ E) as [-> _]. exact P2.
Qed.
Lemma nodup_reached cl ops st : reached cl ops st -> moves_no_constant ops -> dim_ok (cl_dim cl) -> places_inside (cl_dim cl) ops -> List.NoDup (g_in st).
Proof.
  intros Hr Hm Hd Hp. eapply (nodup_run ops (g_empty cl)); eauto; [|constructor].
  apply (wf_reached cl []); [reflexivity|constructor|exact Hd|constructor].
Qed.

(** Values. *)
Scheme carries_ind2 := Minimality for carries Sort Prop with carries_all_ind2 := Minimality for carries_all Sort Prop.
Combined Scheme carries_mut from carries_ind2, carries_all_ind2.

Section Values.
Context (st h : glayout) (image : coord -> coord) (env : nat -> bool).
Context (Hwf : wf st) (Hm : mirrors st h image) (Hin : forall n, In n (g_in st) -> occupied st (get_tile st n)).
Lemma values_fwd : (forall t b, carries st env t b -> carries h env (image t) b) /\
  (forall ts bs, carries_all st env ts bs -> carries_all h env (map image ts) bs).
Proof.
  apply carries_mut.
  - intros i n Hi. pose proof (f_equal (fun l => l !! i) (m_inputs _ _ _ Hm)) as E. cbn in E. rewrite !list_lookup_fmap, Hi in E. cbn in E.
    destruct (g_in h !! i) as [m|] eqn:Ei; cbn in E; [|discriminate]. injection E as <-. apply carries_input, Ei.
  - intros t vs b Ot Hp _ IH Hc. apply (carries_gate _ _ _ vs).
    + apply (m_occupied _ _ _ Hm). eauto.
    + rewrite (m_is_pi _ _ _ Hm t Ot). exact Hp.
    + rewrite (m_flow _ _ _ Hm t Ot). exact IH.
    + unfold compute in *. rewrite (m_function _ _ _ Hm t Ot). exact Hc.
  - constructor.
  - intros t ts b bs _ IH1 _ IH2. cbn. constructor; auto.
Qed.
Lemma values_bwd : (forall u b, carries h env u b -> forall t, occupied st t -> u = image t -> carries st env t b) /\
  (forall us bs, carries_all h env us bs -> forall ts, (forall t, In t ts -> occupied st t) -> us = map image ts -> carries_all st env ts bs).
Proof.
  apply carries_mut.
  - intros i n Hi t Ot Et. pose proof (f_equal (fun l => l !! i) (m_inputs _ _ _ Hm)) as E. cbn in E. rewrite !list_lookup_fmap, Hi in E. cbn in E.
    destruct (g_in st !! i) as [m|] eqn:Ei; cbn in E; [|discriminate]. injection E as E. rewrite E in Et.
    assert (t = get_tile st m) as ->. { symmetry. apply (m_injective _ _ _ Hm); auto. apply Hin. apply elem_of_list_In. eapply elem_of_list_lookup_2; eauto. }
    apply carries_input, Ei.
  - intros u vs b Ou Hp _ IH Hc t Ot ->. apply (carries_gate _ _ _ vs).
    + exact Ot.
    + rewrite <- (m_is_pi _ _ _ Hm t Ot). exact Hp.
    + apply IH; [|apply (m_flow _ _ _ Hm t Ot)]. intros v Hv. apply (flow_info st v t Hwf Hv).
    + unfold compute in *. rewrite <- (m_function _ _ _ Hm t Ot). exact Hc.
  - intros ts _ E. destruct ts; [constructor|discriminate E].
  - intros u us b bs _ IH1 _ IH2 ts Hts E. destruct ts as [|t ts]; [discriminate E|]. cbn in E. injection E as E1 E2.
    constructor; [apply IH1; [apply Hts; left; reflexivity|exact E1]|apply IH2; [|exact E2]]. intros x Hx. apply Hts. right. exact Hx.
Qed.
End Values.

(** Every tile of a convertible layout carries one value. *)
Section Total.
Context (src : glayout) (ar : coord) (nc : num_clks).
Context (Hwf : wf src) (Hcl : g_cl src = std_layout Cartesian ar (TWODDWAVE nc)) (Hcv : convertible src).
Lemma compute_total t : occupied src t -> is_pi src (get_node src t) = false -> forall vs, length vs = length (incoming_data_flow true src t) ->
  exists b, compute src (get_node src t) vs = Some b.
Proof.
  intros Ot Hp vs Hl. unfold compute. destruct (is_po src (get_node src t)) eqn:Ho.
  - assert (In t (g_out src)). { apply (is_po_In src Hwf Hcv t Ot); auto. }
    destruct (cv_out _ Hcv t H) as (_ & _ & Hw & (u & E) & _). rewrite E in Hl. unfold is_wire in Hw.
    assert (n_lit (node_at src (get_node src t)) = 2) as -> by lia. destruct vs as [|v [|]]; try discriminate Hl. eexists. reflexivity.
  - destruct (cv_gate _ Hcv t Ot Hp Ho) as [(a & E & Hb)|(a & b & E & Hb)]; rewrite E in Hl.
    + destruct vs as [|v [|]]; try discriminate Hl. assert (n_lit (node_at src (get_node src t)) = 2 \/ n_lit (node_at src (get_node src t)) = 3) as [-> | ->] by lia; eexists; reflexivity.
    + destruct vs as [|v [|w [|]]]; try discriminate Hl. set (l := n_lit _) in *. clearbody l.
      assert (l = 4 \/ l = 5 \/ l = 6 \/ l = 7 \/ l = 8 \/ l = 9 \/ l = 10 \/ l = 11 \/ l = 12 \/ l = 13) as K by lia.
      repeat destruct K as [K|K]; subst l; eexists; reflexivity.
Qed.
Lemma carries_total env : forall k t, occupied src t -> (Z.to_nat (cx t + cy t) < k)%nat -> exists b, carries src env t b.
Proof.
  induction k as [|k IH]; intros t Ot Hk; [lia|]. destruct (is_pi src (get_node src t)) eqn:Hp.
  - apply is_pi_In in Hp. apply elem_of_list_In, elem_of_list_lookup in Hp as (i & Hi). exists (env i).
    rewrite <- (occ_tile src Hwf t Ot). apply carries_input, Hi.
  - assert (G : forall us, (forall u, In u us -> flows src u t) -> exists vs, carries_all src env us vs /\ length vs = length us).
    { induction us as [|u us IHu]; intros Hu; [exists []; split; [constructor|reflexivity]|].
      destruct IHu as (vs & V1 & V2); [intros x Hx; apply Hu; right; exact Hx|].
      destruct (flow_dir src ar nc Hwf Hcl u t (Hu u ltac:(left; reflexivity))) as (Ou & _ & Hs & _).
      destruct (IH u Ou) as (b & Hb). { destruct Ou as [(_ & X & Y & _) _]. lia. }
      exists (b :: vs). split; [constructor; auto|cbn; lia]. }
    destruct (G (incoming_data_flow true src t)) as (vs & V1 & V2); [auto|].
    destruct (compute_total t Ot Hp vs V2) as (b & Hb). exists b. apply (carries_gate _ _ _ vs); auto.
Qed.
End Total.

(** Deciding [convertible]. *)
Definition one_two (st : glayout) (t : coord) : bool :=
  let l := n_lit (node_at st (get_node st t)) in
  match incoming_data_flow true st t with [_] => (2 <=? l) && (l <=? 3) | [_; _] => (4 <=? l) && (l <=? 13) | _ => false end.
Definition convb (st : glayout) : bool :=
  let T := diagonal_tiles (cl_dim (g_cl st)) in
  let occ := fun t => negb (is_empty_tile st t) in
  forallb (fun n => negb (cd (get_tile st n)) && is_wire st n && match incoming_data_flow true st (get_tile st n) with [] => true | _ => false end) (g_in st) &&
  bool_decide (NoDup (g_out st)) &&
  forallb (fun o => existsb (coord_eqb o) T && occ o && negb (is_pi st (get_node st o)) && is_wire st (get_node st o) &&
                    match incoming_data_flow true st o with [_] => true | _ => false end &&
                    forallb (fun v => negb (existsb (coord_eqb o) (incoming_data_flow true st v))) T) (g_out st) &&
  forallb (fun t => negb (occ t) || ((is_pi st (get_node st t) || is_po st (get_node st t) || one_two st t) && occ (live (cx t) (cy t) 0))) T.
Lemma convb_ok st : wf st -> convb st = true -> convertible st.
Proof.
  intros Hwf H. destruct (w_dim _ Hwf) as ([Ax _] & [Ay _] & Az).
  assert (HT : forall t, occupied st t -> In t (diagonal_tiles (cl_dim (g_cl st)))) by (intros t Ot; apply diagonal_In; auto; apply Ot).
  unfold convb in H. repeat (apply andb_prop in H as [H ?K]). rewrite forallb_forall in H, K, K0. constructor.
  - intros n Hn. specialize (H n Hn). apply andb_prop in H as [H H2]. apply andb_prop in H as [H H1]. apply negb_true_iff in H.
    split; [exact H|]. split; [exact H1|]. destruct (incoming_data_flow true st (get_tile st n)); [reflexivity|discriminate H2].
  - apply bool_decide_eq_true in K1. apply NoDup_ListNoDup, K1.
  - intros o Ho. specialize (K0 o Ho). repeat (apply andb_prop in K0 as [K0 ?K]).
    apply existsb_exists in K0 as (o' & Ho' & E). apply coord_eqb_spec in E. subst o'. apply diagonal_In in Ho'; auto.
    split; [split; [exact Ho'|apply negb_true_iff, K6]|]. split; [apply negb_true_iff, K5|]. split; [exact K4|].
    split; [destruct (incoming_data_flow true st o) as [|u [|]]; try discriminate K3; eauto|].
    intros v Hv. rewrite forallb_forall in K2. pose proof (flow_info st o v Hwf Hv) as (_ & Ov & _). specialize (K2 v (HT v Ov)).
    apply negb_true_iff in K2. assert (X : existsb (coord_eqb o) (incoming_data_flow true st v) = true); [|congruence].
    apply existsb_exists. exists o. split; [exact Hv|]. apply coord_eqb_spec. reflexivity.
  - intros t Ot Hp Ho. specialize (K t (HT t Ot)). cbn beta in K. destruct Ot as [_ Ot]. rewrite Ot, Hp, Ho in K. cbn in K. apply andb_prop in K as [K _].
    unfold one_two in K. destruct (incoming_data_flow true st t) as [|a [|b [|]]]; try discriminate K; [left; exists a|right; exists a, b]; split; auto; lia.
  - intros t Ot. specialize (K t (HT t Ot)). cbn beta in K. pose proof Ot as [It Et]. rewrite Et in K. cbn in K. apply andb_prop in K as [_ K].
    split; [|apply negb_true_iff, K]. destruct It as (Dt & Xt & Yt & Zt). unfold inb. cbn. lia.
Qed.
