(** Properties of crossings found by path finding: C52. *)
From Coq Require Import ZArith Bool String List Permutation Lia.
From stdpp Require Import gmap list.
From Verif Require Import CoordModel CoordSpec CoordProofs GridModel GridSpec GridProofs CoordMap ClockModel ClockSpec ClockProofs GateModel GateSpec GateProofs GateProps CellModel CellSpec CellProofs CellProps PathModel PathSpec PathProofs PathProofs2 PathProofs3 PathProofs4 PathProofs5 PathProofs8 PathProps CrossSpec.
Import ListNotations.
Local Open Scope Z_scope.

Lemma live_eta c : cd c = false -> live (cx c) (cy c) (cz c) = c.
Proof. destruct c as [d x y z]; cbn; intros ->; reflexivity. Qed.
Lemma touch_ground t u v : touch t (ground u) (ground v) <-> touch t u (live (cx v) (cy v) (cz u)).
Proof.
  unfold ground. destruct t as [|a]; simpl.
  - unfold square_touch. cbn [live cx cy cz]. lia.
  - unfold hex_touch. cbn [live cx cy cz]. tauto.
Qed.
Lemma below_ground ar c : 0 <= cz ar <= 1 -> inb ar c -> below ar c = ground c.
Proof.
  intros Hz (Hd & _ & _ & H). unfold below, ground. destruct c as [d x y z]; cbn [cx cy cz cd] in *. subst d.
  destruct (Z.eqb_spec z 0) as [->|E]; [reflexivity|]. unfold live. replace (z - 1) with 0 by lia. reflexivity.
Qed.
Lemma crossable_iff cl ops st u g : reached cl ops st -> moves_no_constant ops -> dim_ok (cl_dim cl) -> inb (cl_dim cl) u -> inb (cl_dim cl) g ->
  (cz u = 1 -> is_empty_tile st (ground u) = false) ->
  (is_crossable_wire st u g = true <-> crossable st u g).
Proof.
  intros Hr Hm Hd Hu Hg Hgr.
  assert (Hi : inv1 st) by (eapply inv1_run; [apply inv1_empty|exact Hm|exact Hr]).
  destruct (C44_signals cl ops st true g (ground u) Hr Hm Hd Hg) as (I1 & _ & I3 & I4).
  assert (Ed : cl_dim (g_cl st) = cl_dim cl) by (rewrite (dim_run _ _ _ Hr); reflexivity).
  assert (Hz : 0 <= cz (cl_dim cl) <= 1) by apply Hd.
  assert (Hw0 : is_wire st 0 = false).
  { destruct (is_wire st 0) eqn:Ew; [|reflexivity]. exfalso.
    pose proof (C42_function_kept ops (g_empty cl) st 0%nat [true] Hr ltac:(cbn; lia)) as K. unfold is_wire in Ew. apply Z.eqb_eq in Ew.
    unfold compute in K. rewrite Ew in K. cbn in K. discriminate K. }
  assert (Hx : cz u = 1 -> (is_incoming_signal true st g (get_tile st (get_node st (below (cl_dim (g_cl st)) u))) = false <->
                            forall i, In i (incoming_data_flow true st g) -> ~ same_spot i u)).
  { intros E1. rewrite Ed, below_ground by assumption. rewrite tile_node; [|apply Hi|reflexivity|apply Hgr, E1].
    rewrite <- not_true_iff_false, I1. split.
    - intros K i Hin Hs. apply K. split; [|exists i; split; [exact Hin|exact Hs]].
      destruct Hu as (_ & ? & ? & ?). unfold inb, ground. cbn. lia.
    - intros K [_ (i & Hin & Hs)]. exact (K i Hin Hs). }
  unfold is_crossable_wire, crossable, hosts_wire. cbv zeta.
  assert (Hcu : cd g = false) by apply Hg.
  assert (Hzu : cz u = 0 \/ cz u = 1) by (destruct Hu as (_ & _ & _ & ?); lia).
  destruct (is_wire st (get_node st g)) eqn:Ew; cbn [andb]; [|split; [discriminate|intros ((_ & _ & K) & _); discriminate K]].
  assert (Hne : is_empty_tile st g = false).
  { unfold is_empty_tile. destruct (Nat.eqb_spec (get_node st g) 0) as [E|E]; [|reflexivity]. rewrite E, Hw0 in Ew. discriminate Ew. }
  destruct (is_pi st (get_node st g)), (is_po st (get_node st g)); cbn [negb andb]; try (split; [discriminate|intros (_ & K1 & K2 & _); first [discriminate K1|discriminate K2]]).
  destruct (has_no_incoming_signal true st g); cbn [orb].
  { split; [discriminate|]. intros (_ & _ & _ & K & _). exfalso. apply K, I3. reflexivity. }
  destruct (has_no_outgoing_signal true st g); cbn [orb].
  { split; [discriminate|]. intros (_ & _ & _ & _ & K & _). exfalso. apply K, I4. reflexivity. }
  assert (N1 : incoming_data_flow true st g <> []) by (intros K; apply I3 in K; discriminate K).
  assert (N2 : outgoing_data_flow true st g <> []) by (intros K; apply I4 in K; discriminate K).
  unfold is_ground_layer. destruct (Z.eqb_spec (cz u) 0) as [E0|E0].
  - split; [|reflexivity]. intros _. repeat split; auto. intros E1. rewrite E1 in E0. discriminate E0.
  - rewrite negb_true_iff, Hx by tauto. split; [|tauto]. intros K. repeat split; auto.
Qed.

(** * C52: crossings are legal, and all legal ones are considered *)

(** One step into the crossing layer: exactly those above a crossable wire, if the position in the crossing layer and the connection are free. *)
Theorem C52_step : forall cl ops st l clk tgt u v, reached cl ops st -> moves_no_constant ops -> o_base l = OGate st -> routable l ->
  inb (cl_dim (o_clocked l)) u -> (cz u = 1 -> is_empty_tile st (ground u) = false) -> cz v = 1 -> v <> tgt ->
  (permitted (pf_of clk l) true tgt u v <->
   inb (cl_dim (o_clocked l)) v /\ touch (cl_topo (o_clocked l)) (ground u) (ground v) /\
   (clk = true -> next_zone (o_clocked l) u (live (cx v) (cy v) (cz u))) /\
   ground v <> tgt /\ crossable st u (ground v) /\ is_obstructed_coordinate l v = false /\ is_obstructed_connection l u v = false).
Proof.
  intros cl ops st l clk tgt u v Hr Hm Eb HL Hu Hgr Hzv Hvt.
  assert (El : o_clocked l = g_cl st) by (unfold o_clocked; rewrite Eb; reflexivity).
  assert (Ed : cl_dim (g_cl st) = cl_dim cl) by (rewrite (dim_run _ _ _ Hr); reflexivity).
  assert (Hd : dim_ok (cl_dim cl)) by (rewrite <- Ed, <- El; apply HL).
  assert (Hz : 0 <= cz (cl_dim (o_clocked l)) <= 1) by (rewrite El, Ed; apply Hd).
  assert (Hub : inb (cl_dim cl) u) by (rewrite <- Ed, <- El; exact Hu).
  rewrite touch_ground. split.
  - intros [w Hw Hv _ _|w g Hw Hg _ Ho Hgt Hv Hvg [Hc|Hc] [Ho2|Ho2] Hcn]; try contradiction.
    + exfalso. apply succ_spec in Hw as (Hw & _); [|exact HL|exact Hu]. cbn [pf_of pf_below] in Hv. rewrite (below_ground _ _ Hz Hw) in Hv. rewrite Hv in Hzv. discriminate Hzv.
    + apply succ_spec in Hw as (Hw & Ht & Hn); [|exact HL|exact Hu]. cbn [pf_of pf_below pf_above pf_obst pf_conn pf_cross] in *.
      rewrite (below_ground _ _ Hz Hw) in Hg. assert (Exy : cx v = cx w /\ cy v = cy w).
      { destruct (above_xy l g) as [A B]. rewrite Hv, A, B, Hg. split; reflexivity. }
      assert (Egv : ground v = g). { unfold ground. rewrite (proj1 Exy), (proj2 Exy), Hg. reflexivity. }
      assert (Ewu : live (cx v) (cy v) (cz u) = w). { rewrite (proj1 Exy), (proj2 Exy), (touch_z _ _ _ Ht). apply live_eta, Hw. }
      assert (Hgi : inb (cl_dim cl) g). { rewrite <- Ed, <- El, Hg. destruct Hw as (? & ? & ? & ?). unfold inb, ground. cbn. lia. }
      rewrite Ewu, Egv. split; [rewrite Hv; apply above_inb; rewrite El, Ed; exact Hgi|]. split; [exact Ht|]. split; [exact Hn|]. split; [exact Hgt|].
      rewrite Eb in Hc. split; [eapply crossable_iff; eauto|]. auto.
  - intros (Hv & Ht & Hn & Hgt & Hc & Ho & Hcn). set (w := live (cx v) (cy v) (cz u)) in *.
    assert (Hw : inb (cl_dim (o_clocked l)) w). { destruct Hv as (_ & ? & ? & _). destruct Hu as (_ & _ & _ & ?). unfold inb, w. cbn. lia. }
    assert (Hgi : inb (cl_dim cl) (ground v)). { rewrite <- Ed, <- El. destruct Hv as (_ & ? & ? & _). unfold inb, ground. cbn. lia. }
    assert (Hx : is_crossable_wire st u (ground v) = true) by (eapply crossable_iff; eauto).
    assert (Eab : above (cl_dim (o_clocked l)) (ground v) = v).
    { destruct Hv as (Hcd & _ & _ & Hvz). rewrite <- (live_eta v Hcd) at 2. rewrite Hzv in *. unfold above, ground, set_d. cbn [live cz cx cy cd].
      destruct (Z.ltb_spec (cz (cl_dim (o_clocked l))) 0); [lia|]. destruct (Z.ltb_spec 0 (cz (cl_dim (o_clocked l)))); [reflexivity|lia]. }
    apply (enter_crossing _ _ _ _ _ w (ground v)); cbn [pf_of pf_below pf_above pf_obst pf_conn pf_cross]; auto.
    + apply succ_spec; auto.
    + rewrite (below_ground _ _ Hz Hw). reflexivity.
    + eapply crossable_obstructed; eauto.
    + intros E. rewrite E in Hzv. discriminate Hzv.
    + left. rewrite Eb. exact Hx.
Qed.
Print Assumptions C52_step.

(** On every path from the ground layer, whoever found it: each step into the crossing layer runs above a crossable wire. *)
Lemma path_crossings cl ops st l clk tgt src p : reached cl ops st -> moves_no_constant ops -> o_base l = OGate st -> routable l ->
  inb (cl_dim (o_clocked l)) src -> cz src = 0 -> is_path (permitted (pf_of clk l) true tgt) src tgt p ->
  forall a u v b, p = a ++ u :: v :: b -> cz v = 1 -> v <> tgt -> crossable st u (ground v) /\ is_obstructed_coordinate l v = false.
Proof.
  intros Hr Hm Eb HL Hs Hz [Hw Hn].
  assert (G : forall s t q, walk (permitted (pf_of clk l) true tgt) s t q -> List.NoDup q -> t = tgt -> inb (cl_dim (o_clocked l)) s -> (cz s = 1 -> is_empty_tile st (ground s) = false) ->
    forall a u v b, q = a ++ u :: v :: b -> cz v = 1 -> v <> tgt -> crossable st u (ground v) /\ is_obstructed_coordinate l v = false).
  2:{ eapply G; eauto. intros E. rewrite E in Hz. discriminate Hz. }
  clear p src Hs Hz Hw Hn. intros s t q H. induction H as [s|s w t q Hst Hw IH]; intros Hnd Et Hs Hg a u v b E Hzv Hvt.
  - destruct a as [|x [|y a]]; discriminate E.
  - assert (Hwi : inb (cl_dim (o_clocked l)) w) by (eapply permitted_inb; eauto).
    assert (Hzw : cz w = 0 \/ cz w = 1). { destruct Hwi as (_ & _ & _ & ?). destruct HL as [(_ & _ & ?) _]. lia. }
    assert (Hq : hd_error q = Some w) by (destruct Hw; reflexivity).
    destruct a as [|x a]; cbn [app] in E.
    + injection E as -> E. rewrite E in Hq. injection Hq as <-. destruct (proj1 (C52_step cl ops st l clk tgt u v Hr Hm Eb HL Hs Hg Hzv Hvt) Hst) as (_ & _ & _ & _ & Hc & Ho & _). auto.
    + injection E as -> E. apply NoDup_cons_iff in Hnd as [_ Hnd']. apply (IH Hnd' Et Hwi) with (a := a) (b := b); auto. intros E1.
      assert (Hwt : w <> tgt).
      { intros ->. apply (f_equal (@List.length coord)) in E. inversion Hw as [|? z ? q' ? Hq']; subst q; [rewrite app_length in E; cbn in E; lia|]. subst t. apply NoDup_cons_iff in Hnd' as [Hni _]. apply Hni. clear -Hq'. induction Hq'; [left; reflexivity|right; assumption]. }
      destruct (proj1 (C52_step cl ops st l clk tgt x w Hr Hm Eb HL Hs Hg E1 Hwt) Hst) as (_ & _ & _ & _ & Hc & _). apply Hc.
Qed.
Theorem C52_a_star : forall cl ops st l clk V (O : vops V) (Q : queue V) src tgt fuel p, reached cl ops st -> moves_no_constant ops -> o_base l = OGate st -> routable l ->
  queue_ok Q -> inb (cl_dim (o_clocked l)) src -> cz src = 0 -> a_star O Q (pf_of clk l) true src tgt fuel = Some p ->
  forall a u v b, p = a ++ u :: v :: b -> cz v = 1 -> v <> tgt -> crossable st u (ground v) /\ is_obstructed_coordinate l v = false.
Proof.
  intros cl ops st l clk V O Q src tgt fuel p Hr Hm Eb HL HQ Hs Hz E a u v b Ep. revert a u v b Ep.
  destruct p as [|x p]; [intros [|? ?] u v b Ep; discriminate Ep|]. eapply path_crossings; eauto. eapply C37_a_star_valid; eauto.
Qed.
Print Assumptions C52_a_star.
Theorem C52_yen : forall cl ops st l clk (Q : queue Z) src tgt fuel k, reached cl ops st -> moves_no_constant ops -> o_base l = OGate st -> routable l ->
  queue_ok Q -> inb (cl_dim (o_clocked l)) src -> cz src = 0 -> src ∉ o_coords l -> (Z.to_nat (volume (cl_dim (o_clocked l))) <= fuel)%nat ->
  exists res, yen Q clk true src tgt fuel l k = Some (l, res) /\
  forall p, In p res -> forall a u v b, p = a ++ u :: v :: b -> cz v = 1 -> v <> tgt -> crossable st u (ground v) /\ is_obstructed_coordinate l v = false.
Proof.
  intros cl ops st l clk Q src tgt fuel k Hr Hm Eb HL HQ Hs Hz Ho Hf.
  destruct (yen_layout Q HQ clk true src tgt fuel l HL Ho Hs ltac:(intros _; unfold built; rewrite Eb; eauto) Hf k) as (res & H1 & H2 & H3 & H4 & H5 & H6).
  exists res. split; [exact H1|]. intros p Hp. eapply path_crossings; eauto.
Qed.
Print Assumptions C52_yen.
Theorem C52_enumerate : forall cl ops st l clk src tgt fuel, reached cl ops st -> moves_no_constant ops -> o_base l = OGate st -> routable l ->
  inb (cl_dim (o_clocked l)) src -> cz src = 0 -> (Z.to_nat (volume (cl_dim (o_clocked l))) <= fuel)%nat ->
  exists out, enumerate_all_paths fuel (pf_of clk l) true src tgt = Some out /\
  forall p, In p out -> forall a u v b, p = a ++ u :: v :: b -> cz v = 1 -> v <> tgt -> crossable st u (ground v) /\ is_obstructed_coordinate l v = false.
Proof.
  intros cl ops st l clk src tgt fuel Hr Hm Eb HL Hs Hz Hf. destruct (C40_enumerates clk l true src tgt fuel HL Hs Hf) as (out & E & _ & H).
  exists out. split; [exact E|]. intros p Hp. apply H in Hp as [Hw Hn]. apply (path_crossings cl ops st l clk tgt src p Hr Hm Eb HL Hs Hz). split; [|exact Hn].
  revert Hw. generalize tgt at 2 4. clear. intros tgt' Hw. induction Hw as [s|s u t p Hst Hw IH]; [constructor|]. apply walk_step with u; [|exact IH].
  destruct Hst as [w H1 H2 H3 H4|w g H1 H2 H3 H4 H5 H6 H7 H8 H9 H10 H11]; [eapply enter_free; eauto|eapply enter_crossing; eauto].
Qed.
Print Assumptions C52_enumerate.

(** A vertical wire between an input and an output; a second signal runs from west to east and has to cross it. *)
Definition cross_ops : list gop :=
  [CreatePi "a"%string (live 1 0 0); CreateLit [live 1 0 0] 2 (live 1 1 0); CreatePo (live 1 1 0) "f"%string (live 1 2 0);
   CreatePi "b"%string (live 0 1 0); CreateLit [] 2 (live 2 1 0)].
Definition cross_lay : olayout := mkO (OGate (final ex_cl cross_ops)) ∅ ∅.
Example C52_nonvacuous : reached ex_cl cross_ops (final ex_cl cross_ops) /\ moves_no_constant cross_ops /\ routable cross_lay /\ inb (cl_dim (o_clocked cross_lay)) (live 0 1 0) /\
  a_star (u64_ops (distance_functor manhattan_distance) unit_cost (live 2 1 0)) (heap zgt) (pf_of true cross_lay) true (live 0 1 0) (live 2 1 0) 50 =
    Some [live 0 1 0; live 1 1 1; live 2 1 0].
Proof.
  split; [apply reached_final; vm_compute; reflexivity|]. split; [repeat constructor|]. split; [split; [unfold dim_ok; vm_compute; intuition discriminate|vm_compute; intuition discriminate]|].
  split; [unfold inb; vm_compute; intuition discriminate|vm_compute; reflexivity].
Qed.
