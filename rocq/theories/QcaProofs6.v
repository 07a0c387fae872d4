(** Proofs about the QCA ONE gate library: connections and pins. *)
From Coq Require Import ZArith Lia Bool String List.
From stdpp Require Import gmap.
From Verif Require Import CoordModel CoordSpec CoordProofs GridModel GridSpec GridProofs GridProps CoordMap ClockModel ClockSpec GateModel GateSpec GateProofs GateProofs2 GateProofs3 GateProps
  CellModel CellSpec CellProofs CellProps RouteModel RouteSpec RouteProofs RouteProofs2 LibModel LibSpec LibProofs LibProofs2 LibProps QcaSpec QcaProofs QcaProofs2 QcaProofs3 QcaProofs4 QcaProofs5 DetclkProofs.
Import List ListNotations.
Local Open Scope Z_scope.

Section Flow.
Context (cl : clocked) (ops : list gop) (st : glayout) (L : laid_out cl ops st) (HC : cl_topo cl = Cartesian)
  (U : layer_uniform (g_cl st)) (N : 1 <= num_clocks (g_cl st) <= 255).

Lemma flow_out u t : flows st u t -> In t (outgoing_data_flow true st u).
Proof using L U N.
  intros H. destruct (laid_wf _ _ _ L) as (HW & _ & ED). destruct (flow_info st u t HW H) as (Ou & Ot & Nu & Nt & _).
  destruct (occupied_at st HW u Ou) as [_ Eu]. destruct (occupied_at st HW t Ot) as [_ Et]. unfold outgoing_data_flow. rewrite <- Et. apply in_map.
  destruct L as (R & _ & D & _). rewrite <- ED in D. apply (C21_duality cl ops st true (get_node st t) (get_node st u) R D (fun _ => U) N Nt Nu); [rewrite Et; apply Ot|rewrite Eu; apply Ou|].
  rewrite Eu. exact H.
Qed.
Lemma out_flow u t : occupied st u -> In t (outgoing_data_flow true st u) -> flows st u t.
Proof using L U N.
  intros Ou H. destruct (laid_wf _ _ _ L) as (HW & _ & ED). destruct (occupied_at st HW u Ou) as [Nu Eu].
  assert (It : inb (cl_dim (g_cl st)) t). { rewrite ED. destruct L as (R & M & D & _). destruct Ou as [Iu _]. rewrite ED in Iu. exact (proj1 (proj2 (flow_touches cl ops st true u R M D Iu) t H)). }
  unfold outgoing_data_flow in H. apply in_map_iff in H as (k & Ek & Hk). destruct L as (R & M & D & _). rewrite <- ED in D.
  destruct (C21_fanout_sound cl ops st true (get_node st u) k R M Hk) as (Nk & Gk & _).
  unfold flows, incoming_data_flow. rewrite <- Ek, Gk. rewrite <- Eu.
  apply (C21_duality cl ops st true k (get_node st u) R D (fun _ => U) N Nk); [lia|rewrite Ek; exact It|rewrite Eu; apply Ou|exact Hk].
Qed.
Lemma flow_sides u t : flows st u t -> exists s, cx t = cx u + dx s /\ cy t = cy u + dy s /\ used st u s /\ used st t (opposite s).
Proof using L HC U N.
  intros H. destruct (laid_wf _ _ _ L) as (HW & _ & ED). destruct (flow_info st u t HW H) as (Ou & Ot & _). destruct Ou as [Iu Ou], Ot as [It Ot]. rewrite ED in Iu, It.
  pose proof (flow_out u t H) as HO. destruct (proj2 (flow_side cl ops st L HC u Iu) t HO) as (s & X & Y). exists s. split; [exact X|]. split; [exact Y|].
  split; [right; exists t; auto|left; exists u; split; [exact H|]]. destruct s; cbn in *; lia.
Qed.
(** Only one kind of data passes a side. *)
Lemma one_way s t : 3 <= num_clocks (g_cl st) -> occupied st t -> ~ (enters st t s /\ leaves st t s).
Proof using L U N.
  intros N3 Ot [(u & Hu & Xu & Yu) (v & Hv & Xv & Yv)]. apply (out_flow t v Ot) in Hv. destruct (laid_wf _ _ _ L) as (HW & _ & ED).
  destruct (flow_info st u t HW Hu) as (Ou & _ & _ & _ & _ & _ & Ku). destruct (flow_info st t v HW Hv) as (_ & Ov & _ & _ & _ & _ & Kv).
  unfold is_incoming_clocked in Ku, Kv. apply andb_prop in Ku as [_ Ku], Kv as [_ Kv].
  assert (E : get_clock_number (g_cl st) u = get_clock_number (g_cl st) v).
  { destruct u as [du xu yu zu], v as [dv xv yv zv]. destruct Ou as [(Du & _) _], Ov as [(Dv & _) _]. cbn in *. subst. apply U. }
  rewrite <- E in Kv. apply Z.eqb_eq in Ku, Kv. revert Ku Kv. generalize (get_clock_number (g_cl st) u), (get_clock_number (g_cl st) t). intros a b Ka Kb. clear - Ka Kb N N3.
  assert (Ra : 0 <= a < num_clocks (g_cl st)). { rewrite <- Kb. rewrite Z.mod_small; pose proof (Z.mod_pos_bound (b + 1) (num_clocks (g_cl st))); lia. }
  assert (Rb : 0 <= b < num_clocks (g_cl st)). { rewrite <- Ka. rewrite Z.mod_small; pose proof (Z.mod_pos_bound (a + 1) (num_clocks (g_cl st))); lia. }
  rewrite Z.mod_small in Ka, Kb by (pose proof (Z.mod_pos_bound (a + 1) (num_clocks (g_cl st))); pose proof (Z.mod_pos_bound (b + 1) (num_clocks (g_cl st))); lia).
  revert Ka Kb N3 Ra Rb N. generalize (num_clocks (g_cl st)). intros n. intros.
  assert (M : forall x, 0 <= x < n -> (x + 1) mod n = if Z.eq_dec (x + 1) n then 0 else x + 1).
  { intros x Hx. destruct (Z.eq_dec (x + 1) n) as [->|K]; [apply Z.mod_same|apply Z.mod_small]; lia. }
  rewrite M in Ka by lia. rewrite M in Kb by lia. destruct (Z.eq_dec (a + 1) n), (Z.eq_dec (b + 1) n); lia.
Qed.
End Flow.

(** The pins after the optimization. *)
Lemma via_ops cs : forall l, exists os, fold_left via_step cs l = c_run qca l os /\ forall o, In o os -> match o with AssignName _ _ => False | _ => True end.
Proof.
  induction cs as [|c r IH]; intros l; [exists []; split; [reflexivity|intros o []]|]. cbn [fold_left]. destruct (IH (via_step l c)) as (os & E & H). rewrite E, via_unfold.
  destruct (via_at l c); [|exists os; auto].
  exists ([AssignMode c 2; AssignType (ground_of c) 120; AssignMode (ground_of c) 2] ++ os). split; [unfold c_run; rewrite fold_left_app; reflexivity|].
  intros o [<-|[<-|[<-|Ho]]]; try exact Logic.I. exact (H o Ho).
Qed.
Lemma optimized_run st l0 l : apply_gate_library qca 5 5 PCartesian qca_one st = Some l0 -> apply_qca_one st = Some l ->
  (forall c, (c_is_pi l c = true <-> get_cell_type qca l c = 105) /\ (c_is_po l c = true <-> get_cell_type qca l c = 111)) /\
  (forall c, get_cell_name l c = get_cell_name l0 c).
Proof.
  intros E0 E. unfold apply_qca_one in E. rewrite E0 in E. unfold post_layout_optimization in E. destruct (foreach_coordinate _ _ _) as [cs|]; [|discriminate E]. cbn [option_map] in E. injection E as <-.
  destruct (via_ops cs l0) as (os & -> & Hos). destruct (applied _ _ _ _ _ _ _ E0) as (c0 & _ & ->).
  pose proof (cell_inv_run qca qca_tech (mkCL Cartesian (cell_aspect_ratio 5 5 PCartesian (cl_dim (g_cl st))) (cl_scheme (g_cl st))) 5 5) as CR. fold (cell_layout 5 5 PCartesian st) in CR.
  pose proof (CR c0) as C0. pose proof (CR (c0 ++ os)) as C1. 
  replace (c_run qca (cell_layout 5 5 PCartesian st) (c0 ++ os)) with (c_run qca (c_run qca (cell_layout 5 5 PCartesian st) c0) os) in C1 by (unfold c_run; rewrite fold_left_app; reflexivity).
  split.
  - intros c. unfold c_is_pi, c_is_po, get_cell_type. rewrite !bool_decide_eq_true, (ci_in _ _ _ C1), (ci_out _ _ _ C1), (ci_type _ _ _ C1). tauto.
  - intros c. rewrite (ci_name _ _ _ C1), (ci_name _ _ _ C0). unfold spec_name. rewrite rev_app_distr.
    assert (K : forall o, In o (rev os) -> match o with AssignName _ _ => False | _ => True end) by (intros o Ho; apply Hos; rewrite in_rev; exact Ho).
    revert K. generalize (rev os). intros r. induction r as [|o r IH]; intros K; [reflexivity|]. cbn [app latest]. pose proof (K o (or_introl eq_refl)) as Ko.
    destruct o; [apply IH; intros; apply K; right; assumption|apply IH; intros; apply K; right; assumption|destruct Ko|apply IH; intros; apply K; right; assumption].
Qed.
