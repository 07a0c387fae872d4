(** Layouts under construction: what is on their tiles, and what placing a node or drawing a wire does. *)
From Coq Require Import ZArith Bool String List Lia.
From stdpp Require Import gmap list strings pretty.
From Verif Require Import CoordModel CoordSpec CoordProofs GridModel GridSpec CoordMap ClockModel GateModel GateSpec GateProofs GateProofs2 GateProofs3
  RouteModel RouteSpec RouteProofs BuildProofs OrthoModel.
Import ListNotations.
Local Open Scope Z_scope.

(** Wires that run from west to east, from north to south, and everything else (gates, bends, inputs, outputs). *)
Inductive tag := TH | TV | TN.
Record ent := mkE { e_ch : list coord; e_lit : Z; e_tag : tag; e_pi : option nat; e_po : bool }.

Definition fetch (G : gmap coord ent) (t : coord) : Prop := exists e, G !! t = Some e.
Definition used (G : gmap coord ent) (t : coord) : Prop := exists t' e', G !! t' = Some e' /\ In t (e_ch e').

Inductive gval (G : gmap coord ent) (env : nat -> bool) : coord -> bool -> Prop :=
| gval_pi t e i : G !! t = Some e -> e_pi e = Some i -> gval G env t (env i)
| gval_gate t e vs b : G !! t = Some e -> e_pi e = None -> gvals G env (e_ch e) vs -> compute_lit (e_lit e) vs = Some b -> gval G env t b
with gvals (G : gmap coord ent) (env : nat -> bool) : list coord -> list bool -> Prop :=
| gvals_nil : gvals G env [] []
| gvals_cons t ts b bs : gval G env t b -> gvals G env ts bs -> gvals G env (t :: ts) (b :: bs).
Scheme gval_ind2 := Induction for gval Sort Prop with gvals_ind2 := Induction for gvals Sort Prop.
Combined Scheme gval_mut from gval_ind2, gvals_ind2.

Lemma gval_mono G G' env : G ⊆ G' -> (forall t b, gval G env t b -> gval G' env t b) /\ (forall ts bs, gvals G env ts bs -> gvals G' env ts bs).
Proof.
  intros H.
  apply (gval_mut G env (fun t b _ => gval G' env t b) (fun ts bs _ => gvals G' env ts bs)).
  - intros t e i He Hp. eapply gval_pi; [eapply lookup_weaken; eassumption|exact Hp].
  - intros t e vs b He Hp _ IH Hc. eapply gval_gate; [eapply lookup_weaken; eassumption|exact Hp|exact IH|exact Hc].
  - constructor.
  - intros t ts b bs _ H1 _ H2. constructor; assumption.
Qed.
Lemma gval_fun G env : (forall t b, gval G env t b -> forall b', gval G env t b' -> b' = b) /\ (forall ts bs, gvals G env ts bs -> forall bs', gvals G env ts bs' -> bs' = bs).
Proof.
  apply (gval_mut G env (fun t b _ => forall b', gval G env t b' -> b' = b) (fun ts bs _ => forall bs', gvals G env ts bs' -> bs' = bs)).
  - intros t e i He Hp b' H. inversion H; subst; congruence.
  - intros t e vs b He Hp _ IH Hc b' H. inversion H; subst; [congruence|]. assert (e0 = e) by congruence. subst e0.
    match goal with X : gvals _ _ _ _ |- _ => apply IH in X; subst end. congruence.
  - intros bs' H. inversion H; reflexivity.
  - intros t ts b bs _ H1 _ H2 bs' H. inversion H; subst. f_equal; auto.
Qed.
Lemma used_mono G G' t : G ⊆ G' -> used G t -> used G' t.
Proof. intros H (t' & e' & He & Hin). exists t', e'. split; [eapply lookup_weaken; eassumption|exact Hin]. Qed.
Lemma fetch_mono G G' t : G ⊆ G' -> fetch G t -> fetch G' t.
Proof. intros H (e & He). exists e. eapply lookup_weaken; eassumption. Qed.

(** *** Well-formed contents *)
Definition before (c t : coord) : Prop := (cx c = cx t - 1 /\ cy c = cy t) \/ (cx c = cx t /\ cy c = cy t - 1).
Record sound (G : gmap coord ent) : Prop := mkSound {
  s_live : forall t e, G !! t = Some e -> cd t = false /\ (cz t = 0 \/ cz t = 1) /\ 0 <= cx t /\ 0 <= cy t;
  s_cross : forall x y e, G !! live x y 1 = Some e -> exists e0, G !! live x y 0 = Some e0 /\
      ((e_tag e = TH /\ e_tag e0 = TV) \/ (e_tag e = TV /\ e_tag e0 = TH));
  s_wire : forall t e, G !! t = Some e -> e_tag e <> TN -> e_lit e = 2 /\ e_pi e = None /\ e_po e = false;
  s_ch : forall t e c, G !! t = Some e -> In c (e_ch e) -> fetch G c /\ before c t;
  s_pi : forall t e, G !! t = Some e -> match e_pi e with Some _ => e_ch e = [] /\ e_lit e = 2 /\ cx t = 0 | None => e_ch e <> [] end
}.
Lemma coord_eta t : cd t = false -> t = live (cx t) (cy t) (cz t).
Proof. destruct t as [d x y z]. cbn. intros ->. reflexivity. Qed.
Lemma insert_sub (G : gmap coord ent) t e : G !! t = None -> G ⊆ <[t := e]> G.
Proof. intros H. apply insert_subseteq. exact H. Qed.
Lemma fetch_insert G t e t' : fetch (<[t := e]> G) t' <-> t' = t \/ fetch G t'.
Proof.
  unfold fetch. destruct (decide (t' = t)) as [->|N].
  - rewrite lookup_insert. split; [auto|eauto].
  - rewrite lookup_insert_ne by congruence. split; [auto|intros [H|H]; [congruence|exact H]].
Qed.

(** An entry on an empty cell of the ground layer. *)
Lemma sound_put G t e : sound G -> G !! t = None -> cd t = false -> cz t = 0 -> 0 <= cx t -> 0 <= cy t ->
  (e_tag e <> TN -> e_lit e = 2 /\ e_pi e = None /\ e_po e = false) -> (forall c, In c (e_ch e) -> fetch G c /\ before c t) ->
  (match e_pi e with Some _ => e_ch e = [] /\ e_lit e = 2 /\ cx t = 0 | None => e_ch e <> [] end) -> sound (<[t := e]> G).
Proof.
  intros [S1 S2 S3 S4 S5] Hn Hd Hz Hx Hy Hw Hc Hp. constructor.
  - intros u f. rewrite lookup_insert_Some. intros [[<- <-]|[_ H]]; [auto|eapply S1; eassumption].
  - intros x y f. rewrite lookup_insert_Some. intros [[-> _]|[_ H]]; [discriminate Hz|]. destruct (S2 _ _ _ H) as (e0 & He0 & Ht).
    exists e0. split; [|exact Ht]. rewrite lookup_insert_ne; [exact He0|]. intros ->. congruence.
  - intros u f. rewrite lookup_insert_Some. intros [[<- <-]|[_ H]]; [exact Hw|eapply S3; eassumption].
  - intros u f c. rewrite lookup_insert_Some, fetch_insert. intros [[<- <-]|[_ H]] Hin; [destruct (Hc _ Hin); auto|].
    destruct (S4 _ _ _ H Hin). auto.
  - intros u f. rewrite lookup_insert_Some. intros [[<- <-]|[_ H]]; [exact Hp|eapply S5; eassumption].
Qed.
(** A wire above a wire of the other direction. *)
Lemma sound_over G x y d a e0 : sound G -> G !! live x y 1 = None -> G !! live x y 0 = Some e0 ->
  (d = TH /\ e_tag e0 = TV) \/ (d = TV /\ e_tag e0 = TH) -> fetch G a -> before a (live x y 1) -> sound (<[live x y 1 := mkE [a] 2 d None false]> G).
Proof.
  intros [S1 S2 S3 S4 S5] Hn H0 Hd Ha Hb. destruct (S1 _ _ H0) as (_ & _ & Hx & Hy). cbn in Hx, Hy. constructor.
  - intros u f. rewrite lookup_insert_Some. intros [[<- <-]|[_ H]]; [cbn; auto|eapply S1; eassumption].
  - intros x' y' f. rewrite lookup_insert_Some. intros [[E <-]|[_ H]].
    + injection E as <- <-. exists e0. rewrite lookup_insert_ne by discriminate. split; [exact H0|]. exact Hd.
    + destruct (S2 _ _ _ H) as (e1 & He1 & Ht). exists e1. split; [|exact Ht]. rewrite lookup_insert_ne by discriminate. exact He1.
  - intros u f. rewrite lookup_insert_Some. intros [[<- <-]|[_ H]]; [auto|eapply S3; eassumption].
  - intros u f c. rewrite lookup_insert_Some, fetch_insert. intros [[<- <-]|[_ H]] Hin; [destruct Hin as [<-|[]]; auto|].
    destruct (S4 _ _ _ H Hin). auto.
  - intros u f. rewrite lookup_insert_Some. intros [[<- <-]|[_ H]]; [discriminate|eapply S5; eassumption].
Qed.

(** *** The layout *)
Record lay (cl : clocked) (names : list string) (k : nat) (G : gmap coord ent) (outs : list (coord * string)) (st : glayout) : Prop := mkLay {
  ly_ops : exists ops, reached cl ops st /\ moves_no_constant ops /\ places_inside (cl_dim cl) ops;
  ly_inv : inv1 st;
  ly_cl : g_cl st = cl;
  ly_at : forall t e, G !! t = Some e -> exists n, g_tn st !! t = Some n /\ n_children (node_at st n) = e_ch e /\ n_lit (node_at st n) = e_lit e /\
      (match e_pi e with Some i => n = (2 + i)%nat /\ (i < k)%nat | None => (2 + length names <= n)%nat end);
  ly_only : forall t n, cd t = false -> g_tn st !! t = Some n -> fetch G t;
  ly_in : g_in st = seq 2 (length names);
  ly_pi : forall i, (i < k)%nat -> exists t e, G !! t = Some e /\ e_pi e = Some i;
  ly_wait : forall i, (k <= i < length names)%nat -> g_nt st !! (2 + i)%nat = None /\ n_children (node_at st (2 + i)) = [] /\ n_lit (node_at st (2 + i)) = 2;
  ly_len : (2 + length names <= length (g_nodes st))%nat;
  ly_out : g_out st = map fst outs;
  ly_po : forall t, In t (map fst outs) <-> exists e, G !! t = Some e /\ e_po e = true;
  ly_name : forall i nm, names !! i = Some nm -> nm <> ""%string -> g_names st !! (2 + i)%nat = Some nm;
  ly_oname : forall t nm, In (t, nm) outs -> nm <> ""%string -> exists n, g_tn st !! t = Some n /\ g_names st !! n = Some nm
}.

Lemma lay_empty cl names k G outs st t : lay cl names k G outs st -> cd t = false -> is_empty_tile st t = true <-> G !! t = None.
Proof.
  intros L Hd. unfold is_empty_tile, get_node. split.
  - intros H. destruct (G !! t) as [e|] eqn:E; [|reflexivity]. exfalso. destruct (ly_at _ _ _ _ _ _ L _ _ E) as (n & Hn & _).
    rewrite Hn in H. apply Nat.eqb_eq in H. cbn in H. pose proof (i_live _ (ly_inv _ _ _ _ _ _ L) _ _ Hn Hd). lia.
  - intros H. destruct (g_tn st !! t) as [n|] eqn:E; [|reflexivity]. destruct (ly_only _ _ _ _ _ _ L _ _ Hd E) as (e & He). congruence.
Qed.

Lemma lay_new cl names k G outs st it e : lay cl names k G outs st -> cd (i_tile it) = false -> G !! i_tile it = None -> inb (cl_dim cl) (i_tile it) ->
  is_ipi it = false -> e_ch e = i_ch it -> e_lit e = i_lit it -> e_pi e = None -> e_po e = is_ipo it ->
  lay cl names k (<[i_tile it := e]> G) (outs ++ (if is_ipo it then [(i_tile it, i_name it)] else [])) (run_item st it).
Proof.
  intros L Hd Hn Hb Hpi E1 E2 E3 E4. pose proof (proj2 (lay_empty _ _ _ _ _ _ _ L Hd) Hn) as Hf.
  pose proof (run_item_grown st it (ly_inv _ _ _ _ _ _ L) (conj Hd Hf)) as R. pose proof (ly_len _ _ _ _ _ _ L) as Hlen.
  pose proof (ly_inv _ _ _ _ _ _ L) as Hinv.
  assert (Old : forall t n, g_tn st !! t = Some n -> g_tn (run_item st it) !! t = Some n).
  { intros t n H. rewrite (gr_tn _ _ _ R). rewrite lookup_insert_ne; [exact H|]. intros <-.
    destruct (ly_only _ _ _ _ _ _ L _ _ Hd H) as (f & Hf'). congruence. }
  constructor.
  - destruct (ly_ops _ _ _ _ _ _ L) as (ops & A & B & C). exists (ops ++ [i_op it]). split; [|split].
    + unfold reached in *. rewrite g_run_app, A. cbn [g_run]. rewrite run_item_step. reflexivity.
    + apply Forall_app. split; [exact B|]. constructor; [destruct it; exact I|constructor].
    + apply Forall_app. split; [exact C|]. constructor; [destruct it; cbn in *; auto|constructor].
  - apply R.
  - rewrite (gr_cl _ _ _ R). apply L.
  - intros t f. rewrite lookup_insert_Some. intros [[<- <-]|[Ne H]].
    + exists (length (g_nodes st)). rewrite (gr_tn _ _ _ R), lookup_insert, E1, E2, E3. destruct (gr_new _ _ _ R) as [-> ->]. auto.
    + destruct (ly_at _ _ _ _ _ _ L _ _ H) as (n & A & B & C & D). exists n. pose proof (i_rng _ (i_0 _ Hinv) _ _ A) as Hr.
      destruct (gr_old _ _ _ R n Hr) as [-> ->]. auto.
  - intros t n Ht H. rewrite fetch_insert. rewrite (gr_tn _ _ _ R), lookup_insert_Some in H. destruct H as [[<- _]|[_ H]]; [auto|].
    right. eapply ly_only; eassumption.
  - rewrite (gr_in _ _ _ R), Hpi, app_nil_r. apply L.
  - intros i Hi. destruct (ly_pi _ _ _ _ _ _ L i Hi) as (t & f & A & B). exists t, f. split; [|exact B]. rewrite lookup_insert_ne; [exact A|]. intros <-. congruence.
  - intros i Hi. destruct (ly_wait _ _ _ _ _ _ L i Hi) as (A & B & C). rewrite (gr_nt _ _ _ R), lookup_insert_ne by lia.
    destruct (gr_old _ _ _ R (2 + i)%nat ltac:(lia)) as [-> ->]. auto.
  - rewrite (gr_len _ _ _ R). lia.
  - rewrite (gr_out _ _ _ R), (ly_out _ _ _ _ _ _ L), map_app. destruct (is_ipo it); reflexivity.
  - intros t. rewrite map_app, in_app_iff, (ly_po _ _ _ _ _ _ L). split.
    + intros [(f & A & B)|H].
      * exists f. split; [|exact B]. rewrite lookup_insert_ne; [exact A|]. intros <-. congruence.
      * destruct (is_ipo it); [|destruct H]. destruct H as [<-|[]]. exists e. split; [apply lookup_insert|exact E4].
    + intros (f & H & Hp). apply lookup_insert_Some in H as [[<- <-]|[_ H]]; [|left; eauto]. right. rewrite E4 in Hp. rewrite Hp. left. reflexivity.
  - intros i nm Hi Hnm. rewrite (gr_name_old _ _ _ R); [eapply ly_name; eassumption|]. apply lookup_lt_Some in Hi. lia.
  - intros t nm Hin Hnm. apply in_app_iff in Hin as [Hin|Hin].
    + destruct (ly_oname _ _ _ _ _ _ L _ _ Hin Hnm) as (n & A & B). exists n. split; [auto|]. rewrite (gr_name_old _ _ _ R); [exact B|].
      apply (i_rng _ (i_0 _ Hinv) _ _ A).
    + destruct (is_ipo it) eqn:Eo; [|destruct Hin]. destruct Hin as [[= <- <-]|[]]. exists (length (g_nodes st)).
      split; [rewrite (gr_tn _ _ _ R); apply lookup_insert|]. apply (gr_name_new _ _ _ R); [rewrite Eo; apply orb_true_r|exact Hnm].
Qed.
Lemma lay_put cl names k G outs st ch lit tg t : lay cl names k G outs st -> cd t = false -> G !! t = None -> inb (cl_dim cl) t ->
  lay cl names k (<[t := mkE ch lit tg None false]> G) outs (create_lit st ch lit t).
Proof.
  intros L Hd Hn Hb. pose proof (lay_new _ _ _ _ _ _ (ILit ch lit t) (mkE ch lit tg None false) L Hd Hn Hb eq_refl eq_refl eq_refl eq_refl eq_refl) as H.
  cbn [is_ipo] in H. rewrite app_nil_r in H. exact H.
Qed.
Lemma lay_po cl names k G outs st s nm t : lay cl names k G outs st -> cd t = false -> G !! t = None -> inb (cl_dim cl) t ->
  lay cl names k (<[t := mkE [s] 2 TN None true]> G) (outs ++ [(t, nm)]) (create_po st s nm t).
Proof.
  intros L Hd Hn Hb. exact (lay_new _ _ _ _ _ _ (IPo s nm t) (mkE [s] 2 TN None true) L Hd Hn Hb eq_refl eq_refl eq_refl eq_refl eq_refl).
Qed.

(** Placing an input that has been reserved. *)
Lemma lay_move cl names k G st t : lay cl names k G [] st -> (k < length names)%nat -> cd t = false -> G !! t = None -> inb (cl_dim cl) t ->
  exists st', move_node st (2 + k) t [] = Some st' /\ lay cl names (S k) (<[t := mkE [] 2 TN (Some k) false]> G) [] st'.
Proof.
  intros L Hk Hd Hn Hb. pose proof (ly_len _ _ _ _ _ _ L) as Hlen. pose proof (ly_inv _ _ _ _ _ _ L) as Hinv.
  destruct (ly_wait _ _ _ _ _ _ L k ltac:(lia)) as (W1 & W2 & W3). set (n := (2 + k)%nat) in *.
  assert (Hnl : (n < length (g_nodes st))%nat) by (unfold n; lia).
  rewrite (move_node_unfold st n t [] Hnl). cbn [fold_left]. eexists. split; [reflexivity|].
  assert (Ht0 : get_tile st n = const0) by (unfold get_tile; rewrite W1; reflexivity).
  set (st3 := mv_relabel st n t). set (st4 := clear_tile st3 const0). set (st5 := assign_node st4 t n). set (st6 := revive_node st5 n).
  assert (Ep : mv_place st n t = st6).
  { unfold mv_place. rewrite Ht0. destruct (coord_eqb t const0) eqn:E; [apply coord_eqb_spec in E; subst t; discriminate Hd|reflexivity]. }
  rewrite Ep. clear Ep. set (st7 := set_children st6 n (n_children (node_at st6 n) ++ [])).
  destruct (mv_relabel_maps st n t) as (M1 & M2 & M3 & M4 & M5 & _ & _ & _ & M6 & M7 & M8). fold st3 in M1, M2, M3, M4, M5, M6, M7, M8.
  pose proof (revive_frame st5 n) as F6. fold st6 in F6. pose proof (setch_frame st6 n (n_children (node_at st6 n) ++ [])) as F7. fold st7 in F7.
  pose proof (frame_trans _ _ _ F6 F7) as F.
  assert (Hnone : g_tn st !! t = None).
  { destruct (g_tn st !! t) as [m|] eqn:E; [|reflexivity]. destruct (ly_only _ _ _ _ _ _ L _ _ Hd E) as (e & He). congruence. }
  assert (T7 : g_tn st7 = <[t := n]> (delete const0 (g_tn st))).
  { rewrite (fr_tn _ _ F). unfold st5. rewrite assign_tn, Hd. unfold st4. rewrite clear_tn, M1. reflexivity. }
  assert (Hnt4 : forall m, (2 <= m)%nat -> g_nt st4 !! m = g_nt st !! m).
  { intros m Hm. unfold st4. rewrite clear_nt, M1, M2. destruct (g_tn st !! const0) as [j|] eqn:E; [|reflexivity].
    pose proof (i_dead _ (i_0 _ Hinv) _ _ E eq_refl). rewrite lookup_delete_ne by lia. reflexivity. }
  assert (N7 : forall m, (2 <= m)%nat -> m <> n -> g_nt st7 !! m = g_nt st !! m).
  { intros m Hm Hne. rewrite (fr_nt _ _ F). unfold st5. rewrite assign_nt, Hd. rewrite lookup_insert_ne by congruence.
    rewrite clear_nt. assert (E : g_tn st4 !! t = None).
    { unfold st4. rewrite clear_tn, M1. apply lookup_delete_None. right. exact Hnone. }
    rewrite E. apply Hnt4, Hm. }
  assert (C3 : forall m, n_children (node_at st3 m) = if Nat.eqb m n then [] else n_children (node_at st m)).
  { intros m. assert (E : node_at st3 m = node_at (mv_start st n) m) by (unfold node_at; rewrite M8; reflexivity). rewrite E.
    unfold mv_start. rewrite setch_children by (rewrite (fr_len _ _ (decs_frame _ _)); exact Hnl).
    destruct (Nat.eqb m n); [reflexivity|apply decs_children]. }
  assert (C7 : forall m, n_children (node_at st7 m) = n_children (node_at st m)).
  { assert (C6 : forall m, n_children (node_at st6 m) = if Nat.eqb m n then [] else n_children (node_at st m)).
    { intros m. unfold st6. rewrite revive_children. unfold st5. rewrite assign_children. unfold st4. rewrite clear_children. apply C3. }
    intros m. unfold st7. rewrite setch_children.
    - rewrite app_nil_r, !C6, Nat.eqb_refl. destruct (Nat.eqb_spec m n) as [->|_]; [symmetry; exact W2|reflexivity].
    - rewrite (fr_len _ _ F6). unfold st5. rewrite assign_len. unfold st4. rewrite clear_len, M3. exact Hnl. }
  assert (L7 : forall m, n_lit (node_at st7 m) = n_lit (node_at st m)).
  { intros m. rewrite (fr_lit _ _ F). unfold st5. rewrite assign_lit. unfold st4. rewrite clear_lit. apply M5. }
  assert (Hstep : g_step st (MoveNode n t []) = Some st7).
  { cbn [g_step]. rewrite (move_node_unfold st n t [] Hnl). cbn [fold_left]. unfold mv_place. rewrite Ht0.
    destruct (coord_eqb t const0) eqn:E; [apply coord_eqb_spec in E; subst t; discriminate Hd|reflexivity]. }
  assert (Keep : forall u m, g_tn st !! u = Some m -> cd u = false -> g_tn st7 !! u = Some m).
  { intros u m H Hu. rewrite T7. rewrite lookup_insert_ne by (intros <-; congruence). rewrite lookup_delete_ne by (intros <-; discriminate Hu). exact H. }
  assert (Hcd : forall u e, G !! u = Some e -> exists m, g_tn st !! u = Some m /\ cd u = false).
  { intros u e H. destruct (ly_at _ _ _ _ _ _ L _ _ H) as (m & A & _ & _ & D). exists m. split; [exact A|]. destruct (cd u) eqn:E; [|reflexivity].
    pose proof (i_dead _ (i_0 _ Hinv) _ _ A E). destruct (e_pi e); [destruct D; lia|lia]. }
  constructor.
  - destruct (ly_ops _ _ _ _ _ _ L) as (ops & A & B & C). exists (ops ++ [MoveNode n t []]). split; [|split].
    + unfold reached in *. rewrite g_run_app, A. cbn [g_run]. rewrite Hstep. reflexivity.
    + apply Forall_app. split; [exact B|]. constructor; [unfold n; lia|constructor].
    + apply Forall_app. split; [exact C|]. constructor; [auto|constructor].
  - eapply inv1_step; [exact Hinv| |exact Hstep]. constructor; [unfold n; lia|constructor].
  - rewrite (fr_cl _ _ F). unfold st5. rewrite assign_cl. unfold st4. rewrite clear_cl, M4. apply L.
  - intros u e. rewrite lookup_insert_Some. intros [[<- <-]|[Ne H]].
    + exists n. rewrite T7, lookup_insert, C7, L7. cbn [e_ch e_lit e_pi]. rewrite W2, W3. split; [reflexivity|]. split; [reflexivity|]. split; [reflexivity|]. unfold n. split; lia.
    + destruct (Hcd _ _ H) as (m' & A' & Hu). destruct (ly_at _ _ _ _ _ _ L _ _ H) as (m & A & B & C & D). exists m. rewrite C7, L7. split; [apply Keep; assumption|].
      split; [exact B|]. split; [exact C|]. destruct (e_pi e); [destruct D; split; lia|exact D].
  - intros u m Hu H. rewrite fetch_insert. rewrite T7, lookup_insert_Some in H. destruct H as [[<- _]|[_ H]]; [auto|]. right.
    apply lookup_delete_Some in H as [_ H]. eapply ly_only; eassumption.
  - rewrite (fr_in _ _ F). unfold st5. rewrite assign_in. unfold st4. rewrite clear_in, M6. apply L.
  - intros i Hi. destruct (Nat.eq_dec i k) as [->|Ni].
    + exists t, (mkE [] 2 TN (Some k) false). split; [apply lookup_insert|reflexivity].
    + destruct (ly_pi _ _ _ _ _ _ L i ltac:(lia)) as (u & f & A & B). exists u, f. split; [|exact B]. rewrite lookup_insert_ne; [exact A|]. intros <-. congruence.
  - intros i Hi. destruct (ly_wait _ _ _ _ _ _ L i ltac:(lia)) as (A & B & C). rewrite N7 by (unfold n; lia). rewrite C7, L7. auto.
  - rewrite (fr_len _ _ F). unfold st5. rewrite assign_len. unfold st4. rewrite clear_len, M3. exact Hlen.
  - rewrite (fr_out _ _ F). unfold st5. rewrite assign_out, Hd, clear_out.
    assert (E : g_tn st4 !! t = None). { unfold st4. rewrite clear_tn, M1. apply lookup_delete_None. right. exact Hnone. }
    rewrite E. unfold st4. rewrite clear_out. unfold st3, mv_relabel. rewrite Hd. cbn [with_out g_out g_tn].
    rewrite (fr_out _ _ (mv_start_frame st n)), (ly_out _ _ _ _ _ _ L). cbn [map erase_first].
    destruct (g_tn (mv_start st n) !! const0); [|reflexivity]. destruct (cd const0); [reflexivity|]. destruct (is_wire _ _); reflexivity.
  - intros u. split; [intros []|]. intros (e & H & Hp). apply lookup_insert_Some in H as [[_ <-]|[_ H]]; [discriminate Hp|]. apply (ly_po _ _ _ _ _ _ L u). eauto.
  - intros i nm Hi Hnm. rewrite (fr_names _ _ F). unfold st5. rewrite assign_names. unfold st4. rewrite clear_names, M7. eapply ly_name; eassumption.
  - intros u nm [].
Qed.
