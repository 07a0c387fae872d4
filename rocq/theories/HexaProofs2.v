(** Proofs about hexagonalization: the copy of the layout. *)
From Coq Require Import ZArith Bool String List Lia ZifyBool.
From stdpp Require Import gmap list numbers strings.
From Verif Require Import CoordModel CoordSpec CoordProofs GridModel GridSpec GridProofs GridProps CoordMap ClockModel ClockSpec ClockProofs ClockProps
  GateModel GateSpec GateProofs GateProofs2 GateProofs3 PathSpec PathProofs5 RouteModel RouteSpec RouteProofs RouteProofs2 RouteProofs3 BuildProofs HexaModel HexaSpec HexaProofs.
Import ListNotations.
Local Open Scope Z_scope.

(** Renaming nodes and resizing. *)
Lemma wf_resize st ar : wf st -> dim_ok ar -> (forall t n, g_tn st !! t = Some n -> cd t = false -> inb ar t) -> wf (resize st ar).
Proof.
  intros [H1 Hc Hd Hin Hl Hz Hp] Had Hall. constructor; auto.
  apply (inv1_same st); [|reflexivity|reflexivity|reflexivity|reflexivity|exact H1]. apply (inv0_same st); try reflexivity. apply H1.
Qed.
Definition renamed (a b : glayout) : Prop := b = with_names a (g_names b).
Lemma renamed_refl a : renamed a a.
Proof. destruct a; reflexivity. Qed.
Lemma renamed_set a b n s : renamed a b -> renamed a (set_name b n s).
Proof. unfold renamed. intros E. rewrite E. reflexivity. Qed.
Lemma wf_renamed a b : renamed a b -> wf a -> wf b.
Proof.
  intros E [H1 Hc Hd Hin Hl Hz Hp]. rewrite E. constructor; auto.
  apply (inv1_same a); [|reflexivity|reflexivity|reflexivity|reflexivity|exact H1]. apply (inv0_same a); try reflexivity. apply H1.
Qed.

Section Hexa.
Context (src : glayout) (ar : coord) (nc : num_clks).
Context (Hwf : wf src) (Hcl : g_cl src = std_layout Cartesian ar (TWODDWAVE nc)) (Hcv : convertible src) (Hnd : List.NoDup (g_in src)).
Context (Hb : cx ar + cy ar < 2147483648).
Let H := cy ar + 1.
Let off := get_offset src (cx ar + 1) H.
Let image := to_hex_offset H off.

Lemma src_dim : cl_dim (g_cl src) = ar.
Proof. rewrite Hcl. reflexivity. Qed.
Lemma ar_ok' : 0 <= cx ar /\ 0 <= cy ar /\ 0 <= cz ar <= 1.
Proof. pose proof (w_dim _ Hwf) as D. rewrite src_dim in D. unfold dim_ok in D. lia. Qed.
Lemma occ_inb t : occupied src t -> inb ar t.
Proof. intros [Ht _]. rewrite src_dim in Ht. exact Ht. Qed.
Lemma empty_inb t : cd t = false -> is_empty_tile src t = false -> inb ar t.
Proof. intros Hd He. rewrite <- src_dim. eapply w_in; [exact Hwf|apply (occ_some src _ Hwf He)|exact Hd]. Qed.

Lemma off_facts : 0 <= off /\ (forall t, occupied src t -> off <= hex_col H (cx t - cy t)) /\
  ((exists t, occupied src t /\ off = hex_col H (cx t - cy t)) \/ (off = 0 /\ forall t, ~ occupied src t)).
Proof.
  destruct ar_ok' as (Ax & Ay & Az). destruct (offset_spec src ar Ax Ay Hb (proj1 Az) src_dim empty_inb) as (O1 & O2 & O3). fold H off in O1, O2, O3.
  split; [exact O1|]. split.
  - intros t Ht. specialize (O2 _ (cv_ground _ Hcv t Ht) eq_refl). exact O2.
  - destruct O3 as [(t & Ht & _ & E)|[E Hn]]; [left; exists t; auto|]. right. split; [exact E|]. intros t Ht. apply (Hn _ (cv_ground _ Hcv t Ht)). reflexivity.
Qed.
Lemma image_eq t : occupied src t -> image t = live (hex_col H (cx t - cy t) - off) (cx t + cy t) (cz t).
Proof.
  intros Ht. destruct off_facts as (O1 & O2 & _). specialize (O2 t Ht). pose proof (occ_inb t Ht) as Hi.
  unfold image, to_hex_offset. fold H. pose proof (to_hex_eq ar t Hi Hb) as E. fold H in E. rewrite E. cbn [cx cy cz live].
  destruct ar_ok' as (Ax & Ay & _). pose proof (hex_col_bounds ar t Hi) as B. pose proof (hex_col_small ar Ax Ay Hb) as S. fold H in B, S.
  rewrite fit31_id by lia. reflexivity.
Qed.
Definition xbound := hex_col H (cx ar).
Lemma image_bounds t : occupied src t -> cd (image t) = false /\ 0 <= cx (image t) <= xbound /\ 0 <= cy (image t) <= cx ar + cy ar /\ cz (image t) = cz t.
Proof.
  intros Ht. rewrite (image_eq t Ht). cbn. destruct off_facts as (O1 & O2 & _). specialize (O2 t Ht). pose proof (occ_inb t Ht) as Hi.
  pose proof (hex_col_bounds ar t Hi) as B. fold H in B. destruct Hi as (_ & X & Y & _). unfold xbound. repeat split; lia.
Qed.
Lemma image_turned t : occupied src t -> turned (1 + 2 * (H / 2) - 2 * off) t (image t).
Proof.
  intros Ht. rewrite (image_eq t Ht). unfold turned, hex_px, hex_py, hex_col. cbn. repeat split. zdiv.
Qed.
Lemma image_inj t u : occupied src t -> occupied src u -> image t = image u -> t = u.
Proof.
  intros Ht Hu E. destruct (image_turned t Ht) as (P1 & P2 & P3 & _). destruct (image_turned u Hu) as (Q1 & Q2 & Q3 & _). rewrite E in P1, P2, P3.
  pose proof (inb_live_eta _ _ (occ_inb t Ht)) as -> . pose proof (inb_live_eta _ _ (occ_inb u Hu)) as ->. f_equal; lia.
Qed.

(** Data flow on the Cartesian layout. *)
Lemma clks_ok : 1 <= num_clocks (g_cl src) <= 255.
Proof. rewrite Hcl. destruct nc; vm_compute; split; discriminate. Qed.
Lemma flow_dir u t : flows src u t -> occupied src u /\ occupied src t /\ cx u + cy u + 1 = cx t + cy t /\
  (cx t - cy t - (cx u - cy u) = 1 \/ cx t - cy t - (cx u - cy u) = -1).
Proof.
  intros Hf. destruct (flow_info _ _ _ Hwf Hf) as (Ou & Ot & _ & _ & _ & Htch & _).
  assert (Hwv := flow_wave_st src Cartesian ar (TWODDWAVE nc) Hwf Hcl clks_ok).
  assert (W : wave Cartesian (TWODDWAVE nc) t = wave Cartesian (TWODDWAVE nc) u + 1).
  { apply Hwv; [split; [exact I|congruence]| |exact Hf]. intros x y z1 z2. rewrite Hcl. reflexivity. }
  cbn in W. rewrite Hcl in Htch. cbn in Htch. destruct Htch as [_ Htch]. cbn in Htch. repeat split; try apply Ou; try apply Ot; lia.
Qed.

(** Kinds of tiles. *)
Lemma pi_tile_occ n : In n (g_in src) -> occupied src (get_tile src n) /\ get_node src (get_tile src n) = n.
Proof.
  intros Hn. destruct (cv_in _ Hcv n Hn) as (Hp & _). pose proof (w_pis _ Hwf n Hn) as [H2 _].
  destruct (tile_live src n Hwf H2 Hp) as [E1 E2]. split; [|exact E2]. split; [|exact E1]. rewrite src_dim. apply empty_inb; auto.
Qed.
Lemma is_pi_In n : is_pi src n = true <-> In n (g_in src).
Proof.
  unfold is_pi. rewrite existsb_exists. split; [intros (m & Hm & E); apply Nat.eqb_eq in E; subst; exact Hm|]. intros Hn. exists n. split; [exact Hn|apply Nat.eqb_refl].
Qed.
Lemma occ_tile t : occupied src t -> get_tile src (get_node src t) = t.
Proof. intros [Ht He]. apply (occ_live src t Hwf He (proj1 Ht)). Qed.
Lemma is_po_In t : occupied src t -> is_po src (get_node src t) = true <-> In t (g_out src).
Proof.
  intros Ht. unfold is_po. rewrite existsb_exists. split.
  - intros (o & Ho & E). apply Nat.eqb_eq in E. destruct (cv_out _ Hcv o Ho) as (Oo & _). rewrite <- (occ_tile t Ht), <- E, (occ_tile o Oo). exact Ho.
  - intros Ho. exists t. split; [exact Ho|apply Nat.eqb_refl].
Qed.
Definition gatey (t : coord) : bool := negb (is_empty_tile src t) && negb (is_pi src (get_node src t)) && negb (is_po src (get_node src t)).

Definition tname (t : coord) : string := get_name src (get_node src t).
Definition pi_item (n : nat) : item := IPi (tname (get_tile src n)) (image (get_tile src n)).
Definition gate_item (t : coord) : item := ILit (map image (incoming_data_flow true src t)) (n_lit (node_at src (get_node src t))) (image t).
Definition po_item (o : coord) : item := IPo (List.hd const0 (map image (incoming_data_flow true src o))) (tname o) (image o).
Definition cart_of (T : list coord) (pos : list coord) : list coord := map (get_tile src) (g_in src) ++ List.filter gatey T ++ pos.
Definition items (T pos : list coord) : list item := map pi_item (g_in src) ++ map gate_item (List.filter gatey T) ++ map po_item pos.
Lemma items_tiles T pos : map i_tile (items T pos) = map image (cart_of T pos).
Proof. unfold items, cart_of. rewrite !map_app, !map_map. reflexivity. Qed.

(** The maxima. *)
Definition seen (xm ym : Z) (S : list coord) : Prop :=
  0 <= xm <= xbound /\ 0 <= ym <= cx ar + cy ar /\ (forall t, In t S -> cx (image t) <= xm /\ cy (image t) <= ym) /\
  (xm = 0 \/ exists t, occupied src t /\ cx (image t) = xm) /\ (ym = 0 \/ exists t, occupied src t /\ cy (image t) = ym).
Lemma seen_bump xm ym S t : seen xm ym S -> occupied src t -> seen (Z.max (cx (image t)) xm) (Z.max (cy (image t)) ym) (S ++ [t]).
Proof.
  intros (A & B & C & D & E) Ht. destruct (image_bounds t Ht) as (_ & X & Y & _). repeat split; try lia.
  - apply in_app_iff in H0 as [K|[<-|[]]]; [apply C in K|]; lia.
  - apply in_app_iff in H0 as [K|[<-|[]]]; [apply C in K|]; lia.
  - destruct (Z.max_spec (cx (image t)) xm) as [[_ ->]|[_ ->]]; [exact D|right; eauto].
  - destruct (Z.max_spec (cy (image t)) ym) as [[_ ->]|[_ ->]]; [exact E|right; eauto].
Qed.
Lemma seen_weaken xm ym S S' : seen xm ym S -> (forall t, In t S' -> In t S) -> seen xm ym S'.
Proof. intros (A & B & C & D) HS. split; [exact A|]. split; [exact B|]. split; [|exact D]. intros t Ht. apply C, HS, Ht. Qed.

Let cl := mkCL (Hex EvenRow) (live (cx (to_hex H (live (cx ar) 0 0))) (cy (to_hex H (live (cx ar) (cy ar) 0))) (cz ar)) (clocking (Hex EvenRow) (ROW FOUR)).

Lemma fresh_image S t : (forall u, In u S -> occupied src u) -> occupied src t -> ~ In t S -> ~ In (image t) (map image S).
Proof. intros HS Ht Hn K. apply in_map_iff in K as (u & E & Hu). apply Hn. rewrite (image_inj t u); auto. Qed.

(** Primary inputs. *)
Lemma pis_ok : exists h xm ym, fold_left (hex_pi src H off) (g_in src) (g_empty cl, 0, 0) = (h, xm, ym) /\
  built cl (items [] []) h /\ seen xm ym (map (get_tile src) (g_in src)).
Proof.
  assert (G : forall l2 l1, g_in src = l1 ++ l2 -> forall h xm ym, built cl (map pi_item l1) h -> seen xm ym (map (get_tile src) l1) ->
    exists h' xm' ym', fold_left (hex_pi src H off) l2 (h, xm, ym) = (h', xm', ym') /\ built cl (map pi_item (g_in src)) h' /\ seen xm' ym' (map (get_tile src) (g_in src))).
  { induction l2 as [|n l2 IH]; intros l1 E h xm ym Bh Sh.
    - rewrite app_nil_r in E. rewrite E. exists h, xm, ym. auto.
    - cbn [fold_left]. assert (Hn : In n (g_in src)) by (rewrite E; apply in_app_iff; right; left; reflexivity).
      destruct (pi_tile_occ n Hn) as [Ot En].
      assert (Hs : hex_pi src H off (h, xm, ym) n = (run_item h (pi_item n), Z.max (cx (image (get_tile src n))) xm, Z.max (cy (image (get_tile src n))) ym)).
      { cbn [hex_pi]. cbv zeta. unfold pi_item, tname, run_item, image. cbn [bump]. reflexivity. }
      rewrite Hs. apply (IH (l1 ++ [n])).
      + rewrite E, <- app_assoc. reflexivity.
      + rewrite map_app. apply built_snoc; [exact Bh|apply (image_bounds _ Ot)|].
        rewrite map_map. change (fun x => i_tile (pi_item x)) with (fun x => image (get_tile src x)). rewrite <- (map_map (get_tile src) image).
        apply fresh_image; [|exact Ot|].
        * intros u Hu. apply in_map_iff in Hu as (m & <- & Hm). apply pi_tile_occ. rewrite E. apply in_app_iff. left. exact Hm.
        * intros K. apply in_map_iff in K as (m & Em & Hm). assert (m = n) as ->.
          { rewrite <- En, <- (proj2 (pi_tile_occ m ltac:(rewrite E; apply in_app_iff; left; exact Hm))), Em. reflexivity. }
          rewrite E in Hnd. apply List.NoDup_remove_2 in Hnd. apply Hnd, in_app_iff. left. exact Hm.
      + rewrite map_app. apply seen_bump; [exact Sh|exact Ot]. }
  destruct (G (g_in src) [] eq_refl (g_empty cl) 0 0) as (h & xm & ym & E & Bh & Sh).
  - apply built_nil.
  - destruct ar_ok' as (Ax & Ay & _). assert (0 <= xbound) by (unfold xbound, hex_col, H; zdiv).
    refine (conj _ (conj _ (conj _ (conj (or_introl eq_refl) (or_introl eq_refl))))); [lia|lia|intros t []].
  - exists h, xm, ym. split; [exact E|]. split; [|exact Sh]. unfold items. cbn [List.filter map]. rewrite !app_nil_r. exact Bh.
Qed.

Lemma gatey_iff t : inb ar t -> gatey t = true <-> occupied src t /\ is_pi src (get_node src t) = false /\ is_po src (get_node src t) = false.
Proof.
  intros Ht. unfold gatey, occupied. rewrite src_dim, !andb_true_iff, !negb_true_iff. tauto.
Qed.
(** The source of a signal is already there. *)
Lemma source_there T1 t T2 a h pos : diagonal_tiles ar = T1 ++ t :: T2 -> built cl (items T1 pos) h -> flows src a t -> signal_at h (image a) = image a.
Proof.
  intros E B Hf. destruct (flow_dir a t Hf) as (Oa & Ot & Hs & _). unfold signal_at. apply (built_signal _ _ _ _ B). rewrite items_tiles. apply in_map.
  unfold cart_of. destruct (is_pi src (get_node src a)) eqn:Ep.
  - apply in_app_iff. left. apply is_pi_In in Ep. rewrite <- (occ_tile a Oa). apply in_map. exact Ep.
  - apply in_app_iff. right. apply in_app_iff. left. apply filter_In. split.
    + destruct ar_ok' as (Ax & Ay & _). eapply diagonal_before; eauto; [apply occ_inb, Oa|lia].
    + apply gatey_iff; [apply occ_inb, Oa|]. split; [exact Oa|]. split; [exact Ep|]. destruct (is_po src (get_node src a)) eqn:Eo; [|reflexivity].
      exfalso. apply is_po_In in Eo; [|exact Oa]. destruct (cv_out _ Hcv a Eo) as (_ & _ & _ & _ & Hno). exact (Hno t Hf).
Qed.

(** All other tiles. *)
Lemma tiles_ok : forall T2 T1, diagonal_tiles ar = T1 ++ T2 -> forall h xm ym, built cl (items T1 []) h ->
  seen xm ym (map (get_tile src) (g_in src) ++ List.filter (fun t => negb (is_empty_tile src t) && negb (is_pi src (get_node src t))) T1) ->
  exists h' xm' ym', fold_opt (hex_tile src H off) T2 (Some (h, xm, ym)) = Some (h', xm', ym') /\ built cl (items (diagonal_tiles ar) []) h' /\
    seen xm' ym' (map (get_tile src) (g_in src) ++ List.filter (fun t => negb (is_empty_tile src t) && negb (is_pi src (get_node src t))) (diagonal_tiles ar)).
Proof.
  destruct ar_ok' as (Ax & Ay & _).
  induction T2 as [|t T2 IH]; intros T1 E h xm ym B S.
  - rewrite app_nil_r in E. rewrite E. exists h, xm, ym. split; [reflexivity|]. auto.
  - assert (Hit : inb ar t). { apply diagonal_In; auto. rewrite E. apply in_app_iff. right. left. reflexivity. }
    assert (E' : diagonal_tiles ar = (T1 ++ [t]) ++ T2) by (rewrite E, <- app_assoc; reflexivity).
    specialize (IH (T1 ++ [t]) E').
    set (nonpi := fun t => negb (is_empty_tile src t) && negb (is_pi src (get_node src t))) in *.
    assert (Skip : gatey t = false -> items (T1 ++ [t]) [] = items T1 []).
    { intros G. unfold items. rewrite List.filter_app. cbn [List.filter]. rewrite G, (app_nil_r (List.filter gatey T1)). reflexivity. }
    assert (SkipS : nonpi t = false -> List.filter nonpi (T1 ++ [t]) = List.filter nonpi T1).
    { intros G. rewrite List.filter_app. cbn [List.filter]. rewrite G, app_nil_r. reflexivity. }
    unfold fold_opt. cbn [fold_left]. unfold hex_tile at 2. unfold gatey in Skip.
    destruct (is_empty_tile src t) eqn:Ee.
    { apply IH; [rewrite Skip by reflexivity; exact B|rewrite SkipS by (unfold nonpi; rewrite Ee; reflexivity); exact S]. }
    assert (Ot : occupied src t) by (split; [rewrite src_dim; exact Hit|exact Ee]). cbv zeta.
    destruct (is_pi src (get_node src t)) eqn:Ep.
    { apply IH; [rewrite Skip by reflexivity; exact B|rewrite SkipS by (unfold nonpi; rewrite Ee, Ep; reflexivity); exact S]. }
    cbn [bump]. change (to_hex_offset H off) with image.
    assert (S' : seen (Z.max (cx (image t)) xm) (Z.max (cy (image t)) ym) (map (get_tile src) (g_in src) ++ List.filter nonpi (T1 ++ [t]))).
    { rewrite List.filter_app. cbn [List.filter]. assert (nonpi t = true) as -> by (unfold nonpi; rewrite Ee, Ep; reflexivity).
      rewrite app_assoc. apply seen_bump; [exact S|exact Ot]. }
    destruct (is_po src (get_node src t)) eqn:Eo.
    { destruct (cv_out _ Hcv t (proj1 (is_po_In t Ot) Eo)) as (_ & _ & _ & (u & Eu) & _). rewrite Eu.
      apply IH; [rewrite Skip by reflexivity; exact B|exact S']. }
    assert (Gt : gatey t = true) by (unfold gatey; rewrite Ee, Ep, Eo; reflexivity).
    assert (Step : built cl (items (T1 ++ [t]) []) (run_item h (gate_item t))).
    { assert (items (T1 ++ [t]) [] = items T1 [] ++ [gate_item t]) as ->.
      { unfold items. rewrite List.filter_app. cbn [List.filter map]. rewrite Gt, map_app. cbn [map]. rewrite !app_nil_r, <- app_assoc. reflexivity. }
      apply built_snoc; [exact B|apply (image_bounds _ Ot)|]. rewrite items_tiles. apply fresh_image; [|exact Ot|].
      - intros u Hu. unfold cart_of in Hu. rewrite app_nil_r in Hu. apply in_app_iff in Hu as [Hu|Hu].
        + apply in_map_iff in Hu as (m & <- & Hm). apply pi_tile_occ, Hm.
        + apply filter_In in Hu as [Hu Gu]. apply gatey_iff in Gu; [apply Gu|]. apply diagonal_In; auto. rewrite E. apply in_app_iff. left. exact Hu.
      - intros K. unfold cart_of in K. rewrite app_nil_r in K. apply in_app_iff in K as [K|K].
        + apply in_map_iff in K as (m & <- & Hm). rewrite (proj2 (pi_tile_occ m Hm)) in Ep. apply is_pi_In in Hm. congruence.
        + apply filter_In in K as [K _]. pose proof (diagonal_NoDup ar) as ND. rewrite E in ND. apply List.NoDup_remove_2 in ND. apply ND, in_app_iff. left. exact K. }
    destruct (cv_gate _ Hcv t Ot Ep Eo) as [(a & Ea & Hl)|(a & b & Ea & Hl)]; rewrite Ea.
    + unfold place1. rewrite (source_there T1 t T2 a h [] E B) by (unfold flows; rewrite Ea; left; reflexivity).
      unfold gate_item in Step. rewrite Ea in Step. cbn [map run_item] in Step.
      destruct (Z.eqb_spec (n_lit (node_at src (get_node src t))) 3) as [E3|N3]; [rewrite E3 in Step; apply IH; auto|].
      destruct (Z.eqb_spec (n_lit (node_at src (get_node src t))) 2) as [E2|N2]; [rewrite E2 in Step; apply IH; auto|]. lia.
    + unfold place2. rewrite (source_there T1 t T2 a h [] E B) by (unfold flows; rewrite Ea; left; reflexivity).
      rewrite (source_there T1 t T2 b h [] E B) by (unfold flows; rewrite Ea; right; left; reflexivity).
      unfold gate_item in Step. rewrite Ea in Step. cbn [map run_item] in Step.
      destruct (Z.eqb_spec (n_lit (node_at src (get_node src t))) 14) as [E3|N3]; [lia|]. apply IH; auto.
Qed.

(** Primary outputs. *)
Lemma pos_ok : forall l2 l1, g_out src = l1 ++ l2 -> forall h xm ym T, (forall t, In t T -> inb ar t) -> (forall t, inb ar t -> In t T) ->
  built cl (items T l1) h -> forall S, seen xm ym S ->
  exists h' xm' ym', fold_opt (hex_po src H off) l2 (Some (h, xm, ym)) = Some (h', xm', ym') /\ built cl (items T (g_out src)) h' /\ seen xm' ym' (S ++ l2).
Proof.
  induction l2 as [|o l2 IH]; intros l1 E h xm ym T HT HT' B S Hs.
  - rewrite app_nil_r in E |- *. rewrite E. exists h, xm, ym. split; [reflexivity|]. auto.
  - assert (Ho : In o (g_out src)) by (rewrite E; apply in_app_iff; right; left; reflexivity).
    destruct (cv_out _ Hcv o Ho) as (Oo & Epi & Ew & (u & Eu) & _).
    unfold fold_opt. cbn [fold_left]. unfold hex_po at 2. cbv zeta. rewrite (occ_tile o Oo), Eu. cbn [bump]. change (to_hex_offset H off) with image.
    assert (Fu : flows src u o) by (unfold flows; rewrite Eu; left; reflexivity). destruct (flow_dir u o Fu) as (Ou & _ & _ & _).
    assert (Esig : signal_at h (image u) = image u).
    { unfold signal_at. apply (built_signal _ _ _ _ B). rewrite items_tiles. apply in_map. unfold cart_of.
      destruct (is_pi src (get_node src u)) eqn:Ep.
      - apply in_app_iff. left. apply is_pi_In in Ep. rewrite <- (occ_tile u Ou). apply in_map. exact Ep.
      - apply in_app_iff. right. apply in_app_iff. left. apply filter_In. split; [apply HT', occ_inb, Ou|]. apply gatey_iff; [apply occ_inb, Ou|].
        split; [exact Ou|]. split; [exact Ep|]. destruct (is_po src (get_node src u)) eqn:Eo; [|reflexivity].
        exfalso. apply is_po_In in Eo; [|exact Ou]. destruct (cv_out _ Hcv u Eo) as (_ & _ & _ & _ & Hno). exact (Hno o Fu). }
    rewrite Esig. change (create_po h (image u) (get_name src (get_node src o)) (image o)) with (run_item h (IPo (image u) (tname o) (image o))).
    assert (Eit : IPo (image u) (tname o) (image o) = po_item o) by (unfold po_item; rewrite Eu; reflexivity). rewrite Eit.
    destruct (IH (l1 ++ [o]) ltac:(rewrite E, <- app_assoc; reflexivity) (run_item h (po_item o)) (Z.max (cx (image o)) xm) (Z.max (cy (image o)) ym) T HT HT') with (S := S ++ [o])
      as (h' & xm' & ym' & F & B' & S'); [|apply seen_bump; auto|].
    + assert (items T (l1 ++ [o]) = items T l1 ++ [po_item o]) as -> by (unfold items; rewrite map_app, !app_assoc; reflexivity).
      apply built_snoc; [exact B|apply (image_bounds _ Oo)|]. rewrite items_tiles. apply fresh_image; [|exact Oo|].
      * intros v Hv. unfold cart_of in Hv. rewrite !in_app_iff in Hv. destruct Hv as [Hv|[Hv|Hv]].
        -- apply in_map_iff in Hv as (m & <- & Hm). apply pi_tile_occ, Hm.
        -- apply filter_In in Hv as [Hv Gv]. apply gatey_iff in Gv; [apply Gv|apply HT, Hv].
        -- apply (cv_out _ Hcv). rewrite E. apply in_app_iff. left. exact Hv.
      * intros K. unfold cart_of in K. rewrite !in_app_iff in K. destruct K as [K|[K|K]].
        -- apply in_map_iff in K as (m & <- & Hm). rewrite (proj2 (pi_tile_occ m Hm)) in Epi. apply is_pi_In in Hm. congruence.
        -- apply filter_In in K as [K Gk]. apply gatey_iff in Gk; [|apply HT, K]. destruct Gk as (_ & _ & G3). apply is_po_In in Ho; [congruence|exact Oo].
        -- pose proof (cv_nodup _ Hcv) as ND. rewrite E in ND. apply List.NoDup_remove_2 in ND. apply ND, in_app_iff. left. exact K.
    + exists h', xm', ym'. split; [exact F|]. split; [exact B'|]. rewrite <- app_assoc in S'. exact S'.
Qed.

(** All nodes. *)
Definition L := items (diagonal_tiles ar) (g_out src).
Lemma item_of t : occupied src t -> exists i it, L !! i = Some it /\ i_tile it = image t /\ i_ch it = map image (incoming_data_flow true src t) /\
  i_lit it = n_lit (node_at src (get_node src t)) /\ is_ipi it = is_pi src (get_node src t) /\ is_ipo it = is_po src (get_node src t) /\
  (is_ipi it || is_ipo it = true -> i_name it = tname t).
Proof.
  intros Ot. destruct ar_ok' as (Ax & Ay & _).
  assert (G : exists it, In it L /\ i_tile it = image t /\ i_ch it = map image (incoming_data_flow true src t) /\
    i_lit it = n_lit (node_at src (get_node src t)) /\ is_ipi it = is_pi src (get_node src t) /\ is_ipo it = is_po src (get_node src t) /\
    (is_ipi it || is_ipo it = true -> i_name it = tname t)).
  { unfold L, items. destruct (is_pi src (get_node src t)) eqn:Ep.
    - pose proof (proj1 (is_pi_In _) Ep) as Hn. destruct (cv_in _ Hcv _ Hn) as (_ & Hw & Hi). rewrite (occ_tile t Ot) in Hi.
      exists (pi_item (get_node src t)). unfold pi_item. cbn [i_tile i_ch i_lit is_ipi is_ipo i_name]. rewrite (occ_tile t Ot), Hi.
      split; [apply in_app_iff; left; apply in_map_iff; exists (get_node src t); split; [|exact Hn]; unfold pi_item; rewrite (occ_tile t Ot); reflexivity|].
      split; [reflexivity|]. split; [reflexivity|]. split; [unfold is_wire in Hw; lia|]. split; [reflexivity|]. split; [|reflexivity].
      destruct (is_po src (get_node src t)) eqn:Eo; [|reflexivity]. apply is_po_In in Eo; [|exact Ot]. destruct (cv_out _ Hcv t Eo) as (_ & K & _). congruence.
    - destruct (is_po src (get_node src t)) eqn:Eo.
      + pose proof (proj1 (is_po_In t Ot) Eo) as Ho. destruct (cv_out _ Hcv t Ho) as (_ & _ & Hw & (u & Eu) & _).
        exists (po_item t). unfold po_item. rewrite Eu. cbn [i_tile i_ch i_lit is_ipi is_ipo i_name map List.hd].
        split; [|repeat split; unfold is_wire in Hw; lia].
        apply in_app_iff; right; apply in_app_iff; right. apply in_map_iff. exists t. split; [|exact Ho]. unfold po_item. rewrite Eu. reflexivity.
      + exists (gate_item t). unfold gate_item. cbn [i_tile i_ch i_lit is_ipi is_ipo i_name]. split; [|repeat split; discriminate].
        apply in_app_iff; right; apply in_app_iff; left. apply in_map_iff. exists t. split; [reflexivity|]. apply filter_In.
        split; [apply diagonal_In; auto; apply occ_inb, Ot|]. apply gatey_iff; [apply occ_inb, Ot|]. auto. }
  destruct G as (it & Hit & G). apply elem_of_list_In, elem_of_list_lookup in Hit as (i & Hit). exists i, it. auto.
Qed.
Lemma item_occ it : In it L -> exists t, occupied src t /\ i_tile it = image t.
Proof.
  intros Hit. destruct ar_ok' as (Ax & Ay & _). apply (in_map i_tile) in Hit. unfold L in Hit. rewrite items_tiles in Hit.
  apply in_map_iff in Hit as (t & E & Ht). exists t. split; [|auto]. unfold cart_of in Ht. rewrite !in_app_iff in Ht. destruct Ht as [Ht|[Ht|Ht]].
  - apply in_map_iff in Ht as (m & <- & Hm). apply pi_tile_occ, Hm.
  - apply filter_In in Ht as [Ht Gt]. apply diagonal_In in Ht; auto. apply gatey_iff in Gt; [apply Gt|exact Ht].
  - apply (cv_out _ Hcv t Ht).
Qed.

Lemma all_flow st v us : wf st -> 1 <= num_clocks (g_cl st) <= 255 -> occupied st v -> n_children (node_at st (get_node st v)) = us ->
  (forall u, In u us -> occupied st u /\ next_to st u v /\ next_zone (g_cl st) u v) -> incoming_data_flow true st v = us.
Proof.
  intros Hw Hn [Iv Ev] Hc Hu. pose proof (w_1 _ Hw) as Hi. destruct (occ_live st v Hi Ev (proj1 Iv)) as (V2 & Vt & _).
  unfold incoming_data_flow, foreach_fanin. destruct (is_constant (get_node st v)) eqn:Ec; [unfold is_constant in Ec; apply Nat.leb_le in Ec; lia|].
  cbv zeta. rewrite Hc, Vt. clear Hc. induction us as [|u us IH]; [reflexivity|]. cbn [List.filter].
  destruct (Hu u ltac:(left; reflexivity)) as ([Iu Eu] & [_ Ht] & Hz). destruct (occ_live st u Hi Eu (proj1 Iu)) as (U2 & Ut & _). rewrite Ut.
  assert (is_adjacent_elevation_of (cl_topo (g_cl st)) (cl_dim (g_cl st)) v u && is_incoming_clocked (g_cl st) v u = true) as ->.
  { apply andb_true_iff. split.
    - apply C08_elevation; [apply Hw|exact Iv|]. split; [exact Iu|]. split; [exact Ht|].
      destruct (w_dim _ Hw) as (_ & _ & Hd), Iu as (_ & _ & _ & Z1), Iv as (_ & _ & _ & Z2). lia.
    - rewrite in_out, out_clocked_iff by exact Hn. split; [|exact Hz]. intros ->. rewrite <- (inb_live_eta _ _ Iv) in Ht. eapply touch_irrefl; eauto. }
  cbn [map]. rewrite Ut. f_equal. apply IH. intros w Hw'. apply Hu. right. exact Hw'.
Qed.

(** Names. *)
Definition named (d : glayout) : Prop := forall t, occupied src t -> is_pi src (get_node src t) = true \/ is_po src (get_node src t) = true ->
  tname t <> ""%string -> g_names d !! get_node d (image t) = Some (tname t).
Lemma named_set R d t0 : built cl L R -> g_tn d = g_tn R -> occupied src t0 -> named d -> named (set_name d (get_node d (image t0)) (tname t0)).
Proof.
  intros B Et O0 Hd t Ot Hio Hne. cbn. change (get_node (set_name d (get_node d (image t0)) (tname t0)) (image t)) with (get_node d (image t)).
  destruct (decide (t = t0)) as [->|Hne']; [rewrite lookup_insert; reflexivity|].
  rewrite lookup_insert_ne; [apply Hd; auto|]. intros E. apply Hne'.
  destruct (item_of t Ot) as (i & it & Hi & Ti & _). destruct (item_of t0 O0) as (j & jt & Hj & Tj & _).
  assert (En : forall x, get_node d x = get_node R x) by (intros; unfold get_node; rewrite Et; reflexivity).
  rewrite !En, <- Ti, <- Tj, (built_node _ _ _ _ _ B Hi), (built_node _ _ _ _ _ B Hj) in E. assert (i = j) by lia. subst j.
  rewrite Hi in Hj. inversion Hj; subst jt. apply image_inj; auto. congruence.
Qed.

Lemma in_tiles_L : map i_tile (List.filter is_ipi L) = map (fun n => image (get_tile src n)) (g_in src).
Proof.
  unfold L, items. rewrite !List.filter_app.
  assert (E1 : List.filter is_ipi (map pi_item (g_in src)) = map pi_item (g_in src)) by (clear; induction (g_in src) as [|n l IH]; cbn; [reflexivity|rewrite IH; reflexivity]).
  assert (E2 : forall l, List.filter is_ipi (map gate_item l) = []) by (clear; induction l as [|n l IH]; cbn; auto).
  assert (E3 : forall l, List.filter is_ipi (map po_item l) = []) by (clear; induction l as [|n l IH]; cbn; auto).
  rewrite E1, E2, E3, app_nil_r, map_map. reflexivity.
Qed.
Lemma out_tiles_L : po_tiles L = map image (g_out src).
Proof.
  unfold po_tiles, L, items. rewrite !List.filter_app.
  assert (E1 : forall l, List.filter is_ipo (map pi_item l) = []) by (clear; induction l as [|n l IH]; cbn; auto).
  assert (E2 : forall l, List.filter is_ipo (map gate_item l) = []) by (clear; induction l as [|n l IH]; cbn; auto).
  assert (E3 : forall l, List.filter is_ipo (map po_item l) = map po_item l) by (clear; induction l as [|n l IH]; cbn; [reflexivity|rewrite IH; reflexivity]).
  rewrite E1, E2, E3. cbn [app]. rewrite map_map. reflexivity.
Qed.

Lemma restore_ok R d0 : built cl L R -> renamed d0 d0 -> g_tn d0 = g_tn R -> g_nt d0 = g_nt R -> g_in d0 = g_in R -> g_out d0 = g_out R -> named d0 ->
  renamed d0 (restore_names src d0) /\ named (restore_names src d0).
Proof.
  intros B _ Etn Ent Ein Eout Hn0.
  assert (Hsame : forall d, renamed d0 d -> g_tn d = g_tn R /\ g_nt d = g_nt R /\ g_in d = g_in R /\ g_out d = g_out R).
  { intros d ->. cbn. auto. }
  assert (G1 : forall is d, (forall i, In i is -> (i < length (g_in src))%nat) -> renamed d0 d -> named d ->
    let d' := fold_left (fun d i => let nm := get_name src (get_node src (get_tile src (nth i (g_in src) 0%nat))) in
                if String.eqb nm "" then d else set_name d (get_node d (get_tile d (nth i (g_in d) 0%nat))) nm) is d in renamed d0 d' /\ named d').
  { induction is as [|i is IH]; intros d Hi Hr Hnm; [auto|]. cbn [fold_left]. cbv zeta.
    assert (Hlt : (i < length (g_in src))%nat) by (apply Hi; left; reflexivity).
    destruct (String.eqb_spec (get_name src (get_node src (get_tile src (nth i (g_in src) 0%nat)))) "") as [E0|N0].
    - apply IH; auto. intros j Hj. apply Hi. right. exact Hj.
    - destruct (Hsame d Hr) as (A & B1 & C & D). set (n := nth i (g_in src) 0%nat) in *.
      assert (Hin : In n (g_in src)) by (apply nth_In; exact Hlt).
      assert (Ei : get_tile d (nth i (g_in d) 0%nat) = image (get_tile src n)).
      { assert (M : map (get_tile d) (g_in d) = map (fun n => image (get_tile src n)) (g_in src)).
        { rewrite C. assert (forall m, get_tile d m = get_tile R m) as Eg by (intros; unfold get_tile; rewrite B1; reflexivity).
          rewrite (map_ext _ _ Eg), (built_in_tiles _ _ _ B). apply in_tiles_L. }
        assert (Hl : length (g_in d) = length (g_in src)) by (apply (f_equal (@length coord)) in M; rewrite !map_length in M; exact M).
        transitivity (nth i (map (get_tile d) (g_in d)) const0).
        - rewrite (nth_indep _ const0 (get_tile d 0%nat)) by (rewrite map_length; lia). rewrite map_nth. reflexivity.
        - rewrite M, (nth_indep _ const0 (image (get_tile src 0%nat))) by (rewrite map_length; lia).
          rewrite (map_nth (fun n => image (get_tile src n))). reflexivity. }
      rewrite Ei. apply IH; [intros j Hj; apply Hi; right; exact Hj|apply renamed_set; exact Hr|].
      change (get_name src (get_node src (get_tile src n))) with (tname (get_tile src n)).
      apply (named_set R); auto. apply (pi_tile_occ n Hin). }
  assert (G2 : forall is d, (forall i, In i is -> (i < length (g_out src))%nat) -> renamed d0 d -> named d ->
    let d' := fold_left (fun d i => let nm := get_output_name src i in
                if String.eqb nm "" then d else match g_out d !! i with Some s => set_name d (get_node d s) nm | None => d end) is d in renamed d0 d' /\ named d').
  { induction is as [|i is IH]; intros d Hi Hr Hnm; [auto|]. cbn [fold_left]. cbv zeta.
    assert (Hlt : (i < length (g_out src))%nat) by (apply Hi; left; reflexivity).
    assert (Hi' : forall j, In j is -> (j < length (g_out src))%nat) by (intros j Hj; apply Hi; right; exact Hj).
    destruct (String.eqb_spec (get_output_name src i) "") as [E0|N0]; [apply IH; auto|].
    destruct (Hsame d Hr) as (A & B1 & C & D). rewrite D, (b_out _ _ _ B), out_tiles_L. rewrite list_lookup_fmap.
    destruct (g_out src !! i) as [o|] eqn:Eo; [|apply lookup_ge_None in Eo; lia]. cbn [fmap option_fmap option_map].
    assert (Ho : In o (g_out src)) by (apply elem_of_list_In; eapply elem_of_list_lookup_2; eauto).
    apply IH; [exact Hi'|apply renamed_set; exact Hr|].
    assert (get_output_name src i = tname o) as -> by (unfold get_output_name, tname; rewrite Eo; reflexivity).
    apply (named_set R); auto. apply (cv_out _ Hcv o Ho). }
  unfold restore_names, restore_output_names, restore_input_names.
  destruct (G1 (seq 0 (length (g_in src))) d0) as [R1 N1]; [intros i Hi; apply in_seq in Hi; lia|apply renamed_refl|exact Hn0|].
  apply G2; auto. intros i Hi. apply in_seq in Hi. lia.
Qed.

Lemma hexa_ok (Hb' : cx ar + cy ar < 2147483647) : exists h, hexagonalization src = Some h /\ mirrors src h image /\
  (exists w ht, g_cl h = std_layout (Hex EvenRow) (live w ht (cz ar)) (ROW FOUR)) /\ wf h /\
  (forall t0, occupied src t0 -> (exists t, occupied src t /\ cx (image t) = 0) /\ (exists t, occupied src t /\ cx (image t) = cx (cl_dim (g_cl h))) /\
     (exists t, occupied src t /\ cy (image t) = cy (cl_dim (g_cl h)))).
Proof.
  destruct ar_ok' as (Ax & Ay & Az).
  destruct pis_ok as (h1 & xm1 & ym1 & E1 & B1 & S1).
  destruct (tiles_ok (diagonal_tiles ar) [] eq_refl h1 xm1 ym1) as (h2 & xm2 & ym2 & E2 & B2 & S2).
  { exact B1. } { rewrite app_nil_r. exact S1. }
  destruct (pos_ok (g_out src) [] eq_refl h2 xm2 ym2 (diagonal_tiles ar)) with (S := map (get_tile src) (g_in src) ++ List.filter (fun t => negb (is_empty_tile src t) && negb (is_pi src (get_node src t))) (diagonal_tiles ar))
    as (h3 & xm & ym & E3 & B3 & S3); [intros t; apply diagonal_In; auto|intros t; apply diagonal_In; auto|exact B2|exact S2|]. fold L in B3.
  destruct S3 as (Xm & Ym & Hall & Xt & Yt).
  assert (Hseen : forall t, occupied src t -> cx (image t) <= xm /\ cy (image t) <= ym).
  { intros t Ot. apply Hall. apply in_app_iff. left. apply in_app_iff. destruct (is_pi src (get_node src t)) eqn:Ep.
    - left. apply is_pi_In in Ep. rewrite <- (occ_tile t Ot). apply in_map, Ep.
    - right. apply filter_In. split; [apply diagonal_In; auto; apply occ_inb, Ot|]. destruct Ot as [_ ->]. rewrite Ep. reflexivity. }
  pose proof (hex_col_small ar Ax Ay Hb) as Hsm. fold H in Hsm. fold xbound in Hsm.
  set (D := live xm ym (cz ar)). set (R := resize h3 D).
  assert (Ecl : cl_dim cl = live xbound (cx ar + cy ar) (cz ar)).
  { unfold cl. cbn [cl_dim]. f_equal.
    - pose proof (to_hex_eq ar (live (cx ar) 0 0)) as E. fold H in E. rewrite E; [|unfold inb; cbn; lia|exact Hb]. cbn. unfold xbound. f_equal. lia.
    - pose proof (to_hex_eq ar (live (cx ar) (cy ar) 0)) as E. fold H in E. rewrite E; [|unfold inb; cbn; lia|exact Hb]. reflexivity. }
  assert (Hzb : forall t, occupied src t -> 0 <= cz t <= cz ar) by (intros t Ot; apply occ_inb in Ot; apply Ot).
  assert (W3 : wf h3).
  { eapply built_wf; [exact B3| |].
    - rewrite Ecl. unfold dim_ok. cbn [cx cy cz live]. change (2 ^ 31 - 1) with 2147483647. pose proof (hex_col_bounds ar (live (cx ar) 0 0)) as K. fold H in K. fold xbound in K. unfold inb in K. cbn [cx cy cz cd live] in K. lia.
    - intros it Hit. destruct (item_occ it Hit) as (t & Ot & ->). rewrite Ecl. destruct (image_bounds t Ot) as (A & B & C & E). specialize (Hzb t Ot).
      unfold inb. cbn [cx cy cz live]. rewrite E. split; [exact A|lia]. }
  assert (Himg : forall t, occupied src t -> inb D (image t)).
  { intros t Ot. destruct (image_bounds t Ot) as (A & B & C & E). specialize (Hseen t Ot). specialize (Hzb t Ot). unfold inb, D. cbn [cx cy cz live]. rewrite E. split; [exact A|lia]. }
  assert (WR : wf R).
  { apply wf_resize; [exact W3|unfold dim_ok, D; cbn [cx cy cz live]; change (2 ^ 31 - 1) with 2147483647; lia|]. intros t n Ht Hd. destruct (b_only _ _ _ B3 _ _ Hd Ht) as (i & it & Hi & _ & ->).
    destruct (item_occ it) as (u & Ou & ->); [apply elem_of_list_In; eapply elem_of_list_lookup_2; eauto|]. apply Himg, Ou. }
  assert (NR : named R).
  { intros t Ot Hio Hne. destruct (item_of t Ot) as (i & it & Hi & Ti & _ & _ & Tp & To & Tn).
    change (g_names R) with (g_names h3). change (get_node R) with (get_node h3). rewrite <- Ti, (built_node _ _ _ _ _ B3 Hi).
    assert (Hk : is_ipi it || is_ipo it = true) by (rewrite Tp, To; destruct Hio as [-> | ->]; [reflexivity|apply orb_true_r]).
    rewrite <- (Tn Hk). apply (b_name _ _ _ B3 _ _ Hi Hk). rewrite (Tn Hk). exact Hne. }
  destruct (restore_ok h3 R B3 (renamed_refl R) eq_refl eq_refl eq_refl eq_refl NR) as [RR NN].
  set (F := restore_names src R) in *.
  exists F. split.
  { unfold hexagonalization. rewrite src_dim. fold H. assert (2147483648 <=? cx ar + cy ar = false) as -> by lia. fold cl. fold off.
    unfold foreach_pi, foreach_po. cbv zeta. rewrite E1. unfold hstate in *. rewrite E2, E3. f_equal. unfold F, R, D. f_equal. f_equal. rewrite !fit31_id; [reflexivity| |]; lia. }
  assert (WF : wf F) by (apply (wf_renamed R); auto).
  assert (Ecl' : g_cl F = std_layout (Hex EvenRow) D (ROW FOUR)).
  { rewrite RR. cbn [g_cl with_names]. unfold R, resize. cbn [g_cl with_cl]. rewrite (b_cl _ _ _ B3). reflexivity. }
  assert (Etn : forall x, get_node F x = get_node h3 x) by (intros x; unfold get_node; rewrite RR; reflexivity).
  assert (Ent : forall x, get_tile F x = get_tile h3 x) by (intros x; unfold get_tile; rewrite RR; reflexivity).
  assert (Enode : forall n, node_at F n = node_at h3 n) by (intros n; unfold node_at; rewrite RR; reflexivity).
  assert (Eemp : forall t, is_empty_tile F t = is_empty_tile h3 t) by (intros t; unfold is_empty_tile; rewrite Etn; reflexivity).
  assert (Epi : forall n, is_pi F n = is_pi h3 n) by (intros n; unfold is_pi; rewrite RR; reflexivity).
  assert (Epo : forall n, is_po F n = is_po h3 n).
  { intros n. unfold is_po. assert (g_out F = g_out h3) as -> by (rewrite RR; reflexivity). induction (g_out h3) as [|o l IH]; [reflexivity|]. cbn [existsb]. rewrite Etn, IH. reflexivity. }
  assert (Edim : cl_dim (g_cl F) = D) by (rewrite Ecl'; reflexivity).
  assert (Hocc : forall u, occupied F u <-> exists t, occupied src t /\ u = image t).
  { intros u. unfold occupied at 1. rewrite Edim, Eemp. split.
    - intros [Iu Eu]. apply (built_occ _ _ _ _ B3 (proj1 Iu)) in Eu. apply in_map_iff in Eu as (it & <- & Hit). apply item_occ, Hit.
    - intros (t & Ot & ->). split; [apply Himg, Ot|]. apply (built_occ _ _ _ _ B3 (proj1 (Himg t Ot))).
      destruct (item_of t Ot) as (i & it & Hi & Ti & _). rewrite <- Ti. apply in_map, elem_of_list_In. eapply elem_of_list_lookup_2; eauto. }
  assert (Hclk : forall t, occupied src t -> get_clock_number (g_cl F) (image t) = (cx t + cy t) mod 4).
  { intros t Ot. destruct (image_bounds t Ot) as (A & B & C & E). rewrite Ecl'. unfold get_clock_number, std_layout. cbn [cl_scheme].
    rewrite C11_linear_waves; [|exact I| |]; [|change (2^64) with 18446744073709551616; lia|change (2^64) with 18446744073709551616; lia].
    rewrite (image_eq t Ot). reflexivity. }
  split; [constructor|split; [|split]].
  - apply image_inj.
  - exact Hocc.
  - intros t Ot. destruct (item_of t Ot) as (i & it & Hi & Ti & _ & Tl & _). rewrite Etn, Enode, <- Ti, (built_node _ _ _ _ _ B3 Hi).
    destruct (b_at _ _ _ B3 _ _ Hi) as (_ & _ & _ & A). rewrite A. exact Tl.
  - intros t Ot. apply all_flow; [exact WF| |apply Hocc; eauto| |].
    + rewrite Ecl'. vm_compute. split; discriminate.
    + destruct (item_of t Ot) as (i & it & Hi & Ti & Tc & _). rewrite Etn, Enode, <- Ti, (built_node _ _ _ _ _ B3 Hi).
      destruct (b_at _ _ _ B3 _ _ Hi) as (_ & _ & A & _). rewrite A. exact Tc.
    + intros u' Hu. apply in_map_iff in Hu as (u & <- & Hu). destruct (flow_dir u t Hu) as (Ou & _ & Hs & Hd).
      split; [apply Hocc; eauto|]. destruct (image_turned t Ot) as (P1 & P2 & P3 & _). destruct (image_turned u Ou) as (Q1 & Q2 & Q3 & _). split.
      * split; [rewrite Edim; apply Himg, Ou|]. rewrite Ecl'. cbn [cl_topo std_layout touch]. split; [reflexivity|]. left.
        exists (hex_px EvenRow (image u) - hex_px EvenRow (image t)), (-1). split; [lia|]. split; [lia|]. split.
        -- unfold hex_px. cbn [cx cy live]. lia.
        -- unfold hex_py in *. cbn [cx cy live]. lia.
      * unfold next_zone. rewrite !Hclk by auto. rewrite Ecl'. change (num_clocks (std_layout (Hex EvenRow) D (ROW FOUR))) with 4. rewrite <- Hs. zdiv.
  - rewrite (map_ext _ _ Ent). assert (g_in F = g_in h3) as -> by (rewrite RR; reflexivity). rewrite (built_in_tiles _ _ _ B3). apply in_tiles_L.
  - assert (g_out F = g_out h3) as -> by (rewrite RR; reflexivity). rewrite (b_out _ _ _ B3). apply out_tiles_L.
  - intros t Ot. destruct (item_of t Ot) as (i & it & Hi & Ti & _ & _ & Tp & _). rewrite Etn, Epi, <- Ti, (built_node _ _ _ _ _ B3 Hi), (built_is_pi _ _ _ _ _ B3 Hi). exact Tp.
  - intros t Ot. destruct (item_of t Ot) as (i & it & Hi & Ti & _ & _ & _ & To & _). rewrite Etn, Epo, <- Ti, (built_node _ _ _ _ _ B3 Hi), (built_is_po _ _ _ _ _ B3 Hi). exact To.
  - intros t Ot Hio Hne. unfold get_name at 1. rewrite (NN t Ot Hio Hne). reflexivity.
  - exists xm, ym. exact Ecl'.
  - exact WF.
  - intros t0 O0. rewrite Edim. cbn [cx cy D live]. destruct (image_bounds t0 O0) as (_ & X0 & Y0 & _). pose proof (Hseen t0 O0) as S0. split; [|split].
    + destruct off_facts as (_ & _ & [(t & Ot & Eo)|[_ Hno]]); [|destruct (Hno t0 O0)]. exists t. split; [exact Ot|]. rewrite (image_eq t Ot). cbn. lia.
    + destruct Xt as [->|Xt]; [|exact Xt]. exists t0. split; [exact O0|lia].
    + destruct Yt as [->|Yt]; [|exact Yt]. exists t0. split; [exact O0|lia].
Qed.
End Hexa.
