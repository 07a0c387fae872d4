(** Proofs about color routing as a whole. *)
From Coq Require Import ZArith Bool List Lia Permutation.
From stdpp Require Import gmap list.
From Verif Require Import CoordMap CoordModel CoordSpec CoordProofs GridModel GridSpec ClockModel GateModel GateSpec GateProofs GateProofs2 GateProofs3 CellModel PathModel PathSpec RouteModel RouteSpec GridProofs RouteProofs RouteProofs3
  SatModel SatSpec ColorModel ColorSpec ColorProofs ColorProofs2 EpgModel EpgSpec EpgProofs EpgProofs2 CrouteProofs CrouteProofs2.
Import ListNotations.
Open Scope nat_scope.

Lemma blocks_in {A} (groups : list (list A)) c : In c (blocks 0 groups) -> exists k ps, nth_error groups k = Some ps /\ c = seq (length (concat (firstn k groups))) (length ps).
Proof.
  induction groups as [|ps groups IH] using rev_ind; [intros []|]. rewrite blocks_snoc, in_app_iff. intros [H|H].
  - destruct (IH H) as (k & qs & E & ->). assert (L : k < length groups) by (apply nth_error_Some; congruence). exists k, qs. rewrite nth_error_app1 by exact L. split; [exact E|].
    rewrite firstn_app. replace (k - length groups) with 0 by lia. cbn [firstn]. rewrite app_nil_r. reflexivity.
  - destruct ps as [|p ps]; [destruct H|]. destruct H as [<-|[]]. exists (length groups), (p :: ps). rewrite nth_error_app2, Nat.sub_diag by lia. split; [reflexivity|].
    rewrite firstn_app, firstn_all, Nat.sub_diag. cbn [firstn]. rewrite app_nil_r. reflexivity.
Qed.
Lemma vertex_at {A} (groups : list (list A)) k ps i : nth_error groups k = Some ps -> i < length ps ->
  exists p, nth_error ps i = Some p /\ vertex groups (length (concat (firstn k groups)) + i) k p.
Proof.
  intros E L. destruct (nth_error ps i) as [p|] eqn:Ep; [|apply nth_error_None in Ep; lia]. exists p. split; [reflexivity|]. exists ps, i. auto.
Qed.
Lemma Forall2_nth {A B} (R : A -> B -> Prop) l l' k a : Forall2 R l l' -> nth_error l k = Some a -> exists b, nth_error l' k = Some b /\ R a b.
Proof.
  intros F; revert k; induction F as [|x y l l' Hxy F IH]; intros [|k] E; try discriminate; [injection E as <-; exists y; auto|apply IH; exact E].
Qed.
Lemma Forall2_len {A B} (R : A -> B -> Prop) l l' : Forall2 R l l' -> length l = length l'.
Proof. induction 1; cbn; congruence. Qed.
Lemma Forall2_sym {A B} (R : A -> B -> Prop) l l' : Forall2 R l l' -> Forall2 (fun b a => R a b) l' l.
Proof. induction 1; constructor; assumption. Qed.
Lemma pairs_nth {A} (R : A -> A -> Prop) l : ForallOrdPairs R l -> forall i j a b, i < j -> nth_error l i = Some a -> nth_error l j = Some b -> R a b.
Proof.
  induction 1 as [|x l F P IH]; intros i j a b L Ea Eb; [destruct i; discriminate|]. destruct i as [|i], j as [|j]; try lia.
  - injection Ea as <-. cbn in Eb. rewrite List.Forall_forall in F. apply F. eapply nth_error_In; exact Eb.
  - apply (IH i j); [lia|exact Ea|exact Eb].
Qed.

Lemma Permutation_filter' {A} (f : A -> bool) l l' : Permutation l l' -> Permutation (List.filter f l) (List.filter f l').
Proof.
  induction 1 as [|x l l' P IH|x y l|l l' l'' P1 IH1 P2 IH2]; cbn; [constructor| | |eapply Permutation_trans; eassumption].
  - destruct (f x); [constructor|]; exact IH.
  - destruct (f x), (f y); try apply Permutation_refl. constructor.
Qed.
Lemma pairs_perm {A} (R : A -> A -> Prop) l l' : Permutation l l' -> (forall a b, R a b -> R b a) -> ForallOrdPairs R l -> ForallOrdPairs R l'.
Proof.
  intros P Sy. induction P as [|x l l' P IH|x y l|l l' l'' P1 IH1 P2 IH2]; intros F; auto.
  - inversion F; subst. constructor; [|apply IH; assumption]. eapply Permutation_Forall; eassumption.
  - inversion F as [|? ? F1 F2]; subst. inversion F2 as [|? ? F3 F4]; subst. inversion F1; subst. constructor; [constructor; [apply Sy; assumption|assumption]|]. constructor; assumption.
Qed.
Lemma pairs_impl {A} (R R' : A -> A -> Prop) l : (forall a b, R a b -> R' a b) -> ForallOrdPairs R l -> ForallOrdPairs R' l.
Proof. intros H F. induction F as [|x l F1 F2 IH]; constructor; [|exact IH]. eapply List.Forall_impl; [|exact F1]. intros a. apply H. Qed.
Lemma walk_steps (step : coord -> coord -> Prop) s t p i u v : walk step s t p -> p !! i = Some u -> p !! S i = Some v -> step u v.
Proof.
  intros W. revert i. induction W as [s|s x t p Hs W IH]; intros i Hu Hv; [destruct i; discriminate|].
  destruct i as [|i]; [|apply (IH i); assumption]. cbn in Hu, Hv. injection Hu as <-. inversion W; subst; cbn in Hv; injection Hv as <-; exact Hs.
Qed.
Section main.
Variable Q : queue Z.
Variable fuel : nat.
Variable env : color_env.
Variable st : glayout.
Variable objectives : list (coord * coord).
Hypothesis EN : env_ok env.
Hypothesis HW : wf st.
Hypothesis NC : (1 <= num_clocks (g_cl st) <= 255)%Z.
Hypothesis OK : forall o, In o objectives -> objective_ok (OGate st) o.
Hypothesis FU : Z.to_nat (volume (cl_dim (g_cl st))) <= fuel.

Lemma st_routable : routable (o_new (OGate st)).
Proof. split; [apply HW|exact NC]. Qed.
Lemma route_fits o p : In o objectives -> route (OGate st) o p -> fits st p.
Proof.
  intros Ho R. destruct (route_shape _ _ _ (OK o Ho) R) as (E & N & F). exists o.1, (inner p), o.2. split; [exact E|].
  assert (Nm : List.NoDup (inner p)). { rewrite E in N. apply NoDup_cons_iff in N. destruct N as [_ N]. clear - N. induction (inner p) as [|x l IH]; [constructor|]. cbn in N. apply NoDup_cons_iff in N. destruct N as [N1 N2]. constructor; [|apply IH; exact N2]. intros K. apply N1. apply in_app_iff. left. exact K. }
  split; [exact Nm|]. destruct (OK o Ho) as (_ & _ & Nst & _ & O2). destruct R as [W _]. split.
  - intros t Ht. destruct (F t Ht) as [B O]. split; [|exact B]. split; [apply B|]. unfold is_obstructed_coordinate in O. cbn in O. rewrite bool_decide_false in O by apply not_elem_of_empty.
    apply negb_false_iff in O. exact O.
  - assert (T : In o.2 (tl p)) by (rewrite E; cbn [tl]; apply in_app_iff; right; left; reflexivity).
    destruct (walk_entered _ _ _ _ _ W T) as [u (B & _)]. split; [apply B|].
    unfold is_obstructed_coordinate in O2. cbn in O2. rewrite bool_decide_false in O2 by apply not_elem_of_empty. apply negb_true_iff in O2. exact O2.
Qed.
(** The routes that are laid carry data. *)
Lemma route_flows st' routes o p i u v : wf st' -> laid st st' routes -> (forall q, In q routes -> fits st q) -> In o objectives -> route (OGate st) o p -> In p routes ->
  p !! i = Some u -> p !! S i = Some v -> flows st' u v.
Proof.
  intros W' Ld FT Ho R Hp Hu Hv. destruct (route_shape _ _ _ (OK o Ho) R) as (E & N & F). pose proof (route_fits o p Ho R) as (s & mid & t & E' & Nm & Fm & Dt & Et).
  assert (s = o.1 /\ mid = inner p /\ t = o.2) as (-> & -> & ->).
  { rewrite E', inner_shape. rewrite E', inner_shape in E. injection E as -> E. apply app_inj_tail in E. destruct E as [_ ->]. auto. }
  destruct (l_pins _ _ _ Ld) as (_ & _ & C & _). assert (Hi : inv1 st) by apply HW.
  assert (B2 : inb (cl_dim (g_cl st)) o.2).
  { destruct R as [W _]. assert (T : In o.2 (tl p)) by (rewrite E; cbn [tl]; apply in_app_iff; right; left; reflexivity).
    destruct (walk_entered _ _ _ _ _ W T) as [x (B & _)]. exact B. }
  (* occupied tiles stay occupied, inner tiles get occupied *)
  assert (OLD : forall x, is_empty_tile st x = false -> get_node st' x = get_node st x \/ exists q, In q routes /\ In x (inner q)).
  { intros x Hx. destruct (in_dec (fun a b => decide (a = b)) x (concat (map inner routes))) as [K|K].
    - right. apply in_concat in K. destruct K as (y & Hy & Hxy). apply in_map_iff in Hy. destruct Hy as (q & <- & Hq). eauto.
    - left. apply (l_rest _ _ _ Ld). intros q Hq Hx'. apply K. apply in_concat. exists (inner q). split; [apply in_map; exact Hq|exact Hx']. }
  assert (INN : forall q x, In q routes -> In x (inner q) -> length (g_nodes st) <= get_node st' x).
  { intros q x Hq Hx. apply elem_of_list_In, elem_of_list_lookup in Hx. destruct Hx as [j Hj].
    assert (Lj : j < length q). { apply lookup_lt_Some in Hj. unfold inner in Hj. rewrite removelast_firstn_len in Hj. rewrite firstn_length in Hj. destruct q; cbn in *; lia. }
    destruct (lookup_lt_is_Some_2 q j Lj) as [y Hy]. apply (l_wires _ _ _ Ld q j y x Hq Hy Hj). }
  assert (N2 : 2 <= length (g_nodes st)) by apply (i_two _ (i_0 _ Hi)).
  assert (OCC : forall x, In x p -> occupied st' x).
  { intros x Hx. split.
    - rewrite C. rewrite E in Hx. destruct Hx as [<-|Hx]; [apply (OK o Ho)|]. apply in_app_iff in Hx. destruct Hx as [Hx|[<-|[]]]; [apply (F x Hx)|exact B2].
    - unfold is_empty_tile. apply Nat.eqb_neq. rewrite E in Hx. destruct Hx as [<-|Hx]; [|apply in_app_iff in Hx; destruct Hx as [Hx|[<-|[]]]].
      + destruct (OK o Ho) as (_ & _ & _ & O1 & _). unfold is_obstructed_coordinate in O1. cbn in O1. rewrite bool_decide_false in O1 by apply not_elem_of_empty. apply negb_true_iff in O1.
        destruct (OLD _ O1) as [K|(q & Hq & K)]; [rewrite K; unfold is_empty_tile in O1; apply Nat.eqb_neq in O1; exact O1|pose proof (INN q _ Hq K); lia].
      + pose proof (INN p x Hp Hx). lia.
      + destruct (OLD _ Et) as [K|(q & Hq & K)]; [rewrite K; unfold is_empty_tile in Et; apply Nat.eqb_neq in Et; exact Et|pose proof (INN q _ Hq K); lia]. }
  assert (Hst : layout_step true (o_new (OGate st)) o.2 u v).
  { destruct R as [W _]. eapply walk_steps; eassumption. }
  destruct Hst as (Bv & Tc & Zn & _). cbn in Zn.
  apply flow_intro; [exact W'|rewrite C; exact NC|apply OCC, elem_of_list_In; eapply elem_of_list_lookup_2; exact Hu|apply OCC, elem_of_list_In; eapply elem_of_list_lookup_2; exact Hv| | |rewrite C; apply Zn; reflexivity].
  - destruct (inner p !! i) as [x|] eqn:Ex.
    + assert (x = v). { rewrite E in Hv. change ((inner p ++ [o.2]) !! i = Some v) in Hv. rewrite lookup_app_l in Hv by (eapply lookup_lt_Some; exact Ex). congruence. } subst x.
      destruct (l_wires _ _ _ Ld p i u v Hp Hu Ex) as (_ & _ & _ & ->). left. reflexivity.
    + assert (v = o.2 /\ i = length (inner p)) as [-> Ei].
      { rewrite E in Hv. change ((inner p ++ [o.2]) !! i = Some v) in Hv. apply lookup_ge_None_1 in Ex. rewrite lookup_app_r in Hv by exact Ex. destruct (i - length (inner p)) as [|d] eqn:D; [|destruct d; discriminate].
        cbn in Hv. injection Hv as <-. split; [reflexivity|lia]. }
      destruct (occ_live st o.2 Hi Et Dt) as (T2 & _ & T3). destruct (OLD _ Et) as [K|(q & Hq & K)].
      * rewrite K. destruct (l_old _ _ _ Ld (get_node st o.2) T3) as (_ & _ & P). eapply Permutation_in; [symmetry; exact P|]. apply in_app_iff. right. apply in_flat_map. exists p. split; [exact Hp|].
        assert (EL : List.last p (live 0 0 0) = o.2). { rewrite E. change (o.1 :: inner p ++ [o.2]) with ((o.1 :: inner p) ++ [o.2]). apply last_last. }
        rewrite EL, Nat.eqb_refl. left. rewrite E, last_pred.
        rewrite E in Hu. change (o.1 :: inner p ++ [o.2]) with ((o.1 :: inner p) ++ [o.2]) in Hu. rewrite lookup_app_l in Hu by (cbn; lia).
        subst i. clear - Hu. revert Hu. generalize (inner p) as l, o.1 as a. intros l. induction l as [|b l IH]; intros a H; [cbn in *; congruence|].
        change (List.last (a :: b :: l) a) with (List.last (b :: l) a). rewrite (last_any l b a b). apply IH. exact H.
      * exfalso. destruct (FT q Hq) as (a & m & b & -> & _ & Fq & _). rewrite inner_shape in K. destruct (Fq _ K) as [[_ K2] _]. congruence.
  - assert (Hu' : In u p) by (apply elem_of_list_In; eapply elem_of_list_lookup_2; exact Hu). split; [apply OCC; exact Hu'|]. rewrite C.
    assert (EZ : live (cx v) (cy v) (cz u) = v). { assert (cz u = cz v) as ->. { clear - Tc. cbn in Tc. destruct (cl_topo (g_cl st)); cbn in Tc; [unfold square_touch in Tc; lia|unfold hex_touch in Tc; lia]. } apply live_eta, Bv. }
    rewrite EZ. apply touch_sym. exact Tc.
Qed.

(** A routing of all objectives gives a coloring in which one color occurs in all groups. *)
Lemma full_coloring g groups routes :
  Forall2 (fun o ps => List.NoDup ps /\ forall p, In p ps <-> route (OGate st) o p) objectives groups ->
  g_size g = length (concat groups) ->
  (forall i j, joined g i j <-> i <> j /\ exists k l p q, vertex groups i k p /\ vertex groups j l q /\ (k = l \/ same_ends p q \/ share_tile p q)) ->
  Forall2 (route (OGate st)) objectives routes -> ForallOrdPairs compatible routes -> 0 < g_size g ->
  exists col, proper g (g_size g) col /\ common_color (blocks 0 groups) (g_size g) col.
Proof.
  intros FG SZ J FR PR NZ. set (n := g_size g) in *.
  assert (VS : exists vs, Forall2 (fun k v => exists p, nth_error routes k = Some p /\ vertex groups v k p) (seq 0 (length routes)) vs).
  { apply Forall2_exists. intros k Hk. apply in_seq in Hk. destruct (nth_error routes k) as [p|] eqn:Ep; [|apply nth_error_None in Ep; lia].
    destruct (Forall2_nth _ _ _ k p (Forall2_sym _ _ _ FR) Ep) as (o & Eo & Ro). destruct (Forall2_nth _ _ _ k o FG Eo) as (ps & Eps & _ & Hps).
    apply Hps in Ro. apply In_nth_error in Ro. destruct Ro as [r Er]. exists (length (concat (firstn k groups)) + r), p. split; [reflexivity|]. exists ps, r. auto. }
  destruct VS as [vs FV].
  assert (V1 : forall v, In v vs -> exists k p, nth_error routes k = Some p /\ vertex groups v k p).
  { intros v Hv. apply In_nth_error in Hv. destruct Hv as [i Hi]. destruct (Forall2_nth _ _ _ i v (Forall2_sym _ _ _ FV) Hi) as (k & _ & p & K). eauto. }
  assert (V2 : forall k p, nth_error routes k = Some p -> exists v, In v vs /\ vertex groups v k p).
  { intros k p Hk. assert (L : k < length routes) by (apply nth_error_Some; congruence).
    assert (Ek : nth_error (seq 0 (length routes)) k = Some k) by (rewrite (nth_error_nth' _ 0) by (rewrite seq_length; exact L); rewrite seq_nth by exact L; reflexivity).
    destruct (Forall2_nth _ _ _ k k FV Ek) as (v & Ev & q & Eq & Vq). exists v. split; [eapply nth_error_In; exact Ev|]. congruence. }
  assert (IND : forall v w, In v vs -> In w vs -> v <> w -> ~ joined g v w).
  { intros v w Hv Hw Nvw K. apply J in K. destruct K as (_ & k & l & p & q & Vv & Vw & C). destruct (V1 v Hv) as (k' & p' & Ek & Vk), (V1 w Hw) as (l' & q' & El & Vl).
    destruct (vertex_fun _ _ _ _ _ _ Vv Vk) as [-> ->], (vertex_fun _ _ _ _ _ _ Vw Vl) as [-> ->]. destruct (Nat.eq_dec k' l') as [->|N].
    - assert (p' = q') by congruence. subst q'. destruct Vk as (ps & r & E1 & E2 & ->), Vl as (ps' & r' & E3 & E4 & ->).
      assert (ps' = ps) by congruence. subst ps'. destruct (Forall2_nth _ _ _ l' ps (Forall2_sym _ _ _ FG) E1) as (o & _ & Nd & _).
      apply Nvw. f_equal. apply (proj1 (NoDup_nth_error ps) Nd); [apply nth_error_Some; congruence|congruence].
    - destruct C as [C|C]; [lia|]. destruct (Nat.lt_total k' l') as [L|[L|L]]; [|lia|].
      + destruct (pairs_nth _ _ PR k' l' p' q' L Ek El) as [N1 N2]. destruct C; contradiction.
      + destruct (pairs_nth _ _ PR l' k' q' p' L El Ek) as [N1 N2]. destruct C as [C|C]; [apply N2, same_ends_sym, C|apply N1, share_tile_sym, C]. }
  assert (LT : forall v, In v vs -> v < n). { intros v Hv. destruct (V1 v Hv) as (k & p & _ & Vv). apply vertex_lt in Vv. lia. }
  (* the color of the chosen vertices *)
  assert (V0 : exists v0, v0 < n /\ forall w, w < n -> ~ In w vs -> w <> v0 \/ vs = []).
  { destruct vs as [|v0 vs']; [exists 0; split; [exact NZ|intros; right; reflexivity]|]. exists v0. split; [apply LT; left; reflexivity|]. intros w _ Hw. left. intros ->. apply Hw. left. reflexivity. }
  destruct V0 as (v0 & L0 & Z0). exists (fun v => if in_dec Nat.eq_dec v vs then v0 else v). split; [split|].
  - intros v Hv. destruct (in_dec Nat.eq_dec v vs); [exact L0|exact Hv].
  - intros v w K. pose proof (proj1 (J v w) K) as (Nvw & k & l & p & q & Vv & Vw & _). apply vertex_lt in Vv, Vw. rewrite <- SZ in Vv, Vw.
    destruct (in_dec Nat.eq_dec v vs) as [Hv|Hv], (in_dec Nat.eq_dec w vs) as [Hw|Hw].
    + exfalso. exact (IND v w Hv Hw Nvw K).
    + destruct (Z0 w Vw Hw) as [D|D]; [congruence|rewrite D in Hv; destruct Hv].
    + destruct (Z0 v Vv Hv) as [D|D]; [congruence|rewrite D in Hw; destruct Hw].
    + exact Nvw.
  - exists v0. split; [exact L0|]. intros c Hc. destruct (blocks_in groups c Hc) as (k & ps & E & ->).
    destruct (Forall2_nth _ _ _ k ps (Forall2_sym _ _ _ FG) E) as (o & Eo & _). destruct (Forall2_nth _ _ _ k o FR Eo) as (p & Ep & _).
    destruct (V2 k p Ep) as (v & Hv & ps' & r & E1 & E2 & ->). assert (ps' = ps) by congruence. subst ps'.
    eexists. split; [apply in_seq; split; [apply Nat.le_add_r|apply Nat.add_lt_mono_l; apply nth_error_Some; rewrite E2; discriminate]|].
    destruct (in_dec Nat.eq_dec _ vs); [reflexivity|contradiction].
Qed.

Lemma croute_ok ps : cr_crossings ps = false -> cr_limit ps = None ->
  exists r st' u, color_routing Q fuel env st objectives ps = Some (r, st', u) /\
    (r = false -> st' = st /\ u = 0%Z /\ cr_partial ps = false) /\
    (r = true -> exists choice, chosen (OGate st) objectives choice /\ wf st' /\ laid st st' (omap (fun q => q) choice) /\
       u = w64 (Z.of_nat (length (List.filter (fun q => match q with None => true | _ => false end) choice))) /\
       (cr_partial ps = false \/ (cr_sat ps = true /\ cr_partial_sat ps = false /\
          exists routes, Forall2 (route (OGate st)) objectives routes /\ ForallOrdPairs compatible routes) -> ~ In None choice)) /\
    (cr_sat ps = true -> cr_partial_sat ps = false ->
       (exists routes, Forall2 (route (OGate st)) objectives routes /\ ForallOrdPairs compatible routes) -> r = true).
Proof.
  intros CR LI. destruct EN as (EV & _). unfold color_routing. rewrite CR, LI.
  destruct (ground_graph Q fuel (OGate st) objectives st_routable OK FU) as (g & groups & -> & PG & FG & J & CQ & UN & ED).
  assert (LP : length (e_paths g) = length (concat groups)) by (rewrite <- PG, map_length; reflexivity).
  set (n := length (e_paths g)) in *.
  assert (CL : forall c, In c (e_cliques g) -> clique (epg_graph g) c).
  { rewrite CQ. intros c Hc. destruct (blocks_in groups c Hc) as (k & qs & E & ->). split; [apply seq_NoDup|].
    assert (AT : forall v, In v (seq (length (concat (firstn k groups))) (length qs)) -> exists p, vertex groups v k p).
    { intros v Hv. apply in_seq in Hv. destruct (vertex_at groups k qs (v - length (concat (firstn k groups))) E ltac:(lia)) as (p & _ & V). exists p.
      replace v with (length (concat (firstn k groups)) + (v - length (concat (firstn k groups)))) by lia. exact V. }
    split.
    - intros v Hv. destruct (AT v Hv) as [p V]. apply vertex_lt in V. cbn. fold n. lia.
    - intros v w Hv Hw N. apply J. split; [exact N|]. destruct (AT v Hv) as [p Vv], (AT w Hw) as [q Vw]. exists k, k, p, q. auto. }
  assert (EMP : forall routes, Forall2 (route (OGate st)) objectives routes -> e_unroutable g = 0).
  { intros routes FR. rewrite UN. assert (K : forall qs, In qs groups -> qs <> []).
    { intros qs Hq. apply In_nth_error in Hq. destruct Hq as [k Ek]. destruct (Forall2_nth _ _ _ k qs (Forall2_sym _ _ _ FG) Ek) as (o & Eo & _ & H).
      destruct (Forall2_nth _ _ _ k o FR Eo) as (p & _ & Rp). apply H in Rp. intros ->. destruct Rp. }
    clear - K. induction groups as [|[|p ps] groups IH]; [reflexivity|destruct (K []); [left|]; reflexivity|]. cbn. apply IH. intros qs H. apply K. right. exact H. }
  destruct (coloring_ok env (cr_sat ps) (epg_graph g) (e_cliques g) (negb (cr_partial_sat ps)) EN ED CL) as (col & c & f & -> & C1 & C2 & Ef & C3).
  change (g_size (epg_graph g)) with n in *.
  assert (ON : forall c', once col c' 0 groups).
  { intros c' k qs i j E Li Lj. cbv zeta. intros [K1 K2]. destruct (vertex_at groups k qs i E ltac:(lia)) as (p & _ & Vi), (vertex_at groups k qs j E Lj) as (q & _ & Vj).
    cbn in K1, K2. refine (C2 _ _ _ (eq_trans K1 (eq_sym K2))). apply J. split; [lia|]. exists k, k, p, q. auto. }
  assert (FRQ : forall c', frequency_of n col c' = length (omap (fun q => q) (choose_all col c' 0 groups))).
  { intros c'. rewrite (choose_selects col c' 0 groups (ON c')), selects_length, <- LP. reflexivity. }
  set (choice := choose_all col c 0 groups) in *.
  assert (F1 : length (omap (fun q => q) choice) = f) by (rewrite Ef; symmetry; apply FRQ).
  assert (RTE : forall p, In p (concat groups) -> exists o, In o objectives /\ route (OGate st) o p).
  { intros p Hp. apply in_concat in Hp. destruct Hp as (qs & Hq & Hp). apply In_nth_error in Hq. destruct Hq as [k Ek].
    destruct (Forall2_nth _ _ _ k qs (Forall2_sym _ _ _ FG) Ek) as (o & Eo & _ & H). exists o. split; [eapply nth_error_In; exact Eo|apply H; exact Hp]. }
  assert (CP : ForallOrdPairs compatible (omap (fun q => q) choice)).
  { unfold choice. rewrite (choose_selects col c 0 groups (ON c)). apply selects_pairs. intros i j p q L Ei Ej Ki Kj. cbn in Ki, Kj.
    apply vertex_nth in Ei, Ej. destruct Ei as [k Vi], Ej as [l Vj].
    split; intros K; (apply (C2 i j); [apply J; split; [lia|exists k, l, p, q; auto]|congruence]). }
  assert (CH : chosen (OGate st) objectives choice).
  { split; [|exact CP]. unfold choice. clear - FG. generalize 0 as base. induction FG as [|o qs os groups [_ H] FG IH]; intros base; constructor; [|apply IH].
    intros p Hp. apply H. eapply pick_in; exact Hp. }
  assert (LC : length choice = length objectives) by (unfold choice; rewrite choose_length; symmetry; eapply Forall2_len; exact FG).
  (* all routable objectives are routed *)
  assert (FULL : e_unroutable g = 0 -> f = length (e_cliques g) -> ~ In None choice).
  { intros U0 E0. assert (Lg : length (blocks 0 groups) = length groups).
    { apply blocks_full. rewrite UN in U0. apply length_zero_iff_nil in U0. exact U0. }
    assert (EQ : choice = map Some (omap (fun q => q) choice)). { apply omap_full. rewrite F1, E0, CQ, Lg. unfold choice. rewrite choose_length. reflexivity. }
    rewrite EQ. intros K. apply in_map_iff in K. destruct K as (x & K & _). discriminate. }
  assert (BEST : cr_sat ps = true -> cr_partial_sat ps = false ->
    (exists routes, Forall2 (route (OGate st)) objectives routes /\ ForallOrdPairs compatible routes) -> f = length (e_cliques g)).
  { intros S1 S2 (routes & FR & PR). assert (UP : f <= length (e_cliques g)) by (rewrite <- F1, CQ; apply choose_count).
    destruct (Nat.eq_dec n 0) as [Z0|NZ].
    - assert (blocks 0 groups = []) as B0; [|rewrite CQ, B0 in *; cbn in UP |- *; lia].
      destruct (blocks 0 groups) as [|b0 bs] eqn:EB; [reflexivity|]. exfalso. destruct (blocks_in groups b0) as (k & qs & Ek & Eb); [rewrite EB; left; reflexivity|].
      destruct (Forall2_nth _ _ _ k qs (Forall2_sym _ _ _ FG) Ek) as (o & Eo & _ & H). destruct (Forall2_nth _ _ _ k o FR Eo) as (p & _ & Rp). apply H in Rp.
      assert (In p (concat groups)) as Ip by (apply in_concat; exists qs; split; [eapply nth_error_In; exact Ek|exact Rp]). rewrite LP in Z0.
      destruct (concat groups); [destruct Ip|discriminate].
    - destruct (C3 S1) as (c' & K1 & K2); [rewrite S2; reflexivity|lia| |].
      + rewrite CQ. apply (full_coloring (epg_graph g) groups routes FG); [exact LP|exact J|exact FR|exact PR|cbn; fold n; lia].
      + rewrite FRQ, choose_full in K2; [rewrite CQ in *; lia|]. rewrite <- CQ. exact K1. }
  assert (LAY : exists st', conduct_routing (e_paths g) col c (ce_vertices env n) st = Some (st', length (omap (fun q => q) choice)) /\ wf st' /\ laid st st' (omap (fun q => q) choice)).
  { rewrite (conduct_ok (e_paths g) col c (ce_vertices env n) st).
    2:{ intros v Hv. assert (v < n) as Lv by (eapply Permutation_in in Hv; [|apply EV]; apply in_seq in Hv; lia). split; [exact Lv|apply C1; exact Lv]. }
    cbv zeta. set (rs := map _ _). assert (PM : Permutation rs (omap (fun q => q) choice)).
    { unfold choice, rs. rewrite (choose_selects col c 0 groups (ON c)), (selects_map col c [] 0 (concat groups)), PG, <- LP.
      rewrite (map_ext (fun v => nth (v - 0) (concat groups) []) (fun v => nth v (concat groups) [])) by (intros v; rewrite Nat.sub_0_r; reflexivity).
      apply Permutation_map, Permutation_filter', EV. }
    assert (PS : Permutation (omap (fun q => q) choice) rs) by (symmetry; exact PM).
    assert (FT : forall p, In p rs -> fits st p).
    { intros p Hp. eapply Permutation_in in Hp; [|exact PM]. unfold choice in Hp. rewrite (choose_selects col c 0 groups (ON c)) in Hp. apply selects_in in Hp.
      destruct (RTE p Hp) as (o & Ho & R). eapply route_fits; eassumption. }
    assert (OP : ForallOrdPairs (fun p q => ~ share_tile p q) rs).
    { apply (pairs_perm _ _ _ PS); [intros p q K X; apply K, share_tile_sym, X|]. eapply pairs_impl; [|exact CP]. intros p q [K _]. exact K. }
    destruct (lay_ok st rs HW FT OP) as (st' & -> & W' & Ld). exists st'. cbn [option_map]. rewrite (Permutation_length PM). split; [reflexivity|]. split; [exact W'|].
    eapply laid_perm; eassumption. }
  destruct LAY as (st' & EL & W' & Ld).
  assert (UU : w64 (Z.of_nat (length objectives) - Z.of_nat (length (omap (fun q => q) choice))) =
    w64 (Z.of_nat (length (List.filter (fun q => match q with None => true | _ => false end) choice)))).
  { f_equal. pose proof (omap_count choice). rewrite LC in H. lia. }
  destruct (negb (cr_partial ps) && (0 <? e_unroutable g)) eqn:B1.
  { exists false, st, 0%Z. split; [reflexivity|]. apply andb_true_iff in B1. destruct B1 as [B1 B2]. apply negb_true_iff in B1. apply Nat.ltb_lt in B2.
    split; [auto|]. split; [discriminate|]. intros _ _ (routes & FR & _). apply EMP in FR. lia. }
  destruct (negb (cr_partial ps) && negb (f =? length (e_cliques g))) eqn:B2.
  { exists false, st, 0%Z. split; [reflexivity|]. apply andb_true_iff in B2. destruct B2 as [B2 B3]. apply negb_true_iff in B2, B3. apply Nat.eqb_neq in B3.
    split; [auto|]. split; [discriminate|]. intros S1 S2 X. destruct (B3 (BEST S1 S2 X)). }
  fold n. rewrite EL. exists true, st', (w64 (Z.of_nat (length objectives) - Z.of_nat (length (omap (fun q => q) choice)))). split; [reflexivity|]. split; [discriminate|]. split; [|auto].
  intros _. exists choice. split; [exact CH|]. split; [exact W'|]. split; [exact Ld|]. split; [exact UU|].
  intros [P|(S1 & S2 & X)].
  - rewrite P in B1, B2. cbn [negb andb] in B1, B2. apply Nat.ltb_ge in B1. apply negb_false_iff, Nat.eqb_eq in B2. apply FULL; [lia|exact B2].
  - apply FULL; [destruct X as (routes & FR & _); eapply EMP; exact FR|apply BEST; assumption].
Qed.
End main.
