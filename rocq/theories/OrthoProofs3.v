(** Reserving the inputs; wires. *)
From Coq Require Import ZArith Bool String List Lia.
From stdpp Require Import gmap list strings pretty.
From Verif Require Import CoordModel CoordSpec CoordProofs GridModel GridSpec CoordMap ClockModel GateModel GateSpec GateProofs GateProofs2 GateProofs3
  RouteModel RouteSpec RouteProofs BuildProofs OrthoModel OrthoProofs2.
Import ListNotations.
Local Open Scope Z_scope.

(** *** Inputs *)
Record reserved (cl : clocked) (names : list string) (st : glayout) : Prop := mkReserved {
  rv_ops : exists ops, reached cl ops st /\ moves_no_constant ops /\ places_inside (cl_dim cl) ops;
  rv_inv : inv1 st;
  rv_cl : g_cl st = cl;
  rv_only : forall t n, cd t = false -> g_tn st !! t = Some n -> t = live 0 0 0;
  rv_last : names <> [] -> g_tn st !! live 0 0 0 = Some (1 + length names)%nat;
  rv_in : g_in st = seq 2 (length names);
  rv_len : length (g_nodes st) = (2 + length names)%nat;
  rv_node : forall i, (i < length names)%nat -> n_children (node_at st (2 + i)) = [] /\ n_lit (node_at st (2 + i)) = 2;
  rv_out : g_out st = [];
  rv_name : forall i nm, names !! i = Some nm -> nm <> ""%string -> g_names st !! (2 + i)%nat = Some nm
}.
Lemma reserved_nil cl : reserved cl [] (g_empty cl).
Proof.
  constructor; try reflexivity.
  - exists []. split; [reflexivity|]. split; constructor.
  - apply inv1_empty.
  - intros t n Hd Ht. exfalso. cbn in Ht. destruct (decide (t = const0)) as [->|N0]; [discriminate Hd|].
    rewrite lookup_insert_ne in Ht by congruence. destruct (decide (t = const1)) as [->|N1]; [discriminate Hd|].
    rewrite lookup_insert_ne in Ht by congruence. rewrite lookup_empty in Ht. discriminate Ht.
  - congruence.
  - intros i Hi. cbn in Hi. lia.
  - intros i nm H. rewrite lookup_nil in H. discriminate H.
Qed.
Lemma reserved_snoc cl names nm st : inb (cl_dim cl) (live 0 0 0) -> reserved cl names st -> reserved cl (names ++ [nm]) (create_pi st nm (live 0 0 0)).
Proof.
  intros Hb R. pose proof (rv_inv _ _ _ R) as Hinv. pose proof (rv_len _ _ _ R) as Hlen. set (t := live 0 0 0).
  assert (Hstep : g_step st (CreatePi nm t) = Some (create_pi st nm t)) by reflexivity.
  assert (Hinv' : inv1 (create_pi st nm t)) by (eapply inv1_step; [exact Hinv| |exact Hstep]; constructor; [exact I|constructor]).
  assert (Hops : exists ops, reached cl ops (create_pi st nm t) /\ moves_no_constant ops /\ places_inside (cl_dim cl) ops).
  { destruct (rv_ops _ _ _ R) as (ops & A & B & C). exists (ops ++ [CreatePi nm t]). split; [|split].
    + unfold reached in *. rewrite g_run_app, A. cbn [g_run]. rewrite Hstep. reflexivity.
    + apply Forall_app. split; [exact B|]. constructor; [exact I|constructor].
    + apply Forall_app. split; [exact C|]. constructor; [auto|constructor]. }
  assert (Hl : length (names ++ [nm]) = S (length names)) by (rewrite app_length; cbn; lia).
  set (n := length (g_nodes st)). revert Hinv' Hops. unfold create_pi. cbv zeta. fold n. set (st0 := push_node st [] 2). set (st1 := set_name _ n _). intros Hinv' Hops.
  assert (Hn0 : forall m, n_children (node_at st1 m) = (if Nat.eqb m n then [] else n_children (node_at st m)) /\ n_lit (node_at st1 m) = if Nat.eqb m n then 2 else n_lit (node_at st m)).
  { intros m. change (node_at st1 m) with (node_at st0 m). destruct (Nat.eqb_spec m n) as [->|N]; [unfold st0, n; rewrite node_at_push_new; auto|].
    destruct (Nat.lt_ge_cases m n) as [H|H]; [unfold st0; rewrite node_at_push_old by exact H; auto|].
    assert (E : forall s, (length (g_nodes s) <= m)%nat -> node_at s m = mkN [] 0 0).
    { intros s Hs. unfold node_at. rewrite lookup_ge_None_2 by exact Hs. reflexivity. }
    rewrite !E; [auto|exact H|]. cbn. rewrite app_length. cbn. fold n. lia. }
  constructor; [exact Hops|exact Hinv'|..].
  - rewrite assign_cl. apply R.
  - intros u m Hd. rewrite assign_tn. cbn [cd t live]. rewrite lookup_insert_Some. intros [[<- _]|[_ H]]; [reflexivity|]. eapply rv_only; [exact R|exact Hd|exact H].
  - intros _. rewrite assign_tn. cbn [cd t live]. rewrite lookup_insert. f_equal. unfold n. lia.
  - rewrite assign_in. cbn. rewrite (rv_in _ _ _ R), Hl, seq_S. do 2 f_equal. unfold n. lia.
  - rewrite assign_len. cbn. rewrite app_length. cbn. rewrite Hlen, Hl. lia.
  - intros i Hi. rewrite assign_children, assign_lit. destruct (Hn0 (2 + i)%nat) as [-> ->]. destruct (Nat.eqb_spec (2 + i) n) as [E|E]; [auto|].
    apply R. unfold n in E. lia.
  - rewrite assign_out. cbn [cd t live]. rewrite clear_out. cbn. rewrite (rv_out _ _ _ R). destruct (g_tn st !! t); [|reflexivity]. destruct (is_wire _ _); reflexivity.
  - intros i x Hi Hx. rewrite assign_names. cbn. destruct (decide (i < length names)%nat) as [Hlt|Hge].
    + rewrite lookup_app_l in Hi by exact Hlt. rewrite lookup_insert_ne by (unfold n; lia). eapply rv_name; eassumption.
    + apply lookup_app_Some in Hi as [Hi|[_ Hi]]; [apply lookup_lt_Some in Hi; lia|]. destruct (i - length names)%nat as [|j] eqn:Ej; cbn in Hi; [|discriminate Hi].
      inversion Hi; subst x. assert (S (S i) = n) as -> by (unfold n; lia). rewrite lookup_insert. unfold default_name. destruct (String.eqb_spec nm "") as [E0|_]; [contradiction|reflexivity].
Qed.
Lemma reserve_loop_ok cl : inb (cl_dim cl) (live 0 0 0) -> forall l names st, reserved cl names st -> reserved cl (names ++ l) (reserve_loop st l).
Proof.
  intros Hb. induction l as [|nm r IH]; intros names st R; cbn [reserve_loop]; [rewrite app_nil_r; exact R|].
  replace (names ++ nm :: r) with ((names ++ [nm]) ++ r) by (rewrite <- app_assoc; reflexivity). apply IH, reserved_snoc; assumption.
Qed.

Lemma reserve_ok cl net : inb (cl_dim cl) (live 0 0 0) -> o_pi_names net <> [] ->
  exists st, reserve_input_nodes (g_empty cl) net = Some st /\ lay cl (o_pi_names net) 0 ∅ [] st.
Proof.
  intros Hb Hne. unfold reserve_input_nodes. set (names := o_pi_names net) in *. pose proof (reserve_loop_ok cl Hb names [] _ (reserved_nil cl)) as R.
  cbn [app] in R. set (st := reserve_loop (g_empty cl) names) in *. clearbody st. cbv zeta.
  pose proof (rv_inv _ _ _ R) as Hinv. pose proof (rv_len _ _ _ R) as Hlen. pose proof (rv_last _ _ _ R Hne) as Hlast.
  set (t := live 0 0 0) in *. set (n := (1 + length names)%nat) in *.
  assert (Hn2 : (2 <= n < length (g_nodes st))%nat) by (destruct names; [congruence|]; cbn in *; unfold n; lia).
  assert (En : get_node st t = n) by (unfold get_node; rewrite Hlast; reflexivity). rewrite En.
  assert (Hnt : g_nt st !! n = Some t) by (apply (i_bij _ (i_0 _ Hinv)), Hlast).
  assert (Et : get_tile st n = t) by (unfold get_tile; rewrite Hnt; reflexivity).
  rewrite (move_node_unfold st n const0 [] ltac:(lia)). cbn [fold_left]. eexists. split; [reflexivity|].
  assert (Hst : g_step st (MoveNode n const0 []) = Some (set_children (mv_place st n const0) n (n_children (node_at (mv_place st n const0) n) ++ []))).
  { cbn [g_step]. rewrite (move_node_unfold st n const0 [] ltac:(lia)). reflexivity. }
  set (st7 := set_children _ _ _) in *.
  assert (Ep : mv_place st n const0 = revive_node (clear_tile (mv_start st n) t) n).
  { unfold mv_place. rewrite Et. cbn [coord_eqb]. reflexivity. }
  pose proof (mv_start_frame st n) as F1. pose proof (revive_frame (clear_tile (mv_start st n) t) n) as F2.
  pose proof (setch_frame (mv_place st n const0) n (n_children (node_at (mv_place st n const0) n) ++ [])) as F3. fold st7 in F3. rewrite Ep in F3.
  pose proof (frame_trans _ _ _ F2 F3) as F.
  assert (T7 : g_tn st7 = delete t (g_tn st)) by (rewrite (fr_tn _ _ F), clear_tn, (fr_tn _ _ F1); reflexivity).
  assert (Hin7 : inv1 st7) by (eapply inv1_step; [exact Hinv| |exact Hst]; constructor; [lia|constructor]).
  assert (Hone : forall i, (i < length names)%nat -> n_children (node_at st7 (2 + i)) = [] /\ n_lit (node_at st7 (2 + i)) = 2).
  { intros i Hi. destruct (rv_node _ _ _ R i Hi) as [C1 C2]. split; [|rewrite (fr_lit _ _ F), clear_lit, (fr_lit _ _ F1); exact C2].
    assert (C0 : forall m, n_children (node_at (mv_place st n const0) m) = if Nat.eqb m n then [] else n_children (node_at st m)).
    { intros m. rewrite Ep, revive_children, clear_children. unfold mv_start. rewrite setch_children by (rewrite (fr_len _ _ (decs_frame _ _)); lia).
      destruct (Nat.eqb m n); [reflexivity|apply decs_children]. }
    unfold st7. rewrite setch_children by (rewrite Ep, (fr_len _ _ F2), clear_len, (fr_len _ _ F1); lia).
    rewrite app_nil_r, !C0, Nat.eqb_refl. destruct (Nat.eqb (2 + i) n); [reflexivity|exact C1]. }
  assert (Hno : forall u m, cd u = false -> g_tn st7 !! u = Some m -> False).
  { intros u m Hu H. rewrite T7 in H. apply lookup_delete_Some in H as [Hne' H]. apply Hne'. symmetry. eapply rv_only; eassumption. }
  constructor.
  - destruct (rv_ops _ _ _ R) as (ops & A & B & C). exists (ops ++ [MoveNode n const0 []]). split; [|split].
    + unfold reached in *. rewrite g_run_app, A. cbn [g_run]. rewrite Hst. reflexivity.
    + apply Forall_app. split; [exact B|]. constructor; [lia|constructor].
    + apply Forall_app. split; [exact C|]. constructor; [discriminate|constructor].
  - exact Hin7.
  - rewrite (fr_cl _ _ F), clear_cl, (fr_cl _ _ F1). apply R.
  - intros u e H. rewrite lookup_empty in H. discriminate H.
  - intros u m Hu H. destruct (Hno u m Hu H).
  - rewrite (fr_in _ _ F), clear_in, (fr_in _ _ F1). apply R.
  - intros i Hi. lia.
  - intros i [_ Hi]. split; [|apply Hone, Hi]. destruct (g_nt st7 !! (2 + i)%nat) as [u|] eqn:E; [|reflexivity]. exfalso.
    apply (i_bij _ (i_0 _ Hin7)) in E. destruct (cd u) eqn:Eu; [pose proof (i_dead _ (i_0 _ Hin7) _ _ E Eu); lia|exact (Hno _ _ Eu E)].
  - rewrite (fr_len _ _ F), clear_len, (fr_len _ _ F1). lia.
  - rewrite (fr_out _ _ F), clear_out, (fr_tn _ _ F1), (fr_out _ _ F1), (rv_out _ _ _ R). destruct (g_tn st !! t); [|reflexivity]. cbn [cd t live]. destruct (is_wire _ _); reflexivity.
  - intros u. split; [intros []|intros (e & H & _); rewrite lookup_empty in H; discriminate H].
  - intros i nm Hi Hnm. rewrite (fr_names _ _ F), clear_names, (fr_names _ _ F1). eapply rv_name; eassumption.
  - intros u nm [].
Qed.

(** *** Wires *)
Definition wtag (d : bool) : tag := if d then TH else TV.
Definition step_x (d : bool) (i : Z) : Z := if d then i else 0.
Definition step_y (d : bool) (i : Z) : Z := if d then 0 else i.
(** The [n] cells after [(x, y)] in direction [d] (true: east). *)
Definition cells (d : bool) (x y : Z) (n : nat) : list (Z * Z) :=
  map (fun i => (x + step_x d (Z.of_nat i), y + step_y d (Z.of_nat i))) (seq 1 n).
Definition cfree (G : gmap coord ent) (d : bool) (x y : Z) : Prop :=
  G !! live x y 0 = None \/ ((exists e, G !! live x y 0 = Some e /\ e_tag e = wtag (negb d)) /\ G !! live x y 1 = None).

Section wires.
Context (cl : clocked) (names : list string) (DX DY : Z) (Hdim : cl_dim cl = live DX DY 1).
Definition inside (x y : Z) : Prop := 0 <= x <= DX /\ 0 <= y <= DY.
Lemma inside_inb x y z : inside x y -> (z = 0 \/ z = 1) -> inb (cl_dim cl) (live x y z).
Proof. intros [H1 H2] Hz. rewrite Hdim. unfold inb. cbn. lia. Qed.

Record good (k : nat) (G : gmap coord ent) (outs : list (coord * string)) (st : glayout) : Prop := mkGood { gd_lay : lay cl names k G outs st; gd_sound : sound G }.

Lemma clear_both k G outs st x y : good k G outs st -> G !! live x y 0 = None -> G !! live x y 1 = None.
Proof.
  intros [_ S] H. destruct (G !! live x y 1) as [e|] eqn:E; [|reflexivity]. destruct (s_cross _ S _ _ _ E) as (e0 & H0 & _). congruence.
Qed.

(** A node on an empty cell. *)
Lemma put_ok k G outs st ch lit x y : good k G outs st -> inside x y -> G !! live x y 0 = None -> ch <> [] ->
  (forall c, In c ch -> fetch G c /\ before c (live x y 0)) ->
  good k (<[live x y 0 := mkE ch lit TN None false]> G) outs (create_lit st ch lit (live x y 0)).
Proof.
  intros [L S] Hi Hn Hc Hb. constructor.
  - apply lay_put; [exact L|reflexivity|exact Hn|apply inside_inb; auto].
  - apply sound_put; cbn; auto; try (destruct Hi; lia); congruence.
Qed.

(** One cell of a wire. *)
Lemma cell_ok k G outs st d a x y : good k G outs st -> inside x y -> cfree G d x y -> fetch G a -> before a (live x y 0) ->
  exists t, wire st a [(x, y)] = (create_fn st Fbuf [a] t, t) /\ cd t = false /\ cx t = x /\ cy t = y /\ G !! t = None /\
    good k (<[t := mkE [a] 2 (wtag d) None false]> G) outs (create_fn st Fbuf [a] t) /\ (G !! live x y 0 = None -> t = live x y 0).
Proof.
  intros [L S] Hi Hf Ha Hb. cbn [wire]. rewrite (ly_cl _ _ _ _ _ _ L), Hdim.
  destruct Hf as [Hf|[(e0 & H0 & Ht) H1]].
  - rewrite (proj2 (lay_empty _ _ _ _ _ _ (live x y 0) L eq_refl) Hf). exists (live x y 0). split; [reflexivity|]. cbn [cd cx cy live].
    repeat (split; [reflexivity || exact Hf|]). split; [|auto]. constructor.
    + apply (lay_put cl names k G outs st [a] 2 (wtag d)); [exact L|reflexivity|exact Hf|apply inside_inb; auto].
    + apply sound_put; cbn; auto; try (destruct Hi; lia); try discriminate; intros c [<-|[]]; auto.
  - assert (E : is_empty_tile st (live x y 0) = false).
    { destruct (is_empty_tile st (live x y 0)) eqn:E; [|reflexivity]. apply (lay_empty _ _ _ _ _ _ (live x y 0) L eq_refl) in E. congruence. }
    rewrite E. assert (Ea : above (live DX DY 1) (live x y 0) = live x y 1) by reflexivity. rewrite Ea.
    exists (live x y 1). split; [reflexivity|]. cbn [cd cx cy live]. repeat (split; [reflexivity || exact H1|]). split; [|congruence]. constructor.
    + apply (lay_put cl names k G outs st [a] 2 (wtag d)); [exact L|reflexivity|exact H1|apply inside_inb; auto].
    + apply (sound_over G x y (wtag d) a e0); auto. rewrite Ht. destruct d; cbn; auto.
Qed.

(** What has been added. *)
Definition adds (G G' : gmap coord ent) (R : Z -> Z -> tag -> Prop) : Prop :=
  G ⊆ G' /\ forall t e, G' !! t = Some e -> G !! t = None -> R (cx t) (cy t) (e_tag e).
Lemma adds_refl G R : adds G G R.
Proof. split; [reflexivity|]. intros t e H H'. congruence. Qed.
Lemma adds_trans G1 G2 G3 R : adds G1 G2 R -> adds G2 G3 R -> adds G1 G3 R.
Proof.
  intros [A1 A2] [B1 B2]. split; [etransitivity; eassumption|]. intros t e H H'. destruct (G2 !! t) as [e2|] eqn:E; [|eauto].
  pose proof (lookup_weaken _ _ _ _ E B1). assert (e2 = e) by congruence. subst. eauto.
Qed.
Lemma adds_weaken G G' (R R' : Z -> Z -> tag -> Prop) : (forall x y t, R x y t -> R' x y t) -> adds G G' R -> adds G G' R'.
Proof. intros H [A B]. split; [exact A|]. intros t e H1 H2. eauto. Qed.
Lemma adds_put G x y z e (R : Z -> Z -> tag -> Prop) : G !! live x y z = None -> R x y (e_tag e) -> adds G (<[live x y z := e]> G) R.
Proof.
  intros Hn HR. split; [apply insert_sub, Hn|]. intros t f. rewrite lookup_insert_Some. intros [[<- <-]|[_ H]] H'; [exact HR|congruence].
Qed.

Record strand (G G' : gmap coord ent) (R : Z -> Z -> tag -> Prop) (a a' : coord) : Prop := mkStrand {
  sd_adds : adds G G' R;
  sd_fetch : fetch G' a';
  sd_val : forall env b, gval G env a b -> gval G' env a' b;
  sd_used : forall t, fetch G' t -> G !! t = None -> t = a' \/ used G' t;
  sd_src : a' = a \/ used G' a
}.
Lemma strand_refl G R a : fetch G a -> strand G G R a a.
Proof.
  intros H. constructor; auto; [apply adds_refl|]. intros t (e & He) Hn. congruence.
Qed.
Lemma strand_trans G1 G2 G3 R a b c : strand G1 G2 R a b -> strand G2 G3 R b c -> strand G1 G3 R a c.
Proof.
  intros [A1 A2 A3 A4 A5] [B1 B2 B3 B4 B5]. constructor.
  - eapply adds_trans; eassumption.
  - exact B2.
  - eauto.
  - intros t Ht Hn. destruct (G2 !! t) as [e|] eqn:E; [|eauto]. destruct (A4 t (ex_intro _ _ E) Hn) as [->|H]; [destruct B5 as [->|H]; auto|].
    right. eapply used_mono; [apply B1|exact H].
  - destruct A5 as [->|H]; [destruct B5 as [->|H]; auto|]. right. eapply used_mono; [apply B1|exact H].
Qed.
Lemma strand_weaken G G' (R R' : Z -> Z -> tag -> Prop) a b : (forall x y t, R x y t -> R' x y t) -> strand G G' R a b -> strand G G' R' a b.
Proof. intros H [A1 A2 A3 A4 A5]. constructor; auto. eapply adds_weaken; eassumption. Qed.
Lemma strand_one G a t tg (R : Z -> Z -> tag -> Prop) : G !! t = None -> cd t = false -> R (cx t) (cy t) tg -> fetch G a ->
  strand G (<[t := mkE [a] 2 tg None false]> G) R a t.
Proof.
  intros Hn Hd HR Ha. pose proof (insert_sub G t (mkE [a] 2 tg None false) Hn) as Sub. constructor.
  - split; [exact Sub|]. intros u f. rewrite lookup_insert_Some. intros [[<- <-]|[_ H]] H'; [exact HR|congruence].
  - apply fetch_insert. auto.
  - intros env b H. eapply gval_gate; [apply lookup_insert|reflexivity| |].
    + cbn [e_ch]. constructor; [|constructor]. apply (gval_mono _ _ env Sub), H.
    + destruct b; reflexivity.
  - intros u Hu Hnu. apply fetch_insert in Hu as [->|(e & He)]; [auto|congruence].
  - right. exists t, (mkE [a] 2 tg None false). split; [apply lookup_insert|left; reflexivity].
Qed.

Lemma wire_app c1 : forall st a c2, wire st a (c1 ++ c2) = wire (fst (wire st a c1)) (snd (wire st a c1)) c2.
Proof. induction c1 as [|[x y] r IH]; intros st a c2; [reflexivity|]. cbn [app wire]. cbv zeta. rewrite IH. reflexivity. Qed.
Lemma cells_S d x y n : cells d x y (S n) = cells d x y n ++ [(x + step_x d (Z.of_nat (S n)), y + step_y d (Z.of_nat (S n)))].
Proof. unfold cells. rewrite seq_S, map_app. reflexivity. Qed.

Lemma wire_ok d n : forall k G outs st a, good k G outs st -> fetch G a -> let x := cx a in let y := cy a in
  (forall i, 1 <= i <= Z.of_nat n -> inside (x + step_x d i) (y + step_y d i) /\ cfree G d (x + step_x d i) (y + step_y d i)) ->
  exists G' st' a', wire st a (cells d x y n) = (st', a') /\ good k G' outs st' /\
    strand G G' (fun x' y' tg => tg = wtag d /\ exists i, 1 <= i <= Z.of_nat n /\ x' = x + step_x d i /\ y' = y + step_y d i) a a' /\
    cx a' = x + step_x d (Z.of_nat n) /\ cy a' = y + step_y d (Z.of_nat n) /\
    (forall i, 1 <= i <= Z.of_nat n -> fetch G' (live (x + step_x d i) (y + step_y d i) 0)) /\ (n = 0%nat -> a' = a).
Proof.
  induction n as [|n IH]; intros k G outs st a Hg Ha x y Hc.
  - exists G, st, a. split; [reflexivity|]. split; [exact Hg|]. split; [apply strand_refl, Ha|].
    unfold step_x, step_y. destruct d; cbn; repeat split; try lia.
  - destruct (IH k G outs st a Hg Ha) as (G1 & st1 & a1 & W1 & Hg1 & S1 & X1 & Y1 & F1 & Z1).
    { intros i Hi. apply Hc. lia. }
    fold x y in W1, S1, X1, Y1, F1. rewrite cells_S, wire_app, W1. cbn [fst snd].
    set (j := Z.of_nat (S n)). destruct (Hc j ltac:(lia)) as [Hin Hcf].
    assert (Hcf1 : cfree G1 d (x + step_x d j) (y + step_y d j)).
    { assert (K : forall z, G1 !! live (x + step_x d j) (y + step_y d j) z = G !! live (x + step_x d j) (y + step_y d j) z).
      { intros z. destruct (G !! live (x + step_x d j) (y + step_y d j) z) as [e|] eqn:E.
        - eapply lookup_weaken; [exact E|apply (sd_adds _ _ _ _ _ S1)].
        - destruct (G1 !! live (x + step_x d j) (y + step_y d j) z) as [e|] eqn:E1; [|reflexivity]. exfalso.
          destruct (proj2 (sd_adds _ _ _ _ _ S1) _ _ E1 E) as (_ & i & Hi & Hx & Hy). cbn [cx cy live] in Hx, Hy. unfold step_x, step_y in *.
          destruct d; lia. }
      unfold cfree. rewrite !K. exact Hcf. }
    destruct (cell_ok k G1 outs st1 d a1 (x + step_x d j) (y + step_y d j) Hg1 Hin Hcf1 (sd_fetch _ _ _ _ _ S1)) as (t & W2 & Dt & Xt & Yt & Nt & Hg2 & Lt).
    { unfold before. cbn [cx cy live]. rewrite X1, Y1. unfold step_x, step_y, j. destruct d; lia. }
    rewrite W2. eexists _, _, t. split; [reflexivity|]. split; [exact Hg2|].
    split; [|split; [exact Xt|split; [exact Yt|split; [|discriminate]]]].
    + eapply strand_trans; [eapply strand_weaken; [|exact S1]|].
      * intros x' y' tg (A & i & Hi & B). split; [exact A|]. exists i. split; [lia|exact B].
      * apply strand_one; [exact Nt|exact Dt| |apply S1]. split; [reflexivity|]. exists j. split; [lia|]. auto.
    + intros i Hi. destruct (Z.eq_dec i j) as [->|Ni].
      * destruct (s_live _ (gd_sound _ _ _ _ Hg2) t _ (lookup_insert _ _ _)) as (_ & [Hz|Hz] & _).
        -- rewrite (coord_eta t Dt), Xt, Yt, Hz. apply fetch_insert. auto.
        -- assert (Et : t = live (x + step_x d j) (y + step_y d j) 1) by (rewrite (coord_eta t Dt), Xt, Yt, Hz; reflexivity).
           destruct (s_cross _ (gd_sound _ _ _ _ Hg2) (x + step_x d j) (y + step_y d j) (mkE [a1] 2 (wtag d) None false)) as (e0 & H0 & _).
           { rewrite <- Et. apply lookup_insert. }
           exists e0. exact H0.
      * apply fetch_insert. right. apply F1. lia.
Qed.

(** A wire whose last cell is empty; what lies there may turn. *)
Lemma bend_ok d n : forall k G outs st a, good k G outs st -> fetch G a -> let x := cx a in let y := cy a in
  (forall i, 1 <= i <= Z.of_nat n -> inside (x + step_x d i) (y + step_y d i) /\ cfree G d (x + step_x d i) (y + step_y d i)) ->
  let x1 := x + step_x d (Z.of_nat (S n)) in let y1 := y + step_y d (Z.of_nat (S n)) in inside x1 y1 -> G !! live x1 y1 0 = None ->
  exists G' st', wire st a (cells d x y (S n)) = (st', live x1 y1 0) /\ good k G' outs st' /\
    strand G G' (fun x' y' tg => (tg = wtag d /\ exists i, 1 <= i <= Z.of_nat n /\ x' = x + step_x d i /\ y' = y + step_y d i) \/ (tg = TN /\ x' = x1 /\ y' = y1)) a (live x1 y1 0) /\
    used G' a /\ (forall i, 1 <= i <= Z.of_nat (S n) -> fetch G' (live (x + step_x d i) (y + step_y d i) 0)).
Proof.
  intros k G outs st a Hg Ha x y Hc x1 y1 Hin Hn.
  destruct (wire_ok d n k G outs st a Hg Ha Hc) as (G1 & st1 & a1 & W1 & Hg1 & S1 & X1 & Y1 & F1 & Z1). fold x y in W1, S1, X1, Y1, F1.
  rewrite cells_S, wire_app, W1. cbn [fst snd wire]. fold x1 y1.
  assert (Hn1 : G1 !! live x1 y1 0 = None).
  { destruct (G1 !! live x1 y1 0) as [e|] eqn:E1; [|reflexivity]. exfalso.
    destruct (proj2 (sd_adds _ _ _ _ _ S1) _ _ E1 Hn) as (_ & i & Hi & Hx & Hy). cbn [cx cy live] in Hx, Hy. unfold x1, y1, step_x, step_y in *. destruct d; lia. }
  rewrite (proj2 (lay_empty _ _ _ _ _ _ (live x1 y1 0) (gd_lay _ _ _ _ Hg1) eq_refl) Hn1).
  set (G2 := <[live x1 y1 0 := mkE [a1] 2 TN None false]> G1).
  assert (S2 : strand G1 G2 (fun x' y' tg => (tg = wtag d /\ exists i, 1 <= i <= Z.of_nat n /\ x' = x + step_x d i /\ y' = y + step_y d i) \/ (tg = TN /\ x' = x1 /\ y' = y1)) a1 (live x1 y1 0)).
  { apply strand_one; [exact Hn1|reflexivity|right; auto|apply S1]. }
  exists G2. eexists. split; [reflexivity|]. split.
  { apply (put_ok k G1 outs st1 [a1] 2); [exact Hg1|exact Hin|exact Hn1|discriminate|]. intros c [<-|[]]. split; [apply S1|]. unfold before. cbn [cx cy live]. rewrite X1, Y1.
    unfold x1, y1, step_x, step_y. destruct d; lia. }
  split; [eapply strand_trans; [eapply strand_weaken; [|exact S1]|exact S2]; intros x' y' tg H; left; exact H|]. split.
  - destruct (sd_src _ _ _ _ _ S1) as [->|H].
    + destruct (sd_src _ _ _ _ _ S2) as [E|H]; [|exact H]. exfalso. destruct Ha as (e & He). rewrite E in Hn. congruence.
    + eapply used_mono; [apply (sd_adds _ _ _ _ _ S2)|exact H].
  - intros i Hi. destruct (Z.eq_dec i (Z.of_nat (S n))) as [->|Ni]; [apply fetch_insert; auto|]. apply fetch_insert. right. apply F1. lia.
Qed.
End wires.
