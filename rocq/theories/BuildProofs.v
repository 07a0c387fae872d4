(** Building a gate-level layout by creating nodes on free tiles: what the result looks like. *)
From Coq Require Import ZArith Bool String List Lia.
From stdpp Require Import gmap list strings.
From Verif Require Import CoordModel CoordSpec GridModel GridSpec CoordMap ClockModel
  GateModel GateSpec GateProofs GateProofs2 GateProofs3 RouteModel RouteSpec RouteProofs.
Import ListNotations.
Local Open Scope Z_scope.

Inductive item := IPi (name : string) (t : coord) | IPo (s : coord) (name : string) (t : coord) | ILit (ch : list coord) (lit : Z) (t : coord).
Definition i_tile (i : item) : coord := match i with IPi _ t | IPo _ _ t | ILit _ _ t => t end.
Definition i_ch (i : item) : list coord := match i with IPi _ _ => [] | IPo s _ _ => [s] | ILit ch _ _ => ch end.
Definition i_lit (i : item) : Z := match i with ILit _ l _ => l | _ => 2 end.
Definition i_op (i : item) : gop := match i with IPi nm t => CreatePi nm t | IPo s nm t => CreatePo s nm t | ILit ch l t => CreateLit ch l t end.
Definition i_name (i : item) : string := match i with IPi nm _ | IPo _ nm _ => nm | ILit _ _ _ => ""%string end.
Definition is_ipi (i : item) : bool := match i with IPi _ _ => true | _ => false end.
Definition is_ipo (i : item) : bool := match i with IPo _ _ _ => true | _ => false end.
Definition run_item (st : glayout) (i : item) : glayout :=
  match i with IPi nm t => create_pi st nm t | IPo s nm t => create_po st s nm t | ILit ch l t => create_lit st ch l t end.
Lemma run_item_step st i : g_step st (i_op i) = Some (run_item st i).
Proof. destruct i; reflexivity. Qed.

Fixpoint pi_nodes (k : nat) (L : list item) : list nat :=
  match L with [] => [] | i :: r => (if is_ipi i then [k] else []) ++ pi_nodes (S k) r end.
Definition po_tiles (L : list item) : list coord := map i_tile (List.filter is_ipo L).

Lemma pi_nodes_app L1 : forall k L2, pi_nodes k (L1 ++ L2) = pi_nodes k L1 ++ pi_nodes (k + length L1) L2.
Proof.
  induction L1 as [|i r IH]; intros k L2; cbn [pi_nodes app length]; [rewrite Nat.add_0_r; reflexivity|].
  rewrite IH, <- app_assoc. do 3 f_equal. lia.
Qed.
Lemma pi_nodes_In L : forall k n, In n (pi_nodes k L) <-> exists i it, L !! i = Some it /\ is_ipi it = true /\ n = (k + i)%nat.
Proof.
  induction L as [|x r IH]; intros k n; cbn [pi_nodes].
  - split; [intros []|intros (i & it & H & _); rewrite lookup_nil in H; discriminate H].
  - rewrite in_app_iff, IH. split.
    + intros [H|(i & it & H & Hp & ->)].
      * destruct (is_ipi x) eqn:E; [destruct H as [<-|[]]|destruct H]. exists 0%nat, x. repeat split; auto.
      * exists (S i), it. repeat split; auto. lia.
    + intros ([|i] & it & H & Hp & ->); cbn in H.
      * inversion H; subst. rewrite Hp. left. left. lia.
      * right. exists i, it. repeat split; auto. lia.
Qed.

(** What creating one node on a free tile does. *)
Record grown (st st' : glayout) (it : item) : Prop := mkGrown {
  gr_inv : inv1 st';
  gr_len : length (g_nodes st') = S (length (g_nodes st));
  gr_tn : g_tn st' = <[i_tile it := length (g_nodes st)]> (g_tn st);
  gr_nt : g_nt st' = <[length (g_nodes st) := i_tile it]> (g_nt st);
  gr_old : forall m, (m < length (g_nodes st))%nat -> n_children (node_at st' m) = n_children (node_at st m) /\ n_lit (node_at st' m) = n_lit (node_at st m);
  gr_new : n_children (node_at st' (length (g_nodes st))) = i_ch it /\ n_lit (node_at st' (length (g_nodes st))) = i_lit it;
  gr_in : g_in st' = g_in st ++ (if is_ipi it then [length (g_nodes st)] else []);
  gr_out : g_out st' = g_out st ++ (if is_ipo it then [i_tile it] else []);
  gr_cl : g_cl st' = g_cl st;
  gr_name_old : forall m, (m < length (g_nodes st))%nat -> g_names st' !! m = g_names st !! m;
  gr_name_new : (is_ipi it || is_ipo it) = true -> i_name it <> ""%string -> g_names st' !! length (g_nodes st) = Some (i_name it) }.

(** [st1] has the new node, not yet placed. *)
Lemma place_new st st1 t : inv1 st -> inv1 st1 -> free_tile st t -> length (g_nodes st1) = S (length (g_nodes st)) ->
  g_tn st1 = g_tn st -> g_nt st1 = g_nt st ->
  let n := length (g_nodes st) in let st2 := assign_node st1 t n in
  inv1 st2 /\ length (g_nodes st2) = S n /\ g_tn st2 = <[t := n]> (g_tn st) /\ g_nt st2 = <[n := t]> (g_nt st) /\
  g_in st2 = g_in st1 /\ g_out st2 = g_out st1 /\ g_cl st2 = g_cl st1 /\ g_names st2 = g_names st1 /\
  (forall m, n_children (node_at st2 m) = n_children (node_at st1 m) /\ n_lit (node_at st2 m) = n_lit (node_at st1 m)).
Proof.
  intros Hi Hi1 Hf Hl Htn Hnt n st2. pose proof (i_two _ (i_0 _ Hi)) as H2.
  assert (Hf1 : free_tile st1 t) by (eapply free_tile_same; eauto).
  assert (Hn1 : g_nt st1 !! n = None) by (rewrite Hnt; apply inv0_fresh, Hi).
  destruct (assign_free st1 t n Hi1 Hf1 ltac:(unfold n; lia) Hn1) as (E1 & E2 & E3). pose proof Hf as [Hd _].
  refine (conj _ (conj _ (conj _ (conj _ (conj _ (conj _ (conj _ (conj _ (fun m => conj _ _))))))))).
  - apply inv1_assign; auto. unfold n. lia.
  - unfold st2. rewrite assign_len. exact Hl.
  - unfold st2. rewrite assign_tn, Hd, Htn. reflexivity.
  - unfold st2. rewrite E1, Hnt. reflexivity.
  - exact E3.
  - exact E2.
  - apply assign_cl.
  - apply assign_names.
  - apply assign_children.
  - apply assign_lit.
Qed.

Lemma run_item_grown st it : inv1 st -> free_tile st (i_tile it) -> grown st (run_item st it) it.
Proof.
  intros Hi Hf. pose proof (i_two _ (i_0 _ Hi)) as H2. set (n := length (g_nodes st)).
  destruct it as [nm t|s nm t|ch l t]; cbn [i_tile] in Hf; cbn [run_item].
  - unfold create_pi. cbv zeta. fold n. set (st0 := push_node st [] 2). set (st1 := set_name _ n _).
    assert (Hl1 : length (g_nodes st1) = S n).
    { cbn. rewrite app_length. cbn. fold n. lia. }
    assert (Hi1 : inv1 st1).
    { eapply (inv1_same st0); [|reflexivity|reflexivity|reflexivity|reflexivity|apply (inv1_push st [] 2 Hi)].
      apply (inv0_same st0); try reflexivity. apply (inv1_push st [] 2 Hi). }
    destruct (place_new st st1 t Hi Hi1 Hf Hl1 eq_refl eq_refl) as (A & B & C & D & E & F & G & H & K). fold n in A, B, C, D, E, F, G, H, K.
    constructor; cbn [i_tile is_ipi is_ipo i_ch i_lit i_name orb]; auto.
    + intros m Hm. destruct (K m) as [-> ->]. change (node_at st1 m) with (node_at st0 m). unfold st0. rewrite node_at_push_old by exact Hm. auto.
    + fold n. destruct (K n) as [-> ->]. change (node_at st1 n) with (node_at st0 n). unfold st0, n. rewrite node_at_push_new. auto.
    + rewrite F. cbn. rewrite app_nil_r. reflexivity.
    + intros m Hm. rewrite H. cbn. rewrite lookup_insert_ne by (unfold n; lia). reflexivity.
    + intros _ Hnm. fold n. rewrite H. cbn. rewrite lookup_insert. unfold default_name. destruct (String.eqb_spec nm "") as [E0|_]; [contradiction|reflexivity].
  - unfold create_po. cbv zeta. fold n. set (st0 := push_node st [] 2). set (st1 := set_name _ n _).
    assert (Hl1 : length (g_nodes st1) = S n).
    { cbn. rewrite app_length. cbn. fold n. lia. }
    assert (Hi1 : inv1 st1).
    { eapply (inv1_same st0); [|reflexivity|reflexivity|reflexivity|reflexivity|apply (inv1_push st [] 2 Hi)].
      apply (inv0_same st0); try reflexivity. apply (inv1_push st [] 2 Hi). }
    destruct (place_new st st1 t Hi Hi1 Hf Hl1 eq_refl eq_refl) as (A & B & C & D & E & F & G & H & K). fold n in A, B, C, D, E, F, G, H, K.
    set (st2 := assign_node st1 t n) in *. set (st3 := inc_ref st2 s). set (ch := n_children (node_at st3 n) ++ [s]).
    pose proof (inc_frame st2 s) as F3. fold st3 in F3. pose proof (setch_frame st3 n ch) as F4. pose proof (frame_trans _ _ _ F3 F4) as FF.
    assert (C3 : forall m, n_children (node_at st3 m) = n_children (node_at st2 m)) by (intros m; apply children_alter; reflexivity).
    assert (L3 : length (g_nodes st3) = S n) by (rewrite (fr_len _ _ F3); exact B).
    assert (Cn : n_children (node_at st1 n) = []).
    { change (node_at st1 n) with (node_at st0 n). unfold st0, n. rewrite node_at_push_new. reflexivity. }
    constructor; cbn [i_tile is_ipi is_ipo i_ch i_lit i_name orb].
    + eapply inv1_frame; [exact FF|exact A].
    + rewrite (fr_len _ _ FF). exact B.
    + rewrite (fr_tn _ _ FF). exact C.
    + rewrite (fr_nt _ _ FF). exact D.
    + intros m Hm. rewrite (fr_lit _ _ FF). rewrite setch_children by lia. destruct (Nat.eqb_spec m n) as [->|_]; [unfold n in Hm; lia|].
      rewrite C3. destruct (K m) as [-> ->]. change (node_at st1 m) with (node_at st0 m). unfold st0. rewrite node_at_push_old by exact Hm. auto.
    + fold n. rewrite (fr_lit _ _ FF), setch_children by lia. rewrite Nat.eqb_refl. unfold ch. rewrite C3. destruct (K n) as [-> ->]. rewrite Cn. split; [reflexivity|].
      change (node_at st1 n) with (node_at st0 n). unfold st0, n. rewrite node_at_push_new. reflexivity.
    + rewrite (fr_in _ _ FF), E. cbn. rewrite app_nil_r. reflexivity.
    + rewrite (fr_out _ _ FF), F. reflexivity.
    + rewrite (fr_cl _ _ FF). exact G.
    + intros m Hm. rewrite (fr_names _ _ FF), H. cbn. rewrite lookup_insert_ne by (unfold n; lia). reflexivity.
    + intros _ Hnm. fold n. rewrite (fr_names _ _ FF), H. cbn. rewrite lookup_insert. unfold default_name. destruct (String.eqb_spec nm "") as [E0|_]; [contradiction|reflexivity].
  - unfold create_lit. cbv zeta. fold n. set (st0 := push_node st ch l). set (st1 := fold_left inc_ref ch st0).
    pose proof (incs_frame ch st0) as FF. fold st1 in FF.
    assert (Hl1 : length (g_nodes st1) = S n).
    { rewrite (fr_len _ _ FF). cbn. rewrite app_length. cbn. fold n. lia. }
    assert (Hi1 : inv1 st1) by (eapply inv1_frame; [exact FF|apply inv1_push, Hi]).
    destruct (place_new st st1 t Hi Hi1 Hf Hl1 (fr_tn _ _ FF) (fr_nt _ _ FF)) as (A & B & C & D & E & F & G & H & K). fold n in A, B, C, D, E, F, G, H, K.
    constructor; cbn [i_tile is_ipi is_ipo i_ch i_lit i_name orb]; auto.
    + intros m Hm. destruct (K m) as [-> ->]. unfold st1. rewrite incs_children. fold st1. rewrite (fr_lit _ _ FF). unfold st0. rewrite node_at_push_old by exact Hm. auto.
    + fold n. destruct (K n) as [-> ->]. unfold st1. rewrite incs_children. fold st1. rewrite (fr_lit _ _ FF). unfold st0, n. rewrite node_at_push_new. auto.
    + rewrite E, (fr_in _ _ FF). cbn. rewrite app_nil_r. reflexivity.
    + rewrite F, (fr_out _ _ FF). cbn. rewrite app_nil_r. reflexivity.
    + rewrite G, (fr_cl _ _ FF). reflexivity.
    + intros m Hm. rewrite H, (fr_names _ _ FF). reflexivity.
    + discriminate.
Qed.

(** The layout built from a list of items on distinct tiles. *)
Record built (cl : clocked) (L : list item) (st : glayout) : Prop := mkBuilt {
  b_run : g_run (g_empty cl) (map i_op L) = Some st;
  b_inv : inv1 st;
  b_cl : g_cl st = cl;
  b_len : length (g_nodes st) = (2 + length L)%nat;
  b_at : forall i it, L !! i = Some it -> g_tn st !! i_tile it = Some (2 + i)%nat /\ g_nt st !! (2 + i)%nat = Some (i_tile it) /\
           n_children (node_at st (2 + i)) = i_ch it /\ n_lit (node_at st (2 + i)) = i_lit it;
  b_only : forall t n, cd t = false -> g_tn st !! t = Some n -> exists i it, L !! i = Some it /\ n = (2 + i)%nat /\ t = i_tile it;
  b_in : g_in st = pi_nodes 2 L;
  b_out : g_out st = po_tiles L;
  b_live : forall it, In it L -> cd (i_tile it) = false;
  b_name : forall i it, L !! i = Some it -> (is_ipi it || is_ipo it) = true -> i_name it <> ""%string -> g_names st !! (2 + i)%nat = Some (i_name it) }.

Lemma g_run_app ops1 : forall st ops2, g_run st (ops1 ++ ops2) = match g_run st ops1 with Some s => g_run s ops2 | None => None end.
Proof. induction ops1 as [|o r IH]; intros st ops2; cbn; [reflexivity|]. destruct (g_step st o); [apply IH|reflexivity]. Qed.

Lemma built_nil cl : built cl [] (g_empty cl).
Proof.
  constructor; try reflexivity.
  - apply inv1_empty.
  - intros i it H. rewrite lookup_nil in H. discriminate H.
  - intros t n Hd Ht. exfalso. cbn in Ht. destruct (decide (t = const0)) as [->|N0]; [discriminate Hd|].
    rewrite lookup_insert_ne in Ht by congruence. destruct (decide (t = const1)) as [->|N1]; [discriminate Hd|].
    rewrite lookup_insert_ne in Ht by congruence. rewrite lookup_empty in Ht. discriminate Ht.
  - intros it [].
  - intros i it H. rewrite lookup_nil in H. discriminate H.
Qed.
Lemma built_free cl L st t : built cl L st -> cd t = false -> ~ In t (map i_tile L) -> free_tile st t.
Proof.
  intros B Hd Hn. split; [exact Hd|]. unfold is_empty_tile, get_node. destruct (g_tn st !! t) as [k|] eqn:E; [|reflexivity].
  exfalso. destruct (b_only _ _ _ B _ _ Hd E) as (i & it & Hi & _ & ->). apply Hn, in_map. apply elem_of_list_In. eapply elem_of_list_lookup_2; eauto.
Qed.
Lemma built_snoc cl L st it : built cl L st -> cd (i_tile it) = false -> ~ In (i_tile it) (map i_tile L) -> built cl (L ++ [it]) (run_item st it).
Proof.
  intros B Hd Hn. pose proof (run_item_grown st it (b_inv _ _ _ B) (built_free _ _ _ _ B Hd Hn)) as G.
  pose proof (b_len _ _ _ B) as Hlen.
  constructor.
  - rewrite map_app, g_run_app, (b_run _ _ _ B). cbn [map g_run]. rewrite run_item_step. reflexivity.
  - apply G.
  - rewrite (gr_cl _ _ _ G). apply B.
  - rewrite (gr_len _ _ _ G), app_length, Hlen. cbn. lia.
  - intros i x Hx. destruct (decide (i < length L)%nat) as [Hi|Hi].
    + rewrite lookup_app_l in Hx by exact Hi. destruct (b_at _ _ _ B _ _ Hx) as (A1 & A2 & A3 & A4).
      assert (Hxi : i_tile x <> i_tile it).
      { intros E. apply Hn. rewrite <- E. apply in_map, elem_of_list_In. eapply elem_of_list_lookup_2; eauto. }
      rewrite (gr_tn _ _ _ G), (gr_nt _ _ _ G). rewrite !lookup_insert_ne by (auto; lia).
      destruct (gr_old _ _ _ G (2 + i)%nat ltac:(lia)) as [-> ->]. auto.
    + apply lookup_app_Some in Hx as [Hx|[_ Hx]]; [apply lookup_lt_Some in Hx; lia|].
      destruct (i - length L)%nat as [|j] eqn:Ej; cbn in Hx; [|discriminate Hx].
      inversion Hx; subst x. assert (2 + i = length (g_nodes st))%nat as -> by lia.
      rewrite (gr_tn _ _ _ G), (gr_nt _ _ _ G), !lookup_insert. destruct (gr_new _ _ _ G) as [-> ->]. auto.
  - intros t n Ht E. rewrite (gr_tn _ _ _ G) in E. destruct (decide (t = i_tile it)) as [->|Ne].
    + rewrite lookup_insert in E. inversion E; subst n. exists (length L), it. split; [|split; [lia|reflexivity]].
      apply lookup_app_Some. right. split; [lia|]. rewrite Nat.sub_diag. reflexivity.
    + rewrite lookup_insert_ne in E by auto. destruct (b_only _ _ _ B _ _ Ht E) as (i & x & Hi & -> & ->). exists i, x.
      split; [apply lookup_app_l_Some; exact Hi|auto].
  - rewrite (gr_in _ _ _ G), (b_in _ _ _ B), pi_nodes_app. cbn [pi_nodes]. rewrite app_nil_r, Hlen. reflexivity.
  - rewrite (gr_out _ _ _ G), (b_out _ _ _ B). unfold po_tiles. rewrite List.filter_app, map_app. cbn [List.filter]. destruct (is_ipo it); reflexivity.
  - intros x Hx. apply in_app_iff in Hx as [Hx|[<-|[]]]; [apply (b_live _ _ _ B _ Hx)|exact Hd].
  - intros i x Hx Hp Hnm. destruct (decide (i < length L)%nat) as [Hi|Hi].
    + rewrite lookup_app_l in Hx by exact Hi. rewrite (gr_name_old _ _ _ G) by lia. apply (b_name _ _ _ B _ _ Hx Hp Hnm).
    + apply lookup_app_Some in Hx as [Hx|[_ Hx]]; [apply lookup_lt_Some in Hx; lia|].
      destruct (i - length L)%nat as [|j] eqn:Ej; cbn in Hx; [|discriminate Hx].
      inversion Hx; subst x. assert (2 + i = length (g_nodes st))%nat as -> by lia. apply (gr_name_new _ _ _ G Hp Hnm).
Qed.

(** Looking at the result. *)
Lemma built_signal cl L st t : built cl L st -> In t (map i_tile L) -> get_tile st (get_node st t) = t.
Proof.
  intros B H. apply in_map_iff in H as (it & <- & H). apply elem_of_list_In, elem_of_list_lookup in H as (i & H).
  destruct (b_at _ _ _ B _ _ H) as (A1 & A2 & _). assert (get_node st (i_tile it) = (2 + i)%nat) as -> by (unfold get_node; rewrite A1; reflexivity). unfold get_tile. rewrite A2. reflexivity.
Qed.
Lemma built_node cl L st i it : built cl L st -> L !! i = Some it -> get_node st (i_tile it) = (2 + i)%nat.
Proof. intros B H. destruct (b_at _ _ _ B _ _ H) as (A1 & _). unfold get_node. rewrite A1. reflexivity. Qed.
Lemma built_occ cl L st t : built cl L st -> cd t = false -> is_empty_tile st t = false <-> In t (map i_tile L).
Proof.
  intros B Hd. split.
  - intros H. destruct (occ_some st t (b_inv _ _ _ B) H) as [E _]. destruct (b_only _ _ _ B _ _ Hd E) as (i & it & Hi & _ & ->).
    apply in_map, elem_of_list_In. eapply elem_of_list_lookup_2; eauto.
  - intros H. apply in_map_iff in H as (it & <- & H). apply elem_of_list_In, elem_of_list_lookup in H as (i & H).
    unfold is_empty_tile. rewrite (built_node _ _ _ _ _ B H). reflexivity.
Qed.
Lemma built_wf cl L st : built cl L st -> dim_ok (cl_dim cl) -> (forall it, In it L -> inb (cl_dim cl) (i_tile it)) -> wf st.
Proof.
  intros B Hd Hin. eapply wf_reached; [exact (b_run _ _ _ B)| |exact Hd|].
  - apply Forall_forall. intros o Ho. apply elem_of_list_In, in_map_iff in Ho as (it & <- & _). destruct it; exact I.
  - apply Forall_forall. intros o Ho. apply elem_of_list_In, in_map_iff in Ho as (it & <- & Ho). specialize (Hin _ Ho). destruct it; intros _; exact Hin.
Qed.
Lemma built_is_pi cl L st i it : built cl L st -> L !! i = Some it -> is_pi st (2 + i) = is_ipi it.
Proof.
  intros B H. unfold is_pi. rewrite (b_in _ _ _ B). destruct (is_ipi it) eqn:E.
  - apply existsb_exists. exists (2 + i)%nat. split; [|apply Nat.eqb_refl]. apply pi_nodes_In. exists i, it. auto.
  - apply not_true_is_false. intros K. apply existsb_exists in K as (n & Hn & En). apply Nat.eqb_eq in En. subst n.
    apply pi_nodes_In in Hn as (j & it' & Hj & Hp & Eq). assert (j = i) by lia. subst j. rewrite H in Hj. inversion Hj; subst. congruence.
Qed.
Lemma built_is_po cl L st i it : built cl L st -> L !! i = Some it -> is_po st (2 + i) = is_ipo it.
Proof.
  intros B H. unfold is_po. rewrite (b_out _ _ _ B). destruct (is_ipo it) eqn:E.
  - apply existsb_exists. exists (i_tile it). split; [|rewrite (built_node _ _ _ _ _ B H); apply Nat.eqb_refl].
    unfold po_tiles. apply in_map. apply filter_In. split; [|exact E]. apply elem_of_list_In. eapply elem_of_list_lookup_2; eauto.
  - apply not_true_is_false. intros K. apply existsb_exists in K as (t & Ht & En). apply Nat.eqb_eq in En. unfold po_tiles in Ht.
    apply in_map_iff in Ht as (it' & <- & Ht). apply filter_In in Ht as [Ht Hp]. apply elem_of_list_In, elem_of_list_lookup in Ht as (j & Hj).
    rewrite (built_node _ _ _ _ _ B Hj) in En. assert (j = i) by lia. subst j. rewrite H in Hj. inversion Hj; subst. congruence.
Qed.
Lemma built_in_tiles cl L st : built cl L st -> map (get_tile st) (g_in st) = map i_tile (List.filter is_ipi L).
Proof.
  intros B. rewrite (b_in _ _ _ B).
  assert (G : forall M k, (forall i it, M !! i = Some it -> get_tile st (k + i) = i_tile it) -> map (get_tile st) (pi_nodes k M) = map i_tile (List.filter is_ipi M)).
  { induction M as [|x r IH]; intros k Hk; [reflexivity|]. cbn [pi_nodes List.filter]. rewrite map_app, IH.
    - destruct (is_ipi x); [|reflexivity]. cbn [map app]. f_equal. rewrite <- (Hk 0%nat x eq_refl). f_equal. lia.
    - intros i it H. rewrite <- (Hk (S i) it H). f_equal. lia. }
  apply G. intros i it H. destruct (b_at _ _ _ B _ _ H) as (_ & A2 & _). unfold get_tile. rewrite A2. reflexivity.
Qed.
