(** Lemmas about the gate-level layout model. *)
From Coq Require Import ZArith Bool String List Lia ZifyBool.
From stdpp Require Import gmap list strings pretty.
From Verif Require Import CoordModel CoordSpec CoordProofs GridModel GridSpec GridProofs CoordMap ClockModel ClockSpec ClockProofs GateModel GateSpec.
Import ListNotations.
Local Open Scope Z_scope.

Lemma coord_eqb_bd a b : coord_eqb a b = bool_decide (a = b).
Proof.
  destruct (coord_eqb a b) eqn:E; symmetry.
  - apply bool_decide_eq_true. apply coord_eqb_spec. exact E.
  - apply bool_decide_eq_false. apply coord_eqb_false. exact E.
Qed.

(** ** Primitives: what they leave alone *)
Definition same_shape (a b : gnode) : Prop := n_children a = n_children b /\ n_lit a = n_lit b.

Lemma node_at_alter st n f m : (forall x, n_lit (f x) = n_lit x) ->
  n_lit (node_at (with_nodes st (alter f n (g_nodes st))) m) = n_lit (node_at st m).
Proof.
  intros Hf. unfold node_at; cbn [g_nodes with_nodes].
  destruct (decide (m = n)) as [->|Hne].
  - rewrite list_lookup_alter. destruct (g_nodes st !! n); simpl; auto.
  - rewrite list_lookup_alter_ne by auto. reflexivity.
Qed.
Lemma children_alter st n f m : (forall x, n_children (f x) = n_children x) ->
  n_children (node_at (with_nodes st (alter f n (g_nodes st))) m) = n_children (node_at st m).
Proof.
  intros Hf. unfold node_at; cbn [g_nodes with_nodes].
  destruct (decide (m = n)) as [->|Hne].
  - rewrite list_lookup_alter. destruct (g_nodes st !! n); simpl; auto.
  - rewrite list_lookup_alter_ne by auto. reflexivity.
Qed.

(** [frame st st']: everything except the node records' reference counts and children is the same. *)
Record frame (st st' : glayout) : Prop := {
  fr_cl : g_cl st' = g_cl st; fr_tn : g_tn st' = g_tn st; fr_nt : g_nt st' = g_nt st;
  fr_in : g_in st' = g_in st; fr_out : g_out st' = g_out st;
  fr_g : g_gates st' = g_gates st; fr_w : g_wires st' = g_wires st; fr_c : g_cross st' = g_cross st;
  fr_names : g_names st' = g_names st;
  fr_len : length (g_nodes st') = length (g_nodes st);
  fr_lit : forall m, n_lit (node_at st' m) = n_lit (node_at st m) }.
Lemma frame_refl st : frame st st.
Proof. constructor; auto. Qed.
Lemma frame_trans a b c : frame a b -> frame b c -> frame a c.
Proof. intros [] []. constructor; congruence. Qed.

Lemma alter_frame st n f : (forall x, n_lit (f x) = n_lit x) -> frame st (with_nodes st (alter f n (g_nodes st))).
Proof.
  intros Hf. constructor; try reflexivity.
  - cbn [g_nodes with_nodes]. apply alter_length.
  - intros m. apply node_at_alter, Hf.
Qed.
Lemma inc_frame st s : frame st (inc_ref st s).
Proof. apply alter_frame. reflexivity. Qed.
Lemma dec_frame st s : frame st (dec_ref st s).
Proof. apply alter_frame. reflexivity. Qed.
Lemma kill_frame st n : frame st (kill_node st n).
Proof. unfold kill_node. destruct (is_constant n); [apply frame_refl|]. apply alter_frame. reflexivity. Qed.
Lemma revive_frame st n : frame st (revive_node st n).
Proof. unfold revive_node. destruct (is_constant n); [apply frame_refl|]. apply alter_frame. reflexivity. Qed.
Lemma setch_frame st n ch : frame st (set_children st n ch).
Proof. apply alter_frame. reflexivity. Qed.
Lemma incs_frame ch : forall st, frame st (fold_left inc_ref ch st).
Proof. induction ch as [|c ch IH]; intros st; [apply frame_refl|]. simpl. eapply frame_trans; [apply inc_frame|apply IH]. Qed.
Lemma decs_frame ch : forall st, frame st (fold_left dec_ref ch st).
Proof. induction ch as [|c ch IH]; intros st; [apply frame_refl|]. simpl. eapply frame_trans; [apply dec_frame|apply IH]. Qed.

Lemma get_node_frame st st' t : frame st st' -> get_node st' t = get_node st t.
Proof. intros []. unfold get_node. congruence. Qed.
Lemma get_tile_frame st st' t : frame st st' -> get_tile st' t = get_tile st t.
Proof. intros []. unfold get_tile. congruence. Qed.
Lemma is_wire_frame st st' n : frame st st' -> is_wire st' n = is_wire st n.
Proof. intros []. unfold is_wire. congruence. Qed.

(** ** clear_tile *)
Lemma clear_tn st t : g_tn (clear_tile st t) = delete t (g_tn st).
Proof.
  unfold clear_tile. destruct (g_tn st !! t) as [n|] eqn:E.
  - cbn [with_maps g_tn]. f_equal.
    match goal with |- g_tn (kill_node ?s n) = _ => rewrite (fr_tn _ _ (kill_frame s n)) end.
    destruct (cd t); [reflexivity|]. destruct (is_wire st n); reflexivity.
  - symmetry. apply delete_notin, E.
Qed.
Lemma clear_nt st t : g_nt (clear_tile st t) =
  match g_tn st !! t with Some n => delete n (g_nt st) | None => g_nt st end.
Proof.
  unfold clear_tile. destruct (g_tn st !! t) as [n|] eqn:E; [|reflexivity].
  cbn [with_maps g_nt]. f_equal.
  match goal with |- g_nt (kill_node ?s n) = _ => rewrite (fr_nt _ _ (kill_frame s n)) end.
  destruct (cd t); [reflexivity|]. destruct (is_wire st n); reflexivity.
Qed.
Lemma clear_same {A} (f : glayout -> A) st t :
  (forall s a b, f (with_maps s a b) = f s) -> (forall s n, f (kill_node s n) = f s) ->
  (forall s a b c, f (with_counts s a b c) = f s) -> (forall s o, f (with_out s o) = f s) ->
  f (clear_tile st t) = f st.
Proof.
  intros H1 H2 H3 H4. unfold clear_tile. destruct (g_tn st !! t) as [n|]; [|reflexivity].
  cbv zeta. rewrite H1, H2. destruct (cd t); [reflexivity|]. destruct (is_wire st n).
  - rewrite H4, H3. reflexivity.
  - rewrite H3. reflexivity.
Qed.
Lemma clear_cl st t : g_cl (clear_tile st t) = g_cl st.
Proof. apply clear_same; try reflexivity. intros s n. apply (fr_cl _ _ (kill_frame s n)). Qed.
Lemma clear_in st t : g_in (clear_tile st t) = g_in st.
Proof. apply clear_same; try reflexivity. intros s n. apply (fr_in _ _ (kill_frame s n)). Qed.
Lemma clear_names st t : g_names (clear_tile st t) = g_names st.
Proof. apply clear_same; try reflexivity. intros s n. apply (fr_names _ _ (kill_frame s n)). Qed.
Lemma clear_len st t : length (g_nodes (clear_tile st t)) = length (g_nodes st).
Proof.
  apply (clear_same (fun s => length (g_nodes s))); try reflexivity. intros s n. apply (fr_len _ _ (kill_frame s n)).
Qed.
Lemma clear_lit st t m : n_lit (node_at (clear_tile st t) m) = n_lit (node_at st m).
Proof.
  apply (clear_same (fun s => n_lit (node_at s m))); try reflexivity. intros s n. apply (fr_lit _ _ (kill_frame s n)).
Qed.
Lemma kill_children st n m : n_children (node_at (kill_node st n) m) = n_children (node_at st m).
Proof. unfold kill_node. destruct (is_constant n); [reflexivity|]. apply children_alter. reflexivity. Qed.
Lemma revive_children st n m : n_children (node_at (revive_node st n) m) = n_children (node_at st m).
Proof. unfold revive_node. destruct (is_constant n); [reflexivity|]. apply children_alter. reflexivity. Qed.
Lemma clear_children st t m : n_children (node_at (clear_tile st t) m) = n_children (node_at st m).
Proof.
  apply (clear_same (fun s => n_children (node_at s m))); try reflexivity. intros s n. apply kill_children.
Qed.
Lemma clear_out st t : g_out (clear_tile st t) =
  match g_tn st !! t with
  | Some n => if cd t then g_out st else if is_wire st n
              then erase_first (fun p => Nat.eqb (get_node st p) n) (g_out st) else g_out st
  | None => g_out st
  end.
Proof.
  unfold clear_tile. destruct (g_tn st !! t) as [n|] eqn:E; [|reflexivity]. cbn [with_maps g_out].
  rewrite (fr_out _ _ (kill_frame _ _)). destruct (cd t); [reflexivity|]. destruct (is_wire st n); reflexivity.
Qed.
Lemma clear_wires st t : g_wires (clear_tile st t) =
  match g_tn st !! t with
  | Some n => if cd t then g_wires st else if is_wire st n then w32 (g_wires st - 1) else w32 (g_wires st)
  | None => g_wires st
  end.
Proof.
  unfold clear_tile. destruct (g_tn st !! t) as [n|] eqn:E; [|reflexivity]. cbn [with_maps g_wires].
  rewrite (fr_w _ _ (kill_frame _ _)). destruct (cd t); [reflexivity|]. destruct (is_wire st n); reflexivity.
Qed.
Lemma clear_gates st t : g_gates (clear_tile st t) =
  match g_tn st !! t with
  | Some n => if cd t then g_gates st else if is_wire st n then w32 (g_gates st) else w32 (g_gates st - 1)
  | None => g_gates st
  end.
Proof.
  unfold clear_tile. destruct (g_tn st !! t) as [n|] eqn:E; [|reflexivity]. cbn [with_maps g_gates].
  rewrite (fr_g _ _ (kill_frame _ _)). destruct (cd t); [reflexivity|]. destruct (is_wire st n); reflexivity.
Qed.
Lemma clear_cross st t : g_cross (clear_tile st t) =
  match g_tn st !! t with
  | Some n => if cd t then g_cross st else if is_wire st n then w32 (g_cross st - cross_delta st t) else w32 (g_cross st)
  | None => g_cross st
  end.
Proof.
  unfold clear_tile. destruct (g_tn st !! t) as [n|] eqn:E; [|reflexivity]. cbn [with_maps g_cross].
  rewrite (fr_c _ _ (kill_frame _ _)). destruct (cd t); [reflexivity|]. destruct (is_wire st n); reflexivity.
Qed.

(** ** assign_node *)
Lemma assign_same {A} (f : glayout -> A) st t n :
  (forall s a b, f (with_maps s a b) = f s) -> (forall s a b c, f (with_counts s a b c) = f s) ->
  (f (clear_tile st t) = f st) ->
  f (assign_node st t n) = f st.
Proof.
  intros H1 H2 H3. unfold assign_node. destruct (cd t); [reflexivity|]. cbv zeta.
  match goal with |- f (if ?b then _ else _) = _ => destruct b end; rewrite H2, H1, H3; reflexivity.
Qed.
Lemma assign_cl st t n : g_cl (assign_node st t n) = g_cl st.
Proof. apply assign_same; try reflexivity. apply clear_cl. Qed.
Lemma assign_in st t n : g_in (assign_node st t n) = g_in st.
Proof. apply assign_same; try reflexivity. apply clear_in. Qed.
Lemma assign_names st t n : g_names (assign_node st t n) = g_names st.
Proof. apply assign_same; try reflexivity. apply clear_names. Qed.
Lemma assign_len st t n : length (g_nodes (assign_node st t n)) = length (g_nodes st).
Proof. apply (assign_same (fun s => length (g_nodes s))); try reflexivity. apply clear_len. Qed.
Lemma assign_lit st t n m : n_lit (node_at (assign_node st t n) m) = n_lit (node_at st m).
Proof. apply (assign_same (fun s => n_lit (node_at s m))); try reflexivity. apply clear_lit. Qed.
Lemma assign_children st t n m : n_children (node_at (assign_node st t n) m) = n_children (node_at st m).
Proof. apply (assign_same (fun s => n_children (node_at s m))); try reflexivity. apply clear_children. Qed.
Lemma assign_nodes st t n : g_nodes (assign_node st t n) = if cd t then g_nodes st else g_nodes (clear_tile st t).
Proof.
  unfold assign_node. destruct (cd t); [reflexivity|]. cbv zeta.
  match goal with |- g_nodes (if ?b then _ else _) = _ => destruct b end; reflexivity.
Qed.
Lemma assign_tn st t n : g_tn (assign_node st t n) = if cd t then g_tn st else <[t := n]> (g_tn st).
Proof.
  unfold assign_node. destruct (cd t); [reflexivity|]. cbv zeta.
  match goal with |- g_tn (if ?b then _ else _) = _ => destruct b end; cbn [with_counts with_maps g_tn];
    rewrite clear_tn, insert_delete_insert; reflexivity.
Qed.
Lemma assign_nt st t n : g_nt (assign_node st t n) =
  if cd t then g_nt st else <[n := t]> (g_nt (clear_tile st t)).
Proof.
  unfold assign_node. destruct (cd t); [reflexivity|]. cbv zeta.
  match goal with |- g_nt (if ?b then _ else _) = _ => destruct b end; reflexivity.
Qed.
Lemma assign_out st t n : g_out (assign_node st t n) = if cd t then g_out st else g_out (clear_tile st t).
Proof.
  unfold assign_node. destruct (cd t); [reflexivity|]. cbv zeta.
  match goal with |- g_out (if ?b then _ else _) = _ => destruct b end; reflexivity.
Qed.

(** ** The tile/node correspondence (C18) *)
Record inv0 (st : glayout) : Prop := {
  i_bij : forall t n, g_tn st !! t = Some n <-> g_nt st !! n = Some t;
  i_rng : forall t n, g_tn st !! t = Some n -> (n < length (g_nodes st))%nat;
  i_two : (2 <= length (g_nodes st))%nat;
  i_dead : forall t n, g_tn st !! t = Some n -> cd t = true -> (n <= 1)%nat
}.

Lemma inv0_frame st st' : frame st st' -> inv0 st -> inv0 st'.
Proof.
  intros [] [H1 H2 H3 H4]. constructor.
  - intros t n. rewrite fr_tn0, fr_nt0. apply H1.
  - intros t n. rewrite fr_tn0, fr_len0. apply H2.
  - lia.
  - intros t n. rewrite fr_tn0. apply H4.
Qed.
Lemma inv0_clear st t : inv0 st -> inv0 (clear_tile st t).
Proof.
  intros [H1 H2 H3 H4]. constructor.
  - intros u m. rewrite clear_tn, clear_nt. destruct (g_tn st !! t) as [n|] eqn:E.
    + rewrite !lookup_delete_Some, H1. split; intros [Hne Hu]; (split; [|exact Hu]); intros ->.
      * apply H1 in E. congruence.
      * apply H1 in Hu. congruence.
    + rewrite lookup_delete_Some, H1. split; [tauto|]. intros Hu. split; [|exact Hu]. intros ->.
      apply H1 in Hu. congruence.
  - intros u m. rewrite clear_tn, clear_len, lookup_delete_Some. intros [_ Hu]. eauto.
  - rewrite clear_len. exact H3.
  - intros u m. rewrite clear_tn, lookup_delete_Some. intros [_ Hu]. eauto.
Qed.
Lemma inv0_assign st t n : inv0 st -> (n < length (g_nodes st))%nat ->
  (g_nt st !! n = None) -> inv0 (assign_node st t n).
Proof.
  intros Hi Hn Hnone. destruct (cd t) eqn:Hd.
  { unfold assign_node. rewrite Hd. exact Hi. }
  pose proof (inv0_clear st t Hi) as [H1 H2 H3 H4].
  assert (Hc : g_nt (clear_tile st t) !! n = None).
  { rewrite clear_nt. destruct (g_tn st !! t); [|exact Hnone]. rewrite lookup_delete_None. auto. }
  constructor.
  - intros u m. rewrite assign_tn, assign_nt, Hd. rewrite <- (insert_delete_insert (g_tn st)), <- clear_tn.
    rewrite !lookup_insert_Some. split.
    + intros [[<- <-]|[Hne Hu]]; [left; auto|]. right. split; [|apply H1, Hu].
      intros <-. apply H1 in Hu. congruence.
    + intros [[<- <-]|[Hne Hu]]; [left; auto|]. right. split; [|apply H1, Hu].
      intros <-. apply H1 in Hu. rewrite clear_tn, lookup_delete in Hu. discriminate.
  - intros u m. rewrite assign_tn, assign_len, Hd, lookup_insert_Some. destruct Hi.
    intros [[<- <-]|[_ Hu]]; eauto.
  - rewrite assign_len. destruct Hi; auto.
  - intros u m. rewrite assign_tn, Hd, lookup_insert_Some. destruct Hi. intros [[<- <-]|[_ Hu]] Hdu; [congruence|eauto].
Qed.
Lemma inv0_push st ch lit : inv0 st -> inv0 (push_node st ch lit).
Proof.
  intros [H1 H2 H3 H4]. constructor; cbn [push_node with_nodes g_tn g_nt g_nodes]; auto.
  - intros t n Ht. rewrite app_length. simpl. apply H2 in Ht. lia.
  - rewrite app_length. lia.
Qed.
Lemma inv0_same st st' : g_tn st' = g_tn st -> g_nt st' = g_nt st -> length (g_nodes st') = length (g_nodes st) ->
  inv0 st -> inv0 st'.
Proof.
  intros E1 E2 E3 [H1 H2 H3 H4]. constructor.
  - intros t n. rewrite E1, E2. apply H1.
  - intros t n. rewrite E1, E3. apply H2.
  - lia.
  - intros t n. rewrite E1. apply H4.
Qed.
Lemma inv0_fresh st : inv0 st -> g_nt st !! length (g_nodes st) = None.
Proof.
  intros [H1 H2 H3 H4]. destruct (g_nt st !! length (g_nodes st)) as [t|] eqn:E; [|reflexivity].
  apply H1, H2 in E. lia.
Qed.

(** Clearing the tile a node is on removes it from both maps. *)
Lemma clear_own st n : inv0 st -> get_tile st n = const0 -> g_nt st !! n = None \/ g_nt st !! n = Some const0.
Proof.
  intros _. unfold get_tile. destruct (g_nt st !! n) as [t|]; simpl; [right|left]; congruence.
Qed.
Lemma clear_own_none st n : inv0 st -> g_nt (clear_tile st (get_tile st n)) !! n = None.
Proof.
  intros Hi. rewrite clear_nt. unfold get_tile. destruct (g_nt st !! n) as [t|] eqn:E; simpl.
  - apply (i_bij _ Hi) in E. rewrite E. apply lookup_delete.
  - destruct (g_tn st !! const0); [|exact E]. rewrite lookup_delete_None. auto.
Qed.

Lemma inv0_empty cl : inv0 (g_empty cl).
Proof.
  constructor; cbn [g_empty g_tn g_nt g_nodes].
  - intros t n. rewrite !lookup_insert_Some, !lookup_empty. split.
    + intros [[<- <-]|[Hne [[<- <-]|[_ H]]]]; [auto| |discriminate]. right. split; [discriminate|]. auto.
    + intros [[<- <-]|[Hne [[<- <-]|[_ H]]]]; [auto| |discriminate]. right. split; [discriminate|]. auto.
  - intros t n. rewrite !lookup_insert_Some, lookup_empty. simpl.
    intros [[_ <-]|[_ [[_ <-]|[_ H]]]]; [lia|lia|discriminate].
  - simpl. lia.
  - intros t n. rewrite !lookup_insert_Some, lookup_empty. intros [[_ <-]|[_ [[_ <-]|[_ H]]]] _; [lia|lia|discriminate].
Qed.

(** The pieces of a move, named. *)
Definition mv_start (st : glayout) (n : nat) : glayout :=
  set_children (fold_left dec_ref (n_children (node_at st n)) st) n [].
Definition mv_relabel (st : glayout) (n : nat) (t : coord) : glayout :=
  let st2 := mv_start st n in
  if cd t then st2
  else with_out st2 (map (fun p => if coord_eqb p (get_tile st n) then t else p) (g_out st2)).
Definition mv_place (st : glayout) (n : nat) (t : coord) : glayout :=
  if coord_eqb t (get_tile st n) then mv_start st n
  else revive_node (assign_node (clear_tile (mv_relabel st n t) (get_tile st n)) t n) n.
Lemma move_node_unfold st n t ch : (n < length (g_nodes st))%nat ->
  move_node st n t ch =
  Some (fold_left inc_ref ch (set_children (mv_place st n t) n (n_children (node_at (mv_place st n t) n) ++ ch))).
Proof.
  intros Hn. unfold move_node. apply Nat.ltb_lt in Hn. rewrite Hn. reflexivity.
Qed.
Lemma mv_start_frame st n : frame st (mv_start st n).
Proof. eapply frame_trans; [apply decs_frame|apply setch_frame]. Qed.
Lemma mv_relabel_maps st n t : g_tn (mv_relabel st n t) = g_tn st /\ g_nt (mv_relabel st n t) = g_nt st /\
  length (g_nodes (mv_relabel st n t)) = length (g_nodes st) /\ g_cl (mv_relabel st n t) = g_cl st /\
  (forall m, n_lit (node_at (mv_relabel st n t) m) = n_lit (node_at st m)) /\
  g_gates (mv_relabel st n t) = g_gates st /\ g_wires (mv_relabel st n t) = g_wires st /\
  g_cross (mv_relabel st n t) = g_cross st /\ g_in (mv_relabel st n t) = g_in st /\ g_names (mv_relabel st n t) = g_names st /\
  g_nodes (mv_relabel st n t) = g_nodes (mv_start st n).
Proof.
  pose proof (mv_start_frame st n) as F. unfold mv_relabel. cbv zeta.
  destruct (cd t); [|cbn [with_out g_tn g_nt g_nodes g_cl g_gates g_wires g_cross g_in g_names]];
    (split; [apply F|]; split; [apply F|]; split; [apply F|]; split; [apply F|]; split; [apply (fr_lit _ _ F)|];
     split; [apply F|]; split; [apply F|]; split; [apply F|]; split; [apply F|]; split; [apply F|reflexivity]).
Qed.

Lemma inv0_step st o st' : inv0 st -> g_step st o = Some st' -> inv0 st'.
Proof.
  intros Hi Hs. destruct o as [nm t|s nm t|ch lit t|n t ch|s n|t|n nm|t k]; cbn [g_step] in Hs.
  - inversion Hs; subst; clear Hs. unfold create_pi. cbv zeta.
    apply inv0_assign.
    + eapply inv0_same; [| | |apply (inv0_push st [] 2 Hi)]; reflexivity.
    + cbn [set_name with_names with_in push_node with_nodes g_nodes]. rewrite app_length. simpl. lia.
    + cbn [set_name with_names with_in push_node with_nodes g_nt]. apply inv0_fresh, Hi.
  - inversion Hs; subst; clear Hs. unfold create_po. cbv zeta.
    eapply inv0_frame; [apply setch_frame|]. eapply inv0_frame; [apply inc_frame|].
    apply inv0_assign.
    + eapply inv0_same; [| | |apply (inv0_push st [] 2 Hi)]; reflexivity.
    + cbn [set_name with_names with_out push_node with_nodes g_nodes]. rewrite app_length. simpl. lia.
    + cbn [set_name with_names with_out push_node with_nodes g_nt]. apply inv0_fresh, Hi.
  - inversion Hs; subst; clear Hs. unfold create_lit. cbv zeta.
    pose proof (incs_frame ch (push_node st ch lit)) as F.
    apply inv0_assign.
    + eapply inv0_frame; [apply F|]. apply inv0_push, Hi.
    + rewrite (fr_len _ _ F). cbn [push_node with_nodes g_nodes]. rewrite app_length. simpl. lia.
    + rewrite (fr_nt _ _ F). cbn [push_node with_nodes g_nt]. apply inv0_fresh, Hi.
  - destruct (lt_dec n (length (g_nodes st))) as [Hn|Hn].
    2: { unfold move_node in Hs. apply Nat.ltb_nlt in Hn. rewrite Hn in Hs. discriminate. }
    rewrite move_node_unfold in Hs by exact Hn. inversion Hs; subst; clear Hs.
    eapply inv0_frame; [apply incs_frame|]. eapply inv0_frame; [apply setch_frame|].
    pose proof (mv_start_frame st n) as F.
    unfold mv_place. destruct (coord_eqb t (get_tile st n)).
    { eapply inv0_frame; [apply F|exact Hi]. }
    eapply inv0_frame; [apply revive_frame|].
    destruct (mv_relabel_maps st n t) as (E1 & E2 & E3 & _).
    assert (Hr : inv0 (mv_relabel st n t)) by (eapply inv0_same; [exact E1|exact E2|exact E3|exact Hi]).
    apply inv0_assign.
    + apply inv0_clear, Hr.
    + rewrite clear_len, E3. exact Hn.
    + assert (get_tile st n = get_tile (mv_relabel st n t) n) as -> by (unfold get_tile; congruence).
      apply clear_own_none, Hr.
  - unfold connect in Hs. destruct (is_constant n); [inversion Hs; subst; exact Hi|].
    destruct (Nat.ltb n (length (g_nodes st))); [|discriminate]. inversion Hs; subst; clear Hs.
    eapply inv0_frame; [apply setch_frame|exact Hi].
  - inversion Hs; subst. apply inv0_clear, Hi.
  - inversion Hs; subst. eapply inv0_same; [| | |exact Hi]; reflexivity.
  - inversion Hs; subst. eapply inv0_same; [| | |exact Hi]; reflexivity.
Qed.
Lemma inv0_run ops : forall st st', inv0 st -> g_run st ops = Some st' -> inv0 st'.
Proof.
  induction ops as [|o r IH]; intros st st' Hi; simpl.
  - intros [= <-]. exact Hi.
  - destruct (g_step st o) as [s1|] eqn:E; [|discriminate]. apply IH. eapply inv0_step; eauto.
Qed.

(** ** Counting map entries *)
Definition cnt (f : coord -> nat -> bool) (m : gmap coord nat) : nat :=
  length (List.filter (fun p => f p.1 p.2) (map_to_list m)).
Lemma filter_perm_length {A} (p : A -> bool) l l' : l ≡ₚ l' -> length (List.filter p l) = length (List.filter p l').
Proof.
  induction 1; simpl; auto.
  - destruct (p x); simpl; auto.
  - destruct (p x), (p y); simpl; auto.
  - congruence.
Qed.
Lemma cnt_empty f : cnt f ∅ = 0%nat.
Proof. unfold cnt. rewrite map_to_list_empty. reflexivity. Qed.
Lemma cnt_insert f m t n : m !! t = None -> cnt f (<[t := n]> m) = ((if f t n then 1 else 0) + cnt f m)%nat.
Proof.
  intros H. unfold cnt. rewrite (filter_perm_length _ _ _ (map_to_list_insert m t n H)). simpl.
  destruct (f t n); reflexivity.
Qed.
Lemma cnt_delete f m t n : m !! t = Some n -> cnt f m = ((if f t n then 1 else 0) + cnt f (delete t m))%nat.
Proof.
  intros H. rewrite <- (insert_delete m t n H) at 1. apply cnt_insert, lookup_delete.
Qed.
Lemma cnt_ext f g m : (forall t n, m !! t = Some n -> f t n = g t n) -> cnt f m = cnt g m.
Proof.
  intros H. unfold cnt. f_equal. apply filter_ext_in. intros [t n] Hin. simpl.
  apply H. apply elem_of_map_to_list, elem_of_list_In, Hin.
Qed.
Lemma cnt_list f m : exists L, List.NoDup L /\ (forall t, In t L <-> exists n, m !! t = Some n /\ f t n = true) /\ length L = cnt f m.
Proof.
  exists (map fst (List.filter (fun p => f p.1 p.2) (map_to_list m))). split; [|split].
  - apply NoDup_ListNoDup. pose proof (NoDup_fst_map_to_list m) as ND.
    change (base.fmap fst (map_to_list m)) with (map fst (map_to_list m)) in ND.
    revert ND. generalize (map_to_list m). induction l as [|[a b] l IH]; simpl; intros ND; [constructor|].
    inversion ND as [|? ? Hni ND']; subst. destruct (f a b); simpl; [|auto]. constructor; [|auto].
    rewrite elem_of_list_In in *. intros Hin. apply Hni. apply in_map_iff in Hin as ([a' b'] & <- & Hin).
    apply filter_In in Hin as [Hin _]. apply in_map_iff. exists (a', b'). auto.
  - intros t. rewrite in_map_iff. split.
    + intros ([a b] & <- & Hin). apply filter_In in Hin as [Hin Hf]. exists b. split; [|exact Hf].
      apply elem_of_map_to_list, elem_of_list_In, Hin.
    + intros (n & Hl & Hf). exists (t, n). split; [reflexivity|]. apply filter_In. split; [|exact Hf].
      apply elem_of_list_In, elem_of_map_to_list, Hl.
  - rewrite map_length. reflexivity.
Qed.
Lemma cnt_le_size f m : (cnt f m <= size m)%nat.
Proof. unfold cnt. etransitivity; [apply filter_length_le|]. reflexivity. Qed.

(** ** Gate and wire counters (C19) *)
Definition live_at (p : nat -> bool) (t : coord) (n : nat) : bool := negb (cd t) && p n.
Definition wires_of (st : glayout) : nat := cnt (live_at (is_wire st)) (g_tn st).
Definition gates_of (st : glayout) : nat := cnt (live_at (fun n => negb (is_wire st n))) (g_tn st).
Record inv1 (st : glayout) : Prop := {
  i_0 :> inv0 st;
  i_live : forall t n, g_tn st !! t = Some n -> cd t = false -> (2 <= n)%nat;
  i_w : g_wires st = w32 (Z.of_nat (wires_of st));
  i_g : g_gates st = w32 (Z.of_nat (gates_of st)) }.

Lemma w32_idem z : w32 (w32 z) = w32 z.
Proof. unfold w32. apply Zmod_mod. Qed.
Lemma w32_add a b : w32 (w32 a + b) = w32 (a + b).
Proof. unfold w32. apply Zplus_mod_idemp_l. Qed.
Lemma w32_sub a b : w32 (w32 a - b) = w32 (a - b).
Proof. unfold w32. apply Zminus_mod_idemp_l. Qed.

Lemma wires_of_ext st st' : g_tn st' = g_tn st -> (forall t n, g_tn st !! t = Some n -> n_lit (node_at st' n) = n_lit (node_at st n)) ->
  wires_of st' = wires_of st /\ gates_of st' = gates_of st.
Proof.
  intros E1 E2. unfold wires_of, gates_of. rewrite E1.
  split; apply cnt_ext; intros t n Ht; unfold live_at, is_wire; rewrite (E2 t n Ht); reflexivity.
Qed.
Lemma inv1_same st st' : inv0 st' -> g_tn st' = g_tn st ->
  (forall t n, g_tn st !! t = Some n -> n_lit (node_at st' n) = n_lit (node_at st n)) ->
  g_wires st' = g_wires st -> g_gates st' = g_gates st -> inv1 st -> inv1 st'.
Proof.
  intros H0 E1 E2 E3 E4 [_ H2 H3 H4]. destruct (wires_of_ext st st' E1 E2) as [Ew Eg].
  constructor; auto.
  - intros t n. rewrite E1. apply H2.
  - congruence.
  - congruence.
Qed.
Lemma inv1_frame st st' : frame st st' -> inv1 st -> inv1 st'.
Proof.
  intros F Hi. apply (inv1_same st); auto.
  - eapply inv0_frame; [exact F|apply Hi].
  - apply F.
  - intros t n _. apply F.
  - apply F.
  - apply F.
Qed.
Lemma inv1_clear st t : inv1 st -> inv1 (clear_tile st t).
Proof.
  intros Hi. pose proof Hi as [H1 H2 H3 H4]. constructor.
  - apply inv0_clear, H1.
  - intros u m. rewrite clear_tn, lookup_delete_Some. intros [_ Hu]. eauto.
  - rewrite clear_wires. unfold wires_of. rewrite clear_tn.
    rewrite (cnt_ext _ (live_at (is_wire st))) by (intros; unfold live_at, is_wire; rewrite clear_lit; reflexivity).
    unfold wires_of in H3. destruct (g_tn st !! t) as [n|] eqn:E.
    + rewrite (cnt_delete _ _ _ _ E) in H3. unfold live_at in H3 at 1. destruct (cd t); cbn [negb andb] in H3; [exact H3|].
      destruct (is_wire st n).
      * rewrite H3, w32_sub. f_equal. lia.
      * rewrite H3, w32_idem. f_equal.
    + rewrite (delete_notin _ _ E). exact H3.
  - rewrite clear_gates. unfold gates_of. rewrite clear_tn.
    rewrite (cnt_ext _ (live_at (fun n => negb (is_wire st n)))) by (intros; unfold live_at, is_wire; rewrite clear_lit; reflexivity).
    unfold gates_of in H4. destruct (g_tn st !! t) as [n|] eqn:E.
    + rewrite (cnt_delete _ _ _ _ E) in H4. unfold live_at in H4 at 1. destruct (cd t); cbn [negb andb] in H4; [exact H4|].
      destruct (is_wire st n); cbn [negb] in H4.
      * rewrite H4, w32_idem. f_equal.
      * rewrite H4, w32_sub. f_equal. lia.
    + rewrite (delete_notin _ _ E). exact H4.
Qed.
Lemma assign_wires st t n : cd t = false -> g_wires (assign_node st t n) =
  if is_wire st n then w32 (g_wires (clear_tile st t) + 1) else w32 (g_wires (clear_tile st t)).
Proof.
  intros Hd. unfold assign_node. rewrite Hd. cbv zeta. unfold is_wire at 1. cbn [with_maps g_nodes node_at].
  change (n_lit (node_at (with_maps (clear_tile st t) _ _) n)) with (n_lit (node_at (clear_tile st t) n)).
  rewrite clear_lit. unfold is_wire. destruct (n_lit (node_at st n) =? 2); reflexivity.
Qed.
Lemma assign_gates st t n : cd t = false -> g_gates (assign_node st t n) =
  if is_wire st n then w32 (g_gates (clear_tile st t)) else w32 (g_gates (clear_tile st t) + 1).
Proof.
  intros Hd. unfold assign_node. rewrite Hd. cbv zeta. unfold is_wire at 1.
  change (n_lit (node_at (with_maps (clear_tile st t) _ _) n)) with (n_lit (node_at (clear_tile st t) n)).
  rewrite clear_lit. unfold is_wire. destruct (n_lit (node_at st n) =? 2); reflexivity.
Qed.
Lemma inv1_assign st t n : inv1 st -> (2 <= n < length (g_nodes st))%nat -> g_nt st !! n = None ->
  inv1 (assign_node st t n).
Proof.
  intros Hi Hn Hnone. destruct (cd t) eqn:Hd.
  { unfold assign_node. rewrite Hd. exact Hi. }
  pose proof (inv1_clear st t Hi) as [C1 C2 C3 C4].
  assert (Hno : g_tn (clear_tile st t) !! t = None) by (rewrite clear_tn; apply lookup_delete).
  constructor.
  - apply inv0_assign; auto; [apply Hi|lia].
  - intros u m. rewrite assign_tn, Hd, lookup_insert_Some. destruct Hi. intros [[<- <-]|[_ Hu]]; [lia|eauto].
  - rewrite assign_wires by exact Hd. unfold wires_of. rewrite assign_tn, Hd.
    rewrite <- (insert_delete_insert (g_tn st)), <- clear_tn.
    rewrite (cnt_ext _ (live_at (is_wire (clear_tile st t))))
      by (intros; unfold live_at, is_wire; rewrite assign_lit, clear_lit; reflexivity).
    rewrite (cnt_insert _ _ _ _ Hno). fold (wires_of (clear_tile st t)).
    unfold live_at. rewrite Hd. cbn [negb andb]. unfold is_wire at 2. rewrite clear_lit. fold (is_wire st n).
    rewrite C3. destruct (is_wire st n); [rewrite w32_add|rewrite w32_idem]; f_equal; lia.
  - rewrite assign_gates by exact Hd. unfold gates_of. rewrite assign_tn, Hd.
    rewrite <- (insert_delete_insert (g_tn st)), <- clear_tn.
    rewrite (cnt_ext _ (live_at (fun n => negb (is_wire (clear_tile st t) n))))
      by (intros; unfold live_at, is_wire; rewrite assign_lit, clear_lit; reflexivity).
    rewrite (cnt_insert _ _ _ _ Hno). fold (gates_of (clear_tile st t)).
    unfold live_at. rewrite Hd. cbn [negb andb]. unfold is_wire at 2. rewrite clear_lit. fold (is_wire st n).
    rewrite C4. destruct (is_wire st n); cbn [negb]; [rewrite w32_idem|rewrite w32_add]; f_equal; lia.
Qed.

Lemma node_at_push_old st ch lit m : (m < length (g_nodes st))%nat -> node_at (push_node st ch lit) m = node_at st m.
Proof. intros H. unfold node_at, push_node; cbn [with_nodes g_nodes]. rewrite lookup_app_l by exact H. reflexivity. Qed.
Lemma node_at_push_new st ch lit : node_at (push_node st ch lit) (length (g_nodes st)) = mkN ch 0 lit.
Proof.
  unfold node_at, push_node; cbn [with_nodes g_nodes]. rewrite lookup_app_r by lia. rewrite Nat.sub_diag. reflexivity.
Qed.
Lemma inv1_push st ch lit : inv1 st -> inv1 (push_node st ch lit).
Proof.
  intros Hi. apply (inv1_same st); auto.
  - apply inv0_push, Hi.
  - intros t n Ht. rewrite node_at_push_old; [reflexivity|]. eapply i_rng; [apply Hi|exact Ht].
Qed.
Lemma inv1_step st o st' : inv1 st -> moves_no_constant [o] -> g_step st o = Some st' -> inv1 st'.
Proof.
  intros Hi Hm Hs. pose proof (i_two _ (i_0 _ Hi)) as H2.
  destruct o as [nm t|s nm t|ch lit t|n t ch|s n|t|n nm|t k]; cbn [g_step] in Hs.
  - inversion Hs; subst; clear Hs. unfold create_pi. cbv zeta.
    assert (Hp : inv1 (push_node st [] 2)) by apply inv1_push, Hi.
    apply inv1_assign.
    + apply (inv1_same (push_node st [] 2)); auto. eapply inv0_same; [| | |apply Hp]; reflexivity.
    + cbn [set_name with_names with_in push_node with_nodes g_nodes]. rewrite app_length. simpl. lia.
    + cbn [set_name with_names with_in push_node with_nodes g_nt]. apply inv0_fresh, Hi.
  - inversion Hs; subst; clear Hs. unfold create_po. cbv zeta.
    assert (Hp : inv1 (push_node st [] 2)) by apply inv1_push, Hi.
    eapply inv1_frame; [apply setch_frame|]. eapply inv1_frame; [apply inc_frame|].
    apply inv1_assign.
    + apply (inv1_same (push_node st [] 2)); auto. eapply inv0_same; [| | |apply Hp]; reflexivity.
    + cbn [set_name with_names with_out push_node with_nodes g_nodes]. rewrite app_length. simpl. lia.
    + cbn [set_name with_names with_out push_node with_nodes g_nt]. apply inv0_fresh, Hi.
  - inversion Hs; subst; clear Hs. unfold create_lit. cbv zeta.
    pose proof (incs_frame ch (push_node st ch lit)) as F.
    apply inv1_assign.
    + eapply inv1_frame; [apply F|]. apply inv1_push, Hi.
    + rewrite (fr_len _ _ F). cbn [push_node with_nodes g_nodes]. rewrite app_length. simpl. lia.
    + rewrite (fr_nt _ _ F). cbn [push_node with_nodes g_nt]. apply inv0_fresh, Hi.
  - destruct (lt_dec n (length (g_nodes st))) as [Hn|Hn].
    2: { unfold move_node in Hs. apply Nat.ltb_nlt in Hn. rewrite Hn in Hs. discriminate. }
    rewrite move_node_unfold in Hs by exact Hn. inversion Hs; subst; clear Hs.
    inversion Hm as [|? ? Hm1 _]; subst.
    eapply inv1_frame; [apply incs_frame|]. eapply inv1_frame; [apply setch_frame|].
    pose proof (mv_start_frame st n) as F.
    unfold mv_place. destruct (coord_eqb t (get_tile st n)).
    { eapply inv1_frame; [apply F|exact Hi]. }
    eapply inv1_frame; [apply revive_frame|].
    destruct (mv_relabel_maps st n t) as (E1 & E2 & E3 & E4 & E5 & E6 & E7 & _).
    assert (Hr : inv1 (mv_relabel st n t)).
    { apply (inv1_same st); auto. eapply inv0_same; [exact E1|exact E2|exact E3|apply Hi]. }
    apply inv1_assign.
    + apply inv1_clear, Hr.
    + rewrite clear_len, E3. split; [exact Hm1|exact Hn].
    + assert (get_tile st n = get_tile (mv_relabel st n t) n) as -> by (unfold get_tile; congruence).
      apply clear_own_none, Hr.
  - unfold connect in Hs. destruct (is_constant n); [inversion Hs; subst; exact Hi|].
    destruct (Nat.ltb n (length (g_nodes st))); [|discriminate]. inversion Hs; subst; clear Hs.
    eapply inv1_frame; [apply setch_frame|exact Hi].
  - inversion Hs; subst. apply inv1_clear, Hi.
  - inversion Hs; subst. apply (inv1_same st); auto. eapply inv0_same; [| | |apply Hi]; reflexivity.
  - inversion Hs; subst. apply (inv1_same st); auto. eapply inv0_same; [| | |apply Hi]; reflexivity.
Qed.
Lemma inv1_empty cl : inv1 (g_empty cl).
Proof.
  constructor.
  - apply inv0_empty.
  - intros t n. cbn [g_empty g_tn]. rewrite !lookup_insert_Some, lookup_empty.
    intros [[<- _]|[_ [[<- _]|[_ H]]]]; discriminate.
  - reflexivity.
  - reflexivity.
Qed.
Lemma inv1_run ops : forall st st', inv1 st -> moves_no_constant ops -> g_run st ops = Some st' -> inv1 st'.
Proof.
  induction ops as [|o r IH]; intros st st' Hi Hm; simpl.
  - intros [= <-]. exact Hi.
  - inversion Hm as [|? ? Ho Hr]; subst.
    destruct (g_step st o) as [s1|] eqn:E; [|discriminate]. apply IH; [|exact Hr].
    eapply inv1_step; [exact Hi|constructor; [exact Ho|constructor]|exact E].
Qed.

(** The number of placed nodes is bounded by the number of nodes. *)
Lemma size_tn_le st : inv0 st -> (size (g_tn st) <= length (g_nodes st))%nat.
Proof.
  intros Hi. change (size (g_tn st)) with (length (map_to_list (g_tn st))). rewrite <- (seq_length (length (g_nodes st)) 0).
  rewrite <- (map_length snd). apply NoDup_incl_length.
  - apply NoDup_ListNoDup. change (map snd (map_to_list (g_tn st))) with (snd <$> map_to_list (g_tn st)).
    apply NoDup_fmap_2_strong; [|apply NoDup_map_to_list].
    intros [t n] [u m] H1 H2 E. simpl in E. subst m.
    apply elem_of_map_to_list in H1, H2. apply (i_bij _ Hi) in H1, H2. congruence.
  - intros n Hn. apply in_map_iff in Hn as ([t m] & <- & Hin). apply elem_of_list_In, elem_of_map_to_list in Hin.
    apply in_seq. simpl. pose proof (i_rng _ Hi _ _ Hin). lia.
Qed.

Lemma hosts_wire_iff st t : inv1 st -> hosts_wire st t <-> exists n, g_tn st !! t = Some n /\ live_at (is_wire st) t n = true.
Proof.
  intros Hi. unfold hosts_wire, is_empty_tile, get_node, live_at. split.
  - intros (Hd & He & Hw). destruct (g_tn st !! t) as [n|]; [|discriminate]. exists n. rewrite Hd. auto.
  - intros (n & E & Hl). apply andb_prop in Hl as [Hd Hw]. rewrite E. simpl. destruct (cd t) eqn:Ec; [discriminate|].
    split; [reflexivity|]. split; [|exact Hw]. apply Nat.eqb_neq. pose proof (i_live _ Hi _ _ E Ec). lia.
Qed.
Lemma hosts_gate_iff st t : inv1 st ->
  hosts_gate st t <-> exists n, g_tn st !! t = Some n /\ live_at (fun n => negb (is_wire st n)) t n = true.
Proof.
  intros Hi. unfold hosts_gate, is_empty_tile, get_node, live_at. split.
  - intros (Hd & He & Hw). destruct (g_tn st !! t) as [n|]; [|discriminate]. exists n. simpl in Hw. rewrite Hd, Hw. auto.
  - intros (n & E & Hl). apply andb_prop in Hl as [Hd Hw]. rewrite E. simpl. destruct (cd t) eqn:Ec; [discriminate|].
    split; [reflexivity|]. split; [|apply negb_true_iff, Hw].
    apply Nat.eqb_neq. pose proof (i_live _ Hi _ _ E Ec). lia.
Qed.
Lemma counters_exact st : inv1 st -> Z.of_nat (length (g_nodes st)) < 2 ^ 32 ->
  how_many (hosts_wire st) (num_wires st) /\ how_many (hosts_gate st) (num_gates st).
Proof.
  intros Hi Hl. pose proof (size_tn_le st (i_0 _ Hi)) as Hs. split.
  - destruct (cnt_list (live_at (is_wire st)) (g_tn st)) as (L & ND & HL & HLen). exists L.
    split; [exact ND|]. split.
    + intros t. rewrite HL. symmetry. apply hosts_wire_iff, Hi.
    + unfold num_wires. rewrite (i_w _ Hi). unfold wires_of. rewrite <- HLen. unfold w32. apply Z.mod_small.
      pose proof (cnt_le_size (live_at (is_wire st)) (g_tn st)). lia.
  - destruct (cnt_list (live_at (fun n => negb (is_wire st n))) (g_tn st)) as (L & ND & HL & HLen). exists L.
    split; [exact ND|]. split.
    + intros t. rewrite HL. symmetry. apply hosts_gate_iff, Hi.
    + unfold num_gates. rewrite (i_g _ Hi). unfold gates_of. rewrite <- HLen. unfold w32. apply Z.mod_small.
      pose proof (cnt_le_size (live_at (fun n => negb (is_wire st n))) (g_tn st)). lia.
Qed.

(** ** Moves and removals in isolation (C23, C25) *)
Lemma free_none st t : inv1 st -> free_tile st t -> g_tn st !! t = None.
Proof.
  intros Hi [Hd He]. unfold is_empty_tile, get_node in He. destruct (g_tn st !! t) as [n|] eqn:E; [|reflexivity].
  pose proof (i_live _ Hi _ _ E Hd). simpl in He. apply Nat.eqb_eq in He. lia.
Qed.
Lemma placed_some st n : inv0 st -> placed st n -> g_nt st !! n = Some (get_tile st n) /\ g_tn st !! get_tile st n = Some n.
Proof.
  intros Hi. unfold placed, get_tile. destruct (g_nt st !! n) as [t|] eqn:E; simpl; [|discriminate].
  intros _. split; [reflexivity|]. apply (i_bij _ Hi), E.
Qed.
Lemma incs_children ch : forall st m, n_children (node_at (fold_left inc_ref ch st) m) = n_children (node_at st m).
Proof.
  induction ch as [|c ch IH]; intros st m; [reflexivity|]. simpl. rewrite IH. apply children_alter. reflexivity.
Qed.
Lemma decs_children ch : forall st m, n_children (node_at (fold_left dec_ref ch st) m) = n_children (node_at st m).
Proof.
  induction ch as [|c ch IH]; intros st m; [reflexivity|]. simpl. rewrite IH. apply children_alter. reflexivity.
Qed.
Lemma setch_children st n ch m : (n < length (g_nodes st))%nat ->
  n_children (node_at (set_children st n ch) m) = if Nat.eqb m n then ch else n_children (node_at st m).
Proof.
  intros Hn. unfold set_children, node_at; cbn [with_nodes g_nodes].
  destruct (Nat.eqb_spec m n) as [->|Hne].
  - rewrite list_lookup_alter. destruct (lookup_lt_is_Some_2 _ _ Hn) as [x ->]. reflexivity.
  - rewrite list_lookup_alter_ne by auto. reflexivity.
Qed.
Lemma erase_first_none {A} (p : A -> bool) l : (forall x, In x l -> p x = false) -> erase_first p l = l.
Proof.
  induction l as [|x l IH]; simpl; intros H; [reflexivity|]. rewrite H by auto. f_equal. apply IH. auto.
Qed.

Definition moved_tn (st : glayout) (n : nat) (t : coord) : gmap coord nat :=
  if coord_eqb t (get_tile st n) then g_tn st else <[t := n]> (delete (get_tile st n) (g_tn st)).
Lemma move_tidy st n t ch st' : inv1 st -> (2 <= n)%nat -> placed st n ->
  (free_tile st t \/ t = get_tile st n) -> move_node st n t ch = Some st' ->
  g_tn st' = moved_tn st n t /\ g_nt st' = <[n := t]> (g_nt st) /\
  g_out st' = map (fun p => if coord_eqb p (get_tile st n) then t else p) (g_out st) /\
  g_in st' = g_in st /\ g_names st' = g_names st /\ g_cl st' = g_cl st /\
  length (g_nodes st') = length (g_nodes st) /\
  (forall m, n_lit (node_at st' m) = n_lit (node_at st m)) /\
  (forall m, n_children (node_at st' m) = if Nat.eqb m n then ch else n_children (node_at st m)) /\
  g_wires st' = g_wires st /\ g_gates st' = g_gates st.
Proof.
  intros Hi Hn2 Hp Hfree Hm.
  assert (Hw0 : w32 (g_wires st) = g_wires st) by (rewrite (i_w _ Hi); apply w32_idem).
  assert (Hg0 : w32 (g_gates st) = g_gates st) by (rewrite (i_g _ Hi); apply w32_idem).
  destruct (placed_some st n (i_0 _ Hi) Hp) as [Hnt Htn].
  assert (Hn : (n < length (g_nodes st))%nat) by (eapply i_rng; [apply Hi|exact Htn]).
  rewrite move_node_unfold in Hm by exact Hn. inversion Hm; subst st'; clear Hm.
  set (mid := mv_place st n t).
  assert (Hstart : forall m, n_children (node_at (mv_start st n) m) = if Nat.eqb m n then [] else n_children (node_at st m)).
  { intros m. unfold mv_start. rewrite setch_children.
    - rewrite decs_children. reflexivity.
    - rewrite (fr_len _ _ (decs_frame _ _)). exact Hn. }
  assert (Hmid : g_tn mid = moved_tn st n t /\ g_nt mid = <[n := t]> (g_nt st) /\
    g_out mid = map (fun p => if coord_eqb p (get_tile st n) then t else p) (g_out st) /\
    g_in mid = g_in st /\ g_names mid = g_names st /\ g_cl mid = g_cl st /\
    length (g_nodes mid) = length (g_nodes st) /\
    (forall m, n_lit (node_at mid m) = n_lit (node_at st m)) /\
    (forall m, n_children (node_at mid m) = if Nat.eqb m n then [] else n_children (node_at st m)) /\
    g_wires mid = g_wires st /\ g_gates mid = g_gates st).
  { subst mid. unfold mv_place, moved_tn. destruct (coord_eqb t (get_tile st n)) eqn:Et.
    - apply coord_eqb_spec in Et. pose proof (mv_start_frame st n) as F.
      split; [apply F|]. split; [rewrite (fr_nt _ _ F); symmetry; apply insert_id; congruence|].
      split.
      { rewrite (fr_out _ _ F). rewrite <- (map_id (g_out st)) at 1. apply map_ext. intros p.
        destruct (coord_eqb p (get_tile st n)) eqn:Ep; [|reflexivity]. apply coord_eqb_spec in Ep. congruence. }
      split; [apply F|]. split; [apply F|]. split; [apply F|]. split; [apply F|]. split; [apply F|].
      split; [exact Hstart|]. split; apply F.
    - destruct Hfree as [Hfree|Hc]; [|subst t; rewrite coord_eqb_refl in Et; discriminate].
      pose proof (free_none st t Hi Hfree) as Hnone. destruct Hfree as [Hd _].
      destruct (mv_relabel_maps st n t) as (E1 & E2 & E3 & E4 & E5 & E6 & E7 & E8 & E9 & E10 & E11).
      set (r := mv_relabel st n t) in *. set (old := get_tile st n) in *.
      assert (Hr : inv1 r).
      { apply (inv1_same st); auto. eapply inv0_same; [exact E1|exact E2|exact E3|apply Hi]. }
      assert (Hout : g_out r = map (fun p => if coord_eqb p old then t else p) (g_out st)).
      { unfold r, mv_relabel. cbv zeta. rewrite Hd. cbn [with_out g_out].
        rewrite (fr_out _ _ (mv_start_frame st n)). reflexivity. }
      assert (Hw : is_wire r n = is_wire st n) by (unfold is_wire; rewrite E5; reflexivity).
      assert (Hc1 : g_out (clear_tile r old) = g_out r).
      { rewrite clear_out, E1, Htn. unfold placed in Hp. fold old in Hp. rewrite Hp.
        destruct (is_wire r n); [|reflexivity]. apply erase_first_none. intros p Hin.
        apply Nat.eqb_neq. intros Hpn. unfold get_node in Hpn. rewrite E1 in Hpn.
        destruct (g_tn st !! p) as [q|] eqn:Eq; simpl in Hpn; [|lia]. subst q.
        assert (p = old) by (apply (i_bij _ (i_0 _ Hi)) in Eq; congruence). subst p.
        rewrite Hout in Hin. apply in_map_iff in Hin as (p & Hpp & _).
        destruct (coord_eqb p old) eqn:Ep.
        - subst t. rewrite coord_eqb_refl in Et. discriminate.
        - subst p. rewrite coord_eqb_refl in Ep. discriminate. }
      assert (Hno2 : g_tn (clear_tile r old) !! t = None) by (rewrite clear_tn, E1; apply lookup_delete_None; auto).
      pose proof (revive_frame (assign_node (clear_tile r old) t n) n) as F.
      split; [rewrite (fr_tn _ _ F), assign_tn, Hd, clear_tn, E1; reflexivity|].
      split.
      { rewrite (fr_nt _ _ F), assign_nt, Hd, clear_nt, Hno2, clear_nt, E1, E2, Htn.
        apply insert_delete_insert. }
      split; [rewrite (fr_out _ _ F), assign_out, Hd, clear_out, Hno2, Hc1; exact Hout|].
      split; [rewrite (fr_in _ _ F), assign_in, clear_in; exact E9|].
      split; [rewrite (fr_names _ _ F), assign_names, clear_names; exact E10|].
      split; [rewrite (fr_cl _ _ F), assign_cl, clear_cl; exact E4|].
      split; [rewrite (fr_len _ _ F), assign_len, clear_len; exact E3|].
      split; [intros m; rewrite (fr_lit _ _ F), assign_lit, clear_lit; apply E5|].
      split.
      { intros m. rewrite revive_children, assign_children, clear_children. rewrite <- Hstart.
        unfold node_at. rewrite E11. reflexivity. }
      assert (Hwc : is_wire (clear_tile r old) n = is_wire st n) by (unfold is_wire; rewrite clear_lit, E5; reflexivity).
      split.
      + rewrite (fr_w _ _ F), assign_wires, Hwc by exact Hd. rewrite clear_wires, Hno2, clear_wires, E1, Htn, E7.
        unfold placed in Hp. fold old in Hp. rewrite Hp. rewrite Hw.
        destruct (is_wire st n).
        * rewrite w32_add. replace (g_wires st - 1 + 1) with (g_wires st) by lia. exact Hw0.
        * rewrite w32_idem. exact Hw0.
      + rewrite (fr_g _ _ F), assign_gates, Hwc by exact Hd. rewrite clear_gates, Hno2, clear_gates, E1, Htn, E6.
        unfold placed in Hp. fold old in Hp. rewrite Hp. rewrite Hw.
        destruct (is_wire st n).
        * rewrite w32_idem. exact Hg0.
        * rewrite w32_add. replace (g_gates st - 1 + 1) with (g_gates st) by lia. exact Hg0. }
  destruct Hmid as (M1 & M2 & M3 & M4 & M5 & M6 & M7 & M8 & M9 & M10 & M11).
  set (fin := set_children mid n (n_children (node_at mid n) ++ ch)).
  assert (F : frame mid (fold_left inc_ref ch fin)).
  { eapply frame_trans; [apply setch_frame|apply incs_frame]. }
  split; [rewrite (fr_tn _ _ F); exact M1|]. split; [rewrite (fr_nt _ _ F); exact M2|].
  split; [rewrite (fr_out _ _ F); exact M3|]. split; [rewrite (fr_in _ _ F); exact M4|].
  split; [rewrite (fr_names _ _ F); exact M5|]. split; [rewrite (fr_cl _ _ F); exact M6|].
  split; [rewrite (fr_len _ _ F); exact M7|]. split; [intros m; rewrite (fr_lit _ _ F); apply M8|].
  split.
  { intros m. rewrite incs_children. unfold fin. rewrite setch_children by lia.
    rewrite (M9 n), Nat.eqb_refl. rewrite M9. destruct (Nat.eqb m n); reflexivity. }
  split; [rewrite (fr_w _ _ F); exact M10|rewrite (fr_g _ _ F); exact M11].
Qed.

(** ** Primary inputs and outputs (C22) *)
Definition io_of (st : glayout) (a : io) : Prop :=
  g_in st = io_in a /\ g_out st = map (get_tile st) (io_out a) /\ List.NoDup (io_out a) /\
  (forall n, In n (io_out a) -> (2 <= n)%nat /\ placed st n /\ is_wire st n = true).

Lemma erase_first_map_filter (st : glayout) (n : nat) (l : list nat) :
  inv0 st -> placed st n -> List.NoDup l -> (forall m, In m l -> placed st m) ->
  erase_first (fun p => Nat.eqb (get_node st p) n) (map (get_tile st) l) =
  map (get_tile st) (List.filter (fun m => negb (Nat.eqb m n)) l).
Proof.
  intros Hi Hp. induction l as [|m l IH]; intros ND Hall; [reflexivity|].
  inversion ND as [|? ? Hni ND']; subst. simpl.
  assert (Hm : get_node st (get_tile st m) = m).
  { unfold get_node. rewrite (proj2 (placed_some st m Hi (Hall m (or_introl eq_refl)))). reflexivity. }
  rewrite Hm. destruct (Nat.eqb_spec m n) as [->|Hne]; simpl.
  - f_equal. symmetry. clear -Hni. induction l as [|x l IH]; [reflexivity|]. simpl.
    destruct (Nat.eqb_spec x n) as [->|]; simpl; [exfalso; apply Hni; left; reflexivity|].
    f_equal. apply IH. intros Hin. apply Hni. right. exact Hin.
  - f_equal. apply IH; [exact ND'|]. intros x Hx. apply Hall. right. exact Hx.
Qed.

Lemma assign_free st t n : inv1 st -> free_tile st t -> (2 <= n < length (g_nodes st))%nat -> g_nt st !! n = None ->
  g_nt (assign_node st t n) = <[n := t]> (g_nt st) /\ g_out (assign_node st t n) = g_out st /\
  g_in (assign_node st t n) = g_in st.
Proof.
  intros Hi Hf Hn Hnone. pose proof (free_none st t Hi Hf) as E. destruct Hf as [Hd _].
  rewrite assign_nt, assign_out, assign_in, Hd, clear_nt, clear_out, E. auto.
Qed.
Lemma get_tile_insert st st' n t m : g_nt st' = <[n := t]> (g_nt st) ->
  get_tile st' m = if Nat.eqb m n then t else get_tile st m.
Proof.
  intros E. unfold get_tile. rewrite E. destruct (Nat.eqb_spec m n) as [->|Hne].
  - rewrite lookup_insert. reflexivity.
  - rewrite lookup_insert_ne by auto. reflexivity.
Qed.
Lemma map_ext_nat (f g : nat -> coord) l : (forall x, In x l -> f x = g x) -> map f l = map g l.
Proof. induction l as [|x l IH]; simpl; intros H; [reflexivity|]. rewrite H, IH by auto. reflexivity. Qed.

(** A created node: the state just before it is assigned to its tile. *)
Lemma io_create st st1 t a :
  inv1 st1 -> free_tile st1 t -> g_nt st1 = g_nt st -> inv0 st ->
  length (g_nodes st1) = S (length (g_nodes st)) ->
  (forall m, (m < length (g_nodes st))%nat -> n_lit (node_at st1 m) = n_lit (node_at st m)) ->
  io_of st a ->
  let st' := assign_node st1 t (length (g_nodes st)) in
  map (get_tile st') (io_out a) = g_out st /\
  get_tile st' (length (g_nodes st)) = t /\
  (forall n, In n (io_out a) -> (n < length (g_nodes st))%nat /\ (2 <= n)%nat /\ placed st' n /\ is_wire st' n = true).
Proof.
  intros Hi1 Hf Ent Hi0 Hlen Hlit (Hin & Hout & HND & Hall) st'.
  assert (Hn2 : (2 <= length (g_nodes st) < length (g_nodes st1))%nat) by (pose proof (i_two _ Hi0); lia).
  assert (Hfresh : g_nt st1 !! length (g_nodes st) = None) by (rewrite Ent; apply inv0_fresh, Hi0).
  destruct (assign_free st1 t _ Hi1 Hf Hn2 Hfresh) as (A1 & A2 & A3).
  assert (Hlt : forall n, In n (io_out a) -> (n < length (g_nodes st))%nat).
  { intros n Hn. destruct (Hall n Hn) as (_ & Hp & _). destruct (placed_some st n Hi0 Hp) as [_ Ht].
    eapply i_rng; [exact Hi0|exact Ht]. }
  assert (Hgt : forall m, get_tile st' m = if Nat.eqb m (length (g_nodes st)) then t else get_tile st m).
  { intros m. unfold st'. rewrite (get_tile_insert st1 _ _ _ m A1). unfold get_tile. rewrite Ent. reflexivity. }
  split; [|split].
  - rewrite Hout. apply map_ext_nat. intros x Hx. rewrite Hgt. apply Hlt in Hx.
    destruct (Nat.eqb_spec x (length (g_nodes st))); [lia|reflexivity].
  - rewrite Hgt, Nat.eqb_refl. reflexivity.
  - intros n Hn. pose proof (Hlt n Hn) as Hl. destruct (Hall n Hn) as (H2 & Hp & Hw).
    split; [exact Hl|]. split; [exact H2|]. split.
    + unfold placed. rewrite Hgt. destruct (Nat.eqb_spec n (length (g_nodes st))); [lia|exact Hp].
    + unfold is_wire, st'. rewrite assign_lit, Hlit by exact Hl. exact Hw.
Qed.

Lemma free_tile_same st st' t : g_tn st' = g_tn st -> free_tile st t -> free_tile st' t.
Proof. intros E [H1 H2]. split; [exact H1|]. unfold is_empty_tile, get_node in *. rewrite E. exact H2. Qed.

Lemma NoDup_snoc_nat (l : list nat) n : List.NoDup l -> ~ In n l -> List.NoDup (l ++ [n]).
Proof.
  induction l as [|x l IH]; simpl; intros ND Hn; [constructor; [auto|constructor]|].
  inversion ND as [|? ? Hx ND']; subst. constructor; [|apply IH; auto].
  rewrite in_app_iff. simpl. intros [Hi|[Hi|[]]]; [auto|]. subst. apply Hn. auto.
Qed.

Lemma io_step_ok st o st' a : inv1 st -> tidy st o -> g_step st o = Some st' -> io_of st a ->
  io_of st' (io_step st a o).
Proof.
  intros Hi Ht Hs Hio. pose proof (i_two _ (i_0 _ Hi)) as H2. pose proof Hio as (Hin & Hout & HND & Hall).
  destruct o as [nm t|s nm t|ch lit t|n t ch|s n|t|n nm|t k]; cbn [g_step io_step] in *.
  - inversion Hs; subst; clear Hs. cbn [tidy] in Ht.
    set (st1 := set_name (with_in (push_node st [] 2) (g_in (push_node st [] 2) ++ [length (g_nodes st)]))
          (length (g_nodes st)) (default_name nm ("pi" +:+ pretty (length (g_in (with_in (push_node st [] 2) (g_in (push_node st [] 2) ++ [length (g_nodes st)]))))))).
    assert (Hi1 : inv1 st1).
    { assert (Hp : inv1 (push_node st [] 2)) by apply inv1_push, Hi.
      apply (inv1_same (push_node st [] 2)); auto. eapply inv0_same; [| | |apply Hp]; reflexivity. }
    assert (Hf1 : free_tile st1 t) by (eapply free_tile_same; [|exact Ht]; reflexivity).
    assert (Hlen1 : length (g_nodes st1) = S (length (g_nodes st))).
    { unfold st1. cbn [set_name with_names with_in push_node with_nodes g_nodes]. rewrite app_length. simpl. lia. }
    assert (Hnd : forall m, node_at st1 m = node_at (push_node st [] 2) m) by reflexivity.
    destruct (io_create st st1 t a Hi1 Hf1 eq_refl (i_0 _ Hi) Hlen1) as (C1 & C2 & C3); auto.
    { intros m Hm. rewrite Hnd, node_at_push_old by exact Hm. reflexivity. }
    destruct (assign_free st1 t (length (g_nodes st)) Hi1 Hf1 ltac:(lia) (inv0_fresh st (i_0 _ Hi))) as (A1 & A2 & A3).
    change (create_pi st nm t) with (assign_node st1 t (length (g_nodes st))).
    split; [|split; [|split]]; cbn [io_in io_out].
    + rewrite A3. unfold st1. cbn [set_name with_names with_in push_node with_nodes g_in]. congruence.
    + rewrite A2, C1. reflexivity.
    + exact HND.
    + intros n Hn. destruct (C3 n Hn) as (_ & H). exact H.
  - inversion Hs; subst; clear Hs. cbn [tidy] in Ht.
    set (st1 := set_name (with_out (push_node st [] 2) (g_out (push_node st [] 2) ++ [t]))
          (length (g_nodes st)) (default_name nm ("po" +:+ pretty (length (g_out (with_out (push_node st [] 2) (g_out (push_node st [] 2) ++ [t]))))))).
    assert (Hi1 : inv1 st1).
    { assert (Hp : inv1 (push_node st [] 2)) by apply inv1_push, Hi.
      apply (inv1_same (push_node st [] 2)); auto. eapply inv0_same; [| | |apply Hp]; reflexivity. }
    assert (Hf1 : free_tile st1 t) by (eapply free_tile_same; [|exact Ht]; reflexivity).
    assert (Hlen1 : length (g_nodes st1) = S (length (g_nodes st))).
    { unfold st1. cbn [set_name with_names with_out push_node with_nodes g_nodes]. rewrite app_length. simpl. lia. }
    assert (Hnd : forall m, node_at st1 m = node_at (push_node st [] 2) m) by reflexivity.
    destruct (io_create st st1 t a Hi1 Hf1 eq_refl (i_0 _ Hi) Hlen1) as (C1 & C2 & C3); auto.
    { intros m Hm. rewrite Hnd, node_at_push_old by exact Hm. reflexivity. }
    destruct (assign_free st1 t (length (g_nodes st)) Hi1 Hf1 ltac:(lia) (inv0_fresh st (i_0 _ Hi))) as (A1 & A2 & A3).
    set (st4 := assign_node st1 t (length (g_nodes st))) in *.
    assert (F : frame st4 (create_po st s nm t)).
    { unfold create_po. cbv zeta. fold st1. fold st4. eapply frame_trans; [apply inc_frame|apply setch_frame]. }
    assert (Hgt : forall m, get_tile (create_po st s nm t) m = get_tile st4 m).
    { intros m. apply get_tile_frame, F. }
    split; [|split; [|split]]; cbn [io_in io_out].
    + rewrite (fr_in _ _ F), A3. exact Hin.
    + rewrite (fr_out _ _ F), A2. unfold st1. cbn [set_name with_names with_out push_node with_nodes g_out].
      rewrite map_app. cbn [map]. rewrite (map_ext_nat _ (get_tile st4)) by (intros; apply Hgt).
      rewrite C1, Hgt, C2. reflexivity.
    + apply NoDup_snoc_nat; [exact HND|]. intros Hn. destruct (C3 _ Hn) as [Hlt _]. lia.
    + intros n Hn. apply in_app_iff in Hn as [Hn|[<-|[]]].
      * destruct (C3 n Hn) as (_ & H5 & H6 & H7). split; [exact H5|]. split; [unfold placed; rewrite Hgt; exact H6|].
        rewrite (is_wire_frame _ _ _ F). exact H7.
      * split; [lia|]. split; [unfold placed; rewrite Hgt, C2; apply Ht|].
        rewrite (is_wire_frame _ _ _ F). unfold is_wire, st4. rewrite assign_lit, Hnd, node_at_push_new. reflexivity.
  - inversion Hs; subst; clear Hs. cbn [tidy] in Ht.
    pose proof (incs_frame ch (push_node st ch lit)) as F.
    set (st1 := fold_left inc_ref ch (push_node st ch lit)) in *.
    assert (Hi1 : inv1 st1) by (eapply inv1_frame; [apply F|]; apply inv1_push, Hi).
    assert (Hf1 : free_tile st1 t) by (eapply free_tile_same; [|exact Ht]; apply F).
    assert (Hlen1 : length (g_nodes st1) = S (length (g_nodes st))).
    { rewrite (fr_len _ _ F). cbn [push_node with_nodes g_nodes]. rewrite app_length. simpl. lia. }
    destruct (io_create st st1 t a Hi1 Hf1 (fr_nt _ _ F) (i_0 _ Hi) Hlen1) as (C1 & C2 & C3); auto.
    { intros m Hm. rewrite (fr_lit _ _ F), node_at_push_old by exact Hm. reflexivity. }
    assert (Hfr : g_nt st1 !! length (g_nodes st) = None) by (rewrite (fr_nt _ _ F); exact (inv0_fresh st (i_0 _ Hi))).
    destruct (assign_free st1 t (length (g_nodes st)) Hi1 Hf1 ltac:(lia) Hfr) as (A1 & A2 & A3).
    change (create_lit st ch lit t) with (assign_node st1 t (length (g_nodes st))).
    split; [|split; [|split]]; cbn [io_in io_out].
    + rewrite A3, (fr_in _ _ F). exact Hin.
    + rewrite A2, C1, (fr_out _ _ F). reflexivity.
    + exact HND.
    + intros n Hn. destruct (C3 n Hn) as (_ & H). exact H.
  - destruct Ht as (Hn2 & Hp & Hfree).
    destruct (move_tidy st n t ch st' Hi Hn2 Hp Hfree Hs) as (M1 & M2 & M3 & M4 & M5 & M6 & M7 & M8 & M9 & _).
    assert (Hgt : forall m, get_tile st' m = if Nat.eqb m n then t else get_tile st m).
    { intros m. apply (get_tile_insert st), M2. }
    assert (Hdt : cd t = false) by (destruct Hfree as [[Hd _]| ->]; [exact Hd|exact Hp]).
    split; [|split; [|split]].
    + congruence.
    + rewrite M3, Hout, map_map. apply map_ext_nat. intros m Hm. rewrite Hgt.
      destruct (Hall m Hm) as (_ & Hpm & _).
      destruct (coord_eqb (get_tile st m) (get_tile st n)) eqn:E.
      * apply coord_eqb_spec in E. destruct (placed_some st m (i_0 _ Hi) Hpm) as [_ T1].
        destruct (placed_some st n (i_0 _ Hi) Hp) as [_ T2]. rewrite E, T2 in T1. inversion T1; subst.
        rewrite Nat.eqb_refl. reflexivity.
      * destruct (Nat.eqb_spec m n) as [->|]; [|reflexivity]. rewrite coord_eqb_refl in E. discriminate.
    + exact HND.
    + intros m Hm. destruct (Hall m Hm) as (K1 & K2 & K3). split; [exact K1|]. split.
      * unfold placed. rewrite Hgt. destruct (Nat.eqb m n); [exact Hdt|exact K2].
      * unfold is_wire. rewrite M8. exact K3.
  - unfold connect in Hs. destruct (is_constant n); [inversion Hs; subst; exact Hio|].
    destruct (Nat.ltb n (length (g_nodes st))); [|discriminate]. inversion Hs; subst; clear Hs.
    pose proof (setch_frame st n (n_children (node_at st n) ++ [s])) as F.
    split; [rewrite (fr_in _ _ F); exact Hin|]. split.
    { rewrite (fr_out _ _ F), Hout. apply map_ext_nat. intros x _. symmetry. apply get_tile_frame, F. }
    split; [exact HND|]. intros m Hm. destruct (Hall m Hm) as (K1 & K2 & K3).
    split; [exact K1|]. split; [unfold placed; rewrite (get_tile_frame _ _ _ F); exact K2|].
    rewrite (is_wire_frame _ _ _ F). exact K3.
  - inversion Hs; subst; clear Hs. cbn [io_in io_out].
    destruct (g_tn st !! t) as [n|] eqn:Etn.
    + assert (Hgn : get_node st t = n) by (unfold get_node; rewrite Etn; reflexivity).
      assert (Hgt : forall m, m <> n -> get_tile (clear_tile st t) m = get_tile st m).
      { intros m Hm. unfold get_tile. rewrite clear_nt, Etn, lookup_delete_ne by auto. reflexivity. }
      split; [rewrite clear_in; exact Hin|].
      destruct (cd t) eqn:Hd.
      * assert (Hle : (n <= 1)%nat) by (eapply i_dead; [apply Hi|exact Etn|exact Hd]).
        assert (Hne : forall m, In m (io_out a) -> m <> n) by (intros m Hm; destruct (Hall m Hm); lia).
        split; [rewrite clear_out, Etn, Hd, Hout; apply map_ext_nat; intros m Hm; symmetry; apply Hgt, Hne, Hm|].
        split; [exact HND|]. intros m Hm. destruct (Hall m Hm) as (K1 & K2 & K3). split; [exact K1|].
        split; [unfold placed; rewrite Hgt by (apply Hne, Hm); exact K2|]. unfold is_wire. rewrite clear_lit. exact K3.
      * rewrite Hgn.
        assert (Hpn : placed st n).
        { unfold placed, get_tile. apply (i_bij _ (i_0 _ Hi)) in Etn. rewrite Etn. exact Hd. }
        assert (Hfil : forall m, In m (List.filter (fun m => negb (Nat.eqb m n)) (io_out a)) -> In m (io_out a) /\ m <> n).
        { intros m Hm. apply filter_In in Hm as [Hm Hb]. split; [exact Hm|]. apply negb_true_iff, Nat.eqb_neq in Hb. exact Hb. }
        split.
        { rewrite clear_out, Etn, Hd. destruct (is_wire st n) eqn:Hw.
          - rewrite Hout, erase_first_map_filter; auto; [|apply Hi|intros m Hm; apply (Hall m Hm)].
            apply map_ext_nat. intros m Hm. symmetry. apply Hgt, (Hfil m Hm).
          - rewrite Hout. replace (List.filter (fun m => negb (Nat.eqb m n)) (io_out a)) with (io_out a).
            + apply map_ext_nat. intros m Hm. symmetry. apply Hgt. intros ->. destruct (Hall n Hm) as (_ & _ & K). congruence.
            + symmetry. clear -Hall Hw. assert (Hni : ~ In n (io_out a)).
              { intros Hn. destruct (Hall n Hn) as (_ & _ & K). congruence. }
              clear Hall. induction (io_out a) as [|x l IH]; [reflexivity|]. simpl.
              destruct (Nat.eqb_spec x n) as [->|]; simpl; [exfalso; apply Hni; left; reflexivity|].
              f_equal. apply IH. intros Hin. apply Hni. right. exact Hin. }
        split; [apply List.NoDup_filter, HND|].
        intros m Hm. apply Hfil in Hm as [Hm Hne]. destruct (Hall m Hm) as (K1 & K2 & K3). split; [exact K1|].
        split; [unfold placed; rewrite Hgt by exact Hne; exact K2|]. unfold is_wire. rewrite clear_lit. exact K3.
    + assert (E : clear_tile st t = st) by (unfold clear_tile; rewrite Etn; reflexivity). rewrite E.
      destruct (cd t); [destruct a; exact Hio|].
      replace (List.filter (fun n => negb (Nat.eqb n (get_node st t))) (io_out a)) with (io_out a).
      { destruct a; exact Hio. }
      unfold get_node. rewrite Etn. simpl. symmetry. clear -Hall.
      assert (Hni : ~ In 0%nat (io_out a)) by (intros Hn; destruct (Hall 0%nat Hn); lia).
      clear Hall. induction (io_out a) as [|x l IH]; [reflexivity|]. simpl.
      destruct (Nat.eqb_spec x 0) as [->|]; simpl; [exfalso; apply Hni; left; reflexivity|].
      f_equal. apply IH. intros Hin. apply Hni. right. exact Hin.
  - inversion Hs; subst; exact Hio.
  - inversion Hs; subst; exact Hio.
Qed.

Lemma tidy_no_const st o : tidy st o -> moves_no_constant [o].
Proof. destruct o; cbn; intros H; (constructor; [|constructor]); auto. apply H. Qed.
Lemma each_call_no_const (P : glayout -> gop -> Prop) : (forall st o, P st o -> tidy st o) ->
  forall ops st st', each_call P st ops -> g_run st ops = Some st' -> moves_no_constant ops.
Proof.
  intros HP. induction ops as [|o r IH]; intros st st' Hc Hr; [constructor|]. cbn in Hc, Hr. destruct Hc as [Ho Hc].
  destruct (g_step st o) as [s1|] eqn:E; [|discriminate].
  apply HP, tidy_no_const in Ho. inversion Ho; subst. constructor; [assumption|]. eapply IH; eauto.
Qed.
Lemma io_run_ok ops : forall st st' a, inv1 st -> each_call tidy st ops -> g_run st ops = Some st' -> io_of st a ->
  io_of st' (io_run st a ops) /\ inv1 st'.
Proof.
  induction ops as [|o r IH]; intros st st' a Hi Hc Hr Hio; cbn in *.
  - inversion Hr; subst. auto.
  - destruct Hc as [Ho Hc]. destruct (g_step st o) as [s1|] eqn:E; [|discriminate].
    eapply IH; eauto.
    + eapply inv1_step; [exact Hi|eapply tidy_no_const; exact Ho|exact E].
    + eapply io_step_ok; eauto.
Qed.
