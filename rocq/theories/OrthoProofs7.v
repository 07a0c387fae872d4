(** The placement loop. *)
From Coq Require Import ZArith Bool String List Lia.
From stdpp Require Import gmap list strings pretty.
From Verif Require Import CoordModel CoordSpec CoordProofs GridModel GridSpec CoordMap ClockModel GateModel GateSpec GateProofs GateProofs2 GateProofs3
  RouteModel RouteSpec RouteProofs BuildProofs OrthoModel OrthoSpec OrthoProofs OrthoProofs2 OrthoProofs3 OrthoProofs4 OrthoProofs5 OrthoProofs6.
Import ListNotations.
Local Open Scope Z_scope.

Section loop.
Context (net : onet) (Hm : mapped net) (Hd : distinct_fanins net) (Hsym : symmetric_gates net).
Context (ec : gmap (nat * nat) color) (Hpa : painted net 0 ec).
Notation edge := (edge net).
Notation N := (o_size net).
Notation col u v := (edge_color ec (u, v)).
Notation nc := (node_color net ec).
Notation avail := (eastern_po_available net ec).

(** The claims of the first [k] nodes. *)
Definition cE (k u : nat) : Prop := (u < k)%nat /\ ((exists v, (k <= v)%nat /\ edge u v /\ col u v = East) \/ (o_is_po net u = true /\ avail u = true)).
Definition cS (k u : nat) : Prop := (u < k)%nat /\ exists v, (k <= v)%nat /\ edge u v /\ col u v = South.
Definition cP (k u : nat) : Prop := (u < k)%nat /\ o_is_po net u = true /\ (avail u = false \/ is_multi net u = true).
(** No output leaves an eastern node to the south. *)
Definition roomy : Prop := forall n, o_is_po net n = true -> nc n = East -> avail n = true /\ is_multi net n = false.

Lemma cE_done n f : edge f n -> col f n = East -> ~ cE (S n) f.
Proof using Hm Hd Hpa.
  intros He Hc (_ & [(v & Hv & Ev & Cv)|(Hp & Ha)]).
  - assert (n <> v) by lia. pose proof (siblings net ec Hpa _ _ _ He Ev H Hc). congruence.
  - apply (po_avail net Hm Hd ec Hpa f n Hp He) in Ha. congruence.
Qed.
Lemma cS_done n f : edge f n -> col f n = South -> ~ cS (S n) f.
Proof using Hpa.
  intros He Hc (_ & v & Hv & Ev & Cv). assert (n <> v) by lia. pose proof (siblings' net ec Hpa _ _ _ He Ev H Hc). congruence.
Qed.
Lemma cP_not_south n k f : edge f n -> col f n = South -> ~ cP k f.
Proof using Hm Hd Hpa.
  intros He Hc (_ & Hp & [Ha|Hmu]).
  - rewrite (proj2 (po_avail net Hm Hd ec Hpa f n Hp He) Hc) in Ha. discriminate Ha.
  - eapply multi_no_edge; eassumption.
Qed.
Lemma cE_mono n u : (u < n)%nat -> cE (S n) u -> cE n u.
Proof. intros H (_ & [(v & Hv & R)|R]); split; auto. left. exists v. split; [lia|exact R]. Qed.
Lemma cS_mono n u : (u < n)%nat -> cS (S n) u -> cS n u.
Proof. intros H (_ & v & Hv & R). split; [exact H|]. exists v. split; [lia|exact R]. Qed.
Lemma cP_mono n u : (u < n)%nat -> cP (S n) u -> cP n u.
Proof. intros H (_ & R). split; [exact H|exact R]. Qed.

Lemma claims_step n G G' pos X Y X' Y' X1 Y1 (Rw Cl : Z -> Prop) tx ty : length pos = n -> geo G pos X Y (cE n) (cS n) (cP n) -> 1 <= X ->
  adds G G' (fits_in Rw Cl X1 Y1 tx ty) -> X1 <= X' -> Y1 <= Y' -> X <= X' -> Y <= Y' ->
  (exists e, G' !! live tx ty 0 = Some e /\ e_tag e = TN) -> X <= tx \/ Y <= ty -> Rw ty -> Cl tx ->
  (forall r, Rw r -> r = Y \/ exists f p, edge f n /\ col f n = East /\ pos !! f = Some p /\ r = cy p) ->
  (forall c, Cl c -> c = X \/ c = 0 \/ exists f p, edge f n /\ col f n = South /\ pos !! f = Some p /\ c = cx p) ->
  0 <= tx -> (tx = 0 -> ~ cS (S n) n /\ ~ cP (S n) n) -> (cP (S n) n -> ty = Y /\ Y1 <= Y + 1 /\ Y + 1 < Y') ->
  geo G' (pos ++ [live tx ty 0]) X' Y' (cE (S n)) (cS (S n)) (cP (S n)).
Proof using Hm Hd Hpa.
  intros Hlen Hg HX1 Hadd HXa HYa HX HY Hnew Hcorner HRt HCt HR HC Htx Htx0 HP.
  assert (Lt : forall u p, pos !! u = Some p -> (u < n)%nat) by (intros u p H; apply lookup_lt_Some in H; lia).
  assert (Box : forall u p, pos !! u = Some p -> cx p < X /\ cy p < Y).
  { intros u p H. destruct (ge_pos _ _ _ _ _ _ _ Hg _ _ H) as (_ & _ & e & He & _). eapply ge_box; eassumption. }
  assert (fE : forall f p, edge f n -> col f n = East -> pos !! f = Some p -> cE n f).
  { intros f p He Hc Hp. split; [eapply Lt, Hp|]. left. exists n. auto. }
  assert (fS : forall f p, edge f n -> col f n = South -> pos !! f = Some p -> cS n f).
  { intros f p He Hc Hp. split; [eapply Lt, Hp|]. exists n. auto. }
  assert (O1 : forall u p, pos !! u = Some p -> cE (S n) u -> cE n u /\ ~ Rw (cy p)).
  { intros u p Hp Hu. split; [apply cE_mono; [eapply Lt, Hp|exact Hu]|]. intros Hr. destruct (HR _ Hr) as [H|(f & q & He & Hc & Hq & H)]; [destruct (Box _ _ Hp); lia|].
    assert (u = f). { eapply (ge_EE _ _ _ _ _ _ _ Hg); [apply cE_mono; [eapply Lt, Hp|exact Hu]|eapply fE; eassumption|exact Hp|exact Hq|exact H]. } subst u. exact (cE_done _ _ He Hc Hu). }
  assert (O2 : forall u p, pos !! u = Some p -> cS (S n) u -> cS n u /\ ~ Cl (cx p)).
  { intros u p Hp Hu. assert (Su : cS n u) by (apply cS_mono; [eapply Lt, Hp|exact Hu]). split; [exact Su|]. intros Hr.
    destruct (HC _ Hr) as [H|[H|(f & q & He & Hc & Hq & H)]]; [destruct (Box _ _ Hp); lia| |].
    - destruct (ge_S _ _ _ _ _ _ _ Hg u Su) as (q & Hq & H1 & _). assert (q = p) by congruence. subst. lia.
    - assert (u = f). { eapply (ge_col _ _ _ _ _ _ _ Hg); [left; exact Su|left; eapply fS; eassumption|exact Hp|exact Hq|exact H]. } subst u. exact (cS_done _ _ He Hc Hu). }
  assert (O3 : forall u p, pos !! u = Some p -> cP (S n) u -> cP n u /\ ~ Rw (cy p + 1) /\ ~ Cl (cx p)).
  { intros u p Hp Hu. assert (Su : cP n u) by (apply cP_mono; [eapply Lt, Hp|exact Hu]). split; [exact Su|].
    destruct (ge_P _ _ _ _ _ _ _ Hg u Su) as (q & Hq & H1 & H2 & _). assert (q = p) by congruence. subst q. split; intros Hr.
    - destruct (HR _ Hr) as [H|(f & q & He & Hc & Hq' & H)]; [lia|]. refine (ge_EP _ _ _ _ _ _ _ Hg f u q p _ Su Hq' Hp _); [eapply fE; eassumption|lia].
    - destruct (HC _ Hr) as [H|[H|(f & q & He & Hc & Hq' & H)]]; [destruct (Box _ _ Hp); lia|lia|].
      assert (u = f). { eapply (ge_col _ _ _ _ _ _ _ Hg); [right; exact Su|left; eapply fS; eassumption|exact Hp|exact Hq'|exact H]. } subst u. exact (cP_not_south _ _ _ He Hc Su). }
  eapply (geo_step G G' pos X Y X' Y' (cE n) (cS n) (cP n)); try eassumption.
  - eapply adds_weaken; [|exact Hadd]. intros x y tg ((A1 & A2) & A3 & A4 & A5). split; [lia|]. split; [exact A3|]. split; [exact A4|exact A5].
  - intros u p _ Hp. auto.
  - rewrite Hlen. intros u [[H _]|[[H _]|[H _]]]; lia.
  - rewrite Hlen. intros _ u p _ Hp. split; intros Hu H.
    + apply (O1 u p Hp Hu). rewrite H. exact HRt.
    + apply (proj1 (proj2 (O3 u p Hp Hu))). rewrite H. exact HRt.
  - rewrite Hlen. intros Hn. split.
    + assert (tx <> 0); [|lia]. intros H. destruct (Htx0 H). tauto.
    + intros u p _ Hp [Hu|Hu] H; [apply (O2 u p Hp Hu)|apply (proj2 (proj2 (O3 u p Hp Hu)))]; rewrite H; exact HCt.
  - rewrite Hlen. intros Hn. destruct (HP Hn) as (-> & H1 & H2). split; [lia|]. split; [lia|]. intros t e Ht. destruct (G !! t) as [e0|] eqn:E0.
    + destruct (ge_box _ _ _ _ _ _ _ Hg _ _ E0). lia.
    + destruct (proj2 Hadd _ _ Ht E0) as ((_ & H) & _). lia.
Qed.

(** Tiles that are not read yet. *)
Definition ends (n : nat) (G : gmap coord ent) (pos : list coord) : Prop := forall t, fetch G t -> used G t \/
  exists u, pos !! u = Some t /\ (cE n u \/ cS n u \/ cP n u \/ uses net u = 0%nat).
Lemma ends_step n G G' pos R src t : length pos = n -> (n < N)%nat -> ends n G pos -> placing G G' R src t ->
  (forall f p, edge f n -> pos !! f = Some p -> In p src) -> ends (S n) G' (pos ++ [t]).
Proof using Hm Hd Hpa.
  intros Hlen Hn He Hpl Hsrc u Hu. destruct (G !! u) as [e|] eqn:E0.
  - destruct (He u (ex_intro _ _ E0)) as [H|(v & Hv & H)]; [left; eapply used_mono; [apply Hpl|exact H]|].
    destruct (existsb (Nat.eqb v) (o_fanins net n)) eqn:Ev.
    + left. apply existsb_exists in Ev as (x & Hx & Ex). apply Nat.eqb_eq in Ex. subst x. eapply pl_src; [exact Hpl|]. eapply Hsrc; eassumption.
    + assert (Nv : ~ edge v n). { intros H'. assert (existsb (Nat.eqb v) (o_fanins net n) = true) by (apply existsb_exists; exists v; split; [exact H'|apply Nat.eqb_refl]). congruence. }
      right. exists v. pose proof (lookup_lt_Some _ _ _ Hv). split; [apply lookup_app_l_Some; exact Hv|].
      destruct H as [(_ & [(w & Hw & W)|W])|[(_ & w & Hw & W)|[(_ & W)|W]]].
      * left. split; [lia|]. left. exists w. split; [|exact W]. destruct (Nat.eq_dec w n) as [->|]; [tauto|lia].
      * left. split; [lia|]. right. exact W.
      * right. left. split; [lia|]. exists w. split; [|exact W]. destruct (Nat.eq_dec w n) as [->|]; [tauto|lia].
      * right. right. left. split; [lia|exact W].
      * right. right. right. exact W.
  - destruct (pl_used _ _ _ _ _ Hpl u Hu E0) as [->|H]; [|auto]. right. exists n. split; [rewrite lookup_app_r by lia; replace (n - length pos)%nat with 0%nat by lia; reflexivity|].
    destruct (Nat.eq_dec (uses net n) 0%nat) as [|Hne]; [auto|]. destruct (uses_edge net n ltac:(lia)) as [(v & Hv)|Hp].
    + pose proof (edge_lt net Hm _ _ Hv). destruct (col_ok net ec Hpa _ _ Hv) as [C|C]; [left|right; left]; (split; [lia|]); [left|]; exists v; (split; [lia|auto]).
    + apply po_nouts in Hp. destruct (avail n) eqn:Ea; [left; split; [lia|]; auto|]. right. right. left. split; [lia|]. auto.
Qed.

(** *** Sizes *)
Definition colX (n : nat) : Z := if o_is_pi net n then count (fun m => color_eqb (nc m) South) (o_fanouts net n) else match nc n with South => 0 | _ => 1 end.
Definition rowY (n : nat) : Z := (if o_is_pi net n then 1 else match nc n with East => 0 | _ => 1 end) + po_row net ec n.
Definition DX : Z := zsum (node_columns net ec) (seq 0 N).
Definition DY : Z := count (o_is_pi net) (seq 0 N) - 1 + zsum (node_rows net ec) (seq 0 N) + Z.of_nat (length (multi_output_nodes net)).
Lemma colX_nonneg n : 0 <= colX n.
Proof. unfold colX, count. destruct (o_is_pi net n); [lia|]. destruct (nc n); lia. Qed.
Lemma po_row_nonneg n : 0 <= po_row net ec n.
Proof. unfold po_row. destruct (_ && _); lia. Qed.
Lemma rowY_nonneg n : 0 <= rowY n.
Proof. unfold rowY. pose proof (po_row_nonneg n). destruct (o_is_pi net n); [lia|]. destruct (nc n); lia. Qed.
Lemma colX_sum : 1 + zsum colX (seq 0 N) <= DX + 1.
Proof.
  unfold DX. assert (zsum colX (seq 0 N) <= zsum (node_columns net ec) (seq 0 N)); [|lia]. apply zsum_le. intros n _. unfold node_columns, colX. destruct (o_is_po net n && avail n); lia.
Qed.
Lemma multi_count : count (is_multi net) (seq 0 N) <= Z.of_nat (length (multi_output_nodes net)).
Proof.
  unfold count. apply Nat2Z.inj_le. apply NoDup_incl_length; [apply List.NoDup_filter, seq_NoDup|]. intros x Hx. apply filter_In in Hx as [_ Hx].
  unfold is_multi in Hx. apply existsb_exists in Hx as (y & Hy & E). apply Nat.eqb_eq in E. subst y. exact Hy.
Qed.
Lemma rowY_sum : zsum rowY (seq 0 N) <= DY + 1.
Proof.
  pose proof multi_count as Hmc. rewrite <- zsum_count in Hmc. unfold DY. rewrite <- (zsum_count (o_is_pi net)).
  assert (H : zsum rowY (seq 0 N) <= zsum (fun n => (if o_is_pi net n then 1 else 0) + (node_rows net ec n + (if is_multi net n then 1 else 0))) (seq 0 N)).
  { apply zsum_le. intros n _. unfold rowY, node_rows, po_row. destruct (o_is_pi net n), (o_is_po net n), (avail n), (is_multi net n), (nc n); cbn; lia. }
  rewrite !zsum_plus in H. lia.
Qed.
Lemma colX_bound n : (n <= N)%nat -> 1 + zsum colX (seq 0 n) <= DX + 1.
Proof. intros H. pose proof colX_sum. pose proof (zsum_prefix colX n N colX_nonneg H). lia. Qed.
Lemma rowY_bound n : (n <= N)%nat -> zsum rowY (seq 0 n) <= DY + 1.
Proof. intros H. pose proof rowY_sum. pose proof (zsum_prefix rowY n N rowY_nonneg H). lia. Qed.

(** *** The invariant *)
Context (Hroom : roomy).
Context (cl : clocked) (Hdim : cl_dim cl = live DX DY 1).
Notation names := (o_pi_names net).
Notation good := (good cl names).

Record linv (n : nat) (s : ostate) (G : gmap coord ent) : Prop := mkLinv {
  li_good : good (os_pis s) G [] (os_lyt s);
  li_pis : os_pis s = inputs_before net n;
  li_len : length (os_pos s) = n;
  li_X : os_x s = 1 + zsum colX (seq 0 n);
  li_Y : os_y s = zsum rowY (seq 0 n);
  li_geo : geo G (os_pos s) (os_x s) (os_y s) (cE n) (cS n) (cP n);
  li_val : forall u p, os_pos s !! u = Some p -> forall env b, computes net env u b -> gval G env p b;
  li_east : forall u w p, edge u w -> (w < n)%nat -> col u w = East -> os_pos s !! u = Some p -> fetch G (live (cx p + 1) (cy p) 0);
  li_ends : ends n G (os_pos s)
}.

Lemma finish n s G k' G' st' X' Y' X1 Y1 (Rw Cl : Z -> Prop) tx ty src : linv n s G -> (n < N)%nat -> good k' G' [] st' -> k' = inputs_before net (S n) ->
  X' = os_x s + colX n -> Y' = os_y s + rowY n ->
  placing G G' (fits_in Rw Cl X1 Y1 tx ty) src (live tx ty 0) -> X1 <= X' -> Y1 <= Y' ->
  os_x s <= tx \/ os_y s <= ty -> Rw ty -> Cl tx ->
  (forall r, Rw r -> r = os_y s \/ exists f p, edge f n /\ col f n = East /\ os_pos s !! f = Some p /\ r = cy p) ->
  (forall c, Cl c -> c = os_x s \/ c = 0 \/ exists f p, edge f n /\ col f n = South /\ os_pos s !! f = Some p /\ c = cx p) ->
  0 <= tx -> (tx = 0 -> ~ cS (S n) n /\ ~ cP (S n) n) -> (cP (S n) n -> ty = os_y s /\ Y1 <= os_y s + 1 /\ os_y s + 1 < Y') ->
  (forall f p, edge f n -> os_pos s !! f = Some p -> In p src) ->
  (forall env b, computes net env n b -> gval G' env (live tx ty 0) b) ->
  (forall f p, edge f n -> col f n = East -> os_pos s !! f = Some p -> fetch G' (live (cx p + 1) (cy p) 0)) ->
  linv (S n) (mkOS st' X' Y' (os_pos s ++ [live tx ty 0]) k') G'.
Proof using Hm Hd Hpa.
  intros [L1 L2 L3 L4 L5 L6 L7 L8 L9] Hn Hg Hk HX HY Hpl HXa HYa Hco HRt HCt HR HC Htx Htx0 HP Hsrc Hval Hea.
  pose proof (zsum_nonneg colX (seq 0 n) colX_nonneg) as Z1. pose proof (colX_nonneg n) as Z2. pose proof (rowY_nonneg n) as Z3.
  assert (Sub : G ⊆ G') by apply Hpl.
  constructor; cbn [os_lyt os_x os_y os_pos os_pis].
  - exact Hg.
  - exact Hk.
  - rewrite app_length. cbn. lia.
  - rewrite zsum_S. lia.
  - rewrite zsum_S. lia.
  - eapply (claims_step n G G' (os_pos s) (os_x s) (os_y s) X' Y' X1 Y1 Rw Cl tx ty); try eassumption; try lia; [apply Hpl|apply (pl_tag _ _ _ _ _ Hpl)].
  - intros u p H env b Hc. apply lookup_app_Some in H as [H|[Hge H]].
    + apply (gval_mono _ _ env Sub). eapply L7; eassumption.
    + destruct (u - length (os_pos s))%nat as [|j] eqn:Ej; cbn in H; [|discriminate H]. injection H as <-. assert (u = n) by lia. subst u. apply Hval, Hc.
  - intros u w p He Hw Hc H. destruct (edge_lt net Hm _ _ He). rewrite lookup_app_l in H by lia. destruct (Nat.eq_dec w n) as [->|]; [eapply Hea; eassumption|].
    eapply fetch_mono; [exact Sub|]. eapply (L8 u w); try eassumption. lia.
  - eapply ends_step; eassumption.
Qed.

Lemma inputs_before_S n : (n < N)%nat -> inputs_before net (S n) = (inputs_before net n + (if o_is_pi net n then 1 else 0))%nat.
Proof.
  intros H. unfold inputs_before. rewrite (take_S_r _ _ _ (node_lt net n H)). rewrite List.filter_app, app_length. f_equal. unfold o_is_pi, is_input. cbn. destruct (o_node net n); reflexivity.
Qed.
Lemma pi_names_length : length names = length (List.filter is_input (o_nodes net)).
Proof. unfold o_pi_names. induction (o_nodes net) as [|[nm|f ch] l IH]; cbn; [reflexivity|f_equal; exact IH|exact IH]. Qed.
Lemma inputs_before_lt n : (n < N)%nat -> o_is_pi net n = true -> (inputs_before net n < length names)%nat.
Proof.
  intros H Hp. pose proof (inputs_before_S n H) as E. rewrite Hp in E. rewrite pi_names_length. unfold inputs_before in *.
  rewrite <- (take_drop (S n) (o_nodes net)), List.filter_app, app_length. rewrite (take_drop (S n)). lia.
Qed.
End loop.
