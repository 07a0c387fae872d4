(** The colouring of [orthogonal]: the edges that leave a node have different colours, the edges that enter a node have the same colour, or
    the first one is south, the second one east, and other fan-outs of their sources have been placed before. *)
From Coq Require Import ZArith Bool String List Lia.
From stdpp Require Import gmap list.
From Verif Require Import CoordModel GridModel GateModel OrthoModel.
Import ListNotations.

Global Instance color_dec : EqDecision color.
Proof. solve_decision. Defined.
Lemma color_eqb_eq a b : color_eqb a b = true <-> a = b.
Proof. destruct a, b; cbn; split; congruence. Qed.
Lemma opp_neq c : opposite_color c <> Null.
Proof. destruct c; discriminate. Qed.
Lemma opp_opp c : c <> Null -> opposite_color (opposite_color c) = c.
Proof. destruct c; [congruence|reflexivity..]. Qed.
Lemma edge_eqb_eq a b : edge_eqb a b = true <-> a = b.
Proof.
  destruct a, b. unfold edge_eqb. cbn. rewrite andb_true_iff, !Nat.eqb_eq. split; [intros [-> ->]; reflexivity|intros [= -> ->]; auto].
Qed.
Lemma edge_color_ins ec e c e' : edge_color (<[e := c]> ec) e' = if decide (e' = e) then c else edge_color ec e'.
Proof.
  unfold edge_color. destruct (decide (e' = e)) as [->|N]; [rewrite lookup_insert; reflexivity|rewrite lookup_insert_ne by congruence; reflexivity].
Qed.

Section paint.
Context (net : onet).
Definition edge (u v : nat) : Prop := In u (o_fanins net v).
Context (Hfi : forall v, o_fanins net v = [] \/ (exists a, o_fanins net v = [a]) \/ exists a b, o_fanins net v = [a; b] /\ a <> b).
Context (Hfo : forall u, (length (o_fanouts net u) <= 2)%nat).

Lemma fanins_size v a : In a (o_fanins net v) -> (v < o_size net)%nat.
Proof.
  unfold o_fanins, o_node, o_size. destruct (o_nodes net !! v) eqn:E; [intros _; eapply lookup_lt_Some; eauto|intros []].
Qed.
Lemma In_fanouts u v : In v (o_fanouts net u) <-> edge u v.
Proof.
  unfold o_fanouts. rewrite filter_In, existsb_exists. split.
  - intros (_ & x & Hx & E). apply Nat.eqb_eq in E. subst x. exact Hx.
  - intros H. split; [|exists u; split; [exact H|apply Nat.eqb_refl]]. apply in_seq. pose proof (fanins_size _ _ H). lia.
Qed.
Lemma NoDup_fanouts u : List.NoDup (o_fanouts net u).
Proof. apply List.NoDup_filter, seq_NoDup. Qed.

Definition sib (u v : nat) : option nat := List.find (fun w => negb (Nat.eqb w v)) (o_fanouts net u).
Definition sps (u v : nat) : option nat := List.find (fun w => negb (Nat.eqb w u)) (o_fanins net v).

Lemma sib_spec u v w : edge u v -> sib u v = Some w -> edge u w /\ w <> v /\ sib u w = Some v.
Proof.
  intros He Hs. pose proof (proj2 (In_fanouts u v) He) as Hv. pose proof (NoDup_fanouts u) as Hn. specialize (Hfo u).
  pose proof (find_some _ _ Hs) as [Hw Hne]. apply negb_true_iff, Nat.eqb_neq in Hne.
  split; [apply In_fanouts, Hw|]. split; [exact Hne|]. unfold sib in *.
  destruct (o_fanouts net u) as [|x [|y [|z r]]]; cbn in *; try lia; try tauto.
  destruct Hv as [<-|[<-|[]]], Hw as [<-|[<-|[]]]; try congruence; rewrite ?Nat.eqb_refl; cbn.
  - destruct (Nat.eqb_spec x y); [congruence|reflexivity].
  - destruct (Nat.eqb_spec y x); [congruence|reflexivity].
Qed.
Lemma sib_only u v w : edge u v -> edge u w -> v <> w -> sib u v = Some w.
Proof.
  intros Hv Hw Hne. apply In_fanouts in Hv, Hw. specialize (Hfo u). unfold sib.
  destruct (o_fanouts net u) as [|x [|y [|z r]]]; cbn in *; try lia; try tauto.
  destruct Hv as [<-|[<-|[]]], Hw as [<-|[<-|[]]]; try congruence; rewrite ?Nat.eqb_refl; cbn.
  - destruct (Nat.eqb_spec y x); [congruence|reflexivity].
  - destruct (Nat.eqb_spec x y); [congruence|reflexivity].
Qed.
Lemma sps_spec u v w : edge u v -> sps u v = Some w -> edge w v /\ w <> u /\ sps w v = Some u.
Proof.
  unfold sps, edge. intros He Hs. pose proof (find_some _ _ Hs) as [Hw Hne]. apply negb_true_iff, Nat.eqb_neq in Hne.
  split; [exact Hw|]. split; [exact Hne|].
  destruct (Hfi v) as [E|[(a & E)|(a & b & E & Hab)]]; rewrite E in *; cbn in *; [tauto|destruct He as [<-|[]], Hw as [<-|[]]; congruence|].
  destruct He as [<-|[<-|[]]], Hw as [<-|[<-|[]]]; try congruence; rewrite ?Nat.eqb_refl; cbn.
  - destruct (Nat.eqb_spec a b); [congruence|reflexivity].
  - destruct (Nat.eqb_spec b a); [congruence|reflexivity].
Qed.
Lemma sps_only u v w : edge u v -> edge w v -> u <> w -> sps u v = Some w.
Proof.
  unfold sps, edge. intros He Hw Hne.
  destruct (Hfi v) as [E|[(a & E)|(a & b & E & Hab)]]; rewrite E in *; cbn in *; [tauto|destruct He as [<-|[]], Hw as [<-|[]]; congruence|].
  destruct He as [<-|[<-|[]]], Hw as [<-|[<-|[]]]; try congruence; rewrite ?Nat.eqb_refl; cbn.
  - destruct (Nat.eqb_spec b a); [congruence|reflexivity].
  - destruct (Nat.eqb_spec a b); [congruence|reflexivity].
Qed.

(** One level of the recursion. *)
Definition then_paint (k : nat) (o : option (nat * nat)) (c : color) (ec : gmap (nat * nat) color) :=
  match o with None => Some ec | Some e => paint_edges k net e c ec end.
Lemma paint_unfold k u v c ec : edge u v -> edge_color ec (u, v) = Null ->
  paint_edges (S k) net (u, v) c ec =
  match then_paint k (match sib u v with Some w => Some (u, w) | None => None end) (opposite_color c) (<[(u, v) := c]> ec) with
  | None => None
  | Some ec2 => then_paint k (match sps u v with Some w => Some (w, v) | None => None end) c ec2
  end.
Proof.
  intros He Hn. cbn [paint_edges fst snd]. rewrite Hn. cbn [color_eqb negb]. set (ec1 := <[(u, v) := c]> ec). cbv zeta.
  assert (A : forall k c ec, fold_opt (fun o => if edge_eqb (u, o) (u, v) then Some else paint_edges k net (u, o) c) (o_fanouts net u) ec =
     then_paint k (match sib u v with Some w => Some (u, w) | None => None end) c ec).
  { clear -He Hfo. intros k c ec. pose proof (proj2 (In_fanouts u v) He) as Hv. pose proof (NoDup_fanouts u) as Hn. specialize (Hfo u). unfold sib.
    unfold edge_eqb. cbn [fst snd]. rewrite Nat.eqb_refl. cbn [andb].
    destruct (o_fanouts net u) as [|x [|y [|z r]]]; cbn [length] in Hfo; [destruct Hv| | |lia]; cbn [fold_opt List.find].
    - destruct Hv as [<-|[]]. rewrite Nat.eqb_refl. reflexivity.
    - inversion Hn as [|? ? Hx _]; subst. destruct Hv as [<-|[<-|[]]]; rewrite ?Nat.eqb_refl; cbn [negb].
      + destruct (Nat.eqb_spec y x) as [->|_]; [destruct Hx; left; reflexivity|]. cbn. destruct (paint_edges k net (u, y) c ec); reflexivity.
      + destruct (Nat.eqb_spec x y) as [->|_]; [destruct Hx; left; reflexivity|]. cbn. destruct (paint_edges k net (u, x) c ec); reflexivity. }
  assert (B : forall k c ec, fold_opt (fun i => if edge_eqb (i, v) (u, v) then Some else paint_edges k net (i, v) c) (o_fanins net v) ec =
     then_paint k (match sps u v with Some w => Some (w, v) | None => None end) c ec).
  { clear -He Hfi. intros k c ec. unfold sps, edge in *. unfold edge_eqb. cbn [fst snd]. rewrite Nat.eqb_refl.
    destruct (Hfi v) as [E|[(a & E)|(a & b & E & Hab)]]; rewrite E in *; cbn [fold_opt List.find]; [destruct He| |].
    - destruct He as [<-|[]]. rewrite Nat.eqb_refl. reflexivity.
    - destruct He as [<-|[<-|[]]]; rewrite ?Nat.eqb_refl; cbn [negb andb].
      + destruct (Nat.eqb_spec b a) as [->|_]; [congruence|]. cbn. destruct (paint_edges k net (b, v) c ec); reflexivity.
      + destruct (Nat.eqb_spec a b) as [->|_]; [congruence|]. cbn. destruct (paint_edges k net (a, v) c ec); reflexivity. }
  rewrite A. destruct (then_paint k _ (opposite_color c) ec1); [apply B|reflexivity].
Qed.
Lemma paint_done k u v c ec : (0 < k)%nat -> edge_color ec (u, v) <> Null -> paint_edges k net (u, v) c ec = Some ec.
Proof.
  intros Hk Hn. destruct k; [lia|]. cbn [paint_edges]. destruct (edge_color ec (u, v)) eqn:E; [congruence|reflexivity..].
Qed.

(** The number of unpainted edges. *)
Definition all_edges : list (nat * nat) := flat_map (fun v => map (fun u => (u, v)) (o_fanins net v)) (seq 0 (o_size net)).
Lemma In_all u v : In (u, v) all_edges <-> edge u v.
Proof.
  unfold all_edges. rewrite in_flat_map. split.
  - intros (x & _ & H). apply in_map_iff in H as (y & [= <- <-] & H). exact H.
  - intros H. exists v. split; [apply in_seq; pose proof (fanins_size _ _ H); lia|apply in_map_iff; exists u; auto].
Qed.
Definition blank (ec : gmap (nat * nat) color) (e : nat * nat) : bool := color_eqb (edge_color ec e) Null.
Definition todo (ec : gmap (nat * nat) color) : nat := length (List.filter (blank ec) all_edges).
Lemma blank_ins ec e c e' : c <> Null -> blank (<[e := c]> ec) e' = if decide (e' = e) then false else blank ec e'.
Proof. intros Hc. unfold blank. rewrite edge_color_ins. destruct (decide (e' = e)); [destruct c; [congruence|reflexivity..]|reflexivity]. Qed.
Lemma filter_le {A} (p q : A -> bool) l : (forall x, p x = true -> q x = true) -> (length (List.filter p l) <= length (List.filter q l))%nat.
Proof.
  intros H. induction l as [|x l IH]; [reflexivity|]. cbn [List.filter]. destruct (p x) eqn:E; [rewrite (H x E); cbn; lia|]. destruct (q x); cbn; lia.
Qed.
Lemma todo_ins ec u v c : edge u v -> edge_color ec (u, v) = Null -> c <> Null -> (todo (<[(u, v) := c]> ec) < todo ec)%nat.
Proof.
  intros He Hn Hc. apply In_all in He. unfold todo. revert He. generalize all_edges. induction l as [|x r IH]; cbn [In]; [intros []|].
  pose proof (filter_le (blank (<[(u, v) := c]> ec)) (blank ec) r) as M. cbn [List.filter]. rewrite blank_ins by exact Hc. destruct (decide (x = (u, v))) as [->|N].
  - intros _. assert (E : blank ec (u, v) = true) by (unfold blank; rewrite Hn; reflexivity). rewrite E. cbn [length]. apply Nat.lt_succ_r, M.
    intros y. rewrite blank_ins by exact Hc. destruct (decide (y = (u, v))); [discriminate|auto].
  - intros [Hx|Hx]; [congruence|]. specialize (IH Hx). destruct (blank ec x); cbn [length]; lia.
Qed.
Lemma todo_pos ec u v : edge u v -> edge_color ec (u, v) = Null -> (0 < todo ec)%nat.
Proof.
  intros He Hn. unfold todo. apply In_all in He. assert (H : In (u, v) (List.filter (blank ec) all_edges)).
  { apply filter_In. split; [exact He|]. unfold blank. rewrite Hn. reflexivity. }
  destruct (List.filter (blank ec) all_edges); [destruct H|cbn; lia].
Qed.

(** Edges with the same source. *)
Definition Sib (ec : gmap (nat * nat) color) : Prop := forall u v w, edge u v -> edge u w -> v <> w ->
  (edge_color ec (u, v) = Null /\ edge_color ec (u, w) = Null) \/ (edge_color ec (u, v) <> Null /\ edge_color ec (u, w) = opposite_color (edge_color ec (u, v))).
(** Edges with the same target, except for some targets. *)
Definition Sps (ec : gmap (nat * nat) color) (Ex : nat -> Prop) : Prop := forall a b v, edge a v -> edge b v -> ~ Ex v -> edge_color ec (a, v) = edge_color ec (b, v).
Definition grows (ec ec' : gmap (nat * nat) color) : Prop := forall e, edge_color ec e <> Null -> edge_color ec' e = edge_color ec e.

Lemma grows_refl ec : grows ec ec. Proof. intros e _. reflexivity. Qed.
Lemma grows_trans a b c : grows a b -> grows b c -> grows a c.
Proof. intros H1 H2 e He. rewrite H2; [apply H1, He|rewrite H1 by exact He; exact He]. Qed.
Lemma grows_ins ec u v c : edge_color ec (u, v) = Null -> grows ec (<[(u, v) := c]> ec).
Proof. intros Hn e He. rewrite edge_color_ins. destruct (decide (e = (u, v))) as [->|_]; [congruence|reflexivity]. Qed.

(** Painting an edge and its sibling at once. *)
Lemma Sib_pair ec u v c : Sib ec -> edge u v -> c <> Null -> edge_color ec (u, v) = Null ->
  forall w, sib u v = Some w -> Sib (<[(u, w) := opposite_color c]> (<[(u, v) := c]> ec)).
Proof.
  intros HS He Hc Hn w Hw u' v' w' H1 H2 Hne. destruct (sib_spec _ _ _ He Hw) as (Ew & Nw & _).
  assert (K : forall x, edge u x -> x = v \/ x = w).
  { intros x Hx. destruct (Nat.eq_dec x v) as [->|N]; [auto|]. rewrite (sib_only u v x He Hx ltac:(congruence)) in Hw. right. congruence. }
  rewrite !edge_color_ins. destruct (Nat.eq_dec u' u) as [->|Nu].
  - destruct (K _ H1) as [->| ->], (K _ H2) as [->| ->]; try congruence.
    + rewrite (decide_True _ _ (eq_refl : (u, w) = (u, w))). rewrite decide_False by congruence. rewrite decide_True by reflexivity.
      right. split; [exact Hc|reflexivity].
    + rewrite decide_True by reflexivity. rewrite decide_False by congruence. rewrite decide_True by reflexivity. right. split; [apply opp_neq|symmetry; apply opp_opp, Hc].
  - rewrite !decide_False by congruence. apply HS; auto.
Qed.
Lemma Sib_single ec u v c : Sib ec -> edge u v -> sib u v = None -> Sib (<[(u, v) := c]> ec).
Proof.
  intros HS He Hs u' v' w' H1 H2 Hne. rewrite !edge_color_ins.
  assert (K : forall x, edge u x -> x = v).
  { intros x Hx. destruct (Nat.eq_dec x v) as [->|N]; [auto|]. rewrite (sib_only u v x He Hx ltac:(congruence)) in Hs. discriminate Hs. }
  destruct (Nat.eq_dec u' u) as [->|Nu]; [rewrite (K _ H1), (K _ H2) in Hne; congruence|]. rewrite !decide_False by congruence. apply HS; auto.
Qed.


(** Painting an edge and its sibling, whose target is [v] or has at least one painted edge already. *)
Lemma chain (Ex : nat -> Prop) : forall k ec a b v c, Sib ec -> Sps ec (fun t => Ex t \/ t = v) -> ~ Ex v ->
  (forall t x y, Ex t -> edge x t -> edge y t -> x <> y -> edge_color ec (x, t) = Null -> edge_color ec (y, t) <> Null) ->
  c <> Null -> edge a v -> sps a v = Some b -> edge_color ec (a, v) = Null -> edge_color ec (b, v) = c -> (todo ec < k)%nat ->
  exists ec', paint_edges k net (a, v) c ec = Some ec' /\ Sib ec' /\ Sps ec' Ex /\ grows ec ec' /\ edge_color ec' (a, v) = c /\
    (forall x t, Ex t -> edge x t -> edge_color ec (x, t) = Null -> edge_color ec' (x, t) <> Null -> exists w, sib x t = Some w).
Proof.
  intros k. induction (lt_wf k) as [k _ IH]. intros ec a b v c HS HP Hv Hold Hc He Hsp Hn Hb Hk.
  destruct k as [|k]; [lia|]. pose proof (todo_pos _ _ _ He Hn) as Hp. rewrite paint_unfold by assumption. rewrite Hsp.
  destruct (sps_spec _ _ _ He Hsp) as (Eb & Nb & _).
  set (ec1 := <[(a, v) := c]> ec).
  assert (Hb1 : edge_color ec1 (b, v) = c) by (unfold ec1; rewrite edge_color_ins, decide_False by congruence; exact Hb).
  assert (Ha1 : edge_color ec1 (a, v) = c) by (unfold ec1; rewrite edge_color_ins, decide_True by reflexivity; reflexivity).
  assert (HP1 : Sps ec1 Ex).
  { intros x y t Hx Hy Ht. destruct (Nat.eq_dec t v) as [->|Nt].
    - assert (K : forall z, edge z v -> edge_color ec1 (z, v) = c).
      { intros z Hz. destruct (Nat.eq_dec z a) as [->|Na]; [exact Ha1|]. rewrite (sps_only a v z He Hz ltac:(congruence)) in Hsp.
        injection Hsp as ->. exact Hb1. }
      rewrite !K; auto.
    - unfold ec1. rewrite !edge_color_ins, !decide_False by congruence. apply HP; auto. intros [H|H]; contradiction. }
  pose proof (todo_ins ec a v c He Hn Hc) as Ht1. fold ec1 in Ht1.
  destruct (sib a v) as [w|] eqn:Hs; cbn [then_paint].
  2:{ exists ec1. rewrite paint_done by (try lia; rewrite Hb1; exact Hc). split; [reflexivity|]. split; [apply Sib_single; assumption|].
      split; [exact HP1|]. split; [apply grows_ins, Hn|]. split; [exact Ha1|]. intros x t Ht Hx H0 H1. exfalso. apply H1. unfold ec1.
      rewrite edge_color_ins, decide_False by (intros [= _ ->]; contradiction). exact H0. }
  destruct (sib_spec _ _ _ He Hs) as (Ew & Nw & Hsw).
  assert (Hw0 : edge_color ec (a, w) = Null) by (destruct (HS a v w He Ew ltac:(congruence)) as [[_ H]|[H _]]; [exact H|congruence]).
  assert (Hw1 : edge_color ec1 (a, w) = Null) by (unfold ec1; rewrite edge_color_ins, decide_False by congruence; exact Hw0).
  pose proof (todo_pos _ _ _ Ew Hw1) as Hp1. destruct k as [|k]; [lia|]. rewrite paint_unfold by assumption. rewrite Hsw. cbn [then_paint].
  set (ec2 := <[(a, w) := opposite_color c]> ec1).
  pose proof (todo_ins ec1 a w _ Ew Hw1 (opp_neq c)) as Ht2. fold ec2 in Ht2.
  assert (Ha2 : edge_color ec2 (a, v) = c) by (unfold ec2; rewrite edge_color_ins, decide_False by congruence; exact Ha1).
  assert (Hb2 : edge_color ec2 (b, v) = c) by (unfold ec2; rewrite edge_color_ins, decide_False by congruence; exact Hb1).
  assert (Hw2 : edge_color ec2 (a, w) = opposite_color c) by (unfold ec2; rewrite edge_color_ins, decide_True by reflexivity; reflexivity).
  assert (HS2 : Sib ec2) by (apply Sib_pair; assumption).
  assert (G2 : grows ec ec2) by (eapply grows_trans; [apply grows_ins; exact Hn|apply grows_ins; exact Hw1]).
  rewrite paint_done by (try lia; rewrite Ha2; exact Hc).
  assert (New : forall x t, Ex t -> edge x t -> edge_color ec (x, t) = Null -> edge_color ec2 (x, t) <> Null -> exists w, sib x t = Some w).
  { intros x t Ht Hx H0 H1. destruct (decide ((x, t) = (a, w))) as [[= -> ->]|N]; [exists v; exact Hsw|].
    exfalso. apply H1. unfold ec2. rewrite edge_color_ins, decide_False by exact N. unfold ec1.
    rewrite edge_color_ins, decide_False by (intros [= _ ->]; contradiction). exact H0. }
  assert (HP2w : Sps ec2 (fun t => Ex t \/ t = w)).
  { intros x y t Hx Hy Ht. unfold ec2. rewrite !edge_color_ins, !decide_False by (intros [= _ ->]; tauto). apply HP1; auto. }
  (* nothing more to paint below *)
  assert (Stop : Sps ec2 Ex -> then_paint (S k) (Some (b, v)) c ec2 = Some ec2 /\ Sib ec2 /\ Sps ec2 Ex /\ grows ec ec2 /\ edge_color ec2 (a, v) = c /\
    (forall x t, Ex t -> edge x t -> edge_color ec (x, t) = Null -> edge_color ec2 (x, t) <> Null -> exists w, sib x t = Some w)).
  { intros H. cbn [then_paint]. rewrite paint_done by (try lia; rewrite Hb2; exact Hc). exact (conj eq_refl (conj HS2 (conj H (conj G2 (conj Ha2 New))))). }
  destruct (sps a w) as [b2|] eqn:Hs2; cbn [then_paint].
  2:{ exists ec2. apply Stop. intros x y t Hx Hy Ht. destruct (Nat.eq_dec t w) as [->|Nt].
      - assert (K : forall z, edge z w -> z = a). { intros z Hz. destruct (Nat.eq_dec z a) as [->|Na]; [reflexivity|].
          rewrite (sps_only a w z Ew Hz ltac:(congruence)) in Hs2. discriminate Hs2. }
        rewrite (K x), (K y) by assumption. reflexivity.
      - apply HP2w; auto. intros [H|H]; contradiction. }
  destruct (sps_spec _ _ _ Ew Hs2) as (Eb2 & Nb2 & Hsb2).
  assert (Hbc : edge_color ec2 (b2, w) = edge_color ec (b2, w)).
  { unfold ec2. rewrite edge_color_ins, decide_False by congruence. unfold ec1. rewrite edge_color_ins, decide_False by congruence. reflexivity. }
  destruct (decide (edge_color ec (b2, w) = Null)) as [Hbn|Hbn].
  - assert (Hxw : ~ Ex w) by (intros H; exact (Hold w a b2 H Ew Eb2 ltac:(congruence) Hw0 Hbn)).
    destruct (IH k ltac:(lia) ec2 b2 a w (opposite_color c)) as (ec3 & P3 & S3 & Sp3 & G3 & C3 & N3).
    + exact HS2.
    + exact HP2w.
    + exact Hxw.
    + intros t x y Ht Hx Hy Hxy H0 H1. destruct (decide (edge_color ec (x, t) = Null)) as [E|E]; [|rewrite (G2 _ E) in H0; contradiction].
      pose proof (Hold t x y Ht Hx Hy Hxy E) as H2. rewrite (G2 _ H2) in H1. contradiction.
    + apply opp_neq.
    + exact Eb2.
    + exact Hsb2.
    + rewrite Hbc. exact Hbn.
    + exact Hw2.
    + lia.
    + rewrite P3. exists ec3. assert (Hb3 : edge_color ec3 (b, v) = c) by (rewrite G3; [exact Hb2|rewrite Hb2; exact Hc]).
      rewrite paint_done by (try lia; rewrite Hb3; exact Hc). split; [reflexivity|]. split; [exact S3|]. split; [exact Sp3|].
      split; [eapply grows_trans; eassumption|]. split; [rewrite G3; [exact Ha2|rewrite Ha2; exact Hc]|].
      intros x t Ht Hx H0 H1. destruct (decide (edge_color ec2 (x, t) = Null)) as [E|E]; [apply (N3 x t); assumption|apply (New x t); assumption].
  - rewrite paint_done by (try lia; rewrite Hbc; exact Hbn). exists ec2. apply Stop.
    intros x y t Hx Hy Ht. destruct (Nat.eq_dec t w) as [->|Nt].
    + exfalso. apply Hbn. destruct (Nat.eq_dec w v) as [->|Nv]; [congruence|].
      rewrite <- (HP a b2 w Ew Eb2) by (intros [H|H]; contradiction). exact Hw0.
    + apply HP2w; auto. intros [H|H]; contradiction.
Qed.

(** A node whose fan-in edges have different colours. *)
Definition exc (ec : gmap (nat * nat) color) (v : nat) : Prop := exists f1 f2, o_fanins net v = [f1; f2] /\
  edge_color ec (f1, v) = South /\ edge_color ec (f2, v) = East /\ (exists w, (w < v)%nat /\ edge f1 w) /\ (exists w, w <> v /\ edge f2 w).
Lemma exc_grows ec ec' v : grows ec ec' -> exc ec v -> exc ec' v.
Proof.
  intros G (f1 & f2 & E & H1 & H2 & Hr). exists f1, f2. split; [exact E|]. rewrite !G by congruence. auto.
Qed.

Record painted (m : nat) (ec : gmap (nat * nat) color) : Prop := mkPainted {
  pa_sib : Sib ec;
  pa_sps : Sps ec (fun v => (m <= v)%nat /\ exc ec v);
  pa_all : forall u v, (m <= v)%nat -> edge u v -> edge_color ec (u, v) <> Null
}.
Lemma Sps_weaken ec (P Q : nat -> Prop) : (forall v, P v -> Q v) -> Sps ec P -> Sps ec Q.
Proof. intros H HS a b v Ha Hb Hn. apply HS; auto. Qed.

Lemma paint_gate_step k n ec : painted (S n) ec -> (todo ec < k)%nat -> exists ec', paint_gate k net n ec = Some ec' /\ painted n ec' /\ grows ec ec'.
Proof.
  intros [HS HP HA] Hk. unfold paint_gate. destruct (o_is_pi net n) eqn:Epi.
  { exists ec. split; [reflexivity|]. split; [|apply grows_refl]. assert (K : forall x, ~ edge x n).
    { unfold edge, o_fanins, o_is_pi in *. destruct (o_node net n); [intros x []|discriminate Epi]. }
    constructor; [exact HS| |].
    - intros a b v Ha Hb Hn. apply HP; auto. intros [H1 H2]. apply Hn. split; [lia|exact H2].
    - intros u v Hm He. destruct (Nat.eq_dec v n) as [->|N]; [destruct (K _ He)|]. apply HA; [lia|exact He]. }
  clear Epi.
  assert (Same : forall x y, edge x n -> edge y n -> edge_color ec (x, n) = edge_color ec (y, n)) by (intros x y Hx Hy; apply HP; auto; lia).
  (* everything painted *)
  assert (Full : (forall x, edge x n -> edge_color ec (x, n) <> Null) -> forall c, exists ec', fold_opt (fun f => paint_edges k net (f, n) c) (o_fanins net n) ec = Some ec' /\
    painted n ec' /\ grows ec ec').
  { intros H c. exists ec. split; [|split; [|apply grows_refl]].
    - unfold edge in H. revert H. generalize (o_fanins net n). induction l as [|x r IHr]; intros H; [reflexivity|]. cbn [fold_opt].
      rewrite paint_done by (try lia; apply H; left; reflexivity). apply IHr. intros y Hy. apply H. right. exact Hy.
    - constructor; [exact HS| |].
      + intros a b v Ha Hb Hn. apply HP; auto. intros [H1 H2]. apply Hn. split; [lia|exact H2].
      + intros u v Hm He. destruct (Nat.eq_dec v n) as [->|N]; [apply H, He|]. apply HA; [lia|exact He]. }
  assert (Hfa : exists f1, In f1 (o_fanins net n) -> True) by (exists O; auto). clear Hfa.
  destruct (o_fanins net n) as [|f1 r] eqn:Ef.
  { apply Full. intros x Hx. unfold edge in Hx. rewrite Ef in Hx. destruct Hx. }
  assert (E1 : edge f1 n) by (unfold edge; rewrite Ef; left; reflexivity).
  destruct (decide (edge_color ec (f1, n) = Null)) as [Hn|Hn].
  2:{ apply Full. intros x Hx. rewrite (Same x f1 Hx E1). exact Hn. }
  clear Full.
  assert (Hc : existsb (fun f => color_eqb (edge_color ec (f, n)) East) (f1 :: r) = false).
  { apply not_true_is_false. rewrite existsb_exists. intros (x & Hx & Ex). apply color_eqb_eq in Ex.
    assert (Ee : edge x n) by (unfold edge; rewrite Ef; exact Hx). rewrite (Same x f1 Ee E1), Hn in Ex. discriminate Ex. }
  rewrite Hc. clear Hc. cbn [fold_opt].
  set (Ex := fun v => (S n <= v)%nat /\ exc ec v).
  assert (ExP : forall t x, Ex t -> edge x t -> edge_color ec (x, t) <> Null) by (intros t x [Ht _] Hx; apply HA; assumption).
  pose proof (todo_pos _ _ _ E1 Hn) as Hp. destruct k as [|k]; [lia|]. rewrite paint_unfold by assumption.
  set (ec1 := <[(f1, n) := South]> ec).
  pose proof (todo_ins ec f1 n South E1 Hn ltac:(discriminate)) as Ht1. fold ec1 in Ht1.
  assert (Hc1 : edge_color ec1 (f1, n) = South) by (unfold ec1; rewrite edge_color_ins, decide_True by reflexivity; reflexivity).
  assert (G1 : grows ec ec1) by (apply grows_ins, Hn).
  set (Ex' := fun v => Ex v \/ v = n).
  (* the sibling of the first fan-in edge *)
  assert (First : exists ec3, then_paint k (match sib f1 n with Some w => Some (f1, w) | None => None end) (opposite_color South) ec1 = Some ec3 /\
     Sib ec3 /\ Sps ec3 Ex' /\ grows ec ec3 /\ edge_color ec3 (f1, n) = South /\ (todo ec3 <= todo ec1)%nat /\
     (forall x, edge x n -> edge_color ec (x, n) = Null -> edge_color ec3 (x, n) <> Null -> x <> f1 -> exists w, sib x n = Some w) /\
     (forall x, edge x n -> edge_color ec (x, n) = Null -> edge_color ec3 (x, n) <> Null -> x <> f1 -> exists w, sib f1 n = Some w)).
  { assert (HP1 : Sps ec1 Ex').
    { intros x y t Hx Hy Ht. unfold ec1. rewrite !edge_color_ins, !decide_False by (intros [= _ ->]; apply Ht; right; reflexivity).
      apply HP; auto. intros H. apply Ht. left. exact H. }
    destruct (sib f1 n) as [w|] eqn:Hs; cbn [then_paint].
    2:{ exists ec1. split; [reflexivity|]. split; [apply Sib_single; assumption|]. split; [exact HP1|]. split; [exact G1|]. split; [exact Hc1|]. split; [reflexivity|].
        split; intros x Hx H0 H1 Hne; exfalso; apply H1; unfold ec1; rewrite edge_color_ins, decide_False by congruence; exact H0. }
    destruct (sib_spec _ _ _ E1 Hs) as (Ew & Nw & Hsw).
    assert (Hw0 : edge_color ec (f1, w) = Null) by (destruct (HS f1 n w E1 Ew ltac:(congruence)) as [[_ H]|[H _]]; [exact H|congruence]).
    assert (Hwn : (w < n)%nat). { destruct (Nat.lt_ge_cases w n) as [H|H]; [exact H|]. exfalso. apply (HA f1 w); [lia|exact Ew|exact Hw0]. }
    assert (Hw1 : edge_color ec1 (f1, w) = Null) by (unfold ec1; rewrite edge_color_ins, decide_False by congruence; exact Hw0).
    pose proof (todo_pos _ _ _ Ew Hw1) as Hp1. destruct k as [|k]; [lia|]. rewrite paint_unfold by assumption. rewrite Hsw. cbn [then_paint opposite_color].
    set (ec2 := <[(f1, w) := East]> ec1).
    pose proof (todo_ins ec1 f1 w East Ew Hw1 ltac:(discriminate)) as Ht2. fold ec2 in Ht2.
    assert (Hc2 : edge_color ec2 (f1, n) = South) by (unfold ec2; rewrite edge_color_ins, decide_False by congruence; exact Hc1).
    assert (Hw2 : edge_color ec2 (f1, w) = East) by (unfold ec2; rewrite edge_color_ins, decide_True by reflexivity; reflexivity).
    assert (HS2 : Sib ec2) by (apply (Sib_pair ec f1 n South); [exact HS|exact E1|discriminate|exact Hn|exact Hs]).
    assert (G2 : grows ec ec2) by (eapply grows_trans; [exact G1|apply grows_ins; exact Hw1]).
    rewrite paint_done by (try lia; rewrite Hc2; discriminate).
    assert (HP2w : Sps ec2 (fun t => Ex' t \/ t = w)).
    { intros x y t Hx Hy Ht. unfold ec2. rewrite !edge_color_ins, !decide_False by (intros [= _ ->]; tauto). apply HP1; auto. }
    assert (Nx : forall x, edge x n -> edge_color ec (x, n) = Null -> x <> f1 -> edge_color ec2 (x, n) = Null).
    { intros x Hx H0 Hne. unfold ec2. rewrite edge_color_ins, decide_False by congruence. unfold ec1. rewrite edge_color_ins, decide_False by congruence. exact H0. }
    destruct (sps f1 w) as [b2|] eqn:Hs2; cbn [then_paint].
    - destruct (sps_spec _ _ _ Ew Hs2) as (Eb2 & Nb2 & Hsb2).
      assert (Hbn : edge_color ec2 (b2, w) = Null).
      { unfold ec2. rewrite edge_color_ins, decide_False by congruence. unfold ec1. rewrite edge_color_ins, decide_False by congruence.
        rewrite (HP b2 f1 w Eb2 Ew) by (intros [H _]; lia). exact Hw0. }
      destruct (chain Ex' k ec2 b2 f1 w East) as (ec3 & P3 & S3 & Sp3 & G3 & C3 & N3).
      + exact HS2.
      + exact HP2w.
      + intros [[H _]|H]; lia.
      + intros t x y [Ht| ->] Hx Hy Hxy H0.
        * exfalso. apply (ExP t x Ht Hx). destruct (decide (edge_color ec (x, t) = Null)) as [E|E]; [exact E|]. rewrite (G2 _ E) in H0. exact H0.
        * destruct (Nat.eq_dec y f1) as [->|Ny]; [rewrite Hc2; discriminate|].
          exfalso. assert (x <> f1) by (intros ->; rewrite Hc2 in H0; discriminate H0).
          pose proof (sps_only f1 n x E1 Hx ltac:(congruence)) as A1. pose proof (sps_only f1 n y E1 Hy ltac:(congruence)) as A2. congruence.
      + discriminate.
      + exact Eb2.
      + exact Hsb2.
      + exact Hbn.
      + exact Hw2.
      + lia.
      + exists ec3. split; [exact P3|]. split; [exact S3|]. split; [exact Sp3|]. split; [eapply grows_trans; eassumption|].
        split; [rewrite G3; [exact Hc2|rewrite Hc2; discriminate]|]. split.
        * transitivity (todo ec2); [|lia]. clear -G3. unfold todo. apply filter_le. intros y. unfold blank. destruct (edge_color ec2 y) eqn:E; [reflexivity|rewrite (G3 y), E by congruence; discriminate..].
        * split; intros x Hx H0 H1 Hne; [|exists w; reflexivity]. apply (N3 x n); [right; reflexivity|exact Hx|apply Nx; assumption|exact H1].
    - exists ec2. split; [reflexivity|]. split; [exact HS2|]. split.
      + intros x y t Hx Hy Ht. destruct (Nat.eq_dec t w) as [->|Nt].
        * assert (K : forall z, edge z w -> z = f1). { intros z Hz. destruct (Nat.eq_dec z f1) as [->|Na]; [reflexivity|].
            rewrite (sps_only f1 w z Ew Hz ltac:(congruence)) in Hs2. discriminate Hs2. }
          rewrite (K x), (K y) by assumption. reflexivity.
        * apply HP2w; auto. intros [H|H]; contradiction.
      + split; [exact G2|]. split; [exact Hc2|]. split; [lia|]. split; intros x Hx H0 H1 Hne; [|exists w; reflexivity]. exfalso. apply H1, Nx; assumption. }
  destruct First as (ec3 & P3 & S3 & Sp3 & G3 & C3 & T3 & N3 & M3). rewrite P3.
  (* the second fan-in edge *)
  assert (Done : forall ec', Sib ec' -> Sps ec' Ex' -> grows ec ec' -> (forall x, edge x n -> edge_color ec' (x, n) <> Null) ->
     (forall x y, edge x n -> edge y n -> ~ exc ec' n -> edge_color ec' (x, n) = edge_color ec' (y, n)) -> painted n ec').
  { intros ec' A1 A2 A3 A4 A5. constructor; [exact A1| |].
    - intros x y v Hx Hy Hv. destruct (Nat.eq_dec v n) as [->|Nv].
      + apply A5; auto.
      + apply A2; auto. intros [[H1 H2]|H]; [|contradiction]. apply Hv. split; [lia|]. eapply exc_grows; eassumption.
    - intros u v Hm He. destruct (Nat.eq_dec v n) as [->|N]; [apply A4, He|]. rewrite A3; apply HA; try lia; exact He. }
  destruct (Hfi n) as [E|[(a & E)|(a & b & E & Hab)]]; rewrite E in Ef; [discriminate Ef|injection Ef as -> <-|injection Ef as -> <-].
  - (* one fan-in *)
    assert (K : forall z, edge z n -> z = f1) by (intros z Hz; unfold edge in Hz; rewrite E in Hz; destruct Hz as [H|[]]; congruence).
    assert (Hs : sps f1 n = None).
    { unfold sps. rewrite E. cbn. rewrite Nat.eqb_refl. reflexivity. }
    rewrite Hs. cbn [then_paint fold_opt]. exists ec3. split; [reflexivity|]. split; [|exact G3]. apply Done; auto.
    + intros x Hx. rewrite (K x Hx), C3. discriminate.
    + intros x y Hx Hy _. rewrite (K x Hx), (K y Hy). reflexivity.
  - assert (E2 : edge b n) by (unfold edge; rewrite E; right; left; reflexivity).
    assert (K : forall z, edge z n -> z = f1 \/ z = b) by (intros z Hz; unfold edge in Hz; rewrite E in Hz; destruct Hz as [H|[H|[]]]; auto).
    rewrite (sps_only f1 n b E1 E2 Hab). cbn [then_paint].
    assert (Hb0 : edge_color ec (b, n) = Null) by (rewrite (Same b f1 E2 E1); exact Hn).
    destruct (decide (edge_color ec3 (b, n) = Null)) as [Hb|Hb].
    + destruct (chain Ex k ec3 b f1 n South) as (ec4 & P4 & S4 & Sp4 & G4 & C4 & N4).
      * exact S3.
      * exact Sp3.
      * intros [H _]; lia.
      * intros t x y Ht Hx Hy Hxy H0. exfalso. pose proof (ExP t x Ht Hx) as H1. rewrite (G3 _ H1) in H0. contradiction.
      * discriminate.
      * exact E2.
      * apply sps_only; auto.
      * exact Hb.
      * exact C3.
      * lia.
      * rewrite P4. cbn [fold_opt]. rewrite paint_done by (try lia; rewrite C4; discriminate). exists ec4. split; [reflexivity|].
        assert (C1 : edge_color ec4 (f1, n) = South) by (rewrite G4; [exact C3|rewrite C3; discriminate]).
        assert (G : grows ec ec4) by (eapply grows_trans; eassumption).
        split; [|exact G]. apply Done; auto.
        -- eapply Sps_weaken; [|exact Sp4]. intros v H. left. exact H.
        -- intros x Hx. destruct (K x Hx) as [->| ->]; [rewrite C1|rewrite C4]; discriminate.
        -- intros x y Hx Hy _. destruct (K x Hx) as [->| ->], (K y Hy) as [->| ->]; congruence.
    + rewrite paint_done by (try lia; exact Hb). cbn [fold_opt]. rewrite paint_done by (try lia; exact Hb). exists ec3. split; [reflexivity|].
      split; [|exact G3]. apply Done; auto.
      * intros x Hx. destruct (K x Hx) as [->| ->]; [rewrite C3; discriminate|exact Hb].
      * destruct (N3 b E2 Hb0 Hb ltac:(congruence)) as (w2 & Hw2). destruct (M3 b E2 Hb0 Hb ltac:(congruence)) as (w1 & Hw1).
        destruct (sib_spec _ _ _ E1 Hw1) as (Ew1 & Nw1 & _). destruct (sib_spec _ _ _ E2 Hw2) as (Ew2 & Nw2 & _).
        assert (Hw1n : (w1 < n)%nat). { destruct (Nat.lt_ge_cases w1 n) as [H|H]; [exact H|]. exfalso. apply (HA f1 w1); [lia|exact Ew1|].
           destruct (HS f1 n w1 E1 Ew1 ltac:(congruence)) as [[_ H']|[H' _]]; [exact H'|congruence]. }
        destruct (edge_color ec3 (b, n)) eqn:Eb; [congruence| |].
        -- intros x y Hx Hy Hne. exfalso. apply Hne. exists f1, b. split; [exact E|]. split; [exact C3|]. split; [exact Eb|]. split; [exists w1; auto|exists w2; auto].
        -- intros x y Hx Hy _. destruct (K x Hx) as [->| ->], (K y Hy) as [->| ->]; congruence.
Qed.

Lemma todo_bound ec : (todo ec <= list_sum (map (fun n => length (o_fanins net n)) (seq 0 (o_size net))))%nat.
Proof.
  unfold todo. transitivity (length all_edges).
  - generalize all_edges. induction l as [|x r IH]; [reflexivity|]. cbn [List.filter]. destruct (blank ec x); cbn; lia.
  - unfold all_edges. induction (seq 0 (o_size net)) as [|x r IH]; [reflexivity|]. cbn [flat_map map list_sum]. rewrite app_length, map_length. cbn [list_sum fold_right] in *. unfold list_sum in *. cbn [fold_right]. lia.
Qed.

Theorem coloring_ok : exists ec, edge_coloring net = Some ec /\ painted 0 ec.
Proof.
  unfold edge_coloring. assert (Hf : forall ec, (todo ec < paint_fuel net)%nat) by (intros ec; pose proof (todo_bound ec); unfold paint_fuel; lia).
  revert Hf. generalize (paint_fuel net). intros k Hf.
  assert (H0 : painted (o_size net) ∅).
  { constructor.
    - intros u v w _ _ _. left. split; reflexivity.
    - intros a b v _ _ _. reflexivity.
    - intros u v H He. apply fanins_size in He. lia. }
  revert H0. generalize (∅ : gmap (nat * nat) color). generalize (o_size net). induction n as [|n IH]; intros ec H.
  - exists ec. split; [reflexivity|exact H].
  - rewrite seq_S, rev_app_distr. cbn [rev app fold_opt]. destruct (paint_gate_step k n ec H (Hf ec)) as (ec' & P & H' & _). cbn [Nat.add]. rewrite P. apply IH, H'.
Qed.
End paint.
