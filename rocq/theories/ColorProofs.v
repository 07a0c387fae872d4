(** Proofs about SAT-based vertex coloring. *)
From Coq Require Import Bool List Arith Lia Permutation.
From stdpp Require Import list.
From Verif Require Import SatModel SatSpec ColorModel ColorSpec.
Import ListNotations.

(** ** Formulas *)
Lemma holds_at_least_one {V} (m : V -> bool) vs : holds m (at_least_one vs) = true <-> exists v, In v vs /\ m v = true.
Proof.
  unfold at_least_one. cbn [holds]. rewrite existsb_exists. split.
  - intros (f & Hf & E). apply in_map_iff in Hf. destruct Hf as (v & <- & Hv). exists v. split; [exact Hv|].
    cbn [holds] in E. destruct (m v); [reflexivity|discriminate].
  - intros (v & Hv & E). exists (FLit true v). split; [apply in_map; exact Hv|]. cbn [holds]. rewrite E. reflexivity.
Qed.
Lemma holds_not_both {V} (m : V -> bool) v w : holds m (not_both v w) = true <-> ~ (m v = true /\ m w = true).
Proof. unfold not_both. cbn. destruct (m v), (m w); cbn; intuition congruence. Qed.
Lemma holds_same {V} (m : V -> bool) v w : holds m (same v w) = true <-> m v = m w.
Proof. unfold same. cbn. destruct (m v), (m w); cbn; intuition congruence. Qed.
Lemma satisfies_app {V} (m : V -> bool) a b : satisfies m (a ++ b) <-> satisfies m a /\ satisfies m b.
Proof.
  unfold satisfies. split.
  - intros H. split; intros f Hf; apply H, in_app_iff; auto.
  - intros [H1 H2] f Hf. apply in_app_iff in Hf. destruct Hf; auto.
Qed.

(** ** Permuting colors *)
Definition swap (a b x : nat) : nat := if x =? a then b else if x =? b then a else x.
Lemma swap_inj a b x y : swap a b x = swap a b y -> x = y.
Proof.
  unfold swap. destruct (Nat.eqb_spec x a), (Nat.eqb_spec y a), (Nat.eqb_spec x b), (Nat.eqb_spec y b); lia.
Qed.
Lemma swap_lt a b x k : a < k -> b < k -> x < k -> swap a b x < k.
Proof. unfold swap. destruct (Nat.eqb_spec x a), (Nat.eqb_spec x b); lia. Qed.
Lemma nodup_bounded (l : list nat) k : List.NoDup l -> (forall x, In x l -> x < k) -> length l <= k.
Proof.
  intros H B. rewrite <- (seq_length k 0). apply NoDup_incl_length; [exact H|]. intros x Hx. apply in_seq. specialize (B x Hx). lia.
Qed.
(** Distinct colors can be renamed to 0, 1, ... *)
Lemma rename_colors k (cs : list nat) : List.NoDup cs -> (forall x, In x cs -> x < k) ->
  exists pi : nat -> nat, (forall x y, pi x = pi y -> x = y) /\ (forall x, x < k -> pi x < k) /\
    forall i x, nth_error cs i = Some x -> pi x = i.
Proof.
  induction cs as [|x l IH] using rev_ind; intros ND B.
  - exists (fun x => x). split; [auto|]. split; [auto|]. intros [|i] x; discriminate.
  - pose proof (nodup_bounded _ _ ND B) as Len. rewrite app_length in Len. cbn in Len.
    assert (ND' : List.NoDup l) by (apply NoDup_remove_1 in ND; rewrite app_nil_r in ND; exact ND).
    assert (Nx : ~ In x l) by (apply NoDup_remove_2 in ND; rewrite app_nil_r in ND; exact ND).
    destruct (IH ND') as (pi & Inj & Lt & Pi); [intros y Hy; apply B, in_app_iff; auto|].
    exists (fun y => swap (pi x) (length l) (pi y)). split; [|split].
    + intros y z H. apply swap_inj in H. apply Inj, H.
    + intros y Hy. apply swap_lt; [|lia|]; apply Lt; [apply B, in_app_iff; cbn; auto|exact Hy].
    + intros i y Hi. destruct (Nat.lt_ge_cases i (length l)) as [Hl|Hl].
      * rewrite nth_error_app1 in Hi by exact Hl. pose proof (Pi _ _ Hi) as E. rewrite E. unfold swap.
        destruct (Nat.eqb_spec i (pi x)) as [E2|_].
        -- exfalso. apply Nx. apply nth_error_In in Hi. rewrite <- (Inj y x) by congruence. exact Hi.
        -- destruct (Nat.eqb_spec i (length l)); [lia|reflexivity].
      * rewrite nth_error_app2 in Hi by exact Hl. destruct (i - length l) as [|j] eqn:Ej; [|destruct j; discriminate].
        cbn in Hi. injection Hi as <-. unfold swap. rewrite Nat.eqb_refl. lia.
Qed.

(** ** The constraints *)
Section coloring.
Variable g : graph.
Variable order : list nat.
Variable cliques : list (list nat).
Variable frequency : bool.
Hypothesis GO : graph_ok g order.
Hypothesis CL : forall c, In c cliques -> clique g c.

Lemma order_in v : In v order <-> v < g_size g.
Proof.
  destruct GO as [_ P]. split; intros H.
  - apply (Permutation_in _ P) in H. apply in_seq in H. lia.
  - apply (Permutation_in _ (Permutation_sym P)). apply in_seq. lia.
Qed.
Lemma variable_ok k v c : v < g_size g -> c < k -> variable order k v c = (v, c).
Proof.
  intros Hv Hc. unfold variable. rewrite bool_decide_true by (apply elem_of_list_In, order_in; exact Hv).
  destruct (Nat.ltb_spec c k); [reflexivity|lia].
Qed.
Lemma joined_lt v w : joined g v w -> v < g_size g /\ w < g_size g /\ v <> w.
Proof. destruct GO as [H _]. intros [K|K]; apply H in K; intuition. Qed.
Lemma joined_sym v w : joined g v w -> joined g w v.
Proof. unfold joined. tauto. Qed.
Lemma adjacent_joined v w : In w (adjacent_to g v) <-> joined g v w.
Proof.
  unfold adjacent_to, joined. rewrite in_flat_map. destruct GO as [H _]. split.
  - intros ([a b] & He & Hw). cbn [fst snd] in Hw. destruct (Nat.eqb_spec a v) as [->|].
    + destruct Hw as [<-|[]]. left. exact He.
    + destruct (Nat.eqb_spec b v) as [->|]; [|destruct Hw]. destruct Hw as [<-|[]]. right. exact He.
  - intros [He|He].
    + exists (v, w). split; [exact He|]. cbn. rewrite Nat.eqb_refl. left. reflexivity.
    + exists (w, v). split; [exact He|]. cbn. apply H in He. destruct (Nat.eqb_spec w v) as [->|]; [exfalso; apply He; reflexivity|].
      rewrite Nat.eqb_refl. left. reflexivity.
Qed.

Lemma max_clique_in best l : max_clique best l = best \/ In (max_clique best l) l.
Proof.
  revert best; induction l as [|c l IH]; intros best; [left; reflexivity|]. cbn [max_clique].
  destruct (IH (if length best <? length c then c else best)) as [E|E]; [|right; right; exact E].
  rewrite E. destruct (length best <? length c); [right; left; reflexivity|left; reflexivity].
Qed.
Lemma largest_clique_ok : clique g (largest_clique cliques).
Proof.
  unfold largest_clique. destruct cliques as [|c l] eqn:E.
  - split; [constructor|]. split; [intros v []|intros v w []].
  - apply CL. destruct (max_clique_in c l) as [->|H]; [left; reflexivity|right; exact H].
Qed.
Lemma clique_firstn n c : clique g c -> clique g (firstn n c).
Proof.
  intros (N & B & J). assert (S : forall v, In v (firstn n c) -> In v c).
  { intros v Hv. rewrite <- (firstn_skipn n c). apply in_app_iff. left. exact Hv. }
  split; [|split; [intros v Hv; apply B, S, Hv|intros v w Hv Hw; apply J; apply S; assumption]].
  rewrite <- (firstn_skipn n c) in N. clear -N. induction (firstn n c) as [|a l IH]; [constructor|].
  cbn in N. inversion N; subst. constructor; [intros K; apply H1, in_app_iff; left; exact K|apply IH; assumption].
Qed.
Lemma painted_clique k : clique g (painted g order cliques k).
Proof.
  unfold painted. destruct (largest_clique cliques) as [|a l] eqn:El.
  - assert (C0 : clique g []) by (split; [constructor|]; split; [intros v []|intros v w []]).
    assert (OI : forall v, In v order -> v < g_size g) by (intros v; apply order_in).
    revert OI. generalize order as o. intros [|v o] OI; [exact C0|].
    assert (Hv : v < g_size g) by (apply OI; left; reflexivity).
    destruct (adjacent_to g v) as [|av r] eqn:Ea.
    + split; [constructor; [intros []|constructor]|]. split; [intros w [<-|[]]; exact Hv|]. intros x y [<-|[]] [<-|[]] N. congruence.
    + assert (J : joined g v av) by (apply adjacent_joined; rewrite Ea; left; reflexivity).
      destruct (joined_lt _ _ J) as (_ & Hav & Nv). split; [|split].
      * constructor; [intros [E|[]]; congruence|]. constructor; [intros []|constructor].
      * intros w [<-|[<-|[]]]; assumption.
      * intros x y [<-|[<-|[]]] [<-|[<-|[]]] N; first [exact J|apply joined_sym; exact J|exfalso; apply N; reflexivity].
  - rewrite <- El. apply clique_firstn, largest_clique_ok.
Qed.
Lemma clique_colors k col c : proper g k col -> clique g c -> List.NoDup (map col c) /\ forall x, In x (map col c) -> x < k.
Proof.
  intros [B P] (N & V & J). split.
  - clear V. induction N as [|a l Na N IH]; [constructor|]. cbn. constructor; [|apply IH; intros v w Hv Hw; apply J; right; assumption].
    intros H. apply in_map_iff in H. destruct H as (b & E & Hb). apply (P b a); [|exact E].
    apply J; [right; exact Hb|left; reflexivity|intros ->; auto].
  - intros x Hx. apply in_map_iff in Hx. destruct Hx as (v & <- & Hv). apply B, V, Hv.
Qed.
Lemma clique_bound k col c : proper g k col -> clique g c -> length c <= k.
Proof.
  intros P C. destruct (clique_colors k col c P C) as [N B]. rewrite <- (map_length col). apply nodup_bounded; assumption.
Qed.

(** Renaming the colors of a coloring. *)
Lemma rename_proper k col pi : proper g k col -> (forall x y, pi x = pi y -> x = y) -> (forall x, x < k -> pi x < k) ->
  proper g k (fun v => pi (col v)).
Proof. intros [B P] Inj Lt. split; [intros v Hv; apply Lt, B, Hv|]. intros v w J E. apply (P v w J), Inj, E. Qed.

Lemma lexicographical_holds k m pre l : (forall v, In v l -> v < g_size g) -> satisfies m (lexicographical order k pre l).
Proof.
  revert pre; induction l as [|v l IH]; intros pre B; [intros f []|]. cbn [lexicographical]. apply satisfies_app. split; [|apply IH; intros; apply B; right; assumption].
  intros f Hf. apply in_map_iff in Hf. destruct Hf as (c & <- & Hc). apply in_seq in Hc. cbn [holds].
  destruct (m (variable order k v c)) eqn:E.
  - apply existsb_exists. exists (FLit true (variable order k v c)). split.
    + right. apply in_flat_map. exists v. split; [apply in_app_iff; right; left; reflexivity|]. apply in_map_iff. exists c.
      split; [reflexivity|]. apply in_seq. lia.
    + cbn [holds]. rewrite E. reflexivity.
  - cbn [existsb holds]. rewrite E. reflexivity.
Qed.

Lemma complete k col : proper g k col -> (frequency = true -> common_color cliques k col) ->
  exists m, satisfies m (k_coloring g order cliques frequency k).
Proof.
  intros P F. destruct (clique_colors k col _ P (painted_clique k)) as [N B].
  destruct (rename_colors k _ N B) as (pi & Inj & Lt & Pi).
  pose proof (rename_proper k col pi P Inj Lt) as [B' P'].
  set (col' := fun v => pi (col v)) in *.
  assert (B2 : forall v, v < g_size g -> col' v < k) by exact B'. clear B'. rename B2 into B'.
  exists (fun x => col' (fst x) =? snd x). unfold k_coloring. rewrite !satisfies_app.
  assert (V : forall v c, v < g_size g -> c < k -> ((fun x : nat * nat => col' (fst x) =? snd x) (variable order k v c)) = (col' v =? c)).
  { intros v c Hv Hc. cbv beta. rewrite variable_ok by assumption. reflexivity. }
  cbv beta in V.
  split; [|split; [|split; [|split; [|split]]]].
  - intros f Hf. apply in_map_iff in Hf. destruct Hf as (v & <- & Hv). apply order_in in Hv. apply holds_at_least_one.
    exists (variable order k v (col' v)). split; [apply in_map, in_seq; specialize (B' v Hv); lia|]. rewrite V; [apply Nat.eqb_refl|exact Hv|apply B', Hv].
  - intros f Hf. apply in_flat_map in Hf. destruct Hf as (c1 & H1 & Hf). apply in_flat_map in Hf. destruct Hf as (c2 & H2 & Hf).
    apply in_map_iff in Hf. destruct Hf as (v & <- & Hv). apply order_in in Hv. apply in_seq in H1, H2. apply holds_not_both.
    rewrite !V by (try exact Hv; lia). rewrite !Nat.eqb_eq. lia.
  - intros f Hf. apply in_flat_map in Hf. destruct Hf as ([v w] & He & Hf). apply in_map_iff in Hf. destruct Hf as (c & <- & Hc).
    apply in_seq in Hc. assert (J : joined g v w) by (left; exact He). destruct (joined_lt _ _ J) as (Hv & Hw & _). apply holds_not_both.
    cbn [fst snd]. rewrite !V by (try assumption; lia). rewrite !Nat.eqb_eq. intros [E1 E2]. apply (P' v w J). unfold col' in *. congruence.
  - intros f Hf. unfold paint in Hf. apply in_map_iff in Hf. destruct Hf as ([c v] & <- & Hcv).
    apply In_nth_error in Hcv. destruct Hcv as [i Hi].
    assert (Hi1 : nth_error (seq 0 (length (painted g order cliques k))) i = Some c /\ nth_error (painted g order cliques k) i = Some v).
    { clear -Hi. revert i c v Hi. generalize (painted g order cliques k) as b. generalize 0 as s.
      intros s b. revert s. induction b as [|y b IH]; intros s i c v Hi; [destruct i; discriminate|].
      cbn [length seq combine] in Hi |- *. destruct i; [cbn in Hi |- *; injection Hi as <- <-; auto|]. cbn in Hi |- *. eapply IH, Hi. }
    destruct Hi1 as [Hc Hv].
    assert (Ec : c = i).
    { assert (Hl : i < length (painted g order cliques k)) by (apply nth_error_Some; congruence).
      rewrite (nth_error_nth' _ 0) in Hc by (rewrite seq_length; exact Hl). rewrite seq_nth in Hc by exact Hl. injection Hc as <-. lia. }
    subst c. assert (Pv : pi (col v) = i) by (apply Pi; rewrite nth_error_map, Hv; reflexivity).
    assert (Vl : v < g_size g) by (apply (painted_clique k); eapply nth_error_In; exact Hv).
    cbn [holds]. rewrite V; [|exact Vl|rewrite <- Pv; apply B'; exact Vl]. unfold col'. rewrite Pv, Nat.eqb_refl. reflexivity.
  - apply lexicographical_holds. intros v Hv. unfold clique_first_ordering in Hv. apply in_app_iff in Hv. destruct Hv as [Hv|Hv].
    + apply (painted_clique k), Hv.
    + apply filter_In in Hv. apply order_in, Hv.
  - destruct frequency; [|intros f []]. destruct (F eq_refl) as (c & Hc & Hl). intros f [<-|[]]. cbn [holds]. apply existsb_exists.
    eexists. split; [apply in_map_iff; exists (pi c); split; [reflexivity|]; apply in_seq; specialize (Lt c Hc); lia|].
    cbn [holds]. apply forallb_forall. intros x Hx. apply in_map_iff in Hx. destruct Hx as (l & <- & Hl'). cbn [holds].
    destruct (Hl l Hl') as (v & Hv & Ev). apply existsb_exists. eexists. split; [apply in_map_iff; exists v; split; [reflexivity|exact Hv]|].
    cbn [holds]. assert (Vl : v < g_size g) by (apply (CL l Hl'), Hv). rewrite V; [|exact Vl|apply Lt, Hc].
    unfold col'. rewrite Ev, Nat.eqb_refl. reflexivity.
Qed.

(** ** Reading off a coloring *)
Lemma color_of_unique k (m : nat * nat -> bool) v : v < g_size g ->
  (exists c, c < k /\ m (v, c) = true) -> (forall c1 c2, c1 < k -> c2 < k -> m (v, c1) = true -> m (v, c2) = true -> c1 = c2) ->
  exists c, color_of order k m v = Some c /\ c < k /\ m (v, c) = true.
Proof.
  intros Hv Hex U. destruct Hex as (c & Hc & Ec). exists c. split; [|auto]. unfold color_of.
  assert (G : forall l acc, (forall x, In x l -> x < k) ->
    fold_left (fun acc c => if m (variable order k v c) then Some c else acc) l acc = if existsb (Nat.eqb c) l then Some c else acc).
  { induction l as [|x l IH]; intros acc B; [reflexivity|]. cbn [fold_left existsb].
    assert (Hx : x < k) by (apply B; left; reflexivity). rewrite IH by (intros y Hy; apply B; right; exact Hy).
    rewrite variable_ok by assumption. destruct (Nat.eqb_spec c x) as [->|Nx].
    - rewrite Ec. cbn [orb]. destruct (existsb (Nat.eqb x) l); reflexivity.
    - cbn [orb]. destruct (m (v, x)) eqn:Em; [exfalso; apply Nx, U; assumption|reflexivity]. }
  rewrite G by (intros x Hx; apply in_seq in Hx; lia). replace (existsb (Nat.eqb c) (seq 0 k)) with true; [reflexivity|].
  symmetry. apply existsb_exists. exists c. split; [apply in_seq; lia|apply Nat.eqb_refl].
Qed.
Lemma sound k m : satisfies m (k_coloring g order cliques frequency k) ->
  exists col, proper g k col /\ (forall v, extract order (g_size g) k m v = if v <? g_size g then Some (col v) else None) /\
    (frequency = true -> common_color cliques k col) /\
    (forall i v, nth_error (painted g order cliques k) i = Some v -> i < k -> col v = i).
Proof.
  intros H. unfold k_coloring in H. rewrite !satisfies_app in H. destruct H as (H1 & H2 & H3 & H4 & _ & H6).
  assert (A : forall v, v < g_size g -> exists c, color_of order k m v = Some c /\ c < k /\ m (v, c) = true).
  { intros v Hv. apply color_of_unique; [exact Hv| |].
    - specialize (H1 (at_least_one (map (variable order k v) (seq 0 k)))). rewrite holds_at_least_one in H1.
      destruct H1 as (x & Hx & E); [unfold at_least_one_color_per_vertex; apply in_map_iff; exists v; split; [reflexivity|apply order_in, Hv]|].
      apply in_map_iff in Hx. destruct Hx as (c & <- & Hc). apply in_seq in Hc. exists c. rewrite variable_ok in E by (try exact Hv; lia). split; [lia|exact E].
    - assert (L : forall c1 c2, c1 < c2 -> c2 < k -> m (v, c1) = true -> m (v, c2) = true -> False).
      { intros c1 c2 Hlt Hk E1 E2. specialize (H2 (not_both (variable order k v c1) (variable order k v c2))).
        rewrite holds_not_both in H2. apply H2.
        - apply in_flat_map. exists c1. split; [apply in_seq; lia|]. apply in_flat_map. exists c2. split; [apply in_seq; lia|].
          apply in_map_iff. exists v. split; [reflexivity|apply order_in, Hv].
        - rewrite !variable_ok by (try exact Hv; lia). auto. }
      intros c1 c2 K1 K2 E1 E2. destruct (Nat.lt_trichotomy c1 c2) as [K|[K|K]]; [exfalso; eauto|exact K|exfalso; eauto]. }
  set (col := fun v => match color_of order k m v with Some c => c | None => 0 end).
  assert (C : forall v, v < g_size g -> col v < k /\ m (v, col v) = true /\ color_of order k m v = Some (col v)).
  { intros v Hv. destruct (A v Hv) as (c & E & Hc & Em). unfold col. rewrite E. auto. }
  assert (U : forall v c, v < g_size g -> c < k -> m (v, c) = true -> col v = c).
  { intros v c Hv Hc Em. destruct (C v Hv) as (K1 & K2 & _).
    assert (L : forall c1 c2, c1 < c2 -> c2 < k -> m (v, c1) = true -> m (v, c2) = true -> False).
    { intros c1 c2 Hlt Hk E1 E2. specialize (H2 (not_both (variable order k v c1) (variable order k v c2))).
      rewrite holds_not_both in H2. apply H2.
      - apply in_flat_map. exists c1. split; [apply in_seq; lia|]. apply in_flat_map. exists c2. split; [apply in_seq; lia|].
        apply in_map_iff. exists v. split; [reflexivity|apply order_in, Hv].
      - rewrite !variable_ok by (try exact Hv; lia). auto. }
    destruct (Nat.lt_trichotomy (col v) c) as [K|[K|K]]; [exfalso; eauto|exact K|exfalso; eauto]. }
  exists col. split; [|split; [|split]].
  - split; [intros v Hv; apply C, Hv|]. intros v w J E. destruct (joined_lt _ _ J) as (Hv & Hw & _).
    destruct (C v Hv) as (K1 & K2 & _). destruct (C w Hw) as (K3 & K4 & _).
    assert (X : forall a b, In (a, b) (g_edges g) -> col a = col b -> False).
    { intros a b He Eab. assert (Jab : joined g a b) by (left; exact He). destruct (joined_lt _ _ Jab) as (Ha & Hb & _).
      specialize (H3 (not_both (variable order k a (col a)) (variable order k b (col a)))). rewrite holds_not_both in H3. apply H3.
      - apply in_flat_map. exists (a, b). split; [exact He|]. apply in_map_iff. exists (col a). split; [reflexivity|]. apply in_seq.
        destruct (C a Ha). lia.
      - rewrite !variable_ok by (try assumption; apply C; assumption). split; [apply C, Ha|]. rewrite Eab. apply C, Hb. }
    destruct J as [J|J]; [exact (X v w J E)|exact (X w v J (eq_sym E))].
  - intros v. unfold extract. destruct (Nat.ltb_spec v (g_size g)) as [Hv|]; [apply C, Hv|reflexivity].
  - intros F. rewrite F in H6. specialize (H6 _ (or_introl eq_refl)). cbn [holds] in H6. apply existsb_exists in H6.
    destruct H6 as (f & Hf & E). apply in_map_iff in Hf. destruct Hf as (c & <- & Hc). apply in_seq in Hc. exists c. split; [lia|].
    intros l Hl. cbn [holds] in E. rewrite forallb_forall in E. specialize (E _ (in_map _ _ _ Hl)). cbn [holds] in E.
    apply existsb_exists in E. destruct E as (x & Hx & Ex). apply in_map_iff in Hx. destruct Hx as (v & <- & Hv). exists v. split; [exact Hv|].
    assert (Vl : v < g_size g) by (apply (CL l Hl), Hv). cbn [holds] in Ex. rewrite variable_ok in Ex by (try exact Vl; lia).
    apply U; [exact Vl|lia|]. destruct (m (v, c)); [reflexivity|discriminate].
  - intros i v Hi Hk. assert (Vl : v < g_size g) by (apply (painted_clique k); eapply nth_error_In; exact Hi).
    assert (Hf : In (FLit true (variable order k v i)) (paint g order cliques k)).
    { unfold paint. apply in_map_iff. exists (i, v). split; [reflexivity|].
      assert (G : forall (b : list nat) s, nth_error b i = Some v -> In (s + i, v) (combine (seq s (length b)) b)).
      { clear. revert i. intros i b. revert i. induction b as [|y b IH]; intros i s H; [destruct i; discriminate|].
        cbn [length seq combine]. destruct i; [cbn in H; injection H as ->; left; f_equal; lia|]. right. cbn in H. specialize (IH _ (S s) H).
        replace (s + S i) with (S s + i) by lia. exact IH. }
      exact (G _ 0 Hi). }
    specialize (H4 _ Hf). cbn [holds] in H4. rewrite variable_ok in H4 by assumption. apply U; [exact Vl|exact Hk|]. destruct (m (v, i)); [reflexivity|discriminate].
Qed.
End coloring.
