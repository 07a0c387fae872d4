(** Proofs about levels and critical paths. *)
From Coq Require Import ZArith Bool List Lia.
From stdpp Require Import gmap list.
From Verif Require Import FanoutModel FanoutSpec DepthModel DepthSpec.
Import ListNotations.

Fixpoint place (n : nat) (l : list nat) : nat := match l with [] => 0 | a :: r => if Nat.eqb a n then 0 else S (place n r) end.
Lemma place_lookup n l : In n l -> l !! place n l = Some n.
Proof. induction l as [|a l IH]; intros H; [destruct H|]. cbn. destruct (Nat.eqb_spec a n) as [->|N]; [reflexivity|]. destruct H as [H|H]; [contradiction|]. apply IH, H. Qed.
Lemma place_of n l i : List.NoDup l -> l !! i = Some n -> place n l = i.
Proof. intros ND H. assert (Hin : In n l) by (eapply elem_of_list_In, elem_of_list_lookup_2, H). eapply NoDup_lookup; [apply NoDup_ListNoDup, ND|apply place_lookup, Hin|exact H]. Qed.
Lemma u32_small z : (0 <= z < 2 ^ 32)%Z -> u32 z = Z.to_nat z.
Proof. intros H. unfold u32. rewrite Z.mod_small by lia. reflexivity. Qed.
Lemma add32_small a b : (Z.of_nat (a + b) < 2 ^ 32)%Z -> add32 a b = a + b.
Proof. intros H. unfold add32. rewrite u32_small by lia. lia. Qed.
Lemma sum_take_le (f : nat -> nat) l i j : i <= j -> list_sum (map f (take i l)) <= list_sum (map f (take j l)).
Proof.
  revert i j. induction l as [|a l IH]; intros [|i] [|j] H; try (cbn; lia). change (f a + list_sum (map f (take i l)) <= f a + list_sum (map f (take j l))). specialize (IH i j ltac:(lia)). lia.
Qed.
Lemma sum_take_S (f : nat -> nat) l i n : l !! i = Some n -> list_sum (map f (take (S i) l)) = list_sum (map f (take i l)) + f n.
Proof. intros H. rewrite (take_S_r _ _ _ H), map_app, list_sum_app. cbn. lia. Qed.
Lemma sum_in (f : nat -> nat) n l : In n l -> f n <= list_sum (map f l).
Proof. induction l as [|a l IH]; intros H; [destruct H|]. change (f n <= f a + list_sum (map f l)). destruct H as [->|H]; [lia|]. specialize (IH H). lia. Qed.

Section depth.
Context (net : tnet) (order : list nat) (Hnet : network net order) (pi_cost : bool) (cost : nat -> nat).
Context (Hshort : short net cost order) (Hpi : pi_cost = true -> forall n, In n (t_pis net) -> 1 <= cost n).
Notation chain := (chain net pi_cost cost). Notation longest := (longest net pi_cost cost).
Notation tail := (tail net cost).

Definition known (n : nat) : Prop := match t_nodes net !! n with Some (TGate _ _) => In n order | Some _ => True | None => False end.
Definition rank (n : nat) : nat := if in_dec Nat.eq_dec n order then S (place n order) else 0.
Lemma fanin_gate n c : In c (t_fanins net n) -> exists lit ch, t_nodes net !! n = Some (TGate lit ch) /\ In c ch.
Proof. unfold t_fanins. destruct (t_nodes net !! n) as [[| |lit ch]|]; intros H; [destruct H|destruct H|eauto|destruct H]. Qed.
Lemma fanin_known n c : known n -> In c (t_fanins net n) -> In n order /\ known c /\ rank c < rank n.
Proof using Hnet.
  intros K H. destruct (fanin_gate n c H) as (lit & ch & E & _). unfold known in K. rewrite E in K. split; [exact K|]. pose proof (place_lookup n order K) as Hi. pose proof (nw_topo _ _ Hnet _ n c Hi H) as T.
  unfold rank. destruct (in_dec Nat.eq_dec n order) as [_|N]; [|contradiction]. unfold known. destruct (in_dec Nat.eq_dec c order) as [Hc|Hc].
  - destruct (nw_gates _ _ Hnet c Hc) as (l' & c' & Ec & _). rewrite Ec in *. split; [exact Hc|]. destruct T as (j & Hj & Ej). rewrite (place_of c order j (nw_order _ _ Hnet) Ej). lia.
  - split; [|lia]. destruct (t_nodes net !! c) as [[| |l' c']|]; [exact Logic.I|exact Logic.I| |destruct T]. destruct T as (j & _ & Ej). eapply elem_of_list_In, elem_of_list_lookup_2, Ej.
Qed.
Lemma rank_le n : rank n <= length order.
Proof. unfold rank. destruct (in_dec Nat.eq_dec n order) as [H|]; [|lia]. pose proof (lookup_lt_Some _ _ _ (place_lookup n order H)). lia. Qed.
Lemma order_len : length order < length (t_nodes net).
Proof using Hnet.
  assert (L : length order <= length (seq 1 (length (t_nodes net) - 1))).
  { apply NoDup_incl_length; [apply (nw_order _ _ Hnet)|]. intros n H. destruct (nw_gates _ _ Hnet n H) as (lit & ch & E & _). apply in_seq. pose proof (lookup_lt_Some _ _ _ E). assert (n <> 0) by (intros ->; rewrite (nw_0 _ _ Hnet) in E; discriminate E). lia. }
  rewrite seq_length in L. pose proof (lookup_lt_Some _ _ _ (nw_0 _ _ Hnet)). lia.
Qed.
Lemma chain_bound n k : chain n k -> known n -> k <= list_sum (map cost (t_pis net)) + list_sum (map cost (take (rank n) order)).
Proof using All.
  induction 1 as [n b E|n E|n c k Hc _ IH]; intros K; [lia| |].
  - assert (Hin : In n (t_pis net)) by (apply (nw_pis _ _ Hnet), E). pose proof (sum_in cost n _ Hin). destruct pi_cost; lia.
  - destruct (fanin_known n c K Hc) as (Ho & Kc & R). specialize (IH Kc). assert (Rn : rank n = S (place n order)) by (unfold rank; destruct (in_dec Nat.eq_dec n order) as [_|N]; [reflexivity|contradiction]).
    rewrite Rn, (sum_take_S cost order _ n (place_lookup n order Ho)). rewrite Rn in R. apply (Nat.le_trans _ (list_sum (map cost (t_pis net)) + list_sum (map cost (take (rank c) order)) + cost n)); [apply Nat.add_le_mono_r, IH|]. pose proof (sum_take_le cost order (rank c) (place n order) ltac:(lia)). lia.
Qed.
Lemma chain_small n k : chain n k -> known n -> (Z.of_nat k < 2 ^ 32)%Z.
Proof using All.
  intros H K. pose proof (chain_bound n k H K) as B. unfold short in Hshort. rewrite map_app, list_sum_app in Hshort. pose proof (sum_take_le cost order (rank n) (length order) (rank_le n)) as T. rewrite (firstn_all order) in T. lia.
Qed.
Lemma longest_fun n k k' : longest n k -> longest n k' -> k = k'.
Proof. intros [A B] [A' B']. specialize (B _ A'). specialize (B' _ A). lia. Qed.
Lemma longest_const n b : t_nodes net !! n = Some (TConst b) -> longest n 0.
Proof. intros E. split; [eapply chain_const, E|]. intros k H. inversion H as [? ? X|? X|? c j Hc X]; subst; [lia|congruence|]. unfold t_fanins in Hc. rewrite E in Hc. destruct Hc. Qed.
Lemma longest_input n : t_nodes net !! n = Some TPi -> longest n (if pi_cost then cost n - 1 else 0).
Proof. intros E. split; [apply chain_input, E|]. intros k H. inversion H as [? ? X|? X|? c j Hc X]; subst; [congruence|lia|]. unfold t_fanins in Hc. rewrite E in Hc. destruct Hc. Qed.
Lemma longest_gate n m : In n order -> (forall c, In c (t_fanins net n) -> exists k, longest c k /\ k <= m) -> (exists c, In c (t_fanins net n) /\ longest c m) -> longest n (m + cost n).
Proof using Hnet.
  intros Ho A (c & Hc & B). split; [eapply chain_gate; [exact Hc|apply B]|]. intros k H. destruct (nw_gates _ _ Hnet n Ho) as (lit & ch & E & _). inversion H as [? ? X|? X|? c' j Hc' X]; subst; [congruence|congruence|].
  destruct (A c' Hc') as (k' & [_ L] & Le). specialize (L _ X). lia.
Qed.

(** *** Levels *)
Definition has (st : dstate) (n : nat) : Prop := is_Some (d_levels st !! n).
Record good (st : dstate) : Prop := mkGood {
  gd_known : forall n k, d_levels st !! n = Some k -> known n;
  gd_level : forall n k, d_levels st !! n = Some k -> longest n k;
  gd_visited : forall n, has st n -> n ∈ d_visited st;
  gd_closed : forall n c, has st n -> In c (t_fanins net n) -> has st c
}.
Record after (st st' : dstate) (roots : list nat) : Prop := mkAfter {
  af_good : good st';
  af_levels : forall n, has st n -> d_levels st' !! n = d_levels st !! n;
  af_visited : forall n, n ∈ d_visited st' -> n ∈ d_visited st \/ has st' n;
  af_origin : forall n, has st' n -> has st n \/ exists r, In r roots /\ reaches net cost n r;
  af_mono : forall n, n ∈ d_visited st -> n ∈ d_visited st';
  af_roots : forall r, In r roots -> has st' r
}.
Definition ready (st : dstate) (n : nat) : Prop := known n /\ forall m, m ∈ d_visited st -> has st m \/ rank n < rank m.
Lemma reaches_self n : reaches net cost n n.
Proof. exists 0. constructor. Qed.
Lemma reaches_step c n o : In c (t_fanins net n) -> reaches net cost n o -> reaches net cost c o.
Proof. intros H (w & T). exists (cost n + w). econstructor; eassumption. Qed.
Lemma tail_trans a b c w w' : tail a b w -> tail b c w' -> tail a c (w + w').
Proof. induction 1 as [|x y z w H T IH]; intros Q; [exact Q|]. rewrite <- Nat.add_assoc. econstructor; [exact H|]. apply IH, Q. Qed.
Lemma has_keep st st' roots n : after st st' roots -> has st n -> has st' n.
Proof. intros A H. unfold has. rewrite (af_levels _ _ _ A n H). exact H. Qed.
Lemma fold_level_ok (f : nat -> dstate -> option (dstate * nat)) l : (forall c st, In c l -> ready st c -> good st -> exists st' k, f c st = Some (st', k) /\ after st st' [c] /\ d_levels st' !! c = Some k) ->
  forall m st, (forall c, In c l -> ready st c) -> good st -> exists st' k, fold_level f l m st = Some (st', k) /\ after st st' l /\ m <= k /\
    (forall c, In c l -> exists kc, longest c kc /\ kc <= k) /\ (k = m \/ exists c, In c l /\ longest c k).
Proof.
  induction l as [|a l IH]; intros Hf m st Hr G.
  - exists st, m. split; [reflexivity|]. split; [constructor; [exact G|reflexivity|auto|auto|auto|intros r []]|]. split; [lia|]. split; [intros c []|auto].
  - destruct (Hf a st (or_introl eq_refl) (Hr a (or_introl eq_refl)) G) as (st1 & k1 & E1 & A1 & L1). cbn [fold_level]. rewrite E1.
    destruct (IH (fun c s Hc => Hf c s (or_intror Hc)) (Nat.max m k1) st1) as (st2 & k2 & E2 & A2 & M2 & B2 & C2).
    + intros c Hc. destruct (Hr c (or_intror Hc)) as [K R]. split; [exact K|]. intros x Hx. destruct (af_visited _ _ _ A1 x Hx) as [Hx'|Hx']; [|auto]. destruct (R x Hx') as [R'|R']; [left; eapply has_keep; eassumption|auto].
    + apply (af_good _ _ _ A1).
    + exists st2, k2. split; [exact E2|]. assert (La : longest a k1) by (eapply gd_level; [apply (af_good _ _ _ A1)|exact L1]). split; [constructor|].
      * apply (af_good _ _ _ A2).
      * intros n H. rewrite (af_levels _ _ _ A2) by (eapply has_keep; eassumption). apply (af_levels _ _ _ A1), H.
      * intros n H. destruct (af_visited _ _ _ A2 n H) as [H'|H']; [|auto]. destruct (af_visited _ _ _ A1 n H') as [H2|H2]; [auto|right; eapply has_keep; eassumption].
      * intros n H. destruct (af_origin _ _ _ A2 n H) as [H'|(r & Hr' & R)]; [|right; exists r; split; [right; exact Hr'|exact R]]. destruct (af_origin _ _ _ A1 n H') as [H2|(r & [<-|[]] & R)]; [auto|right; exists a; split; [left; reflexivity|exact R]].
      * intros n H. apply (af_mono _ _ _ A2), (af_mono _ _ _ A1), H.
      * intros r [<-|Hr']; [eapply has_keep; [exact A2|exists k1; exact L1]|apply (af_roots _ _ _ A2), Hr'].
      * split; [lia|]. split; [intros c [<-|Hc]; [exists k1; split; [exact La|lia]|apply B2, Hc]|]. destruct C2 as [->|(c & Hc & Lc)]; [|right; exists c; split; [right; exact Hc|exact Lc]].
        destruct (Nat.max_spec m k1) as [[_ ->]|[_ ->]]; [right; exists a; split; [left; reflexivity|exact La]|auto].
Qed.
Lemma set_after st st1 st2 n k roots : good st -> after st1 st2 roots -> d_visited st1 = {[n]} ∪ d_visited st -> d_levels st1 = d_levels st -> known n -> longest n k -> ~ has st n ->
  (forall c, In c (t_fanins net n) -> In c roots) -> (forall r, In r roots -> In r (t_fanins net n)) -> after st (set_level n k st2) [n].
Proof.
  intros G A V L K Lg Hn Hf Hr. assert (E : forall m, has st1 m <-> has st m) by (intros m; unfold has; rewrite L; reflexivity).
  assert (Sn : has (set_level n k st2) n) by (unfold has; cbn; rewrite lookup_insert; eauto). assert (So : forall m, has st2 m -> has (set_level n k st2) m) by (intros m H; destruct (Nat.eq_dec n m) as [->|N]; [exact Sn|unfold has; cbn; rewrite lookup_insert_ne by exact N; exact H]).
  constructor.
  - constructor; cbn [set_level d_levels d_visited]; [intros m j H|intros m j H|intros m Hm|].
    + destruct (Nat.eq_dec n m) as [->|N]; [exact K|]. rewrite lookup_insert_ne in H by exact N. eapply gd_known; [apply (af_good _ _ _ A)|exact H].
    + destruct (Nat.eq_dec n m) as [->|N]; [rewrite lookup_insert in H; injection H as <-; exact Lg|]. rewrite lookup_insert_ne in H by exact N. eapply gd_level; [apply (af_good _ _ _ A)|exact H].
    + destruct (Nat.eq_dec n m) as [<-|N]; [apply (af_mono _ _ _ A); rewrite V; set_solver|]. apply (gd_visited _ (af_good _ _ _ A)). unfold has in *. cbn in Hm. rewrite lookup_insert_ne in Hm by exact N. exact Hm.
    + intros m c Hm Hc. apply So. destruct (Nat.eq_dec n m) as [<-|N]; [apply (af_roots _ _ _ A), Hf, Hc|]. eapply gd_closed; [apply (af_good _ _ _ A)| |exact Hc]. unfold has in *. cbn in Hm. rewrite lookup_insert_ne in Hm by exact N. exact Hm.
  - intros m H. cbn [set_level d_levels]. rewrite lookup_insert_ne by (intros <-; contradiction). rewrite (af_levels _ _ _ A) by (apply E, H). rewrite L. reflexivity.
  - intros m H. cbn [set_level d_visited] in H. destruct (af_visited _ _ _ A m H) as [H'|H']; [|right; apply So, H']. rewrite V in H'. apply elem_of_union in H' as [H'|H']; [apply elem_of_singleton in H' as ->; right; exact Sn|auto].
  - intros m H. destruct (Nat.eq_dec n m) as [<-|N]; [right; exists n; split; [left; reflexivity|apply reaches_self]|]. assert (H2 : has st2 m) by (unfold has in *; cbn in H; rewrite lookup_insert_ne in H by exact N; exact H).
    destruct (af_origin _ _ _ A m H2) as [H'|(r & Hr' & R)]; [left; apply E, H'|right; exists n; split; [left; reflexivity|]]. destruct R as (w & R). exists (w + (cost n + 0)). eapply tail_trans; [exact R|]. econstructor; [apply Hr, Hr'|constructor].
  - intros m H. cbn [set_level d_visited]. apply (af_mono _ _ _ A). rewrite V. set_solver.
  - intros r [<-|[]]. exact Sn.
Qed.
Lemma after_refl st : good st -> after st st [].
Proof. intros G. constructor; [exact G|reflexivity|auto|auto|auto|intros r []]. Qed.
Lemma compute_level_ok : forall fuel n st, rank n < fuel -> ready st n -> good st -> exists st' k, compute_level net pi_cost cost fuel n st = Some (st', k) /\ after st st' [n] /\ d_levels st' !! n = Some k.
Proof using All.
  induction fuel as [|fuel IH]; intros n st Hfu [K R] G; [lia|]. cbn [compute_level]. destruct (decide (n ∈ d_visited st)) as [Hv|Hv].
  - destruct (R n Hv) as [(k & Hk)|]; [|lia]. unfold get_level. rewrite Hk. cbn [default]. rewrite insert_id by exact Hk. exists st, k. replace (mkD (d_visited st) (d_levels st)) with st by (destruct st; reflexivity). split; [reflexivity|]. split; [|exact Hk].
    constructor; [exact G|reflexivity|auto|auto|auto|intros r [<-|[]]; exists k; exact Hk].
  - assert (Hn : ~ has st n) by (intros X; apply Hv, (gd_visited _ G), X). set (st1 := mkD ({[n]} ∪ d_visited st) (d_levels st)).
    assert (G1 : good st1) by (destruct G as [g1 g2 g3 g4]; constructor; [exact g1|exact g2|intros m Hm; cbn; specialize (g3 m Hm); set_solver|exact g4]).
    assert (Fin : forall st' k', after st1 st' (t_fanins net n) -> longest n k' -> exists st'' k'', Some (set_level n k' st', k') = Some (st'', k'') /\ after st st'' [n] /\ d_levels st'' !! n = Some k'').
    { intros st' k' A Lg'. exists (set_level n k' st'), k'. split; [reflexivity|]. split; [|cbn; apply lookup_insert]. eapply (set_after st st1); [exact G|exact A|reflexivity|reflexivity|exact K|exact Lg'|exact Hn|auto|auto]. }
    unfold t_is_constant, is_ci. pose proof K as K'. unfold known in K'. destruct (t_nodes net !! n) as [[b| |lit ch]|] eqn:E; [| | |destruct K'].
    + assert (E0 : t_fanins net n = []) by (unfold t_fanins; rewrite E; reflexivity). apply Fin; [rewrite E0; apply after_refl, G1|eapply longest_const, E].
    + assert (E0 : t_fanins net n = []) by (unfold t_fanins; rewrite E; reflexivity). replace (if pi_cost then u32 (Z.of_nat (cost n) - 1) else 0) with (if pi_cost then cost n - 1 else 0).
      * apply Fin; [rewrite E0; apply after_refl, G1|apply longest_input, E].
      * destruct pi_cost eqn:P; [|reflexivity]. assert (Hin : In n (t_pis net)) by (apply (nw_pis _ _ Hnet), E). pose proof (Hpi eq_refl n Hin). pose proof (sum_in cost n (t_pis net ++ order) ltac:(apply in_or_app; auto)). unfold short in Hshort. rewrite u32_small by lia. lia.
    + destruct (fold_level_ok (compute_level net pi_cost cost fuel) (t_fanins net n)) with (m := 0) (st := st1) as (st2 & m & E2 & A2 & _ & B2 & C2).
      * intros c s Hc Rc Gc. apply IH; [|exact Rc|exact Gc]. destruct (fanin_known n c K Hc) as (_ & _ & X). lia.
      * intros c Hc. destruct (fanin_known n c K Hc) as (_ & Kc & X). split; [exact Kc|]. intros x Hx. cbn in Hx. apply elem_of_union in Hx as [Hx|Hx]; [apply elem_of_singleton in Hx as ->; right; lia|]. destruct (R x Hx) as [|]; [left; assumption|right; lia].
      * exact G1.
      * fold st1. rewrite E2. assert (Lg' : longest n (m + cost n)).
        { apply longest_gate; [exact K'|exact B2|]. destruct C2 as [->|C2]; [|exact C2]. destruct (nw_gates _ _ Hnet n K') as (l2 & ch2 & E3 & Ne). rewrite E in E3. injection E3 as <- <-. destruct ch as [|c ch]; [contradiction|]. exists c. assert (Hc : In c (t_fanins net n)) by (unfold t_fanins; rewrite E; left; reflexivity). split; [exact Hc|]. destruct (B2 c Hc) as (kc & Lc & Le). assert (kc = 0) by lia. subst kc. exact Lc. }
        rewrite add32_small by (eapply chain_small; [apply Lg'|exact K]). apply Fin; assumption.
Qed.

(** *** The whole network *)
Notation FUEL := (S (length (t_nodes net))).
Lemma rank_fuel n : rank n < FUEL.
Proof using Hnet. pose proof (rank_le n). pose proof order_len. lia. Qed.
Lemma pos_known o : In o (t_pos net) -> known o.
Proof using Hnet. intros H. pose proof (nw_pos _ _ Hnet o H) as P. exact P. Qed.
Definition all_done (st : dstate) : Prop := forall m, m ∈ d_visited st -> has st m.
Definition level_step (f : nat) (acc : dstate * nat) : option (dstate * nat) := match compute_level net pi_cost cost FUEL f (fst acc) with Some (st, k) => Some (st, Nat.max (snd acc) k) | None => None end.
Lemma levels_ok : forall l st d, (forall o, In o l -> In o (t_pos net)) -> good st -> all_done st -> (forall m, has st m -> live net cost m) ->
  exists st' d', fold_o level_step l (st, d) = Some (st', d') /\ good st' /\ all_done st' /\ (forall m, has st' m -> live net cost m) /\ (forall m, has st m -> has st' m) /\ (forall o, In o l -> has st' o) /\
    d <= d' /\ (forall o k, In o l -> longest o k -> k <= d') /\ (d' = d \/ exists o, In o l /\ longest o d').
Proof using All.
  induction l as [|o l IH]; intros st d Hl G D Lv.
  - exists st, d. split; [reflexivity|]. repeat (split; [assumption|]). split; [auto|]. split; [intros x []|]. split; [lia|]. split; [intros x k []|auto].
  - cbn [fold_o]. unfold level_step at 1. cbn [fst snd]. destruct (compute_level_ok FUEL o st (rank_fuel o)) as (st1 & k1 & E1 & A1 & L1); [split; [apply pos_known, Hl; left; reflexivity|intros m Hm; left; apply D, Hm]|exact G|]. rewrite E1.
    destruct (IH st1 (Nat.max d k1)) as (st2 & d2 & E2 & G2 & D2 & Lv2 & M2 & H2 & B2 & C2 & F2).
    + intros x Hx. apply Hl. right. exact Hx.
    + apply (af_good _ _ _ A1).
    + intros m Hm. destruct (af_visited _ _ _ A1 m Hm) as [X|X]; [eapply has_keep; [exact A1|apply D, X]|exact X].
    + intros m Hm. destruct (af_origin _ _ _ A1 m Hm) as [X|(r & [<-|[]] & R)]; [apply Lv, X|]. exists o. split; [apply Hl; left; reflexivity|exact R].
    + assert (Lo : longest o k1) by (eapply gd_level; [apply (af_good _ _ _ A1)|exact L1]). exists st2, d2. split; [exact E2|]. split; [exact G2|]. split; [exact D2|]. split; [exact Lv2|]. split; [intros m Hm; apply M2; eapply has_keep; eassumption|].
      split; [intros x [<-|Hx]; [apply M2; exists k1; exact L1|apply H2, Hx]|]. split; [lia|]. split; [intros x k [<-|Hx] Lk; [rewrite (longest_fun _ _ _ Lk Lo); lia|eapply C2; eassumption]|].
      destruct F2 as [->|(x & Hx & Lx)]; [|right; exists x; split; [right; exact Hx|exact Lx]]. destruct (Nat.max_spec d k1) as [[_ ->]|[_ ->]]; [right; exists o; split; [left; reflexivity|exact Lo]|auto].
Qed.
Definition final (st : dstate) (d : nat) : Prop := good st /\ (forall m, has st m <-> live net cost m) /\ (forall o k, In o (t_pos net) -> longest o k -> k <= d) /\ (d = 0 \/ exists o, In o (t_pos net) /\ longest o d).
Lemma closed_down st n o : good st -> reaches net cost n o -> has st o -> has st n.
Proof. intros G (w & T). induction T as [|c n o w Hc T IH]; intros H; [exact H|]. eapply gd_closed; [exact G|apply IH, H|exact Hc]. Qed.
Lemma levels_final : exists st d, fold_o level_step (t_pos net) (mkD ∅ ∅, 0) = Some (st, d) /\ final st d.
Proof using All.
  destruct (levels_ok (t_pos net) (mkD ∅ ∅) 0) as (st & d & E & G & D & L & _ & H & _ & B & C).
  - auto.
  - assert (X : forall n, ~ has (mkD ∅ ∅) n) by (intros n (k & X); cbn in X; rewrite lookup_empty in X; discriminate X).
    constructor; cbn [d_levels]; [intros n k Y; rewrite lookup_empty in Y; discriminate Y..|intros n Y; destruct (X n Y)|intros n c Y; destruct (X n Y)].
  - intros m Hm. cbn in Hm. set_solver.
  - intros m (k & X). cbn in X. rewrite lookup_empty in X. discriminate X.
  - exists st, d. split; [exact E|]. split; [exact G|]. split; [|split; [exact B|exact C]]. intros m. split; [apply L|]. intros (o & Ho & R). eapply closed_down; [exact G|exact R|apply H, Ho].
Qed.

(** *** Critical paths *)
Section critical.
Context (st : dstate) (d : nat) (Hfin : final st d).
Notation lev := (get_level st).
Lemma lev_longest n : has st n -> longest n (lev n).
Proof using Hfin. intros (k & H). destruct Hfin as [G _]. unfold get_level. rewrite H. eapply gd_level; eassumption. Qed.
Lemma lev_known n : has st n -> known n.
Proof using Hfin. intros (k & H). destruct Hfin as [G _]. eapply gd_known; eassumption. Qed.
Lemma lev_edge c n : has st n -> In c (t_fanins net n) -> has st c /\ lev c + cost n <= lev n /\ add32 (lev c) (cost n) = lev c + cost n.
Proof using All.
  intros H Hc. assert (Hh : has st c) by (destruct Hfin as [G _]; eapply gd_closed; eassumption). split; [exact Hh|]. pose proof (chain_gate net pi_cost cost n c _ Hc (proj1 (lev_longest c Hh))) as C. split; [apply (proj2 (lev_longest n H)), C|].
  apply add32_small. eapply chain_small; [exact C|apply lev_known, H].
Qed.
Definition tight (c n : nat) : Prop := In c (t_fanins net n) /\ lev c + cost n = lev n.
Inductive tpath : nat -> nat -> Prop := tp_here n : tpath n n | tp_step c m n : tight c m -> tpath m n -> tpath c n.
Lemma tpath_snoc m n o : tpath m n -> tight n o -> tpath m o.
Proof. induction 1 as [n|c m n T P IH]; intros H; [econstructor; [exact H|constructor]|econstructor; [exact T|apply IH, H]]. Qed.
Lemma tpath_trans a b c : tpath a b -> tpath b c -> tpath a c.
Proof. induction 1 as [n|x m n T P IH]; intros H; [exact H|econstructor; [exact T|apply IH, H]]. Qed.
Definition shut (crit : gset nat) (m : nat) : Prop := forall c, tight c m -> c ∈ crit.
Definition crit_step (fuel n c : nat) (crit : gset nat) : option (gset nat) :=
  if Nat.eqb (add32 (lev c) (cost n)) (lev n) && negb (bool_decide (c ∈ crit)) then set_critical_path net pi_cost cost fuel st c crit else Some crit.
Lemma critical_ok : forall fuel n crit A, rank n < fuel -> has st n -> (forall m, m ∈ crit -> shut crit m \/ In m A) ->
  exists crit', set_critical_path net pi_cost cost fuel st n crit = Some crit' /\ (forall m, m ∈ crit -> m ∈ crit') /\ n ∈ crit' /\ (forall m, m ∈ crit' -> m ∈ crit \/ tpath m n) /\ (forall m, m ∈ crit' -> shut crit' m \/ In m A).
Proof using All.
  induction fuel as [|fuel IH]; intros n crit A Hfu Hn Hinv; [lia|]. cbn [set_critical_path].
  assert (Fold : forall l crit1, (forall c, In c l -> In c (t_fanins net n)) -> (forall m, m ∈ crit1 -> shut crit1 m \/ In m (n :: A)) -> exists crit', fold_o (crit_step fuel n) l crit1 = Some crit' /\
    (forall m, m ∈ crit1 -> m ∈ crit') /\ (forall m, m ∈ crit' -> m ∈ crit1 \/ tpath m n) /\ (forall m, m ∈ crit' -> shut crit' m \/ In m (n :: A)) /\ (forall c, In c l -> tight c n -> c ∈ crit')).
  { induction l as [|c l IHl]; intros crit1 Hl Hi; [exists crit1; split; [reflexivity|]; split; [auto|]; split; [auto|]; split; [exact Hi|intros c []]|].
    cbn [fold_o]. unfold crit_step at 1. assert (Hc : In c (t_fanins net n)) by (apply Hl; left; reflexivity). destruct (lev_edge c n Hn Hc) as (Hhc & Hle & ->). destruct (fanin_known n c (lev_known n Hn) Hc) as (_ & _ & R).
    destruct (Nat.eqb_spec (lev c + cost n) (lev n)) as [Et|Et]; cbn [andb]; [destruct (bool_decide_reflect (c ∈ crit1)) as [Hin|Hin]; cbn [negb]|].
    - destruct (IHl crit1 (fun x Hx => Hl x (or_intror Hx)) Hi) as (cr & E & M & T & S & Q). exists cr. split; [exact E|]. split; [exact M|]. split; [exact T|]. split; [exact S|]. intros x [<-|Hx] Tx; [apply M, Hin|apply Q; assumption].
    - destruct (IH c crit1 (n :: A) ltac:(lia) Hhc Hi) as (cr1 & E1 & M1 & N1 & T1 & S1). rewrite E1. destruct (IHl cr1 (fun x Hx => Hl x (or_intror Hx)) S1) as (cr & E & M & T & S & Q). exists cr. split; [exact E|]. split; [intros m Hm; apply M, M1, Hm|].
      split; [|split; [exact S|]].
      + intros m Hm. destruct (T m Hm) as [Hm'|]; [|auto]. destruct (T1 m Hm') as [|P]; [auto|right; eapply tpath_snoc; [exact P|split; assumption]].
      + intros x [<-|Hx] Tx; [apply M, N1|apply Q; assumption].
    - destruct (IHl crit1 (fun x Hx => Hl x (or_intror Hx)) Hi) as (cr & E & M & T & S & Q). exists cr. split; [exact E|]. split; [exact M|]. split; [exact T|]. split; [exact S|]. intros x [<-|Hx] [Tx1 Tx2]; [contradiction|apply Q; [exact Hx|split; assumption]]. }
  assert (Hi : forall m, m ∈ {[n]} ∪ crit -> shut ({[n]} ∪ crit) m \/ In m (n :: A)).
  { intros m Hm. apply elem_of_union in Hm as [Hm|Hm]; [apply elem_of_singleton in Hm as ->; right; left; reflexivity|]. destruct (Hinv m Hm) as [S|]; [left; intros c Tc; specialize (S c Tc); set_solver|right; right; assumption]. }
  assert (Done : forall crit', (forall m, m ∈ {[n]} ∪ crit -> m ∈ crit') -> (forall m, m ∈ crit' -> m ∈ {[n]} ∪ crit \/ tpath m n) -> (forall m, m ∈ crit' -> shut crit' m \/ In m (n :: A)) -> (forall c, In c (t_fanins net n) -> tight c n -> c ∈ crit') ->
    (forall m, m ∈ crit -> m ∈ crit') /\ n ∈ crit' /\ (forall m, m ∈ crit' -> m ∈ crit \/ tpath m n) /\ (forall m, m ∈ crit' -> shut crit' m \/ In m A)).
  { intros cr M T S Q. split; [intros m Hm; apply M; set_solver|]. split; [apply M; set_solver|]. split.
    - intros m Hm. destruct (T m Hm) as [X|]; [|auto]. apply elem_of_union in X as [X|X]; [apply elem_of_singleton in X as ->; right; constructor|auto].
    - intros m Hm. destruct (S m Hm) as [|[<-|]]; [auto|left; intros c Tc; apply Q; [apply Tc|exact Tc]|auto]. }
  destruct (negb (t_is_constant net n) && negb (pi_cost && is_ci net n)) eqn:B.
  - destruct (Fold (t_fanins net n) ({[n]} ∪ crit) (fun c H => H) Hi) as (cr & E & M & T & S & Q). exists cr. split; [exact E|]. apply Done; assumption.
  - exists ({[n]} ∪ crit). split; [reflexivity|]. apply Done; [auto|auto|exact Hi|]. intros c Hc _. destruct (fanin_gate n c Hc) as (lit & ch & E & _). unfold t_is_constant, is_ci in B. rewrite E in B. cbn in B. rewrite andb_false_r in B. discriminate B.
Qed.
Lemma criticals_ok : forall l crit, (forall o, In o l -> In o (t_pos net)) -> (forall m, m ∈ crit -> shut crit m) ->
  exists crit', fold_o (fun f crit => if Nat.eqb (lev f) d then set_critical_path net pi_cost cost FUEL st f crit else Some crit) l crit = Some crit' /\ (forall m, m ∈ crit -> m ∈ crit') /\
    (forall m, m ∈ crit' -> shut crit' m) /\ (forall m, m ∈ crit' -> m ∈ crit \/ exists o, In o l /\ lev o = d /\ tpath m o) /\ (forall o, In o l -> lev o = d -> o ∈ crit').
Proof using All.
  induction l as [|o l IH]; intros crit Hl S; [exists crit; split; [reflexivity|]; split; [auto|]; split; [exact S|]; split; [auto|intros o []]|]. cbn [fold_o].
  assert (Ho : has st o) by (apply (proj1 (proj2 Hfin)); exists o; split; [apply Hl; left; reflexivity|apply reaches_self]). destruct (Nat.eqb_spec (lev o) d) as [E|E].
  - destruct (critical_ok FUEL o crit [] (rank_fuel o) Ho (fun m Hm => or_introl (S m Hm))) as (c1 & E1 & M1 & N1 & T1 & S1). rewrite E1.
    destruct (IH c1 (fun x Hx => Hl x (or_intror Hx))) as (c2 & E2 & M2 & S2 & T2 & Q2); [intros m Hm; destruct (S1 m Hm) as [|[]]; assumption|]. exists c2. split; [exact E2|]. split; [auto|]. split; [exact S2|]. split.
    + intros m Hm. destruct (T2 m Hm) as [X|(x & Hx & Y)]; [|right; exists x; split; [right; exact Hx|exact Y]]. destruct (T1 m X) as [|P]; [auto|right; exists o; split; [left; reflexivity|auto]].
    + intros x [<-|Hx] Ex; [apply M2, N1|apply Q2; assumption].
  - destruct (IH crit (fun x Hx => Hl x (or_intror Hx)) S) as (c2 & E2 & M2 & S2 & T2 & Q2). exists c2. split; [exact E2|]. split; [exact M2|]. split; [exact S2|]. split.
    + intros m Hm. destruct (T2 m Hm) as [|(x & Hx & Y)]; [auto|right; exists x; split; [right; exact Hx|exact Y]].
    + intros x [<-|Hx] Ex; [contradiction|apply Q2; assumption].
Qed.
Lemma tail_le n o w : tail n o w -> has st o -> has st n /\ lev n + w <= lev o.
Proof using All.
  induction 1 as [|c n o w Hc T IH]; intros H; [split; [exact H|lia]|]. destruct (IH H) as [Hn Le]. destruct (lev_edge c n Hn Hc) as (Hh & Le2 & _). split; [exact Hh|lia].
Qed.
Lemma tpath_tail m o : tpath m o -> has st o -> exists w, tail m o w /\ lev m + w = lev o.
Proof using All.
  induction 1 as [n|c m n T P IH]; intros H; [exists 0; split; [constructor|lia]|]. destruct (IH H) as (w & W & E). destruct T as [T1 T2]. exists (cost m + w). split; [econstructor; eassumption|lia].
Qed.
Lemma tail_tpath m o w : tail m o w -> has st o -> lev m + w = lev o -> tpath m o.
Proof using All.
  induction 1 as [|c n o w Hc T IH]; intros H E; [constructor|]. destruct (tail_le n o w T H) as [Hn Le]. destruct (lev_edge c n Hn Hc) as (Hh & Le2 & _). econstructor; [split; [exact Hc|]|apply IH; [exact H|]]; lia.
Qed.
Lemma shut_closed crit m o : (forall m, m ∈ crit -> shut crit m) -> tpath m o -> o ∈ crit -> m ∈ crit.
Proof. intros S. induction 1 as [n|c m n T P IH]; intros H; [exact H|]. eapply S; [apply IH, H|exact T]. Qed.
End critical.

Lemma update_ok : exists v, update_levels net pi_cost cost = Some v /\ (forall n k, level v n = Some k <-> live net cost n /\ longest n k) /\
  (forall o k, In o (t_pos net) -> chain o k -> k <= depth v) /\ (depth v = 0 \/ exists o, In o (t_pos net) /\ chain o (depth v)) /\
  (forall n, is_on_critical_path v n = true <-> exists o k w, In o (t_pos net) /\ chain n k /\ tail n o w /\ k + w = depth v).
Proof using All.
  destruct levels_final as (st & d & E & F). pose proof F as (G & L & B & C). unfold update_levels. fold level_step. change (fold_o _ (t_pos net) (mkD ∅ ∅, 0)) with (fold_o level_step (t_pos net) (mkD ∅ ∅, 0)). rewrite E.
  destruct (criticals_ok st d F (t_pos net) ∅ (fun o H => H)) as (cr & E2 & _ & S2 & T2 & Q2); [intros m Hm; set_solver|]. rewrite E2. exists (mkV (d_levels st) d cr). split; [reflexivity|]. cbn [level v_levels depth v_depth].
  assert (Hout : forall o, In o (t_pos net) -> has st o) by (intros o Ho; apply L; exists o; split; [exact Ho|apply reaches_self]). split; [|split; [|split]].
  - intros n k. split.
    + intros H. split; [apply L; exists k; exact H|eapply gd_level; eassumption].
    + intros [Hl Hk]. apply L in Hl as (k' & Hk'). rewrite (longest_fun n k k' Hk); [exact Hk'|]. eapply gd_level; eassumption.
  - intros o k Ho Hc. pose proof (lev_longest st d F o (Hout o Ho)) as Lo. pose proof (B o _ Ho Lo). pose proof (proj2 Lo _ Hc). lia.
  - destruct C as [->|(o & Ho & [Hc _])]; [auto|right; eauto].
  - intros n. unfold is_on_critical_path. cbn [v_crit]. rewrite bool_decide_eq_true. split.
    + intros H. destruct (T2 n H) as [X|(o & Ho & Eo & P)]; [set_solver|]. destruct (tpath_tail st d F n o P (Hout o Ho)) as (w & W & Ew). exists o, (get_level st n), w. split; [exact Ho|]. destruct (tail_le st d F n o w W (Hout o Ho)) as [Hn _]. split; [apply (lev_longest st d F n Hn)|]. split; [exact W|lia].
    + intros (o & k & w & Ho & Hk & W & Ek). destruct (tail_le st d F n o w W (Hout o Ho)) as [Hn Le]. pose proof (proj2 (lev_longest st d F n Hn) k Hk) as Le2. pose proof (B o _ Ho (lev_longest st d F o (Hout o Ho))) as Le3.
      eapply (shut_closed st cr n o S2); [|apply Q2; [exact Ho|lia]]. eapply tail_tpath; [exact F|exact W|apply Hout, Ho|lia].
Qed.
End depth.
