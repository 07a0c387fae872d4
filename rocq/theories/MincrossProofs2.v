(** Proofs about crossing minimization. *)
From Coq Require Import ZArith QArith Bool List Permutation Lia.
From stdpp Require Import gmap list sorting.
From Verif Require Import FanoutModel FanoutSpec DepthSpec DepthModel DepthProofs DepthProofs2 RankModel RankSpec RankProofs RankProofs2 RankProofs3 RankProofs4 MincrossModel MincrossSpec MincrossProofs.
Import ListNotations.
Open Scope nat_scope.

Lemma fold_some {A B} (P : B -> Prop) (f : A -> B -> option B) l : (forall a b, In a l -> P b -> exists b', f a b = Some b' /\ P b') -> forall b, P b -> exists b', fold_o f l b = Some b' /\ P b'.
Proof.
  induction l as [|a l IH]; intros H b Pb; [exists b; split; [reflexivity|exact Pb]|]. cbn [fold_o]. destruct (H a b (or_introl eq_refl) Pb) as (b1 & E & P1). rewrite E. apply IH; [|exact P1]. intros x y Hx. apply H. right. exact Hx.
Qed.

Section Steps.
Context (sort : (nat -> nat -> bool) -> list nat -> list nat) (rnd : Q -> Q) (improves : nat -> nat -> bool) (gates : list nat) (p : mparams) (s0 : rview).
Hypothesis Hs : sorts sort.

Record good (s : rview) : Prop := {
  gd_ready : ready gates s;
  gd_net : r_net s = r_net s0;
  gd_view : r_view s = r_view s0;
  gd_perm : Forall2 (@Permutation nat) (r_ranks s0) (r_ranks s);
  gd_fixed : fixed_pis p = true -> r_ranks s !! 0 = r_ranks s0 !! 0
}.
Lemma perm_trans (a b c : list (list nat)) : Forall2 (@Permutation nat) a b -> Forall2 (@Permutation nat) b c -> Forall2 (@Permutation nat) a c.
Proof using. clear. intros H. revert c. induction H as [|x y a b P H IH]; intros c H'; inversion H' as [|? z ? c' P' H'']; subst; constructor; [etransitivity; eassumption|apply IH; assumption]. Qed.
Lemma perm_sym (a b : list (list nat)) : Forall2 (@Permutation nat) a b -> Forall2 (@Permutation nat) b a.
Proof using. clear. induction 1; constructor; [symmetry; assumption|assumption]. Qed.
Lemma perm_refl (a : list (list nat)) : Forall2 (@Permutation nat) a a.
Proof using. clear. induction a; constructor; [reflexivity|assumption]. Qed.
Lemma perm_insert (rs : list (list nat)) l r r' : rs !! l = Some r -> Permutation r r' -> Forall2 (@Permutation nat) rs (<[l := r']> rs).
Proof using.
  clear. revert l. induction rs as [|q rs IH]; intros l H P; [discriminate H|]. destruct l as [|l]; cbn.
  - injection H as ->. constructor; [exact P|apply perm_refl].
  - constructor; [reflexivity|]. exact (IH l H P).
Qed.
Lemma good_step s s' : good s -> inv s' -> r_net s' = r_net s -> r_view s' = r_view s -> Forall2 (@Permutation nat) (r_ranks s) (r_ranks s') -> (fixed_pis p = true -> r_ranks s' !! 0 = r_ranks s !! 0) -> good s'.
Proof using.
  intros G I N V P F. pose proof (gd_ready s G) as R. constructor.
  - constructor; [exact I|exact (rd_gates _ _ R)| | | |].
    + rewrite N. exact (rd_gate _ _ R).
    + unfold r_level. rewrite N, V. exact (rd_bal _ _ R).
    + unfold r_level. rewrite N, V. exact (rd_const _ _ R).
    + rewrite V, <- (Forall2_length _ _ _ P). exact (rd_len _ _ R).
  - rewrite N. apply G.
  - rewrite V. apply G.
  - eapply perm_trans; [apply G|exact P].
  - intros Hf. rewrite (F Hf). apply G. exact Hf.
Qed.
Lemma good_set s l r nodes : good s -> r_ranks s !! l = Some r -> Permutation r nodes -> (fixed_pis p = true -> l <> 0) -> exists s', set_ranks l nodes s = Some s' /\ good s'.
Proof using.
  intros G E P F. pose proof (rd_inv _ _ (gd_ready s G)) as I.
  assert (X : set_ranks l nodes s = Some (mkR (r_net s) (r_view s) (renumber (r_pos s) 0 nodes) (<[l := nodes]> (r_ranks s)) (r_width s))) by (apply set_ranks_some; exists r; split; [exact E|split; [exact P|reflexivity]]).
  eexists. split; [exact X|]. destruct (set_ranks_inv l nodes s _ I X) as [I' _]. eapply good_step; [exact G|exact I'|reflexivity|reflexivity|exact (perm_insert _ l r nodes E P)|].
  intros Hf. apply list_lookup_insert_ne. exact (F Hf).
Qed.
Lemma good_swap s r a b pa pb : good s -> ranked_node (r_net s) a -> ranked_node (r_net s) b -> r_level s a = Some r -> r_level s b = Some r -> r_pos s !! a = Some pa -> r_pos s !! b = Some pb ->
  (fixed_pis p = true -> r <> 0) -> exists s', swap a b s = Some s' /\ good s' /\ r_pos s' = <[b := pa]> (<[a := pb]> (r_pos s)).
Proof using.
  intros G Ra Rb La Lb Pa Pb F. pose proof (rd_inv _ _ (gd_ready s G)) as I. pose proof (iv_ok s I) as O.
  destruct (proj2 (swap_defined s a b I)) as [s' H]; [exists r; do 3 (split; [assumption|]); assumption|]. exists s'. split; [exact H|].
  pose proof (swap_okay _ a b s s' O H) as O'. destruct (swap_some _ a b s s' O H) as (l & q & q' & k & La' & Lb' & Pa' & Pb' & E & Es). rewrite La in La'. injection La' as <-. rewrite Pa in Pa'. injection Pa' as <-. rewrite Pb in Pb'. injection Pb' as <-.
  pose proof (pos_at _ s a r pa k O Ra La Pa E) as Xa. pose proof (pos_at _ s b r pb k O Rb Lb Pb E) as Xb. rewrite Xa, Xb in Es. subst s'. split; [|reflexivity].
  eapply good_step; [exact G| |reflexivity|reflexivity|exact (perm_insert _ r k _ E (swap_list k pa pb a b Xa Xb))|].
  - eapply inv_keep; [exact I|reflexivity|reflexivity|exact O'|apply insert_length].
  - intros Hf. apply list_lookup_insert_ne. exact (F Hf).
Qed.

(** ** Medians *)

Lemma fanin_ranked s v u : good s -> In u (t_fanins (r_net s) v) -> t_is_constant (r_net s) u = false -> ranked_node (r_net s) u.
Proof using. intros G H C. apply const_bool; [exact C|]. eapply fanin_lt; [exact (iv_net s (rd_inv _ _ (gd_ready s G)))|exact H]. Qed.
Lemma neighbours_some s r0 r1 n : good s -> is_Some (neighbours gates s r0 r1 n).
Proof using.
  intros G. pose proof (gd_ready s G) as R. unfold neighbours. destruct (Nat.ltb r0 r1).
  - destruct (map_o_some (fun f => match r_level s f with
        | Some l => if Nat.eqb l r1 then match rank_position s f with Some q => Some (Some q) | None => None end else Some None
        | None => None end) (fanouts gates s n)) as (l & E & _); [|rewrite E; eexists; reflexivity].
    intros g Hg. pose proof (fanout_ranked gates s n g R Hg) as Rg. destruct (inv_level s g (rd_inv _ _ R) Rg) as (k & K & _). rewrite K. destruct (ranked_pos gates s g R Rg) as [q Q]. unfold rank_position. rewrite Q. destruct (Nat.eqb k r1); eauto.
  - destruct (map_o_some (fun f => match r_level s f with
        | Some l => if Nat.eqb l r1 && negb (t_is_constant (r_net s) f) then match rank_position s f with Some q => Some (Some q) | None => None end else Some None
        | None => None end) (t_fanins (r_net s) n)) as (l & E & _); [|rewrite E; eexists; reflexivity].
    intros f Hf. destruct (rd_const _ _ R n f Hf) as [k K]. rewrite K. destruct (t_is_constant (r_net s) f) eqn:C; [rewrite andb_false_r; eauto|].
    destruct (ranked_pos gates s f R (fanin_ranked s n f G Hf C)) as [q Q]. unfold rank_position. rewrite Q. destruct (Nat.eqb k r1); cbn; eauto.
Qed.
Lemma rank_some s r : good s -> r <= depth (r_view s0) -> exists rank, r_ranks s !! r = Some rank.
Proof using. intros G L. pose proof (rd_len _ _ (gd_ready s G)) as E. rewrite (gd_view s G) in E. destruct (r_ranks s !! r) as [x|] eqn:X; [eauto|]. apply lookup_ge_None in X. lia. Qed.
Lemma reorder_good s asc r other : good s -> r <= depth (r_view s0) -> (fixed_pis p = true -> r <> 0) -> exists s', reorder_by sort rnd gates asc r other s = Some s' /\ good s'.
Proof using Hs.
  intros G L F. destruct (rank_some s r G L) as [rank E]. unfold reorder_by, medians, reorder, get_ranks. rewrite E.
  destruct (fold_some (fun _ : gmap nat Q => True) (fun (n : nat) (m : gmap nat Q) => match neighbours gates s r other n with Some ps => Some (<[n := median rnd (merge_sort (≤) ps)]> m) | None => None end) rank) with (b := ∅ : gmap nat Q) as (m & Em & _); [|exact I|].
  - intros n m _ _. destruct (neighbours_some s r other n G) as [ps Ep]. rewrite Ep. eauto.
  - rewrite Em. apply (good_set s r rank); [exact G|exact E|apply Hs|exact F].
Qed.

(** ** Transpositions *)

Lemma in_cross_some s v w : good s -> is_Some (in_cross s v w).
Proof using.
  intros G. assert (X : forall n, is_Some (sources s n)).
  { intros n. unfold sources. destruct (map_o_some (rank_position s) (List.filter (fun f => negb (t_is_constant (r_net s) f)) (t_fanins (r_net s) n))) as (l & E & _); [|rewrite E; eauto].
    intros f Hf. apply filter_In in Hf as [Hf C]. apply negb_true_iff in C. exact (ranked_pos gates s f (gd_ready s G) (fanin_ranked s n f G Hf C)). }
  unfold in_cross. destruct (X v) as [a ->]. destruct (X w) as [b ->]. eauto.
Qed.
Lemma out_cross_some s v w : good s -> is_Some (out_cross gates s v w).
Proof using.
  intros G. unfold out_cross. destruct (fanout_positions gates s v (gd_ready s G)) as (a & -> & _). destruct (fanout_positions gates s w (gd_ready s G)) as (b & -> & _). eauto.
Qed.
Lemma pairs_good r asc : (fixed_pis p = true -> r <> 0) -> forall rank s rv i, good s -> NoDup rank -> (forall x, In x rank -> ranked_node (r_net s0) x /\ r_level s0 x = Some r) ->
  (forall j x, 0 < j -> rank !! j = Some x -> r_pos s !! x = Some (i + j)) -> (forall x, rank !! 0 = Some x -> exists q, q <= i /\ r_pos s !! x = Some q) ->
  exists s' rv', transpose_pairs gates r asc rank (s, rv) = Some (s', rv') /\ good s'.
Proof using.
  intros F. induction rank as [|v rank IH]; intros s rv i G N Lv P1 P0; [exists s, rv; split; [reflexivity|exact G]|]. destruct rank as [|w rest]; [exists s, rv; split; [reflexivity|exact G]|].
  destruct (P0 v eq_refl) as (q & Lq & Pv). pose proof (P1 1 w ltac:(lia) eq_refl) as Pw. cbn [transpose_pairs fst snd]. unfold rank_position at 1 2. rewrite Pv, Pw.
  destruct (Nat.ltb_spec q (i + 1)) as [_|]; [|lia].
  assert (Cs : forall a b, exists c, add_o (if Nat.ltb 0 r then in_cross s a b else Some 0) (if Nat.ltb (S r) (depth (r_view s)) then out_cross gates s a b else Some 0) = Some c).
  { intros a b. destruct (in_cross_some s a b G) as [x ->]. destruct (out_cross_some s a b G) as [y ->]. destruct (Nat.ltb 0 r), (Nat.ltb (S r) (depth (r_view s))); cbn; eauto. }
  destruct (Cs v w) as [c0 ->]. destruct (Cs w v) as [c1 ->]. apply NoDup_cons in N as [N1 N2].
  destruct (Nat.ltb c1 c0 || (Nat.ltb 0 c0 && negb asc && Nat.eqb c1 c0)).
  - destruct (Lv v (or_introl eq_refl)) as [Rv Lvv]. destruct (Lv w (or_intror (or_introl eq_refl))) as [Rw Lww].
    destruct (good_swap s r v w q (i + 1) G) as (s' & E & G' & Ep); [rewrite (gd_net s G); exact Rv|rewrite (gd_net s G); exact Rw|unfold r_level; rewrite (gd_view s G); exact Lvv|unfold r_level; rewrite (gd_view s G); exact Lww|exact Pv|exact Pw|exact F|].
    rewrite E. apply (IH s' _ (S i) G' N2).
    + intros x Hx. apply Lv. right. exact Hx.
    + intros j x Hj Hx. rewrite Ep. destruct j as [|j]; [lia|]. cbn in Hx. assert (In x rest) by (apply elem_of_list_In, elem_of_list_lookup; eauto). apply NoDup_cons in N2 as [N2 _]. rewrite !lookup_insert_ne.
      * rewrite (P1 (S (S j)) x ltac:(lia) Hx). f_equal. lia.
      * intros ->. apply N1. right. apply elem_of_list_In. assumption.
      * intros ->. apply N2. apply elem_of_list_In. assumption.
    + intros x [= <-]. exists q. split; [lia|]. rewrite Ep. apply lookup_insert.
  - apply (IH s rv (S i) G N2).
    + intros x Hx. apply Lv. right. exact Hx.
    + intros j x Hj Hx. rewrite (P1 (S j) x ltac:(lia) Hx). f_equal. lia.
    + intros x [= <-]. exists (i + 1). split; [lia|exact Pw].
Qed.
Lemma tstep_good s r asc : good s -> r <= depth (r_view s0) -> (fixed_pis p = true -> r <> 0) -> exists s' d, transpose_step gates r asc s = Some (s', d) /\ good s'.
Proof using.
  intros G L F. destruct (rank_some s r G L) as [rank E]. unfold transpose_step, get_ranks. rewrite E. pose proof (iv_ok s (rd_inv _ _ (gd_ready s G))) as O. unfold okay in O.
  apply (pairs_good r asc F rank s 0 0 G).
  - exact (rank_nodup _ _ _ _ _ _ _ O E).
  - intros x Hx. apply elem_of_list_In in Hx. apply (rank_mem _ _ _ _ _ _ _ x O E) in Hx. rewrite (gd_net s G), (gd_view s G) in Hx. exact Hx.
  - intros j x _ Hx. apply (rk_in _ _ _ _ _ O r rank j x E Hx).
  - intros x Hx. exists 0. split; [lia|]. apply (rk_in _ _ _ _ _ O r rank 0 x E Hx).
Qed.
Lemma rounds_good asc fuel : forall s cand, good s -> length cand = S (depth (r_view s0)) -> exists s', transpose_rounds gates p fuel asc s cand = Some s' /\ good s'.
Proof using.
  induction fuel as [|fuel IH]; intros s cand G L; [exists s; split; [reflexivity|exact G]|]. cbn [transpose_rounds]. rewrite (gd_view s G).
  destruct (fold_some (fun a => good (fst (fst a)) /\ length (snd (fst a)) = S (depth (r_view s0))) (transpose_rank gates p asc) (seq 0 (S (depth (r_view s0))))) with (b := ((s, cand), 0)) as (a & E & Ga & La); [|split; assumption|].
  - intros l [[s1 c1] d1] Hl [G1 L1]. cbn [fst snd] in *. apply in_seq in Hl. unfold transpose_rank. cbn [fst snd]. destruct (Nat.eqb l 0 && fixed_pis p) eqn:B; [eexists; split; [reflexivity|split; assumption]|].
    destruct (c1 !! l) as [[|]|] eqn:Ec; [|eexists; split; [reflexivity|split; assumption]|apply lookup_ge_None in Ec; lia].
    destruct (tstep_good s1 l asc G1 ltac:(lia)) as (s2 & d & E2 & G2).
    { intros Hf ->. rewrite Hf in B. discriminate B. }
    rewrite E2. eexists. split; [reflexivity|]. cbn [fst snd]. split; [exact G2|]. rewrite insert_length. exact L1.
  - rewrite E. destruct a as [[s1 c1] d1]. cbn [fst snd] in *. destruct (Nat.ltb d1 1); [exists s1; split; [reflexivity|exact Ga]|]. apply IH; assumption.
Qed.
Lemma transpose_good asc s : good s -> exists s', transpose gates p asc s = Some s' /\ good s'.
Proof using. intros G. apply rounds_good; [exact G|]. rewrite replicate_length, (gd_view s G). reflexivity. Qed.
Lemma step_good iter s : good s -> exists s', mincross_step sort rnd gates p iter s = Some s' /\ good s'.
Proof using Hs.
  intros G. unfold mincross_step. rewrite (gd_view s G). set (asc := Nat.ltb (iter mod 4) 2). set (d := depth (r_view s0)).
  assert (X : exists s1, (if Nat.even iter then fold_o (fun r st => reorder_by sort rnd gates asc r (r - 1) st) (seq 1 d) s
         else fold_o (fun r st => if Nat.eqb r 0 && fixed_pis p then Some st else reorder_by sort rnd gates asc r (S r) st) (rev (seq 0 d)) s) = Some s1 /\ good s1).
  { destruct (Nat.even iter); apply fold_some; try exact G; intros r s1 Hr G1.
    - apply in_seq in Hr. apply reorder_good; [exact G1|unfold d in *; lia|lia].
    - apply in_rev, in_seq in Hr. destruct (Nat.eqb r 0 && fixed_pis p) eqn:B; [exists s1; split; [reflexivity|exact G1]|]. apply reorder_good; [exact G1|unfold d in *; lia|]. intros Hf ->. rewrite Hf in B. discriminate B. }
  destruct X as (s1 & -> & G1). apply transpose_good. exact G1.
Qed.

(** ** Minimization *)

Context (k0 : nat).
Hypothesis H0 : good s0.
Hypothesis Hk : crossings (r_net s0) (r_ranks s0) k0.
Record mgood (m : mstate) : Prop := {
  mg_view : good (m_view m);
  mg_perm : Forall2 (@Permutation nat) (r_ranks s0) (m_ranks m);
  mg_fixed : fixed_pis p = true -> m_ranks m !! 0 = r_ranks s0 !! 0;
  mg_best : crossings (r_net s0) (m_ranks m) (m_best m);
  mg_less : m_best m <= k0
}.
Lemma count_good s : good s -> exists k, ncross gates s = Some k /\ crossings (r_net s0) (r_ranks s) k.
Proof using. intros G. destruct (ncross_ok gates s (gd_ready s G)) as (k & E & C). exists k. split; [exact E|]. rewrite <- (gd_net s G). exact C. Qed.
Lemma iterations_good n : forall iter trying m, mgood m -> exists m', iterations sort rnd improves gates p n iter trying m = Some m' /\ mgood m'.
Proof using Hs.
  induction n as [|n IH]; intros iter trying m M; [exists m; split; [reflexivity|exact M]|]. cbn [iterations]. destruct (Nat.leb (min_quit p) trying || Nat.eqb (m_cur m) 0); [exists m; split; [reflexivity|exact M]|].
  destruct (step_good iter (m_view m) (mg_view m M)) as (s & -> & G). destruct (count_good s G) as (cur & -> & C). destruct (Nat.leb_spec cur (m_best m)) as [Le|Gt].
  - apply IH. constructor; cbn [m_view m_ranks m_best]; [exact G|apply G|apply G|exact C|]. pose proof (mg_less m M). lia.
  - apply IH. destruct M. constructor; cbn [m_view m_ranks m_best]; assumption.
Qed.
Lemma set_all_good s rs : good s -> Forall2 (@Permutation nat) (r_ranks s0) rs -> (fixed_pis p = true -> rs !! 0 = r_ranks s0 !! 0) -> exists s', set_all_ranks rs s = Some s' /\ good s' /\ r_ranks s' = rs.
Proof using.
  intros G P F. pose proof (perm_trans _ _ _ (perm_sym _ _ (gd_perm s G)) P) as Q. unfold set_all_ranks. rewrite <- (Forall2_length _ _ _ Q), Nat.eqb_refl.
  destruct (set_from_defined rs 0 s) as [s' E]; [intros k r Hr; destruct (Forall2_lookup_r _ _ _ _ _ Q Hr) as (q & Hq & X); exists q; split; [exact Hq|exact X]|]. exists s'. split; [exact E|].
  pose proof (rd_inv _ _ (gd_ready s G)) as I. destruct (set_from_okay _ rs 0 s s' (iv_ok s I) E) as (O & N & V & L & _ & A).
  assert (Er : r_ranks s' = rs). { apply list_eq. intros k. destruct (rs !! k) as [r|] eqn:Ek; [exact (A k r Ek)|]. apply lookup_ge_None in Ek. apply lookup_ge_None. rewrite L. rewrite (Forall2_length _ _ _ Q). exact Ek. }
  split; [|exact Er]. eapply good_step; [exact G|exact (inv_keep s s' I N V O L)|exact N|exact V|rewrite Er; exact Q|]. intros Hf. rewrite Er, (F Hf). symmetry. apply G. exact Hf.
Qed.
Lemma passes_good ps : forall m, mgood m -> exists m', passes sort rnd improves gates p ps m = Some m' /\ mgood m'.
Proof using Hs.
  induction ps as [|pass ps IH]; intros m M; [exists m; split; [reflexivity|exact M]|]. cbn [passes].
  destruct (iterations_good (if Nat.leb pass 1 then Nat.min (init_refine_max_iters p) (max_iter p) else max_iter p) 0 0 m M) as (m1 & -> & M1).
  destruct (set_all_good (m_view m1) (m_ranks m1) (mg_view m1 M1) (mg_perm m1 M1) (mg_fixed m1 M1)) as (s & -> & G & _).
  assert (M2 : mgood (mkM s (m_cur m1) (m_best m1) (m_ranks m1))) by (destruct M1; constructor; cbn [m_view m_ranks m_best]; assumption).
  cbv zeta. cbn [m_cur]. destruct (Nat.eqb (m_cur m1) 0); [eexists; split; [reflexivity|exact M2]|]. apply IH. exact M2.
Qed.
Lemma minimize_good : exists f n best, minimize_crossings sort rnd improves gates p s0 = Some (f, n) /\ good f /\ good n /\ set_all_ranks best s0 = Some n /\ r_ranks f = best /\ r_ranks n = best /\ exists k, crossings (r_net s0) best k /\ k <= k0.
Proof using Hs H0 Hk.
  unfold minimize_crossings. destruct (count_good s0 H0) as (k & -> & C). pose proof (crossings_fun _ _ _ _ C Hk) as ->.
  destruct (passes_good [0; 1; 2] (mkM s0 k0 k0 (get_all_ranks s0))) as (m & -> & M).
  { constructor; cbn [m_view m_ranks m_best]; [exact H0|apply perm_refl|reflexivity|exact C|lia]. }
  assert (X : exists st' best, (if Nat.ltb 0 (m_best m) then
          match transpose gates p true (m_view m) with
          | Some st' => match ncross gates st' with
                        | Some cur => Some (st', if Nat.ltb cur (m_best m) then get_all_ranks st' else m_ranks m)
                        | None => None
                        end
          | None => None
          end else Some (m_view m, m_ranks m)) = Some (st', best) /\ good st' /\ Forall2 (@Permutation nat) (r_ranks s0) best /\ (fixed_pis p = true -> best !! 0 = r_ranks s0 !! 0) /\ exists k, crossings (r_net s0) best k /\ k <= k0).
  { destruct (Nat.ltb 0 (m_best m)).
    - destruct (transpose_good true (m_view m) (mg_view m M)) as (s & -> & G). destruct (count_good s G) as (cur & -> & Cc). exists s. eexists. split; [reflexivity|]. split; [exact G|]. destruct (Nat.ltb_spec cur (m_best m)) as [Lt|Ge].
      + split; [apply G|]. split; [apply G|]. exists cur. split; [exact Cc|]. pose proof (mg_less m M). lia.
      + split; [apply M|]. split; [apply M|]. exists (m_best m). split; apply M.
    - exists (m_view m), (m_ranks m). split; [reflexivity|]. split; [apply M|]. split; [apply M|]. split; [apply M|]. exists (m_best m). split; apply M. }
  destruct X as (st' & best & E & G & P & F & K). cbv zeta. rewrite E. destruct (set_all_good st' best G P F) as (f & Ef & Gf & Rf). destruct (set_all_good s0 best H0 P F) as (n & En & Gn & Rn). rewrite Ef, En.
  exists f, n, best. do 3 (split; [first [reflexivity|assumption]|]). do 3 (split; [first [reflexivity|assumption]|]). exact K.
Qed.
Lemma run_good : exists st k, mincross_run sort rnd improves gates p s0 = Some (st, k) /\ good st /\ crossings (r_net s0) (r_ranks st) k /\ k <= k0 /\
  (optimize p = false -> st = s0) /\ exists best, set_all_ranks best s0 = Some st \/ st = s0.
Proof using Hs H0 Hk.
  unfold mincross_run. destruct (optimize p).
  - destruct minimize_good as (f & n & best & -> & Gf & Gn & Es & Rf & Rn & k & C & L). destruct (count_good f Gf) as (k' & -> & C'). rewrite Rf in C'. pose proof (crossings_fun _ _ _ _ C' C) as ->.
    exists n, k. split; [reflexivity|]. split; [exact Gn|]. split; [rewrite Rn; exact C|]. split; [exact L|]. split; [discriminate|]. exists best. left. exact Es.
  - destruct (count_good s0 H0) as (k' & -> & C'). pose proof (crossings_fun _ _ _ _ C' Hk) as ->. exists s0, k0. split; [reflexivity|]. split; [exact H0|]. split; [exact Hk|]. split; [lia|]. split; [reflexivity|]. exists []. right. reflexivity.
Qed.
End Steps.
