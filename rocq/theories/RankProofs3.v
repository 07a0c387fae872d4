(** Proofs about rank views: calls that add nodes, sequences of calls, iteration. *)
From Coq Require Import ZArith Bool List Permutation Lia.
From stdpp Require Import gmap list sorting.
From Verif Require Import FanoutModel FanoutSpec DepthSpec DepthModel DepthProofs DepthProofs2 RankModel RankSpec RankProofs RankProofs2.
Import ListNotations.

(** ** Adding a node *)

Lemma zeros_lookup fs : forall (m : gmap nat nat) n, fold_left (fun m f => <[f := 0]> m) fs m !! n = if in_dec Nat.eq_dec n fs then Some 0 else m !! n.
Proof.
  induction fs as [|f fs IH]; intros m n; [reflexivity|]. cbn [fold_left]. rewrite IH. destruct (in_dec Nat.eq_dec n fs) as [H|H].
  - destruct (in_dec Nat.eq_dec n (f :: fs)) as [_|H']; [reflexivity|]. elim H'. right. exact H.
  - destruct (Nat.eq_dec f n) as [->|Ne].
    + rewrite lookup_insert. destruct (in_dec Nat.eq_dec n (n :: fs)) as [_|H']; [reflexivity|]. elim H'. left. reflexivity.
    + rewrite lookup_insert_ne by exact Ne. destruct (in_dec Nat.eq_dec n (f :: fs)) as [[E|H']|_]; [contradiction|contradiction|reflexivity].
Qed.
Lemma max_fold (g : nat -> nat) fs : forall a, a <= fold_left (fun acc f => Nat.max acc (g f)) fs a /\ (forall f, In f fs -> g f <= fold_left (fun acc f => Nat.max acc (g f)) fs a) /\
  (fold_left (fun acc f => Nat.max acc (g f)) fs a = a \/ exists f, In f fs /\ g f = fold_left (fun acc f => Nat.max acc (g f)) fs a).
Proof.
  induction fs as [|f fs IH]; intros a; cbn [fold_left].
  - split; [lia|]. split; [intros f []|left; reflexivity].
  - destruct (IH (Nat.max a (g f))) as (A & B & C). split; [lia|]. split.
    + intros f' [<-|H]; [lia|exact (B f' H)].
    + destruct C as [C|(f' & H & C)]; [|right; exists f'; split; [right; exact H|exact C]]. rewrite C. destruct (Nat.max_spec a (g f)) as [[_ E]|[_ E]]; rewrite E; [right; exists f; split; [left; reflexivity|reflexivity]|left; reflexivity].
Qed.
Lemma grow_ranks lv (D : nat -> Prop) pos rs w k : ranked lv D pos rs w -> ranked lv D pos (rs ++ replicate k []) w.
Proof.
  intros R. assert (X : forall l r, (rs ++ replicate k []) !! l = Some r -> rs !! l = Some r \/ r = []).
  { intros l r H. apply lookup_app_Some in H as [H|[_ H]]; [left; exact H|right]. apply lookup_replicate in H. apply H. }
  constructor.
  - intros l r i n H Hi. destruct (X l r H) as [H'| ->]; [exact (rk_in _ _ _ _ _ R l r i n H' Hi)|destruct i; discriminate Hi].
  - intros n Dn. destruct (rk_all _ _ _ _ _ R n Dn) as (l & r & i & A & B & C & E). exists l, r, i. split; [exact A|]. split; [apply lookup_app_l_Some; exact B|split; assumption].
  - exact (rk_dom _ _ _ _ _ R).
  - intros l r H. destruct (X l r H) as [H'| ->]; [exact (rk_le _ _ _ _ _ R l r H')|cbn; lia].
  - destruct (rk_max _ _ _ _ _ R) as [H|(l & r & H & Hw)]; [left; exact H|right]. exists l, r. split; [apply lookup_app_l_Some; exact H|exact Hw].
Qed.

(** A network that grew by the node [x], seen by a view that was in order before. *)
Lemma add_node st net' x : inv st -> t_nodes net' = t_nodes (r_net st) ++ [x] -> complete net' -> fits_32 net' -> (forall b, x <> TConst b) ->
  exists st', rank_on_add (length (t_nodes (r_net st))) (with_net st net') = Some st' /\ inv st' /\ r_net st' = net' /\
  (exists l, r_level st' (length (t_nodes (r_net st))) = Some l /\ (forall k, k <> l -> default [] (r_ranks st' !! k) = default [] (r_ranks st !! k)) /\
    default [] (r_ranks st' !! l) = default [] (r_ranks st !! l) ++ [length (t_nodes (r_net st))]) /\
  (forall m, ranked_node (r_net st) m -> r_level st' m = r_level st m /\ r_pos st' !! m = r_pos st !! m).
Proof.
  intros I En C' F' Hx. set (len := length (t_nodes (r_net st))). set (net := r_net st). pose proof (iv_net st I) as Cm.
  pose proof (grow_new net net' x En) as Enew. fold net in Cm. change (length (t_nodes net)) with len in Enew.
  assert (Rn : forall n, ranked_node net' n <-> ranked_node net n \/ n = len) by (intros n; exact (grow_ranked net net' x En n Hx)).
  assert (Nr : ~ ranked_node net len) by (intros H; apply ranked_bool in H as [_ H]; unfold len, net in H; lia).
  assert (Fan : forall c, In c (t_fanins net' len) -> c < len).
  { intros c Hc. destruct C' as (o' & N' & A'). destruct (fanin_gate net' len c Hc) as (lit & ch & E & _). rewrite Enew in E. injection E as Ex.
    assert (Ho : In len o') by (eapply A'; rewrite Enew, Ex; reflexivity).
    assert (K : known net' o' len) by (unfold known; rewrite Enew, Ex; exact Ho). destruct (fanin_known net' o' N' len c K Hc) as (_ & Kc & Rk).
    assert (c <> len) by (intros ->; lia). unfold known in Kc. destruct (t_nodes net' !! c) as [y|] eqn:Ec; [|destruct Kc]. pose proof (lookup_lt_Some _ _ _ Ec) as L. rewrite En, app_length in L. cbn in L. unfold len, net in *. lia. }
  set (lv := v_levels (r_view st)). set (g := fun f => default 0 (lv !! f)).
  assert (G : forall c, c < len -> lg net' c (g c) /\ (lv !! c = None -> exists b, t_nodes net !! c = Some (TConst b))).
  { intros c Lc. pose proof Lc as Lc'. apply lookup_lt_is_Some in Lc' as [y Ey]. destruct y as [b| |lit ch] eqn:Y.
    - split; [|intros _; exists b; exact Ey]. apply (grow_longest net net' x En Cm c (g c) Lc). unfold g. destruct (lv !! c) as [k|] eqn:Ek; cbn.
      + rewrite (iv_const st I c b k Ey Ek). eapply longest_const; exact Ey.
      + eapply longest_const; exact Ey.
    - assert (Rc : ranked_node net c) by (exists TPi; split; [exact Ey|discriminate]). destruct (inv_level st c I Rc) as (k & K1 & K2). unfold r_level in K1. fold lv in K1.
      unfold g. rewrite K1. cbn. split; [apply (grow_longest net net' x En Cm c k Lc); exact K2|discriminate].
    - assert (Rc : ranked_node net c) by (exists (TGate lit ch); split; [exact Ey|discriminate]). destruct (inv_level st c I Rc) as (k & K1 & K2). unfold r_level in K1. fold lv in K1.
      unfold g. rewrite K1. cbn. split; [apply (grow_longest net net' x En Cm c k Lc); exact K2|discriminate]. }
  set (m := fold_left (fun acc f => Nat.max acc (g f)) (t_fanins net' len) 0). destruct (max_fold g (t_fanins net' len) 0) as (_ & M2 & M3). fold m in M2, M3.
  set (miss := List.filter (fun f => negb (bool_decide (is_Some (lv !! f)))) (t_fanins net' len)).
  set (k := if is_ci net' len then m else add32 m 1).
  assert (K : lg net' len k).
  { destruct C' as (o' & N' & A'). unfold k, is_ci. rewrite Enew. destruct x as [b| |lit ch]; [elim (Hx b eq_refl)| |].
    - replace m with 0; [exact (longest_input net' false unit_cost len Enew)|]. unfold m, t_fanins. rewrite Enew. reflexivity.
    - assert (Ho : In len o') by (eapply A'; exact Enew). assert (Kn : known net' o' len) by (unfold known; rewrite Enew; exact Ho).
      assert (L : lg net' len (m + 1)).
      { apply (longest_gate net' o' N' false unit_cost len m Ho).
        - intros c Hc. exists (g c). split; [apply G, Fan; exact Hc|exact (M2 c Hc)].
        - destruct M3 as [M3|(f & Hf & M3)].
          + destruct (nw_gates _ _ N' len Ho) as (lit' & ch' & E & Ne). destruct ch' as [|c ch']; [contradiction|]. assert (Hc : In c (t_fanins net' len)) by (unfold t_fanins; rewrite E; left; reflexivity).
            exists c. split; [exact Hc|]. pose proof (M2 c Hc). replace m with (g c) by lia. apply G, Fan; exact Hc.
          + exists f. split; [exact Hf|]. rewrite <- M3. apply G, Fan; exact Hf. }
      rewrite add32_small; [exact L|]. destruct L as [L _]. exact (chain_small net' o' N' false unit_cost (network_short net' o' N' F') (fun X => ltac:(discriminate X)) len (m + 1) L Kn). }
  assert (Lev : forall n, v_levels (on_add net' unit_cost (r_view st) len) !! n = if Nat.eq_dec n len then Some k else if in_dec Nat.eq_dec n miss then Some 0 else lv !! n).
  { intros n. unfold on_add. cbn [v_levels]. fold lv. change (fold_left _ (t_fanins net' len) 0) with m at 1. fold k. fold miss. destruct (Nat.eq_dec n len) as [->|Ne]; [apply lookup_insert|].
    rewrite lookup_insert_ne by congruence. apply zeros_lookup. }
  assert (Miss : forall n, In n miss -> exists b, t_nodes net' !! n = Some (TConst b)).
  { intros n H. apply filter_In in H as [H1 H2]. apply negb_true_iff, bool_decide_eq_false in H2. apply eq_None_not_Some in H2. pose proof (Fan n H1) as Ln. destruct (G n Ln) as [_ X]. destruct (X H2) as [b Eb]. exists b. rewrite (grow_old net net' x En n Ln). exact Eb. }
  assert (Old : forall n, ranked_node net n -> v_levels (on_add net' unit_cost (r_view st) len) !! n = lv !! n).
  { intros n Hn. rewrite Lev. destruct (Nat.eq_dec n len) as [->|_]; [contradiction|]. destruct (in_dec Nat.eq_dec n miss) as [H|_]; [|reflexivity].
    destruct (Miss n H) as [b Eb]. assert (H' : ranked_node net' n) by (apply Rn; left; exact Hn). destruct H' as (y & Ey & Ny). rewrite Eb in Ey. injection Ey as <-. elim (Ny b eq_refl). }
  unfold rank_on_add. change (r_net (with_net st net')) with net'. change (r_view (with_net st net')) with (r_view st). change (r_ranks (with_net st net')) with (r_ranks st).
  change (r_pos (with_net st net')) with (r_pos st). change (r_width (with_net st net')) with (r_width st).
  set (v := on_add net' unit_cost (r_view st) len) in *.
  assert (Ek : v_levels v !! len = Some k) by (rewrite Lev; destruct (Nat.eq_dec len len); [reflexivity|contradiction]). rewrite Ek. cbv zeta.
  set (rs := if Nat.leb (length (r_ranks st)) k then r_ranks st ++ replicate (k - length (r_ranks st) + 1) [] else r_ranks st).
  assert (Lk : k < length rs).
  { unfold rs. destruct (Nat.leb_spec (length (r_ranks st)) k); [rewrite app_length, replicate_length; lia|lia]. }
  assert (Ed : forall j, default [] (rs !! j) = default [] (r_ranks st !! j)).
  { intros j. unfold rs. destruct (Nat.leb (length (r_ranks st)) k); [|reflexivity]. destruct (Nat.lt_ge_cases j (length (r_ranks st))) as [H|H]; [rewrite lookup_app_l by exact H; reflexivity|].
    rewrite lookup_app_r by exact H. rewrite (lookup_ge_None_2 (r_ranks st) j H). cbn. destruct (replicate _ [] !! _) as [r|] eqn:Er; [|reflexivity]. apply lookup_replicate in Er. apply Er. }
  assert (R : okay (ranked_node net) (mkR net' v (r_pos st) rs (r_width st))).
  { unfold okay. cbn [r_view r_pos r_ranks r_width]. apply (ranked_ext lv (v_levels v) (ranked_node net) (ranked_node net)); [exact Old|reflexivity|].
    pose proof (iv_ok st I) as R0. unfold okay in R0. fold net lv in R0. unfold rs. destruct (Nat.leb _ k); [apply grow_ranks; exact R0|exact R0]. }
  pose proof (lookup_lt_is_Some_2 _ _ Lk) as [r Er].
  pose proof (insert_okay (ranked_node net) len _ (mkR net' v (<[len := length r]> (r_pos st)) (<[k := r ++ [len]]> rs) (Nat.max (r_width st) (S (length r)))) R Nr) as Q.
  assert (Ei : insert_in_rank (mkR net' v (r_pos st) rs (r_width st)) len = Some (mkR net' v (<[len := length r]> (r_pos st)) (<[k := r ++ [len]]> rs) (Nat.max (r_width st) (S (length r))))).
  { unfold insert_in_rank, r_level. cbn [r_view]. rewrite Ek. unfold insert_at. cbn [r_ranks]. rewrite Er. reflexivity. }
  destruct (Q Ei) as (Q1 & _). exists (mkR net' v (<[len := length r]> (r_pos st)) (<[k := r ++ [len]]> rs) (Nat.max (r_width st) (S (length r)))). split; [exact Ei|].
  split; [|split; [reflexivity|]].
  - constructor; cbn [r_net r_ranks].
    + exact C'.
    + unfold r_level. cbn [r_view]. intros n j Hn Hj. apply Rn in Hn as [Hn| ->].
      * rewrite Old in Hj by exact Hn. apply (grow_longest net net' x En Cm n j); [apply ranked_bool in Hn; apply Hn|]. exact (iv_lev st I n j Hn Hj).
      * rewrite Ek in Hj. injection Hj as <-. exact K.
    + unfold r_level. cbn [r_view]. intros n b j Hb Hj. rewrite Lev in Hj. destruct (Nat.eq_dec n len) as [->|Ne].
      * rewrite Enew in Hb. injection Hb as Hb. elim (Hx b Hb).
      * destruct (in_dec Nat.eq_dec n miss) as [_|_]; [congruence|]. pose proof (lookup_lt_Some _ _ _ Hb) as Ln. rewrite En, app_length in Ln. cbn in Ln.
        rewrite (grow_old net net' x En n) in Hb by (unfold len, net in *; lia). exact (iv_const st I n b j Hb Hj).
    + unfold okay in *. cbn [r_view r_pos r_ranks r_width] in *. eapply ranked_ext; [reflexivity| |exact Q1]. intros n. symmetry. apply Rn.
    + intros E. apply (f_equal length) in E. rewrite insert_length in E. cbn in E. lia.
  - split.
    + exists k. split; [exact Ek|]. cbn [r_ranks]. split.
      * intros j Nj. rewrite list_lookup_insert_ne by congruence. apply Ed.
      * rewrite list_lookup_insert by exact Lk. cbn. rewrite <- Ed, Er. reflexivity.
    + intros n Hn. unfold r_level. cbn [r_view r_pos]. split; [exact (Old n Hn)|]. apply lookup_insert_ne. intros ->. contradiction.
Qed.

(** ** Sequences of calls *)

Lemma insert_net st n st' : insert_in_rank st n = Some st' -> r_net st' = r_net st.
Proof.
  unfold insert_in_rank, insert_at. destruct (r_level st n) as [l|]; [|discriminate]. destruct (r_ranks st !! l) as [r|]; [|discriminate]. intros [= <-]. reflexivity.
Qed.
Lemma init_net ns : forall st st', fold_o (fun n st => if t_is_constant (r_net st) n then Some st else insert_in_rank st n) ns st = Some st' -> r_net st' = r_net st.
Proof.
  induction ns as [|n ns IH]; intros st st' H; cbn [fold_o] in H; [injection H as <-; reflexivity|]. destruct (t_is_constant (r_net st) n); [exact (IH st st' H)|].
  destruct (insert_in_rank st n) as [st1|] eqn:E; [|discriminate]. rewrite (IH st1 st' H). exact (insert_net st n st1 E).
Qed.
Lemma on_add_net n st st' : rank_on_add n st = Some st' -> r_net st' = r_net st.
Proof. unfold rank_on_add. destruct (v_levels _ !! n); [|discriminate]. intros H. apply insert_net in H. exact H. Qed.
Lemma inv_keep st st' : inv st -> r_net st' = r_net st -> r_view st' = r_view st -> okay (ranked_node (r_net st)) st' -> length (r_ranks st') = length (r_ranks st) -> inv st'.
Proof.
  intros I N V R L. constructor; unfold r_level; rewrite ?N, ?V.
  - exact (iv_net st I).
  - exact (iv_lev st I).
  - exact (iv_const st I).
  - exact R.
  - intros E. rewrite E in L. pose proof (iv_some st I) as S. destruct (r_ranks st); [contradiction|discriminate L].
Qed.
Lemma set_ranks_inv l nodes st st' : inv st -> set_ranks l nodes st = Some st' -> inv st' /\ r_net st' = r_net st.
Proof.
  intros I H. pose proof (set_ranks_okay _ l nodes st st' (iv_ok st I) H) as R. apply set_ranks_some in H as (r & E & P & ->). split; [|reflexivity].
  eapply inv_keep; [exact I|reflexivity|reflexivity|exact R|]. apply insert_length.
Qed.
Section Sort.
Context (sort : (nat -> nat -> bool) -> list nat -> list nat).
Hypothesis Hs : sorts sort.
Lemma sort_rank_inv l cmp st st' : inv st -> sort_rank sort l cmp st = Some st' -> inv st' /\ r_net st' = r_net st.
Proof using Hs.
  intros I H. unfold sort_rank in H. destruct (r_ranks st !! l) as [r|] eqn:E; [|discriminate]. injection H as <-. split; [|reflexivity].
  eapply inv_keep; [exact I|reflexivity|reflexivity| |apply insert_length]. unfold okay. cbn [r_view r_pos r_ranks r_width]. eapply renumber_ranked; [exact (iv_ok st I)|exact E|apply Hs].
Qed.
Lemma step_inv o st st' : inv st -> proper_op (r_net st) o -> rstep sort o st = Some st' -> fits_32 (r_net st') -> inv st' /\ length (t_nodes (r_net st)) <= length (t_nodes (r_net st')).
Proof using Hs.
  intros I P H F. destruct o as [a b|l nodes|rs|l cmp| | | |lit ch|f]; cbn [rstep proper_op] in *.
  - pose proof (swap_okay _ a b st st' (iv_ok st I) H) as R. destruct (swap_some _ a b st st' (iv_ok st I) H) as (l & p & q & r & _ & _ & _ & _ & _ & ->). split; [|reflexivity].
    eapply inv_keep; [exact I|reflexivity|reflexivity|exact R|apply insert_length].
  - destruct (set_ranks_inv l nodes st st' I H) as [I' N]. split; [exact I'|]. rewrite N. reflexivity.
  - unfold set_all_ranks in H. destruct (Nat.eqb _ _); [|discriminate]. destruct (set_from_okay _ rs 0 st st' (iv_ok st I) H) as (R & N & V & L & _). split; [|rewrite N; reflexivity].
    exact (inv_keep st st' I N V R L).
  - destruct (sort_rank_inv l cmp st st' I H) as [I' N]. split; [exact I'|]. rewrite N. reflexivity.
  - destruct (set_ranks_inv 0 _ st st' I H) as [I' N]. split; [exact I'|]. rewrite N. reflexivity.
  - assert (N : r_net st' = r_net st). { unfold update_ranks in H. destruct (update_levels _ _ _); [|discriminate]. apply init_net in H. exact H. }
    rewrite N in *. pose proof (update_spec st I F) as U. rewrite H in U. split; [apply U|lia].
  - pose proof (on_add_net _ _ _ H) as N. unfold create_pi in *. cbn [r_net with_net] in N. rewrite N in *. set (net' := mkT _ _ _) in *.
    destruct (add_node st net' TPi I eq_refl (complete_pi _ (iv_net st I)) F) as (st2 & E & I2 & _); [discriminate|]. rewrite E in H. injection H as <-. split; [exact I2|]. cbn. rewrite app_length. lia.
  - pose proof (on_add_net _ _ _ H) as N. unfold create_gate in *. cbn [r_net with_net] in N. rewrite N in *. set (net' := mkT _ _ _) in *. destruct P as [P1 P2].
    destruct (add_node st net' (TGate lit ch) I eq_refl (complete_gate _ lit ch (iv_net st I) P1 P2) F) as (st2 & E & I2 & _); [discriminate|]. rewrite E in H. injection H as <-. split; [exact I2|]. cbn. rewrite app_length. lia.
  - injection H as <-. split; [|reflexivity]. constructor; unfold create_po; cbn [r_net with_net r_view r_ranks].
    + exact (complete_po _ f (iv_net st I) P).
    + intros n k Hn Hk. pose proof (iv_lev st I n k Hn Hk) as L. destruct L as [C M]. split.
      * clear - C. induction C as [n b E|n E|n c k Hc C IH]; [eapply chain_const; exact E|apply (chain_input _ false); exact E|apply (chain_gate _ false unit_cost n c); [exact Hc|exact IH]].
      * intros k' C'. apply M. clear - C'. induction C' as [n b E|n E|n c k Hc C IH]; [eapply chain_const; exact E|apply (chain_input _ false); exact E|apply (chain_gate _ false unit_cost n c); [exact Hc|exact IH]].
    + exact (iv_const st I).
    + exact (iv_ok st I).
    + exact (iv_some st I).
Qed.
Lemma steps_net st ops st' : proper_ops sort st ops st' -> length (t_nodes (r_net st)) <= length (t_nodes (r_net st')).
Proof using Hs.
  intros H. induction H as [st|st o st1 ops st2 P E R IH]; [reflexivity|]. etransitivity; [|exact IH]. clear IH R. destruct o as [a b|l nodes|rs|l cmp| | | |lit ch|f]; cbn [rstep] in E.
  - unfold swap in E. repeat (match type of E with context [match ?t with _ => _ end] => destruct t; try discriminate E end). injection E as <-. reflexivity.
  - apply set_ranks_some in E as (r & _ & _ & ->). reflexivity.
  - unfold set_all_ranks in E. destruct (Nat.eqb _ _); [|discriminate]. revert E. generalize 0. revert st P. induction rs as [|r rs IH]; intros st P l E; cbn in E; [injection E as <-; reflexivity|].
    destruct (set_ranks l r st) as [st'|] eqn:Es; [|discriminate]. apply set_ranks_some in Es as (q & _ & _ & ->). specialize (IH _ Logic.I (S l) E). exact IH.
  - unfold sort_rank in E. destruct (r_ranks st !! l); [|discriminate]. injection E as <-. reflexivity.
  - apply set_ranks_some in E as (r & _ & _ & ->). reflexivity.
  - unfold update_ranks in E. destruct (update_levels _ _ _); [|discriminate]. apply init_net in E. rewrite E. reflexivity.
  - apply on_add_net in E. rewrite E. cbn. rewrite app_length. lia.
  - apply on_add_net in E. rewrite E. cbn. rewrite app_length. lia.
  - injection E as <-. reflexivity.
Qed.
Lemma steps_inv st ops st' : inv st -> proper_ops sort st ops st' -> fits_32 (r_net st') -> inv st'.
Proof using Hs.
  intros I H F. induction H as [st|st o st1 ops st2 P E R IH]; [exact I|]. apply IH; [|exact F]. pose proof (steps_net _ _ _ R) as L.
  eapply step_inv; [exact I|exact P|exact E|]. unfold fits_32 in *. lia.
Qed.

(** ** Iteration *)

Lemma concat_at (rs : list (list nat)) : forall l r j n, rs !! l = Some r -> r !! j = Some n -> concat rs !! (length (concat (take l rs)) + j) = Some n.
Proof using.
  clear. induction rs as [|q rs IH]; intros l r j n Hl Hj; [discriminate Hl|]. destruct l as [|l].
  - injection Hl as <-. cbn. apply lookup_app_l_Some. exact Hj.
  - cbn in Hl. cbn [concat take]. rewrite app_length, lookup_app_r by lia. replace (_ - length q) with (length (concat (take l rs)) + j) by lia. exact (IH l r j n Hl Hj).
Qed.
Lemma concat_from (rs : list (list nat)) : forall i n, concat rs !! i = Some n -> exists l r j, rs !! l = Some r /\ r !! j = Some n /\ i = length (concat (take l rs)) + j.
Proof using.
  clear. induction rs as [|q rs IH]; intros i n H; [discriminate H|]. cbn in H. apply lookup_app_Some in H as [H|[L H]].
  - exists 0, q, i. split; [reflexivity|]. split; [exact H|reflexivity].
  - destruct (IH _ _ H) as (l & r & j & A & B & C). exists (S l), r, j. split; [exact A|]. split; [exact B|]. cbn [take concat]. rewrite app_length. lia.
Qed.
Lemma concat_lt (rs : list (list nat)) : forall l l' r, l < l' -> rs !! l = Some r -> length (concat (take l rs)) + length r <= length (concat (take l' rs)).
Proof using.
  clear. induction rs as [|q rs IH]; intros l l' r Hl H; [discriminate H|]. destruct l' as [|l']; [lia|]. destruct l as [|l].
  - injection H as <-. cbn [take concat]. rewrite app_length. cbn. lia.
  - cbn in H. cbn [take concat]. rewrite !app_length. specialize (IH l l' r ltac:(lia) H). lia.
Qed.
Lemma foreach_topological st : inv st -> topological (r_net st) (foreach_node st).
Proof using.
  intros I. pose proof (iv_ok st I) as R. unfold okay in R. unfold foreach_node. split; [|split].
  - apply NoDup_ListNoDup, NoDup_alt. intros i i' n H H'. apply concat_from in H as (l & r & j & A & B & ->). apply concat_from in H' as (l' & r' & j' & A' & B' & ->).
    destruct (rk_in _ _ _ _ _ R l r j n A B) as (_ & L & P). destruct (rk_in _ _ _ _ _ R l' r' j' n A' B') as (_ & L' & P'). congruence.
  - intros n. rewrite <- elem_of_list_In, elem_of_list_lookup. split.
    + intros [i H]. apply concat_from in H as (l & r & j & A & B & _). apply (rk_in _ _ _ _ _ R l r j n A B).
    + intros H. destruct (rk_all _ _ _ _ _ R n H) as (l & r & i & _ & A & _ & B). eexists. eapply concat_at; eassumption.
  - intros i n c H Hc Rc. apply concat_from in H as (l & r & j & A & B & ->). destruct (rk_in _ _ _ _ _ R l r j n A B) as (Rn & L & _).
    destruct (rk_all _ _ _ _ _ R c Rc) as (lc & rc & ic & Lc & Ac & _ & Bc). exists (length (concat (take lc (r_ranks st))) + ic). split; [|eapply concat_at; eassumption].
    pose proof (iv_lev st I n l Rn L) as [_ M]. pose proof (iv_lev st I c lc Rc Lc) as [Cc _]. specialize (M (lc + 1) (chain_gate _ _ _ n c lc Hc Cc)).
    pose proof (concat_lt (r_ranks st) lc l rc ltac:(lia) Ac). pose proof (lookup_lt_Some _ _ _ Bc). lia.
Qed.
Lemma level_zero st n : inv st -> ranked_node (r_net st) n -> (r_level st n = Some 0 <-> In n (t_pis (r_net st))).
Proof using.
  intros I Rn. destruct (iv_net st I) as (order & N & A). rewrite (nw_pis _ _ N). split.
  - intros L. destruct Rn as (x & E & Nx). destruct x as [b| |lit ch]; [elim (Nx b eq_refl)|exact E|exfalso]. assert (Rn : ranked_node (r_net st) n) by (exists (TGate lit ch); split; assumption).
    destruct (iv_lev st I n 0 Rn L) as [C M]. inversion C as [? b' E'|? E'|? c k Hc Ck Ek]; [rewrite E' in E; discriminate E|rewrite E' in E; discriminate E|lia].
  - intros E. destruct (inv_level st n I Rn) as (k & Lk & K). rewrite Lk. f_equal. pose proof (longest_input (r_net st) false unit_cost n E) as Z. exact (longest_fun _ _ _ _ _ _ K Z).
Qed.
Lemma rank_zero st : inv st -> exists r, r_ranks st !! 0 = Some r /\ Permutation r (t_pis (r_net st)).
Proof using.
  intros I. pose proof (iv_some st I) as Ne. destruct (r_ranks st) as [|r rs] eqn:Er; [contradiction|]. exists r. split; [reflexivity|].
  pose proof (iv_ok st I) as R. unfold okay in R. assert (E : r_ranks st !! 0 = Some r) by (rewrite Er; reflexivity).
  apply NoDup_Permutation; [exact (rank_nodup _ _ _ _ _ _ _ R E)| |].
  - destruct (iv_net st I) as (order & N & _). apply NoDup_ListNoDup, (nw_pis_once _ _ N).
  - intros n. rewrite (rank_mem _ _ _ _ _ _ _ n R E). split.
    + intros [D L]. apply elem_of_list_In, (level_zero st n I D). exact L.
    + intros H. apply elem_of_list_In in H. assert (D : ranked_node (r_net st) n). { destruct (iv_net st I) as (order & N & _). apply (nw_pis _ _ N) in H. exists TPi. split; [exact H|discriminate]. }
      split; [exact D|]. apply (level_zero st n I D). exact H.
Qed.
Lemma sorted_strong (l : list nat) : (forall i j a b, i < j -> l !! i = Some a -> l !! j = Some b -> a <= b) -> StronglySorted le l.
Proof using.
  clear. induction l as [|x l IH]; intros H; [constructor|]. constructor.
  - apply IH. intros i j a b Hij Ha Hb. apply (H (S i) (S j) a b); [lia|exact Ha|exact Hb].
  - apply Forall_forall. intros y Hy. apply elem_of_list_lookup in Hy as [j Hj]. apply (H 0 (S j) x y); [lia|reflexivity|exact Hj].
Qed.
Lemma map_at (f : nat -> nat) (l : list nat) i y : map f l !! i = Some y <-> exists x, l !! i = Some x /\ y = f x.
Proof using.
  clear. revert i. induction l as [|a l IH]; intros i; [split; [discriminate|intros (x & H & _); discriminate H]|]. destruct i as [|i]; [|exact (IH i)].
  split; [intros [= <-]; exists a; split; reflexivity|intros (x & [= <-] & ->); reflexivity].
Qed.
Lemma foreach_pi_rank st : inv st -> foreach_pi sort st = get_ranks st 0.
Proof using Hs.
  intros I. destruct (rank_zero st I) as (r & E & P). unfold get_ranks. rewrite E. unfold foreach_pi. pose proof (iv_ok st I) as R. unfold okay in R.
  assert (Pos : forall i n, r !! i = Some n -> r_pos st !! n = Some i) by (intros i n H; apply (rk_in _ _ _ _ _ R 0 r i n E H)).
  replace (forallb _ (t_pis (r_net st))) with true.
  2: { symmetry. apply forallb_forall. intros n H. apply bool_decide_eq_true. assert (Hn : n ∈ r) by (rewrite P; apply elem_of_list_In; exact H). apply elem_of_list_lookup in Hn as [i Hi]. rewrite (Pos i n Hi). eauto. }
  cbn [orb]. f_equal. set (p := fun n => default 0 (r_pos st !! n)). set (cmp := fun a b => Nat.ltb (default 0 (r_pos st !! a)) (default 0 (r_pos st !! b))).
  destruct (Hs cmp (t_pis (r_net st))) as [P' O].
  assert (Oc : orders cmp). { unfold orders, cmp. repeat split; intros; rewrite ?Nat.ltb_lt, ?Nat.ltb_ge in *; lia. }
  specialize (O Oc). set (l := sort cmp (t_pis (r_net st))) in *. assert (Pl : Permutation r l) by (rewrite P; exact P').
  assert (M : map p l = map p r).
  { apply (StronglySorted_unique le).
    - apply sorted_strong. intros i j a b Hij Ha Hb. apply map_at in Ha as (x & Hx & ->). apply map_at in Hb as (y & Hy & ->). specialize (O i j x y Hij Hx Hy). unfold cmp in O. apply Nat.ltb_ge in O. exact O.
    - apply sorted_strong. intros i j a b Hij Ha Hb. apply map_at in Ha as (x & Hx & ->). apply map_at in Hb as (y & Hy & ->). unfold p. rewrite (Pos i x Hx), (Pos j y Hy). cbn. lia.
    - apply Permutation_map. symmetry. exact Pl. }
  apply list_eq. intros i. pose proof (Permutation_length Pl) as Len. destruct (l !! i) as [a|] eqn:Ha.
  - assert (Hr : a ∈ r) by (rewrite Pl; apply elem_of_list_lookup; eauto). apply elem_of_list_lookup in Hr as [j Hj]. assert (X : map p l !! i = Some (p a)) by (apply map_at; eauto).
    rewrite M in X. apply map_at in X as (b & Hb & Eb). unfold p in Eb. rewrite (Pos j a Hj), (Pos i b Hb) in Eb. cbn in Eb. subst j. symmetry. exact Hj.
  - apply lookup_ge_None in Ha. symmetry. apply lookup_ge_None. lia.
Qed.
End Sort.
