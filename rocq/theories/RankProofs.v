(** Proofs about rank views: the ranks. *)
From Coq Require Import ZArith Bool List Permutation Lia.
From stdpp Require Import gmap list sorting.
From Verif Require Import FanoutModel FanoutSpec DepthSpec DepthModel DepthProofs RankModel RankSpec.
Import ListNotations.

(** ** Ranks that hold a set of nodes *)

Record ranked (lv : gmap nat nat) (D : nat -> Prop) (pos : gmap nat nat) (rs : list (list nat)) (w : nat) : Prop := {
  rk_in : forall l r i n, rs !! l = Some r -> r !! i = Some n -> D n /\ lv !! n = Some l /\ pos !! n = Some i;
  rk_all : forall n, D n -> exists l r i, lv !! n = Some l /\ rs !! l = Some r /\ pos !! n = Some i /\ r !! i = Some n;
  rk_dom : forall n, is_Some (pos !! n) -> D n;
  rk_le : forall l r, rs !! l = Some r -> length r <= w;
  rk_max : w = 0 \/ exists l r, rs !! l = Some r /\ length r = w
}.
Lemma ranked_ext (lv lv' : gmap nat nat) (D D' : nat -> Prop) pos rs w : (forall n, D n -> lv' !! n = lv !! n) -> (forall n, D n <-> D' n) -> ranked lv D pos rs w -> ranked lv' D' pos rs w.
Proof.
  intros E ED R. constructor; [| |intros n H; apply ED; exact (rk_dom _ _ _ _ _ R n H)|exact (rk_le _ _ _ _ _ R)|exact (rk_max _ _ _ _ _ R)].
  - intros l r i n H1 H2. destruct (rk_in _ _ _ _ _ R l r i n H1 H2) as (A & B & C). split; [apply ED; exact A|]. split; [rewrite E by exact A; exact B|exact C].
  - intros n Hn. apply ED in Hn. destruct (rk_all _ _ _ _ _ R n Hn) as (l & r & i & H). exists l, r, i. rewrite E by exact Hn. exact H.
Qed.
Lemma rank_nodup (lv : gmap nat nat) (D : nat -> Prop) pos rs w l r : ranked lv D pos rs w -> rs !! l = Some r -> NoDup r.
Proof.
  intros R E. apply NoDup_alt. intros i j n Hi Hj. destruct (rk_in _ _ _ _ _ R l r i n E Hi) as (_ & _ & A). destruct (rk_in _ _ _ _ _ R l r j n E Hj) as (_ & _ & B). congruence.
Qed.
Lemma rank_mem (lv : gmap nat nat) (D : nat -> Prop) pos rs w l r n : ranked lv D pos rs w -> rs !! l = Some r -> (n ∈ r <-> D n /\ lv !! n = Some l).
Proof.
  intros R E. split.
  - intros H. apply elem_of_list_lookup in H as [i H]. destruct (rk_in _ _ _ _ _ R l r i n E H) as (A & B & _). split; assumption.
  - intros [H L]. destruct (rk_all _ _ _ _ _ R n H) as (l' & r' & i & A & B & C & F). rewrite L in A. injection A as <-. rewrite E in B. injection B as <-.
    apply elem_of_list_lookup. exists i. exact F.
Qed.
Lemma insert_ranked (lv : gmap nat nat) (D : nat -> Prop) pos rs w n l r : ranked lv D pos rs w -> ~ D n -> lv !! n = Some l -> rs !! l = Some r ->
  ranked lv (fun m => D m \/ m = n) (<[n := length r]> pos) (<[l := r ++ [n]]> rs) (Nat.max w (S (length r))).
Proof.
  intros R N L E. pose proof (lookup_lt_Some _ _ _ E) as Ll. constructor.
  - intros l' r' i m H1 H2. destruct (Nat.eq_dec l' l) as [->|Ne].
    + rewrite list_lookup_insert in H1 by exact Ll. injection H1 as <-. apply lookup_app_Some in H2 as [H2|[Hl H2]].
      * destruct (rk_in _ _ _ _ _ R l r i m E H2) as (A & B & C). split; [left; exact A|]. split; [exact B|]. rewrite lookup_insert_ne by (intros ->; contradiction). exact C.
      * destruct (i - length r) as [|k] eqn:K; [|discriminate H2]. cbn in H2. injection H2 as <-. split; [right; reflexivity|]. split; [exact L|].
        rewrite lookup_insert. f_equal. lia.
    + rewrite list_lookup_insert_ne in H1 by congruence. destruct (rk_in _ _ _ _ _ R l' r' i m H1 H2) as (A & B & C). split; [left; exact A|]. split; [exact B|].
      rewrite lookup_insert_ne by (intros ->; contradiction). exact C.
  - intros m [Hm| ->].
    + destruct (rk_all _ _ _ _ _ R m Hm) as (l' & r' & i & A & B & C & F). assert (m <> n) by (intros ->; contradiction). destruct (Nat.eq_dec l' l) as [->|Ne].
      * rewrite E in B. injection B as <-. exists l, (r ++ [n]), i. split; [exact A|]. split; [apply list_lookup_insert; exact Ll|]. split; [rewrite lookup_insert_ne by congruence; exact C|].
        apply lookup_app_l_Some. exact F.
      * exists l', r', i. split; [exact A|]. split; [rewrite list_lookup_insert_ne by congruence; exact B|]. split; [rewrite lookup_insert_ne by congruence; exact C|exact F].
    + exists l, (r ++ [n]), (length r). split; [exact L|]. split; [apply list_lookup_insert; exact Ll|]. split; [apply lookup_insert|].
      rewrite lookup_app_r by lia. rewrite Nat.sub_diag. reflexivity.
  - intros m. destruct (Nat.eq_dec m n) as [->|Nm]; [right; reflexivity|]. rewrite lookup_insert_ne by congruence. intros H. left. exact (rk_dom _ _ _ _ _ R m H).
  - intros l' r' H. destruct (Nat.eq_dec l' l) as [->|Ne].
    + rewrite list_lookup_insert in H by exact Ll. injection H as <-. rewrite app_length. cbn. lia.
    + rewrite list_lookup_insert_ne in H by congruence. pose proof (rk_le _ _ _ _ _ R l' r' H). lia.
  - right. destruct (Nat.le_gt_cases w (S (length r))) as [Le|Gt].
    + exists l, (r ++ [n]). split; [apply list_lookup_insert; exact Ll|]. rewrite app_length. cbn. lia.
    + destruct (rk_max _ _ _ _ _ R) as [->|(l' & r' & H & Hw)]; [lia|]. assert (l' <> l) by (intros ->; rewrite E in H; injection H as <-; lia).
      exists l', r'. split; [rewrite list_lookup_insert_ne by congruence; exact H|lia].
Qed.
Lemma reorder_ranked (lv : gmap nat nat) (D : nat -> Prop) pos pos' rs w l r r' : ranked lv D pos rs w -> rs !! l = Some r -> Permutation r r' ->
  (forall i n, r' !! i = Some n -> pos' !! n = Some i) -> (forall n, ~ n ∈ r -> pos' !! n = pos !! n) -> ranked lv D pos' (<[l := r']> rs) w.
Proof.
  intros R E P H1 H2. pose proof (lookup_lt_Some _ _ _ E) as Ll.
  assert (M : forall m, m ∈ r' <-> m ∈ r). { intros m. rewrite !elem_of_list_In. split; apply Permutation_in; [symmetry|]; exact P. }
  constructor.
  - intros l' q i m A B. destruct (Nat.eq_dec l' l) as [->|Ne].
    + rewrite list_lookup_insert in A by exact Ll. injection A as <-. assert (Hm : m ∈ r) by (apply M, elem_of_list_lookup; exists i; exact B).
      apply (rank_mem _ _ _ _ _ _ _ m R E) in Hm as [Hd Hl]. split; [exact Hd|]. split; [exact Hl|exact (H1 i m B)].
    + rewrite list_lookup_insert_ne in A by congruence. destruct (rk_in _ _ _ _ _ R l' q i m A B) as (F & G & K). split; [exact F|]. split; [exact G|].
      rewrite H2; [exact K|]. intros Hm. apply (rank_mem _ _ _ _ _ _ _ m R E) in Hm as [_ Hl]. congruence.
  - intros m Hm. destruct (rk_all _ _ _ _ _ R m Hm) as (l' & q & i & A & B & C & F). destruct (Nat.eq_dec l' l) as [->|Ne].
    + rewrite E in B. injection B as <-. assert (Hr : m ∈ r') by (apply M, elem_of_list_lookup; exists i; exact F). apply elem_of_list_lookup in Hr as [j Hj].
      exists l, r', j. split; [exact A|]. split; [apply list_lookup_insert; exact Ll|]. split; [exact (H1 j m Hj)|exact Hj].
    + exists l', q, i. split; [exact A|]. split; [rewrite list_lookup_insert_ne by congruence; exact B|]. split; [|exact F]. rewrite H2; [exact C|].
      intros Hr. apply (rank_mem _ _ _ _ _ _ _ m R E) in Hr as [_ Hl]. congruence.
  - intros m H. destruct (decide (m ∈ r)) as [Hm|Hm]; [apply (rank_mem _ _ _ _ _ _ _ m R E) in Hm; apply Hm|]. rewrite H2 in H by exact Hm. exact (rk_dom _ _ _ _ _ R m H).
  - intros l' q H. destruct (Nat.eq_dec l' l) as [->|Ne].
    + rewrite list_lookup_insert in H by exact Ll. injection H as <-. rewrite <- (Permutation_length P). exact (rk_le _ _ _ _ _ R l r E).
    + rewrite list_lookup_insert_ne in H by congruence. exact (rk_le _ _ _ _ _ R l' q H).
  - destruct (rk_max _ _ _ _ _ R) as [H|(l' & q & H & Hw)]; [left; exact H|right]. destruct (Nat.eq_dec l' l) as [->|Ne].
    + rewrite E in H. injection H as <-. exists l, r'. split; [apply list_lookup_insert; exact Ll|]. rewrite <- (Permutation_length P). exact Hw.
    + exists l', q. split; [rewrite list_lookup_insert_ne by congruence; exact H|exact Hw].
Qed.

(** ** Numbering *)

Lemma renumber_other l : forall m i n, ~ n ∈ l -> renumber m i l !! n = m !! n.
Proof.
  induction l as [|a l IH]; intros m i n H; [reflexivity|]. cbn. rewrite IH by (intros X; apply H; right; exact X). apply lookup_insert_ne. intros ->. apply H. left.
Qed.
Lemma renumber_at l : forall m i, NoDup l -> forall j n, l !! j = Some n -> renumber m i l !! n = Some (i + j).
Proof.
  induction l as [|a l IH]; intros m i N j n H; [destruct j; discriminate H|]. apply NoDup_cons in N as [N1 N2]. cbn. destruct j as [|j].
  - injection H as ->. rewrite renumber_other by exact N1. rewrite lookup_insert. f_equal. lia.
  - cbn in H. rewrite (IH _ _ N2 j n H). f_equal. lia.
Qed.
Lemma renumber_ranked (lv : gmap nat nat) (D : nat -> Prop) pos rs w l r r' : ranked lv D pos rs w -> rs !! l = Some r -> Permutation r r' -> ranked lv D (renumber pos 0 r') (<[l := r']> rs) w.
Proof.
  intros R E P. assert (N : NoDup r') by (rewrite <- P; exact (rank_nodup _ _ _ _ _ _ _ R E)).
  apply (reorder_ranked lv D pos _ rs w l r r' R E P).
  - intros i n H. exact (renumber_at r' pos 0 N i n H).
  - intros n H. apply renumber_other. rewrite <- P. exact H.
Qed.
Lemma same_nodes (r r' : list nat) : merge_sort (≤) r = merge_sort (≤) r' <-> Permutation r r'.
Proof.
  split.
  - intros E. rewrite <- (merge_sort_Permutation (≤) r), E. apply merge_sort_Permutation.
  - intros P. apply (Sorted_unique (≤)); [apply Sorted_merge_sort; apply _|apply Sorted_merge_sort; apply _|]. rewrite !merge_sort_Permutation. exact P.
Qed.

(** ** Calls that reorder *)

Definition okay (D : nat -> Prop) (st : rview) : Prop := ranked (v_levels (r_view st)) D (r_pos st) (r_ranks st) (r_width st).
Lemma set_ranks_some l nodes st st' : set_ranks l nodes st = Some st' <-> exists r, r_ranks st !! l = Some r /\ Permutation r nodes /\
  st' = mkR (r_net st) (r_view st) (renumber (r_pos st) 0 nodes) (<[l := nodes]> (r_ranks st)) (r_width st).
Proof.
  unfold set_ranks. destruct (r_ranks st !! l) as [r|]; [|split; [discriminate|intros (r & H & _); discriminate H]].
  destruct (bool_decide (merge_sort (≤) r = merge_sort (≤) nodes)) eqn:B.
  - apply bool_decide_eq_true in B. apply same_nodes in B. split; [intros [= <-]; exists r; repeat split; exact B|intros (r' & H & _ & ->); reflexivity].
  - apply bool_decide_eq_false in B. split; [discriminate|]. intros (r' & H & P & _). injection H as <-. apply same_nodes in P. contradiction.
Qed.
Lemma set_ranks_okay D l nodes st st' : okay D st -> set_ranks l nodes st = Some st' -> okay D st'.
Proof.
  intros R H. apply set_ranks_some in H as (r & E & P & ->). unfold okay in *. cbn [r_net r_view r_pos r_ranks r_width]. exact (renumber_ranked _ _ _ _ _ _ _ _ R E P).
Qed.
Lemma set_from_okay D rs : forall l st st', okay D st -> set_from l rs st = Some st' -> okay D st' /\ r_net st' = r_net st /\ r_view st' = r_view st /\
  length (r_ranks st') = length (r_ranks st) /\ (forall k, k < l -> r_ranks st' !! k = r_ranks st !! k) /\ (forall k r, rs !! k = Some r -> r_ranks st' !! (l + k) = Some r).
Proof.
  induction rs as [|r rs IH]; intros l st st' R H; cbn in H.
  - injection H as <-. split; [exact R|]. do 3 (split; [reflexivity|]). split; [reflexivity|]. intros k r H. destruct k; discriminate H.
  - destruct (set_ranks l r st) as [st1|] eqn:E; [|discriminate]. pose proof (set_ranks_okay D l r st st1 R E) as R1. apply set_ranks_some in E as (q & Eq & P & E1).
    destruct (IH (S l) st1 st' R1 H) as (R2 & N2 & V2 & L2 & B2 & A2). subst st1. cbn [r_net r_view r_ranks] in *. split; [exact R2|]. split; [exact N2|]. split; [exact V2|].
    split; [rewrite L2, insert_length; reflexivity|]. split.
    + intros k Hk. rewrite B2 by lia. apply list_lookup_insert_ne. lia.
    + intros k r' Hk. destruct k as [|k].
      * injection Hk as <-. rewrite Nat.add_0_r, B2 by lia. apply list_lookup_insert. exact (lookup_lt_Some _ _ _ Eq).
      * rewrite Nat.add_succ_r. exact (A2 k r' Hk).
Qed.
Lemma swap_some D a b st st' : okay D st -> swap a b st = Some st' -> exists l p q r, r_level st a = Some l /\ r_level st b = Some l /\
  r_pos st !! a = Some p /\ r_pos st !! b = Some q /\ r_ranks st !! l = Some r /\
  st' = mkR (r_net st) (r_view st) (<[b := p]> (<[a := q]> (r_pos st))) (<[l := match r !! p, r !! q with Some x, Some y => <[q := x]> (<[p := y]> r) | _, _ => r end]> (r_ranks st)) (r_width st).
Proof.
  intros _. unfold swap. destruct (r_level st a) as [la|]; [|discriminate]. destruct (r_level st b) as [lb|]; [|discriminate].
  destruct (r_pos st !! a) as [p|]; [|discriminate]. destruct (r_pos st !! b) as [q|]; [|discriminate]. destruct (Nat.eqb_spec la lb) as [<-|]; [|discriminate].
  destruct (r_ranks st !! la) as [r|] eqn:E; [|discriminate]. destruct (r !! p) as [x|] eqn:Ex; [|discriminate]. destruct (r !! q) as [y|] eqn:Ey; [|discriminate].
  intros [= <-]. exists la, p, q, r. rewrite Ex, Ey. repeat split; exact E.
Qed.
Lemma swap_list (r : list nat) p q x y : r !! p = Some x -> r !! q = Some y -> Permutation r (<[q := x]> (<[p := y]> r)).
Proof.
  intros Hp Hq. destruct (Nat.eq_dec p q) as [->|Ne].
  - rewrite Hp in Hq. injection Hq as <-. rewrite list_insert_insert, list_insert_id by exact Hp. reflexivity.
  - apply Permutation_inj. split; [rewrite !insert_length; reflexivity|].
    exists (fun i => if decide (i = p) then q else if decide (i = q) then p else i). split.
    + intros i j. repeat case_decide; congruence.
    + intros i. pose proof (lookup_lt_Some _ _ _ Hp). pose proof (lookup_lt_Some _ _ _ Hq). destruct (decide (i = p)) as [->|N1].
      * rewrite list_lookup_insert by (rewrite insert_length; assumption). exact Hp.
      * destruct (decide (i = q)) as [->|N2].
        -- rewrite list_lookup_insert_ne by congruence. rewrite list_lookup_insert by assumption. exact Hq.
        -- rewrite !list_lookup_insert_ne by congruence. reflexivity.
Qed.
Lemma swap_at (r : list nat) p q x y i : r !! p = Some x -> r !! q = Some y ->
  <[q := x]> (<[p := y]> r) !! i = (if decide (i = q) then Some x else if decide (i = p) then Some y else r !! i).
Proof.
  intros Hp Hq. pose proof (lookup_lt_Some _ _ _ Hp). pose proof (lookup_lt_Some _ _ _ Hq). destruct (decide (i = q)) as [->|N2].
  - apply list_lookup_insert. rewrite insert_length. assumption.
  - rewrite list_lookup_insert_ne by congruence. destruct (decide (i = p)) as [->|N1]; [apply list_lookup_insert; assumption|apply list_lookup_insert_ne; congruence].
Qed.
Lemma pos_at (D : nat -> Prop) st n l p r : okay D st -> D n -> r_level st n = Some l -> r_pos st !! n = Some p -> r_ranks st !! l = Some r -> r !! p = Some n.
Proof.
  intros R Hd Hl Hp Hr. destruct (rk_all _ _ _ _ _ R n Hd) as (l' & r' & i & A & B & C & F). unfold r_level in Hl. rewrite Hl in A. injection A as <-.
  rewrite Hr in B. injection B as <-. rewrite Hp in C. injection C as <-. exact F.
Qed.
Lemma swap_okay (D : nat -> Prop) a b st st' : okay D st -> swap a b st = Some st' -> okay D st'.
Proof.
  intros R H. destruct (swap_some D a b st st' R H) as (l & p & q & r & La & Lb & Pa & Pb & E & ->).
  assert (Ha : D a) by (apply (rk_dom _ _ _ _ _ R); eauto). assert (Hb : D b) by (apply (rk_dom _ _ _ _ _ R); eauto).
  pose proof (pos_at D st a l p r R Ha La Pa E) as Xa. pose proof (pos_at D st b l q r R Hb Lb Pb E) as Xb. rewrite Xa, Xb. unfold okay. cbn [r_view r_pos r_ranks r_width].
  apply (reorder_ranked _ D (r_pos st) _ (r_ranks st) (r_width st) l r _ R E (swap_list r p q a b Xa Xb)).
  - intros i n Hi. rewrite (swap_at r p q a b i Xa Xb) in Hi. destruct (decide (i = q)) as [->|N1].
    + injection Hi as <-. destruct (decide (a = b)) as [->|Ne]; [rewrite lookup_insert; congruence|]. rewrite lookup_insert_ne by congruence. apply lookup_insert.
    + destruct (decide (i = p)) as [->|N2].
      * injection Hi as <-. apply lookup_insert.
      * destruct (rk_in _ _ _ _ _ R l r i n E Hi) as (_ & _ & Pn). rewrite !lookup_insert_ne; [exact Pn| |]; intros <-; congruence.
  - intros n Hn. rewrite !lookup_insert_ne; [reflexivity| |]; intros <-; apply Hn, elem_of_list_lookup; eauto.
Qed.

(** ** Creation *)

Lemma insert_okay (D : nat -> Prop) n st st' : okay D st -> ~ D n -> insert_in_rank st n = Some st' -> okay (fun m => D m \/ m = n) st' /\ r_net st' = r_net st /\ r_view st' = r_view st /\ length (r_ranks st') = length (r_ranks st).
Proof.
  intros R N H. unfold insert_in_rank in H. destruct (r_level st n) as [l|] eqn:L; [|discriminate]. unfold insert_at in H. destruct (r_ranks st !! l) as [r|] eqn:E; [|discriminate].
  injection H as <-. cbn [r_net r_view r_ranks]. split; [|repeat split; apply insert_length]. unfold okay. cbn [r_view r_pos r_ranks r_width]. exact (insert_ranked _ _ _ _ _ n l r R N L E).
Qed.
Lemma init_okay ns : forall (D : nat -> Prop) st, okay D st -> NoDup ns -> (forall n, n ∈ ns -> ~ D n) ->
  (forall n l, r_level st n = Some l -> l < length (r_ranks st)) ->
  match fold_o (fun n st => if t_is_constant (r_net st) n then Some st else insert_in_rank st n) ns st with
  | Some st' => okay (fun m => D m \/ m ∈ ns /\ t_is_constant (r_net st) m = false) st' /\ r_net st' = r_net st /\ r_view st' = r_view st /\
      length (r_ranks st') = length (r_ranks st) /\ (forall n, n ∈ ns -> t_is_constant (r_net st) n = false -> r_level st n <> None)
  | None => exists n, n ∈ ns /\ t_is_constant (r_net st) n = false /\ r_level st n = None
  end.
Proof.
  induction ns as [|n ns IH]; intros D st R N F B; cbn [fold_o].
  - split; [|repeat split; intros n H; apply elem_of_nil in H; contradiction]. eapply ranked_ext; [reflexivity| |exact R]. intros m. rewrite elem_of_nil. tauto.
  - apply NoDup_cons in N as [N1 N2]. destruct (t_is_constant (r_net st) n) eqn:C.
    + specialize (IH D st R N2 (fun m H => F m (elem_of_list_further _ _ _ H)) B). destruct (fold_o _ ns st) as [st'|].
      * destruct IH as (R' & E1 & E2 & LL & L). split; [|split; [exact E1|split; [exact E2|split; [exact LL|]]]].
        -- eapply ranked_ext; [reflexivity| |exact R']. intros m. rewrite elem_of_cons. split; [tauto|]. intros [H|[[->|H] H']]; [tauto|congruence|tauto].
        -- intros m H. apply elem_of_cons in H as [->|H]; [congruence|]. apply L. exact H.
      * destruct IH as (m & H & R'). exists m. split; [right; exact H|exact R'].
    + destruct (insert_in_rank st n) as [st1|] eqn:E.
      * destruct (insert_okay D n st st1 R (F n (elem_of_list_here _ _)) E) as (R1 & E1 & E2 & L1).
        assert (Lv : forall m, r_level st1 m = r_level st m) by (intros m; unfold r_level; rewrite E2; reflexivity).
        specialize (IH _ st1 R1 N2). destruct (fold_o _ ns st1) as [st'|].
        -- destruct IH as (R' & E1' & E2' & LL & L).
           { intros m Hm [H| ->]; [exact (F m (elem_of_list_further _ _ _ Hm) H)|contradiction]. }
           { intros m l. rewrite Lv, L1. apply B. }
           split; [|split; [congruence|split; [congruence|split; [congruence|]]]].
           ++ eapply ranked_ext; [reflexivity| |exact R']. rewrite E1. intros m. rewrite elem_of_cons. split; [|tauto]. intros [[H| ->]|H]; tauto.
           ++ intros m H. apply elem_of_cons in H as [->|H].
              ** intros _. unfold insert_in_rank in E. destruct (r_level st n); [discriminate|discriminate].
              ** rewrite <- Lv, <- E1. apply L. exact H.
        -- destruct IH as (m & H & C' & L').
           { intros m Hm [H| ->]; [exact (F m (elem_of_list_further _ _ _ Hm) H)|contradiction]. }
           { intros m l. rewrite Lv, L1. apply B. }
           exists m. rewrite E1 in C'. rewrite Lv in L'. split; [right; exact H|]. split; assumption.
      * exists n. split; [left|]. split; [exact C|]. unfold insert_in_rank in E. destruct (r_level st n) as [l|] eqn:L; [|reflexivity]. exfalso. pose proof (B n l L) as Hl.
        unfold insert_at in E. apply lookup_lt_is_Some in Hl as [r Hr]. rewrite Hr in E. discriminate.
Qed.
Lemma empty_okay lv k : ranked lv (fun _ => False) ∅ (replicate k []) 0.
Proof.
  constructor.
  - intros l r i n H1 H2. apply lookup_replicate in H1 as [-> _]. destruct i; discriminate H2.
  - intros n [].
  - intros n [x H]. rewrite lookup_empty in H. discriminate.
  - intros l r H. apply lookup_replicate in H as [-> _]. cbn. lia.
  - left. reflexivity.
Qed.
