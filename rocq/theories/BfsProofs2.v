(** Proofs about breadth-first topological orders: the loop. *)
From Coq Require Import ZArith Bool List Permutation Lia.
From stdpp Require Import gmap list.
From Verif Require Import FanoutModel FanoutSpec DepthSpec DepthModel DepthProofs DepthProofs2 RankModel RankSpec RankProofs2 BfsModel BfsSpec BfsProofs.
From Coq Require Import List.
Import ListNotations.

Lemma insert_all (f : nat -> nat) l : forall (m : gmap nat nat) x, fold_left (fun m n => <[n := f n]> m) l m !! x = if inb l x then Some (f x) else m !! x.
Proof.
  induction l as [|a l IH]; intros m x; [reflexivity|]. cbn [fold_left]. rewrite IH. unfold inb. cbn [existsb]. destruct (existsb (Nat.eqb x) l); [rewrite orb_true_r; reflexivity|]. rewrite orb_false_r. destruct (Nat.eqb_spec x a) as [->|Ne]; [apply lookup_insert|apply lookup_insert_ne; congruence].
Qed.
Lemma sources_list l : forall st, List.NoDup l -> (forall x, In x l -> ~ x ∈ b_visited st) ->
  let st' := fold_left (fun st n => bfs_source n st) l st in
  b_queue st' = b_queue st ++ l /\ b_topo st' = b_topo st ++ l /\ (forall x, x ∈ b_visited st' <-> x ∈ b_visited st \/ In x l) /\ b_count st' = b_count st.
Proof.
  induction l as [|a l IH]; intros st N D; cbn [fold_left]; [rewrite !app_nil_r; cbn; split; [reflexivity|split; [reflexivity|split; [intros x; tauto|reflexivity]]]|]. inversion N as [|? ? Na Nl]; subst.
  assert (E : bfs_source a st = mkB (b_queue st ++ [a]) (b_topo st ++ [a]) ({[a]} ∪ b_visited st) (b_count st)) by (unfold bfs_source; rewrite bool_decide_eq_false_2; [reflexivity|apply D; left; reflexivity]). rewrite E.
  destruct (IH (mkB (b_queue st ++ [a]) (b_topo st ++ [a]) ({[a]} ∪ b_visited st) (b_count st)) Nl) as (A & B & C & K).
  - intros x Hx. cbn [b_visited]. rewrite elem_of_union, elem_of_singleton. intros [->|H]; [contradiction|]. apply (D x); [right; exact Hx|exact H].
  - cbv zeta in *. cbn [b_queue b_topo b_visited b_count] in *. rewrite <- app_assoc in A, B. split; [exact A|]. split; [exact B|]. split; [|exact K]. intros x. rewrite C, elem_of_union, elem_of_singleton. cbn [In]. split; [intros [[->|H]|H]; tauto|intros [H|[<-|H]]; tauto].
Qed.
Lemma reaches_end net m o : reaches net unit_cost m o -> m = o \/ exists c, In c (t_fanins net o) /\ reaches net unit_cost m c.
Proof.
  intros [w T]. induction T as [n|c n o w H T IH]; [left; reflexivity|right]. destruct IH as [->|(x & Hx & R)]; [exists c; split; [exact H|apply reaches_self]|]. exists x. split; [exact Hx|]. eapply reaches_step; eassumption.
Qed.
Lemma reaches_more net m c o : reaches net unit_cost m c -> In c (t_fanins net o) -> reaches net unit_cost m o.
Proof. intros [w T] H. exists (w + (unit_cost o + 0)). eapply tail_trans; [exact T|]. exact (tail_step net unit_cost c o o 0 H (tail_here net unit_cost o)). Qed.
Lemma distinct_step net n : distinct_below net n <-> List.NoDup (t_fanins net n) /\ forall c, In c (t_fanins net n) -> distinct_below net c.
Proof.
  split.
  - intros D. split; [apply D, reaches_self|]. intros c Hc m R. apply D. exact (reaches_more net m c n R Hc).
  - intros [N D] m R. destruct (reaches_end net m n R) as [->|(c & Hc & R')]; [exact N|exact (D c Hc m R')].
Qed.

Section Loop.
Context (net : tnet) (order : list nat) (Hnet : network net order) (Hall : forall n lit ch, t_nodes net !! n = Some (TGate lit ch) -> In n order) (F32 : fits_32 net).
Context (Hf : forall n, (Z.of_nat (length (t_fanins net n)) < 2 ^ 32)%Z).
Notation len := (length (t_nodes net)).
Notation F := (t_fanins net).
Notation lv := (longest net false unit_cost).
Record J (done : list nat) (st : bstate) : Prop := {
  j_topo : b_topo st = done ++ b_queue st;
  j_vis : forall n, n ∈ b_visited st <-> In n (b_topo st);
  j_once : List.NoDup (b_topo st);
  j_lt : forall n, In n (b_topo st) -> n < len;
  j_count : forall n, n < len -> ~ In n (b_topo st) -> b_count st !! n = Some (length (F n) - dn (F n) done);
  j_rest : forall n, n < len -> ~ In n (b_topo st) -> dn (F n) done < length (F n);
  j_after : forall i n c, b_topo st !! i = Some n -> In c (F n) -> exists j, j < i /\ b_topo st !! j = Some c;
  j_clean : forall n, In n (b_topo st) -> distinct_below net n;
  j_src : exists r, b_topo st = 0 :: 1 :: t_pis net ++ r /\ forall n, In n r -> exists lit ch, t_nodes net !! n = Some (TGate lit ch);
  j_lev : forall i j a b ka kb, i < j -> b_topo st !! i = Some a -> b_topo st !! j = Some b -> lv a ka -> lv b kb -> ka <= kb;
  j_near : forall n q, b_queue st = n :: q -> forall a ka kn, In a (b_topo st) -> lv a ka -> lv n kn -> ka <= S kn
}.
Lemma complete_net : complete net.
Proof using Hnet Hall. exists order. split; [exact Hnet|exact Hall]. Qed.
Lemma level_of n : n < len -> exists k, lv n k.
Proof using Hnet Hall F32. intros L. apply (longest_exists net order Hnet (network_short net order Hnet F32)). exact (in_known net order n Hnet Hall L). Qed.
Lemma node_lt n x : t_nodes net !! n = Some x -> n < len.
Proof using. apply lookup_lt_Some. Qed.
Lemma src_once : List.NoDup (0 :: 1 :: t_pis net).
Proof using Hnet.
  assert (X : forall b n, t_nodes net !! n = Some (TConst b) -> ~ In n (t_pis net)) by (intros b n E H; apply (nw_pis _ _ Hnet) in H; rewrite E in H; discriminate H).
  constructor; [intros [H|H]; [discriminate H|exact (X _ 0 (nw_0 _ _ Hnet) H)]|]. constructor; [exact (X _ 1 (nw_1 _ _ Hnet))|exact (nw_pis_once _ _ Hnet)].
Qed.
Lemma src_node n : In n (0 :: 1 :: t_pis net) <-> exists x, t_nodes net !! n = Some x /\ forall lit ch, x <> TGate lit ch.
Proof using Hnet.
  split.
  - intros [<-|[<-|H]]; [exists (TConst false); split; [apply (nw_0 _ _ Hnet)|discriminate]|exists (TConst true); split; [apply (nw_1 _ _ Hnet)|discriminate]|]. apply (nw_pis _ _ Hnet) in H. exists TPi. split; [exact H|discriminate].
  - intros (x & E & N). destruct x as [b| |lit ch]; [|right; right; apply (nw_pis _ _ Hnet); exact E|elim (N lit ch eq_refl)]. pose proof (nw_const _ _ Hnet n b E). destruct n as [|[|n]]; [left; reflexivity|right; left; reflexivity|lia].
Qed.
Lemma src_fanins n : In n (0 :: 1 :: t_pis net) -> F n = [].
Proof using Hnet. intros H. apply src_node in H as (x & E & N). unfold t_fanins. rewrite E. destruct x as [b| |lit ch]; [reflexivity|reflexivity|elim (N lit ch eq_refl)]. Qed.
Lemma src_level n k : In n (0 :: 1 :: t_pis net) -> lv n k -> k = 0.
Proof using Hnet. intros H [C _]. pose proof (src_fanins n H) as E. inversion C as [? ? X|? X|? c k' Hc Ck]; subst; [reflexivity|reflexivity|]. rewrite E in Hc. destruct Hc. Qed.
Lemma start_J : J [] (bfs_start net).
Proof using Hnet Hall F32 Hf.
  unfold bfs_start. destruct (sources_list (0 :: 1 :: t_pis net) (mkB [] [] ∅ (bfs_counts net)) src_once) as (A & B & C & D); [intros x _ H; cbn [b_visited] in H; set_solver|]. cbv zeta in *. set (st := fold_left _ _ _) in *. cbn [b_queue b_topo b_visited b_count app] in *.
  assert (Z : forall n, dn (F n) [] = 0). { intros n. unfold dn. induction (List.nodup Nat.eq_dec (F n)) as [|x l IH]; [reflexivity|exact IH]. }
  constructor.
  - rewrite A, B. reflexivity.
  - intros n. rewrite B, C. split; [intros [H|H]; [set_solver|exact H]|tauto].
  - rewrite B. exact src_once.
  - intros n H. rewrite B in H. apply src_node in H as (x & E & _). exact (node_lt n x E).
  - intros n L _. rewrite D, Z. unfold bfs_counts. rewrite (insert_all (fun n => u32 (Z.of_nat (length (F n))))), (proj2 (inb_true _ n)) by (apply in_seq; lia). f_equal. rewrite u32_small; [rewrite Nat2Z.id; lia|]. specialize (Hf n). lia.
  - intros n L H. rewrite Z. rewrite B in H. destruct (lookup_lt_is_Some_2 (t_nodes net) n L) as [x E]. destruct x as [b| |lit ch]; [elim H; apply src_node; exists (TConst b); split; [exact E|discriminate]|elim H; apply src_node; exists TPi; split; [exact E|discriminate]|].
    destruct (nw_gates _ _ Hnet n (Hall n lit ch E)) as (lit' & ch' & E' & Ne). unfold t_fanins. rewrite E'. cbn [t_children]. destruct ch'; [contradiction|cbn; lia].
  - intros i n c Hi Hc. rewrite B in Hi. rewrite (src_fanins n) in Hc; [destruct Hc|]. apply elem_of_list_In, elem_of_list_lookup. exists i. exact Hi.
  - intros n H. rewrite B in H. apply distinct_step. rewrite (src_fanins n H). split; [constructor|intros c []].
  - exists []. rewrite B, app_nil_r. split; [reflexivity|intros n []].
  - intros i j a b ka kb _ Ha _ La _. rewrite B in Ha. rewrite (src_level a ka); [lia| |exact La]. apply elem_of_list_In, elem_of_list_lookup. exists i. exact Ha.
  - intros n q _ a ka kn Ha La _. rewrite B in Ha. rewrite (src_level a ka Ha La). lia.
Qed.
Lemma fanout_in n c : In c (bfs_fanouts net n) <-> In n (F c).
Proof using.
  unfold bfs_fanouts. rewrite filter_In, existsb_exists, in_seq. split.
  - intros [_ (x & Hx & E)]. apply Nat.eqb_eq in E. subst x. exact Hx.
  - intros H. split; [|exists n; split; [exact H|apply Nat.eqb_refl]]. destruct (fanin_gate net c n H) as (lit & ch & E & _). pose proof (node_lt c _ E). lia.
Qed.
Lemma in_at (l : list nat) x : In x l <-> exists i, l !! i = Some x.
Proof using. rewrite <- elem_of_list_In. apply elem_of_list_lookup. Qed.
Lemma step_J done st n q : J done st -> b_queue st = n :: q ->
  J (done ++ [n]) (fold_left (fun st c => bfs_child c st) (bfs_fanouts net n) (mkB q (b_topo st) (b_visited st) (b_count st))).
Proof using Hnet Hall F32 Hf.
  intros I Eq. set (s1 := mkB q (b_topo st) (b_visited st) (b_count st)). assert (Ncs : List.NoDup (bfs_fanouts net n)) by (apply List.NoDup_filter, seq_NoDup).
  destruct (children_ok (bfs_fanouts net n) s1 Ncs) as (A & B & C & D). cbv zeta in *. set (st' := fold_left _ _ _) in *. cbn [b_queue b_topo b_visited b_count s1] in A, B, C, D.
  set (r := List.filter (fires s1) (bfs_fanouts net n)) in *. set (topo := b_topo st) in *.
  pose proof (j_topo _ _ I) as T. fold topo in T. rewrite Eq in T. pose proof (j_once _ _ I) as N. fold topo in N.
  assert (Nn : ~ In n done). { rewrite T in N. apply NoDup_remove_2 in N. intros H. apply N, in_app_iff. left. exact H. }
  assert (Tn : topo = (done ++ [n]) ++ q) by (rewrite T, <- app_assoc; reflexivity).
  assert (Sub : forall x, In x (done ++ [n]) -> In x topo) by (intros x H; rewrite Tn; apply in_app_iff; left; exact H).
  assert (Vt : forall x, bool_decide (x ∈ b_visited st) = inb topo x). { intros x. destruct (inb topo x) eqn:X; [apply inb_true in X; apply bool_decide_eq_true_2, (j_vis _ _ I); exact X|apply inb_false in X; apply bool_decide_eq_false_2; intros H; apply X, (j_vis _ _ I); exact H]. }
  assert (Nx : forall x, In n (F x) -> ~ In x topo -> next s1 x = length (F x) - dn (F x) (done ++ [n]) /\ dn (F x) (done ++ [n]) = S (dn (F x) done)).
  { intros x Hx Ht. destruct (fanin_gate net x n Hx) as (lit & ch & Ex & _). pose proof (node_lt x _ Ex) as Lx. pose proof (j_rest _ _ I x Lx Ht) as Rx. unfold next. cbn [s1 b_count]. rewrite (j_count _ _ I x Lx Ht). cbn [default].
    rewrite (dn_more (F x) done n Nn), (proj2 (inb_true (F x) n) Hx). specialize (Hf x). pose proof (Nat2Z.is_nonneg (length (F x))). split; [|lia]. cbn. rewrite u32_small by lia. lia. }
  assert (Rr : forall x, In x r <-> In n (F x) /\ ~ In x topo /\ dn (F x) (done ++ [n]) = length (F x)).
  { intros x. unfold r. rewrite filter_In, fanout_in. unfold fires. cbn [s1 b_visited]. rewrite Vt, andb_true_iff, negb_true_iff, Nat.eqb_eq, inb_false. split.
    - intros (H1 & H2 & H3). destruct (Nx x H1 H2) as [X _]. pose proof (dn_le (F x) (done ++ [n])). split; [exact H1|]. split; [exact H2|]. lia.
    - intros (H1 & H2 & H3). destruct (Nx x H1 H2) as [X _]. split; [exact H1|]. split; [exact H2|]. lia. }
  assert (Rd : forall x, In x r -> List.NoDup (F x) /\ forall c, In c (F x) -> In c (done ++ [n])) by (intros x Hx; apply Rr in Hx as (_ & _ & H); apply dn_full in H; exact H).
  assert (Rlt : forall x, In x r -> x < len) by (intros x Hx; apply Rr in Hx as (H & _); destruct (fanin_gate net x n H) as (lit & ch & Ex & _); exact (node_lt x _ Ex)).
  assert (Pn : topo !! length done = Some n) by (rewrite T, lookup_app_r, Nat.sub_diag by lia; reflexivity).
  destruct (level_of n (j_lt _ _ I n ltac:(fold topo; apply in_at; exists (length done); exact Pn))) as [kn Ln].
  assert (Lr : forall x k, In x r -> lv x k -> k = S kn).
  { intros x k Hx [Cx Mx]. pose proof Hx as Hx'. apply Rr in Hx' as (Hn & _). apply Nat.le_antisymm.
    - destruct (fanin_gate net x n Hn) as (lit & ch & Ex & _). inversion Cx as [? ? X|? X|? c k' Hc Ck]; subst; [congruence|congruence|]. pose proof (proj2 (Rd x Hx) c Hc) as Dc.
      assert (Lc : c < len) by (apply (j_lt _ _ I); fold topo; exact (Sub c Dc)). destruct (level_of c Lc) as [kc Kc]. pose proof (proj2 Kc k' Ck). apply in_app_iff in Dc as [Dc|[<-|[]]].
      + apply in_at in Dc as [j Hj]. pose proof (lookup_lt_Some _ _ _ Hj). pose proof (j_lev _ _ I j (length done) c n kc kn ltac:(lia)) as X. fold topo in X. rewrite T in X at 1. rewrite lookup_app_l in X by lia. specialize (X Hj Pn Kc Ln). lia.
      + pose proof (longest_fun net false unit_cost n kn kc Ln Kc). lia.
    - pose proof (Mx _ (chain_gate net false unit_cost x n kn Hn (proj1 Ln))) as X. cbn beta in *. lia. }
  assert (Old : forall a ka, In a topo -> lv a ka -> ka <= S kn) by (intros a ka Ha La; exact (j_near _ _ I n q Eq a ka kn Ha La Ln)).
  assert (Qn : forall x k, In x (q ++ r) -> lv x k -> kn <= k).
  { intros x k Hx Kx. apply in_app_iff in Hx as [Hx|Hx]; [|rewrite (Lr x k Hx Kx); lia]. apply in_at in Hx as [j Hj]. apply (j_lev _ _ I (length done) (S (length done + j)) n x kn k); [lia|exact Pn| |exact Ln|exact Kx]. fold topo. rewrite T, lookup_app_r by lia. replace (S (length done + j) - length done) with (S j) by lia. exact Hj. }
  constructor.
  - rewrite A, B, Tn, <- app_assoc. reflexivity.
  - intros x. rewrite B, C, (j_vis _ _ I x). fold topo. rewrite in_app_iff. reflexivity.
  - rewrite B. apply NoDup_ListNoDup, NoDup_app. split; [apply NoDup_ListNoDup; exact N|]. split; [|apply NoDup_ListNoDup; unfold r; apply List.NoDup_filter; exact Ncs]. intros x Hx Hr. apply elem_of_list_In in Hx. apply elem_of_list_In, Rr in Hr as (_ & X & _). contradiction.
  - intros x H. rewrite B in H. apply in_app_iff in H as [H|H]; [exact (j_lt _ _ I x H)|exact (Rlt x H)].
  - intros x L H. rewrite B, in_app_iff in H. assert (Ht : ~ In x topo) by tauto. rewrite D, Vt, (proj2 (inb_false topo x) Ht). cbn [negb]. rewrite andb_true_r. destruct (inb (bfs_fanouts net n) x) eqn:Hc.
    + apply inb_true, fanout_in in Hc. rewrite (proj1 (Nx x Hc Ht)). reflexivity.
    + apply inb_false in Hc. rewrite fanout_in in Hc. rewrite (j_count _ _ I x L Ht), (dn_more (F x) done n Nn), (proj2 (inb_false (F x) n) Hc), Nat.add_0_r. reflexivity.
  - intros x L H. rewrite B, in_app_iff in H. assert (Ht : ~ In x topo) by tauto. pose proof (dn_le (F x) (done ++ [n])) as Le. destruct (in_dec Nat.eq_dec n (F x)) as [Hc|Hc].
    + assert (dn (F x) (done ++ [n]) <> length (F x)); [|lia]. intros X. apply H. right. apply Rr. split; [exact Hc|]. split; [exact Ht|exact X].
    + rewrite (dn_more (F x) done n Nn), (proj2 (inb_false (F x) n) Hc), Nat.add_0_r. exact (j_rest _ _ I x L Ht).
  - intros i x c Hi Hc. rewrite B in *. apply lookup_app_Some in Hi as [Hi|[Li Hi]].
    + destruct (j_after _ _ I i x c Hi Hc) as (j & Lj & Hj). exists j. split; [exact Lj|]. apply lookup_app_l_Some. exact Hj.
    + assert (Hx : In x r) by (apply in_at; eexists; exact Hi). pose proof (proj2 (Rd x Hx) c Hc) as Dc. apply Sub, in_at in Dc as [j Hj]. exists j. pose proof (lookup_lt_Some _ _ _ Hj). split; [lia|]. apply lookup_app_l_Some. exact Hj.
  - intros x H. rewrite B in H. apply in_app_iff in H as [H|H]; [exact (j_clean _ _ I x H)|]. destruct (Rd x H) as [Nd Dc]. apply distinct_step. split; [exact Nd|]. intros c Hc. apply (j_clean _ _ I). exact (Sub c (Dc c Hc)).
  - destruct (j_src _ _ I) as (r0 & E0 & G0). fold topo in E0. exists (r0 ++ r). split; [rewrite B, E0; cbn; rewrite <- app_assoc; reflexivity|]. intros x H. apply in_app_iff in H as [H|H]; [exact (G0 x H)|]. apply Rr in H as (H & _). destruct (fanin_gate net x n H) as (lit & ch & Ex & _). exists lit, ch. exact Ex.
  - intros i j a b ka kb Lij Ha Hb La Lb. rewrite B in Ha, Hb. apply lookup_app_Some in Hb as [Hb|[Ljt Hb]].
    + pose proof (lookup_lt_Some _ _ _ Hb). rewrite lookup_app_l in Ha by lia. exact (j_lev _ _ I i j a b ka kb Lij Ha Hb La Lb).
    + rewrite (Lr b kb); [|apply in_at; eexists; exact Hb|exact Lb]. apply lookup_app_Some in Ha as [Ha|[_ Ha]]; [apply (Old a ka); [apply in_at; eexists; exact Ha|exact La]|]. rewrite (Lr a ka); [lia|apply in_at; eexists; exact Ha|exact La].
  - intros x q' Ex a ka kx Ha La Lx. rewrite A in Ex. assert (Kx : kn <= kx) by (apply (Qn x); [rewrite Ex; left; reflexivity|exact Lx]). rewrite B in Ha. apply in_app_iff in Ha as [Ha|Ha]; [pose proof (Old a ka Ha La); lia|rewrite (Lr a ka Ha La); lia].
Qed.
Lemma topo_len done st : J done st -> length (b_topo st) <= len.
Proof using.
  intros I. rewrite <- (seq_length len 0). apply NoDup_incl_length; [exact (j_once _ _ I)|]. intros x Hx. apply in_seq. pose proof (j_lt _ _ I x Hx). lia.
Qed.
Lemma loop_J fuel : forall done st, J done st -> len <= length done + fuel -> exists st', bfs_loop net fuel st = Some st' /\ b_queue st' = [] /\ J (b_topo st') st'.
Proof using Hnet Hall F32 Hf.
  induction fuel as [|fuel IH]; intros done st I L; cbn [bfs_loop]; destruct (b_queue st) as [|n q] eqn:Eq.
  1, 3: exists st; split; [reflexivity|]; split; [exact Eq|]; pose proof (j_topo _ _ I) as T; rewrite Eq, app_nil_r in T; rewrite T; exact I.
  - pose proof (topo_len done st I) as X. rewrite (j_topo _ _ I), Eq, app_length in X. cbn [length] in X. lia.
  - apply (IH (done ++ [n])); [exact (step_J done st n q I Eq)|]. rewrite app_length. cbn [length]. lia.
Qed.
Lemma listed_all st n : J (b_topo st) st -> n < len -> distinct_below net n -> In n (b_topo st).
Proof using Hnet Hall.
  intros I. remember (rank order n) as k eqn:Ek. revert n Ek. induction k as [k IH] using lt_wf_ind. intros n -> L D. destruct (in_dec Nat.eq_dec n (b_topo st)) as [H|H]; [exact H|exfalso]. apply distinct_step in D as [Nd D].
  pose proof (j_rest _ _ I n L H) as R. assert (X : dn (F n) (b_topo st) = length (F n)); [|lia]. apply dn_full. split; [exact Nd|]. intros c Hc. destruct (fanin_known net order Hnet n c (in_known net order n Hnet Hall L) Hc) as (_ & _ & Rc).
  apply (IH (rank order c) Rc c eq_refl); [exact (fanin_lt net n c complete_net Hc)|exact (D c Hc)].
Qed.
Lemma topo_ok : exists l, topo_order net = Some l /\ breadth_first net l /\ forall n, In n l <-> n < len /\ distinct_below net n.
Proof using Hnet Hall F32 Hf.
  destruct (loop_J len [] (bfs_start net) start_J ltac:(cbn; lia)) as (st & E & _ & I). exists (b_topo st). unfold topo_order. rewrite E. split; [reflexivity|]. split.
  - constructor; [exact (j_once _ _ I)|exact (j_lt _ _ I)|exact (j_after _ _ I)|exact (j_lev _ _ I)|exact (j_src _ _ I)].
  - intros n. split; [intros H; split; [exact (j_lt _ _ I n H)|exact (j_clean _ _ I n H)]|intros [L D]; exact (listed_all st n I L D)].
Qed.
End Loop.
