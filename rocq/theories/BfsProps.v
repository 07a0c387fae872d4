(** C100: breadth-first topological views list nodes after their fan-ins and by levels. *)
From Coq Require Import ZArith Bool List Permutation Lia.
From stdpp Require Import gmap list.
From Verif Require Import FanoutModel FanoutSpec DepthSpec DepthModel DepthProofs DepthProofs2 DepthProps RankModel RankSpec RankProofs2 RankProps BfsModel BfsSpec BfsProofs BfsProofs2.
From Coq Require Import List.
Import ListNotations.

(** The order always exists. It lists constants, inputs and then gates, each node once, after its fan-ins and by levels; it lists exactly the nodes
    that depend on no gate that has a fan-in twice. *)
Theorem C100_order : forall net, complete net -> fits_32 net -> (forall n, (Z.of_nat (length (t_fanins net n)) < 2 ^ 32)%Z) ->
  exists l, topo_order net = Some l /\ breadth_first net l /\ forall n, In n l <-> n < length (t_nodes net) /\ distinct_below net n.
Proof. intros net (order & N & A) F Hf. exact (topo_ok net order N A F Hf). Qed.
Print Assumptions C100_order.

(** If no gate has a fan-in twice, all nodes are listed. *)
Theorem C100_all : forall net, complete net -> fits_32 net -> (forall n, List.NoDup (t_fanins net n)) -> exists l, topo_order net = Some l /\ breadth_first net l /\ Permutation l (seq 0 (length (t_nodes net))).
Proof.
  intros net C F N. destruct (C100_order net C F) as (l & E & B & M).
  - intros n. assert (length (t_fanins net n) <= length (t_nodes net)); [|unfold fits_32 in F; lia]. rewrite <- (seq_length (length (t_nodes net)) 0). apply NoDup_incl_length; [exact (N n)|]. intros c Hc. apply in_seq. pose proof (fanin_lt net n c C Hc). lia.
  - exists l. split; [exact E|]. split; [exact B|]. apply Permutation.NoDup_Permutation; [exact (bf_once _ _ B)|apply seq_NoDup|]. intros n. rewrite M, in_seq. split; [intros [L _]; lia|intros L; split; [lia|]]. intros m _. apply N.
Qed.
Print Assumptions C100_all.

Lemma find_at l n : In n l -> l !! find_index l n = Some n /\ find_index l n < length l.
Proof.
  induction l as [|a l IH]; intros H; [destruct H|]. cbn [find_index length]. destruct (Nat.eqb_spec a n) as [->|Ne]; [split; [reflexivity|lia]|]. destruct H as [H|H]; [contradiction|]. destruct (IH H) as [A B]. split; [exact A|lia].
Qed.
Lemma find_none l n : ~ In n l -> find_index l n = length l.
Proof. induction l as [|a l IH]; intros H; [reflexivity|]. cbn [find_index length]. destruct (Nat.eqb_spec a n) as [->|Ne]; [elim H; left; reflexivity|]. f_equal. apply IH. intros X. apply H. right. exact X. Qed.

(** What a view tells follows its order: size and number of gates are exact, nodes and indices correspond, and gates are exactly the listed nodes that are gates. *)
Theorem C100_view : forall net l, complete net -> fits_32 net -> breadth_first net l ->
  bfs_size l = length l /\ bfs_foreach_node l = l /\ bfs_foreach_node_reverse l = rev l /\
  (forall n, In n l -> node_to_index l n < length l /\ index_to_node l (node_to_index l n) = Some n) /\ (forall n, ~ In n l -> node_to_index l n = length l) /\
  (forall i n, index_to_node l i = Some n -> node_to_index l n = i) /\
  bfs_foreach_gate net l = List.filter (fun n => match t_nodes net !! n with Some (TGate _ _) => true | _ => false end) l /\
  bfs_foreach_gate_reverse net l = rev (bfs_foreach_gate net l) /\ bfs_num_gates net l = length (bfs_foreach_gate net l).
Proof.
  intros net l (order & N & A) F B. destruct (bf_sources _ _ B) as (r & El & G).
  assert (Ll : length l <= length (t_nodes net)). { rewrite <- (seq_length (length (t_nodes net)) 0). apply NoDup_incl_length; [exact (bf_once _ _ B)|]. intros x Hx. apply in_seq. pose proof (bf_nodes _ _ B x Hx). lia. }
  unfold fits_32 in F. assert (Lr : length l = 2 + length (t_pis net) + length r) by (rewrite El; cbn; rewrite app_length; lia).
  assert (Off : gate_offset net = 2 + length (t_pis net)) by (unfold gate_offset; rewrite u32_small by lia; lia).
  assert (Fi : forall n, find_index l n <= length l) by (intros n; destruct (in_dec Nat.eq_dec n l) as [H|H]; [destruct (find_at l n H); lia|rewrite (find_none l n H); lia]).
  assert (Ni : forall n, node_to_index l n = find_index l n) by (intros n; unfold node_to_index; pose proof (Fi n); rewrite u32_small by lia; lia).
  assert (Sk : bfs_foreach_gate net l = r). { unfold bfs_foreach_gate. rewrite Off, El. cbn [plus skipn]. rewrite skipn_app, skipn_all, Nat.sub_diag. reflexivity. }
  split; [unfold bfs_size; rewrite u32_small by lia; lia|]. split; [reflexivity|]. split; [reflexivity|].
  split; [intros n H; rewrite Ni; destruct (find_at l n H) as [X Y]; split; [exact Y|exact X]|]. split; [intros n H; rewrite Ni; exact (find_none l n H)|].
  split. { intros i n H. rewrite Ni. unfold index_to_node in H. assert (In n l) as Hin by (apply in_at; exists i; exact H). destruct (find_at l n Hin) as [X _]. pose proof (bf_once _ _ B) as Nd. apply NoDup_ListNoDup in Nd. exact (NoDup_lookup l _ _ n Nd X H). }
  rewrite Sk. split; [|split].
  - rewrite El. change (0 :: 1 :: t_pis net ++ r) with ((0 :: 1 :: t_pis net) ++ r). rewrite filter_app. rewrite (filter_full _ r) by (intros x Hx; destruct (G x Hx) as (lit & ch & ->); reflexivity).
    assert (X : List.filter (fun n => match t_nodes net !! n with Some (TGate _ _) => true | _ => false end) (0 :: 1 :: t_pis net) = []); [|rewrite X; reflexivity].
    assert (Y : forall m, (forall x, In x m -> match t_nodes net !! x with Some (TGate _ _) => true | _ => false end = false) -> List.filter (fun n => match t_nodes net !! n with Some (TGate _ _) => true | _ => false end) m = []).
    { induction m as [|a m IH]; intros H; [reflexivity|]. cbn [List.filter]. rewrite (H a (or_introl eq_refl)). apply IH. intros x Hx. apply H. right. exact Hx. }
    apply Y. intros x Hx. apply (src_node net order N) in Hx as (y & -> & Hy). destruct y as [b| |lit ch]; [reflexivity|reflexivity|elim (Hy lit ch eq_refl)].
  - unfold bfs_foreach_gate_reverse. rewrite Off, Lr. replace (2 + length (t_pis net) + length r - (2 + length (t_pis net))) with (length r) by lia. rewrite El. change (0 :: 1 :: t_pis net ++ r) with ((0 :: 1 :: t_pis net) ++ r). rewrite rev_app_distr, <- (rev_length r), firstn_app, firstn_all, Nat.sub_diag. cbn [firstn]. apply app_nil_r.
  - unfold bfs_num_gates. rewrite Off, Lr, u32_small by lia. lia.
Qed.
Print Assumptions C100_view.

(** A network whose gates are not stored by levels: the gate 6 is above 5, and 7 above 6, but 8 is on inputs only. *)
Definition net_mixed : tnet := mkT [TConst false; TConst true; TPi; TPi; TPi; TGate 4 [2; 3]; TGate 12 [5; 4]; TGate 4 [6; 2]; TGate 4 [0; 4]] [2; 3; 4] [7; 8].
Lemma mixed_complete : complete net_mixed.
Proof.
  exists [5; 6; 7; 8]. split.
  - apply (network_of_list 3 [TGate 4 [2; 3]; TGate 12 [5; 4]; TGate 4 [6; 2]; TGate 4 [0; 4]] [7; 8]).
    + intros x Hx. cbn in Hx. destruct Hx as [<-|[<-|[<-|[<-|[]]]]]; eexists _, _; (split; [reflexivity|discriminate]).
    + split; [intros i x c Hi Hc; do 9 (destruct i as [|i]; [injection Hi as <-; cbn in Hc; lia|]); discriminate Hi|intros c Hc; cbn in *; lia].
  - intros n lit ch H. do 9 (destruct n as [|n]; [first [discriminate H|cbn; tauto]|]). discriminate H.
Qed.
Example C100_nonvacuous : complete net_mixed /\ fits_32 net_mixed /\ (forall n, List.NoDup (t_fanins net_mixed n)) /\ topo_order net_mixed = Some [0; 1; 2; 3; 4; 5; 8; 6; 7] /\
  bfs_foreach_gate net_mixed [0; 1; 2; 3; 4; 5; 8; 6; 7] = [5; 8; 6; 7] /\ node_to_index [0; 1; 2; 3; 4; 5; 8; 6; 7] 8 = 6.
Proof.
  split; [exact mixed_complete|]. split; [unfold fits_32; vm_compute; reflexivity|]. split; [|split; [vm_compute; reflexivity|split; vm_compute; reflexivity]].
  intros n. do 9 (destruct n as [|n]; [apply NoDup_ListNoDup; apply (bool_decide_unpack _); vm_compute; exact Logic.I|]). constructor.
Qed.

(** A gate that has a fan-in twice is not listed, and neither is what depends on it. *)
Theorem C100_twice_refuted : exists net l, complete net /\ fits_32 net /\ topo_order net = Some l /\ l = [0; 1; 2] /\ bfs_num_gates net l = 0 /\
  (exists g, t_nodes net !! 3 = Some (TGate 4 g)) /\ (exists h, t_nodes net !! 4 = Some (TGate 2 h) /\ List.NoDup h).
Proof.
  exists (mkT [TConst false; TConst true; TPi; TGate 4 [2; 2]; TGate 2 [3]] [2] [4]), [0; 1; 2]. split.
  - exists [3; 4]. split.
    + apply (network_of_list 1 [TGate 4 [2; 2]; TGate 2 [3]] [4]).
      * intros x Hx. cbn in Hx. destruct Hx as [<-|[<-|[]]]; eexists _, _; (split; [reflexivity|discriminate]).
      * split; [intros i x c Hi Hc; do 5 (destruct i as [|i]; [injection Hi as <-; cbn in Hc; lia|]); discriminate Hi|intros c Hc; cbn in *; lia].
    + intros n lit ch H. do 5 (destruct n as [|n]; [first [discriminate H|cbn; tauto]|]). discriminate H.
  - split; [unfold fits_32; vm_compute; reflexivity|]. split; [vm_compute; reflexivity|]. split; [reflexivity|]. split; [vm_compute; reflexivity|]. split; [eexists; reflexivity|]. eexists. split; [reflexivity|]. constructor; [intros []|constructor].
Qed.
Print Assumptions C100_twice_refuted.
