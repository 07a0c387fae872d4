(** Property theorems for fan-out substitution (C69, C70, C71). *)
From Coq Require Import ZArith Bool List Lia.
From stdpp Require Import gmap list.
From Verif Require Import FanoutModel FanoutSpec FanoutProofs FanoutProofs2 FanoutProofs3 FanoutProofs4.
Import ListNotations.

(** *** C69: the substituted network computes the same functions *)
(** For every strategy and every sequence of random numbers; the result is again a network in topological order. *)
Theorem C69_substitution_preserves_function_partial sem net order ps rnd : buffers sem -> network net order -> small net ps -> 2 <= ps_degree ps ->
  exists net', fanout_substitution net order ps rnd = Some net' /\ equivalent sem net net' /\
    network net' (seq (2 + length (t_pis net)) (length (t_nodes net') - (2 + length (t_pis net)))).
Proof.
  intros Hb Hn Hs Hd. destruct (run_equivalent sem Hb net order Hn ps rnd Hd Hs) as (net' & E & Q). exists net'. split; [exact E|]. split; [exact Q|].
  exact (proj1 (run_network sem Hb net order Hn ps rnd Hd Hs net' E)).
Qed.
Print Assumptions C69_substitution_preserves_function_partial.

(** *** C70: nodes have no more outputs than allowed *)
Theorem C70_limits_hold_partial net order ps rnd net' : network net order -> small net ps -> 2 <= ps_degree ps -> 1 <= ps_threshold ps <= ps_degree ps -> simple_fanins net ->
  fanout_substitution net order ps rnd = Some net' -> within_limits net' (ps_degree ps) (ps_threshold ps).
Proof.
  intros Hn Hs Hd Ht Hf E. assert (Hb : buffers (fun _ vs => match vs with [b] => Some b | _ => None end)) by (intros b; reflexivity).
  exact (run_limits _ Hb net order Hn ps rnd Hd Hs net' E Ht Hf).
Qed.
Print Assumptions C70_limits_hold_partial.
(** The check finds exactly the networks within the limits. *)
Theorem C70_check_exact net ps : 1 <= ps_threshold ps -> 1 <= ps_degree ps ->
  is_fanout_substituted net ps = true <-> within_limits net (ps_degree ps) (ps_threshold ps).
Proof.
  intros Ht Hd. rewrite check_iff by exact Ht. unfold within_limits. split; intros H n x Hx; specialize (H n x Hx); (destruct x as [b| |lit ch]; [exact Logic.I|exact H|]); destruct lit as [|[|[|]]]; try exact H; lia.
Qed.
Print Assumptions C70_check_exact.

(** *** C71: how many buffers are added *)
Theorem C71_number_of_buffers net order ps rnd net' : network net order -> small net ps -> 2 <= ps_degree ps -> fanout_substitution net order ps rnd = Some net' ->
  length (t_nodes net') = 2 + length (t_pis net) + length order +
    list_sum (map (fun n => if fine_buffer net (ps_degree ps) n then 0 else buffers_for net (ps_degree ps) (ps_threshold ps) n) (t_pis net ++ order)).
Proof.
  intros Hn Hs Hd E. assert (Hb : buffers (fun _ vs => match vs with [b] => Some b | _ => None end)) by (intros b; reflexivity).
  rewrite (run_size _ Hb net order Hn ps rnd Hd Hs net' E). f_equal. apply list_sum_ext. intros n _. unfold kk, fine_buffer, is_fanout, is_buf, buffers_for. rewrite used_fsize. fold (fanout_size net n).
  assert (K : num_fanouts net ps n = (fanout_size net n - ps_threshold ps + (ps_degree ps - 2)) / (ps_degree ps - 1)).
  { unfold num_fanouts. destruct Hs as (S1 & S2 & S3). rewrite !(i32_small ps Hd) by (specialize (S3 n); lia). apply Nat2Z.inj. rewrite Nat2Z.inj_div, Z2Nat.id; [f_equal; lia|]. apply Z.div_pos; lia. }
  rewrite K. destruct (t_nodes net !! n) as [[b| |[|[|[|lit]]] ch]|]; reflexivity.
Qed.
Print Assumptions C71_number_of_buffers.

(** No tree of buffers with fewer buffers serves as many uses: if a node [r] and [k] buffers fed by each other or by [r] are used [m] times by anything else, and
    [r] is used at most [threshold] times and each buffer at most [degree] times, then [k] is at least the number of buffers above. *)
Definition outside (net : tnet) (T : list nat) (i : nat) : nat :=
  list_sum (map (fun j => if in_dec Nat.eq_dec j T then 0 else count_occ Nat.eq_dec (t_fanins net j) i) (seq 0 (length (t_nodes net)))) + count_occ Nat.eq_dec (t_pos net) i.

Lemma used_outside net T bufs i : List.NoDup bufs -> (forall b, In b bufs -> In b T /\ b < length (t_nodes net)) ->
  outside net T i + list_sum (map (fun b => count_occ Nat.eq_dec (t_fanins net b) i) bufs) <= used net i.
Proof.
  intros ND Hb. rewrite used_fsize. unfold outside, fsize. rewrite (sum_nodes (fun x => count_occ Nat.eq_dec (t_children x) i)).
  set (g := fun j => count_occ Nat.eq_dec (t_fanins net j) i).
  rewrite (list_sum_ext (fun j => match t_nodes net !! j with Some x => count_occ Nat.eq_dec (t_children x) i | None => 0 end) (fun j => (if in_dec Nat.eq_dec j T then 0 else g j) + (if in_dec Nat.eq_dec j T then g j else 0))).
  2:{ intros j _. unfold g, t_fanins. destruct (t_nodes net !! j), (in_dec Nat.eq_dec j T); cbn; lia. }
  rewrite list_sum_plus. enough (list_sum (map g bufs) <= list_sum (map (fun j => if in_dec Nat.eq_dec j T then g j else 0) (seq 0 (length (t_nodes net))))) by (unfold g in *; lia).
  rewrite (list_sum_ext g (fun j => if in_dec Nat.eq_dec j T then g j else 0) bufs) by (intros j Hj; destruct (in_dec Nat.eq_dec j T) as [|N]; [reflexivity|destruct N; apply (Hb j Hj)]).
  apply list_sum_submseteq, NoDup_submseteq; [apply NoDup_ListNoDup, ND|]. intros x Hx. apply elem_of_list_In in Hx. apply elem_of_list_In, in_seq. specialize (Hb x Hx). lia.
Qed.
Lemma sum_swap (f : nat -> nat -> nat) l1 l2 : list_sum (map (fun i => list_sum (map (fun j => f i j) l2)) l1) = list_sum (map (fun j => list_sum (map (fun i => f i j) l1)) l2).
Proof.
  induction l1 as [|a l1 IH].
  - cbn. induction l2 as [|b l2 IH2]; [reflexivity|exact IH2].
  - change (list_sum (map (fun j => f a j) l2) + list_sum (map (fun i => list_sum (map (fun j => f i j) l2)) l1) = list_sum (map (fun j => f a j + list_sum (map (fun i => f i j) l1)) l2)).
    rewrite IH. symmetry. apply (list_sum_plus (fun j => f a j) (fun j => list_sum (map (fun i => f i j) l1))).
Qed.
Lemma list_sum_le {A} (f g : A -> nat) l : (forall x, In x l -> f x <= g x) -> list_sum (map f l) <= list_sum (map g l).
Proof. unfold list_sum. induction l as [|a l IH]; intros H; [reflexivity|]. cbn in *. specialize (IH ltac:(intros x Hx; apply H; right; exact Hx)). specialize (H a (or_introl eq_refl)). lia. Qed.
Theorem C71_fewest_buffers net degree threshold r bufs : 2 <= degree -> List.NoDup (r :: bufs) ->
  (forall b, In b bufs -> exists c, In c (r :: bufs) /\ t_nodes net !! b = Some (TGate 2 [c])) ->
  used net r <= threshold -> (forall b, In b bufs -> used net b <= degree) ->
  (list_sum (map (outside net (r :: bufs)) (r :: bufs)) - threshold + (degree - 2)) / (degree - 1) <= length bufs.
Proof.
  intros Hd ND Hb Hr Hu. set (T := r :: bufs) in *. set (m := list_sum (map (outside net T) T)).
  assert (NDb : List.NoDup bufs) by (inversion ND; assumption).
  assert (A : m + length bufs <= list_sum (map (used net) T)).
  { transitivity (list_sum (map (fun i => outside net T i + list_sum (map (fun b => count_occ Nat.eq_dec (t_fanins net b) i) bufs)) T)).
    - rewrite list_sum_plus. fold m. apply Nat.add_le_mono_l. rewrite (sum_swap (fun i b => count_occ Nat.eq_dec (t_fanins net b) i)).
      transitivity (list_sum (map (fun _ : nat => 1) bufs)); [clear; unfold list_sum; induction bufs as [|a l IH]; [reflexivity|]; cbn in *; lia|]. apply list_sum_le. intros b Hin. destruct (Hb b Hin) as (c & Hc & E). unfold t_fanins. rewrite E. cbn [t_children].
      rewrite (list_sum_ext _ (fun i => if Nat.eq_dec c i then 1 else 0)) by (intros i _; cbn; destruct (Nat.eq_dec c i); reflexivity). rewrite sum_one by exact ND. destruct (in_dec Nat.eq_dec c T); [reflexivity|contradiction].
    - apply list_sum_le. intros i _. apply used_outside; [exact NDb|]. intros b Hin. split; [right; exact Hin|]. destruct (Hb b Hin) as (c & _ & E). eapply lookup_lt_Some, E. }
  assert (B : list_sum (map (used net) T) <= threshold + length bufs * degree).
  { unfold T. cbn [map list_sum fold_right]. fold (list_sum (map (used net) bufs)). apply Nat.add_le_mono; [exact Hr|]. clear - Hu. unfold list_sum. induction bufs as [|b l IH]; [reflexivity|]. cbn in *. pose proof (Hu b (or_introl eq_refl)). specialize (IH ltac:(intros x Hx; apply Hu; right; exact Hx)). lia. }
  assert (C : m - threshold <= length bufs * (degree - 1)) by nia. transitivity ((length bufs * (degree - 1) + (degree - 2)) / (degree - 1)); [apply Nat.div_le_mono; lia|]. rewrite Nat.div_add_l by lia. rewrite (Nat.div_small (degree - 2)) by lia. lia.
Qed.
Print Assumptions C71_fewest_buffers.

(** *** Examples *)
Lemma nodup_by (l : list nat) : bool_decide (base.NoDup l) = true -> List.NoDup l.
Proof. intros H. apply NoDup_ListNoDup. apply bool_decide_eq_true in H. exact H. Qed.
(** The meaning of the literals used below: 2 identity, 3 inverter, 4 and, 6 or (technology_network.hpp:84-151). *)
Definition sem_ex (lit : nat) (vs : list bool) : option bool :=
  match lit, vs with 2, [a] => Some a | 3, [a] => Some (negb a) | 4, [a; b] => Some (a && b) | 6, [a; b] => Some (a || b) | _, _ => None end.
Lemma sem_ex_buffers : buffers sem_ex.
Proof. intros b. reflexivity. Qed.
(** a is used five times, among them as an output and by a gate that is itself used three times; constants are used too. *)
Definition net_ex : tnet := mkT [TConst false; TConst true; TPi; TPi; TGate 4 [2; 3]; TGate 6 [4; 2]; TGate 3 [2]; TGate 4 [6; 4]; TGate 6 [2; 1]; TGate 6 [7; 8]] [2; 3] [9; 5; 4; 2; 0].
Definition order_ex : list nat := [4; 5; 6; 7; 8; 9].
Definition ps_ex s : fparams := mkP s 2 1.
Ltac each n H tac := repeat (destruct n as [|n]; [try discriminate H; tac|]); try discriminate H.
Lemma net_ex_ok : network net_ex order_ex.
Proof.
  constructor; try reflexivity.
  - intros n b H. do 2 (destruct n as [|n]; [lia|]). do 8 (destruct n as [|n]; [discriminate H|]). discriminate H.
  - intros n. split; [intros [<-|[<-|[]]]; reflexivity|]. intros H. do 10 (destruct n as [|n]; [try discriminate H; cbn; auto|]). discriminate H.
  - apply nodup_by. vm_compute. reflexivity.
  - apply nodup_by. vm_compute. reflexivity.
  - intros n H. cbn in H. repeat (destruct H as [<-|H]; [do 2 eexists; split; [reflexivity|discriminate]|]). destruct H.
  - intros i n c Hi Hc. assert (K : forallb (fun i => forallb (fun c => match t_nodes net_ex !! c with Some (TGate _ _) => existsb (fun j => match order_ex !! j with Some x => Nat.eqb x c | None => false end) (seq 0 i) | Some _ => true | None => false end) (t_fanins net_ex (default 0 (order_ex !! i)))) (seq 0 6) = true) by (vm_compute; reflexivity).
    rewrite forallb_forall in K. assert (Hl : i < 6) by (apply lookup_lt_Some in Hi; exact Hi). specialize (K i ltac:(apply in_seq; lia)). rewrite Hi in K. cbn [default] in K. rewrite forallb_forall in K. specialize (K c Hc). destruct (t_nodes net_ex !! c) as [[| |]|]; try exact Logic.I; [|discriminate K].
    apply existsb_exists in K as (j & Hj & E). apply in_seq in Hj. exists j. split; [lia|]. destruct (order_ex !! j) as [x|]; [|discriminate E]. apply Nat.eqb_eq in E. congruence.
  - intros c H. cbn in H. repeat (destruct H as [<-|H]; [vm_compute; tauto|]). destruct H.
Qed.
Lemma small_by net ps : forallb (fun n => Z.ltb (Z.of_nat (fanout_size net n)) (2 ^ 31)) (seq 0 (length (t_nodes net))) = true -> scoped (t_nodes net) (t_pos net) ->
  (Z.of_nat (ps_degree ps) < 2 ^ 31)%Z -> (Z.of_nat (ps_threshold ps) < 2 ^ 31)%Z -> small net ps.
Proof.
  intros H S A B. split; [exact A|]. split; [exact B|]. intros n. destruct (Nat.lt_ge_cases n (length (t_nodes net))) as [Hn|Hn].
  - rewrite forallb_forall in H. apply Z.ltb_lt, H, in_seq. lia.
  - unfold fanout_size. rewrite fsize_fresh by assumption. reflexivity.
Qed.
Definition scoped_b (net : tnet) : bool :=
  forallb (fun i => forallb (fun c => Nat.ltb c i) (t_fanins net i)) (seq 0 (length (t_nodes net))) && forallb (fun c => Nat.ltb c (length (t_nodes net))) (t_pos net).
Lemma scoped_by net : scoped_b net = true -> scoped (t_nodes net) (t_pos net).
Proof.
  unfold scoped_b. rewrite andb_true_iff, !forallb_forall. intros [A B]. split.
  - intros i x c Hx Hc. specialize (A i ltac:(apply in_seq; apply lookup_lt_Some in Hx; lia)). unfold t_fanins in A. rewrite Hx, forallb_forall in A. apply Nat.ltb_lt, A, Hc.
  - intros c Hc. apply Nat.ltb_lt, B, Hc.
Qed.
Lemma net_ex_small s : small net_ex (ps_ex s).
Proof. apply small_by; [vm_compute; reflexivity|apply scoped_by; vm_compute; reflexivity|reflexivity|reflexivity]. Qed.
Example C69_nonvacuous : buffers sem_ex /\ network net_ex order_ex /\ (forall s, small net_ex (ps_ex s)) /\
  (exists env a b, value sem_ex net_ex env 9 true /\ value sem_ex net_ex (fun k => negb (env k)) 5 a /\ a = b) /\
  match fanout_substitution net_ex order_ex (ps_ex BREADTH) (fun _ => 0), fanout_substitution net_ex order_ex (ps_ex DEPTH) (fun _ => 0), fanout_substitution net_ex order_ex (ps_ex RANDOM) (fun k => k) with
  | Some a, Some b, Some c => t_fanins a 8 = [5; 3] /\ t_fanins b 8 = [4; 3] /\ length (t_nodes c) = 16 | _, _, _ => False end.
Proof.
  split; [exact sem_ex_buffers|]. split; [exact net_ex_ok|]. split; [exact net_ex_small|]. split.
  - exists (fun _ => true), false, false. split; [|split; [|reflexivity]].
    + apply value_gate with 6 [7; 8] [false; true]; [reflexivity| |reflexivity]. constructor; [|constructor; [|constructor]].
      * apply value_gate with 4 [6; 4] [false; true]; [reflexivity| |reflexivity]. constructor; [|constructor; [|constructor]].
        -- apply value_gate with 3 [2] [true]; [reflexivity| |reflexivity]. constructor; [|constructor]. exact (value_input sem_ex net_ex (fun _ => true) 2 0 eq_refl eq_refl).
        -- apply value_gate with 4 [2; 3] [true; true]; [reflexivity| |reflexivity]. constructor; [exact (value_input sem_ex net_ex (fun _ => true) 2 0 eq_refl eq_refl)|constructor; [exact (value_input sem_ex net_ex (fun _ => true) 3 1 eq_refl eq_refl)|constructor]].
      * apply value_gate with 6 [2; 1] [true; true]; [reflexivity| |reflexivity]. constructor; [exact (value_input sem_ex net_ex (fun _ => true) 2 0 eq_refl eq_refl)|constructor; [apply value_const; reflexivity|constructor]].
    + apply value_gate with 6 [4; 2] [false; false]; [reflexivity| |reflexivity]. constructor; [|constructor; [exact (value_input sem_ex net_ex (fun _ => negb true) 2 0 eq_refl eq_refl)|constructor]].
      apply value_gate with 4 [2; 3] [false; false]; [reflexivity| |reflexivity]. constructor; [exact (value_input sem_ex net_ex (fun _ => negb true) 2 0 eq_refl eq_refl)|constructor; [exact (value_input sem_ex net_ex (fun _ => negb true) 3 1 eq_refl eq_refl)|constructor]].
  - vm_compute. split; [reflexivity|]. split; reflexivity.
Qed.
Lemma net_ex_simple : simple_fanins net_ex.
Proof.
  intros n lit ch H. do 10 (destruct n as [|n]; [try discriminate H; injection H as <- <-; apply nodup_by; vm_compute; reflexivity|]). discriminate H.
Qed.
Example C70_nonvacuous : simple_fanins net_ex /\ is_fanout_substituted net_ex (ps_ex BREADTH) = false /\
  match fanout_substitution net_ex order_ex (ps_ex BREADTH) (fun _ => 0) with Some a => is_fanout_substituted a (ps_ex BREADTH) = true | None => False end.
Proof. split; [exact net_ex_simple|]. split; vm_compute; reflexivity. Qed.
Example C71_nonvacuous : map (buffers_for net_ex 2 1) [2; 3; 4] = [4; 0; 2] /\ map (buffers_for net_ex 3 1) [2; 3; 4] = [2; 0; 1].
Proof. split; vm_compute; reflexivity. Qed.

(** *** What fails *)
(** With degree 1 an input that is used three times exhausts the queue of buffers: [front] of an empty queue. *)
Definition net_three : tnet := mkT [TConst false; TConst true; TPi; TGate 3 [2]; TGate 2 [2]; TGate 3 [2]] [2] [3; 4; 5].
Theorem C69_degree_one_refuted : exists net order, network net order /\ small net (mkP BREADTH 1 1) /\ simple_fanins net /\ fanout_substitution net order (mkP BREADTH 1 1) (fun _ => 0) = None /\
  fanout_substitution net order (mkP DEPTH 1 1) (fun _ => 0) = None.
Proof.
  exists net_three, [3; 4; 5]. split; [|split; [|split; [|split; vm_compute; reflexivity]]].
  - constructor; try reflexivity.
    + intros n b H. do 2 (destruct n as [|n]; [lia|]). do 4 (destruct n as [|n]; [discriminate H|]). discriminate H.
    + intros n. split; [intros [<-|[]]; reflexivity|]. intros H. do 6 (destruct n as [|n]; [try discriminate H; cbn; auto|]). discriminate H.
    + apply nodup_by. vm_compute. reflexivity.
    + apply nodup_by. vm_compute. reflexivity.
    + intros n H. cbn in H. repeat (destruct H as [<-|H]; [do 2 eexists; split; [reflexivity|discriminate]|]). destruct H.
    + intros i n c Hi Hc. do 3 (destruct i as [|i]; [injection Hi as <-; destruct Hc as [<-|[]]; exact Logic.I|]). discriminate Hi.
    + intros c H. cbn in H. repeat (destruct H as [<-|H]; [vm_compute; tauto|]). destruct H.
  - apply small_by; [vm_compute; reflexivity|apply scoped_by; vm_compute; reflexivity|reflexivity|reflexivity].
  - intros n lit ch H. do 6 (destruct n as [|n]; [try discriminate H; injection H as <- <-; apply nodup_by; vm_compute; reflexivity|]). discriminate H.
Qed.

(** A gate that has the same fan-in twice: both fan-ins are looked up before either is counted, so that a buffer gets too many outputs. *)
Definition net_twice : tnet := mkT [TConst false; TConst true; TPi; TPi; TGate 6 [2; 2]; TGate 4 [2; 3]] [2; 3] [4; 5].
Theorem C70_equal_fanins_refuted : exists net order, network net order /\ small net (mkP BREADTH 2 1) /\
  match fanout_substitution net order (mkP BREADTH 2 1) (fun _ => 0) with Some net' => is_fanout_substituted net' (mkP BREADTH 2 1) = false /\ ~ within_limits net' 2 1 | None => False end.
Proof.
  exists net_twice, [4; 5]. split; [|split].
  - constructor; try reflexivity.
    + intros n b H. do 2 (destruct n as [|n]; [lia|]). do 4 (destruct n as [|n]; [discriminate H|]). discriminate H.
    + intros n. split; [intros [<-|[<-|[]]]; reflexivity|]. intros H. do 6 (destruct n as [|n]; [try discriminate H; cbn; auto|]). discriminate H.
    + apply nodup_by. vm_compute. reflexivity.
    + apply nodup_by. vm_compute. reflexivity.
    + intros n H. cbn in H. repeat (destruct H as [<-|H]; [do 2 eexists; split; [reflexivity|discriminate]|]). destruct H.
    + intros i n c Hi Hc. do 2 (destruct i as [|i]; [injection Hi as <-; destruct Hc as [<-|[<-|[]]]; exact Logic.I|]). discriminate Hi.
    + intros c H. cbn in H. repeat (destruct H as [<-|H]; [vm_compute; tauto|]). destruct H.
  - apply small_by; [vm_compute; reflexivity|apply scoped_by; vm_compute; reflexivity|reflexivity|reflexivity].
  - destruct (fanout_substitution net_twice [4; 5] (mkP BREADTH 2 1) (fun _ => 0)) as [net'|] eqn:E; [|vm_compute in E; discriminate E].
    assert (C : is_fanout_substituted net' (mkP BREADTH 2 1) = false) by (revert E; vm_compute; intros [= <-]; reflexivity).
    split; [exact C|]. intros W. apply (C70_check_exact net' (mkP BREADTH 2 1)) in W; [congruence|cbn; lia|cbn; lia].
Qed.
(** A threshold above the degree: a buffer of the source that is used more often than the degree allows is taken for a gate. *)
Definition net_tbuf : tnet := mkT [TConst false; TConst true; TPi; TGate 2 [2]] [2] [3; 3; 3].
Theorem C70_threshold_above_degree_refuted : exists net order, network net order /\ small net (mkP BREADTH 2 3) /\ simple_fanins net /\
  match fanout_substitution net order (mkP BREADTH 2 3) (fun _ => 0) with Some net' => is_fanout_substituted net' (mkP BREADTH 2 3) = false /\ ~ within_limits net' 2 3 | None => False end.
Proof.
  exists net_tbuf, [3]. split; [|split; [|split]].
  - constructor; try reflexivity.
    + intros n b H. do 2 (destruct n as [|n]; [lia|]). do 2 (destruct n as [|n]; [discriminate H|]). discriminate H.
    + intros n. split; [intros [<-|[]]; reflexivity|]. intros H. do 4 (destruct n as [|n]; [try discriminate H; cbn; auto|]). discriminate H.
    + apply nodup_by. vm_compute. reflexivity.
    + apply nodup_by. vm_compute. reflexivity.
    + intros n H. cbn in H. repeat (destruct H as [<-|H]; [do 2 eexists; split; [reflexivity|discriminate]|]). destruct H.
    + intros i n c Hi Hc. destruct i as [|i]; [injection Hi as <-; destruct Hc as [<-|[]]; exact Logic.I|]. discriminate Hi.
    + intros c H. cbn in H. repeat (destruct H as [<-|H]; [vm_compute; tauto|]). destruct H.
  - apply small_by; [vm_compute; reflexivity|apply scoped_by; vm_compute; reflexivity|reflexivity|reflexivity].
  - intros n lit ch H. do 4 (destruct n as [|n]; [try discriminate H; injection H as <- <-; apply nodup_by; vm_compute; reflexivity|]). discriminate H.
  - destruct (fanout_substitution net_tbuf [3] (mkP BREADTH 2 3) (fun _ => 0)) as [net'|] eqn:E; [|vm_compute in E; discriminate E].
    assert (C : is_fanout_substituted net' (mkP BREADTH 2 3) = false) by (revert E; vm_compute; intros [= <-]; reflexivity).
    split; [exact C|]. intros W. apply (C70_check_exact net' (mkP BREADTH 2 3)) in W; [congruence|cbn; lia|cbn; lia].
Qed.
