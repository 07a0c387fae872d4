(** Proofs about breadth-first topological orders. *)
From Coq Require Import ZArith Bool List Permutation Lia.
From stdpp Require Import gmap list.
From Verif Require Import FanoutModel FanoutSpec DepthSpec DepthModel DepthProofs DepthProofs2 RankModel RankSpec RankProofs2 BfsModel BfsSpec.
From Coq Require Import List.
Import ListNotations.

Definition inb (l : list nat) (c : nat) : bool := existsb (Nat.eqb c) l.
Lemma inb_true l c : inb l c = true <-> In c l.
Proof. unfold inb. rewrite existsb_exists. split; [intros (x & H & E); apply Nat.eqb_eq in E; subst x; exact H|intros H; exists c; split; [exact H|apply Nat.eqb_refl]]. Qed.
Lemma inb_false l c : inb l c = false <-> ~ In c l.
Proof. rewrite <- inb_true. symmetry. apply not_true_iff_false. Qed.

(** ** How many fan-ins are done *)

Definition dn (l done : list nat) : nat := length (List.filter (inb done) (List.nodup Nat.eq_dec l)).
Lemma nodup_le l : length (List.nodup Nat.eq_dec l) <= length l.
Proof. induction l as [|a l IH]; [reflexivity|]. cbn [List.nodup]. destruct (in_dec Nat.eq_dec a l); cbn [length]; lia. Qed.
Lemma nodup_eq l : length (List.nodup Nat.eq_dec l) = length l -> List.NoDup l.
Proof.
  induction l as [|a l IH]; intros H; [constructor|]. cbn [List.nodup] in H. pose proof (nodup_le l). destruct (in_dec Nat.eq_dec a l) as [i|i]; cbn [length] in H; [lia|]. constructor; [exact i|apply IH; lia].
Qed.
Lemma filter_le (f : nat -> bool) l : length (List.filter f l) <= length l.
Proof. induction l as [|a l IH]; [reflexivity|]. cbn [List.filter]. destruct (f a); cbn [length]; lia. Qed.
Lemma filter_all (f : nat -> bool) l : length (List.filter f l) = length l -> forall x, In x l -> f x = true.
Proof.
  induction l as [|a l IH]; intros H x Hx; [destruct Hx|]. cbn [List.filter] in H. pose proof (filter_le f l). destruct (f a) eqn:E; cbn [length] in H; [|lia]. destruct Hx as [<-|Hx]; [exact E|apply IH; [lia|exact Hx]].
Qed.
Lemma filter_full (f : nat -> bool) l : (forall x, In x l -> f x = true) -> List.filter f l = l.
Proof. induction l as [|a l IH]; intros H; [reflexivity|]. cbn [List.filter]. rewrite (H a (or_introl eq_refl)), IH; [reflexivity|intros x Hx; apply H; right; exact Hx]. Qed.
Lemma dn_le l done : dn l done <= length l.
Proof. unfold dn. pose proof (filter_le (inb done) (List.nodup Nat.eq_dec l)). pose proof (nodup_le l). lia. Qed.
Lemma dn_full l done : dn l done = length l <-> List.NoDup l /\ forall c, In c l -> In c done.
Proof.
  unfold dn. pose proof (filter_le (inb done) (List.nodup Nat.eq_dec l)). pose proof (nodup_le l). split.
  - intros E. split; [apply nodup_eq; lia|]. intros c Hc. apply inb_true. apply (filter_all (inb done) (List.nodup Nat.eq_dec l)); [lia|apply nodup_In; exact Hc].
  - intros [N A]. rewrite nodup_fixed_point by exact N. rewrite filter_full; [reflexivity|]. intros x Hx. apply inb_true, A, Hx.
Qed.
Lemma filter_one (f g : nat -> bool) n l : List.NoDup l -> f n = false -> g n = true -> (forall x, x <> n -> g x = f x) -> length (List.filter g l) = length (List.filter f l) + if inb l n then 1 else 0.
Proof.
  intros N F G E. induction l as [|a l IH]; [reflexivity|]. inversion N as [|? ? Na Nl]; subst. specialize (IH Nl). cbn [List.filter]. destruct (Nat.eq_dec a n) as [->|Ne].
  - rewrite F, G. cbn [length]. rewrite IH, (proj2 (inb_false l n) Na), (proj2 (inb_true (n :: l) n) (or_introl eq_refl)). lia.
  - rewrite (E a Ne). assert (X : inb (a :: l) n = inb l n). { unfold inb. cbn [existsb]. destruct (Nat.eqb_spec n a); [congruence|reflexivity]. } rewrite X. destruct (f a); cbn [length]; lia.
Qed.
Lemma dn_more l done n : ~ In n done -> dn l (done ++ [n]) = dn l done + if inb l n then 1 else 0.
Proof.
  intros H. unfold dn. rewrite (filter_one (inb done) (inb (done ++ [n])) n).
  - f_equal. destruct (inb l n) eqn:E; [apply inb_true in E|apply inb_false in E].
    + rewrite (proj2 (inb_true (List.nodup Nat.eq_dec l) n)); [reflexivity|]. apply nodup_In. exact E.
    + rewrite (proj2 (inb_false (List.nodup Nat.eq_dec l) n)); [reflexivity|]. intros X. apply E. apply nodup_In in X. exact X.
  - apply NoDup_nodup.
  - apply inb_false. exact H.
  - apply inb_true, in_app_iff. right. left. reflexivity.
  - intros x Hx. unfold inb. rewrite existsb_app. cbn [existsb]. destruct (Nat.eqb_spec x n); [contradiction|]. rewrite !orb_false_r. reflexivity.
Qed.

(** ** One node *)

Definition next (st : bstate) (c : nat) : nat := u32 (Z.of_nat (default 0 (b_count st !! c)) - 1).
Definition fires (st : bstate) (c : nat) : bool := negb (bool_decide (c ∈ b_visited st)) && Nat.eqb (next st c) 0.
Lemma children_ok cs : forall st, List.NoDup cs ->
  let st' := fold_left (fun st c => bfs_child c st) cs st in let r := List.filter (fires st) cs in
  b_queue st' = b_queue st ++ r /\ b_topo st' = b_topo st ++ r /\ (forall x, x ∈ b_visited st' <-> x ∈ b_visited st \/ In x r) /\
  forall x, b_count st' !! x = if inb cs x && negb (bool_decide (x ∈ b_visited st)) then Some (next st x) else b_count st !! x.
Proof.
  induction cs as [|c cs IH]; intros st N; cbn [fold_left List.filter].
  - rewrite !app_nil_r. split; [reflexivity|]. split; [reflexivity|]. split; [intros x; cbn; tauto|]. intros x. reflexivity.
  - inversion N as [|? ? Nc Ns]; subst. destruct (IH (bfs_child c st) Ns) as (A & B & C & D). cbv zeta in *.
    assert (Sx : forall x, x <> c -> (x ∈ b_visited (bfs_child c st) <-> x ∈ b_visited st) /\ b_count (bfs_child c st) !! x = b_count st !! x).
    { intros x Hx. unfold bfs_child. destruct (bool_decide (c ∈ b_visited st)); [split; reflexivity|]. destruct (Nat.eqb _ 0); cbn [b_visited b_count]; (split; [set_solver|apply lookup_insert_ne; congruence]). }
    assert (Fx : List.filter (fires (bfs_child c st)) cs = List.filter (fires st) cs).
    { apply filter_ext_in. intros x Hx. assert (x <> c) by (intros ->; contradiction). destruct (Sx x) as [V K]; [assumption|]. unfold fires, next. rewrite K. f_equal. f_equal. apply bool_decide_ext. exact V. }
    rewrite Fx in A, B, C.
    assert (Q : b_queue (bfs_child c st) = b_queue st ++ (if fires st c then [c] else []) /\ b_topo (bfs_child c st) = b_topo st ++ (if fires st c then [c] else []) /\
      (forall x, x ∈ b_visited (bfs_child c st) <-> x ∈ b_visited st \/ In x (if fires st c then [c] else [])) /\ b_count (bfs_child c st) !! c = if bool_decide (c ∈ b_visited st) then b_count st !! c else Some (next st c)).
    { unfold bfs_child, fires. fold (next st c). destruct (bool_decide (c ∈ b_visited st)); cbn [negb andb]; [rewrite !app_nil_r; split; [reflexivity|split; [reflexivity|split; [intros x; cbn; tauto|reflexivity]]]|].
      destruct (Nat.eqb (next st c) 0); cbn [b_queue b_topo b_visited b_count].
      - split; [reflexivity|]. split; [reflexivity|]. split; [|apply lookup_insert]. intros x. cbn [In]. rewrite elem_of_union, elem_of_singleton. split; [intros [->|H]; tauto|intros [H|[<-|[]]]; tauto].
      - rewrite !app_nil_r. split; [reflexivity|]. split; [reflexivity|]. split; [intros x; cbn; tauto|apply lookup_insert]. }
    destruct Q as (Q1 & Q2 & Q3 & Q4). rewrite Q1, <- app_assoc in A. rewrite Q2, <- app_assoc in B.
    assert (R : (if fires st c then c :: List.filter (fires st) cs else List.filter (fires st) cs) = (if fires st c then [c] else []) ++ List.filter (fires st) cs) by (destruct (fires st c); reflexivity). rewrite R.
    split; [exact A|]. split; [exact B|]. split; [intros x; rewrite C, Q3, in_app_iff; tauto|].
    intros x. rewrite D. destruct (Nat.eq_dec x c) as [->|Hx].
    + rewrite (proj2 (inb_false cs c) Nc), (proj2 (inb_true (c :: cs) c) (or_introl eq_refl)). cbn [andb]. rewrite Q4. destruct (bool_decide (c ∈ b_visited st)); reflexivity.
    + destruct (Sx x Hx) as [Vx K]. rewrite K. unfold next. rewrite K. assert (X : inb (c :: cs) x = inb cs x) by (unfold inb; cbn [existsb]; destruct (Nat.eqb_spec x c); [contradiction|reflexivity]). rewrite X. rewrite (bool_decide_ext _ _ Vx). reflexivity.
Qed.
