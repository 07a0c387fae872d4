(** Fan-out substitution: counting and growing networks. *)
From Coq Require Import ZArith Bool List Lia.
From stdpp Require Import gmap list.
From Verif Require Import FanoutModel FanoutSpec.
Import ListNotations.

(** *** Reference counts *)
Lemma list_sum_app' l1 l2 : list_sum (l1 ++ l2) = list_sum l1 + list_sum l2.
Proof. apply list_sum_app. Qed.
Lemma fsize_push nodes pos x i : fsize (nodes ++ [x]) pos i = fsize nodes pos i + count_occ Nat.eq_dec (t_children x) i.
Proof. unfold fsize. rewrite map_app, list_sum_app'. cbn. lia. Qed.
Lemma fsize_po nodes pos p i : fsize nodes (pos ++ [p]) i = fsize nodes pos i + (if Nat.eq_dec p i then 1 else 0).
Proof. unfold fsize. rewrite count_occ_app. cbn. destruct (Nat.eq_dec p i); lia. Qed.
Definition scoped (nodes : list tnode) (pos : list nat) : Prop :=
  (forall i x c, nodes !! i = Some x -> In c (t_children x) -> c < i) /\ forall c, In c pos -> c < length nodes.
Lemma fsize_fresh nodes pos i : scoped nodes pos -> length nodes <= i -> fsize nodes pos i = 0.
Proof.
  intros [A B] Hi. unfold fsize. replace (count_occ Nat.eq_dec pos i) with 0; [|symmetry; apply count_occ_not_In; intros H; specialize (B i H); lia].
  assert (forall l, (forall x, In x l -> ~ In i (t_children x)) -> list_sum (map (fun x => count_occ Nat.eq_dec (t_children x) i) l) = 0) as Z.
  { induction l as [|x l IH]; intros H; [reflexivity|]. cbn. rewrite (proj1 (count_occ_not_In Nat.eq_dec _ _) (H x (or_introl eq_refl))). apply IH. intros y Hy. apply H. right. exact Hy. }
  rewrite Z; [reflexivity|]. intros x Hx Hc. apply elem_of_list_In, elem_of_list_lookup in Hx as (j & Hj). pose proof (A _ _ _ Hj Hc). apply lookup_lt_Some in Hj. lia.
Qed.
Lemma scoped_push nodes pos x : scoped nodes pos -> (forall c, In c (t_children x) -> c < length nodes) -> scoped (nodes ++ [x]) pos.
Proof.
  intros [A B] H. split.
  - intros i y c Hi Hc. apply lookup_app_Some in Hi as [Hi|[Hl Hi]]; [eapply A; eassumption|]. destruct (i - length nodes) as [|k] eqn:E; [|destruct k; discriminate Hi]. injection Hi as <-. specialize (H c Hc). lia.
  - intros c Hc. rewrite app_length. cbn. specialize (B c Hc). lia.
Qed.
Lemma scoped_po nodes pos p : scoped nodes pos -> p < length nodes -> scoped nodes (pos ++ [p]).
Proof. intros [A B] H. split; [exact A|]. intros c Hc. apply in_app_or in Hc as [Hc|[<-|[]]]; auto. Qed.

(** *** Ownership: every node of the new network stands for a node of the source *)
Definition owned (own : list nat) (n : nat) : list nat := List.filter (fun i => match own !! i with Some m => Nat.eqb m n | None => false end) (seq 0 (length own)).
Lemma owned_In own n i : In i (owned own n) <-> own !! i = Some n.
Proof.
  unfold owned. rewrite filter_In, in_seq. split.
  - intros [_ H]. destruct (own !! i) as [m|]; [|discriminate H]. apply Nat.eqb_eq in H. congruence.
  - intros H. pose proof (lookup_lt_Some _ _ _ H). rewrite H, Nat.eqb_refl. split; [lia|reflexivity].
Qed.
Lemma owned_NoDup own n : List.NoDup (owned own n).
Proof. apply List.NoDup_filter, List.seq_NoDup. Qed.
Lemma filter_ext_in' {A} (p q : A -> bool) l : (forall x, In x l -> p x = q x) -> List.filter p l = List.filter q l.
Proof. induction l as [|a l IH]; intros H; [reflexivity|]. cbn. rewrite (H a (or_introl eq_refl)), IH; [reflexivity|]. intros x Hx. apply H. right. exact Hx. Qed.
Lemma owned_push own m n : owned (own ++ [m]) n = owned own n ++ (if Nat.eqb m n then [length own] else []).
Proof.
  unfold owned. rewrite app_length, Nat.add_1_r, seq_S, List.filter_app. cbn [List.filter Nat.add]. rewrite lookup_app_r, Nat.sub_diag by lia. cbn [lookup list_lookup]. f_equal.
  apply filter_ext_in'. intros x Hx. apply in_seq in Hx. rewrite lookup_app_l by lia. reflexivity.
Qed.
Definition total (own : list nat) (nodes : list tnode) (pos : list nat) (n : nat) : nat := list_sum (map (fsize nodes pos) (owned own n)).
Definition owns (own : list nat) (n c : nat) : bool := match own !! c with Some m => Nat.eqb m n | None => false end.
Lemma sum_one c l : List.NoDup l -> list_sum (map (fun i => if Nat.eq_dec c i then 1 else 0) l) = if in_dec Nat.eq_dec c l then 1 else 0.
Proof.
  induction 1 as [|a l Ha Hd IH]; [reflexivity|]. cbn [map list_sum fold_right]. fold (list_sum (map (fun i => if Nat.eq_dec c i then 1 else 0) l)). rewrite IH.
  destruct (Nat.eq_dec c a) as [->|Hn].
  - destruct (in_dec Nat.eq_dec a l); [contradiction|]. destruct (in_dec Nat.eq_dec a (a :: l)) as [|H]; [lia|destruct H; left; reflexivity].
  - destruct (in_dec Nat.eq_dec c l), (in_dec Nat.eq_dec c (a :: l)) as [H|H]; try lia; [destruct H; right; assumption|destruct H; [congruence|contradiction]].
Qed.
Lemma list_sum_plus {A} (f g : A -> nat) l : list_sum (map (fun x => f x + g x) l) = list_sum (map f l) + list_sum (map g l).
Proof. induction l as [|a l IH]; [reflexivity|]. cbn in *. unfold list_sum in IH. lia. Qed.
Lemma list_sum_ext {A} (f g : A -> nat) l : (forall x, In x l -> f x = g x) -> list_sum (map f l) = list_sum (map g l).
Proof. intros H. f_equal. apply map_ext_in. exact H. Qed.
Lemma sum_children own n ch : list_sum (map (count_occ Nat.eq_dec ch) (owned own n)) = length (List.filter (owns own n) ch).
Proof.
  induction ch as [|c ch IH]; [cbn; induction (owned own n); [reflexivity|cbn in *; assumption]|].
  rewrite (list_sum_ext _ (fun i => (if Nat.eq_dec c i then 1 else 0) + count_occ Nat.eq_dec ch i)); [|intros i _; cbn; destruct (Nat.eq_dec c i); lia].
  rewrite list_sum_plus, IH, sum_one by apply owned_NoDup. cbn [List.filter]. destruct (in_dec Nat.eq_dec c (owned own n)) as [H|H]; rewrite owned_In in H; unfold owns at 2.
  - rewrite H, Nat.eqb_refl. reflexivity.
  - destruct (own !! c) as [m|]; [|reflexivity]. destruct (Nat.eqb_spec m n) as [->|]; [congruence|reflexivity].
Qed.

Lemma count_fresh x k : (forall c, In c (t_children x) -> c < k) -> count_occ Nat.eq_dec (t_children x) k = 0.
Proof. intros H. apply count_occ_not_In. intros K. specialize (H k K). lia. Qed.
Lemma total_push own nodes pos x m n : length own = length nodes -> scoped nodes pos -> (forall c, In c (t_children x) -> c < length nodes) ->
  total (own ++ [m]) (nodes ++ [x]) pos n = total own nodes pos n + length (List.filter (owns own n) (t_children x)).
Proof.
  intros Hl Hs Hc. unfold total. rewrite owned_push, map_app, list_sum_app', <- sum_children.
  rewrite (list_sum_ext (fsize (nodes ++ [x]) pos) (fun i => fsize nodes pos i + count_occ Nat.eq_dec (t_children x) i)) by (intros i _; apply fsize_push).
  rewrite list_sum_plus. replace (list_sum (map (fsize (nodes ++ [x]) pos) (if Nat.eqb m n then [length own] else []))) with 0; [lia|]. destruct (Nat.eqb m n); [|reflexivity]. cbn.
  rewrite Hl, fsize_push, fsize_fresh, count_fresh by (auto; lia). reflexivity.
Qed.
Lemma total_po own nodes pos p n : total own nodes (pos ++ [p]) n = total own nodes pos n + (if owns own n p then 1 else 0).
Proof.
  unfold total. rewrite (list_sum_ext _ (fun i => fsize nodes pos i + (if Nat.eq_dec p i then 1 else 0))) by (intros i _; apply fsize_po).
  rewrite list_sum_plus, sum_one by apply owned_NoDup. f_equal. unfold owns. destruct (in_dec Nat.eq_dec p (owned own n)) as [H|H]; rewrite owned_In in H.
  - rewrite H, Nat.eqb_refl. reflexivity.
  - destruct (own !! p) as [m|]; [|reflexivity]. destruct (Nat.eqb_spec m n) as [->|]; [congruence|reflexivity].
Qed.
(** If all nodes of a set are full, their uses add up. *)
Lemma sum_ge (f : nat -> nat) d l : (forall i, In i l -> d <= f i) -> d * length l <= list_sum (map f l).
Proof. induction l as [|a l IH]; intros H; cbn; [lia|]. pose proof (H a (or_introl eq_refl)). assert (d * length l <= list_sum (map f l)) by (apply IH; intros i Hi; apply H; right; exact Hi). unfold list_sum in *. lia. Qed.
Lemma sum_split (f : nat -> nat) r l : List.NoDup l -> In r l -> list_sum (map f l) = f r + list_sum (map f (List.remove Nat.eq_dec r l)) /\ length l = S (length (List.remove Nat.eq_dec r l)).
Proof.
  induction 1 as [|a l Ha Hd IH]; intros Hr; [destruct Hr|]. cbn [List.remove]. destruct (Nat.eq_dec r a) as [->|Hn].
  - rewrite notin_remove by exact Ha. auto.
  - destruct Hr as [E|Hr]; [congruence|]. destruct (IH Hr) as [A B]. cbn in *. unfold list_sum in *. lia.
Qed.

(** *** Values *)
Section values.
Context (sem : nat -> list bool -> option bool) (env : nat -> bool) (pis : list nat).
Notation val nodes := (value sem (mkT nodes pis []) env).
Lemma value_pos nodes pos n b : value sem (mkT nodes pis pos) env n b <-> val nodes n b.
Proof.
  split; revert n b; fix IH 3; intros n b H; destruct H as [n b H|n k H1 H2|n lit ch vs b H1 H2 H3]; [eapply value_const, H|eapply value_input; eassumption| |eapply value_const, H|eapply value_input; eassumption|];
    (eapply value_gate; [exact H1| |exact H3]; clear H1 H3; induction H2 as [|x y l l' Hx _ IHl]; [constructor|constructor; [apply IH, Hx|exact IHl]]).
Qed.
Lemma value_inv nodes n b lit ch : nodes !! n = Some (TGate lit ch) -> val nodes n b <-> exists vs, Forall2 (val nodes) ch vs /\ sem lit vs = Some b.
Proof.
  intros H. split.
  - intros V. inversion V as [? ? E|? ? E ?|? ? ? vs ? E F S]; subst; cbn in E; rewrite H in E; try discriminate E. injection E as <- <-. eauto.
  - intros (vs & F & S). eapply value_gate; eassumption.
Qed.
Lemma value_old nodes pos x : scoped nodes pos -> forall n b, n < length nodes -> val (nodes ++ [x]) n b <-> val nodes n b.
Proof.
  intros [A _] n. induction n as [n IH] using lt_wf_ind. intros b Hn. destruct (lookup_lt_is_Some_2 nodes n Hn) as (y & Hy). assert (Hy' : (nodes ++ [x]) !! n = Some y) by (rewrite lookup_app_l; assumption).
  destruct y as [c| |lit ch].
  - split; intros V; inversion V as [? ? E|? ? E ?|? ? ? ? ? E]; subst; cbn in E; rewrite ?Hy, ?Hy' in E; try discriminate E; injection E as <-; apply value_const; assumption.
  - split; intros V; inversion V as [? ? E|? ? E ?|? ? ? ? ? E]; subst; cbn in E; rewrite ?Hy, ?Hy' in E; try discriminate E; apply value_input; assumption.
  - rewrite (value_inv _ _ _ _ _ Hy), (value_inv _ _ _ _ _ Hy'). assert (F : forall vs, Forall2 (val (nodes ++ [x])) ch vs <-> Forall2 (val nodes) ch vs).
    { assert (Hc : forall c, In c ch -> c < n) by (intros c Hc; exact (A n _ c Hy Hc)). clear Hy Hy'. induction ch as [|c ch IHc]; intros vs.
      - split; intros F; inversion F; constructor.
      - specialize (IHc ltac:(intros z Hz; apply Hc; right; exact Hz)). pose proof (Hc c (or_introl eq_refl)) as Hlt.
        split; intros F; inversion F as [|? y ? l Fx Fl]; subst; (constructor; [apply (IH c Hlt y ltac:(lia)), Fx|apply IHc, Fl]). }
    split; intros (vs & V & S); exists vs; (split; [apply F, V|exact S]).
Qed.
Lemma value_new nodes pos lit ch b : scoped nodes pos -> (forall c, In c ch -> c < length nodes) ->
  val (nodes ++ [TGate lit ch]) (length nodes) b <-> exists vs, Forall2 (val nodes) ch vs /\ sem lit vs = Some b.
Proof.
  intros Hs Hc. rewrite (value_inv _ _ _ lit ch); [|rewrite lookup_app_r, Nat.sub_diag by lia; reflexivity].
  assert (F : forall vs, Forall2 (val (nodes ++ [TGate lit ch])) ch vs <-> Forall2 (val nodes) ch vs).
  { clear - Hs Hc. assert (K : forall l, (forall c, In c l -> c < length nodes) -> forall vs, Forall2 (val (nodes ++ [TGate lit ch])) l vs <-> Forall2 (val nodes) l vs); [|apply K, Hc].
    induction l as [|c l IH]; intros H vs; [split; intros F; inversion F; constructor|]. specialize (IH ltac:(intros z Hz; apply H; right; exact Hz)). pose proof (H c (or_introl eq_refl)) as Hl.
    split; intros F; inversion F as [|? y ? k Fx Fl]; subst; (constructor; [eapply value_old; eassumption|apply IH, Fl]). }
  split; intros (vs & V & S); exists vs; (split; [apply F, V|exact S]).
Qed.
End values.
