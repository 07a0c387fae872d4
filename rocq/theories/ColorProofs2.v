(** Proofs about the searches for a coloring with few colors, and a solver whose answers are right. *)
From Coq Require Import Bool List Arith Lia Permutation.
From stdpp Require Import list.
From Verif Require Import SatModel SatSpec ColorModel ColorSpec ColorProofs.
Import ListNotations.

(** ** Trying all assignments *)
Fixpoint vars {V} (f : form V) : list V :=
  match f with FLit _ v => [v] | FAnd l => flat_map vars l | FOr l => flat_map vars l end.
Fixpoint subsets {V} (l : list V) : list (list V) :=
  match l with [] => [[]] | a :: l' => subsets l' ++ map (cons a) (subsets l') end.
Definition brute {V} `{EqDecision V} : solver V := fun fs =>
  match List.find (fun T => forallb (holds (fun v => bool_decide (v ∈ T))) fs) (subsets (remove_dups (flat_map vars fs))) with
  | Some T => Some (fun v => bool_decide (v ∈ T))
  | None => None
  end.
Lemma form_ind2 {V} (P : form V -> Prop) : (forall p v, P (FLit p v)) -> (forall l, Forall P l -> P (FAnd l)) ->
  (forall l, Forall P l -> P (FOr l)) -> forall f, P f.
Proof.
  intros H1 H2 H3. fix IH 1. intros [p v|l|l]; [apply H1|apply H2|apply H3]; (induction l; constructor; [apply IH|assumption]).
Qed.
Lemma holds_agree {V} (m m' : V -> bool) f : (forall v, In v (vars f) -> m v = m' v) -> holds m f = holds m' f.
Proof.
  induction f as [p v|l IH|l IH] using form_ind2; intros H.
  - cbn [holds]. rewrite (H v) by (left; reflexivity). reflexivity.
  - cbn [holds vars] in *. induction IH as [|a l Ha IH IHl]; [reflexivity|]. cbn [forallb flat_map] in *.
    rewrite Ha, IHl; [reflexivity| |]; intros v Hv; apply H, in_app_iff; auto.
  - cbn [holds vars] in *. induction IH as [|a l Ha IH IHl]; [reflexivity|]. cbn [existsb flat_map] in *.
    rewrite Ha, IHl; [reflexivity| |]; intros v Hv; apply H, in_app_iff; auto.
Qed.
Lemma subsets_filter {V} (m : V -> bool) l : In (List.filter m l) (subsets l).
Proof.
  induction l as [|a l IH]; [left; reflexivity|]. cbn [List.filter subsets]. apply in_app_iff. destruct (m a); [right; apply in_map, IH|left; exact IH].
Qed.
Lemma brute_right {V} `{EqDecision V} : right_solver (brute (V := V)).
Proof.
  intros fs. unfold brute. destruct (List.find _ _) as [T|] eqn:E.
  - apply find_some in E. destruct E as [_ E]. rewrite forallb_forall in E. exact E.
  - intros m Hm. pose proof (find_none _ _ E (List.filter m (remove_dups (flat_map vars fs))) (subsets_filter m _)) as N. cbv beta in N.
    apply not_true_iff_false in N. apply N. apply forallb_forall. intros f Hf.
    rewrite <- (Hm f Hf). apply holds_agree. intros v Hv. destruct (m v) eqn:Em.
    + apply bool_decide_eq_true. apply elem_of_list_In, filter_In. split; [apply elem_of_list_In, elem_of_remove_dups, elem_of_list_In, in_flat_map; eauto|exact Em].
    + apply bool_decide_eq_false. rewrite elem_of_list_In, filter_In. intros [_ K]. congruence.
Qed.

(** ** Searching *)
Section search.
Variable g : graph.
Variable order : list nat.
Variable cliques : list (list nat).
Variable frequency : bool.
Variable sat : solver (nat * nat).
Hypothesis GO : graph_ok g order.
Hypothesis CL : forall c, In c cliques -> clique g c.
Hypothesis RS : right_solver sat.
Hypothesis NE : 0 < g_size g.
Notation n := (g_size g).
Notation colorable := (colorable g cliques frequency).
Notation check := (check_k g order cliques frequency sat).
Notation qq := (q cliques).

Lemma check_some k m : check k = Some m -> colorable k.
Proof.
  intros E. pose proof (RS (k_coloring g order cliques frequency k)) as H. unfold check_k in E. rewrite E in H.
  destruct (sound g order cliques frequency GO CL k m H) as (col & P & _ & F & _). exists col. auto.
Qed.
Lemma check_none k : check k = None -> ~ colorable k.
Proof.
  intros E (col & P & F). pose proof (RS (k_coloring g order cliques frequency k)) as H. unfold check_k in E. rewrite E in H.
  destruct (complete g order cliques frequency GO CL k col P F) as [m Hm]. exact (H m Hm).
Qed.
Lemma colorable_mono k k' : k <= k' -> colorable k -> colorable k'.
Proof.
  intros Hk (col & [B P] & F). exists col. split; [split; [intros v Hv; specialize (B v Hv); lia|exact P]|].
  intros E. destruct (F E) as (c & Hc & K). exists c. split; [lia|exact K].
Qed.
Lemma colorable_q k : colorable k -> qq <= k.
Proof.
  intros (col & P & _). unfold q. apply Nat.max_lub.
  - eapply clique_bound; [exact P|apply largest_clique_ok; exact CL].
  - destruct P as [B _]. specialize (B 0 NE). lia.
Qed.
Lemma colorable_n : frequency = false -> colorable n.
Proof.
  intros E. exists (fun v => v). split; [|congruence]. split; [auto|]. intros v w J. eapply joined_lt; eassumption.
Qed.
Lemma q_le_n : qq <= n.
Proof.
  unfold q. apply Nat.max_lub; [|exact NE]. destruct (largest_clique_ok g cliques CL) as (N & B & _). apply nodup_bounded; assumption.
Qed.

Lemma ascending_from_ok steps k : (forall k', k' < k -> ~ colorable k') ->
  match ascending_from g order cliques frequency sat steps k with
  | Found k m => check k = Some m /\ forall k', k' < k -> ~ colorable k'
  | Nothing => forall k', k' < k + steps -> ~ colorable k'
  | _ => False
  end.
Proof.
  revert k; induction steps as [|s IH]; intros k Hk; cbn [ascending_from]; [intros k' Hk'; apply Hk; lia|].
  destruct (check k) as [m|] eqn:E; [auto|]. specialize (IH (S k)).
  assert (Hk2 : forall k', k' < S k -> ~ colorable k').
  { intros k' Hk'. destruct (Nat.eq_dec k' k) as [->|]; [apply check_none; exact E|apply Hk; lia]. }
  specialize (IH Hk2). destruct (ascending_from _ _ _ _ _ s (S k)); [exact IH| |destruct IH|destruct IH].
  intros k' Hk'. apply IH. lia.
Qed.
Lemma below_q k : k < qq -> ~ colorable k.
Proof. intros H C. apply colorable_q in C. lia. Qed.
Lemma ascending_ok :
  match ascending g order cliques frequency sat with
  | Found k m => check k = Some m /\ forall k', k' < k -> ~ colorable k'
  | Nothing => forall k', k' <= n -> ~ colorable k'
  | _ => False
  end.
Proof.
  unfold ascending. pose proof (ascending_from_ok (n + 1 - qq) qq below_q) as H.
  destruct (ascending_from _ _ _ _ _ _ _); [exact H| |exact H|exact H]. intros k' Hk'. apply H. pose proof q_le_n. lia.
Qed.

Lemma descending_from_ok k recent : k <= n -> (recent = NullPointer /\ k = n \/ exists m, recent = Found (S k) m /\ check (S k) = Some m) ->
  match descending_from g order cliques frequency sat k recent with
  | Found k m => check k = Some m /\ forall k', k' < k -> ~ colorable k'
  | NullPointer => forall k', k' <= n -> ~ colorable k'
  | _ => False
  end.
Proof.
  revert recent; induction k as [|k IH]; intros recent Hk Hr; cbn [descending_from].
  - destruct (Nat.leb_spec (qq - 1) 0) as [Hq|Hq].
    + assert (N : check 0 = None).
      { destruct (check 0) as [m|] eqn:E; [|reflexivity]. apply check_some in E. destruct E as (col & [B _] & _). specialize (B 0 NE). lia. }
      rewrite N. destruct Hr as [[-> E]|(m & -> & E)]; [lia|]. split; [exact E|]. intros k' Hk'. replace k' with 0 by lia. apply check_none, N.
    + destruct Hr as [[-> E]|(m & -> & E)]; [lia|]. apply check_some, colorable_q in E. lia.
  - destruct (Nat.leb_spec (qq - 1) (S k)) as [Hq|Hq].
    + destruct (check (S k)) as [m|] eqn:E.
      * apply IH; [lia|]. right. exists m. auto.
      * assert (U : forall k', k' < S (S k) -> ~ colorable k').
        { intros k' Hk' C. apply (check_none _ E). eapply colorable_mono; [|exact C]. lia. }
        destruct Hr as [[-> Ek]|(m & -> & Em)]; [intros k' Hk'; apply U; lia|]. split; [exact Em|exact U].
    + destruct Hr as [[-> E]|(m & -> & E)]; [pose proof q_le_n; lia|]. apply check_some, colorable_q in E. lia.
Qed.
Lemma descending_ok :
  match descending g order cliques frequency sat with
  | Found k m => check k = Some m /\ forall k', k' < k -> ~ colorable k'
  | NullPointer => forall k', k' <= n -> ~ colorable k'
  | _ => False
  end.
Proof. apply descending_from_ok; [lia|]. left. auto. Qed.

Lemma doubling_ok rounds h : n + 1 <= h + rounds -> 1 <= h -> (h = qq \/ exists j, h = j * 2 /\ ~ colorable j) ->
  match doubling g order cliques frequency sat rounds h with
  | (h', Some (k, m)) => k = h' /\ check k = Some m /\ (h' = qq \/ exists j, h' = j * 2 /\ ~ colorable j)
  | (h', None) => n < h' /\ (h' = qq \/ exists j, h' = j * 2 /\ ~ colorable j)
  end.
Proof.
  revert h; induction rounds as [|r IH]; intros h Hr H1 Hh; cbn [doubling]; [split; [lia|exact Hh]|].
  destruct (Nat.leb_spec (n + 1) h); [split; [lia|exact Hh]|]. destruct (check h) as [m|] eqn:E; [auto|].
  apply IH; [lia|lia|]. right. exists h. split; [reflexivity|apply check_none, E].
Qed.
Definition bracket (first len : nat) (recent : found) : Prop :=
  (forall k', k' < first -> ~ colorable k') /\
  match recent with
  | Found k m => check k = Some m /\ first <= k <= first + len
  | Nothing => n < first + len
  | _ => False
  end.
Lemma partition_ok rounds first len recent : len <= rounds -> bracket first len recent ->
  match partition_point g order cliques frequency sat rounds first len recent with
  | Found k m => check k = Some m /\ forall k', k' < k -> ~ colorable k'
  | Nothing => forall k', k' <= n -> ~ colorable k'
  | _ => False
  end.
Proof.
  revert first len recent; induction rounds as [|r IH]; intros first len recent Hr (U & B); cbn [partition_point].
  - destruct recent as [k m| | |]; [destruct B as [B1 B2]; split; [exact B1|]; intros k' Hk'; apply U; lia|intros k' Hk'; apply U; lia|destruct B|destruct B].
  - destruct len as [|len].
    + destruct recent as [k m| | |]; [destruct B as [B1 B2]; split; [exact B1|]; intros k' Hk'; apply U; lia|intros k' Hk'; apply U; lia|destruct B|destruct B].
    + cbv zeta. set (half := S len / 2). assert (Hh : half < S len) by (apply Nat.div_lt; lia). clearbody half.
      destruct (check (first + half)) as [m|] eqn:E.
      * apply IH; [lia|]. split; [exact U|]. split; [exact E|lia].
      * assert (U' : forall k', k' < first + half + 1 -> ~ colorable k').
        { intros k' Hk' C. apply (check_none _ E). eapply colorable_mono; [|exact C]. lia. }
        apply IH; [lia|]. split; [exact U'|]. destruct recent as [k m| | |]; [destruct B as [B1 B2]| |destruct B|destruct B].
        -- split; [exact B1|]. assert (first + half + 1 <= k).
           { destruct (Nat.le_gt_cases (first + half + 1) k); [assumption|]. exfalso. apply (U' k); [assumption|]. eapply check_some; eassumption. }
           lia.
        -- lia.
Qed.
Lemma binary_ok :
  match binary g order cliques frequency sat with
  | Found k m => check k = Some m /\ forall k', k' < k -> ~ colorable k'
  | Nothing => forall k', k' <= n -> ~ colorable k'
  | _ => False
  end.
Proof.
  unfold binary. assert (Q1 : 1 <= qq) by (unfold q; lia).
  pose proof (doubling_ok (n + 1) qq ltac:(lia) Q1 (or_introl eq_refl)) as H.
  destruct (doubling _ _ _ _ _ _ _) as [h [[k m]|]].
  - destruct H as (-> & E & Hh). destruct (Nat.eqb_spec h qq) as [->|Nq]; [split; [exact E|exact below_q]|].
    destruct Hh as [->|(j & -> & Nj)]; [congruence|]. rewrite Nat.div_mul by lia. apply partition_ok; [lia|]. split.
    + intros k' Hk' C. apply Nj. eapply colorable_mono; [|exact C]. lia.
    + split; [exact E|lia].
  - destruct H as (Hn & Hh). apply partition_ok; [lia|]. destruct Hh as [->|(j & -> & Nj)]; [pose proof q_le_n; lia|].
    rewrite Nat.div_mul by lia. split; [|lia]. intros k' Hk' C. apply Nj. eapply colorable_mono; [|exact C]. lia.
Qed.
(** All searches. *)
Lemma search_ok t :
  match search g order cliques frequency sat t with
  | Found k m => check k = Some m /\ forall k', k' < k -> ~ colorable k'
  | Nothing => t <> Descending /\ forall k', k' <= n -> ~ colorable k'
  | NullPointer => t = Descending /\ forall k', k' <= n -> ~ colorable k'
  | NoReturn => False
  end.
Proof.
  destruct t; cbn [search].
  - pose proof ascending_ok as H. destruct (ascending _ _ _ _ _); try exact H; [split; [discriminate|exact H]|destruct H].
  - pose proof descending_ok as H. destruct (descending _ _ _ _ _); try exact H; [destruct H|split; [reflexivity|exact H]].
  - pose proof binary_ok as H. destruct (binary _ _ _ _ _); try exact H; [split; [discriminate|exact H]|destruct H].
Qed.
End search.

(** ** Frequencies *)
Lemma most_frequent_ok n col l best : In (most_frequent n col best l) (best :: l) /\
  forall c, In c (best :: l) -> frequency_of n col c <= frequency_of n col (most_frequent n col best l).
Proof.
  revert best; induction l as [|a l IH]; intros best; cbn [most_frequent]; [split; [left; reflexivity|intros c [<-|[]]; lia]|].
  destruct (IH (if frequency_of n col best <? frequency_of n col a then a else best)) as [H1 H2].
  destruct (Nat.ltb_spec (frequency_of n col best) (frequency_of n col a)) as [L|L].
  - split; [right; exact H1|]. intros c [<-|[<-|Hc]]; [|apply H2; left; reflexivity|apply H2; right; exact Hc].
    specialize (H2 a (or_introl eq_refl)). lia.
  - split; [destruct H1 as [H1|H1]; [left; exact H1|right; right; exact H1]|]. intros c [<-|[<-|Hc]]; [apply H2; left; reflexivity| |apply H2; right; exact Hc].
    specialize (H2 best (or_introl eq_refl)). lia.
Qed.
