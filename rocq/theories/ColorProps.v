(** C88: coloring graphs with a SAT solver. *)
From Coq Require Import Bool List Arith Lia Permutation.
From stdpp Require Import list.
From Verif Require Import SatModel SatSpec ColorModel ColorSpec ColorProofs ColorProofs2.
Import ListNotations.
Open Scope nat_scope.

(** The coloring that is returned paints all vertices properly with the least possible number of colors, whatever the order of the
    vertices, the cliques that are known and the search tactic. *)
Theorem C88_minimal_coloring g order cliques sat t :
  graph_ok g order -> (forall c, In c cliques -> clique g c) -> right_solver sat -> 0 < g_size g ->
  exists k m col, search g order cliques false sat t = Found k m /\
    (forall v, extract order (g_size g) k m v = if v <? g_size g then Some (col v) else None) /\
    proper g k col /\ forall k' col', proper g k' col' -> k <= k'.
Proof.
  intros GO CL RS NE. pose proof (search_ok g order cliques false sat GO CL RS NE t) as H.
  assert (CN : colorable g cliques false (g_size g)) by (apply (colorable_n g order); [assumption|reflexivity]).
  destruct (search g order cliques false sat t) as [k m| | |].
  - destruct H as [E M]. unfold check_k in E. pose proof (RS (k_coloring g order cliques false k)) as S1. rewrite E in S1.
    destruct (sound g order cliques false GO CL k m S1) as (col & P & X & _). exists k, m, col. split; [reflexivity|]. split; [exact X|].
    split; [exact P|]. intros k' col' P'. destruct (Nat.le_gt_cases k k') as [L|L]; [exact L|]. exfalso. apply (M k' L). exists col'. split; [exact P'|discriminate].
  - exfalso. destruct H as [_ H]. apply (H (g_size g)); [apply Nat.le_refl|exact CN].
  - exfalso. destruct H as [_ H]. apply (H (g_size g)); [apply Nat.le_refl|exact CN].
  - destruct H.
Qed.
Print Assumptions C88_minimal_coloring.

(** With the constraint that some color occurs in every clique, the ascending and the binary tactic find such a coloring, with the least
    possible number of colors, iff there is one with at most as many colors as there are vertices. *)
Theorem C88_common_color g order cliques sat t :
  graph_ok g order -> (forall c, In c cliques -> clique g c) -> right_solver sat -> 0 < g_size g -> t <> Descending ->
  match search g order cliques true sat t with
  | Found k m => exists col, (forall v, extract order (g_size g) k m v = if v <? g_size g then Some (col v) else None) /\
                   proper g k col /\ common_color cliques k col /\
                   forall k' col', proper g k' col' -> common_color cliques k' col' -> k <= k'
  | Nothing => forall k col, k <= g_size g -> proper g k col -> ~ common_color cliques k col
  | _ => False
  end.
Proof.
  intros GO CL RS NE Ht. pose proof (search_ok g order cliques true sat GO CL RS NE t) as H.
  destruct (search g order cliques true sat t) as [k m| | |].
  - destruct H as [E M]. unfold check_k in E. pose proof (RS (k_coloring g order cliques true k)) as S1. rewrite E in S1.
    destruct (sound g order cliques true GO CL k m S1) as (col & P & X & F & _). exists col. split; [exact X|].
    split; [exact P|]. split; [apply F; reflexivity|]. intros k' col' P' C'. destruct (Nat.le_gt_cases k k') as [L|L]; [exact L|]. exfalso. apply (M k' L). exists col'. split; [exact P'|intros _; exact C'].
  - destruct H as [_ H]. intros k col L P C. apply (H k L). exists col. split; [exact P|intros _; exact C].
  - destruct H as [E _]. exact (Ht E).
  - destruct H.
Qed.
Print Assumptions C88_common_color.

(** The color reported as the most frequent one is one of the colors, and no color is more frequent. *)
Theorem C88_most_frequent n col c0 colors :
  In (most_frequent n col c0 colors) (c0 :: colors) /\
  forall c, In c (c0 :: colors) ->
    length (List.filter (fun v => bool_decide (col v = Some c)) (seq 0 n)) <=
    length (List.filter (fun v => bool_decide (col v = Some (most_frequent n col c0 colors))) (seq 0 n)).
Proof. exact (most_frequent_ok n col colors c0). Qed.
Print Assumptions C88_most_frequent.

(** The check of a coloring of all vertices accepts exactly the colorings in which joined vertices have different colors. *)
Theorem C88_validity_check g order painted_vertices (col : nat -> option nat) : graph_ok g order ->
  is_valid_vertex_coloring g order painted_vertices col = true <->
  painted_vertices = g_size g /\ forall v w, joined g v w -> col v <> col w.
Proof.
  intros GO. unfold is_valid_vertex_coloring. rewrite andb_true_iff, Nat.eqb_eq, forallb_forall. split; intros [E H]; (split; [exact E|]).
  - intros v w J Q. assert (Hv : In v order) by (apply (order_in g order GO); apply (joined_lt g order GO v w J)).
    specialize (H v Hv). apply negb_true_iff in H. apply not_true_iff_false in H. apply H. apply existsb_exists. exists w.
    split; [apply (adjacent_joined g order GO); exact J|apply bool_decide_eq_true; exact Q].
  - intros v Hv. apply negb_true_iff, not_true_iff_false. intros X. apply existsb_exists in X. destruct X as (w & Hw & Q).
    apply bool_decide_eq_true in Q. apply (adjacent_joined g order GO) in Hw. exact (H v w Hw Q).
Qed.
Print Assumptions C88_validity_check.

(** Refuted: with the constraint that some color occurs in every clique, the descending tactic should report that there is no such
    coloring; it dereferences a null pointer instead, here for two joined vertices, each of which is a clique of its own. *)
Theorem C88_descending_refuted sat : right_solver sat ->
  let g := mkG 2 [(0, 1)] in
  graph_ok g [0; 1] /\ (forall c, In c [[0]; [1]] -> clique g c) /\ search g [0; 1] [[0]; [1]] true sat Descending = NullPointer.
Proof.
  intros RS g. assert (GO : graph_ok g [0; 1]).
  { split; [|reflexivity]. intros v w [E|[]]. injection E as <- <-. cbn. lia. }
  assert (CL : forall c, In c [[0]; [1]] -> clique g c).
  { intros c [<-|[<-|[]]]; (split; [constructor; [intros []|constructor]|]); (split; [intros v [<-|[]]; cbn; lia|]); intros v w [<-|[]] [<-|[]]; congruence. }
  split; [exact GO|]. split; [exact CL|].
  assert (NC : forall k, ~ colorable g [[0]; [1]] true k).
  { intros k (col & [_ P] & F). destruct (F eq_refl) as (c & _ & K). destruct (K [0] ltac:(left; reflexivity)) as (v & [<-|[]] & E0).
    destruct (K [1] ltac:(right; left; reflexivity)) as (v & [<-|[]] & E1). apply (P 0 1); [left; left; reflexivity|congruence]. }
  pose proof (search_ok g [0; 1] [[0]; [1]] true sat GO CL RS ltac:(cbn; lia) Descending) as H.
  destruct (search g [0; 1] [[0]; [1]] true sat Descending) as [k m| | |].
  - exfalso. destruct H as [E _]. apply (NC k). eapply check_some; eassumption.
  - exfalso. destruct H as [H _]. apply H. reflexivity.
  - reflexivity.
  - destruct H.
Qed.
Print Assumptions C88_descending_refuted.

(** Refuted: without vertices, the descending tactic does not return, as the number of colors falls below 0 and wraps around. *)
Theorem C88_empty_graph_refuted sat : right_solver sat -> search (mkG 0 []) [] [] false sat Descending = NoReturn.
Proof.
  intros RS. cbn [search]. unfold descending. cbn [g_size descending_from].
  change (q [] - 1 <=? 0) with true. cbv iota. unfold check_k. pose proof (RS (k_coloring (mkG 0 []) [] [] false 0)) as H.
  destruct (sat (k_coloring (mkG 0 []) [] [] false 0)); [reflexivity|]. exfalso. apply (H (fun _ => true)). intros f [].
Qed.
Print Assumptions C88_empty_graph_refuted.

(** A path of three vertices with one known clique: two colors, the outer vertices alike. *)
Definition path3 : graph := mkG 3 [(0, 1); (1, 2)].
Example C88_nonvacuous :
  graph_ok path3 [2; 0; 1] /\ (forall c, In c [[1; 2]] -> clique path3 c) /\ right_solver (brute (V := nat * nat)) /\
  match search path3 [2; 0; 1] [[1; 2]] false brute Ascending with
  | Found k m => k = 2 /\ map (extract [2; 0; 1] 3 k m) [0; 1; 2] = [Some 1; Some 0; Some 1]
  | _ => False
  end /\
  is_valid_vertex_coloring path3 [2; 0; 1] 3 (fun v => Some (v mod 2)) = true /\
  is_valid_vertex_coloring path3 [2; 0; 1] 3 (fun v => Some (v / 2)) = false.
Proof.
  split; [split|split; [|split; [apply brute_right|]]].
  - intros v w [E|[E|[]]]; injection E as <- <-; cbn; lia.
  - cbn. apply perm_trans with [0; 2; 1]; [apply perm_swap|]. apply perm_skip, perm_swap.
  - intros c [<-|[]]. split; [repeat (constructor; [cbn; lia|]); constructor|]. split; [intros v [<-|[<-|[]]]; cbn; lia|].
    intros v w [<-|[<-|[]]] [<-|[<-|[]]] N; try congruence; unfold joined; cbn; auto.
  - vm_compute. auto.
Qed.
Print Assumptions C88_nonvacuous.
