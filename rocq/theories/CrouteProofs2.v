(** Proofs about color routing: the routes of one color. *)
From Coq Require Import ZArith Bool List Lia Permutation.
From stdpp Require Import gmap list.
From Verif Require Import CoordMap CoordModel CoordSpec CoordProofs GridModel GridSpec ClockModel GateModel GateSpec CellModel PathModel PathSpec RouteModel RouteSpec RouteProofs
  SatModel SatSpec ColorModel ColorSpec ColorProofs ColorProofs2 EpgModel EpgSpec EpgProofs EpgProofs2 CrouteProofs.
Import ListNotations.
Open Scope nat_scope.

Section selection.
Context {A : Type}.
Variable col : nat -> option nat.
Variable color : nat.
Notation mine i := (bool_decide (col i = Some color)).
(** The elements whose label has the color, and the first of them. *)
Fixpoint selects (base : nat) (l : list A) : list A :=
  match l with [] => [] | p :: r => if mine base then p :: selects (S base) r else selects (S base) r end.
Fixpoint pick (base : nat) (l : list A) : option A :=
  match l with [] => None | p :: r => if mine base then Some p else pick (S base) r end.
Fixpoint choose_all (base : nat) (groups : list (list A)) : list (option A) :=
  match groups with [] => [] | ps :: r => pick base ps :: choose_all (base + length ps) r end.
Lemma selects_app base l l' : selects base (l ++ l') = selects base l ++ selects (base + length l) l'.
Proof.
  revert base; induction l as [|p l IH]; intros base; cbn; [rewrite Nat.add_0_r; reflexivity|]. rewrite IH, Nat.add_succ_r. destruct (mine base); reflexivity.
Qed.
Lemma selects_length base l : length (selects base l) = length (List.filter (fun v => mine v) (seq base (length l))).
Proof. revert base; induction l as [|p l IH]; intros base; cbn; [reflexivity|]. destruct (mine base); cbn; rewrite IH; reflexivity. Qed.
Lemma selects_map (d : A) base l : selects base l = map (fun v => nth (v - base) l d) (List.filter (fun v => mine v) (seq base (length l))).
Proof.
  revert base; induction l as [|p l IH]; intros base; [reflexivity|]. cbn [selects length seq List.filter].
  assert (E : map (fun v => nth (v - base) (p :: l) d) (List.filter (fun v => mine v) (seq (S base) (length l))) = selects (S base) l).
  { rewrite IH. apply map_ext_in. intros v Hv. apply filter_In in Hv. destruct Hv as [Hv _]. apply in_seq in Hv. replace (v - base) with (S (v - S base)) by lia. reflexivity. }
  destruct (mine base); [|symmetry; exact E]. cbn [map]. rewrite Nat.sub_diag, E. reflexivity.
Qed.
(** At most one element of the group has the color. *)
Lemma selects_pick base l : (forall i j, i < j -> j < length l -> ~ (col (base + i) = Some color /\ col (base + j) = Some color)) ->
  selects base l = match pick base l with Some p => [p] | None => [] end.
Proof.
  revert base; induction l as [|p l IH]; intros base H; [reflexivity|]. cbn [selects pick].
  assert (IH' := IH (S base)). rewrite IH'.
  2:{ intros i j Hi Hj K. apply (H (S i) (S j)); [lia|cbn; lia|]. rewrite !Nat.add_succ_r. exact K. }
  destruct (bool_decide_reflect (col base = Some color)) as [E|E]; [|reflexivity]. destruct (pick (S base) l) as [q|] eqn:Eq; [exfalso|reflexivity].
  assert (X : forall b l, pick b l = Some q -> exists i, i < length l /\ col (b + i) = Some color).
  { clear. intros b l; revert b; induction l as [|x l IH]; intros b Hq; [discriminate|]. cbn in Hq. destruct (bool_decide_reflect (col b = Some color)) as [E|E].
    - exists 0. cbn. rewrite Nat.add_0_r. split; [lia|exact E].
    - destruct (IH _ Hq) as (i & Hi & Ei). exists (S i). cbn. rewrite Nat.add_succ_r. split; [lia|exact Ei]. }
  destruct (X _ _ Eq) as (i & Hi & Ei). apply (H 0 (S i)); [lia|cbn; lia|]. rewrite Nat.add_0_r, Nat.add_succ_r. auto.
Qed.
Definition once (base : nat) (groups : list (list A)) : Prop :=
  forall k ps i j, nth_error groups k = Some ps -> i < j -> j < length ps ->
    let b := base + length (concat (firstn k groups)) in ~ (col (b + i) = Some color /\ col (b + j) = Some color).
Lemma once_cons base ps groups : once base (ps :: groups) ->
  (forall i j, i < j -> j < length ps -> ~ (col (base + i) = Some color /\ col (base + j) = Some color)) /\ once (base + length ps) groups.
Proof.
  intros H. split.
  - intros i j Hi Hj K. apply (H 0 ps i j eq_refl Hi Hj). cbn. rewrite Nat.add_0_r. exact K.
  - intros k qs i j E Hi Hj. pose proof (H (S k) qs i j E Hi Hj) as K. cbv zeta in *. cbn [firstn concat] in K. rewrite app_length, Nat.add_assoc in K. exact K.
Qed.
Lemma choose_selects base groups : once base groups -> omap (fun q => q) (choose_all base groups) = selects base (concat groups).
Proof.
  revert base; induction groups as [|ps groups IH]; intros base H; [reflexivity|]. destruct (once_cons _ _ _ H) as [H1 H2].
  cbn [choose_all concat]. rewrite selects_app, <- (IH _ H2), (selects_pick base ps H1). cbn. destruct (pick base ps); reflexivity.
Qed.
Lemma pick_in base l p : pick base l = Some p -> In p l.
Proof. revert base; induction l as [|x l IH]; intros base H; [discriminate|]. cbn in H. destruct (mine base); [injection H as ->; left; reflexivity|right; eapply IH; exact H]. Qed.
Lemma pick_some base l i p : nth_error l i = Some p -> col (base + i) = Some color -> exists q, pick base l = Some q.
Proof.
  revert base i; induction l as [|x l IH]; intros base i E C; [destruct i; discriminate|]. cbn. destruct (bool_decide_reflect (col base = Some color)) as [K|K]; [eauto|].
  destruct i as [|i]; [rewrite Nat.add_0_r in C; congruence|]. apply (IH (S base) i E). rewrite Nat.add_succ_r in C. exact C.
Qed.
Lemma choose_length base groups : length (choose_all base groups) = length groups.
Proof. revert base; induction groups; intros base; cbn; [reflexivity|]. rewrite IHgroups. reflexivity. Qed.
(** No more elements than groups that are not empty; just as many if each of these has one. *)
Lemma choose_count base groups : length (omap (fun q => q) (choose_all base groups)) <= length (blocks base groups).
Proof.
  revert base; induction groups as [|ps groups IH]; intros base; [cbn; lia|]. cbn [choose_all]. destruct ps as [|p ps].
  - cbn. rewrite Nat.add_0_r. apply IH.
  - specialize (IH (base + length (p :: ps))). cbn [blocks]. change (omap (fun q => q) (pick base (p :: ps) :: choose_all (base + length (p :: ps)) groups)) with
      (match pick base (p :: ps) with Some y => y :: omap (fun q => q) (choose_all (base + length (p :: ps)) groups) | None => omap (fun q => q) (choose_all (base + length (p :: ps)) groups) end).
    destruct (pick base (p :: ps)); cbn [length] in *; lia.
Qed.
Lemma choose_full base groups : (forall c, In c (blocks base groups) -> exists v, In v c /\ col v = Some color) ->
  length (omap (fun q => q) (choose_all base groups)) = length (blocks base groups).
Proof.
  revert base; induction groups as [|ps groups IH]; intros base H; [reflexivity|]. cbn [choose_all]. destruct ps as [|p ps].
  - cbn. rewrite Nat.add_0_r. apply IH. exact H.
  - cbn [blocks] in *. destruct (H _ (or_introl eq_refl)) as (v & Hv & Cv). apply in_seq in Hv.
    destruct (nth_error (p :: ps) (v - base)) as [q|] eqn:Eq; [|apply nth_error_None in Eq; lia].
    destruct (pick_some base (p :: ps) (v - base) q Eq) as [q' Eq']; [replace (base + (v - base)) with v by lia; exact Cv|].
    specialize (IH (base + length (p :: ps)) (fun c Hc => H c (or_intror Hc))).
    change (omap (fun q => q) (pick base (p :: ps) :: choose_all (base + length (p :: ps)) groups)) with
      (match pick base (p :: ps) with Some y => y :: omap (fun q => q) (choose_all (base + length (p :: ps)) groups) | None => omap (fun q => q) (choose_all (base + length (p :: ps)) groups) end).
    rewrite Eq'. cbn [length] in *. rewrite IH. reflexivity.
Qed.
Lemma selects_pairs (R : A -> A -> Prop) base l :
  (forall i j p q, i < j -> nth_error l i = Some p -> nth_error l j = Some q -> col (base + i) = Some color -> col (base + j) = Some color -> R p q) ->
  ForallOrdPairs R (selects base l).
Proof.
  revert base; induction l as [|x l IH]; intros base H; [constructor|]. cbn [selects].
  assert (T : ForallOrdPairs R (selects (S base) l)).
  { apply IH. intros i j p q Hi Ep Eq Cp Cq. apply (H (S i) (S j) p q); [lia|exact Ep|exact Eq| |]; rewrite Nat.add_succ_r; assumption. }
  destruct (bool_decide_reflect (col base = Some color)) as [K|K]; [|exact T]. constructor; [|exact T].
  apply List.Forall_forall. intros q Hq.
  assert (X : forall b m, In q (selects b m) -> exists j, nth_error m j = Some q /\ col (b + j) = Some color).
  { clear. intros b m; revert b; induction m as [|y m IH]; intros b Hq; [destruct Hq|]. cbn in Hq. destruct (bool_decide_reflect (col b = Some color)) as [K|K].
    - destruct Hq as [<-|Hq]; [exists 0; rewrite Nat.add_0_r; auto|]. destruct (IH _ Hq) as (j & E & C). exists (S j). rewrite Nat.add_succ_r. auto.
    - destruct (IH _ Hq) as (j & E & C). exists (S j). rewrite Nat.add_succ_r. auto. }
  destruct (X _ _ Hq) as (j & E & C). apply (H 0 (S j) x q); [lia|reflexivity|exact E|rewrite Nat.add_0_r; exact K|rewrite Nat.add_succ_r; exact C].
Qed.
Lemma selects_in base l q : In q (selects base l) -> In q l.
Proof. revert base; induction l as [|x l IH]; intros base H; [destruct H|]. cbn in H. destruct (mine base); [destruct H as [<-|H]; [left; reflexivity|]|]; right; eapply IH; exact H. Qed.
End selection.
Lemma blocks_full {A} (groups : list (list A)) base : List.filter (fun ps => match ps with [] => true | _ => false end) groups = [] ->
  length (blocks base groups) = length groups.
Proof. revert base; induction groups as [|[|p ps] groups IH]; intros base H; [reflexivity|discriminate|]. cbn in *. rewrite IH by exact H. reflexivity. Qed.
Lemma omap_full {A} (l : list (option A)) : length (omap (fun q => q) l) = length l -> l = map Some (omap (fun q => q) l).
Proof.
  assert (LE : forall l : list (option A), length (omap (fun q => q) l) <= length l) by (induction l0 as [|[a|] l0 IH]; cbn in *; lia).
  induction l as [|[a|] l IH]; intros H; [reflexivity| |].
  - cbn in *. f_equal. apply IH. lia.
  - cbn in *. specialize (LE l). cbn in LE. exfalso. lia.
Qed.
Lemma omap_count {A} (l : list (option A)) : length l = length (omap (fun q => q) l) + length (List.filter (fun q => match q with None => true | _ => false end) l).
Proof. induction l as [|[a|] l IH]; cbn in *; lia. Qed.

(** ** Laying the routes of one color *)
Lemma conduct_ok paths col color vertices st : (forall v, In v vertices -> v < length paths /\ exists c, col v = Some c) ->
  let routes := map (fun v => nth v (map lp_coords paths) []) (List.filter (fun v => bool_decide (col v = Some color)) vertices) in
  conduct_routing paths col color vertices st = option_map (fun st' => (st', length routes)) (lay st routes).
Proof.
  revert st; induction vertices as [|v r IH]; intros st H; [reflexivity|]. cbv zeta in *. cbn [conduct_routing List.filter].
  destruct (H v (or_introl eq_refl)) as (Lv & c & Ec). rewrite Ec. destruct (nth_error paths v) as [p|] eqn:Ep; [|apply nth_error_None in Ep; lia].
  assert (H' : forall w, In w r -> w < length paths /\ exists c, col w = Some c) by (intros w Hw; apply H; right; exact Hw).
  destruct (Nat.eqb_spec c color) as [->|N].
  - rewrite bool_decide_true by reflexivity. cbn [map lay length]. assert (En : nth v (map lp_coords paths) [] = lp_coords p).
    { apply nth_error_nth. rewrite nth_error_map, Ep. reflexivity. }
    rewrite En. destruct (route_path st (lp_coords p)) as [st1|]; [|reflexivity]. rewrite (IH st1 H'). destruct (lay st1 _); reflexivity.
  - rewrite bool_decide_false by congruence. apply IH. exact H'.
Qed.

(** ** The coloring *)
Lemma coloring_ok env esat g cliques frequency : env_ok env -> (forall v w, In (v, w) (g_edges g) -> v < g_size g /\ w < g_size g /\ v <> w) ->
  (forall c, In c cliques -> clique g c) ->
  exists col c f, determine_vertex_coloring env esat g cliques frequency Ascending = Some (col, (c, f)) /\
    (forall v, v < g_size g -> exists c, col v = Some c) /\ (forall v w, joined g v w -> col v <> col w) /\ f = frequency_of (g_size g) col c /\
    (esat = true -> frequency = true -> 0 < g_size g -> (exists col', proper g (g_size g) col' /\ common_color cliques (g_size g) col') ->
     exists c', (forall l, In l cliques -> exists v, In v l /\ col v = Some c') /\ frequency_of (g_size g) col c' <= f).
Proof.
  intros (EV & EC & RS & EH) GE CL. set (n := g_size g) in *. assert (GO : graph_ok g (ce_vertices env n)) by (split; [exact GE|apply EV]).
  assert (FS : forall col k, (forall v, v < n -> exists c, col v = Some c /\ c < k) -> forall colors, Permutation colors (seq 0 k) ->
    exists c f, frequency_stats n col colors = (c, f) /\ f = frequency_of n col c /\ forall c', c' < k -> frequency_of n col c' <= f).
  { intros col k B colors P. unfold frequency_stats. destruct colors as [|c0 colors].
    - exists 0, 0. split; [reflexivity|]. apply Permutation_nil in P. destruct k; [|discriminate]. split; [|lia].
      destruct n as [|n']; [reflexivity|]. destruct (B 0 ltac:(lia)) as (c & _ & K). lia.
    - eexists _, _. split; [reflexivity|]. split; [reflexivity|]. intros c' Hc'. apply (most_frequent_ok n col colors c0).
      eapply Permutation_in; [symmetry; exact P|]. apply in_seq. lia. }
  assert (HEU : exists col c f, (let '(col, k) := ce_heuristic env g in Some (col, frequency_stats n col (seq 0 k))) = Some (col, (c, f)) /\
    (forall v, v < n -> exists c, col v = Some c) /\ (forall v w, joined g v w -> col v <> col w) /\ f = frequency_of n col c).
  { destruct (EH g GE) as (hc & [P1 P2] & P3). fold n in P1, P3. destruct (ce_heuristic env g) as [col k]. cbn [fst snd] in *.
    destruct (FS col k (fun v Hv => ex_intro _ (hc v) (conj (P3 v Hv) (P1 v Hv))) (seq 0 k) (Permutation_refl _)) as (c & f & -> & F1 & _).
    exists col, c, f. split; [reflexivity|]. split; [intros v Hv; eauto|]. split; [|exact F1].
    intros v w J. destruct (joined_lt g _ GO v w J) as (Hv & Hw & _). rewrite (P3 v Hv), (P3 w Hw). intros E. injection E as E. exact (P2 v w J E). }
  unfold determine_vertex_coloring. fold n. destruct esat.
  2:{ destruct HEU as (col & c & f & E & H1 & H2 & H3). exists col, c, f. split; [exact E|]. split; [exact H1|]. split; [exact H2|]. split; [exact H3|discriminate]. }
  destruct (Nat.eq_dec n 0) as [Z0|NZ].
  { assert (En : search g (ce_vertices env n) cliques frequency (ce_sat env) Ascending = Nothing).
    { cbn [search]. unfold ascending. fold n. rewrite Z0. assert (Q1 : 1 <= q cliques) by (unfold q; lia). replace (0 + 1 - q cliques) with 0 by lia. reflexivity. }
    rewrite En. destruct HEU as (col & c & f & E & H1 & H2 & H3). exists col, c, f. split; [exact E|]. split; [exact H1|]. split; [exact H2|]. split; [exact H3|lia]. }
  pose proof (search_ok g (ce_vertices env n) cliques frequency (ce_sat env) GO CL RS ltac:(fold n; lia) Ascending) as S1. fold n in S1.
  destruct (search g (ce_vertices env n) cliques frequency (ce_sat env) Ascending) as [k m| | |].
  - destruct S1 as [E _]. unfold check_k in E. pose proof (RS (k_coloring g (ce_vertices env n) cliques frequency k)) as S2. rewrite E in S2.
    destruct (sound g (ce_vertices env n) cliques frequency GO CL k m S2) as (hc & [P1 P2] & X & F & _). fold n in P1, X.
    set (col := extract (ce_vertices env n) n k m) in *.
    assert (P3 : forall v, v < n -> col v = Some (hc v)). { intros v Hv. rewrite X. destruct (Nat.ltb_spec v n); [reflexivity|lia]. }
    destruct (FS col k (fun v Hv => ex_intro _ (hc v) (conj (P3 v Hv) (P1 v Hv))) (ce_colors env k) (EC k)) as (c & f & E1 & F1 & F2). cbv zeta. rewrite E1.
    exists col, c, f. split; [reflexivity|]. split; [intros v Hv; eauto|]. split.
    { intros v w J. destruct (joined_lt g _ GO v w J) as (Hv & Hw & _). rewrite (P3 v Hv), (P3 w Hw). intros E2. injection E2 as E2. exact (P2 v w J E2). }
    split; [exact F1|]. intros _ Ef _ _. destruct (F Ef) as (c' & Lc & K). exists c'. split; [|apply F2; exact Lc].
    intros l Hl. destruct (K l Hl) as (v & Hv & Ev). exists v. split; [exact Hv|]. rewrite P3; [congruence|]. destruct (CL l Hl) as (_ & B & _). apply B. exact Hv.
  - destruct S1 as [_ S1]. destruct HEU as (col & c & f & E & H1 & H2 & H3). exists col, c, f. split; [exact E|]. split; [exact H1|]. split; [exact H2|]. split; [exact H3|].
    intros _ Ef _ (col' & P & C). exfalso. apply (S1 n (Nat.le_refl _)). exists col'. split; [exact P|intros _; exact C].
  - destruct S1 as [S1 _]. discriminate.
  - destruct S1.
Qed.
