(** Proofs about the inference of enclosed points and the boundary in three and more dimensions (see ContourModel.v, OpDomSpec.v). *)
From Coq Require Import ZArith Bool List Lia Permutation.
From stdpp Require Import gmap list.
From Verif Require Import UtilModel OpDomModel OpDomSpec OpDomProofs OpDomProofs2 ContourModel ContourProofs.
Import ListNotations.

Lemma grid_length dims (l : list point) : List.NoDup l -> (forall p, In p l -> on_grid dims p) -> length l <= length (all_points dims).
Proof. intros ND H. apply NoDup_incl_length; [exact ND|]. intros p Hp. apply all_points_in, H, Hp. Qed.
Lemma NoDup_snoc {A} (l : list A) x : List.NoDup l -> ~ In x l -> List.NoDup (l ++ [x]).
Proof. intros H N. eapply Permutation_NoDup; [apply Permutation_cons_append|]. constructor; assumption. Qed.

(** ** Inference *)
Lemma infer_fold (dom : gmap point bool) l : forall q inf, List.NoDup inf -> exists new,
  fold_left (fun '(q, inf) m => if bool_decide (m ∈ inf) then (q, inf)
             else match dom !! m with Some false => (q, inf) | _ => (q ++ [m], inf ++ [m]) end) l (q, inf)
  = (q ++ new, inf ++ new) /\ List.NoDup (inf ++ new) /\ (forall m, In m new -> In m l /\ dom !! m <> Some false).
Proof.
  induction l as [|m l IH]; intros q inf ND; cbn [fold_left].
  - exists []. rewrite !app_nil_r. split; [reflexivity|]. split; [exact ND|]. intros m [].
  - assert (Skip : exists new, fold_left (fun '(q, inf) m => if bool_decide (m ∈ inf) then (q, inf)
             else match dom !! m with Some false => (q, inf) | _ => (q ++ [m], inf ++ [m]) end) l (q, inf)
      = (q ++ new, inf ++ new) /\ List.NoDup (inf ++ new) /\ (forall m', In m' new -> In m' (m :: l) /\ dom !! m' <> Some false)).
    { destruct (IH q inf ND) as (new & E & N & H). exists new. split; [exact E|]. split; [exact N|]. intros m' Hm'.
      destruct (H m' Hm'). split; [right; assumption|assumption]. }
    case_bool_decide as Hd; [exact Skip|].
    assert (Add : dom !! m <> Some false -> exists new, fold_left (fun '(q, inf) m => if bool_decide (m ∈ inf) then (q, inf)
             else match dom !! m with Some false => (q, inf) | _ => (q ++ [m], inf ++ [m]) end) l (q ++ [m], inf ++ [m])
      = (q ++ new, inf ++ new) /\ List.NoDup (inf ++ new) /\ (forall m', In m' new -> In m' (m :: l) /\ dom !! m' <> Some false)).
    { intros Hf. destruct (IH (q ++ [m]) (inf ++ [m])) as (new & E & N & H).
      - apply NoDup_snoc; [exact ND|]. rewrite <- elem_of_list_In. exact Hd.
      - exists (m :: new). rewrite <- !app_assoc in E. rewrite <- app_assoc in N. split; [exact E|]. split; [exact N|].
        intros m' [<-|Hm']; [split; [left; reflexivity|exact Hf]|]. destruct (H m' Hm'). split; [right; assumption|assumption]. }
    destruct (dom !! m) as [[|]|] eqn:Em; [apply Add; congruence|exact Skip|apply Add; congruence].
Qed.

Lemma infer_loop_ok (dims : list nat) (dom : gmap point bool) contour : forall rounds queue inf, List.NoDup inf ->
  (forall p, In p inf -> on_grid dims p) -> (forall p, In p queue -> on_grid dims p) ->
  length queue + (length (all_points dims) - length inf) <= rounds ->
  exists inf', infer_loop dims dom contour rounds queue inf = Some inf' /\ List.NoDup inf' /\
    (forall p, In p inf' -> on_grid dims p) /\ (forall p, In p inf -> In p inf') /\
    (forall Q : point -> Prop, (forall p, In p queue -> Q p) ->
      (forall p m, Q p -> on_grid dims p -> ~ In p contour -> beside dims p m -> dom !! m <> Some false -> Q m) ->
      forall p, In p inf' -> In p inf \/ Q p).
Proof.
  induction rounds as [|rounds IH]; intros queue inf ND GI GQ L.
  - destruct queue as [|sp q]; [|cbn in L; lia]. exists inf. cbn. auto 10.
  - destruct queue as [|sp q]; [exists inf; cbn; auto 10|]. cbn [infer_loop].
    assert (Gs : on_grid dims sp) by (apply GQ; left; reflexivity).
    case_bool_decide as Hc.
    + destruct (IH q inf) as (inf' & E & N & G & S1 & S2); auto.
      { intros p Hp. apply GQ. right. exact Hp. }
      { cbn in L. lia. }
      exists inf'. split; [exact E|]. split; [exact N|]. split; [exact G|]. split; [exact S1|].
      intros Q HQ St p Hp. apply (S2 Q); auto. intros r Hr. apply HQ. right. exact Hr.
    + destruct (infer_fold dom (von_neumann_neighborhood dims sp) q inf ND) as (new & E & N & H). rewrite E.
      assert (Hn : forall m, In m new -> beside dims sp m /\ dom !! m <> Some false).
      { intros m Hm. destruct (H m Hm) as [H1 H2]. split; [apply von_neumann_in; assumption|exact H2]. }
      assert (Gn : forall p, In p (inf ++ new) -> on_grid dims p).
      { intros p Hp. apply in_app_or in Hp. destruct Hp as [Hp|Hp]; [auto|]. apply (Hn p Hp). }
      destruct (IH (q ++ new) (inf ++ new)) as (inf' & E' & N' & G' & S1 & S2); auto.
      { intros p Hp. apply in_app_or in Hp. destruct Hp as [Hp|Hp]; [apply GQ; right; exact Hp|apply (Hn p Hp)]. }
      { pose proof (grid_length dims _ N Gn) as B. rewrite !app_length. rewrite app_length in B. cbn [length] in L. lia. }
      exists inf'. split; [exact E'|]. split; [exact N'|]. split; [exact G'|]. split; [intros p Hp; apply S1, in_or_app; auto|].
      intros Q HQ St p Hp.
      assert (Qn : forall m, In m new -> Q m).
      { intros m Hm. destruct (Hn m Hm) as [H1 H2]. apply (St sp m); auto; [apply HQ; left; reflexivity|]. rewrite <- elem_of_list_In. exact Hc. }
      destruct (S2 Q) with (p := p) as [Hx|Hx]; auto.
      * intros r Hr. apply in_app_or in Hr. destruct Hr as [Hr|Hr]; [apply HQ; right; exact Hr|auto].
      * apply in_app_or in Hx. destruct Hx as [Hx|Hx]; auto.
Qed.

Lemma infer_ok (dims : list nat) (dom : gmap point bool) contour rounds start inf : List.NoDup inf ->
  (forall p, In p inf -> on_grid dims p) -> on_grid dims start -> length (all_points dims) <= rounds ->
  exists inf', infer dims dom contour rounds start inf = Some inf' /\ List.NoDup inf' /\
    (forall p, In p inf' -> on_grid dims p) /\ (forall p, In p inf -> In p inf') /\ In start inf' /\
    (forall Q : point -> Prop, Q start ->
      (forall p m, Q p -> on_grid dims p -> ~ In p contour -> beside dims p m -> dom !! m <> Some false -> Q m) ->
      forall p, In p inf' -> In p inf \/ Q p).
Proof.
  intros ND GI GS L. unfold infer. case_bool_decide as Hd.
  - exists inf. apply elem_of_list_In in Hd. auto 10.
  - rewrite elem_of_list_In in Hd.
    assert (ND1 : List.NoDup (inf ++ [start])) by (apply NoDup_snoc; assumption).
    assert (G1 : forall p, In p (inf ++ [start]) -> on_grid dims p).
    { intros p Hp. apply in_app_or in Hp. destruct Hp as [Hp|[<-|[]]]; auto. }
    destruct (infer_loop_ok dims dom contour rounds [start] (inf ++ [start]) ND1 G1) as (inf' & E & N & G & S1 & S2).
    { intros p [<-|[]]. exact GS. }
    { rewrite app_length. cbn [length]. pose proof (grid_length dims _ ND1 G1) as B. rewrite app_length in B. cbn in B. lia. }
    exists inf'. split; [exact E|]. split; [exact N|]. split; [exact G|]. split; [intros p Hp; apply S1, in_or_app; auto|].
    split; [apply S1, in_or_app; right; left; reflexivity|].
    intros Q HQ St p Hp. destruct (S2 Q) with (p := p) as [Hx|Hx]; auto.
    + intros r [<-|[]]. exact HQ.
    + apply in_app_or in Hx. destruct Hx as [Hx|[<-|[]]]; auto.
Qed.

(** ** Points at the edge have fewer neighbours *)
Lemma at_edge_cons n dims x p : at_edge (n :: dims) (x :: p) <-> (x = 0 \/ S x = n) \/ at_edge dims p.
Proof.
  split.
  - intros ([|d] & a & b & H1 & H2 & H3).
    + cbn in *. injection H1 as <-. injection H2 as <-. auto.
    + right. exists d, a, b. auto.
  - intros [H|(d & a & b & H)]; [exists 0, x, n; cbn; auto|exists (S d), a, b; exact H].
Qed.
Lemma shifted_none dims : forall p, on_grid dims p -> (exists i, i < 3 ^ length dims /\ shifted dims p i = None) <-> at_edge dims p.
Proof.
  induction dims as [|n dims IH]; intros p G; inversion G as [|x ? p' ? Hx G']; subst.
  - split; [intros (i & _ & H); discriminate|]. intros (d & a & b & H & _). destruct d; discriminate.
  - rewrite at_edge_cons, <- (IH p' G'). split.
    + intros (i & Hi & H). cbn [shifted] in H. cbv zeta in H.
      destruct (_ || _)%Z eqn:E in H.
      * left. apply orb_true_iff in E. rewrite Z.ltb_lt, Z.leb_le in E. pose proof (Nat.mod_upper_bound i 3 ltac:(lia)).
        set (r := i mod 3) in *. clearbody r. lia.
      * right. exists (i / 3). split; [apply Nat.div_lt_upper_bound; [lia|]; cbn [length] in Hi; rewrite Nat.pow_succ_r' in Hi; exact Hi|].
        destruct (shifted dims p' (i / 3)) as [[]|]; [discriminate|reflexivity].
    + assert (Pos : 1 <= 3 ^ length dims) by (pose proof (Nat.pow_nonzero 3 (length dims)); lia).
      intros [[-> | E]|(i & Hi & H)].
      * exists 0. split; [cbn [length]; rewrite Nat.pow_succ_r'; lia|]. reflexivity.
      * exists 2. split; [cbn [length]; rewrite Nat.pow_succ_r'; lia|]. cbn [shifted]. cbv zeta. change (2 mod 3) with 2.
        destruct (_ || _)%Z eqn:E2; [reflexivity|]. apply orb_false_iff in E2. rewrite Z.leb_gt in E2. lia.
      * exists (3 * i + 1). split; [cbn [length]; rewrite Nat.pow_succ_r'; lia|]. cbn [shifted]. cbv zeta.
        assert (Ed : (3 * i + 1) / 3 = i) by (rewrite Nat.add_comm, Nat.mul_comm, Nat.div_add by lia; reflexivity).
        rewrite Ed, H. destruct (_ || _)%Z; reflexivity.
Qed.

Lemma moore_count dims p : on_grid dims p -> length (moore_neighborhood dims p) < 3 ^ length dims - 1 <-> at_edge dims p.
Proof.
  intros G. rewrite <- (shifted_none dims p G).
  pose proof (on_grid_length dims p G) as Lp.
  set (isN := fun i => match shifted dims p i with None => true | Some _ => false end).
  set (isC := fun i => match shifted dims p i with Some (true, _) => true | _ => false end).
  assert (Sum : forall l, length (flat_map (fun i => match shifted dims p i with Some (false, p) => [p] | _ => [] end) l)
      + length (List.filter isN l) + length (List.filter isC l) = length l).
  { intros l. induction l as [|i l IH]; [reflexivity|]. cbn [flat_map List.filter]. unfold isN at 1, isC at 1.
    destruct (shifted dims p i) as [[[|] q]|]; cbn [app length]; lia. }
  specialize (Sum (seq 0 (3 ^ length dims))). rewrite seq_length in Sum. fold (moore_neighborhood dims p) in Sum.
  assert (C1 : length (List.filter isC (seq 0 (3 ^ length dims))) = 1).
  { destruct (shifted_ex dims p p G (close_refl p)) as (i0 & c & Hi0 & Hs).
    assert (c = true) as -> by (apply (shifted_ok _ _ _ _ _ Lp Hs); reflexivity).
    assert (In i0 (List.filter isC (seq 0 (3 ^ length dims)))).
    { apply filter_In. split; [apply in_seq; lia|]. unfold isC. rewrite Hs. reflexivity. }
    assert (U : forall i, In i (List.filter isC (seq 0 (3 ^ length dims))) -> i = i0).
    { intros i Hi. apply filter_In in Hi. destruct Hi as [Hi1 Hi2]. apply in_seq in Hi1. unfold isC in Hi2.
      destruct (shifted dims p i) as [[[|] q]|] eqn:E; try discriminate.
      assert (q = p) as -> by (apply (shifted_ok _ _ _ _ _ Lp E); reflexivity).
      eapply shifted_inj; eauto. lia. }
    assert (NDf : List.NoDup (List.filter isC (seq 0 (3 ^ length dims)))) by (apply List.NoDup_filter, seq_NoDup).
    destruct (List.filter isC (seq 0 (3 ^ length dims))) as [|a [|b l]]; [destruct H|reflexivity|].
    exfalso. rewrite (U a) in NDf by (left; reflexivity). rewrite (U b) in NDf by (right; left; reflexivity).
    inversion NDf as [|? ? H1 _]; subst. apply H1. left. reflexivity. }
  split.
  - intros H. destruct (List.filter isN (seq 0 (3 ^ length dims))) as [|i l] eqn:E; [cbn in Sum; lia|].
    assert (Hi : In i (List.filter isN (seq 0 (3 ^ length dims)))) by (rewrite E; left; reflexivity).
    apply filter_In in Hi. destruct Hi as [Hi1 Hi2]. apply in_seq in Hi1. exists i. split; [lia|]. unfold isN in Hi2.
    destruct (shifted dims p i); [discriminate|reflexivity].
  - intros (i & Hi & H). assert (Hn : In i (List.filter isN (seq 0 (3 ^ length dims)))).
    { apply filter_In. split; [apply in_seq; lia|]. unfold isN. rewrite H. reflexivity. }
    destruct (List.filter isN (seq 0 (3 ^ length dims))) as [|a l]; [destruct Hn|]. cbn [length] in Sum. lia.
Qed.

(** ** The boundary *)
Lemma any_ok op l : forall dom b dom', dom_ok op dom -> any_non_operational op dom l = (b, dom') ->
  dom_ok op dom' /\ grows dom dom' /\ (b = true <-> exists m, In m l /\ op m = false).
Proof.
  induction l as [|m l IH]; intros dom b dom' D H; cbn [any_non_operational] in H.
  - injection H as <- <-. split; [exact D|]. split; [apply grows_refl|]. split; [discriminate|]. intros (m & [] & _).
  - destruct (ask op dom m) as [c d1] eqn:Ea. destruct (ask_ok _ _ _ _ _ D Ea) as (Hc & D1 & G1 & _). destruct c.
    + destruct (IH _ _ _ D1 H) as (D2 & G2 & Hb). split; [exact D2|]. split; [eapply grows_trans; eauto|]. rewrite Hb. split.
      * intros (r & Hr & Or). exists r. split; [right; exact Hr|exact Or].
      * intros (r & [<-|Hr] & Or); [congruence|eauto].
    + injection H as <- <-. split; [exact D1|]. split; [exact G1|]. split; [|reflexivity]. intros _. exists m. split; [left; reflexivity|auto].
Qed.
Lemma boundary_status_ok dims op dom sp b dom' : dom_ok op dom -> on_grid dims sp -> op sp = true ->
  boundary_status dims op dom sp = (b, dom') -> dom_ok op dom' /\ grows dom dom' /\ (b = true <-> boundary dims op sp).
Proof.
  intros D G Os H. unfold boundary_status in H.
  destruct (Nat.ltb_spec (length (moore_neighborhood dims sp)) (3 ^ length dims - 1)) as [L|L].
  - injection H as <- <-. split; [exact D|]. split; [apply grows_refl|]. split; [|reflexivity]. intros _. split; [exact Os|]. left.
    apply moore_count; assumption.
  - destruct (any_ok _ _ _ _ _ D H) as (D' & G' & Hb). split; [exact D'|]. split; [exact G'|]. rewrite Hb. split.
    + intros (m & Hm & Om). split; [exact Os|]. right. exists m. split; [|exact Om]. apply moore_in; [apply on_grid_length; exact G|exact Hm].
    + intros (_ & [E|(m & Hm & Om)]).
      * apply moore_count in E; [lia|exact G].
      * exists m. split; [|exact Om]. apply moore_in; [apply on_grid_length; exact G|exact Hm].
Qed.

Section Surface.
Context (dims : list nat) (op : point -> bool) (start : point).
Notation surf := (surface dims op start).
Definition touched (q : point) : Prop := q = start \/ exists p, surf p /\ adjacent dims p q.

Record J (queue visited : list point) (dom : gmap point bool) : Prop := {
  j_dom : dom_ok op dom;
  j_nodup : List.NoDup visited;
  j_vis : forall v, In v visited -> on_grid dims v /\ is_Some (dom !! v);
  j_queue : forall q, In q queue -> In q visited /\ op q = true /\ touched q }.

Lemma visit_fold l : forall queue visited dom, J queue visited dom -> (forall m, In m l -> on_grid dims m /\ touched m) ->
  exists queue' visited' dom', fold_left (visit op) l (queue, visited, dom) = (queue', visited', dom') /\
    J queue' visited' dom' /\ grows dom dom' /\ (forall v, In v visited -> In v visited') /\ (forall m, In m l -> In m visited') /\
    (forall q, In q queue -> In q queue') /\
    (forall v, In v visited' -> In v visited \/ op v = false \/ In v queue') /\
    length queue' + length visited <= length queue + length visited'.
Proof.
  induction l as [|m l IH]; intros queue visited dom I0 Hl.
  - exists queue, visited, dom. cbn. split; [reflexivity|]. split; [exact I0|]. split; [apply grows_refl|]. repeat split; auto; try tauto.
  - cbn [fold_left visit]. case_bool_decide as Hd.
    + destruct (IH queue visited dom I0) as (q' & v' & d' & E & I1 & G1 & V1 & V2 & Q1 & Q2 & L1); [intros r Hr; apply Hl; right; exact Hr|].
      exists q', v', d'. split; [exact E|]. split; [exact I1|]. split; [exact G1|]. split; [exact V1|]. split; [|split; [exact Q1|split; [exact Q2|exact L1]]].
      intros r [<-|Hr]; [apply V1, elem_of_list_In; exact Hd|auto].
    + rewrite elem_of_list_In in Hd. destruct (ask op dom m) as [b d1] eqn:Ea. pose proof I0 as [J1 J2 J3 J4].
      destruct (ask_ok _ _ _ _ _ J1 Ea) as (-> & D1 & Gr1 & K1).
      destruct (Hl m ltac:(left; reflexivity)) as [Gm Tm].
      destruct (IH (if op m then queue ++ [m] else queue) (visited ++ [m]) d1) as (q' & v' & d' & E & I1 & G1 & V1 & V2 & Q1 & Q2 & L1).
      { split.
        - exact D1.
        - apply NoDup_snoc; assumption.
        - intros v Hv. apply in_app_or in Hv. destruct Hv as [Hv|[<-|[]]]; [|auto]. destruct (J3 v Hv). auto.
        - intros q Hq. assert (H : In q queue \/ (q = m /\ op m = true)).
          { destruct (op m); [apply in_app_or in Hq; destruct Hq as [Hq|[<-|[]]]; auto|auto]. }
          destruct H as [H|[-> H]]; [destruct (J4 q H) as (H1 & H2 & H3); split; [apply in_or_app; auto|auto]|].
          split; [apply in_or_app; right; left; reflexivity|auto]. }
      { intros r Hr. apply Hl. right. exact Hr. }
      exists q', v', d'. split; [exact E|]. split; [exact I1|]. split; [eapply grows_trans; eauto|].
      split; [intros v Hv; apply V1, in_or_app; auto|]. split; [|split; [|split]].
      * intros r [<-|Hr]; [apply V1, in_or_app; right; left; reflexivity|auto].
      * intros q Hq. apply Q1. destruct (op m); [apply in_or_app; auto|exact Hq].
      * intros v Hv. destruct (Q2 v Hv) as [H|[H|H]]; auto. apply in_app_or in H. destruct H as [H|[<-|[]]]; auto.
        destruct (op m) eqn:Om; [|auto]. right. right. apply Q1. apply in_or_app. right. left. reflexivity.
      * rewrite !app_length in *. cbn [length] in *. destruct (op m); rewrite ?app_length in L1; cbn [length] in L1; lia.
Qed.

Lemma surface_loop_ok : forall rounds queue visited contour dom, J queue visited dom -> In start visited ->
  (forall p, In p contour -> surf p /\ forall m, adjacent dims p m -> In m visited) ->
  (forall v, In v visited -> op v = true -> In v queue \/ In v contour \/ ~ boundary dims op v) ->
  length queue + (length (all_points dims) - length visited) <= rounds ->
  exists contour' dom', surface_loop dims op rounds queue visited contour dom = Some (contour', dom') /\
    dom_ok op dom' /\ grows dom dom' /\ (forall p, In p contour' <-> surf p) /\
    (forall p m, surf p -> adjacent dims p m -> is_Some (dom' !! m)).
Proof.
  induction rounds as [|rounds IH]; intros queue visited contour dom I0 Hs Hc Hv L.
  1, 2: destruct queue as [|sp q].
  2: cbn in L; lia.
  1, 2: exists contour, dom; split; [reflexivity|]; split; [apply I0|]; split; [apply grows_refl|];
    assert (E : forall p, surf p -> In p contour) by
      (intros p Hp; induction Hp as [Hb|p m Hp IHp Ha Hb];
       [destruct (Hv start Hs (proj1 Hb)) as [[]|[?|?]]; [assumption|contradiction]|
        destruct (Hv m (proj2 (Hc p IHp) m Ha) (proj1 Hb)) as [[]|[?|?]]; [assumption|contradiction]]);
    split; [intros p; split; [apply Hc|apply E]|];
    intros p m Hp Ha; apply (j_vis _ _ _ I0); apply (Hc p (E p Hp)); exact Ha.
  cbn [surface_loop]. destruct (boundary_status dims op dom sp) as [b d1] eqn:Eb.
  pose proof I0 as [J1 J2 J3 J4].
  destruct (J4 sp ltac:(left; reflexivity)) as (Vs & Os & Ts).
  destruct (J3 sp Vs) as [Gs Ks].
  destruct (boundary_status_ok _ _ _ _ _ _ J1 Gs Os Eb) as (D1 & G1 & B1).
  assert (I1 : J q visited d1).
  { split; [exact D1|exact J2| |].
    - intros v Hv'. destruct (J3 v Hv'). split; [assumption|apply G1; assumption].
    - intros r Hr. apply J4. right. exact Hr. }
  destruct b.
  - assert (Bs : boundary dims op sp) by (apply B1; reflexivity).
    assert (Ss : surf sp).
    { destruct Ts as [->|(p & Hp & Ha)]; [apply surface_start; exact Bs|eapply surface_next; eauto]. }
    destruct (visit_fold (moore_neighborhood dims sp) q visited d1 I1) as (q' & v' & d2 & E & I2 & G2 & V1 & V2 & Q1 & Q2 & L1).
    { intros m Hm. apply moore_in in Hm; [|apply on_grid_length; exact Gs]. split; [apply Hm|]. right. exists sp. auto. }
    rewrite E.
    destruct (IH q' v' (contour ++ [sp]) d2 I2) as (c' & d' & E' & D' & G' & C' & K').
    + apply V1. exact Hs.
    + intros p Hp. apply in_app_or in Hp. destruct Hp as [Hp|[<-|[]]].
      * destruct (Hc p Hp) as [H1 H2]. split; [exact H1|]. intros m Hm. apply V1, H2, Hm.
      * split; [exact Ss|]. intros m Hm. apply V2. apply moore_in; [apply on_grid_length; exact Gs|exact Hm].
    + intros v Hv' Ov. destruct (Q2 v Hv') as [H|[H|H]]; [|congruence|auto].
      destruct (Hv v H Ov) as [[<-|H']|[H'|H']]; auto; right; left; apply in_or_app; [right; left; reflexivity|auto].
    + pose proof (grid_length dims v' (j_nodup _ _ _ I2) (fun v H => proj1 (j_vis _ _ _ I2 v H))) as B2.
      cbn [length] in L. lia.
    + exists c', d'. split; [exact E'|]. split; [exact D'|]. split; [eapply grows_trans; [exact G1|eapply grows_trans; eauto]|]. split; assumption.
  - assert (NB : ~ boundary dims op sp) by (intros Hb; apply B1 in Hb; discriminate).
    destruct (IH q visited contour d1 I1 Hs Hc) as (c' & d' & E' & D' & G' & C' & K').
    + intros v Hv' Ov. destruct (Hv v Hv' Ov) as [[<-|H']|[H'|H']]; auto.
    + cbn [length] in L. lia.
    + exists c', d'. split; [exact E'|]. split; [exact D'|]. split; [eapply grows_trans; eauto|]. split; assumption.
Qed.
End Surface.

(** ** All samples, three and more dimensions *)
Lemma region_trans dims op a b c : region dims op a b -> region dims op b c -> region dims op a c.
Proof. intros H1 H2. induction H2 as [|p m _ IH B O]; [exact H1|]. eapply region_next; eauto. Qed.
Lemma region_op dims op a b : region dims op a b -> op b = true.
Proof. intros H. destruct H; assumption. Qed.
Lemma leftmost_region dims op s l : on_grid dims s -> leftmost op s l -> region dims op s l.
Proof.
  intros G (x & y & rest & -> & -> & L & K & _).
  assert (H : forall d, y + d <= x -> region dims op (x :: rest) ((x - d) :: rest)).
  { induction d as [|d IH]; intros Hd; [rewrite Nat.sub_0_r; apply region_start; apply K; lia|].
    eapply region_next; [apply IH; lia| |apply K; lia]. split.
    - inversion G; subst. constructor; [lia|assumption].
    - exists [], (x - d), (x - S d), rest. split; [reflexivity|]. split; [reflexivity|]. lia. }
  specialize (H (x - y) ltac:(lia)). replace (x - (x - y)) with y in H by lia. exact H.
Qed.
Lemma surface_trans dims op a b c : surface dims op a b -> surface dims op b c -> surface dims op a c.
Proof. intros H1 H2. induction H2 as [|p m _ IH A B]; [exact H1|]. eapply surface_next; eauto. Qed.
Lemma leftmost_unique op s a b : leftmost op s a -> leftmost op s b -> a = b.
Proof.
  intros (x & y & r & -> & -> & L & K & Z) (x' & y' & r' & E & -> & L' & K' & Z'). injection E as <- <-. f_equal.
  destruct (Nat.lt_trichotomy y y') as [H|[H|H]]; [|exact H|].
  - destruct Z' as [Z'|(z & -> & Oz)]; [lia|]. rewrite (K z) in Oz by lia. discriminate.
  - destruct Z as [Z|(z & -> & Oz)]; [lia|]. rewrite (K' z) in Oz by lia. discriminate.
Qed.

Definition recorded_surface (dims : list nat) (op : point -> bool) (dom : gmap point bool) (s : point) : Prop :=
  forall l, leftmost op s l -> forall p, surface dims op l p -> is_Some (dom !! p) /\ forall m, adjacent dims p m -> is_Some (dom !! m).
Lemma recorded_grows dims op d d' s : grows d d' -> recorded_surface dims op d s -> recorded_surface dims op d' s.
Proof. intros G H l Hl p Hp. destruct (H l Hl p Hp) as [H1 H2]. split; [apply G; exact H1|]. intros m Hm. apply G, H2, Hm. Qed.

Lemma trace_surface_ok dims op rounds : dims <> [] -> length (all_points dims) <= rounds -> forall samples dom inf,
  dom_ok op dom -> (forall s, In s samples -> on_grid dims s /\ is_Some (dom !! s)) ->
  List.NoDup inf -> (forall p, In p inf -> on_grid dims p) ->
  exists dom' inf', trace_boundary_surface dims op rounds samples dom inf = Some (dom', inf') /\
    dom_ok op dom' /\ grows dom dom' /\
    (forall p, In p inf -> In p inf') /\ (forall s, In s samples -> op s = true -> In s inf') /\
    ((forall s, In s samples -> op s = true -> hole_free dims op s) ->
     (forall p, In p inf -> exists s0, region dims op s0 p /\ hole_free dims op s0 /\ on_grid dims s0 /\ recorded_surface dims op dom s0) ->
     forall p, In p inf' -> exists s0, region dims op s0 p /\ hole_free dims op s0 /\ on_grid dims s0 /\ recorded_surface dims op dom' s0).
Proof.
  intros Nd Hr. induction samples as [|s samples IH]; intros dom inf D HS ND GI.
  - exists dom, inf. cbn. split; [reflexivity|]. split; [exact D|]. split; [apply grows_refl|]. split; [auto|]. split; [intros s []|auto].
  - cbn [trace_boundary_surface].
    destruct (HS s ltac:(left; reflexivity)) as [Gs [b Ks]]. pose proof (D _ _ Ks) as Hb.
    assert (HS' : forall s', In s' samples -> on_grid dims s' /\ is_Some (dom !! s')) by (intros s' H; apply HS; right; exact H).
    rewrite Ks. destruct b.
    2: { destruct (IH dom inf D HS' ND GI) as (d' & i' & E & D' & G' & M' & S' & R'). exists d', i'. split; [exact E|]. split; [exact D'|].
         split; [exact G'|]. split; [exact M'|]. split; [|intros HF; apply R'; intros s' H; apply HF; right; exact H].
         intros s' [<-|H] O; [congruence|auto]. }
    case_bool_decide as Hi.
    { apply elem_of_list_In in Hi.
      destruct (IH dom inf D HS' ND GI) as (d' & i' & E & D' & G' & M' & S' & R'). exists d', i'. split; [exact E|]. split; [exact D'|].
      split; [exact G'|]. split; [exact M'|]. split; [|intros HF; apply R'; intros s' H; apply HF; right; exact H].
      intros s' [<-|H] O; auto. }
    destruct (find_contour_point op dom s) as [l d1] eqn:Ef.
    assert (Ns : s <> []) by (intros ->; inversion Gs; subst; congruence).
    destruct (find_ok _ _ _ _ _ D (eq_sym Hb) (ex_intro _ _ Ks) Ns Ef) as (D1 & G1 & Lm & Kl).
    pose proof (leftmost_grid _ _ _ _ Gs Lm) as Gl. pose proof (leftmost_op _ _ _ Lm) as Ol.
    pose proof (leftmost_boundary _ _ _ _ Gs Lm) as Bl.
    destruct (surface_loop_ok dims op l rounds [l] [l] [] d1) as (contour & d2 & Es & D2 & G2 & C2 & K2).
    + split; [exact D1|repeat constructor; auto| |].
      * intros v [<-|[]]. auto.
      * intros q [<-|[]]. split; [left; reflexivity|]. split; [exact Ol|left; reflexivity].
    + left. reflexivity.
    + intros p [].
    + intros v [<-|[]] _. left. left. reflexivity.
    + cbn [length]. assert (P : In l (all_points dims)) by (apply all_points_in; exact Gl).
      destruct (all_points dims); [destruct P|cbn [length] in *; lia].
    + rewrite Es.
      destruct (infer_ok dims d2 contour rounds s inf ND GI Gs Hr) as (inf1 & Ei & N1 & GI1 & M1 & S1 & Q1). rewrite Ei.
      destruct (IH d2 inf1 D2) as (d' & i' & E & D' & G' & M' & S' & R'); [|exact N1|exact GI1|].
      { intros s' H. destruct (HS' s' H) as [H1 H2]. split; [exact H1|]. apply G2, G1, H2. }
      exists d', i'. split; [exact E|]. split; [exact D'|]. split; [eapply grows_trans; [exact G1|eapply grows_trans; eauto]|].
      split; [auto|]. split; [intros s' [<-|H] O; auto|].
      intros HF HI. apply R'; [intros s' H; apply HF; right; exact H|].
      assert (Rs : recorded_surface dims op d2 s).
      { intros l' Hl' p Hp. rewrite (leftmost_unique _ _ _ _ Hl' Lm) in Hp. split; [|intros m Hm; eapply K2; eauto].
        destruct Hp as [|q m Hq Ha _]; [apply G2; exact Kl|eapply K2; eauto]. }
      intros p Hp.
      destruct (Q1 (region dims op s)) with (p := p) as [H|H].
      * apply region_start. auto.
      * intros q m Rq Gq Nc Bm _. eapply region_next; [exact Rq|exact Bm|].
        destruct (op m) eqn:Om; [reflexivity|exfalso]. apply Nc. apply C2.
        apply (HF s ltac:(left; reflexivity) (eq_sym Hb) l q Lm Rq).
        split; [eapply region_op; eauto|]. right. exists m. split; [apply beside_adjacent; exact Bm|exact Om].
      * exact Hp.
      * destruct (HI p H) as (s0 & A1 & A2 & A3 & A4). exists s0. split; [exact A1|]. split; [exact A2|]. split; [exact A3|].
        eapply recorded_grows; [|exact A4]. eapply grows_trans; eauto.
      * exists s. split; [exact H|]. split; [apply HF; [left; reflexivity|auto]|]. split; [exact Gs|exact Rs].
Qed.

(** Under the assumption that no region has holes, the whole boundary of every region with a sample is recorded. *)
Lemma recorded_everywhere dims op dom s s0 : on_grid dims s -> on_grid dims s0 -> hole_free dims op s0 -> region dims op s0 s ->
  recorded_surface dims op dom s0 -> recorded_surface dims op dom s.
Proof.
  intros Gs G0 HF R Rec l Hl p Hp.
  assert (L0 : exists l0, leftmost op s0 l0).
  { assert (O0 : op s0 = true) by (clear -R; induction R; assumption).
    destruct s0 as [|x rest].
    - exfalso. inversion G0; subst. inversion Gs; subst. destruct Hl as (? & ? & ? & ? & _). discriminate.
    - clear -O0. revert O0. induction x as [|x IH]; intros O.
      + exists (0 :: rest). exists 0, 0, rest. repeat split; auto. intros k H1 H2. replace k with 0 by lia. exact O.
      + destruct (op (x :: rest)) eqn:Ox.
        * destruct (IH eq_refl) as (l0 & a & b & r & E & -> & L & K & Z). injection E as <- <-. exists (b :: rest), (S x), b, rest.
          repeat split; auto. intros k H1 H2. destruct (Nat.eq_dec k (S x)) as [->|]; [exact O|apply K; lia].
        * exists (S x :: rest), (S x), (S x), rest. repeat split; auto.
          -- intros k H1 H2. replace k with (S x) by lia. exact O.
          -- right. exists x. auto. }
  destruct L0 as (l0 & Hl0).
  apply (Rec l0 Hl0 p). eapply surface_trans; [|exact Hp]. apply HF; [exact Hl0| |].
  - eapply region_trans; [exact R|]. apply leftmost_region; assumption.
  - apply (leftmost_boundary dims op s l Gs Hl).
Qed.

(** ** All samples, two dimensions *)
Lemma leftmost_exists op s : s <> [] -> op s = true -> exists l, leftmost op s l.
Proof.
  destruct s as [|x rest]; [congruence|]. intros _. induction x as [|x IH]; intros O.
  - exists (0 :: rest). exists 0, 0, rest. split; [reflexivity|]. split; [reflexivity|]. split; [lia|]. split; [|auto].
    intros k H1 H2. replace k with 0 by lia. exact O.
  - destruct (op (x :: rest)) eqn:Ox.
    + destruct (IH eq_refl) as (l0 & a & b & r & E & -> & L & K & Z). injection E as <- <-. exists (b :: rest), (S x), b, rest.
      split; [reflexivity|]. split; [reflexivity|]. split; [lia|]. split; [|exact Z].
      intros k H1 H2. destruct (Nat.eq_dec k (S x)) as [->|]; [exact O|apply K; lia].
    + exists (S x :: rest), (S x), (S x), rest. split; [reflexivity|]. split; [reflexivity|]. split; [lia|]. split.
      * intros k H1 H2. replace k with (S x) by lia. exact O.
      * right. exists x. auto.
Qed.

Lemma curve_more op nx ny r1 r2 : r1 <= r2 -> length (all_points [nx; ny]) <= r1 -> forall samples dom inf res,
  dom_ok op dom -> (forall s, In s samples -> on_grid [nx; ny] s /\ is_Some (dom !! s)) ->
  List.NoDup inf -> (forall p, In p inf -> on_grid [nx; ny] p) ->
  trace_contour_curve op nx ny r1 samples dom inf = Some res -> trace_contour_curve op nx ny r2 samples dom inf = Some res.
Proof.
  intros L Hr. induction samples as [|s samples IH]; intros dom inf res D HS ND GI H; cbn [trace_contour_curve] in *; [exact H|].
  destruct (HS s ltac:(left; reflexivity)) as [Gs [b Ks]]. pose proof (D _ _ Ks) as Hb.
  assert (HS' : forall s', In s' samples -> on_grid [nx; ny] s' /\ is_Some (dom !! s')) by (intros s' H'; apply HS; right; exact H').
  rewrite Ks in *. destruct b; [|apply IH; assumption]. case_bool_decide; [apply IH; assumption|].
  destruct (find_contour_point op dom s) as [l d1] eqn:Ef.
  assert (Ns : s <> []) by (intros ->; inversion Gs).
  destruct (find_ok _ _ _ _ _ D (eq_sym Hb) (ex_intro _ _ Ks) Ns Ef) as (D1 & G1 & Lm & Kl).
  pose proof (leftmost_grid _ _ _ _ Gs Lm) as Gl. pose proof (leftmost_op _ _ _ Lm) as Ol.
  destruct (trace_contour op nx ny r1 l d1) as [[contour d2]|] eqn:Et; [|discriminate].
  rewrite (trace_contour_more op nx ny r1 r2 _ _ _ L Et).
  destruct (trace_contour_result _ _ _ _ _ _ _ _ D1 Gl Ol Kl Et) as (D2 & G2 & _).
  destruct (infer_ok [nx; ny] d2 contour r1 s inf ND GI Gs Hr) as (i1 & E1 & N1 & GI1 & _). rewrite E1 in H.
  assert (E2 : infer [nx; ny] d2 contour r2 s inf = Some i1).
  { clear -E1 L. unfold infer in *. case_bool_decide; [exact E1|]. revert E1. generalize [s] as q, (inf ++ [s]) as i. revert r2 L.
    induction r1 as [|r1 IH]; intros r2 L q i E.
    - destruct q; [|discriminate]. destruct r2; exact E.
    - destruct r2 as [|r2]; [lia|]. destruct q as [|a q]; [exact E|]. cbn [infer_loop] in *. case_bool_decide; [apply (IH r2); [lia|exact E]|].
      destruct (fold_left _ _ _) as [q' i']. apply (IH r2); [lia|exact E]. }
  rewrite E2. apply IH; auto. intros s' H'. destruct (HS' s' H') as [H1 H2]. split; [exact H1|]. apply G2, G1, H2.
Qed.

Lemma curve_result op nx ny rounds : length (all_points [nx; ny]) <= rounds -> forall samples dom inf dom' inf',
  dom_ok op dom -> (forall s, In s samples -> on_grid [nx; ny] s /\ is_Some (dom !! s)) ->
  List.NoDup inf -> (forall p, In p inf -> on_grid [nx; ny] p) ->
  trace_contour_curve op nx ny rounds samples dom inf = Some (dom', inf') ->
  dom_ok op dom' /\ grows dom dom' /\ (forall p, In p inf -> In p inf') /\ (forall s, In s samples -> op s = true -> In s inf').
Proof.
  intros Hr. induction samples as [|s samples IH]; intros dom inf dom' inf' D HS ND GI H; cbn [trace_contour_curve] in H.
  - injection H as <- <-. split; [exact D|]. split; [apply grows_refl|]. split; [auto|]. intros s [].
  - destruct (HS s ltac:(left; reflexivity)) as [Gs [b Ks]]. pose proof (D _ _ Ks) as Hb.
    assert (HS' : forall s', In s' samples -> on_grid [nx; ny] s' /\ is_Some (dom !! s')) by (intros s' H'; apply HS; right; exact H').
    rewrite Ks in *. destruct b.
    2: { destruct (IH _ _ _ _ D HS' ND GI H) as (H1 & H2 & H3 & H4). split; [exact H1|]. split; [exact H2|]. split; [exact H3|].
         intros s' [<-|H'] O; [congruence|auto]. }
    case_bool_decide as Hi.
    { apply elem_of_list_In in Hi. destruct (IH _ _ _ _ D HS' ND GI H) as (H1 & H2 & H3 & H4). split; [exact H1|]. split; [exact H2|].
      split; [exact H3|]. intros s' [<-|H'] O; auto. }
    destruct (find_contour_point op dom s) as [l d1] eqn:Ef.
    assert (Ns : s <> []) by (intros ->; inversion Gs).
    destruct (find_ok _ _ _ _ _ D (eq_sym Hb) (ex_intro _ _ Ks) Ns Ef) as (D1 & G1 & Lm & Kl).
    pose proof (leftmost_grid _ _ _ _ Gs Lm) as Gl. pose proof (leftmost_op _ _ _ Lm) as Ol.
    destruct (trace_contour op nx ny rounds l d1) as [[contour d2]|] eqn:Et; [|discriminate].
    destruct (trace_contour_result _ _ _ _ _ _ _ _ D1 Gl Ol Kl Et) as (D2 & G2 & _).
    destruct (infer_ok [nx; ny] d2 contour rounds s inf ND GI Gs Hr) as (i1 & E1 & N1 & GI1 & M1 & S1 & _). rewrite E1 in H.
    destruct (IH _ _ _ _ D2 ltac:(intros s' H'; destruct (HS' s' H') as [A B]; split; [exact A|apply G2, G1, B]) N1 GI1 H) as (H1 & H2 & H3 & H4).
    split; [exact H1|]. split; [eapply grows_trans; [exact G1|eapply grows_trans; eauto]|]. split; [auto|].
    intros s' [<-|H'] O; auto.
Qed.

Lemma curve_ends op nx ny : (forall p, on_grid [nx; ny] p -> op p = true -> exists m, adjacent [nx; ny] p m /\ op m = true) ->
  forall samples dom inf,
  dom_ok op dom -> (forall s, In s samples -> on_grid [nx; ny] s /\ is_Some (dom !! s)) ->
  List.NoDup inf -> (forall p, In p inf -> on_grid [nx; ny] p) ->
  exists rounds res, length (all_points [nx; ny]) <= rounds /\ trace_contour_curve op nx ny rounds samples dom inf = Some res.
Proof.
  intros NI. induction samples as [|s samples IH]; intros dom inf D HS ND GI.
  - exists (length (all_points [nx; ny])), (dom, inf). split; [lia|reflexivity].
  - destruct (HS s ltac:(left; reflexivity)) as [Gs [b Ks]]. pose proof (D _ _ Ks) as Hb.
    assert (HS' : forall s', In s' samples -> on_grid [nx; ny] s' /\ is_Some (dom !! s')) by (intros s' H'; apply HS; right; exact H').
    cbn [trace_contour_curve]. rewrite Ks. destruct b; [|apply IH; assumption].
    case_bool_decide as Hi; [apply IH; assumption|].
    destruct (find_contour_point op dom s) as [l d1] eqn:Ef.
    assert (Ns : s <> []) by (intros ->; inversion Gs).
    destruct (find_ok _ _ _ _ _ D (eq_sym Hb) (ex_intro _ _ Ks) Ns Ef) as (D1 & G1 & Lm & Kl).
    pose proof (leftmost_grid _ _ _ _ Gs Lm) as Gl. pose proof (leftmost_op _ _ _ Lm) as Ol.
    destruct (proj2 (trace_contour_ends op nx ny l d1 D1 Gl Ol) (or_introl (NI l Gl Ol))) as (r1 & [contour d2] & Et).
    destruct (trace_contour_result _ _ _ _ _ _ _ _ D1 Gl Ol Kl Et) as (D2 & G2 & _).
    set (r2 := Nat.max r1 (length (all_points [nx; ny]))).
    destruct (infer_ok [nx; ny] d2 contour r2 s inf ND GI Gs ltac:(unfold r2; lia)) as (i1 & E1 & N1 & GI1 & M1 & S1 & _).
    destruct (IH d2 i1 D2 ltac:(intros s' H'; destruct (HS' s' H') as [A B]; split; [exact A|apply G2, G1, B]) N1 GI1) as (r3 & res & L3 & E3).
    exists (Nat.max r2 r3), res. split; [unfold r2; lia|].
    rewrite (trace_contour_more op nx ny r1 (Nat.max r2 r3) _ _ _ ltac:(unfold r2; lia) Et).
    assert (E2 : infer [nx; ny] d2 contour (Nat.max r2 r3) s inf = Some i1).
    { assert (L : r2 <= Nat.max r2 r3) by lia. revert L. generalize (Nat.max r2 r3) as r4. clear -E1. intros r4 L.
      unfold infer in *. case_bool_decide; [exact E1|]. revert E1. generalize [s] as q, (inf ++ [s]) as i. revert r4 L. generalize dependent r2. clear.
      intros r1. induction r1 as [|r1 IH]; intros r4 L q i E.
      - destruct q; [|discriminate]. destruct r4; exact E.
      - destruct r4 as [|r4]; [lia|]. destruct q as [|a q]; [exact E|]. cbn [infer_loop] in *. case_bool_decide; [apply (IH r4); [lia|exact E]|].
        destruct (fold_left _ _ _) as [q' i']. apply (IH r4); [lia|exact E]. }
    rewrite E2. apply (curve_more op nx ny r3); auto; [lia|].
    intros s' H'. destruct (HS' s' H') as [A B]. split; [exact A|apply G2, G1, B].
Qed.
