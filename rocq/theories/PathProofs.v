(** Proofs about A*. *)
From Coq Require Import ZArith Bool List Permutation Lia.
From stdpp Require Import gmap list.
From Verif Require Import CoordModel CoordSpec CoordProofs GridModel GridSpec CoordMap PathModel PathSpec.
Import ListNotations.
Local Open Scope Z_scope.

Lemma enter_permitted L cr tgt u v :
  (exists w, In w (pf_succ L u) /\ enter L cr tgt u w = Some v) <-> permitted L cr tgt u v.
Proof.
  split.
  - intros (w & Hw & E). unfold enter in E.
    destruct (pf_obst L (pf_below L w)) eqn:Eo; cbn [andb] in E.
    + destruct (coord_eqb (pf_below L w) tgt) eqn:Et; cbn [negb] in E.
      * destruct (pf_conn L u (pf_below L w)) eqn:Ec; [discriminate|]. inversion E; subst. apply coord_eqb_spec in Et.
        eapply enter_free; eauto.
      * destruct cr; cbn [andb] in E; [|discriminate].
        destruct (pf_cross L u (pf_below L w) || coord_eqb (pf_above L (pf_below L w)) tgt) eqn:Ex; [|discriminate].
        destruct (negb (coord_eqb (pf_above L (pf_below L w)) (pf_below L w)) &&
          (negb (pf_obst L (pf_above L (pf_below L w))) || coord_eqb (pf_above L (pf_below L w)) tgt)) eqn:Ea; [|discriminate].
        destruct (pf_conn L u (pf_above L (pf_below L w))) eqn:Ec; [discriminate|]. inversion E; subst.
        apply andb_true_iff in Ea as [Ea1 Ea2]. apply negb_true_iff in Ea1.
        eapply (enter_crossing L true tgt u _ w); try reflexivity; try assumption.
        -- intros K. apply coord_eqb_spec in K. congruence.
        -- intros K. apply coord_eqb_spec in K. congruence.
        -- apply orb_true_iff in Ex as [K|K]; [left; exact K|right; apply coord_eqb_spec; exact K].
        -- apply orb_true_iff in Ea2 as [K|K]; [left; apply negb_true_iff; exact K|right; apply coord_eqb_spec; exact K].
    + destruct (pf_conn L u (pf_below L w)) eqn:Ec; [discriminate|]. inversion E; subst. eapply enter_free; eauto.
  - intros [w Hw Hv Ho Hc|w g Hw Hg Hcr Hog Hgt Hv Hvg Hx Hov Hc]; exists w; (split; [exact Hw|]); unfold enter.
    + rewrite <- Hv. destruct Ho as [Ho|Ho].
      * rewrite Ho. cbn [andb]. rewrite Hc. reflexivity.
      * replace (coord_eqb v tgt) with true by (symmetry; apply coord_eqb_spec; exact Ho). rewrite andb_false_r, Hc. reflexivity.
    + rewrite <- Hg, Hog. subst cr. replace (coord_eqb g tgt) with false by (symmetry; apply not_true_is_false; rewrite coord_eqb_spec; exact Hgt).
      cbn [negb andb]. rewrite <- Hv.
      replace (pf_cross L u g || coord_eqb v tgt) with true.
      2:{ symmetry. apply orb_true_iff. destruct Hx as [Hx|Hx]; [left; exact Hx|right; apply coord_eqb_spec; exact Hx]. }
      replace (coord_eqb v g) with false by (symmetry; apply not_true_is_false; rewrite coord_eqb_spec; exact Hvg).
      replace (negb (pf_obst L v) || coord_eqb v tgt) with true.
      2:{ symmetry. apply orb_true_iff. destruct Hov as [K|K]; [left; rewrite K; reflexivity|right; apply coord_eqb_spec; exact K]. }
      cbn [negb andb]. rewrite Hc. reflexivity.
Qed.

Lemma walk_snoc step s u v p : walk step s u p -> step u v -> walk step s v (p ++ [v]).
Proof.
  induction 1 as [s|s w t p Hs Hw IH]; intros Hv; cbn [app].
  - eapply walk_step; [exact Hv|]. apply walk_end.
  - eapply walk_step; [exact Hs|]. apply IH, Hv.
Qed.

Lemma find_open_some {V} v (l : list (coord * V)) : forall k i, find_open v l k = Some i ->
  exists f, (k <= i)%nat /\ l !! (i - k)%nat = Some (v, f).
Proof.
  induction l as [|[c f] l IH]; intros k i H; cbn [find_open] in H; [discriminate|]. cbn [fst] in H.
  destruct (coord_eqb c v) eqn:E.
  - inversion H; subst. exists f. rewrite Nat.sub_diag. apply coord_eqb_spec in E. subst. split; [lia|reflexivity].
  - destruct (IH _ _ H) as (g & H1 & H2). exists g. split; [lia|]. replace (i - k)%nat with (S (i - S k)) by lia. exact H2.
Qed.
Lemma find_open_none {V} v (l : list (coord * V)) : forall k, find_open v l k = None -> ~ In v (map fst l).
Proof.
  induction l as [|[c f] l IH]; intros k H; cbn [find_open fst map] in *; [intros []|].
  destruct (coord_eqb c v) eqn:E; [discriminate|]. intros [K|K].
  - apply coord_eqb_spec in K. congruence.
  - exact (IH _ H K).
Qed.
Lemma insert_fst {V} (l : list (coord * V)) : forall i v f g, l !! i = Some (v, f) -> map fst (<[i := (v, g)]> l) = map fst l.
Proof.
  induction l as [|[c h] l IH]; intros [|i] v f g H; try discriminate.
  - inversion H; subst. reflexivity.
  - cbn. f_equal. eapply IH. exact H.
Qed.
Lemma insert_In {V} (l : list (coord * V)) i e x : In x (<[i := e]> l) -> x = e \/ In x l.
Proof.
  revert i. induction l as [|y l IH]; intros [|i] H; cbn in *; try tauto.
  - destruct H as [H|H]; [left; congruence|tauto].
  - destruct H as [H|H]; [tauto|]. destruct (IH _ H); tauto.
Qed.

Section AStarProofs.
Context {V : Type} (O : vops V) (Q : queue V) (HQ : queue_ok Q) (L : pf) (crossings : bool) (src tgt : coord).
Notation step := (permitted L crossings tgt).
Notation explore := (explore O Q L crossings tgt).
Notation a_run := (a_run O Q L crossings src tgt).

(** The closed coordinates in the order of closing (latest first): every one except the source was
    entered from an earlier one. *)
Definition linked (from : gmap coord coord) (ord : list coord) : Prop :=
  forall l1 c l2, ord = l1 ++ c :: l2 ->
    (c = src /\ l2 = []) \/ (c <> src /\ exists p, from !! c = Some p /\ In p l2 /\ step p c).
Record inv (ord : list coord) (st : astate V) : Prop := mkInv {
  i_open_nodup : List.NoDup (map fst (a_open st));
  i_nodup : List.NoDup ord;
  i_closed : forall c, c ∈ a_closed st <-> In c ord;
  i_disj : forall c, In c (map fst (a_open st)) -> ~ In c ord;
  i_linked : linked (a_from st) ord;
  i_open : forall c, In c (map fst (a_open st)) ->
    (ord = [] /\ c = src) \/ (c <> src /\ exists p, a_from st !! c = Some p /\ In p ord /\ step p c);
  i_start : ord = [] -> map fst (a_open st) = [src]
}.

Lemma linked_src from ord : linked from ord -> ord <> [] -> In src ord.
Proof.
  intros H Hn. destruct (exists_last Hn) as (l & c & E). destruct (H l c [] E) as [[Hc _]|(_ & p & _ & [] & _)].
  rewrite E, Hc. apply in_or_app. right. left. reflexivity.
Qed.
Lemma linked_univ from ord U : linked from ord -> universe step src U -> forall c, In c ord -> In c U.
Proof.
  intros H [Hs Hu]. induction ord as [|a ord IH]; intros c Hc; [destruct Hc|].
  assert (Hl : linked from ord). { intros l1 x l2 E. apply (H (a :: l1) x l2). rewrite E. reflexivity. }
  destruct Hc as [Hc|Hc]; [|exact (IH Hl c Hc)]. subst.
  destruct (H [] c ord eq_refl) as [[K _]|(_ & p & _ & Hp & Hst)]; [congruence|]. eapply Hu; [exact (IH Hl p Hp)|exact Hst].
Qed.
Lemma inv_univ ord st U c : inv ord st -> universe step src U -> In c (map fst (a_open st)) -> In c U.
Proof.
  intros I HU Hc. destruct (i_open _ _ I c Hc) as [[_ E]|(_ & p & _ & Hp & Hs)]; [subst; apply HU|].
  destruct HU as [H1 H2]. eapply H2; [|exact Hs]. eapply linked_univ; [apply (i_linked _ _ I)|split; assumption|exact Hp].
Qed.

Lemma explore_inv ord st cur w : inv ord st -> In cur ord -> In w (pf_succ L cur) ->
  inv ord (explore cur st w) /\
  (forall c, In c (map fst (a_open st)) -> In c (map fst (a_open (explore cur st w)))) /\
  (forall v, enter L crossings tgt cur w = Some v -> In v ord \/ In v (map fst (a_open (explore cur st w)))).
Proof.
  intros I Hcur Hw. unfold PathModel.explore. destruct (enter L crossings tgt cur w) as [v|] eqn:En.
  2:{ split; [exact I|]. split; [auto|]. intros v K; discriminate. }
  assert (Hst : step cur v) by (apply enter_permitted; eauto).
  case_bool_decide as Hcl.
  { split; [exact I|]. split; [auto|]. intros v' K. inversion K; subst. left. apply (i_closed _ _ I). exact Hcl. }
  rewrite (i_closed _ _ I) in Hcl.
  assert (Hsrc : v <> src). { intros ->. apply Hcl. eapply linked_src; [apply (i_linked _ _ I)|]. intros E. rewrite E in Hcur. destruct Hcur. }
  assert (Hlk : linked (<[v := cur]> (a_from st)) ord).
  { intros l1 c l2 E. destruct (i_linked _ _ I l1 c l2 E) as [K|(K & p & K1 & K2 & K3)]; [left; exact K|]. right. split; [exact K|]. exists p.
    rewrite lookup_insert_ne; [auto|]. intros ->. apply Hcl. rewrite E. apply in_or_app. right. left. reflexivity. }
  assert (Hopen : forall c, c = v \/ In c (map fst (a_open st)) ->
     (ord = [] /\ c = src) \/ (c <> src /\ exists p, (<[v := cur]> (a_from st) : gmap coord coord) !! c = Some p /\ In p ord /\ step p c)).
  { intros c Hc. right. destruct (coord_eq_dec c v) as [->|Hne].
    - split; [exact Hsrc|]. exists cur. rewrite lookup_insert. auto.
    - destruct Hc as [Hc|Hc]; [congruence|]. destruct (i_open _ _ I c Hc) as [[K _]|(K1 & p & K2 & K3)]; [rewrite K in Hcur; destruct Hcur|].
      split; [exact K1|]. exists p. rewrite lookup_insert_ne by congruence. auto. }
  destruct (find_open v (a_open st) 0) as [i|] eqn:Ef.
  - destruct (find_open_some _ _ _ _ Ef) as (f & _ & Hi). rewrite Nat.sub_0_r in Hi.
    assert (Hv : In v (map fst (a_open st))). { apply in_map_iff. exists (v, f). split; [reflexivity|]. apply elem_of_list_In, elem_of_list_lookup. eauto. }
    match goal with |- context [v_ge O ?a ?b] => destruct (v_ge O a b) end.
    + split; [exact I|]. split; [auto|]. intros v' K. inversion K; subst. right. exact Hv.
    + split; [|split].
      * constructor; cbn [a_open a_closed a_g a_from]; try (rewrite (insert_fst _ _ _ _ _ Hi)); try apply I; [exact Hlk|].
        intros c Hc. apply Hopen. right. exact Hc.
      * cbn [a_open]. rewrite (insert_fst _ _ _ _ _ Hi). auto.
      * intros v' K. inversion K; subst. right. cbn [a_open]. rewrite (insert_fst _ _ _ _ _ Hi). exact Hv.
  - apply find_open_none in Ef. destruct HQ as (Hp & _ & _).
    match goal with |- context [q_push Q ?l ?e] => pose proof (Hp l e) as Hperm; set (e0 := e) in * end.
    assert (Hpm : Permutation (map fst (q_push Q (a_open st) e0)) (v :: map fst (a_open st))).
    { etransitivity; [apply Permutation_map, Hperm|]. reflexivity. }
    split; [|split].
    + constructor; cbn [a_open a_closed a_g a_from]; try apply I.
      * eapply Permutation_NoDup; [symmetry; exact Hpm|]. constructor; [exact Ef|apply I].
      * intros c Hc. eapply Permutation_in in Hc; [|exact Hpm]. destruct Hc as [Hc|Hc]; [subst; exact Hcl|apply I; exact Hc].
      * exact Hlk.
      * intros c Hc. eapply Permutation_in in Hc; [|exact Hpm]. apply Hopen. destruct Hc as [Hc|Hc]; auto.
      * intros E. rewrite E in Hcur. destruct Hcur.
    + cbn [a_open]. intros c Hc. eapply Permutation_in; [symmetry; exact Hpm|]. right. exact Hc.
    + intros v' K. inversion K; subst. right. cbn [a_open]. eapply Permutation_in; [symmetry; exact Hpm|]. left. reflexivity.
Qed.

Lemma expand_inv ord cur : In cur ord -> forall ws st, inv ord st -> (forall w, In w ws -> In w (pf_succ L cur)) ->
  inv ord (fold_left (explore cur) ws st) /\
  (forall c, In c (map fst (a_open st)) -> In c (map fst (a_open (fold_left (explore cur) ws st)))) /\
  (forall w v, In w ws -> enter L crossings tgt cur w = Some v -> In v ord \/ In v (map fst (a_open (fold_left (explore cur) ws st)))).
Proof.
  intros Hcur. induction ws as [|w ws IH]; intros st I Hws; cbn [fold_left].
  - split; [exact I|]. split; [auto|]. intros w v [].
  - destruct (explore_inv ord st cur w I Hcur (Hws w (or_introl eq_refl))) as (I1 & M1 & E1).
    destruct (IH _ I1 (fun w' H => Hws w' (or_intror H))) as (I2 & M2 & E2).
    split; [exact I2|]. split; [auto|]. intros w' v [Hw|Hw] Hv; [subst|eauto].
    destruct (E1 v Hv) as [K|K]; [left; exact K|right; apply M2, K].
Qed.

Lemma pop_inv ord st cur f : inv ord st -> q_top Q (a_open st) = Some (cur, f) ->
  inv (cur :: ord) (mkA (q_pop Q (a_open st)) ({[ cur ]} ∪ a_closed st) (a_g st) (a_from st)) /\
  Permutation (cur :: map fst (q_pop Q (a_open st))) (map fst (a_open st)).
Proof.
  intros I Ht. destruct HQ as (_ & Hq & _). pose proof (Permutation_map fst (Hq _ _ Ht)) as Hp. cbn [map fst] in Hp.
  split; [|exact Hp].
  assert (Hcur : In cur (map fst (a_open st))) by (eapply Permutation_in; [exact Hp|left; reflexivity]).
  pose proof (Permutation_NoDup (Permutation_sym Hp) (i_open_nodup _ _ I)) as Hnd. inversion Hnd as [|? ? Hni Hnd']; subst.
  assert (Hsub : forall c, In c (map fst (q_pop Q (a_open st))) -> In c (map fst (a_open st))).
  { intros c Hc. eapply Permutation_in; [exact Hp|right; exact Hc]. }
  constructor; cbn [a_open a_closed a_g a_from].
  - exact Hnd'.
  - constructor; [apply I, Hcur|apply I].
  - intros c. rewrite elem_of_union, elem_of_singleton, (i_closed _ _ I). cbn [In]. intuition congruence.
  - intros c Hc [K|K]; [subst; contradiction|]. eapply (i_disj _ _ I); [apply Hsub, Hc|exact K].
  - intros l1 c l2 E. destruct l1 as [|x l1]; cbn [app] in E; inversion E; subst.
    + destruct (i_open _ _ I c Hcur) as [[K1 K2]|(K1 & p & K2 & K3 & K4)]; [left; split; [exact K2|congruence]|]. right. split; [exact K1|]. eauto.
    + destruct (i_linked _ _ I l1 c l2 eq_refl) as [K|K]; [left; exact K|right; exact K].
  - intros c Hc. destruct (i_open _ _ I c (Hsub c Hc)) as [[K1 K2]|(K1 & p & K2 & K3 & K4)].
    + pose proof (i_start _ _ I K1) as E. rewrite E in Hp. apply Permutation_length in Hp. cbn in Hp. destruct (map fst (q_pop Q (a_open st))); [destruct Hc|discriminate].
    + right. split; [exact K1|]. exists p. split; [exact K2|]. split; [right; exact K3|exact K4].
  - discriminate.
Qed.

Lemma reconstruct_ok from ord : linked from ord -> List.NoDup ord -> forall l1 c l2, ord = l1 ++ c :: l2 -> forall fuel, (length l2 <= fuel)%nat ->
  exists q, reconstruct src fuel from c = Some q /\ walk step src c q /\ List.NoDup q /\ (forall x, In x q -> In x (c :: l2)).
Proof.
  intros Hl Hnd l1 c l2. revert l1 c. induction l2 as [l2 H] using (well_founded_induction (Wf_nat.well_founded_ltof _ (@length coord))).
  intros l1 c E fuel Hf. destruct (coord_eq_dec c src) as [->|Hne].
  { exists [src]. split. { destruct fuel; cbn; replace (coord_eqb src src) with true by (symmetry; apply coord_eqb_spec; reflexivity); reflexivity. }
    split; [apply walk_end|]. split; [repeat constructor; intros []|]. intros x [K|[]]. left. exact K. }
  destruct (Hl l1 c l2 E) as [[K _]|(_ & p & K1 & K2 & K3)]; [contradiction|].
  apply in_split in K2 as (m1 & m2 & Em).
  assert (E' : ord = (l1 ++ c :: m1) ++ p :: m2) by (rewrite E, Em, <- app_assoc; reflexivity).
  assert (Hlen : (length m2 < length l2)%nat) by (rewrite Em, app_length; cbn; lia).
  destruct fuel as [|fuel]; [lia|].
  destruct (H m2 Hlen _ _ E' fuel ltac:(lia)) as (q & Q1 & Q2 & Q3 & Q4).
  exists (q ++ [c]). split.
  { cbn [reconstruct]. replace (coord_eqb c src) with false by (symmetry; apply not_true_is_false; rewrite coord_eqb_spec; exact Hne). rewrite K1, Q1. reflexivity. }
  split; [eapply walk_snoc; [exact Q2|exact K3]|].
  assert (Hsub : forall x, In x q -> In x l2). { intros x Hx. rewrite Em. apply in_or_app. right. apply Q4, Hx. }
  split.
  - apply (Permutation_NoDup (l := c :: q)); [apply Permutation_cons_append|]. constructor; [|exact Q3]. intros Hc. apply Hsub in Hc.
    rewrite E in Hnd. apply NoDup_remove_2 in Hnd. apply Hnd. apply in_or_app. right. exact Hc.
  - intros x Hx. apply in_app_or in Hx as [Hx|[Hx|[]]]; [right; apply Hsub, Hx|left; exact Hx].
Qed.

Lemma no_walk ord : In src ord -> ~ In tgt ord -> (forall c v, In c ord -> step c v -> In v ord) -> forall p, ~ walk step src tgt p.
Proof.
  intros Hs Ht Hc p Hw. assert (G : forall s t p, walk step s t p -> In s ord -> In t ord).
  { clear -Hc. induction 1 as [|s u t p Hu Hw IH]; intros Hs; [exact Hs|]. apply IH. eapply Hc; eauto. }
  apply Ht. eapply G; eauto.
Qed.

Lemma closed_size ord st : inv ord st -> size (a_closed st) = length ord.
Proof.
  intros I. rewrite <- (size_list_to_set (C := gset coord) ord) by (apply NoDup_ListNoDup, I).
  f_equal. apply leibniz_equiv. intros c. rewrite elem_of_list_to_set, elem_of_list_In. apply I.
Qed.

Lemma a_run_ok fuel : forall ord st, inv ord st -> ~ In tgt ord ->
  (forall c v, In c ord -> step c v -> In v ord \/ In v (map fst (a_open st))) ->
  match a_run fuel st with
  | Some [] => forall p, ~ walk step src tgt p
  | Some p => is_path step src tgt p
  | None => forall U, universe step src U -> (fuel + length ord < length U)%nat
  end.
Proof.
  induction fuel as [|fuel IH]; intros ord st I Ht Hx; cbn [PathModel.a_run].
  all: destruct (q_top Q (a_open st)) as [[cur f]|] eqn:Etop.
  2,4: apply (proj2 (proj2 HQ)) in Etop; rewrite Etop in Hx; cbn in Hx; apply (no_walk ord);
       [apply (linked_src _ _ (i_linked _ _ I)); intros E; pose proof (i_start _ _ I E) as K; rewrite Etop in K; discriminate|exact Ht|];
       intros c v H1 H2; destruct (Hx c v H1 H2) as [K|[]]; exact K.
  all: destruct (pop_inv _ _ _ _ I Etop) as [I1 Hperm];
       assert (Hcur : In cur (map fst (a_open st))) by (eapply Permutation_in; [exact Hperm|left; reflexivity]).
  all: destruct (coord_eqb cur tgt) eqn:Ect.
  1,3: apply coord_eqb_spec in Ect; subst cur; rewrite (closed_size _ _ I);
       destruct (reconstruct_ok (a_from st) (tgt :: ord) (i_linked _ _ I1) (i_nodup _ _ I1) [] tgt ord eq_refl (S (length ord)) ltac:(lia))
         as (q & E & Hw & Hn & _); rewrite E; destruct q as [|x q]; [inversion Hw|split; assumption].
  - intros U HU.
    assert (Hi : incl (cur :: ord) U).
    { intros c [Hc|Hc]; [rewrite <- Hc; exact (inv_univ _ _ U cur I HU Hcur)|exact (linked_univ _ _ U (i_linked _ _ I) HU c Hc)]. }
    pose proof (NoDup_incl_length (i_nodup _ _ I1) Hi) as K. cbn [length] in K. lia.
  - destruct (expand_inv (cur :: ord) cur (or_introl eq_refl) (pf_succ L cur) _ I1 (fun w H => H)) as (I2 & M2 & E2). cbn [a_open] in M2.
    specialize (IH (cur :: ord) _ I2). cbn [length] in IH. 
    match goal with |- context [a_run fuel ?s] => set (st2 := s) in * end.
    assert (P1 : ~ In tgt (cur :: ord)). { intros [K|K]; [|contradiction]. apply coord_eqb_spec in K. congruence. }
    assert (P2 : forall c v, In c (cur :: ord) -> step c v -> In v (cur :: ord) \/ In v (map fst (a_open st2))).
    { intros c v [Hc|Hc] Hs.
      - subst c. apply enter_permitted in Hs as (w & Hw & He). exact (E2 w v Hw He).
      - destruct (Hx c v Hc Hs) as [K|K]; [left; right; exact K|].
        eapply Permutation_in in K; [|symmetry; exact Hperm]. destruct K as [K|K]; [left; left; exact K|right; apply M2, K]. }
    specialize (IH P1 P2). destruct (a_run fuel st2) as [[|x p]|]; [exact IH|exact IH|].
    intros U HU. specialize (IH U HU). lia.
Qed.

Lemma init_inv : inv [] (a_init O Q src).
Proof.
  destruct HQ as (Hp & _ & _). unfold a_init. specialize (Hp [] (src, v_zero O)). apply Permutation_sym, Permutation_length_1_inv in Hp.
  constructor; cbn [a_open a_closed a_g a_from]; try rewrite Hp; cbn [map fst].
  - repeat constructor. intros [].
  - constructor.
  - intros c. split; [intros K; apply elem_of_empty in K; contradiction|intros []].
  - intros c _ [].
  - intros l1 c l2 E. destruct l1; discriminate.
  - intros c [K|[]]. left. auto.
  - reflexivity.
Qed.
Lemma a_star_ok fuel :
  match a_star O Q L crossings src tgt fuel with
  | Some [] => forall p, ~ walk step src tgt p
  | Some p => is_path step src tgt p
  | None => forall U, universe step src U -> (fuel < length U)%nat
  end.
Proof.
  pose proof (a_run_ok fuel [] _ init_inv (fun H => match H with end) (fun c v H => match H with end)) as K. cbn [length] in K.
  unfold a_star. destruct (PathModel.a_run O Q L crossings src tgt fuel (a_init O Q src)) as [[|x p]|]; [exact K|exact K|].
  intros U HU. specialize (K U HU). lia.
Qed.
End AStarProofs.
