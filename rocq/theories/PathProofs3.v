(** Optimality of A* for unit costs. *)
From Coq Require Import ZArith Bool List Permutation Lia.
From stdpp Require Import gmap list.
From Verif Require Import CoordModel CoordSpec CoordProofs GridModel GridSpec CoordMap PathModel PathSpec PathProofs PathProofs2.
Import ListNotations.
Local Open Scope Z_scope.

Lemma walk_nonempty step s t p : walk step s t p -> (1 <= length p)%nat.
Proof. inversion 1; cbn; lia. Qed.
(** A walk that leaves a set crosses its border. *)
Lemma walk_leaves step (P : coord -> Prop) (Pdec : forall c, P c \/ ~ P c) s t p : walk step s t p -> P s -> ~ P t ->
  exists u v p1 p2, walk step s u p1 /\ P u /\ step u v /\ ~ P v /\ walk step v t p2 /\ length p = (length p1 + length p2)%nat.
Proof.
  induction 1 as [s|s w t p Hs Hw IH]; intros Ps Pt; [contradiction|].
  destruct (Pdec w) as [Pw|Pw].
  - destruct (IH Pw Pt) as (u & v & p1 & p2 & A & B & C & D & E & F). exists u, v, (s :: p1), p2.
    split; [eapply walk_step; eauto|]. repeat (split; [assumption|]). cbn. lia.
  - exists s, w, [s], p. split; [apply walk_end|]. repeat (split; [assumption|]). cbn. lia.
Qed.

Section Opt.
Context (Q : queue Z) (HQ : queue_ok Q) (L : pf) (crossings : bool) (src tgt : coord) (d : coord -> coord -> Z) (U : list coord).
Notation O := (u64_ops (distance_functor d) unit_cost tgt).
Notation step := (permitted L crossings tgt).
Notation explore := (explore O Q L crossings tgt).
Notation a_run := (a_run O Q L crossings src tgt).
Notation gv := (a_gval O).
Notation h := (fun c => d c tgt).
Context (HU : universe step src U) (HUs : Z.of_nat (length U) < 9223372036854775808)
        (Hh : forall c, In c U -> 0 <= h c < 4611686018427387904)
        (Hcons : forall u v, In u U -> step u v -> h u <= h v + 1).
Notation opens st := (map fst (a_open st)).

Record inv2 (done ord : list coord) (st : astate Z) : Prop := mkInv2 {
  g_src : a_g st !! src = None;
  g_from : forall c, In c ord \/ In c (opens st) -> c <> src -> exists p, a_from st !! c = Some p /\ In p ord /\ gv st c = gv st p + 1;
  g_bound : forall l1 c l2, ord = l1 ++ c :: l2 -> 0 <= gv st c <= Z.of_nat (length l2);
  g_open_bound : forall c, In c (opens st) -> 0 <= gv st c <= Z.of_nat (length ord);
  g_entry : forall c f, In (c, f) (a_open st) -> c <> src -> f = gv st c + h c;
  g_done : forall u v, In u done -> step u v -> In v ord \/ (In v (opens st) /\ gv st v <= gv st u + 1);
  g_opt : forall c, In c ord -> forall p, walk step src c p -> gv st c <= Z.of_nat (length p) - 1
}.

Lemma ord_bound ord (st : astate Z) : inv L crossings src tgt ord st -> (length ord <= length U)%nat.
Proof. intros I. apply NoDup_incl_length; [apply I|]. intros c Hc. exact (linked_univ _ _ _ _ _ _ U (i_linked _ _ _ _ _ _ I) HU c Hc). Qed.
Lemma g_bound_in done ord st c : inv2 done ord st -> In c ord -> 0 <= gv st c <= Z.of_nat (length ord) - 1.
Proof.
  intros J Hc. apply in_split in Hc as (l1 & l2 & E). pose proof (g_bound _ _ _ J l1 c l2 E). subst ord. rewrite app_length. cbn [length]. lia.
Qed.
Lemma gv_insert o cl g fr v t c : gv (mkA o cl (<[v := t]> g) fr) c = if coord_eqb v c then t else gv (mkA o cl g fr) c.
Proof.
  unfold a_gval. cbn [a_g]. destruct (coord_eqb v c) eqn:E.
  - apply coord_eqb_spec in E. subst. rewrite lookup_insert. reflexivity.
  - rewrite lookup_insert_ne; [reflexivity|]. intros K. apply coord_eqb_spec in K. congruence.
Qed.
Lemma u64_small a b : 0 <= a < 9223372036854775808 -> 0 <= b < 9223372036854775808 -> v_add O a b = a + b.
Proof. intros Ha Hb. cbn [v_add u64_ops]. apply Z.mod_small. lia. Qed.

(** What one call of explore_successor does, in terms of [v], the coordinate entered. *)
Lemma explore_cases ord done st cur w : inv L crossings src tgt ord st -> inv2 done ord st -> In cur ord -> In w (pf_succ L cur) ->
  match enter L crossings tgt cur w with
  | None => explore cur st w = st
  | Some v =>
      (In v ord /\ explore cur st w = st) \/
      (~ In v ord /\ In v (opens st) /\ gv st v <= gv st cur + 1 /\ explore cur st w = st) \/
      (~ In v ord /\ v <> src /\ exists i f, a_open st !! i = Some (v, f) /\ gv st cur + 1 < gv st v /\
         explore cur st w = mkA (<[i := (v, gv st cur + 1 + h v)]> (a_open st)) (a_closed st) (<[v := gv st cur + 1]> (a_g st)) (<[v := cur]> (a_from st))) \/
      (~ In v ord /\ v <> src /\ ~ In v (opens st) /\
         explore cur st w = mkA (q_push Q (a_open st) (v, gv st cur + 1 + h v)) (a_closed st) (<[v := gv st cur + 1]> (a_g st)) (<[v := cur]> (a_from st)))
  end.
Proof.
  intros I J Hcur Hw. unfold PathModel.explore. destruct (enter L crossings tgt cur w) as [v|] eqn:En; [|reflexivity].
  pose proof (ord_bound _ _ I) as Hob. pose proof (g_bound_in _ _ _ _ J Hcur) as Hgc.
  case_bool_decide as Hcl; [left; split; [apply (i_closed _ _ _ _ _ _ I), Hcl|reflexivity]|]. right.
  rewrite (i_closed _ _ _ _ _ _ I) in Hcl.
  assert (Hsrc : v <> src). { intros ->. apply Hcl. eapply linked_src; [apply (i_linked _ _ _ _ _ _ I)|]. intros E. rewrite E in Hcur. destruct Hcur. }
  assert (HvU : In v U).
  { apply (proj2 HU cur); [exact (linked_univ _ _ _ _ _ _ U (i_linked _ _ _ _ _ _ I) HU cur Hcur)|]. apply enter_permitted. eauto. }
  pose proof (Hh v HvU) as Hhv. cbv beta in Hhv.
  assert (E1 : v_cost O cur v = 1) by reflexivity.
  assert (E2 : v_dist O v = d v tgt) by (cbn; apply Z.mod_small; lia).
  rewrite E1, E2. rewrite (u64_small (gv st cur) 1) by lia. rewrite u64_small by lia.
  destruct (find_open v (a_open st) 0) as [i|] eqn:Ef.
  - destruct (find_open_some _ _ _ _ Ef) as (f & _ & Hi). rewrite Nat.sub_0_r in Hi.
    assert (Hv : In v (opens st)). { apply in_map_iff. exists (v, f). split; [reflexivity|]. apply elem_of_list_In, elem_of_list_lookup. eauto. }
    cbn [v_ge u64_ops]. destruct (Z.leb_spec (gv st v) (gv st cur + 1)) as [Hle|Hlt].
    + left. auto.
    + right. left. split; [exact Hcl|]. split; [exact Hsrc|]. exists i, f. auto.
  - right. right. split; [exact Hcl|]. split; [exact Hsrc|]. split; [|reflexivity]. eapply find_open_none; exact Ef.
Qed.

Definition meets (u : coord) (ord : list coord) (st : astate Z) (v : coord) : Prop :=
  In v ord \/ (In v (opens st) /\ gv st v <= gv st u + 1).
Lemma explore_inv2 ord done st cur w : inv L crossings src tgt ord st -> inv2 done ord st -> In cur ord -> In w (pf_succ L cur) -> (forall u, In u done -> In u ord) ->
  inv2 done ord (explore cur st w) /\
  (forall u v, In u ord -> meets u ord st v -> meets u ord (explore cur st w) v) /\
  (forall v, enter L crossings tgt cur w = Some v -> meets cur ord (explore cur st w) v).
Proof.
  intros I J Hcur Hw Hdone. pose proof (explore_cases ord done st cur w I J Hcur Hw) as HC.
  destruct (enter L crossings tgt cur w) as [v|] eqn:En.
  2:{ rewrite HC. split; [exact J|]. split; [auto|]. discriminate. }
  pose proof (g_bound_in _ _ _ _ J Hcur) as Hgc.
  destruct HC as [(Hv & ->)|[(Hv & Ho & Hg & ->)|HC]].
  { split; [exact J|]. split; [auto|]. intros v' K. inversion K; subst. left. exact Hv. }
  { split; [exact J|]. split; [auto|]. intros v' K. inversion K; subst. right. auto. }
  (* in both remaining cases, [v] gets a new value and the open coordinates are the old ones and [v] *)
  assert (HC' : exists o, explore cur st w = mkA o (a_closed st) (<[v := gv st cur + 1]> (a_g st)) (<[v := cur]> (a_from st)) /\
            ~ In v ord /\ v <> src /\ (forall c, In c (map fst o) <-> c = v \/ In c (opens st)) /\
            (forall c f, In (c, f) o -> (c = v /\ f = gv st cur + 1 + h v) \/ (c <> v /\ In (c, f) (a_open st))) /\
            (In v (opens st) -> gv st cur + 1 < gv st v)).
  { destruct HC as [(Hv & Hs & i & f & Hi & Hlt & ->)|(Hv & Hs & Ho & ->)]; eexists; (split; [reflexivity|]); (split; [exact Hv|]); (split; [exact Hs|]).
    - split; [|split].
      + intros c. rewrite (insert_fst _ _ _ _ _ Hi). split; [auto|]. intros [->|K]; [|exact K]. apply in_map_iff. exists (v, f). split; [reflexivity|]. apply elem_of_list_In, elem_of_list_lookup. eauto.
      + intros c f' Hin. apply elem_of_list_In, elem_of_list_lookup in Hin as [j Hj].
        apply lookup_insert_case in Hj as [[-> E]|[Hne Hj]]; [inversion E; auto|]. right. split; [|apply elem_of_list_In, elem_of_list_lookup; eauto].
        intros ->. apply Hne. pose proof (i_open_nodup _ _ _ _ _ _ I) as Hn. apply NoDup_ListNoDup in Hn.
        apply (NoDup_lookup _ _ _ v Hn); rewrite (list_lookup_fmap fst (a_open st)); [rewrite Hi|rewrite Hj]; reflexivity.
      + auto.
    - destruct HQ as (Hp & _ & _). pose proof (Hp (a_open st) (v, gv st cur + 1 + d v tgt)) as Hperm. split; [|split].
      + intros c. assert (Hpm := Permutation_map fst Hperm). split.
        * intros K. eapply Permutation_in in K; [|exact Hpm]. destruct K as [K|K]; [left; symmetry; exact K|right; exact K].
        * intros K. eapply Permutation_in; [symmetry; exact Hpm|]. destruct K as [K|K]; [left; symmetry; exact K|right; exact K].
      + intros c f K. eapply Permutation_in in K; [|exact Hperm]. destruct K as [K|K]; [inversion K; auto|]. right. split; [|exact K].
        intros ->. apply Ho. apply in_map_iff. exists (v, f). auto.
      + contradiction. }
  clear HC. destruct HC' as (o & -> & Hv & Hs & Hfst & Hent & Hdec).
  set (st' := mkA o (a_closed st) (<[v := gv st cur + 1]> (a_g st)) (<[v := cur]> (a_from st))).
  assert (Gv : gv st' v = gv st cur + 1) by (unfold a_gval, st'; cbn [a_g]; rewrite lookup_insert; reflexivity).
  assert (Gn : forall c, c <> v -> gv st' c = gv st c) by (intros c Hc; unfold a_gval, st'; cbn [a_g]; rewrite lookup_insert_ne by congruence; reflexivity).
  assert (Gord : forall c, In c ord -> gv st' c = gv st c) by (intros c Hc; apply Gn; intros ->; contradiction).
  assert (Hm : forall u x, In u ord -> meets u ord st x -> meets u ord st' x).
  { intros u x Hu [K|[K1 K2]]; [left; exact K|]. right. split; [apply Hfst; right; exact K1|]. rewrite (Gord u Hu).
    destruct (coord_eq_dec x v) as [->|Hne]; [rewrite Gv; specialize (Hdec K1); lia|rewrite Gn by exact Hne; exact K2]. }
  split; [|split].
  - constructor.
    + cbn [a_g st']. rewrite lookup_insert_ne by congruence. apply J.
    + intros c Hc Hne. unfold st' at 1. cbn [a_from]. destruct (coord_eq_dec c v) as [->|Hcv].
      * exists cur. rewrite lookup_insert. split; [reflexivity|]. split; [exact Hcur|]. rewrite Gv, (Gord cur Hcur). reflexivity.
      * rewrite lookup_insert_ne by congruence. destruct (g_from _ _ _ J c) as (p & P1 & P2 & P3); [|exact Hne|].
        { destruct Hc as [Hc|Hc]; [left; exact Hc|]. right. apply Hfst in Hc as [Hc|Hc]; [contradiction|exact Hc]. }
        exists p. rewrite (Gn c Hcv), (Gord p P2). auto.
    + intros l1 c l2 E. rewrite Gord; [apply (g_bound _ _ _ J l1 c l2 E)|]. rewrite E. apply in_or_app. right. left. reflexivity.
    + intros c Hc. apply Hfst in Hc. destruct (coord_eq_dec c v) as [->|Hcv]; [rewrite Gv; lia|]. rewrite (Gn c Hcv). destruct Hc as [Hc|Hc]; [contradiction|]. apply J, Hc.
    + intros c f Hc Hne. apply Hent in Hc as [[-> ->]|[Hcv Hc]]; [rewrite Gv; reflexivity|]. rewrite (Gn c Hcv). apply (g_entry _ _ _ J c f Hc Hne).
    + intros u x Hu Hst. apply (Hm u x (Hdone u Hu)). exact (g_done _ _ _ J u x Hu Hst).
    + intros c Hc p Hp. rewrite (Gord c Hc). exact (g_opt _ _ _ J c Hc p Hp).
  - exact Hm.
  - intros v' K. inversion K; subst v'. right. split; [apply Hfst; left; reflexivity|]. rewrite Gv, (Gord cur Hcur). lia.
Qed.
Lemma expand_inv2 ord done cur : In cur ord -> (forall u, In u done -> In u ord) -> forall ws st, inv L crossings src tgt ord st -> inv2 done ord st ->
  (forall w, In w ws -> In w (pf_succ L cur)) ->
  inv2 done ord (fold_left (explore cur) ws st) /\
  (forall u v, In u ord -> meets u ord st v -> meets u ord (fold_left (explore cur) ws st) v) /\
  (forall w v, In w ws -> enter L crossings tgt cur w = Some v -> meets cur ord (fold_left (explore cur) ws st) v).
Proof.
  intros Hcur Hdone. induction ws as [|w ws IH]; intros st I J Hws; cbn [fold_left].
  - split; [exact J|]. split; [auto|]. intros w v [].
  - destruct (explore_inv O Q HQ L crossings src tgt ord st cur w I Hcur (Hws w (or_introl eq_refl))) as (I1 & _ & _).
    destruct (explore_inv2 ord done st cur w I J Hcur (Hws w (or_introl eq_refl)) Hdone) as (J1 & M1 & E1).
    destruct (IH _ I1 J1 (fun w' H => Hws w' (or_intror H))) as (J2 & M2 & E2).
    split; [exact J2|]. split; [auto|]. intros w' v [Hw|Hw] Hv; [subst|eauto]. apply M2; [exact Hcur|]. apply E1, Hv.
Qed.

Lemma h_walk s t p : walk step s t p -> In s U -> h s <= h t + Z.of_nat (length p) - 1.
Proof.
  induction 1 as [s|s w t p Hs Hw IH]; intros HsU; cbn [length]; [lia|]. pose proof (Hcons _ _ HsU Hs). pose proof (IH (proj2 HU _ _ HsU Hs)). cbv beta in *. lia.
Qed.

Definition minimal (st : astate Z) : Prop := forall e, q_top Q (a_open st) = Some e -> forall e', In e' (a_open st) -> e.2 <= e'.2.

Lemma pop_inv2 ord st cur f : inv L crossings src tgt ord st -> inv2 ord ord st -> minimal st -> q_top Q (a_open st) = Some (cur, f) ->
  inv2 ord (cur :: ord) (mkA (q_pop Q (a_open st)) ({[ cur ]} ∪ a_closed st) (a_g st) (a_from st)).
Proof.
  intros I J Hmin Ht. pose proof (proj1 (proj2 HQ) _ _ Ht) as Hpe. pose proof (Permutation_map fst Hpe) as Hp. cbn [map fst] in Hp.
  set (st' := mkA _ _ _ _). assert (G : forall c, gv st' c = gv st c) by reflexivity.
  assert (Hcur : In cur (opens st)) by (eapply Permutation_in; [exact Hp|left; reflexivity]).
  assert (Hcure : In (cur, f) (a_open st)) by (eapply Permutation_in; [exact Hpe|left; reflexivity]).
  assert (Hsub : forall c, In c (map fst (q_pop Q (a_open st))) -> In c (opens st)).
  { intros c Hc. eapply Permutation_in; [exact Hp|right; exact Hc]. }
  pose proof (g_open_bound _ _ _ J cur Hcur) as Hgb.
  constructor.
  - apply J.
  - intros c Hc Hne. destruct (g_from _ _ _ J c) as (p & P1 & P2 & P3); [|exact Hne|].
    { destruct Hc as [[Hc|Hc]|Hc]; [subst; right; exact Hcur|left; exact Hc|right; apply Hsub, Hc]. }
    exists p. split; [exact P1|]. split; [right; exact P2|]. exact P3.
  - intros l1 c l2 E. rewrite G. destruct l1 as [|x l1]; cbn [app] in E; inversion E; subst; [exact Hgb|]. apply (g_bound _ _ _ J l1 c l2 eq_refl).
  - intros c Hc. rewrite G. pose proof (g_open_bound _ _ _ J c (Hsub c Hc)). cbn [length]. lia.
  - intros c f' Hc Hne. rewrite G. apply (g_entry _ _ _ J); [|exact Hne]. eapply Permutation_in; [exact Hpe|right; exact Hc].
  - intros u v Hu Hs. rewrite !G. destruct (g_done _ _ _ J u v Hu Hs) as [K|[K1 K2]]; [left; right; exact K|].
    eapply Permutation_in in K1; [|symmetry; exact Hp]. destruct K1 as [K1|K1]; [left; left; exact K1|right; auto].
  - intros c Hc p Hw. rewrite G. destruct Hc as [<-|Hc]; [|exact (g_opt _ _ _ J c Hc p Hw)].
    pose proof (walk_nonempty _ _ _ _ Hw) as Hne.
    destruct (coord_eq_dec cur src) as [->|Hcs]. { unfold a_gval. rewrite (g_src _ _ _ J). change (0 <= Z.of_nat (length p) - 1). lia. }
    destruct ord as [|o ord'].
    { pose proof (i_start _ _ _ _ _ _ I eq_refl) as E. rewrite E in Hcur. destruct Hcur as [K|[]]. congruence. }
    set (ord := o :: ord') in *.
    assert (Hso : In src ord) by (eapply linked_src; [apply (i_linked _ _ _ _ _ _ I)|discriminate]).
    destruct (walk_leaves step (fun c => In c ord) (fun c => match in_dec coord_eq_dec c ord with left H => or_introl H | right H => or_intror H end) _ _ _ Hw Hso (i_disj _ _ _ _ _ _ I cur Hcur))
      as (u & v & p1 & p2 & A & B & C & D & E & F).
    destruct (g_done _ _ _ J u v B C) as [K|[K1 K2]]; [contradiction|].
    pose proof (g_opt _ _ _ J u B p1 A) as Hu. apply in_map_iff in K1 as ([v' fv] & Ev & Hv). cbn [fst] in Ev. subst v'.
    assert (Hvs : v <> src) by (intros ->; contradiction).
    pose proof (g_entry _ _ _ J v fv Hv Hvs) as Efv. pose proof (g_entry _ _ _ J cur f Hcure Hcs) as Efc.
    pose proof (Hmin _ Ht _ Hv) as Hle. cbn [snd] in Hle. assert (HvU : In v U) by (apply (proj2 HU u); [exact (linked_univ _ _ _ _ _ _ U (i_linked _ _ _ _ _ _ I) HU u B)|exact C]). pose proof (h_walk _ _ _ E HvU) as Hhw. cbv beta in *. lia.
Qed.

Lemma reconstruct_length from (g : coord -> Z) ord : linked L crossings src tgt from ord -> g src = 0 ->
  (forall c p, In c ord -> c <> src -> from !! c = Some p -> g c = g p + 1) ->
  forall fuel l1 c l2 q, ord = l1 ++ c :: l2 -> reconstruct src fuel from c = Some q -> Z.of_nat (length q) = g c + 1.
Proof.
  intros Hl H0 Hg. assert (Base : forall c q, coord_eqb c src = true -> Some [src] = Some q -> Z.of_nat (length q) = g c + 1).
  { intros c q K E. apply coord_eqb_spec in K. inversion E; subst. rewrite H0. reflexivity. }
  induction fuel as [|fuel IH]; intros l1 c l2 q E R; cbn [reconstruct] in R; destruct (coord_eqb c src) eqn:Ec; try (apply Base; assumption); [discriminate|].
  destruct (from !! c) as [p|] eqn:Ep; [|discriminate]. destruct (reconstruct src fuel from p) as [q'|] eqn:Er; [|discriminate]. inversion R; subst q.
  assert (Hcs : c <> src) by (intros K; apply coord_eqb_spec in K; congruence).
  destruct (Hl l1 c l2 E) as [[K _]|(_ & p' & K1 & K2 & K3)]; [contradiction|]. assert (p' = p) by congruence. subst p'.
  apply in_split in K2 as (m1 & m2 & Em). rewrite app_length. cbn [length].
  pose proof (IH (l1 ++ c :: m1) p m2 q') as K. rewrite Nat2Z.inj_add, K; [|rewrite E, Em, <- app_assoc; reflexivity|exact Er].
  rewrite (Hg c p); [lia| |exact Hcs|exact Ep]. rewrite E. apply in_or_app. right. left. reflexivity.
Qed.

(** An invariant that keeps the queue delivering minima. *)
Context (good : astate Z -> Prop) (Hgood0 : good (a_init O Q src)) (Hgoodmin : forall st, good st -> minimal st)
  (Hgoodstep : forall ord st cur f, inv L crossings src tgt ord st -> inv2 ord ord st -> good st -> q_top Q (a_open st) = Some (cur, f) ->
     good (fold_left (explore cur) (pf_succ L cur) (mkA (q_pop Q (a_open st)) ({[ cur ]} ∪ a_closed st) (a_g st) (a_from st)))).

Lemma a_run_opt fuel : forall ord st, inv L crossings src tgt ord st -> inv2 ord ord st -> good st -> ~ In tgt ord ->
  forall q, a_run fuel st = Some q -> q <> [] -> forall p, walk step src tgt p -> (length q <= length p)%nat.
Proof.
  induction fuel as [|fuel IH]; intros ord st I J Hg Ht q; cbn [PathModel.a_run].
  all: destruct (q_top Q (a_open st)) as [[cur f]|] eqn:Etop; [|intros E Hn; inversion E; congruence].
  all: destruct (pop_inv Q HQ L crossings src tgt _ _ _ _ I Etop) as [I1 _]; pose proof (pop_inv2 _ _ _ _ I J (Hgoodmin _ Hg) Etop) as J1.
  all: destruct (coord_eqb cur tgt) eqn:Ect.
  1,3: apply coord_eqb_spec in Ect; subst cur; intros R _ p Hp;
    pose proof (reconstruct_length (a_from st) (gv st) (tgt :: ord) (i_linked _ _ _ _ _ _ I1)) as K;
    pose proof (g_opt _ _ _ J1 tgt (or_introl eq_refl) p Hp) as K2;
    match type of K2 with context [gv ?s tgt] => change (gv s tgt) with (gv st tgt) in K2 end;
    assert (S0 : gv st src = 0) by (unfold a_gval; rewrite (g_src _ _ _ J); reflexivity);
    assert (S1 : forall c p, In c (tgt :: ord) -> c <> src -> a_from st !! c = Some p -> gv st c = gv st p + 1)
      by (intros c p' Hc Hne Hf; destruct (g_from _ _ _ J1 c (or_introl Hc) Hne) as (p2 & P1 & P2 & P3); cbn [a_from] in P1; replace p' with p2 by congruence; exact P3);
    specialize (K S0 S1 _ [] tgt ord q eq_refl R); lia.
  - discriminate.
  - pose proof (Hgoodstep _ _ _ _ I J Hg Etop) as Hg2.
    destruct (expand_inv O Q HQ L crossings src tgt (cur :: ord) cur (or_introl eq_refl) (pf_succ L cur) _ I1 (fun w H => H)) as (I2 & _ & _).
    destruct (expand_inv2 (cur :: ord) ord cur (or_introl eq_refl) (fun u H => or_intror H) (pf_succ L cur) _ I1 J1 (fun w H => H)) as (J2 & _ & E2).
    match goal with |- a_run fuel ?s = _ -> _ => set (st2 := s) in * end.
    apply (IH (cur :: ord) st2 I2).
    + destruct J2 as [a b c e f' g' k]. constructor; try assumption. intros u v [<-|Hu] Hs; [|exact (g' u v Hu Hs)].
      apply enter_permitted in Hs as (w & Hw & He). exact (E2 w v Hw He).
    + exact Hg2.
    + intros [K|K]; [|contradiction]. apply coord_eqb_spec in K. congruence.
Qed.
Lemma init_inv2 : inv2 [] [] (a_init O Q src).
Proof.
  destruct HQ as (Hp & _ & _). specialize (Hp [] (src, v_zero O)). apply Permutation_sym, Permutation_length_1_inv in Hp.
  unfold a_init. constructor; cbn [a_open a_closed a_g a_from]; try rewrite Hp; cbn [map fst].
  - apply lookup_empty.
  - intros c [[]|[K|[]]] Hne. congruence.
  - intros l1 c l2 E. destruct l1; discriminate.
  - intros c _. unfold a_gval. cbn [a_g]. rewrite lookup_empty. cbn. lia.
  - intros c f [K|[]] Hne. inversion K; congruence.
  - intros u v [].
  - intros c [].
Qed.
Lemma a_star_opt fuel q : a_star O Q L crossings src tgt fuel = Some q -> q <> [] ->
  forall p, walk step src tgt p -> (length q <= length p)%nat.
Proof.
  unfold a_star. apply (a_run_opt fuel [] _ (init_inv O Q HQ L crossings src tgt) init_inv2 Hgood0). intros [].
Qed.
End Opt.

(** A queue that always delivers a minimum. *)
Lemma a_star_opt_lowest Q (HQ : queue_ok Q) (HL : lowest_first Z.le Q) L cr src tgt d U :
  universe (permitted L cr tgt) src U -> Z.of_nat (length U) < 9223372036854775808 ->
  (forall c, In c U -> 0 <= d c tgt < 4611686018427387904) -> (forall u v, In u U -> permitted L cr tgt u v -> d u tgt <= d v tgt + 1) ->
  forall fuel q, a_star (u64_ops (distance_functor d) unit_cost tgt) Q L cr src tgt fuel = Some q -> q <> [] ->
  forall p, walk (permitted L cr tgt) src tgt p -> (length q <= length p)%nat.
Proof.
  intros H1 H2 H3 H4 fuel q. apply (a_star_opt Q HQ L cr src tgt d U H1 H2 H3 H4 (fun _ => True)).
  - exact I.
  - intros st _ e He e' Hin. exact (HL _ _ He _ Hin).
  - auto.
Qed.

(** The zero heuristic with the binary heap: the values in the queue differ by at most one, so that no entry is ever changed in place. *)
Section Dijkstra.
Context (L : pf) (crossings : bool) (src tgt : coord) (U : list coord).
Notation d0 := (fun _ _ : coord => 0).
Notation O := (u64_ops (distance_functor d0) unit_cost tgt).
Notation Q := (heap zgt).
Notation step := (permitted L crossings tgt).
Context (HU : universe step src U) (HUs : Z.of_nat (length U) < 9223372036854775808).
Lemma d0_range (c : coord) : In c U -> 0 <= d0 c tgt < 4611686018427387904.
Proof. intros _; cbv beta; lia. Qed.
Lemma d0_cons u v : In u U -> step u v -> d0 u tgt <= d0 v tgt + 1.
Proof. intros _ _; cbv beta; lia. Qed.
Definition good (st : astate Z) : Prop := is_heap (a_open st) /\ exists m, forall e, In e (a_open st) -> m <= e.2 <= m + 1.
Lemma good_explore ord done st cur w : inv L crossings src tgt ord st -> inv2 L crossings src tgt d0 done ord st -> In cur ord -> In w (pf_succ L cur) ->
  is_heap (a_open st) -> (forall e, In e (a_open st) -> a_gval O st cur <= e.2 <= a_gval O st cur + 1) ->
  is_heap (a_open (explore O Q L crossings tgt cur st w)) /\
  (forall e, In e (a_open (explore O Q L crossings tgt cur st w)) -> a_gval O (explore O Q L crossings tgt cur st w) cur <= e.2 <= a_gval O (explore O Q L crossings tgt cur st w) cur + 1).
Proof.
  intros I J Hcur Hw Hh Hm. pose proof (explore_cases Q L crossings src tgt d0 U HU HUs d0_range d0_cons ord done st cur w I J Hcur Hw) as HC. cbv beta in HC.
  destruct (enter L crossings tgt cur w) as [v|]; [|rewrite HC; auto].
  destruct HC as [(_ & ->)|[(_ & _ & _ & ->)|[(Hv & Hs & i & f & Hi & Hlt & _)|(Hv & Hs & Ho & ->)]]]; [auto|auto| |].
  - exfalso. assert (Hin : In (v, f) (a_open st)) by (apply elem_of_list_In, elem_of_list_lookup; eauto).
    pose proof (g_entry _ _ _ _ _ _ _ _ J v f Hin Hs) as E. pose proof (Hm _ Hin) as K. cbn [snd] in K. cbv beta in E. lia.
  - assert (Hcv : v <> cur) by (intros ->; contradiction).
    cbn [a_open]. split; [apply heap_push_heap, Hh|]. intros e He.
    replace (a_gval O _ cur) with (a_gval O st cur) by (unfold a_gval; cbn [a_g]; rewrite lookup_insert_ne by exact Hcv; reflexivity).
    pose proof (proj1 (heap_queue_ok zgt) (a_open st) (v, a_gval O st cur + 1 + 0)) as Hp. eapply Permutation_in in He; [|exact Hp].
    destruct He as [<-|He]; [cbn [snd]; lia|exact (Hm e He)].
Qed.
Lemma good_expand ord done cur : In cur ord -> (forall u, In u done -> In u ord) -> forall ws st, inv L crossings src tgt ord st -> inv2 L crossings src tgt d0 done ord st ->
  (forall w, In w ws -> In w (pf_succ L cur)) ->
  is_heap (a_open st) -> (forall e, In e (a_open st) -> a_gval O st cur <= e.2 <= a_gval O st cur + 1) ->
  good (fold_left (explore O Q L crossings tgt cur) ws st).
Proof.
  intros Hcur Hd. induction ws as [|w ws IH]; intros st I J Hws Hh Hm; cbn [fold_left].
  - split; [exact Hh|]. eexists. exact Hm.
  - destruct (good_explore ord done st cur w I J Hcur (Hws w (or_introl eq_refl)) Hh Hm) as [Hh1 Hm1].
    destruct (explore_inv O Q (heap_queue_ok zgt) L crossings src tgt ord st cur w I Hcur (Hws w (or_introl eq_refl))) as (I1 & _ & _).
    destruct (explore_inv2 Q (heap_queue_ok zgt) L crossings src tgt d0 U HU HUs d0_range d0_cons ord done st cur w I J Hcur (Hws w (or_introl eq_refl)) Hd) as (J1 & _ & _).
    apply (IH _ I1 J1 (fun w' H => Hws w' (or_intror H)) Hh1 Hm1).
Qed.
Lemma good_min (st : astate Z) : good st -> minimal Q st.
Proof. intros [Hh _] e He. exact (heap_min _ _ Hh He). Qed.
Lemma dijkstra_opt fuel q : a_star O Q L crossings src tgt fuel = Some q -> q <> [] ->
  forall p, walk step src tgt p -> (length q <= length p)%nat.
Proof.
  apply (a_star_opt Q (heap_queue_ok zgt) L crossings src tgt d0 U HU HUs d0_range d0_cons good).
  - split; [intros i a b Hi Ha; destruct i as [|[|i]]; [lia|discriminate|discriminate]|]. exists 0. intros e [<-|[]]. cbn. lia.
  - exact good_min.
  - intros ord st cur f I J Hg Ht. pose proof (good_min _ Hg) as Hmin. destruct Hg as (Hh & m & Hm).
    destruct (pop_inv Q (heap_queue_ok zgt) L crossings src tgt _ _ _ _ I Ht) as [I1 _].
    pose proof (pop_inv2 Q (heap_queue_ok zgt) L crossings src tgt d0 U HU d0_range d0_cons _ _ _ _ I J Hmin Ht) as J1.
    pose proof (proj1 (proj2 (heap_queue_ok zgt)) _ _ Ht) as Hpe.
    assert (Hcur : In (cur, f) (a_open st)) by (eapply Permutation_in; [exact Hpe|left; reflexivity]).
    apply (good_expand (cur :: ord) ord cur (or_introl eq_refl) (fun u H => or_intror H) _ _ I1 J1 (fun w H => H)); [apply heap_pop_heap, Hh|].
    intros e He. cbn [a_open] in He. replace (a_gval O _ cur) with (a_gval O st cur) by reflexivity.
    assert (Hin : In e (a_open st)) by (eapply Permutation_in; [exact Hpe|right; exact He]).
    pose proof (Hm _ Hin) as M1. pose proof (Hm _ Hcur) as M2. pose proof (Hmin _ Ht _ Hin) as M3. cbn [snd] in *.
    destruct (coord_eq_dec cur src) as [->|Hcs].
    + exfalso. destruct (i_open _ _ _ _ _ _ I src ltac:(apply in_map_iff; exists (src, f); auto)) as [[E1 _]|(K & _)]; [|congruence].
      pose proof (i_start _ _ _ _ _ _ I E1) as E2. apply Permutation_map with (f := fst) in Hpe. rewrite E2 in Hpe. apply Permutation_length in Hpe.
      cbn [map length] in Hpe. rewrite map_length in Hpe. destruct (q_pop Q (a_open st)); [destruct He|discriminate].
    + pose proof (g_entry _ _ _ _ _ _ _ _ J cur f Hcur Hcs) as E. cbv beta in E. lia.
Qed.
End Dijkstra.
