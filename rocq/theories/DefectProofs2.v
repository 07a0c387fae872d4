(** Proofs about the analysis of SiDB surfaces. *)
From Coq Require Import ZArith QArith Bool List Lia.
From stdpp Require Import gmap.
From Verif Require Import CoordModel CoordSpec CoordProofs GridModel GridSpec CoordMap ClockModel GateModel CellModel RouteModel LibModel LibSpec LibProofs
  DefectModel DefectSpec DefectProofs.
Import List ListNotations.
Local Open Scope Z_scope.

Lemma eqb_coord a b : coord_eqb a b = true <-> a = b.
Proof.
  unfold coord_eqb. destruct a as [d x y z], b as [d' x' y' z']. cbn. rewrite !andb_true_iff, !Z.eqb_eq, eqb_true_iff.
  split; [intros [[[-> ->] ->] ->]; reflexivity|intros [= -> -> -> ->]; repeat split].
Qed.

Section Loops.
Context {A B : Type}.
Variable h : A -> option (list B).
Lemma collect_in l : forall r, collect h l = Some r -> forall b, In b r <-> exists a x, In a l /\ h a = Some x /\ In b x.
Proof.
  induction l as [|a l IH]; intros r H b; cbn in H.
  - injection H as <-. split; [intros []|intros (a & x & [] & _)].
  - destruct (h a) as [x|] eqn:E; [|discriminate]. destruct (collect h l) as [y|]; [|discriminate]. injection H as <-. rewrite in_app_iff, (IH y eq_refl). split.
    + intros [H|(a' & x' & H1 & H2 & H3)]; [exists a, x; repeat split; [left; reflexivity|exact E|exact H]|exists a', x'; repeat split; [right; exact H1|exact H2|exact H3]].
    + intros (a' & x' & [<-|H1] & H2 & H3); [left; congruence|right; exists a', x'; repeat split; assumption].
Qed.
Lemma collect_none l : collect h l = None <-> exists a, In a l /\ h a = None.
Proof.
  induction l as [|a l IH]; cbn; [split; [discriminate|intros (a & [] & _)]|]. destruct (h a) as [x|] eqn:E.
  - destruct (collect h l) as [y|].
    + split; [discriminate|]. intros (a' & [<-|H] & E'); [congruence|]. assert (X : None = Some y) by (symmetry; apply IH; exists a'; split; assumption). discriminate X.
    + split; [|reflexivity]. intros _. destruct (proj1 IH eq_refl) as (a' & H & E'). exists a'. split; [right; exact H|exact E'].
  - split; [|reflexivity]. intros _. exists a. split; [left; reflexivity|exact E].
Qed.
(** A selection that only one element of the list contributes to. *)
Lemma collect_filter (q : B -> bool) a0 l : forall r, List.NoDup l -> collect h l = Some r -> In a0 l ->
  (forall a x b, In a l -> h a = Some x -> In b x -> q b = true -> a = a0) -> exists x, h a0 = Some x /\ List.filter q r = List.filter q x.
Proof.
  induction l as [|a l IH]; intros r N H I U; [destruct I|]. cbn in H. inversion N as [|? ? N1 N2]; subst.
  destruct (h a) as [x|] eqn:E; [|discriminate]. destruct (collect h l) as [y|] eqn:Ey; [|discriminate]. injection H as <-. rewrite filter_app.
  destruct I as [->|I].
  - exists x. split; [exact E|]. replace (List.filter q y) with (@nil B); [apply app_nil_r|]. symmetry.
    destruct (List.filter q y) as [|b l0] eqn:F; [reflexivity|exfalso]. assert (Hb : In b (List.filter q y)) by (rewrite F; left; reflexivity).
    apply filter_In in Hb as [Hb Hq]. apply (proj1 (collect_in l y Ey b)) in Hb as (a' & x' & H1 & H2 & H3).
    apply N1. rewrite <- (U a' x' b (or_intror H1) H2 H3 Hq). exact H1.
  - destruct (IH y N2 eq_refl I) as (x0 & H1 & H2); [intros a' x' b' J; apply (U a' x' b'); right; exact J|]. exists x0. split; [exact H1|].
    rewrite H2. replace (List.filter q x) with (@nil B); [reflexivity|]. symmetry.
    destruct (List.filter q x) as [|b l0] eqn:F; [reflexivity|exfalso]. assert (Hb : In b (List.filter q x)) by (rewrite F; left; reflexivity).
    apply filter_In in Hb as [Hb Hq]. apply N1. rewrite (U a x b (or_introl eq_refl) E Hb Hq). exact I.
Qed.
End Loops.

Section Analysis.
Context {F P : Type}.
Variable impls : list (F * list gate).
Variable ports : gate -> option (list P).
Variables gx gy : Z.
Variable p : plan.
Variable ar : coord.
Hypothesis Hd : ar_ok Offset ar.
Hypothesis Hf : fits gx gy ar.
Variable s : surface.
Variables co no : option (Z * Z).
Hypothesis Hc : clean s.
Hypothesis Hk : s_kind s = Offset.
Hypothesis Hr : at_roomy s.
Hypothesis H16 : is_16 co.
Hypothesis H16' : is_16 no.
Notation aff := (all_affected_sidbs s co no).
Notation h := (hit s co no gx gy p).

Lemma compromised_hit g t : inb ar t -> (compromised gx gy p aff g t = true <-> h t g).
Proof.
  intros Ht. unfold compromised. rewrite existsb_exists. split.
  - intros (y & Hy & H). apply existsb_exists in H as (x & Hx & H). apply andb_true_iff in H as [H1 H2].
    apply in_range in Hx, Hy. assert (G : in_gate gx gy x y) by (unfold in_gate; lia).
    apply existsb_exists in H2 as (q & Hq & E). apply eqb_coord in E. rewrite (position gx gy ar Hf t Ht p x y G) in E. subst q.
    apply (all_offset s co no _ Hc Hk Hr H16 H16') in Hq as [[c A] I]. apply negb_true_iff in H1. apply Z.eqb_neq in H1.
    exists x, y, c. repeat split; try assumption; try apply G; try apply A; try apply I.
  - intros (x & y & c & G & N & A & I). pose proof G as [Gx Gy]. exists y. split; [apply in_range; lia|]. apply existsb_exists. exists x. split; [apply in_range; lia|].
    apply andb_true_iff. split; [apply negb_true_iff, Z.eqb_neq; exact N|]. apply existsb_exists. exists (cell_of gx gy p t x y).
    split; [apply (all_offset s co no _ Hc Hk Hr H16 H16'); split; [exists c; exact A|exact I]|].
    rewrite (position gx gy ar Hf t Ht p x y G). apply eqb_coord. reflexivity.
Qed.
Lemma analyze_tagged t f gs : forall r, analyze_gate F P ports gx gy p aff t f gs = Some r -> forall e, In e r -> fst e = (t, f).
Proof.
  induction gs as [|g gs IH]; intros r H e He; cbn [analyze_gate] in H; [injection H as <-; destruct He|].
  destruct (if compromised _ _ _ _ _ _ then _ else _) as [ps|]; [|discriminate]. destruct (analyze_gate _ _ _ _ _ _ _ _ _ gs) as [r'|]; [|discriminate].
  injection H as <-. apply in_app_iff in He as [He|He]; [|exact (IH r' eq_refl e He)]. apply in_map_iff in He as (q & <- & _). reflexivity.
Qed.
Lemma analyze_listed t f gs : inb ar t -> forall r, analyze_gate F P ports gx gy p aff t f gs = Some r -> listed (h t) ports gs (map snd r).
Proof.
  intros Ht. induction gs as [|g gs IH]; intros r H; cbn [analyze_gate] in H; [injection H as <-; apply l_nil|].
  destruct (compromised gx gy p aff g t) eqn:E.
  - apply (compromised_hit g t Ht) in E. destruct (ports g) as [ps|] eqn:Ep; [|discriminate].
    destruct (analyze_gate _ _ _ _ _ _ _ _ _ gs) as [r'|]; [|discriminate]. injection H as <-. rewrite map_app, map_map. cbn [snd]. rewrite map_id.
    apply l_hit; [exact E|exact Ep|exact (IH r' eq_refl)].
  - assert (M : ~ h t g) by (rewrite <- (compromised_hit g t Ht); congruence).
    destruct (analyze_gate _ _ _ _ _ _ _ _ _ gs) as [r'|]; [|discriminate]. injection H as <-. cbn. apply l_miss; [exact M|exact (IH r' eq_refl)].
Qed.
Lemma analyze_none t f gs : inb ar t -> (analyze_gate F P ports gx gy p aff t f gs = None <-> exists g, In g gs /\ h t g /\ ports g = None).
Proof.
  intros Ht. induction gs as [|g gs IH]; cbn [analyze_gate]; [split; [discriminate|intros (g & [] & _)]|].
  destruct (compromised gx gy p aff g t) eqn:E.
  - apply (compromised_hit g t Ht) in E. destruct (ports g) as [ps|] eqn:Ep.
    + destruct (analyze_gate _ _ _ _ _ _ _ _ _ gs) as [r'|].
      * split; [discriminate|]. intros (g' & [<-|I] & Hh & N); [congruence|]. assert (X : Some r' = None) by (apply IH; exists g'; repeat split; assumption). discriminate X.
      * split; [|reflexivity]. intros _. destruct (proj1 IH eq_refl) as (g' & I & R). exists g'. split; [right; exact I|exact R].
    + split; [|reflexivity]. intros _. exists g. repeat split; [left; reflexivity|exact E|exact Ep].
  - assert (M : ~ h t g) by (rewrite <- (compromised_hit g t Ht); congruence).
    destruct (analyze_gate _ _ _ _ _ _ _ _ _ gs) as [r'|].
    + split; [discriminate|]. intros (g' & [<-|I] & Hh & N); [contradiction|]. assert (X : Some r' = None) by (apply IH; exists g'; repeat split; assumption). discriminate X.
    + split; [|reflexivity]. intros _. destruct (proj1 IH eq_refl) as (g' & I & R). exists g'. split; [right; exact I|exact R].
Qed.

Notation analysis := (sidb_surface_analysis F P impls ports gx gy p ar s co no).
Notation inner := (fun t => collect (fun fi => analyze_gate F P ports gx gy p aff t (fst fi) (snd fi)) impls).
Lemma analysis_tiles : exists ts, (forall t, In t ts <-> inb ar t) /\ List.NoDup ts /\ analysis = collect inner ts.
Proof.
  destruct (foreach_coordinate_full Offset ar (Z.to_nat (volume ar)) Hd (le_n _)) as (ts & E & I & N & _). exists ts. split; [exact I|]. split; [exact N|].
  unfold sidb_surface_analysis. rewrite E. reflexivity.
Qed.
Lemma inner_tagged t r : inner t = Some r -> forall e, In e r -> fst (fst e) = t /\ In (snd (fst e)) (map fst impls).
Proof.
  intros H e He. apply (proj1 (collect_in _ impls r H e)) in He as ((f & gs) & x & I & Ex & Hx). cbn [fst snd] in Ex.
  rewrite (analyze_tagged _ _ _ _ Ex e Hx). cbn. split; [reflexivity|]. apply in_map_iff. exists (f, gs). split; [reflexivity|exact I].
Qed.

Variable same : F -> F -> bool.
Hypothesis Hs : forall a b, same a b = true <-> a = b.

Lemma listed_black r t f gs : List.NoDup (map fst impls) -> analysis = Some r -> inb ar t -> In (f, gs) impls ->
  listed (h t) ports gs (black_list same r t f).
Proof.
  intros N E Ht I. destruct analysis_tiles as (ts & Its & Nts & Ea). rewrite E in Ea. symmetry in Ea. unfold black_list.
  set (q := fun e : coord * F * P => coord_eqb (fst (fst e)) t && same (snd (fst e)) f).
  assert (Hq : forall e, q e = true <-> fst e = (t, f)).
  { intros e. unfold q. rewrite andb_true_iff, Hs, eqb_coord. destruct (fst e) as [a b]. cbn. split; [intros [-> ->]; reflexivity|intros [= -> ->]; split; reflexivity]. }
  destruct (collect_filter inner q t ts r Nts Ea (proj2 (Its t) Ht)) as (x & Ex & ->).
  { intros a y e Ia Ey He Hqe. apply Hq in Hqe. destruct (inner_tagged a y Ey e He) as [E1 _]. rewrite Hqe in E1. symmetry. exact E1. }
  destruct (collect_filter (fun fi => analyze_gate F P ports gx gy p aff t (fst fi) (snd fi)) q (f, gs) impls x) as (y & Ey & ->).
  - apply (NoDup_map_inv fst). exact N.
  - exact Ex.
  - exact I.
  - intros [f' gs'] y e Ia Ey He Hqe. apply Hq in Hqe. cbn [fst snd] in Ey. rewrite (analyze_tagged _ _ _ _ Ey e He) in Hqe. injection Hqe as ->.
    clear - N I Ia. induction impls as [|a l IH]; [destruct I|]. cbn in N. inversion N as [|? ? N1 N2]; subst. destruct I as [->|I], Ia as [->|Ia].
    + reflexivity.
    + exfalso. apply N1. apply in_map_iff. exists (f, gs'). split; [reflexivity|exact Ia].
    + exfalso. apply N1. apply in_map_iff. exists (f, gs). split; [reflexivity|exact I].
    + exact (IH N2 I Ia).
  - cbn [fst snd] in Ey. replace (List.filter q y) with y; [exact (analyze_listed t f gs Ht y Ey)|]. symmetry.
    pose proof (analyze_tagged t f gs y Ey) as T. clear - T Hq. induction y as [|e y IH]; [reflexivity|]. cbn.
    rewrite (proj2 (Hq e) (T e (or_introl eq_refl))). f_equal. apply IH. intros e' He'. apply T. right. exact He'.
Qed.
Lemma black_nil r t f : analysis = Some r -> ~ (inb ar t /\ In f (map fst impls)) -> black_list same r t f = [].
Proof.
  intros E N. destruct analysis_tiles as (ts & Its & _ & Ea). rewrite E in Ea. symmetry in Ea. unfold black_list.
  destruct (List.filter _ r) as [|e l] eqn:Fl; [reflexivity|exfalso].
  assert (He : In e (e :: l)) by (left; reflexivity). rewrite <- Fl in He. apply filter_In in He as [He Hq].
  apply andb_true_iff in Hq as [H1 H2]. apply eqb_coord in H1. apply Hs in H2.
  apply (proj1 (collect_in inner ts r Ea e)) in He as (t' & x & It & Ex & Hx). destruct (inner_tagged t' x Ex e Hx) as [T1 T2].
  apply N. rewrite <- H1, T1, <- H2. split; [apply Its; exact It|exact T2].
Qed.
Lemma analysis_fails : analysis = None <-> exists t f gs g, inb ar t /\ In (f, gs) impls /\ In g gs /\ h t g /\ ports g = None.
Proof.
  destruct analysis_tiles as (ts & Its & _ & ->). rewrite collect_none. split.
  - intros (t & It & E). apply Its in It. apply collect_none in E as ([f gs] & I & E). cbn [fst snd] in E. apply (analyze_none t f gs It) in E as (g & Ig & R).
    exists t, f, gs, g. repeat split; try assumption; try apply It; apply R.
  - intros (t & f & gs & g & It & I & Ig & R). exists t. split; [apply Its; exact It|]. apply collect_none. exists (f, gs). split; [exact I|].
    cbn [fst snd]. apply (analyze_none t f gs It). exists g. split; assumption.
Qed.
End Analysis.
