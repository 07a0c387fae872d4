(** Proofs about SidbModel.v, part 7: incremental updates of the potentials, the dependent SiDB, writing digits with a
    history. *)
From Coq Require Import ZArith QArith Qcanon Bool List Lia Lqa Permutation.
From Verif Require Import CoordModel CoordProofs UtilModel SidbModel SidbSpec SidbProofs SidbProofs2 SidbProofs3 SidbProofs4 SidbProofs5.
Import ListNotations.
Local Open Scope Z_scope.

Lemma coord_dec (a b : coord) : {a = b} + {a <> b}.
Proof.
  destruct (coord_eqb a b) eqn:E; [left; apply coord_eqb_spec, E|right; apply coord_eqb_false, E].
Qed.
Lemma total_sub (F : coord -> Qc) cs : forall cells, NoDup cells -> NoDup cs -> (forall c, In c cs -> In c cells) ->
  (forall c, In c cells -> ~ In c cs -> F c = 0%Qc) -> total F cells = total F cs.
Proof.
  revert F. induction cs as [|c cs IH]; intros F cells N Nc I Z.
  - rewrite (total_ext F (fun _ => 0%Qc)) by (intros x Hx; apply Z; auto). apply total_0.
  - apply NoDup_cons_iff in Nc. destruct Nc as [N1 N2]. rewrite total_cons.
    set (G x := if coord_eqb x c then 0%Qc else F x).
    transitivity (total (fun x => ((if coord_eqb x c then F c else 0%Qc) + G x)%Qc) cells).
    { apply total_ext. intros x Hx. unfold G. destruct (coord_eqb x c) eqn:E; [apply coord_eqb_spec in E; subst; ring|ring]. }
    rewrite total_plus. f_equal.
    + rewrite (total_single _ cells c N); [rewrite coord_eqb_refl; reflexivity|apply I; left; reflexivity|].
      intros b _ Hb. apply coord_eqb_false in Hb. rewrite Hb. reflexivity.
    + rewrite (IH G cells N N2).
      * apply total_ext. intros x Hx. unfold G. destruct (coord_eqb x c) eqn:E; [|reflexivity].
        apply coord_eqb_spec in E. subst. contradiction.
      * intros x Hx. apply I. right. exact Hx.
      * intros x Hx Nx. unfold G. destruct (coord_eqb x c) eqn:E; [reflexivity|]. apply coord_eqb_false in E.
        apply Z; [exact Hx|]. intros [C|C]; [congruence|contradiction].
Qed.

Lemma NoDup_app_disj {A} (l m : list A) : NoDup l -> NoDup m -> (forall x, In x l -> In x m -> False) -> NoDup (l ++ m).
Proof.
  intros Nl Nm D. induction Nl as [|x l Hx Nl IH]; [exact Nm|]. cbn. constructor.
  - intros C. apply in_app_or in C. destruct C as [C|C]; [contradiction|]. apply (D x); [left; reflexivity|exact C].
  - apply IH. intros y Hy. apply D. right. exact Hy.
Qed.

Section Incremental.
Context (phi : Qc -> Qc -> coord -> coord -> Qc)
        (phi_self : forall e l a, phi e l a a = 0%Qc) (phi_sym : forall e l a b, phi e l a b = phi e l b a)
        (cells : list coord) (Hnd : NoDup cells) (p : params) (ext dp : coord -> Qc).
Let V := coulomb phi p.
Let lpf := lp phi p cells dp.
Let vld := validb phi p cells ext dp.

Lemma lp_change f g cs a : NoDup cs -> (forall c, In c cs -> In c cells) -> (forall c, In c cells -> ~ In c cs -> f c = g c) ->
  lpf g a = (lpf f a + total (fun c => V a c * (charge (g c) - charge (f c))) cs)%Qc.
Proof.
  intros N I E. unfold lpf, lp. fold V.
  rewrite <- (total_sub (fun c => V a c * (charge (g c) - charge (f c)))%Qc cs cells Hnd N I).
  - transitivity (dp a + (total (fun b => V a b * charge (f b)) cells + total (fun c => V a c * (charge (g c) - charge (f c))) cells))%Qc; [|ring].
    f_equal. rewrite <- total_plus. apply total_ext. intros c _. ring.
  - intros c Hc Nc. rewrite (E c Hc Nc). ring.
Qed.
Lemma lp_fupd f c s a : In c cells -> lpf (fupd f c s) a = (lpf f a + V a c * (charge s - charge (f c)))%Qc.
Proof.
  intros I. rewrite (lp_change f (fupd f c s) [c] a).
  - unfold total. cbn [fold_right]. unfold fupd. rewrite coord_eqb_refl. ring.
  - repeat constructor. intros [].
  - intros x [<-|[]]. exact I.
  - intros x _ Nx. unfold fupd. destruct (coord_eqb x c) eqn:E; [|reflexivity]. apply coord_eqb_spec in E. subst. exfalso. apply Nx. left. reflexivity.
Qed.
Lemma lp_self f c s : In c cells -> lpf (fupd f c s) c = lpf f c.
Proof. intros I. rewrite lp_fupd by exact I. unfold V, coulomb. rewrite phi_self. ring. Qed.

(** The state that the rule for the dependent SiDB chooses. *)
Definition depnext (b3 : bool) (dep : coord) (f : coord -> cs) : cs :=
  let '(nu, pl, _, _) := bnd p ext dep in
  if qltb (- lpf f dep)%Qc nu then NEG
  else if qltb pl (- lpf f dep)%Qc then (if b3 then POS else f dep) else NEU.

Lemma fupd_same f c : map (fupd f c (f c)) cells = map f cells.
Proof. apply map_ext. intros x. unfold fupd. destruct (coord_eqb x c) eqn:E; [apply coord_eqb_spec in E; subst|]; reflexivity. Qed.

(** The fields used below. *)
Record Dep (d : cds) (dep : coord) : Prop := mkDep {
  dp_dep : d_dep d = dep; dp_live : is_dead dep = false; dp_in : In dep cells; dp_idx : d_depi d = index_in dep cells
}.
Definition b3 (d : cds) : bool := (d_base d =? 3) || negb (match d_three d with [] => true | _ => false end).

Lemma switch_eq d dep f s : Static phi d cells p ext dp -> charges cells d f -> d_int d = map (lpf f) cells -> Dep d dep ->
  switch_dependent d s = set_charge (set_int d (map (lpf (fupd f dep s)) cells)) (map (fupd f dep s) cells).
Proof.
  intros S C J [D1 D2 D3 D4]. unfold switch_dependent. rewrite D4.
  destruct (index_in_nth dep cells D3) as [B E].
  set (i := Z.to_nat (index_in dep cells)) in *. assert (Hi : (i < length cells)%nat) by lia.
  rewrite (charge_at cells d f i C Hi), E. destruct (cs_eqb (f dep) s) eqn:Q.
  - assert (f dep = s) by (destruct (f dep), s; cbn in Q; congruence). subst s.
    assert (L : map (lpf (fupd f dep (f dep))) cells = map (lpf f) cells).
    { apply map_ext. intros a. rewrite lp_fupd by exact D3. ring. }
    rewrite fupd_same, L, <- J, <- (proj2 C). destruct d; reflexivity.
  - assert (CC : upd i s (d_charge d) = map (fupd f dep s) cells).
    { rewrite (proj2 C). apply upd_fupd; auto. }
    rewrite CC. f_equal. f_equal. unfold indices. rewrite (proj1 C). apply (map_seq _ _ _ dead0). intros j Hj.
    rewrite J, (nth_map (lpf f) cells j dead0) by exact Hj. rewrite lp_fupd by exact D3.
    assert (X : (charge s - charge (f dep))%Qc = qz (- sgn (f dep) + sgn s)).
    { rewrite qz_add, qz_opp, !qz_sgn. ring. }
    destruct (Nat.eqb_spec j i) as [->|Ne].
    + rewrite E. unfold V, coulomb. rewrite phi_self. ring.
    + rewrite (pot_at phi d cells p j i (st_pot _ _ _ _ _ _ S) Hj Hi), E. fold V. rewrite X. reflexivity.
Qed.
Lemma dependent_eq d dep f : Static phi d cells p ext dp -> charges cells d f -> d_int d = map (lpf f) cells -> Dep d dep ->
  update_dependent d =
  set_charge (set_int d (map (lpf (fupd f dep (depnext (b3 d) dep f))) cells)) (map (fupd f dep (depnext (b3 d) dep f)) cells).
Proof.
  intros S C J D. pose proof D as [D1 D2 D3 D4]. unfold update_dependent. rewrite D1, D2, D4.
  destruct (index_in_nth dep cells D3) as [B E].
  assert (Hi : (Z.to_nat (index_in dep cells) < length cells)%nat) by lia.
  unfold minus_int, negative_upper, positive_lower, bound.
  rewrite J, (st_bounds _ _ _ _ _ _ S), (nth_map (lpf f) cells _ dead0), (nth_map (bnd p ext) cells _ dead0), E by exact Hi.
  unfold depnext, bnd. fold (b3 d). destruct (qltb (- lpf f dep)%Qc (ext dep - p_mu p + margin)%Qc); [apply switch_eq; auto|].
  destruct (qltb (ext dep - mu_plus p - margin)%Qc (- lpf f dep)%Qc); [|apply switch_eq; auto].
  unfold b3. destruct ((d_base d =? 3) || negb match d_three d with [] => true | _ => false end); [apply switch_eq; auto|].
  assert (L : map (lpf (fupd f dep (f dep))) cells = map (lpf f) cells).
  { apply map_ext. intros a. rewrite lp_fupd by exact D3. ring. }
  rewrite fupd_same, L, <- J, <- (proj2 C). destruct d; reflexivity.
Qed.
(** From potentials that are not up to date. *)
Lemma dependent_stale d dep f ip : Static phi d cells p ext dp -> charges cells d f -> d_int d = map ip cells -> Dep d dep ->
  exists s ip', update_dependent d = set_charge (set_int d (map ip' cells)) (map (fupd f dep s) cells) /\ (f dep <> NON -> s <> NON).
Proof.
  intros S C J D. pose proof D as [D1 D2 D3 D4].
  destruct (index_in_nth dep cells D3) as [B E].
  set (i := Z.to_nat (index_in dep cells)) in *. assert (Hi : (i < length cells)%nat) by lia.
  assert (K : exists ip', d = set_charge (set_int d (map ip' cells)) (map (fupd f dep (f dep)) cells)).
  { exists ip. rewrite fupd_same, <- J, <- (proj2 C). destruct d; reflexivity. }
  assert (Sw : forall s, exists ip', switch_dependent d s = set_charge (set_int d (map ip' cells)) (map (fupd f dep s) cells)).
  { intros s. unfold switch_dependent. rewrite D4. fold i. rewrite (charge_at cells d f i C Hi), E.
    destruct (cs_eqb (f dep) s) eqn:Q.
    - assert (f dep = s) by (destruct (f dep), s; cbn in Q; congruence). subst s. exact K.
    - assert (CC : upd i s (d_charge d) = map (fupd f dep s) cells).
      { rewrite (proj2 C). apply upd_fupd; auto. }
      rewrite CC. unfold indices. rewrite (proj1 C).
      exists (fun a => if coord_eqb a dep then ip a else (ip a + V a dep * qz (- sgn (f dep) + sgn s))%Qc). f_equal. f_equal.
      apply (map_seq _ _ _ dead0). intros j Hj. rewrite J, (nth_map ip cells j dead0) by exact Hj.
      rewrite (pot_at phi d cells p j i (st_pot _ _ _ _ _ _ S) Hj Hi), E. fold V.
      destruct (Nat.eqb_spec j i) as [->|Ne].
      + rewrite E, coord_eqb_refl. reflexivity.
      + destruct (coord_eqb (nth j cells dead0) dep) eqn:Q'; [|reflexivity]. apply coord_eqb_spec in Q'. exfalso. apply Ne.
        apply (proj1 (NoDup_nth cells dead0) Hnd); auto. congruence. }
  unfold update_dependent. rewrite D1, D2.
  destruct (qltb _ _). { destruct (Sw NEG) as [ip' X]. exists NEG, ip'. split; [exact X|discriminate]. }
  destruct (qltb _ _); [|destruct (Sw NEU) as [ip' X]; exists NEU, ip'; split; [exact X|discriminate]].
  destruct (_ || _); [destruct (Sw POS) as [ip' X]; exists POS, ip'; split; [exact X|discriminate]|].
  destruct K as [ip' X]. exists (f dep), ip'. split; [exact X|auto].
Qed.

(** Potentials that are kept up to date. *)
Lemma add_row_eq d g c q : Static phi d cells p ext dp -> In c cells -> d_int d = map g cells ->
  add_row d (Z.to_nat (index_in c cells)) q = set_int d (map (fun a => (g a + V a c * q)%Qc) cells).
Proof.
  intros S I J. destruct (index_in_nth c cells I) as [B E]. unfold add_row, indices. rewrite (st_order _ _ _ _ _ _ S). f_equal.
  apply (map_seq _ _ _ dead0). intros j Hj. rewrite J, (nth_map g cells j dead0) by exact Hj.
  rewrite (pot_at phi d cells p) by (try apply S; auto; lia). rewrite E. fold V. unfold V, coulomb. rewrite phi_sym. reflexivity.
Qed.
Lemma consider_hist d f g cs : Static phi d cells p ext dp -> charges cells d g -> d_int d = map (lpf f) cells ->
  p_base (d_par d) <> 2 -> d_hist d = map (fun c => (index_in c cells, sgn (f c))) cs -> NoDup cs ->
  (forall c, In c cs -> In c cells) -> (forall c, In c cells -> ~ In c cs -> f c = g c) ->
  update_int_consider d = set_int d (map (lpf g) cells).
Proof.
  intros S C J B Hh N I E. unfold update_int_consider. destruct (Z.eqb_spec (p_base (d_par d)) 2); [contradiction|]. rewrite Hh.
  assert (Fold : forall cs' d' (h : coord -> Qc), (forall c, In c cs' -> In c cells) ->
    Static phi d' cells p ext dp -> charges cells d' g -> d_int d' = map h cells ->
    fold_left (fun d0 (h0 : Z * Z) => add_row d0 (Z.to_nat (fst h0)) (qsign d0 (Z.to_nat (fst h0)) - qz (snd h0))%Qc)
      (map (fun c => (index_in c cells, sgn (f c))) cs') d' =
    set_int d' (map (fun a => (h a + total (fun c => V a c * (charge (g c) - charge (f c))) cs')%Qc) cells)).
  { induction cs' as [|c cs' IH]; intros d' h I' S' C' J'; cbn [map fold_left fst snd].
    - rewrite (map_ext (fun a => (h a + total (fun c => (V a c * (charge (g c) - charge (f c)))%Qc) [])%Qc) h)
        by (intros; unfold total; cbn; ring). rewrite <- J'. destruct d'; reflexivity.
    - assert (Ic : In c cells) by (apply I'; left; reflexivity). destruct (index_in_nth c cells Ic) as [Bc Ec].
      rewrite (add_row_eq d' h c _ S' Ic J').
      rewrite (qsign_at cells d' g) by (auto; lia). rewrite Ec, qz_sgn.
      rewrite (IH _ (fun a => (h a + V a c * (charge (g c) - charge (f c)))%Qc)).
      + change (set_int (set_int d' ?x)) with (set_int d'). f_equal. apply map_ext. intros a. rewrite total_cons. ring.
      + intros x Hx. apply I'. right. exact Hx.
      + destruct S' as [S1 S2 S3 S4 S5 S6 S7 S8 S9 S10 S11 S12 S13]. split; cbn; auto.
      + exact C'.
      + reflexivity. }
  rewrite (Fold cs d (lpf f) I S C J). f_equal. apply map_ext. intros a. rewrite (lp_change f g cs a N I E). reflexivity.
Qed.
Lemma consider_stale d ip f cs : Static phi d cells p ext dp -> d_int d = map ip cells -> p_base (d_par d) <> 2 ->
  d_hist d = map (fun c => (index_in c cells, sgn (f c))) cs -> (forall c, In c cs -> In c cells) ->
  exists ip', update_int_consider d = set_int d (map ip' cells).
Proof.
  intros S J B Hh I. unfold update_int_consider. destruct (Z.eqb_spec (p_base (d_par d)) 2); [contradiction|]. rewrite Hh. clear Hh B n.
  revert d ip S J. induction cs as [|c cs IH]; intros d ip S J; cbn [map fold_left fst snd].
  - exists ip. rewrite <- J. destruct d; reflexivity.
  - rewrite (add_row_eq d ip c _ S (I c (or_introl eq_refl)) J).
    match goal with |- context [fold_left _ _ (set_int d (map ?h cells))] => destruct (IH (fun x Hx => I x (or_intror Hx)) (set_int d (map h cells)) h) as [ip' E]; [|reflexivity|] end.
    + destruct S as [S1 S2 S3 S4 S5 S6 S7 S8 S9 S10 S11 S12 S13]. split; cbn; auto.
    + exists ip'. rewrite E. reflexivity.
Qed.
Lemma consider_gray d f c s : Static phi d cells p ext dp -> charges cells d (fupd f c s) -> d_int d = map (lpf f) cells ->
  p_base (d_par d) = 2 -> In c cells -> d_gray d = (index_in c cells, sgn (f c)) ->
  update_int_consider d = set_int d (map (lpf (fupd f c s)) cells).
Proof.
  intros S C J B I G. unfold update_int_consider. rewrite B, G. change (2 =? 2) with true. cbv iota.
  destruct (index_in_nth c cells I) as [Bc Ec]. destruct (Z.eqb_spec (index_in c cells) (-1)); [lia|].
  rewrite (add_row_eq d (lpf f) c _ S I J). f_equal. apply map_ext. intros a. rewrite lp_fupd by exact I. f_equal. f_equal.
  rewrite (charge_at cells d (fupd f c s)) by (auto; lia). rewrite Ec. unfold fupd. rewrite coord_eqb_refl.
  rewrite qz_sub, !qz_sgn. reflexivity.
Qed.

End Incremental.

(** ** Writing digits and recording the changes *)
Section Digits.
Context (cells : list coord) (Hnd : NoDup cells).


Definition recs (f : coord -> cs) (cs : list coord) : list (Z * Z) := map (fun c => (index_in c cells, sgn (f c))) cs.

Lemma set_hist_same d f : charges cells d f -> set_hist (set_charge d (map f cells)) (d_hist d ++ []) = d.
Proof. intros [_ C]. rewrite app_nil_r, <- C. destruct d; reflexivity. Qed.

Lemma history_ok b skip : base_ok b -> skip = None \/ skip = Some (-1) -> forall r fuel q d f done_,
  NoDup (rev r ++ done_) -> (forall c, In c (rev r ++ done_) -> In c cells) -> charges cells d f ->
  0 <= q < b ^ Z.of_nat (length r) -> q < 2 ^ Z.of_nat fuel -> (forall c, In c r -> f c <> NON) ->
  exists g cs, history_loop (S fuel) b (rev r ++ done_) skip q (Z.of_nat (length r) - 1) d =
      set_hist (set_charge d (map g cells)) (d_hist d ++ recs f cs) /\
    NoDup cs /\ (forall c, In c cs -> In c r) /\ (forall c, ~ In c cs -> g c = f c) /\ map g r = wr b q (map f r).
Proof.
  intros B Sk. induction r as [|c r IH]; intros fuel q d f done_ N I C Q F NN.
  - exists f, []. cbn [length] in Q. change (b ^ Z.of_nat 0) with 1 in Q. assert (q = 0) by lia. subst q. cbn [history_loop].
    change (0 <? 0) with false. cbv iota. change (recs f []) with (@nil (Z * Z)); rewrite (set_hist_same d f C). split; [reflexivity|split; [apply NoDup_nil|split; [intros x []|split; [auto|reflexivity]]]].
  - cbn [rev] in N, I. rewrite <- app_assoc in N, I. cbn [app] in N, I.
    assert (Ic : In c cells) by (apply I, in_or_app; right; left; reflexivity).
    assert (Nr : ~ In c r).
    { intros X. apply NoDup_remove_2 in N. apply N, in_or_app. left. rewrite <- in_rev. exact X. }
    destruct (Z.ltb_spec 0 q) as [Pq|Pq].
    + cbn [wr map]. replace (0 <? q) with true by lia.
      assert (Hf : exists fuel', fuel = S fuel'). { destruct fuel as [|fuel']; [cbn in F; lia|eauto]. } destruct Hf as [fuel' ->].
      remember (S fuel') as fu. cbn [history_loop]. replace (0 <? q) with true by lia. cbn [length].
      rewrite Nat2Z.inj_succ. replace (Z.succ (Z.of_nat (length r)) - 1) with (Z.of_nat (length r)) by lia.
      assert (Ct : (match skip with Some s => if Z.of_nat (length r) =? s then Z.of_nat (length r) - 1 else Z.of_nat (length r) | None => Z.of_nat (length r) end) = Z.of_nat (length r)).
      { destruct Sk as [->| ->]; [reflexivity|]. destruct (Z.eqb_spec (Z.of_nat (length r)) (-1)); [lia|reflexivity]. }
      rewrite Ct. cbv zeta. destruct (Z.ltb_spec (Z.of_nat (length r)) 0); [lia|]. rewrite Nat2Z.id. cbn [rev]. rewrite <- app_assoc.
      cbn [app]. rewrite app_nth2, rev_length, Nat.sub_diag by (rewrite rev_length; lia). cbn [nth].
      unfold cell_to_index. rewrite (proj1 C).
      destruct (index_in_nth c cells Ic) as [Bc Ec].
      assert (Old : get_charge_state_by_index d (index_in c cells) = f c).
      { unfold get_charge_state_by_index. rewrite (proj2 C), map_length.
        replace ((0 <=? index_in c cells) && (index_in c cells <? Z.of_nat (length cells))) with true by (symmetry; apply andb_true_iff; lia).
        rewrite (nth_map f cells _ dead0) by lia. rewrite Ec. reflexivity. }
      rewrite Old. set (s := of_sign (q mod b - 1)).
      assert (Qb : 0 <= q / b < b ^ Z.of_nat (length r)).
      { cbn [length] in Q. rewrite Nat2Z.inj_succ, Z.pow_succ_r in Q by lia. split; [apply Z.div_pos; destruct B; lia|].
        apply Z.div_lt_upper_bound; destruct B; lia. }
      assert (Fb : q / b < 2 ^ Z.of_nat fuel').
      { subst fu. rewrite Nat2Z.inj_succ, Z.pow_succ_r in F by lia. apply Z.div_lt_upper_bound; destruct B as [->| ->]; nia. }
      destruct (cs_eqb (f c) s) eqn:Es.
      * assert (Fs : f c = s) by (destruct (f c), s; cbn in Es; congruence).
        subst fu. destruct (IH fuel' (q / b) d f (c :: done_) N I C Qb Fb) as (g & cs & G1 & G2 & G3 & G4 & G5).
        { intros x Hx. apply NN. right. exact Hx. }
        exists g, cs. split; [exact G1|]. split; [exact G2|]. split; [intros x Hx; right; apply G3, Hx|]. split; [exact G4|].
        cbn [map]. f_equal; [|exact G5]. rewrite G4; [exact Fs|]. intros X. apply Nr, G3, X.
      * unfold assign_by_index. cbn [d_charge set_hist]. rewrite (proj2 C), map_length.
        replace ((0 <=? index_in c cells) && (index_in c cells <? Z.of_nat (length cells))) with true by (symmetry; apply andb_true_iff; lia).
        rewrite upd_fupd by auto.
        set (d' := set_charge (set_hist d (d_hist d ++ [(index_in c cells, sgn (f c))])) (map (fupd f c s) cells)).
        assert (C' : charges cells d' (fupd f c s)) by (split; [apply C|reflexivity]).
        subst fu. destruct (IH fuel' (q / b) d' (fupd f c s) (c :: done_) N I C' Qb Fb) as (g & cs & G1 & G2 & G3 & G4 & G5).
        { intros x Hx. unfold fupd. destruct (coord_eqb x c) eqn:X; [apply coord_eqb_spec in X; subst; contradiction|]. apply NN. right. exact Hx. }
        exists g, (c :: cs). rewrite G1. split; [|split; [|split; [|split]]].
        -- unfold d'. cbn [d_hist set_charge set_hist]. rewrite <- app_assoc. cbn [app recs map].
           change (set_hist (set_charge (set_charge (set_hist d ?h) ?x) ?y) ?z) with (set_hist (set_charge d y) z). f_equal. f_equal. f_equal.
           unfold recs. apply map_ext_in. intros x Hx. f_equal. unfold fupd. destruct (coord_eqb x c) eqn:X; [|reflexivity].
           apply coord_eqb_spec in X. subst. exfalso. apply Nr, G3, Hx.
        -- constructor; [intros X; apply Nr, G3, X|exact G2].
        -- intros x [<-|Hx]; [left; reflexivity|right; apply G3, Hx].
        -- intros x Nx. rewrite G4 by (intros X; apply Nx; right; exact X). unfold fupd.
           destruct (coord_eqb x c) eqn:X; [|reflexivity]. apply coord_eqb_spec in X. subst. exfalso. apply Nx. left. reflexivity.
        -- cbn [map]. f_equal.
           ++ rewrite G4 by (intros X; apply Nr, G3, X). unfold fupd. rewrite coord_eqb_refl. reflexivity.
           ++ rewrite G5. f_equal. apply map_ext_in. intros x Hx. unfold fupd. destruct (coord_eqb x c) eqn:X; [|reflexivity].
              apply coord_eqb_spec in X. subst. contradiction.
    + assert (q = 0) by lia. subst q. exists f, []. cbn [history_loop]. change (0 <? 0) with false. cbv iota.
      change (recs f []) with (@nil (Z * Z)); rewrite (set_hist_same d f C), wr_0. split; [reflexivity|split; [apply NoDup_nil|split; [intros x []|split; [auto|reflexivity]]]].
Qed.

Lemma keep_eq d f c s : charges cells d f ->
  assign_charge_state_keep d c s = set_charge d (map (fun x => if coord_eqb x c then s else f x) cells).
Proof.
  intros [O C]. unfold assign_charge_state_keep, cell_to_index. rewrite O. destruct (Z.eqb_spec (index_in c cells) (-1)) as [E|E].
  - apply index_in_In in E. apply charge_set. rewrite C. apply map_ext_in. intros x Hx.
    destruct (coord_eqb x c) eqn:X; [|reflexivity]. apply coord_eqb_spec in X. subst. contradiction.
  - apply f_equal. rewrite C. apply (upd_index f).
    + exact Hnd.
    + destruct (in_dec coord_dec c cells) as [Y|Y]; [exact Y|]. apply index_in_none in Y. contradiction.
    + rewrite coord_eqb_refl. reflexivity.
    + intros x _ Hx. apply coord_eqb_false in Hx. rewrite Hx. reflexivity.
Qed.
Lemma fold_neg l : forall d f, charges cells d f ->
  fold_left (fun d c => assign_charge_state_keep d c NEG) l d =
  set_charge d (map (fun x => if existsb (coord_eqb x) l then NEG else f x) cells).
Proof.
  induction l as [|c l IH]; intros d f C.
  - cbn [fold_left existsb]. rewrite (map_ext (fun x : coord => f x) f) by reflexivity. apply charge_set. exact (proj2 C).
  - cbn [fold_left]. rewrite (keep_eq d f c NEG C).
    rewrite (IH _ (fun x => if coord_eqb x c then NEG else f x)) by (split; [apply C|reflexivity]). change (set_charge (set_charge d ?x)) with (set_charge d). f_equal. apply map_ext. intros x.
    cbn [existsb]. destruct (coord_eqb x c), (existsb (coord_eqb x) l); reflexivity.
Qed.
Lemma existsb_coord x l : existsb (coord_eqb x) l = true <-> In x l.
Proof.
  rewrite existsb_exists. split.
  - intros (y & Hy & E). apply coord_eqb_spec in E. subst. exact Hy.
  - intros H. exists x. split; [exact H|apply coord_eqb_refl].
Qed.
End Digits.
