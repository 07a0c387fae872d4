(** Proofs about SidbModel.v, part 3: the stored potentials, energy and validity as functions of the charge distribution. *)
From Coq Require Import ZArith QArith Qcanon Bool List Lia Lqa Permutation.
From Verif Require Import CoordModel CoordProofs UtilModel SidbModel SidbSpec SidbProofs SidbProofs2.
Import ListNotations.
Local Open Scope Z_scope.

Section Elec.
Context (phi : Qc -> Qc -> coord -> coord -> Qc).

(** Thresholds of an SiDB. *)
Definition bnd (p : params) (ext : coord -> Qc) (c : coord) : Qc * Qc * Qc * Qc :=
  (ext c - p_mu p + margin, ext c - mu_plus p - margin, ext c - p_mu p - margin, ext c - mu_plus p + margin)%Qc.

(** The local internal potential if the defects generate [dp]. *)
Definition lp (p : params) (cells : list coord) (dp : coord -> Qc) (f : coord -> cs) (c : coord) : Qc :=
  (dp c + total (fun b => coulomb phi p c b * charge (f b)) cells)%Qc.

(** The parts of a surface that do not depend on the charge states. *)
Record Static (d : cds) (cells : list coord) (p : params) (ext dp : coord -> Qc) : Prop := mkStatic {
  st_order : d_order d = cells;
  st_mu : p_mu (d_par d) = p_mu p;
  st_eps : p_eps (d_par d) = p_eps p;
  st_lambda : p_lambda (d_par d) = p_lambda p;
  st_pot : d_pot d = map (fun a => map (coulomb phi p a) cells) cells;
  st_defpot : d_defpot d = map dp cells;
  st_ext : d_ext d = map ext cells;
  st_bounds : d_bounds d = map (bnd p ext) cells;
  st_keys : NoDup (map fst (d_extmap d));
  st_keys_in : forall c, In c (map fst (d_extmap d)) -> In c cells;
  st_look : forall c, In c cells -> lookup_pot c (d_extmap d) = ext c;
  st_nodef : forall c, In c cells -> find_defect c (d_defs d) = None;
  st_ub : d_ub d = false
}.

Lemma pot_at d cells p i j : d_pot d = map (fun a => map (coulomb phi p a) cells) cells ->
  (i < length cells)%nat -> (j < length cells)%nat ->
  pot d i j = coulomb phi p (nth i cells dead0) (nth j cells dead0).
Proof.
  intros P Hi Hj. unfold pot. rewrite P. rewrite (nth_map _ _ i dead0) by exact Hi. apply nth_map. exact Hj.
Qed.
Lemma qsign_at cells d f i : charges cells d f -> (i < length cells)%nat -> qsign d i = charge (f (nth i cells dead0)).
Proof.
  intros [_ C] H. unfold qsign. rewrite C, (nth_map f cells i dead0) by exact H. apply qz_sgn.
Qed.
Lemma charge_at cells d f i : charges cells d f -> (i < length cells)%nat -> nth i (d_charge d) NON = f (nth i cells dead0).
Proof. intros [_ C] H. rewrite C. apply nth_map. exact H. Qed.

Lemma neglect_eq d cells p dp f : charges cells d f -> d_pot d = map (fun a => map (coulomb phi p a) cells) cells ->
  d_defpot d = map dp cells -> update_int_neglect d = set_int d (map (lp p cells dp f) cells).
Proof.
  intros C P D. unfold update_int_neglect, indices. rewrite (proj1 C). f_equal.
  apply (map_seq _ _ _ dead0). intros i Hi. rewrite D, (nth_map dp cells i dead0) by exact Hi. unfold lp. f_equal.
  rewrite sumq_map. apply (total_seq _ _ _ dead0). intros j Hj.
  rewrite (pot_at d cells p) by auto. rewrite (qsign_at cells d f) by auto. reflexivity.
Qed.

(** Thresholds. *)
Lemma thresholds_eq d cells p ext : d_order d = cells -> d_ext d = map ext cells -> p_mu (d_par d) = p_mu p ->
  determine_thresholds d = set_bounds d (map (bnd p ext) cells).
Proof.
  intros O E M. unfold determine_thresholds, indices. rewrite O. f_equal. apply (map_seq _ _ _ dead0). intros i Hi.
  rewrite E, (nth_map ext cells i dead0) by exact Hi. unfold bnd, mu_plus. rewrite M. reflexivity.
Qed.

(** External potentials. *)
Lemma lookup_none c m : ~ In c (map fst m) -> lookup_pot c m = Q2Qc 0.
Proof.
  induction m as [|[x v] m IH]; intros H; [reflexivity|]. cbn. destruct (coord_eqb x c) eqn:E.
  - apply coord_eqb_spec in E. subst. exfalso. apply H. left. reflexivity.
  - apply IH. intros C. apply H. right. exact C.
Qed.
Lemma update_ext_fold cells m : NoDup cells -> forall d g, d_order d = cells -> NoDup (map fst m) ->
  (forall c, In c (map fst m) -> In c cells) -> (forall c, In c cells -> find_defect c (d_defs d) = None) ->
  d_ext d = map g cells ->
  fold_left
    (fun d ce =>
       match find_defect (fst ce) (d_defs d) with
       | None =>
         let i := cell_to_index d (fst ce) in
         if i =? -1 then set_ub d true else set_ext d (upd (Z.to_nat i) (snd ce) (d_ext d))
       | Some _ => set_extdef d (ce :: d_extdef d)
       end) m d =
  set_ext d (map (fun c => if index_in c (map fst m) =? -1 then g c else lookup_pot c m) cells).
Proof.
  intros N. induction m as [|[c v] m IH]; intros d g O K I F E.
  - cbn. change (-1 =? -1) with true. cbv iota. transitivity (set_ext d (d_ext d)); [destruct d; reflexivity|].
    rewrite E. reflexivity.
  - cbn [fold_left fst snd]. cbn [map fst] in K, I. apply NoDup_cons_iff in K. destruct K as [K1 K2].
    assert (Ic : In c cells) by (apply I; left; reflexivity).
    rewrite (F c Ic). cbv zeta.
    assert (CI : cell_to_index d c = index_in c cells) by (unfold cell_to_index; rewrite O; reflexivity). rewrite CI.
    destruct (index_in_nth c cells Ic) as [B _]. destruct (Z.eqb_spec (index_in c cells) (-1)); [lia|].
    rewrite E.
    rewrite (upd_index g (fun x => if coord_eqb x c then v else g x) c cells v N Ic).
    2:{ rewrite coord_eqb_refl. reflexivity. }
    2:{ intros x _ Hx. destruct (coord_eqb x c) eqn:Ex; [apply coord_eqb_spec in Ex; contradiction|reflexivity]. }
    rewrite (IH _ (fun x => if coord_eqb x c then v else g x)); try reflexivity; auto.
    2:{ intros x Hx. apply I. right. exact Hx. }
    change (set_ext (set_ext d ?a)) with (set_ext d). f_equal. apply map_ext. intros x. cbn [map fst index_in lookup_pot].
    destruct (coord_eqb x c) eqn:Ex.
    + apply coord_eqb_spec in Ex. subst x. rewrite coord_eqb_refl. change (0 =? -1) with false. cbv iota.
      rewrite (index_in_none _ _ K1). reflexivity.
    + assert (Ex' : coord_eqb c x = false).
      { destruct (coord_eqb c x) eqn:E'; [|reflexivity]. apply coord_eqb_spec in E'. subst. rewrite coord_eqb_refl in Ex. discriminate. }
      rewrite Ex'. cbv zeta. destruct (Z.eqb_spec (index_in x (map fst m)) (-1)) as [Eq|Ne]; [reflexivity|].
      assert (Hx : 0 <= index_in x (map fst m)).
      { clear -Ne. induction (map fst m) as [|y r IH]; cbn in *; [lia|]. destruct (coord_eqb y x); [lia|].
        destruct (Z.eqb_spec (index_in x r) (-1)); [lia|]. specialize (IH n). lia. }
      destruct (Z.eqb_spec (index_in x (map fst m) + 1) (-1)); [lia|reflexivity].
Qed.
Lemma update_ext_eq d cells ext : NoDup cells -> d_order d = cells -> NoDup (map fst (d_extmap d)) ->
  (forall c, In c (map fst (d_extmap d)) -> In c cells) -> (forall c, In c cells -> lookup_pot c (d_extmap d) = ext c) ->
  (forall c, In c cells -> find_defect c (d_defs d) = None) ->
  update_ext d = set_extdef (set_ext d (map ext cells)) [].
Proof.
  intros N O K I L F. unfold update_ext.
  rewrite (update_ext_fold cells _ N _ (fun _ => Q2Qc 0)); auto; [|cbn; rewrite O; reflexivity].
  cbn [d_order set_extdef set_ext].
  change (set_ext (set_extdef (set_ext d ?a) []) ?b) with (set_extdef (set_ext d b) []). do 2 f_equal.
  apply map_ext_in. intros c Hc. destruct (Z.eqb_spec (index_in c (map fst (d_extmap d))) (-1)) as [E|E].
  - apply index_in_In in E. rewrite <- (L c Hc). symmetry. apply lookup_none, E.
  - apply L, Hc.
Qed.

(** Energy. *)
Definition intdefs (p : params) (cells : list coord) (defs : list (coord * defect)) (f : coord -> cs) :=
  map (fun cf1 =>
    (fst cf1, (total (fun cf2 => defect_pot phi (fst cf1) (fst cf2) (snd cf2)) defs +
               total (fun c => coulomb phi p (fst cf1) c * charge (f c)) cells)%Qc)) defs.
Definition en_val (p : params) (cells : list coord) (ext dp : coord -> Qc) (defs : list (coord * defect)) (f : coord -> cs) : Qc :=
  (total (fun c => ext c * charge (f c)) cells +
   half * (total (fun c => lp p cells dp f c * charge (f c)) cells +
           total (fun cf => lookup_pot (fst cf) (intdefs p cells defs f) * qz (df_charge (snd cf))) defs))%Qc.

Lemma recompute_eq d cells p ext dp f : NoDup cells -> charges cells d f ->
  p_eps (d_par d) = p_eps p -> p_lambda (d_par d) = p_lambda p ->
  NoDup (map fst (d_extmap d)) -> (forall c, In c (map fst (d_extmap d)) -> In c cells) ->
  (forall c, In c cells -> lookup_pot c (d_extmap d) = ext c) -> (forall c, In c cells -> find_defect c (d_defs d) = None) ->
  d_int d = map (lp p cells dp f) cells -> d_eng d <> QUICKSIM ->
  recompute_energy phi d =
  set_energy (set_intdef (set_extdef (set_ext d (map ext cells)) []) (intdefs p cells (d_defs d) f))
             (en_val p cells ext dp (d_defs d) f).
Proof.
  intros N C Pe Pl K I L F J E. unfold recompute_energy. destruct (d_eng d) eqn:EE; try contradiction; clear E.
  all: rewrite (update_ext_eq d cells ext N (proj1 C) K I L F).
  all: assert (U : update_defect_pot phi (set_extdef (set_ext d (map ext cells)) []) =
    set_intdef (set_extdef (set_ext d (map ext cells)) []) (intdefs p cells (d_defs d) f)).
  1,3,5: unfold update_defect_pot; f_equal; cbn [d_defs set_extdef set_ext]; apply map_ext; intros cf; f_equal;
    rewrite !sumq_map; f_equal; unfold indices; cbn [d_order d_par set_extdef set_ext]; rewrite (proj1 C);
    apply (total_seq _ _ _ dead0); intros i Hi; unfold coulomb; rewrite Pe, Pl;
    rewrite (qsign_at cells _ f) by (auto; exact C); reflexivity.
  all: rewrite U; f_equal; cbn [d_ext d_extdef d_intdef d_defs d_int set_intdef set_extdef set_ext lookup_pot]; unfold en_val;
    rewrite !sumq_map; unfold indices; cbn [d_order set_intdef set_extdef set_ext]; rewrite (proj1 C).
  all: rewrite (total_seq _ (fun c => (ext c * charge (f c))%Qc) _ dead0) by
    (intros i Hi; rewrite (nth_map ext cells i dead0) by exact Hi; rewrite (qsign_at cells _ f) by (auto; exact C); reflexivity).
  all: rewrite (total_seq _ (fun c => (lp p cells dp f c * charge (f c))%Qc) _ dead0) by
    (intros i Hi; rewrite J, (nth_map _ cells i dead0) by exact Hi; rewrite (qsign_at cells _ f) by (auto; exact C); reflexivity).
  all: rewrite (total_ext (fun cf : coord * defect => (Q2Qc 0 * qz (df_charge (snd cf)))%Qc) (fun _ => 0%Qc)) by (intros; ring).
  all: rewrite total_0; ring.
Qed.

(** Validity. *)
Definition popb (p : params) (ext v : coord -> Qc) (f : coord -> cs) (c : coord) : bool :=
  let '(nu, pl, nl, uu) := bnd p ext c in
  match f c with
  | NEG => qltb (- v c)%Qc nu
  | POS => qltb pl (- v c)%Qc
  | NEU => qltb nl (- v c)%Qc && qltb (- v c)%Qc uu
  | NON => false
  end.
Definition hopq (p : params) (ext v : coord -> Qc) (a b : coord) : Qc :=
  (ext a - ext b + half * (v a - v b - coulomb phi p a b))%Qc.
Definition hopsb (p : params) (cells : list coord) (ext v : coord -> Qc) (f : coord -> cs) : bool :=
  forallb (fun a => cs_eqb (f a) POS ||
    forallb (fun b => (sgn (f b) <=? sgn (f a)) || negb (qltb (hopq p ext v a b) (- margin)%Qc)) cells) cells.
Definition validb (p : params) (cells : list coord) (ext dp : coord -> Qc) (f : coord -> cs) : bool :=
  forallb (popb p ext (lp p cells dp f) f) cells && hopsb p cells ext (lp p cells dp f) f.

Lemma validity_eq d cells p ext dp f : charges cells d f ->
  d_pot d = map (fun a => map (coulomb phi p a) cells) cells -> d_ext d = map ext cells ->
  d_bounds d = map (bnd p ext) cells -> d_int d = map (lp p cells dp f) cells ->
  validity_check d = set_valid d (validb p cells ext dp f).
Proof.
  intros C P E B J. unfold validity_check, validb. f_equal. unfold indices. f_equal.
  - rewrite (proj1 C). apply (forallb_seq _ _ _ dead0). intros i Hi. unfold population_stable_at, popb.
    rewrite (charge_at cells d f i C Hi). unfold negative_upper, positive_lower, neutral_lower, neutral_upper, bound, minus_int.
    rewrite B, J, (nth_map (bnd p ext) cells i dead0), (nth_map _ cells i dead0) by exact Hi.
    unfold bnd. destruct (f (nth i cells dead0)); reflexivity.
  - unfold is_configuration_stable, hopsb, indices. rewrite (proj1 C). apply (forallb_seq _ _ _ dead0). intros i Hi.
    rewrite (charge_at cells d f i C Hi). f_equal. apply (forallb_seq _ _ _ dead0). intros j Hj.
    rewrite (charge_at cells d f j C Hj). f_equal. do 2 f_equal. unfold hop_del, hopq.
    rewrite E, J, !(nth_map ext cells _ dead0), !(nth_map (lp p cells dp f) cells _ dead0), (pot_at d cells p) by auto. reflexivity.
Qed.

(** All stored values agree with the charge distribution [f]. *)
Record Elec (d : cds) (cells : list coord) (p : params) (ext dp : coord -> Qc) (f : coord -> cs) : Prop := mkElec {
  el_charges : charges cells d f;
  el_int : d_int d = map (lp p cells dp f) cells;
  el_valid : d_valid d = validb p cells ext dp f
}.

Lemma update_fixed_eq d cells p ext dp f : NoDup cells -> Static d cells p ext dp -> charges cells d f ->
  update_after_charge_change phi d false false false =
  set_valid (set_int d (map (lp p cells dp f) cells)) (validb p cells ext dp f).
Proof.
  intros N S C. unfold update_after_charge_change. rewrite (neglect_eq d cells p dp f C (st_pot _ _ _ _ _ S) (st_defpot _ _ _ _ _ S)).
  apply validity_eq; [exact C|apply (st_pot _ _ _ _ _ S)|apply (st_ext _ _ _ _ _ S)|apply (st_bounds _ _ _ _ _ S)|reflexivity].
Qed.
Lemma update_fixed_energy_eq d cells p ext dp f : NoDup cells -> Static d cells p ext dp -> charges cells d f ->
  d_eng d <> QUICKSIM ->
  update_after_charge_change phi d false true false =
  set_valid (set_energy (set_intdef (set_extdef (set_ext (set_int d (map (lp p cells dp f) cells)) (map ext cells)) [])
      (intdefs p cells (d_defs d) f)) (en_val p cells ext dp (d_defs d) f)) (validb p cells ext dp f).
Proof.
  intros N S C E. unfold update_after_charge_change. rewrite (neglect_eq d cells p dp f C (st_pot _ _ _ _ _ S) (st_defpot _ _ _ _ _ S)).
  destruct S as [S1 S2 S3 S4 S5 S6 S7 S8 S9 S10 S11 S12 S13].
  rewrite (recompute_eq (set_int d (map (lp p cells dp f) cells)) cells p ext dp f N C S3 S4 S9 S10 S11 S12 eq_refl E).
  apply validity_eq; [exact C|exact S5|reflexivity|exact S8|reflexivity].
Qed.

(** Defects. *)
Definition charged (cf : coord * defect) : bool := is_charged_defect (snd cf).
Lemma charge_uncharged cf : charged cf = false -> qz (df_charge (snd cf)) = 0%Qc.
Proof.
  unfold charged, is_charged_defect. rewrite orb_false_iff, negb_false_iff, Z.eqb_eq. intros [-> _]. apply Qc_is_canon. reflexivity.
Qed.
Lemma find_defect_none c m : find_defect c m = None <-> ~ In c (map fst m).
Proof.
  induction m as [|[x g] m IH]; cbn; [tauto|]. destruct (coord_eqb x c) eqn:E.
  - apply coord_eqb_spec in E. subst. split; [discriminate|]. intros H. exfalso. apply H. left. reflexivity.
  - rewrite IH. apply coord_eqb_false in E. tauto.
Qed.
Lemma add_defect_eq d cells dp ip c g : d_order d = cells -> d_defpot d = map dp cells -> d_int d = map ip cells ->
  ~ In c cells -> ~ In c (map fst (d_defs d)) -> is_charged_defect g = true ->
  add_defect phi d c g =
  set_int (set_defpot (set_defs d (d_defs d ++ [(c, g)])) (map (fun a => (dp a + defect_pot phi a c g)%Qc) cells))
          (map (fun a => (ip a + defect_pot phi a c g)%Qc) cells).
Proof.
  intros O D J Nc Nd Ch. unfold add_defect, cell_to_index. rewrite Ch, O, (index_in_none _ _ Nc). cbn [negb orb].
  change (-1 =? -1) with true. cbn [negb].
  rewrite (proj2 (find_defect_none c (d_defs d)) Nd). unfold shift_pots, indices.
  cbn [d_order d_defpot d_int set_defs set_defpot]. rewrite O.
  rewrite (map_seq _ (fun a => (dp a + defect_pot phi a c g)%Qc) cells dead0).
  2:{ intros i Hi. rewrite D, (nth_map dp cells i dead0) by exact Hi. reflexivity. }
  rewrite (map_seq _ (fun a => (ip a + defect_pot phi a c g)%Qc) cells dead0).
  2:{ intros i Hi. rewrite J, (nth_map ip cells i dead0) by exact Hi. reflexivity. }
  reflexivity.
Qed.
Lemma defect_field_app m n a : defect_field phi (m ++ n) a = (defect_field phi m a + defect_field phi n a)%Qc.
Proof. apply total_app. Qed.
Lemma defect_field_filter m a : defect_field phi (filter charged m) a = defect_field phi m a.
Proof.
  unfold defect_field. induction m as [|cf m IH]; [reflexivity|]. cbn [filter]. rewrite total_cons. destruct (charged cf) eqn:E.
  - rewrite total_cons, IH. reflexivity.
  - rewrite IH, (charge_uncharged cf E). ring.
Qed.
Lemma add_defects_eq cells m : forall d dp ip, d_order d = cells -> d_defpot d = map dp cells -> d_int d = map ip cells ->
  NoDup (map fst (d_defs d ++ m)) -> (forall c, In c (map fst m) -> ~ In c cells) ->
  fold_left (fun d cf => add_defect phi d (fst cf) (snd cf)) m d =
  set_int (set_defpot (set_defs d (d_defs d ++ filter charged m)) (map (fun a => (dp a + defect_field phi m a)%Qc) cells))
          (map (fun a => (ip a + defect_field phi m a)%Qc) cells).
Proof.
  induction m as [|[c g] m IH]; intros d dp ip O D J K I.
  - cbn [fold_left filter]. rewrite app_nil_r.
    assert (T : forall a, defect_field phi [] a = 0%Qc) by reflexivity.
    rewrite (map_ext (fun a => (dp a + defect_field phi [] a)%Qc) dp) by (intros; rewrite T; ring).
    rewrite (map_ext (fun a => (ip a + defect_field phi [] a)%Qc) ip) by (intros; rewrite T; ring).
    rewrite <- D, <- J. destruct d; reflexivity.
  - cbn [fold_left fst snd filter]. change (charged (c, g)) with (is_charged_defect g).
    assert (Nc : ~ In c cells) by (apply I; left; reflexivity).
    rewrite map_app in K. cbn [map fst] in K. pose proof (NoDup_remove _ _ _ K) as [K1 K2].
    assert (Nd : ~ In c (map fst (d_defs d))) by (intros C; apply K2, in_or_app; left; exact C).
    destruct (is_charged_defect g) eqn:Ch.
    + rewrite (add_defect_eq d cells dp ip c g O D J Nc Nd Ch).
      rewrite (IH _ (fun a => (dp a + defect_pot phi a c g)%Qc) (fun a => (ip a + defect_pot phi a c g)%Qc)); try reflexivity; auto.
      * cbn [d_defs set_defs set_defpot set_int]. rewrite <- app_assoc.
        assert (T : forall a, (defect_pot phi a c g + defect_field phi m a = defect_field phi ((c, g) :: m) a)%Qc) by reflexivity.
        rewrite (map_ext (fun a => (dp a + defect_pot phi a c g + defect_field phi m a)%Qc) (fun a => (dp a + defect_field phi ((c, g) :: m) a)%Qc)) by (intros a; rewrite <- T; ring).
        rewrite (map_ext (fun a => (ip a + defect_pot phi a c g + defect_field phi m a)%Qc) (fun a => (ip a + defect_field phi ((c, g) :: m) a)%Qc)) by (intros a; rewrite <- T; ring).
        reflexivity.
      * cbn [d_defs set_defs set_defpot set_int]. rewrite <- app_assoc, map_app. exact K.
      * intros x Hx. apply I. right. exact Hx.
    + assert (A : add_defect phi d c g = d) by (unfold add_defect; rewrite Ch; reflexivity). rewrite A.
      rewrite (IH d dp ip O D J).
      * assert (T : forall a, defect_field phi ((c, g) :: m) a = defect_field phi m a).
        { intros a. unfold defect_field. rewrite total_cons, (charge_uncharged (c, g)) by exact Ch. ring. }
        rewrite (map_ext (fun a => (dp a + defect_field phi ((c, g) :: m) a)%Qc) (fun a => (dp a + defect_field phi m a)%Qc)) by (intros a; rewrite T; reflexivity).
        rewrite (map_ext (fun a => (ip a + defect_field phi ((c, g) :: m) a)%Qc) (fun a => (ip a + defect_field phi m a)%Qc)) by (intros a; rewrite T; reflexivity).
        reflexivity.
      * rewrite map_app. exact K1.
      * intros x Hx. apply I. right. exact Hx.
Qed.
End Elec.
