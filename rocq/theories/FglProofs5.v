(** Writing a finished layout and reading it back. *)
From Coq Require Import ZArith Bool String Ascii List Lia Permutation.
From stdpp Require Import gmap list strings.
From Verif Require Import CoordModel CoordSpec CoordProofs GridModel GridSpec GridProps CoordMap ClockModel ClockSpec ClockProofs
  GateModel GateSpec GateProofs GateProofs2 GateProofs3 RouteModel RouteSpec RouteProofs BuildProofs FglModel FglSpec FglProofs FglProofs2 FglProofs3 FglProofs4.
From Coq Require Import String List.
Import ListNotations.
Local Open Scope Z_scope.

Lemma scheme_known t n sc : get_clocking_scheme t n = Some sc -> exists v, sc = clocking t v.
Proof. intros H. apply get_scheme_iff in H. destruct H as (k & v & _ & _ & ->). eauto. Qed.
Lemma name_text t v : printable (sc_name (clocking t v)).
Proof. destruct t as [|[]], v as [[]|[]|[]|[]|[]| | | | | | |]; split; reflexivity. Qed.
Lemma regular_named t v : sc_regular (clocking t v) = true -> existsb (String.eqb (sc_name (clocking t v))) ["OPEN"; "OPEN3"; "OPEN4"]%string = false.
Proof. destruct t as [|[]], v as [[]|[]|[]|[]|[]| | | | | | |]; intros H; try discriminate H; reflexivity. Qed.
Lemma assign_irregular l h p : sc_regular (cl_scheme (assign_all l (h ++ [p]))) = false.
Proof. rewrite assign_all_app. reflexivity. Qed.
Lemma last_assigned_in h t k : last_assigned h t = Some k -> In (t, k) h.
Proof.
  induction h as [|p h IH] using rev_ind; [discriminate|]. rewrite last_assigned_snoc. destruct (coord_eqb (fst p) t) eqn:E.
  - intros [= <-]. apply coord_eqb_spec in E. subst t. apply in_app_iff. right. left. destruct p; reflexivity.
  - intros H. apply in_app_iff. left. apply IH, H.
Qed.

Section Clocking.
Variables (cl : clocked) (h : list (coord * Z)) (v : std_scheme) (name : string) (sc0 : scheme).
Let clf := assign_all cl h.
Hypothesis Hv : cl_scheme cl = clocking (cl_topo cl) v.
Hypothesis Hg : get_clocking_scheme (cl_topo cl) (sc_name (cl_scheme cl)) = Some (cl_scheme cl).
Hypothesis Hd : dim_ok (cl_dim cl).
Hypothesis Hh : forall p, In p h -> cz (fst p) = 0.
Lemma cl_clean : sc_clean (cl_scheme cl).
Proof. rewrite Hv. apply std_clean. Qed.
Lemma get_range c : 0 <= get_clock_number cl c < num_clocks cl.
Proof. unfold get_clock_number, num_clocks. rewrite Hv, sc_at_std. apply fn_range. Qed.
Lemma num_range : num_clocks cl = 3 \/ num_clocks cl = 4.
Proof. unfold num_clocks. rewrite Hv. apply num_std. Qed.
Lemma final_range c : 0 <= get_clock_number clf c < num_clocks cl.
Proof.
  unfold clf. rewrite assign_all_get by apply cl_clean. destruct (last_assigned h c); [|apply get_range].
  apply Z.mod_pos_bound. destruct num_range; lia.
Qed.
Lemma read_clocking_ok : exists cl', read_clocking (mkCL (cl_topo cl) (cl_dim cl) sc0) (layout_xml name clf) = Ok cl' /\
  cl_topo cl' = cl_topo cl /\ cl_dim cl' = cl_dim cl /\ sc_name (cl_scheme cl') = sc_name (cl_scheme cl) /\ num_clocks cl' = num_clocks cl /\
  forall t, inb (cl_dim cl) t -> get_clock_number cl' t = get_clock_number clf t.
Proof.
  destruct (assign_all_shape cl h) as (S1 & S2 & S3 & S4 & S5). fold clf in S1, S2, S3, S4, S5.
  unfold read_clocking. change (first_child (layout_xml name clf) "clocking") with (Some (clocking_xml clf)). cbv iota.
  assert (ET : text_in (clocking_xml clf) "name" = Ok (sc_name (cl_scheme cl))).
  { unfold text_in. change (first_child (clocking_xml clf) "name") with (Some (Elem "name" (sc_name (cl_scheme clf)) [])). cbv iota. rewrite S5.
    rewrite text_of_printable by (rewrite Hv; apply name_text). reflexivity. }
  rewrite ET. cbn [rbind cl_topo]. rewrite Hg. cbv zeta. unfold replace_clocking_scheme. cbn [cl_topo cl_dim].
  assert (EC : mkCL (cl_topo cl) (cl_dim cl) (cl_scheme cl) = cl) by (destruct cl; reflexivity). rewrite EC.
  destruct (sc_regular (cl_scheme clf)) eqn:R.
  - assert (H0 : h = []) by (destruct h as [|p r _] using rev_ind; [reflexivity|unfold clf in R; rewrite assign_irregular in R; discriminate R]).
    assert (E0 : clf = cl) by (unfold clf; rewrite H0; reflexivity).
    assert (first_child (clocking_xml clf) "zones" = None) as -> by (unfold first_child, clocking_xml; rewrite R; reflexivity).
    rewrite E0 in R. rewrite Hv in R |- *. rewrite (regular_named _ _ R). exists cl. rewrite E0, Hv. repeat split; reflexivity.
  - assert (first_child (clocking_xml clf) "zones" = Some (Elem "zones" "" (map (zone_xml (cl_scheme clf)) (zone_positions (cl_dim clf))))) as ->
      by (unfold first_child, clocking_xml; rewrite R; reflexivity).
    rewrite all_zones, read_zones_ok.
    2: { apply Forall_forall. intros c Hc. apply zone_in in Hc. rewrite S2 in Hc. destruct Hc as (D & Z0 & X & Y). destruct Hd as (DX & DY & _).
         split; [split; [exact D|]; lia|]. split; [exact Z0|]. change (sc_at (cl_scheme clf) c) with (get_clock_number clf c). pose proof (final_range c). destruct num_range; lia. }
    eexists. split; [reflexivity|]. match goal with |- context [assign_all cl ?q] => destruct (assign_all_shape cl q) as (Q1 & Q2 & Q3 & Q4 & Q5); set (zs := q) in * end.
    repeat (split; [assumption|]). intros t Ht. rewrite assign_all_get by apply cl_clean. unfold zs. rewrite last_assigned_const.
    destruct Ht as (D & X & Y & Zt). destruct (Z.eq_dec (cz t) 0) as [Ez|Ez].
    + rewrite bool_decide_true.
      2: { apply elem_of_list_In, zone_in. rewrite S2. split; [exact D|]. split; [exact Ez|]. split; assumption. }
      change (sc_at (cl_scheme clf) t) with (get_clock_number clf t). pose proof (final_range t) as FR. destruct num_range as [N|N]; rewrite N in *;
        [replace (48 + get_clock_number clf t) with (get_clock_number clf t + 16 * 3) by lia|replace (48 + get_clock_number clf t) with (get_clock_number clf t + 12 * 4) by lia];
        rewrite Z.mod_add by lia; apply Z.mod_small; exact FR.
    + rewrite bool_decide_false.
      2: { intros K. apply elem_of_list_In, zone_in in K. destruct K as (_ & K & _). contradiction. }
      unfold clf. rewrite assign_all_get by apply cl_clean. destruct (last_assigned h t) as [k|] eqn:E; [|reflexivity].
      exfalso. apply Ez. apply (Hh (t, k)), last_assigned_in, E.
Qed.
End Clocking.

Lemma first_name name cl : first_child (layout_xml name cl) "name" = Some (Elem "name" name []).
Proof. reflexivity. Qed.

Lemma combine_fst {A} (l : list A) : forall k, map fst (combine (map Z.of_nat (seq k (length l))) l) = map Z.of_nat (seq k (length l)).
Proof. induction l as [|a r IH]; intros k; [reflexivity|]. cbn. f_equal. apply IH. Qed.

Lemma Forall2_parse (f : fgate -> xml) gs : Forall (fun g => parse_gate (f g) = Ok g) gs -> rmap parse_gate (map f gs) = Ok gs.
Proof. induction 1 as [|g r H _ IH]; [reflexivity|]. cbn [map rmap]. rewrite H. cbn [rbind]. rewrite IH. reflexivity. Qed.

Lemma all_gates ps fs : all_children (Elem "gates" "" (map pi_xml ps ++ map fun_xml fs)) "gate" = map pi_xml ps ++ map fun_xml fs.
Proof.
  unfold all_children. cbn [kids_of]. rewrite List.filter_app. f_equal.
  - induction ps as [|p r IH]; [reflexivity|]. cbn. cbn in IH. rewrite IH. reflexivity.
  - induction fs as [|p r IH]; [reflexivity|]. cbn. cbn in IH. rewrite IH. reflexivity.
Qed.

Theorem round_trip cl ops st name name0 cl0 : fgl_input cl ops st -> plain name = true -> cl_topo cl0 = cl_topo cl ->
  exists doc st', write_fgl name st = Ok doc /\ read_fgl name0 (g_empty cl0) doc = Ok (if blank name then name0 else name, st') /\
    same_layout st st' /\ (outputs_last st -> outputs_of st' = outputs_of st).
Proof.
  intros HI Hname Ht0. pose proof (HW _ _ _ HI) as W. pose proof (fg_finished _ _ _ HI) as F.
  destruct (order_exists _ _ _ HI) as (new & ET & ND & OR & GN & OI & OL).
  assert (ND' : List.NoDup (g_in st ++ new)) by (unfold start in ND; cbn [app] in ND; inversion ND; subst; inversion H2; subst; assumption).
  assert (NP : forall n, In n new -> good st n /\ is_pi st n = false).
  { intros n Hn. split; [apply GN, Hn|]. eapply new_not_pi; eassumption. }
  assert (EG : topo_gates st = Some new).
  { unfold topo_gates. rewrite ET. f_equal. unfold start. cbn [app List.filter is_constant Nat.leb negb andb]. rewrite List.filter_app.
    assert (E1 : forall l, (forall n, In n l -> is_pi st n = true) -> List.filter (fun n => negb (is_constant n) && negb (is_pi st n)) l = []).
    { induction l as [|n r IH]; intros K; [reflexivity|]. cbn [List.filter]. rewrite (K n (or_introl eq_refl)), andb_false_r. apply IH. intros m Hm. apply K. right. exact Hm. }
    assert (E2 : forall l, (forall n, In n l -> good st n /\ is_pi st n = false) -> List.filter (fun n => negb (is_constant n) && negb (is_pi st n)) l = l).
    { induction l as [|n r IH]; intros K; [reflexivity|]. cbn [List.filter]. destruct (K n (or_introl eq_refl)) as [K1 K2].
      rewrite (good_const _ n K1), K2. cbn [negb andb]. f_equal. apply IH. intros m Hm. apply K. right. exact Hm. }
    rewrite E1, E2; [reflexivity|exact NP|intros n Hn; apply pi_iff; exact Hn]. }
  destruct (pi_entries_ok _ _ _ HI (g_in st) 0 (fun n H => H)) as (P1 & P2 & P3). cbv zeta in P1, P2, P3.
  set (ps := map (fun p => pi_entry st (fst p) (snd p)) (numbered 0 (g_in st))) in *.
  destruct (gate_entries_ok _ _ _ HI new (length ps) NP) as (fs & F1 & F2 & F3).
  unfold write_fgl. rewrite EG. cbv zeta. unfold foreach_pi. fold ps. rewrite F1. cbn [rbind].
  set (doc := Elem "fgl" "" [layout_xml name (g_cl st); Elem "gates" "" (map pi_xml ps ++ map fun_xml fs)]).
  exists doc. destruct (run_assigns _ _ _ (fg_run _ _ _ HI)) as (h & Eh & Ih). cbn [g_cl g_empty] in Eh.
  destruct (scheme_known _ _ _ (fg_scheme _ _ _ HI)) as (v & Hv). destruct (fg_dim _ _ _ HI) as [Dk Dd].
  destruct (assign_all_shape cl h) as (S1 & S2 & S3 & S4 & S5). rewrite <- Eh in S1, S2, S3, S4, S5.
  destruct (read_clocking_ok cl h v name (cl_scheme cl0) Hv (fg_scheme _ _ _ HI) Dk) as (cl' & RC & C1 & C2 & C3 & C4 & C5).
  { intros [t k] Hp. apply (fg_ground _ _ _ HI t k). apply (Ih (t, k) Hp). }
  rewrite <- Eh in RC, C5.
  assert (LC : (length (g_in st ++ new) + 2 <= length (g_nodes st))%nat) by (eapply all_count; eassumption).
  pose proof (fg_size _ _ _ HI) as Sz.
  assert (LF : length fs = length new) by (symmetry; eapply Forall2_length; exact F3).
  assert (IDS : map fg_id (ps ++ fs) = map Z.of_nat (seq 0 (length (ps ++ fs)))).
  { rewrite map_app, P1, F2, app_length, seq_app, map_app. reflexivity. }
  assert (IDB : forall g, In g (ps ++ fs) -> 0 <= fg_id g < 2 ^ 31).
  { intros g Hg. assert (K : In (fg_id g) (map fg_id (ps ++ fs))) by (apply in_map, Hg). rewrite IDS in K. apply in_map_iff in K. destruct K as (i & <- & K).
    apply in_seq in K. rewrite !app_length in *. lia. }
  assert (ALL : Forall2 (fun n g => exists id, entry_ok st n id g) (g_in st ++ new) (ps ++ fs)).
  { apply List.Forall2_app; [eapply Forall2_impl; [exact P3|]|eapply Forall2_impl; [exact F3|]]; cbv beta; intros n g [_ K]; exact K. }
  assert (GD : forall n, In n (g_in st ++ new) -> good st n).
  { intros n Hn. apply in_app_iff in Hn. destruct Hn as [Hn|Hn]; [apply (pi_good _ _ _ HI n Hn)|apply GN, Hn]. }
  destruct (place_all _ _ _ HI cl' (g_in st ++ new) (ps ++ fs) [] (g_empty cl') (built_nil cl') GD ND') as (st2 & PL & HB).
  { intros l1 n l2 E m Hm. cbn [app].
    assert (K : In m (0%nat :: 1%nat :: l1)).
    { apply (ordered_split st _ OR (0%nat :: 1%nat :: l1) n l2); [unfold start; cbn [app]; rewrite E; reflexivity|exact Hm]. }
    assert (Gn : good st n) by (apply GD; rewrite E; apply in_app_iff; right; left; reflexivity).
    destruct (good_preds _ _ _ HI n m Gn Hm) as [[G2 _] _]. destruct K as [K|[K|K]]; [lia|lia|exact K]. }
  { exact ALL. }
  cbn [app] in HB. exists st2. split; [reflexivity|].
  assert (Hclk : forall t, inb (cl_dim (g_cl st)) t -> get_clock_number cl' t = get_clock_number (g_cl st) t) by (intros t Ht; apply C5; rewrite <- S2; exact Ht).
  split; [|split].
  - unfold read_fgl. change (String.eqb (tag_of doc) "fgl") with true. cbn [negb]. cbv iota.
    change (first_child doc "layout") with (Some (layout_xml name (g_cl st))). cbv iota. rewrite first_name.
    assert (EN : match get_text (Elem "name" name []) with Some r => r | None => Ok name0 end = Ok (if blank name then name0 else name)).
    { unfold get_text. rewrite Hname. destruct (blank name); reflexivity. }
    rewrite EN. cbn [rbind g_cl g_empty].
    assert (CT : check_topology (cl_topo cl0) (layout_xml name (g_cl st)) = Ok tt).
    { unfold check_topology, text_in. change (first_child (layout_xml name (g_cl st)) "topology") with (Some (Elem "topology" (topology_name (cl_topo (g_cl st))) [])). cbv iota.
      rewrite S1, Ht0. rewrite text_of_printable by (destruct (cl_topo cl) as [|[]]; split; reflexivity). cbn [rbind]. rewrite String.eqb_refl. reflexivity. }
    rewrite CT. cbn [rbind].
    assert (RS : read_size (layout_xml name (g_cl st)) = Ok (cl_dim cl)).
    { unfold read_size. change (first_child (layout_xml name (g_cl st)) "size") with (Some (xyz "size" (cl_dim (g_cl st)))). cbv iota. rewrite S2. destruct Dk as (DX & DY & DZ).
      rewrite (text_num (xyz "size" (cl_dim cl)) "x" (cx (cl_dim cl))) by reflexivity. cbn [rbind]. rewrite stoi_fmt by lia. cbn [rbind].
      rewrite (text_num (xyz "size" (cl_dim cl)) "y" (cy (cl_dim cl))) by reflexivity. cbn [rbind]. rewrite stoi_fmt by lia. cbn [rbind].
      rewrite (text_num (xyz "size" (cl_dim cl)) "z" (cz (cl_dim cl))) by reflexivity. cbn [rbind]. rewrite stoi_fmt by lia. cbn [rbind].
      rewrite ucoord_fits by (split; [exact Dd|lia]). reflexivity. }
    rewrite RS. cbn [rbind]. rewrite Ht0. rewrite RC. cbn [rbind].
    change (first_child doc "gates") with (Some (Elem "gates" "" (map pi_xml ps ++ map fun_xml fs))). cbv iota. rewrite all_gates.
    assert (PA : rmap parse_gate (map pi_xml ps ++ map fun_xml fs) = Ok (ps ++ fs)).
    { apply rmap_app; apply Forall2_parse, Forall_forall; intros g Hg.
      - assert (K : exists n, good st n /\ fg_in g = [] /\ exists id, entry_ok st n id g).
        { clear -P3 Hg GD. assert (GI : forall n, In n (g_in st) -> good st n) by (intros n Hn; apply GD, in_app_iff; left; exact Hn). clear GD. revert GI Hg.
          induction P3 as [|n q ns qs [H1 H2] _ IH]; intros GI Hg; [destruct Hg|]. destruct Hg as [<-|Hg]; [exists n; split; [apply GI; left; reflexivity|auto]|].
          apply IH; [intros m Hm; apply GI; right; exact Hm|exact Hg]. }
        destruct K as (n & Gn & E0 & id & [E1 E2 E3 E4 E5 E6 E7]). apply parse_common; auto.
        + apply IDB, in_app_iff. left. exact Hg.
        + rewrite E5. eapply fits_occ; [exact HI|]. apply (good_occ _ _ _ HI n Gn).
      - assert (K : exists n, good st n /\ exists id, entry_ok st n id g).
        { clear -F3 Hg GN. revert GN Hg.
          induction F3 as [|n q ns qs [H1 H2] _ IH]; intros GI Hg; [destruct Hg|]. destruct Hg as [<-|Hg]; [exists n; split; [apply GI; left; reflexivity|auto]|].
          apply IH; [intros m Hm; apply GI; right; exact Hm|exact Hg]. }
        destruct K as (n & Gn & id & [E1 E2 E3 E4 E5 E6 E7]). apply parse_common; auto.
        + apply IDB, in_app_iff. right. exact Hg.
        + rewrite E5. eapply fits_occ; [exact HI|]. apply (good_occ _ _ _ HI n Gn). }
    rewrite PA. cbn [rbind]. rewrite sort_sorted by (apply (ascending_ids _ 0), IDS).
    change (with_cl (g_empty cl0) cl') with (g_empty cl'). rewrite PL. reflexivity.
  - eapply (result_same cl ops st HI cl' new st2 HB ND OR GN OI); [congruence|congruence|exact Hclk|congruence|congruence].
  - intros HL. apply (result_outputs cl ops st HI cl' new st2 HB). apply OL, HL.
Qed.

(** A file for another topology is refused. *)
Lemma other_topology name0 st doc ty l tt0 : first_child doc "layout" = Some l -> first_child l "topology" = Some (Elem "topology" ty tt0) -> printable ty ->
  (match first_child l "name" with Some k => get_text k <> Some Unmodelled | None => True end) -> ty <> topology_name (cl_topo (g_cl st)) -> read_fgl name0 st doc = Throws.
Proof.
  intros H1 H2 H3 H4 H5. unfold read_fgl. destruct (negb (String.eqb (tag_of doc) "fgl")); [reflexivity|]. rewrite H1.
  set (nm := match first_child l "name" with Some k => _ | None => _ end).
  assert (K : (exists s, nm = Ok s) \/ nm = Throws).
  { unfold nm. revert H4. destruct (first_child l "name") as [k|]; [|eauto]. destruct (get_text k) as [[s| |]|]; eauto. intros K. contradiction. }
  destruct K as [[s ->]| ->]; [|reflexivity]. cbn [rbind].
  assert (check_topology (cl_topo (g_cl st)) l = Throws) as ->; [|reflexivity].
  unfold check_topology, text_in. rewrite H2, text_of_printable by exact H3. cbn [rbind]. apply String.eqb_neq in H5. rewrite H5. reflexivity.
Qed.
