(** Proofs about SidbModel.v, part 13: QuickExact as a whole. *)
From Coq Require Import ZArith QArith Qcanon Bool List Lia Lqa Permutation Sorted.
From Verif Require Import CoordModel CoordProofs UtilModel SidbModel SidbSpec SidbProofs SidbProofs2 SidbProofs3 SidbProofs4 SidbProofs5 SidbProofs7 SidbProofs8 SidbProofs10 SidbProofs11 SidbProofs12.
Import ListNotations.
Local Open Scope Z_scope.

(** Results of the simulation: [f] and what is stored about it. *)
Record Res phi (cells : list coord) (p : params) (ext : coord -> Qc) (defs : list (coord * defect)) (r : cds) (f : coord -> cs) : Prop := mkRes {
  rs_charges : charges cells r f;
  rs_some : forall c, In c cells -> f c <> NON;
  rs_valid : validb phi p cells ext (defect_field phi defs) f = true
}.
Definition Stored phi (cells : list coord) (p : params) (ext : coord -> Qc) (defs : list (coord * defect)) (r : cds) (f : coord -> cs) : Prop :=
  d_valid r = validb phi p cells ext (defect_field phi defs) f /\ d_energy r = en_val phi p cells ext (defect_field phi defs) defs f.

Lemma digits_one n b q cnt d : 0 < q < b -> digits_loop (S (S n)) b (-1) q cnt d = (assign_by_index d cnt (of_sign (q - 1)), cnt - 1).
Proof.
  intros H. cbn [digits_loop]. destruct (Z.ltb_spec 0 q); [|lia]. change (0 <=? -1) with false. cbn [andb]. rewrite Z.div_small, Z.mod_small by lia. reflexivity.
Qed.

Lemma filter_len {A} (F : A -> bool) m : (length (filter F m) <= length m)%nat.
Proof. induction m as [|x m IH]; cbn; [lia|]. destruct (F x); cbn; lia. Qed.
Lemma filter_perm {A} (F : A -> bool) m m' : Permutation m m' -> Permutation (filter F m) (filter F m').
Proof.
  intros H. induction H as [|x m m' H IH|x y m|m m' m'' H1 IH1 H2 IH2]; cbn [filter]; auto.
  - destruct (F x); auto.
  - destruct (F x), (F y); auto. apply perm_swap.
  - etransitivity; eauto.
Qed.

Lemma list_shape {A} (m : list A) : m = [] \/ (exists c, m = [c]) \/ (exists c c' cs, m = c :: c' :: cs).
Proof. destruct m as [|c [|c' cs]]; eauto 8. Qed.
Lemma list_two {A B} (m : list A) (x y z : B) : (exists c c' cs, m = c :: c' :: cs) -> match m with [] => x | [_] => y | _ => z end = z.
Proof. intros (c & c' & cs & ->). reflexivity. Qed.
Lemma list_one {A B} (m : list A) (x y z : B) : (exists c, m = [c]) -> match m with [] => x | [_] => y | _ => z end = y.
Proof. intros (c & ->). reflexivity. Qed.
Lemma list_none {A B} (m : list A) (x y z : B) : m = [] -> match m with [] => x | [_] => y | _ => z end = x.
Proof. intros ->. reflexivity. Qed.

(** ** A single SiDB *)
Section Single.
Context (phi : Qc -> Qc -> coord -> coord -> Qc) (c : coord) (Hc : is_dead c = false) (p : params) (v : Qc) (defs : list (coord * defect)) (b : Z) (Hb : base_ok b).
Let cells := [c].
Let ext := fun _ : coord => v.
Let Hnd : NoDup cells.
Proof. constructor; [intros []|constructor]. Qed.

(** The surface at the charge index [i]. *)
Record At (d : cds) (i : Z) (s : cs) : Prop := mkAt {
  at_core : Core phi cells d p ext defs (fun _ => s);
  at_idx : d_idx d = i; at_base : d_base d = b; at_max : d_max d = b - 1; at_dep : d_dep d = dead0; at_eng : d_eng d = EXGS;
  at_st : Stored phi cells p ext defs d (fun _ => s)
}.
Lemma dead_update d e : is_dead (d_dep d) = true -> update_after_charge_change phi d true e false = update_after_charge_change phi d false e false.
Proof.
  intros H. unfold update_after_charge_change, update_dependent. change (d_dep (update_int_neglect d)) with (d_dep d). rewrite H. reflexivity.
Qed.
Lemma single_step d i s : At d i s -> 0 <= i < b - 1 -> At (increase_charge_index_by_one phi d true true false) (i + 1) (of_sign i).
Proof.
  intros [C I B M D E _] Hi. unfold increase_charge_index_by_one. rewrite M, I. change (d_eng (set_idx d (i + 1))) with (d_eng d). rewrite E. destruct (Z.leb_spec (b - 1) i); [lia|].
  assert (Q : index_to_charge_distribution (set_idx d (i + 1)) true = set_charge (set_idx d (i + 1)) [of_sign i]).
  { unfold index_to_charge_distribution. change (d_idx (set_idx d (i + 1))) with (i + 1). destruct (Z.eqb_spec (i + 1) 0); [lia|].
    change (d_base (set_idx d (i + 1))) with (d_base d). rewrite B. unfold num_cells, cell_to_index. change (d_order (set_idx d (i + 1))) with (d_order d).
    change (d_dep (set_idx d (i + 1))) with (d_dep d). rewrite D, (proj1 (co_charges _ _ _ _ _ _ _ C)).
    assert (Ix : index_in dead0 cells = -1). { apply index_in_none. intros [X|[]]. subst c. discriminate. }
    rewrite Ix. change (Z.of_nat (length cells) - 1) with 0. rewrite (digits_one 63 b (i + 1) 0) by lia.
    replace (i + 1 - 1) with i by lia. unfold assign_by_index. change (d_charge (set_idx d (i + 1))) with (d_charge d).
    rewrite (proj2 (co_charges _ _ _ _ _ _ _ C)). reflexivity. }
  rewrite Q. clear Q. rewrite dead_update by (cbn; rewrite D; reflexivity). set (d1 := set_charge (set_idx d (i + 1)) [of_sign i]).
  assert (C1 : Core phi cells d1 p ext defs (fun _ => of_sign i)).
  { destruct C as [[T1 T2 T3 T4 T5 T6 T7 T8 T9 T10 T11 T12 T13] C2 C3 C4 C5 C6 C7]. split; cbn; auto.
    - split; cbn; auto.
    - split; [exact T1|reflexivity].
    - intros x _. assert (Ei : i = 0 \/ i = 1) by (destruct Hb; lia). destruct Ei as [-> | ->]; discriminate. }
  destruct (core_update phi cells Hnd d1 _ _ _ _ true C1) as (C2 & _ & V2 & R2 & E2).
  set (d2 := update_after_charge_change phi d1 false true false) in *. clearbody d2. unfold rest in R2. injection R2 as A1 A2 A3 A4 A5 A6 A7 A8 A9 A10 A11.
  split; auto; try congruence.
  split; [exact V2|apply E2; reflexivity].
Qed.

Lemma single_ok d : At d 0 NEG -> exists R, single_loop phi (Z.to_nat (d_max d)) d [] = (R, false) /\
  (forall r, In r R -> exists s, allowed b s /\ Res phi cells p ext defs r (fun _ => s) /\ Stored phi cells p ext defs r (fun _ => s)) /\
  (forall s, allowed b s -> validb phi p cells ext (defect_field phi defs) (fun _ => s) = true -> exists r, In r R /\ charges cells r (fun _ => s)) /\
  NoDup (map d_charge R).
Proof.
  intros A0. rewrite (at_max _ _ _ A0).
  assert (L : exists xs, single_loop phi (Z.to_nat (b - 1)) d [] = (filter d_valid xs, false) /\ exists ss, Forall2 (fun x s => allowed b s /\ exists i, At x i s) xs ss /\ NoDup ss /\
    forall s, allowed b s -> In s ss).
  { pose proof (single_step d 0 NEG A0 ltac:(destruct Hb; lia)) as A1. set (d1 := increase_charge_index_by_one phi d true true false) in *. change (0 + 1) with 1 in A1.
    destruct Hb as [Eb|Eb].
    - exists [d; d1]. split.
      + rewrite Eb. change (Z.to_nat (2 - 1)) with 1%nat. cbn [single_loop]. rewrite (at_idx _ _ _ A0), (at_max _ _ _ A0), Eb. change (0 <? 2 - 1) with true. cbn iota. fold d1.
        rewrite (at_idx _ _ _ A1), (at_max _ _ _ A1), Eb. change (1 <? 2 - 1) with false. cbn iota. rewrite (st_ub _ _ _ _ _ _ (co_static _ _ _ _ _ _ _ (at_core _ _ _ A1))).
        cbn [filter]. destruct (d_valid d), (d_valid d1); reflexivity.
      + rewrite Eb. exists [NEG; NEU]. split; [repeat (apply Forall2_cons; [split; [first [exact I|reflexivity]|eexists; eassumption]|]); constructor|]. split; [repeat first [apply NoDup_nil|apply NoDup_cons; [cbn; intuition discriminate|]]|].
        intros s Hs. destruct s; cbn in *; try discriminate Hs; try contradiction; auto.
    - pose proof (single_step d1 1 _ A1 ltac:(lia)) as A2. set (d2 := increase_charge_index_by_one phi d1 true true false) in *. change (1 + 1) with 2 in A2.
      exists [d; d1; d2]. split.
      + rewrite Eb. change (Z.to_nat (3 - 1)) with 2%nat. cbn [single_loop]. rewrite (at_idx _ _ _ A0), (at_max _ _ _ A0), Eb. change (0 <? 3 - 1) with true. cbn iota. fold d1.
        rewrite (at_idx _ _ _ A1), (at_max _ _ _ A1), Eb. change (1 <? 3 - 1) with true. cbn iota. fold d2. rewrite (at_idx _ _ _ A2), (at_max _ _ _ A2), Eb.
        change (2 <? 3 - 1) with false. cbn iota. rewrite (st_ub _ _ _ _ _ _ (co_static _ _ _ _ _ _ _ (at_core _ _ _ A2))).
        cbn [filter]. destruct (d_valid d), (d_valid d1), (d_valid d2); reflexivity.
      + rewrite Eb. exists [NEG; NEU; POS]. split; [repeat (apply Forall2_cons; [split; [first [exact I|reflexivity]|eexists; eassumption]|]); constructor|]. split; [repeat first [apply NoDup_nil|apply NoDup_cons; [cbn; intuition discriminate|]]|].
        intros s Hs. destruct s; cbn in *; auto. }
  destruct L as (xs & L1 & ss & L2 & L3 & L4). exists (filter d_valid xs). split; [exact L1|]. split; [|split].
  - intros r Hr. apply filter_In in Hr. destruct Hr as [Hr Vr].
    assert (X : exists s, allowed b s /\ exists i, At r i s).
    { clear -L2 Hr. induction L2 as [|x s xs ss H1 H2 IH]; [contradiction|]. destruct Hr as [<-|Hr]; [exists s; exact H1|apply IH, Hr]. }
    destruct X as (s & As & i & Ar). exists s. split; [exact As|]. destruct (at_st _ _ _ Ar) as [S1 S2]. split; [split|split; assumption].
    + apply (at_core _ _ _ Ar).
    + apply (at_core _ _ _ Ar).
    + rewrite <- S1. exact Vr.
  - intros s As Vs. assert (X : exists r, In r xs /\ exists i, At r i s).
    { specialize (L4 s As). clear -L2 L4. induction L2 as [|x s' xs ss H1 H2 IH]; [contradiction|].
      destruct L4 as [->|L4]; [exists x; split; [left; reflexivity|apply H1]|]. destruct (IH L4) as (r & H3 & H4). exists r. split; [right; exact H3|exact H4]. }
    destruct X as (r & Hr & i & Ar). exists r. split; [|apply (at_core _ _ _ Ar)]. apply filter_In. split; [exact Hr|]. rewrite (proj1 (at_st _ _ _ Ar)). exact Vs.
  - assert (E : map d_charge xs = map (fun s => [s]) ss).
    { clear -L2. induction L2 as [|x s xs ss H1 H2 IH]; [reflexivity|]. cbn. destruct H1 as (_ & i & A). rewrite (proj2 (co_charges _ _ _ _ _ _ _ (at_core _ _ _ A))), IH. reflexivity. }
    assert (Nx : NoDup (map d_charge xs)).
    { rewrite E. apply FinFun.Injective_map_NoDup; [|exact L3]. intros x y H. injection H as H. exact H. }
    clear -Nx. induction xs as [|x xs IH]; [constructor|]. cbn [map filter] in *. apply NoDup_cons_iff in Nx. destruct Nx as [N1 N2].
    destruct (d_valid x); [|apply IH, N2]. cbn [map]. constructor; [|apply IH, N2]. intros X. apply N1. apply in_map_iff in X. destruct X as (y & E & Hy).
    apply filter_In in Hy. rewrite <- E. apply in_map, Hy.
Qed.
End Single.

(** ** The whole simulation *)
Section Top.
Context (phi : Qc -> Qc -> coord -> coord -> Qc) (k : kind)
        (phi_self : forall e l a, phi e l a a = 0%Qc) (phi_sym : forall e l a b, phi e l a b = phi e l b a)
        (phi_pos : forall e l a b, (0 <= phi e l a b)%Qc)
        (l : layout) (Hl : proper_layout l) (Hsize : 3 ^ Z.of_nat (length (l_cells l)) <= 2 ^ 53)
        (q : qe_params) (Hb : base_ok (p_base (qe_par q))) (Hloc : qe_local q = []).
Let p := qe_par q.
Let v := qe_global q.
Let cells := sort_cells (k_ltb k) (l_cells l).
Let defs := filter (fun cf => is_charged_defect (snd cf)) (l_defects l).
Let dp := defect_field phi defs.
Let ext := fun _ : coord => v.
Let lpf := lp phi p cells dp.
Let Hnd : NoDup cells := sorted_nodup k l (pl_cells _ Hl).
Let reach (c : coord) : bool := negb (qltb (- lpf (fun _ => NEG) c)%Qc (v - mu_plus p - margin)%Qc).

Definition begun (d : cds) : cds :=
  assign_global_external_potential (assign_local_external_potential (assign_physical_parameters phi (assign_all_charge_states d NEG) p) []) v.
Lemma begun_ok d0 : Ok phi cells d0 (surface_conf l default_params NEG) -> d_maxsub d0 = 0 -> d_two d0 = [] -> cells <> [] ->
  Core phi cells (begun d0) p ext defs (fun _ => NEG) /\ d_int (begun d0) = map (lpf (fun _ => NEG)) cells /\
  (v = 0%Qc -> Stored phi cells p ext defs (begun d0) (fun _ => NEG)) /\
  exists m j, rest (begun d0) = (EXGS, p, 0, 0, p_base p, m, 0, ([], [], dead0, j)).
Proof.
  intros O M T Ne. pose proof (core_ok phi cells d0 _ O) as C0. cbn [c_params c_ext c_defects c_dist surface_conf] in C0. fold defs in C0.
  destruct (core_all phi cells Hnd d0 _ _ _ _ NEG ltac:(discriminate) C0) as (C1 & _ & i & u & R1 & Z1).
  destruct (Z1 eq_refl Ne) as [-> ->].
  unfold begun. set (d1 := assign_all_charge_states d0 NEG) in *. clearbody d1.
  destruct (core_params phi cells Hnd d1 _ _ _ _ p C1) as (C2 & J2 & V2 & E2 & R2).
  set (d2 := assign_physical_parameters phi d1 p) in *. clearbody d2.
  destruct (core_global phi cells Hnd d2 _ _ _ v C2) as (C3 & J3 & V3 & E3 & R3).
  set (d3 := assign_global_external_potential (assign_local_external_potential d2 []) v) in *. clearbody d3.
  unfold rest in R1. injection R1 as A1 A2 A3 A4 A5 A6 A7 A8 A9 A10 A11.
  split; [exact C3|]. split; [rewrite J3; exact J2|]. split.
  - intros E. split; [rewrite V3, V2|rewrite E3, E2]; unfold ext; rewrite E; reflexivity.
  - rewrite R3, R2, A1, A3, A4, A7, A8, A9, A10, A11, M, T, (ok_eng _ _ _ _ O), (ok_three _ _ _ _ O), (ok_dep _ _ _ _ O). eexists _, _. reflexivity.
Qed.

Lemma begun_core d0 : Ok phi cells d0 (surface_conf l default_params NEG) -> Core phi cells (begun d0) p ext defs (fun _ => NEG).
Proof.
  intros O. pose proof (core_ok phi cells d0 _ O) as C0. cbn [c_params c_ext c_defects c_dist surface_conf] in C0. fold defs in C0.
  destruct (core_all phi cells Hnd d0 _ _ _ _ NEG ltac:(discriminate) C0) as (C1 & _).
  unfold begun. set (d1 := assign_all_charge_states d0 NEG) in *. clearbody d1.
  destruct (core_params phi cells Hnd d1 _ _ _ _ p C1) as (C2 & _).
  set (d2 := assign_physical_parameters phi d1 p) in *. clearbody d2.
  apply (core_global phi cells Hnd d2 _ _ _ v C2).
Qed.

Lemma detect_top d m j : Core phi cells d p ext defs (fun _ => NEG) -> cells <> [] ->
  rest d = (EXGS, p, 0, 0, p_base p, m, 0, ([], [], dead0, j)) ->
  exists d', is_three_state_simulation_required phi k d = (d', existsb reach cells) /\ Core phi cells d' p ext defs (fun _ => NEG) /\
    Stored phi cells p ext defs d' (fun _ => NEG) /\ d_idx d' = 0 /\ d_dep d' = dead0 /\ d_eng d' = EXGS.
Proof.
  intros C Ne R. destruct (core_update phi cells Hnd d _ _ _ _ true C) as (C1 & J1 & V1 & R1 & E1).
  unfold is_three_state_simulation_required. set (d1 := update_after_charge_change phi d false true false) in *. clearbody d1.
  specialize (E1 eq_refl). rewrite R in R1. unfold rest in R1. injection R1 as A1 A2 A3 A4 A5 A6 A7 A8 A9 A10 A11.
  pose proof (co_static _ _ _ _ _ _ _ C1) as S1.
  assert (E : map (fun i => nth i (d_order d1) dead0) (filter (fun i => negb (qltb (minus_int d1 i) (positive_lower d1 i))) (indices d1)) = filter reach cells).
  { unfold indices. rewrite (st_order _ _ _ _ _ _ S1). apply filter_seq. intros i Hi. unfold reach, minus_int, positive_lower, bound.
    rewrite J1, (st_bounds _ _ _ _ _ _ S1). rewrite !(nth_map _ cells _ dead0) by exact Hi. reflexivity. }
  rewrite E, A10. cbv zeta. change (d_dep (set_depsub d1 (existsb (fun c => coord_eqb c dead0) (filter reach cells)))) with (d_dep d1). rewrite A10.
  assert (F : filter (fun c => negb (coord_eqb c dead0)) (filter reach cells) = filter reach cells).
  { assert (Lv : forall c, In c (filter reach cells) -> coord_eqb c dead0 = false).
    { intros c Hc. apply filter_In in Hc. apply coord_eqb_false. intros ->. pose proof (sorted_live k l (pl_live _ Hl)) as X. rewrite Forall_forall in X.
      specialize (X dead0 (proj1 Hc)). discriminate. }
    revert Lv. generalize (filter reach cells) as m'. clear. induction m' as [|x m' IH]; intros Lv; [reflexivity|]. cbn [filter].
    rewrite (Lv x (or_introl eq_refl)). cbn [negb]. f_equal. apply IH. intros c Hc. apply Lv. right. exact Hc. }
  rewrite F. set (d2 := set_two _ _).
  assert (G : forall d', (exists a b c e g, d' = set_maxsub (set_max (set_base (set_par d2 (with_base p e)) a) b) c /\ g = 0) \/ d' = d2 ->
     Core phi cells d' p ext defs (fun _ => NEG) /\ Stored phi cells p ext defs d' (fun _ => NEG) /\ d_idx d' = 0 /\ d_dep d' = dead0 /\ d_eng d' = EXGS).
  { intros d' [(a & b & c & e & g & -> & _)| ->]; (split; [|split; [split; [exact V1|exact E1]|split; [exact A3|split; [exact A10|exact A1]]]]);
    destruct C1 as [[T1 T2 T3 T4 T5 T6 T7 T8 T9 T10 T11 T12 T13] C2 C3 C4 C5 C6 C7]; (split; cbn; auto; [split; cbn; auto]). }
  assert (X : (filter reach cells = [] /\ existsb reach cells = false) \/ (filter reach cells <> [] /\ existsb reach cells = true)).
  { generalize reach as P, cells as w. clear. intros P w. induction w as [|x m IH]; [left; split; reflexivity|]. cbn [filter existsb]. destruct (P x); [right; split; [discriminate|reflexivity]|exact IH]. }
  destruct X as [[X1 X2]|[X1 X2]]; rewrite X2.
  - rewrite X1. exists d2. split; [reflexivity|]. apply G. right. reflexivity.
  - exists (assign_base_number_to_three d2). split; [destruct (filter reach cells); [contradiction|reflexivity]|]. apply G. left.
    assert (D2 : d_dep d2 = dead0) by exact A10. assert (P2 : d_par d2 = p) by exact A2. assert (O2 : d_order d2 = cells) by exact (st_order _ _ _ _ _ _ S1).
    clearbody d2. unfold assign_base_number_to_three. cbv zeta. change (d_dep (set_base (set_par d2 (with_base (d_par d2) 3)) 2)) with (d_dep d2).
    rewrite D2, P2. change (is_dead dead0) with true. cbn [negb]. unfold num_cells. change (d_order (set_base (set_par d2 (with_base p 3)) 2)) with (d_order d2). rewrite O2.
    match goal with |- context [if ?x =? 0 then _ else _] => change x with (3 ^ Z.of_nat (length cells) - 1) end.
    destruct (Z.eqb_spec (3 ^ Z.of_nat (length cells) - 1) 0) as [Q|Q].
    + exfalso. assert (L : (1 <= length cells)%nat) by (revert Ne; generalize cells as w; clear; intros [|x w] H; [contradiction|cbn; lia]).
      assert (3 ^ 1 <= 3 ^ Z.of_nat (length cells)) by (apply Z.pow_le_mono_r; lia). lia.
    + eexists _, _, _, _, 0. split; reflexivity.
Qed.

Let P := pre phi p cells defs v.
Let sure := certain phi p cells defs v.
Let vld := validb phi p cells ext dp.

(** What is to be shown of the list of results. *)
Definition Good (fresh : Prop) (R : list cds) : Prop :=
  (forall r, In r R -> exists f, Res phi cells p ext defs r f /\ (fresh \/ (exists c, In c cells /\ f c <> NEG) -> Stored phi cells p ext defs r f)) /\
  (forall g, (forall c, In c cells -> allowed (p_base p) (g c)) -> clear_cut phi p cells defs ext g -> vld g = true -> exists r, In r R /\ charges cells r g) /\
  NoDup (map d_charge R).

Lemma multi_ok d dep three (rem0 := filter (fun c => index_in c P =? -1) (l_cells l)) : Core phi cells d p ext defs (fun _ => NEG) -> In dep rem0 ->
  (three = false -> p_base p = 2 \/ existsb reach cells = false) ->
  exists R, conduct_simulation phi k q d (mkL rem0 (l_defects l)) P dep three = (R, false) /\ Good True R.
Proof.
  intros C Hd Ht. set (l' := mkL rem0 (l_defects l)).
  assert (Sub : forall c, In c rem0 -> In c (l_cells l)) by (intros c Hc; apply filter_In in Hc; apply Hc).
  assert (Hl' : proper_layout l').
  { destruct Hl as [L1 L2 L3 L4]. split; cbn; auto.
    - apply NoDup_filter, L1.
    - apply Forall_forall. intros c Hc. apply (proj1 (Forall_forall _ _) L2), Sub, Hc.
    - intros c H1 H2. apply (L4 c H1), Sub, H2. }
  assert (Hs' : 3 ^ Z.of_nat (length (l_cells l')) <= 2 ^ 53).
  { etransitivity; [|exact Hsize]. apply Z.pow_le_mono_r; [lia|]. cbn [l_cells l']. apply inj_le. unfold rem0.
    apply filter_len. }
  assert (Hpre : NoDup P) by (apply NoDup_filter, Hnd).
  assert (Happ : forall c, In c P -> ~ In c (l_cells l') /\ ~ In c (map fst (l_defects l'))).
  { intros c Hc. split.
    - intros X. apply filter_In in X. destruct X as [_ X]. apply Z.eqb_eq in X. destruct (index_in_nth c P Hc). lia.
    - intros X. apply (pl_apart _ Hl c X). apply in_pre in Hc. apply (sorted_in k l c), Hc. }
  set (rem := sort_cells (k_ltb k) (l_cells l')).
  assert (Hrem : Permutation rem (filter (fun c => index_in c P =? -1) cells)).
  { unfold rem. rewrite sort_perm. cbn [l_cells l']. unfold rem0, cells. apply Permutation_sym.
    apply filter_perm, sort_perm. }
  assert (Nr : NoDup rem) by (apply (rem_nodup phi p cells Hnd defs v rem Hrem)).
  assert (Ir : forall c, In c rem -> In c cells) by (intros c Hc; apply (in_rem phi phi_self phi_sym phi_pos p cells defs v rem Hrem) in Hc; apply Hc).
  set (defs' := defs ++ map (fun c => (c, electron p)) P).
  set (cl := assign_base_number d (if three then 3 else 2)).
  pose proof (core_base phi cells d p ext defs _ (if three then 3 else 2) C) as Cl. fold cl in Cl.
  assert (E : conduct_simulation phi k q d l' P dep three =
    if three then three_state_simulation phi k cl (prepared phi k l' p v P dep) else two_state_simulation phi cl (prepared phi k l' p v P dep)).
  { unfold conduct_simulation. rewrite Hloc. destruct three; reflexivity. }
  pose proof (prepared_ok phi k phi_self phi_sym l' Hl' p v P Hpre Happ dep Hd) as Rd.
  set (d0 := prepared phi k l' p v P dep) in *. clearbody d0.
  assert (Lneg : forall c, lp phi p rem (defect_field phi defs') (fun _ => NEG) c = lpf (fun _ => NEG) c).
  { intros c. etransitivity; [apply (lp_reduce phi phi_self phi_sym phi_pos p cells Hnd defs v rem Hrem)|]. apply lp_agree. intros x _. unfold full. destruct (existsb (coord_eqb x) rem); reflexivity. }
  assert (X : exists ds, conduct_simulation phi k q d l' P dep three = (map (record_result phi cl) ds, false) /\
    (forall x, In x ds -> exists h, charges rem x h /\ (forall c, In c rem -> h c <> NON) /\ validb phi p rem ext (defect_field phi defs') h = true) /\
    (forall g, (forall c, In c cells -> allowed (p_base p) (g c)) -> clear_cut phi p cells defs ext g -> vld g = true -> exists x, In x ds /\ charges rem x g) /\
    NoDup (map d_charge ds)).
  { rewrite E.
    assert (Down : forall g, vld g = true -> (forall c, In c cells -> g c = full rem g c) /\ validb phi p rem ext (defect_field phi defs') g = true).
    { intros g Vg. apply (valid_down phi phi_self phi_sym phi_pos p cells Hnd defs v rem Hrem g Vg). }
    assert (Dr : In dep rem) by (apply (sorted_in k l'), Hd).
    assert (Set' : forall g, clear_cut phi p cells defs ext g -> vld g = true -> settled phi rem p ext (defect_field phi defs') dep true g).
    { intros g Cc Vg. destruct (Down g Vg) as [E1 V1]. apply (valid_settled phi phi_self p rem Nr defs' ext g dep Dr).
      - intros a Ha Na. destruct (Cc a (Ir a Ha) Na) as [C1 C2].
        change (potential phi p rem defs' g a) with (lp phi p rem (defect_field phi defs') g a).
        rewrite (lp_reduce phi phi_self phi_sym phi_pos p cells Hnd defs v rem Hrem g a : lp phi p rem (defect_field phi defs') g a = _).
        rewrite <- (lp_agree phi p cells (defect_field phi defs) g (full rem g) a E1). split; assumption.
      - unfold validb in V1. apply andb_true_iff in V1. destruct V1 as [V1 _]. rewrite forallb_forall in V1. apply V1, Dr. }
    assert (Pos : forall g c, vld g = true -> In c cells -> g c = POS -> reach c = true).
    { intros g c Vg Hc G. unfold reach. apply negb_true_iff. apply (pos_reach phi phi_pos p cells defs v g c G).
      unfold vld, validb in Vg. apply andb_true_iff in Vg. destruct Vg as [Vg _]. rewrite forallb_forall in Vg. apply Vg, Hc. }
    destruct three.
    - destruct (three_state_ok phi k phi_self phi_sym l' Hl' Hs' p Hb v P Hpre Happ dep Hd cl d0 Rd) as (ds & U1 & U2 & U3 & U4).
      exists ds. split; [exact U1|]. split; [exact U2|]. split; [|exact U4]. intros g Ag Cc Vg. apply U3.
      + intros c Hc. apply (allowed_some (p_base p)), Ag, Ir, Hc.
      + intros c Hc G. pose proof (Ag c (Ir c Hc)) as A. rewrite G in A. split; [exact A|right].
        specialize (Pos g c Vg (Ir c Hc) G). unfold reachable. unfold reach in Pos. fold rem. fold defs. fold defs'. rewrite Lneg. exact Pos.
      + apply Set'; assumption.
      + apply Down, Vg.
    - destruct (two_state_ok phi k phi_self phi_sym l' Hl' Hs' p v P Happ dep Hd cl d0 Rd) as (ds & U1 & U2 & U3 & U4).
      exists ds. split; [exact U1|]. split; [exact U2|]. split; [|exact U4]. intros g Ag Cc Vg. apply U3.
      + intros c Hc. specialize (Ag c (Ir c Hc)). destruct (g c) eqn:G; auto; [|destruct Ag]. exfalso. destruct (Ht eq_refl) as [B|B].
        * cbn in Ag. lia.
        * pose proof (Pos g c Vg (Ir c Hc) G) as Y. assert (Z : existsb reach cells = true) by (apply existsb_exists; exists c; auto). congruence.
      + apply Set'; assumption.
      + apply Down, Vg. }
  destruct X as (ds & X1 & X2 & X3 & X4). exists (map (record_result phi cl) ds). split; [exact X1|]. clear E.
  assert (Rec : forall x h, charges rem x h -> (forall c, In c rem -> h c <> NON) ->
    Core phi cells (record_result phi cl x) p ext defs (full rem h) /\ Stored phi cells p ext defs (record_result phi cl x) (full rem h)).
  { intros x h Cx Nx. destruct (record_core phi cells Hnd cl p ext defs (fun _ => NEG) rem x h Cl Nr Cx) as (H1 & H2 & H3).
    - intros c Hc. split; [apply Ir, Hc|apply Nx, Hc].
    - split; [exact H1|split; assumption]. }
  split; [|split].
  - intros r Hr. apply in_map_iff in Hr. destruct Hr as (x & <- & Hx). destruct (X2 x Hx) as (h & H1 & H2 & H3). destruct (Rec x h H1 H2) as [K1 K2].
    exists (full rem h). split; [split|intros _; exact K2].
    + apply K1.
    + apply K1.
    + apply (valid_up phi phi_self phi_sym phi_pos p cells Hnd defs v rem Hrem h H2 H3).
  - intros g Ag Cc Vg. destruct (X3 g Ag Cc Vg) as (x & Hx & Cx). exists (record_result phi cl x). split; [apply in_map, Hx|].
    destruct (Rec x g Cx) as [K1 _]; [intros c Hc; apply (allowed_some (p_base p)), Ag, Ir, Hc|].
    destruct (valid_down phi phi_self phi_sym phi_pos p cells Hnd defs v rem Hrem g Vg) as [E1 _]. destruct (co_charges _ _ _ _ _ _ _ K1) as [K2 K3].
    split; [exact K2|]. rewrite K3. apply map_ext_in. intros c Hc. symmetry. apply E1, Hc.
  - rewrite map_map. clear X1 X3. induction ds as [|x ds IH]; [constructor|]. cbn [map] in *. apply NoDup_cons_iff in X4. destruct X4 as [N1 N2].
    constructor; [|apply IH; [intros y Hy; apply X2; right; exact Hy|exact N2]].
    intros Y. apply in_map_iff in Y. destruct Y as (y & Ey & Hy). apply N1. apply in_map_iff. exists y. split; [|exact Hy].
    destruct (X2 x (or_introl eq_refl)) as (h & H1 & H2 & _). destruct (X2 y (or_intror Hy)) as (g & G1 & G2 & _).
    destruct (Rec x h H1 H2) as [K1 _]. destruct (Rec y g G1 G2) as [J1 _]. rewrite (proj2 (co_charges _ _ _ _ _ _ _ K1)), (proj2 (co_charges _ _ _ _ _ _ _ J1)) in Ey.
    rewrite (proj2 H1), (proj2 G1). apply map_ext_in. intros c Hc. pose proof (map_agree _ _ cells Ey c (Ir c Hc)) as Q. rewrite !full_rem in Q by exact Hc. exact Q.
Qed.

Theorem quickexact_ok : qe_auto q = true \/ v = 0%Qc \/ length (l_cells l) <> 1%nat ->
  exists R, quickexact phi k l q = (R, false) /\ (l_cells l <> [] -> Good (qe_auto q = true \/ v = 0%Qc) R).
Proof.
  intros Hf. destruct (new_surface_ok phi k l default_params NEG Hl) as (O & _ & _); [right; reflexivity|discriminate|]. fold cells in O.
  destruct (new_maxsub phi k l default_params NEG) as (M & T & _).
  unfold quickexact. fold p. fold v. rewrite Hloc. set (d0 := new_surface phi k l default_params NEG) in *. clearbody d0. fold (begun d0).
  destruct (list_eq_dec coord_dec (l_cells l) []) as [Z|Ne].
  { exists []. split; [|intros X; contradiction].
    assert (Cn : cells = []) by (unfold cells; rewrite Z; reflexivity).
    pose proof (begun_core d0 O) as C1. set (d1 := begun d0) in *. clearbody d1. destruct (qe_auto q).
    - assert (X : exists d2 t, is_three_state_simulation_required phi k d1 = (d2, t) /\ d_ub d2 = false).
      { destruct (core_update phi cells Hnd d1 _ _ _ _ true C1) as (C2 & _). unfold is_three_state_simulation_required.
        set (d2 := update_after_charge_change phi d1 false true false) in *. clearbody d2. pose proof (co_static _ _ _ _ _ _ _ C2) as S2.
        unfold indices. rewrite (st_order _ _ _ _ _ _ S2), Cn. cbn [length seq filter map]. cbv zeta. eexists. eexists. split; [reflexivity|]. apply (st_ub _ _ _ _ _ _ S2). }
      destruct X as (d2 & t & -> & X). rewrite (list_none (l_cells l) _ _ _ Z), X. reflexivity.
    - rewrite (list_none (l_cells l) _ _ _ Z), (st_ub _ _ _ _ _ _ (co_static _ _ _ _ _ _ _ C1)). reflexivity. }
  assert (Nc : cells <> []).
  { intros X. apply Ne. apply Permutation_nil. rewrite <- X. apply sort_perm. }
  destruct (begun_ok d0 O M T Nc) as (C1 & J1 & F1 & m & j & R1). set (d1 := begun d0) in *. clearbody d1. clear O M T.
  assert (Ep : map (fun i => nth i (d_order d1) dead0) (negative_sidb_detection d1) = P).
  { unfold negative_sidb_detection, indices. rewrite (st_order _ _ _ _ _ _ (co_static _ _ _ _ _ _ _ C1)). apply filter_seq. intros i Hi.
    rewrite J1, (st_ext _ _ _ _ _ _ (co_static _ _ _ _ _ _ _ C1)), !(nth_map _ cells _ dead0) by exact Hi.
    rewrite (st_mu _ _ _ _ _ _ (co_static _ _ _ _ _ _ _ C1)). reflexivity. }
  rewrite Ep, (st_order _ _ _ _ _ _ (co_static _ _ _ _ _ _ _ C1)).
  assert (D : exists d2 three, (if qe_auto q then is_three_state_simulation_required phi k d1 else (d1, p_base p =? 3)) = (d2, three) /\
    Core phi cells d2 p ext defs (fun _ => NEG) /\ (qe_auto q = true \/ v = 0%Qc -> Stored phi cells p ext defs d2 (fun _ => NEG)) /\
    d_idx d2 = 0 /\ d_dep d2 = dead0 /\ d_eng d2 = EXGS /\ (three = false -> p_base p = 2 \/ existsb reach cells = false)).
  { destruct (qe_auto q) eqn:A.
    - destruct (detect_top d1 m j C1 Nc R1) as (d2 & D1 & D2 & D3 & D4 & D5 & D6). exists d2, (existsb reach cells). rewrite D1. split; [reflexivity|]. split; [exact D2|]. split; [intros _; exact D3|]. split; [exact D4|]. split; [exact D5|]. split; [exact D6|]. intros X. right. exact X.
    - exists d1, (p_base p =? 3). unfold rest in R1. injection R1 as A1 A2 A3 A4 A5 A6 A7 A8 A9 A10 A11. split; [reflexivity|]. split; [exact C1|].
      split; [intros [X|X]; [discriminate|apply F1, X]|]. split; [exact A3|]. split; [assumption|]. split; [assumption|]. intros X. apply Z.eqb_neq in X. left. destruct Hb as [Y|Y]; [exact Y|contradiction]. }
  destruct D as (d2 & three & -> & C2 & S2 & I2 & D2 & E2 & T2). clear C1 J1 F1 R1 Ep d1.
  destruct (list_shape (l_cells l)) as [L|[L|L]].
  - contradiction.
  - rewrite (list_one (l_cells l) _ _ _ L). destruct L as [c L].
    assert (Fr : qe_auto q = true \/ v = 0%Qc) by (destruct Hf as [Hf|[Hf|Hf]]; [left; exact Hf|right; exact Hf|contradiction Hf; rewrite L; reflexivity]).
    assert (Ec : cells = [c]) by (unfold cells; rewrite L; reflexivity).
    set (b := if three then 3 else 2). assert (Bb : base_ok b) by (unfold b; destruct three; [right|left]; reflexivity).
    assert (Dc : is_dead c = false). { apply (proj1 (Forall_forall _ _) (pl_live _ Hl)). rewrite L. left. reflexivity. }
    assert (At0 : At phi c p v defs b (assign_base_number d2 b) 0 NEG).
    { pose proof (core_base phi cells d2 p ext defs _ b C2) as C3. split.
      - rewrite Ec in C3. exact C3.
      - unfold assign_base_number. destruct (negb _); exact I2.
      - unfold assign_base_number. destruct (negb _); reflexivity.
      - unfold assign_base_number. change (d_dep (set_base (set_par d2 (with_base (d_par d2) b)) b)) with (d_dep d2). rewrite D2. change (negb (is_dead dead0)) with false. cbn iota.
        cbn [set_max d_max]. unfold num_cells. change (d_order (set_base (set_par d2 (with_base (d_par d2) b)) b)) with (d_order d2).
        rewrite (st_order _ _ _ _ _ _ (co_static _ _ _ _ _ _ _ C2)), Ec. change (Z.of_nat (length [c])) with 1. rewrite Z.pow_1_r. reflexivity.
      - unfold assign_base_number. destruct (negb _); exact D2.
      - unfold assign_base_number. destruct (negb _); exact E2.
      - specialize (S2 Fr). rewrite Ec in S2. unfold assign_base_number. destruct (negb _); exact S2. }
    destruct (single_ok phi c Dc p v defs b Bb _ At0) as (R & R1 & R2 & R3 & R4). exists R. split; [exact R1|]. intros _. unfold Good. rewrite Ec. split; [|split; [|exact R4]].
    + intros r Hr. destruct (R2 r Hr) as (s & _ & H1 & H2). exists (fun _ => s). split; [exact H1|intros _; exact H2].
    + intros g Ag _ Vg. destruct (R3 (g c)) as (r & Hr & Cr).
      * specialize (Ag c (or_introl eq_refl)). unfold b. destruct three; [destruct (g c); cbn in *; auto; lia|]. destruct (g c) eqn:G; cbn in *; auto.
        destruct (T2 eq_refl) as [X|X]; [lia|]. exfalso. rewrite Ec in X. cbn [existsb] in X. rewrite orb_false_r in X. unfold reach in X. apply negb_false_iff in X.
        assert (Y : popb p ext (lpf g) g c = true).
        { unfold vld, validb in Vg. apply andb_true_iff in Vg. destruct Vg as [Vg _]. rewrite forallb_forall in Vg. apply Vg. rewrite Ec. left. reflexivity. }
        pose proof (pos_reach phi phi_pos p cells defs v g c G Y) as Q. unfold lpf, dp in X. congruence.
      * unfold vld in Vg. rewrite Ec in Vg. rewrite <- Vg. apply (validb_agree phi p [c] ext dp). intros x [<-|[]]. reflexivity.
      * exists r. split; [exact Hr|]. exact Cr.
  - rewrite (list_two (l_cells l) _ _ _ L).
    assert (Of : Permutation (filter (fun c => index_in c P =? -1) cells) (filter (fun c => index_in c P =? -1) (l_cells l))) by apply filter_perm, sort_perm.
    destruct (filter (fun c0 => index_in c0 P =? -1) cells) as [|dep rest'] eqn:Fi.
    + exists [d2]. split; [rewrite (st_ub _ _ _ _ _ _ (co_static _ _ _ _ _ _ _ C2)); reflexivity|]. intros _.
      assert (All : forall c, In c cells -> certain phi p cells defs v c = true).
      { intros c0 Hc0. destruct (certain phi p cells defs v c0) eqn:Ce; [reflexivity|]. exfalso.
        assert (X : In c0 (filter (fun c => index_in c P =? -1) cells)).
        { apply filter_In. split; [exact Hc0|]. apply Z.eqb_eq, index_in_none. intros X. apply in_pre in X. destruct X as [_ X]. congruence. }
        rewrite Fi in X. exact X. }
      assert (Vn : vld (fun _ => NEG) = true).
      { unfold vld, validb. apply andb_true_iff. split.
        - apply forallb_forall. intros c0 Hc0. apply (certain_pop phi phi_pos p cells defs v); [apply All, Hc0|reflexivity].
        - unfold hopsb. apply forallb_forall. intros a _. apply orb_true_iff. right. apply forallb_forall. intros b _. reflexivity. }
      split; [|split].
      * intros r [<-|[]]. exists (fun _ => NEG). split; [split; [apply C2|discriminate|exact Vn]|]. intros [X|(c0 & _ & X)]; [apply S2, X|contradiction X; reflexivity].
      * intros g _ _ Vg. exists d2. split; [left; reflexivity|]. destruct (co_charges _ _ _ _ _ _ _ C2) as [K1 K2]. split; [exact K1|]. rewrite K2. apply map_ext_in. intros c0 Hc0. symmetry.
        apply (certain_neg phi phi_pos p cells defs v g c0 Hc0 (All c0 Hc0)). unfold vld, validb in Vg. apply andb_true_iff in Vg. destruct Vg as [Vg _]. rewrite forallb_forall in Vg. apply Vg, Hc0.
      * constructor; [intros []|constructor].
    + destruct (multi_ok d2 dep three C2) as (R & R1 & R2).
      * apply (Permutation_in _ Of). left. reflexivity.
      * exact T2.
      * rewrite R1. exists R. rewrite (st_ub _ _ _ _ _ _ (co_static _ _ _ _ _ _ _ C2)). split; [reflexivity|]. intros _. destruct R2 as (G1 & G2 & G3). split; [|split; assumption].
        intros r Hr. destruct (G1 r Hr) as (f & H1 & H2). exists f. split; [exact H1|]. intros _. apply H2. left. exact I.
Qed.
End Top.
