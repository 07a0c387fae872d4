(** [orthogonal] as a whole. *)
From Coq Require Import ZArith Bool String List Lia.
From stdpp Require Import gmap list strings pretty.
From Verif Require Import CoordModel CoordSpec CoordProofs GridModel GridSpec GridProofs CoordMap ClockModel ClockSpec ClockProofs GateModel GateSpec GateProofs GateProofs2 GateProofs3
  PathSpec RouteModel RouteSpec RouteProofs BuildProofs HexaSpec HexaProofs2 HexaProofs3 OrthoModel OrthoSpec OrthoProofs OrthoProofs2 OrthoProofs3 OrthoProofs4 OrthoProofs5 OrthoProofs6 OrthoProofs7 OrthoProofs8 OrthoProofs9 OrthoProofs10.
Import ListNotations.
Local Open Scope Z_scope.

Lemma zsum_lt (f g : nat -> Z) m l : (forall n, In n l -> f n <= g n) -> In m l -> f m < g m -> zsum f l < zsum g l.
Proof.
  induction l as [|a l IH]; intros H Hm Hl; [destruct Hm|]. pose proof (H a (or_introl eq_refl)) as Ha. cbn. destruct Hm as [->|Hm].
  - assert (zsum f l <= zsum g l) by (apply zsum_le; intros n Hn; apply H; right; exact Hn). unfold zsum in *. lia.
  - assert (zsum f l < zsum g l) by (apply IH; auto; intros n Hn; apply H; right; exact Hn). unfold zsum in *. lia.
Qed.
Lemma zsum_const (c : Z) (f : nat -> Z) l : (forall n : nat, f n <= c) -> zsum f l <= c * Z.of_nat (length l).
Proof. intros H. induction l as [|a l IH]; cbn [zsum fold_right length]; [lia|]. specialize (H a). unfold zsum in IH. lia. Qed.
Lemma In_repeated n : forall l seen, In n l -> (2 <= count_occ Nat.eq_dec seen n + count_occ Nat.eq_dec l n)%nat -> In n (repeated seen l).
Proof.
  induction l as [|a l IH]; intros seen Hi H; [destruct Hi|]. cbn [repeated]. apply in_or_app. destruct (in_dec Nat.eq_dec n seen) as [Hs|Hs].
  - destruct (Nat.eq_dec a n) as [->|Hn].
    + left. replace (existsb (Nat.eqb n) seen) with true; [left; reflexivity|]. symmetry. apply existsb_exists. exists n. split; [exact Hs|apply Nat.eqb_refl].
    + right. destruct Hi as [E|Hi]; [congruence|]. apply IH; [exact Hi|]. rewrite count_occ_app. cbn [count_occ] in H |- *. destruct (Nat.eq_dec a n); [congruence|]. lia.
  - apply (count_occ_not_In Nat.eq_dec) in Hs. cbn [count_occ] in H. right. destruct (Nat.eq_dec a n) as [->|Hn].
    + assert (Hc : (1 <= count_occ Nat.eq_dec l n)%nat) by lia. apply IH; [apply (count_occ_In Nat.eq_dec); lia|]. rewrite count_occ_app. cbn [count_occ]. destruct (Nat.eq_dec n n); [lia|congruence].
    + destruct Hi as [E|Hi]; [congruence|]. apply IH; [exact Hi|]. rewrite count_occ_app. cbn [count_occ]. destruct (Nat.eq_dec a n); [congruence|]. lia.
Qed.
Lemma repeated_length : forall l seen, (length (repeated seen l) <= length l)%nat.
Proof. induction l as [|a l IH]; intros seen; cbn [repeated length]; [lia|]. rewrite app_length. specialize (IH (seen ++ [a])). destruct (existsb _ _); cbn [length]; lia. Qed.

Section top.
Context (net : onet) (Hm : mapped net) (Hd : distinct_fanins net) (Hsym : symmetric_gates net) (Hfit : fits net).
Notation edge := (edge net).
Notation N := (o_size net).
Notation names := (o_pi_names net).

Lemma count_multi u : (2 <= nouts net u)%nat -> is_multi net u = true.
Proof.
  unfold nouts, is_multi, multi_output_nodes. intros H. apply existsb_exists. exists u. split; [|apply Nat.eqb_refl]. apply In_repeated; [|cbn; lia]. apply (count_occ_In Nat.eq_dec). lia.
Qed.
Lemma first_pi : exists nm, o_nodes net !! 0%nat = Some (OPi nm).
Proof using Hm.
  destruct (o_nodes net) as [|[nm|f ch] l] eqn:E; [destruct (mp_size _ Hm E)|exists nm; reflexivity|]. exfalso.
  assert (E0 : o_nodes net !! 0%nat = Some (OGate f ch)) by (rewrite E; reflexivity). destruct (mp_arity _ Hm _ _ _ E0) as [[Hl _]|[Hl _]]; destruct ch as [|c r]; try discriminate Hl;
    pose proof (mp_order _ Hm _ _ _ c E0 (or_introl eq_refl)); lia.
Qed.
Lemma names_ne : names <> [].
Proof using Hm. destruct first_pi as (nm & E). unfold o_pi_names. destruct (o_nodes net) as [|x l]; [discriminate E|]. cbn in E. injection E as ->. cbn. discriminate. Qed.
Lemma size_pos : (0 < N)%nat.
Proof using Hm. destruct first_pi as (nm & E). apply lookup_lt_Some in E. exact E. Qed.
Lemma last_po n : (n < N)%nat -> o_is_pi net n = false \/ o_is_po net n = true -> exists m, (m < N)%nat /\ o_is_po net m = true /\ forall v, ~ edge m v.
Proof using Hm Hd.
  remember (N - n)%nat as k eqn:Ek. revert n Ek. induction k as [k IH] using lt_wf_ind. intros n Ek Hn Hc. destruct (o_fanouts net n) as [|v r] eqn:E.
  - exists n. split; [exact Hn|]. assert (NE : forall v, ~ edge n v) by (intros v Hv; apply In_fanouts in Hv; rewrite E in Hv; destruct Hv). split; [|exact NE].
    destruct Hc as [Hc|Hc]; [|exact Hc]. apply po_nouts. pose proof (node_lt net n Hn) as En. unfold o_is_pi in Hc. destruct (o_node net n) as [nm|f ch]; [discriminate Hc|].
    pose proof (mp_gate _ Hm _ _ _ En) as Hu. destruct (uses_edge net n ltac:(lia)) as [(v & Hv)|H]; [destruct (NE v Hv)|exact H].
  - assert (Hv : edge n v) by (apply In_fanouts; rewrite E; left; reflexivity). destruct (edge_lt net Hm _ _ Hv) as [L1 L2]. apply (IH (N - v)%nat ltac:(lia) v eq_refl L2). left. eapply edge_not_pi, Hv.
Qed.
Lemma no_po_pi : o_pos net = [] -> forall n, (n < N)%nat -> o_is_pi net n = true.
Proof using Hm Hd.
  intros H n Hn. destruct (o_is_pi net n) eqn:E; [reflexivity|]. destruct (last_po n Hn (or_introl E)) as (m & _ & Hp & _). unfold o_is_po in Hp. rewrite H in Hp. discriminate Hp.
Qed.

Section coloured.
Context (ec : gmap (nat * nat) color) (Hpa : painted net 0 ec) (Hroom : roomy net ec).
Notation DX := (DX net ec). Notation DY := (DY net ec).
Notation avail := (eastern_po_available net ec).

Lemma size_ok : 0 <= DX < 2 ^ 31 - 1 /\ 0 <= DY < 2 ^ 31 - 1.
Proof using Hm Hfit.
  pose proof Hfit as F. unfold fits in F. change (length (o_nodes net)) with N in F. split.
  - split; [apply zsum_nonneg; intros n; unfold node_columns, count; destruct (o_is_pi net n), (node_color net ec n), (_ && _); lia|].
    assert (DX <= 3 * Z.of_nat (length (seq 0 N))); [|rewrite seq_length in *; lia]. apply zsum_const. intros n. unfold node_columns, count.
    assert (length (List.filter (fun m => color_eqb (node_color net ec m) South) (o_fanouts net n)) <= 2)%nat. { pose proof (fanouts_two net Hm n). pose proof (filter_length_le (fun m => color_eqb (node_color net ec m) South) (o_fanouts net n)). lia. }
    destruct (o_is_pi net n), (node_color net ec n), (_ && _); lia.
  - unfold OrthoProofs7.DY. assert (0 <= zsum (node_rows net ec) (seq 0 N)) by (apply zsum_nonneg; intros n; unfold node_rows; destruct (o_is_pi net n), (node_color net ec n), (_ && _); lia).
    assert (zsum (node_rows net ec) (seq 0 N) <= 2 * Z.of_nat (length (seq 0 N))) by (apply zsum_const; intros n; unfold node_rows; destruct (o_is_pi net n), (node_color net ec n), (_ && _); lia).
    assert (C1 : count (o_is_pi net) (seq 0 N) <= Z.of_nat N). { unfold count. pose proof (filter_length_le (o_is_pi net) (seq 0 N)) as Q. rewrite seq_length in Q. lia. }
    assert (C0 : 1 <= count (o_is_pi net) (seq 0 N)). { pose proof size_pos. destruct first_pi as (nm & E). unfold count. destruct N as [|k]; [lia|]. cbn [seq List.filter]. unfold o_is_pi at 1, o_node. rewrite E. cbn. lia. }
    pose proof (repeated_length (map fst (o_pos net)) []) as R. rewrite map_length in R. fold (multi_output_nodes net) in R. rewrite seq_length in *. lia.
Qed.
Lemma columns : o_pos net <> [] -> 1 + zsum (colX net ec) (seq 0 N) <= DX.
Proof using Hm Hd.
  intros H. assert (P : exists n, o_is_po net n = true). { destruct (o_pos net) as [|[n nm] r] eqn:E; [congruence|]. exists n. unfold o_is_po. rewrite E. cbn. rewrite Nat.eqb_refl. reflexivity. }
  destruct P as (n & Hp). destruct (last_po n (po_lt net Hm n Hp) (or_intror Hp)) as (m & Hl & Hq & Hne). pose proof (no_edge_avail net ec m Hne) as Ha.
  assert (zsum (colX net ec) (seq 0 N) < DX); [|lia]. apply (zsum_lt _ _ m).
  - intros x _. unfold node_columns, colX. destruct (o_is_po net x && avail x); lia.
  - apply in_seq. lia.
  - unfold node_columns, colX. rewrite Hq, Ha. cbn [andb]. lia.
Qed.

Section run.
Context (ck : num_clks).
Let cl := mkCL Cartesian (live DX DY 1) (twoddwave_clocking Cartesian ck).

Lemma outputs_start s G : o_pos net <> [] -> linv net ec cl N s G -> oinv net ec cl (os_pos s) (length names) [] (map fst (o_pos net)) G [] (os_lyt s).
Proof using Hm Hd Hpa.
  intros Hne I. pose proof (columns Hne) as HX. pose proof (rowY_sum net ec) as HY. rewrite <- (li_X _ _ _ _ _ _ I) in HX. rewrite <- (li_Y _ _ _ _ _ _ I) in HY.
  pose proof (li_geo _ _ _ _ _ _ I) as Ge. pose proof (li_good _ _ _ _ _ _ I) as Gd. assert (K : os_pis s = length names).
  { rewrite (li_pis _ _ _ _ _ _ I), pi_names_length. unfold inputs_before, o_size. rewrite firstn_all. reflexivity. }
  rewrite K in Gd. pose proof (gd_sound _ _ _ _ _ _ Gd) as S. assert (Po : forall u, In u (map fst (o_pos net)) <-> o_is_po net u = true).
  { intros u. rewrite (po_nouts net u). unfold nouts. rewrite (count_occ_In Nat.eq_dec). lia. }
  assert (RE : forall u, rE net ec [] (map fst (o_pos net)) u -> cE net ec N u). { intros u (A & B & _). apply Po in B. split; [apply (po_lt net Hm u B)|right; auto]. }
  assert (RP : forall u, rP net ec [] (map fst (o_pos net)) u -> cP net ec N u).
  { intros u (B & A). apply Po in B. split; [apply (po_lt net Hm u B)|]. split; [exact B|]. destruct A as [A|A]; [left; exact A|right; apply count_multi, A]. }
  constructor.
  - reflexivity.
  - exact Gd.
  - reflexivity.
  - intros i n t nm H. destruct i; discriminate H.
  - intros i t nm H. destruct i; discriminate H.
  - intros i n nm t nm' _ H. destruct i; discriminate H.
  - intros u p Hp. destruct (ge_pos _ _ _ _ _ _ _ Ge u p Hp) as (A & B & e & He & _). pose proof (ge_box _ _ _ _ _ _ _ Ge p e He) as [Bx By]. destruct (s_live _ S _ _ He) as (_ & _ & Lx & Ly).
    split; [exact A|]. split; [exact B|]. split; [exists e; exact He|]. lia.
  - apply (li_val _ _ _ _ _ _ I).
  - intros t e He Hx. pose proof (ge_box _ _ _ _ _ _ _ Ge t e He). lia.
  - intros u p Hr Hp. destruct (ge_E _ _ _ _ _ _ _ Ge u (RE u Hr)) as (p' & Hp' & R). rewrite Hp in Hp'. injection Hp' as <-. exact R.
  - intros u p Hr Hp. destruct (ge_P _ _ _ _ _ _ _ Ge u (RP u Hr)) as (p' & Hp' & X1 & Y1 & R & C). rewrite Hp in Hp'. injection Hp' as <-. split; [lia|]. split.
    + destruct (G !! live (cx p) (cy p + 1) 0) as [e|] eqn:E; [|reflexivity]. pose proof (R _ _ E eq_refl ltac:(cbn; lia)). pose proof (C _ _ E eq_refl ltac:(cbn; lia)). congruence.
    + intros t e He Hy Hx. apply (R t e He Hy). lia.
  - intros u v p q Hu Hv. apply (ge_EE _ _ _ _ _ _ _ Ge); auto.
  - intros u v p q Hu Hv. apply (ge_EP _ _ _ _ _ _ _ Ge); auto.
  - intros u v p q Hu Hv. apply (ge_PP _ _ _ _ _ _ _ Ge); auto.
  - intros u p Hu Ha Hp. apply Po in Hu. assert (W : exists w, edge u w). { unfold eastern_po_available in Ha. destruct (o_fanouts net u) as [|w r] eqn:E; [discriminate Ha|]. exists w. apply In_fanouts. rewrite E. left. reflexivity. }
    destruct W as (w & Hw). pose proof (po_avail net Hm Hd ec Hpa u w Hu Hw) as PA. destruct (col_ok net ec Hpa u w Hw) as [Hc|Hc]; [|apply PA in Hc; congruence].
    destruct (li_east _ _ _ _ _ _ I u w p Hw (proj2 (edge_lt net Hm _ _ Hw)) Hc Hp) as (e & He). pose proof (ge_box _ _ _ _ _ _ _ Ge _ _ He) as [B _]. cbn in B. lia.
  - intros t Ht. destruct (li_ends _ _ _ _ _ _ I t Ht) as [H|(u & Hu & H)]; [left; exact H|]. right. right. exists u. split; [exact Hu|].
    destruct H as [(_ & [(v & Hv & Ev & _)|(H & _)])|[(_ & v & Hv & Ev & _)|[(_ & H & _)|H]]]; try (pose proof (edge_lt net Hm _ _ Ev); lia); [left; apply Po, H|left; apply Po, H|right; exact H].
Qed.

Lemma unused_pi : (forall n nm, o_nodes net !! n = Some (OPi nm) -> uses net n <> 0%nat) -> forall u, (u < N)%nat -> uses net u <> 0%nat.
Proof using Hm.
  intros H u Hu. pose proof (node_lt net u Hu) as E. destruct (o_node net u) as [nm|f ch]; [eapply H, E|pose proof (mp_gate _ Hm _ _ _ E); lia].
Qed.

Lemma outputs_end s G : linv net ec cl N s G -> exists G' outs, finished net DX DY ck G' outs (place_outputs net ec (os_pos s) [] 0 (o_pos net) (os_lyt s)).
Proof using Hm Hd Hpa.
  intros I. pose proof (li_len _ _ _ _ _ _ I) as Hlen. destruct (o_pos net) as [|x r] eqn:Eo.
  - cbn [place_outputs]. exists G, []. constructor.
    + pose proof (li_good _ _ _ _ _ _ I) as Gd. rewrite (li_pis _ _ _ _ _ _ I) in Gd. rewrite pi_names_length. unfold inputs_before, o_size in Gd. rewrite firstn_all in Gd. exact Gd.
    + rewrite Eo. reflexivity.
    + intros i n nm t nm' _ H. destruct i; discriminate H.
    + intros i t nm H. destruct i; discriminate H.
    + intros i n nm t nm' _ H. destruct i; discriminate H.
    + intros Hu t Ht. destruct (li_ends _ _ _ _ _ _ I t Ht) as [H|(u & Hp & H)]; [left; exact H|]. exfalso. assert (Np : forall v, o_is_po net v = false) by (intros v; unfold o_is_po; rewrite Eo; reflexivity).
      destruct H as [(_ & [(v & Hv & Ev & _)|(H & _)])|[(_ & v & Hv & Ev & _)|[(_ & H & _)|H]]]; try (pose proof (edge_lt net Hm _ _ Ev); lia); try (rewrite Np in H; discriminate H).
      apply (unused_pi Hu u); [apply lookup_lt_Some in Hp; lia|exact H].
  - rewrite <- Eo. assert (Hne : o_pos net <> []) by (rewrite Eo; discriminate). pose proof (outputs_start s G Hne I) as O0.
    destruct (place_outputs_ok net Hm Hd ec Hpa cl eq_refl (os_pos s) Hlen (length names) (o_pos net) [] G [] (os_lyt s) O0 ltac:(intros i y Hy; exact Hy)) as (G' & outs & O). cbn [app length] in O.
    exists G', outs. constructor.
    + apply (oi_good _ _ _ _ _ _ _ _ _ _ O).
    + rewrite (oi_len _ _ _ _ _ _ _ _ _ _ O), map_length. reflexivity.
    + intros i n nm t nm' Hi Ho. apply (oi_vals _ _ _ _ _ _ _ _ _ _ O i n t nm'); [|exact Ho]. rewrite list_lookup_fmap, Hi. reflexivity.
    + intros i t nm H. apply (oi_outs _ _ _ _ _ _ _ _ _ _ O i t nm H).
    + apply (oi_names _ _ _ _ _ _ _ _ _ _ O).
    + intros Hu t Ht. destruct (oi_ends _ _ _ _ _ _ _ _ _ _ O t Ht) as [H|[H|(u & Hp & [[]|H])]]; auto. exfalso. apply (unused_pi Hu u); [apply lookup_lt_Some in Hp; lia|exact H].
Qed.
End run.

Lemma orthogonal_ok ck : edge_coloring net = Some ec -> exists st G outs, orthogonal net ck = Done st /\ finished net DX DY ck G outs st.
Proof using Hm Hd Hsym Hfit Hpa Hroom.
  intros Hec. destruct size_ok as [SX SY]. unfold orthogonal. replace (existsb _ _) with false.
  2:{ symmetry. apply not_true_is_false. intros H. apply existsb_exists in H as (n & _ & H). apply Nat.ltb_lt in H. destruct (fanins_cases net Hm Hd n) as [E|[(a & E)|(a & b & E & _)]]; rewrite E in H; cbn in H; lia. }
  rewrite Hec. set (cl := mkCL Cartesian (layout_size net ec) (twoddwave_clocking Cartesian ck)). assert (Ecl : cl = mkCL Cartesian (live DX DY 1) (twoddwave_clocking Cartesian ck)) by reflexivity.
  clearbody cl. subst cl. destruct (reserve_ok (mkCL Cartesian (live DX DY 1) (twoddwave_clocking Cartesian ck)) net) as (st0 & -> & L0).
  { cbn [cl_dim]. unfold inb. cbn. lia. } { exact names_ne. }
  destruct (loop_ok net Hm Hd Hsym ec Hpa Hroom (mkCL Cartesian (live DX DY 1) (twoddwave_clocking Cartesian ck)) eq_refl st0) with (n := N) as (s & G & -> & I); [|lia|].
  { constructor; [exact L0|]. constructor; intros; rewrite lookup_empty in *; discriminate. }
  destruct (outputs_end ck s G I) as (G' & outs & F). eexists _, G', outs. split; [reflexivity|exact F].
Qed.
End coloured.

Lemma colour_some : exists ec, edge_coloring net = Some ec /\ painted net 0 ec.
Proof using Hm Hd. exact (coloring_ok net (fanins_cases net Hm Hd) (fanouts_two net Hm)). Qed.

Lemma simple_roomy ec : simple_outputs net -> roomy net ec.
Proof using Hm.
  intros Hs n Hp _. pose proof Hp as Hq. apply po_nouts in Hq. unfold o_is_po in Hp. apply existsb_exists in Hp as ((n' & nm) & Hi & E). apply Nat.eqb_eq in E. cbn in E. subst n'.
  specialize (Hs n nm Hi). pose proof (uses_ge net n) as Hu. split.
  - apply no_edge_avail. intros v Hv. apply In_fanouts in Hv. destruct (o_fanouts net n); [destruct Hv|cbn in Hu; lia].
  - destruct (is_multi net n) eqn:E; [|reflexivity]. apply multi_nouts in E. lia.
Qed.

Theorem orthogonal_correct ck : (forall ec, edge_coloring net = Some ec -> roomy net ec) ->
  exists st, orthogonal net ck = Done st /\ realises net st /\ (o_pos net <> [] -> (forall n nm, o_nodes net !! n = Some (OPi nm) -> uses net n <> 0%nat) -> rules st) /\
    (exists cl ops, reached cl ops st /\ moves_no_constant ops /\ dim_ok (cl_dim cl) /\ places_inside (cl_dim cl) ops /\ 1 <= num_clocks (g_cl st) <= 255 /\ ~ In const1 (g_out st) /\
      length (g_in st) = length names /\ length (g_out st) = length (o_pos net)).
Proof using Hm Hd Hsym Hfit.
  intros Hr. destruct colour_some as (ec & Hec & Hpa). destruct (size_ok ec) as [SX SY]. destruct (orthogonal_ok ec Hpa (Hr ec Hec) ck Hec) as (st & G & outs & E & F). exists st. split; [exact E|].
  split; [exact (finished_realises net Hm _ _ ck SX SY G outs st F)|]. split; [intros Hp Hu; exact (finished_rules net Hm _ _ ck SX SY G outs st F (names_ne) Hp Hu)|].
  eexists. apply (finished_built net Hm _ _ ck SX SY G outs st F).
Qed.
End top.
