(** The finished layout. *)
From Coq Require Import ZArith Bool String List Lia.
From stdpp Require Import gmap list strings pretty.
From Verif Require Import CoordModel CoordSpec CoordProofs GridModel GridSpec GridProofs CoordMap ClockModel ClockSpec ClockProofs GateModel GateSpec GateProofs GateProofs2 GateProofs3
  PathSpec RouteModel RouteSpec RouteProofs BuildProofs HexaSpec HexaProofs2 HexaProofs3 OrthoModel OrthoSpec OrthoProofs OrthoProofs2 OrthoProofs3 OrthoProofs4 OrthoProofs5 OrthoProofs6 OrthoProofs7 OrthoProofs8 OrthoProofs9.
Import ListNotations.
Local Open Scope Z_scope.

Section final.
Context (net : onet) (Hm : mapped net).
Context (DX DY : Z) (ck : num_clks).
Let cl := mkCL Cartesian (live DX DY 1) (twoddwave_clocking Cartesian ck).
Context (HDX : 0 <= DX < 2 ^ 31 - 1) (HDY : 0 <= DY < 2 ^ 31 - 1).
Notation names := (o_pi_names net).
Context (G : gmap coord ent) (outs : list (coord * string)) (st : glayout).

Record finished : Prop := mkFinished {
  fi_good : good cl names (length names) G outs st;
  fi_len : length outs = length (o_pos net);
  fi_vals : forall i n nm t nm', o_pos net !! i = Some (n, nm) -> outs !! i = Some (t, nm') -> forall env b, computes net env n b -> gval G env t b;
  fi_outs : forall i t nm, outs !! i = Some (t, nm) -> cx t = DX;
  fi_names : forall i n nm t nm', o_pos net !! i = Some (n, nm) -> outs !! i = Some (t, nm') -> nm <> ""%string -> nm' = nm;
  fi_ends : (forall n nm, o_nodes net !! n = Some (OPi nm) -> uses net n <> 0%nat) -> forall t, fetch G t -> used G t \/ In t (map fst outs)
}.
Context (F : finished).

Let L : lay cl names (length names) G outs st := gd_lay _ _ _ _ _ _ (fi_good F).
Let Snd : sound G := gd_sound _ _ _ _ _ _ (fi_good F).

Lemma dims : dim_ok (cl_dim cl).
Proof using HDX HDY. unfold cl, dim_ok. cbn [cl_dim cx cy cz live]. lia. Qed.
Lemma st_wf : wf st.
Proof using HDX HDY F. destruct (ly_ops _ _ _ _ _ _ L) as (ops & A & B & C). eapply wf_reached; try eassumption. apply dims. Qed.
Lemma clocks : 1 <= num_clocks (g_cl st) <= 255.
Proof using F. rewrite (ly_cl _ _ _ _ _ _ L). unfold cl, num_clocks. cbn. clear. destruct ck; cbn; lia. Qed.

Lemma at_tile t e : G !! t = Some e -> exists n, get_node st t = n /\ g_tn st !! t = Some n /\ n_children (node_at st n) = e_ch e /\ n_lit (node_at st n) = e_lit e /\
  match e_pi e with Some i => n = (2 + i)%nat /\ (i < length names)%nat | None => (2 + length names <= n)%nat end.
Proof using F. intros H. destruct (ly_at _ _ _ _ _ _ L t e H) as (n & A & B & C & D). exists n. unfold get_node. rewrite A. auto. Qed.
Lemma fetch_occ t : occupied st t <-> fetch G t.
Proof using HDX HDY F.
  split.
  - intros [Hi He]. destruct (G !! t) as [e|] eqn:E; [exists e; exact E|]. apply (lay_empty _ _ _ _ _ _ t L (proj1 Hi)) in E. congruence.
  - intros (e & He). destruct (s_live _ Snd _ _ He) as (Hd & _). destruct (at_tile t e He) as (n & _ & Hn & _). split; [eapply (w_in _ st_wf); eassumption|].
    destruct (is_empty_tile st t) eqn:E; [|reflexivity]. apply (lay_empty _ _ _ _ _ _ t L Hd) in E. congruence.
Qed.
Lemma tile_of t e : G !! t = Some e -> get_tile st (get_node st t) = t.
Proof using HDX HDY F.
  intros H. pose proof (proj2 (fetch_occ t) (ex_intro _ _ H)) as [Hi He]. destruct (occ_live st t (w_1 _ st_wf) He (proj1 Hi)) as (_ & A & _). exact A.
Qed.
Lemma before_ok c t : fetch G c -> fetch G t -> before c t -> next_to st c t /\ next_zone (g_cl st) c t.
Proof using HDX HDY F.
  intros Hc Ht Hb. apply fetch_occ in Hc as [Ic _], Ht as [It _]. split.
  - split; [exact Ic|]. rewrite (ly_cl _ _ _ _ _ _ L). cbn. unfold square_touch. cbn [cx cy cz live]. split; [reflexivity|]. destruct Hb as [[A B]|[A B]]; lia.
  - unfold next_zone. rewrite (ly_cl _ _ _ _ _ _ L) in *. unfold cl in Ic, It. cbn [cl_dim] in Ic, It. destruct Ic as (_ & Xc & Yc & _), It as (_ & Xt & Yt & _). cbn [cx cy live] in Xc, Yc, Xt, Yt.
    pose proof (fn_wave Cartesian (TWODDWAVE ck) c I ltac:(lia) ltac:(lia)) as W1. pose proof (fn_wave Cartesian (TWODDWAVE ck) t I ltac:(lia) ltac:(lia)) as W2.
    assert (C : forall x, get_clock_number cl x = sc_fn (clocking Cartesian (TWODDWAVE ck)) x) by reflexivity. rewrite !C, W1, W2.
    change (num_clocks cl) with (sc_num (clocking Cartesian (TWODDWAVE ck))). cbn [wave]. replace (cx t + cy t) with (cx c + cy c + 1) by (destruct Hb as [[A B]|[A B]]; lia).
    rewrite Zplus_mod_idemp_l. reflexivity.
Qed.
Lemma flow t e : G !! t = Some e -> incoming_data_flow true st t = e_ch e.
Proof using HDX HDY F.
  intros H. destruct (at_tile t e H) as (n & A & _ & B & _). refine (all_flow st t st t (e_ch e) st_wf clocks (proj2 (fetch_occ t) (ex_intro _ e H)) _ _); [rewrite A; exact B|].
  intros u Hu. destruct (s_ch _ Snd _ _ _ H Hu) as [Fu Bu]. split; [apply fetch_occ, Fu|]. apply before_ok; [exact Fu|exists e; exact H|exact Bu].
Qed.
Lemma pi_of t e : G !! t = Some e -> is_pi st (get_node st t) = match e_pi e with Some _ => true | None => false end.
Proof using F.
  intros H. destruct (at_tile t e H) as (n & A & _ & _ & _ & B). rewrite A. unfold is_pi. rewrite (ly_in _ _ _ _ _ _ L). destruct (e_pi e) as [i|].
  - apply existsb_exists. exists n. split; [apply in_seq; lia|apply Nat.eqb_refl].
  - destruct (existsb (Nat.eqb n) (seq 2 (length names))) eqn:E; [|reflexivity]. apply existsb_exists in E as (x & Hx & E). apply Nat.eqb_eq in E. subst x. apply in_seq in Hx. lia.
Qed.
Lemma inputs_at i n : g_in st !! i = Some n -> n = (2 + i)%nat /\ (i < length names)%nat /\ exists t e, G !! t = Some e /\ e_pi e = Some i /\ get_node st t = n /\ get_tile st n = t.
Proof using HDX HDY F.
  rewrite (ly_in _ _ _ _ _ _ L). intros H. apply lookup_seq in H as [-> Hi]. split; [reflexivity|]. split; [exact Hi|].
  destruct (ly_pi _ _ _ _ _ _ L i Hi) as (t & e & He & Hp). exists t, e. split; [exact He|]. split; [exact Hp|]. destruct (at_tile t e He) as (n & A & _ & _ & _ & B). rewrite Hp in B. destruct B as [-> _].
  split; [exact A|]. rewrite <- A. eapply tile_of, He.
Qed.

Lemma values_to env : (forall t b, gval G env t b -> carries st env t b) /\ (forall ts bs, gvals G env ts bs -> carries_all st env ts bs).
Proof using HDX HDY F.
  apply (gval_mut G env (fun t b _ => carries st env t b) (fun ts bs _ => carries_all st env ts bs)).
  - intros t e i He Hp. destruct (at_tile t e He) as (n & A & _ & _ & _ & B). rewrite Hp in B. destruct B as [-> Hi]. rewrite <- (tile_of t e He), A. apply carries_input.
    rewrite (ly_in _ _ _ _ _ _ L). apply lookup_seq. lia.
  - intros t e vs b He Hp _ IH Hc. apply (carries_gate _ _ _ vs).
    + apply fetch_occ. exists e. exact He.
    + rewrite (pi_of t e He), Hp. reflexivity.
    + rewrite (flow t e He). exact IH.
    + destruct (at_tile t e He) as (n & A & _ & _ & B & _). unfold compute. rewrite A, B. exact Hc.
  - constructor.
  - intros t ts b bs _ H1 _ H2. constructor; assumption.
Qed.
Lemma values_from env : (forall t b, carries st env t b -> gval G env t b) /\ (forall ts bs, carries_all st env ts bs -> gvals G env ts bs).
Proof using HDX HDY F.
  apply carries_mut.
  - intros i n Hi. destruct (inputs_at i n Hi) as (_ & _ & t & e & He & Hp & _ & ->). eapply gval_pi; eassumption.
  - intros t vs b Ot Hp _ IH Hc. apply fetch_occ in Ot as (e & He). rewrite (pi_of t e He) in Hp. destruct (e_pi e) eqn:Ep; [discriminate Hp|].
    rewrite (flow t e He) in IH. eapply gval_gate; [exact He|exact Ep|exact IH|]. destruct (at_tile t e He) as (n & A & _ & _ & B & _). unfold compute in Hc. rewrite A, B in Hc. exact Hc.
  - constructor.
  - intros t ts b bs _ H1 _ H2. constructor; assumption.
Qed.

Lemma computes_total env : forall n, (n < o_size net)%nat -> exists b, computes net env n b.
Proof using Hm.
  intros n. induction n as [n IH] using lt_wf_ind. intros Hn. pose proof (node_lt net n Hn) as E. destruct (o_node net n) as [nm|f ch].
  - eexists. eapply computes_input, E.
  - assert (V : forall c, In c ch -> exists b, computes net env c b). { intros c Hc. pose proof (mp_order _ Hm _ _ _ _ E Hc). apply IH; lia. }
    assert (A := mp_arity _ Hm _ _ _ E). destruct A as [[Hl Hf]|[Hl Hf]]; destruct ch as [|a [|b [|c r]]]; try discriminate Hl.
    + destruct (V a (or_introl eq_refl)) as (x & Hx). destruct Hf as [->| ->]; eexists; eapply (computes_gate _ _ _ _ _ [x]); try exact E; try (constructor; [exact Hx|constructor]); reflexivity.
    + destruct (V a (or_introl eq_refl)) as (x & Hx). destruct (V b (or_intror (or_introl eq_refl))) as (y & Hy). destruct Hf as (F1 & F2 & F3).
      assert (M : exists v, boolean_meaning f [x; y] = Some v) by (destruct f; try congruence; cbn; eauto). destruct M as (v & Hv).
      exists v. eapply (computes_gate _ _ _ _ _ [x; y]); [exact E| |exact Hv]. constructor; [exact Hx|]. constructor; [exact Hy|constructor].
Qed.
Lemma name_at n nm : o_nodes net !! n = Some (OPi nm) -> names !! inputs_before net n = Some nm.
Proof.
  unfold o_pi_names, inputs_before. revert n. induction (o_nodes net) as [|[nm'|f ch] l IH]; intros n H; [destruct n; discriminate H| |]; destruct n as [|n]; cbn in *; try discriminate H.
  - congruence.
  - apply IH, H.
  - apply IH, H.
Qed.
Lemma out_tile t : In t (map fst outs) -> exists i nm, outs !! i = Some (t, nm) /\ fetch G t.
Proof using F.
  intros H. pose proof (proj1 (ly_po _ _ _ _ _ _ L t) H) as (e & He & _). apply in_map_iff in H as ((t' & nm) & E & Hin). cbn in E. subst t'.
  apply elem_of_list_In, elem_of_list_lookup in Hin as (i & Hi). exists i, nm. split; [exact Hi|exists e; exact He].
Qed.

Theorem finished_realises : realises net st.
Proof using Hm HDX HDY F.
  constructor.
  - rewrite (ly_in _ _ _ _ _ _ L), seq_length. apply pi_names_length.
  - intros n nm Hn Hne. pose proof (name_at n nm Hn) as Hi. unfold get_input_name. rewrite (ly_in _ _ _ _ _ _ L).
    assert (E : seq 2 (length names) !! inputs_before net n = Some (2 + inputs_before net n)%nat) by (apply lookup_seq; split; [reflexivity|apply lookup_lt_Some in Hi; exact Hi]).
    rewrite E. unfold get_name. rewrite (ly_name _ _ _ _ _ _ L _ nm Hi Hne). reflexivity.
  - rewrite (ly_out _ _ _ _ _ _ L), map_length. apply (fi_len F).
  - intros i n nm Hi Hne. assert (Hl : (i < length outs)%nat) by (rewrite (fi_len F); eapply lookup_lt_Some; exact Hi). destruct (lookup_lt_is_Some_2 outs i Hl) as ((t & nm') & Ho).
    pose proof (fi_names F i n nm t nm' Hi Ho Hne) as ->. unfold get_output_name. rewrite (ly_out _ _ _ _ _ _ L), list_lookup_fmap, Ho. cbn [fmap option_fmap option_map fst].
    destruct (ly_oname _ _ _ _ _ _ L t nm) as (m & A & B); [apply elem_of_list_In; eapply elem_of_list_lookup_2; exact Ho|exact Hne|]. unfold get_name, get_node. rewrite A. cbn. rewrite B. reflexivity.
  - intros env i n nm o Hi Ho. rewrite (ly_out _ _ _ _ _ _ L), list_lookup_fmap in Ho. destruct (outs !! i) as [[t nm']|] eqn:Eo; cbn in Ho; [|discriminate Ho]. injection Ho as ->.
    pose proof (fi_vals F i n nm o nm' Hi Eo) as V. assert (Hn : (n < o_size net)%nat). { apply (mp_out _ Hm n nm). apply elem_of_list_In. eapply elem_of_list_lookup_2. exact Hi. }
    destruct (computes_total env n Hn) as (b0 & Hb0). split; [exists b0; exact Hb0|]. intros b. split.
    + intros Hc. apply (proj1 (values_from env)) in Hc. pose proof (proj1 (gval_fun G env) _ _ (V env b0 Hb0) _ Hc) as ->. exact Hb0.
    + intros Hc. apply (proj1 (values_to env)), V, Hc.
  - intros t n Hd Hn. eapply (w_in _ st_wf); eassumption.
  - intros n Hn. apply elem_of_list_In, elem_of_list_lookup in Hn as (i & Hi). destruct (inputs_at i n Hi) as (_ & _ & t & e & He & Hp & _ & Ht). unfold placed. rewrite Ht.
    split; [apply (s_live _ Snd _ _ He)|]. pose proof (s_pi _ Snd _ _ He) as H. rewrite Hp in H. apply H.
  - intros o Ho. rewrite (ly_out _ _ _ _ _ _ L) in Ho. destruct (out_tile o Ho) as (i & nm & Hi & Fo). split; [apply fetch_occ, Fo|]. rewrite (fi_outs F i o nm Hi), (ly_cl _ _ _ _ _ _ L). reflexivity.
  - intros t Ot Hz. apply fetch_occ in Ot as (e & He). destruct (s_live _ Snd _ _ He) as (Hd & _). pose proof (coord_eta t Hd) as Et. rewrite Hz in Et. rewrite Et in He |- *. cbn [cx cy live].
    destruct (s_cross _ Snd _ _ _ He) as (e0 & He0 & Ht). assert (W : forall u e', G !! u = Some e' -> e_tag e' <> TN -> is_wire st (get_node st u) = true).
    { intros u e' Hu Hne. destruct (at_tile u e' Hu) as (m & A & _ & _ & B & _). unfold is_wire. rewrite A, B. destruct (s_wire _ Snd _ _ Hu Hne) as [-> _]. reflexivity. }
    split; [eapply W; [exact He|destruct Ht as [[H _]|[H _]]; rewrite H; discriminate]|]. split; [apply fetch_occ; exists e0; exact He0|].
    eapply W; [exact He0|destruct Ht as [[_ H]|[_ H]]; rewrite H; discriminate].
Qed.

Theorem finished_rules : names <> [] -> o_pos net <> [] -> (forall n nm, o_nodes net !! n = Some (OPi nm) -> uses net n <> 0%nat) -> rules st.
Proof using Hm HDX HDY F.
  intros Hnm Hpo Huse. assert (Con : forall u t, connected st u t -> fetch G u /\ fetch G t /\ before u t).
  { intros u t (Ot & c & Hc & ->). apply fetch_occ in Ot as (e & He). destruct (at_tile t e He) as (n & A & _ & B & _). rewrite A, B in Hc. destruct (s_ch _ Snd _ _ _ He Hc) as [Fc Bc].
    destruct Fc as (e' & He'). rewrite (tile_of c e' He'). split; [exists e'; exact He'|]. split; [exists e; exact He|exact Bc]. }
  constructor.
  - intros u t H. destruct (Con u t H) as (A & B & C). apply before_ok; assumption.
  - intros u t H. destruct (Con u t H) as (A & B & C). apply before_ok; assumption.
  - intros t Ot. apply fetch_occ in Ot as (e & He). rewrite (flow t e He), (pi_of t e He). pose proof (s_pi _ Snd _ _ He) as H. destruct (e_pi e); auto.
  - intros t Ot. pose proof Ot as Ft. apply fetch_occ in Ft. destruct (fi_ends F Huse t Ft) as [(t' & e' & He' & Hin)|Ho].
    + left. destruct Ft as (e & He). pose proof (flow t' e' He') as Hf. destruct Ot as [It Et]. destruct (proj2 (fetch_occ t') (ex_intro _ _ He')) as [It' Et'].
      destruct (occ_live st t (w_1 _ st_wf) Et (proj1 It)) as (T2 & Tt & _). destruct (occ_live st t' (w_1 _ st_wf) Et' (proj1 It')) as (T2' & Tt' & _).
      assert (D : In (get_node st t') (foreach_fanout true st (get_node st t))).
      { apply duality; auto.
        - apply (w_1 _ st_wf).
        - apply (w_dim _ st_wf).
        - intros _ x y z1 z2. rewrite (ly_cl _ _ _ _ _ _ L). unfold get_clock_number, cl, sc_at. cbn [cl_scheme sc_regular twoddwave_clocking]. reflexivity.
        - apply clocks.
        - rewrite Tt'. exact It'.
        - rewrite Tt. exact It.
        - unfold incoming_data_flow in Hf. rewrite Tt, Hf. exact Hin. }
      unfold outgoing_data_flow. intros K. apply map_eq_nil in K. rewrite K in D. destruct D.
    + right. unfold is_po. apply existsb_exists. exists t. split; [rewrite (ly_out _ _ _ _ _ _ L); exact Ho|apply Nat.eqb_refl].
  - intros t (Hd & He & _) _ Hz. assert (Ft : fetch G t). { destruct (G !! t) as [e|] eqn:E; [exists e; exact E|]. apply (lay_empty _ _ _ _ _ _ t L Hd) in E. congruence. }
    destruct (re_crossing _ _ finished_realises t (proj2 (fetch_occ t) Ft) Hz) as (_ & [_ A] & B). split; [reflexivity|]. split; [exact A|exact B].
  - split; intros H.
    + rewrite (ly_in _ _ _ _ _ _ L) in H. clear - H Hnm. destruct names; [congruence|discriminate H].
    + rewrite (ly_out _ _ _ _ _ _ L) in H. apply map_eq_nil in H. pose proof (fi_len F) as Hl. rewrite H in Hl. clear - Hl Hpo. destruct (o_pos net); [congruence|discriminate Hl].
  - intros n [Hn|(o & Ho & ->)].
    + apply (re_west _ _ finished_realises n Hn).
    + rewrite (ly_out _ _ _ _ _ _ L) in Ho. destruct (out_tile o Ho) as (i & nm & _ & e & He). unfold placed. rewrite (tile_of o e He). apply (s_live _ Snd _ _ He).
Qed.
Lemma finished_built : exists ops, reached cl ops st /\ moves_no_constant ops /\ dim_ok (cl_dim cl) /\ places_inside (cl_dim cl) ops /\ 1 <= num_clocks (g_cl st) <= 255 /\ ~ In const1 (g_out st) /\
  length (g_in st) = length names /\ length (g_out st) = length (o_pos net).
Proof using Hm HDX HDY F.
  destruct (ly_ops _ _ _ _ _ _ L) as (ops & A & B & C). exists ops. split; [exact A|]. split; [exact B|]. split; [apply dims|]. split; [exact C|]. split; [apply clocks|].
  split; [intros H; destruct (re_east _ _ finished_realises _ H) as [[[H1 _] _] _]; discriminate H1|]. split; [rewrite (ly_in _ _ _ _ _ _ L); apply seq_length|apply (re_outputs _ _ finished_realises)].
Qed.
End final.
