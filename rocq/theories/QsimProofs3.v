(** Proofs about QsimModel.v, part 3: which distributions QuickSim can find. *)
From Coq Require Import ZArith QArith Qcanon Bool List Lia Lqa Permutation.
From Verif Require Import CoordModel CoordProofs UtilModel SidbModel SidbSpec SidbProofs SidbProofs2 SidbProofs3 SidbProofs4 SidbProofs5
  QsimModel QsimSpec QsimProofs QsimProofs2.
Import ListNotations.
Local Open Scope Z_scope.

Lemma search_ext dist alpha n : forall r r' s d neg, (forall t, (s <= t)%nat -> r t = r' t) ->
  search dist alpha r n s d neg = search dist alpha r' n s d neg.
Proof.
  induction n as [|n IH]; intros r r' s d neg H; [reflexivity|]. cbn [search]. rewrite (H s) by lia.
  destruct (adjacent_search dist alpha (r' s) d neg) as [d1 neg1]. destruct (record (validity_check d1)) as [d2 out].
  rewrite (IH r r' (S s) d2 neg1) by (intros; apply H; lia). reflexivity.
Qed.
Lemma filter_drop (u : nat) m : In u m -> (length (filter (fun i => negb (Nat.eqb i u)) m) < length m)%nat.
Proof.
  induction m as [|x m IH]; intros H; [destruct H|]. cbn [filter length].
  assert (L : (length (filter (fun i => negb (Nat.eqb i u)) m) <= length m)%nat).
  { clear. induction m as [|y m IH]; [reflexivity|]. cbn [filter length]. destruct (negb (Nat.eqb y u)); cbn [length]; lia. }
  destruct (Nat.eqb_spec x u) as [->|E]; cbn [negb length]; [lia|]. destruct H as [->|H]; [contradiction|]. specialize (IH H). lia.
Qed.

Lemma cs_neg s : cs_eqb s NEG = true -> s = NEG.
Proof. destruct s; intros H; first [reflexivity|discriminate H]. Qed.
Lemma mu_plus_le q : (mu_plus q <= p_mu q)%Qc.
Proof.
  unfold mu_plus. generalize (p_mu q). intros m. unfold Qcle. rewrite this_sub.
  change (this (Q2Qc (59 # 100))) with (59 # 100). lra.
Qed.
Lemma least_neg (s : cs) (a b m mp : Qc) : (mp <= m)%Qc -> (a <= b)%Qc -> (- (a + Q2Qc 0) + m < - margin)%Qc ->
  match s with
  | NEG => qltb (- b) (Q2Qc 0 - m + margin)
  | POS => qltb (Q2Qc 0 - mp - margin) (- b)
  | NEU => qltb (Q2Qc 0 - m - margin) (- b) && qltb (- b) (Q2Qc 0 - mp + margin)
  | NON => false
  end = true -> s = NEG.
Proof.
  intros Mp L H V. destruct s; [reflexivity| | |discriminate]; exfalso.
  - apply andb_true_iff in V. destruct V as [V _]. apply qltb_spec in V. clear - H V L. qlin.
  - apply qltb_spec in V. clear - H V L Mp. qlin.
Qed.

(** SiDBs that are found to be negatively charged are negatively charged in every valid distribution. *)
Lemma lp_least phi p cells f c : (forall e l a b, (0 <= phi e l a b)%Qc) ->
  (lp phi p cells (no_def phi) (fun _ => NEG) c <= lp phi p cells (no_def phi) f c)%Qc.
Proof.
  intros phi_pos. unfold lp. apply Qcplus_le_compat; [apply Qcle_refl|]. apply total_le. intros b _.
  rewrite !(Qcmult_comm (coulomb phi p c b)). apply Qcmult_le_compat_r; [|apply phi_pos].
  destruct (f b); vm_compute; discriminate.
Qed.
Lemma detected_negative phi (phi_pos : forall e l a b, (0 <= phi e l a b)%Qc) p cells d f i :
  QOk phi p cells d (fun _ => NEG) -> QFresh phi p cells d (fun _ => NEG) -> (i < length cells)%nat ->
  vb phi p cells f = true -> In i (negative_sidb_detection d) -> f (nth i cells dead0) = NEG.
Proof.
  intros O F Hi V H. unfold negative_sidb_detection in H. apply filter_In in H. destruct H as [_ H].
  rewrite (qf_int _ _ _ _ _ F), (st_ext _ _ _ _ _ _ (qk_static _ _ _ _ _ O)), (qk_par _ _ _ _ _ O) in H.
  rewrite (nth_map _ cells i dead0), (nth_map no_ext cells i dead0) in H by exact Hi.
  set (c := nth i cells dead0) in *. apply qltb_spec in H.
  unfold vb, validb in V. apply andb_true_iff in V. destruct V as [V _]. rewrite forallb_forall in V.
  specialize (V c (nth_In _ _ Hi)). unfold popb, bnd in V. pose proof (lp_least phi p cells f c phi_pos) as L.
  set (a := lp phi p cells (no_def phi) (fun _ => NEG) c) in *. set (b := lp phi p cells (no_def phi) f c) in *. clearbody a b.
  exact (least_neg (f c) a b (p_mu p) (mu_plus p) (mu_plus_le p) L H V).
Qed.

Section Reach.
Context (phi : Qc -> Qc -> coord -> coord -> Qc) (k : kind) (dist : coord -> coord -> Qc)
        (phi_self : forall e l a, phi e l a a = 0%Qc) (phi_sym : forall e l a b, phi e l a b = phi e l b a)
        (dist_pos : forall a b, (0 <= dist a b)%Qc)
        (alpha : Qc) (alpha_0 : (alpha <= 0)%Qc).

(** Without a demand on the distance, every neutral SiDB is a candidate. *)
Lemma dist_min_pos d neg u : (0 <= dist_min dist d neg u)%Qc.
Proof using dist_pos.
  unfold dist_min. destruct neg as [|o r]; [apply Qcle_refl|].
  assert (H : forall acc, (0 <= acc)%Qc ->
    (0 <= fold_left (fun acc o0 => if qltb (distance dist d u o0) acc then distance dist d u o0 else acc) r acc)%Qc).
  { clear - dist_pos. induction r as [|x r IH]; intros acc H; [exact H|]. cbn [fold_left]. apply IH. destruct qltb; [apply dist_pos|exact H]. }
  apply H, dist_pos.
Qed.
Lemma dist_max_pos d neg : (0 <= dist_max dist d neg)%Qc.
Proof using dist_pos.
  unfold dist_max.
  assert (H : forall acc m, (0 <= acc)%Qc ->
    (0 <= fold_left (fun m u => if qltb m (dist_min dist d neg u) then dist_min dist d neg u else m) m acc)%Qc).
  { clear - dist_pos. intros acc m. revert acc. induction m as [|x m IH]; intros acc H; [exact H|]. cbn [fold_left]. apply IH.
    destruct qltb; [apply dist_min_pos|exact H]. }
  apply H, Qcle_refl.
Qed.
Lemma candidates_all d neg : candidates dist alpha d neg = neutral_indices d.
Proof using dist_pos alpha_0.
  unfold candidates. rewrite <- (filter_ext_in (fun _ => true)).
  - induction (neutral_indices d) as [|x m IH]; [reflexivity|]. cbn. f_equal. exact IH.
  - intros u _. symmetry. apply Qle_bool_iff. fold (alpha * dist_max dist d neg <= dist_min dist d neg u)%Qc.
    apply (Qcle_trans _ 0); [|apply dist_min_pos].
    replace 0%Qc with (0 * dist_max dist d neg)%Qc by ring. apply Qcmult_le_compat_r; [exact alpha_0|apply dist_max_pos].
Qed.

Section Fixed.
Context (p : params) (cells : list coord) (Hnd : NoDup cells) (Hlive : Forall (fun c => is_dead c = false) cells).
Notation QOk := (QOk phi p cells).
Notation QFresh := (QFresh phi p cells).
Notation Recorded := (Recorded phi p cells).

Lemma vb_agree f g : (forall c, In c cells -> f c = g c) -> vb phi p cells f = vb phi p cells g.
Proof. intros H. unfold vb. exact (validb_agree phi p cells no_ext (no_def phi) f g H). Qed.

(** The search can turn any neutral SiDBs negative, one after the other. *)
Lemma q_reach g todo : vb phi p cells g = true -> NoDup todo -> todo <> [] -> forall n s f, (length todo <= n)%nat ->
  (forall c, In c todo -> In c cells /\ f c = NEU) ->
  (forall c, In c cells -> g c = if existsb (fun x => coord_eqb x c) todo then NEG else f c) ->
  exists r, forall d neg, QOk d f -> QFresh d f ->
  exists x h, In x (snd (search dist alpha r n s d neg)) /\ Recorded x h /\ forall c, In c cells -> h c = g c.
Proof using phi_self phi_sym dist_pos alpha_0 Hnd.
  intros V. induction todo as [|c todo IH]; intros N NE n s f L T G; [contradiction|].
  destruct n as [|n]; [cbn in L; lia|]. apply NoDup_cons_iff in N. destruct N as [N1 N2].
  destruct (T c (or_introl eq_refl)) as [Ic Nc].
  set (i := Z.to_nat (index_in c cells)). destruct (index_in_nth c cells Ic) as [Bi Ei].
  assert (Hi : (i < length cells)%nat) by (unfold i; lia). assert (Ei' : nth i cells dead0 = c) by exact Ei.
  set (neus := filter (fun i => cs_eqb (nth i (map f cells) NON) NEU) (seq 0 (length (map f cells)))).
  assert (In_i : In i neus).
  { unfold neus. apply filter_In. rewrite in_seq, map_length, (nth_map f cells i dead0) by exact Hi. rewrite Ei', Nc. split; [lia|reflexivity]. }
  destruct (In_nth neus i 0%nat In_i) as (j & Hj & Ej).
  (* the step *)
  assert (Step : forall r d neg, r s = j -> QOk d f -> QFresh d f ->
    exists d2 neg2 out, QOk d2 (put f c) /\ QFresh d2 (put f c) /\
      (vb phi p cells (put f c) = true -> exists y, In y out /\ Recorded y (put f c)) /\
      snd (search dist alpha r (S n) s d neg) = out ++ snd (search dist alpha r n (S s) d2 neg2)).
  { intros r d neg Hr O F. cbn [search].
    assert (A : adjacent_search dist alpha (r s) d neg = (place_electron d i, neg ++ [i])).
    { unfold adjacent_search. rewrite candidates_all.
      assert (E : neutral_indices d = neus) by (unfold neutral_indices, neus; rewrite (proj2 (qk_charges _ _ _ _ _ O)); reflexivity).
      rewrite E, Hr. destruct neus as [|x0 xs0]; [destruct In_i|]. cbv zeta. rewrite (Nat.mod_small j) by exact Hj. rewrite Ej. reflexivity. }
    rewrite A. rewrite <- Ei' in Nc |- *.
    destruct (q_place phi phi_self phi_sym p cells Hnd d f i O F Hi Nc) as [O1 F1].
    rewrite (q_validity phi p cells _ _ O1 F1). set (f1 := put f (nth i cells dead0)) in *.
    set (d1 := place_electron d i) in *. clearbody d1.
    assert (F2 : QFresh (set_valid d1 (vb phi p cells f1)) f1) by (destruct F1 as [X1 X2]; split; [exact X1|exact X2]).
    destruct (q_record phi p cells Hnd (set_valid d1 (vb phi p cells f1)) f1 (qok_set_valid _ _ _ _ _ _ O1) F2 eq_refl) as (O3 & F3 & R).
    destruct (record (set_valid d1 (vb phi p cells f1))) as [d2 out]. cbn [fst snd] in O3, F3, R.
    exists d2, (neg ++ [i]), out. split; [exact O3|split; [exact F3|split]].
    - intros Hv. destruct R as [[_ R]|(y & R & Y)]; [rewrite Hv in R; discriminate|]. exists y. rewrite R. split; [left; reflexivity|exact Y].
    - destruct (search dist alpha r n (S s) d2 (neg ++ [i])) as [d3 rest]. reflexivity. }
  assert (G' : forall x, In x cells -> g x = if existsb (fun y => coord_eqb y x) todo then NEG else put f c x).
  { intros x Hx. rewrite (G x Hx). cbn [existsb]. unfold put, fupd. rewrite (eqb_swap x c).
    destruct (coord_eqb c x); cbn [orb]; [destruct existsb; reflexivity|reflexivity]. }
  destruct todo as [|c' todo].
  - exists (fun _ => j). intros d neg O F. destruct (Step (fun _ => j) d neg eq_refl O F) as (d2 & neg2 & out & _ & _ & Y & E).
    cbn [existsb] in G'. assert (Vp : vb phi p cells (put f c) = true).
    { rewrite <- V. apply vb_agree. intros x Hx. symmetry. apply G', Hx. }
    destruct (Y Vp) as (y & Hy & Ry). exists y, (put f c). rewrite E. split; [apply in_or_app; left; exact Hy|split; [exact Ry|]].
    intros x Hx. symmetry. apply G', Hx.
  - destruct (IH N2 ltac:(discriminate) n (S s) (put f c)) as (r & Hr).
    + cbn [length] in L |- *. lia.
    + intros x Hx. destruct (T x (or_intror Hx)) as [T1 T2]. split; [exact T1|]. unfold put, fupd.
      destruct (coord_eqb x c) eqn:E; [|exact T2]. apply coord_eqb_spec in E. subst x. contradiction.
    + exact G'.
    + exists (fun t => if Nat.eqb t s then j else r t). intros d neg O F.
      destruct (Step (fun t => if Nat.eqb t s then j else r t) d neg) as (d2 & neg2 & out & O2 & F2 & _ & E); [rewrite Nat.eqb_refl; reflexivity|exact O|exact F|].
      destruct (Hr d2 neg2 O2 F2) as (x & h & Hx & Rx & Ax). exists x, h. split; [|split; [exact Rx|exact Ax]].
      rewrite E. apply in_or_app. right. rewrite (search_ext dist alpha n _ r (S s)); [exact Hx|].
      intros t Ht. destruct (Nat.eqb_spec t s); [lia|reflexivity].
Qed.

Lemma start_reach g pre u unknown : vb phi p cells g = true -> (forall c, In c cells -> g c = NEG \/ g c = NEU) ->
  (forall i, In i pre -> (i < length cells)%nat /\ g (nth i cells dead0) = NEG) ->
  (forall i, In i unknown <-> (i < length cells)%nat /\ ~ In i pre) -> In u unknown -> g (nth u cells dead0) = NEG ->
  exists r, forall d f, QOk d f ->
  exists x h, In x (snd (start_at phi dist alpha r pre (length unknown) u d)) /\ Recorded x h /\ forall c, In c cells -> h c = g c.
Proof using phi_self phi_sym dist_pos alpha_0 Hnd.
  intros V Two Hp Hu Iu Gu.
  assert (Hlt : forall i, In i (pre ++ [u]) -> (i < length cells)%nat /\ g (nth i cells dead0) = NEG).
  { intros i Hi. apply in_app_iff in Hi. destruct Hi as [Hi|[<-|[]]]; [apply Hp, Hi|]. split; [apply Hu, Iu|exact Gu]. }
  set (f0 := negs cells (pre ++ [u])).
  set (todo := filter (fun c => cs_eqb (g c) NEG && cs_eqb (f0 c) NEU) cells).
  assert (Td : forall c, In c todo <-> In c cells /\ g c = NEG /\ f0 c = NEU).
  { intros c. unfold todo. rewrite filter_In, andb_true_iff. split; intros (H1 & H2 & H3); split; auto.
    - destruct (g c), (f0 c); try discriminate. auto.
    - rewrite H2, H3. auto. }
  assert (F0 : forall c, In c cells -> f0 c = NEG -> g c = NEG).
  { intros c Hc E. unfold f0, negs in E. destruct existsb eqn:X; [|discriminate]. apply existsb_exists in X. destruct X as (i & Hi & X).
    apply coord_eqb_spec in X. subst c. apply Hlt, Hi. }
  assert (G : forall c, In c cells -> g c = if existsb (fun x => coord_eqb x c) todo then NEG else f0 c).
  { intros c Hc. destruct (existsb (fun x => coord_eqb x c) todo) eqn:X.
    - apply existsb_exists in X. destruct X as (x & Hx & X). apply coord_eqb_spec in X. subst x. apply Td in Hx. apply Hx.
    - destruct (negs_two cells (pre ++ [u]) c) as [E|E]; fold f0 in E; rewrite E; [apply F0; auto|].
      destruct (Two c Hc) as [E'|E']; [|exact E']. exfalso.
      assert (X' : existsb (fun x => coord_eqb x c) todo = true); [|rewrite X in X'; discriminate].
      apply existsb_exists. exists c. split; [apply Td; auto|apply coord_eqb_refl]. }
  assert (Hlt' : forall i, In i (pre ++ [u]) -> (i < length cells)%nat) by (intros i Hi; apply Hlt, Hi).
  assert (Pre : forall r d f, QOk d f -> exists d1 out, QOk d1 f0 /\ QFresh d1 f0 /\
     (vb phi p cells f0 = true -> exists y, In y out /\ Recorded y f0) /\
     snd (start_at phi dist alpha r pre (length unknown) u d) = out ++ snd (search dist alpha r (length unknown - 1) 0 d1 (pre ++ [u]))).
  { intros r d f O. unfold start_at. pose proof (start_neg phi p cells Hnd d f (pre ++ [u]) O Hlt') as O1. fold f0 in O1.
    set (d1 := assign_negative _ _) in *. clearbody d1.
    pose proof (q_update phi phi_self phi_sym p cells d1 _ O1) as (O2 & F2 & V2 & _). cbv zeta in *.
    set (d2 := update_after_charge_change phi d1 false true false) in *. clearbody d2.
    destruct (q_record phi p cells Hnd d2 _ O2 F2 V2) as (O3 & F3 & R). destruct (record d2) as [d3 out]. cbn [fst snd] in O3, F3, R.
    exists d3, out. split; [exact O3|split; [exact F3|split]].
    - intros Hv. destruct R as [[_ R]|(y & R & Y)]; [rewrite Hv in R; discriminate|]. exists y. rewrite R. split; [left; reflexivity|exact Y].
    - destruct (search dist alpha r (length unknown - 1) 0 d3 (pre ++ [u])). reflexivity. }
  assert (Dec : todo = [] \/ todo <> []) by (destruct todo; [left; reflexivity|right; discriminate]).
  destruct Dec as [E0|E0].
  - exists (fun _ => 0%nat). intros d f O. destruct (Pre (fun _ => 0%nat) d f O) as (d1 & out & _ & _ & Y & E).
    assert (Ag : forall c, In c cells -> f0 c = g c) by (intros c Hc; rewrite (G c Hc), E0; reflexivity).
    destruct Y as (y & Hy & Ry). { rewrite <- V. apply vb_agree, Ag. }
    exists y, f0. rewrite E. split; [apply in_or_app; left; exact Hy|split; [exact Ry|exact Ag]].
  - assert (L : (length todo <= length unknown - 1)%nat).
    { assert (L1 : (length todo <= length (filter (fun i => negb (Nat.eqb i u)) unknown))%nat).
      { rewrite <- (map_length (fun i => nth i cells dead0) (filter _ unknown)). apply NoDup_incl_length; [apply NoDup_filter, Hnd|].
        intros c Hc. apply Td in Hc. destruct Hc as (H1 & _ & H3). destruct (In_nth cells c dead0 H1) as (i & Hi & Ei).
        apply in_map_iff. exists i. split; [exact Ei|]. unfold f0, negs in H3.
        destruct (existsb (fun i => coord_eqb (nth i cells dead0) c) (pre ++ [u])) eqn:X; [discriminate|].
        assert (Ni : ~ In i (pre ++ [u])).
        { intros C. assert (Y : existsb (fun i => coord_eqb (nth i cells dead0) c) (pre ++ [u]) = true); [|rewrite X in Y; discriminate].
          apply existsb_exists. exists i. split; [exact C|]. rewrite Ei. apply coord_eqb_refl. }
        apply filter_In. split.
        - apply Hu. split; [exact Hi|]. intros C. apply Ni, in_or_app. left. exact C.
        - apply negb_true_iff, Nat.eqb_neq. intros ->. apply Ni, in_or_app. right. left. reflexivity. }
      pose proof (filter_drop u unknown Iu). lia. }
    destruct (q_reach g todo V (NoDup_filter _ Hnd) E0 (length unknown - 1) 0 f0 L) as (r & Hr).
    + intros c Hc. apply Td in Hc. split; apply Hc.
    + exact G.
    + exists r. intros d f O. destruct (Pre r d f O) as (d1 & out & O1 & F1 & _ & E).
      destruct (Hr d1 (pre ++ [u]) O1 F1) as (x & h & Hx & Rx). exists x, h. rewrite E. split; [apply in_or_app; right; exact Hx|exact Rx].
Qed.

Lemma rounds_late r late pre m todo : (forall n j, late n j = false) -> forall d, r_late (rounds phi dist alpha r late pre m todo d) = false.
Proof.
  intros H. induction todo as [|[n [j u]] todo IH]; intros d; cbn [rounds]; [reflexivity|]. rewrite H.
  destruct start_at as [d1 out]. cbn [r_late]. apply IH.
Qed.
Lemma rounds_reach r late pre m n j u todo (P : cds -> Prop) : (forall n j, late n j = false) ->
  (forall d f, QOk d f -> exists x, In x (snd (start_at phi dist alpha (r n j) pre m u d)) /\ P x) ->
  (forall i, In i pre -> (i < length cells)%nat) -> (forall x, In x todo -> (snd (snd x) < length cells)%nat) ->
  In (n, (j, u)) todo -> forall d f, QOk d f -> exists x, In x (r_out (rounds phi dist alpha r late pre m todo d)) /\ P x.
Proof using phi_self phi_sym Hnd.
  intros Hl Hs Hp. induction todo as [|[n' [j' u']] todo IH]; intros Ht Hin d f O; [destruct Hin|]. cbn [rounds]. rewrite Hl.
  assert (H : forall i, In i (pre ++ [u']) -> (i < length cells)%nat).
  { intros i Hi. apply in_app_iff in Hi. destruct Hi as [Hi|[<-|[]]]; [apply Hp, Hi|]. apply (Ht (n', (j', u'))). left. reflexivity. }
  destruct Hin as [E|Hin].
  - inversion E; subst. destruct (Hs d f O) as (x & Hx & Px). destruct start_at as [d1 out]. cbn [r_out snd] in *.
    exists x. split; [apply in_or_app; left; exact Hx|exact Px].
  - destruct (q_start phi dist phi_self phi_sym p cells Hnd alpha (r n' j') pre m u' d f O H) as ((f' & O') & _).
    destruct start_at as [d1 out]. cbn [fst] in O'. cbn [r_out].
    destruct (IH (fun x Hx => Ht x (or_intror Hx)) Hin d1 f' O') as (x & Hx & Px). exists x. split; [apply in_or_app; right; exact Hx|exact Px].
Qed.

Lemma core_reach g pre unk st iters late : vb phi p cells g = true -> (forall c, In c cells -> g c = NEG \/ g c = NEU) ->
  (forall i, In i unk <-> (i < length cells)%nat /\ ~ In i pre) -> (forall i, In i pre -> (i < length cells)%nat /\ g (nth i cells dead0) = NEG) ->
  NoDup pre -> QOk st (negs cells pre) -> d_valid st = vb phi p cells (negs cells pre) ->
  (d_valid st = true -> Recorded st (negs cells pre)) -> (forall n j, late n j = false) -> (iters <> 0)%nat ->
  exists r, exists x, (In x (r_out (thread phi dist alpha (fun _ _ => r) late iters pre unk st)) \/ (x = st /\ d_valid st = true)) /\
  exists h, Recorded x h /\ forall c, In c cells -> h c = g c.
Proof using phi_self phi_sym dist_pos alpha_0 Hnd.
  intros V Two Hu Hp Np O Vs Rs Lt It.
  destruct (existsb (fun i => cs_eqb (g (nth i cells dead0)) NEG) unk) eqn:X.
  - apply existsb_exists in X. destruct X as (u & Iu & Gu). pose proof (cs_neg _ Gu) as Gu'.
    destruct (start_reach g pre u unk V Two Hp Hu Iu Gu') as (r & Hr). destruct (In_nth unk u 0%nat Iu) as (j & Hj & Ej).
    assert (Hlen : Nat.eqb (length pre) (length (d_order st)) = false).
    { rewrite (proj1 (qk_charges _ _ _ _ _ O)). apply Nat.eqb_neq. intros E.
      assert (Inc : incl (seq 0 (length cells)) pre).
      { apply NoDup_length_incl; [exact Np|rewrite seq_length, E; reflexivity|]. intros i Hi. apply in_seq.
        destruct (Hp i Hi) as [Hi' _]. clear - Hi'. lia. }
      pose proof (proj1 (Hu u) Iu) as [U1 U2]. apply U2, Inc, in_seq. clear - U1. lia. }
    exists r. cut (exists x, In x (r_out (thread phi dist alpha (fun _ _ => r) late iters pre unk st)) /\
      exists h, Recorded x h /\ forall c, In c cells -> h c = g c).
    { intros (x & H1 & H2). exists x. split; [left; exact H1|exact H2]. }
    unfold thread. rewrite Hlen.
    apply (rounds_reach (fun _ _ => r) late pre (length unk) 0%nat j u _
      (fun x => exists h, Recorded x h /\ forall c, In c cells -> h c = g c)) with (f := negs cells pre).
    + exact Lt.
    + intros d f Od. destruct (Hr d f Od) as (x & h & H1 & H2 & H3). exists x. split; [exact H1|]. exists h. exact (conj H2 H3).
    + intros i Hi. apply Hp, Hi.
    + intros [a [b c]] Hx. apply in_prod_iff in Hx. destruct Hx as [_ Hx]. apply in_combine_r in Hx. cbn. apply Hu, Hx.
    + apply in_prod_iff. split; [apply in_seq; clear - It; lia|].
      rewrite <- Ej. replace j with (nth j (seq 0 (length unk)) 0%nat) at 1 by (rewrite seq_nth by exact Hj; reflexivity).
      rewrite <- combine_nth by apply seq_length. apply nth_In. rewrite combine_length, seq_length. clear - Hj. lia.
    + exact O.
  - assert (Ag : forall c, In c cells -> negs cells pre c = g c).
    { intros c Hc. unfold negs. destruct (existsb (fun i => coord_eqb (nth i cells dead0) c) pre) eqn:Y.
      - apply existsb_exists in Y. destruct Y as (i & Hi & E). apply coord_eqb_spec in E. subst c. symmetry. apply Hp, Hi.
      - destruct (Two c Hc) as [E|E]; [exfalso|symmetry; exact E]. destruct (In_nth cells c dead0 Hc) as (i & Hi & Ei).
        assert (Ni : ~ In i pre).
        { intros C. assert (Z' : existsb (fun i => coord_eqb (nth i cells dead0) c) pre = true); [|rewrite Y in Z'; discriminate].
          apply existsb_exists. exists i. split; [exact C|]. rewrite Ei. apply coord_eqb_refl. }
        assert (Z' : existsb (fun i => cs_eqb (g (nth i cells dead0)) NEG) unk = true); [|rewrite X in Z'; discriminate].
        apply existsb_exists. exists i. split; [exact (proj2 (Hu i) (conj Hi Ni))|]. rewrite Ei, E. reflexivity. }
    assert (Vt : d_valid st = true) by (rewrite Vs, <- V; apply vb_agree, Ag).
    exists (fun _ => 0%nat), st. split; [right; exact (conj eq_refl Vt)|]. exists (negs cells pre). exact (conj (Rs Vt) Ag).
Qed.
End Fixed.
End Reach.

(** The threads and what is appended before they start. *)
Lemma firsts_started phi k l p : d_valid (started phi k l p) = true -> In (started phi k l p) (firsts phi k l p).
Proof.
  intros H. unfold firsts. rewrite H. generalize (started phi k l p). intros d.
  generalize (if d_valid (all_negative phi k l p) then [all_negative phi k l p] else []).
  generalize (if negb match predefined phi k l p with [] => true | _ :: _ => false end && d_valid (all_neutral phi k l p)
    then [all_neutral phi k l p] else []). intros a b. apply in_or_app. right. apply in_or_app. right. left. reflexivity.
Qed.
Lemma runs_first phi k dist l p steps threads alpha rnd late :
  In (thread phi dist alpha (rnd 0%nat) (late 0%nat) (Nat.max (steps / Nat.max threads 1) 1) (predefined phi k l p) (unknowns phi k l p) (started phi k l p))
     (runs phi k dist l p steps threads alpha rnd late).
Proof.
  unfold runs. generalize (predefined phi k l p) (unknowns phi k l p) (started phi k l p). intros a b c.
  apply in_map_iff. exists 0%nat. split; [reflexivity|]. apply in_seq. lia.
Qed.
Lemma found_in phi k dist l p steps threads alpha rnd late x :
  (In x (r_out (thread phi dist alpha (rnd 0%nat) (late 0%nat) (Nat.max (steps / Nat.max threads 1) 1) (predefined phi k l p) (unknowns phi k l p) (started phi k l p)))
   \/ (x = started phi k l p /\ d_valid (started phi k l p) = true)) ->
  In x (firsts phi k l p ++ concat (map r_out (runs phi k dist l p steps threads alpha rnd late))).
Proof.
  intros H. pose proof (firsts_started phi k l p) as A. pose proof (runs_first phi k dist l p steps threads alpha rnd late) as B. revert H A B.
  generalize (thread phi dist alpha (rnd 0%nat) (late 0%nat) (Nat.max (steps / Nat.max threads 1) 1) (predefined phi k l p) (unknowns phi k l p) (started phi k l p)).
  generalize (runs phi k dist l p steps threads alpha rnd late) (started phi k l p) (firsts phi k l p). intros rs st fs t H A B.
  apply in_or_app. destruct H as [H|[-> H]]; [right|left; exact (A H)]. apply in_concat. exists (r_out t). split; [|exact H].
  apply in_map, B.
Qed.
Lemma predefined_eq phi k l p : predefined phi k l p = negative_sidb_detection (all_negative phi k l p).
Proof. unfold predefined. reflexivity. Qed.
Lemma detection_nodup d : NoDup (negative_sidb_detection d).
Proof. unfold negative_sidb_detection. apply NoDup_filter. unfold indices. apply seq_NoDup. Qed.

Lemma runs_late phi k dist l p steps threads alpha rnd late : (forall z n j, late z n j = false) ->
  existsb r_late (runs phi k dist l p steps threads alpha rnd late) = false.
Proof.
  intros Lt. unfold runs. generalize (predefined phi k l p) (unknowns phi k l p) (started phi k l p). intros a b c.
  destruct existsb eqn:E; [|reflexivity]. apply existsb_exists in E. destruct E as (x & Hx & E).
  apply in_map_iff in Hx. destruct Hx as (z & <- & _). unfold thread in E.
  destruct (Nat.eqb (length a) _); [discriminate|]. rewrite (rounds_late phi dist alpha) in E; [discriminate|]. intros; apply Lt.
Qed.
Lemma found_eq (o : outcome) (ub lt : bool) (fs : list cds) (ts : list (list cds)) (x : cds) :
  o = (if ub then Undefined else if lt || match fs ++ concat ts with [] => true | _ => false end then Nothing else Found fs ts) ->
  ub = false -> lt = false -> In x (fs ++ concat ts) -> o = Found fs ts.
Proof. intros -> -> -> H. destruct (fs ++ concat ts); [destruct H|reflexivity]. Qed.

Section Complete.
Context (phi : Qc -> Qc -> coord -> coord -> Qc) (k : kind) (dist : coord -> coord -> Qc)
        (phi_self : forall e l a, phi e l a a = 0%Qc) (phi_sym : forall e l a b, phi e l a b = phi e l b a)
        (phi_pos : forall e l a b, (0 <= phi e l a b)%Qc) (dist_pos : forall a b, (0 <= dist a b)%Qc)
        (alpha : Qc) (alpha_0 : (alpha <= 0)%Qc).
Context (l : layout) (Hl : proper_layout l) (Hdef : l_defects l = []) (p : params).
Let cells := sort_cells (k_ltb k) (l_cells l).
Let p2 := with_base p 2.
Let Hnd : NoDup cells := sorted_nodup k l (pl_cells _ Hl).

Lemma predefined_negative f i : vb phi p2 cells f = true -> In i (predefined phi k l p) -> f (nth i cells dead0) = NEG.
Proof using phi_self phi_sym phi_pos Hl Hdef.
  intros V H. pose proof (predefined_lt phi k phi_self phi_sym l Hl Hdef p i H) as Hi.
  destruct (all_negative_ok phi k phi_self phi_sym l Hl Hdef p) as (O & F & _). rewrite predefined_eq in H.
  exact (detected_negative phi phi_pos p2 cells (all_negative phi k l p) f i O F Hi V H).
Qed.
Lemma predefined_nodup : NoDup (predefined phi k l p).
Proof using. rewrite predefined_eq. apply detection_nodup. Qed.

Lemma quicksim_reach steps threads late g : steps <> 0%nat -> l_cells l <> [] -> (forall z n j, late z n j = false) ->
  vb phi p2 cells g = true -> (forall c, In c cells -> g c = NEG \/ g c = NEU) ->
  exists rnd, exists fs ts, quicksim phi k dist l p steps threads alpha rnd late = Found fs ts /\
  exists x h, In x (fs ++ concat ts) /\ Recorded phi p2 cells x h /\ forall c, In c cells -> h c = g c.
Proof using phi_self phi_sym phi_pos dist_pos alpha_0 Hl Hdef.
  intros St Ne Lt V Two.
  destruct (started_ok phi k phi_self phi_sym l Hl Hdef p) as (S1 & S2 & S3 & S4 & S5).
  destruct (core_reach phi dist phi_self phi_sym dist_pos alpha alpha_0 p2 cells Hnd g (predefined phi k l p) (unknowns phi k l p)
    (started phi k l p) (Nat.max (steps / Nat.max threads 1) 1) (late 0%nat) V Two
    (unknowns_in phi k phi_self phi_sym l Hl Hdef p)
    (fun i Hi => conj (predefined_lt phi k phi_self phi_sym l Hl Hdef p i Hi) (predefined_negative g i V Hi))
    predefined_nodup S1 S3 (full_recorded phi k l p _ _ (conj S1 (conj S2 (conj S3 (conj S4 S5))))) (Lt 0%nat) ltac:(clear; lia))
    as (r & x & Hx & h & Rx & Ax).
  pose proof (found_in phi k dist l p steps threads alpha (fun _ _ _ => r) late x Hx) as I.
  pose proof (quicksim_eq phi k dist l p steps threads alpha (fun _ _ _ => r) late St Ne) as E.
  pose proof (runs_ub phi k dist phi_self phi_sym l Hl Hdef p steps threads alpha (fun _ _ _ => r) late) as U.
  pose proof (runs_late phi k dist l p steps threads alpha (fun _ _ _ => r) late Lt) as L.
  exists (fun _ _ _ => r), (firsts phi k l p), (map r_out (runs phi k dist l p steps threads alpha (fun _ _ _ => r) late)).
  split; [exact (found_eq _ _ _ _ _ x E U L I)|]. exists x, h. exact (conj I (conj Rx Ax)).
Qed.
End Complete.
