(** Proofs about QsimModel.v, part 1: what surfaces hold while QuickSim runs, and that it records valid distributions only. *)
From Coq Require Import ZArith QArith Qcanon Bool List Lia Lqa Permutation.
From Verif Require Import CoordModel CoordProofs UtilModel SidbModel SidbSpec SidbProofs SidbProofs2 SidbProofs3 SidbProofs4 SidbProofs5
  QsimModel QsimSpec.
Import ListNotations.
Local Open Scope Z_scope.

Lemma eqb_swap a b : coord_eqb a b = coord_eqb b a.
Proof.
  destruct (coord_eqb a b) eqn:E, (coord_eqb b a) eqn:F; try reflexivity.
  - apply coord_eqb_spec in E. subst. rewrite coord_eqb_refl in F. discriminate.
  - apply coord_eqb_spec in F. subst. rewrite coord_eqb_refl in E. discriminate.
Qed.

Section QuickSimProofs.
Context (phi : Qc -> Qc -> coord -> coord -> Qc) (k : kind) (dist : coord -> coord -> Qc)
        (phi_self : forall e l a, phi e l a a = 0%Qc) (phi_sym : forall e l a b, phi e l a b = phi e l b a).

Section Fixed.
Context (p : params) (cells : list coord) (Hnd : NoDup cells) (Hlive : Forall (fun c => is_dead c = false) cells).

Definition no_ext : coord -> Qc := fun _ => 0%Qc.
Definition no_def : coord -> Qc := defect_field phi [].
Definition vb (f : coord -> cs) : bool := validb phi p cells no_ext no_def f.
Definition en (f : coord -> cs) : Qc := energy phi p cells [] no_ext f.

(** What holds of the surface all the time. *)
Record QOk (d : cds) (f : coord -> cs) : Prop := mkQOk {
  qk_static : Static phi d cells p no_ext no_def;
  qk_charges : charges cells d f;
  qk_two : forall c, In c cells -> f c = NEG \/ f c = NEU;
  qk_par : d_par d = p;
  qk_dep : d_dep d = dead0;
  qk_three : d_three d = [];
  qk_eng : d_eng d = QUICKSIM
}.

(** What holds of it after an update. *)
Record QFresh (d : cds) (f : coord -> cs) : Prop := mkQFresh {
  qf_int : d_int d = map (lp phi p cells no_def f) cells;
  qf_energy : d_energy d = en f
}.

(** What holds of recorded surfaces. *)
Definition Recorded (d : cds) (f : coord -> cs) : Prop :=
  QOk d f /\ QFresh d f /\ d_valid d = true /\ vb f = true /\ d_idx d = number (p_base p) (map f cells) /\ d_base d = p_base p.

Lemma two_some d f c : QOk d f -> In c cells -> f c <> NON.
Proof. intros O H. destruct (qk_two _ _ O c H) as [-> | ->]; discriminate. Qed.

(** Updates that leave what matters here alone. *)
Lemma qok_set_valid d f v : QOk d f -> QOk (set_valid d v) f.
Proof. intros [[S1 S2 S3 S4 S5 S6 S7 S8 S9 S10 S11 S12 S13] C T P D H E]. split; auto. split; auto. Qed.
Lemma qok_set_int d f v : QOk d f -> QOk (set_int d v) f.
Proof. intros [[S1 S2 S3 S4 S5 S6 S7 S8 S9 S10 S11 S12 S13] C T P D H E]. split; auto. split; auto. Qed.
Lemma qok_set_energy d f v : QOk d f -> QOk (set_energy d v) f.
Proof. intros [[S1 S2 S3 S4 S5 S6 S7 S8 S9 S10 S11 S12 S13] C T P D H E]. split; auto. split; auto. Qed.
Lemma qok_index d f i b s : QOk d f -> QOk (set_sub (set_base (set_idx d i) b) s) f.
Proof. intros [[S1 S2 S3 S4 S5 S6 S7 S8 S9 S10 S11 S12 S13] C T P D H E]. split; auto. split; auto. Qed.
Lemma qok_set_charge d f g : QOk d f -> (forall c, In c cells -> g c = NEG \/ g c = NEU) -> QOk (set_charge d (map g cells)) g.
Proof.
  intros [[S1 S2 S3 S4 S5 S6 S7 S8 S9 S10 S11 S12 S13] C T P D H E] G. split; auto; [split; auto|]. split; [apply C|reflexivity].
Qed.

Lemma q_to_index d f : QOk d f ->
  to_index d = set_sub (set_base (set_idx d (number (p_base p) (map f cells))) (p_base p)) 0.
Proof.
  intros O. rewrite (to_index_plain cells d f Hnd (qk_charges _ _ O)).
  - rewrite (qk_par _ _ O). reflexivity.
  - rewrite (qk_dep _ _ O). reflexivity.
  - apply (qk_three _ _ O).
Qed.

(** The energy as half the sum over the local potentials. *)
Lemma en_half f : (half * total (fun c => lp phi p cells no_def f c * charge (f c)) cells)%Qc = en f.
Proof.
  unfold en. rewrite (energy_quad phi phi_self phi_sym). unfold lin.
  rewrite (total_ext (fun a => (defect_field phi [] a + no_ext a) * charge (f a))%Qc (fun _ => 0%Qc)).
  2:{ intros c _. unfold defect_field, no_ext. cbn. ring. }
  rewrite total_0. transitivity (half * quad phi p cells (fun c => charge (f c)))%Qc; [|ring]. f_equal. unfold quad.
  apply total_ext. intros a _. unfold lp, no_def, defect_field. cbn [total fold_right].
  transitivity (charge (f a) * total (fun b => coulomb phi p a b * charge (f b)) cells)%Qc; [ring|].
  rewrite <- total_scale. apply total_ext. intros b _. ring.
Qed.

Lemma q_update d f : QOk d f -> let d' := update_after_charge_change phi d false true false in
  QOk d' f /\ QFresh d' f /\ d_valid d' = vb f /\ d_idx d' = d_idx d /\ d_base d' = d_base d.
Proof.
  intros O. cbv zeta. unfold update_after_charge_change.
  pose proof (qk_static _ _ O) as S. pose proof (qk_charges _ _ O) as C.
  rewrite (neglect_eq phi d cells p no_def f C (st_pot _ _ _ _ _ _ S) (st_defpot _ _ _ _ _ _ S)).
  set (d1 := set_int d (map (lp phi p cells no_def f) cells)).
  assert (R : recompute_energy phi d1 = set_energy d1 (en f)).
  { unfold recompute_energy. change (d_eng d1) with (d_eng d). rewrite (qk_eng _ _ O). f_equal. rewrite <- en_half.
    f_equal. rewrite sumq_map. unfold indices. change (d_order d1) with (d_order d). rewrite (proj1 C).
    apply (total_seq _ _ _ dead0). intros i Hi. rewrite (qsign_at cells d1 f i C Hi). f_equal. apply nth_map, Hi. }
  rewrite R.
  rewrite (validity_eq phi (set_energy d1 (en f)) cells p no_ext no_def f C (st_pot _ _ _ _ _ _ S) (st_ext _ _ _ _ _ _ S)
    (st_bounds _ _ _ _ _ _ S) eq_refl).
  split; [|split; [|split; [|split]]]; try reflexivity.
  - apply qok_set_valid, qok_set_energy, qok_set_int, O.
  - split; reflexivity.
Qed.

Lemma q_validity d f : QOk d f -> QFresh d f -> validity_check d = set_valid d (vb f).
Proof.
  intros O F. pose proof (qk_static _ _ O) as S.
  apply validity_eq; [apply (qk_charges _ _ O)|apply (st_pot _ _ _ _ _ _ S)|apply (st_ext _ _ _ _ _ _ S)|apply (st_bounds _ _ _ _ _ _ S)|apply F].
Qed.

Lemma q_record d f : QOk d f -> QFresh d f -> d_valid d = vb f ->
  QOk (fst (record d)) f /\ QFresh (fst (record d)) f /\
  (snd (record d) = [] /\ vb f = false \/ exists r, snd (record d) = [r] /\ Recorded r f).
Proof.
  intros O F V. unfold record. rewrite V. destruct (vb f) eqn:E.
  - cbv zeta. cbn [fst snd]. rewrite (q_to_index d f O).
    assert (O' := qok_index d f (number (p_base p) (map f cells)) (p_base p) 0 O).
    assert (F' : QFresh (set_sub (set_base (set_idx d (number (p_base p) (map f cells))) (p_base p)) 0) f).
    { destruct F as [F1 F2]. split; [exact F1|exact F2]. }
    split; [exact O'|split; [exact F'|]]. right. eexists. split; [reflexivity|].
    split; [exact O'|split; [exact F'|split; [exact V|split; [exact E|split; reflexivity]]]].
  - cbn [fst snd]. split; [exact O|split; [exact F|left; auto]].
Qed.

(** Placing an electron. *)
Definition put (f : coord -> cs) (c : coord) : coord -> cs := fupd f c NEG.
Lemma put_same f c : put f c c = NEG.
Proof. unfold put, fupd. rewrite coord_eqb_refl. reflexivity. Qed.
Lemma charge_put f c x : f c = NEU -> charge (put f c x) = (charge (f x) - ind c x)%Qc.
Proof.
  intros H. unfold put, fupd, ind. destruct (coord_eqb x c) eqn:E.
  - apply coord_eqb_spec in E. subst. rewrite H. cbn. ring.
  - ring.
Qed.
Lemma lp_put f c x : In c cells -> f c = NEU -> lp phi p cells no_def (put f c) x = (lp phi p cells no_def f x - coulomb phi p x c)%Qc.
Proof.
  intros I H. unfold lp.
  rewrite (total_ext _ (fun b => (coulomb phi p x b * charge (f b) + (- coulomb phi p x b) * ind c b)%Qc)).
  2:{ intros b _. rewrite (charge_put f c b H). ring. }
  rewrite total_plus, (total_ind (fun b => - coulomb phi p x b)%Qc c cells Hnd I). ring.
Qed.
Lemma en_put f c : In c cells -> f c = NEU -> en (put f c) = (en f - lp phi p cells no_def f c)%Qc.
Proof.
  intros I H. rewrite <- !en_half.
  rewrite (total_ext (fun x => lp phi p cells no_def (put f c) x * charge (put f c x))%Qc
    (fun x => lp phi p cells no_def f x * charge (f x) + (- lp phi p cells no_def f x) * ind c x
              + (- (coulomb phi p c x * charge (f x)) + coulomb phi p x c * ind c x))%Qc).
  2:{ intros x _. rewrite (lp_put f c x I H), (charge_put f c x H). rewrite (V_sym phi phi_sym p c x). ring. }
  rewrite !total_plus, (total_ind (fun x => - lp phi p cells no_def f x)%Qc c cells Hnd I),
    (total_ind (fun x => coulomb phi p x c) c cells Hnd I), (V_self phi phi_self p c).
  assert (E : total (fun x => - (coulomb phi p c x * charge (f x)))%Qc cells = (- lp phi p cells no_def f c)%Qc).
  { unfold lp, no_def, defect_field. cbn [total fold_right].
    transitivity (- (1) * total (fun x => coulomb phi p c x * charge (f x)) cells)%Qc.
    - rewrite <- total_scale. apply total_ext. intros x _. ring.
    - change (fold_right (fun (x : coord) (acc : Qc) => (coulomb phi p c x * charge (f x) + acc)%Qc) 0%Qc cells)
        with (total (fun x => coulomb phi p c x * charge (f x))%Qc cells). ring. }
  rewrite E. set (T := total _ cells). set (L := lp phi p cells no_def f c).
  transitivity (half * T - (half * L + half * L))%Qc; [ring|]. rewrite double_half. reflexivity.
Qed.
Lemma two_put f c : (forall x, In x cells -> f x = NEG \/ f x = NEU) -> forall x, In x cells -> put f c x = NEG \/ put f c x = NEU.
Proof. intros H x Hx. unfold put, fupd. destruct (coord_eqb x c); auto. Qed.

Lemma upd_put i f : (i < length cells)%nat -> upd i NEG (map f cells) = map (put f (nth i cells dead0)) cells.
Proof.
  intros H. unfold put. rewrite <- (upd_fupd f (nth i cells dead0) cells NEG Hnd) by (apply nth_In, H).
  rewrite index_in_at by assumption. rewrite Nat2Z.id. reflexivity.
Qed.
Lemma q_place d f i : QOk d f -> QFresh d f -> (i < length cells)%nat -> f (nth i cells dead0) = NEU ->
  QOk (place_electron d i) (put f (nth i cells dead0)) /\ QFresh (place_electron d i) (put f (nth i cells dead0)).
Proof.
  intros O F H N. set (c := nth i cells dead0) in *. assert (Ic : In c cells) by (apply nth_In, H).
  pose proof (qk_charges _ _ O) as C. pose proof (qk_static _ _ O) as S.
  assert (E : place_electron d i = set_int (set_energy (set_charge d (map (put f c) cells)) (en (put f c)))
     (map (lp phi p cells no_def (put f c)) cells)).
  { unfold place_electron. cbn [d_int d_energy set_charge set_energy]. rewrite (proj2 C), (upd_put i f H). fold c.
    rewrite (qf_int _ _ F), (qf_energy _ _ F), (nth_map (lp phi p cells no_def f) cells i dead0) by exact H. fold c.
    rewrite <- (en_put f c Ic N). f_equal. unfold indices. cbn [d_order set_charge set_energy]. rewrite (proj1 C).
    apply (map_seq _ _ _ dead0). intros j Hj. rewrite (nth_map (lp phi p cells no_def f) cells j dead0) by exact Hj.
    rewrite (lp_put f c _ Ic N). f_equal. f_equal. apply (pot_at phi _ cells p j i); [apply (st_pot _ _ _ _ _ _ S)|exact Hj|exact H]. }
  rewrite E. split.
  - apply qok_set_int, qok_set_energy, (qok_set_charge d f); [exact O|]. apply two_put, (qk_two _ _ O).
  - split; reflexivity.
Qed.

Lemma neutral_in d f i : QOk d f -> In i (neutral_indices d) <-> (i < length cells)%nat /\ f (nth i cells dead0) = NEU.
Proof.
  intros O. pose proof (qk_charges _ _ O) as C. unfold neutral_indices. rewrite filter_In, in_seq, (proj2 C), map_length.
  split.
  - intros [H1 H2]. split; [lia|]. rewrite (nth_map f cells i dead0) in H2 by lia. destruct (f (nth i cells dead0)); try discriminate. reflexivity.
  - intros [H1 H2]. split; [lia|]. rewrite (nth_map f cells i dead0) by lia. rewrite H2. reflexivity.
Qed.

Lemma q_adjacent alpha r d f neg : QOk d f -> QFresh d f ->
  exists f', QOk (fst (adjacent_search dist alpha r d neg)) f' /\ QFresh (fst (adjacent_search dist alpha r d neg)) f'.
Proof.
  intros O F. unfold adjacent_search. destruct (candidates dist alpha d neg) as [|c0 cs0] eqn:E; [exists f; auto|].
  cbv zeta. cbn [fst]. set (i := nth _ _ _).
  assert (Hi : In i (neutral_indices d)).
  { assert (In i (candidates dist alpha d neg)) as H.
    { rewrite E. apply nth_In. apply Nat.mod_upper_bound. discriminate. }
    apply filter_In in H. apply H. }
  apply (neutral_in d f i O) in Hi. eexists. apply (q_place d f i O F); apply Hi.
Qed.

Lemma q_search alpha r n : forall s d f neg, QOk d f -> QFresh d f ->
  (exists f', QOk (fst (search dist alpha r n s d neg)) f') /\
  (forall x, In x (snd (search dist alpha r n s d neg)) -> exists g, Recorded x g).
Proof.
  induction n as [|n IH]; intros s d f neg O F; cbn [search]; [cbn; split; [exists f; exact O|intros x []]|].
  pose proof (q_adjacent alpha (r s) d f neg O F) as (f' & O' & F').
  destruct (adjacent_search dist alpha (r s) d neg) as [d1 neg1]. cbn [fst] in O', F'.
  rewrite (q_validity d1 f' O' F').
  assert (F2 : QFresh (set_valid d1 (vb f')) f') by (destruct F' as [F1 F2]; split; [exact F1|exact F2]).
  pose proof (q_record (set_valid d1 (vb f')) f' (qok_set_valid _ _ _ O') F2 eq_refl) as (O3 & F3 & R).
  destruct (record (set_valid d1 (vb f'))) as [d2 out]. cbn [fst snd] in O3, F3, R.
  specialize (IH (S s) d2 f' neg1 O3 F3). destruct (search dist alpha r n (S s) d2 neg1) as [d3 rest]. cbn [fst snd] in *.
  split; [apply IH|]. intros x Hx. apply in_app_iff in Hx. destruct Hx as [Hx|Hx]; [|apply IH, Hx].
  destruct R as [[R _]|(y & R & Y)]; rewrite R in Hx; [destruct Hx|]. destruct Hx as [<-|[]]. exists f'. exact Y.
Qed.

(** Which SiDBs are negatively charged: those with the given indices. *)
Definition negs (l : list nat) (c : coord) : cs :=
  if existsb (fun i => coord_eqb (nth i cells dead0) c) l then NEG else NEU.
Lemma negs_two l c : negs l c = NEG \/ negs l c = NEU.
Proof. unfold negs. destruct existsb; auto. Qed.
Lemma assign_negative_eq l : forall d f, QOk d f -> (forall i, In i l -> (i < length cells)%nat) ->
  assign_negative d l = set_charge d (map (fun c => if existsb (fun i => coord_eqb (nth i cells dead0) c) l then NEG else f c) cells).
Proof.
  induction l as [|i l IH]; intros d f O H.
  - cbn. apply charge_set. apply (qk_charges _ _ O).
  - cbn [assign_negative fold_left]. pose proof (qk_charges _ _ O) as C.
    assert (Hi : (i < length cells)%nat) by (apply H; left; reflexivity).
    assert (E : assign_by_index d (Z.of_nat i) NEG = set_charge d (map (put f (nth i cells dead0)) cells)).
    { unfold assign_by_index. rewrite (proj2 C), map_length.
      destruct (Z.leb_spec 0 (Z.of_nat i)); [|lia]. destruct (Z.ltb_spec (Z.of_nat i) (Z.of_nat (length cells))); [|lia].
      cbn [andb]. rewrite Nat2Z.id, (upd_put i f Hi). reflexivity. }
    rewrite E. fold (assign_negative (set_charge d (map (put f (nth i cells dead0)) cells)) l).
    rewrite (IH _ (put f (nth i cells dead0))).
    + change (set_charge (set_charge d ?a) ?b) with (set_charge d b). f_equal. apply map_ext. intros c. cbn [existsb].
      unfold put, fupd. rewrite (eqb_swap (nth i cells dead0) c).
      destruct (coord_eqb c (nth i cells dead0)); cbn [orb]; [|reflexivity]. destruct existsb; reflexivity.
    + apply (qok_set_charge d f); [exact O|]. apply two_put, (qk_two _ _ O).
    + intros j Hj. apply H. right. exact Hj.
Qed.
Lemma start_neg d f l : QOk d f -> (forall i, In i l -> (i < length cells)%nat) ->
  QOk (assign_negative (set_charge d (map (fun _ => NEU) (d_charge d))) l) (negs l) .
Proof.
  intros O H. rewrite (proj2 (qk_charges _ _ O)), map_map.
  rewrite (assign_negative_eq l _ (fun _ => NEU)); [|apply (qok_set_charge d f); auto|exact H].
  change (set_charge (set_charge d ?a) ?b) with (set_charge d b). apply (qok_set_charge d f); [exact O|]. intros c _. apply negs_two.
Qed.

Lemma q_start alpha r pre m u d f : QOk d f -> (forall i, In i (pre ++ [u]) -> (i < length cells)%nat) ->
  (exists f', QOk (fst (start_at phi dist alpha r pre m u d)) f') /\
  (forall x, In x (snd (start_at phi dist alpha r pre m u d)) -> exists g, Recorded x g).
Proof.
  intros O H. unfold start_at. pose proof (start_neg d f (pre ++ [u]) O H) as O1.
  set (d1 := assign_negative _ _) in *. pose proof (q_update d1 _ O1) as (O2 & F2 & V2 & _).
  set (d2 := update_after_charge_change phi d1 false true false) in *.
  pose proof (q_record d2 _ O2 F2 V2) as (O3 & F3 & R). destruct (record d2) as [d3 out]. cbn [fst snd] in O3, F3, R.
  pose proof (q_search alpha r (m - 1) 0 d3 _ (pre ++ [u]) O3 F3) as (O4 & S4).
  destruct (search dist alpha r (m - 1) 0 d3 (pre ++ [u])) as [d4 rest]. cbn [fst snd] in *. split; [exact O4|].
  intros x Hx. apply in_app_iff in Hx. destruct Hx as [Hx|Hx]; [|apply S4, Hx].
  destruct R as [[R _]|(y & R & Y)]; rewrite R in Hx; [destruct Hx|]. destruct Hx as [<-|[]]. eexists. exact Y.
Qed.

Lemma q_rounds alpha r late pre m todo : forall d f, QOk d f ->
  (forall i, In i pre -> (i < length cells)%nat) -> (forall x, In x todo -> (snd (snd x) < length cells)%nat) ->
  r_ub (rounds phi dist alpha r late pre m todo d) = false /\
  (forall x, In x (r_out (rounds phi dist alpha r late pre m todo d)) -> exists g, Recorded x g).
Proof.
  induction todo as [|[n [j u]] todo IH]; intros d f O Hp Ht; cbn [rounds].
  - cbn. split; [apply (qk_static _ _ O)|intros x []].
  - destruct (late n j). { cbn. split; [apply (qk_static _ _ O)|intros x []]. }
    assert (H : forall i, In i (pre ++ [u]) -> (i < length cells)%nat).
    { intros i Hi. apply in_app_iff in Hi. destruct Hi as [Hi|[<-|[]]]; [apply Hp, Hi|]. apply (Ht (n, (j, u))). left. reflexivity. }
    pose proof (q_start alpha (r n j) pre m u d f O H) as ((f' & O') & S').
    destruct (start_at phi dist alpha (r n j) pre m u d) as [d1 out]. cbn [fst snd] in *.
    destruct (IH d1 f' O' Hp) as [U R]. { intros x Hx. apply Ht. right. exact Hx. }
    split; [exact U|]. intros x Hx. apply in_app_iff in Hx. destruct Hx as [Hx|Hx]; auto.
Qed.

Lemma q_thread alpha r late n pre unknown d f : QOk d f ->
  (forall i, In i pre -> (i < length cells)%nat) -> (forall i, In i unknown -> (i < length cells)%nat) ->
  r_ub (thread phi dist alpha r late n pre unknown d) = false /\
  (forall x, In x (r_out (thread phi dist alpha r late n pre unknown d)) -> exists g, Recorded x g).
Proof.
  intros O Hp Hu. unfold thread. destruct Nat.eqb. { cbn. split; [apply (qk_static _ _ O)|intros x []]. }
  apply (q_rounds _ _ _ _ _ _ d f O Hp). intros [a [b c]] Hx. apply in_prod_iff in Hx. destruct Hx as [_ Hx].
  apply in_combine_r in Hx. cbn. apply Hu, Hx.
Qed.

(** Storing the index after each assignment. *)
Lemma assign_update_ok l : forall d f, QOk d f -> (forall i, In i l -> (i < length cells)%nat) ->
  d_idx d = number (p_base p) (map f cells) -> d_base d = p_base p ->
  let g := fun c => if existsb (fun i => coord_eqb (nth i cells dead0) c) l then NEG else f c in
  QOk (assign_negative_update d l) g /\ d_idx (assign_negative_update d l) = number (p_base p) (map g cells) /\
  d_base (assign_negative_update d l) = p_base p.
Proof.
  induction l as [|i l IH]; intros d f O H Ix Bs g.
  - cbn [assign_negative_update fold_left]. split; [exact O|split; [exact Ix|exact Bs]].
  - cbn [assign_negative_update fold_left].
    pose proof (assign_negative_eq [i] d f O) as A. cbn [assign_negative fold_left] in A. rewrite A.
    2:{ intros j [<-|[]]. apply H. left. reflexivity. }
    set (f1 := fun c => if existsb (fun i => coord_eqb (nth i cells dead0) c) [i] then NEG else f c).
    assert (O1 : QOk (set_charge d (map f1 cells)) f1).
    { apply (qok_set_charge d f _ O). intros c Hc. unfold f1. destruct existsb; [auto|apply (qk_two _ _ O c Hc)]. }
    rewrite (q_to_index _ f1 O1).
    set (d1 := set_sub _ 0). fold (assign_negative_update d1 l).
    destruct (IH d1 f1 (qok_index _ _ _ _ _ O1)) as (G1 & G2 & G3); [intros j Hj; apply H; right; exact Hj|reflexivity|reflexivity|].
    assert (E : map (fun c => if existsb (fun i => coord_eqb (nth i cells dead0) c) l then NEG else f1 c) cells = map g cells).
    { apply map_ext. intros c. unfold f1, g. cbn [existsb]. rewrite orb_false_r. destruct (coord_eqb (nth i cells dead0) c); cbn [orb];
        [destruct existsb|]; reflexivity. }
    split; [|split; [rewrite <- E; exact G2|exact G3]].
    destruct G1 as [Q1 Q2 Q3 Q4 Q5 Q6 Q7]. split; auto.
    + destruct Q2 as [Q2 Q2']. split; [exact Q2|]. rewrite <- E. exact Q2'.
    + intros c Hc. unfold g. destruct existsb; [auto|apply (qk_two _ _ O c Hc)].
Qed.
End Fixed.
End QuickSimProofs.
