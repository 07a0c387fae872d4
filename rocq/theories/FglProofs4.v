(** What is written for a finished layout, and what the reader creates from it: the gates. *)
From Coq Require Import ZArith Bool String Ascii List Lia Permutation.
From stdpp Require Import gmap list strings.
From Verif Require Import CoordModel CoordSpec CoordProofs GridModel GridSpec GridProps CoordMap ClockModel ClockSpec ClockProofs
  GateModel GateSpec GateProofs GateProofs2 GateProofs3 RouteModel RouteSpec RouteProofs BuildProofs FglModel FglSpec FglProofs FglProofs2 FglProofs3.
From Verif Require CellProofs.
From Coq Require Import String List.
Import ListNotations.
Local Open Scope nat_scope.

Lemma gate_cl_shape cl ops st : reached cl ops st -> cl_topo (g_cl st) = cl_topo cl /\ cl_dim (g_cl st) = cl_dim cl.
Proof. intros R. destruct (run_assigns _ _ _ R) as (h & E & _). cbn [g_cl g_empty] in E. rewrite E. destruct (assign_all_shape cl h) as (A & B & _). auto. Qed.

Lemma nodup_disjoint {A} (l1 l2 : list A) x : List.NoDup (l1 ++ l2) -> In x l1 -> In x l2 -> False.
Proof.
  intros N1 K H. apply in_split in H. destruct H as (a & b & ->). rewrite app_assoc in N1. apply NoDup_remove_2 in N1. apply N1.
  apply in_app_iff. left. apply in_app_iff. left. exact K.
Qed.
Section Layout.
Variables (cl : clocked) (ops : list gop) (st : glayout).
Hypothesis HI : fgl_input cl ops st.
Let W := HW cl ops st HI.
Let F := fg_finished _ _ _ HI.

Definition item_of (n : nat) : item :=
  if is_pi st n then IPi (get_name st n) (get_tile st n)
  else if is_po st n then IPo (hd const0 (foreach_fanin true st n)) (get_name st n) (get_tile st n)
  else ILit (foreach_fanin true st n) (n_lit (node_at st n)) (get_tile st n).
Lemma item_tile n : i_tile (item_of n) = get_tile st n.
Proof. unfold item_of. destruct (is_pi st n); [reflexivity|]. destruct (is_po st n); reflexivity. Qed.
Lemma item_pi n : is_ipi (item_of n) = is_pi st n.
Proof. unfold item_of. destruct (is_pi st n); [reflexivity|]. destruct (is_po st n); reflexivity. Qed.
Lemma pi_not_po n : is_pi st n = true -> is_po st n = false.
Proof.
  intros H. apply not_true_is_false. intros K. apply po_iff in K. destruct K as (t & Ht & E). pose proof (fi_po _ F t Ht) as (_ & _ & NP & _).
  rewrite E in NP. congruence.
Qed.
Lemma item_po n : is_ipo (item_of n) = is_po st n.
Proof. unfold item_of. destruct (is_pi st n) eqn:E; [cbn; symmetry; apply pi_not_po, E|]. destruct (is_po st n); reflexivity. Qed.
Lemma fits_occ t : occupied st t -> fits t.
Proof.
  intros [(A & B & C & D) _]. pose proof (w_dim _ W) as (X & Y & Q). split; [exact A|]. split; [lia|]. split; [lia|]. lia.
Qed.
Lemma fanin_fits n : good st n -> Forall fits (foreach_fanin true st n).
Proof. intros G. apply Forall_forall. intros s Hs. apply fits_occ. apply (flow_at _ _ _ HI n s G Hs). Qed.
Lemma po_lit n : is_po st n = true -> n_lit (node_at st n) = 2%Z.
Proof. intros K. apply po_iff in K. destruct K as (t & Ht & E). pose proof (fi_po _ F t Ht) as (_ & Wi & _). rewrite E in Wi. apply Z.eqb_eq, Wi. Qed.
Lemma gate_fn_at n : good st n -> is_pi st n = false -> exists f, n_lit (node_at st n) = lit_of f /\ length (foreach_fanin true st n) = arity f.
Proof.
  intros G NP. destruct (good_occ _ _ _ HI n G) as (O & E & _). destruct (fi_gate _ F (get_tile st n) O) as (f & A & B); [rewrite E; exact NP|].
  rewrite E in A. rewrite (flow_data _ _ _ HI n G) in B. eauto.
Qed.

(** What one gate becomes. *)
Record entry_ok (n : nat) (id : Z) (g : fgate) : Prop := {
  eo_id : fg_id g = id;
  eo_type : printable (fg_type g);
  eo_name : (fg_type g = "PI" \/ fg_type g = "PO")%string -> printable (fg_name g);
  eo_noname : ~ (fg_type g = "PI" \/ fg_type g = "PO")%string -> fg_name g = ""%string;
  eo_loc : fg_loc g = get_tile st n;
  eo_in : Forall fits (fg_in g);
  eo_place : forall st', (forall a, In a (foreach_fanin true st n) -> signal_of st' a = a) -> place_gate st' g = Ok (run_item st' (item_of n))
}.
Lemma printable_word s : blank s = false -> plain s = true -> printable s.
Proof. split; assumption. Qed.
Lemma pi_entry_ok n id : In n (g_in st) -> entry_ok n id (pi_entry st id n).
Proof.
  intros H. pose proof (fi_pi _ F n H) as (_ & _ & P). assert (E : is_pi st n = true) by (apply pi_iff; exact H). constructor; cbn; try reflexivity; auto.
  - split; reflexivity.
  - tauto.
  - intros st' _. unfold item_of. rewrite E. reflexivity.
Qed.
Lemma gate_entry_ok n id : good st n -> is_pi st n = false -> exists g, gate_entry st id n = Ok g /\ fg_in g = foreach_fanin true st n /\ entry_ok n id g.
Proof.
  intros G NP. destruct (gate_fn_at n G NP) as (f & L & A). unfold gate_entry. rewrite (flow_data _ _ _ HI n G).
  pose proof (fanin_fits n G) as FF. pose proof (po_lit n) as PL.
  assert (PN : is_po st n = true -> printable (get_name st n)).
  { intros K. apply po_iff in K. destruct K as (t & Ht & E). pose proof (fi_po _ F t Ht) as (_ & _ & _ & P). rewrite E in P. exact P. }
  assert (IT : item_of n = if is_po st n then IPo (hd const0 (foreach_fanin true st n)) (get_name st n) (get_tile st n)
                           else ILit (foreach_fanin true st n) (n_lit (node_at st n)) (get_tile st n)) by (unfold item_of; rewrite NP; reflexivity).
  destruct (foreach_fanin true st n) as [|a [|b [|c [|d r]]]] eqn:EF; destruct f; cbn [arity length] in A; try discriminate A; clear A;
    unfold gate_type, lit_is; rewrite L; cbv [length lit_of Z.eqb Pos.eqb];
    try (assert (PO0 : is_po st n = false) by (apply not_true_is_false; intros K; specialize (PL K); rewrite L in PL; discriminate PL); rewrite ?PO0 in *);
    try (eexists; split; [reflexivity|]; split; [reflexivity|];
      constructor; cbn [fg_id fg_type fg_name fg_loc fg_in];
      [reflexivity|split; reflexivity|intros [K|K]; discriminate K|reflexivity|reflexivity|exact FF|
       intros st' H; rewrite EF in H; rewrite IT, L; unfold place_gate, named_fn2; cbn [fg_in fg_type fg_name fg_loc String.eqb Ascii.eqb Bool.eqb];
       rewrite ?(H a) by (left; reflexivity); rewrite ?(H b) by (right; left; reflexivity); rewrite ?(H c) by (right; right; left; reflexivity); reflexivity]).
  destruct (is_po st n) eqn:PO1; cbn [rbind]; (eexists; split; [reflexivity|]; split; [reflexivity|]).
  - constructor; cbn [fg_id fg_type fg_name fg_loc fg_in]; [reflexivity|split; reflexivity|intros _; apply PN; reflexivity|intros K; exfalso; apply K; right; reflexivity|reflexivity|exact FF|].
    intros st' H. rewrite EF in H. rewrite IT. unfold place_gate. cbn [fg_in fg_type fg_name fg_loc]. rewrite (H a) by (left; reflexivity). reflexivity.
  - constructor; cbn [fg_id fg_type fg_name fg_loc fg_in]; [reflexivity|split; reflexivity|intros [K|K]; discriminate K|reflexivity|reflexivity|exact FF|].
    intros st' H. rewrite EF in H. rewrite IT, L. unfold place_gate. cbn [fg_in fg_type fg_name fg_loc]. rewrite (H a) by (left; reflexivity). reflexivity.
Qed.

(** All of them, in order. *)
Lemma gate_entries_ok ns : forall k, (forall n, In n ns -> good st n /\ is_pi st n = false) ->
  exists fs, rmap (fun p => gate_entry st (fst p) (snd p)) (numbered k ns) = Ok fs /\ map fg_id fs = map Z.of_nat (seq k (length fs)) /\
    Forall2 (fun n g => fg_in g = foreach_fanin true st n /\ exists id, entry_ok n id g) ns fs.
Proof.
  induction ns as [|n r IH]; intros k H; [exists []; repeat split; constructor|].
  destruct (IH (S k) (fun m Hm => H m (or_intror Hm))) as (fs & E & I1 & P). destruct (H n (or_introl eq_refl)) as [G NP].
  destruct (gate_entry_ok n (Z.of_nat k) G NP) as (g & Eg & Fi & Ok1). exists (g :: fs). split; [|split].
  - unfold numbered in *. cbn [length seq map combine rmap fst snd]. rewrite Eg. cbn [rbind]. rewrite E. reflexivity.
  - cbn [map length seq]. rewrite (eo_id _ _ _ Ok1), I1. reflexivity.
  - constructor; [split; [exact Fi|eauto]|exact P].
Qed.
Lemma pi_entries_ok ns : forall k, (forall n, In n ns -> In n (g_in st)) ->
  let ps := map (fun p => pi_entry st (fst p) (snd p)) (numbered k ns) in
  map fg_id ps = map Z.of_nat (seq k (length ps)) /\ length ps = length ns /\ Forall2 (fun n g => fg_in g = [] /\ exists id, entry_ok n id g) ns ps.
Proof.
  induction ns as [|n r IH]; intros k H; [repeat split; constructor|].
  destruct (IH (S k) (fun m Hm => H m (or_intror Hm))) as (I1 & L & P). unfold numbered in *. cbn [length seq map combine fst snd]. cbv zeta in *.
  cbn [map length seq]. split; [|split].
  - f_equal. exact I1.
  - f_equal. exact L.
  - constructor; [|exact P]. split; [reflexivity|]. exists (Z.of_nat k). apply pi_entry_ok, H. left. reflexivity.
Qed.

(** Placing them one after the other. *)
Lemma place_all (cl' : clocked) : forall ns gs done st1,
  built cl' (map item_of done) st1 -> (forall n, In n (done ++ ns) -> good st n) -> List.NoDup (done ++ ns) ->
  (forall l1 n l2, ns = l1 ++ n :: l2 -> forall m, In m (preds st n) -> In m (done ++ l1)) ->
  Forall2 (fun n g => exists id, entry_ok n id g) ns gs ->
  exists st2, rfold place_gate gs st1 = Ok st2 /\ built cl' (map item_of (done ++ ns)) st2.
Proof.
  induction ns as [|n r IH]; intros gs done st1 B G ND O P.
  - inversion P; subst. exists st1. rewrite app_nil_r. split; [reflexivity|exact B].
  - inversion P as [|? g ? gs' [id Hg] P']; subst. cbn [rfold].
    assert (Gn : good st n) by (apply G, in_app_iff; right; left; reflexivity).
    assert (S1 : forall a, In a (foreach_fanin true st n) -> signal_of st1 a = a).
    { intros a Ha. assert (In (get_node st a) done) as K.
      { specialize (O [] n r eq_refl (get_node st a)). rewrite app_nil_r in O. apply O. unfold preds. apply in_map, Ha. }
      unfold signal_of. apply (built_signal _ _ _ _ B). rewrite map_map. apply in_map_iff. exists (get_node st a). split; [|exact K].
      rewrite item_tile. apply (occ_good _ _ _ HI). apply (flow_at _ _ _ HI n a Gn Ha). }
    rewrite (eo_place _ _ _ Hg st1 S1). cbn [rbind].
    assert (B2 : built cl' (map item_of (done ++ [n])) (run_item st1 (item_of n))).
    { rewrite map_app. cbn [map]. apply built_snoc; [exact B|rewrite item_tile; apply Gn|]. rewrite item_tile, map_map. intros K. apply in_map_iff in K. destruct K as (m & E & Hm).
      rewrite item_tile in E. assert (Gm : good st m) by (apply G, in_app_iff; left; exact Hm).
      assert (m = n) as -> by (rewrite <- (proj1 (proj2 (good_occ _ _ _ HI m Gm))), <- (proj1 (proj2 (good_occ _ _ _ HI n Gn))), E; reflexivity).
      apply NoDup_remove_2 in ND. apply ND, in_app_iff. left. exact Hm. }
    replace (done ++ n :: r) with ((done ++ [n]) ++ r) in * by (rewrite <- app_assoc; reflexivity).
    apply (IH gs' (done ++ [n]) _ B2 G ND); [|exact P'].
    intros l1 x l2 E m Hm. rewrite <- app_assoc. cbn [app]. apply (O (n :: l1) x l2); [rewrite E; reflexivity|exact Hm].
Qed.

(** ** Looking at the result *)
Section Result.
Variables (cl' : clocked) (new : list nat) (st2 : glayout).
Hypothesis HB : built cl' (map item_of (g_in st ++ new)) st2.
Hypothesis HND : List.NoDup (start st ++ new).
Hypothesis HO : ordered st (start st ++ new).
Hypothesis HG : forall n, In n new -> good st n.
Hypothesis HP : forall t, In t (g_out st) -> In (get_node st t) new.
Hypothesis Htopo : cl_topo cl' = cl_topo (g_cl st).
Hypothesis Hdim : cl_dim cl' = cl_dim (g_cl st).
Hypothesis Hclk : forall t, inb (cl_dim (g_cl st)) t -> get_clock_number cl' t = get_clock_number (g_cl st) t.
Hypothesis Hnum : num_clocks cl' = num_clocks (g_cl st).
Let ns := g_in st ++ new.
Lemma all_good n : In n ns -> good st n.
Proof. intros H. apply in_app_iff in H. destruct H as [H|H]; [apply (pi_good _ _ _ HI n H)|apply HG, H]. Qed.
Lemma all_nodup : List.NoDup ns.
Proof. unfold start in HND. cbn [app] in HND. inversion HND; subst. inversion H2; subst. assumption. Qed.
Lemma new_not_pi n : In n new -> is_pi st n = false.
Proof.
  intros H. apply not_true_is_false. intros K. apply pi_iff in K. exact (nodup_disjoint _ _ _ all_nodup K H).
Qed.
Lemma all_count : length ns + 2 <= length (g_nodes st).
Proof.
  assert (I1 : incl (start st ++ new) (seq 0 (length (g_nodes st)))).
  { intros n Hn. apply in_seq. cbn [start app] in Hn. pose proof (i_two _ (i_0 _ (w_1 _ W))) as H2.
    destruct Hn as [<-|[<-|Hn]]; [lia|lia|]. split; [lia|]. cbn. apply (good_occ _ _ _ HI n (all_good n Hn)). }
  pose proof (NoDup_incl_length HND I1) as L. rewrite seq_length in L. cbn [start app length] in L. unfold ns. lia.
Qed.
Lemma used_in t : used st t -> In (get_node st t) ns.
Proof.
  induction 1 as [t H|s t Hf Hu IH]; [apply in_app_iff; right; apply HP, H|].
  assert (K : In (get_node st s) (start st ++ new)).
  { eapply (ordered_closed st _ HO (get_node st t)); [|unfold preds; apply in_map, Hf]. unfold start. cbn [app]. right. right. exact IH. }
  unfold start in K. cbn [app] in K. pose proof (all_good _ IH) as Gt.
  destruct (flow_at _ _ _ HI _ s Gt Hf) as (O & _). destruct (occ_good _ _ _ HI s O) as [[G2 _] _]. destruct K as [K|[K|K]]; [lia|lia|exact K].
Qed.
Lemma occ_in t : occupied st t -> In (get_node st t) ns.
Proof.
  intros O. destruct (is_pi st (get_node st t)) eqn:E; [apply in_app_iff; left; apply pi_iff, E|]. apply used_in. apply (fi_used _ F t O E).
Qed.
Lemma at_ns n i : ns !! i = Some n -> map item_of ns !! i = Some (item_of n).
Proof. intros H. change (map item_of ns) with (item_of <$> ns). rewrite list_lookup_fmap, H. reflexivity. Qed.
Lemma find_ns n : In n ns -> exists i, ns !! i = Some n /\ map item_of ns !! i = Some (item_of n).
Proof. intros H. apply elem_of_list_In, elem_of_list_lookup in H. destruct H as (i & H). exists i. split; [exact H|apply at_ns, H]. Qed.
Lemma occ2 t : cd t = false -> is_empty_tile st2 t = false <-> occupied st t.
Proof.
  intros D. rewrite (built_occ _ _ _ t HB D), map_map, in_map_iff. split.
  - intros (n & <- & H). rewrite item_tile. apply (good_occ _ _ _ HI n (all_good n H)).
  - intros O. exists (get_node st t). rewrite item_tile. split; [apply (occ_good _ _ _ HI t O)|apply occ_in, O].
Qed.
Lemma occ1 t : cd t = false -> is_empty_tile st t = false <-> occupied st t.
Proof.
  intros D. split; [|intros O; apply O]. intros E. split; [|exact E]. destruct (occ_some st t (w_1 _ W) E) as [K _]. eapply (w_in _ W); [exact K|exact D].
Qed.
Lemma r_tiles t : cd t = false -> is_empty_tile st2 t = is_empty_tile st t.
Proof.
  intros D. apply Bool.eq_true_iff_eq. pose proof (occ2 t D) as A. pose proof (occ1 t D) as B. rewrite <- B in A.
  destruct (is_empty_tile st2 t), (is_empty_tile st t); intuition discriminate.
Qed.
Lemma node2 t : occupied st t -> exists i, ns !! i = Some (get_node st t) /\ map item_of ns !! i = Some (item_of (get_node st t)) /\ get_node st2 t = 2 + i.
Proof.
  intros O. destruct (find_ns _ (occ_in t O)) as (i & A & B). exists i. split; [exact A|]. split; [exact B|].
  rewrite <- (built_node _ _ _ _ _ HB B), item_tile. f_equal. symmetry. apply (occ_good _ _ _ HI t O).
Qed.
Lemma item_lit n : In n ns -> i_lit (item_of n) = n_lit (node_at st n).
Proof.
  intros H. unfold item_of. destruct (is_pi st n) eqn:E1.
  - cbn. symmetry. apply (pi_wire _ _ _ (fg_run _ _ _ HI)), pi_iff, E1.
  - destruct (is_po st n) eqn:E2; [cbn; symmetry; apply po_lit, E2|reflexivity].
Qed.
Lemma item_ch n : In n ns -> i_ch (item_of n) = foreach_fanin true st n.
Proof.
  intros H. pose proof (all_good n H) as G. unfold item_of. destruct (is_pi st n) eqn:E1.
  - cbn. apply pi_iff in E1. pose proof (fi_pi _ F n E1) as (_ & K & _). rewrite (flow_data _ _ _ HI n G) in K. auto.
  - destruct (is_po st n) eqn:E2; [cbn|reflexivity]. destruct (gate_fn_at n G E1) as (f & L & A). pose proof (po_lit n E2) as L2.
    rewrite L in L2. assert (f = Fbuf) as -> by (destruct f; try discriminate L2; reflexivity). cbn in A.
    destruct (foreach_fanin true st n) as [|a [|]]; try discriminate A. reflexivity.
Qed.
Lemma r_gates t : occupied st t -> n_lit (node_at st2 (get_node st2 t)) = n_lit (node_at st (get_node st t)).
Proof.
  intros O. destruct (node2 t O) as (i & A & B & ->). destruct (b_at _ _ _ HB _ _ B) as (_ & _ & _ & ->). apply item_lit, occ_in, O.
Qed.
Lemma r_in t : occupied st t -> incoming_data_flow true st2 t = incoming_data_flow true st t.
Proof.
  intros O. destruct (node2 t O) as (i & A & B & E). unfold incoming_data_flow. rewrite E. unfold foreach_fanin at 1.
  assert (is_constant (2 + i) = false) as -> by reflexivity. destruct (b_at _ _ _ HB _ _ B) as (_ & E2 & -> & _).
  cbv zeta. rewrite (b_cl _ _ _ HB), (item_ch _ (occ_in t O)). set (n := get_node st t) in *.
  assert (G : good st n) by apply (occ_good _ _ _ HI t O). assert (Tn : get_tile st n = t) by apply (occ_good _ _ _ HI t O).
  assert (get_tile st2 (2 + i) = t) as -> by (unfold get_tile; rewrite E2; cbn [default]; rewrite item_tile; exact Tn).
  assert (K : forall s, In s (foreach_fanin true st n) -> get_tile st2 (get_node st2 s) = s /\
     is_adjacent_elevation_of (cl_topo cl') (cl_dim cl') t s && is_incoming_clocked cl' t s = true).
  { intros s Hs. destruct (flow_at _ _ _ HI n s G Hs) as (Os & H1 & H2). rewrite Tn in H1, H2. split.
    - destruct (node2 s Os) as (j & _ & Bj & ->). unfold get_tile. destruct (b_at _ _ _ HB _ _ Bj) as (_ & -> & _). cbn [default]. rewrite item_tile. apply (occ_good _ _ _ HI s Os).
    - rewrite Htopo, Hdim, H1. unfold is_incoming_clocked in *. rewrite (Hclk s (proj1 Os)), (Hclk t (proj1 O)), Hnum. exact H2. }
  clearbody n. clear -K. induction (foreach_fanin true st n) as [|s r IH]; [reflexivity|]. cbn [List.filter map].
  destruct (K s (or_introl eq_refl)) as [K1 K2]. rewrite K1, K2. cbn [map]. rewrite K1, IH; [reflexivity|]. intros u Hu. apply K. right. exact Hu.
Qed.
Lemma name2 i n : ns !! i = Some n -> is_pi st n = true \/ is_po st n = true -> get_name st2 (2 + i) = get_name st n.
Proof.
  intros H C. unfold get_name at 1.
  assert (PN : printable (get_name st n)).
  { destruct C as [C|C]; [apply pi_iff in C; apply (fi_pi _ F n C)|]. apply po_iff in C. destruct C as (t & Ht & E). pose proof (fi_po _ F t Ht) as (_ & _ & _ & P). rewrite E in P. exact P. }
  assert (NE : get_name st n <> ""%string) by (intros K; rewrite K in PN; destruct PN as [PN _]; discriminate PN).
  assert (IN : i_name (item_of n) = get_name st n).
  { unfold item_of. destruct (is_pi st n); [reflexivity|]. destruct C as [C|C]; [discriminate C|]. rewrite C. reflexivity. }
  rewrite (b_name _ _ _ HB i (item_of n) (at_ns n i H)); [exact IN| |rewrite IN; exact NE].
  rewrite item_pi, item_po. apply orb_true_iff. exact C.
Qed.
Lemma pi_nodes_none l : forall k, (forall n, In n l -> is_pi st n = false) -> pi_nodes k (map item_of l) = [].
Proof.
  induction l as [|n r IH]; intros k H; [reflexivity|]. cbn [map pi_nodes]. rewrite item_pi, (H n (or_introl eq_refl)). apply IH. intros m Hm. apply H. right. exact Hm.
Qed.
Lemma pi_nodes_all l : forall k, (forall n, In n l -> is_pi st n = true) -> pi_nodes k (map item_of l) = seq k (length l).
Proof.
  induction l as [|n r IH]; intros k H; [reflexivity|]. cbn [map pi_nodes length seq]. rewrite item_pi, (H n (or_introl eq_refl)). cbn [app]. f_equal. apply IH. intros m Hm. apply H. right. exact Hm.
Qed.
Lemma map_seq_ext {A} (f : nat -> A) (g : nat -> A) l : forall k, (forall i x, l !! i = Some x -> f (k + i) = g x) -> map f (seq k (length l)) = map g l.
Proof.
  induction l as [|x r IH]; intros k H; [reflexivity|]. cbn [length seq map]. f_equal; [rewrite <- (H 0 x eq_refl); f_equal; lia|].
  apply IH. intros i y Hy. rewrite <- (H (S i) y Hy). f_equal. lia.
Qed.
Lemma r_pis : inputs_of st2 = inputs_of st.
Proof.
  unfold inputs_of. rewrite (b_in _ _ _ HB), map_app, pi_nodes_app, (pi_nodes_none new), app_nil_r by (apply new_not_pi).
  rewrite pi_nodes_all by (intros n Hn; apply pi_iff; exact Hn). apply map_seq_ext. intros i n H.
  assert (Hns : ns !! i = Some n) by (apply lookup_app_l_Some; exact H).
  destruct (b_at _ _ _ HB _ _ (at_ns n i Hns)) as (_ & E & _). f_equal.
  - unfold get_tile at 1. rewrite E. cbn [default]. apply item_tile.
  - apply name2; [exact Hns|]. left. apply pi_iff, elem_of_list_In. eapply elem_of_list_lookup_2. exact H.
Qed.
Lemma filter_po l : List.filter is_ipo (map item_of l) = map item_of (List.filter (is_po st) l).
Proof. induction l as [|n r IH]; [reflexivity|]. cbn [map List.filter]. rewrite item_po. destruct (is_po st n); cbn [map]; rewrite IH; reflexivity. Qed.
Lemma filter_no_po l : (forall n, In n l -> is_po st n = false) -> List.filter (is_po st) l = [].
Proof. induction l as [|n r IH]; intros K; [reflexivity|]. cbn [List.filter]. rewrite (K n (or_introl eq_refl)). apply IH. intros m Hm. apply K. right. exact Hm. Qed.
Lemma outs2 : outputs_of st2 = map (fun n => (get_tile st n, get_name st n)) (List.filter (is_po st) new).
Proof.
  unfold outputs_of. rewrite (b_out _ _ _ HB). unfold po_tiles. 
  assert (E : List.filter is_ipo (map item_of (g_in st ++ new)) = map item_of (List.filter (is_po st) new)).
  { rewrite filter_po, List.filter_app, filter_no_po; [reflexivity|]. intros n Hn. apply pi_not_po, pi_iff, Hn. }
  rewrite E, !map_map. apply map_ext_in. intros n Hn. apply filter_In in Hn. destruct Hn as [Hn Hp]. rewrite item_tile. f_equal.
  assert (Hns : In n ns) by (apply in_app_iff; right; exact Hn). destruct (find_ns n Hns) as (i & A & B).
  rewrite <- (item_tile n), (built_node _ _ _ _ _ HB B). apply name2; [exact A|right; exact Hp].
Qed.
Lemma outs1 : outputs_of st = map (fun n => (get_tile st n, get_name st n)) (map (get_node st) (g_out st)).
Proof. unfold outputs_of. rewrite map_map. apply map_ext_in. intros t Ht. f_equal. symmetry. apply (po_good _ _ _ HI t Ht). Qed.
Lemma r_pos : Permutation (outputs_of st2) (outputs_of st).
Proof.
  rewrite outs2, outs1. apply Permutation_map. apply Permutation.NoDup_Permutation.
  - apply List.NoDup_filter. pose proof all_nodup as N1. unfold ns in N1. clear -N1. revert N1. induction (g_in st) as [|n r IH]; intros N1; [exact N1|]. inversion N1; subst. apply IH. assumption.
  - pose proof (fi_pos _ F) as H. assert (K : forall t, In t (g_out st) -> get_tile st (get_node st t) = t) by (intros t Ht; apply (po_good _ _ _ HI t Ht)).
    clear -H K. revert H K. induction (g_out st) as [|t r IH]; intros H K; [constructor|]. inversion H; subst. cbn. constructor.
    + intros Q. apply in_map_iff in Q. destruct Q as (u & E & Hu). assert (u = t); [|subst; contradiction].
      rewrite <- (K u (or_intror Hu)), <- (K t (or_introl eq_refl)). congruence.
    + apply IH; [assumption|]. intros u Hu. apply K. right. exact Hu.
  - intros n. rewrite filter_In, in_map_iff. rewrite po_iff. split.
    + intros (_ & t & Ht & E). exists t. auto.
    + intros (t & E & Ht). split; [rewrite <- E; apply HP, Ht|exists t; auto].
Qed.
Lemma how_many_ext P Q a b : (forall t, P t <-> Q t) -> how_many P a -> how_many Q b -> a = b.
Proof.
  intros H (L & N1 & I1 & ->) (M & N2 & I2 & ->). f_equal. apply Nat.le_antisymm; apply NoDup_incl_length; auto; intros t Ht.
  - apply I2, H, I1, Ht.
  - apply I1, H, I2, Ht.
Qed.
Lemma r_counts : num_gates st2 = num_gates st /\ num_wires st2 = num_wires st.
Proof.
  pose proof (fg_size _ _ _ HI) as Sz. pose proof all_count as C.
  destruct (counters_exact st (w_1 _ W) ltac:(lia)) as [W1 G1].
  assert (L2 : (Z.of_nat (length (g_nodes st2)) < 2 ^ 32)%Z).
  { rewrite (b_len _ _ _ HB), map_length. fold ns. lia. }
  destruct (counters_exact st2 (b_inv _ _ _ HB) L2) as [W2 G2].
  assert (K : forall t, cd t = false -> is_empty_tile st2 t = false -> is_wire st2 (get_node st2 t) = is_wire st (get_node st t)).
  { intros t D E. unfold is_wire. rewrite r_gates; [reflexivity|]. apply occ2; assumption. }
  split; eapply how_many_ext; try eassumption; intros t; unfold hosts_gate, hosts_wire; split; intros (D & E & Q);
    (split; [exact D|]); pose proof (r_tiles t D) as R; (split; [congruence|]); rewrite ?K in * by congruence; exact Q.
Qed.
Lemma result_same : sc_name (cl_scheme cl') = sc_name (cl_scheme (g_cl st)) -> same_layout st st2.
Proof.
  intros N1. constructor; rewrite ?(b_cl _ _ _ HB); auto; [apply r_tiles|apply r_gates|apply r_in|apply r_pis|apply r_pos|apply r_counts].
Qed.
Lemma result_outputs : List.filter (is_po st) new = map (get_node st) (g_out st) -> outputs_of st2 = outputs_of st.
Proof. intros E. rewrite outs2, outs1, E. reflexivity. Qed.
End Result.
End Layout.
