(** Proofs about edge intersection graphs. *)
From Coq Require Import ZArith Bool List Lia Permutation Sorting.
From stdpp Require Import gmap list.
From Verif Require Import CoordModel CoordSpec CoordProofs GridModel GridSpec ClockModel GateModel CellModel PathModel PathSpec UtilModel UtilSpec UtilProofs ColorModel ColorSpec ColorProofs EpgModel EpgSpec.
Import ListNotations.
Open Scope nat_scope.

(** ** Positions in groups *)
Lemma vertex_snoc {A} (groups : list (list A)) ps i k p : vertex (groups ++ [ps]) i k p <->
  vertex groups i k p \/ (k = length groups /\ exists r, nth_error ps r = Some p /\ i = length (concat groups) + r).
Proof.
  unfold vertex. split.
  - intros (qs & r & E & Er & ->). destruct (Nat.lt_ge_cases k (length groups)) as [L|L].
    + left. rewrite nth_error_app1 in E by exact L. exists qs, r. split; [exact E|]. split; [exact Er|].
      rewrite firstn_app. replace (k - length groups) with 0 by lia. cbn [firstn]. rewrite app_nil_r. reflexivity.
    + right. rewrite nth_error_app2 in E by exact L. destruct (k - length groups) as [|d] eqn:D; [|destruct d; discriminate].
      injection E as <-. assert (k = length groups) as -> by lia. split; [reflexivity|]. exists r. split; [exact Er|].
      rewrite firstn_app, firstn_all, Nat.sub_diag. cbn [firstn]. rewrite app_nil_r. reflexivity.
  - intros [(qs & r & E & Er & ->)|(-> & r & Er & ->)].
    + assert (L : k < length groups) by (apply nth_error_Some; congruence). exists qs, r. rewrite nth_error_app1 by exact L. split; [exact E|]. split; [exact Er|].
      rewrite firstn_app. replace (k - length groups) with 0 by lia. cbn [firstn]. rewrite app_nil_r. reflexivity.
    + exists ps, r. rewrite nth_error_app2, Nat.sub_diag by lia. split; [reflexivity|]. split; [exact Er|].
      rewrite firstn_app, firstn_all, Nat.sub_diag. cbn [firstn]. rewrite app_nil_r. reflexivity.
Qed.
Lemma vertex_group {A} (groups : list (list A)) i k p : vertex groups i k p -> k < length groups.
Proof. intros (ps & r & E & _). apply nth_error_Some. congruence. Qed.
Lemma concat_snoc {A} (groups : list (list A)) ps : concat (groups ++ [ps]) = concat groups ++ ps.
Proof. rewrite concat_app. cbn. rewrite app_nil_r. reflexivity. Qed.
Lemma vertex_nth {A} (groups : list (list A)) i p : nth_error (concat groups) i = Some p <-> exists k, vertex groups i k p.
Proof.
  induction groups as [|ps groups IH] using rev_ind.
  - cbn. split; [destruct i; discriminate|]. intros (k & qs & r & E & _). destruct k; discriminate.
  - rewrite concat_snoc. split.
    + intros E. destruct (Nat.lt_ge_cases i (length (concat groups))) as [L|L].
      * rewrite nth_error_app1 in E by exact L. apply IH in E. destruct E as [k Hk]. exists k. apply vertex_snoc. left. exact Hk.
      * rewrite nth_error_app2 in E by exact L. exists (length groups). apply vertex_snoc. right. split; [reflexivity|]. exists (i - length (concat groups)).
        split; [exact E|lia].
    + intros (k & H). apply vertex_snoc in H. destruct H as [H|(-> & r & Er & ->)].
      * assert (E : nth_error (concat groups) i = Some p) by (apply IH; exists k; exact H).
        rewrite nth_error_app1; [exact E|]. apply nth_error_Some. congruence.
      * rewrite nth_error_app2 by lia. replace (length (concat groups) + r - length (concat groups)) with r by lia. exact Er.
Qed.
Lemma vertex_lt {A} (groups : list (list A)) i k p : vertex groups i k p -> i < length (concat groups).
Proof. intros H. apply nth_error_Some. rewrite (proj2 (vertex_nth groups i p) (ex_intro _ k H)). discriminate. Qed.
Lemma vertex_fun {A} (groups : list (list A)) i k p l q : vertex groups i k p -> vertex groups i l q -> k = l /\ p = q.
Proof.
  revert k l. induction groups as [|ps groups IH] using rev_ind; intros k l H1 H2; [destruct H1 as (? & ? & E & _); destruct k; discriminate|].
  apply vertex_snoc in H1, H2. destruct H1 as [H1|(-> & r & Er & ->)], H2 as [H2|(-> & r' & Er' & E)].
  - apply IH; assumption.
  - apply vertex_lt in H1. lia.
  - apply vertex_lt in H2. lia.
  - assert (r = r') as <- by lia. split; [reflexivity|congruence].
Qed.
(** The labels of different groups are ordered like the groups. *)
Lemma vertex_order {A} (groups : list (list A)) i k p j l q : vertex groups i k p -> vertex groups j l q -> k < l -> i < j.
Proof.
  revert k l. induction groups as [|ps groups IH] using rev_ind; intros k l H1 H2 L; [destruct H1 as (? & ? & E & _); destruct k; discriminate|].
  apply vertex_snoc in H1, H2. destruct H1 as [H1|(-> & r & Er & ->)], H2 as [H2|(-> & r' & Er' & ->)].
  - eapply IH; eassumption.
  - apply vertex_lt in H1. lia.
  - apply vertex_group in H2. lia.
  - lia.
Qed.
Lemma vertex_map {A B} (f : A -> B) groups i k q : vertex (map (map f) groups) i k q <-> exists p, vertex groups i k p /\ q = f p.
Proof.
  unfold vertex. split.
  - intros (ps & r & E & Er & ->). rewrite nth_error_map in E. destruct (nth_error groups k) as [qs|] eqn:Eq; [|discriminate]. injection E as <-.
    rewrite nth_error_map in Er. destruct (nth_error qs r) as [p|] eqn:Ep; [|discriminate]. injection Er as <-. exists p. split; [|reflexivity].
    exists qs, r. split; [reflexivity|]. split; [exact Ep|]. rewrite firstn_map, <- concat_map, map_length. reflexivity.
  - intros (p & (qs & r & E & Er & ->) & ->). exists (map f qs), r. rewrite !nth_error_map, E. split; [reflexivity|]. cbn. rewrite Er. split; [reflexivity|].
    rewrite firstn_map, <- concat_map, map_length. reflexivity.
Qed.
Lemma blocks_snoc {A} (groups : list (list A)) ps label : blocks label (groups ++ [ps]) =
  blocks label groups ++ match ps with [] => [] | _ => [seq (label + length (concat groups)) (length ps)] end.
Proof.
  revert label; induction groups as [|g groups IH]; intros label; cbn [blocks app concat].
  - cbn. rewrite Nat.add_0_r. destruct ps; reflexivity.
  - destruct g as [|a g]; [apply IH|]. cbn [app]. f_equal. rewrite IH. cbn [length]. rewrite app_length. destruct ps; [reflexivity|]. do 3 f_equal. lia.
Qed.
Lemma blocks_map {A B} (f : A -> B) groups label : blocks label (map (map f) groups) = blocks label groups.
Proof.
  revert label; induction groups as [|[|a g] groups IH]; intros label; cbn [blocks map]; [reflexivity|apply IH|]. rewrite map_cons || idtac.
  change (f a :: map f g) with (map f (a :: g)). rewrite map_length, IH. reflexivity.
Qed.

(** ** Edges *)
Lemma connect_ok label n a b : In (a, b) (if 1 <? n then connect_clique label n else []) <-> label <= a /\ a < b /\ b < label + n.
Proof.
  destruct (Nat.ltb_spec 1 n) as [L|L]; [|split; [intros []|lia]]. unfold connect_clique.
  rewrite all_combinations_combos by lia. rewrite in_map_iff. split.
  - intros (c & E & Hc). apply combos_In in Hc. destruct Hc as (Hl & HS & HF). destruct c as [|x [|y [|z c]]]; try discriminate. cbn in E. injection E as <- <-.
    apply StronglySorted_inv in HS. destruct HS as [_ HS]. inversion HS; subst. inversion HF as [|? ? F1 F2]; subst. inversion F2; subst. lia.
  - intros (H1 & H2 & H3). exists [a - label; b - label]. split; [cbn; f_equal; lia|]. apply combos_In. split; [reflexivity|]. split.
    + constructor; [constructor; constructor|]. constructor; [lia|constructor].
    + constructor; [lia|]. constructor; [lia|constructor].
Qed.

Section build.
Variable crossings : bool.
Notation conflict := (fun p q => if crossings then has_overlap_with p q else has_intersection_with p q).
Lemma intersection_edges_ok p label stored i0 : (forall s, In s stored -> conflict p s <> None) ->
  exists l, intersection_edges crossings p label stored i0 = Some l /\
    forall a b, In (a, b) l <-> a = label /\ exists r s, nth_error stored r = Some s /\ b = i0 + r /\ conflict p s = Some true.
Proof.
  revert i0; induction stored as [|s stored IH]; intros i0 H.
  - exists []. split; [reflexivity|]. intros a b. split; [intros []|]. intros (_ & r & s & E & _). destruct r; discriminate.
  - cbn [intersection_edges]. destruct (IH (S i0) (fun x Hx => H x (or_intror Hx))) as (l & El & Hl). rewrite El.
    assert (Hs := H s (or_introl eq_refl)). cbv beta in *. destruct (if crossings then has_overlap_with p s else has_intersection_with p s) as [hit|] eqn:Eh; [|congruence].
    exists (if hit then (label, i0) :: l else l). split; [reflexivity|]. intros a b. split.
    + intros Hin. assert (In (a, b) l \/ (hit = true /\ (label, i0) = (a, b))) as [K|[-> K]].
      { destruct hit; [destruct Hin as [<-|Hin]; [right; split; reflexivity|left; exact Hin]|left; exact Hin]. }
      * apply Hl in K. destruct K as (-> & r & s' & E & -> & C). split; [reflexivity|]. exists (S r), s'. split; [exact E|]. split; [lia|exact C].
      * injection K as <- <-. split; [reflexivity|]. exists 0, s. split; [reflexivity|]. split; [lia|exact Eh].
    + intros (-> & r & s' & E & -> & C). destruct r as [|r].
      * injection E as <-. rewrite Eh in C. injection C as ->. left. f_equal. lia.
      * assert (K : In (label, i0 + S r) l) by (apply Hl; split; [reflexivity|]; exists r, s'; split; [exact E|]; split; [lia|exact C]).
        destruct hit; [right|]; exact K.
Qed.
Lemma create_ok ps label stored : (forall p s, In p ps -> In s stored -> conflict p s <> None) ->
  exists l, create_intersection_edges crossings ps label stored = Some l /\
    forall a b, In (a, b) l <-> exists r p s, nth_error ps r = Some p /\ a = label + r /\ nth_error stored b = Some s /\ conflict p s = Some true.
Proof.
  revert label; induction ps as [|p ps IH]; intros label H.
  - exists []. split; [reflexivity|]. intros a b. split; [intros []|]. intros (r & p & s & E & _). destruct r; discriminate.
  - cbn [create_intersection_edges]. destruct (intersection_edges_ok p label stored 0 (fun s Hs => H p s (or_introl eq_refl) Hs)) as (l & El & Hl).
    destruct (IH (S label) (fun q s Hq Hs => H q s (or_intror Hq) Hs)) as (l' & El' & Hl'). rewrite El, El'. exists (l ++ l'). split; [reflexivity|].
    intros a b. rewrite in_app_iff, Hl, Hl'. split.
    + intros [(-> & r & s & E & -> & C)|(r & q & s & E & -> & Es & C)].
      * exists 0, p, s. split; [reflexivity|]. split; [lia|]. split; [exact E|exact C].
      * exists (S r), q, s. split; [exact E|]. split; [lia|]. split; [exact Es|exact C].
    + intros (r & q & s & E & -> & Es & C). destruct r as [|r].
      * injection E as <-. left. split; [lia|]. exists b, s. split; [exact Es|]. split; [reflexivity|exact C].
      * right. exists r, q, s. split; [exact E|]. split; [lia|]. split; [exact Es|exact C].
Qed.
Definition add_all (groups : list (list lpath)) : option epg :=
  fold_left (fun acc ps => match acc with Some g => add_objective crossings g ps | None => None end) groups (Some epg_empty).
Lemma add_all_snoc groups ps : add_all (groups ++ [ps]) = match add_all groups with Some g => add_objective crossings g ps | None => None end.
Proof. unfold add_all. rewrite fold_left_app. reflexivity. Qed.
Lemma build_ok groups : (forall p q, In p (concat groups) -> In q (concat groups) -> conflict p q <> None) ->
  exists g, add_all groups = Some g /\ e_paths g = concat groups /\ e_cliques g = blocks 0 groups /\
    e_unroutable g = length (List.filter (fun ps => match ps with [] => true | _ => false end) groups) /\
    forall a b, In (a, b) (e_edges g) <-> exists k l p q, vertex groups a k p /\ vertex groups b l q /\
      ((l < k /\ conflict p q = Some true) \/ (k = l /\ a < b)).
Proof.
  induction groups as [|ps groups IH] using rev_ind; intros H.
  - exists epg_empty. split; [reflexivity|]. split; [reflexivity|]. split; [reflexivity|]. split; [reflexivity|]. intros a b. split; [intros []|].
    intros (k & l & p & q & (? & ? & E & _) & _). destruct k; discriminate.
  - rewrite concat_snoc in H. destruct IH as (g & Eg & Ep & Ec & Eu & Ee); [intros p q Hp Hq; apply H; apply in_app_iff; left; assumption|].
    destruct (create_ok ps (length (e_paths g)) (e_paths g)) as (l & El & Hl).
    { intros p s Hp Hs. rewrite Ep in Hs. apply H; apply in_app_iff; [right|left]; assumption. }
    eexists. split; [rewrite add_all_snoc, Eg; unfold add_objective; rewrite El; reflexivity|]. cbn [e_paths e_cliques e_unroutable e_edges].
    split; [rewrite concat_snoc, Ep; reflexivity|]. split.
    { rewrite blocks_snoc, Ec, Ep. cbn [Nat.add]. destruct ps; [rewrite app_nil_r|]; reflexivity. }
    split. { rewrite List.filter_app, app_length, Eu. destruct ps; cbn; lia. }
    intros a b. rewrite !in_app_iff, connect_ok, Ee, Hl, Ep. split.
    + intros [(k & l' & p & q & V1 & V2 & C)|[(A1 & A2 & A3)|(r & p & s & E & -> & Es & C)]].
      * exists k, l', p, q. rewrite !vertex_snoc. auto.
      * destruct (nth_error ps (a - length (concat groups))) as [p|] eqn:E1; [|apply nth_error_None in E1; lia].
        destruct (nth_error ps (b - length (concat groups))) as [q|] eqn:E2; [|apply nth_error_None in E2; lia].
        exists (length groups), (length groups), p, q. rewrite !vertex_snoc. split; [right; split; [reflexivity|]; eexists; split; [exact E1|lia]|].
        split; [right; split; [reflexivity|]; eexists; split; [exact E2|lia]|]. right. split; [reflexivity|exact A2].
      * apply vertex_nth in Es. destruct Es as [l' V]. exists (length groups), l', p, s. rewrite !vertex_snoc.
        split; [right; split; [reflexivity|]; exists r; split; [exact E|reflexivity]|]. split; [left; exact V|]. left. split; [eapply vertex_group; exact V|exact C].
    + intros (k & l' & p & q & V1 & V2 & C). apply vertex_snoc in V1, V2.
      destruct V1 as [V1|(-> & r & Er & ->)], V2 as [V2|(-> & r' & Er' & ->)].
      * left. exists k, l', p, q. auto.
      * apply vertex_group in V1. destruct C as [[C _]|[C _]]; lia.
      * right. right. exists r, p, q. split; [exact Er|]. split; [reflexivity|]. split; [apply vertex_nth; exists l'; exact V2|].
        destruct C as [[_ C]|[C _]]; [exact C|apply vertex_group in V2; lia].
      * destruct C as [[C _]|[_ C]]; [lia|]. right. left. assert (r' < length ps) by (apply nth_error_Some; congruence). lia.
Qed.
End build.

(** ** The objectives one after the other *)
Lemma generate_add_all Q fuel b ps objectives groups : Forall2 (fun o g => objective_paths Q fuel b ps o = Some g) objectives groups ->
  generate_edge_intersection_graph Q fuel b objectives ps = add_all (ep_crossings ps) groups.
Proof.
  intros F. unfold generate_edge_intersection_graph, add_all. generalize (Some epg_empty). induction F as [|o g objectives groups E F IH]; intros acc; [reflexivity|].
  cbn [fold_left]. rewrite E. rewrite IH. destruct acc; reflexivity.
Qed.

(** ** Conflicts *)
Lemma last_hd {A} (p : list A) d a : hd_error (rev p) = Some a -> List.last p d = a.
Proof.
  intros H. destruct p as [|x p] using rev_ind; [discriminate|]. rewrite rev_app_distr in H. cbn in H. injection H as ->. apply last_last.
Qed.
Lemma ends_ok p q : lp_coords p <> [] -> lp_coords q <> [] ->
  coord_eqb (lp_source p) (lp_source q) && coord_eqb (lp_target p) (lp_target q) = true <-> same_ends (lp_coords p) (lp_coords q).
Proof.
  unfold same_ends, lp_source, lp_target. destruct p as [p pe], q as [q qe]. cbn [lp_coords]. intros Hp Hq.
  rewrite andb_true_iff, !coord_eqb_spec. destruct p as [|a p]; [congruence|]. destruct q as [|c q]; [congruence|]. cbn [hd hd_error].
  destruct (exists_last Hp) as (p' & z & Ep). destruct (exists_last Hq) as (q' & y & Eq). rewrite Ep, Eq, !last_last, !rev_app_distr. cbn.
  split; intros [H1 H2]; split; congruence.
Qed.
Lemma intersection_ok p q : (1 < length (lp_coords p)) -> (1 < length (lp_coords q)) -> lp_elements p = lp_coords p ->
  exists r, has_intersection_with p q = Some r /\
    (r = true <-> same_ends (lp_coords p) (lp_coords q) \/ exists c, In c (lp_coords p) /\ In c (inner (lp_coords q))).
Proof.
  intros Lp Lq Ee. assert (Np : lp_coords p <> []) by (destruct (lp_coords p); [cbn in Lp; lia|discriminate]).
  assert (Nq : lp_coords q <> []) by (destruct (lp_coords q); [cbn in Lq; lia|discriminate]).
  pose proof (ends_ok p q Np Nq) as K. unfold has_intersection_with. destruct (_ && _) eqn:E.
  { exists true. split; [reflexivity|]. split; [intros _; left; apply K; reflexivity|reflexivity]. }
  destruct (lp_coords q) as [|a [|c q']] eqn:Eq; [cbn in Lq; lia|cbn in Lq; lia|]. eexists. split; [reflexivity|].
  rewrite existsb_exists. split.
  - intros (x & Hx & Hy). apply existsb_exists in Hy. destruct Hy as (y & Hy & Exy). apply coord_eqb_spec in Exy. subst y. right. exists x. rewrite <- Ee. split; [exact Hy|exact Hx].
  - intros [S1|(x & Hx & Hy)]; [apply K in S1; discriminate|]. exists x. split; [exact Hy|]. apply existsb_exists. exists x. split; [rewrite Ee; exact Hx|apply coord_eqb_refl].
Qed.
Lemma overlap_ok p q : (1 < length (lp_coords p)) -> (1 < length (lp_coords q)) ->
  exists r, has_overlap_with p q = Some r /\ (r = true <-> same_ends (lp_coords p) (lp_coords q) \/ share_segment (lp_coords q) (lp_coords p)).
Proof.
  intros Lp Lq. assert (Np : lp_coords p <> []) by (destruct (lp_coords p); [cbn in Lp; lia|discriminate]).
  assert (Nq : lp_coords q <> []) by (destruct (lp_coords q); [cbn in Lq; lia|discriminate]).
  pose proof (ends_ok p q Np Nq) as K. unfold has_overlap_with. destruct (_ && _) eqn:E.
  { exists true. split; [reflexivity|]. split; [intros _; left; apply K; reflexivity|reflexivity]. }
  assert (F : find_first_two_of coord_eqb (lp_coords q) (lp_coords p) = Some (outer_two coord_eqb (lp_coords q) (lp_coords p))).
  { unfold find_first_two_of. destruct (lp_coords q) as [|a [|c q']]; [congruence|reflexivity|]. destruct (lp_coords p); [congruence|reflexivity]. }
  rewrite F. eexists. split; [reflexivity|]. destruct (outer_two_spec coord_eqb coord_eqb_spec (lp_coords p) (lp_coords q)) as [_ H]. cbv zeta in H.
  rewrite negb_true_iff, Nat.eqb_neq. split.
  - intros N. right. destruct H as [H|[H _]]; [eexists; exact H|congruence].
  - intros [S1|[i Hi]]; [apply K in S1; discriminate|]. destruct H as [H|[H1 H2]]; [|intros _; exact (H2 i Hi)].
    intros Q1. destruct H as (j & x & y & Hx & _). assert (outer_two coord_eqb (lp_coords q) (lp_coords p) < length (lp_coords q)) by (apply nth_error_Some; congruence). lia.
Qed.
Lemma shared_sym {A} (p q : list A) : (exists i, shared_at p q i) -> exists i, shared_at q p i.
Proof. intros (i & j & a & b & H1 & H2 & H3 & H4). exists j, i, a, b. auto. Qed.
