(** Routes of objectives, and the graph of all of them. *)
From Coq Require Import ZArith Bool List Lia Permutation.
From stdpp Require Import gmap list.
From Verif Require Import CoordMap CoordModel CoordSpec CoordProofs GridModel GridSpec ClockModel GateModel CellModel PathModel PathSpec PathProps UtilModel UtilSpec ColorModel ColorSpec ColorProofs EpgModel EpgSpec EpgProofs.
Import ListNotations.
Open Scope nat_scope.

Lemma walk_shape step s t p : walk step s t p -> s <> t -> exists mid, p = s :: mid ++ [t].
Proof.
  intros W. induction W as [s|s u t p Hs W IH]; intros N; [congruence|]. destruct (decide (u = t)) as [->|Nu].
  - inversion W as [|? v ? p' Hv W']; subst; [exists []; reflexivity|].
    clear IH. assert (L : exists mid, p' = mid ++ [t]).
    { clear - W'. induction W' as [s|s u t p Hs W IH]; [exists []; reflexivity|]. destruct IH as [mid ->]. exists (s :: mid). reflexivity. }
    destruct L as [mid ->]. exists (t :: mid). reflexivity.
  - destruct (IH Nu) as [mid ->]. exists (u :: mid). reflexivity.
Qed.
Lemma walk_entered step s t p c : walk step s t p -> In c (tl p) -> exists u, step u c.
Proof.
  intros W. induction W as [s|s u t p Hs W IH]; cbn [tl]; intros H; [destruct H|].
  inversion W; subst; (destruct H as [<-|H]; [eauto|]); [destruct H|apply IH; exact H].
Qed.
Lemma inner_shape (s t : coord) mid : inner (s :: mid ++ [t]) = mid.
Proof. unfold inner. cbn [tl]. apply removelast_last. Qed.
Lemma route_shape b o p : objective_ok b o -> route b o p -> p = o.1 :: inner p ++ [o.2] /\ List.NoDup p /\
  forall c, In c (inner p) -> inb (cl_dim (o_clocked (o_new b))) c /\ is_obstructed_coordinate (o_new b) c = false.
Proof.
  intros (_ & _ & N & _) [W D]. destruct (walk_shape _ _ _ _ W N) as [mid E]. assert (Ei : inner p = mid) by (subst p; apply inner_shape).
  split; [rewrite Ei; exact E|]. split; [exact D|]. intros c Hc. rewrite Ei in Hc.
  destruct (walk_entered _ _ _ _ c W) as [u (B & _ & _ & F & _)]; [subst p; cbn [tl]; apply in_app_iff; left; exact Hc|]. split; [exact B|].
  destruct F as [F|F]; [exact F|]. exfalso. subst p. apply NoDup_cons_iff in D. destruct D as [_ D]. subst c.
  apply NoDup_remove_2 in D. apply D. rewrite app_nil_r. exact Hc.
Qed.
Lemma route_length b o p : objective_ok b o -> route b o p -> 1 < length p.
Proof. intros K R. destruct (route_shape b o p K R) as (E & _). rewrite E. cbn. rewrite app_length. cbn. lia. Qed.
(** On a route, only the coordinates between the ends are free. *)
Lemma route_free b o p c : objective_ok b o -> route b o p -> In c p -> is_obstructed_coordinate (o_new b) c = false -> In c (inner p).
Proof.
  intros K R Hc F. destruct (route_shape b o p K R) as (E & _). rewrite E in Hc. destruct K as (_ & _ & _ & O1 & O2).
  destruct Hc as [<-|Hc]; [congruence|]. apply in_app_iff in Hc. destruct Hc as [Hc|[<-|[]]]; [exact Hc|congruence].
Qed.
Lemma same_ends_sym p q : same_ends p q -> same_ends q p.
Proof. intros [A B]. split; congruence. Qed.
Lemma share_tile_sym p q : share_tile p q -> share_tile q p.
Proof. intros (c & A & B). exists c. auto. Qed.

(** Which vertices are joined, given which paths are in conflict. *)
Lemma joined_ok cr (groups : list (list lpath)) g (C : list coord -> list coord -> Prop) :
  add_all cr groups = Some g ->
  (forall a b, In (a, b) (e_edges g) <-> exists k l p q, vertex groups a k p /\ vertex groups b l q /\
      ((l < k /\ (if cr then has_overlap_with p q else has_intersection_with p q) = Some true) \/ (k = l /\ a < b))) ->
  (forall p q, In p (concat groups) -> In q (concat groups) ->
     ((if cr then has_overlap_with p q else has_intersection_with p q) = Some true <-> C (lp_coords p) (lp_coords q))) ->
  (forall p q, C p q -> C q p) -> e_paths g = concat groups ->
  forall i j, joined (epg_graph g) i j <-> i <> j /\ exists k l p q, vertex (map (map lp_coords) groups) i k p /\ vertex (map (map lp_coords) groups) j l q /\ (k = l \/ C p q).
Proof.
  intros _ He Hc Hs Hp i j. unfold joined. cbn [epg_graph g_edges]. rewrite !He.
  assert (IN : forall i k p, vertex groups i k p -> In p (concat groups)) by (intros x k p V; eapply nth_error_In; apply (vertex_nth groups x p); exists k; exact V).
  assert (Dir : forall a b, (exists k l p q, vertex groups a k p /\ vertex groups b l q /\
      ((l < k /\ (if cr then has_overlap_with p q else has_intersection_with p q) = Some true) \/ (k = l /\ a < b))) ->
      a <> b /\ exists k l p q, vertex (map (map lp_coords) groups) a k p /\ vertex (map (map lp_coords) groups) b l q /\ (k = l \/ C p q)).
  { intros a b (k & l & p & q & V1 & V2 & D). split.
    - intros <-. destruct (vertex_fun _ _ _ _ _ _ V1 V2) as [-> ->]. destruct D as [[D _]|[_ D]]; lia.
    - exists k, l, (lp_coords p), (lp_coords q). split; [apply vertex_map; eauto|]. split; [apply vertex_map; eauto|].
      destruct D as [[_ D]|[D _]]; [right; apply Hc; eauto|left; exact D]. }
  split.
  - intros [H|H]; [apply Dir; exact H|]. destruct (Dir _ _ H) as (N & k & l & p & q & V1 & V2 & D). split; [congruence|]. exists l, k, q, p.
    split; [exact V2|]. split; [exact V1|]. destruct D as [->|D]; [left; reflexivity|right; apply Hs; exact D].
  - intros (N & k & l & p & q & V1 & V2 & D). apply vertex_map in V1, V2. destruct V1 as (p' & V1 & ->), V2 as (q' & V2 & ->).
    destruct (Nat.eq_dec k l) as [->|Nk].
    + destruct (Nat.lt_ge_cases i j) as [L|L]; [left; exists l, l, p', q'; auto|]. right. exists l, l, q', p'. split; [exact V2|]. split; [exact V1|]. right. split; [reflexivity|lia].
    + destruct D as [D|D]; [congruence|]. destruct (Nat.lt_ge_cases k l) as [L|L].
      * right. exists l, k, q', p'. split; [exact V2|]. split; [exact V1|]. left. split; [exact L|]. apply Hc; eauto.
      * left. exists k, l, p', q'. split; [exact V1|]. split; [exact V2|]. left. split; [lia|]. apply Hc; eauto.
Qed.
Lemma filter_map_empty {A B} (f : A -> B) (groups : list (list A)) :
  length (List.filter (fun ps => match ps with [] => true | _ => false end) (map (map f) groups)) =
  length (List.filter (fun ps => match ps with [] => true | _ => false end) groups).
Proof. induction groups as [|[|a g] groups IH]; cbn; [reflexivity|rewrite IH; reflexivity|exact IH]. Qed.
(** All groups of all objectives. *)
Lemma Forall2_exists {A B} (R : A -> B -> Prop) l : (forall a, In a l -> exists b, R a b) -> exists l', Forall2 R l l'.
Proof.
  induction l as [|a l IH]; intros H; [exists []; constructor|]. destruct (H a (or_introl eq_refl)) as [b Hb].
  destruct IH as [l' Hl]; [intros x Hx; apply H; right; exact Hx|]. exists (b :: l'). constructor; assumption.
Qed.
Lemma Forall2_concat {A B} (R : A -> list B -> Prop) l l' x : Forall2 R l l' -> In x (concat l') -> exists a b, In a l /\ In b l' /\ R a b /\ In x b.
Proof.
  intros F H. induction F as [|a b l l' Hab F IH]; [destruct H|]. cbn in H. apply in_app_iff in H. destruct H as [H|H].
  - exists a, b. cbn. auto.
  - destruct (IH H) as (a' & b' & H1 & H2 & H3 & H4). exists a', b'. cbn. auto.
Qed.

Section ground.
Variable Q : queue Z.
Variable fuel : nat.
Variable b : obase.
Variable objectives : list (coord * coord).
Hypothesis RL : routable (o_new b).
Hypothesis OK : forall o, In o objectives -> objective_ok b o.
Hypothesis FU : Z.to_nat (volume (cl_dim (o_clocked (o_new b)))) <= fuel.

Lemma ground_graph : exists g groups, generate_edge_intersection_graph Q fuel b objectives (mkEP false None) = Some g /\
  map lp_coords (e_paths g) = concat groups /\
  Forall2 (fun o ps => List.NoDup ps /\ forall p, In p ps <-> route b o p) objectives groups /\
  (forall i j, joined (epg_graph g) i j <-> i <> j /\ exists k l p q, vertex groups i k p /\ vertex groups j l q /\
     (k = l \/ same_ends p q \/ share_tile p q)) /\
  e_cliques g = blocks 0 groups /\ e_unroutable g = length (List.filter (fun ps => match ps with [] => true | _ => false end) groups) /\
  (forall v w, In (v, w) (e_edges g) -> v < length (e_paths g) /\ w < length (e_paths g) /\ v <> w).
Proof.
  assert (P : exists groups, Forall2 (fun o ps => enumerate_all_paths fuel (pf_of true (o_new b)) false o.1 o.2 = Some ps /\ List.NoDup ps /\ forall p, In p ps <-> route b o p) objectives groups).
  { apply Forall2_exists. intros o Ho. destruct (OK o Ho) as (B & Z0 & _). destruct (C40_enumerates_ground true (o_new b) o.1 o.2 fuel RL B Z0 FU) as (out & E & N & H).
    exists out. split; [exact E|]. split; [exact N|exact H]. }
  destruct P as [groups F]. set (L := map (map (fun p => mkL p p)) groups).
  assert (FL : Forall2 (fun o g => objective_paths Q fuel b (mkEP false None) o = Some g) objectives L).
  { unfold L. clear - F. induction F as [|o ps l l' (E & _) F IH]; cbn; constructor; [|exact IH]. unfold objective_paths. cbn [ep_limit ep_crossings]. rewrite E. reflexivity. }
  rewrite (generate_add_all _ _ _ _ _ _ FL). cbn [ep_crossings].
  assert (ML : map (map lp_coords) L = groups).
  { unfold L. rewrite map_map. erewrite map_ext; [apply map_id|]. intros ps. rewrite map_map. cbn. apply map_id. }
  assert (IN : forall p, In p (concat L) -> lp_elements p = lp_coords p /\ exists o, In o objectives /\ route b o (lp_coords p)).
  { intros p Hp. unfold L in Hp. rewrite <- concat_map in Hp. apply in_map_iff in Hp. destruct Hp as (q & <- & Hq). split; [reflexivity|].
    destruct (Forall2_concat _ _ _ _ F Hq) as (o & ps & Ho & _ & (_ & _ & K) & Hin). exists o. split; [exact Ho|]. apply K. exact Hin. }
  assert (CF : forall p q, In p (concat L) -> In q (concat L) -> exists r, has_intersection_with p q = Some r /\
      (r = true <-> same_ends (lp_coords p) (lp_coords q) \/ share_tile (lp_coords p) (lp_coords q))).
  { intros p q Hp Hq. destruct (IN p Hp) as (Ep & o & Ho & Rp). destruct (IN q Hq) as (_ & o' & Ho' & Rq).
    destruct (intersection_ok p q (route_length _ _ _ (OK o Ho) Rp) (route_length _ _ _ (OK o' Ho') Rq) Ep) as (r & E & K). exists r. split; [exact E|]. rewrite K.
    split; (intros [S1|(c & H1 & H2)]; [left; exact S1|right; exists c; split; [|exact H2]]).
    - apply (route_free _ _ _ _ (OK o Ho) Rp H1). apply (route_shape _ _ _ (OK o' Ho') Rq). exact H2.
    - destruct (route_shape _ _ _ (OK o Ho) Rp) as (E1 & _). rewrite E1. right. apply in_app_iff. left. exact H1. }
  destruct (build_ok false L) as (g & Eg & Ep & Ec & Eu & Ee).
  { intros p q Hp Hq. cbv beta iota. destruct (CF p q Hp Hq) as (r & -> & _). discriminate. }
  exists g, groups. split; [exact Eg|]. split; [rewrite Ep, concat_map, ML; reflexivity|]. split.
  { clear - F. induction F as [|o ps l l' (_ & H) F IH]; constructor; assumption. }
  split.
  { rewrite <- ML. apply (joined_ok false L g (fun p q => same_ends p q \/ share_tile p q) Eg Ee); [|intros p q [H|H]; [left; apply same_ends_sym|right; apply share_tile_sym]; exact H|exact Ep].
    intros p q Hp Hq. destruct (CF p q Hp Hq) as (r & -> & K). rewrite <- K. split; [intros X; injection X as ->; reflexivity|intros ->; reflexivity]. }
  split; [rewrite Ec, <- ML, blocks_map; reflexivity|]. split; [rewrite Eu, <- ML, filter_map_empty; reflexivity|].
  intros v w H. apply Ee in H. rewrite Ep. destruct H as (k & l & p & q & V1 & V2 & D). split; [eapply vertex_lt; exact V1|]. split; [eapply vertex_lt; exact V2|].
  intros <-. destruct (vertex_fun _ _ _ _ _ _ V1 V2) as [-> _]. destruct D as [[D _]|[_ D]]; lia.
Qed.
End ground.

(** With crossings, paths may share single tiles. *)
Section crossing.
Variable Q : queue Z.
Variable fuel : nat.
Variable b : obase.
Variable limit : option nat.
Variable objectives : list (coord * coord).
Hypothesis HQ : queue_ok Q.
Hypothesis RL : routable (o_new b).
Hypothesis BU : built (o_new b).
Hypothesis OK : forall o, In o objectives -> inb (cl_dim (o_clocked (o_new b))) o.1 /\ o.1 <> o.2.
Hypothesis FU : Z.to_nat (volume (cl_dim (o_clocked (o_new b)))) <= fuel.

Lemma crossing_graph : exists g groups, generate_edge_intersection_graph Q fuel b objectives (mkEP true limit) = Some g /\
  map lp_coords (e_paths g) = concat groups /\
  Forall2 (fun o ps => List.NoDup ps /\
     match limit with
     | None => forall p, In p ps <-> is_path (e_permitted (pf_of true (o_new b)) true o.2) o.1 o.2 p
     | Some k => length ps <= Nat.max 1 k /\ (forall p, In p ps -> is_path (permitted (pf_of true (o_new b)) true o.2) o.1 o.2 p) /\
                 (ps = [] <-> forall p, ~ walk (permitted (pf_of true (o_new b)) true o.2) o.1 o.2 p)
     end) objectives groups /\
  (forall i j, joined (epg_graph g) i j <-> i <> j /\ exists k l p q, vertex groups i k p /\ vertex groups j l q /\
     (k = l \/ same_ends p q \/ share_segment p q)) /\
  e_cliques g = blocks 0 groups /\ e_unroutable g = length (List.filter (fun ps => match ps with [] => true | _ => false end) groups).
Proof.
  set (D := fun (o : coord * coord) (ps : list (list coord)) => List.NoDup ps /\
     match limit with
     | None => forall p, In p ps <-> is_path (e_permitted (pf_of true (o_new b)) true o.2) o.1 o.2 p
     | Some k => length ps <= Nat.max 1 k /\ (forall p, In p ps -> is_path (permitted (pf_of true (o_new b)) true o.2) o.1 o.2 p) /\
                 (ps = [] <-> forall p, ~ walk (permitted (pf_of true (o_new b)) true o.2) o.1 o.2 p)
     end).
  assert (P : exists L, Forall2 (fun o ps => objective_paths Q fuel b (mkEP true limit) o = Some ps /\ D o (map lp_coords ps)) objectives L).
  { apply Forall2_exists. intros o Ho. destruct (OK o Ho) as (B & _). unfold objective_paths, D. cbn [ep_limit ep_crossings]. destruct limit as [k|].
    - destruct (C41_yen_partial Q true (o_new b) true o.1 o.2 fuel k HQ RL B ltac:(cbn; apply not_elem_of_empty) (fun _ => BU) FU) as (res & E & H1 & H2 & H3 & H4).
      rewrite E. exists (map (fun p => mkL p []) res). split; [reflexivity|]. rewrite map_map. cbn [lp_coords]. rewrite map_id. auto.
    - destruct (C40_enumerates true (o_new b) true o.1 o.2 fuel RL B FU) as (out & E & N & H).
      rewrite E. exists (map (fun p => mkL p p) out). split; [reflexivity|]. rewrite map_map. cbn [lp_coords]. rewrite map_id. auto. }
  destruct P as [L F].
  assert (FL : Forall2 (fun o g => objective_paths Q fuel b (mkEP true limit) o = Some g) objectives L).
  { clear - F. induction F as [|o ps l l' (E & _) F IH]; constructor; assumption. }
  rewrite (generate_add_all _ _ _ _ _ _ FL). cbn [ep_crossings].
  assert (IN : forall p, In p (concat L) -> 1 < length (lp_coords p)).
  { intros p Hp. destruct (Forall2_concat _ _ _ _ F Hp) as (o & ps & Ho & _ & (_ & _ & K) & Hin).
    assert (W : exists step, walk step o.1 o.2 (lp_coords p)).
    { apply (in_map lp_coords) in Hin. destruct limit as [k|]; [eexists; apply K; exact Hin|eexists; apply K; exact Hin]. }
    destruct W as [step W]. destruct (walk_shape _ _ _ _ W (proj2 (OK o Ho))) as [mid ->]. cbn. rewrite app_length. cbn. lia. }
  assert (CF : forall p q, In p (concat L) -> In q (concat L) -> exists r, has_overlap_with p q = Some r /\
      (r = true <-> same_ends (lp_coords p) (lp_coords q) \/ share_segment (lp_coords p) (lp_coords q))).
  { intros p q Hp Hq. destruct (overlap_ok p q (IN p Hp) (IN q Hq)) as (r & E & K). exists r. split; [exact E|]. rewrite K. unfold share_segment.
    split; (intros [S1|S1]; [left; exact S1|right; apply shared_sym; exact S1]). }
  destruct (build_ok true L) as (g & Eg & Ep & Ec & Eu & Ee).
  { intros p q Hp Hq. cbv beta iota. destruct (CF p q Hp Hq) as (r & -> & _). discriminate. }
  exists g, (map (map lp_coords) L). split; [exact Eg|]. split; [rewrite Ep, concat_map; reflexivity|]. split.
  { clear - F. induction F as [|o ps l l' (_ & H) F IH]; cbn; constructor; assumption. }
  split.
  { apply (joined_ok true L g (fun p q => same_ends p q \/ share_segment p q) Eg Ee); [|intros p q [H|H]; [left; apply same_ends_sym|right; apply shared_sym]; exact H|exact Ep].
    intros p q Hp Hq. destruct (CF p q Hp Hq) as (r & -> & K). rewrite <- K. split; [intros X; injection X as ->; reflexivity|intros ->; reflexivity]. }
  split; [rewrite Ec, blocks_map; reflexivity|rewrite Eu, filter_map_empty; reflexivity].
Qed.
End crossing.
