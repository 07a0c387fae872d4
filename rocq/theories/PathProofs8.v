(** Yen's algorithm on layouts; distances on 2DDWave. *)
From Coq Require Import ZArith Bool List Permutation Lia Sorted.
From stdpp Require Import gmap list.
From Verif Require Import CoordModel CoordSpec CoordProofs GridModel GridSpec GridProofs CoordMap ClockModel ClockSpec ClockProofs GateModel GateSpec GateProps CellModel PathModel PathSpec PathProofs PathProofs3 PathProofs4 PathProofs5 PathProofs6 PathProofs7.
Import ListNotations.
Local Open Scope Z_scope.

Lemma crossable_obstructed cl ops st l u g : reached cl ops st -> o_base l = OGate st -> is_crossable_wire st u g = true -> is_obstructed_coordinate l g = true.
Proof.
  intros Hr Eb H. unfold is_obstructed_coordinate. rewrite Eb. destruct (bool_decide (g ∈ o_coords l)); [reflexivity|]. unfold is_empty_tile.
  destruct (Nat.eqb_spec (get_node st g) 0) as [E|E]; [exfalso|reflexivity].
  unfold is_crossable_wire in H. cbv zeta in H. rewrite E in H. destruct (is_wire st 0) eqn:Ew; [|discriminate]. clear H.
  pose proof (C42_function_kept ops (g_empty cl) st 0%nat [true] Hr ltac:(cbn; lia)) as K. unfold is_wire in Ew. apply Z.eqb_eq in Ew.
  unfold compute in K. rewrite Ew in K. cbn in K. discriminate.
Qed.

Section YenLayout.
Context (Q : queue Z) (HQ : queue_ok Q) (clk cr : bool) (src tgt : coord) (fuel : nat) (lay : olayout).
Notation ar := (cl_dim (o_clocked lay)).
Notation step := (permitted (pf_of clk lay) cr tgt).
Context (HL : routable lay) (Hsrc : src ∉ o_coords lay) (Hin : inb ar src) (Hb : cr = true -> built lay) (Hf : (Z.to_nat (volume ar) <= fuel)%nat).
Lemma dims_z : 0 <= cz ar <= 1.
Proof. apply HL. Qed.
Lemma succ_inb u v : inb ar u -> In v (pf_succ (pf_of clk lay) u) -> inb ar v.
Proof. intros Hu Hv. apply succ_spec in Hv; [apply Hv|exact HL|exact Hu]. Qed.
Lemma star_enough l2 s : o_base l2 = o_base lay -> inb ar s -> y_star Q clk cr tgt fuel l2 s <> None.
Proof.
  intros Eb Hs E. pose proof (a_star_ok (u64_ops (distance_functor manhattan_distance) unit_cost tgt) Q HQ (pf_of clk l2) cr s tgt fuel) as Ha.
  unfold y_star in E. rewrite E in Ha. pose proof (o_clocked_base _ _ Eb) as Ec. assert (HL2 : routable l2) by (unfold routable; rewrite Ec; exact HL).
  destruct (universe_exists l2 HL2 (permitted (pf_of clk l2) cr tgt) s) as (U & HU & HUl & _).
  - intros u v. apply permitted_inb, HL2.
  - rewrite Ec. exact Hs.
  - specialize (Ha U HU). rewrite Ec in HUl. lia.
Qed.
Lemma spur_some A latest B i : walk step src tgt latest -> (i < length latest - 1)%nat -> exists r, y_spur Q clk cr tgt fuel A latest (lay, B) i = Some r.
Proof.
  intros Hw Hi. unfold y_spur. destruct (latest !! i) as [spur|] eqn:Es; [|apply lookup_ge_None in Es; lia]. cbv zeta.
  match goal with |- context [y_star Q clk cr tgt fuel ?l2 spur] => assert (K : y_star Q clk cr tgt fuel l2 spur <> None); [|destruct (y_star Q clk cr tgt fuel l2 spur); [eauto|congruence]] end.
  apply star_enough.
  - rewrite (proj1 (obst_coords _ _)), (proj1 (obst_conns _ _)). reflexivity.
  - apply (walk_I clk cr tgt lay (inb ar) (fun u v => permitted_inb clk lay HL cr tgt u v) _ _ _ Hw Hin). apply elem_of_list_In, elem_of_list_lookup. eauto.
Qed.
(** The target in the crossing layer is only ever entered over an obstructed tile. *)
Lemma target_below p : walk step src tgt p -> src <> tgt -> cz tgt = 0 \/ is_obstructed_coordinate lay (below ar tgt) = true.
Proof.
  intros Hw Hne. assert (G : forall a t p, walk step a t p -> inb ar a -> a <> t -> exists u, inb ar u /\ step u t).
  { induction 1 as [a|a u t q Hs Hq IH]; intros Ha Hat; [congruence|]. destruct (coord_eq_dec u t) as [->|K]; [eauto|]. apply IH; [eapply permitted_inb; eauto|exact K]. }
  destruct (G _ _ _ Hw Hin Hne) as (u & Hu & Hs). clear G. pose proof dims_z as Hz.
  destruct Hs as [w Hw0 Hv Ho Hcn|w g Hw0 Hg Hcr Hog Hgt Hv Hvg Hx Hov Hcn]; apply (succ_inb u) in Hw0; try exact Hu; destruct Hw0 as (_ & _ & _ & Hwz).
  - left. rewrite Hv. cbn [pf_of pf_below]. unfold below. destruct (Z.eqb_spec (cz w) 0) as [E|E]; cbn [cz]; lia.
  - right. replace (below ar tgt) with g; [exact Hog|]. cbn [pf_of pf_above pf_below] in Hv, Hg. subst tgt. revert Hvg. rewrite Hg. clear -Hz Hwz. unfold above, below, set_d.
    destruct w as [dd xx yy zz]. cbn [cz cx cy cd] in *.
    destruct (Z.eqb_spec zz 0); cbn [cz cx cy cd]; repeat match goal with |- context [?a <? ?b] => destruct (Z.ltb_spec a b); cbn [cz cx cy cd] end; intros K; try lia; try congruence.
    + subst zz. reflexivity.
    + replace (zz - 1) with 0 by lia. reflexivity.
Qed.
Lemma cross_hyp : (cz tgt = 0 \/ is_obstructed_coordinate lay (below ar tgt) = true) -> cr = true ->
  (cz tgt = 0 \/ is_obstructed_coordinate lay (below ar tgt) = true) /\ forall u g, pf_cross (pf_of clk lay) u g = true -> is_obstructed_coordinate lay g = true.
Proof.
  intros H Hc. split; [exact H|]. intros u g. cbn [pf_of pf_cross]. specialize (Hb Hc). unfold built in Hb. destruct (o_base lay) as [x|st|T c] eqn:Eb; try discriminate.
  destruct Hb as (cl & ops & Hr). intros K. eapply crossable_obstructed; eauto.
Qed.
(** With paths of length one there is nothing to do. *)
Lemma y_loop_single rounds x lay0 : y_loop Q clk cr tgt fuel rounds lay0 [[x]] [] = Some (lay0, [[x]]).
Proof. destruct rounds; reflexivity. Qed.
Lemma y_loop_some (Ht : cz tgt = 0 \/ is_obstructed_coordinate lay (below ar tgt) = true) rounds : forall A B, A <> [] -> Forall (valid clk cr src tgt lay) A -> List.NoDup A -> cands clk cr src tgt lay A B ->
  exists r, y_loop Q clk cr tgt fuel rounds lay A B = Some r.
Proof.
  induction rounds as [|n IH]; intros A B HA0 HA Hn Hc; cbn [y_loop]; [eauto|].
  destruct (exists_last HA0) as (A' & latest & EA). assert (EL : default [] (last A) = latest) by (rewrite EA, last_snoc; reflexivity). rewrite EL.
  assert (Hl : In latest A) by (rewrite EA; apply in_or_app; right; left; reflexivity).
  assert (Hseq : forall i, In i (seq 0 (length latest - 1)) -> (i < length latest - 1)%nat) by (intros i Hi; apply in_seq in Hi; lia).
  pose proof (spurs_ok Q HQ clk cr src tgt fuel lay Hsrc (cross_hyp Ht) dims_z (inb ar) Hin (fun u v => permitted_inb clk lay HL cr tgt u v) succ_inb A latest HA Hl) as Hok.
  assert (Hwl : walk step src tgt latest) by (rewrite List.Forall_forall in HA; apply (HA _ Hl)).
  assert (G : forall is_ B0, (forall i, In i is_ -> (i < length latest - 1)%nat) -> cands clk cr src tgt lay A B0 ->
     exists r, fold_left (fun acc i => match acc with None => None | Some st => y_spur Q clk cr tgt fuel A latest st i end) is_ (Some (lay, B0)) = Some r).
  { induction is_ as [|i is_ IHi]; intros B0 Hi Hc0; cbn [fold_left]; [eauto|].
    destruct (spur_some A latest B0 i Hwl (Hi i (or_introl eq_refl))) as ([l1 B1] & E1). rewrite E1.
    destruct (Hok [i] B0 l1 B1) as [-> Hc1]; [intros i' [<-|[]]; apply Hi; left; reflexivity|exact Hc0|cbn [fold_left]; exact E1|].
    apply IHi; [intros; apply Hi; right; assumption|exact Hc1]. }
  destruct (G _ B Hseq Hc) as ([l1 B1] & E1). rewrite E1. destruct (Hok _ _ _ _ Hseq Hc E1) as (-> & C1 & C2 & C3).
  destruct B1 as [|x r]; [eauto|]. set (b := shortest_of x r) in *. pose proof (shortest_in r x) as Hbb. fold b in Hbb. destruct (remove_sorted b (x :: r) C2) as [R1 R2].
  apply IH.
  - destruct A; discriminate.
  - apply List.Forall_forall. intros p Hp. rewrite List.Forall_forall in HA, C1. apply in_app_or in Hp as [Hp|[<-|[]]]; [apply HA, Hp|apply C1, Hbb].
  - apply (Permutation_NoDup (l := b :: A)); [apply Permutation_cons_append|]. constructor; [apply C3, Hbb|exact Hn].
  - split; [|split].
    + apply List.Forall_forall. intros p Hp. rewrite List.Forall_forall in C1. apply C1, (remove_in b), Hp.
    + exact R1.
    + intros q Hq Hqa. apply in_app_or in Hqa as [Hqa|[<-|[]]]; [apply (C3 q (remove_in _ _ _ Hq) Hqa)|contradiction].
Qed.

Lemma yen_layout k : exists res, yen Q clk cr src tgt fuel lay k = Some (lay, res) /\
  (length res <= Nat.max 1 k)%nat /\ List.NoDup res /\ (forall p, In p res -> is_path step src tgt p) /\ (res = [] <-> forall p, ~ walk step src tgt p) /\
  forall wv, (forall u v, inb ar u -> step u v -> wv v = wv u + 1) -> (1 <= k)%nat -> length res = k \/ forall q, is_path step src tgt q -> In q res.
Proof.
  pose proof (star_enough lay src eq_refl Hin) as Hne. unfold yen. unfold y_star in *.
  pose proof (a_star_ok (u64_ops (distance_functor manhattan_distance) unit_cost tgt) Q HQ (pf_of clk lay) cr src tgt fuel) as Ha.
  destruct (a_star _ Q (pf_of clk lay) cr src tgt fuel) as [[|x p]|] eqn:Es; [| |congruence].
  - exists []. split; [reflexivity|]. split; [cbn; lia|]. split; [constructor|]. split; [intros p []|]. split; [tauto|]. intros wv _ _. right. intros q [Hq _]. exfalso. exact (Ha _ Hq).
  - destruct (coord_eq_dec src tgt) as [Est|Est].
    + assert (Ex : x :: p = [src]).
      { destruct Ha as [Hw Hn]. subst tgt. inversion Hw as [|? u ? r Hs Hw']; subst; [reflexivity|]. exfalso. inversion Hn; subst. apply walk_last in Hw'. contradiction. }
      rewrite Ex in Ha. inversion Ex; subst x p. rewrite y_loop_single. exists [[src]]. split; [reflexivity|]. split; [cbn; lia|]. split; [repeat constructor; intros []|].
      split; [intros q [<-|[]]; exact Ha|]. split; [split; [discriminate|]; intros K; exfalso; exact (K _ (proj1 Ha))|].
      intros wv _ _. right. intros q [Hw Hn]. subst tgt. left. inversion Hw as [|? u ? r Hs Hw']; subst; [reflexivity|]. exfalso. inversion Hn; subst. apply walk_last in Hw'. contradiction.
    + pose proof (target_below _ (proj1 Ha) Est) as Ht.
      destruct (y_loop_some Ht (k - 1) [x :: p] []) as ([l1 res] & E1); [discriminate|constructor; [exact Ha|constructor]|repeat constructor; intros []|split; [constructor|split; [constructor|intros q []]]|].
      assert (Ey : yen Q clk cr src tgt fuel lay k = Some (l1, res)) by (unfold yen, y_star; rewrite Es; exact E1).
      destruct (yen_ok Q HQ clk cr src tgt fuel lay Hsrc (cross_hyp Ht) dims_z (inb ar) Hin (fun u v => permitted_inb clk lay HL cr tgt u v) succ_inb k l1 res Ey) as (-> & Y1 & Y2 & Y3).
      destruct (y_loop_ok Q HQ clk cr src tgt fuel lay Hsrc (cross_hyp Ht) dims_z (inb ar) Hin (fun u v => permitted_inb clk lay HL cr tgt u v) succ_inb (k - 1) [x :: p] [] lay res) as (_ & _ & _ & _ & rest & Er);
        [discriminate|constructor; [exact Ha|constructor]|repeat constructor; intros []|split; [constructor|split; [constructor|intros q []]]|exact E1|].
      exists res. split; [exact E1|]. split; [exact Y3|]. split; [exact Y2|]. split; [rewrite List.Forall_forall in Y1; exact Y1|]. split.
      { subst res. split; [discriminate|]. intros K. exfalso. exact (K _ (proj1 Ha)). }
      intros wv Hwv Hk. refine (yen_all Q HQ clk cr src tgt fuel lay Hsrc (cross_hyp Ht) dims_z (inb ar) wv Hin _ _ succ_inb k lay res Ey Hk).
      * intros u Hu. apply Hu.
      * intros u v Hu Hs. split; [eapply permitted_inb; eauto|apply Hwv; assumption].
Qed.
End YenLayout.

(** * 2DDWave distance *)
Notation dd_step ar n u v := (In v (outgoing_clocked_zones (std_layout Cartesian ar (TWODDWAVE n)) u)).
Lemma dd_step_iff ar n u v : dim_ok ar -> inb ar u -> dd_step ar n u v <->
  inb ar v /\ cz v = cz u /\ ((cx v = cx u + 1 /\ cy v = cy u) \/ (cx v = cx u /\ cy v = cy u + 1)).
Proof.
  intros Hd Hu. split.
  - intros H. assert (Hw : wave Cartesian (TWODDWAVE n) v = wave Cartesian (TWODDWAVE n) u + 1).
    { apply (waves_flow Cartesian ar (TWODDWAVE n) u v); [exact Hd|split; [exact I|congruence]|exact Hu|exact H]. }
    apply outgoing_In in H as (Hv & Ht & _); [|exact Hd|exact Hu|].
    + split; [exact Hv|]. cbn [cl_topo std_layout touch] in Ht. unfold square_touch in Ht. unfold wave in Hw. lia.
    + unfold num_clocks. cbn [cl_scheme std_layout]. destruct (num_std Cartesian (TWODDWAVE n)) as [-> | ->]; lia.
  - intros (Hv & Hz & H). assert (Hn : 1 <= num_clocks (std_layout Cartesian ar (TWODDWAVE n)) <= 255).
    { unfold num_clocks. cbn [cl_scheme std_layout]. destruct (num_std Cartesian (TWODDWAVE n)) as [-> | ->]; lia. }
    apply outgoing_In; [exact Hd|exact Hu|exact Hn|]. split; [exact Hv|]. split; [cbn [cl_topo std_layout touch]; unfold square_touch; lia|].
    unfold get_clock_number. cbn [cl_scheme std_layout]. rewrite !sc_at_std. destruct Hd as (D1 & D2 & D3), Hu as (_ & U1 & U2 & _), Hv as (_ & V1 & V2 & _).
    rewrite !fn_wave by (try exact I; lia). unfold num_clocks. cbn [cl_scheme std_layout]. unfold num_clocks in Hn. cbn [cl_scheme std_layout] in Hn.
    rewrite Zplus_mod_idemp_l. f_equal. unfold wave. lia.
Qed.
Lemma dd_walk ar n : dim_ok ar -> forall s t p, walk (fun u v => dd_step ar n u v) s t p -> inb ar s ->
  cz t = cz s /\ cx s <= cx t /\ cy s <= cy t /\ Z.of_nat (length p) - 1 = twoddwave_distance s t.
Proof.
  intros Hd. assert (G : forall s t p, walk (fun u v => dd_step ar n u v) s t p -> inb ar s -> cz t = cz s /\ cx s <= cx t /\ cy s <= cy t /\ Z.of_nat (length p) - 1 = cx t - cx s + (cy t - cy s)).
  { induction 1 as [s|s u t p Hs Hw IH]; intros Hin; cbn [length]; [lia|]. apply dd_step_iff in Hs as (Hu & Hz & H); [|exact Hd|exact Hin]. specialize (IH Hu). lia. }
  intros s t p Hw Hs. destruct (G s t p Hw Hs) as (G1 & G2 & G3 & G4). repeat (split; [assumption|]). rewrite G4. unfold twoddwave_distance, manhattan_distance.
  replace (cx s <=? cx t) with true by lia. replace (cy s <=? cy t) with true by lia. cbn [andb]. lia.
Qed.
Lemma dd_exists ar n : dim_ok ar -> forall k s t, Z.of_nat k = cx t - cx s + (cy t - cy s) -> inb ar s -> inb ar t -> cz t = cz s -> cx s <= cx t -> cy s <= cy t ->
  exists p, walk (fun u v => dd_step ar n u v) s t p.
Proof.
  intros Hd. induction k as [|k IH]; intros s t Hk Hs Ht Hz Hx Hy.
  - assert (s = t). { destruct Hs as (D1 & _), Ht as (D2 & _). destruct s, t; cbn in *. f_equal; try congruence; lia. } subst. eexists. apply walk_end.
  - assert (exists u, inb ar u /\ cz u = cz s /\ cx u <= cx t /\ cy u <= cy t /\ ((cx u = cx s + 1 /\ cy u = cy s) \/ (cx u = cx s /\ cy u = cy s + 1))) as (u & Hu & Hzu & H1 & H2 & H3).
    { destruct (Z.eq_dec (cx s) (cx t)) as [E|E].
      - exists (live (cx s) (cy s + 1) (cz s)). unfold inb in *. cbn [live cd cx cy cz]. repeat split; lia.
      - exists (live (cx s + 1) (cy s) (cz s)). unfold inb in *. cbn [live cd cx cy cz]. repeat split; lia. }
    destruct (IH u t) as (p & Hp); try assumption; try lia. exists (s :: p). eapply walk_step; [|exact Hp]. apply dd_step_iff; [exact Hd|exact Hs|]. auto.
Qed.

(** * A queue that searches for the lowest entry *)
Fixpoint lowest (l : list (coord * Z)) : option (coord * Z) :=
  match l with
  | [] => None
  | e :: r => match lowest r with None => Some e | Some m => if e.2 <=? m.2 then Some e else Some m end
  end.
Fixpoint drop_entry (e : coord * Z) (l : list (coord * Z)) : list (coord * Z) :=
  match l with [] => [] | x :: r => if bool_decide (x = e) then r else x :: drop_entry e r end.
Definition search_queue : queue Z :=
  mkQ lowest (fun l => match lowest l with Some e => drop_entry e l | None => l end) (fun l e => e :: l).
Lemma lowest_in l : forall e, lowest l = Some e -> In e l /\ forall e', In e' l -> e.2 <= e'.2.
Proof.
  induction l as [|x r IH]; intros e E; cbn [lowest] in E; [discriminate|]. destruct (lowest r) as [m|] eqn:Em.
  - destruct (IH m eq_refl) as [I1 I2]. destruct (Z.leb_spec x.2 m.2) as [K|K]; inversion E; subst.
    + split; [left; reflexivity|]. intros e' [<-|He]; [lia|]. specialize (I2 _ He). lia.
    + split; [right; exact I1|]. intros e' [<-|He]; [lia|]. apply I2, He.
  - inversion E; subst. split; [left; reflexivity|]. intros e' [<-|He]; [lia|]. destruct r as [|y r]; [destruct He|]. cbn [lowest] in Em. destruct (lowest r) as [m|]; [destruct (y.2 <=? m.2); discriminate|discriminate].
Qed.
Lemma drop_perm e l : In e l -> Permutation (e :: drop_entry e l) l.
Proof.
  induction l as [|x r IH]; [intros []|]. cbn [drop_entry]. intros [->|H].
  - rewrite bool_decide_eq_true_2 by reflexivity. reflexivity.
  - case_bool_decide; [subst; reflexivity|]. etransitivity; [apply perm_swap|]. constructor. apply IH, H.
Qed.
Lemma search_queue_ok : queue_ok search_queue /\ lowest_first Z.le search_queue.
Proof.
  split; [split; [|split]|].
  - reflexivity.
  - intros l e E. cbn in E |- *. rewrite E. apply drop_perm. apply lowest_in, E.
  - intros l. cbn. destruct l as [|x r]; [tauto|]. cbn [lowest]. split; [|discriminate]. destruct (lowest r) as [m|]; [destruct (x.2 <=? m.2)|]; discriminate.
  - intros l e E. cbn in E. apply lowest_in, E.
Qed.
