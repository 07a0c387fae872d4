(** Proofs about color routing: laying compatible routes. *)
From Coq Require Import ZArith Bool List Lia Permutation.
From stdpp Require Import gmap list.
From Verif Require Import CoordMap CoordModel CoordSpec CoordProofs GridModel GridSpec ClockModel GateModel GateSpec GateProofs GateProofs2 GateProofs3 CellModel PathModel PathSpec RouteModel RouteSpec RouteProofs RouteProofs2 RouteProofs3
  ColorModel ColorSpec EpgModel EpgSpec EpgProofs EpgProofs2.
Import ListNotations.
Open Scope nat_scope.

(** Routes that can be laid on [st]. *)
Definition fits (st : glayout) (p : list coord) : Prop := exists src mid tgt, p = src :: mid ++ [tgt] /\ List.NoDup mid /\
  (forall t, In t mid -> free_tile st t /\ inb (cl_dim (g_cl st)) t) /\ cd tgt = false /\ is_empty_tile st tgt = false.
Fixpoint lay (st : glayout) (routes : list (list coord)) : option glayout :=
  match routes with
  | [] => Some st
  | p :: r => match route_path st p with Some st' => lay st' r | None => None end
  end.
Lemma laid_nil st : laid st st [].
Proof.
  constructor; cbn; auto.
  - intros m Hm. rewrite app_nil_r. auto.
  - intros p i u t [].
Qed.
Lemma last_any {A} (l : list A) a d d' : List.last (a :: l) d = List.last (a :: l) d'.
Proof. revert a; induction l as [|b l IH]; intros a; [reflexivity|]. exact (IH b). Qed.
Lemma last_pred (src tgt d : coord) mid : List.last (removelast (src :: mid ++ [tgt])) d = List.last (src :: mid) src.
Proof.
  change (src :: mid ++ [tgt]) with ((src :: mid) ++ [tgt]). rewrite removelast_last. apply last_any.
Qed.
Lemma laid_one st p : wf st -> fits st p -> exists st', route_path st p = Some st' /\ wf st' /\ laid st st' [p].
Proof.
  intros Hw (src & mid & tgt & -> & N & F & Dt & Et). assert (Hi : inv1 st) by apply Hw.
  assert (Sp : map (spot st) mid = mid).
  { rewrite <- (map_id mid) at 2. apply map_ext_in. intros c Hc. unfold spot. destruct (F c Hc) as [[_ E] _]. rewrite E. reflexivity. }
  destruct (route_path_ok st src mid tgt Hi) as (st' & E & Hi' & L & A1 & A2 & A3 & A4 & A5 & A6 & A7);
    [rewrite Sp; apply NoDup_ListNoDup; exact N|rewrite Sp; intros t Ht; apply F; exact Ht|exact Dt|exact Et|]. rewrite Sp in *.
  exists st'. split; [exact E|]. split.
  { eapply route_path_wf; [exact Hw| | | |exact Dt|exact Et|exact E]; rewrite Sp; [apply NoDup_ListNoDup; exact N|intros t Ht; apply F; exact Ht|intros t Ht; apply F; exact Ht]. }
  constructor.
  - auto.
  - intros t Ht. unfold get_node. rewrite A6; [reflexivity|]. intros K. apply (Ht _ (or_introl eq_refl)). rewrite inner_shape. exact K.
  - cbn [map concat]. rewrite inner_shape, app_nil_r, L. reflexivity.
  - intros m Hm. destruct (A5 m Hm) as (K1 & K2 & K3). split; [unfold get_tile; rewrite K3; reflexivity|]. split; [exact K2|]. rewrite K1.
    cbn [flat_map]. rewrite app_nil_r. apply Permutation_app_head. rewrite last_pred. change (src :: mid ++ [tgt]) with ((src :: mid) ++ [tgt]). rewrite last_last. rewrite (Nat.eqb_sym m). destruct (_ =? m); reflexivity.
  - intros p i u t [<-|[]] Hu Ht. rewrite inner_shape in Ht.
    assert (Hu' : (src :: mid) !! i = Some u).
    { change (src :: mid ++ [tgt]) with ((src :: mid) ++ [tgt]) in Hu. rewrite lookup_app_l in Hu; [exact Hu|]. cbn. apply lookup_lt_Some in Ht. lia. }
    destruct (A7 i t u Ht Hu') as (K1 & K2 & K3). cbv zeta in *. assert (G : get_node st' t = length (g_nodes st) + i) by (unfold get_node; rewrite K1; reflexivity).
    rewrite G. split; [lia|]. split; [|split; [unfold is_wire; rewrite K2; reflexivity|exact K3]].
    assert (Ht' : In t mid) by (apply elem_of_list_In; eapply elem_of_list_lookup_2; exact Ht).
    rewrite <- G. apply (occ_live st' t Hi'); [|apply F; exact Ht']. unfold is_empty_tile. rewrite G. apply Nat.eqb_neq. pose proof (i_two _ (i_0 _ Hi)). lia.
Qed.
Lemma fits_after st st' p q : wf st -> fits st p -> fits st q -> laid st st' [p] -> ~ share_tile p q -> fits st' q.
Proof.
  intros Hw Fp (src & mid & tgt & -> & N & F & Dt & Et) Ld NS. exists src, mid, tgt. split; [reflexivity|]. split; [exact N|].
  destruct (l_pins _ _ _ Ld) as (_ & _ & C & _). split; [|split; [exact Dt|]].
  - intros t Ht. destruct (F t Ht) as [[D E] B]. split; [|rewrite C; exact B]. split; [exact D|]. unfold is_empty_tile in *. rewrite (l_rest _ _ _ Ld); [exact E|].
    intros r [<-|[]] K. apply NS. exists t. split; [exact K|]. rewrite inner_shape. exact Ht.
  - unfold is_empty_tile in *. rewrite (l_rest _ _ _ Ld); [exact Et|]. intros r [<-|[]] K.
    destruct Fp as (s' & mid' & t' & -> & _ & F' & _). rewrite inner_shape in K. destruct (F' _ K) as [[_ E] _]. unfold is_empty_tile in E. congruence.
Qed.
Lemma laid_cons st st1 st' p rest : wf st -> fits st p -> (forall q, In q rest -> fits st q) -> (forall q, In q rest -> ~ share_tile p q) ->
  laid st st1 [p] -> laid st1 st' rest -> laid st st' (p :: rest).
Proof.
  intros Hw Fp Fr NS L1 L2. assert (Hi : inv1 st) by apply Hw.
  assert (Len : length (g_nodes st1) = length (g_nodes st) + length (inner p)) by (rewrite (l_new _ _ _ L1); cbn; rewrite app_nil_r; reflexivity).
  assert (TG : forall q, In q rest -> get_node st1 (List.last q (live 0 0 0)) = get_node st (List.last q (live 0 0 0)) /\ get_node st (List.last q (live 0 0 0)) < length (g_nodes st)).
  { intros q Hq. destruct (Fr q Hq) as (src & mid & tgt & -> & N & F & Dt & Et). change (src :: mid ++ [tgt]) with ((src :: mid) ++ [tgt]). rewrite last_last. split.
    - apply (l_rest _ _ _ L1). intros r [<-|[]] K. destruct Fp as (s' & mid' & t' & -> & _ & F' & _). rewrite inner_shape in K. destruct (F' _ K) as [[_ E] _]. congruence.
    - apply occ_live; assumption. }
  constructor.
  - destruct (l_pins _ _ _ L1) as (A1 & A2 & A3 & A4), (l_pins _ _ _ L2) as (B1 & B2 & B3 & B4). repeat split; congruence.
  - intros t Ht. rewrite (l_rest _ _ _ L2); [|intros q Hq; apply Ht; right; exact Hq]. apply (l_rest _ _ _ L1). intros q [<-|[]]. apply Ht. left. reflexivity.
  - rewrite (l_new _ _ _ L2), Len. cbn [map concat]. rewrite app_length. lia.
  - intros m Hm. destruct (l_old _ _ _ L1 m Hm) as (A1 & A2 & A3), (l_old _ _ _ L2 m ltac:(lia)) as (B1 & B2 & B3).
    split; [congruence|]. split; [congruence|]. rewrite B3, A3. cbn [flat_map]. rewrite app_nil_r, <- app_assoc. do 2 apply Permutation_app_head.
    assert (E : forall l, (forall q, In q l -> In q rest) ->
      flat_map (fun p0 => if get_node st1 (List.last p0 (live 0 0 0)) =? m then [List.last (removelast p0) (live 0 0 0)] else []) l =
      flat_map (fun p0 => if get_node st (List.last p0 (live 0 0 0)) =? m then [List.last (removelast p0) (live 0 0 0)] else []) l).
    { induction l as [|q l IH]; intros H; [reflexivity|]. cbn [flat_map]. rewrite (proj1 (TG q (H q (or_introl eq_refl)))), IH; [reflexivity|]. intros x Hx. apply H. right. exact Hx. }
    rewrite E; auto.
  - intros q i u t [<-|Hq] Hu Ht.
    + destruct (l_wires _ _ _ L1 p i u t (or_introl eq_refl) Hu Ht) as (A1 & A2 & A3 & A4).
      assert (Ht' : In t (inner p)) by (apply elem_of_list_In; eapply elem_of_list_lookup_2; exact Ht).
      assert (G : get_node st' t = get_node st1 t).
      { apply (l_rest _ _ _ L2). intros q Hq K. apply (NS q Hq). exists t. auto. }
      rewrite G. set (n := get_node st1 t) in *.
      assert (Ln : n < length (g_nodes st1)).
      { destruct (Nat.lt_ge_cases n (length (g_nodes st1))) as [K|K]; [exact K|exfalso]. unfold is_wire, node_at in A3. rewrite (lookup_ge_None_2 (g_nodes st1) n K) in A3. cbn in A3. discriminate. }
      destruct (l_old _ _ _ L2 n Ln) as (B1 & B2 & B3). split; [exact A1|]. split; [congruence|]. split; [unfold is_wire in *; congruence|].
      rewrite A4 in B3. assert (E : forall l, (forall q, In q l -> In q rest) ->
        flat_map (fun p0 => if get_node st1 (List.last p0 (live 0 0 0)) =? n then [List.last (removelast p0) (live 0 0 0)] else []) l = []).
      { induction l as [|q l IH]; intros H; [reflexivity|]. cbn [flat_map]. destruct (TG q (H q (or_introl eq_refl))) as [T1 T2]. rewrite T1.
        destruct (Nat.eqb_spec (get_node st (List.last q (live 0 0 0))) n); [lia|]. apply IH. intros x Hx. apply H. right. exact Hx. }
      rewrite E in B3 by auto. symmetry in B3. apply Permutation_length_1_inv in B3. exact B3.
    + destruct (l_wires _ _ _ L2 q i u t Hq Hu Ht) as (A1 & A2 & A3 & A4). split; [lia|auto].
Qed.
Lemma lay_ok st routes : wf st -> (forall p, In p routes -> fits st p) -> ForallOrdPairs (fun p q => ~ share_tile p q) routes ->
  exists st', lay st routes = Some st' /\ wf st' /\ laid st st' routes.
Proof.
  revert st; induction routes as [|p rest IH]; intros st Hw F P.
  - exists st. split; [reflexivity|]. split; [exact Hw|apply laid_nil].
  - inversion P as [|? ? P1 P2]; subst. rewrite Forall_forall in P1. assert (Fp : fits st p) by (apply F; left; reflexivity).
    destruct (laid_one st p Hw Fp) as (st1 & E1 & W1 & L1).
    assert (NS : forall q, In q rest -> ~ share_tile p q) by (intros q Hq; apply P1, elem_of_list_In; exact Hq).
    destruct (IH st1 W1) as (st' & E2 & W2 & L2); [|exact P2|].
    { intros q Hq. apply (fits_after st st1 p q Hw Fp); [apply F; right; exact Hq|exact L1|apply NS; exact Hq]. }
    exists st'. split; [cbn [lay]; rewrite E1; exact E2|]. split; [exact W2|].
    apply (laid_cons st st1); try assumption. intros q Hq. apply F. right. exact Hq.
Qed.
Lemma laid_perm st st' routes routes' : Permutation routes routes' -> laid st st' routes -> laid st st' routes'.
Proof.
  intros P [A B C D E]. constructor.
  - exact A.
  - intros t Ht. apply B. intros p Hp. apply Ht. eapply Permutation_in; eassumption.
  - rewrite C. f_equal. assert (PC : Permutation (concat (map inner routes)) (concat (map inner routes'))).
    { rewrite <- !flat_map_concat_map. apply Permutation_flat_map. exact P. }
    apply Permutation_length. exact PC.
  - intros m Hm. destruct (D m Hm) as (D1 & D2 & D3). split; [exact D1|]. split; [exact D2|]. rewrite D3. apply Permutation_app_head. apply Permutation_flat_map. exact P.
  - intros p i u t Hp. apply E. eapply Permutation_in; [symmetry; exact P|exact Hp].
Qed.
