(** Proofs about neighbourhoods of sample points and the parallel evaluation of given points (see OpDomModel.v, OpDomSpec.v). *)
From Coq Require Import ZArith Bool List Lia Permutation.
From stdpp Require Import gmap list.
From Verif Require Import UtilModel UtilSpec UtilProofs OpDomModel OpDomSpec.
Import ListNotations.

(** ** Neighbourhoods *)
Lemma shifted_ok dims : forall sp i c p, length sp = length dims -> shifted dims sp i = Some (c, p) ->
  on_grid dims p /\ Forall2 close sp p /\ (c = true <-> p = sp).
Proof.
  induction dims as [|n dims IH]; intros sp i c p L H; destruct sp as [|s sp]; cbn [length] in L; try lia.
  - cbn in H. injection H as <- <-. repeat split; constructor.
  - cbn [shifted] in H. cbv zeta in H.
    set (o := (Z.of_nat (i mod 3) - 1)%Z) in *.
    assert (Ho : (-1 <= o <= 1)%Z) by (unfold o; pose proof (Nat.mod_upper_bound i 3 ltac:(lia)); lia). clearbody o.
    destruct ((Z.of_nat s + o <? 0) || (Z.of_nat n <=? Z.of_nat s + o))%Z eqn:E; [discriminate|].
    apply orb_false_iff in E. destruct E as [E1 E2]. apply Z.ltb_ge in E1. apply Z.leb_gt in E2.
    destruct (shifted dims sp (i / 3)) as [[c' p']|] eqn:Es; [|discriminate].
    injection H as <- <-. assert (L' : length sp = length dims) by lia. destruct (IH _ _ _ _ L' Es) as (G & F & C).
    split; [|split].
    + constructor; [lia|exact G].
    + constructor; [unfold close; lia|exact F].
    + rewrite andb_true_iff, Z.eqb_eq, C. split; [intros [-> ->]; f_equal; lia|].
      intros [= H1 H2]. split; [lia|exact H2].
Qed.

Lemma shifted_ex dims : forall sp p, on_grid dims p -> Forall2 close sp p ->
  exists i c, i < 3 ^ length dims /\ shifted dims sp i = Some (c, p).
Proof.
  induction dims as [|n dims IH]; intros sp p G F.
  - inversion G; subst. inversion F; subst. exists 0, true. cbn. split; [lia|reflexivity].
  - inversion G as [|y ? p' ? Hy G']; subst. inversion F as [|s ? sp' ? Hc F']; subst.
    destruct (IH _ _ G' F') as (i & c & Hi & Hs).
    unfold close in Hc. set (o := (y + 1 - s)%nat).
    assert (Ho : (o <= 2)%nat) by (unfold o; lia).
    exists (3 * i + o)%nat, ((Z.of_nat o - 1 =? 0)%Z && c). split.
    + cbn [length]. rewrite Nat.pow_succ_r'. lia.
    + cbn [shifted]. cbv zeta.
      assert (Em : (3 * i + o) mod 3 = o) by (rewrite Nat.add_comm, Nat.mul_comm, Nat.mod_add by lia; apply Nat.mod_small; lia).
      assert (Ed : (3 * i + o) / 3 = i) by (rewrite Nat.add_comm, Nat.mul_comm, Nat.div_add by lia; rewrite Nat.div_small by lia; lia).
      rewrite Em, Ed, Hs.
      assert (Hz : (Z.of_nat s + (Z.of_nat o - 1))%Z = Z.of_nat y) by (unfold o; lia).
      rewrite Hz.
      destruct ((Z.of_nat y <? 0) || (Z.of_nat n <=? Z.of_nat y))%Z eqn:E.
      * apply orb_true_iff in E. rewrite Z.ltb_lt, Z.leb_le in E. lia.
      * rewrite Nat2Z.id. reflexivity.
Qed.

Lemma shifted_inj dims : forall sp i j c1 c2 p, length sp = length dims -> i < 3 ^ length dims -> j < 3 ^ length dims ->
  shifted dims sp i = Some (c1, p) -> shifted dims sp j = Some (c2, p) -> i = j.
Proof.
  induction dims as [|n dims IH]; intros sp i j c1 c2 p L Hi Hj H1 H2; destruct sp as [|s sp]; cbn [length] in *; try lia.
  - cbn in Hi, Hj. lia.
  - rewrite Nat.pow_succ_r' in Hi, Hj.
    cbn [shifted] in H1, H2. cbv zeta in H1, H2.
    pose proof (Nat.mod_upper_bound i 3 ltac:(lia)). pose proof (Nat.mod_upper_bound j 3 ltac:(lia)).
    pose proof (Nat.div_mod_eq i 3) as Ei. pose proof (Nat.div_mod_eq j 3) as Ej.
    assert (i / 3 < 3 ^ length dims) by (apply Nat.div_lt_upper_bound; lia).
    assert (j / 3 < 3 ^ length dims) by (apply Nat.div_lt_upper_bound; lia).
    destruct (_ || _)%Z eqn:E1 in H1; [discriminate|].
    destruct (_ || _)%Z eqn:E2 in H2; [discriminate|].
    apply orb_false_iff in E1, E2. rewrite Z.ltb_ge, Z.leb_gt in E1, E2.
    destruct (shifted dims sp (i / 3)) as [[a p1]|] eqn:S1; [|discriminate].
    destruct (shifted dims sp (j / 3)) as [[b p2]|] eqn:S2; [|discriminate].
    injection H1 as _ <-. injection H2 as _ Hx ->.
    change (2 - (Nat.divmod j 2 0 2).2) with (j mod 3) in Hx. change (2 - (Nat.divmod i 2 0 2).2) with (i mod 3) in Hx.
    assert (Eq : i / 3 = j / 3) by (assert (L2 : length sp = length dims) by lia; eapply IH; eauto). clear IH S1 S2. assert (i mod 3 = j mod 3) by (clear Ei Ej; set (ra := i mod 3) in *; set (rb := j mod 3) in *; clearbody ra rb; lia). lia.
Qed.

Lemma moore_in dims sp m : length sp = length dims -> In m (moore_neighborhood dims sp) <-> adjacent dims sp m.
Proof.
  intros L. unfold moore_neighborhood. rewrite in_flat_map. split.
  - intros (i & _ & H). destruct (shifted dims sp i) as [[[|] p]|] eqn:E; cbn in H; try tauto.
    destruct H as [->|[]]. destruct (shifted_ok _ _ _ _ _ L E) as (G & F & C). split; [exact G|split; [exact F|]].
    intros Em. apply C in Em. discriminate.
  - intros (G & F & N). destruct (shifted_ex _ _ _ G F) as (i & c & Hi & Hs). exists i. split; [apply in_seq; lia|].
    rewrite Hs. destruct c; [|left; reflexivity].
    destruct (shifted_ok _ _ _ _ _ L Hs) as (_ & _ & C). destruct N. apply C. reflexivity.
Qed.

Lemma moore_nodup dims sp : length sp = length dims -> List.NoDup (moore_neighborhood dims sp).
Proof.
  intros L. unfold moore_neighborhood.
  assert (H : forall l, List.NoDup l -> (forall i, In i l -> i < 3 ^ length dims) ->
    List.NoDup (flat_map (fun i => match shifted dims sp i with Some (false, p) => [p] | _ => [] end) l)).
  { intros l. induction l as [|i l IH]; intros ND B; [constructor|]. inversion ND; subst. cbn [flat_map].
    specialize (IH H2 (fun j Hj => B j (or_intror Hj))).
    destruct (shifted dims sp i) as [[[|] p]|] eqn:E; cbn [app]; [exact IH| |exact IH].
    constructor; [|exact IH]. rewrite in_flat_map. intros (j & Hj & Hp).
    destruct (shifted dims sp j) as [[[|] p']|] eqn:E'; cbn in Hp; try tauto. destruct Hp as [->|[]].
    assert (i = j) by (eapply shifted_inj; eauto; apply B; cbn; auto). subst. contradiction. }
  apply H; [apply seq_NoDup|]. intros i Hi. apply in_seq in Hi. lia.
Qed.

Lemma moore_2d_in nx ny x y m : x < nx -> y < ny ->
  In m (moore_neighborhood_2d nx ny x y) <-> adjacent [nx; ny] [x; y] m.
Proof.
  intros Hx Hy.
  assert (A : adjacent [nx; ny] [x; y] m <->
    exists a b, m = [a; b] /\ a < nx /\ b < ny /\ close x a /\ close y b /\ (a <> x \/ b <> y)).
  { unfold adjacent, on_grid. split.
    - intros (G & F & N). inversion G as [|a ? m' ? Ha G']; subst. inversion G' as [|b ? m'' ? Hb G'']; subst.
      inversion G''; subst. inversion F as [|? ? ? ? C1 F']; subst. inversion F' as [|? ? ? ? C2 F'']; subst.
      exists a, b. split; [reflexivity|]. repeat (split; [assumption|]).
      destruct (Nat.eq_dec a x) as [->|]; [|auto]. destruct (Nat.eq_dec b y) as [->|]; [congruence|auto].
    - intros (a & b & -> & Ha & Hb & C1 & C2 & N). repeat split; repeat (constructor; auto).
      intros [= -> ->]. lia. }
  rewrite A. unfold moore_neighborhood_2d, close.
  destruct (Nat.ltb_spec 0 x), (Nat.ltb_spec (x + 1) nx), (Nat.ltb_spec 0 y), (Nat.ltb_spec (y + 1) ny);
    repeat match goal with |- context [(?a =? ?b)] => destruct (Nat.eqb_spec a b); try lia end;
    cbn [negb andb app In].
  all: split.
  all: try (intros (a & b & -> & Ha & Hb & C1 & C2 & N);
      assert (Da : a = x \/ a = x + 1 \/ (a = x - 1 /\ 0 < x)) by lia;
      assert (Db : b = y \/ b = y + 1 \/ (b = y - 1 /\ 0 < y)) by lia;
      destruct Da as [-> | [-> | [-> ?]]]; destruct Db as [-> | [-> | [-> ?]]]; try lia; tauto).
  all: intros HH; repeat match type of HH with _ \/ _ => destruct HH as [HH|HH] end; try contradiction;
      subst m; eexists _, _; (split; [reflexivity|lia]).
Qed.

Lemma moore_2d_nodup nx ny x y : List.NoDup (moore_neighborhood_2d nx ny x y).
Proof.
  unfold moore_neighborhood_2d.
  destruct (Nat.ltb_spec 0 x), (Nat.ltb_spec (x + 1) nx), (Nat.ltb_spec 0 y), (Nat.ltb_spec (y + 1) ny);
    repeat match goal with |- context [(?a =? ?b)] => destruct (Nat.eqb_spec a b); try lia end;
    cbn [negb andb app];
    repeat (first [apply List.NoDup_nil | apply List.NoDup_cons;
      [cbn [In]; intros HH; repeat match type of HH with _ \/ _ => destruct HH as [HH|HH] end; try contradiction;
       injection HH; lia|]]).
Qed.

Lemma von_neumann_loop_in dims : forall pre sp m, on_grid dims sp ->
  In m (von_neumann_loop pre dims sp) <->
  exists m', m = pre ++ m' /\ beside dims sp m'.
Proof.
  unfold beside, on_grid.
  induction dims as [|n dims IH]; intros pre sp m G; inversion G as [|s ? sp' ? Hs G']; subst.
  - cbn. split; [tauto|]. intros (m' & _ & _ & p1 & x & y & q & E & _). destruct p1; discriminate.
  - cbn [von_neumann_loop]. rewrite !in_app_iff, (IH _ _ _ G'). split.
    + intros [H|[H|(m' & -> & Hm & p1 & x & y & q & -> & -> & Hxy)]].
      * destruct (Nat.ltb_spec 0 s); cbn in H; [|tauto]. destruct H as [<-|[]].
        exists (s - 1 :: sp'). split; [reflexivity|]. split; [constructor; [lia|exact G']|].
        exists [], s, (s - 1), sp'. repeat split. lia.
      * destruct (Nat.ltb_spec (s + 1) n); cbn in H; [|tauto]. destruct H as [<-|[]].
        exists (s + 1 :: sp'). split; [reflexivity|]. split; [constructor; [lia|exact G']|].
        exists [], s, (s + 1), sp'. repeat split. lia.
      * exists (s :: p1 ++ y :: q). rewrite <- app_assoc. split; [reflexivity|]. split; [constructor; assumption|].
        exists (s :: p1), x, y, q. repeat split. exact Hxy.
    + intros (m' & -> & Hm & p1 & x & y & q & E & -> & Hxy). destruct p1 as [|a p1].
      * injection E as <- <-. inversion Hm; subst. destruct Hxy as [-> | ->].
        -- right. left. destruct (Nat.ltb_spec (s + 1) n); [|lia]. left. cbn. do 2 f_equal. lia.
        -- left. destruct (Nat.ltb_spec 0 (S y)); [|lia]. left. cbn. do 2 f_equal. lia.
      * injection E as <- ->. right. right. inversion Hm; subst. exists (p1 ++ y :: q). rewrite <- app_assoc.
        split; [reflexivity|]. split; [assumption|]. exists p1, x, y, q. repeat split. exact Hxy.
Qed.
Lemma von_neumann_in dims sp m : on_grid dims sp -> In m (von_neumann_neighborhood dims sp) <-> beside dims sp m.
Proof.
  intros G. unfold von_neumann_neighborhood. rewrite (von_neumann_loop_in _ _ _ _ G). cbn. split.
  - intros (m' & -> & H). exact H.
  - intros H. exists m. auto.
Qed.
Lemma von_neumann_nodup dims sp : on_grid dims sp -> List.NoDup (von_neumann_neighborhood dims sp).
Proof.
  unfold von_neumann_neighborhood. generalize (@nil nat) as pre. revert sp.
  induction dims as [|n dims IH]; intros sp pre G; inversion G as [|s ? sp' ? Hs G']; subst; [constructor|].
  cbn [von_neumann_loop].
  assert (R : forall t, t <> s -> ~ In (pre ++ t :: sp') (von_neumann_loop (pre ++ [s]) dims sp')).
  { intros t Ht H. apply von_neumann_loop_in in H; [|exact G']. destruct H as (m' & E & _).
    rewrite <- app_assoc in E. apply app_inv_head in E. injection E as E _. contradiction. }
  destruct (Nat.ltb_spec 0 s), (Nat.ltb_spec (s + 1) n); cbn [app]; repeat apply List.NoDup_cons; try (apply IH; exact G').
  - cbn [In]. intros [E|E]; [apply app_inv_head in E; injection E; lia|revert E; apply R; lia].
  - apply R; lia.
  - apply R; lia.
  - apply R; lia.
Qed.

Lemma all_points_in dims p : In p (all_points dims) <-> on_grid dims p.
Proof.
  unfold all_points, on_grid. rewrite cart_In. revert p.
  induction dims as [|n dims IH]; intros p; cbn [map]; split; intros H; inversion H; subst; constructor; auto.
  - match goal with H : In _ (seq _ _) |- _ => apply in_seq in H; lia end.
  - apply IH. assumption.
  - apply in_seq. lia.
  - apply IH. assumption.
Qed.

(** ** Slices *)
Lemma slices_from_concat size points : 0 < size -> forall k i, length points <= (i + k) * size ->
  concat (slices_from size points i k) = skipn (i * size) points.
Proof.
  intros Hs k. induction k as [|k IH]; intros i Hk; cbn [slices_from].
  - rewrite skipn_all2 by lia. reflexivity.
  - cbv zeta. destruct (Nat.leb_spec (Nat.min (i * size + size) (length points)) (i * size)) as [H|H].
    + rewrite skipn_all2 by lia. reflexivity.
    + cbn [concat]. rewrite (IH (S i)) by lia.
      destruct (Nat.le_gt_cases (i * size + size) (length points)) as [L|L].
      * rewrite Nat.min_l by lia. replace (i * size + size - i * size) with size by lia.
        replace (S i * size) with (i * size + size) by lia.
        rewrite <- (drop_drop points size (i * size)). apply firstn_skipn.
      * rewrite Nat.min_r by lia. rewrite (skipn_all2 points (n := S i * size)) by lia. rewrite app_nil_r.
        apply firstn_all2. rewrite skipn_length. lia.
Qed.
Lemma slices_concat threads points : concat (slices threads points) = points.
Proof.
  unfold slices. destruct points as [|a points].
  - unfold num_slices. cbn [length]. rewrite Nat.min_0_r. change (Nat.max 0 1) with 1.
    cbn [slices_from length]. cbv zeta. rewrite Nat.min_0_r. reflexivity.
  - set (l := a :: points). set (n := num_slices threads (length l)).
    assert (Hn : 0 < n) by (unfold n, num_slices; lia).
    assert (Hl : 0 < length l) by (cbn; lia).
    assert (E : length l <= n * slice_size threads (length l) /\ 0 < slice_size threads (length l)).
    { unfold slice_size. fold n. clearbody n l. generalize dependent (length l). intros L HL.
      pose proof (Nat.div_mod_eq (L + n - 1) n) as E. pose proof (Nat.mod_upper_bound (L + n - 1) n ltac:(lia)).
      split; [lia|]. apply Nat.div_str_pos. lia. }
    rewrite slices_from_concat by lia. reflexivity.
Qed.

(** ** Parallel evaluation *)
Definition rem_of (t : tstate) : list point := match t with TNext l => l | TSim sp l => sp :: l end.
Definition remaining (s : pstate) : list point := concat (map rem_of (p_threads s)).

Lemma concat_map_insert {A} (f : A -> list point) (ts : list A) i t0 t x : ts !! i = Some t0 -> f t0 ≡ₚ x ++ f t ->
  concat (map f ts) ≡ₚ x ++ concat (map f (<[i := t]> ts)).
Proof.
  revert i. induction ts as [|a ts IH]; intros [|i] H E; cbn in H; try discriminate.
  - injection H as ->. cbn. rewrite E, app_assoc. reflexivity.
  - cbn [map concat list_insert insert]. change (<[S i:=t]> (a :: ts)) with (a :: <[i:=t]> ts). cbn [map concat].
    rewrite (IH i H E). rewrite !app_assoc. apply Permutation_app_tail. apply Permutation_app_comm.
Qed.

Lemma add_value_lookup dom sp b p c : add_value dom sp b !! p = Some c ->
  dom !! p = Some c \/ (p = sp /\ c = b /\ dom !! sp = None).
Proof.
  unfold add_value. destruct (dom !! sp) eqn:E; [auto|]. destruct (decide (sp = p)) as [->|N].
  - rewrite lookup_insert. intros [= <-]. auto.
  - rewrite lookup_insert_ne by exact N. auto.
Qed.
Lemma add_value_mono dom sp b p : is_Some (dom !! p) -> is_Some (add_value dom sp b !! p).
Proof.
  unfold add_value. destruct (dom !! sp) eqn:E; [auto|]. intros H. destruct (decide (sp = p)) as [->|N].
  - rewrite lookup_insert. eauto.
  - rewrite lookup_insert_ne by exact N. exact H.
Qed.
Lemma add_value_there dom sp b : is_Some (add_value dom sp b !! sp).
Proof. unfold add_value. destruct (dom !! sp) eqn:E; [rewrite E; eauto|rewrite lookup_insert; eauto]. Qed.

Section Par.
Context (op : point -> bool) (points : list point).

Record pinv (s : pstate) : Prop := {
  pi_sound : forall p b, p_dom s !! p = Some b -> In p points /\ b = op p /\ In p (p_log s);
  pi_rem : forall p, In p (remaining s) -> In p points;
  pi_cover : forall p, In p points -> is_Some (p_dom s !! p) \/ In p (remaining s);
  pi_log : forall p, In p (p_log s) -> is_Some (p_dom s !! p);
  pi_once : List.NoDup points -> Permutation points (p_log s ++ remaining s) }.

Lemma par_start_inv threads : pinv (par_start threads points).
Proof.
  assert (E : remaining (par_start threads points) = points).
  { unfold remaining, par_start. cbn [p_threads]. rewrite map_map. cbn. rewrite map_id. apply slices_concat. }
  split.
  - cbn. intros p b H. rewrite lookup_empty in H. discriminate.
  - rewrite E. auto.
  - rewrite E. auto.
  - cbn. tauto.
  - rewrite E. reflexivity.
Qed.

Lemma par_step_inv i s s' : pinv s -> par_step op i s = Some s' -> pinv s'.
Proof.
  intros [PS PR PC PL PO] H. unfold par_step in H.
  destruct (p_threads s !! i) as [[[|sp todo]|sp todo]|] eqn:Ei; try discriminate.
  - destruct (p_dom s !! sp) as [b|] eqn:Ed; injection H as <-.
    + assert (E : remaining s ≡ₚ [sp] ++ concat (map rem_of (<[i:=TNext todo]> (p_threads s)))).
      { apply (concat_map_insert rem_of (p_threads s) i (TNext (sp :: todo))); [exact Ei|reflexivity]. }
      set (R := concat (map rem_of (<[i:=TNext todo]> (p_threads s)))) in *.
      split; cbn [p_dom p_log]; unfold remaining; cbn [p_threads]; fold R.
      * exact PS.
      * intros p Hp. apply PR. rewrite E. right. exact Hp.
      * intros p Hp. destruct (PC p Hp) as [D|D]; [auto|]. rewrite E in D. destruct D as [<-|D]; [left; eauto|auto].
      * exact PL.
      * intros ND. specialize (PO ND). exfalso.
        assert (ND' : List.NoDup (p_log s ++ remaining s)) by (eapply Permutation_NoDup; eauto).
        destruct (PS _ _ Ed) as (_ & _ & Hl).
        assert (Hr : In sp (remaining s)) by (rewrite E; left; reflexivity).
        apply NoDup_ListNoDup in ND'. apply NoDup_app in ND'. destruct ND' as (_ & ND' & _).
        apply (ND' sp); rewrite elem_of_list_In; assumption.
    + assert (E : remaining s ≡ₚ [] ++ concat (map rem_of (<[i:=TSim sp todo]> (p_threads s)))).
      { apply (concat_map_insert rem_of (p_threads s) i (TNext (sp :: todo))); [exact Ei|reflexivity]. }
      cbn [app] in E.
      set (R := concat (map rem_of (<[i:=TSim sp todo]> (p_threads s)))) in *.
      split; cbn [p_dom p_log]; unfold remaining; cbn [p_threads]; fold R.
      * exact PS.
      * intros p Hp. apply PR. rewrite E. exact Hp.
      * intros p Hp. rewrite <- E. apply PC. exact Hp.
      * exact PL.
      * intros ND. rewrite <- E. auto.
  - injection H as <-.
    assert (E : remaining s ≡ₚ [sp] ++ concat (map rem_of (<[i:=TNext todo]> (p_threads s)))).
    { apply (concat_map_insert rem_of (p_threads s) i (TSim sp todo)); [exact Ei|reflexivity]. }
    set (R := concat (map rem_of (<[i:=TNext todo]> (p_threads s)))) in *.
    assert (Hr : In sp (remaining s)) by (rewrite E; left; reflexivity).
    split; cbn [p_dom p_log]; unfold remaining; cbn [p_threads]; fold R.
    + intros p b Hb. apply add_value_lookup in Hb. destruct Hb as [Hb|(-> & -> & _)].
      * destruct (PS _ _ Hb) as (H1 & H2 & H3). split; [exact H1|split; [exact H2|]]. apply in_or_app. auto.
      * split; [apply PR; exact Hr|split; [reflexivity|]]. apply in_or_app. right. left. reflexivity.
    + intros p Hp. apply PR. rewrite E. right. exact Hp.
    + intros p Hp. destruct (PC p Hp) as [D|D]; [left; apply add_value_mono; exact D|].
      rewrite E in D. destruct D as [<-|D]; [left; apply add_value_there|auto].
    + intros p Hp. apply in_app_or in Hp. destruct Hp as [Hp|[<-|[]]];
        [apply add_value_mono; auto|apply add_value_there].
    + intros ND. rewrite (PO ND), E. rewrite <- app_assoc. reflexivity.
Qed.

Lemma par_run_inv schedule s : pinv s -> pinv (par_run op schedule s).
Proof.
  revert s. induction schedule as [|i l IH]; intros s I0; cbn [par_run fold_left]; [exact I0|].
  apply IH. destruct (par_step op i s) eqn:E; [eapply par_step_inv; eauto|exact I0].
Qed.

Lemma par_finished_remaining s : par_finished s -> remaining s = [].
Proof.
  unfold par_finished, remaining. generalize (p_threads s). intros ts F. induction F as [|t ts Ht F IH]; [reflexivity|].
  cbn. rewrite Ht, IH. reflexivity.
Qed.

(** Progress and termination. *)
Lemma par_stuck s : (forall i, par_step op i s = None) -> par_finished s.
Proof.
  intros H. unfold par_finished. apply Forall_lookup. intros i t Ei. specialize (H i). unfold par_step in H. rewrite Ei in H.
  destruct t as [[|sp todo]|sp todo]; [reflexivity| |discriminate]. destruct (p_dom s !! sp); discriminate.
Qed.
Definition tcost (t : tstate) : nat := match t with TNext l => 2 * length l | TSim _ l => 2 * length l + 1 end.
Definition pcost (s : pstate) : nat := list_sum (map tcost (p_threads s)).
End Par.

Lemma sum_insert {A} (f : A -> nat) (ts : list A) i t0 t : ts !! i = Some t0 ->
  list_sum (map f (<[i := t]> ts)) + f t0 = list_sum (map f ts) + f t.
Proof.
  revert i. induction ts as [|a ts IH]; intros [|i] H; cbn in H; try discriminate.
  - injection H as ->. cbn. lia.
  - change (<[S i:=t]> (a :: ts)) with (a :: <[i:=t]> ts). specialize (IH i H). cbn [map]. unfold list_sum in *. cbn [foldr fold_right].
    lia.
Qed.

Lemma par_step_cost op i s s' : par_step op i s = Some s' -> pcost s' < pcost s.
Proof.
  intros H. unfold par_step in H.
  destruct (p_threads s !! i) as [[[|sp todo]|sp todo]|] eqn:Ei; try discriminate.
  - destruct (p_dom s !! sp) as [b|] eqn:Ed; injection H as <-; unfold pcost; cbn [p_threads].
    + pose proof (sum_insert tcost _ i _ (TNext todo) Ei) as E. cbn [tcost length] in E. lia.
    + pose proof (sum_insert tcost _ i _ (TSim sp todo) Ei) as E. cbn [tcost length] in E. lia.
  - injection H as <-; unfold pcost; cbn [p_threads].
    pose proof (sum_insert tcost _ i _ (TNext todo) Ei) as E. cbn [tcost length] in E. lia.
Qed.
Lemma par_moves_bound op schedule : forall s, par_moves op schedule s + pcost (par_run op schedule s) <= pcost s.
Proof.
  induction schedule as [|i l IH]; intros s; cbn [par_moves par_run fold_left]; [lia|].
  destruct (par_step op i s) as [s'|] eqn:E.
  - pose proof (par_step_cost _ _ _ _ E). specialize (IH s'). unfold par_run in IH. lia.
  - apply IH.
Qed.
Lemma par_start_cost threads points : pcost (par_start threads points) = 2 * length points.
Proof.
  unfold pcost, par_start. cbn [p_threads]. rewrite map_map. cbn [tcost].
  rewrite <- (slices_concat (Nat.max threads 1) points) at 2. generalize (slices (Nat.max threads 1) points). intros L.
  induction L as [|a L IH]; [reflexivity|]. cbn [map concat]. rewrite app_length. unfold list_sum in *. cbn [foldr fold_right]. lia.
Qed.
(** Any run can be completed. *)
Lemma par_complete op : forall n s, pcost s <= n -> exists schedule, par_finished (par_run op schedule s).
Proof.
  induction n as [|n IH]; intros s Hn.
  - exists []. cbn. apply (par_stuck op). intros i. destruct (par_step op i s) eqn:E; [|reflexivity].
    apply par_step_cost in E. lia.
  - destruct (decide (Forall (fun i => par_step op i s = None) (seq 0 (length (p_threads s))))) as [F|F].
    + exists []. cbn. apply (par_stuck op). intros i. destruct (decide (i < length (p_threads s))) as [L|L].
      * rewrite Forall_forall in F. apply F. apply elem_of_list_In, in_seq. lia.
      * unfold par_step. rewrite lookup_ge_None_2 by lia. reflexivity.
    + apply not_Forall_Exists in F; [|intros ?; apply _]. apply Exists_exists in F. destruct F as (i & _ & Hi).
      destruct (par_step op i s) as [s'|] eqn:E; [|contradiction].
      destruct (IH s') as (l & Hl); [apply par_step_cost in E; lia|].
      exists (i :: l). cbn [par_run fold_left]. rewrite E. exact Hl.
Qed.
