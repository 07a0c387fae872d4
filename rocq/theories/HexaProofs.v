(** Proofs about hexagonalization: the geometry. *)
From Coq Require Import ZArith Bool String List Lia ZifyBool Sorted.
From stdpp Require Import gmap list numbers strings.
From Verif Require Import CoordModel CoordSpec CoordProofs GridModel GridSpec GridProofs GridProps CoordMap ClockModel ClockSpec ClockProofs
  GateModel GateSpec GateProofs GateProofs2 GateProofs3 RouteModel RouteSpec RouteProofs HexaModel HexaSpec.
Import ListNotations.
Local Open Scope Z_scope.

Ltac zdiv := Z.div_mod_to_equations; lia.
Lemma fit31_id v : 0 <= v < 2147483648 -> fit31 v = v.
Proof. intros H. apply Z.mod_small. exact H. Qed.
(** Hexagonal column of a square on diagonal [d] = column - row. *)
Definition hex_col (H d : Z) : Z := H / 2 + (d + 1) / 2.
Lemma hex_col_mono H a b : a <= b -> hex_col H a <= hex_col H b.
Proof. intros. unfold hex_col. pose proof (Z.div_le_mono (a + 1) (b + 1) 2). lia. Qed.
Lemma to_hex_eq ar t : inb ar t -> cx ar + cy ar < 2147483648 -> to_hex (cy ar + 1) t = live (hex_col (cy ar + 1) (cx t - cy t)) (cx t + cy t) (cz t).
Proof.
  intros (Hd & Hx & Hy & Hz) Hb. unfold to_hex, hex_col. rewrite !fit31_id by zdiv. f_equal; zdiv.
Qed.
Lemma hex_col_bounds ar t : inb ar t -> 0 <= hex_col (cy ar + 1) (cx t - cy t) <= hex_col (cy ar + 1) (cx ar).
Proof. intros (Hd & Hx & Hy & Hz). unfold hex_col. split; [zdiv|]. pose proof (Z.div_le_mono (cx t - cy t + 1) (cx ar + 1) 2). lia. Qed.
Lemma hex_col_small ar : 0 <= cx ar -> 0 <= cy ar -> cx ar + cy ar < 2147483648 -> hex_col (cy ar + 1) (cx ar) < 2147483647.
Proof. intros. unfold hex_col. zdiv. Qed.

(** The offset. *)
Section Offset.
Context (st : glayout) (ar : coord).
Context (Hx : 0 <= cx ar) (Hy : 0 <= cy ar) (Hb : cx ar + cy ar < 2147483648) (Hz : 0 <= cz ar).
Let W := cx ar + 1.
Let H := cy ar + 1.
Definition on_diagonal (d : Z) (t : coord) : Prop := occupied st t /\ cz t = 0 /\ cx t + (cy ar - cy t) = d.
Context (Ear : cl_dim (g_cl st) = ar).
Context (Hocc : forall t, cd t = false -> is_empty_tile st t = false -> inb ar t).

Lemma diagonal_rows d rows o f : 0 <= o -> 0 <= d -> (forall r, In r rows -> 0 <= r < H) ->
  fold_left (fun (s : Z * bool) row =>
      let col := d - row in
      if (row <=? d) && (col <? W) then
        let t := live col (H - 1 - row) 0 in
        if negb (is_empty_tile st t) then (Z.max (fst s) (cx (to_hex H t)), true) else s
      else s) rows (o, f) =
  (if existsb (fun row => (row <=? d) && (d - row <? W) && negb (is_empty_tile st (live (d - row) (H - 1 - row) 0))) rows
   then (Z.max o (hex_col H (d - cy ar)), true) else (o, f)).
Proof.
  intros Ho Hd. revert o f Ho. induction rows as [|r rows IH]; intros o f Ho Hr; [reflexivity|]. cbn [fold_left existsb].
  assert (Hr0 : 0 <= r < H) by (apply Hr; left; reflexivity).
  assert (Hr' : forall r, In r rows -> 0 <= r < H) by (intros; apply Hr; right; assumption).
  destruct ((r <=? d) && (d - r <? W)) eqn:E1; cbn [andb orb]; [|apply IH; auto].
  apply andb_prop in E1 as [E1 E2]. cbv zeta.
  destruct (is_empty_tile st (live (d - r) (H - 1 - r) 0)) eqn:E3; cbn [negb andb orb]; [apply IH; auto|].
  assert (Ht : inb ar (live (d - r) (H - 1 - r) 0)) by (apply Hocc; [reflexivity|exact E3]).
  assert (Eh : cx (to_hex H (live (d - r) (H - 1 - r) 0)) = hex_col H (d - cy ar)).
  { pose proof (to_hex_eq ar _ Ht Hb) as E. fold H in E. rewrite E. cbn. f_equal. unfold H. lia. }
  cbn [fst]. rewrite Eh.
  rewrite IH by (auto; lia).
  destruct (existsb _ rows); [|reflexivity]. f_equal. lia.
Qed.

Lemma diagonal_step d o f : 0 <= o -> 0 <= d ->
  (offset_diagonal st W H d (o, f) = (o, f) /\ forall t, ~ on_diagonal d t) \/
  (offset_diagonal st W H d (o, f) = (Z.max o (hex_col H (d - cy ar)), true) /\ exists t, on_diagonal d t).
Proof.
  intros Ho Hd. unfold offset_diagonal. rewrite diagonal_rows; [|exact Ho|exact Hd|].
  2: { intros r Hr. apply elem_of_list_In, elem_of_seqZ in Hr. lia. }
  destruct (existsb _ _) eqn:E; [right|left]; (split; [reflexivity|]).
  - apply existsb_exists in E as (r & Hr & E). apply elem_of_list_In, elem_of_seqZ in Hr. apply andb_prop in E as [E E3]. apply andb_prop in E as [E1 E2].
    apply negb_true_iff in E3. assert (Ht : inb ar (live (d - r) (H - 1 - r) 0)) by (apply Hocc; [reflexivity|exact E3]).
    eexists. split; [split; [rewrite Ear; exact Ht|exact E3]|]. split; [reflexivity|]. cbn. unfold H. lia.
  - intros t ([Ht Et] & Hz0 & Hdt). rewrite Ear in Ht. destruct Ht as (Dt & Xt & Yt & Zt).
    assert (K : existsb (fun row => (row <=? d) && (d - row <? W) && negb (is_empty_tile st (live (d - row) (H - 1 - row) 0))) (seqZ 0 H) = true).
    { apply existsb_exists. exists (cy ar - cy t). split; [apply elem_of_list_In, elem_of_seqZ; unfold H; lia|].
      replace (d - (cy ar - cy t)) with (cx t) by lia. replace (H - 1 - (cy ar - cy t)) with (cy t) by (unfold H; lia).
      assert (live (cx t) (cy t) 0 = t) as -> by (destruct t; cbn in *; subst; reflexivity). rewrite Et.
      unfold W. cbn [negb]. rewrite andb_true_r. lia. }
    congruence.
Qed.

Lemma diagonals_spec (ds : list Z) : forall (d0 o : Z) (f : bool), ds = seqZ d0 (Z.of_nat (length ds)) -> 0 <= d0 ->
  (if f then (exists d t, d < d0 /\ on_diagonal d t /\ o = Z.max 0 (hex_col H (d - cy ar)) /\ forall d', d' < d -> forall t, ~ on_diagonal d' t)
   else o = 0 /\ forall d', d' < d0 -> forall t, ~ on_diagonal d' t) ->
  let '(o', f') := fold_left (fun (s : Z * bool) (d : Z) => if snd s then s else offset_diagonal st W H d s) ds (o, f) in
  if f' then (exists d t, on_diagonal d t /\ o' = Z.max 0 (hex_col H (d - cy ar)) /\ forall d', d' < d -> forall t, ~ on_diagonal d' t)
  else o' = 0 /\ forall d', d' < d0 + Z.of_nat (length ds) -> forall t, ~ on_diagonal d' t.
Proof.
  induction ds as [|d ds IH]; intros d0 o f Es Hd0 Hf.
  - cbn. destruct f; [destruct Hf as (d & t & _ & Hf); eauto|]. rewrite Z.add_0_r. exact Hf.
  - cbn [length] in Es. rewrite Nat2Z.inj_succ, seqZ_cons in Es by lia. injection Es as E1 E2. subst d.
    cbn [fold_left snd]. replace (Z.pred (Z.succ (Z.of_nat (length ds)))) with (Z.of_nat (length ds)) in E2 by lia.
    assert (El : d0 + Z.of_nat (length (d0 :: ds)) = Z.succ d0 + Z.of_nat (length ds)) by (cbn [length]; lia). rewrite El. clear El.
    destruct f.
    + apply (IH (Z.succ d0) o true E2 ltac:(lia)). destruct Hf as (d' & t & Hd & Hr). exists d', t. split; [lia|exact Hr].
    + destruct Hf as [-> Hn]. destruct (diagonal_step d0 0 false ltac:(lia) Hd0) as [[-> Hn0]|[-> [t Ht]]].
      * apply (IH (Z.succ d0) 0 false E2 ltac:(lia)). split; [reflexivity|]. intros d' Hd'. destruct (Z.eq_dec d' d0) as [->|]; [exact Hn0|apply Hn; lia].
      * apply (IH (Z.succ d0) _ true E2 ltac:(lia)). exists d0, t. split; [lia|]. split; [exact Ht|]. split; [reflexivity|exact Hn].
Qed.

(** The offset is the smallest hexagonal column of an occupied ground tile. *)
Lemma offset_spec : 0 <= get_offset st W H /\
  (forall t, occupied st t -> cz t = 0 -> get_offset st W H <= hex_col H (cx t - cy t)) /\
  ((exists t, occupied st t /\ cz t = 0 /\ get_offset st W H = hex_col H (cx t - cy t)) \/ (get_offset st W H = 0 /\ forall t, occupied st t -> cz t <> 0)).
Proof.
  unfold get_offset. pose proof (diagonals_spec (seqZ 0 (H + W - 1)) 0 0 false) as D.
  assert (L : Z.of_nat (length (seqZ 0 (H + W - 1))) = H + W - 1) by (rewrite seqZ_length; unfold H, W; lia). rewrite L in D.
  specialize (D eq_refl ltac:(lia)).
  destruct (fold_left _ _ _) as [o f]. cbn [fst].
  assert (Hneg : forall d', d' < 0 -> forall t, ~ on_diagonal d' t).
  { intros d' Hd' t ([(_ & Xt & Yt & _) _] & _ & Hdt). rewrite Ear in Xt, Yt. lia. }
  specialize (D (conj eq_refl Hneg)). destruct f.
  - destruct D as (d & t & Ht & -> & Hmin). assert (Hc : 0 <= hex_col H (d - cy ar)).
    { destruct Ht as ([(_ & Xt & Yt & _) _] & _ & Hdt). rewrite Ear in Xt, Yt. unfold hex_col, H. zdiv. }
    rewrite Z.max_r by exact Hc. split; [exact Hc|]. split.
    + intros u Hu Hzu. apply hex_col_mono. destruct (Z.lt_ge_cases (cx u + (cy ar - cy u)) d) as [Hlt|]; [|lia].
      exfalso. apply (Hmin _ Hlt u). repeat split; try apply Hu; auto.
    + left. exists t. destruct Ht as (Ho & Hzt & Hdt). split; [exact Ho|]. split; [exact Hzt|]. f_equal. lia.
  - destruct D as [-> Hn]. assert (Hno : forall t, occupied st t -> cz t <> 0).
    { intros t Ht Hzt. apply (Hn (cx t + (cy ar - cy t))) with t; [|repeat split; try apply Ht; auto].
      destruct Ht as [(_ & Xt & Yt & _) _]. rewrite Ear in Xt, Yt. unfold H, W. lia. }
    split; [lia|]. split; [|right; auto]. intros t Ht Hzt. destruct (Hno t Ht Hzt).
Qed.
End Offset.

(** The order of the tiles. *)
Lemma diagonal_In ar t : 0 <= cx ar -> 0 <= cy ar -> In t (diagonal_tiles ar) <-> inb ar t.
Proof.
  intros Hx Hy. unfold diagonal_tiles. rewrite in_flat_map. split.
  - intros (k & Hk & Ht). apply elem_of_list_In, elem_of_seqZ in Hk. apply in_flat_map in Ht as (x & Hxk & Ht). apply elem_of_list_In, elem_of_seqZ in Hxk.
    cbv zeta in Ht. destruct ((k - x <? cy ar + 1) && (x <? cx ar + 1)) eqn:E; [|destruct Ht]. apply in_map_iff in Ht as (z & <- & Hz).
    apply elem_of_list_In, elem_of_seqZ in Hz. unfold inb. cbn. repeat split; lia.
  - intros (Hd & Xt & Yt & Zt). exists (cx t + cy t). split; [apply elem_of_list_In, elem_of_seqZ; lia|]. apply in_flat_map. exists (cx t).
    split; [apply elem_of_list_In, elem_of_seqZ; lia|]. cbv zeta. replace (cx t + cy t - cx t) with (cy t) by lia.
    assert ((cy t <? cy ar + 1) && (cx t <? cx ar + 1) = true) as -> by lia. apply in_map_iff. exists (cz t).
    split; [destruct t; cbn in *; subst; reflexivity|apply elem_of_list_In, elem_of_seqZ; lia].
Qed.

Lemma NoDup_flat_map {A B} (f : A -> list B) (l : list A) : List.NoDup l -> (forall a, In a l -> List.NoDup (f a)) ->
  (forall a b x, In a l -> In b l -> In x (f a) -> In x (f b) -> a = b) -> List.NoDup (flat_map f l).
Proof.
  induction l as [|a l IH]; intros Hl Hf Hd; [constructor|]. cbn [flat_map]. apply List.NoDup_cons_iff in Hl as [Ha Hl].
  assert (IH' : List.NoDup (flat_map f l)).
  { apply IH; [exact Hl| |]; intros; [apply Hf; right; assumption|]. eapply Hd; eauto; right; assumption. }
  assert (Hfa : List.NoDup (f a)) by (apply Hf; left; reflexivity).
  assert (Hsep : forall x, In x (f a) -> ~ In x (flat_map f l)).
  { intros x Hx Hin. apply in_flat_map in Hin as (b & Hb & Hxb). apply Ha. rewrite (Hd a b x); auto; [left; reflexivity|right; exact Hb]. }
  clear - IH' Hfa Hsep. induction (f a) as [|x r IHr]; [exact IH'|]. cbn. apply List.NoDup_cons_iff in Hfa as [Hx Hr]. constructor.
  - rewrite in_app_iff. intros [K|K]; [exact (Hx K)|apply (Hsep x); [left; reflexivity|exact K]].
  - apply IHr; [exact Hr|]. intros y Hy. apply Hsep. right. exact Hy.
Qed.
Lemma diagonal_NoDup ar : List.NoDup (diagonal_tiles ar).
Proof.
  assert (Hs : forall a b, List.NoDup (seqZ a b)) by (intros; apply NoDup_ListNoDup, NoDup_seqZ).
  apply NoDup_flat_map; [apply Hs| |].
  - intros k _. apply NoDup_flat_map; [apply Hs| |].
    + intros x _. cbv zeta. destruct (_ && _); [|constructor]. apply FinFun.Injective_map_NoDup; [|apply Hs]. intros z1 z2 E. inversion E. reflexivity.
    + intros x1 x2 t _ _ H1 H2. cbv zeta in H1, H2. destruct (_ && _) in H1; [|destruct H1]. destruct (_ && _) in H2; [|destruct H2].
      apply in_map_iff in H1 as (z1 & <- & _). apply in_map_iff in H2 as (z2 & E & _). inversion E. reflexivity.
  - intros k1 k2 t _ _ H1 H2. apply in_flat_map in H1 as (x1 & _ & H1). apply in_flat_map in H2 as (x2 & _ & H2). cbv zeta in H1, H2.
    destruct (_ && _) in H1; [|destruct H1]. destruct (_ && _) in H2; [|destruct H2].
    apply in_map_iff in H1 as (z1 & <- & _). apply in_map_iff in H2 as (z2 & E & _). inversion E. lia.
Qed.
Definition earlier (a b : coord) : Prop := cx a + cy a <= cx b + cy b.
Lemma sorted_app {A} (R : A -> A -> Prop) l1 l2 : StronglySorted R l1 -> StronglySorted R l2 -> (forall a b, In a l1 -> In b l2 -> R a b) -> StronglySorted R (l1 ++ l2).
Proof.
  induction l1 as [|x l1 IH]; intros H1 H2 H; [exact H2|]. cbn. apply StronglySorted_inv in H1 as [S1 F1]. constructor.
  - apply IH; auto. intros a b Ha Hb. apply H; [right; exact Ha|exact Hb].
  - apply List.Forall_app. split; [exact F1|]. apply List.Forall_forall. intros b Hb. apply H; [left; reflexivity|exact Hb].
Qed.
Lemma sorted_flat_map {A B} (R : B -> B -> Prop) (Q : A -> A -> Prop) (f : A -> list B) l : StronglySorted Q l ->
  (forall a, StronglySorted R (f a)) -> (forall a b x y, Q a b -> In x (f a) -> In y (f b) -> R x y) -> StronglySorted R (flat_map f l).
Proof.
  intros Hl Hf Hq. induction Hl as [|a l Hl IH Ha]; [constructor|]. cbn. apply sorted_app; [apply Hf|exact IH|].
  intros x y Hx Hy. apply in_flat_map in Hy as (b & Hb & Hy). rewrite List.Forall_forall in Ha. eapply Hq; eauto.
Qed.
Lemma sorted_all {A} (R : A -> A -> Prop) l : (forall a b, In a l -> In b l -> R a b) -> StronglySorted R l.
Proof.
  induction l as [|x l IH]; intros H; [constructor|]. constructor; [apply IH; intros; apply H; right; assumption|].
  apply List.Forall_forall. intros b Hb. apply H; [left; reflexivity|right; exact Hb].
Qed.
Lemma seqZ_sorted n : forall a, StronglySorted Z.le (seqZ a (Z.of_nat n)).
Proof.
  induction n as [|n IH]; intros a; [constructor|]. rewrite Nat2Z.inj_succ, seqZ_cons by lia. replace (Z.pred (Z.succ (Z.of_nat n))) with (Z.of_nat n) by lia.
  constructor; [apply IH|]. apply List.Forall_forall. intros b Hb. apply elem_of_list_In, elem_of_seqZ in Hb. lia.
Qed.
Lemma diagonal_sorted ar : 0 <= cx ar -> 0 <= cy ar -> StronglySorted earlier (diagonal_tiles ar).
Proof.
  intros Hx Hy. unfold diagonal_tiles.
  assert (Hk : forall k t, In t (flat_map (fun x => let y := k - x in if (y <? cy ar + 1) && (x <? cx ar + 1) then map (fun z => live x y z) (seqZ 0 (cz ar + 1)) else []) (seqZ 0 (k + 1))) -> cx t + cy t = k).
  { intros k t H. apply in_flat_map in H as (x & _ & H). cbv zeta in H. destruct (_ && _) in H; [|destruct H]. apply in_map_iff in H as (z & <- & _). cbn. lia. }
  eapply (sorted_flat_map earlier Z.le).
  - replace (cx ar + 1 + (cy ar + 1) - 1) with (Z.of_nat (Z.to_nat (cx ar + 1 + (cy ar + 1) - 1))) by lia. apply seqZ_sorted.
  - intros k. apply sorted_all. intros a b Ha Hb. apply Hk in Ha, Hb. unfold earlier. lia.
  - intros a b t u Hab Ht Hu. apply Hk in Ht, Hu. unfold earlier. lia.
Qed.
(** A tile on an earlier diagonal comes before. *)
Lemma diagonal_before ar T1 t T2 s : 0 <= cx ar -> 0 <= cy ar -> diagonal_tiles ar = T1 ++ t :: T2 -> inb ar s -> cx s + cy s < cx t + cy t -> In s T1.
Proof.
  intros Hx Hy E Hs Hlt. apply diagonal_In in Hs; auto. pose proof (diagonal_sorted ar Hx Hy) as S. rewrite E in *.
  apply in_app_iff in Hs as [Hs|[Hs|Hs]]; [exact Hs|subst; lia|].
  exfalso. clear - S Hs Hlt. induction T1 as [|a T1 IH]; cbn in S; apply StronglySorted_inv in S as [S F]; [|auto].
  rewrite List.Forall_forall in F. specialize (F s Hs). unfold earlier in F. lia.
Qed.
