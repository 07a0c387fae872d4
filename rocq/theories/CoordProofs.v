(** Lemmas about the coordinate model. *)
From Coq Require Import ZArith Bool List Lia Sorting.Sorted ZifyBool.
From Verif Require Import CoordModel CoordSpec.
Import ListNotations.
Local Open Scope Z_scope.

Ltac Zify.zify_post_hook ::= Z.div_mod_to_equations.
Arguments Z.mul : simpl never.
Arguments Z.add : simpl never.
Arguments Z.sub : simpl never.
Arguments Z.pow : simpl never.
Arguments Z.modulo : simpl never.
Arguments Z.div : simpl never.
Arguments Z.abs : simpl never.
Arguments Z.ltb : simpl never.
Arguments Z.eqb : simpl never.

Lemma coord_eqb_spec a b : coord_eqb a b = true <-> a = b.
Proof.
  destruct a as [d x y z], b as [d' x' y' z']; unfold coord_eqb; simpl.
  rewrite !andb_true_iff, !Z.eqb_eq, eqb_true_iff. split.
  - intros [[[-> ->] ->] ->]; reflexivity.
  - intros [= -> -> -> ->]; auto.
Qed.

Lemma coord_eqb_refl a : coord_eqb a a = true.
Proof. apply coord_eqb_spec; reflexivity. Qed.

Lemma coord_eqb_false a b : coord_eqb a b = false <-> a <> b.
Proof.
  rewrite <- coord_eqb_spec. destruct (coord_eqb a b); split; intros; congruence.
Qed.

(** ** Packing *)

Lemma lor_shift_add a b k : 0 <= k -> 0 <= b < 2 ^ k -> Z.lor (a * 2 ^ k) b = a * 2 ^ k + b.
Proof.
  intros Hk Hb.
  assert (Hl : Z.land (a * 2 ^ k) b = 0).
  { apply Z.bits_inj'. intros n Hn. rewrite Z.land_spec, Z.bits_0.
    destruct (Z.lt_ge_cases n k).
    - rewrite Z.mul_pow2_bits_low by lia. reflexivity.
    - destruct (Z.eq_dec b 0) as [->|Hb0]; [now rewrite Z.bits_0, andb_false_r|].
      rewrite (Z.bits_above_log2 b n); [now rewrite andb_false_r|lia|].
      apply Z.log2_lt_pow2; [lia|]. apply Z.lt_le_trans with (2 ^ k); [lia|].
      apply Z.pow_le_mono_r; lia. }
  rewrite <- Z.lxor_lor by exact Hl. symmetry. apply Z.add_nocarry_lxor. exact Hl.
Qed.

Lemma shl64_small v k : 0 <= k -> 0 <= v -> v * 2 ^ k < 2 ^ 64 -> shl64 v k = v * 2 ^ k.
Proof.
  intros. unfold shl64. rewrite Z.shiftl_mul_pow2 by lia. apply Z.mod_small. split; [|lia].
  apply Z.mul_nonneg_nonneg; [lia|]. apply Z.pow_nonneg; lia.
Qed.

Lemma u64_of_u_arith c : u_wf c ->
  u64_of_u c = b2z (cd c) * 2 ^ 63 + cz c * 2 ^ 62 + cy c * 2 ^ 31 + cx c.
Proof.
  destruct c as [d x y z]; unfold u_wf, in_u, u64_of_u; simpl cd; simpl cx; simpl cy; simpl cz.
  intros (Hx & Hy & Hz).
  assert (Hd : 0 <= b2z d <= 1) by (destruct d; simpl; lia).
  set (dd := b2z d) in *. clearbody dd.
  rewrite (shl64_small dd 1) by lia.
  rewrite (lor_shift_add dd z 1) by lia.
  rewrite (shl64_small (dd * 2 ^ 1 + z) 31) by lia.
  rewrite (lor_shift_add (dd * 2 ^ 1 + z) y 31) by lia.
  rewrite (shl64_small ((dd * 2 ^ 1 + z) * 2 ^ 31 + y) 31) by lia.
  rewrite (lor_shift_add ((dd * 2 ^ 1 + z) * 2 ^ 31 + y) x 31) by lia.
  lia.
Qed.

Lemma u_of_u64_arith t : 0 <= t < 2 ^ 64 ->
  u_of_u64 t = mkC (t / 2 ^ 63 =? 1) (t mod 2 ^ 31) (t / 2 ^ 31 mod 2 ^ 31) (t / 2 ^ 62 mod 2).
Proof.
  intros Ht. unfold u_of_u64, shl64.
  rewrite !Z.shiftr_div_pow2, !Z.shiftl_mul_pow2 by lia.
  f_equal; lia.
Qed.

Lemma u64_of_u_range c : u_wf c -> 0 <= u64_of_u c < 2 ^ 64.
Proof.
  intros H. rewrite u64_of_u_arith by exact H.
  destruct c as [d x y z]; unfold u_wf, in_u in H; simpl in *.
  destruct d; simpl; lia.
Qed.

Lemma u_of_u64_wf t : u_wf (u_of_u64 t).
Proof.
  unfold u_wf, in_u, u_of_u64; simpl cx; simpl cy; simpl cz.
  repeat split; apply Z.mod_pos_bound; lia.
Qed.

Lemma u_pack_unpack c : u_wf c -> u_of_u64 (u64_of_u c) = c.
Proof.
  intros H. rewrite u_of_u64_arith by (apply u64_of_u_range; exact H).
  rewrite u64_of_u_arith by exact H.
  destruct c as [d x y z]; unfold u_wf, in_u in H; simpl in H; simpl cd; simpl cx; simpl cy; simpl cz.
  f_equal; destruct d; simpl b2z; lia.
Qed.

Lemma u_unpack_pack t : 0 <= t < 2 ^ 64 -> u64_of_u (u_of_u64 t) = t.
Proof.
  intros H. rewrite u64_of_u_arith by apply u_of_u64_wf.
  rewrite u_of_u64_arith by exact H. simpl cd; simpl cx; simpl cy; simpl cz.
  destruct (t / 2 ^ 63 =? 1) eqn:E; simpl b2z; lia.
Qed.

Lemma u_get_dead_eq c : u_wf c -> u_get_dead c = get_dead c.
Proof.
  intros H. unfold u_get_dead, get_dead.
  assert (E : Z.lor (u64_of_u c) (u64_of_u dead0) = u64_of_u (get_dead c)).
  { destruct c as [d x y z].
    rewrite (u64_of_u_arith (mkC d x y z)) by exact H.
    rewrite (u64_of_u_arith dead0) by (unfold u_wf, in_u; simpl; lia).
    rewrite (u64_of_u_arith (get_dead _)) by exact H.
    unfold u_wf, in_u in H; simpl in H. simpl cd; simpl cx; simpl cy; simpl cz.
    destruct d; simpl b2z.
    - replace (1 * 2 ^ 63 + z * 2 ^ 62 + y * 2 ^ 31 + x)
        with (1 * 2 ^ 63 + (z * 2 ^ 62 + y * 2 ^ 31 + x)) by lia.
      rewrite <- (lor_shift_add 1 (z * 2 ^ 62 + y * 2 ^ 31 + x) 63) by lia.
      rewrite <- Z.lor_assoc, (Z.lor_comm (z * 2 ^ 62 + y * 2 ^ 31 + x)), Z.lor_assoc.
      replace (1 * 2 ^ 63 + 0 * 2 ^ 62 + 0 * 2 ^ 31 + 0) with (1 * 2 ^ 63) by lia.
      now rewrite Z.lor_diag.
    - rewrite Z.lor_comm.
      replace (1 * 2 ^ 63 + 0 * 2 ^ 62 + 0 * 2 ^ 31 + 0) with (1 * 2 ^ 63) by lia.
      replace (0 * 2 ^ 63 + z * 2 ^ 62 + y * 2 ^ 31 + x) with (z * 2 ^ 62 + y * 2 ^ 31 + x) by lia.
      rewrite lor_shift_add by lia. lia. }
  rewrite E. rewrite u_pack_unpack by exact H. reflexivity.
Qed.

(** ** Orders *)

Lemma coord_ltb_iff a b : coord_ltb a b = true <->
  cz a < cz b \/ (cz a = cz b /\ (cy a < cy b \/ (cy a = cy b /\ cx a < cx b))).
Proof. unfold coord_ltb. destruct (cz a <? cz b) eqn:?, (cz a =? cz b) eqn:?,
  (cy a <? cy b) eqn:?, (cy a =? cy b) eqn:?, (cx a <? cx b) eqn:?; split; intros; try lia; try congruence. Qed.

Lemma s_ltb_iff a b : s_ltb a b = true <->
  cy a < cy b \/ (cy a = cy b /\ (cz a < cz b \/ (cz a = cz b /\ cx a < cx b))).
Proof. unfold s_ltb. destruct (cz a <? cz b) eqn:?, (cz a =? cz b) eqn:?,
  (cy a <? cy b) eqn:?, (cy a =? cy b) eqn:?, (cx a <? cx b) eqn:?; simpl; split; intros; try lia; try congruence. Qed.

Lemma coord_ext a b : cd a = cd b -> cx a = cx b -> cy a = cy b -> cz a = cz b -> a = b.
Proof. destruct a, b; simpl; intros; subst; reflexivity. Qed.

(** ** Iteration *)

(* rank of a coordinate in iteration order *)
Definition rank (k : kind) (ar c : coord) : Z :=
  match k with
  | Siqad => (cx ar + 1) * (2 * cy c + cz c) + cx c
  | _ => (cx ar + 1) * ((cy ar + 1) * cz c + cy c) + cx c
  end.

Lemma rank_bounds k ar c : ar_ok k ar -> inb ar c -> 0 <= rank k ar c < k_volume k ar.
Proof.
  destruct k; simpl; unfold volume, s_volume, s_area, inb, u_wf, in_u; intros H (_ & Hx & Hy & Hz);
  rewrite ?Z.abs_eq by lia; nia.
Qed.

Definition last_of (ar : coord) : coord := mkC false (cx ar) (cy ar) (cz ar).

(* one iterator step from an in-bounds coordinate *)
Lemma it_next_spec k ar c : ar_ok k ar -> inb ar c ->
  (c = last_of ar /\ it_next k ar c = get_dead ar) \/
  (c <> last_of ar /\ inb ar (it_next k ar c) /\ rank k ar (it_next k ar c) = rank k ar c + 1 /\
   k_ltb k c (it_next k ar c) = true /\
   (forall c', inb ar c' -> k_ltb k c c' = true -> c' = it_next k ar c \/ k_ltb k (it_next k ar c) c' = true)).
Proof.
  intros Hok Hin.
  assert (Hgd : k_get_dead k ar = get_dead ar /\ k_get_dead k (last_of ar) = get_dead ar).
  { destruct k; simpl; [|auto|auto]. destruct Hok as (Hwf & _).
    split; [now apply u_get_dead_eq|]. rewrite u_get_dead_eq; [reflexivity|exact Hwf]. }
  destruct Hgd as [Hgd Hgd'].
  destruct (coord_eqb c (last_of ar)) eqn:El.
  - left. apply coord_eqb_spec in El. split; [exact El|]. subst c.
    unfold it_next. destruct (coord_eqb (last_of ar) ar) eqn:Ea; simpl negb; cbv iota; [exact Hgd'|].
    destruct k; simpl in *; unfold u_wf, in_u in *.
    + unfold u_wrap; simpl. rewrite Z.mod_small by lia.
      replace (cx ar <? cx ar + 1) with true by lia. simpl.
      rewrite Z.mod_small by lia.
      replace (cy ar <? cy ar + 1) with true by lia. simpl.
      destruct (cz ar =? 1) eqn:E1; rewrite Hgd; simpl.
      * replace (cz ar <? cz ar) with false by lia. reflexivity.
      * replace (cz ar <? 1) with true by lia. reflexivity.
    + unfold c_wrap; simpl. replace (cx ar <? cx ar + 1) with true by lia. simpl.
      replace (cy ar <? cy ar + 1) with true by lia. simpl.
      replace (cz ar <? cz ar + 1) with true by lia. reflexivity.
    + destruct Hok as (? & ? & Hz). unfold s_wrap; simpl. rewrite Hz.
      replace (cx ar <? cx ar + 1) with true by lia. simpl.
      replace (cy ar <? cy ar + 1) with true by lia. reflexivity.
  - right. apply coord_eqb_false in El. split; [exact El|].
    destruct c as [d x y z]. destruct Hin as (Hd & Hx & Hy & Hz). simpl in Hd, Hx, Hy, Hz. subst d.
    destruct ar as [dd X Y ZZ]. unfold last_of in El. simpl in *.
    assert (Hne : ~ (x = X /\ y = Y /\ z = ZZ)) by (intros (-> & -> & ->); congruence). clear El.
    unfold it_next.
    assert (Hq : coord_eqb (mkC false x y z) (mkC dd X Y ZZ) = false).
    { apply coord_eqb_false. intros [= _ E1 E2 E3]. tauto. }
    rewrite Hq. simpl negb. cbv iota. clear Hq.
    (* the next coordinate *)
    assert (Hn : k_wrap k (mkC dd X Y ZZ) (k_inc_x k (mkC false x y z)) =
                 match k with
                 | Siqad => if x <? X then live (x+1) y z else live 0 (y + z) (1 - z)
                 | _ => if x <? X then live (x+1) y z else if y <? Y then live 0 (y+1) z else live 0 0 (z+1)
                 end).
    { destruct k; simpl in *; unfold u_wf, in_u in *; simpl in *.
      - rewrite Z.mod_small by lia. unfold u_wrap; simpl.
        destruct (x <? X) eqn:E1.
        + replace (X <? x + 1) with false by lia. simpl.
          replace (Y <? y) with false by lia. simpl. replace (ZZ <? z) with false by lia. reflexivity.
        + replace (X <? x + 1) with true by lia. simpl. rewrite Z.mod_small by lia.
          destruct (y <? Y) eqn:E2.
          * replace (Y <? y + 1) with false by lia. simpl. replace (ZZ <? z) with false by lia. reflexivity.
          * replace (Y <? y + 1) with true by lia. simpl.
            assert (z = 0) by lia. subst z. simpl. replace (ZZ <? 1) with false by lia. reflexivity.
      - unfold c_wrap; simpl.
        destruct (x <? X) eqn:E1.
        + replace (X <? x + 1) with false by lia. simpl.
          replace (Y <? y) with false by lia. simpl. replace (ZZ <? z) with false by lia. reflexivity.
        + replace (X <? x + 1) with true by lia. simpl.
          destruct (y <? Y) eqn:E2.
          * replace (Y <? y + 1) with false by lia. simpl. replace (ZZ <? z) with false by lia. reflexivity.
          * replace (Y <? y + 1) with true by lia. simpl. replace (ZZ <? z + 1) with false by lia. reflexivity.
      - destruct Hok as (? & ? & ->). unfold s_wrap; simpl.
        destruct (x <? X) eqn:E1.
        + replace (X <? x + 1) with false by lia. simpl.
          replace (1 <? z) with false by lia. simpl. replace (Y <? y) with false by lia. reflexivity.
        + replace (X <? x + 1) with true by lia. simpl.
          destruct (z =? 0) eqn:E2; simpl.
          * assert (z = 0) by lia; subst z. replace (Y <? y + 0) with false by lia. reflexivity.
          * assert (z = 1) by lia; subst z. replace (Y <? y + 1) with false by lia. reflexivity. }
    rewrite Hn. clear Hn.
    destruct k; simpl in *; unfold u_wf, in_u, inb in *; simpl in *.
    + destruct (x <? X) eqn:E1; [|destruct (y <? Y) eqn:E2]; simpl.
      all: split; [lia|split; [nia|split; [rewrite coord_ltb_iff; simpl; lia|]]].
      all: intros [d' x' y' z'] (Hd' & ?) Hlt; simpl in *; subst d'; rewrite coord_ltb_iff in *; simpl in *; unfold live;
      match goal with |- _ = mkC _ ?a ?b ?c \/ _ =>
        destruct (Z.eq_dec x' a); [destruct (Z.eq_dec y' b); [destruct (Z.eq_dec z' c); [left; congruence|]|]|]; right; lia end.
    + destruct (x <? X) eqn:E1; [|destruct (y <? Y) eqn:E2]; simpl.
      all: split; [lia|split; [nia|split; [rewrite coord_ltb_iff; simpl; lia|]]].
      all: intros [d' x' y' z'] (Hd' & ?) Hlt; simpl in *; subst d'; rewrite coord_ltb_iff in *; simpl in *; unfold live;
      match goal with |- _ = mkC _ ?a ?b ?c \/ _ =>
        destruct (Z.eq_dec x' a); [destruct (Z.eq_dec y' b); [destruct (Z.eq_dec z' c); [left; congruence|]|]|]; right; lia end.
    + destruct (x <? X) eqn:E1; simpl.
      all: split; [lia|split; [nia|split; [rewrite s_ltb_iff; simpl; lia|]]].
      all: intros [d' x' y' z'] (Hd' & ?) Hlt; simpl in *; subst d'; rewrite s_ltb_iff in *; simpl in *; unfold live;
      match goal with |- _ = mkC _ ?a ?b ?c \/ _ =>
        destruct (Z.eq_dec x' a); [destruct (Z.eq_dec y' b); [destruct (Z.eq_dec z' c); [left; congruence|]|]|]; right; lia end.
Qed.

Lemma k_ltb_irrefl k a : k_ltb k a a = false.
Proof.
  destruct (k_ltb k a a) eqn:E; [|reflexivity].
  destruct k; simpl in E; rewrite ?coord_ltb_iff, ?s_ltb_iff in E; lia.
Qed.

Lemma k_ltb_trans k a b c : k_ltb k a b = true -> k_ltb k b c = true -> k_ltb k a c = true.
Proof. destruct k; simpl; rewrite ?coord_ltb_iff, ?s_ltb_iff; lia. Qed.

Lemma k_ltb_total k a b : cd a = cd b -> k_ltb k a b = true \/ a = b \/ k_ltb k b a = true.
Proof.
  destruct a as [d x y z], b as [d' x' y' z']; simpl; intros ->.
  destruct (Z.eq_dec x x'), (Z.eq_dec y y'), (Z.eq_dec z z'); subst;
  destruct k; simpl; rewrite ?coord_ltb_iff, ?s_ltb_iff; simpl; try (right; left; reflexivity); lia.
Qed.

(* the loop from an in-bounds coordinate to the end or to a stop coordinate *)
Definition before (k : kind) (stop c : coord) : Prop := cd stop = true \/ k_ltb k c stop = true.

Lemma it_run_spec k ar stop : ar_ok k ar ->
  (stop = get_dead ar \/ inb ar stop) ->
  forall fuel cur,
    inb ar cur -> (cd stop = true \/ cur = stop \/ k_ltb k cur stop = true) ->
    (Z.to_nat (k_volume k ar - rank k ar cur) <= fuel)%nat ->
    exists l, it_run k fuel ar cur stop = Some l /\
      (forall c, In c l <-> inb ar c /\ (c = cur \/ k_ltb k cur c = true) /\ before k stop c) /\
      StronglySorted (fun a b => k_ltb k a b = true) l /\
      (stop = get_dead ar -> Z.of_nat (length l) = k_volume k ar - rank k ar cur).
Proof.
  intros Hok Hstop.
  assert (Hgd : cd (get_dead ar) = true) by reflexivity.
  induction fuel as [|fuel IH]; intros cur Hin Hle Hf.
  { pose proof (rank_bounds k ar cur Hok Hin). lia. }
  simpl. destruct (coord_eqb cur stop) eqn:E.
  - apply coord_eqb_spec in E. subst stop. exists []. split; [reflexivity|].
    destruct Hstop as [->|Hs]; [destruct Hin as [Hd _]; simpl in Hd; discriminate|].
    assert (Hcd : cd cur = false) by (destruct Hs; assumption).
    split; [|split; [constructor|]].
    + intros c; split; [intros []|]. intros (_ & [->|H1] & [H2|H2]); try congruence.
      * now rewrite k_ltb_irrefl in H2.
      * pose proof (k_ltb_trans _ _ _ _ H1 H2) as H3. now rewrite k_ltb_irrefl in H3.
    + intros ->. discriminate.
  - apply coord_eqb_false in E.
    destruct (it_next_spec k ar cur Hok Hin) as [[Hl Hn]|(Hl & Hin' & Hr & Hlt & Hsucc)].
    + (* last coordinate: only the dead stop is possible *)
      assert (Hs : stop = get_dead ar).
      { destruct Hstop as [|Hs]; [assumption|]. exfalso.
        destruct Hle as [Hd|[Heq|Hlt]]; [destruct Hs; congruence|congruence|].
        subst cur. destruct Hs as (_ & H1 & H2 & H3).
        destruct k; simpl in Hlt; rewrite ?coord_ltb_iff, ?s_ltb_iff in Hlt; simpl in Hlt; lia. }
      exists [cur]. rewrite Hn. subst stop.
      assert (it_run k fuel ar (get_dead ar) (get_dead ar) = Some []) as ->.
      { destruct fuel; simpl; rewrite coord_eqb_refl; reflexivity. }
      split; [reflexivity|]. split; [|split; [repeat constructor|]].
      * intros c; split.
        -- intros [<-|[]]. split; [exact Hin|]. split; [left; reflexivity|left; reflexivity].
        -- intros (Hc & [->|Hc'] & _); [left; reflexivity|]. exfalso. subst cur.
           destruct Hc as (_ & H1 & H2 & H3).
           destruct k; simpl in Hc'; rewrite ?coord_ltb_iff, ?s_ltb_iff in Hc'; simpl in Hc'; lia.
      * intros _. subst cur. simpl length.
        destruct k; simpl in *; unfold u_wf, in_u, volume, s_volume, s_area in *; simpl; rewrite ?Z.abs_eq by lia; nia.
    + destruct (IH (it_next k ar cur) Hin') as (l & Hl1 & Hl2 & Hl3 & Hl4).
      * destruct Hle as [Hd|[Heq|Hlt']]; [left; exact Hd|congruence|].
        destruct Hstop as [->|Hs]; [left; reflexivity|].
        right. destruct (Hsucc stop Hs Hlt') as [->|?]; auto.
      * lia.
      * rewrite Hl1. exists (cur :: l). split; [reflexivity|]. split; [|split].
        -- intros c; split.
           ++ intros [<-|Hc].
              ** split; [exact Hin|split; [left; reflexivity|]].
                 destruct Hle as [Hd|[Heq|Hlt']]; [left; exact Hd|congruence|right; exact Hlt'].
              ** apply Hl2 in Hc. destruct Hc as (Hc1 & Hc2 & Hc3). split; [exact Hc1|]. split; [|exact Hc3].
                 right. destruct Hc2 as [->|Hc2]; [exact Hlt|]. eapply k_ltb_trans; eassumption.
           ++ intros (Hc1 & [->|Hc2] & Hc3); [left; reflexivity|]. right. apply Hl2.
              split; [exact Hc1|]. split; [|exact Hc3]. apply Hsucc; assumption.
        -- constructor; [exact Hl3|]. apply Forall_forall. intros c Hc. apply Hl2 in Hc.
           destruct Hc as (_ & [->|Hc2] & _); [exact Hlt|]. eapply k_ltb_trans; eassumption.
        -- intros Hs. specialize (Hl4 Hs). simpl length. lia.
Qed.

Lemma it_start_inb k ar c : ar_ok k ar -> inb ar c -> it_start k ar c = c.
Proof.
  intros Hok (Hd & Hx & Hy & Hz). destruct c as [d x y z]. simpl in *. subst d.
  unfold it_start; simpl. rewrite !Z.max_l by lia.
  destruct k; simpl.
  - unfold u_wrap; simpl. replace (cx ar <? x) with false by lia. simpl.
    replace (cy ar <? y) with false by lia. simpl. replace (cz ar <? z) with false by lia. reflexivity.
  - unfold c_wrap; simpl. replace (cx ar <? x) with false by lia. simpl.
    replace (cy ar <? y) with false by lia. simpl. replace (cz ar <? z) with false by lia. reflexivity.
  - unfold s_wrap; simpl. replace (cx ar <? x) with false by lia. simpl.
    replace (cz ar <? z) with false by lia. simpl. replace (cy ar <? y) with false by lia. reflexivity.
Qed.

Lemma it_start_end k ar : ar_ok k ar -> it_start k ar (k_get_dead k ar) = get_dead ar.
Proof.
  intros Hok.
  assert (k_get_dead k ar = get_dead ar) as ->.
  { destruct k; simpl; [|reflexivity|reflexivity]. apply u_get_dead_eq, Hok. }
  unfold it_start, get_dead; simpl.
  destruct k; simpl in *; unfold u_wf, in_u in *; rewrite !Z.max_l by lia.
  - unfold u_wrap; repeat (simpl; rewrite !Z.ltb_irrefl); reflexivity.
  - unfold c_wrap; repeat (simpl; rewrite !Z.ltb_irrefl); reflexivity.
  - unfold s_wrap; repeat (simpl; rewrite !Z.ltb_irrefl); reflexivity.
Qed.

Lemma origin_inb k ar : ar_ok k ar -> inb ar (live 0 0 0).
Proof. destruct k; unfold ar_ok, inb, u_wf, in_u; simpl; lia. Qed.

Lemma StronglySorted_NoDup k (l : list coord) :
  StronglySorted (fun a b => k_ltb k a b = true) l -> NoDup l.
Proof.
  induction 1 as [|a l _ IH Hall]; constructor; [|exact IH].
  intros Hin. rewrite Forall_forall in Hall. apply Hall in Hin. now rewrite k_ltb_irrefl in Hin.
Qed.

Lemma foreach_coordinate_full k ar fuel : ar_ok k ar -> (Z.to_nat (k_volume k ar) <= fuel)%nat ->
  exists l, foreach_coordinate k fuel ar dead0 dead0 = Some l /\
    (forall c, In c l <-> inb ar c) /\ NoDup l /\
    StronglySorted (fun a b => k_ltb k a b = true) l /\
    Z.of_nat (length l) = k_volume k ar.
Proof.
  intros Hok Hf. unfold foreach_coordinate; simpl is_dead; cbv iota.
  rewrite (it_start_inb k ar (live 0 0 0) Hok (origin_inb k ar Hok)).
  rewrite (it_start_end k ar Hok).
  assert (Hr0 : rank k ar (live 0 0 0) = 0) by (destruct k; simpl; lia).
  destruct (it_run_spec k ar (get_dead ar) Hok (or_introl eq_refl) fuel (live 0 0 0)
              (origin_inb k ar Hok)) as (l & H1 & H2 & H3 & H4).
  - left; reflexivity.
  - rewrite Hr0. lia.
  - exists l. split; [exact H1|]. split; [|split; [|split]].
    + intros c. rewrite H2. split; [tauto|]. intros Hc. split; [exact Hc|]. split; [|left; reflexivity].
      destruct Hc as (Hd & Hx & Hy & Hz). destruct c as [d x y z]; simpl in *. subst d.
      destruct (k_ltb_total k (live 0 0 0) (mkC false x y z) eq_refl) as [?|[<-|Hc]]; auto.
      exfalso. destruct k; simpl in Hc; rewrite ?coord_ltb_iff, ?s_ltb_iff in Hc; simpl in Hc; lia.
    + eapply StronglySorted_NoDup; exact H3.
    + exact H3.
    + rewrite (H4 eq_refl), Hr0. lia.
Qed.

Lemma foreach_coordinate_range k ar start stop fuel : ar_ok k ar -> inb ar start ->
  inb ar stop -> (start = stop \/ k_ltb k start stop = true) ->
  (Z.to_nat (k_volume k ar) <= fuel)%nat ->
  exists l, foreach_coordinate k fuel ar start stop = Some l /\
    (forall c, In c l <-> inb ar c /\ (c = start \/ k_ltb k start c = true) /\ k_ltb k c stop = true) /\
    StronglySorted (fun a b => k_ltb k a b = true) l.
Proof.
  intros Hok Hs1 Hs2 Hle Hf. unfold foreach_coordinate, is_dead.
  assert (Hd1 : cd start = false) by (destruct Hs1; assumption).
  assert (Hd2 : cd stop = false) by (destruct Hs2; assumption).
  rewrite Hd1, Hd2.
  rewrite (it_start_inb k ar start Hok Hs1), (it_start_inb k ar stop Hok Hs2).
  destruct (it_run_spec k ar stop Hok (or_intror Hs2) fuel start Hs1) as (l & H1 & H2 & H3 & _).
  - right; exact Hle.
  - pose proof (rank_bounds k ar start Hok Hs1). lia.
  - exists l. split; [exact H1|]. split; [|exact H3].
    intros c. rewrite H2. unfold before. rewrite Hd2. intuition congruence.
Qed.

(* non-termination at the 31-bit limit *)
Lemma u_iter_stuck fuel x :
  0 <= x < 2 ^ 31 ->
  it_run Offset fuel (live (2 ^ 31 - 1) 1 0) (live x 0 0) (get_dead (live (2 ^ 31 - 1) 1 0)) = None.
Proof.
  revert x. induction fuel as [|fuel IH]; intros x Hx; [reflexivity|].
  change (it_run Offset (S fuel) (live (2 ^ 31 - 1) 1 0) (live x 0 0) (get_dead (live (2 ^ 31 - 1) 1 0)))
    with (match it_run Offset fuel (live (2 ^ 31 - 1) 1 0) (it_next Offset (live (2 ^ 31 - 1) 1 0) (live x 0 0))
                  (get_dead (live (2 ^ 31 - 1) 1 0)) with
          | Some l => Some (live x 0 0 :: l) | None => None end).
  assert (E : it_next Offset (live (2 ^ 31 - 1) 1 0) (live x 0 0) = live ((x + 1) mod 2 ^ 31) 0 0).
  { unfold it_next.
    assert (coord_eqb (live x 0 0) (live (2 ^ 31 - 1) 1 0) = false) as ->
      by (apply coord_eqb_false; intros [= _ E]).
    simpl negb; cbv iota. unfold k_wrap, k_inc_x, u_wrap, live; cbn [cd cx cy cz].
    replace (2 ^ 31 - 1 <? (x + 1) mod 2 ^ 31) with false by lia. reflexivity. }
  rewrite E, IH by lia. reflexivity.
Qed.

(* a start behind the stop coordinate never reaches it *)
Lemma offset_ground_volume ar : 0 <= cx ar -> 0 <= cy ar -> volume (live (cx ar) (cy ar) 0) = area ar.
Proof. intros. unfold volume, area, live; cbn [cx cy cz]. change (Z.abs 0) with 0. lia. Qed.

(** ** SiQAD area *)
From Coq Require Import FinFun.
Lemma s_area_counts b : 0 <= cx b -> 0 <= cy b -> 0 <= cz b <= 1 ->
  exists l, NoDup l /\ (forall c, In c l <-> cd c = false /\ 0 <= cz c <= 1 /\ 0 <= cx c <= cx b /\
                                  0 <= 2 * cy c + cz c <= 2 * cy b + cz b) /\
            Z.of_nat (length l) = k_area Siqad b /\ k_volume Siqad b = k_area Siqad b.
Proof.
  intros Hx Hy Hz.
  set (W := Z.to_nat (cx b + 1)). set (H := Z.to_nat (2 * cy b + cz b + 1)).
  set (f := fun p : nat * nat => live (Z.of_nat (fst p)) (Z.of_nat (snd p) / 2) (Z.of_nat (snd p) mod 2)).
  exists (map f (list_prod (seq 0 W) (seq 0 H))). repeat apply conj.
  - apply Injective_map_NoDup.
    + intros [a1 a2] [b1 b2]. unfold f, live; simpl fst; simpl snd. intros E.
      assert (E1 := f_equal cx E). assert (E2 := f_equal cy E). assert (E3 := f_equal cz E).
      cbn [cx cy cz] in *. f_equal; lia.
    + assert (G : forall (l1 l2 : list nat), NoDup l1 -> NoDup l2 -> NoDup (list_prod l1 l2)).
      { induction l1 as [|a l1 IH]; intros l2 N1 N2; simpl; [constructor|].
        inversion N1; subst.
        assert (Happ : forall (u v : list (nat * nat)), NoDup u -> NoDup v -> (forall x, In x u -> In x v -> False) -> NoDup (u ++ v)).
        { induction u as [|w u IHu]; intros v Nu Nv Hd; simpl; auto. inversion Nu; subst. constructor.
          - rewrite in_app_iff. intros [?|?]; [auto|]. apply (Hd w); simpl; auto.
          - apply IHu; auto. intros x ? ?. apply (Hd x); simpl; auto. }
        apply Happ; auto.
        - apply Injective_map_NoDup; auto. intros u v [=]; auto.
        - intros [u v] Hu Hv. apply in_map_iff in Hu as (w & [= <- <-] & _). apply in_prod_iff in Hv. tauto. }
      apply G; apply seq_NoDup.
  - intros [d x y z]. cbn [cd cx cy cz]. rewrite in_map_iff. split.
    + intros ([p q] & E & Hp). apply in_prod_iff in Hp. rewrite !in_seq in Hp. unfold f, live in E. simpl fst in E; simpl snd in E.
      inversion E; subst. unfold W, H in Hp. repeat split; lia.
    + intros (-> & Hz1 & Hx1 & Hr). exists (Z.to_nat x, Z.to_nat (2 * y + z)). split.
      * unfold f, live; simpl fst; simpl snd. f_equal; lia.
      * apply in_prod_iff. rewrite !in_seq. unfold W, H. lia.
  - rewrite map_length, prod_length, !seq_length. unfold W, H. cbn [k_area]. unfold s_area. rewrite Nat2Z.inj_mul. nia.
  - reflexivity.
Qed.
