(** Lemmas about the grid model. *)
From Coq Require Import ZArith Bool List Lia ZifyBool.
From Verif Require Import CoordModel CoordSpec CoordProofs GridModel GridSpec.
Import ListNotations.
Local Open Scope Z_scope.
Ltac Zify.zify_post_hook ::= Z.div_mod_to_equations.

Ltac dcoord c := let d := fresh "d" in let x := fresh "x" in let y := fresh "y" in let z := fresh "z" in
  destruct c as [d x y z].

(** ** Cartesian *)

Lemma is_dir_of_spec dir ar c1 c2 : is_dir_of dir ar c1 c2 = true <-> c1 <> c2 /\ dir ar c1 = c2.
Proof.
  unfold is_dir_of. rewrite andb_true_iff, negb_true_iff, coord_eqb_false, coord_eqb_spec. tauto.
Qed.

Ltac grid_cases :=
  repeat match goal with
         | |- context [if ?b then _ else _] => destruct b eqn:?
         | H : context [if ?b then _ else _] |- _ => destruct b eqn:?
         end.

Lemma c_adjacent_spec ar c n : inb ar c -> (In n (c_adjacent ar c) <-> inb ar n /\ square_touch c n).
Proof.
  intros (Hd & Hx & Hy & Hz). unfold c_adjacent. rewrite filter_In, negb_true_iff, coord_eqb_false.
  dcoord c; dcoord n. unfold inb, square_touch, north, east, south, west, set_d in *.
  cbn [cd cx cy cz] in *. subst d. simpl In.
  split.
  - intros [Hin Hne]. 
    repeat (destruct Hin as [Hin|Hin]; [revert Hin; grid_cases; intros Heq; inversion Heq; subst; clear Heq;
      try (exfalso; apply Hne; reflexivity); lia|]). destruct Hin.
  - intros ((Hd' & ?) & -> & Hm). cbn in Hd'. subst d0. split; [|intros Heq; inversion Heq; lia].
    assert (Hc : (x0 = x /\ y0 = y - 1) \/ (x0 = x + 1 /\ y0 = y) \/ (x0 = x /\ y0 = y + 1) \/ (x0 = x - 1 /\ y0 = y)) by lia.
    destruct Hc as [(-> & ->)|[(-> & ->)|[(-> & ->)|(-> & ->)]]].
    + left. replace (y =? 0) with false by lia. reflexivity.
    + right; left. replace (cx ar <? x) with false by lia. replace (x <? cx ar) with true by lia. reflexivity.
    + right; right; left. replace (cy ar <? y) with false by lia. replace (y <? cy ar) with true by lia. reflexivity.
    + right; right; right; left. replace (x =? 0) with false by lia. reflexivity.
Qed.

Lemma c_adjacent_NoDup ar c : inb ar c -> NoDup (c_adjacent ar c).
Proof.
  intros (Hd & Hx & Hy & Hz). unfold c_adjacent, north, east, south, west.
  dcoord c; cbn [cd cx cy cz] in *. subst d.
  replace (cx ar <? x) with false by lia. replace (cy ar <? y) with false by lia.
  destruct (y =? 0) eqn:E1, (x <? cx ar) eqn:E2, (y <? cy ar) eqn:E3, (x =? 0) eqn:E4; simpl filter; rewrite ?coord_eqb_refl; simpl negb; cbv iota;
  repeat match goal with
    | |- context [coord_eqb ?a ?b] =>
      let H := fresh in assert (H : coord_eqb a b = false) by (apply coord_eqb_false; intros [=]; lia); rewrite H; clear H; simpl negb; cbv iota
  end;
  repeat (constructor; [simpl; intros Hin; repeat (destruct Hin as [Hin|Hin]; [injection Hin; lia|]); exact Hin|]); constructor.
Qed.

Lemma c_is_adjacent_of_spec ar c n : inb ar c -> (c_is_adjacent_of ar c n = true <-> In n (c_adjacent ar c)).
Proof.
  intros Hc. unfold c_is_adjacent_of, c_adjacent. rewrite filter_In, negb_true_iff, coord_eqb_false.
  rewrite !orb_true_iff, !is_dir_of_spec. simpl In. intuition congruence.
Qed.

(** ** Hexagonal *)

Lemma half_odd y : Z.quot (y + -1 * Z.land y 1) 2 = y / 2.
Proof.
  replace (Z.land y 1) with (y mod 2) by (symmetry; apply (Z.land_ones y 1); lia).
  replace (y + -1 * (y mod 2)) with (y / 2 * 2) by lia. apply Z.quot_mul; lia.
Qed.
Lemma half_even y : Z.quot (y + 1 * Z.land y 1) 2 = (y + 1) / 2.
Proof.
  replace (Z.land y 1) with (y mod 2) by (symmetry; apply (Z.land_ones y 1); lia).
  replace (y + 1 * (y mod 2)) with ((y + 1) / 2 * 2) by lia. apply Z.quot_mul; lia.
Qed.

Lemma to_cube_sum a c : cx (to_cube a c) + cy (to_cube a c) + cz (to_cube a c) = 0.
Proof. unfold to_cube. destruct (pointy a); simpl; lia. Qed.

Lemma to_offset_cube a c : in_u 31 (cx c) -> in_u 31 (cy c) ->
  to_offset a (to_cube a c) = live (cx c) (cy c) 0.
Proof.
  unfold in_u, to_offset, to_cube, live. intros Hx Hy.
  destruct a; cbn [pointy hex_offset cx cy cz cd]; rewrite ?half_odd, ?half_even; f_equal; lia.
Qed.

(* centre displacement of a cube direction *)
Definition dpx (a : hex_arr) (dir : coord) : Z := if pointy a then 2 * cx dir + cz dir else cx dir.
Definition dpy (a : hex_arr) (dir : coord) : Z := if pointy a then cz dir else 2 * cz dir + cx dir.

Definition unit_dir (dir : coord) : Prop := -1 <= cx dir <= 1 /\ -1 <= cz dir <= 1 /\ -1 <= cx dir + cz dir <= 1.

Lemma hex_step_fwd a ar c dir : dim_ok ar -> inb ar c -> unit_dir dir ->
  is_within_bounds ar (hex_step a c dir) = true ->
  inb ar (hex_step a c dir) /\ cz (hex_step a c dir) = cz c /\ hex_disp a c (hex_step a c dir) (dpx a dir) (dpy a dir).
Proof.
  intros (HX & HY & HZ) (Hd & Hx & Hy & Hz) (Hdx & Hdz & Hdd).
  unfold is_within_bounds, hex_step, to_offset, to_cube, c_add, live.
  destruct a; cbn [pointy hex_offset cx cy cz cd]; rewrite ?half_odd, ?half_even;
  cbn [cx cy cz cd]; intros Hb; unfold inb, hex_disp, hex_px, hex_py, dpx, dpy; cbn [pointy cx cy cz cd];
  repeat match goal with
         | |- context [?a mod 2 ^ 31] =>
           let H := fresh in let H' := fresh in assert (H : a mod 2 ^ 31 = a) by lia;
           assert (H' : 0 <= a < 2 ^ 31) by lia; rewrite H in *; clear H
         end; repeat split; lia.
Qed.

Lemma hex_step_bwd a ar c n dir : dim_ok ar -> inb ar c -> inb ar n -> unit_dir dir ->
  cz c = cz n -> hex_disp a c n (dpx a dir) (dpy a dir) -> hex_step a c dir = n /\ is_within_bounds ar n = true.
Proof.
  intros (HX & HY & HZ) (Hd & Hx & Hy & Hz) (Hd' & Hx' & Hy' & Hz') (Hdx & Hdz & Hdd) Hzz.
  destruct n as [d' x' y' z'].
  unfold is_within_bounds, hex_step, to_offset, to_cube, c_add, live. cbn [cd cx cy cz] in *. subst d' z'.
  unfold hex_disp, hex_px, hex_py, dpx, dpy.
  destruct a; cbn [pointy hex_offset cx cy cz cd]; rewrite ?half_odd, ?half_even;
  cbn [cx cy cz cd]; intros [H1 H2]; (split; [f_equal|]);
  try match goal with |- ?a mod 2 ^ 31 = ?b => replace a with b by lia; apply Z.mod_small; lia end; lia.
Qed.

Lemma hex_disp_unique a c n1 n2 dx dy : cd n1 = cd n2 -> cz n1 = cz n2 ->
  hex_disp a c n1 dx dy -> hex_disp a c n2 dx dy -> n1 = n2.
Proof.
  destruct n1, n2; unfold hex_disp, hex_px, hex_py; simpl; intros -> ->.
  destruct a; intros [] []; f_equal; lia.
Qed.

Lemma hex_adjacent_spec a ar c n : dim_ok ar -> inb ar c ->
  (In n (hex_adjacent a ar c) <-> inb ar n /\ hex_touch a c n).
Proof.
  intros Hok Hc. unfold hex_adjacent. rewrite filter_In, in_map_iff.
  assert (Hu : forall dir, In dir cube_directions -> unit_dir dir).
  { intros dir Hin. unfold cube_directions in Hin. simpl in Hin. unfold unit_dir.
    repeat (destruct Hin as [<-|Hin]; [simpl; lia|]). destruct Hin. }
  split.
  - intros [(dir & <- & Hin) Hb].
    destruct (hex_step_fwd a ar c dir Hok Hc (Hu dir Hin) Hb) as (H1 & H2 & H3).
    split; [exact H1|]. split; [congruence|].
    revert H3. generalize (hex_step a c dir). intros m Hm.
    unfold cube_directions in Hin. simpl in Hin. unfold dpx, dpy in Hm.
    destruct (pointy a) eqn:Ep;
    repeat (destruct Hin as [<-|Hin]; [simpl in Hm;
      first [ left; eexists _, _; split; [|split; [|exact Hm]]; lia
            | right; eexists; split; [|exact Hm]; lia ]|]); destruct Hin.
  - intros [Hn [Hz Ht]].
    assert (Hex : exists dir, In dir cube_directions /\ hex_disp a c n (dpx a dir) (dpy a dir)).
    { unfold dpx, dpy. destruct Ht as [(sx & sy & Hsx & Hsy & Hd)|(s & Hs & Hd)].
      - destruct (pointy a), Hsx as [-> | ->], Hsy as [-> | ->];
        [exists (live 0 (-1) 1)|exists (live 1 0 (-1))|exists (live (-1) 0 1)|exists (live 0 1 (-1))
        |exists (live 1 (-1) 0)|exists (live 1 0 (-1))|exists (live (-1) 0 1)|exists (live (-1) 1 0)];
        (split; [unfold cube_directions; simpl; tauto|exact Hd]).
      - destruct (pointy a), Hs as [-> | ->];
        [exists (live 1 (-1) 0)|exists (live (-1) 1 0)|exists (live 0 (-1) 1)|exists (live 0 1 (-1))];
        (split; [unfold cube_directions; simpl; tauto|exact Hd]). }
    destruct Hex as (dir & Hin & Hd).
    destruct (hex_step_bwd a ar c n dir Hok Hc Hn (Hu dir Hin) Hz Hd) as [E Hb].
    split; [|exact Hb]. exists dir. auto.
Qed.

Lemma NoDup_map_inj_filter {A B} (f : A -> B) (p : B -> bool) (l : list A) :
  NoDup l -> (forall x y, In x l -> In y l -> p (f x) = true -> p (f y) = true -> f x = f y -> x = y) ->
  NoDup (filter p (map f l)).
Proof.
  induction 1 as [|x l Hx Hl IH]; intros Hinj; simpl; [constructor|].
  destruct (p (f x)) eqn:E.
  - constructor.
    + rewrite filter_In, in_map_iff. intros [(y & Ey & Hy) Hp].
      assert (x = y) by (apply Hinj; simpl; auto; congruence). congruence.
    + apply IH. intros; apply Hinj; simpl; auto.
  - apply IH. intros; apply Hinj; simpl; auto.
Qed.

Lemma hex_adjacent_NoDup a ar c : dim_ok ar -> inb ar c -> NoDup (hex_adjacent a ar c).
Proof.
  intros Hok Hc. apply NoDup_map_inj_filter.
  - unfold cube_directions. repeat (constructor; [simpl; intros H; repeat (destruct H as [H|H]; [discriminate H|]); exact H|]). constructor.
  - assert (Hu : forall dir, In dir cube_directions -> unit_dir dir /\ cd dir = false /\ cy dir = - cx dir - cz dir).
    { intros dir Hin. unfold cube_directions in Hin. simpl in Hin. unfold unit_dir.
      repeat (destruct Hin as [<-|Hin]; [simpl; lia|]). destruct Hin. }
    intros d1 d2 H1 H2 Hb1 Hb2 E.
    destruct (Hu d1 H1) as (U1 & D1 & Y1), (Hu d2 H2) as (U2 & D2 & Y2).
    destruct (hex_step_fwd a ar c d1 Hok Hc U1 Hb1) as (_ & _ & Hd1).
    destruct (hex_step_fwd a ar c d2 Hok Hc U2 Hb2) as (_ & _ & Hd2).
    rewrite E in Hd1. unfold hex_disp, dpx, dpy in Hd1, Hd2.
    destruct d1 as [? ? ? ?], d2 as [? ? ? ?]; simpl in *; subst.
    destruct (pointy a); f_equal; lia.
Qed.

Lemma hex_touch_sym a c n : hex_touch a c n <-> hex_touch a n c.
Proof.
  assert (H : forall u v, hex_touch a u v -> hex_touch a v u).
  { intros u v [Hz [(sx & sy & Hx & Hy & Hd)|(s & Hs & Hd)]]; split; try congruence.
    - left. exists (- sx), (- sy). unfold hex_disp in *. lia.
    - right. exists (- s). split; [lia|]. destruct (pointy a); unfold hex_disp in *; lia. }
  split; apply H.
Qed.

Lemma touch_sym t c n : touch t c n <-> touch t n c.
Proof.
  destruct t; [|apply hex_touch_sym]. unfold touch, square_touch. lia.
Qed.

Lemma touch_irrefl t c : ~ touch t c c.
Proof.
  destruct t; simpl.
  - unfold square_touch. lia.
  - intros [_ [(sx & sy & Hx & Hy & Hd)|(s & Hs & Hd)]]; unfold hex_disp in *; [lia|destruct (pointy a); lia].
Qed.

Lemma dim_ok_ar_ok ar : dim_ok ar -> ar_ok Offset ar.
Proof. unfold dim_ok, ar_ok, u_wf, in_u. change (2 ^ 1) with 2. lia. Qed.

Lemma adjacent_spec t ar c n : dim_ok ar -> inb ar c ->
  (In n (adjacent t ar c) <-> inb ar n /\ touch t c n).
Proof. destruct t; simpl; [intros _; apply c_adjacent_spec|apply hex_adjacent_spec]. Qed.

Lemma adjacent_NoDup t ar c : dim_ok ar -> inb ar c -> NoDup (adjacent t ar c).
Proof. destruct t; simpl; [intros _; apply c_adjacent_NoDup|apply hex_adjacent_NoDup]. Qed.

Lemma hex_is_adjacent_of_spec a ar c n :
  hex_is_adjacent_of a ar c n = true <-> In n (hex_adjacent a ar c).
Proof.
  unfold hex_is_adjacent_of. rewrite existsb_exists. split.
  - intros (m & Hm & E). apply coord_eqb_spec in E. congruence.
  - intros H. exists n. split; [exact H|apply coord_eqb_refl].
Qed.

Lemma is_adjacent_of_spec t ar c n : inb ar c -> (is_adjacent_of t ar c n = true <-> In n (adjacent t ar c)).
Proof. destruct t; simpl; [apply c_is_adjacent_of_spec|intros _; apply hex_is_adjacent_of_spec]. Qed.

Lemma filter_length_le {A} (p : A -> bool) l : (length (filter p l) <= length l)%nat.
Proof. induction l; simpl; [lia|]. destruct (p a); simpl; lia. Qed.

Lemma above_inb ar c : inb ar c -> inb ar (above ar c).
Proof.
  intros (Hd & Hx & Hy & Hz). unfold above. destruct (cz ar <? cz c) eqn:E1; [lia|].
  destruct (cz c <? cz ar) eqn:E2; unfold inb; cbn [cd cx cy cz]; repeat split; (assumption || lia).
Qed.
Lemma below_inb ar c : inb ar c -> inb ar (below ar c).
Proof.
  intros (Hd & Hx & Hy & Hz). unfold below.
  destruct (cz c =? 0) eqn:E2; unfold inb; cbn [cd cx cy cz]; repeat split; (assumption || lia).
Qed.
