(** Properties C07-C10: Cartesian and hexagonal grids. *)
From Coq Require Import ZArith Bool List Lia ZifyBool.
From Verif Require Import CoordModel CoordSpec CoordProofs GridModel GridSpec GridProofs.
Import ListNotations.
Local Open Scope Z_scope.
Ltac Zify.zify_post_hook ::= Z.div_mod_to_equations.

(** * C07 *)

(** [f] moves every in-bounds coordinate by (dx,dy,dz) if the result is in bounds, and otherwise
    leaves it where it is. *)
Definition moves_by (ar : coord) (f : coord -> coord -> coord) (dx dy dz : Z) : Prop :=
  forall c, inb ar c ->
    (inb ar (live (cx c + dx) (cy c + dy) (cz c + dz)) ->
       f ar c = live (cx c + dx) (cy c + dy) (cz c + dz)) /\
    (~ inb ar (live (cx c + dx) (cy c + dy) (cz c + dz)) -> f ar c = c).

Theorem C07_directions : forall ar,
  moves_by ar north 0 (-1) 0 /\ moves_by ar east 1 0 0 /\ moves_by ar south 0 1 0 /\ moves_by ar west (-1) 0 0 /\
  moves_by ar north_east 1 (-1) 0 /\ moves_by ar south_east 1 1 0 /\ moves_by ar south_west (-1) 1 0 /\
  moves_by ar north_west (-1) (-1) 0 /\ moves_by ar above 0 0 1 /\ moves_by ar below 0 0 (-1).
Proof.
  intros ar. unfold moves_by.
  repeat split; destruct c as [d x y z]; unfold inb, live in *; cbn [cd cx cy cz] in *;
  destruct H as (Hd & Hx & Hy & Hz); subst d;
  unfold north, east, south, west, north_east, south_east, south_west, north_west, above, below, set_d; cbn [cd cx cy cz];
  intros H0; grid_cases; try reflexivity; try (f_equal; lia); try (exfalso; lia);
  try (exfalso; apply H0; repeat split; lia).
Qed.
Print Assumptions C07_directions.

(** Consequence: every direction stays in bounds and opposite directions undo each other. *)
Theorem C07_inverse : forall ar c, inb ar c ->
  (forall f, In f [north; east; south; west; north_east; south_east; south_west; north_west; above; below] -> inb ar (f ar c)) /\
  (forall f g, In (f, g) [(north, south); (south, north); (east, west); (west, east); (north_east, south_west);
                          (south_west, north_east); (south_east, north_west); (north_west, south_east);
                          (above, below); (below, above)] ->
     f ar c <> c -> g ar (f ar c) = c).
Proof.
  intros ar c Hc.
  destruct (C07_directions ar) as (Hn & He & Hs & Hw & Hne & Hse & Hsw & Hnw & Ha & Hb).
  assert (Hin : forall f dx dy dz, moves_by ar f dx dy dz -> inb ar (f ar c)).
  { intros f dx dy dz Hf. destruct (Hf c Hc) as [H1 H2].
    destruct (is_within_bounds ar (live (cx c + dx) (cy c + dy) (cz c + dz)) &&
              (0 <=? cx c + dx) && (0 <=? cy c + dy) && (0 <=? cz c + dz)) eqn:E.
    - assert (Hi : inb ar (live (cx c + dx) (cy c + dy) (cz c + dz))).
      { unfold is_within_bounds, inb, live in *; cbn [cd cx cy cz] in *. repeat split; lia. }
      rewrite (H1 Hi). exact Hi.
    - rewrite H2; [exact Hc|]. intros Hi.
      unfold is_within_bounds, inb, live in *; cbn [cd cx cy cz] in *. lia. }
  assert (Hinv : forall f g dx dy dz, moves_by ar f dx dy dz -> moves_by ar g (- dx) (- dy) (- dz) ->
                 f ar c <> c -> g ar (f ar c) = c).
  { intros f g dx dy dz Hf Hg Hne'.
    pose proof (Hin f dx dy dz Hf) as Hfc.
    destruct (Hf c Hc) as [H1 H2].
    destruct (is_within_bounds ar (live (cx c + dx) (cy c + dy) (cz c + dz)) &&
              (0 <=? cx c + dx) && (0 <=? cy c + dy) && (0 <=? cz c + dz)) eqn:E.
    - assert (Hi : inb ar (live (cx c + dx) (cy c + dy) (cz c + dz))).
      { unfold is_within_bounds, inb, live in *; cbn [cd cx cy cz] in *. repeat split; lia. }
      specialize (H1 Hi). rewrite H1 in *.
      destruct (Hg _ Hfc) as [H3 _]. unfold live in H3; cbn [cd cx cy cz] in H3.
      assert (Ec : mkC false (cx c + dx + - dx) (cy c + dy + - dy) (cz c + dz + - dz) = c).
      { destruct Hc as (Hd & _). destruct c; simpl in *. subst. f_equal; lia. }
      rewrite Ec in H3. apply H3, Hc.
    - exfalso. apply Hne', H2. intros Hi.
      unfold is_within_bounds, inb, live in *; cbn [cd cx cy cz] in *. lia. }
  split.
  - intros f Hf. simpl in Hf.
    repeat (destruct Hf as [<-|Hf]; [eapply Hin; eassumption|]). destruct Hf.
  - intros f g Hf. simpl in Hf.
    repeat (destruct Hf as [[= <- <-]|Hf]; [eapply Hinv; eassumption|]). destruct Hf.
Qed.
Print Assumptions C07_inverse.

(** A coordinate is at a border exactly if it cannot move that way; the border coordinate in a direction is
    in bounds, at that border, and in line with the start. "Northwards of" and its kin mean: reached by moving
    north one or more times. *)
Theorem C07_borders : forall ar c, inb ar c ->
  (forall at_border dir, In (at_border, dir)
     [(is_at_northern_border, north); (is_at_eastern_border, east); (is_at_southern_border, south); (is_at_western_border, west)] ->
     (at_border ar c = true <-> dir ar c = c)) /\
  (is_at_any_border ar c = true <-> exists dir, In dir [north; east; south; west] /\ dir ar c = c) /\
  (forall border_of at_border dir, In (border_of, (at_border, dir))
     [(northern_border_of, (is_at_northern_border, north)); (eastern_border_of, (is_at_eastern_border, east));
      (southern_border_of, (is_at_southern_border, south)); (western_border_of, (is_at_western_border, west))] ->
     inb ar (border_of ar c) /\ at_border ar (border_of ar c) = true /\
     exists k, Nat.iter k (dir ar) c = border_of ar c) /\
  (forall wards dir c2, In (wards, dir)
     [(is_northwards_of, north); (is_eastwards_of, east); (is_southwards_of, south); (is_westwards_of, west)] ->
     inb ar c2 -> (wards c c2 = true <-> c2 <> c /\ exists k, Nat.iter k (dir ar) c = c2)).
Proof.
  intros ar c Hc. pose proof Hc as (Hd & Hx & Hy & Hz).
  assert (Hb : forall at_border dir, In (at_border, dir)
     [(is_at_northern_border, north); (is_at_eastern_border, east); (is_at_southern_border, south); (is_at_western_border, west)] ->
     (at_border ar c = true <-> dir ar c = c)).
  { intros f g Hin. destruct c as [d x y z]. cbn [cd cx cy cz] in *. subst d.
    cbn [In] in Hin. repeat (destruct Hin as [E|Hin]; [inversion E; subst; clear E|]); try destruct Hin;
    unfold is_at_northern_border, is_at_eastern_border, is_at_southern_border, is_at_western_border, north, east, south, west, set_d;
    cbn [cd cx cy cz]; grid_cases; split; intros E; try reflexivity; try discriminate; try lia; inversion E; lia. }
  assert (Hn : forall k, (Z.of_nat k <= cy c) -> Nat.iter k (north ar) c = live (cx c) (cy c - Z.of_nat k) (cz c)).
  { induction k as [|k IH]; intros Hk.
    - simpl. destruct c as [dd xx yy zz]; cbn [cd cx cy cz] in *. subst. unfold live. f_equal; lia.
    - change (Nat.iter (S k) (north ar) c) with (north ar (Nat.iter k (north ar) c)). rewrite IH by lia.
      unfold north, live; cbn [cd cx cy cz]. grid_cases; try (exfalso; lia); f_equal; lia. }
  assert (Hw : forall k, (Z.of_nat k <= cx c) -> Nat.iter k (west ar) c = live (cx c - Z.of_nat k) (cy c) (cz c)).
  { induction k as [|k IH]; intros Hk.
    - simpl. destruct c as [dd xx yy zz]; cbn [cd cx cy cz] in *. subst. unfold live. f_equal; lia.
    - change (Nat.iter (S k) (west ar) c) with (west ar (Nat.iter k (west ar) c)). rewrite IH by lia.
      unfold west, live; cbn [cd cx cy cz]. grid_cases; try (exfalso; lia); f_equal; lia. }
  assert (He : forall k, (Z.of_nat k <= cx ar - cx c) -> Nat.iter k (east ar) c = live (cx c + Z.of_nat k) (cy c) (cz c)).
  { induction k as [|k IH]; intros Hk.
    - simpl. destruct c as [dd xx yy zz]; cbn [cd cx cy cz] in *. subst. unfold live. f_equal; lia.
    - change (Nat.iter (S k) (east ar) c) with (east ar (Nat.iter k (east ar) c)). rewrite IH by lia.
      unfold east, live; cbn [cd cx cy cz]. grid_cases; try (exfalso; lia); f_equal; lia. }
  assert (Hs : forall k, (Z.of_nat k <= cy ar - cy c) -> Nat.iter k (south ar) c = live (cx c) (cy c + Z.of_nat k) (cz c)).
  { induction k as [|k IH]; intros Hk.
    - simpl. destruct c as [dd xx yy zz]; cbn [cd cx cy cz] in *. subst. unfold live. f_equal; lia.
    - change (Nat.iter (S k) (south ar) c) with (south ar (Nat.iter k (south ar) c)). rewrite IH by lia.
      unfold south, live; cbn [cd cx cy cz]. grid_cases; try (exfalso; lia); f_equal; lia. }
  (* however often one moves, one stays on the line *)
  assert (Ln : forall k, exists j, 0 <= j <= cy c /\ Nat.iter k (north ar) c = live (cx c) j (cz c)).
  { induction k as [|k (j & Hj & IH)].
    - exists (cy c). split; [lia|]. simpl. destruct c as [dd xx yy zz]; cbn in *; subst; reflexivity.
    - change (Nat.iter (S k) (north ar) c) with (north ar (Nat.iter k (north ar) c)). rewrite IH.
      unfold north, live; cbn [cd cx cy cz]. grid_cases; try (exfalso; lia); eexists; split; [|reflexivity| |reflexivity]; lia. }
  assert (Ls : forall k, exists j, cy c <= j <= cy ar /\ Nat.iter k (south ar) c = live (cx c) j (cz c)).
  { induction k as [|k (j & Hj & IH)].
    - exists (cy c). split; [lia|]. simpl. destruct c as [dd xx yy zz]; cbn in *; subst; reflexivity.
    - change (Nat.iter (S k) (south ar) c) with (south ar (Nat.iter k (south ar) c)). rewrite IH.
      unfold south, live; cbn [cd cx cy cz]. grid_cases; try (exfalso; lia); eexists; split; [|reflexivity| |reflexivity]; lia. }
  assert (Le : forall k, exists j, cx c <= j <= cx ar /\ Nat.iter k (east ar) c = live j (cy c) (cz c)).
  { induction k as [|k (j & Hj & IH)].
    - exists (cx c). split; [lia|]. simpl. destruct c as [dd xx yy zz]; cbn in *; subst; reflexivity.
    - change (Nat.iter (S k) (east ar) c) with (east ar (Nat.iter k (east ar) c)). rewrite IH.
      unfold east, live; cbn [cd cx cy cz]. grid_cases; try (exfalso; lia); eexists; split; [|reflexivity| |reflexivity]; lia. }
  assert (Lw : forall k, exists j, 0 <= j <= cx c /\ Nat.iter k (west ar) c = live j (cy c) (cz c)).
  { induction k as [|k (j & Hj & IH)].
    - exists (cx c). split; [lia|]. simpl. destruct c as [dd xx yy zz]; cbn in *; subst; reflexivity.
    - change (Nat.iter (S k) (west ar) c) with (west ar (Nat.iter k (west ar) c)). rewrite IH.
      unfold west, live; cbn [cd cx cy cz]. grid_cases; try (exfalso; lia); eexists; split; [|reflexivity| |reflexivity]; lia. }
  split; [exact Hb|]. split; [|split].
  - unfold is_at_any_border. rewrite !orb_true_iff. cbn [In] in *. split.
    + intros [[[H|H]|H]|H]; [exists north|exists east|exists south|exists west]; (split; [tauto|]);
        (eapply Hb; [|exact H]); tauto.
    + intros (dir & Hin & Hdir).
      destruct Hin as [<-|[<-|[<-|[<-|[]]]]];
      [do 3 left | do 2 left; right | left; right | right]; (eapply Hb; [|exact Hdir]); tauto.
  - intros f g h Hin. cbn [In] in Hin.
    repeat (destruct Hin as [E|Hin]; [inversion E; subst; clear E|]); try destruct Hin;
    unfold northern_border_of, eastern_border_of, southern_border_of, western_border_of,
      is_at_northern_border, is_at_eastern_border, is_at_southern_border, is_at_western_border, inb, live; cbn [cd cx cy cz];
    (split; [repeat split; lia|]); (split; [lia|]).
    + exists (Z.to_nat (cy c)). rewrite Hn by lia. unfold live. f_equal; lia.
    + exists (Z.to_nat (cx ar - cx c)). rewrite He by lia. unfold live. f_equal; lia.
    + exists (Z.to_nat (cy ar - cy c)). rewrite Hs by lia. unfold live. f_equal; lia.
    + exists (Z.to_nat (cx c)). rewrite Hw by lia. unfold live. f_equal; lia.
  - intros f g c2 Hin (Hd2 & Hx2 & Hy2 & Hz2). cbn [In] in Hin.
    destruct c2 as [d2 x2 y2 z2]; cbn [cd cx cy cz] in *; subst d2.
    repeat (destruct Hin as [E|Hin]; [inversion E; subst; clear E|]); try destruct Hin;
    unfold is_northwards_of, is_eastwards_of, is_southwards_of, is_westwards_of; cbn [cd cx cy cz]; split.
    + intros H. split; [intros Ec; subst c; cbn [cd cx cy cz] in *; lia|]. exists (Z.to_nat (cy c - y2)). rewrite Hn by lia. unfold live. f_equal; lia.
    + intros (Hne & k & Hk). destruct (Ln k) as (j & Hj & Hl). rewrite Hl in Hk. inversion Hk; subst.
      destruct (Z.eq_dec y2 (cy c)) as [->|]; [exfalso; apply Hne; destruct c as [dd xx yy zz]; cbn in *; subst; reflexivity|]. lia.
    + intros H. split; [intros Ec; subst c; cbn [cd cx cy cz] in *; lia|]. exists (Z.to_nat (x2 - cx c)). rewrite He by lia. unfold live. f_equal; lia.
    + intros (Hne & k & Hk). destruct (Le k) as (j & Hj & Hl). rewrite Hl in Hk. inversion Hk; subst.
      destruct (Z.eq_dec x2 (cx c)) as [->|]; [exfalso; apply Hne; destruct c as [dd xx yy zz]; cbn in *; subst; reflexivity|]. lia.
    + intros H. split; [intros Ec; subst c; cbn [cd cx cy cz] in *; lia|]. exists (Z.to_nat (y2 - cy c)). rewrite Hs by lia. unfold live. f_equal; lia.
    + intros (Hne & k & Hk). destruct (Ls k) as (j & Hj & Hl). rewrite Hl in Hk. inversion Hk; subst.
      destruct (Z.eq_dec y2 (cy c)) as [->|]; [exfalso; apply Hne; destruct c as [dd xx yy zz]; cbn in *; subst; reflexivity|]. lia.
    + intros H. split; [intros Ec; subst c; cbn [cd cx cy cz] in *; lia|]. exists (Z.to_nat (cx c - x2)). rewrite Hw by lia. unfold live. f_equal; lia.
    + intros (Hne & k & Hk). destruct (Lw k) as (j & Hj & Hl). rewrite Hl in Hk. inversion Hk; subst.
      destruct (Z.eq_dec x2 (cx c)) as [->|]; [exfalso; apply Hne; destruct c as [dd xx yy zz]; cbn in *; subst; reflexivity|]. lia.
Qed.
Print Assumptions C07_borders.

Example C07_nonvacuous : inb (live 3 3 1) (live 2 3 0) /\ east (live 3 3 1) (live 2 3 0) = live 3 3 0 /\
  south (live 3 3 1) (live 2 3 0) = live 2 3 0 /\ above (live 3 3 1) (live 2 3 0) = live 2 3 1.
Proof. unfold inb; simpl; repeat split; try lia; reflexivity. Qed.

(** * C08 *)

Theorem C08_adjacency : forall ar c, inb ar c ->
  (forall n, In n (c_adjacent ar c) <-> inb ar n /\ square_touch c n) /\
  NoDup (c_adjacent ar c) /\
  (forall n, c_is_adjacent_of ar c n = true <-> inb ar n /\ square_touch c n).
Proof.
  intros ar c Hc. split; [|split].
  - intros n. apply c_adjacent_spec, Hc.
  - apply c_adjacent_NoDup, Hc.
  - intros n. rewrite (c_is_adjacent_of_spec ar c n Hc). apply c_adjacent_spec, Hc.
Qed.
Print Assumptions C08_adjacency.

Theorem C08_symmetric_irreflexive : forall ar a b, inb ar a -> inb ar b ->
  c_is_adjacent_of ar a b = c_is_adjacent_of ar b a /\ c_is_adjacent_of ar a a = false.
Proof.
  intros ar a b Ha Hb. split.
  - apply eq_true_iff_eq.
    rewrite (proj2 (proj2 (C08_adjacency ar a Ha)) b), (proj2 (proj2 (C08_adjacency ar b Hb)) a).
    unfold square_touch. intuition lia.
  - destruct (c_is_adjacent_of ar a a) eqn:E; [|reflexivity].
    rewrite (proj2 (proj2 (C08_adjacency ar a Ha)) a) in E. unfold square_touch in E. lia.
Qed.
Print Assumptions C08_symmetric_irreflexive.

(** Opposite pairs are the two neighbours on opposite sides, listed when both exist. *)
Theorem C08_opposites : forall ar c p q, inb ar c ->
  (In (p, q) (c_opposites ar c) <->
   inb ar p /\ inb ar q /\ cz p = cz c /\ cz q = cz c /\
   ((cx p = cx c /\ cx q = cx c /\ cy p = cy c - 1 /\ cy q = cy c + 1) \/
    (cy p = cy c /\ cy q = cy c /\ cx p = cx c + 1 /\ cx q = cx c - 1))).
Proof.
  intros ar c p q Hc. unfold c_opposites, opposite_pairs. rewrite filter_In.
  rewrite andb_true_iff, !negb_true_iff, !coord_eqb_false. simpl In. simpl fst; simpl snd.
  pose proof Hc as (Hd & Hx & Hy & Hz). destruct c as [d x y z], p as [pd px py pz], q as [qd qx qy qz].
  unfold north, south, east, west, set_d, inb in *; cbn [cd cx cy cz] in *. subst d.
  split.
  - intros ([E|[E|[]]] & H1 & H2); revert E; grid_cases; intros E; inversion E; subst;
    try (exfalso; apply H1; reflexivity); try (exfalso; apply H2; reflexivity); try (exfalso; lia);
    repeat split; try reflexivity; try lia.
  - intros ((Hpd & Hp) & (Hqd & Hq) & -> & -> & Hdis). cbn [cd] in *. subst pd qd.
    destruct Hdis as [(-> & -> & -> & ->)|(-> & -> & -> & ->)].
    + split; [left|split; intros E; inversion E; lia].
      replace (y =? 0) with false by lia. replace (cy ar <? y) with false by lia.
      replace (y <? cy ar) with true by lia. reflexivity.
    + split; [right; left|split; intros E; inversion E; lia].
      replace (x =? 0) with false by lia. replace (cx ar <? x) with false by lia.
      replace (x <? cx ar) with true by lia. reflexivity.
Qed.
Print Assumptions C08_opposites.

(** Elevation adjacency (both topologies): the positions touch when projected to one layer, and the
    layers differ by at most one. *)
Theorem C08_elevation : forall t ar a b, dim_ok ar -> inb ar a ->
  (is_adjacent_elevation_of t ar a b = true <->
   inb ar b /\ touch t (live (cx a) (cy a) (cz b)) b /\ Z.abs (cz a - cz b) <= 1).
Proof.
  intros t ar a b Hok Ha. unfold is_adjacent_elevation_of. rewrite !orb_true_iff.
  rewrite (is_adjacent_of_spec t ar a b Ha), (is_adjacent_of_spec t ar (above ar a) b (above_inb _ _ Ha)),
    (is_adjacent_of_spec t ar (below ar a) b (below_inb _ _ Ha)).
  rewrite !adjacent_spec by (assumption || apply above_inb, Ha || apply below_inb, Ha).
  assert (Htz : forall u, touch t u b -> cz u = cz b).
  { intros u Hu. destruct t; simpl in Hu; destruct Hu; assumption. }
  assert (Hpr : forall u, cx u = cx a -> cy u = cy a -> cd u = false -> cz u = cz b -> u = live (cx a) (cy a) (cz b)).
  { intros [? ? ? ?]; simpl; intros; subst; reflexivity. }
  assert (Hab : cx (above ar a) = cx a /\ cy (above ar a) = cy a /\ cd (above ar a) = false /\
                cz (above ar a) = Z.min (cz ar) (cz a + 1)).
  { destruct Ha as (Hd & Hx & Hy & Hz). unfold above. grid_cases; cbn [cd cx cy cz]; repeat split; (assumption || lia). }
  assert (Hbe : cx (below ar a) = cx a /\ cy (below ar a) = cy a /\ cd (below ar a) = false /\
                cz (below ar a) = Z.max 0 (cz a - 1)).
  { destruct Ha as (Hd & Hx & Hy & Hz). unfold below. grid_cases; cbn [cd cx cy cz]; repeat split; (assumption || lia). }
  pose proof Ha as (Hd & Hx & Hy & Hz).
  split.
  - intros [[(Hb & Ht)|(Hb & Ht)]|(Hb & Ht)]; pose proof (Htz _ Ht) as Hcz.
    + rewrite <- (Hpr a eq_refl eq_refl Hd Hcz). split; [exact Hb|split; [exact Ht|lia]].
    + destruct Hab as (A1 & A2 & A3 & A4). rewrite <- (Hpr (above ar a) A1 A2 A3 Hcz). split; [exact Hb|split; [exact Ht|lia]].
    + destruct Hbe as (A1 & A2 & A3 & A4). rewrite <- (Hpr (below ar a) A1 A2 A3 Hcz). split; [exact Hb|split; [exact Ht|lia]].
  - intros (Hb & Ht & Hdz). pose proof Hb as (_ & _ & _ & Hzb).
    assert (Hc : cz b = cz a \/ cz b = cz a + 1 \/ cz b = cz a - 1) by lia.
    destruct Hc as [Hc|[Hc|Hc]].
    + left; left. rewrite (Hpr a); auto.
    + left; right. destruct Hab as (A1 & A2 & A3 & A4). rewrite (Hpr (above ar a) A1 A2 A3) by lia. tauto.
    + right. destruct Hbe as (A1 & A2 & A3 & A4). rewrite (Hpr (below ar a) A1 A2 A3) by lia. tauto.
Qed.
Print Assumptions C08_elevation.

Example C08_nonvacuous : c_adjacent (live 3 3 1) (live 0 1 0) = [live 0 0 0; live 1 1 0; live 0 2 0] /\
  is_adjacent_elevation_of Cartesian (live 3 3 1) (live 0 1 0) (live 0 2 1) = true.
Proof. split; reflexivity. Qed.

(** * C09 *)

Theorem C09_cube_roundtrip : forall a c, in_u 31 (cx c) -> in_u 31 (cy c) ->
  cx (to_cube a c) + cy (to_cube a c) + cz (to_cube a c) = 0 /\
  to_offset a (to_cube a c) = live (cx c) (cy c) 0.
Proof. intros a c Hx Hy. split; [apply to_cube_sum | apply to_offset_cube; assumption]. Qed.
Print Assumptions C09_cube_roundtrip.

(** Cube coordinates describe the hexagon's centre: in row arrangements the centre is at
    horizontal position 2q+r and row r (up to a fixed offset), in column arrangements dually. *)
Theorem C09_cube_geometry : forall a c c',
  hex_px a c' - hex_px a c = (if pointy a then 2 * (cx (to_cube a c') - cx (to_cube a c)) + (cz (to_cube a c') - cz (to_cube a c))
                              else cx (to_cube a c') - cx (to_cube a c)) /\
  hex_py a c' - hex_py a c = (if pointy a then cz (to_cube a c') - cz (to_cube a c)
                              else 2 * (cz (to_cube a c') - cz (to_cube a c)) + (cx (to_cube a c') - cx (to_cube a c))).
Proof.
  intros a c c'. unfold to_cube, hex_px, hex_py, live.
  destruct a; cbn [pointy hex_offset cx cy cz cd]; rewrite ?half_odd, ?half_even; lia.
Qed.
Print Assumptions C09_cube_geometry.

(** Every cube coordinate with zero sum whose offset coordinate is in the 31-bit range is hit. *)
Theorem C09_offset_roundtrip : forall a q,
  cd q = false -> cx q + cy q + cz q = 0 ->
  (exists c, in_u 31 (cx c) /\ in_u 31 (cy c) /\ to_cube a c = q) -> to_cube a (to_offset a q) = q.
Proof.
  intros a q _ _ (c & Hx & Hy & <-). rewrite (to_offset_cube a c Hx Hy).
  unfold to_cube. destruct (pointy a); reflexivity.
Qed.
Print Assumptions C09_offset_roundtrip.

Example C09_nonvacuous : to_cube OddRow (live 2 3 0) = live 1 (-4) 3 /\ to_offset OddRow (live 1 (-4) 3) = live 2 3 0 /\
  to_cube EvenColumn (live 3 0 1) = live 3 (-1) (-2).
Proof. repeat split; reflexivity. Qed.

(** * C10 *)

Theorem C10_adjacency : forall a ar c, dim_ok ar -> inb ar c ->
  (forall n, In n (hex_adjacent a ar c) <-> inb ar n /\ hex_touch a c n) /\
  NoDup (hex_adjacent a ar c) /\ (length (hex_adjacent a ar c) <= 6)%nat /\
  (forall n, hex_is_adjacent_of a ar c n = true <-> inb ar n /\ hex_touch a c n).
Proof.
  intros a ar c Hok Hc. split; [|split; [|split]].
  - intros n. apply hex_adjacent_spec; assumption.
  - apply hex_adjacent_NoDup; assumption.
  - unfold hex_adjacent. etransitivity; [apply filter_length_le|]. rewrite map_length. simpl. lia.
  - intros n. rewrite hex_is_adjacent_of_spec. apply hex_adjacent_spec; assumption.
Qed.
Print Assumptions C10_adjacency.

Theorem C10_symmetric_irreflexive : forall a ar c n, dim_ok ar -> inb ar c -> inb ar n ->
  hex_is_adjacent_of a ar c n = hex_is_adjacent_of a ar n c /\ hex_is_adjacent_of a ar c c = false.
Proof.
  intros a ar c n Hok Hc Hn. split.
  - apply eq_true_iff_eq.
    rewrite (proj2 (proj2 (proj2 (C10_adjacency a ar c Hok Hc))) n), (proj2 (proj2 (proj2 (C10_adjacency a ar n Hok Hn))) c).
    rewrite (hex_touch_sym a c n). tauto.
  - destruct (hex_is_adjacent_of a ar c c) eqn:E; [|reflexivity].
    rewrite (proj2 (proj2 (proj2 (C10_adjacency a ar c Hok Hc))) c) in E.
    destruct E as [_ E]. exfalso. exact (touch_irrefl (Hex a) c E).
Qed.
Print Assumptions C10_symmetric_irreflexive.

(** The diagonal direction functions move to the hexagon whose centre is displaced by the
    corresponding diagonal half step, if it is in bounds, and otherwise do not move. *)
Theorem C10_directions : forall a ar c f sx sy, dim_ok ar -> inb ar c ->
  In (f, (sx, sy)) [(hex_north_east a, (1, -1)); (hex_south_east a, (1, 1));
                    (hex_south_west a, (-1, 1)); (hex_north_west a, (-1, -1))] ->
  (forall n, inb ar n -> cz n = cz c -> hex_disp a c n sx sy -> f ar c = n) /\
  ((forall n, inb ar n -> cz n = cz c -> ~ hex_disp a c n sx sy) -> f ar c = c).
Proof.
  intros a ar c f sx sy Hok Hc Hin.
  assert (Hgen : forall dir, unit_dir dir -> dpx a dir = sx -> dpy a dir = sy ->
     (forall n, inb ar n -> cz n = cz c -> hex_disp a c n sx sy -> hex_dir a ar c dir = n) /\
     ((forall n, inb ar n -> cz n = cz c -> ~ hex_disp a c n sx sy) -> hex_dir a ar c dir = c)).
  { intros dir Hu <- <-. unfold hex_dir. split.
    - intros n Hn Hz Hd. destruct (hex_step_bwd a ar c n dir Hok Hc Hn Hu (eq_sym Hz) Hd) as [-> ->]. reflexivity.
    - intros Hno. destruct (is_within_bounds ar (hex_step a c dir)) eqn:E; [|reflexivity].
      destruct (hex_step_fwd a ar c dir Hok Hc Hu E) as (H1 & H2 & H3). exfalso. eapply Hno; eassumption. }
  simpl in Hin. unfold hex_north_east, hex_south_east, hex_south_west, hex_north_west in Hin.
  unfold dpx, dpy, unit_dir in Hgen.
  destruct (pointy a);
  repeat (destruct Hin as [[= <- <- <-]|Hin]; [apply Hgen; simpl; lia|]); destruct Hin.
Qed.
Print Assumptions C10_directions.

(** The listed opposite pairs are pairs of neighbours on opposite sides of the hexagon, and every such pair of
    in-bounds neighbours is listed (in one order). *)
Theorem C10_opposites : forall a ar c, dim_ok ar -> inb ar c ->
  (forall p q, In (p, q) (hex_opposites a ar c) ->
     inb ar p /\ inb ar q /\ hex_touch a c p /\ hex_touch a c q /\
     exists dx dy, hex_disp a c p dx dy /\ hex_disp a c q (- dx) (- dy)) /\
  (forall p q dx dy, inb ar p -> inb ar q -> hex_touch a c p -> hex_touch a c q ->
     hex_disp a c p dx dy -> hex_disp a c q (- dx) (- dy) ->
     In (p, q) (hex_opposites a ar c) \/ In (q, p) (hex_opposites a ar c)).
Proof.
  intros a ar c Hok Hc.
  destruct (C07_directions ar) as (Mn & Me & Ms & Mw & _).
  (* every listed direction function, with its displacement *)
  set (D := fun (f : coord -> coord -> coord) (sx sy : Z) =>
     (forall n, inb ar n -> cz n = cz c -> hex_disp a c n sx sy -> f ar c = n) /\
     (f ar c <> c -> inb ar (f ar c) /\ cz (f ar c) = cz c /\ hex_disp a c (f ar c) sx sy)).
  assert (Dd : forall f sx sy, In (f, (sx, sy)) [(hex_north_east a, (1, -1)); (hex_south_east a, (1, 1));
                    (hex_south_west a, (-1, 1)); (hex_north_west a, (-1, -1))] -> D f sx sy).
  { intros f sx sy Hin. split; [apply (C10_directions a ar c f sx sy Hok Hc Hin)|]. intros Hne.
    assert (Hgen : forall dir, unit_dir dir -> dpx a dir = sx -> dpy a dir = sy -> hex_dir a ar c dir <> c ->
       inb ar (hex_dir a ar c dir) /\ cz (hex_dir a ar c dir) = cz c /\ hex_disp a c (hex_dir a ar c dir) sx sy).
    { intros dir Hu <- <-. unfold hex_dir. destruct (is_within_bounds ar (hex_step a c dir)) eqn:E; [|congruence].
      intros _. destruct (hex_step_fwd a ar c dir Hok Hc Hu E) as (H1 & H2 & H3). auto. }
    revert Hne. simpl in Hin. unfold hex_north_east, hex_south_east, hex_south_west, hex_north_west in Hin.
    unfold dpx, dpy, unit_dir in Hgen.
    destruct (pointy a);
    repeat (destruct Hin as [[= <- <- <-]|Hin]; [apply Hgen; simpl; lia|]); destruct Hin. }
  assert (Ds : forall f dx dy, moves_by ar f dx dy 0 ->
     (if pointy a then dy = 0 else dx = 0) -> D f (if pointy a then 2 * dx else dx) (if pointy a then dy else 2 * dy)).
  { intros f dx dy Hf Hp. destruct (Hf c Hc) as [H1 H2]. split.
    - intros n Hn Hz Hdisp.
      assert (En : n = live (cx c + dx) (cy c + dy) (cz c + 0)).
      { destruct n as [nd nx ny nz]; pose proof Hn as (Hnd & _); cbn in Hnd, Hz; subst nd nz. unfold live.
        unfold hex_disp, hex_px, hex_py in Hdisp; cbn [cx cy cz cd] in Hdisp.
        destruct a; cbn [pointy] in *; subst; f_equal; lia. }
      rewrite En. apply H1. rewrite <- En. exact Hn.
    - intros Hne.
      destruct (is_within_bounds ar (live (cx c + dx) (cy c + dy) (cz c + 0)) && (0 <=? cx c + dx) && (0 <=? cy c + dy)) eqn:E.
      + assert (Hi : inb ar (live (cx c + dx) (cy c + dy) (cz c + 0))).
        { pose proof Hc as (_ & _ & _ & Hz). unfold is_within_bounds, inb, live in *; cbn [cd cx cy cz] in *. repeat split; lia. }
        rewrite (H1 Hi). split; [exact Hi|]. split; [cbn; lia|].
        unfold hex_disp, hex_px, hex_py, live; cbn [cx cy cz cd]. destruct a; cbn [pointy] in *; subst; lia.
      + exfalso. apply Hne, H2. intros Hi. unfold is_within_bounds, inb, live in *; cbn [cd cx cy cz] in *. lia. }
  assert (HD : exists f1 g1 s1 t1, D f1 s1 t1 /\ D g1 (- s1) (- t1) /\
            (if pointy a then s1 = 2 /\ t1 = 0 else s1 = 0 /\ t1 = -2) /\
            hex_opposites a ar c = opposite_pairs c [(f1 ar c, g1 ar c); (hex_north_east a ar c, hex_south_west a ar c);
                                                     (hex_north_west a ar c, hex_south_east a ar c)]).
  { unfold hex_opposites. specialize (Ds east 1 0 Me) as E1. specialize (Ds west (-1) 0 Mw) as E2.
    specialize (Ds north 0 (-1) Mn) as E3. specialize (Ds south 0 1 Ms) as E4.
    destruct (pointy a).
    - exists east, west, 2, 0. auto.
    - exists north, south, 0, (-2). auto. }
  destruct HD as (f1 & g1 & s1 & t1 & D1 & D2 & Est & ->).
  pose proof (Dd (hex_north_east a) 1 (-1) ltac:(cbn; tauto)) as D3.
  pose proof (Dd (hex_south_west a) (-1) 1 ltac:(cbn; tauto)) as D4.
  pose proof (Dd (hex_north_west a) (-1) (-1) ltac:(cbn; tauto)) as D5.
  pose proof (Dd (hex_south_east a) 1 1 ltac:(cbn; tauto)) as D6.
  assert (Tdisp : forall n dx dy, cz n = cz c -> hex_disp a c n dx dy ->
    (((dx = 1 \/ dx = -1) /\ (dy = 1 \/ dy = -1)) \/ (dx = s1 /\ dy = t1) \/ (dx = - s1 /\ dy = - t1)) -> hex_touch a c n).
  { intros n dx dy Hz Hdisp Hcase. split; [auto|]. destruct Hcase as [[Hx Hy]|Hcase].
    - left. exists dx, dy. auto.
    - right. exists (if pointy a then dx else dy). destruct (pointy a); destruct Est as [-> ->];
        (split; [lia|]); destruct Hcase as [[-> ->]|[-> ->]]; exact Hdisp. }
  unfold opposite_pairs. split.
  - intros p q. rewrite filter_In, andb_true_iff, !negb_true_iff, !coord_eqb_false. cbn [fst snd In].
    intros (Hin & Hp & Hq).
    destruct Hin as [E|[E|[E|[]]]]; inversion E; subst p q; clear E.
    + destruct (proj2 D1 Hp) as (A1 & A2 & A3). destruct (proj2 D2 Hq) as (B1 & B2 & B3).
      split; [exact A1|]. split; [exact B1|]. split; [eapply Tdisp; eauto|]. split; [eapply Tdisp; eauto|]. eauto.
    + destruct (proj2 D3 Hp) as (A1 & A2 & A3). destruct (proj2 D4 Hq) as (B1 & B2 & B3).
      split; [exact A1|]. split; [exact B1|]. split; [eapply Tdisp; [exact A2|exact A3|]; lia|].
      split; [eapply Tdisp; [exact B2|exact B3|]; lia|]. exists 1, (-1). auto.
    + destruct (proj2 D5 Hp) as (A1 & A2 & A3). destruct (proj2 D6 Hq) as (B1 & B2 & B3).
      split; [exact A1|]. split; [exact B1|]. split; [eapply Tdisp; [exact A2|exact A3|]; lia|].
      split; [eapply Tdisp; [exact B2|exact B3|]; lia|]. exists (-1), (-1). auto.
  - intros p q dx dy Hp Hq [Zp Tp] [Zq Tq] Hdp Hdq.
    assert (Hne : forall n x y, hex_disp a c n x y -> (x <> 0 \/ y <> 0) -> n <> c).
    { intros n x y [H1 H2] Hx ->. lia. }
    assert (Hcase : ((dx = 1 \/ dx = -1) /\ (dy = 1 \/ dy = -1)) \/ (dx = s1 /\ dy = t1) \/ (dx = - s1 /\ dy = - t1)).
    { destruct Hdp as [E1 E2]. destruct Tp as [(sx & sy & H1 & H2 & H3 & H4)|(s & Hs & H3)]; [left; lia|right].
      destruct (pointy a); destruct Est as [-> ->]; destruct H3 as [H3 H4]; lia. }
    rewrite !filter_In, !andb_true_iff, !negb_true_iff, !coord_eqb_false. cbn [fst snd In].
    assert (Np : p <> c /\ q <> c).
    { assert (dx <> 0 \/ dy <> 0) by (destruct (pointy a); lia).
      split; [eapply Hne; [exact Hdp|lia]|eapply Hne; [exact Hdq|lia]]. }
    destruct Np as [Np Nq].
    assert (Use : forall f g sx sy, D f sx sy -> D g (- sx) (- sy) -> dx = sx -> dy = sy -> f ar c = p /\ g ar c = q).
    { intros f g sx sy [Df _] [Dg _] -> ->. split; [apply Df|apply Dg]; auto. }
    assert (Use' : forall f g sx sy, D f sx sy -> D g (- sx) (- sy) -> dx = - sx -> dy = - sy -> f ar c = q /\ g ar c = p).
    { intros f g sx sy [Df _] [Dg _] -> ->. rewrite !Z.opp_involutive in Hdq. split; [apply Df|apply Dg]; auto. }
    destruct Hcase as [[[->| ->] [->| ->]]|[[Ex Ey]|[Ex Ey]]].
    + right. destruct (Use' _ _ _ _ D5 D6 eq_refl eq_refl) as [E1 E2]. rewrite E1, E2. auto 6.
    + left. destruct (Use _ _ _ _ D3 D4 eq_refl eq_refl) as [E1 E2]. rewrite E1, E2. auto 6.
    + right. destruct (Use' _ _ _ _ D3 D4 eq_refl eq_refl) as [E1 E2]. rewrite E1, E2. auto 6.
    + left. destruct (Use _ _ _ _ D5 D6 eq_refl eq_refl) as [E1 E2]. rewrite E1, E2. auto 6.
    + left. destruct (Use _ _ _ _ D1 D2 Ex Ey) as [E1 E2]. rewrite E1, E2. auto 6.
    + right. destruct (Use' _ _ _ _ D1 D2 Ex Ey) as [E1 E2]. rewrite E1, E2. auto 6.
Qed.
Print Assumptions C10_opposites.

Example C10_nonvacuous : dim_ok (live 3 3 0) /\ inb (live 3 3 0) (live 0 1 0) /\
  hex_adjacent OddRow (live 3 3 0) (live 0 1 0) = [live 1 1 0; live 1 0 0; live 0 0 0; live 0 2 0; live 1 2 0] /\
  hex_north_east OddRow (live 3 3 0) (live 0 1 0) = live 1 0 0 /\ hex_touch OddRow (live 0 1 0) (live 1 0 0).
Proof.
  unfold dim_ok, inb; simpl; repeat split; try lia; try reflexivity.
  left. exists 1, (-1). unfold hex_disp; simpl. lia.
Qed.
