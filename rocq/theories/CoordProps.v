(** Properties C01-C06: coordinates. *)
From Coq Require Import ZArith Bool List Lia Sorting.Sorted ZifyBool.
From Verif Require Import CoordModel CoordSpec CoordProofs.
Import ListNotations.
Local Open Scope Z_scope.
Ltac Zify.zify_post_hook ::= Z.div_mod_to_equations.

(** * C01 *)

(** Packing then unpacking any offset coordinate, unpacking then packing any 64-bit word,
    and equality of coordinates coincides with equality of words. *)
Theorem C01_packing_lossless :
  (forall c, u_wf c -> 0 <= u64_of_u c < 2 ^ 64 /\ u_of_u64 (u64_of_u c) = c) /\
  (forall t, 0 <= t < 2 ^ 64 -> u_wf (u_of_u64 t) /\ u64_of_u (u_of_u64 t) = t) /\
  (forall a b, u_wf a -> u_wf b -> (coord_eqb a b = true <-> u64_of_u a = u64_of_u b)).
Proof.
  split; [|split].
  - intros c H. split; [apply u64_of_u_range, H | apply u_pack_unpack, H].
  - intros t H. split; [apply u_of_u64_wf | apply u_unpack_pack, H].
  - intros a b Ha Hb. rewrite coord_eqb_spec. split; [congruence|].
    intros E. rewrite <- (u_pack_unpack a Ha), <- (u_pack_unpack b Hb), E. reflexivity.
Qed.
Print Assumptions C01_packing_lossless.

(** The layout of the word: deadness is bit 63, z bit 62, y bits 31-61, x bits 0-30. *)
Theorem C01_packing_layout : forall c, u_wf c ->
  u64_of_u c = (if cd c then 2 ^ 63 else 0) + 2 ^ 62 * cz c + 2 ^ 31 * cy c + cx c.
Proof. intros c H. rewrite (u64_of_u_arith c H). destruct (cd c); unfold b2z; lia. Qed.
Print Assumptions C01_packing_layout.

(** get_dead keeps the position and sets the flag. *)
Theorem C01_get_dead : forall c, u_wf c -> u_get_dead c = mkC true (cx c) (cy c) (cz c).
Proof. exact u_get_dead_eq. Qed.
Print Assumptions C01_get_dead.

Example C01_nonvacuous : u_wf (live 5 7 1) /\ u64_of_u (live 5 7 1) = 4611686033459773445 /\
  u_of_u64 4611686033459773445 = live 5 7 1.
Proof. unfold u_wf, in_u. simpl. repeat split; (lia || reflexivity). Qed.

(** * C02 *)

Definition strict_total_order_on (P : coord -> Prop) (ltb : coord -> coord -> bool) : Prop :=
  (forall a, P a -> ltb a a = false) /\
  (forall a b c, P a -> P b -> P c -> ltb a b = true -> ltb b c = true -> ltb a c = true) /\
  (forall a b, P a -> P b ->
     (ltb a b = true /\ coord_eqb a b = false /\ ltb b a = false) \/
     (ltb a b = false /\ coord_eqb a b = true /\ ltb b a = false) \/
     (ltb a b = false /\ coord_eqb a b = false /\ ltb b a = true)) /\
  (forall a b, P a -> P b ->
     gtb_of ltb a b = ltb b a /\
     leb_of ltb a b = (ltb a b || coord_eqb a b) /\
     geb_of ltb a b = (ltb b a || coord_eqb a b)).

(** For every kind, operator< is a strict total order on live coordinates that agrees with ==. *)
Theorem C02_strict_total_order : forall k, strict_total_order_on (fun c => cd c = false) (k_ltb k).
Proof.
  intros k.
  assert (Htri : forall a b, cd a = false -> cd b = false ->
     (k_ltb k a b = true /\ coord_eqb a b = false /\ k_ltb k b a = false) \/
     (k_ltb k a b = false /\ coord_eqb a b = true /\ k_ltb k b a = false) \/
     (k_ltb k a b = false /\ coord_eqb a b = false /\ k_ltb k b a = true)).
  { intros a b Ha Hb.
    destruct (coord_eqb a b) eqn:E.
    - apply coord_eqb_spec in E; subst b. rewrite k_ltb_irrefl. tauto.
    - apply coord_eqb_false in E. destruct (k_ltb k a b) eqn:E1, (k_ltb k b a) eqn:E2; auto.
      + pose proof (k_ltb_trans _ _ _ _ E1 E2) as H. rewrite k_ltb_irrefl in H. discriminate.
      + destruct (k_ltb_total k a b) as [?|[?|?]]; congruence. }
  split; [|split; [|split]].
  - intros a _. apply k_ltb_irrefl.
  - intros a b c _ _ _. apply k_ltb_trans.
  - exact Htri.
  - intros a b Ha Hb. unfold gtb_of, leb_of, geb_of, gtb_of. split; [reflexivity|].
    destruct (Htri a b Ha Hb) as [(-> & -> & ->)|[(-> & -> & ->)|(-> & -> & ->)]]; auto.
Qed.
Print Assumptions C02_strict_total_order.

(** Ranking: layer first for offset and cube coordinates, dimer row first for SiQAD ones. *)
Theorem C02_ranking : forall a b,
  (coord_ltb a b = true <->
     cz a < cz b \/ (cz a = cz b /\ cy a < cy b) \/ (cz a = cz b /\ cy a = cy b /\ cx a < cx b)) /\
  (in_u 1 (cz a) -> in_u 1 (cz b) ->
   (s_ltb a b = true <->
     dimer_row a < dimer_row b \/ (dimer_row a = dimer_row b /\ cx a < cx b))).
Proof.
  intros a b. split; [rewrite coord_ltb_iff; lia|].
  unfold in_u, dimer_row. change (2 ^ 1) with 2. intros. rewrite s_ltb_iff; lia.
Qed.
Print Assumptions C02_ranking.

Example C02_nonvacuous : coord_ltb (live 9 1 0) (live 0 2 0) = true /\ s_ltb (live 9 1 0) (live 0 1 1) = true /\
  coord_ltb (live 0 2 0) (live 9 1 0) = false.
Proof. repeat split; reflexivity. Qed.

(** * C03 *)

(** Iterating the whole layout terminates (within volume-many steps) and lists exactly the
    in-bounds coordinates, each once, in strictly increasing order. *)
Theorem C03_iteration_exact : forall k ar, ar_ok k ar ->
  forall fuel, (Z.to_nat (k_volume k ar) <= fuel)%nat ->
  exists l, foreach_coordinate k fuel ar dead0 dead0 = Some l /\
    (forall c, In c l <-> inb ar c) /\ NoDup l /\
    StronglySorted (fun a b => k_ltb k a b = true) l.
Proof.
  intros k ar Hok fuel Hf. destruct (foreach_coordinate_full k ar fuel Hok Hf) as (l & H1 & H2 & H3 & H4 & _).
  exists l; auto.
Qed.
Print Assumptions C03_iteration_exact.

(** Iterating from an in-bounds start to an in-bounds stop not before it lists exactly the
    coordinates from start (inclusive) to stop (exclusive), in order. *)
Theorem C03_iteration_range : forall k ar start stop, ar_ok k ar -> inb ar start -> inb ar stop ->
  (start = stop \/ k_ltb k start stop = true) ->
  forall fuel, (Z.to_nat (k_volume k ar) <= fuel)%nat ->
  exists l, foreach_coordinate k fuel ar start stop = Some l /\
    (forall c, In c l <-> inb ar c /\ (c = start \/ k_ltb k start c = true) /\ k_ltb k c stop = true) /\
    NoDup l /\ StronglySorted (fun a b => k_ltb k a b = true) l.
Proof.
  intros k ar start stop Hok H1 H2 Hle fuel Hf.
  destruct (foreach_coordinate_range k ar start stop fuel Hok H1 H2 Hle Hf) as (l & E & Hl & Hs).
  exists l. split; [exact E|]. split; [exact Hl|]. split; [|exact Hs]. eapply StronglySorted_NoDup, Hs.
Qed.
Print Assumptions C03_iteration_range.

Example C03_nonvacuous :
  ar_ok Offset (live 2 1 1) /\ ar_ok Siqad (live 1 1 1) /\
  foreach_coordinate Offset 12 (live 2 1 1) dead0 dead0 =
    Some [live 0 0 0; live 1 0 0; live 2 0 0; live 0 1 0; live 1 1 0; live 2 1 0;
          live 0 0 1; live 1 0 1; live 2 0 1; live 0 1 1; live 1 1 1; live 2 1 1] /\
  foreach_coordinate Siqad 8 (live 1 1 1) dead0 dead0 =
    Some [live 0 0 0; live 1 0 0; live 0 0 1; live 1 0 1; live 0 1 0; live 1 1 0; live 0 1 1; live 1 1 1].
Proof. unfold ar_ok, u_wf, in_u; simpl. repeat split; try lia; vm_compute; reflexivity. Qed.

(** Finding: at the 31-bit limit of x, the iterator's increment wraps and never leaves the first
    row, so an iteration over a layout of more than one row never ends. *)
Theorem C03_max_width_never_terminates_refuted :
  u_wf (live (2 ^ 31 - 1) 1 0) /\
  forall fuel, foreach_coordinate Offset fuel (live (2 ^ 31 - 1) 1 0) dead0 dead0 = None.
Proof.
  split; [unfold u_wf, in_u; simpl; lia|]. intros fuel.
  exact (u_iter_stuck fuel 0 ltac:(lia)).
Qed.
Print Assumptions C03_max_width_never_terminates_refuted.

(** * C04 *)

Theorem C04_siqad_roundtrip :
  (forall c, s_wf c -> cd c = false -> in_i32 (dimer_row c) -> to_siqad_coord (to_fiction_coord c) = c) /\
  (forall c, c_wf c -> cd c = false -> cz c = 0 ->
     s_wf (to_siqad_coord c) /\ dimer_row (to_siqad_coord c) = cy c /\ cx (to_siqad_coord c) = cx c /\
     to_fiction_coord (to_siqad_coord c) = c).
Proof.
  unfold s_wf, c_wf, in_i32, in_u, dimer_row, to_siqad_coord, to_fiction_coord, is_dead, i32_min, i32_max.
  change (2 ^ 1) with 2. change (2 ^ 31) with 2147483648.
  split; intros [d x y z]; cbn [cd cx cy cz live dead0]; intros (Hx & Hy & Hz) ->; [intros Hr|intros ->].
  - replace (2147483648 - 1 <? 2 * y + z) with false by lia.
    replace (2 * y + z <? Z.opp 2147483648) with false by lia. unfold live; cbn [cy cx cz cd].
    destruct (0 <=? 2 * y + z) eqn:E.
    + rewrite Z.rem_mod_nonneg by lia. rewrite Z.quot_div_nonneg by lia. unfold live. f_equal; lia.
    + assert (Hrem : Z.rem (2 * y + z) 2 = - ((- (2 * y + z)) mod 2)).
      { rewrite <- (Z.opp_involutive (2 * y + z)) at 1. rewrite Z.rem_opp_l by lia.
        rewrite Z.rem_mod_nonneg by lia. reflexivity. }
      rewrite Hrem.
      assert (Hq : forall a, a <= 0 -> Z.quot a 2 = - ((- a) / 2)).
      { intros a Ha. rewrite <- (Z.opp_involutive a) at 1. rewrite Z.quot_opp_l by lia.
        rewrite Z.quot_div_nonneg by lia. reflexivity. }
      rewrite Hq by lia. unfold live.
      destruct (- (- (2 * y + z) mod 2) =? 0) eqn:E2; f_equal; lia.
  - destruct (0 <=? y) eqn:E; unfold live; cbn [cy cx cz cd].
    + rewrite !Z.rem_mod_nonneg by lia. rewrite !Z.quot_div_nonneg by lia. cbn [cd cx cy cz live].
      repeat split; try lia.
      replace (2147483648 - 1 <? 2 * ((y - y mod 2) / 2) + y mod 2) with false by lia.
      replace (2 * ((y - y mod 2) / 2) + y mod 2 <? Z.opp 2147483648) with false by lia.
      unfold live. f_equal; lia.
    + assert (Hrem : Z.rem y 2 = - ((- y) mod 2)).
      { rewrite <- (Z.opp_involutive y) at 1. rewrite Z.rem_opp_l by lia.
        rewrite Z.rem_mod_nonneg by lia. reflexivity. }
      rewrite Hrem.
      assert (Hq : forall a, a <= 0 -> Z.quot a 2 = - ((- a) / 2)).
      { intros a Ha. rewrite <- (Z.opp_involutive a) at 1. rewrite Z.quot_opp_l by lia.
        rewrite Z.quot_div_nonneg by lia. reflexivity. }
      rewrite Hq by lia.
      destruct (- (- y mod 2) =? 0) eqn:E2; cbn [cd cx cy cz live];
      (repeat split; try lia);
      match goal with |- context [2147483648 - 1 <? ?a] => replace (2147483648 - 1 <? a) with false by lia end;
      match goal with |- context [?a <? Z.opp 2147483648] => replace (a <? Z.opp 2147483648) with false by lia end;
      unfold live; f_equal; lia.
Qed.
Print Assumptions C04_siqad_roundtrip.

(** Outside the 32-bit row range the conversion saturates. *)
Theorem C04_siqad_saturates : forall c, cd c = false ->
  to_fiction_coord c = live (cx c) (Z.max i32_min (Z.min i32_max (dimer_row c))) 0.
Proof.
  intros [d x y z]; cbn [cd cx]; intros ->. unfold to_fiction_coord, is_dead, dimer_row, i32_max, i32_min; cbn [cd cx cy cz].
  destruct (2 ^ 31 - 1 <? 2 * y + z) eqn:E1; [|destruct (2 * y + z <? - 2 ^ 31) eqn:E2]; f_equal; lia.
Qed.
Print Assumptions C04_siqad_saturates.

Example C04_nonvacuous : s_wf (live (-3) (-2) 1) /\ in_i32 (dimer_row (live (-3) (-2) 1)) /\
  to_fiction_coord (live (-3) (-2) 1) = live (-3) (-3) 0 /\ to_siqad_coord (live (-3) (-3) 0) = live (-3) (-2) 1.
Proof. unfold s_wf, in_i32, in_u, i32_min, i32_max, dimer_row; simpl; repeat split; try lia; reflexivity. Qed.

(** Finding: the conversion to SiQAD coordinates does not preserve deadness. *)
Theorem C04_dead_not_preserved_refuted : exists c, is_dead c = true /\ is_dead (to_siqad_coord c) = false.
Proof. exists dead0. split; reflexivity. Qed.
Print Assumptions C04_dead_not_preserved_refuted.

(** * C05 *)

Theorem C05_siqad_arithmetic : forall a b, in_u 1 (cz a) -> in_u 1 (cz b) ->
  (cd (s_add a b) = false /\ in_u 1 (cz (s_add a b)) /\
   cx (s_add a b) = cx a + cx b /\ dimer_row (s_add a b) = dimer_row a + dimer_row b) /\
  (cd (s_sub a b) = false /\ in_u 1 (cz (s_sub a b)) /\
   cx (s_sub a b) = cx a - cx b /\ dimer_row (s_sub a b) = dimer_row a - dimer_row b).
Proof.
  intros [da xa ya za] [db xb yb zb]; unfold in_u, dimer_row, s_add, s_sub, live; cbn [cd cx cy cz].
  change (2 ^ 1) with 2. intros Ha Hb.
  assert (za = 0 \/ za = 1) as [-> | ->] by lia; assert (zb = 0 \/ zb = 1) as [-> | ->] by lia;
  repeat match goal with
         | |- context [Z.lxor ?a ?b] => let v := eval compute in (Z.lxor a b) in change (Z.lxor a b) with v
         | |- context [b2z ?a] => let v := eval compute in (b2z a) in change (b2z a) with v
         end; repeat split; lia.
Qed.
Print Assumptions C05_siqad_arithmetic.

(** Hence subtraction undoes addition. *)
Theorem C05_sub_add : forall a b, in_u 1 (cz a) -> in_u 1 (cz b) -> cd a = false -> s_sub (s_add a b) b = a.
Proof.
  intros a b Ha Hb Hd.
  destruct (C05_siqad_arithmetic a b Ha Hb) as ((_ & H2 & H3 & H4) & _).
  destruct (C05_siqad_arithmetic (s_add a b) b H2 Hb) as (_ & (K1 & K2 & K3 & K4)).
  unfold in_u, dimer_row in *. change (2 ^ 1) with 2 in *.
  apply coord_ext; [congruence|lia|lia|lia].
Qed.
Print Assumptions C05_sub_add.

Example C05_nonvacuous : s_add (live 1 2 1) (live 3 (-4) 1) = live 4 (-1) 0 /\ s_sub (live 1 2 0) (live 3 4 1) = live (-2) (-3) 1.
Proof. split; reflexivity. Qed.

(** * C06 *)

(** volume = number of coordinates a full iteration yields. *)
Theorem C06_volume_counts : forall k ar, ar_ok k ar ->
  exists fuel l, foreach_coordinate k fuel ar dead0 dead0 = Some l /\ Z.of_nat (length l) = k_volume k ar.
Proof.
  intros k ar Hok. exists (Z.to_nat (k_volume k ar)).
  destruct (foreach_coordinate_full k ar _ Hok (le_n _)) as (l & H1 & _ & _ & _ & H5). exists l; auto.
Qed.
Print Assumptions C06_volume_counts.

(** area = number of coordinates a ground iteration yields, which are exactly the in-bounds
    coordinates of layer 0 (offset and cube coordinates). *)
Theorem C06_area_counts_ground : forall k ar, k <> Siqad -> ar_ok k ar ->
  exists fuel l, foreach_ground_coordinate k fuel ar dead0 dead0 = Some l /\
    Z.of_nat (length l) = k_area k ar /\ (forall c, In c l <-> inb ar c /\ cz c = 0).
Proof.
  intros k ar Hk Hok.
  set (g := live (cx ar) (cy ar) 0).
  assert (Hg : ar_ok k g).
  { destruct k; [| |congruence]; unfold ar_ok, u_wf, in_u in *; simpl in *; lia. }
  exists (Z.to_nat (k_volume k g)). unfold foreach_ground_coordinate.
  destruct (foreach_coordinate_full k g _ Hg (le_n _)) as (l & H1 & H2 & _ & _ & H5).
  exists l. split; [exact H1|]. split.
  - rewrite H5. destruct k; [| |congruence]; apply offset_ground_volume; unfold ar_ok, u_wf, in_u in Hok; lia.
  - intros c. rewrite H2. unfold inb, g, live; cbn [cx cy cz].
    assert (0 <= cz ar) by (destruct k; [| |congruence]; unfold ar_ok, u_wf, in_u in Hok; lia).
    intuition lia.
Qed.
Print Assumptions C06_area_counts_ground.

(** area and volume of any SiQAD coordinate with non-negative x and y = number of SiQAD
    coordinates in the rectangle of columns 0..x and dimer rows 0..(y, z) (row 2y+z of the lattice). *)
Theorem C06_siqad_area_counts : forall b, 0 <= cx b -> 0 <= cy b -> 0 <= cz b <= 1 ->
  exists l, NoDup l /\ (forall c, In c l <-> cd c = false /\ 0 <= cz c <= 1 /\ 0 <= cx c <= cx b /\                                  0 <= 2 * cy c + cz c <= 2 * cy b + cz b) /\            Z.of_nat (length l) = k_area Siqad b /\ k_volume Siqad b = k_area Siqad b.
Proof. exact s_area_counts. Qed.
Print Assumptions C06_siqad_area_counts.

(** Finding: the ground iteration of a SiQAD layout stops after the first row although the
    layout has more ground coordinates. *)
Theorem C06_siqad_ground_refuted : exists ar, ar_ok Siqad ar /\
  foreach_ground_coordinate Siqad 100 ar dead0 dead0 = Some [live 0 0 0; live 1 0 0] /\
  inb ar (live 0 1 0) /\ k_area Siqad ar = 8.
Proof. exists (live 1 1 1). unfold ar_ok, inb; simpl. repeat split; try lia; reflexivity. Qed.
Print Assumptions C06_siqad_ground_refuted.

Example C06_nonvacuous : ar_ok Cube (live 3 2 1) /\ k_volume Cube (live 3 2 1) = 24 /\ k_area Offset (live 3 2 1) = 12.
Proof. unfold ar_ok; simpl; repeat split; lia. Qed.
