(** Proofs about the application of gate libraries. *)
From Coq Require Import ZArith Lia Bool String List.
From stdpp Require Import gmap.
From Verif Require Import CoordModel CoordSpec GridModel GridSpec CoordMap ClockModel GateModel GateSpec GateProofs GateProofs2 GateProofs3 CellModel CellSpec CellProofs
  RouteModel RouteSpec RouteProofs LibModel LibSpec.
Import List ListNotations.
Local Open Scope Z_scope.

Ltac dm := Z.div_mod_to_equations; lia.

(** ** Positions *)
Lemma w31_id z : 0 <= z < 2 ^ 31 -> w31 z = z.
Proof. intros. apply Z.mod_small. assumption. Qed.

Section Pos.
Context (gx gy : Z) (ar : coord) (F : fits gx gy ar) (t : coord) (I : inb ar t).

Lemma mul_le_x : 0 <= cx t * gx /\ cx t * gx + gx <= (cx ar + 1) * gx.
Proof using F I. destruct F as (A & _), I as (_ & X & _). nia. Qed.
Lemma mul_le_y : 0 <= cy t * gy /\ cy t * gy + gy <= (cy ar + 1) * gy.
Proof using F I. destruct F as (_ & A & _), I as (_ & _ & Y & _). nia. Qed.

Lemma corner_range p : 0 <= corner_x gx p t /\ corner_x gx p t + gx <= cx ar * gx + 2 * gx /\ 0 <= corner_y gy p t /\ corner_y gy p t + gy <= cy ar * gy + 2 * gy.
Proof using F I.
  destruct mul_le_x as [X0 X1], mul_le_y as [Y0 Y1]. destruct F as (GX & GY & _), I as (_ & IX & IY & _).
  assert (QX : 0 <= cx t * (3 * gx / 4) <= cx t * gx) by (split; [apply Z.mul_nonneg_nonneg; dm|apply Z.mul_le_mono_nonneg_l; dm]).
  assert (QY : 0 <= cy t * (3 * gy / 4) <= cy t * gy) by (split; [apply Z.mul_nonneg_nonneg; dm|apply Z.mul_le_mono_nonneg_l; dm]).
  assert (HX : forall b, 0 <= b <= 1 -> 0 <= (2 * cx t + b) * gx / 2 <= cx t * gx + gx) by (intros; assert ((2 * cx t + b) * gx = 2 * (cx t * gx) + b * gx) by ring; assert (0 <= b * gx <= gx) by nia; dm).
  assert (HY : forall b, 0 <= b <= 1 -> 0 <= (2 * cy t + b) * gy / 2 <= cy t * gy + gy) by (intros; assert ((2 * cy t + b) * gy = 2 * (cy t * gy) + b * gy) by ring; assert (0 <= b * gy <= gy) by nia; dm).
  destruct p as [|[]|[]]; cbn [corner_x corner_y pointy hex_px hex_py];
  try pose proof (HX (cy t mod 2) ltac:(dm)); try pose proof (HX (1 - cy t mod 2) ltac:(dm));
  try pose proof (HY (cx t mod 2) ltac:(dm)); try pose proof (HY (1 - cx t mod 2) ltac:(dm)); lia.
Qed.

Lemma half b z g : b = 0 \/ b = 1 -> (2 * z + b) * g / 2 = z * g + (if b =? 1 then g / 2 else 0).
Proof using. intros H. replace ((2 * z + b) * g) with (b * g + (z * g) * 2) by ring. rewrite Z.div_add by lia. destruct H as [->| ->]; [change (0 * g / 2) with 0|rewrite Z.mul_1_l]; simpl; lia. Qed.

Lemma position p x y : in_gate gx gy x y -> relative_to_absolute_cell_position gx gy p t x y = cell_of gx gy p t x y.
Proof using F I.
  intros [X Y]. pose proof (corner_range p) as (R1 & R2 & R3 & R4). destruct F as (GX & GY & FX & FY). pose proof mul_le_x as MX. pose proof mul_le_y as MY.
  destruct I as (_ & IX & IY & _). unfold cell_of. 
  assert (QX : 0 <= cx t * (gx * 3 / 4) <= cx t * gx) by (split; [apply Z.mul_nonneg_nonneg; dm|apply Z.mul_le_mono_nonneg_l; dm]).
  assert (QY : 0 <= cy t * (gy * 3 / 4) <= cy t * gy) by (split; [apply Z.mul_nonneg_nonneg; dm|apply Z.mul_le_mono_nonneg_l; dm]).
  assert (M0 : forall z, (z mod 2 = 0 \/ z mod 2 = 1)) by (intros; dm).
  unfold relative_to_absolute_cell_position, shifted_tile.
  destruct p as [|[]|[]]; cbn [corner_x corner_y pointy hex_px hex_py] in *; cbv zeta;
  rewrite ?half in * by (destruct (M0 (cy t)), (M0 (cx t)); lia); rewrite ?(Z.mul_comm 3) in *;
  repeat match goal with |- context [w31 (?a * ?b)] => rewrite (w31_id (a * b)) by (clear R1 R2 R3 R4; lia) end;
  try (destruct (M0 (cy t)) as [E|E]; rewrite E in * ); try (destruct (M0 (cx t)) as [E'|E']; rewrite E' in * );
  change (1 - 0) with 1 in *; change (1 - 1) with 0 in *; change (1 =? 1) with true in *; change (0 =? 1) with false in *; change (1 =? 0) with false in *; change (0 =? 0) with true in *; cbv iota in *;
  rewrite ?Z.add_0_r in *; repeat (match goal with |- context [w31 (?a + ?b)] => rewrite (w31_id (a + b)) by dm end); reflexivity.
Qed.
End Pos.

(** Where the cell layout ends. *)
Lemma row_bit a r : 0 <= r -> (hex_px a (live 0 r 0) = 0 \/ hex_px a (live 0 r 0) = 1).
Proof. intros. destruct a; cbn [hex_px cx cy live]; dm. Qed.

Lemma aspect gx gy p ar : dim_ok ar -> fits gx gy ar ->
  let l := cell_aspect_ratio gx gy p ar in
  (forall t x y, inb ar t -> in_gate gx gy x y -> inb l (cell_of gx gy p t x y)) /\
  (exists t, inb ar t /\ cx l = corner_x gx p t + gx - 1) /\ (exists t, inb ar t /\ cy l = corner_y gy p t + gy - 1) /\ cz l = cz ar.
Proof.
  intros (DX & DY & DZ) F. cbv zeta. unfold cell_aspect_ratio.
  pose proof F as (GX & GY & FX & FY).
  set (fx := if cx ar =? 0 then 0 else 1). set (fy := if cy ar =? 0 then 0 else 1).
  assert (Hfx : 0 <= fx <= cx ar) by (unfold fx; destruct (cx ar =? 0) eqn:E; lia).
  assert (Hfy : 0 <= fy <= cy ar) by (unfold fy; destruct (cy ar =? 0) eqn:E; lia).
  assert (G : in_gate gx gy (gx - 1) (gy - 1)) by (unfold in_gate; lia).
  assert (B1 : inb ar (live (cx ar) 0 0)) by (unfold inb; cbn; lia).
  assert (B2 : inb ar (live (cx ar) fy 0)) by (unfold inb; cbn; lia).
  assert (B3 : inb ar (live 0 (cy ar) 0)) by (unfold inb; cbn; lia).
  assert (B4 : inb ar (live fx (cy ar) 0)) by (unfold inb; cbn; lia).
  rewrite !(position gx gy ar F) by assumption. cbn [cell_of cx cy cz live].
  split; [|split; [|split; [|reflexivity]]].
  - intros t x y It [X Y]. pose proof (corner_range gx gy ar F t It p) as (R1 & _ & R3 & _). destruct It as (_ & IX & IY & IZ).
    unfold inb. cbn [cell_of cx cy cz cd live]. split; [reflexivity|].
    assert (KX : corner_x gx p t <= Z.max (corner_x gx p (live (cx ar) 0 0)) (corner_x gx p (live (cx ar) fy 0))).
    { assert (LM : forall b b', 0 <= b' <= 1 -> b' <= b -> (2 * cx t + b') * gx / 2 <= (2 * cx ar + b) * gx / 2) by (intros; apply Z.div_le_mono; [lia|]; apply Z.mul_le_mono_nonneg_r; lia).
      destruct p as [|[]|[]]; cbn [corner_x pointy hex_px cx cy live]; try (etransitivity; [|apply Z.le_max_l]; apply Z.mul_le_mono_nonneg_r; dm).
      - destruct (Z.eq_dec (cy t mod 2) 0) as [E|E]; [etransitivity; [|apply Z.le_max_l]|etransitivity; [|apply Z.le_max_r]]; apply LM; [dm|dm|dm|]. unfold fy. destruct (cy ar =? 0) eqn:E2; [|dm]. assert (cy t = 0) by lia. rewrite H in E. exfalso; apply E; reflexivity.
      - etransitivity; [|apply Z.le_max_l]. apply LM; dm.
      - destruct (Z.eq_dec (cy t mod 2) 0) as [E|E]; [etransitivity; [|apply Z.le_max_l]|etransitivity; [|apply Z.le_max_r]]; apply LM; [dm|dm|dm|]. unfold fy. destruct (cy ar =? 0) eqn:E2; [|dm]. assert (cy t = 0) by lia. rewrite H in E. exfalso; apply E; reflexivity.
      - etransitivity; [|apply Z.le_max_l]. apply LM; dm. }
    assert (KY : corner_y gy p t <= Z.max (corner_y gy p (live 0 (cy ar) 0)) (corner_y gy p (live fx (cy ar) 0))).
    { assert (LM : forall b b', 0 <= b' <= 1 -> b' <= b -> (2 * cy t + b') * gy / 2 <= (2 * cy ar + b) * gy / 2) by (intros; apply Z.div_le_mono; [lia|]; apply Z.mul_le_mono_nonneg_r; lia).
      destruct p as [|[]|[]]; cbn [corner_y pointy hex_py cx cy live]; try (etransitivity; [|apply Z.le_max_l]; apply Z.mul_le_mono_nonneg_r; dm).
      - destruct (Z.eq_dec (cx t mod 2) 0) as [E|E]; [etransitivity; [|apply Z.le_max_l]|etransitivity; [|apply Z.le_max_r]]; apply LM; [dm|dm|dm|]. unfold fx. destruct (cx ar =? 0) eqn:E2; [|dm]. assert (cx t = 0) by lia. rewrite H in E. exfalso; apply E; reflexivity.
      - etransitivity; [|apply Z.le_max_l]. apply LM; dm.
      - destruct (Z.eq_dec (cx t mod 2) 0) as [E|E]; [etransitivity; [|apply Z.le_max_l]|etransitivity; [|apply Z.le_max_r]]; apply LM; [dm|dm|dm|]. unfold fx. destruct (cx ar =? 0) eqn:E2; [|dm]. assert (cx t = 0) by lia. rewrite H in E. exfalso; apply E; reflexivity.
      - etransitivity; [|apply Z.le_max_l]. apply LM; dm. }
    lia.
  - destruct (Z.max_spec (corner_x gx p (live (cx ar) 0 0)) (corner_x gx p (live (cx ar) fy 0))) as [[_ E]|[_ E]]; [exists (live (cx ar) fy 0)|exists (live (cx ar) 0 0)]; (split; [assumption|]); lia.
  - destruct (Z.max_spec (corner_y gy p (live 0 (cy ar) 0)) (corner_y gy p (live fx (cy ar) 0))) as [[_ E]|[_ E]]; [exists (live fx (cy ar) 0)|exists (live 0 (cy ar) 0)]; (split; [assumption|]); lia.
Qed.

(** Tiles of rectangular plans do not overlap. *)
Lemma cells_apart gx gy ar p t t' x y x' y' : rectangular p -> fits gx gy ar -> inb ar t -> inb ar t' -> in_gate gx gy x y -> in_gate gx gy x' y' ->
  cell_of gx gy p t x y = cell_of gx gy p t' x' y' -> t = t' /\ x = x' /\ y = y'.
Proof.
  intros R F It It' [X Y] [X' Y'] E. unfold cell_of in E. inversion E as [[E1 E2 E3]]. clear E. destruct F as (GX & GY & _).
  assert (U : forall g a b r r', 0 <= r < g -> 0 <= r' < g -> a * g + r = b * g + r' -> a = b /\ r = r').
  { clear. intros g a b r r' H H' E. assert (a = b) by nia. subst. lia. }
  assert (V : forall b, 0 <= b <= 1 -> forall g r r' z z', 0 <= r < g -> 0 <= r' < g -> (2 * z + b) * g / 2 + r = (2 * z' + b) * g / 2 + r' -> z = z' /\ r = r').
  { intros b Hb g r r' z z' H H' E. rewrite !half in E by lia. apply (U g); [assumption..|]. lia. }
  assert (K : cx t = cx t' /\ x = x' /\ cy t = cy t' /\ y = y').
  { destruct p as [|[]|[]]; try destruct R; cbn [corner_x corner_y pointy hex_px hex_py] in E1, E2.
    - destruct (U gx _ _ _ _ X X' E1), (U gy _ _ _ _ Y Y' E2). auto.
    - destruct (U gy _ _ _ _ Y Y' E2) as [Ey ->]. rewrite Ey in E1. destruct (V (cy t' mod 2) ltac:(dm) gx _ _ _ _ X X' E1). auto.
    - destruct (U gy _ _ _ _ Y Y' E2) as [Ey ->]. rewrite Ey in E1. destruct (V (1 - cy t' mod 2) ltac:(dm) gx _ _ _ _ X X' E1). auto.
    - destruct (U gx _ _ _ _ X X' E1) as [Ex ->]. rewrite Ex in E2. destruct (V (cx t' mod 2) ltac:(dm) gy _ _ _ _ Y Y' E2). auto.
    - destruct (U gx _ _ _ _ X X' E1) as [Ex ->]. rewrite Ex in E2. destruct (V (1 - cx t' mod 2) ltac:(dm) gy _ _ _ _ Y Y' E2). auto. }
  destruct K as (K1 & -> & K2 & ->). split; [|auto]. destruct It as (D & _), It' as (D' & _).
  destruct t as [d a b c], t' as [d' a' b' c']. cbn in *. subst. reflexivity.
Qed.

(** ** The calls made *)
Section Calls.
Context (T : tech).

Lemma in_row o c y row name : forall x, In o (assign_row T c y x row name) <->
  exists i ct, nth_error row i = Some ct /\ In o (assign_cell T (live (w31 (cx c + (x + Z.of_nat i))) (w31 (cy c + y)) (cz c)) name ct).
Proof.
  induction row as [|ct r IH]; intros x; cbn [assign_row].
  - split; [intros []|intros (i & ct & E & _)]. destruct i; discriminate E.
  - rewrite in_app_iff, IH. split.
    + intros [H|(i & ct' & E & H)].
      * exists 0%nat, ct. split; [reflexivity|]. replace (x + Z.of_nat 0) with x by lia. exact H.
      * exists (S i), ct'. split; [exact E|]. replace (x + Z.of_nat (S i)) with (x + 1 + Z.of_nat i) by lia. exact H.
    + intros (i & ct' & E & H). destruct i as [|i]; cbn [nth_error] in E.
      * left. injection E as ->. replace (x + Z.of_nat 0) with x in H by lia. exact H.
      * right. exists i, ct'. split; [exact E|]. replace (x + 1 + Z.of_nat i) with (x + Z.of_nat (S i)) by lia. exact H.
Qed.
Lemma in_rows o c g name : forall y, In o (assign_rows T c y g name) <->
  exists j row i ct, nth_error g j = Some row /\ nth_error row i = Some ct /\
    In o (assign_cell T (live (w31 (cx c + Z.of_nat i)) (w31 (cy c + (y + Z.of_nat j))) (cz c)) name ct).
Proof.
  induction g as [|row r IH]; intros y; cbn [assign_rows].
  - split; [intros []|intros (j & row & i & ct & E & _)]. destruct j; discriminate E.
  - rewrite in_app_iff, IH, in_row. split.
    + intros [(i & ct & E & H)|(j & row' & i & ct & E & E' & H)].
      * exists 0%nat, row, i, ct. split; [reflexivity|]. split; [exact E|]. replace (y + Z.of_nat 0) with y by lia. exact H.
      * exists (S j), row', i, ct. split; [exact E|]. split; [exact E'|]. replace (y + Z.of_nat (S j)) with (y + 1 + Z.of_nat j) by lia. exact H.
    + intros (j & row' & i & ct & E & E' & H). destruct j as [|j]; cbn [nth_error] in E.
      * left. injection E as ->. exists i, ct. split; [exact E'|]. replace (y + Z.of_nat 0) with y in H by lia. exact H.
      * right. exists j, row', i, ct. split; [exact E|]. split; [exact E'|]. replace (y + 1 + Z.of_nat j) with (y + Z.of_nat (S j)) by lia. exact H.
Qed.
Lemma in_gates gx gy p lib st ns : forall ops o, apply_gates T gx gy p lib st ns = Some ops ->
  (In o ops <-> exists n g, In n ns /\ lib st (get_tile st n) = Some g /\
     In o (assign_rows T (relative_to_absolute_cell_position gx gy p (get_tile st n) 0 0) 0 g (get_name st n))).
Proof.
  induction ns as [|n r IH]; intros ops o E; cbn [apply_gates] in E; cbv zeta in E.
  - injection E as <-. split; [intros []|intros (n & g & [] & _)].
  - destruct (lib st (get_tile st n)) as [g|] eqn:Eg; [|discriminate E]. destruct (apply_gates _ _ _ _ _ _ r) as [ops'|] eqn:Er; [|discriminate E].
    injection E as <-. rewrite in_app_iff, (IH ops' o eq_refl). split.
    + intros [H|(m & g' & Hm & Eg' & H)]; [exists n, g; split; [left; reflexivity|]; auto|exists m, g'; split; [right; exact Hm|]; auto].
    + intros (m & g' & [<-|Hm] & Eg' & H); [left; rewrite Eg in Eg'; injection Eg' as <-; exact H|right; exists m, g'; auto].
Qed.
Lemma gates_none gx gy p lib st ns : apply_gates T gx gy p lib st ns = None <-> exists n, In n ns /\ lib st (get_tile st n) = None.
Proof.
  induction ns as [|n r IH]; cbn [apply_gates]; cbv zeta.
  - split; [discriminate|intros (n & [] & _)].
  - destruct (lib st (get_tile st n)) as [g|] eqn:Eg.
    + destruct (apply_gates _ _ _ _ _ _ r) as [ops'|].
      * split; [discriminate|]. intros (m & [<-|Hm] & Em); [congruence|]. assert (X : Some ops' = None) by (apply IH; exists m; auto). discriminate X.
      * split; [|reflexivity]. intros _. destruct (proj1 IH eq_refl) as (m & Hm & Em). exists m. split; [right; exact Hm|exact Em].
    + split; [|reflexivity]. intros _. exists n. split; [left; reflexivity|exact Eg].
Qed.
End Calls.

Lemma latest_none {O A} (f : O -> option A) d l : (forall o, In o l -> f o = None) -> latest f d l = d.
Proof. induction l as [|o r IH]; intros H; [reflexivity|]. cbn. rewrite (H o) by (left; reflexivity). apply IH. intros; apply H; right; assumption. Qed.
Lemma latest_all {O A} (f : O -> option A) d v l : (forall o a, In o l -> f o = Some a -> a = v) -> (exists o, In o l /\ f o <> None) -> latest f d l = v.
Proof.
  induction l as [|o r IH]; intros H (k & Hk & Ek); [destruct Hk|]. cbn. destruct (f o) as [a|] eqn:E.
  - apply (H o); [left; reflexivity|exact E].
  - apply IH; [intros; apply (H o0); [right|]; assumption|]. destruct Hk as [<-|Hk]; [congruence|]. exists k. auto.
Qed.
Lemma latest_some {O A} (f : O -> option A) d l : (exists o, In o l /\ f o = Some (latest f d l)) \/ latest f d l = d.
Proof. induction l as [|o r IH]; [right; reflexivity|]. cbn. destruct (f o) as [a|] eqn:E; [left; exists o; split; [left; reflexivity|exact E]|]. destruct IH as [(k & Hk & Ek)|IH]; [left; exists k; split; [right; exact Hk|exact Ek]|right; exact IH]. Qed.
