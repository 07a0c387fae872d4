(** Path finding on obstruction layouts; distances. *)
From Coq Require Import ZArith Bool List Permutation Lia ZifyBool Sorted.
From stdpp Require Import gmap list.
From Verif Require Import CoordModel CoordSpec CoordProofs GridModel GridSpec GridProofs CoordMap ClockModel ClockSpec ClockProofs GateModel GateSpec CellModel PathModel PathSpec PathProofs PathProofs3 PathProofs4.
Import ListNotations.
Local Open Scope Z_scope.

(** * Layouts *)
Section Layout.
Context (clk : bool) (l : olayout) (HL : routable l).
Notation cl := (o_clocked l).
Notation ar := (cl_dim (o_clocked l)).
Notation L := (pf_of clk l).

Lemma touch_z t a b : touch t a b -> cz a = cz b.
Proof. destruct t; simpl; intros H; destruct H; congruence. Qed.
Lemma succ_spec u w : inb ar u -> In w (pf_succ L u) <-> inb ar w /\ touch (cl_topo cl) u w /\ (clk = true -> next_zone cl u w).
Proof.
  intros Hu. destruct HL as [Hd Hn]. cbn [pf_of pf_succ]. destruct clk.
  - rewrite outgoing_In by assumption. unfold next_zone. tauto.
  - rewrite adjacent_spec by assumption. intuition congruence.
Qed.
Lemma succ_nodup u : inb ar u -> List.NoDup (pf_succ L u).
Proof.
  intros Hu. destruct HL as [Hd Hn]. cbn [pf_of pf_succ]. destruct clk; [unfold outgoing_clocked_zones; apply List.NoDup_filter|]; apply adjacent_NoDup; assumption.
Qed.
Lemma below_xy c : cx (below ar c) = cx c /\ cy (below ar c) = cy c.
Proof. unfold below. destruct (cz c =? 0); auto. Qed.
Lemma above_xy c : cx (above ar c) = cx c /\ cy (above ar c) = cy c.
Proof. unfold above, set_d. destruct (cz ar <? cz c), (cz c <? cz ar); auto. Qed.
Lemma permitted_inb cr tgt u v : inb ar u -> permitted L cr tgt u v -> inb ar v.
Proof.
  intros Hu [w Hw -> _ _|w g Hw -> _ _ _ -> _ _ _ _]; apply succ_spec in Hw as (Hw & _); try exact Hu.
  - apply below_inb, Hw.
  - apply above_inb, below_inb, Hw.
Qed.
Lemma e_permitted_inb cr tgt u v : inb ar u -> e_permitted L cr tgt u v -> inb ar v.
Proof.
  intros Hu [w Hw -> _ _|w g Hw -> _ _ _ -> _ _ _ _ _]; apply succ_spec in Hw as (Hw & _); try exact Hu.
  - apply below_inb, Hw.
  - apply above_inb, below_inb, Hw.
Qed.
Lemma universe_exists (step : coord -> coord -> Prop) src : (forall u v, inb ar u -> step u v -> inb ar v) -> inb ar src ->
  exists U, universe step src U /\ length U = Z.to_nat (volume ar) /\ forall c, In c U -> inb ar c.
Proof.
  intros Hst Hs. destruct (foreach_coordinate_full Offset ar _ (dim_ok_ar_ok _ (proj1 HL)) (le_n _)) as (U & _ & H2 & _ & _ & H5).
  exists U. cbn [k_volume] in H5. split; [|split; [lia|intros c Hc; apply H2, Hc]]. split; [apply H2, Hs|]. intros u v Hu Huv. apply H2. apply (Hst u v); [apply H2, Hu|exact Huv].
Qed.
Lemma volume_small : 0 < volume ar < 2 ^ 63.
Proof.
  destruct HL as [(H1 & H2 & H3) _]. unfold volume. rewrite !Z.abs_eq by lia. split; [nia|].
  assert ((cx ar + 1) * (cy ar + 1) <= (2 ^ 31 - 1) * (2 ^ 31 - 1)) by (apply Z.mul_le_mono_nonneg; lia).
  assert ((cx ar + 1) * (cy ar + 1) * (cz ar + 1) <= (2 ^ 31 - 1) * (2 ^ 31 - 1) * 2) by (apply Z.mul_le_mono_nonneg; nia). lia.
Qed.
Lemma entered_nodup cr tgt u : inb ar u -> List.NoDup (entered L cr tgt u).
Proof.
  intros Hu. unfold entered. assert (G : forall ws, List.NoDup ws -> (forall w, In w ws -> In w (pf_succ L u)) -> List.NoDup (omap (e_enter L cr tgt u) ws)).
  2:{ apply G; [apply succ_nodup, Hu|auto]. }
  assert (XY : forall w v, e_enter L cr tgt u w = Some v -> cx v = cx w /\ cy v = cy w).
  { intros w v E. unfold e_enter in E. cbn [pf_of pf_below pf_above] in E. pose proof (below_xy w) as B. pose proof (above_xy (below ar w)) as A.
    repeat match type of E with context [if ?c then _ else _] => destruct c end; try discriminate; inversion E; subst; intuition congruence. }
  induction ws as [|w ws IH]; intros Hn Hws; cbn [omap list_omap]; [constructor|]. inversion Hn as [|? ? Hni Hn']; subst.
  specialize (IH Hn' (fun x H => Hws x (or_intror H))). destruct (e_enter L cr tgt u w) as [v|] eqn:E; [|exact IH].
  constructor; [|exact IH]. intros Hin. apply elem_of_list_In, elem_of_list_omap in Hin as (w' & Hw' & E'). apply elem_of_list_In in Hw'.
  apply Hni. replace w with w'; [exact Hw'|].
  pose proof (Hws w (or_introl eq_refl)) as K1. pose proof (Hws w' (or_intror Hw')) as K2. apply succ_spec in K1 as (K1 & T1 & _); [|exact Hu]. apply succ_spec in K2 as (K2 & T2 & _); [|exact Hu].
  apply touch_z in T1, T2. destruct (XY _ _ E), (XY _ _ E'). destruct K1 as (D1 & _), K2 as (D2 & _). apply coord_ext; congruence.
Qed.
(** On the ground layer, without crossings. *)
Lemma permitted_ground tgt u v : inb ar u -> cz u = 0 -> permitted L false tgt u v <-> layout_step clk l tgt u v.
Proof.
  intros Hu Hz. unfold layout_step, grid_step. split.
  - intros [w Hw Hv Ho Hc|w g _ _ K]; [|discriminate]. apply succ_spec in Hw as (Hw & Ht & Hn); [|exact Hu].
    assert (E : v = w) by (subst v; cbn [pf_of pf_below]; unfold below; rewrite <- (touch_z _ _ _ Ht), Hz; reflexivity). subst w.
    repeat split; try assumption; apply Hw.
  - intros (Hv & Ht & Hn & Ho & Hc). apply (enter_free L false tgt u v v).
    + apply succ_spec; auto.
    + cbn [pf_of pf_below]. unfold below. rewrite <- (touch_z _ _ _ Ht), Hz. reflexivity.
    + exact Ho.
    + exact Hc.
Qed.
Lemma e_permitted_ground tgt u v : inb ar u -> cz u = 0 -> e_permitted L false tgt u v <-> layout_step clk l tgt u v.
Proof.
  intros Hu Hz. unfold layout_step, grid_step. split.
  - intros [w Hw Hv Ho Hc|w g _ _ K]; [|discriminate]. apply succ_spec in Hw as (Hw & Ht & Hn); [|exact Hu].
    assert (E : v = w) by (subst v; cbn [pf_of pf_below]; unfold below; rewrite <- (touch_z _ _ _ Ht), Hz; reflexivity). subst w.
    repeat split; try assumption; apply Hw.
  - intros (Hv & Ht & Hn & Ho & Hc). apply (e_enter_free L false tgt u v v).
    + apply succ_spec; auto.
    + cbn [pf_of pf_below]. unfold below. rewrite <- (touch_z _ _ _ Ht), Hz. reflexivity.
    + exact Ho.
    + exact Hc.
Qed.
Lemma walk_equiv (s1 s2 : coord -> coord -> Prop) (P : coord -> Prop) : (forall u v, P u -> s1 u v -> P v) -> (forall u v, P u -> s1 u v <-> s2 u v) ->
  forall s t p, P s -> walk s1 s t p <-> walk s2 s t p.
Proof.
  intros H1 H2 s t p. revert s. induction p as [|x p IH]; intros s Ps; split; intros H; inversion H as [|? u ? ? Hs Hw]; subst; try (apply walk_end).
  - apply walk_step with u; [apply H2; assumption|]. apply IH; [eauto|exact Hw].
  - apply walk_step with u; [apply H2; assumption|]. apply IH; [|exact Hw]. apply (H1 x); [exact Ps|]. apply H2; assumption.
Qed.
Lemma ground_walks tgt s t p : inb ar s -> cz s = 0 ->
  (walk (permitted L false tgt) s t p <-> walk (layout_step clk l tgt) s t p) /\
  (walk (e_permitted L false tgt) s t p <-> walk (layout_step clk l tgt) s t p).
Proof.
  intros Hs Hz. split; (eapply (walk_equiv _ _ (fun c => inb ar c /\ cz c = 0)); [| |auto]).
  - intros u v [Hu Hzu] H. apply permitted_ground in H; [|assumption..]. destruct H as (Hv & Ht & _). apply touch_z in Ht. split; [exact Hv|congruence].
  - intros u v [Hu Hzu]. apply permitted_ground; assumption.
  - intros u v [Hu Hzu] H. apply e_permitted_ground in H; [|assumption..]. destruct H as (Hv & Ht & _). apply touch_z in Ht. split; [exact Hv|congruence].
  - intros u v [Hu Hzu]. apply e_permitted_ground; assumption.
Qed.
(** Layers apart, steps go to touching tiles. *)
Lemma permitted_touch cr tgt u v : inb ar u -> permitted L cr tgt u v -> touch (cl_topo cl) (live (cx u) (cy u) 0) (live (cx v) (cy v) 0).
Proof.
  intros Hu H. assert (G : forall w, touch (cl_topo cl) u w -> cx v = cx w /\ cy v = cy w -> touch (cl_topo cl) (live (cx u) (cy u) 0) (live (cx v) (cy v) 0)).
  { intros w Ht [-> ->]. destruct (cl_topo cl) as [|a]; simpl in *.
    - unfold square_touch in *. cbn [live cx cy cz]. lia.
    - unfold hex_touch in *. destruct Ht as [_ Ht]. split; [reflexivity|]. exact Ht. }
  destruct H as [w Hw -> _ _|w g Hw -> _ _ _ -> _ _ _ _]; apply succ_spec in Hw as (_ & Ht & _); try exact Hu; apply (G w Ht); cbn [pf_of pf_below pf_above].
  - apply below_xy.
  - destruct (above_xy (below ar w)), (below_xy w). split; congruence.
Qed.
End Layout.

(** * Distances *)
Lemma manhattan_metric : metric manhattan_distance.
Proof. unfold metric, manhattan_distance. repeat split; intros; lia. Qed.
Lemma chebyshev_metric : metric chebyshev_distance.
Proof. unfold metric, chebyshev_distance. repeat split; intros; lia. Qed.
Lemma manhattan_touch a b c : square_touch (live (cx a) (cy a) 0) (live (cx b) (cy b) 0) -> manhattan_distance a c <= manhattan_distance b c + 1.
Proof. unfold square_touch, manhattan_distance. cbn [live cx cy cz]. lia. Qed.

(** * Distance maps *)
Definition row_step (f : coord -> coord -> Z) (c1 : coord) := fun (r : option (list Z)) (p : nat * coord) =>
  match r with
  | Some v => if Nat.ltb (p.1) (length v) then Some (<[p.1 := f c1 p.2]> v) else None
  | None => None end.
Lemma row_none f c1 l : foldl (row_step f c1) None l = None.
Proof. induction l; [reflexivity|exact IHl]. Qed.
Lemma imap_cons_shift {A} k (a : A) l : imap (fun i c => ((k + i)%nat, c)) (a :: l) = (k, a) :: imap (fun i c => ((S k + i)%nat, c)) l.
Proof. cbn. rewrite Nat.add_0_r. f_equal. apply imap_ext. intros i x _. cbn. f_equal. lia. Qed.
Lemma row_ok f c1 cs : forall k row, (k + length cs <= length row)%nat ->
  exists row', foldl (row_step f c1) (Some row) (imap (fun i c => ((k + i)%nat, c)) cs) = Some row' /\ length row' = length row /\
    (forall j c, cs !! j = Some c -> row' !! (k + j)%nat = Some (f c1 c)) /\ (forall j, (j < k)%nat -> row' !! j = row !! j).
Proof.
  induction cs as [|c cs IH]; intros k row Hk.
  - exists row. repeat split; auto. discriminate.
  - cbn [length] in Hk. rewrite imap_cons_shift. cbn [foldl]. unfold row_step at 2. cbn [fst snd]. replace (Nat.ltb k (length row)) with true by (symmetry; apply Nat.ltb_lt; lia).
    destruct (IH (S k) (<[k := f c1 c]> row)) as (row' & E & El & H1 & H2); [rewrite insert_length; lia|]. exists row'. rewrite insert_length in El.
    split; [exact E|]. split; [exact El|]. split.
    + intros [|j] c' Hj; cbn in Hj.
      * inversion Hj; subst. rewrite Nat.add_0_r, H2 by lia. apply list_lookup_insert. lia.
      * replace (k + S j)%nat with (S k + j)%nat by lia. apply H1, Hj.
    + intros j Hj. rewrite H2 by lia. apply list_lookup_insert_ne. lia.
Qed.
Lemma row_fail f c1 cs : forall k row, (length row < k + length cs)%nat -> (k <= length row)%nat ->
  foldl (row_step f c1) (Some row) (imap (fun i c => ((k + i)%nat, c)) cs) = None.
Proof.
  induction cs as [|c cs IH]; intros k row Hk Hk2; cbn [length] in Hk; [lia|].
  rewrite imap_cons_shift. cbn [foldl]. unfold row_step at 2. cbn [fst snd]. destruct (Nat.ltb_spec k (length row)); [|apply row_none].
  apply IH; rewrite insert_length; lia.
Qed.
Definition map_step (f : coord -> coord -> Z) (cs : list coord) := fun (m : option (list (list Z))) (p : nat * coord) =>
  match m with
  | Some v => match v !! p.1 with
              | Some row => match dm_row f p.2 cs row with
                            | Some row' => Some (<[p.1 := row']> v)
                            | None => None end
              | None => match cs with [] => Some v | _ => None end
              end
  | None => None end.
Lemma map_none f cs l : foldl (map_step f cs) None l = None.
Proof. induction l; [reflexivity|exact IHl]. Qed.
Lemma dm_row_eq f c cs row : dm_row f c cs row = foldl (row_step f c) (Some row) (imap (fun i c => ((0 + i)%nat, c)) cs).
Proof. reflexivity. Qed.
Lemma map_ok f cs n : (length cs <= n)%nat -> forall cs1 k m, (k + length cs1 <= length m)%nat -> (forall row, In row m -> length row = n) ->
  exists m', foldl (map_step f cs) (Some m) (imap (fun i c => ((k + i)%nat, c)) cs1) = Some m' /\ length m' = length m /\ (forall row, In row m' -> length row = n) /\
    (forall i j c1 c2, cs1 !! i = Some c1 -> cs !! j = Some c2 -> exists row, m' !! (k + i)%nat = Some row /\ row !! j = Some (f c1 c2)) /\
    (forall i, (i < k)%nat -> m' !! i = m !! i).
Proof.
  intros Hn. induction cs1 as [|c cs1 IH]; intros k m Hk Hm.
  - exists m. repeat split; auto. discriminate.
  - cbn [length] in Hk. rewrite imap_cons_shift. cbn [foldl]. unfold map_step at 2. cbn [fst snd].
    destruct (lookup_lt_is_Some_2 m k ltac:(lia)) as [row Hrow]. rewrite Hrow.
    assert (Hrl : length row = n) by (apply Hm, elem_of_list_In, elem_of_list_lookup; eauto).
    rewrite dm_row_eq. destruct (row_ok f c cs 0 row) as (row' & E & El & H1 & _); [lia|]. rewrite E.
    destruct (IH (S k) (<[k := row']> m)) as (m' & E' & El' & Hm' & H2 & H3).
    { rewrite insert_length. lia. }
    { intros r Hr. apply elem_of_list_In, elem_of_list_lookup in Hr as [i Hi]. apply list_lookup_insert_Some in Hi as [(_ & <- & _)|[_ Hi]]; [lia|].
      apply Hm, elem_of_list_In, elem_of_list_lookup; eauto. }
    rewrite insert_length in El'. exists m'. split; [exact E'|]. split; [exact El'|]. split; [exact Hm'|]. split.
    + intros [|i] j c1 c2 Hi Hj; cbn in Hi.
      * inversion Hi; subst. exists row'. rewrite Nat.add_0_r, H3 by lia. split; [apply list_lookup_insert; lia|]. apply (H1 j c2 Hj).
      * replace (k + S i)%nat with (S k + i)%nat by lia. exact (H2 i j c1 c2 Hi Hj).
    + intros i Hi. rewrite H3 by lia. apply list_lookup_insert_ne. lia.
Qed.

(** The i-th coordinate of the iteration. *)
Lemma sorted_positions (xs : list Z) : forall a b, StronglySorted Z.lt xs -> (forall x, In x xs -> a <= x < b) -> Z.of_nat (length xs) = b - a ->
  forall i x, xs !! i = Some x -> x = a + Z.of_nat i.
Proof.
  induction xs as [|y xs IH]; intros a b Hs Hr Hl i x Hi; [discriminate|]. apply StronglySorted_inv in Hs as [Hs Hy]. cbn [length] in Hl.
  assert (Hyl : forall z, In z xs -> y + 1 <= z < b). { intros z Hz. rewrite List.Forall_forall in Hy. pose proof (Hy z Hz). pose proof (Hr z (or_intror Hz)). lia. }
  assert (Hle : forall l c e, StronglySorted Z.lt l -> (forall x, In x l -> c <= x < e) -> c <= e -> Z.of_nat (length l) <= e - c).
  { clear. induction l as [|z l IH]; intros c e Hs Hr Hce; cbn [length]; [lia|]. apply StronglySorted_inv in Hs as [Hs Hz]. pose proof (Hr z (or_introl eq_refl)).
    assert (Z.of_nat (length l) <= e - (z + 1)). { apply IH; [exact Hs| |lia]. intros x Hx. rewrite List.Forall_forall in Hz. pose proof (Hz x Hx). pose proof (Hr x (or_intror Hx)). lia. } lia. }
  pose proof (Hr y (or_introl eq_refl)). pose proof (Hle xs (y + 1) b Hs Hyl ltac:(lia)). assert (y = a) by lia. subst y.
  destruct i as [|i]; cbn in Hi; [inversion Hi; lia|]. rewrite (IH (a + 1) b Hs Hyl ltac:(lia) i x Hi). lia.
Qed.
Lemma foreach_index ar fuel : dim_ok ar -> cz ar = 0 -> (Z.to_nat (volume ar) <= fuel)%nat ->
  exists cs, foreach_coordinate Offset fuel ar dead0 dead0 = Some cs /\ length cs = Z.to_nat (area ar) /\
    forall c, inb ar c -> cs !! Z.to_nat (coordinate_index ar c) = Some c.
Proof.
  intros Hd Hz Hf. destruct (foreach_coordinate_full Offset ar fuel (dim_ok_ar_ok _ Hd) Hf) as (cs & H1 & H2 & _ & H4 & H5). cbn [k_volume] in H5.
  exists cs. split; [exact H1|]. destruct Hd as (Hx & Hy & _).
  assert (Ev : volume ar = area ar) by (unfold volume, area; rewrite Hz; lia). split; [lia|].
  assert (Hs : StronglySorted Z.lt (map (coordinate_index ar) cs)).
  { assert (Hin : forall c, In c cs -> inb ar c) by (intros c Hc; apply H2, Hc). clear -H4 Hin Hz Hx Hy. induction H4 as [|c l Hs IH Hc]; [constructor|]. cbn [map]. constructor; [apply IH; intros; apply Hin; right; assumption|].
    rewrite List.Forall_forall in Hc |- *. intros z Hzz. apply in_map_iff in Hzz as (c' & <- & Hc'). specialize (Hc c' Hc'). cbn [k_ltb] in Hc. apply coord_ltb_iff in Hc.
    pose proof (Hin c (or_introl eq_refl)) as (_ & A1 & A2 & A3). pose proof (Hin c' (or_intror Hc')) as (_ & B1 & B2 & B3). unfold coordinate_index.
    destruct Hc as [Hc|(_ & [Hc|[Hc1 Hc2]])]; [lia| |rewrite Hc1; lia]. assert (cy c' * (cx ar + 1) >= (cy c + 1) * (cx ar + 1)) by nia. lia. }
  intros c Hc. apply H2 in Hc as Hin. apply elem_of_list_In, elem_of_list_lookup in Hin as [i Hi].
  assert (E : coordinate_index ar c = 0 + Z.of_nat i).
  { apply (sorted_positions (map (coordinate_index ar) cs) 0 (area ar) Hs).
    - intros x Hx'. apply in_map_iff in Hx' as (c' & <- & Hc'). apply H2 in Hc' as (_ & A1 & A2 & A3). unfold coordinate_index, area. rewrite !Z.abs_eq by lia. nia.
    - rewrite map_length. lia.
    - rewrite (list_lookup_fmap (coordinate_index ar) cs). rewrite Hi. reflexivity. }
  rewrite E. replace (Z.to_nat (0 + Z.of_nat i)) with i by lia. exact Hi.
Qed.
Lemma distance_map_ok ar fuel f : dim_ok ar -> cz ar = 0 -> (Z.to_nat (volume ar) <= fuel)%nat ->
  exists m, initialize_distance_map fuel ar f = Some m /\
    forall s t, inb ar s -> inb ar t -> df_call (distance_map_functor ar m) s t = Some (f s t).
Proof.
  intros Hd Hz Hf. destruct (foreach_index ar fuel Hd Hz Hf) as (cs & E & El & Hi).
  unfold initialize_distance_map. rewrite E. cbv zeta.
  destruct (map_ok f cs (Z.to_nat (area ar)) ltac:(lia) cs 0 (replicate (Z.to_nat (area ar)) (replicate (Z.to_nat (area ar)) 0))) as (m & Em & _ & _ & H1 & _).
  { rewrite replicate_length. lia. }
  { intros row Hr. apply elem_of_list_In, elem_of_replicate in Hr as [-> _]. apply replicate_length. }
  exists m. split; [exact Em|]. intros s t Hs Ht. cbn [df_call distance_map_functor].
  destruct (H1 _ _ _ _ (Hi s Hs) (Hi t Ht)) as (row & K1 & K2). cbn [Nat.add] in K1. rewrite K1. exact K2.
Qed.
Lemma distance_map_fails ar fuel f : dim_ok ar -> cz ar = 1 -> (Z.to_nat (volume ar) <= fuel)%nat -> initialize_distance_map fuel ar f = None.
Proof.
  intros Hd Hz Hf. destruct (foreach_coordinate_full Offset ar fuel (dim_ok_ar_ok _ Hd) Hf) as (cs & E & _ & _ & _ & H5). cbn [k_volume] in H5.
  unfold initialize_distance_map. rewrite E. cbv zeta. destruct Hd as (Hx & Hy & _).
  assert (Hv : volume ar = 2 * area ar) by (unfold volume, area; rewrite Hz; lia).
  assert (Ha : 0 < area ar) by (unfold area; nia).
  destruct cs as [|c cs]; [cbn in H5; lia|]. set (n := Z.to_nat (area ar)).
  change (foldl (map_step f (c :: cs)) (Some (replicate n (replicate n 0))) (imap (fun i c => ((0 + i)%nat, c)) (c :: cs)) = None).
  rewrite imap_cons_shift. cbn [foldl]. unfold map_step at 2. cbn [fst snd].
  assert (Hn : n = S (n - 1)) by lia.
  assert (E0 : replicate n (replicate n 0) !! 0%nat = Some (replicate n 0)) by (rewrite Hn at 1; reflexivity). rewrite E0.
  rewrite dm_row_eq, row_fail; [apply map_none| |]; rewrite replicate_length; cbn [length] in *; lia.
Qed.

Lemma sparse_inner f c1 (cs : list coord) : forall (m : gmap (coord * coord) Z) s t,
  foldl (fun m' c2 => <[(c1, c2) := f c1 c2]> m') m cs !! (s, t) = if bool_decide (s = c1 /\ t ∈ cs) then Some (f s t) else m !! (s, t).
Proof.
  induction cs as [|c cs IH]; intros m s t; cbn [foldl].
  - rewrite bool_decide_eq_false_2; [reflexivity|]. intros [_ K]. apply elem_of_nil in K. exact K.
  - rewrite IH. destruct (decide (s = c1 /\ t ∈ cs)) as [K|K].
    + rewrite !bool_decide_eq_true_2; [reflexivity|rewrite elem_of_cons; tauto|exact K].
    + rewrite (bool_decide_eq_false_2 (s = c1 /\ t ∈ cs)) by exact K. destruct (decide ((c1, c) = (s, t))) as [E|E].
      * inversion E; subst. rewrite lookup_insert, bool_decide_eq_true_2; [reflexivity|]. split; [reflexivity|left].
      * rewrite lookup_insert_ne by exact E. rewrite bool_decide_eq_false_2; [reflexivity|]. intros [K1 K2]. apply elem_of_cons in K2 as [K2|K2]; [subst; congruence|tauto].
Qed.
Lemma sparse_outer f (cs : list coord) : forall cs1 (m : gmap (coord * coord) Z) s t,
  foldl (fun m c1 => foldl (fun m' c2 => <[(c1, c2) := f c1 c2]> m') m cs) m cs1 !! (s, t) = if bool_decide (s ∈ cs1 /\ t ∈ cs) then Some (f s t) else m !! (s, t).
Proof.
  induction cs1 as [|c cs1 IH]; intros m s t; cbn [foldl].
  - rewrite bool_decide_eq_false_2; [reflexivity|]. intros [K _]. apply elem_of_nil in K. exact K.
  - rewrite IH, sparse_inner. destruct (decide (s ∈ cs1 /\ t ∈ cs)) as [K|K].
    + rewrite !bool_decide_eq_true_2; [reflexivity|rewrite elem_of_cons; tauto|exact K].
    + rewrite (bool_decide_eq_false_2 (s ∈ cs1 /\ t ∈ cs)) by exact K. destruct (decide (s = c /\ t ∈ cs)) as [E|E].
      * rewrite !bool_decide_eq_true_2; [reflexivity|rewrite elem_of_cons; tauto|exact E].
      * rewrite !bool_decide_eq_false_2; [reflexivity|rewrite elem_of_cons; tauto|exact E].
Qed.
Lemma sparse_map_ok ar fuel f : dim_ok ar -> (Z.to_nat (volume ar) <= fuel)%nat ->
  exists m, initialize_sparse_distance_map fuel ar f = Some m /\
    (forall s t, inb ar s -> inb ar t -> df_call (sparse_distance_map_functor m) s t = Some (f s t)) /\
    (forall s t, ~ (inb ar s /\ inb ar t) -> df_call (sparse_distance_map_functor m) s t = None).
Proof.
  intros Hd Hf. destruct (foreach_coordinate_full Offset ar fuel (dim_ok_ar_ok _ Hd) Hf) as (cs & E & H2 & _).
  unfold initialize_sparse_distance_map. rewrite E. eexists. split; [reflexivity|]. cbn [df_call sparse_distance_map_functor].
  split; intros s t Hs; [intros Ht|]; rewrite sparse_outer.
  - rewrite bool_decide_eq_true_2; [reflexivity|]. rewrite !elem_of_list_In, !H2. auto.
  - rewrite bool_decide_eq_false_2; [reflexivity|]. rewrite !elem_of_list_In, !H2. exact Hs.
Qed.

(** * The cache *)
Lemma cache_ok f qs : Forall (fun q => forall s t, q.1 s t = f s t) qs -> forall cache : gmap (coord * coord) Z, (forall s t d, cache !! (s, t) = Some d -> d = f s t) ->
  cache_run cache qs = map (fun q => q.1 q.2.1 q.2.2) qs.
Proof.
  induction 1 as [|[g [s t]] qs Hg _ IH]; intros cache Hc; cbn [cache_run map fst snd]; [reflexivity|]. cbn [fst] in Hg. unfold cache_query.
  destruct (cache !! (s, t)) as [d|] eqn:E.
  - f_equal; [rewrite Hg; exact (Hc _ _ _ E)|apply IH, Hc].
  - f_equal. apply IH. intros s' t' d' K. apply lookup_insert_Some in K as [[K1 K2]|[_ K]]; [inversion K1; subst; apply Hg|exact (Hc _ _ _ K)].
Qed.

(** * Linear clocking schemes: all walks between two tiles have the same length *)
Definition waves (t : topo) (s : std_scheme) : Prop := linear s /\ (t <> Cartesian -> s <> TWODDWAVE THREE).
Lemma waves_flow t ar s a b : dim_ok ar -> waves t s -> inb ar a -> In b (outgoing_clocked_zones (std_layout t ar s) a) -> wave t s b = wave t s a + 1.
Proof.
  intros Hd [Hl Hx] Ha Hb. eapply flow_wave; [exact Hd|exact Hl| |split; [exact Ha|exact Hb]].
  destruct t, s as [[]|[]|[]|[]|[]| | | | | | |]; auto. apply Hx; congruence.
Qed.
Lemma std_routable l t ar s : dim_ok ar -> o_clocked l = std_layout t ar s -> routable l.
Proof.
  intros Hd E. unfold routable. rewrite E. split; [exact Hd|]. unfold num_clocks. cbn [cl_scheme std_layout]. destruct (num_std t s) as [-> | ->]; lia.
Qed.
Lemma wave_xy t s a b : cx a = cx b -> cy a = cy b -> wave t s a = wave t s b.
Proof. intros E1 E2. unfold wave. rewrite E1, E2. reflexivity. Qed.
Lemma permitted_wave l t ar s cr tgt u v : dim_ok ar -> o_clocked l = std_layout t ar s -> waves t s -> inb ar u ->
  permitted (pf_of true l) cr tgt u v -> wave t s v = wave t s u + 1.
Proof.
  intros Hd E Hw Hu H. 
  assert (G : forall w, In w (pf_succ (pf_of true l) u) -> wave t s w = wave t s u + 1).
  { intros w Hin. cbn [pf_of pf_succ] in Hin. rewrite E in Hin. eapply waves_flow; eauto. }
  destruct H as [w Hin -> _ _|w g Hin -> _ _ _ -> _ _ _ _]; rewrite <- (G w Hin); cbn [pf_of pf_below pf_above].
  - apply wave_xy; apply below_xy.
  - destruct (above_xy l (below (cl_dim (o_clocked l)) w)), (below_xy l w). apply wave_xy; congruence.
Qed.
Lemma walk_wave l t ar s cr tgt : dim_ok ar -> o_clocked l = std_layout t ar s -> waves t s -> forall a b p, inb ar a ->
  walk (permitted (pf_of true l) cr tgt) a b p -> wave t s b = wave t s a + Z.of_nat (length p) - 1.
Proof.
  intros Hd E Hw a b p Ha H. induction H as [a|a u b p Hs H IH]; cbn [length]; [lia|].
  pose proof (permitted_wave _ _ _ _ _ _ _ _ Hd E Hw Ha Hs). rewrite IH; [lia|].
  pose proof (permitted_inb true l (std_routable _ _ _ _ Hd E) cr tgt a u) as K. rewrite E in K. apply K; assumption.
Qed.
