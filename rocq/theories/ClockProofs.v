(** Proofs about clocking schemes and clocked layouts. *)
From stdpp Require Import gmap.
From Coq Require Import ZArith Bool String Ascii List Lia ZifyBool Relations.
From Verif Require Import CoordModel CoordSpec CoordProofs GridModel GridSpec GridProofs CoordMap ClockModel ClockSpec.
Import ListNotations.
Local Open Scope Z_scope.
Ltac Zify.zify_post_hook ::= Z.div_mod_to_equations.
Global Arguments Z.mul : simpl never.
Global Arguments Z.add : simpl never.
Global Arguments Z.sub : simpl never.
Global Arguments Z.pow : simpl never.
Global Arguments Z.modulo : simpl never.
Global Arguments Z.div : simpl never.
Global Arguments Z.of_nat : simpl never.
Global Arguments Z.to_nat : simpl never.

(** ** Cut-outs *)

Lemma ix_lt v w : (0 < w)%nat -> (ix v w < w)%nat.
Proof. unfold ix. intros H. pose proof (Z.mod_pos_bound (v mod 18446744073709551616) (Z.of_nat w)). lia. Qed.

Lemma ix_small v w : 0 <= v < 2 ^ 64 -> ix v w = Z.to_nat (v mod Z.of_nat w).
Proof. intros H. unfold ix. rewrite (Z.mod_small v) by lia. reflexivity. Qed.

Lemma at_cutout_forall (P : Z -> Prop) cut a b :
  cut <> [] -> (forall row, In row cut -> row <> [] /\ forall v, In v row -> P v) -> P (at_cutout cut a b).
Proof.
  intros Hc H. unfold at_cutout.
  assert (Hr : In (nth (ix a (length cut)) cut []) cut).
  { apply nth_In, ix_lt. destruct cut; [congruence|simpl; lia]. }
  destruct (H _ Hr) as [Hne HP]. apply HP, nth_In, ix_lt.
  destruct (nth (ix a (length cut)) cut []); [congruence|simpl; lia].
Qed.

(** Residues modulo 6 (three phases) or 8 (four phases) determine every index. *)
Lemma ix_mod (m : Z) v w : In (m, w) [(6, 3%nat); (6, 6%nat); (8, 4%nat); (8, 8%nat)] ->
  0 <= v < 2 ^ 64 -> ix v w = ix (v mod m) w.
Proof.
  intros Hw Hv.
  destruct Hw as [[= <- <-]|[[= <- <-]|[[= <- <-]|[[= <- <-]|[]]]]]; rewrite !ix_small by lia; f_equal;
  match goal with |- context [Z.of_nat ?n] => let z := eval compute in (Z.of_nat n) in change (Z.of_nat n) with z end; lia.
Qed.

Definition cut_ok (m : Z) (cut : list (list Z)) : bool :=
  let ok (w : nat) := existsb (fun p => (fst p =? m) && Nat.eqb (snd p) w) [(6, 3%nat); (6, 6%nat); (8, 4%nat); (8, 8%nat)] in
  negb (Nat.eqb (length cut) 0) && ok (length cut) && forallb (fun r => ok (length r)) cut.

Lemma at_cutout_mod m cut a b : cut_ok m cut = true -> 0 <= a < 2 ^ 64 -> 0 <= b < 2 ^ 64 ->
  at_cutout cut a b = at_cutout cut (a mod m) (b mod m).
Proof.
  assert (Hok : forall w, existsb (fun p => (fst p =? m) && Nat.eqb (snd p) w) [(6, 3%nat); (6, 6%nat); (8, 4%nat); (8, 8%nat)] = true ->
    In (m, w) [(6, 3%nat); (6, 6%nat); (8, 4%nat); (8, 8%nat)]).
  { intros w H. apply existsb_exists in H as ([u v] & Hin & E). apply andb_true_iff in E as [E1 E2].
    apply Z.eqb_eq in E1. apply Nat.eqb_eq in E2. simpl in E1, E2. subst. exact Hin. }
  unfold cut_ok. rewrite !andb_true_iff, forallb_forall. intros [[H0 H1] H2] Ha Hb.
  unfold at_cutout. rewrite (ix_mod m a) by (auto; lia). rewrite (ix_mod m b); [reflexivity| |lia].
  apply Hok, H2, nth_In, ix_lt. destruct (length cut); [discriminate H0|lia].
Qed.

Definition zrange (n : nat) : list Z := map Z.of_nat (seq 0 n).
Lemma zrange_In n z : 0 <= z < Z.of_nat n -> In z (zrange n).
Proof. intros H. unfold zrange. rewrite in_map_iff. exists (Z.to_nat z). rewrite in_seq. lia. Qed.

Definition all_topo : list topo := [Cartesian; Hex OddRow; Hex EvenRow; Hex OddColumn; Hex EvenColumn].
Definition all_std : list std_scheme :=
  [OPEN THREE; OPEN FOUR; COLUMNAR THREE; COLUMNAR FOUR; ROW THREE; ROW FOUR; TWODDWAVE THREE; TWODDWAVE FOUR;
   TWODDWAVE_HEX THREE; TWODDWAVE_HEX FOUR; USE; RES; ESR; CFE; RIPPLE; SRS; BANCS].
Lemma all_topo_In t : In t all_topo.
Proof. destruct t as [|[]]; simpl; tauto. Qed.
Lemma all_std_In s : In s all_std.
Proof. destruct s as [[]|[]|[]|[]|[]| | | | | | |]; simpl; tauto. Qed.

Definition md (t : topo) (s : std_scheme) : Z := if sc_num (clocking t s) =? 3 then 6 else 8.
Lemma md_cases t s : md t s = 6 \/ md t s = 8.
Proof. unfold md. destruct (_ =? 3); auto. Qed.

Lemma sweep_all (P : topo -> std_scheme -> Z -> Z -> bool) :
  forallb (fun t => forallb (fun s => let r := zrange (Z.to_nat (md t s)) in forallb (fun x => forallb (P t s x) r) r) all_std) all_topo = true ->
  forall t s x y, P t s (x mod md t s) (y mod md t s) = true.
Proof.
  intros H t s x y. rewrite forallb_forall in H. specialize (H t (all_topo_In t)).
  rewrite forallb_forall in H. specialize (H s (all_std_In s)). cbv zeta in H.
  pose proof (md_cases t s) as Hm. rewrite forallb_forall in H.
  assert (Hx : In (x mod md t s) (zrange (Z.to_nat (md t s)))) by (apply zrange_In; destruct Hm as [-> | ->]; lia).
  specialize (H _ Hx). rewrite forallb_forall in H. apply H, zrange_In. destruct Hm as [-> | ->]; lia.
Qed.

Lemma fn_md t s c : 0 <= cx c < 2 ^ 64 -> 0 <= cy c < 2 ^ 64 ->
  sc_fn (clocking t s) c = sc_fn (clocking t s) (live (cx c mod md t s) (cy c mod md t s) 0).
Proof.
  intros Hx Hy. destruct t as [|[]], s as [[]|[]|[]|[]|[]| | | | | | |]; try reflexivity;
  apply at_cutout_mod; auto.
Qed.

Lemma fn_range t s c : 0 <= sc_fn (clocking t s) c < sc_num (clocking t s).
Proof.
  assert (Hcut : forall n cut a b, forallb (fun r => negb (Nat.eqb (length r) 0) && forallb (fun v => (0 <=? v) && (v <? n)) r) cut
     && negb (Nat.eqb (length cut) 0) = true -> 0 <= at_cutout cut a b < n).
  { intros n cut a b H. rewrite andb_true_iff, forallb_forall in H. destruct H as [H Hl].
    apply (at_cutout_forall (fun v => 0 <= v < n)).
    - intros ->. discriminate.
    - intros row Hr. specialize (H row Hr). rewrite andb_true_iff, forallb_forall in H. destruct H as [H1 H2].
      split; [intros ->; discriminate|]. intros v Hv. specialize (H2 v Hv). lia. }
  destruct t as [|[]], s as [[]|[]|[]|[]|[]| | | | | | |]; try (apply Hcut; reflexivity); simpl; lia.
Qed.

Lemma fn_xy t s c1 c2 : cx c1 = cx c2 -> cy c1 = cy c2 -> sc_fn (clocking t s) c1 = sc_fn (clocking t s) c2.
Proof.
  intros Hx Hy. destruct t as [|[]], s as [[]|[]|[]|[]|[]| | | | | | |]; simpl;
  unfold row_major, col_major; rewrite ?Hx, ?Hy; reflexivity.
Qed.

Lemma num_std t s : sc_num (clocking t s) = 3 \/ sc_num (clocking t s) = 4.
Proof. destruct t as [|[]], s as [[]|[]|[]|[]|[]| | | | | | |]; simpl; tauto. Qed.

Definition per_check (t : topo) (s : std_scheme) (x y : Z) : bool :=
  let f := sc_fn (clocking t s) in let '(p, q) := period t s in
  (f (live ((x + p) mod md t s) y 0) =? f (live x y 0)) && (f (live x ((y + q) mod md t s) 0) =? f (live x y 0)).

Lemma fn_periodic t s c : 0 <= cx c < 2 ^ 63 -> 0 <= cy c < 2 ^ 63 ->
  sc_fn (clocking t s) (mkC (cd c) (cx c + fst (period t s)) (cy c) (cz c)) = sc_fn (clocking t s) c /\
  sc_fn (clocking t s) (mkC (cd c) (cx c) (cy c + snd (period t s)) (cz c)) = sc_fn (clocking t s) c.
Proof.
  intros Hx Hy.
  assert (Hp : 1 <= fst (period t s) <= 8 /\ 1 <= snd (period t s) <= 8)
    by (destruct t as [|[]], s as [[]|[]|[]|[]|[]| | | | | | |]; simpl; lia).
  pose proof (sweep_all per_check ltac:(vm_compute; reflexivity) t s (cx c) (cy c)) as H.
  unfold per_check in H. destruct (period t s) as [p q]. simpl fst in *. simpl snd in *.
  rewrite andb_true_iff, !Z.eqb_eq, !Zplus_mod_idemp_l in H. destruct H as [H1 H2].
  rewrite (fn_md t s c) by (clear - Hx Hy; lia). split.
  - rewrite fn_md by (cbn [cx cy]; clear - Hx Hy Hp; lia). exact H1.
  - rewrite fn_md by (cbn [cx cy]; clear - Hx Hy Hp; lia). exact H2.
Qed.

(** ** Linear schemes *)

Definition wave_check (t : topo) (s : std_scheme) (x y : Z) : bool :=
  match s with
  | COLUMNAR _ | ROW _ | TWODDWAVE _ | TWODDWAVE_HEX _ =>
      sc_fn (clocking t s) (live x y 0) =? wave t s (live x y 0) mod sc_num (clocking t s)
  | _ => true
  end.

Lemma fn_wave t s c : linear s -> 0 <= cx c < 2 ^ 64 -> 0 <= cy c < 2 ^ 64 ->
  sc_fn (clocking t s) c = wave t s c mod sc_num (clocking t s).
Proof.
  intros Hl Hx Hy. rewrite fn_md by lia.
  pose proof (sweep_all wave_check ltac:(vm_compute; reflexivity) t s (cx c) (cy c)) as H.
  assert (E : sc_fn (clocking t s) (live (cx c mod md t s) (cy c mod md t s) 0) =
              wave t s (live (cx c mod md t s) (cy c mod md t s) 0) mod sc_num (clocking t s)).
  { destruct s; try destruct Hl; apply Z.eqb_eq; exact H. }
  rewrite E. clear - Hl Hx Hy. unfold live, md.
  destruct t as [|[]], s as [[]|[]|[]|[]|[]| | | | | | |]; try destruct Hl; simpl; lia.
Qed.

Lemma sc_at_std t s c : sc_at (clocking t s) c = sc_fn (clocking t s) c.
Proof. destruct t as [|[]], s as [[]|[]|[]|[]|[]| | | | | | |]; reflexivity. Qed.

(** ** Flow *)

Lemma out_clocked_iff l a b : 1 <= num_clocks l <= 255 ->
  is_outgoing_clocked l a b = true <-> a <> b /\ get_clock_number l b = (get_clock_number l a + 1) mod num_clocks l.
Proof.
  intros Hn. unfold is_outgoing_clocked. rewrite andb_true_iff, negb_true_iff, coord_eqb_false, Z.eqb_eq.
  rewrite (Z.mod_small ((get_clock_number l a + 1) mod num_clocks l) 256) by lia.
  split; intros [? ?]; split; auto.
Qed.

Lemma in_out l a b : is_incoming_clocked l a b = is_outgoing_clocked l b a.
Proof.
  unfold is_incoming_clocked, is_outgoing_clocked. f_equal. f_equal.
  destruct (coord_eqb a b) eqn:E, (coord_eqb b a) eqn:E'; auto.
  - apply coord_eqb_spec in E. subst. rewrite coord_eqb_refl in E'. discriminate.
  - apply coord_eqb_spec in E'. subst. rewrite coord_eqb_refl in E. discriminate.
Qed.

Lemma outgoing_In l a b : dim_ok (cl_dim l) -> inb (cl_dim l) a -> 1 <= num_clocks l <= 255 ->
  (In b (outgoing_clocked_zones l a) <->
   inb (cl_dim l) b /\ touch (cl_topo l) a b /\ get_clock_number l b = (get_clock_number l a + 1) mod num_clocks l).
Proof.
  intros Hd Ha Hn. unfold outgoing_clocked_zones. rewrite filter_In, adjacent_spec, out_clocked_iff by auto.
  split; [tauto|]. intros (H1 & H2 & H3). repeat split; auto; try apply H1.
  intros ->. eapply touch_irrefl; eauto.
Qed.

Lemma incoming_In l a b : dim_ok (cl_dim l) -> inb (cl_dim l) a -> 1 <= num_clocks l <= 255 ->
  (In b (incoming_clocked_zones l a) <->
   inb (cl_dim l) b /\ touch (cl_topo l) a b /\ get_clock_number l a = (get_clock_number l b + 1) mod num_clocks l).
Proof.
  intros Hd Ha Hn. unfold incoming_clocked_zones. rewrite filter_In, adjacent_spec, in_out, out_clocked_iff by auto.
  split; [tauto|]. intros (H1 & H2 & H3). repeat split; auto; try apply H1.
  intros ->. eapply touch_irrefl; eauto.
Qed.

Lemma out_antisym l a b : 3 <= num_clocks l <= 255 ->
  is_outgoing_clocked l a b = true -> is_outgoing_clocked l b a = false.
Proof.
  intros Hn H. destruct (is_outgoing_clocked l b a) eqn:E; auto. exfalso.
  apply out_clocked_iff in H; [|lia]. apply out_clocked_iff in E; [|lia].
  destruct H as [_ H], E as [_ E]. rewrite H in E. rewrite Zplus_mod_idemp_l in E.
  set (v := get_clock_number l a) in *. set (n := num_clocks l) in *. clearbody v n. clear H.
  assert (Hv : 0 <= v < n) by (rewrite E; apply Z.mod_pos_bound; lia).
  destruct (Z.lt_ge_cases (v + 1 + 1) n).
  - rewrite Z.mod_small in E by lia. lia.
  - replace (v + 1 + 1) with (v + 2 - n + 1 * n) in E by lia. rewrite Z.mod_add in E by lia.
    rewrite Z.mod_small in E by lia. lia.
Qed.

Lemma NoDup_filter' {A} (f : A -> bool) l : List.NoDup l -> List.NoDup (List.filter f l).
Proof. apply NoDup_filter. Qed.

Lemma degree_exact l c : in_degree l c = Z.of_nat (length (incoming_clocked_zones l c)) /\
                         out_degree l c = Z.of_nat (length (outgoing_clocked_zones l c)).
Proof.
  assert (H : (length (adjacent (cl_topo l) (cl_dim l) c) <= 6)%nat).
  { unfold adjacent, c_adjacent, hex_adjacent. destruct (cl_topo l);
    etransitivity; try apply filter_length_le; simpl; lia. }
  unfold in_degree, out_degree, incoming_clocked_zones, outgoing_clocked_zones.
  pose proof (filter_length_le (is_incoming_clocked l c) (adjacent (cl_topo l) (cl_dim l) c)).
  pose proof (filter_length_le (is_outgoing_clocked l c) (adjacent (cl_topo l) (cl_dim l) c)).
  split; apply Z.mod_small; lia.
Qed.

(** ** Degrees *)

(** Displacements to the touching zones, depending on the parities of the zone. *)
Definition disps (t : topo) (x y : Z) : list (Z * Z) :=
  match t with
  | Cartesian => [(0,-1);(1,0);(0,1);(-1,0)]
  | Hex a =>
      if pointy a then
        let p := match a with OddRow => y mod 2 | _ => 1 - y mod 2 end in
        [(1,0);(-1,0);(p,1);(p-1,1);(p,-1);(p-1,-1)]
      else
        let p := match a with OddColumn => x mod 2 | _ => 1 - x mod 2 end in
        [(0,1);(0,-1);(1,p);(1,p-1);(-1,p);(-1,p-1)]
  end.

Lemma pair_eq (a b c d : Z) : a = c -> b = d -> (a, b) = (c, d).
Proof. congruence. Qed.

Lemma touch_disps t c n : touch t c n -> In (cx n - cx c, cy n - cy c) (disps t (cx c) (cy c)).
Proof.
  destruct t as [|a].
  - unfold touch, square_touch, disps. intros [_ H].
    assert (E : (cx n - cx c = 0 /\ cy n - cy c = -1) \/ (cx n - cx c = 1 /\ cy n - cy c = 0) \/
                (cx n - cx c = 0 /\ cy n - cy c = 1) \/ (cx n - cx c = -1 /\ cy n - cy c = 0)) by lia.
    destruct E as [[-> ->]|[[-> ->]|[[-> ->]|[-> ->]]]]; simpl; tauto.
  - intros [_ H]. unfold hex_disp, hex_px, hex_py in H.
    destruct a; cbn [pointy disps] in *; simpl In;
    (destruct H as [(sx & sy & Hsx & Hsy & H1 & H2)|(s & Hs & H1 & H2)]);
    [ destruct Hsx as [-> | ->], Hsy as [-> | ->] | destruct Hs as [-> | ->] | destruct Hsx as [-> | ->], Hsy as [-> | ->] | destruct Hs as [-> | ->]
    | destruct Hsx as [-> | ->], Hsy as [-> | ->] | destruct Hs as [-> | ->]| destruct Hsx as [-> | ->], Hsy as [-> | ->] | destruct Hs as [-> | ->] ];
    solve [ left; apply pair_eq; lia
          | right; left; apply pair_eq; lia
          | right; right; left; apply pair_eq; lia
          | right; right; right; left; apply pair_eq; lia
          | right; right; right; right; left; apply pair_eq; lia
          | right; right; right; right; right; left; apply pair_eq; lia ].
Qed.

Definition out_count (t : topo) (s : std_scheme) (x y : Z) : nat :=
  let f := sc_fn (clocking t s) in
  length (List.filter (fun d => f (live ((x + fst d) mod md t s) ((y + snd d) mod md t s) 0) =? (f (live x y 0) + 1) mod sc_num (clocking t s)) (disps t x y)).
Definition in_count (t : topo) (s : std_scheme) (x y : Z) : nat :=
  let f := sc_fn (clocking t s) in
  length (List.filter (fun d => f (live x y 0) =? (f (live ((x + fst d) mod md t s) ((y + snd d) mod md t s) 0) + 1) mod sc_num (clocking t s)) (disps t x y)).

Definition reg (s : std_scheme) : bool := match s with OPEN _ => false | _ => true end.
Definition deg_check (t : topo) (s : std_scheme) (x y : Z) : bool :=
  if negb (reg s) || degree_exception t s then true else
  (Z.of_nat (out_count t s x y) <=? sc_out (clocking t s)) && (Z.of_nat (in_count t s x y) <=? sc_in (clocking t s)).

Lemma disps_parity t s x y : disps t (x mod md t s) (y mod md t s) = disps t x y.
Proof.
  assert (E : forall v, (v mod md t s) mod 2 = v mod 2) by (intros; destruct (md_cases t s) as [-> | ->]; lia).
  destruct t as [|[]]; cbn [disps pointy]; rewrite ?E; reflexivity.
Qed.

Lemma length_filter_disps (f : Z * Z -> bool) c l t :
  List.NoDup l -> (forall n, In n l -> cz n = cz c /\ cd n = cd c /\ In (cx n - cx c, cy n - cy c) (disps t (cx c) (cy c)) /\
                               f (cx n - cx c, cy n - cy c) = true) ->
  (length l <= length (List.filter f (disps t (cx c) (cy c))))%nat.
Proof.
  intros Hnd H.
  rewrite <- (map_length (fun n => (cx n - cx c, cy n - cy c)) l).
  apply NoDup_incl_length.
  - assert (G : forall l', (forall n, In n l' -> In n l) -> List.NoDup l' -> List.NoDup (map (fun n => (cx n - cx c, cy n - cy c)) l')).
    { induction l' as [|a l' IH]; intros Hin Hn; simpl; [constructor|].
      inversion Hn; subst. constructor.
      - rewrite in_map_iff. intros (b & Eb & Hb). injection Eb as E1 E2.
        destruct (H a) as (? & ? & _); [apply Hin; left; auto|].
        destruct (H b) as (? & ? & _); [apply Hin; right; auto|].
        assert (a = b); [|congruence]. destruct a, b; simpl in *; f_equal; try congruence; lia.
      - apply IH; auto. intros; apply Hin; right; auto. }
    apply G; auto.
  - intros d Hd. apply in_map_iff in Hd as (n & <- & Hn). apply filter_In. destruct (H n Hn) as (? & ? & ? & ?); auto.
Qed.

Lemma touch_z t c n : touch t c n -> cz c = cz n.
Proof. destruct t; simpl; intros [H _]; exact H. Qed.

Lemma out_bound t ar s c : dim_ok ar -> inb ar c ->
  (length (outgoing_clocked_zones (std_layout t ar s) c) <= out_count t s (cx c mod md t s) (cy c mod md t s))%nat.
Proof.
  intros Hd Hc. unfold out_count. rewrite disps_parity.
  assert (Hn : 1 <= num_clocks (std_layout t ar s) <= 255).
  { unfold num_clocks. cbn [cl_scheme std_layout]. destruct (num_std t s) as [-> | ->]; lia. }
  apply length_filter_disps.
  - apply NoDup_filter'. apply adjacent_NoDup; auto.
  - intros n H. apply outgoing_In in H; auto. cbn [cl_dim cl_topo std_layout] in H.
    destruct H as (Hb & Ht & He). destruct Hb as (Hb1 & Hb2 & Hb3 & Hb4). pose proof Hc as (Hc1 & Hc2 & Hc3 & Hc4).
    unfold dim_ok in Hd.
    repeat split; [symmetry; eapply touch_z; eauto|congruence|apply touch_disps; auto|].
    unfold get_clock_number, num_clocks in He. cbn [cl_scheme std_layout] in He. rewrite !sc_at_std in He.
    rewrite (fn_md t s n), (fn_md t s c) in He by (clear - Hb2 Hb3 Hc2 Hc3 Hd; lia). cbn [fst snd].
    rewrite !Zplus_mod_idemp_l.
    replace (cx c + (cx n - cx c)) with (cx n) by lia. replace (cy c + (cy n - cy c)) with (cy n) by lia.
    apply Z.eqb_eq. exact He.
Qed.

Lemma in_bound t ar s c : dim_ok ar -> inb ar c ->
  (length (incoming_clocked_zones (std_layout t ar s) c) <= in_count t s (cx c mod md t s) (cy c mod md t s))%nat.
Proof.
  intros Hd Hc. unfold in_count. rewrite disps_parity.
  assert (Hn : 1 <= num_clocks (std_layout t ar s) <= 255).
  { unfold num_clocks. cbn [cl_scheme std_layout]. destruct (num_std t s) as [-> | ->]; lia. }
  apply length_filter_disps.
  - apply NoDup_filter'. apply adjacent_NoDup; auto.
  - intros n H. apply incoming_In in H; auto. cbn [cl_dim cl_topo std_layout] in H.
    destruct H as (Hb & Ht & He). destruct Hb as (Hb1 & Hb2 & Hb3 & Hb4). pose proof Hc as (Hc1 & Hc2 & Hc3 & Hc4).
    unfold dim_ok in Hd.
    repeat split; [symmetry; eapply touch_z; eauto|congruence|apply touch_disps; auto|].
    unfold get_clock_number, num_clocks in He. cbn [cl_scheme std_layout] in He. rewrite !sc_at_std in He.
    rewrite (fn_md t s n), (fn_md t s c) in He by (clear - Hb2 Hb3 Hc2 Hc3 Hd; lia). cbn [fst snd].
    rewrite !Zplus_mod_idemp_l.
    replace (cx c + (cx n - cx c)) with (cx n) by lia. replace (cy c + (cy n - cy c)) with (cy n) by lia.
    apply Z.eqb_eq. exact He.
Qed.

Lemma deg_check_all t s x y : deg_check t s (x mod md t s) (y mod md t s) = true.
Proof. apply sweep_all. vm_compute. reflexivity. Qed.

Lemma degrees_bounded t ar s c : dim_ok ar -> inb ar c -> reg s = true -> degree_exception t s = false ->
  in_degree (std_layout t ar s) c <= sc_in (clocking t s) /\
  out_degree (std_layout t ar s) c <= sc_out (clocking t s).
Proof.
  intros Hd Hc Hr He. destruct (degree_exact (std_layout t ar s) c) as [-> ->].
  pose proof (out_bound t ar s c Hd Hc). pose proof (in_bound t ar s c Hd Hc).
  pose proof (deg_check_all t s (cx c) (cy c)) as G. unfold deg_check in G. rewrite Hr, He in G. simpl in G.
  apply andb_true_iff in G as [G1 G2]. lia.
Qed.

(** ** Acyclicity *)

Lemma touch_wave t s c n : linear s -> touch t c n ->
  match t, s with Hex _, TWODDWAVE _ => -2 <= wave t s n - wave t s c <= 2 | _, _ => -1 <= wave t s n - wave t s c <= 1 end.
Proof.
  intros Hl Ht. apply touch_disps in Ht.
  destruct n as [dn xn yn zn], c as [d x y z]. cbn [cx cy cz cd] in *.
  destruct t as [|[]]; cbn [disps pointy] in Ht; simpl In in Ht;
  repeat (destruct Ht as [Ht|Ht]; [injection Ht as H1 H2; destruct s; try destruct Hl; cbn [wave cx cy]; lia|]);
  destruct Ht.
Qed.

Definition flows (l : clocked) (a b : coord) : Prop :=
  inb (cl_dim l) a /\ In b (outgoing_clocked_zones l a).

Lemma flow_wave t ar s a b : dim_ok ar -> linear s ->
  (match t, s with Hex _, TWODDWAVE THREE => False | _, _ => True end) ->
  flows (std_layout t ar s) a b -> wave t s b = wave t s a + 1.
Proof.
  intros Hd Hl Hx [Ha Hb].
  assert (Hn : 1 <= num_clocks (std_layout t ar s) <= 255).
  { unfold num_clocks. cbn [cl_scheme std_layout]. destruct (num_std t s) as [-> | ->]; lia. }
  apply outgoing_In in Hb; auto. cbn [cl_dim cl_topo std_layout] in *. destruct Hb as (Hb & Ht & He).
  unfold get_clock_number, num_clocks in He. cbn [cl_scheme std_layout] in He. rewrite !sc_at_std in He.
  destruct Ha as (_ & Hax & Hay & _), Hb as (_ & Hbx & Hby & _). unfold dim_ok in Hd.
  rewrite !fn_wave in He by (auto; lia). rewrite Zplus_mod_idemp_l in He.
  pose proof (touch_wave t s a b Hl Ht) as Hw.
  assert (Hk : exists k, wave t s b - wave t s a - 1 = k * sc_num (clocking t s)).
  { exists (wave t s b / sc_num (clocking t s) - (wave t s a + 1) / sc_num (clocking t s)).
    assert (N : sc_num (clocking t s) <> 0) by (destruct (num_std t s) as [-> | ->]; lia).
    pose proof (Z.div_mod (wave t s b) _ N). pose proof (Z.div_mod (wave t s a + 1) _ N). nia. }
  destruct Hk as [k Hk].
  revert Hw Hk. generalize (wave t s a) (wave t s b). clear - Hl Hx. intros wa wb.
  destruct t as [|a0], s as [[]|[]|[]|[]|[]| | | | | | |]; try destruct Hl; try destruct Hx;
  cbn [clocking twoddwave_clocking twoddwave_hex_clocking regular sc_num clks]; lia.
Qed.

Lemma no_cycle t ar s c : dim_ok ar -> linear s ->
  (match t, s with Hex _, TWODDWAVE THREE => False | _, _ => True end) ->
  ~ clos_trans _ (flows (std_layout t ar s)) c c.
Proof.
  intros Hd Hl Hx H.
  assert (G : forall a b, clos_trans _ (flows (std_layout t ar s)) a b -> wave t s a < wave t s b).
  { induction 1 as [a b H1|a b d _ IH1 _ IH2]; [|lia]. apply flow_wave in H1; auto. lia. }
  apply G in H. lia.
Qed.

(** ** Overrides *)

Definition assign_all (l : clocked) (hist : list (coord * Z)) : clocked :=
  fold_left (fun l p => assign_clock_number l (fst p) (snd p)) hist l.

Lemma assign_all_app l h1 h2 : assign_all l (h1 ++ h2) = assign_all (assign_all l h1) h2.
Proof. apply fold_left_app. Qed.

Lemma assign_all_shape l hist : cl_topo (assign_all l hist) = cl_topo l /\ cl_dim (assign_all l hist) = cl_dim l /\
  num_clocks (assign_all l hist) = num_clocks l /\ sc_fn (cl_scheme (assign_all l hist)) = sc_fn (cl_scheme l) /\
  sc_name (cl_scheme (assign_all l hist)) = sc_name (cl_scheme l).
Proof.
  induction hist as [|p h IH] using rev_ind; [auto|]. rewrite assign_all_app. simpl.
  unfold num_clocks in *. simpl. tauto.
Qed.

Lemma last_assigned_snoc h p c : last_assigned (h ++ [p]) c = if coord_eqb (fst p) c then Some (snd p) else last_assigned h c.
Proof. unfold last_assigned. rewrite rev_app_distr. simpl. destruct (coord_eqb (fst p) c); reflexivity. Qed.

(** A regular scheme carries no overrides. *)
Definition sc_clean (s : scheme) : Prop := sc_regular s = true -> sc_override s = ∅.
Lemma std_clean t s : sc_clean (clocking t s).
Proof. destruct t as [|[]], s as [[]|[]|[]|[]|[]| | | | | | |]; intros _; reflexivity. Qed.

Lemma get_assign l c n c' : sc_clean (cl_scheme l) ->
  get_clock_number (assign_clock_number l c n) c' =
  if coord_eqb c c' then n mod num_clocks l else get_clock_number l c'.
Proof.
  intros Hcl. unfold get_clock_number, assign_clock_number, sc_at, sc_set, num_clocks; cbn [cl_scheme sc_regular sc_override sc_fn].
  destruct (coord_eqb c c') eqn:E.
  - apply coord_eqb_spec in E. subst. rewrite lookup_insert. reflexivity.
  - rewrite lookup_insert_ne by (apply coord_eqb_false; auto).
    destruct (sc_regular (cl_scheme l)) eqn:R; auto. rewrite (Hcl R), lookup_empty. reflexivity.
Qed.

Lemma assign_clean l c n : sc_clean (cl_scheme (assign_clock_number l c n)).
Proof. intros H. discriminate H. Qed.

Lemma assign_all_clean l h : sc_clean (cl_scheme l) -> sc_clean (cl_scheme (assign_all l h)).
Proof.
  intros H. destruct h as [|p h _] using rev_ind; [auto|]. rewrite assign_all_app. apply assign_clean.
Qed.

Lemma assign_all_get l hist c : sc_clean (cl_scheme l) ->
  get_clock_number (assign_all l hist) c =
  match last_assigned hist c with Some n => n mod num_clocks l | None => get_clock_number l c end.
Proof.
  intros Hcl. induction hist as [|p h IH] using rev_ind; [reflexivity|].
  rewrite assign_all_app, last_assigned_snoc. simpl. rewrite get_assign by (apply assign_all_clean; auto).
  destruct (assign_all_shape l h) as (_ & _ & -> & _). destruct (coord_eqb (fst p) c); auto.
Qed.

(** ** Names *)

Lemma to_upper_same a b : same_letter a b -> to_upper a = to_upper b.
Proof.
  intros [->|(k & Hk & H)]; [reflexivity|].
  unfold to_upper.
  destruct H as [[Ha Hb]|[Ha Hb]]; rewrite Ha, Hb.
  - replace (97 <=? 65 + k)%nat with false by (symmetry; apply Nat.leb_gt; lia).
    replace (97 <=? 97 + k)%nat with true by (symmetry; apply Nat.leb_le; lia).
    replace (97 + k <=? 122)%nat with true by (symmetry; apply Nat.leb_le; lia). cbn [andb].
    replace (97 + k - 32)%nat with (nat_of_ascii a) by lia. rewrite ascii_nat_embedding. reflexivity.
  - replace (97 <=? 65 + k)%nat with false by (symmetry; apply Nat.leb_gt; lia).
    replace (97 <=? 97 + k)%nat with true by (symmetry; apply Nat.leb_le; lia).
    replace (97 + k <=? 122)%nat with true by (symmetry; apply Nat.leb_le; lia). cbn [andb].
    replace (97 + k - 32)%nat with (nat_of_ascii b) by lia. rewrite ascii_nat_embedding. reflexivity.
Qed.

Lemma to_upper_letter a : same_letter a (to_upper a).
Proof.
  unfold to_upper. destruct ((97 <=? nat_of_ascii a)%nat && (nat_of_ascii a <=? 122)%nat) eqn:E; [|left; auto].
  right. exists (nat_of_ascii a - 97)%nat. apply andb_true_iff in E as [E1 E2].
  apply Nat.leb_le in E1, E2. split; [lia|]. right. rewrite nat_ascii_embedding by lia. lia.
Qed.

Lemma upper_same s t : same_word s t -> upper s = upper t.
Proof. induction 1; simpl; [reflexivity|]. rewrite (to_upper_same a b) by auto. congruence. Qed.
Lemma upper_word s : same_word s (upper s).
Proof. induction s; simpl; constructor; auto using to_upper_letter. Qed.

Lemma assoc_In n l v : assoc n l = Some v -> In (n, v) l.
Proof.
  induction l as [|[k w] l IH]; simpl; [discriminate|]. destruct (String.eqb_spec n k); [|auto].
  intros [= ->]. subst. auto.
Qed.

Lemma lookup_upper_fixed k v : In (k, v) scheme_lookup -> upper k = k /\ assoc k scheme_lookup = Some v.
Proof.
  assert (H : forallb (fun p => String.eqb (upper (fst p)) (fst p)) scheme_lookup = true) by reflexivity.
  intros Hin. split.
  - rewrite forallb_forall in H. specialize (H _ Hin). apply String.eqb_eq in H. exact H.
  - simpl in Hin. repeat (destruct Hin as [Hin|Hin]; [injection Hin as <- <-; reflexivity|]). destruct Hin.
Qed.

Lemma get_scheme_iff t name sc : get_clocking_scheme t name = Some sc <->
  exists k v, In (k, v) scheme_lookup /\ same_word name k /\ sc = clocking t v.
Proof.
  unfold get_clocking_scheme. split.
  - destruct (assoc (upper name) scheme_lookup) eqn:E; [|discriminate]. intros [= <-].
    apply assoc_In in E. eexists _, _. split; [exact E|]. split; [apply upper_word|reflexivity].
  - intros (k & v & Hin & Hs & ->). apply upper_same in Hs. destruct (lookup_upper_fixed _ _ Hin) as [Hu Ha].
    rewrite Hs, Hu, Ha. reflexivity.
Qed.

(** ** Synchronization elements *)

Lemma u64_inj a b : u_wf a -> u_wf b -> u64_of_u a = u64_of_u b -> a = b.
Proof. intros Ha Hb E. rewrite <- (u_pack_unpack a), <- (u_pack_unpack b) by auto. congruence. Qed.

Definition se_all (l : se_layout) (hist : list (coord * Z)) : se_layout :=
  fold_left (fun l p => assign_synchronization_element l (fst p) (snd p)) hist l.

Lemma se_all_app l h1 h2 : se_all l (h1 ++ h2) = se_all (se_all l h1) h2.
Proof. apply fold_left_app. Qed.
Lemma se_all_base l h : se_base (se_all l h) = se_base l.
Proof. induction h as [|p h IH] using rev_ind; [auto|]. rewrite se_all_app. simpl. exact IH. Qed.

Lemma se_get_assign l c v c' : u_wf c -> u_wf c' ->
  get_synchronization_element (assign_synchronization_element l c v) c' =
  if coord_eqb c c' then v else get_synchronization_element l c'.
Proof.
  intros Hc Hc'. unfold get_synchronization_element, assign_synchronization_element. cbn [se_map].
  destruct (coord_eqb c c') eqn:E.
  - apply coord_eqb_spec in E. subst. destruct (v =? 0) eqn:V.
    + rewrite lookup_delete. lia.
    + rewrite lookup_insert. reflexivity.
  - apply coord_eqb_false in E. destruct (v =? 0) eqn:V.
    + rewrite lookup_delete_ne; auto. intros H. apply E, u64_inj; auto.
    + rewrite lookup_insert_ne; auto. intros H. apply E, u64_inj; auto.
Qed.

Lemma se_all_get l hist c : u_wf c -> Forall (fun p => u_wf (fst p)) hist ->
  get_synchronization_element (se_all l hist) c =
  match last_assigned hist c with Some v => v | None => get_synchronization_element l c end.
Proof.
  intros Hc. induction hist as [|p h IH] using rev_ind; [reflexivity|].
  intros Hf. apply Forall_app in Hf as [Hf Hp]. inversion Hp; subst.
  rewrite se_all_app, last_assigned_snoc. simpl. rewrite se_get_assign by auto.
  destruct (coord_eqb (fst p) c); auto.
Qed.

Lemma is_se_iff l c : is_synchronization_element l c = true <-> get_synchronization_element l c <> 0.
Proof.
  unfold is_synchronization_element, get_synchronization_element. destruct (se_map l !! u64_of_u c); [|split; [discriminate|lia]].
  rewrite negb_true_iff. lia.
Qed.

Lemma se_in_out l a b : se_is_incoming_clocked l a b = se_is_outgoing_clocked l b a.
Proof.
  unfold se_is_incoming_clocked, se_is_outgoing_clocked. rewrite in_out.
  replace (coord_eqb a b) with (coord_eqb b a).
  - f_equal. rewrite <- !orb_assoc. f_equal. apply orb_comm.
  - destruct (coord_eqb a b) eqn:E, (coord_eqb b a) eqn:E'; auto.
    + apply coord_eqb_spec in E. subst. rewrite coord_eqb_refl in E'. discriminate.
    + apply coord_eqb_spec in E'. subst. rewrite coord_eqb_refl in E. discriminate.
Qed.

Lemma se_outgoing_In l a b : dim_ok (cl_dim (se_base l)) -> inb (cl_dim (se_base l)) a -> 1 <= num_clocks (se_base l) <= 255 ->
  (In b (se_outgoing_clocked_zones l a) <->
   inb (cl_dim (se_base l)) b /\ touch (cl_topo (se_base l)) a b /\
   (get_synchronization_element l a <> 0 \/ get_synchronization_element l b <> 0 \/
    get_clock_number (se_base l) b = (get_clock_number (se_base l) a + 1) mod num_clocks (se_base l))).
Proof.
  intros Hd Ha Hn. unfold se_outgoing_clocked_zones. rewrite filter_In, adjacent_spec by auto.
  unfold se_is_outgoing_clocked. rewrite andb_true_iff, negb_true_iff, coord_eqb_false, !orb_true_iff, !is_se_iff.
  rewrite out_clocked_iff by auto. split; [tauto|]. intros (H1 & H2 & H3).
  assert (a <> b) by (intros ->; eapply touch_irrefl; eauto). tauto.
Qed.

Lemma se_incoming_In l a b : dim_ok (cl_dim (se_base l)) -> inb (cl_dim (se_base l)) a -> 1 <= num_clocks (se_base l) <= 255 ->
  (In b (se_incoming_clocked_zones l a) <->
   inb (cl_dim (se_base l)) b /\ touch (cl_topo (se_base l)) a b /\
   (get_synchronization_element l a <> 0 \/ get_synchronization_element l b <> 0 \/
    get_clock_number (se_base l) a = (get_clock_number (se_base l) b + 1) mod num_clocks (se_base l))).
Proof.
  intros Hd Ha Hn. unfold se_incoming_clocked_zones. rewrite filter_In, adjacent_spec by auto.
  rewrite se_in_out.
  unfold se_is_outgoing_clocked. rewrite andb_true_iff, negb_true_iff, coord_eqb_false, !orb_true_iff, !is_se_iff.
  rewrite out_clocked_iff by auto. split; [tauto|]. intros (H1 & H2 & H3).
  assert (b <> a) by (intros ->; eapply touch_irrefl; eauto). tauto.
Qed.

(** ** Shared storage *)
Section Heap.
Context {D : Type}.
Implicit Types h : store D.

(** Operations on the clone that cannot reach the original: clock numbers are only assigned after
    the scheme has been replaced. *)
Fixpoint safe_ops (replaced : bool) (ops : list (h_op D)) : Prop :=
  match ops with
  | [] => True
  | Update _ :: r => safe_ops replaced r
  | ReplaceScheme _ :: r => safe_ops true r
  | AssignClock _ _ :: r => replaced = true /\ safe_ops replaced r
  end.

Definition ptr h l : option nat := match st_data h !! l with Some (_, p) => Some p | None => None end.

Lemma safe_frame h l1 l2 ops (rep : bool) x :
  l1 <> l2 -> h_obs h l2 = Some x -> is_Some (st_data h !! l1) ->
  (rep = true -> ptr h l1 <> ptr h l2) ->
  safe_ops rep ops -> h_obs (fold_left (h_apply l1) ops h) l2 = Some x.
Proof.
  revert h rep. induction ops as [|o ops IH]; intros h rep Hne Hobs H1 Hptr Hs; simpl; [exact Hobs|].
  destruct H1 as [[d p] H1]. unfold h_obs in Hobs.
  destruct (st_data h !! l2) as [[d2 p2]|] eqn:H2; [|discriminate].
  destruct (st_schemes h !! p2) as [s2|] eqn:Hs2; [|discriminate].
  destruct o as [f|s|c n]; simpl in Hs.
  - apply (IH _ rep); auto; unfold h_apply, h_obs, ptr in *; rewrite H1; cbn [st_data st_schemes];
      rewrite ?lookup_insert, ?lookup_insert_ne by auto; rewrite ?H2, ?Hs2; eauto.
    intros R. specialize (Hptr R). rewrite H1, H2 in Hptr. exact Hptr.
  - assert (Hf : fresh (dom (st_schemes h)) <> p2).
    { intros E. apply (is_fresh (dom (st_schemes h))). rewrite E. apply elem_of_dom. eauto. }
    apply (IH _ true); auto; unfold h_apply, h_obs, ptr in *; rewrite H1; cbn [st_data st_schemes];
      rewrite ?lookup_insert, ?lookup_insert_ne by auto; rewrite ?H2, ?Hs2; eauto.
    + rewrite lookup_insert_ne by auto. rewrite Hs2. exact Hobs.
    + congruence.
  - destruct Hs as [R Hs]. specialize (Hptr R). unfold ptr in Hptr. rewrite H1, H2 in Hptr.
    unfold h_apply. rewrite H1. destruct (st_schemes h !! p) eqn:Ep.
    + apply (IH _ rep); auto; unfold h_obs, ptr; cbn [st_data st_schemes]; rewrite ?H1, ?H2; eauto.
      rewrite lookup_insert_ne by congruence. rewrite Hs2. exact Hobs.
    + apply (IH _ rep); auto; unfold h_obs, ptr; rewrite ?H1, ?H2, ?Hs2; eauto.
Qed.

Lemma clone_spec h l x h' a : h_obs h l = Some x -> h_clone h l = Some (h', a) ->
  a <> l /\ st_data h !! a = None /\ h_obs h' a = Some x /\ h_obs h' l = Some x /\ ptr h' a = ptr h' l /\ is_Some (st_data h' !! a)
  /\ is_Some (st_data h' !! l).
Proof.
  unfold h_obs, h_clone, ptr. destruct (st_data h !! l) as [[d p]|] eqn:H; [|discriminate].
  destruct (st_schemes h !! p) eqn:Hs; [|discriminate]. intros Hx [= <- <-].
  assert (Hf : fresh (dom (st_data h)) <> l).
  { intros E. apply (is_fresh (dom (st_data h))). rewrite E. apply elem_of_dom. eauto. }
  cbn [st_data st_schemes]. rewrite lookup_insert, lookup_insert_ne by auto. rewrite H, Hs.
  repeat split; eauto. apply not_elem_of_dom, is_fresh.
Qed.
End Heap.
