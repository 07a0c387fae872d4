(** Reading back the texts and elements that were written. *)
From Coq Require Import ZArith Bool String Ascii List Lia.
From stdpp Require Import gmap list strings pretty.
From Verif Require Import CoordModel CoordSpec CoordProofs GridModel GridSpec CoordMap ClockModel ClockSpec ClockProofs GateModel GateSpec FglModel FglSpec.
From Coq Require Import String List.
Import ListNotations.
Local Open Scope Z_scope.

(** ** Numbers *)
Lemma digit_char x : (x < 10)%N -> is_digit (pretty_N_char x) = true /\ digit_val (pretty_N_char x) = Z.of_N x /\
  is_space (pretty_N_char x) = false /\ plain_char (pretty_N_char x) = true /\ Z.of_nat (nat_of_ascii (pretty_N_char x)) = 48 + Z.of_N x.
Proof.
  intros H. assert (C : (x = 0 \/ x = 1 \/ x = 2 \/ x = 3 \/ x = 4 \/ x = 5 \/ x = 6 \/ x = 7 \/ x = 8 \/ x = 9)%N) by lia.
  destruct C as [->|[->|[->|[->|[->|[->|[->|[->|[->| ->]]]]]]]]]; repeat split.
Qed.
Lemma parse_go x : forall s, parse_digits 0 (pretty_N_go x s) = parse_digits (Z.of_N x) s.
Proof.
  induction (N.lt_wf_0 x) as [x _ IH]; intros s. destruct (decide (0 < x)%N) as [P|P].
  - rewrite pretty_N_go_step by exact P. rewrite IH by (apply N.div_lt; lia). cbn [parse_digits].
    destruct (digit_char (x `mod` 10)) as (D1 & D2 & _); [apply N.mod_upper_bound; lia|]. rewrite D1, D2. f_equal.
    rewrite N2Z.inj_div, N2Z.inj_mod. change (Z.of_N 10) with 10. pose proof (Z.div_mod (Z.of_N x) 10). lia.
  - assert (x = 0%N) as -> by lia. reflexivity.
Qed.
(** All characters of a written number are digits, and there is one. *)
Lemma go_digits x : forall s, all_chars is_digit s = true -> all_chars is_digit (pretty_N_go x s) = true.
Proof.
  induction (N.lt_wf_0 x) as [x _ IH]; intros s Hs. destruct (decide (0 < x)%N) as [P|P].
  - rewrite pretty_N_go_step by exact P. apply IH; [apply N.div_lt; lia|]. cbn [all_chars].
    destruct (digit_char (x `mod` 10)) as (D1 & _); [apply N.mod_upper_bound; lia|]. rewrite D1. exact Hs.
  - assert (x = 0%N) as -> by lia. exact Hs.
Qed.
Lemma go_nonempty x s : s <> ""%string \/ (0 < x)%N -> pretty_N_go x s <> ""%string.
Proof.
  revert s. induction (N.lt_wf_0 x) as [x _ IH]; intros s Hs. destruct (decide (0 < x)%N) as [P|P].
  - rewrite pretty_N_go_step by exact P. apply IH; [apply N.div_lt; lia|left; discriminate].
  - assert (x = 0%N) as -> by lia. destruct Hs as [Hs|Hs]; [exact Hs|lia].
Qed.
Lemma fmt_digits z : all_chars is_digit (fmt_u z) = true /\ fmt_u z <> ""%string /\ (0 <= z -> parse_digits 0 (fmt_u z) = z).
Proof.
  unfold fmt_u, pretty, pretty_N. destruct (decide (Z.to_N z = 0)%N) as [E|E].
  - split; [reflexivity|]. split; [discriminate|]. intros Hz. assert (z = 0) as -> by lia. reflexivity.
  - split; [apply go_digits; reflexivity|]. split; [apply go_nonempty; right; lia|]. intros Hz. rewrite parse_go. cbn [parse_digits]. lia.
Qed.
Lemma digit_not c : is_digit c = true -> is_space c = false /\ plain_char c = true /\ Nat.eqb (nat_of_ascii c) 45 = false /\ Nat.eqb (nat_of_ascii c) 43 = false.
Proof.
  unfold is_digit, is_space, plain_char. intros H. apply andb_true_iff in H. destruct H as [A B]. apply Nat.leb_le in A. apply Nat.leb_le in B.
  repeat split.
  - apply orb_false_iff. split; [apply Nat.eqb_neq; lia|]. apply andb_false_iff. right. apply Nat.leb_gt. lia.
  - apply negb_true_iff. rewrite !orb_false_iff. split; [split|]; [apply Nat.eqb_neq; lia| |apply Nat.eqb_neq; lia]. apply Nat.eqb_neq. lia.
  - apply Nat.eqb_neq. lia.
  - apply Nat.eqb_neq. lia.
Qed.
Lemma all_chars_impl (p q : ascii -> bool) s : (forall c, p c = true -> q c = true) -> all_chars p s = true -> all_chars q s = true.
Proof. intros H. induction s as [|c r IH]; cbn; [auto|]. rewrite !andb_true_iff. intros [A B]. auto. Qed.
Lemma digits_text z : blank (fmt_u z) = false /\ plain (fmt_u z) = true.
Proof.
  destruct (fmt_digits z) as (A & B & _). split; [|apply (all_chars_impl is_digit); [intros c Hc; apply digit_not, Hc|exact A]].
  destruct (fmt_u z) as [|c r]; [congruence|]. cbn in A |- *. apply andb_true_iff in A. destruct A as [A _].
  unfold blank. cbn. rewrite (proj1 (digit_not c A)). reflexivity.
Qed.
Lemma strto_fmt z : 0 <= z -> strto (fmt_u z) = Ok (false, z).
Proof.
  intros Hz. destruct (fmt_digits z) as (A & B & C). specialize (C Hz). destruct (fmt_u z) as [|c r] eqn:E; [congruence|].
  cbn in A. apply andb_true_iff in A. destruct A as [A _]. destruct (digit_not c A) as (D1 & _ & D3 & D4).
  unfold strto. cbn [skip_spaces]. rewrite D1, D3, D4, A, C. reflexivity.
Qed.
Lemma stoi_fmt z : 0 <= z < 2 ^ 31 -> stoi (fmt_u z) = Ok z.
Proof.
  intros Hz. unfold stoi. rewrite strto_fmt by lia. cbn [rbind].
  assert ((- 2 ^ 31 <=? z) && (z <? 2 ^ 31) = true) as -> by (apply andb_true_iff; split; [apply Z.leb_le|apply Z.ltb_lt]; lia). reflexivity.
Qed.
Lemma stoull_fmt z : 0 <= z < 2 ^ 64 -> stoull (fmt_u z) = Ok z.
Proof.
  intros Hz. unfold stoull. rewrite strto_fmt by lia. cbn [rbind].
  assert (z <? 2 ^ 64 = true) as -> by (apply Z.ltb_lt; lia). reflexivity.
Qed.
Lemma first_char_fmt z : 0 <= z <= 9 -> first_char (fmt_u z) = 48 + z.
Proof.
  intros H. assert (C : z = 0 \/ z = 1 \/ z = 2 \/ z = 3 \/ z = 4 \/ z = 5 \/ z = 6 \/ z = 7 \/ z = 8 \/ z = 9) by lia.
  destruct C as [->|[->|[->|[->|[->|[->|[->|[->|[->| ->]]]]]]]]]; reflexivity.
Qed.

(** ** Elements *)
Lemma text_of_printable tag t k : printable t -> get_text (Elem tag t k) = Some (Ok t).
Proof. intros [A B]. unfold get_text. rewrite A, B. reflexivity. Qed.
Lemma fmt_printable z : printable (fmt_u z).
Proof. apply digits_text. Qed.
(** Coordinates that fit into the bit fields. *)
Definition fits (c : coord) : Prop := cd c = false /\ 0 <= cx c < 2 ^ 31 /\ 0 <= cy c < 2 ^ 31 /\ 0 <= cz c <= 1.
Lemma ucoord_fits c : fits c -> ucoord (cx c) (cy c) (cz c) = c.
Proof.
  intros (D & X & Y & Zc). destruct c as [d x y z]; cbn in *. subst d. unfold ucoord, live.
  rewrite !Z.mod_small by lia. reflexivity.
Qed.
Lemma read_num_i e tag z : first_child e tag = Some (num_elem tag z) -> 0 <= z < 2 ^ 31 -> (let$ s := text_in e tag in stoi s) = Ok z.
Proof. intros H Hz. unfold text_in. rewrite H. unfold num_elem. rewrite text_of_printable by apply fmt_printable. cbn [rbind]. apply stoi_fmt, Hz. Qed.
Lemma text_num e tag z : first_child e tag = Some (num_elem tag z) -> text_in e tag = Ok (fmt_u z).
Proof. intros H. unfold text_in. rewrite H. unfold num_elem. rewrite text_of_printable by apply fmt_printable. reflexivity. Qed.
Lemma read_xyz_ok tag c : fits c -> read_xyz (xyz tag c) = Ok c.
Proof.
  intros F. pose proof F as (D & X & Y & Zc). unfold read_xyz.
  rewrite (text_num (xyz tag c) "x" (cx c)) by reflexivity. cbn [rbind]. rewrite stoull_fmt by lia. cbn [rbind].
  rewrite (text_num (xyz tag c) "y" (cy c)) by reflexivity. cbn [rbind]. rewrite stoull_fmt by lia. cbn [rbind].
  rewrite (text_num (xyz tag c) "z" (cz c)) by reflexivity. cbn [rbind]. rewrite stoull_fmt by lia. cbn [rbind].
  rewrite ucoord_fits by exact F. reflexivity.
Qed.
Lemma all_signals l : all_children (Elem "incoming" "" (map (xyz "signal") l)) "signal" = map (xyz "signal") l.
Proof. unfold all_children. cbn [kids_of]. induction l as [|c r IH]; [reflexivity|]. cbn. cbn in IH. rewrite IH. reflexivity. Qed.
Lemma read_signals l : Forall fits l -> rmap read_xyz (map (xyz "signal") l) = Ok l.
Proof. induction 1 as [|c r F _ IH]; [reflexivity|]. cbn [map rmap]. rewrite read_xyz_ok by exact F. cbn [rbind]. rewrite IH. reflexivity. Qed.

Lemma parse_common g inc :
  0 <= fg_id g < 2 ^ 31 -> printable (fg_type g) -> fits (fg_loc g) ->
  ((fg_type g = "PI" \/ fg_type g = "PO") -> printable (fg_name g)) -> (~ (fg_type g = "PI" \/ fg_type g = "PO") -> fg_name g = "") ->
  (inc = [] /\ fg_in g = [] \/ inc = [Elem "incoming" "" (map (xyz "signal") (fg_in g))] /\ Forall fits (fg_in g)) ->
  parse_gate (gate_xml g inc) = Ok g.
Proof.
  intros Hid Hty Hloc Hn1 Hn2 Hinc. unfold parse_gate.
  rewrite (text_num (gate_xml g inc) "id" (fg_id g)) by reflexivity. cbn [rbind]. rewrite stoi_fmt by exact Hid. cbn [rbind].
  assert (ET : text_in (gate_xml g inc) "type" = Ok (fg_type g)).
  { unfold text_in.
    change (first_child (gate_xml g inc) "type") with (Some (Elem "type" (fg_type g) [])). cbv iota. rewrite text_of_printable by exact Hty. reflexivity. }
  rewrite ET. cbn [rbind].
  assert (EN : (if String.eqb (fg_type g) "PI" || String.eqb (fg_type g) "PO" then text_in (gate_xml g inc) "name" else Ok ""%string) = Ok (fg_name g)).
  { destruct (String.eqb (fg_type g) "PI" || String.eqb (fg_type g) "PO") eqn:E.
    - assert (K : fg_type g = "PI" \/ fg_type g = "PO") by (apply orb_true_iff in E; destruct E as [E|E]; apply String.eqb_eq in E; auto).
      unfold text_in. change (first_child (gate_xml g inc) "name") with (Some (Elem "name" (fg_name g) [])). cbv iota.
      rewrite text_of_printable by (apply Hn1, K). reflexivity.
    - apply orb_false_iff in E. destruct E as [E1 E2]. apply String.eqb_neq in E1. apply String.eqb_neq in E2. rewrite Hn2 by tauto. reflexivity. }
  rewrite EN. cbn [rbind]. change (first_child (gate_xml g inc) "loc") with (Some (xyz "loc" (fg_loc g))). cbv iota.
  rewrite read_xyz_ok by exact Hloc. cbn [rbind].
  destruct Hinc as [[-> Hi]|[-> Hi]].
  - change (first_child (gate_xml g []) "incoming") with (@None xml). cbn [rbind]. rewrite <- Hi. destruct g; reflexivity.
  - change (first_child (gate_xml g [Elem "incoming" "" (map (xyz "signal") (fg_in g))]) "incoming") with (Some (Elem "incoming" "" (map (xyz "signal") (fg_in g)))).
    cbv iota. rewrite all_signals, read_signals by exact Hi. cbn [rbind]. destruct g; reflexivity.
Qed.

Lemma rmap_ok {A B} (f : A -> res B) (l : list A) (m : list B) : Forall2 (fun a b => f a = Ok b) l m -> rmap f l = Ok m.
Proof. induction 1 as [|a b r s H _ IH]; [reflexivity|]. cbn. rewrite H. cbn. rewrite IH. reflexivity. Qed.
Lemma rmap_app {A B} (f : A -> res B) l1 l2 m1 m2 : rmap f l1 = Ok m1 -> rmap f l2 = Ok m2 -> rmap f (l1 ++ l2) = Ok (m1 ++ m2).
Proof.
  revert m1. induction l1 as [|a r IH]; cbn; intros m1 H1 H2; [inversion H1; exact H2|].
  destruct (f a) as [b| |] eqn:Ea; cbn in H1 |- *; try discriminate. destruct (rmap f r) as [bs| |] eqn:Er; cbn in H1; try discriminate.
  inversion H1; subst. rewrite (IH bs eq_refl H2). reflexivity.
Qed.
(** Gates in ascending order stay in order. *)
Lemma insert_least g l : Forall (fun h => fg_id g <= fg_id h) l -> insert_gate g l = g :: l.
Proof. intros H. destruct l as [|h r]; [reflexivity|]. inversion H; subst. cbn. apply Z.leb_le in H2. rewrite H2. reflexivity. Qed.
Fixpoint ascending (l : list fgate) : Prop :=
  match l with [] => True | g :: r => Forall (fun h => fg_id g <= fg_id h) r /\ ascending r end.
Lemma sort_sorted l : ascending l -> sort_gates l = l.
Proof. induction l as [|g r IH]; [reflexivity|]. cbn. intros [A B]. rewrite IH by exact B. apply insert_least, A. Qed.
Lemma ascending_ids l k : map fg_id l = map Z.of_nat (seq k (length l)) -> ascending l.
Proof.
  revert k. induction l as [|g r IH]; intros k H; [exact Logic.I|]. cbn in H. inversion H as [[H1 H2]]. split; [|apply (IH (S k)), H2].
  apply Forall_forall. intros h Hh. assert (In (fg_id h) (map fg_id r)) as K by (apply in_map, Hh).
  rewrite H2 in K. apply in_map_iff in K. destruct K as (i & <- & K). apply in_seq in K. lia.
Qed.

(** ** Clocking *)
Lemma zrange_in n z : In z (FglModel.zrange n) <-> 0 <= z <= n.
Proof.
  unfold FglModel.zrange. rewrite in_map_iff. split.
  - intros (i & <- & H). apply in_seq in H. lia.
  - intros H. exists (Z.to_nat z). split; [lia|]. apply in_seq. lia.
Qed.
Lemma zone_in ar c : In c (zone_positions ar) <-> cd c = false /\ cz c = 0 /\ 0 <= cx c <= cx ar /\ 0 <= cy c <= cy ar.
Proof.
  unfold zone_positions. rewrite in_flat_map. split.
  - intros (x & Hx & H). apply in_map_iff in H. destruct H as (y & <- & Hy). apply zrange_in in Hx. apply zrange_in in Hy. cbn. lia.
  - intros (D & Hz & X & Y). exists (cx c). split; [apply zrange_in; lia|]. apply in_map_iff. exists (cy c). split; [|apply zrange_in; lia].
    destruct c as [d x y z]. cbn in *. subst. reflexivity.
Qed.
Lemma all_zones sc l : all_children (Elem "zones" "" (map (zone_xml sc) l)) "zone" = map (zone_xml sc) l.
Proof. unfold all_children. cbn [kids_of]. induction l as [|c r IH]; [reflexivity|]. cbn. cbn in IH. rewrite IH. reflexivity. Qed.
Lemma read_zone_ok sc cl c : fits c -> cz c = 0 -> 0 <= sc_at sc c <= 9 ->
  read_zone cl (zone_xml sc c) = Ok (assign_clock_number cl c (48 + sc_at sc c)).
Proof.
  intros F Hz Hk. pose proof F as (D & X & Y & _). unfold read_zone.
  rewrite (text_num (zone_xml sc c) "x" (cx c)) by reflexivity. cbn [rbind]. rewrite stoi_fmt by lia. cbn [rbind].
  rewrite (text_num (zone_xml sc c) "y" (cy c)) by reflexivity. cbn [rbind]. rewrite stoi_fmt by lia. cbn [rbind].
  rewrite (text_num (zone_xml sc c) "clock" (sc_at sc c)) by reflexivity. cbn [rbind]. rewrite first_char_fmt by exact Hk.
  rewrite <- Hz. rewrite ucoord_fits by exact F. reflexivity.
Qed.
Lemma read_zones_ok sc l : forall cl, Forall (fun c => fits c /\ cz c = 0 /\ 0 <= sc_at sc c <= 9) l ->
  rfold read_zone (map (zone_xml sc) l) cl = Ok (assign_all cl (map (fun c => (c, 48 + sc_at sc c)) l)).
Proof.
  induction l as [|c r IH]; intros cl H; [reflexivity|]. inversion H as [|? ? (F & Hz & Hk) H']; subst. cbn [map rfold].
  rewrite read_zone_ok by assumption. cbn [rbind]. rewrite IH by exact H'. reflexivity.
Qed.
Lemma last_assigned_const (f : coord -> Z) l c : last_assigned (map (fun c => (c, f c)) l) c = if bool_decide (c ∈ l) then Some (f c) else None.
Proof.
  induction l as [|h r IH] using rev_ind; [reflexivity|]. rewrite map_app. cbn [map]. rewrite last_assigned_snoc. cbn [fst snd].
  destruct (coord_eqb h c) eqn:E.
  - apply coord_eqb_spec in E. subst h. rewrite bool_decide_true by (apply elem_of_app; right; left). reflexivity.
  - rewrite IH. apply coord_eqb_false in E. destruct (decide (c ∈ r)) as [K|K].
    + rewrite !bool_decide_true; [reflexivity|apply elem_of_app; left; exact K|exact K].
    + rewrite !bool_decide_false; [reflexivity| |exact K]. rewrite elem_of_app, elem_of_list_singleton. intros [?|?]; congruence.
Qed.
