(** C101: BDL pairs are disjoint, within the given distances, and closest dots are paired first. *)
From Coq Require Import ZArith QArith Bool List Sorted Permutation Lia Lqa.
From stdpp Require Import gmap list.
From Verif Require Import CoordModel CoordProofs GridModel ClockModel CellModel CellSpec CellProofs CellProps BdlModel BdlSpec BdlProofs.
From Coq Require Import List.
Import ListNotations.
Local Open Scope Z_scope.

Lemma sidb_tech : In sidb technologies. Proof. cbn. tauto. Qed.
Lemma latest_in {O A} (f : O -> option A) d h : latest f d h = d \/ exists o a, In o h /\ f o = Some a /\ latest f d h = a.
Proof. induction h as [|o r IH]; [left; reflexivity|]. cbn [latest]. destruct (f o) as [a|] eqn:E; [right; exists o, a; split; [left; reflexivity|split; [exact E|reflexivity]]|]. destruct IH as [IH|(o' & a & I & F & L)]; [left; exact IH|right; exists o', a; split; [right; exact I|split; assumption]]. Qed.
Lemma typed_live k ops c : valid_cells k ops -> spec_type sidb ops c <> t_empty sidb -> cd c = false.
Proof.
  intros V N. unfold spec_type in N. match type of N with latest ?f ?d ?h <> _ => destruct (latest_in f d h) as [E|(o & a & I & F & L)] end; [contradiction|].
  destruct o as [c' ct| | |]; try discriminate F. destruct (coord_eqb c' c) eqn:E; [|discriminate F]. apply coord_eq_iff in E. subst c'. apply in_rev in I. apply (V c ct I).
Qed.

Section Dots.
Variable k : kind.
Variable visit : list coord -> list coord.
Variable cl : clocked.
Variable x y : Z.
Variable ops : list cop.
Hypothesis Hv : visits visit.
Notation lyt := (c_run sidb (c_new cl x y) ops).
Lemma dots_ok t : t <> t_empty sidb -> enumerates (dots_of_type visit lyt t) (fun c => spec_type sidb ops c = t).
Proof using Hv.
  intros Nt. destruct (C26_enumerations sidb cl x y ops sidb_tech) as ([N1 E1] & _ & _ & [N2 E2] & _ & [N3 E3] & _). set (l := c_run _ _ _) in *.
  assert (V : forall L, List.NoDup L -> List.NoDup (visit L) /\ forall c, In c (visit L) <-> In c L).
  { intros L N. split; [exact (Permutation_NoDup (Permutation_sym (Hv L)) N)|]. intros c. split; apply Permutation_in; [apply Hv|apply Permutation_sym, Hv]. }
  unfold dots_of_type. destruct (t =? t_input sidb) eqn:Ei; [apply Z.eqb_eq in Ei; subst t; destruct (V _ N2) as [A B]; split; [exact A|intros c; rewrite B; apply E2]|].
  destruct (t =? t_output sidb) eqn:Eo; [apply Z.eqb_eq in Eo; subst t; destruct (V _ N3) as [A B]; split; [exact A|intros c; rewrite B; apply E3]|].
  destruct (V _ N1) as [A B]. split; [apply List.NoDup_filter, A|]. intros c. rewrite filter_In, B, E1, Z.eqb_eq.
  assert (Eq : get_cell_type sidb l c = spec_type sidb ops c) by (unfold get_cell_type; apply (ci_type _ _ _ (cell_inv_run sidb sidb_tech cl x y ops))). rewrite Eq. split; [tauto|intros H; split; [congruence|exact H]].
Qed.
Lemma dots_type t c : t <> t_empty sidb -> In c (dots_of_type visit lyt t) -> get_cell_type sidb lyt c = t.
Proof using Hv. intros N H. apply (proj2 (dots_ok t N)) in H. rewrite <- H. unfold get_cell_type. apply (ci_type _ _ _ (cell_inv_run sidb sidb_tech cl x y ops)). Qed.
End Dots.

(** The dots of a type are those cells whose latest assignment was of this type. Pairs are made of such dots, upper before lower; they are sorted, have no
    dot in common, are within the given distances, and of any two dots in range one is in a pair that is at most as far apart. *)
Theorem C101_pairs : forall k dist sort visit cl x y ops ps t, sorting sort -> visits visit -> symmetric dist -> valid_cells k ops -> t <> t_empty sidb ->
  (minimum_distance ps <= maximum_distance ps)%Q ->
  exists r, detect_bdl_pairs k dist sort visit (c_run sidb (c_new cl x y) ops) ps (Some t) = Some r /\
  pairing k dist (minimum_distance ps) (maximum_distance ps) (fun c => spec_type sidb ops c = t) t r.
Proof.
  intros k dist sort visit cl x y ops ps t Hs Hv Sy V Nt M. unfold detect_bdl_pairs. assert (Mb : Qle_bool (minimum_distance ps) (maximum_distance ps) = true) by (apply Qle_bool_iff; exact M). rewrite Mb. eexists. split; [reflexivity|].
  pose proof (dots_ok visit cl x y ops Hv t Nt) as [N E]. set (l := c_run _ _ _) in *. set (dots := dots_of_type visit l t) in *.
  assert (Lv : forall c, In c dots -> cd c = false) by (intros c Hc; apply E in Hc; apply (typed_live k ops c V); congruence).
  assert (Ty : forall c, In c dots -> get_cell_type sidb l c = t) by (intros c Hc; exact (dots_type visit cl x y ops Hv t c Nt Hc)).
  destruct (pair_up_ok k dist sort l ps Hs Sy dots t N Lv Ty) as [A B C D F G]. split.
  - exact A.
  - exact B.
  - intros p Hp. destruct (C p Hp) as (X & Y & Z). apply E in X, Y. split; [exact X|split; [exact Y|exact Z]].
  - exact D.
  - exact F.
  - intros a b Ha Hb. apply E in Ha, Hb. exact (G a b Ha Hb).
Qed.
Print Assumptions C101_pairs.

(** Without a type the pairs of inputs, of outputs and of normal dots are returned one after another; a minimum above the maximum is an error. *)
Theorem C101_all_types : forall k dist sort visit l ps,
  ((minimum_distance ps <= maximum_distance ps)%Q -> exists i o n, detect_bdl_pairs k dist sort visit l ps (Some (t_input sidb)) = Some i /\ detect_bdl_pairs k dist sort visit l ps (Some (t_output sidb)) = Some o /\
     detect_bdl_pairs k dist sort visit l ps (Some s_normal) = Some n /\ detect_bdl_pairs k dist sort visit l ps None = Some (i ++ o ++ n)) /\
  ((maximum_distance ps < minimum_distance ps)%Q -> forall t, detect_bdl_pairs k dist sort visit l ps t = None).
Proof.
  intros k dist sort visit l ps. split; intros M; unfold detect_bdl_pairs.
  - assert (Mb : Qle_bool (minimum_distance ps) (maximum_distance ps) = true) by (apply Qle_bool_iff; exact M). rewrite Mb. eexists _, _, _. split; [reflexivity|]. split; [reflexivity|]. split; [reflexivity|]. reflexivity.
  - intros t. destruct (Qle_bool (minimum_distance ps) (maximum_distance ps)) eqn:E; [apply Qle_bool_iff in E; lra|reflexivity].
Qed.
Print Assumptions C101_all_types.

(** If no two distances in range are equal, these properties determine the result; it does not depend on the sorting algorithm or the order of visits. *)
Theorem C101_unique : forall k dist lo hi dot t r s, no_ties dist lo hi dot -> pairing k dist lo hi dot t r -> pairing k dist lo hi dot t s -> r = s.
Proof. intros k dist lo hi dot t r s N. apply (pairing_unique k dist lo hi dot t N). Qed.
Print Assumptions C101_unique.
Theorem C101_deterministic : forall k dist sort1 sort2 visit1 visit2 cl x y ops ps t, sorting sort1 -> sorting sort2 -> visits visit1 -> visits visit2 -> symmetric dist -> valid_cells k ops -> t <> t_empty sidb ->
  no_ties dist (minimum_distance ps) (maximum_distance ps) (fun c => spec_type sidb ops c = t) ->
  detect_bdl_pairs k dist sort1 visit1 (c_run sidb (c_new cl x y) ops) ps (Some t) = detect_bdl_pairs k dist sort2 visit2 (c_run sidb (c_new cl x y) ops) ps (Some t).
Proof.
  intros k dist sort1 sort2 visit1 visit2 cl x y ops ps t S1 S2 V1 V2 Sy V Nt T. destruct (Qlt_le_dec (maximum_distance ps) (minimum_distance ps)) as [M|M].
  - rewrite !(proj2 (C101_all_types _ _ _ _ _ _) M). reflexivity.
  - destruct (C101_pairs k dist sort1 visit1 cl x y ops ps t S1 V1 Sy V Nt M) as (r & -> & Pr). destruct (C101_pairs k dist sort2 visit2 cl x y ops ps t S2 V2 Sy V Nt M) as (s & -> & Ps). f_equal. exact (C101_unique _ _ _ _ _ _ _ _ T Pr Ps).
Qed.
Print Assumptions C101_deterministic.

(** Pairs of live dots are compared by upper, then by lower dots; pairs of the same type are totally ordered. *)
Theorem C101_operators : forall k p q, plive p -> plive q ->
  (bdl_eqb p q = true <-> p = q) /\ (bdl_ltb k p q = true <-> pair_before k p q) /\ (bdl_geb k p q = true <-> ~ pair_before k p q) /\
  (bdl_leb k p q = true <-> pair_before k p q \/ p = q) /\ (equal_ignore_type p q = true <-> p_upper p = p_upper q /\ p_lower p = p_lower q) /\ not_equal_ignore_type p q = negb (equal_ignore_type p q) /\
  (p_type p = p_type q -> (bdl_gtb k p q = true <-> pair_before k q p)) /\
  (has_same_x_coordinate p q = true <-> cx (p_upper p) = cx (p_upper q) /\ cx (p_lower p) = cx (p_lower q)) /\
  (has_same_y_coordinate p q = true <-> cy (p_upper p) = cy (p_upper q) /\ cy (p_lower p) = cy (p_lower q)).
Proof.
  intros k p q Lp Lq.
  assert (E : bdl_eqb p q = true <-> p = q). { unfold bdl_eqb. rewrite !andb_true_iff, !coord_eq_iff, Z.eqb_eq. destruct p, q; cbn. split; [intros ((? & ?) & ?); congruence|intros H; injection H as -> -> ->; tauto]. }
  split; [exact E|]. split; [apply bdl_ltb_iff|]. split; [unfold bdl_geb; rewrite negb_true_iff, <- bdl_ltb_iff; destruct (bdl_ltb k p q); split; congruence|].
  assert (Le : bdl_leb k p q = true <-> pair_before k p q \/ p = q) by (unfold bdl_leb; rewrite orb_true_iff, bdl_ltb_iff, E; tauto). split; [exact Le|].
  split; [unfold equal_ignore_type; rewrite andb_true_iff, !coord_eq_iff; tauto|]. split; [reflexivity|]. split.
  - intros T. unfold bdl_gtb. rewrite negb_true_iff. split; intros H.
    + destruct (before_total k p q Lp Lq) as [X|[[X Y]|X]]; [|exfalso|exact X].
      * exfalso. assert (bdl_leb k p q = true) by (apply Le; left; exact X). congruence.
      * assert (bdl_leb k p q = true); [|congruence]. apply Le. right. destruct p, q; cbn in *; congruence.
    + destruct (bdl_leb k p q) eqn:B; [|reflexivity]. exfalso. destruct (proj1 Le eq_refl) as [B0| ->]; [exact (before_irrefl k p (before_trans k p q p B0 H))|exact (before_irrefl k q H)].
  - unfold has_same_x_coordinate, has_same_y_coordinate. rewrite !andb_true_iff, !Z.eqb_eq. tauto.
Qed.
Print Assumptions C101_operators.

(** ** A sorting algorithm and a layout *)

Fixpoint ins {A} (lt : A -> A -> bool) (a : A) (l : list A) : list A := match l with [] => [a] | b :: r => if lt b a then b :: ins lt a r else a :: b :: r end.
Definition isort (A : Type) (lt : A -> A -> bool) (l : list A) : list A := fold_right (ins lt) [] l.
Lemma ins_perm {A} lt (a : A) l : Permutation (ins lt a l) (a :: l).
Proof. induction l as [|b r IH]; [reflexivity|]. cbn. destruct (lt b a); [rewrite IH; apply perm_swap|reflexivity]. Qed.
Lemma isorts : sorting isort.
Proof.
  intros A lt l0 (Ir & Tr & Ng). unfold isort.
  assert (H : forall l, incl l l0 -> Permutation (fold_right (ins lt) [] l) l /\ StronglySorted (fun a b => lt b a = false) (fold_right (ins lt) [] l)); [|apply H, incl_refl].
  induction l as [|a r IH]; intros I; [split; constructor|]. destruct IH as [P So]; [intros z Hz; apply I; right; exact Hz|]. cbn [fold_right]. set (m := fold_right (ins lt) [] r) in *. split; [rewrite ins_perm, P; reflexivity|].
  assert (Ia : In a l0) by (apply I; left; reflexivity). assert (Im : forall z, In z m -> In z l0) by (intros z Hz; apply I; right; exact (Permutation_in _ P Hz)). clearbody m. clear P I r.
  induction So as [|b m So IHs Fa]; [repeat constructor|]. cbn [ins]. assert (Ib : In b l0) by (apply Im; left; reflexivity). rewrite Forall_forall in Fa. assert (Im' : forall z, In z m -> In z l0) by (intros z Hz; apply Im; right; exact Hz).
  destruct (lt b a) eqn:E.
  - constructor; [exact (IHs Im')|]. rewrite Forall_forall. intros z Hz. apply (Permutation_in _ (ins_perm lt a m)) in Hz as [<-|Hz]; [|exact (Fa z Hz)]. destruct (lt a b) eqn:X; [|reflexivity]. rewrite <- (Ir a Ia). symmetry. exact (Tr a b a Ia Ib Ia X E).
  - constructor; [constructor; [exact So|rewrite Forall_forall; exact Fa]|]. rewrite Forall_forall. intros z [<-|Hz]; [exact E|]. exact (Ng z b a (Im' z Hz) Ib Ia (Fa z Hz) E).
Qed.
Definition sq_dist (a b : coord) : Q := inject_Z ((cx a - cx b) * (cx a - cx b) + (cy a - cy b) * (cy a - cy b)).
Lemma sq_sym : symmetric sq_dist.
Proof. intros a b. unfold sq_dist. replace ((cx a - cx b) * (cx a - cx b) + (cy a - cy b) * (cy a - cy b)) with ((cx b - cx a) * (cx b - cx a) + (cy b - cy a) * (cy b - cy a)) by ring. reflexivity. Qed.
Definition ex_cl : clocked := mkCL Cartesian (live 9 9 0) (clocking Cartesian (TWODDWAVE FOUR)).
Definition row_of_dots : list cop := [AssignType (live 0 0 0) 105; AssignType (live 2 0 0) 105; AssignType (live 9 3 0) 111; AssignType (live 0 4 0) 120; AssignType (live 1 4 0) 120; AssignType (live 3 4 0) 120; AssignType (live 6 4 0) 120].
Lemma id_visits : visits (fun m => m). Proof. intros m. reflexivity. Qed.
Lemma rev_visits : visits (@rev coord). Proof. intros m. apply Permutation_sym, Permutation_rev. Qed.
Lemma all_valid ops : forallb (fun o => match o with AssignType c _ => negb (cd c) && (0 <=? cx c) && (cx c <? 1000) && (0 <=? cy c) && (cy c <? 1000) && (cz c =? 0) | _ => true end) ops = true -> valid_cells Offset ops.
Proof.
  intros H c ct Hin. rewrite forallb_forall in H. specialize (H _ Hin). cbn in H. rewrite !andb_true_iff, negb_true_iff, !Z.leb_le, !Z.ltb_lt, Z.eqb_eq in H. destruct H as (((((A & B) & C) & D) & E) & F).
  split; [exact A|]. unfold u_wf, in_u. rewrite F. repeat split; cbn; lia.
Qed.
Example C101_nonvacuous : sorting isort /\ visits (@rev coord) /\ symmetric sq_dist /\ valid_cells Offset row_of_dots /\
  detect_bdl_pairs Offset sq_dist isort (fun m => m) (c_run sidb (c_new ex_cl 1 1) row_of_dots) (mkBP 1 9) None =
    Some [mkBdl 105 (live 0 0 0) (live 2 0 0); mkBdl 120 (live 0 4 0) (live 1 4 0); mkBdl 120 (live 3 4 0) (live 6 4 0)] /\
  detect_bdl_pairs Offset sq_dist isort (fun m => m) (c_run sidb (c_new ex_cl 1 1) row_of_dots) (mkBP 2 9) (Some 120) = Some [mkBdl 120 (live 1 4 0) (live 3 4 0)].
Proof. split; [exact isorts|]. split; [exact rev_visits|]. split; [exact sq_sym|]. split; [apply all_valid; reflexivity|]. split; vm_compute; reflexivity. Qed.

(** With equal distances the result depends on the order of visits: the middle one of three dots goes to either neighbour. *)
Theorem C101_ties_refuted : exists ops r s, valid_cells Offset ops /\ r <> s /\
  detect_bdl_pairs Offset sq_dist isort (fun m => m) (c_run sidb (c_new ex_cl 1 1) ops) (mkBP 1 1) (Some 120) = Some r /\
  detect_bdl_pairs Offset sq_dist isort (@rev coord) (c_run sidb (c_new ex_cl 1 1) ops) (mkBP 1 1) (Some 120) = Some s.
Proof.
  pose (ops := [AssignType (live 0 0 0) 120; AssignType (live 1 0 0) 120; AssignType (live 2 0 0) 120]).
  assert (X : exists u v, option_map (map p_upper) (detect_bdl_pairs Offset sq_dist isort (fun m => m) (c_run sidb (c_new ex_cl 1 1) ops) (mkBP 1 1) (Some 120)) = Some [u] /\
    option_map (map p_upper) (detect_bdl_pairs Offset sq_dist isort (@rev coord) (c_run sidb (c_new ex_cl 1 1) ops) (mkBP 1 1) (Some 120)) = Some [v] /\ cx u <> cx v).
  { eexists _, _. split; [vm_compute; reflexivity|]. split; [vm_compute; reflexivity|]. cbn. lia. }
  destruct X as (u & v & A & B & N). exists ops. destruct (detect_bdl_pairs _ _ _ (fun m => m) _ _ _) as [r|]; [|discriminate A]. destruct (detect_bdl_pairs _ _ _ (@rev coord) _ _ _) as [s|]; [|discriminate B]. exists r, s.
  split; [apply all_valid; reflexivity|]. split; [|split; reflexivity]. intros ->. cbn in A, B. congruence.
Qed.
Print Assumptions C101_ties_refuted.

(** "If omitted, the function will detect BDL pairs for all types": pairs of logic dots are left out. *)
Theorem C101_logic_refuted : exists ops p, valid_cells Offset ops /\ p_type p = 108 /\
  detect_bdl_pairs Offset sq_dist isort (fun m => m) (c_run sidb (c_new ex_cl 1 1) ops) (mkBP 1 9) (Some 108) = Some [p] /\
  detect_bdl_pairs Offset sq_dist isort (fun m => m) (c_run sidb (c_new ex_cl 1 1) ops) (mkBP 1 9) None = Some [].
Proof. exists [AssignType (live 0 0 0) 108; AssignType (live 1 0 0) 108], (mkBdl 108 (live 0 0 0) (live 1 0 0)). split; [apply all_valid; reflexivity|]. split; [reflexivity|]. split; vm_compute; reflexivity. Qed.
Print Assumptions C101_logic_refuted.

(** Two pairs that differ only in type are each greater than the other, and neither is less. *)
Theorem C101_greater_refuted : exists k p q, plive p /\ plive q /\ bdl_gtb k p q = true /\ bdl_gtb k q p = true /\ bdl_ltb k p q = false /\ bdl_ltb k q p = false.
Proof. exists Offset, (mkBdl 105 (live 0 0 0) (live 1 0 0)), (mkBdl 120 (live 0 0 0) (live 1 0 0)). repeat split. Qed.
Print Assumptions C101_greater_refuted.
