(** Lines, and what the reader makes of a file that shows planes of cells. *)
From Coq Require Import ZArith Lia Bool String Ascii List.
From stdpp Require Import gmap list.
From Verif Require Import CoordModel CoordSpec GridModel CoordMap ClockModel CellModel FqcaModel FqcaSpec.
From Coq Require Import List.
Import ListNotations.
Local Open Scope Z_scope.

(** *** Lines *)
Definition unlines (lns : list text) : text := flat_map (fun ln => ln ++ [nl]) lns.
Lemma unlines_app a b : unlines (a ++ b) = unlines a ++ unlines b.
Proof. apply flat_map_app. Qed.
Lemma getlines_line ln : forall acc r, ~ In nl ln -> getlines acc (ln ++ nl :: r) = (rev acc ++ ln) :: getlines [] r.
Proof.
  induction ln as [|c r0 IH]; intros acc r H; simpl.
  - rewrite app_nil_r. reflexivity.
  - destruct (Ascii.eqb_spec c nl) as [E|E]; [exfalso; apply H; left; exact E|].
    rewrite IH by (intros X; apply H; right; exact X). simpl. rewrite <- app_assoc. reflexivity.
Qed.
Lemma getlines_unlines lns : (forall ln, In ln lns -> ~ In nl ln) -> getlines [] (unlines lns) = lns.
Proof.
  induction lns as [|ln r IH]; intros H; [reflexivity|]. cbn [unlines flat_map].
  rewrite <- app_assoc. cbn [app]. rewrite getlines_line by (apply H; left; reflexivity). simpl. f_equal.
  apply IH. intros x Hx. apply H. right. exact Hx.
Qed.

Lemma strip_app a b : strip (a ++ b) = strip a ++ strip b.
Proof. unfold strip. apply List.filter_app. Qed.
Lemma strip_in c t : In c (strip t) <-> In c t /\ is_space c = false.
Proof. unfold strip. rewrite filter_In, negb_true_iff. reflexivity. Qed.
Lemma parse_lines_app k : forall a s n b,
  parse_lines k s n (a ++ b) = (let@ s1 := parse_lines k s n a in parse_lines k s1 (n + Z.of_nat (length a)) b).
Proof.
  induction a as [|x r IH]; intros s n b; cbn [parse_lines app fbind].
  - change (base.length (@nil text)) with O. rewrite Z.add_0_r. reflexivity.
  - destruct (parse_line k s n x); cbn [fbind]; try reflexivity. rewrite IH.
    change (base.length (x :: r)) with (S (base.length r)). replace (n + Z.of_nat (S (length r))) with (n + 1 + Z.of_nat (length r)) by lia. reflexivity.
Qed.
Lemma text_eqb_spec a b : text_eqb a b = true <-> a = b.
Proof. unfold text_eqb. destruct (list_eq_dec ascii_dec a b); split; congruence. Qed.

(** *** Layouts on the default clocking scheme *)
Record glob (l : clayout) : Prop := {
  gl_reg : sc_regular (cl_scheme (c_cl l)) = false;
  gl_num : sc_num (cl_scheme (c_cl l)) = 4;
  gl_fn : sc_fn (cl_scheme (c_cl l)) = (fun _ => 0);
  gl_x : c_tsx l = 1;
  gl_y : c_tsy l = 1
}.
Lemma glob_type l c t : glob l -> glob (assign_cell_type qca l c t).
Proof. intros []. unfold assign_cell_type. destruct (t_is_empty qca t), (t_is_input qca t), (t_is_output qca t); split; assumption. Qed.
Lemma glob_mode l c m : glob l -> glob (assign_cell_mode qca l c m).
Proof. intros []. split; assumption. Qed.
Lemma glob_name l c m : glob l -> glob (assign_cell_name l c m).
Proof. intros []. split; assumption. Qed.
Lemma glob_clock l c n : glob l -> glob (c_assign_clock l c n).
Proof. intros []. split; cbn; auto. Qed.

(** What is stored about a cell. *)
Definition ob (l : clayout) (d : coord) : option Z * option Z * option string * bool * bool * option Z :=
  (c_type l !! d, c_mode l !! d, c_name l !! d, bool_decide (d ∈ c_in l), bool_decide (d ∈ c_out l),
   sc_override (cl_scheme (c_cl l)) !! d).
Definition local (f : clayout -> coord -> clayout) : Prop :=
  (forall l c d, d <> c -> ob (f l c) d = ob l d) /\ (forall l l' d, ob l d = ob l' d -> ob (f l d) d = ob (f l' d) d).

Lemma bool_decide_same (A B : Prop) `{Decision A, Decision B} : (A <-> B) -> bool_decide A = bool_decide B.
Proof. intros E. apply bool_decide_ext. exact E. Qed.

Lemma ob_type l c t d : ob (assign_cell_type qca l c t) d =
  if decide (d = c) then
    (if t_is_empty qca t then None else Some t, if t_is_empty qca t then None else c_mode l !! c, c_name l !! c,
     negb (t_is_empty qca t) && t_is_input qca t, negb (t_is_empty qca t) && negb (t_is_input qca t) && t_is_output qca t,
     sc_override (cl_scheme (c_cl l)) !! c)
  else ob l d.
Proof.
  unfold ob, assign_cell_type. destruct (decide (d = c)) as [->|N];
    destruct (t_is_empty qca t), (t_is_input qca t), (t_is_output qca t); cbn [c_type c_mode c_name c_in c_out c_cl negb andb];
    rewrite ?lookup_insert, ?lookup_delete, ?lookup_insert_ne, ?lookup_delete_ne by congruence;
    repeat (first [rewrite bool_decide_eq_false_2 by set_solver | rewrite bool_decide_eq_true_2 by set_solver]); try reflexivity.
  all: repeat f_equal; apply bool_decide_same; set_solver.
Qed.
Lemma ob_mode l c m d : ob (assign_cell_mode qca l c m) d =
  if decide (d = c) then
    (c_type l !! c, if m =? 0 then None else Some m, c_name l !! c, bool_decide (c ∈ c_in l), bool_decide (c ∈ c_out l),
     sc_override (cl_scheme (c_cl l)) !! c)
  else ob l d.
Proof.
  unfold ob, assign_cell_mode, t_is_normal_mode. cbn [t_modes qca c_type c_mode c_name c_in c_out c_cl].
  destruct (decide (d = c)) as [->|N]; destruct (m =? 0); rewrite ?lookup_insert, ?lookup_delete, ?lookup_insert_ne, ?lookup_delete_ne by congruence; reflexivity.
Qed.
Lemma ob_name l c m d : ob (assign_cell_name l c m) d =
  if decide (d = c) then
    (c_type l !! c, c_mode l !! c, if String.eqb m "" then None else Some m, bool_decide (c ∈ c_in l), bool_decide (c ∈ c_out l),
     sc_override (cl_scheme (c_cl l)) !! c)
  else ob l d.
Proof.
  unfold ob, assign_cell_name. cbn [c_type c_mode c_name c_in c_out c_cl].
  destruct (decide (d = c)) as [->|N]; destruct (String.eqb m ""); rewrite ?lookup_insert, ?lookup_delete, ?lookup_insert_ne, ?lookup_delete_ne by congruence; reflexivity.
Qed.
Lemma ob_clock l c n d : ob (c_assign_clock l c n) d =
  if decide (d = c) then
    (c_type l !! c, c_mode l !! c, c_name l !! c, bool_decide (c ∈ c_in l), bool_decide (c ∈ c_out l),
     Some (n mod sc_num (cl_scheme (c_cl l))))
  else ob l d.
Proof.
  unfold ob, c_assign_clock, assign_clock_number, sc_set. cbn [c_type c_mode c_name c_in c_out c_cl cl_scheme sc_override].
  destruct (decide (d = c)) as [->|N]; rewrite ?lookup_insert, ?lookup_insert_ne by congruence; reflexivity.
Qed.

(** Steps at different cells do not interfere. *)
Definition keeps (f : clayout -> coord -> clayout) : Prop := forall l c, glob l -> glob (f l c).
Definition elsewhere (f : clayout -> coord -> clayout) : Prop := forall l c d, d <> c -> ob (f l c) d = ob l d.
Lemma keeps_fold f : keeps f -> forall cs l, glob l -> glob (fold_left f cs l).
Proof. intros K. induction cs as [|c r IH]; intros l G; [exact G|]. apply IH, K, G. Qed.
Lemma fold_out f : elsewhere f -> forall cs l d, ~ In d cs -> ob (fold_left f cs l) d = ob l d.
Proof.
  intros E. induction cs as [|c r IH]; intros l d N; [reflexivity|]. simpl. rewrite IH by (intros X; apply N; right; exact X).
  apply E. intros ->. apply N. left. reflexivity.
Qed.
Lemma fold_in f : elsewhere f -> keeps f -> forall cs l d, glob l -> List.NoDup cs -> In d cs ->
  exists l0, glob l0 /\ ob l0 d = ob l d /\ ob (fold_left f cs l) d = ob (f l0 d) d.
Proof.
  intros E K. induction cs as [|c r IH]; intros l d G ND Hd; [destruct Hd|]. inversion ND as [|? ? N1 N2]; subst.
  simpl. destruct Hd as [->|Hd].
  - exists l. split; [exact G|]. split; [reflexivity|]. apply fold_out; assumption.
  - destruct (IH (f l c) d (K _ _ G) N2 Hd) as (l0 & G0 & O0 & O1). exists l0. split; [exact G0|]. split; [|exact O1].
    rewrite O0. apply E. intros ->. contradiction.
Qed.

(** *** Planes of cells *)
Section Planes.
  Variable k : kind.
  Hypothesis k_qca : k <> Siqad.
  Variable chr : coord -> ascii.
  Variables W H P : nat.
  Hypothesis W_ok : (0 < W)%nat /\ Z.of_nat W <= 2 ^ 31.
  Hypothesis H_ok : Z.of_nat H <= 2 ^ 31.
  Hypothesis P_ok : Z.of_nat P <= match k with Offset => 2 | _ => 2 ^ 31 end.
  Definition good_char (c : ascii) : Prop := c = " "%char \/ is_digit c = true \/ is_alpha c = true \/ c = "-"%char \/ c = "+"%char.
  Hypothesis good : forall c, good_char (chr c).

  Definition zs (n : nat) : list Z := map Z.of_nat (seq 0 n).
  Definition row_cells (y p : Z) : list coord := map (fun x => live x y p) (zs W).
  Definition plane_cells (p : Z) : list coord := flat_map (fun y => row_cells y p) (zs H).
  Definition all_cells : list coord := flat_map plane_cells (zs P).

  Definition row_text (y p : Z) : text := flat_map (fun x => [chr (live x y p); " "%char]) (zs W).
  Definition sep_text : text := flat_map (fun _ => str "= ") (zs W).
  Definition plane_lines (p : Z) : list text := sep_text :: map (fun y => row_text y p) (zs H).

  Definition dval (c : ascii) : Z := Z.of_nat (nat_of_ascii c) mod 4.
  Definition cell_step (l : clayout) (c : coord) : clayout :=
    let a := chr c in
    if is_space a then l
    else
      let l1 := if is_digit a then c_assign_clock (assign_cell_type qca l c q_normal) c (dval a)
                else if is_alpha a then assign_cell_type qca l c q_normal
                else if Ascii.eqb a "-" then assign_cell_type qca l c q_const0
                else assign_cell_type qca l c q_const1 in
      if cz c =? 0 then l1 else if Z.rem (cz c) 2 =? 0 then assign_cell_mode qca l1 c m_crossover else assign_cell_mode qca l1 c m_vertical.
  Definition max_step (m c : coord) : coord := if is_space (chr c) then m else grow m c.
  Definition map_step (m : list (ascii * coord)) (c : coord) : list (ascii * coord) :=
    if is_space (chr c) then m else if is_digit (chr c) then m else if is_alpha (chr c) then (chr c, c) :: m else m.
  Definition core := (clayout * coord * list (ascii * coord))%type.
  Definition core_step (s : core) (c : coord) : core :=
    (cell_step (fst (fst s)) c, max_step (snd (fst s)) c, map_step (snd s) c).
  Definition state (s : core) (layer row : Z) : rst := mkR (fst (fst s)) false layer row (snd (fst s)) dead0 (snd s).

  Lemma cell_step_glob : keeps cell_step.
  Proof.
    intros l c G. unfold cell_step. destruct (is_space (chr c)); [exact G|]. cbv zeta.
    destruct (cz c =? 0), (Z.rem (cz c) 2 =? 0), (is_digit (chr c)), (is_alpha (chr c)), (Ascii.eqb (chr c) "-"); repeat (first [apply glob_mode|apply glob_clock|apply glob_type]); exact G.
  Qed.
  Lemma cell_step_elsewhere : elsewhere cell_step.
  Proof.
    intros l c d N. unfold cell_step. destruct (is_space (chr c)); [reflexivity|]. cbv zeta.
    destruct (cz c =? 0), (Z.rem (cz c) 2 =? 0), (is_digit (chr c)), (is_alpha (chr c)), (Ascii.eqb (chr c) "-");
      rewrite ?ob_mode, ?ob_clock, ?ob_type, ?(decide_False (P := d = c)) by exact N; rewrite ?ob_clock, ?ob_type, ?(decide_False (P := d = c)) by exact N; rewrite ?ob_type, ?(decide_False (P := d = c)) by exact N; reflexivity.
  Qed.

  Lemma parse_cell_ok s layer row c : glob (fst (fst s)) -> parse_cell (state s layer row) (chr c) c = FOk (state (core_step s c) layer row).
  Proof using good.
    intros G. unfold parse_cell, core_step, cell_step, max_step, map_step, state. cbn [r_lyt r_map r_defs r_layer r_row r_max r_cur fst snd].
    destruct (is_space (chr c)) eqn:Es; [destruct s as [[l m] p]; reflexivity|].
    assert (D : to_clock_number (assign_cell_type qca (fst (fst s)) c q_normal) (chr c) = dval (chr c)).
    { unfold to_clock_number, dval, num_clocks. rewrite (gl_num _ (glob_type _ c q_normal G)). reflexivity. }
    rewrite D. destruct (is_digit (chr c)) eqn:Ed; [reflexivity|]. destruct (is_alpha (chr c)) eqn:Ea; [reflexivity|].
    destruct (good c) as [X|[X|[X|[X|X]]]]; try congruence.
    - rewrite X in Es. discriminate.
    - rewrite X. reflexivity.
    - rewrite X. reflexivity.
  Qed.

  Lemma to_cell_ok x y p : 0 <= x < 2 ^ 31 -> 0 <= y < 2 ^ 31 -> 0 <= p < Z.of_nat P -> to_cell k x y p = live x y p.
  Proof using k_qca P_ok.
    clear W_ok H_ok. intros Hx Hy Hp. unfold to_cell, to_i32. destruct k; [| |congruence].
    - rewrite !Z.mod_small by lia. reflexivity.
    - rewrite !Z.mod_small by lia. f_equal; lia.
  Qed.

  Lemma core_glob cs : forall s, glob (fst (fst s)) -> glob (fst (fst (fold_left core_step cs s))).
  Proof. induction cs as [|c r IH]; intros s G; [exact G|]. apply IH. apply cell_step_glob. exact G. Qed.

  Lemma parse_row_ok y p : 0 <= y < 2 ^ 31 -> 0 <= p < Z.of_nat P -> Z.of_nat P <= 2 ^ 31 -> forall n a s,
    glob (fst (fst s)) -> Z.of_nat (a + n) <= 2 ^ 31 ->
    parse_row k (state s (p + 1) y) (flat_map (fun x => [chr (live x y p); " "%char]) (map Z.of_nat (seq a n))) (Z.of_nat a) =
    FOk (state (fold_left core_step (map (fun x => live x y p) (map Z.of_nat (seq a n))) s) (p + 1) y).
  Proof using k_qca P_ok good.
    clear W_ok H_ok. intros Hy Hp HP. induction n as [|n IH]; intros a s G Ha; [reflexivity|].
    cbn [seq map flat_map app parse_row fold_left].
    assert (E : to_cell k (Z.of_nat a) (r_row (state s (p + 1) y)) ((r_layer (state s (p + 1) y) - 1) mod 2 ^ 64) = live (Z.of_nat a) y p).
    { cbn [state r_row r_layer]. rewrite Z.mod_small by lia. replace (p + 1 - 1) with p by lia. apply to_cell_ok; lia. }
    rewrite E, parse_cell_ok by exact G. cbn [fbind]. replace (Z.of_nat a + 1) with (Z.of_nat (S a)) by lia.
    apply IH; [apply cell_step_glob; exact G|lia].
  Qed.

  Lemma in_row a y p : In a (row_text y p) -> a = " "%char \/ exists x, a = chr (live x y p).
  Proof. unfold row_text. intros Hi. apply in_flat_map in Hi. destruct Hi as (x & _ & [<-|[<-|[]]]); [right; exists x; reflexivity|left; reflexivity]. Qed.
  Lemma row_not_empty y p : row_text y p <> [].
  Proof using W_ok. clear H_ok P_ok. unfold row_text, zs. destruct W as [|n]; [lia|]. discriminate. Qed.
  Lemma row_char y p a : In a (strip (row_text y p)) -> is_digit a = true \/ is_alpha a = true \/ a = "-"%char \/ a = "+"%char.
  Proof using good.
    intros Hi. apply strip_in in Hi as [Hi Hs]. destruct (in_row _ _ _ Hi) as [->|(x & ->)]; [discriminate|].
    destruct (good (live x y p)) as [E|E]; [rewrite E in Hs; discriminate|exact E].
  Qed.
  Lemma row_not_char y p c : is_digit c = false -> is_alpha c = false -> c <> "-"%char -> c <> "+"%char -> ~ In c (strip (row_text y p)).
  Proof using good. intros H1 H2 H3 H4 Hi. destruct (row_char _ _ _ Hi) as [E|[E|[E|E]]]; congruence. Qed.
  Lemma row_comment y p : re_comment (strip (row_text y p)) = false.
  Proof using good.
    unfold re_comment. pose proof (row_not_char y p "["%char eq_refl eq_refl ltac:(discriminate) ltac:(discriminate)) as N.
    destruct (strip (row_text y p)) as [|c r]; [reflexivity|]. change (str "[") with ["["%char]. cbn [after].
    destruct (Ascii.eqb_spec "[" c) as [E|E]; [|reflexivity]. exfalso. apply N. left. congruence.
  Qed.
  Lemma row_separator y p : re_layer_separator (strip (row_text y p)) = false.
  Proof using good.
    pose proof (row_not_char y p "="%char eq_refl eq_refl ltac:(discriminate) ltac:(discriminate)) as N.
    unfold re_layer_separator. destruct (strip (row_text y p)) as [|c r]; [reflexivity|]. cbn [forallb].
    destruct (Ascii.eqb_spec c "=") as [E|E]; [|reflexivity]. exfalso. apply N. left. congruence.
  Qed.
  Lemma row_dollar y p : text_eqb (strip (row_text y p)) (str "$") = false.
  Proof using good.
    pose proof (row_not_char y p "$"%char eq_refl eq_refl ltac:(discriminate) ltac:(discriminate)) as N.
    destruct (text_eqb _ _) eqn:E; [|reflexivity]. apply text_eqb_spec in E. exfalso. apply N. rewrite E. left. reflexivity.
  Qed.

  Lemma parse_row_line s y p n : glob (fst (fst s)) -> 0 <= y < 2 ^ 31 -> 0 <= p < Z.of_nat P -> Z.of_nat P <= 2 ^ 31 ->
    parse_line k (state s (p + 1) y) n (row_text y p) = FOk (state (fold_left core_step (row_cells y p) s) (p + 1) (y + 1)).
  Proof using k_qca P_ok good W_ok.
    clear H_ok. intros G Hy Hp HP. unfold parse_line. pose proof (row_not_empty y p) as NE. destruct (row_text y p) as [|c0 r0] eqn:Er; [congruence|].
    rewrite <- Er. clear NE. cbn [r_defs state]. rewrite row_comment, row_separator, row_dollar.
    pose proof (parse_row_ok y p Hy Hp HP W 0%nat s G ltac:(simpl; lia)) as R. change (Z.of_nat 0) with 0 in R. unfold row_text, row_cells, zs.
    change (mkR (fst (fst s)) false (p + 1) y (snd (fst s)) dead0 (snd s)) with (state s (p + 1) y). rewrite R. cbn [fbind].
    unfold state at 1. cbn [r_lyt r_defs r_layer r_row r_max r_cur r_map state]. rewrite Z.mod_small by lia. reflexivity.
  Qed.

  Lemma sep_strip : strip sep_text = map (fun _ => "="%char) (zs W).
  Proof. unfold sep_text. induction (zs W) as [|x r IH]; [reflexivity|]. cbn [flat_map map]. rewrite strip_app, IH. reflexivity. Qed.
  Lemma sep_line s row n : forall p, 0 <= p < 2 ^ 32 -> parse_line k (state s p row) n sep_text = FOk (state s (p + 1) 0).
  Proof using W_ok.
    clear H_ok P_ok. intros p Hp. unfold parse_line. destruct sep_text as [|c0 r0] eqn:Er.
    { exfalso. revert Er. unfold sep_text, zs. destruct W; [lia|]. discriminate. }
    rewrite <- Er. cbn [r_defs state]. rewrite sep_strip.
    assert (E1 : re_comment (map (fun _ : Z => "="%char) (zs W)) = false).
    { unfold zs. destruct W; [lia|]. reflexivity. }
    assert (E2 : re_layer_separator (map (fun _ : Z => "="%char) (zs W)) = true).
    { unfold re_layer_separator. destruct (map (fun _ : Z => "="%char) (zs W)) eqn:E.
      - revert E. unfold zs. destruct W; [lia|discriminate].
      - rewrite <- E. apply forallb_forall. intros b Hb. apply in_map_iff in Hb. destruct Hb as (? & <- & _). reflexivity. }
    rewrite E1, E2. unfold state. cbn [r_lyt r_layer r_max r_cur r_map]. rewrite Z.mod_small by lia. reflexivity.
  Qed.

  Lemma rows_ok p : 0 <= p < Z.of_nat P -> Z.of_nat P <= 2 ^ 31 -> forall n a s i, glob (fst (fst s)) -> Z.of_nat (a + n) <= 2 ^ 31 ->
    parse_lines k (state s (p + 1) (Z.of_nat a)) i (map (fun y => row_text y p) (map Z.of_nat (seq a n))) =
    FOk (state (fold_left core_step (flat_map (fun y => row_cells y p) (map Z.of_nat (seq a n))) s) (p + 1) (Z.of_nat (a + n))).
  Proof using k_qca P_ok good W_ok.
    clear H_ok. intros Hp HP. induction n as [|n IH]; intros a s i G Ha.
    - cbn [seq map flat_map parse_lines fold_left]. rewrite Nat.add_0_r. reflexivity.
    - cbn [seq map flat_map parse_lines]. rewrite parse_row_line by (try assumption; lia). cbn [fbind].
      replace (Z.of_nat a + 1) with (Z.of_nat (S a)) by lia. rewrite IH by (try (apply core_glob; assumption); lia).
      rewrite fold_left_app. replace (S a + n)%nat with (a + S n)%nat by lia. reflexivity.
  Qed.
  Lemma planes_ok : Z.of_nat P <= 2 ^ 31 -> forall n a s i row, glob (fst (fst s)) -> (a + n <= P)%nat ->
    exists row', parse_lines k (state s (Z.of_nat a) row) i (flat_map plane_lines (map Z.of_nat (seq a n))) =
    FOk (state (fold_left core_step (flat_map plane_cells (map Z.of_nat (seq a n))) s) (Z.of_nat (a + n)) row').
  Proof using k_qca P_ok good W_ok H_ok.
    intros HP. induction n as [|n IH]; intros a s i row G Ha.
    - exists row. cbn [seq map flat_map parse_lines fold_left]. rewrite Nat.add_0_r. reflexivity.
    - cbn [seq map flat_map]. unfold plane_lines at 1. cbn [app parse_lines]. rewrite sep_line by lia. cbn [fbind].
      rewrite parse_lines_app. pose proof (rows_ok (Z.of_nat a) ltac:(lia) HP H 0 s (i + 1) G ltac:(simpl; lia)) as R.
      change (Z.of_nat 0) with 0 in R. unfold zs at 1. rewrite R. cbn [fbind]. clear R.
      replace (Z.of_nat a + 1) with (Z.of_nat (S a)) by lia.
      destruct (IH (S a) (fold_left core_step (flat_map (fun y => row_cells y (Z.of_nat a)) (map Z.of_nat (seq 0 H))) s)
        (i + 1 + Z.of_nat (length (map (fun y => row_text y (Z.of_nat a)) (zs H)))) (Z.of_nat (0 + H)) ltac:(apply core_glob; assumption) ltac:(lia)) as (row' & E).
      exists row'. rewrite E. rewrite fold_left_app. replace (S a + n)%nat with (a + S n)%nat by lia. reflexivity.
  Qed.
End Planes.
