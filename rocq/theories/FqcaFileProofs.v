(** The FQCA reader accepts exactly the FQCA files. *)
From Coq Require Import ZArith Lia Bool String Ascii List.
From stdpp Require Import gmap list.
From Verif Require Import CoordModel CoordSpec GridModel CoordMap ClockModel CellModel FqcaModel FqcaFile.
From Coq Require Import List.
Import ListNotations.
Local Open Scope Z_scope.

Lemma space_white c : is_space c = true <-> white c.
Proof.
  unfold is_space, FglModel.is_space, white. cbv zeta. generalize (nat_of_ascii c). intros n. rewrite orb_true_iff, andb_true_iff, Nat.eqb_eq, !Nat.leb_le.
  cbn [In]. lia.
Qed.
Lemma digit_b c : is_digit c = existsb (Ascii.eqb c) (str "0123456789").
Proof. destruct c as [[] [] [] [] [] [] [] []]; vm_compute; reflexivity. Qed.
Lemma digit_iff c : is_digit c = true <-> digit c.
Proof.
  rewrite digit_b, existsb_exists. unfold digit. split.
  - intros (d & Hd & E). apply Ascii.eqb_eq in E. subst d. exact Hd.
  - intros H. exists c. split; [exact H|apply Ascii.eqb_refl].
Qed.
Lemma letter_b c : is_alpha c = existsb (Ascii.eqb c) alphabet.
Proof. destruct c as [[] [] [] [] [] [] [] []]; vm_compute; reflexivity. Qed.
Lemma letter_iff c : is_alpha c = true <-> letter c.
Proof.
  rewrite letter_b, existsb_exists. unfold letter. fold alphabet. split.
  - intros (d & Hd & E). apply Ascii.eqb_eq in E. subst d. exact Hd.
  - intros H. exists c. split; [exact H|apply Ascii.eqb_refl].
Qed.
Lemma bare_strip t : bare t (strip t).
Proof.
  induction t as [|c t IH]; [constructor|]. unfold strip in *. cbn [List.filter]. destruct (is_space c) eqn:E; cbn [negb].
  - constructor; [apply space_white; exact E|exact IH].
  - constructor; [rewrite <- space_white, E; discriminate|exact IH].
Qed.
Lemma bare_eq t u : bare t u <-> u = strip t.
Proof.
  split; [|intros ->; apply bare_strip]. induction 1 as [|c t u H _ IH|c t u H _ IH]; [reflexivity| |]; unfold strip in *; cbn [List.filter].
  - apply space_white in H. rewrite H. exact IH.
  - rewrite <- space_white in H. destruct (is_space c); [congruence|]. cbn [negb]. f_equal. exact IH.
Qed.

Lemma after_iff p : forall t r, after p t = Some r <-> t = p ++ r.
Proof.
  induction p as [|a p IH]; intros t r; cbn [after app]; [split; intros H; [injection H as ->|subst]; reflexivity|].
  destruct t as [|b t]; [split; discriminate|]. destruct (Ascii.eqb_spec a b) as [<-|N].
  - rewrite IH. split; [intros ->; reflexivity|intros H; injection H as ->; reflexivity].
  - split; [discriminate|]. intros H. injection H as E _. congruence.
Qed.
Lemma before_last_iff c t r : before_last c t = Some r <-> t = r ++ [c].
Proof.
  unfold before_last. destruct (rev t) as [|d q] eqn:E.
  - apply (f_equal (@rev ascii)) in E. rewrite rev_involutive in E. subst t. split; [discriminate|]. intros H. destruct r; discriminate.
  - apply (f_equal (@rev ascii)) in E. rewrite rev_involutive in E. cbn [rev] in E. subst t. destruct (Ascii.eqb_spec d c) as [->|N].
    + split; [intros H; injection H as <-; reflexivity|]. intros H. apply app_inj_tail in H. destruct H as [<- _]. reflexivity.
    + split; [discriminate|]. intros H. apply app_inj_tail in H. destruct H as [_ E]. congruence.
Qed.
Lemma comment_iff line : re_comment (strip line) = true <-> comment line.
Proof.
  unfold re_comment, comment. destruct (after (str "[") (strip line)) as [r|] eqn:E.
  - apply after_iff in E. destruct (before_last "]" r) as [q|] eqn:E'.
    + apply before_last_iff in E'. subst r. split; [|reflexivity]. intros _. exists q. apply bare_eq. symmetry. exact E.
    + split; [discriminate|]. intros [x Hx]. apply bare_eq in Hx. rewrite E in Hx. apply app_inv_head in Hx. symmetry in Hx. apply before_last_iff in Hx. congruence.
  - split; [discriminate|]. intros [x Hx]. apply bare_eq in Hx. symmetry in Hx. apply after_iff in Hx. congruence.
Qed.
Lemma separator_iff line : re_layer_separator (strip line) = true <-> separator line.
Proof.
  unfold separator, re_layer_separator. split.
  - intros H. destruct (strip line) as [|c r] eqn:E; [discriminate|]. exists (length r). apply bare_eq. rewrite E.
    rewrite forallb_forall in H. clear E. cbn [repeat]. rewrite (proj1 (Ascii.eqb_eq c "=") (H c (or_introl eq_refl))). f_equal.
    assert (H' : forall x, In x r -> Ascii.eqb x "=" = true) by (intros x X; apply H; right; exact X). clear H.
    induction r as [|a r IH]; [reflexivity|]. cbn [length repeat]. rewrite (proj1 (Ascii.eqb_eq a "=") (H' a (or_introl eq_refl))). f_equal.
    apply IH. intros x X. apply H'. right. exact X.
  - intros [n Hn]. apply bare_eq in Hn. rewrite <- Hn. change (forallb (fun c => Ascii.eqb c "=") (repeat "="%char (S n)) = true).
    apply forallb_forall. intros x X. apply repeat_spec in X. subst x. reflexivity.
Qed.
Lemma text_eqb_iff a b : text_eqb a b = true <-> a = b.
Proof. unfold text_eqb. destruct (list_eq_dec ascii_dec a b); split; congruence. Qed.
Lemma end_iff line : text_eqb (strip line) (str "$") = true <-> section_end line.
Proof. rewrite text_eqb_iff. unfold section_end. rewrite bare_eq. split; congruence. Qed.

Fixpoint evens (t : text) : text := match t with [] => [] | [c] => [c] | c :: _ :: r => c :: evens r end.
Lemma evens_iff t c : cell_char t c <-> In c (evens t).
Proof.
  unfold cell_char. revert t. fix IH 1. intros [|a [|b r]]; cbn [evens].
  - split; [intros [[|i] Hi]; [discriminate|]|intros []]. replace (2 * S i)%nat with (S (S (2 * i))) in Hi by lia. discriminate.
  - split.
    + intros [[|i] Hi]; [injection Hi as ->; left; reflexivity|]. replace (2 * S i)%nat with (S (S (2 * i))) in Hi by lia. cbn in Hi. destruct (2 * i)%nat; discriminate.
    + intros [->|[]]. exists 0%nat. reflexivity.
  - split.
    + intros [[|i] Hi]; [injection Hi as ->; left; reflexivity|]. right. apply IH. exists i. replace (2 * S i)%nat with (S (S (2 * i))) in Hi by lia. exact Hi.
    + intros [->|Hi]; [exists 0%nat; reflexivity|]. apply IH in Hi. destruct Hi as [i Hi]. exists (S i). replace (2 * S i)%nat with (S (S (2 * i))) by lia. exact Hi.
Qed.

Definition char_ok (c : ascii) : bool := is_space c || is_digit c || is_alpha c || Ascii.eqb c "-" || Ascii.eqb c "+".
Lemma char_ok_iff c : char_ok c = true <-> white c \/ digit c \/ letter c \/ c = "-"%char \/ c = "+"%char.
Proof. unfold char_ok. rewrite !orb_true_iff, space_white, digit_iff, letter_iff, !Ascii.eqb_eq. tauto. Qed.
Lemma row_iff line : row line <-> forallb char_ok (evens line) = true.
Proof.
  unfold row. rewrite forallb_forall. split; intros H c Hc; apply char_ok_iff, H.
  - apply evens_iff. exact Hc.
  - apply evens_iff. exact Hc.
Qed.

(** What a cell and a row do to the labels. *)
Lemma letter_not_space c : is_alpha c = true -> is_space c = false /\ is_digit c = false.
Proof. destruct c as [[] [] [] [] [] [] [] []]; vm_compute; intros H; try discriminate H; split; reflexivity. Qed.
Lemma parse_cell_ok s ch c :
  if char_ok ch then exists s', parse_cell s ch c = FOk s' /\ r_defs s' = r_defs s /\
    forall x, In x (map fst (r_map s')) <-> (is_alpha x = true /\ x = ch) \/ In x (map fst (r_map s))
  else exists e, parse_cell s ch c = UnsupportedCharacter e.
Proof.
  unfold char_ok, parse_cell. destruct (is_space ch) eqn:E1; cbn [orb].
  { exists s. split; [reflexivity|]. split; [reflexivity|]. intros x. split; [tauto|]. intros [[H ->]|H]; [|exact H]. apply letter_not_space in H. destruct H. congruence. }
  destruct (is_digit ch) eqn:E2; cbn [orb fbind].
  { eexists. split; [reflexivity|]. split; [reflexivity|]. intros x. cbn [r_map]. split; [tauto|]. intros [[H ->]|H]; [|exact H]. apply letter_not_space in H. destruct H. congruence. }
  destruct (is_alpha ch) eqn:E3; cbn [orb fbind].
  { eexists. split; [reflexivity|]. split; [reflexivity|]. intros x. cbn [r_map map fst In]. split; [intros [<-|H]; [left; auto|right; exact H]|intros [[_ ->]|H]; auto]. }
  assert (G : forall l, exists s', FOk (mkR l (r_defs s) (r_layer s) (r_row s) (grow (r_max s) c) (r_cur s) (r_map s)) = FOk s' /\ r_defs s' = r_defs s /\
    forall x, In x (map fst (r_map s')) <-> (is_alpha x = true /\ x = ch) \/ In x (map fst (r_map s))).
  { intros l. eexists. split; [reflexivity|]. split; [reflexivity|]. intros x. cbn [r_map]. split; [tauto|]. intros [[H ->]|H]; [congruence|exact H]. }
  destruct (Ascii.eqb ch "-"); cbn [orb fbind]; [apply G|]. destruct (Ascii.eqb ch "+"); cbn [orb fbind]; [apply G|]. exists ch. reflexivity.
Qed.
Lemma parse_row_ok k : forall line s col,
  if forallb char_ok (evens line) then exists s', parse_row k s line col = FOk s' /\ r_defs s' = r_defs s /\
    forall x, In x (map fst (r_map s')) <-> (is_alpha x = true /\ In x (evens line)) \/ In x (map fst (r_map s))
  else exists e, parse_row k s line col = UnsupportedCharacter e.
Proof.
  fix IH 1. intros [|a [|b r]] s col; cbn [evens forallb parse_row].
  - exists s. split; [reflexivity|]. split; [reflexivity|]. intros x. cbn [In]. tauto.
  - rewrite andb_true_r. pose proof (parse_cell_ok s a (to_cell k col (r_row s) ((r_layer s - 1) mod 2 ^ 64))) as P. destruct (char_ok a); [|exact P].
    destruct P as (s' & E & D & M). exists s'. split; [exact E|]. split; [exact D|]. intros x. rewrite M. cbn [In]. intuition congruence.
  - pose proof (parse_cell_ok s a (to_cell k col (r_row s) ((r_layer s - 1) mod 2 ^ 64))) as P. destruct (char_ok a); cbn [andb].
    2: { destruct P as (e & E). exists e. rewrite E. reflexivity. }
    destruct P as (s1 & E & D & M). rewrite E. cbn [fbind]. specialize (IH r s1 (col + 1)). destruct (forallb char_ok (evens r)); [|exact IH].
    destruct IH as (s' & E' & D' & M'). exists s'. split; [exact E'|]. split; [congruence|]. intros x. rewrite M', M. cbn [In]. intuition congruence.
Qed.

(** The first section. *)
Definition labels (line : text) : text := if re_comment (strip line) || re_layer_separator (strip line) then [] else List.filter is_alpha (evens line).
Definition line_ok (line : text) : bool := re_comment (strip line) || re_layer_separator (strip line) || forallb char_ok (evens line).
Lemma line_ok_iff line : line_ok line = true <-> comment line \/ separator line \/ row line.
Proof. unfold line_ok. rewrite !orb_true_iff, comment_iff, separator_iff, <- row_iff. tauto. Qed.
Lemma label_of_iff A c : label_of A c <-> In c (flat_map labels A).
Proof.
  rewrite in_flat_map. unfold label_of, labels. split.
  - intros (ln & H1 & H2 & H3 & H4 & H5). exists ln. split; [exact H1|]. rewrite <- comment_iff in H2. rewrite <- separator_iff in H3.
    destruct (re_comment (strip ln)); [congruence|]. destruct (re_layer_separator (strip ln)); [congruence|]. cbn [orb].
    apply filter_In. rewrite letter_iff. split; [apply evens_iff; exact H5|exact H4].
  - intros (ln & H1 & H2). exists ln. split; [exact H1|]. rewrite <- comment_iff, <- separator_iff.
    destruct (re_comment (strip ln)); [destruct H2|]. destruct (re_layer_separator (strip ln)); [destruct H2|]. cbn [orb] in H2.
    apply filter_In in H2. rewrite letter_iff in H2. destruct H2 as [H2 H2']. split; [discriminate|]. split; [discriminate|]. split; [exact H2'|]. apply evens_iff. exact H2.
Qed.
Lemma parse_line_first k s n line : r_defs s = false -> text_eqb (strip line) (str "$") = false ->
  if line_ok line then exists s', parse_line k s n line = FOk s' /\ r_defs s' = false /\
    forall x, In x (map fst (r_map s')) <-> In x (labels line) \/ In x (map fst (r_map s))
  else exists e, parse_line k s n line = UnsupportedCharacter e.
Proof.
  intros D NE. unfold line_ok, labels, parse_line. rewrite D. destruct line as [|a r].
  { cbn. exists s. split; [reflexivity|]. split; [exact D|]. intros x. cbn [In]. tauto. }
  destruct (re_comment (strip (a :: r))); cbn [orb].
  { exists s. split; [reflexivity|]. split; [exact D|]. intros x. cbn [In]. tauto. }
  destruct (re_layer_separator (strip (a :: r))); cbn [orb].
  { eexists. split; [reflexivity|]. split; [reflexivity|]. intros x. cbn [r_map In]. tauto. }
  rewrite NE. pose proof (parse_row_ok k (a :: r) s 0) as P. destruct (forallb char_ok (evens (a :: r))).
  - destruct P as (s' & E & D' & M). rewrite E. cbn [fbind]. eexists. split; [reflexivity|]. cbn [r_defs r_map]. split; [congruence|].
    intros x. rewrite M, filter_In. tauto.
  - destruct P as (e & E). rewrite E. exists e. reflexivity.
Qed.
Lemma parse_line_end k s n line : r_defs s = false -> text_eqb (strip line) (str "$") = true ->
  exists s', parse_line k s n line = FOk s' /\ r_defs s' = true /\ r_map s' = r_map s.
Proof.
  intros D E. unfold parse_line. rewrite D. pose proof E as E'. apply text_eqb_iff in E'. destruct line as [|a r]; [discriminate|]. rewrite E'.
  eexists. split; [reflexivity|]. split; reflexivity.
Qed.

(** The second section. *)
Lemma word_letter m c : (forall x, In x (map fst m) -> is_alpha x = true) -> find_label m c <> None -> is_alpha c = true.
Proof.
  intros H F. unfold find_label in F. destruct (List.find _ m) as [p|] eqn:E; [|congruence]. apply find_some in E. destruct E as [E1 E2].
  apply Ascii.eqb_eq in E2. subst c. apply H. apply in_map. exact E1.
Qed.
Lemma find_label_iff m c : find_label m c <> None <-> In c (map fst m).
Proof.
  unfold find_label. split.
  - destruct (List.find _ m) as [p|] eqn:E; [|congruence]. intros _. apply find_some in E. destruct E as [E1 E2]. apply Ascii.eqb_eq in E2. subst c. apply in_map. exact E1.
  - intros H. apply in_map_iff in H. destruct H as (p & Ep & Hp). destruct (List.find _ m) as [q|] eqn:E; [discriminate|].
    pose proof (find_none _ _ E p Hp) as X. cbn beta in X. rewrite Ep, Ascii.eqb_refl in X. discriminate.
Qed.
Lemma digits_iff t : forallb is_digit t = true <-> Forall digit t.
Proof. rewrite forallb_forall, List.Forall_forall. split; intros H x Hx; apply digit_iff, H, Hx. Qed.
Lemma skip_digits_split t : exists ds, t = ds ++ skip_digits t /\ Forall digit ds /\ match skip_digits t with c :: _ => is_digit c = false | [] => True end.
Proof.
  induction t as [|c t (ds & E & F & N)]; [exists []; split; [reflexivity|]; split; [constructor|exact I]|]. cbn [skip_digits].
  destruct (is_digit c) eqn:D.
  - exists (c :: ds). split; [cbn [app]; f_equal; exact E|]. split; [constructor; [apply digit_iff; exact D|exact F]|exact N].
  - exists []. split; [reflexivity|]. split; [constructor|exact D].
Qed.
Lemma skip_digits_app ds r : Forall digit ds -> skip_digits (ds ++ r) = skip_digits r.
Proof. induction 1 as [|c ds H _ IH]; [reflexivity|]. cbn [app skip_digits]. apply digit_iff in H. rewrite H. exact IH. Qed.
Lemma frac_iff u : match u with [] => true | c :: r => Ascii.eqb c "." && match r with [] => false | _ => forallb is_digit r end end = true <->
  (u = [] \/ exists d fs, u = str "." ++ d :: fs /\ Forall digit (d :: fs)).
Proof.
  destruct u as [|c r]; [split; [left; reflexivity|reflexivity]|]. rewrite andb_true_iff, Ascii.eqb_eq. split.
  - intros [-> H]. right. destruct r as [|d fs]; [discriminate|]. exists d, fs. split; [reflexivity|]. apply digits_iff. exact H.
  - intros [H|(d & fs & E & F)]; [discriminate|]. cbn in E. injection E as -> ->. split; [reflexivity|]. apply digits_iff. exact F.
Qed.
Lemma decimal_iff t : re_decimal t = true <-> decimal t.
Proof.
  unfold re_decimal, decimal. split.
  - intros H. assert (E : exists sign u, t = sign ++ u /\ (sign = [] \/ sign = str "-") /\
      u = match t with c :: r => if Ascii.eqb c "-" then r else t | [] => [] end).
    { destruct t as [|c r]; [exists [], []; auto|]. destruct (Ascii.eqb_spec c "-") as [->|N]; [exists (str "-"), r; auto|exists [], (c :: r); auto]. }
    destruct E as (sign & u & -> & Hs & Eu). rewrite <- Eu in H. destruct (skip_digits_split u) as (ds & Ed & F & _).
    exists sign, ds, (skip_digits u). split; [f_equal; exact Ed|]. split; [exact Hs|]. split; [exact F|]. apply frac_iff. exact H.
  - intros (sign & ds & frac & -> & Hs & F & Hf).
    assert (E : match sign ++ ds ++ frac with c :: r => if Ascii.eqb c "-" then r else sign ++ ds ++ frac | [] => [] end = ds ++ frac).
    { destruct Hs as [-> | ->]; [|reflexivity]. cbn [app]. destruct ds as [|d ds].
      - cbn [app]. destruct Hf as [->|(d & fs & -> & _)]; reflexivity.
      - cbn [app]. assert (Hd : digit d) by (inversion F; assumption). destruct (Ascii.eqb_spec d "-") as [->|N]; [|reflexivity].
        apply digit_iff in Hd. discriminate. }
    rewrite E. rewrite skip_digits_app by exact F. destruct Hf as [->|(d & fs & -> & F')]; [reflexivity|].
    change (str "." ++ d :: fs) with ("."%char :: d :: fs). cbn [skip_digits]. change (is_digit "."%char) with false. cbv iota. change (Ascii.eqb "." ".") with true. cbn [andb].
    apply digits_iff. exact F'.
Qed.
Lemma split_commas_spec t : forall acc, exists p ps, split_commas acc t = p :: ps /\
  rev acc ++ t = fold_left (fun a b => a ++ str "," ++ b) ps p.
Proof.
  induction t as [|c t IH]; intros acc; cbn [split_commas].
  - exists (rev acc), []. split; [reflexivity|]. rewrite app_nil_r. reflexivity.
  - destruct (Ascii.eqb_spec c ",") as [->|N].
    + destruct (IH []) as (p & ps & E & Ht). exists (rev acc), (p :: ps). rewrite E. split; [reflexivity|]. cbn [fold_left]. cbn [rev app] in Ht.
      rewrite Ht. clear. change ((rev acc) ++ ","%char :: fold_left (fun a b => a ++ str "," ++ b) ps p) with (rev acc ++ str "," ++ fold_left (fun a b => a ++ str "," ++ b) ps p).
      revert p. induction ps as [|q ps IH]; intros p; [reflexivity|]. cbn [fold_left]. rewrite IH. rewrite <- !app_assoc. reflexivity.
    + destruct (IH (c :: acc)) as (p & ps & E & Ht). exists p, ps. split; [exact E|]. rewrite <- Ht. cbn [rev]. rewrite <- app_assoc. reflexivity.
Qed.
Lemma split_no_comma u : forall acc, ~ In ","%char u -> split_commas acc u = [rev acc ++ u].
Proof.
  induction u as [|c u IH]; intros acc H; cbn [split_commas]; [rewrite app_nil_r; reflexivity|].
  destruct (Ascii.eqb_spec c ",") as [->|N]; [exfalso; apply H; left; reflexivity|]. rewrite IH by (intros X; apply H; right; exact X).
  cbn [rev]. rewrite <- app_assoc. reflexivity.
Qed.
Lemma split_comma u r : forall acc, ~ In ","%char u -> split_commas acc (u ++ str "," ++ r) = (rev acc ++ u) :: split_commas [] r.
Proof.
  induction u as [|c u IH]; intros acc H.
  - cbn. rewrite app_nil_r. reflexivity.
  - cbn [app split_commas]. destruct (Ascii.eqb_spec c ",") as [->|N]; [exfalso; apply H; left; reflexivity|]. rewrite IH by (intros X; apply H; right; exact X).
    cbn [rev]. rewrite <- app_assoc. reflexivity.
Qed.
Lemma decimal_no_comma t : decimal t -> ~ In ","%char t.
Proof.
  intros (sign & ds & frac & -> & Hs & F & Hf) X.
  assert (D : forall l, Forall digit l -> ~ In ","%char l).
  { intros l Fl Y. rewrite List.Forall_forall in Fl. specialize (Fl _ Y). apply digit_iff in Fl. discriminate. }
  apply in_app_iff in X. destruct X as [X|X]; [destruct Hs as [-> | ->]; [destruct X|destruct X as [X|[]]; discriminate]|].
  apply in_app_iff in X. destruct X as [X|X]; [exact (D _ F X)|]. destruct Hf as [->|(d & fs & -> & F')]; [destruct X|].
  apply in_app_iff in X. destruct X as [[X|[]]|X]; [discriminate|exact (D _ F' X)].
Qed.
Lemma offset_iff t : re_offset t = true <->
  exists a b c, t = str "-offset=(" ++ a ++ str "," ++ b ++ str "," ++ c ++ str ")" /\ decimal a /\ decimal b /\ decimal c.
Proof.
  unfold re_offset. split.
  - destruct (after _ t) as [r|] eqn:E; [|discriminate]. apply after_iff in E. destruct (before_last ")" r) as [u|] eqn:E'; [|discriminate].
    apply before_last_iff in E'. destruct (split_commas_spec u []) as (p & ps & Es & Eu). cbn [rev app] in Eu. rewrite Es.
    destruct ps as [|b [|c [|d q]]]; try discriminate. intros H. rewrite !andb_true_iff, !decimal_iff in H. destruct H as [[Ha Hb] Hc].
    exists p, b, c. split; [|auto]. rewrite E, E', Eu. cbn [fold_left]. rewrite <- !app_assoc. reflexivity.
  - intros (a & b & c & -> & Ha & Hb & Hc).
    assert (E : after (str "-offset=(") (str "-offset=(" ++ a ++ str "," ++ b ++ str "," ++ c ++ str ")") = Some (a ++ str "," ++ b ++ str "," ++ c ++ str ")"))
      by (apply after_iff; reflexivity). rewrite E.
    assert (E' : before_last ")" (a ++ str "," ++ b ++ str "," ++ c ++ str ")") = Some (a ++ str "," ++ b ++ str "," ++ c))
      by (apply before_last_iff; rewrite <- !app_assoc; reflexivity). rewrite E'.
    rewrite split_comma by (apply decimal_no_comma; exact Ha). rewrite split_comma by (apply decimal_no_comma; exact Hb). rewrite split_no_comma by (apply decimal_no_comma; exact Hc).
    cbn [rev app]. apply decimal_iff in Ha, Hb, Hc. rewrite Ha, Hb, Hc. reflexivity.
Qed.
Definition def_form (lab : ascii -> Prop) (u : text) : Prop :=
  u = [] \/ (exists c, u = [c; ":"%char] /\ lab c) \/
   u = str "-input" \/ u = str "-output" \/ u = str "-propagate" \/
   (exists x, u = str "-label=""" ++ x ++ str """") \/
   (exists d, u = str "-clock=" ++ [d] /\ digit d) \/
   (exists d ds, u = str "-number=" ++ d :: ds /\ Forall digit (d :: ds)) \/
   (exists a b c, u = str "-offset=(" ++ a ++ str "," ++ b ++ str "," ++ c ++ str ")" /\ decimal a /\ decimal b /\ decimal c).
Lemma label_iff u : (exists x, re_label u = Some x) <-> exists x, u = str "-label=""" ++ x ++ str """".
Proof.
  unfold re_label. split.
  - intros [x H]. destruct (after _ u) as [r|] eqn:E; [|discriminate]. apply after_iff in E. apply before_last_iff in H. exists x. rewrite E, H. reflexivity.
  - intros [x ->]. exists x. assert (E : after (str "-label=""") (str "-label=""" ++ x ++ str """") = Some (x ++ str """")) by (apply after_iff; reflexivity).
    rewrite E. apply before_last_iff. reflexivity.
Qed.
Lemma clock_iff u : (exists x, re_clock u = Some x) <-> exists d, u = str "-clock=" ++ [d] /\ digit d.
Proof.
  unfold re_clock. split.
  - intros [x H]. destruct (after _ u) as [[|c [|? ?]]|] eqn:E; try discriminate. apply after_iff in E. destruct (is_digit c) eqn:D; [|discriminate].
    exists c. split; [exact E|apply digit_iff; exact D].
  - intros (d & -> & D). exists d. assert (E : after (str "-clock=") (str "-clock=" ++ [d]) = Some [d]) by (apply after_iff; reflexivity).
    rewrite E. apply digit_iff in D. rewrite D. reflexivity.
Qed.
Lemma number_iff u : re_number u = true <-> exists d ds, u = str "-number=" ++ d :: ds /\ Forall digit (d :: ds).
Proof.
  unfold re_number. split.
  - destruct (after _ u) as [[|d ds]|] eqn:E; try discriminate. apply after_iff in E. intros H. exists d, ds. split; [exact E|apply digits_iff; exact H].
  - intros (d & ds & -> & F). assert (E : after (str "-number=") (str "-number=" ++ d :: ds) = Some (d :: ds)) by (apply after_iff; reflexivity).
    rewrite E. apply digits_iff. exact F.
Qed.
Lemma parse_definition_ok s n u : (forall x, In x (map fst (r_map s)) -> is_alpha x = true) ->
  (def_form (fun c => In c (map fst (r_map s))) u /\ exists s', parse_definition s n u = FOk s' /\ r_defs s' = r_defs s /\ r_map s' = r_map s) \/
  (~ def_form (fun c => In c (map fst (r_map s))) u /\ forall s', parse_definition s n u <> FOk s').
Proof.
  intros AL. unfold parse_definition. destruct u as [|u0 u'].
  { left. split; [left; reflexivity|]. exists s. auto. }
  assert (UN : u0 :: u' <> []) by discriminate. set (u := u0 :: u') in *. clearbody u. clear u0 u'.
  assert (ID : forall i, re_id u = Some i <-> u = [i; ":"%char] /\ is_word i = true).
  { intros i. unfold re_id. split.
    - destruct u as [|a [|b [|? ?]]]; try discriminate. destruct (is_word a) eqn:W; [|discriminate]. destruct (Ascii.eqb_spec b ":") as [->|]; [|discriminate].
      intros H. cbn in H. injection H as <-. auto.
    - intros [-> W]. rewrite W. reflexivity. }
  destruct (re_id u) as [i|] eqn:RI.
  - destruct (proj1 (ID i) eq_refl) as [-> W]. destruct (find_label (r_map s) i) as [c|] eqn:F.
    + left. split; [|eexists; split; [reflexivity|]; split; reflexivity]. right. left. exists i. split; [reflexivity|]. apply find_label_iff. congruence.
    + right. split; [|intros s'; discriminate]. intros H. assert (In i (map fst (r_map s))) as Hi.
      { destruct H as [H|[(c & H & L)|H]]; [discriminate|injection H as ->; exact L|].
        decompose [or] H; clear H; repeat match goal with H : exists _, _ |- _ => destruct H | H : _ /\ _ |- _ => destruct H end; discriminate. }
      apply find_label_iff in Hi. congruence.
  - assert (NL : ~ exists c, u = [c; ":"%char] /\ In c (map fst (r_map s))).
    { intros (c & E & L). apply AL in L. assert (X : None = Some c); [|discriminate X]. apply ID. split; [exact E|]. unfold is_word. rewrite L. reflexivity. }
    destruct (text_eqb u (str "-input")) eqn:T1.
    { apply text_eqb_iff in T1. left. split; [right; right; left; exact T1|]. eexists. split; [reflexivity|]. split; reflexivity. }
    destruct (text_eqb u (str "-output")) eqn:T2.
    { apply text_eqb_iff in T2. left. split; [right; right; right; left; exact T2|]. eexists. split; [reflexivity|]. split; reflexivity. }
    pose proof (label_iff u) as LI. destruct (re_label u) as [nm|].
    { left. split; [do 5 right; left; apply LI; exists nm; reflexivity|]. eexists; split; [reflexivity|]; split; reflexivity. }
    pose proof (clock_iff u) as CI. destruct (re_clock u) as [ch|].
    { left. split; [do 6 right; left; apply CI; exists ch; reflexivity|]. eexists; split; [reflexivity|]; split; reflexivity. }
    pose proof (number_iff u) as NI. pose proof (offset_iff u) as OI. pose proof (text_eqb_iff u (str "-propagate")) as PI.
    pose proof (text_eqb_iff u (str "-input")) as T1'. rewrite T1 in T1'. pose proof (text_eqb_iff u (str "-output")) as T2'. rewrite T2 in T2'.
    destruct (text_eqb u (str "-propagate") || re_number u || re_offset u) eqn:O.
    + left. split; [|eexists; split; [reflexivity|]; split; reflexivity]. rewrite !orb_true_iff in O.
      destruct O as [[O|O]|O]; [apply PI in O; do 4 right; left; exact O|apply NI in O; do 7 right; left; exact O|apply OI in O; do 8 right; exact O].
    + right. split; [|intros s'; discriminate]. intros H. rewrite !orb_false_iff in O. destruct O as [[O1 O2] O3]. rewrite O1 in PI. rewrite O2 in NI. rewrite O3 in OI.
      assert (N1 : forall P : Prop, (false = true <-> P) -> ~ P) by (intros P [_ X] Y; discriminate (X Y)).
      assert (N2 : forall (P : Prop) (A : Type), ((exists x : A, None = Some x) <-> P) -> ~ P) by (intros P A0 [_ X] Y; destruct (X Y); discriminate).
      destruct H as [H|[H|[H|[H|[H|[H|[H|[H|H]]]]]]]];
        [exact (UN H)|exact (NL H)|exact (N1 _ T1' H)|exact (N1 _ T2' H)|exact (N1 _ PI H)|exact (N2 _ _ LI H)|exact (N2 _ _ CI H)|exact (N1 _ NI H)|exact (N1 _ OI H)].
Qed.

Lemma definition_line_iff A line : definition_line A line <-> def_form (label_of A) (strip line).
Proof.
  unfold definition_line. split.
  - intros (u & B & H). apply bare_eq in B. subst u. exact H.
  - intros H. exists (strip line). split; [apply bare_strip|exact H].
Qed.
Lemma def_form_ext (P Q : ascii -> Prop) u : (forall c, P c <-> Q c) -> def_form P u <-> def_form Q u.
Proof. intros E. unfold def_form. setoid_rewrite E. reflexivity. Qed.

Lemma parse_second k A : forall B s n, r_defs s = true -> (forall x, In x (map fst (r_map s)) <-> label_of A x) ->
  (exists s', parse_lines k s n B = FOk s') <-> (forall line, In line B -> definition_line A line).
Proof.
  induction B as [|ln B IH]; intros s n D L; cbn [parse_lines].
  { split; [intros _ line []|]. intros _. exists s. reflexivity. }
  assert (AL : forall x, In x (map fst (r_map s)) -> is_alpha x = true).
  { intros x Hx. apply L in Hx. destruct Hx as (_ & _ & _ & _ & X & _). apply letter_iff. exact X. }
  assert (PL : parse_line k s n ln = parse_definition s n (strip ln)).
  { unfold parse_line. destruct ln as [|a r]; [reflexivity|]. rewrite D. reflexivity. }
  assert (DF : def_form (fun c => In c (map fst (r_map s))) (strip ln) <-> definition_line A ln).
  { rewrite definition_line_iff. apply def_form_ext. exact L. }
  rewrite PL. destruct (parse_definition_ok s n (strip ln) AL) as [[P1 (s1 & E1 & D1 & M1)]|[P1 P2]].
  - rewrite E1. cbn [fbind]. rewrite IH; [|congruence|rewrite M1; exact L]. split.
    + intros H line [<-|Hi]; [apply DF; exact P1|apply H; exact Hi].
    + intros H line Hi. apply H. right. exact Hi.
  - split.
    + intros [s' H]. destruct (parse_definition s n (strip ln)) as [s1| | | | |] eqn:E; try discriminate H. exfalso. exact (P2 s1 eq_refl).
    + intros H. exfalso. apply P1, DF, H. left. reflexivity.
Qed.

Lemma parse_first k : forall ls A0 s n, r_defs s = false -> (forall x, In x (map fst (r_map s)) <-> label_of A0 x) ->
  (exists s', parse_lines k s n ls = FOk s') <->
  exists A B, ls = A ++ B /\ (forall line, In line A -> ~ section_end line /\ (comment line \/ separator line \/ row line)) /\
    (B = [] \/ exists d B', B = d :: B' /\ section_end d /\ forall line, In line B' -> definition_line (A0 ++ A) line).
Proof.
  induction ls as [|ln ls IH]; intros A0 s n D L; cbn [parse_lines].
  { split; [|intros _; exists s; reflexivity]. intros _. exists [], []. split; [reflexivity|]. split; [intros line []|left; reflexivity]. }
  pose proof (end_iff ln) as EI. destruct (text_eqb (strip ln) (str "$")) eqn:E.
  - destruct (parse_line_end k s n ln D E) as (s1 & E1 & D1 & M1). rewrite E1. cbn [fbind].
    rewrite (parse_second k A0 ls s1 (n + 1) D1) by (rewrite M1; exact L). split.
    + intros H. exists [], (ln :: ls). split; [reflexivity|]. split; [intros line []|]. right. exists ln, ls. split; [reflexivity|]. split; [apply EI; reflexivity|].
      rewrite app_nil_r. exact H.
    + intros (A & B & EL & HA & HB). destruct A as [|a A].
      * cbn [app] in EL. destruct HB as [->|(d & B' & -> & _ & H)]; [discriminate|]. injection EL as -> ->. rewrite app_nil_r in H. exact H.
      * injection EL as <- _. exfalso. apply (proj1 (HA ln (or_introl eq_refl))). apply EI. reflexivity.
  - pose proof (parse_line_first k s n ln D E) as P. pose proof (line_ok_iff ln) as LI. destruct (line_ok ln).
    + destruct P as (s1 & E1 & D1 & M1). rewrite E1. cbn [fbind].
      assert (L1 : forall x, In x (map fst (r_map s1)) <-> label_of (A0 ++ [ln]) x).
      { intros x. rewrite M1, L, !label_of_iff, flat_map_app, in_app_iff. cbn [flat_map]. rewrite app_nil_r. tauto. }
      rewrite (IH (A0 ++ [ln]) s1 (n + 1) D1 L1). split.
      * intros (A & B & EL & HA & HB). exists (ln :: A), B. split; [cbn [app]; f_equal; exact EL|]. split.
        -- intros line [<-|Hi]; [|apply HA; exact Hi]. split; [|apply LI; reflexivity]. intros X. apply EI in X. discriminate X.
        -- rewrite <- app_assoc in HB. exact HB.
      * intros (A & B & EL & HA & HB). destruct A as [|a A].
        -- exfalso. cbn [app] in EL. destruct HB as [->|(d & B' & -> & X & _)]; [discriminate|]. injection EL as <- _. apply EI in X. discriminate X.
        -- cbn [app] in EL. injection EL as <- ->. exists A, B. split; [reflexivity|]. split; [intros line Hi; apply HA; right; exact Hi|].
           rewrite <- app_assoc. exact HB.
    + destruct P as (e & E1). rewrite E1. cbn [fbind]. split; [intros [s' H]; discriminate|]. intros (A & B & EL & HA & HB). exfalso. destruct A as [|a A].
      * cbn [app] in EL. destruct HB as [->|(d & B' & -> & X & _)]; [discriminate|]. injection EL as <- _. apply EI in X. discriminate X.
      * injection EL as <- _. destruct (HA ln (or_introl eq_refl)) as [_ X]. apply LI in X. discriminate X.
Qed.

Lemma getlines_spec t : forall acc, ~ In nl acc -> text_lines (rev acc ++ t) (getlines acc t).
Proof.
  induction t as [|c t IH]; intros acc Ha; cbn [getlines].
  - exists [], (rev acc). rewrite app_nil_r. split; [reflexivity|]. split; [intros l []|]. split; [rewrite <- in_rev; exact Ha|].
    cbn [app]. destruct acc as [|a acc]; [reflexivity|]. destruct (rev (a :: acc)) as [|b r] eqn:E; [|reflexivity].
    apply (f_equal (@length ascii)) in E. rewrite rev_length in E. discriminate.
  - destruct (Ascii.eqb_spec c nl) as [->|N].
    + destruct (IH []) as (full & last & E & F1 & F2 & F3); [intros []|]. cbn [rev app] in E. exists (rev acc :: full), last.
      split; [cbn [flat_map]; rewrite E, <- !app_assoc; reflexivity|]. split; [|split; [exact F2|rewrite F3; reflexivity]].
      intros l [<-|Hl]; [rewrite <- in_rev; exact Ha|apply F1; exact Hl].
    + specialize (IH (c :: acc)). cbn [rev] in IH. rewrite <- app_assoc in IH. apply IH. intros [X|X]; [congruence|exact (Ha X)].
Qed.
Lemma getlines_end u : forall acc, ~ In nl u -> getlines acc u = match rev acc ++ u with [] => [] | _ => [rev acc ++ u] end.
Proof.
  induction u as [|c u IH]; intros acc H; cbn [getlines].
  - rewrite app_nil_r. destruct acc as [|a acc]; [reflexivity|]. destruct (rev (a :: acc)) eqn:E; [|reflexivity].
    apply (f_equal (@length ascii)) in E. rewrite rev_length in E. discriminate.
  - destruct (Ascii.eqb_spec c nl) as [->|N]; [exfalso; apply H; left; reflexivity|]. rewrite IH by (intros X; apply H; right; exact X).
    cbn [rev]. rewrite <- app_assoc. reflexivity.
Qed.
Lemma getlines_line u r : forall acc, ~ In nl u -> getlines acc (u ++ nl :: r) = (rev acc ++ u) :: getlines [] r.
Proof.
  induction u as [|c u IH]; intros acc H; cbn [getlines app].
  - rewrite app_nil_r. reflexivity.
  - destruct (Ascii.eqb_spec c nl) as [->|N]; [exfalso; apply H; left; reflexivity|]. rewrite IH by (intros X; apply H; right; exact X).
    cbn [rev]. rewrite <- app_assoc. reflexivity.
Qed.
Lemma getlines_unique t ls : text_lines t ls -> ls = getlines [] t.
Proof.
  intros (full & last & -> & F1 & F2 & ->). induction full as [|u full IH]; cbn [flat_map app].
  - rewrite getlines_end by exact F2. reflexivity.
  - rewrite <- !app_assoc. cbn [app]. rewrite getlines_line by (apply F1; left; reflexivity). cbn [rev app]. f_equal. apply IH. intros l Hl. apply F1. right. exact Hl.
Qed.

Lemma reader_accepts k t : (exists l, read_fqca_layout k t = FOk l) <-> fqca_file t.
Proof.
  unfold read_fqca_layout, fqca_file.
  assert (L0 : forall x, In x (map fst (r_map r_init)) <-> label_of [] x).
  { intros x. cbn. split; [intros []|]. intros (_ & [] & _). }
  pose proof (parse_first k (getlines [] t) [] r_init 1 eq_refl L0) as P. cbn [app] in P. split.
  - intros [l H]. exists (getlines [] t). split; [apply (getlines_spec t []); intros []|]. apply P.
    destruct (parse_lines k r_init 1 (getlines [] t)) as [s| | | | |]; try discriminate H. exists s. reflexivity.
  - intros (ls & HL & H). apply getlines_unique in HL. subst ls. apply P in H. destruct H as [s H]. rewrite H. eexists. reflexivity.
Qed.

(** * The exceptions *)

Lemma parse_cell_throws s ch c : match parse_cell s ch c with FOk _ => True | UnsupportedCharacter e => e = ch /\ char_ok ch = false | _ => False end.
Proof.
  unfold char_ok, parse_cell. destruct (is_space ch) eqn:E1; [exact I|]. destruct (is_digit ch) eqn:E2; [exact I|]. destruct (is_alpha ch) eqn:E3; [exact I|].
  destruct (Ascii.eqb ch "-") eqn:E4; [exact I|]. destruct (Ascii.eqb ch "+") eqn:E5; [exact I|]. cbn [fbind orb]. split; reflexivity.
Qed.
Lemma parse_row_throws k : forall line s col, match parse_row k s line col with FOk _ => True | UnsupportedCharacter e => In e (evens line) /\ char_ok e = false | _ => False end.
Proof.
  fix IH 1. intros [|a [|b r]] s col; cbn [evens parse_row].
  - exact I.
  - pose proof (parse_cell_throws s a (to_cell k col (r_row s) ((r_layer s - 1) mod 2 ^ 64))) as P.
    destruct (parse_cell s a _); try exact P. destruct P as [-> P]. split; [left; reflexivity|exact P].
  - pose proof (parse_cell_throws s a (to_cell k col (r_row s) ((r_layer s - 1) mod 2 ^ 64))) as P.
    destruct (parse_cell s a _) as [s1| | | | |]; try exact P.
    + cbn [fbind]. specialize (IH r s1 (col + 1)). destruct (parse_row k s1 r (col + 1)); try exact IH. destruct IH as [I1 I2]. split; [right; exact I1|exact I2].
    + destruct P as [-> P]. split; [left; reflexivity|exact P].
Qed.
Definition throws_here (n : Z) (line : text) (r : fq rst) : Prop :=
  match r with
  | FOk _ => True
  | UnsupportedCharacter e => In e (evens line) /\ char_ok e = false
  | UndefinedCellLabel e => strip line = [e; ":"%char]
  | UnrecognizedCellDefinition m => m = n /\ ~ def_form letter (strip line)
  | _ => False
  end.
Lemma parse_line_throws k s n line : throws_here n line (parse_line k s n line).
Proof.
  unfold parse_line. destruct line as [|a r]; [exact I|]. set (line := a :: r) in *. clearbody line. clear a r. destruct (r_defs s).
  - unfold parse_definition, throws_here. destruct (strip line) as [|u0 u'] eqn:EU; [exact I|]. rewrite <- EU. assert (UN : strip line <> []) by (rewrite EU; discriminate). clear EU u0 u'.
    set (u := strip line) in *. clearbody u.
    destruct (re_id u) as [i|] eqn:RI.
    { destruct (find_label (r_map s) i); [exact I|]. unfold re_id in RI. destruct u as [|x [|y [|? ?]]]; try discriminate RI.
      destruct (is_word x); [|discriminate RI]. destruct (Ascii.eqb_spec y ":") as [->|]; [|discriminate RI]. cbn in RI. injection RI as ->. reflexivity. }
    assert (NL : ~ exists c, u = [c; ":"%char] /\ letter c).
    { intros (c & -> & L). apply letter_iff in L. unfold re_id, is_word in RI. rewrite L in RI. discriminate RI. }
    pose proof (text_eqb_iff u (str "-input")) as T1. destruct (text_eqb u (str "-input")); [exact I|].
    pose proof (text_eqb_iff u (str "-output")) as T2. destruct (text_eqb u (str "-output")); [exact I|].
    pose proof (label_iff u) as LI. destruct (re_label u) as [nm|]; [exact I|]. pose proof (clock_iff u) as CI. destruct (re_clock u) as [ch|]; [exact I|].
    pose proof (number_iff u) as NI. pose proof (offset_iff u) as OI. pose proof (text_eqb_iff u (str "-propagate")) as PI.
    destruct (text_eqb u (str "-propagate")); [exact I|]. destruct (re_number u); [exact I|]. destruct (re_offset u); [exact I|]. cbn [orb]. split; [reflexivity|]. intros H.
    assert (N1 : forall P : Prop, (false = true <-> P) -> ~ P) by (intros P [_ X] Y; discriminate (X Y)).
    assert (N2 : forall (P : Prop) (A : Type), ((exists x : A, None = Some x) <-> P) -> ~ P) by (intros P A0 [_ X] Y; destruct (X Y); discriminate).
    destruct H as [H|[H|[H|[H|[H|[H|[H|[H|H]]]]]]]];
      [exact (UN H)|exact (NL H)|exact (N1 _ T1 H)|exact (N1 _ T2 H)|exact (N1 _ PI H)|exact (N2 _ _ LI H)|exact (N2 _ _ CI H)|exact (N1 _ NI H)|exact (N1 _ OI H)].
  - destruct (re_comment (strip line)); [exact I|]. destruct (re_layer_separator (strip line)); [exact I|]. destruct (text_eqb (strip line) (str "$")); [exact I|].
    pose proof (parse_row_throws k line s 0) as P. destruct (parse_row k s line 0); cbn [fbind throws_here]; try exact I; first [exact P|destruct P].
Qed.
Lemma parse_lines_throws k : forall ls s n, match parse_lines k s n ls with FOk _ => True | r => exists i line, nth_error ls i = Some line /\ throws_here (n + Z.of_nat i) line r end.
Proof.
  induction ls as [|ln ls IH]; intros s n; cbn [parse_lines]; [exact I|]. pose proof (parse_line_throws k s n ln) as P.
  destruct (parse_line k s n ln) as [s1| | | | |] eqn:E; cbn [fbind]; try (exists 0%nat, ln; split; [reflexivity|]; rewrite Z.add_0_r; exact P).
  specialize (IH s1 (n + 1)). destruct (parse_lines k s1 (n + 1) ls) as [r0| |e0|e0|m0|]; try exact I;
    destruct IH as (i & line & Hi & T); exists (Datatypes.S i), line; split; try exact Hi; (replace (n + Z.of_nat (Datatypes.S i)) with (n + 1 + Z.of_nat i) by lia); exact T.
Qed.
