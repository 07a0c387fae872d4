(** Property C95: which texts the FQCA reader accepts, and which exceptions it throws. *)
From Coq Require Import ZArith Lia Bool String Ascii List.
From stdpp Require Import gmap list.
From Verif Require Import CoordModel GridModel CoordMap ClockModel CellModel FqcaModel FqcaFile FqcaFileProofs.
From Coq Require Import List.
Import ListNotations.
Local Open Scope Z_scope.

(** The reader returns a layout exactly for the FQCA files. *)
Theorem C95_accepts : forall k t, (exists l, read_fqca_layout k t = FOk l) <-> fqca_file t.
Proof. exact reader_accepts. Qed.
Print Assumptions C95_accepts.

(** The exceptions name what is wrong: a character that is no cell, a label of no cell, the number of a line that is no part of
    the definition of a cell. *)
Theorem C95_exceptions : forall k t ls, text_lines t ls ->
  match read_fqca_layout k t with
  | FOk _ => fqca_file t
  | UnsupportedCharacter c => exists line, In line ls /\ cell_char line c /\ ~ (white c \/ digit c \/ letter c \/ c = "-"%char \/ c = "+"%char)
  | UndefinedCellLabel c => exists line, In line ls /\ bare line [c; ":"%char]
  | UnrecognizedCellDefinition n => exists line, 1 <= n /\ nth_error ls (Z.to_nat (n - 1)) = Some line /\ forall A, ~ definition_line A line
  | OutOfCellNames | FUndefined => False
  end.
Proof.
  intros k t ls HL. apply getlines_unique in HL. subst ls. destruct (read_fqca_layout k t) as [l| |c|c|n|] eqn:E.
  { apply (C95_accepts k). exists l. exact E. }
  all: unfold read_fqca_layout in E; pose proof (parse_lines_throws k (getlines [] t) r_init 1) as P;
    destruct (parse_lines k r_init 1 (getlines [] t)) as [r0| |e0|e0|m0|]; try discriminate E; destruct P as (i & line & Hi & T); cbn [throws_here] in T.
  - destruct T.
  - injection E as ->. destruct T as [T1 T2]. exists line. split; [exact (nth_error_In _ _ Hi)|]. split; [apply evens_iff; exact T1|]. rewrite <- char_ok_iff, T2. discriminate.
  - injection E as ->. exists line. split; [exact (nth_error_In _ _ Hi)|]. apply bare_eq. symmetry. exact T.
  - injection E as ->. destruct T as [-> T]. exists line. split; [lia|]. replace (Z.to_nat (1 + Z.of_nat i - 1)) with i by lia. split; [exact Hi|].
    intros A H. apply T. apply definition_line_iff in H. destruct H as [H|[(c & H & L)|H]]; [left; exact H| |right; right; exact H].
    right. left. exists c. split; [exact H|]. destruct L as (_ & _ & _ & _ & X & _). exact X.
  - destruct T.
Qed.
Print Assumptions C95_exceptions.

(** A file with a comment, two cells, and the definition of one of them; and three texts that are none. *)
Definition lines_text (ls : list string) : text := flat_map (fun s => str s ++ [nl]) ls.
Definition ex_file : text := lines_text ["[ two cells ]"; ""; "= = "; "a 1 "; "= = "; ""; "$"; ""; "a: "; "- input"; "- offset = (-1, .5, 2.25)"; "- clock = 0"]%string.
Example C95_nonvacuous : fqca_file ex_file /\
  ~ fqca_file (lines_text ["= "; "? "; "= "; "$"]%string) /\
  ~ fqca_file (lines_text ["= "; "1 "; "= "; "$"; "a:"]%string) /\
  ~ fqca_file (lines_text ["= "; "a "; "= "; "$"; "a:"; "- inputs"]%string).
Proof.
  assert (N : forall t e, read_fqca_layout Offset t = e -> (forall l, e <> FOk l) -> ~ fqca_file t).
  { intros t e E H F. apply (C95_accepts Offset) in F. destruct F as [l F]. apply (H l). rewrite <- E. exact F. }
  split; [|split; [|split]].
  - apply (C95_accepts Offset). assert (E : (match read_fqca_layout Offset ex_file with FOk _ => true | _ => false end) = true) by (vm_compute; reflexivity).
    destruct (read_fqca_layout Offset ex_file) as [l| | | | |]; try discriminate E. exists l. reflexivity.
  - apply (N _ (UnsupportedCharacter "?"%char)); [vm_compute; reflexivity|discriminate].
  - apply (N _ (UndefinedCellLabel "a"%char)); [vm_compute; reflexivity|discriminate].
  - apply (N _ (UnrecognizedCellDefinition 6)); [vm_compute; reflexivity|discriminate].
Qed.
