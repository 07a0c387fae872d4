(** FQCA files: which texts they are, independent of the reader. *)
From Coq Require Import String Ascii List.
From Verif Require Import FqcaModel.
Import ListNotations.

(** Space and the control characters tab, line feed, vertical tab, form feed and carriage return; digits; letters. *)
Definition white (c : ascii) : Prop := In (nat_of_ascii c) [32; 9; 10; 11; 12; 13]%nat.
Definition digit (c : ascii) : Prop := In c (str "0123456789").
Definition letter (c : ascii) : Prop := In c (str "abcdefghijklmnopqrstuvwxyzABCDEFGHIJKLMNOPQRSTUVWXYZ").

(** [u] is what is left of [t] without its white space. *)
Inductive bare : text -> text -> Prop :=
| bare_nil : bare [] []
| bare_skip c t u : white c -> bare t u -> bare (c :: t) u
| bare_keep c t u : ~ white c -> bare t u -> bare (c :: t) (c :: u).

(** The characters of the cells of a row: every other one. *)
Definition cell_char (line : text) (c : ascii) : Prop := exists i, nth_error line (2 * i) = Some c.

(** The lines of the first section: comments in brackets, lines of equals signs, rows of cells. *)
Definition comment (line : text) : Prop := exists x, bare line (str "[" ++ x ++ str "]").
Definition separator (line : text) : Prop := exists n, bare line (repeat "="%char (S n)).
Definition row (line : text) : Prop :=
  forall c, cell_char line c -> white c \/ digit c \/ letter c \/ c = "-"%char \/ c = "+"%char.
Definition section_end (line : text) : Prop := bare line (str "$").
(** The letters that are cells of a row of these lines. *)
Definition label_of (A : list text) (c : ascii) : Prop :=
  exists line, In line A /\ ~ comment line /\ ~ separator line /\ letter c /\ cell_char line c.

Definition decimal (t : text) : Prop :=
  exists sign ds frac, t = sign ++ ds ++ frac /\ (sign = [] \/ sign = str "-") /\ Forall digit ds /\
    (frac = [] \/ exists d fs, frac = str "." ++ d :: fs /\ Forall digit (d :: fs)).
(** The lines of the second section, given the first one. *)
Definition definition_line (A : list text) (line : text) : Prop :=
  exists u, bare line u /\
  (u = [] \/ (exists c, u = [c; ":"%char] /\ label_of A c) \/
   u = str "-input" \/ u = str "-output" \/ u = str "-propagate" \/
   (exists x, u = str "-label=""" ++ x ++ str """") \/
   (exists d, u = str "-clock=" ++ [d] /\ digit d) \/
   (exists d ds, u = str "-number=" ++ d :: ds /\ Forall digit (d :: ds)) \/
   (exists a b c, u = str "-offset=(" ++ a ++ str "," ++ b ++ str "," ++ c ++ str ")" /\ decimal a /\ decimal b /\ decimal c)).

(** The lines of a text. *)
Definition text_lines (t : text) (ls : list text) : Prop :=
  exists full last, t = flat_map (fun l => l ++ [nl]) full ++ last /\ (forall l, In l full -> ~ In nl l) /\ ~ In nl last /\
    ls = full ++ (match last with [] => [] | _ => [last] end).

(** A text that is an FQCA file: the lines of its first section, and, after the end of that section, those of the second. *)
Definition fqca_file (t : text) : Prop :=
  exists ls, text_lines t ls /\
  exists A B, ls = A ++ B /\
  (forall line, In line A -> ~ section_end line /\ (comment line \/ separator line \/ row line)) /\
  (B = [] \/ exists d B', B = d :: B' /\ section_end d /\ forall line, In line B' -> definition_line A line).
