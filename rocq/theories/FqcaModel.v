(** Model of io/write_fqca_layout.hpp and io/read_fqca_layout.hpp: writing a cell-level QCA layout to the FQCA format of
    QCA-STACK and reading it back.

    Simplifications.
    - A stream is the list of the characters it holds. Opening and closing files is left out.
    - The layout name is an argument of the writer. The version and the repository of the header are arguments, too.
    - The regular expressions of the reader are written out as functions that decide the same languages; running out of stack
      in [std::regex] is not modelled.
    - Bytes above 127 are no letters and no digits (the classification functions are called with a negative number, then). *)
From Coq Require Import ZArith Bool String Ascii List.
From stdpp Require Import gmap list strings.
From Verif Require Import CoordModel GridModel CoordMap ClockModel CellModel.
From Verif Require FglModel.
From Coq Require Import List.
Import ListNotations.
Local Open Scope Z_scope.

Definition text := list ascii.
Definition str (s : string) : text := list_ascii_of_string s.
Definition nl : ascii := ascii_of_nat 10.

(** The results: a value, one of the exceptions (write_fqca_layout.hpp:37-41, read_fqca_layout.hpp:23-63), or undefined
    behaviour (division by a tile size of zero). *)
Inductive fq (A : Type) :=
| FOk (a : A)
| OutOfCellNames
| UnsupportedCharacter (c : ascii)
| UndefinedCellLabel (c : ascii)
| UnrecognizedCellDefinition (line : Z)
| FUndefined.
Arguments FOk {A} a. Arguments OutOfCellNames {A}. Arguments UnsupportedCharacter {A} c.
Arguments UndefinedCellLabel {A} c. Arguments UnrecognizedCellDefinition {A} line. Arguments FUndefined {A}.
Definition fbind {A B} (r : fq A) (k : A -> fq B) : fq B :=
  match r with
  | FOk a => k a
  | OutOfCellNames => OutOfCellNames
  | UnsupportedCharacter c => UnsupportedCharacter c
  | UndefinedCellLabel c => UndefinedCellLabel c
  | UnrecognizedCellDefinition n => UnrecognizedCellDefinition n
  | FUndefined => FUndefined
  end.
Notation "'let@' x := e 'in' k" := (fbind e (fun x => k)) (at level 200, x pattern, e at level 100, k at level 200).

(** ** The writer *)

(** write_fqca_layout.hpp:95: the designators. *)
Definition alphabet : text := str "abcdefghijklmnopqrstuvwxyzABCDEFGHIJKLMNOPQRSTUVWXYZ".

(** write_fqca_layout.hpp:95-107: the members that change: the designators left and the labelled cells. *)
Record wst := mkW { w_iter : text; w_lab : list (coord * ascii) }.
Definition w_init : wst := mkW alphabet [].

(** std::to_string of a clock number, and fmt::format("{}", .) of it. *)
Definition num_text (n : Z) : text := str (FglModel.fmt_u n).
(** lyt.get_clock_number(c) as text. *)
Definition clock_text (l : clayout) (c : coord) : fq text :=
  match cell_clock_number l c with Some n => FOk (num_text n) | None => FUndefined end.

(** write_fqca_layout.hpp:114-126, next_cell_designator. *)
Definition next_cell_designator (s : wst) : fq (ascii * wst) :=
  match w_iter s with
  | d :: r => FOk (d, mkW r (w_lab s))
  | [] => OutOfCellNames
  end.

(** cell_technologies.hpp: qca_technology::cell_type NORMAL, CONST_0, CONST_1; cell_mode VERTICAL, CROSSOVER. *)
Definition q_normal : Z := 120.
Definition q_const0 : Z := 48.
Definition q_const1 : Z := 49.
Definition m_vertical : Z := 2.
Definition m_crossover : Z := 3.

(** write_fqca_layout.hpp:128-133, write_header. *)
Definition write_header (name ver repo : string) : text :=
  str "[ " ++ (if String.eqb name "" then [] else str name ++ str " - ") ++ str "generated by " ++ str ver ++ str " (" ++
  str repo ++ str ") ]" ++ [nl; nl].

(** The values 0, ..., n of a loop variable. *)
Definition upto (n : Z) : list Z := map Z.of_nat (seq 0 (S (Z.to_nat n))).

(** write_fqca_layout.hpp:135-143, write_layer_separator. *)
Definition write_layer_separator (l : clayout) : text :=
  flat_map (fun _ => str "= ") (upto (cx (cl_dim (c_cl l)))) ++ [nl].

(** The test of write_fqca_layout.hpp:153, a cell that is named or primary. *)
Definition is_labeled (l : clayout) (c : coord) : bool :=
  negb (String.eqb (get_cell_name l c) "") || c_is_pi l c || c_is_po l c.

(** write_fqca_layout.hpp:145-184, write_cell: the characters inserted and the new members. *)
Definition write_cell (l : clayout) (s : wst) (c : coord) : fq (text * wst) :=
  if is_empty_cell qca l c then FOk (str " " ++ str " ", s)
  else if is_labeled l c then
    let@ (d, s1) := next_cell_designator s in
    FOk ([d] ++ str " ", mkW (w_iter s1) (w_lab s1 ++ [(c, d)]))
  else if get_cell_type qca l c =? q_const0 then FOk (str "-" ++ str " ", s)
  else if get_cell_type qca l c =? q_const1 then FOk (str "+" ++ str " ", s)
  else let@ t := clock_text l c in FOk (t ++ str " ", s).

(** write_fqca_layout.hpp:186-200, write_via_cell. *)
Definition write_via_cell (l : clayout) (c : coord) : fq text :=
  if get_cell_mode l c =? m_vertical then let@ t := clock_text l c in FOk (t ++ str " ") else FOk (str " " ++ str " ").

(** write_fqca_layout.hpp:216-226: a row; the characters for the stream and for the buffer of the vias. *)
Fixpoint write_row (l : clayout) (via : bool) (y z : Z) (xs : list Z) (s : wst) : fq (text * text * wst) :=
  match xs with
  | [] => FOk ([], [], s)
  | x :: r =>
      let@ (t, s1) := write_cell l s (live x y z) in
      let@ v := (if via then write_via_cell l (live x y z) else FOk []) in
      let@ (p, s2) := write_row l via y z r s1 in
      FOk (t ++ fst p, v ++ snd p, s2)
  end.
(** write_fqca_layout.hpp:214-236: the rows of a layer. *)
Fixpoint write_rows (l : clayout) (via : bool) (z : Z) (ys : list Z) (s : wst) : fq (text * text * wst) :=
  match ys with
  | [] => FOk ([], [], s)
  | y :: r =>
      let@ (p, s1) := write_row l via y z (upto (cx (cl_dim (c_cl l)))) s in
      let@ (q, s2) := write_rows l via z r s1 in
      FOk (fst p ++ [nl] ++ fst q, (if via then snd p ++ [nl] else []) ++ snd q, s2)
  end.
(** write_fqca_layout.hpp:202-250, write_layout_definition. *)
Fixpoint write_layers (l : clayout) (vias : bool) (zs : list Z) (s : wst) : fq (text * wst) :=
  match zs with
  | [] => FOk ([], s)
  | z :: r =>
      let via := vias && negb (z =? cz (cl_dim (c_cl l))) in
      let@ (p, s1) := write_rows l via z (upto (cy (cl_dim (c_cl l)))) s in
      let@ (t, s2) := write_layers l vias r s1 in
      FOk (write_layer_separator l ++ fst p ++ (if via then write_layer_separator l ++ snd p else []) ++ t, s2)
  end.
Definition write_layout_definition (l : clayout) (vias : bool) : fq (text * wst) :=
  let@ (t, s) := write_layers l vias (upto (cz (cl_dim (c_cl l)))) w_init in
  FOk (t ++ write_layer_separator l, s).

(** write_fqca_layout.hpp:252-280, write_labeled_cell. *)
Definition write_labeled_cell (l : clayout) (lc : coord * ascii) : fq text :=
  let c := fst lc in
  let@ t := clock_text l c in
  FOk ([snd lc] ++ str ":" ++ [nl] ++
       (if c_is_pi l c then str "- " ++ str "input" ++ [nl] else []) ++
       (if c_is_po l c then str "- " ++ str "output" ++ [nl] else []) ++
       (if negb (String.eqb (get_cell_name l c) "") then
          str "- " ++ str "label = """ ++ str (get_cell_name l c) ++ str """" ++ [nl] else []) ++
       str "- " ++ str "clock = " ++ t ++ [nl] ++
       [nl]).
(** write_fqca_layout.hpp:282-288, write_cell_definition. *)
Fixpoint write_cell_definition (l : clayout) (lcs : list (coord * ascii)) : fq text :=
  match lcs with
  | [] => FOk []
  | lc :: r => let@ t := write_labeled_cell l lc in let@ u := write_cell_definition l r in FOk (t ++ u)
  end.
(** write_fqca_layout.hpp:61: SECTION_SEPARATOR. *)
Definition section_separator : text := [nl; nl] ++ str "$" ++ [nl; nl].
(** write_fqca_layout.hpp:81-92, 307-318: run and write_fqca_layout. [vias] is create_inter_layer_via_cells. *)
Definition write_fqca_layout (name ver repo : string) (vias : bool) (l : clayout) : fq text :=
  let@ (t, s) := write_layout_definition l vias in
  let@ u := write_cell_definition l (w_lab s) in
  FOk (write_header name ver repo ++ t ++ section_separator ++ u).

(** ** The reader *)

(** std::getline: the lines of a stream. What follows the last line feed is a line if it is not empty. *)
Fixpoint getlines (acc : text) (t : text) : list text :=
  match t with
  | [] => match acc with [] => [] | _ => [rev acc] end
  | c :: r => if Ascii.eqb c nl then rev acc :: getlines [] r else getlines (c :: acc) r
  end.

(** Classes of characters in the "C" locale: std::isspace and \s; std::isdigit and \d; std::isalpha; \w. *)
Definition is_space (c : ascii) : bool := FglModel.is_space c.
Definition is_digit (c : ascii) : bool := let n := nat_of_ascii c in Nat.leb 48 n && Nat.leb n 57.
Definition is_alpha (c : ascii) : bool :=
  let n := nat_of_ascii c in (Nat.leb 65 n && Nat.leb n 90) || (Nat.leb 97 n && Nat.leb n 122).
Definition is_word (c : ascii) : bool := is_alpha c || is_digit c || Ascii.eqb c "_".
(** read_fqca_layout.hpp:109: std::regex_replace of white space by nothing. *)
Definition strip (t : text) : text := List.filter (fun c => negb (is_space c)) t.
Definition text_eqb (a b : text) : bool := if list_eq_dec ascii_dec a b then true else false.

(** What follows a prefix. *)
Fixpoint after (p t : text) : option text :=
  match p, t with
  | [], _ => Some t
  | a :: p', b :: t' => if Ascii.eqb a b then after p' t' else None
  | _, _ => None
  end.
(** What precedes a final character. *)
Definition before_last (c : ascii) (t : text) : option text :=
  match rev t with
  | d :: r => if Ascii.eqb d c then Some (rev r) else None
  | [] => None
  end.
(** read_fqca_layout.hpp:72-81, the regular expressions, on texts without white space (so that '.' matches every character). *)
Definition re_comment (t : text) : bool :=
  match after (str "[") t with Some r => match before_last "]" r with Some _ => true | None => false end | None => false end.
Definition re_layer_separator (t : text) : bool :=
  match t with [] => false | _ => forallb (fun c => Ascii.eqb c "=") t end.
Definition re_id (t : text) : option ascii :=
  match t with [c; d] => if is_word c && Ascii.eqb d ":" then Some c else None | _ => None end.
Definition re_label (t : text) : option text :=
  match after (str "-label=""") t with Some r => before_last """" r | None => None end.
Definition re_clock (t : text) : option ascii :=
  match after (str "-clock=") t with Some [c] => if is_digit c then Some c else None | _ => None end.
Definition re_number (t : text) : bool :=
  match after (str "-number=") t with Some (c :: r) => forallb is_digit (c :: r) | _ => false end.
(** -?\d*(?:\.\d+)? *)
Fixpoint skip_digits (t : text) : text :=
  match t with c :: r => if is_digit c then skip_digits r else t | [] => [] end.
Definition re_decimal (t : text) : bool :=
  let t1 := match t with c :: r => if Ascii.eqb c "-" then r else t | [] => [] end in
  match skip_digits t1 with
  | [] => true
  | c :: r => Ascii.eqb c "." && match r with [] => false | _ => forallb is_digit r end
  end.
(** The parts between commas. *)
Fixpoint split_commas (acc : text) (t : text) : list text :=
  match t with
  | [] => [rev acc]
  | c :: r => if Ascii.eqb c "," then rev acc :: split_commas [] r else split_commas (c :: acc) r
  end.
Definition re_offset (t : text) : bool :=
  match after (str "-offset=(") t with
  | Some r => match before_last ")" r with
              | Some u => match split_commas [] u with
                          | [a; b; c] => re_decimal a && re_decimal b && re_decimal c
                          | _ => false
                          end
              | None => false
              end
  | None => false
  end.

(** The three-argument constructors of the coordinate types on arguments of type uint64_t, coordinates.hpp:89-95 and
    364-369. Layouts with SiQAD coordinates are not QCA layouts. *)
Definition to_i32 (v : Z) : Z := (v + 2 ^ 31) mod 2 ^ 32 - 2 ^ 31.
Definition to_cell (k : kind) (x y z : Z) : coord :=
  match k with
  | Offset => live (x mod 2 ^ 31) (y mod 2 ^ 31) (z mod 2)
  | _ => live (to_i32 x) (to_i32 y) (to_i32 z)
  end.

(** read_fqca_layout.hpp:88, 219-241: the members. *)
Record rst := mkR {
  r_lyt : clayout;
  r_defs : bool;                   (* parsing_status is CELL_DEFINITION *)
  r_layer : Z;                     (* next_cell_layer, uint64_t *)
  r_row : Z;                       (* current_cell_row *)
  r_max : coord;
  r_cur : coord;                   (* current_labeled_cell *)
  r_map : list (ascii * coord)     (* cell_label_map, the latest entry first *)
}.
(** read_fqca_layout.hpp:91: the default dimensions, the default clocking scheme (clocked_layout.hpp:67-73), tiles of one cell. *)
Definition r_init : rst := mkR (c_new (mkCL Cartesian dead0 (clocking Cartesian (OPEN FOUR))) 1 1) false 0 0 dead0 dead0 [].

(** clocked_layout.hpp:136-142, assign_clock_number, inherited by cell-level layouts. *)
Definition c_assign_clock (l : clayout) (c : coord) (n : Z) : clayout :=
  mkCell (assign_clock_number (c_cl l) c n) (c_tsx l) (c_tsy l) (c_type l) (c_mode l) (c_name l) (c_in l) (c_out l).
(** cartesian_layout.hpp:157-160, resize. *)
Definition c_resize (l : clayout) (ar : coord) : clayout :=
  mkCell (mkCL (cl_topo (c_cl l)) ar (cl_scheme (c_cl l))) (c_tsx l) (c_tsy l) (c_type l) (c_mode l) (c_name l) (c_in l) (c_out l).

(** read_fqca_layout.hpp:243-246, to_clock_number. *)
Definition to_clock_number (l : clayout) (c : ascii) : Z := Z.of_nat (nat_of_ascii c) mod num_clocks (c_cl l).

(** read_fqca_layout.hpp:302-313: the bounding box. *)
Definition grow (m c : coord) : coord :=
  mkC (cd m) (if cx c >? cx m then cx c else cx m) (if cy c >? cy m then cy c else cy m) (if cz c >? cz m then cz c else cz m).
(** read_fqca_layout.hpp:248-314, parse_cell. *)
Definition parse_cell (s : rst) (ch : ascii) (c : coord) : fq rst :=
  if is_space ch then FOk s
  else
    let@ (l1, mp) :=
      (if is_digit ch then
         let l0 := assign_cell_type qca (r_lyt s) c q_normal in
         FOk (c_assign_clock l0 c (to_clock_number l0 ch), r_map s)
       else if is_alpha ch then FOk (assign_cell_type qca (r_lyt s) c q_normal, (ch, c) :: r_map s)
       else if Ascii.eqb ch "-" then FOk (assign_cell_type qca (r_lyt s) c q_const0, r_map s)
       else if Ascii.eqb ch "+" then FOk (assign_cell_type qca (r_lyt s) c q_const1, r_map s)
       else UnsupportedCharacter ch) in
    let l2 := if cz c =? 0 then l1
              else if Z.rem (cz c) 2 =? 0 then assign_cell_mode qca l1 c m_crossover
              else assign_cell_mode qca l1 c m_vertical in
    FOk (mkR l2 (r_defs s) (r_layer s) (r_row s) (grow (r_max s) c) (r_cur s) mp).

(** read_fqca_layout.hpp:139-143: every other character of a row is a cell. *)
Fixpoint parse_row (k : kind) (s : rst) (line : text) (col : Z) : fq rst :=
  match line with
  | [] => FOk s
  | [ch] => parse_cell s ch (to_cell k col (r_row s) ((r_layer s - 1) mod 2 ^ 64))
  | ch :: _ :: r =>
      let@ s1 := parse_cell s ch (to_cell k col (r_row s) ((r_layer s - 1) mod 2 ^ 64)) in
      parse_row k s1 r (col + 1)
  end.

Definition set_lyt (s : rst) (l : clayout) : rst := mkR l (r_defs s) (r_layer s) (r_row s) (r_max s) (r_cur s) (r_map s).
Definition find_label (m : list (ascii * coord)) (c : ascii) : option coord :=
  match List.find (fun p => Ascii.eqb (fst p) c) m with Some p => Some (snd p) | None => None end.
(** read_fqca_layout.hpp:150-211: a line of the second section, without its white space. *)
Definition parse_definition (s : rst) (n : Z) (t : text) : fq rst :=
  match t with
  | [] => FOk s
  | _ =>
      match re_id t with
      | Some i => match find_label (r_map s) i with
                  | Some c => FOk (mkR (r_lyt s) (r_defs s) (r_layer s) (r_row s) (r_max s) c (r_map s))
                  | None => UndefinedCellLabel i
                  end
      | None =>
          if text_eqb t (str "-input") then FOk (set_lyt s (assign_cell_type qca (r_lyt s) (r_cur s) (t_input qca)))
          else if text_eqb t (str "-output") then FOk (set_lyt s (assign_cell_type qca (r_lyt s) (r_cur s) (t_output qca)))
          else match re_label t with
               | Some nm => FOk (set_lyt s (assign_cell_name (r_lyt s) (r_cur s) (string_of_list_ascii nm)))
               | None =>
                   match re_clock t with
                   | Some ch => FOk (set_lyt s (c_assign_clock (r_lyt s) (r_cur s) (to_clock_number (r_lyt s) ch)))
                   | None => if text_eqb t (str "-propagate") || re_number t || re_offset t then FOk s
                             else UnrecognizedCellDefinition n
                   end
               end
      end
  end.
(** read_fqca_layout.hpp:111-212: a line; [n] is its number. *)
Definition parse_line (k : kind) (s : rst) (n : Z) (line : text) : fq rst :=
  match line with
  | [] => FOk s
  | _ =>
      let t := strip line in
      if r_defs s then parse_definition s n t
      else if re_comment t then FOk s
      else if re_layer_separator t then
        FOk (mkR (r_lyt s) (r_defs s) ((r_layer s + 1) mod 2 ^ 64) 0 (r_max s) (r_cur s) (r_map s))
      else if text_eqb t (str "$") then
        FOk (mkR (r_lyt s) true (r_layer s) (r_row s) (r_max s) (r_cur s) (r_map s))
      else
        let@ s1 := parse_row k s line 0 in
        FOk (mkR (r_lyt s1) (r_defs s1) (r_layer s1) ((r_row s1 + 1) mod 2 ^ 64) (r_max s1) (r_cur s1) (r_map s1))
  end.
Fixpoint parse_lines (k : kind) (s : rst) (n : Z) (lines : list text) : fq rst :=
  match lines with
  | [] => FOk s
  | ln :: r => let@ s1 := parse_line k s n ln in parse_lines k s1 (n + 1) r
  end.
(** read_fqca_layout.hpp:93-217, 332-343: run and read_fqca_layout. *)
Definition read_fqca_layout (k : kind) (t : text) : fq clayout :=
  let@ s := parse_lines k r_init 1 (getlines [] t) in
  FOk (c_resize (r_lyt s) (r_max s)).
