(** Model of io/write_fgl_layout.hpp and io/read_fgl_layout.hpp: writing a gate-level layout to the FGL format and reading
    it back.

    Simplifications.
    - The file is the tree of its XML elements with their tags, their texts and their sub-elements. Turning the tree into
      characters is string concatenation in the writer; turning characters into the tree is the library tinyxml2, which is
      not part of the code. A text that contains '<', '&' or a carriage return does not survive this step unchanged: the
      result is then [Unmodelled].
    - The element with the version, the repository and the date is left out. The reader does not look at it.
    - Shifted Cartesian layouts are not modelled.
    - A gate type that is a truth table in hexadecimal notation ([kitty]) is written, but not read: [Unmodelled].
    - All exceptions ([fgl_parsing_error], [std::invalid_argument], [std::out_of_range]) are one result, [Throws].
    - [std::ranges::sort] orders gates of equal identifiers in an unspecified way. Here they stay in the order of the file. *)
From Coq Require Import ZArith Bool String Ascii List.
From stdpp Require Import gmap list strings pretty.
From Verif Require Import CoordModel GridModel CoordMap ClockModel GateModel.
From Coq Require Import List.
Import ListNotations.
Local Open Scope Z_scope.

Inductive res (A : Type) := Ok (a : A) | Throws | Unmodelled.
Arguments Ok {A} a. Arguments Throws {A}. Arguments Unmodelled {A}.
Definition rbind {A B} (r : res A) (k : A -> res B) : res B :=
  match r with Ok a => k a | Throws => Throws | Unmodelled => Unmodelled end.
Notation "'let$' x := e 'in' k" := (rbind e (fun x => k)) (at level 200, x pattern, e at level 100, k at level 200).
Fixpoint rmap {A B} (f : A -> res B) (l : list A) : res (list B) :=
  match l with
  | [] => Ok []
  | a :: r => let$ b := f a in let$ bs := rmap f r in Ok (b :: bs)
  end.
Fixpoint rfold {A B} (f : A -> B -> res A) (l : list B) (a : A) : res A :=
  match l with [] => Ok a | b :: r => let$ a' := f a b in rfold f r a' end.

(** *** XML elements *)
Inductive xml := Elem (tag text : string) (kids : list xml).
Definition tag_of (e : xml) : string := match e with Elem t _ _ => t end.
Definition kids_of (e : xml) : list xml := match e with Elem _ _ k => k end.
(** XMLElement::FirstChildElement(name), and the loop over FirstChildElement(name)/NextSiblingElement(name). *)
Definition first_child (e : xml) (tag : string) : option xml := List.find (fun k => String.eqb (tag_of k) tag) (kids_of e).
Definition all_children (e : xml) (tag : string) : list xml := List.filter (fun k => String.eqb (tag_of k) tag) (kids_of e).

Definition is_space (c : ascii) : bool := let n := nat_of_ascii c in Nat.eqb n 32 || (Nat.leb 9 n && Nat.leb n 13).
Fixpoint all_chars (p : ascii -> bool) (s : string) : bool :=
  match s with EmptyString => true | String c r => p c && all_chars p r end.
Definition blank (s : string) : bool := all_chars is_space s.
(** No '&' (38), '<' (60) and carriage return (13). *)
Definition plain_char (c : ascii) : bool := let n := nat_of_ascii c in negb (Nat.eqb n 38 || Nat.eqb n 60 || Nat.eqb n 13).
Definition plain (s : string) : bool := all_chars plain_char s.
(** XMLElement::GetText: null for an element without text; white space alone is not text. *)
Definition get_text (e : xml) : option (res string) :=
  match e with Elem _ t _ => if blank t then None else Some (if plain t then Ok t else Unmodelled) end.
(** The pattern of the reader: if the child element exists and has a text, the text; otherwise an exception. *)
Definition text_in (e : xml) (tag : string) : res string :=
  match first_child e tag with
  | None => Throws
  | Some k => match get_text k with None => Throws | Some r => r end
  end.

(** *** Numbers *)
(** fmt::format("{}", v) for a non-negative number. *)
Definition fmt_u (z : Z) : string := pretty (Z.to_N z).
Definition is_digit (c : ascii) : bool := let n := nat_of_ascii c in Nat.leb 48 n && Nat.leb n 57.
Definition digit_val (c : ascii) : Z := Z.of_nat (nat_of_ascii c) - 48.
Fixpoint parse_digits (acc : Z) (s : string) : Z :=
  match s with
  | String c r => if is_digit c then parse_digits (10 * acc + digit_val c) r else acc
  | EmptyString => acc
  end.
Fixpoint skip_spaces (s : string) : string :=
  match s with String c r => if is_space c then skip_spaces r else s | EmptyString => s end.
(** An optional sign and at least one digit, after white space; what follows the digits is ignored. *)
Definition strto (s : string) : res (bool * Z) :=
  let s1 := skip_spaces s in
  let '(neg, s2) := match s1 with
                    | String c r => if Nat.eqb (nat_of_ascii c) 45 then (true, r) else if Nat.eqb (nat_of_ascii c) 43 then (false, r) else (false, s1)
                    | EmptyString => (false, s1)
                    end in
  match s2 with
  | String c _ => if is_digit c then Ok (neg, parse_digits 0 s2) else Throws
  | EmptyString => Throws
  end.
Definition stoi (s : string) : res Z :=
  let$ (neg, v) := strto s in
  let z := if (neg : bool) then - v else v in
  if (- 2 ^ 31 <=? z) && (z <? 2 ^ 31) then Ok z else Throws.
Definition stoull (s : string) : res Z :=
  let$ (neg, v) := strto s in
  if v <? 2 ^ 64 then Ok (if (neg : bool) then (- v) mod 2 ^ 64 else v) else Throws.
(** offset::ucoord_t from numbers: bit fields of 31, 31 and 1 bits. *)
Definition ucoord (x y z : Z) : coord := live (x mod 2 ^ 31) (y mod 2 ^ 31) (z mod 2).

(** *** The topological order of the writer *)
(** mockturtle's topo_view, create_topo_rec (not part of the code): depth-first along the fan-ins. [None]: the recursion
    does not end, which happens on a cycle of fan-ins. *)
Fixpoint topo_rec (fuel : nat) (st : glayout) (acc : list nat) (n : nat) : option (list nat) :=
  if existsb (Nat.eqb n) acc then Some acc
  else match fuel with
       | O => None
       | S f =>
           match fold_left (fun a s => match a with Some l => topo_rec f st l (get_node st s) | None => None end)
                           (foreach_fanin true st n) (Some acc) with
           | Some l => Some (l ++ [n])
           | None => None
           end
       end.
(** topo_view::update_topo: constants and inputs first, then the cones of the outputs. *)
Definition topo_order (st : glayout) : option (list nat) :=
  fold_left (fun a p => match a with Some l => topo_rec (S (length (g_nodes st))) st l (get_node st p) | None => None end)
            (g_out st) (Some (0%nat :: 1%nat :: g_in st)).
(** topo_view::foreach_gate *)
Definition topo_gates (st : glayout) : option (list nat) :=
  match topo_order st with
  | Some l => Some (List.filter (fun n => negb (is_constant n) && negb (is_pi st n)) l)
  | None => None
  end.

(** *** Writer *)
(** write_fgl_layout.hpp:103-143 *)
Definition topology_name (t : topo) : string :=
  match t with
  | Cartesian => "cartesian"
  | Hex OddRow => "odd_row_hex" | Hex EvenRow => "even_row_hex"
  | Hex OddColumn => "odd_column_hex" | Hex EvenColumn => "even_column_hex"
  end.
Definition num_elem (tag : string) (z : Z) : xml := Elem tag (fmt_u z) [].
Definition xyz (tag : string) (c : coord) : xml := Elem tag "" [num_elem "x" (cx c); num_elem "y" (cy c); num_elem "z" (cz c)].
(** write_fgl_layout.hpp:153-167: the zones of the ground layer, if the scheme is irregular. *)
Definition zrange (n : Z) : list Z := map Z.of_nat (seq 0 (Z.to_nat (n + 1))).
Definition zone_positions (ar : coord) : list coord :=
  flat_map (fun x => map (fun y => live x y 0) (zrange (cy ar))) (zrange (cx ar)).
Definition zone_xml (sc : scheme) (c : coord) : xml :=
  Elem "zone" "" [num_elem "x" (cx c); num_elem "y" (cy c); num_elem "clock" (sc_at sc c)].
Definition clocking_xml (cl : clocked) : xml :=
  let sc := cl_scheme cl in
  Elem "clocking" "" (Elem "name" (sc_name sc) [] ::
                      if sc_regular sc then [] else [Elem "zones" "" (map (zone_xml sc) (zone_positions (cl_dim cl)))]).
Definition layout_xml (name : string) (cl : clocked) : xml :=
  Elem "layout" "" [Elem "name" name []; Elem "topology" (topology_name (cl_topo cl)) []; xyz "size" (cl_dim cl); clocking_xml cl].

(** write_fgl_layout.hpp:61-70, the template of a gate; 71-77 the incoming signals. *)
Record fgate := mkFG { fg_id : Z; fg_type : string; fg_name : string; fg_loc : coord; fg_in : list coord }.
Definition gate_xml (g : fgate) (incoming : list xml) : xml :=
  Elem "gate" "" ([num_elem "id" (fg_id g); Elem "type" (fg_type g) []; Elem "name" (fg_name g) []; xyz "loc" (fg_loc g)] ++ incoming).

(** kitty::to_hex of the node function: one digit per four bits of the truth table, at least one. *)
Definition hex_digit (z : Z) : string := String (ascii_of_nat (Z.to_nat (if z <? 10 then 48 + z else 87 + z))) "".
Definition node_hex (st : glayout) (n : nat) : res string :=
  match fn_word (n_lit (node_at st n)) with
  | Some (k, w) => Ok (if k =? 3 then hex_digit (w / 16) +:+ hex_digit (w mod 16) else hex_digit w)
  | None => Unmodelled
  end.
(** write_fgl_layout.hpp:195-321: the type of a gate, by its number of incoming signals. A gate is not a constant, so the
    test [is_function] never fails. *)
Definition lit_is (st : glayout) (n : nat) (f : gate_fn) : bool := n_lit (node_at st n) =? lit_of f.
Definition gate_type (st : glayout) (n : nat) (signals : list coord) : res string :=
  match length signals with
  | 1%nat => if is_po st n then Ok "PO"%string
         else if lit_is st n Fbuf then Ok "BUF"%string
         else if lit_is st n Fnot then Ok "INV"%string
         else node_hex st n
  | 2%nat => if lit_is st n Fand then Ok "AND"%string
         else if lit_is st n Fnand then Ok "NAND"%string
         else if lit_is st n For then Ok "OR"%string
         else if lit_is st n Fnor then Ok "NOR"%string
         else if lit_is st n Fxor then Ok "XOR"%string
         else if lit_is st n Fxnor then Ok "XNOR"%string
         else if lit_is st n Flt then Ok "LT"%string
         else if lit_is st n Fgt then Ok "GT"%string
         else if lit_is st n Fle then Ok "LE"%string
         else if lit_is st n Fge then Ok "GE"%string
         else node_hex st n
  | 3%nat => if lit_is st n Fmaj then Ok "MAJ"%string else node_hex st n
  | _ => node_hex st n
  end.
(** write_fgl_layout.hpp:176-185, an input: no incoming signals are written. *)
Definition pi_entry (st : glayout) (id : Z) (n : nat) : fgate := mkFG id "PI" (get_name st n) (get_tile st n) [].
(** write_fgl_layout.hpp:188-321, a gate. The name is written for outputs with one incoming signal only. *)
Definition gate_entry (st : glayout) (id : Z) (n : nat) : res fgate :=
  let coord := get_tile st n in
  let signals := incoming_data_flow true st coord in
  let$ ty := gate_type st n signals in
  Ok (mkFG id ty (if String.eqb ty "PO" then get_name st n else "") coord signals).
Definition pi_xml (g : fgate) : xml := gate_xml g [].
Definition fun_xml (g : fgate) : xml := gate_xml g [Elem "incoming" "" (map (xyz "signal") (fg_in g))].
(** [gate_id] counts from 0, inputs first. *)
Definition numbered {A} (from : nat) (l : list A) : list (Z * A) := combine (map Z.of_nat (seq from (length l))) l.

(** write_fgl_layout.hpp:90-325. [Unmodelled] if the recursion of the topological order does not end. *)
Definition write_fgl (name : string) (st : glayout) : res xml :=
  match topo_gates st with
  | None => Unmodelled
  | Some gates =>
      let pis := map (fun p => pi_entry st (fst p) (snd p)) (numbered 0 (foreach_pi st)) in
      let$ fs := rmap (fun p => gate_entry st (fst p) (snd p)) (numbered (length pis) gates) in
      Ok (Elem "fgl" "" [layout_xml name (g_cl st); Elem "gates" "" (map pi_xml pis ++ map fun_xml fs)])
  end.

(** *** Reader *)
(** read_fgl_layout.hpp:106-205: the topology must be the one of the layout type. *)
Definition check_topology (t : topo) (e : xml) : res unit :=
  let$ s := text_in e "topology" in if String.eqb s (topology_name t) then Ok tt else Throws.
(** read_fgl_layout.hpp:207-243 *)
Definition read_size (e : xml) : res coord :=
  match first_child e "size" with
  | None => Throws
  | Some k =>
      let$ sx := text_in k "x" in let$ x := stoi sx in
      let$ sy := text_in k "y" in let$ y := stoi sy in
      let$ sz := text_in k "z" in let$ z := stoi sz in
      Ok (initialize_dimension Offset (ucoord x y z))
  end.
(** read_fgl_layout.hpp:258-298: one zone. The clock number is the code of the first character of the text. *)
Definition first_char (s : string) : Z := match s with String c _ => Z.of_nat (nat_of_ascii c) | EmptyString => 0 end.
Definition read_zone (cl : clocked) (e : xml) : res clocked :=
  let$ sx := text_in e "x" in let$ x := stoi sx in
  let$ sy := text_in e "y" in let$ y := stoi sy in
  let$ sc := text_in e "clock" in
  Ok (assign_clock_number cl (ucoord x y 0) (first_char sc)).
(** read_fgl_layout.hpp:245-328 *)
Definition read_clocking (cl : clocked) (e : xml) : res clocked :=
  match first_child e "clocking" with
  | None => Throws
  | Some k =>
      let$ name := text_in k "name" in
      match get_clocking_scheme (cl_topo cl) name with
      | None => Throws
      | Some sc =>
          let cl1 := replace_clocking_scheme cl sc in
          match first_child k "zones" with
          | Some zs => rfold read_zone (all_children zs "zone") cl1
          | None => if existsb (String.eqb name) ["OPEN"; "OPEN3"; "OPEN4"]%string then Throws else Ok cl1
          end
      end
  end.
(** read_fgl_layout.hpp:376-407, 417-446: a location, an incoming signal. *)
Definition read_xyz (e : xml) : res coord :=
  let$ sx := text_in e "x" in let$ x := stoull sx in
  let$ sy := text_in e "y" in let$ y := stoull sy in
  let$ sz := text_in e "z" in let$ z := stoull sz in
  Ok (ucoord x y z).
(** read_fgl_layout.hpp:334-453, one gate element. *)
Definition parse_gate (e : xml) : res fgate :=
  let$ sid := text_in e "id" in let$ id := stoi sid in
  let$ ty := text_in e "type" in
  let$ name := (if String.eqb ty "PI" || String.eqb ty "PO" then text_in e "name" else Ok ""%string) in
  match first_child e "loc" with
  | None => Throws
  | Some l =>
      let$ loc := read_xyz l in
      let$ ins := match first_child e "incoming" with None => Ok [] | Some k => rmap read_xyz (all_children k "signal") end in
      Ok (mkFG id ty name loc ins)
  end.
(** read_fgl_layout.hpp:456, sorting by identifier. *)
Fixpoint insert_gate (g : fgate) (l : list fgate) : list fgate :=
  match l with
  | [] => [g]
  | h :: r => if fg_id g <=? fg_id h then g :: l else h :: insert_gate g r
  end.
Fixpoint sort_gates (l : list fgate) : list fgate := match l with [] => [] | g :: r => insert_gate g (sort_gates r) end.

(** std::isxdigit on all characters of the type. *)
Definition is_xdigit (c : ascii) : bool :=
  let n := nat_of_ascii c in is_digit c || (Nat.leb 65 n && Nat.leb n 70) || (Nat.leb 97 n && Nat.leb n 102).
Definition unknown_type {A} (ty : string) : res A := if all_chars is_xdigit ty then Unmodelled else Throws.
Definition named_fn2 (ty : string) : option gate_fn :=
  if String.eqb ty "AND" then Some Fand
  else if String.eqb ty "NAND" then Some Fnand
  else if String.eqb ty "OR" then Some For
  else if String.eqb ty "NOR" then Some Fnor
  else if String.eqb ty "XOR" then Some Fxor
  else if String.eqb ty "XNOR" then Some Fxnor
  else if String.eqb ty "LT" then Some Flt
  else if String.eqb ty "LE" then Some Fle
  else if String.eqb ty "GT" then Some Fgt
  else if String.eqb ty "GE" then Some Fge
  else None.
(** [lyt.make_signal(lyt.get_node(t))] *)
Definition signal_of (st : glayout) (t : coord) : coord := get_tile st (get_node st t).
(** read_fgl_layout.hpp:458-693: create one gate. *)
Definition place_gate (st : glayout) (g : fgate) : res glayout :=
  let ty := fg_type g in
  match fg_in g with
  | [] => if String.eqb ty "PI" then Ok (create_pi st (fg_name g) (fg_loc g)) else Throws
  | [a] =>
      let s := signal_of st a in
      if String.eqb ty "PO" then Ok (create_po st s (fg_name g) (fg_loc g))
      else if String.eqb ty "BUF" then Ok (create_fn st Fbuf [s] (fg_loc g))
      else if String.eqb ty "INV" then Ok (create_fn st Fnot [s] (fg_loc g))
      else unknown_type ty
  | [a; b] =>
      match named_fn2 ty with
      | Some f => Ok (create_fn st f [signal_of st a; signal_of st b] (fg_loc g))
      | None => unknown_type ty
      end
  | [a; b; c] =>
      if String.eqb ty "MAJ" then Ok (create_fn st Fmaj [signal_of st a; signal_of st b; signal_of st c] (fg_loc g))
      else unknown_type ty
  | _ => unknown_type ty
  end.

(** read_fgl_layout.hpp:71-697, run, on the target layout [st] with name [name0]. *)
Definition read_fgl (name0 : string) (st : glayout) (doc : xml) : res (string * glayout) :=
  if negb (String.eqb (tag_of doc) "fgl") then Throws else
  match first_child doc "layout" with
  | None => Throws
  | Some l =>
      let$ name := match first_child l "name" with
                   | Some k => match get_text k with Some r => r | None => Ok name0 end
                   | None => Ok name0
                   end in
      let$ _ := check_topology (cl_topo (g_cl st)) l in
      let$ ar := read_size l in
      let$ cl := read_clocking (mkCL (cl_topo (g_cl st)) ar (cl_scheme (g_cl st))) l in
      let st1 := with_cl st cl in
      match first_child doc "gates" with
      | None => Ok (name, st1)
      | Some gs =>
          let$ gates := rmap parse_gate (all_children gs "gate") in
          let$ st2 := rfold place_gate (sort_gates gates) st1 in
          Ok (name, st2)
      end
  end.
