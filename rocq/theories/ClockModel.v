(** Model of include/fiction/layouts/clocking_scheme.hpp, clocked_layout.hpp and
    synchronization_element_layout.hpp. *)
From stdpp Require Import gmap.
From Coq Require Import ZArith Bool String Ascii List.
From Verif Require Import CoordModel GridModel CoordMap.
Import ListNotations.
Local Open Scope Z_scope.

(** clocking_scheme.hpp:41-156, class clocking_scheme. [sc_fn] is the std::function member,
    [sc_override] the override map. *)
Record scheme := mkS {
  sc_name : string;
  sc_fn : coord -> Z;
  sc_in : Z;
  sc_out : Z;
  sc_num : Z;
  sc_regular : bool;
  sc_override : gmap coord Z
}.

(** clocking_scheme.hpp:76-89, operator(). *)
Definition sc_at (s : scheme) (c : coord) : Z :=
  if sc_regular s then sc_fn s c
  else match sc_override s !! c with Some n => n | None => sc_fn s c end.

(** clocking_scheme.hpp:116-121, override_clock_number. The argument is a uint8_t. *)
Definition sc_set (s : scheme) (c : coord) (n : Z) : scheme :=
  mkS (sc_name s) (sc_fn s) (sc_in s) (sc_out s) (sc_num s) false
      (<[ c := n mod sc_num s ]> (sc_override s)).

(** Array index [v % w] of the cut-outs: the coordinate is converted to unsigned long first. *)
Definition ix (v : Z) (w : nat) : nat := Z.to_nat ((v mod 18446744073709551616 (* 2^64 *)) mod Z.of_nat w).

(** [cutout[a % rows][b % columns]]; every index is in range by construction, so the default of
    [nth] is never reached. *)
Definition at_cutout (cut : list (list Z)) (a b : Z) : Z :=
  let row := nth (ix a (length cut)) cut [] in nth (ix b (length row)) row 0.

(** The cut-outs: clocking_scheme.hpp:234-236, 243-245 (columnar), 281-283, 290-292 (row),
    327-329, 336-338 (2DDWave), 373-407 (hexagonal 2DDWave), 557-562 (USE), 586-591 (RES),
    615-620 (ESR), 644-649 (CFE), 672-677 (Ripple), 701-706 (SRS), 729-736 (BANCS). *)
Definition cut_columnar3 : list (list Z) := [[0;1;2];[0;1;2];[0;1;2]].
Definition cut_columnar4 : list (list Z) := [[0;1;2;3];[0;1;2;3];[0;1;2;3];[0;1;2;3]].
Definition cut_row3 : list (list Z) := [[0;0;0];[1;1;1];[2;2;2]].
Definition cut_row4 : list (list Z) := [[0;0;0;0];[1;1;1;1];[2;2;2;2];[3;3;3;3]].
Definition cut_2ddwave3 : list (list Z) := [[0;1;2];[1;2;0];[2;0;1]].
Definition cut_2ddwave4 : list (list Z) := [[0;1;2;3];[1;2;3;0];[2;3;0;1];[3;0;1;2]].
Definition cut_odd3 : list (list Z) := [[0;1;2];[1;2;0];[1;2;0];[2;0;1];[2;0;1];[0;1;2]].
Definition cut_even3 : list (list Z) := [[0;1;2];[0;1;2];[1;2;0];[1;2;0];[2;0;1];[2;0;1]].
Definition cut_odd4 : list (list Z) :=
  [[0;1;2;3];[1;2;3;0];[1;2;3;0];[2;3;0;1];[2;3;0;1];[3;0;1;2];[3;0;1;2];[0;1;2;3]].
Definition cut_even4 : list (list Z) :=
  [[0;1;2;3];[0;1;2;3];[1;2;3;0];[1;2;3;0];[2;3;0;1];[2;3;0;1];[3;0;1;2];[3;0;1;2]].
Definition cut_use : list (list Z) := [[0;1;2;3];[3;2;1;0];[2;3;0;1];[1;0;3;2]].
Definition cut_res : list (list Z) := [[3;0;1;2];[0;1;0;3];[1;2;3;0];[0;3;2;1]].
Definition cut_esr : list (list Z) := [[3;0;1;2];[0;1;2;3];[1;2;3;0];[0;3;2;1]].
Definition cut_cfe : list (list Z) := [[0;1;0;1];[3;2;3;2];[0;1;0;1];[3;2;3;2]].
Definition cut_ripple : list (list Z) := [[0;1;2;3];[3;2;1;0];[0;1;2;3];[3;2;1;0]].
Definition cut_srs : list (list Z) := [[1;0;3;2];[2;3;0;1];[3;2;3;0];[0;1;2;1]].
Definition cut_bancs : list (list Z) := [[0;1;2];[2;1;0];[2;0;1];[1;0;2];[1;2;0];[0;2;1]].

(** clocking_scheme.hpp:179-184, num_clks. *)
Inductive num_clks := THREE | FOUR.

(** The pre-defined schemes, one constructor per factory function. *)
Inductive std_scheme :=
| OPEN (n : num_clks) | COLUMNAR (n : num_clks) | ROW (n : num_clks) | TWODDWAVE (n : num_clks)
| TWODDWAVE_HEX (n : num_clks) | USE | RES | ESR | CFE | RIPPLE | SRS | BANCS.

Definition row_major (cut : list (list Z)) (c : coord) : Z := at_cutout cut (cy c) (cx c).
Definition col_major (cut : list (list Z)) (c : coord) : Z := at_cutout cut (cx c) (cy c).

(** Lyt::max_fanin_size is an unsigned constant; std::min of it. *)
Definition cap (t : topo) (n : Z) : Z := Z.min (max_fanin_size t) n.

Definition clks (n : num_clks) : Z := match n with THREE => 3 | FOUR => 4 end.

Definition regular (name : string) (fn : coord -> Z) (i o n : Z) : scheme := mkS name fn i o n true ∅.

(** twoddwave_clocking, clocking_scheme.hpp:322-358. *)
Definition twoddwave_clocking (t : topo) (n : num_clks) : scheme :=
  regular "2DDWAVE" (row_major (match n with THREE => cut_2ddwave3 | FOUR => cut_2ddwave4 end))
          (cap t 2) 2 (clks n).

(** twoddwave_hex_clocking, clocking_scheme.hpp:369-541. On non-hexagonal layouts it falls back
    to the default (four-phase) 2DDWave scheme whatever [n]. *)
Definition hex_cut (a : hex_arr) (n : num_clks) : list (list Z) :=
  match a, n with
  | OddRow, THREE | OddColumn, THREE => cut_odd3
  | EvenRow, THREE | EvenColumn, THREE => cut_even3
  | OddRow, FOUR | OddColumn, FOUR => cut_odd4
  | EvenRow, FOUR | EvenColumn, FOUR => cut_even4
  end.
Definition twoddwave_hex_clocking (t : topo) (n : num_clks) : scheme :=
  match t with
  | Hex a => regular "2DDWAVEHEX" ((if pointy a then row_major else col_major) (hex_cut a n))
                     (cap t 2) 2 (clks n)
  | Cartesian => twoddwave_clocking t FOUR
  end.

(** The factory functions: open_clocking 197-218, columnar_clocking 229-265, row_clocking 276-311,
    use 550-569, res 579-598, esr 608-627, cfe 637-656, ripple 665-684, srs 694-713, bancs 722-743. *)
Definition clocking (t : topo) (s : std_scheme) : scheme :=
  match s with
  | OPEN n => mkS "OPEN" (fun _ => 0) (max_fanin_size t) (max_fanin_size t) (clks n) false ∅
  | COLUMNAR n => regular "COLUMNAR" (row_major (match n with THREE => cut_columnar3 | FOUR => cut_columnar4 end)) (cap t 3) 2 (clks n)
  | ROW n => regular "ROW" (row_major (match n with THREE => cut_row3 | FOUR => cut_row4 end)) (cap t 3) 2 (clks n)
  | TWODDWAVE n => twoddwave_clocking t n
  | TWODDWAVE_HEX n => twoddwave_hex_clocking t n
  | USE => regular "USE" (row_major cut_use) (cap t 2) 2 4
  | RES => regular "RES" (row_major cut_res) (cap t 3) 3 4
  | ESR => regular "ESR" (row_major cut_esr) (cap t 3) 3 4
  | CFE => regular "CFE" (row_major cut_cfe) (cap t 3) 3 4
  | RIPPLE => regular "RIPPLE" (row_major cut_ripple) (cap t 3) 3 4
  | SRS => regular "SRS" (row_major cut_srs) (cap t 3) 3 4
  | BANCS => regular "BANCS" (row_major cut_bancs) (cap t 2) 2 3
  end.

(** clocking_scheme.hpp:770-776, is_linear_scheme. *)
Definition is_linear_scheme (s : scheme) : bool :=
  existsb (String.eqb (sc_name s)) ["COLUMNAR"; "ROW"; "2DDWAVE"; "2DDWAVEHEX"]%string.

(** std::toupper on one char in the "C" locale. *)
Definition to_upper (c : ascii) : ascii :=
  let n := nat_of_ascii c in
  if (97 <=? n)%nat && (n <=? 122)%nat then ascii_of_nat (n - 32) else c.
Fixpoint upper (s : string) : string :=
  match s with EmptyString => EmptyString | String c r => String (to_upper c) (upper r) end.

(** clocking_scheme.hpp:806-828, scheme_lookup. *)
Definition scheme_lookup : list (string * std_scheme) :=
  [("OPEN", OPEN FOUR); ("OPEN3", OPEN THREE); ("OPEN4", OPEN FOUR);
   ("COLUMNAR", COLUMNAR FOUR); ("COLUMNAR3", COLUMNAR THREE); ("COLUMNAR4", COLUMNAR FOUR);
   ("ROW", ROW FOUR); ("ROW3", ROW THREE); ("ROW4", ROW FOUR);
   ("2DDWAVE", TWODDWAVE FOUR); ("2DDWAVE3", TWODDWAVE THREE); ("2DDWAVE4", TWODDWAVE FOUR);
   ("2DDWAVEHEX", TWODDWAVE_HEX FOUR); ("2DDWAVEHEX3", TWODDWAVE_HEX THREE);
   ("2DDWAVEHEX4", TWODDWAVE_HEX FOUR);
   ("USE", USE); ("RES", RES); ("ESR", ESR); ("CFE", CFE); ("RIPPLE", RIPPLE); ("SRS", SRS);
   ("BANCS", BANCS)]%string.

(** clocking_scheme.hpp:804-840, get_clocking_scheme. *)
Fixpoint assoc (n : string) (l : list (string * std_scheme)) : option std_scheme :=
  match l with
  | [] => None
  | (k, v) :: r => if String.eqb n k then Some v else assoc n r
  end.
Definition get_clocking_scheme (t : topo) (name : string) : option scheme :=
  match assoc (upper name) scheme_lookup with Some s => Some (clocking t s) | None => None end.

(** ** Clocked layouts, clocked_layout.hpp *)

Record clocked := mkCL { cl_topo : topo; cl_dim : coord; cl_scheme : scheme }.

(** clocked_layout.hpp:129-142, replace_clocking_scheme and assign_clock_number. *)
Definition replace_clocking_scheme (l : clocked) (s : scheme) : clocked := mkCL (cl_topo l) (cl_dim l) s.
Definition assign_clock_number (l : clocked) (c : coord) (n : Z) : clocked :=
  mkCL (cl_topo l) (cl_dim l) (sc_set (cl_scheme l) c n).
(** clocked_layout.hpp:149-152, 158-161. *)
Definition get_clock_number (l : clocked) (c : coord) : Z := sc_at (cl_scheme l) c.
Definition num_clocks (l : clocked) : Z := sc_num (cl_scheme l).
(** clocked_layout.hpp:200-226; uint8_t + 1 is computed in int, then reduced and cast back. *)
Definition is_incoming_clocked (l : clocked) (c1 c2 : coord) : bool :=
  negb (coord_eqb c1 c2) &&
  (((get_clock_number l c2 + 1) mod num_clocks l) mod 256 =? get_clock_number l c1).
Definition is_outgoing_clocked (l : clocked) (c1 c2 : coord) : bool :=
  negb (coord_eqb c1 c2) &&
  (((get_clock_number l c1 + 1) mod num_clocks l) mod 256 =? get_clock_number l c2).
(** clocked_layout.hpp:239-303, the zone enumerations. *)
Definition incoming_clocked_zones (l : clocked) (c : coord) : list coord :=
  List.filter (is_incoming_clocked l c) (adjacent (cl_topo l) (cl_dim l) c).
Definition outgoing_clocked_zones (l : clocked) (c : coord) : list coord :=
  List.filter (is_outgoing_clocked l c) (adjacent (cl_topo l) (cl_dim l) c).
(** clocked_layout.hpp:316-345, degrees. *)
Definition in_degree (l : clocked) (c : coord) : Z := Z.of_nat (length (incoming_clocked_zones l c)) mod 256.
Definition out_degree (l : clocked) (c : coord) : Z := Z.of_nat (length (outgoing_clocked_zones l c)) mod 256.
Definition degree (l : clocked) (c : coord) : Z := (in_degree l c + out_degree l c) mod 256.

(** ** Synchronization elements, synchronization_element_layout.hpp *)

(** The storage maps the packed coordinate ([static_cast<uint64_t>], the offset conversion) to a value. *)
Record se_layout := mkSE { se_base : clocked; se_map : gmap Z Z }.

(** synchronization_element_layout.hpp:129-139; the element is a uint8_t. *)
Definition assign_synchronization_element (l : se_layout) (c : coord) (se : Z) : se_layout :=
  mkSE (se_base l)
       (if se =? 0 then delete (u64_of_u c) (se_map l) else <[ u64_of_u c := se ]> (se_map l)).
(** synchronization_element_layout.hpp:146-169. *)
Definition is_synchronization_element (l : se_layout) (c : coord) : bool :=
  match se_map l !! u64_of_u c with Some v => negb (v =? 0) | None => false end.
Definition get_synchronization_element (l : se_layout) (c : coord) : Z :=
  match se_map l !! u64_of_u c with Some v => v | None => 0 end.
(** synchronization_element_layout.hpp:181-213. *)
Definition se_is_incoming_clocked (l : se_layout) (c1 c2 : coord) : bool :=
  negb (coord_eqb c1 c2) &&
  (is_incoming_clocked (se_base l) c1 c2 || is_synchronization_element l c1 || is_synchronization_element l c2).
Definition se_is_outgoing_clocked (l : se_layout) (c1 c2 : coord) : bool :=
  negb (coord_eqb c1 c2) &&
  (is_outgoing_clocked (se_base l) c1 c2 || is_synchronization_element l c1 || is_synchronization_element l c2).
(** synchronization_element_layout.hpp:226-291. *)
Definition se_incoming_clocked_zones (l : se_layout) (c : coord) : list coord :=
  List.filter (se_is_incoming_clocked l c) (adjacent (cl_topo (se_base l)) (cl_dim (se_base l)) c).
Definition se_outgoing_clocked_zones (l : se_layout) (c : coord) : list coord :=
  List.filter (se_is_outgoing_clocked l c) (adjacent (cl_topo (se_base l)) (cl_dim (se_base l)) c).
(** synchronization_element_layout.hpp:300-303, 312-345. *)
Definition num_se (l : se_layout) : Z := Z.of_nat (size (se_map l)) mod 2 ^ 32.
Definition se_in_degree (l : se_layout) (c : coord) : Z := Z.of_nat (length (se_incoming_clocked_zones l c)) mod 256.
Definition se_out_degree (l : se_layout) (c : coord) : Z := Z.of_nat (length (se_outgoing_clocked_zones l c)) mod 256.
Definition se_degree (l : se_layout) (c : coord) : Z :=
  let clock_degree := degree (se_base l) c in
  let d := (se_in_degree l c + se_out_degree l c) mod 256 in
  if clock_degree <? d then clock_degree else d.

(** ** Copying layouts: shared storage *)

(** clocked_layout.hpp:33-55, 80-119 and the clone functions of the layouts on top
    (synchronization_element_layout.hpp:110-116, gate_level_layout.hpp:229-236,
    cell_level_layout.hpp:143-149): a layout object holds a shared pointer to its own storage,
    which in turn holds a shared pointer to the clocking scheme. [clone] allocates a new storage and
    copies the struct, including the pointer to the scheme. [D] stands for all data stored by value
    (dimension, nodes, cells, synchronization elements). *)
Section Heap.
Context {D : Type}.
Record store := mkStore { st_data : gmap nat (D * nat); st_schemes : gmap nat scheme }.
(** A layout object is the address of its storage. *)
Definition h_new (h : store) (d : D) (s : scheme) : store * nat :=
  let a := fresh (dom (st_data h)) in
  let p := fresh (dom (st_schemes h)) in
  (mkStore (<[ a := (d, p) ]> (st_data h)) (<[ p := s ]> (st_schemes h)), a).
Definition h_clone (h : store) (l : nat) : option (store * nat) :=
  match st_data h !! l with
  | Some cell => let a := fresh (dom (st_data h)) in
                 Some (mkStore (<[ a := cell ]> (st_data h)) (st_schemes h), a)
  | None => None
  end.
(** What is observable of layout object [l]: its data and its scheme. *)
Definition h_obs (h : store) (l : nat) : option (D * scheme) :=
  match st_data h !! l with
  | Some (d, p) => match st_schemes h !! p with Some s => Some (d, s) | None => None end
  | None => None
  end.
Inductive h_op :=
| Update (f : D -> D)                     (* any mutation of the by-value data *)
| ReplaceScheme (s : scheme)              (* replace_clocking_scheme: a new scheme object *)
| AssignClock (c : coord) (n : Z).        (* assign_clock_number: through the shared pointer *)
Definition h_apply (l : nat) (h : store) (o : h_op) : store :=
  match st_data h !! l with
  | None => h
  | Some (d, p) =>
      match o with
      | Update f => mkStore (<[ l := (f d, p) ]> (st_data h)) (st_schemes h)
      | ReplaceScheme s =>
          let q := fresh (dom (st_schemes h)) in
          mkStore (<[ l := (d, q) ]> (st_data h)) (<[ q := s ]> (st_schemes h))
      | AssignClock c n =>
          match st_schemes h !! p with
          | Some s => mkStore (st_data h) (<[ p := sc_set s c n ]> (st_schemes h))
          | None => h
          end
      end
  end.
End Heap.
Arguments store : clear implicits.
Arguments h_op : clear implicits.
