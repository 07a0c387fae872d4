(** Model of include/fiction/layouts/coordinates.hpp.

    All three C++ coordinate structs (offset::ucoord_t, cube::coord_t, siqad::coord_t)
    are represented by one record of a deadness flag and three integers; the field
    widths of each struct are captured by the well-formedness predicates [u_wf],
    [c_wf], [s_wf], and every operation that can wrap writes the wrap explicitly. *)

From Coq Require Import ZArith Bool List.
Import ListNotations.
Local Open Scope Z_scope.

(** coordinates.hpp:48-62 (ucoord_t: d:1 z:1 y:31 x:31), 324-341 (cube::coord_t: bool d,
    int32 z y x), 569-586 (siqad::coord_t: bool d, uint8 z:1, int32 y x). *)
Record coord := mkC { cd : bool; cx : Z; cy : Z; cz : Z }.

(** Three-argument constructors, coordinates.hpp:89-95, 364-369, 609-614 (arguments in range). *)
Definition live (x y z : Z) : coord := mkC false x y z.

(** Default constructors, coordinates.hpp:72-77, 348-352, 593-597: dead, all zero. *)
Definition dead0 : coord := mkC true 0 0 0.

(** Widths of the struct fields. *)
Definition in_u (k v : Z) : Prop := 0 <= v < 2 ^ k.
Definition i32_max : Z := 2 ^ 31 - 1.
Definition i32_min : Z := - 2 ^ 31.
Definition in_i32 (v : Z) : Prop := i32_min <= v <= i32_max.
Definition u_wf (c : coord) : Prop := in_u 31 (cx c) /\ in_u 31 (cy c) /\ in_u 1 (cz c).
Definition c_wf (c : coord) : Prop := in_i32 (cx c) /\ in_i32 (cy c) /\ in_i32 (cz c).
Definition s_wf (c : coord) : Prop := in_i32 (cx c) /\ in_i32 (cy c) /\ in_u 1 (cz c).

Definition b2z (b : bool) : Z := if b then 1 else 0.

(** 64-bit left shift, wrapping as uint64_t does. *)
Definition shl64 (v k : Z) : Z := Z.shiftl v k mod 2 ^ 64.

(** coordinates.hpp:120-125, ucoord_t(uint64_t). The bit-field initialisation truncates to
    the field's width. *)
Definition u_of_u64 (t : Z) : coord :=
  mkC (Z.shiftr t 63 mod 2 =? 1)
      (Z.shiftr (shl64 t 33) 33 mod 2 ^ 31)
      (Z.shiftr (shl64 t 2) 33 mod 2 ^ 31)
      (Z.shiftr (shl64 t 1) 63 mod 2).

(** coordinates.hpp:136-139, operator uint64_t. *)
Definition u64_of_u (c : coord) : Z :=
  Z.lor (shl64 (Z.lor (shl64 (Z.lor (shl64 (b2z (cd c)) 1) (cz c)) 31) (cy c)) 31) (cx c).

(** is_dead: coordinates.hpp:145-148, 393-396, 638-641. *)
Definition is_dead (c : coord) : bool := cd c.

(** coordinates.hpp:154-157, ucoord_t::get_dead (through the 64-bit words). *)
Definition u_get_dead (c : coord) : coord := u_of_u64 (Z.lor (u64_of_u c) (u64_of_u dead0)).

(** coordinates.hpp:402-407, 647-652: get_dead of cube and siqad coordinates. *)
Definition get_dead (c : coord) : coord := mkC true (cx c) (cy c) (cz c).

(** coordinates.hpp:168-193, ucoord_t::wrap. [++y] wraps modulo 2^31. *)
Definition u_wrap (ar c : coord) : coord :=
  let c1 := if cx ar <? cx c then mkC (cd c) 0 ((cy c + 1) mod 2 ^ 31) (cz c) else c in
  let c2 := if cy ar <? cy c1
            then (if cz c1 =? 1 then u_get_dead ar else mkC (cd c1) (cx c1) 0 1)
            else c1 in
  if cz ar <? cz c2 then u_get_dead ar else c2.

(** coordinates.hpp:418-436, cube::coord_t::wrap (++y, ++z are undefined at INT32_MAX;
    the theorems keep bounds below it). *)
Definition c_wrap (ar c : coord) : coord :=
  let c1 := if cx ar <? cx c then mkC (cd c) 0 (cy c + 1) (cz c) else c in
  let c2 := if cy ar <? cy c1 then mkC (cd c1) (cx c1) 0 (cz c1 + 1) else c1 in
  if cz ar <? cz c2 then get_dead ar else c2.

(** coordinates.hpp:663-681, siqad::coord_t::wrap. *)
Definition s_wrap (ar c : coord) : coord :=
  let c1 := if cx ar <? cx c
            then mkC (cd c) 0 (cy c + cz c) (if cz c =? 0 then 1 else 0) else c in
  let c2 := if cz ar <? cz c1 then get_dead ar else c1 in
  if cy ar <? cy c2 then get_dead ar else c2.

(** operator==: coordinates.hpp:204-207, 443-446, 688-691. *)
Definition coord_eqb (a b : coord) : bool :=
  eqb (cd a) (cd b) && (cz a =? cz b) && (cy a =? cy b) && (cx a =? cx b).

(** operator<: coordinates.hpp:235-256 and 464-485 (ucoord_t and cube::coord_t). *)
Definition coord_ltb (a b : coord) : bool :=
  if cz a <? cz b then true
  else if cz a =? cz b then
         if cy a <? cy b then true
         else if cy a =? cy b then cx a <? cx b else false
       else false.

(** operator<: coordinates.hpp:709-722 (siqad::coord_t). *)
Definition s_ltb (a b : coord) : bool :=
  if negb (cy a =? cy b) then cy a <? cy b
  else if negb (cz a =? cz b) then cz a <? cz b
       else cx a <? cx b.

(** operator>, <=, >=: coordinates.hpp:264-289, 493-518, 730-755, all in terms of operator<. *)
Definition gtb_of (ltb : coord -> coord -> bool) (a b : coord) : bool := ltb b a.
Definition leb_of (ltb : coord -> coord -> bool) (a b : coord) : bool := negb (gtb_of ltb a b).
Definition geb_of (ltb : coord -> coord -> bool) (a b : coord) : bool := negb (ltb a b).

(** coordinates.hpp:525-538, cube::coord_t addition and subtraction (no int32 overflow). *)
Definition c_add (a b : coord) : coord := live (cx a + cx b) (cy a + cy b) (cz a + cz b).
Definition c_sub (a b : coord) : coord := live (cx a - cx b) (cy a - cy b) (cz a - cz b).

(** coordinates.hpp:762-765, siqad addition; z is a one-bit field. *)
Definition s_add (a b : coord) : coord :=
  live (cx a + cx b)
       (cy a + cy b + b2z (negb (cz a =? 0) && negb (cz b =? 0)))
       (Z.lxor (cz a) (cz b) mod 2).

(** coordinates.hpp:772-775, siqad subtraction; the difference is cast to the one-bit field. *)
Definition s_sub (a b : coord) : coord :=
  live (cx a - cx b)
       (cy a - cy b - b2z ((cz a =? 0) && negb (cz b =? 0)))
       ((cz a - cz b) mod 2).

(** coordinates.hpp:796-816, to_fiction_coord for signed (cube) targets. The double
    comparison is exact because the operands are below 2^53. *)
Definition to_fiction_coord (c : coord) : coord :=
  if is_dead c then dead0
  else if i32_max <? 2 * cy c + cz c then live (cx c) i32_max 0
  else if 2 * cy c + cz c <? i32_min then live (cx c) i32_min 0
  else live (cx c) (2 * cy c + cz c) 0.

(** coordinates.hpp:826-833, to_siqad_coord; C++ % and / truncate towards zero. *)
Definition to_siqad_coord (c : coord) : coord :=
  if 0 <=? cy c
  then live (cx c) (Z.quot (cy c - Z.rem (cy c) 2) 2) (Z.rem (cy c) 2)
  else live (cx c) (Z.quot (cy c + Z.rem (cy c) 2) 2) (if Z.rem (cy c) 2 =? 0 then 0 else 1).

(** coordinates.hpp:848-860, offset_to_cube_coord. *)
Definition offset_to_cube_coord (c : coord) : coord :=
  if is_dead c then dead0 else live (cx c) (cy c) (cz c).

(** coordinates.hpp:870-879, area; 889-898, volume (uint64 arithmetic; exact for the
    field widths of area; volume of cube coordinates is assumed not to overflow). *)
Definition area (c : coord) : Z := (Z.abs (cx c) + 1) * (Z.abs (cy c) + 1).
Definition s_area (c : coord) : Z := (Z.abs (cx c) + 1) * (2 * Z.abs (cy c) + Z.abs (cz c) + 1).
Definition volume (c : coord) : Z :=
  (Z.abs (cx c) + 1) * (Z.abs (cy c) + 1) * (Z.abs (cz c) + 1).
Definition s_volume (c : coord) : Z := s_area c.

(** The three coordinate kinds the iterator and the layouts are instantiated with. *)
Inductive kind := Offset | Cube | Siqad.

Definition k_wrap (k : kind) : coord -> coord -> coord :=
  match k with Offset => u_wrap | Cube => c_wrap | Siqad => s_wrap end.
Definition k_get_dead (k : kind) : coord -> coord :=
  match k with Offset => u_get_dead | _ => get_dead end.
Definition k_ltb (k : kind) : coord -> coord -> bool :=
  match k with Siqad => s_ltb | _ => coord_ltb end.
(** [++coord.x]: 31-bit field for ucoord_t, int32 otherwise. *)
Definition k_inc_x (k : kind) (c : coord) : coord :=
  match k with
  | Offset => mkC (cd c) ((cx c + 1) mod 2 ^ 31) (cy c) (cz c)
  | _ => mkC (cd c) (cx c + 1) (cy c) (cz c)
  end.
Definition k_area (k : kind) (c : coord) : Z :=
  match k with Siqad => s_area c | _ => area c end.
Definition k_volume (k : kind) (c : coord) : Z :=
  match k with Siqad => s_volume c | _ => volume c end.

(** coordinates.hpp:956-970, coord_iterator constructor: clamp negatives, then wrap. *)
Definition it_start (k : kind) (ar start : coord) : coord :=
  k_wrap k ar (mkC (cd start) (Z.max (cx start) 0) (Z.max (cy start) 0) (Z.max (cz start) 0)).

(** coordinates.hpp:976-990, coord_iterator::operator++. *)
Definition it_next (k : kind) (ar c : coord) : coord :=
  if negb (coord_eqb c ar) then k_wrap k ar (k_inc_x k c) else k_get_dead k c.

(** The loop [for (; it != end; ++it) fn] of mockturtle::detail::foreach_element;
    [None] = not finished after [fuel] steps. *)
Fixpoint it_run (k : kind) (fuel : nat) (ar cur stop : coord) : option (list coord) :=
  if coord_eqb cur stop then Some []
  else match fuel with
       | O => None
       | S f => match it_run k f ar (it_next k ar cur) stop with
                | Some l => Some (cur :: l)
                | None => None
                end
       end.

(** cartesian_layout.hpp:660-682, coordinates / foreach_coordinate, on the layout dimension [ar];
    dead start/stop mean "from the origin" / "to the end". *)
Definition foreach_coordinate (k : kind) (fuel : nat) (ar start stop : coord) : option (list coord) :=
  it_run k fuel ar
    (it_start k ar (if is_dead start then live 0 0 0 else start))
    (it_start k ar (if is_dead stop then k_get_dead k ar else stop)).

(** cartesian_layout.hpp:692-722, ground_coordinates / foreach_ground_coordinate. *)
Definition foreach_ground_coordinate (k : kind) (fuel : nat) (ar start stop : coord)
  : option (list coord) :=
  foreach_coordinate k fuel (live (cx ar) (cy ar) 0) start stop.

(** cartesian_layout.hpp:823-831, initialize_dimension. *)
Definition initialize_dimension (k : kind) (ar : coord) : coord :=
  match k with Siqad => live (cx ar) (cy ar) 1 | _ => ar end.
