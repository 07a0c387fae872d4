(** Model of include/fiction/layouts/cartesian_layout.hpp and hexagonal_layout.hpp:
    direction functions and adjacency. [ar] is the layout dimension. Since every increment is
    guarded by the dimension and every decrement by zero, integer wraps can only occur in the
    cube-to-offset conversion, where they are modelled. *)
From Coq Require Import ZArith Bool List.
From Verif Require Import CoordModel.
Import ListNotations.
Local Open Scope Z_scope.

Definition set_d (c : coord) : coord := mkC true (cx c) (cy c) (cz c).

(** cartesian_layout.hpp:172-183 = hexagonal_layout.hpp:328-339 *)
Definition north (ar c : coord) : coord :=
  if cy c =? 0 then c else mkC (cd c) (cx c) (cy c - 1) (cz c).
(** cartesian_layout.hpp:192-204 *)
Definition north_east (ar c : coord) : coord :=
  if (cx c =? cx ar) || (cy c =? 0) then c else mkC (cd c) (cx c + 1) (cy c - 1) (cz c).
(** cartesian_layout.hpp:212-226 = hexagonal_layout.hpp:363-377 *)
Definition east (ar c : coord) : coord :=
  if cx ar <? cx c then set_d c
  else if cx c <? cx ar then mkC (cd c) (cx c + 1) (cy c) (cz c) else c.
(** cartesian_layout.hpp:235-250 *)
Definition south_east (ar c : coord) : coord :=
  if (cx ar <? cx c) || (cy ar <? cy c) then set_d c
  else if (cx c <? cx ar) && (cy c <? cy ar) then mkC (cd c) (cx c + 1) (cy c + 1) (cz c) else c.
(** cartesian_layout.hpp:258-272 = hexagonal_layout.hpp:411-425 *)
Definition south (ar c : coord) : coord :=
  if cy ar <? cy c then set_d c
  else if cy c <? cy ar then mkC (cd c) (cx c) (cy c + 1) (cz c) else c.
(** cartesian_layout.hpp:281-296 *)
Definition south_west (ar c : coord) : coord :=
  if cy ar <? cy c then set_d c
  else if (0 <? cx c) && (cy c <? cy ar) then mkC (cd c) (cx c - 1) (cy c + 1) (cz c) else c.
(** cartesian_layout.hpp:304-315 = hexagonal_layout.hpp:447-458 *)
Definition west (ar c : coord) : coord :=
  if cx c =? 0 then c else mkC (cd c) (cx c - 1) (cy c) (cz c).
(** cartesian_layout.hpp:324-336 *)
Definition north_west (ar c : coord) : coord :=
  if (cx c =? 0) || (cy c =? 0) then c else mkC (cd c) (cx c - 1) (cy c - 1) (cz c).
(** cartesian_layout.hpp:344-358 = hexagonal_layout.hpp:499-513 *)
Definition above (ar c : coord) : coord :=
  if cz ar <? cz c then set_d c
  else if cz c <? cz ar then mkC (cd c) (cx c) (cy c) (cz c + 1) else c.
(** cartesian_layout.hpp:366-377 = hexagonal_layout.hpp:521-532 *)
Definition below (ar c : coord) : coord :=
  if cz c =? 0 then c else mkC (cd c) (cx c) (cy c) (cz c - 1).

(** is_X_of: cartesian_layout.hpp:385-423 = hexagonal_layout.hpp:540-578, 597-609:
    [c1 != c2 && dir(c1) == c2]. *)
Definition is_dir_of (dir : coord -> coord -> coord) (ar c1 c2 : coord) : bool :=
  negb (coord_eqb c1 c2) && coord_eqb (dir ar c1) c2.

(** cartesian_layout.hpp:431-434 *)
Definition c_is_adjacent_of (ar c1 c2 : coord) : bool :=
  is_dir_of north ar c1 c2 || is_dir_of east ar c1 c2 ||
  is_dir_of south ar c1 c2 || is_dir_of west ar c1 c2.

(** cartesian_layout.hpp:754-772, foreach_adjacent_coordinate: the sequence of calls to fn. *)
Definition c_adjacent (ar c : coord) : list coord :=
  filter (fun n => negb (coord_eqb n c)) [north ar c; east ar c; south ar c; west ar c].

(** cartesian_layout.hpp:794-808, foreach_adjacent_opposite_coordinates. *)
Definition opposite_pairs (c : coord) (ps : list (coord * coord)) : list (coord * coord) :=
  filter (fun p => negb (coord_eqb (fst p) c) && negb (coord_eqb (snd p) c)) ps.
Definition c_opposites (ar c : coord) : list (coord * coord) :=
  opposite_pairs c [(north ar c, south ar c); (east ar c, west ar c)].

(** is_*wards_of: cartesian_layout.hpp:477-517. *)
Definition is_northwards_of (c1 c2 : coord) : bool := (cz c1 =? cz c2) && (cy c2 <? cy c1) && (cx c1 =? cx c2).
Definition is_eastwards_of (c1 c2 : coord) : bool := (cz c1 =? cz c2) && (cy c1 =? cy c2) && (cx c1 <? cx c2).
Definition is_southwards_of (c1 c2 : coord) : bool := (cz c1 =? cz c2) && (cy c1 <? cy c2) && (cx c1 =? cx c2).
Definition is_westwards_of (c1 c2 : coord) : bool := (cz c1 =? cz c2) && (cy c1 =? cy c2) && (cx c2 <? cx c1).

(** is_at_*_border, cartesian_layout.hpp:524-569; *_border_of, 577-613. *)
Definition is_at_northern_border (ar c : coord) : bool := cy c =? 0.
Definition is_at_eastern_border (ar c : coord) : bool := cx c =? cx ar.
Definition is_at_southern_border (ar c : coord) : bool := cy c =? cy ar.
Definition is_at_western_border (ar c : coord) : bool := cx c =? 0.
Definition is_at_any_border (ar c : coord) : bool :=
  is_at_northern_border ar c || is_at_eastern_border ar c || is_at_southern_border ar c || is_at_western_border ar c.
Definition northern_border_of (ar c : coord) : coord := live (cx c) 0 (cz c).
Definition eastern_border_of (ar c : coord) : coord := live (cx ar) (cy c) (cz c).
Definition southern_border_of (ar c : coord) : coord := live (cx c) (cy ar) (cz c).
Definition western_border_of (ar c : coord) : coord := live 0 (cy c) (cz c).

(** is_within_bounds: cartesian_layout.hpp:640-643, hexagonal_layout.hpp:797-800 (unsigned fields). *)
Definition is_within_bounds (ar c : coord) : bool :=
  (cx c <=? cx ar) && (cy c <=? cy ar) && (cz c <=? cz ar).

(** is_ground_layer / is_crossing_layer: cartesian_layout.hpp:620-633. *)
Definition is_ground_layer (c : coord) : bool := cz c =? 0.
Definition is_crossing_layer (c : coord) : bool := 0 <? cz c.

(** ** Hexagonal layouts (over ucoord_t) *)

(** hexagonal_layout.hpp:36-120: the four arrangements; rows are pointy-top, columns flat-top. *)
Inductive hex_arr := OddRow | EvenRow | OddColumn | EvenColumn.

Definition pointy (a : hex_arr) : bool := match a with OddRow | EvenRow => true | _ => false end.
(** [offset] in hexagonal_layout.hpp:1030-1033 and 1066-1069. *)
Definition hex_offset (a : hex_arr) : Z := match a with OddRow | OddColumn => -1 | _ => 1 end.

(** hexagonal_layout.hpp:1025-1052, to_cube_coordinate. The result carries no layer. [Z.quot] is C++ '/'. *)
Definition to_cube (a : hex_arr) (c : coord) : coord :=
  if pointy a then
    let qx := cx c - Z.quot (cy c + hex_offset a * Z.land (cy c) 1) 2 in
    live qx (- qx - cy c) (cy c)
  else
    let qz := cy c - Z.quot (cx c + hex_offset a * Z.land (cx c) 1) 2 in
    live (cx c) (- cx c - qz) qz.

(** hexagonal_layout.hpp:1060-1085, to_offset_coordinate; assignments to the 31-bit fields wrap. *)
Definition to_offset (a : hex_arr) (q : coord) : coord :=
  if pointy a then
    live ((cx q + Z.quot (cz q + hex_offset a * Z.land (cz q) 1) 2) mod 2 ^ 31) (cz q mod 2 ^ 31) 0
  else
    live (cx q mod 2 ^ 31) ((cz q + Z.quot (cx q + hex_offset a * Z.land (cx q) 1) 2) mod 2 ^ 31) 0.

(** The neighbour in cube direction [dir], with the layer restored
    (hexagonal_layout.hpp:928-931 and the direction functions). *)
Definition hex_step (a : hex_arr) (c dir : coord) : coord :=
  let n := to_offset a (c_add (to_cube a c) dir) in mkC (cd n) (cx n) (cy n) (cz c).

(** hexagonal_layout.hpp:348-355, 385-403, 433-440, 467-485. *)
Definition hex_dir (a : hex_arr) (ar c dir : coord) : coord :=
  let n := hex_step a c dir in if is_within_bounds ar n then n else c.
Definition hex_north_east (a : hex_arr) (ar c : coord) : coord := hex_dir a ar c (live 1 0 (-1)).
Definition hex_south_east (a : hex_arr) (ar c : coord) : coord :=
  if pointy a then hex_dir a ar c (live 0 (-1) 1) else hex_dir a ar c (live 1 (-1) 0).
Definition hex_south_west (a : hex_arr) (ar c : coord) : coord := hex_dir a ar c (live (-1) 0 1).
Definition hex_north_west (a : hex_arr) (ar c : coord) : coord :=
  if pointy a then hex_dir a ar c (live 0 1 (-1)) else hex_dir a ar c (live (-1) 1 0).

(** hexagonal_layout.hpp:917-940, foreach_adjacent_coordinate: the sequence of calls to fn. *)
Definition cube_directions : list coord :=
  [live 1 (-1) 0; live 1 0 (-1); live 0 1 (-1); live (-1) 1 0; live (-1) 0 1; live 0 (-1) 1].
Definition hex_adjacent (a : hex_arr) (ar c : coord) : list coord :=
  filter (is_within_bounds ar) (map (hex_step a c) cube_directions).

(** hexagonal_layout.hpp:582-595, is_adjacent_of. *)
Definition hex_is_adjacent_of (a : hex_arr) (ar c1 c2 : coord) : bool :=
  existsb (fun n => coord_eqb n c2) (hex_adjacent a ar c1).

(** hexagonal_layout.hpp:983-1005, foreach_adjacent_opposite_coordinates. *)
Definition hex_opposites (a : hex_arr) (ar c : coord) : list (coord * coord) :=
  opposite_pairs c
    [ (if pointy a then (east ar c, west ar c) else (north ar c, south ar c));
      (hex_north_east a ar c, hex_south_west a ar c);
      (hex_north_west a ar c, hex_south_east a ar c) ].

(** ** Topologies: what clocked and gate-level layouts are built on. *)
Inductive topo := Cartesian | Hex (a : hex_arr).
Definition adjacent (t : topo) (ar c : coord) : list coord :=
  match t with Cartesian => c_adjacent ar c | Hex a => hex_adjacent a ar c end.
Definition is_adjacent_of (t : topo) (ar c1 c2 : coord) : bool :=
  match t with Cartesian => c_is_adjacent_of ar c1 c2 | Hex a => hex_is_adjacent_of a ar c1 c2 end.
(** cartesian_layout.hpp:443-447, hexagonal_layout.hpp:601-605. *)
Definition is_adjacent_elevation_of (t : topo) (ar c1 c2 : coord) : bool :=
  is_adjacent_of t ar c1 c2 || is_adjacent_of t ar (above ar c1) c2 || is_adjacent_of t ar (below ar c1) c2.
(** max_fanin_size: cartesian_layout.hpp:65, hexagonal_layout.hpp:181. *)
Definition max_fanin_size (t : topo) : Z := match t with Cartesian => 3 | Hex _ => 5 end.
