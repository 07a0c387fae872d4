(** Model of include/fiction/algorithms/physical_design/hexagonalization.hpp with the default parameters (both pin extension
    modes NONE), of the functions place() of include/fiction/utils/placement_utils.hpp it calls and of restore_names()
    of include/fiction/utils/name_utils.hpp. The statistics are not modelled. *)
From Coq Require Import ZArith Bool String List.
From stdpp Require Import gmap list numbers strings.
From Verif Require Import CoordModel GridModel CoordMap ClockModel GateModel.
Import ListNotations.
Local Open Scope Z_scope.

(** Assignment to a 31-bit field of an offset coordinate. *)
Definition fit31 (v : Z) : Z := v mod 2147483648.

(** hexagonalization.hpp:178-198, to_hex. The sum of the two 31-bit fields is computed in [int]; [hexagonalization] below excludes its
    overflow. Halving, rounding and the difference are exact in double precision for numbers of this size:
    ceil(floor(h / 2) - y / 2) = floor(h / 2) - floor(y / 2). The conversion drops the deadness of the argument. *)
Definition to_hex (height : Z) (t : coord) : coord :=
  let y := cx t + cy t in
  let adjustment := height / 2 - y / 2 in
  live (fit31 (cx t + adjustment)) (fit31 y) (cz t).

(** hexagonalization.hpp:345-361, one diagonal of the first loop of get_offset; the state: offset and found_non_empty_tile. *)
Definition offset_diagonal (st : glayout) (width height diagonal : Z) (s : Z * bool) : Z * bool :=
  fold_left (fun (s : Z * bool) row =>
      let col := diagonal - row in
      if (row <=? diagonal) && (col <? width) then
        let t := live col (height - 1 - row) 0 in
        if negb (is_empty_tile st t) then (Z.max (fst s) (cx (to_hex height t)), true) else s
      else s)
    (seqZ 0 height) s.
(** hexagonalization.hpp:328-399, get_offset without pin extension: the offset is not negative, so nothing is added and it is
    what is subtracted. *)
Definition get_offset (st : glayout) (width height : Z) : Z :=
  fst (fold_left (fun (s : Z * bool) diagonal => if snd s then s else offset_diagonal st width height diagonal s)
                 (seqZ 0 (height + width - 1)) (0, false)).

(** to_hex followed by [x += offset_to_add - offset_to_subtract] (e.g. hexagonalization.hpp:486-487): 64-bit arithmetic, truncated to 31 bits. *)
Definition to_hex_offset (height offset : Z) (t : coord) : coord :=
  let h := to_hex height t in live (fit31 (cx h - offset)) (cy h) (cz h).

(** hex_layout.make_signal(hex_layout.get_node(t)). *)
Definition signal_at (st : glayout) (t : coord) : coord := get_tile st (get_node st t).

(** placement_utils.hpp:121-145, place with one incoming signal. The node [n] belongs to [src]. [None]: no supported type, an assertion. *)
Definition place1 (st : glayout) (t : coord) (src : glayout) (n : nat) (a : coord) : option glayout :=
  let lit := n_lit (node_at src n) in
  if lit =? 3 then Some (create_lit st [a] 3 t)
  else if lit =? 2 then Some (create_lit st [a] 2 t)
  else None.
(** placement_utils.hpp:163-266, place with two incoming signals and no constant: the tests of the named types (literals 4 to 13) create
    the same type; a majority node needs the constant ([None]: assertion, then undefined); all others are created from their function,
    which the cache maps to the same literal. *)
Definition place2 (st : glayout) (t : coord) (src : glayout) (n : nat) (a b : coord) : option glayout :=
  let lit := n_lit (node_at src n) in
  if lit =? 14 then None else Some (create_lit st [a; b] lit t).

(** The hexagonal layout under construction and the largest coordinates so far (x_max, y_max). *)
Definition hstate : Type := glayout * Z * Z.
Definition bump (s : hstate) (t : coord) : hstate := let '(h, xm, ym) := s in (h, Z.max (cx t) xm, Z.max (cy t) ym).

Section Run.
Context (src : glayout) (height offset : Z).
Let image := to_hex_offset height offset.
(** hexagonalization.hpp:480-503, one primary input. *)
Definition hex_pi (s : hstate) (pi : nat) : hstate :=
  let old := get_tile src pi in
  let '(h, xm, ym) := s in
  bump (create_pi h (get_name src (get_node src old)) (image old), xm, ym) (image old).
(** hexagonalization.hpp:552-616, one tile of the Cartesian layout. *)
Definition hex_tile (s : hstate) (t : coord) : option hstate :=
  if is_empty_tile src t then Some s
  else
    let n := get_node src t in
    if is_pi src n then Some s
    else
      let '(h, xm, ym) := bump s (image t) in
      match incoming_data_flow true src t with
      | [a] => if is_po src n then Some (h, xm, ym)
               else match place1 h (image t) src n (signal_at h (image a)) with Some h' => Some (h', xm, ym) | None => None end
      | [a; b] => match place2 h (image t) src n (signal_at h (image a)) (signal_at h (image b)) with Some h' => Some (h', xm, ym) | None => None end
      | _ => Some (h, xm, ym)
      end.
(** hexagonalization.hpp:623-656, one primary output; taking the first incoming signal is undefined if there is none ([None]). *)
Definition hex_po (s : hstate) (po : coord) : option hstate :=
  let old := get_tile src (get_node src po) in
  match incoming_data_flow true src old with
  | [] => None
  | a :: _ => let '(h, xm, ym) := bump s (image old) in
              Some (create_po h (signal_at h (image a)) (get_name src (get_node src old)) (image old), xm, ym)
  end.
End Run.

(** hexagonalization.hpp:540-620, the tiles in the order of the loops: diagonal k, column x, layer z. *)
Definition diagonal_tiles (ar : coord) : list coord :=
  flat_map (fun k => flat_map (fun x => let y := k - x in
      if (y <? cy ar + 1) && (x <? cx ar + 1) then map (fun z => live x y z) (seqZ 0 (cz ar + 1)) else [])
    (seqZ 0 (k + 1))) (seqZ 0 (cx ar + 1 + (cy ar + 1) - 1)).

Definition fold_opt {A B} (f : A -> B -> option A) (l : list B) (a : option A) : option A :=
  fold_left (fun a x => match a with Some s => f s x | None => None end) l a.

(** name_utils.hpp:106-129, restore_input_names; 139-161, restore_output_names. *)
Definition restore_input_names (src dst : glayout) : glayout :=
  fold_left (fun d i => let nm := get_name src (get_node src (get_tile src (nth i (g_in src) 0%nat))) in
                        if String.eqb nm "" then d else set_name d (get_node d (get_tile d (nth i (g_in d) 0%nat))) nm)
            (seq 0 (length (g_in src))) dst.
Definition restore_output_names (src dst : glayout) : glayout :=
  fold_left (fun d i => let nm := get_output_name src i in
                        if String.eqb nm "" then d
                        else match g_out d !! i with Some s => set_name d (get_node d s) nm | None => d end)
            (seq 0 (length (g_out src))) dst.
(** name_utils.hpp:252-258, restore_names; the name of the layout is not modelled. *)
Definition restore_names (src dst : glayout) : glayout := restore_output_names src (restore_input_names src dst).

(** hexagonal_layout.hpp:270-273, resize. *)
Definition resize (st : glayout) (ar : coord) : glayout :=
  with_cl st (mkCL (cl_topo (g_cl st)) ar (cl_scheme (g_cl st))).

(** hexagonalization.hpp:410-1001, run without pin extension. [None]: the first call of to_hex (line 429) overflows [int], or one of the
    errors above. *)
Definition hexagonalization (src : glayout) : option glayout :=
  let ar := cl_dim (g_cl src) in
  let height := cy ar + 1 in
  if 2147483648 <=? cx ar + cy ar then None
  else
    let hex_height := cy (to_hex height (live (cx ar) (cy ar) 0)) in
    let hex_width := cx (to_hex height (live (cx ar) 0 0)) in
    let lyt := g_empty (mkCL (Hex EvenRow) (live hex_width hex_height (cz ar)) (clocking (Hex EvenRow) (ROW FOUR))) in
    let offset := get_offset src (cx ar + 1) height in
    let s1 := fold_left (hex_pi src height offset) (foreach_pi src) (lyt, 0, 0) in
    let s2 := fold_opt (hex_tile src height offset) (diagonal_tiles ar) (Some s1) in
    match fold_opt (hex_po src height offset) (foreach_po src) s2 with
    | Some (h, xm, ym) => Some (restore_names src (resize h (live (fit31 xm) (fit31 ym) (cz ar))))
    | None => None
    end.
