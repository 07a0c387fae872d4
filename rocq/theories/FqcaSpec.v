(** Cell-level QCA layouts that an FQCA file describes, and what it means to read the same layout back. *)
From Coq Require Import ZArith Bool String Ascii List.
From stdpp Require Import gmap list.
From Verif Require Import CoordModel CoordSpec GridModel ClockModel CellModel FqcaModel.
From Coq Require Import List.
Import ListNotations.
Open Scope Z_scope.

(** There is a cell at [c]; it is a constant; it has a name or it is an input or an output. *)
Definition cell_at (l : clayout) (c : coord) : Prop := get_cell_type qca l c <> t_empty qca.
Definition constant (l : clayout) (c : coord) : Prop := get_cell_type qca l c = q_const0 \/ get_cell_type qca l c = q_const1.
Definition labelled (l : clayout) (c : coord) : Prop :=
  cell_at l c /\ (get_cell_name l c <> ""%string \/ get_cell_type qca l c = t_input qca \/ get_cell_type qca l c = t_output qca).
(** The text has no line feed. *)
Definition one_line (s : string) : Prop := ~ In nl (list_ascii_of_string s).
(** A text without its white space. *)
Definition unspaced (s : string) : string :=
  string_of_list_ascii (List.filter (fun c => negb (is_space c)) (list_ascii_of_string s)).

(** Dimensions with [layers] layers that the coordinates can hold. *)
Definition dims_ok (k : kind) (ar : coord) (layers : Z) : Prop :=
  0 <= cx ar < 2 ^ 31 /\ 0 <= cy ar < 2 ^ 31 /\ 0 <= cz ar /\
  layers <= match k with Offset => 2 | _ => 2 ^ 31 end.

(** A QCA layout inside its dimensions, with the cell types of the technology, clocked by at most four clocks, with at most 52
    labelled cells, whose constants have no names and whose names are single lines. *)
Record fqca_layout (l : clayout) : Prop := {
  fq_inside : forall c, cell_at l c -> inb (cl_dim (c_cl l)) c;
  fq_clocks : forall c, inb (cl_dim (c_cl l)) c -> exists n, cell_clock_number l c = Some n /\ 0 <= n < 4;
  fq_constants : forall c, constant l c -> get_cell_name l c = ""%string;
  fq_names : forall c, cell_at l c -> one_line (get_cell_name l c);
  fq_labels : forall L, List.NoDup L -> (forall c, In c L -> labelled l c) -> (length L <= 52)%nat
}.
(** The layout comes from a history of calls that use the cell types of QCA technology. *)
Definition qca_history (ops : list cop) : Prop := forall c ct, In (AssignType c ct) ops -> In ct (t_types qca).

(** The dimensions are the smallest ones around the cells. *)
Definition dims_fit (l : clayout) : Prop :=
  let ar := cl_dim (c_cl l) in
  (forall c, cell_at l c -> inb ar c) /\
  0 <= cx ar /\ 0 <= cy ar /\ 0 <= cz ar /\
  (0 < cx ar -> exists c, cell_at l c /\ cx c = cx ar) /\
  (0 < cy ar -> exists c, cell_at l c /\ cy c = cy ar) /\
  (0 < cz ar -> exists c, cell_at l c /\ cz c = cz ar).

(** Cell [d] of [l'] is what cell [c] of [l] is: its type, its role, its name without white space and, if it is neither empty
    nor a constant, its clock number. *)
Definition same_cell (l : clayout) (c : coord) (l' : clayout) (d : coord) : Prop :=
  get_cell_type qca l' d = get_cell_type qca l c /\
  c_is_pi l' d = c_is_pi l c /\ c_is_po l' d = c_is_po l c /\
  (cell_at l c -> get_cell_name l' d = unspaced (get_cell_name l c)) /\
  (cell_at l c -> ~ constant l c -> cell_clock_number l' d = cell_clock_number l c).
(** Layers above the ground hold vias if they are odd, crossing wires if they are even. *)
Definition layer_mode (z : Z) : Z := if z =? 0 then 0 else if Z.even z then m_crossover else m_vertical.
