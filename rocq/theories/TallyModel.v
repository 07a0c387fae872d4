(** Model of include/fiction/algorithms/properties/count_gate_types.hpp for technology networks, and of the functions of their gates
    (include/fiction/networks/technology_network.hpp).

    Simplifications.
    - kitty's truth tables are their numbers of variables and lists of bits. mockturtle's truth_table_cache and the functions that
      klut_network puts into it first are not part of the repository; they are modelled here because literals refer to them.
    - Networks as in FanoutModel.v. Counters do not wrap at 2^64. Progress bars are left out. *)
From Coq Require Import ZArith Bool List.
From stdpp Require Import gmap list.
From Verif Require Import FanoutModel.
From Coq Require Import List.
Import ListNotations.

Definition tt := (nat * list bool)%type.
Definition tt_eqb (a b : tt) : bool := bool_decide (a = b).
(** kitty::create_from_words *)
Definition word (vars : nat) (w : Z) : tt := (vars, map (fun i => Z.testbit w (Z.of_nat i)) (seq 0 (2 ^ vars))).
Definition tt_not (t : tt) : tt := (fst t, map negb (snd t)).
(** truth_table_cache::insert: functions with a 1 at position 0 are stored complemented. *)
Definition is_normal (t : tt) : bool := negb (hd false (snd t)).
Fixpoint cache_find (c : list tt) (t : tt) : option nat := match c with [] => None | x :: r => if tt_eqb x t then Some 0 else option_map S (cache_find r t) end.
Definition cache_insert (c : list tt) (t : tt) : list tt * nat :=
  let u := if is_normal t then t else tt_not t in
  let low := if is_normal t then 0 else 1 in
  match cache_find c u with Some i => (c, 2 * i + low) | None => (c ++ [u], 2 * length c + low) end.
(** truth_table_cache::operator[] *)
Definition cache_get (c : list tt) (lit : nat) : option tt := option_map (fun t => if Nat.odd lit then tt_not t else t) (c !! (Nat.div2 lit)).
(** klut_network's functions (constant 0, not, and, or, lt, le, xor, maj, ite, xor3), then technology_network.hpp:401-456, add_additional_functions. *)
Definition initial : list tt := fold_left (fun c t => fst (cache_insert c t))
  [word 0 0; word 1 1; word 2 8; word 2 14; word 2 4; word 2 13; word 2 6; word 3 232; word 3 216; word 3 150;
   word 3 82; word 3 128; word 3 40; word 3 168; word 3 22; word 3 129; word 3 106] [].

Record tstate := mkTS { ts_net : tnet; ts_cache : list tt }.
(** technology_network.hpp:87-168: the creation functions of gates, with the literals that they use. *)
Inductive creator := CBuf | CNot | CAnd | CNand | COr | CNor | CLt | CGe | CGt | CLe | CXor | CXnor | CMaj | CIte | CXor3 | CDot.
Definition create_literal (g : creator) : nat :=
  match g with
  | CBuf => 2 | CNot => 3 | CAnd => 4 | CNand => 5 | COr => 6 | CNor => 7 | CLt => 8 | CGe => 9 | CGt => 10 | CLe => 11 | CXor => 12 | CXnor => 13
  | CMaj => 14 | CIte => 16 | CXor3 => 18 | CDot => 20
  end.
(** technology_network.hpp:92-95, create_not: the complements of constants are constants (nodes 0 and 1); no gate is made. *)
Definition folds (g : creator) (ch : list nat) : bool := match g, ch with CNot, [c] => Nat.ltb c 2 | _, _ => false end.
Inductive top := OPi | OPo (n : nat) | OGate (g : creator) (ch : list nat) | ONode (ch : list nat) (t : tt).
(** technology_network.hpp:201-218, _create_node; 222-230, create_node; klut_network's create_pi and create_po. *)
Definition t_op (st : tstate) (o : top) : tstate :=
  let net := ts_net st in
  let push x pis := mkT (t_nodes net ++ [x]) pis (t_pos net) in
  match o with
  | OPi => mkTS (push TPi (t_pis net ++ [length (t_nodes net)])) (ts_cache st)
  | OPo n => mkTS (mkT (t_nodes net) (t_pis net) (t_pos net ++ [n])) (ts_cache st)
  | OGate g ch => if folds g ch then st else mkTS (push (TGate (create_literal g) ch) (t_pis net)) (ts_cache st)
  | ONode [] _ => st
  | ONode ch t => let r := cache_insert (ts_cache st) t in mkTS (push (TGate (snd r) ch) (t_pis net)) (fst r)
  end.
Definition t_run (ops : list top) : tstate := fold_left t_op ops (mkTS (mkT [TConst false; TConst true] [] []) initial).

(** klut_network's node_function, for gates. *)
Definition node_function (st : tstate) (n : nat) : option tt := match t_nodes (ts_net st) !! n with Some (TGate lit _) => cache_get (ts_cache st) lit | _ => None end.

Inductive gkind := Fanout | Buf | Inv | And2 | Or2 | Nand2 | Nor2 | Xor2 | Xnor2 | Lt2 | Gt2 | Le2 | Ge2 | And3 | XorAnd | OrAnd | Onehot | Maj3 | Gamble | Dot | Mux | AndXor | Other.
Definition gkind_eqb (a b : gkind) : bool := match a, b with
  | Fanout, Fanout | Buf, Buf | Inv, Inv | And2, And2 | Or2, Or2 | Nand2, Nand2 | Nor2, Nor2 | Xor2, Xor2 | Xnor2, Xnor2 | Lt2, Lt2 | Gt2, Gt2 | Le2, Le2 | Ge2, Ge2
  | And3, And3 | XorAnd, XorAnd | OrAnd, OrAnd | Onehot, Onehot | Maj3, Maj3 | Gamble, Gamble | Dot, Dot | Mux, Mux | AndXor, AndXor | Other, Other => true
  | _, _ => false end.
(** technology_network.hpp:271-374: the predicates after is_fanout and is_buf in the order of count_gate_types.hpp:104-277, with their literals. *)
Definition predicates : list (gkind * nat) :=
  [(Inv, 3); (And2, 4); (Or2, 6); (Nand2, 5); (Nor2, 7); (Xor2, 12); (Xnor2, 13); (Lt2, 8); (Gt2, 10); (Le2, 11); (Ge2, 9); (And3, 22); (XorAnd, 24); (OrAnd, 26);
   (Onehot, 28); (Maj3, 14); (Gamble, 31); (Dot, 20); (Mux, 16); (AndXor, 32)].
(** The literal stored in a node; klut_network gives inputs the literal 2. *)
Definition literal (net : tnet) (n : nat) : nat := match t_nodes net !! n with Some (TGate lit _) => lit | Some TPi => 2 | _ => 0 end.
Definition is_pi (net : tnet) (n : nat) : bool := match t_nodes net !! n with Some TPi => true | _ => false end.
(** count_gate_types.hpp:84-288: the counter that a node increments. *)
Definition classify (net : tnet) (n : nat) : option gkind :=
  if t_is_constant net n then None
  else if is_fanout net n then Some Fanout
  else if is_buf net n then Some Buf
  else match find (fun p => Nat.eqb (literal net n) (snd p)) predicates with
  | Some (k, _) => Some k
  | None => if is_pi net n then None else Some Other
  end.
(** count_gate_types.hpp:310-326, count_gate_types: one of the counters. *)
Definition count_gate_types (net : tnet) (k : gkind) : nat :=
  fold_left (fun c n => match classify net n with Some k' => if gkind_eqb k' k then S c else c | None => c end) (seq 0 (length (t_nodes net))) 0.
(** count_gate_types.hpp:70-75: the total that is reported. *)
Definition kinds : list gkind := [Fanout; Buf; Inv; And2; Or2; Nand2; Nor2; Xor2; Xnor2; Le2; Ge2; Gt2; Lt2; And3; XorAnd; OrAnd; Onehot; Maj3; Gamble; Dot; Mux; AndXor; Other].
Definition total_gates (net : tnet) : nat := fold_left (fun s k => s + count_gate_types net k) kinds 0.
