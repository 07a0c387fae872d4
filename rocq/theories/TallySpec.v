(** Specification: functions of gates and their numbers. *)
From Coq Require Import Bool List.
From stdpp Require Import list.
From Verif Require Import FanoutModel TallyModel.
From Coq Require Import List.
Import ListNotations.

(** Truth tables of functions; the first argument changes fastest. *)
Definition tab1 (f : bool -> bool) : tt := (1, [f false; f true]).
Definition tab2 (f : bool -> bool -> bool) : tt := (2, [f false false; f true false; f false true; f true true]).
Definition tab3 (f : bool -> bool -> bool -> bool) : tt :=
  (3, [f false false false; f true false false; f false true false; f true true false; f false false true; f true false true; f false true true; f true true true]).
(** The functions that have counters of their own. *)
Definition meaning (k : gkind) : option tt :=
  match k with
  | Inv => Some (tab1 negb)
  | And2 => Some (tab2 andb) | Or2 => Some (tab2 orb) | Nand2 => Some (tab2 (fun a b => negb (a && b))) | Nor2 => Some (tab2 (fun a b => negb (a || b)))
  | Xor2 => Some (tab2 xorb) | Xnor2 => Some (tab2 eqb)
  | Lt2 => Some (tab2 (fun a b => negb a && b)) | Gt2 => Some (tab2 (fun a b => a && negb b)) | Le2 => Some (tab2 (fun a b => negb a || b)) | Ge2 => Some (tab2 (fun a b => a || negb b))
  | And3 => Some (tab3 (fun a b c => a && b && c)) | XorAnd => Some (tab3 (fun a b c => a && xorb b c)) | OrAnd => Some (tab3 (fun a b c => a && (b || c)))
  | Onehot => Some (tab3 (fun a b c => a && negb b && negb c || negb a && b && negb c || negb a && negb b && c))
  | Maj3 => Some (tab3 (fun a b c => a && b || a && c || b && c))
  | Gamble => Some (tab3 (fun a b c => a && b && c || negb a && negb b && negb c))
  | Dot => Some (tab3 (fun a b c => xorb a (c || a && b))) | Mux => Some (tab3 (fun a b c => if a then b else c)) | AndXor => Some (tab3 (fun a b c => xorb a (b && c)))
  | Fanout | Buf | Other => None
  end.
Definition identity : tt := tab1 (fun a => a).
(** The functions of the gates that can be made by name. *)
Definition named (g : creator) : tt :=
  match g with
  | CBuf => tab1 (fun a => a) | CNot => tab1 negb
  | CAnd => tab2 andb | CNand => tab2 (fun a b => negb (a && b)) | COr => tab2 orb | CNor => tab2 (fun a b => negb (a || b))
  | CLt => tab2 (fun a b => negb a && b) | CGe => tab2 (fun a b => a || negb b) | CGt => tab2 (fun a b => a && negb b) | CLe => tab2 (fun a b => negb a || b)
  | CXor => tab2 xorb | CXnor => tab2 eqb
  | CMaj => tab3 (fun a b c => a && b || a && c || b && c) | CIte => tab3 (fun a b c => if a then b else c)
  | CXor3 => tab3 (fun a b c => xorb a (xorb b c)) | CDot => tab3 (fun a b c => xorb a (c || a && b))
  end.
(** Inverters of constants (nodes 0 and 1) are not made: their complement is used. *)
Definition not_of_constant (g : creator) (ch : list nat) : bool := match g, ch with CNot, [0] | CNot, [1] => true | _, _ => false end.
(** The function of the gate that an operation makes; [None] for other nodes. *)
Definition made_function (o : top) : list (option tt) :=
  match o with OPi => [None] | OPo _ => [] | OGate g ch => if not_of_constant g ch then [] else [Some (named g)] | ONode [] _ => [] | ONode _ t => [Some t] end.
Definition functions (ops : list top) : list (option tt) := [None; None] ++ flat_map made_function ops.
(** Truth tables have 2^n bits. *)
Definition legal (o : top) : Prop := match o with ONode _ t => length (snd t) = 2 ^ fst t | _ => True end.
(** The kind of a node, by its function and its number of fan-outs. *)
Definition is_kind (net : tnet) (n : nat) (f : tt) (k : gkind) : Prop :=
  match k with
  | Fanout => f = identity /\ 1 < fanout_size net n
  | Buf => f = identity /\ fanout_size net n <= 1
  | Other => f <> identity /\ forall k', meaning k' <> Some f
  | _ => meaning k = Some f
  end.
