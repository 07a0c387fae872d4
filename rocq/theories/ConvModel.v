(** Model of include/fiction/algorithms/network_transformation/network_conversion.hpp for different types of networks.

    Simplifications.
    - The source is a network with complemented edges. Its gates carry the first of the predicates is_and, is_or, is_xor, is_maj, is_nary_and,
      is_nary_or, is_nary_xor and is_buf that holds, and the literal of their function. The order in which the topological view lists the gates is an argument.
    - The destination is any type of network, given by its operations; optional ones ([None]) are those that mockturtle's traits look for.
    - Names ([restore_names]) and progress bars are left out. *)
From Coq Require Import Bool List.
From stdpp Require Import gmap list.
From Verif Require Import FanoutModel VirtModel.
Import ListNotations.

Inductive skind := KAnd | KOr | KXor | KMaj | KNaryAnd | KNaryOr | KNaryXor | KBuf | KOther.
(** Edges: a node and whether it is complemented. *)
Inductive snode := SConst (b : bool) | SPi | SGate (k : skind) (lit : nat) (ch : list (nat * bool)).
(** [s_c0] and [s_c1] are get_node(get_constant(false)) and get_node(get_constant(true)), which may be the same node. *)
Record snet := mkS { s_nodes : list snode; s_c0 : nat; s_c1 : nat; s_pis : list nat; s_pos : list (nat * bool) }.

(** A type of networks: states, signals and operations. [d_sig0] is the default-constructed signal of node_map. *)
Record dest := mkDest {
  dD : Type; dS : Type; d_sig0 : dS;
  d_new : dD; d_const : dD -> bool -> dS; d_pi : dD -> dD * dS; d_po : dD -> dS -> dD;
  d_not : dD -> dS -> dD * dS; d_and : dD -> dS -> dS -> dD * dS; d_or : dD -> dS -> dS -> dD * dS; d_xor : dD -> dS -> dS -> dD * dS;
  d_maj : dD -> dS -> dS -> dS -> dD * dS;
  d_nary_and : option (dD -> list dS -> dD * dS); d_nary_or : option (dD -> list dS -> dD * dS); d_nary_xor : option (dD -> list dS -> dD * dS);
  d_buf : option (dD -> dS -> dD * dS); d_node : option (dD -> list dS -> nat -> dD * dS) }.

Section Convert.
Variable dst : dest.
(** has_node_function_v of the source. *)
Variable node_function : bool.
Variable src : snet.

Definition cstate := (dD dst * gmap nat (dS dst))%type.
(** old2new[n] *)
Definition conv (m : gmap nat (dS dst)) (n : nat) : dS dst := default (d_sig0 dst) (m !! n).
(** network_conversion.hpp:62-77, gather_fanin_signals: one edge; 170-171: the same for outputs. *)
Definition conv_edge (m : gmap nat (dS dst)) (f : nat * bool) (d : dD dst) : dD dst * dS dst := if snd f then d_not dst d (conv m (fst f)) else (d, conv m (fst f)).
Definition gather (m : gmap nat (dS dst)) (fs : list (nat * bool)) (d : dD dst) : dD dst * list (dS dst) :=
  fold_left (fun acc f => let r := conv_edge m f (fst acc) in (fst r, snd acc ++ [snd r])) fs (d, []).
(** network_conversion.hpp:84-165: one gate; [None]: a missing fan-in is read. *)
Definition conv_gate (n : nat) (st : cstate) : option cstate :=
  match s_nodes src !! n with
  | Some (SGate k lit ch) =>
    let r := gather (snd st) ch (fst st) in
    let d := fst r in
    let cs := snd r in
    let set (x : dD dst * dS dst) : option cstate := Some (fst x, <[n := snd x]> (snd st)) in
    let other := match d_node dst with Some f => if node_function then set (f d cs lit) else Some (d, snd st) | None => Some (d, snd st) end in
    match k with
    | KAnd => match cs with a :: b :: _ => set (d_and dst d a b) | _ => None end
    | KOr => match cs with a :: b :: _ => set (d_or dst d a b) | _ => None end
    | KXor => match cs with a :: b :: _ => set (d_xor dst d a b) | _ => None end
    | KMaj => match cs with a :: b :: c :: _ => set (d_maj dst d a b c) | _ => None end
    | KNaryAnd => match d_nary_and dst with Some f => set (f d cs) | None => other end
    | KNaryOr => match d_nary_or dst with Some f => set (f d cs) | None => other end
    | KNaryXor => match d_nary_xor dst with Some f => set (f d cs) | None => other end
    | KBuf => match d_buf dst with Some f => match cs with a :: _ => set (f d a) | [] => None end | None => other end
    | KOther => other
    end
  | _ => None
  end.
(** mockturtle's initialize_copy_network: constants, then inputs. *)
Definition conv_start : cstate :=
  let d := d_new dst in
  let m := <[s_c0 src := d_const dst d false]> ∅ in
  let m := if Nat.eqb (s_c1 src) (s_c0 src) then m else <[s_c1 src := d_const dst d true]> m in
  fold_left (fun st n => let r := d_pi dst (fst st) in (fst r, <[n := snd r]> (snd st))) (s_pis src) (d, m).
(** network_conversion.hpp:167-174: one output. *)
Definition conv_po (m : gmap nat (dS dst)) (d : dD dst) (f : nat * bool) : dD dst := let r := conv_edge m f d in d_po dst (fst r) (snd r).
(** network_conversion.hpp:56-180, run; convert_network, 202-233. *)
Definition convert_network (order : list nat) : option (dD dst) :=
  match fold_o conv_gate order conv_start with
  | Some st => Some (fold_left (conv_po (snd st)) (s_pos src) (fst st))
  | None => None
  end.
End Convert.

(** ** Technology networks as a destination *)

(** technology_network.hpp:201-218, _create_node *)
Definition t_create (lit : nat) (ch : list nat) (net : tnet) : tnet * nat := (t_push net (TGate lit ch), length (t_nodes net)).
(** technology_network.hpp:92-95, create_not: constants are not inverted by a gate. *)
Definition t_create_not (net : tnet) (a : nat) : tnet * nat :=
  match t_nodes net !! a with Some (TConst b) => (net, if negb b then 1 else 0) | _ => t_create 3 [a] net end.
(** mockturtle's tree_reduce; [fuel] bounds the depth and never runs out. *)
Fixpoint t_reduce (lit init fuel : nat) (net : tnet) (l : list nat) : tnet * nat :=
  match l, fuel with
  | [], _ => (net, init)
  | [a], _ => (net, a)
  | _, O => (net, init)
  | _, S fuel =>
    let m := length l / 2 in
    let r1 := t_reduce lit init fuel net (take m l) in
    let r2 := t_reduce lit init fuel (fst r1) (drop m l) in
    t_create lit [snd r1; snd r2] (fst r2)
  end.
(** technology_network.hpp:87-193: create_buf, create_not, create_and, create_or, create_xor, create_maj, create_nary_and, create_nary_or, create_nary_xor;
    222-230, create_node (the children are not empty). *)
Definition tech_dest : dest := mkDest tnet nat 0 (mkT [TConst false; TConst true] [] []) (fun _ b => if b then 1 else 0)
  (fun net => (t_create_pi net, length (t_nodes net))) t_create_po t_create_not
  (fun net a b => t_create 4 [a; b] net) (fun net a b => t_create 6 [a; b] net) (fun net a b => t_create 12 [a; b] net) (fun net a b c => t_create 14 [a; b; c] net)
  (Some (fun net l => t_reduce 4 1 (length l) net l)) (Some (fun net l => t_reduce 6 0 (length l) net l)) (Some (fun net l => t_reduce 12 0 (length l) net l))
  (Some (fun net a => t_create 2 [a] net)) (Some (fun net l lit => t_create lit l net)).
