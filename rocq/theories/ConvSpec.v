(** Specification of network conversion. *)
From Coq Require Import Bool List.
From stdpp Require Import gmap list.
From Verif Require Import FanoutModel FanoutSpec ConvModel.
From Coq Require Import List.
Import ListNotations.

(** The values of the nodes of a source network; a complemented edge has the opposite value of its node. *)
Inductive svalue (sem : nat -> list bool -> option bool) (src : snet) (env : nat -> bool) : nat -> bool -> Prop :=
| sv_const n b : s_nodes src !! n = Some (SConst b) -> svalue sem src env n b
| sv_input n k : s_nodes src !! n = Some SPi -> s_pis src !! k = Some n -> svalue sem src env n (env k)
| sv_gate n k lit ch vs b : s_nodes src !! n = Some (SGate k lit ch) -> Forall2 (fun f v => svalue sem src env (fst f) (xorb (snd f) v)) ch vs -> sem lit vs = Some b ->
    svalue sem src env n b.
Definition edge_value sem src env (f : nat * bool) (v : bool) : Prop := svalue sem src env (fst f) (xorb (snd f) v).

(** What the functions are that gates are asked for or built with. *)
Definition f_not (vs : list bool) : option bool := match vs with [a] => Some (negb a) | _ => None end.
Definition f_id (vs : list bool) : option bool := match vs with [a] => Some a | _ => None end.
Definition f_two (op : bool -> bool -> bool) (vs : list bool) : option bool := match vs with [a; b] => Some (op a b) | _ => None end.
Definition f_maj (vs : list bool) : option bool := match vs with [a; b; c] => Some (a && b || a && c || b && c) | _ => None end.
Definition f_all (vs : list bool) : option bool := Some (forallb id vs).
Definition f_any (vs : list bool) : option bool := Some (existsb id vs).
Definition f_odd (vs : list bool) : option bool := Some (fold_right xorb false vs).
(** Fan-ins and functions of gates for which a predicate holds. *)
Definition truthful (sem : nat -> list bool -> option bool) (k : skind) (lit n : nat) : Prop :=
  match k with
  | KAnd => n = 2 /\ forall vs, length vs = n -> sem lit vs = f_two andb vs
  | KOr => n = 2 /\ forall vs, length vs = n -> sem lit vs = f_two orb vs
  | KXor => n = 2 /\ forall vs, length vs = n -> sem lit vs = f_two xorb vs
  | KMaj => n = 3 /\ forall vs, length vs = n -> sem lit vs = f_maj vs
  | KNaryAnd => forall vs, length vs = n -> sem lit vs = f_all vs
  | KNaryOr => forall vs, length vs = n -> sem lit vs = f_any vs
  | KNaryXor => forall vs, length vs = n -> sem lit vs = f_odd vs
  | KBuf => n = 1 /\ forall vs, length vs = n -> sem lit vs = f_id vs
  | KOther => True
  end.

(** A source network: its constants, inputs and gates; [order] lists gates in topological order, among them all that outputs and listed gates depend on. *)
Record source (sem : nat -> list bool -> option bool) (src : snet) (order : list nat) : Prop := {
  so_0 : s_nodes src !! s_c0 src = Some (SConst false);
  so_1 : s_c1 src <> s_c0 src -> s_nodes src !! s_c1 src = Some (SConst true);
  so_const : forall n b, s_nodes src !! n = Some (SConst b) -> n = s_c0 src \/ n = s_c1 src;
  so_pis : forall n, In n (s_pis src) <-> s_nodes src !! n = Some SPi;
  so_pis_once : List.NoDup (s_pis src);
  so_order : List.NoDup order;
  so_gates : forall n, In n order -> exists k lit ch, s_nodes src !! n = Some (SGate k lit ch) /\ ch <> [] /\ truthful sem k lit (length ch);
  so_topo : forall i n k lit ch f, order !! i = Some n -> s_nodes src !! n = Some (SGate k lit ch) -> In f ch ->
    match s_nodes src !! fst f with Some (SGate _ _ _) => exists j, j < i /\ order !! j = Some (fst f) | Some _ => True | None => False end;
  so_pos : forall f, In f (s_pos src) -> match s_nodes src !! fst f with Some (SGate _ _ _) => In (fst f) order | Some _ => True | None => False end
}.

(** The destination can build such gates. *)
Definition supported (dst : dest) (node_function : bool) (k : skind) : Prop :=
  (node_function = true /\ d_node dst <> None) \/
  match k with KNaryAnd => d_nary_and dst <> None | KNaryOr => d_nary_or dst <> None | KNaryXor => d_nary_xor dst <> None | KBuf => d_buf dst <> None | KOther => False | _ => True end.

(** What is asked of a type of networks: each operation computes its function and leaves the values of other signals as they are. *)
Section Laws.
Variable sem : nat -> list bool -> option bool.
Variable dst : dest.
Variable ok : dD dst -> Prop.
Variable valid : dD dst -> dS dst -> Prop.
Variable val : dD dst -> (nat -> bool) -> dS dst -> bool -> Prop.
Variable inputs : dD dst -> nat.
Variable outputs : dD dst -> list (dS dst).
Definition keeps (d d' : dD dst) : Prop := ok d' /\ (forall s, valid d s -> valid d' s) /\ (forall env s b, val d env s b -> val d' env s b).
Definition made (d : dD dst) (ss : list (dS dst)) (r : dD dst * dS dst) (f : list bool -> option bool) : Prop :=
  keeps d (fst r) /\ inputs (fst r) = inputs d /\ outputs (fst r) = outputs d /\ valid (fst r) (snd r) /\
  forall env vs b, Forall2 (val d env) ss vs -> f vs = Some b -> val (fst r) env (snd r) b.
Record lawful : Prop := {
  l_new : ok (d_new dst) /\ inputs (d_new dst) = 0 /\ outputs (d_new dst) = [];
  l_const : forall d b, ok d -> valid d (d_const dst d b) /\ forall env, val d env (d_const dst d b) b;
  l_pi : forall d, ok d -> let r := d_pi dst d in keeps d (fst r) /\ inputs (fst r) = S (inputs d) /\ outputs (fst r) = outputs d /\ valid (fst r) (snd r) /\ forall env, val (fst r) env (snd r) (env (inputs d));
  l_po : forall d s, ok d -> valid d s -> keeps d (d_po dst d s) /\ inputs (d_po dst d s) = inputs d /\ outputs (d_po dst d s) = outputs d ++ [s];
  l_not : forall d a, ok d -> valid d a -> made d [a] (d_not dst d a) f_not;
  l_and : forall d a b, ok d -> valid d a -> valid d b -> made d [a; b] (d_and dst d a b) (f_two andb);
  l_or : forall d a b, ok d -> valid d a -> valid d b -> made d [a; b] (d_or dst d a b) (f_two orb);
  l_xor : forall d a b, ok d -> valid d a -> valid d b -> made d [a; b] (d_xor dst d a b) (f_two xorb);
  l_maj : forall d a b c, ok d -> valid d a -> valid d b -> valid d c -> made d [a; b; c] (d_maj dst d a b c) f_maj;
  l_nary_and : forall f d ss, d_nary_and dst = Some f -> ok d -> (forall s, In s ss -> valid d s) -> made d ss (f d ss) f_all;
  l_nary_or : forall f d ss, d_nary_or dst = Some f -> ok d -> (forall s, In s ss -> valid d s) -> made d ss (f d ss) f_any;
  l_nary_xor : forall f d ss, d_nary_xor dst = Some f -> ok d -> (forall s, In s ss -> valid d s) -> made d ss (f d ss) f_odd;
  l_buf : forall f d a, d_buf dst = Some f -> ok d -> valid d a -> made d [a] (f d a) f_id;
  l_node : forall f d ss lit, d_node dst = Some f -> ok d -> ss <> [] -> (forall s, In s ss -> valid d s) -> made d ss (f d ss lit) (sem lit);
  l_once : forall d env s b b', ok d -> val d env s b -> val d env s b' -> b = b'
}.
End Laws.
(** The literals of technology networks (technology_network.hpp:87-150). *)
Definition literals (sem : nat -> list bool -> option bool) : Prop :=
  (forall vs, length vs = 1 -> sem 2 vs = f_id vs /\ sem 3 vs = f_not vs) /\
  (forall vs, length vs = 2 -> sem 4 vs = f_two andb vs /\ sem 6 vs = f_two orb vs /\ sem 12 vs = f_two xorb vs) /\ (forall vs, length vs = 3 -> sem 14 vs = f_maj vs).
