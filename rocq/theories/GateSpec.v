(** Specifications for gate-level layouts. *)
From Coq Require Import ZArith Bool String List.
From Verif Require Import CoordModel CoordSpec GridModel GridSpec ClockModel GateModel.
Import ListNotations.
Local Open Scope Z_scope.

(** A layout obtained from an empty one by a history of API calls without undefined behaviour. *)
Definition reached (cl : clocked) (ops : list gop) (st : glayout) : Prop := g_run (g_empty cl) ops = Some st.

(** No call of the history moves one of the two constant nodes. *)
Definition moves_no_constant (ops : list gop) : Prop :=
  Forall (fun o => match o with MoveNode n _ _ => (2 <= n)%nat | _ => True end) ops.

(** [k] tiles have property [P]. *)
Definition how_many (P : coord -> Prop) (k : Z) : Prop :=
  exists L, List.NoDup L /\ (forall t, In t L <-> P t) /\ k = Z.of_nat (List.length L).

(** What a tile hosts, through the API: a live tile with a node on it, that is a wire or is not. *)
Definition hosts_wire (st : glayout) (t : coord) : Prop :=
  cd t = false /\ is_empty_tile st t = false /\ is_wire st (get_node st t) = true.
Definition hosts_gate (st : glayout) (t : coord) : Prop :=
  cd t = false /\ is_empty_tile st t = false /\ is_wire st (get_node st t) = false.
(** A wire in the crossing layer above an occupied ground tile. *)
Definition crossing_at (st : glayout) (t : coord) : Prop :=
  hosts_wire st t /\ cz t = 1 /\ is_empty_tile st (live (cx t) (cy t) 0) = false.
(** No gate shares its position with something in the other layer. *)
Definition no_stacked_gate (st : glayout) : Prop :=
  forall t u, hosts_gate st t -> cx t = cx u -> cy t = cy u -> cz t <> cz u -> cd u = false ->
    is_empty_tile st u = true.

(** Every state a history passes through. *)
Fixpoint always (P : glayout -> Prop) (st : glayout) (ops : list gop) : Prop :=
  P st /\ match ops with
          | [] => True
          | o :: r => match g_step st o with Some st' => always P st' r | None => True end
          end.

(** All tiles a history places nodes on are inside the layout (or dead). *)
Definition places_inside (ar : coord) (ops : list gop) : Prop :=
  Forall (fun o => match o with
                   | CreatePi _ t | CreatePo _ _ t | CreateLit _ _ t | MoveNode _ t _ => cd t = false -> inb ar t
                   | _ => True end) ops.

(** A node has a place on the layout. *)
Definition placed (st : glayout) (n : nat) : Prop := cd (get_tile st n) = false.

(** The clock number of a position does not depend on the layer. *)
Definition layer_uniform (l : clocked) : Prop :=
  forall x y z1 z2, get_clock_number l (live x y z1) = get_clock_number l (live x y z2).

(** Calls that overwrite nothing: nodes are created and moved to free live tiles only (or moved to
    where they are, which changes their fan-in), and only placed non-constant nodes are moved. *)
Definition free_tile (st : glayout) (t : coord) : Prop := cd t = false /\ is_empty_tile st t = true.
Definition tidy (st : glayout) (o : gop) : Prop :=
  match o with
  | CreatePi _ t | CreatePo _ _ t | CreateLit _ _ t => free_tile st t
  | MoveNode n t _ => (2 <= n)%nat /\ placed st n /\ (free_tile st t \/ t = get_tile st n)
  | _ => True
  end.
(** Every call of a history satisfies [P] in the state it is issued in. *)
Fixpoint each_call (P : glayout -> gop -> Prop) (st : glayout) (ops : list gop) : Prop :=
  match ops with
  | [] => True
  | o :: r => P st o /\ match g_step st o with Some st' => each_call P st' r | None => True end
  end.

(** The primary inputs and outputs a history has created and not removed: an abstract account
    that only looks at the calls, the number of nodes created so far and what a cleared tile hosts. *)
Record io := mkIO { io_in : list nat; io_out : list nat }.
Definition io_step (st : glayout) (a : io) (o : gop) : io :=
  match o with
  | CreatePi _ _ => mkIO (io_in a ++ [List.length (g_nodes st)]) (io_out a)
  | CreatePo _ _ _ => mkIO (io_in a) (io_out a ++ [List.length (g_nodes st)])
  | ClearTile t => mkIO (io_in a) (if cd t then io_out a else List.filter (fun n => negb (Nat.eqb n (get_node st t))) (io_out a))
  | _ => a
  end.
Fixpoint io_run (st : glayout) (a : io) (ops : list gop) : io :=
  match ops with
  | [] => a
  | o :: r => match g_step st o with Some st' => io_run st' (io_step st a o) r | None => a end
  end.

(** Tidy calls that moreover never place a node on a tile that some node still has as a fan-in,
    never create a gate as its own fan-in, and do not use [connect]. *)
Definition referenced (st : glayout) (t : coord) : Prop := exists m, In t (n_children (node_at st m)).
Definition ref_tidy (st : glayout) (o : gop) : Prop :=
  tidy st o /\
  match o with
  | CreatePi _ t | CreatePo _ _ t => ~ referenced st t
  | CreateLit ch _ t => ~ referenced st t /\ ~ In t ch
  | MoveNode n t _ => t = get_tile st n \/ ~ referenced st t
  | Connect _ _ => False
  | _ => True
  end.
(** Number of fan-in references a history creates. *)
Definition refs_of (o : gop) : nat :=
  match o with
  | CreatePo _ _ _ => 1 | CreateLit ch _ _ => List.length ch | MoveNode _ _ ch => List.length ch | _ => 0
  end.
Definition total_refs (ops : list gop) : Z := Z.of_nat (List.list_sum (map refs_of ops)).

(** The Boolean functions the creation functions are named after. *)
Definition boolean_meaning (f : gate_fn) (vs : list bool) : option bool :=
  match f, vs with
  | Fbuf, [a] => Some a
  | Fnot, [a] => Some (negb a)
  | Fand, [a; b] => Some (a && b)
  | Fnand, [a; b] => Some (negb (a && b))
  | For, [a; b] => Some (a || b)
  | Fnor, [a; b] => Some (negb (a || b))
  | Flt, [a; b] => Some (negb a && b)
  | Fge, [a; b] => Some (negb (negb a && b))
  | Fgt, [a; b] => Some (a && negb b)
  | Fle, [a; b] => Some (negb (a && negb b))
  | Fxor, [a; b] => Some (xorb a b)
  | Fxnor, [a; b] => Some (negb (xorb a b))
  | Fmaj, [a; b; c] => Some ((a && b) || (a && c) || (b && c))
  | _, _ => None
  end.
Definition comparison (f : gate_fn) : bool := match f with Flt | Fge | Fgt | Fle => true | _ => false end.
