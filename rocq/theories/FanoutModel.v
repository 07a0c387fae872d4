(** Model of include/fiction/algorithms/network_transformation/fanout_substitution.hpp for technology networks
    (include/fiction/networks/technology_network.hpp).

    Simplifications.
    - A network is the list of its nodes; a signal is the position of its node (technology networks have no complemented edges and
      no structural hashing, technology_network.hpp:60-229).
    - The reference counters ([fanout_size]) are recomputed from the fan-ins and the outputs.
    - The converted source network and the order in which its topological view lists the gates are arguments; mockturtle is not part of
      the repository.
    - The quotient of two doubles made from 32-bit integers is rounded, but never across an integer, so that its ceiling is exact.
    - The random numbers are an arbitrary sequence, reduced to the range asked for.
    - Names ([restore_names]) and progress bars are left out. *)
From Coq Require Import ZArith Bool List.
From stdpp Require Import gmap list.
Import ListNotations.

(** Nodes: constants, inputs and gates with the literal of their function (technology_network.hpp:84, literal 2 is the identity). *)
Inductive tnode := TConst (b : bool) | TPi | TGate (lit : nat) (ch : list nat).
Record tnet := mkT { t_nodes : list tnode; t_pis : list nat; t_pos : list nat }.
Definition t_children (x : tnode) : list nat := match x with TGate _ ch => ch | _ => [] end.
Definition t_fanins (net : tnet) (n : nat) : list nat := match t_nodes net !! n with Some x => t_children x | None => [] end.
(** klut_network's reference counter, maintained in technology_network.hpp:195-211: uses as a fan-in and as an output. *)
Definition fsize (nodes : list tnode) (pos : list nat) (n : nat) : nat :=
  list_sum (map (fun x => count_occ Nat.eq_dec (t_children x) n) nodes) + count_occ Nat.eq_dec pos n.
Definition fanout_size (net : tnet) (n : nat) : nat := fsize (t_nodes net) (t_pos net) n.
Definition t_is_constant (net : tnet) (n : nat) : bool := match t_nodes net !! n with Some (TConst _) => true | _ => false end.
(** technology_network.hpp:242-256, is_buf and is_fanout. *)
Definition is_buf (net : tnet) (n : nat) : bool := match t_nodes net !! n with Some (TGate 2 _) => true | _ => false end.
Definition is_fanout (net : tnet) (n : nat) : bool := is_buf net n && Nat.ltb 1 (fanout_size net n).

(** fanout_substitution.hpp:36-71, the parameters. *)
Inductive strategy := BREADTH | DEPTH | RANDOM.
Record fparams := mkP { ps_strategy : strategy; ps_degree : nat; ps_threshold : nat }.

(** Conversion to int32_t. *)
Definition i32 (z : Z) : Z := ((z + 2147483648) mod 4294967296 - 2147483648)%Z.

(** The network under construction, old2new, available_fanouts and the number of random draws. *)
Record fstate := mkF { f_nodes : list tnode; f_pos : list nat; f_map : gmap nat nat; f_avail : gmap nat (list nat); f_draws : nat }.
Definition push (st : fstate) (x : tnode) : fstate := mkF (f_nodes st ++ [x]) (f_pos st) (f_map st) (f_avail st) (f_draws st).
Definition set_map (st : fstate) (n r : nat) : fstate := mkF (f_nodes st) (f_pos st) (<[n := r]> (f_map st)) (f_avail st) (f_draws st).
Definition set_avail (st : fstate) (n : nat) (q : list nat) : fstate := mkF (f_nodes st) (f_pos st) (f_map st) (<[n := q]> (f_avail st)) (f_draws st).
(** technology_network.hpp:84-87, create_buf: the new state; the new node is the next free one. *)
Definition create_buf (st : fstate) (a : nat) : fstate := push st (TGate 2 [a]).
Definition next_node (st : fstate) : nat := length (f_nodes st).
Definition old2new (st : fstate) (n : nat) : nat := default 0 (f_map st !! n).

Section run.
Context (net : tnet) (order : list nat) (ps : fparams) (rnd : nat -> nat).

(** fanout_substitution.hpp:221-224 *)
Definition num_fanouts (n : nat) : nat :=
  let a := Z.max (i32 (Z.of_nat (fanout_size net n)) - i32 (Z.of_nat (ps_threshold ps))) 0 in
  let b := Z.max (i32 (Z.of_nat (ps_degree ps)) - 1) 1 in
  Z.to_nat ((a + b - 1) / b).

(** fanout_substitution.hpp:293-303, generate_depth_tree; results in the queue. *)
Fixpoint depth_tree (k : nat) (child : nat) (q : list nat) (st : fstate) : fstate * list nat :=
  match k with
  | O => (st, q)
  | S k => let b := next_node st in depth_tree k b (q ++ [b]) (create_buf st child)
  end.
(** fanout_substitution.hpp:312-330, generate_breadth_tree; [None]: front() of an empty queue. *)
Fixpoint breadth_tree (k : nat) (q : list nat) (st : fstate) : option (fstate * list nat) :=
  match k with
  | O => Some (st, q)
  | S k => match q with [] => None | c :: q => let b := next_node st in breadth_tree k (q ++ repeat b (ps_degree ps)) (create_buf st c) end
  end.
(** std::swap with the last element, then pop_back. *)
Definition swap_pop (i : nat) (v : list nat) : list nat := take (length v - 1) (<[i := List.last v 0]> v).
(** fanout_substitution.hpp:339-377, generate_random_tree; [None]: access to an empty vector. *)
Fixpoint random_tree (k : nat) (v : list nat) (st : fstate) : option (fstate * list nat) :=
  match k with
  | O => Some (st, v)
  | S k =>
    match v with
    | [] => None
    | _ :: _ =>
      let i := rnd (f_draws st) mod length v in
      let b := next_node st in
      let st' := create_buf st (nth i v 0) in
      random_tree k (swap_pop i v ++ repeat b (ps_degree ps)) (mkF (f_nodes st') (f_pos st') (f_map st') (f_avail st') (S (f_draws st')))
    end
  end.
(** fanout_substitution.hpp:210-253, generate_fanout_tree. *)
Definition generate_fanout_tree (n : nat) (st : fstate) : option fstate :=
  if is_fanout net n && Nat.leb (fanout_size net n) (ps_degree ps) then Some st
  else
    let k := num_fanouts n in
    let child := old2new st n in
    if Nat.eqb k 0 then Some st
    else
      match (match ps_strategy ps with
             | DEPTH => Some (depth_tree k child [] st)
             | BREADTH => breadth_tree k [child] st
             | RANDOM => random_tree k [child] st
             end) with
      | Some (st, q) => Some (set_avail st n q)
      | None => None
      end.

(** fanout_substitution.hpp:255-280, get_fanout: a copy of the queue is searched; [None]: front() of an empty queue. *)
Fixpoint find_fanout (st : fstate) (q : list nat) : option nat :=
  match q with
  | [] => None
  | c :: q => if Nat.leb (ps_degree ps) (fsize (f_nodes st) (f_pos st) c) then find_fanout st q else Some c
  end.
Definition get_fanout (st : fstate) (n : nat) : option nat :=
  let child := old2new st n in
  if Nat.leb (ps_threshold ps) (fsize (f_nodes st) (f_pos st) child) then
    match default [] (f_avail st !! n) with [] => Some child | q => find_fanout st q end
  else Some child.

Fixpoint map_opt {A B} (f : A -> option B) (l : list A) : option (list B) :=
  match l with [] => Some [] | a :: r => match f a with Some b => match map_opt f r with Some v => Some (b :: v) | None => None end | None => None end end.
Fixpoint fold_o {A S} (f : A -> S -> option S) (l : list A) (s : S) : option S :=
  match l with [] => Some s | a :: r => match f a s with Some s' => fold_o f r s' | None => None end end.

(** fanout_substitution.hpp:131-160, one gate. *)
Definition substitute_gate (n : nat) (st : fstate) : option fstate :=
  match t_nodes net !! n with
  | Some (TGate lit ch) =>
    match map_opt (fun f => if t_is_constant net f then Some (old2new st f) else get_fanout st f) ch with
    | None => None
    | Some ch' => generate_fanout_tree n (set_map (push st (TGate lit ch')) n (next_node st))
    end
  | _ => None
  end.
(** fanout_substitution.hpp:168-179, one output. *)
Definition substitute_po (n : nat) (st : fstate) : option fstate :=
  match get_fanout st n with
  | Some f => Some (mkF (f_nodes st) (f_pos st ++ [f]) (f_map st) (f_avail st) (f_draws st))
  | None => None
  end.
(** mockturtle's initialize_copy_network: the constants and the inputs of the source. *)
Definition copy_network : fstate :=
  mkF ([TConst false; TConst true] ++ map (fun _ => TPi) (t_pis net)) []
      (list_to_map (combine (t_pis net) (seq 2 (length (t_pis net))) ++ [(0, 0); (1, 1)])) ∅ 0.
(** fanout_substitution.hpp:112-185, run; [None]: undefined behaviour. *)
Definition fanout_substitution : option tnet :=
  match fold_o generate_fanout_tree (t_pis net) copy_network with
  | None => None
  | Some st =>
    match fold_o substitute_gate order st with
    | None => None
    | Some st =>
      match fold_o substitute_po (t_pos net) st with
      | None => None
      | Some st => Some (mkT (f_nodes st) (seq 2 (length (t_pis net))) (f_pos st))
      end
    end
  end.
End run.

(** fanout_substitution.hpp:381-428, is_fanout_substituted. *)
Definition is_fanout_substituted (net : tnet) (ps : fparams) : bool :=
  forallb (fun n => t_is_constant net n ||
    if is_fanout net n then Nat.leb (fanout_size net n) (ps_degree ps) else Nat.leb (fanout_size net n) (ps_threshold ps)) (seq 0 (length (t_nodes net))).
