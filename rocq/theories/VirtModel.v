(** Model of networks with virtual inputs (include/fiction/networks/virtual_pi_network.hpp), of their removal
    (include/fiction/algorithms/network_transformation/delete_virtual_pis.hpp), of miters
    (include/fiction/algorithms/verification/virtual_miter.hpp), of equivalence checking
    (include/fiction/algorithms/verification/equivalence_checking.hpp) and of technology_network::substitute_po_signals.

    Simplifications.
    - Networks are technology networks ([FanoutModel]): no complemented edges, no structural hashing.
    - The order in which the topological view of a network lists its gates is an argument; mockturtle is not part of the repository.
      cleanup_dangling and mockturtle::miter are modelled by what virtual_miter.hpp:102-135 does, copying gate by gate in that order.
    - [create_nary_or] is mockturtle's tree reduction: nothing gives the constant 0, otherwise the list is halved.
    - The solver is a function from miters to answers; nothing is assumed about it in the model.
    - A gate-level layout is given by the network it implements, the number of its design rule violations and its throughput (modelled in
      other files).
    - Names, progress bars and run times are left out. *)
From Coq Require Import ZArith Bool List.
From stdpp Require Import gmap list.
From Verif Require Import FanoutModel.
Import ListNotations.

(** virtual_pi_network.hpp:44-54: the network and the map from virtual to real inputs. *)
Record vnet := mkV { v_net : tnet; v_virtual : list (nat * nat) }.
(** virtual_pi_network.hpp:126-129 *)
Definition is_virtual_pi (vn : vnet) (n : nat) : bool := existsb (fun p => Nat.eqb (fst p) n) (v_virtual vn).
(** virtual_pi_network.hpp:137-140 *)
Definition is_real_pi (vn : vnet) (n : nat) : bool :=
  match t_nodes (v_net vn) !! n with Some TPi => negb (is_virtual_pi vn n) | _ => false end.
(** virtual_pi_network.hpp:229-236; [None]: the assertion fails. *)
Definition get_real_pi (vn : vnet) (n : nat) : option nat :=
  match find (fun p => Nat.eqb (fst p) n) (v_virtual vn) with Some p => Some (snd p) | None => None end.
(** virtual_pi_network.hpp:208-221 *)
Definition num_virtual_pis (vn : vnet) : nat := length (v_virtual vn).
Definition num_real_pis (vn : vnet) : nat := length (t_pis (v_net vn)) - num_virtual_pis vn.
(** virtual_pi_network.hpp:115-118 *)
Definition real_size (vn : vnet) : nat := length (t_nodes (v_net vn)) - num_virtual_pis vn.
(** virtual_pi_network.hpp:244-255, the inputs that foreach_real_pi visits. *)
Definition real_pis (vn : vnet) : list nat := List.filter (fun n => negb (is_virtual_pi vn n)) (t_pis (v_net vn)).
(** virtual_pi_network.hpp:263-268 *)
Definition virtual_pis (vn : vnet) : list nat := map fst (v_virtual vn).

(** The calls that build a network; the network starts with its two constants (klut_network's constructor, called in technology_network.hpp). *)
Inductive vcall := CPi | CVirtual (real : nat) | CGate (lit : nat) (ch : list nat) | CPo (n : nat).
Definition v_new : vnet := mkV (mkT [TConst false; TConst true] [] []) [].
Definition t_push (net : tnet) (x : tnode) : tnet := mkT (t_nodes net ++ [x]) (t_pis net) (t_pos net).
Definition t_create_pi (net : tnet) : tnet := mkT (t_nodes net ++ [TPi]) (t_pis net ++ [length (t_nodes net)]) (t_pos net).
Definition t_create_po (net : tnet) (n : nat) : tnet := mkT (t_nodes net) (t_pis net) (t_pos net ++ [n]).
(** virtual_pi_network.hpp:150-159; [None]: the assertion fails or a signal of the network is missing. *)
Definition v_call (c : vcall) (vn : vnet) : option vnet :=
  let net := v_net vn in
  let fits n := Nat.ltb n (length (t_nodes net)) in
  match c with
  | CPi => Some (mkV (t_create_pi net) (v_virtual vn))
  | CVirtual r => if is_real_pi vn r then Some (mkV (t_create_pi net) (v_virtual vn ++ [(length (t_nodes net), r)])) else None
  | CGate lit ch => match ch with [] => None | _ => if forallb fits ch then Some (mkV (t_push net (TGate lit ch)) (v_virtual vn)) else None end
  | CPo n => if fits n then Some (mkV (t_create_po net n) (v_virtual vn)) else None
  end.
Definition v_calls (l : list vcall) : option vnet := fold_o v_call l v_new.

(** Copying gates into a network under construction: its nodes and the map from old nodes to new ones. [remap] is applied to fan-ins. *)
Definition gstate := (list tnode * gmap nat nat)%type.
Definition g_new (m : gmap nat nat) (n : nat) : nat := default 0 (m !! n).
(** delete_virtual_pis.hpp:41-124 (and mockturtle's cleanup_dangling): one gate. *)
Definition copy_gate (net : tnet) (remap : nat -> option nat) (n : nat) (st : gstate) : option gstate :=
  match t_nodes net !! n with
  | Some (TGate lit ch) =>
    match map_opt remap ch with
    | Some ch' => Some (st.1 ++ [TGate lit (map (g_new st.2) ch')], <[n := length st.1]> st.2)
    | None => None
    end
  | _ => None
  end.

(** delete_virtual_pis.hpp:168-211: constants and the real inputs in their order. *)
Definition init_copy (vn : vnet) : gstate :=
  ([TConst false; TConst true] ++ map (fun _ => TPi) (real_pis vn),
   list_to_map (combine (real_pis vn) (seq 2 (length (real_pis vn))) ++ [(0, 0); (1, 1)])).
(** delete_virtual_pis.hpp:49-54 *)
Definition real_fanin (vn : vnet) (n : nat) : option nat := if is_virtual_pi vn n then get_real_pi vn n else Some n.
(** delete_virtual_pis.hpp:35-140, run. Outputs are not remapped (lines 127-134). *)
Definition delete_virtual_pis_run (vn : vnet) (order : list nat) : option tnet :=
  match fold_o (copy_gate (v_net vn) (real_fanin vn)) order (init_copy vn) with
  | Some (nodes, m) => Some (mkT nodes (seq 2 (length (real_pis vn))) (map (g_new m) (t_pos (v_net vn))))
  | None => None
  end.
(** delete_virtual_pis.hpp:225-253: networks without virtual inputs are returned as they are. *)
Definition delete_virtual_pis (vn : vnet) (order : list nat) : option tnet :=
  if Nat.eqb (num_virtual_pis vn) 0 then Some (v_net vn) else delete_virtual_pis_run vn order.

(** virtual_miter.hpp:112-113: copying a network onto given inputs; the new nodes and the signals of the outputs. *)
Definition cleanup_dangling (net : tnet) (order : list nat) (pis : list nat) (nodes : list tnode) : option (list tnode * list nat) :=
  match fold_o (copy_gate net Some) order (nodes, list_to_map (combine (t_pis net) pis ++ [(0, 0); (1, 1)])) with
  | Some (nodes, m) => Some (nodes, map (g_new m) (t_pos net))
  | None => None
  end.
(** virtual_miter.hpp:127-130: the exclusive or (literal 12, technology_network.hpp:141-144) of each pair. *)
Fixpoint create_xors (a b : list nat) (nodes : list tnode) : list tnode * list nat :=
  match a, b with
  | x :: a, y :: b => let '(nodes', l) := create_xors a b (nodes ++ [TGate 12 [x; y]]) in (nodes', length nodes :: l)
  | _, _ => (nodes, [])
  end.
(** mockturtle's tree_reduce with create_or (literal 6, technology_network.hpp:111-114); [fuel] bounds the depth, [None] is excluded. *)
Fixpoint nary_or (fuel : nat) (l : list nat) (nodes : list tnode) : option (list tnode * nat) :=
  match l with
  | [] => Some (nodes, 0)
  | [a] => Some (nodes, a)
  | _ =>
    match fuel with
    | O => None
    | S fuel =>
      let m := length l / 2 in
      match nary_or fuel (take m l) nodes with
      | Some (nodes, x) =>
        match nary_or fuel (drop m l) nodes with
        | Some (nodes, y) => Some (nodes ++ [TGate 6 [x; y]], length nodes)
        | None => None
        end
      | None => None
      end
    end
  end.
(** virtual_miter.hpp:97-135 after the virtual inputs are gone. The inner [None] is std::nullopt, the outer one undefined behaviour. *)
Definition miter (a : tnet) (oa : list nat) (b : tnet) (ob : list nat) : option (option tnet) :=
  if negb (Nat.eqb (length (t_pis a)) (length (t_pis b))) || negb (Nat.eqb (length (t_pos a)) (length (t_pos b))) then Some None
  else
    let pis := seq 2 (length (t_pis a)) in
    match cleanup_dangling a oa pis ([TConst false; TConst true] ++ map (fun _ => TPi) (t_pis a)) with
    | None => None
    | Some (nodes, pos1) =>
      match cleanup_dangling b ob pis nodes with
      | None => None
      | Some (nodes, pos2) =>
        let '(nodes, xors) := create_xors pos1 pos2 nodes in
        match nary_or (length xors) xors nodes with
        | None => None
        | Some (nodes, o) => Some (Some (mkT nodes pis [o]))
        end
      end
    end.
(** virtual_miter.hpp:76-136. The orders are those of the topological views of the given networks and, where virtual inputs
    were removed, of the results. *)
Definition virtual_miter (a : vnet) (oa oa' : list nat) (b : vnet) (ob ob' : list nat) : option (option tnet) :=
  match delete_virtual_pis a oa, delete_virtual_pis b ob with
  | Some na, Some nb => miter na oa' nb ob'
  | _, _ => None
  end.

(** equivalence_checking.hpp:29-68 *)
Inductive eq_type := NO | WEAK | STRONG.
Record eq_stats := mkEq { eq_eq : eq_type; eq_tp_spec : Z; eq_tp_impl : Z; eq_tp_diff : Z; eq_cex : list bool }.
Definition eq_stats0 : eq_stats := mkEq NO 1 1 0 [].
(** A network, or a gate-level layout with its number of violations and its throughput. *)
Record design := mkDes { d_net : tnet; d_order : list nat; d_layout : option (nat * Z) }.
Definition has_drvs (d : design) : bool := match d_layout d with Some (k, _) => negb (Nat.eqb k 0) | None => false end.
Definition d_throughput (d : design) : Z := match d_layout d with Some (_, t) => t | None => 1%Z end.
(** The answer of mockturtle::equivalence_checking: no answer (resource limit), equivalent, or a counter example. *)
Inductive answer := Unknown | Equivalent | Differs (cex : list bool).
(** equivalence_checking.hpp:91-168; the returned type and the statistics; [None]: undefined behaviour. *)
Definition equivalence_checking (solve : tnet -> answer) (spec impl : design) : option (eq_type * eq_stats) :=
  if has_drvs spec then Some (NO, eq_stats0)
  else if has_drvs impl then Some (NO, eq_stats0)
  else
    match miter (d_net spec) (d_order spec) (d_net impl) (d_order impl) with
    | None => None
    | Some None => Some (NO, eq_stats0)
    | Some (Some m) =>
      match solve m with
      | Unknown => Some (NO, eq_stats0)
      | Differs cex => Some (NO, mkEq NO 1 1 0 cex)
      | Equivalent =>
        let ts := d_throughput spec in
        let ti := d_throughput impl in
        let diff := Z.abs (ts - ti) in
        let eq := if Z.eqb diff 0 then STRONG else WEAK in
        Some (eq, mkEq eq ts ti diff [])
      end
    end.

(** technology_network.hpp:379-398, substitute_po_signals: output by output. The reference counters are recomputed ([fanout_size]). *)
Definition substitute_po (net : tnet) (k : nat) : tnet :=
  match t_pos net !! k with
  | Some p => if negb (is_buf net p) || is_fanout net p
              then mkT (t_nodes net ++ [TGate 2 [p]]) (t_pis net) (<[k := length (t_nodes net)]> (t_pos net))
              else net
  | None => net
  end.
Definition substitute_po_signals (net : tnet) : tnet := fold_left substitute_po (seq 0 (length (t_pos net))) net.
