(** Model of include/fiction/networks/views/mutable_rank_view.hpp on technology networks, with the depth view of DepthModel (unit costs).

    Simplifications. Numbers of nodes and positions are not bounded (below 2^32 they are exact). Sorting is an argument: any function that
    permutes its argument into order. Violated assertions, accesses out of bounds and exceptions are the outcome [None]; the methods are
    noexcept or call such methods, so that exceptions end the program. The network below grows (create_pi, gates, create_po); its nodes are not removed. *)
From Coq Require Import ZArith Bool List.
From stdpp Require Import gmap list sorting.
From Verif Require Import FanoutModel DepthModel.
Import ListNotations.

(** The network, the depth view, rank_pos, ranks and max_rank_width (mutable_rank_view.hpp:569-581). *)
Record rview := mkR { r_net : tnet; r_view : dview; r_pos : gmap nat nat; r_ranks : list (list nat); r_width : nat }.
Notation unit_cost := (fun _ : nat => 1).
(** static_depth_view.hpp:259-262, level *)
Definition r_level (st : rview) (n : nat) : option nat := v_levels (r_view st) !! n.

(** ** Creation *)

(** mutable_rank_view.hpp:619-626, insert_in_rank at a rank. *)
Definition insert_at (st : rview) (n l : nat) : option rview :=
  match r_ranks st !! l with
  | Some rank => Some (mkR (r_net st) (r_view st) (<[n := length rank]> (r_pos st)) (<[l := rank ++ [n]]> (r_ranks st)) (Nat.max (r_width st) (S (length rank))))
  | None => None
  end.
(** mutable_rank_view.hpp:588-594, insert_in_rank *)
Definition insert_in_rank (st : rview) (n : nat) : option rview :=
  match r_level st n with Some l => insert_at st n l | None => None end.
(** mutable_rank_view.hpp:602-612, init_ranks *)
Definition init_ranks (st : rview) : option rview :=
  fold_o (fun n st => if t_is_constant (r_net st) n then Some st else insert_in_rank st n) (seq 0 (length (t_nodes (r_net st)))) st.
(** mutable_rank_view.hpp:101-116, the constructor from a network. *)
Definition new_view (net : tnet) : option rview :=
  match update_levels net false unit_cost with
  | Some v => init_ranks (mkR net v ∅ (replicate (S (depth v)) []) 0)
  | None => None
  end.
(** mutable_rank_view.hpp:633-646, init_ranks from given ranks. *)
Definition insert_rank (i : nat) (l : list nat) (st : rview) : option rview :=
  fold_o (fun n st => if t_is_constant (r_net st) n then Some st else insert_at st n i) l st.
Fixpoint insert_ranks (i : nat) (rs : list (list nat)) (st : rview) : option rview :=
  match rs with
  | [] => Some st
  | l :: rs => match insert_rank i l st with Some st => insert_ranks (S i) rs st | None => None end
  end.
(** mutable_rank_view.hpp:124-140, the constructor from a network and given ranks. *)
Definition new_view_with (net : tnet) (rs : list (list nat)) : option rview :=
  match update_levels net false unit_cost with
  | Some v => insert_ranks 0 rs (mkR net v ∅ (replicate (S (depth v)) []) 0)
  | None => None
  end.

(** ** Queries *)

(** mutable_rank_view.hpp:211-216, rank_position *)
Definition rank_position (st : rview) (n : nat) : option nat := r_pos st !! n.
(** mutable_rank_view.hpp:226-249, check_validity *)
Fixpoint check_rank (st : rview) (i pos : nat) (rank : list nat) : option bool :=
  match rank with
  | [] => Some true
  | n :: rank =>
    match r_level st n with
    | None => None
    | Some l => if negb (Nat.eqb l i) then Some false else
      match r_pos st !! n with
      | None => None
      | Some q => if negb (Nat.eqb q pos) then Some false else check_rank st i (S pos) rank
      end
    end
  end.
Fixpoint check_ranks (st : rview) (i : nat) (rs : list (list nat)) : option bool :=
  match rs with
  | [] => Some true
  | r :: rs => match check_rank st i 0 r with Some true => check_ranks st (S i) rs | o => o end
  end.
Definition check_validity (st : rview) : option bool := check_ranks st 0 (r_ranks st).
(** mutable_rank_view.hpp:296-345, get_ranks, get_all_ranks, at_rank_position, width and rank_width *)
Definition get_ranks (st : rview) (l : nat) : option (list nat) := r_ranks st !! l.
Definition get_all_ranks (st : rview) : list (list nat) := r_ranks st.
Definition at_rank_position (st : rview) (l i : nat) : option nat := match r_ranks st !! l with Some r => r !! i | None => None end.
Definition width (st : rview) : nat := r_width st.
Definition rank_width (st : rview) (l : nat) : option nat := option_map (@length nat) (r_ranks st !! l).
(** mutable_rank_view.hpp:395-452: the nodes and the gates in the order in which foreach_node and foreach_gate visit them. *)
Definition foreach_node (st : rview) : list nat := concat (r_ranks st).
Definition foreach_gate (st : rview) : list nat := List.filter (fun n => negb (is_ci (r_net st) n)) (concat (r_ranks st)).

(** ** Changes *)

(** The loop that numbers the nodes of a rank. *)
Fixpoint renumber (m : gmap nat nat) (i : nat) (l : list nat) : gmap nat nat :=
  match l with [] => m | n :: l => renumber (<[n := i]> m) (S i) l end.
(** mutable_rank_view.hpp:257-273, set_ranks *)
Definition set_ranks (l : nat) (nodes : list nat) (st : rview) : option rview :=
  match r_ranks st !! l with
  | Some rank =>
    if bool_decide (merge_sort (≤) rank = merge_sort (≤) nodes)
    then Some (mkR (r_net st) (r_view st) (renumber (r_pos st) 0 nodes) (<[l := nodes]> (r_ranks st)) (r_width st)) else None
  | None => None
  end.
(** mutable_rank_view.hpp:280-288, set_all_ranks *)
Fixpoint set_from (l : nat) (rs : list (list nat)) (st : rview) : option rview :=
  match rs with [] => Some st | r :: rs => match set_ranks l r st with Some st => set_from (S l) rs st | None => None end end.
Definition set_all_ranks (rs : list (list nat)) (st : rview) : option rview :=
  if Nat.eqb (length rs) (length (r_ranks st)) then set_from 0 rs st else None.
(** mutable_rank_view.hpp:353-362, swap *)
Definition swap (a b : nat) (st : rview) : option rview :=
  match r_level st a, r_level st b, r_pos st !! a, r_pos st !! b with
  | Some la, Some lb, Some p1, Some p2 =>
    if Nat.eqb la lb then
      match r_ranks st !! la with
      | Some rank =>
        match rank !! p1, rank !! p2 with
        | Some x, Some y => Some (mkR (r_net st) (r_view st) (<[b := p1]> (<[a := p2]> (r_pos st))) (<[la := <[p2 := x]> (<[p1 := y]> rank)]> (r_ranks st)) (r_width st))
        | _, _ => None
        end
      | None => None
      end
    else None
  | _, _, _, _ => None
  end.

Section Sorting.
(** std::ranges::sort *)
Variable sort : (nat -> nat -> bool) -> list nat -> list nat.
(** mutable_rank_view.hpp:372-382, sort_rank *)
Definition sort_rank (l : nat) (cmp : nat -> nat -> bool) (st : rview) : option rview :=
  match r_ranks st !! l with
  | Some rank => Some (mkR (r_net st) (r_view st) (renumber (r_pos st) 0 (sort cmp rank)) (<[l := sort cmp rank]> (r_ranks st)) (r_width st))
  | None => None
  end.
(** mutable_rank_view.hpp:463-472 and 517-527, foreach_pi and foreach_ci; single inputs are not compared. *)
Definition foreach_pi (st : rview) : option (list nat) :=
  let pis := t_pis (r_net st) in
  if forallb (fun n => bool_decide (is_Some (r_pos st !! n))) pis || Nat.leb (length pis) 1
  then Some (sort (fun a b => Nat.ltb (default 0 (r_pos st !! a)) (default 0 (r_pos st !! b))) pis) else None.
(** mutable_rank_view.hpp:498-506, rearrange_pis *)
Definition rearrange_pis (st : rview) : option rview := set_ranks 0 (t_pis (r_net st)) st.
(** mutable_rank_view.hpp:541-549, update_ranks: the width is not reset. *)
Definition update_ranks (st : rview) : option rview :=
  match update_levels (r_net st) false unit_cost with
  | Some v => init_ranks (mkR (r_net st) v ∅ (replicate (S (depth v)) []) (r_width st))
  | None => None
  end.
(** technology_network.hpp:195-229 and mutable_rank_view.hpp:533-537: new nodes and outputs; the view is not informed. *)
Definition with_net (st : rview) (net : tnet) : rview := mkR net (r_view st) (r_pos st) (r_ranks st) (r_width st).
Definition create_pi (st : rview) : rview :=
  let net := r_net st in with_net st (mkT (t_nodes net ++ [TPi]) (t_pis net ++ [length (t_nodes net)]) (t_pos net)).
Definition create_gate (lit : nat) (ch : list nat) (st : rview) : rview :=
  let net := r_net st in with_net st (mkT (t_nodes net ++ [TGate lit ch]) (t_pis net) (t_pos net)).
Definition create_po (f : nat) (st : rview) : rview :=
  let net := r_net st in with_net st (mkT (t_nodes net) (t_pis net) (t_pos net ++ [f])).
(** mutable_rank_view.hpp:556-567, on_add *)
Definition rank_on_add (n : nat) (st : rview) : option rview :=
  let v := on_add (r_net st) unit_cost (r_view st) n in
  match v_levels v !! n with
  | None => None
  | Some l =>
    let ranks := if Nat.leb (length (r_ranks st)) l then r_ranks st ++ replicate (l - length (r_ranks st) + 1) [] else r_ranks st in
    insert_in_rank (mkR (r_net st) v (r_pos st) ranks (r_width st)) n
  end.

(** Calls on a view; nodes are created and then announced by on_add. *)
Inductive rop := RSwap (a b : nat) | RSet (l : nat) (nodes : list nat) | RSetAll (rs : list (list nat)) | RSort (l : nat) (cmp : nat -> nat -> bool)
  | RRearrange | RUpdate | RAddPi | RAddGate (lit : nat) (ch : list nat) | RAddPo (f : nat).
Definition rstep (o : rop) (st : rview) : option rview :=
  match o with
  | RSwap a b => swap a b st
  | RSet l nodes => set_ranks l nodes st
  | RSetAll rs => set_all_ranks rs st
  | RSort l cmp => sort_rank l cmp st
  | RRearrange => rearrange_pis st
  | RUpdate => update_ranks st
  | RAddPi => rank_on_add (length (t_nodes (r_net st))) (create_pi st)
  | RAddGate lit ch => rank_on_add (length (t_nodes (r_net st))) (create_gate lit ch st)
  | RAddPo f => Some (create_po f st)
  end.
Definition rrun (ops : list rop) (st : rview) : option rview := fold_o rstep ops st.
End Sorting.
