(** Model of contour tracing (include/fiction/algorithms/simulation/sidb/operational_domain.hpp): the walk along the contour in two
    dimensions, the collection of the boundary in three or more, and the inference of enclosed points.

    Simplifications as in OpDomModel.v. The samples have been simulated (OpDomModel.v) before tracing starts: [dom] then holds exactly
    their statuses. Tracing itself runs in one thread. Loops whose termination is in question take a number of rounds; [None]: the
    rounds are used up. Step points with the wrong number of dimensions (assertions) are out of scope. *)
From Coq Require Import ZArith Bool List Lia.
From stdpp Require Import gmap list.
From Verif Require Import OpDomModel.
Import ListNotations.

(** operational_domain.hpp:1398-1475, is_step_point_operational in one thread: the status and the new stored domain. *)
Definition ask (op : point -> bool) (dom : gmap point bool) (sp : point) : bool * gmap point bool :=
  match dom !! sp with Some b => (b, dom) | None => (op sp, add_value dom sp (op sp)) end.

(** operational_domain.hpp:1670-1703, find_operational_contour_step_point, from [x] downwards; [latest] is the first coordinate of the
    latest operational point. *)
Fixpoint walk_left (op : point -> bool) (dom : gmap point bool) (rest : point) (x latest : nat) : nat * gmap point bool :=
  match x with
  | O => (latest, dom)
  | S x' => let '(b, dom') := ask op dom (x' :: rest) in
            if b then walk_left op dom' rest x' x' else (latest, dom')
  end.
Definition find_contour_point (op : point -> bool) (dom : gmap point bool) (sp : point) : point * gmap point bool :=
  match sp with
  | x :: rest => let '(l, dom') := walk_left op dom rest x x in (l :: rest, dom')
  | [] => ([], dom)
  end.

(** ** Two dimensions *)
(** operational_domain.hpp:844-856, next_clockwise_point: the neighbourhood is rotated until its last point is [backtrack]; [None]: it
    never is (assertion). *)
Fixpoint rotate_until (rounds : nat) (neighborhood : list point) (backtrack : point) : option point :=
  match neighborhood with
  | [] => None
  | a :: l =>
      if bool_decide (List.last neighborhood a = backtrack) then Some a
      else match rounds with O => None | S r => rotate_until r (l ++ [a]) backtrack end
  end.
Definition next_clockwise_point (neighborhood : list point) (backtrack : point) : option point :=
  rotate_until (length neighborhood) neighborhood backtrack.

Definition ring (nx ny : nat) (p : point) : list point :=
  match p with [x; y] => moore_neighborhood_2d nx ny x y | _ => [] end.
(** operational_domain.hpp:904-924, the loop of trace_contour_curve. *)
Fixpoint trace_loop (op : point -> bool) (nx ny : nat) (rounds : nat) (start current next : point)
    (contour : list point) (dom : gmap point bool) : option (list point * gmap point bool) :=
  if bool_decide (next = start) then Some (contour, dom)
  else
    match rounds with
    | O => None
    | S r =>
        let '(b, dom') := ask op dom next in
        let backtrack := if b then current else next in
        let current' := if b then next else current in
        let contour' := if b then contour ++ [next] else contour in
        match next_clockwise_point (ring nx ny current') backtrack with
        | Some next' => trace_loop op nx ny r start current' next' contour' dom'
        | None => None
        end
    end.
(** operational_domain.hpp:880-924: the contour through [start]. *)
Definition trace_contour (op : point -> bool) (nx ny : nat) (rounds : nat) (start : point) (dom : gmap point bool)
    : option (list point * gmap point bool) :=
  match start with
  | [x; y] =>
      let nb := ring nx ny start in
      match nb with
      | [] => trace_loop op nx ny rounds start start start [start] dom
      | front :: _ =>
          match (if x =? 0 then Some front else next_clockwise_point nb [x - 1; y]) with
          | Some next => trace_loop op nx ny rounds start start next [start] dom
          | None => None
          end
      end
  | _ => None
  end.

(** ** Inference *)
(** operational_domain.hpp:1925-1953, the loop of infer_operational_status_in_enclosing_contour. *)
Fixpoint infer_loop (dims : list nat) (dom : gmap point bool) (contour : list point) (rounds : nat) (queue inferred : list point)
    : option (list point) :=
  match queue with
  | [] => Some inferred
  | sp :: q =>
      match rounds with
      | O => None
      | S r =>
          if bool_decide (sp ∈ contour) then infer_loop dims dom contour r q inferred
          else
            let '(q', inferred') :=
              fold_left (fun '(q, inf) m =>
                if bool_decide (m ∈ inf) then (q, inf)
                else match dom !! m with
                     | Some false => (q, inf)
                     | _ => (q ++ [m], inf ++ [m])
                     end) (von_neumann_neighborhood dims sp) (q, inferred) in
            infer_loop dims dom contour r q' inferred'
      end
  end.
(** operational_domain.hpp:1899-1923 *)
Definition infer (dims : list nat) (dom : gmap point bool) (contour : list point) (rounds : nat) (start : point) (inferred : list point)
    : option (list point) :=
  if bool_decide (start ∈ inferred) then Some inferred
  else infer_loop dims dom contour rounds [start] (inferred ++ [start]).

(** operational_domain.hpp:858-930, trace_contour_curve for the samples still to be considered. *)
Fixpoint trace_contour_curve (op : point -> bool) (nx ny : nat) (rounds : nat) (samples : list point)
    (dom : gmap point bool) (inferred : list point) : option (gmap point bool * list point) :=
  match samples with
  | [] => Some (dom, inferred)
  | s :: rest =>
      if match dom !! s with Some false => true | _ => false end then trace_contour_curve op nx ny rounds rest dom inferred
      else if bool_decide (s ∈ inferred) then trace_contour_curve op nx ny rounds rest dom inferred
      else
        let '(start, dom1) := find_contour_point op dom s in
        match trace_contour op nx ny rounds start dom1 with
        | Some (contour, dom2) =>
            match infer [nx; ny] dom2 contour rounds s inferred with
            | Some inferred' => trace_contour_curve op nx ny rounds rest dom2 inferred'
            | None => None
            end
        | None => None
        end
  end.

(** ** Three and more dimensions *)
(** std::ranges::any_of stops at the first non-operational point. *)
Fixpoint any_non_operational (op : point -> bool) (dom : gmap point bool) (l : list point) : bool * gmap point bool :=
  match l with
  | [] => (false, dom)
  | m :: l' => let '(b, dom') := ask op dom m in if b then any_non_operational op dom' l' else (true, dom')
  end.
(** operational_domain.hpp:960-975, neighborhood_and_boundary_status. *)
Definition boundary_status (dims : list nat) (op : point -> bool) (dom : gmap point bool) (sp : point) : bool * gmap point bool :=
  if length (moore_neighborhood dims sp) <? 3 ^ length dims - 1 then (true, dom)
  else any_non_operational op dom (moore_neighborhood dims sp).
(** operational_domain.hpp:1017-1028, over the neighbours of a point of the boundary. *)
Definition visit (op : point -> bool) (st : list point * list point * gmap point bool) (m : point) :=
  let '(queue, visited, dom) := st in
  if bool_decide (m ∈ visited) then st
  else let '(b, dom') := ask op dom m in ((if b then queue ++ [m] else queue), visited ++ [m], dom').
(** operational_domain.hpp:1002-1029 *)
Fixpoint surface_loop (dims : list nat) (op : point -> bool) (rounds : nat) (queue visited contour : list point) (dom : gmap point bool)
    : option (list point * gmap point bool) :=
  match queue with
  | [] => Some (contour, dom)
  | sp :: q =>
      match rounds with
      | O => None
      | S r =>
          let '(on_boundary, dom1) := boundary_status dims op dom sp in
          if on_boundary then
            let '(q', visited', dom2) := fold_left (visit op) (moore_neighborhood dims sp) (q, visited, dom1) in
            surface_loop dims op r q' visited' (contour ++ [sp]) dom2
          else surface_loop dims op r q visited contour dom1
      end
  end.
(** operational_domain.hpp:942-1037, trace_boundary_surface for the samples still to be considered. *)
Fixpoint trace_boundary_surface (dims : list nat) (op : point -> bool) (rounds : nat) (samples : list point)
    (dom : gmap point bool) (inferred : list point) : option (gmap point bool * list point) :=
  match samples with
  | [] => Some (dom, inferred)
  | s :: rest =>
      if match dom !! s with Some false => true | _ => false end then trace_boundary_surface dims op rounds rest dom inferred
      else if bool_decide (s ∈ inferred) then trace_boundary_surface dims op rounds rest dom inferred
      else
        let '(start, dom1) := find_contour_point op dom s in
        match surface_loop dims op rounds [start] [start] [] dom1 with
        | Some (contour, dom2) =>
            match infer dims dom2 contour rounds s inferred with
            | Some inferred' => trace_boundary_surface dims op rounds rest dom2 inferred'
            | None => None
            end
        | None => None
        end
  end.
