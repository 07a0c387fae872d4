(** Model of the computation of operational domains
    (include/fiction/algorithms/simulation/sidb/operational_domain.hpp): neighbourhoods of sample points, the parallel evaluation of
    given points, grid search, random sampling and the concurrent flood fill.

    Simplifications.
    - A sample point is its list of step indices (step_point); [dims] lists the number of indices of every sweep dimension (indices.at(d).size()).
      The stored domain is keyed by step points: distinct step points are taken to have distinct parameter points, i.e., the steps of
      the sweep are larger than the error margin with which parameter points are compared.
    - The physical simulation of one point is a function [op] of the point; only its verdict is kept (no critical temperatures).
    - Threads are interleaved: a look-up in the stored domain, an insertion into it, and each section protected by the queue mutex are
      atomic (the domain is a phmap::parallel_flat_hash_map with mutexes; std::mutex and std::condition_variable are trusted).
      Waiting on the condition variable can end spuriously at any time.
    - Random samples and shuffles are arguments. Statistics other than the list of simulated points are left out. *)
From Coq Require Import ZArith Bool List Lia.
From stdpp Require Import gmap list.
From Verif Require Import UtilModel.
Import ListNotations.

Notation point := (list nat).

(** ** Neighbourhoods *)
(** operational_domain.hpp:1843-1872, the body of the loop over the offsets: the digits of [rem] to base 3, lowest first, minus one, are
    added to the steps. [None]: some step is out of range; the boolean is is_center. *)
Fixpoint shifted (dims : list nat) (sp : point) (rem : nat) : option (bool * point) :=
  match dims, sp with
  | n :: dims', s :: sp' =>
      let offset := (Z.of_nat (rem mod 3) - 1)%Z in
      let step := (Z.of_nat s + offset)%Z in
      if ((step <? 0) || (Z.of_nat n <=? step))%Z then None
      else match shifted dims' sp' (rem / 3) with
           | Some (c, p) => Some ((offset =? 0)%Z && c, Z.to_nat step :: p)
           | None => None
           end
  | _, _ => Some (true, [])
  end.
(** operational_domain.hpp:1829-1882, moore_neighborhood. *)
Definition moore_neighborhood (dims : list nat) (sp : point) : list point :=
  flat_map (fun i => match shifted dims sp i with Some (false, p) => [p] | _ => [] end) (seq 0 (3 ^ length dims)).
(** operational_domain.hpp:1713-1777, moore_neighborhood_2d for [nx] times [ny] points. *)
Definition moore_neighborhood_2d (nx ny x y : nat) : list point :=
  let decr_x := if 0 <? x then x - 1 else x in
  let incr_x := if x + 1 <? nx then x + 1 else x in
  let decr_y := if 0 <? y then y - 1 else y in
  let incr_y := if y + 1 <? ny then y + 1 else y in
  let left := negb (x =? decr_x) in let right := negb (x =? incr_x) in
  let down := negb (y =? decr_y) in let up := negb (y =? incr_y) in
  (if right then [[incr_x; y]] else []) ++
  (if right && down then [[incr_x; decr_y]] else []) ++
  (if down then [[x; decr_y]] else []) ++
  (if left && down then [[decr_x; decr_y]] else []) ++
  (if left then [[decr_x; y]] else []) ++
  (if left && up then [[decr_x; incr_y]] else []) ++
  (if up then [[x; incr_y]] else []) ++
  (if right && up then [[incr_x; incr_y]] else []).
(** operational_domain.hpp:1789-1815, von_neumann_neighborhood; [pre] holds the steps of the dimensions already passed. *)
Fixpoint von_neumann_loop (pre : list nat) (dims : list nat) (sp : point) : list point :=
  match dims, sp with
  | n :: dims', step :: sp' =>
      (if 0 <? step then [pre ++ (step - 1) :: sp'] else []) ++
      (if step + 1 <? n then [pre ++ (step + 1) :: sp'] else []) ++
      von_neumann_loop (pre ++ [step]) dims' sp'
  | _, _ => []
  end.
Definition von_neumann_neighborhood (dims : list nat) (sp : point) : list point := von_neumann_loop [] dims sp.

(** ** Evaluating given points in parallel *)
(** operational_domain.hpp:1596-1622: the slices handed to the threads. *)
Definition num_slices (threads n : nat) : nat := Nat.max (Nat.min threads n) 1.
Definition slice_size (threads n : nat) : nat := (n + num_slices threads n - 1) / num_slices threads n.
Fixpoint slices_from (size : nat) (points : list point) (i k : nat) : list (list point) :=
  match k with
  | O => []
  | S k' =>
      let start := i * size in
      let stop := Nat.min (start + size) (length points) in
      if stop <=? start then [] else firstn (stop - start) (skipn start points) :: slices_from size points (S i) k'
  end.
Definition slices (threads : nat) (points : list point) : list (list point) :=
  slices_from (slice_size threads (length points)) points 0 (num_slices threads (length points)).

(** One thread: about to evaluate the next of its points, or simulating a point. *)
Inductive tstate := TNext (todo : list point) | TSim (sp : point) (todo : list point).
Record pstate := mkP { p_dom : gmap point bool; p_threads : list tstate; p_log : list point }.
(** operational_domain.hpp:494-497 (number_of_threads is at least one), 1594-1630: the start of simulate_operational_status_in_parallel;
    all callers do this first, with nothing stored yet. *)
Definition par_start (threads : nat) (points : list point) : pstate :=
  mkP ∅ (map TNext (slices (Nat.max threads 1) points)) [].
(** sidb_simulation_domain.hpp, add_value: try_emplace keeps an existing entry. *)
Definition add_value (dom : gmap point bool) (sp : point) (b : bool) : gmap point bool :=
  match dom !! sp with Some _ => dom | None => <[sp := b]> dom end.
(** operational_domain.hpp:1398-1475 run by thread [i], in two atomic parts; [None]: the thread has finished. *)
Definition par_step (op : point -> bool) (i : nat) (s : pstate) : option pstate :=
  match p_threads s !! i with
  | Some (TNext (sp :: todo)) =>
      match p_dom s !! sp with
      | Some _ => Some (mkP (p_dom s) (<[i := TNext todo]> (p_threads s)) (p_log s))
      | None => Some (mkP (p_dom s) (<[i := TSim sp todo]> (p_threads s)) (p_log s))
      end
  | Some (TSim sp todo) =>
      Some (mkP (add_value (p_dom s) sp (op sp)) (<[i := TNext todo]> (p_threads s)) (p_log s ++ [sp]))
  | _ => None
  end.
(** A schedule names the threads in the order in which they take steps; one that cannot take a step leaves everything as it is. *)
Definition par_run (op : point -> bool) (schedule : list nat) (s : pstate) : pstate :=
  fold_left (fun s i => match par_step op i s with Some s' => s' | None => s end) schedule s.
(** The number of steps taken in a schedule. *)
Fixpoint par_moves (op : point -> bool) (schedule : list nat) (s : pstate) : nat :=
  match schedule with
  | [] => 0
  | i :: l => match par_step op i s with Some s' => S (par_moves op l s') | None => par_moves op l s end
  end.
Definition par_finished (s : pstate) : Prop := Forall (fun t => t = TNext []) (p_threads s).

(** operational_domain.hpp:595-618, grid_search, before shuffling. *)
Definition all_points (dims : list nat) : list point := cartesian_combinations (map (seq 0) dims).

(** ** Flood fill *)
(** operational_domain.hpp:725-775, one worker: before taking the lock; blocked on the condition variable; holding a popped point whose
    status is not yet looked up; simulating it; collecting unknown neighbours; about to report them; returned. *)
Inductive wstate :=
| WReady
| WWait
| WBusy (sp : point)
| WSim (sp : point)
| WNbrs (sp : point) (todo found : list point)
| WReport (sp : point) (found : list point)
| WDone.
Record fstate := mkF {
  f_dom : gmap point bool; f_queue : list point; f_scheduled : list point; f_active : nat; f_finished : bool;
  f_workers : list wstate; f_log : list point }.

(** operational_domain.hpp:702-712, schedule_points. *)
Definition schedule_points (pts : list point) (q : list point * list point) : list point * list point :=
  fold_left (fun q sp => if bool_decide (sp ∈ snd q) then q else (fst q ++ [sp], snd q ++ [sp])) pts q.
(** operational_domain.hpp:686-698, unknown_neighborhood, when nothing else runs. *)
Definition unknown_neighborhood (dims : list nat) (dom : gmap point bool) (sp : point) : list point :=
  List.filter (fun m => match dom !! m with Some _ => false | None => true end) (moore_neighborhood dims sp).
(** operational_domain.hpp:715-722: the queue is seeded with the neighbours of each operational point; [keys] is the order in which
    op_domain.for_each passes over the stored points. *)
Definition seed_queue (dims : list nat) (dom : gmap point bool) (keys : list point) : list point * list point :=
  fold_left (fun q sp => match dom !! sp with
                         | Some true => schedule_points (unknown_neighborhood dims dom sp) q
                         | _ => q
                         end) keys ([], []).
(** operational_domain.hpp:725-726, 778-787: the workers are started if there is anything to do. *)
Definition fill_start (dims : list nat) (threads : nat) (dom : gmap point bool) (keys : list point) : fstate :=
  let q := seed_queue dims dom keys in
  mkF dom (fst q) (snd q) 0 false
      (match fst q with [] => [] | _ :: _ => repeat WReady (Nat.max threads 1) end) [].

Definition wake (w : wstate) : wstate := match w with WWait => WReady | _ => w end.
(** operational_domain.hpp:727-776, one atomic part of worker [i]; [None]: the worker is blocked or has returned. *)
Definition fill_step (dims : list nat) (op : point -> bool) (i : nat) (s : fstate) : option fstate :=
  let upd w := <[i := w]> (f_workers s) in
  match f_workers s !! i with
  | Some WReady =>
      match f_queue s with
      | sp :: q => Some (mkF (f_dom s) q (f_scheduled s) (S (f_active s)) (f_finished s) (upd (WBusy sp)) (f_log s))
      | [] => Some (mkF (f_dom s) [] (f_scheduled s) (f_active s) (f_finished s)
                        (upd (if f_finished s then WDone else WWait)) (f_log s))
      end
  | Some (WBusy sp) =>
      Some (mkF (f_dom s) (f_queue s) (f_scheduled s) (f_active s) (f_finished s)
                (upd (match f_dom s !! sp with
                      | Some true => WNbrs sp (moore_neighborhood dims sp) []
                      | Some false => WReport sp []
                      | None => WSim sp
                      end)) (f_log s))
  | Some (WSim sp) =>
      Some (mkF (add_value (f_dom s) sp (op sp)) (f_queue s) (f_scheduled s) (f_active s) (f_finished s)
                (upd (if op sp then WNbrs sp (moore_neighborhood dims sp) [] else WReport sp [])) (f_log s ++ [sp]))
  | Some (WNbrs sp (m :: todo) found) =>
      Some (mkF (f_dom s) (f_queue s) (f_scheduled s) (f_active s) (f_finished s)
                (upd (WNbrs sp todo (match f_dom s !! m with Some _ => found | None => found ++ [m] end))) (f_log s))
  | Some (WNbrs sp [] found) =>
      Some (mkF (f_dom s) (f_queue s) (f_scheduled s) (f_active s) (f_finished s) (upd (WReport sp found)) (f_log s))
  | Some (WReport sp found) =>
      let q := schedule_points found (f_queue s, f_scheduled s) in
      let active := f_active s - 1 in
      let finished := match fst q with [] => active =? 0 | _ :: _ => false end in
      let notify := finished || match fst q with [] => false | _ :: _ => true end in
      Some (mkF (f_dom s) (fst q) (snd q) active finished
                (let ws := upd WReady in if notify then map wake ws else ws) (f_log s))
  | _ => None
  end.
(** What happens next: a worker takes a step, or its wait ends spuriously. *)
Inductive event := Run (i : nat) | Spurious (i : nat).
Definition fill_event (dims : list nat) (op : point -> bool) (s : fstate) (e : event) : fstate :=
  match e with
  | Run i => match fill_step dims op i s with Some s' => s' | None => s end
  | Spurious i =>
      match f_workers s !! i with
      | Some WWait => mkF (f_dom s) (f_queue s) (f_scheduled s) (f_active s) (f_finished s)
                          (<[i := WReady]> (f_workers s)) (f_log s)
      | _ => s
      end
  end.
Definition fill_run (dims : list nat) (op : point -> bool) (events : list event) (s : fstate) : fstate :=
  fold_left (fill_event dims op) events s.
(** The number of steps the workers take, and the number of spurious wake-ups. *)
Fixpoint fill_moves (dims : list nat) (op : point -> bool) (events : list event) (s : fstate) : nat :=
  match events with
  | [] => 0
  | e :: l => match e with
              | Run i => match fill_step dims op i s with Some s' => S (fill_moves dims op l s') | None => fill_moves dims op l s end
              | Spurious _ => fill_moves dims op l (fill_event dims op s e)
              end
  end.
Fixpoint spurious (events : list event) : nat :=
  match events with [] => 0 | Spurious _ :: l => S (spurious l) | Run _ :: l => spurious l end.
(** operational_domain.hpp:788-791: all workers have been joined. *)
Definition fill_finished (s : fstate) : Prop := Forall (fun w => w = WDone) (f_workers s).
