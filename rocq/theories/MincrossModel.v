(** Model of include/fiction/algorithms/graph/mincross.hpp on rank views of technology networks.

    Simplifications.
    - mockturtle's fanout_view, which is not part of the repository, lists for each node the gates that have it as a fan-in, each once, in the
      order in which the view it is made of iterates over its gates.
    - Medians are rationals that an arbitrary function [rnd] rounds; the comparison of crossing numbers with the convergence factor is an
      arbitrary function [improves]. Sorting is an argument, as in RankModel.
    - The number of all crossings is not bounded (below 2^64 it is exact); the numbers that guide transpositions are those of uint32_t.
    - Violated assertions, accesses out of bounds and exceptions are the outcome [None]. *)
From Coq Require Import ZArith QArith Bool List.
From stdpp Require Import gmap list sorting.
From Verif Require Import FanoutModel DepthModel RankModel.
Import ListNotations.
Open Scope nat_scope.

(** mincross.hpp:25-67, mincross_params; the factor [convergence] is part of [improves]. *)
Record mparams := mkMP { fixed_pis : bool; optimize : bool; max_iter : nat; min_quit : nat; init_refine_max_iters : nat }.

Section Cross.
Variable sort : (nat -> nat -> bool) -> list nat -> list nat.
Variable rnd : Q -> Q.
Variable improves : nat -> nat -> bool.
(** The gates in the order in which fanout_view was built. *)
Variable gates : list nat.
Variable p : mparams.

(** mockturtle's foreach_fanout. *)
Definition fanouts (st : rview) (n : nat) : list nat := List.filter (fun g => existsb (Nat.eqb n) (t_fanins (r_net st) g)) gates.
Fixpoint map_o {A B} (f : A -> option B) (l : list A) : option (list B) :=
  match l with
  | [] => Some []
  | a :: l => match f a, map_o f l with Some b, Some r => Some (b :: r) | _, _ => None end
  end.

(** ** Counting *)

(** mincross.hpp:579-585: the penalties of the positions [k] to [k + n - 1]. *)
Fixpoint penalties (pen : list nat) (k n : nat) : option nat :=
  match n with
  | O => Some 0
  | S n => match pen !! k, penalties pen (S k) n with Some a, Some b => Some (a + b) | _, _ => None end
  end.
(** mincross.hpp:587-591 *)
Definition penalize (q : nat) (acc : list nat * nat) : option (list nat * nat) :=
  match fst acc !! q with Some a => Some (<[q := S a]> (fst acc), Nat.max (snd acc) q) | None => None end.
(** mincross.hpp:563-592: one node. *)
Definition ncross_node (st : rview) (n : nat) (acc : (list nat * nat) * nat) : option ((list nat * nat) * nat) :=
  match map_o (rank_position st) (fanouts st n) with
  | None => None
  | Some targets =>
    match fold_o (fun q t => match penalties (fst (fst acc)) (S q) (snd (fst acc) - q) with Some c => Some (t + c) | None => None end) targets (snd acc),
          fold_o penalize targets (fst acc) with
    | Some t, Some pm => Some (pm, t)
    | _, _ => None
    end
  end.
(** mincross.hpp:554-595, ncross *)
Definition ncross_rank (st : rview) (r : nat) (t : nat) : option nat :=
  match rank_width st (S r), get_ranks st r with
  | Some w, Some rank =>
    match fold_o (ncross_node st) rank ((replicate (S w) 0, 0), t) with Some (_, t) => Some t | None => None end
  | _, _ => None
  end.
Definition ncross (st : rview) : option nat := fold_o (ncross_rank st) (seq 0 (depth (r_view st))) 0.

(** ** Medians *)

Definition no_median : Q := (-1)%Q.
Definition of_nat (n : nat) : Q := inject_Z (Z.of_nat n).
Definition nth0 (l : list nat) (i : nat) : nat := default 0 (l !! i).
(** mincross.hpp:286-329: the median of sorted positions. *)
Definition median (ps : list nat) : Q :=
  match ps with
  | [] => no_median
  | [a] => of_nat a
  | [a; b] => rnd (of_nat (add32 a b) / 2)%Q
  | _ =>
    let j := length ps in
    if Nat.odd j then of_nat (nth0 ps (j / 2))
    else
      let rm := j / 2 in let lm := rm - 1 in
      let lspan := nth0 ps lm - nth0 ps 0 in let rspan := nth0 ps (j - 1) - nth0 ps rm in
      if Nat.eqb lspan rspan then rnd (of_nat (add32 (nth0 ps lm) (nth0 ps rm)) / 2)%Q
      else rnd (rnd (rnd (of_nat (nth0 ps lm) * of_nat rspan) + rnd (of_nat (nth0 ps rm) * of_nat lspan)) / of_nat (lspan + rspan))%Q
  end.
(** mincross.hpp:255-284: the positions of the neighbours in rank [r1] of a node of rank [r0]. *)
Fixpoint keep_some {A} (l : list (option A)) : list A := match l with [] => [] | Some a :: l => a :: keep_some l | None :: l => keep_some l end.
Definition neighbours (st : rview) (r0 r1 n : nat) : option (list nat) :=
  option_map keep_some (
    if Nat.ltb r0 r1 then
      map_o (fun f => match r_level st f with
        | Some l => if Nat.eqb l r1 then match rank_position st f with Some q => Some (Some q) | None => None end else Some None
        | None => None end) (fanouts st n)
    else
      map_o (fun f => match r_level st f with
        | Some l => if Nat.eqb l r1 && negb (t_is_constant (r_net st) f) then match rank_position st f with Some q => Some (Some q) | None => None end else Some None
        | None => None end) (t_fanins (r_net st) n)).
(** mincross.hpp:243-331, medians *)
Definition medians (st : rview) (r0 r1 : nat) : option (gmap nat Q) :=
  match get_ranks st r0 with
  | Some rank => fold_o (fun n m => match neighbours st r0 r1 n with Some ps => Some (<[n := median (merge_sort (≤) ps)]> m) | None => None end) rank ∅
  | None => None
  end.
(** mincross.hpp:345-361: the comparison of nodes by their medians. *)
Definition by_median (m : gmap nat Q) (asc : bool) (n1 n2 : nat) : bool :=
  let m1 := default 0%Q (m !! n1) in let m2 := default 0%Q (m !! n2) in
  if Qeq_bool m1 no_median then false else if Qeq_bool m2 no_median then true
  else if asc then negb (Qle_bool m2 m1) else negb (Qle_bool m1 m2).
(** mincross.hpp:339-366, reorder *)
Definition reorder (m : gmap nat Q) (r : nat) (asc : bool) (st : rview) : option rview :=
  match get_ranks st r with Some rank => set_ranks r (sort (by_median m asc) rank) st | None => None end.

(** ** Transpositions *)

(** mincross.hpp:535-549, count_crossings *)
Definition count_crossings (a b : list nat) : nat := u32 (Z.of_nat (list_sum (map (fun x => length (List.filter (fun y => Nat.ltb y x) b)) a))).
(** mincross.hpp:467-497, in_cross *)
Definition sources (st : rview) (n : nat) : option (list nat) := map_o (rank_position st) (List.filter (fun f => negb (t_is_constant (r_net st) f)) (t_fanins (r_net st) n)).
Definition in_cross (st : rview) (v w : nat) : option nat :=
  match sources st v, sources st w with Some a, Some b => Some (count_crossings a b) | _, _ => None end.
(** mincross.hpp:506-526, out_cross *)
Definition out_cross (st : rview) (v w : nat) : option nat :=
  match map_o (rank_position st) (fanouts st v), map_o (rank_position st) (fanouts st w) with Some a, Some b => Some (count_crossings a b) | _, _ => None end.
Definition add_o (a b : option nat) : option nat := match a, b with Some a, Some b => Some (add32 a b) | _, _ => None end.
(** mincross.hpp:425-455: the loop of transpose_step over neighbours in the copied rank. *)
Fixpoint transpose_pairs (r : nat) (asc : bool) (rank : list nat) (acc : rview * nat) : option (rview * nat) :=
  match rank with
  | v :: ((w :: _) as rest) =>
    let st := fst acc in
    match rank_position st v, rank_position st w with
    | Some pv, Some pw =>
      if Nat.ltb pv pw then
        let crosses a b := add_o (if Nat.ltb 0 r then in_cross st a b else Some 0) (if Nat.ltb (S r) (depth (r_view st)) then out_cross st a b else Some 0) in
        match crosses v w, crosses w v with
        | Some c0, Some c1 =>
          if Nat.ltb c1 c0 || (Nat.ltb 0 c0 && negb asc && Nat.eqb c1 c0) then
            match swap v w st with Some st => transpose_pairs r asc rest (st, u32 (Z.of_nat (snd acc) + Z.of_nat c0 - Z.of_nat c1)) | None => None end
          else transpose_pairs r asc rest acc
        | _, _ => None
        end
      else None
    | _, _ => None
    end
  | _ => Some acc
  end.
(** mincross.hpp:413-458, transpose_step *)
Definition transpose_step (r : nat) (asc : bool) (st : rview) : option (rview * nat) :=
  match get_ranks st r with Some rank => transpose_pairs r asc rank (st, 0) | None => None end.
(** mincross.hpp:381-396: one round over the ranks; the state, the candidates and delta. *)
Definition transpose_rank (asc : bool) (l : nat) (acc : (rview * list bool) * nat) : option ((rview * list bool) * nat) :=
  if Nat.eqb l 0 && fixed_pis p then Some acc
  else match snd (fst acc) !! l with
       | None => None
       | Some false => Some acc
       | Some true => match transpose_step l asc (fst (fst acc)) with
                      | Some (st, d) => Some ((st, <[l := Nat.ltb 0 d]> (snd (fst acc))), add32 (snd acc) d)
                      | None => None
                      end
       end.
(** mincross.hpp:377-404: the rounds. *)
Fixpoint transpose_rounds (fuel : nat) (asc : bool) (st : rview) (cand : list bool) : option rview :=
  match fuel with
  | O => Some st
  | S fuel =>
    match fold_o (transpose_rank asc) (seq 0 (S (depth (r_view st)))) ((st, cand), 0) with
    | Some ((st, cand), delta) => if Nat.ltb delta 1 then Some st else transpose_rounds fuel asc st cand
    | None => None
    end
  end.
(** mincross.hpp:373-404, transpose *)
Definition transpose (asc : bool) (st : rview) : option rview := transpose_rounds 1000 asc st (replicate (S (depth (r_view st))) true).

(** ** Minimization *)

Definition reorder_by (asc : bool) (r other : nat) (st : rview) : option rview :=
  match medians st r other with Some m => reorder m r asc st | None => None end.
(** mincross.hpp:195-235, mincross_step *)
Definition mincross_step (iter : nat) (st : rview) : option rview :=
  let asc := Nat.ltb (iter mod 4) 2 in
  let d := depth (r_view st) in
  match (if Nat.even iter then fold_o (fun r st => reorder_by asc r (r - 1) st) (seq 1 d) st
         else fold_o (fun r st => if Nat.eqb r 0 && fixed_pis p then Some st else reorder_by asc r (S r) st) (rev (seq 0 d)) st) with
  | Some st => transpose asc st
  | None => None
  end.
(** The variables of minimize_crossings: the view, cur_cross, best_cross and best_ranks. *)
Record mstate := mkM { m_view : rview; m_cur : nat; m_best : nat; m_ranks : list (list nat) }.
(** mincross.hpp:148-172: the iterations of a pass, [n] of them left. *)
Fixpoint iterations (n iter trying : nat) (s : mstate) : option mstate :=
  match n with
  | O => Some s
  | S n =>
    if Nat.leb (min_quit p) trying || Nat.eqb (m_cur s) 0 then Some s
    else
      match mincross_step iter (m_view s) with
      | None => None
      | Some st =>
        match ncross st with
        | None => None
        | Some cur =>
          if Nat.leb cur (m_best s)
          then iterations n (S iter) (if improves cur (m_best s) then 0 else S trying) (mkM st cur cur (get_all_ranks st))
          else iterations n (S iter) (S trying) (mkM st cur (m_best s) (m_ranks s))
        end
      end
  end.
(** mincross.hpp:143-180: the passes. *)
Fixpoint passes (ps : list nat) (s : mstate) : option mstate :=
  match ps with
  | [] => Some s
  | pass :: ps =>
    let most := if Nat.leb pass 1 then Nat.min (init_refine_max_iters p) (max_iter p) else max_iter p in
    match iterations most 0 0 s with
    | None => None
    | Some s =>
      match set_all_ranks (m_ranks s) (m_view s) with
      | None => None
      | Some st => let s := mkM st (m_cur s) (m_best s) (m_ranks s) in if Nat.eqb (m_cur s) 0 then Some s else passes ps s
      end
    end
  end.
(** mincross.hpp:131-193, minimize_crossings: the fanout view and the network's ranks. *)
Definition minimize_crossings (st : rview) : option (rview * rview) :=
  match ncross st with
  | None => None
  | Some cur =>
    match passes [0; 1; 2] (mkM st cur cur (get_all_ranks st)) with
    | None => None
    | Some s =>
      let last := if Nat.ltb 0 (m_best s) then
          match transpose true (m_view s) with
          | Some st' => match ncross st' with
                        | Some cur => Some (st', if Nat.ltb cur (m_best s) then get_all_ranks st' else m_ranks s)
                        | None => None
                        end
          | None => None
          end else Some (m_view s, m_ranks s) in
      match last with
      | Some (st', best) => match set_all_ranks best st', set_all_ranks best st with Some f, Some n => Some (f, n) | _, _ => None end
      | None => None
      end
    end
  end.
(** mincross.hpp:110-120, run *)
Definition mincross_run (st : rview) : option (rview * nat) :=
  match (if optimize p then minimize_crossings st else Some (st, st)) with
  | Some (f, n) => match ncross f with Some k => Some (n, k) | None => None end
  | None => None
  end.
End Cross.

(** mincross.hpp:627-645, mincross: the reordered view and num_crossings. *)
Definition mincross (sort : (nat -> nat -> bool) -> list nat -> list nat) (rnd : Q -> Q) (improves : nat -> nat -> bool) (p : mparams) (st : rview) : option (rview * nat) :=
  match is_balanced (r_net st) false with
  | Some true => mincross_run sort rnd improves (foreach_gate st) p st
  | _ => None
  end.
