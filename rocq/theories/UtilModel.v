(** Model of include/fiction/algorithms/iter/{gray_code_iterator,aspect_ratio_iterator}.hpp,
    include/fiction/utils/{math_utils,combination_utils,stl_utils}.hpp and of the part of
    vendors/combinations/combinations.h behind combination_utils.hpp. *)
From Coq Require Import ZArith Bool List.
From Verif Require Import CoordModel.
Import ListNotations.
Local Open Scope Z_scope.

(** ** Gray code iterator *)
Definition u64 (z : Z) : Z := z mod 2 ^ 64.
(** gray_code_iterator.hpp:290-301, the members. *)
Record gray := mkGray { gr_start : Z; gr_cur : Z; gr_code : Z }.
(** gray_code_iterator.hpp:311-314, binary_to_gray. *)
Definition binary_to_gray (n : Z) : Z := Z.lxor n (Z.shiftr n 1).
(** gray_code_iterator.hpp:32-38, constructor. *)
Definition gray_new (start : Z) : gray := mkGray start start (binary_to_gray start).
(** gray_code_iterator.hpp:44-47, operator*. *)
Definition gray_deref (g : gray) : Z := gr_code g.
(** The common part of the mutating operators: new position and code, gray_code_iterator.hpp:55-56. *)
Definition gray_goto (g : gray) (n : Z) : gray := mkGray (gr_start g) (u64 n) (binary_to_gray (u64 n)).
(** The mutating operators: gray_code_iterator.hpp:53-59 (++), 167-174 (--), 146-152 (+= int),
    196-203 (-= int; the int converts to uint64_t modulo 2^64), 210-215 (= uint64_t). *)
Inductive gray_op := GInc | GDec | GAdd (m : Z) | GSub (m : Z) | GSet (m : Z).
Definition gray_step (g : gray) (o : gray_op) : gray :=
  match o with
  | GInc => gray_goto g (gr_cur g + 1)
  | GDec => gray_goto g (gr_cur g - 1)
  | GAdd m => gray_goto g (gr_cur g + m)
  | GSub m => gray_goto g (gr_cur g - m)
  | GSet m => gray_goto g m
  end.
(** A history of calls on one iterator. *)
Definition gray_run (g : gray) (ops : list gray_op) : gray := fold_left gray_step ops g.
(** gray_code_iterator.hpp:131-138 and 160-167, operator+ and operator- with an int (copies). *)
Definition gray_plus (g : gray) (m : Z) : gray := gray_step g (GAdd m).
Definition gray_minus (g : gray) (m : Z) : gray := gray_step g (GSub m).
(** Comparisons of two iterators, gray_code_iterator.hpp:66-99. *)
Definition gray_eqb (a b : gray) : bool := gr_code a =? gr_code b.
Definition gray_ltb (a b : gray) : bool := gr_code a <? gr_code b.
Definition gray_leb (a b : gray) : bool := gr_code a <=? gr_code b.
(** gray_code_iterator.hpp:110-113, difference of two iterators as int64_t; signed overflow is undefined. *)
Definition i64 (z : Z) : Z := (z + 2 ^ 63) mod 2 ^ 64 - 2 ^ 63.
Definition gray_diff (a b : gray) : option Z :=
  let d := i64 (gr_cur a) - i64 (gr_cur b) in
  if (- 2 ^ 63 <=? d) && (d <? 2 ^ 63) then Some d else None.
(** gray_code_iterator.hpp:222-228, operator[]. *)
Definition gray_at (g : gray) (index : Z) : Z := binary_to_gray (u64 (gr_start g + index)).
(** Comparisons with a number, gray_code_iterator.hpp:235-288. *)
Definition gray_is (g : gray) (m : Z) : bool := gr_cur g =? m.
Definition gray_below (g : gray) (m : Z) : bool := gr_cur g <? m.

(** ** Aspect ratio iterator (over offset coordinates) *)
(** aspect_ratio_iterator.hpp:140-161, factorize: loop over i = 1 .. sqrt(num). The comparison with the double
    sqrt(num) is modelled by the integer square root, which agrees for num < 2^52. The coordinate
    constructor truncates to 31 bits. *)
Definition ratio (x y : Z) : coord := live (x mod 2 ^ 31) (y mod 2 ^ 31) 0.
Definition factorize (num : Z) : list coord :=
  flat_map (fun j => let i := Z.of_nat j in
              if num mod i =? 0
              then let x := i - 1 in let y := num / i - 1 in
                   if x =? y then [ratio x y] else [ratio x y; ratio y x]
              else [])
           (seq 1 (Z.to_nat (Z.sqrt num))).
(** aspect_ratio_iterator.hpp:125-134, the members; [ar_pos] is the position of [it] in [factors]. *)
Record arit := mkAr { ar_num : Z; ar_factors : list coord; ar_pos : nat }.
(** aspect_ratio_iterator.hpp:165-172, next: the do-while loop, [None] when the fuel runs out. *)
Fixpoint ar_next (fuel : nat) (num : Z) : option arit :=
  match fuel with
  | O => None
  | S f => let n := u64 (num + 1) in
           match factorize n with
           | [] => ar_next f n
           | l => Some (mkAr n l 0)
           end
  end.
(** aspect_ratio_iterator.hpp:38-41, constructor. *)
Definition ar_new (fuel : nat) (n : Z) : option arit := ar_next fuel (if n =? 0 then 0 else n - 1).
(** aspect_ratio_iterator.hpp:50-61, operator++. *)
Definition ar_incr (fuel : nat) (a : arit) : option arit :=
  if Nat.eqb (S (ar_pos a)) (length (ar_factors a)) then ar_next fuel (ar_num a)
  else Some (mkAr (ar_num a) (ar_factors a) (S (ar_pos a))).
(** aspect_ratio_iterator.hpp:79-82, operator*; [None] is an access outside the vector. *)
Definition ar_deref (a : arit) : option coord := nth_error (ar_factors a) (ar_pos a).
(** The values read by a loop of [len] iterations "*it; ++it". *)
Fixpoint ar_read (fuel len : nat) (a : arit) : option (list coord) :=
  match len with
  | O => Some []
  | S l => match ar_deref a with
           | None => None
           | Some c =>
             match l with
             | O => Some [c]
             | _ => match ar_incr fuel a with
                    | None => None
                    | Some a' => match ar_read fuel l a' with Some r => Some (c :: r) | None => None end
                    end
             end
           end
  end.
(** aspect_ratio_iterator.hpp:84-121, comparisons. *)
Definition ar_cmp (f : coord -> coord -> bool) (a b : arit) : bool :=
  match ar_deref a, ar_deref b with Some x, Some y => f x y | _, _ => false end.
Definition ar_eqb (a b : arit) : bool := (ar_num a =? ar_num b) && ar_cmp coord_eqb a b.
Definition ar_ltb (a b : arit) : bool := (ar_num a <? ar_num b) || ((ar_num a =? ar_num b) && ar_cmp coord_ltb a b).
Definition ar_leb (a b : arit) : bool := (ar_num a <=? ar_num b) || ((ar_num a =? ar_num b) && ar_cmp (leb_of coord_ltb) a b).

(** Copies. The implicit copy constructor copies the vector and the iterator [it], which keeps
    pointing into the vector of the original. An iterator object with identity: [p_owner] is the
    object whose vector [it] points into, [p_gen] the generation of that vector, which factorize()
    (factors.clear()) renews. *)
Record arobj := mkObj { ob_num : Z; ob_factors : list coord; ob_gen : nat; p_owner : nat; p_gen : nat; p_pos : nat }.
Definition ob_new (fuel id : nat) (n : Z) : option arobj :=
  match ar_new fuel n with Some a => Some (mkObj (ar_num a) (ar_factors a) 0 id 0 0) | None => None end.
(** Dereferencing [it]: undefined if the vector it points into has changed since. *)
Definition ob_deref (heap : list arobj) (id : nat) : option coord :=
  match nth_error heap id with
  | None => None
  | Some o => match nth_error heap (p_owner o) with
              | Some w => if Nat.eqb (ob_gen w) (p_gen o) then nth_error (ob_factors w) (p_pos o) else None
              | None => None
              end
  end.
(** operator++ on an object: the comparison of [it] with the end of the own vector is undefined
    if [it] points into another vector. *)
Definition ob_incr (fuel : nat) (heap : list arobj) (id : nat) : option (list arobj) :=
  match nth_error heap id with
  | None => None
  | Some o =>
    if negb (Nat.eqb (p_owner o) id && Nat.eqb (p_gen o) (ob_gen o)) then None
    else
      let put o' := firstn id heap ++ o' :: skipn (S id) heap in
      if Nat.eqb (S (p_pos o)) (length (ob_factors o))
      then match ar_next fuel (ob_num o) with
           | Some a => Some (put (mkObj (ar_num a) (ar_factors a) (S (ob_gen o)) id (S (ob_gen o)) 0))
           | None => None
           end
      else Some (put (mkObj (ob_num o) (ob_factors o) (ob_gen o) id (p_gen o) (S (p_pos o))))
  end.
(** Copy construction: a new object at the end of the heap. *)
Definition ob_copy (heap : list arobj) (id : nat) : option (list arobj) :=
  match nth_error heap id with
  | None => None
  | Some o => Some (heap ++ [mkObj (ob_num o) (ob_factors o) 0 (p_owner o) (p_gen o) (p_pos o)])
  end.
(** aspect_ratio_iterator.hpp:70-77, postfix operator++: the new last object is the result. *)
Definition ob_post_incr (fuel : nat) (heap : list arobj) (id : nat) : option (list arobj) :=
  match ob_copy heap id with Some h => ob_incr fuel h id | None => None end.

(** ** math_utils.hpp *)
(** math_utils.hpp:59-79, binomial_coefficient; [None] when the fuel runs out or on a division by zero. *)
Fixpoint binom_loop (fuel : nat) (n k i result : Z) : option Z :=
  if i <=? k then
    match fuel with
    | O => None
    | S f => if i =? 0 then None else binom_loop f n k (u64 (i + 1)) (u64 (result * u64 (n + 1 - i)) / i)
    end
  else Some result.
Definition binomial_coefficient (fuel : nat) (n k : Z) : option Z :=
  if n <? k then Some 0
  else let k' := if n <? u64 (2 * k) then n - k else k in binom_loop fuel n k' 1 1.

(** math_utils.hpp:95-117, cartesian_combinations. *)
Definition cartesian_combinations {A} (sets : list (list A)) : list (list A) :=
  fold_left (fun all dimension => flat_map (fun product => map (fun e => product ++ [e]) dimension) all) sets [[]].

(** math_utils.hpp:43-51, integral_abs for int64_t; std::abs of the minimum is undefined. *)
Definition integral_abs64 (n : Z) : option Z := if n =? - 2 ^ 63 then None else Some (Z.abs n).

(** ** Combinations *)
(** combinations.h (vendors), rotate_discontinuous on the two ranges A = [first1,last1) and
    B = [first2,last2): swap_ranges + std::rotate, or swapping from the back + std::rotate. *)
Definition rotate_discontinuous {E} (A B : list E) : list E * list E :=
  if Nat.leb (length A) (length B)
  then (firstn (length A) B, skipn (length A) B ++ A)
  else let k := (length A - length B)%nat in (B ++ firstn k A, skipn k A).

(** combinations.h, combine_discontinuous with a callback that always returns false. [d1] is the length of A; [pre]
    are the elements in front of first1 inside the visited range. Returns the visited ranges and
    the final contents of A and B. [inner] is d <> 0.
    The loop runs over i2: [B] is the content of [i2,last2), [a] the element at first1, [A1] the rest of
    A; [body] is what happens before the swap of first1 and i2: f() if d1 = 1, otherwise the
    recursive call. The result is the visited ranges, the final element at first1, rest of A, and B. *)
Fixpoint combine_loop {E} (body : E -> list E -> list E -> list (list E) * (list E * list E))
    (n : nat) (a : E) (A1 B : list E) {struct n} : list (list E) * (E * list E * list E) :=
  match n, B with
  | S n', _ :: _ =>
      let '(v, (A2, B2)) := body a A1 B in
      match B2 with
      | b2 :: B3 => let '(v', (h, r, fr)) := combine_loop body n' b2 A2 B3 in (v ++ v', (h, r, a :: fr))
      | [] => (v, (a, A2, []))
      end
  | _, _ => ([], (a, A1, []))
  end.
Fixpoint combine_discontinuous {E} (d1 : nat) (inner : bool) (pre A B : list E) {struct d1} : list (list E) * (list E * list E) :=
  match d1, A, B with
  | S d, a :: A', _ :: _ =>
      let body a A1 B := match d with
                         | O => ([pre ++ [a]], (A1, B))
                         | S _ => combine_discontinuous d true (pre ++ [a]) A1 B
                         end in
      let '(vis, (h, r, B2)) := combine_loop body (length B) a A' B in
      let A2 := h :: r in
      let vis' := vis ++ [pre ++ A2] in
      if inner
      then match B2 with
           | b :: B3 => let '(A4, B4) := rotate_discontinuous A2 B3 in (vis', (A4, b :: B4))
           | [] => (vis', (A2, B2))
           end
      else (vis', rotate_discontinuous A2 B2)
  | _, _, _ => ([pre ++ A], (A, B))                                              (* d1 == 0 || d2 == 0 *)
  end.

(** combination_utils.hpp:29-68. The callback copies the range [numbers.begin(), numbers.begin() + k). *)
Definition all_combinations (k n : nat) : list (list nat) :=
  if Nat.ltb n k then []
  else if Nat.eqb k 0 then []
  else let numbers := seq 0 n in
       fst (combine_discontinuous k false [] (firstn k numbers) (skipn k numbers)).

(** ** stl_utils.hpp:39-53, find_first_two_of. The result is an index into the first range, [length L] standing for last.
    Both ranges must be non-empty: last - 1 (s_last - 1) lies in front of an empty range ([None]). *)
Fixpoint inner_two {E} (eqb : E -> E -> bool) (a b : E) (S : list E) : bool :=
  match S with
  | x :: ((y :: _) as r) => if eqb a x && eqb b y then true else inner_two eqb a b r
  | _ => false
  end.
Fixpoint outer_two {E} (eqb : E -> E -> bool) (L S : list E) : nat :=
  match L with
  | a :: ((b :: _) as r) => if inner_two eqb a b S then O else Datatypes.S (outer_two eqb r S)
  | _ => length L
  end.
Definition find_first_two_of {E} (eqb : E -> E -> bool) (L S : list E) : option nat :=
  match L, S with
  | [], _ => None
  | [_], _ => Some (length L)
  | _, [] => None
  | _, _ => Some (outer_two eqb L S)
  end.
