(** Model of orthogonal as it is called: fan-out substitution followed by placement and routing
    (include/fiction/algorithms/physical_design/orthogonal.hpp:708-722).

    Simplifications: the topological view of the substituted network is an arbitrary topological listing; names of inputs and outputs,
    which [restore_names] (utils/name_utils.hpp) copies in order, are given as lists. *)
From Coq Require Import ZArith Bool String List.
From stdpp Require Import gmap list strings.
From Verif Require Import ClockModel GateModel OrthoModel FanoutModel.
Import ListNotations.

(** technology_network.hpp:84-156: the literals of the functions. *)
Definition fn_of (lit : nat) : option gate_fn :=
  match lit with
  | 2 => Some Fbuf | 3 => Some Fnot | 4 => Some Fand | 5 => Some Fnand | 6 => Some For | 7 => Some Fnor | 8 => Some Flt | 9 => Some Fge
  | 10 => Some Fgt | 11 => Some Fle | 12 => Some Fxor | 13 => Some Fxnor | 14 => Some Fmaj | _ => None
  end.
Fixpoint index (n : nat) (l : list nat) : nat := match l with [] => 0 | a :: r => if Nat.eqb a n then 0 else S (index n r) end.
(** orthogonal.hpp:453-460: the substituted network as the placement loop sees it, in the order of its topological view. *)
Definition listed (net : tnet) (view : list nat) (ins outs : list string) : onet :=
  mkNet (map (fun n => match t_nodes net !! n with
                       | Some (TGate lit ch) => OGate (default Fbuf (fn_of lit)) (map (fun c => index c view) ch)
                       | _ => OPi (default "" (ins !! index n (t_pis net)))
                       end) view)
        (imap (fun k n => (index n view, default "" (outs !! k))) (t_pos net)).
(** fanout_substitution.hpp:36-71: the default parameters. *)
Definition default_params : fparams := mkP BREADTH 2 1.
(** orthogonal.hpp:708-722; [view] lists the nodes of the substituted network in topological order. *)
Definition orthogonal_design (net : tnet) (order : list nat) (view : tnet -> list nat) (ins outs : list string) (clks : num_clks) : ores :=
  match fanout_substitution net order default_params (fun _ => 0) with
  | None => Undefined
  | Some net' => orthogonal (listed net' (view net') ins outs) clks
  end.
