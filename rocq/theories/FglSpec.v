(** Layouts that a file describes completely, and what it means to read the same layout back. *)
From Coq Require Import ZArith Bool String List Permutation.
From stdpp Require Import gmap list.
From Verif Require Import CoordModel CoordSpec GridModel GridSpec ClockModel GateModel GateSpec RouteSpec FglModel.
From Coq Require Import List.
Import ListNotations.
Open Scope Z_scope.

(** Data flows from tile [s] to tile [t]. *)
Definition flows (st : glayout) (s t : coord) : Prop := In s (incoming_data_flow true st t).
(** Data flows from [t], over any number of tiles, to an output. *)
Inductive used (st : glayout) : coord -> Prop :=
| used_output t : In t (g_out st) -> used st t
| used_next s t : flows st s t -> used st t -> used st s.
(** The number of inputs of a gate. *)
Definition arity (f : gate_fn) : nat := match f with Fbuf | Fnot => 1 | Fmaj => 3 | _ => 2 end.
(** A text that an XML file can hold as it is: not only white space, no '<', no '&' and no carriage return. *)
Definition printable (s : string) : Prop := blank s = false /\ plain s = true.

(** A finished layout: the inputs are placed and nothing flows into them; the outputs are different tiles with wires; all
    other tiles hold one of the named gates, with as many incoming signals as the gate has inputs, and are used; data does not
    flow in cycles; the names of inputs and outputs are printable. *)
Record finished (st : glayout) : Prop := {
  fi_pi : forall n, In n (g_in st) -> placed st n /\ incoming_data_flow true st (get_tile st n) = [] /\ printable (get_name st n);
  fi_po : forall t, In t (g_out st) ->
    occupied st t /\ is_wire st (get_node st t) = true /\ is_pi st (get_node st t) = false /\ printable (get_name st (get_node st t));
  fi_pos : List.NoDup (g_out st);
  fi_gate : forall t, occupied st t -> is_pi st (get_node st t) = false ->
    exists f, n_lit (node_at st (get_node st t)) = lit_of f /\ length (incoming_data_flow true st t) = arity f;
  fi_used : forall t, occupied st t -> is_pi st (get_node st t) = false -> used st t;
  fi_acyclic : exists rank : coord -> nat, forall s t, flows st s t -> (rank s < rank t)%nat
}.

(** A layout built by calls of the interface, inside its dimensions, on a clocking scheme that is the one known under its
    name, with clock numbers changed in the ground layer only. *)
Record fgl_input (cl : clocked) (ops : list gop) (st : glayout) : Prop := {
  fg_run : reached cl ops st;
  fg_const : moves_no_constant ops;
  fg_dim : dim_ok (cl_dim cl) /\ cd (cl_dim cl) = false;
  fg_inside : places_inside (cl_dim cl) ops;
  fg_scheme : get_clocking_scheme (cl_topo cl) (sc_name (cl_scheme cl)) = Some (cl_scheme cl);
  fg_ground : forall t k, In (AssignClock t k) ops -> cz t = 0;
  fg_size : Z.of_nat (length (g_nodes st)) < 2 ^ 31;
  fg_finished : finished st
}.

(** The inputs and the outputs with their names, in order. *)
Definition inputs_of (st : glayout) : list (coord * string) := map (fun n => (get_tile st n, get_name st n)) (g_in st).
Definition outputs_of (st : glayout) : list (coord * string) := map (fun t => (t, get_name st (get_node st t))) (g_out st).
(** No output drives anything. *)
Definition outputs_last (st : glayout) : Prop := forall s t, In s (g_out st) -> ~ flows st s t.

(** The same layout, up to the numbering of the nodes. *)
Record same_layout (st st' : glayout) : Prop := {
  sl_topo : cl_topo (g_cl st') = cl_topo (g_cl st);
  sl_dim : cl_dim (g_cl st') = cl_dim (g_cl st);
  sl_scheme : sc_name (cl_scheme (g_cl st')) = sc_name (cl_scheme (g_cl st)) /\ num_clocks (g_cl st') = num_clocks (g_cl st);
  sl_clocks : forall t, inb (cl_dim (g_cl st)) t -> get_clock_number (g_cl st') t = get_clock_number (g_cl st) t;
  sl_tiles : forall t, cd t = false -> is_empty_tile st' t = is_empty_tile st t;
  sl_gates : forall t, occupied st t -> n_lit (node_at st' (get_node st' t)) = n_lit (node_at st (get_node st t));
  sl_in : forall t, occupied st t -> incoming_data_flow true st' t = incoming_data_flow true st t;
  sl_pis : inputs_of st' = inputs_of st;
  sl_pos : Permutation (outputs_of st') (outputs_of st);
  sl_counts : num_gates st' = num_gates st /\ num_wires st' = num_wires st
}.

(** Write the layout and read it into a fresh one of the same topology. *)
Definition reread (st : glayout) : res glayout :=
  let$ doc := write_fgl "layout" st in
  let$ (_, st') := read_fgl "" (g_empty (mkCL (cl_topo (g_cl st)) (live 0 0 0) (clocking (cl_topo (g_cl st)) (OPEN FOUR)))) doc in
  Ok st'.
