(** Specification of hexagonalization. *)
From Coq Require Import ZArith Bool String List.
From stdpp Require Import list.
From Verif Require Import CoordModel CoordSpec GridModel GridSpec ClockModel ClockSpec GateModel GateSpec RouteSpec.
Import ListNotations.
Local Open Scope Z_scope.

(** The layouts hexagonalization is made for: inputs are placed and receive nothing; outputs are wires on tiles of their own that receive one
    signal and pass nothing on; all other nodes are buffers and inverters with one incoming signal or two-input gates with two;
    nothing in the crossing layer lies above an empty tile. *)
Record convertible (st : glayout) : Prop := mkConvertible {
  cv_in   : forall n, In n (g_in st) -> placed st n /\ is_wire st n = true /\ incoming_data_flow true st (get_tile st n) = [];
  cv_nodup : List.NoDup (g_out st);
  cv_out  : forall o, In o (g_out st) -> occupied st o /\ is_pi st (get_node st o) = false /\ is_wire st (get_node st o) = true /\
              (exists u, incoming_data_flow true st o = [u]) /\ forall v, ~ flows st o v;
  cv_gate : forall t, occupied st t -> is_pi st (get_node st t) = false -> is_po st (get_node st t) = false ->
              (exists a, incoming_data_flow true st t = [a] /\ 2 <= n_lit (node_at st (get_node st t)) <= 3) \/
              (exists a b, incoming_data_flow true st t = [a; b] /\ 4 <= n_lit (node_at st (get_node st t)) <= 13);
  cv_ground : forall t, occupied st t -> occupied st (live (cx t) (cy t) 0)
}.

(** [h] is a copy of [st] with every node moved to the tile given by [image]. *)
Record mirrors (st h : glayout) (image : coord -> coord) : Prop := mkMirrors {
  (* different nodes on different tiles, inside the layout, and no others *)
  m_injective : forall t u, occupied st t -> occupied st u -> image t = image u -> t = u;
  m_occupied  : forall u, occupied h u <-> exists t, occupied st t /\ u = image t;
  (* same functions, same data flow (including the order of the incoming signals) *)
  m_function  : forall t, occupied st t -> n_lit (node_at h (get_node h (image t))) = n_lit (node_at st (get_node st t));
  m_flow      : forall t, occupied st t -> incoming_data_flow true h (image t) = map image (incoming_data_flow true st t);
  (* same inputs and outputs in the same order *)
  m_inputs    : map (get_tile h) (g_in h) = map (fun n => image (get_tile st n)) (g_in st);
  m_outputs   : g_out h = map image (g_out st);
  m_is_pi     : forall t, occupied st t -> is_pi h (get_node h (image t)) = is_pi st (get_node st t);
  m_is_po     : forall t, occupied st t -> is_po h (get_node h (image t)) = is_po st (get_node st t);
  m_names     : forall t, occupied st t -> is_pi st (get_node st t) = true \/ is_po st (get_node st t) = true ->
                  get_name st (get_node st t) <> ""%string -> get_name h (get_node h (image t)) = get_name st (get_node st t)
}.

(** The 45 degree turn: the images of the tiles lie on the even-row hexagonal grid where the squares lie after turning the plane, up to a
    common shift [s]. *)
Definition turned (s : Z) (t u : coord) : Prop :=
  hex_px EvenRow u = cx t - cy t + s /\ hex_py EvenRow u = cx t + cy t /\ cz u = cz t /\ cd u = false.

(** The values on the tiles of a layout under an assignment of its inputs. *)
Inductive carries (st : glayout) (env : nat -> bool) : coord -> bool -> Prop :=
| carries_input i n : g_in st !! i = Some n -> carries st env (get_tile st n) (env i)
| carries_gate t vs b : occupied st t -> is_pi st (get_node st t) = false ->
    carries_all st env (incoming_data_flow true st t) vs -> compute st (get_node st t) vs = Some b -> carries st env t b
with carries_all (st : glayout) (env : nat -> bool) : list coord -> list bool -> Prop :=
| carries_nil : carries_all st env [] []
| carries_cons t ts b bs : carries st env t b -> carries_all st env ts bs -> carries_all st env (t :: ts) (b :: bs).
