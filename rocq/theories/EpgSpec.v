(** What an edge intersection graph and a routing of objectives are. *)
From Coq Require Import ZArith Bool List Permutation.
From stdpp Require Import list.
From Verif Require Import CoordModel CoordSpec GridModel GridSpec ClockModel GateModel GateSpec CellModel PathModel PathSpec RouteModel RouteSpec UtilSpec SatModel SatSpec ColorModel ColorSpec EpgModel.
Import ListNotations.

(** Vertex [i] of the graph is the path [p] of objective number [k], the objectives having the paths [groups]. *)
Definition vertex {A} (groups : list (list A)) (i k : nat) (p : A) : Prop :=
  exists ps r, nth_error groups k = Some ps /\ nth_error ps r = Some p /\ i = length (concat (firstn k groups)) + r.
(** The labels of the paths of the objectives that have any. *)
Fixpoint blocks {A} (label : nat) (groups : list (list A)) : list (list nat) :=
  match groups with
  | [] => []
  | [] :: r => blocks label r
  | ps :: r => seq label (length ps) :: blocks (label + length ps) r
  end.
(** Two paths have the same ends. *)
Definition same_ends (p q : list coord) : Prop := hd_error p = hd_error q /\ hd_error (rev p) = hd_error (rev q).
(** The coordinates between the ends of a path. *)
Definition inner (p : list coord) : list coord := removelast (tl p).
(** Two paths share a coordinate between their ends. *)
Definition share_tile (p q : list coord) : Prop := exists c, In c (inner p) /\ In c (inner q).
(** Two paths share a segment. *)
Definition share_segment (p q : list coord) : Prop := exists i, shared_at p q i.

(** Objectives between different occupied tiles, starting on the ground layer. *)
Definition objective_ok (b : obase) (o : coord * coord) : Prop :=
  let l := o_new b in
  inb (cl_dim (o_clocked l)) o.1 /\ cz o.1 = 0%Z /\ o.1 <> o.2 /\ is_obstructed_coordinate l o.1 = true /\ is_obstructed_coordinate l o.2 = true.
(** The routes of an objective that use empty tiles of the ground layer and follow the clocking. *)
Definition route (b : obase) (o : coord * coord) (p : list coord) : Prop := is_path (layout_step true (o_new b) o.2) o.1 o.2 p.

(** ** Color routing *)
(** Two routes can be laid together: they share no tile between their ends and do not serve the same objective. *)
Definition compatible (p q : list coord) : Prop := ~ share_tile p q /\ ~ same_ends p q.
(** Some objectives get a route. *)
Definition chosen (b : obase) (objectives : list (coord * coord)) (choice : list (option (list coord))) : Prop :=
  Forall2 (fun o q => forall p, q = Some p -> route b o p) objectives choice /\ ForallOrdPairs compatible (omap (fun q => q) choice).
(** The layout [st'] is [st] with new wires along the routes and nothing else. *)
Record laid (st st' : glayout) (routes : list (list coord)) : Prop := {
  l_pins : g_in st' = g_in st /\ g_out st' = g_out st /\ g_cl st' = g_cl st /\ g_names st' = g_names st;
  l_rest : forall t, (forall p, In p routes -> ~ In t (inner p)) -> get_node st' t = get_node st t;
  l_new : length (g_nodes st') = length (g_nodes st) + length (concat (map inner routes));
  l_old : forall m, m < length (g_nodes st) ->
    get_tile st' m = get_tile st m /\ n_lit (node_at st' m) = n_lit (node_at st m) /\
    Permutation (n_children (node_at st' m))
      (n_children (node_at st m) ++ flat_map (fun p => if get_node st (List.last p (live 0 0 0)) =? m then [List.last (removelast p) (live 0 0 0)] else []) routes);
  l_wires : forall p i u t, In p routes -> p !! i = Some u -> inner p !! i = Some t ->
    length (g_nodes st) <= get_node st' t /\ get_tile st' (get_node st' t) = t /\ is_wire st' (get_node st' t) = true /\
    n_children (node_at st' (get_node st' t)) = [u]
}.
(** The hash maps list vertices and colors in some order, the solver is right, and the heuristics find proper colorings. *)
Definition env_ok (env : color_env) : Prop :=
  (forall n, Permutation (ce_vertices env n) (seq 0 n)) /\ (forall k, Permutation (ce_colors env k) (seq 0 k)) /\
  right_solver (ce_sat env) /\
  forall g, (forall v w, In (v, w) (g_edges g) -> v < g_size g /\ w < g_size g /\ v <> w) ->
    exists col, proper g (snd (ce_heuristic env g)) col /\ forall v, v < g_size g -> fst (ce_heuristic env g) v = Some (col v).
