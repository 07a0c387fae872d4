(** C87: edge intersection graphs of routing objectives. *)
From Coq Require Import ZArith Bool List Lia Permutation String.
From stdpp Require Import gmap list.
From Verif Require Import CoordMap CoordModel CoordSpec CoordProofs GridModel GridSpec ClockModel GateModel GateSpec GateProofs3 GateProps CellModel PathModel PathSpec PathProps RouteModel RouteProps UtilModel UtilSpec ColorModel ColorSpec EpgModel EpgSpec EpgProofs EpgProofs2.
Import List ListNotations.
Open Scope nat_scope.

(** Without crossings and without a limit, the vertices are exactly all routes of the objectives; two of them are joined iff they belong
    to the same objective, have the same ends or share a tile between their ends; the cliques are the labels of the routes of each objective
    that has any, and the other objectives are counted. *)
Theorem C87_graph : forall Q fuel b objectives, routable (o_new b) -> (forall o, In o objectives -> objective_ok b o) ->
  Z.to_nat (volume (cl_dim (o_clocked (o_new b)))) <= fuel ->
  exists g groups, generate_edge_intersection_graph Q fuel b objectives (mkEP false None) = Some g /\
    map lp_coords (e_paths g) = concat groups /\
    Forall2 (fun o ps => List.NoDup ps /\ forall p, In p ps <-> route b o p) objectives groups /\
    (forall i j, joined (epg_graph g) i j <-> i <> j /\ exists k l p q, vertex groups i k p /\ vertex groups j l q /\
       (k = l \/ same_ends p q \/ share_tile p q)) /\
    e_cliques g = blocks 0 groups /\
    e_unroutable g = length (List.filter (fun ps => match ps with [] => true | _ => false end) groups).
Proof.
  intros Q fuel b objectives RL OK FU. destruct (ground_graph Q fuel b objectives RL OK FU) as (g & groups & H1 & H2 & H3 & H4 & H5 & H6 & _).
  exists g, groups. auto 10.
Qed.
Print Assumptions C87_graph.

(** With crossings, two paths of different objectives are joined iff they have the same ends or share a segment; with and without a limit on the
    number of paths. *)
Theorem C87_crossings : forall Q fuel b limit objectives, queue_ok Q -> routable (o_new b) -> built (o_new b) ->
  (forall o, In o objectives -> inb (cl_dim (o_clocked (o_new b))) o.1 /\ o.1 <> o.2) ->
  Z.to_nat (volume (cl_dim (o_clocked (o_new b)))) <= fuel ->
  exists g groups, generate_edge_intersection_graph Q fuel b objectives (mkEP true limit) = Some g /\
    map lp_coords (e_paths g) = concat groups /\
    Forall2 (fun o ps => List.NoDup ps /\
       match limit with
       | None => forall p, In p ps <-> is_path (e_permitted (pf_of true (o_new b)) true o.2) o.1 o.2 p
       | Some k => length ps <= Nat.max 1 k /\ (forall p, In p ps -> is_path (permitted (pf_of true (o_new b)) true o.2) o.1 o.2 p) /\
                   (ps = [] <-> forall p, ~ walk (permitted (pf_of true (o_new b)) true o.2) o.1 o.2 p)
       end) objectives groups /\
    (forall i j, joined (epg_graph g) i j <-> i <> j /\ exists k l p q, vertex groups i k p /\ vertex groups j l q /\
       (k = l \/ same_ends p q \/ share_segment p q)) /\
    e_cliques g = blocks 0 groups /\
    e_unroutable g = length (List.filter (fun ps => match ps with [] => true | _ => false end) groups).
Proof. exact crossing_graph. Qed.
Print Assumptions C87_crossings.

(** Four pins on a 5x5 layout: the only routes a to f and b to g cross on tile (1,1). *)
Definition pins_layout : glayout := final ex_cl ex_pins.
Definition pins_objectives : list (coord * coord) := [(live 0 1 0, live 3 1 0); (live 1 0 0, live 1 2 0)].
Definition pins_queue : queue Z := heap (fun a b : Z => (b <? a)%Z).
Definition pins_graph (crossings : bool) (limit : option nat) : option epg :=
  generate_edge_intersection_graph pins_queue 60 (OGate pins_layout) pins_objectives (mkEP crossings limit).
Lemma pins_reached : reached ex_cl ex_pins pins_layout.
Proof. apply reached_final. vm_compute. reflexivity. Qed.
Lemma pins_clocked : o_clocked (o_new (OGate pins_layout)) = ex_cl.
Proof. change (g_cl pins_layout = g_cl (g_empty ex_cl)). apply (run_cl ex_pins); [exact pins_reached|]. intros t k H. repeat (destruct H as [H|H]; [discriminate|]). destruct H. Qed.
Lemma pins_ok : routable (o_new (OGate pins_layout)) /\ (forall o, In o pins_objectives -> objective_ok (OGate pins_layout) o) /\
  Z.to_nat (volume (cl_dim (o_clocked (o_new (OGate pins_layout))))) <= 60.
Proof.
  split; [unfold routable; rewrite pins_clocked; split; [unfold dim_ok; cbn; lia|cbn; lia]|]. split.
  - intros o [<-|[<-|[]]]; unfold objective_ok; rewrite pins_clocked; (split; [unfold inb; cbn; lia|]); (split; [reflexivity|]); (split; [discriminate|]); split; vm_compute; reflexivity.
  - rewrite pins_clocked. apply Nat.leb_le. vm_compute. reflexivity.
Qed.

Lemma pins_limited : exists g, generate_edge_intersection_graph pins_queue 60 (OGate pins_layout) pins_objectives (mkEP false (Some 1)) = Some g /\
  map lp_coords (e_paths g) = [[live 0 1 0; live 1 1 0; live 2 1 0; live 3 1 0]; [live 1 0 0; live 1 1 0; live 1 2 0]] /\ e_edges g = [].
Proof. eexists. split; [vm_compute; reflexivity|]. split; reflexivity. Qed.

(** Refuted: with a limit on the number of paths, crossings between different objectives are overlooked although they are not allowed: the
    first two shortest paths of the objectives share a tile but are not joined. *)
Theorem C87_limit_refuted : exists Q fuel b objectives k g p q,
  routable (o_new b) /\ (forall o, In o objectives -> objective_ok b o) /\ Z.to_nat (volume (cl_dim (o_clocked (o_new b)))) <= fuel /\
  generate_edge_intersection_graph Q fuel b objectives (mkEP false (Some k)) = Some g /\
  map lp_coords (e_paths g) = [p; q] /\ share_tile p q /\ ~ joined (epg_graph g) 0 1.
Proof.
  destruct pins_ok as (H1 & H2 & H3). destruct pins_limited as (g & E1 & E2 & E3).
  exists pins_queue, 60, (OGate pins_layout), pins_objectives, 1, g, [live 0 1 0; live 1 1 0; live 2 1 0; live 3 1 0], [live 1 0 0; live 1 1 0; live 1 2 0].
  split; [exact H1|]. split; [exact H2|]. split; [exact H3|]. split; [exact E1|]. split; [exact E2|].
  split; [exists (live 1 1 0); split; vm_compute; tauto|].
  unfold joined. cbn [epg_graph g_edges]. rewrite E3. intros [[]|[]].
Qed.
Print Assumptions C87_limit_refuted.

Example C87_nonvacuous :
  option_map (fun g => (map lp_coords (e_paths g), e_edges g, e_cliques g, e_unroutable g)) (pins_graph false None) =
    Some ([[live 0 1 0; live 1 1 0; live 2 1 0; live 3 1 0]; [live 1 0 0; live 1 1 0; live 1 2 0]], [(1, 0)], [[0]; [1]], 0) /\
  option_map (fun g => (length (e_paths g), e_edges g, e_cliques g)) (pins_graph true None) = Some (2, [], [[0]; [1]]).
Proof. split; vm_compute; reflexivity. Qed.
Print Assumptions C87_nonvacuous.
