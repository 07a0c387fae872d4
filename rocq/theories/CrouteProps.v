(** C89: color routing. *)
From Coq Require Import ZArith Bool List Lia Permutation String.
From stdpp Require Import gmap list.
From Verif Require Import CoordMap CoordModel CoordSpec CoordProofs GridModel GridSpec ClockModel GateModel GateSpec GateProofs3 GateProps CellModel PathModel PathSpec PathProps RouteModel RouteSpec RouteProofs RouteProps UtilModel UtilSpec
  SatModel SatSpec ColorModel ColorSpec ColorProofs2 EpgModel EpgSpec EpgProofs EpgProofs2 EpgProps CrouteProofs CrouteProofs2 CrouteProofs3.
Import List ListNotations.
Open Scope nat_scope.

(** What color routing needs: a layout built by calls of the interface, objectives between different occupied tiles of it. *)
Definition croute_input (cl : clocked) (ops : list gop) (st : glayout) (objectives : list (coord * coord)) : Prop :=
  reached cl ops st /\ moves_no_constant ops /\ dim_ok (cl_dim cl) /\ places_inside (cl_dim cl) ops /\
  (1 <= num_clocks (g_cl st) <= 255)%Z /\ forall o, In o objectives -> objective_ok (OGate st) o.
(** All objectives can be routed together without crossings. *)
Definition all_routable (st : glayout) (objectives : list (coord * coord)) : Prop :=
  exists routes, Forall2 (route (OGate st)) objectives routes /\ ForallOrdPairs compatible routes.

(** Without crossings and without a limit, with any order of the hash maps, any right solver and any right heuristics: the result is [true] for
    partial routing; if it is [false], the layout is as before. If it is [true], the layout has new wires along routes of some objectives, no two of which
    share a tile, and nothing else; along each of them, data flows from tile to tile; the statistics count the objectives without a route, and there are none
    unless partial routing is allowed. *)
Theorem C89_sound : forall Q fuel env cl ops st objectives ps, env_ok env -> croute_input cl ops st objectives ->
  Z.to_nat (volume (cl_dim (g_cl st))) <= fuel -> cr_crossings ps = false -> cr_limit ps = None ->
  exists r st' u, color_routing Q fuel env st objectives ps = Some (r, st', u) /\
    (r = false -> st' = st /\ cr_partial ps = false) /\
    (r = true -> exists choice, chosen (OGate st) objectives choice /\ laid st st' (omap (fun q => q) choice) /\
       (forall p i a b, In (Some p) choice -> p !! i = Some a -> p !! S i = Some b -> flows st' a b) /\
       u = w64 (Z.of_nat (length (List.filter (fun q => match q with None => true | _ => false end) choice))) /\
       (cr_partial ps = false -> ~ In None choice)).
Proof.
  intros Q fuel env cl ops st objectives ps EN (R & M & D & P & NC & OK) FU CR LI. pose proof (wf_reached _ _ _ R M D P) as HW.
  destruct (croute_ok Q fuel env st objectives EN HW NC OK FU ps CR LI) as (r & st' & u & E & H1 & H2 & H3). exists r, st', u. split; [exact E|].
  split; [intros Hr; destruct (H1 Hr) as (A & _ & B); auto|]. intros Hr. destruct (H2 Hr) as (choice & C1 & W' & Ld & U & F). exists choice.
  split; [exact C1|]. split; [exact Ld|]. split; [|split; [exact U|intros K; apply F; left; exact K]].
  assert (RT : forall p, In (Some p) choice -> exists o, In o objectives /\ route (OGate st) o p).
  { intros p Hp. apply In_nth_error in Hp. destruct Hp as [k Ek]. destruct (Forall2_nth _ _ _ k _ (Forall2_sym _ _ _ (proj1 C1)) Ek) as (o & Eo & K).
    exists o. split; [eapply nth_error_In; exact Eo|apply K; reflexivity]. }
  assert (IN : forall p, In p (omap (fun q => q) choice) <-> In (Some p) choice).
  { intros p. rewrite <- !elem_of_list_In, elem_of_list_omap. split; [intros (x & Hx & ->); exact Hx|intros Hp; exists (Some p); auto]. }
  intros p i a b Hp Ha Hb. destruct (RT p Hp) as (o & Ho & Rt). apply (route_flows fuel st objectives HW NC OK FU st' (omap (fun q => q) choice) o p i); try assumption.
  - intros q Hq. apply IN in Hq. destruct (RT q Hq) as (o' & Ho' & Rt'). eapply route_fits; eassumption.
  - apply IN. exact Hp.
Qed.
Print Assumptions C89_sound.

(** Exact: with the SAT engine and without partial satisfaction of the cliques, all objectives are routed iff that is possible at all. *)
Theorem C89_exact : forall Q fuel env cl ops st objectives ps, env_ok env -> croute_input cl ops st objectives ->
  Z.to_nat (volume (cl_dim (g_cl st))) <= fuel -> cr_crossings ps = false -> cr_limit ps = None -> cr_sat ps = true -> cr_partial_sat ps = false ->
  exists r st' u, color_routing Q fuel env st objectives ps = Some (r, st', u) /\
    (all_routable st objectives -> r = true /\ exists routes, Forall2 (route (OGate st)) objectives routes /\ ForallOrdPairs compatible routes /\ laid st st' routes) /\
    (cr_partial ps = false -> (r = true <-> all_routable st objectives)).
Proof.
  intros Q fuel env cl ops st objectives ps EN (R & M & D & P & NC & OK) FU CR LI S1 S2. pose proof (wf_reached _ _ _ R M D P) as HW.
  destruct (croute_ok Q fuel env st objectives EN HW NC OK FU ps CR LI) as (r & st' & u & E & H1 & H2 & H3). exists r, st', u. split; [exact E|].
  assert (G : r = true -> (cr_partial ps = false \/ all_routable st objectives) -> exists routes, Forall2 (route (OGate st)) objectives routes /\ ForallOrdPairs compatible routes /\ laid st st' routes).
  { intros Hr K. destruct (H2 Hr) as (choice & [C1 C2] & _ & Ld & _ & F). assert (NN : ~ In None choice). { apply F. destruct K as [K|K]; [left; exact K|right; auto]. }
    exists (omap (fun q => q) choice). split; [|split; [exact C2|exact Ld]]. clear - C1 NN. induction C1 as [|o q os choice H C1 IH]; [constructor|].
    destruct q as [p|]; [|destruct NN; left; reflexivity]. cbn. constructor; [apply H; reflexivity|]. apply IH. intros K. apply NN. right. exact K. }
  split.
  - intros K. pose proof (H3 S1 S2 K) as Hr. split; [exact Hr|]. apply G; [exact Hr|right; exact K].
  - intros Pn. split; [|intros K; apply H3; assumption]. intros Hr. destruct (G Hr (or_introl Pn)) as (routes & A & B & _). exists routes. auto.
Qed.
Print Assumptions C89_exact.

(** An environment that meets the assumptions: hash maps in order, an exhaustive solver, and a heuristic that gives every vertex its own color. *)
Definition simple_env : color_env :=
  mkCE (fun n => seq 0 n) (fun k => seq 0 k) brute (fun g => (fun v => if v <? g_size g then Some v else None, g_size g)).
Lemma simple_env_ok : env_ok simple_env.
Proof.
  split; [intros n; apply Permutation_refl|]. split; [intros n; apply Permutation_refl|]. split; [apply brute_right|].
  intros g H. exists (fun v => v). split; [split; [intros v Hv; exact Hv|]|].
  - intros v w [J|J]; destruct (H _ _ J) as (_ & _ & N); [exact N|intros E; apply N; symmetry; exact E].
  - intros v Hv. cbn [simple_env ce_heuristic fst]. destruct (Nat.ltb_spec v (g_size g)); [reflexivity|lia].
Qed.
Lemma pins_places : places_inside (cl_dim ex_cl) ex_pins.
Proof. repeat constructor; unfold inb; simpl; intros; repeat split; lia. Qed.
(** Results of runs, given what can be read off them. *)
Lemma result_of {B} (f : glayout -> B) (o : option (bool * glayout * Z)) r u b : option_map (fun x => (x.1.1, x.2, f x.1.2)) o = Some (r, u, b) ->
  exists st', o = Some (r, st', u) /\ f st' = b.
Proof. destruct o as [[[r' st'] u']|]; [|discriminate]. cbn. intros H. injection H as -> -> <-. exists st'. auto. Qed.
Lemma pins_cl : g_cl pins_layout = ex_cl.
Proof. change (g_cl pins_layout = g_cl (g_empty ex_cl)). apply (run_cl ex_pins); [exact pins_reached|]. intros t k H. repeat (destruct H as [H|H]; [discriminate|]). destruct H. Qed.
Lemma pins_fuel : Z.to_nat (volume (cl_dim (g_cl pins_layout))) <= 60.
Proof. rewrite pins_cl. apply Nat.leb_le. vm_compute. reflexivity. Qed.
Lemma pins_input : croute_input ex_cl ex_pins pins_layout pins_objectives.
Proof.
  split; [exact pins_reached|]. split; [repeat constructor|]. split; [unfold dim_ok; cbn; lia|]. split; [exact pins_places|].
  split; [rewrite pins_cl; cbn; lia|]. apply (proj1 (proj2 pins_ok)).
Qed.

(** Refuted: with a limit on the number of paths, crossings are used although they are not allowed. *)
Theorem C89_limit_refuted : exists Q fuel env cl ops st objectives ps st' t, env_ok env /\ croute_input cl ops st objectives /\
  Z.to_nat (volume (cl_dim (g_cl st))) <= fuel /\ cr_crossings ps = false /\ (exists k, cr_limit ps = Some k) /\
  color_routing Q fuel env st objectives ps = Some (true, st', 0%Z) /\
  cz t = 1%Z /\ is_empty_tile st t = true /\ is_empty_tile st' t = false /\ is_empty_tile st' (live (cx t) (cy t) 0) = false.
Proof.
  assert (K : exists st', color_routing pins_queue 60 simple_env pins_layout pins_objectives (mkCP false false (Some 1) true false) = Some (true, st', 0%Z) /\
    (is_empty_tile st' (live 1 1 1), is_empty_tile st' (live 1 1 0)) = (false, false)).
  { apply (result_of (fun st' => (is_empty_tile st' (live 1 1 1), is_empty_tile st' (live 1 1 0)))). vm_compute. reflexivity. }
  destruct K as (st' & K1 & K). injection K as K2 K3.
  exists pins_queue, 60, simple_env, ex_cl, ex_pins, pins_layout, pins_objectives, (mkCP false false (Some 1) true false), st', (live 1 1 1).
  split; [exact simple_env_ok|]. split; [exact pins_input|]. split; [exact pins_fuel|]. split; [reflexivity|]. split; [exists 1; reflexivity|]. split; [exact K1|].
  split; [reflexivity|]. split; [vm_compute; reflexivity|]. split; [exact K2|exact K3].
Qed.
Print Assumptions C89_limit_refuted.

(** Refuted: on a layout with one layer, routing with crossings reports success although the second route overwrites a tile of the first: no data leaves
    the source of an objective that is counted as routed. *)
Definition flat_cl : clocked := mkCL (cl_topo ex_cl) (live 4 4 0) (cl_scheme ex_cl).
Definition flat_layout : glayout := final flat_cl ex_pins.
Theorem C89_flat_refuted : exists Q fuel env cl ops st objectives ps st' o, env_ok env /\ croute_input cl ops st objectives /\
  Z.to_nat (volume (cl_dim (g_cl st))) <= fuel /\ cr_crossings ps = true /\ cr_limit ps = None /\
  color_routing Q fuel env st objectives ps = Some (true, st', 0%Z) /\ In o objectives /\ outgoing_data_flow true st' o.1 = [].
Proof.
  assert (R : reached flat_cl ex_pins flat_layout) by (apply reached_final; vm_compute; reflexivity).
  assert (C : g_cl flat_layout = flat_cl). { change (g_cl flat_layout = g_cl (g_empty flat_cl)). apply (run_cl ex_pins); [exact R|]. intros t k H. repeat (destruct H as [H|H]; [discriminate|]). destruct H. }
  assert (C' : o_clocked (o_new (OGate flat_layout)) = flat_cl). { change (g_cl flat_layout = g_cl (g_empty flat_cl)). apply (run_cl ex_pins); [exact R|]. intros t k H. repeat (destruct H as [H|H]; [discriminate|]). destruct H. }
  assert (K : exists st', color_routing pins_queue 60 simple_env flat_layout pins_objectives (mkCP false true None true false) = Some (true, st', 0%Z) /\
    outgoing_data_flow true st' (live 0 1 0) = []).
  { apply (result_of (fun st' => outgoing_data_flow true st' (live 0 1 0))). vm_compute. reflexivity. }
  destruct K as (st' & K1 & K2).
  exists pins_queue, 60, simple_env, flat_cl, ex_pins, flat_layout, pins_objectives, (mkCP false true None true false), st', (live 0 1 0, live 3 1 0).
  split; [exact simple_env_ok|]. split.
  { split; [exact R|]. split; [repeat constructor|]. split; [unfold dim_ok; cbn; lia|]. split.
    { repeat constructor; unfold inb; simpl; intros; repeat split; lia. }
    split; [rewrite C; cbn; lia|]. intros o Ho. unfold objective_ok. rewrite C'.
    destruct Ho as [<-|[<-|[]]]; (split; [unfold inb; cbn; lia|]); (split; [reflexivity|]); (split; [discriminate|]); split; vm_compute; reflexivity. }
  split; [rewrite C; apply Nat.leb_le; vm_compute; reflexivity|]. split; [reflexivity|]. split; [reflexivity|]. split; [exact K1|]. split; [left; reflexivity|exact K2].
Qed.
Print Assumptions C89_flat_refuted.

(** The two pins that cannot be routed together, alone and with partial routing. *)
Example C89_nonvacuous : env_ok simple_env /\ croute_input ex_cl ex_pins pins_layout pins_objectives /\ Z.to_nat (volume (cl_dim (g_cl pins_layout))) <= 60 /\
  (exists st', color_routing pins_queue 60 simple_env pins_layout pins_objectives (mkCP false false None true false) = Some (false, st', 0%Z)) /\
  (exists st', color_routing pins_queue 60 simple_env pins_layout pins_objectives (mkCP true false None true true) = Some (true, st', 1%Z) /\
     (incoming_data_flow true st' (live 3 1 0), incoming_data_flow true st' (live 1 2 0)) = ([live 2 1 0], [])) /\
  (exists st', color_routing pins_queue 60 simple_env pins_layout [(live 0 1 0, live 3 1 0)] (mkCP false false None true false) = Some (true, st', 0%Z) /\
     incoming_data_flow true st' (live 3 1 0) = [live 2 1 0]).
Proof.
  split; [exact simple_env_ok|]. split; [exact pins_input|]. split; [exact pins_fuel|]. split; [|split].
  - destruct (result_of (fun _ => 0) (color_routing pins_queue 60 simple_env pins_layout pins_objectives (mkCP false false None true false)) false 0%Z 0) as (st' & K & _);
      [vm_compute; reflexivity|exists st'; exact K].
  - apply (result_of (fun st' => (incoming_data_flow true st' (live 3 1 0), incoming_data_flow true st' (live 1 2 0)))). vm_compute. reflexivity.
  - apply (result_of (fun st' => incoming_data_flow true st' (live 3 1 0))). vm_compute. reflexivity.
Qed.
Print Assumptions C89_nonvacuous.
