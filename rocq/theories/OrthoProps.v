(** Property theorems for orthogonal physical design (C67, C68). *)
From Coq Require Import ZArith Bool String List Lia.
From stdpp Require Import gmap list strings pretty.
From Verif Require Import CoordModel CoordSpec CoordProofs GridModel GridSpec GridProofs CoordMap ClockModel ClockSpec GateModel GateSpec RouteModel RouteSpec RouteProofs RouteProps
  HexaSpec HexaProofs3 OrthoModel OrthoSpec OrthoProofs OrthoProofs7 OrthoProofs11.
Import ListNotations.
Local Open Scope Z_scope.

(** *** C67: orthogonal's layout implements the network *)
(** Missing: gates whose fan-ins coincide, gates that are not symmetric, and outputs that are used elsewhere too; see the refutations. *)
Theorem C67_layout_implements_network_partial net clks : mapped net -> distinct_fanins net -> symmetric_gates net -> simple_outputs net -> fits net ->
  exists st, orthogonal net clks = Done st /\ realises net st.
Proof.
  intros Hm Hd Hsym Hs Hf. destruct (orthogonal_correct net Hm Hd Hsym Hf clks) as (st & A & B & _ & _); [intros ec _; apply (simple_roomy net Hm), Hs|]. exists st. auto.
Qed.
Print Assumptions C67_layout_implements_network_partial.

(** Outputs may be shared (with gates or with other outputs) as long as none of them has to leave a node that was reached from the west
    towards the south. *)
Definition no_southern_exit (net : onet) : Prop := forall ec, edge_coloring net = Some ec -> forall n, o_is_po net n = true -> node_color net ec n = East ->
  eastern_po_available net ec n = true /\ is_multi net n = false.
Theorem C67_shared_outputs_partial net clks : mapped net -> distinct_fanins net -> symmetric_gates net -> no_southern_exit net -> fits net ->
  exists st, orthogonal net clks = Done st /\ realises net st.
Proof.
  intros Hm Hd Hsym Hs Hf. destruct (orthogonal_correct net Hm Hd Hsym Hf clks) as (st & A & B & _ & _); [exact Hs|]. exists st. auto.
Qed.
Print Assumptions C67_shared_outputs_partial.

(** Networks with a gate of more than two fan-ins are rejected with an exception, and only those. *)
Theorem C67_high_degree_rejected net clks : orthogonal net clks = Thrown <-> exists n f ch, o_nodes net !! n = Some (OGate f ch) /\ (2 < length ch)%nat.
Proof.
  assert (X : existsb (fun n => Nat.ltb 2 (length (o_fanins net n))) (seq 0 (o_size net)) = true <-> exists n f ch, o_nodes net !! n = Some (OGate f ch) /\ (2 < length ch)%nat).
  { rewrite existsb_exists. split.
    - intros (n & _ & H). apply Nat.ltb_lt in H. unfold o_fanins, o_node in H. destruct (o_nodes net !! n) as [[nm|f ch]|] eqn:E; [cbn in H; lia|eauto|cbn in H; lia].
    - intros (n & f & ch & E & H). exists n. split; [apply in_seq; pose proof (lookup_lt_Some _ _ _ E); unfold o_size; lia|]. unfold o_fanins, o_node. rewrite E. apply Nat.ltb_lt, H. }
  rewrite <- X. unfold orthogonal. destruct (existsb _ _); [tauto|]. split; [|discriminate]. destruct (edge_coloring net); [|discriminate]. destruct (reserve_input_nodes _ _); [|discriminate]. destruct (fold_opt _ _ _); discriminate.
Qed.
Print Assumptions C67_high_degree_rejected.
Example C67_high_degree_nonvacuous : orthogonal (mkNet [OPi "a"; OPi "b"; OPi "c"; OGate Fmaj [0; 1; 2]%nat] [(3%nat, "q"%string)]) FOUR = Thrown.
Proof. apply C67_high_degree_rejected. exists 3%nat, Fmaj, [0; 1; 2]%nat. split; [reflexivity|cbn; lia]. Qed.

(** *** C68: orthogonal's layout breaks no design rule *)
Theorem C68_layout_is_clean_partial net clks : mapped net -> distinct_fanins net -> symmetric_gates net -> no_southern_exit net -> fits net ->
  o_pos net <> [] -> (forall n nm, o_nodes net !! n = Some (OPi nm) -> uses net n <> 0%nat) ->
  exists st, orthogonal net clks = Done st /\ rules st /\
    forall fuel, (Z.to_nat (volume (cl_dim (g_cl st))) <= fuel)%nat -> exists warnings, gate_level_drvs fuel st = Some (0, warnings).
Proof.
  intros Hm Hd Hsym Hs Hf Hp Hu. destruct (orthogonal_correct net Hm Hd Hsym Hf clks Hs) as (st & A & _ & B & cl & ops & R1 & R2 & R3 & R4 & R5 & R6 & R7 & R8). specialize (B Hp Hu).
  exists st. split; [exact A|]. split; [exact B|]. intros fuel Hfu. unfold fits in Hf.
  assert (Hl : (length (o_pi_names net) <= length (o_nodes net))%nat). { rewrite OrthoProofs7.pi_names_length. apply GridProofs.filter_length_le. }
  destruct (C47_clean_iff cl ops st fuel R1 R2 R3 R4 R5 Hfu R6) as (v & w & E & _ & _ & V & _); [rewrite R7; lia|rewrite R8; lia|]. exists w. rewrite E. rewrite (proj2 V (or_intror B)). reflexivity.
Qed.
Print Assumptions C68_layout_is_clean_partial.

(** *** Deciding the hypotheses for concrete networks *)
Definition mapped_b (net : onet) : bool :=
  negb (Nat.eqb (length (o_nodes net)) 0) &&
  forallb (fun n => match o_nodes net !! n with
     | Some (OGate f ch) => forallb (fun c => Nat.ltb c n) ch && (Nat.leb 1 (uses net n) && Nat.leb (uses net n) 2) &&
         match f, length ch with Fbuf, 1%nat | Fnot, 1%nat => true | Fbuf, _ | Fnot, _ | Fmaj, _ => false | _, 2%nat => true | _, _ => false end
     | Some (OPi _) => Nat.leb (uses net n) 1 | None => true end) (seq 0 (length (o_nodes net))) &&
  forallb (fun p => Nat.ltb (fst p) (length (o_nodes net))) (o_pos net).
Lemma mapped_by net : mapped_b net = true -> mapped net.
Proof.
  unfold mapped_b. rewrite !andb_true_iff. intros [[A B] C]. rewrite forallb_forall in B, C.
  assert (G : forall n f ch, o_nodes net !! n = Some (OGate f ch) -> forallb (fun c => Nat.ltb c n) ch && (Nat.leb 1 (uses net n) && Nat.leb (uses net n) 2) &&
     match f, length ch with Fbuf, 1%nat | Fnot, 1%nat => true | Fbuf, _ | Fnot, _ | Fmaj, _ => false | _, 2%nat => true | _, _ => false end = true).
  { intros n f ch H. pose proof (lookup_lt_Some _ _ _ H) as Hl. specialize (B n ltac:(apply in_seq; lia)). rewrite H in B. exact B. }
  constructor.
  - intros E. rewrite E in A. discriminate A.
  - intros n f ch c H Hc. specialize (G n f ch H). rewrite !andb_true_iff in G. destruct G as [[G _] _]. rewrite forallb_forall in G. apply Nat.ltb_lt, G, Hc.
  - intros n f ch H. specialize (G n f ch H). rewrite !andb_true_iff in G. destruct G as [_ G].
    destruct f, (length ch) as [|[|[|k]]]; try discriminate G; first [left; split; [reflexivity|auto]; fail|right; split; [reflexivity|repeat split; discriminate]].
  - intros n nm H. pose proof (lookup_lt_Some _ _ _ H) as Hl. specialize (B n ltac:(apply in_seq; lia)). rewrite H in B. apply Nat.leb_le, B.
  - intros n f ch H. specialize (G n f ch H). rewrite !andb_true_iff, !Nat.leb_le in G. tauto.
  - intros n nm H. apply Nat.ltb_lt, (C (n, nm) H).
Qed.
Definition plain_b (net : onet) : bool :=
  forallb (fun x => match x with OGate f [a; b] => negb (Nat.eqb a b) | _ => true end) (o_nodes net) && forallb (fun x => match x with OGate f _ => negb (comparison f) | _ => true end) (o_nodes net).
Lemma plain_by net : plain_b net = true -> distinct_fanins net /\ symmetric_gates net.
Proof.
  unfold plain_b. rewrite andb_true_iff, !forallb_forall. intros [A B]. split.
  - intros n f a b H. apply elem_of_list_lookup_2, elem_of_list_In in H. specialize (A _ H). cbn in A. apply negb_true_iff, Nat.eqb_neq in A. exact A.
  - intros n f ch H. apply elem_of_list_lookup_2, elem_of_list_In in H. specialize (B _ H). cbn in B. apply negb_true_iff in B. exact B.
Qed.

(** A multiplexer with fan-outs, a crossing and two outputs: all hypotheses hold. *)
Definition net_mux : onet := mkNet [OPi "a"; OPi "b"; OPi "s"; OGate Fbuf [2%nat]; OGate Fand [0; 3]%nat; OGate Fnot [3%nat]; OGate Fand [1; 5]%nat; OGate For [4; 6]%nat; OGate Fbuf [7%nat]; OGate Fnot [8%nat]; OGate Fbuf [8%nat]]
  [(9%nat, "nq"%string); (10%nat, "q"%string)].
Example C67_nonvacuous : mapped net_mux /\ distinct_fanins net_mux /\ symmetric_gates net_mux /\ simple_outputs net_mux /\ fits net_mux /\
  (forall n nm, o_nodes net_mux !! n = Some (OPi nm) -> uses net_mux n <> 0%nat) /\
  match orthogonal net_mux FOUR with Done st => existsb (fun t => cz t =? 1) (map fst (List.filter (fun p => negb (cd (fst p))) (map_to_list (g_tn st)))) = true /\ length (g_out st) = 2%nat | _ => False end.
Proof.
  split; [apply mapped_by; vm_compute; reflexivity|]. destruct (plain_by net_mux ltac:(vm_compute; reflexivity)) as [A B]. split; [exact A|]. split; [exact B|].
  split; [intros n nm [E|[E|[]]]; injection E as <- <-; reflexivity|]. split; [reflexivity|].
  split; [intros n nm H; destruct n as [|[|[|n]]]; [vm_compute; discriminate..|]; do 12 (try (destruct n as [|n]; try discriminate H))|].
  vm_compute. split; reflexivity.
Qed.
Example C68_nonvacuous : no_southern_exit net_mux /\ o_pos net_mux <> [] /\ match orthogonal net_mux FOUR with Done st => match gate_level_drvs 2000 st with Some (v, _) => v = 0 | None => False end | _ => False end.
Proof.
  split; [|split; [discriminate|vm_compute; reflexivity]]. intros ec _. destruct C67_nonvacuous as (Hm & _ & _ & Hs & _). exact (simple_roomy net_mux Hm ec Hs).
Qed.
(** An output that also feeds a gate, and a node that is two outputs: [no_southern_exit] holds, [simple_outputs] does not. *)
Definition net_shared : onet := mkNet [OPi "a"; OPi "b"; OGate Fand [0; 1]%nat; OGate Fnot [2%nat]] [(2%nat, "x"%string); (3%nat, "y"%string); (3%nat, "z"%string)].
Example C67_shared_nonvacuous : mapped net_shared /\ distinct_fanins net_shared /\ symmetric_gates net_shared /\ no_southern_exit net_shared /\ fits net_shared /\ ~ simple_outputs net_shared.
Proof.
  split; [apply mapped_by; vm_compute; reflexivity|]. destruct (plain_by net_shared ltac:(vm_compute; reflexivity)) as [A B]. split; [exact A|]. split; [exact B|]. split.
  - intros ec E. assert (K : match edge_coloring net_shared with Some ec => forallb (fun n => negb (o_is_po net_shared n) || negb (color_eqb (node_color net_shared ec n) East) || (eastern_po_available net_shared ec n && negb (is_multi net_shared n))) (seq 0 4) | None => false end = true) by (vm_compute; reflexivity).
    rewrite E, forallb_forall in K. intros n Hp Hc. assert (Hn : (n < 4)%nat). { unfold o_is_po in Hp. cbn in Hp. destruct n as [|[|[|[|n]]]]; try discriminate Hp; lia. }
    specialize (K n ltac:(apply in_seq; lia)). rewrite Hp, Hc in K. cbn in K. apply andb_true_iff in K as [K1 K2]. apply negb_true_iff in K2. auto.
  - split; [reflexivity|]. intros H. specialize (H 3%nat "y"%string ltac:(right; left; reflexivity)). discriminate H.
Qed.

(** *** What fails *)
(** A value derived along the data flow. *)
Fixpoint all_some {A} (l : list (option A)) : option (list A) :=
  match l with [] => Some [] | Some a :: r => match all_some r with Some v => Some (a :: v) | None => None end | None :: _ => None end.
Definition inside_b (ar c : coord) : bool := negb (cd c) && (0 <=? cx c) && (cx c <=? cx ar) && (0 <=? cy c) && (cy c <=? cy ar) && (0 <=? cz c) && (cz c <=? cz ar).
Definition input_at (st : glayout) (t : coord) : option nat := List.find (fun i => coord_eqb (get_tile st (default 0%nat (g_in st !! i))) t) (seq 0 (length (g_in st))).
Fixpoint ev (k : nat) (st : glayout) (env : nat -> bool) (t : coord) : option bool :=
  match k with
  | O => None
  | S k =>
    match input_at st t with
    | Some i => Some (env i)
    | None =>
      if inside_b (cl_dim (g_cl st)) t && negb (is_empty_tile st t) && negb (is_pi st (get_node st t)) then
        match all_some (map (ev k st env) (incoming_data_flow true st t)) with Some vs => compute st (get_node st t) vs | None => None end
      else None
    end
  end.
Lemma inside_b_inb ar c : inside_b ar c = true -> inb ar c.
Proof. unfold inside_b, inb. rewrite !andb_true_iff, negb_true_iff, !Z.leb_le. tauto. Qed.
Lemma ev_sound st env : forall k t b, ev k st env t = Some b -> carries st env t b.
Proof.
  induction k as [|k IH]; intros t b H; [discriminate H|]. cbn [ev] in H. unfold input_at in H. destruct (List.find _ _) as [i|] eqn:E.
  - injection H as <-. apply find_some in E as [Hi Ht]. apply in_seq in Hi. destruct (lookup_lt_is_Some_2 (g_in st) i ltac:(lia)) as (n & Hn). rewrite Hn in Ht. cbn in Ht.
    apply coord_eqb_spec in Ht; subst t. apply carries_input. exact Hn.
  - destruct (_ && _) eqn:B; [|discriminate H]. rewrite !andb_true_iff, !negb_true_iff in B. destruct B as [[B1 B2] B3]. destruct (all_some _) as [vs|] eqn:V; [|discriminate H].
    apply (carries_gate _ _ _ vs); [split; [apply inside_b_inb, B1|exact B2]|exact B3| |exact H]. clear H. revert vs V. induction (incoming_data_flow true st t) as [|u us IHu]; intros vs V; cbn in V.
    + injection V as <-. constructor.
    + destruct (ev k st env u) as [x|] eqn:X; [|discriminate V]. destruct (all_some (map (ev k st env) us)) as [v|] eqn:W; [|discriminate V]. injection V as <-. constructor; [apply IH, X|apply IHu; reflexivity].
Qed.
(** A tile that carries no value: it is no input and its gate cannot be evaluated on what arrives, or it waits for such a tile. *)
Fixpoint rows_of (n : nat) : list (list bool) := match n with O => [[]] | S n => flat_map (fun r => [false :: r; true :: r]) (rows_of n) end.
Lemma rows_of_In l : In l (rows_of (length l)).
Proof. induction l as [|b l IH]; cbn; [auto|]. apply in_flat_map. exists l. split; [exact IH|]. destruct b; cbn; auto. Qed.
Fixpoint stuck (k : nat) (st : glayout) (t : coord) : bool :=
  match k with
  | O => false
  | S k => match input_at st t with Some _ => false | None =>
      forallb (fun r => match compute st (get_node st t) r with Some _ => false | None => true end) (rows_of (length (incoming_data_flow true st t))) ||
      existsb (stuck k st) (incoming_data_flow true st t) end
  end.
Lemma all_len st env : forall ts vs, carries_all st env ts vs -> length vs = length ts /\ forall t, In t ts -> exists b, carries st env t b.
Proof.
  induction ts as [|u us IH]; intros vs H; inversion H; subst; [split; [reflexivity|intros t []]|]. destruct (IH _ H4) as [A B]. split; [cbn; lia|]. intros t [<-|Ht]; eauto.
Qed.
Lemma stuck_sound st env : forall k t, stuck k st t = true -> forall b, ~ carries st env t b.
Proof.
  induction k as [|k IH]; intros t H b C; [discriminate H|]. cbn [stuck] in H. inversion C as [i n Hi E1 E2|t' vs b' Ho Hp Hc Hv E1 E2]; subst.
  - unfold input_at in H. destruct (List.find _ _) eqn:E; [discriminate H|]. pose proof (find_none _ _ E i) as F. cbv beta in F. rewrite Hi in F. cbn [default] in F. rewrite coord_eqb_refl in F.
    discriminate F. apply in_seq. pose proof (lookup_lt_Some _ _ _ Hi). lia.
  - destruct (input_at st t); [discriminate H|]. destruct (all_len _ _ _ _ Hc) as [Hl Hb]. apply orb_true_iff in H as [H|H].
    + rewrite forallb_forall in H. specialize (H vs). rewrite <- Hl, Hv in H. discriminate H. apply rows_of_In.
    + apply existsb_exists in H as (u & Hu & H). destruct (Hb u Hu) as (x & Hx). exact (IH u H x Hx).
Qed.

Definition result (net : onet) : glayout := match orthogonal net FOUR with Done st => st | _ => g_empty (mkCL Cartesian (live 0 0 0) (twoddwave_clocking Cartesian FOUR)) end.
Lemma result_done net : match orthogonal net FOUR with Done _ => true | _ => false end = true -> orthogonal net FOUR = Done (result net).
Proof. unfold result. destruct (orthogonal net FOUR); [discriminate..|reflexivity]. Qed.
Lemma wrong_value net env n nm i b : realises net (result net) -> o_pos net !! i = Some (n, nm) ->
  match g_out (result net) !! i with Some o => ev 100 (result net) env o | None => None end = Some b -> computes net env n b.
Proof.
  intros R Hi H. destruct (g_out (result net) !! i) as [o|] eqn:E; [|discriminate H]. apply (proj2 (re_function _ _ R env i n nm o Hi E) b). eapply ev_sound, H.
Qed.

Lemma inv_gate net env n b f ch : computes net env n b -> o_nodes net !! n = Some (OGate f ch) -> exists vs, Forall2 (computes net env) ch vs /\ boolean_meaning f vs = Some b.
Proof. intros C E. inversion C as [? ? H|? f' ch' vs ? H F V]; subst; rewrite E in H; [discriminate H|]. injection H as <- <-. exists vs. auto. Qed.
Lemma inv_input net env n b nm : computes net env n b -> o_nodes net !! n = Some (OPi nm) -> b = env (inputs_before net n).
Proof. intros C E. inversion C as [? ? H|? ? ? ? ? H]; subst; rewrite E in H; [reflexivity|discriminate H]. Qed.

(** A gate with the same node as both fan-ins: its output carries nothing (the gate reads its own tile). *)
Definition net_twice : onet := mkNet [OPi "a"; OGate Fbuf [0%nat]; OGate Fand [1; 1]%nat] [(2%nat, "q"%string)].
Theorem C67_equal_fanins_refuted : exists net st, mapped net /\ symmetric_gates net /\ simple_outputs net /\ fits net /\ orthogonal net FOUR = Done st /\
  exists o, g_out st !! 0%nat = Some o /\ (forall env b, ~ carries st env o b) /\ ~ realises net st.
Proof.
  exists net_twice, (result net_twice). split; [apply mapped_by; vm_compute; reflexivity|].
  split; [intros n f ch H; destruct n as [|[|[|n]]]; try discriminate H; injection H as <- <-; reflexivity|].
  split; [intros n nm [E|[]]; injection E as <- <-; reflexivity|]. split; [reflexivity|]. split; [apply result_done; vm_compute; reflexivity|].
  assert (S : match g_out (result net_twice) !! 0%nat with Some o => stuck 10 (result net_twice) o | None => false end = true) by (vm_compute; reflexivity).
  destruct (g_out (result net_twice) !! 0%nat) as [o|] eqn:E; [|discriminate S]. exists o. split; [reflexivity|]. assert (N : forall env b, ~ carries (result net_twice) env o b) by (intros env b; eapply stuck_sound, S).
  split; [exact N|]. intros R. destruct (re_function _ _ R (fun _ => true) 0%nat 2%nat "q"%string o eq_refl E) as ((b & Hb) & C). apply C in Hb. exact (N _ _ Hb).
Qed.
Print Assumptions C67_equal_fanins_refuted.

Theorem C68_equal_fanins_refuted : exists net st v w, mapped net /\ symmetric_gates net /\ simple_outputs net /\ fits net /\ orthogonal net FOUR = Done st /\
  gate_level_drvs 18 st = Some (v, w) /\ 0 < v.
Proof.
  exists net_twice, (result net_twice), 2, 0. split; [apply mapped_by; vm_compute; reflexivity|].
  split; [intros n f ch H; destruct n as [|[|[|n]]]; try discriminate H; injection H as <- <-; reflexivity|].
  split; [intros n nm [E|[]]; injection E as <- <-; reflexivity|]. split; [reflexivity|]. split; [apply result_done; vm_compute; reflexivity|]. split; [vm_compute; reflexivity|lia].
Qed.
Print Assumptions C68_equal_fanins_refuted.

(** A comparison gate gets its fan-ins in the order of their tiles, not in the order of the network. *)
Definition net_less : onet := mkNet [OPi "a"; OPi "b"; OGate Flt [1; 0]%nat] [(2%nat, "q"%string)].
Theorem C67_operand_order_refuted : exists net st, mapped net /\ distinct_fanins net /\ simple_outputs net /\ fits net /\ orthogonal net FOUR = Done st /\ ~ realises net st.
Proof.
  exists net_less, (result net_less). split; [apply mapped_by; vm_compute; reflexivity|].
  split; [intros n f a b H; destruct n as [|[|[|n]]]; try discriminate H; injection H as <- <- <-; discriminate|].
  split; [intros n nm [E|[]]; injection E as <- <-; reflexivity|]. split; [reflexivity|]. split; [apply result_done; vm_compute; reflexivity|]. intros R.
  pose proof (wrong_value net_less (fun i => Nat.eqb i 1) 2%nat "q"%string 0%nat true R eq_refl ltac:(vm_compute; reflexivity)) as C.
  destruct (inv_gate _ _ _ _ _ _ C eq_refl) as (vs & F & V). inversion F as [|? x ? ? Hx F2]; subst. inversion F2 as [|? y ? ? Hy F3]; subst. inversion F3; subst.
  apply (inv_input _ _ _ _ "b"%string) in Hx; [|reflexivity]. apply (inv_input _ _ _ _ "a"%string) in Hy; [|reflexivity]. subst x y. vm_compute in V. discriminate V.
Qed.
Print Assumptions C67_operand_order_refuted.

(** An output that also feeds a gate and sits on an eastern node overwrites wires: here b & a is reported as true for b = 0. *)
Definition net_tapped : onet := mkNet [OPi "a"; OPi "b"; OGate Fbuf [1%nat]; OGate Fbuf [0%nat]; OGate Fbuf [3%nat]; OGate Fand [2; 4]%nat; OGate Fbuf [4%nat]; OGate Fbuf [3%nat]; OGate Fand [2; 7]%nat; OGate Fbuf [8%nat]; OGate Fand [6; 9]%nat; OGate Fand [9; 7]%nat]
  [(5%nat, "p"%string); (6%nat, "q"%string); (10%nat, "r"%string); (11%nat, "s"%string)].
Theorem C67_tapped_output_refuted : exists net st, mapped net /\ distinct_fanins net /\ symmetric_gates net /\ fits net /\ orthogonal net FOUR = Done st /\ ~ realises net st.
Proof.
  exists net_tapped, (result net_tapped). split; [apply mapped_by; vm_compute; reflexivity|]. destruct (plain_by net_tapped ltac:(vm_compute; reflexivity)) as [A B]. split; [exact A|]. split; [exact B|].
  split; [reflexivity|]. split; [apply result_done; vm_compute; reflexivity|]. intros R.
  pose proof (wrong_value net_tapped (fun i => Nat.eqb i 0) 5%nat "p"%string 0%nat true R eq_refl ltac:(vm_compute; reflexivity)) as C.
  destruct (inv_gate _ _ _ _ _ _ C eq_refl) as (vs & F & V). inversion F as [|? x ? ? Hx F2]; subst. inversion F2 as [|? y ? ? Hy F3]; subst. inversion F3; subst.
  destruct (inv_gate _ _ _ _ _ _ Hx eq_refl) as (vs & G & W). inversion G as [|? z ? ? Hz G2]; subst. inversion G2; subst.
  apply (inv_input _ _ _ _ "b"%string) in Hz; [|reflexivity]. subst z. vm_compute in W. injection W as <-. destruct y; discriminate V.
Qed.
Print Assumptions C67_tapped_output_refuted.
