(** Properties C11-C17 and C29: clocking schemes, clocked layouts, synchronization elements. *)
From stdpp Require Import gmap.
From Coq Require Import ZArith Bool String Ascii List Lia ZifyBool Relations.
From Verif Require Import CoordModel CoordSpec CoordProofs GridModel GridSpec GridProofs CoordMap
  ClockModel ClockSpec ClockProofs.
Import ListNotations.
Local Open Scope Z_scope.

(** * C11 *)

(** Every pre-defined scheme gives every coordinate (of any kind, dead or alive, negative or not) a
    clock number below its number of clocks, and ignores the layer. *)
Theorem C11_valid_phase : forall t s c,
  0 <= sc_at (clocking t s) c < sc_num (clocking t s) /\
  (forall c', cx c' = cx c -> cy c' = cy c -> sc_at (clocking t s) c' = sc_at (clocking t s) c).
Proof.
  intros t s c. rewrite sc_at_std. split; [apply fn_range|].
  intros c' Hx Hy. rewrite sc_at_std. apply fn_xy; auto.
Qed.
Print Assumptions C11_valid_phase.

(** Also after any history of clock number assignments to a layout with a pre-defined scheme. *)
Theorem C11_valid_phase_history : forall t ar s hist c,
  let l := fold_left (fun l p => assign_clock_number l (fst p) (snd p)) hist (std_layout t ar s) in
  0 <= get_clock_number l c < num_clocks l /\ (num_clocks l = 3 \/ num_clocks l = 4).
Proof.
  intros t ar s hist c l. change l with (assign_all (std_layout t ar s) hist).
  destruct (assign_all_shape (std_layout t ar s) hist) as (_ & _ & -> & _).
  rewrite assign_all_get by apply std_clean. unfold num_clocks; cbn [cl_scheme std_layout].
  split; [|apply num_std]. destruct (last_assigned hist c).
  - apply Z.mod_pos_bound. destruct (num_std t s) as [-> | ->]; lia.
  - unfold get_clock_number; cbn [cl_scheme std_layout]. rewrite sc_at_std. apply fn_range.
Qed.
Print Assumptions C11_valid_phase_history.

(** Clock numbers repeat with the documented periods over all non-negative coordinates. *)
Theorem C11_periodic : forall t s c (i j : nat),
  0 <= cx c -> 0 <= cy c ->
  cx c + Z.of_nat i * fst (period t s) < 2 ^ 62 -> cy c + Z.of_nat j * snd (period t s) < 2 ^ 62 ->
  sc_at (clocking t s) (mkC (cd c) (cx c + Z.of_nat i * fst (period t s)) (cy c + Z.of_nat j * snd (period t s)) (cz c))
  = sc_at (clocking t s) c.
Proof.
  intros t s c i j Hx Hy Hi Hj. rewrite !sc_at_std.
  assert (Hp : 1 <= fst (period t s) <= 8 /\ 1 <= snd (period t s) <= 8)
    by (destruct t as [|[]], s as [[]|[]|[]|[]|[]| | | | | | |]; simpl; lia).
  set (p := fst (period t s)) in *. set (q := snd (period t s)) in *.
  assert (Hi' : cx c + Z.of_nat i * p < 2 ^ 62) by exact Hi. clear Hi.
  assert (E2 : sc_fn (clocking t s) (mkC (cd c) (cx c) (cy c + Z.of_nat j * q) (cz c)) = sc_fn (clocking t s) c).
  { induction j as [|j IH].
    - apply fn_xy; cbn [cx cy]; lia.
    - rewrite <- IH by nia.
      destruct (fn_periodic t s (mkC (cd c) (cx c) (cy c + Z.of_nat j * q) (cz c))) as [_ H]; cbn [cx cy cd cz] in *; try nia.
      rewrite <- H. apply fn_xy; cbn [cx cy]; [lia|]. fold q. lia. }
  rewrite <- E2. clear E2. induction i as [|i IH].
  - apply fn_xy; cbn [cx cy]; lia.
  - rewrite <- IH by nia.
    destruct (fn_periodic t s (mkC (cd c) (cx c + Z.of_nat i * p) (cy c + Z.of_nat j * q) (cz c))) as [H _]; cbn [cx cy cd cz] in *; try nia.
    rewrite <- H. apply fn_xy; cbn [cx cy]; [|lia]. fold p. lia.
Qed.
Print Assumptions C11_periodic.

(** The linear schemes number the zones by the travel distance of a wave front. *)
Theorem C11_linear_waves : forall t s c, linear s -> 0 <= cx c < 2 ^ 64 -> 0 <= cy c < 2 ^ 64 ->
  sc_at (clocking t s) c = wave t s c mod sc_num (clocking t s).
Proof. intros t s c Hl Hx Hy. rewrite sc_at_std. apply fn_wave; auto. Qed.
Print Assumptions C11_linear_waves.

(** Finding: on signed coordinates the three-phase schemes are not periodic across zero, because the
    coordinate is converted to an unsigned 64-bit number before the remainder is taken. *)
Theorem C11_negative_three_phase_refuted :
  sc_at (clocking Cartesian (COLUMNAR THREE)) (live (-1) 0 0) <>
  sc_at (clocking Cartesian (COLUMNAR THREE)) (live (-1 + 3) 0 0) /\
  sc_at (clocking Cartesian (COLUMNAR THREE)) (live (-1) 0 0) =
  sc_at (clocking Cartesian (COLUMNAR THREE)) (live 0 0 0).
Proof. split; vm_compute; congruence. Qed.
Print Assumptions C11_negative_three_phase_refuted.

Example C11_nonvacuous :
  sc_at (clocking Cartesian USE) (live 5 9 1) = 2 /\ sc_at (clocking (Hex OddRow) (TWODDWAVE_HEX FOUR)) (live 3 7 0) = 3 /\
  sc_at (clocking Cartesian BANCS) (live 7 11 0) = 2.
Proof. repeat split; vm_compute; reflexivity. Qed.

(** * C12 *)

(** [b] is listed as outgoing of [a] exactly if it is a touching zone of the layout carrying the next
    clock number, [incoming] is the converse, and each zone is listed once. *)
Theorem C12_flow_exact : forall l a, dim_ok (cl_dim l) -> inb (cl_dim l) a -> 1 <= num_clocks l <= 255 ->
  (forall b, In b (outgoing_clocked_zones l a) <->
     inb (cl_dim l) b /\ touch (cl_topo l) a b /\ get_clock_number l b = (get_clock_number l a + 1) mod num_clocks l) /\
  (forall b, In b (incoming_clocked_zones l a) <->
     inb (cl_dim l) b /\ touch (cl_topo l) a b /\ get_clock_number l a = (get_clock_number l b + 1) mod num_clocks l) /\
  List.NoDup (outgoing_clocked_zones l a) /\ List.NoDup (incoming_clocked_zones l a) /\
  in_degree l a = Z.of_nat (length (incoming_clocked_zones l a)) /\
  out_degree l a = Z.of_nat (length (outgoing_clocked_zones l a)).
Proof.
  intros l a Hd Ha Hn. split; [intros; apply outgoing_In; auto|]. split; [intros; apply incoming_In; auto|].
  split; [apply NoDup_filter', adjacent_NoDup; auto|]. split; [apply NoDup_filter', adjacent_NoDup; auto|].
  apply degree_exact.
Qed.
Print Assumptions C12_flow_exact.

(** Duality of the predicates (for arbitrary coordinates) and of the lists; no self-feeding; with at
    least three phases no two zones feed each other. *)
Theorem C12_directed : forall l a b,
  is_incoming_clocked l a b = is_outgoing_clocked l b a /\
  is_outgoing_clocked l a a = false /\
  (3 <= num_clocks l <= 255 -> is_outgoing_clocked l a b = true -> is_outgoing_clocked l b a = false) /\
  (dim_ok (cl_dim l) -> inb (cl_dim l) a -> inb (cl_dim l) b -> 1 <= num_clocks l <= 255 ->
   (In b (outgoing_clocked_zones l a) <-> In a (incoming_clocked_zones l b))).
Proof.
  intros l a b. split; [apply in_out|]. split; [unfold is_outgoing_clocked; rewrite coord_eqb_refl; reflexivity|].
  split; [apply out_antisym|].
  intros Hd Ha Hb Hn. rewrite outgoing_In, incoming_In by auto. rewrite (touch_sym _ a b). tauto.
Qed.
Print Assumptions C12_directed.

Example C12_nonvacuous :
  let l := assign_clock_number (std_layout Cartesian (live 3 3 1) USE) (live 1 0 0) 3 in
  dim_ok (cl_dim l) /\ inb (cl_dim l) (live 1 1 0) /\ num_clocks l = 4 /\
  outgoing_clocked_zones l (live 1 1 0) = [live 1 0 0; live 1 2 0; live 0 1 0] /\
  incoming_clocked_zones l (live 1 1 0) = [live 2 1 0].
Proof.
  unfold dim_ok, inb. cbn [cl_dim assign_clock_number std_layout live cx cy cz cd].
  repeat split; try lia; vm_compute; reflexivity.
Qed.

(** * C13 *)

(** The declared maximum degrees bound the degrees of all zones of layouts of any size, for all
    regular pre-defined schemes and grids outside [degree_exception]. *)
Theorem C13_degrees_bounded_partial : forall t ar s c, dim_ok ar -> inb ar c ->
  (forall n, s <> OPEN n) -> degree_exception t s = false ->
  in_degree (std_layout t ar s) c <= sc_in (clocking t s) /\
  out_degree (std_layout t ar s) c <= sc_out (clocking t s).
Proof.
  intros t ar s c Hd Hc Hs He. apply degrees_bounded; auto. destruct s; auto. destruct (Hs n); auto.
Qed.
Print Assumptions C13_degrees_bounded_partial.

(** In particular on every Cartesian layout. *)
Theorem C13_cartesian : forall ar s c, dim_ok ar -> inb ar c -> (forall n, s <> OPEN n) ->
  in_degree (std_layout Cartesian ar s) c <= sc_in (clocking Cartesian s) /\
  out_degree (std_layout Cartesian ar s) c <= sc_out (clocking Cartesian s).
Proof. intros. apply C13_degrees_bounded_partial; auto. Qed.
Print Assumptions C13_cartesian.

(** Finding: on hexagonal grids the pairs of [degree_exception] do exceed the declared degrees, e.g.
    every columnar scheme on a row arrangement has out-degree 3 but declares 2. *)
Theorem C13_hexagonal_refuted : forall t s, degree_exception t s = true ->
  exists ar c, dim_ok ar /\ inb ar c /\
    (sc_in (clocking t s) < in_degree (std_layout t ar s) c \/ sc_out (clocking t s) < out_degree (std_layout t ar s) c).
Proof.
  assert (W : forall t s x y, 0 <= x <= 30 -> 0 <= y <= 30 ->
    (sc_in (clocking t s) <? in_degree (std_layout t (live 30 30 0) s) (live x y 0)) ||
    (sc_out (clocking t s) <? out_degree (std_layout t (live 30 30 0) s) (live x y 0)) = true ->
    exists ar c, dim_ok ar /\ inb ar c /\
    (sc_in (clocking t s) < in_degree (std_layout t ar s) c \/ sc_out (clocking t s) < out_degree (std_layout t ar s) c)).
  { intros t s x y Hx Hy H. exists (live 30 30 0), (live x y 0).
    unfold dim_ok, inb; cbn [cx cy cz cd live]. apply orb_true_iff in H. split; [lia|]. split; [repeat split; lia|].
    destruct H as [H|H]; apply Z.ltb_lt in H; auto. }
  intros t s H. destruct t as [|[]], s as [[]|[]|[]|[]|[]| | | | | | |]; try discriminate H;
  first [ apply (W _ _ 4 4); [lia|lia|vm_compute; reflexivity]
        | apply (W _ _ 4 5); [lia|lia|vm_compute; reflexivity]
        | apply (W _ _ 5 4); [lia|lia|vm_compute; reflexivity]
        | apply (W _ _ 5 5); [lia|lia|vm_compute; reflexivity]
        | apply (W _ _ 4 6); [lia|lia|vm_compute; reflexivity]
        | apply (W _ _ 5 6); [lia|lia|vm_compute; reflexivity]
        | apply (W _ _ 6 6); [lia|lia|vm_compute; reflexivity]
        | apply (W _ _ 6 7); [lia|lia|vm_compute; reflexivity]
        | apply (W _ _ 3 3); [lia|lia|vm_compute; reflexivity]
        | apply (W _ _ 3 4); [lia|lia|vm_compute; reflexivity]
        | apply (W _ _ 3 7); [lia|lia|vm_compute; reflexivity] ].
Qed.
Print Assumptions C13_hexagonal_refuted.

Example C13_nonvacuous : out_degree (std_layout Cartesian (live 9 9 0) RES) (live 3 1 0) = 3 /\
  in_degree (std_layout (Hex OddRow) (live 9 9 0) (TWODDWAVE_HEX FOUR)) (live 4 4 0) = 2 /\ degree_exception (Hex OddRow) (TWODDWAVE_HEX FOUR) = false.
Proof. repeat split; vm_compute; reflexivity. Qed.

(** * C14 *)

(** Schemes reported linear are exactly Columnar, Row, 2DDWave and 2DDWaveHex. *)
Theorem C14_linear_names : forall t s, is_linear_scheme (clocking t s) = true <-> linear s.
Proof. intros t s. destruct t as [|[]], s as [[]|[]|[]|[]|[]| | | | | | |]; vm_compute; intuition congruence. Qed.
Print Assumptions C14_linear_names.

(** Information flow under a linear scheme never returns to its start: Cartesian layouts and, except
    for three-phase 2DDWave, hexagonal layouts of any size. *)
Theorem C14_acyclic : forall t ar s c, dim_ok ar -> is_linear_scheme (clocking t s) = true ->
  (t <> Cartesian -> s <> TWODDWAVE THREE) ->
  ~ clos_trans _ (fun a b => inb ar a /\ In b (outgoing_clocked_zones (std_layout t ar s) a)) c c.
Proof.
  intros t ar s c Hd Hl Hx. apply (no_cycle t ar s c Hd); [apply (C14_linear_names t), Hl|].
  destruct t, s as [[]|[]|[]|[]|[]| | | | | | |]; auto. apply Hx; congruence.
Qed.
Print Assumptions C14_acyclic.

(** Every step advances the wave front by exactly one, so any flow path from [a] to [b] has length
    [wave b - wave a]. *)
Theorem C14_path_length : forall t ar s, dim_ok ar -> is_linear_scheme (clocking t s) = true ->
  (t <> Cartesian -> s <> TWODDWAVE THREE) ->
  forall a b, inb ar a -> In b (outgoing_clocked_zones (std_layout t ar s) a) -> wave t s b = wave t s a + 1.
Proof.
  intros t ar s Hd Hl Hx a b Ha Hb. eapply flow_wave; [exact Hd|apply (C14_linear_names t), Hl| |split; [exact Ha|exact Hb]].
  destruct t, s as [[]|[]|[]|[]|[]| | | | | | |]; auto. apply Hx; congruence.
Qed.
Print Assumptions C14_path_length.

(** Finding: three-phase 2DDWave, reported linear, has feedback loops on hexagonal layouts. *)
Theorem C14_hex_2ddwave3_refuted : exists ar c, dim_ok ar /\
  is_linear_scheme (clocking (Hex OddRow) (TWODDWAVE THREE)) = true /\
  clos_trans _ (fun a b => inb ar a /\ In b (outgoing_clocked_zones (std_layout (Hex OddRow) ar (TWODDWAVE THREE)) a)) c c.
Proof.
  exists (live 3 3 0), (live 1 2 0). split; [unfold dim_ok; simpl; lia|]. split; [reflexivity|].
  apply t_trans with (live 0 1 0); [apply t_step|apply t_trans with (live 1 1 0); apply t_step];
  (split; [unfold inb; simpl; repeat split; lia|vm_compute; tauto]).
Qed.
Print Assumptions C14_hex_2ddwave3_refuted.

Example C14_nonvacuous : is_linear_scheme (clocking Cartesian (TWODDWAVE FOUR)) = true /\
  outgoing_clocked_zones (std_layout Cartesian (live 3 3 0) (TWODDWAVE FOUR)) (live 1 1 0) = [live 2 1 0; live 1 2 0].
Proof. split; vm_compute; reflexivity. Qed.

(** * C15 *)

(** After any history of assignments a zone has the last number assigned to it (mod the number of
    clocks) or, if none was, its original number. Regular schemes carry no overrides ([sc_clean]),
    which holds of all pre-defined schemes and is preserved. *)
Theorem C15_last_write_wins : forall l hist c, sc_clean (cl_scheme l) ->
  let l' := fold_left (fun l p => assign_clock_number l (fst p) (snd p)) hist l in
  get_clock_number l' c =
    match last_assigned hist c with Some n => n mod num_clocks l | None => get_clock_number l c end /\
  num_clocks l' = num_clocks l /\ cl_dim l' = cl_dim l /\ sc_clean (cl_scheme l') /\
  (hist <> [] -> sc_regular (cl_scheme l') = false).
Proof.
  intros l hist c Hcl l'. change l' with (assign_all l hist).
  split; [apply assign_all_get; auto|]. destruct (assign_all_shape l hist) as (_ & H1 & H2 & _).
  repeat split; auto; [apply assign_all_clean; auto|].
  destruct hist as [|p h _] using rev_ind; [congruence|]. intros _. rewrite assign_all_app. reflexivity.
Qed.
Print Assumptions C15_last_write_wins.

Theorem C15_std_schemes_clean : forall t s, sc_clean (clocking t s).
Proof. exact std_clean. Qed.
Print Assumptions C15_std_schemes_clean.

Example C15_nonvacuous :
  let l := std_layout Cartesian (live 5 5 0) (COLUMNAR FOUR) in
  let l' := fold_left (fun l p => assign_clock_number l (fst p) (snd p)) [(live 1 1 0, 7); (live 2 2 0, 1); (live 1 1 0, 2)] l in
  get_clock_number l (live 1 1 0) = 1 /\ get_clock_number l' (live 1 1 0) = 2 /\ get_clock_number l' (live 3 3 0) = 3.
Proof. repeat split; vm_compute; reflexivity. Qed.

(** * C16 *)

(** A name finds a scheme exactly if it is, up to the case of its letters, one of the documented
    names; the scheme then has the documented number of phases and name. (On non-hexagonal grids
    2DDWAVEHEX falls back to 2DDWAVE, see [C16_hex_on_cartesian].) *)
Theorem C16_lookup : forall t name,
  (is_Some (get_clocking_scheme t name) <-> exists d, In d documented /\ same_word name (fst d)) /\
  (forall sc, get_clocking_scheme t name = Some sc ->
     exists k v, In (k, v) scheme_lookup /\ same_word name k /\ sc = clocking t v) /\
  (forall d sc, In d documented -> same_word name (fst d) -> get_clocking_scheme t name = Some sc ->
     (t <> Cartesian \/ sc_name sc <> "2DDWAVE"%string \/ fst (snd d) = "2DDWAVE"%string) ->
     sc_name sc = fst (snd d) /\ sc_num sc = snd (snd d)).
Proof.
  intros t name.
  assert (Hdoc : map fst documented = map fst scheme_lookup) by reflexivity.
  split; [|split].
  - split.
    + intros [sc H]. apply get_scheme_iff in H as (k & v & Hin & Hs & _).
      assert (Hk : In k (map fst documented)) by (rewrite Hdoc; apply (in_map fst) in Hin; exact Hin).
      apply in_map_iff in Hk as (d & <- & Hd). eauto.
    + intros (d & Hd & Hs). apply (in_map fst) in Hd. rewrite Hdoc in Hd. apply in_map_iff in Hd as ([k v] & E & Hin).
      exists (clocking t v). apply get_scheme_iff. exists k, v. simpl in E. subst. auto.
  - intros sc H. apply get_scheme_iff. exact H.
  - intros d sc Hd Hs H Hx. unfold get_clocking_scheme in H.
    apply upper_same in Hs. rewrite Hs in H. clear Hs.
    simpl in Hd. repeat (destruct Hd as [<-|Hd]; [
      match type of H with context [assoc ?u ?l] => let r := eval vm_compute in (assoc u l) in change (assoc u l) with r in H end;
      injection H as <-; destruct t as [|[]]; simpl in *; intuition congruence|]). destruct Hd.
Qed.
Print Assumptions C16_lookup.

(** Finding: "2DDWAVEHEX3" on a Cartesian layout yields the four-phase 2DDWAVE scheme. *)
Theorem C16_hex_on_cartesian_refuted : exists sc,
  get_clocking_scheme Cartesian "2DDWAVEHEX3" = Some sc /\ sc_name sc = "2DDWAVE"%string /\ sc_num sc = 4 /\
  In ("2DDWAVEHEX3", ("2DDWAVEHEX", 3))%string documented.
Proof. eexists. split; [reflexivity|]. repeat split; simpl; tauto. Qed.
Print Assumptions C16_hex_on_cartesian_refuted.

Example C16_nonvacuous : get_clocking_scheme Cartesian "2dDwAve3" = Some (clocking Cartesian (TWODDWAVE THREE)) /\
  get_clocking_scheme Cartesian "2DDWAVE5" = None /\ same_word "2dDwAve3" "2DDWAVE3".
Proof.
  split; [reflexivity|]. split; [reflexivity|]. apply (upper_word "2dDwAve3").
Qed.

(** * C17 *)

(** Mutating a clone leaves the original unchanged, and mutating the original leaves the clone
    unchanged, provided clock numbers are only assigned after the mutated layout's scheme has been
    replaced. Missing part: assignments of clock numbers before that (refuted below). *)
Theorem C17_clone_independent_partial : forall (D : Type) (h : store D) l x h' a ops,
  h_obs h l = Some x -> h_clone h l = Some (h', a) -> safe_ops false ops ->
  h_obs h' a = Some x /\
  h_obs (fold_left (h_apply a) ops h') l = Some x /\
  h_obs (fold_left (h_apply l) ops h') a = Some x /\
  (forall b y, b <> a -> h_obs h b = Some y -> h_obs h' b = Some y).
Proof.
  intros D h l x h' a ops Hx Hc Hs. destruct (clone_spec h l x h' a Hx Hc) as (Hne & Hnew & Ha & Hl & _ & Ia & Il).
  repeat apply conj; auto.
  - apply (safe_frame h' a l ops false); auto; discriminate.
  - apply (safe_frame h' l a ops false); auto; discriminate.
  - intros b y Hb Hy. unfold h_clone in Hc. destruct (st_data h !! l) as [cell|]; [|discriminate].
    injection Hc as <- <-. unfold h_obs in *. cbn [st_data st_schemes]. rewrite lookup_insert_ne by auto. exact Hy.
Qed.
Print Assumptions C17_clone_independent_partial.

(** Finding: assigning a clock number to the clone changes the clock number the original reports,
    because both storages point to the same scheme object. *)
Theorem C17_clone_shares_clocking_refuted : exists (h : store unit) l h' a c n d s d' s',
  h_obs h l = Some (d, s) /\ h_clone h l = Some (h', a) /\ a <> l /\
  h_obs (h_apply a h' (AssignClock c n)) l = Some (d', s') /\ sc_at s' c <> sc_at s c.
Proof.
  set (h0 := fst (h_new (mkStore ∅ ∅) tt (clocking Cartesian USE))).
  set (l := snd (h_new (mkStore ∅ ∅) tt (clocking Cartesian USE))).
  assert (E : h_obs h0 l = Some (tt, clocking Cartesian USE)).
  { unfold h0, l, h_new, h_obs. cbn [fst snd st_data st_schemes]. rewrite !lookup_insert. reflexivity. }
  destruct (h_clone h0 l) as [[h' a]|] eqn:Hc.
  2: { unfold h_clone in Hc. unfold h_obs in E. destruct (st_data h0 !! l); discriminate. }
  destruct (clone_spec h0 l _ h' a E Hc) as (Hne & _ & Ha & Hl & Hp & _ & _).
  exists h0, l, h', a, (live 0 0 0), 3, tt, (clocking Cartesian USE), tt, (sc_set (clocking Cartesian USE) (live 0 0 0) 3).
  split; [exact E|]. split; [auto|]. split; [exact Hne|].
  unfold ptr in Hp. unfold h_obs in Ha, Hl |- *. unfold h_apply.
  destruct (st_data h' !! a) as [[d p]|] eqn:Ea; [|discriminate].
  destruct (st_data h' !! l) as [[d2 p2]|] eqn:El; [|discriminate]. injection Hp as <-.
  destruct (st_schemes h' !! p) as [s|] eqn:Es; [|discriminate].
  injection Ha as -> ->. injection Hl as ->.
  cbn [st_data st_schemes]. rewrite El, lookup_insert. split; [reflexivity|]. vm_compute. congruence.
Qed.
Print Assumptions C17_clone_shares_clocking_refuted.

Example C17_nonvacuous :
  safe_ops false [Update (fun n => (n + 1)%nat); ReplaceScheme (clocking Cartesian RES); AssignClock (live 0 0 0) 3; Update (fun n => (n * 2)%nat)] /\
  exists h' a x, h_clone (fst (h_new (mkStore ∅ ∅) 3%nat (clocking Cartesian USE))) (snd (h_new (mkStore ∅ ∅) 3%nat (clocking Cartesian USE))) = Some (h', a) /\
    h_obs h' a = Some x.
Proof.
  split; [simpl; auto|]. unfold h_new, h_clone. cbn [fst snd st_data st_schemes]. rewrite lookup_insert.
  eexists _, _, _. split; [reflexivity|]. unfold h_obs. cbn [st_data st_schemes]. rewrite lookup_insert, lookup_insert. reflexivity.
Qed.

(** * C29 *)

(** After any history of element assignments to in-range coordinates, an element's value is the last one assigned. *)
Theorem C29_elements_history : forall l hist c, u_wf c -> Forall (fun p => u_wf (fst p)) hist ->
  let l' := fold_left (fun l p => assign_synchronization_element l (fst p) (snd p)) hist l in
  get_synchronization_element l' c =
    match last_assigned hist c with Some v => v | None => get_synchronization_element l c end /\
  (is_synchronization_element l' c = true <-> get_synchronization_element l' c <> 0) /\
  se_base l' = se_base l.
Proof.
  intros l hist c Hc Hh l'. change l' with (se_all l hist).
  split; [apply se_all_get; auto|]. split; [apply is_se_iff|apply se_all_base].
Qed.
Print Assumptions C29_elements_history.

(** Flow: touching zones of which one is an element feed each other; otherwise the clocking decides.
    Duality holds for the predicates and the lists. *)
Theorem C29_flow : forall l a, dim_ok (cl_dim (se_base l)) -> inb (cl_dim (se_base l)) a -> 1 <= num_clocks (se_base l) <= 255 ->
  (forall b, In b (se_outgoing_clocked_zones l a) <->
     inb (cl_dim (se_base l)) b /\ touch (cl_topo (se_base l)) a b /\
     (get_synchronization_element l a <> 0 \/ get_synchronization_element l b <> 0 \/
      get_clock_number (se_base l) b = (get_clock_number (se_base l) a + 1) mod num_clocks (se_base l))) /\
  (forall b, inb (cl_dim (se_base l)) b ->
     (In b (se_outgoing_clocked_zones l a) <-> In a (se_incoming_clocked_zones l b))) /\
  (forall b, se_is_incoming_clocked l a b = se_is_outgoing_clocked l b a) /\
  ((forall c, get_synchronization_element l c = 0) ->
     se_outgoing_clocked_zones l a = outgoing_clocked_zones (se_base l) a /\
     se_incoming_clocked_zones l a = incoming_clocked_zones (se_base l) a).
Proof.
  intros l a Hd Ha Hn. split; [intros; apply se_outgoing_In; auto|].
  split; [intros b Hb; rewrite se_outgoing_In, se_incoming_In by auto; rewrite (touch_sym _ a b); tauto|].
  split; [intros; apply se_in_out|].
  intros H0.
  assert (Hs : forall c, is_synchronization_element l c = false).
  { intros c. destruct (is_synchronization_element l c) eqn:E; auto. apply is_se_iff in E. destruct (E (H0 c)). }
  unfold se_outgoing_clocked_zones, se_incoming_clocked_zones, outgoing_clocked_zones, incoming_clocked_zones.
  split; apply filter_ext; intros b; [unfold se_is_outgoing_clocked, is_outgoing_clocked|unfold se_is_incoming_clocked, is_incoming_clocked];
    rewrite !Hs, !orb_false_r; destruct (coord_eqb a b); reflexivity.
Qed.
Print Assumptions C29_flow.

(** Finding: the reported degree of a zone is not the documented sum of incoming and outgoing zones
    when synchronization elements are present. *)
Theorem C29_degree_refuted : exists l a, dim_ok (cl_dim (se_base l)) /\ inb (cl_dim (se_base l)) a /\
  se_degree l a <> se_in_degree l a + se_out_degree l a /\ se_in_degree l a = 4 /\ se_out_degree l a = 4.
Proof.
  exists (assign_synchronization_element (mkSE (std_layout Cartesian (live 3 3 0) (TWODDWAVE FOUR)) ∅) (live 1 1 0) 1), (live 1 1 0).
  split; [unfold dim_ok; simpl; lia|]. split; [unfold inb; simpl; repeat split; lia|].
  repeat split; vm_compute; congruence.
Qed.
Print Assumptions C29_degree_refuted.

Example C29_nonvacuous :
  let l := assign_synchronization_element (mkSE (std_layout Cartesian (live 3 3 0) (TWODDWAVE FOUR)) ∅) (live 1 1 0) 1 in
  se_outgoing_clocked_zones l (live 1 1 0) = [live 1 0 0; live 2 1 0; live 1 2 0; live 0 1 0] /\
  se_outgoing_clocked_zones l (live 2 1 0) = [live 3 1 0; live 2 2 0; live 1 1 0].
Proof. split; vm_compute; reflexivity. Qed.
