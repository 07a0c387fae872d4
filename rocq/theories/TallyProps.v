(** C105: functions of gates and gate counts. *)
From Coq Require Import ZArith Bool List Lia.
From stdpp Require Import gmap list.
From Verif Require Import FanoutModel TallyModel TallySpec.
From Coq Require Import List.
Import ListNotations.

(** ** The cache *)

Definition good (t : tt) : Prop := length (snd t) = 2 ^ fst t.
Definition cached (c : list tt) : Prop := List.NoDup c /\ (forall t, In t c -> good t /\ is_normal t = true) /\ exists r, c = initial ++ r.
Lemma not_not t : tt_not (tt_not t) = t.
Proof. destruct t as [v bs]. unfold tt_not. cbn. f_equal. induction bs as [|b bs IH]; [reflexivity|]. cbn. rewrite negb_involutive, IH. reflexivity. Qed.
Lemma good_not t : good t -> good (tt_not t).
Proof. unfold good, tt_not. cbn. rewrite map_length. auto. Qed.
Lemma normal_not t : good t -> is_normal (tt_not t) = negb (is_normal t).
Proof. destruct t as [v [|b bs]]; unfold good, is_normal, tt_not; cbn; [intros H; pose proof (Nat.pow_nonzero 2 v); lia|reflexivity]. Qed.
Lemma find_ok c t i : cache_find c t = Some i -> c !! i = Some t.
Proof.
  revert i. induction c as [|x c IH]; intros i; [discriminate|]. cbn [cache_find]. unfold tt_eqb. case_bool_decide as E.
  - intros [= <-]. subst x. reflexivity.
  - destruct (cache_find c t) as [j|]; [|discriminate]. intros [= <-]. apply (IH j eq_refl).
Qed.
Lemma find_none c t : cache_find c t = None -> ~ In t c.
Proof.
  induction c as [|x c IH]; intros H; [intros []|]. cbn [cache_find] in H. unfold tt_eqb in H. case_bool_decide as E; [discriminate|]. destruct (cache_find c t); [discriminate|]. intros [X|X]; [apply E; exact X|apply IH; [reflexivity|exact X]].
Qed.
Lemma get_even c i : cache_get c (2 * i + 0) = c !! i.
Proof. unfold cache_get. rewrite Nat.add_0_r, Nat.div2_double, Nat.odd_mul. cbn. destruct (c !! i); reflexivity. Qed.
Lemma get_odd c i : cache_get c (2 * i + 1) = option_map tt_not (c !! i).
Proof.
  unfold cache_get. replace (2 * i + 1) with (S (2 * i)) by lia. rewrite Nat.div2_succ_double, Nat.odd_succ, Nat.even_mul. reflexivity.
Qed.
Lemma get_grow c r lit : lit < 2 * length c -> cache_get (c ++ r) lit = cache_get c lit.
Proof. intros H. unfold cache_get. rewrite lookup_app_l; [reflexivity|]. rewrite Nat.div2_div. apply Nat.div_lt_upper_bound; lia. Qed.
Lemma get_lt c lit t : cache_get c lit = Some t -> lit < 2 * length c.
Proof. unfold cache_get. destruct (c !! Nat.div2 lit) eqn:E; [|discriminate]. intros _. apply lookup_lt_Some in E. rewrite (Nat.div2_odd lit). destruct (Nat.odd lit); cbn [Nat.b2n]; lia. Qed.
Lemma insert_ok c t : cached c -> good t -> cached (fst (cache_insert c t)) /\ cache_get (fst (cache_insert c t)) (snd (cache_insert c t)) = Some t /\ exists r, fst (cache_insert c t) = c ++ r.
Proof.
  intros (N & G & (r & E)) Gt. unfold cache_insert. set (u := if is_normal t then t else tt_not t). set (low := if is_normal t then 0 else 1).
  assert (Gu : good u /\ is_normal u = true) by (unfold u; destruct (is_normal t) eqn:X; [auto|split; [apply good_not, Gt|rewrite normal_not, X by exact Gt; reflexivity]]).
  assert (Get : forall c' i, c' !! i = Some u -> cache_get c' (2 * i + low) = Some t).
  { intros c' i H. unfold low, u in *. destruct (is_normal t); [rewrite get_even; exact H|rewrite get_odd, H; cbn; rewrite not_not; reflexivity]. }
  destruct (cache_find c u) as [i|] eqn:F; cbn [fst snd].
  - split; [split; [exact N|split; [exact G|exists r; exact E]]|]. split; [apply Get, find_ok, F|exists []; rewrite app_nil_r; reflexivity].
  - split; [split; [|split]|].
    + apply NoDup_ListNoDup, NoDup_app. split; [apply NoDup_ListNoDup, N|]. split; [|apply NoDup_singleton]. intros x Hx X. apply elem_of_list_singleton in X. subst x. apply elem_of_list_In in Hx. exact (find_none c u F Hx).
    + intros x Hx. apply in_app_iff in Hx as [Hx|[<-|[]]]; [apply G, Hx|exact Gu].
    + exists (r ++ [u]). rewrite E, app_assoc. reflexivity.
    + split; [apply Get; rewrite lookup_app_r, Nat.sub_diag by lia; reflexivity|exists [u]; reflexivity].
Qed.
(** Literals are determined by functions. *)
Lemma get_inj c l m t : cached c -> cache_get c l = Some t -> cache_get c m = Some t -> l = m.
Proof.
  intros (N & G & _) A B. unfold cache_get in A, B. destruct (c !! Nat.div2 l) as [a|] eqn:Ea; [|discriminate A]. destruct (c !! Nat.div2 m) as [b|] eqn:Eb; [|discriminate B].
  cbn in A, B. injection A as A. injection B as B.
  assert (Ga : good a /\ is_normal a = true) by (apply G, elem_of_list_In, elem_of_list_lookup; eauto). assert (Gb : good b /\ is_normal b = true) by (apply G, elem_of_list_In, elem_of_list_lookup; eauto).
  destruct Ga as [Ga Na], Gb as [Gb Nb]. assert (O : Nat.odd l = Nat.odd m).
  { destruct (Nat.odd l), (Nat.odd m); try reflexivity; exfalso; [rewrite <- B in A; assert (X : is_normal (tt_not a) = is_normal b) by (rewrite A; reflexivity); rewrite normal_not, Na, Nb in X by exact Ga; discriminate X|rewrite <- B in A; assert (X : is_normal a = is_normal (tt_not b)) by (rewrite A; reflexivity); rewrite normal_not, Na, Nb in X by exact Gb; discriminate X]. }
  assert (ab : a = b). { rewrite O in A. destruct (Nat.odd m); [|congruence]. rewrite <- (not_not a), <- (not_not b), A, B. reflexivity. }
  subst b. assert (Nat.div2 l = Nat.div2 m) as D by (eapply NoDup_lookup; [apply NoDup_ListNoDup; exact N|exact Ea|exact Eb]). rewrite (Nat.div2_odd l), (Nat.div2_odd m), O, D. reflexivity.
Qed.
Lemma initial_cached : cached initial.
Proof.
  split; [|split; [|exists []; rewrite app_nil_r; reflexivity]].
  - apply NoDup_ListNoDup. apply (bool_decide_unpack _). vm_compute. exact Logic.I.
  - assert (F : forallb (fun t => Nat.eqb (length (snd t)) (2 ^ fst t) && is_normal t) initial = true) by (vm_compute; reflexivity). intros t Ht. rewrite forallb_forall in F. apply F, andb_prop in Ht as [A B]. apply Nat.eqb_eq in A. auto.
Qed.

(** ** Histories *)

Definition inv (st : tstate) (fs : list (option tt)) : Prop :=
  cached (ts_cache st) /\ length (t_nodes (ts_net st)) = length fs /\
  forall n f, fs !! n = Some f -> match f with None => exists x, t_nodes (ts_net st) !! n = Some x /\ match x with TGate _ _ => False | _ => True end
    | Some t => exists lit ch, t_nodes (ts_net st) !! n = Some (TGate lit ch) /\ cache_get (ts_cache st) lit = Some t end.
Lemma inv_push st fs x f c' r : inv st fs -> cached c' -> c' = ts_cache st ++ r ->
  match f with None => match x with TGate _ _ => False | _ => True end | Some t => exists lit ch, x = TGate lit ch /\ cache_get c' lit = Some t end ->
  forall pis pos, inv (mkTS (mkT (t_nodes (ts_net st) ++ [x]) pis pos) c') (fs ++ [f]).
Proof.
  intros (C & Le & I) C' -> X pis pos. split; [exact C'|]. cbn [ts_net ts_cache t_nodes] in *. split; [rewrite !app_length, Le; reflexivity|]. intros n g Hn. apply lookup_app_Some in Hn as [Hn|[Hl Hn]].
  - specialize (I n g Hn). destruct g as [t|].
    + destruct I as (lit & ch & E & G). exists lit, ch. split; [apply lookup_app_l_Some, E|]. rewrite get_grow; [exact G|]. eapply get_lt, G.
    + destruct I as (y & E & Y). exists y. split; [apply lookup_app_l_Some, E|exact Y].
  - destruct (n - length fs) as [|k] eqn:D; [|destruct k; discriminate Hn]. injection Hn as <-. assert (n = length (t_nodes (ts_net st))) as -> by lia. destruct f as [t|].
    + destruct X as (lit & ch & -> & G). exists lit, ch. split; [rewrite lookup_app_r, Nat.sub_diag by lia; reflexivity|exact G].
    + exists x. split; [rewrite lookup_app_r, Nat.sub_diag by lia; reflexivity|exact X].
Qed.
Lemma named_get g : cache_get initial (create_literal g) = Some (named g).
Proof. destruct g; vm_compute; reflexivity. Qed.
Lemma folds_eq g ch : folds g ch = not_of_constant g ch.
Proof. destruct g; try reflexivity. destruct ch as [|[|[|c]] [|d ch]]; reflexivity. Qed.
Lemma op_inv st fs o : inv st fs -> legal o -> inv (t_op st o) (fs ++ made_function o).
Proof.
  intros I Le. destruct o as [|n|g ch|[|c ch] t]; cbn [t_op made_function].
  - apply (inv_push st fs TPi None (ts_cache st) []); [exact I|apply I|rewrite app_nil_r; reflexivity|exact Logic.I].
  - rewrite app_nil_r. destruct I as (C & L & I). split; [exact C|split; [exact L|exact I]].
  - rewrite folds_eq. destruct (not_of_constant g ch); [rewrite app_nil_r; exact I|]. pose proof (named_get g) as E. apply (inv_push st fs (TGate (create_literal g) ch) (Some (named g)) (ts_cache st) []); [exact I|apply I|rewrite app_nil_r; reflexivity|]. exists (create_literal g), ch. split; [reflexivity|].
    destruct I as ((_ & _ & (r & Er)) & _). rewrite Er, get_grow; [exact E|]. eapply get_lt, E.
  - rewrite app_nil_r. exact I.
  - destruct (insert_ok (ts_cache st) t (proj1 I) Le) as (C & G & (r & E)). cbv zeta. apply (inv_push st fs (TGate _ (c :: ch)) (Some t) _ r); [exact I|exact C|exact E|]. eexists _, _. split; [reflexivity|exact G].
Qed.
Lemma run_inv ops : (forall o, In o ops -> legal o) -> inv (t_run ops) (functions ops).
Proof.
  intros H. unfold t_run, functions. assert (I0 : inv (mkTS (mkT [TConst false; TConst true] [] []) initial) [None; None]).
  { split; [exact initial_cached|]. split; [reflexivity|]. intros [|[|n]] f Hf; [injection Hf as <-; eexists; split; [reflexivity|exact Logic.I]|injection Hf as <-; eexists; split; [reflexivity|exact Logic.I]|discriminate Hf]. }
  revert I0. generalize (mkTS (mkT [TConst false; TConst true] [] []) initial). generalize [@None tt; None]. induction ops as [|o ops IH]; intros fs st I; cbn [fold_left flat_map]; [rewrite app_nil_r; exact I|].
  rewrite app_assoc. apply IH; [intros x Hx; apply H; right; exact Hx|]. apply op_inv; [exact I|apply H; left; reflexivity].
Qed.

(** After any history, each gate has exactly the function that it was made with. *)
Theorem C105_function : forall ops, (forall o, In o ops -> legal o) -> let st := t_run ops in
  length (t_nodes (ts_net st)) = length (functions ops) /\ forall n t, node_function st n = Some t <-> functions ops !! n = Some (Some t).
Proof.
  intros ops H st. destruct (run_inv ops H) as (C & Le & I). fold st in C, Le, I. split; [exact Le|]. intros n t. unfold node_function. split.
  - intros G. destruct (functions ops !! n) as [f|] eqn:F.
    + specialize (I n f F). destruct f as [u|]; [destruct I as (lit & ch & E & X); rewrite E in G; congruence|]. destruct I as (x & E & X). rewrite E in G. destruct x; [discriminate G|discriminate G|destruct X].
    + apply lookup_ge_None in F. rewrite lookup_ge_None_2 in G by lia. discriminate G.
  - intros F. destruct (I n (Some t) F) as (lit & ch & E & X). rewrite E. exact X.
Qed.
Print Assumptions C105_function.

(** ** Counting *)

Lemma predicates_ok k lit : In (k, lit) predicates <-> exists t, meaning k = Some t /\ cache_get initial lit = Some t.
Proof.
  split.
  - intros H. cbn in H. repeat (destruct H as [H|H]; [injection H as <- <-; eexists; split; [reflexivity|vm_compute; reflexivity]|]). destruct H.
  - intros (t & M & G). assert (X : exists l, In (k, l) predicates /\ cache_get initial l = Some t) by (destruct k; cbn in M; try discriminate M; injection M as <-; eexists; (split; [cbn; tauto|vm_compute; reflexivity])).
    destruct X as (l & Hl & Gl). rewrite (get_inj initial lit l t initial_cached G Gl). exact Hl.
Qed.
Lemma gkind_eqb_spec a b : gkind_eqb a b = true <-> a = b.
Proof. destruct a, b; cbn; split; congruence. Qed.
Lemma classify_gate st fs n t : inv st fs -> fs !! n = Some (Some t) -> forall k, classify (ts_net st) n = Some k <-> is_kind (ts_net st) n t k.
Proof.
  intros (C & Le & I) F k. destruct (I n (Some t) F) as (lit & ch & E & G). destruct C as (N & Go & (r & Er)). assert (C : cached (ts_cache st)) by (split; [exact N|split; [exact Go|exists r; exact Er]]).
  assert (Gi : forall l u, cache_get initial l = Some u -> cache_get (ts_cache st) l = Some u) by (intros l u X; rewrite Er, get_grow; [exact X|eapply get_lt, X]).
  assert (Id : lit = 2 <-> t = identity). { split; [intros ->; assert (X : cache_get initial 2 = Some identity) by (vm_compute; reflexivity); apply Gi in X; congruence|]. intros ->. apply (get_inj _ _ _ _ C G). apply Gi. vm_compute. reflexivity. }
  assert (Pr : forall k' l', In (k', l') predicates -> lit = l' -> meaning k' = Some t). { intros k' l' H <-. apply predicates_ok in H as (u & M & X). apply Gi in X. congruence. }
  assert (Pm : forall k', meaning k' = Some t -> In (k', lit) predicates). { intros k' M. assert (X : exists l, cache_get initial l = Some t) by (destruct k'; cbn in M; try discriminate M; injection M as <-; [exists 3|exists 4|exists 6|exists 5|exists 7|exists 12|exists 13|exists 8|exists 10|exists 11|exists 9|exists 22|exists 24|exists 26|exists 28|exists 14|exists 31|exists 20|exists 16|exists 32]; vm_compute; reflexivity).
    destruct X as (l & X). rewrite (get_inj _ lit l t C G (Gi l t X)). apply predicates_ok. exists t. auto. }
  assert (Bu : is_buf (ts_net st) n = Nat.eqb lit 2) by (unfold is_buf; rewrite E; destruct lit as [|[|[|lit]]]; reflexivity).
  unfold classify. unfold t_is_constant at 1. rewrite E. unfold is_fanout. rewrite Bu. unfold literal. rewrite E. unfold is_pi. rewrite E.
  destruct (Nat.eqb_spec lit 2) as [L2|L2]; cbn [andb].
  - apply Id in L2. assert (Nm : forall k', meaning k' <> Some t) by (subst t; intros k' M; destruct k'; discriminate M). destruct (Nat.ltb_spec 1 (fanout_size (ts_net st) n)) as [Fo|Fo].
    + split; [intros [= <-]; split; assumption|]. intros K. destruct k; try (elim (Nm _ K)); cbn in K; [reflexivity|lia|destruct K as [K _]; contradiction].
    + split; [intros [= <-]; split; assumption|]. intros K. destruct k; try (elim (Nm _ K)); cbn in K; [lia|reflexivity|destruct K as [K _]; contradiction].
  - assert (Nt : t <> identity) by (intros X; apply L2, Id, X). destruct (find (fun p => Nat.eqb lit (snd p)) predicates) as [[k' l']|] eqn:Fi.
    + apply find_some in Fi as [Fi X]. cbn in X. apply Nat.eqb_eq in X. pose proof (Pr k' l' Fi X) as M. assert (K' : is_kind (ts_net st) n t k') by (destruct k'; cbn in M |- *; try exact M; discriminate M). split; [intros [= <-]; exact K'|].
      intros K. assert (Mk : meaning k = Some t) by (destruct k; cbn in K; [destruct K as [K _]; contradiction|destruct K as [K _]; contradiction|..|destruct K as [_ K]; elim (K k' M)]; exact K).
      pose proof (Pm k Mk) as A. pose proof (Pm k' M) as B. f_equal. clear - A B. cbn in A, B. repeat (destruct A as [A|A]; [injection A as <- <-; repeat (destruct B as [B|B]; [first [discriminate B|injection B as <-; reflexivity]|]); destruct B|]). destruct A.
    + assert (Nm : forall k', meaning k' <> Some t). { intros k' M. apply Pm in M. apply (List.find_none _ _ Fi) in M. cbn in M. rewrite Nat.eqb_refl in M. discriminate M. }
      split; [intros [= <-]; split; assumption|]. intros K. destruct k; try (elim (Nm _ K)); cbn in K; [destruct K as [K _]; contradiction|destruct K as [K _]; contradiction|reflexivity].
Qed.

Lemma classify_none st fs n : inv st fs -> fs !! n = Some None -> classify (ts_net st) n = None.
Proof.
  intros (C & Le & I) F. destruct (I n None F) as (x & E & X). unfold classify, t_is_constant, is_fanout, is_buf, literal, is_pi. rewrite E. destruct x; [reflexivity|reflexivity|destruct X].
Qed.
Lemma classify_some st fs n t : inv st fs -> fs !! n = Some (Some t) -> exists k, classify (ts_net st) n = Some k.
Proof.
  intros (C & Le & I) F. destruct (I n (Some t) F) as (lit & ch & E & G). unfold classify. destruct (is_fanout (ts_net st) n), (is_buf (ts_net st) n), (find (fun p => Nat.eqb (literal (ts_net st) n) (snd p)) predicates) as [[k l]|]; unfold t_is_constant, is_pi; rewrite E; eauto.
Qed.
Lemma count_fold net k l c : fold_left (fun c n => match classify net n with Some k' => if gkind_eqb k' k then S c else c | None => c end) l c =
  c + length (List.filter (fun n => match classify net n with Some k' => gkind_eqb k' k | None => false end) l).
Proof.
  revert c. induction l as [|n l IH]; intros c; cbn; [lia|]. rewrite IH. destruct (classify net n) as [k'|]; [destruct (gkind_eqb k' k); cbn; lia|lia].
Qed.
Lemma total_list net l : fold_left (fun s k => s + length (List.filter (fun n => match classify net n with Some k' => gkind_eqb k' k | None => false end) l)) kinds 0 =
  length (List.filter (fun n => match classify net n with Some _ => true | None => false end) l).
Proof.
  induction l as [|n l IH]; [reflexivity|]. unfold kinds in *. cbn [fold_left List.filter] in *. destruct (classify net n) as [k'|]; [|exact IH]. cbn [length]. rewrite <- IH. clear IH. destruct k'; cbn [gkind_eqb length]; lia.
Qed.

(** Each counter is the number of the gates of its kind; inputs and constants are not counted. *)
Theorem C105_counts : forall ops, (forall o, In o ops -> legal o) -> let net := ts_net (t_run ops) in forall k,
  exists l, List.NoDup l /\ length l = count_gate_types net k /\ forall n, In n l <-> exists f, functions ops !! n = Some (Some f) /\ is_kind net n f k.
Proof.
  intros ops H net k. pose proof (run_inv ops H) as I. exists (List.filter (fun n => match classify net n with Some k' => gkind_eqb k' k | None => false end) (seq 0 (length (t_nodes net)))).
  split; [apply List.NoDup_filter, seq_NoDup|]. split; [unfold count_gate_types; rewrite count_fold; reflexivity|]. intros n. rewrite filter_In, in_seq. split.
  - intros [Hn Hk]. destruct (functions ops !! n) as [[f|]|] eqn:F.
    + exists f. split; [reflexivity|]. apply (classify_gate _ _ n f I F). destruct (classify (ts_net (t_run ops)) n) as [k'|] eqn:Cl; unfold net in Hk; rewrite Cl in Hk; [|discriminate Hk]. apply gkind_eqb_spec in Hk. subst k'. reflexivity.
    + unfold net in Hk. rewrite (classify_none _ _ n I F) in Hk. discriminate Hk.
    + apply lookup_ge_None in F. destruct I as (_ & Le & _). fold net in Le. lia.
  - intros (f & F & K). apply (classify_gate _ _ n f I F) in K. unfold net. rewrite K. split; [|apply gkind_eqb_spec; reflexivity]. apply lookup_lt_Some in F. destruct I as (_ & Le & _). lia.
Qed.
Print Assumptions C105_counts.

(** Each gate is counted once: the total is the number of gates. *)
Theorem C105_total : forall ops, (forall o, In o ops -> legal o) ->
  total_gates (ts_net (t_run ops)) = length (List.filter (fun f => match f with Some _ => true | None => false end) (functions ops)).
Proof.
  intros ops H. pose proof (run_inv ops H) as I. set (net := ts_net (t_run ops)). unfold total_gates.
  transitivity (length (List.filter (fun n => match classify net n with Some _ => true | None => false end) (seq 0 (length (t_nodes net))))).
  - rewrite <- total_list. unfold count_gate_types, kinds. cbn [fold_left]. rewrite !count_fold. cbn [plus]. reflexivity.
  - assert (Le : length (t_nodes net) = length (functions ops)) by apply I. rewrite Le. 
    assert (X : forall n, In n (seq 0 (length (functions ops))) -> match classify net n with Some _ => true | None => false end = match functions ops !! n with Some (Some _) => true | _ => false end).
    { intros n Hn. apply in_seq in Hn. destruct (functions ops !! n) as [[f|]|] eqn:F; [destruct (classify_some _ _ n f I F) as (k & E); unfold net; rewrite E; reflexivity|unfold net; rewrite (classify_none _ _ n I F); reflexivity|]. apply lookup_ge_None in F. lia. }
    rewrite (filter_ext_in _ _ _ X). clear. induction (functions ops) as [|f fs IH] using rev_ind; [reflexivity|]. rewrite app_length, seq_app, !filter_app, !app_length, <- IH. cbn [length seq]. f_equal.
    + f_equal. apply filter_ext_in. intros n Hn. apply in_seq in Hn. rewrite lookup_app_l by lia. reflexivity.
    + cbn [List.filter plus]. rewrite lookup_app_r, Nat.sub_diag by lia. destruct f; reflexivity.
Qed.
Print Assumptions C105_total.

(** Two inputs, a buffer with two fan-outs, and, a node made from the truth table of or, one from that of a and not b, xor3 by its truth table. *)
Definition ex_ops : list top := [OPi; OPi; OGate CBuf [2]; OGate CAnd [4; 3]; OGate CNot [1]; ONode [4; 3] (tab2 orb); ONode [5; 6] (tab2 (fun a b => a && negb b)); ONode [5; 6; 7] (tab3 (fun a b c => xorb a (xorb b c))); OPo 7; OPo 8].
Example C105_nonvacuous : (forall o, In o ex_ops -> legal o) /\ let net := ts_net (t_run ex_ops) in
  map (count_gate_types net) [Fanout; Buf; And2; Or2; Gt2; Lt2; Other] = [1; 0; 1; 1; 1; 0; 1] /\ total_gates net = 5.
Proof.
  split; [|vm_compute; auto]. intros o Ho. cbn in Ho. repeat (destruct Ho as [<-|Ho]; [cbn; auto; lia|]). destruct Ho.
Qed.
