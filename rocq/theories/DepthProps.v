(** Balancing and depth of networks. *)
From Coq Require Import ZArith Bool List Lia.
From stdpp Require Import gmap list.
From Verif Require Import FanoutModel FanoutProps FanoutSpec FanoutProofs FanoutProofs2 FanoutProofs4 DepthModel DepthSpec DepthProofs DepthProofs2 DepthProofs3.
Import ListNotations.

(** Inputs and gates can be counted in 32 bits. *)
Lemma short_of net order : (Z.of_nat (length (t_pis net) + length order) < 2 ^ 32)%Z -> short net (fun _ => 1) order.
Proof. unfold short. rewrite <- app_length. intros H. replace (list_sum (map (fun _ : nat => 1) (t_pis net ++ order))) with (length (t_pis net ++ order)); [exact H|]. generalize (t_pis net ++ order) as l. induction l as [|a l IH]; [reflexivity|]. change (length (a :: l) = 1 + list_sum (map (fun _ : nat => 1) l)). rewrite <- IH. reflexivity. Qed.

(** *** C74 Balancing keeps the function of the network *)
Theorem C74_balancing_preserves_function : forall sem net order unify, buffers sem -> network net order -> (forall n, In n order -> live net (fun _ => 1) n) ->
  (Z.of_nat (length (t_pis net) + length order) < 2 ^ 32)%Z -> t_pos net <> [] ->
  exists net', network_balancing net order unify = Some net' /\ equivalent sem net net' /\ exists order', network net' order' /\ forall n, In n order' -> live net' (fun _ => 1) n.
Proof.
  intros sem net order u Hbuf Hnet Hlive Hs Hne. destruct (balancing_ok sem Hbuf net order Hnet Hlive (short_of _ _ Hs) Hne u) as (lv & st & own & ht & _ & Hlv & E & W & HS & HE & F). eexists. split; [exact E|].
  pose proof (short_of _ _ Hs) as Hs'. split; [eapply res_equivalent; eassumption|]. eexists. split; [eapply res_network; eassumption|]. intros n Hn. eapply res_live; eassumption.
Qed.
Print Assumptions C74_balancing_preserves_function.

(** Two inputs meet a sum of two gates: paths of different lengths. *)
Definition net_skew : tnet := mkT [TConst false; TConst true; TPi; TPi; TPi; TGate 4 [2; 3]; TGate 12 [5; 4]; TGate 4 [6; 2]] [2; 3; 4] [6; 7].
Lemma net_skew_ok : network net_skew [5; 6; 7].
Proof.
  constructor; try reflexivity.
  - intros n b H. do 2 (destruct n as [|n]; [lia|]). do 6 (destruct n as [|n]; [discriminate H|]). discriminate H.
  - intros n. split; [intros [<-|[<-|[<-|[]]]]; reflexivity|]. intros H. do 8 (destruct n as [|n]; [try discriminate H; cbn; auto|]). discriminate H.
  - apply nodup_by. vm_compute. reflexivity.
  - apply nodup_by. vm_compute. reflexivity.
  - intros n H. cbn in H. repeat (destruct H as [<-|H]; [do 2 eexists; split; [reflexivity|discriminate]|]). destruct H.
  - intros i n c Hi Hc. destruct i as [|[|[|i]]]; [injection Hi as <-; destruct Hc as [<-|[<-|[]]]; exact Logic.I| | |discriminate Hi].
    + injection Hi as <-. destruct Hc as [<-|[<-|[]]]; [exists 0; split; [lia|reflexivity]|exact Logic.I].
    + injection Hi as <-. destruct Hc as [<-|[<-|[]]]; [exists 1; split; [lia|reflexivity]|exact Logic.I].
  - intros c H. cbn in H. repeat (destruct H as [<-|H]; [vm_compute; tauto|]). destruct H.
Qed.
Lemma net_skew_live n : In n [5; 6; 7] -> live net_skew (fun _ => 1) n.
Proof.
  intros H. destruct H as [<-|[<-|[<-|[]]]].
  - exists 6. split; [left; reflexivity|]. exists (1 + 0). apply (tail_step net_skew (fun _ => 1) 5 6); [left; reflexivity|constructor].
  - exists 6. split; [left; reflexivity|]. exists 0. constructor.
  - exists 7. split; [right; left; reflexivity|]. exists 0. constructor.
Qed.
Example C74_nonvacuous : network net_skew [5; 6; 7] /\ (forall n, In n [5; 6; 7] -> live net_skew (fun _ => 1) n) /\
  network_balancing net_skew [5; 6; 7] false = Some (mkT [TConst false; TConst true; TPi; TPi; TPi; TGate 4 [2; 3]; TGate 2 [4]; TGate 12 [5; 6]; TGate 2 [2]; TGate 2 [8]; TGate 4 [7; 9]] [2; 3; 4] [7; 10]) /\
  network_balancing net_skew [5; 6; 7] true = Some (mkT [TConst false; TConst true; TPi; TPi; TPi; TGate 4 [2; 3]; TGate 2 [4]; TGate 12 [5; 6]; TGate 2 [2]; TGate 2 [8]; TGate 4 [7; 9]; TGate 2 [7]] [2; 3; 4] [11; 10]).
Proof. split; [exact net_skew_ok|]. split; [exact net_skew_live|]. split; vm_compute; reflexivity. Qed.
(** Without outputs the largest of no levels is read. *)
Theorem C74_no_outputs_refuted : exists net order, network net order /\ (forall n, In n order -> live net (fun _ => 1) n) /\ network_balancing net order false = None /\ network_balancing net order true = None.
Proof.
  exists (mkT [TConst false; TConst true; TPi] [2] []), []. split; [|split; [intros n []|split; vm_compute; reflexivity]]. constructor; try reflexivity.
  - intros n b H. do 2 (destruct n as [|n]; [lia|]). destruct n as [|n]; discriminate H.
  - intros n. split; [intros [<-|[]]; reflexivity|]. intros H. do 3 (destruct n as [|n]; [try discriminate H; cbn; auto|]). discriminate H.
  - apply nodup_by. vm_compute. reflexivity.
  - constructor.
  - intros n [].
  - intros i n c H. discriminate H.
  - intros c [].
Qed.
Print Assumptions C74_no_outputs_refuted.

(** *** C75 Balancing makes all paths equally long *)
Lemma depth_from_levels net order lv : network net order -> short net (fun _ => 1) order -> (forall n, In n order -> live net (fun _ => 1) n) -> (forall n k, lv !! n = Some k <-> live net (fun _ => 1) n /\ longest net false (fun _ => 1) n k) -> t_pos net <> [] ->
  forall d, network_depth net d <-> d = list_max (map (lvl lv) (t_pos net)).
Proof.
  intros Hnet Hs Hlive Hlv Hne d.
  assert (L : forall o, In o (t_pos net) -> longest net false (fun _ => 1) o (lvl lv o)).
  { intros o Ho. eapply (DepthProofs2.lev_longest first_fanin first_fanin_buf net order Hnet lv Hlv Hlive Hs); [apply (pos_known net order Hnet o Ho)|]. exists o. split; [exact Ho|]. exists 0. constructor. }
  assert (M : exists o, In o (t_pos net) /\ lvl lv o = list_max (map (lvl lv) (t_pos net))).
  { clear L. destruct (t_pos net) as [|a l]; [contradiction|]. clear Hne. revert a. induction l as [|b l IH]; intros a; [exists a; split; [left; reflexivity|cbn; lia]|]. change (list_max (map (lvl lv) (a :: b :: l))) with (Nat.max (lvl lv a) (list_max (map (lvl lv) (b :: l)))).
    destruct (IH b) as (o & Ho & Eo). destruct (Nat.max_spec (lvl lv a) (list_max (map (lvl lv) (b :: l)))) as [[_ ->]|[_ ->]]; [exists o; split; [right; exact Ho|exact Eo]|exists a; split; [left; reflexivity|reflexivity]]. }
  destruct M as (m & Hm & Em). pose proof (top_ge net lv) as T. split.
  - intros [A (o & Ho & Hc)]. pose proof (A m _ Hm (proj1 (L m Hm))). pose proof (proj2 (L o Ho) _ Hc). pose proof (T o Ho). lia.
  - intros ->. split; [intros o k Ho Hc; pose proof (proj2 (L o Ho) _ Hc); pose proof (T o Ho); lia|]. exists m. split; [exact Hm|]. rewrite <- Em. apply (L m Hm).
Qed.
Theorem C75_result_is_balanced : forall net order unify net', network net order -> (forall n, In n order -> live net (fun _ => 1) n) ->
  (Z.of_nat (length (t_pis net) + length order) < 2 ^ 32)%Z -> network_balancing net order unify = Some net' ->
  path_balanced net' /\ (unify = true -> outputs_unified net') /\ (forall d, network_depth net d <-> network_depth net' d) /\
  (unify = false -> forall k n m d, t_pos net !! k = Some n -> t_pos net' !! k = Some m -> longest net false (fun _ => 1) n d <-> longest net' false (fun _ => 1) m d).
Proof.
  intros net order u net' Hnet Hlive Hs E. pose proof (short_of _ _ Hs) as Hs'. assert (Hne : t_pos net <> []). { intros Hp. unfold network_balancing in E. rewrite Hp in E. destruct (ntk_depth net); [|discriminate E]. destruct (fold_o _ _ _); discriminate E. }
  destruct (balancing_ok first_fanin first_fanin_buf net order Hnet Hlive Hs' Hne u) as (lv & st & own & ht & _ & Hlv & E' & W & HS & HE & F). rewrite E in E'. injection E' as ->.
  pose proof (res_balanced first_fanin first_fanin_buf net order Hnet Hlive Hs' Hne u lv Hlv st own ht W HS HE F) as B.
  pose proof (res_network first_fanin first_fanin_buf net order Hnet Hlive Hs' Hne u lv Hlv st own ht W HS HE F) as N.
  pose proof (res_outputs first_fanin first_fanin_buf net order Hnet Hlive Hs' Hne u lv Hlv st own ht W HS HE F) as O.
  pose proof (res_longest first_fanin first_fanin_buf net order Hnet Hlive Hs' Hne u lv Hlv st own ht W HS HE F) as L.
  set (net' := mkT (f_nodes st) (seq 2 (length (t_pis net))) (f_pos st)) in *.
  assert (Pl : forall m, In m (f_pos st) -> exists k n, t_pos net !! k = Some n /\ f_pos st !! k = Some m).
  { intros m Hm. apply elem_of_list_In, elem_of_list_lookup in Hm as (k & Hk). destruct (Forall2_lookup_r _ _ _ _ _ F Hk) as (n & Hn & _). eauto. }
  assert (Lo : forall k n m, t_pos net !! k = Some n -> f_pos st !! k = Some m -> longest net' false (fun _ => 1) m (if u then list_max (map (lvl lv) (t_pos net)) else lvl lv n)).
  { intros k n m H1 H2. destruct (O k n m H1 H2) as [A1 A2]. rewrite <- A2. apply L, A1. }
  split; [exact B|]. split; [|split].
  - intros ->. intros o o' k k' Ho Ho' R R'. destruct (Pl o Ho) as (i & n & H1 & H2). destruct (Pl o' Ho') as (i' & n' & H1' & H2').
    pose proof (hgt_const first_fanin net order lv st own ht W) as X1. pose proof (hgt_pi first_fanin net order lv st own ht W) as X2. pose proof (hgt_gate first_fanin first_fanin_buf net order Hnet Hlive Hs' Hne true lv Hlv st own ht W HS HE F) as X3.
    rewrite (route_height net' _ N (hgt ht) X1 X2 X3 o k R), (route_height net' _ N (hgt ht) X1 X2 X3 o' k' R'). destruct (O i n o H1 H2) as [_ ->]. destruct (O i' n' o' H1' H2') as [_ ->]. reflexivity.
  - intros d. rewrite (depth_from_levels net order lv Hnet Hs' Hlive Hlv Hne). set (top := list_max (map (lvl lv) (t_pos net))) in *.
    assert (Up : forall k n m, t_pos net !! k = Some n -> f_pos st !! k = Some m -> (if u then top else lvl lv n) <= top).
    { intros k n m H1 H2. destruct u; [lia|]. apply (top_ge net lv), elem_of_list_In, elem_of_list_lookup_2 with k, H1. }
    assert (M : exists k n m, t_pos net !! k = Some n /\ f_pos st !! k = Some m /\ (if u then top else lvl lv n) = top).
    { assert (X : exists o, In o (t_pos net) /\ lvl lv o = top).
      { subst top. clear - Hne. destruct (t_pos net) as [|a l]; [contradiction|]. clear Hne. revert a. induction l as [|b l IH]; intros a; [exists a; split; [left; reflexivity|cbn; lia]|]. change (list_max (map (lvl lv) (a :: b :: l))) with (Nat.max (lvl lv a) (list_max (map (lvl lv) (b :: l)))).
        destruct (IH b) as (o & Ho & Eo). destruct (Nat.max_spec (lvl lv a) (list_max (map (lvl lv) (b :: l)))) as [[_ ->]|[_ ->]]; [exists o; split; [right; exact Ho|exact Eo]|exists a; split; [left; reflexivity|reflexivity]]. }
      destruct X as (n & Hn & En). apply elem_of_list_In, elem_of_list_lookup in Hn as (k & Hk). destruct (Forall2_lookup_l _ _ _ _ _ F Hk) as (m & Hm & _). exists k, n, m. split; [exact Hk|]. split; [exact Hm|]. destruct u; [reflexivity|exact En]. }
    destruct M as (k & n & m & H1 & H2 & Em). pose proof (Lo k n m H1 H2) as Lm. rewrite Em in Lm. split.
    + intros ->. split; [|exists m; split; [eapply elem_of_list_In, elem_of_list_lookup_2, H2|apply Lm]]. intros o j Ho Hj. destruct (Pl o Ho) as (i & n' & H1' & H2'). pose proof (proj2 (Lo i n' o H1' H2') j Hj). pose proof (Up i n' o H1' H2'). lia.
    + intros [A (o & Ho & Hc)]. destruct (Pl o Ho) as (i & n' & H1' & H2'). pose proof (proj2 (Lo i n' o H1' H2') d Hc). pose proof (Up i n' o H1' H2'). pose proof (A m top) as X. cbn [t_pos net'] in X. specialize (X ltac:(eapply elem_of_list_In, elem_of_list_lookup_2, H2) (proj1 Lm)). lia.
  - intros -> k n m d H1 H2. pose proof (Lo k n m H1 H2) as Lm. cbn beta iota in Lm.
    assert (Ln : longest net false (fun _ => 1) n (lvl lv n)).
    { assert (Hn : In n (t_pos net)) by (eapply elem_of_list_In, elem_of_list_lookup_2, H1). eapply (DepthProofs2.lev_longest first_fanin first_fanin_buf net order Hnet lv Hlv Hlive Hs'); [apply (pos_known net order Hnet n Hn)|]. exists n. split; [exact Hn|]. exists 0. constructor. }
    split; intros X; [rewrite (longest_fun _ _ _ _ _ _ X Ln); exact Lm|rewrite (longest_fun _ _ _ _ _ _ X Lm); exact Ln].
Qed.
Print Assumptions C75_result_is_balanced.

(** The check: for networks without dangling gates. *)
Theorem C75_check_exact_partial : forall net order unify, network net order -> (forall n, In n order -> live net (fun _ => 1) n) -> (forall n lit ch, t_nodes net !! n = Some (TGate lit ch) -> In n order) ->
  (Z.of_nat (length (t_pis net) + length order) < 2 ^ 32)%Z ->
  exists b, is_balanced net unify = Some b /\ (b = true <-> path_balanced net /\ (unify = true -> outputs_unified net)).
Proof. intros net order u Hnet Hlive Hall Hs. apply (check_ok net order Hnet Hlive (short_of _ _ Hs) Hall). Qed.
Print Assumptions C75_check_exact_partial.
Theorem C75_balanced_networks_pass : forall net order unify net', network net order -> (forall n, In n order -> live net (fun _ => 1) n) ->
  (Z.of_nat (length (t_pis net) + length order) < 2 ^ 32)%Z -> network_balancing net order unify = Some net' -> (Z.of_nat (length (t_nodes net')) < 2 ^ 32)%Z -> is_balanced net' unify = Some true.
Proof.
  intros net order u net' Hnet Hlive Hs E Hs2. destruct (C75_result_is_balanced net order u net' Hnet Hlive Hs E) as (B & U & _). pose proof (short_of _ _ Hs) as Hs'. assert (Hne : t_pos net <> []). { intros Hp. unfold network_balancing in E. rewrite Hp in E. destruct (ntk_depth net); [|discriminate E]. destruct (fold_o _ _ _); discriminate E. }
  destruct (balancing_ok first_fanin first_fanin_buf net order Hnet Hlive Hs' Hne u) as (lv & st & own & ht & _ & Hlv & E' & W & HS & HE & F). rewrite E in E'. injection E' as ->.
  pose proof (res_network first_fanin first_fanin_buf net order Hnet Hlive Hs' Hne u lv Hlv st own ht W HS HE F) as N. pose proof (res_live first_fanin first_fanin_buf net order Hnet Hlive Hs' Hne u lv Hlv st own ht W HS HE F) as V.
  destruct (res_shape first_fanin net order lv st own ht W) as (gs & En & Lg & G). cbn [t_nodes] in Hs2.
  destruct (C75_check_exact_partial _ _ u N V) as (b & Eb & Hb).
  - intros n lit ch Hn. cbn [t_nodes] in Hn. pose proof (lookup_lt_Some _ _ _ Hn). apply in_seq. destruct (Nat.lt_ge_cases n (2 + length (t_pis net))) as [Lt|]; [exfalso|lia]. pose proof (nw_0 _ _ N) as N0. pose proof (nw_1 _ _ N) as N1. cbn [t_nodes] in N0, N1. destruct n as [|[|n]]; [congruence|congruence|].
    assert (f_nodes st !! S (S n) = Some TPi); [|congruence]. apply (nw_pis _ _ N). cbn [t_pis]. apply in_seq. lia.
  - cbn [t_pis]. rewrite !seq_length. rewrite En, !app_length, repeat_length in *. cbn [length] in *. lia.
  - rewrite Eb. f_equal. apply Hb. split; assumption.
Qed.
Print Assumptions C75_balanced_networks_pass.

Example C75_nonvacuous : is_balanced net_skew false = Some false /\ ~ path_balanced net_skew /\
  (exists net', network_balancing net_skew [5; 6; 7] true = Some net' /\ is_balanced net' true = Some true) /\ (exists net', network_balancing net_skew [5; 6; 7] false = Some net' /\ is_balanced net' true = Some false).
Proof.
  split; [vm_compute; reflexivity|]. split; [|split; eexists; (split; [vm_compute; reflexivity|vm_compute; reflexivity])].
  intros B. assert (R1 : route net_skew 7 1) by (apply (route_gate net_skew 7 2 0); [right; left; reflexivity|reflexivity|apply route_input; reflexivity]).
  assert (R2 : route net_skew 7 2) by (apply (route_gate net_skew 7 6 1); [left; reflexivity|reflexivity|apply (route_gate net_skew 6 4 0); [right; left; reflexivity|reflexivity|apply route_input; reflexivity]]). discriminate (B 7 1 2 R1 R2).
Qed.
Lemma wrap_pos a b : a <= b -> (Z.of_nat b < 2 ^ 31)%Z -> 0 < u32 (Z.of_nat a - Z.of_nat b - 1).
Proof. intros H1 H2. unfold u32. assert (0 < (Z.of_nat a - Z.of_nat b - 1) mod 4294967296)%Z by (Z.div_mod_to_equations; lia). lia. Qed.
(** A gate that nothing depends on has level 0, so that the difference of levels wraps around: the network is balanced and the check denies it. *)
Definition net_dangling : tnet := mkT [TConst false; TConst true; TPi; TGate 3 [2]; TGate 3 [2]] [2] [3].
Theorem C75_dangling_refuted : exists net order, network net order /\ (forall n lit ch, t_nodes net !! n = Some (TGate lit ch) -> In n order) /\ path_balanced net /\ outputs_unified net /\ is_balanced net false = Some false.
Proof.
  exists net_dangling, [3; 4].
  assert (N : network net_dangling [3; 4]).
  { constructor; try reflexivity.
    - intros n b H. do 2 (destruct n as [|n]; [lia|]). do 3 (destruct n as [|n]; [discriminate H|]). discriminate H.
    - intros n. split; [intros [<-|[]]; reflexivity|]. intros H. do 5 (destruct n as [|n]; [try discriminate H; cbn; auto|]). discriminate H.
    - apply nodup_by. vm_compute. reflexivity.
    - apply nodup_by. vm_compute. reflexivity.
    - intros n H. cbn in H. repeat (destruct H as [<-|H]; [do 2 eexists; split; [reflexivity|discriminate]|]). destruct H.
    - intros i n c Hi Hc. do 2 (destruct i as [|i]; [injection Hi as <-; destruct Hc as [<-|[]]; exact Logic.I|]). discriminate Hi.
    - intros c [<-|[]]. left. reflexivity. }
  assert (R : forall n k, route net_dangling n k -> k = (if Nat.leb 3 n then 1 else 0)).
  { apply (route_height net_dangling [3; 4] N (fun n => if Nat.leb 3 n then 1 else 0)).
    - intros n b H. pose proof (nw_const _ _ N n b H). destruct n as [|[|n]]; [reflexivity|reflexivity|lia].
    - intros n H. do 3 (destruct n as [|n]; [reflexivity|]). do 2 (destruct n as [|n]; [discriminate H|]). discriminate H.
    - intros n lit ch H. do 3 (destruct n as [|n]; [discriminate H|]). do 2 (destruct n as [|n]; [injection H as <- <-; split; [intros c [<-|[]] _; reflexivity|reflexivity]|]). discriminate H. }
  split; [exact N|]. split; [|split; [|split]].
  - intros n lit ch H. do 3 (destruct n as [|n]; [discriminate H|]). do 2 (destruct n as [|n]; [cbn; auto|]). discriminate H.
  - intros n k k' A B. rewrite (R n k A), (R n k' B). reflexivity.
  - intros o o' k k' [<-|[]] [<-|[]] A B. rewrite (R 3 k A), (R 3 k' B). reflexivity.
  - unfold is_balanced. assert (X : option_map (fun lv => (lvl lv 4, lvl lv 2)) (ntk_depth net_dangling) = Some (0, 0)) by (vm_compute; reflexivity). destruct (ntk_depth net_dangling) as [lv|]; [|discriminate X]. cbn [option_map] in X. injection X as X1 X2. f_equal. apply not_true_is_false. intros H.
    apply andb_prop in H as [H _]. rewrite forallb_forall in H. specialize (H 4 ltac:(apply in_seq; cbn; lia)). rewrite forallb_forall in H. specialize (H 2 ltac:(left; reflexivity)). assert (C2 : t_is_constant net_dangling 2 = false) by reflexivity. rewrite X1, X2, C2 in H. cbn [orb] in H. apply negb_true_iff, Nat.ltb_ge in H. pose proof (wrap_pos 0 0 (le_n 0) eq_refl) as P. clear - H P. revert H P. generalize (u32 (Z.of_nat 0 - Z.of_nat 0 - 1)) as w. intros; lia.
Qed.
Print Assumptions C75_dangling_refuted.

(** *** C76 Levels, depth and critical paths *)
Theorem C76_levels_exact : forall net order pi_cost cost, network net order -> short net cost order -> (pi_cost = true -> forall n, In n (t_pis net) -> 1 <= cost n) ->
  exists v, update_levels net pi_cost cost = Some v /\
  (forall n k, level v n = Some k <-> live net cost n /\ longest net pi_cost cost n k) /\
  (forall o k, In o (t_pos net) -> chain net pi_cost cost o k -> k <= depth v) /\ (t_pos net <> [] -> exists o, In o (t_pos net) /\ chain net pi_cost cost o (depth v)) /\ (t_pos net = [] -> depth v = 0) /\
  (forall n, is_on_critical_path v n = true <-> exists o k w, In o (t_pos net) /\ chain net pi_cost cost n k /\ tail net cost n o w /\ k + w = depth v).
Proof.
  intros net order pc cost Hnet Hs Hp. destruct (update_ok net order Hnet pc cost Hs Hp) as (v & E & L & D1 & D2 & C). exists v. split; [exact E|]. split; [exact L|]. split; [exact D1|]. split; [|split; [|exact C]].
  - intros Hne. destruct D2 as [D0|D2]; [|exact D2]. destruct (t_pos net) as [|o l] eqn:Ep; [contradiction|]. assert (Ho : In o (t_pos net)) by (rewrite Ep; left; reflexivity).
    assert (K : exists k, chain net pc cost o k).
    { pose proof (pos_known net order Hnet o Ho) as K. clear - K Hnet. remember (rank order o) as r eqn:Er. revert o Er K. induction r as [r IH] using lt_wf_ind. intros o -> K. pose proof K as K'. unfold known in K'. destruct (t_nodes net !! o) as [[b| |lit ch]|] eqn:E; [eexists; eapply chain_const, E|eexists; eapply chain_input, E| |destruct K'].
      destruct (nw_gates _ _ Hnet o K') as (l2 & c2 & E2 & Hne). rewrite E in E2. injection E2 as <- <-. destruct ch as [|c ch]; [contradiction|]. assert (Hc : In c (t_fanins net o)) by (unfold t_fanins; rewrite E; left; reflexivity). destruct (fanin_known net order Hnet o c K Hc) as (_ & Kc & R). destruct (IH _ R c eq_refl Kc) as (k & Hk). eexists. eapply chain_gate; eassumption. }
    destruct K as (k & Hk). pose proof (D1 o k ltac:(left; reflexivity) Hk). exists o. split; [left; reflexivity|]. rewrite D0. replace k with 0 in Hk by lia. exact Hk.
  - intros Ep. rewrite Ep in D2. destruct D2 as [D2|(o & [] & _)]. exact D2.
Qed.
Print Assumptions C76_levels_exact.

(** Adding a gate gives it its level and keeps the others. *)
Theorem C76_added_level_partial : forall net order cost v n, network net order -> short net cost order -> In n order ->
  (forall c, In c (t_fanins net n) -> exists k, level v c = Some k /\ longest net false cost c k) ->
  (exists k, level (on_add net cost v n) n = Some k /\ longest net false cost n k) /\ (forall m, m <> n -> level (on_add net cost v n) m = level v m) /\ (forall m, is_on_critical_path (on_add net cost v n) m = is_on_critical_path v m).
Proof.
  intros net order cost v n Hnet Hs Hn Hc.
  assert (Hm : List.filter (fun f => negb (bool_decide (is_Some (v_levels v !! f)))) (t_fanins net n) = []).
  { assert (X : forall c, In c (t_fanins net n) -> is_Some (v_levels v !! c)) by (intros c H; destruct (Hc c H) as (k & E & _); eauto). revert X. generalize (t_fanins net n) as l. induction l as [|c l IH]; intros X; [reflexivity|]. cbn. rewrite bool_decide_eq_true_2 by (apply X; left; reflexivity). cbn. apply IH. intros; apply X; right; assumption. }
  set (lv := fold_left (fun acc f => Nat.max acc (default 0 (v_levels v !! f))) (t_fanins net n) 0).
  assert (ML : (forall c, In c (t_fanins net n) -> exists k, longest net false cost c k /\ k <= lv) /\ exists c, In c (t_fanins net n) /\ longest net false cost c lv).
  { assert (Hne : t_fanins net n <> []) by (destruct (nw_gates _ _ Hnet n Hn) as (lit & ch & E & H); unfold t_fanins; rewrite E; exact H). subst lv.
    assert (G : forall l a, (forall c, In c l -> exists k, level v c = Some k /\ longest net false cost c k) -> let m := fold_left (fun acc f => Nat.max acc (default 0 (v_levels v !! f))) l a in a <= m /\ (forall c, In c l -> exists k, longest net false cost c k /\ k <= m) /\ (m = a \/ exists c, In c l /\ longest net false cost c m)).
    { clear. induction l as [|c l IH]; intros a H; cbv zeta; cbn [fold_left]; [split; [lia|]; split; [intros c []|left; reflexivity]|]. destruct (H c (or_introl eq_refl)) as (k & Ek & Lk). unfold level in Ek. rewrite Ek. change (default 0 (Some k)) with k. destruct (IH (Nat.max a k) (fun d Hd => H d (or_intror Hd))) as (A & B & C).
      remember (fold_left (fun acc f => Nat.max acc (default 0 (v_levels v !! f))) l (Nat.max a k)) as m eqn:Em. clear Em. split; [lia|]. split; [intros d [<-|Hd]; [exists k; split; [exact Lk|lia]|apply B, Hd]|]. destruct C as [C|(d & Hd & Ld)]; [|right; exists d; split; [right; exact Hd|exact Ld]].
      destruct (Nat.max_spec a k) as [[_ X]|[_ X]]; rewrite X in C; [right; exists c; split; [left; reflexivity|rewrite C; exact Lk]|left; exact C]. }
    destruct (t_fanins net n) as [|c l] eqn:El; [contradiction|]. destruct (G (c :: l) 0 Hc) as (A & B & C). split; [exact B|]. destruct C as [C|C]; [|exact C]. exists c. split; [left; reflexivity|]. rewrite C. destruct (B c (or_introl eq_refl)) as (k & Lk & Le). rewrite C in Le. replace k with 0 in Lk by lia. exact Lk. }
  pose proof (longest_gate net order Hnet false cost n lv Hn (proj1 ML) (proj2 ML)) as Ln.
  assert (Ci : is_ci net n = false) by (destruct (nw_gates _ _ Hnet n Hn) as (lit & ch & E & _); unfold is_ci; rewrite E; reflexivity).
  assert (Sm : (Z.of_nat (lv + cost n) < 2 ^ 32)%Z) by (eapply (chain_small net order Hnet false cost); [exact Hs|discriminate|apply Ln|apply order_known; assumption]).
  unfold on_add. rewrite Hm, Ci. cbn [fold_left]. fold lv. rewrite (add32_small lv (cost n) Sm). unfold level, is_on_critical_path. cbn [v_levels v_crit]. split; [|split].
  - exists (lv + cost n). split; [apply lookup_insert|exact Ln].
  - intros m N. apply lookup_insert_ne. congruence.
  - reflexivity.
Qed.
Print Assumptions C76_added_level_partial.

Example C76_nonvacuous : exists v, update_levels net_skew false (fun n => if Nat.eqb n 6 then 3 else 1) = Some v /\ depth v = 5 /\ map (level v) [2; 5; 6; 7; 0] = [Some 0; Some 1; Some 4; Some 5; None] /\
  map (is_on_critical_path v) [2; 3; 4; 5; 6; 7] = [true; true; false; true; true; true].
Proof. eexists. split; [vm_compute; reflexivity|]. split; [|split]; vm_compute; reflexivity. Qed.
(** An input that is added counts as a gate: the depth of a network without gates becomes 1. *)
Theorem C76_added_depth_refuted : exists net order n v v', network net order /\ t_nodes net !! n = Some TPi /\
  update_levels (mkT (take n (t_nodes net)) [] (t_pos net)) false (fun _ => 1) = Some v /\ update_levels net false (fun _ => 1) = Some v' /\ n = length (t_nodes net) - 1 /\
  depth (on_add net (fun _ => 1) v n) = 1 /\ depth v' = 0.
Proof.
  exists (mkT [TConst false; TConst true; TPi] [2] [1]), [], 2. do 2 eexists. split; [|split; [reflexivity|split; [vm_compute; reflexivity|split; [vm_compute; reflexivity|split; [reflexivity|split; vm_compute; reflexivity]]]]]. constructor; try reflexivity.
  - intros n b H. do 2 (destruct n as [|n]; [lia|]). destruct n as [|n]; discriminate H.
  - intros n. split; [intros [<-|[]]; reflexivity|]. intros H. do 3 (destruct n as [|n]; [try discriminate H; cbn; auto|]). discriminate H.
  - apply nodup_by. vm_compute. reflexivity.
  - constructor.
  - intros n [].
  - intros i n c H. discriminate H.
  - intros c [<-|[]]. exact Logic.I.
Qed.
Print Assumptions C76_added_depth_refuted.
