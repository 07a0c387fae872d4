(** Virtual inputs, miters and equivalence checking: miters, calls and substituted outputs. *)
From Coq Require Import ZArith Bool List Lia Permutation.
From stdpp Require Import gmap list.
From Verif Require Import FanoutModel FanoutSpec FanoutProofs DepthProofs2 VirtModel VirtSpec VirtProofs VirtProofs2.
Import ListNotations.

Definition only_gates (gs : list tnode) : Prop := forall x, In x gs -> exists lit ch, x = TGate lit ch /\ ch <> [].
Lemma only_gates_app a b : only_gates a -> only_gates b -> only_gates (a ++ b).
Proof. intros A B x Hx. apply in_app_or in Hx as [Hx|Hx]; auto. Qed.

Section miter.
Context (sem : nat -> list bool -> option bool).
Notation vals nodes dpis e l vs := (Forall2 (value sem (mkT nodes dpis []) e) l vs).
Lemma vals_more nodes gs dpis e l vs : scoped (nodes ++ gs) [] -> (forall c, In c l -> c < length nodes) -> vals (nodes ++ gs) dpis e l vs <-> vals nodes dpis e l vs.
Proof.
  intros Hs. revert vs. induction l as [|c l IH]; intros vs H; [split; intros F; inversion F; constructor|]. specialize (fun vs => IH vs ltac:(intros z Hz; apply H; right; exact Hz)). pose proof (H c (or_introl eq_refl)) as Hc.
  split; intros F; inversion F as [|? v ? k Fv Fl]; subst; (constructor; [apply (value_more sem e dpis nodes gs Hs c v Hc), Fv|apply IH, Fl]).
Qed.
Lemma cleanup_ok net order p gs0 : network net order -> length (t_pis net) = p -> scoped (nodes0 p ++ gs0) [] ->
  exists gs pos, cleanup_dangling net order (seq 2 p) (nodes0 p ++ gs0) = Some (nodes0 p ++ gs0 ++ gs, pos) /\ length pos = length (t_pos net) /\ length gs = length order /\
    scoped (nodes0 p ++ gs0 ++ gs) [] /\ only_gates gs /\ (forall c, In c pos -> c < length (nodes0 p ++ gs0 ++ gs)) /\
    forall e vs, vals (nodes0 p ++ gs0 ++ gs) (seq 2 p) e pos vs <-> outputs sem net e vs.
Proof.
  intros Hnet <- Hs. set (p := length (t_pis net)) in *. set (R := fun e e' : nat -> bool => e = e').
  assert (HR : forall e e', R e e' -> forall i n k, t_pis net !! i = Some n -> t_pis net !! k = Some n -> e k = e' i).
  { intros e e' -> i n k Hi Hk. f_equal. pose proof (nw_pis_once _ _ Hnet) as N. apply NoDup_ListNoDup in N. eapply NoDup_lookup; eassumption. }
  pose proof (init_covers sem net order Hnet (t_pis net) (nw_pis_once _ _ Hnet) (fun n H => H) R HR gs0 Hs) as C0.
  destruct (copy_ok sem net order Hnet (seq 2 p) R Some (fun c => c)) with (dom0 := fun n => n < 2 \/ In n (t_pis net)) (todo := order) (done := @nil nat) (nodes := nodes0 p ++ gs0) (m := list_to_map (combine (t_pis net) (seq 2 p) ++ [(0, 0); (1, 1)]) : gmap nat nat) as (gs & m & E & Lg & S & G & _ & C).
  { auto. } { intros c _. split; [reflexivity|]. reflexivity. } { intros c L. eapply leaf_cases; eassumption. }
  { intros c [Hc|Hc]; [eapply leaf_const; eassumption|eapply leaf_pi; eassumption]. } { reflexivity. } { exact Hs. } { intros n [Hn|[]]. apply C0, Hn. }
  exists gs, (map (g_new m) (t_pos net)). rewrite <- (assoc_L app) in *.
  assert (Hd : forall n, In n (t_pos net) -> (n < 2 \/ In n (t_pis net)) \/ In n order).
  { intros n Hn. pose proof (nw_pos _ _ Hnet n Hn) as T. destruct (t_nodes net !! n) as [[b| |l ch]|] eqn:En; [| |right; exact T|destruct T].
    - left. left. eapply (nw_const _ _ Hnet), En.
    - left. right. apply (nw_pis _ _ Hnet), En. }
  split. { unfold cleanup_dangling. rewrite E. reflexivity. }
  split; [apply map_length|]. split; [exact Lg|]. split; [exact S|]. split; [exact G|]. split.
  { intros c Hc. apply in_map_iff in Hc as (n & <- & Hn). destruct (C n (Hd n Hn)) as (r & Er & Hr & _). unfold g_new. rewrite Er. exact Hr. }
  intros e vs. apply outputs_map. intros n b Hn. destruct (C n (Hd n Hn)) as (r & Er & _ & V). unfold g_new. rewrite Er. apply (V e e b eq_refl).
Qed.

Lemma xors_ok (Hx : forall a b, sem 12 [a; b] = Some (xorb a b)) dpis a : forall b nodes, length a = length b -> scoped nodes [] -> (forall c, In c a -> c < length nodes) -> (forall c, In c b -> c < length nodes) ->
  exists gs l, create_xors a b nodes = (nodes ++ gs, l) /\ length l = length a /\ length gs = length a /\ scoped (nodes ++ gs) [] /\ only_gates gs /\ (forall c, In c l -> c < length (nodes ++ gs)) /\
    forall e va vb, vals nodes dpis e a va -> vals nodes dpis e b vb -> vals (nodes ++ gs) dpis e l (zip_with xorb va vb).
Proof.
  induction a as [|x a IH]; intros [|y b] nodes Hl Hs Ha Hb; try discriminate Hl.
  - exists [], []. rewrite app_nil_r. cbn. split; [reflexivity|]. split; [reflexivity|]. split; [reflexivity|]. split; [exact Hs|]. split; [intros z []|]. split; [intros c []|]. intros e va vb A B. inversion A; subst. constructor.
  - cbn [create_xors]. pose proof (Ha x (or_introl eq_refl)) as Hxl. pose proof (Hb y (or_introl eq_refl)) as Hyl.
    assert (Hxy : forall c, In c [x; y] -> c < length nodes) by (intros c [<-|[<-|[]]]; assumption).
    assert (Hs1 : scoped (nodes ++ [TGate 12 [x; y]]) []) by (apply scoped_push; [exact Hs|exact Hxy]).
    destruct (IH b (nodes ++ [TGate 12 [x; y]])) as (gs & l & E & L & Lg & S & G & B & V).
    { cbn in Hl. lia. } { exact Hs1. } { intros c Hc. rewrite app_length. specialize (Ha c (or_intror Hc)). lia. } { intros c Hc. rewrite app_length. specialize (Hb c (or_intror Hc)). lia. }
    rewrite E. exists (TGate 12 [x; y] :: gs), (length nodes :: l). change (TGate 12 [x; y] :: gs) with ([TGate 12 [x; y]] ++ gs). rewrite (assoc_L app nodes).
    split; [reflexivity|]. split; [cbn; lia|]. split; [cbn; lia|]. split; [exact S|]. split; [apply only_gates_app; [|exact G]; intros z [<-|[]]; exists 12, [x; y]; split; [reflexivity|discriminate]|]. split.
    { intros c [<-|Hc]; [rewrite !app_length; cbn; lia|apply B, Hc]. }
    intros e va vb A B'. inversion A as [|? v ? va' Av Al]; subst. inversion B' as [|? w ? vb' Bw Bl]; subst. cbn [zip_with]. constructor.
    + apply value_more; [exact S|rewrite app_length; cbn; lia|]. apply (value_new sem e dpis nodes []); [exact Hs|exact Hxy|]. exists [v; w]. split; [constructor; [exact Av|constructor; [exact Bw|constructor]]|apply Hx].
    + apply V; (apply vals_more; [exact Hs1| |assumption]); [intros c Hc; apply Ha; right; exact Hc|intros c Hc; apply Hb; right; exact Hc].
Qed.
Lemma existsb_take_drop (vs : list bool) k : existsb (fun b => b) vs = orb (existsb (fun b => b) (take k vs)) (existsb (fun b => b) (drop k vs)).
Proof. rewrite <- existsb_app, take_drop. reflexivity. Qed.
Lemma or_ok (Hor : forall a b, sem 6 [a; b] = Some (orb a b)) dpis fuel : forall l nodes, length l <= fuel -> nodes !! 0 = Some (TConst false) -> scoped nodes [] -> (forall c, In c l -> c < length nodes) ->
  exists gs o, nary_or fuel l nodes = Some (nodes ++ gs, o) /\ scoped (nodes ++ gs) [] /\ only_gates gs /\ o < length (nodes ++ gs) /\ length gs = length l - 1 /\
    forall e vs, vals nodes dpis e l vs -> value sem (mkT (nodes ++ gs) dpis []) e o (existsb (fun b => b) vs).
Proof.
  induction fuel as [|fuel IH]; intros l nodes Hf H0 Hs Hl.
  - destruct l as [|a l]; [|cbn in Hf; lia]. exists [], 0. rewrite app_nil_r. cbn [nary_or]. split; [reflexivity|]. split; [exact Hs|]. split; [intros x []|]. split; [apply lookup_lt_Some in H0; exact H0|]. split; [reflexivity|].
    intros e vs F. inversion F; subst. apply value_const, H0.
  - destruct l as [|a [|b l]].
    + exists [], 0. rewrite app_nil_r. cbn [nary_or]. split; [reflexivity|]. split; [exact Hs|]. split; [intros x []|]. split; [apply lookup_lt_Some in H0; exact H0|]. split; [reflexivity|].
      intros e vs F. inversion F; subst. apply value_const, H0.
    + exists [], a. rewrite app_nil_r. cbn [nary_or]. split; [reflexivity|]. split; [exact Hs|]. split; [intros x []|]. split; [apply Hl; left; reflexivity|]. split; [reflexivity|].
      intros e vs F. inversion F as [|? v ? k Fv Fl]; subst. inversion Fl; subst. cbn [existsb]. rewrite orb_false_r. exact Fv.
    + remember (a :: b :: l) as L eqn:EL. assert (HL : 2 <= length L) by (subst; cbn; lia).
      assert (En : nary_or (S fuel) L nodes = match nary_or fuel (take (length L / 2) L) nodes with Some (n1, x) => match nary_or fuel (drop (length L / 2) L) n1 with Some (n2, y) => Some (n2 ++ [TGate 6 [x; y]], length n2) | None => None end | None => None end) by (subst L; reflexivity).
      rewrite En. clear En EL a b l. set (k := length L / 2). assert (Hk : 1 <= k /\ k < length L).
      { unfold k. split; [apply Nat.div_le_lower_bound; lia|apply Nat.div_lt; lia]. } clearbody k.
      destruct (IH (take k L) nodes) as (g1 & x & E1 & S1 & G1 & X & N1 & V1). { rewrite take_length. lia. } { exact H0. } { exact Hs. } { intros c Hc. apply Hl. rewrite <- (take_drop k L). apply in_or_app. left. exact Hc. }
      rewrite E1.
      assert (Hdrop : forall c, In c (drop k L) -> c < length nodes) by (intros c Hc; apply Hl; rewrite <- (take_drop k L); apply in_or_app; right; exact Hc).
      destruct (IH (drop k L) (nodes ++ g1)) as (g2 & y & E2 & S2 & G2 & Y & N2 & V2). { rewrite drop_length. lia. } { apply lookup_app_l_Some, H0. } { exact S1. } { intros c Hc. rewrite app_length. specialize (Hdrop c Hc). lia. }
      rewrite E2. exists (g1 ++ g2 ++ [TGate 6 [x; y]]), (length ((nodes ++ g1) ++ g2)). rewrite !(assoc_L app) in *.
      assert (Hxy : forall c, In c [x; y] -> c < length ((nodes ++ g1) ++ g2)) by (intros c [<-|[<-|[]]]; [rewrite app_length; lia|exact Y]).
      split; [reflexivity|]. split; [apply scoped_push; [exact S2|exact Hxy]|]. split; [apply only_gates_app; [apply only_gates_app; assumption|]; intros z [<-|[]]; exists 6, [x; y]; split; [reflexivity|discriminate]|]. split; [rewrite (app_length _ [_]); cbn; lia|].
      split. { rewrite !app_length, N1, N2, take_length, drop_length. cbn. lia. }
      intros e vs F. apply (value_new sem e dpis _ []); [exact S2|exact Hxy|]. rewrite (existsb_take_drop vs k). exists [existsb (fun b => b) (take k vs); existsb (fun b => b) (drop k vs)]. split; [|apply Hor].
      constructor; [|constructor; [|constructor]].
      * apply value_more; [exact S2|exact X|]. apply V1. apply Forall2_take, F.
      * apply V2. apply vals_more; [exact S1|exact Hdrop|]. apply Forall2_drop, F.
Qed.

Definition differ (va vb : list bool) : bool := if List.list_eq_dec Bool.bool_dec va vb then false else true.
Lemma differ_xor va : forall vb, length va = length vb -> existsb (fun b => b) (zip_with xorb va vb) = differ va vb.
Proof.
  unfold differ. induction va as [|x va IH]; intros [|y vb] H; try discriminate H; [reflexivity|]. cbn [zip_with existsb]. rewrite IH by (cbn in H; lia).
  destruct (List.list_eq_dec Bool.bool_dec va vb) as [E1|N], (List.list_eq_dec Bool.bool_dec (x :: va) (y :: vb)) as [E|N'].
  - injection E as -> _. rewrite xorb_nilpotent. reflexivity.
  - destruct x, y; try reflexivity; destruct N'; congruence.
  - destruct N. injection E as _ E. exact E.
  - apply orb_true_r.
Qed.
Lemma miter_ok (Hsem : xor_or sem) a oa b ob : network a oa -> network b ob -> length (t_pis a) = length (t_pis b) -> length (t_pos a) = length (t_pos b) ->
  exists gs o, miter a oa b ob = Some (Some (mkT (nodes0 (length (t_pis a)) ++ gs) (seq 2 (length (t_pis a))) [o])) /\
    scoped (nodes0 (length (t_pis a)) ++ gs) [o] /\ only_gates gs /\
    length gs = length oa + length ob + (length (t_pos a) + (length (t_pos a) - 1)) /\
    forall env va vb, outputs sem a env va -> outputs sem b env vb -> value sem (mkT (nodes0 (length (t_pis a)) ++ gs) (seq 2 (length (t_pis a))) []) env o (differ va vb).
Proof.
  intros Ha Hb Hpi Hpo. destruct Hsem as [Hx Hor]. set (p := length (t_pis a)).
  destruct (cleanup_ok a oa p [] Ha eq_refl ltac:(rewrite app_nil_r; apply nodes0_scoped)) as (g1 & pos1 & E1 & L1 & N1 & S1 & G1 & B1 & V1). cbn [app] in *. rewrite app_nil_r in E1.
  destruct (cleanup_ok b ob p g1 Hb (eq_sym Hpi) S1) as (g2 & pos2 & E2 & L2 & N2 & S2 & G2 & B2 & V2). rewrite (assoc_L app) in *.
  assert (B1' : forall c, In c pos1 -> c < length ((nodes0 p ++ g1) ++ g2)) by (intros c Hc; rewrite app_length; specialize (B1 c Hc); lia).
  destruct (xors_ok Hx (seq 2 p) pos1 pos2 _ ltac:(lia) S2 B1' B2) as (g3 & l & E3 & L3 & N3 & S3 & G3 & B3 & V3).
  destruct (or_ok Hor (seq 2 p) (length l) l (((nodes0 p ++ g1) ++ g2) ++ g3) (le_n _) eq_refl S3 B3) as (g4 & o & E4 & S4 & G4 & O & N4 & V4).
  exists (g1 ++ g2 ++ g3 ++ g4), o. rewrite !(assoc_L app) in *. split.
  { unfold miter. rewrite (proj2 (Nat.eqb_eq _ _) Hpi), (proj2 (Nat.eqb_eq _ _) Hpo). cbn [negb orb]. rewrite map_pi. fold p. change ([TConst false; TConst true] ++ repeat TPi p) with (nodes0 p). rewrite E1, E2, E3, E4. reflexivity. }
  split. { split; [apply S4|]. intros c [<-|[]]. exact O. }
  split; [repeat apply only_gates_app; assumption|]. split; [rewrite !app_length; lia|].
  intros env va vb Fa Fb. pose proof (Forall2_length _ _ _ Fa) as La. pose proof (Forall2_length _ _ _ Fb) as Lb. rewrite <- differ_xor by lia. apply V4. apply V3.
  - apply vals_more; [exact S2|exact B1|]. apply V1, Fa.
  - apply V2, Fb.
Qed.
End miter.

(** *** Substituted outputs *)
Lemma count_insert (l : list nat) k p q i : l !! k = Some p -> count_occ Nat.eq_dec (<[k := q]> l) i + (if Nat.eq_dec p i then 1 else 0) = count_occ Nat.eq_dec l i + (if Nat.eq_dec q i then 1 else 0).
Proof.
  revert k. induction l as [|a l IH]; intros k H; [rewrite lookup_nil in H; discriminate H|]. destruct k as [|k].
  - injection H as ->. cbn [insert list_insert count_occ]. destruct (Nat.eq_dec p i), (Nat.eq_dec q i); lia.
  - specialize (IH k H). change (<[S k := q]> (a :: l)) with (a :: <[k := q]> l). cbn [count_occ]. destruct (Nat.eq_dec a i); lia.
Qed.
Section subst.
Context (net : tnet) (Hs : scoped (t_nodes net) (t_pos net)).
(** Whether an output gets a buffer, decided in the given network. *)
Definition needs (p : nat) : bool := negb (is_buf net p) || is_fanout net p.
Record sub (k : nat) (net' : tnet) : Prop := mkSub {
  s_gs : exists gs, t_nodes net' = t_nodes net ++ gs /\ forall i x, gs !! i = Some x -> exists p, x = TGate 2 [p] /\ p < length (t_nodes net);
  s_pis : t_pis net' = t_pis net;
  s_len : length (t_pos net') = length (t_pos net);
  s_scoped : scoped (t_nodes net') (t_pos net');
  s_count : forall i, i < length (t_nodes net) -> fanout_size net' i = fanout_size net i;
  s_new : forall i, length (t_nodes net) <= i < length (t_nodes net') -> fanout_size net' i = 1;
  s_todo : forall j, k <= j -> t_pos net' !! j = t_pos net !! j;
  s_done : forall j p, j < k -> t_pos net !! j = Some p ->
    exists q, t_pos net' !! j = Some q /\ if needs p then length (t_nodes net) <= q /\ t_nodes net' !! q = Some (TGate 2 [p]) else q = p
}.
Lemma sub_0 : sub 0 net.
Proof using Hs.
  constructor; [exists []; split; [rewrite app_nil_r; reflexivity|]; intros i x H; rewrite lookup_nil in H; discriminate H|reflexivity|reflexivity|exact Hs|reflexivity|intros i H; lia|reflexivity|intros j p H; lia].
Qed.
Lemma sub_step k net' : k < length (t_pos net) -> sub k net' -> sub (S k) (substitute_po net' k).
Proof using Hs.
  intros Hk I. destruct (lookup_lt_is_Some_2 (t_pos net) k Hk) as (p & Hp). assert (Hp' : t_pos net' !! k = Some p) by (rewrite (s_todo _ _ I k (le_n _)); exact Hp).
  assert (Hpl : p < length (t_nodes net)) by (apply Hs; eapply elem_of_list_In, elem_of_list_lookup_2, Hp).
  destruct (s_gs _ _ I) as (gs & Eg & Hg).
  assert (Hbuf : is_buf net' p = is_buf net p) by (unfold is_buf; rewrite Eg, lookup_app_l by exact Hpl; reflexivity).
  assert (Hfan : is_fanout net' p = is_fanout net p) by (unfold is_fanout; rewrite Hbuf, (s_count _ _ I p Hpl); reflexivity).
  unfold substitute_po. rewrite Hp', Hbuf, Hfan. fold (needs p). destruct (needs p) eqn:En.
  - set (len := length (t_nodes net')). assert (Hlen : length (t_nodes net) <= len) by (unfold len; rewrite Eg, app_length; lia).
    assert (Hsz : forall i, fanout_size (mkT (t_nodes net' ++ [TGate 2 [p]]) (t_pis net') (<[k := len]> (t_pos net'))) i = fanout_size net' i + (if Nat.eq_dec len i then 1 else 0)).
    { intros i. unfold fanout_size. cbn [t_nodes t_pos]. rewrite fsize_push. cbn [t_children count_occ]. unfold fsize. pose proof (count_insert (t_pos net') k p len i Hp'). destruct (Nat.eq_dec p i), (Nat.eq_dec len i); lia. }
    constructor; cbn [t_nodes t_pis t_pos].
    + exists (gs ++ [TGate 2 [p]]). split; [rewrite Eg, (assoc_L app); reflexivity|]. intros i x Hx. apply lookup_app_Some in Hx as [Hx|[_ Hx]]; [eapply Hg, Hx|]. destruct (i - length gs) as [|z]; [injection Hx as <-|destruct z; discriminate Hx]. exists p. auto.
    + apply (s_pis _ _ I).
    + rewrite insert_length. apply (s_len _ _ I).
    + destruct (s_scoped _ _ I) as [A B]. assert (S1 : scoped (t_nodes net' ++ [TGate 2 [p]]) (t_pos net')) by (apply scoped_push; [exact (conj A B)|]; intros c [<-|[]]; lia).
      split; [apply S1|]. intros c Hc. apply elem_of_list_In, elem_of_list_lookup in Hc as (j & Hj). rewrite app_length. cbn [length].
      destruct (Nat.eq_dec j k) as [->|Hjk]; [rewrite list_lookup_insert in Hj by (rewrite (s_len _ _ I); exact Hk); injection Hj as <-; fold len; lia|]. rewrite list_lookup_insert_ne in Hj by congruence. assert (c < len) by (apply B; eapply elem_of_list_In, elem_of_list_lookup_2, Hj). fold len. lia.
    + intros i Hi. rewrite Hsz, (s_count _ _ I i Hi). destruct (Nat.eq_dec len i); [lia|lia].
    + intros i [H1 H2]. rewrite app_length in H2. cbn [length] in H2. fold len in H2. rewrite Hsz. destruct (Nat.eq_dec len i) as [<-|Hne].
      * unfold fanout_size. rewrite (fsize_fresh _ _ len (s_scoped _ _ I)) by (unfold len; lia). reflexivity.
      * rewrite (s_new _ _ I i) by (fold len; lia). reflexivity.
    + intros j Hj. rewrite list_lookup_insert_ne by lia. apply (s_todo _ _ I). lia.
    + intros j r Hj Hr. destruct (Nat.eq_dec j k) as [->|Hjk].
      * rewrite Hp in Hr. injection Hr as <-. exists len. split; [apply list_lookup_insert; rewrite (s_len _ _ I); exact Hk|]. rewrite En. split; [exact Hlen|]. rewrite lookup_app_r, Nat.sub_diag by (unfold len; lia). reflexivity.
      * destruct (s_done _ _ I j r ltac:(lia) Hr) as (q & Hq & K). exists q. split; [rewrite list_lookup_insert_ne by congruence; exact Hq|]. destruct (needs r); [|exact K]. destruct K as [K1 K2]. split; [exact K1|apply lookup_app_l_Some, K2].
  - destruct I as [I1 I2 I3 I4 I5 I6 I7 I8]. constructor; try assumption.
    + intros j Hj. apply I7. lia.
    + intros j r Hj Hr. destruct (Nat.eq_dec j k) as [->|Hjk]; [|apply I8; [lia|exact Hr]]. rewrite Hp in Hr. injection Hr as <-. exists p. rewrite En. auto.
Qed.
Lemma sub_all : sub (length (t_pos net)) (substitute_po_signals net).
Proof using Hs.
  unfold substitute_po_signals. assert (G : forall m k net', k + m = length (t_pos net) -> sub k net' -> sub (length (t_pos net)) (fold_left substitute_po (seq k m) net')).
  { induction m as [|m IH]; intros k net' E I; [replace (length (t_pos net)) with k by lia; exact I|]. cbn [seq fold_left]. apply IH; [lia|]. apply sub_step; [lia|exact I]. }
  apply (G _ 0); [reflexivity|apply sub_0].
Qed.
End subst.

(** *** Calls *)
Section calls.
Record called (l : list vcall) (vn : vnet) : Prop := mkCalled {
  c_nodes : length (t_nodes (v_net vn)) = 2 + calls_of makes_node l;
  c_shape : exists rest, t_nodes (v_net vn) = [TConst false; TConst true] ++ rest /\ forall x, In x rest -> x = TPi \/ exists lit ch, x = TGate lit ch /\ ch <> [];
  c_scoped : scoped (t_nodes (v_net vn)) (t_pos (v_net vn));
  c_pis : forall n, In n (t_pis (v_net vn)) <-> t_nodes (v_net vn) !! n = Some TPi;
  c_once : List.NoDup (t_pis (v_net vn));
  c_lt : forall n, In n (t_pis (v_net vn)) -> n < length (t_nodes (v_net vn));
  c_well : vwell vn;
  c_virtual : forall v r, In (v, r) (v_virtual vn) <-> exists k, l !! k = Some (CVirtual r) /\ v = created l k;
  c_count : length (v_virtual vn) = calls_of is_CVirtual l /\ length (t_pis (v_net vn)) = calls_of is_CPi l + calls_of is_CVirtual l
}.
Lemma calls_snoc p l c : calls_of p (l ++ [c]) = calls_of p l + (if p c then 1 else 0).
Proof. unfold calls_of. rewrite List.filter_app, app_length. cbn. destruct (p c); reflexivity. Qed.
Lemma created_old l c k : k < length l -> created (l ++ [c]) k = created l k.
Proof. intros H. unfold created. rewrite take_app_le by lia. reflexivity. Qed.
Lemma created_new l c : created (l ++ [c]) (length l) = 2 + calls_of makes_node l.
Proof. unfold created. rewrite take_app. reflexivity. Qed.
Lemma virtual_snoc l c v r : (exists k, (l ++ [c]) !! k = Some (CVirtual r) /\ v = created (l ++ [c]) k) <-> (exists k, l !! k = Some (CVirtual r) /\ v = created l k) \/ (c = CVirtual r /\ v = 2 + calls_of makes_node l).
Proof.
  split.
  - intros (k & Hk & ->). destruct (Nat.lt_ge_cases k (length l)) as [H|H].
    + left. exists k. rewrite lookup_app_l in Hk by exact H. rewrite created_old by exact H. auto.
    + right. rewrite lookup_app_r in Hk by exact H. destruct (k - length l) as [|z] eqn:E; [|destruct z; discriminate Hk]. replace k with (length l) by lia. injection Hk as ->. rewrite created_new. auto.
  - intros [(k & Hk & ->)|[-> ->]].
    + exists k. pose proof (lookup_lt_Some _ _ _ Hk) as H. rewrite lookup_app_l, created_old by exact H. auto.
    + exists (length l). rewrite created_new, lookup_app_r, Nat.sub_diag by lia. auto.
Qed.
Lemma shape_snoc (ns : list tnode) x : (exists rest, ns = [TConst false; TConst true] ++ rest /\ forall x, In x rest -> x = TPi \/ exists lit ch, x = TGate lit ch /\ ch <> []) ->
  (x = TPi \/ exists lit ch, x = TGate lit ch /\ ch <> []) -> exists rest, ns ++ [x] = [TConst false; TConst true] ++ rest /\ forall x, In x rest -> x = TPi \/ exists lit ch, x = TGate lit ch /\ ch <> [].
Proof. intros (rest & -> & H) Hx. exists (rest ++ [x]). split; [reflexivity|]. intros y Hy. apply in_app_or in Hy as [Hy|[<-|[]]]; auto. Qed.
Lemma pis_snoc (ns : list tnode) pis : (forall n, In n pis <-> ns !! n = Some TPi) -> forall n, In n (pis ++ [length ns]) <-> (ns ++ [TPi]) !! n = Some TPi.
Proof.
  intros H n. rewrite in_app_iff, H. split.
  - intros [E|[<-|[]]]; [apply lookup_app_l_Some, E|]. rewrite lookup_app_r, Nat.sub_diag by lia. reflexivity.
  - intros E. apply lookup_app_Some in E as [E|[Hl E]]; [left; exact E|right; left]. destruct (n - length ns) as [|z] eqn:D; [lia|destruct z; discriminate E].
Qed.
Lemma once_snoc (ns : list tnode) pis : (forall n, In n pis -> n < length ns) -> List.NoDup pis -> List.NoDup (pis ++ [length ns]).
Proof.
  intros H N. apply NoDup_ListNoDup, NoDup_app. split; [apply NoDup_ListNoDup, N|]. split; [|apply NoDup_ListNoDup; constructor; [intros []|constructor]]. intros x Hx E. apply elem_of_list_In in Hx, E. destruct E as [<-|[]]. specialize (H _ Hx). lia.
Qed.
Lemma call_ok l c vn vn' : called l vn -> v_call c vn = Some vn' -> called (l ++ [c]) vn'.
Proof.
  intros [N SH SC P O L W V K] H.
  assert (Hpi : forall pairs, (forall v r, In (v, r) pairs <-> exists k, (l ++ [c]) !! k = Some (CVirtual r) /\ v = created (l ++ [c]) k) ->
    makes_node c = true -> vwell (mkV (t_create_pi (v_net vn)) pairs) ->
    (length pairs = calls_of is_CVirtual (l ++ [c]) /\ S (length (t_pis (v_net vn))) = calls_of is_CPi (l ++ [c]) + calls_of is_CVirtual (l ++ [c])) -> called (l ++ [c]) (mkV (t_create_pi (v_net vn)) pairs)).
  { intros pairs Hv Hm Hw Hc. constructor; cbn [v_net v_virtual t_create_pi t_nodes t_pis t_pos].
    - rewrite app_length, calls_snoc, Hm. cbn [length]. lia.
    - apply shape_snoc; [exact SH|left; reflexivity].
    - apply scoped_push; [exact SC|intros x []].
    - apply pis_snoc, P.
    - apply once_snoc; assumption.
    - intros n Hn. rewrite app_length. cbn. apply in_app_or in Hn as [Hn|[<-|[]]]; [specialize (L n Hn)|]; lia.
    - exact Hw.
    - exact Hv.
    - rewrite app_length. cbn [length]. lia. }
  assert (Well : forall pis', (forall n, In n (t_pis (v_net vn)) -> In n pis') -> forall ns ps, vwell (mkV (mkT ns pis' ps) (v_virtual vn))).
  { intros pis' Hi ns ps. destruct W as [W1 W2]. constructor; [exact W1|]. intros v r Hr. destruct (W2 v r Hr) as (A & B & C). cbn. auto. }
  assert (Same : (forall r, c <> CVirtual r) -> forall v r, In (v, r) (v_virtual vn) <-> exists k, (l ++ [c]) !! k = Some (CVirtual r) /\ v = created (l ++ [c]) k).
  { intros Hc v r. rewrite virtual_snoc, V. split; [auto|]. intros [H'|[E _]]; [exact H'|destruct (Hc r E)]. }
  destruct c as [|r|lit ch|n]; cbn [v_call] in H.
  - injection H as <-. apply Hpi; [apply Same; discriminate|reflexivity| |].
    + apply Well. intros n Hn. apply in_or_app. left. exact Hn.
    + rewrite !calls_snoc. cbn. lia.
  - destruct (is_real_pi vn r) eqn:Er; [|discriminate H]. injection H as <-. unfold is_real_pi in Er. destruct (t_nodes (v_net vn) !! r) as [[b| |? ?]|] eqn:En; try discriminate Er. apply negb_true_iff in Er.
    assert (Hr : ~ In r (map fst (v_virtual vn))) by (intros Hr; apply virtual_iff in Hr; congruence). apply P in En. pose proof (L r En) as Hrl.
    apply Hpi; [|reflexivity| |].
    + intros v q. rewrite virtual_snoc, in_app_iff, V. split; (intros [H'|H']; [left; exact H'|right]); [destruct H' as [[= <- <-]|[]]; split; [reflexivity|exact N]|destruct H' as [[= ->] ->]; left; f_equal; exact N].
    + destruct W as [W1 W2]. constructor; cbn [v_virtual v_net t_create_pi t_pis].
      * rewrite map_app. cbn [map fst]. apply once_snoc; [|exact W1]. intros n Hn. apply in_map_iff in Hn as ([a b] & <- & Hab). destruct (W2 a b Hab) as (Ha & _). apply L, Ha.
      * intros v q Hq. apply in_app_or in Hq as [Hq|[[= <- <-]|[]]].
        { destruct (W2 v q Hq) as (A & B & C). split; [apply in_or_app; auto|]. split; [apply in_or_app; auto|]. rewrite map_app. intros Hi. apply in_app_or in Hi as [Hi|[Hi|[]]]; [auto|]. cbn in Hi. specialize (L q B). lia. }
        { split; [apply in_or_app; right; left; reflexivity|]. split; [apply in_or_app; left; exact En|]. rewrite map_app. intros Hi. apply in_app_or in Hi as [Hi|[Hi|[]]]; [auto|]. cbn in Hi. lia. }
    + rewrite app_length, !calls_snoc. cbn. lia.
  - destruct ch as [|c0 ch]; [discriminate H|]. remember (c0 :: ch) as ch' eqn:Ech. destruct (forallb _ ch') eqn:F; [|discriminate H]. injection H as <-. rewrite forallb_forall in F.
    constructor; cbn [v_net v_virtual t_push t_nodes t_pis t_pos].
    + rewrite app_length, calls_snoc. cbn. lia.
    + apply shape_snoc; [exact SH|]. right. exists lit, ch'. split; [reflexivity|subst; discriminate].
    + apply scoped_push; [exact SC|]. intros x Hx. cbn in Hx. specialize (F x Hx). apply Nat.ltb_lt in F. exact F.
    + intros n. rewrite P. split; [intros E; apply lookup_app_l_Some, E|]. intros E. apply lookup_app_Some in E as [E|[_ E]]; [exact E|]. destruct (n - _) as [|z]; [discriminate E|destruct z; discriminate E].
    + exact O.
    + intros n Hn. rewrite app_length. specialize (L n Hn). lia.
    + apply Well. auto.
    + apply Same. discriminate.
    + rewrite !calls_snoc. cbn. lia.
  - destruct (Nat.ltb n (length (t_nodes (v_net vn)))) eqn:F; [|discriminate H]. injection H as <-. apply Nat.ltb_lt in F.
    constructor; cbn [v_net v_virtual t_create_po t_nodes t_pis t_pos]; try assumption.
    + rewrite calls_snoc. cbn. lia.
    + apply scoped_po; assumption.
    + apply Well. auto.
    + apply Same. discriminate.
    + rewrite !calls_snoc. cbn. lia.
Qed.
Lemma called_0 : called [] v_new.
Proof.
  constructor; cbn.
  - reflexivity.
  - exists []. split; [reflexivity|intros x []].
  - split; [|intros c []]. intros i x c Hi Hc. destruct i as [|[|i]]; [injection Hi as <-; destruct Hc|injection Hi as <-; destruct Hc|discriminate Hi].
  - intros n. split; [intros []|]. intros E. destruct n as [|[|n]]; discriminate E.
  - constructor.
  - intros n [].
  - constructor; [constructor|intros v r []].
  - intros v r. split; [intros []|]. intros (k & Hk & _). rewrite lookup_nil in Hk. discriminate Hk.
  - auto.
Qed.
Lemma calls_ok l vn : v_calls l = Some vn -> called l vn.
Proof.
  unfold v_calls. assert (G : forall l done vn0, called done vn0 -> fold_o v_call l vn0 = Some vn -> called (done ++ l) vn).
  { induction l0 as [|c l0 IH]; intros done vn0 I E; [injection E as <-; rewrite app_nil_r; exact I|]. cbn [fold_o] in E. destruct (v_call c vn0) as [v1|] eqn:Ec; [|discriminate E].
    change (c :: l0) with ([c] ++ l0). rewrite (assoc_L app). eapply IH; [eapply call_ok; eassumption|exact E]. }
  intros E. apply (G l [] v_new called_0 E).
Qed.
(** The gates in the order of their creation. *)
Definition gates_of (net : tnet) : list nat := List.filter (fun n => match t_nodes net !! n with Some (TGate _ _) => true | _ => false end) (seq 0 (length (t_nodes net))).
Lemma gates_In net n : In n (gates_of net) <-> exists lit ch, t_nodes net !! n = Some (TGate lit ch).
Proof.
  unfold gates_of. rewrite filter_In, in_seq. destruct (t_nodes net !! n) as [[b| |l ch]|] eqn:E; (split; [intros [_ H]; try discriminate H; eauto|intros (l' & ch' & H); try discriminate H]).
  apply lookup_lt_Some in E. split; [lia|reflexivity].
Qed.
Lemma filter_before p n : forall c i, c < n -> p c = true -> p n = true -> List.filter p (seq 0 (S n)) !! i = Some n -> exists j, j < i /\ List.filter p (seq 0 (S n)) !! j = Some c.
Proof.
  intros c i Hc Pc Pn. rewrite seq_S, List.filter_app. cbn [Nat.add List.filter]. rewrite Pn. intros E.
  assert (Hin : In c (List.filter p (seq 0 n))) by (apply filter_In; split; [apply in_seq; lia|exact Pc]). apply elem_of_list_In, elem_of_list_lookup in Hin as (j & Hj). exists j. split; [|apply lookup_app_l_Some, Hj].
  apply lookup_app_Some in E as [E|[E _]]; [|apply lookup_lt_Some in Hj; lia]. apply elem_of_list_lookup_2, elem_of_list_In, filter_In in E as [E _]. apply in_seq in E. lia.
Qed.
Lemma called_network l vn : called l vn -> network (v_net vn) (gates_of (v_net vn)).
Proof.
  intros [N (rest & Er & Hr) [SC1 SC2] P O L W V K]. set (net := v_net vn) in *.
  constructor.
  - rewrite Er. reflexivity.
  - rewrite Er. reflexivity.
  - intros n b E. destruct (Nat.lt_ge_cases n 2) as [|H]; [assumption|]. rewrite Er, lookup_app_r in E by (cbn; lia). apply elem_of_list_lookup_2, elem_of_list_In, Hr in E as [E|(lit & ch & E & _)]; discriminate E.
  - exact P.
  - exact O.
  - apply List.NoDup_filter, List.seq_NoDup.
  - intros n Hn. apply gates_In in Hn as (lit & ch & E). exists lit, ch. split; [exact E|]. destruct (Nat.lt_ge_cases n 2) as [H|H]; [rewrite Er in E; destruct n as [|[|n]]; [discriminate E|discriminate E|lia]|].
    rewrite Er, lookup_app_r in E by (cbn; lia). apply elem_of_list_lookup_2, elem_of_list_In, Hr in E as [E|(lit' & ch' & E & Hne)]; [discriminate E|]. injection E as -> ->. exact Hne.
  - intros i n c Hi Hc. unfold t_fanins in Hc. destruct (t_nodes net !! n) as [x|] eqn:En; [|destruct Hc]. pose proof (SC1 n x c En Hc) as Lt. pose proof (lookup_lt_Some _ _ _ En) as Hn. destruct (lookup_lt_is_Some_2 (t_nodes net) c ltac:(lia)) as (y & Ec). rewrite Ec. destruct y as [b| |lit ch]; [exact Logic.I|exact Logic.I|].
    unfold gates_of in *. set (p := fun k => match t_nodes net !! k with Some (TGate _ _) => true | _ => false end) in *.
    assert (Pn : p n = true) by (apply elem_of_list_lookup_2, elem_of_list_In, filter_In in Hi as [_ H]; exact H). assert (Pc : p c = true) by (unfold p; rewrite Ec; reflexivity).
    replace (length (t_nodes net)) with (S n + (length (t_nodes net) - S n)) in * by lia. rewrite seq_app, List.filter_app in *.
    assert (Hi' : List.filter p (seq 0 (S n)) !! i = Some n). { apply lookup_app_Some in Hi as [Hi|[_ Hi]]; [exact Hi|]. apply elem_of_list_lookup_2, elem_of_list_In, filter_In in Hi as [Hi _]. apply in_seq in Hi. lia. }
    destruct (filter_before p n c i Lt Pc Pn Hi') as (j & Hj & Ej). exists j. split; [exact Hj|]. apply lookup_app_l_Some, Ej.
  - intros c Hc. specialize (SC2 c Hc). destruct (lookup_lt_is_Some_2 (t_nodes net) c SC2) as (y & Ec). rewrite Ec. destruct y as [b| |lit ch]; [exact Logic.I|exact Logic.I|]. apply gates_In. eauto.
Qed.
End calls.
