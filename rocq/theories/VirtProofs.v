(** Virtual inputs, miters and equivalence checking: proofs about copying. *)
From Coq Require Import ZArith Bool List Lia Permutation.
From stdpp Require Import gmap list.
From Verif Require Import FanoutModel FanoutSpec FanoutProofs VirtModel VirtSpec.
Import ListNotations.

Lemma map_opt_some {A} (l : list A) : map_opt Some l = Some l.
Proof. induction l as [|a l IH]; [reflexivity|]. cbn. rewrite IH. reflexivity. Qed.
Lemma map_opt_all {A B} (f : A -> option B) (g : A -> B) l : (forall a, In a l -> f a = Some (g a)) -> map_opt f l = Some (map g l).
Proof.
  induction l as [|a l IH]; intros H; [reflexivity|]. cbn. rewrite (H a (or_introl eq_refl)), IH; [reflexivity|]. intros b Hb. apply H. right. exact Hb.
Qed.
Lemma scoped_nil nodes pos : scoped nodes pos -> scoped nodes [].
Proof. intros [A _]. split; [exact A|intros c []]. Qed.
Lemma scoped_app nodes gs : scoped (nodes ++ gs) [] -> scoped nodes [].
Proof.
  intros [A _]. split; [|intros c []]. intros i x c Hi Hc. eapply A; [|exact Hc]. apply lookup_app_l_Some, Hi.
Qed.

Section values.
Context (sem : nat -> list bool -> option bool).
(** Values of old nodes stay when nodes are added. *)
Lemma value_more env pis nodes gs : scoped (nodes ++ gs) [] -> forall n b, n < length nodes ->
  value sem (mkT (nodes ++ gs) pis []) env n b <-> value sem (mkT nodes pis []) env n b.
Proof.
  revert nodes. induction gs as [|x gs IH]; intros nodes Hs n b Hn; [rewrite app_nil_r; reflexivity|].
  change (nodes ++ x :: gs) with (nodes ++ [x] ++ gs) in *. rewrite (assoc_L app nodes [x] gs) in *.
  rewrite IH; [|exact Hs|rewrite app_length; lia]. apply (value_old sem env pis nodes []); [|exact Hn]. apply scoped_app in Hs. apply scoped_app in Hs. exact Hs.
Qed.
(** A node has at most one value. *)
Lemma value_unique net env : scoped (t_nodes net) [] -> List.NoDup (t_pis net) -> forall n b b', value sem net env n b -> value sem net env n b' -> b = b'.
Proof.
  intros [A _] Hd n. induction n as [n IH] using lt_wf_ind. intros b b' H H'.
  destruct H as [n b E|n k E Ek|n lit ch vs b E F S].
  - inversion H' as [? ? E'|? ? E' ?|? ? ? ? ? E']; subst; congruence.
  - inversion H' as [? ? E'|? k' E' Ek'|? ? ? ? ? E']; subst; try congruence. f_equal. apply NoDup_ListNoDup in Hd. eapply NoDup_lookup; eassumption.
  - inversion H' as [? ? E'|? ? E' ?|? lit' ch' vs' ? E' F' S']; subst; try congruence. rewrite E in E'. injection E' as <- <-.
    enough (vs = vs') by congruence. assert (Hc : forall c, In c ch -> c < n) by (intros c Hc; exact (A n _ c E Hc)). clear E S S' H'.
    revert vs' F'. induction F as [|c v l l' Fc Fl IHl]; intros vs' F'; inversion F' as [|? v' ? l'' Fc' Fl']; subst; [reflexivity|]. f_equal.
    + exact (IH c (Hc c (or_introl eq_refl)) v v' Fc Fc').
    + apply IHl; [intros z Hz; apply Hc; right; exact Hz|exact Fl'].
Qed.
(** Only the values of the inputs matter. *)
Lemma value_env net env env' : (forall k n, t_pis net !! k = Some n -> env k = env' k) -> forall n b, value sem net env n b -> value sem net env' n b.
Proof.
  intros He. fix IH 3. intros n b H. destruct H as [n b E|n k E Ek|n lit ch vs b E F S].
  - apply value_const, E.
  - rewrite (He k n Ek). eapply value_input; eassumption.
  - eapply value_gate; [exact E| |exact S]. clear E S. induction F as [|c v l l' Fc _ IHl]; constructor; [apply IH, Fc|exact IHl].
Qed.
End values.

(** *** Copying the gates of a network *)
Section copy.
Context (sem : nat -> list bool -> option bool) (net : tnet) (order : list nat).
Context (Hnet : network net order).
Context (dpis : list nat) (R : (nat -> bool) -> (nat -> bool) -> Prop).
Context (remap : nat -> option nat) (g : nat -> nat).
(** Nodes [dom] of the source have copies with the same values. *)
Definition covers (nodes : list tnode) (m : gmap nat nat) (dom : nat -> Prop) : Prop :=
  forall n, dom n -> exists r, m !! n = Some r /\ r < length nodes /\
    forall e e' b, R e e' -> value sem (mkT nodes dpis []) e' r b <-> value sem net e n b.
Definition leaf (c : nat) : Prop := match t_nodes net !! c with Some (TGate _ _) => False | Some _ => True | None => False end.
Context (Hgate : forall c lit ch, t_nodes net !! c = Some (TGate lit ch) -> remap c = Some c /\ g c = c).
Context (Hleaf : forall c, leaf c -> remap c = Some (g c) /\ forall e e' b, R e e' -> value sem net e (g c) b <-> value sem net e c b).
Context (dom0 : nat -> Prop) (Hdom : forall c, leaf c -> dom0 (g c)) (Hdom0 : forall c, dom0 c -> leaf c).

Lemma covers_more nodes gs m dom : scoped (nodes ++ gs) [] -> covers nodes m dom -> covers (nodes ++ gs) m dom.
Proof using.
  intros Hs C n Hn. destruct (C n Hn) as (r & E & Hr & V). exists r. split; [exact E|]. split; [rewrite app_length; lia|]. intros e e' b He. rewrite value_more by assumption. apply V, He.
Qed.
Lemma copy_ok todo : forall done nodes m, order = done ++ todo -> scoped nodes [] -> covers nodes m (fun n => dom0 n \/ In n done) ->
  exists gs m', fold_o (copy_gate net remap) todo (nodes, m) = Some (nodes ++ gs, m') /\ length gs = length todo /\
    scoped (nodes ++ gs) [] /\ (forall x, In x gs -> exists lit ch, x = TGate lit ch /\ ch <> []) /\
    (forall n, ~ In n todo -> m' !! n = m !! n) /\
    covers (nodes ++ gs) m' (fun n => dom0 n \/ In n order).
Proof using Hnet Hgate Hleaf Hdom Hdom0.
  induction todo as [|n todo IH]; intros done nodes m Eo Hs C.
  - exists [], m. rewrite app_nil_r in *. subst order. split; [reflexivity|]. split; [reflexivity|]. split; [exact Hs|]. split; [intros x []|]. split; [reflexivity|exact C].
  - destruct (nw_gates _ _ Hnet n) as (lit & ch & En & Hne); [rewrite Eo; apply in_or_app; right; left; reflexivity|].
    assert (Hk : order !! length done = Some n) by (rewrite Eo, lookup_app_r, Nat.sub_diag by lia; reflexivity).
    assert (Hch : forall c, In c ch -> remap c = Some (g c) /\ (dom0 (g c) \/ In (g c) done) /\ forall e e' b, R e e' -> value sem net e (g c) b <-> value sem net e c b).
    { intros c Hc. pose proof (nw_topo _ _ Hnet _ _ c Hk) as T. unfold t_fanins in T. rewrite En in T. specialize (T Hc).
      destruct (t_nodes net !! c) as [[b| |l' ch']|] eqn:Ec; [| | |destruct T].
      - assert (L : leaf c) by (unfold leaf; rewrite Ec; exact Logic.I). destruct (Hleaf c L) as [H1 H2]. split; [exact H1|]. split; [left; apply Hdom, L|exact H2].
      - assert (L : leaf c) by (unfold leaf; rewrite Ec; exact Logic.I). destruct (Hleaf c L) as [H1 H2]. split; [exact H1|]. split; [left; apply Hdom, L|exact H2].
      - destruct (Hgate c l' ch' Ec) as [H1 H2]. rewrite H2. split; [exact H1|]. split; [|reflexivity]. right. destruct T as (j & Hj & Ej). rewrite Eo, lookup_app_l in Ej by lia. apply elem_of_list_In. eapply elem_of_list_lookup_2, Ej. }
    set (ch' := map (g_new m) (map g ch)).
    assert (Hch' : forall c, In c ch' -> c < length nodes).
    { intros c Hc. unfold ch' in Hc. rewrite map_map in Hc. apply in_map_iff in Hc as (a & <- & Ha). destruct (Hch a Ha) as (_ & Hd & _). destruct (C (g a) Hd) as (r & E & Hr & _). unfold g_new. rewrite E. exact Hr. }
    assert (Hs' : scoped (nodes ++ [TGate lit ch']) []) by (apply scoped_push; assumption).
    assert (Hnl : ~ In n done /\ ~ dom0 n).
    { split; [|intros H; apply Hdom0 in H; unfold leaf in H; rewrite En in H; exact H]. pose proof (nw_order _ _ Hnet) as N. rewrite Eo in N. apply List.NoDup_remove_2 in N. intros H. apply N, in_or_app. left. exact H. }
    assert (Hnew : covers (nodes ++ [TGate lit ch']) (<[n := length nodes]> m) (fun x => dom0 x \/ In x (done ++ [n]))).
    { intros x Hx. destruct (Nat.eq_dec x n) as [->|Hxn].
      - exists (length nodes). split; [apply lookup_insert|]. split; [rewrite app_length; cbn; lia|]. intros e e' b He. rewrite (value_new sem e' dpis nodes []) by assumption.
        assert (F : forall vs, Forall2 (value sem (mkT nodes dpis []) e') ch' vs <-> Forall2 (value sem net e) ch vs).
        { unfold ch'. clear - Hch C He. induction ch as [|c ch IHc]; intros vs; [split; intros F; inversion F; constructor|].
          specialize (IHc ltac:(intros z Hz; apply Hch; right; exact Hz)). destruct (Hch c (or_introl eq_refl)) as (_ & Hd & V). destruct (C (g c) Hd) as (r & E & _ & W).
          split; intros F; inversion F as [|? y ? l Fx Fl]; subst; (constructor; [|apply IHc, Fl]).
          - apply (V e e' y He), (W e e' y He). unfold g_new in Fx. rewrite E in Fx. exact Fx.
          - unfold g_new. rewrite E. apply (W e e' y He), (V e e' y He), Fx. }
        split.
        + intros (vs & Fv & S). eapply value_gate; [exact En|apply F, Fv|exact S].
        + intros V. inversion V as [? ? E|? ? E ?|? ? ? vs ? E Fv S]; subst; rewrite En in E; try discriminate E. injection E as <- <-. exists vs. split; [apply F, Fv|exact S].
      - destruct (C x) as (r & E & Hr & V).
        { destruct Hx as [Hx|Hx]; [left; exact Hx|]. apply in_app_or in Hx as [Hx|[Hx|[]]]; [right; exact Hx|congruence]. }
        exists r. split; [rewrite lookup_insert_ne by congruence; exact E|]. split; [rewrite app_length; lia|]. intros e e' b He. rewrite (value_old sem e' dpis nodes []) by assumption. apply V, He. }
    destruct (IH (done ++ [n]) (nodes ++ [TGate lit ch']) (<[n := length nodes]> m)) as (gs & m' & E & L & S & G & M & K).
    { rewrite Eo, <- (assoc_L app done [n] todo). reflexivity. } { exact Hs'. } { exact Hnew. }
    exists (TGate lit ch' :: gs), m'. change (TGate lit ch' :: gs) with ([TGate lit ch'] ++ gs). rewrite (assoc_L app nodes).
    split.
    { cbn [fold_o]. unfold copy_gate at 1. rewrite En. rewrite (map_opt_all remap g ch) by (intros a Ha; apply (Hch a Ha)). cbn [fst snd]. exact E. }
    split; [cbn; lia|]. split; [exact S|]. split.
    { intros x [<-|Hx]; [exists lit, ch'; split; [reflexivity|]|apply G, Hx]. unfold ch'. destruct ch; [contradiction|discriminate]. }
    split; [|exact K]. intros x Hx. rewrite M by (intros H; apply Hx; right; exact H). apply lookup_insert_ne. intros ->. apply Hx. left. reflexivity.
Qed.
End copy.
