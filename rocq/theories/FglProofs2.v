(** The topological order of the writer. *)
From Coq Require Import ZArith Bool String List Lia.
From stdpp Require Import gmap list.
From Verif Require Import CoordModel CoordSpec GridModel GridSpec CoordMap ClockModel GateModel GateSpec GateProofs FglModel.
From Coq Require Import List.
Import ListNotations.
Local Open Scope nat_scope.

(** The nodes on the tiles that data flows in from. *)
Definition preds (st : glayout) (n : nat) : list nat := map (get_node st) (foreach_fanin true st n).
Definition visit (f : nat) (st : glayout) (a : option (list nat)) (p : nat) : option (list nat) :=
  match a with Some l => topo_rec f st l p | None => None end.
Lemma fold_preds f st ss : forall a,
  fold_left (fun a s => match a with Some l => topo_rec f st l (get_node st s) | None => None end) ss a = fold_left (visit f st) (map (get_node st) ss) a.
Proof. induction ss as [|s r IH]; intros a; [reflexivity|]. cbn [map fold_left]. rewrite IH. reflexivity. Qed.
Lemma topo_rec_unfold f st acc n : topo_rec (S f) st acc n =
  if existsb (Nat.eqb n) acc then Some acc
  else match fold_left (visit f st) (preds st n) (Some acc) with Some l => Some (l ++ [n]) | None => None end.
Proof. cbn [topo_rec]. destruct (existsb (Nat.eqb n) acc); [reflexivity|]. rewrite fold_preds. reflexivity. Qed.
Lemma seen_iff n acc : existsb (Nat.eqb n) acc = true <-> In n acc.
Proof.
  rewrite existsb_exists. split; [intros (x & H & E); apply Nat.eqb_eq in E; subst; exact H|intros H; exists n; split; [exact H|apply Nat.eqb_refl]].
Qed.

(** All predecessors come before. *)
Inductive ordered (st : glayout) : list nat -> Prop :=
| ord_nil : ordered st []
| ord_snoc l x : ordered st l -> (forall m, In m (preds st x) -> In m l) -> ordered st (l ++ [x]).
Lemma ordered_closed st l : ordered st l -> forall x m, In x l -> In m (preds st x) -> In m l.
Proof.
  induction 1 as [|l x _ IH Hx]; intros y m Hy Hm; [destruct Hy|]. apply in_app_iff in Hy. apply in_app_iff. left.
  destruct Hy as [Hy|[<-|[]]]; [eapply IH; eauto|apply Hx, Hm].
Qed.
Lemma ordered_split st l : ordered st l -> forall l1 x l2, l = l1 ++ x :: l2 -> forall m, In m (preds st x) -> In m l1.
Proof.
  induction 1 as [|l y _ IH Hy]; intros l1 x l2 E m Hm; [destruct l1; discriminate|].
  destruct l2 as [|z l2 _] using rev_ind.
  - apply app_inj_tail in E. destruct E as [-> ->]. apply Hy, Hm.
  - change (x :: l2 ++ [z]) with ((x :: l2) ++ [z]) in E. rewrite app_assoc in E. apply app_inj_tail in E. destruct E as [E ->]. eapply IH; eauto.
Qed.

Section Order.
Variable st : glayout.
Variable rank : nat -> nat.
Variable N : nat.
Variable good : nat -> Prop.
Hypothesis Hrank : forall n m, good n -> In m (preds st n) -> rank m < rank n.
Hypothesis Hgood : forall n m, good n -> In m (preds st n) -> good m.
Hypothesis Hrange : forall n, good n -> n < N.
Definition is_pred (x : nat) : Prop := exists y, good y /\ In x (preds st y).

Record stage (acc l : list nat) (R : nat) : Prop := {
  sg_seg : exists seg, l = acc ++ seg /\ (forall x, In x seg -> is_pred x /\ rank x < R);
  sg_nodup : List.NoDup l;
  sg_ord : ordered st l
}.
Lemma stage_trans a b c R : stage a b R -> stage b c R -> stage a c R.
Proof.
  intros [(s1 & -> & P1) N1 O1] [(s2 & -> & P2) N2 O2]. split; [|assumption..]. exists (s1 ++ s2). split; [rewrite app_assoc; reflexivity|].
  intros x H. apply in_app_iff in H. destruct H; auto.
Qed.
Lemma NoDup_snoc (l : list nat) n : List.NoDup l -> ~ In n l -> List.NoDup (l ++ [n]).
Proof. intros H K. apply (Permutation.Permutation_NoDup (l := n :: l)); [apply Permutation.Permutation_cons_append|constructor; assumption]. Qed.

Lemma rec_ok fuel : forall acc n path, List.NoDup acc -> ordered st acc ->
  List.NoDup (n :: path) -> (forall x, In x (n :: path) -> good x) -> (forall x, In x path -> rank n < rank x) -> N <= fuel + length path ->
  exists l, topo_rec fuel st acc n = Some l /\
    (In n acc /\ l = acc \/ ~ In n acc /\ exists l0, l = l0 ++ [n] /\ stage acc l0 (rank n) /\ List.NoDup l /\ ordered st l).
Proof.
  induction fuel as [|fuel IH]; intros acc n path Na Oa Np Lp Rp Hf.
  - exfalso. assert (length (n :: path) <= length (seq 0 N)); [|rewrite seq_length in *; cbn in *; lia].
    apply NoDup_incl_length; [exact Np|]. intros x Hx. apply in_seq. specialize (Hrange x (Lp x Hx)). lia.
  - rewrite topo_rec_unfold. destruct (existsb (Nat.eqb n) acc) eqn:Es.
    { exists acc. split; [reflexivity|]. left. split; [apply seen_iff, Es|reflexivity]. }
    assert (Nn : ~ In n acc) by (rewrite <- seen_iff, Es; discriminate).
    assert (F : forall ps, (forall p, In p ps -> In p (preds st n)) -> forall acc0, List.NoDup acc0 -> ordered st acc0 ->
      exists l, fold_left (visit fuel st) ps (Some acc0) = Some l /\ stage acc0 l (rank n) /\ (forall p, In p ps -> In p l)).
    { induction ps as [|p ps IHps]; intros Hps acc0 N0 O0.
      - exists acc0. split; [reflexivity|]. split; [|intros ? []]. split; [|exact N0|exact O0]. exists []. split; [rewrite app_nil_r; reflexivity|intros ? []].
      - cbn [fold_left visit].
        assert (Hp : In p (preds st n)) by (apply Hps; left; reflexivity). pose proof (Lp n (or_introl eq_refl)) as Gn. pose proof (Hrank _ _ Gn Hp) as Rk.
        destruct (IH acc0 p (n :: path) N0 O0) as (l1 & E1 & C1).
        + constructor; [|exact Np]. intros K. destruct K as [->|K]; [lia|]. specialize (Rp p K). lia.
        + intros x [<-|Hx]; [exact (Hgood _ _ Gn Hp)|apply Lp, Hx].
        + intros x [<-|Hx]; [exact Rk|]. specialize (Rp x Hx). lia.
        + cbn [length]. lia.
        + rewrite E1.
          assert (ST : stage acc0 l1 (rank n) /\ In p l1).
          { destruct C1 as [[Hin ->]|(Hnin & l0 & -> & [(seg & -> & Ps) _ _] & N1 & O1)].
            - split; [|exact Hin]. split; [|exact N0|exact O0]. exists []. split; [rewrite app_nil_r; reflexivity|intros ? []].
            - split; [|apply in_app_iff; right; left; reflexivity]. split; [|exact N1|exact O1]. exists (seg ++ [p]). split; [rewrite app_assoc; reflexivity|].
              intros x Hx. apply in_app_iff in Hx. destruct Hx as [Hx|[<-|[]]]; [destruct (Ps x Hx); split; [assumption|lia]|]. split; [exists n; split; [exact Gn|exact Hp]|exact Rk]. }
          destruct ST as [ST Hpl].
          destruct (IHps (fun q Hq => Hps q (or_intror Hq)) l1 (sg_nodup _ _ _ ST) (sg_ord _ _ _ ST)) as (l2 & E2 & S2 & I2).
          exists l2. split; [exact E2|]. split; [eapply stage_trans; eauto|]. intros q [<-|Hq]; [|apply I2, Hq].
          destruct (sg_seg _ _ _ S2) as (seg & -> & _). apply in_app_iff. left. exact Hpl. }
    destruct (F (preds st n) (fun p H => H) acc Na Oa) as (l & El & Sl & Il). rewrite El. exists (l ++ [n]). split; [reflexivity|].
    right. split; [exact Nn|]. exists l. split; [reflexivity|]. split; [exact Sl|]. split.
    + apply NoDup_snoc; [apply Sl|]. destruct (sg_seg _ _ _ Sl) as (seg & -> & Ps). intros K. apply in_app_iff in K. destruct K as [K|K]; [exact (Nn K)|]. destruct (Ps n K). lia.
    + constructor; [apply Sl|exact Il].
Qed.

(** The cones of the outputs, one after the other. *)
Lemma outs_ok (outs : list nat) : forall acc, List.NoDup acc -> ordered st acc -> (forall p, In p outs -> good p) ->
  exists segs, fold_left (visit (S N) st) outs (Some acc) = Some (acc ++ concat segs) /\
    List.NoDup (acc ++ concat segs) /\ ordered st (acc ++ concat segs) /\
    Forall2 (fun p seg => In p (acc ++ concat segs) /\ (seg = [] \/ exists s, seg = s ++ [p] /\ forall x, In x s -> is_pred x)) outs segs /\
    ((forall p, In p outs -> ~ is_pred p /\ ~ In p acc) -> List.NoDup outs -> Forall2 (fun p seg => seg <> []) outs segs).
Proof.
  induction outs as [|p outs IH]; intros acc Na Oa L.
  - exists []. cbn [concat]. rewrite app_nil_r. repeat split; auto.
  - cbn [fold_left visit].
    destruct (rec_ok (S N) acc p [] Na Oa) as (l1 & E1 & C1).
    + constructor; [intros []|constructor].
    + intros x [<-|[]]. apply L. left. reflexivity.
    + intros x [].
    + cbn. lia.
    + rewrite E1. destruct C1 as [[Hin ->]|(Hnin & l0 & -> & [(seg & -> & Ps) _ _] & N1 & O1)].
      * destruct (IH acc Na Oa (fun q H => L q (or_intror H))) as (segs & E2 & N2 & O2 & F2 & G2). exists ([] :: segs). cbn [concat app].
        split; [exact E2|]. split; [exact N2|]. split; [exact O2|]. split.
        -- constructor; [split; [apply in_app_iff; left; exact Hin|left; reflexivity]|exact F2].
        -- intros K _. exfalso. apply (proj2 (K p (or_introl eq_refl))), Hin.
      * destruct (IH _ N1 O1 (fun q H => L q (or_intror H))) as (segs & E2 & N2 & O2 & F2 & G2). exists ((seg ++ [p]) :: segs). cbn [concat].
        rewrite <- !app_assoc in *. cbn [app] in *. split; [exact E2|]. split; [exact N2|]. split; [exact O2|]. split.
        -- constructor; [split|exact F2].
           ++ apply in_app_iff. right. apply in_app_iff. right. left. reflexivity.
           ++ right. exists seg. split; [reflexivity|]. intros x Hx. apply Ps, Hx.
        -- intros K ND. inversion ND as [|? ? Np NDr]; subst. constructor; [destruct seg; discriminate|].
           apply G2; [|exact NDr]. intros q Hq. destruct (K q (or_intror Hq)) as [K1 K2]. split; [exact K1|]. intros I1. apply in_app_iff in I1.
           destruct I1 as [I1|I1]; [exact (K2 I1)|]. apply in_app_iff in I1. destruct I1 as [I1|[<-|[]]]; [|exact (Np Hq)]. apply K1. apply (Ps q I1).
Qed.
End Order.
