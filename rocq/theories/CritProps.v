(** C103: state types and the critical temperature of gates. *)
From Coq Require Import ZArith QArith Qcanon Qround Bool List Sorted Permutation Lia.
From Verif Require Import CoordModel SidbModel SidbProofs ResultModel CritModel CritSpec CritProofs.
Import ListNotations.
Local Open Scope Z_scope.

Section Any.
Variable boltz : Qc -> nat -> Qc.
Variable L : Type.
Variable energy : L -> Qc.
Lemma head_lowest (est : energies) (lab : L -> bool) lays x r : Permutation est (map (fun l => (energy l, lab l)) lays) -> est = x :: r -> (forall y, In y est -> (fst x <= fst y)%Qc) -> lowest L energy lays (fst x).
Proof using.
  intros P E H. split.
  - assert (Hx : In x est) by (rewrite E; left; reflexivity). eapply Permutation_in in Hx; [|exact P]. apply in_map_iff in Hx as (l & <- & Hl). exists l. auto.
  - intros l Hl. apply (H (energy l, lab l)). eapply Permutation_in; [apply Permutation_sym, P|]. apply in_map_iff. exists l. auto.
Qed.
Lemma critical_ok (right : pattern L -> L -> Prop) (lab : pattern L -> L -> bool) conf mx (st : pattern L -> energies) ps :
  (forall p l, In p ps -> In l (p_results p) -> (lab p l = true <-> right p l)) -> (forall p, In p ps -> Permutation (st p) (map (fun l => (energy l, lab p l)) (p_results p))) ->
  (forall p x r y, In p ps -> st p = x :: r -> In y (st p) -> (fst x <= fst y)%Qc) ->
  exists ct, patterns boltz conf mx L st ps mx = Some ct /\ critical boltz L energy right conf mx ps ct.
Proof using.
  intros La Pe He.
  assert (Sa : forall p, In p ps -> safe L st p). { intros p Hp _ R E. specialize (Pe p Hp). rewrite E in Pe. apply Permutation_nil in Pe. destruct (p_results p); [apply R; reflexivity|discriminate Pe]. }
  assert (FW : forall p, In p ps -> (fine L st p <-> works L energy right p)).
  { intros p Hp. split.
    - intros (P & R & x & r & E & T). split; [exact P|]. apply (transparent_ok L energy (st p) (lab p) (p_results p) (fst x) (Pe p Hp)) in T as (l & Hl & M & A).
      exists (fst x), l. split; [eapply (head_lowest (st p) (lab p)); [apply Pe, Hp|exact E|intros y Hy; eapply He; eassumption]|]. split; [exact Hl|]. split; [exact M|]. apply La; assumption.
    - intros (P & e & l & Lo & Hl & M & A). split; [exact P|]. split; [intros R; rewrite R in Hl; destruct Hl|]. destruct (st p) as [|x r] eqn:E.
      + elim (Sa p Hp P); [intros R; rewrite R in Hl; destruct Hl|exact E].
      + exists x, r. split; [reflexivity|]. rewrite <- E. apply (transparent_ok L energy (st p) (lab p) (p_results p) (fst x) (Pe p Hp)). exists l. split; [exact Hl|]. split; [|apply La; assumption].
        rewrite M. f_equal. apply (lowest_unique L energy (p_results p)); [exact Lo|]. eapply (head_lowest (st p) (lab p)); [apply Pe, Hp|exact E|intros y Hy; eapply He; eassumption]. }
  assert (PO : forall p k q, In p ps -> probability boltz L energy right p k q -> q = occupation boltz (st p) k).
  { intros p k q Hp (e & w & Lo & W & ->). rewrite (occupation_ok L energy boltz (st p) (lab p) (p_results p) k e (Pe p Hp) Lo). apply f_equal2; [|reflexivity]. apply f_equal, f_equal. apply filter_ext_in. intros l Hl. apply eq_true_iff_eq. rewrite (W l Hl), negb_true_iff, <- not_true_iff_false, (La p l Hp Hl). reflexivity. }
  assert (OP : forall p k, In p ps -> works L energy right p -> probability boltz L energy right p k (occupation boltz (st p) k)).
  { intros p k Hp (_ & e & l & Lo & _). exists e, (fun l => negb (lab p l)). split; [exact Lo|]. split; [intros m Hm; rewrite negb_true_iff, <- not_true_iff_false, (La p m Hp Hm); reflexivity|]. apply occupation_ok; [apply Pe, Hp|exact Lo]. }
  assert (Dec : (exists p, In p ps /\ ~ fine L st p) \/ forall p, In p ps -> fine L st p).
  { assert (D1 : forall p, fine L st p \/ ~ fine L st p).
    { intros p. unfold fine. destruct (p_positive p); [right; intros [X _]; discriminate X|]. destruct (p_results p); [right; intros (_ & X & _); apply X; reflexivity|]. destruct (st p) as [|x r]; [right; intros (_ & _ & x & r & X & _); discriminate X|].
      destruct (transparent (x :: r) (fst x)) eqn:T; [left; split; [reflexivity|split; [discriminate|exists x, r; auto]]|right; intros (_ & _ & y & s & X & Y); injection X as <- <-; congruence]. }
    clear - D1. induction ps as [|p ps' IH]; [right; intros p []|]. destruct (D1 p) as [F|F]; [|left; exists p; split; [left; reflexivity|exact F]]. destruct IH as [(q & Hq & B)|A]; [left; exists q; split; [right; exact Hq|exact B]|right; intros q [<-|Hq]; [exact F|apply A, Hq]]. }
  destruct Dec as [B|A].
  - exists (Q2Qc 0). split; [apply pats_bad; assumption|]. split; [reflexivity|]. intros W. destruct B as (p & Hp & F). elim F. apply FW; [exact Hp|apply W, Hp].
  - destruct (pats_fine boltz conf mx L st ps A mx) as (r & E & R1 & R2 & R3); [split; [apply Qcle_refl|left; reflexivity]|]. exists r. split; [exact E|]. split; [intros (p & Hp & N); elim N; apply FW; [exact Hp|apply A, Hp]|]. intros W. split; [exact R1|]. split.
    + destruct R2 as [R2|(p & k & Hp & Hk & -> & O)]; [left; exact R2|]. right. exists k, p, (occupation boltz (st p) k). split; [exact Hk|]. split; [apply temp_grid|]. split; [exact Hp|]. split; [apply OP; [exact Hp|apply W, Hp]|exact O].
    + intros i p q Hi Hm Hp Pr O. rewrite <- temp_grid in *. eapply R3; [exact Hp|exact Hi|exact Hm|]. rewrite <- (PO p i q Hp Pr). exact O.
Qed.
Variable sign : L -> coord -> Z.
Lemma state_type_ok l : forall outs bits, length outs = length bits -> state_type L sign outs bits l = true <-> Forall2 (fun o b => sign l o <> 0 <-> b = true) outs bits.
Proof using.
  clear boltz energy.
  induction outs as [|o outs IH]; intros [|b bits] E; try discriminate E; cbn [state_type]; [split; [constructor|reflexivity]|]. injection E as E. specialize (IH bits E).
  destruct (Bool.eqb (negb (- sign l o =? 0)) b) eqn:X.
  - apply eqb_prop in X. split.
    + intros H. constructor; [|apply IH, H]. rewrite <- X, negb_true_iff, Z.eqb_neq. lia.
    + intros H. inversion H; subst. apply IH. assumption.
  - split; [discriminate|]. intros H. inversion H as [|? ? ? ? H1 _]; subst. exfalso. destruct (Z.eqb_spec (- sign l o) 0) as [Z|Z]; destruct b; cbn in X; try discriminate X; [assert (sign l o <> 0) by (apply H1; reflexivity); lia|]. assert (false = true) by (apply H1; lia). discriminate.
Qed.
Lemma near p : distributed L energy p -> forall l e, In l (p_results p) -> In e (p_dist p) -> (close (energy l) e = true <-> e = energy l).
Proof using.
  clear boltz sign.
  intros (_ & C & A) l e Hl He. apply C in He as (m & Hm & <-). rewrite close_lt. split; [intros H; symmetry; apply A; assumption|]. intros ->. apply qabs_lt. split; (unfold Qcminus; rewrite Qcplus_opp_r; reflexivity).
Qed.
End Any.

(** With kinks accepted, every charge distribution is listed once, with its energy and the type of its state, in ascending order of energies. *)
Theorem C103_states : forall sort L energy sign outs (p : pattern L), sorts sort -> distributed L energy p -> length outs = length (p_bits p) ->
  exists w, (forall l, w l = true <-> outputs_right L sign outs p l) /\
  Permutation (kinks_accepted L energy sign sort outs (p_bits p) (p_dist p) (p_results p)) (map (fun l => (energy l, w l)) (p_results p)) /\
  StronglySorted (fun a b => (fst a <= fst b)%Qc) (kinks_accepted L energy sign sort outs (p_bits p) (p_dist p) (p_results p)).
Proof.
  intros sort L energy sign outs p So D Le. exists (state_type L sign outs (p_bits p)). split; [intros l; apply state_type_ok, Le|]. unfold kinks_accepted. split; [|exact (proj2 (So _))].
  eapply perm_trans; [exact (proj1 (So _))|]. apply (listing L energy (state_type L sign outs (p_bits p))); [exact (proj1 D)|intros l Hl; apply (proj1 (proj2 D)); exists l; auto|apply near, D].
Qed.
Print Assumptions C103_states.

(** The critical temperature of a gate with kinks accepted is exact: 0 if a pattern does not work, otherwise the lowest temperature of the grid
    at which a wrong state is too probable, or the maximum. *)
Theorem C103_critical : forall sort boltz conf mx L energy sign outs (ps : list (pattern L)) num_cells, sorts sort -> (1 < num_cells)%nat ->
  (forall p, In p ps -> distributed L energy p /\ length outs = length (p_bits p)) ->
  exists ct, gate_based boltz conf mx L (fun p => kinks_accepted L energy sign sort outs (p_bits p) (p_dist p) (p_results p)) num_cells ps = Some ct /\
  critical boltz L energy (outputs_right L sign outs) conf mx ps ct.
Proof.
  intros sort boltz conf mx L energy sign outs ps nc So Hn H. unfold gate_based. destruct nc as [|[|nc]]; [lia|lia|]. cbn [Nat.eqb Nat.ltb Nat.leb].
  apply (critical_ok boltz L energy (outputs_right L sign outs) (fun p => state_type L sign outs (p_bits p))).
  - intros p l Hp _. apply state_type_ok, H, Hp.
  - intros p Hp. destruct (H p Hp) as [D Le]. unfold kinks_accepted. eapply perm_trans; [exact (proj1 (So _))|]. apply (listing L energy (state_type L sign outs (p_bits p))); [exact (proj1 D)|intros l Hl; apply (proj1 (proj2 D)); exists l; auto|apply near, D].
  - intros p x r y Hp E Hy. pose proof (proj2 (So (flat_map (fun e => flat_map (fun l => if close (energy l) e then [(e, state_type L sign outs (p_bits p) l)] else []) (p_results p)) (p_dist p)))) as S.
    unfold kinks_accepted in E, Hy. rewrite E in *. apply StronglySorted_inv in S as [_ S]. destruct Hy as [<-|Hy]; [apply Qcle_refl|]. rewrite Forall_forall in S. apply S, Hy.
Qed.
Print Assumptions C103_critical.

(** With kinks rejected this is shown for patterns all of whose states match the logic; C103_kinks_refuted shows that it fails for others. *)
Theorem C103_kinks_partial : forall boltz conf mx L energy (matches : pattern L -> L -> bool) (ps : list (pattern L)) num_cells, (1 < num_cells)%nat ->
  (forall p, In p ps -> distributed L energy p /\ StronglySorted Qclt (p_dist p) /\ forall l, In l (p_results p) -> matches p l = true) ->
  exists ct, gate_based boltz conf mx L (fun p => kinks_rejected L energy (matches p) (p_dist p) (p_results p)) num_cells ps = Some ct /\
  critical boltz L energy (fun p l => matches p l = true) conf mx ps ct.
Proof.
  intros boltz conf mx L energy matches ps nc Hn H. unfold gate_based. destruct nc as [|[|nc]]; [lia|lia|]. cbn [Nat.eqb Nat.ltb Nat.leb].
  assert (E : forall p, In p ps -> kinks_rejected L energy (matches p) (p_dist p) (p_results p) = flat_map (fun e => flat_map (fun l => if close (energy l) e then [(e, matches p l)] else []) (p_results p)) (p_dist p)).
  { intros p Hp. destruct (H p Hp) as (_ & _ & M). unfold kinks_rejected. apply flat_map_ext. intros e. clear - M. induction (p_results p) as [|l r IH]; [reflexivity|]. cbn [rejected_loop flat_map]. rewrite (M l (or_introl eq_refl)), IH; [destruct (close _ _); reflexivity|]. intros m Hm. apply M. right. exact Hm. }
  apply (critical_ok boltz L energy (fun p l => matches p l = true) matches).
  - reflexivity.
  - intros p Hp. rewrite E by exact Hp. destruct (H p Hp) as (D & _ & _). apply (listing L energy (matches p)); [exact (proj1 D)|intros l Hl; apply (proj1 (proj2 D)); exists l; auto|apply near, D].
  - intros p x r y Hp E' Hy. destruct (H p Hp) as (D & S & M). destruct (p_dist p) as [|e0 es] eqn:Ed; [discriminate E'|].
    assert (Fy : In (fst y) (e0 :: es)). { unfold kinks_rejected in Hy. apply in_flat_map in Hy as (e & He & Hy). assert (X : fst y = e). { clear - Hy. induction (p_results p) as [|l r' IH]; [destruct Hy|]. cbn in Hy. destruct (close _ _); [|apply IH, Hy]. destruct Hy as [<-|Hy]; [reflexivity|]. destruct (matches p l); [apply IH, Hy|destruct Hy as [<-|[]]; reflexivity]. } rewrite X. exact He. }
    assert (Fx : fst x = e0). { unfold kinks_rejected in E'. cbn [flat_map] in E'. assert (X : exists m, In m (p_results p) /\ close (energy m) e0 = true). { destruct (proj1 (proj1 (proj2 D) e0)) as (m & Hm & Em); [rewrite Ed; left; reflexivity|]. exists m. split; [exact Hm|]. apply (near L energy p D); [exact Hm|rewrite Ed; left; reflexivity|symmetry; exact Em]. }
      assert (Y : exists b s, rejected_loop L energy (matches p) e0 (p_results p) = (e0, b) :: s). { clear - X. destruct X as (m & Hm & C). induction (p_results p) as [|l r' IH]; [destruct Hm|]. cbn. destruct (close (energy l) e0) eqn:Cl; [eexists _, _; reflexivity|]. destruct Hm as [->|Hm]; [congruence|apply IH, Hm]. }
      destruct Y as (b & s & Y). rewrite Y in E'. injection E' as <- _. reflexivity. }
    rewrite Fx. destruct Fy as [<-|Fy]; [apply Qcle_refl|]. apply StronglySorted_inv in S as [_ S]. rewrite Forall_forall in S. apply Qclt_le_weak, S, Fy.
Qed.
Print Assumptions C103_kinks_partial.

(** For layouts without inputs and outputs, the critical temperature is the lowest temperature of the grid at which an excited state is too probable, or the maximum. *)
Theorem C103_layout : forall boltz conf mx L energy (lays : list L) dist, counted L energy lays dist -> lays <> [] -> critical_all boltz L energy conf mx lays (non_gate_based boltz conf mx (Some dist)).
Proof. intros boltz conf mx L energy lays dist. apply non_gate_ok. Qed.
Print Assumptions C103_layout.

(** ** Examples *)

Fixpoint ins (x : Qc * bool) (l : energies) : energies := match l with [] => [x] | y :: r => if qltb (fst y) (fst x) then y :: ins x r else x :: l end.
Definition isort (l : energies) : energies := fold_right ins [] l.
Lemma isort_sorts : sorts isort.
Proof.
  intros l. induction l as [|x l [P S]]; [split; constructor|]. cbn [isort fold_right]. fold (isort l). set (m := isort l) in *. clearbody m.
  assert (A : Permutation (ins x m) (x :: m)). { clear. induction m as [|y m IH]; [apply Permutation_refl|]. cbn. destruct (qltb _ _); [|apply Permutation_refl]. eapply perm_trans; [apply perm_skip, IH|apply perm_swap]. }
  split; [eapply perm_trans; [exact A|apply perm_skip, P]|]. clear P. induction S as [|y m S IH F]; [repeat constructor|]. cbn. destruct (qltb (fst y) (fst x)) eqn:E.
  - assert (A' : Permutation (ins x m) (x :: m)) by (clear; induction m as [|z m IH]; [apply Permutation_refl|]; cbn; destruct (qltb _ _); [|apply Permutation_refl]; eapply perm_trans; [apply perm_skip, IH|apply perm_swap]).
    constructor; [apply IH, A'|]. rewrite Forall_forall in *. intros z Hz. eapply Permutation_in in Hz; [|exact A']. destruct Hz as [<-|Hz]; [apply qltb_spec in E; apply Qclt_le_weak, E|apply F, Hz].
  - apply qltb_false in E. constructor; [constructor; assumption|]. constructor; [exact E|]. rewrite Forall_forall in *. intros z Hz. eapply Qcle_trans; [exact E|apply F, Hz].
Qed.
(** A buffer: two patterns, a right ground state and a wrong excited state each; the wrong states become more probable with the temperature. *)
Definition xl := (Qc * bool)%type.
Definition x_sign (l : xl) (_ : coord) : Z := if snd l then -1 else 0.
Definition x_boltz (d : Qc) (t : nat) : Qc := if qltb (Q2Qc 0) d then Q2Qc (Z.of_nat t # 1000) else Q2Qc 1.
Definition e0 : Qc := Q2Qc 0.
Definition e1 : Qc := Q2Qc (1 # 10).
Definition x_pats : list (pattern xl) := [mkPat false [(e1, true); (e0, false)] [e0; e1] [false]; mkPat false [(e0, true); (e1, false)] [e0; e1] [true]].
Definition x_out : coord := live 0 0 0.
Lemma e01 : e0 <> e1. Proof. intros E. apply (f_equal this) in E. discriminate E. Qed.
Example C103_nonvacuous : sorts isort /\ (forall p, In p x_pats -> distributed xl fst p /\ length [x_out] = length (p_bits p)) /\ (forall p, In p x_pats -> works xl fst (outputs_right xl x_sign [x_out]) p) /\
  option_map this (gate_based x_boltz (Q2Qc (99 # 100)) (Q2Qc 4) xl (fun p => kinks_accepted xl fst x_sign isort [x_out] (p_bits p) (p_dist p) (p_results p)) 2 x_pats) = Some (11 # 100)%Q.
Proof.
  split; [exact isort_sorts|]. split; [|split; [|vm_compute; reflexivity]].
  - intros p Hp. split; [|destruct Hp as [<-|[<-|[]]]; reflexivity].
    assert (R : p_dist p = [e0; e1] /\ forall l, In l (p_results p) -> fst l = e0 \/ fst l = e1). { destruct Hp as [<-|[<-|[]]]; (split; [reflexivity|]); intros l [<-|[<-|[]]]; cbn; auto. }
    destruct R as [R1 R2]. split; [|split].
    + rewrite R1. constructor; [intros [X|[]]; apply e01; symmetry; exact X|]. constructor; [intros []|constructor].
    + intros e. rewrite R1. split.
      * destruct Hp as [<-|[<-|[]]]; intros [<-|[<-|[]]]; [exists (e0, false)|exists (e1, true)|exists (e0, true)|exists (e1, false)]; (split; [cbn [In p_results]; auto|reflexivity]).
      * intros (l & Hl & <-). destruct (R2 l Hl) as [-> | ->]; cbn; auto.
    + intros l m Hl Hm. destruct (R2 l Hl) as [-> | ->], (R2 m Hm) as [-> | ->]; intros H; try reflexivity; exfalso; apply qltb_spec in H; vm_compute in H; discriminate H.
  - intros p [<-|[<-|[]]]; (split; [reflexivity|]); [exists e0, (e0, false)|exists e0, (e0, true)]; (split; [|split; [cbn; auto|split; [reflexivity|]]]).
    + split; [exists (e0, false); cbn; auto|]. intros l [<-|[<-|[]]]; cbn [fst]; apply qltb_false; vm_compute; reflexivity.
    + constructor; [|constructor]. cbn. split; [intros X; elim X; reflexivity|discriminate].
    + split; [exists (e0, true); cbn; auto|]. intros l [<-|[<-|[]]]; cbn [fst]; apply qltb_false; vm_compute; reflexivity.
    + constructor; [|constructor]. cbn. split; [reflexivity|discriminate].
Qed.

Example C103_layout_nonvacuous : counted xl fst [(e0, true); (e1, false); (e1, true)] [(e0, 1); (e1, 2)] /\
  this (non_gate_based x_boltz (Q2Qc (99 # 100)) (Q2Qc 4) (Some [(e0, 1); (e1, 2)])) = (3 # 50)%Q.
Proof.
  split; [|vm_compute; reflexivity]. split; [|split].
  - constructor; [repeat constructor|]. constructor; [|constructor]. apply qltb_spec. vm_compute. reflexivity.
  - intros e. split.
    + intros (n & [X|[X|[]]]); [exists (e0, true)|exists (e1, true)]; (split; [cbn [In]; auto|]); exact (f_equal fst X).
    + intros (l & [<-|[<-|[<-|[]]]] & <-); [exists 1|exists 2|exists 2]; cbn [In fst]; auto.
  - intros e n [X|[X|[]]]; injection X as <- <-; vm_compute; reflexivity.
Qed.

(** With kinks rejected, wrong states are listed as accepted too: a gate whose only state is wrong does not get the critical temperature 0. *)
Theorem C103_kinks_refuted : exists boltz conf mx (matches : pattern xl -> xl -> bool) ps ct,
  (forall p, In p ps -> distributed xl fst p /\ StronglySorted Qclt (p_dist p)) /\ (exists p, In p ps /\ ~ works xl fst (fun p l => matches p l = true) p) /\
  gate_based boltz conf mx xl (fun p => kinks_rejected xl fst (matches p) (p_dist p) (p_results p)) 2 ps = Some ct /\ ct <> Q2Qc 0.
Proof.
  set (pa := mkPat false [(e0, true)] [e0] [false] : pattern xl).
  assert (E : option_map this (gate_based x_boltz (Q2Qc (99 # 100)) (Q2Qc 4) xl (fun p => kinks_rejected xl fst (fun _ => false) (p_dist p) (p_results p)) 2 [pa]) = Some (1 # 100)%Q) by (vm_compute; reflexivity).
  destruct (gate_based x_boltz (Q2Qc (99 # 100)) (Q2Qc 4) xl (fun p => kinks_rejected xl fst (fun _ => false) (p_dist p) (p_results p)) 2 [pa]) as [ct|] eqn:G; [|discriminate E].
  exists x_boltz, (Q2Qc (99 # 100)), (Q2Qc 4), (fun _ _ => false), [pa], ct. split; [|split; [|split; [exact G|]]].
  - intros p [<-|[]]. split; [|repeat constructor]. split; [repeat constructor; intros []|]. split.
    + intros e. cbn. split; [intros [<-|[]]; exists (e0, true); auto|intros (l & [<-|[]] & <-); left; reflexivity].
    + intros l m [<-|[]] [<-|[]] _. reflexivity.
  - exists pa. split; [left; reflexivity|]. intros (_ & e & l & _ & _ & _ & X). discriminate X.
  - intros ->. cbn [option_map] in E. injection E as E. discriminate E.
Qed.
Print Assumptions C103_kinks_refuted.
