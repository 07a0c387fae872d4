(** C102: network conversion preserves inputs, outputs and functions. *)
From Coq Require Import Bool List Lia.
From stdpp Require Import gmap list.
From Verif Require Import FanoutModel FanoutSpec FanoutProofs VirtModel VirtProofs ConvModel ConvSpec ConvProofs.
From Coq Require Import List.
Import ListNotations.

(** ** Technology networks as a destination *)

Section Tech.
Variable sem : nat -> list bool -> option bool.
Hypothesis Hs : literals sem.
Definition t_ok (d : tnet) : Prop :=
  scoped (t_nodes d) [] /\ t_nodes d !! 0 = Some (TConst false) /\ t_nodes d !! 1 = Some (TConst true) /\ List.NoDup (t_pis d) /\ (forall p, In p (t_pis d) -> p < length (t_nodes d)).
Definition t_valid (d : tnet) (s : nat) : Prop := s < length (t_nodes d).
Definition t_val (d : tnet) (env : nat -> bool) (s : nat) (b : bool) : Prop := value sem d env s b.
Definition t_inputs (d : tnet) : nat := length (t_pis d).
Notation keep := (keeps tech_dest t_ok t_valid t_val).
Notation mk := (made tech_dest t_ok t_valid t_val t_inputs t_pos).

Lemma value_grow nodes pis pos xs ps pos' env : forall n b, value sem (mkT nodes pis pos) env n b -> value sem (mkT (nodes ++ xs) (pis ++ ps) pos') env n b.
Proof using.
  fix IH 3. intros n b H. destruct H as [n b E|n k E Ek|n lit ch vs b E F Se]; cbn [t_nodes t_pis] in *.
  - apply value_const. cbn [t_nodes]. apply lookup_app_l_Some, E.
  - apply value_input; cbn [t_nodes t_pis]; apply lookup_app_l_Some; assumption.
  - eapply value_gate; [cbn [t_nodes]; apply lookup_app_l_Some, E| |exact Se]. clear E Se. induction F as [|c v l l' Fc _ IHl]; constructor; [apply IH, Fc|exact IHl].
Qed.
Lemma create_ok d lit ch f : t_ok d -> (forall c, In c ch -> t_valid d c) -> (forall vs, length vs = length ch -> sem lit vs = f vs) -> mk d ch (t_create lit ch d) f.
Proof using.
  intros (Sc & C0 & C1 & N & P) V Se. unfold t_create, t_push, made, keeps, t_ok, t_valid, t_val, t_inputs. cbn [fst snd t_nodes t_pis t_pos].
  destruct d as [nodes pis pos]. cbn [t_nodes t_pis t_pos] in *. unfold t_valid in V. cbn [t_nodes] in V. split; [split; [split|split]|].
  - apply (scoped_push nodes []); [exact Sc|exact V].
  - split; [apply lookup_app_l_Some, C0|]. split; [apply lookup_app_l_Some, C1|]. split; [exact N|]. intros p Hp. rewrite app_length. specialize (P p Hp). lia.
  - intros s H. rewrite app_length. lia.
  - intros env s b H. pose proof (value_grow nodes pis pos [TGate lit ch] [] pos env s b H) as X. rewrite app_nil_r in X. exact X.
  - split; [reflexivity|]. split; [reflexivity|]. split; [rewrite app_length; cbn; lia|]. intros env vs b F E. eapply value_gate; [cbn [t_nodes]; rewrite lookup_app_r, Nat.sub_diag by lia; reflexivity| |rewrite Se; [exact E|symmetry; eapply Forall2_length, F]].
    eapply Forall2_impl; [exact F|]. intros c v H. pose proof (value_grow nodes pis pos [TGate lit ch] [] pos env c v H) as X. rewrite app_nil_r in X. exact X.
Qed.
Lemma const_val d env n c b : t_nodes d !! n = Some (TConst c) -> t_val d env n b -> b = c.
Proof using. intros E H. inversion H as [? ? E'|? ? E'|? ? ? ? ? E']; subst; congruence. Qed.
Lemma same_ok d ss s f : t_ok d -> t_valid d s -> (forall env vs b, Forall2 (t_val d env) ss vs -> f vs = Some b -> t_val d env s b) -> mk d ss (d, s) f.
Proof using. intros O V F. split; [|split; [reflexivity|split; [reflexivity|split; [exact V|exact F]]]]. split; [exact O|]. split; intros; assumption. Qed.

Lemma reduce_ok lit init op e : (forall a b, sem lit [a; b] = Some (op a b)) -> (forall a, op e a = a) -> (forall a, op a e = a) -> (forall a b c, op a (op b c) = op (op a b) c) ->
  (init = 0 /\ e = false) \/ (init = 1 /\ e = true) ->
  forall fuel l d, length l <= S fuel -> t_ok d -> (forall c, In c l -> t_valid d c) -> mk d l (t_reduce lit init fuel d l) (fun vs => Some (fold_right op e vs)).
Proof using.
  intros Se Le Re As Hi.
  assert (Ini : forall d, t_ok d -> t_valid d init /\ forall env, t_val d env init e).
  { intros d (_ & C0 & C1 & _). destruct Hi as [[-> ->]|[-> ->]]; (split; [eapply lookup_lt_Some; eassumption|intros env; apply value_const; assumption]). }
  assert (Nil : forall d fuel, t_ok d -> mk d [] (t_reduce lit init fuel d []) (fun vs => Some (fold_right op e vs))).
  { intros d fuel O. assert (E : t_reduce lit init fuel d [] = (d, init)) by (destruct fuel; reflexivity). rewrite E. destruct (Ini d O) as [A B]. apply same_ok; [exact O|exact A|]. intros env vs b F X. inversion F; subst. cbn in X. injection X as <-. apply B. }
  assert (One : forall d fuel a, t_ok d -> t_valid d a -> mk d [a] (t_reduce lit init fuel d [a]) (fun vs => Some (fold_right op e vs))).
  { intros d fuel a O V. assert (E : t_reduce lit init fuel d [a] = (d, a)) by (destruct fuel; reflexivity). rewrite E. apply same_ok; [exact O|exact V|]. intros env vs b F X. inversion F as [|? v ? vs' Fv Fl]; subst. inversion Fl; subst. cbn in X. injection X as <-. rewrite Re. exact Fv. }
  induction fuel as [|fuel IH]; intros l d Hl O V.
  - destruct l as [|a [|? ?]]; [apply Nil, O|apply One; [exact O|apply V; left; reflexivity]|cbn in Hl; lia].
  - destruct l as [|a [|b r]]; [apply Nil, O|apply One; [exact O|apply V; left; reflexivity]|]. set (l := a :: b :: r) in *.
    assert (E : t_reduce lit init (S fuel) d l = t_create lit [snd (t_reduce lit init fuel d (take (length l / 2) l)); snd (t_reduce lit init fuel (fst (t_reduce lit init fuel d (take (length l / 2) l))) (drop (length l / 2) l))]
       (fst (t_reduce lit init fuel (fst (t_reduce lit init fuel d (take (length l / 2) l))) (drop (length l / 2) l)))) by reflexivity. rewrite E. clear E.
    assert (L2 : 2 <= length l) by (subst l; cbn; lia). clearbody l. clear a b r. set (m := length l / 2) in *.
    assert (Hm : 1 <= m /\ m < length l) by (unfold m; split; [apply Nat.div_le_lower_bound; lia|apply Nat.div_lt; lia]).
    assert (Sp : forall c, In c (take m l) \/ In c (drop m l) -> In c l) by (intros c Hc; rewrite <- (take_drop m l); apply in_app_iff; exact Hc).
    destruct (IH (take m l) d) as ((O1 & V1 & K1) & I1 & Ou1 & Va1 & F1); [rewrite take_length; lia|exact O|intros c Hc; apply V, Sp; left; exact Hc|]. set (r1 := t_reduce lit init fuel d (take m l)) in *.
    destruct (IH (drop m l) (fst r1)) as ((O2 & V2 & K2) & I2 & Ou2 & Va2 & F2); [rewrite drop_length; lia|exact O1|intros c Hc; apply V1, V, Sp; right; exact Hc|]. set (r2 := t_reduce lit init fuel (fst r1) (drop m l)) in *.
    destruct (create_ok (fst r2) lit [snd r1; snd r2] (f_two op) O2) as ((O3 & V3 & K3) & I3 & Ou3 & Va3 & F3); [intros c [<-|[<-|[]]]; [apply V2, Va1|exact Va2]|intros [|x [|y [|? ?]]] Hv; try discriminate Hv; apply Se|].
    split; [split; [exact O3|split; [intros s Hs'; apply V3, V2, V1, Hs'|intros env s b H; apply K3, K2, K1, H]]|]. split; [etransitivity; [exact I3|etransitivity; [exact I2|exact I1]]|]. split; [etransitivity; [exact Ou3|etransitivity; [exact Ou2|exact Ou1]]|]. split; [exact Va3|].
    intros env vs b F X. rewrite <- (take_drop m l) in F. apply Forall2_app_inv_l in F as (v1 & v2 & Fa & Fb & ->). injection X as <-.
    assert (Fo : fold_right op e (v1 ++ v2) = op (fold_right op e v1) (fold_right op e v2)). { clear - Le As. induction v1 as [|x v1 IHv]; cbn; [rewrite Le; reflexivity|rewrite IHv, As; reflexivity]. }
    rewrite Fo. apply (F3 env [fold_right op e v1; fold_right op e v2]); [|reflexivity]. constructor; [|constructor; [|constructor]].
    + apply K2. apply (F1 env v1); [exact Fa|reflexivity].
    + apply (F2 env v2); [|reflexivity]. eapply Forall2_impl; [exact Fb|]. intros c v Hc. apply K1, Hc.
Qed.
Lemma made_ext d ss r f g : (forall vs, f vs = g vs) -> mk d ss r f -> mk d ss r g.
Proof using. intros E (A & B & C & D & F). split; [exact A|]. split; [exact B|]. split; [exact C|]. split; [exact D|]. intros env vs b H X. apply (F env vs b H). rewrite E. exact X. Qed.
Lemma not_ok d a : t_ok d -> t_valid d a -> mk d [a] (t_create_not d a) f_not.
Proof using Hs.
  intros O V. destruct Hs as (H1 & _). assert (Cr : mk d [a] (t_create 3 [a] d) f_not) by (apply create_ok; [exact O|intros c [<-|[]]; exact V|intros vs Hv; apply (H1 vs Hv)]).
  unfold t_create_not. destruct (t_nodes d !! a) as [[c| |lit ch]|] eqn:Ea; try exact Cr. clear Cr.
  pose proof O as (_ & C0 & C1 & _). apply same_ok; [exact O|destruct c; cbn; unfold t_valid; eapply lookup_lt_Some; eassumption|].
  intros env vs b F X. inversion F as [|? v ? vs' Fv Fl]; subst. inversion Fl; subst. cbn in X. injection X as <-. rewrite (const_val d env a c v Ea Fv). destruct c; cbn; apply value_const; assumption.
Qed.

Lemma tech_lawful : lawful sem tech_dest t_ok t_valid t_val t_inputs t_pos.
Proof using Hs.
  destruct Hs as (H1 & H2 & H3). split.
  - split; [|split; reflexivity]. cbn. unfold t_ok. cbn. split; [|split; [reflexivity|split; [reflexivity|split; [constructor|intros p []]]]]. split; [|intros c []]. intros [|[|i]] x c Hx Hc; cbn in Hx; [injection Hx as <-; destruct Hc|injection Hx as <-; destruct Hc|discriminate Hx].
  - intros d b (_ & C0 & C1 & _). cbn [d_const tech_dest]. destruct b; (split; [eapply lookup_lt_Some; eassumption|intros env; apply value_const; assumption]).
  - intros [nodes pis pos] (Sc & C0 & C1 & N & P). cbn [t_nodes t_pis t_pos] in *. cbv zeta. cbn [d_pi tech_dest fst snd]. unfold t_create_pi, keeps, t_ok, t_valid, t_val, t_inputs. cbn [fst snd t_nodes t_pis t_pos]. split; [split; [split|split]|].
    + apply (scoped_push nodes []); [exact Sc|intros c []].
    + split; [apply lookup_app_l_Some, C0|]. split; [apply lookup_app_l_Some, C1|]. split.
      * apply NoDup_ListNoDup, NoDup_app. split; [apply NoDup_ListNoDup, N|]. split; [intros x Hx X; apply elem_of_list_In in Hx; apply elem_of_list_singleton in X; subst x; specialize (P _ Hx); lia|apply NoDup_singleton].
      * intros p Hp. rewrite app_length. cbn. apply in_app_iff in Hp as [Hp|[<-|[]]]; [specialize (P p Hp); lia|lia].
    + intros s H. rewrite app_length. lia.
    + intros env s b H. exact (value_grow nodes pis pos [TPi] [length nodes] pos env s b H).
    + split; [rewrite app_length; cbn; lia|]. split; [reflexivity|]. split; [rewrite app_length; cbn; lia|]. intros env. apply value_input; cbn [t_nodes t_pis]; rewrite lookup_app_r, Nat.sub_diag by lia; reflexivity.
  - intros [nodes pis pos] s O V. cbn [d_po tech_dest]. unfold t_create_po, keeps, t_ok, t_valid, t_val, t_inputs in *. cbn [t_nodes t_pis t_pos] in *. split; [split; [exact O|split; [intros; assumption|]]|split; reflexivity].
    intros env n b H. pose proof (value_grow nodes pis pos [] [] (pos ++ [s]) env n b H) as X. rewrite !app_nil_r in X. exact X.
  - intros d a O V. exact (not_ok d a O V).
  - intros d a b O Va Vb. apply create_ok; [exact O|intros c [<-|[<-|[]]]; assumption|]. intros vs Hv. apply (H2 vs Hv).
  - intros d a b O Va Vb. apply create_ok; [exact O|intros c [<-|[<-|[]]]; assumption|]. intros vs Hv. apply (H2 vs Hv).
  - intros d a b O Va Vb. apply create_ok; [exact O|intros c [<-|[<-|[]]]; assumption|]. intros vs Hv. apply (H2 vs Hv).
  - intros d a b c O Va Vb Vc. apply create_ok; [exact O|intros x [<-|[<-|[<-|[]]]]; assumption|]. intros vs Hv. apply (H3 vs Hv).
  - intros f d ss E O V. injection E as <-. apply (made_ext d ss _ (fun vs => Some (fold_right andb true vs))); [intros vs; unfold f_all; apply f_equal; induction vs as [|v vs IH]; [reflexivity|cbn; rewrite IH; reflexivity]|].
    apply reduce_ok; [intros a b; apply (H2 [a; b] eq_refl)|reflexivity|intros []; reflexivity|intros [] [] []; reflexivity|right; split; reflexivity|lia|exact O|exact V].
  - intros f d ss E O V. injection E as <-. apply (made_ext d ss _ (fun vs => Some (fold_right orb false vs))); [intros vs; unfold f_any; apply f_equal; induction vs as [|v vs IH]; [reflexivity|cbn; rewrite IH; reflexivity]|].
    apply reduce_ok; [intros a b; apply (H2 [a; b] eq_refl)|reflexivity|intros []; reflexivity|intros [] [] []; reflexivity|left; split; reflexivity|lia|exact O|exact V].
  - intros f d ss E O V. injection E as <-. unfold f_odd.
    apply reduce_ok; [intros a b; apply (H2 [a; b] eq_refl)|intros []; reflexivity|intros []; reflexivity|intros [] [] []; reflexivity|left; split; reflexivity|lia|exact O|exact V].
  - intros f d a E O V. injection E as <-. apply create_ok; [exact O|intros c [<-|[]]; exact V|]. intros vs Hv. apply (H1 vs Hv).
  - intros f d ss lit E O Nn V. injection E as <-. apply create_ok; [exact O|exact V|reflexivity].
  - intros d env s b b' (Sc & _ & _ & N & _) X Y. exact (value_unique sem d env Sc N s b b' X Y).
Qed.
End Tech.

(** Conversion to any type of networks whose operations compute what they should succeeds on every source network whose gates the destination can build.
    The result has the same inputs and outputs, and each output has the value of the source's under every assignment, and no other. *)
Theorem C102_convert : forall sem dst ok valid val inputs outputs nf src order, lawful sem dst ok valid val inputs outputs -> source sem src order ->
  (forall n k lit ch, In n order -> s_nodes src !! n = Some (SGate k lit ch) -> supported dst nf k) ->
  exists d, convert_network dst nf src order = Some d /\ inputs d = length (s_pis src) /\ length (outputs d) = length (s_pos src) /\
  forall env i f s v, s_pos src !! i = Some f -> outputs d !! i = Some s -> edge_value sem src env f v -> forall b, val d env s b <-> b = v.
Proof.
  intros sem dst ok valid val inputs outputs nf src order L So Su. destruct (convert_ok sem dst ok valid val inputs outputs L nf src order So Su) as (d & E & O & I & F). exists d. split; [exact E|]. split; [exact I|]. split; [symmetry; eapply Forall2_length, F|].
  intros env i f s v Hf Hs Hv b. pose proof (Forall2_lookup_lr _ _ _ _ _ _ F Hf Hs env v Hv) as X. split; [intros Y; exact (l_once _ _ _ _ _ _ _ L d env s b v O Y X)|intros ->; exact X].
Qed.
Print Assumptions C102_convert.
(** Technology networks are such a type, and every source network can be converted to one. *)
Theorem C102_technology : forall sem src order, literals sem -> source sem src order ->
  exists net, convert_network tech_dest true src order = Some net /\ length (t_pis net) = length (s_pis src) /\ length (t_pos net) = length (s_pos src) /\
  forall env i f s v, s_pos src !! i = Some f -> t_pos net !! i = Some s -> edge_value sem src env f v -> forall b, value sem net env s b <-> b = v.
Proof.
  intros sem src order H So. apply (C102_convert sem tech_dest t_ok t_valid (t_val sem) t_inputs t_pos true src order (tech_lawful sem H) So). intros n k lit ch _ _. left. split; [reflexivity|discriminate].
Qed.
Print Assumptions C102_technology.

(** ** Examples *)

Definition tsem (lit : nat) (vs : list bool) : option bool :=
  match lit with 2 => f_id vs | 3 => f_not vs | 4 => f_two andb vs | 6 => f_two orb vs | 12 => f_two xorb vs | 14 => f_maj vs | 5 => f_two (fun a b => negb (a && b)) vs | _ => None end.
Lemma tsem_literals : literals tsem. Proof. split; [|split]; intros vs _; cbn; auto. Qed.
(** An and-inverter graph with one constant node: its outputs are the negated conjunction of an input and the complement of another, and the constant 1. *)
Definition aig : snet := mkS [SConst false; SPi; SPi; SGate KAnd 4 [(1, false); (2, true)]; SGate KAnd 4 [(3, true); (0, true)]] 0 0 [1; 2] [(4, true); (0, true)].
Lemma aig_source : source tsem aig [3; 4].
Proof.
  split.
  - reflexivity.
  - intros H. elim H. reflexivity.
  - intros n b H. do 5 (destruct n as [|n]; [first [discriminate H|left; reflexivity]|]). discriminate H.
  - intros n. cbn. split; [intros [<-|[<-|[]]]; reflexivity|intros H; do 5 (destruct n as [|n]; [first [discriminate H|tauto]|]); discriminate H].
  - repeat constructor; cbn; lia.
  - repeat constructor; cbn; lia.
  - intros n [<-|[<-|[]]]; eexists _, _, _; (split; [reflexivity|split; [discriminate|split; [reflexivity|intros vs _; reflexivity]]]).
  - intros i n k lit ch f Hi Hn Hf. destruct i as [|[|i]]; [injection Hi as <-|injection Hi as <-|discriminate Hi]; injection Hn as <- <- <-; destruct Hf as [<-|[<-|[]]]; cbn; try exact Logic.I. exists 0. split; [lia|reflexivity].
  - intros f [<-|[<-|[]]]; cbn; tauto.
Qed.
Example C102_nonvacuous : literals tsem /\ source tsem aig [3; 4] /\ (forall env, edge_value tsem aig env (4, true) (negb (negb (env 0 && negb (env 1)) && true))) /\
  convert_network tech_dest true aig [3; 4] = Some (mkT [TConst false; TConst true; TPi; TPi; TGate 3 [3]; TGate 4 [2; 4]; TGate 3 [5]; TGate 4 [6; 1]; TGate 3 [7]] [2; 3] [8; 1]).
Proof.
  split; [exact tsem_literals|]. split; [exact aig_source|]. split; [|vm_compute; reflexivity]. intros env. unfold edge_value. cbn [fst snd].
  assert (A3 : svalue tsem aig env 3 (env 0 && negb (env 1))).
  { apply (sv_gate _ _ _ 3 KAnd 4 [(1, false); (2, true)] [env 0; negb (env 1)]); [reflexivity| |reflexivity]. constructor; [|constructor; [|constructor]]; cbn [fst snd xorb].
    - destruct (env 0) eqn:E0; rewrite <- E0; apply (sv_input _ _ _ 1 0); reflexivity.
    - destruct (env 1) eqn:E1; cbn [negb]; rewrite <- E1; apply (sv_input _ _ _ 2 1); reflexivity. }
  assert (A4 : svalue tsem aig env 4 (negb (env 0 && negb (env 1)) && true)).
  { apply (sv_gate _ _ _ 4 KAnd 4 [(3, true); (0, true)] [negb (env 0 && negb (env 1)); true]); [reflexivity| |reflexivity]. constructor; [|constructor; [|constructor]]; cbn [fst snd xorb].
    - destruct (env 0 && negb (env 1)); exact A3.
    - apply sv_const. reflexivity. }
  destruct (negb (env 0 && negb (env 1)) && true); exact A4.
Qed.

(** A type of networks without create_node, such as and-inverter graphs. *)
Definition poor_dest : dest := mkDest tnet nat 0 (d_new tech_dest) (d_const tech_dest) (d_pi tech_dest) (d_po tech_dest) (d_not tech_dest) (d_and tech_dest) (d_or tech_dest) (d_xor tech_dest) (d_maj tech_dest) None None None None None.
Lemma poor_lawful : lawful tsem poor_dest t_ok t_valid (t_val tsem) t_inputs t_pos.
Proof.
  destruct (tech_lawful tsem tsem_literals) as [A1 A2 A3 A4 A5 A6 A7 A8 A9 _ _ _ _ _ B]. split; [exact A1|exact A2|exact A3|exact A4|exact A5|exact A6|exact A7|exact A8|exact A9|intros; discriminate|intros; discriminate|intros; discriminate|intros; discriminate|intros; discriminate|exact B].
Qed.
(** To such a type a gate that is none of the known ones is converted to the constant 0, without any error. *)
Theorem C102_unsupported_refuted : exists dst ok valid val inputs outputs src order d, lawful tsem dst ok valid val inputs outputs /\ source tsem src order /\
  convert_network dst true src order = Some d /\ exists env f s, s_pos src !! 0 = Some f /\ outputs d !! 0 = Some s /\ edge_value tsem src env f true /\ val d env s false.
Proof.
  exists poor_dest, t_ok, t_valid, (t_val tsem), t_inputs, t_pos, (mkS [SConst false; SConst true; SPi; SPi; SGate KOther 5 [(2, false); (3, false)]] 0 1 [2; 3] [(4, false)]), [4], (mkT [TConst false; TConst true; TPi; TPi] [2; 3] [0]).
  split; [exact poor_lawful|]. split.
  - split.
    + reflexivity.
    + reflexivity.
    + intros n b H. do 5 (destruct n as [|n]; [first [discriminate H|left; reflexivity|right; reflexivity]|]). discriminate H.
    + intros n. cbn. split; [intros [<-|[<-|[]]]; reflexivity|intros H; do 5 (destruct n as [|n]; [first [discriminate H|tauto]|]); discriminate H].
    + repeat constructor; cbn; lia.
    + repeat constructor; cbn; lia.
    + intros n [<-|[]]. eexists _, _, _. split; [reflexivity|split; [discriminate|exact Logic.I]].
    + intros i n k lit ch f Hi Hn Hf. destruct i as [|i]; [injection Hi as <-|discriminate Hi]. injection Hn as <- <- <-. destruct Hf as [<-|[<-|[]]]; exact Logic.I.
    + intros f [<-|[]]. cbn. tauto.
  - split; [vm_compute; reflexivity|]. exists (fun _ => false), (4, false), 0. split; [reflexivity|]. split; [reflexivity|]. split.
    + apply (sv_gate _ _ _ 4 KOther 5 [(2, false); (3, false)] [false; false]); [reflexivity| |reflexivity]. constructor; [|constructor; [|constructor]]; cbn [fst snd xorb]; [apply (sv_input _ _ (fun _ => false) 2 0)|apply (sv_input _ _ (fun _ => false) 3 1)]; reflexivity.
    + apply value_const. reflexivity.
Qed.
Print Assumptions C102_unsupported_refuted.
