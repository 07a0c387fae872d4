(** Proofs about network conversion. *)
From Coq Require Import Bool List Lia.
From stdpp Require Import gmap list.
From Verif Require Import FanoutModel FanoutSpec VirtModel ConvModel ConvSpec.
From Coq Require Import List.
Import ListNotations.

Section Conv.
Variable sem : nat -> list bool -> option bool.
Variable dst : dest.
Variable ok : dD dst -> Prop.
Variable valid : dD dst -> dS dst -> Prop.
Variable val : dD dst -> (nat -> bool) -> dS dst -> bool -> Prop.
Variable inputs : dD dst -> nat.
Variable outputs : dD dst -> list (dS dst).
Hypothesis L : lawful sem dst ok valid val inputs outputs.
Variable nf : bool.
Variable src : snet.
Variable order : list nat.
Hypothesis So : source sem src order.
Notation keep := (keeps dst ok valid val).
Notation mk := (made dst ok valid val inputs outputs).
Notation map' := (gmap nat (dS dst)).

Lemma keep_refl d : ok d -> keep d d.
Proof using. intros O. split; [exact O|]. split; intros; assumption. Qed.
Lemma keep_trans d1 d2 d3 : keep d1 d2 -> keep d2 d3 -> keep d1 d3.
Proof using. intros (O1 & V1 & E1) (O2 & V2 & E2). split; [exact O2|]. split; [intros s Hs; apply V2, V1, Hs|intros env s b H; apply E2, E1, H]. Qed.

(** The copy of a node. *)
Definition good (d : dD dst) (m : map') (n : nat) : Prop := valid d (conv dst m n) /\ forall env b, svalue sem src env n b -> val d env (conv dst m n) b.
Lemma good_keep d d' m n : keep d d' -> good d m n -> good d' m n.
Proof using. intros (_ & V & E) [A B]. split; [apply V, A|intros env b H; apply E, B, H]. Qed.
Lemma conv_same m n s : conv dst (<[n := s]> m) n = s.
Proof using. unfold conv. rewrite lookup_insert. reflexivity. Qed.
Lemma conv_other m n n' s : n' <> n -> conv dst (<[n := s]> m) n' = conv dst m n'.
Proof using. intros H. unfold conv. rewrite lookup_insert_ne by congruence. reflexivity. Qed.

Lemma edge_ok d m f : ok d -> good d m (fst f) -> let r := conv_edge dst m f d in
  keep d (fst r) /\ inputs (fst r) = inputs d /\ outputs (fst r) = outputs d /\ valid (fst r) (snd r) /\ forall env v, edge_value sem src env f v -> val (fst r) env (snd r) v.
Proof using L.
  intros O [V E]. unfold conv_edge. destruct f as [n c]. cbn [fst snd] in *. unfold edge_value. cbn [fst snd]. destruct c.
  - destruct (l_not _ _ _ _ _ _ _ L d (conv dst m n) O V) as (K & I & Ou & Va & F). split; [exact K|]. split; [exact I|]. split; [exact Ou|]. split; [exact Va|].
    intros env v H. cbn [xorb] in H. apply (F env [negb v] v); [constructor; [apply E; destruct v; exact H|constructor]|cbn; rewrite negb_involutive; reflexivity].
  - cbn [fst snd]. split; [apply keep_refl, O|]. split; [reflexivity|]. split; [reflexivity|]. split; [exact V|]. intros env v H. apply E. destruct v; exact H.
Qed.
Lemma gather_ok m fs : forall d acc, ok d -> (forall f, In f fs -> good d m (fst f)) ->
  exists d' cs, fold_left (fun a f => let r := conv_edge dst m f (fst a) in (fst r, snd a ++ [snd r])) fs (d, acc) = (d', acc ++ cs) /\
  keep d d' /\ inputs d' = inputs d /\ outputs d' = outputs d /\ length cs = length fs /\ (forall s, In s cs -> valid d' s) /\
  forall env vs, Forall2 (edge_value sem src env) fs vs -> Forall2 (val d' env) cs vs.
Proof using L.
  induction fs as [|f fs IH]; intros d acc O G.
  - exists d, []. rewrite app_nil_r. split; [reflexivity|]. split; [apply keep_refl, O|]. split; [reflexivity|]. split; [reflexivity|]. split; [reflexivity|]. split; [intros s []|]. intros env vs H. inversion H. constructor.
  - cbn [fold_left fst snd]. destruct (edge_ok d m f O (G f (or_introl eq_refl))) as (K & I & Ou & V & F). set (r := conv_edge dst m f d) in *.
    destruct (IH (fst r) (acc ++ [snd r])) as (d' & cs & E & K' & I' & O' & Ln & Va & Fa); [apply K|intros g Hg; apply (good_keep d), G; [exact K|right; exact Hg]|].
    exists d', (snd r :: cs). split; [etransitivity; [exact E|rewrite <- app_assoc; reflexivity]|]. split; [exact (keep_trans _ _ _ K K')|]. split; [congruence|]. split; [congruence|]. split; [cbn; congruence|].
    destruct K' as (Ok' & V' & E'). split; [intros s [<-|Hs]; [apply V', V|apply Va, Hs]|]. intros env vs H. inversion H as [|? v ? vs' Hv Hvs]; subst. constructor; [apply E', F, Hv|apply Fa, Hvs].
Qed.

(** What holds after the gates of [done]. *)
Definition known (done : list nat) (n : nat) : Prop := match s_nodes src !! n with Some (SGate _ _ _) => In n done | Some _ => True | None => False end.
Definition inv (done : list nat) (st : cstate dst) : Prop :=
  ok (fst st) /\ inputs (fst st) = length (s_pis src) /\ outputs (fst st) = [] /\ forall n, known done n -> good (fst st) (snd st) n.

Lemma set_ok done n k lit ch st d cs r f : inv done st -> s_nodes src !! n = Some (SGate k lit ch) -> ~ In n done -> keep (fst st) d -> inputs d = inputs (fst st) -> outputs d = outputs (fst st) ->
  length cs = length ch -> (forall env vs, Forall2 (edge_value sem src env) ch vs -> Forall2 (val d env) cs vs) ->
  mk d cs r f -> (forall vs, length vs = length ch -> sem lit vs = f vs) -> inv (done ++ [n]) (fst r, <[n := snd r]> (snd st)).
Proof using.
  intros (O & I & Ou & G) En Hn K Id Od Ln Fa (Km & Im & Om & Vm & Fm) Se. split; [apply Km|]. cbn [fst snd]. split; [congruence|]. split; [congruence|].
  intros x Hx. destruct (Nat.eq_dec x n) as [->|Ne].
  - unfold good. rewrite conv_same. split; [exact Vm|]. intros env b H. inversion H as [? ? E|? ? E|? k' lit' ch' vs ? E F S]; subst; rewrite En in E; try discriminate E. injection E as <- <- <-.
    apply (Fm env vs b); [apply Fa, F|]. rewrite <- Se; [exact S|]. symmetry. eapply Forall2_length, F.
  - assert (Kx : known done x). { unfold known in *. destruct (s_nodes src !! x) as [[b| |k' l' c']|]; try exact Hx. apply in_app_iff in Hx as [Hx|[Hx|[]]]; [exact Hx|congruence]. }
    unfold good. cbn [fst snd]. rewrite conv_other by exact Ne. exact (good_keep d _ _ _ Km (good_keep _ d _ _ K (G x Kx))).
Qed.
Lemma gate_ok done n rest st : order = done ++ n :: rest -> inv done st -> (forall k lit ch, s_nodes src !! n = Some (SGate k lit ch) -> supported dst nf k) ->
  exists st', conv_gate dst nf src n st = Some st' /\ inv (done ++ [n]) st'.
Proof using L So.
  intros Eo V Su. assert (Hin : In n order) by (rewrite Eo; apply in_app_iff; right; left; reflexivity).
  destruct (so_gates _ _ _ So n Hin) as (k & lit & ch & En & Nc & Tr). specialize (Su k lit ch En).
  assert (Hn : ~ In n done). { pose proof (so_order _ _ _ So) as N. rewrite Eo in N. apply NoDup_remove_2 in N. intros X. apply N, in_app_iff. left. exact X. }
  assert (At : order !! length done = Some n) by (rewrite Eo, lookup_app_r, Nat.sub_diag by lia; reflexivity).
  pose proof V as (O & I & Ou & G).
  destruct (gather_ok (snd st) ch (fst st) [] O) as (d & cs & E & K & Id & Od & Ln & Va & Fa).
  { intros f Hf. apply G. unfold known. pose proof (so_topo _ _ _ So (length done) n k lit ch f At En Hf) as T. destruct (s_nodes src !! fst f) as [[b| |k' l' c']|]; [exact Logic.I|exact Logic.I| |exact T].
    destruct T as (j & Lj & Ej). rewrite Eo, lookup_app_l in Ej by lia. apply elem_of_list_In, (elem_of_list_lookup_2 _ _ _ Ej). }
  assert (Od' : ok d) by apply K. cbn [app] in E. unfold conv_gate. rewrite En. unfold gather. rewrite E. cbn [fst snd].
  assert (Fin : forall r f, mk d cs r f -> (forall vs, length vs = length ch -> sem lit vs = f vs) -> exists st', Some (fst r, <[n := snd r]> (snd st)) = Some st' /\ inv (done ++ [n]) st').
  { intros r f M Se. eexists. split; [reflexivity|]. exact (set_ok done n k lit ch st d cs r f V En Hn K Id Od Ln Fa M Se). }
  assert (Ncs : cs <> []) by (intros ->; destruct ch; [apply Nc; reflexivity|discriminate Ln]).
  assert (Oth : nf = true /\ d_node dst <> None -> exists st', match d_node dst with Some f => if nf then Some (fst (f d cs lit), <[n := snd (f d cs lit)]> (snd st)) else Some (d, snd st) | None => Some (d, snd st) end = Some st' /\ inv (done ++ [n]) st').
  { intros [-> Nn]. destruct (d_node dst) as [f|] eqn:Ef; [|elim Nn; reflexivity]. apply (Fin (f d cs lit) (sem lit)); [|reflexivity]. exact (l_node _ _ _ _ _ _ _ L f d cs lit Ef Od' Ncs Va). }
  unfold supported in Su. destruct k; cbn [truthful] in Tr.
  - destruct Tr as [T2 T]. rewrite T2 in Ln. destruct cs as [|a [|b [|? ?]]]; try discriminate Ln. apply (Fin _ (f_two andb)); [|intros vs Hv; apply T; exact Hv]. apply (l_and _ _ _ _ _ _ _ L); [exact Od'|apply Va; left; reflexivity|apply Va; right; left; reflexivity].
  - destruct Tr as [T2 T]. rewrite T2 in Ln. destruct cs as [|a [|b [|? ?]]]; try discriminate Ln. apply (Fin _ (f_two orb)); [|intros vs Hv; apply T; exact Hv]. apply (l_or _ _ _ _ _ _ _ L); [exact Od'|apply Va; left; reflexivity|apply Va; right; left; reflexivity].
  - destruct Tr as [T2 T]. rewrite T2 in Ln. destruct cs as [|a [|b [|? ?]]]; try discriminate Ln. apply (Fin _ (f_two xorb)); [|intros vs Hv; apply T; exact Hv]. apply (l_xor _ _ _ _ _ _ _ L); [exact Od'|apply Va; left; reflexivity|apply Va; right; left; reflexivity].
  - destruct Tr as [T2 T]. rewrite T2 in Ln. destruct cs as [|a [|b [|c [|? ?]]]]; try discriminate Ln. apply (Fin _ f_maj); [|intros vs Hv; apply T; exact Hv]. apply (l_maj _ _ _ _ _ _ _ L); [exact Od'|apply Va; left; reflexivity|apply Va; right; left; reflexivity|apply Va; right; right; left; reflexivity].
  - destruct (d_nary_and dst) as [f|] eqn:Ef; [|apply Oth; destruct Su as [Su|Su]; [exact Su|elim Su; reflexivity]]. apply (Fin _ f_all); [exact (l_nary_and _ _ _ _ _ _ _ L f d cs Ef Od' Va)|exact Tr].
  - destruct (d_nary_or dst) as [f|] eqn:Ef; [|apply Oth; destruct Su as [Su|Su]; [exact Su|elim Su; reflexivity]]. apply (Fin _ f_any); [exact (l_nary_or _ _ _ _ _ _ _ L f d cs Ef Od' Va)|exact Tr].
  - destruct (d_nary_xor dst) as [f|] eqn:Ef; [|apply Oth; destruct Su as [Su|Su]; [exact Su|elim Su; reflexivity]]. apply (Fin _ f_odd); [exact (l_nary_xor _ _ _ _ _ _ _ L f d cs Ef Od' Va)|exact Tr].
  - destruct (d_buf dst) as [f|] eqn:Ef; [|apply Oth; destruct Su as [Su|Su]; [exact Su|elim Su; reflexivity]]. destruct Tr as [T2 T]. rewrite T2 in Ln. destruct cs as [|a [|? ?]]; try discriminate Ln. apply (Fin _ f_id); [|intros vs Hv; apply T; exact Hv]. apply (l_buf _ _ _ _ _ _ _ L f d a Ef Od'). apply Va. left. reflexivity.
  - apply Oth. destruct Su as [Su|[]]. exact Su.
Qed.
Lemma gates_ok rest : forall done st, order = done ++ rest -> inv done st -> (forall n k lit ch, In n order -> s_nodes src !! n = Some (SGate k lit ch) -> supported dst nf k) ->
  exists st', fold_o (conv_gate dst nf src) rest st = Some st' /\ inv order st'.
Proof using L So.
  induction rest as [|n rest IH]; intros done st Eo V Su.
  - exists st. split; [reflexivity|]. rewrite Eo, app_nil_r. exact V.
  - destruct (gate_ok done n rest st Eo V) as (st1 & E1 & V1); [intros k lit ch En; apply (Su n k lit ch); [rewrite Eo; apply in_app_iff; right; left; reflexivity|exact En]|].
    cbn [fold_o]. rewrite E1. apply (IH (done ++ [n])); [rewrite <- app_assoc; exact Eo|exact V1|exact Su].
Qed.

(** ** Start *)

Lemma pis_ok rest : forall p st, s_pis src = p ++ rest -> ok (fst st) -> inputs (fst st) = length p -> outputs (fst st) = [] ->
  (forall n, known [] n -> ~ In n rest -> good (fst st) (snd st) n) ->
  inv [] (fold_left (fun st n => let r := d_pi dst (fst st) in (fst r, <[n := snd r]> (snd st))) rest st).
Proof using L So.
  induction rest as [|n rest IH]; intros p st Ep O I Ou G.
  - cbn [fold_left]. split; [exact O|]. split; [rewrite Ep, app_nil_r; exact I|]. split; [exact Ou|]. intros n Hn. apply G; [exact Hn|intros []].
  - cbn [fold_left]. destruct (l_pi _ _ _ _ _ _ _ L (fst st) O) as (K & Ip & Op & Vp & Fp). set (r := d_pi dst (fst st)) in *.
    assert (At : s_pis src !! length p = Some n) by (rewrite Ep, lookup_app_r, Nat.sub_diag by lia; reflexivity).
    apply (IH (p ++ [n])); cbn [fst snd]; [rewrite <- app_assoc; exact Ep|apply K|rewrite Ip, I, app_length; cbn; lia|congruence|].
    intros x Hx Nx. destruct (Nat.eq_dec x n) as [->|Ne].
    + unfold good. rewrite conv_same. split; [exact Vp|]. intros env b H. assert (En : s_nodes src !! n = Some SPi) by (apply (so_pis _ _ _ So); rewrite Ep; apply in_app_iff; right; left; reflexivity).
      inversion H as [? ? E|? j E Ej|? k' lit' ch' vs ? E]; subst; rewrite En in E; try discriminate E. pose proof (so_pis_once _ _ _ So) as Nd. apply NoDup_ListNoDup in Nd. rewrite (NoDup_lookup _ _ _ _ Nd Ej At), <- I. apply Fp.
    + unfold good. rewrite conv_other by exact Ne. apply (good_keep (fst st)); [exact K|]. apply G; [exact Hx|]. intros [X|X]; [congruence|contradiction].
Qed.
Lemma start_ok : inv [] (conv_start dst src).
Proof using L So.
  unfold conv_start. destruct (l_new _ _ _ _ _ _ _ L) as (O & I & Ou). apply (pis_ok (s_pis src) []); [reflexivity|exact O|exact I|exact Ou|]. cbn [fst snd].
  intros n Hn Np. unfold known in Hn. destruct (s_nodes src !! n) as [[b| |k lit ch]|] eqn:En; [|elim Np; apply (so_pis _ _ _ So); exact En|destruct Hn|destruct Hn].
  assert (Sv : forall env b', svalue sem src env n b' -> b' = b) by (intros env b' H; inversion H as [? ? E|? ? E|? ? ? ? ? ? E]; subst; rewrite En in E; congruence).
  destruct (l_const _ _ _ _ _ _ _ L (d_new dst) b O) as [Vb Fb].
  assert (Cv : conv dst (if Nat.eqb (s_c1 src) (s_c0 src) then <[s_c0 src := d_const dst (d_new dst) false]> ∅ else <[s_c1 src := d_const dst (d_new dst) true]> (<[s_c0 src := d_const dst (d_new dst) false]> ∅)) n = d_const dst (d_new dst) b).
  { destruct (Nat.eqb_spec (s_c1 src) (s_c0 src)) as [Eq|Ne].
    - assert (X : n = s_c0 src) by (destruct (so_const _ _ _ So n b En); congruence). rewrite X in *. rewrite conv_same. rewrite (so_0 _ _ _ So) in En. congruence.
    - destruct (so_const _ _ _ So n b En) as [->| ->].
      + rewrite conv_other by congruence. rewrite conv_same. rewrite (so_0 _ _ _ So) in En. congruence.
      + rewrite conv_same. rewrite (so_1 _ _ _ So Ne) in En. congruence. }
  split.
  - rewrite Cv. exact Vb.
  - intros env b' H. rewrite Cv, (Sv env b' H). apply Fb.
Qed.

(** ** Outputs *)

Lemma pos_ok m fs : forall d, ok d -> (forall f, In f fs -> good d m (fst f)) ->
  exists ss, let d' := fold_left (conv_po dst m) fs d in ok d' /\ keep d d' /\ inputs d' = inputs d /\ outputs d' = outputs d ++ ss /\
  Forall2 (fun f s => forall env v, edge_value sem src env f v -> val d' env s v) fs ss.
Proof using L.
  induction fs as [|f fs IH]; intros d O G.
  - exists []. cbn. rewrite app_nil_r. split; [exact O|]. split; [apply keep_refl, O|]. split; [reflexivity|]. split; [reflexivity|constructor].
  - cbn [fold_left]. change (conv_po dst m d f) with (d_po dst (fst (conv_edge dst m f d)) (snd (conv_edge dst m f d))). destruct (edge_ok d m f O (G f (or_introl eq_refl))) as (K & I & Ou & V & F). set (r := conv_edge dst m f d) in *.
    destruct (l_po _ _ _ _ _ _ _ L (fst r) (snd r)) as (Kp & Ip & Op); [apply K|exact V|]. set (d1 := d_po dst (fst r) (snd r)) in *. pose proof (keep_trans _ _ _ K Kp) as K1.
    destruct (IH d1) as (ss & O' & K' & I' & Ou' & Fa); [apply Kp|intros g Hg; apply (good_keep d), G; [exact K1|right; exact Hg]|].
    exists (snd r :: ss). cbv zeta in *. split; [exact O'|]. split; [exact (keep_trans _ _ _ K1 K')|]. split; [congruence|]. split; [rewrite Ou', Op, Ou, <- app_assoc; reflexivity|].
    constructor; [|exact Fa]. intros env v H. apply K', Kp, F, H.
Qed.

Lemma convert_ok : (forall n k lit ch, In n order -> s_nodes src !! n = Some (SGate k lit ch) -> supported dst nf k) ->
  exists d, convert_network dst nf src order = Some d /\ ok d /\ inputs d = length (s_pis src) /\ Forall2 (fun f s => forall env v, edge_value sem src env f v -> val d env s v) (s_pos src) (outputs d).
Proof using L So.
  intros Su. destruct (gates_ok order [] (conv_start dst src) eq_refl start_ok Su) as (st & E & (O & I & Ou & G)). unfold convert_network. rewrite E.
  destruct (pos_ok (snd st) (s_pos src) (fst st) O) as (ss & O' & K' & I' & Ou' & Fa).
  { intros f Hf. apply G. exact (so_pos _ _ _ So f Hf). }
  cbv zeta in *. eexists. split; [reflexivity|]. split; [exact O'|]. split; [congruence|]. rewrite Ou', Ou. exact Fa.
Qed.
End Conv.
