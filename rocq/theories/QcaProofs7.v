(** Proofs about the QCA ONE gate library: signals within gates. *)
From Coq Require Import ZArith Lia Bool String List.
From stdpp Require Import gmap.
From Verif Require Import CoordModel CoordSpec CoordProofs GridModel GridSpec CoordMap ClockModel ClockSpec GateModel GateSpec GateProofs GateProofs2 GateProofs3
  CellModel CellSpec CellProofs CellProps RouteModel RouteSpec RouteProofs LibModel LibSpec LibProofs LibProofs2 LibProps QcaSpec QcaProofs QcaProofs2.
Import List ListNotations.
Local Open Scope Z_scope.

Definition thereb (g : gate) (q : Z * Z) : bool := negb (gcell g q =? 32).
Definition besideb (p q : Z * Z) : bool := Z.abs (fst p - fst q) + Z.abs (snd p - snd q) =? 1.
Definition diagb (p q : Z * Z) : bool := (Z.abs (fst p - fst q) =? 1) && (Z.abs (snd p - snd q) =? 1).
Definition spread (g : gate) (l : list (Z * Z)) : list (Z * Z) :=
  List.filter (fun q => thereb g q && (pos_in l q || existsb (besideb q) l)) all_cells.
Definition region (g : gate) (p : Z * Z) : list (Z * Z) := Nat.iter 9 (spread g) (List.filter (fun q => thereb g q && pos_in [p] q) all_cells).
Definition closed (g : gate) (l : list (Z * Z)) : bool := forallb (pos_in l) (spread g l).

Lemma there_iff g q : In q all_cells -> thereb g q = true <-> cell_there g q.
Proof.
  intros H. unfold thereb, cell_there, gcell. rewrite negb_true_iff, Z.eqb_neq. split; [|intros [_ K]; exact K]. intros K. split; [|exact K].
  unfold in_gate. cbn in H. repeat (destruct H as [<-|H]; [cbn; lia|]). destruct H.
Qed.
Lemma beside_iff p q : besideb p q = true <-> beside q p.
Proof. unfold besideb, beside. rewrite Z.eqb_eq. lia. Qed.
Lemma region_linked g p q : In q (region g p) -> linked g p q.
Proof.
  unfold region. intros H.
  assert (K : forall n q, In q (Nat.iter n (spread g) (List.filter (fun q => thereb g q && pos_in [p] q) all_cells)) -> linked g p q).
  { clear. induction n as [|n IH]; intros q H.
    - change (In q (List.filter (fun q => thereb g q && pos_in [p] q) all_cells)) in H. apply filter_In in H as [I H]. apply andb_prop in H as [H1 H2]. apply pos_in_iff in H2 as [<-|[]]. constructor. apply there_iff; assumption.
    - rewrite Nat.iter_succ in H. set (l := Nat.iter n _ _) in *. unfold spread in H. apply filter_In in H as [I H]. apply andb_prop in H as [H1 H2]. apply there_iff in H1; [|exact I].
      apply orb_prop in H2 as [H2|H2]; [apply IH, pos_in_iff, H2|]. apply existsb_exists in H2 as (r & Hr & B). apply beside_iff in B. eapply linked_on; [apply IH, Hr|exact H1|exact B]. }
  exact (K _ _ H).
Qed.
Lemma there_in g q : cell_there g q -> In q all_cells.
Proof. intros [G _]. destruct q as [x y]. apply cells_in, G. Qed.
Lemma linked_region g p q : closed g (region g p) = true -> pos_in (region g p) p = true -> linked g p q -> In q (region g p).
Proof.
  intros C P H. unfold closed in C. rewrite forallb_forall in C. induction H as [H|q r H IH T B]; [apply pos_in_iff, P|].
  apply pos_in_iff, C. unfold spread. apply filter_In. pose proof (there_in g r T) as I. split; [exact I|]. apply andb_true_intro. split; [apply there_iff; assumption|].
  apply orb_true_intro. right. apply existsb_exists. exists q. split; [exact IH|]. apply beside_iff, B.
Qed.

Definition conduct_ok (m : list (ports * gate)) : bool := forallb (fun e => forallb (fun p => forallb (fun q => pos_in (region (snd e) p) q) (out (fst e))) (inp (fst e))) m.
Definition invertb (g : gate) (p q : Z * Z) : bool :=
  closed g (region g p) && pos_in (region g p) p && negb (pos_in (region g p) q) && existsb (fun a => existsb (diagb a) (region g q)) (region g p).
Definition invert_ok (m : list (ports * gate)) : bool := forallb (fun e => forallb (fun p => forallb (fun q => invertb (snd e) p q) (out (fst e))) (inp (fst e))) m.
Lemma wire_conduct : conduct_ok WIRE_MAP = true. Proof. vm_compute. reflexivity. Qed.
Lemma fanout_conduct : conduct_ok FANOUT_MAP = true. Proof. vm_compute. reflexivity. Qed.
Lemma fanout3_conduct : conduct_ok [(mkP (map port sides) (map port sides), FAN_OUT_1_3)] = true. Proof. vm_compute. reflexivity. Qed.
Lemma inverter_invert : invert_ok INVERTER_MAP = true. Proof. vm_compute. reflexivity. Qed.
Lemma conduct_entry m k g p q : conduct_ok m = true -> In (k, g) m -> In p (inp k) -> In q (out k) -> linked g p q.
Proof.
  intros H I P Q. unfold conduct_ok in H. rewrite forallb_forall in H. specialize (H _ I). cbn [fst snd] in H. rewrite forallb_forall in H. specialize (H _ P). rewrite forallb_forall in H. specialize (H _ Q).
  apply region_linked, pos_in_iff, H.
Qed.
Lemma invertb_ok g p q : invertb g p q = true -> inverts g p q.
Proof.
  unfold invertb. intros H. apply andb_prop in H as [H HD]. apply andb_prop in H as [H HN]. apply andb_prop in H as [HC HP]. split.
  - intros K. apply (linked_region g p q HC HP) in K. apply pos_in_iff in K. rewrite K in HN. discriminate HN.
  - apply existsb_exists in HD as (a & Ha & HD). apply existsb_exists in HD as (b & Hb & D). unfold diagb in D. apply andb_prop in D as [D1 D2]. exists a, b.
    split; [apply region_linked, Ha|]. split; [apply region_linked, Hb|]. unfold diagonal. lia.
Qed.
Lemma invert_entry m k g p q : invert_ok m = true -> In (k, g) m -> In p (inp k) -> In q (out k) -> inverts g p q.
Proof.
  intros H I P Q. unfold invert_ok in H. rewrite forallb_forall in H. specialize (H _ I). cbn [fst snd] in H. rewrite forallb_forall in H. specialize (H _ P). rewrite forallb_forall in H. specialize (H _ Q).
  apply invertb_ok, H.
Qed.

Definition voterb (g : gate) : bool := (gcell g (2, 2) =? 120) && forallb (fun s => gcell g (arm_at s) =? 120) sides &&
  forallb (fun q => negb (thereb g q) || pos_in ((2, 2) :: map arm_at sides ++ map port_at sides) q) all_cells.
Lemma voterb_ok g : voterb g = true -> voter g.
Proof.
  unfold voterb. intros H. apply andb_prop in H as [H H3]. apply andb_prop in H as [H1 H2]. rewrite forallb_forall in H2, H3. split; [apply Z.eqb_eq, H1|]. split.
  - intros s. split; [apply Z.eqb_eq, (H2 s); destruct s; cbn; auto|]. destruct s; split; reflexivity.
  - intros q T. pose proof (there_in g q T) as I. specialize (H3 q I). apply (there_iff g q I) in T. rewrite T in H3. cbn [negb orb] in H3. apply pos_in_iff in H3 as [<-|H3]; [left; reflexivity|right].
    apply in_app_iff in H3 as [H3|H3]; apply in_map_iff in H3 as (s & <- & _); exists s; auto.
Qed.
(** Votes with a constant at the side that is not in use. *)
Definition vote_ok (const : Z) (m : list (ports * gate)) : bool :=
  forallb (fun e => voterb (snd e) && forallb (fun s => gcell (snd e) (port s) =? (if pos_in (inp (fst e) ++ out (fst e)) (port s) then 120 else const)) sides) m.
Lemma and_vote : vote_ok 48 CONJUNCTION_MAP = true. Proof. vm_compute. reflexivity. Qed.
Lemma or_vote : vote_ok 49 DISJUNCTION_MAP = true. Proof. vm_compute. reflexivity. Qed.

(** Wires pass the centre of their tile, where inputs and outputs are. *)
Definition centre_ok (m : list (ports * gate)) : bool :=
  forallb (fun e => forallb (fun s => negb (pos_in (inp (fst e) ++ out (fst e)) (port s)) || pos_in (region (snd e) (2, 2)) (port s)) sides) m.
Lemma wire_centre : centre_ok WIRE_MAP = true. Proof. vm_compute. reflexivity. Qed.

Section Tile.
Context (cl : clocked) (ops : list gop) (st : glayout) (L : laid_out cl ops st) (t : coord) (It : inb (cl_dim cl) t).

Lemma entry_sides m g : map_at m (determine_port_routing st t) = Some g ->
  exists k, In (k, g) m /\ (forall s, enters st t s -> In (port s) (inp k)) /\ (forall s, leaves st t s -> In (port s) (out k)) /\
    ((exists s, enters st t s) -> (exists s, leaves st t s) -> forall s, In (port s) (inp k ++ out k) -> used st t s).
Proof using L It.
  intros A. apply map_at_some in A as (k & I & I1 & I2). rewrite routing in I1, I2. exists k. split; [exact I|]. split; [|split].
  - intros s H. apply I1, rt_inp. left. exists s. split; [reflexivity|]. apply (iside_iff cl ops st L t It), H.
  - intros s H. apply I2, rt_out. left. exists s. split; [reflexivity|]. apply (oside_iff cl ops st L t It), H.
  - intros (a & Ea) (b & Eb) s H. apply in_app_iff in H as [H|H].
    + apply I1, rt_inp in H as [(s' & Ep & H)|[H _]].
      * apply port_inj in Ep. subst s'. left. apply (iside_iff cl ops st L t It), H.
      * exfalso. apply andb_prop in H as [_ H]. rewrite (enters_some cl ops st L t It a Ea) in H. discriminate H.
    + apply I2, rt_out in H as [(s' & Ep & H)|[H _]].
      * apply port_inj in Ep. subst s'. right. apply (oside_iff cl ops st L t It), H.
      * exfalso. apply andb_prop in H as [_ H]. rewrite (leaves_some cl ops st L t It b Eb) in H. discriminate H.
Qed.
Lemma conducts g a b : qca_one st t = Some g -> In (kind_of st t) [KWire; KFanout2; KFanout3] -> enters st t a -> leaves st t b -> linked g (port_at a) (port_at b).
Proof using L It.
  intros E K Ha Hb. rewrite setup_kind in E. destruct K as [K|[K|[K|[]]]]; rewrite <- K in E.
  - destruct (entry_sides _ _ E) as (k & I & E1 & E2 & _). exact (conduct_entry _ k g _ _ wire_conduct I (E1 a Ha) (E2 b Hb)).
  - destruct (entry_sides _ _ E) as (k & I & E1 & E2 & _). exact (conduct_entry _ k g _ _ fanout_conduct I (E1 a Ha) (E2 b Hb)).
  - injection E as <-. apply (conduct_entry _ (mkP (map port sides) (map port sides)) _ _ _ fanout3_conduct); [left; reflexivity| |]; cbn [inp out]; apply in_map_iff; [exists a|exists b]; (split; [reflexivity|]); [destruct a|destruct b]; cbn; auto.
Qed.
Lemma centre g s : qca_one st t = Some g -> kind_of st t = KWire -> used st t s -> linked g (2, 2) (port_at s).
Proof using L It.
  intros E K U. rewrite setup_kind, K in E. destruct (entry_sides _ _ E) as (k & I & E1 & E2 & _).
  assert (P : pos_in (inp k ++ out k) (port s) = true) by (apply pos_in_iff, in_or_app; destruct U as [U|U]; [left; apply E1, U|right; apply E2, U]).
  pose proof wire_centre as H. unfold centre_ok in H. rewrite forallb_forall in H. specialize (H _ I). cbn [fst snd] in H. rewrite forallb_forall in H.
  specialize (H s ltac:(destruct s; cbn; auto)). rewrite P in H. apply region_linked, pos_in_iff, H.
Qed.
Lemma inversion_ g a b : qca_one st t = Some g -> kind_of st t = KInverter -> enters st t a -> leaves st t b -> inverts g (port_at a) (port_at b).
Proof using L It.
  intros E K Ha Hb. rewrite setup_kind, K in E. destruct (entry_sides _ _ E) as (k & I & E1 & E2 & _). exact (invert_entry _ k g _ _ inverter_invert I (E1 a Ha) (E2 b Hb)).
Qed.
Lemma votes c m g : vote_ok c m = true -> map_at m (determine_port_routing st t) = Some g -> (exists s, enters st t s) -> (exists s, leaves st t s) ->
  voter g /\ forall s, (used st t s -> shows g (port_at s) 120) /\ (~ used st t s -> shows g (port_at s) c).
Proof using L It.
  intros V E Ha Hb. destruct (entry_sides _ _ E) as (k & I & E1 & E2 & E3). specialize (E3 Ha Hb). unfold vote_ok in V. rewrite forallb_forall in V. specialize (V _ I). cbn [fst snd] in V.
  apply andb_prop in V as [V1 V2]. split; [apply voterb_ok, V1|]. rewrite forallb_forall in V2. intros s. specialize (V2 s). apply Z.eqb_eq in V2; [|destruct s; cbn; auto].
  split.
  - intros Us. replace (pos_in (inp k ++ out k) (port s)) with true in V2; [exact V2|]. symmetry. apply pos_in_iff, in_app_iff. destruct Us as [Us|Us]; [left; apply E1, Us|right; apply E2, Us].
  - intros Us. replace (pos_in (inp k ++ out k) (port s)) with false in V2; [exact V2|]. symmetry. apply not_true_iff_false. rewrite pos_in_iff. intros H. apply Us, E3, H.
Qed.
End Tile.
