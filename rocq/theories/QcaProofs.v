(** Proofs about the QCA ONE gate library: rotations and gates. *)
From Coq Require Import ZArith Lia Bool String List.
From stdpp Require Import gmap.
From Verif Require Import CoordModel CoordSpec CoordProofs GridModel GridSpec CoordMap ClockModel ClockSpec GateModel GateSpec GateProofs GateProofs2 GateProofs3
  CellModel CellSpec CellProofs CellProps RouteModel RouteSpec RouteProofs LibModel LibSpec LibProofs LibProofs2 LibProps QcaSpec.
Import List ListNotations.
Local Open Scope Z_scope.

(** ** Rotations *)
Lemma nth_map_seq {A} (f : nat -> A) n i d : (i < n)%nat -> nth i (map f (seq 0 n)) d = f i.
Proof. intros H. rewrite (nth_indep _ d (f 0%nat)) by (rewrite map_length, seq_length; exact H). rewrite map_nth, seq_nth by exact H. reflexivity. Qed.
Lemma transpose_square n g : square n (transpose 32 n g).
Proof.
  split; [unfold transpose; rewrite map_length, seq_length; reflexivity|]. intros r H. apply in_map_iff in H as (y & <- & _). rewrite map_length, seq_length. reflexivity.
Qed.
Lemma transpose_at n g x y : (x < n)%nat -> (y < n)%nat -> cell_at 32 (transpose 32 n g) x y = cell_at 32 g y x.
Proof. intros X Y. unfold cell_at at 1, transpose. rewrite nth_map_seq by exact Y. rewrite nth_map_seq by exact X. reflexivity. Qed.
Lemma revc_square n g : square n g -> square n (reverse_columns g).
Proof. intros [A B]. split; [unfold reverse_columns; rewrite map_length; exact A|]. intros r H. apply in_map_iff in H as (y & <- & H). rewrite rev_length. apply B, H. Qed.
Lemma revc_at n g x y : square n g -> (x < n)%nat -> (y < n)%nat -> cell_at 32 (reverse_columns g) x y = cell_at 32 g (n - 1 - x) y.
Proof.
  intros [A B] X Y. unfold cell_at, reverse_columns. change (@nil Z) with (rev (@nil Z)) at 1. rewrite map_nth.
  assert (L : List.length (nth y g []) = n) by (apply B, nth_In; lia). rewrite rev_nth by lia. f_equal. lia.
Qed.
Lemma revr_square n g : square n g -> square n (reverse_rows g).
Proof. intros [A B]. split; [unfold reverse_rows; rewrite rev_length; exact A|]. intros r H. apply in_rev in H. apply B, H. Qed.
Lemma revr_at n g x y : square n g -> (x < n)%nat -> (y < n)%nat -> cell_at 32 (reverse_rows g) x y = cell_at 32 g x (n - 1 - y).
Proof. intros [A B] X Y. unfold cell_at, reverse_rows. rewrite rev_nth by lia. f_equal. f_equal. lia. Qed.

Lemma square_ext n g h : square n g -> square n h -> (forall x y, (x < n)%nat -> (y < n)%nat -> cell_at 32 g x y = cell_at 32 h x y) -> g = h.
Proof.
  intros [A B] [C D] H. apply (nth_ext _ _ [] []); [lia|]. intros y Y. rewrite A in Y.
  assert (L1 : List.length (nth y g []) = n) by (apply B, nth_In; lia). assert (L2 : List.length (nth y h []) = n) by (apply D, nth_In; lia).
  apply (nth_ext _ _ 32 32); [lia|]. intros x X. apply H; lia.
Qed.
Lemma rot90_at n g x y : (x < n)%nat -> (y < n)%nat -> cell_at 32 (rotate_90 n g) (n - 1 - y) x = cell_at 32 g x y.
Proof.
  intros X Y. unfold rotate_90. rewrite (revc_at n) by (try apply transpose_square; lia). rewrite transpose_at by lia. f_equal. lia.
Qed.
Lemma rot180_at n g x y : square n g -> (x < n)%nat -> (y < n)%nat -> cell_at 32 (rotate_180 n g) (n - 1 - x) (n - 1 - y) = cell_at 32 g x y.
Proof.
  intros S X Y. unfold rotate_180. rewrite (revc_at n) by (try apply revr_square; try exact S; lia). rewrite (revr_at n) by (try exact S; lia). f_equal; lia.
Qed.
Lemma rot270_at n g x y : square n g -> (x < n)%nat -> (y < n)%nat -> cell_at 32 (rotate_270 n g) y (n - 1 - x) = cell_at 32 g x y.
Proof.
  intros S X Y. unfold rotate_270. rewrite transpose_at by lia. rewrite (revc_at n) by (try exact S; lia). f_equal; lia.
Qed.
Lemma rot90_square n g : square n (rotate_90 n g).
Proof. apply revc_square, transpose_square. Qed.
Lemma rot180_square n g : square n g -> square n (rotate_180 n g).
Proof. intros. apply revc_square, revr_square. assumption. Qed.
Lemma rot270_square n g : square n (rotate_270 n g).
Proof. apply transpose_square. Qed.

(** ** Tables *)
Lemma pos_in_iff l q : pos_in l q = true <-> In q l.
Proof.
  unfold pos_in. rewrite existsb_exists. split.
  - intros (r & H & E). destruct q, r. cbn in E. apply andb_prop in E as [E1 E2]. apply Z.eqb_eq in E1, E2. subst. exact H.
  - intros H. exists q. rewrite !Z.eqb_refl. auto.
Qed.
Lemma same_set_iff a b : same_set a b = true -> forall q, In q a <-> In q b.
Proof.
  unfold same_set. intros H q. apply andb_prop in H as [H1 H2]. rewrite forallb_forall in H1, H2. split; intros K; apply pos_in_iff; auto.
Qed.
Lemma same_set_intro a b : (forall q, In q a <-> In q b) -> same_set a b = true.
Proof. intros H. unfold same_set. apply andb_true_intro. split; apply forallb_forall; intros q Hq; apply pos_in_iff, H, Hq. Qed.
Lemma map_at_some m p g : map_at m p = Some g -> exists k, In (k, g) m /\ (forall q, In q (inp k) <-> In q (inp p)) /\ (forall q, In q (out k) <-> In q (out p)).
Proof.
  unfold map_at. destruct (List.find _ m) as [[k h]|] eqn:E; [|discriminate]. cbn. intros X. injection X as <-. apply find_some in E as [H S]. exists k. split; [exact H|].
  apply andb_prop in S as [S1 S2]. split; apply same_set_iff; assumption.
Qed.

Definition port (s : side) : Z * Z := (port_x s, port_y s).
Definition gcell (g : gate) (q : Z * Z) : Z := gate_cell qca g (fst q) (snd q).
Definition borders : list (Z * Z) :=
  [(0,0); (1,0); (2,0); (3,0); (4,0); (0,1); (4,1); (0,2); (4,2); (0,3); (4,3); (0,4); (1,4); (2,4); (3,4); (4,4)].
Definition is_port (q : Z * Z) : bool := pos_in (map port sides) q.
Definition isnil {A} (l : list A) : bool := match l with [] => true | _ => false end.

Definition ports_ok (m : list (ports * gate)) : bool :=
  forallb (fun e => forallb (fun s => negb (pos_in (inp (fst e) ++ out (fst e)) (port s)) || (gcell (snd e) (port s) =? 120)) sides) m.
Definition borders_ok (exempt : bool) (const : Z) (m : list (ports * gate)) : bool :=
  forallb (fun e => let k := fst e in
    negb (forallb is_port (inp k ++ out k)) || (exempt && (isnil (inp k) || isnil (out k))) ||
    forallb (fun q => (gcell (snd e) q =? 32) || (is_port q && (pos_in (inp k ++ out k) q || (gcell (snd e) q =? const)))) borders) m.
Definition size_ok (m : list (ports * gate)) : bool := forallb (fun e => (List.length (snd e) =? 5)%nat && forallb (fun r : list Z => (List.length r =? 5)%nat) (snd e)) m.
Definition all_cells : list (Z * Z) := flat_map (fun x => map (fun y => (x, y)) [0; 1; 2; 3; 4]) [0; 1; 2; 3; 4].
(** Pins: an input cell, in the centre, exactly for entries without inputs, and likewise for outputs. *)
Definition pins_ok (m : list (ports * gate)) : bool :=
  forallb (fun e => let k := fst e in
    eqb (isnil (inp k)) (gcell (snd e) (2, 2) =? 105) && eqb (isnil (out k)) (gcell (snd e) (2, 2) =? 111) &&
    forallb (fun q => (negb (gcell (snd e) q =? 105) && negb (gcell (snd e) q =? 111)) || ((fst q =? 2) && (snd q =? 2))) all_cells) m.
Definition no_pins (m : list (ports * gate)) : bool :=
  forallb (fun e => forallb (fun q => negb (gcell (snd e) q =? 105) && negb (gcell (snd e) q =? 111)) all_cells) m.

Lemma wire_ports : ports_ok WIRE_MAP = true. Proof. vm_compute. reflexivity. Qed.
Lemma inverter_ports : ports_ok INVERTER_MAP = true. Proof. vm_compute. reflexivity. Qed.
Lemma and_ports : ports_ok CONJUNCTION_MAP = true. Proof. vm_compute. reflexivity. Qed.
Lemma or_ports : ports_ok DISJUNCTION_MAP = true. Proof. vm_compute. reflexivity. Qed.
Lemma fanout_ports : ports_ok FANOUT_MAP = true. Proof. vm_compute. reflexivity. Qed.
Lemma wire_borders : borders_ok false 32 WIRE_MAP = true. Proof. vm_compute. reflexivity. Qed.
Lemma inverter_borders : borders_ok true 32 INVERTER_MAP = true. Proof. vm_compute. reflexivity. Qed.
Lemma and_borders : borders_ok false 48 CONJUNCTION_MAP = true. Proof. vm_compute. reflexivity. Qed.
Lemma or_borders : borders_ok false 49 DISJUNCTION_MAP = true. Proof. vm_compute. reflexivity. Qed.
Lemma fanout_borders : borders_ok false 32 FANOUT_MAP = true. Proof. vm_compute. reflexivity. Qed.
Lemma wire_pins : pins_ok WIRE_MAP = true. Proof. vm_compute. reflexivity. Qed.
Lemma other_pins : no_pins (INVERTER_MAP ++ CONJUNCTION_MAP ++ DISJUNCTION_MAP ++ FANOUT_MAP ++ [(mkP [] [], MAJORITY); (mkP [] [], FAN_OUT_1_3)]) = true. Proof. vm_compute. reflexivity. Qed.
Lemma sizes : size_ok (WIRE_MAP ++ INVERTER_MAP ++ CONJUNCTION_MAP ++ DISJUNCTION_MAP ++ FANOUT_MAP ++ [(mkP [] [], MAJORITY); (mkP [] [], FAN_OUT_1_3)]) = true. Proof. vm_compute. reflexivity. Qed.

Lemma ports_entry m k g s : ports_ok m = true -> In (k, g) m -> In (port s) (inp k) \/ In (port s) (out k) -> gcell g (port s) = 120.
Proof.
  intros H I P. unfold ports_ok in H. rewrite forallb_forall in H. specialize (H _ I). cbn [fst snd] in H. rewrite forallb_forall in H.
  assert (S : In s sides) by (destruct s; cbn; auto). specialize (H s S). apply orb_prop in H as [H|H]; [|apply Z.eqb_eq; exact H].
  apply negb_true_iff in H. assert (X : pos_in (inp k ++ out k) (port s) = true) by (apply pos_in_iff, in_app_iff; exact P). congruence.
Qed.
Lemma is_port_iff q : is_port q = true <-> exists s, q = port s.
Proof.
  unfold is_port. rewrite pos_in_iff, in_map_iff. split; [intros (s & <- & _); exists s; reflexivity|]. intros (s & ->). exists s. split; [reflexivity|]. destruct s; cbn; auto.
Qed.
Lemma borders_in x y : in_gate 5 5 x y -> on_border x y -> In (x, y) borders.
Proof.
  intros [X Y] B. unfold on_border in B. assert (x = 0 \/ x = 1 \/ x = 2 \/ x = 3 \/ x = 4) as HX by lia. assert (y = 0 \/ y = 1 \/ y = 2 \/ y = 3 \/ y = 4) as HY by lia.
  clear X Y. destruct HX as [->|[->|[->|[->| ->]]]], HY as [->|[->|[->|[->| ->]]]]; try (exfalso; lia); cbn; auto 20.
Qed.
Lemma cells_in x y : in_gate 5 5 x y -> In (x, y) all_cells.
Proof.
  intros [X Y]. assert (x = 0 \/ x = 1 \/ x = 2 \/ x = 3 \/ x = 4) as HX by lia. assert (y = 0 \/ y = 1 \/ y = 2 \/ y = 3 \/ y = 4) as HY by lia.
  clear X Y. destruct HX as [->|[->|[->|[->| ->]]]], HY as [->|[->|[->|[->| ->]]]]; cbn; auto 30.
Qed.
Lemma borders_entry ex cst m k g x y : borders_ok ex cst m = true -> In (k, g) m -> (forall q, In q (inp k) \/ In q (out k) -> exists s, q = port s) ->
  (ex = true -> inp k <> [] /\ out k <> []) -> in_gate 5 5 x y -> on_border x y -> gcell g (x, y) <> 32 ->
  exists s, (x, y) = port s /\ (In (port s) (inp k) \/ In (port s) (out k) \/ gcell g (x, y) = cst).
Proof.
  intros H I P E G B N. unfold borders_ok in H. rewrite forallb_forall in H. specialize (H _ I). cbn [fst snd] in H. cbv zeta in H. rewrite !orb_true_iff in H.
  destruct H as [[H|H]|H].
  - exfalso. apply negb_true_iff in H. assert (X : forallb is_port (inp k ++ out k) = true); [|congruence].
    apply forallb_forall. intros q Hq. apply is_port_iff, P, in_app_iff, Hq.
  - exfalso. apply andb_prop in H as [-> H]. destruct (E eq_refl) as [E1 E2]. apply orb_prop in H as [H|H]; [destruct (inp k)|destruct (out k)]; try discriminate H; congruence.
  - rewrite forallb_forall in H. specialize (H _ (borders_in x y G B)). apply orb_prop in H as [H|H]; [apply Z.eqb_eq in H; contradiction|].
    apply andb_prop in H as [H1 H2]. apply is_port_iff in H1 as (s & Es). exists s. split; [exact Es|]. rewrite <- Es. apply orb_prop in H2 as [H2|H2].
    + apply pos_in_iff, in_app_iff in H2. tauto.
    + apply Z.eqb_eq in H2. auto.
Qed.
