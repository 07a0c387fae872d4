(** C104: defect clearance. *)
From Coq Require Import ZArith QArith Qcanon Bool List Permutation.
From Verif Require Import CoordModel SidbModel SidbProofs ClearModel ClearSpec.
Import ListNotations.

Section Proofs.
Variable dist : coord -> coord -> Qc.
Variable nowhere : coord.
Lemma closest_from pos cells : forall m p, let r := fold_left (fun acc c => if ext_ltb (Fin (dist c pos)) (fst acc) then (Fin (dist c pos), pos) else acc) cells (Fin m, p) in
  exists d, fst r = Fin d /\ (d <= m)%Qc /\ (forall c, In c cells -> (d <= dist c pos)%Qc) /\ ((d = m /\ snd r = p) \/ (exists c, In c cells /\ dist c pos = d) /\ snd r = pos).
Proof using.
  induction cells as [|c cells IH]; intros m p; cbn [fold_left].
  - exists m. split; [reflexivity|]. split; [apply Qcle_refl|]. split; [intros c []|left; auto].
  - cbn [fst ext_ltb]. destruct (qltb (dist c pos) m) eqn:E.
    + apply qltb_spec in E. destruct (IH (dist c pos) pos) as (d & F & A & B & C). exists d. split; [exact F|]. split; [eapply Qcle_trans; [exact A|apply Qclt_le_weak, E]|]. split; [intros x [<-|Hx]; [exact A|apply B, Hx]|].
      right. destruct C as [[-> C]|[(x & Hx & C) C']]; [split; [exists c; split; [left|]; reflexivity|exact C]|split; [exists x; split; [right; exact Hx|exact C]|exact C']].
    + apply qltb_false in E. destruct (IH m p) as (d & F & A & B & C). exists d. split; [exact F|]. split; [exact A|]. split; [intros x [<-|Hx]; [eapply Qcle_trans; [exact A|exact E]|apply B, Hx]|].
      destruct C as [C|[(x & Hx & C) C']]; [left; exact C|right; split; [exists x; split; [right; exact Hx|exact C]|exact C']].
Qed.
Lemma closest_ok cells pos : cells <> [] -> exists d, closest dist cells nowhere pos = (Fin d, pos) /\ nearest dist cells pos d.
Proof using.
  destruct cells as [|c cells]; [intros X; elim X; reflexivity|]. intros _. unfold closest. cbn [fold_left fst ext_ltb].
  destruct (closest_from pos cells (dist c pos) pos) as (d & F & A & B & C). set (r := fold_left _ cells _) in *. exists d. split.
  - rewrite (surjective_pairing r), F. f_equal. destruct C as [[_ C]|[_ C]]; exact C.
  - split; [|intros x [<-|Hx]; [exact A|apply B, Hx]]. destruct C as [[C _]|[(x & Hx & C) _]]; [exists c; split; [left; reflexivity|symmetry; exact C]|exists x; split; [right; exact Hx|exact C]].
Qed.
Lemma nearest_unique cells p d d' : nearest dist cells p d -> nearest dist cells p d' -> d = d'.
Proof using. intros [(c & Hc & <-) A] [(c' & Hc' & <-) B]. apply Qcle_antisym; [apply A, Hc'|apply B, Hc]. Qed.
Lemma clearance_from cells domain : cells <> [] -> forall d p, exists d', fst (fold_left (clearance_step dist cells nowhere) domain (Fin d, p)) = Fin d' /\ (d <= d')%Qc /\
  (forall q e, In (q, true) domain -> nearest dist cells q e -> (e <= d')%Qc) /\
  ((d' = d /\ snd (fold_left (clearance_step dist cells nowhere) domain (Fin d, p)) = p) \/
   (d < d')%Qc /\ In (snd (fold_left (clearance_step dist cells nowhere) domain (Fin d, p)), true) domain /\ nearest dist cells (snd (fold_left (clearance_step dist cells nowhere) domain (Fin d, p))) d').
Proof using.
  intros Ne. induction domain as [|[q b] domain IH]; intros d p.
  - exists d. cbn. split; [reflexivity|]. split; [apply Qcle_refl|]. split; [intros ? ? []|left; auto].
  - cbn [fold_left]. destruct b.
    + destruct (closest_ok cells q Ne) as (e & E & N). assert (S1 : clearance_step dist cells nowhere (Fin d, p) (q, true) = if qltb d e then (Fin e, q) else (Fin d, p)) by (unfold clearance_step; cbn [fst snd negb]; rewrite E; reflexivity).
      rewrite S1. clear S1. destruct (qltb d e) eqn:X.
      * apply qltb_spec in X. destruct (IH e q) as (d' & F & A & B & C). exists d'. split; [exact F|]. split; [eapply Qcle_trans; [apply Qclt_le_weak, X|exact A]|]. split.
        -- intros q' e' [Q|Q] N'; [injection Q as <-; rewrite (nearest_unique cells q e' e N' N); exact A|apply (B q' e' Q N')].
        -- right. split; [eapply Qclt_le_trans; [exact X|exact A]|]. destruct C as [[-> ->]|(_ & C1 & C2)]; [split; [left; reflexivity|exact N]|split; [right; exact C1|exact C2]].
      * apply qltb_false in X. destruct (IH d p) as (d' & F & A & B & C). exists d'. split; [exact F|]. split; [exact A|]. split.
        -- intros q' e' [Q|Q] N'; [injection Q as <-; rewrite (nearest_unique cells q e' e N' N); eapply Qcle_trans; [exact X|exact A]|apply (B q' e' Q N')].
        -- destruct C as [C|(C0 & C1 & C2)]; [left; exact C|right; split; [exact C0|split; [right; exact C1|exact C2]]].
    + change (clearance_step dist cells nowhere (Fin d, p) (q, false)) with (Fin d, p). destruct (IH d p) as (d' & F & A & B & C). exists d'. split; [exact F|]. split; [exact A|]. split; [intros q' e' [Q|Q] N'; [discriminate Q|apply (B q' e' Q N')]|].
      destruct C as [C|(C0 & C1 & C2)]; [left; exact C|right; split; [exact C0|split; [right; exact C1|exact C2]]].
Qed.
End Proofs.

(** The clearance of a layout with cells is the largest distance of an influential position to its closest cell, and the reported position is an influential one at that distance, unless the clearance is 0. *)
Theorem C104_clearance : forall dist cells nowhere domain, cells <> [] ->
  exists d, fst (calculate_defect_clearance dist cells nowhere domain) = Fin d /\ largest dist cells domain d /\
  (d <> Q2Qc 0 -> let p := snd (calculate_defect_clearance dist cells nowhere domain) in In (p, true) domain /\ nearest dist cells p d).
Proof.
  intros dist cells nowhere domain Ne. destruct (clearance_from dist nowhere cells domain Ne (Q2Qc 0) nowhere) as (d & F & A & B & C). exists d. split; [exact F|]. split.
  - split; [exact A|]. split; [intros p d' Hp N; apply (B p d' Hp N)|]. destruct C as [[C _]|(_ & C)]; [left; exact C|right; eexists; exact C].
  - intros Nz. destruct C as [[C _]|(_ & C)]; [elim Nz; exact C|exact C].
Qed.
Print Assumptions C104_clearance.

(** The distance depends neither on the order of the cells nor on that of the points. *)
Theorem C104_order : forall dist cells cells' nowhere domain domain', cells <> [] -> Permutation cells cells' -> Permutation domain domain' ->
  fst (calculate_defect_clearance dist cells nowhere domain) = fst (calculate_defect_clearance dist cells' nowhere domain').
Proof.
  intros dist cells cells' nowhere domain domain' Ne P Q. assert (Ne' : cells' <> []) by (intros ->; apply Ne, Permutation_nil, Permutation_sym, P).
  assert (N : forall p d, nearest dist cells p d <-> nearest dist cells' p d).
  { intros p d. split; intros [(c & Hc & E) A]; (split; [exists c; split; [|exact E]; eapply Permutation_in; [|exact Hc]|intros x Hx; apply A; eapply Permutation_in; [|exact Hx]]); first [exact P|apply Permutation_sym, P]. }
  destruct (C104_clearance dist cells nowhere domain Ne) as (d & -> & (Z & A & B) & _). destruct (C104_clearance dist cells' nowhere domain' Ne') as (d' & -> & (Z' & A' & B') & _). f_equal. apply Qcle_antisym.
  - destruct B as [->|(p & Hp & Np)]; [exact Z'|]. apply (A' p); [eapply Permutation_in; [exact Q|exact Hp]|apply N, Np].
  - destruct B' as [->|(p & Hp & Np)]; [exact Z|]. apply (A p); [eapply Permutation_in; [apply Permutation_sym, Q|exact Hp]|apply N, Np].
Qed.
Print Assumptions C104_order.

(** Two cells; of the influential positions 3 and 9, the latter is 4 away from the cell at 5; position 20 is not influential. *)
Definition x_dist (a b : coord) : Qc := Q2Qc (inject_Z (Z.abs (cx a - cx b))).
Example C104_nonvacuous : let r := calculate_defect_clearance x_dist [live 0 0 0; live 5 0 0] (live 0 0 0) [(live 3 0 0, true); (live 9 0 0, true); (live 20 0 0, false)] in
  (match fst r with Fin q => this q | Inf => 0 end, snd r) = (4 # 1, live 9 0 0)%Q.
Proof. vm_compute. reflexivity. Qed.

(** If the only influential position is that of a cell, the position of the default-constructed cell is reported, although a defect there has no influence. *)
Theorem C104_position_refuted : exists dist cells nowhere domain, cells <> [] /\ (exists p, In (p, true) domain) /\
  let p := snd (calculate_defect_clearance dist cells nowhere domain) in ~ In (p, true) domain /\ In (p, false) domain.
Proof.
  exists x_dist, [live 5 0 0], (live 0 0 0), [(live 0 0 0, false); (live 5 0 0, true)]. split; [discriminate|]. split; [exists (live 5 0 0); right; left; reflexivity|]. cbv zeta.
  assert (E : snd (calculate_defect_clearance x_dist [live 5 0 0] (live 0 0 0) [(live 0 0 0, false); (live 5 0 0, true)]) = live 0 0 0) by (vm_compute; reflexivity). rewrite E. split; [intros [X|[X|[]]]; discriminate X|left; reflexivity].
Qed.
Print Assumptions C104_position_refuted.
