(* AMD, part 14: after the main loop; the paths to the elements. *)
From Verif Require Import Base Det DetZ Spec MColamd MAmd PCol1 PCol3 PAmd1 PAmd2 PAmd3 PAmd4.
Set Implicit Arguments.
Open Scope Z_scope.
Set Bullet Behavior "Strict Subproofs".

Lemma end_dead n nz t : inv n nz t -> n <= t_nel t -> forall x, 0 <= x < n -> rd (t_Pe t) x < 0 /\ (rd (t_Elen t) x = -1 \/ rd (t_Elen t) x < -1 /\ 1 <= rd (t_Nv t) x).
Proof.
  intros I HN. destruct (in_nel I) as (NEL & _). set (lv := lvb (t_Pe t) (t_Elen t)) in *.
  assert (NL : forall x, 0 <= x < n -> lv x = false).
  { intros x Hx. destruct (lv x) eqn:X; [|reflexivity]. exfalso. pose proof (@wt_in n lv (rd (t_Nv t)) x) as Y. assert (rd (t_Nv t) x <= wt n lv (rd (t_Nv t))). { apply Y; auto. intros c Hc C. destruct (ag_lv (in_agr I) Hc C). lia. } destruct (ag_lv (in_agr I) Hx X). lia. }
  assert (NE : forall x, 0 <= x < n -> elb (t_Pe t) (t_Elen t) x = false).
  { intros x Hx. destruct (elb _ _ x) eqn:X; [|reflexivity]. destruct (in_ne I Hx X) as (y & Hy & Y & _). fold lv in Y. rewrite NL in Y by exact Hy. discriminate. }
  intros x Hx. specialize (NL x Hx). specialize (NE x Hx).
  assert (P : rd (t_Pe t) x < 0).
  { destruct (Z.lt_ge_cases (rd (t_Pe t) x) 0) as [|P]; [assumption|]. destruct (in_obj I Hx P) as (O1 & _). exfalso. destruct (Z.lt_ge_cases (rd (t_Elen t) x) 0) as [Q|Q].
    - assert (elb (t_Pe t) (t_Elen t) x = true) by (apply elb_spec; lia). congruence.
    - assert (lv x = true) by (apply lvb_spec; lia). congruence. }
  split; [exact P|]. destruct (in_nv I Hx) as [(X & _)|(X & Y)]; [left; exact X|]. destruct (Z.lt_ge_cases (rd (t_Elen t) x) 0) as [Q|Q]; [right; lia|]. pose proof (in_lv I Hx Q). lia.
Qed.

(* a strict order can be given by ranks below n *)
Lemma rank_norm n (par d : Z -> Z) : 0 <= n -> (forall x, 0 <= x < n -> par x <> -1 -> 0 <= par x < n /\ d x < d (par x)) ->
  exists r, (forall x, 0 <= x < n -> 0 <= r x < n) /\ forall x, 0 <= x < n -> par x <> -1 -> 0 <= par x < n /\ r x < r (par x).
Proof.
  intros Hn H. exists (fun x => sumz n (fun y => b2z (d y <? d x))).
  assert (LT : forall x y, 0 <= x < n -> d x < d y -> sumz n (fun z => b2z (d z <? d x)) < sumz n (fun z => b2z (d z <? d y))).
  { intros x y Hx L. rewrite (@sumz_upd n (fun z => b2z (d z <? d x)) (fun z => if z =? x then 1 else b2z (d z <? d x)) x Hx) by (intros k Hk N; rewrite (proj2 (Z.eqb_neq k x) N); reflexivity). rewrite Z.eqb_refl, Z.ltb_irrefl. cbn [b2z].
    assert (sumz n (fun z => if z =? x then 1 else b2z (d z <? d x)) <= sumz n (fun z => b2z (d z <? d y))); [|lia]. apply sumz_le. intros k Hk. destruct (Z.eqb_spec k x) as [->|]; [rewrite (proj2 (Z.ltb_lt _ _) L); cbn; lia|]. destruct (Z.ltb_spec (d k) (d x)), (Z.ltb_spec (d k) (d y)); cbn; lia. }
  split.
  - intros x Hx. split; [apply sumz_nonneg; intros; destruct (_ <? _); cbn; lia|].
    rewrite (@sumz_upd n (fun z => b2z (d z <? d x)) (fun z => if z =? x then 1 else b2z (d z <? d x)) x Hx) by (intros k Hk N; rewrite (proj2 (Z.eqb_neq k x) N); reflexivity). rewrite Z.eqb_refl, Z.ltb_irrefl. cbn [b2z].
    assert (sumz n (fun z => if z =? x then 1 else b2z (d z <? d x)) <= sumz n (fun z => 1)) by (apply sumz_le; intros k Hk; destruct (k =? x); [lia|]; destruct (_ <? _); cbn; lia). rewrite sumz_const in H0 by lia. lia.
  - intros x Hx P. destruct (H x Hx P) as (X & Y). split; [exact X|]. apply LT; auto.
Qed.

(* the forest, with parents: -1 a root; nv x > 0: an element, nv x = 0: x belongs to the element grp x, or to none (-1) *)
Record ptree (n : Z) (P Nv : list Z) (grp r : Z -> Z) : Prop := {
  pt_rk : forall x, 0 <= x < n -> 0 <= r x < n;
  pt_up : forall x, 0 <= x < n -> rd P x <> -1 -> 0 <= rd P x < n /\ r x < r (rd P x);
  pt_el : forall x, 0 <= x < n -> 0 < rd Nv x -> grp x = x /\ rd Nv x = sumz n (fun y => b2z (grp y =? x)) /\ (rd P x <> -1 -> 0 < rd Nv (rd P x));
  pt_nn : forall x, 0 <= x < n -> 0 <= rd Nv x;
  pt_de : forall x, 0 <= x < n -> rd Nv x = 0 -> (rd P x = -1 /\ grp x = -1) \/ (rd P x <> -1 /\ 0 <= grp x < n /\ 0 < rd Nv (grp x) /\ grp (rd P x) = grp x) }.
Arguments pt_up {n P Nv grp r} _ {x} _ _.
Arguments pt_el {n P Nv grp r} _ {x} _ _.
Arguments pt_de {n P Nv grp r} _ {x} _ _.

Lemma end_tree n nz t P : inv n nz t -> n <= t_nel t -> (forall x, 0 <= x < n -> rd P x = FLIP (rd (t_Pe t) x)) -> exists grp r, ptree n P (t_Nv t) grp r.
Proof.
  intros I HN HP. pose proof (end_dead I HN) as ED. pose proof (in_n I) as Hn. destruct (in_fo I) as (grp & d & T & F).
  assert (PM : forall x, 0 <= x < n -> (rd P x = -1 <-> rd (t_Pe t) x = -1) /\ (rd P x <> -1 -> rd (t_Pe t) x < -1)). { intros x Hx. destruct (ED x Hx) as (X & _). rewrite HP by exact Hx. unfold FLIP. lia. }
  assert (NN : forall x, 0 <= x < n -> 0 <= rd (t_Nv t) x). { intros x Hx. destruct (in_nv I Hx); lia. }
  destruct (@rank_norm n (rd P) (fun x => if rd P x =? -1 then T else d x)) as (r & R1 & R2); [lia| |].
  { intros x Hx Q. destruct (PM x Hx) as (_ & Y). destruct (fo_par F Hx (Y Q)) as (X1 & X2 & X3). rewrite HP by exact Hx. split; [exact X1|]. rewrite <- HP by exact Hx. rewrite (proj2 (Z.eqb_neq _ _) Q). rewrite <- (HP x Hx) in X1, X3. destruct (PM _ X1) as (Z1 & _). destruct (ED _ X1) as (Z2 & _).
    destruct (Z.eqb_spec (rd P (rd P x)) (-1)) as [E|E]; [exact X2|]. destruct X3 as [X3|X3]; [lia|exact X3]. }
  exists grp, r. constructor; auto.
  - intros x Hx N. destruct (fo_nv F Hx ltac:(lia)) as (X1 & X2). split; [exact X1|]. split; [specialize (NN x Hx); lia|]. intros Q. destruct (PM x Hx) as (_ & Y). specialize (Y Q). destruct (fo_par F Hx Y) as (Z1 & _). pose proof (fo_el F Hx Y ltac:(lia)) as E. pose proof (fo_ev F Z1 E) as Z2. rewrite <- (HP x Hx) in Z1, Z2. specialize (NN _ Z1). lia.
  - intros x Hx N. destruct (PM x Hx) as (Z1 & Z2). destruct (fo_dead F Hx N) as [(X1 & X2)|(X1 & X2 & X3 & X4)]; [left; tauto|right]. split; [lia|]. split; [exact X2|]. rewrite <- (HP x Hx) in X4. split; [specialize (NN _ X2); lia|exact X4].
Qed.

Section Paths.
Variables (n : Z) (P0 Nv : list Z) (grp r : Z -> Z).
Hypothesis LN : zlen Nv = n.
Hypothesis Hn : 0 <= n.

Lemma grp_rank P : ptree n P Nv grp r -> forall m x, (Z.to_nat (n - r x) <= m)%nat -> 0 <= x < n -> rd Nv x = 0 -> rd P x <> -1 -> r x < r (grp x).
Proof.
  intros T. induction m as [|m IH]; intros x Hm Hx N Q; pose proof (pt_rk T Hx); [lia|]. destruct (pt_up T Hx Q) as (X1 & X2). destruct (pt_de T Hx N) as [(X & _)|(_ & X3 & X4 & X5)]; [contradiction|]. pose proof (pt_nn T X1).
  destruct (Z.eq_dec (rd Nv (rd P x)) 0) as [Z0|Z0].
  - rewrite <- X5. etransitivity; [exact X2|]. pose proof (pt_rk T X1). apply IH; auto; [lia|]. intros E. destruct (pt_de T X1 Z0) as [(_ & Y)|(Y & _)]; [rewrite Y in X5; lia|contradiction].
  - destruct (pt_el T X1 ltac:(lia)) as (Y & _). rewrite <- X5, Y. exact X2.
Qed.

Lemma root_ok P : ptree n P Nv grp r -> zlen P = n -> forall fuel j, 0 <= j < n -> 0 <= grp j -> n - r j <= Z.of_nat fuel -> wp (a2_root fuel Nv P j) (fun e => e = grp j) nerr.
Proof.
  intros T LP. induction fuel as [|fuel IH]; intros j Hj G HF; pose proof (pt_rk T Hj); [lia|]. cbn [a2_root]. wg; [lia|]. pose proof (pt_nn T Hj). destruct (Z.eqb_spec (rd Nv j) 0) as [N|N].
  - destruct (pt_de T Hj N) as [(_ & X)|(X1 & X2 & X3 & X4)]; [lia|]. destruct (pt_up T Hj X1) as (Y1 & Y2). wg; [lia|]. rewrite <- X4. apply IH; auto; lia.
  - cbn. destruct (pt_el T Hj ltac:(lia)) as (X & _). auto.
Qed.

Definition upd (P P' : list Z) : Prop := zlen P' = n /\ forall x, 0 <= x < n -> rd P' x = rd P x \/ (rd Nv x = 0 /\ rd P x <> -1 /\ rd P' x = grp x).
Lemma upd_set P j : ptree n P Nv grp r -> zlen P = n -> 0 <= j < n -> rd Nv j = 0 -> rd P j <> -1 -> ptree n (wr P j (grp j)) Nv grp r /\ upd P (wr P j (grp j)).
Proof.
  intros T LP Hj N Q. pose proof (grp_rank T (le_n _) Hj N Q) as GR. destruct (pt_de T Hj N) as [(X & _)|(_ & X2 & X3 & X4)]; [contradiction|].
  assert (E : forall x, 0 <= x < n -> rd (wr P j (grp j)) x = if x =? j then grp j else rd P x) by (intros x Hx; apply rd_wr; lia).
  split; [|split; [rewrite zlen_wr; exact LP|]].
  - constructor; [exact (pt_rk T)| | |exact (pt_nn T)|].
    + intros x Hx. rewrite E by exact Hx. destruct (Z.eqb_spec x j) as [->|]; [auto|apply (pt_up T Hx)].
    + intros x Hx Y. destruct (pt_el T Hx Y) as (Z1 & Z2 & Z3). rewrite E by exact Hx. destruct (Z.eqb_spec x j) as [->|]; [lia|auto].
    + intros x Hx Y. rewrite E by exact Hx. destruct (Z.eqb_spec x j) as [->|]; [|apply (pt_de T Hx Y)]. right. split; [lia|]. split; [exact X2|]. split; [exact X3|]. apply (pt_el T X2 X3).
  - intros x Hx. rewrite E by exact Hx. destruct (Z.eqb_spec x j) as [->|]; auto.
Qed.
Lemma upd_refl P : zlen P = n -> upd P P. Proof. intros L. split; auto. Qed.
Lemma upd_trans P P1 P2 : upd P P1 -> upd P1 P2 -> upd P P2.
Proof.
  intros (L1 & H1) (L2 & H2). split; [exact L2|]. intros x Hx. destruct (H2 x Hx) as [E|(E1 & E2 & E3)]; [rewrite E; apply H1; exact Hx|]. right. split; [exact E1|]. split; [|exact E3]. destruct (H1 x Hx) as [E|(_ & E & _)]; [congruence|exact E].
Qed.

Lemma path_ok e : forall fuel P j, ptree n P Nv grp r -> zlen P = n -> 0 <= j < n -> 0 <= e -> grp j = e -> n - r j <= Z.of_nat fuel ->
  wp (a2_path fuel e Nv j P) (fun P' => ptree n P' Nv grp r /\ upd P P' /\ (rd Nv j = 0 -> rd P' j = grp j)) nerr.
Proof.
  induction fuel as [|fuel IH]; intros P j T LP Hj He G HF; pose proof (pt_rk T Hj); [lia|]. cbn [a2_path]. wg; [lia|]. destruct (Z.eqb_spec (rd Nv j) 0) as [N|N].
  - destruct (pt_de T Hj N) as [(_ & X)|(X1 & X2 & X3 & X4)]; [lia|]. destruct (pt_up T Hj X1) as (Y1 & Y2). wg; [lia|]. ws; [lia|]. destruct (upd_set T LP Hj N X1) as (T1 & U1). eapply wp_conseq.
    { rewrite <- G in *. apply IH; [exact T1|rewrite zlen_wr; exact LP|exact Y1|lia|exact X4|lia]. }
    intros P' (T' & U' & _). split; [exact T'|]. split; [exact (upd_trans U1 U')|]. intros _. destruct U' as (_ & U'). destruct (U' j Hj) as [E|(_ & _ & E)]; [rewrite E; apply rd_wr_eq; lia|exact E].
  - cbn. split; [exact T|]. split; [apply upd_refl; exact LP|]. intros; contradiction.
Qed.

Lemma paths_ok P : ptree n P Nv grp r -> zlen P = n ->
  wp (a2_paths n Nv P) (fun P' => ptree n P' Nv grp r /\ upd P P' /\ forall x, 0 <= x < n -> rd Nv x = 0 -> rd P x <> -1 -> rd P' x = grp x) nerr.
Proof.
  intros T LP. unfold a2_paths.
  apply wp_for with (I := fun i P' => ptree n P' Nv grp r /\ upd P P' /\ forall x, 0 <= x < i -> rd Nv x = 0 -> rd P x <> -1 -> rd P' x = grp x); [exact Hn| |].
  - split; [exact T|]. split; [apply upd_refl; exact LP|]. intros; lia.
  - intros i P' Hi (T' & U & D). pose proof U as (LP' & UX). wg; [lia|]. destruct (Z.eqb_spec (rd Nv i) 0) as [N|N].
    + wg; [lia|]. destruct (Z.eqb_spec (rd P' i) EMPTY) as [Q|Q].
      * cbn. split; [exact T'|]. split; [exact U|]. intros x Hx Nx Qx. destruct (Z.eq_dec x i) as [->|]; [|apply D; auto; lia]. destruct (UX i Hi) as [E|(_ & _ & E)]; [|exact E]. unfold EMPTY in Q. congruence.
      * change EMPTY with (-1) in Q. destruct (pt_de T' Hi N) as [(X & _)|(_ & X2 & X3 & X4)]; [contradiction|]. destruct (pt_up T' Hi Q) as (Y1 & Y2). pose proof (pt_rk T' Y1). pose proof (pt_rk T' Hi).
        apply wp_bind. eapply wp_conseq; [apply (root_ok T' LP'); auto; lia|]. intros e ->. rewrite X4. eapply wp_conseq; [apply path_ok; auto; lia|].
        intros P2 (T2 & U2 & E2). split; [exact T2|]. split; [exact (upd_trans U U2)|]. intros x Hx Nx Qx. destruct (Z.eq_dec x i) as [->|]; [auto|]. destruct U2 as (_ & U2). destruct (U2 x ltac:(lia)) as [E|(_ & _ & E)]; [rewrite E; apply D; auto; lia|exact E].
    + cbn. split; [exact T'|]. split; [exact U|]. intros x Hx Nx Qx. apply D; auto. assert (x <> i) by congruence. lia.
Qed.
End Paths.
