(* AMD, part 10: supervariable detection, continued. *)
From Verif Require Import Base Det DetZ Spec MColamd MAmd PCol1 PCol3 PAmd1 PAmd2 PAmd3 PAmd4 PAmd5 PAmd6 PAmd7 PAmd8 PAmd9.
Set Implicit Arguments.
Open Scope Z_scope.
Set Bullet Behavior "Strict Subproofs".

Lemma sv_scatter_ok n pe ln wflg Iw W0 : zlen W0 = n -> 0 <= pe -> 1 <= ln -> pe + ln <= zlen Iw -> (forall j, pe <= j < pe + ln -> 0 <= rd Iw j < n) ->
  wp (sv_scatter pe ln wflg Iw W0) (fun W => zlen W = n /\ forall x, 0 <= x < n -> rd W x = if memb Iw (pe + 1) (ln - 1) x then wflg else rd W0 x) nerr.
Proof.
  intros LW Hp Hl HI R. unfold sv_scatter. eapply wp_conseq.
  { apply wp_for with (I := fun p W => zlen W = n /\ forall x, 0 <= x < n -> rd W x = if memb Iw (pe + 1) (p - (pe + 1)) x then wflg else rd W0 x); [lia| |].
    - split; [exact LW|]. intros x _. rewrite memb_0 by lia. reflexivity.
    - intros p W Hp' (Q1 & Q2). wg; [lia|]. pose proof (R p ltac:(lia)) as Rp. apply wp_set; [lia|]. rewrite zlen_wr. split; [exact Q1|]. intros x Hx. replace (p + 1 - (pe + 1)) with (p - (pe + 1) + 1) by lia. rewrite memb_S by lia. replace (pe + 1 + (p - (pe + 1))) with p by lia.
      rewrite rd_wr by lia. rewrite (Z.eqb_sym (rd Iw p) x). destruct (Z.eqb_spec x (rd Iw p)); [rewrite Bool.orb_true_r; reflexivity|]. rewrite Bool.orb_false_r. apply Q2. exact Hx. }
  intros W (Q1 & Q2). split; [exact Q1|]. intros x Hx. rewrite Q2 by exact Hx. replace (pe + ln - (pe + 1)) with (ln - 1) by lia. reflexivity.
Qed.

Lemma sv_same_ok n wflg Iw W : zlen W = n -> forall cnt p, 0 <= p -> p + Z.of_nat cnt <= zlen Iw -> (forall j, p <= j < p + Z.of_nat cnt -> 0 <= rd Iw j < n) ->
  wp (sv_same cnt p wflg Iw W) (fun b => b = true -> forall j, p <= j < p + Z.of_nat cnt -> rd W (rd Iw j) = wflg) nerr.
Proof.
  intros LW. induction cnt as [|cnt IH]; intros p Hp HI R; cbn [sv_same]; [cbn; lia|]. wg; [lia|]. pose proof (R p ltac:(lia)). wg; [lia|]. destruct (Z.eqb_spec (rd W (rd Iw p)) wflg) as [Q|Q]; cbn [negb].
  - eapply wp_conseq; [apply IH; [lia|lia|intros; apply R; lia]|]. cbv beta. intros b X B j Hj. destruct (Z.eq_dec j p) as [->|]; [exact Q|]. apply X; [exact B|lia].
  - cbn. discriminate.
Qed.

Section Detect.
Variables (n nz iwlen me pme1 pme2 pfree degme nvp nel : Z) (Iw Len Degree : list Z).
Let DI := dti n nz iwlen me pme1 pme2 pfree degme nvp nel Iw Len Degree.
Let lm := lmb Iw pme1 pme2.

Lemma lm_facts Pe Nv Elen x : DI Pe Nv Elen -> lm x = true -> lvb Pe Elen x = true -> 0 <= x < n /\ x <> me /\ 0 <= rd Pe x /\ 1 <= rd Elen x <= rd Len x /\ 1 <= rd Len x /\ rd Pe x + rd Len x <= pfree /\ injs Iw (rd Pe x) (rd Len x) /\
  rd Nv x <= -1 /\ rd Iw (rd Pe x) = me.
Proof.
  intros D Mx Lx. destruct (dt_lm D Mx) as (Rx & _). destruct (dt_meq D) as (M1 & M2 & M3 & M4 & M5 & M6). destruct (dt_fst D Mx Lx) as (F1 & F2 & F3). apply lvb_spec in Lx. assert (Nx : x <> me) by (intros ->; lia).
  destruct (dt_obj D Rx Nx (proj1 Lx)) as (O1 & O2 & O3). pose proof (la_in (dt_lay D) Rx) as X. unfold oPe in X. rewrite (proj2 (Z.eqb_neq x me) Nx) in X. destruct (X (proj1 Lx)).
  destruct (dt_nv D Rx Nx) as [(Y & _)|(_ & Y)]; [lia|]. fold lm in Y. rewrite Mx in Y. repeat split; auto; lia.
Qed.
Arguments lm_facts {Pe Nv Elen x} _ _ _.

Lemma same_E Pe Nv Elen i j wflg W : DI Pe Nv Elen -> lm i = true -> lvb Pe Elen i = true -> lm j = true -> lvb Pe Elen j = true -> rd Len j = rd Len i -> rd Elen j = rd Elen i ->
  (forall x, 0 <= x < n -> rd W x = wflg -> memb Iw (rd Pe i + 1) (rd Len i - 1) x = true) -> (forall k, rd Pe j + 1 <= k < rd Pe j + 1 + (rd Len i - 1) -> rd W (rd Iw k) = wflg) ->
  forall e, mE Iw Pe Elen i e = mE Iw Pe Elen j e.
Proof.
  intros D Mi Li Mj Lj EL EE HW HS e. destruct (lm_facts D Mi Li) as (I1 & I2 & I3 & I4 & I5 & I6 & I7 & I8 & I9). destruct (lm_facts D Mj Lj) as (J1 & J2 & J3 & J4 & J5 & J6 & J7 & J8 & J9).
  destruct (dt_pf D) as (P1 & P2 & P3 & P4). unfold mE. rewrite EE in *. rewrite EL in *. set (eln := rd Elen i) in *. set (ln := rd Len i) in *.
  apply (@seg_eq n); [lia| | | | |].
  - eapply injs_le; [|exact I7]. lia.
  - eapply injs_le; [|exact J7]. lia.
  - intros k Hk. apply (dt_rng D). lia.
  - intros k Hk. apply (dt_rng D). lia.
  - intros k Hk. destruct (Z.eq_dec k (rd Pe j)) as [->|Nk].
    + rewrite J9, <- I9. apply memb_at. lia.
    + assert (Rk : 0 <= rd Iw k < n) by (apply (dt_rng D); lia). pose proof (HW _ Rk (HS k ltac:(lia))) as M. apply memb_spec in M. destruct M as (p & Hp & Q). apply memb_spec. exists p. split; [|exact Q]. split; [lia|].
      destruct (Z.lt_ge_cases p (rd Pe i + eln)) as [Y|Y]; [exact Y|]. exfalso. pose proof (dt_agr D) as A.
      assert (E1 : mE Iw Pe Elen j (rd Iw k) = true) by (unfold mE; apply memb_at; lia). destruct (ag_E A J1 Lj E1) as (_ & E2 & _). apply (ag_el A Rk) in E2.
      assert (V1 : mV Iw Pe Len Elen i (rd Iw k) = true) by (unfold mV; rewrite <- Q; apply memb_at; unfold eln, ln in *; lia). destruct (ag_V A I1 Li V1) as (_ & _ & V2 & _). congruence.
Qed.
Arguments same_E {Pe Nv Elen i j wflg W} _ _ _ _ _ _ _ _ _.

(* what detection leaves alone: everything outside of the list *)
Definition frm (l : list Z) (Pe Nv Elen Next Pe' Nv' Elen' Next' : list Z) : Prop :=
  (forall x, 0 <= x < n -> lm x = false -> rd Pe' x = rd Pe x /\ rd Nv' x = rd Nv x /\ rd Elen' x = rd Elen x) /\
  (forall x, 0 <= x < n -> ~ In x l -> rd Pe' x = rd Pe x /\ rd Elen' x = rd Elen x /\ rd Next' x = rd Next x) /\
  (forall x, 0 <= x < n -> 0 <= rd Pe' x -> rd Pe' x = rd Pe x /\ rd Elen' x = rd Elen x).

Lemma frm_trans l l' P V E N P1 V1 E1 N1 P2 V2 E2 N2 : frm l P V E N P1 V1 E1 N1 -> incl l' l -> frm l' P1 V1 E1 N1 P2 V2 E2 N2 -> frm l P V E N P2 V2 E2 N2.
Proof.
  intros (A1 & A2 & A3) I (B1 & B2 & B3). split; [|split].
  - intros x Hx X. destruct (A1 x Hx X) as (Y1 & Y2 & Y3). destruct (B1 x Hx X) as (Z1 & Z2 & Z3). rewrite Z1, Z2, Z3. auto.
  - intros x Hx X. destruct (A2 x Hx X) as (Y1 & Y2 & Y3). destruct (B2 x Hx ltac:(intros Q; apply X, I, Q)) as (Z1 & Z2 & Z3). rewrite Z1, Z2, Z3. auto.
  - intros x Hx X. destruct (B3 x Hx X) as (Z1 & Z2). rewrite Z1, Z2. apply A3; [exact Hx|]. rewrite <- Z1. exact X.
Qed.

Lemma sv_inner_ok i wflg W : zlen W = n -> lm i = true -> forall l fuel jlast j Pe Nv Elen Next, (length l <= fuel)%nat -> chain (rd Next) j l -> NoDup l -> ~ In i l -> ~ In jlast l -> (forall c, In c l -> lm c = true /\ lvb Pe Elen c = true) ->
  DI Pe Nv Elen -> lvb Pe Elen i = true -> (forall x, 0 <= x < n -> rd W x = wflg -> memb Iw (rd Pe i + 1) (rd Len i - 1) x = true) -> rd Next jlast = j -> zlen Next = n -> 0 <= jlast < n ->
  wp (sv_inner fuel i (rd Len i) (rd Elen i) wflg jlast j Iw Len W Pe Nv Elen Next) (fun '(Pe', Nv', Elen', Next') => DI Pe' Nv' Elen' /\ zlen Next' = n /\ lvb Pe' Elen' i = true /\ frm (jlast :: l) Pe Nv Elen Next Pe' Nv' Elen' Next' /\
    (rd Pe' jlast = rd Pe jlast /\ rd Elen' jlast = rd Elen jlast) /\
    exists l', chain (rd Next') (rd Next' jlast) l' /\ NoDup l' /\ incl l' l /\ (length l' <= length l)%nat /\ forall c, In c l' -> lvb Pe' Elen' c = true) nerr.
Proof.
  intros LW Mi. induction l as [|a l IH]; intros fuel jlast j Pe Nv Elen Next HF CH ND Ii Ij HM D Li HW NX LN Rj.
  - cbn in CH. subst j. destruct fuel; cbn; (repeat (split; [assumption|])); (split; [split; [auto|split; auto]|split; [auto|]]); exists ([] : list Z); cbn; repeat split; auto using NoDup_nil; try tauto; intros ? [].
  - destruct CH as (-> & CH). destruct (HM a (or_introl eq_refl)) as (Ma & La). destruct (lm_facts D Ma La) as (A1 & A2 & A3 & A4 & A5 & A6 & A7 & A8 & A9). destruct (lm_facts D Mi Li) as (I1 & I2 & I3 & I4 & I5 & I6 & I7 & I8 & I9).
    destruct (dt_len D) as (L1 & L2 & L3 & L4 & L5 & L6). destruct (dt_pf D) as (P1 & P2 & P3 & P4). destruct fuel as [|fuel]; [cbn in HF; lia|]. cbn [length] in HF. apply le_S_n in HF.
    apply NoDup_cons_iff in ND as ND0. destruct ND0 as (Na & ND'). assert (Nai : a <> i) by (intros ->; apply Ii; left; reflexivity). assert (Naj : a <> jlast) by (intros ->; apply Ij; left; reflexivity).
    cbn [sv_inner]. destruct (Z.eqb_spec a EMPTY) as [Q|_]; [unfold EMPTY in Q; lia|]. cbn [negb]. wg; [lia|]. wg; [lia|]. apply wp_bind.
    eapply wp_conseq with (Q := fun ok => ok = true -> forall e, mE Iw Pe Elen i e = mE Iw Pe Elen a e).
    { destruct ((rd Len a =? rd Len i) && (rd Elen a =? rd Elen i)) eqn:T; [|cbn; discriminate]. apply Bool.andb_true_iff in T. rewrite !Z.eqb_eq in T. destruct T as (T1 & T2). wg; [lia|].
      eapply wp_conseq; [apply (@sv_same_ok n); [exact LW|lia|lia|intros k Hk; apply (dt_rng D); lia]|]. cbv beta. intros b X B. apply (same_E D Mi Li Ma La T1 T2 HW). intros k Hk. apply X; [exact B|lia]. }
    intros [|] HE.
    + specialize (HE eq_refl). ws; [lia|]. wg; [lia|]. wg; [lia|]. ws; [lia|]. ws; [rewrite zlen_wr; lia|]. ws; [lia|]. wg; [lia|]. ws; [lia|].
      pose proof (dti_merge D Mi Li Ma La ltac:(auto) HE) as D'. set (Pe1 := wr Pe a (FLIP i)) in *. set (Nv1 := wr (wr Nv i (rd Nv i + rd Nv a)) a 0) in *. set (Elen1 := wr Elen a EMPTY) in *.
      assert (PO : forall x, 0 <= x < n -> x <> a -> rd Pe1 x = rd Pe x) by (intros; apply rd_wr_ne; lia). assert (EO : forall x, 0 <= x < n -> x <> a -> rd Elen1 x = rd Elen x) by (intros; apply rd_wr_ne; lia).
      assert (LV : forall x, 0 <= x < n -> x <> a -> lvb Pe1 Elen1 x = lvb Pe Elen x) by (intros x Hx Nx; unfold lvb; rewrite PO, EO by auto; reflexivity).
      assert (PA : rd Pe1 a = FLIP i) by (apply rd_wr_eq; lia).
      assert (E0 : rd Elen i = rd Elen1 i) by (symmetry; apply EO; auto). rewrite E0.
      eapply wp_conseq.
      { apply (IH fuel jlast (rd Next a) Pe1 Nv1 Elen1 (wr Next jlast (rd Next a))); auto.
        - eapply chain_ext; [|exact CH]. intros x Hx. destruct (HM x (or_intror Hx)) as (Mx & _). destruct (dt_lm D Mx) as (Rx & _). apply rd_wr_ne; [lia|lia|]. intros ->. apply Ij. right. exact Hx.
        - intros Q. apply Ii. right. exact Q.
        - intros Q. apply Ij. right. exact Q.
        - intros c Hc. destruct (HM c (or_intror Hc)) as (Mc & Lc). destruct (dt_lm D Mc) as (Rc & _). split; [exact Mc|]. rewrite LV; auto. intros ->. contradiction.
        - rewrite LV; auto.
        - rewrite PO by auto. exact HW.
        - apply rd_wr_eq. lia.
        - rewrite zlen_wr. exact LN. }
      intros [[[Pe' Nv'] Elen'] Next'] (Q1 & Q2 & Q3 & Q4 & (Q5 & Q6) & l' & C1 & C2 & C3 & C4 & C5). split; [exact Q1|]. split; [exact Q2|]. split; [exact Q3|]. split; [|split].
      * eapply frm_trans; [|intros x Hx|exact Q4]; [|cbn in Hx |- *; tauto]. split; [|split].
        -- intros x Hx X. assert (x <> a) by congruence. assert (x <> i) by congruence. rewrite PO, EO by auto. unfold Nv1. rewrite !rd_wr_ne by (rewrite ?zlen_wr; lia). auto.
        -- intros x Hx X. cbn in X. rewrite PO, EO by (auto; intros ->; apply X; auto). rewrite rd_wr_ne; [auto|lia|lia|]. intros ->. apply X. auto.
        -- intros x Hx X. destruct (Z.eq_dec x a) as [->|Nx]; [rewrite PA in X; unfold FLIP in X; lia|]. rewrite PO, EO by auto. auto.
      * rewrite Q5, Q6. rewrite PO, EO by auto. auto.
      * exists l'. split; [exact C1|]. split; [exact C2|]. split; [intros x Hx; right; apply C3; exact Hx|]. split; [cbn [length]; lia|exact C5].
    + clear HE. wg; [lia|]. eapply wp_conseq.
      { apply (IH fuel a (rd Next a) Pe Nv Elen Next); auto.
        - intros Q. apply Ii. right. exact Q.
        - intros c Hc. apply HM. right. exact Hc. }
      intros [[[Pe' Nv'] Elen'] Next'] (Q1 & Q2 & Q3 & Q4 & (Q5 & Q6) & l' & C1 & C2 & C3 & C4 & C5). split; [exact Q1|]. split; [exact Q2|]. split; [exact Q3|]. pose proof Q4 as (F1 & F2 & F3).
      destruct (F2 jlast Rj ltac:(intros Q; apply Ij; exact Q)) as (G1 & G2 & G3). split; [|split; [auto|]].
      * eapply frm_trans; [|intros x Hx|exact Q4]; [|cbn in Hx |- *; tauto]. split; [|split]; auto.
      * exists (a :: l'). split; [cbn; split; [rewrite G3; congruence|exact C1]|]. split; [constructor; [intros Q; apply Na, C3, Q|exact C2]|]. split; [intros x [<-|Hx]; [left; reflexivity|right; apply C3; exact Hx]|]. split; [cbn [length]; lia|].
        intros c [<-|Hc]; [unfold lvb; rewrite Q5, Q6; exact La|apply C5; exact Hc].
Qed.

Definition wok (wflg : Z) (Pe W : list Z) : Prop := zlen W = n /\ 2 <= wflg /\ forall x, 0 <= x < n -> 0 <= rd W x < wflg /\ (0 <= rd Pe x -> rd W x <> 0).

Lemma sv_outer_ok fuel' : forall fuel l i wflg Pe Nv Elen Next W, (length l <= fuel)%nat -> (length l <= fuel')%nat -> chain (rd Next) i l -> NoDup l -> (forall c, In c l -> lm c = true /\ lvb Pe Elen c = true) -> DI Pe Nv Elen -> zlen Next = n -> wok wflg Pe W ->
  wp (sv_outer fuel fuel' i wflg Iw Len Pe Nv Elen Next W) (fun '(Pe', Nv', Elen', Next', W', wflg') => DI Pe' Nv' Elen' /\ zlen Next' = n /\ wok wflg' Pe' W' /\ frm l Pe Nv Elen Next Pe' Nv' Elen' Next') nerr.
Proof.
  assert (FR0 : forall l Pe Nv Elen Next, frm l Pe Nv Elen Next Pe Nv Elen Next) by (intros; split; [|split]; auto).
  induction fuel as [|fuel IH]; intros l i wflg Pe Nv Elen Next W HF HF' CH ND HM D LN WO; (destruct l as [|a l]; [cbn in CH; subst i; cbn; auto|]); [cbn in HF; lia|].
  destruct CH as (-> & CH). destruct (HM a (or_introl eq_refl)) as (Ma & La). destruct (lm_facts D Ma La) as (A1 & A2 & A3 & A4 & A5 & A6 & A7 & A8 & A9).
  destruct (dt_len D) as (L1 & L2 & L3 & L4 & L5 & L6). destruct (dt_pf D) as (P1 & P2 & P3 & P4). apply NoDup_cons_iff in ND as ND0. destruct ND0 as (Na & ND'). cbn [length] in HF, HF'.
  cbn [sv_outer]. destruct (Z.eqb_spec a EMPTY) as [Q|_]; [unfold EMPTY in Q; lia|]. wg; [lia|]. destruct (Z.eqb_spec (rd Next a) EMPTY) as [Q|NE]; [cbn; auto|].
  wg; [lia|]. wg; [lia|]. wg; [lia|]. apply wp_bind. destruct WO as (W1 & W2 & W3).
  eapply wp_conseq; [apply (@sv_scatter_ok n); [exact W1|lia|lia|lia|intros k Hk; apply (dt_rng D); lia]|]. intros W' (S1 & S2). apply wp_bind.
  eapply wp_conseq.
  { apply (@sv_inner_ok a wflg W' S1 Ma l fuel' a (rd Next a) Pe Nv Elen Next); auto; try lia.
    - intros c Hc. apply HM. right. exact Hc.
    - intros x Hx X. rewrite S2 in X by exact Hx. destruct (memb Iw (rd Pe a + 1) (rd Len a - 1) x); [reflexivity|]. destruct (W3 x Hx). lia. }
  intros [[[Pe1 Nv1] Elen1] Next1] (Q1 & Q2 & Q3 & Q4 & (Q5 & Q6) & l' & C1 & C2 & C3 & C4 & C5). wg; [lia|].
  eapply wp_conseq.
  { apply (IH l' (rd Next1 a) (wflg + 1) Pe1 Nv1 Elen1 Next1 W'); auto; try lia.
    - intros c Hc. split; [|apply C5; exact Hc]. apply HM. right. apply C3. exact Hc.
    - split; [exact S1|]. split; [lia|]. intros x Hx. rewrite S2 by exact Hx. destruct (W3 x Hx) as (X1 & X2). destruct (memb Iw (rd Pe a + 1) (rd Len a - 1) x); [lia|]. split; [lia|]. intros X. apply X2. destruct Q4 as (_ & _ & F3). destruct (F3 x Hx X) as (<- & _). exact X. }
  intros [[[[[Pe2 Nv2] Elen2] Next2] W2'] wflg2] (R1 & R2 & R3 & R4). split; [exact R1|]. split; [exact R2|]. split; [exact R3|]. eapply frm_trans; [exact Q4| |exact R4]. intros x Hx. right. apply C3. exact Hx.
Qed.

Variables (act : Z -> Prop) (sc rk : Z -> Z) (Next0 Last0 Head0 : list Z).
Hypothesis D0 : dlist n act sc (rd Next0) (rd Last0) (rd Head0) rk.
Hypothesis ACT : forall c, act c -> lm c = false.

Lemma detect_ok Pe0 Nv0 Elen0 Next1 Last1 Head1 B0 W0 wflg0 : DI Pe0 Nv0 Elen0 -> wok wflg0 Pe0 W0 ->
  bks n act Next0 Last0 Head0 Next1 Last1 Head1 B0 (fun x => lm x = true /\ lvb Pe0 Elen0 x = true) ->
  wp (a2_detect n pme1 pme2 Iw Len Pe0 Nv0 Elen0 Next1 Last1 Head1 W0 wflg0) (fun '(Pe, Nv, Elen, Next, Last, Head, W, wflg) => DI Pe Nv Elen /\ wok wflg Pe W /\
     (zlen Next = n /\ zlen Last = n /\ zlen Head = n) /\ dlist n act sc (rd Next) (rd Last) (rd Head) rk /\
     (forall x, 0 <= x < n -> lm x = false -> rd Pe x = rd Pe0 x /\ rd Nv x = rd Nv0 x /\ rd Elen x = rd Elen0 x) /\
     (forall x, 0 <= x < n -> 0 <= rd Pe x -> rd Pe x = rd Pe0 x /\ rd Elen x = rd Elen0 x)) nerr.
Proof.
  intros DD WW BB. destruct (dt_pf DD) as (P1 & P2 & P3 & P4). destruct (dt_len DD) as (L1 & _). unfold a2_detect. eapply wp_conseq.
  { apply wp_for with (I := fun p '(Pe, Nv, Elen, Next, Last, Head, W, wflg) => DI Pe Nv Elen /\ wok wflg Pe W /\
      (exists B, bks n act Next0 Last0 Head0 Next Last Head B (fun x => lm x = true /\ lvb Pe Elen x = true) /\ forall h c, 0 <= h < n -> In c (B h) -> dn pme1 Iw (p - pme1) c = false) /\
      (forall x, 0 <= x < n -> lm x = false -> rd Pe x = rd Pe0 x /\ rd Nv x = rd Nv0 x /\ rd Elen x = rd Elen0 x) /\
      (forall x, 0 <= x < n -> 0 <= rd Pe x -> rd Pe x = rd Pe0 x /\ rd Elen x = rd Elen0 x)); [lia| |].
    - split; [exact DD|]. split; [exact WW|]. split; [|split; auto]. exists B0. split; [exact BB|]. intros h c Hh Hc. unfold dn. apply memb_0. lia.
    - intros p [[[[[[[Pe Nv] Elen] Next] Last] Head] W] wflg] Hp (D & WO & (B & BK & BD) & F1 & F2). destruct (dt_len D) as (_ & L2 & L3 & L4 & L5 & L6). destruct (bk_len BK) as (L7 & L8 & L9).
      pose proof (@lm_at pme1 pme2 Iw (p - pme1) ltac:(lia)) as Mi. replace (pme1 + (p - pme1)) with p in Mi by lia. fold lm in Mi. wg; [lia|].
      assert (DNS : forall c, dn pme1 Iw (p + 1 - pme1) c = dn pme1 Iw (p - pme1) c || (rd Iw p =? c)). { intros c. replace (p + 1 - pme1) with (p - pme1 + 1) by lia. rewrite (@dn_S pme1 Iw (p - pme1) c) by lia. replace (pme1 + (p - pme1)) with p by lia. reflexivity. }
      set (i := rd Iw p) in *. destruct (dt_lm D Mi) as (Ri & Ei). clearbody i. wg; [lia|]. destruct (Z.ltb_spec (rd Nv i) 0) as [NI|NI].
      + destruct (dt_meq D) as (M1 & M2 & M3 & M4 & M5 & M6). unfold evb in Ei. apply Z.ltb_ge in Ei. assert (Ni : i <> me) by (intros ->; lia).
        assert (Li : lvb Pe Elen i = true). { destruct (dt_nv D Ri Ni) as [(_ & X & _)|(X & _)]; [lia|]. apply lvb_spec. split; [apply (dt_lv2 D Ri); lia|lia]. }
        wg; [lia|]. pose proof (bk_ml BK Ri (conj Mi Li)) as Rh. assert (BIi : forall x, 0 <= x < n -> In i (B x) -> x = rd Last i). { intros x Hx X. destruct (bk_in BK Hx X) as (_ & _ & <-). reflexivity. } set (h := rd Last i) in *. wg; [lia|]. apply wp_bind.
        eapply wp_conseq with (Q := fun '(f, Last', Head') => f = bfb Last Head h /\ bks n act Next0 Last0 Head0 Next Last' Head' (fun x => if x =? h then [] else B x) (fun x => lm x = true /\ lvb Pe Elen x = true)).
        { assert (KK : forall Last' Head', zlen Last' = n -> zlen Head' = n -> bfb Last' Head' h = EMPTY -> (forall x, 0 <= x < n -> x <> h -> bfb Last' Head' x = bfb Last Head x) -> (forall x, 0 <= x < n -> bhd Head' x = bhd Head x) ->
             (forall c, 0 <= c < n -> lm c = true -> rd Last' c = rd Last c) -> (forall c, act c -> rd Last0 c <> EMPTY -> rd Last' c = rd Last c) ->
             bks n act Next0 Last0 Head0 Next Last' Head' (fun x => if x =? h then [] else B x) (fun x => lm x = true /\ lvb Pe Elen x = true)).
          { intros Last' Head' Z1 Z2 Z3 Z4 Z5 Z6 Z7. constructor.
            - auto.
            - intros x Hx. destruct (Z.eqb_spec x h) as [->|Nx]; [split; [exact Z3|constructor]|]. rewrite Z4 by auto. apply (bk_ch BK Hx).
            - intros x c Hx. destruct (Z.eqb_spec x h) as [->|Nx]; [intros []|]. intros X. destruct (bk_in BK Hx X) as (Y1 & Y2 & Y3). rewrite Z6; auto. apply Y2.
            - intros c Hc X. rewrite Z6; auto; [|apply X]. apply (bk_ml BK Hc X).
            - intros x Hx. rewrite Z5 by exact Hx. apply (bk_hd BK Hx).
            - intros c Hc. apply (bk_nx BK Hc).
            - intros c Hc X. rewrite Z7 by auto. apply (bk_pv BK Hc X). }
          destruct (Z.eqb_spec (rd Head h) EMPTY) as [HE|HE].
          - cbn. split; [unfold bfb; rewrite HE; reflexivity|]. apply KK; auto. unfold bfb. rewrite HE. reflexivity.
          - destruct (Z.ltb_spec (rd Head h) EMPTY) as [HX|HX].
            + ws; [lia|]. cbn. split; [unfold bfb; destruct (Z.gtb_spec (rd Head h) EMPTY); [lia|reflexivity]|]. apply KK; auto.
              * rewrite zlen_wr. exact L9.
              * unfold bfb. rewrite rd_wr_eq by lia. reflexivity.
              * intros x Hx Nx. unfold bfb. rewrite rd_wr_ne by lia. reflexivity.
              * intros x Hx. unfold bhd. rewrite rd_wr by lia. destruct (Z.eqb_spec x h) as [->|]; [|reflexivity]. destruct (Z.gtb_spec (rd Head h) EMPTY); [lia|reflexivity].
            + assert (EMPTY < rd Head h) by (unfold EMPTY in *; lia). destruct (bhd_act D0 BK Rh H) as (A & SA & PA & R). set (j := rd Head h) in *. wg; [lia|]. ws; [lia|]. cbn. split; [unfold bfb; fold j; destruct (Z.gtb_spec j EMPTY); [reflexivity|lia]|]. apply KK; auto.
              * rewrite zlen_wr. exact L8.
              * unfold bfb. fold j. destruct (Z.gtb_spec j EMPTY); [|lia]. apply rd_wr_eq. lia.
              * intros x Hx Nx. unfold bfb. destruct (Z.gtb_spec (rd Head x) EMPTY) as [Y|Y]; [|reflexivity]. assert (Y' : EMPTY < rd Head x) by lia. destruct (bhd_act D0 BK Hx Y') as (A' & SA' & _ & R'). apply rd_wr_ne; [lia|lia|]. intros Z. apply Nx. rewrite <- SA', <- SA. congruence.
              * intros c Hc Mc. apply rd_wr_ne; [lia|lia|]. intros ->. apply ACT in A. congruence.
              * intros c Ac Nc. destruct (dl_sc D0 Ac). apply rd_wr_ne; [lia|lia|]. intros ->. congruence. }
        intros [[f Last'] Head'] (-> & BK'). apply wp_bind. destruct (bk_ch BK Rh) as (CH & ND).
        assert (LB : (length (B h) <= Z.to_nat n)%nat). { pose proof (@nodup_len n (B h) ND ltac:(intros x Hx; apply (bk_in BK Rh Hx))). pose proof (dt_n D). lia. }
        eapply wp_conseq.
        { apply (@sv_outer_ok (Z.to_nat n) (Z.to_nat n) (B h) (bfb Last Head h) wflg Pe Nv Elen Next W); auto. intros c Hc. apply (bk_in BK Rh Hc). }
        intros [[[[[Pe2 Nv2] Elen2] Next2] W2] wflg2] (R1 & R2 & R3 & (G1 & G2 & G3)). cbn. split; [exact R1|]. split; [exact R3|]. split; [|split].
        * exists (fun x => if x =? h then [] else B x). destruct (bk_len BK') as (_ & K2 & K3).
          assert (NB : forall x c, 0 <= x < n -> x <> h -> In c (B x) -> ~ In c (B h)). { intros x c Hx Nx X Y. destruct (bk_in BK Hx X) as (_ & _ & X1). destruct (bk_in BK Rh Y) as (_ & _ & Y1). congruence. }
          split.
          -- constructor.
             ++ auto.
             ++ intros x Hx. destruct (bk_ch BK' Hx) as (C1 & C2). split; [|exact C2]. eapply chain_ext; [|exact C1]. intros c Hc. destruct (Z.eqb_spec x h) as [->|Nx]; [destruct Hc|]. destruct (bk_in BK Hx Hc) as (Rc & _ & _). apply (G2 c Rc). apply (NB x); auto.
             ++ intros x c Hx Hc. destruct (bk_in BK' Hx Hc) as (Rc & (Mc & Lc) & Y). split; [exact Rc|]. split; [|exact Y]. split; [exact Mc|]. destruct (Z.eqb_spec x h) as [->|Nx]; [destruct Hc|]. destruct (G2 c Rc (NB x c Hx Nx Hc)) as (Z1 & Z2 & _). unfold lvb. rewrite Z1, Z2. exact Lc.
             ++ intros c Hc (Mc & Lc). apply (bk_ml BK' Hc). split; [exact Mc|]. pose proof Lc as Lc'. apply lvb_spec in Lc'. destruct (G3 c Hc ltac:(lia)) as (Z1 & Z2). unfold lvb in *. rewrite <- Z1, <- Z2. exact Lc.
             ++ intros x Hx. apply (bk_hd BK' Hx).
             ++ intros c Ac. destruct (dl_sc D0 Ac) as (Rc & _). rewrite <- (bk_nx BK' Ac). apply (G2 c Rc). intros Q. destruct (bk_in BK Rh Q) as (_ & (Y & _) & _). apply ACT in Ac. congruence.
             ++ intros c Ac Nc. apply (bk_pv BK' Ac Nc).
          -- intros x c Hx Hc. destruct (Z.eqb_spec x h) as [->|Nx]; [destruct Hc|]. rewrite DNS, (BD x c Hx Hc). cbn. apply Z.eqb_neq. intros <-. apply Nx. apply (BIi x); auto.
        * intros x Hx X. destruct (G1 x Hx X) as (-> & -> & ->). apply F1; auto.
        * intros x Hx X. destruct (G3 x Hx X) as (Z1 & Z2). rewrite Z1, Z2 in *. apply F2; auto.
      + cbn. split; [exact D|]. split; [exact WO|]. split; [|split; auto]. exists B. split; [exact BK|]. intros x c Hx Hc. rewrite DNS, (BD x c Hx Hc). cbn. apply Z.eqb_neq. intros <-. destruct (bk_in BK Hx Hc) as (_ & (Mc & Lc) & _). destruct (lm_facts D Mc Lc) as (_ & _ & _ & _ & _ & _ & _ & Y & _). lia. }
  intros [[[[[[[Pe Nv] Elen] Next] Last] Head] W] wflg] (D & WO & (B & BK & BD) & F1 & F2). split; [exact D|]. split; [exact WO|]. split; [exact (bk_len BK)|]. split; [|auto].
  apply (bks_done D0 BK). intros h Hh. destruct (B h) as [|c l] eqn:X; [reflexivity|]. exfalso. assert (Hc : In c (B h)) by (rewrite X; left; reflexivity). pose proof (BD h c Hh Hc) as Y. destruct (bk_in BK Hh Hc) as (_ & (Mc & _) & _). unfold lm, lmb in Mc. unfold dn in Y. congruence.
Qed.
End Detect.
Arguments lm_facts {n nz iwlen me pme1 pme2 pfree degme nvp nel Iw Len Degree Pe Nv Elen x} _ _ _.
