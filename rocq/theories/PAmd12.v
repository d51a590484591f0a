(* AMD, part 12: one step of the main loop, and the main loop. *)
From Verif Require Import Base Det DetZ Spec MColamd MAmd PCol1 PCol3 PAmd1 PAmd2 PAmd3 PAmd4 PAmd5 PAmd6 PAmd7 PAmd8 PAmd9 PAmd10 PAmd11.
Set Implicit Arguments.
Open Scope Z_scope.
Set Bullet Behavior "Strict Subproofs".

Lemma mid_scn n nz iwlen me Iw Pe Len Nv Next Last Head Elen Degree W rk Iw' Pe' Len' Nv' Next' Last' Head' W' pme1 pme2 pfree' degme W1 wflg1 :
  1 <= n -> zlen Elen = n -> zlen Degree = n ->
  (forall x, 0 <= x < n -> 0 <= rd Pe x -> rd Elen x <> -1 /\ rd Elen x <= rd Len x /\ injs Iw (rd Pe x) (rd Len x)) ->
  agr n (lvb Pe Elen) (evb Elen) (elb Pe Elen) (mE Iw Pe Elen) (mV Iw Pe Len Elen) (mL Iw Pe Len) (rd Nv) (rd Degree) ->
  ane n (lvb Pe Elen) (elb Pe Elen) (mL Iw Pe Len) ->
  (forall x, 0 <= x < n -> (rd Elen x = -1 /\ rd Nv x = 0 /\ rd Pe x < 0) \/ (rd Elen x <> -1 /\ 1 <= rd Nv x)) ->
  (forall x, 0 <= x < n -> 0 <= rd Elen x -> 0 <= rd Pe x) ->
  0 <= me < n -> lvb Pe Elen me = true ->
  dlist n (fun x => 0 <= x < n /\ lvb Pe Elen x = true /\ x <> me) (rd Degree) (rd Next) (rd Last) (rd Head) rk ->
  (forall x, 0 <= x < n -> 0 <= rd Pe x -> rd W x <> 0) ->
  mid n nz iwlen me Iw Pe Len Nv Elen Degree W rk Iw' Pe' Len' Nv' Next' Last' Head' W' pme1 pme2 pfree' degme ->
  zlen W1 = n -> 2 <= wflg1 -> (forall x, 0 <= x < n -> 0 <= rd W1 x < wflg1) -> (forall x, 0 <= x < n -> rd W1 x = 0 <-> rd W' x = 0) ->
  scn n nz iwlen me wflg1 pme1 pme2 pfree' degme (rd Nv me) Iw' (wr Pe' me pme1) (wr Len' me (pme2 - pme1 + 1)) Nv' Next' Last' Head' (wr Elen me (FLIP (rd Nv me + degme))) (wr Degree me degme) W1 rk /\
  wt n (lvb (wr Pe' me pme1) (wr Elen me (FLIP (rd Nv me + degme)))) (fun x => Z.abs (rd Nv' x)) = wt n (lvb Pe Elen) (rd Nv) - rd Nv me /\
  (forall x, 0 <= x < n -> lvb (wr Pe' me pme1) (wr Elen me (FLIP (rd Nv me + degme))) x = lvb Pe Elen x && negb (x =? me)) /\
  (forall x, 0 <= x < n -> x <> me -> elb (wr Pe' me pme1) (wr Elen me (FLIP (rd Nv me + degme))) x = true -> elb Pe Elen x = true).
Proof.
  intros Hn LE LD OBJ A NE NVH LVH Hme Lme DL HW M LW1 HW1 HW2 HW3. destruct (md_len M) as (L1 & L2 & L3 & L4 & L5 & L6 & L7 & L8). destruct (md_pf M) as (P1 & P2 & P3 & P4).
  set (nvp := rd Nv me) in *. set (Pe1 := wr Pe' me pme1). set (Len1 := wr Len' me (pme2 - pme1 + 1)). set (Elen1 := wr Elen me (FLIP (nvp + degme))). set (Degree1 := wr Degree me degme).
  destruct (ag_lv A Hme Lme) as (EVme & NVme). fold nvp in NVme. apply lvb_spec in Lme as Lme'.
  assert (DG0 : 0 <= degme). { rewrite (md_dg M). apply wt_nonneg. intros x Hx X. apply (lm_spec me Iw Pe Len Elen x) in X. destruct X as (X & _). destruct (ag_lv A Hx X). lia. }
  assert (FLm : FLIP (nvp + degme) < -1) by (unfold FLIP; lia). assert (FLe : FLIP me < -1) by (unfold FLIP; lia).
  assert (PO : forall x, 0 <= x < n -> x <> me -> rd Pe1 x = rd Pe' x) by (intros; apply rd_wr_ne; lia). assert (PM : rd Pe1 me = pme1) by (apply rd_wr_eq; lia).
  assert (LO : forall x, 0 <= x < n -> x <> me -> rd Len1 x = rd Len' x) by (intros; apply rd_wr_ne; lia). assert (LM : rd Len1 me = pme2 - pme1 + 1) by (apply rd_wr_eq; lia).
  assert (EO : forall x, 0 <= x < n -> x <> me -> rd Elen1 x = rd Elen x) by (intros; apply rd_wr_ne; lia). assert (EM : rd Elen1 me = FLIP (nvp + degme)) by (apply rd_wr_eq; lia).
  assert (DO : forall x, 0 <= x < n -> x <> me -> rd Degree1 x = rd Degree x) by (intros; apply rd_wr_ne; lia). assert (DM : rd Degree1 me = degme) by (apply rd_wr_eq; lia).
  set (lm := PAmd4.lm me Iw Pe Len Elen) in *. assert (LMS : forall x, lm x = true <-> lvb Pe Elen x = true /\ x <> me /\ (mV Iw Pe Len Elen me x = true \/ exists e, mE Iw Pe Elen me e = true /\ mL Iw Pe Len e x = true)) by (intros x; apply lm_spec).
  assert (EEM : forall x, mE Iw Pe Elen me x = true -> 0 <= x < n /\ elb Pe Elen x = true /\ rd Elen x < -1 /\ x <> me).
  { intros x X. destruct (ag_E A Hme Lme X) as (Y1 & Y2 & Y3). split; [exact Y1|]. split; [exact Y2|]. apply elb_spec in Y2. split; [lia|]. intros ->. lia. }
  assert (ABS : forall x, 0 <= x < n -> x <> me -> mE Iw Pe Elen me x = true -> rd Pe1 x = FLIP me /\ rd W' x = 0). { intros x Hx N X. rewrite PO by auto. pose proof (md_old M Hx N) as Y. rewrite X in Y. exact Y. }
  assert (MOV : forall x, 0 <= x < n -> x <> me -> mE Iw Pe Elen me x = false -> moved Iw Pe Len Iw' Pe' Len' x /\ rd W' x = rd W x). { intros x Hx N X. pose proof (md_old M Hx N) as Y. rewrite X in Y. exact Y. }
  assert (OBJ1 : forall x, 0 <= x < n -> x <> me -> mE Iw Pe Elen me x = false -> 0 <= rd Pe x -> 0 <= rd Pe1 x /\ rd Len1 x = rd Len x /\ forall k, 0 <= k < rd Len x -> rd Iw' (rd Pe1 x + k) = rd Iw (rd Pe x + k)).
  { intros x Hx N X P. destruct (MOV x Hx N X) as (Y & _). unfold moved in Y. rewrite (proj2 (Z.leb_le _ _) P) in Y. rewrite PO, LO by auto. exact Y. }
  assert (PNEG : forall x, 0 <= x < n -> x <> me -> 0 <= rd Pe1 x -> mE Iw Pe Elen me x = false /\ 0 <= rd Pe x).
  { intros x Hx N P. destruct (mE Iw Pe Elen me x) eqn:X; [destruct (ABS x Hx N X); lia|]. split; [reflexivity|]. destruct (MOV x Hx N X) as (Y & _). apply moved_sign in Y. rewrite PO in P by auto. tauto. }
  assert (LVE : forall x, 0 <= x < n -> lvb Pe Elen x = true -> mE Iw Pe Elen me x = false). { intros x Hx X. destruct (mE Iw Pe Elen me x) eqn:Y; [|reflexivity]. destruct (EEM x Y) as (_ & _ & Z1 & _). apply lvb_spec in X. lia. }
  assert (LV : forall x, 0 <= x < n -> lvb Pe1 Elen1 x = lvb Pe Elen x && negb (x =? me)).
  { intros x Hx. apply bool_iff. rewrite Bool.andb_true_iff, Bool.negb_true_iff, Z.eqb_neq, !lvb_spec. split.
    - intros (X1 & X2). assert (N : x <> me) by (intros ->; lia). rewrite EO in X2 by auto. destruct (PNEG x Hx N X1). auto.
    - intros ((X1 & X2) & N). rewrite EO by auto. split; [|exact X2]. apply (OBJ1 x Hx N); auto. apply LVE; auto. apply lvb_spec. auto. }
  assert (LV' : forall x, 0 <= x < n -> lvb Pe1 Elen1 x = true -> lvb Pe Elen x = true /\ x <> me). { intros x Hx X. rewrite LV, Bool.andb_true_iff, Bool.negb_true_iff, Z.eqb_neq in X by exact Hx. exact X. }
  assert (EV : forall x, 0 <= x < n -> evb Elen1 x = evb Elen x || (x =? me)).
  { intros x Hx. unfold evb. destruct (Z.eqb_spec x me) as [->|N]; [rewrite EM, Bool.orb_true_r; apply Z.ltb_lt; exact FLm|]. rewrite EO, Bool.orb_false_r by auto. reflexivity. }
  assert (EL' : forall x, 0 <= x < n -> x <> me -> elb Pe1 Elen1 x = true -> elb Pe Elen x = true /\ mE Iw Pe Elen me x = false).
  { intros x Hx N X. apply elb_spec in X. rewrite EO in X by auto. destruct (PNEG x Hx N ltac:(lia)). split; [apply elb_spec; lia|assumption]. }
  assert (EE : forall x e, 0 <= x < n -> lvb Pe1 Elen1 x = true -> mE Iw' Pe1 Elen1 x e = mE Iw Pe Elen x e).
  { intros x e Hx X. destruct (LV' x Hx X) as (X1 & N). apply lvb_spec in X1 as X2. destruct (OBJ1 x Hx N ltac:(apply LVE; auto) ltac:(lia)) as (Y1 & Y2 & Y3). destruct (OBJ x Hx ltac:(lia)) as (_ & O2 & _). unfold mE. rewrite EO by auto. apply memb_move. intros k Hk. apply Y3. lia. }
  assert (VV : forall x e, 0 <= x < n -> lvb Pe1 Elen1 x = true -> mV Iw' Pe1 Len1 Elen1 x e = mV Iw Pe Len Elen x e).
  { intros x e Hx X. destruct (LV' x Hx X) as (X1 & N). apply lvb_spec in X1 as X2. destruct (OBJ1 x Hx N ltac:(apply LVE; auto) ltac:(lia)) as (Y1 & Y2 & Y3). destruct (OBJ x Hx ltac:(lia)) as (_ & O2 & _). unfold mV. rewrite EO, Y2 by auto. apply memb_move. intros k Hk. rewrite <- !Z.add_assoc. apply Y3. lia. }
  assert (LL : forall e x, 0 <= e < n -> e <> me -> elb Pe1 Elen1 e = true -> mL Iw' Pe1 Len1 e x = mL Iw Pe Len e x).
  { intros e x He N X. destruct (EL' e He N X) as (X1 & X2). apply elb_spec in X1. destruct (OBJ1 e He N X2 ltac:(lia)) as (Y1 & Y2 & Y3). unfold mL. rewrite Y2. apply memb_move. exact Y3. }
  assert (LMB : forall x, lmb Iw' pme1 pme2 x = true <-> 0 <= x < n /\ lm x = true).
  { intros x. split.
    - intros X. assert (R : 0 <= x < n). { apply memb_spec in X. destruct X as (j & Hj & <-). apply (md_rng M). lia. } split; [exact R|]. unfold lm. rewrite <- (md_set M R). exact X.
    - intros (R & X). unfold lm in X. rewrite <- (md_set M R) in X. exact X. }
  assert (LMB' : forall x, 0 <= x < n -> lmb Iw' pme1 pme2 x = lm x). { intros x Hx. apply bool_iff. rewrite LMB. tauto. }
  assert (NV : forall x, 0 <= x < n -> rd Nv' x = if lm x || (x =? me) then - rd Nv x else rd Nv x) by (intros x Hx; apply (md_nv M Hx)).
  assert (NVP : forall x, 0 <= x < n -> lvb Pe Elen x = true -> 1 <= rd Nv x) by (intros x Hx X; apply (ag_lv A Hx X)).
  assert (ABN : forall x, 0 <= x < n -> Z.abs (rd Nv' x) = Z.abs (rd Nv x)) by (intros x Hx; rewrite NV by exact Hx; destruct (lm x || (x =? me)); lia).
  split; [|split; [|split; [exact LV|intros x Hx N X; apply (EL' x Hx N X)]]].
  2:{ assert (X : wt n (lvb Pe Elen) (rd Nv) = wt n (fun x => lvb Pe Elen x && negb (x =? me)) (rd Nv) + rd Nv me).
      { apply (@wt_add n (fun x => lvb Pe Elen x && negb (x =? me)) (lvb Pe Elen) (rd Nv) me Hme); [rewrite Z.eqb_refl, Bool.andb_false_r; reflexivity|]. intros x Hx. destruct (Z.eqb_spec x me) as [->|]; [rewrite Lme; reflexivity|rewrite Bool.orb_false_r, Bool.andb_true_r; reflexivity]. }
      fold nvp in X. rewrite X. replace (wt n (fun x => lvb Pe Elen x && negb (x =? me)) (rd Nv) + nvp - nvp) with (wt n (fun x => lvb Pe Elen x && negb (x =? me)) (rd Nv)) by lia. apply wt_ext. intros x Hx. split; [apply LV; exact Hx|]. intros Y. rewrite ABN by exact Hx. destruct (LV' x Hx Y) as (Y1 & _). pose proof (NVP x Hx Y1). lia. }
  constructor.
  - exact Hn.
  - unfold Pe1, Len1, Elen1, Degree1. rewrite !zlen_wr. tauto.
  - exact Hme.
  - auto.
  - exact (md_rng M).
  - rewrite PM, LM, EM, DM, NV, Z.eqb_refl, Bool.orb_true_r by exact Hme. repeat split; auto.
  - exact (md_inj M).
  - eapply lay_ext; [exact (md_lay M)|lia|]. intros x Hx. unfold oPe. destruct (Z.eqb_spec x me); [lia|]. intros _. rewrite PO, LO by auto. auto.
  - intros x Hx N P. rewrite LO by auto. rewrite PO in * by auto. apply (md_dis M Hx N P).
  - intros x Hx N P. destruct (PNEG x Hx N P) as (Q1 & Q2). destruct (OBJ1 x Hx N Q1 Q2) as (Y1 & Y2 & Y3). destruct (OBJ x Hx Q2) as (O1 & O2 & O3). rewrite EO, Y2 by auto. split; [exact O1|]. split; [exact O2|]. eapply injs_move; [|exact O3]. intros k Hk. symmetry. apply Y3. exact Hk.
  - intros x Hx X. assert (N : x <> me) by (intros ->; lia). rewrite EO in X by auto. pose proof (LVH x Hx X) as P. apply (OBJ1 x Hx N); auto. apply LVE; auto. apply lvb_spec. auto.
  - intros x Hx N. rewrite EO by auto. rewrite NV, LMB' by exact Hx. rewrite (proj2 (Z.eqb_neq x me) N), Bool.orb_false_r. destruct (NVH x Hx) as [(Y1 & Y2 & Y3)|(Y1 & Y2)].
    + left. split; [exact Y1|]. split; [destruct (lm x); lia|]. destruct (Z.lt_ge_cases (rd Pe1 x) 0) as [Q|Q]; [exact Q|]. destruct (PNEG x Hx N Q). lia.
    + right. split; [exact Y1|]. destruct (lm x); lia.
  - intros x X. apply LMB in X. destruct X as (R & X). split; [exact R|]. rewrite LV by exact R. apply LMS in X. destruct X as (-> & N & _). rewrite (proj2 (Z.eqb_neq x me) N). reflexivity.
  - intros x e Hx X Y. rewrite EE in Y by auto. destruct (LV' x Hx X) as (X1 & N). destruct (ag_E A Hx X1 Y) as (Z1 & Z2 & Z3). assert (Ne : e <> me) by (intros ->; apply elb_spec in Z2; lia). split; [exact Z1|]. split; [exact Ne|]. rewrite EO by auto. split; [apply elb_spec in Z2; lia|].
    destruct (mE Iw Pe Elen me e) eqn:Q.
    + right. destruct (ABS e Z1 Ne Q) as (Q1 & Q2). split; [lia|]. split; [apply HW3; auto|]. apply LMB. split; [exact Hx|]. apply LMS. repeat split; auto. right. exists e. auto.
    + left. apply elb_spec in Z2 as Z4. destruct (OBJ1 e Z1 Ne Q ltac:(lia)) as (Y1 & Y2 & Y3). split; [exact Y1|]. split.
      * rewrite HW3 by exact Z1. destruct (MOV e Z1 Ne Q) as (_ & ->). apply HW; [exact Z1|lia].
      * rewrite LL; auto. apply elb_spec. rewrite EO by auto. lia.
  - intros x y Hx X Y. rewrite VV in Y by auto. destruct (LV' x Hx X) as (X1 & N). destruct (ag_V A Hx X1 Y) as (Z1 & Z2 & Z3 & Z4). split; [exact Z1|]. split; [exact Z2|]. destruct (Z.eq_dec y me) as [->|Ny].
    + left. split; [reflexivity|]. apply LMB. split; [exact Hx|]. apply LMS. auto.
    + right. rewrite EV by exact Z1. rewrite Z3, (proj2 (Z.eqb_neq y me) Ny). split; [reflexivity|]. intros Q. rewrite VV by auto. apply Z4. apply (LV' y Z1 Q).
  - intros e x He N X Y. rewrite LL in Y by auto. destruct (EL' e He N X) as (X1 & X2). destruct (ag_L A He X1 Y) as (Z1 & Z2 & Z3). split; [exact Z1|]. assert (Nx : x <> me) by (intros ->; rewrite (Z3 Lme) in X2; discriminate). rewrite EV by exact Z1. rewrite Z2, (proj2 (Z.eqb_neq x me) Nx). split; [reflexivity|].
    intros Q. rewrite EE by auto. apply Z3. apply (LV' x Z1 Q).
  - intros e He N X. destruct (EL' e He N X) as (X1 & X2). destruct (NE e He X1) as (x & Hx & Y1 & Y2). exists x. split; [exact Hx|]. rewrite LL by auto. split; [|exact Y2]. rewrite LV by exact Hx. rewrite Y1. cbn. rewrite Bool.negb_true_iff, Z.eqb_neq. intros ->. destruct (ag_L A He X1 Y2) as (_ & _ & Z3). rewrite (Z3 Lme) in X2. discriminate.
  - intros e He N X. rewrite DO by auto. destruct (EL' e He N X) as (X1 & X2). etransitivity; [|exact (ag_dg A He X1)].
    rewrite (@wt_ext n (fun x => lvb Pe1 Elen1 x && mL Iw' Pe1 Len1 e x) (fun x => lvb Pe1 Elen1 x && mL Iw Pe Len e x) (fun x => Z.abs (rd Nv' x)) (rd Nv)).
    + apply wt_le; [|intros x Hx Y; apply Bool.andb_true_iff in Y; pose proof (NVP x Hx (proj1 Y)); lia]. intros x Hx. rewrite !Bool.andb_true_iff. intros (Y1 & Y2). split; [|exact Y2]. apply (LV' x Hx Y1).
    + intros x Hx. rewrite LL by auto. split; [reflexivity|]. intros Y. apply Bool.andb_true_iff in Y. destruct Y as (Y & _). destruct (LV' x Hx Y) as (Y1 & _). rewrite ABN by exact Hx. pose proof (NVP x Hx Y1). lia.
  - intros x X. pose proof X as X0. apply LMB in X. destruct X as (R & X). apply LMS in X. destruct X as (X1 & N & X2). assert (LX : lvb Pe1 Elen1 x = true) by (rewrite LV, X1, (proj2 (Z.eqb_neq x me) N) by exact R; reflexivity).
    destruct X2 as [X2|(e & X2 & X3)].
    + right. rewrite VV by auto. destruct (ag_V A Hme Lme X2) as (_ & _ & _ & Y). apply Y. exact X1.
    + left. exists e. destruct (EEM e X2) as (R2 & X4 & _ & Ne). rewrite EE by auto. destruct (ag_L A R2 X4 X3) as (_ & _ & Y). split; [apply Y; exact X1|]. apply HW3; [exact R2|]. apply (ABS e R2 Ne X2).
  - split; [exact HW1|]. intros x Hx. split; [apply HW2; exact Hx|]. intros P. rewrite HW3 by exact Hx. destruct (Z.eq_dec x me) as [->|N]; [rewrite (md_wme M); apply HW; [exact Hme|lia]|]. destruct (PNEG x Hx N P) as (Q1 & Q2). destruct (MOV x Hx N Q1) as (_ & ->). apply HW; auto.
  - rewrite (md_dg M). fold lm. apply wt_ext. intros x Hx. rewrite LMB', NV by exact Hx. split; [reflexivity|]. intros X. rewrite X. cbn. lia.
  - eapply dlist_ext; [exact (md_dl M)| | |auto].
    + intros x. fold lm. split.
      * intros (X1 & X2 & X3). rewrite LMB' in X3 by exact X1. destruct (LV' x X1 X2). tauto.
      * intros ((X1 & X2 & X3) & X4). rewrite LMB' by exact X1. rewrite LV by exact X1. rewrite X2, (proj2 (Z.eqb_neq x me) X3). auto.
    + intros x ((X1 & X2 & X3) & X4). rewrite DO by auto. auto.
  - intros x X. apply LMB in X. destruct X as (R & X). apply LMS in X. destruct X as (X1 & N & _). rewrite DO by auto. apply (@dl_sc _ _ _ _ _ _ _ DL x). auto.
  - rewrite (@lsum_ext n (oPe me Pe1) (rd Len1) (oPe me Pe') (rd Len')); [exact (md_sum M)|]. intros x Hx. unfold oPe. destruct (Z.eqb_spec x me) as [|N]; [lia|]. rewrite PO, LO by auto. tauto.
  - eapply forest_ext; [exact (md_fo M)|auto| | |].
    + intros x Hx. unfold fPe. destruct (Z.eqb_spec x me) as [->|N]; [|left; apply PO; auto]. right. rewrite PM, NV, Z.eqb_refl, Bool.orb_true_r by exact Hx. fold nvp. lia.
    + intros x Hx X. unfold ev1 in X. rewrite EV by exact Hx. exact X.
    + intros x Hx X. rewrite EV in X by exact Hx. destruct (md_fo M) as (g & d & T & F). apply (fo_ev F Hx X).
Qed.

Lemma live_ex n lv nv : (forall x, 0 <= x < n -> lv x = false) \/ (exists x, 0 <= x < n /\ lv x = true) -> 0 < wt n lv nv -> exists x, 0 <= x < n /\ lv x = true.
Proof. intros [H|H] X; [|exact H]. assert (Z0 : wt n lv nv = 0); [|lia]. apply sumz_zero. intros x Hx. rewrite H by exact Hx. reflexivity. Qed.
Lemma dec_live n (lv : Z -> bool) : (forall x, 0 <= x < n -> lv x = false) \/ (exists x, 0 <= x < n /\ lv x = true).
Proof.
  destruct (existsb lv (zseq 0 n)) eqn:E.
  - right. apply existsb_exists in E. destruct E as (x & Hx & X). apply in_zseq in Hx. exists x. auto.
  - left. intros x Hx. destruct (lv x) eqn:X; [|reflexivity]. rewrite <- E. symmetry. apply existsb_exists. exists x. split; [apply in_zseq; exact Hx|exact X].
Qed.

(* the count of a step: v variables are eliminated, and each gains at most the rows that are left *)
Definition count_ok (n ndense : Z) (t t' : a2st) : Prop :=
  exists v, 1 <= v /\ t_nel t' = t_nel t + v /\ t_lnz t' <= t_lnz t + (v * (n - t_nel t' + ndense) + (v - 1) * v / 2).
Theorem step_ok1 aggr n nz wbig ndense t : inv n nz t -> t_nel t < n -> 0 <= ndense -> wp (a2_step aggr n wbig ndense t) (fun t' => inv n nz t' /\ count_ok n ndense t t') nerr.
Proof.
  intros I HN HND. destruct t as [Iw Pe Len Nv Next Last Head Elen Degree W pfree mindeg me0 nel wflg lemax lnz].
  pose proof (in_n I) as Hn. pose proof (in_len I) as HL. pose proof (in_iw I) as HIW. pose proof (in_pf I) as HPF. pose proof (in_rng I) as RNG. pose proof (in_lay I) as LAY. pose proof (in_obj I) as OBJ. pose proof (in_agr I) as AGR. pose proof (in_ne I) as NE.
  pose proof (in_nv I) as NVH. pose proof (in_lv I) as LVH. pose proof (in_sum I) as SUM. destruct (in_dl I) as (rk & DL). pose proof (in_min I) as MIN. pose proof (in_nel I) as NEL. pose proof (in_w I) as WO. pose proof (in_dg I) as DG. pose proof (in_lnz I) as LNZ. pose proof (in_fo I) as FO. clear I.
  cbn [t_Iw t_Pe t_Len t_Nv t_Next t_Last t_Head t_Elen t_Degree t_W t_pfree t_mindeg t_me t_nel t_wflg t_lemax t_lnz] in *.
  set (lv := lvb Pe Elen) in *. pose proof HL as (L1 & L2 & L3 & L4 & L5 & L6 & L7 & L8 & L9).
  destruct (@live_ex n lv (rd Nv) (dec_live n lv) ltac:(lia)) as (x0 & Rx0 & Lx0).
  assert (Dec : forall c, {0 <= c < n /\ lv c = true} + {~ (0 <= c < n /\ lv c = true)}). { intros c. destruct (lv c); [|right; intros (_ & X); discriminate]. destruct (Z_le_dec 0 c); [|right; lia]. destruct (Z_lt_dec c n); [left; auto|right; lia]. }
  unfold a2_step. apply wp_bind. eapply wp_conseq.
  { apply (@a2_min_ok n _ _ _ _ Head rk DL Dec L6 (ex_intro _ x0 (conj Rx0 Lx0)) (Z.to_nat (n - mindeg)) mindeg me0); [lia| |intros c (Rc & Lc); apply MIN; auto]. pose proof (proj2 MIN x0 Rx0 Lx0). destruct (@dl_sc _ _ _ _ _ _ _ DL x0 (conj Rx0 Lx0)). lia. }
  intros [md me] (M1 & (Hme & Lme) & M3 & M4 & M5 & M6). wg; [lia|]. set (inext := rd Next me) in *. pose proof (@dl_nx _ _ _ _ _ _ _ DL me (conj Hme Lme)) as NXT. fold inext in NXT. apply wp_bind.
  eapply wp_conseq with (Q := fun L => zlen L = n /\ forall x, 0 <= x < n -> rd L x = if x =? inext then EMPTY else rd Last x).
  { destruct (Z.eqb_spec inext EMPTY) as [Q|Q]; cbn [negb].
    - cbn. split; [exact L5|]. intros x Hx. destruct (Z.eqb_spec x inext); [unfold EMPTY in *; lia|reflexivity].
    - destruct NXT as [X|((X & _) & _)]; [contradiction|]. apply wp_set; [lia|]. rewrite zlen_wr. split; [exact L5|]. intros x Hx. apply rd_wr; lia. }
  intros Last1 (Q1 & Q2). ws; [lia|]. set (Head1 := wr Head md inext).
  assert (DL1 : dlist n (fun x => 0 <= x < n /\ lv x = true /\ x <> me) (rd Degree) (rd Next) (rd Last1) (rd Head1) rk).
  { eapply (@dl_remove n _ (rd Degree) (rd Next) (rd Last) (rd Head) rk me); [exact DL|exact (conj Hme Lme)| | | |].
    - intros x. tauto.
    - intros x (X1 & X2 & X3). rewrite M4. destruct (Z.eqb_spec x EMPTY); [unfold EMPTY in *; lia|reflexivity].
    - intros x (X1 & X2 & X3). rewrite Q2 by exact X1. fold inext. rewrite M4. reflexivity.
    - intros s Hs. rewrite M4, Z.eqb_refl, M3. cbn [andb]. unfold Head1. rewrite rd_wr by lia. fold inext. reflexivity. }
  assert (HL1 : zlen Pe = n /\ zlen Len = n /\ zlen Nv = n /\ zlen Next = n /\ zlen Last1 = n /\ zlen Head1 = n /\ zlen Elen = n /\ zlen Degree = n /\ zlen W = n) by (unfold Head1; rewrite zlen_wr; tauto).
  wg; [lia|]. wg; [lia|]. ws; [lia|]. wg; [lia|]. set (nvp := rd Nv me) in *. destruct (ag_lv AGR Hme Lme) as (EVme & NVme). fold nvp in NVme.
  apply lvb_spec in Lme as Lme'. apply wp_bind.
  eapply wp_conseq with (Q := fun '(mkB Iw' Pe' Len' Nv' Next' Last' Head' W' _ pme1 pfree' degme, pme2) => mid n nz (zlen Iw) me Iw Pe Len Nv Elen Degree W rk Iw' Pe' Len' Nv' Next' Last' Head' W' pme1 pme2 pfree' degme).
  { destruct (Z.eqb_spec (rd Elen me) 0) as [E0|E0].
    - wg; [lia|]. apply wp_bind. eapply wp_conseq; [apply (@inplace_ok n nz (zlen Iw) me Iw Pe Len Nv Next Last1 Head1 Elen Degree W pfree rk); auto|].
      intros [[[[[[Iw' Nv'] Next'] Last'] Head'] pme2] degme] X. exact X.
    - apply wp_bind. eapply wp_conseq; [apply (@construct_ok n nz (zlen Iw) me Iw Pe Len Nv Next Last1 Head1 Elen Degree W pfree rk); auto; lia|].
      intros [Iw' Pe' Len' Nv' Next' Last' Head' W' p pme1 pfree' degme] X. exact X. }
  intros [[Iw1 Pe1 Len1 Nv1 Next1 Last2 Head2 W1 p1 pme1 pfree1 degme] pme2] MD. destruct (md_len MD) as (K1 & K2 & K3 & K4 & K5 & K6 & K7 & K8).
  ws; [lia|]. ws; [lia|]. ws; [lia|]. ws; [lia|]. apply wp_bind.
  assert (W1b : forall x, 0 <= x < n -> 0 <= rd W1 x < wflg).
  { intros x Hx. destruct WO as (WO1 & WO2). destruct (WO2 x Hx) as (Y & _). destruct (Z.eq_dec x me) as [->|N]; [rewrite (md_wme MD); exact Y|]. pose proof (md_old MD Hx N) as X. destruct (mE Iw Pe Elen me x); destruct X as (_ & ->); lia. }
  eapply wp_conseq; [apply (@clear_flag_ok n wflg wbig W1); [lia|exact K8|exact W1b]|]. intros [W2 wflg2] (CF1 & CF2 & CF3 & CF4).
  destruct (@mid_scn n nz (zlen Iw) me Iw Pe Len Nv Next Last1 Head1 Elen Degree W rk Iw1 Pe1 Len1 Nv1 Next1 Last2 Head2 W1 pme1 pme2 pfree1 degme W2 wflg2) as (SC & WT & LV2 & EL2); auto; [intros x Hx P; apply WO; auto|].
  fold nvp in SC, WT, LV2, EL2. set (Pe2 := wr Pe1 me pme1) in *. set (Len2 := wr Len1 me (pme2 - pme1 + 1)) in *. set (Elen2 := wr Elen me (FLIP (nvp + degme))) in *. set (Degree2 := wr Degree me degme) in *. fold lv in WT, LV2.
  assert (TOT : nel + nvp + wt n (lvb Pe2 Elen2) (fun x => Z.abs (rd Nv1 x)) = n) by lia.
  assert (HD : forall e, 0 <= e < n -> e <> me -> elb Pe2 Elen2 e = true -> rd Degree2 e <= lemax). { intros e He N X. unfold Degree2. rewrite rd_wr_ne by lia. apply DG; auto. }
  apply wp_bind. eapply wp_conseq; [apply (scan1_ok SC)|]. intros W3 (W3L & W3V). apply wp_bind.
  eapply wp_conseq; [apply (@scan2_ok aggr n nz (zlen Iw) me wflg2 pme1 pme2 pfree1 degme nvp (nel + nvp) Iw1 Pe2 Len2 Nv1 Next1 Last2 Head2 Elen2 Degree2 W2 rk SC W3 W3L W3V)|].
  intros s S2. pose proof (@scan2_dti aggr n nz (zlen Iw) me wflg2 pme1 pme2 pfree1 degme nvp (nel + nvp) Iw1 Pe2 Len2 Nv1 Next1 Last2 Head2 Elen2 Degree2 W2 rk lemax s SC TOT HD ltac:(lia) S2) as DT. clear S2.
  destruct s as [Iw3 Pe3 Len3 Nv3 Next3 Last3 Head3 Elen3 Degree3 W4 degme3 nvp3 nel3]. destruct DT as (DT & WB & W4L & DG0 & NEL3 & ED3 & DD3 & LM3 & EV3 & SH3 & B & BK).
  destruct (dt_len DT) as (T1 & T2 & T3 & T4 & T5 & T6). rewrite zlen_wr in T6. ws; [lia|]. apply wp_bind.
  eapply wp_conseq; [apply (@clear_flag_ok n (wflg2 + Z.max lemax degme3) wbig W4); [lia|exact W4L|intros x Hx; apply WB; exact Hx]|]. intros [W5 wflg5] (CG1 & CG2 & CG3 & CG4).
  apply wp_bind. eapply wp_conseq.
  { refine (@detect_ok n nz (zlen Iw) me pme1 pme2 pfree1 degme3 nvp3 nel3 Iw3 Len3 (wr Degree3 me degme3) _ _ rk Next1 Last2 Head2 (sc_dl SC) _ Pe3 Nv3 Elen3 Next3 Last3 Head3 B W5 wflg5 DT _ BK).
    - intros c (Rc & Lc & Mc). destruct (proj2 (LM3 c Rc) (conj Lc Mc)) as (_ & X). exact X.
    - split; [exact CG1|]. split; [exact CG2|]. intros x Hx. split; [apply CG3; exact Hx|]. intros P. rewrite CG4 by exact Hx. apply WB; auto. }
  intros [[[[[[[Pe4 Nv4] Elen4] Next4] Last4] Head4] W6] wflg6] (DT4 & WO4 & (U1 & U2 & U3) & DL4 & FR1 & FR2).
  assert (LV4 : forall x, 0 <= x < n -> (lvb Pe4 Elen4 x = true /\ lmb Iw3 pme1 pme2 x = false) <-> (lvb Pe2 Elen2 x = true /\ lmb Iw1 pme1 pme2 x = false)).
  { intros x Hx. rewrite <- LM3 by exact Hx. split; intros (X1 & X2); (split; [|exact X2]); destruct (FR1 x Hx X2) as (Y1 & _ & Y3); unfold lvb in *; [rewrite <- Y1, <- Y3|rewrite Y1, Y3]; exact X1. }
  assert (NME : forall x, 0 <= x < n -> lvb Pe4 Elen4 x = true -> x <> me). { intros x Hx X ->. destruct (dt_meq DT4) as (_ & _ & Y & _). apply lvb_spec in X. lia. }
  assert (DL5 : dlist n (fun x => 0 <= x < n /\ lvb Pe4 Elen4 x = true /\ lmb Iw3 pme1 pme2 x = false) (rd (wr Degree3 me degme3)) (rd Next4) (rd Last4) (rd Head4) rk).
  { eapply dlist_ext; [exact DL4| | |auto].
    - intros c. split; intros (X1 & X2); (split; [exact X1|]); apply (LV4 c X1); exact X2.
    - intros c (X1 & X2). pose proof (proj2 (LV4 c X1) X2) as (Y1 & Y2). rewrite rd_wr_ne by (auto; try lia; intros Q; apply (NME c X1 Y1); auto). pose proof (proj2 (LM3 c X1) X2) as (Y3 & Y4). rewrite DD3 by auto. auto. }
  apply wp_bind. eapply wp_conseq.
  { apply (@final_ok n nz (zlen Iw) me pme1 pme2 pfree1 degme3 nvp3 nel3 Iw3 Len3 (wr Degree3 me degme3) Pe4 Nv4 Elen4 DT4 ltac:(lia) Next4 Last4 Head4 rk md U1 U2 U3 DL5); lia. }
  intros [[[[[[[Iw5 Nv5] Next5] Last5] Head5] Degree5] mindeg5] p5] FIN. pose proof FIN as (V1 & V2 & V3 & V4 & V5 & _). destruct WO4 as (X1 & X2 & X3). destruct (dt_len DT4) as (_ & T2' & _). 
  ws; [lia|]. ws; [lia|].
  assert (END : inv n nz (mkA2 Iw5 (if p5 - pme1 =? 0 then wr Pe4 me EMPTY else Pe4) (wr Len3 me (p5 - pme1)) (wr Nv5 me nvp3) Next5 Last5 Head5 Elen4 Degree5 (if p5 - pme1 =? 0 then wr W6 me 0 else W6)
     (if negb (rd Elen me =? 0) then p5 else pfree1) mindeg5 me nel3 wflg6 (Z.max lemax degme3) (lnz + (nvp3 * (degme3 + ndense) + (nvp3 - 1) * nvp3 / 2)))).
  { eapply (@step_end n nz (zlen Iw) me pme1 pme2 pfree1 degme3 nvp3 nel3 Iw3 Len3 (wr Degree3 me degme3) Pe4 Nv4 Elen4 DT4 ltac:(lia)); [exact FIN|split; [exact X1|split; [exact X2|exact X3]]|exact HIW| | |lia|lia|exact LNZ|exact HND| |reflexivity|reflexivity|reflexivity].
    - intros x Hx X Y. pose proof (NME x Hx X) as N. rewrite rd_wr_ne by lia. destruct (proj1 (LV4 x Hx) (conj X Y)) as (Z1 & Z2). destruct (proj2 (LM3 x Hx) (conj Z1 Z2)) as (Z3 & Z4). rewrite DD3 by auto. unfold Degree2. rewrite rd_wr_ne by lia. rewrite LV2 in Z1 by exact Hx. apply Bool.andb_true_iff in Z1. apply M6. split; [exact Hx|apply Z1].
    - intros x Hx N X. rewrite rd_wr_ne by lia. assert (rd Degree3 x <= lemax); [|lia]. apply ED3; auto. apply elb_spec in X. destruct (FR2 x Hx ltac:(lia)) as (Y1 & Y2). apply elb_spec. rewrite <- Y1, <- Y2. exact X.
    - destruct (md_top MD) as [T|(T & T')]; [left; exact T|right]. split; [exact T|]. intros x Hx N P. destruct (FR2 x Hx P) as (Y1 & Y2). rewrite Y1 in *. destruct (SH3 x Hx N P) as (Y3 & Y4). rewrite Y3 in *. unfold Pe2, Len2 in *. rewrite !rd_wr_ne in * by lia. specialize (T' x Hx N P). lia. }
  assert (DM : degme3 <= n - nel3).
  { pose proof (dt_degme DT) as Q. pose proof (dt_tot DT) as Q'. rewrite Q. enough (wt n (fun x => lvb Pe3 Elen3 x && lmb Iw3 pme1 pme2 x) (fun x => Z.abs (rd Nv3 x)) <= wt n (lvb Pe3 Elen3) (fun x => Z.abs (rd Nv3 x))) by lia.
    apply wt_le; [|intros; lia]. intros x Hx X. apply Bool.andb_true_iff in X. apply X. }
  assert (CNT : forall l, exists v, 1 <= v /\ nel3 = nel + v /\ l + (nvp3 * (degme3 + ndense) + (nvp3 - 1) * nvp3 / 2) <= l + (v * (n - nel3 + ndense) + (v - 1) * v / 2)).
  { intros l. exists nvp3. split; [apply (dt_meq DT)|]. split; [lia|]. assert (nvp3 * (degme3 + ndense) <= nvp3 * (n - nel3 + ndense)); [|lia]. apply Z.mul_le_mono_nonneg_l; [|lia]. destruct (dt_meq DT) as (_ & _ & _ & _ & Q & _). lia. }
  specialize (CNT lnz).
  apply wp_bind. destruct (p5 - pme1 =? 0).
  - ws; [lia|]. ws; [lia|]. cbn [wp]. split; [exact END|]. exact CNT.
  - cbn [wp]. split; [exact END|]. exact CNT.
Qed.
Theorem step_ok aggr n nz wbig ndense t : inv n nz t -> t_nel t < n -> 0 <= ndense -> wp (a2_step aggr n wbig ndense t) (fun t' => inv n nz t' /\ t_nel t < t_nel t') nerr.
Proof. intros I H D. eapply wp_conseq; [apply step_ok1; eauto|]. intros t' (I' & v & V1 & V2 & _). split; [exact I'|lia]. Qed.

Theorem loop_ok aggr n nz wbig ndense : 0 <= ndense -> forall fuel t, inv n nz t -> n - t_nel t <= Z.of_nat fuel -> wp (a2_loop fuel aggr n wbig ndense t) (fun t' => inv n nz t' /\ n <= t_nel t') nerr.
Proof.
  intros HND. induction fuel as [|fuel IH]; intros t I HF; cbn [a2_loop]; destruct (Z.ltb_spec (t_nel t) n) as [X|X]; try lia; try (cbn; auto; fail).
  apply wp_bind. eapply wp_conseq; [apply step_ok; eauto|]. intros t' (I' & Y). apply IH; [exact I'|lia].
Qed.

(* the count of entries of L stays below the number of pairs of rows that have been eliminated *)
Definition lnz_ok (n ndense : Z) (t : a2st) : Prop := 2 * t_lnz t + (n - t_nel t + ndense) * (n - t_nel t + ndense - 1) <= n * (n - 1).
Lemma half_le a : 2 * (a / 2) <= a. Proof. apply Z.mul_div_le. lia. Qed.
Lemma count_step n ndense t t' : count_ok n ndense t t' -> lnz_ok n ndense t -> lnz_ok n ndense t'.
Proof.
  intros (v & V1 & V2 & V3) H. unfold lnz_ok in *. pose proof (half_le ((v - 1) * v)). set (m := n - t_nel t' + ndense) in *. replace (n - t_nel t + ndense) with (m + v) in H by lia. clearbody m. nia.
Qed.
Theorem loop_lnz aggr n nz wbig ndense : 0 <= ndense -> forall fuel t, inv n nz t -> lnz_ok n ndense t -> n - t_nel t <= Z.of_nat fuel ->
  wp (a2_loop fuel aggr n wbig ndense t) (fun t' => (inv n nz t' /\ n <= t_nel t') /\ lnz_ok n ndense t') nerr.
Proof.
  intros HND. induction fuel as [|fuel IH]; intros t I HJ HF; cbn [a2_loop]; destruct (Z.ltb_spec (t_nel t) n) as [X|X]; try lia; try (cbn; auto; fail).
  apply wp_bind. eapply wp_conseq; [apply step_ok1; eauto|]. intros t' (I' & Y). apply IH; [exact I'|eapply count_step; eauto|]. destruct Y as (v & V1 & V2 & _). lia.
Qed.
