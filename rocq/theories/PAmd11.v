(* AMD, part 11: the end of a step. *)
From Verif Require Import Base Det DetZ Spec MColamd MAmd PCol1 PCol3 PAmd1 PAmd2 PAmd3 PAmd4 PAmd5 PAmd6 PAmd7 PAmd8 PAmd9 PAmd10.
Set Implicit Arguments.
Open Scope Z_scope.
Set Bullet Behavior "Strict Subproofs".

Section Final.
Variables (n nz iwlen me pme1 pme2 pfree degme nvp nel : Z) (Iw Len Degree Pe Nv Elen : list Z).
Hypothesis D : dti n nz iwlen me pme1 pme2 pfree degme nvp nel Iw Len Degree Pe Nv Elen.
Hypothesis NEL : 0 <= nel.
Let lm := lmb Iw pme1 pme2.
Let lv := lvb Pe Elen.
Definition keepf (x : Z) : bool := rd Nv x <? 0.

Lemma keep_lv x : lm x = true -> keepf x = lv x.
Proof.
  intros Mx. destruct (dt_lm D Mx) as (Rx & Ex). destruct (dt_meq D) as (M1 & M2 & M3 & M4 & M5 & M6). unfold evb in Ex. apply Z.ltb_ge in Ex. assert (Nx : x <> me) by (intros ->; lia). unfold keepf.
  destruct (dt_nv D Rx Nx) as [(Y1 & Y2 & Y3)|(Y1 & Y2)].
  - rewrite Y2. symmetry. unfold lv, lvb. rewrite Y1, Bool.andb_false_r. reflexivity.
  - fold lm in Y2. rewrite Mx in Y2. replace (lv x) with true; [apply Z.ltb_lt; lia|]. symmetry. apply lvb_spec. split; [apply (dt_lv2 D Rx); lia|lia].
Qed.

Definition fin (Iw' Nv' Next' Last' Head' Degree' : list Z) (mindeg' p mindeg j : Z) : Prop :=
  zlen Nv' = n /\ zlen Next' = n /\ zlen Last' = n /\ zlen Head' = n /\ zlen Degree' = n /\ comp Iw Iw' keepf pme1 pme1 j p /\
  (forall x, 0 <= x < n -> rd Nv' x = if dn pme1 Iw (j - pme1) x && lv x then - rd Nv x else rd Nv x) /\
  (forall x, 0 <= x < n -> dn pme1 Iw (j - pme1) x && lv x = false -> rd Degree' x = rd Degree x) /\
  (exists rk', dlist n (fun x => 0 <= x < n /\ lv x = true /\ (lm x = false \/ dn pme1 Iw (j - pme1) x = true)) (rd Degree') (rd Next') (rd Last') (rd Head') rk') /\
  (0 <= mindeg' <= mindeg /\ forall x, 0 <= x < n -> dn pme1 Iw (j - pme1) x = true -> lv x = true -> mindeg' <= rd Degree' x).

Lemma final_ok Next Last Head rk mindeg : zlen Next = n -> zlen Last = n -> zlen Head = n -> dlist n (fun x => 0 <= x < n /\ lv x = true /\ lm x = false) (rd Degree) (rd Next) (rd Last) (rd Head) rk -> 0 <= mindeg ->
  wp (a2_final n nel degme pme1 pme2 Iw Nv Next Last Head Degree mindeg) (fun '(Iw', Nv', Next', Last', Head', Degree', mindeg', p) => fin Iw' Nv' Next' Last' Head' Degree' mindeg' p mindeg (pme2 + 1)) nerr.
Proof.
  intros LN LL LH DL HM. destruct (dt_pf D) as (P1 & P2 & P3 & P4). destruct (dt_len D) as (L1 & L2 & L3 & L4 & L5 & L6). unfold a2_final.
  apply wp_for with (I := fun j '(Iw', Nv', Next', Last', Head', Degree', mindeg', p) => fin Iw' Nv' Next' Last' Head' Degree' mindeg' p mindeg j); [lia| |].
  - assert (D0 : forall x, dn pme1 Iw (pme1 - pme1) x = false) by (intros x; apply memb_0; lia).
    unfold fin. repeat (split; [assumption|]). split; [apply comp_0|]. split; [intros x Hx; rewrite D0; reflexivity|]. split; [auto|]. split; [|split; [lia|intros x Hx X; rewrite D0 in X; discriminate]].
    exists rk. eapply dlist_ext; [exact DL| |auto|auto]. intros c. rewrite D0. split; [intros (X1 & X2 & [X3|X3]); [auto|discriminate]|tauto].
  - intros j [[[[[[[Iw' Nv'] Next'] Last'] Head'] Degree'] mindeg'] p] Hj (F1 & F2 & F3 & F4 & F5 & F6 & F7 & F8 & (rk' & F9) & F10 & F11).
    pose proof (@lm_at pme1 pme2 Iw (j - pme1) ltac:(lia)) as Mi. replace (pme1 + (j - pme1)) with j in Mi by lia. fold lm in Mi. pose proof (cp_len F6) as LI. destruct (cp_w F6) as (W1 & W2). wg; [lia|].
    rewrite (cp_out F6) by lia.
    assert (DNS : forall c, dn pme1 Iw (j + 1 - pme1) c = dn pme1 Iw (j - pme1) c || (rd Iw j =? c)). { intros c. replace (j + 1 - pme1) with (j - pme1 + 1) by lia. rewrite (@dn_S pme1 Iw (j - pme1) c) by lia. replace (pme1 + (j - pme1)) with j by lia. reflexivity. }
    assert (DNI : dn pme1 Iw (j - pme1) (rd Iw j) = false). { unfold dn. apply memb_false. intros k Hk X. assert (k = j); [|lia]. apply (dt_inj D); [lia|lia|exact X]. }
    pose proof (keep_lv _ Mi) as KI.
    destruct (dt_lm D Mi) as (Ri & Ei). wg; [lia|]. rewrite F7, DNI by exact Ri. cbn [andb].
    assert (LE : rd Iw' p = rd Iw' p) by reflexivity.
    destruct (Z.gtb_spec (- rd Nv (rd Iw j)) 0) as [NI|NI].
    + assert (KT : keepf (rd Iw j) = true) by (apply Z.ltb_lt; lia). rewrite KT in KI. pose proof (comp_keep F6 ltac:(lia) P1 ltac:(lia) KT) as F6'. set (i := rd Iw j) in *. clearbody i.
      ws; [lia|]. wg; [lia|]. rewrite F8 by (auto; rewrite DNI; reflexivity).
      destruct (lm_facts D Mi (eq_sym KI)) as (A1 & A2 & A3 & A4 & A5 & A6 & A7 & A8 & A9). destruct (dt_fst D Mi (eq_sym KI)) as (_ & _ & DG).
      set (nvi := - rd Nv i) in *. set (deg := Z.min (rd Degree i + degme - nvi) (n - nel - nvi)).
      assert (DM : nvi <= degme). { rewrite (dt_degme D). replace nvi with (Z.abs (rd Nv i)) by lia. apply (@wt_in n (fun x => lvb Pe Elen x && lmb Iw pme1 pme2 x) (fun x => Z.abs (rd Nv x)) i); [intros; lia|exact Ri|]. fold lm lv. rewrite <- KI, Mi. reflexivity. }
      assert (TT : nvi <= n - nel). { pose proof (dt_tot D). pose proof (@wt_in n (lvb Pe Elen) (fun x => Z.abs (rd Nv x)) i ltac:(intros; lia) Ri (eq_sym KI)) as X. cbv beta in X. lia. }
      assert (Rd : 0 <= deg < n) by (unfold deg; lia).
      wg; [lia|]. set (inext := rd Head' deg) in *. pose proof (dl_hd F9 Rd) as HD. apply wp_bind.
      eapply wp_conseq with (Q := fun L => zlen L = n /\ forall x, 0 <= x < n -> rd L x = if x =? inext then i else rd Last' x).
      { destruct (Z.eqb_spec inext EMPTY) as [Q|Q]; cbn [negb].
        - cbn. split; [exact F3|]. intros x Hx. destruct (Z.eqb_spec x inext); [unfold EMPTY in *; lia|reflexivity].
        - destruct HD as [X|((X & _) & _)]; [contradiction|]. apply wp_set; [fold inext in X; lia|]. rewrite zlen_wr. split; [exact F3|]. intros x Hx. apply rd_wr; fold inext in X; lia. }
      intros L (Q1 & Q2). ws; [lia|]. ws; [lia|]. ws; [lia|]. ws; [lia|]. ws; [lia|]. cbn. unfold fin. rewrite !zlen_wr.
      repeat (split; [assumption|]). split; [|split; [|split]].
      * intros x Hx. rewrite rd_wr by lia. rewrite DNS, (Z.eqb_sym i x). destruct (Z.eqb_spec x i) as [->|Nx]; [rewrite Bool.orb_true_r, <- KI; reflexivity|]. rewrite Bool.orb_false_r. apply F7. exact Hx.
      * intros x Hx X. rewrite DNS in X. destruct (Z.eqb_spec i x) as [<-|Nx]; [rewrite Bool.orb_true_r, <- KI in X; discriminate|]. rewrite Bool.orb_false_r in X. rewrite rd_wr_ne by lia. apply F8; auto.
      * assert (NA : ~ (0 <= i < n /\ lv i = true /\ (lm i = false \/ dn pme1 Iw (j - pme1) i = true))) by (intros (_ & _ & [X|X]); congruence).
        eapply (@dl_insert n _ (rd Degree') (rd Next') (rd Last') (rd Head') rk' i); [exact F9|exact NA|exact Ri|rewrite rd_wr_eq by lia; exact Rd| | | | | | |].
        -- intros x. rewrite DNS. split.
           ++ intros (X1 & X2 & [X3|X3]); [auto|]. apply Bool.orb_true_iff in X3. destruct X3 as [X3|X3]; [left; auto|]. apply Z.eqb_eq in X3. auto.
           ++ intros [(X1 & X2 & [X3|X3])| ->]; [auto|rewrite X3; auto|rewrite Z.eqb_refl, Bool.orb_true_r; auto].
        -- intros x (X1 & X2). apply rd_wr_ne; [lia|lia|]. intros ->. apply NA. split; auto.
        -- rewrite !rd_wr_eq by lia. reflexivity.
        -- apply rd_wr_eq. lia.
        -- intros x (X1 & X2). apply rd_wr_ne; [lia|lia|]. intros ->. apply NA. split; auto.
        -- intros x (X1 & X2). rewrite rd_wr_ne; [|lia|lia|intros ->; apply NA; split; auto]. rewrite rd_wr_eq by lia. apply Q2. exact X1.
        -- intros s Hs. rewrite rd_wr by lia. rewrite rd_wr_eq by lia. reflexivity.
      * split; [lia|]. intros x Hx X Y. rewrite DNS in X. rewrite rd_wr by lia. destruct (Z.eqb_spec x i) as [->|Nx]; [lia|]. rewrite (proj2 (Z.eqb_neq i x)), Bool.orb_false_r in X by auto. pose proof (F11 x Hx X Y). lia.
    + assert (KF : keepf (rd Iw j) = false) by (apply Z.ltb_ge; lia). rewrite KF in KI. pose proof (comp_drop F6 ltac:(lia) KF) as F6'. set (i := rd Iw j) in *. clearbody i. cbn. unfold fin.
      assert (DL' : forall x, dn pme1 Iw (j + 1 - pme1) x && lv x = dn pme1 Iw (j - pme1) x && lv x). { intros x. rewrite DNS. destruct (Z.eqb_spec i x) as [<-|]; [rewrite <- KI, !Bool.andb_false_r; reflexivity|rewrite Bool.orb_false_r; reflexivity]. }
      repeat (split; [assumption|]). split; [intros x Hx; rewrite DL'; apply F7; exact Hx|]. split; [intros x Hx X; rewrite DL' in X; apply F8; auto|]. split; [|split; [lia|]].
      * exists rk'. eapply dlist_ext; [exact F9| |auto|auto]. intros x. specialize (DL' x). split; intros (X1 & X2 & [X3|X3]); repeat split; auto; try lia; right; rewrite X2, !Bool.andb_true_r in DL'; congruence.
      * intros x Hx X Y. apply F11; auto. specialize (DL' x). rewrite Y, !Bool.andb_true_r in DL'. congruence.
Qed.

(* the end of the step, amd_2.c:1499-1531 *)
Lemma step_end Iw' Nv' Next' Last' Head' Degree' mindeg' p mindeg W wflg lemax lnz0 ndense elenme Pe2 W2 pfree2 :
  fin Iw' Nv' Next' Last' Head' Degree' mindeg' p mindeg (pme2 + 1) -> wok n wflg Pe W -> nz + n <= iwlen ->
  (forall x, 0 <= x < n -> lv x = true -> lm x = false -> mindeg <= rd Degree x) ->
  (forall x, 0 <= x < n -> x <> me -> elb Pe Elen x = true -> rd Degree x <= lemax) -> degme <= lemax -> 0 <= lemax -> 0 <= lnz0 -> 0 <= ndense ->
  (elenme = 0 \/ (pfree = pme2 + 1 /\ forall x, 0 <= x < n -> x <> me -> 0 <= rd Pe x -> rd Pe x + rd Len x <= pme1)) ->
  Pe2 = (if p - pme1 =? 0 then wr Pe me EMPTY else Pe) -> W2 = (if p - pme1 =? 0 then wr W me 0 else W) -> pfree2 = (if negb (elenme =? 0) then p else pfree) ->
  inv n nz (mkA2 Iw' Pe2 (wr Len me (p - pme1)) (wr Nv' me nvp) Next' Last' Head' Elen Degree' W2 pfree2 mindeg' me nel wflg lemax (lnz0 + (nvp * (degme + ndense) + (nvp - 1) * nvp / 2))).
Proof.
  intros (F1 & F2 & F3 & F4 & F5 & F6 & F7 & F8 & (rk' & F9) & F10 & F11) (WO1 & WO2 & WO3) HIW HMIN HDG HDM HLM HLZ HND TOP HPe HW HPF.
  destruct (dt_pf D) as (P1 & P2 & P3 & P4). destruct (dt_len D) as (L1 & L2 & L3 & L4 & L5 & L6). destruct (dt_meq D) as (M1 & M2 & M3 & M4 & M5 & M6). pose proof (dt_me D) as Hme. pose proof (dt_n D) as Hn. pose proof (dt_agr D) as A.
  pose proof (cp_len F6) as LI. destruct (cp_w F6) as (C1 & C2). pose proof (cp_mem F6) as C3. pose proof (cp_inj F6 (dt_inj D)) as C4.
  assert (DN : forall x, dn pme1 Iw (pme2 + 1 - pme1) x = lm x) by reflexivity.
  assert (NLM : lm me = false). { destruct (lm me) eqn:X; [|reflexivity]. destruct (dt_lm D X) as (_ & Y). apply Z.ltb_ge in Y. lia. }
  set (Len2 := wr Len me (p - pme1)). set (Nv2 := wr Nv' me nvp).
  assert (LZ : zlen Pe2 = n /\ zlen W2 = n) by (rewrite HPe, HW; destruct (p - pme1 =? 0); rewrite ?zlen_wr; auto).
  assert (PO : forall x, 0 <= x < n -> x <> me -> rd Pe2 x = rd Pe x) by (intros x Hx N; rewrite HPe; destruct (p - pme1 =? 0); [apply rd_wr_ne; lia|reflexivity]).
  assert (PM : rd Pe2 me = if p - pme1 =? 0 then -1 else pme1) by (rewrite HPe; destruct (p - pme1 =? 0); [apply rd_wr_eq; lia|exact M1]).
  assert (LO : forall x, 0 <= x < n -> x <> me -> rd Len2 x = rd Len x) by (intros; apply rd_wr_ne; lia).
  assert (LM : rd Len2 me = p - pme1) by (apply rd_wr_eq; lia).
  assert (SEG : forall x, 0 <= x < n -> x <> me -> 0 <= rd Pe x -> forall j, rd Pe x <= j < rd Pe x + rd Len x -> rd Iw' j = rd Iw j).
  { intros x Hx N P j Hj. pose proof (dt_dis D Hx N P). pose proof (la_in (dt_lay D) Hx) as Y. unfold oPe in Y. rewrite (proj2 (Z.eqb_neq x me) N) in Y. specialize (Y P). apply (cp_out F6); lia. }
  assert (LV : forall x, 0 <= x < n -> lvb Pe2 Elen x = lv x).
  { intros x Hx. destruct (Z.eq_dec x me) as [->|N]; [unfold lv, lvb; rewrite (proj2 (Z.leb_gt 0 (rd Elen me))) by lia; rewrite !Bool.andb_false_r; reflexivity|]. unfold lv, lvb. rewrite PO by auto. reflexivity. }
  assert (LVN : forall x, lv x = true -> x <> me) by (intros x X ->; apply lvb_spec in X; lia).
  assert (EL : forall x, 0 <= x < n -> x <> me -> elb Pe2 Elen x = elb Pe Elen x) by (intros x Hx N; unfold elb; rewrite PO by auto; reflexivity).
  assert (EM : elb Pe2 Elen me = negb (p - pme1 =? 0)). { unfold elb. rewrite PM, (proj2 (Z.ltb_lt _ _) M3), Bool.andb_true_r. destruct (p - pme1 =? 0); [reflexivity|]. cbn. apply Z.leb_le. lia. }
  assert (ELE : forall e, 0 <= e < n -> elb Pe2 Elen e = true -> elb Pe Elen e = true). { intros e He X. destruct (Z.eq_dec e me) as [->|N]; [apply elb_spec; lia|]. rewrite <- EL; auto. }
  assert (EE : forall x e, 0 <= x < n -> lv x = true -> mE Iw' Pe2 Elen x e = mE Iw Pe Elen x e).
  { intros x e Hx X. pose proof (LVN x X) as N. unfold mE. rewrite PO by auto. apply lvb_spec in X. destruct (dt_obj D Hx N (proj1 X)) as (_ & O2 & _). apply memb_ext. intros j Hj. apply (SEG x); auto; lia. }
  assert (VV : forall x y, 0 <= x < n -> lv x = true -> mV Iw' Pe2 Len2 Elen x y = mV Iw Pe Len Elen x y).
  { intros x e Hx X. pose proof (LVN x X) as N. unfold mV. rewrite PO, LO by auto. apply lvb_spec in X. destruct (dt_obj D Hx N (proj1 X)) as (_ & O2 & _). apply memb_ext. intros j Hj. apply (SEG x); auto; lia. }
  assert (LL : forall e x, 0 <= e < n -> e <> me -> elb Pe Elen e = true -> mL Iw' Pe2 Len2 e x = mL Iw Pe Len e x).
  { intros e x He N X. unfold mL. rewrite PO, LO by auto. apply elb_spec in X. apply memb_ext. intros j Hj. apply (SEG e); auto; lia. }
  assert (LMM : forall x, p - pme1 <> 0 -> mL Iw' Pe2 Len2 me x = lm x && keepf x). { intros x X. unfold mL. rewrite PM, LM. rewrite (proj2 (Z.eqb_neq _ _) X). apply C3. }
  assert (MLM : forall x, mL Iw Pe Len me x = lm x). { intros x. unfold mL. rewrite M1, M2. replace (pme2 - pme1 + 1) with (pme2 + 1 - pme1) by lia. reflexivity. }
  assert (LMK : forall x, lm x = true -> lv x = true -> p - pme1 <> 0). { intros x X Y Z0. pose proof (C3 x) as Q. fold lm in Q. change (memb Iw pme1 (pme2 + 1 - pme1) x) with (lm x) in Q. rewrite X, (keep_lv _ X), Y in Q. rewrite memb_0 in Q by lia. discriminate. }
  assert (NVX : forall x, 0 <= x < n -> rd Nv2 x = if x =? me then nvp else Z.abs (rd Nv x)).
  { intros x Hx. unfold Nv2. rewrite rd_wr by lia. destruct (Z.eqb_spec x me) as [|N]; [reflexivity|]. rewrite F7, DN by exact Hx. destruct (dt_nv D Hx N) as [(Y1 & Y2 & Y3)|(Y1 & Y2)].
    - rewrite Y2. destruct (lm x && lv x); reflexivity.
    - fold lm in Y2. destruct (lm x) eqn:Lx; [|cbn; lia]. rewrite <- (keep_lv _ Lx). unfold keepf. rewrite (proj2 (Z.ltb_lt _ _)) by lia. cbn. lia. }
  assert (NVL : forall x, 0 <= x < n -> lv x = true -> rd Nv2 x = Z.abs (rd Nv x)). { intros x Hx X. rewrite NVX by exact Hx. rewrite (proj2 (Z.eqb_neq x me)); auto. }
  assert (DGE : forall x, 0 <= x < n -> lm x && lv x = false -> rd Degree' x = rd Degree x) by (intros x Hx X; apply F8; auto).
  assert (DGL : forall e, 0 <= e < n -> elb Pe Elen e = true -> rd Degree' e = rd Degree e). { intros e He X. apply DGE; [exact He|]. apply Bool.andb_false_iff. right. apply elb_spec in X. unfold lv, lvb. rewrite (proj2 (Z.leb_gt 0 (rd Elen e))) by lia. apply Bool.andb_false_r. }
  assert (RNG : forall j, 0 <= j < pfree -> 0 <= rd Iw' j < n).
  { intros j Hj. destruct (Z.lt_ge_cases j pme1); [rewrite (cp_out F6) by lia; apply (dt_rng D); lia|]. destruct (Z.lt_ge_cases j p); [|rewrite (cp_out F6) by lia; apply (dt_rng D); lia].
    pose proof (@memb_at Iw' pme1 (p - pme1) j ltac:(lia)) as X. rewrite C3 in X. apply Bool.andb_true_iff in X. destruct X as (X & _). apply (dt_lm D X). }
  assert (PFP : p <= pfree2 <= pfree) by (rewrite HPF; destruct (elenme =? 0); cbn; lia).
  assert (LAI : forall x, 0 <= x < n -> x <> me -> 0 <= rd Pe x -> 1 <= rd Len x /\ rd Pe x + rd Len x <= pfree2 /\ (rd Pe x + rd Len x <= pme1 \/ p <= rd Pe x)).
  { intros x Hx N P. pose proof (la_in (dt_lay D) Hx) as Y. unfold oPe in Y. rewrite (proj2 (Z.eqb_neq x me) N) in Y. specialize (Y P). pose proof (dt_dis D Hx N P). split; [lia|]. split; [|lia]. rewrite HPF. destruct (Z.eqb_spec elenme 0); cbn; [lia|]. destruct TOP as [|(_ & T)]; [contradiction|]. specialize (T x Hx N P). lia. }
  constructor; cbn [t_Iw t_Pe t_Len t_Nv t_Next t_Last t_Head t_Elen t_Degree t_W t_pfree t_mindeg t_me t_nel t_wflg t_lemax t_lnz].
  - exact Hn.
  - unfold Len2, Nv2. rewrite !zlen_wr. tauto.
  - lia.
  - lia.
  - intros j Hj. apply RNG. lia.
  - constructor.
    + intros x Hx P. destruct (Z.eq_dec x me) as [->|N]; [rewrite PM, LM in *; destruct (Z.eqb_spec (p - pme1) 0); lia|]. rewrite PO, LO in * by auto. destruct (LAI x Hx N P). lia.
    + intros x y Hx Hy N Px Py. destruct (Z.eq_dec x me) as [->|Nx], (Z.eq_dec y me) as [->|Ny]; try contradiction.
      * rewrite (PO y), (LO y), LM, PM in * by auto. destruct (Z.eqb_spec (p - pme1) 0); [lia|]. destruct (LAI y Hy Ny Py) as (_ & _ & X). lia.
      * rewrite (PO x), (LO x), LM, PM in * by auto. destruct (Z.eqb_spec (p - pme1) 0); [lia|]. destruct (LAI x Hx Nx Px) as (_ & _ & X). lia.
      * rewrite !PO, !LO in * by auto. pose proof (la_dis (dt_lay D) Hx Hy N) as X. unfold oPe in X. rewrite (proj2 (Z.eqb_neq x me) Nx), (proj2 (Z.eqb_neq y me) Ny) in X. auto.
  - intros x Hx P. destruct (Z.eq_dec x me) as [->|N].
    + rewrite LM, PM in *. destruct (Z.eqb_spec (p - pme1) 0); [lia|]. split; [lia|]. split; [lia|exact C4].
    + rewrite PO, LO in * by auto. destruct (dt_obj D Hx N P) as (O1 & O2 & O3). split; [exact O1|]. split; [exact O2|]. eapply injs_ext; [|exact O3]. intros j Hj. symmetry. apply (SEG x); auto.
  - constructor.
    + intros x Hx X. rewrite LV in X by exact Hx. destruct (ag_lv A Hx X) as (Y1 & Y2). split; [exact Y1|]. rewrite NVL by auto. exact Y2.
    + intros e He X. apply (ag_el A He). apply ELE; auto.
    + intros x e Hx X Y. rewrite LV in X by exact Hx. rewrite EE in Y by auto. destruct (ag_E A Hx X Y) as (Z1 & Z2 & Z3). split; [exact Z1|]. destruct (Z.eq_dec e me) as [->|N].
      * rewrite MLM in Z3. pose proof (LMK x Z3 X) as Q. rewrite EM, LMM by exact Q. rewrite (proj2 (Z.eqb_neq _ _) Q), Z3, (keep_lv _ Z3), X. auto.
      * rewrite EL, LL by auto. auto.
    + intros x y Hx X Y. rewrite LV in X by exact Hx. rewrite VV in Y by auto. destruct (ag_V A Hx X Y) as (Z1 & Z2 & Z3 & Z4). repeat (split; [assumption|]). intros Q. rewrite LV in Q by exact Z1. rewrite VV by auto. auto.
    + intros e x He X Y. pose proof (ELE e He X) as X'. assert (Y' : mL Iw Pe Len e x = true).
      { destruct (Z.eq_dec e me) as [->|N]; [|rewrite <- LL by auto; exact Y]. rewrite MLM. rewrite EM, Bool.negb_true_iff, Z.eqb_neq in X. rewrite LMM in Y by exact X. apply Bool.andb_true_iff in Y. apply Y. }
      destruct (ag_L A He X' Y') as (Z1 & Z2 & Z3). split; [exact Z1|]. split; [exact Z2|]. intros Q. rewrite LV in Q by exact Z1. rewrite EE by auto. auto.
    + intros e He X. pose proof (ELE e He X) as X'. rewrite DGL by auto. etransitivity; [|exact (ag_dg A He X')]. fold lv.
      rewrite (@wt_ext n (fun x => lvb Pe2 Elen x && mL Iw' Pe2 Len2 e x) (fun x => lv x && mL Iw' Pe2 Len2 e x) (rd Nv2) (fun x => Z.abs (rd Nv x))).
      * apply wt_le; [|intros; lia]. intros x Hx. rewrite !Bool.andb_true_iff. intros (Y1 & Y2). split; [exact Y1|]. destruct (Z.eq_dec e me) as [->|N]; [|rewrite <- LL by auto; exact Y2]. rewrite MLM. rewrite EM, Bool.negb_true_iff, Z.eqb_neq in X. rewrite LMM in Y2 by exact X. apply Bool.andb_true_iff in Y2. apply Y2.
      * intros x Hx. rewrite LV by exact Hx. split; [reflexivity|]. intros Y. apply Bool.andb_true_iff in Y. destruct Y as (Y & _). apply NVL; auto.
  - intros e He X. destruct (Z.eq_dec e me) as [->|N].
    + rewrite EM, Bool.negb_true_iff, Z.eqb_neq in X. pose proof (@memb_at Iw' pme1 (p - pme1) pme1 ltac:(lia)) as Y. rewrite C3 in Y. change (memb Iw pme1 (pme2 + 1 - pme1) (rd Iw' pme1)) with (lm (rd Iw' pme1)) in Y. apply Bool.andb_true_iff in Y. destruct Y as (Y1 & Y2). exists (rd Iw' pme1). destruct (dt_lm D Y1) as (R & _).
      split; [exact R|]. rewrite LV by exact R. rewrite <- (keep_lv _ Y1). split; [exact Y2|]. rewrite LMM by exact X. rewrite Y1, Y2. reflexivity.
    + pose proof (ELE e He X) as X'. destruct (@dt_ne _ _ _ _ _ _ _ _ _ _ _ _ _ _ _ _ D e He) as (x & Hx & Y1 & Y2); [rewrite X', (proj2 (Z.eqb_neq e me) N); reflexivity|]. exists x. split; [exact Hx|]. rewrite LV, LL by auto. auto.
  - intros x Hx. rewrite NVX by exact Hx. destruct (Z.eqb_spec x me) as [->|N]; [right; lia|]. rewrite PO by auto. destruct (dt_nv D Hx N) as [(Y1 & Y2 & Y3)|(Y1 & Y2)]; [left; lia|right]. destruct (lmb Iw pme1 pme2 x); lia.
  - intros x Hx X. destruct (Z.eq_dec x me) as [->|N]; [lia|]. rewrite PO by auto. apply (dt_lv2 D Hx X).
  - pose proof (dt_sum D) as SU. unfold lsum in *. rewrite (@sumz_upd n _ (fun x => if 0 <=? oPe me Pe x then rd Len x else 0) me Hme).
    + rewrite PM, LM. unfold oPe at 2. rewrite Z.eqb_refl. cbn [Z.leb Z.compare]. destruct (Z.eqb_spec (p - pme1) 0); cbn [Z.leb Z.compare]; [lia|]. destruct (0 <=? pme1); lia.
    + intros x Hx N. rewrite PO, LO by auto. unfold oPe. rewrite (proj2 (Z.eqb_neq x me) N). reflexivity.
  - exists rk'. eapply dlist_ext; [exact F9| |auto|auto]. intros x. cbv beta. change (dn pme1 Iw (pme2 + 1 - pme1) x) with (lm x). split.
    + intros (X1 & X2). rewrite LV in X2 by exact X1. repeat split; auto; try lia. destruct (lm x); auto.
    + intros (X1 & X2 & _). rewrite LV by exact X1. auto.
  - split; [lia|]. intros x Hx X. rewrite LV in X by exact Hx. destruct (lm x) eqn:Lx; [apply F11; auto|]. rewrite DGE by (auto; rewrite Lx; reflexivity). pose proof (HMIN x Hx X Lx). lia.
  - split; [|exact NEL]. transitivity (nel + wt n lv (fun x => Z.abs (rd Nv x))); [|exact (dt_tot D)]. f_equal. apply wt_ext. intros x Hx. rewrite LV by exact Hx. split; [reflexivity|]. intros X. apply NVL; auto.
  - split; [exact WO2|]. intros x Hx. destruct (WO3 x Hx) as (X1 & X2). destruct (Z.eq_dec x me) as [->|N].
    + rewrite PM, HW. destruct (Z.eqb_spec (p - pme1) 0); [rewrite rd_wr_eq by lia; lia|]. split; [exact X1|]. intros _. apply X2. lia.
    + rewrite PO by auto. rewrite HW. destruct (p - pme1 =? 0); [rewrite rd_wr_ne by lia|]; auto.
  - split; [exact HLM|]. intros e He X. pose proof (ELE e He X) as X'. rewrite DGL by auto. destruct (Z.eq_dec e me) as [->|N]; [lia|]. apply HDG; auto.
  - assert (0 <= degme). { rewrite (dt_degme D). apply wt_nonneg. intros; lia. } assert (0 <= (nvp - 1) * nvp / 2) by (apply Z.div_pos; nia). nia.
  - eapply forest_ext; [exact (dt_fo D)| | |auto|].
    + intros x Hx. rewrite NVX by exact Hx. destruct (x =? me); lia.
    + intros x Hx. destruct (Z.eq_dec x me) as [->|N]; [|left; apply PO; auto]. rewrite PM, Z.eqb_refl. destruct (p - pme1 =? 0); [right; lia|left; lia].
    + intros x Hx X. destruct (dt_fo D) as (g & d & T & F). apply (fo_ev F Hx X).
Qed.
End Final.
