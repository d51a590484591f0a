(* Two runs of AMD that differ only in the contents of uninitialised memory: the pivot step, the front end, AMD_order. *)
From Verif Require Import Base Det DetZ Spec MColamd MAmd PCol1 PCol3 PCol13 PAmd1 PAmd2 PAmd3 PAmd4 PAmd12 PAmd13 PAmd18 PAmd19 PAmd20 PAmd21 PUninit PUninit2 PUninit5.
Set Implicit Arguments.
Open Scope Z_scope.
Set Bullet Behavior "Strict Subproofs".

Ltac sm := apply imp_same; intros ? _.
Section Poison.
Variable w : Z.
Hypothesis Hw : w < 0.
Ltac bad := intros ?; cbv beta; rewrite (bad_get Hw); discriminate.

Lemma construct_imp n nz me Iw Iw' Pe Len Nv Next Last Head Elen Degree W pfree rk : FLIP w = n -> pois w Iw Iw' -> 1 <= n ->
  zlen Pe = n /\ zlen Len = n /\ zlen Nv = n /\ zlen Next = n /\ zlen Last = n /\ zlen Head = n /\ zlen Elen = n /\ zlen Degree = n /\ zlen W = n ->
  nz + n <= zlen Iw -> 0 <= pfree <= zlen Iw -> (forall j, 0 <= j < pfree -> 0 <= rd Iw j < n) -> lay n pfree (rd Pe) (rd Len) ->
  (forall x, 0 <= x < n -> 0 <= rd Pe x -> rd Elen x <> -1 /\ rd Elen x <= rd Len x /\ injs Iw (rd Pe x) (rd Len x)) ->
  agr n (lvb Pe Elen) (evb Elen) (elb Pe Elen) (mE Iw Pe Elen) (mV Iw Pe Len Elen) (mL Iw Pe Len) (rd Nv) (rd Degree) ->
  (forall x, 0 <= x < n -> (rd Elen x = -1 /\ rd Nv x = 0 /\ rd Pe x < 0) \/ (rd Elen x <> -1 /\ 1 <= rd Nv x)) -> (forall x, 0 <= x < n -> 0 <= rd Elen x -> 0 <= rd Pe x) ->
  lsum n (rd Pe) (rd Len) <= nz -> 0 <= me < n -> lvb Pe Elen me = true ->
  dlist n (fun x => 0 <= x < n /\ lvb Pe Elen x = true /\ x <> me) (rd Degree) (rd Next) (rd Last) (rd Head) rk -> forest n (rd Pe) (rd Nv) (evb Elen) -> 0 < rd Elen me ->
  imp (Rb w) (a2_construct n me (rd Elen me) Degree (mkB Iw Pe Len (wr Nv me (- rd Nv me)) Next Last Head W (rd Pe me) pfree pfree 0))
             (a2_construct n me (rd Elen me) Degree (mkB Iw' Pe Len (wr Nv me (- rd Nv me)) Next Last Head W (rd Pe me) pfree pfree 0)).
Proof.
  intros FW P Hn HL HIW HPF RNG LAY OBJ AGR NVH LVH SUM Hme Lme DL FO HE. unfold a2_construct. cbn [b_Len]. apply imp_same. intros lenme G. apply get_inv in G. destruct G as (_ & ->). cbv zeta.
  eapply imp_conseq; [apply (@imp_for _ _ 1 (rd Elen me + 2) _ _ (fun k b c => kinv n nz (zlen Iw) me Iw Pe Len Nv Elen Degree W rk k b /\ Rb w b c))|].
  - split; [apply kinv_0 with (Next := Next) (Last := Last) (Head := Head) (pfree := pfree) (W := W); auto|]. exists Iw'. auto.
  - intros k b c Hk (KI & RB). eapply imp_wp; [|eapply cons1_ok with (Next := Next) (Last := Last) (Head := Head) (pfree := pfree); eauto].
    pose proof (proj1 KI) as CI. specialize (CI ltac:(lia)). destruct b as [I1 P1 L1 N1 X1 T1 H1 W1 p pme1 pf dg]. destruct RB as (I1' & PI & ->). cbn [b_Iw b_Pe b_Len b_Nv b_Next b_Last b_Head b_W b_p b_pme1 b_pfree b_degme] in *. unfold a2_cons1.
    destruct (Z.gtb_spec k (rd Elen me)) as [Y|Y]; cbn [bind].
    + assert (k = rd Elen me + 1) as -> by lia. replace (rd Elen me + 1 - 1) with (rd Elen me) in CI by lia. eapply imp_bind; [eapply gather_imp; [exact Hw|exact FW| |]|].
      * eapply last_gok with (Next := Next) (Last := Last) (Head := Head) (pfree := pfree); eauto.
      * exists I1'. auto.
      * intros [[I2 P2 L2 N2 X2 T2 H2 W2 p2 pme2 pf2 dg2] pj] [c2 pj'] _ ((I2' & PI2 & E2) & _). cbn [fst snd b_Iw b_Pe b_Len b_Nv b_Next b_Last b_Head b_W b_p b_pme1 b_pfree b_degme] in *. subst c2. destruct (negb (me =? me)); [sm; sm|]; apply imp_ok; exists I2'; auto.
    + assert (exists d, k = d + 1) as (d & ->) by (exists (k - 1); lia). replace (d + 1 - 1) with d in CI by lia.
      eapply imp_bind with (R := fun s t => s = t /\ exists e, s = (e, rd P1 e, rd L1 e, p + 1) /\ e = rd I1 p).
      { apply (@imp_read w); [exact PI|bad|]. intros e Ge. apply get_inv in Ge. destruct Ge as (_ & ->). apply imp_same. intros pj G1. apply get_inv in G1. destruct G1 as (_ & ->). apply imp_same. intros ln G2. apply get_inv in G2. destruct G2 as (_ & ->). apply imp_ok. eauto. }
      intros s ? _ (<- & e & -> & ->). eapply imp_bind; [eapply gather_imp; [exact Hw|exact FW| |]|].
      * eapply construct_gok with (Next := Next) (Last := Last) (Head := Head) (pfree := pfree); eauto. lia.
      * exists I1'. auto.
      * intros [[I2 P2 L2 N2 X2 T2 H2 W2 p2 pme2 pf2 dg2] pj] [c2 pj'] _ ((I2' & PI2 & E2) & _). cbn [fst snd b_Iw b_Pe b_Len b_Nv b_Next b_Last b_Head b_W b_p b_pme1 b_pfree b_degme] in *. subst c2. destruct (negb (rd I1 p =? me)); [sm; sm|]; apply imp_ok; exists I2'; auto.
  - intros b c (_ & H). exact H.
Qed.

Definition Rt (s t : a2st) : Prop := exists Iw', pois w (t_Iw s) Iw' /\
  t = mkA2 Iw' (t_Pe s) (t_Len s) (t_Nv s) (t_Next s) (t_Last s) (t_Head s) (t_Elen s) (t_Degree s) (t_W s) (t_pfree s) (t_mindeg s) (t_me s) (t_nel s) (t_wflg s) (t_lemax s) (t_lnz s).
Theorem step_imp aggr n nz wbig ndense t t' : FLIP w = n -> inv n nz t -> t_nel t < n -> Rt t t' -> imp Rt (a2_step aggr n wbig ndense t) (a2_step aggr n wbig ndense t').
Proof.
  intros FW I HN (Iw' & P & ->). destruct t as [Iw Pe Len Nv Next Last Head Elen Degree W pfree mindeg me0 nel wflg lemax lnz].
  pose proof (in_n I) as Hn. pose proof (in_len I) as HL. pose proof (in_iw I) as HIW. pose proof (in_pf I) as HPF. pose proof (in_rng I) as RNG. pose proof (in_lay I) as LAY. pose proof (in_obj I) as OBJ. pose proof (in_agr I) as AGR. pose proof (in_ne I) as NE.
  pose proof (in_nv I) as NVH. pose proof (in_lv I) as LVH. pose proof (in_sum I) as SUM. destruct (in_dl I) as (rk & DL). pose proof (in_min I) as MIN. pose proof (in_nel I) as NEL. pose proof (in_fo I) as FO. clear I.
  cbn [t_Iw t_Pe t_Len t_Nv t_Next t_Last t_Head t_Elen t_Degree t_W t_pfree t_mindeg t_me t_nel t_wflg t_lemax t_lnz] in *.
  set (lv := lvb Pe Elen) in *. pose proof HL as (L1 & L2 & L3 & L4 & L5 & L6 & L7 & L8 & L9).
  destruct (@live_ex n lv (rd Nv) (dec_live n lv) ltac:(lia)) as (x0 & Rx0 & Lx0).
  assert (Dec : forall c, {0 <= c < n /\ lv c = true} + {~ (0 <= c < n /\ lv c = true)}). { intros c. destruct (lv c); [|right; intros (_ & X); discriminate]. destruct (Z_le_dec 0 c); [|right; lia]. destruct (Z_lt_dec c n); [left; auto|right; lia]. }
  unfold a2_step. eapply imp_bind; [eapply imp_wp; [apply imp_refl|]|].
  { apply (@a2_min_ok n _ _ _ _ Head rk DL Dec L6 (ex_intro _ x0 (conj Rx0 Lx0)) (Z.to_nat (n - mindeg)) mindeg me0); [lia| |intros c (Rc & Lc); apply MIN; auto]. pose proof (proj2 MIN x0 Rx0 Lx0). destruct (@dl_sc _ _ _ _ _ _ _ DL x0 (conj Rx0 Lx0)). lia. }
  intros [md me] ? _ ((M1 & (Hme & Lme) & M3 & M4 & M5 & M6) & <-). apply imp_same. intros inext G. apply get_inv in G. destruct G as (_ & ->). set (inext := rd Next me) in *. pose proof (@dl_nx _ _ _ _ _ _ _ DL me (conj Hme Lme)) as NXT. fold inext in NXT.
  eapply imp_bind; [eapply imp_wp with (Q := fun L => zlen L = n /\ forall x, 0 <= x < n -> rd L x = if x =? inext then EMPTY else rd Last x) (E := nerr); [apply imp_refl|]|].
  { destruct (Z.eqb_spec inext EMPTY) as [Q|Q]; cbn [negb].
    - cbn. split; [exact L5|]. intros x Hx. destruct (Z.eqb_spec x inext); [unfold EMPTY in *; lia|reflexivity].
    - destruct NXT as [X|((X & _) & _)]; [contradiction|]. apply wp_set; [lia|]. rewrite zlen_wr. split; [exact L5|]. intros x Hx. apply rd_wr; lia. }
  intros Last1 ? _ ((Q1 & Q2) & <-). apply imp_same. intros Head1 G. apply set_inv in G. destruct G as (_ & ->). set (Head1 := wr Head md inext).
  assert (DL1 : dlist n (fun x => 0 <= x < n /\ lv x = true /\ x <> me) (rd Degree) (rd Next) (rd Last1) (rd Head1) rk).
  { eapply (@dl_remove n _ (rd Degree) (rd Next) (rd Last) (rd Head) rk me); [exact DL|exact (conj Hme Lme)| | | |].
    - intros x. tauto.
    - intros x (X1 & X2 & X3). rewrite M4. destruct (Z.eqb_spec x EMPTY); [unfold EMPTY in *; lia|reflexivity].
    - intros x (X1 & X2 & X3). rewrite Q2 by exact X1. fold inext. rewrite M4. reflexivity.
    - intros s Hs. rewrite M4, Z.eqb_refl, M3. cbn [andb]. unfold Head1. rewrite rd_wr by lia. fold inext. reflexivity. }
  assert (HL1 : zlen Pe = n /\ zlen Len = n /\ zlen Nv = n /\ zlen Next = n /\ zlen Last1 = n /\ zlen Head1 = n /\ zlen Elen = n /\ zlen Degree = n /\ zlen W = n) by (unfold Head1; rewrite zlen_wr; tauto).
  apply imp_same. intros elenme G. apply get_inv in G. destruct G as (_ & ->). apply imp_same. intros nvp G. apply get_inv in G. destruct G as (_ & ->). apply imp_same. intros Nv1 G. apply set_inv in G. destruct G as (_ & ->). apply imp_same. intros pe G. apply get_inv in G. destruct G as (_ & ->).
  apply lvb_spec in Lme as Lme'. cbv zeta. eapply imp_bind with (R := Rbz w).
  { destruct (Z.eqb_spec (rd Elen me) 0) as [E0|E0].
    - apply imp_same. intros lenme _. eapply imp_bind; [apply (inplace_imp Hw _ _ _ _ _ _ _ P)|].
      intros [[[[[[I1 N1] X1] T1] H1] pme2] dg] [[[[[[I1' N1'] X1'] T1'] H1'] pme2'] dg'] _ (PI & <- & <- & <- & <- & <- & <-). apply imp_ok. split; [exists I1'; auto|reflexivity].
    - eapply imp_bind; [eapply construct_imp with (nz := nz) (rk := rk); eauto; lia|]. intros b c _ (I1' & PI & ->). apply imp_ok. split; [exists I1'; auto|reflexivity]. }
  clear - Hw FW. intros [[Iw1 Pe1 Len1 Nv1 Next1 Last2 Head2 W1 p1 pme1 pfree1 degme] pme2] [c pme2'] _ ((Iw1' & P1 & EC) & EP). cbn [fst snd b_Iw b_Pe b_Len b_Nv b_Next b_Last b_Head b_W b_p b_pme1 b_pfree b_degme] in *. subst c pme2'.
  sm. sm. sm. sm. apply imp_same. intros [W2 wflg2] _. eapply imp_bind; [apply (scan1_imp Hw _ _ _ _ _ _ _ _ P1)|]. intros W3 ? _ <-.
  eapply imp_bind; [apply (@scan2_imp w Hw); exists Iw1'; split; [exact P1|reflexivity]|]. intros [Iw3 Pe3 Len3 Nv3 Next3 Last3 Head3 Elen3 Degree3 W4 degme3 nvp3 nel3] s' _ (Iw3' & P3 & ->). cbn [s_Iw s_Pe s_Len s_Nv s_Next s_Last s_Head s_Elen s_Degree s_W s_degme s_nvpiv s_nel] in *.
  sm. apply imp_same. intros [W5 wflg5] _. eapply imp_bind; [apply (detect_imp Hw _ _ _ _ _ _ _ _ _ _ _ _ P3)|]. intros [[[[[[[Pe4 Nv4] Elen4] Next4] Last4] Head4] W6] wflg6] ? _ <-.
  eapply imp_bind; [apply (final_imp Hw _ _ _ _ _ _ _ _ _ _ _ P3)|]. intros [[[[[[[Iw5 Nv5] Next5] Last5] Head5] Degree5] mindeg5] p5] [[[[[[[Iw5' Nv5'] Next5'] Last5'] Head5'] Degree5'] mindeg5'] p5'] _ (P5 & <- & <- & <- & <- & <- & <- & <-).
  sm. sm. apply imp_same. intros [Pe6 W7] _. apply imp_ok. exists Iw5'. auto.
Qed.
Theorem loop_imp aggr n nz wbig ndense : FLIP w = n -> 0 <= ndense -> forall fuel t t', inv n nz t -> Rt t t' -> imp Rt (a2_loop fuel aggr n wbig ndense t) (a2_loop fuel aggr n wbig ndense t').
Proof.
  intros FW HND. induction fuel as [|fuel IH]; intros t t' I R; pose proof R as (Iw' & PI & E); cbn [a2_loop]; replace (t_nel t') with (t_nel t) by (subst t'; reflexivity); (destruct (Z.ltb_spec (t_nel t) n) as [X|X]; [|apply imp_ok; exact R]).
  - apply imp_not; discriminate.
  - eapply imp_bind; [eapply imp_wp; [apply (@step_imp aggr n nz wbig ndense t t' FW I X R)|apply (@step_ok aggr n nz wbig ndense t I X HND)]|]. intros s s' _ ((I' & _) & R'). apply IH; auto.
Qed.
Theorem amd_2_imp aggr n dense0 nz Iw Iw' Pe Len : FLIP w = n -> sgr n nz Iw Pe Len -> pois w Iw Iw' -> imp eq (amd_2 aggr n dense0 Pe Iw Len nz) (amd_2 aggr n dense0 Pe Iw' Len nz).
Proof.
  intros FW G P. pose proof (sg_n G) as Hn. unfold amd_2. eapply imp_bind; [eapply imp_wp; [apply imp_refl|apply (init_flag G)]|]. intros [W0 wflg] ? _ ((LW & -> & HW) & <-).
  eapply imp_bind; [eapply imp_wp; [apply imp_refl|apply (@lists_ok n nz Iw Pe Len G (Z.min n (Z.max 16 dense0)) ltac:(lia) W0 LW)]|].
  intros [[[[[[[[Pe1 Nv] Next] Last] Head] Elen] W] nel] ndense] ? _ (LS & <-). destruct (@init_inv n nz Iw Pe Len G (Z.min n (Z.max 16 dense0)) ltac:(lia) W0 Pe1 Nv Next Last Head Elen W nel ndense HW LS) as (I & N0 & D0). clear LS.
  eapply imp_bind; [apply (@loop_imp aggr n nz (2 ^ 63 - 1 - n) ndense FW (proj1 D0) (Z.to_nat n) _ _ I); exists Iw'; split; [exact P|reflexivity]|]. intros t t' _ (I2 & _ & ->). apply imp_refl.
Qed.

(* the traversal of A + A' *)
Definition pr (C A : list Z) : Prop := forall i, imp (fun v u => v = u \/ v = w) (get C i) (get A i).
Lemma imp_pr C A i T U (S : T -> U -> Prop) k k' : pr C A -> (forall x, k w <> Ok x) -> (forall v, get C i = Ok v -> imp S (k v) (k' v)) -> imp S (bind (get C i) k) (bind (get A i) k').
Proof. intros P X K. eapply imp_bind; [apply (P i)|]. intros v u G [->| ->]; [auto|apply imp_not; exact X]. Qed.
Section Trav.
Variables (S : Type) (R : S -> S -> Prop) (edge : Z -> Z -> S -> res S) (n : Z) (Ap Ai Ai' : list Z).
Hypothesis HE : forall a b s s', R s s' -> imp R (edge a b s) (edge a b s').
Hypothesis HB : forall b s x, edge w b s <> Ok x.
Hypothesis PA : pr Ai Ai'.
Lemma tr_low_imp k j : 0 <= k -> forall cnt pj s s', R s s' -> imp (fun a b => R (fst a) (fst b) /\ snd a = snd b) (tr_low edge Ai cnt k j pj s) (tr_low edge Ai' cnt k j pj s').
Proof.
  intros Hk. induction cnt as [|cnt IH]; intros pj s s' H; cbn [tr_low]; [apply imp_ok; auto|]. apply imp_pr; [exact PA| |].
  - intros x. rewrite (proj2 (Z.ltb_lt w k)) by lia. destruct (edge w j s) eqn:E; try discriminate. destruct (HB E).
  - intros i _. destruct (i <? k); [|destruct (i =? k); apply imp_ok; auto]. eapply imp_bind; [apply (@HE i j s s' H)|]. intros a b _ HR. apply IH. exact HR.
Qed.
Lemma tr_up_imp k : 0 <= k -> forall cnt p s s' Tp Tp', R s s' -> Low k Tp Tp' ->
  imp (fun a b => let '(s, Tp, p) := a in let '(s', Tp', p') := b in R s s' /\ Low k Tp Tp' /\ p = p') (tr_up edge Ap Ai cnt k p s Tp) (tr_up edge Ap Ai' cnt k p s' Tp').
Proof.
  intros Hk. induction cnt as [|cnt IH]; intros p s s' Tp Tp' H LT; cbn [tr_up]; [apply imp_ok; auto|]. apply imp_pr; [exact PA| |].
  - intros x. rewrite (proj2 (Z.ltb_lt w k)) by lia. destruct (edge w k s) eqn:E; try discriminate. destruct (HB E).
  - intros j _. destruct (Z.ltb_spec j k) as [X|X]; [|destruct (j =? k); apply imp_ok; auto]. eapply imp_bind; [apply (@HE j k s s' H)|]. intros a b _ HR. sm. rewrite <- (@low_get k Tp Tp' j LT X). apply imp_same. intros pj _. eapply imp_bind; [apply (@tr_low_imp k j Hk _ pj a b HR)|].
    intros [s1 q] [s1' q'] _ (R1 & Q). cbn [fst snd] in *. subst q'. eapply imp_bind with (R := Low k).
    + intros x G. pose proof (low_set j q LT) as SM. rewrite G in SM. destruct (set Tp' j q) as [y| | |]; cbn [sim] in SM; try contradiction. exists y. split; [reflexivity|apply SM].
    + intros T1 T1' _ LT1. apply IH; auto.
Qed.
Lemma traverse_imp s s' Tp Tp' : R s s' -> zlen Tp = zlen Tp' -> imp R (traverse edge n Ap Ai s Tp) (traverse edge n Ap Ai' s' Tp').
Proof.
  intros H L. unfold traverse, tr_main. eapply imp_bind; [apply (@imp_for _ _ 0 n _ _ (fun k a b => R (fst a) (fst b) /\ Low k (snd a) (snd b)))|].
  - split; [exact H|]. split; [exact L|]. intros i Hi. rewrite !get_out by lia. reflexivity.
  - intros k [a T] [b T'] Hk (RA & LT). cbn [fst snd] in *. sm. sm. eapply imp_bind; [apply (@tr_up_imp k ltac:(lia) _ _ a b T T' RA LT)|]. intros [[a3 T3] p] [[b3 T3'] p'] _ (R3 & LT3 & <-). eapply imp_bind with (R := Low (k + 1)).
    + intros x G. pose proof (low_set k p LT3) as SM. rewrite G in SM. destruct (set T3' k p) as [y| | |]; cbn [sim] in SM; try contradiction. exists y. split; [reflexivity|]. destruct SM as (_ & _ & _ & X). apply X. reflexivity.
    + intros T4 T4' _ LT4. apply imp_ok. auto.
  - intros [a T] [b T'] _ (RA & LT). cbn [fst snd] in *. unfold tr_rest. apply (@imp_for0 _ _ 0 n _ _ R); [exact RA|]. intros j x y Hj HR. rewrite <- (@low_get _ T T' j LT) by lia. sm. sm.
    apply (@imp_for0 _ _ _ _ _ _ R); [exact HR|]. intros q x1 y1 _ HR1. apply imp_pr; [exact PA|intros z; apply HB|]. intros i _. apply HE. exact HR1.
Qed.
End Trav.

Lemma aat_imp n Ap Ai Ai' Tp Tp' : pr Ai Ai' -> zlen Tp = zlen Tp' -> imp eq (amd_aat n Ap Ai Tp) (amd_aat n Ap Ai' Tp').
Proof.
  intros PA L. unfold amd_aat. eapply imp_bind; [eapply (@traverse_imp _ eq)|].
  - intros a b s ? <-. apply imp_refl.
  - intros b s x. unfold inc. rewrite (bad_get Hw). discriminate.
  - exact PA.
  - reflexivity.
  - exact L.
  - intros Len ? _ <-. apply imp_refl.
Qed.
Lemma build_imp n Pe Pe' Iw Iw' Tp Tp' Ap Ai Ai' Len : zlen Pe = n -> zlen Pe' = n -> zlen Tp = zlen Tp' -> pois w Iw Iw' -> pr Ai Ai' ->
  imp (fun s t => let '(Pe, Iw, pf) := s in let '(Pe', Iw', pf') := t in Pe = Pe' /\ pois w Iw Iw' /\ pf = pf') (amd_build n Pe Iw Tp Ap Ai Len) (amd_build n Pe' Iw' Tp' Ap Ai' Len).
Proof.
  intros LP LP' LT PI PA. unfold amd_build. eapply imp_bind; [apply (@imp_for _ _ 0 n _ _ (fun k a b => Low k (fst a) (fst b) /\ snd a = snd b /\ zlen (fst a) = n))|].
  - split; [|auto]. cbn [fst]. split; [lia|]. intros i Hi. rewrite !get_out by lia. reflexivity.
  - intros k [a p] [b p'] Hk (LA & E & LZ). cbn [fst snd] in *. subst p'. eapply imp_bind with (R := fun x y => Low (k + 1) x y /\ zlen x = n).
    + intros x G. pose proof (low_set k p LA) as SM. rewrite G in SM. destruct (set b k p) as [y| | |]; cbn [sim] in SM; try contradiction. exists y. split; [reflexivity|]. destruct SM as (-> & _ & _ & X). rewrite zlen_wr. split; [apply X; reflexivity|exact LZ].
    + intros a1 b1 _ (L1 & Z1). sm. apply imp_ok. auto.
  - intros [a p] [b p'] _ (LA & E & LZ). cbn [fst snd] in *. subst p'. assert (b = a) as ->.
    { pose proof (proj1 LA) as ZZ. apply list_ext; [lia|]. intros i Hi. pose proof (@low_get _ a b i LA ltac:(lia)) as X. rewrite !get_rd in X by lia. congruence. }
    eapply imp_bind; [eapply (@traverse_imp _ (fun s t => pois w (fst s) (fst t) /\ snd s = snd t))|].
    + intros x y [I1 S1] [I1' S1'] (P1 & E1). cbn [fst snd] in *. subst S1'. sm. apply (@imp_set w); [exact P1|auto|]. intros C A PC. sm. sm. apply (@imp_set w); [exact PC|auto|]. intros C2 A2 PC2. sm. apply imp_ok. auto.
    + intros y [I1 S1] x. rewrite (bad_get Hw). discriminate.
    + exact PA.
    + split; [exact PI|reflexivity].
    + exact LT.
    + intros s t _ (P1 & _). apply imp_ok. auto.
Qed.
Lemma preprocess_imp n Ap Ai Rp Rp' Ri Ri' : zlen Rp = n + 1 -> zlen Rp' = n + 1 -> pois w Ri Ri' ->
  imp (fun s t => fst s = fst t /\ pois w (snd s) (snd t)) (amd_preprocess n Ap Ai Rp Ri) (amd_preprocess n Ap Ai Rp' Ri').
Proof.
  intros L L' PR. unfold amd_preprocess. apply imp_same. intros [W Fl] _. eapply imp_bind with (R := eq).
  { unfold pp_starts. eapply imp_bind with (R := fun a b => zlen a = n + 1 /\ Low 1 a b).
    - intros x G. pose proof G as G'. apply set_inv in G'. destruct G' as (RR & ->). exists (wr Rp' 0 0). split; [apply set_wr; lia|]. rewrite zlen_wr. split; [exact L|]. split; [rewrite !zlen_wr; lia|]. intros i Hi. rewrite !get_wr by lia. destruct (Z.eqb_spec i 0); [reflexivity|]. rewrite !get_out by lia. reflexivity.
    - intros a b _ (LA & LW). eapply imp_conseq; [apply (@imp_for _ _ 0 n _ _ (fun k x y => zlen x = n + 1 /\ Low (k + 1) x y) a b)|].
      + auto.
      + intros k x y Hk (LX & LO). rewrite <- (@low_get _ x y k LO) by lia. sm. sm. intros z G. pose proof (low_set (k + 1) (a0 + a1) LO) as SM. rewrite G in SM. destruct (set y (k + 1) (a0 + a1)) as [u| | |]; cbn [sim] in SM; try contradiction. exists u. split; [reflexivity|]. destruct SM as (-> & _ & _ & X). rewrite zlen_wr. split; [exact LX|apply X; reflexivity].
      + intros x y (LX & LO). pose proof (proj1 LO) as ZZ. apply list_ext; [lia|]. intros i Hi. pose proof (@low_get _ x y i LO ltac:(lia)) as X. rewrite !get_rd in X by lia. congruence. }
  intros Rq ? _ <-. sm. eapply imp_bind with (R := fun a b => let '(Ri, W, F) := a in let '(Ri', W', F') := b in pois w Ri Ri' /\ W = W' /\ F = F').
  - unfold pp_fill. set (RR := fun (a b : list Z * list Z * list Z) => let '(Ri, W, F) := a in let '(Ri', W', F') := b in pois w Ri Ri' /\ W = W' /\ F = F'). apply (@imp_for0 _ _ 0 n _ _ RR); [cbn; auto|].
    intros j s t _ HR. sm. sm. apply (@imp_for0 _ _ _ _ _ _ RR); [exact HR|]. clear s t HR. intros p [[R1 W1] F1] [[R1' W1'] F1'] _ (P1 & <- & <-). sm. sm. destruct (negb _); [|apply imp_ok; cbn; auto]. sm. apply (@imp_set w); [exact P1|auto|]. intros C A PC. sm. sm. apply imp_ok. cbn. auto.
  - intros [[R1 W1] F1] [[R1' W1'] F1'] _ (P1 & <- & <-). apply imp_ok. auto.
Qed.
End Poison.

Lemma pois_block w f lo k : 0 <= k -> pois w (block (fun _ => w) lo k) (block f lo k).
Proof.
  intros H. split; [rewrite !zlen_block by exact H; reflexivity|]. intros i Hi. right. assert (X : In (rd (block (fun _ => w) lo k) i) (block (fun _ => w) lo k)).
  { unfold rd. apply nth_In. unfold zlen in Hi. lia. }
  unfold block in X at 2. apply in_map_iff in X. destruct X as (y & <- & _). reflexivity.
Qed.
Theorem amd_uninit junk junk' aggr n dense0 Ap Ai : jpat n Ap Ai -> amd_order junk aggr n dense0 Ap Ai = amd_order junk' aggr n dense0 Ap Ai.
Proof.
  intros JP. pose proof (jp_n JP) as Hn. pose proof (jp_ap JP) as La. pose proof (@jap n Ap Ai JP 0 n ltac:(lia) ltac:(lia)) as Z0. rewrite (jp_0 JP) in Z0. set (w := - n - 2).
  assert (M : forall junk, imp eq (amd_order (fun _ _ => w) aggr n dense0 Ap Ai) (amd_order junk aggr n dense0 Ap Ai)).
  { clear junk junk'. intros junk. assert (Hw : w < 0) by (unfold w; lia). assert (FW : FLIP w = n) by (unfold FLIP, w; lia). unfold amd_order. rewrite (proj2 (Z.ltb_ge n 0)) by lia. rewrite (proj2 (Z.eqb_neq n 0)) by lia.
    apply imp_same. intros nz G. apply get_inv in G. destruct G as (_ & ->). rewrite (proj2 (Z.ltb_ge (rd Ap n) 0)) by lia.
    eapply imp_bind; [eapply imp_wp; [apply imp_refl|apply (valid_ok JP)]|]. intros b ? _ (Hb & <-). eapply imp_bind with (R := fun s t => spat n (fst s) (snd s) /\ fst s = fst t /\ pois w (snd s) (snd t)).
    { destruct b; [|apply imp_ok; split; [apply Hb; reflexivity|split; [reflexivity|apply pois_refl]]]. eapply imp_conseq; [eapply imp_wp; [apply preprocess_imp; [apply zlen_block; lia|apply zlen_block; lia|apply pois_block; lia]|apply (@preprocess_ok n Ap Ai JP); apply zlen_block; lia]|].
      intros [Rp Ri] t ((X & _) & Y). split; [exact X|exact Y]. }
    intros [Cp Ci] [Cp' Ci'] _ (SP & EP & PC). cbn [fst snd] in *. subst Cp'. eapply imp_bind; [eapply imp_wp; [apply (@aat_imp w Hw n Cp Ci Ci' _ (block (junk 0) 0 n) (fun i => pois_get i PC)); rewrite !zlen_block by lia; reflexivity|apply (@aat_ok n Cp Ci SP); apply zlen_block; lia]|].
    intros [Len nzaat] ? _ ((D & HD & LL & HL & ->) & <-). assert (NN : 0 <= sumz n (rd Len)) by (apply sumz_nonneg; intros k Hk; rewrite HL by exact Hk; apply cnt_nn). pose proof (Z.div_pos (sumz n (rd Len)) 5 NN ltac:(lia)) as DP. cbv zeta.
    eapply imp_bind; [eapply imp_wp; [apply (@build_imp w Hw n); [apply zlen_block; lia|apply zlen_block; lia|rewrite !zlen_block by lia; reflexivity|apply pois_block; lia|exact (fun i => pois_get i PC)]|
      apply (@build_ok n Cp Ci SP (sumz n (rd Len) + sumz n (rd Len) / 5 + 7 * n - 6 * n)) with (D := D); try apply zlen_block; auto; lia]|].
    intros [[Pe Iw] pfree] [[Pe' Iw'] pfree'] _ ((-> & GR) & <- & PI & <-). eapply imp_bind; [apply (@amd_2_imp w Hw aggr n dense0 _ Iw Iw' Pe Len FW GR PI)|]. intros r ? _ <-. apply imp_refl. }
  destruct (wp_ok_ex _ _ (@amd_order_ok (fun _ _ => w) aggr n dense0 Ap Ai JP)) as (v & E & _). destruct (M junk v E) as (u & -> & <-). destruct (M junk' v E) as (u & -> & <-). reflexivity.
Qed.

(* The part of AMD_order after the optional sorting reads only the entries between the first and the last column pointer. *)
Definition amd_rest (junk : Z -> Z -> Z) (aggr : bool) (n dense0 : Z) (Cp Ci : list Z) : res (option (list Z * Z)) :=
  let* st := amd_aat n Cp Ci (block (junk 0) 0 n) in
  let '(Len, nzaat) := st in
  let* st := amd_build n (block (junk 3) 0 n) (block (junk 3) (6 * n) (nzaat + nzaat / 5 + 7 * n - 6 * n)) (block (junk 3) (5 * n) n) Cp Ci Len in
  let '(Pe, Iw, pfree) := st in
  let* r := amd_2 aggr n dense0 Pe Iw Len pfree in Ok (Some r).
Lemma rest_ok junk aggr n dense0 Cp Ci : spat n Cp Ci -> exists v, amd_rest junk aggr n dense0 Cp Ci = Ok v.
Proof.
  intros SP. pose proof (sp_n SP) as Hn. enough (W : wp (amd_rest junk aggr n dense0 Cp Ci) (fun _ => True) nerr) by (apply wp_ok_ex in W; destruct W as (v & E & _); eauto). unfold amd_rest.
  apply wp_bind. eapply wp_conseq; [apply (@aat_ok n Cp Ci SP); apply zlen_block; lia|]. intros [Len nzaat] (D & HD & LL & HL & ->).
  assert (NN : 0 <= sumz n (rd Len)) by (apply sumz_nonneg; intros k Hk; rewrite HL by exact Hk; apply cnt_nn).
  pose proof (Z.div_pos (sumz n (rd Len)) 5 NN ltac:(lia)) as DP.
  apply wp_bind. eapply wp_conseq; [apply (@build_ok n Cp Ci SP (sumz n (rd Len) + sumz n (rd Len) / 5 + 7 * n - 6 * n)) with (D := D); try apply zlen_block; auto; lia|].
  intros [[Pe Iw] pfree] (-> & G). apply wp_bind. eapply wp_conseq; [apply (amd_2_ok aggr dense0 G)|]. intros r _. exact I.
Qed.
Lemma rest_imp junk aggr n dense0 Cp Ci Ci' : spat n Cp Ci -> pr (- n - 2) Ci Ci' -> imp eq (amd_rest (fun _ _ => - n - 2) aggr n dense0 Cp Ci) (amd_rest junk aggr n dense0 Cp Ci').
Proof.
  intros SP PC. pose proof (sp_n SP) as Hn. set (w := - n - 2) in *. assert (Hw : w < 0) by (unfold w; lia). assert (FW : FLIP w = n) by (unfold FLIP, w; lia). unfold amd_rest.
  eapply imp_bind; [eapply imp_wp; [apply (@aat_imp w Hw n Cp Ci Ci' _ (block (junk 0) 0 n) PC); rewrite !zlen_block by lia; reflexivity|apply (@aat_ok n Cp Ci SP); apply zlen_block; lia]|].
  intros [Len nzaat] ? _ ((D & HD & LL & HL & ->) & <-). assert (NN : 0 <= sumz n (rd Len)) by (apply sumz_nonneg; intros k Hk; rewrite HL by exact Hk; apply cnt_nn). pose proof (Z.div_pos (sumz n (rd Len)) 5 NN ltac:(lia)) as DP.
  eapply imp_bind; [eapply imp_wp; [apply (@build_imp w Hw n); [apply zlen_block; lia|apply zlen_block; lia|rewrite !zlen_block by lia; reflexivity|apply pois_block; lia|exact PC]|
    apply (@build_ok n Cp Ci SP (sumz n (rd Len) + sumz n (rd Len) / 5 + 7 * n - 6 * n)) with (D := D); try apply zlen_block; auto; lia]|].
  intros [[Pe Iw] pfree] [[Pe' Iw'] pfree'] _ ((-> & GR) & <- & PI & <-). eapply imp_bind; [apply (@amd_2_imp w Hw aggr n dense0 _ Iw Iw' Pe Len FW GR PI)|]. intros r ? _ <-. apply imp_refl.
Qed.
Theorem rest_uninit junk junk' aggr n dense0 Cp Ci Ci' : spat n Cp Ci -> spat n Cp Ci' -> (forall q, 0 <= q < rd Cp n -> rd Ci q = rd Ci' q) ->
  amd_rest junk aggr n dense0 Cp Ci = amd_rest junk' aggr n dense0 Cp Ci'.
Proof.
  intros S1 S2 H. pose proof (sp_n S1) as Hn. pose proof (sp_ai S1) as C1. pose proof (sp_ai S2) as C2.
  assert (Z0 : 0 <= rd Cp n). { rewrite <- (sp_0 S1). apply (@mono_le (rd Cp) n); try lia. apply S1. }
  set (C0 := map (rd Ci) (zseq 0 (rd Cp n))). assert (L0 : zlen C0 = rd Cp n). { unfold C0, zlen. rewrite map_length. fold (zlen (zseq 0 (rd Cp n))). rewrite zlen_zseq; lia. }
  assert (R0 : forall q, 0 <= q < rd Cp n -> rd C0 q = rd Ci q).
  { intros q Hq. unfold C0, rd at 1. rewrite (nth_indep _ 0 (rd Ci 0)) by (fold C0; unfold zlen in L0; lia). rewrite map_nth. f_equal. change (rd (zseq 0 (rd Cp n)) q = q) in |- *. rewrite rd_zseq; lia. }
  assert (M : forall x y, 0 <= x -> x <= y -> y <= n -> rd Cp x <= rd Cp y) by (apply mono_le; apply S1).
  assert (S0 : spat n Cp C0).
  { constructor; try apply S1; [lia| |].
    - intros q Hq. rewrite R0 by exact Hq. apply (sp_row S1 Hq).
    - intros j q q' Hj Hq Hq'. pose proof (M 0 j ltac:(lia) ltac:(lia) ltac:(lia)). pose proof (M (j + 1) n ltac:(lia) ltac:(lia) ltac:(lia)). rewrite (sp_0 S1) in *. rewrite !R0 by lia. apply (sp_inc S1 Hj); lia. }
  assert (P1 : pr (- n - 2) C0 Ci). { intros i v E. apply get_inv in E. destruct E as (RR & ->). rewrite L0 in RR. exists (rd Ci i). split; [apply get_rd; lia|]. left. apply R0. exact RR. }
  assert (P2 : pr (- n - 2) C0 Ci'). { intros i v E. apply get_inv in E. destruct E as (RR & ->). rewrite L0 in RR. exists (rd Ci' i). split; [apply get_rd; lia|]. left. rewrite <- H by exact RR. apply R0. exact RR. }
  destruct (@rest_ok (fun _ _ => - n - 2) aggr n dense0 Cp C0 S0) as (v & E). destruct (@rest_imp junk aggr n dense0 Cp C0 Ci S0 P1 v E) as (u & -> & <-). destruct (@rest_imp junk' aggr n dense0 Cp C0 Ci' S0 P2 v E) as (u & -> & <-). reflexivity.
Qed.
