(* AMD, part 3: the construction of the element of the pivot. *)
From Verif Require Import Base Det DetZ Spec MColamd MAmd PCol1 PCol3 PAmd1 PAmd2.
Set Implicit Arguments.
Open Scope Z_scope.
Set Bullet Behavior "Strict Subproofs".

(* a list moved: the list of x in (Iw', Pe', Len') is that of (Iw, Pe, Len) *)
Definition moved (Iw Pe Len Iw' Pe' Len' : list Z) (x : Z) : Prop :=
  if 0 <=? rd Pe x then 0 <= rd Pe' x /\ rd Len' x = rd Len x /\ forall k, 0 <= k < rd Len x -> rd Iw' (rd Pe' x + k) = rd Iw (rd Pe x + k)
  else rd Pe' x = rd Pe x.
Lemma moved_refl Iw Pe Len x : moved Iw Pe Len Iw Pe Len x.
Proof. unfold moved. destruct (Z.leb_spec 0 (rd Pe x)); auto. Qed.
Lemma moved_trans I P L I' P' L' I'' P'' L'' x : moved I P L I' P' L' x -> moved I' P' L' I'' P'' L'' x -> moved I P L I'' P'' L'' x.
Proof.
  unfold moved. destruct (Z.leb_spec 0 (rd P x)) as [H|H].
  - intros (A1 & A2 & A3). destruct (Z.leb_spec 0 (rd P' x)); [|lia]. intros (B1 & B2 & B3). split; [exact B1|]. split; [congruence|]. intros k Hk. rewrite B3 by lia. apply A3. exact Hk.
  - intros E. destruct (Z.leb_spec 0 (rd P' x)); [lia|]. congruence.
Qed.
Lemma moved_sign I P L I' P' L' x : moved I P L I' P' L' x -> (0 <= rd P x <-> 0 <= rd P' x).
Proof. unfold moved. destruct (Z.leb_spec 0 (rd P x)); intros H'; lia. Qed.

Arguments moved_sign {I P L I' P' L' x} _.
Arguments moved_trans {I P L I' P' L' I'' P'' L'' x} _ _.

(* the virtual layout while the list of e is read: re and rme entries are left of the lists of e and me *)
Definition vst (me e re rme p pj : Z) (Pe : list Z) (x : Z) : Z :=
  if x =? e then (if re =? 0 then -1 else pj) else if x =? me then (if rme =? 0 then -1 else p) else rd Pe x.
Definition vln (me e re rme : Z) (Len : list Z) (x : Z) : Z := if x =? e then re else if x =? me then rme else rd Len x.

Lemma compress_ok n me e knt1 knt2 ln p pj pme1 pfree Iw Pe Len : 0 <= n -> 0 <= me < n -> 0 <= e < n -> zlen Pe = n -> zlen Len = n ->
  0 <= pme1 <= pfree -> pfree <= zlen Iw -> (forall j, 0 <= j < pfree -> 0 <= rd Iw j < n) ->
  lay n pme1 (vst me e (ln - knt2) (rd Len me - knt1) p pj Pe) (vln me e (ln - knt2) (rd Len me - knt1) Len) ->
  wp (a2_compress n me e knt1 knt2 ln p pj pme1 pfree Iw Pe Len) (fun '(Iw', Pe', Len', p', pj', p1, pf') =>
    zlen Iw' = zlen Iw /\ zlen Pe' = n /\ zlen Len' = n /\ 0 <= p1 /\ pf' = p1 + (pfree - pme1) /\
    p1 = lsum n (vst me e (ln - knt2) (rd Len me - knt1) p pj Pe) (vln me e (ln - knt2) (rd Len me - knt1) Len) /\ p1 <= pme1 /\
    lay n p1 (rd Pe') (rd Len') /\ p' = rd Pe' me /\ pj' = rd Pe' e /\
    (forall x, 0 <= x < n -> rd Len' x = vln me e (ln - knt2) (rd Len me - knt1) Len x) /\
    (forall x, 0 <= x < n -> let s := vst me e (ln - knt2) (rd Len me - knt1) p pj Pe x in
       if 0 <=? s then 0 <= rd Pe' x /\ forall k, 0 <= k < rd Len' x -> rd Iw' (rd Pe' x + k) = rd Iw (s + k) else rd Pe' x = s) /\
    (forall k, 0 <= k < pfree - pme1 -> rd Iw' (p1 + k) = rd Iw (pme1 + k)) /\ (forall j, 0 <= j < pf' -> 0 <= rd Iw' j < n)) nerr.
Proof.
  intros Hn Hme He LP LL HP HF RI LA. unfold a2_compress. ws; [lia|]. wg; [lia|]. ws; [lia|]. set (rme := rd Len me - knt1) in *. set (re := ln - knt2) in *.
  apply wp_bind. eapply wp_conseq with (Q := fun P => zlen P = n /\ forall x, 0 <= x < n -> rd P x = if x =? me then (if rme =? 0 then -1 else p) else rd Pe x).
  { destruct (Z.eqb_spec rme 0).
    - apply wp_set; [rewrite zlen_wr; lia|]. rewrite !zlen_wr. split; [exact LP|]. intros x Hx. rewrite rd_wr by (rewrite ?zlen_wr; lia). destruct (Z.eqb_spec x me); [reflexivity|]. apply rd_wr_ne; lia.
    - cbn. rewrite zlen_wr. split; [exact LP|]. intros x Hx. apply rd_wr; lia. }
  intros Pa (La & Ea). ws; [lia|]. ws; [rewrite zlen_wr; lia|]. apply wp_bind.
  eapply wp_conseq with (Q := fun P => zlen P = n /\ forall x, 0 <= x < n -> rd P x = vst me e re rme p pj Pe x).
  { destruct (Z.eqb_spec re 0) as [E|E].
    - apply wp_set; [rewrite zlen_wr; lia|]. rewrite !zlen_wr. split; [exact La|]. intros x Hx. unfold vst. rewrite rd_wr by (rewrite ?zlen_wr; lia). destruct (Z.eqb_spec x e).
      + rewrite E. reflexivity.
      + rewrite rd_wr_ne by lia. apply Ea. exact Hx.
    - cbn. rewrite zlen_wr. split; [exact La|]. intros x Hx. unfold vst. rewrite rd_wr by lia. destruct (Z.eqb_spec x e); [destruct (Z.eqb_spec re 0); [contradiction|reflexivity]|]. apply Ea. exact Hx. }
  intros Pb (Lb & Eb). set (Len' := wr (wr Len me rme) e re).
  assert (LL' : zlen Len' = n) by (unfold Len'; rewrite !zlen_wr; exact LL).
  assert (EL' : forall x, 0 <= x < n -> rd Len' x = vln me e re rme Len x).
  { intros x Hx. unfold Len', vln. rewrite rd_wr by (rewrite ?zlen_wr; lia). destruct (x =? e); [reflexivity|]. apply rd_wr; lia. }
  assert (LA' : lay n pme1 (rd Pb) (rd Len')). { eapply lay_ext; [exact LA|lia|]. intros x Hx _. rewrite Eb, EL' by exact Hx. auto. }
  pose proof (@gc_ok n pme1 Iw Pb Len' Hn Lb LL' LA' ltac:(lia) ltac:(intros; apply RI; lia) pfree ltac:(lia) ltac:(intros; apply RI; lia)) as G.
  unfold bind in G |- *. destruct (gc_heads n Iw Pb) as [[I1 P1]| | |]; try (cbn in G; exact G || contradiction).
  destruct (gc_squeeze (Z.to_nat (pme1 + 1)) (pme1 - 1) 0 0 Len' I1 P1) as [[[I2 P2] p1]| | |]; try (cbn in G; exact G || contradiction).
  match goal with |- context [for_ pme1 pfree ?f I2] => destruct (for_ pme1 pfree f I2) as [I3| | |]; try (cbn in G; exact G || contradiction) end.
  cbn [wp] in G. destruct G as (G1 & G2 & G3 & G4 & G5 & G6 & G7 & G8). rewrite !get_rd by lia. cbn.
  repeat (split; [auto; lia|]). split; [|split; [lia|]].
  - rewrite G4. apply lsum_ext. intros x Hx. rewrite Eb, EL' by exact Hx. tauto.
  - split; [exact G5|]. split; [reflexivity|]. split; [reflexivity|]. split; [exact EL'|]. split; [|split; [exact G7|exact G8]].
    intros x Hx. specialize (G6 x Hx). rewrite Eb in G6 by exact Hx. exact G6.
Qed.

(*----------------------------------------------------------------------------*)
(* reading one list *)
Section Gather.
Variables (n nz me e knt1 ln lenme : Z) (src mec : Z -> Z) (lv ev base : Z -> bool) (Nv0 Iws Pes Lens Ws Degree : list Z) (rkd : Z -> Z) (cnt0 : Z).
Hypothesis Hn : 0 <= n.
Hypothesis Hme : 0 <= me < n.
Hypothesis He : 0 <= e < n.
Hypothesis Hln : 0 <= ln.
Hypothesis Hsrc : forall k, 0 <= k < ln -> 0 <= src k < n /\ ev (src k) = false.
Hypothesis Hlv : forall x, 0 <= x < n -> ev x = false -> if lv x then 1 <= rd Nv0 x else rd Nv0 x = 0.
Hypothesis Hlv' : forall x, 0 <= x < n -> lv x = true -> 1 <= rd Nv0 x.
Hypothesis Hbase : forall x, 0 <= x < n -> base x = true -> lv x = true /\ x <> me.
Hypothesis LD : zlen Degree = n.
Let rme := lenme - knt1.
Hypothesis Hrme : e <> me -> 0 <= rme.
Hypothesis SB : lsum n (fun x => if (x =? me) || (x =? e) then -1 else rd Pes x) (rd Lens) + (if e =? me then 0 else rme) + ln <= nz.
Variable iwlen : Z.
Hypothesis HIW : nz + n <= iwlen.

Definition msrc (dd x : Z) : bool := existsb (fun k => src k =? x) (zseq 0 dd).
Definition gs (dd x : Z) : bool := base x || (lv x && negb (x =? me) && msrc dd x).
Lemma msrc_S dd x : 0 <= dd -> msrc (dd + 1) x = msrc dd x || (src dd =? x).
Proof.
  intros H. apply bool_iff. unfold msrc. rewrite Bool.orb_true_iff, !existsb_exists, Z.eqb_eq. split.
  - intros (k & Hk & Ek). apply in_zseq in Hk. apply Z.eqb_eq in Ek. destruct (Z.eq_dec k dd) as [->|]; [auto|]. left. exists k. split; [apply in_zseq; lia|apply Z.eqb_eq; exact Ek].
  - intros [(k & Hk & Ek)|Ek]; [apply in_zseq in Hk; exists k; split; [apply in_zseq; lia|exact Ek]|exists dd; split; [apply in_zseq; lia|apply Z.eqb_eq; exact Ek]].
Qed.
Lemma gs_lv dd x : 0 <= x < n -> gs dd x = true -> lv x = true /\ x <> me.
Proof.
  intros Hx H. unfold gs in H. apply Bool.orb_true_iff in H. destruct H as [H|H]; [apply Hbase; auto|]. rewrite !Bool.andb_true_iff, Bool.negb_true_iff, Z.eqb_neq in H. tauto.
Qed.

Definition ginv (dd : Z) (st : bld * Z) : Prop := let '(mkB Iw Pe Len Nv Next Last Head W p pme1 pfree degme, pj) := st in
  (zlen Iw = iwlen /\ zlen Pe = n /\ zlen Len = n /\ zlen Nv = n /\ zlen Next = n /\ zlen Last = n /\ zlen Head = n) /\
  (0 <= pme1 <= pfree /\ pfree <= iwlen) /\ (forall j, 0 <= j < pfree -> 0 <= rd Iw j < n) /\
  lay n pme1 (vst me e (ln - dd) rme p pj Pe) (vln me e (ln - dd) rme Len) /\
  (forall x, 0 <= x < n -> x <> me -> x <> e -> moved Iws Pes Lens Iw Pe Len x) /\
  ((forall k, 0 <= k < ln - dd -> rd Iw (pj + k) = src (dd + k)) /\ (e <> me -> forall k, 0 <= k < rme -> rd Iw (p + k) = mec k) /\ (0 < ln - dd -> 0 <= pj) /\ (e <> me -> 0 < rme -> 0 <= p)) /\
  (-1 <= rd Pe me /\ -1 <= rd Pe e) /\
  ((forall x, 0 <= x < n -> memb Iw pme1 (pfree - pme1) x = gs dd x) /\ injs Iw pme1 (pfree - pme1)) /\
  (forall x, 0 <= x < n -> rd Nv x = if gs dd x || (x =? me) then - rd Nv0 x else rd Nv0 x) /\
  degme = wt n (gs dd) (rd Nv0) /\
  dlist n (fun x => (0 <= x < n /\ lv x = true /\ x <> me) /\ gs dd x = false) (rd Degree) (rd Next) (rd Last) (rd Head) rkd /\
  pfree - pme1 <= cnt0 + dd /\ ((rd Len me = lenme) \/ pme1 + n <= iwlen) /\ W = Ws.

Lemma set_lt_n Iw s l : 0 <= l -> injs Iw s l -> (forall j, s <= j < s + l -> 0 <= rd Iw j < n) -> memb Iw s l me = false -> l < n.
Proof.
  intros Hl J R M. pose proof (@seg_len n Iw s l Hl J R) as S. assert (sumz n (fun x => b2z (memb Iw s l x)) <= sumz n (fun x => b2z (negb (x =? me)))).
  { apply sumz_le. intros x Hx. destruct (Z.eqb_spec x me) as [->|]; [rewrite M; cbn; lia|]. unfold b2z. destruct (memb Iw s l x); cbn; lia. }
  rewrite (@sumz_upd n (fun x => b2z (negb (x =? me))) (fun _ => 1) me Hme) in H.
  - rewrite sumz_const, Z.eqb_refl in H by lia. cbn in H. lia.
  - intros x Hx N. destruct (Z.eqb_spec x me); [contradiction|reflexivity].
Qed.

(* one entry less of the list of e *)
Lemma lay_next dd Iw Pe Len Nv Next Last Head W p pme1 pfree degme pj : 0 <= dd < ln -> ginv dd (mkB Iw Pe Len Nv Next Last Head W p pme1 pfree degme, pj) ->
  (0 <= pj /\ pj + (ln - dd) <= pme1) /\ lay n pme1 (vst me e (ln - (dd + 1)) rme p (pj + 1) Pe) (vln me e (ln - (dd + 1)) rme Len).
Proof.
  intros Hdd G. pose proof G as ((L1 & L2 & L3 & L4 & L5 & L6 & L7) & (B1 & B2) & RI & LA & MV & (C1 & C2 & C3 & C4) & PP & (MS & JS) & NV & DG & DL & CN & NC & WE).
  specialize (C3 ltac:(lia)).
  assert (PB : 0 <= pj /\ pj + (ln - dd) <= pme1).
  { assert (X : vst me e (ln - dd) rme p pj Pe e = pj). { unfold vst. rewrite Z.eqb_refl. destruct (Z.eqb_spec (ln - dd) 0); [lia|reflexivity]. }
    pose proof (la_in LA He ltac:(lia)) as (Y1 & Y2). rewrite X in Y2. unfold vln in Y2. rewrite Z.eqb_refl in Y2. lia. }
  split; [exact PB|].
  constructor.
    - intros x Hx P. unfold vst, vln in *. destruct (Z.eqb_spec x e) as [->|Nx].
      + destruct (Z.eqb_spec (ln - (dd + 1)) 0); [lia|]. lia.
      + pose proof (la_in LA Hx) as Y. unfold vst, vln in Y. destruct (Z.eqb_spec x e); [contradiction|]. apply Y. exact P.
    - intros x y Hx Hy N Px Py. pose proof (la_dis LA Hx Hy N) as Y. unfold vst, vln in *.
      destruct (Z.eqb_spec x e) as [->|Nx].
      + destruct (Z.eqb_spec (ln - (dd + 1)) 0); [lia|]. destruct (Z.eqb_spec y e); [congruence|]. destruct (Z.eqb_spec (ln - dd) 0); [lia|]. specialize (Y ltac:(lia) Py). lia.
      + destruct (Z.eqb_spec y e) as [->|Ny]; [|apply Y; auto]. destruct (Z.eqb_spec (ln - (dd + 1)) 0); [lia|]. destruct (Z.eqb_spec (ln - dd) 0); [lia|]. specialize (Y Px ltac:(lia)). lia.
Qed.

Lemma gather1_ok dd st : 0 <= dd < ln -> ginv dd st -> wp (a2_gather1 n me e knt1 ln Degree (dd + 1) st) (ginv (dd + 1)) nerr.
Proof.
  intros Hdd G. destruct st as [[Iw Pe Len Nv Next Last Head W p pme1 pfree degme] pj]. destruct (@lay_next dd _ _ _ _ _ _ _ _ _ _ _ _ _ Hdd G) as (PB & LA1). unfold a2_gather1.
  pose proof G as ((L1 & L2 & L3 & L4 & L5 & L6 & L7) & (B1 & B2) & RI & LA & MV & (C1 & C2 & C3 & C4) & PP & (MS & JS) & NV & DG & DL & CN & NC & WE).
  destruct (@Hsrc dd Hdd) as (Ri & Vi). set (i := src dd) in *. specialize (C3 ltac:(lia)).
  wg; [lia|]. assert (EI : rd Iw pj = i) by (pose proof (C1 0 ltac:(lia)) as X; rewrite Z.add_0_r in X; rewrite X; unfold i; f_equal; lia). rewrite EI. wg; [lia|]. rewrite (NV i Ri).
  assert (GS : forall x, gs (dd + 1) x = gs dd x || (lv x && negb (x =? me) && (i =? x))).
  { intros x. unfold gs. rewrite msrc_S by lia. fold i. destruct (base x), (lv x), (x =? me), (msrc dd x), (i =? x); reflexivity. }
  destruct (gs dd i || (i =? me)) eqn:T.
  - (* already there *)
    assert (NP : 0 <= rd Nv0 i). { specialize (Hlv Ri Vi). destruct (lv i); lia. } destruct (Z.gtb_spec (- rd Nv0 i) 0) as [|_]; [lia|]. cbn.
    assert (GE : forall x, gs (dd + 1) x = gs dd x).
    { intros x. rewrite GS. destruct (Z.eqb_spec i x) as [<-|]; [|rewrite !Bool.andb_false_r, Bool.orb_false_r; reflexivity]. apply Bool.orb_true_iff in T. destruct T as [T|T]; rewrite T; [reflexivity|]. cbn. rewrite Bool.andb_false_r. cbn. apply Bool.orb_false_r. }
    split; [tauto|]. split; [lia|]. split; [exact RI|]. split; [exact LA1|]. split; [exact MV|]. split; [|split; [exact PP|split; [|split; [|split; [|split; [|split; [lia|split; [exact NC|exact WE]]]]]]]].
    + split; [|split; [exact C2|split; [lia|exact C4]]]. intros k Hk. replace (pj + 1 + k) with (pj + (k + 1)) by lia. rewrite C1 by lia. f_equal. lia.
    + split; [|exact JS]. intros x Hx. rewrite GE. apply MS. exact Hx.
    + intros x Hx. rewrite GE. apply NV. exact Hx.
    + rewrite DG. apply wt_ext. intros x _. rewrite GE. auto.
    + eapply dlist_ext; [exact DL| | |]; auto. intros x. rewrite GE. tauto.
  - apply Bool.orb_false_iff in T. destruct T as (T1 & T2). apply Z.eqb_neq in T2. pose proof (@Hlv i Ri Vi) as Li. destruct (lv i) eqn:Lvi.
    2:{ (* dead *)
      destruct (Z.gtb_spec (rd Nv0 i) 0) as [|_]; [lia|]. cbn.
      assert (GE : forall x, gs (dd + 1) x = gs dd x). { intros x. rewrite GS. destruct (Z.eqb_spec i x) as [<-|]; [rewrite Lvi; apply Bool.orb_false_r|rewrite !Bool.andb_false_r, Bool.orb_false_r; reflexivity]. }
      split; [tauto|]. split; [lia|]. split; [exact RI|]. split; [exact LA1|]. split; [exact MV|]. split; [|split; [exact PP|split; [|split; [|split; [|split; [|split; [lia|split; [exact NC|exact WE]]]]]]]].
      + split; [|split; [exact C2|split; [lia|exact C4]]]. intros k Hk. replace (pj + 1 + k) with (pj + (k + 1)) by lia. rewrite C1 by lia. f_equal. lia.
      + split; [|exact JS]. intros x Hx. rewrite GE. apply MS. exact Hx.
      + intros x Hx. rewrite GE. apply NV. exact Hx.
      + rewrite DG. apply wt_ext. intros x _. rewrite GE. auto.
      + eapply dlist_ext; [exact DL| | |]; auto. intros x. rewrite GE. tauto. }
    destruct (Z.gtb_spec (rd Nv0 i) 0) as [_|]; [|lia].
    assert (GE : forall x, gs (dd + 1) x = gs dd x || (i =? x)).
    { intros x. rewrite GS. destruct (Z.eqb_spec i x) as [<-|]; [|rewrite !Bool.andb_false_r; reflexivity]. rewrite Lvi, (proj2 (Z.eqb_neq i me) T2). reflexivity. }
    assert (NM : memb Iw pme1 (pfree - pme1) me = false). { rewrite MS by exact Hme. destruct (gs dd me) eqn:X; [|reflexivity]. apply gs_lv in X; [|exact Hme]. tauto. }
    pose proof (@set_lt_n Iw pme1 (pfree - pme1) ltac:(lia) JS ltac:(intros; apply RI; lia) NM) as CL.
    apply wp_bind.
    (* the state after the compression, if any *)
    eapply wp_conseq with (Q := fun '(Iw', Pe', Len', p', pj', pme1', pfree') =>
      zlen Iw' = iwlen /\ zlen Pe' = n /\ zlen Len' = n /\ 0 <= pme1' /\ pfree' = pme1' + (pfree - pme1) /\ pfree' < iwlen /\ (forall j, 0 <= j < pfree' -> 0 <= rd Iw' j < n) /\
      lay n pme1' (vst me e (ln - (dd + 1)) rme p' pj' Pe') (vln me e (ln - (dd + 1)) rme Len') /\
      (forall x, 0 <= x < n -> x <> me -> x <> e -> moved Iws Pes Lens Iw' Pe' Len' x) /\
      ((forall k, 0 <= k < ln - (dd + 1) -> rd Iw' (pj' + k) = src (dd + 1 + k)) /\ (e <> me -> forall k, 0 <= k < rme -> rd Iw' (p' + k) = mec k) /\ (0 < ln - (dd + 1) -> 0 <= pj') /\ (e <> me -> 0 < rme -> 0 <= p')) /\
      (-1 <= rd Pe' me /\ -1 <= rd Pe' e) /\ (forall k, 0 <= k < pfree - pme1 -> rd Iw' (pme1' + k) = rd Iw (pme1 + k)) /\ (rd Len' me = lenme \/ pme1' + n <= iwlen)).
    { destruct (Z.geb_spec pfree (zlen Iw)) as [X|X].
      - rewrite L1 in X. assert (NC' : rd Len me = lenme) by (destruct NC; [assumption|lia]). assert (RM : rd Len me - knt1 = rme) by (unfold rme; lia).
        eapply wp_conseq; [apply (@compress_ok n me e knt1 (dd + 1) ln p (pj + 1) pme1 pfree Iw Pe Len); auto; try lia; rewrite RM; exact LA1|]. rewrite RM.
        intros [[[[[[Iw' Pe'] Len'] p'] pj'] p1] pf'] (Q1 & Q2 & Q3 & Q4 & Q5 & Q6 & Q7 & Q8 & Q9 & Q10 & Q11 & Q12 & Q13 & Q14).
        assert (SUM : p1 <= nz).
        { rewrite Q6. etransitivity; [|exact SB]. unfold lsum. set (re := ln - (dd + 1)). 
          assert (E1 : forall x, 0 <= x < n -> x <> me -> x <> e -> (0 <= rd Pe x <-> 0 <= rd Pes x) /\ (0 <= rd Pe x -> rd Len x = rd Lens x)).
          { intros x Hx N1 N2. pose proof (MV x Hx N1 N2) as M. pose proof (moved_sign M). unfold moved in M. destruct (Z.leb_spec 0 (rd Pes x)); [|split; lia]. split; [lia|]. intros _. apply M. }
          assert (AUX : forall x, 0 <= x < n -> x <> me -> x <> e -> (if 0 <=? vst me e re rme p (pj + 1) Pe x then vln me e re rme Len x else 0) = (if 0 <=? (if (x =? me) || (x =? e) then -1 else rd Pes x) then rd Lens x else 0)).
          { intros x Hx N1 N2. unfold vst, vln. rewrite (proj2 (Z.eqb_neq x e) N2), (proj2 (Z.eqb_neq x me) N1). cbn [orb]. destruct (E1 x Hx N1 N2) as (Y1 & Y2). destruct (Z.leb_spec 0 (rd Pe x)), (Z.leb_spec 0 (rd Pes x)); try lia. }
          destruct (Z.eqb_spec e me) as [Em|Em].
          - rewrite (@sumz_upd n _ (fun x => if 0 <=? (if (x =? me) || (x =? e) then -1 else rd Pes x) then rd Lens x else 0) me Hme).
            + unfold vst, vln. rewrite Em, Z.eqb_refl. cbn [orb]. change (0 <=? -1) with false. cbv iota. destruct (Z.leb_spec 0 (if re =? 0 then -1 else pj + 1)); unfold re in *; lia.
            + intros x Hx N. apply AUX; congruence || auto.
          - rewrite (@sumz_upd2 n _ (fun x => if 0 <=? (if (x =? me) || (x =? e) then -1 else rd Pes x) then rd Lens x else 0) me e Hme He) by (auto; intros; apply AUX; auto).
            specialize (Hrme Em). unfold vst, vln. rewrite !Z.eqb_refl, (proj2 (Z.eqb_neq me e)), Bool.orb_true_r by auto. cbn [orb]. change (0 <=? -1) with false. cbv iota.
            destruct (Z.leb_spec 0 (if re =? 0 then -1 else pj + 1)), (Z.leb_spec 0 (if rme =? 0 then -1 else p)); unfold re in *; lia. }
        assert (PV : forall x, 0 <= x < n -> vst me e (ln - (dd + 1)) rme p' pj' Pe' x = rd Pe' x).
        { intros x Hx. specialize (Q12 x Hx). cbv zeta in Q12. unfold vst at 1. unfold vst in Q12. destruct (Z.eqb_spec x e) as [Ex|Nx].
          - rewrite Ex in *. destruct (Z.eqb_spec (ln - (dd + 1)) 0); [cbn in Q12; symmetry; exact Q12|exact Q10].
          - destruct (Z.eqb_spec x me) as [Ex|Nx']; [|reflexivity]. rewrite Ex in *. destruct (Z.eqb_spec rme 0); [cbn in Q12; symmetry; exact Q12|exact Q9]. }
        split; [lia|]. split; [exact Q2|]. split; [exact Q3|]. split; [lia|]. split; [exact Q5|]. split; [lia|]. split; [exact Q14|]. split; [|split; [|split; [|split; [|split]]]].
        + eapply lay_ext; [exact Q8|lia|]. intros x Hx _. rewrite PV by exact Hx. split; [reflexivity|]. rewrite (Q11 x Hx). unfold vln. destruct (Z.eqb_spec x e); [reflexivity|]. destruct (Z.eqb_spec x me); [reflexivity|].
          rewrite (Q11 x Hx). unfold vln. destruct (Z.eqb_spec x e); [contradiction|]. destruct (Z.eqb_spec x me); [contradiction|]. reflexivity.
        + intros x Hx N1 N2. eapply moved_trans; [apply MV; auto|]. specialize (Q12 x Hx). specialize (Q11 x Hx). cbv zeta in Q12. unfold moved. unfold vst in Q12. unfold vln in Q11. rewrite (proj2 (Z.eqb_neq x e) N2), (proj2 (Z.eqb_neq x me) N1) in *.
          rewrite Q11 in Q12. destruct (0 <=? rd Pe x); [|exact Q12]. tauto.
        + pose proof (Q12 e He) as Ze. cbv zeta in Ze. rewrite (Q11 e He) in Ze. unfold vst, vln in Ze. rewrite Z.eqb_refl in Ze. split; [|split; [|split]].
          * intros k Hk. destruct (Z.eqb_spec (ln - (dd + 1)) 0); [lia|]. destruct (Z.leb_spec 0 (pj + 1)); [|lia]. rewrite Q10, (proj2 Ze) by lia. replace (pj + 1 + k) with (pj + (k + 1)) by lia. rewrite C1 by lia. f_equal. lia.
          * intros Em k Hk. pose proof (Q12 me Hme) as Zm. cbv zeta in Zm. rewrite (Q11 me Hme) in Zm. unfold vst, vln in Zm. rewrite Z.eqb_refl, (proj2 (Z.eqb_neq me e)) in Zm by auto. destruct (Z.eqb_spec rme 0); [lia|].
            specialize (C4 Em ltac:(lia)). destruct (Z.leb_spec 0 p); [|lia]. rewrite Q9, (proj2 Zm) by lia. apply C2; auto.
          * intros Y. destruct (Z.eqb_spec (ln - (dd + 1)) 0); [lia|]. destruct (Z.leb_spec 0 (pj + 1)); [|lia]. lia.
          * intros Em Y. pose proof (Q12 me Hme) as Zm. cbv zeta in Zm. rewrite (Q11 me Hme) in Zm. unfold vst, vln in Zm. rewrite Z.eqb_refl, (proj2 (Z.eqb_neq me e)) in Zm by auto. destruct (Z.eqb_spec rme 0); [lia|].
            specialize (C4 Em ltac:(lia)). destruct (Z.leb_spec 0 p); lia.
        + assert (PS : forall x, 0 <= x < n -> -1 <= rd Pe x -> -1 <= rd Pe' x).
          { intros x Hx Y. specialize (Q12 x Hx). cbv zeta in Q12. unfold vst in Q12. destruct (Z.eqb_spec x e) as [Ex|].
            - destruct (Z.eqb_spec (ln - (dd + 1)) 0); [cbn in Q12; lia|]. destruct (Z.leb_spec 0 (pj + 1)); lia.
            - destruct (Z.eqb_spec x me) as [Ex|]; [rewrite Ex in *; destruct (Z.eqb_spec rme 0); [cbn in Q12; lia|]|].
              + destruct (Z.leb_spec 0 p) as [|Y']; [lia|]. specialize (Hrme ltac:(auto)). specialize (C4 ltac:(auto) ltac:(lia)). lia.
              + destruct (Z.leb_spec 0 (rd Pe x)); lia. }
          split; apply PS; tauto.
        + exact Q13.
        + right. lia.
      - cbn. rewrite L1 in X. split; [exact L1|]. split; [exact L2|]. split; [exact L3|]. split; [lia|]. split; [lia|]. split; [lia|]. split; [exact RI|]. split; [exact LA1|]. split; [exact MV|]. split; [|split; [exact PP|split; [auto|exact NC]]].
        split; [|split; [exact C2|split; [lia|exact C4]]]. intros k Hk. replace (pj + 1 + k) with (pj + (k + 1)) by lia. rewrite C1 by lia. f_equal. lia. }
    intros [[[[[[Iw' Pe'] Len'] p'] pj'] pme1'] pfree'] (Q1 & Q2 & Q3 & Q4 & Q5 & Q6 & Q7 & Q8 & Q9 & Q10 & Q11 & Q12 & Q13).
    ws; [lia|]. ws; [lia|]. apply wp_bind. eapply wp_conseq; [apply (dg_remove_ok i DL); auto|]. intros [[Next' Last'] Head'] (Z1 & Z2 & Z3 & ZD). cbn. rewrite !zlen_wr.
    assert (LOW : forall j, 0 <= j < pfree' -> rd (wr Iw' pfree' i) j = rd Iw' j) by (intros j Hj; apply rd_wr_ne; lia).
    assert (MOVE : forall k, 0 <= k < pfree - pme1 -> rd Iw (pme1 + k) = rd (wr Iw' pfree' i) (pme1' + k)) by (intros k Hk; rewrite LOW by lia; symmetry; apply Q12; exact Hk).
    split; [tauto|]. split; [lia|]. split; [|split; [|split; [|split; [|split; [exact Q11|split; [|split; [|split; [|split; [|split; [lia|split; [exact Q13|exact WE]]]]]]]]]]].
    + intros j Hj. destruct (Z.eq_dec j pfree') as [->|]; [rewrite rd_wr_eq by lia; exact Ri|]. rewrite LOW by lia. apply Q7. lia.
    + exact Q8.
    + intros x Hx N1 N2. pose proof (Q9 x Hx N1 N2) as M. pose proof (moved_sign M) as MSg. unfold moved in *. destruct (Z.leb_spec 0 (rd Pes x)) as [Y|Y]; [|exact M]. destruct M as (M1 & M2 & M3). split; [exact M1|]. split; [exact M2|].
      intros k Hk. pose proof (la_in Q8 Hx) as LI. unfold vst, vln in LI. rewrite (proj2 (Z.eqb_neq x e) N2), (proj2 (Z.eqb_neq x me) N1) in LI. specialize (LI M1). rewrite LOW by lia. apply M3. exact Hk.
    + destruct Q10 as (D1 & D2 & D3 & D4). split; [|split; [|split; [exact D3|exact D4]]].
      * intros k Hk. specialize (D3 ltac:(lia)). pose proof (la_in Q8 He) as LI. unfold vst, vln in LI. rewrite Z.eqb_refl in LI. destruct (Z.eqb_spec (ln - (dd + 1)) 0); [lia|]. specialize (LI D3). rewrite LOW by lia. apply D1. exact Hk.
      * intros Em k Hk. specialize (D4 Em ltac:(lia)). pose proof (la_in Q8 Hme) as LI. unfold vst, vln in LI. rewrite Z.eqb_refl, (proj2 (Z.eqb_neq me e)) in LI by auto. destruct (Z.eqb_spec rme 0); [lia|]. specialize (LI D4). rewrite LOW by lia. apply D2; auto.
    + replace (pfree' + 1 - pme1') with (pfree - pme1 + 1) by lia. split.
      * intros x Hx. rewrite memb_S by lia. rewrite <- (@memb_move Iw _ pme1 pme1' (pfree - pme1) x MOVE), MS, GE by exact Hx. f_equal. replace (pme1' + (pfree - pme1)) with pfree' by lia. rewrite rd_wr_eq by lia. reflexivity.
      * apply injs_S; [lia|]. split; [eapply injs_move; [exact MOVE|exact JS]|]. replace (pme1' + (pfree - pme1)) with pfree' by lia. rewrite rd_wr_eq by lia.
        rewrite <- (@memb_move Iw _ pme1 pme1' (pfree - pme1) i MOVE), MS by exact Ri. exact T1.
    + intros x Hx. rewrite rd_wr by lia. rewrite GE. destruct (Z.eqb_spec x i) as [->|N].
      * rewrite Z.eqb_refl, Bool.orb_true_r. reflexivity.
      * destruct (Z.eqb_spec i x); [congruence|]. rewrite Bool.orb_false_r. apply NV. exact Hx.
    + rewrite DG. symmetry. apply (@wt_add n (gs dd) (gs (dd + 1)) (rd Nv0) i Ri T1). intros x Hx. rewrite GE, (Z.eqb_sym i x). reflexivity.
    + eapply dlist_ext; [exact ZD| | |]; auto. intros x. rewrite GE, Bool.orb_false_iff, Z.eqb_neq. split; [intros ((X1 & X2 & X3) & X4 & X5)|intros (((X1 & X2 & X3) & X4) & X5)]; repeat split; auto; try lia; congruence.
Qed.

Lemma gather_ok b pj : ginv 0 (b, pj) -> wp (a2_gather n me e knt1 ln pj Degree b) (ginv ln) nerr.
Proof.
  intros G0. unfold a2_gather. replace (ginv ln) with ((fun knt2 => ginv (knt2 - 1)) (ln + 1)) by (cbv beta; f_equal; lia).
  apply wp_for with (I := fun knt2 => ginv (knt2 - 1)); [lia|exact G0|]. intros knt2 st Hk G.
  replace (knt2 + 1 - 1) with (knt2 - 1 + 1) by lia. set (dd := knt2 - 1) in *. replace knt2 with (dd + 1) by lia. apply gather1_ok; [lia|exact G].
Qed.
End Gather.

(* what holds before each entry, whatever the list *)
Inductive gok (n me e knt1 ln : Z) (Degree : list Z) (iwlen dd : Z) (st : bld * Z) : Prop :=
  Gok (nz lenme : Z) (src mec : Z -> Z) (lv ev base : Z -> bool) (Nv0 Iws Pes Lens Ws : list Z) (rkd : Z -> Z) (cnt0 : Z) :
    0 <= n -> 0 <= me < n -> 0 <= e < n -> 0 <= ln -> (forall k, 0 <= k < ln -> 0 <= src k < n /\ ev (src k) = false) ->
    (forall x, 0 <= x < n -> ev x = false -> if lv x then 1 <= rd Nv0 x else rd Nv0 x = 0) -> (forall x, 0 <= x < n -> base x = true -> lv x = true /\ x <> me) ->
    zlen Degree = n -> (e <> me -> 0 <= lenme - knt1) ->
    lsum n (fun x => if (x =? me) || (x =? e) then -1 else rd Pes x) (rd Lens) + (if e =? me then 0 else lenme - knt1) + ln <= nz -> nz + n <= iwlen ->
    ginv n me e knt1 ln lenme src mec lv base Nv0 Iws Pes Lens Ws Degree rkd cnt0 iwlen dd st -> gok n me e knt1 ln Degree iwlen dd st.

Lemma gok_step n me e knt1 ln Degree iwlen dd st : 0 <= dd < ln -> gok n me e knt1 ln Degree iwlen dd st ->
  wp (a2_gather1 n me e knt1 ln Degree (dd + 1) st) (gok n me e knt1 ln Degree iwlen (dd + 1)) nerr.
Proof.
  intros Hdd [nz lenme src mec lv ev base Nv0 Iws Pes Lens Ws rkd cnt0 H1 H2 H3 H4 H5 H6 H7 H8 H9 H10 H11 G].
  eapply wp_conseq; [eapply (@gather1_ok n nz me e knt1 ln lenme src mec lv ev base Nv0 Iws Pes Lens Ws Degree rkd cnt0); eassumption|].
  intros st' G'. econstructor; eassumption.
Qed.

(* the lists are compressed *)
Lemma gok_compress n me e knt1 ln Degree iwlen dd Iw Pe Len Nv Next Last Head W p pme1 pfree degme pj : 0 <= dd < ln ->
  gok n me e knt1 ln Degree iwlen dd (mkB Iw Pe Len Nv Next Last Head W p pme1 pfree degme, pj) -> zlen Iw <= pfree ->
  0 <= n /\ 0 <= me < n /\ 0 <= e < n /\ zlen Pe = n /\ zlen Len = n /\ 0 <= pme1 <= pfree /\ pfree <= zlen Iw /\ (forall j, 0 <= j < pfree -> 0 <= rd Iw j < n) /\
  lay n pme1 (vst me e (ln - (dd + 1)) (rd Len me - knt1) p (pj + 1) Pe) (vln me e (ln - (dd + 1)) (rd Len me - knt1) Len).
Proof.
  intros Hdd [nz lenme src mec lv ev base Nv0 Iws Pes Lens Ws rkd cnt0 H1 H2 H3 H4 H5 H6 H7 H8 H9 H10 H11 G] X.
  destruct (@lay_next n me e knt1 ln lenme src mec lv base Nv0 Iws Pes Lens Ws Degree rkd cnt0 H3 iwlen dd _ _ _ _ _ _ _ _ _ _ _ _ _ Hdd G) as (PB & LA1).
  pose proof G as ((L1 & L2 & L3 & L4 & L5 & L6 & L7) & (B1 & B2) & RI & LA & MV & (C1 & C2 & C3 & C4) & PP & (MS & JS) & NV & DG & DL & CN & NC & WE).
  assert (NM : memb Iw pme1 (pfree - pme1) me = false).
  { rewrite MS by exact H2. destruct (gs me src lv base dd me) eqn:Y; [|reflexivity]. unfold gs in Y. rewrite Z.eqb_refl in Y. cbn [negb] in Y. rewrite Bool.andb_false_r, Bool.orb_false_r in Y. destruct (H7 me H2 Y). congruence. }
  assert (CL : pfree - pme1 < n).
  { apply (@set_lt_n n me 0 0 H1 H2 Iw pme1 (pfree - pme1)); [lia|exact JS| |exact NM]. intros j Hj. apply RI. lia. }
  assert (NC' : rd Len me = lenme) by (destruct NC; [assumption|lia]). rewrite NC'. repeat (split; [assumption || lia|]). exact LA1.
Qed.
