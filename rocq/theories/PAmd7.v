(* AMD, part 7: Scan 2. *)
From Verif Require Import Base Det DetZ Spec MColamd MAmd PCol1 PCol3 PAmd1 PAmd2 PAmd3 PAmd4 PAmd5 PAmd6.
Set Implicit Arguments.
Open Scope Z_scope.
Set Bullet Behavior "Strict Subproofs".

Lemma forest_absorbs n pe nv ev (S : Z -> bool) q pe' : forest n pe nv ev -> 0 <= q < n -> -1 <= pe q -> ev q = true ->
  (forall x, 0 <= x < n -> S x = true -> x <> q /\ -1 <= pe x /\ nv x <> 0) ->
  (forall x, 0 <= x < n -> pe' x = if S x then FLIP q else pe x) -> forest n pe' nv ev.
Proof.
  intros (grp & d & T & F) Hq Pq Eq HS H. exists grp, (fun x => if S x then T else d x), (T + 1).
  assert (FE : FLIP q < -1) by (unfold FLIP; lia).
  assert (SQ : S q = false) by (destruct (S q) eqn:X; [|reflexivity]; destruct (HS q Hq X); congruence).
  constructor.
  - apply (fo_nv F).
  - intros x Hx X. rewrite H by auto. destruct (S x) eqn:Sx; [destruct (HS x Hx Sx) as (_ & _ & Y); contradiction|]. apply (fo_dead F Hx X).
  - intros x Hx P. rewrite H in * by auto. destruct (S x) eqn:Sx.
    + rewrite flip_flip. split; [exact Hq|]. split; [lia|]. left. rewrite H, SQ by auto. exact Pq.
    + destruct (fo_par F Hx P) as (X1 & X2 & X3). split; [exact X1|]. split; [lia|]. rewrite H by auto. destruct (S (FLIP (pe x))); [right; lia|]. exact X3.
  - intros x Hx P X. rewrite H in * by auto. destruct (S x) eqn:Sx; [rewrite flip_flip; exact Eq|]. apply (fo_el F Hx P X).
  - apply (fo_ev F).
Qed.

Lemma comp_lt n A0 A keep s d j w x : comp A0 A keep s d j w -> injs A0 s (j - s) -> s <= j -> (forall i, s <= i < j -> 0 <= rd A0 i < n) -> memb A0 s (j - s) x = true -> keep x = false -> w - d < j - s.
Proof.
  intros K J Hj R M Kx. destruct (cp_w K) as (K1 & K2). pose proof (@seg_len n A0 s (j - s) ltac:(lia) J ltac:(intros; apply R; lia)) as S0.
  assert (RA : forall i, d <= i < d + (w - d) -> 0 <= rd A i < n).
  { intros i Hi. pose proof (@memb_at A d (w - d) i Hi) as X. rewrite (cp_mem K) in X. apply Bool.andb_true_iff in X. destruct X as (X & _). apply memb_spec in X. destruct X as (i0 & Hi0 & <-). apply R. lia. }
  pose proof (@seg_len n A d (w - d) ltac:(lia) (cp_inj K J) RA) as S1.
  assert (Rx : 0 <= x < n). { apply memb_spec in M. destruct M as (i0 & Hi0 & <-). apply R. lia. }
  pose proof (@sumz_pos1 n (fun y => b2z (memb A0 s (j - s) y) - b2z (memb A d (w - d) y)) x Rx) as P. cbv beta in P. rewrite sumz_sub, <- S0, <- S1, (cp_mem K), M, Kx in P. cbn in P.
  assert (1 <= j - s - (w - d)); [|lia]. apply P. intros y Hy. rewrite (cp_mem K). unfold b2z. destruct (memb A0 s (j - s) y), (keep y); cbn; lia.
Qed.

Lemma rot_ok A B p1 p3 pn me : p1 <= p3 <= pn -> p1 < pn -> (forall j, p1 <= j <= pn -> rd B j = if j =? p1 then me else if j =? p3 then rd A p1 else if j =? pn then rd A p3 else rd A j) ->
  (forall e, memb B p1 (p3 - p1 + 1) e = (e =? me) || memb A p1 (p3 - p1) e) /\ (forall y, memb B (p3 + 1) (pn - p3) y = memb A p3 (pn - p3) y) /\
  (injs A p1 (pn - p1) -> memb A p1 (pn - p1) me = false -> injs B p1 (pn - p1 + 1)).
Proof.
  intros H1 H2 HB. split; [|split].
  - intros e. apply bool_iff. rewrite Bool.orb_true_iff, Z.eqb_eq, !memb_spec. split.
    + intros (j & Hj & X). rewrite HB in X by lia. destruct (Z.eqb_spec j p1); [auto|]. right. destruct (Z.eqb_spec j p3); [exists p1; split; [lia|exact X]|]. destruct (Z.eqb_spec j pn); [lia|]. exists j. split; [lia|exact X].
    + intros [->|(j & Hj & X)]; [exists p1; split; [lia|]; rewrite HB by lia; rewrite Z.eqb_refl; reflexivity|]. destruct (Z.eq_dec j p1) as [->|N].
      * exists p3. split; [lia|]. rewrite HB by lia. destruct (Z.eqb_spec p3 p1); [lia|]. rewrite Z.eqb_refl. exact X.
      * exists j. split; [lia|]. rewrite HB by lia. destruct (Z.eqb_spec j p1); [lia|]. destruct (Z.eqb_spec j p3); [lia|]. destruct (Z.eqb_spec j pn); [lia|]. exact X.
  - intros y. apply bool_iff. rewrite !memb_spec. split.
    + intros (j & Hj & X). rewrite HB in X by lia. destruct (Z.eqb_spec j p1); [lia|]. destruct (Z.eqb_spec j p3); [lia|]. destruct (Z.eqb_spec j pn); [exists p3; split; [lia|exact X]|]. exists j. split; [lia|exact X].
    + intros (j & Hj & X). destruct (Z.eq_dec j p3) as [->|N].
      * exists pn. split; [lia|]. rewrite HB by lia. destruct (Z.eqb_spec pn p1); [lia|]. destruct (Z.eqb_spec pn p3); [lia|]. rewrite Z.eqb_refl. exact X.
      * exists j. split; [lia|]. rewrite HB by lia. destruct (Z.eqb_spec j p1); [lia|]. destruct (Z.eqb_spec j p3); [lia|]. destruct (Z.eqb_spec j pn); [lia|]. exact X.
  - intros J M i j Hi Hj. rewrite memb_false in M. rewrite !HB by lia.
    set (sg := fun j => if j =? p3 then p1 else if j =? pn then p3 else j).
    assert (SG : forall j, p1 < j <= pn -> p1 <= sg j < p1 + (pn - p1)). { intros k Hk. unfold sg. destruct (Z.eqb_spec k p3); [lia|]. destruct (Z.eqb_spec k pn); lia. }
    assert (SI : forall j, (if j =? p3 then rd A p1 else if j =? pn then rd A p3 else rd A j) = rd A (sg j)). { intros k. unfold sg. destruct (k =? p3); [reflexivity|]. destruct (k =? pn); reflexivity. }
    rewrite !SI. destruct (Z.eqb_spec i p1) as [->|Ni], (Z.eqb_spec j p1) as [->|Nj]; try reflexivity.
    + intros X. exfalso. apply (M (sg j)); [apply SG; lia|auto].
    + intros X. exfalso. apply (M (sg i)); [apply SG; lia|auto].
    + intros X. assert (Y : sg i = sg j) by (apply J; [apply SG; lia|apply SG; lia|exact X]). unfold sg in Y. destruct (Z.eqb_spec i p3), (Z.eqb_spec j p3), (Z.eqb_spec i pn), (Z.eqb_spec j pn); lia.
Qed.

Lemma bks_ext n act N0 L0 H0 N L H B (mem mem' : Z -> Prop) : bks n act N0 L0 H0 N L H B mem -> (forall c, 0 <= c < n -> mem c <-> mem' c) -> bks n act N0 L0 H0 N L H B mem'.
Proof.
  intros K HM. constructor.
  - apply (bk_len K).
  - intros h Hh. apply (bk_ch K Hh).
  - intros h c Hh X. destruct (bk_in K Hh X) as (Y1 & Y2 & Y3). split; [exact Y1|]. split; [apply HM; auto|exact Y3].
  - intros c Hc X. apply HM in X; [|exact Hc]. apply (bk_ml K Hc X).
  - intros h Hh. apply (bk_hd K Hh).
  - intros c Ac. apply (bk_nx K Ac).
  - intros c Ac Nc. apply (bk_pv K Ac Nc).
Qed.

Section Scan2.
Variables (aggr : bool) (n nz iwlen me wflg pme1 pme2 pfree degme nvp nel : Z) (Iw Pe Len Nv Next Last Head Elen Degree W : list Z) (rk : Z -> Z).
Hypothesis S : scn n nz iwlen me wflg pme1 pme2 pfree degme nvp Iw Pe Len Nv Next Last Head Elen Degree W rk.
Let lv := lvb Pe Elen.
Let ev := evb Elen.
Let E := mE Iw Pe Elen.
Let V := mV Iw Pe Len Elen.
Let L := mL Iw Pe Len.
Let lm := lmb Iw pme1 pme2.
Let cnt := pme2 + 1 - pme1.
Let dn := dn pme1 Iw.
Let tch := tch pme1 Iw Pe Elen.
Let nvz := nvz Nv.
Let W1 := W1 n wflg pme1 pme2 Iw Pe Nv Elen Degree W.

Definition ab (e : Z) : bool := aggr && (W1 e =? wflg).
Definition ke (e : Z) : bool := negb (W1 e =? 0) && negb (ab e).
Definition kv (y : Z) : bool := kvb Nv y.
Definition mass (x : Z) : bool := negb (existsb (fun j => ke (rd Iw j)) (zseq (rd Pe x) (rd Pe x + rd Elen x))) && negb (existsb (fun j => kv (rd Iw j)) (zseq (rd Pe x + rd Elen x) (rd Pe x + rd Len x))).
Definition abk (k e : Z) : bool := ab e && tch k e.

Lemma mass_spec x : mass x = true <-> (forall e, E x e = true -> ke e = false) /\ (forall y, V x y = true -> kv y = false).
Proof.
  unfold mass. rewrite Bool.andb_true_iff, !Bool.negb_true_iff. split.
  - intros (A & B). split.
    + intros e X. unfold E, mE in X. apply memb_spec in X. destruct X as (j & Hj & <-). destruct (ke (rd Iw j)) eqn:Y; [|reflexivity]. rewrite <- A. symmetry. apply existsb_exists. exists j. split; [apply in_zseq; lia|exact Y].
    + intros e X. unfold V, mV in X. apply memb_spec in X. destruct X as (j & Hj & <-). destruct (kv (rd Iw j)) eqn:Y; [|reflexivity]. rewrite <- B. symmetry. apply existsb_exists. exists j. split; [apply in_zseq; lia|exact Y].
  - intros (A & B). split.
    + destruct (existsb _ _) eqn:X; [|reflexivity]. apply existsb_exists in X. destruct X as (j & Hj & X). apply in_zseq in Hj. rewrite A in X; [discriminate|]. unfold E, mE. apply memb_at. lia.
    + destruct (existsb _ _) eqn:X; [|reflexivity]. apply existsb_exists in X. destruct X as (j & Hj & X). apply in_zseq in Hj. rewrite B in X; [discriminate|]. unfold V, mV. apply memb_at. lia.
Qed.

Lemma W1_lm x e : lm x = true -> E x e = true -> W1 e = 0 \/ wflg <= W1 e.
Proof.
  intros X Y. destruct (sc_lm S X) as (R & Lx). destruct (sc_E S R Lx Y) as (Re & Ne & Ee & Z). unfold W1, PAmd5.W1. destruct (Z.eqb_spec (rd W e) 0); [auto|]. right. destruct Z as [(P & _ & _)|(_ & Z & _)]; [|contradiction].
  destruct (sc_pf S) as (P1 & P2 & P3 & P4).
  assert (T : PAmd5.tch pme1 Iw Pe Elen (pme2 + 1 - pme1) e = true) by (apply (@tch_spec pme1 pme2 Iw Pe Elen (pme2 + 1 - pme1) e ltac:(lia)); exists x; split; [exact X|exact Y]).
  rewrite T. cbv iota. pose proof (@wk_dg _ _ _ _ _ _ _ _ _ _ _ _ _ _ _ _ _ _ _ _ _ S (pme2 + 1 - pme1) e ltac:(lia) Re Ne) as Q. rewrite elb_spec in Q. specialize (Q ltac:(lia)). lia.
Qed.

Arguments W1_lm {x e} _ _.
Definition newx (x : Z) (Iw' Pe' Len' Nv' Elen' Degree' : list Z) : Prop :=
  if mass x then rd Pe' x = FLIP me /\ rd Nv' x = 0 /\ rd Elen' x = -1
  else rd Pe' x = rd Pe x /\ rd Nv' x = rd Nv x /\ 1 <= rd Elen' x <= rd Len' x /\ rd Len' x <= rd Len x /\ (forall e, memb Iw' (rd Pe x) (rd Elen' x) e = (e =? me) || (E x e && ke e)) /\
    (forall y, memb Iw' (rd Pe x + rd Elen' x) (rd Len' x - rd Elen' x) y = V x y && kv y) /\ injs Iw' (rd Pe x) (rd Len' x) /\ 0 <= rd Degree' x /\ rd Iw' (rd Pe x) = me.
Definition s2inv (k : Z) (s : sc2) : Prop := let '(mkS2 Iw' Pe' Len' Nv' Next' Last' Head' Elen' Degree' W' degme' nvpiv' nel') := s in
  (zlen Iw' = iwlen /\ zlen Pe' = n /\ zlen Len' = n /\ zlen Nv' = n /\ zlen Elen' = n /\ zlen Degree' = n /\ zlen W' = n) /\
  (forall j, 0 <= j < pfree -> 0 <= rd Iw' j < n) /\
  (forall j, 0 <= j < pfree -> (forall x, dn k x = true -> j < rd Pe x \/ rd Pe x + rd Len x <= j) -> rd Iw' j = rd Iw j) /\
  (forall x, dn k x = true -> newx x Iw' Pe' Len' Nv' Elen' Degree') /\
  (forall x, 0 <= x < n -> dn k x = false -> rd Nv' x = rd Nv x /\ rd Len' x = rd Len x /\ rd Elen' x = rd Elen x /\ rd Degree' x = rd Degree x /\ rd Pe' x = if abk k x then FLIP me else rd Pe x) /\
  (forall e, 0 <= e < n -> rd W' e = if abk k e then 0 else W1 e) /\
  (degme' = degme - wt n (fun x => dn k x && mass x) nvz /\ nvpiv' = nvp + wt n (fun x => dn k x && mass x) nvz /\ nel' = nel + wt n (fun x => dn k x && mass x) nvz) /\
  forest n (rd Pe') (fun x => if x =? me then - nvpiv' else rd Nv' x) ev /\
  exists B, bks n (fun x => 0 <= x < n /\ lv x = true /\ lm x = false) Next Last Head Next' Last' Head' B (fun x => dn k x = true /\ mass x = false).

Lemma s2_one_ok k s : 0 <= k < cnt -> s2inv k s -> wp (s2_one aggr n me wflg (pme1 + k) s) (s2inv (k + 1)) nerr.
Proof.
  intros Hk. destruct s as [Iw' Pe' Len' Nv' Next' Last' Head' Elen' Degree' W' degme' nvpiv' nel'].
  intros ((L1 & L2 & L3 & L4 & L5 & L6 & L7) & RI & OUT & NEW & OLD & WW & (D1 & D2 & D3) & FO & B & BK).
  destruct (sc_pf S) as (P1 & P2 & P3 & P4). pose proof (sc_n S) as Hn. pose proof (sc_me S) as Hme. destruct (sc_meq S) as (M1 & M2 & M3 & M4 & M5 & M6).
  pose proof (@lm_at pme1 pme2 Iw k Hk) as Li. pose proof (@dn_new _ _ _ _ _ _ _ _ _ _ _ _ _ _ _ _ _ _ _ _ _ S k Hk) as Ni. set (i := rd Iw (pme1 + k)) in *. fold lm in Li. fold dn in Ni.
  destruct (sc_lm S Li) as (Ri & Lvi). fold lv in Lvi. destruct (lv_facts S Ri Lvi) as (F0 & F1 & F2 & F3 & F4 & F5).
  assert (DNlm : forall x, dn k x = true -> lm x = true) by (intros x X; apply (@dn_lm pme1 pme2 Iw k x ltac:(lia) X)).
  assert (DNS : forall x, dn (k + 1) x = dn k x || (i =? x)) by (intros x; apply (@dn_S pme1 Iw k x); lia).
  assert (TS : forall e, tch (k + 1) e = tch k e || E i e) by (intros e; apply (@tch_S pme1 0 Iw Pe Elen k e); lia).
  assert (Eqi : rd Iw (pme1 + k) = i) by reflexivity. clearbody i.
  assert (TEV : forall e, tch k e = true -> rd Elen e < -1 /\ e <> me /\ 0 <= e < n /\ dn k e = false).
  { intros e X. apply (@tch_spec pme1 pme2 Iw Pe Elen k e ltac:(lia)) in X. destruct X as (x & X1 & X2). pose proof (DNlm x X1) as X3. destruct (sc_lm S X3) as (X4 & X5). destruct (sc_E S X4 X5 X2) as (Y1 & Y2 & Y3 & _). repeat split; auto; try lia.
    destruct (dn k e) eqn:De; [|reflexivity]. apply DNlm in De. destruct (sc_lm S De) as (_ & De'). apply lvb_spec in De'. lia. }
  assert (LVN : forall x, 0 <= x < n -> lv x = true -> forall k', abk k' x = true -> 0 <= k' <= cnt -> False).
  { intros x Hx Lx k' X Hk'. unfold abk in X. apply Bool.andb_true_iff in X. destruct X as (_ & X). apply (@tch_spec pme1 pme2 Iw Pe Elen k' x ltac:(lia)) in X. destruct X as (y & X1 & X2). pose proof (@dn_lm pme1 pme2 Iw k' y ltac:(lia) X1) as X3. destruct (sc_lm S X3) as (X4 & X5). destruct (sc_E S X4 X5 X2) as (Y1 & Y2 & Y3 & _). apply lvb_spec in Lx. lia. }
  assert (DISJ : forall x y, 0 <= x < n -> 0 <= y < n -> x <> y -> x <> me -> y <> me -> 0 <= rd Pe x -> 0 <= rd Pe y -> rd Pe x + rd Len x <= rd Pe y \/ rd Pe y + rd Len y <= rd Pe x).
  { intros x y Hx Hy N Nx Ny Px Py. pose proof (la_dis (sc_lay S) Hx Hy N) as X. unfold oPe in X. rewrite (proj2 (Z.eqb_neq x me) Nx), (proj2 (Z.eqb_neq y me) Ny) in X. auto. }
  destruct (OLD i Ri Ni) as (O1 & O2 & O3 & O4 & O5). destruct (abk k i) eqn:Ai; [exfalso; apply (LVN i Ri Lvi k Ai); lia|].
  assert (SEG : forall j, rd Pe i <= j < rd Pe i + rd Len i -> rd Iw' j = rd Iw j).
  { intros j Hj. apply OUT; [lia|]. intros x X. destruct (sc_lm S (DNlm x X)) as (Rx & Lx). fold lv in Lx. destruct (lv_facts S Rx Lx) as (G0 & G1 & G2 & G3 & G4 & G5). pose proof (DISJ x i Rx Ri ltac:(congruence) G0 F0 G1 F1). lia. }
  unfold s2_one. wg; [lia|]. replace (rd Iw' (pme1 + k)) with i.
  2:{ symmetry. rewrite <- Eqi. apply OUT; [lia|]. intros x X. destruct (sc_lm S (DNlm x X)) as (Rx & Lx). fold lv in Lx. destruct (lv_facts S Rx Lx) as (G0 & G1 & G2 & G3 & G4 & G5). pose proof (sc_dis S Rx G0 G1). unfold cnt in *. lia. }
  wg; [lia|]. wg; [lia|]. rewrite O5, O3. set (p1 := rd Pe i) in *. set (eln := rd Elen i) in *. set (li := rd Len i) in *. set (p2 := p1 + eln - 1).
  assert (MEi : forall e, memb Iw' p1 (p2 + 1 - p1) e = E i e). { intros e. unfold E, mE. fold p1 eln. replace (p2 + 1 - p1) with eln by lia. apply memb_ext. intros j Hj. apply SEG. lia. }
  assert (MVi : forall y, memb Iw' (p2 + 1) (p1 + li - (p2 + 1)) y = V i y). { intros y. unfold V, mV. fold p1 eln li. replace (p2 + 1) with (p1 + eln) by lia. replace (p1 + li - (p1 + eln)) with (li - eln) by lia. apply memb_ext. intros j Hj. apply SEG. lia. }
  assert (J' : injs Iw' p1 li). { eapply injs_ext; [|exact F5]. intros j Hj. symmetry. apply SEG. exact Hj. }
  assert (KPE : forall e, E i e = true -> kpe aggr wflg W' e = ke e /\ dpe aggr wflg W' e = ab e && negb (tch k e)).
  { intros e X. destruct (sc_E S Ri Lvi X) as (Re & _). pose proof (W1_lm Li X) as WQ. unfold kpe, dpe, ke. rewrite (WW e Re). unfold abk. unfold ab. destruct (sc_w S) as (W2 & _). destruct (Z.eqb_spec (W1 e) wflg) as [Q|Q].
    - destruct (Z.eqb_spec wflg 0); [lia|]. destruct aggr, (tch k e); cbn [andb negb orb]; rewrite ?Q, ?Z.sub_diag; change (0 =? 0) with true; change (0 >? 0) with false; cbn [andb negb orb]; destruct (Z.eqb_spec wflg 0); cbn [andb negb orb]; rewrite ?Bool.andb_false_r; auto; lia.
    - rewrite !Bool.andb_false_r. cbn [andb]. destruct (Z.eqb_spec (W1 e) 0); cbn [negb andb]; [auto|]. destruct (Z.gtb_spec (W1 e - wflg) 0); [cbn; auto|lia]. }
  apply wp_bind. eapply wp_conseq.
  { apply (@s2_elems_ok aggr n me wflg p1 p2 Iw' Pe' W'); auto; try lia. - eapply injs_le; [|exact J']. lia.
    - intros j Hj. split; [apply RI; lia|]. assert (X : E i (rd Iw' j) = true) by (rewrite <- MEi; apply memb_at; lia). destruct (sc_E S Ri Lvi X) as (Re & _). rewrite (WW _ Re). destruct (abk k (rd Iw' j)); [auto|]. apply (W1_lm Li X). }
  intros [[[[[Iw2 Pe2] W2] p3] hash] deg] (K1 & A1 & A2 & A3 & A4 & A5 & A6). pose proof (cp_len K1) as KL1. destruct (cp_w K1) as (KW1 & KW2).
  ws; [lia|]. wg; [lia|]. rewrite O2. fold li. apply wp_bind. eapply wp_conseq.
  { apply (@s2_vars_ok n p2 (p1 + li) Nv' Iw2 p3 hash deg); auto; try lia. intros j Hj. rewrite (cp_out K1) by lia. apply RI. lia. }
  intros [[[Iw3 pn] hash3] deg3] (K2 & A7 & A8). pose proof (cp_len K2) as KL2. destruct (cp_w K2) as (KW3 & KW4).
  assert (NVK : forall y, 0 <= y < n -> kvb Nv' y = kv y).
  { intros y Hy. unfold kv, kvb. destruct (dn k y) eqn:Dy; [|destruct (OLD y Hy Dy) as (-> & _); reflexivity]. pose proof (NEW y Dy) as X. unfold newx in X. destruct (mass y); [|destruct X as (_ & -> & _); reflexivity].
    destruct X as (_ & -> & _). pose proof (lm_nv S _ (DNlm y Dy)) as Y. unfold PAmd5.nvz in Y. destruct (Z.gtb_spec 0 0), (Z.gtb_spec (rd Nv y) 0); lia || reflexivity. }
  assert (CE : forall e, memb Iw3 p1 (p3 - p1) e = E i e && ke e).
  { intros e. rewrite (@memb_ext Iw3 Iw2) by (intros j Hj; apply (cp_out K2); lia). rewrite (cp_mem K1), MEi. destruct (E i e) eqn:X; [|reflexivity]. cbn [andb]. apply KPE. exact X. }
  assert (CV : forall y, memb Iw3 p3 (pn - p3) y = V i y && kv y).
  { intros y. rewrite (cp_mem K2). rewrite (@memb_ext Iw2 Iw') by (intros j Hj; apply (cp_out K1); lia). rewrite MVi. destruct (V i y) eqn:X; [|reflexivity]. cbn [andb]. apply NVK. apply (sc_V S Ri Lvi X). }
  assert (OUT3 : forall j, 0 <= j < iwlen -> j < p1 \/ pn <= j -> rd Iw3 j = rd Iw' j). { intros j Hj X. rewrite (cp_out K2) by lia. apply (cp_out K1); lia. }
  assert (PNLT : pn < p1 + li).
  { assert (X : p3 - p1 < p2 + 1 - p1 \/ pn - p3 < p1 + li - (p2 + 1)); [|lia]. destruct (sc_x S Li) as [(e & X1 & X2)|X1].
    - left. apply (@comp_lt n Iw' Iw2 (kpe aggr wflg W') p1 p1 (p2 + 1) p3 e); auto; try lia.
      + eapply injs_le; [|exact J']. lia.
      + intros j Hj. apply RI. lia.
      + rewrite MEi. exact X1.
      + destruct (KPE e X1) as (-> & _). unfold ke, W1, PAmd5.W1. rewrite X2. reflexivity.
    - right. apply (@comp_lt n Iw2 Iw3 (kvb Nv') (p2 + 1) p3 (p1 + li) pn me); auto; try lia.
      + eapply injs_ext; [intros j Hj; symmetry; apply (cp_out K1); lia|]. intros a b Ha Hb. apply J'; lia.
      + intros j Hj. rewrite (cp_out K1) by lia. apply RI. lia.
      + rewrite (@memb_ext Iw2 Iw') by (intros j Hj; apply (cp_out K1); lia). rewrite MVi. exact X1.
      + rewrite NVK by exact Hme. unfold kv, kvb. rewrite M4. destruct (Z.gtb_spec (- nvp) 0); [lia|reflexivity]. }
  assert (MASS : mass i = (p3 - p1 + 1 =? 1) && (p3 =? pn)).
  { apply bool_iff. rewrite mass_spec, Bool.andb_true_iff, !Z.eqb_eq. split.
    - intros (Y1 & Y2). split.
      + destruct (Z.eq_dec p3 p1) as [|N]; [lia|]. exfalso. pose proof (@memb_at Iw3 p1 (p3 - p1) p1 ltac:(lia)) as X. rewrite CE in X. apply Bool.andb_true_iff in X. destruct X as (X & X'). rewrite Y1 in X'; [discriminate|exact X].
      + destruct (Z.eq_dec p3 pn) as [|N]; [lia|]. exfalso. pose proof (@memb_at Iw3 p3 (pn - p3) p3 ltac:(lia)) as X. rewrite CV in X. apply Bool.andb_true_iff in X. destruct X as (X & X'). rewrite Y2 in X'; [discriminate|exact X].
    - intros (Y1 & Y2). split.
      + intros e X. pose proof (CE e) as C. rewrite X, memb_0 in C by lia. symmetry. exact C.
      + intros e X. pose proof (CV e) as C. rewrite X, memb_0 in C by lia. symmetry. exact C. }
  assert (R3 : forall j, p1 <= j < pn -> 0 <= rd Iw3 j < n).
  { intros j Hj. destruct (Z.lt_ge_cases j p3).
    - pose proof (@memb_at Iw3 p1 (p3 - p1) j ltac:(lia)) as X. rewrite CE in X. apply Bool.andb_true_iff in X. destruct X as (X & _). apply (sc_E S Ri Lvi X).
    - pose proof (@memb_at Iw3 p3 (pn - p3) j ltac:(lia)) as X. rewrite CV in X. apply Bool.andb_true_iff in X. destruct X as (X & _). apply (sc_V S Ri Lvi X). }
  assert (RI3 : forall j, 0 <= j < pfree -> 0 <= rd Iw3 j < n). { intros j Hj. destruct (Z.lt_ge_cases j p1); [rewrite OUT3 by lia; auto|]. destruct (Z.lt_ge_cases j pn); [apply R3; lia|]. rewrite OUT3 by lia. auto. }
  (* absorbed elements *)
  assert (ABS : forall e, 0 <= e < n -> memb Iw' p1 (p2 + 1 - p1) e && dpe aggr wflg W' e = E i e && ab e && negb (tch k e)).
  { intros e He. rewrite MEi. destruct (E i e) eqn:X; [|reflexivity]. cbn [andb]. apply KPE. exact X. }
  assert (ABK : forall e, 0 <= e < n -> abk (k + 1) e = abk k e || (E i e && ab e && negb (tch k e))). { intros e He. unfold abk. rewrite TS. destruct (ab e), (tch k e), (E i e); reflexivity. }
  assert (EMi : forall e, E i e = true -> e <> i /\ e <> me /\ dn (k + 1) e = false /\ 0 <= e < n /\ rd Elen e < -1).
  { intros e X. destruct (sc_E S Ri Lvi X) as (Re & Ne & Ee & _). assert (e <> i) by (intros ->; fold eln in Ee; lia). repeat split; auto; try lia. rewrite DNS. apply Bool.orb_false_iff. split; [|apply Z.eqb_neq; auto].
    destruct (dn k e) eqn:De; [|reflexivity]. apply DNlm in De. destruct (sc_lm S De) as (_ & De'). apply lvb_spec in De'. lia. }
  assert (PE2 : forall x, 0 <= x < n -> rd Pe2 x = if E i x && ab x && negb (tch k x) then FLIP me else rd Pe' x). { intros x Hx. rewrite (A3 x Hx), ABS by exact Hx. reflexivity. }
  assert (NVne : forall x, 0 <= x < n -> rd Elen x < -1 -> x <> me -> rd Nv' x <> 0).
  { intros x Hx X N. assert (Dx : dn k x = false). { destruct (dn k x) eqn:De; [|reflexivity]. apply DNlm in De. destruct (sc_lm S De) as (_ & De'). apply lvb_spec in De'. lia. }
    destruct (OLD x Hx Dx) as (-> & _). destruct (sc_nv S Hx N) as [(Y & _)|(_ & Y)]; [lia|]. destruct (lmb Iw pme1 pme2 x); lia. }
  assert (PEme : rd Pe' me = pme1). { assert (Dm : dn k me = false). { destruct (dn k me) eqn:De; [|reflexivity]. apply DNlm in De. destruct (sc_lm S De) as (_ & De'). apply lvb_spec in De'. lia. }
    destruct (OLD me Hme Dm) as (_ & _ & _ & _ & ->). destruct (abk k me) eqn:X; [|exact M1]. unfold abk in X. apply Bool.andb_true_iff in X. destruct X as (_ & X). apply TEV in X. tauto. }
  assert (FO2 : forest n (rd Pe2) (fun x => if x =? me then - nvpiv' else rd Nv' x) ev).
  { apply (@forest_absorbs n (rd Pe') _ ev (fun x => E i x && ab x && negb (tch k x)) me (rd Pe2)); auto; try lia.
    - unfold ev, evb. apply Z.ltb_lt. exact M3.
    - intros x Hx X. rewrite !Bool.andb_true_iff, Bool.negb_true_iff in X. destruct X as ((X1 & X2) & X3). destruct (EMi x X1) as (Y1 & Y2 & Y3 & Y4 & Y5). split; [exact Y2|]. split.
      + rewrite DNS in Y3. apply Bool.orb_false_iff in Y3. destruct Y3 as (Y3 & _). destruct (OLD x Hx Y3) as (_ & _ & _ & _ & ->). unfold abk. rewrite X3, Bool.andb_false_r. destruct (sc_E S Ri Lvi X1) as (_ & _ & _ & [(Z1 & _)|(_ & Z1 & _)]); [lia|].
        exfalso. unfold ab in X2. apply Bool.andb_true_iff in X2. destruct X2 as (_ & X2). apply Z.eqb_eq in X2. unfold W1, PAmd5.W1 in X2. rewrite Z1, Z.eqb_refl in X2. destruct (sc_w S). lia.
      + rewrite (proj2 (Z.eqb_neq x me) Y2). apply NVne; auto. }
  assert (OLD2 : forall x, 0 <= x < n -> dn (k + 1) x = false -> rd Pe2 x = if abk (k + 1) x then FLIP me else rd Pe x).
  { intros x Hx Dx. pose proof Dx as Dx'. rewrite DNS in Dx'. apply Bool.orb_false_iff in Dx'. destruct Dx' as (Dx' & _). destruct (OLD x Hx Dx') as (_ & _ & _ & _ & Y). rewrite PE2, ABK, Y by exact Hx. destruct (abk k x), (E i x && ab x && negb (tch k x)); reflexivity. }
  assert (WW2 : forall e, 0 <= e < n -> rd W2 e = if abk (k + 1) e then 0 else W1 e). { intros e He. rewrite (A4 e He), ABS, ABK, (WW e He) by exact He. destruct (abk k e), (E i e && ab e && negb (tch k e)); reflexivity. }
  assert (PEdn : forall x, dn k x = true -> rd Pe2 x = rd Pe' x).
  { intros x Dx. destruct (sc_lm S (DNlm x Dx)) as (Rx & _). rewrite PE2 by exact Rx. destruct (E i x) eqn:Ex; [|reflexivity]. destruct (EMi x Ex) as (_ & _ & Y & _). rewrite DNS, Dx in Y. discriminate. }
  assert (PEi : rd Pe2 i = p1). { rewrite PE2 by exact Ri. destruct (E i i) eqn:Ex; [destruct (EMi i Ex); congruence|]. exact O5. }
  assert (WTS : wt n (fun x => dn (k + 1) x && mass x) nvz = wt n (fun x => dn k x && mass x) nvz + if mass i then nvz i else 0).
  { destruct (mass i) eqn:Mi.
    - apply (@wt_add n _ _ nvz i Ri); [rewrite Ni; reflexivity|]. intros x Hx. rewrite DNS, (Z.eqb_sym i x). destruct (Z.eqb_spec x i) as [->|]; [rewrite Mi, !Bool.orb_true_r; reflexivity|rewrite !Bool.orb_false_r; reflexivity].
    - rewrite Z.add_0_r. apply wt_ext. intros x Hx. split; [|auto]. rewrite DNS. destruct (Z.eqb_spec i x) as [<-|]; [rewrite Mi, !Bool.andb_false_r; reflexivity|rewrite Bool.orb_false_r; reflexivity]. }
  assert (SEGx : forall x, dn k x = true -> forall j, rd Pe x <= j < rd Pe x + rd Len x -> j < p1 \/ p1 + li <= j).
  { intros x X j Hj. destruct (sc_lm S (DNlm x X)) as (Rx & Lx). fold lv in Lx. destruct (lv_facts S Rx Lx) as (G0 & G1 & G2 & G3 & G4 & G5). pose proof (DISJ x i Rx Ri ltac:(congruence) G0 F0 G1 F1). lia. }
  destruct ((p3 - p1 + 1 =? 1) && (p3 =? pn)) eqn:TM.
  - (* mass elimination *)
    ws; [lia|]. wg; [lia|]. rewrite O1. ws; [lia|]. ws; [rewrite zlen_wr; lia|]. cbn. rewrite !zlen_wr.
    apply Bool.andb_true_iff in TM. rewrite !Z.eqb_eq in TM.
    split; [repeat split; auto; lia|]. split; [exact RI3|]. split; [|split; [|split; [|split; [exact WW2|split; [|split]]]]].
    + intros j Hj X. rewrite OUT3 by lia. apply OUT; [exact Hj|]. intros x Dx. apply X. rewrite DNS, Dx. reflexivity.
    + intros x Dx. rewrite DNS in Dx. destruct (Z.eq_dec x i) as [->|N].
      * unfold newx. rewrite MASS. rewrite !rd_wr_eq by (rewrite ?zlen_wr; lia). auto.
      * rewrite (proj2 (Z.eqb_neq i x)), Bool.orb_false_r in Dx by auto. destruct (sc_lm S (DNlm x Dx)) as (Rx & _). pose proof (NEW x Dx) as X. unfold newx in *. rewrite !rd_wr_ne by (rewrite ?zlen_wr; lia). rewrite PEdn by exact Dx.
        destruct (mass x); [exact X|]. destruct X as (X1 & X2 & X3 & X4 & X5 & X6 & X7 & X8 & X9). repeat (split; [assumption|]).
        assert (Q : forall j, rd Pe x <= j < rd Pe x + rd Len x -> rd Iw3 j = rd Iw' j). { intros j Hj. pose proof (SEGx x Dx j Hj). destruct (sc_lm S (DNlm x Dx)) as (_ & Lx). fold lv in Lx. destruct (lv_facts S Rx Lx) as (G0 & G1 & G2 & G3 & G4 & G5). apply OUT3; lia. }
        split; [intros e; rewrite <- X5; apply memb_ext; intros j Hj; apply Q; lia|]. split; [intros y; rewrite <- X6; apply memb_ext; intros j Hj; apply Q; lia|]. split; [|split; [exact X8|rewrite Q by lia; exact X9]]. eapply injs_ext; [|exact X7]. intros j Hj. symmetry. apply Q. lia.
    + intros x Hx Dx. pose proof Dx as Dx'. rewrite DNS in Dx'. apply Bool.orb_false_iff in Dx'. destruct Dx' as (Dx' & Nx). apply Z.eqb_neq in Nx. destruct (OLD x Hx Dx') as (Y1 & Y2 & Y3 & Y4 & _). rewrite !rd_wr_ne by (rewrite ?zlen_wr; lia). repeat (split; [assumption|]). apply OLD2; auto.
    + rewrite WTS, MASS. cbn [andb]. unfold nvz at 2 4 6. unfold PAmd5.nvz. lia.
    + set (nvi := rd Nv i) in *. pose proof (lm_nv S _ Li) as NVi. unfold PAmd5.nvz in NVi. fold nvi in NVi.
      assert (NVP : 1 <= nvpiv'). { rewrite D2. assert (0 <= wt n (fun x => dn k x && mass x) nvz); [|lia]. apply wt_nonneg. intros x Hx X. apply Bool.andb_true_iff in X. destruct X as (X & _). pose proof (lm_nv S _ (DNlm x X)). fold nvz in H. lia. }
      apply (@forest_kill n (rd Pe2) (fun x => if x =? me then - nvpiv' else rd Nv' x) ev me i); auto; try lia.
      * rewrite PE2 by exact Hme. destruct (E i me) eqn:Ex; [destruct (EMi me Ex); tauto|]. cbn [andb]. lia.
      * rewrite Z.eqb_refl. lia.
      * rewrite (proj2 (Z.eqb_neq i me) F0), O1. lia.
      * unfold ev, evb. apply Z.ltb_ge. fold eln. lia.
      * rewrite rd_wr_eq by lia. reflexivity.
      * intros x Hx N. apply rd_wr_ne; lia.
      * rewrite (proj2 (Z.eqb_neq i me) F0). apply rd_wr_eq. lia.
      * rewrite Z.eqb_refl, (proj2 (Z.eqb_neq i me) F0), O1. lia.
      * intros x Hx N1 N2. rewrite (proj2 (Z.eqb_neq x me) N1). apply rd_wr_ne; lia.
    + exists B. eapply bks_ext; [exact BK|]. intros c Hc. cbv beta. rewrite DNS. destruct (Z.eqb_spec i c) as [<-|]; [rewrite Ni; split; [intros (X & _); discriminate|intros (_ & X); congruence]|rewrite Bool.orb_false_r; tauto].
  - (* i stays *)
    assert (PNGT : p1 < pn). { apply Bool.andb_false_iff in TM. rewrite !Z.eqb_neq in TM. lia. }
    wg; [lia|]. ws; [lia|]. wg; [lia|]. ws; [lia|]. wg; [rewrite ?zlen_wr; lia|]. ws; [rewrite ?zlen_wr; lia|]. ws; [rewrite ?zlen_wr; lia|]. ws; [lia|].
    set (Iw6 := wr (wr (wr Iw3 pn (rd Iw3 p3)) p3 (rd (wr Iw3 pn (rd Iw3 p3)) p1)) p1 me).
    assert (E6 : forall j, 0 <= j < iwlen -> rd Iw6 j = if j =? p1 then me else if j =? p3 then rd Iw3 p1 else if j =? pn then rd Iw3 p3 else rd Iw3 j).
    { intros j Hj. unfold Iw6. rewrite !rd_wr by (rewrite ?zlen_wr; lia). destruct (Z.eqb_spec p1 pn); [lia|]. reflexivity. }
    destruct (@rot_ok Iw3 Iw6 p1 p3 pn me ltac:(lia) PNGT ltac:(intros j Hj; apply E6; lia)) as (ROT1 & ROT2 & ROT3).
    assert (OUT6 : forall j, 0 <= j < iwlen -> j < p1 \/ p1 + li <= j -> rd Iw6 j = rd Iw' j). { intros j Hj X. rewrite E6 by exact Hj. destruct (Z.eqb_spec j p1); [lia|]. destruct (Z.eqb_spec j p3); [lia|]. destruct (Z.eqb_spec j pn); [lia|]. apply OUT3; lia. }
    assert (INJ3 : injs Iw3 p1 (pn - p1)).
    { assert (I1 : injs Iw3 p1 (p3 - p1)). { eapply injs_ext; [intros j Hj; symmetry; apply (cp_out K2); lia|]. apply (cp_inj K1). eapply injs_le; [|exact J']. lia. }
      assert (I2 : injs Iw3 p3 (pn - p3)). { apply (cp_inj K2). eapply injs_ext; [intros j Hj; symmetry; apply (cp_out K1); lia|]. intros a b Ha Hb. apply J'; lia. }
      assert (DD : forall a b, p1 <= a < p3 -> p3 <= b < pn -> rd Iw3 a = rd Iw3 b -> False).
      { intros a b Ha Hb X. pose proof (@memb_at Iw3 p1 (p3 - p1) a ltac:(lia)) as Y1. rewrite CE in Y1. apply Bool.andb_true_iff in Y1. destruct Y1 as (Y1 & _). pose proof (@memb_at Iw3 p3 (pn - p3) b ltac:(lia)) as Y2. rewrite CV in Y2. apply Bool.andb_true_iff in Y2. destruct Y2 as (Y2 & _).
        rewrite X in Y1. destruct (EMi _ Y1) as (_ & Z2 & _ & _ & Z3). destruct (sc_V S Ri Lvi Y2) as (_ & _ & [(Z4 & _)|(Z4 & _)]); [congruence|]. unfold evb in Z4. apply Z.ltb_ge in Z4. lia. }
      intros a b Ha Hb X. destruct (Z.lt_ge_cases a p3), (Z.lt_ge_cases b p3); [apply I1; auto; lia| | |apply I2; auto; lia]; exfalso; [apply (DD a b)|apply (DD b a)]; auto; lia. }
    assert (NME : memb Iw3 p1 (pn - p1) me = false).
    { apply memb_false. intros j Hj X. destruct (Z.lt_ge_cases j p3).
      - pose proof (@memb_at Iw3 p1 (p3 - p1) j ltac:(lia)) as Y1. rewrite CE, X in Y1. apply Bool.andb_true_iff in Y1. destruct Y1 as (Y1 & _). destruct (EMi _ Y1). tauto.
      - pose proof (@memb_at Iw3 p3 (pn - p3) j ltac:(lia)) as Y1. rewrite CV, X in Y1. apply Bool.andb_true_iff in Y1. destruct Y1 as (_ & Y1). unfold kv, kvb in Y1. rewrite M4 in Y1. destruct (Z.gtb_spec (- nvp) 0); [lia|discriminate]. }
    assert (HH : 0 <= hash3 mod n < n) by (apply Z.mod_pos_bound; lia).
    apply wp_bind. eapply wp_conseq.
    { refine (@s2_bucket_ok n _ (rd Degree) rk Next Last Head (sc_dl S) Next' Last' Head' B _ i (hash3 mod n) BK Ri HH _ _ _).
      - intros (_ & _ & X). fold lm in X. rewrite Li in X. discriminate.
      - intros (X & _). congruence.
      - intros c (X & _) (_ & _ & Y). apply DNlm in X. fold lm in Y. congruence. }
    intros [[Next6 Last6] Head6] BK6. cbn. rewrite ?zlen_wr. rewrite O4.
    split; [unfold Iw6; rewrite !zlen_wr; repeat split; auto; lia|]. split; [|split; [|split; [|split; [|split; [exact WW2|split; [|split]]]]]].
    + intros j Hj. rewrite E6 by lia. destruct (Z.eqb_spec j p1); [exact Hme|]. destruct (Z.eqb_spec j p3); [apply RI3; lia|]. destruct (Z.eqb_spec j pn); apply RI3; lia.
    + intros j Hj X. rewrite OUT6; [|lia|]. * apply OUT; [exact Hj|]. intros x Dx. apply X. rewrite DNS, Dx. reflexivity. * apply (X i). rewrite DNS, Z.eqb_refl. apply Bool.orb_true_r.
    + intros x Dx. rewrite DNS in Dx. destruct (Z.eq_dec x i) as [->|N].
      * unfold newx. rewrite MASS. rewrite !rd_wr_eq by (rewrite ?zlen_wr; lia). fold p1 li. rewrite PEi, O1. split; [reflexivity|]. split; [reflexivity|]. split; [lia|]. split; [lia|]. split; [|split; [|split; [|split]]].
        -- intros e. rewrite ROT1, CE. reflexivity.
        -- intros y. replace (p1 + (p3 - p1 + 1)) with (p3 + 1) by lia. replace (pn - p1 + 1 - (p3 - p1 + 1)) with (pn - p3) by lia. rewrite ROT2, CV. reflexivity.
        -- apply ROT3; auto.
        -- pose proof (sc_d0 S Li). lia.
        -- rewrite E6 by lia. rewrite Z.eqb_refl. reflexivity.
      * rewrite (proj2 (Z.eqb_neq i x)), Bool.orb_false_r in Dx by auto. destruct (sc_lm S (DNlm x Dx)) as (Rx & Lx). fold lv in Lx. pose proof (NEW x Dx) as X. unfold newx in *. rewrite !(rd_wr_ne Len'), !(rd_wr_ne Elen'), !(rd_wr_ne Degree') by lia. rewrite PEdn by exact Dx.
        destruct (mass x); [exact X|]. destruct X as (X1 & X2 & X3 & X4 & X5 & X6 & X7 & X8 & X9). repeat (split; [assumption|]).
        assert (Q : forall j, rd Pe x <= j < rd Pe x + rd Len x -> rd Iw6 j = rd Iw' j). { intros j Hj. pose proof (SEGx x Dx j Hj). destruct (lv_facts S Rx Lx) as (G0 & G1 & G2 & G3 & G4 & G5). apply OUT6; lia. }
        split; [intros e; rewrite <- X5; apply memb_ext; intros j Hj; apply Q; lia|]. split; [intros y; rewrite <- X6; apply memb_ext; intros j Hj; apply Q; lia|]. split; [|split; [exact X8|rewrite Q by lia; exact X9]]. eapply injs_ext; [|exact X7]. intros j Hj. symmetry. apply Q. lia.
    + intros x Hx Dx. pose proof Dx as Dx'. rewrite DNS in Dx'. apply Bool.orb_false_iff in Dx'. destruct Dx' as (Dx' & Nx). apply Z.eqb_neq in Nx. destruct (OLD x Hx Dx') as (Y1 & Y2 & Y3 & Y4 & _). rewrite !rd_wr_ne by (rewrite ?zlen_wr; lia). repeat (split; [assumption|]). apply OLD2; auto.
    + rewrite WTS, MASS. rewrite Z.add_0_r. auto.
    + exact FO2.
    + eexists. eapply bks_ext; [exact BK6|]. intros c Hc. cbv beta. rewrite DNS. destruct (Z.eqb_spec i c) as [<-|]; [rewrite Bool.orb_true_r, MASS; tauto|]. rewrite Bool.orb_false_r. split; [intros [X|X]; [exact X|congruence]|auto].
Qed.

Lemma scan2_ok Wc : zlen Wc = n -> (forall e, 0 <= e < n -> rd Wc e = W1 e) ->
  wp (a2_scan2 aggr n me wflg pme1 pme2 (mkS2 Iw Pe Len Nv Next Last Head Elen Degree Wc degme nvp nel)) (s2inv cnt) nerr.
Proof.
  intros LW HW. destruct (sc_len S) as (L1 & L2 & L3 & L4 & L5 & L6 & L7 & L8 & L9 & L10). destruct (sc_pf S) as (P1 & P2 & P3 & P4). destruct (sc_meq S) as (M1 & M2 & M3 & M4 & M5 & M6). unfold a2_scan2.
  replace (s2inv cnt) with ((fun pme => s2inv (pme - pme1)) (pme2 + 1)) by reflexivity.
  apply wp_for with (I := fun pme => s2inv (pme - pme1)); [lia| |].
  - rewrite Z.sub_diag. assert (D0 : forall x, dn 0 x = false) by (intros x; apply memb_0; lia). assert (T0 : forall e, abk 0 e = false) by (intros e; unfold abk; apply Bool.andb_false_r).
    assert (W0 : wt n (fun x => dn 0 x && mass x) nvz = 0) by (apply sumz_zero; intros x Hx; rewrite D0; reflexivity).
    split; [tauto|]. split; [exact (@sc_rng _ _ _ _ _ _ _ _ _ _ _ _ _ _ _ _ _ _ _ _ _ S)|]. split; [auto|]. split; [intros x X; rewrite D0 in X; discriminate|]. split; [intros x Hx _; rewrite T0; auto|]. split; [intros e He; rewrite T0; apply HW; exact He|].
    split; [rewrite W0; lia|]. split.
    + eapply forest_ext; [exact (sc_fo S)| | | |].
      * intros x Hx. destruct (Z.eqb_spec x me) as [->|]; [rewrite M4|]; reflexivity.
      * auto.
      * auto.
      * intros x Hx X. destruct (sc_fo S) as (g & d & T & F). apply (fo_ev F Hx X).
    + eexists. eapply bks_ext; [apply (bks_0 (sc_dl S)); tauto|]. intros c Hc. cbv beta. rewrite D0. split; [tauto|intros (X & _); discriminate].
  - intros pme s Hp I. replace (pme + 1 - pme1) with (pme - pme1 + 1) by lia. replace pme with (pme1 + (pme - pme1)) at 1 by lia. apply s2_one_ok; [unfold cnt; lia|exact I].
Qed.
End Scan2.
