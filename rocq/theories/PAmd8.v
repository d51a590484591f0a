(* AMD, part 8: the quotient graph after Scan 2, and the merging of two variables. *)
From Verif Require Import Base Det DetZ Spec MColamd MAmd PCol1 PCol3 PAmd1 PAmd2 PAmd3 PAmd4 PAmd5 PAmd6 PAmd7.
Set Implicit Arguments.
Open Scope Z_scope.
Set Bullet Behavior "Strict Subproofs".

(* between Scan 2 and the end of the step: Iw, Len and Degree are fixed, Pe, Nv and Elen change when variables are merged *)
Record dti (n nz iwlen me pme1 pme2 pfree degme nvp nel : Z) (Iw Len Degree Pe Nv Elen : list Z) : Prop := {
  dt_n : 1 <= n;
  dt_len : zlen Iw = iwlen /\ zlen Pe = n /\ zlen Len = n /\ zlen Nv = n /\ zlen Elen = n /\ zlen Degree = n;
  dt_me : 0 <= me < n;
  dt_pf : 0 <= pme1 /\ pme1 <= pme2 + 1 /\ pme2 + 1 <= pfree /\ pfree <= iwlen;
  dt_rng : forall j, 0 <= j < pfree -> 0 <= rd Iw j < n;
  dt_meq : rd Pe me = pme1 /\ rd Len me = pme2 - pme1 + 1 /\ rd Elen me < -1 /\ rd Nv me <= -1 /\ 1 <= nvp /\ rd Degree me = degme;
  dt_inj : injs Iw pme1 (pme2 + 1 - pme1);
  dt_lay : lay n pfree (oPe me Pe) (rd Len);
  dt_dis : forall x, 0 <= x < n -> x <> me -> 0 <= rd Pe x -> rd Pe x + rd Len x <= pme1 \/ pme2 + 1 <= rd Pe x;
  dt_obj : forall x, 0 <= x < n -> x <> me -> 0 <= rd Pe x -> rd Elen x <> -1 /\ rd Elen x <= rd Len x /\ injs Iw (rd Pe x) (rd Len x);
  dt_lv2 : forall x, 0 <= x < n -> 0 <= rd Elen x -> 0 <= rd Pe x;
  dt_nv : forall x, 0 <= x < n -> x <> me -> (rd Elen x = -1 /\ rd Nv x = 0 /\ rd Pe x < 0) \/ (rd Elen x <> -1 /\ if lmb Iw pme1 pme2 x then rd Nv x <= -1 else 1 <= rd Nv x);
  dt_lm : forall x, lmb Iw pme1 pme2 x = true -> 0 <= x < n /\ evb Elen x = false;
  dt_agr : agr n (lvb Pe Elen) (evb Elen) (elb Pe Elen) (mE Iw Pe Elen) (mV Iw Pe Len Elen) (mL Iw Pe Len) (fun x => Z.abs (rd Nv x)) (rd Degree);
  dt_ne : ane n (lvb Pe Elen) (fun e => elb Pe Elen e && negb (e =? me)) (mL Iw Pe Len);
  dt_fst : forall x, lmb Iw pme1 pme2 x = true -> lvb Pe Elen x = true -> rd Iw (rd Pe x) = me /\ 1 <= rd Elen x /\ 0 <= rd Degree x;
  dt_degme : degme = wt n (fun x => lvb Pe Elen x && lmb Iw pme1 pme2 x) (fun x => Z.abs (rd Nv x));
  dt_tot : nel + wt n (lvb Pe Elen) (fun x => Z.abs (rd Nv x)) = n;
  dt_sum : lsum n (oPe me Pe) (rd Len) + (pme2 + 1 - pme1) <= nz;
  dt_fo : forest n (rd Pe) (fun x => if x =? me then - nvp else rd Nv x) (evb Elen) }.
Arguments dt_obj {n nz iwlen me pme1 pme2 pfree degme nvp nel Iw Len Degree Pe Nv Elen} _ {x} _ _ _.
Arguments dt_dis {n nz iwlen me pme1 pme2 pfree degme nvp nel Iw Len Degree Pe Nv Elen} _ {x} _ _ _.
Arguments dt_lv2 {n nz iwlen me pme1 pme2 pfree degme nvp nel Iw Len Degree Pe Nv Elen} _ {x} _ _.
Arguments dt_nv {n nz iwlen me pme1 pme2 pfree degme nvp nel Iw Len Degree Pe Nv Elen} _ {x} _ _.
Arguments dt_lm {n nz iwlen me pme1 pme2 pfree degme nvp nel Iw Len Degree Pe Nv Elen} _ {x} _.
Arguments dt_fst {n nz iwlen me pme1 pme2 pfree degme nvp nel Iw Len Degree Pe Nv Elen} _ {x} _ _.
Arguments dt_rng {n nz iwlen me pme1 pme2 pfree degme nvp nel Iw Len Degree Pe Nv Elen} _ {j} _.

Lemma lay_shrink n top st ln st' ln' : lay n top st ln -> (forall x, 0 <= x < n -> 0 <= st' x -> st' x = st x /\ 1 <= ln' x <= ln x) -> lay n top st' ln'.
Proof.
  intros L H. constructor.
  - intros x Hx P. destruct (H x Hx P) as (E1 & E2). rewrite E1 in *. pose proof (la_in L Hx P). lia.
  - intros x y Hx Hy N Px Py. destruct (H x Hx Px) as (E1 & E2), (H y Hy Py) as (E3 & E4). rewrite E1, E3 in *. pose proof (la_dis L Hx Hy N Px Py). lia.
Qed.
Lemma lsum_shrink n st ln st' ln' : (forall x, 0 <= x < n -> 0 <= st x -> 0 <= ln x) -> (forall x, 0 <= x < n -> 0 <= st' x -> 0 <= st x /\ ln' x <= ln x) -> lsum n st' ln' <= lsum n st ln.
Proof.
  intros H0 H. apply sumz_le. intros x Hx. specialize (H0 x Hx). specialize (H x Hx). destruct (Z.leb_spec 0 (st x)), (Z.leb_spec 0 (st' x)); lia.
Qed.

Lemma scan2_dti aggr n nz iwlen me wflg pme1 pme2 pfree degme nvp nel Iw Pe Len Nv Next Last Head Elen Degree W rk lemax s :
  scn n nz iwlen me wflg pme1 pme2 pfree degme nvp Iw Pe Len Nv Next Last Head Elen Degree W rk ->
  nel + wt n (lvb Pe Elen) (fun x => Z.abs (rd Nv x)) = n ->
  (forall e, 0 <= e < n -> e <> me -> elb Pe Elen e = true -> rd Degree e <= lemax) -> 0 <= lemax ->
  s2inv aggr n iwlen me wflg pme1 pme2 pfree degme nvp nel Iw Pe Len Nv Next Last Head Elen Degree W (pme2 + 1 - pme1) s ->
  let '(mkS2 Iw' Pe' Len' Nv' Next' Last' Head' Elen' Degree' W' degme' nvpiv' nel') := s in
  dti n nz iwlen me pme1 pme2 pfree degme' nvpiv' nel' Iw' Len' (wr Degree' me degme') Pe' Nv' Elen' /\
  (forall e, 0 <= e < n -> 0 <= rd W' e < wflg + Z.max lemax degme' /\ (0 <= rd Pe' e -> rd W' e <> 0)) /\ zlen W' = n /\
  0 <= degme' /\ (nel <= nel' /\ nel' - nel = nvpiv' - nvp) /\
  (forall x, 0 <= x < n -> x <> me -> elb Pe' Elen' x = true -> rd Degree' x <= lemax) /\
  (forall x, 0 <= x < n -> lvb Pe' Elen' x = true -> lmb Iw' pme1 pme2 x = false -> rd Degree' x = rd Degree x) /\
  (forall x, 0 <= x < n -> (lvb Pe' Elen' x = true /\ lmb Iw' pme1 pme2 x = false) <-> (lvb Pe Elen x = true /\ lmb Iw pme1 pme2 x = false)) /\
  (forall x, 0 <= x < n -> evb Elen' x = evb Elen x) /\
  (forall x, 0 <= x < n -> x <> me -> 0 <= rd Pe' x -> rd Pe' x = rd Pe x /\ rd Len' x <= rd Len x) /\
  exists B, bks n (fun x => 0 <= x < n /\ lvb Pe Elen x = true /\ lmb Iw pme1 pme2 x = false) Next Last Head Next' Last' Head' B (fun x => lmb Iw' pme1 pme2 x = true /\ lvb Pe' Elen' x = true).
Proof.
  intros S TOT HD HLM. destruct s as [Iw' Pe' Len' Nv' Next' Last' Head' Elen' Degree' W' degme' nvpiv' nel'].
  intros ((L1 & L2 & L3 & L4 & L5 & L6 & L7) & RI & OUT & NEW & OLD & WW & (D1 & D2 & D3) & FO & B & BK).
  destruct (sc_pf S) as (P1 & P2 & P3 & P4). pose proof (sc_n S) as Hn. pose proof (sc_me S) as Hme. destruct (sc_meq S) as (M1 & M2 & M3 & M4 & M5 & M6).
  set (cnt := pme2 + 1 - pme1) in *. set (lm := lmb Iw pme1 pme2) in *. set (lv := lvb Pe Elen) in *.
  set (E := mE Iw Pe Elen) in *. set (V := mV Iw Pe Len Elen) in *. set (L := mL Iw Pe Len) in *.
  set (mass := mass aggr n wflg pme1 pme2 Iw Pe Len Nv Elen Degree W) in *. set (ke := ke aggr n wflg pme1 pme2 Iw Pe Nv Elen Degree W) in *.
  set (ab := ab aggr n wflg pme1 pme2 Iw Pe Nv Elen Degree W) in *. set (W1 := W1 n wflg pme1 pme2 Iw Pe Nv Elen Degree W) in *.
  set (abk := abk aggr n wflg pme1 pme2 Iw Pe Nv Elen Degree W) in *.
  change (fun x => dn pme1 Iw cnt x && mass x) with (fun x => lm x && mass x) in *.
  assert (DN : forall x, dn pme1 Iw cnt x = lm x) by reflexivity.
  assert (TCH : forall e, tch pme1 Iw Pe Elen cnt e = true <-> exists x, lm x = true /\ E x e = true) by (intros e; apply (@tch_spec pme1 pme2 Iw Pe Elen cnt e); unfold cnt; lia).
  assert (ABE : forall e, abk cnt e = ab e && tch pme1 Iw Pe Elen cnt e) by reflexivity.
  assert (ABS : forall e, abk cnt e = true -> 0 <= e < n /\ e <> me /\ rd Elen e < -1 /\ lm e = false).
  { intros e X. rewrite ABE in X. apply Bool.andb_true_iff in X. destruct X as (_ & X). apply TCH in X. destruct X as (x & X1 & X2). destruct (sc_lm S X1) as (R & Lx). destruct (sc_E S R Lx X2) as (Re & Ne & Ee & _). repeat split; auto; try lia.
    destruct (lm e) eqn:Le; [|reflexivity]. destruct (sc_lm S Le) as (_ & Y). apply lvb_spec in Y. lia. }
  assert (NMe : lm me = false). { destruct (lm me) eqn:X; [|reflexivity]. destruct (lm_not_me S X eq_refl). }
  assert (PEme : rd Pe' me = pme1 /\ rd Len' me = pme2 - pme1 + 1 /\ rd Elen' me = rd Elen me /\ rd Nv' me = - nvp).
  { destruct (OLD me Hme NMe) as (O1 & O2 & O3 & O4 & O5). destruct (abk cnt me) eqn:X; [destruct (ABS me X); tauto|]. repeat split; congruence. }
  destruct PEme as (Q1 & Q2 & Q3 & Q4).
  assert (DISJ : forall x y, 0 <= x < n -> 0 <= y < n -> x <> y -> x <> me -> y <> me -> 0 <= rd Pe x -> 0 <= rd Pe y -> rd Pe x + rd Len x <= rd Pe y \/ rd Pe y + rd Len y <= rd Pe x).
  { intros x y Hx Hy N Nx Ny Px Py. pose proof (la_dis (sc_lay S) Hx Hy N) as X. unfold oPe in X. rewrite (proj2 (Z.eqb_neq x me) Nx), (proj2 (Z.eqb_neq y me) Ny) in X. auto. }
  assert (LAIN : forall x, 0 <= x < n -> x <> me -> 0 <= rd Pe x -> 1 <= rd Len x /\ rd Pe x + rd Len x <= pfree).
  { intros x Hx N P. pose proof (la_in (sc_lay S) Hx) as X. unfold oPe in X. rewrite (proj2 (Z.eqb_neq x me) N) in X. auto. }
  assert (IME : forall j, pme1 <= j < pme1 + cnt -> rd Iw' j = rd Iw j).
  { intros j Hj. unfold cnt in Hj. apply OUT; [lia|]. intros x X. destruct (sc_lm S X) as (Rx & Lx). destruct (lv_facts S Rx Lx) as (G0 & G1 & G2 & G3 & G4 & G5). pose proof (sc_dis S Rx G0 G1). lia. }
  assert (LM' : forall x, lmb Iw' pme1 pme2 x = lm x) by (intros x; apply memb_ext; intros j Hj; apply IME; exact Hj).
  assert (IOB : forall x, 0 <= x < n -> x <> me -> lm x = false -> 0 <= rd Pe x -> forall j, rd Pe x <= j < rd Pe x + rd Len x -> rd Iw' j = rd Iw j).
  { intros x Hx N Lx Px j Hj. destruct (LAIN x Hx N Px). apply OUT; [lia|]. intros y Y. destruct (sc_lm S Y) as (Ry & Ly). destruct (lv_facts S Ry Ly) as (G0 & G1 & G2 & G3 & G4 & G5). assert (x <> y) by (intros ->; rewrite DN in Y; congruence).
    pose proof (DISJ x y Hx Ry H1 N G0 Px G1). lia. }
  (* cases of a node *)
  assert (CM : forall x, 0 <= x < n -> lm x = true -> mass x = true -> rd Pe' x = FLIP me /\ rd Nv' x = 0 /\ rd Elen' x = -1).
  { intros x Hx Lx Mx. pose proof (NEW x Lx) as X. unfold newx in X. fold mass in X. rewrite Mx in X. exact X. }
  assert (CK : forall x, 0 <= x < n -> lm x = true -> mass x = false -> rd Pe' x = rd Pe x /\ rd Nv' x = rd Nv x /\ 1 <= rd Elen' x <= rd Len' x /\ rd Len' x <= rd Len x /\ (forall e, mE Iw' Pe' Elen' x e = (e =? me) || (E x e && ke e)) /\
    (forall y, mV Iw' Pe' Len' Elen' x y = V x y && kvb Nv y) /\ injs Iw' (rd Pe x) (rd Len' x) /\ 0 <= rd Degree' x /\ rd Iw' (rd Pe x) = me).
  { intros x Hx Lx Mx. pose proof (NEW x Lx) as X. unfold newx in X. fold mass in X. rewrite Mx in X. destruct X as (X1 & X2 & X3 & X4 & X5 & X6 & X7 & X8 & X9). unfold mE, mV. rewrite X1. split; [reflexivity|]. repeat (split; [assumption|]). auto. }
  assert (CO : forall x, 0 <= x < n -> lm x = false -> rd Nv' x = rd Nv x /\ rd Len' x = rd Len x /\ rd Elen' x = rd Elen x /\ rd Degree' x = rd Degree x /\ rd Pe' x = if abk cnt x then FLIP me else rd Pe x) by (intros x Hx Lx; apply (OLD x Hx Lx)).
  assert (FE : FLIP me < -1) by (unfold FLIP; lia).
  assert (LMLV : forall x, lm x = true -> 0 <= x < n /\ x <> me /\ lv x = true /\ 0 <= rd Elen x /\ 0 <= rd Pe x).
  { intros x Lx. destruct (sc_lm S Lx) as (R & Y). pose proof Y as Y'. apply lvb_spec in Y'. pose proof (lm_not_me S Lx). tauto. }
  assert (EV2 : forall x, 0 <= x < n -> evb Elen' x = evb Elen x).
  { intros x Hx. unfold evb. destruct (lm x) eqn:Lx; [|destruct (CO x Hx Lx) as (_ & _ & -> & _); reflexivity]. destruct (LMLV x Lx) as (_ & _ & _ & Y & _). destruct (mass x) eqn:Mx; [destruct (CM x Hx Lx Mx) as (_ & _ & ->)|destruct (CK x Hx Lx Mx) as (_ & _ & Y' & _)].
    - symmetry. apply Z.ltb_ge. lia.
    - rewrite (proj2 (Z.ltb_ge _ _)), (proj2 (Z.ltb_ge _ _)) by lia. reflexivity. }
  assert (LV2 : forall x, 0 <= x < n -> lvb Pe' Elen' x = lv x && negb (lm x && mass x)).
  { intros x Hx. apply bool_iff. rewrite lvb_spec, Bool.andb_true_iff, Bool.negb_true_iff. unfold lv at 1. rewrite lvb_spec. destruct (lm x) eqn:Lx; cbn [andb].
    - destruct (LMLV x Lx) as (_ & _ & _ & Y1 & Y2). destruct (mass x) eqn:Mx; [destruct (CM x Hx Lx Mx) as (-> & _ & ->)|destruct (CK x Hx Lx Mx) as (-> & _ & Y' & _)]; split; intros; try lia; repeat split; try lia; try reflexivity; destruct H; discriminate.
    - destruct (CO x Hx Lx) as (_ & _ & -> & _ & ->). destruct (abk cnt x) eqn:A; [destruct (ABS x A)|]; split; intros; repeat split; try lia; reflexivity. }
  assert (EL2 : forall x, 0 <= x < n -> elb Pe' Elen' x = elb Pe Elen x && negb (abk cnt x)).
  { intros x Hx. apply bool_iff. rewrite elb_spec, Bool.andb_true_iff, Bool.negb_true_iff, elb_spec. destruct (lm x) eqn:Lx.
    - destruct (LMLV x Lx) as (_ & _ & _ & Y1 & Y2). destruct (mass x) eqn:Mx; [destruct (CM x Hx Lx Mx) as (-> & _ & ->)|destruct (CK x Hx Lx Mx) as (-> & _ & Y' & _)]; split; intros; lia.
    - destruct (CO x Hx Lx) as (_ & _ & -> & _ & ->). destruct (abk cnt x) eqn:A; [destruct (ABS x A)|]; split; intros; repeat split; try lia; try reflexivity. }
  assert (LV2' : forall x, 0 <= x < n -> lvb Pe' Elen' x = true -> lv x = true /\ (lm x = true -> mass x = false)).
  { intros x Hx X. rewrite LV2, Bool.andb_true_iff, Bool.negb_true_iff in X by exact Hx. destruct X as (X1 & X2). split; [exact X1|]. intros X3. rewrite X3 in X2. exact X2. }
  assert (NOAB : forall x, 0 <= x < n -> lv x = true -> abk cnt x = false). { intros x Hx X. destruct (abk cnt x) eqn:A; [|reflexivity]. destruct (ABS x A) as (_ & _ & Y & _). apply lvb_spec in X. lia. }
  assert (EO : forall x e, 0 <= x < n -> lv x = true -> lm x = false -> mE Iw' Pe' Elen' x e = E x e).
  { intros x e Hx Lx Mx. destruct (lv_facts S Hx Lx) as (G0 & G1 & G2 & G3 & G4 & G5). destruct (CO x Hx Mx) as (_ & _ & C3 & _ & C5). rewrite NOAB in C5 by auto. unfold mE, E, PAmd4.mE. rewrite C3, C5. apply memb_ext. intros j Hj. apply (IOB x); auto. lia. }
  assert (VO : forall x y, 0 <= x < n -> lv x = true -> lm x = false -> mV Iw' Pe' Len' Elen' x y = V x y).
  { intros x e Hx Lx Mx. destruct (lv_facts S Hx Lx) as (G0 & G1 & G2 & G3 & G4 & G5). destruct (CO x Hx Mx) as (_ & C2 & C3 & _ & C5). rewrite NOAB in C5 by auto. unfold mV, V, PAmd4.mV. rewrite C2, C3, C5. apply memb_ext. intros j Hj. apply (IOB x); auto. lia. }
  assert (LO : forall e x, 0 <= e < n -> e <> me -> elb Pe' Elen' e = true -> mL Iw' Pe' Len' e x = L e x).
  { intros e x He Ne X. rewrite EL2, Bool.andb_true_iff, Bool.negb_true_iff, elb_spec in X by exact He. destruct X as ((X1 & X2) & X3).
    assert (Le : lm e = false). { destruct (lm e) eqn:Y; [|reflexivity]. destruct (LMLV e Y). lia. }
    destruct (CO e He Le) as (_ & C2 & _ & _ & C5). rewrite X3 in C5. unfold mL, L, PAmd4.mL. rewrite C2, C5. apply memb_ext. intros j Hj. apply (IOB e); auto. }
  assert (LME : forall x, mL Iw' Pe' Len' me x = lm x). { intros x. unfold mL. rewrite Q1, Q2. replace (pme2 - pme1 + 1) with (pme2 + 1 - pme1) by lia. apply LM'. }
  assert (NV1 : forall x, 0 <= x < n -> lv x = true -> if lm x then rd Nv x <= -1 else 1 <= rd Nv x).
  { intros x Hx Lx. destruct (lv_facts S Hx Lx) as (G0 & G1 & G2 & G3 & G4 & G5). destruct (sc_nv S Hx G0) as [(X & _)|(_ & X)]; [lia|]. exact X. }
  assert (NV2 : forall x, 0 <= x < n -> lvb Pe' Elen' x = true -> rd Nv' x = rd Nv x).
  { intros x Hx X. destruct (LV2' x Hx X) as (Lx & Mx). destruct (lm x) eqn:Y; [destruct (CK x Hx Y (Mx eq_refl)) as (_ & Q0 & _); exact Q0|apply (CO x Hx Y)]. }
  assert (WTO : forall e, abk cnt e = true -> elb Pe Elen e = true -> forall x, 0 <= x < n -> lv x = true -> E x e = true -> L e x = true -> lm x = false -> False).
  { intros e A Ee x Hx Lx Ex Lex Mx. destruct (ABS e A) as (He & Ne & _ & _). pose proof (sc_dg S He Ne Ee) as DG. rewrite ABE in A. apply Bool.andb_true_iff in A. destruct A as (A1 & A2). unfold ab, PAmd7.ab in A1. apply Bool.andb_true_iff in A1. destruct A1 as (_ & A1). apply Z.eqb_eq in A1.
    fold W1 in A1. unfold W1, PAmd5.W1 in A1. fold cnt in A1. rewrite A2 in A1. cbv iota in A1. destruct (sc_w S) as (W2 & _). destruct (Z.eqb_spec (rd W e) 0); [lia|]. assert (K : rd Degree e = wk n pme1 Iw Pe Nv Elen cnt e) by lia. clear A1.
    fold lv L in DG. pose proof (NV1 x Hx Lx) as NX. rewrite Mx in NX.
    assert (A : wt n (fun y => (lm y && E y e) || (y =? x)) (fun y => Z.abs (rd Nv y)) = wt n (fun y => lm y && E y e) (fun y => Z.abs (rd Nv y)) + Z.abs (rd Nv x)) by (apply (@wt_add n (fun y => lm y && E y e) _ (fun y => Z.abs (rd Nv y)) x Hx); [rewrite Mx; reflexivity|reflexivity]).
    assert (B1 : wt n (fun y => (lm y && E y e) || (y =? x)) (fun y => Z.abs (rd Nv y)) <= wt n (fun y => lv y && L e y) (fun y => Z.abs (rd Nv y))).
    { apply wt_le; [|intros; lia]. intros y Hy. rewrite Bool.orb_true_iff, !Bool.andb_true_iff, Z.eqb_eq. intros [(Y1 & Y2)| ->]; [|auto]. destruct (LMLV y Y1) as (_ & _ & Y3 & _). split; [exact Y3|]. destruct (sc_E S Hy Y3 Y2) as (_ & _ & _ & [(_ & _ & Z1)|(Z1 & _ & _)]); [exact Z1|]. apply elb_spec in Ee. lia. }
    assert (C1 : wk n pme1 Iw Pe Nv Elen cnt e = wt n (fun y => lm y && E y e) (fun y => Z.abs (rd Nv y))).
    { unfold wk. apply wt_ext. intros y Hy. split; [reflexivity|]. intros Y. apply Bool.andb_true_iff in Y. destruct Y as (Y & _). pose proof (lm_nv S _ Y) as Z1. unfold nvz in *. lia. }
    lia. }
  assert (KE : forall x e, 0 <= e < n -> lm x = true -> E x e = true -> elb Pe Elen e = true -> abk cnt e = false -> ke e = true).
  { intros x e He Lx Ex Ee A. destruct (LMLV x Lx) as (Rx & _ & Lvx & _). destruct (sc_E S Rx Lvx Ex) as (_ & Ne & _ & [(Z1 & Z2 & Z3)|(Z1 & _)]); [|apply elb_spec in Ee; lia].
    rewrite ABE in A. assert (T : tch pme1 Iw Pe Elen cnt e = true) by (apply TCH; exists x; auto). rewrite T, Bool.andb_true_r in A. unfold ke, PAmd7.ke. fold ab W1. rewrite A. rewrite Bool.andb_true_r, Bool.negb_true_iff. apply Z.eqb_neq.
    destruct (@W1_lm n nz iwlen me wflg pme1 pme2 pfree degme nvp Iw Pe Len Nv Next Last Head Elen Degree W rk S x e Lx Ex) as [Y|Y]; [|fold W1 in Y; destruct (sc_w S); lia].
    exfalso. fold W1 in Y. unfold W1, PAmd5.W1 in Y. fold cnt in Y. rewrite T in Y. cbv iota in Y. destruct (Z.eqb_spec (rd W e) 0); [contradiction|]. pose proof (@wk_dg _ _ _ _ _ _ _ _ _ _ _ _ _ _ _ _ _ _ _ _ _ S cnt e ltac:(unfold cnt; lia) He Ne Ee). destruct (sc_w S). lia. }
  assert (DEG3 : forall x, 0 <= x < n -> x <> me -> rd (wr Degree' me degme') x = rd Degree' x) by (intros x Hx N; apply rd_wr_ne; lia).
  assert (DMQ : degme' = wt n (fun x => lvb Pe' Elen' x && lmb Iw' pme1 pme2 x) (fun x => Z.abs (rd Nv' x))).
  { rewrite D1, (sc_degme S). fold lm. rewrite (@wt_split n lm mass (fun x => - rd Nv x)).
    assert (X : wt n (fun x => lvb Pe' Elen' x && lmb Iw' pme1 pme2 x) (fun x => Z.abs (rd Nv' x)) = wt n (fun c => lm c && negb (mass c)) (fun x => - rd Nv x)).
    { apply wt_ext. intros x Hx. rewrite LM', LV2 by exact Hx. split.
      - destruct (lm x) eqn:Lx; [|rewrite Bool.andb_false_r; reflexivity]. destruct (LMLV x Lx) as (_ & _ & -> & _). cbn. apply Bool.andb_true_r.
      - intros Y. apply Bool.andb_true_iff in Y. destruct Y as (Y1 & Y2). rewrite <- LV2 in Y1 by exact Hx. rewrite NV2 by auto. pose proof (lm_nv S _ Y2) as Z1. unfold nvz in Z1. lia. }
    rewrite X. unfold nvz. lia. }
  assert (DG0 : 0 <= degme') by (rewrite DMQ; apply wt_nonneg; intros; lia).
  assert (SP : 0 <= wt n (fun x => lm x && mass x) (nvz Nv)). { apply wt_nonneg. intros x Hx X. apply Bool.andb_true_iff in X. destruct X as (X & _). pose proof (lm_nv S _ X). lia. }
  assert (LEN2 : forall x, 0 <= x < n -> x <> me -> 0 <= rd Pe' x -> rd Pe' x = rd Pe x /\ 1 <= rd Len' x <= rd Len x /\ rd Elen' x <> -1 /\ rd Elen' x <= rd Len' x /\ injs Iw' (rd Pe' x) (rd Len' x)).
  { intros x Hx N P. destruct (lm x) eqn:Lx.
    - destruct (mass x) eqn:Mx; [destruct (CM x Hx Lx Mx); lia|]. destruct (CK x Hx Lx Mx) as (K1 & K2 & K3 & K4 & K5 & K6 & K7 & K8 & K9). rewrite K1. repeat split; auto; lia.
    - destruct (CO x Hx Lx) as (K1 & K2 & K3 & K4 & K5). destruct (abk cnt x); [lia|]. rewrite K5 in *. rewrite K2, K3. destruct (LAIN x Hx N P). destruct (sc_obj S Hx N P) as (O1 & O2 & O3). repeat split; auto; try lia. eapply injs_ext; [|exact O3]. intros j Hj. symmetry. apply (IOB x); auto. }
  split; [|split; [|split; [exact L7|split; [exact DG0|split; [lia|split; [|split; [|split; [|split; [exact EV2|split; [intros x Hx N P; destruct (LEN2 x Hx N P) as (Y1 & Y2 & _); split; [exact Y1|lia]|]]]]]]]]]].
  - constructor.
    + exact Hn.
    + rewrite zlen_wr. repeat split; assumption.
    + exact Hme.
    + repeat split; assumption.
    + exact RI.
    + rewrite Q1, Q2, Q3, Q4, rd_wr_eq by lia. repeat split; auto; lia.
    + eapply injs_ext; [|exact (sc_inj S)]. intros j Hj. symmetry. apply IME. exact Hj.
    + eapply lay_shrink; [exact (sc_lay S)|]. intros x Hx. unfold oPe. destruct (Z.eqb_spec x me) as [|N]; [lia|]. intros P. destruct (LEN2 x Hx N P) as (Y1 & Y2 & _). auto.
    + intros x Hx N P. destruct (LEN2 x Hx N P) as (Y1 & Y2 & _). rewrite Y1 in *. pose proof (sc_dis S Hx N P). lia.
    + intros x Hx N P. apply (LEN2 x Hx N P).
    + intros x Hx X. destruct (lm x) eqn:Lx.
      * destruct (LMLV x Lx) as (_ & _ & _ & Y1 & Y2). destruct (mass x) eqn:Mx; [destruct (CM x Hx Lx Mx); lia|]. destruct (CK x Hx Lx Mx) as (K1 & _). lia.
      * destruct (CO x Hx Lx) as (K1 & K2 & K3 & K4 & K5). rewrite K3 in X. pose proof (sc_lv2 S Hx X) as Y. rewrite K5. rewrite NOAB; auto. apply lvb_spec. auto.
    + intros x Hx N. rewrite LM'. destruct (lm x) eqn:Lx.
      * destruct (mass x) eqn:Mx; [destruct (CM x Hx Lx Mx); left; repeat split; try tauto; lia|]. destruct (CK x Hx Lx Mx) as (K1 & K2 & K3 & _). right. split; [lia|]. rewrite K2. destruct (LMLV x Lx) as (_ & _ & Y & _). pose proof (NV1 x Hx Y) as Z1. rewrite Lx in Z1. exact Z1.
      * destruct (CO x Hx Lx) as (K1 & K2 & K3 & K4 & K5). rewrite K1, K3. destruct (sc_nv S Hx N) as [(Y1 & Y2 & Y3)|(Y1 & Y2)].
        -- left. repeat split; auto. rewrite K5. destruct (abk cnt x); lia.
        -- right. fold lm in Y2. rewrite Lx in Y2. auto.
    + intros x X. rewrite LM' in X. destruct (LMLV x X) as (Y1 & _ & _ & Y2 & _). split; [exact Y1|]. rewrite EV2 by exact Y1. apply Z.ltb_ge. lia.
    + constructor.
      * intros x Hx X. split; [|rewrite NV2 by auto; destruct (LV2' x Hx X) as (Y & _); pose proof (NV1 x Hx Y); destruct (lm x); lia]. apply lvb_spec in X. apply Z.ltb_ge. lia.
      * intros e He X. apply elb_spec in X. apply Z.ltb_lt. lia.
      * intros x e Hx X Y. destruct (LV2' x Hx X) as (Lx & Mx). destruct (lm x) eqn:Q.
        -- destruct (CK x Hx Q (Mx eq_refl)) as (_ & _ & _ & _ & K5 & _). rewrite K5 in Y. apply Bool.orb_true_iff in Y. destruct Y as [Y|Y].
           ++ apply Z.eqb_eq in Y. subst e. split; [exact Hme|]. split; [apply elb_spec; lia|]. rewrite LME. exact Q.
           ++ apply Bool.andb_true_iff in Y. destruct Y as (Y1 & Y2). destruct (sc_E S Hx Lx Y1) as (Re & Ne & Ee & Z1). unfold ke, PAmd7.ke in Y2. fold ab W1 in Y2. apply Bool.andb_true_iff in Y2. rewrite !Bool.negb_true_iff in Y2. destruct Y2 as (Y2 & Y3).
              destruct Z1 as [(Z1 & Z2 & Z3)|(_ & Z2 & _)]; [|unfold W1, PAmd5.W1 in Y2; rewrite Z2 in Y2; discriminate].
              split; [exact Re|]. assert (EE : elb Pe' Elen' e = true). { rewrite EL2 by exact Re. rewrite ABE, Y3. rewrite Bool.andb_true_r. apply elb_spec. auto. } split; [exact EE|]. rewrite LO by auto. exact Z3.
        -- rewrite EO in Y by auto. destruct (sc_E S Hx Lx Y) as (Re & Ne & Ee & [(Z1 & Z2 & Z3)|(_ & _ & Z1)]); [|fold lm in Z1; congruence]. split; [exact Re|]. assert (E0 : elb Pe Elen e = true) by (apply elb_spec; auto).
           assert (EE : elb Pe' Elen' e = true). { rewrite EL2, E0 by exact Re. cbn. rewrite Bool.negb_true_iff. destruct (abk cnt e) eqn:A; [|reflexivity]. exfalso. exact (WTO e A E0 x Hx Lx Y Z3 Q). }
           split; [exact EE|]. rewrite LO by auto. exact Z3.
      * intros x y Hx X Y. destruct (LV2' x Hx X) as (Lx & Mx). destruct (lm x) eqn:Q.
        -- destruct (CK x Hx Q (Mx eq_refl)) as (_ & _ & _ & _ & _ & K6 & _). rewrite K6 in Y. apply Bool.andb_true_iff in Y. destruct Y as (Y1 & Y2). unfold kvb in Y2. destruct (sc_V S Hx Lx Y1) as (Ry & Ny & [(-> & _)|(Z1 & Z2)]); [rewrite M4 in Y2; destruct (Z.gtb_spec (- nvp) 0); [lia|discriminate]|].
           split; [exact Ry|]. split; [exact Ny|]. rewrite EV2 by exact Ry. split; [exact Z1|]. intros Z3. destruct (LV2' y Ry Z3) as (Z4 & _). pose proof (NV1 y Ry Z4) as Z5. destruct (lm y) eqn:Ly; [destruct (Z.gtb_spec (rd Nv y) 0); [lia|discriminate]|]. rewrite VO by auto. apply Z2. exact Z4.
        -- rewrite VO in Y by auto. destruct (sc_V S Hx Lx Y) as (Ry & Ny & [(_ & Z1)|(Z1 & Z2)]); [fold lm in Z1; congruence|]. split; [exact Ry|]. split; [exact Ny|]. rewrite EV2 by exact Ry. split; [exact Z1|]. intros Z3. destruct (LV2' y Ry Z3) as (Z4 & Z6). destruct (lm y) eqn:Ly.
           ++ destruct (CK y Ry Ly (Z6 eq_refl)) as (_ & _ & _ & _ & _ & K6 & _). rewrite K6. rewrite (Z2 Z4 : V y x = true). cbn. unfold kvb. pose proof (NV1 x Hx Lx) as Z5. rewrite Q in Z5. destruct (Z.gtb_spec (rd Nv x) 0); [reflexivity|lia].
           ++ rewrite VO by auto. apply Z2. exact Z4.
      * intros e x He X Y. destruct (Z.eq_dec e me) as [->|Ne].
        -- rewrite LME in Y. destruct (LMLV x Y) as (Rx & _ & Lx & Ex & _). split; [exact Rx|]. rewrite EV2 by exact Rx. split; [apply Z.ltb_ge; lia|]. intros Z3. destruct (LV2' x Rx Z3) as (_ & Mx). destruct (CK x Rx Y (Mx Y)) as (_ & _ & _ & _ & K5 & _). rewrite K5, Z.eqb_refl. reflexivity.
        -- rewrite LO in Y by auto. pose proof X as X'. rewrite EL2, Bool.andb_true_iff, Bool.negb_true_iff in X' by exact He. destruct X' as (X1 & X2). destruct (sc_L S He Ne X1 Y) as (Rx & Z1 & Z2). split; [exact Rx|]. rewrite EV2 by exact Rx. split; [exact Z1|]. intros Z3.
           destruct (LV2' x Rx Z3) as (Lx & Mx). destruct (lm x) eqn:Q.
           ++ destruct (CK x Rx Q (Mx eq_refl)) as (_ & _ & _ & _ & K5 & _). rewrite K5. rewrite (Z2 Lx : E x e = true). rewrite (KE x e He Q (Z2 Lx) X1 X2). apply Bool.orb_true_r.
           ++ rewrite EO by auto. apply Z2. exact Lx.
      * intros e He X. destruct (Z.eq_dec e me) as [->|Ne].
        -- rewrite rd_wr_eq by lia. rewrite DMQ. apply Z.eq_le_incl. apply wt_ext. intros x Hx. rewrite LME, LM'. auto.
        -- rewrite DEG3 by auto. pose proof X as X'. rewrite EL2, Bool.andb_true_iff, Bool.negb_true_iff in X' by exact He. destruct X' as (X1 & X2). assert (Le : lm e = false). { destruct (lm e) eqn:Y; [|reflexivity]. destruct (LMLV e Y) as (_ & _ & _ & Y1 & _). apply elb_spec in X1. lia. }
           destruct (CO e He Le) as (_ & _ & _ & -> & _). etransitivity; [|exact (sc_dg S He Ne X1)]. fold lv L.
           rewrite (@wt_ext n (fun x => lvb Pe' Elen' x && mL Iw' Pe' Len' e x) (fun x => lvb Pe' Elen' x && L e x) (fun x => Z.abs (rd Nv' x)) (fun x => Z.abs (rd Nv x))).
           ++ apply wt_le; [|intros; lia]. intros x Hx. rewrite !Bool.andb_true_iff. intros (Y1 & Y2). destruct (LV2' x Hx Y1). auto.
           ++ intros x Hx. rewrite LO by auto. split; [reflexivity|]. intros Y. apply Bool.andb_true_iff in Y. destruct Y as (Y & _). rewrite NV2; auto.
    + intros e He X. apply Bool.andb_true_iff in X. destruct X as (X & Ne). rewrite Bool.negb_true_iff, Z.eqb_neq in Ne. pose proof X as X'. rewrite EL2, Bool.andb_true_iff, Bool.negb_true_iff in X' by exact He. destruct X' as (X1 & X2).
      destruct (sc_ne S He Ne X1) as (x & Hx & Lx & Y). exists x. split; [exact Hx|]. rewrite LO by auto. split; [|exact Y]. rewrite LV2 by exact Hx. fold lv in Lx. rewrite Lx. cbn. rewrite Bool.negb_true_iff. destruct (lm x) eqn:Q; [|reflexivity]. cbn. destruct (mass x) eqn:Mx; [|reflexivity]. exfalso.
      destruct (sc_L S He Ne X1 Y) as (_ & _ & Z2). specialize (Z2 Lx). unfold mass in Mx. apply (@mass_spec aggr n wflg pme1 pme2 Iw Pe Len Nv Elen Degree W x) in Mx. destruct Mx as (Mx & _). specialize (Mx e Z2). pose proof (KE x e He Q Z2 X1 X2) as Z4. unfold ke in Z4. congruence.
    + intros x X Y. rewrite LM' in X. destruct (LMLV x X) as (Rx & Nx & _). destruct (LV2' x Rx Y) as (_ & Mx). destruct (CK x Rx X (Mx X)) as (K1 & K2 & K3 & K4 & K5 & K6 & K7 & K8 & K9). rewrite K1, DEG3 by auto. repeat split; auto; lia.
    + exact DMQ.
    + rewrite D3. rewrite (@wt_split n (lvb Pe Elen) (fun x => lm x && mass x)) in TOT. fold lv in TOT.
      assert (X1 : wt n (fun c => lv c && (lm c && mass c)) (fun x => Z.abs (rd Nv x)) = wt n (fun x => lm x && mass x) (nvz Nv)).
      { apply wt_ext. intros x Hx. split.
        - destruct (lm x) eqn:Lx; [|apply Bool.andb_false_r]. destruct (LMLV x Lx) as (_ & _ & -> & _). reflexivity.
        - intros Y. apply Bool.andb_true_iff in Y. destruct Y as (_ & Y). apply Bool.andb_true_iff in Y. destruct Y as (Y & _). pose proof (lm_nv S _ Y) as Z1. unfold nvz in *. lia. }
      assert (X2 : wt n (lvb Pe' Elen') (fun x => Z.abs (rd Nv' x)) = wt n (fun c => lv c && negb (lm c && mass c)) (fun x => Z.abs (rd Nv x))).
      { apply wt_ext. intros x Hx. split; [apply LV2; exact Hx|]. intros Y. rewrite NV2; auto. }
      lia.
    + assert (lsum n (oPe me Pe') (rd Len') <= lsum n (oPe me Pe) (rd Len)); [|pose proof (sc_sum S); lia]. apply lsum_shrink.
      * intros x Hx P. pose proof (la_in (sc_lay S) Hx P). lia.
      * intros x Hx. unfold oPe. destruct (Z.eqb_spec x me) as [|N]; [lia|]. intros P. destruct (LEN2 x Hx N P) as (Y1 & Y2 & _). lia.
    + eapply forest_ext; [exact FO| | | |].
      * auto.
      * auto.
      * intros x Hx X. rewrite EV2 by exact Hx. exact X.
      * intros x Hx X. rewrite EV2 in X by exact Hx. destruct FO as (g & d & T & F). apply (fo_ev F Hx X).
  - intros e He. rewrite WW by exact He. destruct (sc_w S) as (W2 & SW). destruct (SW e He) as (SW1 & SW2). fold W1.
    assert (C1 : W1 e = 0 /\ rd W e = 0 \/ (W1 e = rd W e) \/ (rd W e <> 0 /\ wflg <= W1 e < wflg + lemax)).
    { unfold W1, PAmd5.W1. fold cnt. destruct (Z.eqb_spec (rd W e) 0); [auto|]. right. destruct (tch pme1 Iw Pe Elen cnt e) eqn:T; [|auto]. right. split; [assumption|]. apply TCH in T. destruct T as (x & X1 & X2). destruct (LMLV x X1) as (Rx & _ & Lx & _). destruct (sc_E S Rx Lx X2) as (_ & Ne & Ee & [(Z1 & _ & _)|(_ & Z1 & _)]); [|contradiction].
      assert (E0 : elb Pe Elen e = true) by (apply elb_spec; auto). pose proof (HD e He Ne E0). pose proof (@wk_dg _ _ _ _ _ _ _ _ _ _ _ _ _ _ _ _ _ _ _ _ _ S cnt e ltac:(unfold cnt; lia) He Ne E0).
      assert (1 <= wk n pme1 Iw Pe Nv Elen cnt e); [|lia]. pose proof (lm_nv S _ X1) as NX.
      assert (nvz Nv x <= wk n pme1 Iw Pe Nv Elen cnt e); [|lia]. unfold wk. apply (@wt_in n (fun x => dn pme1 Iw cnt x && mE Iw Pe Elen x e) (nvz Nv) x); [|exact Rx|rewrite DN, X1; exact X2].
      intros y Hy Y. apply Bool.andb_true_iff in Y. destruct Y as (Y & _). pose proof (lm_nv S _ Y). lia. }
    change (PAmd7.abk aggr n wflg pme1 pme2 Iw Pe Nv Elen Degree W) with abk. destruct (abk cnt e) eqn:A.
    + split; [lia|]. intros P. exfalso. destruct (ABS e A) as (_ & Ne & _ & Le). destruct (CO e He Le) as (_ & _ & _ & _ & X). rewrite A in X. lia.
    + split; [lia|]. intros P. assert (0 <= rd Pe e). { destruct (Z.eq_dec e me) as [->|N]; [lia|]. destruct (LEN2 e He N P) as (Y & _). lia. } specialize (SW2 H). lia.
  - intros x Hx N X. rewrite EL2, Bool.andb_true_iff, Bool.negb_true_iff in X by exact Hx. destruct X as (X & _). assert (Le : lm x = false). { destruct (lm x) eqn:Y; [|reflexivity]. destruct (LMLV x Y) as (_ & _ & _ & Y1 & _). apply elb_spec in X. lia. }
    destruct (CO x Hx Le) as (_ & _ & _ & -> & _). apply HD; auto.
  - intros x Hx X Y. rewrite LM' in Y. apply (CO x Hx Y).
  - intros x Hx. rewrite LM', LV2 by exact Hx. rewrite Bool.andb_true_iff, Bool.negb_true_iff. split; [tauto|]. intros (X & Y). rewrite Y. auto.
  - exists B. eapply bks_ext; [exact BK|]. intros c Hc. cbv beta. fold mass. rewrite LM', DN. split.
    + intros (X & Y). split; [exact X|]. rewrite LV2 by exact Hc. destruct (LMLV c X) as (_ & _ & -> & _). rewrite X, Y. reflexivity.
    + intros (X & Y). split; [exact X|]. destruct (LV2' c Hc Y). auto.
Qed.
