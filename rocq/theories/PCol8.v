(* COLAMD, part 8: supercolumn detection. *)
From Verif Require Import Base Det DetZ Spec MColamd PCol1 PCol2 PCol3 PCol5 PCol7.
Set Implicit Arguments.
Open Scope Z_scope.
Set Bullet Behavior "Strict Subproofs".

Lemma same_pattern_ok A cnt : forall s1 s2, 0 <= s1 -> 0 <= s2 -> s1 + Z.of_nat cnt <= zlen A -> s2 + Z.of_nat cnt <= zlen A ->
  wp (same_pattern cnt A s1 s2) (fun b => b = true -> forall j, 0 <= j < Z.of_nat cnt -> rd A (s1 + j) = rd A (s2 + j)) nerr.
Proof.
  induction cnt as [|cnt IH]; intros s1 s2 H1 H2 L1 L2.
  - cbn. intros _ j Hj. lia.
  - rewrite Nat2Z.inj_succ in *. cbn [same_pattern]. wg; [lia|]. wg; [lia|]. destruct (Z.eqb_spec (rd A s1) (rd A s2)) as [E|E]; cbn [negb].
    + eapply wp_conseq; [apply IH; lia|]. intros b Hb Eb j Hj. destruct (Z.eq_dec j 0) as [->|]; [rewrite !Z.add_0_r; exact E|].
      specialize (Hb Eb (j - 1) ltac:(lia)). replace (s1 + j) with (s1 + 1 + (j - 1)) by lia. replace (s2 + j) with (s2 + 1 + (j - 1)) by lia. exact Hb.
    + cbn. discriminate.
Qed.

Section DS.
Variables (n n2 k p pf q : Z) (A Cl Cs6 Ct6 Co6 Cp6 Cn6 head6 : list Z) (PRb : Z -> bool) (PO : Z -> Z).
Definition pa (Cs : list Z) (c : Z) : Prop := 0 <= c < n /\ PRb c = true /\ 0 <= rd Cs c.
Hypothesis Hn : 0 <= n.
Hypothesis Hpf : 0 <= pf /\ pf <= q /\ q <= zlen A.
Hypothesis LCl : zlen Cl = n.
Hypothesis HA : forall j, pf <= j < q -> 0 <= rd A j < n /\ PRb (rd A j) = true /\ PO (rd A j) = j.
Hypothesis HP : forall c, 0 <= c < n -> PRb c = true -> pf <= PO c < q /\ rd A (PO c) = c.
Hypothesis Hp : PRb p = false.
Hypothesis Seg : forall c, pa Cs6 c -> 0 <= rd Cl c /\ rd Cs6 c + rd Cl c <= zlen A.
Definition eqp (c c' : Z) : Prop := forall r, memb A (rd Cs6 c) (rd Cl c) r = memb A (rd Cs6 c') (rd Cl c') r.

Definition chain (Cs Cn : list Z) : Prop := forall c, pa Cs c ->
  (rd Cn c = EMPTY \/ (pa Cs (rd Cn c) /\ rd Cp6 (rd Cn c) = rd Cp6 c /\ PO (rd Cn c) < PO c)) /\
  (forall y, pa Cs y -> rd Cp6 y = rd Cp6 c -> PO y < PO c -> rd Cn c <> EMPTY /\ PO y <= PO (rd Cn c)).

Definition dsi (st : list Z * list Z * list Z * list Z) : Prop := let '(Cs, Ct, Co, Cn) := st in
  (zlen Cs = n /\ zlen Ct = n /\ zlen Co = n /\ zlen Cn = n) /\
  (forall c, 0 <= c < n -> rd Cs c = rd Cs6 c \/ (PRb c = true /\ 0 <= rd Cs6 c /\ rd Cs c = -2)) /\
  (forall c, 0 <= c < n -> PRb c = false -> rd Ct c = rd Ct6 c /\ rd Cn c = rd Cn6 c) /\
  (forall c, 0 <= c < n -> rd Cs c = rd Cs6 c -> rd Co c = rd Co6 c) /\
  (forall f, (forall c c', pa Cs6 c -> pa Cs6 c' -> eqp c c' -> f c = f c') ->
     sumz n (fun c => if alv Cs c then f c * rd Ct c else 0) = sumz n (fun c => if alv Cs6 c then f c * rd Ct6 c else 0)) /\
  (exists grp sz, led n n2 k (fun c => if c =? p then -1 else rd Cs c) (rd Ct) (rd Co) grp sz) /\
  chain Cs Cn.

(* a column of another bucket, or one that comes before s in its bucket, is not merged *)
Definition keeps (s : Z) (Cs Cs' : list Z) : Prop := forall x, pa Cs x -> rd Cp6 x <> rd Cp6 s \/ PO s <= PO x -> pa Cs' x.

Lemma pa6 Cs c : (forall c, 0 <= c < n -> rd Cs c = rd Cs6 c \/ (PRb c = true /\ 0 <= rd Cs6 c /\ rd Cs c = -2)) -> pa Cs c -> pa Cs6 c /\ rd Cs c = rd Cs6 c.
Proof. intros H (H1 & H2 & H3). destruct (H c H1) as [E|E]; [|lia]. rewrite E in H3. unfold pa. auto. Qed.
Lemma PO_inj c c' : 0 <= c < n -> 0 <= c' < n -> PRb c = true -> PRb c' = true -> PO c = PO c' -> c = c'.
Proof. intros H H' P P' E. destruct (HP H P) as (_ & X). destruct (HP H' P') as (_ & X'). congruence. Qed.

(* one merge *)
Lemma merge_ok s c prev Cs Ct Co Cn : dsi (Cs, Ct, Co, Cn) -> pa Cs s -> pa Cs c -> pa Cs prev -> rd Cn prev = c -> rd Cp6 prev = rd Cp6 c -> PO c < PO prev -> s <> c -> eqp s c ->
  let Cs' := wr Cs c (-2) in
  dsi (Cs', wr (wr Ct s (rd Ct s + rd Ct c)) c s, wr Co c EMPTY, wr Cn prev (rd Cn c)) /\ (forall x, pa Cs' x <-> pa Cs x /\ x <> c).
Proof.
  intros ((L1 & L2 & L3 & L4) & J1 & J2 & J3 & J4 & (grp & sz & J5) & J6) Ps Pc Pp EN EP OP Nsc EQ Cs'.
  pose proof (@pa6 Cs s J1 Ps) as (Ps6 & Es). pose proof (@pa6 Cs c J1 Pc) as (Pc6 & Ec). destruct Ps as (Rs & PRs & As). destruct Pc as (Rc & PRc & Ac). destruct Pp as (Rp & PRp & App).
  assert (PAX : forall x, pa Cs' x <-> pa Cs x /\ x <> c).
  { intros x. unfold pa, Cs'. destruct (Z.eq_dec x c) as [->|Nx].
    - rewrite rd_wr_eq by lia. split; [lia|]. tauto.
    - split; [intros (X1 & X2 & X3); rewrite rd_wr_ne in X3 by lia; auto|intros ((X1 & X2 & X3) & _); rewrite rd_wr_ne by lia; auto]. }
  assert (Npc : prev <> c) by (intros ->; lia).
  split; [|exact PAX]. unfold dsi, Cs'. rewrite !zlen_wr. split; [auto|]. split; [|split; [|split; [|split; [|split]]]].
  - intros x Hx. destruct (Z.eq_dec x c) as [->|Nx]; [right; rewrite rd_wr_eq by lia; repeat split; auto; lia|]. rewrite rd_wr_ne by lia. apply J1. exact Hx.
  - intros x Hx Px. assert (x <> c) by congruence. assert (x <> s) by congruence. assert (x <> prev) by congruence. rewrite !rd_wr_ne by lia. apply J2; auto.
  - intros x Hx. destruct (Z.eq_dec x c) as [->|Nx]; [rewrite rd_wr_eq by lia; lia|]. rewrite !rd_wr_ne by lia. apply J3. exact Hx.
  - intros f Hf. rewrite <- (J4 f Hf). assert (F : f s = f c) by (apply Hf; auto).
    rewrite (@sumz_upd2 n _ (fun x => if alv Cs x then f x * rd Ct x else 0) s c Rs Rc Nsc).
    + unfold alv. rewrite (rd_wr_eq Cs) by lia. rewrite (rd_wr_ne Cs) by lia. rewrite (@rd_wr_ne (wr Ct s _) c s) by lia. rewrite (rd_wr_eq Ct) by lia.
      rewrite (proj2 (Z.leb_le 0 (rd Cs s))), (proj2 (Z.leb_le 0 (rd Cs c))) by lia. cbn. rewrite F. lia.
    + intros x Hx N1 N2. unfold alv. rewrite !rd_wr_ne by lia. reflexivity.
  - destruct (@led_merge n n2 k _ _ _ grp sz c s (fun x => if x =? p then -1 else rd (wr Cs c (-2)) x) (rd (wr (wr Ct s (rd Ct s + rd Ct c)) c s)) (rd (wr Co c EMPTY)) J5) as (g' & s' & X); eauto; cbv beta.
    all: assert (c <> p) by congruence; assert (s <> p) by congruence; rewrite ?(proj2 (Z.eqb_neq c p)), ?(proj2 (Z.eqb_neq s p)) by assumption; rewrite ?rd_wr_eq by (rewrite ?zlen_wr; lia); rewrite ?rd_wr_ne by lia; auto; try lia.
    + rewrite rd_wr_eq by lia. reflexivity.
    + intros x Hx N1 N2. rewrite !rd_wr_ne by lia. auto.
  - intros x Px. apply PAX in Px. destruct Px as (Px & Nx). destruct (J6 x Px) as (X1 & X2). destruct (J6 c ltac:(unfold pa; auto)) as (C1 & C2).
    destruct (Z.eq_dec x prev) as [->|Nxp].
    + rewrite rd_wr_eq by lia. split.
      * destruct C1 as [C1|(C1 & C3 & C4)]; [left; exact C1|right]. split; [apply PAX; split; [exact C1|]; intros E; rewrite E in C4; lia|]. split; [congruence|lia].
      * intros y Py Ey Oy. apply PAX in Py. destruct Py as (Py & Ny). destruct (X2 y Py Ey Oy) as (_ & X3). rewrite EN in X3. apply C2; [exact Py|congruence|].
        assert (PO y <> PO c); [|lia]. intros E. apply Ny. destruct Py as (Ry & PRy & _). apply PO_inj; auto.
    + assert (Rx : 0 <= x < n) by apply Px. rewrite rd_wr_ne by lia. split.
      * destruct X1 as [X1|(X1 & X3 & X4)]; [left; exact X1|right]. split; [|auto]. apply PAX. split; [exact X1|]. intros E.
        (* c has only one predecessor *)
        destruct (Z.lt_total (PO x) (PO prev)) as [O|[O|O]].
        -- destruct (J6 prev ltac:(unfold pa; auto)) as (_ & Y2). destruct (Y2 x Px ltac:(rewrite EP, <- E; congruence) O) as (_ & Y3). rewrite EN in Y3. rewrite E in X4. lia.
        -- apply Nxp. destruct Px as (_ & PRx & _). apply PO_inj; auto.
        -- destruct (X2 prev ltac:(unfold pa; auto) ltac:(rewrite EP, <- E; congruence) O) as (_ & Y3). rewrite E in Y3. lia.
      * intros y Py Ey Oy. apply PAX in Py. destruct Py as (Py & _). apply X2; auto.
Qed.

Lemma ds_inner_ok s fuel : forall c prev Cs Ct Co Cn, dsi (Cs, Ct, Co, Cn) -> pa Cs s -> pa Cs prev -> rd Cp6 prev = rd Cp6 s -> PO prev <= PO s -> rd Cn prev = c ->
  (c <> EMPTY -> PO c - pf < Z.of_nat fuel) ->
  wp (ds_inner fuel A Cl s (rd Cl s) c prev Cs Ct Co Cn) (fun '(Cs', Ct', Co', Cn') => dsi (Cs', Ct', Co', Cn') /\ keeps s Cs Cs') nerr.
Proof.
  assert (G : forall c prev Cs Ct Co Cn, dsi (Cs, Ct, Co, Cn) -> pa Cs s -> pa Cs prev -> rd Cp6 prev = rd Cp6 s -> PO prev <= PO s -> rd Cn prev = c -> c <> EMPTY ->
    pa Cs c /\ rd Cp6 c = rd Cp6 s /\ PO c < PO prev).
  { intros c prev Cs Ct Co Cn (_ & _ & _ & _ & _ & _ & J6) Ps Pp EP OP EN NE. destruct (J6 prev Pp) as ([E|(X1 & X2 & X3)] & _); [congruence|]. rewrite EN in *. repeat split; try apply X1; congruence. }
  induction fuel as [|fuel IH]; intros c prev Cs Ct Co Cn J Ps Pp EP OP EN FU.
  - cbn [ds_inner]. destruct (Z.eqb_spec c EMPTY) as [E|E].
    + cbn. split; [exact J|]. intros x Px _. exact Px.
    + destruct (G _ _ _ _ _ _ J Ps Pp EP OP EN E) as ((Rc & Pc & _) & _). destruct (HP Rc Pc). specialize (FU E). lia.
  - cbn [ds_inner]. destruct (Z.eqb_spec c EMPTY) as [E|E].
    { cbn. split; [exact J|]. intros x Px _. exact Px. }
    destruct (G _ _ _ _ _ _ J Ps Pp EP OP EN E) as (Pc & EPc & OPc). specialize (FU E). rewrite Nat2Z.inj_succ in FU.
    pose proof J as ((L1 & L2 & L3 & L4) & J1 & J2 & J3 & J4 & J5 & J6). destruct (J6 c Pc) as (C1 & C2). destruct Pc as (Rc & PRc & Ac). pose proof Ps as (Rs & PRs & As).
    assert (Npc : prev <> c) by (intros ->; lia). assert (Nsc : s <> c) by (intros ->; lia). pose proof Pp as (Rp & _).
    wg; [lia|]. wg; [lia|]. wg; [lia|]. apply wp_bind.
    set (T := if negb (rd Cl c =? rd Cl s) || negb (rd Co c =? rd Co s) then _ else _).
    assert (WT : wp T (fun b => b = true -> eqp s c) nerr).
    { unfold T. destruct (Z.eqb_spec (rd Cl c) (rd Cl s)) as [El|]; cbn [negb orb]; [|cbn; discriminate]. destruct (rd Co c =? rd Co s); cbn [negb]; [|cbn; discriminate].
      wg; [lia|]. wg; [lia|]. destruct (@pa6 Cs s J1 Ps) as (Ps6 & Es). destruct (@pa6 Cs c J1 ltac:(unfold pa; auto)) as (Pc6 & Ec). destruct (Seg Ps6) as (S1 & S2). destruct (Seg Pc6) as (S3 & S4). rewrite Es, Ec.
      eapply wp_conseq; [apply same_pattern_ok; lia|]. intros b Hb Eb. specialize (Hb Eb). rewrite Z2Nat.id in Hb by lia. intros r. rewrite El. apply memb_move. intros j Hj. apply Hb. exact Hj. }
    eapply wp_conseq; [exact WT|]. intros b Hb. destruct b; cbn [negb].
    + specialize (Hb eq_refl). wg; [lia|]. unfold inc. apply wp_bind. wg; [lia|]. apply wp_set; [lia|]. ws; [rewrite ?zlen_wr; lia|]. ws; [lia|]. ws; [lia|]. wg; [lia|]. ws; [lia|]. wg; [rewrite ?zlen_wr; lia|].
      rewrite (@rd_wr_ne Cn prev c) by lia.
      destruct (@merge_ok s c prev Cs Ct Co Cn J Ps ltac:(unfold pa; auto) Pp EN ltac:(congruence) OPc Nsc Hb) as (J' & PAX).
      eapply wp_conseq; [apply (IH (rd Cn c) prev (wr Cs c (-2)) (wr (wr Ct s (rd Ct s + rd Ct c)) c s) (wr Co c EMPTY) (wr Cn prev (rd Cn c)))|].
      * exact J'.
      * apply PAX. auto.
      * apply PAX. auto.
      * exact EP.
      * exact OP.
      * apply rd_wr_eq. lia.
      * intros NE. destruct C1 as [C1|(C1 & _ & C3)]; [congruence|lia].
      * intros [[[Cs' Ct'] Co'] Cn'] (K1 & K2). split; [exact K1|]. intros x Px Ox. apply K2; [|exact Ox]. apply PAX. split; [exact Px|]. intros ->. destruct Ox; [congruence|lia].
    + wg; [lia|]. apply (IH (rd Cn c) c Cs Ct Co Cn); auto; [unfold pa; auto|lia|]. intros NE. destruct C1 as [C1|(C1 & _ & C3)]; [congruence|lia].
Qed.

Lemma ds_outer_ok fuel fuel' : q - pf <= Z.of_nat fuel' -> forall s Cs Ct Co Cn, dsi (Cs, Ct, Co, Cn) -> (s <> EMPTY -> pa Cs s /\ PO s - pf < Z.of_nat fuel) ->
  wp (ds_outer fuel fuel' A Cl s Cs Ct Co Cn) (fun '(Cs', Ct', Co', Cn') => dsi (Cs', Ct', Co', Cn') /\ (forall x, pa Cs x -> s = EMPTY \/ rd Cp6 x <> rd Cp6 s -> pa Cs' x)) nerr.
Proof.
  intros F'. induction fuel as [|fuel IH]; intros s Cs Ct Co Cn J Ps.
  - cbn [ds_outer]. destruct (Z.eqb_spec s EMPTY) as [E|E].
    + cbn. split; [exact J|]. auto.
    + destruct (Ps E) as ((Rs & PRs & _) & X). destruct (HP Rs PRs). lia.
  - cbn [ds_outer]. destruct (Z.eqb_spec s EMPTY) as [E|E]; [cbn; split; [exact J|]; auto|]. destruct (Ps E) as (Pas & X). rewrite Nat2Z.inj_succ in X. pose proof Pas as (Rs & PRs & As).
    pose proof J as ((L1 & L2 & L3 & L4) & J1 & J2 & J3 & J4 & J5 & J6). destruct (J6 s Pas) as (C1 & C2).
    wg; [lia|]. wg; [lia|]. apply wp_bind. eapply wp_conseq; [apply (@ds_inner_ok s fuel' (rd Cn s) s Cs Ct Co Cn); auto; [lia|]|].
    + intros NE. destruct C1 as [C1|((RC & PC & _) & _)]; [congruence|]. destruct (HP RC PC). lia.
    + intros [[[Cs' Ct'] Co'] Cn'] (J' & K). pose proof J' as ((L1' & L2' & L3' & L4') & _ & _ & _ & _ & _ & J6'). wg; [lia|].
      assert (Ps' : pa Cs' s) by (apply K; [exact Pas|right; lia]). destruct (J6' s Ps') as (C1' & _).
      eapply wp_conseq; [apply (IH (rd Cn' s) Cs' Ct' Co' Cn' J')|].
      * intros NE. destruct C1' as [C1'|(Y1 & Y2 & Y3)]; [congruence|]. split; [exact Y1|lia].
      * intros [[[Cs'' Ct''] Co''] Cn''] (J'' & K'). split; [exact J''|]. intros x Px [Y|Y]; [congruence|]. apply K'; [apply K; auto|]. destruct C1' as [C1'|(Y1 & Y2 & Y3)]; [left; exact C1'|right; congruence].
Qed.

(* all buckets *)
Definition dso (act : Z -> Prop) (head0 : list Z) (i : Z) (st : list Z * list Z * list Z * list Z * list Z * list Z) : Prop := let '(Cs, Ct, Co, Cp, Cn, head) := st in
  dsi (Cs, Ct, Co, Cn) /\ zlen Cp = n /\ zlen head = n + 1 /\ (forall c, 0 <= c < n -> PRb c = true -> rd Cp c = rd Cp6 c) /\
  (forall h, 0 <= h <= n -> fb Cp head h = EMPTY \/ (pa Cs (fb Cp head h) /\ rd Cp6 (fb Cp head h) = h /\ i <= PO (fb Cp head h))) /\
  (forall h, 0 <= h <= n -> hd1 head h = rd head0 h) /\
  (forall c, 0 <= c < n -> act c -> rd Cp c = rd Cp6 c \/ exists h, 0 <= h <= n /\ rd head0 h = c).

Lemma detect_ok (act : Z -> Prop) head0 Cn0 : zlen Cp6 = n -> zlen head6 = n + 1 -> dsi (Cs6, Ct6, Co6, Cn0) ->
  (forall h, 0 <= h <= n -> fb Cp6 head6 h = EMPTY \/ (pa Cs6 (fb Cp6 head6 h) /\ rd Cp6 (fb Cp6 head6 h) = h)) ->
  (forall c, pa Cs6 c -> 0 <= rd Cp6 c <= n) ->
  (forall h, 0 <= h <= n -> hd1 head6 h = rd head0 h) ->
  (forall h, 0 <= h <= n -> rd head0 h = EMPTY \/ (0 <= rd head0 h < n /\ PRb (rd head0 h) = false)) ->
  (forall h h', 0 <= h <= n -> 0 <= h' <= n -> rd head0 h <> EMPTY -> rd head0 h = rd head0 h' -> h = h') ->
  wp (detect_super_cols A Cl pf (q - pf) Cs6 Ct6 Co6 Cp6 Cn0 head6) (fun '(Cs, Ct, Co, Cp, Cn, head) =>
    dsi (Cs, Ct, Co, Cn) /\ zlen Cp = n /\ zlen head = n + 1 /\ (forall h, 0 <= h <= n -> rd head h = rd head0 h) /\
    (forall h, 0 <= h <= n -> rd head0 h <> EMPTY -> rd Cp (rd head0 h) = EMPTY) /\
    (forall c, 0 <= c < n -> act c -> rd Cp c = rd Cp6 c \/ exists h, 0 <= h <= n /\ rd head0 h = c)) nerr.
Proof.
  intros LCp LH J0 FB0 CPR HD0 HH HI. unfold detect_super_cols. replace (pf + (q - pf)) with q by lia. eapply wp_conseq.
  { apply wp_for with (I := dso act head0); [lia| |].
    - unfold dso. repeat (split; [assumption|]). split; [auto|]. split; [|split; [exact HD0|auto]]. intros h Hh. destruct (FB0 h Hh) as [X|(X1 & X2)]; [left; exact X|right]. split; [exact X1|]. split; [exact X2|].
      destruct X1 as (R & P & _). apply (HP R P).
    - intros i [[[[[Cs Ct] Co] Cp] Cn] head] Hi (J & Z1 & Z2 & Q1 & Q2 & Q3 & Q4). destruct (HA Hi) as (Rc & PC & OC). set (c := rd A i) in *. pose proof J as ((L1 & L2 & L3 & L4) & J1 & _).
      assert (HD' : forall h, 0 <= h <= n -> rd head h > EMPTY -> rd head h = rd head0 h /\ 0 <= rd head h < n /\ PRb (rd head h) = false).
      { intros h Hh X. pose proof (Q3 h Hh) as Y. unfold hd1 in Y. destruct (Z.gtb_spec (rd head h) EMPTY); [|lia]. rewrite Y. split; [reflexivity|]. destruct (HH h Hh) as [E|E]; [lia|exact E]. }
      wg; [lia|]. fold c. wg; [lia|]. destruct (Z.ltb_spec (rd Cs c) 0) as [D|D].
      + cbn. repeat (split; [assumption|]). split; [|auto]. intros h Hh. destruct (Q2 h Hh) as [X|(X1 & X2 & X3)]; [left; exact X|right]. split; [exact X1|]. split; [exact X2|].
        destruct (Z.eq_dec (PO (fb Cp head h)) i) as [E|]; [|lia]. exfalso. destruct X1 as (R & P & Y). destruct (HP R P) as (_ & W). rewrite E in W. fold c in W. rewrite <- W in Y. lia.
      + assert (Pc : pa Cs c) by (unfold pa; auto). destruct (@pa6 Cs c J1 Pc) as (Pc6 & _). pose proof (CPR c Pc6) as Rh. wg; [lia|]. rewrite (Q1 c Rc PC). set (h := rd Cp6 c) in *.
        assert (BK : bucket h Cp head = Ok (rd head h, fb Cp head h)).
        { unfold bucket, fb. rewrite get_rd by lia. cbn [bind]. destruct (Z.gtb_spec (rd head h) EMPTY) as [X|X]; [|reflexivity]. destruct (HD' h Rh ltac:(lia)) as (_ & Y & _). rewrite get_rd by lia. reflexivity. }
        rewrite BK. cbn [bind]. apply wp_bind. eapply wp_conseq.
        { apply (@ds_outer_ok (Z.to_nat (q - pf)) (Z.to_nat (q - pf)) ltac:(lia) (fb Cp head h) Cs Ct Co Cn J). intros NE. destruct (Q2 h Rh) as [X|(X1 & _)]; [contradiction|]. split; [exact X1|]. destruct X1 as (R & P & _). destruct (HP R P). lia. }
        intros [[[Cs' Ct'] Co'] Cn'] (J' & K).
        assert (Q2' : forall h', 0 <= h' <= n -> h' <> h -> fb Cp head h' = EMPTY \/ (pa Cs' (fb Cp head h') /\ rd Cp6 (fb Cp head h') = h' /\ i + 1 <= PO (fb Cp head h'))).
        { intros h' Hh' Nh. destruct (Q2 h' Hh') as [X|(X1 & X2 & X3)]; [left; exact X|right]. split; [|split; [exact X2|]].
          - apply K; [exact X1|]. destruct (Q2 h Rh) as [Y|(_ & Y & _)]; [left; exact Y|right]. congruence.
          - destruct (Z.eq_dec (PO (fb Cp head h')) i) as [E|]; [|lia]. exfalso. destruct X1 as (R & P & _). destruct (HP R P) as (_ & W). rewrite E in W. fold c in W. apply Nh. rewrite <- X2, <- W. reflexivity. }
        destruct (Z.gtb_spec (rd head h) EMPTY) as [X|X].
        * destruct (HD' h Rh ltac:(lia)) as (Y1 & Y2 & Y3). ws; [lia|]. cbn. rewrite zlen_wr. repeat (split; [assumption|]). split; [|split; [|split; [exact Q3|]]].
          -- intros x Hx Px. rewrite rd_wr_ne; [apply Q1; auto|lia|lia|congruence].
          -- intros h' Hh'. destruct (Z.eq_dec h' h) as [->|Nh].
             ++ left. unfold fb. destruct (Z.gtb_spec (rd head h) EMPTY); [|lia]. apply rd_wr_eq. lia.
             ++ assert (FE : fb (wr Cp (rd head h) EMPTY) head h' = fb Cp head h').
                { unfold fb. destruct (Z.gtb_spec (rd head h') EMPTY) as [X'|X']; [|reflexivity]. destruct (HD' h' Hh' ltac:(lia)) as (Y1' & Y2' & _). apply rd_wr_ne; [lia|lia|]. intros E. apply Nh. symmetry. apply HI; auto; [|congruence]. rewrite <- Y1. unfold EMPTY in *. lia. }
                rewrite FE. apply Q2'; auto.
          -- intros x Hx Ax. destruct (Z.eq_dec x (rd head h)) as [->|Nx]; [right; exists h; auto|]. destruct (Q4 x Hx Ax) as [W|W]; [left|right; exact W]. rewrite <- W. apply rd_wr_ne; lia.
        * ws; [lia|]. cbn. rewrite zlen_wr. repeat (split; [assumption|]). split; [|split; [|exact Q4]].
          -- intros h' Hh'. destruct (Z.eq_dec h' h) as [->|Nh].
             ++ left. unfold fb. rewrite rd_wr_eq by lia. reflexivity.
             ++ assert (FE : fb Cp (wr head h EMPTY) h' = fb Cp head h') by (unfold fb; rewrite rd_wr_ne by lia; reflexivity). rewrite FE. apply Q2'; auto.
          -- intros h' Hh'. rewrite <- (Q3 h' Hh'). unfold hd1. destruct (Z.eq_dec h' h) as [->|Nh]; [|rewrite rd_wr_ne by lia; reflexivity]. rewrite rd_wr_eq by lia. destruct (Z.gtb_spec (rd head h) EMPTY); [lia|reflexivity]. }
  intros [[[[[Cs Ct] Co] Cp] Cn] head] (J & Z1 & Z2 & Q1 & Q2 & Q3 & Q4). split; [exact J|]. split; [exact Z1|]. split; [exact Z2|].
  assert (FE : forall h, 0 <= h <= n -> fb Cp head h = EMPTY). { intros h Hh. destruct (Q2 h Hh) as [X|((R & P & _) & _ & X)]; [exact X|]. destruct (HP R P). lia. }
  assert (HE : forall h, 0 <= h <= n -> rd head h = rd head0 h).
  { intros h Hh. rewrite <- (Q3 h Hh). unfold hd1. pose proof (FE h Hh) as X. unfold fb in X. destruct (Z.gtb_spec (rd head h) EMPTY); [reflexivity|]. unfold EMPTY in *. lia. }
  split; [exact HE|]. split; [|exact Q4]. intros h Hh NE. pose proof (FE h Hh) as X. unfold fb in X. rewrite <- (HE h Hh) in *. destruct (Z.gtb_spec (rd head h) EMPTY) as [Y|Y]; [exact X|].
  exfalso. pose proof (Q3 h Hh) as W. unfold hd1 in W. destruct (Z.gtb_spec (rd head h) EMPTY); [lia|]. rewrite <- (HE h Hh) in W. congruence.
Qed.
End DS.
