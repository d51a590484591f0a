(* COLAMD, part 7: compression of the columns of the pivot row, scores, hash buckets. *)
From Verif Require Import Base Det DetZ Spec MColamd PCol1 PCol2 PCol3 PCol5.
Set Implicit Arguments.
Open Scope Z_scope.
Set Bullet Behavior "Strict Subproofs".

(* position in the pivot row *)
Definition pos (B : list Z) (lo hi c : Z) : Z := match find (fun j => rd B j =? c) (zseq lo hi) with Some j => j | None => 0 end.
Lemma pos_at B lo hi j : injs B lo (hi - lo) -> lo <= j < hi -> pos B lo hi (rd B j) = j.
Proof.
  intros J Hj. unfold pos. destruct (find _ _) as [i|] eqn:E.
  - apply find_some in E. destruct E as (E1 & E2). apply in_zseq in E1. apply Z.eqb_eq in E2. apply J; [lia|lia|exact E2].
  - exfalso. pose proof (find_none _ _ E j (proj2 (in_zseq lo hi j) Hj)) as X. cbv beta in X. rewrite Z.eqb_refl in X. discriminate.
Qed.

(* first column of a hash bucket;  first column of a degree list *)
Definition fb (Cp head : list Z) (h : Z) : Z := if rd head h >? EMPTY then rd Cp (rd head h) else - (rd head h + 2).
Definition hd1 (head : list Z) (s : Z) : Z := if rd head s >? EMPTY then rd head s else EMPTY.

Section Add.
Variables (m n n2 cend pf q : Z) (A B Rs Rl Rm Rm2 Cs Cl Ct Co0 Cp0 Cn0 head0 : list Z) (p tag : Z) (grp sz rk : Z -> Z).
Hypothesis I : mem m n cend pf A Rs Rl Rm Cs Cl.
Hypothesis LCt : zlen Ct = n.
Hypothesis TH : forall c, 0 <= c < n -> 0 <= rd Cs c -> 1 <= rd Ct c.
Hypothesis Hp : 0 <= p < n.
Hypothesis Ap : 0 <= rd Cs p.
Let M := Mof A Cs Cl.
Let PRb := prb m A Cs Cl p.
Hypothesis LB : zlen B = zlen A.
Hypothesis EB : forall j, 0 <= j < pf -> rd B j = rd A j.
Hypothesis Hq : pf <= q /\ q <= zlen A.
Hypothesis JB : injs B pf (q - pf).
Hypothesis RB : forall j, pf <= j < q -> 0 <= rd B j < n.
Hypothesis PB : forall c, 0 <= c < n -> memb B pf (q - pf) c = PRb c.
Hypothesis LRm2 : zlen Rm2 = Z.max m 1.
Definition al2 (r : Z) : bool := 0 <=? rd Rm2 r.
Hypothesis F1 : forall r, 0 <= r < m -> 0 <= rd Rm2 r -> M p r = false.
Hypothesis F2 : forall r c, 0 <= r < m -> 0 <= c < n -> 0 <= rd Rm2 r -> PRb c = true -> M c r = true ->
  rd Rm2 r = tag + wt n (fun c' => alv Cs c' && M c' r && negb (PRb c')) (rd Ct).
Hypothesis F3 : forall r c, 0 <= r < m -> 0 <= c < n -> 0 <= rd Cs c -> c <> p -> PRb c = false -> M c r = true -> 0 <= rd Rm2 r.
Definition actN (c : Z) : Prop := 0 <= c < n /\ 0 <= rd Cs c /\ c <> p /\ PRb c = false.
Hypothesis D0 : dlist n actN (rd Co0) (rd Cn0) (rd Cp0) (rd head0) rk.
Hypothesis SUM : wt n (alv Cs) (rd Ct) <= n.

Definition M6 (c r : Z) : bool := M c r && al2 r.
Definition NP (c : Z) : Z := wt n (fun c' => alv Cs c' && negb (PRb c') && negb (c' =? p) && sh m M6 c c') (rd Ct).

Lemma prA c : PRb c = true -> 0 <= rd Cs c /\ c <> p.
Proof. intros H. apply prb_spec in H. destruct H as (H1 & H2 & _). auto. Qed.
Lemma th0 c b : 0 <= c < n -> alv Cs c && b = true -> 0 <= rd Ct c.
Proof. intros Hc H. apply Bool.andb_true_iff in H. destruct H as (H & _). apply alv_spec in H. pose proof (TH Hc H). lia. Qed.
Lemma NP_le_n c : NP c <= n.
Proof.
  etransitivity; [|exact SUM]. apply wt_le.
  - intros x Hx H. rewrite <- !Bool.andb_assoc in H. apply Bool.andb_true_iff in H. apply H.
  - intros x Hx H. apply (@th0 x true Hx). rewrite H. reflexivity.
Qed.
Lemma NP_bound c : 0 <= c < n -> PRb c = true -> NP c <= sumz m (fun r => if M c r then (if al2 r then rd Rm2 r - tag else 0) else 0).
Proof.
  intros Hc PC. transitivity (sumz m (fun r => sumz n (fun c' => if M6 c r && (alv Cs c' && M c' r && negb (PRb c')) then rd Ct c' else 0))).
  - rewrite sumz_swap. unfold NP, wt. apply sumz_le. intros c' Hc'. destruct (alv Cs c' && negb (PRb c') && negb (c' =? p) && sh m M6 c c') eqn:E.
    + rewrite !Bool.andb_true_iff in E. destruct E as (((E1 & E2) & E3) & E4). apply sh_spec in E4. destruct E4 as (r & Hr & M1 & M2).
      pose proof (@sumz_pos1 m (fun r => if M6 c r && (alv Cs c' && M c' r && negb (PRb c')) then rd Ct c' else 0) r Hr) as S. cbv beta in S.
      unfold M6 in M2. apply Bool.andb_true_iff in M2. destruct M2 as (M2 & _). rewrite E1, E2 in S |- *. rewrite M1, M2 in S. apply S. intros r' _. destruct (M6 c r' && _) eqn:X; [|lia]. apply (@th0 c' true Hc'). rewrite E1. reflexivity.
    + apply sumz_nonneg. intros r' _. destruct (M6 c r' && _) eqn:X; [|lia]. rewrite !Bool.andb_true_iff in X. apply (@th0 c' true Hc'). destruct X as (_ & ((X & _) & _)). rewrite X. reflexivity.
  - apply sumz_le. intros r Hr. unfold M6. destruct (M c r) eqn:Mc; cbn [andb].
    + destruct (al2 r) eqn:Al; cbn [andb].
      * apply Z.leb_le in Al. rewrite (F2 Hr Hc Al PC Mc). unfold wt. lia.
      * rewrite sumz_zero by auto. lia.
    + rewrite sumz_zero by auto. lia.
Qed.

Definition pre7 (i c : Z) : bool := memb B pf (i - pf) c.
Let PO := pos B pf q.

Definition ainv (i : Z) (st : list Z * list Z * list Z * list Z * list Z * list Z * list Z * Z * Z) : Prop := let '(A', Cs', Cl', Co', Cp', Cn', head', dg, k) := st in
  (zlen A' = zlen A /\ zlen Cs' = n /\ zlen Cl' = n /\ zlen Co' = n /\ zlen Cp' = n /\ zlen Cn' = n /\ zlen head' = n + 1) /\
  (forall j, cend <= j < zlen A -> rd A' j = rd B j) /\ (forall j, 0 <= j < pf -> 0 <= rd A' j) /\
  (forall c, 0 <= c < n -> pre7 i c = false -> rd Cs' c = rd Cs c /\ rd Co' c = rd Co0 c /\ rd Cl' c = rd Cl c /\
     (0 <= rd Cs c -> forall j, rd Cs c <= j < rd Cs c + rd Cl c -> rd A' j = rd A j)) /\
  (forall c, 0 <= c < n -> pre7 i c = true -> 0 <= rd Cl' c < rd Cl c /\ (forall r, memb A' (rd Cs c) (rd Cl' c) r = M6 c r) /\ injs A' (rd Cs c) (rd Cl' c) /\
     ((rd Cl' c = 0 /\ rd Cs' c = -1) \/ (0 < rd Cl' c /\ rd Cs' c = rd Cs c /\ 0 <= rd Co' c <= n /\ NP c <= rd Co' c))) /\
  led n n2 k (fun c => if c =? p then -1 else rd Cs' c) (rd Ct) (rd Co') grp sz /\
  dg = wt n (fun c => PRb c && alv Cs' c) (rd Ct) /\
  (forall h, 0 <= h <= n -> fb Cp' head' h = EMPTY \/ (0 <= fb Cp' head' h < n /\ pre7 i (fb Cp' head' h) = true /\ 0 <= rd Cs' (fb Cp' head' h) /\ rd Cp' (fb Cp' head' h) = h)) /\
  (forall c, 0 <= c < n -> pre7 i c = true -> 0 <= rd Cs' c -> 0 <= rd Cp' c <= n /\
     (rd Cn' c = EMPTY \/ (0 <= rd Cn' c < n /\ pre7 i (rd Cn' c) = true /\ 0 <= rd Cs' (rd Cn' c) /\ rd Cp' (rd Cn' c) = rd Cp' c /\ PO (rd Cn' c) < PO c))) /\
  (forall c, actN c -> rd Cn' c = rd Cn0 c /\ (rd Cp0 c <> EMPTY -> rd Cp' c = rd Cp0 c)) /\
  (forall s, 0 <= s <= n -> hd1 head' s = rd head0 s) /\
  (forall y, 0 <= y < n -> pre7 i y = true -> 0 <= rd Cs' y -> fb Cp' head' (rd Cp' y) <> EMPTY /\ PO y <= PO (fb Cp' head' (rd Cp' y))) /\
  (forall c y, 0 <= c < n -> pre7 i c = true -> 0 <= rd Cs' c -> 0 <= y < n -> pre7 i y = true -> 0 <= rd Cs' y -> rd Cp' y = rd Cp' c -> PO y < PO c ->
     rd Cn' c <> EMPTY /\ PO y <= PO (rd Cn' c)).

Lemma pre7_S i c : pf <= i -> pre7 (i + 1) c = pre7 i c || (rd B i =? c).
Proof. intros Hi. unfold pre7. replace (i + 1 - pf) with (i - pf + 1) by lia. rewrite memb_S by lia. replace (pf + (i - pf)) with i by lia. reflexivity. Qed.
Lemma pre7_new i : pf <= i < q -> pre7 i (rd B i) = false.
Proof. intros Hi. apply memb_false. intros j Hj E. assert (j = i) by (apply JB; [lia|lia|exact E]). lia. Qed.
Lemma pre7_pos i c : pf <= i <= q -> pre7 i c = true -> pf <= PO c < i /\ rd B (PO c) = c /\ 0 <= c < n /\ PRb c = true.
Proof.
  intros Hi H. apply memb_spec in H. destruct H as (j & Hj & <-). unfold PO. rewrite pos_at by (auto; lia). split; [lia|]. split; [reflexivity|]. assert (X : 0 <= rd B j < n) by (apply RB; lia).
  split; [exact X|]. rewrite <- PB by exact X. apply memb_at. lia.
Qed.

(* fo_compress on one column *)
Lemma compress_ok A' c : 0 <= c < n -> PRb c = true -> zlen A' = zlen A -> (forall j, rd Cs c <= j < rd Cs c + rd Cl c -> rd A' j = rd A j) ->
  wp (fo_compress n tag (rd Cs c) (rd Cl c) Rm2 A') (fun '(A'', w, hash, score) =>
    comp A' A'' al2 (rd Cs c) (rd Cs c) (rd Cs c + rd Cl c) w /\ 0 <= score <= n /\ NP c <= score) nerr.
Proof.
  intros Hc PC LA' E. destruct (prA _ PC) as (Ac & Nc). destruct (me_c I Hc Ac) as (C1 & C2). destruct (me_b I) as (B1 & B2 & B3). pose proof (me_n I) as Hn.
  set (T := fun j => sumz (j - rd Cs c) (fun i => if al2 (rd A (rd Cs c + i)) then rd Rm2 (rd A (rd Cs c + i)) - tag else 0)).
  assert (RA : forall j, rd Cs c <= j < rd Cs c + rd Cl c -> 0 <= rd A j < m). { intros j Hj. pose proof (me_cr I Hc Ac Hj). pose proof (me_pos I (j := j) ltac:(lia)). lia. }
  unfold fo_compress. eapply wp_conseq.
  { apply wp_for with (I := fun cp '(A'', w, hash, score) => comp A' A'' al2 (rd Cs c) (rd Cs c) cp w /\ 0 <= score <= n /\ Z.min n (T cp) <= score); [lia| |].
    - split; [apply comp_0|]. split; [lia|]. unfold T. rewrite sumz_0 by lia. lia.
    - intros cp [[[A'' w] hash] score] Hcp (K & S1 & S2). pose proof (cp_len K) as KL. destruct (cp_w K) as (K1 & K2).
      assert (RJ : rd A'' cp = rd A cp). { rewrite (cp_out K) by lia. apply E. exact Hcp. } specialize (RA cp Hcp) as RC.
      assert (TS : T (cp + 1) = T cp + (if al2 (rd A cp) then rd Rm2 (rd A cp) - tag else 0)).
      { unfold T. replace (cp + 1 - rd Cs c) with (cp - rd Cs c + 1) by lia. rewrite sumz_S by lia. replace (rd Cs c + (cp - rd Cs c)) with cp by lia. reflexivity. }
      wg; [lia|]. rewrite RJ. wg; [lia|]. destruct (Z.ltb_spec (rd Rm2 (rd A cp)) 0) as [X|X].
      + assert (AF : al2 (rd A cp) = false) by (apply Z.leb_gt; exact X). cbn. split; [|split; [exact S1|]].
        * apply comp_drop; [exact K|lia|]. rewrite E by exact Hcp. exact AF.
        * rewrite TS, AF. lia.
      + assert (AT : al2 (rd A cp) = true) by (apply Z.leb_le; exact X). ws; [lia|]. cbn.
        assert (F : 0 <= rd Rm2 (rd A cp) - tag).
        { rewrite (F2 RC Hc X PC). - unfold wt at 1. pose proof (@wt_nonneg n (fun c' => alv Cs c' && M c' (rd A cp) && negb (PRb c')) (rd Ct)) as W. unfold wt in W. 
            assert (0 <= sumz n (fun c0 => if alv Cs c0 && M c0 (rd A cp) && negb (PRb c0) then rd Ct c0 else 0)); [|lia]. apply W. intros x Hx H. rewrite <- Bool.andb_assoc in H. apply (@th0 x _ Hx H).
          - unfold M, Mof. apply memb_at. exact Hcp. }
        split; [|split; [lia|]].
        * rewrite <- E by exact Hcp. apply comp_keep; try lia; [exact K|]. rewrite E by exact Hcp. exact AT.
        * rewrite TS, AT. lia. }
  intros [[[A'' w] hash] score] (K & S1 & S2). split; [exact K|]. split; [exact S1|]. pose proof (NP_le_n c). pose proof (NP_bound Hc PC) as NB.
  assert (TT : T (rd Cs c + rd Cl c) = sumz m (fun r => if M c r then (if al2 r then rd Rm2 r - tag else 0) else 0)).
  { unfold T. replace (rd Cs c + rd Cl c - rd Cs c) with (rd Cl c) by lia. apply (@sum_seg m A (rd Cs c) (rd Cl c) (fun r => if al2 r then rd Rm2 r - tag else 0)); [exact C1|apply (me_ci I Hc Ac)|exact RA]. }
  lia.
Qed.

Lemma add_ok k0 dg0 : zlen Co0 = n -> zlen Cp0 = n -> zlen Cn0 = n -> zlen head0 = n + 1 ->
  led n n2 k0 (fun c => if c =? p then -1 else rd Cs c) (rd Ct) (rd Co0) grp sz -> dg0 = wt n PRb (rd Ct) ->
  wp (fo_add n tag pf (q - pf) Rm2 Ct B Cs Cl Co0 Cp0 Cn0 head0 dg0 k0) (ainv q) nerr.
Proof.
  intros L1 L2 L3 L4 LD ED. pose proof (me_n I) as Hn. pose proof (me_m I) as Hm. destruct (me_b I) as (B1 & B2 & B3). pose proof (me_Cs I) as LCs. pose proof (me_Cl I) as LCl.
  unfold fo_add. replace (pf + (q - pf)) with q by lia. apply wp_for with (I := ainv); [lia| |].
  - assert (P0 : forall c, pre7 pf c = false) by (intros c; apply memb_0; lia). unfold ainv. split; [lia|]. split; [auto|]. split; [intros j Hj; rewrite EB by exact Hj; apply (me_pos I); exact Hj|].
    split; [|split; [|split; [|split; [|split; [|split; [|split; [|split; [|split]]]]]]]].
    + intros c Hc _. repeat split; auto. intros Ac j Hj. destruct (me_c I Hc Ac). apply EB. lia.
    + intros c Hc X. rewrite P0 in X. discriminate.
    + exact LD.
    + rewrite ED. apply wt_ext. intros c Hc. split; [|auto]. destruct (PRb c) eqn:X; [|reflexivity]. apply prA in X. rewrite (proj2 (alv_spec Cs c)) by tauto. reflexivity.
    + intros h Hh. left. unfold fb. destruct (dl_hd D0 Hh) as [E|(Ah & _ & Pv)]; [rewrite E; reflexivity|]. destruct (dl_sc D0 Ah) as (R & _). destruct (Z.gtb_spec (rd head0 h) EMPTY); [exact Pv|unfold EMPTY in *; lia].
    + intros c Hc X. rewrite P0 in X. discriminate.
    + intros c Hc. split; auto.
    + intros s Hs. unfold hd1. destruct (dl_hd D0 Hs) as [E|(Ah & _ & Pv)]; [rewrite E; reflexivity|]. destruct (dl_sc D0 Ah) as (R & _). destruct (Z.gtb_spec (rd head0 s) EMPTY); [reflexivity|unfold EMPTY in *; lia].
    + intros y Hy X. rewrite P0 in X. discriminate.
    + intros c y Hc X. rewrite P0 in X. discriminate.
  - intros i [[[[[[[[A' Cs'] Cl'] Co'] Cp'] Cn'] head'] dg] k] Hi ((Z1 & Z2 & Z3 & Z4 & Z5 & Z6 & Z7) & Q1 & Q2 & Q3 & Q4 & Q5 & Q6 & Q7 & Q8 & Q9 & Q10 & Q11 & Q12).
    pose proof (RB Hi) as Rc. pose proof (pre7_new Hi) as PN. wg; [lia|]. rewrite Q1 by lia. set (c := rd B i) in *.
    assert (PC : PRb c = true) by (unfold c; rewrite <- PB by exact Rc; apply memb_at; lia). destruct (prA _ PC) as (Ac & Nc). destruct (me_c I Rc Ac) as (C1 & C2).
    assert (PosC : PO c = i) by (unfold PO, c; apply pos_at; auto).
    destruct (Q3 c Rc PN) as (E1 & E2 & E3 & E4). specialize (E4 Ac). wg; [lia|]. wg; [lia|]. rewrite E1, E3. apply wp_bind. eapply wp_conseq; [apply (@compress_ok A' c Rc PC Z1 E4)|].
    intros [[[A'' w] hash] score] (K & S1 & S2). pose proof (cp_len K) as KL. destruct (cp_w K) as (K1 & K2).
    assert (OUT : forall j, 0 <= j < zlen A -> j < rd Cs c \/ rd Cs c + rd Cl c <= j -> rd A'' j = rd A' j) by (intros j Hj X; apply (cp_out K); lia).
    assert (DISJ : forall x, 0 <= x < n -> x <> c -> 0 <= rd Cs x -> forall j, rd Cs x <= j < rd Cs x + rd Cl x -> rd A'' j = rd A' j).
    { intros x Hx Nx Ax j Hj. destruct (me_c I Hx Ax) as (X1 & X2). apply OUT; [lia|]. destruct (Z_lt_le_dec x c) as [Y|Y].
      - pose proof (me_o I (c := x) (c' := c)). lia.
      - pose proof (me_o I (c := c) (c' := x)). lia. }
    assert (NM : forall r, memb A'' (rd Cs c) (w - rd Cs c) r = M6 c r).
    { intros r. rewrite (cp_mem K). replace (rd Cs c + rd Cl c - rd Cs c) with (rd Cl c) by lia. rewrite (@memb_ext A' A) by exact E4. reflexivity. }
    assert (NJ : injs A'' (rd Cs c) (w - rd Cs c)).
    { apply (cp_inj K). replace (rd Cs c + rd Cl c - rd Cs c) with (rd Cl c) by lia. apply (@injs_ext A); [intros j Hj; symmetry; apply E4; exact Hj|apply (me_ci I Rc Ac)]. }
    assert (RA : forall j, rd Cs c <= j < rd Cs c + rd Cl c -> 0 <= rd A j < m). { intros j Hj. pose proof (me_cr I Rc Ac Hj). pose proof (me_pos I (j := j) ltac:(lia)). lia. }
    assert (RN : forall j, rd Cs c <= j < w -> 0 <= rd A'' j < m).
    { intros j Hj. assert (X : memb A'' (rd Cs c) (w - rd Cs c) (rd A'' j) = true) by (apply memb_at; lia). rewrite NM in X. unfold M6 in X. apply Bool.andb_true_iff in X. destruct X as (X & _).
      unfold M, Mof in X. apply memb_spec in X. destruct X as (j' & Hj' & <-). apply RA. exact Hj'. }
    assert (SHORT : w - rd Cs c < rd Cl c).
    { pose proof (@seg_len m A'' (rd Cs c) (w - rd Cs c) ltac:(lia) NJ ltac:(intros; apply RN; lia)) as SL1. pose proof (@seg_len m A (rd Cs c) (rd Cl c) C1 (me_ci I Rc Ac) RA) as SL2.
      apply prb_spec in PC. destruct PC as (_ & _ & r0 & Hr0 & MP & MC).
      assert (X : w - rd Cs c <= rd Cl c - 1); [|lia]. rewrite SL1, SL2 at 1.
      replace 1 with (sumz m (fun r => if r =? r0 then 1 else 0)).
      2:{ rewrite (@sumz_single m _ r0 Hr0); [rewrite Z.eqb_refl; reflexivity|]. intros r _ Nr. rewrite (proj2 (Z.eqb_neq r r0) Nr). reflexivity. }
      rewrite <- sumz_sub. apply sumz_le. intros r Hr. rewrite NM. unfold M6. change (memb A (rd Cs c) (rd Cl c) r) with (M c r). destruct (Z.eqb_spec r r0) as [->|Nr].
      - unfold M. rewrite MC. destruct (al2 r0) eqn:Al; [|cbn; lia]. apply Z.leb_le in Al. pose proof (F1 Hr0 Al) as X. unfold M in X. congruence.
      - destruct (M c r), (al2 r); cbn; lia. }
    assert (A1' : forall j, cend <= j < zlen A -> rd A'' j = rd B j) by (intros j Hj; rewrite OUT by lia; apply Q1; exact Hj).
    assert (A2' : forall j, 0 <= j < pf -> 0 <= rd A'' j).
    { intros j Hj. destruct (Z_lt_le_dec j (rd Cs c)) as [X|X]; [rewrite OUT by lia; apply Q2; exact Hj|]. destruct (Z_lt_le_dec j w) as [Y|Y]; [apply RN; lia|]. rewrite (cp_out K) by lia. apply Q2. exact Hj. }
    assert (A3' : forall x, 0 <= x < n -> pre7 (i + 1) x = false -> 0 <= rd Cs x -> forall j, rd Cs x <= j < rd Cs x + rd Cl x -> rd A'' j = rd A j).
    { intros x Hx Px Ax j Hj. rewrite pre7_S in Px by lia. apply Bool.orb_false_iff in Px. destruct Px as (Px & Nx). apply Z.eqb_neq in Nx. rewrite (DISJ x) by auto. apply (Q3 x Hx Px); auto. }
    assert (A4' : forall x, 0 <= x < n -> pre7 i x = true -> (forall r, memb A'' (rd Cs x) (rd Cl' x) r = M6 x r) /\ injs A'' (rd Cs x) (rd Cl' x)).
    { intros x Hx Px. assert (Nx : x <> c) by congruence. destruct (Q4 x Hx Px) as (X1 & X2 & X3 & _). destruct (pre7_pos (i := i) x ltac:(lia) Px) as (_ & _ & _ & PX). destruct (prA _ PX) as (Ax & _).
      assert (ES : forall j, rd Cs x <= j < rd Cs x + rd Cl' x -> rd A'' j = rd A' j) by (intros j Hj; apply (DISJ x); auto; lia). split.
      - intros r. rewrite (@memb_ext A'' A') by exact ES. apply X2.
      - apply (@injs_ext A'); [intros j Hj; symmetry; apply ES; exact Hj|exact X3]. }
    assert (PS : forall x, pre7 (i + 1) x = true -> x = c \/ (x <> c /\ pre7 i x = true)).
    { intros x Px. rewrite pre7_S in Px by lia. apply Bool.orb_true_iff in Px. destruct Px as [Px|Px]; [right; split; [congruence|exact Px]|left]. apply Z.eqb_eq in Px. auto. }
    assert (PSt : forall x, pre7 i x = true -> pre7 (i + 1) x = true) by (intros x Px; rewrite pre7_S, Px by lia; reflexivity).
    assert (PSc : pre7 (i + 1) c = true) by (rewrite pre7_S by lia; fold c; rewrite Z.eqb_refl; apply Bool.orb_true_r).
    assert (PSf : forall x, pre7 (i + 1) x = false -> x <> c /\ pre7 i x = false).
    { intros x Px. rewrite pre7_S in Px by lia. apply Bool.orb_false_iff in Px. destruct Px as (Px & Nx). apply Z.eqb_neq in Nx. auto. }
    assert (NA : ~ actN c) by (intros (_ & _ & _ & X); congruence).
    ws; [lia|]. destruct (Z.eqb_spec (w - rd Cs c) 0) as [W0|W0].
    + (* mass elimination *)
      ws; [lia|]. wg; [lia|]. ws; [lia|]. cbn. rewrite !zlen_wr. split; [lia|]. split; [exact A1'|]. split; [exact A2'|].
      split; [|split; [|split; [|split; [|split; [|split; [|split; [|split; [|split]]]]]]]].
      * intros x Hx Px. destruct (PSf x Px) as (Nx & Px'). rewrite !rd_wr_ne by lia. destruct (Q3 x Hx Px') as (Y1 & Y2 & Y3 & _). repeat split; auto. intros Ax. apply A3'; auto.
      * intros x Hx Px. destruct (PS x Px) as [->|(Nx & Px')].
        -- rewrite !rd_wr_eq by lia. split; [lia|]. split; [exact NM|]. split; [exact NJ|]. left. split; [exact W0|reflexivity].
        -- rewrite !rd_wr_ne by lia. destruct (Q4 x Hx Px') as (Y1 & _ & _ & Y4). split; [exact Y1|]. destruct (A4' x Hx Px') as (X1 & X2). auto.
      * eapply led_kill; [exact Q5|exact Rc| | | |reflexivity|].
        -- cbv beta. rewrite (proj2 (Z.eqb_neq c p) Nc). lia. 
        -- cbv beta. rewrite (proj2 (Z.eqb_neq c p) Nc). apply rd_wr_eq; lia.
        -- apply rd_wr_eq; lia.
        -- intros x Hx Nx. cbv beta. rewrite !rd_wr_ne by lia. auto.
      * rewrite Q6. rewrite (@wt_add n (fun x => PRb x && alv (wr Cs' c (-1)) x) (fun x => PRb x && alv Cs' x) (rd Ct) c Rc); [lia| |].
        -- rewrite PC. cbn [andb]. apply alv_false. rewrite rd_wr_eq by lia. lia.
        -- intros x Hx. destruct (Z.eq_dec x c) as [->|Nx].
           ++ rewrite Z.eqb_refl, Bool.orb_true_r, PC. cbn [andb]. apply alv_spec. lia.
           ++ rewrite (proj2 (Z.eqb_neq x c) Nx), Bool.orb_false_r. unfold alv. rewrite rd_wr_ne by lia. reflexivity.
      * intros h Hh. destruct (Q7 h Hh) as [X|(X0 & X1 & X2 & X3)]; [left; exact X|right]. assert (fb Cp' head' h <> c) by congruence. rewrite rd_wr_ne by lia. auto.
      * intros x Hx Px Ax. destruct (PS x Px) as [->|(Nx & Px')]; [rewrite rd_wr_eq in Ax by lia; lia|]. rewrite rd_wr_ne in Ax by lia. destruct (Q8 x Hx Px' Ax) as (Y1 & Y2). split; [exact Y1|].
        destruct Y2 as [Y2|(Y2 & Y3 & Y4 & Y5)]; [left; exact Y2|right]. assert (rd Cn' x <> c) by congruence. rewrite rd_wr_ne by lia. auto.
      * exact Q9.
      * exact Q10.
      * intros y Hy Py Ay. destruct (PS y Py) as [->|(Ny & Py')]; [rewrite rd_wr_eq in Ay by lia; lia|]. rewrite rd_wr_ne in Ay by lia. apply Q11; auto.
      * intros x y Hx Px Ax Hy Py Ay. destruct (PS y Py) as [->|(Ny & Py')]; [rewrite rd_wr_eq in Ay by lia; lia|]. rewrite rd_wr_ne in Ay by lia.
        destruct (PS x Px) as [->|(Nx & Px')]; [rewrite rd_wr_eq in Ax by lia; lia|]. rewrite rd_wr_ne in Ax by lia. apply Q12; auto.
    + (* insertion into a hash bucket *)
      ws; [lia|]. set (h := hash mod (n + 1)). assert (Hh : 0 <= h <= n) by (unfold h; pose proof (Z.mod_pos_bound hash (n + 1)); lia). wg; [lia|].
      assert (HC : rd head' h > EMPTY -> actN (rd head' h) /\ rd Co0 (rd head' h) = h /\ rd Cp0 (rd head' h) = EMPTY).
      { intros X. pose proof (Q10 h Hh) as Y. unfold hd1 in Y. destruct (Z.gtb_spec (rd head' h) EMPTY); [|lia]. rewrite Y. destruct (dl_hd D0 Hh) as [E|E]; [rewrite E in Y; lia|exact E]. }
      (* what the two cases have in common *)
      assert (G : forall f Cp2 head2, f = fb Cp' head' h -> zlen Cp2 = n -> zlen head2 = n + 1 -> fb (wr Cp2 c h) head2 h = c ->
        (forall h', 0 <= h' <= n -> h' <> h -> rd head2 h' = rd head' h') -> (forall x, 0 <= x < n -> pre7 i x = true -> rd Cp2 x = rd Cp' x) ->
        (forall x, actN x -> (rd Cp0 x <> EMPTY -> rd Cp2 x = rd Cp0 x) /\ (x <> rd head' h -> rd Cp2 x = rd Cp' x)) ->
        hd1 head2 h = hd1 head' h -> 
        wp (let* Cn := set Cn' c f in let* Cp := set Cp2 c h in Ok (A'', Cs', wr Cl' c (w - rd Cs c), wr Co' c score, Cp, Cn, head2, dg, k)) (ainv (i + 1)) nerr).
      { intros f Cp2 head2 Ef LC LH FBh FBo CPx CPa HD. ws; [lia|]. ws; [lia|]. cbn. rewrite !zlen_wr. split; [lia|]. split; [exact A1'|]. split; [exact A2'|].
        assert (FB' : forall h', 0 <= h' <= n -> h' <> h -> fb (wr Cp2 c h) head2 h' = fb Cp' head' h').
        { intros h' Hh' Nh. unfold fb. rewrite FBo by auto. destruct (Z.gtb_spec (rd head' h') EMPTY) as [X|X]; [|reflexivity].
          pose proof (Q10 h' Hh') as Y. unfold hd1 in Y. destruct (Z.gtb_spec (rd head' h') EMPTY) as [_|]; [|lia]. destruct (dl_hd D0 Hh') as [E|(Ah & Sh & Ph)]; [rewrite E in Y; lia|]. rewrite <- Y in Ah, Sh, Ph.
          assert (rd head' h' <> c) by (intros E; rewrite E in Ah; contradiction). pose proof (dl_sc D0 Ah). rewrite rd_wr_ne by lia. apply (CPa _ Ah). intros X'. rewrite X' in Sh. destruct (HC ltac:(rewrite <- X'; lia)) as (_ & Sh' & _). congruence. }
        split; [|split; [|split; [|split; [|split; [|split; [|split; [|split; [|split]]]]]]]].
        * intros x Hx Px. destruct (PSf x Px) as (Nx & Px'). rewrite !rd_wr_ne by lia. destruct (Q3 x Hx Px') as (Y1 & Y2 & Y3 & _). repeat split; auto. intros Ax. apply A3'; auto.
        * intros x Hx Px. destruct (PS x Px) as [->|(Nx & Px')].
          -- rewrite !rd_wr_eq by lia. split; [lia|]. split; [exact NM|]. split; [exact NJ|]. right. repeat split; auto; lia.
          -- rewrite !rd_wr_ne by lia. destruct (Q4 x Hx Px') as (Y1 & _ & _ & Y4). split; [exact Y1|]. destruct (A4' x Hx Px') as (X1 & X2). auto.
        * eapply led_ext; [exact Q5|]. intros x Hx. cbv beta. split; [left; reflexivity|]. split; [reflexivity|]. intros X. destruct (Z.eq_dec x c) as [->|Nx]; [rewrite (proj2 (Z.eqb_neq c p) Nc) in X; lia|]. apply rd_wr_ne; lia.
        * exact Q6.
        * intros h' Hh'. destruct (Z.eq_dec h' h) as [->|Nh].
          -- right. rewrite FBh. rewrite rd_wr_eq by lia. split; [lia|]. split; [exact PSc|]. split; [lia|reflexivity].
          -- rewrite (FB' h' Hh' Nh). destruct (Q7 h' Hh') as [X|(X0 & X1 & X2 & X3)].
             ++ left. exact X.
             ++ right. assert (fb Cp' head' h' <> c) by congruence. rewrite rd_wr_ne by lia. rewrite CPx by auto. auto.
        * intros x Hx Px Ax. destruct (PS x Px) as [->|(Nx & Px')].
          -- rewrite !rd_wr_eq by lia. split; [lia|]. rewrite Ef. destruct (Q7 h Hh) as [X|(X0 & X1 & X2 & X3)]; [left; exact X|right]. assert (fb Cp' head' h <> c) by congruence. rewrite rd_wr_ne by lia. rewrite CPx by auto.
             destruct (pre7_pos (i := i) _ ltac:(lia) X1) as (X4 & _). split; [exact X0|]. split; [apply PSt; exact X1|]. split; [exact X2|]. split; [exact X3|]. rewrite PosC. lia.
          -- rewrite !rd_wr_ne by lia. rewrite CPx by auto. destruct (Q8 x Hx Px' Ax) as (Y1 & Y2). split; [exact Y1|]. destruct Y2 as [Y2|(Y2 & Y3 & Y4 & Y5 & Y6)]; [left; exact Y2|right].
             assert (rd Cn' x <> c) by congruence. rewrite rd_wr_ne by lia. rewrite CPx by auto. auto.
        * intros x Ax. assert (x <> c) by (intros ->; contradiction). pose proof (dl_sc D0 Ax). rewrite !rd_wr_ne by lia. split; [apply (Q9 x Ax)|apply (CPa x Ax)].
        * intros s Hs. rewrite <- (Q10 s Hs). destruct (Z.eq_dec s h) as [->|Ns]; [exact HD|]. unfold hd1. rewrite FBo by auto. reflexivity.
        * intros y Hy Py Ay. destruct (PS y Py) as [->|(Ny & Py')].
          -- rewrite rd_wr_eq by lia. rewrite FBh. unfold EMPTY. lia.
          -- rewrite !(@rd_wr_ne _ c y) by lia. rewrite CPx by auto. destruct (Z.eq_dec (rd Cp' y) h) as [->|Nh].
             ++ rewrite FBh, PosC. destruct (pre7_pos (i := i) y ltac:(lia) Py') as (X & _). unfold EMPTY. lia.
             ++ rewrite FB'; [apply Q11; auto| |exact Nh]. apply (Q8 y Hy Py' Ay).
        * intros x y Hx Px Ax Hy Py Ay. destruct (PS x Px) as [->|(Nx & Px')], (PS y Py) as [->|(Ny & Py')].
          -- lia.
          -- rewrite !rd_wr_eq, rd_wr_ne by lia. rewrite CPx by auto. intros E _. rewrite Ef, <- E. apply Q11; auto.
          -- destruct (pre7_pos (i := i) x ltac:(lia) Px') as (X & _). lia.
          -- rewrite !rd_wr_ne by lia. rewrite !CPx by auto. apply Q12; auto. }
      destruct (Z.gtb_spec (rd head' h) EMPTY) as [X|X].
      * destruct (HC ltac:(lia)) as (Ah & Sh & Ph). pose proof (dl_sc D0 Ah) as (Rh & _). assert (Nh : rd head' h <> c) by (intros E; rewrite E in Ah; contradiction).
        apply wp_bind. wg; [lia|]. ws; [lia|]. cbn [wp]. apply G; auto; try (rewrite ?zlen_wr; lia).
        -- unfold fb. destruct (Z.gtb_spec (rd head' h) EMPTY); [reflexivity|lia].
        -- unfold fb. destruct (Z.gtb_spec (rd head' h) EMPTY); [|lia]. rewrite rd_wr_ne by lia. apply rd_wr_eq. lia.
        -- intros x Hx Px. apply rd_wr_ne; [lia|lia|]. intros E. destruct (pre7_pos (i := i) x ltac:(lia) Px) as (_ & _ & _ & PX). destruct Ah as (_ & _ & _ & Ah). congruence.
        -- intros x Ax. pose proof (dl_sc D0 Ax). split.
           ++ intros NE. assert (x <> rd head' h) by congruence. rewrite rd_wr_ne by lia. apply (Q9 x Ax). exact NE.
           ++ intros NE. apply rd_wr_ne; lia.
      * apply wp_bind. ws; [lia|]. cbn [wp]. apply G; auto; try (rewrite ?zlen_wr; lia).
        -- unfold fb. destruct (Z.gtb_spec (rd head' h) EMPTY); [lia|reflexivity].
        -- unfold fb. rewrite rd_wr_eq by lia. destruct (Z.gtb_spec (- (c + 2)) EMPTY); [unfold EMPTY in *; lia|lia].
        -- intros h' Hh' Nh. apply rd_wr_ne; lia.
        -- intros x Ax. split; [apply (Q9 x Ax)|reflexivity].
        -- unfold hd1. rewrite rd_wr_eq by lia. destruct (Z.gtb_spec (rd head' h) EMPTY); [lia|]. destruct (Z.gtb_spec (- (c + 2)) EMPTY); [unfold EMPTY in *; lia|reflexivity].
Qed.
End Add.
