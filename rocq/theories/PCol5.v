(* COLAMD, part 5: construction of the pivot row, removal of the rows of the pivot column. *)
From Verif Require Import Base Det DetZ Spec MColamd PCol1 PCol2 PCol3.
Set Implicit Arguments.
Open Scope Z_scope.
Set Bullet Behavior "Strict Subproofs".

(* the columns of the pivot row *)
Definition prb (m : Z) (A Cs Cl : list Z) (p c : Z) : bool := alv Cs c && negb (c =? p) && sh m (Mof A Cs Cl) p c.

Lemma prb_spec m A Cs Cl p c : prb m A Cs Cl p c = true <-> 0 <= rd Cs c /\ c <> p /\ exists r, 0 <= r < m /\ Mof A Cs Cl p r = true /\ Mof A Cs Cl c r = true.
Proof.
  unfold prb. rewrite !Bool.andb_true_iff, alv_spec, Bool.negb_true_iff, Z.eqb_neq, sh_spec. tauto.
Qed.

Section PR.
Variables (m n cend pf : Z) (A Rs Rl Rm Cs Cl Ct0 : list Z) (p need : Z).
Hypothesis I : mem m n cend pf A Rs Rl Rm Cs Cl.
Hypothesis LCt : zlen Ct0 = n.
Hypothesis TH : forall c, 0 <= c < n -> 0 <= rd Cs c -> 1 <= rd Ct0 c.
Hypothesis Hp : 0 <= p < n.
Hypothesis Ap : 0 <= rd Cs p.
Let PRb := prb m A Cs Cl p.
Hypothesis NEED : wt n PRb (rd Ct0) <= need.
Hypothesis ROOM : pf + need <= zlen A.

Definition pinv (st : list Z * list Z * Z * Z) : Prop := let '(B, Ct, q, dg) := st in
  zlen B = zlen A /\ zlen Ct = n /\ pf <= q /\ (forall j, 0 <= j < pf -> rd B j = rd A j) /\ injs B pf (q - pf) /\ (forall j, pf <= j < q -> 0 <= rd B j < n) /\
  (forall c, memb B pf (q - pf) c = true -> PRb c = true) /\
  (forall c, 0 <= c < n -> rd Ct c = if memb B pf (q - pf) c || (c =? p) then - rd Ct0 c else rd Ct0 c) /\
  dg = wt n (memb B pf (q - pf)) (rd Ct0).
Definition visited (st : list Z * list Z * Z * Z) (c : Z) : Prop := let '(B, Ct, q, dg) := st in memb B pf (q - pf) c = true.

Lemma prb_pos c : 0 <= c < n -> PRb c = true -> 0 <= rd Ct0 c.
Proof. intros Hc H. apply prb_spec in H. pose proof (TH Hc). lia. Qed.

Lemma pivot_row_ok : wp (fo_pivot_row (rd Cs p) (rd Cl p) Rs Rl Rm Cs A (wr Ct0 p (- rd Ct0 p)) pf) (fun '(B, Ct, q, dg) =>
  zlen B = zlen A /\ zlen Ct = n /\ pf <= q /\ q <= pf + need /\ (forall j, 0 <= j < pf -> rd B j = rd A j) /\ injs B pf (q - pf) /\ (forall j, pf <= j < q -> 0 <= rd B j < n) /\
  (forall c, 0 <= c < n -> memb B pf (q - pf) c = PRb c) /\ (forall c, 0 <= c < n -> rd Ct c = if PRb c || (c =? p) then - rd Ct0 c else rd Ct0 c) /\
  dg = wt n PRb (rd Ct0)) nerr.
Proof.
  pose proof (me_n I) as Hn. pose proof (me_m I) as Hm. destruct (me_b I) as (B1 & B2 & B3). destruct (me_c I Hp Ap) as (P1 & P2).
  pose proof (me_Rs I) as LRs. pose proof (me_Rl I) as LRl. pose proof (me_Rm I) as LRm. pose proof (me_Cs I) as LCs.
  assert (BND : forall B q, (forall j, pf <= j < q -> 0 <= rd B j < n) -> pf <= q -> injs B pf (q - pf) -> (forall c, memb B pf (q - pf) c = true -> PRb c = true) ->
     q - pf <= wt n (memb B pf (q - pf)) (rd Ct0) <= wt n PRb (rd Ct0)).
  { intros B q R Hq J S. split.
    - rewrite (@seg_len n B pf (q - pf)) at 1; [|lia|exact J|intros j Hj; apply R; lia]. apply sumz_le. intros c Hc. destruct (memb B pf (q - pf) c) eqn:E; cbn; [|lia].
      pose proof (S c E) as X. apply prb_spec in X. apply TH; [exact Hc|tauto].
    - apply wt_le; [intros c _; apply S|apply prb_pos]. }
  eapply wp_conseq.
  { unfold fo_pivot_row. apply wp_for with (I := fun cp st => pinv st /\ forall j c, rd Cs p <= j < cp -> 0 <= c < n -> 0 <= rd Cs c -> c <> p -> Mof A Cs Cl c (rd A j) = true -> visited st c); [lia| |].
    - split; [|intros; lia]. unfold pinv. rewrite zlen_wr, Z.sub_diag. repeat split; auto; try lia.
      + apply injs_0.
      + intros c H. rewrite memb_0 in H by lia. discriminate.
      + intros c Hc. rewrite memb_0 by lia. cbn [orb]. destruct (Z.eqb_spec c p) as [->|]; [apply rd_wr_eq; lia|apply rd_wr_ne; lia].
      + symmetry. apply sumz_zero. intros c _. rewrite memb_0 by lia. reflexivity.
    - intros cp st Hcp (PI & CM). destruct st as [[[B Ct] q] dg]. pose proof PI as (L1 & L2 & Q & E & _).
      destruct (me_cr I Hp Ap (j := cp) ltac:(lia)) as (R1 & R2). pose proof (me_pos I (j := cp) ltac:(lia)) as R3.
      wg; [lia|]. rewrite E by lia. set (row := rd A cp) in *. wg; [lia|]. destruct (Z.geb_spec (rd Rm row) 0); [|lia].
      destruct (me_r I (r := row) ltac:(lia) ltac:(lia)) as (S1 & S2 & S3). wg; [lia|]. wg; [lia|].
      eapply wp_conseq.
      { apply wp_for with (I := fun rp st => pinv st /\ (forall c, visited (B, Ct, q, dg) c -> visited st c) /\ forall j, rd Rs row <= j < rp -> 0 <= rd Cs (rd A j) -> rd A j <> p -> visited st (rd A j)); [lia| |].
        - split; [exact PI|]. split; [auto|intros; lia].
        - clear - Hcp BND I LCt TH Hp Ap NEED ROOM Hn Hm B1 B2 B3 P1 P2 S1 S2 S3 R1 R2 R3 LRs LRl LRm LCs. intros rp st Hrp (PI & MO & CM). destruct st as [[[B' Ct'] q'] dg'].
          destruct PI as (L1 & L2 & Q & E & J & R & S & T & D). specialize (BND B' q' R Q J S) as BN.
          pose proof (me_e I (r := row) (j := rp) ltac:(lia) ltac:(lia) ltac:(lia)) as C1. pose proof (me_pos I (j := rp) ltac:(lia)) as C2.
          wg; [lia|]. rewrite E by lia. set (c := rd A rp) in *. wg; [lia|]. wg; [lia|]. rewrite T by lia.
          destruct (Z.geb_spec (rd Cs c) 0) as [Ac|Ac]; [rewrite Bool.andb_true_r|rewrite Bool.andb_false_r].
          + pose proof (TH (c := c) ltac:(lia) ltac:(lia)) as TC. destruct (memb B' pf (q' - pf) c) eqn:V; cbn [orb].
            * destruct (Z.gtb_spec (- rd Ct0 c) 0); [lia|]. cbn. split; [unfold pinv; repeat split; auto; try lia; try (apply R; assumption)|]. split; [exact MO|].
              intros j Hj. destruct (Z.eq_dec j rp) as [->|]; [intros _ _; exact V|]. apply CM. lia.
            * destruct (Z.eqb_spec c p) as [Ecp|Ncp].
              { destruct (Z.gtb_spec (- rd Ct0 c) 0); [lia|]. cbn. split; [unfold pinv; repeat split; auto; try lia; try (apply R; assumption)|]. split; [exact MO|].
                intros j Hj. destruct (Z.eq_dec j rp) as [->|]; [intros _ N; exfalso; apply N; exact Ecp|]. apply CM. lia. }
              destruct (Z.gtb_spec (rd Ct0 c) 0); [|lia].
              (* a new column *)
              assert (PC : PRb c = true).
              { apply prb_spec. split; [lia|]. split; [exact Ncp|]. exists row. split; [lia|]. split.
                - unfold Mof. apply memb_at. fold row in R3. exact Hcp.
                - unfold Mof. rewrite <- (me_m2 I) by lia. apply memb_at. exact Hrp. }
              assert (WL : wt n (memb B' pf (q' - pf)) (rd Ct0) + rd Ct0 c <= wt n PRb (rd Ct0)).
              { rewrite <- (@wt_add n (memb B' pf (q' - pf)) (fun x => memb B' pf (q' - pf) x || (x =? c)) (rd Ct0) c) by (auto; lia).
                apply wt_le; [|apply prb_pos]. intros x _ Hx. apply Bool.orb_true_iff in Hx. destruct Hx as [Hx|Hx]; [apply S; exact Hx|]. apply Z.eqb_eq in Hx. subst x. exact PC. }
              ws; [lia|]. ws; [lia|]. cbn.
              assert (EX : forall j, pf <= j < q' -> rd (wr B' q' c) j = rd B' j) by (intros j Hj; apply rd_wr_ne; lia).
              assert (MX : forall x, memb (wr B' q' c) pf (q' + 1 - pf) x = memb B' pf (q' - pf) x || (c =? x)).
              { intros x. replace (q' + 1 - pf) with (q' - pf + 1) by lia. rewrite memb_S by lia. replace (pf + (q' - pf)) with q' by lia. rewrite rd_wr_eq by lia. f_equal. apply memb_ext. intros j Hj. apply EX. lia. }
              split; [unfold pinv; rewrite !zlen_wr; repeat split; auto; try lia|split].
              -- intros j Hj. rewrite rd_wr_ne by lia. apply E. exact Hj.
              -- replace (q' + 1 - pf) with (q' - pf + 1) by lia. apply injs_S; [lia|]. replace (pf + (q' - pf)) with q' by lia. rewrite rd_wr_eq by lia. split.
                 ++ apply (@injs_ext B'); [intros j Hj; symmetry; apply EX; lia|exact J].
                 ++ rewrite (@memb_ext _ B') by (intros j Hj; apply EX; lia). exact V.
              -- destruct (Z.eq_dec j q') as [->|]; [rewrite rd_wr_eq by lia; lia|rewrite EX by lia; apply R; lia].
              -- destruct (Z.eq_dec j q') as [->|]; [rewrite rd_wr_eq by lia; lia|rewrite EX by lia; apply R; lia].
              -- intros x Hx. rewrite MX in Hx. apply Bool.orb_true_iff in Hx. destruct Hx as [Hx|Hx]; [apply S; exact Hx|]. apply Z.eqb_eq in Hx. subst x. exact PC.
              -- intros x Hx. rewrite MX. destruct (Z.eq_dec x c) as [->|Nx].
                 ++ rewrite rd_wr_eq by lia. rewrite Z.eqb_refl, Bool.orb_true_r. reflexivity.
                 ++ rewrite rd_wr_ne by lia. rewrite (proj2 (Z.eqb_neq c x)) by auto. rewrite Bool.orb_false_r. apply T. exact Hx.
              -- rewrite D. symmetry. apply wt_add; [lia|exact V|]. intros x _. rewrite MX. f_equal. apply Z.eqb_sym.
              -- intros x Hx. cbn. rewrite MX. specialize (MO x Hx). cbn in MO. rewrite MO. reflexivity.
              -- intros j Hj Aj Nj. cbn. rewrite MX. destruct (Z.eq_dec j rp) as [->|]; [fold c; rewrite Z.eqb_refl; apply Bool.orb_true_r|].
                 pose proof (CM j ltac:(lia) Aj Nj) as X. cbn in X. rewrite X. reflexivity.
          + cbn. split; [unfold pinv; repeat split; auto; try lia; try (apply R; assumption)|]. split; [exact MO|].
            intros j Hj Aj Nj. destruct (Z.eq_dec j rp) as [->|]; [fold c in Aj; lia|]. apply CM; auto. lia. }
      intros st (PI' & MO & CM'). split; [exact PI'|]. intros j c Hj Hc Ac Nc Mc. destruct (Z.eq_dec j cp) as [->|].
      + fold row in Mc. unfold Mof in Mc. rewrite <- (me_m2 I) in Mc by lia. apply memb_spec in Mc. destruct Mc as (j & Hj' & <-). apply CM'; auto.
      + apply MO. apply (CM j c); auto. lia. }
  intros [[[B Ct] q] dg] ((L1 & L2 & Q & E & J & R & S & T & D) & CM).
  assert (MP : forall c, 0 <= c < n -> memb B pf (q - pf) c = PRb c).
  { intros c Hc. apply bool_iff. split; [apply S|]. intros X. apply prb_spec in X. destruct X as (Ac & Nc & r & Hr & M1 & M2). unfold Mof in M1. apply memb_spec in M1. destruct M1 as (j & Hj & <-).
    apply (CM j c); auto. }
  specialize (BND B q R Q J S). repeat split; auto; try lia; try (apply R; assumption).
  - intros c Hc. rewrite T, MP by exact Hc. reflexivity.
  - rewrite D. apply wt_ext. intros c Hc. split; [apply MP; exact Hc|auto].
Qed.

(* fo_kill_rows *)
Lemma kill_rows_ok B : zlen B = zlen A -> (forall j, 0 <= j < pf -> rd B j = rd A j) ->
  wp (fo_kill_rows (rd Cs p) (rd Cl p) B Rm) (fun Rm1 => zlen Rm1 = Z.max m 1 /\ forall r, 0 <= r < m -> rd Rm1 r = if Mof A Cs Cl p r then -1 else rd Rm r) nerr.
Proof.
  intros LB E. destruct (me_b I) as (B1 & B2 & B3). destruct (me_c I Hp Ap) as (P1 & P2). pose proof (me_Rm I) as LRm. pose proof (me_m I) as Hm.
  unfold fo_kill_rows. eapply wp_conseq.
  { apply wp_for with (I := fun cp Rm1 => zlen Rm1 = Z.max m 1 /\ forall r, 0 <= r < m -> rd Rm1 r = if memb A (rd Cs p) (cp - rd Cs p) r then -1 else rd Rm r); [lia| |].
    - split; [exact LRm|]. intros r Hr. rewrite memb_0 by lia. reflexivity.
    - intros cp Rm1 Hcp (L1 & K). destruct (me_cr I Hp Ap Hcp) as (R1 & R2). pose proof (me_pos I (j := cp) ltac:(lia)) as R3. wg; [lia|]. rewrite E by lia. apply wp_set; [lia|].
      rewrite zlen_wr. split; [exact L1|]. intros r Hr. replace (cp + 1 - rd Cs p) with (cp - rd Cs p + 1) by lia. rewrite memb_S by lia. replace (rd Cs p + (cp - rd Cs p)) with cp by lia.
      destruct (Z.eqb_spec (rd A cp) r) as [<-|N]; [rewrite Bool.orb_true_r; apply rd_wr_eq; lia|]. rewrite Bool.orb_false_r, rd_wr_ne by lia. apply K. exact Hr. }
  intros Rm1 (L1 & K). split; [exact L1|]. intros r Hr. rewrite (K r Hr). replace (rd Cs p + rd Cl p - rd Cs p) with (rd Cl p) by lia. reflexivity.
Qed.
End PR.
