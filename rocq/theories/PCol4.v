(* COLAMD, part 4: garbage collection. *)
From Verif Require Import Base Det DetZ Spec MColamd PCol1 PCol2 PCol3.
Set Implicit Arguments.
Open Scope Z_scope.
Set Bullet Behavior "Strict Subproofs".

Section GC.
Variables (m n cend pf : Z) (A Rs Rl Rm Cs Cl : list Z).
Hypothesis I : mem m n cend pf A Rs Rl Rm Cs Cl.

Definition gcc_inv (i : Z) (st : list Z * list Z * list Z * Z) : Prop := let '(A', Cs', Cl', pd) := st in
  zlen A' = zlen A /\ zlen Cs' = n /\ zlen Cl' = n /\ 0 <= pd <= cend /\
  (forall c, i <= c < n -> 0 <= rd Cs c -> pd <= rd Cs c) /\
  (forall j, pd <= j < zlen A -> rd A' j = rd A j) /\
  (forall j, 0 <= j < pd -> 0 <= rd A' j) /\
  (forall c, 0 <= c < n -> rd Cs c < 0 -> rd Cs' c = rd Cs c) /\
  (forall c, i <= c < n -> rd Cs' c = rd Cs c) /\
  (forall c, 0 <= c < n -> rd Cl' c = rd Cl c) /\
  (forall c, 0 <= c < i -> 0 <= rd Cs c -> 0 <= rd Cs' c /\ rd Cs' c + rd Cl c <= pd /\ forall j, 0 <= j < rd Cl c -> rd A' (rd Cs' c + j) = rd A (rd Cs c + j)) /\
  (forall c c', 0 <= c -> c < c' -> c' < i -> 0 <= rd Cs c -> 0 <= rd Cs c' -> rd Cs' c + rd Cl c <= rd Cs' c') /\
  pd = wt i (alv Cs) (rd Cl).

Lemma gc_cols_ok : wp (gc_cols n Rm A Cs Cl) (gcc_inv n) nerr.
Proof.
  pose proof (me_n I) as Hn. destruct (me_b I) as (B1 & B2 & B3). unfold gc_cols. apply wp_for with (I := gcc_inv); [lia| |].
  - unfold gcc_inv. rewrite (me_Cs I), (me_Cl I). repeat split; auto; try lia.
  - intros i [[[A' Cs'] Cl'] pd] Hi (L1 & L2 & L3 & P & Q & E & F & D & U & V & W & O & S). wg; [lia|]. rewrite U by lia.
    assert (WS : wt (i + 1) (alv Cs) (rd Cl) = wt i (alv Cs) (rd Cl) + (if alv Cs i then rd Cl i else 0)) by (unfold wt; apply sumz_S; lia).
    destruct (Z.geb_spec (rd Cs i) 0) as [Hs|Hs].
    + destruct (me_c I Hi ltac:(lia)) as (C1 & C2). specialize (Q i ltac:(lia) ltac:(lia)) as Qi.
      ws; [lia|]. wg; [lia|]. rewrite V by lia. apply wp_bind. eapply wp_conseq.
      { apply wp_for with (I := fun j '(B, q) => comp A' B (fun r => 0 <=? rd Rm r) (rd Cs i) pd (rd Cs i + j) q); [lia| |].
        - rewrite Z.add_0_r. apply comp_0.
        - intros j [B q] Hj K. pose proof (cp_len K) as KL. destruct (cp_w K) as (K1 & K2).
          assert (RJ : rd B (rd Cs i + j) = rd A (rd Cs i + j)). { rewrite (cp_out K) by lia. apply E. lia. }
          destruct (me_cr I Hi Hs (j := rd Cs i + j) ltac:(lia)) as (R1 & R2). pose proof (me_pos I (j := rd Cs i + j) ltac:(lia)) as R3.
          wg; [lia|]. rewrite RJ. wg; [rewrite (me_Rm I); lia|]. destruct (Z.geb_spec (rd Rm (rd A (rd Cs i + j))) 0); [|lia]. ws; [lia|].
          cbn. rewrite Z.add_assoc. rewrite <- E by lia. apply comp_keep; try lia; auto. rewrite E by lia. apply Z.leb_le. exact R2. }
      intros [B q] K. pose proof (cp_len K) as KL. destruct (cp_w K) as (K1 & K2). replace (rd Cs i + rd Cl i - rd Cs i) with (rd Cl i) in K2 by lia.
      destruct (cp_pres K) as (K3 & K4).
      { replace (rd Cs i + rd Cl i - rd Cs i) with (rd Cl i) by lia. apply (@injs_ext A); [intros j Hj; symmetry; apply E; lia|]. apply (me_ci I Hi Hs). }
      { intros j Hj. rewrite E by lia. apply Z.leb_le. apply (me_cr I Hi Hs (j := j)). lia. }
      ws; [lia|]. cbn. rewrite !zlen_wr.
      assert (KA : forall j, 0 <= j < pd -> rd B j = rd A' j) by (intros j Hj; apply (cp_out K); lia).
      repeat split; auto; try lia.
      * intros c Hc Hsc. pose proof (me_o I (c := i) (c' := c)). specialize (H ltac:(lia) ltac:(lia) ltac:(lia) ltac:(lia) Hsc). lia.
      * intros j Hj. rewrite (cp_out K) by lia. apply E. lia.
      * intros j Hj. destruct (Z_lt_le_dec j pd); [rewrite KA by lia; apply F; lia|]. replace j with (pd + (j - pd)) by lia. rewrite K4 by lia. rewrite E by lia. apply (me_pos I). lia.
      * intros c Hc Hsc. assert (c <> i) by (intros ->; lia). rewrite rd_wr_ne by lia. apply D; auto.
      * intros c Hc. rewrite rd_wr_ne by lia. apply U. lia.
      * intros c Hc. destruct (Z.eq_dec c i) as [->|]; [rewrite rd_wr_eq by lia; lia|rewrite rd_wr_ne by lia; apply V; auto].
      * destruct (Z.eq_dec c i) as [->|]; [rewrite rd_wr_eq by lia; lia|rewrite rd_wr_ne by lia; apply W; [lia|auto]].
      * destruct (Z.eq_dec c i) as [->|]; [rewrite rd_wr_eq by lia; lia|rewrite rd_wr_ne by lia]. destruct (W c ltac:(lia) ltac:(auto)) as (W1 & W2 & W3). lia.
      * intros j Hj. destruct (Z.eq_dec c i) as [->|].
        -- rewrite rd_wr_eq by lia. rewrite K4 by lia. apply E. lia.
        -- rewrite rd_wr_ne by lia. destruct (W c ltac:(lia) ltac:(auto)) as (W1 & W2 & W3). rewrite KA by lia. apply W3. exact Hj.
      * intros c c' Hc Hcc Hc' Hsc Hsc'. rewrite (@rd_wr_ne Cs' i c) by lia. destruct (Z.eq_dec c' i) as [->|].
        -- rewrite rd_wr_eq by lia. apply W; [lia|exact Hsc].
        -- rewrite rd_wr_ne by lia. apply O; auto; lia.
      * rewrite WS. rewrite (proj2 (alv_spec Cs i)) by lia. lia.
    + cbn. repeat split; auto; try lia.
      * intros c Hc Hsc. apply Q; [lia|exact Hsc].
      * intros c Hc. apply U. lia.
      * destruct (Z.eq_dec c i) as [->|]; [lia|]. apply W; [lia|auto].
      * destruct (Z.eq_dec c i) as [->|]; [lia|]. destruct (W c ltac:(lia) ltac:(auto)) as (W1 & W2 & W3). lia.
      * intros j Hj. destruct (Z.eq_dec c i) as [->|]; [lia|]. destruct (W c ltac:(lia) ltac:(auto)) as (W1 & W2 & W3). apply W3. exact Hj.
      * intros c c' Hc Hcc Hc' Hsc Hsc'. destruct (Z.eq_dec c' i) as [->|]; [lia|]. apply O; auto; lia.
      * rewrite WS. rewrite (proj2 (alv_false Cs i)) by lia. lia.
Qed.

(* the rows that survive *)
Definition kept (r : Z) : Prop := 0 <= r < m /\ 0 <= rd Rm r /\ 0 < rd Rl r.

Section MarkRows.
Variables (A1 : list Z) (pd : Z).
Hypothesis (LA1 : zlen A1 = zlen A) (Hpd : 0 <= pd <= cend) (EA1 : forall j, pd <= j < zlen A -> rd A1 j = rd A j).

Definition gcm_inv (i : Z) (st : list Z * list Z) : Prop := let '(A2, Rm2) := st in
  zlen A2 = zlen A /\ zlen Rm2 = Z.max m 1 /\
  (forall r, i <= r < m -> rd Rm2 r = rd Rm r) /\
  (forall r, 0 <= r < i -> ~ kept r -> rd Rm2 r = -1) /\
  (forall r, 0 <= r < i -> kept r -> rd Rm2 r = rd A (rd Rs r) /\ rd A2 (rd Rs r) = - r - 1) /\
  (forall j, 0 <= j < zlen A -> (forall r, 0 <= r < i -> kept r -> j <> rd Rs r) -> rd A2 j = rd A1 j).

Lemma kept_ne r r' : kept r -> kept r' -> r <> r' -> rd Rs r <> rd Rs r'.
Proof. intros (H1 & H2 & H3) (H1' & H2' & H3') Hne E. apply (me_d I (r := r) (r' := r') (j := rd Rs r)); auto; lia. Qed.
Lemma kept_in r : kept r -> cend <= rd Rs r /\ rd Rs r + rd Rl r <= pf /\ 0 < rd Rl r.
Proof. intros (H1 & H2 & H3). pose proof (me_r I H1 H2). lia. Qed.

Lemma gc_mark_ok : wp (gc_mark_rows m Rs Rl A1 Rm) (gcm_inv m) nerr.
Proof.
  pose proof (me_m I) as Hm. destruct (me_b I) as (B1 & B2 & B3). pose proof (me_Rs I) as LRs. pose proof (me_Rl I) as LRl. pose proof (me_Rm I) as LRm.
  unfold gc_mark_rows. apply wp_for with (I := gcm_inv); [lia| |].
  - unfold gcm_inv. repeat split; auto; intros; lia.
  - intros i [A2 Rm2] Hi (L1 & L2 & U & D & K & O). wg; [lia|]. wg; [lia|]. rewrite U by lia.
    assert (DEAD : ~ kept i -> gcm_inv (i + 1) (A2, wr Rm2 i (-1))).
    { intros NK. unfold gcm_inv. rewrite zlen_wr. split; [exact L1|]. split; [exact L2|]. split; [|split; [|split]].
      - intros r Hr. rewrite rd_wr_ne by lia. apply U. lia.
      - intros r Hr N. destruct (Z.eq_dec r i) as [->|]; [apply rd_wr_eq; lia|]. rewrite rd_wr_ne by lia. apply D; [lia|exact N].
      - intros r Hr Hk. assert (r <> i) by (intros ->; contradiction). rewrite rd_wr_ne by lia. apply K; [lia|exact Hk].
      - intros j Hj N. apply O; [exact Hj|]. intros r Hr Hk. apply N; [lia|exact Hk]. }
    destruct (Z.ltb_spec (rd Rm i) 0) as [X|X]; cbn [orb].
    { ws; [lia|]. apply DEAD. intros (? & ? & ?). lia. }
    destruct (Z.eqb_spec (rd Rl i) 0) as [Y|Y].
    { ws; [lia|]. apply DEAD. intros (? & ? & ?). lia. }
    assert (KI : kept i). { destruct (me_r I Hi ltac:(lia)). split; [exact Hi|]. split; lia. } pose proof (kept_in KI) as (R1 & R2 & R3).
    assert (RN : forall r, 0 <= r < i -> kept r -> rd Rs i <> rd Rs r) by (intros r Hr Hk; apply kept_ne; auto; lia).
    wg; [lia|]. wg; [lia|]. rewrite (O (rd Rs i)) by (lia || exact RN). rewrite EA1 by lia. ws; [lia|]. ws; [lia|]. cbn. rewrite !zlen_wr. repeat split; auto.
    + intros r Hr. rewrite rd_wr_ne by lia. apply U. lia.
    + intros r Hr N. destruct (Z.eq_dec r i) as [->|]; [contradiction|]. rewrite rd_wr_ne by lia. apply D; [lia|exact N].
    + destruct (Z.eq_dec r i) as [->|]; [apply rd_wr_eq; lia|]. rewrite rd_wr_ne by lia. apply K; [lia|auto].
    + destruct (Z.eq_dec r i) as [->|]; [apply rd_wr_eq; lia|]. pose proof (kept_in H0). rewrite rd_wr_ne; [|lia|lia|apply RN; [lia|auto]]. apply K; [lia|auto].
    + intros j Hj N. rewrite rd_wr_ne; [|lia|lia|]. apply O; [exact Hj|]. intros r Hr Hk. apply N; [lia|exact Hk]. intros X'. apply (N i); [lia|exact KI|auto].
Qed.
End MarkRows.

Definition keptb (r : Z) : bool := (0 <=? rd Rm r) && (0 <? rd Rl r).
Lemma keptb_spec r : 0 <= r < m -> (keptb r = true <-> kept r).
Proof. intros Hr. unfold keptb, kept. rewrite Bool.andb_true_iff, Z.leb_le, Z.ltb_lt. tauto. Qed.

(* the scan *)
Section Scan.
Variables (A2 Rm2 Cs' : list Z) (c0 : Z).
Hypotheses (L2 : zlen A2 = zlen A) (LRm2 : zlen Rm2 = Z.max m 1) (LCs' : zlen Cs' = n) (Hc0 : 0 <= c0 <= cend).
Hypothesis KR : forall r, kept r -> rd Rm2 r = rd A (rd Rs r) /\ rd A2 (rd Rs r) = - r - 1.
Hypothesis EA2 : forall j, c0 <= j < zlen A -> (forall r, kept r -> j <> rd Rs r) -> rd A2 j = rd A j.
Hypothesis SC : forall c, 0 <= c < n -> (0 <= rd Cs' c <-> 0 <= rd Cs c).

Definition proc (psrc r : Z) : Prop := kept r /\ rd Rs r + rd Rl r <= psrc.

Record scan (psrc pd : Z) (B Rs' Rl' : list Z) : Prop := {
  sn_len : zlen B = zlen A /\ zlen Rs' = Z.max m 1 /\ zlen Rl' = m;
  sn_b : c0 <= pd /\ pd <= psrc /\ psrc <= pf;
  sn_hi : forall j, psrc <= j < pf -> rd B j = rd A2 j;
  sn_lo : forall j, 0 <= j < c0 -> rd B j = rd A2 j;
  sn_cut : forall r, kept r -> rd Rs r < psrc -> rd Rs r + rd Rl r <= psrc;
  sn_un : forall r, kept r -> psrc <= rd Rs r -> rd Rs' r = rd Rs r /\ rd Rl' r = rd Rl r;
  sn_pr : forall r, proc psrc r -> c0 <= rd Rs' r /\ 0 <= rd Rl' r /\ rd Rs' r + rd Rl' r <= pd /\ injs B (rd Rs' r) (rd Rl' r) /\
          forall c, memb B (rd Rs' r) (rd Rl' r) c = memb A (rd Rs r) (rd Rl r) c && (0 <=? rd Cs' c);
  sn_dis : forall r r' j, proc psrc r -> proc psrc r' -> r <> r' -> rd Rs' r <= j < rd Rs' r + rd Rl' r -> rd Rs' r' <= j < rd Rs' r' + rd Rl' r' -> False;
  sn_pos : forall j, c0 <= j < pd -> 0 <= rd B j < n;
  sn_sum : pd = c0 + sumz m (fun r => if keptb r && (rd Rs r + rd Rl r <=? psrc) then rd Rl' r else 0) }.

Lemma gc_scan_ok : forall fuel psrc pd B Rs' Rl', scan psrc pd B Rs' Rl' -> pf - psrc <= Z.of_nat fuel ->
  wp (gc_rows fuel psrc pf Rm2 Cs' B Rs' Rl' pd) (fun '(B, Rs', Rl', pd) => scan pf pd B Rs' Rl') nerr.
Proof.
  destruct (me_b I) as (B1 & B2 & B3). pose proof (me_n I) as Hn.
  induction fuel as [|fuel IH]; intros psrc pd B Rs' Rl' S Hf.
  - destruct (sn_b S) as (S1 & S2 & S3). assert (psrc = pf) by lia. subst psrc. cbn [gc_rows]. rewrite Z.ltb_irrefl. exact S.
  - destruct (sn_b S) as (S1 & S2 & S3). destruct (sn_len S) as (SL1 & SL2 & SL3). cbn [gc_rows]. destruct (Z.ltb_spec psrc pf) as [Hp|Hp]; [|assert (psrc = pf) by lia; subst psrc; exact S].
    wg; [lia|]. rewrite (sn_hi S) by lia. destruct (Z.ltb_spec (rd A2 psrc) 0) as [Hv|Hv].
    + (* a marker *)
      assert (EX : exists r, kept r /\ psrc = rd Rs r).
      { destruct (@argmin m (fun r => kept r /\ psrc = rd Rs r) (fun r => r)) as (r & _ & H & _); [| |eauto].
        - intros r. unfold kept. destruct (Z_le_dec 0 r), (Z_lt_dec r m), (Z_le_dec 0 (rd Rm r)), (Z_lt_dec 0 (rd Rl r)), (Z.eq_dec psrc (rd Rs r)); try (right; lia). left. lia.
        - destruct (existsb (fun r => keptb r && (psrc =? rd Rs r)) (zseq 0 m)) eqn:X.
          + apply existsb_exists in X. destruct X as (r & Hr & X). apply in_zseq in Hr. apply Bool.andb_true_iff in X. destruct X as (X1 & X2). apply Z.eqb_eq in X2.
            apply keptb_spec in X1; [|exact Hr]. exists r. auto.
          + exfalso. rewrite EA2 in Hv; [|lia|].
            * pose proof (me_pos I (j := psrc) ltac:(lia)). lia.
            * intros r Hk Er. assert (X' : existsb (fun r => keptb r && (psrc =? rd Rs r)) (zseq 0 m) = true); [|congruence].
              apply existsb_exists. exists r. destruct Hk as (Hr & Hk). split; [apply in_zseq; exact Hr|]. apply Bool.andb_true_iff. split; [apply keptb_spec; [exact Hr|split; auto]|apply Z.eqb_eq; exact Er]. }
      destruct EX as (r & Hk & Er). destruct (KR Hk) as (K1 & K2). destruct Hk as (Hr & Hk1 & Hk2). assert (Hk : kept r) by (split; auto).
      destruct (me_r I Hr Hk1) as (R1 & R2 & R3). rewrite Er in *. rewrite K2. replace (- (- r - 1) - 1) with r by lia.
      wg; [lia|]. rewrite K1. ws; [lia|]. ws; [lia|]. wg; [lia|]. destruct (sn_un S Hk ltac:(lia)) as (U1 & U2). rewrite U2.
      set (B' := wr B (rd Rs r) (rd A (rd Rs r))).
      assert (EB : forall j, rd Rs r <= j < rd Rs r + rd Rl r -> rd B' j = rd A j).
      { intros j Hj. unfold B'. destruct (Z.eq_dec j (rd Rs r)) as [->|]; [apply rd_wr_eq; lia|]. rewrite rd_wr_ne by lia. rewrite (sn_hi S) by lia. apply EA2; [lia|].
        intros r' Hk' E'. destruct (Z.eq_dec r' r) as [->|Ne]; [lia|]. destruct Hk' as (Hr' & Hk1' & Hk2'). apply (me_d I (r := r) (r' := r') (j := j)); auto; lia. }
      assert (LB' : zlen B' = zlen A) by (unfold B'; rewrite zlen_wr; exact SL1).
      apply wp_bind. eapply wp_conseq.
      { apply wp_for with (I := fun j '(C, q) => comp B' C (fun c => 0 <=? rd Cs' c) (rd Rs r) pd (rd Rs r + j) q /\ forall j', pd <= j' < q -> 0 <= rd C j' < n); [lia| |].
        - rewrite Z.add_0_r. split; [apply comp_0|intros; lia].
        - intros j [C q] Hj (K & KP). pose proof (cp_len K) as KL. destruct (cp_w K) as (W1 & W2).
          assert (RJ : rd C (rd Rs r + j) = rd A (rd Rs r + j)). { rewrite (cp_out K) by lia. apply EB. lia. }
          pose proof (me_e I Hr Hk1 (j := rd Rs r + j) ltac:(lia)) as E1. pose proof (me_pos I (j := rd Rs r + j) ltac:(lia)) as E2.
          wg; [lia|]. rewrite RJ. wg; [lia|]. destruct (Z.geb_spec (rd Cs' (rd A (rd Rs r + j))) 0) as [X|X].
          + ws; [lia|]. cbn. rewrite Z.add_assoc. rewrite <- EB by lia. split.
            * apply comp_keep; try lia; auto. rewrite EB by lia. apply Z.leb_le. lia.
            * intros j' Hj'. destruct (Z.eq_dec j' q) as [->|]; [rewrite rd_wr_eq by lia; rewrite EB by lia; lia|]. rewrite rd_wr_ne by lia. apply KP. lia.
          + cbn. rewrite Z.add_assoc. split; [|exact KP]. apply comp_drop; try lia; auto. rewrite EB by lia. apply Z.leb_gt. lia. }
      intros [C q] (K & KP). pose proof (cp_len K) as KL. destruct (cp_w K) as (W1 & W2). replace (rd Rs r + rd Rl r - rd Rs r) with (rd Rl r) in W2 by lia.
      ws; [lia|]. apply IH; [|lia].
      assert (NPR : forall r', proc (rd Rs r) r' -> r' <> r) by (intros r' (? & ?) ->; lia).
      assert (PRC : forall r', proc (rd Rs r + rd Rl r) r' -> r' = r \/ proc (rd Rs r) r').
      { intros r' (Hk' & E'). destruct (Z.eq_dec r' r) as [|Ne]; [left; assumption|right]. split; [exact Hk'|]. destruct (Z_lt_le_dec (rd Rs r') (rd Rs r)) as [X|X]; [apply (sn_cut S Hk' X)|].
        exfalso. destruct Hk' as (Hr' & Hk1' & Hk2'). apply (me_d I (r := r) (r' := r') (j := rd Rs r')); auto; lia. }
      assert (CB : forall j, 0 <= j < pd -> rd C j = rd B j). { intros j Hj. rewrite (cp_out K) by lia. unfold B'. apply rd_wr_ne; lia. }
      constructor.
      * rewrite !zlen_wr. lia.
      * lia.
      * intros j Hj. rewrite (cp_out K) by lia. unfold B'. rewrite rd_wr_ne by lia. apply (sn_hi S). lia.
      * intros j Hj. rewrite CB by lia. apply (sn_lo S). exact Hj.
      * intros r' Hk' X. destruct (Z.eq_dec r' r) as [->|Ne]; [lia|]. destruct (Z_lt_le_dec (rd Rs r') (rd Rs r)) as [Y|Y]; [pose proof (sn_cut S Hk' Y); lia|].
        exfalso. destruct Hk' as (Hr' & Hk1' & Hk2'). apply (me_d I (r := r) (r' := r') (j := rd Rs r')); auto; lia.
      * intros r' Hk' X. pose proof Hk' as (Hr' & _). assert (r' <> r) by (intros ->; lia). rewrite !rd_wr_ne by lia. apply (sn_un S Hk'). lia.
      * intros r' HP. pose proof HP as ((Hr' & _) & _). destruct (PRC r' HP) as [->|HP'].
        -- rewrite !rd_wr_eq by lia. split; [lia|]. split; [lia|]. split; [lia|]. split.
           ++ apply (cp_inj K). replace (rd Rs r + rd Rl r - rd Rs r) with (rd Rl r) by lia. apply (@injs_ext A); [intros j Hj; symmetry; apply EB; lia|]. apply (me_ri I Hr Hk1).
           ++ intros c. rewrite (cp_mem K). replace (rd Rs r + rd Rl r - rd Rs r) with (rd Rl r) by lia. rewrite (@memb_ext B' A) by (intros j Hj; apply EB; lia). reflexivity.
        -- pose proof (NPR r' HP'). rewrite !rd_wr_ne by lia. destruct (sn_pr S HP') as (P1 & P2 & P3 & P4 & P5). split; [lia|]. split; [lia|]. split; [lia|]. split.
           ++ apply (@injs_ext B); [intros j Hj; symmetry; apply CB; lia|exact P4].
           ++ intros c. rewrite (@memb_ext C B) by (intros j Hj; apply CB; lia). apply P5.
      * intros r1 r2 j HP1 HP2 Ne. pose proof HP1 as ((Hr1 & _) & _). pose proof HP2 as ((Hr2 & _) & _). destruct (PRC _ HP1) as [->|HP1'], (PRC _ HP2) as [->|HP2']; try contradiction.
        -- rewrite !rd_wr_eq, !rd_wr_ne by (auto; lia). destruct (sn_pr S HP2') as (P1 & P2 & P3 & _). lia.
        -- pose proof (NPR r1 HP1'). rewrite !rd_wr_eq, !rd_wr_ne by (auto; lia). destruct (sn_pr S HP1') as (P1 & P2 & P3 & _). lia.
        -- pose proof (NPR r1 HP1'). pose proof (NPR r2 HP2'). rewrite !rd_wr_ne by (auto; lia). apply (sn_dis S); auto.
      * intros j Hj. destruct (Z_lt_le_dec j pd) as [X|X]; [rewrite CB by lia; apply (sn_pos S); lia|apply KP; lia].
      * rewrite (@sumz_upd m _ (fun r' => if keptb r' && (rd Rs r' + rd Rl r' <=? rd Rs r) then rd Rl' r' else 0) r Hr).
        -- rewrite (proj2 (keptb_spec Hr) Hk), rd_wr_eq by lia. rewrite Z.leb_refl. destruct (Z.leb_spec (rd Rs r + rd Rl r) (rd Rs r)); [lia|]. cbn [andb].
           pose proof (sn_sum S). lia.
        -- intros r' Hr' Ne. rewrite rd_wr_ne by lia. destruct (keptb r') eqn:Kb; [|reflexivity]. cbn [andb]. apply keptb_spec in Kb; [|exact Hr'].
           replace (rd Rs r' + rd Rl r' <=? rd Rs r) with (rd Rs r' + rd Rl r' <=? rd Rs r + rd Rl r); [reflexivity|]. apply bool_iff. rewrite !Z.leb_le. split; [|lia]. intros X. destruct (PRC r' (conj Kb X)) as [|(_ & Y)]; [contradiction|exact Y].
    + assert (PRC : forall r, proc (psrc + 1) r -> proc psrc r).
      { intros r (Hk & X). split; [exact Hk|]. destruct (KR Hk) as (_ & K2). pose proof Hk as (Hr & H1 & H2). destruct (Z.eq_dec (rd Rs r) psrc) as [E|E]; [rewrite E in K2; lia|]. apply (sn_cut S Hk). lia. }
      apply IH; [|lia]. constructor; try (apply S); try lia.
      * intros j Hj. apply (sn_hi S). lia.
      * intros r Hk X. destruct (Z.eq_dec (rd Rs r) psrc) as [E|E]; [destruct (KR Hk) as (_ & K2); destruct Hk as (? & _); rewrite <- E in Hv; lia|]. pose proof (sn_cut S Hk ltac:(lia)). lia.
      * intros r Hk X. apply (sn_un S Hk). lia.
      * intros r HP. apply (sn_pr S (PRC r HP)).
      * intros r r' j HP HP'. apply (sn_dis S (PRC r HP) (PRC r' HP')).
      * rewrite (sn_sum S) at 1. f_equal. apply sumz_ext. intros r Hr. destruct (keptb r) eqn:Kb; [|reflexivity]. cbn [andb]. apply keptb_spec in Kb; [|exact Hr].
        replace (rd Rs r + rd Rl r <=? psrc) with (rd Rs r + rd Rl r <=? psrc + 1); [reflexivity|].
        apply bool_iff. rewrite !Z.leb_le. split; [|lia]. intros X. apply (PRC r (conj Kb X)).
Qed.
End Scan.

Lemma gc_ok : wp (garbage_collection m n A Rs Rl Rm Cs Cl pf) (fun '(A', Rs', Rl', Rm', Cs', Cl', pf') => exists cend',
  mem m n cend' pf' A' Rs' Rl' Rm' Cs' Cl' /\ zlen A' = zlen A /\ cend' <= cend /\ pf' = 2 * cend' /\
  (forall c, 0 <= c < n -> rd Cs c < 0 -> rd Cs' c = rd Cs c) /\
  (forall c, 0 <= c < n -> 0 <= rd Cs c -> 0 <= rd Cs' c /\ rd Cl' c = rd Cl c /\ forall r, Mof A' Cs' Cl' c r = Mof A Cs Cl c r) /\
  (forall r, 0 <= r < m -> 0 <= rd Rm' r -> 0 <= rd Rm r) /\ pf' <= pf) nerr.
Proof.
  pose proof (me_n I) as Hn. pose proof (me_m I) as Hm. destruct (me_b I) as (B1 & B2 & B3). unfold garbage_collection. apply wp_bind. eapply wp_conseq; [apply gc_cols_ok|].
  intros [[[A1 Cs'] Cl'] c0] (L1 & L2 & L3 & P & _ & E & F & D & _ & V & W & O & S). apply wp_bind. eapply wp_conseq; [apply (@gc_mark_ok A1 c0 L1 P E)|].
  intros [A2 Rm2] (M1 & M2 & _ & M4 & M5 & M6). apply wp_bind.
  assert (KI : forall r, kept r -> cend <= rd Rs r /\ rd Rs r + rd Rl r <= pf /\ 0 < rd Rl r) by apply kept_in.
  assert (SC : forall c, 0 <= c < n -> (0 <= rd Cs' c <-> 0 <= rd Cs c)).
  { intros c Hc. split; intros H; [|apply (W c Hc H)]. destruct (Z_lt_le_dec (rd Cs c) 0) as [X|X]; [|exact X]. rewrite (D c Hc X) in H. lia. }
  assert (KR : forall r, kept r -> rd Rm2 r = rd A (rd Rs r) /\ rd A2 (rd Rs r) = - r - 1) by (intros r Hk; apply M5; [apply Hk|exact Hk]).
  assert (EA2 : forall j, c0 <= j < zlen A -> (forall r, kept r -> j <> rd Rs r) -> rd A2 j = rd A j).
  { intros j Hj N. rewrite M6; [apply E; lia|lia|]. intros r _ Hk. apply N. exact Hk. }
  eapply wp_conseq.
  { apply (@gc_scan_ok A2 Rm2 Cs' c0 M2 L2 P KR EA2); [|lia]. constructor; try lia.
    - rewrite (me_Rs I), (me_Rl I). lia.
    - intros r Hk X. specialize (KI r Hk). lia.
    - intros r (Hk & X). specialize (KI r Hk). lia.
    - intros r r' j (Hk & X). specialize (KI r Hk). lia.
    - rewrite sumz_zero; [lia|]. intros r Hr. destruct (keptb r) eqn:Kb; [|reflexivity]. apply keptb_spec in Kb; [|exact Hr]. specialize (KI r Kb). destruct (Z.leb_spec (rd Rs r + rd Rl r) c0); [lia|reflexivity]. }
  intros [[[B Rs'] Rl'] pd] N. destruct (sn_b N) as (N1 & N2 & _). destruct (sn_len N) as (N3 & N4 & N5).
  assert (PK : forall r, kept r -> proc pf r) by (intros r Hk; split; [exact Hk|apply (KI r Hk)]).
  assert (AK : forall r, 0 <= r < m -> 0 <= rd Rm2 r -> kept r).
  { intros r Hr H. destruct (keptb r) eqn:Kb; [apply keptb_spec; auto|]. rewrite M4 in H; [lia|exact Hr|]. intros Hk. apply keptb_spec in Hk; [congruence|exact Hr]. }
  assert (KA : forall r, kept r -> 0 <= rd Rm2 r).
  { intros r Hk. destruct (KR r Hk) as (-> & _). specialize (KI r Hk). apply (me_pos I). lia. }
  assert (BA : forall j, 0 <= j < c0 -> rd B j = rd A1 j).
  { intros j Hj. rewrite (sn_lo N) by exact Hj. apply M6; [lia|]. intros r _ Hk. specialize (KI r Hk). lia. }
  assert (CM : forall c, 0 <= c < n -> 0 <= rd Cs c -> forall j, 0 <= j < rd Cl c -> rd A (rd Cs c + j) = rd B (rd Cs' c + j)).
  { intros c Hc Hs j Hj. destruct (W c Hc Hs) as (W1 & W2 & W3). rewrite BA by lia. symmetry. apply W3. exact Hj. }
  assert (MM : forall c, 0 <= c < n -> 0 <= rd Cs c -> forall r, Mof B Cs' Cl' c r = Mof A Cs Cl c r).
  { intros c Hc Hs r. unfold Mof. rewrite (V c Hc). symmetry. apply memb_move. apply (CM c Hc Hs). }
  assert (MK : forall c r, 0 <= c < n -> 0 <= rd Cs c -> memb A (rd Cs c) (rd Cl c) r = true -> kept r).
  { intros c r Hc Hs Hm'. apply memb_spec in Hm' as X. destruct X as (j & Hj & Ej). destruct (me_cr I Hc Hs Hj) as (X1 & X2). destruct (me_c I Hc Hs). pose proof (me_pos I (j := j) ltac:(lia)) as X3.
    rewrite Ej in *. split; [lia|]. split; [exact X2|]. rewrite <- (me_m2 I (c := c) (r := r)) in Hm' by (auto; lia). apply memb_spec in Hm'. destruct Hm' as (j' & Hj' & _). lia. }
  exists c0. split; [|split; [lia|split; [lia|split; [|split; [exact D|split]]]]].
  - constructor; try lia.
    + intros c Hc Hs'. apply SC in Hs'; [|exact Hc]. destruct (W c Hc Hs') as (W1 & W2 & _). rewrite (V c Hc). pose proof (me_c I Hc Hs'). lia.
    + intros c c' H0 Hcc Hn' Hs Hs'. apply SC in Hs; [|lia]. apply SC in Hs'; [|lia]. rewrite V by lia. apply O; auto.
    + intros r Hr HR. destruct (sn_pr N (PK r (AK r Hr HR))) as (Q1 & Q2 & Q3 & _). auto.
    + intros r r' j Hr Hr' Ne HR HR'. apply (sn_dis N (PK r (AK r Hr HR)) (PK r' (AK r' Hr' HR')) Ne).
    + intros j Hj. destruct (Z_lt_le_dec j c0) as [X|X]; [rewrite BA by lia; apply F; lia|apply (sn_pos N); lia].
    + intros r j Hr HR Hj. destruct (sn_pr N (PK r (AK r Hr HR))) as (Q1 & Q2 & Q3 & _). apply (sn_pos N). lia.
    + intros c Hc Hs'. apply SC in Hs'; [|exact Hc]. rewrite (V c Hc). apply (@injs_move A B (rd Cs c)); [apply (CM c Hc Hs')|apply (me_ci I Hc Hs')].
    + intros c j Hc Hs' Hj. apply SC in Hs'; [|exact Hc]. rewrite (V c Hc) in Hj.
      assert (X : rd B j = rd A (rd Cs c + (j - rd Cs' c))). { rewrite (CM c Hc Hs') by lia. f_equal. lia. } rewrite X.
      split; [apply (me_cr I Hc Hs'); lia|]. apply KA. apply (MK c); auto. apply memb_at. lia.
    + intros r Hr HR. destruct (sn_pr N (PK r (AK r Hr HR))) as (Q1 & Q2 & Q3 & Q4 & _). exact Q4.
    + intros c r Hc Hs' Hr HR. pose proof Hs' as Hs. apply SC in Hs; [|exact Hc]. destruct (sn_pr N (PK r (AK r Hr HR))) as (_ & _ & _ & _ & Q5). rewrite Q5. rewrite (proj2 (Z.leb_le 0 (rd Cs' c)) Hs').
      rewrite Bool.andb_true_r. destruct (AK r Hr HR) as (_ & HR' & _). rewrite (me_m2 I Hc Hs Hr HR'). symmetry. apply (MM c Hc Hs).
  - (* the rows take as much space as the columns *)
    rewrite (sn_sum N). rewrite (@sumz_ext m _ (fun r => sumz n (fun c => b2z (keptb r && alv Cs c && Mof A Cs Cl c r)))).
    + rewrite sumz_swap. rewrite S. unfold wt. replace (2 * sumz n (fun c => if alv Cs c then rd Cl c else 0)) with (sumz n (fun c => if alv Cs c then rd Cl c else 0) + sumz n (fun c => if alv Cs c then rd Cl c else 0)) by lia. f_equal.
      apply sumz_ext. intros c Hc. destruct (alv Cs c) eqn:Ac.
      * apply alv_spec in Ac. destruct (me_c I Hc Ac) as (C1 & C2). rewrite (@seg_len m A (rd Cs c) (rd Cl c)) at 1; [|exact C1|apply (me_ci I Hc Ac)|].
        -- apply sumz_ext. intros r Hr. rewrite Bool.andb_true_r. unfold Mof. destruct (memb A (rd Cs c) (rd Cl c) r) eqn:X; [|rewrite Bool.andb_false_r; reflexivity].
           rewrite Bool.andb_true_r. rewrite (proj2 (@keptb_spec r Hr)); [reflexivity|]. apply (MK c); auto.
        -- intros j Hj. pose proof (me_cr I Hc Ac Hj). pose proof (me_pos I (j := j) ltac:(lia)). lia.
      * apply sumz_zero. intros r Hr. rewrite Bool.andb_false_r. reflexivity.
    + intros r Hr. destruct (keptb r) eqn:Kb.
      * apply keptb_spec in Kb; [|exact Hr]. destruct (PK r Kb) as (_ & X). rewrite (proj2 (Z.leb_le _ _) X). cbn [andb]. destruct (sn_pr N (PK r Kb)) as (Q1 & Q2 & Q3 & Q4 & Q5).
        rewrite (@seg_len n B (rd Rs' r) (rd Rl' r) Q2 Q4) at 1 by (intros j Hj; apply (sn_pos N); lia).
        apply sumz_ext. intros c Hc. rewrite Q5. f_equal. destruct (alv Cs c) eqn:Ac.
        -- apply alv_spec in Ac. destruct Kb as (_ & Kb & _). rewrite (me_m2 I Hc Ac Hr Kb). rewrite (proj2 (Z.leb_le 0 (rd Cs' c))) by (apply SC; auto). rewrite Bool.andb_true_r. reflexivity.
        -- apply alv_false in Ac. rewrite (proj2 (Z.leb_gt 0 (rd Cs' c))) by (rewrite D by auto; lia). rewrite Bool.andb_false_r. reflexivity.
      * cbn [andb]. symmetry. apply sumz_zero. reflexivity.
  - intros c Hc Hs. split; [apply SC; auto|]. split; [apply V; exact Hc|apply MM; auto].
  - split; [intros r Hr HR; apply (AK r Hr HR)|lia].
Qed.
End GC.
