(* COLAMD, part 14: init_rows_cols. *)
From Verif Require Import Base Det DetZ Spec MColamd PCol1 PCol2 PCol3 PCol13.
Set Implicit Arguments.
Open Scope Z_scope.
Set Bullet Behavior "Strict Subproofs".

Section Irc.
Variables (m n : Z) (p A0 : list Z).
Definition nnz := rd p n.
Hypothesis Hm : 0 <= m.
Hypothesis Hn : 0 <= n.
Hypothesis Lp : zlen p = n + 1.
Hypothesis P0 : rd p 0 = 0.
Hypothesis PM : forall x, 0 <= x < n -> rd p x <= rd p (x + 1).
Hypothesis AR : forall j, 0 <= j < nnz -> 0 <= rd A0 j < m.
Hypothesis AI : forall x, 0 <= x < n -> injs A0 (rd p x) (rd p (x + 1) - rd p x).
Hypothesis LA : 2 * nnz <= zlen A0.

Lemma pmono x y : 0 <= x -> x <= y -> y <= n -> rd p x <= rd p y.
Proof. apply (@mono_le (rd p) n PM). Qed.
Lemma nnz_nonneg : 0 <= nnz.
Proof. unfold nnz. rewrite <- P0. apply pmono; lia. Qed.
Let HR' : forall j, rd p 0 <= j < rd p n -> 0 <= rd A0 j < m.
Proof. rewrite P0. exact AR. Qed.

Lemma irc_cols_ok Cs Cl Ct Co Cp Cn : zlen Cs = n -> zlen Cl = n -> zlen Ct = n -> zlen Co = n -> zlen Cp = n -> zlen Cn = n -> wp (irc_cols n p Cs Cl Ct Co Cp Cn) (fun '(Cs, Cl, Ct, Co, Cp, Cn) =>
  zlen Cs = n /\ zlen Cl = n /\ (forall c, 0 <= c < n -> rd Cs c = rd p c /\ rd Cl c = rd p (c + 1) - rd p c) /\ Ct = mk n 1 /\ Co = mk n 0 /\ Cp = mk n EMPTY /\ Cn = mk n EMPTY) nerr.
Proof.
  intros L1 L2 L3 L4 L5 L6. unfold irc_cols. eapply wp_conseq; [apply wp_for with (I := fun i '(Cs, Cl, Ct, Co, Cp, Cn) => (zlen Cs = n /\ zlen Cl = n /\ zlen Ct = n /\ zlen Co = n /\ zlen Cp = n /\ zlen Cn = n) /\
    forall c, 0 <= c < i -> rd Cs c = rd p c /\ rd Cl c = rd p (c + 1) - rd p c /\ rd Ct c = 1 /\ rd Co c = 0 /\ rd Cp c = EMPTY /\ rd Cn c = EMPTY); [exact Hn| |]|].
  - split; [auto 10|intros c Hc; lia].
  - intros i [[[[[Cs' Cl'] Ct'] Co'] Cp'] Cn'] Hi ((M1 & M2 & M3 & M4 & M5 & M6) & E). wg; [lia|]. wg; [lia|]. ws; [lia|]. ws; [lia|]. destruct (Z.ltb_spec (rd p (i + 1) - rd p i) 0) as [X|X]; [specialize (PM Hi); lia|].
    ws; [lia|]. ws; [lia|]. ws; [lia|]. ws; [lia|]. cbn [wp]. rewrite !zlen_wr. split; [auto 10|]. intros c Hc. destruct (Z.eq_dec c i) as [->|Ne]; [rewrite !rd_wr_eq by lia; auto 10|rewrite !rd_wr_ne by lia; apply E; lia].
  - intros [[[[[Cs' Cl'] Ct'] Co'] Cp'] Cn'] ((M1 & M2 & M3 & M4 & M5 & M6) & E). split; [exact M1|]. split; [exact M2|]. split; [intros c Hc; split; apply (E c Hc)|].
    repeat split; (apply list_ext; [rewrite zlen_mk; lia|]); intros c Hc; rewrite rd_mk by lia; apply E; lia.
Qed.
Lemma irc_clear_ok Rl Rm : zlen Rl = m -> zlen Rm = Z.max m 1 -> wp (irc_clear m Rl Rm) (fun '(Rl, Rm) => zlen Rl = m /\ zlen Rm = Z.max m 1 /\ forall r, 0 <= r < m -> rd Rl r = 0 /\ rd Rm r = -1) nerr.
Proof.
  intros L1 L2. unfold irc_clear. apply wp_for with (I := fun i '(Rl, Rm) => zlen Rl = m /\ zlen Rm = Z.max m 1 /\ forall r, 0 <= r < i -> rd Rl r = 0 /\ rd Rm r = -1); [exact Hm|split; [exact L1|split; [exact L2|intros r Hr; lia]]|].
  intros i [Rl' Rm'] Hi (M1 & M2 & E). ws; [lia|]. ws; [lia|]. cbn [wp]. rewrite !zlen_wr. split; [exact M1|]. split; [exact M2|]. intros c Hc. destruct (Z.eq_dec c i) as [->|Ne]; [rewrite !rd_wr_eq by lia; auto|rewrite !rd_wr_ne by lia; apply E; lia].
Qed.
Lemma zlen_field T base size f cnt : 0 <= cnt -> zlen (field T base size f cnt) = cnt.
Proof. intros H. unfold field, zlen. rewrite map_length. fold (zlen (zseq 0 cnt)). rewrite zlen_zseq; lia. Qed.

(* marks *)
Definition mkd (t : Z) (Rm : list Z) : Prop := zlen Rm = Z.max m 1 /\ forall r, 0 <= r < m -> rd Rm r = -1 \/ (0 <= rd Rm r < n /\ exists j, rd p (rd Rm r) <= j < rd p (rd Rm r + 1) /\ j < t /\ rd A0 j = r).
Lemma mkd_le t t' Rm : t <= t' -> mkd t Rm -> mkd t' Rm.
Proof. intros H (L & E). split; [exact L|]. intros r Hr. destruct (E r Hr) as [X|(X & j & Y1 & Y2 & Y3)]; [left; exact X|right]. split; [exact X|]. exists j. repeat split; auto; lia. Qed.
Lemma mkd_ne t Rm c : mkd t Rm -> 0 <= c < n -> rd p c <= t < rd p (c + 1) -> 0 <= rd A0 t < m -> rd Rm (rd A0 t) <> c.
Proof.
  intros (L & E) Hc Ht HA X. destruct (E _ HA) as [Y|(_ & j & Y1 & Y2 & Y3)]; [lia|]. rewrite X in Y1. assert (j = t); [|lia]. apply (AI Hc); auto; lia.
Qed.
Lemma mkd_S t Rm c : mkd t Rm -> 0 <= c < n -> rd p c <= t < rd p (c + 1) -> 0 <= rd A0 t < m -> mkd (t + 1) (wr Rm (rd A0 t) c).
Proof.
  intros (L & E) Hc Ht HA. split; [rewrite zlen_wr; exact L|]. intros r Hr. destruct (Z.eq_dec r (rd A0 t)) as [->|Ne].
  - rewrite rd_wr_eq by lia. right. split; [exact Hc|]. exists t. repeat split; auto; lia.
  - rewrite rd_wr_ne by lia. destruct (E r Hr) as [Y|(Y0 & j & Y1 & Y2 & Y3)]; [left; exact Y|right]. split; [exact Y0|]. exists j. repeat split; auto; lia.
Qed.
Lemma in_col c t : 0 <= c < n -> rd p c <= t < rd p (c + 1) -> 0 <= t < nnz /\ 0 <= rd A0 t < m.
Proof.
  intros Hc Ht. pose proof (pmono (x := 0) (y := c) ltac:(lia) ltac:(lia) ltac:(lia)). pose proof (pmono (x := c + 1) (y := n) ltac:(lia) ltac:(lia) ltac:(lia)). rewrite P0 in *. fold nnz in *. split; [lia|]. apply AR. lia.
Qed.

Let cn := cntt (rd p) A0.
Definition cinv (t : Z) (Rl Rm : list Z) : Prop := zlen Rl = m /\ mkd t Rm /\ forall r, 0 <= r < m -> rd Rl r = cn r t.
Lemma irc_count_ok Cl Rl Rm : zlen Rl = m -> zlen Rm = Z.max m 1 -> (forall r, 0 <= r < m -> rd Rl r = 0 /\ rd Rm r = -1) ->
  wp (irc_count m n p A0 Cl Rl Rm) (fun '(Cl', Rl', Rm', jb) => Cl' = Cl /\ cinv nnz Rl' Rm' /\ (jb = true -> 1 <= n)) nerr.
Proof.
  intros L1 L2 E. unfold irc_count. apply wp_for with (I := fun c '(Cl', Rl', Rm', jb) => Cl' = Cl /\ cinv (rd p c) Rl' Rm' /\ (jb = true -> 1 <= n)); [exact Hn| |].
  - split; [reflexivity|]. split; [|discriminate]. split; [exact L1|]. split; [split; [exact L2|]|].
    + intros r Hr. left. apply E. exact Hr.
    + intros r Hr. unfold cn. rewrite cntt_0. apply E. exact Hr.
  - intros c [[[Cl' Rl'] Rm'] jb] Hc (-> & I & _). wg; [lia|]. wg; [lia|]. pose proof (PM Hc). apply wp_bind.
    eapply wp_conseq; [apply wp_for with (I := fun t '(Cl', Rl', Rm', jb, lr) => Cl' = Cl /\ cinv t Rl' Rm'); [lia|auto|]|].
    + intros t [[[[Cl'' Rl''] Rm''] jb'] lr] Ht (-> & (M1 & M2 & M3)). pose proof (in_col Hc Ht) as (T1 & T2). pose proof (proj1 M2) as M2'. pose proof nnz_nonneg. wg; [lia|]. set (r := rd A0 t) in *.
      destruct (Z.ltb_spec r 0) as [X|X]; [lia|]. destruct (Z.geb_spec r m) as [X'|X']; [lia|]. cbn [orb]. wg; [lia|]. cbv zeta.
      pose proof (mkd_ne M2 Hc Ht T2) as NE. fold r in NE. rewrite (proj2 (Z.eqb_neq _ c) NE). cbn [negb bind]. unfold inc. apply wp_bind. wg; [lia|]. apply wp_set; [lia|]. ws; [lia|]. cbn [wp].
      split; [reflexivity|]. split; [rewrite zlen_wr; exact M1|]. split; [apply mkd_S; auto|]. intros r' Hr'. unfold cn. rewrite cntt_S by (rewrite P0; lia). fold cn. fold r.
      destruct (Z.eqb_spec r r') as [<-|Ne]; [rewrite rd_wr_eq by lia; rewrite M3 by exact T2; reflexivity|rewrite rd_wr_ne by lia; rewrite M3 by exact Hr'; cbn [b2z]; lia].
    + intros [[[[Cl'' Rl''] Rm''] jb'] lr] (-> & I'). cbn [fst wp]. split; [reflexivity|]. split; [exact I'|lia].
Qed.

Definition TT (r : Z) : Z := nnz + sumz r (fun y => cn y nnz).
Lemma TT_S r : 0 <= r -> TT (r + 1) = TT r + cn r nnz.
Proof. intros H. unfold TT. rewrite sumz_S by lia. lia. Qed.
Lemma TT_0 : TT 0 = nnz.
Proof. unfold TT. cbn. lia. Qed.
Lemma TT_m : TT m = 2 * nnz.
Proof. unfold TT, cn, nnz. rewrite (@cntt_tot n m (rd p) A0 HR') by (split; [apply pmono; lia|lia]). rewrite P0. lia. Qed.
Lemma TT_le r : 0 <= r < m -> TT r <= TT (r + 1).
Proof. intros H. rewrite TT_S by lia. pose proof (@cntt_nonneg (rd p) A0 r nnz ltac:(rewrite P0; apply nnz_nonneg)) as X. fold cn in X. lia. Qed.
Lemma TT_mono x y : 0 <= x -> x <= y -> y <= m -> TT x <= TT y.
Proof. apply (@mono_le TT m TT_le). Qed.

Lemma irc_starts_ok Rl Rs Rd Rm : zlen Rl = m -> zlen Rs = Z.max m 1 -> zlen Rd = Z.max m 1 -> zlen Rm = Z.max m 1 -> (forall r, 0 <= r < m -> rd Rl r = cn r nnz) ->
  wp (irc_starts m nnz Rl Rs Rd Rm) (fun '(Rs, Rd, Rm) => zlen Rs = Z.max m 1 /\ zlen Rd = Z.max m 1 /\ zlen Rm = Z.max m 1 /\ forall r, 0 <= r < m -> rd Rs r = TT r /\ rd Rd r = TT r /\ rd Rm r = -1) nerr.
Proof.
  intros L1 L2 L3 L4 E. unfold irc_starts. ws; [lia|]. ws; [lia|]. ws; [lia|].
  assert (B : forall r, 0 <= r < 1 -> rd (wr Rs 0 nnz) r = TT r /\ rd (wr Rd 0 nnz) r = TT r /\ rd (wr Rm 0 (-1)) r = -1). { intros r Hr. replace r with 0 by lia. rewrite !rd_wr_eq by lia. rewrite TT_0. auto. }
  destruct (Z_le_gt_dec 1 m) as [H1|H1].
  - apply wp_for with (I := fun i '(Rs, Rd, Rm) => zlen Rs = Z.max m 1 /\ zlen Rd = Z.max m 1 /\ zlen Rm = Z.max m 1 /\ forall r, 0 <= r < i -> rd Rs r = TT r /\ rd Rd r = TT r /\ rd Rm r = -1); [exact H1|rewrite !zlen_wr; auto|].
    intros i [[Rs' Rd'] Rm'] Hi (M1 & M2 & M3 & X). wg; [lia|]. wg; [lia|]. ws; [lia|]. ws; [lia|]. ws; [lia|]. cbn [wp]. rewrite !zlen_wr. repeat split; auto.
    all: destruct (Z.eq_dec r i) as [->|Ne]; [rewrite rd_wr_eq by lia|rewrite rd_wr_ne by lia; apply X; lia]; auto.
    all: destruct (X (i - 1) ltac:(lia)) as (-> & _); rewrite E by lia; rewrite <- TT_S by lia; f_equal; lia.
  - rewrite for_empty by lia. cbn [wp]. rewrite !zlen_wr. repeat split; auto; lia.
Qed.

Lemma irc_marks_ok Rl Rd Rm : zlen Rl = m -> zlen Rd = Z.max m 1 -> zlen Rm = Z.max m 1 ->
  wp (irc_marks m Rl Rd Rm) (fun '(Rd, Rm) => zlen Rd = Z.max m 1 /\ zlen Rm = Z.max m 1 /\ forall r, 0 <= r < m -> rd Rd r = rd Rl r /\ rd Rm r = 0) nerr.
Proof.
  intros L1 L2 L3. unfold irc_marks. apply wp_for with (I := fun i '(Rd, Rm) => zlen Rd = Z.max m 1 /\ zlen Rm = Z.max m 1 /\ forall r, 0 <= r < i -> rd Rd r = rd Rl r /\ rd Rm r = 0); [exact Hm|repeat split; auto; lia|].
  intros i [Rd' Rm'] Hi (M1 & M2 & X). ws; [lia|]. wg; [lia|]. ws; [lia|]. cbn [wp]. rewrite !zlen_wr. split; [exact M1|]. split; [exact M2|]. intros r Hr. destruct (Z.eq_dec r i) as [->|Ne]; [rewrite !rd_wr_eq by lia; auto|rewrite !rd_wr_ne by lia; apply X; lia].
Qed.

(* the rows *)
Let HT1 : forall y, 0 <= y < m -> TT (y + 1) = TT y + cntt (rd p) A0 y (rd p n).
Proof. intros y Hy. apply TT_S. lia. Qed.
Let HD1 : forall j, rd p 0 <= j < rd p n -> j < TT 0 \/ TT m <= j.
Proof. intros j Hj. rewrite TT_0. left. exact (proj2 Hj). Qed.
Let HB1 : 0 <= rd p 0 /\ 0 <= TT 0 /\ rd p n <= zlen A0 /\ TT m <= zlen A0.
Proof. rewrite P0, TT_0, TT_m. fold nnz. pose proof nnz_nonneg. lia. Qed.
Let ti1 := tinv n m (rd p) TT A0.

Lemma irc_rows_ok jb Rd Rm : zlen Rd = Z.max m 1 -> zlen Rm = Z.max m 1 -> (forall r, 0 <= r < m -> rd Rd r = TT r /\ rd Rm r = -1) ->
  wp (irc_rows jb n p A0 Rd Rm) (fun '(A, Rd, Rm) => ti1 nnz A Rd /\ zlen Rd = Z.max m 1 /\ zlen Rm = Z.max m 1) nerr.
Proof.
  intros L1 L2 E. unfold irc_rows.
  eapply wp_conseq; [apply wp_for with (I := fun c '(A, Rd, Rm) => ti1 (rd p c) A Rd /\ zlen Rd = Z.max m 1 /\ mkd (rd p c) Rm); [exact Hn| |]|].
  - split; [|split; [exact L1|split; [exact L2|intros r Hr; left; apply E; exact Hr]]]. apply (@tinv_0 n m (rd p) TT A0 PM). intros y Hy. apply E. exact Hy.
  - intros c [[A Rd'] Rm'] Hc (I & M1 & M2). wg; [lia|]. wg; [lia|]. pose proof (PM Hc).
    apply wp_for with (I := fun t '(A, Rd, Rm) => ti1 t A Rd /\ zlen Rd = Z.max m 1 /\ mkd t Rm); [lia|auto|].
    clear I M1 M2 A Rd' Rm'. intros t [[A Rd'] Rm'] Ht (I & M1 & M2). destruct (in_col Hc Ht) as (T1 & T2). pose proof (proj1 M2) as M2'.
    destruct (@tinv_src n m (rd p) TT A0 Hn PM HR' HT1 HD1 HB1 t A Rd' c I Hc Ht) as (R1 & R2 & R3 & R4). wg; [exact R1|]. rewrite R2. wg; [lia|]. rewrite (proj2 (Z.eqb_neq _ c) (mkd_ne M2 Hc Ht T2)). rewrite Bool.andb_false_r.
    wg; [lia|]. ws; [exact R4|]. ws; [lia|].
    pose proof (@tinv_S n m (rd p) TT A0 Hn PM HR' AI HT1 HD1 HB1 t A Rd' c I Hc Ht ltac:(lia)) as I'. apply wp_bind. destruct jb.
    + apply wp_set; [lia|]. cbn [wp]. split; [exact I'|]. split; [rewrite zlen_wr; exact M1|]. apply mkd_S; auto.
    + cbn [wp]. split; [exact I'|]. split; [rewrite zlen_wr; exact M1|]. apply mkd_le with (t := t); [lia|exact M2].
  - intros [[A Rd'] Rm'] (I & M1 & M2). split; [exact I|]. split; [exact M1|apply M2].
Qed.

(* what the rows and columns look like *)
Definition rowsok (A : list Z) : Prop := zlen A = zlen A0 /\ (forall r, 0 <= r < m -> injs A (TT r) (TT (r + 1) - TT r)) /\ (forall j, nnz <= j < 2 * nnz -> 0 <= rd A j < n) /\
  (forall r c, 0 <= r < m -> 0 <= c < n -> memb A (TT r) (TT (r + 1) - TT r) c = memb A (rd p c) (rd p (c + 1) - rd p c) r) /\
  (forall c, 0 <= c < n -> injs A (rd p c) (rd p (c + 1) - rd p c)) /\ (forall j, 0 <= j < nnz -> 0 <= rd A j < m).
Lemma rows_fact A P : ti1 nnz A P -> rowsok A.
Proof.
  intros I. destruct (@tinv_end n m (rd p) TT A0 Hm PM HT1 HD1 HB1 A P I) as (X1 & X2 & X3 & X4). rewrite TT_0, TT_m in X3. rewrite P0 in X4. fold nnz in X4.
  assert (EC : forall c j, 0 <= c < n -> rd p c <= j < rd p c + (rd p (c + 1) - rd p c) -> rd A0 j = rd A j). { intros c j Hc Hj. symmetry. apply X4. apply (in_col Hc). lia. }
  split; [apply (ti_A I)|]. split; [exact X1|]. split; [exact X3|]. split; [|split].
  - intros r c Hr Hc. rewrite X2 by auto. apply memb_ext. intros j Hj. apply (EC c); auto.
  - intros c Hc. apply (injs_ext (A := A0)); [intros j Hj; apply (EC c); auto|]. apply AI. exact Hc.
  - intros j Hj. rewrite X4 by exact Hj. apply AR. exact Hj.
Qed.

(* jumbled: the columns are built again from the rows *)
Lemma irc_rebuild_ok A1 Rs Rl Cs Cl : 1 <= n -> rowsok A1 -> zlen Rs = Z.max m 1 -> zlen Rl = m -> zlen Cs = n -> zlen Cl = n ->
  (forall r, 0 <= r < m -> rd Rs r = TT r /\ rd Rl r = cn r nnz) -> (forall c, 0 <= c < n -> rd Cl c = rd p (c + 1) - rd p c) ->
  wp (irc_rebuild m n p A1 Rs Rl Cs Cl) (fun '(A, p', Cs) => rowsok A /\ zlen p' = n + 1 /\ zlen Cs = n /\ forall c, 0 <= c < n -> rd Cs c = rd p c) nerr.
Proof.
  intros N1 (LA1 & Q1 & Q2 & Q3 & Q4 & Q5) L1 L2 L3 L4 ER EC. unfold irc_rebuild. ws; [lia|]. ws; [lia|]. apply wp_bind.
  assert (PS : wp (for_ 1 n (fun col '(Cs, p) => let* s := get Cs (col - 1) in let* l := get Cl (col - 1) in let* Cs := set Cs col (s + l) in let* p := set p col (s + l) in Ok (Cs, p)) (wr Cs 0 0, wr p 0 0))
    (fun '(Cs', p') => zlen Cs' = n /\ zlen p' = n + 1 /\ forall c, 0 <= c < n -> rd Cs' c = rd p c /\ rd p' c = rd p c) nerr).
  { assert (B : forall c, 0 <= c < 1 -> rd (wr Cs 0 0) c = rd p c /\ rd (wr p 0 0) c = rd p c). { intros c Hc. replace c with 0 by lia. rewrite !rd_wr_eq by lia. auto. }
    destruct (Z_le_gt_dec 1 n) as [H1|H1].
    - apply wp_for with (I := fun i '(Cs', p') => zlen Cs' = n /\ zlen p' = n + 1 /\ forall c, 0 <= c < i -> rd Cs' c = rd p c /\ rd p' c = rd p c); [exact H1|rewrite !zlen_wr; auto|].
      intros i [Cs' p'] Hi (M1 & M2 & X). wg; [lia|]. wg; [lia|]. ws; [lia|]. ws; [lia|]. cbn [wp]. rewrite !zlen_wr. repeat split; auto.
      all: destruct (Z.eq_dec c i) as [->|Ne]; [rewrite rd_wr_eq by lia|rewrite rd_wr_ne by lia; apply X; lia].
      all: destruct (X (i - 1) ltac:(lia)) as (-> & _); rewrite EC by lia; replace (i - 1 + 1) with i by lia; lia.
    - rewrite for_empty by lia. cbn [wp]. rewrite !zlen_wr. repeat split; auto; lia. }
  eapply wp_conseq; [exact PS|]. clear PS. intros [Cs' p'] (M1 & M2 & X). apply wp_bind.
  pose proof nnz_nonneg as NN.
  assert (HR2 : forall j, TT 0 <= j < TT m -> 0 <= rd A1 j < n). { rewrite TT_0, TT_m. exact Q2. }
  assert (HT2 : forall y, 0 <= y < n -> rd p (y + 1) = rd p y + cntt TT A1 y (TT m)).
  { intros c Hc. rewrite (@cntt_seg m TT A1 TT_le Q1 c m) by lia. pose proof (PM Hc). assert (E : rd p (c + 1) - rd p c = sumz m (fun r => b2z (memb A1 (TT r) (TT (r + 1) - TT r) c))); [|lia].
    rewrite (@seg_len m A1 (rd p c) (rd p (c + 1) - rd p c)); [|lia|apply Q4; exact Hc|intros j Hj; apply Q5; apply (in_col Hc); lia]. apply sumz_ext. intros r Hr. rewrite Q3 by auto. reflexivity. }
  assert (HD2 : forall j, TT 0 <= j < TT m -> j < rd p 0 \/ rd p n <= j). { rewrite TT_0. intros j Hj. right. apply Hj. }
  assert (HB2 : 0 <= TT 0 /\ 0 <= rd p 0 /\ TT m <= zlen A1 /\ rd p n <= zlen A1). { rewrite TT_0, TT_m, P0. fold nnz. lia. }
  set (ti2 := tinv m n TT (rd p) A1).
  assert (G : wp (for_ 0 m (fun row st => let* s := get Rs row in let* l := get Rl row in
    for_ s (s + l) (fun rp '(A, p) => let* c := get A rp in let* q := get p c in let* p := set p c (q + 1) in let* A := set A q row in Ok (A, p)) st) (A1, p')) (fun '(A, P) => ti2 (TT m) A P /\ zlen P = n + 1) nerr).
  { apply wp_for with (I := fun r '(A, P) => ti2 (TT r) A P /\ zlen P = n + 1); [exact Hm| |].
    - split; [|exact M2]. apply (@tinv_0 m n TT (rd p) A1 TT_le). intros y Hy. apply X. exact Hy.
    - intros r [A P] Hr (I & LP). destruct (ER r Hr) as (E1 & E2). wg; [lia|]. wg; [lia|]. rewrite E1, E2, <- TT_S by lia.
      apply wp_for with (I := fun t '(A, P) => ti2 t A P /\ zlen P = n + 1); [apply TT_le; exact Hr|auto|].
      clear I LP A P. intros t [A P] Ht (I & LP). destruct (@tinv_src m n TT (rd p) A1 Hm TT_le HR2 HT2 HD2 HB2 t A P r I Hr Ht) as (R1 & R2 & R3 & R4).
      wg; [exact R1|]. rewrite R2. wg; [lia|]. ws; [lia|]. ws; [exact R4|]. cbn [wp]. split; [|rewrite zlen_wr; exact LP]. apply (@tinv_S m n TT (rd p) A1 Hm TT_le HR2 Q1 HT2 HD2 HB2 t A P r I Hr Ht ltac:(lia)). }
  eapply wp_conseq; [exact G|]. intros [A P] (I & LP). cbn [wp]. split; [|split; [exact LP|split; [exact M1|intros c Hc; apply X; exact Hc]]].
  destruct (@tinv_end m n TT (rd p) A1 Hn TT_le HT2 HD2 HB2 A P I) as (X1 & X2 & X3 & X4). rewrite TT_0, TT_m in X4. rewrite P0 in X3. fold nnz in X3.
  assert (ERW : forall r j, 0 <= r < m -> TT r <= j < TT r + (TT (r + 1) - TT r) -> rd A1 j = rd A j). { intros r j Hr Hj. symmetry. apply X4. pose proof (TT_mono (x := 0) (y := r) ltac:(lia) ltac:(lia) ltac:(lia)). pose proof (TT_mono (x := r + 1) (y := m) ltac:(lia) ltac:(lia) ltac:(lia)). rewrite TT_0, TT_m in *. lia. }
  assert (ERM : forall r c, 0 <= r < m -> memb A (TT r) (TT (r + 1) - TT r) c = memb A1 (TT r) (TT (r + 1) - TT r) c). { intros r c Hr. apply memb_ext. intros j Hj. symmetry. apply (ERW r); auto. }
  split; [rewrite <- LA1; apply (ti_A I)|]. split; [|split; [|split; [|split]]].
  - intros r Hr. apply (injs_ext (A := A1)); [intros j Hj; apply (ERW r); auto|]. apply Q1. exact Hr.
  - intros j Hj. rewrite X4 by exact Hj. apply Q2. exact Hj.
  - intros r c Hr Hc. rewrite X2 by auto. apply ERM. exact Hr.
  - exact X1.
  - exact X3.
Qed.

Lemma irc_mem A Rs Rl Rm Cs Cl : rowsok A -> zlen Rs = Z.max m 1 -> zlen Rl = m -> zlen Rm = Z.max m 1 -> zlen Cs = n -> zlen Cl = n ->
  (forall r, 0 <= r < m -> rd Rs r = TT r /\ rd Rl r = cn r nnz /\ rd Rm r = 0) -> (forall c, 0 <= c < n -> rd Cs c = rd p c /\ rd Cl c = rd p (c + 1) - rd p c) ->
  mem m n nnz (2 * nnz) A Rs Rl Rm Cs Cl.
Proof.
  intros (LA1 & Q1 & Q2 & Q3 & Q4 & Q5) L1 L2 L3 L4 L5 ER EC. pose proof nnz_nonneg as NN.
  assert (ER' : forall r, 0 <= r < m -> rd Rs r = TT r /\ rd Rl r = TT (r + 1) - TT r /\ rd Rm r = 0). { intros r Hr. destruct (ER r Hr) as (-> & -> & ->). rewrite TT_S by lia. repeat split; auto; lia. }
  assert (TB : forall r, 0 <= r < m -> nnz <= TT r /\ TT r <= TT (r + 1) /\ TT (r + 1) <= 2 * nnz). { intros r Hr. rewrite <- TT_m, <- TT_0 at 1. repeat split; apply TT_mono; lia. }
  constructor; auto; try lia.
  - intros c Hc _. destruct (EC c Hc) as (-> & ->). pose proof (PM Hc). pose proof (pmono (x := c + 1) (y := n) ltac:(lia) ltac:(lia) ltac:(lia)). fold nnz in *. lia.
  - intros c c' H1 H2 H3 _ _. destruct (EC c ltac:(lia)) as (-> & ->). destruct (EC c' ltac:(lia)) as (-> & _). pose proof (pmono (x := c + 1) (y := c') ltac:(lia) ltac:(lia) ltac:(lia)). lia.
  - intros r Hr _. destruct (ER' r Hr) as (-> & -> & _). specialize (TB r Hr). lia.
  - intros r r' j Hr Hr' Ne _ _. destruct (ER' r Hr) as (-> & -> & _). destruct (ER' r' Hr') as (-> & -> & _). intros J J'. destruct (Z_lt_le_dec r r').
    + pose proof (TT_mono (x := r + 1) (y := r') ltac:(lia) ltac:(lia) ltac:(lia)). lia.
    + pose proof (TT_mono (x := r' + 1) (y := r) ltac:(lia) ltac:(lia) ltac:(lia)). lia.
  - intros j Hj. destruct (Z_lt_le_dec j nnz); [apply Q5; lia|apply Q2; lia].
  - intros r j Hr _. destruct (ER' r Hr) as (-> & -> & _). intros Hj. specialize (TB r Hr). apply Q2. lia.
  - intros c Hc _. destruct (EC c Hc) as (-> & ->). apply Q4. exact Hc.
  - intros c j Hc _. destruct (EC c Hc) as (-> & ->). intros Hj. pose proof (in_col (t := j) Hc ltac:(lia)) as (T & _). specialize (Q5 j T). split; [lia|]. destruct (ER _ Q5) as (_ & _ & ->). lia.
  - intros r Hr _. destruct (ER' r Hr) as (-> & -> & _). apply Q1. exact Hr.
  - intros c r Hc _ Hr _. destruct (EC c Hc) as (-> & ->). destruct (ER' r Hr) as (-> & -> & _). apply Q3; auto.
Qed.

Lemma init_rows_cols_ok T : wp (init_rows_cols m n p A0 T) (fun '(ar, p') => zlen p' = n + 1 /\ zlen (a_A ar) = zlen A0 /\
  mem m n nnz (2 * nnz) (a_A ar) (a_Rs ar) (a_Rl ar) (a_Rm ar) (a_Cs ar) (a_Cl ar) /\ zlen (a_Rd ar) = Z.max m 1 /\ (forall r, 0 <= r < m -> rd (a_Rd ar) r = rd (a_Rl ar) r /\ rd (a_Rm ar) r = 0) /\
  (forall c, 0 <= c < n -> 0 <= rd (a_Cs ar) c) /\ a_Ct ar = mk n 1 /\ zlen (a_Co ar) = n /\ zlen (a_Cp ar) = n /\ zlen (a_Cn ar) = n) nerr.
Proof.
  unfold init_rows_cols. apply wp_bind. eapply wp_conseq; [apply irc_cols_ok; apply zlen_field; lia|]. intros [[[[[Cs Cl] Ct] Co] Cp] Cn] (L1 & L2 & EC & ECt & -> & -> & ->). wg; [lia|]. fold nnz.
  apply wp_bind. eapply wp_conseq; [apply irc_clear_ok; apply zlen_field; lia|]. intros [Rl0 Rm0] (N1 & N2 & N3).
  apply wp_bind. eapply wp_conseq; [apply irc_count_ok; [exact N1|exact N2|exact N3]|]. intros [[[Cl' Rl] Rm] jb] (-> & (L3 & (L4 & _) & ERl) & HJ).
  apply wp_bind. eapply wp_conseq; [apply irc_starts_ok; auto; apply zlen_field; lia|]. intros [[Rs Rd] Rm1] (L5 & L6 & L7 & ERs).
  apply wp_bind. eapply wp_conseq; [apply irc_rows_ok; auto; intros r Hr; split; apply ERs; exact Hr|]. intros [[A1 Rd1] Rm2] (I & L8 & L9). apply rows_fact in I.
  apply wp_bind. eapply wp_conseq; [apply irc_marks_ok; auto|]. intros [Rd2 Rm3] (L10 & L11 & EM). apply wp_bind.
  assert (G : wp (if jb then irc_rebuild m n p A1 Rs Rl Cs Cl else Ok (A1, p, Cs)) (fun '(A, p', Cs) => rowsok A /\ zlen p' = n + 1 /\ zlen Cs = n /\ forall c, 0 <= c < n -> rd Cs c = rd p c) nerr).
  { destruct jb.
    - apply irc_rebuild_ok; auto; [intros r Hr|intros c Hc; apply EC; exact Hc]. split; [apply ERs; exact Hr|apply ERl; exact Hr].
    - cbn [wp]. split; [exact I|]. split; [exact Lp|]. split; [exact L1|]. intros c Hc. apply EC. exact Hc. }
  eapply wp_conseq; [exact G|]. clear G. intros [[A p'] Cs'] (IA & Lp' & LCs & ECs). cbn [wp a_A a_Rs a_Rl a_Rd a_Rm a_Cs a_Cl a_Ct a_Co a_Cp a_Cn].
  split; [exact Lp'|]. split; [apply IA|]. split.
  { apply irc_mem; auto; [intros r Hr; split; [apply ERs; exact Hr|]; split; [apply ERl; exact Hr|apply EM; exact Hr]|intros c Hc; split; [apply ECs; exact Hc|apply EC; exact Hc]]. }
  split; [exact L10|]. split; [exact EM|]. split; [|rewrite !zlen_mk by lia; auto]. intros c Hc. rewrite ECs by exact Hc. rewrite <- P0. apply pmono; lia.
Qed.
End Irc.
