(* C70: the column ordering computed by the bundled COLAMD (default of SLIP_LU_analyze and SLIP_backslash). *)
From Verif Require Import Base DetZ Spec MFactor MSolve MMatrix MApi ApiSpec PApi Check LUEx.
From Verif Require Import MColamd PCol1 PCol13 PCol14 PCol16.
Set Implicit Arguments.
Open Scope Z_scope.
Set Bullet Behavior "Strict Subproofs".

(* The workspace of COLAMD: 2 nnz + n for the matrix and its pivot rows, and the column and row structures. *)
Definition colamd_need (m n nnz : Z) : Z := 2 * nnz + n + 6 * (n + 1) + 4 * (m + 1).

(* C70.  On every pattern without duplicates (any shape, rows in any order), with any contents of the rest of the workspace, any
   dense thresholds, with or without aggressive absorption: COLAMD stops, stays inside its arrays and returns a permutation. *)
Theorem C70_colamd_permutation : forall aggressive m n dense_row dense_col Ap Ai A,
  valid_pattern m n Ap Ai -> (forall k, 0 <= k < rd Ap n -> rd A k = rd Ai k) -> colamd_need m n (rd Ap n) <= zlen A ->
  exists q, colamd aggressive m n dense_row dense_col A Ap = Ok q /\ is_perm n q.
Proof.
  intros ag m n dr dc Ap Ai A V E L. unfold colamd_need in L. pose proof (vp_n V) as Hn.
  assert (mono : forall x y, 0 <= x -> x <= y -> y <= n -> rd Ap x <= rd Ap y) by (apply mono_le; apply V).
  assert (W : wp (colamd ag m n dr dc A Ap) (fun q => is_perm n q /\ zlen q = n + 1) nerr).
  { apply colamd_ok; auto; try apply V; try lia.
    - intros j Hj. rewrite E by exact Hj. apply (vp_i V Hj).
    - intros x i j Hx Hi Hj X. pose proof (vp_0 V). pose proof (mono 0 x). pose proof (mono (x + 1) n). rewrite !E in X by lia. apply (vp_dup V Hx); auto. }
  apply wp_ok_ex in W. destruct W as (q & -> & HQ & _). eauto.
Qed.

(* Without any assumption on the ordering libraries: SLIP_LU_analyze returns a permutation. *)
Theorem C70_analyze : forall ol A Ap Ai n o,
  m_kind A = KCSC -> m_m A = n -> m_n A = n -> m_p A = Some Ap -> m_i A = Some Ai -> valid_pattern n n Ap Ai ->
  exists An, SLIP_LU_analyze ol true true (Some A) o = Ok (SOK, Out An) /\ is_perm n (s_q An).
Proof.
  intros ol A Ap Ai n o H1 H2 H3 H4 H5 V. destruct (@analyze_spec ol A Ap Ai n o) as (An & E & (U & _) & _); auto. eauto.
Qed.

(* Invalid input: COLAMD returns FALSE, without leaving its arrays. *)
Section Bad.
Variables (m n : Z) (p A : list Z).
Hypothesis Hn : 0 <= n.
Hypothesis Hm : 0 <= m.
Hypothesis Lp : zlen p = n + 1.
Lemma cols_bad Cs Cl Ct Co Cp Cn : zlen Cs = n -> zlen Cl = n -> zlen Ct = n -> zlen Co = n -> zlen Cp = n -> zlen Cn = n ->
  wp (irc_cols n p Cs Cl Ct Co Cp Cn) (fun '(Cs, Cl, Ct, Co, Cp, Cn) => zlen Cl = n /\ forall c, 0 <= c < n -> rd p c <= rd p (c + 1)) (fun e => e = SLIP_INCORRECT_INPUT).
Proof.
  intros L1 L2 L3 L4 L5 L6. unfold irc_cols. eapply wp_mono with (E := fun e => e = SLIP_INCORRECT_INPUT);
    [| |apply wp_for with (I := fun i '(Cs, Cl, Ct, Co, Cp, Cn) => (zlen Cs = n /\ zlen Cl = n /\ zlen Ct = n /\ zlen Co = n /\ zlen Cp = n /\ zlen Cn = n) /\ forall c, 0 <= c < i -> rd p c <= rd p (c + 1)); [exact Hn|split; [auto 10|intros c Hc; lia]|]].
  - intros [[[[[Cs' Cl'] Ct'] Co'] Cp'] Cn'] ((M1 & M2 & _) & X). split; [exact M2|exact X].
  - auto.
  - intros i [[[[[Cs' Cl'] Ct'] Co'] Cp'] Cn'] Hi ((M1 & M2 & M3 & M4 & M5 & M6) & X). wg; [lia|]. wg; [lia|]. ws; [lia|]. ws; [lia|]. destruct (Z.ltb_spec (rd p (i + 1) - rd p i) 0) as [Y|Y]; [reflexivity|].
    ws; [lia|]. ws; [lia|]. ws; [lia|]. ws; [lia|]. cbn [wp]. rewrite !zlen_wr. split; [auto 10|].
    intros c Hc. destruct (Z.eq_dec c i) as [->|Ne]; [lia|apply X; lia].
Qed.
Lemma count_bad Cl Rl Rm : zlen Cl = n -> zlen Rl = m -> zlen Rm = Z.max m 1 -> rd p 0 = 0 -> (forall c, 0 <= c < n -> rd p c <= rd p (c + 1)) -> rd p n <= zlen A ->
  wp (irc_count m n p A Cl Rl Rm) (fun _ => forall k, 0 <= k < rd p n -> 0 <= rd A k < m) (fun e => e = SLIP_INCORRECT_INPUT).
Proof.
  intros L1 L2 L3 P0 PM LA. assert (mono : forall x y, 0 <= x -> x <= y -> y <= n -> rd p x <= rd p y) by (apply mono_le; exact PM). unfold irc_count.
  eapply wp_mono with (E := fun e => e = SLIP_INCORRECT_INPUT);
    [| |apply wp_for with (I := fun c '(Cl', Rl', Rm', jb) => zlen Cl' = n /\ zlen Rl' = m /\ zlen Rm' = Z.max m 1 /\ forall k, 0 <= k < rd p c -> 0 <= rd A k < m); [exact Hn|repeat split; auto; rewrite P0 in *; lia|]].
  - intros [[[Cl' Rl'] Rm'] jb] (_ & _ & _ & X). exact X.
  - auto.
  - intros c [[[Cl' Rl'] Rm'] jb] Hc (M1 & M2 & M3 & X). wg; [lia|]. wg; [lia|]. pose proof (PM c Hc). pose proof (mono 0 c). pose proof (mono (c + 1) n). apply wp_bind.
    eapply wp_mono with (E := fun e => e = SLIP_INCORRECT_INPUT);
      [| |apply wp_for with (I := fun t '(Cl', Rl', Rm', jb, lr) => zlen Cl' = n /\ zlen Rl' = m /\ zlen Rm' = Z.max m 1 /\ forall k, 0 <= k < t -> 0 <= rd A k < m); [lia|auto|]].
    + intros [[[[Cl2 Rl2] Rm2] jb2] lr2] Y. cbn [wp fst]. exact Y.
    + auto.
    + clear M1 M2 M3 X Cl' Rl' Rm' jb. intros t [[[[Cl' Rl'] Rm'] jb] lr] Ht (M1 & M2 & M3 & X). wg; [lia|]. destruct (Z.ltb_spec (rd A t) 0) as [Y|Y]; [reflexivity|]. destruct (Z.geb_spec (rd A t) m) as [Z|Z]; [reflexivity|]. cbn [orb]. wg; [lia|]. cbv zeta.
      assert (R : forall k, 0 <= k < t + 1 -> 0 <= rd A k < m). { intros k Hk. destruct (Z.eq_dec k t) as [->|Ne]; [lia|apply X; lia]. }
      destruct (Z.eqb_spec (rd Rm' (rd A t)) c) as [Q|Q]; cbn [negb bind]; unfold inc; apply wp_bind; wg; try lia; (apply wp_set; [lia|]); (ws; [lia|]); cbn [wp]; rewrite !zlen_wr; auto.
Qed.
End Bad.

Theorem C70_colamd_rejects_invalid : forall aggressive m n dense_row dense_col p A,
  zlen p = n + 1 -> 
  m < 0 \/ rd p 0 <> 0 \/ rd p n < 0 \/ zlen A < colamd_need m n (rd p n) \/ (exists c, 0 <= c < n /\ rd p (c + 1) < rd p c) \/ (exists k, 0 <= k < rd p n /\ (rd A k < 0 \/ m <= rd A k)) ->
  colamd aggressive m n dense_row dense_col A p = Err SLIP_INCORRECT_INPUT.
Proof.
  intros ag m n dr dc p A Lp H. unfold colamd_need in H. assert (Hn : -1 <= n) by (pose proof (zlen_nonneg p); lia).
  unfold colamd. destruct (Z.ltb_spec m 0) as [X|Hm]; [reflexivity|]. destruct (Z.ltb_spec n 0) as [X|Hn']; [reflexivity|]. cbn [orb]. rewrite !get_rd by lia. cbn [bind].
  destruct (Z.ltb_spec (rd p n) 0) as [X|HZ]; [reflexivity|]. destruct (Z.eqb_spec (rd p 0) 0) as [P0|X]; [|reflexivity]. cbn [orb negb]. cbv zeta.
  destruct (Z.gtb_spec (2 * rd p n + n + 6 * (n + 1) + 4 * (m + 1)) (zlen A)) as [X|LA]; [reflexivity|].
  destruct H as [H|[H|[H|[H|H]]]]; try lia.
  set (k := zlen A - (6 * (n + 1) + 4 * (m + 1))). set (A1 := firstn (Z.to_nat k) A). assert (Hk : 2 * rd p n + n <= k <= zlen A) by (unfold k; lia).
  assert (L1 : zlen A1 = k) by (apply zlen_firstn; lia). assert (E1 : forall j, 0 <= j < k -> rd A1 j = rd A j) by (intros j Hj; apply rd_firstn; exact Hj).
  set (T := skipn (Z.to_nat k) A).
  assert (W : wp (init_rows_cols m n p A1 T) (fun _ => False) (fun e => e = SLIP_INCORRECT_INPUT)).
  { unfold init_rows_cols. apply wp_bind. eapply wp_mono; [|intros e He; exact He|apply (@cols_bad n p Hn' Lp); apply zlen_field; lia]. intros [[[[[Cs Cl] Ct] Co] Cp] Cn] (L3 & PM). apply wp_bind. apply wp_get; [lia|].
    apply wp_bind. eapply wp_mono; [| |apply (@irc_clear_ok m Hm); apply zlen_field; lia]; [|intros e []].
    intros [Rl0 Rm0] (N1 & N2 & _). apply wp_bind.
    eapply wp_mono; [|intros e He; exact He|apply (@count_bad m n p A1 Hn' Lp Cl Rl0 Rm0 L3); auto; lia].
    intros [[[Cl' Rl] Rm] jb] R. exfalso. destruct H as [(c & Hc & X)|(t & Ht & X)]; [specialize (PM c Hc); lia|]. specialize (R t Ht). rewrite E1 in R by lia. lia. }
  destruct (init_rows_cols m n p A1 T) as [st|e| |]; cbn [wp bind] in *; [contradiction|subst e; reflexivity|contradiction|contradiction].
Qed.
(* ... and SLIP_LU_analyze, which ignores the return value, then reports success with the column pointers as the column order *)
Theorem C25_colamd_failure_ignored : forall ol A Ap Ai n o,
  m_kind A = KCSC -> m_m A = n -> m_n A = n -> m_p A = Some Ap -> m_i A = Some Ai -> 0 <= n -> zlen Ap = n + 1 -> 0 <= rd Ap n <= zlen Ai ->
  opt_order o <> ORD_NONE -> opt_order o <> ORD_AMD -> (exists k, 0 <= k < rd Ap n /\ (rd Ai k < 0 \/ n <= rd Ai k)) ->
  exists An, SLIP_LU_analyze ol true true (Some A) o = Ok (SOK, Out An) /\ s_q An = Ap.
Proof.
  intros ol A Ap Ai n o Hk Hm Hn Hp Hi H0 Lp HZ Ho Ho' (t & Ht & HB).
  assert (HN : matrix_nnz true (Some A) = Ok (rd Ap n)).
  { unfold matrix_nnz. cbn [negb]. rewrite Hk. change (KCSC =? KCSC) with true. cbv iota. rewrite Hp, Hn. rewrite (proj2 (Z.ltb_ge n 0) H0). apply get_rd. lia. }
  unfold SLIP_LU_analyze, has_kind. rewrite Hk. change (KCSC =? KCSC) with true. cbn [negb]. rewrite Hm, Hn, Z.eqb_refl. cbn [negb orb]. rewrite HN. unfold analyze_core. rewrite Hp, Hi, Hn. cbn [deref bind].
  rewrite (proj2 (Z.eqb_neq _ _) Ho), (proj2 (Z.eqb_neq _ _) Ho').
  assert (W : wp (let* q0 := memcpy (malloced ol 0 (n + 1)) Ap (n + 1) in let* a2 := memcpy (malloced ol 4 (2 * rd Ap n + 12 * (n + 1) + n)) Ai (rd Ap n) in let* q := colamd_l ol n q0 a2 in Ok (q, 10 * rd Ap n)) (fun st => fst st = Ap) nerr).
  { apply wp_bind. eapply wp_conseq. apply memcpy_all. apply zlen_malloced; lia. auto. intros q0 ->.
    apply wp_bind. eapply wp_conseq. apply (@memcpy_spec Z 0); auto; try lia. rewrite zlen_malloced; lia. intros a2 (La & Ha & _). rewrite zlen_malloced in La by lia.
    unfold colamd_l. rewrite C70_colamd_rejects_invalid; [reflexivity|lia|]. do 5 right. exists t. split; [exact Ht|]. specialize (Ha t Ht). change (rd a2 t = rd Ai t) in Ha. rewrite Ha. exact HB. }
  apply wp_ok_ex in W. destruct W as ((q & e) & -> & X). cbn [fst] in X. subst q. cbn [bind finish fst snd]. destruct (fix_estimate n e e) as [l u]. cbn [finish]. eauto.
Qed.

(* The hypotheses are met: rows in no order within the columns, an empty column 3, an empty row 5, columns with the same pattern, the
   smallest accepted workspace with negative junk in its unused part, so that the garbage collector is run. *)
Definition exCp : list Z := [0; 4; 5; 8; 8; 11; 13; 15; 18].
Definition exCi : list Z := [0; 2; 1; 3;  3;  2; 7; 4;   7; 0; 6;  3; 2;  6; 0;  2; 3; 1].
Definition exC : matrix := mkcsc 8 8 exCp exCi (mk 18 1).
Lemma exC_pattern : valid_pattern 8 8 exCp exCi.
Proof. assert (V : valid_csc 8 8 exCp exCi (mk 18 1)) by (apply valid_cscb_ok; reflexivity). destruct V. constructor; assumption. Qed.
Example C70_ex : valid_pattern 8 8 exCp exCi /\ colamd_need 8 8 (rd exCp 8) = zlen (exCi ++ mk 116 (-9)) /\
  colamd true 8 8 16 16 (exCi ++ mk 116 (-9)) exCp = Ok [1; 5; 7; 2; 0; 4; 6; 3; 0].
Proof. split; [exact exC_pattern|split; vm_compute; reflexivity]. Qed.
Example C70_ex_analyze : exists An, SLIP_LU_analyze exol true true (Some exC) None = Ok (SOK, Out An) /\ is_perm 8 (s_q An).
Proof. apply (@C70_analyze exol exC exCp exCi 8 None); try reflexivity; exact exC_pattern. Qed.
(* a row index outside the matrix; one slot too few; decreasing column pointers *)
Example C70_ex_rejects : colamd true 2 2 16 16 ([0; 2; 1] ++ mk 60 0) [0; 2; 3] = Err SLIP_INCORRECT_INPUT /\
  colamd true 8 8 16 16 (exCi ++ mk 115 (-9)) exCp = Err SLIP_INCORRECT_INPUT /\ colamd true 2 2 16 16 (mk 60 0) [0; 2; 1] = Err SLIP_INCORRECT_INPUT.
Proof.
  split; [|split]; apply C70_colamd_rejects_invalid; try reflexivity.
  - do 5 right. exists 1. split; [split; [discriminate|reflexivity]|right; discriminate].
  - do 3 right. left. reflexivity.
  - do 4 right. left. exists 1. split; [split; [discriminate|reflexivity]|reflexivity].
Qed.
(* SLIP_LU_analyze on a matrix with row index 2 in a 2-by-2 matrix: success, and the "column order" is 0, 2 *)
Example C25_ex_failure_ignored : exists An, SLIP_LU_analyze exol true true (Some (mkcsc 2 2 [0; 2; 3] [0; 2; 1] [1; 1; 1])) None = Ok (SOK, Out An) /\ s_q An = [0; 2; 3].
Proof.
  eapply C25_colamd_failure_ignored with (Ai := [0; 2; 1]) (n := 2); try reflexivity; try discriminate.
  split; discriminate. exists 1. split; [split; [discriminate|reflexivity]|right; discriminate].
Qed.

(* The hypothesis "without duplicates" is needed, and SLIP_LU_analyze does not check it.  On this 20-by-20 matrix, whose columns 0..1 contain
   duplicate row indices, with the dense thresholds COLAMD uses for n = 20 (10 sqrt 20 = 44) and a negative value in the uninitialised part of
   the malloc'ed workspace, the garbage collector (colamd.c:3063-3098) takes an uninitialised entry for a row marker and COLAMD leaves its arrays. *)
Definition exDp : list Z := [0; 3; 8; 12; 14; 18; 20; 24; 27; 31; 35; 37; 41; 44; 46; 50; 54; 58; 61; 65; 69].
Definition exDi : list Z := [6; 9; 6;  15; 17; 19; 15; 15;  0; 2; 6; 12;  16; 18;  0; 5; 10; 12;  9; 19;  12; 15; 16; 19;  1; 17; 18;  0; 4; 11; 13;  2; 6; 9; 18;
  2; 11;  0; 9; 13; 18;  1; 2; 7;  9; 11;  6; 15; 17; 19;  2; 3; 7; 10;  0; 12; 13; 18;  5; 6; 16;  3; 10; 12; 19;  3; 6; 7; 11].
Theorem C70_duplicates_refuted : exists ol A Ap Ai, m_kind A = KCSC /\ m_m A = 20 /\ m_n A = 20 /\ m_p A = Some Ap /\ m_i A = Some Ai /\ zlen Ap = 21 /\ rd Ap 0 = 0 /\
  (forall c, 0 <= c < 20 -> rd Ap c <= rd Ap (c + 1)) /\ rd Ap 20 <= zlen Ai /\ (forall p, 0 <= p < rd Ap 20 -> 0 <= rd Ai p < 20) /\
  SLIP_LU_analyze ol true true (Some A) None = UB.
Proof.
  exists (mkOL (fun _ => 44) (fun _ => 44) (fun _ _ => -1000)), (mkcsc 20 20 exDp exDi (mk 69 1)), exDp, exDi. repeat (split; [reflexivity|]).
  split. { intros c Hc. apply Z.leb_le. exact (@allz_ok 0 20 (fun c => rd exDp c <=? rd exDp (c + 1)) eq_refl c Hc). }
  split; [discriminate|]. split.
  { intros p Hp. pose proof (@allz_ok 0 69 (fun p => (0 <=? rd exDi p) && (rd exDi p <? 20)) eq_refl p Hp) as H. cbv beta in H. apply andb_true_iff in H. lia. }
  vm_compute. reflexivity.
Qed.
