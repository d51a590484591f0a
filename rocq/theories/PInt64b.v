(* The analysis with int64_t and double arithmetic, and the bounds on the sizes of A, L and U that the theorems on int64_t need. *)
From Verif Require Import Base Spec MFactor MSolve MMatrix MApi ApiSpec PFloat PApi PAmd1 MInt64 PInt64.
Set Implicit Arguments.
Open Scope Z_scope.

(* a pattern without duplicates has at most m*n entries *)
Lemma col_len m n Ap Ai c : valid_pattern m n Ap Ai -> 0 <= c < n -> rd Ap (c + 1) - rd Ap c <= m.
Proof.
  intros V Hc. pose proof (vp_m V).
  assert (M0 : forall k, Z.of_nat k <= n -> 0 <= rd Ap (Z.of_nat k)).
  { induction k; intros Hk'. simpl. rewrite (vp_0 V). lia.
    replace (Z.of_nat (S k)) with (Z.of_nat k + 1) by lia. pose proof (vp_mono V (c := Z.of_nat k) ltac:(lia)). lia. }
  assert (M1 : forall k, Z.of_nat k <= n - c - 1 -> rd Ap (c + 1) <= rd Ap (c + 1 + Z.of_nat k)).
  { induction k; intros Hk'. simpl. rewrite Z.add_0_r. lia.
    replace (c + 1 + Z.of_nat (S k)) with (c + 1 + Z.of_nat k + 1) by lia. pose proof (vp_mono V (c := c + 1 + Z.of_nat k) ltac:(lia)). lia. }
  specialize (M0 (Z.to_nat c) ltac:(lia)). rewrite Z2Nat.id in M0 by lia.
  specialize (M1 (Z.to_nat (n - c - 1)) ltac:(lia)). rewrite Z2Nat.id in M1 by lia. replace (c + 1 + (n - c - 1)) with n in M1 by lia.
  assert (L : Z.of_nat (length (map (fun p => rd Ai p) (zseq (rd Ap c) (rd Ap (c + 1))))) <= Z.max 0 m).
  { apply nodup_len.
    - assert (G : forall k, Z.of_nat k <= rd Ap (c + 1) - rd Ap c -> NoDup (map (fun p => rd Ai p) (zseq (rd Ap c) (rd Ap c + Z.of_nat k)))).
      { induction k; intros Hk. rewrite zseq_nil by lia. constructor.
        replace (rd Ap c + Z.of_nat (S k)) with (rd Ap c + Z.of_nat k + 1) by lia. rewrite zseq_snoc, map_app by lia. simpl.
        apply NoDup_Add with (a := rd Ai (rd Ap c + Z.of_nat k)) (l := map (fun p => rd Ai p) (zseq (rd Ap c) (rd Ap c + Z.of_nat k))).
        - replace (map (fun p => rd Ai p) (zseq (rd Ap c) (rd Ap c + Z.of_nat k))) with (map (fun p => rd Ai p) (zseq (rd Ap c) (rd Ap c + Z.of_nat k)) ++ []) at 1 by apply app_nil_r.
          apply Add_app.
        - split. apply IHk; lia. intros H0. apply in_map_iff in H0. destruct H0 as (p & E & Hp). apply PInt64.in_zseq in Hp.
          apply (vp_dup V Hc) in E; lia. }
      pose proof (vp_mono V Hc). specialize (G (Z.to_nat (rd Ap (c + 1) - rd Ap c)) ltac:(lia)). rewrite Z2Nat.id in G by lia.
      replace (rd Ap c + (rd Ap (c + 1) - rd Ap c)) with (rd Ap (c + 1)) in G by lia. exact G.
    - intros x Hx. apply in_map_iff in Hx. destruct Hx as (p & <- & Hp). apply PInt64.in_zseq in Hp. apply (vp_i V). lia. }
  rewrite map_length in L. unfold zseq in L. rewrite map_length, seq_length in L. lia.
Qed.
Lemma nnz_le m n Ap Ai : valid_pattern m n Ap Ai -> 0 <= rd Ap n <= m * n.
Proof.
  intros V. pose proof (vp_n V). pose proof (vp_m V).
  assert (M0 : forall k, Z.of_nat k <= n -> 0 <= rd Ap (Z.of_nat k) <= m * Z.of_nat k).
  { induction k; intros Hk'. simpl. rewrite (vp_0 V). lia.
    replace (Z.of_nat (S k)) with (Z.of_nat k + 1) by lia. pose proof (vp_mono V (c := Z.of_nat k) ltac:(lia)).
    pose proof (@col_len m n Ap Ai (Z.of_nat k) V ltac:(lia)). lia. }
  specialize (M0 (Z.to_nat n) ltac:(lia)). rewrite Z2Nat.id in M0 by lia. lia.
Qed.

Lemma d_of_exact z : Z.abs z < 2 ^ 53 -> d_of z = FFin z 0.
Proof. intros H. apply rnd_fin_id. apply digits_le; lia. Qed.

(* an int64_t rounded to a double is on the same side of a small integer *)
Lemma d_gt_small e k : - 2 ^ 52 <= e -> 0 <= k <= 2 ^ 52 -> d_gt (d_of e) (FFin k 0) = (e >? k).
Proof.
  intros He Hk. destruct (Z_lt_le_dec e (2 ^ 53)) as [S|S].
  - rewrite d_of_exact by lia. unfold d_gt, fl_q. cbn [Z.leb Z.compare]. rewrite !Z.pow_0_r, !Z.mul_1_r. rewrite Z.gtb_ltb.
    destruct (Z.ltb_spec k e).
    + apply negb_true_iff. apply not_true_iff_false. intros F. apply Qle_bool_iff in F. rewrite <- Zle_Qle in F. lia.
    + apply negb_false_iff. apply Qle_bool_iff. rewrite <- Zle_Qle. lia.
  - assert (E0 : e <> 0) by lia. destruct (digits_bounds E0) as (D1 & D2 & D3). rewrite Z.abs_eq in * by lia.
    assert (D : 53 < digits e). { destruct (Z_lt_le_dec 53 (digits e)); auto. assert (2 ^ digits e <= 2 ^ 53) by (apply Z.pow_le_mono_r; lia). lia. }
    replace (e >? k) with true by (symmetry; rewrite Z.gtb_ltb; apply Z.ltb_lt; lia).
    unfold d_of, rnd_fin. destruct (Z.leb_spec (digits e - 53) 0); [lia|]. set (d := digits e - 53) in *. set (q := rdiv RNDN e (2 ^ d)).
    assert (P : 0 < 2 ^ d) by (apply Z.pow_pos_nonneg; lia).
    assert (Q1 : 2 ^ 52 <= q).
    { unfold q. pose proof (rdiv_bounds RNDN e P) as [B _]. etransitivity; [|exact B]. apply Z.div_le_lower_bound; auto.
      rewrite <- pow2_split by lia. replace (d + 52) with (digits e - 1) by (unfold d; lia). lia. }
    assert (D2' : 2 <= 2 ^ d). { replace d with (Z.succ (d - 1)) by lia. rewrite Z.pow_succ_r by lia. assert (0 < 2 ^ (d - 1)) by (apply Z.pow_pos_nonneg; lia). lia. }
    unfold norm. destruct (Z.leb_spec (digits q) 53).
    + unfold d_gt, fl_q. destruct (Z.leb_spec 0 (0 + d)); [|lia]. cbn [Z.leb Z.compare].
      apply negb_true_iff. apply not_true_iff_false. intros F. apply Qle_bool_iff in F. rewrite <- Zle_Qle in F. rewrite Z.add_0_l in F. rewrite Z.pow_0_r in F. nia.
    + assert (Q2 : 2 ^ 53 <= q). { destruct (Z_lt_le_dec q (2 ^ 53)); auto. assert (digits q <= 53) by (apply digits_le; lia). lia. }
      assert (Q3 : 2 ^ 52 <= q / 2) by (apply Z.div_le_lower_bound; lia).
      unfold d_gt, fl_q. destruct (Z.leb_spec 0 (0 + d + 1)); [|lia]. cbn [Z.leb Z.compare].
      assert (2 <= 2 ^ (0 + d + 1)). { rewrite Z.add_0_l, Z.pow_add_r by lia. rewrite Z.pow_1_r. lia. }
      apply negb_true_iff. apply not_true_iff_false. intros F. apply Qle_bool_iff in F. rewrite <- Zle_Qle in F. rewrite Z.pow_0_r in F. nia.
Qed.

Lemma fix_estimate_eq n e : 0 <= n <= 2 ^ 26 -> - 1 <= e <= 2 ^ 61 -> fix_estimate64 n e e = Ok (fix_estimate n e e).
Proof.
  intros Hn He. assert (N : 0 <= n * n <= 2 ^ 52) by (change (2 ^ 52) with (2 ^ 26 * 2 ^ 26); nia).
  unfold fix_estimate64, fix_estimate.
  assert (E1 : d_mul (d_of n) (d_of n) = FFin (n * n) 0).
  { rewrite d_of_exact by lia. unfold d_mul, mpfr_mul. apply rnd_fin_id. apply digits_le; lia. }
  rewrite E1, d_gt_small by lia.
  assert (E2 : d_ceil (d_mul (d_mul d_half (d_of n)) (d_of n)) = (n * n + 1) / 2).
  { rewrite d_of_exact by lia. assert (E3 : d_mul d_half (FFin n 0) = FFin (1 * n) (-1 + 0)) by (apply rnd_fin_id; apply digits_le; lia).
    rewrite E3. assert (E4 : d_mul (FFin (1 * n) (-1 + 0)) (FFin n 0) = FFin (1 * n * n) (-1 + 0 + 0)) by (apply rnd_fin_id; apply digits_le; rewrite ?Z.mul_1_l; lia).
    rewrite E4. cbn [d_ceil Z.add Z.leb Z.compare Z.opp].
    change (0 <=? -1 + 0 + 0) with false. change (2 ^ (- (-1 + 0 + 0))) with 2. rewrite Z.mul_1_l.
    pose proof (Z.div_mod (n * n + 1) 2 ltac:(lia)). pose proof (Z.mod_pos_bound (n * n + 1) 2 ltac:(lia)).
    pose proof (Z.div_mod (- (n * n)) 2 ltac:(lia)). pose proof (Z.mod_pos_bound (- (n * n)) 2 ltac:(lia)). change (2 ^ 1) with 2. lia. }
  rewrite E2. assert (H2 : 0 <= (n * n + 1) / 2 <= 2 ^ 52) by (split; [apply Z.div_pos; lia|apply Z.div_le_upper_bound; lia]).
  destruct (e >? n * n); cbn [bind].
  - rewrite ck_ok by num. cbn [bind]. destruct ((n * n + 1) / 2 <? n); cbn [bind]; [|reflexivity]. rewrite ck_ok by num. reflexivity.
  - destruct (e <? n); cbn [bind]; [|reflexivity]. rewrite ck_ok by num. reflexivity.
Qed.

Lemma analyze_core_eq ol order A Ap Ai n : m_n A = n -> m_p A = Some Ap -> m_i A = Some Ai -> valid_pattern n n Ap Ai -> n <= 2 ^ 26 ->
  analyze_core64 ol order A (rd Ap n) = analyze_core ol order A (rd Ap n).
Proof.
  intros Hn Hp Hi V H26. pose proof (vp_n V). pose proof (nnz_le V) as HZ.
  assert (N : 0 <= n * n <= 2 ^ 52) by (change (2 ^ 52) with (2 ^ 26 * 2 ^ 26); nia).
  unfold analyze_core64, analyze_core. rewrite Hn, Hp, Hi. cbn [deref]. rewrite (@ck_ok (n + 1)) by num. cbn [bind].
  assert (B : forall k, 0 <= k <= 2 ^ 60 -> bytes k 8 = Ok tt).
  { intros k Hk. unfold bytes. destruct (Z.leb_spec 0 k); [|lia]. destruct (Z.ltb_spec (k * 8) (2 ^ 64)); auto. lia. }
  rewrite B by lia. cbn [bind]. destruct (order =? ORD_NONE).
  - rewrite ck_ok by num. cbn [bind snd fst]. rewrite fix_estimate_eq by num. cbn [bind]. destruct (fix_estimate n (10 * rd Ap n) (10 * rd Ap n)). reflexivity.
  - destruct (order =? ORD_AMD).
    + assert (W : exists r, amd_l_order ol n Ap Ai = Ok r /\ - 1 <= snd r <= 2 ^ 52).
      { destruct (Z.eq_dec n 0) as [->|N0].
        - exists (malloced ol 0 (0 + 1), -1). split; [reflexivity|cbn; lia].
        - pose proof (@amd_l_order_ok ol n Ap Ai V) as W. apply wp_ok_ex in W. destruct W as (r & E & _ & W). exists r. split; auto. specialize (W N0). nia. }
      destruct W as (r & -> & W). cbn [bind].
      rewrite ck_ok by num. cbn [bind fst snd]. rewrite fix_estimate_eq by num. cbn [bind]. destruct (fix_estimate n (snd r) (snd r)). reflexivity.
    + rewrite (@ck_ok (2 * rd Ap n)) by num. cbn [bind]. rewrite (@ck_ok (6 * (n + 1))) by num. cbn [bind].
      rewrite (@ck_ok (2 * rd Ap n + 6 * (n + 1))) by num. cbn [bind].
      rewrite (@ck_ok (2 * rd Ap n + 6 * (n + 1) + 6 * (n + 1))) by num. cbn [bind].
      rewrite (@ck_ok (2 * rd Ap n + 6 * (n + 1) + 6 * (n + 1) + n)) by num. cbn [bind]. rewrite B by num. cbn [bind].
      replace (2 * rd Ap n + 6 * (n + 1) + 6 * (n + 1) + n) with (2 * rd Ap n + 12 * (n + 1) + n) by lia.
      destruct (memcpy (malloced ol 0 (n + 1)) Ap (n + 1)); cbn [bind]; auto.
      destruct (memcpy (malloced ol 4 (2 * rd Ap n + 12 * (n + 1) + n)) Ai (rd Ap n)); cbn [bind]; auto.
      destruct (colamd_l ol n a a0); cbn [bind]; auto. rewrite ck_ok by num. cbn [bind fst snd]. rewrite fix_estimate_eq by num. cbn [bind].
      destruct (fix_estimate n (10 * rd Ap n) (10 * rd Ap n)). reflexivity.
Qed.
