(* AMD, part 21: AMD_order. *)
From Verif Require Import Base Det DetZ Spec MColamd MAmd PCol1 PCol3 PAmd13 PAmd18 PAmd19 PAmd20.
Set Implicit Arguments.
Open Scope Z_scope.
Set Bullet Behavior "Strict Subproofs".

Lemma zlen_block f lo k : 0 <= k -> zlen (block f lo k) = k.
Proof. intros H. unfold block, zlen. rewrite map_length. fold (zlen (zseq lo (lo + k))). rewrite zlen_zseq; lia. Qed.

Theorem amd_order_ok junk aggr n dense0 Ap Ai : jpat n Ap Ai ->
  wp (amd_order junk aggr n dense0 Ap Ai) (fun r => exists P lnz, r = Some (P, lnz) /\ zlen P = n /\ is_perm n P /\ 0 <= lnz /\ 2 * lnz <= n * (n - 1)) nerr.
Proof.
  intros JP. pose proof (jp_n JP) as Hn. pose proof (jp_ap JP) as La. unfold amd_order. rewrite (proj2 (Z.ltb_ge n 0)) by lia. rewrite (proj2 (Z.eqb_neq n 0)) by lia.
  wg; [lia|]. pose proof (@jap n Ap Ai JP 0 n ltac:(lia) ltac:(lia)) as Z0. rewrite (jp_0 JP) in Z0. rewrite (proj2 (Z.ltb_ge (rd Ap n) 0)) by lia.
  apply wp_bind. eapply wp_conseq; [apply (valid_ok JP)|]. intros b Hb. apply wp_bind. apply wp_conseq with (Q := fun '(Cp, Ci) => spat n Cp Ci).
  { destruct b; [eapply wp_conseq; [apply (@preprocess_ok n Ap Ai JP); apply zlen_block; lia|]; intros [Rp Ri] (X & _); exact X|cbn; apply Hb; reflexivity]. }
  intros [Cp Ci] SP. apply wp_bind. eapply wp_conseq; [apply (@aat_ok n Cp Ci SP); apply zlen_block; lia|]. intros [Len nzaat] (D & HD & LL & HL & ->).
  assert (NN : 0 <= sumz n (rd Len)) by (apply sumz_nonneg; intros k Hk; rewrite HL by exact Hk; apply cnt_nn).
  pose proof (Z.div_pos (sumz n (rd Len)) 5 NN ltac:(lia)) as DP.
  apply wp_bind. eapply wp_conseq; [apply (@build_ok n Cp Ci SP (sumz n (rd Len) + sumz n (rd Len) / 5 + 7 * n - 6 * n)) with (D := D); try apply zlen_block; auto; lia|].
  intros [[Pe Iw] pfree] (-> & G). apply wp_bind. eapply wp_conseq; [apply (amd_2_ok aggr dense0 G)|]. intros [P lnz] (X1 & X2 & X3). cbn [wp]. exists P, lnz. auto.
Qed.
