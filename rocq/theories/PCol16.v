(* COLAMD, part 16: the whole function. *)
From Verif Require Import Base Det DetZ Spec MColamd PCol1 PCol2 PCol3 PCol12 PCol13 PCol14 PCol15.
Set Implicit Arguments.
Open Scope Z_scope.
Set Bullet Behavior "Strict Subproofs".

Lemma rd_firstn k l i : 0 <= i < k -> rd (firstn (Z.to_nat k) l) i = rd l i.
Proof.
  intros H. unfold rd. assert (HL : (Z.to_nat i < Z.to_nat k)%nat) by lia. revert HL. generalize (Z.to_nat i), (Z.to_nat k). clear. intros a b. revert a l. induction b as [|b IH]; intros a l Hl; [lia|]. destruct l, a; cbn; auto. apply IH. lia.
Qed.
Lemma zlen_firstn (l : list Z) k : 0 <= k <= zlen l -> zlen (firstn (Z.to_nat k) l) = k.
Proof. unfold zlen. rewrite firstn_length. lia. Qed.

Theorem colamd_ok aggressive m n dense_row dense_col A p : 0 <= m -> 0 <= n -> zlen p = n + 1 -> rd p 0 = 0 -> (forall x, 0 <= x < n -> rd p x <= rd p (x + 1)) ->
  (forall j, 0 <= j < rd p n -> 0 <= rd A j < m) -> (forall x i j, 0 <= x < n -> rd p x <= i < rd p (x + 1) -> rd p x <= j < rd p (x + 1) -> rd A i = rd A j -> i = j) ->
  2 * rd p n + n + 6 * (n + 1) + 4 * (m + 1) <= zlen A ->
  wp (colamd aggressive m n dense_row dense_col A p) (fun q => is_perm n q /\ zlen q = n + 1) nerr.
Proof.
  intros Hm Hn Lp P0 PM AR AI LA. assert (N0 : 0 <= rd p n) by (rewrite <- P0; apply (@mono_le (rd p) n PM); lia).
  unfold colamd. rewrite (proj2 (Z.ltb_ge m 0)), (proj2 (Z.ltb_ge n 0)) by lia. cbn [orb]. wg; [lia|]. wg; [lia|]. rewrite P0. rewrite (proj2 (Z.ltb_ge (rd p n) 0)) by lia. cbn [orb negb Z.eqb]. cbv zeta.
  destruct (Z.gtb_spec (2 * rd p n + n + 6 * (n + 1) + 4 * (m + 1)) (zlen A)) as [X|_]; [lia|].
  set (k := zlen A - (6 * (n + 1) + 4 * (m + 1))). set (A1 := firstn (Z.to_nat k) A). assert (Hk : 2 * rd p n + n <= k <= zlen A) by (unfold k; lia).
  assert (L1 : zlen A1 = k) by (apply zlen_firstn; lia). assert (E1 : forall j, 0 <= j < k -> rd A1 j = rd A j) by (intros j Hj; apply rd_firstn; exact Hj).
  apply wp_bind. eapply wp_conseq.
  { eapply (@init_rows_cols_ok m n p A1 Hm Hn Lp P0 PM).
    - intros j Hj. unfold nnz in Hj. rewrite E1 by lia. auto.
    - intros x Hx i j Hi Hj E. pose proof (@mono_le (rd p) n PM 0 x). pose proof (@mono_le (rd p) n PM (x + 1) n). rewrite !E1 in E by lia. apply (AI x); auto; lia.
    - unfold nnz. lia. }
  intros [ar p'] (Lp' & LA' & I & LRd & ER & AC & ECt & L2 & L3 & L4). destruct ar as [A' Rs Rl Rd Rm Cs Cl Ct Co Cp Cn]. cbn [a_A a_Rs a_Rl a_Rd a_Rm a_Cs a_Cl a_Ct a_Co a_Cp a_Cn] in *. unfold nnz in I.
  apply wp_bind. eapply wp_conseq; [apply (@init_scoring_ok m n (rd p n) A' Rs Rl Rd Rm Cs Cl I LRd ER AC dense_row dense_col Ct Co Cp Cn p'); auto; lia|].
  intros [[[ar h] n2] mx] (J & Lh). eapply find_ordering_ok; eassumption.
Qed.
