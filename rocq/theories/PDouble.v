(* Correct rounding of rationals to IEEE doubles: subnormal numbers and overflow included. *)
From Coq Require Import QArith Qabs Qpower Lqa.
From Verif Require Import Base DetZ Spec SumQ MSolve PSolve PSolve2 MMatrix MatSpec PApi PMat PFloat PCopy PConv PRound.
Set Implicit Arguments.
Set Bullet Behavior "Strict Subproofs".
Open Scope Z_scope.

Lemma norm_fin p m e : 1 <= p -> Z.abs m <= 2 ^ p ->
  exists m' e', norm p m e = FFin m' e' /\ Z.abs m' < 2 ^ p /\ e <= e' /\ (inject_Z m' * 2 ^ e' == inject_Z m * 2 ^ e)%Q /\ (m' <? 0) = (m <? 0).
Proof.
  intros Hp Hm. unfold norm. destruct (Z.leb_spec (digits m) p) as [H|H].
  - exists m, e. repeat split; try lia. apply digits_le; auto. lia.
  - assert (A : Z.abs m = 2 ^ p). { assert (~ Z.abs m < 2 ^ p). { intros G. apply digits_le in G; lia. } lia. }
    assert (P2 : 2 ^ p = 2 * 2 ^ (p - 1)). { replace p with (1 + (p - 1)) at 1 by lia. rewrite Z.pow_add_r by lia. reflexivity. }
    assert (PP : 0 < 2 ^ (p - 1)) by (apply Z.pow_pos_nonneg; lia).
    assert (M : m = 2 * (m / 2)). { apply Z_div_exact_full_2. lia. destruct (Z.abs_eq_or_opp m).
      - replace m with (2 ^ (p - 1) * 2) by lia. apply Z.mod_mul. lia.
      - replace m with (- 2 ^ (p - 1) * 2) by lia. apply Z.mod_mul. lia. }
    exists (m / 2), (e + 1). split; [reflexivity|]. split; [lia|]. split; [lia|]. split.
    + rewrite M at 2. rewrite inject_Z_mult, pow_add. change (inject_Z 2) with 2%Q. ring.
    + destruct (Z.ltb_spec (m / 2) 0), (Z.ltb_spec m 0); lia.
Qed.

(* a finite double is below 2^1024 exactly when its number of digits and its exponent say so *)
Lemma overflow_iff m e : m <> 0 -> (2 ^ 1024 <= Qabs (inject_Z m * 2 ^ e))%Q <-> 1024 < digits m + e.
Proof.
  intros Hm. destruct (digits_bounds Hm) as (D1 & D2 & D3). pose proof (pow_pos e) as He.
  rewrite Qabs_Qmult, Qabs_Z, (Qabs_pos (2 ^ e)) by lra.
  rewrite Zle_Qle in D2. rewrite Zlt_Qlt in D3. rewrite <- pow_Z in D2, D3 by lia. split; intros H.
  - apply pow_lt_inv. rewrite pow_add. nra.
  - apply Qle_trans with (2 ^ (digits m - 1 + e))%Q. apply pow_le. lia. rewrite pow_add. nra.
Qed.

Lemma double_rounding r e t m q x : -1074 <= e -> (Qabs t < 2 ^ 53)%Q -> (2 ^ 52 <= Qabs t)%Q \/ e = -1074 -> rounded r t m ->
  (q == t * 2 ^ e)%Q -> (x == inject_Z m * 2 ^ e)%Q -> double_grid x -> rounding r double_grid double_tie q x.
Proof.
  intros He Ht Hs Hr Hq Hx HF. pose proof (pow_pos e) as Hpe. apply (@round_to r 53 e t m); auto; [lia| |].
  - intros y (k & f & H1 & H2 & H3). destruct Hs as [Hs|Hs].
    + assert (R : representable 53 y) by (exists k, f; auto). destruct (@grid 53 e y ltac:(lia) R) as [G|G]; [left|right]; auto.
    + right. exists (k * 2 ^ (f - e)). rewrite inject_Z_mult, <- pow_Z by lia. rewrite H3. rewrite <- Qmult_assoc, <- pow_add.
      replace (f - e + e) with f by lia. reflexivity.
  - intros ->. intros e' K0 K1 K2 K3. assert (e' = e).
    { rewrite Hq in K1, K2. rewrite Qabs_Qmult, (Qabs_pos (2 ^ e)) in K1, K2 by lra. pose proof (pow_pos e') as Hpe'.
      assert (G1 : (2 ^ 52 <= Qabs t)%Q -> e < e' + 1). { intros G. assert (52 + e < 53 + e'). { apply pow_lt_inv. rewrite !pow_add. nra. } lia. }
      assert (G2 : (2 ^ 52 * 2 ^ e' <= Qabs t * 2 ^ e)%Q -> e' < e + 1). { intros G. assert (52 + e' < 53 + e). { apply pow_lt_inv. rewrite !pow_add. nra. } lia. }
      destruct Hs as [Hs|Hs], K1 as [K1|K1]; try specialize (G1 Hs); try specialize (G2 K1); lia. }
    subst e'. exists m. split; auto. apply (@tie_half e t m q x); auto.
Qed.

Lemma shl_le n d e e' : 0 < d -> e <= e' -> Z.abs (fst (shl n d e')) * snd (shl n d e) <= Z.abs (fst (shl n d e)) * snd (shl n d e').
Proof.
  intros Hd He. unfold shl. destruct (Z.leb_spec 0 e), (Z.leb_spec 0 e'); cbn [fst snd]; try lia.
  - pose proof (Z.pow_le_mono_r 2 e e'). nia.
  - rewrite Z.abs_mul. pose proof (Z.pow_pos_nonneg 2 (- e)). pose proof (Z.pow_pos_nonneg 2 e'). assert (1 <= 2 ^ (- e) * 2 ^ e') by nia. nia.
  - rewrite !Z.abs_mul. pose proof (Z.pow_le_mono_r 2 (- e') (- e)). assert (0 < 2 ^ (- e')) by (apply Z.pow_pos_nonneg; lia). nia.
Qed.

Theorem dbl_q_correct r inf q : double_rounded r inf q (dbl_q r inf q).
Proof.
  unfold dbl_q. destruct (Z.eqb_spec (Qnum q) 0) as [E|E].
  - assert (Q0 : (q == 0)%Q) by (unfold Qeq; simpl; lia). exists 0%Q. split; [|split].
    + apply rounding_self; [lra| |].
      * exists 0, 0. repeat split. lia.
      * intros e0 _ _ _ K. exfalso. revert K. apply not_tie. lra.
    + intros _. exists 0%Q. split; reflexivity.
    + intros H. exfalso. revert H. change (Qabs 0) with 0%Q. pose proof (pow_pos 1024). lra.
  - pose proof (@exp_q_spec 53 (Qnum q) (Z.pos (Qden q)) ltac:(lia) E ltac:(lia)) as H. set (e0 := exp_q 53 (Qnum q) (Z.pos (Qden q))) in *.
    destruct (shl (Qnum q) (Z.pos (Qden q)) e0) as [a0 b0] eqn:ES0. destruct H as (H1 & H2 & H3).
    set (e := Z.max e0 (-1074)). pose proof (@shl_pos (Qnum q) (Z.pos (Qden q)) e ltac:(lia)) as HB.
    pose proof (@shl_le (Qnum q) (Z.pos (Qden q)) e0 e ltac:(lia) ltac:(lia)) as HLE. rewrite ES0 in HLE. cbn [fst snd] in HLE.
    destruct (shl (Qnum q) (Z.pos (Qden q)) e) as [a b] eqn:ES. cbn [fst snd] in *.
    assert (HV : (q == (a # Z.to_pos b) * 2 ^ e)%Q) by (eapply shl_val; eauto).
    assert (HA : Z.abs a < 2 ^ 53 * b) by nia.
    assert (HA2 : 2 ^ 52 * b <= Z.abs a \/ e = -1074). { unfold e. destruct (Z.max_spec e0 (-1074)) as [[G1 G2]|[G1 G2]]; [right; auto|left]. fold e in G2. rewrite G2 in ES. rewrite ES in ES0. injection ES0 as -> ->. exact H2. }
    destruct (@norm_fin 53 (rdiv r a b) e ltac:(lia)) as (m' & e' & HN & N1 & N2 & N3 & N4). { apply rdiv_abs; auto. lia. lia. }
    rewrite HN. pose proof (@rdiv_rounded r a b HB) as HR.
    assert (HD : double_grid (inject_Z m' * 2 ^ e')). { exists m', e'. split; auto. split; [lia|reflexivity]. }
    exists (inject_Z m' * 2 ^ e')%Q. split; [|split].
    + apply (@double_rounding r e (a # Z.to_pos b) (rdiv r a b)); auto; [lia| |].
      * rewrite pow_Z by lia. destruct b as [|b|b]; try lia. unfold Qlt, Qabs, inject_Z. cbn [Qnum Qden Z.to_pos]. lia.
      * destruct HA2 as [HA2|HA2]; [left|right; auto]. rewrite pow_Z by lia. destruct b as [|b|b]; try lia. unfold Qle, Qabs, inject_Z. cbn [Qnum Qden Z.to_pos]. lia.
    + intros HX. unfold dbl_overflow. destruct (Z.eqb_spec m' 0) as [->|Hm].
      { rewrite andb_false_r. destruct (fl_q_val 0 e') as (x' & F1 & F2). exists x'. auto. }
      pose proof (@overflow_iff m' e' Hm) as HO. destruct (Z.ltb_spec 1024 (digits m' + e')) as [G|G]. { apply HO in G. lra. }
      cbn [andb]. destruct (fl_q_val m' e') as (x' & F1 & F2). exists x'. auto.
    + intros HX. unfold dbl_overflow. destruct (Z.eqb_spec m' 0) as [->|Hm].
      { exfalso. revert HX. assert (inject_Z 0 * 2 ^ e' == 0)%Q as -> by (change (inject_Z 0) with 0%Q; ring). pose proof (pow_pos 1024). change (Qabs 0) with 0%Q. lra. }
      pose proof (@overflow_iff m' e' Hm) as HO. destruct (Z.ltb_spec 1024 (digits m' + e')) as [G|G]. 2: { apply HO in HX. lia. }
      cbn [andb negb]. rewrite N4 in *.
      assert (SG : (rdiv r a b <? 0) = (Qnum q <? 0)).
      { assert (SA : (a <? 0) = (Qnum q <? 0)).
        { unfold shl in ES. destruct (0 <=? e) eqn:EE; injection ES as <- <-; auto. pose proof (Z.pow_pos_nonneg 2 (- e)).
          apply Z.leb_gt in EE. destruct (Z.ltb_spec (Qnum q * 2 ^ (- e)) 0), (Z.ltb_spec (Qnum q) 0); nia. }
        rewrite <- SA. assert (RN : rdiv r a b <> 0). { intros RZ. rewrite RZ in *. assert (inject_Z m' * 2 ^ e' == 0)%Q as Z0. { rewrite N3. change (inject_Z 0) with 0%Q. ring. } rewrite Z0 in HX. revert HX. pose proof (pow_pos 1024). change (Qabs 0) with 0%Q. lra. }
        pose proof (rdiv_bounds r a HB) as [B1 B2].
        destruct (Z.ltb_spec (rdiv r a b) 0), (Z.ltb_spec a 0); try lia.
        - pose proof (Z.div_pos a b). lia.
        - assert (0 <= - a / b) by (apply Z.div_pos; lia). lia. }
      assert (QS : (Qnum q <? 0) = true <-> (q < 0)%Q). { rewrite Z.ltb_lt. unfold Qlt. simpl. lia. }
      rewrite SG. split; intros HQ.
      * destruct (Qnum q <? 0). { assert (q < 0)%Q by (apply QS; auto). lra. } destruct inf, r; reflexivity.
      * apply QS in HQ. rewrite HQ. destruct inf, r; reflexivity.
Qed.

Lemma double_rounded_eq r inf q q' f : (q == q')%Q -> double_rounded r inf q f -> double_rounded r inf q' f.
Proof.
  intros E (x & [HF H1] & H2 & H3). exists x. split; [|split; auto].
  - split; auto. destruct r.
    + destruct H1 as [G1 G2]. split. { intros y Hy. rewrite <- E. apply G1; auto. } { intros e K0 K1 K2 K3. rewrite <- E in K1, K2, K3. apply G2; auto. }
    + destruct H1 as [G1 G2]. split; intros S; rewrite <- E in S. apply (below_eq E (Qeq_refl x)); auto. apply (above_eq E (Qeq_refl x)); auto.
    + apply (above_eq E (Qeq_refl x)); auto.
    + apply (below_eq E (Qeq_refl x)); auto.
    + destruct H1 as [G1 G2]. split; intros S; rewrite <- E in S. apply (above_eq E (Qeq_refl x)); auto. apply (below_eq E (Qeq_refl x)); auto.
  - intros G. rewrite <- E. auto.
Qed.

(* the conversion of a rational to int64 through a double: undefined exactly when the double is 2^63 *)
Lemma not_2_63 q : ~ (inject_Z (2 ^ 63) <= q < inject_Z (2 ^ 63 + 2 ^ 11))%Q ->
  match fl_q (mpq_get_d q) with Some v => ~ (v == inject_Z (2 ^ 63))%Q | None => True end.
Proof.
  intros HB. destruct (dbl_q_correct RNDZ true q) as (x & [XF [X1 X2]] & H1 & H2). fold (mpq_get_d q) in H1, H2.
  destruct (fl_q (mpq_get_d q)) as [v|] eqn:EV; [|exact I]. intros V.
  assert (G0 : double_grid 0) by (exists 0, 0; repeat split; lia).
  assert (XV : (x == v)%Q).
  { destruct (Qlt_le_dec (Qabs x) (2 ^ 1024)) as [L|L].
    - destruct (H1 L) as (x' & E & Ex). injection E as <-. symmetry. auto.
    - destruct (H2 L) as [P1 P2]. destruct (Q_dec q 0) as [[S|S]|S].
      + rewrite (P2 S) in EV. discriminate.
      + rewrite (P1 S) in EV. discriminate.
      + exfalso. destruct X1 as [Y1 Y2]; [lra|]. destruct X2 as [Y3 Y4]; [lra|]. assert (X0 : (x == 0)%Q) by lra. rewrite X0 in L. revert L. change (Qabs 0) with 0%Q. pose proof (pow_pos 1024). lra. }
  assert (P63 : (0 < inject_Z (2 ^ 63))%Q) by reflexivity.
  destruct (Qlt_le_dec q 0) as [S|S].
  - destruct X2 as [Y1 Y2]; [lra|]. specialize (Y2 0%Q G0). lra.
  - destruct X1 as [Y1 Y2]; [lra|]. apply HB. split; [lra|]. apply Qnot_le_lt. intros L.
    assert (inject_Z (2 ^ 63 + 2 ^ 11) <= x)%Q.
    { apply Y2; auto. exists (2 ^ 52 + 1), 11. repeat split; lia. }
    assert (inject_Z (2 ^ 63) < inject_Z (2 ^ 63 + 2 ^ 11))%Q by reflexivity. lra.
Qed.
