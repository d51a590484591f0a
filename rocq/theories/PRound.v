(* Correct rounding of rationals to floating-point numbers, and of doubles to int64. *)
From Coq Require Import QArith Qabs Qpower Lqa.
From Verif Require Import Base DetZ Spec SumQ MSolve PSolve PSolve2 MMatrix MatSpec PApi PMat PFloat PCopy PConv.
Set Implicit Arguments.
Set Bullet Behavior "Strict Subproofs".
Open Scope Z_scope.

Lemma pow_pos e : (0 < 2 ^ e)%Q.
Proof. apply Qpower_0_lt. reflexivity. Qed.
Lemma pow_ne e : ~ (2 ^ e == 0)%Q.
Proof. pose proof (pow_pos e). lra. Qed.
Lemma pow_add a b : (2 ^ (a + b) == 2 ^ a * 2 ^ b)%Q.
Proof. apply Qpower_plus. discriminate. Qed.
Lemma pow_Z e : 0 <= e -> (2 ^ e == inject_Z (2 ^ e))%Q.
Proof. intros. now rewrite Zpower_Qpower. Qed.
Lemma pow_le a b : a <= b -> (2 ^ a <= 2 ^ b)%Q.
Proof.
  intros H. replace b with (a + (b - a)) by lia. rewrite pow_add, (@pow_Z (b - a)) by lia.
  assert (1 <= inject_Z (2 ^ (b - a)))%Q. { change 1%Q with (inject_Z 1). rewrite <- Zle_Qle. pose proof (Z.pow_pos_nonneg 2 (b - a)). lia. }
  pose proof (pow_pos a). nra.
Qed.

(* a number with p digits is either smaller than 2^(p-1) units of 2^e or a multiple of 2^e *)
Lemma grid p e y : 1 <= p -> representable p y ->
  (Qabs y < 2 ^ (p - 1 + e))%Q \/ exists k, (y == inject_Z k * 2 ^ e)%Q.
Proof.
  intros Hp (m & f & Hm & Hy). destruct (Z_lt_dec f e) as [H|H].
  - left. rewrite Hy, Qabs_Qmult, Qabs_Z, (Qabs_pos (2 ^ f)) by (pose proof (pow_pos f); lra).
    replace (p - 1 + e) with (p + (e - 1)) by lia. rewrite pow_add.
    assert (inject_Z (Z.abs m) < 2 ^ p)%Q. { rewrite pow_Z by lia. now rewrite <- Zlt_Qlt. }
    pose proof (@pow_le f (e - 1) ltac:(lia)). pose proof (pow_pos f). pose proof (pow_pos p).
    assert (0 <= inject_Z (Z.abs m))%Q. { change 0%Q with (inject_Z 0). rewrite <- Zle_Qle. lia. }
    apply Qlt_le_trans with (2 ^ p * 2 ^ f)%Q; nra.
  - right. exists (m * 2 ^ (f - e)). rewrite inject_Z_mult, <- pow_Z by lia. rewrite Hy. rewrite <- Qmult_assoc, <- pow_add.
    replace (f - e + e) with f by lia. reflexivity.
Qed.

(* q = t * 2^e with 2^(p-1) <= |t| < 2^p, and m = t rounded to an integer: m * 2^e is q rounded to p digits *)
Lemma Qabs_le2 a b : (Qabs a <= b <-> - b <= a /\ a <= b)%Q.
Proof. apply Qabs_Qle_condition. Qed.
Lemma Qabs_lt2 a b : (Qabs a < b <-> - b < a /\ a < b)%Q.
Proof. apply Qabs_Qlt_condition. Qed.

Lemma int_le a (z : Z) : (a < inject_Z (z + 1))%Q -> forall k, (inject_Z k <= a)%Q -> k <= z.
Proof. intros H k Hk. assert (inject_Z k < inject_Z (z + 1))%Q by lra. rewrite <- Zlt_Qlt in H0. lia. Qed.

Section Round.
Variables (p e : Z) (t : Q) (F : Q -> Prop).
Hypothesis (Hp : 1 <= p).
(* a number of the format is a multiple of 2^e, or too small to matter *)
Hypothesis (HG : forall y, F y -> ((Qabs y < 2 ^ (p - 1 + e)) /\ 2 ^ (p - 1) <= Qabs t)%Q \/ exists k, (y == inject_Z k * 2 ^ e)%Q).

Lemma below_round m : (inject_Z m <= t)%Q -> (t < inject_Z m + 1)%Q -> below F (t * 2 ^ e) (inject_Z m * 2 ^ e).
Proof.
  intros H1 H2. pose proof (pow_pos e) as He. split. { nra. }
  intros y Hy Hle. destruct (@HG y Hy) as [[Hs Ht1]|(k & Hk)].
  - rewrite pow_add in Hs. apply Qabs_lt2 in Hs. destruct Hs as [Hs1 Hs2].
    destruct (Qlt_le_dec t 0) as [Hn|Hn].
    + exfalso. rewrite Qabs_neg in Ht1 by lra. nra.
    + rewrite Qabs_pos in Ht1 by lra.
      assert (2 ^ (p - 1) <= inject_Z m)%Q.
      { rewrite pow_Z in * by lia. rewrite <- Zle_Qle. apply (@int_le t m). rewrite inject_Z_plus. exact H2. exact Ht1. }
      nra.
  - rewrite Hk in *. assert (inject_Z k <= t)%Q by nra. assert (k <= m). { apply (@int_le t m); auto. rewrite inject_Z_plus. exact H2. }
    rewrite Zle_Qle in H0. nra.
Qed.
Lemma above_round m : (t <= inject_Z m)%Q -> (inject_Z m - 1 < t)%Q -> above F (t * 2 ^ e) (inject_Z m * 2 ^ e).
Proof.
  intros H1 H2. pose proof (pow_pos e) as He. split. { nra. }
  intros y Hy Hle. destruct (@HG y Hy) as [[Hs Ht1]|(k & Hk)].
  - rewrite pow_add in Hs. apply Qabs_lt2 in Hs. destruct Hs as [Hs1 Hs2].
    destruct (Qlt_le_dec 0 t) as [Hn|Hn].
    + exfalso. rewrite Qabs_pos in Ht1 by lra. nra.
    + rewrite Qabs_neg in Ht1 by lra.
      assert (inject_Z m <= - (2 ^ (p - 1)))%Q.
      { rewrite pow_Z in * by lia. change (- inject_Z (2 ^ (p - 1)))%Q with (inject_Z (- 2 ^ (p - 1))). rewrite <- Zle_Qle.
        assert (inject_Z m < inject_Z (- 2 ^ (p - 1) + 1))%Q. { rewrite inject_Z_plus, inject_Z_opp. change (inject_Z 1) with 1%Q. lra. } rewrite <- Zlt_Qlt in H. lia. }
      nra.
  - rewrite Hk in *. assert (t <= inject_Z k)%Q by nra. assert (m <= k).
    { assert (inject_Z m < inject_Z (k + 1))%Q. { rewrite inject_Z_plus. change (inject_Z 1) with 1%Q. lra. } rewrite <- Zlt_Qlt in H0. lia. }
    rewrite Zle_Qle in H0. nra.
Qed.
Lemma near_int m : (2 * Qabs (inject_Z m - t) <= 1)%Q -> forall k, (Qabs (inject_Z m - t) <= Qabs (inject_Z k - t))%Q.
Proof.
  intros H k. destruct (Z.eq_dec k m) as [->|Hne]. lra.
  apply Qle_trans with (1 # 2)%Q. lra.
  assert (1 <= Qabs (inject_Z k - inject_Z m))%Q.
  { rewrite <- inject_Z_opp, <- inject_Z_plus || idtac. unfold Qle, Qabs, Qminus, Qplus, Qopp, inject_Z. cbn [Qnum Qden]. lia. }
  pose proof (Qabs_triangle (inject_Z k - t) (t - inject_Z m)).
  assert (E1 : (inject_Z k - t + (t - inject_Z m) == inject_Z k - inject_Z m)%Q) by ring. rewrite E1 in H1.
  rewrite (Qabs_Qminus t) in H1. lra.
Qed.
Lemma near_round m : (2 * Qabs (inject_Z m - t) <= 1)%Q -> forall y, F y -> (Qabs (inject_Z m * 2 ^ e - t * 2 ^ e) <= Qabs (y - t * 2 ^ e))%Q.
Proof.
  intros H y Hy. pose proof (pow_pos e) as He.
  assert (SC : forall a b, (Qabs (a * 2 ^ e - b * 2 ^ e) == Qabs (a - b) * 2 ^ e)%Q).
  { intros a b. rewrite <- (Qabs_pos (2 ^ e)) at 3 by lra. rewrite <- Qabs_Qmult. apply Qabs_wd. ring. }
  assert (K : forall k, (Qabs (inject_Z m * 2 ^ e - t * 2 ^ e) <= Qabs (inject_Z k * 2 ^ e - t * 2 ^ e))%Q).
  { intros k. rewrite !SC. pose proof (near_int H k). nra. }
  destruct (@HG y Hy) as [[Hs Ht1]|(k & Hk)].
  - rewrite pow_add in Hs. apply Qabs_lt2 in Hs. destruct Hs as [Hs1 Hs2].
    destruct (Qlt_le_dec t 0) as [Hn|Hn].
    + rewrite Qabs_neg in Ht1 by lra. eapply Qle_trans. apply (K (- 2 ^ (p - 1))). rewrite inject_Z_opp, <- pow_Z by lia.
      rewrite !Qabs_pos; nra.
    + rewrite Qabs_pos in Ht1 by lra. eapply Qle_trans. apply (K (2 ^ (p - 1))). rewrite <- pow_Z by lia.
      rewrite !Qabs_neg; nra.
  - rewrite Hk. apply K.
Qed.
End Round.

Lemma below_eq F q q' x x' : (q == q')%Q -> (x == x')%Q -> below F q x -> below F q' x'.
Proof. intros E1 E2 [H1 H2]. split. rewrite <- E1, <- E2. auto. intros y Hy Hq. rewrite <- E2. apply H2; auto. rewrite E1. auto. Qed.
Lemma above_eq F q q' x x' : (q == q')%Q -> (x == x')%Q -> above F q x -> above F q' x'.
Proof. intros E1 E2 [H1 H2]. split. rewrite <- E1, <- E2. auto. intros y Hy Hq. rewrite <- E2. apply H2; auto. rewrite E1. auto. Qed.

(* main lemma *)
Lemma pow_lt_inv a b : (2 ^ a < 2 ^ b)%Q -> a < b.
Proof. intros H. destruct (Z_lt_dec a b); auto. pose proof (@pow_le b a ltac:(lia)). lra. Qed.
Lemma same_exp p e e' t : (2 ^ (p - 1) <= Qabs t)%Q -> (Qabs t < 2 ^ p)%Q -> (2 ^ (p - 1) * 2 ^ e' <= Qabs (t * 2 ^ e))%Q -> (Qabs (t * 2 ^ e) < 2 ^ p * 2 ^ e')%Q -> e' = e.
Proof.
  intros H1 H2 H3 H4. pose proof (pow_pos e) as He. rewrite Qabs_Qmult, (Qabs_pos (2 ^ e)) in H3, H4 by lra.
  assert (p - 1 + e' < p + e). { apply pow_lt_inv. rewrite !pow_add. nra. }
  assert (p - 1 + e < p + e'). { apply pow_lt_inv. rewrite !pow_add. nra. } lia.
Qed.
Lemma pos_int m : (- (1) < inject_Z m)%Q -> (0 <= inject_Z m)%Q.
Proof. intros H. change 0%Q with (inject_Z 0). rewrite <- Zle_Qle. change (- (1))%Q with (inject_Z (-1)) in H. rewrite <- Zlt_Qlt in H. lia. Qed.
Lemma round_to r p e t m (F : Q -> Prop) (ties : Q -> Q -> Prop) q x : 1 <= p ->
  (forall y, F y -> ((Qabs y < 2 ^ (p - 1 + e)) /\ 2 ^ (p - 1) <= Qabs t)%Q \/ exists k, (y == inject_Z k * 2 ^ e)%Q) ->
  rounded r t m -> (q == t * 2 ^ e)%Q -> (x == inject_Z m * 2 ^ e)%Q -> F x -> (r = RNDN -> ties q x) -> rounding r F ties q x.
Proof.
  intros Hp HG Hr Hq Hx HF Htie. split; [exact HF|]. pose proof (pow_pos e) as He.
  assert (Q0 : (t * 2 ^ e == q)%Q) by (symmetry; auto). assert (X0 : (inject_Z m * 2 ^ e == x)%Q) by (symmetry; auto).
  destruct r; unfold rounded in Hr.
  - destruct Hr as [H1 H2]. split; [|auto]. intros y Hy. rewrite Hx, Hq. apply (@near_round p e t F); auto.
  - destruct Hr as [H1 H2]. apply Qabs_lt2 in H2. split; intros Hs.
    + apply (below_eq Q0 X0). apply (@below_round p); auto; assert (0 <= t)%Q by nra; rewrite (Qabs_pos t) in H1 by auto; apply Qabs_le2 in H1; lra.
    + apply (above_eq Q0 X0). apply (@above_round p); auto; assert (t <= 0)%Q by nra; rewrite (Qabs_neg t) in H1 by auto; apply Qabs_le2 in H1; lra.
  - destruct Hr as [H1 H2]. apply (above_eq Q0 X0). apply (@above_round p); auto. lra.
  - destruct Hr as [H1 H2]. apply (below_eq Q0 X0). apply (@below_round p); auto.
  - destruct Hr as [H1 H2]. apply Qabs_lt2 in H2.
    split; intros Hs.
    + assert (0 <= t)%Q by nra. assert (Hm : (0 <= inject_Z m)%Q) by (apply pos_int; lra).
      rewrite (Qabs_pos t), (Qabs_pos (inject_Z m)) in H1 by auto. apply (above_eq Q0 X0). apply (@above_round p); auto; lra.
    + assert (t <= 0)%Q by nra. assert (Hm : (0 <= inject_Z (- m))%Q) by (apply pos_int; rewrite inject_Z_opp; lra). rewrite inject_Z_opp in Hm.
      rewrite (Qabs_neg t), (Qabs_neg (inject_Z m)) in H1 by lra. apply (below_eq Q0 X0). apply (@below_round p); auto; lra.
Qed.
Lemma tie_half e t m q x : (q == t * 2 ^ e)%Q -> (x == inject_Z m * 2 ^ e)%Q -> rounded RNDN t m -> (2 * Qabs (x - q) == 2 ^ e)%Q -> Z.even m = true.
Proof.
  intros Hq Hx [_ H2] K3. apply H2. pose proof (pow_pos e) as He. rewrite Hx, Hq in K3.
  assert (SC : (Qabs (inject_Z m * 2 ^ e - t * 2 ^ e) == Qabs (inject_Z m - t) * 2 ^ e)%Q).
  { rewrite <- (Qabs_pos (2 ^ e)) at 3 by lra. rewrite <- Qabs_Qmult. apply Qabs_wd. ring. }
  rewrite SC in K3. apply (Qmult_inj_r _ _ (2 ^ e)). apply pow_ne. lra.
Qed.
Lemma rounding_self r (F : Q -> Prop) (ties : Q -> Q -> Prop) q x : (x == q)%Q -> F x -> ties q x -> rounding r F ties q x.
Proof.
  intros E HF HT. split; [exact HF|]. assert (B : below F q x). { split. lra. intros; lra. } assert (A : above F q x). { split. lra. intros; lra. }
  assert (Z1 : (x - q == 0)%Q) by lra.
  destruct r; auto. split; [|auto]. intros y _. rewrite Z1. apply Qabs_nonneg.
Qed.
Lemma not_tie q x e : (x == q)%Q -> ~ (2 * Qabs (x - q) == 2 ^ e)%Q.
Proof. intros E H. assert (Z1 : (x - q == 0)%Q) by lra. rewrite Z1 in H. pose proof (pow_pos e) as He. rewrite <- H in He. discriminate. Qed.
Lemma round_scaled r p e t m f q : 1 <= p -> (2 ^ (p - 1) <= Qabs t)%Q -> (Qabs t < 2 ^ p)%Q -> rounded r t m -> (q == t * 2 ^ e)%Q ->
  (exists x, fl_q f = Some x /\ (x == inject_Z m * 2 ^ e)%Q) -> representable p (inject_Z m * 2 ^ e) -> fl_rounded r p q f.
Proof.
  intros Hp Ht Ht2 Hr Hq (x & Hf & Hx) Hrep. exists x. split; auto.
  apply (@round_to r p e t m); auto.
  - intros y Hy. destruct (@grid p e y Hp Hy) as [Hs|Hk]; [left; auto|right; auto].
  - destruct Hrep as (m' & e' & H1 & H2). exists m', e'. split; auto. rewrite Hx. auto.
  - intros ->. intros e' K1 K2 K3. rewrite Hq in K1, K2. assert (e' = e) by (eapply same_exp; eauto). subst e'. exists m. split; auto. apply (@tie_half e t m q x); auto.
Qed.

Lemma norm_val p m e : 1 <= p -> Z.abs m <= 2 ^ p ->
  (exists x, fl_q (norm p m e) = Some x /\ (x == inject_Z m * 2 ^ e)%Q) /\ representable p (inject_Z m * 2 ^ e).
Proof.
  intros Hp Hm. unfold norm. destruct (Z.leb_spec (digits m) p) as [H|H].
  - split. apply fl_q_val. exists m, e. split. apply digits_le; auto. lia. reflexivity.
  - assert (A : Z.abs m = 2 ^ p). { assert (~ Z.abs m < 2 ^ p). { intros G. apply digits_le in G; lia. } lia. }
    assert (P2 : 2 ^ p = 2 * 2 ^ (p - 1)). { replace p with (1 + (p - 1)) at 1 by lia. rewrite Z.pow_add_r by lia. reflexivity. }
    assert (M : m = 2 * (m / 2)). { apply Z_div_exact_full_2. lia. destruct (Z.abs_eq_or_opp m).
      - replace m with (2 ^ (p - 1) * 2) by lia. apply Z.mod_mul. lia.
      - replace m with (- 2 ^ (p - 1) * 2) by lia. apply Z.mod_mul. lia. }
    assert (V : (inject_Z m * 2 ^ e == inject_Z (m / 2) * 2 ^ (e + 1))%Q).
    { rewrite M at 1. rewrite inject_Z_mult, pow_add. change (inject_Z 2) with 2%Q. ring. }
    split.
    + destruct (fl_q_val (m / 2) (e + 1)) as (x & E & Hx). exists x. split; auto. rewrite Hx, V. reflexivity.
    + exists (m / 2), (e + 1). split; auto. lia.
Qed.

Lemma shl_val q e a b : 0 < b -> shl (Qnum q) (Z.pos (Qden q)) e = (a, b) -> (q == (a # Z.to_pos b) * 2 ^ e)%Q.
Proof.
  intros H1 ES.
    rewrite frac_pos by auto. unfold shl in ES. assert (Hq : (q == inject_Z (Qnum q) / inject_Z (Z.pos (Qden q)))%Q).
      { rewrite <- (@frac_pos (Qnum q)) by lia. destruct q; reflexivity. }
      assert (Hd0 : ~ (inject_Z (Z.pos (Qden q)) == 0)%Q) by (unfold Qeq; simpl; lia).
      destruct (Z.leb_spec 0 e); [assert (EA : a = Qnum q) by congruence; assert (EB : b = Z.pos (Qden q) * 2 ^ e) by congruence|assert (EA : a = Qnum q * 2 ^ (- e)) by congruence; assert (EB : b = Z.pos (Qden q)) by congruence]; rewrite EA, EB.
      - rewrite inject_Z_mult, <- pow_Z by auto. rewrite Hq at 1. field. split; [apply pow_ne|auto].
      - rewrite inject_Z_mult, <- pow_Z by lia. rewrite Hq at 1. assert (P : (2 ^ (- e) * 2 ^ e == 1)%Q). { rewrite <- pow_add. replace (- e + e) with 0 by lia. reflexivity. }
        transitivity (inject_Z (Qnum q) * (2 ^ (- e) * 2 ^ e) / inject_Z (Z.pos (Qden q)))%Q. rewrite P. field; auto. field; auto.
Qed.
Theorem rnd_q_correct r p q : 1 <= p -> fl_rounded r p q (rnd_q r p q).
Proof.
  intros Hp. unfold rnd_q. destruct (Z.eqb_spec (Qnum q) 0) as [E|E].
  - assert (Q0 : (q == 0)%Q) by (unfold Qeq; simpl; lia). exists 0%Q. split; [reflexivity|]. apply rounding_self; [lra| |].
    + exists 0, 0. split. simpl. apply Z.pow_pos_nonneg; lia. ring.
    + intros e0 _ _ K. exfalso. revert K. apply not_tie. lra.
  - pose proof (@exp_q_spec p (Qnum q) (Z.pos (Qden q)) Hp E ltac:(lia)) as H. set (e := exp_q p (Qnum q) (Z.pos (Qden q))) in *.
    pose proof (shl_pos) as _. destruct (shl (Qnum q) (Z.pos (Qden q)) e) as [a b] eqn:ES. destruct H as (H1 & H2 & H3).
    assert (HV : (q == (a # Z.to_pos b) * 2 ^ e)%Q) by (eapply shl_val; eauto).
    destruct (@norm_val p (rdiv r a b) e Hp) as [V1 V2]. { apply rdiv_abs; auto. apply Z.pow_nonneg; lia. lia. }
    apply (@round_scaled r p e (a # Z.to_pos b) (rdiv r a b)); auto.
    3: { apply rdiv_rounded; auto. }
    + rewrite pow_Z by lia. destruct b as [|b|b]; try lia. unfold Qle, Qabs, inject_Z. cbn [Qnum Qden Z.to_pos]. lia.
    + rewrite pow_Z by lia. destruct b as [|b|b]; try lia. unfold Qlt, Qabs, inject_Z. cbn [Qnum Qden Z.to_pos]. lia.
Qed.
Theorem rnd_fin_correct r p m e : 1 <= p -> fl_rounded r p (inject_Z m * 2 ^ e) (rnd_fin r p m e).
Proof.
  intros Hp. unfold rnd_fin. destruct (Z.leb_spec (digits m - p) 0) as [H|H].
  - destruct (fl_q_val m e) as (x & E & Hx). exists x. split; auto. apply rounding_self; [lra| |].
    + exists m, e. split; auto. apply digits_le; lia.
    + intros e0 _ _ K. exfalso. revert K. apply not_tie. lra.
  - set (d := digits m - p) in *. assert (Hm : m <> 0). { intros ->. unfold d in H. change (digits 0) with 0 in H. lia. }
    destruct (digits_bounds Hm) as (D1 & D2 & D3). assert (HP : 0 < 2 ^ d) by (apply Z.pow_pos_nonneg; lia).
    assert (DA : 2 ^ digits m = 2 ^ p * 2 ^ d). { rewrite <- Z.pow_add_r by lia. f_equal. unfold d. lia. }
    assert (DB : 2 ^ (digits m - 1) = 2 ^ (p - 1) * 2 ^ d). { rewrite <- Z.pow_add_r by lia. f_equal. unfold d. lia. }
    destruct (@norm_val p (rdiv r m (2 ^ d)) (e + d) Hp) as [V1 V2]. { apply rdiv_abs; auto. apply Z.pow_nonneg; lia. lia. }
    apply (@round_scaled r p (e + d) (m # Z.to_pos (2 ^ d)) (rdiv r m (2 ^ d))); auto.
    + rewrite pow_Z by lia. destruct (2 ^ d) as [|b|b] eqn:EB; try lia. unfold Qle, Qabs, inject_Z. cbn [Qnum Qden Z.to_pos]. lia.
    + rewrite pow_Z by lia. destruct (2 ^ d) as [|b|b] eqn:EB; try lia. unfold Qlt, Qabs, inject_Z. cbn [Qnum Qden Z.to_pos]. lia.
    + apply rdiv_rounded; auto.
    + rewrite frac_pos by auto. rewrite <- pow_Z by lia. rewrite pow_add. field. apply pow_ne.
Qed.

(*----------------------------------------------------------------------------*)
(* the cast from double to int64 *)
Lemma trunc_val m e t : trunc_fl m e = t -> exists q, fl_q (FFin m e) = Some q /\ (Qabs (inject_Z t) <= Qabs q)%Q /\ (Qabs (q - inject_Z t) < 1)%Q.
Proof.
  intros <-. destruct (fl_q_val m e) as (q & E & Hq). exists q. split; auto.
  pose proof (get_z_rounded RNDZ m e) as H. unfold rounded in H. unfold mpfr_get_z, rdiv in H. fold (trunc_fl m e) in H.
  rewrite Hq. destruct H as [H1 H2]. split; auto. rewrite Qabs_Qminus. auto.
Qed.
Lemma fl_cmp m e q B : fl_q (FFin m e) = Some q -> 
  ((if 0 <=? e then m * 2 ^ e >? B else m >? B * 2 ^ (- e)) = true <-> (inject_Z B < q)%Q) /\
  ((if 0 <=? e then m * 2 ^ e <? B else m <? B * 2 ^ (- e)) = true <-> (q < inject_Z B)%Q).
Proof.
  intros E. destruct (fl_q_val m e) as (q' & E' & Hq). assert (q' = q) by congruence. subst q'. rewrite Hq. destruct (Z.leb_spec 0 e).
  - rewrite pow_Z by auto. rewrite <- inject_Z_mult. rewrite <- !Zlt_Qlt. rewrite Z.gtb_lt, Z.ltb_lt. tauto.
  - assert (P : (2 ^ (- e) * 2 ^ e == 1)%Q). { rewrite <- pow_add. replace (- e + e) with 0 by lia. reflexivity. }
    pose proof (pow_pos e). pose proof (pow_pos (- e)).
    assert (EQ : (inject_Z m * 2 ^ e * 2 ^ (- e) == inject_Z m)%Q). { rewrite <- Qmult_assoc, (Qmult_comm (2 ^ e)), P. ring. }
    rewrite Z.gtb_lt, Z.ltb_lt. rewrite !Zlt_Qlt, inject_Z_mult, <- pow_Z by lia. split; split; intros G.
    + apply (Qmult_lt_r _ _ (2 ^ (- e))); auto. rewrite EQ. auto.
    + rewrite <- EQ. apply Qmult_lt_r; auto.
    + apply (Qmult_lt_r _ _ (2 ^ (- e))); auto. rewrite EQ. auto.
    + rewrite <- EQ. apply Qmult_lt_r; auto.
Qed.
Theorem cast_int64_spec x :
  match fl_q x with
  | Some q =>
      ((inject_Z (2 ^ 63) < q)%Q -> slip_cast_double_to_int64 x = Ok (2 ^ 63 - 1)) /\
      ((q < inject_Z (- 2 ^ 63))%Q -> slip_cast_double_to_int64 x = Ok (- 2 ^ 63)) /\
      ((inject_Z (- 2 ^ 63) <= q < inject_Z (2 ^ 63))%Q -> exists t, slip_cast_double_to_int64 x = Ok t /\
          (Qabs (inject_Z t) <= Qabs q)%Q /\ (Qabs (q - inject_Z t) < 1)%Q) /\
      ((q == inject_Z (2 ^ 63))%Q -> slip_cast_double_to_int64 x = UB)
  | None => slip_cast_double_to_int64 x = Ok (match x with FInf true => - 2 ^ 63 | FInf false => 2 ^ 63 - 1 | _ => 0 end)
  end.
Proof.
  destruct x as [|n|m e]; try reflexivity.
  destruct (@trunc_val m e _ eq_refl) as (q & E & T1 & T2). rewrite E. unfold slip_cast_double_to_int64.
  destruct (@fl_cmp m e q (2 ^ 63) E) as [G1 _]. destruct (@fl_cmp m e q (- 2 ^ 63) E) as [_ G2].
  set (gt := if 0 <=? e then m * 2 ^ e >? 2 ^ 63 else m >? 2 ^ 63 * 2 ^ (- e)) in *.
  set (lt := if 0 <=? e then m * 2 ^ e <? - 2 ^ 63 else m <? - 2 ^ 63 * 2 ^ (- e)) in *.
  set (t := trunc_fl m e) in *. cbv zeta.
  change (2 ^ 63 - 1) with INT64_MAX. change (- 2 ^ 63) with INT64_MIN. 
  change (- 2 ^ 63) with INT64_MIN in G2.
  assert (HL : (inject_Z INT64_MIN < inject_Z (2 ^ 63))%Q) by reflexivity.
  split; [|split; [|split]].
  - intros H. apply G1 in H. rewrite H. auto.
  - intros H. destruct gt. { assert (inject_Z (2 ^ 63) < q)%Q by (apply G1; auto). lra. } apply G2 in H. rewrite H. auto.
  - intros [H1 H2]. destruct gt. { assert (inject_Z (2 ^ 63) < q)%Q by (apply G1; auto). lra. }
    destruct lt. { assert (q < inject_Z INT64_MIN)%Q by (apply G2; auto). lra. }
    assert (HT : INT64_MIN <= t <= INT64_MAX).
    { apply Qabs_lt2 in T2. destruct (Qlt_le_dec q 0) as [Hs|Hs].
      - rewrite (Qabs_neg q) in T1 by lra. apply Qabs_le2 in T1. split.
        + rewrite Zle_Qle. lra.
        + apply Z.le_trans with 0. 2: unfold INT64_MAX; lia. assert (inject_Z t < inject_Z 1)%Q. { change (inject_Z 1) with 1%Q. lra. } rewrite <- Zlt_Qlt in H. lia.
      - rewrite (Qabs_pos q) in T1 by lra. apply Qabs_le2 in T1. split.
        + apply Z.le_trans with 0. unfold INT64_MIN; lia. assert (inject_Z (-1) < inject_Z t)%Q. { change (inject_Z (-1)) with (-1)%Q. lra. } rewrite <- Zlt_Qlt in H. lia.
        + assert (inject_Z t < inject_Z (2 ^ 63))%Q by lra. rewrite <- Zlt_Qlt in H. unfold INT64_MAX. lia. }
    destruct (Z.leb_spec INT64_MIN t), (Z.leb_spec t INT64_MAX); try lia. simpl. eauto.
  - intros H. destruct gt. { assert (inject_Z (2 ^ 63) < q)%Q by (apply G1; auto). lra. }
    destruct lt. { assert (q < inject_Z INT64_MIN)%Q by (apply G2; auto). lra. }
    assert (HT : t = 2 ^ 63).
    { rewrite H in *. apply Qabs_lt2 in T2. rewrite (Qabs_pos (inject_Z (2 ^ 63))) in T1 by discriminate. apply Qabs_le2 in T1.
      destruct T1 as [_ T1]. destruct T2 as [_ T2]. rewrite <- Zle_Qle in T1.
      assert (inject_Z (2 ^ 63 - 1) < inject_Z t)%Q. { change (inject_Z (2 ^ 63 - 1)) with (inject_Z (2 ^ 63) - 1)%Q || rewrite inject_Z_plus. lra. } rewrite <- Zlt_Qlt in H0. lia. }
    rewrite HT. reflexivity.
Qed.
