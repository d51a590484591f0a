(* Facts about rounding in the model of doubles and mpfr_t. *)
From Verif Require Import Base MMatrix.
Set Implicit Arguments.
Open Scope Z_scope.

Lemma digits_le p m : 0 <= p -> (digits m <= p <-> Z.abs m < 2 ^ p).
Proof.
  intros Hp. unfold digits. destruct (Z.eqb_spec m 0) as [->|Hm].
  - simpl. split; intros; auto. apply Z.pow_pos_nonneg; lia.
  - split; intros H.
    + apply Z.log2_lt_pow2; lia.
    + apply Z.log2_lt_pow2 in H; lia.
Qed.
Lemma digits_nonneg m : 0 <= digits m.
Proof. unfold digits. destruct (m =? 0). lia. pose proof (Z.log2_nonneg (Z.abs m)). lia. Qed.
Lemma digits_bounds m : m <> 0 -> 1 <= digits m /\ 2 ^ (digits m - 1) <= Z.abs m < 2 ^ digits m.
Proof.
  intros H. unfold digits. destruct (Z.eqb_spec m 0); try lia. pose proof (Z.log2_nonneg (Z.abs m)).
  split. lia. replace (Z.log2 (Z.abs m) + 1 - 1) with (Z.log2 (Z.abs m)) by lia.
  replace (Z.log2 (Z.abs m) + 1) with (Z.succ (Z.log2 (Z.abs m))) by lia. apply Z.log2_spec. lia.
Qed.

(* rounding a quotient: the result is the floor or the ceiling *)
Lemma rdiv_cases r a b : 0 < b -> rdiv r a b = a / b \/ rdiv r a b = - (- a / b).
Proof.
  intros Hb. destruct r; unfold rdiv; cbv zeta; auto.
  - pose proof (Z.div_mod a b ltac:(lia)). pose proof (Z.mod_pos_bound a b Hb).
    assert (C : 0 < a - a / b * b -> - (- a / b) = a / b + 1).
    { intros H1. assert (- a / b = - (a / b) - 1). { symmetry. apply Z.div_unique with (r := b - a mod b); [left; nia|nia]. } lia. }
    destruct (Z.ltb_spec (2 * (a - a / b * b)) b); auto.
    destruct (Z.gtb_spec (2 * (a - a / b * b)) b). right. rewrite C by lia. reflexivity.
    destruct (Z.even (a / b)); auto. right. rewrite C by lia. reflexivity.
  - destruct (Z_le_dec 0 a).
    + left. apply Z.quot_div_nonneg; lia.
    + right. rewrite <- (Z.opp_involutive a) at 1. rewrite Z.quot_opp_l by lia. f_equal. apply Z.quot_div_nonneg; lia.
  - destruct (a <? 0); auto.
Qed.
Lemma rdiv_bounds r a b : 0 < b -> a / b <= rdiv r a b <= - (- a / b).
Proof.
  intros Hb. assert (a / b <= - (- a / b)).
  { pose proof (Z.div_mod a b ltac:(lia)). pose proof (Z.mod_pos_bound a b Hb). pose proof (Z.div_mod (-a) b ltac:(lia)). pose proof (Z.mod_pos_bound (-a) b Hb). nia. }
  destruct (rdiv_cases r a Hb) as [-> | ->]; lia.
Qed.
(* the result is within one unit, within half a unit when rounding to nearest, and exact quotients are kept *)
Lemma rdiv_err r a b : 0 < b -> Z.abs (a - b * rdiv r a b) < b.
Proof.
  intros Hb. pose proof (Z.div_mod a b ltac:(lia)). pose proof (Z.mod_pos_bound a b Hb). pose proof (Z.div_mod (-a) b ltac:(lia)). pose proof (Z.mod_pos_bound (-a) b Hb).
  destruct (rdiv_cases r a Hb) as [-> | ->]; nia.
Qed.
Lemma rdiv_near a b : 0 < b -> 2 * Z.abs (a - b * rdiv RNDN a b) <= b.
Proof.
  intros Hb. unfold rdiv; cbv zeta. pose proof (Z.div_mod a b ltac:(lia)). pose proof (Z.mod_pos_bound a b Hb).
  destruct (Z.ltb_spec (2 * (a - a / b * b)) b). lia. destruct (Z.gtb_spec (2 * (a - a / b * b)) b). lia. destruct (Z.even (a / b)); lia.
Qed.
Lemma rdiv_exact r a b c : 0 < b -> a = b * c -> rdiv r a b = c.
Proof.
  intros Hb ->. pose proof (rdiv_err r (b * c) Hb). assert (Z.abs (c - rdiv r (b * c) b) * b < 1 * b) by nia. nia.
Qed.
Lemma rdiv_abs r a b c : 0 < b -> 0 <= c -> Z.abs a <= b * c -> Z.abs (rdiv r a b) <= c.
Proof.
  intros Hb Hc H. pose proof (rdiv_bounds r a Hb).
  assert (- c <= a / b) by (apply Z.div_le_lower_bound; lia).
  assert (- c <= - a / b) by (apply Z.div_le_lower_bound; lia). lia.
Qed.
Lemma rdiv_nz r a b : 0 < b -> b <= Z.abs a -> rdiv r a b <> 0.
Proof. intros Hb H E. pose proof (rdiv_err r a Hb). rewrite E in *. lia. Qed.

(* value of a finite number, in the rationals: m * 2^e *)
Definition val2 (m e : Z) : Q := if 0 <=? e then inject_Z (m * 2 ^ e) else (m # Z.to_pos (2 ^ (- e))).

Lemma norm_digits p m e : 1 <= p -> Z.abs m <= 2 ^ p -> exists m' e', norm p m e = FFin m' e' /\ digits m' <= p.
Proof.
  intros Hp Hm. unfold norm. destruct (Z.leb_spec (digits m) p). eauto.
  exists (m / 2), (e + 1). split; auto. apply digits_le. lia.
  replace (2 ^ p) with (2 * 2 ^ (p - 1)) in * by (rewrite <- Z.pow_succ_r by lia; f_equal; lia).
  assert (0 < 2 ^ (p - 1)) by (apply Z.pow_pos_nonneg; lia).
  assert (- 2 ^ (p - 1) <= m / 2) by (apply Z.div_le_lower_bound; lia).
  assert (m / 2 < 2 ^ (p - 1) + 1) by (apply Z.div_lt_upper_bound; lia). lia.
Qed.
Lemma pow2_split a b : 0 <= a -> 0 <= b -> 2 ^ (a + b) = 2 ^ a * 2 ^ b.
Proof. intros. apply Z.pow_add_r; lia. Qed.

Lemma rnd_fin_digits r p m e : 1 <= p -> exists m' e', rnd_fin r p m e = FFin m' e' /\ digits m' <= p.
Proof.
  intros Hp. unfold rnd_fin. destruct (Z.leb_spec (digits m - p) 0). { exists m, e. split; auto. lia. }
  apply norm_digits; auto. assert (0 < 2 ^ (digits m - p)) by (apply Z.pow_pos_nonneg; lia). apply rdiv_abs; auto.
  - apply Z.pow_nonneg; lia.
  - rewrite <- pow2_split by lia. replace (digits m - p + p) with (digits m) by lia.
    destruct (Z.eq_dec m 0) as [->|Hm]. simpl. lia. destruct (digits_bounds Hm). lia.
Qed.
Lemma rnd_fin_id r p m e : digits m <= p -> rnd_fin r p m e = FFin m e.
Proof. intros H. unfold rnd_fin. destruct (Z.leb_spec (digits m - p) 0); auto; lia. Qed.
Lemma rnd_fin_nz r p m e : 1 <= p -> m <> 0 -> exists m' e', rnd_fin r p m e = FFin m' e' /\ m' <> 0.
Proof.
  intros Hp Hm. unfold rnd_fin. destruct (Z.leb_spec (digits m - p) 0). eauto.
  destruct (digits_bounds Hm) as (D1 & D2 & D3).
  assert (0 < 2 ^ (digits m - p)) by (apply Z.pow_pos_nonneg; lia).
  assert (HR : rdiv r m (2 ^ (digits m - p)) <> 0).
  { apply rdiv_nz; auto. transitivity (2 ^ (digits m - 1)); auto. apply Z.pow_le_mono_r; lia. }
  unfold norm. destruct (Z.leb_spec (digits (rdiv r m (2 ^ (digits m - p)))) p). eauto.
  exists (rdiv r m (2 ^ (digits m - p)) / 2), (e + (digits m - p) + 1). split; auto.
  intros E. assert (Z.abs (rdiv r m (2 ^ (digits m - p))) < 2 ^ p).
  { assert (1 < 2 ^ p) by (apply Z.pow_gt_1; lia).
    pose proof (Z.div_mod (rdiv r m (2 ^ (digits m - p))) 2 ltac:(lia)). pose proof (Z.mod_pos_bound (rdiv r m (2 ^ (digits m - p))) 2 ltac:(lia)). lia. }
  apply digits_le in H2; lia.
Qed.
Lemma rnd_fl_idem r r' p x : 1 <= p -> rnd_fl r p (rnd_fl r' p x) = rnd_fl r' p x.
Proof.
  intros Hp. destruct x; auto. simpl. destruct (rnd_fin_digits r' m e Hp) as (m' & e' & -> & H). simpl. now apply rnd_fin_id.
Qed.
Lemma shl_pos n d e : 0 < d -> 0 < snd (shl n d e).
Proof. intros. unfold shl. destruct (Z.leb_spec 0 e); simpl; auto. assert (0 < 2 ^ e) by (apply Z.pow_pos_nonneg; lia). nia. Qed.

(* the exponent chosen for a rational: |n/d| / 2^e < 2^p and >= 2^(p-1) *)
Lemma shl_shift n d e k : 0 < d -> 0 <= k -> 
  fst (shl n d (e - k)) * snd (shl n d e) = fst (shl n d e) * snd (shl n d (e - k)) * 2 ^ k.
Proof.
  intros Hd Hk. unfold shl. destruct (Z.leb_spec 0 e), (Z.leb_spec 0 (e - k)); simpl; try lia.
  - replace (2 ^ e) with (2 ^ (e - k) * 2 ^ k) by (rewrite <- pow2_split by lia; f_equal; lia). ring.
  - replace (2 ^ k) with (2 ^ e * 2 ^ (- (e - k))) by (rewrite <- pow2_split by lia; f_equal; lia). ring.
  - replace (2 ^ (- (e - k))) with (2 ^ (- e) * 2 ^ k) by (rewrite <- pow2_split by lia; f_equal; lia). ring.
Qed.
Lemma shl_abs n d e : 0 < d -> shl (Z.abs n) d e = (Z.abs (fst (shl n d e)), snd (shl n d e)).
Proof.
  intros. unfold shl. destruct (Z.leb_spec 0 e); simpl; auto. rewrite Z.abs_mul. rewrite (Z.abs_eq (2 ^ (- e))); auto. apply Z.pow_nonneg; lia.
Qed.
Lemma exp_q_spec p n d : 1 <= p -> n <> 0 -> 0 < d -> let '(a, b) := shl n d (exp_q p n d) in 0 < b /\ 2 ^ (p - 1) * b <= Z.abs a < 2 ^ p * b.
Proof.
  intros Hp Hn Hd. pose proof (digits_bounds Hn) as (N1 & N2 & N3).
  destruct (@digits_bounds d ltac:(lia)) as (D1 & D2 & D3). rewrite (Z.abs_eq d) in * by lia.
  set (e0 := digits n - digits d - p).
  (* |n| / d is in (2^(dn-1-dd), 2^(dn-dd+1)), i.e. at e0: in (2^(p-1), 2^(p+1)) *)
  assert (B : 0 < snd (shl n d e0) /\ 2 ^ (p - 1) * snd (shl n d e0) < Z.abs (fst (shl n d e0)) < 2 ^ (p + 1) * snd (shl n d e0)).
  { split. now apply shl_pos. unfold shl. destruct (Z.leb_spec 0 e0); simpl.
    - split.
      + apply Z.lt_le_trans with (2 ^ (p - 1) * (2 ^ digits d * 2 ^ e0)).
        apply Z.mul_lt_mono_pos_l. apply Z.pow_pos_nonneg; lia. apply Z.mul_lt_mono_pos_r; auto. apply Z.pow_pos_nonneg; lia.
        rewrite <- !pow2_split by lia. replace (p - 1 + (digits d + e0)) with (digits n - 1) by (unfold e0; lia). lia.
      + apply Z.lt_le_trans with (2 ^ digits n). lia. 
        apply Z.le_trans with (2 ^ (p + 1) * (2 ^ (digits d - 1) * 2 ^ e0)).
        rewrite <- !pow2_split by lia. apply Z.pow_le_mono_r; unfold e0; lia.
        apply Z.mul_le_mono_nonneg_l. apply Z.pow_nonneg; lia. apply Z.mul_le_mono_nonneg_r; auto. apply Z.pow_nonneg; lia.
    - rewrite Z.abs_mul. rewrite (Z.abs_eq (2 ^ (- e0))) by (apply Z.pow_nonneg; lia).
      assert (0 < 2 ^ (- e0)) by (apply Z.pow_pos_nonneg; lia). split.
      + apply Z.lt_le_trans with (2 ^ (p - 1) * 2 ^ digits d). apply Z.mul_lt_mono_pos_l; auto. apply Z.pow_pos_nonneg; lia.
        apply Z.le_trans with (2 ^ (digits n - 1) * 2 ^ (- e0)).
        rewrite <- !pow2_split by lia. apply Z.pow_le_mono_r; unfold e0; lia. apply Z.mul_le_mono_nonneg_r; lia.
      + apply Z.lt_le_trans with (2 ^ digits n * 2 ^ (- e0)). apply Z.mul_lt_mono_pos_r; lia.
        apply Z.le_trans with (2 ^ (p + 1) * 2 ^ (digits d - 1)).
        rewrite <- !pow2_split by lia. apply Z.pow_le_mono_r; unfold e0; lia. apply Z.mul_le_mono_nonneg_l; auto. apply Z.pow_nonneg; lia. }
  destruct B as (B0 & B1 & B2).
  unfold exp_q. fold e0. rewrite shl_abs by auto.
  destruct (Z.leb_spec (2 ^ p * snd (shl n d e0)) (Z.abs (fst (shl n d e0)))) as [H|H].
  - assert (B3 : 0 < snd (shl n d (e0 + 1))) by now apply shl_pos.
    pose proof (@shl_shift n d (e0 + 1) 1 Hd ltac:(lia)) as S1. replace (e0 + 1 - 1) with e0 in S1 by lia. change (2 ^ 1) with 2 in S1.
    destruct (shl n d (e0 + 1)) as [a b]. cbn [fst snd] in *. split; auto.
    assert (S2 : Z.abs (fst (shl n d e0)) * b = Z.abs a * snd (shl n d e0) * 2).
    { assert (Z.abs (fst (shl n d e0) * b) = Z.abs (a * snd (shl n d e0) * 2)) by congruence.
      rewrite !Z.abs_mul in *. rewrite (Z.abs_eq b), (Z.abs_eq (snd (shl n d e0))) in * by lia. change (Z.abs 2) with 2 in *. lia. }
    replace (2 ^ (p + 1)) with (2 * 2 ^ p) in * by (rewrite <- Z.pow_succ_r by lia; f_equal; lia).
    replace (2 ^ p) with (2 * 2 ^ (p - 1)) in * by (rewrite <- Z.pow_succ_r by lia; f_equal; lia).
    set (A := Z.abs (fst (shl n d e0))) in *. set (D := snd (shl n d e0)) in *. set (t := 2 ^ (p - 1)) in *.
    split; apply Z.mul_le_mono_pos_r with (p := D) || apply Z.mul_lt_mono_pos_r with (p := D); auto; nia.
  - destruct (shl n d e0) as [a b]. simpl in *. split; auto. lia.
Qed.

Lemma rnd_q_digits r p q : 1 <= p -> exists m e, rnd_q r p q = FFin m e /\ digits m <= p.
Proof.
  intros Hp. unfold rnd_q. destruct (Z.eqb_spec (Qnum q) 0) as [E|E]. { exists 0, 0. split; auto. change (digits 0) with 0. lia. }
  pose proof (@exp_q_spec p (Qnum q) (Z.pos (Qden q)) Hp E ltac:(lia)) as H.
  destruct (shl (Qnum q) (Z.pos (Qden q)) (exp_q p (Qnum q) (Z.pos (Qden q)))) as [a b]. destruct H as (H1 & H2).
  apply norm_digits; auto. apply rdiv_abs; auto. apply Z.pow_nonneg; lia. lia.
Qed.
