(* The size_t overflow test of SuiteSparse_malloc/calloc/realloc *)
From Verif Require Import Base MSolve MMatrix PFloat PRound MMem.
From Coq Require Import Qabs Qpower.
Set Bullet Behavior "Strict Subproofs".
Open Scope Z_scope.

Lemma fl_q_int m e : 0 <= e -> fl_q (FFin m e) = Some (inject_Z (m * 2 ^ e)).
Proof. intros H. unfold fl_q. destruct (Z.leb_spec 0 e); [reflexivity|lia]. Qed.

(* rounding a nonnegative integer m*2^e to 53 bits: relative error at most 2^-53 *)
Lemma rnd_near m e : 0 <= m -> 0 <= e -> exists m' e', rnd_fin RNDN 53 m e = FFin m' e' /\ 0 <= e' /\ 0 <= m' /\
  2 ^ 53 * Z.abs (m' * 2 ^ e' - m * 2 ^ e) <= m * 2 ^ e.
Proof.
  intros Hm He. unfold rnd_fin. destruct (Z.leb_spec (digits m - 53) 0) as [Hd|Hd].
  - exists m, e. split; [reflexivity|]. split; [lia|]. split; [lia|]. rewrite Z.sub_diag. simpl Z.abs. nia.
  - assert (Hm0 : m <> 0) by (intros ->; unfold digits in Hd; simpl in Hd; lia).
    destruct (digits_bounds Hm0) as (H1 & H2 & H3). set (d := digits m - 53) in *.
    assert (Hp : 0 < 2 ^ d) by (apply Z.pow_pos_nonneg; lia).
    pose proof (@rdiv_near m (2 ^ d) Hp) as Hn. set (r := rdiv RNDN m (2 ^ d)) in *.
    assert (Hb : 2 ^ 52 * 2 ^ d <= m).
    { replace (2 ^ 52 * 2 ^ d) with (2 ^ (digits m - 1)); [lia|]. rewrite <- Z.pow_add_r by lia. f_equal. unfold d. lia. }
    assert (Hr0 : 0 <= r) by nia.
    assert (Hle : Z.abs r <= 2 ^ 53).
    { apply (@rdiv_abs RNDN m (2 ^ d) (2 ^ 53)); [lia|lia|]. rewrite <- Z.pow_add_r by lia.
      replace (d + 53) with (digits m) by (unfold d; lia). lia. }
    assert (Hpe : 0 < 2 ^ e) by (apply Z.pow_pos_nonneg; lia).
    assert (Hkey : forall X, X = r * 2 ^ d * 2 ^ e -> 2 ^ 53 * Z.abs (X - m * 2 ^ e) <= m * 2 ^ e).
    { intros X ->. replace (r * 2 ^ d * 2 ^ e - m * 2 ^ e) with (- (m - 2 ^ d * r) * 2 ^ e) by ring.
      rewrite Z.abs_mul, Z.abs_opp, (Z.abs_eq (2 ^ e)) by lia.
      replace (2 ^ 53 * (Z.abs (m - 2 ^ d * r) * 2 ^ e)) with (2 ^ 52 * (2 * Z.abs (m - 2 ^ d * r)) * 2 ^ e) by (change (2 ^ 53) with (2 * 2 ^ 52); ring).
      apply Z.mul_le_mono_nonneg_r; [lia|]. nia. }
    unfold norm. destruct (Z.leb_spec (digits r) 53) as [Hr|Hr].
    + exists r, (e + d). split; [reflexivity|]. split; [lia|]. split; [lia|]. apply Hkey. rewrite Z.pow_add_r by lia. ring.
    + assert (r = 2 ^ 53).
      { assert (~ Z.abs r < 2 ^ 53) by (intros Hx; apply digits_le in Hx; lia). lia. }
      exists (r / 2), (e + d + 1). split; [reflexivity|]. split; [lia|]. split; [apply Z.div_pos; lia|]. apply Hkey. subst r. rewrite H.
      change (2 ^ 53 / 2) with (2 ^ 52). rewrite !Z.pow_add_r by lia. change (2 ^ 53) with (2 ^ 52 * 2). ring.
Qed.

Lemma size_ok_iff n s : 0 <= n -> 0 <= s -> exists v w, 
  2 ^ 53 * Z.abs (v - (n * s) mod TWO64) <= (n * s) mod TWO64 /\
  (exists a b, 2 ^ 53 * Z.abs (a - n) <= n /\ 2 ^ 53 * Z.abs (b - s) <= s /\ 0 <= a /\ 0 <= b /\ 2 ^ 53 * Z.abs (w - a * b) <= a * b) /\
  size_ok n s = (v =? w).
Proof.
  intros Hn Hs. unfold size_ok, dbl. assert (0 <= (n * s) mod TWO64) by (apply Z.mod_pos_bound; reflexivity).
  destruct (@rnd_near ((n * s) mod TWO64) 0) as (m1 & e1 & -> & He1 & Hm1 & E1); try lia.
  destruct (@rnd_near n 0) as (m2 & e2 & -> & He2 & Hm2 & E2); try lia.
  destruct (@rnd_near s 0) as (m3 & e3 & -> & He3 & Hm3 & E3); try lia.
  simpl mpfr_mul. destruct (@rnd_near (m2 * m3) (e2 + e3)) as (m4 & e4 & -> & He4 & Hm4 & E4); try nia.
  exists (m1 * 2 ^ e1), (m4 * 2 ^ e4). rewrite Z.pow_0_r, Z.mul_1_r in *. split; [assumption|]. split.
  - exists (m2 * 2 ^ e2), (m3 * 2 ^ e3). split; [assumption|]. split; [assumption|].
    assert (0 < 2 ^ e2) by (apply Z.pow_pos_nonneg; lia). assert (0 < 2 ^ e3) by (apply Z.pow_pos_nonneg; lia).
    split; [nia|]. split; [nia|]. replace (m2 * 2 ^ e2 * (m3 * 2 ^ e3)) with (m2 * m3 * 2 ^ (e2 + e3)); [assumption|]. rewrite Z.pow_add_r by lia. ring.
  - unfold fl_eqb. rewrite !fl_q_int by assumption. unfold Qeq_bool, inject_Z. cbn [Qnum Qden].
    rewrite !Z.mul_1_r. unfold Zeq_bool. rewrite Z.eqb_compare. reflexivity.
Qed.

(* the test never lets an overflowing product through *)
Theorem size_ok_sound n s : 0 <= n < TWO64 -> 0 <= s < TWO64 -> size_ok n s = true -> n * s < TWO64.
Proof.
  intros Hn Hs H. destruct (@size_ok_iff n s) as (v & w & E1 & (a & b & E2 & E3 & Ha & Hb & E4) & E); [lia|lia|].
  rewrite E in H. apply Z.eqb_eq in H. subst w. destruct (Z_lt_le_dec (n * s) TWO64) as [|Hov]; [assumption|]. exfalso.
  pose proof (Z.mod_pos_bound (n * s) TWO64 eq_refl) as Hm.
  set (z := (n * s) mod TWO64) in *.
  assert (Hz : z <= n * s - TWO64).
  { assert (1 <= n * s / TWO64) by (apply Z.div_le_lower_bound; unfold TWO64 in *; lia). unfold z. rewrite Z.mod_eq by (unfold TWO64; lia). unfold TWO64 in *. nia. }
  assert (Hab : (2 ^ 53 - 1) * (2 ^ 53 - 1) * (n * s) <= 2 ^ 106 * (a * b)).
  { assert ((2 ^ 53 - 1) * n <= 2 ^ 53 * a) by lia. assert ((2 ^ 53 - 1) * s <= 2 ^ 53 * b) by lia.
    replace (2 ^ 106 * (a * b)) with ((2 ^ 53 * a) * (2 ^ 53 * b)) by (change (2 ^ 106) with (2 ^ 53 * 2 ^ 53); ring).
    replace ((2 ^ 53 - 1) * (2 ^ 53 - 1) * (n * s)) with (((2 ^ 53 - 1) * n) * ((2 ^ 53 - 1) * s)) by ring.
    apply Z.mul_le_mono_nonneg; lia. }
  assert (0 <= a * b) by nia. generalize dependent (a * b). intros ab Hw Hab H0.
  generalize dependent (n * s). intros ns Hov Hz Hab. clear a b E2 E3 Ha Hb Hn Hs E n s. unfold TWO64 in *. lia.
Qed.

(* and it accepts every product that fits, when both factors are below 2^53 *)
Theorem size_ok_complete n s : 0 <= n < 2 ^ 53 -> 0 <= s < 2 ^ 53 -> n * s < TWO64 -> size_ok n s = true.
Proof.
  intros Hn Hs H. unfold size_ok, dbl. rewrite Z.mod_small by nia.
  assert (Hd : forall z, 0 <= z < 2 ^ 53 -> rnd_fin RNDN 53 z 0 = FFin z 0).
  { intros z Hz. apply rnd_fin_id. apply digits_le; lia. }
  rewrite (Hd n Hn), (Hd s Hs). simpl mpfr_mul. change (0 + 0) with 0.
  destruct (@rnd_near (n * s) 0) as (m & e & -> & He & _); [nia|lia|].
  unfold fl_eqb. rewrite fl_q_int by assumption. apply Qeq_bool_iff. reflexivity.
Qed.
