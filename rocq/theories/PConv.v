(* Conversion of numbers: slip_expand_*_array and slip_cast_array, seen through SLIP_matrix_copy. *)
From Coq Require Import QArith Qabs Qpower Lqa.
From Verif Require Import Base DetZ Spec SumQ MSolve PSolve PSolve2 MMatrix MatSpec PApi PMat PFloat PCopy.
Set Implicit Arguments.
Set Bullet Behavior "Strict Subproofs".
Open Scope Z_scope.

(*----------------------------------------------------------------------------*)
(* dividing by the gcd *)
Lemma reduce_gcd_spec y scale n E : 0 <= n <= zlen y ->
  wp (reduce_gcd y scale n) (fun '(y', s) => zlen y' = zlen y /\
    (((forall k, 0 <= k < n -> rd y k = 0) /\ y' = y /\ s = 0%Q) \/
     (exists g, g <> 0 /\ (exists k, 0 <= k < n /\ rd y k <> 0) /\ (forall k, 0 <= k < n -> rd y k = g * rd y' k) /\
        (forall c, (forall k, 0 <= k < n -> (c | rd y k)) -> (c | g)) /\ (s == scale / inject_Z g)%Q))) E.
Proof.
  intros Hn. unfold reduce_gcd. apply wp_bind. eapply wp_conseq.
  - apply wp_for with (I := fun i '(f, k, g, st) =>
      if (f : bool) then 0 <= k < i /\ (forall j, 0 <= j < k -> rd y j = 0) /\ rd y k <> 0 /\ g <> 0 /\
        (st = true -> g = 1) /\ (forall j, 0 <= j < i -> (g | rd y j)) /\
        (forall c, (forall j, 0 <= j < n -> (c | rd y j)) -> (c | g))
      else (forall j, 0 <= j < i -> rd y j = 0) /\ st = false); try lia.
    + split; auto. intros; lia.
    + intros i [[[f k] g] st] Hi H. unfold gcd_step. destruct st.
      { destruct f. 2: { destruct H; discriminate. } destruct H as (H1 & H2 & H3 & H4 & H5 & H6 & H7). simpl.
        split. lia. split; auto. split; auto. split; auto. split; auto. split; auto. rewrite (H5 eq_refl). intros j _. exists (rd y j). lia. }
      rewrite get_rd by lia. cbn [bind]. destruct f.
      * destruct H as (H1 & H2 & H3 & H4 & H5 & H6 & H7). simpl.
        assert (Z.gcd g (rd y i) <> 0). { intros G. apply Z.gcd_eq_0 in G. tauto. }
        split. lia. split; auto. split; auto. split; auto. split. { intros G. now apply Z.eqb_eq in G. } split.
        { intros j Hj. destruct (Z.eq_dec j i) as [->|]. apply Z.gcd_divide_r. apply Z.divide_trans with g. apply Z.gcd_divide_l. apply H6. lia. }
        intros c Hc. apply Z.gcd_greatest; auto.
      * destruct H as [H _]. destruct (Z.eqb_spec (rd y i) 0) as [Ez|Ez]; simpl.
        { split; auto. intros j Hj. destruct (Z.eq_dec j i) as [->|]; auto. apply H. lia. }
        split. lia. split. intros; apply H; lia. split; auto. split; auto. split. discriminate. split.
        { intros j Hj. destruct (Z.eq_dec j i) as [->|]. apply Z.divide_refl. rewrite (H j) by lia. apply Z.divide_0_r. }
        intros c Hc. apply Hc. lia.
  - intros [[[f k] g] st] H. destruct f; simpl negb; cbn [negb].
    2: { destruct H as [H _]. simpl. split; auto. }
    destruct H as (H1 & H2 & H3 & H4 & H5 & H6 & H7). destruct st.
    { simpl. split; auto. right. exists 1. rewrite (H5 eq_refl) in *. split. lia. split. { exists k. auto. } split. { intros; lia. } split; auto.
      unfold Qeq. simpl. lia. }
    apply wp_bind. eapply wp_conseq.
    + apply wp_for with (I := fun i y' => zlen y' = zlen y /\ (forall j, 0 <= j < i -> rd y j = g * rd y' j) /\ forall j, i <= j < n -> rd y' j = rd y j).
      * lia. * split; auto. split; auto. intros j Hj. rewrite H2 by lia. lia.
      * intros i y' Hi (G1 & G2 & G3). rewrite get_rd by lia. cbn [bind]. rewrite G3 by lia.
        destruct (H6 i ltac:(lia)) as [w Hw]. unfold divexact. destruct (Z.eqb_spec g 0); try contradiction.
        assert (M : rd y i mod g = 0) by (rewrite Hw; now apply Z.mod_mul). assert (D : rd y i / g = w) by (rewrite Hw; now apply Z.div_mul).
        rewrite M, D. simpl. rewrite set_wr by lia. simpl. rewrite zlen_wr. split; auto. split.
        { intros j Hj. rewrite rd_wr by lia. destruct (Z.eqb_spec j i); subst. lia. apply G2; lia. }
        intros j Hj. rewrite rd_wr by lia. destruct (Z.eqb_spec j i); subst. lia. apply G3; lia.
    + intros y' (G1 & G2 & G3). unfold mpq_div, mpq_z. simpl Qnum. destruct (Z.eqb_spec g 0); try contradiction. cbn [bind wp].
      split; auto. right. exists g. split; auto. split. { exists k; split; auto; lia. } split. { intros; apply G2; lia. } split; auto. apply Qred_correct.
Qed.

(*----------------------------------------------------------------------------*)
(* rounding *)
Lemma Qabs_Z z : (Qabs (inject_Z z) == inject_Z (Z.abs z))%Q.
Proof. reflexivity. Qed.
Lemma rounded_eq r q q' w : (q == q')%Q -> rounded r q w -> rounded r q' w.
Proof. intros E. destruct r; unfold rounded; rewrite E; auto. Qed.
Lemma frac_pos a b : 0 < b -> (a # Z.to_pos b == inject_Z a / inject_Z b)%Q.
Proof.
  intros H. destruct b; try lia. unfold Qdiv, Qmult, Qinv, inject_Z, Qeq. simpl. lia.
Qed.
Lemma rdiv_even a b : 0 < b -> 2 * Z.abs (a - b * rdiv RNDN a b) = b -> Z.even (rdiv RNDN a b) = true.
Proof.
  intros Hb. unfold rdiv; cbv zeta. pose proof (Z.div_mod a b ltac:(lia)). pose proof (Z.mod_pos_bound a b Hb).
  destruct (Z.ltb_spec (2 * (a - a / b * b)) b). lia. destruct (Z.gtb_spec (2 * (a - a / b * b)) b). lia.
  intros _. destruct (Z.even (a / b)) eqn:E; auto. rewrite Z.even_add, E. reflexivity.
Qed.
Lemma rdiv_rounded r a b : 0 < b -> rounded r (a # Z.to_pos b) (rdiv r a b).
Proof.
  intros Hb. pose proof (rdiv_err r a Hb) as He. pose proof (Z.div_mod a b ltac:(lia)). pose proof (Z.mod_pos_bound a b Hb).
  pose proof (Z.div_mod (-a) b ltac:(lia)). pose proof (Z.mod_pos_bound (-a) b Hb).
  destruct b as [|b|b]; try lia. simpl Z.to_pos.
  assert (G : forall w, Z.abs (a - Z.pos b * w) < Z.pos b -> (Qabs (inject_Z w - (a # b)) < 1)%Q).
  { intros w Hw. unfold Qlt, Qabs, Qminus, Qplus, Qopp, inject_Z. simpl. lia. }
  destruct r; unfold rounded.
  - pose proof (@rdiv_near a (Z.pos b) Hb) as Hn. pose proof (@rdiv_even a (Z.pos b) Hb) as Hv. revert Hn Hv. generalize (rdiv RNDN a (Z.pos b)). intros w Hn Hv.
    split. { unfold Qle, Qabs, Qminus, Qplus, Qopp, Qmult, inject_Z. cbn [Qnum Qden]. lia. }
    intros HE. apply Hv. revert HE. unfold Qeq, Qabs, Qminus, Qplus, Qopp, Qmult, inject_Z. cbn [Qnum Qden]. lia.
  - split; auto. unfold rdiv in *. unfold Qle, Qabs, inject_Z. simpl Qnum; simpl Qden.
    pose proof (Z.quot_rem a (Z.pos b) ltac:(lia)). pose proof (Z.rem_bound_abs a (Z.pos b) ltac:(lia)).
    assert (Z.abs (a ÷ Z.pos b) = Z.abs a / Z.pos b). { rewrite <- Z.quot_div_nonneg by lia. symmetry. apply (Z.quot_abs a (Z.pos b)). lia. }
    rewrite H5. pose proof (Z.div_mod (Z.abs a) (Z.pos b) ltac:(lia)). pose proof (Z.mod_pos_bound (Z.abs a) (Z.pos b) Hb). nia.
  - unfold rdiv in *. unfold Qle, Qlt, Qplus, inject_Z. simpl Qnum; simpl Qden. nia.
  - unfold rdiv in *. unfold Qle, Qlt, Qplus, inject_Z. simpl Qnum; simpl Qden. nia.
  - split; auto. unfold rdiv in *. unfold Qle, Qabs, inject_Z. simpl Qnum; simpl Qden. destruct (Z.ltb_spec a 0); nia.
Qed.
Lemma rounded_Z r z w : rounded r (inject_Z z) w -> w = z.
Proof.
  destruct r; unfold rounded; [intros [HN _]; revert HN| | | |]; unfold Qle, Qlt, Qabs, Qminus, Qplus, Qopp, Qmult, inject_Z; cbn [Qnum Qden]; lia.
Qed.
Lemma val2_pow m e : (val2 m e == inject_Z m * 2 ^ e)%Q.
Proof.
  unfold val2. destruct (Z.leb_spec 0 e).
  - rewrite inject_Z_mult, Zpower_Qpower by auto. reflexivity.
  - assert (0 < 2 ^ (- e)) by (apply Z.pow_pos_nonneg; lia). rewrite frac_pos by auto.
    unfold Qdiv. rewrite Zpower_Qpower by lia. replace (2 ^ e)%Q with (2 ^ (- - e))%Q by (f_equal; lia). rewrite (Qpower_opp 2 (- e)). reflexivity.
Qed.
Lemma fl_q_val m e : exists q, fl_q (FFin m e) = Some q /\ (q == inject_Z m * 2 ^ e)%Q.
Proof.
  unfold fl_q. destruct (Z.leb_spec 0 e) as [H|H].
  - eexists. split; [reflexivity|]. rewrite <- val2_pow. unfold val2. destruct (Z.leb_spec 0 e); try lia. reflexivity.
  - eexists. split; [reflexivity|]. rewrite Qred_correct, <- val2_pow. unfold val2. destruct (Z.leb_spec 0 e); try lia. reflexivity.
Qed.
Lemma get_z_rounded r m e : rounded r (inject_Z m * 2 ^ e) (mpfr_get_z r (FFin m e)).
Proof.
  apply rounded_eq with (val2 m e). { apply val2_pow. }
  unfold val2, mpfr_get_z. destruct (Z.leb_spec 0 e).
  - destruct r; unfold rounded; try (split; [|intros HE; exfalso; revert HE]); rewrite ?Qabs_Z; unfold Qeq, Qle, Qlt, Qabs, Qminus, Qplus, Qopp, Qmult, inject_Z; cbn [Qnum Qden]; lia.
  - apply rdiv_rounded. apply Z.pow_pos_nonneg; lia.
Qed.

(*----------------------------------------------------------------------------*)
(* expansion of floating-point numbers to integers with a common scale *)
Lemma expand_spec r B (f : fl -> Z) x y nz E : 0 < B -> 0 <= nz -> nz <= zlen x -> nz <= zlen y ->
  (forall k, 0 <= k < nz -> match fl_q (rdg FNan x k) with Some q => rounded r (q * inject_Z B) (f (rdg FNan x k)) | None => f (rdg FNan x k) = 0 end) ->
  wp (let* y := conv_loop nz (fun v => Ok (f v)) x y in reduce_gcd y (inject_Z B) nz) (fun '(y, s) => expansion r B x nz y s) E.
Proof.
  intros HB Hn Hx Hy Hf. apply wp_bind. eapply wp_conseq.
  { apply (@conv_loop_spec fl Z FNan 0); auto. intros; exact I. }
  intros y1 (G1 & G2 & _). cbn beta in G2.
  assert (G : forall k, 0 <= k < nz -> rd y1 k = f (rdg FNan x k)). { intros k Hk. specialize (G2 k Hk). injection G2 as ->. reflexivity. }
  eapply wp_conseq. apply reduce_gcd_spec. lia. intros [y' s] (L & H). exists (fun k => f (rdg FNan x k)). split; auto.
  destruct H as [(Z0 & -> & ->)|(g & Hg & (k & Hk & Hne) & Hd & Hmax & Hs)].
  - left. split. intros k Hk. rewrite <- G by auto. auto. auto.
  - right. split. { exists k. split; auto. rewrite <- G by auto. auto. } 
    assert (HBq : ~ (inject_Z B == 0)%Q) by (unfold Qeq; simpl; lia). assert (Hgq : ~ (inject_Z g == 0)%Q) by (unfold Qeq; simpl; lia).
    assert (Hs0 : ~ (s == 0)%Q). { rewrite Hs. intros HH. apply HBq. transitivity (inject_Z B / inject_Z g * inject_Z g)%Q. { field; auto. } rewrite HH. ring. }
    split; auto. split.
    + intros j Hj. rewrite Hs. rewrite <- G by auto. rewrite (Hd j Hj), inject_Z_mult. field. auto.
    + intros c Hc. assert (D : (g * c | g)). { apply Hmax. intros j Hj. rewrite (Hd j Hj). apply Z.mul_divide_mono_l. auto. }
      destruct D as [t Ht]. assert (t * c = 1) by nia. apply Z.mul_eq_1 with t. lia.
Qed.

Lemma digits_mul_le a b p q : 0 <= p -> 0 <= q -> digits a <= p -> digits b <= q -> digits (a * b) <= p + q.
Proof.
  intros Hp Hq Ha Hb. apply digits_le in Ha; auto. apply digits_le in Hb; auto. apply digits_le. lia.
  rewrite Z.abs_mul, Z.pow_add_r by lia. pose proof (Z.pow_pos_nonneg 2 p ltac:(lia) Hp). pose proof (Z.pow_pos_nonneg 2 q ltac:(lia) Hq). nia.
Qed.

(* finite and with at most p digits, or not finite *)

Lemma double_scaled r prec v : 93 <= prec -> fits 53 v ->
  match fl_q v with Some q => rounded r (q * inject_Z (10 ^ 17)) (mpfr_get_z r (mpfr_mul r prec (rnd_fl r prec v) ten17))
  | None => mpfr_get_z r (mpfr_mul r prec (rnd_fl r prec v) ten17) = 0 end.
Proof.
  intros Hp Hv. destruct v as [|n|m e]; try reflexivity. simpl in Hv. destruct (fl_q_val m e) as (q & -> & Hq).
  cbn [rnd_fl]. rewrite rnd_fin_id by lia. cbn [mpfr_mul ten17]. 
  rewrite rnd_fin_id. 2: { assert (digits (m * 5 ^ 17) <= 53 + 40). { apply digits_mul_le; auto; try lia. vm_compute. discriminate. } lia. }
  eapply rounded_eq. 2: apply get_z_rounded.
  rewrite Hq, inject_Z_mult, Qpower_plus by discriminate. change (2 ^ 17)%Q with (inject_Z (2 ^ 17)).
  replace (10 ^ 17) with (5 ^ 17 * 2 ^ 17) by reflexivity. rewrite (inject_Z_mult (5 ^ 17)). ring.
Qed.
Lemma mpfr_scaled r prec v : 1 <= prec -> fits prec v ->
  match fl_q v with Some q => rounded r (q * inject_Z (2 ^ prec)) (mpfr_get_z r (mpfr_mul r prec v (FFin 1 prec)))
  | None => mpfr_get_z r (mpfr_mul r prec v (FFin 1 prec)) = 0 end.
Proof.
  intros Hp Hv. destruct v as [|n|m e]; try reflexivity. simpl in Hv. destruct (fl_q_val m e) as (q & -> & Hq).
  cbn [mpfr_mul]. rewrite Z.mul_1_r, rnd_fin_id by auto.
  eapply rounded_eq. 2: apply get_z_rounded.
  rewrite Hq, Qpower_plus by discriminate. rewrite Zpower_Qpower by lia. change (inject_Z 2) with 2%Q. ring.
Qed.

Theorem double_to_mpz o addr A nz x : stores A nz (VD x) -> 93 <= opt_prec o -> (forall k, 0 <= k < nz -> fits 53 (rdg FNan x k)) ->
  exists y s, converted o addr TMPZ A (VZ y) s /\ expansion (opt_round o) (10 ^ 17) x nz y s.
Proof.
  intros HS Hp Hf. destruct (stores_facts HS) as (Hz & Hn & Hx & Ht & Hm & Hnn). simpl in Hn.
  destruct (wp_ok_ex _ _ (@expand_spec (opt_round o) (10 ^ 17) (fun v => mpfr_get_z (opt_round o) (mpfr_mul (opt_round o) (opt_prec o) (rnd_fl (opt_round o) (opt_prec o) v) ten17))
    x (mk (Z.max nz 1) 0) nz nerr ltac:(reflexivity) ltac:(lia) ltac:(lia) ltac:(rewrite zlen_mk; lia) ltac:(intros; apply double_scaled; auto))) as ([y s] & E & H).
  exists y, s. split; auto. apply (@converted_intro o addr A nz (VD x) TMPZ (VZ y) s HS). { vm_compute; split; discriminate. }
  change (fresh_vals TMPZ (Z.max nz 1)) with (VZ (mk (Z.max nz 1) 0)). cbn [slip_cast_array]. unfold slip_expand_double_array. rewrite E. reflexivity.
Qed.
Theorem mpfr_to_mpz o addr A nz x : stores A nz (VR x) -> 1 <= opt_prec o -> (forall k, 0 <= k < nz -> fits (opt_prec o) (rdg FNan x k)) ->
  exists y s, converted o addr TMPZ A (VZ y) s /\ expansion (opt_round o) (2 ^ opt_prec o) x nz y s.
Proof.
  intros HS Hp Hf. destruct (stores_facts HS) as (Hz & Hn & Hx & Ht & Hm & Hnn). simpl in Hn.
  destruct (wp_ok_ex _ _ (@expand_spec (opt_round o) (2 ^ opt_prec o) (fun v => mpfr_get_z (opt_round o) (mpfr_mul (opt_round o) (opt_prec o) v (FFin 1 (opt_prec o))))
    x (mk (Z.max nz 1) 0) nz nerr ltac:(apply Z.pow_pos_nonneg; lia) ltac:(lia) ltac:(lia) ltac:(rewrite zlen_mk; lia) ltac:(intros; apply mpfr_scaled; auto))) as ([y s] & E & H).
  exists y, s. split; auto. apply (@converted_intro o addr A nz (VR x) TMPZ (VZ y) s HS). { vm_compute; split; discriminate. }
  change (fresh_vals TMPZ (Z.max nz 1)) with (VZ (mk (Z.max nz 1) 0)). cbn [slip_cast_array]. unfold slip_expand_mpfr_array. rewrite E. reflexivity.
Qed.

(*----------------------------------------------------------------------------*)
(* rationals to integers *)
Lemma mpz_set_q_int q z : (q == inject_Z z)%Q -> mpz_set_q q = z.
Proof.
  unfold mpz_set_q, Qeq. simpl. intros H. rewrite Z.mul_1_r in H. rewrite H. apply Z.quot_mul. discriminate.
Qed.
Lemma mpq_to_mpz_array y x n E : 1 <= n <= zlen x -> n <= zlen y ->
  wp (slip_expand_mpq_array y x n) (fun '(y', sc) => zlen y' = zlen y /\ exists s, sc = inject_Z s /\ 1 <= s /\
    (forall k, 0 <= k < n -> (inject_Z (rd y' k) == inject_Z s * rdg 0%Q x k)%Q) /\
    (forall k, 0 <= k < n -> (Z.pos (Qden (rdg 0%Q x k)) | s)) /\
    (forall c, (forall k, 0 <= k < n -> (Z.pos (Qden (rdg 0%Q x k)) | c)) -> (s | c))) E.
Proof.
  intros Hx Hy. unfold slip_expand_mpq_array. apply wp_bind. eapply wp_conseq.
  { apply (@conv_loop_spec Q Z 0%Q 0); try lia. rewrite zlen_mk; lia. intros; exact I. }
  intros d (D1 & D2 & _). rewrite zlen_mk in D1 by lia.
  assert (D : forall k, 0 <= k < n -> rd d k = Z.pos (Qden (rdg 0%Q x k))). { intros k Hk. specialize (D2 k Hk). injection D2 as D2. symmetry. exact D2. }
  rewrite get_rd by lia. cbn [bind]. apply wp_bind. eapply wp_conseq.
  { apply wp_for with (I := fun i t => 1 <= t /\ (forall k, 0 <= k < i -> (rd d k | t)) /\
      forall c, (forall k, 0 <= k < i -> (rd d k | c)) -> (t | c)); try lia.
    - rewrite D by lia. split. lia. split. { intros k Hk. replace k with 0 by lia. rewrite D by lia. apply Z.divide_refl. }
      intros c Hc. rewrite <- D by lia. apply Hc. lia.
    - intros i t Hi (T1 & T2 & T3). rewrite get_rd by lia. cbn [bind wp]. rewrite (D i) by lia.
      assert (Z.lcm (Z.pos (Qden (rdg 0%Q x i))) t <> 0). { intros HH. apply Z.lcm_eq_0 in HH. lia. }
      pose proof (Z.lcm_nonneg (Z.pos (Qden (rdg 0%Q x i))) t).
      split. lia. split.
      + intros k Hk. destruct (Z.eq_dec k i) as [->|]. rewrite D by lia. apply Z.divide_lcm_l. apply Z.divide_trans with t. apply T2; lia. apply Z.divide_lcm_r.
      + intros c Hc. apply Z.lcm_least. rewrite <- D by lia. apply Hc; lia. apply T3. intros; apply Hc; lia. }
  intros s (S1 & S2 & S3). cbn [mpq_z]. apply wp_bind. eapply wp_conseq.
  { apply (@conv_loop_spec Q Z 0%Q 0); try lia. intros; exact I. }
  intros y' (Y1 & Y2 & _). cbn [wp]. split; auto. exists s. split; [reflexivity|]. split; auto. split; [|split].
  - intros k Hk. specialize (Y2 k Hk). injection Y2 as Y2. change (rd y' k) with (rdg 0 y' k). rewrite <- Y2.
    destruct (S2 k Hk) as [t Ht]. rewrite D in Ht by auto. set (q := rdg 0%Q x k) in *.
    assert (EQ : (mpq_mul q (mpq_z s) == inject_Z (t * Qnum q))%Q).
    { unfold mpq_mul, mpq_z. rewrite Qred_correct. rewrite Ht. unfold Qeq, Qmult, inject_Z. simpl. lia. }
    rewrite (mpz_set_q_int EQ), <- EQ. unfold mpq_mul, mpq_z. rewrite Qred_correct. ring.
  - intros k Hk. rewrite <- D by auto. auto.
  - intros c Hc. apply S3. intros k Hk. rewrite D by auto. auto.
Qed.
Lemma mpq_to_mpz_empty y x E : wp (slip_expand_mpq_array y x 0) (fun '(y', sc) => y' = y /\ sc = 0%Q) E.
Proof. unfold slip_expand_mpq_array, conv_loop. rewrite !for_empty by lia. split; reflexivity. Qed.

(* z is the least scale that makes q integral *)
Lemma den_divides q c : canon q -> (exists z, (inject_Z c * q == inject_Z z)%Q) -> (Z.pos (Qden q) | c).
Proof.
  intros Hq (z & Hz). unfold Qeq, Qmult, inject_Z in Hz. simpl in Hz.
  assert (G : Z.gcd (Qnum q) (Z.pos (Qden q)) = 1).
  { destruct q as [n d]. unfold canon, Qred in Hq. simpl. pose proof (Z.ggcd_gcd n (Z.pos d)) as H1. pose proof (Z.ggcd_correct_divisors n (Z.pos d)) as H2.
    destruct (Z.ggcd n (Z.pos d)) as [g [aa bb]]. simpl in *. injection Hq as Hn Hd. destruct H2 as [H2 H3]. subst g.
    assert (bb > 0). { pose proof (Z.gcd_nonneg n (Z.pos d)). nia. }
    assert (bb = Z.pos d) by lia. subst bb. nia. }
  apply Z.gauss with (Qnum q). exists z. lia. rewrite Z.gcd_comm. auto.
Qed.

Theorem mpq_to_mpz o addr A nz x : stores A nz (VQ x) -> 1 <= nz -> (forall k, 0 <= k < nz -> canon (rdg 0%Q x k)) ->
  exists y s, converted o addr TMPZ A (VZ y) (inject_Z s) /\ 1 <= s /\
    (forall k, 0 <= k < nz -> (inject_Z (rd y k) == inject_Z s * rdg 0%Q x k)%Q) /\
    (forall c, (forall k, 0 <= k < nz -> exists z, (inject_Z c * rdg 0%Q x k == inject_Z z)%Q) -> (s | c)).
Proof.
  intros HS H1 Hc. destruct (stores_facts HS) as (Hz & Hn & Hx & Ht & Hm & Hnn). simpl in Hn.
  destruct (wp_ok_ex _ _ (@mpq_to_mpz_array (mk (Z.max nz 1) 0) x nz nerr ltac:(lia) ltac:(rewrite zlen_mk; lia))) as ([y sc] & E & L & s & -> & S1 & S2 & S3 & S4).
  exists y, s. split.
  { apply (@converted_intro o addr A nz (VQ x) TMPZ (VZ y) (inject_Z s) HS). { vm_compute; split; discriminate. }
    change (fresh_vals TMPZ (Z.max nz 1)) with (VZ (mk (Z.max nz 1) 0)). cbn [slip_cast_array]. rewrite E. reflexivity. }
  split; auto. split; auto. intros c Hcc. apply S4. intros k Hk. apply den_divides; auto.
Qed.
Theorem mpq_to_mpz_none o addr A x : stores A 0 (VQ x) -> exists y, converted o addr TMPZ A (VZ y) 0%Q.
Proof.
  intros HS. destruct (wp_ok_ex _ _ (@mpq_to_mpz_empty (mk 1 0) x nerr)) as ([y sc] & E & -> & ->). eexists.
  apply (@converted_intro o addr A 0 (VQ x) TMPZ _ _ HS). { vm_compute; split; discriminate. }
  change (fresh_vals TMPZ (Z.max 0 1)) with (VZ (mk 1 0)). cbn [slip_cast_array]. rewrite E. reflexivity.
Qed.

(*----------------------------------------------------------------------------*)
(* integers with a scale to rationals *)
Lemma unscale_spec s z : canon s -> ~ (s == 0)%Q -> exists q, unscale s z = Ok q /\ canon q /\ (q == inject_Z z / s)%Q.
Proof.
  intros Hs H0. unfold unscale. destruct (mpq_equal_spec Hs canon_1) as [e|ne].
  - exists (inject_Z z). split; auto. split. apply canon_z. rewrite e. field.
  - unfold mpq_div. destruct (Z.eqb_spec (Qnum s) 0) as [e|_]. { exfalso. apply H0. unfold Qeq. simpl. lia. }
    eexists. split; [reflexivity|]. split. apply canon_red. apply Qred_correct.
Qed.
Lemma convert_loop_ok (A B : Type) (da : A) (db : B) (f : A -> res B) n x d (P : A -> B -> Prop) : 0 <= n <= zlen x ->
  (forall k, 0 <= k < n -> exists w, f (rdg da x k) = Ok w /\ P (rdg da x k) w) ->
  exists y, conv_loop n f x (mk (Z.max n 1) d) = Ok y /\ forall k, 0 <= k < n -> P (rdg da x k) (rdg db y k).
Proof.
  intros Hn H. destruct (wp_ok_ex _ _ (@conv_loop_spec A B da db n f x (mk (Z.max n 1) d) nerr ltac:(lia) ltac:(lia) ltac:(rewrite zlen_mk; lia)
    ltac:(intros k Hk; destruct (H k Hk) as (w & -> & _); exact I))) as (y & E & _ & G & _).
  exists y. split; auto. intros k Hk. destruct (H k Hk) as (w & E1 & HP). rewrite (G k Hk) in E1. injection E1 as <-. auto.
Qed.
Theorem mpz_to_mpq o addr A nz x : stores A nz (VZ x) -> canon (m_scale A) -> ~ (m_scale A == 0)%Q ->
  exists y, converted o addr TMPQ A (VQ y) 1%Q /\
    forall k, 0 <= k < nz -> canon (rdg 0%Q y k) /\ (rdg 0%Q y k == inject_Z (rd x k) / m_scale A)%Q.
Proof.
  intros HS Hc H0. destruct (stores_facts HS) as (Hz & Hn & Hx & Ht & Hm & Hnn). simpl in Hn.
  destruct (@convert_loop_ok Z Q 0 0%Q (unscale (m_scale A)) nz x 0%Q (fun z q => canon q /\ (q == inject_Z z / m_scale A)%Q) Hn) as (y & E & H).
  { intros k Hk. apply unscale_spec; auto. }
  exists y. split; auto.
  apply (@converted_intro o addr A nz (VZ x) TMPQ _ _ HS). { vm_compute; split; discriminate. }
  change (fresh_vals TMPQ (Z.max nz 1)) with (VQ (mk (Z.max nz 1) 0%Q)). cbn [slip_cast_array]. rewrite E. reflexivity.
Qed.
Theorem int64_to_mpz o addr A nz x : stores A nz (VI x) ->
  exists y, converted o addr TMPZ A (VZ y) 1%Q /\ forall k, 0 <= k < nz -> rd y k = rd x k.
Proof.
  intros HS. destruct (stores_facts HS) as (Hz & Hn & Hx & Ht & Hm & Hnn). simpl in Hn.
  destruct (@convert_loop_ok Z Z 0 0 (fun v => Ok v) nz x 0 (fun z q => q = z) Hn) as (y & E & H).
  { intros k Hk. eauto. }
  exists y. split; auto.
  apply (@converted_intro o addr A nz (VI x) TMPZ _ _ HS). { vm_compute; split; discriminate. }
  change (fresh_vals TMPZ (Z.max nz 1)) with (VZ (mk (Z.max nz 1) 0)). cbn [slip_cast_array]. rewrite E. reflexivity.
Qed.
Theorem int64_to_mpq o addr A nz x : stores A nz (VI x) -> (forall k, 0 <= k < nz -> 1 <= addr k) ->
  exists y, converted o addr TMPQ A (VQ y) 1%Q /\ forall k, 0 <= k < nz -> (rdg 0%Q y k == inject_Z (rd x k) / inject_Z (addr k))%Q.
Proof.
  intros HS Ha. destruct (stores_facts HS) as (Hz & Hn & Hx & Ht & Hm & Hnn). simpl in Hn.
  assert (W : wp (for_ 0 nz (fun k y => let* v := get x k in let* w := SLIP_mpq_set_si (addr k) v in set y k w) (mk (Z.max nz 1) 0%Q))
    (fun y => zlen y = Z.max nz 1 /\ forall k, 0 <= k < nz -> (rdg 0%Q y k == inject_Z (rd x k) / inject_Z (addr k))%Q) nerr).
  { apply wp_for with (I := fun i y => zlen y = Z.max nz 1 /\ forall k, 0 <= k < i -> (rdg 0%Q y k == inject_Z (rd x k) / inject_Z (addr k))%Q); try lia.
    - rewrite zlen_mk by lia. split; auto. intros; lia.
    - intros i y Hi (L & G). rewrite get_rd by lia. cbn [bind]. unfold SLIP_mpq_set_si. specialize (Ha i ltac:(lia)). destruct (Z.leb_spec (addr i) 0); try lia. cbn [bind].
      rewrite set_wrg by lia. cbn [wp]. rewrite zlen_wrg. split; auto. intros k Hk. rewrite rdg_wrg by lia. destruct (Z.eqb_spec k i) as [->|]; [|apply G; lia].
      apply frac_pos. lia. }
  destruct (wp_ok_ex _ _ W) as (y & E & _ & H). exists y. split; auto.
  apply (@converted_intro o addr A nz (VI x) TMPQ _ _ HS). { vm_compute; split; discriminate. }
  change (fresh_vals TMPQ (Z.max nz 1)) with (VQ (mk (Z.max nz 1) 0%Q)). cbn [slip_cast_array]. rewrite E. reflexivity.
Qed.
Theorem double_to_mpq o addr A nz x : stores A nz (VD x) -> (forall k, 0 <= k < nz -> fl_q (rdg FNan x k) <> None) ->
  exists y, converted o addr TMPQ A (VQ y) 1%Q /\ forall k, 0 <= k < nz -> fl_q (rdg FNan x k) = Some (rdg 0%Q y k).
Proof.
  intros HS Hf. destruct (stores_facts HS) as (Hz & Hn & Hx & Ht & Hm & Hnn). simpl in Hn.
  destruct (@convert_loop_ok fl Q FNan 0%Q mpq_set_d nz x 0%Q (fun v q => fl_q v = Some q) Hn) as (y & E & H).
  { intros k Hk. specialize (Hf k Hk). unfold mpq_set_d. destruct (fl_q (rdg FNan x k)); [eauto|contradiction]. }
  exists y. split; auto.
  apply (@converted_intro o addr A nz (VD x) TMPQ _ _ HS). { vm_compute; split; discriminate. }
  change (fresh_vals TMPQ (Z.max nz 1)) with (VQ (mk (Z.max nz 1) 0%Q)). cbn [slip_cast_array]. rewrite E. reflexivity.
Qed.
