(* C57, continued: how far the floating-point output of SLIP_backslash is from the exact solution. *)
From Coq Require Import QArith Qabs Qpower Lqa Qround.
From Verif Require Import Base DetZ Spec SumQ MSolve PSolve PSolve2 MMatrix MatSpec MApi ApiSpec PApi PMat PFloat PCopy PConv PRound PropMat PropMat2 PropMat3 LUEx PropLU2.
Set Implicit Arguments.
Set Bullet Behavior "Strict Subproofs".
Open Scope Z_scope.

(* q lies between two numbers of the format: the rounded number is not further away than they are apart *)
Lemma rounding_between r (F : Q -> Prop) ties q x y z : rounding r F ties q x -> F y -> F z -> (y <= q)%Q -> (q <= z)%Q -> (Qabs (x - q) <= z - y)%Q.
Proof.
  intros (_ & R) Hy Hz Ly Lz.
  assert (B : below F q x -> (Qabs (x - q) <= z - y)%Q). { intros (B1 & B2). specialize (B2 y Hy Ly). apply Qabs_le2. split; lra. }
  assert (A : above F q x -> (Qabs (x - q) <= z - y)%Q). { intros (B1 & B2). specialize (B2 z Hz Lz). apply Qabs_le2. split; lra. }
  destruct r.
  - destruct R as (C & _). specialize (C y Hy). eapply Qle_trans; [exact C|]. apply Qabs_le2. split; lra.
  - destruct R as (R1 & R2). destruct (Qlt_le_dec q 0) as [H|H]; [apply A, R2; lra|apply B, R1; exact H].
  - apply A, R.
  - apply B, R.
  - destruct R as (R1 & R2). destruct (Qlt_le_dec q 0) as [H|H]; [apply B, R2; lra|apply A, R1; exact H].
Qed.
Lemma rounding_exact r (F : Q -> Prop) ties q x : rounding r F ties q x -> F q -> (x == q)%Q.
Proof. intros R H. pose proof (rounding_between R H H (Qle_refl q) (Qle_refl q)) as E. apply Qabs_le2 in E. lra. Qed.

Lemma exponent p q : 1 <= p -> ~ (q == 0)%Q -> exists e, (2 ^ (p - 1) * 2 ^ e <= Qabs q)%Q /\ (Qabs q < 2 ^ p * 2 ^ e)%Q.
Proof.
  intros Hp H0. assert (E : Qnum q <> 0) by (intros E; apply H0; unfold Qeq; simpl; lia).
  pose proof (@exp_q_spec p (Qnum q) (Z.pos (Qden q)) Hp E ltac:(lia)) as H. set (e := exp_q p (Qnum q) (Z.pos (Qden q))) in *.
  destruct (shl (Qnum q) (Z.pos (Qden q)) e) as [a b] eqn:ES. destruct H as (H1 & H2 & H3).
  assert (HV : (q == (a # Z.to_pos b) * 2 ^ e)%Q) by (eapply shl_val; eauto).
  exists e. rewrite HV, Qabs_Qmult, (Qabs_pos (2 ^ e)) by (pose proof (pow_pos e); lra). pose proof (pow_pos e). split.
  - apply Qmult_le_compat_r; [|lra]. rewrite pow_Z by lia. destruct b as [|b|b]; try lia. unfold Qle, Qabs, inject_Z. cbn [Qnum Qden Z.to_pos]. lia.
  - apply Qmult_lt_compat_r; [lra|]. rewrite pow_Z by lia. destruct b as [|b|b]; try lia. unfold Qlt, Qabs, inject_Z. cbn [Qnum Qden Z.to_pos]. lia.
Qed.
(* the multiples of 2^e around q *)
Lemma neighbours p e q : 1 <= p -> (Qabs q < 2 ^ p * 2 ^ e)%Q -> exists m, Z.abs m <= 2 ^ p /\ Z.abs (m + 1) <= 2 ^ p /\
  (inject_Z m * 2 ^ e <= q)%Q /\ (q <= inject_Z (m + 1) * 2 ^ e)%Q.
Proof.
  intros Hp H. pose proof (pow_pos e) as He. set (t := (q / 2 ^ e)%Q). assert (Ht : (q == t * 2 ^ e)%Q) by (unfold t; field; apply pow_ne).
  assert (T : (Qabs t < inject_Z (2 ^ p))%Q).
  { rewrite <- pow_Z by lia. rewrite Ht, Qabs_Qmult, (Qabs_pos (2 ^ e)) in H by lra. apply (Qmult_lt_r _ _ _ He). exact H. }
  apply Qabs_lt2 in T. destruct T as (T1 & T2). pose proof (Qfloor_le t) as F1. pose proof (Qlt_floor t) as F2. exists (Qfloor t).
  assert (L1 : Qfloor t < 2 ^ p) by (rewrite Zlt_Qlt; lra).
  assert (L2 : - 2 ^ p < Qfloor t + 1) by (rewrite Zlt_Qlt, inject_Z_opp; lra).
  split; [lia|]. split; [lia|]. split; rewrite Ht; apply Qmult_le_compat_r; lra.
Qed.
Lemma grid_point p m e : 1 <= p -> Z.abs m <= 2 ^ p -> exists m' e', Z.abs m' < 2 ^ p /\ e <= e' /\ (inject_Z m * 2 ^ e == inject_Z m' * 2 ^ e')%Q.
Proof.
  intros Hp H. destruct (Z_lt_dec (Z.abs m) (2 ^ p)) as [L|L]; [exists m, e; split; [exact L|split; [lia|reflexivity]]|].
  assert (D : 2 ^ p = 2 * 2 ^ (p - 1)) by (replace p with (1 + (p - 1)) at 1 by lia; rewrite Z.pow_add_r by lia; reflexivity).
  pose proof (Z.pow_pos_nonneg 2 (p - 1) ltac:(lia) ltac:(lia)).
  assert (exists m', m = m' * 2 /\ Z.abs m' = 2 ^ (p - 1)) as (m' & -> & Hm').
  { destruct (Z.abs_spec m) as [[? E]|[? E]]; [exists (2 ^ (p - 1))|exists (- 2 ^ (p - 1))]; lia. }
  exists m', (e + 1). split; [lia|]. split; [lia|]. rewrite pow_add, inject_Z_mult. change (2 ^ 1)%Q with 2%Q. change (inject_Z 2) with 2%Q. ring.
Qed.

(* the distance from the exact number: at most one unit in the last place *)
Lemma fl_rounded_error r p q f : 1 <= p -> fl_rounded r p q f ->
  exists v, fl_q f = Some v /\ (Qabs (v - q) <= 2 ^ (1 - p) * Qabs q)%Q /\ (representable p q -> (v == q)%Q).
Proof.
  intros Hp (v & Ev & R). exists v. split; [exact Ev|]. split; [|intros H; apply (rounding_exact R H)].
  destruct (Qeq_dec q 0) as [Z|NZ].
  - assert (E : (v == q)%Q).
    { apply (rounding_exact R). exists 0, 0. split; [simpl; apply Z.pow_pos_nonneg; lia|]. rewrite Z. ring. }
    rewrite E, Z. change (Qabs (0 - 0)) with 0%Q. change (Qabs 0) with 0%Q. lra.
  - destruct (exponent Hp NZ) as (e & E1 & E2). destruct (@neighbours p e q Hp E2) as (m & M1 & M2 & M3 & M4).
    destruct (@grid_point p m e Hp M1) as (m1 & e1 & A1 & A2 & A3). destruct (@grid_point p (m + 1) e Hp M2) as (m2 & e2 & B1 & B2 & B3).
    eapply Qle_trans; [eapply (rounding_between R); [exists m1, e1; split; [exact A1|exact A3]|exists m2, e2; split; [exact B1|exact B3]|exact M3|exact M4]|].
    rewrite inject_Z_plus. setoid_replace ((inject_Z m + inject_Z 1) * 2 ^ e - inject_Z m * 2 ^ e)%Q with (2 ^ e)%Q by (change (inject_Z 1) with 1%Q; ring).
    pose proof (pow_pos (1 - p)) as P1. assert (P2 : (2 ^ (1 - p) * 2 ^ (p - 1) == 1)%Q) by (rewrite <- pow_add; replace (1 - p + (p - 1)) with 0 by lia; reflexivity).
    setoid_replace (2 ^ e)%Q with (2 ^ (1 - p) * (2 ^ (p - 1) * 2 ^ e))%Q by (rewrite Qmult_assoc, P2; ring).
    rewrite !(Qmult_comm (2 ^ (1 - p))). apply Qmult_le_compat_r; lra.
Qed.
Lemma double_rounded_error q f : double_rounded RNDZ true q f -> (Qabs q < 2 ^ 1024)%Q ->
  exists v, fl_q f = Some v /\ (Qabs v <= Qabs q)%Q /\ (double_grid q -> (v == q)%Q) /\
    ((2 ^ (-1022) <= Qabs q)%Q -> (Qabs (v - q) <= 2 ^ (-52) * Qabs q)%Q) /\ ((Qabs q <= 2 ^ (-1022))%Q -> (Qabs (v - q) <= 2 ^ (-1074))%Q).
Proof.
  intros (x & R & Fin & _) Hq.
  assert (G0 : double_grid 0) by (exists 0, 0; split; [reflexivity|split; [lia|reflexivity]]).
  assert (Hx : (Qabs x <= Qabs q)%Q).
  { destruct R as (_ & R1 & R2). destruct (Qlt_le_dec q 0) as [H|H].
    - destruct (R2 ltac:(lra)) as (A & B). specialize (B 0%Q G0 ltac:(lra)). rewrite (Qabs_neg q), (Qabs_neg x) by lra. lra.
    - destruct (R1 H) as (A & B). specialize (B 0%Q G0 H). rewrite (Qabs_pos q), (Qabs_pos x) by lra. lra. }
  destruct (Fin (Qle_lt_trans _ _ _ Hx Hq)) as (v & Ev & Vx). exists v. split; [exact Ev|]. split; [rewrite Vx; exact Hx|]. split; [intros H; rewrite Vx; apply (rounding_exact R H)|].
  assert (N : forall e, -1074 <= e -> (Qabs q < 2 ^ 53 * 2 ^ e)%Q -> (Qabs (v - q) <= 2 ^ e)%Q).
  { intros e He E2. assert (P53 : 1 <= 53) by lia. destruct (@neighbours 53 e q P53 E2) as (m & M1 & M2 & M3 & M4).
    destruct (@grid_point 53 m e P53 M1) as (m1 & e1 & A1 & A2 & A3). destruct (@grid_point 53 (m + 1) e P53 M2) as (m2 & e2 & B1 & B2 & B3).
    rewrite Vx. eapply Qle_trans; [eapply (rounding_between R); [exists m1, e1; split; [exact A1|split; [lia|exact A3]]|exists m2, e2; split; [exact B1|split; [lia|exact B3]]|exact M3|exact M4]|].
    rewrite inject_Z_plus. change (inject_Z 1) with 1%Q. lra. }
  split; intros H.
  - assert (NZ : ~ (q == 0)%Q). { intros Z. rewrite Z in H. pose proof (pow_pos (-1022)). change (Qabs 0) with 0%Q in H. lra. }
    destruct (@exponent 53 q ltac:(lia) NZ) as (e & E1 & E2).
    assert (He : -1074 <= e). { assert (L : (2 ^ (-1022) < 2 ^ (53 + e))%Q) by (rewrite pow_add; eapply Qle_lt_trans; [exact H|exact E2]). apply pow_lt_inv in L. lia. }
    eapply Qle_trans; [apply (N e He E2)|]. change (53 - 1) with 52 in E1.
    setoid_replace (2 ^ e)%Q with (2 ^ (-52) * (2 ^ 52 * 2 ^ e))%Q by (rewrite Qmult_assoc, <- (pow_add (-52) 52); change (-52 + 52) with 0; change (2 ^ 0)%Q with 1%Q; ring).
    pose proof (pow_pos (-52)). rewrite !(Qmult_comm (2 ^ (-52))). apply Qmult_le_compat_r; lra.
  - apply (N (-1074)); [lia|]. eapply Qle_lt_trans; [exact H|]. rewrite <- pow_add. change (53 + -1074) with (-1021). change (-1021) with (1 + -1022) at 1. rewrite pow_add.
    change (2 ^ 1)%Q with 2%Q. pose proof (pow_pos (-1022)). lra.
Qed.

(* C57: with MPFR output every entry is within one unit in the last place of the exact solution, in every rounding mode, and a solution
   that has at most prec digits is returned exactly. *)
Theorem C57_mpfr_error : forall env ol addr n nrhs A B o,
  int_csc n n A -> int_dense n nrhs B -> env_ok env (opt_pivot o) ->
  1 <= n -> ~ (m_scale A == 0)%Q -> ~ (m_scale B == 0)%Q -> 1 <= opt_prec o -> detz n (Cent A) <> 0 ->
  exists X Y f, rat_dense n nrhs X /\ solves n A B X /\
    SLIP_backslash env ol addr true true TMPFR (Some A) (Some B) o = Ok (SOK, Out Y) /\ m_m Y = n /\ m_n Y = nrhs /\ m_x Y = Some (VR f) /\
    forall i r, 0 <= i < n -> 0 <= r < nrhs -> exists v, fl_q (nth (Z.to_nat (i + r * n)) f FNan) = Some v /\
      (Qabs (v - Qent X i r) <= 2 ^ (1 - opt_prec o) * Qabs (Qent X i r))%Q /\ (representable (opt_prec o) (Qent X i r) -> (v == Qent X i r)%Q).
Proof.
  intros env ol addr n nrhs A B o IC ID He Hn HsA HsB Hp HD.
  destruct (@C57_backslash_rounded env ol addr n nrhs A B o TMPFR IC ID He Hn HsA HsB Hp HD (or_intror eq_refl)) as (X & Y & f & RX & SX & E & _ & _ & Ym & Yn & Yx & H).
  exists X, Y, f. do 6 (split; [assumption|]). intros i r Hi Hr. destruct (H i r Hi Hr) as (_ & G). apply (fl_rounded_error Hp (G eq_refl)).
Qed.
(* With double output an entry of magnitude below 2^1024 is finite and not larger in magnitude than the exact solution; it is exact if the
   solution is a double; it is within one unit in the last place (2^-52 relative, 2^-1074 absolute for subnormal numbers). *)
Theorem C57_double_error : forall env ol addr n nrhs A B o,
  int_csc n n A -> int_dense n nrhs B -> env_ok env (opt_pivot o) ->
  1 <= n -> ~ (m_scale A == 0)%Q -> ~ (m_scale B == 0)%Q -> 1 <= opt_prec o -> detz n (Cent A) <> 0 ->
  exists X Y f, rat_dense n nrhs X /\ solves n A B X /\
    SLIP_backslash env ol addr true true TDBL (Some A) (Some B) o = Ok (SOK, Out Y) /\ m_m Y = n /\ m_n Y = nrhs /\ m_x Y = Some (VD f) /\
    forall i r, 0 <= i < n -> 0 <= r < nrhs -> (Qabs (Qent X i r) < 2 ^ 1024)%Q ->
      exists v, fl_q (nth (Z.to_nat (i + r * n)) f FNan) = Some v /\ (Qabs v <= Qabs (Qent X i r))%Q /\ (double_grid (Qent X i r) -> (v == Qent X i r)%Q) /\
      ((2 ^ (-1022) <= Qabs (Qent X i r))%Q -> (Qabs (v - Qent X i r) <= 2 ^ (-52) * Qabs (Qent X i r))%Q) /\
      ((Qabs (Qent X i r) <= 2 ^ (-1022))%Q -> (Qabs (v - Qent X i r) <= 2 ^ (-1074))%Q).
Proof.
  intros env ol addr n nrhs A B o IC ID He Hn HsA HsB Hp HD.
  destruct (@C57_backslash_rounded env ol addr n nrhs A B o TDBL IC ID He Hn HsA HsB Hp HD (or_introl eq_refl)) as (X & Y & f & RX & SX & E & _ & _ & Ym & Yn & Yx & H).
  exists X, Y, f. do 6 (split; [assumption|]). intros i r Hi Hr B1024. destruct (H i r Hi Hr) as (G & _). apply (double_rounded_error (G eq_refl) B1024).
Qed.
(* the hypotheses are met *)
Example C57_mpfr_error_ex := @C57_mpfr_error exenv exol (fun _ => 0) 4 2 exA exB None ex_csc ex_dense (@ex_env _) ex_n ex_scaleA ex_scaleB
  ltac:(simpl; lia) ltac:(vm_compute; discriminate).
Example C57_double_error_ex := @C57_double_error exenv exol (fun _ => 0) 4 2 exA exB None ex_csc ex_dense (@ex_env _) ex_n ex_scaleA ex_scaleB
  ltac:(simpl; lia) ltac:(vm_compute; discriminate).
