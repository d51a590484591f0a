(* Properties C39-C46, C51, C55-C58: conversion of values, allocation, counting.  Specification: MatSpec.v; model: MMatrix.v.
   Each theorem is followed by a concrete case that meets its hypotheses. *)
From Coq Require Import QArith Qabs Qpower Lqa.
From Verif Require Import Base DetZ Spec SumQ MFactor MSolve PSolve PSolve2 PReach PTri PPivot PFactor PLU MMatrix MatSpec MApi ApiSpec PApi PMat PFloat PCopy PConv PRound PCheck PCopy2 PropMat PropLU.
Set Implicit Arguments.
Set Bullet Behavior "Strict Subproofs".
Open Scope Z_scope.

(* reading a copied matrix: "converted o addr T A yx s" says that SLIP_matrix_copy (kind of A, type T) succeeds and gives the
   numbers yx and the scale s; by C33-C38 a copy to another kind holds the same numbers *)

(* deciding it on a concrete matrix *)
Lemma converted_by o addr T A yx s :
  match matrix_copy o addr true true (m_kind A) T (Some A) with Ok Y => m_x Y = Some yx /\ m_scale Y = s | _ => False end ->
  converted o addr T A yx s.
Proof. unfold converted. destruct (matrix_copy _ _ _ _ _ _ _) as [Y| | |]; try contradiction. intros []. eauto. Qed.

(* C39 *)
Theorem C39_mpq_to_mpz o addr A nz x : stores A nz (VQ x) -> 1 <= nz -> (forall k, 0 <= k < nz -> Qred (rdg 0%Q x k) = rdg 0%Q x k) ->
  exists y s, converted o addr TMPZ A (VZ y) (inject_Z s) /\ 1 <= s /\
    (forall k, 0 <= k < nz -> (inject_Z (rd y k) == inject_Z s * rdg 0%Q x k)%Q) /\
    (forall c, (forall k, 0 <= k < nz -> exists z, (inject_Z c * rdg 0%Q x k == inject_Z z)%Q) -> (s | c)).
Proof. exact (@mpq_to_mpz o addr A nz x). Qed.
Lemma exQ_stores : stores exQ 3 (VQ [1 # 2; -2 # 3; 5]%Q).
Proof. right; right. split. apply exQ_ok. reflexivity. Qed.
Example C39_ex : converted None (fun _ => 1) TMPZ exQ (VZ [3; -4; 30]) 6%Q.
Proof. apply converted_by. vm_compute. split; reflexivity. Qed.
(* without entries the scale becomes 0 *)
Theorem C39_empty_refuted o addr A x : stores A 0 (VQ x) -> exists y, converted o addr TMPZ A (VZ y) 0%Q.
Proof. exact (@mpq_to_mpz_none o addr A x). Qed.
Definition exQ0 : matrix := mkM 2 2 1 0 KCSC TMPQ (Some [0; 0; 0]) (Some [0]) None (Some (VQ [0%Q])) 1%Q.
Example exQ0_stores : stores exQ0 0 (VQ [0%Q]).
Proof. left. exists [0; 0; 0], [0]. split. apply csc_okb_ok; reflexivity. reflexivity. Qed.

(* C40 *)
Theorem C40_mpz_to_mpq o addr A nz x : stores A nz (VZ x) -> Qred (m_scale A) = m_scale A -> ~ (m_scale A == 0)%Q ->
  exists y, converted o addr TMPQ A (VQ y) 1%Q /\
    forall k, 0 <= k < nz -> Qred (rdg 0%Q y k) = rdg 0%Q y k /\ (rdg 0%Q y k == inject_Z (rd x k) / m_scale A)%Q.
Proof. exact (@mpz_to_mpq o addr A nz x). Qed.
Example C40_ex : stores exZ 3 (VZ [5; 7; -2]) /\ converted None (fun _ => 1) TMPQ exZ (VQ [5 # 3; 7 # 3; -2 # 3]%Q) 1%Q.
Proof.
  split. right; left. exists [1; 0; 1], [0; 1; 2]. split. apply exZ_ok. reflexivity.
  apply converted_by. vm_compute. split; reflexivity.
Qed.
(* MPQ -> MPZ -> MPQ gives back exactly the same numbers *)
Theorem C40_round_trip o addr A nz x : 1 <= opt_prec o -> stores A nz (VQ x) -> 1 <= nz -> (forall k, 0 <= k < nz -> Qred (rdg 0%Q x k) = rdg 0%Q x k) ->
  exists Y Z z, matrix_copy o addr true true (m_kind A) TMPZ (Some A) = Ok Y /\ matrix_copy o addr true true (m_kind A) TMPQ (Some Y) = Ok Z /\
    m_x Z = Some (VQ z) /\ m_scale Z = 1%Q /\ forall k, 0 <= k < nz -> rdg 0%Q z k = rdg 0%Q x k.
Proof.
  intros Hp HS Hn HC. destruct (mpq_to_mpz o addr HS Hn HC) as (y & s & HY & H1 & H2 & H3).
  assert (T0 : is_type TMPZ) by (unfold is_type, TMPZ, TDBL; lia).
  destruct (same_kind_stores HS T0 Hp HY) as (Y & EY & XY & SY & KY & TY & _ & _ & HS').
  destruct (@mpz_to_mpq o addr Y nz y) as (z & HZ & H4); auto.
  { rewrite SY. unfold canon. apply canon_z. } { rewrite SY. intros E. unfold Qeq in E. cbn in E. lia. }
  destruct HZ as (Z & EZ & XZ & SZ). rewrite KY in EZ. exists Y, Z, z. do 4 (split; auto).
  intros k Hk. destruct (H4 k Hk) as (C4 & E4). apply canon_eq; auto. apply HC; auto.
  rewrite E4, SY, (H2 k Hk). field. intros E. unfold Qeq in E. cbn in E. lia.
Qed.

(* C41 *)
Theorem C41_int64_to_mpz o addr A nz x : stores A nz (VI x) ->
  exists y, converted o addr TMPZ A (VZ y) 1%Q /\ forall k, 0 <= k < nz -> rd y k = rd x k.
Proof. exact (@int64_to_mpz o addr A nz x). Qed.
Example C41_ex : stores exC 3 (VI [5; 7; -2]) /\ converted None (fun _ => 1) TMPZ exC (VZ [5; 7; -2]) 1%Q.
Proof.
  split. left. exists [0; 1; 2; 3], [1; 0; 1]. split. apply exC_ok. reflexivity.
  apply converted_by. vm_compute. split; reflexivity.
Qed.
(* int64 to MPQ: SLIP_mpq_set_si uses the address of the result as the denominator.  addr k, the address of the k-th output number
   (at least 2: it is a multiple of 8), divides every entry; so every non-zero entry is converted to a different number. *)
Theorem C41_int64_to_mpq_refuted o addr A nz x : stores A nz (VI x) -> (forall k, 0 <= k < nz -> 2 <= addr k) ->
  exists y, converted o addr TMPQ A (VQ y) 1%Q /\
    (forall k, 0 <= k < nz -> (rdg 0%Q y k == inject_Z (rd x k) / inject_Z (addr k))%Q) /\
    (forall k, 0 <= k < nz -> rd x k <> 0 -> ~ (rdg 0%Q y k == inject_Z (rd x k))%Q).
Proof.
  intros HS Ha. destruct (@int64_to_mpq o addr A nz x HS) as (y & HC & H). { intros k Hk. specialize (Ha k Hk). lia. }
  exists y. do 2 (split; auto). intros k Hk Hx E. rewrite (H k Hk) in E. specialize (Ha k Hk).
  assert (Hq : ~ (inject_Z (addr k) == 0)%Q) by (unfold Qeq; cbn; lia).
  assert (E' : (inject_Z (rd x k) == inject_Z (rd x k * addr k))%Q).
  { rewrite inject_Z_mult. rewrite <- E at 2. field. auto. }
  apply (proj1 (inject_Z_injective _ _)) in E'. assert (F : rd x k * (addr k - 1) = 0) by lia. apply Z.mul_eq_0 in F. lia.
Qed.
Example C41_bad : exists Y, matrix_copy None (fun k => 94512345678 + 32 * k) true true KTRIP TMPQ (Some exT) = Ok Y /\
   m_x Y = Some (VQ [5 # 94512345678; 7 # 94512345710; -2 # 94512345742]%Q).
Proof. eexists. split; [reflexivity|]. reflexivity. Qed.
(* double to MPQ is exact *)
Theorem C41_double_to_mpq o addr A nz x : stores A nz (VD x) -> (forall k, 0 <= k < nz -> fl_q (rdg FNan x k) <> None) ->
  exists y, converted o addr TMPQ A (VQ y) 1%Q /\ forall k, 0 <= k < nz -> fl_q (rdg FNan x k) = Some (rdg 0%Q y k).
Proof. exact (@double_to_mpq o addr A nz x). Qed.
Lemma exF_stores : stores exF 2 (VD [FFin 3 (-2); FFin 1 (-18)]).
Proof. right; right. split. apply exF_ok. reflexivity. Qed.
Example C41_exd : converted None (fun _ => 1) TMPQ exF (VQ [3 # 4; 1 # 262144]%Q) 1%Q.
Proof. apply converted_by. vm_compute. split; reflexivity. Qed.

(* C42: double to MPZ multiplies by 10^17 and rounds to an integer.  It is exact on numbers that are multiples of 10^-17. *)
Theorem C42_double_to_mpz o addr A nz x : stores A nz (VD x) -> 93 <= opt_prec o -> (forall k, 0 <= k < nz -> fits 53 (rdg FNan x k)) ->
  exists y s, converted o addr TMPZ A (VZ y) s /\ expansion (opt_round o) (10 ^ 17) x nz y s.
Proof. exact (@double_to_mpz o addr A nz x). Qed.
(* consequences of "expansion", common to doubles (B = 10^17) and MPFR numbers (B = 2^prec) *)
Lemma expansion_exact r B x nz y s q : 0 < B -> expansion r B x nz y s -> 
  (forall k, 0 <= k < nz -> fl_q (rdg FNan x k) = Some (q k)) ->
  (forall k, 0 <= k < nz -> exists z, (q k * inject_Z B == inject_Z z)%Q) -> (exists k, 0 <= k < nz /\ ~ (q k == 0)%Q) ->
  ~ (s == 0)%Q /\ forall k, 0 <= k < nz -> (inject_Z (rd y k) / s == q k)%Q.
Proof.
  intros HB (w & W & H) Hq Hz (k0 & Hk0 & N0). assert (HB' : ~ (inject_Z B == 0)%Q) by (unfold Qeq; cbn; lia).
  assert (E : forall k, 0 <= k < nz -> (q k == inject_Z (w k) / inject_Z B)%Q).
  { intros k Hk. pose proof (W k Hk) as Wk. rewrite (Hq k Hk) in Wk. destruct (Hz k Hk) as (z & Ez).
    pose proof (@rounded_Z r z (w k) (@rounded_eq r _ _ _ Ez Wk)) as ->. rewrite <- Ez. field. auto. }
  destruct H as [(H1 & _)|(_ & H1 & H2 & _)].
  - exfalso. apply N0. rewrite (E k0 Hk0), (H1 k0 Hk0). field. auto.
  - split; auto. intros k Hk. rewrite (H2 k Hk), (E k Hk). reflexivity.
Qed.
Lemma expansion_inexact r B x nz y s k q : 0 < B -> expansion r B x nz y s -> 0 <= k < nz ->
  fl_q (rdg FNan x k) = Some q -> (forall z, ~ (q * inject_Z B == inject_Z z)%Q) -> ~ (inject_Z (rd y k) / s == q)%Q.
Proof.
  intros HB (w & W & H) Hk Hq Hz E. assert (HB' : ~ (inject_Z B == 0)%Q) by (unfold Qeq; cbn; lia).
  destruct H as [(_ & H1 & ->)|(_ & _ & H2 & _)].
  - apply (Hz 0). rewrite <- E, (H1 k Hk). reflexivity.
  - apply (Hz (w k)). rewrite <- E, (H2 k Hk). field. auto.
Qed.
Lemma expansion_zero r B x nz y s : 0 < B -> expansion r B x nz y s -> (forall k, 0 <= k < nz -> exists q, fl_q (rdg FNan x k) = Some q /\ (q == 0)%Q) ->
  s = 0%Q /\ forall k, 0 <= k < nz -> rd y k = 0.
Proof.
  intros HB (w & W & H) Hz. destruct H as [(_ & H1 & ->)|((k & Hk & Hw) & _)]; auto. exfalso.
  pose proof (W k Hk) as Wk. destruct (Hz k Hk) as (q & Eq & E0). rewrite Eq in Wk. apply Hw. apply (@rounded_Z r).
  apply (@rounded_eq r (q * inject_Z B)); auto. rewrite E0. reflexivity.
Qed.
Lemma expansion_lowest r B x nz y s : expansion r B x nz y s -> ~ (s == 0)%Q ->
  forall c, (forall k, 0 <= k < nz -> (c | rd y k)) -> c = 1 \/ c = -1.
Proof. intros (w & W & H) Hs. destruct H as [(_ & _ & ->)|(_ & _ & _ & H)]; auto. exfalso. apply Hs. reflexivity. Qed.
(* every approximation error is below 10^-17 (for MPFR: 2^-prec) *)
Lemma expansion_error r B x nz y s k q : 0 < B -> expansion r B x nz y s -> ~ (s == 0)%Q -> 0 <= k < nz -> fl_q (rdg FNan x k) = Some q ->
  (Qabs (inject_Z (rd y k) / s - q) < 1 / inject_Z B)%Q.
Proof.
  intros HB (w & W & H) Hs Hk Hq. destruct H as [(_ & _ & ->)|(_ & _ & H2 & _)]. { exfalso. apply Hs. reflexivity. }
  assert (HB' : (0 < inject_Z B)%Q) by (unfold Qlt; cbn; lia).
  pose proof (W k Hk) as Wk. rewrite Hq in Wk.
  assert (R : (Qabs (inject_Z (w k) - q * inject_Z B) < 1)%Q).
  { destruct r; unfold rounded in Wk.
    - lra.
    - apply Wk.
    - apply Qabs_lt2. destruct Wk. split; lra.
    - apply Qabs_lt2. destruct Wk. split; lra.
    - apply Wk. }
  rewrite (H2 k Hk). apply Qabs_lt2. apply Qabs_lt2 in R. destruct R as [R1 R2].
  assert (E : (inject_Z (w k) / inject_Z B - q == (inject_Z (w k) - q * inject_Z B) / inject_Z B)%Q) by (field; lra). rewrite E.
  assert (I : (0 < / inject_Z B)%Q) by (apply Qinv_lt_0_compat; auto). unfold Qdiv. split; nra.
Qed.
Lemma p17 : 0 < 10 ^ 17.
Proof. reflexivity. Qed.
Theorem C42_exact o addr A nz x q : stores A nz (VD x) -> 93 <= opt_prec o -> (forall k, 0 <= k < nz -> fits 53 (rdg FNan x k)) ->
  (forall k, 0 <= k < nz -> fl_q (rdg FNan x k) = Some (q k)) -> (exists k, 0 <= k < nz /\ ~ (q k == 0)%Q) ->
  (forall k, 0 <= k < nz -> exists z, (q k * inject_Z (10 ^ 17) == inject_Z z)%Q) ->
  exists y s, converted o addr TMPZ A (VZ y) s /\ ~ (s == 0)%Q /\ (forall k, 0 <= k < nz -> (inject_Z (rd y k) / s == q k)%Q) /\
    (forall c, (forall k, 0 <= k < nz -> (c | rd y k)) -> c = 1 \/ c = -1).
Proof.
  intros HS Hp Hf Hq Hn Hz. destruct (double_to_mpz o addr HS Hp Hf) as (y & s & HC & HE).
  destruct (@expansion_exact _ _ _ _ _ _ q p17 HE Hq Hz Hn) as (H1 & H2). exists y, s. do 3 (split; auto).
  apply (expansion_lowest HE H1).
Qed.
(* 0.75 and -2.5 *)
Definition exF2 : matrix := mkM 2 1 2 0 KDENSE TDBL None None None (Some (VD [FFin 3 (-2); FFin (-5) (-1)])) 1%Q.
Example C42_ex : converted None (fun _ => 1) TMPZ exF2 (VZ [3; -10]) 4%Q.
Proof. apply converted_by. vm_compute. split; reflexivity. Qed.
(* otherwise not: an entry that is not a multiple of 10^-17, such as 2^-18, changes its value *)
Theorem C42_inexact_refuted o addr A nz x k q : stores A nz (VD x) -> 93 <= opt_prec o -> (forall k, 0 <= k < nz -> fits 53 (rdg FNan x k)) ->
  0 <= k < nz -> fl_q (rdg FNan x k) = Some q -> (forall z, ~ (q * inject_Z (10 ^ 17) == inject_Z z)%Q) ->
  exists y s, converted o addr TMPZ A (VZ y) s /\ ~ (inject_Z (rd y k) / s == q)%Q /\
    (~ (s == 0)%Q -> (Qabs (inject_Z (rd y k) / s - q) < 1 / inject_Z (10 ^ 17))%Q).
Proof.
  intros HS Hp Hf Hk Hq Hz. destruct (double_to_mpz o addr HS Hp Hf) as (y & s & HC & HE). exists y, s. split; auto. split.
  - exact (@expansion_inexact _ _ _ _ _ _ _ _ p17 HE Hk Hq Hz).
  - intros Hs. exact (@expansion_error _ _ _ _ _ _ _ _ p17 HE Hs Hk Hq).
Qed.
Example C42_bad : fl_q (rdg FNan [FFin 3 (-2); FFin 1 (-18)] 1) = Some (1 # 262144)%Q /\ (forall z, ~ ((1 # 262144) * inject_Z (10 ^ 17) == inject_Z z)%Q) /\
  converted None (fun _ => 1) TMPZ exF (VZ [37500000000000000; 190734863281]) (50000000000000000)%Q.
Proof.
  split. reflexivity. split. intros z E. unfold Qeq in E. cbn in E. lia. apply converted_by. vm_compute. split; reflexivity.
Qed.
(* and a matrix of zeros gets the scale 0: as a right-hand side it makes SLIP_LU_solve divide by zero (C42_zero_rhs) *)
Theorem C42_zero_refuted o addr A nz x : stores A nz (VD x) -> 93 <= opt_prec o -> (forall k, 0 <= k < nz -> rdg FNan x k = FFin 0 0) ->
  exists y, converted o addr TMPZ A (VZ y) 0%Q /\ forall k, 0 <= k < nz -> rd y k = 0.
Proof.
  intros HS Hp Hf. destruct (@double_to_mpz o addr A nz x HS Hp) as (y & s & HC & HE). { intros k Hk. rewrite Hf by auto. simpl. unfold digits. simpl. lia. }
  destruct (@expansion_zero _ _ _ _ _ _ p17 HE) as (-> & H). { intros k Hk. rewrite Hf by auto. eexists. split; reflexivity. }
  eauto.
Qed.
Lemma solve_core_scale0 nl n nrhs Ap Ai Ax sA b s1 s0 F q ck X : Qnum s0 = 0 ->
  solve_core nl n nrhs Ap Ai Ax sA b s1 F q ck = Ok X -> solve_core nl n nrhs Ap Ai Ax sA b s0 F q ck = UB.
Proof.
  intros H0. unfold solve_core. destruct ((n <? 0) || (nrhs <? 0)); [discriminate|].
  repeat match goal with |- bind ?m _ = _ -> bind ?m _ = _ => destruct m; cbn [bind]; try discriminate end.
  intros _. unfold mpq_div. rewrite H0. reflexivity.
Qed.
(* a right-hand side with scale 0 (see C42_zero_refuted, C43_zero_refuted): SLIP_LU_solve divides by zero *)
Theorem C42_zero_rhs_refuted : forall env ol n nrhs A B o1 o2 o3 An F,
  int_csc n n A -> int_dense n nrhs B -> 1 <= n -> ~ (m_scale A == 0)%Q -> (m_scale B == 0)%Q ->
  env_ok env (opt_pivot o2) ->
  SLIP_LU_analyze ol true true (Some A) o1 = Ok (SOK, Out An) ->
  SLIP_LU_factorize env true true (Some A) (Some An) o2 = Ok (SOK, Out F) ->
  SLIP_LU_solve true true (Some B) (Some A) (Some (lu_L F)) (Some (lu_U F)) (Some (lu_rhos F)) (Some An) (Some (lu_pinv F)) o3 = UB.
Proof.
  intros env ol n nrhs A B o1 o2 o3 An F IC ID Hn HsA HsB He EA EF.
  assert (ID' : int_dense n nrhs (with_scale B 1%Q)) by (destruct ID; constructor; auto).
  destruct (@C01_solve_exact env ol n nrhs A (with_scale B 1%Q) o1 o2 o3 An F IC ID' Hn HsA ltac:(discriminate) He EA EF) as (X & E & _).
  assert (H0 : Qnum (m_scale B) = 0) by (unfold Qeq in HsB; cbn in HsB; lia).
  revert E. unfold SLIP_LU_solve. cbn [negb].
  change (has_kt (Some (with_scale B 1)) KDENSE TMPZ) with (has_kt (Some B) KDENSE TMPZ).
  match goal with |- (if ?c then reject _ else _) = _ -> _ => destruct c; [discriminate|] end. cbn [with_scale m_m m_n m_scale].
  match goal with |- (if ?c then reject _ else _) = _ -> _ => destruct c; [discriminate|] end.
  change (xmpz (with_scale B 1)) with (xmpz B). 
  repeat match goal with |- finish (bind ?m _) = _ -> _ => destruct m eqn:?; cbn [bind finish]; try discriminate end.
  match goal with H : solve_core _ _ _ _ _ _ _ _ _ _ _ _ = Ok _ |- _ => rewrite (@solve_core_scale0 _ _ _ _ _ _ _ _ _ _ _ _ _ _ H0 H) end. reflexivity.
Qed.

(* C43: the same for MPFR numbers with 2^prec in place of 10^17, where prec is the precision in the options *)
Lemma p2 p : 0 <= p -> 0 < 2 ^ p.
Proof. intros. apply Z.pow_pos_nonneg; lia. Qed.
Theorem C43_mpfr_to_mpz o addr A nz x : stores A nz (VR x) -> 1 <= opt_prec o -> (forall k, 0 <= k < nz -> fits (opt_prec o) (rdg FNan x k)) ->
  exists y s, converted o addr TMPZ A (VZ y) s /\ expansion (opt_round o) (2 ^ opt_prec o) x nz y s.
Proof. exact (@mpfr_to_mpz o addr A nz x). Qed.
Theorem C43_exact o addr A nz x q : stores A nz (VR x) -> 1 <= opt_prec o -> (forall k, 0 <= k < nz -> fits (opt_prec o) (rdg FNan x k)) ->
  (forall k, 0 <= k < nz -> fl_q (rdg FNan x k) = Some (q k)) -> (exists k, 0 <= k < nz /\ ~ (q k == 0)%Q) ->
  (forall k, 0 <= k < nz -> exists z, (q k * inject_Z (2 ^ opt_prec o) == inject_Z z)%Q) ->
  exists y s, converted o addr TMPZ A (VZ y) s /\ ~ (s == 0)%Q /\ (forall k, 0 <= k < nz -> (inject_Z (rd y k) / s == q k)%Q) /\
    (forall c, (forall k, 0 <= k < nz -> (c | rd y k)) -> c = 1 \/ c = -1).
Proof.
  intros HS Hp Hf Hq Hn Hz. destruct (mpfr_to_mpz o addr HS Hp Hf) as (y & s & HC & HE).
  destruct (@expansion_exact _ _ _ _ _ _ q (@p2 (opt_prec o) ltac:(lia)) HE Hq Hz Hn) as (H1 & H2). exists y, s. do 3 (split; auto).
  apply (expansion_lowest HE H1).
Qed.
Theorem C43_inexact_refuted o addr A nz x k q : stores A nz (VR x) -> 1 <= opt_prec o -> (forall k, 0 <= k < nz -> fits (opt_prec o) (rdg FNan x k)) ->
  0 <= k < nz -> fl_q (rdg FNan x k) = Some q -> (forall z, ~ (q * inject_Z (2 ^ opt_prec o) == inject_Z z)%Q) ->
  exists y s, converted o addr TMPZ A (VZ y) s /\ ~ (inject_Z (rd y k) / s == q)%Q /\
    (~ (s == 0)%Q -> (Qabs (inject_Z (rd y k) / s - q) < 1 / inject_Z (2 ^ opt_prec o))%Q).
Proof.
  intros HS Hp Hf Hk Hq Hz. destruct (mpfr_to_mpz o addr HS Hp Hf) as (y & s & HC & HE). exists y, s. split; auto. split.
  - exact (@expansion_inexact _ _ _ _ _ _ _ _ (@p2 (opt_prec o) ltac:(lia)) HE Hk Hq Hz).
  - intros Hs. exact (@expansion_error _ _ _ _ _ _ _ _ (@p2 (opt_prec o) ltac:(lia)) HE Hs Hk Hq).
Qed.
Theorem C43_zero_refuted o addr A nz x : stores A nz (VR x) -> 1 <= opt_prec o -> (forall k, 0 <= k < nz -> rdg FNan x k = FFin 0 0) ->
  exists y, converted o addr TMPZ A (VZ y) 0%Q /\ forall k, 0 <= k < nz -> rd y k = 0.
Proof.
  intros HS Hp Hf. destruct (@mpfr_to_mpz o addr A nz x HS Hp) as (y & s & HC & HE). { intros k Hk. rewrite Hf by auto. simpl. unfold digits. simpl. lia. }
  destruct (@expansion_zero _ _ _ _ _ _ (@p2 (opt_prec o) ltac:(lia)) HE) as (-> & H). { intros k Hk. rewrite Hf by auto. eexists. split; reflexivity. }
  eauto.
Qed.
(* 0.75, -2.5, and 0.75, 2^-129 at the default precision 128 *)
Definition exR : matrix := mkM 2 1 2 0 KDENSE TMPFR None None None (Some (VR [FFin 3 (-2); FFin (-5) (-1)])) 1%Q.
Definition exR2 : matrix := mkM 2 1 2 0 KDENSE TMPFR None None None (Some (VR [FFin 3 (-2); FFin 1 (-129)])) 1%Q.
Example exR_stores : stores exR 2 (VR [FFin 3 (-2); FFin (-5) (-1)]).
Proof. right; right. split; [|reflexivity]. constructor; reflexivity || (vm_compute; discriminate). Qed.
Example C43_ex : converted None (fun _ => 1) TMPZ exR (VZ [3; -10]) 4%Q /\ converted None (fun _ => 1) TMPZ exR2 (VZ [1; 0]) (4 # 3)%Q.
Proof. split; apply converted_by; vm_compute; split; reflexivity. Qed.

(* C44: FP64 to INT64.  t is the number z of the C type int64_t obtained from x *)
Definition int64_of (x : fl) (z : Z) : Prop :=
  match fl_q x with
  | None => z = match x with FInf true => - 2 ^ 63 | FInf false => 2 ^ 63 - 1 | _ => 0 end
  | Some q => ((inject_Z (2 ^ 63) < q)%Q -> z = 2 ^ 63 - 1) /\ ((q < inject_Z (- 2 ^ 63))%Q -> z = - 2 ^ 63) /\
     ((inject_Z (- 2 ^ 63) <= q < inject_Z (2 ^ 63))%Q -> (Qabs (inject_Z z) <= Qabs q)%Q /\ (Qabs (q - inject_Z z) < 1)%Q)
  end.
Lemma cast_int64 x : match fl_q x with Some q => ~ (q == inject_Z (2 ^ 63))%Q | None => True end ->
  exists z, slip_cast_double_to_int64 x = Ok z /\ int64_of x z.
Proof.
  pose proof (cast_int64_spec x) as H. unfold int64_of. destruct (fl_q x) as [q|]; [|eauto]. intros Hq.
  destruct H as (H1 & H2 & H3 & H4).
  destruct (Qlt_le_dec (inject_Z (2 ^ 63)) q) as [A|A]; [|destruct (Qlt_le_dec q (inject_Z (- 2 ^ 63))) as [B|B]].
  - eexists. split; [apply H1; auto|]. split; auto. split; intros C; exfalso.
    + assert (inject_Z (- 2 ^ 63) < inject_Z (2 ^ 63))%Q by reflexivity. lra.
    + lra.
  - eexists. split; [apply H2; auto|]. split; [|split; auto]; intros C; exfalso; lra.
  - assert (C : (inject_Z (- 2 ^ 63) <= q < inject_Z (2 ^ 63))%Q). { split; auto. destruct (Qle_lt_or_eq _ _ A); auto. contradiction. }
    destruct (H3 C) as (t & E & T1 & T2). exists t. split; auto. split; [intros; exfalso; lra|]. split; [intros; exfalso; lra|auto].
Qed.
Theorem C44_double_to_int64 o addr A nz x : stores A nz (VD x) ->
  (forall k, 0 <= k < nz -> match fl_q (rdg FNan x k) with Some q => ~ (q == inject_Z (2 ^ 63))%Q | None => True end) ->
  exists y, converted o addr TINT A (VI y) 1%Q /\ forall k, 0 <= k < nz -> int64_of (rdg FNan x k) (rd y k).
Proof.
  intros HS Hf. destruct (stores_facts HS) as (Hz & Hn & Hx & Ht & Hm & Hnn). simpl in Hn.
  destruct (@convert_loop_ok fl Z FNan 0 slip_cast_double_to_int64 nz x 0 int64_of Hn) as (y & E & H).
  { intros k Hk. apply cast_int64. apply Hf. auto. }
  exists y. split; auto.
  apply (@converted_intro o addr A nz (VD x) TINT _ _ HS). { vm_compute; split; discriminate. }
  change (fresh_vals TINT (Z.max nz 1)) with (VI (mk (Z.max nz 1) 0)). cbn [slip_cast_array]. rewrite E. reflexivity.
Qed.
(* the value 2^63 slips through the range test and reaches the C conversion, which is undefined there *)
Lemma floop_ub (S : Type) n : forall i (body : Z -> S -> res S) s,
  (forall i s, match body i s with Ok _ | UB => True | _ => False end) -> match floop n i body s with Ok _ | UB => True | _ => False end.
Proof. induction n; intros i body s H; simpl; auto. specialize (H i s) as H1. destruct (body i s); simpl; auto. apply IHn. auto. Qed.
Theorem C44_boundary_refuted o addr A nz x k q : stores A nz (VD x) -> 0 <= k < nz -> fl_q (rdg FNan x k) = Some q -> (q == inject_Z (2 ^ 63))%Q ->
  matrix_copy o addr true true (m_kind A) TINT (Some A) = UB.
Proof.
  intros HS Hk Hq E. destruct (stores_facts HS) as (Hz & Hn & Hx & Ht & Hm & Hnn). simpl in Hn.
  assert (T : is_type TINT) by (vm_compute; split; discriminate).
  pose proof (copy_same_eq o addr HS T) as G. 
  change (fresh_vals TINT (Z.max nz 1)) with (VI (mk (Z.max nz 1) 0)) in G. cbn [slip_cast_array] in G.
  assert (U : match conv_loop nz slip_cast_double_to_int64 x (mk (Z.max nz 1) 0) with Ok _ | UB => True | _ => False end).
  { unfold conv_loop, for_. apply floop_ub. intros i y. unfold get, set.
    destruct (i <? 0); simpl; auto. destruct (nth_error x (Z.to_nat i)) as [v|]; simpl; auto.
    assert (W : match slip_cast_double_to_int64 v with Ok _ | UB => True | _ => False end).
    { destruct v; simpl; auto. repeat match goal with |- context[if ?c then _ else _] => destruct c; auto end. }
    destruct (slip_cast_double_to_int64 v); simpl; auto. destruct ((0 <=? i) && (i <? zlen y)); auto. }
  destruct (conv_loop nz slip_cast_double_to_int64 x (mk (Z.max nz 1) 0)) as [y| | |] eqn:EL; cbn [bind] in G; try contradiction; auto.
  exfalso. apply (@conv_loop_inv fl Z FNan 0) in EL; [|lia]. destruct EL as (_ & _ & _ & EL & _). specialize (EL k Hk).
  pose proof (cast_int64_spec (rdg FNan x k)) as S. rewrite Hq in S. destruct S as (_ & _ & _ & S). rewrite (S E) in EL. discriminate.
Qed.
Definition exI : matrix := mkM 4 1 4 0 KDENSE TDBL None None None (Some (VD [FFin 3 70; FFin (-7) (-1); FInf true; FNan])) 1%Q.
Definition exI2 : matrix := mkM 1 1 1 0 KDENSE TDBL None None None (Some (VD [FFin 1 63])) 1%Q.
Example C44_ex : converted None (fun _ => 1) TINT exI (VI [9223372036854775807; -3; -9223372036854775808; 0]) 1%Q /\
  matrix_copy None (fun _ => 1) true true KDENSE TINT (Some exI2) = UB.
Proof. split. apply converted_by; vm_compute; split; reflexivity. vm_compute. reflexivity. Qed.

(* C45 *)
Theorem C45_nnz A nz x : stores A nz x -> matrix_nnz true (Some A) = Ok nz.
Proof. intros HS. apply (stores_facts HS). Qed.
Theorem C45_invalid A :
  matrix_nnz false A = Ok (-1) /\ matrix_nnz true None = Ok (-1) /\
  (forall M, m_kind M = KCSC -> m_p M = None \/ m_n M < 0 -> matrix_nnz true (Some M) = Ok (-1)) /\
  (forall M, m_kind M = KDENSE -> m_m M < 0 \/ m_n M < 0 -> matrix_nnz true (Some M) = Ok (-1)) /\
  (forall M, ~ KCSC <= m_kind M <= KDENSE -> matrix_nnz true (Some M) = Ok (-1)).
Proof.
  split; [reflexivity|]. split; [reflexivity|]. split; [|split]; intros M H; [intros H'..|]; unfold matrix_nnz; cbn [negb].
  - rewrite H. cbn. destruct (m_p M); auto. destruct H' as [|H']; [discriminate|]. apply Z.ltb_lt in H'. rewrite H'. auto.
  - rewrite H. cbn. destruct H' as [H'|H']; apply Z.ltb_lt in H'; rewrite H'; auto. rewrite Bool.orb_true_r. auto.
  - unfold KCSC, KTRIP, KDENSE in *. destruct (Z.eqb_spec (m_kind M) 0); [lia|]. destruct (Z.eqb_spec (m_kind M) 1); [lia|]. destruct (Z.eqb_spec (m_kind M) 2); [lia|]. auto.
Qed.
(* nothing else is tested: a CSC matrix whose column pointers are shorter than n+1 is read out of bounds *)
Theorem C45_short_refuted : exists A, m_kind A = KCSC /\ m_p A = Some [0; 1] /\ m_n A = 2 /\ matrix_nnz true (Some A) = UB.
Proof. exists (mkM 2 2 1 0 KCSC TINT (Some [0; 1]) (Some [0]) None (Some (VI [7])) 1%Q). repeat split. Qed.
Example C45_ex : matrix_nnz true (Some exC) = Ok 3 /\ matrix_nnz true (Some exT) = Ok 3 /\ matrix_nnz true (Some exD) = Ok 6.
Proof. repeat split. Qed.

(* C46 (functional part; the memory part is in PropMem.v): the documented sizes *)
Record allocated (kind type m n nzmax : Z) (shallow : bool) (A : matrix) : Prop := {
  al_dims : m_m A = m /\ m_n A = n /\ m_kind A = kind /\ m_type A = type;
  al_nzmax : m_nzmax A = Z.max (if kind =? KDENSE then m * n else nzmax) 1;
  al_nz : m_nz A = 0;
  al_scale : m_scale A = 1%Q;
  al_shallow : shallow = true -> m_p A = None /\ m_i A = None /\ m_j A = None /\ m_x A = None;
  al_p : shallow = false -> kind = KCSC -> exists p, m_p A = Some p /\ zlen p = n + 1 /\ forall c, 0 <= c <= n -> rd p c = 0;
  al_i : shallow = false -> kind <> KDENSE -> exists i, m_i A = Some i /\ zlen i = m_nzmax A;
  al_j : shallow = false -> kind = KTRIP -> exists j, m_j A = Some j /\ zlen j = m_nzmax A;
  al_x : shallow = false -> exists x, m_x A = Some x /\ vtype x = type /\ vlen x = m_nzmax A /\
           (type <> TMPFR -> forall k, 0 <= k < m_nzmax A -> cell x k = zero_of type) }.
Theorem C46_allocate kind type m n nzmax shallow : 0 <= m -> 0 <= n -> KCSC <= kind <= KDENSE -> is_type type ->
  exists A, matrix_allocate kind type m n nzmax shallow = Ok A /\ allocated kind type m n nzmax shallow A.
Proof.
  intros Hm Hn Hk HT. set (nzm := Z.max (if kind =? KDENSE then m * n else nzmax) 1).
  assert (Hz : 1 <= nzm) by (unfold nzm; lia). destruct shallow.
  - exists (mkM m n nzm 0 kind type None None None None 1%Q). split.
    + unfold matrix_allocate. pose proof (@alloc_ok kind type m n nzmax Hm Hn Hk HT) as E. unfold matrix_allocate in E.
      destruct (_ || _ || _ || _ || _ || _); [discriminate|]. reflexivity.
    + constructor; cbn [m_m m_n m_kind m_type m_nzmax m_nz m_scale m_p m_i m_j m_x]; auto; discriminate.
  - rewrite alloc_ok by auto. cbv zeta. fold nzm. eexists. split; [reflexivity|].
    constructor; cbn [m_m m_n m_kind m_type m_nzmax m_nz m_scale m_p m_i m_j m_x]; auto; try discriminate.
    + intros _ ->. cbn. eexists. split; [reflexivity|]. rewrite zlen_mk by lia. split; auto. intros c Hc. apply rd_mk0.
    + intros _ H. destruct (Z.eqb_spec kind KDENSE); [contradiction|]. eexists. split; [reflexivity|]. apply zlen_mk. lia.
    + intros _ ->. cbn. eexists. split; [reflexivity|]. apply zlen_mk. lia.
    + intros _. eexists. split; [reflexivity|]. split; [apply fresh_type; auto|]. split; [apply fresh_len; lia|].
      intros HR k Hk'. destruct (elem_of (fresh_vals type nzm)) as (T & d & nzb & set1 & V & N & y & EL & EV). rewrite fresh_type in EL by auto.
      rewrite (elem_fresh nzm EL). rewrite (elem_cell (mk nzm d) k EL). rewrite rdg_mk by (cbn [m_nzmax] in Hk'; lia).
      rewrite (elem_freshof EL). unfold fresh_of. destruct (Z.eqb_spec type TMPFR); [contradiction|auto].
Qed.
Theorem C46_bad_arguments kind type m n nzmax shallow : m < 0 \/ n < 0 \/ ~ KCSC <= kind <= KDENSE \/ ~ is_type type ->
  matrix_allocate kind type m n nzmax shallow = Err SLIP_INCORRECT_INPUT.
Proof.
  intros H. unfold matrix_allocate, is_type in *.
  destruct (_ || _ || _ || _ || _ || _) eqn:E; auto. exfalso. rewrite !Bool.orb_false_iff, !Z.ltb_ge in E.
  decompose [and] E. unfold KCSC, KDENSE, TMPZ, TDBL in *. lia.
Qed.
Example C46_ex : exists A, matrix_allocate KTRIP TMPQ 2 3 4 false = Ok A /\ m_i A = Some [0; 0; 0; 0] /\ m_x A = Some (VQ [0; 0; 0; 0]%Q).
Proof. eexists. split; [reflexivity|]. split; reflexivity. Qed.

(* C51: sum of the first i numbers of c *)
Fixpoint total (l : list Z) : Z := match l with [] => 0 | a :: t => a + total t end.
Theorem C51_cumsum p c n : 0 <= n -> n + 1 <= zlen p -> n <= zlen c ->
  exists p' c', slip_cumsum (Some p) (Some c) n = Ok (p', c') /\ zlen p' = zlen p /\ zlen c' = zlen c /\
    (forall i, 0 <= i <= n -> rd p' i = total (firstn (Z.to_nat i) c)) /\
    (forall i, 0 <= i < n -> rd c' i = total (firstn (Z.to_nat i) c)) /\
    (forall i, n < i < zlen p -> rd p' i = rd p i) /\ (forall i, n <= i < zlen c -> rd c' i = rd c i).
Proof.
  intros H1 H2 H3. destruct (wp_ok_ex _ _ (@cumsum_spec p c n nerr H1 H2 H3)) as ([p' c'] & E & G1 & G2 & G3 & G4 & G5 & G6).
  assert (T : forall i, 0 <= i <= zlen c -> total (firstn (Z.to_nat i) c) = psum (rd c) i).
  { intros i [Hi Hi']. revert Hi'. apply (@natlike_ind (fun i => i <= zlen c -> total (firstn (Z.to_nat i) c) = psum (rd c) i)); auto.
    intros j Hj IH L. unfold Z.succ in *. rewrite psum_S by auto. rewrite <- IH by lia.
    replace (Z.to_nat (j + 1)) with (S (Z.to_nat j)) by lia. unfold rd.
    assert (Lj : (Z.to_nat j < length c)%nat) by (unfold zlen in L; lia). clear -Lj. revert Lj. generalize (Z.to_nat j). intros m. revert c.
    induction m; intros [|a c]; simpl; intros; try lia. specialize (IHm c ltac:(lia)). simpl in IHm. destruct c; simpl in *; lia. }
  exists p', c'. do 3 (split; auto). split; [|split; [|split; auto]]; intros i Hi.
  - rewrite T by lia. apply G3. auto.
  - rewrite T by lia. apply G4. auto.
Qed.
Theorem C51_null p c n : slip_cumsum None c n = Err SLIP_INCORRECT_INPUT /\ slip_cumsum p None n = Err SLIP_INCORRECT_INPUT.
Proof. split; auto. destruct p; auto. Qed.
Example C51_ex : slip_cumsum (Some [9; 9; 9; 9]) (Some [2; 0; 5]) 3 = Ok ([0; 2; 2; 7], [0; 2; 2]).
Proof. reflexivity. Qed.
