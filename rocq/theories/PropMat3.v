(* Properties C55 - C60: rounding of results, conversion to integers, dependence on the options.  Specification: MatSpec.v. *)
From Coq Require Import QArith Qabs Qpower Lqa.
From Verif Require Import Base DetZ Spec SumQ MFactor MSolve PSolve PSolve2 PReach PTri PPivot PFactor PLU MMatrix MatSpec MApi ApiSpec PApi PMat PFloat PCopy PConv PRound PDouble PCheck PCopy2 PropMat PropMat2 LUEx PropLU PropLU2.
Set Implicit Arguments.
Set Bullet Behavior "Strict Subproofs".
Open Scope Z_scope.

Lemma fl_rounded_eq r p q q' f : (q == q')%Q -> fl_rounded r p q f -> fl_rounded r p q' f.
Proof.
  intros Eq (x & X1 & X2 & X3). exists x. split; auto. split; auto. destruct r.
  - destruct X3 as [X3 X4]. split. { intros y Hy. rewrite <- Eq. apply X3; auto. } intros e. rewrite <- Eq. apply X4.
  - destruct X3 as [X3 X4]. split; intros H; [eapply below_eq|eapply above_eq]; try exact Eq; try reflexivity; [apply X3|apply X4]; rewrite Eq; auto.
  - eapply above_eq; [exact Eq|reflexivity|auto].
  - eapply below_eq; [exact Eq|reflexivity|auto].
  - destruct X3 as [X3 X4]. split; intros H; [eapply above_eq|eapply below_eq]; try exact Eq; try reflexivity; [apply X3|apply X4]; rewrite Eq; auto.
Qed.

Lemma rounded_fl r p x : 1 <= p -> match fl_q x with Some q => fl_rounded r p q (rnd_fl r p x) | None => rnd_fl r p x = x end.
Proof.
  intros Hp. destruct x as [|n|m e]; try reflexivity. destruct (fl_q_val m e) as (q & E & Eq). rewrite E. symmetry in Eq.
  apply (fl_rounded_eq Eq). apply rnd_fin_correct; auto.
Qed.

Lemma T_MPFR : is_type TMPFR.  Proof. vm_compute; split; discriminate. Qed.
Lemma T_DBL : is_type TDBL.  Proof. vm_compute; split; discriminate. Qed.
Lemma T_INT : is_type TINT.  Proof. vm_compute; split; discriminate. Qed.

Lemma by_loop o addr A nz x T (U W : Type) (du : U) (dw d : W) (f : U -> res W) (xs : list U) (VW : list W -> vals) (P : U -> W -> Prop) :
  stores A nz x -> is_type T -> 0 <= nz <= zlen xs ->
  (forall y, conv_loop nz f xs (mk (Z.max nz 1) d) = Ok y -> slip_cast_array o addr (fresh_vals T (Z.max nz 1)) x nz 1 (m_scale A) = Ok (VW y, 1%Q)) ->
  (forall k, 0 <= k < nz -> exists w, f (rdg du xs k) = Ok w /\ P (rdg du xs k) w) ->
  exists y, converted o addr T A (VW y) 1%Q /\ forall k, 0 <= k < nz -> P (rdg du xs k) (rdg dw y k).
Proof.
  intros HS HT Hn H1 H2. destruct (@convert_loop_ok U W du dw f nz xs d P Hn H2) as (y & E & H).
  exists y. split; auto. apply (@converted_intro o addr A nz x T (VW y) 1%Q HS HT). apply H1. auto.
Qed.

Lemma rounds_fl r p s g : 1 <= p -> rounds_to r p s (NR g) (rnd_fl r p g) /\ rounds_to r p s (ND g) (rnd_fl r p g).
Proof. intros Hp. unfold rounds_to. simpl. pose proof (rounded_fl r g Hp) as H. destruct (fl_q g); auto. Qed.
Lemma rounds_int r p z : 1 <= p -> fl_rounded r p (inject_Z z) (rnd_fin r p z 0).
Proof. intros Hp. eapply fl_rounded_eq; [|apply rnd_fin_correct; auto]. change (2 ^ 0)%Q with 1%Q. ring. Qed.
Lemma rounds_unscaled r p s z : 1 <= p -> Qred s = s -> ~ (s == 0)%Q ->
  exists w, (if mpq_equal s 1%Q then Ok (rnd_fin r p z 0) else let* q := unscale s z in Ok (rnd_q r p q)) = Ok w /\ fl_rounded r p (inject_Z z / s) w.
Proof.
  intros Hp Hc H0. destruct (@mpq_equal_spec s 1%Q Hc canon_1) as [E|E].
  - eexists. split; [reflexivity|]. eapply fl_rounded_eq; [|apply rounds_int; auto]. rewrite E. field.
  - destruct (@unscale_spec s z Hc H0) as (q & -> & _ & Eq). simpl. eexists. split; [reflexivity|]. eapply fl_rounded_eq; [exact Eq|]. apply rnd_q_correct; auto.
Qed.

(* C55: conversion to MPFR of a matrix of any type rounds every number correctly, in the mode and precision of the options *)
Theorem C55_to_mpfr o addr A nz x : stores A nz x -> 1 <= opt_prec o ->
  (m_type A = TMPZ -> Qred (m_scale A) = m_scale A /\ ~ (m_scale A == 0)%Q) ->
  exists y, converted o addr TMPFR A (VR y) 1%Q /\
    forall k, 0 <= k < nz -> rounds_to (opt_round o) (opt_prec o) (m_scale A) (cell x k) (rdg FNan y k).
Proof.
  intros HS Hp Hz. destruct (stores_facts HS) as (_ & Hn & _ & Ht & _). destruct x as [x|x|x|x|x]; simpl in Hn.
  - destruct (Hz (eq_sym Ht)) as [Hc H0].
    destruct (@by_loop o addr A nz (VZ x) TMPFR Z fl 0 FNan FNan
      (fun z => if mpq_equal (m_scale A) 1%Q then Ok (rnd_fin (opt_round o) (opt_prec o) z 0) else let* q := unscale (m_scale A) z in Ok (rnd_q (opt_round o) (opt_prec o) q))
      x VR (fun z f => fl_rounded (opt_round o) (opt_prec o) (inject_Z z / m_scale A) f) HS T_MPFR Hn) as (y & E & H).
    + intros y E. change (fresh_vals TMPFR (Z.max nz 1)) with (VR (mk (Z.max nz 1) FNan)). cbn [slip_cast_array]. rewrite E. reflexivity.
    + intros k Hk. apply rounds_unscaled; auto.
    + exists y. split; auto.
  - destruct (@by_loop o addr A nz (VQ x) TMPFR Q fl 0%Q FNan FNan (fun q => Ok (rnd_q (opt_round o) (opt_prec o) q))
      x VR (fun q f => fl_rounded (opt_round o) (opt_prec o) q f) HS T_MPFR Hn) as (y & E & H).
    + intros y E. change (fresh_vals TMPFR (Z.max nz 1)) with (VR (mk (Z.max nz 1) FNan)). cbn [slip_cast_array]. rewrite E. reflexivity.
    + intros k Hk. eexists. split; [reflexivity|]. apply rnd_q_correct. auto.
    + exists y. split; auto.
  - destruct (@by_loop o addr A nz (VR x) TMPFR fl fl FNan FNan FNan (fun q => Ok (rnd_fl (opt_round o) (opt_prec o) q))
      x VR (fun q f => rounds_to (opt_round o) (opt_prec o) (m_scale A) (NR q) f) HS T_MPFR Hn) as (y & E & H).
    + intros y E. change (fresh_vals TMPFR (Z.max nz 1)) with (VR (mk (Z.max nz 1) FNan)). cbn [slip_cast_array]. rewrite E. reflexivity.
    + intros k Hk. eexists. split; [reflexivity|]. apply (@rounds_fl _ _ (m_scale A)). auto.
    + exists y. split; auto.
  - destruct (@by_loop o addr A nz (VI x) TMPFR Z fl 0 FNan FNan (fun q => Ok (rnd_fin (opt_round o) (opt_prec o) q 0))
      x VR (fun q f => fl_rounded (opt_round o) (opt_prec o) (inject_Z q) f) HS T_MPFR Hn) as (y & E & H).
    + intros y E. change (fresh_vals TMPFR (Z.max nz 1)) with (VR (mk (Z.max nz 1) FNan)). cbn [slip_cast_array]. rewrite E. reflexivity.
    + intros k Hk. eexists. split; [reflexivity|]. apply rounds_int. auto.
    + exists y. split; auto.
  - destruct (@by_loop o addr A nz (VD x) TMPFR fl fl (FFin 0 0) FNan FNan (fun q => Ok (rnd_fl (opt_round o) (opt_prec o) q))
      x VR (fun q f => rounds_to (opt_round o) (opt_prec o) (m_scale A) (ND q) f) HS T_MPFR Hn) as (y & E & H).
    + intros y E. change (fresh_vals TMPFR (Z.max nz 1)) with (VR (mk (Z.max nz 1) FNan)). cbn [slip_cast_array]. rewrite E. reflexivity.
    + intros k Hk. eexists. split; [reflexivity|]. apply (@rounds_fl _ _ (m_scale A)). auto.
    + exists y. split; auto.
Qed.
(* 1/3 to nearest with 8 digits: 171 * 2^-9 *)
Example C55_ex : converted (Some (mkO 3 1 1%Q 0 8 RNDN false)) (fun _ => 1) TMPFR exQ (VR [FFin 128 (-8); FFin (-171) (-8); FFin 160 (-5)]) 1%Q.
Proof. apply converted_by. vm_compute. split; reflexivity. Qed.

(* C56: conversion to double of a matrix of any type rounds every number correctly to an IEEE double, underflow and overflow included *)
Lemma double_unscaled s z : Qred s = s -> ~ (s == 0)%Q ->
  exists w, (if mpq_equal s 1%Q then Ok (mpz_get_d z) else let* q := unscale s z in Ok (mpq_get_d q)) = Ok w /\ double_rounded RNDZ true (inject_Z z / s) w.
Proof.
  intros Hc H0. destruct (@mpq_equal_spec s 1%Q Hc canon_1) as [E|E].
  - eexists. split; [reflexivity|]. eapply double_rounded_eq; [|apply dbl_q_correct]. rewrite E. field.
  - destruct (@unscale_spec s z Hc H0) as (q & -> & _ & Eq). simpl. eexists. split; [reflexivity|]. eapply double_rounded_eq; [exact Eq|]. apply dbl_q_correct.
Qed.
Theorem C56_to_double o addr A nz x : stores A nz x -> m_type A <> TDBL ->
  (m_type A = TMPZ -> Qred (m_scale A) = m_scale A /\ ~ (m_scale A == 0)%Q) ->
  exists y, converted o addr TDBL A (VD y) 1%Q /\
    forall k, 0 <= k < nz -> double_of (opt_round o) (m_scale A) (cell x k) (rdg (FFin 0 0) y k).
Proof.
  intros HS Hd Hz. destruct (stores_facts HS) as (_ & Hn & _ & Ht & _). destruct x as [x|x|x|x|x]; simpl in Hn; rewrite <- Ht in *.
  - destruct (Hz eq_refl) as [Hc H0].
    destruct (@by_loop o addr A nz (VZ x) TDBL Z fl 0 (FFin 0 0) (FFin 0 0)
      (fun z => if mpq_equal (m_scale A) 1%Q then Ok (mpz_get_d z) else let* q := unscale (m_scale A) z in Ok (mpq_get_d q))
      x VD (fun z f => double_rounded RNDZ true (inject_Z z / m_scale A) f) HS T_DBL Hn) as (y & E & H).
    + intros y E. change (fresh_vals TDBL (Z.max nz 1)) with (VD (mk (Z.max nz 1) (FFin 0 0))). cbn [slip_cast_array]. rewrite E. reflexivity.
    + intros k Hk. apply double_unscaled; auto.
    + exists y. split; auto.
  - destruct (@by_loop o addr A nz (VQ x) TDBL Q fl 0%Q (FFin 0 0) (FFin 0 0) (fun q => Ok (mpq_get_d q))
      x VD (fun q f => double_rounded RNDZ true q f) HS T_DBL Hn) as (y & E & H).
    + intros y E. change (fresh_vals TDBL (Z.max nz 1)) with (VD (mk (Z.max nz 1) (FFin 0 0))). cbn [slip_cast_array]. rewrite E. reflexivity.
    + intros k Hk. eexists. split; [reflexivity|]. apply dbl_q_correct.
    + exists y. split; auto.
  - destruct (@by_loop o addr A nz (VR x) TDBL fl fl FNan (FFin 0 0) (FFin 0 0) (fun q => Ok (mpfr_get_d (opt_round o) q))
      x VD (fun q f => double_of (opt_round o) (m_scale A) (NR q) f) HS T_DBL Hn) as (y & E & H).
    + intros y E. change (fresh_vals TDBL (Z.max nz 1)) with (VD (mk (Z.max nz 1) (FFin 0 0))). cbn [slip_cast_array]. rewrite E. reflexivity.
    + intros k Hk. eexists. split; [reflexivity|]. unfold double_of, mpfr_get_d. destruct (fl_q (rdg FNan x k)); auto. apply dbl_q_correct.
    + exists y. split; auto.
  - destruct (@by_loop o addr A nz (VI x) TDBL Z fl 0 (FFin 0 0) (FFin 0 0) (fun q => Ok (dbl_q RNDN false (inject_Z q)))
      x VD (fun q f => double_rounded RNDN false (inject_Z q) f) HS T_DBL Hn) as (y & E & H).
    + intros y E. change (fresh_vals TDBL (Z.max nz 1)) with (VD (mk (Z.max nz 1) (FFin 0 0))). cbn [slip_cast_array]. rewrite E. reflexivity.
    + intros k Hk. eexists. split; [reflexivity|]. apply dbl_q_correct.
    + exists y. split; auto.
  - contradiction.
Qed.
Example C56_ex : converted None (fun _ => 1) TDBL exQ (VD [FFin 4503599627370496 (-53); FFin (-6004799503160661) (-53); FFin 5629499534213120 (-50)]) 1%Q.
Proof. apply converted_by. vm_compute. split; reflexivity. Qed.

(* 2^1100 and 1/3 of the smallest double, to doubles: GMP gives infinity and 0; MPFR rounding down gives the largest double and 0 *)
Example C56_range :
  converted None (fun _ => 1) TDBL (mkM 3 1 3 0 KDENSE TMPQ None None None (Some (VQ [inject_Z (2 ^ 1100); 1 # 3 * 2 ^ 1074; 5 # 3 * 2 ^ 1074]%Q)) 1%Q)
    (VD [FInf false; FFin 0 (-1074); FFin 1 (-1074)]) 1%Q /\
  converted (Some (mkO 3 1 1%Q 0 8 RNDD false)) (fun _ => 1) TDBL (mkM 3 1 3 0 KDENSE TMPFR None None None (Some (VR [FFin 1 1100; FFin (-1) 1100; FFin 5 (-1076)])) 1%Q)
    (VD [FFin (2 ^ 53 - 1) 971; FInf true; FFin 1 (-1074)]) 1%Q.
Proof. split; apply converted_by; vm_compute; split; reflexivity. Qed.

(* C57: SLIP_backslash with FP64 or MPFR output returns the exact solution, each entry correctly rounded *)
Theorem C57_backslash_rounded : forall env ol addr n nrhs A B o type,
  int_csc n n A -> int_dense n nrhs B -> env_ok env (opt_pivot o) ->
  1 <= n -> ~ (m_scale A == 0)%Q -> ~ (m_scale B == 0)%Q -> 1 <= opt_prec o -> detz n (Cent A) <> 0 -> type = TDBL \/ type = TMPFR ->
  exists X Y f, rat_dense n nrhs X /\ solves n A B X /\
    SLIP_backslash env ol addr true true type (Some A) (Some B) o = Ok (SOK, Out Y) /\
    m_kind Y = KDENSE /\ m_type Y = type /\ m_m Y = n /\ m_n Y = nrhs /\
    m_x Y = Some (if type =? TDBL then VD f else VR f) /\
    forall i r, 0 <= i < n -> 0 <= r < nrhs ->
      let v := nth (Z.to_nat (i + r * n)) f FNan in
      (type = TDBL -> double_rounded RNDZ true (Qent X i r) v) /\ (type = TMPFR -> fl_rounded (opt_round o) (opt_prec o) (Qent X i r) v).
Proof.
  intros env ol addr n nrhs A B o type IC ID He Hn HsA HsB Hp HD HT.
  destruct (@backslash_spec env ol addr n nrhs A B type o IC ID He Hn HsA HsB ltac:(tauto)) as [(_ & X & RX & SX & E)|(HD' & _)]; [|contradiction].
  destruct (rq_arr RX) as (x & Hx & Hl & Hc). assert (Hr : 0 <= nrhs) by apply (id_pos ID).
  assert (ST : stores X (n * nrhs) (VQ x)).
  { right; right. rewrite (rq_m RX), (rq_n RX). split; auto. constructor; rewrite ?(rq_m RX), ?(rq_n RX); auto; try lia. apply RX. rewrite (rq_type RX). reflexivity. simpl. lia. }
  assert (NZ : m_type X = TMPZ -> Qred (m_scale X) = m_scale X /\ ~ (m_scale X == 0)%Q) by (rewrite (rq_type RX); discriminate).
  assert (ND : m_type X <> TDBL) by (rewrite (rq_type RX); discriminate).
  assert (IT : type =? TMPQ = false) by (destruct HT as [-> | ->]; reflexivity). rewrite IT in E.
  assert (QE : forall i r, 0 <= i < n -> 0 <= r < nrhs -> 0 <= i + r * n < n * nrhs) by (intros; nia).
  destruct HT as [-> | ->].
  - destruct (C56_to_double o addr ST ND NZ) as (f & HC & HR).
    destruct (same_kind_stores ST T_DBL Hp HC) as (Y & EY & Y1 & Y2 & Y3 & Y4 & Y5 & Y6 & _). rewrite (rq_kind RX) in *. rewrite EY in E.
    exists X, Y, f. do 3 (split; auto). split; auto. split; auto. split. { rewrite Y5. apply RX. } split. { rewrite Y6. apply RX. } split; auto.
    intros i r Hi Hr' v. subst v. split; [intros _|discriminate]. specialize (HR _ (QE i r Hi Hr')). unfold double_of in HR. simpl in HR.
    unfold Qent. rewrite Hx, (rq_m RX). rewrite (nth_indep _ FNan (FFin 0 0)). exact HR.
    destruct (same_kind_stores ST T_DBL Hp HC) as (Y' & _ & _ & _ & _ & _ & _ & _ & HS'). destruct (stores_facts HS') as (_ & HB & _). simpl in HB. unfold zlen in HB.
    pose proof (QE i r Hi Hr'). lia.
  - destruct (C55_to_mpfr o addr ST Hp NZ) as (f & HC & HR).
    destruct (same_kind_stores ST T_MPFR Hp HC) as (Y & EY & Y1 & Y2 & Y3 & Y4 & Y5 & Y6 & _). rewrite (rq_kind RX) in *. rewrite EY in E.
    exists X, Y, f. do 3 (split; auto). split; auto. split; auto. split. { rewrite Y5. apply RX. } split. { rewrite Y6. apply RX. } split; auto.
    intros i r Hi Hr' v. subst v. split; [discriminate|intros _]. specialize (HR _ (QE i r Hi Hr')). unfold rounds_to in HR. simpl in HR.
    unfold Qent. rewrite Hx, (rq_m RX). exact HR.
Qed.
Example C57_ex := @C57_backslash_rounded exenv exol (fun _ => 0) 4 2 exA exB None TDBL ex_csc ex_dense (@ex_env _) ex_n ex_scaleA ex_scaleB
  ltac:(simpl; lia) ltac:(vm_compute; discriminate) (or_introl eq_refl).

(* C58: of the options, SLIP_matrix_copy uses only the rounding mode and the precision *)
Theorem C58_copy_options o o' addr inited handle kind type A : opt_round o = opt_round o' -> opt_prec o = opt_prec o' ->
  matrix_copy o addr inited handle kind type A = matrix_copy o' addr inited handle kind type A.
Proof.
  intros HR HP.
  assert (E1 : forall Y X n ys xs, slip_cast_array o addr Y X n ys xs = slip_cast_array o' addr Y X n ys xs).
  { intros. unfold slip_cast_array. rewrite HR, HP. reflexivity. }
  assert (E2 : forall Y X n ys xs, cast_array_ptr o addr Y X n ys xs = cast_array_ptr o' addr Y X n ys xs).
  { intros. unfold cast_array_ptr. destruct Y, X; auto. }
  assert (E3 : forall t A nz, slip_cast_matrix o addr t A nz = slip_cast_matrix o' addr t A nz).
  { intros. unfold slip_cast_matrix. destruct (matrix_allocate _ _ _ _ _ _); cbn [bind]; auto. rewrite E2. auto. }
  assert (E4 : forall R Y C f, @on_vals R o Y C f = on_vals o' Y C f).
  { intros. unfold on_vals. rewrite HR, HP. reflexivity. }
  assert (B : forall U W (m : res U) (f g : U -> res W), (forall u, f u = g u) -> bind m f = bind m g).
  { intros U W m f g H. destruct m; cbn [bind]; auto. }
  assert (DC : forall A nz, copy_dense_csc o addr type A nz = copy_dense_csc o' addr type A nz).
  { intros. unfold copy_dense_csc. rewrite E3. repeat (apply B; intros); rewrite ?E4; repeat (apply B; intros); rewrite ?E4; auto. }
  assert (CT : forall A nz, copy_csc_trip o addr type A nz = copy_csc_trip o' addr type A nz).
  { intros. unfold copy_csc_trip. apply B; intros. rewrite E2. auto. }
  unfold matrix_copy. destruct inited; auto. cbn [negb]. destruct (matrix_nnz true A) as [nz| | |]; cbn [bind]; auto. destruct A as [A|]; auto.
  repeat match goal with |- context[if ?c then _ else _] => destruct c; auto end.
  - unfold copy_csc_csc. repeat (apply B; intros). rewrite E2. auto.
  - unfold copy_trip_csc. rewrite E3. repeat (apply B; intros). apply E4.
  - unfold copy_trip_trip. repeat (apply B; intros). rewrite E2. auto.
  - unfold copy_dense_trip. rewrite DC. apply B; intros. apply B; intros. rewrite CT. auto.
  - unfold copy_csc_dense. apply B; intros. rewrite E3. repeat (apply B; intros). apply E4.
  - unfold copy_trip_dense. apply B; intros. rewrite E3. repeat (apply B; intros). apply E4.
  - unfold copy_dense_dense. apply B; intros. rewrite E2. auto.
Qed.
(* without options: precision 128 and rounding to nearest *)
Theorem C58_default addr inited handle kind type A pivot order tol print check :
  matrix_copy None addr inited handle kind type A = matrix_copy (Some (mkO pivot order tol print 128 RNDN check)) addr inited handle kind type A.
Proof. apply C58_copy_options; reflexivity. Qed.
(* the options do matter: 2/3 rounded up and down *)
Example C58_ex : converted (Some (mkO 3 1 1%Q 0 2 RNDU false)) (fun _ => 1) TMPFR exQ (VR [FFin 2 (-2); FFin (-2) (-2); FFin 3 1]) 1%Q /\
  converted (Some (mkO 3 1 1%Q 0 2 RNDD false)) (fun _ => 1) TMPFR exQ (VR [FFin 2 (-2); FFin (-3) (-2); FFin 2 1]) 1%Q.
Proof. split; apply converted_by; vm_compute; split; reflexivity. Qed.

(* C59: conversion to INT64 *)
(* MPZ with scale 1: exact when the number fits in 64 bits; otherwise only the low 63 bits survive *)
Theorem C59_mpz_to_int64 o addr A nz x : stores A nz (VZ x) -> (m_scale A = 1)%Q ->
  exists y, converted o addr TINT A (VI y) 1%Q /\ forall k, 0 <= k < nz ->
    (- 2 ^ 63 <= rd x k < 2 ^ 63 -> rd y k = rd x k) /\ (- 2 ^ 63 <= rd y k < 2 ^ 63) /\ (2 ^ 63 | rd x k - rd y k).
Proof.
  intros HS Hs. destruct (stores_facts HS) as (_ & Hn & _). simpl in Hn.
  destruct (@by_loop o addr A nz (VZ x) TINT Z Z 0 0 0 (fun z => if mpq_equal (m_scale A) 1%Q then Ok (mpz_get_si z)
                                        else let* q := unscale (m_scale A) z in slip_cast_double_to_int64 (mpq_get_d q))
      x VI (fun z t => (- 2 ^ 63 <= z < 2 ^ 63 -> t = z) /\ (- 2 ^ 63 <= t < 2 ^ 63) /\ (2 ^ 63 | z - t)) HS T_INT Hn) as (y & E & H).
  - intros y E. change (fresh_vals TINT (Z.max nz 1)) with (VI (mk (Z.max nz 1) 0)). cbn [slip_cast_array]. rewrite E. reflexivity.
  - intros k Hk. rewrite Hs. cbn [mpq_equal Qnum Qden Z.eqb Pos.eqb andb]. eexists. split; [reflexivity|]. generalize (rdg 0 x k). intros z. unfold mpz_get_si.
    destruct (Z.gtb_spec z 0) as [Hz|Hz]; [|destruct (Z.ltb_spec z 0) as [Hz'|Hz']].
    + pose proof (Z.mod_pos_bound z (2 ^ 63) ltac:(lia)). split; [|split].
      * intros. apply Z.mod_small. lia.
      * lia.
      * exists (z / 2 ^ 63). pose proof (Z.div_mod z (2 ^ 63) ltac:(lia)). lia.
    + pose proof (Z.mod_pos_bound (- z - 1) (2 ^ 63) ltac:(lia)). split; [|split].
      * intros. rewrite Z.mod_small by lia. lia.
      * lia.
      * exists (- ((- z - 1) / 2 ^ 63)). pose proof (Z.div_mod (- z - 1) (2 ^ 63) ltac:(lia)). lia.
    + assert (z = 0) by lia. subst z. split; auto. split; [lia|]. exists 0. lia.
  - exists y. split; auto.
Qed.
Theorem C59_mpz_wrap_refuted : exists A, stores A 1 (VZ [2 ^ 63 + 5]) /\ m_scale A = 1%Q /\ converted None (fun _ => 1) TINT A (VI [5]) 1%Q.
Proof.
  exists (mkM 1 1 1 0 KDENSE TMPZ None None None (Some (VZ [2 ^ 63 + 5])) 1%Q). split; [|split; auto].
  - right; right. split; [|reflexivity]. constructor; reflexivity || (vm_compute; discriminate).
  - apply converted_by. vm_compute. split; reflexivity.
Qed.
(* MPQ goes through a double: the result is the integer part of the truncated double, so integers beyond 2^53 may change *)
Lemma int64_of_rounded q : ~ (inject_Z (2 ^ 63) <= q < inject_Z (2 ^ 63 + 2 ^ 11))%Q -> exists z, slip_cast_double_to_int64 (mpq_get_d q) = Ok z /\
  exists d, double_rounded RNDZ true q d /\ int64_of d z.
Proof.
  intros HB. destruct (@cast_int64 (mpq_get_d q) (not_2_63 HB)) as (z & E & I). exists z. split; auto. exists (mpq_get_d q). split; auto. apply dbl_q_correct.
Qed.
Theorem C59_mpq_to_int64 o addr A nz x : stores A nz (VQ x) ->
  (forall k, 0 <= k < nz -> ~ (inject_Z (2 ^ 63) <= rdg 0 x k < inject_Z (2 ^ 63 + 2 ^ 11))%Q) ->
  exists y, converted o addr TINT A (VI y) 1%Q /\ forall k, 0 <= k < nz ->
    exists d, double_rounded RNDZ true (rdg 0%Q x k) d /\ int64_of d (rd y k).
Proof.
  intros HS HB. destruct (stores_facts HS) as (_ & Hn & _). simpl in Hn.
  destruct (@by_loop o addr A nz (VQ x) TINT Q Z 0%Q 0 0 (fun q => slip_cast_double_to_int64 (mpq_get_d q))
      x VI (fun q t => exists d, double_rounded RNDZ true q d /\ int64_of d t) HS T_INT Hn) as (y & E & H).
  - intros y E. change (fresh_vals TINT (Z.max nz 1)) with (VI (mk (Z.max nz 1) 0)). cbn [slip_cast_array]. rewrite E. reflexivity.
  - intros k Hk. apply int64_of_rounded. apply HB. auto.
  - exists y. split; auto.
Qed.
(* below 2^53 the result is the integer part of the exact number *)
Theorem C59_mpq_small q d z : (Qabs q < inject_Z (2 ^ 53))%Q -> double_rounded RNDZ true q d -> int64_of d z ->
  (Qabs (inject_Z z) <= Qabs q)%Q /\ (Qabs (q - inject_Z z) < 1)%Q.
Proof.
  intros HB (x & [XF [X1 X2]] & H1 & _) HI.
  assert (G0 : double_grid 0) by (exists 0, 0; repeat split; lia).
  assert (GI : forall k, Z.abs k < 2 ^ 53 -> double_grid (inject_Z k)).
  { intros k Hk. exists k, 0. split; auto. split; [lia|]. change (2 ^ 0)%Q with 1%Q. ring. }
  assert (L53 : (inject_Z (2 ^ 53) < 2 ^ 1024)%Q) by reflexivity. assert (L63 : (inject_Z (2 ^ 53) < inject_Z (2 ^ 63))%Q) by reflexivity.
  assert (L63' : (inject_Z (- 2 ^ 63) < - inject_Z (2 ^ 53))%Q) by reflexivity.
  apply Qabs_lt2 in HB.
  assert (BX : (- inject_Z (2 ^ 53) < x < inject_Z (2 ^ 53))%Q).
  { destruct (Qlt_le_dec q 0) as [S|S].
    - destruct X2 as [Y1 Y2]; [lra|]. specialize (Y2 0%Q G0). lra.
    - destruct X1 as [Y1 Y2]; [lra|]. specialize (Y2 0%Q G0). lra. }
  destruct H1 as (x' & EX & Ex). { apply Qabs_lt2. lra. }
  unfold int64_of in HI. rewrite EX in HI. destruct HI as (_ & _ & HI). rewrite Ex in HI. destruct HI as [T1 T2]; [lra|]. apply Qabs_lt2 in T2.
  assert (ZB : Z.abs z < 2 ^ 53).
  { assert (Qabs x < inject_Z (2 ^ 53))%Q as HX by (apply Qabs_lt2; lra). rewrite Qabs_Z in T1. rewrite Zlt_Qlt. lra. }
  destruct (Qlt_le_dec q 0) as [S|S].
  - destruct X2 as [Y1 Y2]; [lra|]. assert (x <= 0)%Q by (specialize (Y2 0%Q G0); lra). rewrite (Qabs_neg x) in T1 by auto. apply Qabs_le2 in T1.
    assert (z <= 0). { assert (inject_Z z < inject_Z 1)%Q by (change (inject_Z 1) with 1%Q; lra). rewrite <- Zlt_Qlt in H0. lia. }
    rewrite (Qabs_neg q), (Qabs_neg (inject_Z z)) by (try lra; change 0%Q with (inject_Z 0); rewrite <- Zle_Qle; auto).
    split. lra. apply Qabs_lt2. split; [|lra]. apply Qnot_le_lt. intros L.
    assert (x <= inject_Z (z - 1))%Q. { apply Y2. apply GI. assert (inject_Z (- 2 ^ 53) < inject_Z (z - 1))%Q. { unfold Z.sub at 2 || idtac. rewrite inject_Z_opp. unfold Z.sub. rewrite inject_Z_plus. change (inject_Z (-(1))) with (-(1))%Q. lra. } rewrite <- Zlt_Qlt in H1. lia. unfold Z.sub. rewrite inject_Z_plus. change (inject_Z (-(1))) with (-(1))%Q. lra. }
    unfold Z.sub in H1. rewrite inject_Z_plus in H1. change (inject_Z (-(1))) with (-(1))%Q in H1. lra.
  - destruct X1 as [Y1 Y2]; [lra|]. assert (0 <= x)%Q by (specialize (Y2 0%Q G0); lra). rewrite (Qabs_pos x) in T1 by auto. apply Qabs_le2 in T1.
    assert (0 <= z). { assert (inject_Z (-(1)) < inject_Z z)%Q by (change (inject_Z (-(1))) with (-(1))%Q; lra). rewrite <- Zlt_Qlt in H0. lia. }
    rewrite (Qabs_pos q), (Qabs_pos (inject_Z z)) by (try lra; change 0%Q with (inject_Z 0); rewrite <- Zle_Qle; auto).
    split. lra. apply Qabs_lt2. split; [lra|]. apply Qnot_le_lt. intros L.
    assert (inject_Z (z + 1) <= x)%Q. { apply Y2. apply GI. assert (inject_Z (z + 1) < inject_Z (2 ^ 53))%Q. { rewrite inject_Z_plus. change (inject_Z 1) with 1%Q. lra. } rewrite <- Zlt_Qlt in H1. lia. rewrite inject_Z_plus. change (inject_Z 1) with 1%Q. lra. }
    rewrite inject_Z_plus in H1. change (inject_Z 1) with 1%Q in H1. lra.
Qed.
(* the excluded numbers: 2^63 and a little above make the C conversion undefined *)
Theorem C59_mpq_boundary_refuted q : (inject_Z (2 ^ 63) <= q < inject_Z (2 ^ 63 + 2 ^ 11))%Q ->
  matrix_copy None (fun _ => 1) true true KDENSE TINT (Some (mkM 1 1 1 0 KDENSE TMPQ None None None (Some (VQ [q])) 1%Q)) = UB.
Proof.
  intros [Q1 Q2]. assert (E : slip_cast_double_to_int64 (mpq_get_d q) = UB).
  { destruct (dbl_q_correct RNDZ true q) as (x & [XF [X1 X2]] & H1 & _). fold (mpq_get_d q) in *.
    assert (P : (0 < inject_Z (2 ^ 63))%Q) by reflexivity. destruct X1 as [Y1 Y2]; [lra|].
    assert (YL : (inject_Z (2 ^ 63) <= x)%Q). { apply Y2; auto. exists (2 ^ 52), 11. repeat split; lia. }
    assert (YU : (x <= inject_Z (2 ^ 63))%Q).
    { apply Qnot_lt_le. intros L. destruct XF as (m & e & M1 & M2 & M3). rewrite M3 in *.
      destruct (Z_lt_dec e 11) as [G|G].
      - assert (inject_Z m * 2 ^ e <= inject_Z (2 ^ 53) * 2 ^ 10)%Q.
        { apply Qle_trans with (inject_Z (2 ^ 53) * 2 ^ e)%Q. 2: { apply Qmult_le_l. reflexivity. apply pow_le. lia. }
          apply Qmult_le_compat_r. rewrite <- Zle_Qle. lia. pose proof (pow_pos e). lra. }
        change (inject_Z (2 ^ 53) * 2 ^ 10)%Q with (inject_Z (2 ^ 63)) in H. lra.
      - replace e with (e - 11 + 11) in * by lia. rewrite pow_add, (@pow_Z (e - 11)), Qmult_assoc, <- inject_Z_mult in L, Y1 by lia.
        set (k := m * 2 ^ (e - 11)) in *. change (2 ^ 11)%Q with (inject_Z (2 ^ 11)) in L, Y1. rewrite <- inject_Z_mult in L, Y1.
        assert (inject_Z (k * 2 ^ 11) < inject_Z (2 ^ 63 + 2 ^ 11))%Q by lra. rewrite <- Zlt_Qlt in H, L. lia. }
    destruct H1 as (x' & E1 & E2). { apply Qabs_lt2. assert (inject_Z (2 ^ 63) < 2 ^ 1024)%Q by reflexivity. lra. }
    pose proof (cast_int64_spec (mpq_get_d q)) as H. rewrite E1 in H. destruct H as (_ & _ & _ & H). apply H. lra. }
  cbv -[slip_cast_double_to_int64 mpq_get_d]. rewrite E. reflexivity.
Qed.
Theorem C59_mpq_lossy_refuted : exists A, stores A 1 (VQ [inject_Z (2 ^ 53 + 1)]) /\ converted None (fun _ => 1) TINT A (VI [2 ^ 53]) 1%Q.
Proof.
  exists (mkM 1 1 1 0 KDENSE TMPQ None None None (Some (VQ [inject_Z (2 ^ 53 + 1)])) 1%Q). split.
  - right; right. split; [|reflexivity]. constructor; reflexivity || (vm_compute; discriminate).
  - apply converted_by. vm_compute. split; reflexivity.
Qed.
(* MPFR: rounded to an integer in the mode of the options, saturating; NaN gives 0 *)
Theorem C59_mpfr_to_int64 o addr A nz x : stores A nz (VR x) ->
  exists y, converted o addr TINT A (VI y) 1%Q /\ forall k, 0 <= k < nz ->
    match fl_q (rdg FNan x k) with
    | Some q => exists w, rounded (opt_round o) q w /\ rd y k = Z.max (- 2 ^ 63) (Z.min (2 ^ 63 - 1) w)
    | None => rd y k = match rdg FNan x k with FInf true => - 2 ^ 63 | FInf false => 2 ^ 63 - 1 | _ => 0 end
    end.
Proof.
  intros HS. destruct (stores_facts HS) as (_ & Hn & _). simpl in Hn.
  destruct (@by_loop o addr A nz (VR x) TINT fl Z FNan 0 0 (fun v => Ok (mpfr_get_si (opt_round o) v))
      x VI (fun v t => match fl_q v with
    | Some q => exists w, rounded (opt_round o) q w /\ t = Z.max (- 2 ^ 63) (Z.min (2 ^ 63 - 1) w)
    | None => t = match v with FInf true => - 2 ^ 63 | FInf false => 2 ^ 63 - 1 | _ => 0 end
    end) HS T_INT Hn) as (y & E & H).
  - intros y E. change (fresh_vals TINT (Z.max nz 1)) with (VI (mk (Z.max nz 1) 0)). cbn [slip_cast_array]. rewrite E. reflexivity.
  - intros k Hk. eexists. split; [reflexivity|]. destruct (rdg FNan x k) as [|b|m e]; [reflexivity|destruct b; reflexivity|].
    destruct (fl_q_val m e) as (q & -> & Eq). exists (mpfr_get_z (opt_round o) (FFin m e)). split; [|reflexivity].
    apply (@rounded_eq _ (inject_Z m * 2 ^ e)). symmetry; auto. apply get_z_rounded.
  - exists y. split; auto.
Qed.
Example C59_ex : converted None (fun _ => 1) TINT exR (VI [1; -2]) 1%Q.
Proof. apply converted_by. vm_compute. split; reflexivity. Qed.
