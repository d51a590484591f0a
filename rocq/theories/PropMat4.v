(* Properties C63, C64 (and additions to C41, C59): copies of the same kind, rejected arguments.  Specification: MatSpec.v, ApiSpec.v. *)
From Coq Require Import QArith Qabs Qpower Lqa.
From Verif Require Import Base DetZ Spec SumQ MFactor MSolve PSolve PSolve2 PReach PTri PPivot PFactor PLU MMatrix MatSpec MApi ApiSpec PApi PMat PFloat PCopy PConv PRound PDouble PCheck PCopy2 PropMat PropMat2 PropLU PropLU2 PropMat3.
Set Implicit Arguments.
Set Bullet Behavior "Strict Subproofs".
Open Scope Z_scope.

(*----------------------------------------------------------------------------*)
(* C63.  A copy that keeps the kind keeps the shape and the pattern, whatever the types, and the values when the type is kept. *)
Theorem C63_csc_copy o addr A p i x T C : csc_ok A p i x -> is_type T -> 1 <= opt_prec o ->
  matrix_copy o addr true true KCSC T (Some A) = Ok C ->
  exists i' cx, csc_ok C p i' cx /\ m_type C = T /\ m_m C = m_m A /\ m_n C = m_n A /\
    forall q, 0 <= q < rd p (m_n A) -> rd i' q = rd i q.
Proof.
  intros OK HT Hp E. pose proof (csc_stores OK) as HS.
  assert (HK : m_kind A = KCSC) by (dcsc OK; auto).
  assert (HX : exists cx, m_x C = Some cx /\ converted o addr T A cx (m_scale C)).
  { rewrite <- HK in E. pose proof (@copy_same_eq o addr A _ x T HS HT) as H.
    destruct (slip_cast_array o addr (fresh_vals T (Z.max (rd p (m_n A)) 1)) x (rd p (m_n A)) 1 (m_scale A)) as [[yx s]| | |] eqn:EC; try congruence.
    destruct H as (Y & F & F1 & F2 & _). assert (Y = C) by congruence. subst Y. exists yx. split; auto. exists C. auto. }
  destruct HX as (cx & X1 & HC). pose proof (cast_source HS HT Hp HC) as (V1 & V2 & _).
  destruct (same_kind_copy HS HT HC) as (Y & F & Y1 & Y2 & Y3 & Y4 & P). rewrite HK in F. assert (Y = C) by congruence. subst Y.
  unfold same_pattern in P. destruct P as (P1 & P2 & P3 & P4 & P5 & P6). dcsc OK.
  destruct P5 as (i0 & i' & Ei & Ei' & L & R). { rewrite HK. discriminate. } assert (i0 = i) by congruence. subst i0.
  exists i', cx. split; [|do 3 (split; auto)].
  constructor; rewrite ?P1, ?P2; auto; try congruence.
  - rewrite P4; auto.
  - intros q Hq. rewrite R by auto. auto.
Qed.
Theorem C63_triplet_copy o addr A ti tj x T C : trip_ok A ti tj x -> is_type T -> 1 <= opt_prec o ->
  matrix_copy o addr true true KTRIP T (Some A) = Ok C ->
  exists i' j' cx, trip_ok C i' j' cx /\ m_type C = T /\ m_m C = m_m A /\ m_n C = m_n A /\ m_nz C = m_nz A /\
    forall k, 0 <= k < m_nz A -> rd i' k = rd ti k /\ rd j' k = rd tj k.
Proof.
  intros OK HT Hp E. pose proof (trip_stores OK) as HS.
  assert (HK : m_kind A = KTRIP) by (dtrip OK; auto).
  assert (HX : exists cx, m_x C = Some cx /\ converted o addr T A cx (m_scale C)).
  { rewrite <- HK in E. pose proof (@copy_same_eq o addr A _ x T HS HT) as H.
    destruct (slip_cast_array o addr (fresh_vals T (Z.max (m_nz A) 1)) x (m_nz A) 1 (m_scale A)) as [[yx s]| | |] eqn:EC; try congruence.
    destruct H as (Y & F & F1 & F2 & _). assert (Y = C) by congruence. subst Y. exists yx. split; auto. exists C. auto. }
  destruct HX as (cx & X1 & HC). pose proof (cast_source HS HT Hp HC) as (V1 & V2 & _).
  destruct (same_kind_copy HS HT HC) as (Y & F & Y1 & Y2 & Y3 & Y4 & P). rewrite HK in F. assert (Y = C) by congruence. subst Y.
  unfold same_pattern in P. destruct P as (P1 & P2 & P3 & P4 & P5 & P6). dtrip OK.
  destruct P5 as (i0 & i' & Ei & Ei' & L & R). { rewrite HK. discriminate. } assert (i0 = ti) by congruence. subst i0.
  destruct (P6 HK) as (Z1 & j0 & j' & Ej & Ej' & L' & R'). assert (j0 = tj) by congruence. subst j0.
  exists i', j', cx. split; [|do 4 (split; auto)].
  constructor; rewrite ?P1, ?P2, ?Z1; auto; try congruence.
  - intros q Hq. rewrite R by auto. auto.
  - intros q Hq. rewrite R' by auto. auto.
Qed.
Theorem C63_dense_copy o addr A x T C : dense_ok A x -> is_type T -> 1 <= opt_prec o ->
  matrix_copy o addr true true KDENSE T (Some A) = Ok C ->
  exists cx, dense_ok C cx /\ m_type C = T /\ m_m C = m_m A /\ m_n C = m_n A.
Proof.
  intros OK HT Hp E. pose proof (dense_stores OK) as HS.
  assert (HK : m_kind A = KDENSE) by (ddense OK; auto).
  assert (HX : exists cx, m_x C = Some cx /\ converted o addr T A cx (m_scale C)).
  { rewrite <- HK in E. pose proof (@copy_same_eq o addr A _ x T HS HT) as H.
    destruct (slip_cast_array o addr (fresh_vals T (Z.max (m_m A * m_n A) 1)) x (m_m A * m_n A) 1 (m_scale A)) as [[yx s]| | |] eqn:EC; try congruence.
    destruct H as (Y & F & F1 & F2 & _). assert (Y = C) by congruence. subst Y. exists yx. split; auto. exists C. auto. }
  destruct HX as (cx & X1 & HC). pose proof (cast_source HS HT Hp HC) as (V1 & V2 & _).
  destruct (same_kind_copy HS HT HC) as (Y & F & Y1 & Y2 & Y3 & Y4 & P). rewrite HK in F. assert (Y = C) by congruence. subst Y.
  unfold same_pattern in P. destruct P as (P1 & P2 & P3 & _). ddense OK.
  exists cx. split; [|auto]. constructor; rewrite ?P1, ?P2; auto; congruence.
Qed.
(* same kind, same type: the call succeeds and the numbers are identical; the scale is kept for mpz and 1 otherwise.  mpfr numbers are
   rounded to the precision of the options. *)
Theorem C63_values o addr A nz x : stores A nz x ->
  exists C cx, matrix_copy o addr true true (m_kind A) (m_type A) (Some A) = Ok C /\ m_x C = Some cx /\
    m_scale C = (if m_type A =? TMPZ then m_scale A else 1%Q) /\
    forall k, 0 <= k < nz ->
      cell cx k = match cell x k with NR v => NR (rnd_fl (opt_round o) (opt_prec o) v) | v => v end.
Proof.
  intros HS. destruct (same_type_values o addr HS) as (yx & (C & E & E1 & E2) & HV). exists C, yx. do 3 (split; auto).
  intros k Hk. rewrite HV by auto. destruct (cell x k); reflexivity.
Qed.
(* a wide CSC matrix *)
Definition exW : matrix := mkM 2 3 4 0 KCSC TINT (Some [0; 1; 1; 3]) (Some [1; 0; 1; 9]) None (Some (VI [7; 8; -9; 0])) 1%Q.
Lemma exW_ok : csc_ok exW [0; 1; 1; 3] [1; 0; 1; 9] (VI [7; 8; -9; 0]).
Proof.
  constructor; try reflexivity; try (vm_compute; congruence).
  - intros c Hc. change (m_n exW) with 3 in Hc. assert (c = 0 \/ c = 1 \/ c = 2) as [-> |[-> | ->]] by lia; vm_compute; discriminate.
  - intros q Hq. change (rd [0; 1; 1; 3] (m_n exW)) with 3 in Hq. change (m_m exW) with 2.
    assert (q = 0 \/ q = 1 \/ q = 2) as [-> |[-> | ->]] by lia; vm_compute; split; (discriminate || reflexivity).
Qed.
Example C63_ex : exists C, matrix_copy None (fun _ => 1) true true KCSC TMPZ (Some exW) = Ok C /\
  m_p C = Some [0; 1; 1; 3] /\ m_i C = Some [1; 0; 1] /\ m_x C = Some (VZ [7; 8; -9]) /\ m_nzmax C = 3.
Proof. eexists. split; [reflexivity|]. repeat split. Qed.

(*----------------------------------------------------------------------------*)
(* C41: mpfr to mpq is exact on finite numbers; NaN and infinities become 0 *)
Theorem C41_mpfr_to_mpq o addr A nz x : stores A nz (VR x) ->
  exists y, converted o addr TMPQ A (VQ y) 1%Q /\
    forall k, 0 <= k < nz -> rdg 0%Q y k = match fl_q (rdg FNan x k) with Some q => q | None => 0%Q end.
Proof.
  intros HS. destruct (stores_facts HS) as (_ & Hn & _). simpl in Hn.
  destruct (@by_loop o addr A nz (VR x) TMPQ fl Q FNan 0%Q 0%Q (fun v => Ok (mpfr_get_q v))
      x VQ (fun v q => q = match fl_q v with Some q => q | None => 0%Q end) HS) as (y & E & H); auto.
  - vm_compute; split; discriminate.
  - intros y E. change (fresh_vals TMPQ (Z.max nz 1)) with (VQ (mk (Z.max nz 1) 0%Q)). cbn [slip_cast_array]. rewrite E. reflexivity.
  - intros k Hk. eexists. split; reflexivity.
  - exists y. split; auto.
Qed.
Example C41_exr : converted None (fun _ => 1) TMPQ (mkM 3 1 3 0 KDENSE TMPFR None None None (Some (VR [FFin 3 (-2); FFin (-5) 1; FNan])) 1%Q)
  (VQ [3 # 4; inject_Z (-10); 0]%Q) 1%Q.
Proof. eexists. split; [reflexivity|]. split; reflexivity. Qed.

(* C59: mpz with a scale other than 1 goes through a double too *)
Theorem C59_mpz_scaled_to_int64 o addr A nz x : stores A nz (VZ x) -> Qred (m_scale A) = m_scale A -> ~ (m_scale A == 0)%Q -> ~ (m_scale A == 1)%Q ->
  (forall k, 0 <= k < nz -> ~ (inject_Z (2 ^ 63) <= inject_Z (rd x k) / m_scale A < inject_Z (2 ^ 63 + 2 ^ 11))%Q) ->
  exists y, converted o addr TINT A (VI y) 1%Q /\ forall k, 0 <= k < nz ->
    exists d, double_rounded RNDZ true (inject_Z (rd x k) / m_scale A) d /\ int64_of d (rd y k).
Proof.
  intros HS Hc H0 H1 HB. destruct (stores_facts HS) as (_ & Hn & _). simpl in Hn.
  destruct (@by_loop o addr A nz (VZ x) TINT Z Z 0 0 0 (fun z => if mpq_equal (m_scale A) 1%Q then Ok (mpz_get_si z)
                                        else let* q := unscale (m_scale A) z in slip_cast_double_to_int64 (mpq_get_d q))
      x VI (fun z t => exists d, double_rounded RNDZ true (inject_Z z / m_scale A) d /\ int64_of d t) HS T_INT Hn) as (y & E & H).
  - intros y E. change (fresh_vals TINT (Z.max nz 1)) with (VI (mk (Z.max nz 1) 0)). cbn [slip_cast_array]. rewrite E. reflexivity.
  - intros k Hk. destruct (@mpq_equal_spec (m_scale A) 1%Q Hc canon_1) as [EQ|EQ]; [contradiction|].
    specialize (HB k Hk). change (rd x k) with (rdg 0 x k) in HB.
    destruct (@unscale_spec (m_scale A) (rdg 0 x k) Hc H0) as (q & -> & _ & Eq). cbn [bind].
    destruct (@int64_of_rounded q) as (z & -> & d & R & I). { rewrite Eq. auto. }
    exists z. split; auto. exists d. split; auto. eapply double_rounded_eq; [exact Eq|]. auto.
  - exists y. split; auto.
Qed.
(* 7 / (2/3) = 21/2 becomes 10 *)
Example C59_exs : converted None (fun _ => 1) TINT (mkM 1 1 1 0 KDENSE TMPZ None None None (Some (VZ [7])) (2 # 3)%Q) (VI [10]) 1%Q.
Proof. eexists. split; [reflexivity|]. split; reflexivity. Qed.

(*----------------------------------------------------------------------------*)
(* C64.  Rejected arguments. *)
(* A is a matrix object of the given kind and type *)
Definition is_kt (A : option matrix) (kind type : Z) : Prop := exists M, A = Some M /\ m_kind M = kind /\ m_type M = type.
Lemma has_kt_spec A k t : has_kt A k t = true <-> is_kt A k t.
Proof.
  unfold has_kt, is_kt. destruct A as [M|].
  - rewrite andb_true_iff, !Z.eqb_eq. split. { intros []. exists M. auto. } intros (M' & E & H). assert (M' = M) by congruence. subst M'. auto.
  - split. discriminate. intros (M & E & _). discriminate.
Qed.
Lemma has_kt_not A k t : ~ is_kt A k t -> has_kt A k t = false.
Proof. intros H. destruct (has_kt A k t) eqn:E; auto. exfalso. apply H. apply has_kt_spec. auto. Qed.
Lemma finish_not_kept A (m : res A) s : finish m <> Ok (s, Kept).
Proof. destruct m; discriminate. Qed.

(* Factorize: PANIC before SLIP_initialize; INCORRECT_INPUT exactly when A is not an mpz CSC matrix, or S or an output handle is NULL, and
   then the handles are not touched; in all other cases they are assigned. *)
Theorem C64_factorize env handles A An o :
  SLIP_LU_factorize env false handles A An o = Ok (SErr SLIP_PANIC, Kept) /\
  (~ is_kt A KCSC TMPZ -> SLIP_LU_factorize env true handles A An o = Ok (SErr SLIP_INCORRECT_INPUT, Kept)) /\
  (forall M nz x, A = Some M -> stores M nz x -> An = None \/ handles = false ->
     SLIP_LU_factorize env true handles A An o = Ok (SErr SLIP_INCORRECT_INPUT, Kept)) /\
  (forall M nz x s, A = Some M -> stores M nz x -> is_kt A KCSC TMPZ -> An <> None -> handles = true ->
     SLIP_LU_factorize env true handles A An o <> Ok (s, Kept)).
Proof.
  split; [reflexivity|]. split; [|split].
  - intros H. unfold SLIP_LU_factorize. rewrite (has_kt_not H). reflexivity.
  - intros M nz x -> HS H. destruct (stores_facts HS) as (Hz & Hn & _). unfold SLIP_LU_factorize.
    destruct (has_kt (Some M) KCSC TMPZ); [|reflexivity]. cbn [negb]. rewrite Hz. destruct H as [-> | ->]; [reflexivity|].
    destruct An; reflexivity.
  - intros M nz x s -> HS HK HA ->. destruct (stores_facts HS) as (Hz & Hn & _). unfold SLIP_LU_factorize.
    rewrite (proj2 (has_kt_spec _ _ _) HK). cbn [negb]. rewrite Hz. destruct An as [An|]; [|congruence].
    destruct (Z.ltb_spec nz 0); [lia|]. cbn [orb]. apply finish_not_kept.
Qed.
(* Solve: the same, with the kinds and types of the five matrices and the agreement of the dimensions that are compared *)
Theorem C64_solve handle b A L U rhos An pinv o :
  SLIP_LU_solve false handle b A L U rhos An pinv o = Ok (SErr SLIP_PANIC, Kept) /\
  (~ is_kt b KDENSE TMPZ \/ ~ is_kt A KCSC TMPZ \/ ~ is_kt L KCSC TMPZ \/ ~ is_kt U KCSC TMPZ \/ ~ is_kt rhos KDENSE TMPZ \/
   An = None \/ pinv = None \/ handle = false ->
     SLIP_LU_solve true handle b A L U rhos An pinv o = Ok (SErr SLIP_INCORRECT_INPUT, Kept)) /\
  (forall mb mA mL mU mr, b = Some mb -> A = Some mA -> L = Some mL -> U = Some mU -> rhos = Some mr ->
     (m_m mL <> m_m mA \/ m_n mL <> m_m mU \/ m_n mU <> m_n mA \/ m_n mA <> m_m mA \/ m_m mA <> m_m mb ->
        SLIP_LU_solve true handle b A L U rhos An pinv o = Ok (SErr SLIP_INCORRECT_INPUT, Kept)) /\
     (forall s, is_kt b KDENSE TMPZ -> is_kt A KCSC TMPZ -> is_kt L KCSC TMPZ -> is_kt U KCSC TMPZ -> is_kt rhos KDENSE TMPZ ->
        An <> None -> pinv <> None -> handle = true ->
        m_m mL = m_m mA -> m_n mL = m_m mU -> m_n mU = m_n mA -> m_n mA = m_m mA -> m_m mA = m_m mb ->
        SLIP_LU_solve true handle b A L U rhos An pinv o <> Ok (s, Kept))).
Proof.
  split; [reflexivity|]. split.
  - intros H. unfold SLIP_LU_solve. cbn [negb].
    destruct (has_kt b KDENSE TMPZ) eqn:E1; [|reflexivity]. destruct (has_kt A KCSC TMPZ) eqn:E2; [|reflexivity].
    destruct (has_kt L KCSC TMPZ) eqn:E3; [|reflexivity]. destruct (has_kt U KCSC TMPZ) eqn:E4; [|reflexivity].
    destruct (has_kt rhos KDENSE TMPZ) eqn:E5; [|reflexivity]. cbn [andb negb].
    apply has_kt_spec in E1, E2, E3, E4, E5.
    destruct H as [H|[H|[H|[H|[H|H]]]]]; try contradiction.
    destruct b, A, L, U, rhos; try reflexivity. destruct An as [An|]; [|reflexivity]. destruct pinv as [pinv|]; [|reflexivity].
    destruct H as [H|[H|H]]; try discriminate. rewrite H. reflexivity.
  - intros mb mA mL mU mr -> -> -> -> ->. split.
    + intros H. unfold SLIP_LU_solve. cbn [negb]. destruct (has_kt _ _ _ && has_kt _ _ _ && has_kt _ _ _ && has_kt _ _ _ && has_kt _ _ _); [|reflexivity].
      cbn [negb]. destruct An as [An|]; [|reflexivity]. destruct pinv as [pinv|]; [|reflexivity].
      destruct (Z.eqb_spec (m_m mL) (m_m mA)), (Z.eqb_spec (m_n mL) (m_m mU)), (Z.eqb_spec (m_n mU) (m_n mA)), (Z.eqb_spec (m_n mA) (m_m mA)), (Z.eqb_spec (m_m mA) (m_m mb));
        cbn [negb orb]; rewrite ?orb_true_r; try reflexivity. exfalso. intuition congruence.
    + intros s K1 K2 K3 K4 K5 HA HP -> D1 D2 D3 D4 D5. unfold SLIP_LU_solve. cbn [negb].
      apply has_kt_spec in K1, K2, K3, K4, K5. rewrite K1, K2, K3, K4, K5. cbn [andb negb].
      destruct An as [An|]; [|congruence]. destruct pinv as [pinv|]; [|congruence].
      rewrite D1, D2, D3, D4, D5, !Z.eqb_refl. cbn [negb orb]. apply finish_not_kept.
Qed.
(* Copy *)
Theorem C64_copy o addr handle kind type A :
  matrix_copy o addr false handle kind type A = Err SLIP_PANIC /\
  matrix_copy o addr true handle kind type None = Err SLIP_INCORRECT_INPUT /\
  (forall M nz x, A = Some M -> stores M nz x -> handle = false \/ ~ KCSC <= kind <= KDENSE \/ ~ is_type type ->
     matrix_copy o addr true handle kind type A = Err SLIP_INCORRECT_INPUT) /\
  (forall M nz, A = Some M -> matrix_nnz true (Some M) = Ok nz -> nz < 0 \/ ~ is_type (m_type M) ->
     matrix_copy o addr true handle kind type A = Err SLIP_INCORRECT_INPUT).
Proof.
  split; [reflexivity|]. split; [reflexivity|]. split.
  - intros M nz x -> HS H. destruct (stores_facts HS) as (Hz & _). unfold matrix_copy. cbn [negb]. rewrite Hz. cbn [bind].
    match goal with |- (if ?c then _ else _) = _ => assert (c = true) as -> end; [|reflexivity].
    unfold is_type in H. rewrite !orb_true_iff, negb_true_iff, !Z.ltb_lt, !Z.gtb_lt. destruct H as [H|[H|H]]; [tauto| |]; lia.
  - intros M nz -> Hz H. unfold matrix_copy. cbn [negb]. rewrite Hz. cbn [bind].
    match goal with |- (if ?c then _ else _) = _ => assert (c = true) as -> end; [|reflexivity].
    unfold is_type in H. rewrite !orb_true_iff, negb_true_iff, !Z.ltb_lt, !Z.gtb_lt. destruct H as [H|H]; [tauto|]. lia.
Qed.
(* Check *)
Theorem C64_check A : matrix_check false A = Err SLIP_PANIC /\ matrix_check true None = Err SLIP_INCORRECT_INPUT /\
  (forall M nz, A = Some M -> matrix_nnz true (Some M) = Ok nz -> nz < 0 \/ m_m M < 0 \/ m_n M < 0 \/ m_nzmax M < 0 \/ ~ is_type (m_type M) ->
     matrix_check true A = Err SLIP_INCORRECT_INPUT).
Proof.
  split; [reflexivity|]. split; [reflexivity|]. intros M nz -> Hz H. unfold matrix_check. cbn [negb]. rewrite Hz. cbn [bind]. cbv zeta.
  destruct ((nz <? 0) || (m_m M <? 0) || (m_n M <? 0) || (m_nzmax M <? 0)) eqn:E1; [reflexivity|].
  rewrite !orb_false_iff, !Z.ltb_ge in E1. destruct E1 as (((? & ?) & ?) & ?).
  destruct ((m_type M <? TMPZ) || (m_type M >? TDBL)) eqn:E2; [reflexivity|].
  rewrite orb_false_iff, Z.ltb_ge, Z.gtb_ltb, Z.ltb_ge in E2. unfold is_type in H. lia.
Qed.
(* a rejected and an accepted call *)
Example C64_ex : SLIP_LU_factorize (fun _ _ _ => None) true true (Some exW) (Some (mkS [0] 1 1)) None = Ok (SErr SLIP_INCORRECT_INPUT, Kept) /\
  SLIP_LU_factorize (fun _ _ _ => None) true true (Some (mkM 1 1 1 0 KCSC TMPZ (Some [0; 1]) (Some [0]) None (Some (VZ [5])) 1%Q)) (Some (mkS [0] 1 1)) None
    <> Ok (SErr SLIP_INCORRECT_INPUT, Kept) /\
  matrix_copy None (fun _ => 1) true true 3 TMPZ (Some exW) = Err SLIP_INCORRECT_INPUT.
Proof. repeat split. vm_compute. discriminate. Qed.
