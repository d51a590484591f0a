(* C83.  64-bit integers: on matrices up to the sizes stated here no int64_t computation of SLIP_LU_analyze, SLIP_LU_factorize and SLIP_LU_solve
   (indices, loop counters, counts and estimates of entries, double estimates cast to int64_t) overflows; outside, SLIP_matrix_allocate does. *)
From Verif Require Import Base DetZ Spec SumQ MFactor MSolve MMatrix MApi ApiSpec PFactor PApi PropLU MInt64 PInt64 PInt64b LUEx.
Set Implicit Arguments.
Open Scope Z_scope.

(* SLIP_LU_analyze: up to 2^26 = 67108864 columns the doubles used for the estimates are exact, and nothing overflows *)
Theorem C83_analyze_no_overflow : forall ol A Ap Ai n o,
  m_kind A = KCSC -> m_m A = n -> m_n A = n -> m_p A = Some Ap -> m_i A = Some Ai -> valid_pattern n n Ap Ai -> n <= 2 ^ 26 ->
  SLIP_LU_analyze64 ol true true (Some A) o = SLIP_LU_analyze ol true true (Some A) o /\
  exists An, SLIP_LU_analyze64 ol true true (Some A) o = Ok (SOK, Out An) /\ is_perm n (s_q An) /\
    (1 <= n -> n <= s_lnz An <= n * n /\ n <= s_unz An <= n * n).
Proof.
  intros ol A Ap Ai n o Hk Hm Hn Hp Hi V H26.
  assert (E : SLIP_LU_analyze64 ol true true (Some A) o = SLIP_LU_analyze ol true true (Some A) o).
  { destruct (nnz_csc A Hk Hn Hp V) as [Hz Hz0].
    unfold SLIP_LU_analyze64, SLIP_LU_analyze. cbn [negb]. destruct (negb (has_kind (Some A) KCSC)); auto.
    destruct (false || negb (m_n A =? m_m A)); auto. rewrite Hz. rewrite (@analyze_core_eq ol (opt_order o) A Ap Ai n Hn Hp Hi V H26). reflexivity. }
  split; [exact E|]. destruct (@analyze_spec ol A Ap Ai n o Hk Hm Hn Hp Hi V) as (An & EA & (U1 & U2 & U3) & _ & U5).
  exists An. rewrite E. split; [exact EA|]. split; [exact U1|]. intros H1. specialize (U5 H1). lia.
Qed.
Example C83_ex1 : SLIP_LU_analyze64 exol true true (Some exA) None = Ok (SOK, Out exAn).
Proof.
  rewrite (proj1 (@C83_analyze_no_overflow exol exA exAp exAi 4 None eq_refl eq_refl eq_refl eq_refl eq_refl (csc_pattern ex_valid) ltac:(lia))). exact ex_analyze.
Qed.

(* SLIP_LU_factorize, for any order q and any estimates *)
Theorem C83_factorize_no_overflow : forall env n A An o,
  int_csc n n A -> usable n An -> env_ok env (opt_pivot o) ->
  n <= 2 ^ 30 -> (forall Ai, m_i A = Some Ai -> zlen Ai <= 2 ^ 61) -> s_lnz An <= 2 ^ 61 -> s_unz An <= 2 ^ 61 ->
  SLIP_LU_factorize64 env true true (Some A) (Some An) o = SLIP_LU_factorize env true true (Some A) (Some An) o /\
  SLIP_LU_factorize64 env true true (Some A) (Some An) o <> UB.
Proof.
  intros env n A An o IC US He H30 HI HL HU.
  assert (NU : SLIP_LU_factorize env true true (Some A) (Some An) o <> UB).
  { destruct (C02_singular_iff o IC US He) as [(_ & F & ->)|(_ & ->)]; discriminate. }
  assert (E : SLIP_LU_factorize64 env true true (Some A) (Some An) o = SLIP_LU_factorize env true true (Some A) (Some An) o); [|rewrite E; auto].
  destruct (ic_arr IC) as (Ap & Ai & Ax & Hp & Hi & Hx & V). revert NU.
  unfold SLIP_LU_factorize64, SLIP_LU_factorize. cbn [negb]. destruct (negb (has_kt (Some A) KCSC TMPZ)); auto.
  destruct (matrix_nnz true (Some A)) as [anz| | |]; auto. destruct (false || (anz <? 0)); auto.
  rewrite Hp, Hi. unfold xmpz. rewrite Hx, (ic_n IC). cbn [deref bind].
  destruct (@factorize_core_sim env (opt_pivot o) (opt_tol o) n Ap Ai Ax (s_q An) (s_lnz An) (s_unz An)) as [->|[-> _]]; auto.
  - pose proof (v_n V). lia.
  - rewrite (v_p V). num.
  - cbn [bind finish]. intros H; destruct (H eq_refl).
Qed.
Example C83_ex2 : SLIP_LU_factorize64 exenv true true (Some exA) (Some exAn) None = Ok (SOK, Out (fac_of exAn None)).
Proof.
  destruct (@C83_factorize_no_overflow exenv 4 exA exAn None ex_csc ex_usable (@ex_env _)) as [-> _]; try (cbn; lia).
  - intros Ai [= <-]. vm_compute. discriminate.
  - exact ex_factorize.
Qed.

(* SLIP_LU_solve on the result of SLIP_LU_factorize *)
Theorem C83_solve_no_overflow : forall env n nrhs A B An o o' F,
  int_csc n n A -> int_dense n nrhs B -> 1 <= n -> ~ (m_scale A == 0)%Q -> ~ (m_scale B == 0)%Q ->
  usable n An -> env_ok env (opt_pivot o) ->
  SLIP_LU_factorize env true true (Some A) (Some An) o = Ok (SOK, Out F) ->
  n <= 2 ^ 30 -> n * nrhs <= 2 ^ 61 -> (forall Ai, m_i A = Some Ai -> zlen Ai <= 2 ^ 61) ->
  SLIP_LU_solve64 true true (Some B) (Some A) (Some (lu_L F)) (Some (lu_U F)) (Some (lu_rhos F)) (Some An) (Some (lu_pinv F)) o' =
    SLIP_LU_solve true true (Some B) (Some A) (Some (lu_L F)) (Some (lu_U F)) (Some (lu_rhos F)) (Some An) (Some (lu_pinv F)) o' /\
  SLIP_LU_solve64 true true (Some B) (Some A) (Some (lu_L F)) (Some (lu_U F)) (Some (lu_rhos F)) (Some An) (Some (lu_pinv F)) o' <> UB.
Proof.
  intros env n nrhs A B An o o' F IC ID Hn HsA HsB US He EF H30 Hm HI.
  assert (Hr : nrhs <= 2 ^ 61) by (destruct (id_pos ID); nia).
  pose proof (proj2 (@C03_no_bad_division env n nrhs A B An o o' IC ID Hn HsA HsB US He) F EF) as NU.
  match goal with |- ?a = ?b /\ _ => assert (E : a = b); [|rewrite E; auto] end.
  destruct (factorize_ok_inv o IC US He EF) as (Ap & Ai & Ax & F0 & R & Hp & Hi & Hx & V & -> & K & _). specialize (HI Ai Hi).
  destruct (id_arr ID) as (b & Hb & Hbl). revert NU.
  unfold SLIP_LU_solve64, SLIP_LU_solve. cbn [negb].
  match goal with |- context [if ?c then reject SLIP_INCORRECT_INPUT else _] => destruct c; auto end.
  match goal with |- context [if ?c then reject SLIP_INCORRECT_INPUT else _] => destruct c; auto end.
  unfold xmpz. rewrite Hp, Hi, Hx, Hb. cbn [deref bind lu_of lu_L lu_U lu_rhos lu_pinv csc_matrix dense_matrix m_p m_i m_x m_n].
  rewrite (id_m ID), (id_n ID).
  assert (N2 : n * n <= 2 ^ 60) by (change (2 ^ 60) with (2 ^ 30 * 2 ^ 30); nia).
  pose proof (nnz_le (csc_pattern (fk_L K))) as NL. pose proof (nnz_le (csc_pattern (fk_U K))) as NUu.
  match goal with |- context [solve_core ?a ?b ?c ?d ?e ?f ?g ?h ?i ?j ?k ?l] => destruct (@solve_core_sim a b c d e f g h i j k l) as [->|[-> _]] end; auto;
    cbn [fac_Lp fac_Li fac_Up fac_Ux fac_rhos]; try num.
  - rewrite (v_p V). num.
  - rewrite (v_x V). num.
  - rewrite (v_p (fk_L K)). num.
  - rewrite (fk_Ln K). num.
  - rewrite (v_p (fk_U K)). num.
  - rewrite (v_x (fk_U K)), (fk_Un K). num.
  - rewrite (fk_rl K). num.
  - cbn [bind finish]. intros H; destruct (H eq_refl).
Qed.
Example C83_ex3 := @C83_solve_no_overflow exenv 4 2 exA exB exAn None None (fac_of exAn None) ex_csc ex_dense ex_n ex_scaleA ex_scaleB ex_usable (@ex_env _) ex_factorize.

(* the three calls in a row, with int64_t and double arithmetic throughout *)
Theorem C83_pipeline : forall env ol n nrhs A B o1 o2 o3,
  int_csc n n A -> int_dense n nrhs B -> 1 <= n <= 2 ^ 26 -> n * nrhs <= 2 ^ 61 -> (forall Ai, m_i A = Some Ai -> zlen Ai <= 2 ^ 61) ->
  ~ (m_scale A == 0)%Q -> ~ (m_scale B == 0)%Q -> env_ok env (opt_pivot o2) ->
  exists An, SLIP_LU_analyze64 ol true true (Some A) o1 = Ok (SOK, Out An) /\
    ((detz n (Cent A) <> 0 /\ exists F X,
        SLIP_LU_factorize64 env true true (Some A) (Some An) o2 = Ok (SOK, Out F) /\
        SLIP_LU_solve64 true true (Some B) (Some A) (Some (lu_L F)) (Some (lu_U F)) (Some (lu_rhos F)) (Some An) (Some (lu_pinv F)) o3 = Ok (SOK, Out X) /\
        rat_dense n nrhs X /\ solves n A B X) \/
     (detz n (Cent A) = 0 /\ SLIP_LU_factorize64 env true true (Some A) (Some An) o2 = Ok (SErr SLIP_SINGULAR, Null))).
Proof.
  intros env ol n nrhs A B o1 o2 o3 IC ID Hn Hm HI HsA HsB He.
  destruct (ic_arr IC) as (Ap & Ai & Ax & Hp & Hi & Hx & V).
  destruct (@C83_analyze_no_overflow ol A Ap Ai n o1 (ic_kind IC) (ic_m IC) (ic_n IC) Hp Hi (csc_pattern V) ltac:(lia)) as (EE & An & EA & HQ & HE).
  specialize (HE ltac:(lia)). exists An. split; [exact EA|]. rewrite EE in EA.
  assert (US : usable n An). { split; [exact HQ|]. lia. }
  assert (N2 : n * n <= 2 ^ 52) by (change (2 ^ 52) with (2 ^ 26 * 2 ^ 26); nia).
  destruct (@C83_factorize_no_overflow env n A An o2 IC US He ltac:(lia) HI ltac:(lia) ltac:(lia)) as [E2 _].
  rewrite E2. destruct (C02_singular_iff o2 IC US He) as [(HD & F & EF)|(HD & EF)]; [left|right; auto]. split; [exact HD|].
  destruct (@C01_solve_exact env ol n nrhs A B o1 o2 o3 An F IC ID (proj1 Hn) HsA HsB He EA EF) as (X & ES & RX & SX).
  exists F, X. split; [exact EF|]. split; [|auto]. destruct (id_pos ID) as [_ Hr].
  destruct (@C83_solve_no_overflow env n nrhs A B An o2 o3 F IC ID (proj1 Hn) HsA HsB US He EF) as [-> _]; auto; try lia.
Qed.
Example C83_ex4 : exists An F X, SLIP_LU_analyze64 exol true true (Some exA) None = Ok (SOK, Out An) /\
  SLIP_LU_factorize64 exenv true true (Some exA) (Some An) None = Ok (SOK, Out F) /\
  SLIP_LU_solve64 true true (Some exB) (Some exA) (Some (lu_L F)) (Some (lu_U F)) (Some (lu_rhos F)) (Some An) (Some (lu_pinv F)) None = Ok (SOK, Out X).
Proof.
  destruct (@C83_pipeline exenv exol 4 2 exA exB None None None ex_csc ex_dense) as (An & EA & [(HD & F & X & EF & ES & _)|(HD & _)]);
    try exact ex_scaleA; try exact ex_scaleB; try apply ex_env; try lia.
  - intros Ai [= <-]. vm_compute. discriminate.
  - eauto 10.
  - rewrite (proj1 ex_det) in HD. discriminate.
Qed.

(* SLIP_matrix_allocate and SLIP_matrix_nnz, with undefined and with wrapping overflow: correct when m*n and n+1 fit *)
Theorem C83_allocate_no_overflow : forall ar kind type m n nzmax shallow,
  (ar = ck \/ ar = wrap) -> m * n < 2 ^ 63 -> n + 1 < 2 ^ 63 ->
  matrix_allocate64 ar kind type m n nzmax shallow = matrix_allocate kind type m n nzmax shallow.
Proof.
  intros ar kind type m n nzmax sh Har H1 H2.
  assert (A : forall z, 0 <= z < 2 ^ 63 -> ar z = Ok z).
  { intros z Hz. destruct Har as [-> | ->]. apply ck_ok; num. unfold wrap. rewrite Z.mod_small by lia. f_equal. lia. }
  unfold matrix_allocate64, matrix_allocate.
  destruct (Z.ltb_spec m 0); cbn [orb]; auto. destruct (Z.ltb_spec n 0); cbn [orb]; auto.
  match goal with |- context [if ?c then Err SLIP_INCORRECT_INPUT else _] => destruct c; auto end.
  destruct (kind =? KDENSE).
  - rewrite A by nia. cbn [bind]. destruct sh; auto. destruct (kind =? KCSC); cbn [bind]; auto. rewrite A by lia. reflexivity.
  - cbn [bind]. destruct sh; auto. destruct (kind =? KCSC); cbn [bind]; auto. rewrite A by lia. reflexivity.
Qed.
Theorem C83_nnz_no_overflow : forall ar inited A,
  (ar = ck \/ ar = wrap) -> (forall M, A = Some M -> m_m M * m_n M < 2 ^ 63) -> matrix_nnz64 ar inited A = matrix_nnz inited A.
Proof.
  intros ar inited A Har H. unfold matrix_nnz64, matrix_nnz. destruct (negb inited); auto. destruct A as [M|]; auto. specialize (H M eq_refl).
  destruct (m_kind M =? KCSC); auto. destruct (m_kind M =? KTRIP); auto. destruct (m_kind M =? KDENSE); auto.
  destruct (Z.ltb_spec (m_m M) 0); cbn [orb]; auto. destruct (Z.ltb_spec (m_n M) 0); cbn [orb]; auto.
  destruct Har as [-> | ->]. apply ck_ok. num. unfold wrap. rewrite Z.mod_small by nia. f_equal. lia.
Qed.
Example C83_ex5 := @C83_allocate_no_overflow wrap KDENSE TMPZ (2 ^ 31) (2 ^ 31) 0 false (or_intror eq_refl) ltac:(reflexivity) ltac:(reflexivity).

(* without that: the product is undefined, and with the usual wrapping arithmetic SLIP_OK is returned with a 2^32-by-2^32 matrix that has
   a single cell and, by SLIP_matrix_nnz, no entries *)
Theorem C83_allocate_overflow_refuted :
  matrix_allocate64 ck KDENSE TMPZ (2 ^ 32) (2 ^ 32) 0 false = UB /\
  exists A x, matrix_allocate64 wrap KDENSE TMPZ (2 ^ 32) (2 ^ 32) 0 false = Ok A /\
    m_m A = 2 ^ 32 /\ m_n A = 2 ^ 32 /\ m_x A = Some (VZ x) /\ zlen x = 1 /\ matrix_nnz64 wrap true (Some A) = Ok 0.
Proof.
  split; [reflexivity|]. do 2 eexists. split; [vm_compute; reflexivity|]. repeat split.
Qed.
