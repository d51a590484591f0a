(* C83, continued: SLIP_matrix_copy, SLIP_matrix_check and SLIP_backslash with int64_t arithmetic (MInt64b.v). *)
From Verif Require Import Base DetZ Spec SumQ MFactor MSolve MMatrix MApi ApiSpec PFactor PApi PropLU PropLU2 PropMat PropMat3 MInt64 PInt64 PInt64b PropInt64 MInt64b PInt64c LUEx.
Set Implicit Arguments.
Open Scope Z_scope.

(* SLIP_matrix_copy: the dimensions, the number of entries and the array of indices up to 2^61, so too m*n if either matrix is dense, and, from
   triplet to dense, column indices in range.  A copy that is defined with unbounded integers is defined, and the same, with int64_t. *)
Theorem C83_copy_no_overflow : forall o addr inited handle kind type A,
  m_m A <= 2 ^ 61 -> m_n A <= 2 ^ 61 ->
  (forall nz, matrix_nnz true (Some A) = Ok nz -> nz <= 2 ^ 61) ->
  (forall i, m_i A = Some i -> zlen i <= 2 ^ 61) ->
  (m_kind A = KDENSE \/ kind = KDENSE -> m_m A * m_n A <= 2 ^ 61) ->
  (m_kind A = KTRIP -> kind = KDENSE -> forall j k, m_j A = Some j -> 0 <= k < m_nz A -> 0 <= rd j k < m_n A) ->
  matrix_copy o addr inited handle kind type (Some A) <> UB ->
  matrix_copy64 o addr inited handle kind type (Some A) = matrix_copy o addr inited handle kind type (Some A).
Proof.
  intros o addr inited handle kind type A Hm Hn HZ HI HD HT NU. exact (sim_eq (@matrix_copy_sim o addr inited handle kind type A Hm Hn HZ HI HD HT) NU).
Qed.
Example C83_ex6 : matrix_copy64 None (fun _ => 1) true true KDENSE TINT (Some exT) = Ok exD.
Proof.
  rewrite C83_copy_no_overflow.
  - vm_compute. reflexivity.
  - vm_compute. discriminate.
  - vm_compute. discriminate.
  - intros nz [= <-]. vm_compute. discriminate.
  - intros i [= <-]. vm_compute. discriminate.
  - intros _. vm_compute. discriminate.
  - intros _ _ j k [= <-] Hk. cbn in Hk. assert (k = 0 \/ k = 1 \/ k = 2) as [-> |[-> | ->]] by lia; vm_compute; split; congruence.
  - vm_compute. discriminate.
Qed.
(* a triplet matrix with a single entry, which SLIP_matrix_check accepts: copied to a dense matrix, m*n overflows *)
Definition big_trip : matrix := mkM (2 ^ 32) (2 ^ 32) 1 1 KTRIP TINT None (Some [0]) (Some [0]) (Some (VI [7])) 1%Q.
Theorem C83_copy_overflow_refuted : matrix_check64 true (Some big_trip) = Ok tt /\ matrix_copy64 None (fun _ => 1) true true KDENSE TINT (Some big_trip) = UB.
Proof. split; vm_compute; reflexivity. Qed.

(* SLIP_matrix_check: additionally fewer than 2^60 triplets (its workspace has two int64_t for each) *)
Theorem C83_check_no_overflow : forall inited A,
  m_n A <= 2 ^ 61 -> (forall i, m_i A = Some i -> zlen i <= 2 ^ 61) ->
  (m_kind A = KDENSE -> m_m A * m_n A <= 2 ^ 61) -> (m_kind A = KTRIP -> m_nz A < 2 ^ 60) ->
  matrix_check inited (Some A) <> UB -> matrix_check64 inited (Some A) = matrix_check inited (Some A).
Proof. intros inited A Hn HI HD HT NU. exact (sim_eq (@matrix_check_sim inited A Hn HI HD HT) NU). Qed.
Example C83_ex7 : matrix_check64 true (Some exT) = Ok tt.
Proof.
  rewrite C83_check_no_overflow.
  - vm_compute. reflexivity.
  - vm_compute. discriminate.
  - intros i [= <-]. vm_compute. discriminate.
  - intros _. vm_compute. discriminate.
  - intros _. vm_compute. reflexivity.
  - vm_compute. discriminate.
Qed.

(* SLIP_backslash, all three output types *)
Theorem C83_backslash_no_overflow : forall env ol addr n nrhs A B o type,
  int_csc n n A -> int_dense n nrhs B -> env_ok env (opt_pivot o) -> ~ (m_scale A == 0)%Q -> ~ (m_scale B == 0)%Q -> 1 <= opt_prec o ->
  1 <= n <= 2 ^ 26 -> n * nrhs <= 2 ^ 61 -> (forall Ai, m_i A = Some Ai -> zlen Ai <= 2 ^ 61) ->
  SLIP_backslash64 env ol addr true true type (Some A) (Some B) o = SLIP_backslash env ol addr true true type (Some A) (Some B) o /\
  SLIP_backslash64 env ol addr true true type (Some A) (Some B) o <> UB.
Proof.
  intros env ol addr n nrhs A B o type IC ID He HsA HsB Hprec Hn Hm HI.
  assert (E : SLIP_backslash env ol addr true true type (Some A) (Some B) o <> UB /\
              SLIP_backslash64 env ol addr true true type (Some A) (Some B) o = SLIP_backslash env ol addr true true type (Some A) (Some B) o); [|destruct E as [E1 E2]; rewrite E2; auto].
  destruct ((type =? TMPQ) || (type =? TDBL) || (type =? TMPFR)) eqn:ET.
  2: { unfold SLIP_backslash, SLIP_backslash64. cbn [negb]. replace (negb (type =? TMPQ) && negb (type =? TDBL) && negb (type =? TMPFR)) with true; [split; [discriminate|reflexivity]|].
       apply orb_false_iff in ET. destruct ET as [ET ->]. apply orb_false_iff in ET. destruct ET as [-> ->]. reflexivity. }
  assert (HT : type = TMPQ \/ type = TDBL \/ type = TMPFR).
  { apply orb_true_iff in ET. destruct ET as [ET|ET]; [apply orb_true_iff in ET; destruct ET as [ET|ET]|]; apply Z.eqb_eq in ET; auto. }
  assert (NU : SLIP_backslash env ol addr true true type (Some A) (Some B) o <> UB).
  { destruct (Z.eq_dec (detz n (Cent A)) 0) as [Z0|NZ].
    - destruct (@backslash_spec env ol addr n nrhs A B type o IC ID He ltac:(lia) HsA HsB HT) as [(HD & _)|(_ & ->)]; [contradiction|discriminate].
    - destruct HT as [->|HT].
      + destruct (@C26_backslash env ol addr n nrhs A B o IC ID He ltac:(lia) HsA HsB) as [(_ & X & -> & _)|(HD & _)]; [discriminate|contradiction].
      + destruct (@C57_backslash_rounded env ol addr n nrhs A B o type IC ID He ltac:(lia) HsA HsB Hprec NZ HT) as (X & Y & f & _ & _ & -> & _). discriminate. }
  split; [exact NU|]. revert NU. unfold SLIP_backslash, SLIP_backslash64.
  destruct (ic_arr IC) as (Ap & Ai & Ax & Hp & Hi & Hx & V).
  destruct (@C83_analyze_no_overflow ol A Ap Ai n o (ic_kind IC) (ic_m IC) (ic_n IC) Hp Hi (csc_pattern V) ltac:(lia)) as (EE & An & EA & HQ & HE).
  specialize (HE ltac:(lia)). rewrite EE in *. rewrite EA.
  assert (US : usable n An). { split; [exact HQ|]. lia. }
  assert (N2 : n * n <= 2 ^ 52) by (change (2 ^ 52) with (2 ^ 26 * 2 ^ 26); nia).
  destruct (@C83_factorize_no_overflow env n A An o IC US He ltac:(lia) HI ltac:(lia) ltac:(lia)) as [E2 _].
  cbn [negb]. destruct (_ && negb (type =? TMPFR)); auto. match goal with |- context [if ?c then Ok (SErr _, Null) else _] => destruct c; auto end.
  cbn [call]. rewrite E2. destruct (C02_singular_iff o IC US He) as [(HD & F & EF)|(HD & EF)]; rewrite EF; cbn [call]; auto.
  destruct (@C83_solve_no_overflow env n nrhs A B An o o F IC ID ltac:(lia) HsA HsB US He EF) as [-> _]; auto; try lia.
  destruct (@C01_solve_exact env ol n nrhs A B o o o An F IC ID (proj1 Hn) HsA HsB He EA EF) as (X & ES & RX & SX). rewrite ES. cbn [call].
  destruct (type =? TMPQ); auto. intros NU. assert (Hr : nrhs <= 2 ^ 61) by (destruct (id_pos ID); nia).
  rewrite C83_copy_no_overflow; auto; rewrite ?(rq_m RX), ?(rq_n RX), ?(rq_kind RX); try lia.
  - intros nz. unfold matrix_nnz. cbn [negb]. rewrite (rq_kind RX), (rq_m RX), (rq_n RX). change (KDENSE =? KCSC) with false. change (KDENSE =? KTRIP) with false. change (KDENSE =? KDENSE) with true. cbv iota.
    destruct ((n <? 0) || (nrhs <? 0)); intros E0; injection E0 as E0; rewrite <- E0; [lia|exact Hm].
  - destruct (rq_rest RX) as (_ & _ & _ & -> & _). discriminate.
  - discriminate.
  - intros C. rewrite C in NU. apply NU. reflexivity.
Qed.
Example C83_ex8 : exists X, SLIP_backslash64 exenv exol (fun _ => 1) true true TDBL (Some exA) (Some exB) None = Ok (SOK, Out X).
Proof.
  destruct (@C83_backslash_no_overflow exenv exol (fun _ => 1) 4 2 exA exB None TDBL ex_csc ex_dense) as [-> _]; try exact ex_scaleA; try exact ex_scaleB; try apply ex_env; try lia.
  - cbn. lia.
  - intros Ai [= <-]. vm_compute. discriminate.
  - destruct (@C57_backslash_rounded exenv exol (fun _ => 1) 4 2 exA exB None TDBL ex_csc ex_dense) as (X & Y & f & _ & _ & E & _); try exact ex_scaleA; try exact ex_scaleB; try apply ex_env; try lia; auto.
    + cbn. lia.
    + rewrite (proj1 ex_det). discriminate.
    + eauto.
Qed.
