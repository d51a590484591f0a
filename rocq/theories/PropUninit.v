(* C81: results do not depend on uninitialised memory. *)
From Verif Require Import Base DetZ Spec MFactor MSolve MMatrix MApi ApiSpec MUninit PUninit PUninit2 PUninit4 Check LUEx PropColamd MAmd PAmd20 PAmd21 PUninit6 PApi PropAmd.
Set Implicit Arguments.
Open Scope Z_scope.
Set Bullet Behavior "Strict Subproofs".

(* Whatever malloc and realloc leave in the workspace and in the arrays of L and U, SLIP_LU_factorize returns the same status and the
   same L, U, rhos and pinv.  No assumption on the arguments is needed. *)
Theorem C81_factorize : forall u u' env inited handles A An o, SLIP_LU_factorize_u u env inited handles A An o = SLIP_LU_factorize_u u' env inited handles A An o.
Proof. intros. unfold SLIP_LU_factorize_u. destruct (matrix_nnz inited A); try reflexivity. destruct A as [A|], An as [An|]; try reflexivity. destruct (deref (m_p A)); cbn [bind]; try reflexivity. destruct (deref (m_i A)); cbn [bind]; try reflexivity. destruct (xmpz A); cbn [bind]; try reflexivity. rewrite !factorize_core_uninit. reflexivity. Qed.
(* So the model of MApi.v, in which fresh memory reads as 0 and about which the other theorems speak, gives the result of every run. *)
Theorem C81_factorize_model : forall u env inited handles A An o, SLIP_LU_factorize_u u env inited handles A An o = SLIP_LU_factorize env inited handles A An o.
Proof. intros. unfold SLIP_LU_factorize_u, SLIP_LU_factorize. destruct (matrix_nnz inited A); try reflexivity. destruct A as [A|], An as [An|]; try reflexivity. destruct (deref (m_p A)); cbn [bind]; try reflexivity. destruct (deref (m_i A)); cbn [bind]; try reflexivity. destruct (xmpz A); cbn [bind]; try reflexivity. rewrite !factorize_core_uninit. reflexivity. Qed.

(* A run in which L and U grow (the estimate is 2 entries) and fresh memory holds wild numbers. *)
Definition exu : uninit := mkU (fun i => 77 - i) (fun i => i * i - 9) (fun _ => 12345) (fun i => - i) (fun i => 1000 + i) (fun k i => k - 3 * i) (fun k i => i - k).
Example C81_ex : SLIP_LU_factorize_u exu exenv true true (Some exA) (Some exAn2) (exo 5) = Ok (SOK, Out (fac_of exAn2 (exo 5)))
  /\ fresh (u_xi exu) 8 <> mk 8 0.
Proof. split; [ rewrite C81_factorize_model; exact ex_factorize2 | discriminate ]. Qed.
Example C81_ex_grows : forall F, F = fac_of exAn2 (exo 5) -> s_lnz exAn2 < m_nzmax (lu_L F).
Proof. intros F ->. vm_compute. reflexivity. Qed.

(* SLIP_LU_analyze with COLAMD or without an ordering, on any square matrix with a valid pattern: the column order and the estimates do
   not depend on what malloc leaves in COLAMD's workspace (2 anz + 13 n + 12 cells, of which only the first anz are set before the call). *)
Theorem C81_analyze_colamd : forall ol ol' A Ap Ai n o,
  m_kind A = KCSC -> m_m A = n -> m_n A = n -> m_p A = Some Ap -> m_i A = Some Ai -> valid_pattern n n Ap Ai ->
  ol_dense ol' n = ol_dense ol n -> opt_order o <> ORD_AMD ->
  SLIP_LU_analyze ol true true (Some A) o = SLIP_LU_analyze ol' true true (Some A) o.
Proof. exact analyze_uninit. Qed.
(* The pattern of PropColamd.v, two different fresh workspaces. *)
Example C81_ex_analyze : SLIP_LU_analyze exol true true (Some exC) None = SLIP_LU_analyze (mkOL (ol_amd_dense exol) (ol_dense exol) (fun _ k => k * k - 1000)) true true (Some exC) None.
Proof. apply (@C81_analyze_colamd exol _ exC exCp exCi 8 None); try reflexivity; [exact exC_pattern | discriminate]. Qed.

(* The bundled AMD, on any square pattern (unsorted, with repeated entries, ...): the ordering and the count do not depend on what the output
   array and the three blocks of workspace contain. *)
Theorem C81_amd : forall junk junk' aggressive n dense Ap Ai, square_pattern n Ap Ai -> amd_order junk aggressive n dense Ap Ai = amd_order junk' aggressive n dense Ap Ai.
Proof. intros. apply amd_uninit. apply square_jpat. assumption. Qed.

(* SLIP_LU_analyze with any ordering.  (AMD sets the first n entries of q, and the last one, which nothing reads, is not set.) *)
Theorem C81_analyze : forall ol ol' A Ap Ai n o,
  m_kind A = KCSC -> m_m A = n -> m_n A = n -> m_p A = Some Ap -> m_i A = Some Ai -> valid_pattern n n Ap Ai -> 1 <= n ->
  ol_dense ol' n = ol_dense ol n -> ol_amd_dense ol' n = ol_amd_dense ol n ->
  exists S S', SLIP_LU_analyze ol true true (Some A) o = Ok (SOK, Out S) /\ SLIP_LU_analyze ol' true true (Some A) o = Ok (SOK, Out S') /\
    s_lnz S = s_lnz S' /\ s_unz S = s_unz S' /\ zlen (s_q S) = zlen (s_q S') /\ forall k, 0 <= k < n -> rd (s_q S) k = rd (s_q S') k.
Proof.
  intros ol ol' A Ap Ai n o Hk Hm Hn Hp Hi V H1 HD HA. destruct (Z.eq_dec (opt_order o) ORD_AMD) as [Ho|Ho].
  - destruct (nnz_csc A Hk Hn Hp V) as [HN _].
    pose proof (@amd_order_ok (ol_junk ol) true n (ol_amd_dense ol n) Ap Ai (square_jpat (valid_square H1 V))) as W. apply wp_ok_ex in W. destruct W as (r & E & P & lnz & -> & LP & _).
    pose proof E as E'. rewrite (@C81_amd (ol_junk ol) (ol_junk ol') true n (ol_amd_dense ol n) Ap Ai (valid_square H1 V)) in E'. rewrite <- HA in E'.
    assert (R : forall l, SLIP_LU_analyze l true true (Some A) o = finish (let* st := amd_l_order l n Ap Ai in let '(a, b) := fix_estimate n (snd st) (snd st) in Ok (mkS (fst st) a b))).
    { intros l. unfold SLIP_LU_analyze, has_kind. rewrite Hk. change (KCSC =? KCSC) with true. cbn [negb]. rewrite Hm, Hn, Z.eqb_refl. cbn [negb orb]. rewrite HN.
      unfold analyze_core. rewrite Hp, Hi, Hn, Ho. cbn [deref bind]. change (ORD_AMD =? ORD_NONE) with false. change (ORD_AMD =? ORD_AMD) with true. cbv iota. reflexivity. }
    rewrite !R. unfold amd_l_order. rewrite E, E'. cbn [bind fst snd]. destruct (fix_estimate n lnz lnz) as [a b]. cbn [finish]. do 2 eexists. split; [reflexivity|]. split; [reflexivity|]. cbn [s_lnz s_unz s_q]. split; [reflexivity|]. split; [reflexivity|].
    rewrite !zlen_app. split; [reflexivity|]. intros k Hk'. rewrite !rd_app1 by lia. reflexivity.
  - destruct (@analyze_spec ol A Ap Ai n o Hk Hm Hn Hp Hi V) as (S & E & _). exists S, S. rewrite <- (@C81_analyze_colamd ol ol' A Ap Ai n o) by assumption. repeat (split; [first [exact E | reflexivity]|]). reflexivity.
Qed.
Example C81_ex_amd : exists S S', SLIP_LU_analyze exol true true (Some exC) (Some (mkO 3 ORD_AMD 1%Q 0 128 RNDN false)) = Ok (SOK, Out S) /\
  SLIP_LU_analyze (mkOL (ol_amd_dense exol) (ol_dense exol) (fun _ k => k * k - 1000)) true true (Some exC) (Some (mkO 3 ORD_AMD 1%Q 0 128 RNDN false)) = Ok (SOK, Out S') /\
  s_lnz S = s_lnz S' /\ s_unz S = s_unz S' /\ zlen (s_q S) = zlen (s_q S') /\ forall k, 0 <= k < 8 -> rd (s_q S) k = rd (s_q S') k.
Proof. apply (@C81_analyze _ _ _ exCp exCi); try reflexivity; [exact exC_pattern|discriminate]. Qed.

(* So the whole computation - analysis, then factorization - gives one result, whatever any of the fresh memory contains. *)
Lemma factorize_low env order tol n Ap Ai Ax q q' lnz unz : (forall k, 0 <= k < n -> get q k = get q' k) -> factorize_core env order tol n Ap Ai Ax q lnz unz = factorize_core env order tol n Ap Ai Ax q' lnz unz.
Proof.
  intros H. unfold factorize_core. apply (f_equal (fun x => bind x _)). apply sim_for_eq. intros k s Hk. unfold factor_step, slip_ref_triangular_solve. rewrite (H k Hk). reflexivity.
Qed.
Theorem C81_analyze_factorize : forall ol ol' u u' env A Ap Ai n o,
  m_kind A = KCSC -> m_m A = n -> m_n A = n -> m_p A = Some Ap -> m_i A = Some Ai -> valid_pattern n n Ap Ai -> 1 <= n ->
  ol_dense ol' n = ol_dense ol n -> ol_amd_dense ol' n = ol_amd_dense ol n ->
  exists S S', SLIP_LU_analyze ol true true (Some A) o = Ok (SOK, Out S) /\ SLIP_LU_analyze ol' true true (Some A) o = Ok (SOK, Out S') /\
    SLIP_LU_factorize_u u env true true (Some A) (Some S) o = SLIP_LU_factorize_u u' env true true (Some A) (Some S') o.
Proof.
  intros ol ol' u u' env A Ap Ai n o Hk Hm Hn Hp Hi V H1 HD HA.
  destruct (@analyze_spec ol A Ap Ai n o Hk Hm Hn Hp Hi V) as (S0 & E0 & (((Q0 & _) & _) & _)).
  destruct (@C81_analyze ol ol' A Ap Ai n o Hk Hm Hn Hp Hi V H1 HD HA) as (S & S' & E & E' & EL & EU & EZ & EQ). exists S, S'. split; [exact E|]. split; [exact E'|].
  assert (S0 = S) as -> by congruence. rewrite !C81_factorize_model. unfold SLIP_LU_factorize. destruct (matrix_nnz true (Some A)); try reflexivity. rewrite Hp, Hi, Hn. cbn [deref bind]. destruct (xmpz A) as [Ax| | |]; cbn [bind]; try reflexivity.
  rewrite <- EL, <- EU. rewrite (@factorize_low env _ _ n Ap Ai Ax (s_q S) (s_q S')); [reflexivity|]. intros k Hk'. rewrite !get_rd by lia. rewrite EQ by exact Hk'. reflexivity.
Qed.
