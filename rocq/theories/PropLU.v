(* Properties C01 - C29, C54: factorization and solution of linear systems.  Each theorem restates a property of
   properties.jsonl for the model in MFactor.v, MSolve.v, MApi.v, with the vocabulary of Spec.v, SumQ.v, PivotSpec.v, ApiSpec.v. *)
From Coq Require Import Factorial.
From Verif Require Import Base DetZ Spec SumQ PivotSpec MFactor MSolve MMatrix MApi ApiSpec.
From Verif Require Import PReach PTri PPivot PFactor PSolve PSolve2 PLU PApi PRule Check LUEx.
Set Implicit Arguments.
Open Scope Z_scope.

(* A successful factorization: what the postcondition of SLIP_LU_factorize gives (proof device) *)
Lemma factorize_ok_inv env n A An o F : int_csc n n A -> usable n An -> env_ok env (opt_pivot o) ->
  SLIP_LU_factorize env true true (Some A) (Some An) o = Ok (SOK, Out F) ->
  exists Ap Ai Ax F0 R, m_p A = Some Ap /\ m_i A = Some Ai /\ m_x A = Some (VZ Ax) /\ valid_csc n n Ap Ai Ax /\
    F = lu_of n F0 /\ fac_ok n (colmat Ap Ai Ax (s_q An)) R F0 /\ detz n (Cent A) <> 0 /\
    (forall k, 0 <= k < n -> step_rule (opt_pivot o) (opt_tol o) n (colmat Ap Ai Ax (s_q An)) (s_q An) (rd (fac_pinv F0)) R k).
Proof.
  intros IC US He E. destruct (factorize_spec o IC US He) as [(Ap & Ai & Ax & F0 & R & Hp & Hi & Hx & V & EF & K & HD)|(EF & _)];
    rewrite E in EF; [|discriminate].
  injection EF as ->. destruct US as (HQ & Hl).
  assert (EC : factorize_core env (opt_pivot o) (opt_tol o) n Ap Ai Ax (s_q An) (s_lnz An) (s_unz An) = Ok F0 \/
               exists F1, factorize_core env (opt_pivot o) (opt_tol o) n Ap Ai Ax (s_q An) (s_lnz An) (s_unz An) = Ok F1 /\
                          lu_of n F1 = lu_of n F0).
  { unfold SLIP_LU_factorize in E. simpl negb in E. cbn iota in E. unfold has_kt in E. rewrite (ic_kind IC), (ic_type IC) in E.
    change (KCSC =? KCSC) with true in E. change (TMPZ =? TMPZ) with true in E. simpl negb in E. cbn iota in E.
    destruct (nnz_csc A (ic_kind IC) (ic_n IC) Hp (csc_pattern V)) as [Hz Hz0]. rewrite Hz in E.
    destruct (Z.ltb_spec (rd Ap n) 0); try lia. simpl in E. unfold xmpz in E. rewrite Hp, Hi, Hx in E. cbn [deref bind] in E.
    rewrite (ic_n IC) in E.
    destruct (factorize_core env (opt_pivot o) (opt_tol o) n Ap Ai Ax (s_q An) (s_lnz An) (s_unz An)) as [F1| | |]; try discriminate.
    cbn [bind finish] in E. injection E as E1 E2 E3. right. exists F1. split; auto. unfold lu_of, csc_matrix, dense_matrix.
    congruence. }
  destruct EC as [EC|(F1 & EC & EL)].
  - destruct (@factorize_core_rule env _ _ n Ap Ai Ax (s_q An) _ _ F0 V HQ He Hl EC) as (R' & K' & HR).
    exists Ap, Ai, Ax, F0, R'. auto 10.
  - destruct (@factorize_core_rule env _ _ n Ap Ai Ax (s_q An) _ _ F1 V HQ He Hl EC) as (R' & K' & HR).
    exists Ap, Ai, Ax, F1, R'. rewrite EL. auto 10.
Qed.

(*============================================================================*)
(* C01.  After analyze and factorize succeed, solve succeeds and returns the exact solution. *)
Theorem C01_solve_exact : forall env ol n nrhs A B o1 o2 o3 An F,
  int_csc n n A -> int_dense n nrhs B -> 1 <= n ->
  ~ (m_scale A == 0)%Q -> ~ (m_scale B == 0)%Q ->
  env_ok env (opt_pivot o2) ->
  SLIP_LU_analyze ol true true (Some A) o1 = Ok (SOK, Out An) ->
  SLIP_LU_factorize env true true (Some A) (Some An) o2 = Ok (SOK, Out F) ->
  exists X,
    SLIP_LU_solve true true (Some B) (Some A) (Some (lu_L F)) (Some (lu_U F)) (Some (lu_rhos F)) (Some An) (Some (lu_pinv F)) o3
      = Ok (SOK, Out X) /\
    rat_dense n nrhs X /\ solves n A B X.
Proof.
  intros env ol n nrhs A B o1 o2 o3 An F IC ID Hn HsA HsB He EA EF.
  destruct (ic_arr IC) as (Ap & Ai & Ax & Hp & Hi & Hx & V).
  destruct (@analyze_spec ol A Ap Ai n o1 (ic_kind IC) (ic_m IC) (ic_n IC) Hp Hi (csc_pattern V)) as (An' & EA' & (U1 & U2 & U3) & _).
  rewrite EA in EA'. injection EA' as <-.
  assert (US : usable n An) by (split; auto; lia).
  destruct (factorize_ok_inv o2 IC US He EF) as (Ap' & Ai' & Ax' & F0 & R & Hp' & Hi' & Hx' & V' & -> & K & _).
  destruct An as [q lnz unz]. eapply solve_spec; eauto.
Qed.
Example C01_ex := @C01_solve_exact exenv exol 4 2 exA exB None None None exAn (fac_of exAn None)
  ex_csc ex_dense ex_n ex_scaleA ex_scaleB (@ex_env _) ex_analyze ex_factorize.

(* C02.  Factorize returns SLIP_OK exactly for non-singular matrices and SLIP_SINGULAR exactly for singular ones. *)
Theorem C02_singular_iff : forall env n A An o,
  int_csc n n A -> usable n An -> env_ok env (opt_pivot o) ->
  (detz n (Cent A) <> 0 /\ exists F, SLIP_LU_factorize env true true (Some A) (Some An) o = Ok (SOK, Out F)) \/
  (detz n (Cent A) = 0 /\ SLIP_LU_factorize env true true (Some A) (Some An) o = Ok (SErr SLIP_SINGULAR, Null)).
Proof.
  intros env n A An o IC US He.
  destruct (factorize_spec o IC US He) as [(Ap & Ai & Ax & F0 & R & Hp & Hi & Hx & V & EF & K & HD)|(EF & HD)]; eauto.
Qed.
Example C02_ex : (exists F, SLIP_LU_factorize exenv true true (Some exA) (Some exAn) None = Ok (SOK, Out F)) /\
  SLIP_LU_factorize exenv true true (Some exS) (Some (mkS [2; 0; 1] 3 3)) None = Ok (SErr SLIP_SINGULAR, Null).
Proof.
  destruct (@C02_singular_iff exenv 4 exA exAn None ex_csc ex_usable (@ex_env _)) as [[_ H]|[H _]]; [|rewrite (proj1 ex_det) in H; discriminate].
  destruct (@C02_singular_iff exenv 3 exS (mkS [2; 0; 1] 3 3) None exS_csc exS_usable (@ex_env _)) as [[H' _]|[_ H']];
    [destruct (H' (proj2 ex_det))|]. auto.
Qed.

(* C03.  SLIP_mpz_divexact is never used outside its contract.  In the model a division by zero or with a remainder is UB
   (first part); no run of factorize or of a following solve reaches UB (second part). *)
Theorem C03_divexact_contract : forall a b, divexact a b = UB <-> b = 0 \/ ~ (b | a).
Proof.
  intros a b. unfold divexact. destruct (Z.eqb_spec b 0); [tauto|]. destruct (Z.eqb_spec (a mod b) 0) as [E|E].
  - split; [discriminate|]. intros [?|H]; [contradiction|]. exfalso. apply H. now apply Z.mod_divide.
  - split; auto. intros _. right. intros H. apply E. now apply Z.mod_divide.
Qed.
Theorem C03_no_bad_division : forall env n nrhs A B An o o',
  int_csc n n A -> int_dense n nrhs B -> 1 <= n -> ~ (m_scale A == 0)%Q -> ~ (m_scale B == 0)%Q ->
  usable n An -> env_ok env (opt_pivot o) ->
  SLIP_LU_factorize env true true (Some A) (Some An) o <> UB /\
  forall F, SLIP_LU_factorize env true true (Some A) (Some An) o = Ok (SOK, Out F) ->
    SLIP_LU_solve true true (Some B) (Some A) (Some (lu_L F)) (Some (lu_U F)) (Some (lu_rhos F)) (Some An) (Some (lu_pinv F)) o' <> UB.
Proof.
  intros env n nrhs A B An o o' IC ID Hn HsA HsB US He. split.
  - destruct (C02_singular_iff o IC US He) as [(_ & F & ->)|(_ & ->)]; discriminate.
  - intros F EF. destruct (factorize_ok_inv o IC US He EF) as (Ap' & Ai' & Ax' & F0 & R & Hp' & Hi' & Hx' & V' & -> & K & _).
    destruct An as [q lnz unz]. destruct US as (HQ & _).
    destruct (@solve_spec n nrhs A B Ap' Ai' Ax' q lnz unz F0 R o' IC Hp' Hi' Hx' V' ID HQ Hn HsA HsB K) as (X & -> & _). discriminate.
Qed.
Example C03_ex := @C03_no_bad_division exenv 4 2 exA exB exAn None None ex_csc ex_dense ex_n ex_scaleA ex_scaleB ex_usable (@ex_env _).

(* C04.  No out-of-bounds access (UB) and no diverging loop (Fuel), from analyze to solve. *)
Theorem C04_memory_safe : forall env ol n nrhs A B o1 o2 o3,
  int_csc n n A -> int_dense n nrhs B -> 1 <= n -> ~ (m_scale A == 0)%Q -> ~ (m_scale B == 0)%Q ->
  env_ok env (opt_pivot o2) ->
  exists An, SLIP_LU_analyze ol true true (Some A) o1 = Ok (SOK, Out An) /\
  exists st h, SLIP_LU_factorize env true true (Some A) (Some An) o2 = Ok (st, h) /\
  forall F, h = Out F ->
  exists st' h', SLIP_LU_solve true true (Some B) (Some A) (Some (lu_L F)) (Some (lu_U F)) (Some (lu_rhos F)) (Some An)
                   (Some (lu_pinv F)) o3 = Ok (st', h').
Proof.
  intros env ol n nrhs A B o1 o2 o3 IC ID Hn HsA HsB He.
  destruct (ic_arr IC) as (Ap & Ai & Ax & Hp & Hi & Hx & V).
  destruct (@analyze_spec ol A Ap Ai n o1 (ic_kind IC) (ic_m IC) (ic_n IC) Hp Hi (csc_pattern V)) as (An & EA & (U1 & U2 & U3) & _).
  exists An. split; auto. assert (US : usable n An) by (split; auto; lia).
  destruct (C02_singular_iff o2 IC US He) as [(_ & F & EF)|(_ & EF)]; rewrite EF; eexists; eexists; (split; [reflexivity|]); intros F' E.
  - injection E as <-. destruct (@C01_solve_exact env ol n nrhs A B o1 o2 o3 An F) as (X & -> & _); auto. eexists; eexists; reflexivity.
  - discriminate.
Qed.
Example C04_ex := @C04_memory_safe exenv exol 4 2 exA exB None None None ex_csc ex_dense ex_n ex_scaleA ex_scaleB (@ex_env _).

(*----------------------------------------------------------------------------*)
(* C05.  P*A*Q = L * D^-1 * U, entry by entry: (P A Q)(pinv i, j) = A (i, q j), D (k,k) = rhos(k-1) * rhos(k), rhos(-1) = 1. *)
Definition rho_before (rhos : matrix) (k : Z) : Z := if k =? 0 then 1 else Dent rhos (k - 1) 0.
Theorem C05_factorization_identity : forall env n A An o F,
  int_csc n n A -> usable n An -> env_ok env (opt_pivot o) ->
  SLIP_LU_factorize env true true (Some A) (Some An) o = Ok (SOK, Out F) ->
  forall i j, 0 <= i < n -> 0 <= j < n ->
  (sumQ n (fun k => inject_Z (Cent (lu_L F) (rd (lu_pinv F) i) k) * inject_Z (Cent (lu_U F) k j) /
                    (inject_Z (rho_before (lu_rhos F) k) * inject_Z (Dent (lu_rhos F) k 0)))
   == inject_Z (Cent A i (rd (s_q An) j)))%Q.
Proof.
  intros env n A An o F IC US He EF i j Hi Hj.
  destruct (factorize_ok_inv o IC US He EF) as (Ap & Ai & Ax & F0 & R & Hp & Hi' & Hx & V & -> & K & _).
  pose proof (lu_identity K Hi Hj) as H. unfold Cent at 3. rewrite Hp, Hi', Hx. rewrite <- H.
  apply sumQ_ext. intros k Hk. unfold rho_before, prev, Cent, Dent, lu_of, csc_matrix, dense_matrix. simpl. rewrite !Z.add_0_r.
  reflexivity.
Qed.
Example C05_ex := @C05_factorization_identity exenv 4 exA exAn None (fac_of exAn None) ex_csc ex_usable (@ex_env _) ex_factorize.

(* C06.  Shape of the factors. *)
Theorem C06_shape : forall env n A An o F,
  int_csc n n A -> usable n An -> env_ok env (opt_pivot o) ->
  SLIP_LU_factorize env true true (Some A) (Some An) o = Ok (SOK, Out F) ->
  int_csc n n (lu_L F) /\ int_csc n n (lu_U F) /\
  (m_m (lu_rhos F) = n /\ m_n (lu_rhos F) = 1 /\ m_kind (lu_rhos F) = KDENSE /\ m_type (lu_rhos F) = TMPZ) /\
  (forall i j, 0 <= i < n -> 0 <= j < n -> i < j -> Cent (lu_L F) i j = 0) /\
  (forall i j, 0 <= i < n -> 0 <= j < n -> j < i -> Cent (lu_U F) i j = 0) /\
  (forall k, 0 <= k < n -> Cent (lu_L F) k k = Dent (lu_rhos F) k 0 /\ Cent (lu_U F) k k = Dent (lu_rhos F) k 0 /\ Dent (lu_rhos F) k 0 <> 0) /\
  (exists Up Ui Ux, m_p (lu_U F) = Some Up /\ m_i (lu_U F) = Some Ui /\ m_x (lu_U F) = Some (VZ Ux) /\
     forall k, 0 <= k < n -> rd Up k < rd Up (k + 1) /\ rd Ui (rd Up (k + 1) - 1) = k /\
       rd Ux (rd Up (k + 1) - 1) = Dent (lu_rhos F) k 0).
Proof.
  intros env n A An o F IC US He EF.
  destruct (factorize_ok_inv o IC US He EF) as (Ap & Ai & Ax & F0 & R & Hp & Hi & Hx & V & -> & K & _).
  split; [|split; [|split; [|split; [|split; [|split]]]]].
  - constructor; simpl; auto. exists (fac_Lp F0), (fac_Li F0), (fac_Lx F0). split; auto. split; auto. split; auto. apply (fk_L K).
  - constructor; simpl; auto. exists (fac_Up F0), (fac_Ui F0), (fac_Ux F0). split; auto. split; auto. split; auto. apply (fk_U K).
  - auto.
  - intros i j H1 H2 H3. unfold Cent; simpl. rewrite (entL K) by auto. destruct (Z.leb_spec j i); auto; lia.
  - intros i j H1 H2 H3. unfold Cent; simpl. rewrite (entU K) by auto. destruct (Z.leb_spec i j); auto; lia.
  - intros k Hk. destruct (fk_rho K Hk) as [E N]. unfold Dent, Cent; simpl. rewrite Z.add_0_r.
    rewrite (entL K), (entU K) by auto. rewrite Z.leb_refl. rewrite E, lead_S by lia. split; auto. split; auto.
    rewrite <- lead_S by lia. congruence.
  - exists (fac_Up F0), (fac_Ui F0), (fac_Ux F0). split; auto. split; auto. split; auto.
    intros k Hk. destruct (U_last K Hk) as (H1 & H2 & H3). split; auto. split; auto. rewrite H3.
    unfold Dent; simpl. rewrite Z.add_0_r. symmetry. apply (fk_rho K Hk).
Qed.
Example C06_ex := @C06_shape exenv 4 exA exAn None (fac_of exAn None) ex_csc ex_usable (@ex_env _) ex_factorize.

(* C07.  pinv is a permutation. *)
Theorem C07_pinv_permutation : forall env n A An o F,
  int_csc n n A -> usable n An -> env_ok env (opt_pivot o) ->
  SLIP_LU_factorize env true true (Some A) (Some An) o = Ok (SOK, Out F) ->
  zlen (lu_pinv F) = n /\ is_perm n (lu_pinv F).
Proof.
  intros env n A An o F IC US He EF.
  destruct (factorize_ok_inv o IC US He EF) as (Ap & Ai & Ax & F0 & R & Hp & Hi & Hx & V & -> & K & _).
  split. apply (fk_pl K). apply (fac_perm K).
Qed.
Example C07_ex := @C07_pinv_permutation exenv 4 exA exAn None (fac_of exAn None) ex_csc ex_usable (@ex_env _) ex_factorize.

(* C08.  rhos[k] is the leading minor of order k+1 of P*A*Q; the last one is the determinant up to sign. *)
Theorem C08_pivots_are_minors : forall env n A An o F,
  int_csc n n A -> usable n An -> env_ok env (opt_pivot o) ->
  SLIP_LU_factorize env true true (Some A) (Some An) o = Ok (SOK, Out F) ->
  exists row : Z -> Z, (forall k, 0 <= k < n -> 0 <= row k < n /\ rd (lu_pinv F) (row k) = k) /\
    (forall k, 0 <= k < n -> Dent (lu_rhos F) k 0 = detz (k + 1) (fun i j => Cent A (row i) (rd (s_q An) j))) /\
    (1 <= n -> Z.abs (Dent (lu_rhos F) (n - 1) 0) = Z.abs (detz n (Cent A))).
Proof.
  intros env n A An o F IC US He EF.
  destruct (factorize_ok_inv o IC US He EF) as (Ap & Ai & Ax & F0 & R & Hp & Hi & Hx & V & -> & K & _).
  assert (HC : forall i j, Cent A i j = ent Ap Ai Ax i j) by (intros; unfold Cent; rewrite Hp, Hi, Hx; reflexivity).
  exists R. split. apply (fk_R K). split.
  - intros k Hk. destruct (fk_rho K Hk) as [E _]. unfold Dent; simpl. rewrite Z.add_0_r, E. unfold lead, colmat.
    apply detz_ext. intros a b _ _. now rewrite HC.
  - intros Hn. destruct (fk_rho K (j := n - 1) ltac:(lia)) as [E _]. unfold Dent; simpl. rewrite Z.add_0_r, E.
    replace (n - 1 + 1) with n by lia.
    rewrite (@detz_ext n (Cent A) (ent Ap Ai Ax)) by (intros; apply HC).
    assert (Hn0 : 0 <= n) by lia. destruct (fac_det Hn0 (proj1 US) K) as [-> | ->]; lia.
Qed.
Example C08_ex := @C08_pivots_are_minors exenv 4 exA exAn None (fac_of exAn None) ex_csc ex_usable (@ex_env _) ex_factorize.

(* C09.  Every stored entry of L and U is the determinant of a square submatrix of A, hence bounded by n! * B^n. *)
Theorem C09_entries_are_minors : forall env n A An o F,
  int_csc n n A -> usable n An -> env_ok env (opt_pivot o) ->
  SLIP_LU_factorize env true true (Some A) (Some An) o = Ok (SOK, Out F) ->
  (forall T Tp Ti Tx, T = lu_L F \/ T = lu_U F -> m_p T = Some Tp -> m_i T = Some Ti -> m_x T = Some (VZ Tx) ->
     forall p, 0 <= p < rd Tp n ->
       is_minor n (Cent A) (rd Tx p) /\
       forall bnd, 1 <= bnd -> (forall i j, 0 <= i < n -> 0 <= j < n -> Z.abs (Cent A i j) <= bnd) ->
         Z.abs (rd Tx p) <= Z.of_nat (fact (Z.to_nat n)) * bnd ^ n).
Proof.
  intros env n A An o F IC US He EF T Tp Ti Tx HT H1 H2 H3 p Hpp.
  destruct (factorize_ok_inv o IC US He EF) as (Ap & Ai & Ax & F0 & R & Hp & Hi & Hx & V & -> & K & _).
  pose proof (v_n V) as Hn.
  assert (HC : Cent A = ent Ap Ai Ax) by (unfold Cent; rewrite Hp, Hi, Hx; reflexivity).
  assert (HM : is_minor n (Cent A) (rd Tx p)).
  { rewrite HC.
    assert (G : forall Mp Mi Mx, valid_csc n n Mp Mi Mx -> 0 <= p < rd Mp n -> exists c, 0 <= c < n /\ rd Mp c <= p < rd Mp (c + 1)).
    { intros Mp Mi Mx VM Hp'.
      assert (G : forall m, Z.of_nat m <= n -> rd Mp (Z.of_nat m) <= p \/ exists c, 0 <= c < n /\ rd Mp c <= p < rd Mp (c + 1)).
      { induction m; intros Hm. left. simpl. rewrite (v_0 VM). lia.
        destruct (IHm ltac:(lia)) as [IH|IH]; auto. destruct (Z_le_dec (rd Mp (Z.of_nat (S m))) p); auto.
        right. exists (Z.of_nat m). replace (Z.of_nat (S m)) with (Z.of_nat m + 1) in * by lia. split; lia. }
      destruct (G (Z.to_nat n)) as [G1|G1]; auto; rewrite ?Z2Nat.id in * by lia; lia. }
    destruct HT as [-> | ->]; simpl in *; injection H1 as <-; injection H2 as <-; injection H3 as <-.
    - destruct (G _ _ _ (fk_L K) Hpp) as (c & Hc & Hcp). eapply (L_minor K (proj1 US)); eauto.
    - destruct (G _ _ _ (fk_U K) Hpp) as (c & Hc & Hcp). eapply (U_minor K (proj1 US)); eauto. }
  split; auto. intros bnd Hb HB. eapply minor_bound; eauto.
Qed.
Example C09_ex := @C09_entries_are_minors exenv 4 exA exAn None (fac_of exAn None) ex_csc ex_usable (@ex_env _) ex_factorize.

(*----------------------------------------------------------------------------*)
(* C10 - C14.  The pivot of step k is L(k,k); the candidates of step k are the rows r >= k (in pivot order) with L(r,k) <> 0;
   the diagonal candidate of step k is row q[k] of A, which has position pinv[q[k]].  *)
Definition L_cand (F : lu) (n k r : Z) : Prop := k <= r < n /\ Cent (lu_L F) r k <> 0.
Definition L_val (F : lu) (k r : Z) : Z := Cent (lu_L F) r k.

Lemma factorize_rule : forall env n A An o F,
  int_csc n n A -> usable n An -> env_ok env (opt_pivot o) ->
  SLIP_LU_factorize env true true (Some A) (Some An) o = Ok (SOK, Out F) ->
  forall k, 0 <= k < n ->
    pivot_rule (opt_pivot o) (opt_tol o) (L_cand F n k) (L_val F k) (rd (lu_pinv F) (rd (s_q An) k)) k.
Proof.
  intros env n A An o F IC US He EF k Hk.
  destruct (factorize_ok_inv o IC US He EF) as (Ap & Ai & Ax & F0 & R & Hp & Hi & Hx & V & -> & K & _ & HR).
  specialize (HR k Hk). destruct US as ((Q1 & Q2 & Q3) & _).
  assert (Hrk : rd (fac_pinv F0) (R k) = k) by apply (fk_R K Hk).
  simpl lu_pinv. rewrite <- Hrk at 4. unfold step_rule in HR.
  assert (HL : forall r, k <= r < n -> L_val (lu_of n F0) k r = bm (colmat Ap Ai Ax (s_q An)) R k (R r) k).
  { intros r Hr. unfold L_val, Cent; simpl. rewrite (entL K) by lia. destruct (Z.leb_spec k r); auto; lia. }
  eapply rule_map; [| | |exact HR].
  - intros i (A1 & A2 & A3). destruct (fk_P K A1) as [B1 B2].
    assert (E : L_val (lu_of n F0) k (rd (fac_pinv F0) i) = bm (colmat Ap Ai Ax (s_q An)) R k i k).
    { rewrite HL by lia. now rewrite B2. }
    split; auto. split. lia. unfold L_val in E. congruence.
  - intros r (A1 & A2). exists (R r). destruct (fk_R K (k := r) ltac:(lia)) as [B1 B2]. split; auto. split; auto. split. lia.
    rewrite <- HL by auto. exact A2.
  - intros (A1 & A2). assert (Hd : 0 <= rd (s_q An) k < n) by auto. destruct (fk_P K Hd) as [B1 B2]. split; auto. split. lia.
    rewrite <- B2 at 1. rewrite <- HL by auto. exact A2.
Qed.

Theorem C10_smallest : forall env n A An o F,
  int_csc n n A -> usable n An -> opt_pivot o = 0 ->
  SLIP_LU_factorize env true true (Some A) (Some An) o = Ok (SOK, Out F) ->
  forall k, 0 <= k < n -> smallest_rule (L_cand F n k) (L_val F k) k.
Proof.
  intros env n A An o F IC US Ho EF k Hk.
  assert (He : env_ok env (opt_pivot o)) by (rewrite Ho; intros E; discriminate).
  pose proof (factorize_rule o IC US He EF Hk) as H. rewrite Ho in H. apply H.
Qed.
Example C10_ex := @C10_smallest exenv 4 exA exAn (exo 0) (fac_of exAn (exo 0)) ex_csc ex_usable eq_refl (@ex_scheme 0 ltac:(lia)).
Theorem C11_largest : forall env n A An o F,
  int_csc n n A -> usable n An -> opt_pivot o = 5 ->
  SLIP_LU_factorize env true true (Some A) (Some An) o = Ok (SOK, Out F) ->
  forall k, 0 <= k < n -> largest_rule (L_cand F n k) (L_val F k) k.
Proof.
  intros env n A An o F IC US Ho EF k Hk.
  assert (He : env_ok env (opt_pivot o)) by (rewrite Ho; intros E; discriminate).
  pose proof (factorize_rule o IC US He EF Hk) as H. rewrite Ho in H. apply H.
Qed.
Example C11_ex := @C11_largest exenv 4 exA exAn (exo 5) (fac_of exAn (exo 5)) ex_csc ex_usable eq_refl (@ex_scheme 5 ltac:(lia)).
Theorem C12_diagonal : forall env n A An o F,
  int_csc n n A -> usable n An -> opt_pivot o = 1 ->
  SLIP_LU_factorize env true true (Some A) (Some An) o = Ok (SOK, Out F) ->
  forall k, 0 <= k < n -> diagonal_rule (L_cand F n k) (L_val F k) (rd (lu_pinv F) (rd (s_q An) k)) k.
Proof.
  intros env n A An o F IC US Ho EF k Hk.
  assert (He : env_ok env (opt_pivot o)) by (rewrite Ho; intros E; discriminate).
  pose proof (factorize_rule o IC US He EF Hk) as H. rewrite Ho in H. apply H.
Qed.
Example C12_ex := @C12_diagonal exenv 4 exA exAn (exo 1) (fac_of exAn (exo 1)) ex_csc ex_usable eq_refl (@ex_scheme 1 ltac:(lia)).
(* the search for SLIP_FIRST_NONZERO, in every state: the first eligible row of the pattern xi[top..n-1] *)
Theorem C12_first_nonzero : forall x pivs xi top n env tol col,
  0 <= top <= n -> n <= zlen xi -> zlen x = n -> zlen pivs = n -> (forall a, top <= a < n -> 0 <= rd xi a < n) ->
  match choose_pivot env 2 tol x pivs n top xi col with
  | Ok piv => exists a, top <= a < n /\ piv = rd xi a /\ rd pivs piv < 0 /\ rd x piv <> 0 /\
                forall b, top <= b < a -> ~ (rd pivs (rd xi b) < 0 /\ rd x (rd xi b) <> 0)
  | Err e => e = SLIP_SINGULAR /\ forall b, top <= b < n -> ~ (rd pivs (rd xi b) < 0 /\ rd x (rd xi b) <> 0)
  | _ => False
  end.
Proof.
  intros x pivs xi top n env tol col H1 H2 H3 H4 H5. unfold choose_pivot. simpl.
  pose proof (@nonzero_spec x pivs xi top n H1 H2 H3 H4 H5) as H.
  destruct (slip_get_nonzero_pivot x pivs n top xi) as [piv|e| |]; [|destruct H as [HE Hn]|exact H|exact H].
  - destruct H as (b & B1 & B5 & (B2 & B3) & B4). subst piv. exists b.
    split; [exact B1|]. split; [reflexivity|]. split; [exact B2|]. split; [exact B3|]. intros c Hc Hn. apply (B4 c Hc). exact Hn.
  - split; [exact HE|]. intros b Hb Hx. apply (Hn (rd xi b)). split; eauto.
Qed.
Example C12_ex2 : choose_pivot exenv 2 1 [0; 5; -3; 2] [-1; 1; -1; -1] 4 0 [0; 1; 2; 3; 9; 9; 9; 9] 0 = Ok 2 /\
  (forall a, 0 <= a < 4 -> 0 <= rd [0; 1; 2; 3; 9; 9; 9; 9] a < 4).
Proof.
  split. reflexivity. intros a Ha. assert (a = 0 \/ a = 1 \/ a = 2 \/ a = 3) as [->|[->|[->| ->]]] by lia; vm_compute; split; congruence.
Qed.
(* SLIP_TOL_SMALLEST is the default and also what any value outside 0..5 selects *)
Theorem C13_tol_smallest : forall env n A An o F,
  int_csc n n A -> usable n An -> ~ In (opt_pivot o) [0; 1; 2; 4; 5] ->
  SLIP_LU_factorize env true true (Some A) (Some An) o = Ok (SOK, Out F) ->
  forall k, 0 <= k < n -> tol_smallest_rule (L_cand F n k) (L_val F k) (rd (lu_pinv F) (rd (s_q An) k)) (opt_tol o) k.
Proof.
  intros env n A An o F IC US Ho EF k Hk. simpl in Ho.
  assert (He : env_ok env (opt_pivot o)) by (intros E; unfold PIV_TOL_LARGEST in E; lia).
  pose proof (factorize_rule o IC US He EF Hk) as [_ H].
  destruct (Z.eqb_spec (opt_pivot o) 0); [lia|]. destruct (Z.eqb_spec (opt_pivot o) 1); [lia|].
  destruct (Z.eqb_spec (opt_pivot o) 2); [lia|]. destruct (Z.eqb_spec (opt_pivot o) 4); [lia|].
  destruct (Z.eqb_spec (opt_pivot o) 5); [lia|]. exact H.
Qed.
Example C13_ex := @C13_tol_smallest exenv 4 exA exAn (exo 3) (fac_of exAn (exo 3)) ex_csc ex_usable
  ltac:(simpl; intuition discriminate) (@ex_scheme 3 ltac:(lia)).
(* SLIP_TOL_LARGEST: the documented rule at every step at which the largest candidate is positive; otherwise the comparison is
   made with a malformed rational (negative denominator), and all that holds is that the diagonal or a largest candidate is
   selected. *)
Theorem C14_tol_largest : forall env n A An o F,
  int_csc n n A -> usable n An -> opt_pivot o = 4 -> env_ok env 4 ->
  SLIP_LU_factorize env true true (Some A) (Some An) o = Ok (SOK, Out F) ->
  forall k, 0 <= k < n -> tol_largest_rule_weak (L_cand F n k) (L_val F k) (rd (lu_pinv F) (rd (s_q An) k)) (opt_tol o) k.
Proof.
  intros env n A An o F IC US Ho He EF k Hk. rewrite <- Ho in He.
  pose proof (factorize_rule o IC US He EF Hk) as H. rewrite Ho in H. apply H.
Qed.
Example C14_ex := @C14_tol_largest exenv 4 exA exAn (exo 4) (fac_of exAn (exo 4)) ex_csc ex_usable eq_refl (@ex_env _) (@ex_scheme 4 ltac:(lia)).

(* C15.  The pivot search fails with SLIP_SINGULAR exactly when no row is eligible; it has no other failure. *)
Theorem C15_search_failure : forall x pivs xi top n env order tol col,
  0 <= top <= n -> n <= zlen xi -> zlen x = n -> zlen pivs = n -> (forall a, top <= a < n -> 0 <= rd xi a < n) ->
  env_ok env order -> 0 <= col < n ->
  (rd pivs col < 0 -> rd x col <> 0 -> exists a, top <= a < n /\ rd xi a = col) ->
  let candidate i := (exists a, top <= a < n /\ rd xi a = i) /\ rd pivs i < 0 /\ rd x i <> 0 in
  (exists piv, choose_pivot env order tol x pivs n top xi col = Ok piv /\ candidate piv) \/
  (choose_pivot env order tol x pivs n top xi col = Err SLIP_SINGULAR /\ forall i, ~ candidate i).
Proof.
  intros x pivs xi top n env order tol col H1 H2 H3 H4 H5 H6 H7 H8 candidate.
  pose proof (@choose_pivot_spec x pivs xi top n H1 H2 H3 H4 H5 env order tol col H6 H7 H8) as H.
  destruct (choose_pivot env order tol x pivs n top xi col) as [piv|e| |]; try contradiction.
  - left. exists piv. split; auto. apply H.
  - right. destruct H as [-> H]. auto.
Qed.
Example C15_ex : choose_pivot exenv 3 1 [0; 5; 0; 2] [-1; 1; -1; -1] 4 0 [0; 1; 2; 3; 9; 9; 9; 9] 0 = Ok 3 /\
  choose_pivot exenv 3 1 [0; 5; 0; 2] [-1; 1; -1; 1] 4 0 [0; 1; 2; 3; 9; 9; 9; 9] 0 = Err SLIP_SINGULAR.
Proof. split; reflexivity. Qed.
