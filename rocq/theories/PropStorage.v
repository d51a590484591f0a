(* C85: the factors depend on the matrix, not on how its columns are stored. *)
From Verif Require Import Base DetZ Spec SumQ MFactor MSolve MMatrix MApi ApiSpec StoreSpec PApi PUninit PStorage PStorage2 Check LUEx PropLU2.
Set Implicit Arguments.
Open Scope Z_scope.
Set Bullet Behavior "Strict Subproofs".

Lemma csc_loose n A : int_csc n n A -> loose_matrix n A.
Proof. intros IC. constructor; try apply IC. destruct (ic_arr IC) as (Ap & Ai & Ax & Hp & Hi & Hx & V). exists Ap, Ai, Ax. repeat (split; [assumption|]). apply valid_loose. exact V. Qed.
Lemma loose_factorize env n A An o : loose_matrix n A -> exists Ap Ai Ax, m_p A = Some Ap /\ m_i A = Some Ai /\ m_x A = Some (VZ Ax) /\ loose_csc n Ap Ai Ax /\
  SLIP_LU_factorize env true true (Some A) (Some An) o = finish (let* F := factorize_core env (opt_pivot o) (opt_tol o) n Ap Ai Ax (s_q An) (s_lnz An) (s_unz An) in Ok (lu_of n F)).
Proof.
  intros L. destruct (lm_arr L) as (Ap & Ai & Ax & Hp & Hi & Hx & V). exists Ap, Ai, Ax. repeat (split; [assumption|]). pose proof (lc_n V) as Hn. pose proof (lc_p V) as Lp.
  assert (H0 : 0 <= rd Ap n). { destruct (Z.eq_dec n 0) as [->|]; [rewrite (lc_0 V); lia|]. pose proof (lc_ptr V (c := n - 1) ltac:(lia)). lia. }
  unfold SLIP_LU_factorize. cbn [negb]. unfold has_kt, matrix_nnz. rewrite (lm_kind L), (lm_type L). change (KCSC =? KCSC) with true. change (TMPZ =? TMPZ) with true. cbn [negb andb]. cbv iota. rewrite Hp, (lm_n L), (proj2 (Z.ltb_ge n 0) Hn), get_rd by lia.
  rewrite (proj2 (Z.ltb_ge _ 0) H0). cbn [negb orb]. unfold xmpz. rewrite Hi, Hx. cbn [deref bind]. reflexivity.
Qed.

(* Two representations of one matrix - the entries of a column in another order, the arrays longer, entries listed again before the final
   one - give the same status, L, U, rhos and pinv, bit for bit, for the same analysis. *)
Theorem C85_storage : forall env n A A' An o, int_csc n n A -> loose_matrix n A' -> usable n An -> env_ok env (opt_pivot o) ->
  (forall c i v, 0 <= c < n -> (last_entry A c i v <-> last_entry A' c i v)) ->
  SLIP_LU_factorize env true true (Some A) (Some An) o = SLIP_LU_factorize env true true (Some A') (Some An) o.
Proof.
  intros env n A A' An o IC L' (Q & E) He S. destruct (ic_arr IC) as (Ap & Ai & Ax & Hp & Hi & Hx & V).
  destruct (@loose_factorize env n A An o (csc_loose IC)) as (Bp & Bi & Bx & Gp & Gi & Gx & _ & ->). destruct (@loose_factorize env n A' An o L') as (Ap' & Ai' & Ax' & Hp' & Hi' & Hx' & LC & ->).
  assert (Bp = Ap) as -> by congruence. assert (Bi = Ai) as -> by congruence. assert (Bx = Ax) as -> by congruence.
  rewrite (@core_storage n Ap Ai Ax Ap' Ai' Ax' (s_q An) V LC); [reflexivity| |exact Q|exact He|exact E]. intros c Hc i v. specialize (S c i v Hc). unfold last_entry in S. rewrite Hp, Hi, Hx, Hp', Hi', Hx' in S. exact S.
Qed.

(* the entries of a matrix without duplicates *)
Lemma cent_last n A M : int_csc n n A -> last_values n A M -> forall i c, 0 <= i < n -> 0 <= c < n -> M i c = Cent A i c.
Proof.
  intros IC LV i c Hi Hc. destruct (ic_arr IC) as (Ap & Ai & Ax & Hp & Hii & Hx & V). specialize (LV i c Hi Hc). unfold last_entry in LV. unfold Cent. rewrite Hp, Hii, Hx in *. destruct LV as [(p & P1 & P2 & P3 & _)|(N & ->)].
  - rewrite <- P3, <- P2. symmetry. apply (ent_valid V); assumption.
  - symmetry. apply ent_none. intros p P1 P2. apply (N (rd Ax p)). exists p. repeat (split; [first [assumption|reflexivity]|]). intros p' Hp' E. assert (p' = p); [|lia]. apply (v_dup V Hc); [lia|lia|congruence].
Qed.
Lemma dedup_matrix n A : loose_matrix n A -> exists D, int_csc n n D /\ m_scale D = m_scale A /\ forall c i v, 0 <= c < n -> (last_entry D c i v <-> last_entry A c i v).
Proof.
  intros L. destruct (lm_arr L) as (Ap & Ai & Ax & Hp & Hi & Hx & V). destruct (dedup V) as (Dp & Di & Dx & VD & S). exists (mkM n n (zlen Di) 0 KCSC TMPZ (Some Dp) (Some Di) None (Some (VZ Dx)) (m_scale A)). split; [|split; [reflexivity|]].
  - constructor; try reflexivity. exists Dp, Di, Dx. repeat (split; [reflexivity|]). exact VD.
  - intros c i v Hc. unfold last_entry. cbn. rewrite Hp, Hi, Hx. apply S. exact Hc.
Qed.
Lemma last_transfer n A D M : (forall c i v, 0 <= c < n -> (last_entry D c i v <-> last_entry A c i v)) -> last_values n A M -> last_values n D M.
Proof. intros S LV i c Hi Hc. destruct (LV i c Hi Hc) as [H|(N & E)]; [left; apply S; assumption|right; split; [|exact E]]. intros v H. apply (N v). apply S; assumption. Qed.
Lemma detz_same n M M' : (forall i c, 0 <= i < n -> 0 <= c < n -> M i c = M' i c) -> detz n M = detz n M'.
Proof. intros H. apply detz_ext. exact H. Qed.

(* A column that lists a row more than once - which the user guide forbids and SLIP_LU_factorize does not check - is factorized as if it held
   only the last of these entries: no crash, and the status is decided by the determinant of that matrix. *)
Theorem C85_last_entry_wins : forall env n A M An o, loose_matrix n A -> last_values n A M -> usable n An -> env_ok env (opt_pivot o) ->
  (detz n M <> 0 /\ exists F, SLIP_LU_factorize env true true (Some A) (Some An) o = Ok (SOK, Out F)) \/
  (detz n M = 0 /\ SLIP_LU_factorize env true true (Some A) (Some An) o = Ok (SErr SLIP_SINGULAR, Null)).
Proof.
  intros env n A M An o L LV US He. destruct (dedup_matrix L) as (D & IC & _ & S). rewrite <- (@C85_storage env n D A An o IC L US He S).
  rewrite (@detz_same n M (Cent D)) by (apply (@cent_last n D M IC (@last_transfer n A D M S LV))).
  destruct (factorize_spec o IC US He) as [(Ap & Ai & Ax & F0 & R & Hp & Hi & Hx & V & EF & K & HD)|(EF & HD)]; eauto.
Qed.

(* and without the final check the solution is exactly that of this system *)
Theorem C85_solve : forall env n nrhs A M B An o o' F, loose_matrix n A -> last_values n A M -> int_dense n nrhs B -> 1 <= n -> ~ (m_scale A == 0)%Q -> ~ (m_scale B == 0)%Q ->
  usable n An -> env_ok env (opt_pivot o) -> opt_check o' = false ->
  SLIP_LU_factorize env true true (Some A) (Some An) o = Ok (SOK, Out F) ->
  exists X, SLIP_LU_solve true true (Some B) (Some A) (Some (lu_L F)) (Some (lu_U F)) (Some (lu_rhos F)) (Some An) (Some (lu_pinv F)) o' = Ok (SOK, Out X) /\ rat_dense n nrhs X /\
    forall i r, 0 <= i < n -> 0 <= r < nrhs -> (sumQ n (fun c => inject_Z (M i c) / m_scale A * Qent X c r) == inject_Z (Dent B i r) / m_scale B)%Q.
Proof.
  intros env n nrhs A M B An o o' F L LV ID Hn HsA HsB US He Ho EF. destruct (dedup_matrix L) as (D & IC & Es & S). rewrite <- (@C85_storage env n D A An o IC L US He S) in EF.
  destruct (@solve_of_factors env n nrhs D B An o o' F IC ID Hn ltac:(rewrite Es; exact HsA) HsB US He EF) as (_ & X & EX & RX & SX). exists X. split; [|split; [exact RX|]].
  - rewrite <- EX. destruct (lm_arr L) as (Ap & Ai & Ax & Hp & Hi & Hx & V). destruct (ic_arr IC) as (Dp & Di & Dx & Gp & Gi & Gx & VD). unfold SLIP_LU_solve, has_kt. rewrite (lm_kind L), (lm_type L), (ic_kind IC), (ic_type IC), (lm_m L), (lm_n L), (ic_m IC), (ic_n IC), Es.
    unfold xmpz. rewrite Hp, Hi, Hx, Gp, Gi, Gx. cbn [deref bind]. rewrite Ho. reflexivity.
  - intros i r Hi Hr. rewrite <- Es. assert (ER : 0 <= r < m_n B) by (rewrite (id_n ID); exact Hr). rewrite <- (SX i r Hi ER). apply sumQ_ext. intros c Hc. rewrite (@cent_last n D M IC (@last_transfer n A D M S LV) i c Hi Hc). reflexivity.
Qed.

(* The complete driver, on two matrices without duplicates: if all entries agree (stored zeros need not), so do the results. *)
Theorem C85_backslash : forall env env' ol ol' addr addr' n nrhs A A' B o o',
  int_csc n n A -> int_csc n n A' -> (forall i c, 0 <= i < n -> 0 <= c < n -> Cent A i c = Cent A' i c) -> m_scale A = m_scale A' ->
  int_dense n nrhs B -> 1 <= n -> 1 <= nrhs -> ~ (m_scale A == 0)%Q -> ~ (m_scale B == 0)%Q -> env_ok env (opt_pivot o) -> env_ok env' (opt_pivot o') ->
  SLIP_backslash env ol addr true true TMPQ (Some A) (Some B) o = SLIP_backslash env' ol' addr' true true TMPQ (Some A') (Some B) o'.
Proof.
  intros env env' ol ol' addr addr' n nrhs A A' B o o' IC IC' EC Es ID Hn Hr HsA HsB He He'. assert (ED : detz n (Cent A) = detz n (Cent A')) by (apply detz_same; exact EC).
  destruct (@backslash_spec env ol addr n nrhs A B TMPQ o IC ID He Hn HsA HsB ltac:(auto)) as [(HD & X & RX & SX & ->)|(HD & ->)];
  destruct (@backslash_spec env' ol' addr' n nrhs A' B TMPQ o' IC' ID He' Hn ltac:(rewrite <- Es; exact HsA) HsB ltac:(auto)) as [(HD' & X' & RX' & SX' & ->)|(HD' & ->)];
    try (rewrite ED in HD; contradiction); auto.
  simpl. replace X' with X; auto. apply (@rat_dense_ext n nrhs); auto. apply (@solves_unique n nrhs A B); auto.
  intros i r Hi Hr'. rewrite <- (SX' i r Hi Hr'). apply sumQ_ext. intros c Hc. rewrite EC, Es by assumption. reflexivity.
Qed.

(* The hypotheses are met.  exA with the columns permuted, longer arrays and, in exA2, two entries listed again with other values before the final one. *)
Definition exA1 : matrix := mkM 4 4 13 0 KCSC TMPZ (Some exAp) (Some [3; 0; 1; 2; 3; 1; 3; 2; 3; 2; 0; 77; -5]) None (Some (VZ [-1; 2; 3; 5; 3; -4; 7; 0; 8; 2; 1; 1000; 1])) (2 # 3)%Q.
Definition exA2 : matrix := mkM 4 4 13 0 KCSC TMPZ (Some [0; 4; 7; 10; 13]) (Some [3; 0; 1; 3; 2; 3; 1; 2; 3; 2; 3; 2; 0]) None (Some (VZ [44; 2; 3; -1; 5; 3; -4; 6; 7; 0; 8; 2; 1])) (2 # 3)%Q.
Lemma exA1_loose : loose_matrix 4 exA1.
Proof.
  constructor; try reflexivity. do 3 eexists. repeat (split; [reflexivity|]). constructor; [lia|reflexivity|reflexivity| |vm_compute; discriminate|vm_compute; discriminate|].
  - intros c Hc. assert (c = 0 \/ c = 1 \/ c = 2 \/ c = 3) as [->|[->|[->| ->]]] by lia; vm_compute; discriminate.
  - intros p Hp. change (rd exAp 4) with 11 in Hp. pose proof (@allz_ok 0 11 (fun p => (0 <=? rd [3; 0; 1; 2; 3; 1; 3; 2; 3; 2; 0; 77; -5] p) && (rd [3; 0; 1; 2; 3; 1; 3; 2; 3; 2; 0; 77; -5] p <? 4)) eq_refl p Hp) as H. cbv beta in H. apply andb_true_iff in H. lia.
Qed.
Lemma exA2_loose : loose_matrix 4 exA2.
Proof.
  constructor; try reflexivity. do 3 eexists. repeat (split; [reflexivity|]). constructor; [lia|reflexivity|reflexivity| |vm_compute; discriminate|vm_compute; discriminate|].
  - intros c Hc. assert (c = 0 \/ c = 1 \/ c = 2 \/ c = 3) as [->|[->|[->| ->]]] by lia; vm_compute; discriminate.
  - intros p Hp. change (rd [0; 4; 7; 10; 13] 4) with 13 in Hp. pose proof (@allz_ok 0 13 (fun p => (0 <=? rd [3; 0; 1; 3; 2; 3; 1; 2; 3; 2; 3; 2; 0] p) && (rd [3; 0; 1; 3; 2; 3; 1; 2; 3; 2; 3; 2; 0] p <? 4)) eq_refl p Hp) as H. cbv beta in H. apply andb_true_iff in H. lia.
Qed.
(* a boolean test of same_matrix: each position of one is, if it is the last of its row, matched by a last position of the other *)
Definition lastb (Ai : list Z) (hi p : Z) : bool := forallb (fun p' => negb (rd Ai p' =? rd Ai p)) (zseq (p + 1) hi).
Definition inclb (n : Z) (Ap Ai Ax Bp Bi Bx : list Z) : bool :=
  forallb (fun c => forallb (fun p => negb (lastb Ai (rd Ap (c + 1)) p) || existsb (fun r => (rd Bi r =? rd Ai p) && (rd Bx r =? rd Ax p) && lastb Bi (rd Bp (c + 1)) r) (zseq (rd Bp c) (rd Bp (c + 1)))) (zseq (rd Ap c) (rd Ap (c + 1)))) (zseq 0 n).
Lemma lastb_ok Ai hi p : lastb Ai hi p = true <-> forall p', p < p' < hi -> rd Ai p' <> rd Ai p.
Proof.
  unfold lastb. rewrite forallb_forall. split; intros H p' Hp'.
  - specialize (H p' ltac:(apply in_zseq; lia)). apply negb_true_iff, Z.eqb_neq in H. exact H.
  - apply in_zseq in Hp'. apply negb_true_iff, Z.eqb_neq, H. lia.
Qed.
Lemma inclb_ok n Ap Ai Ax Bp Bi Bx : inclb n Ap Ai Ax Bp Bi Bx = true -> forall c i v, 0 <= c < n -> in_force Ap Ai Ax c i v -> in_force Bp Bi Bx c i v.
Proof.
  intros H c i v Hc (p & P1 & P2 & P3 & P4). unfold inclb in H. rewrite forallb_forall in H. specialize (H c ltac:(apply in_zseq; lia)). rewrite forallb_forall in H. specialize (H p ltac:(apply in_zseq; lia)).
  assert (LB : lastb Ai (rd Ap (c + 1)) p = true) by (apply lastb_ok; intros; rewrite P2; apply P4; assumption). rewrite LB in H. cbn [negb orb] in H. apply existsb_exists in H. destruct H as (r & R1 & R2). apply in_zseq in R1.
  apply andb_true_iff in R2. destruct R2 as (R2 & R3). apply andb_true_iff in R2. destruct R2 as (R2 & R4). apply Z.eqb_eq in R2, R4. exists r. split; [exact R1|]. split; [congruence|]. split; [congruence|]. intros p' Hp'. rewrite <- P2, <- R2. revert p' Hp'. apply lastb_ok. exact R3.
Qed.
Lemma exA1_same c i v : 0 <= c < 4 -> (last_entry exA c i v <-> last_entry exA1 c i v).
Proof. intros Hc. split; unfold last_entry; cbn [exA exA1 m_p m_i m_x]; apply (@inclb_ok 4); solve [vm_compute; reflexivity | exact Hc]. Qed.
Lemma exA2_same c i v : 0 <= c < 4 -> (last_entry exA c i v <-> last_entry exA2 c i v).
Proof. intros Hc. split; unfold last_entry; cbn [exA exA2 m_p m_i m_x]; apply (@inclb_ok 4); solve [vm_compute; reflexivity | exact Hc]. Qed.
Example C85_ex1 : SLIP_LU_factorize exenv true true (Some exA1) (Some exAn) None = Ok (SOK, Out (fac_of exAn None)).
Proof. rewrite <- (@C85_storage exenv 4 exA exA1 exAn None ex_csc exA1_loose ex_usable (@ex_env _) exA1_same). exact ex_factorize. Qed.
Example C85_ex2 : SLIP_LU_factorize exenv true true (Some exA2) (Some exAn) None = Ok (SOK, Out (fac_of exAn None)).
Proof. rewrite <- (@C85_storage exenv 4 exA exA2 exAn None ex_csc exA2_loose ex_usable (@ex_env _) exA2_same). exact ex_factorize. Qed.
Lemma ex_last : last_values 4 exA2 (Cent exA).
Proof.
  intros i c Hi Hc. destruct (PStorage.col_dec exAp exAi c i) as [N|(p & P1 & P2 & P3)]; [apply (v_mono ex_valid Hc)| |].
  - right. split; [|apply ent_none; exact N]. intros v H. apply exA2_same in H; [|exact Hc]. destruct H as (p & P1 & P2 & _). apply (N p P1 P2).
  - left. apply exA2_same; [exact Hc|]. exists p. split; [exact P1|]. split; [exact P2|]. split; [|exact P3]. rewrite <- P2. symmetry. apply (ent_valid ex_valid Hc P1).
Qed.
Example C85_ex3 := @C85_solve exenv 4 2 exA2 (Cent exA) exB exAn None None _ exA2_loose ex_last ex_dense ex_n ltac:(discriminate) ex_scaleB ex_usable (@ex_env _) eq_refl C85_ex2.

(* What the user sees: for the 1-by-1 matrix whose column lists the entries 1 and 2, SLIP_matrix_check reports the fault, the factorization
   uses the value 2 (the sum would be 3), and SLIP_LU_solve with the check reports SLIP_INCORRECT because the check adds the duplicates up. *)
Definition exD : matrix := mkM 1 1 2 0 KCSC TMPZ (Some [0; 2]) (Some [0; 0]) None (Some (VZ [1; 2])) 1%Q.
Definition exDb : matrix := mkM 1 1 1 0 KDENSE TMPZ None None None (Some (VZ [6])) 1%Q.
Definition facD : lu := match SLIP_LU_factorize exenv true true (Some exD) (Some (mkS [0; 1] 1 1)) None with Ok (_, Out F) => F | _ => mkLU exD exD exD [] end.
Theorem C85_duplicates_seen : matrix_check true (Some exD) = Err SLIP_INCORRECT_INPUT /\
  SLIP_LU_factorize exenv true true (Some exD) (Some (mkS [0; 1] 1 1)) None = Ok (SOK, Out facD) /\ m_x (lu_rhos facD) = Some (VZ [2]) /\
  (exists X, SLIP_LU_solve true true (Some exDb) (Some exD) (Some (lu_L facD)) (Some (lu_U facD)) (Some (lu_rhos facD)) (Some (mkS [0; 1] 1 1)) (Some (lu_pinv facD)) None = Ok (SOK, Out X) /\ Qent X 0 0 = 3%Q) /\
  SLIP_LU_solve true true (Some exDb) (Some exD) (Some (lu_L facD)) (Some (lu_U facD)) (Some (lu_rhos facD)) (Some (mkS [0; 1] 1 1)) (Some (lu_pinv facD)) (Some (mkO 3 1 1%Q 0 128 RNDN true)) = Ok (SErr SLIP_INCORRECT, Null).
Proof. repeat (split; [first [vm_compute; reflexivity | eexists; split; vm_compute; reflexivity]|]). vm_compute; reflexivity. Qed.
