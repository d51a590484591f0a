(* C86: with the final check, a solution that is returned is right, whatever the factors are. *)
From Verif Require Import Base DetZ Spec SumQ MFactor MSolve MMatrix MApi ApiSpec PSolve PSolve2 PApi Check LUEx PropLU2.
Set Implicit Arguments.
Open Scope Z_scope.
Set Bullet Behavior "Strict Subproofs".
Local Opaque Qred.

(* if m gives a result, it satisfies Q *)
Definition pc A (m : res A) (Q : A -> Prop) : Prop := match m with Ok v => Q v | _ => True end.
Lemma pc_bind A B (m : res A) (k : A -> res B) P Q : pc m P -> (forall a, P a -> pc (k a) Q) -> pc (bind m k) Q.
Proof. intros H K. destruct m; cbn in *; auto. Qed.
Lemma pc_any A B (m : res A) (k : A -> res B) Q : (forall a, pc (k a) Q) -> pc (bind m k) Q.
Proof. intros K. destruct m; cbn in *; auto. Qed.
Lemma pc_for S lo hi (f : Z -> S -> res S) (I : S -> Prop) s : I s -> (forall k s, I s -> pc (f k s) I) -> pc (for_ lo hi f s) I.
Proof.
  intros H K. unfold for_. generalize (Z.to_nat (hi - lo)). intros cnt. revert lo s H. induction cnt as [|cnt IH]; intros lo s H; [exact H|]. cbn [floop]. eapply pc_bind; [apply K; exact H|]. intros a Ha. apply IH. exact Ha.
Qed.
Definition canonical (N : Z) (x : list Q) : Prop := zlen x = N /\ forall i, canon (rdq x i).
Lemma pc_set N x i v : canonical N x -> canon v -> pc (set x i v) (canonical N).
Proof.
  intros (L & C) Cv. unfold set. destruct ((0 <=? i) && (i <? zlen x)); [|exact Logic.I]. cbn [pc]. split; [rewrite zlen_upd; exact L|]. apply (@canon_wrg x i v C Cv).
Qed.
Lemma canonical_0 N : 0 <= N -> canonical N (mk N 0%Q).
Proof. intros H. split; [apply zlen_mk; lia|]. intros i. unfold rdq, mk. rewrite nth_repeat. apply canon_0. Qed.
Lemma get_canon N x i v : canonical N x -> get x i = Ok v -> canon v.
Proof.
  intros (L & C) G. unfold get in G. destruct (i <? 0); [discriminate|]. destruct (nth_error x (Z.to_nat i)) as [w|] eqn:E; [|discriminate]. injection G as <-. apply nth_error_nth with (d := 0%Q) in E. specialize (C i). unfold rdq in C. rewrite E in C. exact C.
Qed.
Lemma solve_core_checked nl n nrhs Ap Ai Ax sA b sB F q X : valid_csc n n Ap Ai Ax -> zlen b = Z.max (n * nrhs) 1 -> ~ (sB == 0)%Q ->
  solve_core nl n nrhs Ap Ai Ax sA b sB F q true = Ok X ->
  zlen X = Z.max (n * nrhs) 1 /\ all_canon X /\ (~ (sA == 0)%Q -> exact_solution n nrhs Ap Ai Ax sA b sB X).
Proof.
  intros V Hb HsB. enough (G : pc (solve_core nl n nrhs Ap Ai Ax sA b sB F q true) (fun X => zlen X = Z.max (n * nrhs) 1 /\ all_canon X /\ (~ (sA == 0)%Q -> exact_solution n nrhs Ap Ai Ax sA b sB X))) by (intros E; rewrite E in G; exact G).
  unfold solve_core. destruct (Z.ltb_spec n 0) as [|Hn]; [exact Logic.I|]. destruct (Z.ltb_spec nrhs 0) as [|Hr]; [exact Logic.I|]. cbn [orb]. assert (Hnn : 0 <= n * nrhs) by nia.
  apply pc_any. intros b1. apply pc_any. intros b2. apply pc_any. intros det. apply pc_any. intros b3. apply pc_any. intros b4. eapply pc_bind with (P := canonical (Z.max (n * nrhs) 1)).
  { unfold slip_matrix_div. apply pc_for; [apply canonical_0; lia|]. intros k x C. apply pc_any. intros v. unfold mpq_div at 1. destruct (Qnum (mpq_z det) =? 0); [exact Logic.I|]. cbn [bind]. apply pc_set; [exact C|apply canon_red]. }
  intros x2 C2. eapply pc_bind with (P := canonical (Z.max (n * nrhs) 1)).
  { unfold slip_permute_x. apply pc_for; [apply canonical_0; lia|]. intros i x C. apply pc_for; [exact C|]. clear x C. intros j x C. destruct (get x2 (ix n i j)) as [v| | |] eqn:G; try exact Logic.I. cbn [bind]. apply pc_any. intros qi. apply pc_set; [exact C|apply (get_canon _ C2 G)]. }
  intros x (Lx & Cx). cbv iota. pose proof (@check_spec n nrhs Ap Ai Ax V Hr x b ltac:(lia) ltac:(lia)) as C. destruct (slip_check_solution n nrhs Ap Ai Ax x b) as [u| | |]; try exact Logic.I. cbn [wp bind] in *. rename C into HX. unfold Axs in HX.
  assert (HsB' : Qnum sB <> 0). { intros H. apply HsB. unfold Qeq. simpl. lia. }
  unfold mpq_div at 1. destruct (Z.eqb_spec (Qnum sB) 0); [lia|]. cbn [bind]. destruct (mpq_equal_spec (canon_red (sA / sB)) canon_1) as [e|ne].
  - cbn [pc]. split; [exact Lx|]. split; [apply rdq_all_canon; exact Cx|]. intros HsA i r Hi Hr'. rewrite Qred_correct in e.
    assert (e' : (sA == sB)%Q). { rewrite <- (Qmult_1_l sB), <- e. field. auto. }
    rewrite (@sumQ_ext n _ (fun c => / sB * (inject_Z (ent Ap Ai Ax i c) * rdq x (ix n c r)))%Q).
    2:{ intros c Hc. unfold ix. rewrite e'. unfold Qdiv. ring. }
    rewrite sumQ_scal, HX by auto. unfold ix, Qdiv. ring.
  - destruct (wp_ok_ex _ _ (@scale_loop_spec (n * nrhs) x (Qred (sA / sB)) ltac:(lia) Cx)) as (x' & -> & Hl7 & Hc7 & H7). cbn [pc]. split; [lia|]. split; [apply rdq_all_canon; exact Hc7|]. intros HsA i r Hi Hr'.
    rewrite (@sumQ_ext n _ (fun c => / sB * (inject_Z (ent Ap Ai Ax i c) * rdq x (ix n c r)))%Q).
    2:{ intros c Hc. change (c + r * n) with (ix n c r). rewrite H7 by (apply ix_range; auto). rewrite Qred_correct. field. auto. }
    rewrite sumQ_scal, HX by auto. unfold ix, Qdiv. ring.
Qed.

(* For any objects passed as L, U, rhos, S and pinv - factors of another matrix, damaged, outdated, not permutations at all - if SLIP_LU_solve
   with the check returns SLIP_OK and X, then X is the exact solution, in the form of every solution. *)
Theorem C86_certified : forall n nrhs A B L U rhos An pinv o X,
  int_csc n n A -> int_dense n nrhs B -> ~ (m_scale A == 0)%Q -> ~ (m_scale B == 0)%Q -> opt_check o = true ->
  SLIP_LU_solve true true (Some B) (Some A) L U rhos An pinv o = Ok (SOK, Out X) -> rat_dense n nrhs X /\ solves n A B X.
Proof.
  intros n nrhs A B L U rhos An pinv o X IC ID HsA HsB Ho E. destruct (ic_arr IC) as (Ap & Ai & Ax & Hp & Hi & Hx & V). destruct (id_arr ID) as (b & Hb & Hbl).
  unfold SLIP_LU_solve in E. cbn [negb] in E. destruct (negb _) in E; [discriminate|]. destruct L as [L|]; [|discriminate]. destruct U as [U|]; [|discriminate]. destruct rhos as [rh|]; [|discriminate]. destruct An as [An|]; [|discriminate]. destruct pinv as [pv|]; [|discriminate].
  destruct (_ || _) in E; [discriminate|]. unfold finish in E. unfold xmpz in E. rewrite Hp, Hi, Hx, Hb, Ho, (id_m ID), (id_n ID) in E. cbn [deref bind] in E.
  destruct (deref (m_p L)) as [Lp| | |]; cbn [bind] in E; try discriminate. destruct (deref (m_i L)) as [Li| | |]; cbn [bind] in E; try discriminate. destruct (match m_x L with Some (VZ l) => Ok l | _ => UB end) as [Lx| | |]; cbn [bind] in E; try discriminate.
  destruct (deref (m_p U)) as [Up| | |]; cbn [bind] in E; try discriminate. destruct (deref (m_i U)) as [Ui| | |]; cbn [bind] in E; try discriminate. destruct (match m_x U with Some (VZ l) => Ok l | _ => UB end) as [Ux| | |]; cbn [bind] in E; try discriminate.
  destruct (match m_x rh with Some (VZ l) => Ok l | _ => UB end) as [rx| | |]; cbn [bind] in E; try discriminate.
  destruct (solve_core _ _ _ _ _ _ _ _ _ _ _ _) as [x| | |] eqn:EC in E; cbn [bind] in E; try discriminate. injection E as <-.
  destruct (@solve_core_checked _ n nrhs Ap Ai Ax _ b _ _ _ x V Hbl HsB EC) as (Lx' & Cx & S). split.
  - constructor; cbn; try reflexivity; [auto|]. exists x. auto.
  - intros i r Hi' Hr'. rewrite (id_n ID) in Hr'. specialize (S HsA i r Hi' Hr'). unfold Cent, Dent, Qent. cbn. rewrite Hp, Hi, Hx, Hb, (id_m ID). exact S.
Qed.
(* So for a non-singular matrix it is what SLIP_backslash returns. *)
Theorem C86_same_as_backslash : forall env ol addr n nrhs A B L U rhos An pinv o o' X,
  int_csc n n A -> int_dense n nrhs B -> 1 <= n -> 1 <= nrhs -> ~ (m_scale A == 0)%Q -> ~ (m_scale B == 0)%Q -> opt_check o = true -> env_ok env (opt_pivot o') -> detz n (Cent A) <> 0 ->
  SLIP_LU_solve true true (Some B) (Some A) L U rhos An pinv o = Ok (SOK, Out X) ->
  SLIP_backslash env ol addr true true TMPQ (Some A) (Some B) o' = Ok (SOK, Out X).
Proof.
  intros env ol addr n nrhs A B L U rhos An pinv o o' X IC ID Hn Hr HsA HsB Ho He HD E. destruct (@C86_certified n nrhs A B L U rhos An pinv o X IC ID HsA HsB Ho E) as (RX & SX).
  destruct (@backslash_spec env ol addr n nrhs A B TMPQ o' IC ID He Hn HsA HsB ltac:(auto)) as [(_ & X' & RX' & SX' & ->)|(HD' & _)]; [|contradiction]. simpl. replace X' with X; [reflexivity|].
  apply (@rat_dense_ext n nrhs X X' Hn Hr RX RX'). apply (@solves_unique n nrhs A B X X' IC ID HD HsA RX RX' SX SX').
Qed.

(* The hypotheses are met, also by factors that do not belong to the matrix: the right-hand side 0 is solved with the factors of another matrix. *)
Definition exo_check : option options := Some (mkO 3 1 1%Q 0 128 RNDN true).
Example C86_ex : exists X, SLIP_LU_solve true true (Some exB) (Some exA) (Some (lu_L (fac_of exAn None))) (Some (lu_U (fac_of exAn None))) (Some (lu_rhos (fac_of exAn None))) (Some exAn) (Some (lu_pinv (fac_of exAn None))) exo_check = Ok (SOK, Out X) /\ solves 4 exA exB X.
Proof.
  destruct (@C22_never_fires exenv 4 2 exA exB exAn None exo_check _ ex_csc ex_dense ex_n ex_scaleA ex_scaleB ex_usable (@ex_env _) eq_refl ex_factorize) as (X & E). exists X. split; [exact E|].
  apply (@C86_certified 4 2 exA exB _ _ _ _ _ exo_check X ex_csc ex_dense ex_scaleA ex_scaleB eq_refl E).
Qed.
(* the factors of exA, and a matrix that differs from it in one entry: the check reports it ... *)
Definition exA9 : matrix := mkM 4 4 11 0 KCSC TMPZ (Some exAp) (Some exAi) None (Some (VZ [2; 3; -1; -4; 5; 3; 0; 7; 1; 2; 9])) (2 # 3)%Q.
Example C86_ex_reported : SLIP_LU_solve true true (Some exB) (Some exA9) (Some (lu_L (fac_of exAn None))) (Some (lu_U (fac_of exAn None))) (Some (lu_rhos (fac_of exAn None))) (Some exAn) (Some (lu_pinv (fac_of exAn None))) exo_check = Ok (SErr SLIP_INCORRECT, Null).
Proof. vm_compute. reflexivity. Qed.
(* ... without the check, SLIP_OK is returned with a solution that is wrong. *)
Theorem C86_unchecked_refuted : exists n nrhs A B L U rhos An pinv X, int_csc n n A /\ int_dense n nrhs B /\ ~ (m_scale A == 0)%Q /\ ~ (m_scale B == 0)%Q /\
  SLIP_LU_solve true true (Some B) (Some A) (Some L) (Some U) (Some rhos) (Some An) (Some pinv) None = Ok (SOK, Out X) /\ ~ solves n A B X.
Proof.
  exists 4, 2, exA9, exB, (lu_L (fac_of exAn None)), (lu_U (fac_of exAn None)), (lu_rhos (fac_of exAn None)), exAn, (lu_pinv (fac_of exAn None)).
  destruct (SLIP_LU_solve true true (Some exB) (Some exA9) (Some (lu_L (fac_of exAn None))) (Some (lu_U (fac_of exAn None))) (Some (lu_rhos (fac_of exAn None))) (Some exAn) (Some (lu_pinv (fac_of exAn None))) None) as [[[|] [| |X]]| | |] eqn:E; try (vm_compute in E; discriminate).
  exists X. split; [constructor; try reflexivity; do 3 eexists; repeat (split; [reflexivity|]); apply valid_cscb_ok; reflexivity|]. split; [exact ex_dense|]. split; [discriminate|]. split; [discriminate|]. split; [reflexivity|].
  vm_compute in E. injection E as <-. intros S. specialize (S 3 0 ltac:(lia) ltac:(cbn; lia)). vm_compute in S. discriminate.
Qed.
