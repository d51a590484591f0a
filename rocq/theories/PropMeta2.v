(* C87, continued: inverses, known solutions, and systems solved one after the other. *)
From Coq Require Import QArith.
From Verif Require Import Base Det DetZ Hadamard Spec SumQ MSolve MMatrix MApi ApiSpec MatSpec PSolve PSolve2 PApi PCopy PMex Check LUEx PropLU2 PropMat2 PropMeta.
Set Implicit Arguments.
Open Scope Z_scope.
Set Bullet Behavior "Strict Subproofs".

(* If the right-hand sides are the columns of the identity matrix, the solution is the inverse of A, on both sides; and A has an inverse
   exactly if the call succeeds. *)
Theorem C87_inverse : forall env ol addr n A B o,
  system n n A B -> env_ok env (opt_pivot o) -> same n n (Bval B) unit ->
  (exists X, SLIP_backslash env ol addr true true TMPQ (Some A) (Some B) o = Ok (SOK, Out X) /\
     same n n (times n (Aval A) (Qent X)) unit /\ same n n (times n (Qent X) (Aval A)) unit) \/
  (SLIP_backslash env ol addr true true TMPQ (Some A) (Some B) o = Ok (SErr SLIP_SINGULAR, Null) /\ ~ invertible n (Aval A)).
Proof.
  intros env ol addr n A B o SY He HB.
  destruct (@backslash_spec env ol addr n n A B TMPQ o (sy_A SY) (sy_B SY) He (sy_n SY) (sy_sA SY) (sy_sB SY) ltac:(auto)) as [(HD & X & RX & SX & ->)|(HD & ->)].
  - left. exists X. split; [reflexivity|]. assert (E : same n n (times n (Aval A) (Qent X)) unit) by (eapply same_trans; [apply (solves_same SY SX)|exact HB]).
    split; [exact E|]. apply (@cancel n n (Aval A)); [apply (Aval_det SY); exact HD|].
    eapply same_trans; [intros i j Hi Hj; symmetry; apply times_assoc|]. eapply same_trans; [apply times_same; [exact E|apply same_refl]|].
    eapply same_trans; [apply times_unit_l|]. apply same_sym. apply times_unit_r.
  - right. split; [reflexivity|]. rewrite (Aval_det SY). tauto.
Qed.

(* A solution that is known in advance is found: if B = A*Y for a rational matrix Y in lowest terms and A is not singular, Y is returned,
   the object itself. *)
Theorem C87_known : forall env ol addr n k A B Y o,
  system n k A B -> env_ok env (opt_pivot o) -> rat_dense n k Y -> same n k (Bval B) (times n (Aval A) (Qent Y)) -> detz n (Cent A) <> 0 ->
  SLIP_backslash env ol addr true true TMPQ (Some A) (Some B) o = Ok (SOK, Out Y).
Proof.
  intros env ol addr n k A B Y o SY He RY HB HD.
  destruct (@backslash_spec env ol addr n k A B TMPQ o (sy_A SY) (sy_B SY) He (sy_n SY) (sy_sA SY) (sy_sB SY) ltac:(auto)) as [(_ & X & RX & SX & ->)|(HD' & _)]; [|contradiction].
  assert (G : same n k (Qent X) (Qent Y)).
  { apply (@cancel n k (Aval A)); [apply (Aval_det SY); exact HD|]. eapply same_trans; [apply (solves_same SY SX)|exact HB]. }
  simpl. replace X with Y; [reflexivity|]. apply (@rat_dense_ext n k Y X (sy_n SY) (sy_k SY) RY RX).
  intros i j Hi Hj. apply canon_eq; [apply (Qent_canon i j RY)|apply (Qent_canon i j RX)|]. symmetry. apply G; assumption.
Qed.

(* A solution can be used as a right-hand side: SLIP_matrix_copy of X to a dense integer matrix succeeds, and the copy stands for the same
   rational matrix (the common denominator is in its scale). *)
Theorem C87_reused : forall addr n k X o, rat_dense n k X -> 1 <= n -> 1 <= k -> 1 <= opt_prec o ->
  exists C, matrix_copy o addr true true KDENSE TMPZ (Some X) = Ok C /\ int_dense n k C /\ ~ (m_scale C == 0)%Q /\ same n k (Bval C) (Qent X).
Proof.
  intros addr n k X o RX Hn Hk Hp. destruct (rq_arr RX) as (x & Ex & Hx & Cx).
  assert (D : dense_ok X (VQ x)).
  { constructor; [apply (rq_kind RX)|exact Ex|cbn; symmetry; apply (rq_type RX)|rewrite (rq_m RX); lia|rewrite (rq_n RX); lia|rewrite (rq_m RX), (rq_n RX); cbn [vlen]; lia]. }
  assert (HS : stores X (n * k) (VQ x)) by (right; right; split; [exact D|rewrite (rq_m RX), (rq_n RX); reflexivity]).
  destruct (@C39_mpq_to_mpz o addr X (n * k) x HS ltac:(nia)) as (y & s & HC & Hs & Hy & _).
  { intros q Hq. apply Cx. unfold rdg. apply nth_In. unfold zlen in Hx. lia. }
  destruct (@dense_copy_int o addr X (VQ x) y (inject_Z s) D Hp HC) as (C & E & ID & HX & Hsc). rewrite (rq_m RX), (rq_n RX) in ID.
  assert (S0 : ~ (inject_Z s == 0)%Q) by (intros Q; unfold Qeq in Q; cbn in Q; lia).
  exists C. split; [exact E|]. split; [exact ID|]. split; [rewrite Hsc; exact S0|].
  intros i j Hi Hj. unfold Bval, Dent, Qent. rewrite HX, Hsc, Ex, (id_m ID), (rq_m RX). rewrite Hy by nia. change (rdq x (i + j * n)) with (rdg 0%Q x (i + j * n)). field. exact S0.
Qed.

(* Two systems solved one after the other give the same object as the product of the matrices: (A1 A2) \ B = A2 \ (A1 \ B), for any
   orders, pivoting schemes and contents of uninitialised memory in the three calls. *)
Theorem C87_product : forall env1 env2 env3 ol1 ol2 ol3 addr addr1 addr2 addr3 n k A1 A2 A3 B o o1 o2 o3,
  system n k A1 B -> int_csc n n A2 -> ~ (m_scale A2 == 0)%Q -> system n k A3 B -> same n n (Aval A3) (times n (Aval A1) (Aval A2)) ->
  env_ok env1 (opt_pivot o1) -> env_ok env2 (opt_pivot o2) -> env_ok env3 (opt_pivot o3) -> 1 <= opt_prec o ->
  detz n (Cent A1) <> 0 -> detz n (Cent A2) <> 0 ->
  exists X1 C X2, SLIP_backslash env1 ol1 addr1 true true TMPQ (Some A1) (Some B) o1 = Ok (SOK, Out X1) /\
    matrix_copy o addr true true KDENSE TMPZ (Some X1) = Ok C /\
    SLIP_backslash env2 ol2 addr2 true true TMPQ (Some A2) (Some C) o2 = Ok (SOK, Out X2) /\
    SLIP_backslash env3 ol3 addr3 true true TMPQ (Some A3) (Some B) o3 = Ok (SOK, Out X2).
Proof.
  intros env1 env2 env3 ol1 ol2 ol3 addr addr1 addr2 addr3 n k A1 A2 A3 B o o1 o2 o3 S1 IC2 Hs2 S3 HA He1 He2 He3 Hp D1 D2.
  destruct (@backslash_spec env1 ol1 addr1 n k A1 B TMPQ o1 (sy_A S1) (sy_B S1) He1 (sy_n S1) (sy_sA S1) (sy_sB S1) ltac:(auto)) as [(_ & X1 & R1 & V1 & ->)|(HD' & _)]; [|contradiction].
  destruct (@C87_reused addr n k X1 o R1 (sy_n S1) (sy_k S1) Hp) as (C & EC & IC & HsC & HC).
  assert (S2 : system n k A2 C) by (constructor; [exact IC2|exact IC|apply (sy_n S1)|apply (sy_k S1)|exact Hs2|exact HsC]).
  destruct (@backslash_spec env2 ol2 addr2 n k A2 C TMPQ o2 (sy_A S2) (sy_B S2) He2 (sy_n S2) (sy_sA S2) (sy_sB S2) ltac:(auto)) as [(_ & X2 & R2 & V2 & E2)|(HD' & _)]; [|contradiction].
  exists X1, C, X2. split; [reflexivity|]. split; [exact EC|]. split; [exact E2|].
  apply (@C87_known env3 ol3 addr3 n k A3 B X2 o3 S3 He3 R2).
  - apply same_sym. eapply same_trans; [apply times_same; [exact HA|apply same_refl]|]. eapply same_trans; [intros i j _ _; apply times_assoc|].
    eapply same_trans; [apply times_same; [apply same_refl|]|apply (solves_same S1 V1)]. eapply same_trans; [apply (solves_same S2 V2)|exact HC].
  - apply (Aval_det S3). eapply inv_same; [apply same_sym; exact HA|]. apply inv_times; [apply (Aval_det S1); exact D1|apply (Aval_det S2); exact D2].
Qed.

(*----------------------------------------------------------------------------*)
(* the hypotheses are met *)
Example C87_inverse_ex : exists X, me_run [1; 3; 2; 4] 2 [1; 0; 0; 1] = Ok (SOK, Out X) /\
  same 2 2 (times 2 (Aval (me [1; 3; 2; 4])) (Qent X)) unit /\ same 2 2 (times 2 (Qent X) (Aval (me [1; 3; 2; 4]))) unit.
Proof.
  assert (SY : system 2 2 (me [1; 3; 2; 4]) (mb 2 [1; 0; 0; 1])) by (apply me_system; reflexivity || lia).
  destruct (@C87_inverse exenv exol (fun _ => 0) 2 (me [1; 3; 2; 4]) (mb 2 [1; 0; 0; 1]) None SY (@ex_env _)) as [H|(H & D)].
  - intros i j Hi Hj. two Hi; two Hj; reflexivity.
  - exact H.
  - destruct D. apply (Aval_det SY). discriminate.
Qed.
(* [1 2; 3 4] * [1 1; 0 2] = [1 5; 3 11] *)
Example C87_product_ex : exists X1 C X2, me_run [1; 3; 2; 4] 1 [5; 6] = Ok (SOK, Out X1) /\
  matrix_copy None (fun _ => 0) true true KDENSE TMPZ (Some X1) = Ok C /\
  SLIP_backslash exenv exol (fun _ => 0) true true TMPQ (Some (me [1; 0; 1; 2])) (Some C) None = Ok (SOK, Out X2) /\
  me_run [1; 3; 5; 11] 1 [5; 6] = Ok (SOK, Out X2).
Proof.
  apply (@C87_product exenv exenv exenv exol exol exol (fun _ => 0) (fun _ => 0) (fun _ => 0) (fun _ => 0) 2 1 (me [1; 3; 2; 4]) (me [1; 0; 1; 2]) (me [1; 3; 5; 11]) (mb 1 [5; 6]) None None None None).
  - apply me_system; reflexivity || lia.
  - apply (@sy_A 2 1 _ (mb 1 [0; 0])). apply me_system; reflexivity || lia.
  - discriminate.
  - apply me_system; reflexivity || lia.
  - intros i j Hi Hj. two Hi; two Hj; reflexivity.
  - apply ex_env.
  - apply ex_env.
  - apply ex_env.
  - discriminate.
  - discriminate.
  - discriminate.
Qed.
