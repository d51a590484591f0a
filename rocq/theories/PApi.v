(* Proofs about the drivers SLIP_LU_analyze, SLIP_LU_factorize, SLIP_LU_solve, SLIP_backslash. *)
From Verif Require Import Base DetZ Spec SumQ MFactor PTri PPivot PFactor MSolve PSolve PSolve2 PLU MMatrix MApi ApiSpec.
From Verif Require PCol13 PCol16 PAmd20 PAmd21.
Set Implicit Arguments.
Open Scope Z_scope.

Lemma csc_pattern m n Ap Ai Ax : valid_csc m n Ap Ai Ax -> valid_pattern m n Ap Ai.
Proof. intros [? ? ? ? ? ? ? ? ?]; constructor; auto. Qed.

(* the copy loops *)
Lemma conv_loop_spec A B (da : A) (db : B) n (f : A -> res B) x y E : 0 <= n -> n <= zlen x -> n <= zlen y ->
  (forall k, 0 <= k < n -> wp (f (rdg da x k)) (fun _ => True) E) ->
  wp (conv_loop n f x y) (fun y' => zlen y' = zlen y /\
     (forall k, 0 <= k < n -> f (rdg da x k) = Ok (rdg db y' k)) /\
     (forall k, n <= k < zlen y -> rdg db y' k = rdg db y k)) E.
Proof.
  intros Hn Hx Hy Hf. unfold conv_loop.
  eapply wp_conseq.
  - apply wp_for with (I := fun i y' => zlen y' = zlen y /\ (forall k, 0 <= k < i -> f (rdg da x k) = Ok (rdg db y' k)) /\
       (forall k, i <= k < zlen y -> rdg db y' k = rdg db y k)); auto.
    + repeat split; auto. intros; lia.
    + intros i y' Hi (H1 & H2 & H3). rewrite (get_rdg da) by lia. cbn [bind]. apply wp_bind.
      specialize (Hf i Hi). destruct (f (rdg da x i)) as [w| | |] eqn:Ef; simpl in *; auto.
      rewrite set_wrg by lia. simpl. rewrite zlen_wrg. split; auto. split.
      * intros k Hk. rewrite rdg_wrg by lia. destruct (Z.eqb_spec k i); subst; auto. apply H2; lia.
      * intros k Hk. rewrite rdg_wrg by lia. destruct (Z.eqb_spec k i); try lia. apply H3; lia.
  - intros y' H. exact H.
Qed.

Lemma rdg_rd l i : rdg 0 l i = rd l i.
Proof. reflexivity. Qed.

Lemma memcpy_spec A (d : A) (C S : list A) nz E : 0 <= nz -> nz <= zlen C -> nz <= zlen S ->
  wp (memcpy C S nz) (fun C' => zlen C' = zlen C /\ (forall k, 0 <= k < nz -> rdg d C' k = rdg d S k) /\
     (forall k, nz <= k < zlen C -> rdg d C' k = rdg d C k)) E.
Proof.
  intros H1 H2 H3. unfold memcpy. eapply wp_conseq. apply (@conv_loop_spec A A d d); auto.
  - intros; exact I.
  - intros C' (G1 & G2 & G3). split; auto. split; auto. intros k Hk. specialize (G2 k Hk). now inversion G2.
Qed.

Lemma list_extg A (d : A) (a b : list A) : zlen a = zlen b -> (forall i, 0 <= i < zlen a -> rdg d a i = rdg d b i) -> a = b.
Proof.
  intros Hl H. apply (nth_ext _ _ d d). unfold zlen in Hl; lia.
  intros n Hn. specialize (H (Z.of_nat n)). unfold rdg, zlen in H. rewrite Nat2Z.id in H. apply H. lia.
Qed.

Lemma memcpy_all A (C S : list A) n E : zlen C = n -> zlen S = n -> wp (memcpy C S n) (fun C' => C' = S) E.
Proof.
  intros H1 H2. pose proof (zlen_nonneg C).
  destruct S as [|d S]. { unfold zlen in *; simpl in *. subst n. destruct C; simpl in *; auto. lia. }
  eapply wp_conseq. apply (@memcpy_spec A d); lia. intros C' (G1 & G2 & _). apply (list_extg d). lia.
  intros i Hi. apply G2. lia.
Qed.

(*----------------------------------------------------------------------------*)
Lemma nnz_csc m n A Ap Ai : m_kind A = KCSC -> m_n A = n -> m_p A = Some Ap -> valid_pattern m n Ap Ai ->
  matrix_nnz true (Some A) = Ok (rd Ap n) /\ 0 <= rd Ap n.
Proof.
  intros Hk Hn Hp V. unfold matrix_nnz. simpl. rewrite Hk, Hp, Hn. change (KCSC =? KCSC) with true. cbn iota.
  pose proof (vp_n V). pose proof (vp_p V). destruct (Z.ltb_spec n 0); try lia. split. apply get_rd. lia.
  assert (G : forall k, Z.of_nat k <= n -> 0 <= rd Ap (Z.of_nat k)).
  { induction k; intros Hk'. simpl. rewrite (vp_0 V). lia.
    replace (Z.of_nat (S k)) with (Z.of_nat k + 1) by lia. pose proof (vp_mono V (c := Z.of_nat k) ltac:(lia)). lia. }
  specialize (G (Z.to_nat n)). rewrite Z2Nat.id in G by lia. lia.
Qed.

Lemma fix_estimate_ge n e lnz unz : 0 <= n -> 0 <= e -> fix_estimate n e e = (lnz, unz) -> n <= lnz /\ n <= unz.
Proof.
  intros Hn He. unfold fix_estimate. destruct (e >? n * n) eqn:G.
  - assert (0 <= (n * n + 1) / 2) by (apply Z.div_pos; nia).
    destruct (Z.ltb_spec ((n * n + 1) / 2) n); intros [= <- <-]; lia.
  - destruct (Z.ltb_spec e n); intros [= <- <-]; lia.
Qed.

Lemma fix_estimate_le n e lnz unz : 1 <= n -> fix_estimate n e e = (lnz, unz) -> lnz <= n * n /\ unz <= n * n.
Proof.
  intros Hn. unfold fix_estimate. destruct (Z.gtb_spec e (n * n)) as [G|G].
  - assert ((n * n + 1) / 2 <= n * n) by (apply Z.div_le_upper_bound; nia).
    destruct (Z.ltb_spec ((n * n + 1) / 2) n); intros [= <- <-]; [|lia]. assert ((n * n + 1) / 2 + n <= n * n); [|lia].
    assert (n <= 1 \/ n = 2 \/ 3 <= n) as [G0|[->|G0]] by lia; [|cbn; lia|nia]. replace n with 1 in * by lia. cbn in *. lia.
  - assert (2 * n - 1 <= n * n) by nia. destruct (Z.ltb_spec e n); intros [= <- <-]; lia.
Qed.

(* the call of COLAMD *)
Lemma zlen_malloced ol b k : 0 <= k -> zlen (malloced ol b k) = k.
Proof. intros H. unfold malloced, zlen. rewrite map_length. fold (zlen (zseq 0 k)). rewrite zlen_zseq; lia. Qed.
Lemma colamd_l_ok ol n Ap Ai a2 : valid_pattern n n Ap Ai -> zlen a2 = 2 * rd Ap n + 12 * (n + 1) + n -> (forall p, 0 <= p < rd Ap n -> rd a2 p = rd Ai p) ->
  wp (colamd_l ol n Ap a2) (is_perm n) nerr.
Proof.
  intros V L E. pose proof (vp_n V) as Hn. unfold colamd_l.
  assert (mono : forall x y, 0 <= x -> x <= y -> y <= n -> rd Ap x <= rd Ap y) by (apply PCol13.mono_le; apply V).
  assert (W : wp (MColamd.colamd true n n (ol_dense ol n) (ol_dense ol n) a2 Ap) (fun q => is_perm n q /\ zlen q = n + 1) nerr).
  { apply PCol16.colamd_ok; auto; try apply V; try lia.
    - intros j Hj. rewrite E by exact Hj. apply (vp_i V Hj).
    - intros x i j Hx Hi Hj X. pose proof (vp_0 V). pose proof (mono 0 x). pose proof (mono (x + 1) n). rewrite !E in X by lia. apply (vp_dup V Hx); auto. }
  apply wp_ok_ex in W. destruct W as (q & -> & HQ & _). exact HQ.
Qed.

(* AMD on a valid pattern *)
Lemma amd_l_order_ok ol n Ap Ai : valid_pattern n n Ap Ai -> wp (amd_l_order ol n Ap Ai) (fun st => is_perm n (fst st) /\ (n <> 0 -> 0 <= snd st /\ 2 * snd st <= n * (n - 1))) nerr.
Proof.
  intros V. pose proof (vp_n V) as Hn. unfold amd_l_order. destruct (Z.eq_dec n 0) as [->|N].
  - change (wp (Ok (malloced ol 0 (0 + 1), -1)) (fun st : list Z * Z => is_perm 0 (fst st) /\ (0 <> 0 -> 0 <= snd st /\ 2 * snd st <= 0 * (0 - 1))) nerr). cbn [wp fst snd]. split; [|lia]. split; [rewrite zlen_malloced; lia|]. split; intros; lia.
  - assert (JP : PAmd20.jpat n Ap Ai). { constructor; try lia; try apply V. rewrite (vp_p V). lia. }
    pose proof (PAmd21.amd_order_ok (ol_junk ol) true (ol_amd_dense ol n) JP) as W. apply wp_ok_ex in W. destruct W as (r & E & q & lnz & -> & HL & HP & H0). rewrite E. cbn [wp fst snd]. split; [|intros _; exact H0].
    destruct HP as (P1 & P2 & P3). split. rewrite zlen_app. unfold zlen at 2; simpl; lia. split.
    intros i Hi'. rewrite rd_app1 by lia. auto. intros i j Hi' Hj. rewrite !rd_app1 by lia. auto.
Qed.

(* SLIP_LU_analyze on any square matrix object (values of any type) with a valid pattern *)
Theorem analyze_spec ol A Ap Ai n o :
  m_kind A = KCSC -> m_m A = n -> m_n A = n -> m_p A = Some Ap -> m_i A = Some Ai -> valid_pattern n n Ap Ai ->
  exists An, SLIP_LU_analyze ol true true (Some A) o = Ok (SOK, Out An) /\ (is_perm n (s_q An) /\ n <= Z.max (s_lnz An) 0 /\ n <= Z.max (s_unz An) 0) /\
    (opt_order o = ORD_NONE -> forall c, 0 <= c < n -> rd (s_q An) c = c) /\ (1 <= n -> s_lnz An <= n * n /\ s_unz An <= n * n).
Proof.
  intros Hk Hm Hn Hp Hi V. destruct (nnz_csc A Hk Hn Hp V) as [Hz Hz0].
  unfold SLIP_LU_analyze. simpl negb. cbn iota. unfold has_kind. rewrite Hk. change (KCSC =? KCSC) with true. simpl negb. cbn iota.
  rewrite Hm, Hn, Z.eqb_refl. simpl. unfold matrix_nnz in Hz |- *. simpl in Hz |- *. rewrite Hz.
  pose proof (vp_n V) as Hn0. pose proof (vp_p V) as Hpl. pose proof (vp_cap V).
  assert (W : wp (analyze_core ol (opt_order o) A (rd Ap n)) (fun An => (is_perm n (s_q An) /\ n <= Z.max (s_lnz An) 0 /\ n <= Z.max (s_unz An) 0) /\
    (opt_order o = ORD_NONE -> forall c, 0 <= c < n -> rd (s_q An) c = c) /\ (1 <= n -> s_lnz An <= n * n /\ s_unz An <= n * n)) nerr).
  { unfold analyze_core. rewrite Hp, Hi, Hn. cbn [deref bind].
    assert (G : wp (if opt_order o =? ORD_NONE then Ok (zseq 0 (n + 1), 10 * rd Ap n)
     else if opt_order o =? ORD_AMD then
       amd_l_order ol n Ap Ai
     else
       let* q0 := memcpy (malloced ol 0 (n + 1)) Ap (n + 1) in
       let* a2 := memcpy (malloced ol 4 (2 * rd Ap n + 12 * (n + 1) + n)) Ai (rd Ap n) in
       let* q := colamd_l ol n q0 a2 in
       Ok (q, 10 * rd Ap n))
       (fun st => is_perm n (fst st) /\ (n <> 0 -> 0 <= snd st) /\ (opt_order o = ORD_NONE -> forall c, 0 <= c < n -> rd (fst st) c = c)) nerr).
    { destruct (Z.eqb_spec (opt_order o) ORD_NONE) as [e|e].
      - cbn [wp fst snd]. split. 2:{ split. lia. intros _ c Hc. rewrite rd_zseq by lia. lia. }
        split. rewrite zlen_zseq; lia. split. intros i Hi'. rewrite rd_zseq; lia.
        intros i j Hi' Hj. rewrite !rd_zseq; lia.
      - destruct (Z.eqb_spec (opt_order o) ORD_AMD) as [e'|e'].
        + eapply wp_conseq; [apply (@amd_l_order_ok ol n Ap Ai V)|]. intros [q lnz] (HP & Hl). cbn [fst snd]. split; [exact HP|]. split; [intros N; apply (Hl N)|]. intros e0; contradiction.
        + apply wp_bind. eapply wp_conseq. apply memcpy_all. apply zlen_malloced; lia. auto. intros q0 ->.
          apply wp_bind. eapply wp_conseq. apply (@memcpy_spec Z 0); auto. rewrite zlen_malloced; lia.
          intros a2 (La & Ha & _). rewrite zlen_malloced in La by lia. apply wp_bind. eapply wp_conseq; [apply (@colamd_l_ok ol n Ap Ai a2 V); [lia|intros p Hpp; apply (Ha p Hpp)]|].
          intros q HQ. cbn [wp fst snd]. split; [exact HQ|]. split. lia. intros e0; contradiction. }
    apply wp_bind. eapply wp_conseq. exact G. intros [q e] (G1 & G2 & G3). simpl in *.
    destruct (fix_estimate n e e) as [lnz unz] eqn:Ef. simpl.
    assert (G4 : n <= Z.max lnz 0 /\ n <= Z.max unz 0). { destruct (Z.eq_dec n 0) as [->|N]; [lia|]. destruct (fix_estimate_ge Hn0 (G2 N) Ef). lia. }
    split. split; auto. split; [auto|]. intros H1. destruct (@fix_estimate_le n e lnz unz H1 Ef). auto. }
  apply wp_ok_ex in W. destruct W as (An & E & H1). rewrite E. simpl. eauto.
Qed.

(*----------------------------------------------------------------------------*)
Lemma fac_det n Ap Ai Ax q R F : 0 <= n -> is_perm n q -> fac_ok n (colmat Ap Ai Ax q) R F ->
  (lead (colmat Ap Ai Ax q) R n = detz n (ent Ap Ai Ax) \/ lead (colmat Ap Ai Ax q) R n = - detz n (ent Ap Ai Ax)).
Proof.
  intros Hn (Q1 & Q2 & Q3) K. unfold lead, colmat.
  destruct (@detz_rows n (fun i c => ent Ap Ai Ax i (rd q c)) R) as [E|E].
  { intros. now apply (fk_R K). }
  { intros i j Hi Hj He. destruct (fk_R K Hi) as [_ <-]. destruct (fk_R K Hj) as [_ <-]. now rewrite He. }
  all: destruct (@detz_cols n (ent Ap Ai Ax) (rd q)) as [E'|E']; auto; rewrite E, E'; lia.
Qed.
Lemma fac_det_nz n Ap Ai Ax q R F : 0 <= n -> is_perm n q -> fac_ok n (colmat Ap Ai Ax q) R F -> detz n (ent Ap Ai Ax) <> 0.
Proof. intros Hn HQ K. destruct (fac_det Hn HQ K) as [E|E]; pose proof (fac_lead_nz K (j := n)); lia. Qed.

Theorem factorize_spec env n A An o :
  int_csc n n A -> usable n An -> env_ok env (opt_pivot o) ->
  (exists Ap Ai Ax F R, m_p A = Some Ap /\ m_i A = Some Ai /\ m_x A = Some (VZ Ax) /\ valid_csc n n Ap Ai Ax /\
     SLIP_LU_factorize env true true (Some A) (Some An) o = Ok (SOK, Out (lu_of n F)) /\
     fac_ok n (colmat Ap Ai Ax (s_q An)) R F /\ detz n (Cent A) <> 0) \/
  (SLIP_LU_factorize env true true (Some A) (Some An) o = Ok (SErr SLIP_SINGULAR, Null) /\ detz n (Cent A) = 0).
Proof.
  intros IC (HQ & Hl) He. destruct (ic_arr IC) as (Ap & Ai & Ax & Hp & Hi & Hx & V).
  destruct (nnz_csc A (ic_kind IC) (ic_n IC) Hp (csc_pattern V)) as [Hz Hz0].
  unfold SLIP_LU_factorize. simpl negb. cbn iota. unfold has_kt. rewrite (ic_kind IC), (ic_type IC).
  change (KCSC =? KCSC) with true. change (TMPZ =? TMPZ) with true. simpl negb. cbn iota.
  rewrite Hz. destruct (Z.ltb_spec (rd Ap n) 0); try lia. simpl. unfold xmpz. rewrite Hp, Hi, Hx. cbn [deref bind].
  rewrite (ic_n IC).
  assert (HD : detz n (Cent A) = detz n (ent Ap Ai Ax)).
  { unfold Cent. rewrite Hp, Hi, Hx. reflexivity. }
  assert (Hn : 0 <= n) by apply (v_n V).
  pose proof (@factorize_core_spec env (opt_pivot o) (opt_tol o) n Ap Ai Ax (s_q An) (s_lnz An) (s_unz An) V HQ He Hl) as W.
  apply wp_exists in W. destruct W as [(F & E & R & K)|(e & E & -> & D)]; rewrite E; cbn [bind finish].
  - left. exists Ap, Ai, Ax, F, R. split; auto. split; auto. split; auto. split; auto. split; auto. split; auto. rewrite HD.
    eapply fac_det_nz; eauto.
  - right. rewrite HD. auto.
Qed.

(*----------------------------------------------------------------------------*)
Theorem solve_spec n nrhs A B Ap Ai Ax q lnz unz F R o :
  int_csc n n A -> m_p A = Some Ap -> m_i A = Some Ai -> m_x A = Some (VZ Ax) -> valid_csc n n Ap Ai Ax -> int_dense n nrhs B ->
  is_perm n q -> 1 <= n -> ~ (m_scale A == 0)%Q -> ~ (m_scale B == 0)%Q ->
  fac_ok n (colmat Ap Ai Ax q) R F ->
  exists X, SLIP_LU_solve true true (Some B) (Some A) (Some (lu_L (lu_of n F))) (Some (lu_U (lu_of n F))) (Some (lu_rhos (lu_of n F)))
              (Some (mkS q lnz unz)) (Some (lu_pinv (lu_of n F))) o = Ok (SOK, Out X) /\
    rat_dense n nrhs X /\ solves n A B X.
Proof.
  intros IC Hp Hi Hx V ID HQ Hn HsA HsB K. destruct (id_arr ID) as (b & Hb & Hbl).
  destruct (id_pos ID) as [_ Hr].
  destruct (wp_ok_ex _ _ (@solve_core_spec n nrhs Ap Ai Ax (m_scale A) b (m_scale B) F q R (opt_check o) V HQ Hn Hr Hbl HsA HsB K))
    as (X & E & HX1 & HX2 & HX3).
  exists (mkM n nrhs (zlen X) 0 KDENSE TMPQ None None None (Some (VQ X)) 1%Q). split; [|split].
  - unfold SLIP_LU_solve, has_kt, lu_of, csc_matrix, dense_matrix; simpl.
    rewrite (ic_kind IC), (ic_type IC), (ic_m IC), (ic_n IC), (id_kind ID), (id_type ID), (id_m ID), (id_n ID).
    simpl. rewrite !Z.eqb_refl. simpl. unfold xmpz. rewrite Hp, Hi, Hx, Hb. cbn [deref bind m_x csc_matrix dense_matrix].
    destruct F as [f1 f2 f3 f4 f5 f6 f7 f8]. cbn [fac_Lp fac_Li fac_Lx fac_Up fac_Ui fac_Ux fac_rhos fac_pinv] in *. rewrite E. reflexivity.
  - constructor; simpl; auto. exists X. split; auto.
  - intros i r Hi' Hr'. simpl in *. rewrite (id_n ID) in Hr'. specialize (HX3 i r Hi' Hr').
    unfold Cent, Dent, Qent. simpl. rewrite Hp, Hi, Hx, Hb, (id_m ID). exact HX3.
Qed.

(* equality of integer solutions *)
Lemma solves_unique n nrhs A B X Y : int_csc n n A -> int_dense n nrhs B -> detz n (Cent A) <> 0 -> ~ (m_scale A == 0)%Q ->
  rat_dense n nrhs X -> rat_dense n nrhs Y -> solves n A B X -> solves n A B Y ->
  forall i r, 0 <= i < n -> 0 <= r < nrhs -> Qent X i r = Qent Y i r.
Proof.
  intros IC ID HD HsA RX RY SX SY i r Hi Hr.
  destruct (ic_arr IC) as (Ap & Ai & Ax & Hp & Hi' & Hx & V). destruct (id_arr ID) as (b & Hb & Hbl).
  destruct (rq_arr RX) as (x & Ex & Lx & Cx). destruct (rq_arr RY) as (y & Ey & Ly & Cy).
  assert (HD' : detz n (ent Ap Ai Ax) <> 0).
  { unfold Cent in HD. rewrite Hp, Hi', Hx in HD. exact HD. }
  assert (EX : exact_solution n nrhs Ap Ai Ax (m_scale A) b (m_scale B) x).
  { intros i' r' Hi1 Hr1. specialize (SX i' r' Hi1). rewrite (id_n ID) in SX. specialize (SX Hr1).
    unfold Cent, Dent, Qent in SX. rewrite Hp, Hi', Hx, Hb, (id_m ID), Ex, (rq_m RX) in SX. exact SX. }
  assert (EY : exact_solution n nrhs Ap Ai Ax (m_scale A) b (m_scale B) y).
  { intros i' r' Hi1 Hr1. specialize (SY i' r' Hi1). rewrite (id_n ID) in SY. specialize (SY Hr1).
    unfold Cent, Dent, Qent in SY. rewrite Hp, Hi', Hx, Hb, (id_m ID), Ey, (rq_m RY) in SY. exact SY. }
  unfold Qent. rewrite Ex, Ey, (rq_m RX), (rq_m RY).
  apply canon_eq. apply all_canon_rdq; auto. apply all_canon_rdq; auto.
  eapply solution_unique; eauto. lia.
Qed.

Lemma rat_dense_ext n nrhs X Y : 1 <= n -> 1 <= nrhs -> rat_dense n nrhs X -> rat_dense n nrhs Y ->
  (forall i r, 0 <= i < n -> 0 <= r < nrhs -> Qent X i r = Qent Y i r) -> X = Y.
Proof.
  intros Hn Hr RX RY H. destruct (rq_arr RX) as (x & Ex & Lx & Cx). destruct (rq_arr RY) as (y & Ey & Ly & Cy).
  assert (x = y) as <-.
  2:{ destruct (rq_rest RX) as (A1 & A2 & A3 & A4 & A5). destruct (rq_rest RY) as (B1 & B2 & B3 & B4 & B5).
      pose proof (rq_m RX). pose proof (rq_n RX). pose proof (rq_kind RX). pose proof (rq_type RX). pose proof (rq_scale RX).
      pose proof (rq_m RY). pose proof (rq_n RY). pose proof (rq_kind RY). pose proof (rq_type RY). pose proof (rq_scale RY).
      destruct X, Y. simpl in *. congruence. }
  apply (list_extg 0%Q). lia. intros k Hk.
  assert (Hk' : 0 <= k < n * nrhs) by nia.
  assert (Hm : 0 <= k mod n < n) by (apply Z.mod_pos_bound; lia).
  assert (Hd : 0 <= k / n < nrhs). { split. apply Z.div_pos; lia. apply Z.div_lt_upper_bound; lia. }
  specialize (H (k mod n) (k / n) Hm Hd). unfold Qent in H. rewrite Ex, Ey, (rq_m RX), (rq_m RY) in H.
  replace (k mod n + k / n * n) with k in H by (pose proof (Z.div_mod k n); lia). exact H.
Qed.

(*----------------------------------------------------------------------------*)
(* SLIP_backslash, up to the final conversion of the solution *)
Theorem backslash_spec env ol addr n nrhs A B type o :
  int_csc n n A -> int_dense n nrhs B -> env_ok env (opt_pivot o) ->
  1 <= n -> ~ (m_scale A == 0)%Q -> ~ (m_scale B == 0)%Q -> type = TMPQ \/ type = TDBL \/ type = TMPFR ->
  (detz n (Cent A) <> 0 /\ exists X, rat_dense n nrhs X /\ solves n A B X /\
     SLIP_backslash env ol addr true true type (Some A) (Some B) o =
       finish (if type =? TMPQ then Ok X else matrix_copy o addr true true KDENSE type (Some X))) \/
  (detz n (Cent A) = 0 /\ SLIP_backslash env ol addr true true type (Some A) (Some B) o = Ok (SErr SLIP_SINGULAR, Null)).
Proof.
  intros IC ID He Hn HsA HsB HT. destruct (ic_arr IC) as (Ap & Ai & Ax & Hp & Hi & Hx & V).
  destruct (@analyze_spec ol A Ap Ai n o (ic_kind IC) (ic_m IC) (ic_n IC) Hp Hi (csc_pattern V)) as (An & EA & US' & _).
  assert (US : usable n An) by (destruct US' as (U1 & U2 & U3); split; auto; lia).
  assert (EB : SLIP_backslash env ol addr true true type (Some A) (Some B) o =
    finish (call (SLIP_LU_factorize env true true (Some A) (Some An) o) (fun F =>
    call (SLIP_LU_solve true true (Some B) (Some A) (Some (lu_L F)) (Some (lu_U F)) (Some (lu_rhos F)) (Some An) (Some (lu_pinv F)) o) (fun x =>
    if type =? TMPQ then Ok x else matrix_copy o addr true true KDENSE type (Some x))))).
  { unfold SLIP_backslash. unfold has_kt. rewrite (ic_kind IC), (ic_type IC), (id_kind ID), (id_type ID). rewrite EA.
    destruct HT as [->|[-> | ->]]; reflexivity. }
  rewrite EB. destruct An as [q lnz unz].
  destruct (@factorize_spec env n A (mkS q lnz unz) o IC US He) as
    [(Ap' & Ai' & Ax' & F & R & Hp' & Hi' & Hx' & V' & EF & K & HD)|(EF & HD)].
  - left. split; auto.
    destruct (@solve_spec n nrhs A B Ap' Ai' Ax' q lnz unz F R o IC Hp' Hi' Hx' V' ID (proj1 US) Hn HsA HsB K) as (X & ES & RX & SX).
    exists X. split; auto. split; auto. rewrite EF. cbn [call]. rewrite ES. reflexivity.
  - right. split; auto. rewrite EF. reflexivity.
Qed.
