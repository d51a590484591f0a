(* Property C67: what the library returns passes its own SLIP_matrix_check.  Specification: MatSpec.v, ApiSpec.v. *)
From Coq Require Import QArith Qabs Qpower Lqa.
From Verif Require Import Base DetZ Spec SumQ MFactor MSolve PSolve PSolve2 PReach PTri PPivot PFactor PLU MMatrix MatSpec MApi ApiSpec PApi PMat PFloat PCopy PConv PRound PCheck PCopy2 Check LUEx PropMat PropMat2 PropLU PropLU2 PropMat3 PropMat4.
Set Implicit Arguments.
Set Bullet Behavior "Strict Subproofs".
Open Scope Z_scope.

Lemma nodup_map_in (A B : Type) (f : A -> B) l x y : NoDup (map f l) -> In x l -> In y l -> f x = f y -> x = y.
Proof.
  induction l as [|a l IH]; cbn; intros N Hx Hy E; [contradiction|]. inversion N as [|? ? Ha N']; subst.
  destruct Hx as [->|Hx], Hy as [->|Hy]; auto.
  - exfalso. apply Ha. rewrite E. now apply in_map.
  - exfalso. apply Ha. rewrite <- E. now apply in_map.
Qed.
Lemma nodup_map_on (A B : Type) (f : A -> B) l : NoDup l -> (forall x y, In x l -> In y l -> f x = f y -> x = y) -> NoDup (map f l).
Proof.
  induction l as [|a l IH]; cbn; intros N H; constructor; inversion N as [|? ? Ha N']; subst.
  - rewrite in_map_iff. intros (y & E & Hy). assert (y = a) by (apply H; auto). subst. contradiction.
  - apply IH; auto.
Qed.
Lemma csc_dupfree p i cx c : NoDup (map fst (csc_column p i cx c)) -> forall q q', rd p c <= q < rd p (c + 1) -> rd p c <= q' < rd p (c + 1) ->
  rd i q = rd i q' -> q = q'.
Proof.
  unfold csc_column. rewrite map_map. cbn [fst]. intros N q q' H1 H2. apply (nodup_map_in _ _ _ _ N); now apply in_zseq.
Qed.

(* a CSC matrix without duplicates is accepted *)
Lemma check_csc_accepts C p i cx : csc_ok C p i cx -> 1 <= m_nzmax C -> is_type (m_type C) ->
  (forall c q q', 0 <= c < m_n C -> rd p c <= q < rd p (c + 1) -> rd p c <= q' < rd p (c + 1) -> rd i q = rd i q' -> q = q') ->
  matrix_check true (Some C) = Ok tt.
Proof.
  intros CO Hz HT HD. dcsc CO. apply (@C30_check_csc C p i cx); auto.
  - intros _. lia.
  - split; auto. split; auto. split; auto. split; auto.
Qed.
Lemma check_trip_accepts C ti tj cx : trip_ok C ti tj cx -> 1 <= m_nzmax C -> is_type (m_type C) ->
  (forall k k', 0 <= k < m_nz C -> 0 <= k' < m_nz C -> rd ti k = rd ti k' -> rd tj k = rd tj k' -> k = k') ->
  matrix_check true (Some C) = Ok tt.
Proof.
  intros CO Hz HT HD. dtrip CO. apply (@C31_check_triplet C ti tj cx); auto; try lia. do 4 (split; auto). split; auto.
Qed.
Lemma check_dense_accepts C cx : dense_ok C cx -> 1 <= m_nzmax C -> is_type (m_type C) -> matrix_check true (Some C) = Ok tt.
Proof. intros CO Hz HT. ddense CO. apply (@C31_check_dense C cx); auto. lia. Qed.

(* C67 (copies).  Every copy of an accepted matrix is accepted, except dense to triplet (C37). *)
Theorem C67_copies_accepted o addr A nz x ck T yx s :
  stores A nz x -> 1 <= m_nzmax A -> matrix_check true (Some A) = Ok tt ->
  KCSC <= ck <= KDENSE -> is_type T -> 1 <= opt_prec o -> converted o addr T A yx s ->
  ~ (m_kind A = KDENSE /\ ck = KTRIP) ->
  exists C, matrix_copy o addr true true ck T (Some A) = Ok C /\ matrix_check true (Some C) = Ok tt.
Proof.
  intros HS Hzm HA HK HT Hp HC HN.
  destruct HS as [(p & i & C & HE)|[(i & j & C & HE)|(C & HE)]].
  - (* CSC source *)
    assert (HV : csc_valid (m_m A) (m_n A) p i).
    { pose proof C as C0. dcsc C. destruct (@C30_check_csc A p i x) as [[H _] _]; auto. intros _. lia. apply H. exact HA. }
    destruct HV as (V1 & V2 & V3 & V4).
    assert (Hck : ck = KCSC \/ ck = KTRIP \/ ck = KDENSE) by (unfold KCSC, KTRIP, KDENSE in *; lia). destruct Hck as [->|[->| ->]].
    + pose proof (csc_stores C) as HS. destruct (same_kind_copy HS HT HC) as (Y & E & Y1 & Y2 & Y3 & Y4 & _).
      assert (HKA : m_kind A = KCSC) by (dcsc C; auto). rewrite HKA in E.
      destruct (@C63_csc_copy o addr A p i x T Y C HT Hp E) as (i' & cx & CO & T1 & T2 & T3 & R).
      exists Y. split; auto. eapply check_csc_accepts; eauto; try (rewrite T1; auto). lia.
      intros c q q' Hc Hq Hq' Eq. rewrite T3 in Hc. pose proof C as C0. dcsc C0.
      pose proof (mono_le _ co_mono' (a := 0) (b := c)). pose proof (mono_le _ co_mono' (a := c + 1) (b := m_n A)).
      rewrite !R in Eq by lia. apply (V4 c); auto.
    + destruct (csc_to_trip_columns C HT Hp HC) as (Y & ti & tj & E & CO & C1 & C2 & C3 & C4 & C5 & C6 & C7 & C8 & C9).
      exists Y. split; auto. eapply check_trip_accepts; eauto. lia. rewrite C3; auto.
      intros k k' Hk Hk' E1 E2. pose proof CO as CO0. dtrip CO0. pose proof (to_col' k Hk) as Hcol.
      assert (N : NoDup (map fst (trip_column (m_nz Y) ti tj yx (rd tj k)))).
      { rewrite C9 by (rewrite <- C2; auto). unfold csc_column. rewrite map_map. cbn [fst]. apply nodup_map_on. apply nodup_zseq.
        intros a b Ha Hb. apply in_zseq in Ha, Hb. apply V4 with (rd tj k); auto. rewrite <- C2; auto. }
      unfold trip_column in N. rewrite map_map in N. cbn [fst] in N. apply (nodup_map_in _ _ _ _ N); auto; apply filter_In; split; try (apply in_zseq; lia); apply Z.eqb_eq; auto.
    + destruct (csc_to_dense_copy C HT Hp HC) as (Y & cx & E & CO & C1 & C2 & C3 & C4 & _).
      exists Y. split; auto. eapply check_dense_accepts; eauto. lia. rewrite C3; auto.
  - (* triplet source *)
    assert (HV : trip_valid (m_m A) (m_n A) (m_nz A) i j).
    { pose proof C as C0. dtrip C. destruct (@C31_check_triplet A i j x) as [[H _] _]; auto; try lia. apply H. exact HA. }
    destruct HV as (V1 & V2).
    assert (Hck : ck = KCSC \/ ck = KTRIP \/ ck = KDENSE) by (unfold KCSC, KTRIP, KDENSE in *; lia). destruct Hck as [->|[->| ->]].
    + destruct (trip_to_csc_copy C HT Hp HC) as (Y & p & i' & cx & E & CO & C1 & C2 & C3 & C4 & C5 & C6 & C7 & C8).
      exists Y. split; auto. eapply check_csc_accepts; eauto. lia. rewrite C3; auto.
      intros c q q' Hc Hq Hq' Eq. rewrite C2 in Hc. apply (@csc_dupfree p i' cx c); auto. rewrite C8 by auto.
      unfold trip_column. rewrite map_map. cbn [fst]. apply nodup_map_on. apply NoDup_filter, nodup_zseq.
      intros a b Ha Hb Eab. apply filter_In in Ha, Hb. destruct Ha as [Ha Ea], Hb as [Hb Eb]. apply in_zseq in Ha, Hb. apply Z.eqb_eq in Ea, Eb. apply V2; auto. congruence.
    + pose proof (trip_stores C) as HS. destruct (same_kind_copy HS HT HC) as (Y & E & Y1 & Y2 & Y3 & Y4 & _).
      assert (HKA : m_kind A = KTRIP) by (dtrip C; auto). rewrite HKA in E.
      destruct (@C63_triplet_copy o addr A i j x T Y C HT Hp E) as (i' & j' & cx & CO & T1 & T2 & T3 & T4 & R).
      exists Y. split; auto. eapply check_trip_accepts; eauto; try (rewrite T1; auto). lia.
      rewrite T4. intros k k' Hk Hk'. destruct (R k Hk) as [-> ->]. destruct (R k' Hk') as [-> ->]. auto.
    + destruct (trip_to_dense_copy C HT Hp HC) as (Y & cx & E & CO & C1 & C2 & C3 & C4 & _).
      exists Y. split; auto. eapply check_dense_accepts; eauto. lia. rewrite C3; auto.
  - (* dense source *)
    assert (HKA : m_kind A = KDENSE) by (ddense C; auto).
    assert (Hck : ck = KCSC \/ ck = KTRIP \/ ck = KDENSE) by (unfold KCSC, KTRIP, KDENSE in *; lia). destruct Hck as [->|[->| ->]].
    + destruct (dense_to_csc_copy C HT Hp HC) as (Y & p & i' & cx & E & CO & C1 & C2 & C3 & C4 & C5 & C6 & C7 & C8).
      exists Y. split; auto. eapply check_csc_accepts; eauto. lia. rewrite C3; auto.
      intros c q q' Hc Hq Hq' Eq. rewrite C2 in Hc. apply (@csc_dupfree p i' cx c); auto. rewrite C8 by auto.
      unfold dense_column. rewrite map_map. cbn [fst]. rewrite map_id. apply NoDup_filter, nodup_zseq.
    + exfalso. apply HN. auto.
    + pose proof (dense_stores C) as HS. destruct (same_kind_copy HS HT HC) as (Y & E & Y1 & Y2 & Y3 & Y4 & _). rewrite HKA in E.
      destruct (@C63_dense_copy o addr A x T Y C HT Hp E) as (cx & CO & T1 & T2 & T3).
      exists Y. split; auto. eapply check_dense_accepts; eauto; try (rewrite T1; auto). lia.
Qed.
Example C67_ex := fun yx s => @C67_copies_accepted None (fun _ => 1) exC _ _ KTRIP TMPZ yx s (csc_stores exC_ok) ltac:(vm_compute; discriminate) C30_accepts
  ltac:(vm_compute; split; discriminate) ltac:(vm_compute; split; discriminate) ltac:(vm_compute; discriminate).
Example C67_ex1 : exists yx s, converted None (fun _ => 1) TMPZ exC yx s.
Proof. do 2 eexists. eexists. split; [reflexivity|]. split; reflexivity. Qed.

(* C67 (factors and solutions) *)
Theorem C67_factors_accepted : forall env n A An o F,
  int_csc n n A -> 1 <= n -> usable n An -> env_ok env (opt_pivot o) ->
  SLIP_LU_factorize env true true (Some A) (Some An) o = Ok (SOK, Out F) ->
  matrix_check true (Some (lu_L F)) = Ok tt /\ matrix_check true (Some (lu_U F)) = Ok tt /\ matrix_check true (Some (lu_rhos F)) = Ok tt.
Proof.
  intros env n A An o F IC Hn US He EF.
  destruct (factorize_ok_inv o IC US He EF) as (Ap & Ai & Ax & F0 & R & Hp & Hi & Hx & V & -> & K & _).
  assert (HV : forall Mp Mi Mx, valid_csc n n Mp Mi Mx -> 1 <= rd Mp n -> matrix_check true (Some (csc_matrix n Mp Mi Mx)) = Ok tt).
  { intros Mp Mi Mx VM H1. pose proof (v_cap VM).
    apply (@C30_check_csc (csc_matrix n Mp Mi Mx) Mp Mi (VZ Mx)); simpl; auto; try lia.
    - intros _. rewrite (v_p VM). lia.
    - split; [lia|]. split; [lia|]. split; [vm_compute; split; discriminate|]. split; [apply (v_0 VM)|]. split; [apply (v_mono VM)|]. split; [apply (v_i VM)|]. apply (v_dup VM). }
  split; [|split].
  - apply HV. apply (fk_L K). pose proof (@entL n _ R F0 K 0 0 ltac:(lia) ltac:(lia)) as H.
    destruct (Z_le_dec 1 (rd (fac_Lp F0) n)) as [|L]; auto. exfalso.
    destruct (fk_rho K (j := 0) ltac:(lia)) as [E N]. rewrite lead_S in E by lia. simpl in H. rewrite <- E in H.
    pose proof (v_0 (fk_L K)) as H0. assert (EL : ent (fac_Lp F0) (fac_Li F0) (fac_Lx F0) 0 0 = 0); [|rewrite EL in H; congruence].
    apply ent_none. intros q Hq. exfalso. pose proof (mono_le _ (v_mono (fk_L K)) (a := 0 + 1) (b := n)). lia.
  - apply HV. apply (fk_U K). destruct (U_last K (c := n - 1) ltac:(lia)) as (H1 & _). replace (n - 1 + 1) with n in H1 by lia.
    pose proof (mono_le _ (v_mono (fk_U K)) (a := 0) (b := n - 1)). rewrite (v_0 (fk_U K)) in *. lia.
  - apply (@C31_check_dense (dense_matrix n 1 (fac_rhos F0)) (VZ (fac_rhos F0))); simpl; auto. lia. split. lia. split. lia. vm_compute; split; discriminate.
Qed.
Example C67_ex2 := @C67_factors_accepted exenv 4 exA exAn None _ ex_csc ex_n ex_usable (@ex_env _) ex_factorize.
Theorem C67_solution_accepted : forall env n nrhs A B An o o' F X,
  int_csc n n A -> int_dense n nrhs B -> 1 <= n -> ~ (m_scale A == 0)%Q -> ~ (m_scale B == 0)%Q ->
  usable n An -> env_ok env (opt_pivot o) ->
  SLIP_LU_factorize env true true (Some A) (Some An) o = Ok (SOK, Out F) ->
  SLIP_LU_solve true true (Some B) (Some A) (Some (lu_L F)) (Some (lu_U F)) (Some (lu_rhos F)) (Some An) (Some (lu_pinv F)) o' = Ok (SOK, Out X) ->
  matrix_check true (Some X) = Ok tt.
Proof.
  intros env n nrhs A B An o o' F X IC ID Hn HsA HsB US He EF EX.
  destruct (@solve_of_factors env n nrhs A B An o o' F IC ID Hn HsA HsB US He EF) as (_ & X' & EX' & RX & _). rewrite EX in EX'. injection EX' as <-.
  destruct RX as [R1 R2 R3 R4 R5 (R6 & _) (x & Ex & _)]. apply (@C31_check_dense X (VQ x)); auto. lia.
  rewrite R1, R2, R4. pose proof (id_pos ID). split. lia. split. lia. vm_compute; split; discriminate.
Qed.
Example C67_ex3 := @C67_solution_accepted exenv 4 2 exA exB exAn None None _ _ ex_csc ex_dense ex_n ex_scaleA ex_scaleB ex_usable (@ex_env _) ex_factorize ex_solve.
