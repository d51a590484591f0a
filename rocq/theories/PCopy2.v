(* SLIP_matrix_copy: columns of the triplet results, and dense to triplet *)
From Verif Require Import Base DetZ Spec SumQ MSolve PSolve MMatrix MatSpec PApi PMat PFloat PCopy PCheck.
Set Implicit Arguments.
Set Bullet Behavior "Strict Subproofs".
Open Scope Z_scope.

Lemma zseq_app a b c : a <= b <= c -> zseq a c = zseq a b ++ zseq b c.
Proof.
  intros [H1 H2]. replace c with (b + Z.of_nat (Z.to_nat (c - b))) by lia. induction (Z.to_nat (c - b)) as [|m IH].
  - rewrite Z.add_0_r, (@zseq_nil b) by lia. now rewrite app_nil_r.
  - replace (b + Z.of_nat (S m)) with (b + Z.of_nat m + 1) by lia. rewrite !zseq_snoc by lia. rewrite IH, app_assoc. reflexivity.
Qed.
Lemma filter_all T (f : T -> bool) l : (forall a, In a l -> f a = true) -> filter f l = l.
Proof. induction l as [|a l IH]; intros H; simpl; auto. rewrite H by (left; auto). f_equal. apply IH. intros; apply H; right; auto. Qed.
Lemma filter_none T (f : T -> bool) l : (forall a, In a l -> f a = false) -> filter f l = [].
Proof. induction l as [|a l IH]; intros H; simpl; auto. rewrite H by (left; auto). apply IH. intros; apply H; right; auto. Qed.

Lemma cols_filter p n tj c : rd p 0 = 0 -> (forall c, 0 <= c < n -> rd p c <= rd p (c + 1)) ->
  (forall c q, 0 <= c < n -> rd p c <= q < rd p (c + 1) -> rd tj q = c) -> 0 <= c < n ->
  filter (fun k => rd tj k =? c) (zseq 0 (rd p n)) = zseq (rd p c) (rd p (c + 1)).
Proof.
  intros H0 Hm Hj Hc. pose proof (mono_le _ Hm) as ML.
  pose proof (ML 0 c ltac:(lia) ltac:(lia)). pose proof (ML (c + 1) n ltac:(lia) ltac:(lia)). pose proof (Hm c Hc).
  assert (U : forall q, 0 <= q < rd p n -> rd tj q = c -> rd p c <= q < rd p (c + 1)).
  { intros q Hq E. destruct (@find_col p n q H0 ltac:(lia) Hq) as (c' & Hc' & Hq'). rewrite (Hj c' q Hc' Hq') in E. subst. auto. }
  rewrite (@zseq_app 0 (rd p c) (rd p n)) by lia. rewrite (@zseq_app (rd p c) (rd p (c + 1)) (rd p n)) by lia.
  rewrite !filter_app. rewrite (@filter_none _ _ (zseq 0 (rd p c))), (@filter_all _ _ (zseq (rd p c) (rd p (c + 1)))), (@filter_none _ _ (zseq (rd p (c + 1)) (rd p n))).
  - now rewrite app_nil_r.
  - intros q Hq. apply in_zseq in Hq. apply Z.eqb_neq. intros E. specialize (U q ltac:(lia) E). lia.
  - intros q Hq. apply in_zseq in Hq. apply Z.eqb_eq. apply Hj; auto.
  - intros q Hq. apply in_zseq in Hq. apply Z.eqb_neq. intros E. specialize (U q ltac:(lia) E). lia.
Qed.

Theorem csc_to_trip_columns o addr A p i x T yx s : csc_ok A p i x -> is_type T -> 1 <= opt_prec o -> converted o addr T A yx s ->
  exists C ti tj, matrix_copy o addr true true KTRIP T (Some A) = Ok C /\ trip_ok C ti tj yx /\
    m_m C = m_m A /\ m_n C = m_n A /\ m_type C = T /\ m_nz C = rd p (m_n A) /\ m_nzmax C = Z.max (rd p (m_n A)) 1 /\
    m_scale C = s /\ zlen ti = m_nzmax C /\ zlen tj = m_nzmax C /\
    forall c, 0 <= c < m_n A -> trip_column (m_nz C) ti tj yx c = csc_column p i yx c.
Proof.
  intros OK HT Hp HC. destruct (csc_to_trip_copy OK HT Hp HC) as (C & ti & tj & E & TO & C1 & C2 & C3 & C4 & C5 & C6 & C7 & C8 & C9 & C10).
  exists C, ti, tj. do 10 (split; auto). intros c Hc. dcsc OK. unfold trip_column, csc_column. rewrite C4.
  rewrite (@cols_filter p (m_n A)) by auto. apply map_ext_in. intros q Hq. apply in_zseq in Hq.
  pose proof (mono_le _ co_mono' (a := 0) (b := c)) as M1. pose proof (mono_le _ co_mono' (a := c + 1) (b := m_n A)) as M2.
  rewrite C9 by lia. auto.
Qed.

Lemma converted_stored o addr A nz x T yx s : stores A nz x -> is_type T -> 1 <= opt_prec o -> converted o addr T A yx s ->
  forall k, 0 <= k < nz -> stored o (cell yx k) = cell yx k.
Proof.
  intros HS HT Hp HC k Hk. pose proof (converted_inv HS HT HC) as E. destruct (stores_facts HS) as (Hz & Hn & _).
  destruct (@cast_array_shape o addr _ _ nz _ _ _ _ (proj1 Hn) Hp E) as (S1 & S2 & S3 & S4).
  unfold stored. destruct (cell yx k) eqn:EC; auto. destruct yx as [l|l|l|l|l]; try discriminate.
  simpl in EC. injection EC as EC. f_equal. rewrite <- EC. apply (S4 l k); auto.
Qed.

Lemma converted_scale o addr A nz x T yx s : stores A nz x -> is_type T -> T <> TMPZ -> converted o addr T A yx s -> s = 1%Q.
Proof.
  intros HS HT HZ HC. pose proof (converted_inv HS HT HC) as E. unfold is_type in HT.
  assert (G : exists Y, fresh_vals T (Z.max nz 1) = Y /\ match Y with VZ _ => False | _ => True end).
  { eexists. split; [reflexivity|]. unfold TMPZ, TDBL in *. assert (T = 1 \/ T = 2 \/ T = 3 \/ T = 4) as [-> |[-> |[-> | ->]]] by lia; exact I. }
  destruct G as (Y & EY & HY). rewrite EY in E.
  destruct Y as [y|y|y|y|y]; [contradiction| | | |]; destruct x as [x|x|x|x|x]; cbn [slip_cast_array] in E;
    match type of E with bind ?m _ = _ => destruct m; try discriminate; cbn [bind] in E; congruence end.
Qed.

Theorem dense_to_trip_copy o addr A x T yx s : dense_ok A x -> is_type T -> 1 <= opt_prec o -> converted o addr T A yx s ->
  exists C ti tj cx, matrix_copy o addr true true KTRIP T (Some A) = Ok C /\
    m_kind C = KTRIP /\ m_i C = Some ti /\ m_j C = Some tj /\ m_x C = Some cx /\
    m_m C = m_m A /\ m_n C = m_n A /\ m_type C = T /\
    m_nzmax C = Z.max (dense_count A yx) 1 /\ zlen ti = m_nzmax C /\ zlen tj = m_nzmax C /\
    m_nz C = m_m A * m_n A /\ m_scale C = (if T =? m_type A then 1%Q else s) /\
    (forall k, 0 <= k < dense_count A yx -> 0 <= rd ti k < m_m A /\ 0 <= rd tj k < m_n A) /\
    forall c, 0 <= c < m_n A -> trip_column (dense_count A yx) ti tj cx c = dense_column (m_m A) yx c.
Proof.
  intros OK HT Hp HC. assert (HS : stores A (m_m A * m_n A) x) by (right; right; auto).
  destruct (dense_to_csc_copy OK HT Hp HC) as (B & p & i & bx & EB & BO & B1 & B2 & B3 & B4 & B5 & B6 & B7 & B8).
  rewrite (copy_unfold o addr HS HT (ck := KCSC)) in EB by (vm_compute; split; discriminate).
  rewrite (copy_unfold o addr HS HT (ck := KTRIP)) by (vm_compute; split; discriminate).
  assert (HK : m_kind A = KDENSE) by (ddense OK; auto). rewrite HK in *. cbn [Z.eqb KCSC KTRIP KDENSE Pos.eqb] in *.
  unfold copy_dense_trip. rewrite EB. cbn [bind].
  assert (HSB : stores B (rd p (m_n B)) bx) by (left; eauto). destruct (stores_facts HSB) as (NB & _). rewrite NB. cbn [bind].
  destruct (same_type_values o addr HSB) as (cx & HCB & HV).
  assert (HTB : is_type (m_type B)) by (rewrite B3; auto).
  destruct (csc_to_trip_columns BO HTB Hp HCB) as (C & ti & tj & EC & TO & C1 & C2 & C3 & C4 & C5 & C6 & C7 & C8 & C9).
  rewrite (copy_unfold o addr HSB HTB (ck := KTRIP)) in EC by (vm_compute; split; discriminate).
  assert (HKB : m_kind B = KCSC) by (dcsc BO; auto). rewrite HKB in EC. cbn [Z.eqb KCSC KTRIP KDENSE Pos.eqb] in EC. rewrite B3 in *. rewrite EC. cbn [bind].
  rewrite B2 in *. rewrite B4 in *.
  assert (HVX : forall k, 0 <= k < dense_count A yx -> cell cx k = cell bx k).
  { intros k Hk. rewrite HV by lia. dcsc BO. rewrite B2 in *. destruct (@find_col p (m_n A) k co_0' ltac:(lia) ltac:(lia)) as (c & Hc & Hq).
    assert (I : In (rd i k, cell bx k) (csc_column p i bx c)).
    { unfold csc_column. apply (in_map (fun q => (rd i q, cell bx q))). apply in_zseq. lia. }
    rewrite B8 in I by auto. unfold dense_column in I. apply in_map_iff in I. destruct I as (r & [= E1 E2] & Hr).
    apply filter_In in Hr. destruct Hr as [Hr _]. apply in_zseq in Hr. rewrite <- E2. apply (converted_stored HS HT Hp HC). ddense OK. nia. }
  dtrip TO.
  eexists _, ti, tj, cx. split; [reflexivity|]. cbn [with_nz m_kind m_i m_j m_x m_m m_n m_type m_nzmax m_nz m_scale].
  do 8 (split; [congruence|]). rewrite C5. do 2 (split; [congruence|]). split; auto. split.
  { rewrite C6, B7. destruct (Z.eqb_spec T TMPZ) as [|NZ]; auto. destruct (T =? m_type A); auto. symmetry. apply (converted_scale HS HT NZ HC). }
  split.
  - intros k Hk. split. rewrite <- B1, <- C1. apply to_row'. lia. rewrite <- C2. apply to_col'. lia.
  - intros c Hc. rewrite <- B8 by auto. rewrite <- C4. rewrite C9 by auto. unfold csc_column. apply map_ext_in. intros q Hq. apply in_zseq in Hq.
    dcsc BO. rewrite B2 in *.
    pose proof (mono_le _ co_mono' (a := 0) (b := c)) as M1. pose proof (mono_le _ co_mono' (a := c + 1) (b := m_n A)) as M2. rewrite HVX by lia. auto.
Qed.

(* a copy of the same kind is well-formed too *)
Lemma same_kind_stores o addr A nz x T yx s : stores A nz x -> is_type T -> 1 <= opt_prec o -> converted o addr T A yx s ->
  exists Y, matrix_copy o addr true true (m_kind A) T (Some A) = Ok Y /\ m_x Y = Some yx /\ m_scale Y = s /\ m_kind Y = m_kind A /\
    m_type Y = T /\ m_m Y = m_m A /\ m_n Y = m_n A /\ stores Y nz yx.
Proof.
  intros HS HT Hp HC. pose proof (cast_source HS HT Hp HC) as (V1 & V2 & _).
  destruct (same_kind_copy HS HT HC) as (Y & E & X1 & X2 & X3 & X4 & P). unfold same_pattern in P. destruct P as (P1 & P2 & P3 & P4 & P5 & P6).
  exists Y. do 7 (split; auto).
  destruct HS as [(p & i & OK & ->)|[(i & j & OK & ->)|(OK & ->)]].
  - dcsc OK. left. destruct P5 as (i0 & i' & Ei & Ei' & L & R). rewrite co_kind'. discriminate.
    assert (i0 = i) by congruence. subst i0. exists p, i'. rewrite P2. split; auto. constructor; rewrite ?P1, ?P2; auto; try congruence.
    + rewrite P4; auto.
    + intros q Hq. rewrite R by auto. auto.
  - dtrip OK. right; left. destruct P5 as (i0 & i' & Ei & Ei' & L & R). rewrite to_kind'. discriminate.
    destruct (P6 to_kind') as (Z1 & j0 & j' & Ej & Ej' & L' & R').
    assert (i0 = i) by congruence. assert (j0 = j) by congruence. subst i0 j0. exists i', j'. split; auto. constructor; rewrite ?P1, ?P2, ?Z1; auto; try congruence.
    + intros q Hq. rewrite R by auto. auto.
    + intros q Hq. rewrite R' by auto. auto.
  - ddense OK. right; right. rewrite P1, P2. split; auto. constructor; rewrite ?P1, ?P2; auto; congruence.
Qed.
