(* Properties C30-C46, C51, C55: SLIP_matrix objects.  Specification: MatSpec.v; model: MMatrix.v.
   Each theorem is followed by a concrete case that meets its hypotheses. *)
From Coq Require Import QArith Qabs Qpower Lqa.
From Verif Require Import Base DetZ Spec SumQ MSolve PSolve PSolve2 MMatrix MatSpec PApi PMat PFloat PCopy PConv PRound PCheck PCopy2.
Set Implicit Arguments.
Set Bullet Behavior "Strict Subproofs".
Open Scope Z_scope.

(* decision of bounded statements about concrete matrices *)
Lemma ball n (f : Z -> bool) : forallb f (zseq 0 n) = true -> forall k, 0 <= k < n -> f k = true.
Proof. intros H k Hk. rewrite forallb_forall in H. apply H. now apply in_zseq. Qed.
Definition inb (a b x : Z) : bool := (a <=? x) && (x <? b).
Lemma inbP a b x : inb a b x = true -> a <= x < b.
Proof. unfold inb. rewrite Bool.andb_true_iff, Z.leb_le, Z.ltb_lt. auto. Qed.
Definition trip_okb (A : matrix) (i j : list Z) (x : vals) : bool :=
  (m_kind A =? KTRIP) && (vtype x =? m_type A) && (0 <=? m_m A) && (0 <=? m_n A) && (0 <=? m_nz A) &&
  (m_nz A <=? zlen i) && (m_nz A <=? zlen j) && (m_nz A <=? vlen x) &&
  forallb (fun k => inb 0 (m_m A) (rd i k)) (zseq 0 (m_nz A)) && forallb (fun k => inb 0 (m_n A) (rd j k)) (zseq 0 (m_nz A)).
Lemma trip_okb_ok A i j x : m_i A = Some i -> m_j A = Some j -> m_x A = Some x -> trip_okb A i j x = true -> trip_ok A i j x.
Proof.
  unfold trip_okb. rewrite !Bool.andb_true_iff, !Z.leb_le, !Z.eqb_eq. intros H1 H2 H3 H.
  decompose [and] H. constructor; auto; intros k Hk; apply inbP.
  - apply (@ball (m_nz A) (fun k => inb 0 (m_m A) (rd i k))); auto.
  - apply (@ball (m_nz A) (fun k => inb 0 (m_n A) (rd j k))); auto.
Qed.
Definition csc_okb (A : matrix) (p i : list Z) (x : vals) : bool :=
  (m_kind A =? KCSC) && (vtype x =? m_type A) && (0 <=? m_m A) && (0 <=? m_n A) && (zlen p =? m_n A + 1) && (rd p 0 =? 0) &&
  (rd p (m_n A) <=? zlen i) && (rd p (m_n A) <=? vlen x) &&
  forallb (fun c => rd p c <=? rd p (c + 1)) (zseq 0 (m_n A)) && forallb (fun k => inb 0 (m_m A) (rd i k)) (zseq 0 (rd p (m_n A))).
Lemma csc_okb_ok A p i x : m_p A = Some p -> m_i A = Some i -> m_x A = Some x -> csc_okb A p i x = true -> csc_ok A p i x.
Proof.
  unfold csc_okb. rewrite !Bool.andb_true_iff, !Z.leb_le, !Z.eqb_eq. intros H1 H2 H3 H.
  decompose [and] H. constructor; auto; intros k Hk.
  - apply Z.leb_le. apply (@ball (m_n A) (fun c => rd p c <=? rd p (c + 1))); auto.
  - apply inbP. apply (@ball (rd p (m_n A)) (fun k => inb 0 (m_m A) (rd i k))); auto.
Qed.

(* three concrete matrices of int64:   [ 0 7 0 ; 5 0 -2 ]   as triplet, CSC and dense *)
Definition exT : matrix := mkM 2 3 3 3 KTRIP TINT None (Some [1; 0; 1]) (Some [0; 1; 2]) (Some (VI [5; 7; -2])) 1%Q.
Definition exC : matrix := mkM 2 3 3 0 KCSC TINT (Some [0; 1; 2; 3]) (Some [1; 0; 1]) None (Some (VI [5; 7; -2])) 1%Q.
Definition exD : matrix := mkM 2 3 6 0 KDENSE TINT None None None (Some (VI [0; 5; 7; 0; 0; -2])) 1%Q.
Example exT_ok : trip_ok exT [1; 0; 1] [0; 1; 2] (VI [5; 7; -2]).
Proof. apply trip_okb_ok; reflexivity. Qed.
Example exC_ok : csc_ok exC [0; 1; 2; 3] [1; 0; 1] (VI [5; 7; -2]).
Proof. apply csc_okb_ok; reflexivity. Qed.
Example exD_ok : dense_ok exD (VI [0; 5; 7; 0; 0; -2]).
Proof. constructor; reflexivity || (vm_compute; discriminate). Qed.
(* the same 2-by-3 matrix with integers and scale 3 (entries 5/3, 7/3, -2/3) *)
Definition exZ : matrix := mkM 2 3 3 3 KTRIP TMPZ None (Some [1; 0; 1]) (Some [0; 1; 2]) (Some (VZ [5; 7; -2])) 3%Q.
Example exZ_ok : trip_ok exZ [1; 0; 1] [0; 1; 2] (VZ [5; 7; -2]).
Proof. apply trip_okb_ok; reflexivity. Qed.
(* rationals 1/2, -2/3, 5 *)
Definition exQ : matrix := mkM 3 1 3 0 KDENSE TMPQ None None None (Some (VQ [1 # 2; -2 # 3; 5]%Q)) 1%Q.
Example exQ_ok : dense_ok exQ (VQ [1 # 2; -2 # 3; 5]%Q).
Proof. constructor; reflexivity || (vm_compute; discriminate). Qed.
(* doubles 3/4 and 2^-18 *)
Definition exF : matrix := mkM 2 1 2 0 KDENSE TDBL None None None (Some (VD [FFin 3 (-2); FFin 1 (-18)])) 1%Q.
Example exF_ok : dense_ok exF (VD [FFin 3 (-2); FFin 1 (-18)]).
Proof. constructor; reflexivity || (vm_compute; discriminate). Qed.
Lemma trip_stores A i j x : trip_ok A i j x -> stores A (m_nz A) x.
Proof. right. left. eauto. Qed.
Lemma csc_stores A p i x : csc_ok A p i x -> stores A (rd p (m_n A)) x.
Proof. left. eauto. Qed.
Lemma dense_stores A x : dense_ok A x -> stores A (m_m A * m_n A) x.
Proof. right. right. eauto. Qed.

(*============================================================================*)
(* C30, C31: SLIP_matrix_check accepts exactly the valid matrices *)
Theorem C30_check_csc A p i x : m_kind A = KCSC -> m_p A = Some p -> m_i A = Some i -> m_x A = Some x -> 1 <= m_nzmax A ->
  (0 <= m_n A -> m_n A + 1 <= zlen p /\ rd p (m_n A) <= zlen i) ->
  (matrix_check true (Some A) = Ok tt <-> 0 <= m_m A /\ 0 <= m_n A /\ is_type (m_type A) /\ csc_valid (m_m A) (m_n A) p i) /\
  (matrix_check true (Some A) = Ok tt \/ matrix_check true (Some A) = Err SLIP_INCORRECT_INPUT).
Proof.
  intros Hk Hp Hi Hx Hz Hl. pose proof (@check_csc A p i x Hk Hp Hi Hx Hz (fun h => proj1 (Hl h)) (fun h => proj2 (Hl h))) as H. cbv zeta in H.
  destruct (matrix_check true (Some A)) as [[]|e| |]; simpl in H; try contradiction.
  - split; auto. split; auto.
  - destruct H as [-> H]. split; auto. split. discriminate. tauto.
Qed.
Example C30_accepts : matrix_check true (Some exC) = Ok tt.
Proof. reflexivity. Qed.
Example C30_rejects_duplicate :
  matrix_check true (Some (mkM 2 2 3 0 KCSC TINT (Some [0; 2; 3]) (Some [1; 1; 0]) None (Some (VI [5; 7; -2])) 1%Q)) = Err SLIP_INCORRECT_INPUT.
Proof. reflexivity. Qed.

Theorem C31_check_triplet A ti tj x : m_kind A = KTRIP -> m_i A = Some ti -> m_j A = Some tj -> m_x A = Some x -> 0 <= m_nzmax A ->
  m_nz A <= zlen ti -> m_nz A <= zlen tj ->
  (matrix_check true (Some A) = Ok tt <->
     0 <= m_nz A /\ 0 <= m_m A /\ 0 <= m_n A /\ is_type (m_type A) /\ trip_valid (m_m A) (m_n A) (m_nz A) ti tj) /\
  (matrix_check true (Some A) = Ok tt \/ matrix_check true (Some A) = Err SLIP_INCORRECT_INPUT).
Proof.
  intros Hk Hi Hj Hx Hz Hli Hlj. pose proof (@check_trip_mat A ti tj x Hk Hi Hj Hx Hz Hli Hlj) as H. cbv zeta in H.
  destruct (matrix_check true (Some A)) as [[]|e| |]; simpl in H; try contradiction.
  - split; auto. split; auto.
  - destruct H as [-> H]. split; auto. split. discriminate. tauto.
Qed.
Example C31_accepts : matrix_check true (Some exT) = Ok tt.
Proof. reflexivity. Qed.
Example C31_rejects_duplicate :
  matrix_check true (Some (mkM 2 3 3 3 KTRIP TINT None (Some [1; 0; 1]) (Some [0; 1; 0]) (Some (VI [5; 7; -2])) 1%Q)) = Err SLIP_INCORRECT_INPUT.
Proof. reflexivity. Qed.
Theorem C31_check_dense A x : m_kind A = KDENSE -> m_x A = Some x -> 0 <= m_nzmax A ->
  (matrix_check true (Some A) = Ok tt <-> 0 <= m_m A /\ 0 <= m_n A /\ is_type (m_type A)) /\
  (matrix_check true (Some A) = Ok tt \/ matrix_check true (Some A) = Err SLIP_INCORRECT_INPUT).
Proof.
  intros Hk Hx Hz. pose proof (@check_dense_mat A x Hk Hx Hz) as H. cbv zeta in H.
  destruct (matrix_check true (Some A)) as [[]|e| |]; simpl in H; try contradiction.
  - split; auto. split; auto.
  - destruct H as [-> H]. split; auto. split. discriminate. tauto.
Qed.

(*============================================================================*)
(* C32: memory safety of SLIP_matrix_check, for arrays of the documented sizes and arbitrary contents, NULL arrays included *)
Definition check_storage (A : matrix) : Prop :=
  1 <= m_nzmax A /\
  (m_kind A = KCSC -> forall p, m_p A = Some p -> 0 <= m_n A -> m_n A + 1 <= zlen p /\ forall i, m_i A = Some i -> rd p (m_n A) <= zlen i) /\
  (m_kind A = KTRIP -> (forall i, m_i A = Some i -> m_nz A <= zlen i) /\ (forall j, m_j A = Some j -> m_nz A <= zlen j)).

Theorem C32_check_safe inited A : (forall M, A = Some M -> check_storage M) ->
  matrix_check inited A = Ok tt \/ matrix_check inited A = Err SLIP_INCORRECT_INPUT \/ (inited = false /\ matrix_check inited A = Err SLIP_PANIC).
Proof.
  intros HA. destruct inited. 2: { right. right. auto. }
  destruct A as [A|]. 2: { right. left. reflexivity. }
  destruct (HA A eq_refl) as (Hz & HC & HT).
  destruct (Z.eq_dec (m_kind A) KCSC) as [K|K].
  { destruct (m_p A) as [p|] eqn:EP. 
    2: { right. left. unfold matrix_check, matrix_nnz. cbn [negb]. rewrite K. simpl (KCSC =? KCSC). cbv iota. rewrite EP. reflexivity. }
    specialize (HC K p eq_refl). 
    destruct (m_i A) as [i|] eqn:EI, (m_x A) as [x|] eqn:EX.
    1: { destruct (@C30_check_csc A p i x K EP EI EX Hz) as [_ [G|G]]; auto. intros Hn. destruct (HC Hn) as [L1 L2]. split; auto. }
    all: right; left; unfold matrix_check, matrix_nnz; cbn [negb]; rewrite K; simpl (KCSC =? KCSC); cbv iota; rewrite EP;
      (destruct (Z.ltb_spec (m_n A) 0) as [N|N]; [reflexivity|]); destruct (HC N) as [L1 _]; rewrite get_rd by lia; cbn [bind];
      destruct ((rd p (m_n A) <? 0) || (m_m A <? 0) || false || (m_nzmax A <? 0)); try reflexivity;
      destruct ((m_type A <? TMPZ) || (m_type A >? TDBL)); try reflexivity; cbn [deref bind];
      (destruct (Z.gtb_spec (m_nzmax A) 0); [|lia]); rewrite get_rd by lia; cbn [bind];
      (destruct (negb (rd p 0 =? 0)); [reflexivity|]);
      destruct (wp_exists _ _ _ (@check_ptr_spec (m_n A) _ p N L1 eq_refl)) as [(u & -> & _)|(e & -> & -> & _)]; try reflexivity; cbn [bind]; rewrite EI, ?EX; reflexivity. }
  destruct (Z.eq_dec (m_kind A) KTRIP) as [K2|K2].
  { destruct (HT K2) as [L1 L2]. destruct (m_i A) as [i|] eqn:EI, (m_j A) as [j|] eqn:EJ, (m_x A) as [x|] eqn:EX.
    1: { destruct (@C31_check_triplet A i j x K2 EI EJ EX ltac:(lia) (L1 _ eq_refl) (L2 _ eq_refl)) as [_ [G|G]]; auto. }
    all: right; left; unfold matrix_check, matrix_nnz; cbn [negb]; rewrite K2; simpl (KTRIP =? _); cbv iota; cbn [bind];
      destruct ((m_nz A <? 0) || (m_m A <? 0) || (m_n A <? 0) || (m_nzmax A <? 0)); try reflexivity;
      destruct ((m_type A <? TMPZ) || (m_type A >? TDBL)); try reflexivity; rewrite EI, EJ, ?EX;
      (destruct (Z.gtb_spec (m_nzmax A) 0); [|lia]); reflexivity. }
  destruct (Z.eq_dec (m_kind A) KDENSE) as [K3|K3].
  { destruct (m_x A) as [x|] eqn:EX. { destruct (@C31_check_dense A x K3 EX ltac:(lia)) as [_ [G|G]]; auto. }
    right. left. unfold matrix_check, matrix_nnz. cbn [negb]. rewrite K3. simpl (KDENSE =? _). cbv iota. cbn [bind].
    destruct ((_ <? 0) || (m_m A <? 0) || (m_n A <? 0) || (m_nzmax A <? 0)); try reflexivity.
    destruct ((m_type A <? TMPZ) || (m_type A >? TDBL)); try reflexivity. rewrite EX. destruct (Z.gtb_spec (m_nzmax A) 0); [|lia]. reflexivity. }
  right. left. unfold matrix_check, matrix_nnz. cbn [negb]. destruct (Z.eqb_spec (m_kind A) KCSC), (Z.eqb_spec (m_kind A) KTRIP), (Z.eqb_spec (m_kind A) KDENSE); try contradiction. reflexivity.
Qed.
(* satisfied by corrupt contents: decreasing pointers, row index out of range *)
Example C32_corrupt : check_storage (mkM 2 3 3 0 KCSC TINT (Some [0; 3; -7; 2]) (Some [9; 0; 1]) None None 1%Q).
Proof. split. vm_compute; discriminate. split. intros _ p [= <-] _. split. vm_compute; discriminate. intros i [= <-]. vm_compute; discriminate. discriminate. Qed.

(* The header is trusted: nz is not compared with nzmax.  Every triplet matrix whose nz exceeds its arrays, with in-range indices in
   the cells that exist, is read out of bounds. *)
Theorem C32_header_refuted A ti tj x : m_kind A = KTRIP -> m_i A = Some ti -> m_j A = Some tj -> m_x A = Some x ->
  0 <= m_m A -> 0 <= m_n A -> 0 <= m_nzmax A -> is_type (m_type A) -> zlen tj = zlen ti -> zlen ti < m_nz A ->
  (forall k, 0 <= k < zlen ti -> 0 <= rd ti k < m_m A /\ 0 <= rd tj k < m_n A) ->
  matrix_check true (Some A) = UB.
Proof.
  intros Hk Hi Hj Hx Hm Hn Hz Ht Hlj Hl Hr. pose proof (zlen_nonneg ti). unfold matrix_check, matrix_nnz. cbn [negb]. rewrite Hk. simpl (KTRIP =? _). cbv iota. cbn [bind].
  unfold is_type in Ht.
  destruct (Z.ltb_spec (m_nz A) 0), (Z.ltb_spec (m_m A) 0), (Z.ltb_spec (m_n A) 0), (Z.ltb_spec (m_nzmax A) 0), (Z.ltb_spec (m_type A) TMPZ), (Z.gtb_spec (m_type A) TDBL); try lia.
  cbn [orb]. rewrite Hi, Hj, Hx. unfold check_trip.
  match goal with |- bind ?m _ = _ => enough (E : m = UB) by (rewrite E; reflexivity) end.
  unfold for_. rewrite Z.sub_0_r. replace (Z.to_nat (m_nz A)) with (Z.to_nat (zlen ti) + S (Z.to_nat (m_nz A - zlen ti - 1)))%nat by lia.
  generalize (Z.to_nat (m_nz A - zlen ti - 1)) as more. intros more.
  assert (G : forall c lo, 0 <= lo -> lo + Z.of_nat c = zlen ti ->
    floop (c + S more) lo (fun p (_ : unit) => let* i := get ti p in let* j := get tj p in
      if (i <? 0) || (i >=? m_m A) || (j <? 0) || (j >=? m_n A) then Err SLIP_INCORRECT_INPUT else Ok tt) tt = UB).
  { induction c as [|c IH]; intros lo A1 A2.
    - simpl. unfold get at 1. destruct (Z.ltb_spec lo 0); try lia. destruct (nth_error ti (Z.to_nat lo)) eqn:EN; [|reflexivity].
      assert (HN : (Z.to_nat lo < length ti)%nat) by (apply nth_error_Some; congruence). unfold zlen in *. lia.
    - cbn [Nat.add floop]. rewrite !get_rd by lia. cbn [bind]. destruct (Hr lo ltac:(lia)) as [R1 R2].
      destruct (Z.ltb_spec (rd ti lo) 0), (Z.geb_spec (rd ti lo) (m_m A)), (Z.ltb_spec (rd tj lo) 0), (Z.geb_spec (rd tj lo) (m_n A)); try lia.
      cbn [orb bind]. apply IH; lia. }
  apply G; lia.
Qed.

(*============================================================================*)
(* C33-C38: conversions of kind.  Conversion to another type at the same time: the numbers are those of a copy of the same kind
   ("converted", MatSpec.v), whose correctness is C39-C44 and C55. *)
Lemma column_ext nz ti tj x y : (forall k, 0 <= k < nz -> cell x k = cell y k) -> forall c, trip_column nz ti tj x c = trip_column nz ti tj y c.
Proof. intros H c. apply map_ext_in. intros k Hk. apply filter_In in Hk. destruct Hk as [Hk _]. apply in_zseq in Hk. now rewrite H. Qed.
Lemma dense_column_ext m n x y : 0 <= m -> (forall k, 0 <= k < m * n -> cell x k = cell y k) -> forall c, 0 <= c < n -> dense_column m x c = dense_column m y c.
Proof.
  intros Hm H c Hc. assert (G : forall r, 0 <= r < m -> cell x (r + c * m) = cell y (r + c * m)) by (intros r Hr; apply H; nia). unfold dense_column.
  rewrite (filter_ext_in (fun r => nonzero (cell x (r + c * m))) (fun r => nonzero (cell y (r + c * m)))).
  - apply map_ext_in. intros r Hr. apply filter_In in Hr. destruct Hr as [Hr _]. apply in_zseq in Hr. now rewrite G.
  - intros r Hr. apply in_zseq in Hr. now rewrite G.
Qed.
Lemma same_type_exact o addr A nz x : stores A nz x -> m_type A <> TMPFR -> exists yx,
  converted o addr (m_type A) A yx (if m_type A =? TMPZ then m_scale A else 1%Q) /\ forall k, 0 <= k < nz -> cell yx k = cell x k.
Proof.
  intros HS HT. destruct (same_type_values o addr HS) as (yx & HC & HV). exists yx. split; auto. intros k Hk. rewrite HV by auto.
  destruct (stores_facts HS) as (_ & _ & _ & Ht & _). destruct x; try reflexivity. simpl in Ht. congruence.
Qed.
Lemma type_is A nz x : stores A nz x -> is_type (m_type A).
Proof. intros HS. destruct (stores_facts HS) as (_ & _ & _ & Ht & _). rewrite <- Ht. apply vtype_is. Qed.

(* C33: triplet to CSC: every column lists the same (row, number) pairs in the same order *)
Theorem C33_triplet_to_csc o addr A ti tj x : trip_ok A ti tj x -> 1 <= opt_prec o -> m_type A <> TMPFR ->
  exists C p i cx, matrix_copy o addr true true KCSC (m_type A) (Some A) = Ok C /\ csc_ok C p i cx /\
    m_m C = m_m A /\ m_n C = m_n A /\ m_type C = m_type A /\ rd p (m_n A) = m_nz A /\
    forall c, 0 <= c < m_n A -> csc_column p i cx c = trip_column (m_nz A) ti tj x c.
Proof.
  intros OK Hp HT. pose proof (trip_stores OK) as HS. destruct (same_type_exact o addr HS HT) as (yx & HC & HV).
  destruct (trip_to_csc_copy OK (type_is HS) Hp HC) as (C & p & i & cx & E & CO & C1 & C2 & C3 & C4 & C5 & C6 & C7 & C8).
  exists C, p, i, cx. do 6 (split; auto). intros c Hc. rewrite C8 by auto. apply column_ext. auto.
Qed.
Theorem C33_triplet_to_csc_any_type o addr A ti tj x T yx s : trip_ok A ti tj x -> is_type T -> 1 <= opt_prec o -> converted o addr T A yx s ->
  exists C p i cx, matrix_copy o addr true true KCSC T (Some A) = Ok C /\ csc_ok C p i cx /\
    m_m C = m_m A /\ m_n C = m_n A /\ m_type C = T /\ rd p (m_n A) = m_nz A /\
    forall c, 0 <= c < m_n A -> csc_column p i cx c = trip_column (m_nz A) ti tj yx c.
Proof.
  intros OK HT Hp HC. destruct (trip_to_csc_copy OK HT Hp HC) as (C & p & i & cx & E & CO & C1 & C2 & C3 & C4 & C5 & C6 & C7 & C8).
  exists C, p, i, cx. do 6 (split; auto).
Qed.
Example C33_ex : matrix_copy None (fun _ => 1) true true KCSC TINT (Some exT) = Ok exC.
Proof. reflexivity. Qed.

(* C34: dense to CSC: exactly the non-zero numbers, at their positions, in order of rows *)
Theorem C34_dense_to_csc o addr A x : dense_ok A x -> 1 <= opt_prec o -> m_type A <> TMPFR ->
  exists C p i cx, matrix_copy o addr true true KCSC (m_type A) (Some A) = Ok C /\ csc_ok C p i cx /\
    m_m C = m_m A /\ m_n C = m_n A /\ m_type C = m_type A /\
    forall c, 0 <= c < m_n A -> csc_column p i cx c = dense_column (m_m A) x c.
Proof.
  intros OK Hp HT. pose proof (dense_stores OK) as HS. destruct (same_type_exact o addr HS HT) as (yx & HC & HV).
  destruct (dense_to_csc_copy OK (type_is HS) Hp HC) as (C & p & i & cx & E & CO & C1 & C2 & C3 & C4 & C5 & C6 & C7 & C8).
  exists C, p, i, cx. do 5 (split; auto). intros c Hc. rewrite C8 by auto. apply dense_column_ext with (m_n A); auto. ddense OK; auto.
Qed.
Theorem C34_dense_to_csc_any_type o addr A x T yx s : dense_ok A x -> is_type T -> 1 <= opt_prec o -> converted o addr T A yx s ->
  exists C p i cx, matrix_copy o addr true true KCSC T (Some A) = Ok C /\ csc_ok C p i cx /\
    m_m C = m_m A /\ m_n C = m_n A /\ m_type C = T /\
    forall c, 0 <= c < m_n A -> csc_column p i cx c = dense_column (m_m A) yx c.
Proof.
  intros OK HT Hp HC. destruct (dense_to_csc_copy OK HT Hp HC) as (C & p & i & cx & E & CO & C1 & C2 & C3 & C4 & C5 & C6 & C7 & C8).
  exists C, p, i, cx. do 5 (split; auto).
Qed.
Example C34_ex : matrix_copy None (fun _ => 1) true true KCSC TINT (Some exD) = Ok exC.
Proof. reflexivity. Qed.

(* C35: to dense.  The stored numbers go to their positions and the other positions hold zero (not for mpfr_t) *)
Theorem C35_csc_to_dense o addr A p i x T yx s : csc_ok A p i x -> csc_valid (m_m A) (m_n A) p i -> is_type T -> T <> TMPFR -> 1 <= opt_prec o ->
  converted o addr T A yx s ->
  exists C cx, matrix_copy o addr true true KDENSE T (Some A) = Ok C /\ dense_ok C cx /\
    m_m C = m_m A /\ m_n C = m_n A /\ m_type C = T /\
    (forall c q, 0 <= c < m_n A -> rd p c <= q < rd p (c + 1) -> cell cx (rd i q + c * m_m A) = cell yx q) /\
    (forall r c, 0 <= r < m_m A -> 0 <= c < m_n A -> (forall q, rd p c <= q < rd p (c + 1) -> rd i q <> r) -> cell cx (r + c * m_m A) = zero_of T).
Proof.
  intros OK (_ & _ & _ & HD) HT HN Hp HC. destruct (csc_to_dense_copy OK HT Hp HC) as (C & cx & E & CO & C1 & C2 & C3 & C4 & C5 & C6 & C7).
  exists C, cx. do 5 (split; auto). split.
  - intros c q Hc Hq. apply C6; auto. intros q' Hq' Eq. specialize (HD c q q' Hc Hq ltac:(lia) (eq_sym Eq)). lia.
  - intros r c Hr Hc Hno. rewrite C7 by auto. unfold fresh_of. destruct (Z.eqb_spec T TMPFR); [contradiction|auto].
Qed.
Theorem C35_triplet_to_dense o addr A ti tj x T yx s : trip_ok A ti tj x -> trip_valid (m_m A) (m_n A) (m_nz A) ti tj -> is_type T -> T <> TMPFR -> 1 <= opt_prec o ->
  converted o addr T A yx s ->
  exists C cx, matrix_copy o addr true true KDENSE T (Some A) = Ok C /\ dense_ok C cx /\
    m_m C = m_m A /\ m_n C = m_n A /\ m_type C = T /\
    (forall k, 0 <= k < m_nz A -> cell cx (rd ti k + rd tj k * m_m A) = cell yx k) /\
    (forall r c, 0 <= r < m_m A -> 0 <= c < m_n A -> (forall k, 0 <= k < m_nz A -> ~ (rd ti k = r /\ rd tj k = c)) -> cell cx (r + c * m_m A) = zero_of T).
Proof.
  intros OK (_ & HD) HT HN Hp HC. destruct (trip_to_dense_copy OK HT Hp HC) as (C & cx & E & CO & C1 & C2 & C3 & C4 & C5 & C6 & C7).
  exists C, cx. do 5 (split; auto). split.
  - intros k Hk. apply C6; auto. intros k' Hk' [E1 E2]. specialize (HD k' k ltac:(lia) Hk E1 E2). lia.
  - intros r c Hr Hc Hno. rewrite C7 by auto. unfold fresh_of. destruct (Z.eqb_spec T TMPFR); [contradiction|auto].
Qed.
Example C35_ex : matrix_copy None (fun _ => 1) true true KDENSE TINT (Some exC) = Ok exD /\ matrix_copy None (fun _ => 1) true true KDENSE TINT (Some exT) = Ok exD.
Proof. split; reflexivity. Qed.
(* with mpfr_t output, every position without an entry holds NaN instead of zero *)
Theorem C35_mpfr_refuted o addr A p i x yx s r c : csc_ok A p i x -> 1 <= opt_prec o -> converted o addr TMPFR A yx s ->
  0 <= r < m_m A -> 0 <= c < m_n A -> (forall q, rd p c <= q < rd p (c + 1) -> rd i q <> r) ->
  exists C cx, matrix_copy o addr true true KDENSE TMPFR (Some A) = Ok C /\ m_x C = Some cx /\ cell cx (r + c * m_m A) = NR FNan.
Proof.
  intros OK Hp HC Hr Hc Hno.
  assert (HT : is_type TMPFR) by (vm_compute; split; discriminate).
  destruct (csc_to_dense_copy OK HT Hp HC) as (C & cx & E & CO & C1 & C2 & C3 & C4 & C5 & C6 & C7).
  exists C, cx. split; auto. split. ddense CO; auto. rewrite C7 by auto. reflexivity.
Qed.
Example C35_mpfr_ex : exists C, matrix_copy None (fun _ => 1) true true KDENSE TMPFR (Some exC) = Ok C /\
  m_x C = Some (VR [FNan; FFin 5 0; FFin 7 0; FNan; FNan; FFin (-2) 0]).
Proof. eexists. split; reflexivity. Qed.

(* C36: CSC to triplet: every column lists the same pairs in the same order *)
Theorem C36_csc_to_triplet o addr A p i x : csc_ok A p i x -> 1 <= opt_prec o -> m_type A <> TMPFR ->
  exists C ti tj cx, matrix_copy o addr true true KTRIP (m_type A) (Some A) = Ok C /\ trip_ok C ti tj cx /\
    m_m C = m_m A /\ m_n C = m_n A /\ m_type C = m_type A /\ m_nz C = rd p (m_n A) /\ m_nz C <= m_nzmax C /\
    forall c, 0 <= c < m_n A -> trip_column (m_nz C) ti tj cx c = csc_column p i x c.
Proof.
  intros OK Hp HT. pose proof (csc_stores OK) as HS. destruct (same_type_exact o addr HS HT) as (yx & HC & HV).
  destruct (csc_to_trip_columns OK (type_is HS) Hp HC) as (C & ti & tj & E & CO & C1 & C2 & C3 & C4 & C5 & C6 & C7 & C8 & C9).
  exists C, ti, tj, yx. do 6 (split; auto). split. lia. intros c Hc. rewrite C9 by auto. apply map_ext_in. intros q Hq. apply in_zseq in Hq. dcsc OK.
  pose proof (mono_le _ co_mono' (a := 0) (b := c)) as M1. pose proof (mono_le _ co_mono' (a := c + 1) (b := m_n A)) as M2. rewrite HV by lia. auto.
Qed.
Theorem C36_csc_to_triplet_any_type o addr A p i x T yx s : csc_ok A p i x -> is_type T -> 1 <= opt_prec o -> converted o addr T A yx s ->
  exists C ti tj, matrix_copy o addr true true KTRIP T (Some A) = Ok C /\ trip_ok C ti tj yx /\
    m_m C = m_m A /\ m_n C = m_n A /\ m_type C = T /\ m_nz C = rd p (m_n A) /\ m_nz C <= m_nzmax C /\
    forall c, 0 <= c < m_n A -> trip_column (m_nz C) ti tj yx c = csc_column p i yx c.
Proof.
  intros OK HT Hp HC. destruct (csc_to_trip_columns OK HT Hp HC) as (C & ti & tj & E & CO & C1 & C2 & C3 & C4 & C5 & C6 & C7 & C8 & C9).
  exists C, ti, tj. do 6 (split; auto). split; auto. lia.
Qed.
Example C36_ex : matrix_copy None (fun _ => 1) true true KTRIP TINT (Some exC) = Ok exT.
Proof. reflexivity. Qed.

(* C37: dense to triplet.  The entries are right, but the header claims m*n entries: as soon as A contains a zero (and m*n >= 2)
   nz exceeds the allocated size, and SLIP_matrix_check on the result reads out of bounds. *)
Theorem C37_dense_to_triplet_entries o addr A x T yx s : dense_ok A x -> is_type T -> 1 <= opt_prec o -> converted o addr T A yx s ->
  exists C ti tj cx, matrix_copy o addr true true KTRIP T (Some A) = Ok C /\ m_kind C = KTRIP /\
    m_i C = Some ti /\ m_j C = Some tj /\ m_x C = Some cx /\ m_m C = m_m A /\ m_n C = m_n A /\ m_type C = T /\
    m_nz C = m_m A * m_n A /\
    forall c, 0 <= c < m_n A -> trip_column (dense_count A yx) ti tj cx c = dense_column (m_m A) yx c.
Proof.
  intros OK HT Hp HC. destruct (dense_to_trip_copy OK HT Hp HC) as (C & ti & tj & cx & E & C1 & C2 & C3 & C4 & C5 & C6 & C7 & C8 & C9 & C10 & C11 & C12 & C13 & C14).
  exists C, ti, tj, cx. do 9 (split; auto).
Qed.
Theorem C37_full o addr A x T yx s : dense_ok A x -> is_type T -> 1 <= opt_prec o -> converted o addr T A yx s ->
  (forall k, 0 <= k < m_m A * m_n A -> nonzero (cell yx k) = true) ->
  exists C ti tj cx, matrix_copy o addr true true KTRIP T (Some A) = Ok C /\ 
    m_i C = Some ti /\ m_j C = Some tj /\ m_x C = Some cx /\ m_nz C <= m_nzmax C /\
    forall c, 0 <= c < m_n A -> trip_column (m_nz C) ti tj cx c = dense_column (m_m A) yx c.
Proof.
  intros OK HT Hp HC HN. destruct (dense_to_trip_copy OK HT Hp HC) as (C & ti & tj & cx & E & C1 & C2 & C3 & C4 & C5 & C6 & C7 & C8 & C9 & C10 & C11 & C12 & C13 & C14).
  assert (D : dense_count A yx = m_m A * m_n A). { ddense OK. unfold dense_count. apply cnt_full. nia. auto. }
  exists C, ti, tj, cx. do 4 (split; auto). split. lia. rewrite C11, <- D. auto.
Qed.
Theorem C37_dense_to_triplet_refuted o addr A x T yx s k k' : dense_ok A x -> is_type T -> 1 <= opt_prec o -> converted o addr T A yx s ->
  0 <= k < m_m A * m_n A -> nonzero (cell yx k) = false -> 0 <= k' < m_m A * m_n A -> nonzero (cell yx k') = true ->
  exists C, matrix_copy o addr true true KTRIP T (Some A) = Ok C /\ m_nzmax C < m_nz C /\ matrix_check true (Some C) = UB.
Proof.
  intros OK HT Hp HC Hk Hz Hk' Hz'. destruct (dense_to_trip_copy OK HT Hp HC) as (C & ti & tj & cx & E & C1 & C2 & C3 & C4 & C5 & C6 & C7 & C8 & C9 & C10 & C11 & C12 & C13 & C14).
  exists C. split; auto. ddense OK.
  assert (DC : dense_count A yx = cnt (fun k => nonzero (cell yx k)) (m_m A * m_n A)) by reflexivity.
  assert (D : dense_count A yx < m_m A * m_n A).
  { rewrite DC. pose proof (@cnt_le (fun k => nonzero (cell yx k)) (m_m A * m_n A) ltac:(nia)) as L.
    destruct (Z.eq_dec (cnt (fun k => nonzero (cell yx k)) (m_m A * m_n A)) (m_m A * m_n A)) as [EE|]; [|lia].
    pose proof (@cnt_all (fun k => nonzero (cell yx k)) (m_m A * m_n A) ltac:(nia) EE k Hk). cbv beta in H. congruence. }
  assert (D1 : 1 <= dense_count A yx).
  { rewrite DC. pose proof (@cnt_lt (fun k => nonzero (cell yx k)) k' (m_m A * m_n A) Hk' Hz'). pose proof (cnt_nonneg (fun k => nonzero (cell yx k)) k'). lia. }
  assert (L : m_nzmax C < m_nz C) by lia. split; auto.
  apply (@C32_header_refuted C ti tj cx); auto; try lia.
  { rewrite C7. auto. }
  intros q Hq. rewrite C5, C6. apply C13. lia.
Qed.
Example C37_ex : exists C, matrix_copy None (fun _ => 1) true true KTRIP TINT (Some exD) = Ok C /\ m_nzmax C = 3 /\ m_nz C = 6 /\ matrix_check true (Some C) = UB.
Proof. eexists. split; [reflexivity|]. repeat split; reflexivity. Qed.

(* C38: what happens to the scale.  A copy to another type carries the scale s of the conversion; so does a copy that keeps the
   kind, and CSC to triplet.  The other changes of kind that keep the type set the scale to 1. *)
Theorem C38_scale o addr A nz x T yx s ck : stores A nz x -> is_type T -> 1 <= opt_prec o -> KCSC <= ck <= KDENSE -> converted o addr T A yx s ->
  exists C, matrix_copy o addr true true ck T (Some A) = Ok C /\
    (T <> m_type A \/ ck = m_kind A \/ (m_kind A = KCSC /\ ck = KTRIP) -> m_scale C = s) /\
    (T = m_type A -> ck <> m_kind A -> ~ (m_kind A = KCSC /\ ck = KTRIP) -> m_scale C = 1%Q).
Proof.
  intros HS HT Hp Hk HC.
  destruct (Z.eq_dec ck (m_kind A)) as [->|HN].
  { destruct (same_kind_copy HS HT HC) as (Y & E & _ & H & _). exists Y. split; auto. split; auto. intros; contradiction. }
  assert (G : forall C, matrix_copy o addr true true ck T (Some A) = Ok C -> m_scale C = (if T =? m_type A then 1%Q else s) -> ~ (m_kind A = KCSC /\ ck = KTRIP) ->
     exists C, matrix_copy o addr true true ck T (Some A) = Ok C /\
    (T <> m_type A \/ ck = m_kind A \/ (m_kind A = KCSC /\ ck = KTRIP) -> m_scale C = s) /\
    (T = m_type A -> ck <> m_kind A -> ~ (m_kind A = KCSC /\ ck = KTRIP) -> m_scale C = 1%Q)).
  { intros C E H NCT. exists C. split; auto. rewrite H. destruct (Z.eqb_spec T (m_type A)); split; auto; try tauto. }
  assert (CK : ck = KCSC \/ ck = KTRIP \/ ck = KDENSE) by (unfold KCSC, KTRIP, KDENSE in *; lia).
  destruct HS as [(p & i & OK & ->)|[(i & j & OK & ->)|(OK & ->)]].
  - assert (K : m_kind A = KCSC) by (dcsc OK; auto). destruct CK as [->|[->| ->]]; [congruence| |].
    + destruct (csc_to_trip_columns OK HT Hp HC) as (C & ti & tj & E & CO & C1 & C2 & C3 & C4 & C5 & C6 & _). exists C. split; auto. split; auto. intros _ _ []. auto.
    + destruct (csc_to_dense_copy OK HT Hp HC) as (C & cx & E & CO & C1 & C2 & C3 & C4 & C5 & _). apply (G C); auto. intros [_ Q]. discriminate.
  - assert (K : m_kind A = KTRIP) by (dtrip OK; auto). destruct CK as [->|[->| ->]]; [|congruence|].
    + destruct (trip_to_csc_copy OK HT Hp HC) as (C & p & i' & cx & E & CO & C1 & C2 & C3 & C4 & C5 & C6 & C7 & C8). apply (G C); auto. intros [Q _]. rewrite K in Q. discriminate Q.
    + destruct (trip_to_dense_copy OK HT Hp HC) as (C & cx & E & CO & C1 & C2 & C3 & C4 & C5 & _). apply (G C); auto. intros [Q _]. rewrite K in Q. discriminate Q.
  - assert (K : m_kind A = KDENSE) by (ddense OK; auto). destruct CK as [->|[->| ->]]; [| |congruence].
    + destruct (dense_to_csc_copy OK HT Hp HC) as (C & p & i' & cx & E & CO & C1 & C2 & C3 & C4 & C5 & C6 & C7 & C8). apply (G C); auto. intros [Q _]. rewrite K in Q. discriminate Q.
    + destruct (dense_to_trip_copy OK HT Hp HC) as (C & ti & tj & cx & E & C1 & C2 & C3 & C4 & C5 & C6 & C7 & C8 & C9 & C10 & C11 & C12 & _). apply (G C); auto. intros [Q _]. rewrite K in Q. discriminate Q.
Qed.
(* so the copy of an MPZ triplet matrix with scale other than 1 to MPZ CSC represents a different matrix: the same integers, scale 1 *)
Theorem C38_scale_lost_refuted o addr A ti tj x : trip_ok A ti tj x -> m_type A = TMPZ -> 1 <= opt_prec o -> ~ (m_scale A == 1)%Q ->
  exists C p i cx, matrix_copy o addr true true KCSC TMPZ (Some A) = Ok C /\ csc_ok C p i cx /\
    (forall c, 0 <= c < m_n A -> csc_column p i cx c = trip_column (m_nz A) ti tj x c) /\ ~ (m_scale C == m_scale A)%Q.
Proof.
  intros OK HT Hp Hs. pose proof (trip_stores OK) as HS. assert (NR : m_type A <> TMPFR) by (rewrite HT; discriminate).
  destruct (same_type_exact o addr HS NR) as (yx & HC & HV).
  destruct (trip_to_csc_copy OK (type_is HS) Hp HC) as (C & p & i & cx & E & CO & C1 & C2 & C3 & C4 & C5 & C6 & C7 & C8). rewrite HT in *.
  exists C, p, i, cx. split; auto. split; auto. split. { intros c Hc. rewrite C8 by auto. apply column_ext. auto. }
  rewrite C7. simpl. intros EQ. apply Hs. symmetry. exact EQ.
Qed.
Example C38_ex : exists C, matrix_copy None (fun _ => 1) true true KCSC TMPZ (Some exZ) = Ok C /\ m_scale C = 1%Q /\ m_x C = Some (VZ [5; 7; -2]) /\ m_scale exZ = 3%Q.
Proof. eexists. split; [reflexivity|]. repeat split. Qed.
