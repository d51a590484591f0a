(* C64, continued: SLIP_matrix_copy of a matrix whose array of values is NULL. *)
From Verif Require Import Base Spec MMatrix MatSpec PApi PCopy.
Set Implicit Arguments.
Open Scope Z_scope.
Set Bullet Behavior "Strict Subproofs".

(* everything is as it should be, with nz entries, but there is no array of values *)
Definition lacks_values (A : matrix) (nz : Z) : Prop :=
  m_x A = None /\ is_type (m_type A) /\ 0 <= m_m A /\ 0 <= m_n A /\ 0 <= nz /\
  ((m_kind A = KCSC /\ exists Ap Ai, m_p A = Some Ap /\ m_i A = Some Ai /\ m_n A + 1 <= zlen Ap /\ rd Ap (m_n A) = nz /\ nz <= zlen Ai) \/
   (m_kind A = KTRIP /\ m_nz A = nz /\ exists Ti Tj, m_i A = Some Ti /\ m_j A = Some Tj /\ nz <= zlen Ti /\ nz <= zlen Tj) \/
   (m_kind A = KDENSE /\ m_m A * m_n A = nz)).

Lemma memcpy_ok (C S : list Z) nz : 0 <= nz -> nz <= zlen C -> nz <= zlen S -> exists C', memcpy C S nz = Ok C'.
Proof. intros H1 H2 H3. destruct (wp_ok_ex _ _ (@memcpy_spec Z 0 C S nz nerr H1 H2 H3)) as (C' & E & _). eauto. Qed.

(* C64.  To the same kind, from CSC to triplet form, or to another type, the copy is rejected. *)
Theorem C64_copy_null_values : forall o addr ckind ctype A nz,
  lacks_values A nz -> KCSC <= ckind <= KDENSE -> is_type ctype ->
  (ckind = m_kind A \/ (m_kind A = KCSC /\ ckind = KTRIP) \/ ctype <> m_type A) ->
  matrix_copy o addr true true ckind ctype (Some A) = Err SLIP_INCORRECT_INPUT.
Proof.
  intros o addr ckind ctype A nz (HX & HT & Hm & Hn & Hz & HK) Hck Hct HC.
  assert (NZ : matrix_nnz true (Some A) = Ok nz).
  { unfold matrix_nnz. cbn [negb]. destruct HK as [(-> & Ap & Ai & -> & _ & L & E & _)|[(-> & E & _)|(-> & E)]].
    - change (KCSC =? KCSC) with true. cbv iota. rewrite (proj2 (Z.ltb_ge _ _) Hn). rewrite get_rd by lia. rewrite E. reflexivity.
    - change (KTRIP =? KCSC) with false. change (KTRIP =? KTRIP) with true. cbv iota. rewrite E. reflexivity.
    - change (KDENSE =? KCSC) with false. change (KDENSE =? KTRIP) with false. change (KDENSE =? KDENSE) with true. cbv iota. rewrite (proj2 (Z.ltb_ge _ _) Hn), (proj2 (Z.ltb_ge _ _) Hm). cbn [orb]. rewrite E. reflexivity. }
  unfold matrix_copy. cbn [negb]. rewrite NZ. cbn [bind orb].
  match goal with |- (if ?c then _ else _) = _ => assert (c = false) as -> end.
  { unfold is_type in *. rewrite !Z.gtb_ltb. rewrite !Bool.orb_false_iff, !Z.ltb_ge. lia. }
  assert (CM : ctype <> m_type A -> slip_cast_matrix o addr ctype A nz = Err SLIP_INCORRECT_INPUT).
  { intros N. unfold slip_cast_matrix. rewrite (proj2 (Z.eqb_neq _ _) N). rewrite (@alloc_ok KDENSE ctype nz 1 nz Hz ltac:(lia) ltac:(unfold KCSC, KDENSE; lia) Hct). cbv zeta. cbn [bind]. rewrite HX. unfold cast_array_ptr. cbn [m_x]. reflexivity. }
  assert (K : ckind = KCSC \/ ckind = KTRIP \/ ckind = KDENSE) by (unfold KCSC, KTRIP, KDENSE in *; lia).
  destruct HK as [(KA & Ap & Ai & Hp & Hi & L1 & L2 & L3)|[(KA & Enz & Ti & Tj & Hi & Hj & L1 & L2)|(KA & Enz)]]; rewrite KA; destruct K as [-> |[-> | ->]];
    cbn [KCSC KTRIP KDENSE Z.eqb Pos.eqb].
  - unfold copy_csc_csc. rewrite (@alloc_ok KCSC ctype _ _ nz Hm Hn ltac:(unfold KCSC, KDENSE; lia) Hct). cbv zeta. cbn [bind]. rewrite Hp, Hi, HX. cbn [deref bind m_p m_i m_x KCSC KTRIP KDENSE Z.eqb Pos.eqb].
    destruct (@memcpy_ok (mk (m_n A + 1) 0) Ap (m_n A + 1) ltac:(lia) ltac:(rewrite zlen_mk; lia) ltac:(lia)) as (C1 & ->). cbn [bind].
    destruct (@memcpy_ok (mk (Z.max nz 1) 0) Ai nz Hz ltac:(rewrite zlen_mk; lia) ltac:(lia)) as (C2 & ->). cbn [bind]. reflexivity.
  - unfold copy_csc_trip. rewrite (@alloc_ok KTRIP ctype _ _ nz Hm Hn ltac:(unfold KTRIP, KCSC, KDENSE; lia) Hct). cbv zeta. cbn [bind]. rewrite HX. reflexivity.
  - destruct HC as [HC|[(_ & HC)|HC]]; [rewrite KA in HC; discriminate|discriminate|].
    unfold copy_csc_dense. rewrite (@alloc_ok KDENSE ctype _ _ nz Hm Hn ltac:(unfold KCSC, KDENSE; lia) Hct). cbv zeta. cbn [bind]. rewrite (CM HC). reflexivity.
  - destruct HC as [HC|[(HC & _)|HC]]; [rewrite KA in HC; discriminate|rewrite KA in HC; discriminate|]. unfold copy_trip_csc. rewrite (CM HC). reflexivity.
  - unfold copy_trip_trip. rewrite (@alloc_ok KTRIP ctype _ _ nz Hm Hn ltac:(unfold KTRIP, KCSC, KDENSE; lia) Hct). cbv zeta. cbn [bind]. rewrite Hi, Hj, HX. cbn [deref bind m_i m_j m_x KCSC KTRIP KDENSE Z.eqb Pos.eqb].
    destruct (@memcpy_ok (mk (Z.max nz 1) 0) Tj nz Hz ltac:(rewrite zlen_mk; lia) ltac:(lia)) as (C1 & ->). cbn [bind].
    destruct (@memcpy_ok (mk (Z.max nz 1) 0) Ti nz Hz ltac:(rewrite zlen_mk; lia) ltac:(lia)) as (C2 & ->). cbn [bind]. reflexivity.
  - destruct HC as [HC|[(HC & _)|HC]]; [rewrite KA in HC; discriminate|rewrite KA in HC; discriminate|].
    unfold copy_trip_dense. rewrite (@alloc_ok KDENSE ctype _ _ nz Hm Hn ltac:(unfold KCSC, KDENSE; lia) Hct). cbv zeta. cbn [bind]. rewrite (CM HC). reflexivity.
  - destruct HC as [HC|[(HC & _)|HC]]; [rewrite KA in HC; discriminate|rewrite KA in HC; discriminate|]. unfold copy_dense_csc. rewrite (CM HC). reflexivity.
  - destruct HC as [HC|[(HC & _)|HC]]; [rewrite KA in HC; discriminate|rewrite KA in HC; discriminate|]. unfold copy_dense_trip, copy_dense_csc. rewrite (CM HC). reflexivity.
  - unfold copy_dense_dense. rewrite (@alloc_ok KDENSE ctype _ _ nz Hm Hn ltac:(unfold KCSC, KDENSE; lia) Hct). cbv zeta. cbn [bind]. rewrite HX. reflexivity.
Qed.
Definition exNull : matrix := mkM 2 2 3 0 KCSC TINT (Some [0; 2; 3]) (Some [0; 1; 1]) None None 1%Q.
Example C64_ex_null : lacks_values exNull 3 /\ matrix_copy None (fun _ => 1) true true KCSC TINT (Some exNull) = Err SLIP_INCORRECT_INPUT.
Proof.
  assert (L : lacks_values exNull 3). { split; [reflexivity|]. split; [unfold is_type, TMPZ, TDBL; cbn; unfold TINT; lia|]. cbn [m_m m_n exNull]. split; [lia|]. split; [lia|]. split; [lia|]. left. split; [reflexivity|]. do 2 eexists. split; [reflexivity|]. split; [reflexivity|]. vm_compute. repeat split; discriminate. }
  split; [exact L|]. apply (@C64_copy_null_values None _ KCSC TINT exNull 3 L); [unfold KCSC, KDENSE; lia|unfold is_type, TMPZ, TDBL, TINT; lia|left; reflexivity].
Qed.
(* To another kind with the same type, the values are read through the NULL pointer. *)
Theorem C64_copy_null_values_refuted : exists A nz ckind, lacks_values A nz /\ KCSC <= ckind <= KDENSE /\ matrix_copy None (fun _ => 1) true true ckind (m_type A) (Some A) = UB.
Proof.
  exists (mkM 2 2 4 0 KDENSE TINT None None None None 1%Q), 4, KCSC. split.
  - split; [reflexivity|]. split; [unfold is_type, TMPZ, TDBL; cbn; unfold TINT; lia|]. cbn. split; [lia|]. split; [lia|]. split; [lia|]. right. right. split; reflexivity.
  - split; [unfold KCSC, KDENSE; lia|]. vm_compute. reflexivity.
Qed.
