(* Proofs about the model of the MATLAB interface (MMex.v). *)
From Coq Require Import QArith Qabs Qpower Lqa String Ascii Qround.
From Coq Require Qcanon.
From Verif Require Import Base Det DetZ Spec SumQ MFactor MSolve MMatrix MApi ApiSpec PApi MatSpec PMat PFloat PCopy PConv PRound PCopy2 MDemo PDemo MMex MexSpec.
From Verif Require Import PropMat PropMat2 PropMat3.
From Verif Require DemoSpec.
Set Implicit Arguments.
Open Scope string_scope.
Open Scope list_scope.
Open Scope Z_scope.
Set Bullet Behavior "Strict Subproofs".

(*----------------------------------------------------------------------------*)
(* comparisons of doubles *)
Lemma fl_q_fin m e : exists v, fl_q (FFin m e) = Some v /\ (0 <= e -> (v == inject_Z (m * 2 ^ e))%Q) /\ (e < 0 -> (v == inject_Z m / inject_Z (2 ^ (- e)))%Q).
Proof.
  unfold fl_q. eexists. split; [reflexivity|]. destruct (Z.leb_spec 0 e); split; intros; try lia; try reflexivity.
  rewrite Qred_correct. assert (0 < 2 ^ (- e)) by (apply Z.pow_pos_nonneg; lia). unfold Qdiv, Qinv, inject_Z, Qmult, Qeq. cbn.
  destruct (2 ^ (- e)) as [|p|p] eqn:E; try lia. cbn. lia.
Qed.
Lemma fl_q_fin_inv m e v : fl_q (FFin m e) = Some v -> (0 <= e -> (v == inject_Z (m * 2 ^ e))%Q) /\ (e < 0 -> (v == inject_Z m / inject_Z (2 ^ (- e)))%Q).
Proof. intros H. destruct (fl_q_fin m e) as (v' & E & H'). rewrite E in H. injection H as <-. auto. Qed.
Lemma cmpz_spec m e z v : fl_q (FFin m e) = Some v -> cmpz m e z = (v ?= inject_Z z)%Q.
Proof.
  intros H. apply fl_q_fin_inv in H. destruct H as [H1 H2]. unfold cmpz. destruct (Z.leb_spec 0 e) as [He|He].
  - rewrite (H1 He). unfold Qcompare, inject_Z. cbn. now rewrite !Z.mul_1_r.
  - rewrite (H2 He). assert (P : 0 < 2 ^ (- e)) by (apply Z.pow_pos_nonneg; lia). unfold Qcompare, Qdiv, Qinv, inject_Z, Qmult. cbn.
    destruct (2 ^ (- e)) as [|p|p]; try lia. cbn. now rewrite !Z.mul_1_r.
Qed.
Lemma gtz_spec m e z v : fl_q (FFin m e) = Some v -> gtz (FFin m e) z = true <-> (inject_Z z < v)%Q.
Proof. intros H. unfold gtz. rewrite (cmpz_spec z H). rewrite Qgt_alt. destruct (v ?= inject_Z z)%Q; split; intros; congruence. Qed.
Lemma ltz_spec m e z v : fl_q (FFin m e) = Some v -> ltz (FFin m e) z = true <-> (v < inject_Z z)%Q.
Proof. intros H. unfold ltz. rewrite (cmpz_spec z H). rewrite Qlt_alt. destruct (v ?= inject_Z z)%Q; split; intros; congruence. Qed.
Lemma lez_spec m e z v : fl_q (FFin m e) = Some v -> lez (FFin m e) z = true <-> (v <= inject_Z z)%Q.
Proof. intros H. unfold lez. rewrite (cmpz_spec z H). rewrite Qle_alt. destruct (v ?= inject_Z z)%Q; split; intros; congruence. Qed.
Lemma trunc_spec m e v : fl_q (FFin m e) = Some v -> truncated v (trunc_fl m e).
Proof.
  intros H. apply fl_q_fin_inv in H. destruct H as [H1 H2]. unfold truncated, trunc_fl. destruct (Z.leb_spec 0 e) as [He|He].
  - rewrite (H1 He). split; [apply Qle_refl|]. split.
    + setoid_replace (inject_Z (m * 2 ^ e) - inject_Z (m * 2 ^ e))%Q with 0%Q by ring. reflexivity.
    + rewrite <- inject_Z_mult. change 0%Q with (inject_Z 0). rewrite <- Zle_Qle. nia.
  - rewrite (H2 He). assert (P : 0 < 2 ^ (- e)) by (apply Z.pow_pos_nonneg; lia). set (d := 2 ^ (- e)) in *.
    assert (PQ : (0 < inject_Z d)%Q) by (change 0%Q with (inject_Z 0); rewrite <- Zlt_Qlt; lia).
    pose proof (Z.quot_rem' m d) as QR. pose proof (Z.rem_bound_abs m d ltac:(lia)) as RB. rewrite (Z.abs_eq d) in RB by lia.
    set (t := Z.quot m d) in *. set (r := Z.rem m d) in *.
    assert (TQ : (inject_Z t == (inject_Z t * inject_Z d) / inject_Z d)%Q) by (field; intros E; rewrite E in PQ; discriminate PQ).
    assert (ABS : forall z, (Qabs (inject_Z z / inject_Z d) == inject_Z (Z.abs z) / inject_Z d)%Q).
    { intros z. unfold Qdiv. rewrite Qabs_Qmult. rewrite (Qabs_pos (/ inject_Z d)). reflexivity. apply Qlt_le_weak, Qinv_lt_0_compat, PQ. }
    assert (SG : 0 <= t * m).
    { unfold t. destruct (Z_le_gt_dec 0 m). { assert (0 <= Z.quot m d) by (apply Z.quot_pos; lia). nia. }
      assert (Z.quot m d <= 0). { replace m with (- (- m)) by lia. rewrite Z.quot_opp_l by lia. assert (0 <= Z.quot (- m) d) by (apply Z.quot_pos; lia). lia. } nia. }
    assert (AB : Z.abs (t * d) <= Z.abs m).
    { rewrite Z.abs_mul, (Z.abs_eq d) by lia. unfold t. rewrite <- Z.quot_abs by lia. rewrite (Z.abs_eq d) by lia. rewrite Z.quot_div_nonneg by lia.
      rewrite Z.mul_comm. apply Z.mul_div_le. lia. }
    split; [|split].
    + rewrite TQ, <- inject_Z_mult, !ABS. apply Qle_shift_div_l; auto. unfold Qdiv. rewrite <- Qmult_assoc, (Qmult_comm (/ _)), Qmult_inv_r, Qmult_1_r by (intros E; rewrite E in PQ; discriminate PQ).
      rewrite <- Zle_Qle. auto.
    + setoid_replace (inject_Z m / inject_Z d - inject_Z t)%Q with (inject_Z r / inject_Z d)%Q.
      2:{ rewrite QR at 1. rewrite inject_Z_plus, inject_Z_mult. field. intros E; rewrite E in PQ; discriminate PQ. }
      rewrite ABS. apply Qlt_shift_div_r; auto. rewrite Qmult_1_l, <- Zlt_Qlt. auto.
    + setoid_replace (inject_Z t * (inject_Z m / inject_Z d))%Q with (inject_Z (t * m) / inject_Z d)%Q by (rewrite inject_Z_mult; field; intros E; rewrite E in PQ; discriminate PQ).
      apply Qle_shift_div_l; auto. rewrite Qmult_0_l. change 0%Q with (inject_Z 0). rewrite <- Zle_Qle. auto.
Qed.
Lemma truncated_unique q t t' : truncated q t -> truncated q t' -> t = t'.
Proof.
  intros (A1 & A2 & A3) (B1 & B2 & B3).
  assert (D : (Qabs (inject_Z t - inject_Z t') < 2)%Q).
  { setoid_replace (inject_Z t - inject_Z t')%Q with ((inject_Z t - q) + (q - inject_Z t'))%Q by ring.
    eapply Qle_lt_trans; [apply Qabs_triangle|]. rewrite (Qabs_Qminus (inject_Z t) q). lra. }
  unfold Qminus in D. rewrite <- inject_Z_opp, <- inject_Z_plus in D. change (Qabs (inject_Z (t + - t'))) with (inject_Z (Z.abs (t + - t'))) in D.
  change 2%Q with (inject_Z 2) in D. rewrite <- Zlt_Qlt in D.
  change (Qabs (inject_Z t)) with (inject_Z (Z.abs t)) in A1. change (Qabs (inject_Z t')) with (inject_Z (Z.abs t')) in B1.
  (* |q| is at least the larger of |t| and |t'| and within 1 of both *)
  destruct (Z.eq_dec t t') as [|NE]; auto. exfalso.
  assert (C : t' = t + 1 \/ t = t' + 1) by lia. clear D NE. revert A1 A2 A3 B1 B2 B3.
  assert (G : forall t t', t' = t + 1 -> (inject_Z (Z.abs t) <= Qabs q)%Q -> (Qabs (q - inject_Z t) < 1)%Q -> (0 <= inject_Z t * q)%Q ->
     (inject_Z (Z.abs t') <= Qabs q)%Q -> (Qabs (q - inject_Z t') < 1)%Q -> (0 <= inject_Z t' * q)%Q -> False).
  { clear. intros t t' -> A1 A2 A3 B1 B2 B3. apply Qabs_Qlt_condition in A2, B2. rewrite inject_Z_plus in B2. change (inject_Z 1) with 1%Q in B2.
    destruct (Z_le_gt_dec 0 t) as [T|T].
    - assert (Q0 : (0 <= q)%Q). { apply Qnot_lt_le. intros N. rewrite inject_Z_plus in B3. assert ((0 <= inject_Z t)%Q) by (change 0%Q with (inject_Z 0); now rewrite <- Zle_Qle). change (inject_Z 1) with 1%Q in B3. nra. }
      rewrite (Qabs_pos q Q0) in *. rewrite (Z.abs_eq (t + 1)) in B1 by lia. rewrite inject_Z_plus in B1. change (inject_Z 1) with 1%Q in B1. lra.
    - assert (T' : (inject_Z t <= -1)%Q) by (change (-1)%Q with (inject_Z (-1)); rewrite <- Zle_Qle; lia).
      assert (Q0 : (q <= 0)%Q). { apply Qnot_lt_le. intros N. nra. }
      rewrite (Qabs_neg q Q0) in *. rewrite (Z.abs_neq t) in A1 by lia. rewrite inject_Z_opp in A1. lra. }
  destruct C as [C|C]; intros; eapply (G _ _ C); eauto.
Qed.
Lemma is_int_spec m e v : fl_q (FFin m e) = Some v -> is_int (FFin m e) = true <-> (v == inject_Z (trunc_fl m e))%Q.
Proof.
  intros H. apply fl_q_fin_inv in H. destruct H as [H1 H2]. unfold is_int, trunc_fl. destruct (Z.leb_spec 0 e) as [He|He].
  - rewrite (H1 He). split; intros; reflexivity.
  - rewrite (H2 He). assert (P : 0 < 2 ^ (- e)) by (apply Z.pow_pos_nonneg; lia). set (d := 2 ^ (- e)) in *.
    rewrite Z.eqb_eq. split; intros E.
    + rewrite E at 1. rewrite inject_Z_mult. field. intros Z0. apply (proj1 (inject_Z_injective d 0)) in Z0. lia.
    + assert (E' : (inject_Z m == inject_Z (Z.quot m d * d))%Q). { rewrite inject_Z_mult, <- E. field. intros Z0. apply (proj1 (inject_Z_injective d 0)) in Z0. lia. }
      now apply (proj1 (inject_Z_injective _ _)) in E'.
Qed.
Lemma cast_int_ok b m e : - 2 ^ (b - 1) <= trunc_fl m e < 2 ^ (b - 1) -> cast_int b (FFin m e) = Ok (trunc_fl m e).
Proof. intros H. unfold cast_int. destruct (Z.leb_spec (- 2 ^ (b - 1)) (trunc_fl m e)), (Z.ltb_spec (trunc_fl m e) (2 ^ (b - 1))); cbn [andb]; auto; lia. Qed.

(*----------------------------------------------------------------------------*)
(* options *)
Lemma streq_eq a : forall b, streq a b = true <-> a = b.
Proof.
  induction a as [|x a IH]; intros [|y b]; cbn; try (split; congruence). rewrite andb_true_iff, Z.eqb_eq, IH. split. intros [-> ->]; auto. intros E; injection E; auto.
Qed.
Lemma streq_refl a : streq a a = true.
Proof. now apply streq_eq. Qed.
Lemma scalar_of f x : scalar f x <-> mx_scalar f = Ok x.
Proof.
  unfold scalar, mx_scalar. destruct f as [[|c t]|y].
  - split; [|discriminate]. intros [H|(c & t & H & _)]; discriminate.
  - split. intros [H|(c' & t' & H & ->)]; [discriminate|]. injection H as -> ->; auto. intros H; injection H as <-. right; eauto.
  - split. intros [H|(c' & t' & H & _)]; [|discriminate]. injection H as ->; auto. intros H; injection H as ->. auto.
Qed.

(* the texts that may be in the buffer when the solution option is looked at *)
Definition buf_ok (b : option (list Z)) : Prop := forall s, b = Some s -> In s [t_none; t_colamd; t_amd; t_smallest; t_diagonal; t_first; t_tol_ ++ t_smallest; t_tol_ ++ t_largest; t_largest].
Ltac inn := repeat first [left; reflexivity|right].
Lemma get_order_spec f :
  (forall z, named order_names 1 f z -> exists b, get_order f = Ok (Ret (z, b))) /\
  (forall z b, get_order f = Ok (Ret (z, b)) -> named order_names 1 f z /\ buf_ok b /\ (f <> None -> b <> None)) /\ (exists r, get_order f = Ok r).
Proof.
  split; [|split].
  - intros z [(-> & ->)|(s & name & -> & E & I)]; [eexists; reflexivity|]. unfold get_order. rewrite E.
    destruct I as [I|[I|[I|[]]]]; injection I as <- <-; eexists; reflexivity.
  - intros z b H. unfold get_order in H. destruct f as [[s|x]|]; [|discriminate|injection H as <- <-; split; [left; auto|]; split; [intros s; discriminate|congruence]].
    cbv zeta in H. set (t := mx_string s) in *.
    assert (G : forall nm k, t = codes nm -> In (nm, k) order_names -> In (codes nm) [t_none; t_colamd; t_amd; t_smallest; t_diagonal; t_first; t_tol_ ++ t_smallest; t_tol_ ++ t_largest; t_largest] ->
      named order_names 1 (Some (MxChar s)) k /\ buf_ok (Some t) /\ (Some (MxChar s) <> None -> Some t <> None)).
    { intros nm k E I J. split; [right; exists s, nm; auto|]. split; [|discriminate]. intros s' Es; injection Es as <-. rewrite E. auto. }
    destruct (streq t t_none) eqn:E1. { apply streq_eq in E1. injection H as <- <-. apply (G "none"); [exact E1|inn|inn]. }
    destruct (streq t t_colamd) eqn:E2. { apply streq_eq in E2. injection H as <- <-. apply (G "colamd"); [exact E2|inn|inn]. }
    destruct (streq t t_amd) eqn:E3; [|discriminate]. apply streq_eq in E3. injection H as <- <-. apply (G "amd"); [exact E3|inn|inn].
  - unfold get_order. destruct f as [[s|x]|]; try (eexists; reflexivity). cbv zeta. destruct (streq (mx_string s) t_none), (streq (mx_string s) t_colamd), (streq (mx_string s) t_amd); eexists; reflexivity.
Qed.
Lemma get_pivot_spec f b0 : buf_ok b0 ->
  (forall z, named pivot_names 3 f z -> exists b, get_pivot f b0 = Ok (Ret (z, b))) /\
  (forall z b, get_pivot f b0 = Ok (Ret (z, b)) -> named pivot_names 3 f z /\ buf_ok b /\ (b0 <> None \/ f <> None -> b <> None)) /\ (exists r, get_pivot f b0 = Ok r).
Proof.
  intros B0. split; [|split].
  - intros z [(-> & ->)|(s & name & -> & E & I)]; [eexists; reflexivity|]. unfold get_pivot. rewrite E.
    destruct I as [I|[I|[I|[I|[I|[I|[]]]]]]]; injection I as <- <-; eexists; reflexivity.
  - intros z b H. unfold get_pivot in H. destruct f as [[s|x]|]; [|discriminate|injection H as <- <-; split; [left; auto|]; split; [auto|intuition congruence]].
    cbv zeta in H. set (t := mx_string s) in *.
    assert (G : forall nm k, t = codes nm -> In (nm, k) pivot_names -> In (codes nm) [t_none; t_colamd; t_amd; t_smallest; t_diagonal; t_first; t_tol_ ++ t_smallest; t_tol_ ++ t_largest; t_largest] ->
      named pivot_names 3 (Some (MxChar s)) k /\ buf_ok (Some t) /\ (b0 <> None \/ Some (MxChar s) <> None -> Some t <> None)).
    { intros nm k E I J. split; [right; exists s, nm; auto|]. split; [|discriminate]. intros s' Es; injection Es as <-. rewrite E. auto. }
    destruct (streq t t_smallest) eqn:E1. { apply streq_eq in E1. injection H as <- <-. apply (G "smallest"); [exact E1|inn|inn]. }
    destruct (streq t t_diagonal) eqn:E2. { apply streq_eq in E2. injection H as <- <-. apply (G "diagonal"); [exact E2|inn|inn]. }
    destruct (streq t t_first) eqn:E3. { apply streq_eq in E3. injection H as <- <-. apply (G "first"); [exact E3|inn|inn]. }
    destruct (streq t (t_tol_ ++ t_smallest)) eqn:E4. { apply streq_eq in E4. injection H as <- <-. apply (G "tol smallest"); [exact E4|inn|inn]. }
    destruct (streq t (t_tol_ ++ t_largest)) eqn:E5. { apply streq_eq in E5. injection H as <- <-. apply (G "tol largest"); [exact E5|inn|inn]. }
    destruct (streq t t_largest) eqn:E6; [|discriminate]. apply streq_eq in E6. injection H as <- <-. apply (G "largest"); [exact E6|inn|inn].
  - unfold get_pivot. destruct f as [[s|x]|]; try (eexists; reflexivity). cbv zeta. 
    destruct (streq (mx_string s) t_smallest), (streq (mx_string s) t_diagonal), (streq (mx_string s) t_first), (streq (mx_string s) (t_tol_ ++ t_smallest)), (streq (mx_string s) (t_tol_ ++ t_largest)), (streq (mx_string s) t_largest); eexists; reflexivity.
Qed.
(* an option that has a value: not an empty string *)
Definition valued (f : option mxfield) : Prop := f <> Some (MxChar []).
Lemma valued_scalar f : valued (Some f) -> exists x, mx_scalar f = Ok x.
Proof. destruct f as [[|c t]|x]; intros H; [exfalso; apply H; reflexivity|eexists; reflexivity|eexists; reflexivity]. Qed.
Lemma get_tol_spec p f :
  (forall x, tolerance p f x -> get_tol p f = Ok (Ret x)) /\
  (forall x, get_tol p f = Ok (Ret x) -> tolerance p f x \/ (exists g, f = Some g /\ scalar g FNan /\ x = FNan)) /\ (valued f -> exists r, get_tol p f = Ok r).
Proof.
  assert (P : (p =? 3) || (p =? 4) = true <-> p = 3 \/ p = 4) by (rewrite orb_true_iff, !Z.eqb_eq; tauto).
  split; [|split].
  - intros x [(H & ->)|(Hp & g & q & -> & S & Hq & Q1 & Q2)]; unfold get_tol.
    + destruct ((p =? 3) || (p =? 4)) eqn:E; auto. destruct H as [->|H]; auto. exfalso. apply H. now apply P.
    + rewrite (proj2 P Hp). apply scalar_of in S. rewrite S. cbn [bind]. destruct x as [| |m e]; try discriminate Hq.
      destruct (gtz (FFin m e) 1) eqn:G1. { apply (gtz_spec 1 Hq) in G1. exfalso. apply (Qlt_not_le _ _ G1 Q2). }
      destruct (lez (FFin m e) 0) eqn:G2. { apply (lez_spec 0 Hq) in G2. exfalso. apply (Qlt_not_le _ _ Q1 G2). } reflexivity.
  - intros x H. unfold get_tol in H. destruct ((p =? 3) || (p =? 4)) eqn:E.
    + destruct f as [g|]; [|injection H as <-; left; left; auto]. destruct (mx_scalar g) as [y| | |] eqn:S; try discriminate. cbn [bind] in H.
      apply scalar_of in S. destruct y as [|s|m e].
      * injection H as <-. right. exists g. auto.
      * destruct s; discriminate.
      * destruct (fl_q_fin m e) as (q & Hq & _). destruct (gtz (FFin m e) 1) eqn:G1; [discriminate|]. destruct (lez (FFin m e) 0) eqn:G2; [discriminate|]. injection H as <-.
        left; right. split; [now apply P|]. exists g, q. do 3 (split; auto). split; apply Qnot_le_lt || apply Qnot_lt_le; intros N.
        { apply (lez_spec 0 Hq) in N. congruence. } { apply (gtz_spec 1 Hq) in N. congruence. }
    + injection H as <-. left; left. split; auto. right. intros N. apply P in N. congruence.
  - intros V. unfold get_tol. destruct ((p =? 3) || (p =? 4)); [|eexists; reflexivity]. destruct f as [g|]; [|eexists; reflexivity].
    destruct (valued_scalar V) as (x & ->). cbn [bind]. destruct (gtz x 1 || lez x 0); eexists; reflexivity.
Qed.
Lemma get_solution_spec f b : buf_ok b ->
  (forall z, named solution_names 0 f z -> get_solution f b = Ok (Ret z)) /\
  (forall z, get_solution f b = Ok (Ret z) -> named solution_names 0 f z) /\ ((forall x, f = Some (MxNum x) -> b <> None) -> exists r, get_solution f b = Ok r).
Proof.
  intros B. split; [|split].
  - intros z [(-> & ->)|(s & name & -> & E & I)]; [reflexivity|]. unfold get_solution. rewrite E.
    destruct I as [I|[I|[I|[]]]]; injection I as <- <-; reflexivity.
  - intros z H. unfold get_solution in H. destruct f as [[s|x]|]; [| |injection H as <-; left; auto].
    + set (t := mx_string s) in *.
      destruct (streq t t_vpa) eqn:E1. { apply streq_eq in E1. injection H as <-. right. exists s, "vpa". split; auto. split; [exact E1|simpl; auto]. }
      destruct (streq t t_char) eqn:E2. { apply streq_eq in E2. injection H as <-. right. exists s, "char". split; auto. split; [exact E2|simpl; auto]. }
      destruct (streq t t_double) eqn:E3; [|discriminate]. apply streq_eq in E3. injection H as <-. right. exists s, "double". split; auto. split; [exact E3|simpl; auto].
    + destruct b as [t|]; [|discriminate]. exfalso. specialize (B t eq_refl). repeat (destruct B as [<-|B]; [discriminate H|]). contradiction.
  - intros V. unfold get_solution. destruct f as [[s|x]|]; [| |eexists; reflexivity].
    + destruct (streq (mx_string s) t_vpa), (streq (mx_string s) t_char), (streq (mx_string s) t_double); eexists; reflexivity.
    + specialize (V x eq_refl). destruct b as [t|]; [|congruence]. destruct (streq t t_vpa), (streq t t_char), (streq t t_double); eexists; reflexivity.
Qed.
Lemma int_value m e v t : fl_q (FFin m e) = Some v -> (v == inject_Z t)%Q -> trunc_fl m e = t.
Proof.
  intros H E. apply (@truncated_unique v); [now apply trunc_spec|]. unfold truncated. rewrite E. split; [apply Qle_refl|]. split.
  - setoid_replace (inject_Z t - inject_Z t)%Q with 0%Q by ring. reflexivity.
  - rewrite <- inject_Z_mult. change 0%Q with (inject_Z 0). rewrite <- Zle_Qle. nia.
Qed.
Lemma get_digits_spec f :
  (forall d, digits_opt f d -> get_digits f = Ok (Ret d)) /\
  (forall d, get_digits f = Ok (Ret d) -> digits_opt f d) /\ (valued f -> exists r, get_digits f = Ok r).
Proof.
  assert (G : forall m e q, fl_q (FFin m e) = Some q -> negb (is_int (FFin m e)) || ltz (FFin m e) 2 || gtz (FFin m e) (2 ^ 29) = false ->
    (q == inject_Z (trunc_fl m e))%Q /\ 2 <= trunc_fl m e <= 2 ^ 29).
  { intros m e q Hq H. apply orb_false_iff in H. destruct H as [H H3]. apply orb_false_iff in H. destruct H as [H1 H2]. apply negb_false_iff in H1.
    apply (is_int_spec Hq) in H1. split; auto. split; rewrite Zle_Qle, <- H1; apply Qnot_lt_le; intros N.
    - apply (ltz_spec 2 Hq) in N. congruence.
    - apply (gtz_spec (2 ^ 29) Hq) in N. congruence. }
  split; [|split].
  - intros d [(-> & ->)|(g & x & q & -> & S & Hq & E & D)]; [reflexivity|]. unfold get_digits. apply scalar_of in S. rewrite S. cbn [bind].
    destruct x as [| |m e]; try discriminate Hq. pose proof (int_value Hq E) as T.
    replace (is_int (FFin m e)) with true by (symmetry; apply (is_int_spec Hq); now rewrite T).
    destruct (ltz (FFin m e) 2) eqn:G1. { apply (ltz_spec 2 Hq) in G1. rewrite E, <- Zlt_Qlt in G1. lia. }
    destruct (gtz (FFin m e) (2 ^ 29)) eqn:G2. { apply (gtz_spec (2 ^ 29) Hq) in G2. rewrite E, <- Zlt_Qlt in G2. lia. }
    cbn [negb orb]. rewrite cast_int_ok by (rewrite T; change (2 ^ (32 - 1)) with (2 ^ 31); lia). rewrite T. reflexivity.
  - intros d H. unfold get_digits in H. destruct f as [g|]; [|injection H as <-; left; auto]. destruct (mx_scalar g) as [x| | |] eqn:S; try discriminate. cbn [bind] in H.
    apply scalar_of in S. destruct x as [|s|m e]; [discriminate|destruct s; discriminate|]. destruct (fl_q_fin m e) as (q & Hq & _).
    destruct (negb (is_int (FFin m e)) || ltz (FFin m e) 2 || gtz (FFin m e) (2 ^ 29)) eqn:E; [discriminate|].
    destruct (G _ _ _ Hq E) as (G1 & G2). rewrite cast_int_ok in H by (change (2 ^ (32 - 1)) with (2 ^ 31); lia). injection H as <-. right. exists g, (FFin m e), q. auto.
  - intros V. unfold get_digits. destruct f as [g|]; [|eexists; reflexivity]. destruct (valued_scalar V) as (x & ->). cbn [bind].
    destruct x as [|s|m e]; [eexists; reflexivity|destruct s; eexists; reflexivity|]. destruct (fl_q_fin m e) as (q & Hq & _).
    destruct (negb (is_int (FFin m e)) || ltz (FFin m e) 2 || gtz (FFin m e) (2 ^ 29)) eqn:E; [eexists; reflexivity|].
    destruct (G _ _ _ Hq E) as (G1 & G2). rewrite cast_int_ok by (change (2 ^ (32 - 1)) with (2 ^ 31); lia). eexists; reflexivity.
Qed.
Lemma clamp t : Z.max (Z.min t 3) 0 = if t <? 0 then 0 else if 3 <? t then 3 else t.
Proof. destruct (Z.ltb_spec t 0); [lia|]. destruct (Z.ltb_spec 3 t); lia. Qed.
Lemma get_print_spec f :
  (forall k, print_opt f k -> get_print f = Ok (Ret k)) /\ (forall k, get_print f = Ok (Ret k) -> print_opt f k) /\
  (forall r, get_print f = Ok r -> exists k, r = Ret k).
Proof.
  split; [|split].
  - intros k [(-> & ->)|(g & x & q & t & -> & S & Hq & T & B & ->)]; [reflexivity|]. unfold get_print. apply scalar_of in S. rewrite S. cbn [bind].
    destruct x as [| |m e]; try discriminate Hq. pose proof (truncated_unique T (trunc_spec Hq)) as ->.
    rewrite cast_int_ok by (change (2 ^ (32 - 1)) with (2 ^ 31); lia). cbn [bind]. now rewrite clamp.
  - intros k H. unfold get_print in H. destruct f as [g|]; [|injection H as <-; left; auto]. destruct (mx_scalar g) as [x| | |] eqn:S; try discriminate. cbn [bind] in H.
    apply scalar_of in S. destruct x as [|s|m e]; try discriminate. destruct (fl_q_fin m e) as (q & Hq & _). unfold cast_int in H.
    destruct (Z.leb_spec (- 2 ^ (32 - 1)) (trunc_fl m e)), (Z.ltb_spec (trunc_fl m e) (2 ^ (32 - 1))); try discriminate. injection H as <-.
    right. exists g, (FFin m e), q, (trunc_fl m e). do 3 (split; auto). split; [now apply trunc_spec|]. split; [change (2 ^ (32 - 1)) with (2 ^ 31) in *; lia|]. apply clamp.
  - intros r H. unfold get_print in H. destruct f as [g|]; [|injection H as <-; eexists; reflexivity].
    destruct (mx_scalar g) as [x| | |]; try discriminate. cbn [bind] in H. destruct (cast_int 32 x) as [v| | |]; try discriminate. injection H as <-. eexists; reflexivity.
Qed.

(*----------------------------------------------------------------------------*)
(* slip_mex_check_for_inf *)
Lemma get_d (x : list fl) k : 0 <= k < zlen x -> get x k = Ok (rdg FNan x k).
Proof. apply PSolve.get_rdg. Qed.
Definition i64 (v : fl) : Prop := exists z q, fl_q v = Some q /\ (q == inject_Z z)%Q /\ - 2 ^ 63 <= z < 2 ^ 63.
Lemma int64_all_i64 pr nz : int64_all pr nz <-> forall k, 0 <= k < nz -> i64 (rdg FNan pr k).
Proof.
  unfold int64_all, i64, holds. split; intros H k Hk; destruct (H k Hk) as (z & G).
  - destruct G as ((v & G1 & G2) & G3). exists z, v. auto.
  - destruct G as (q & G1 & G2 & G3). exists z. split; auto. exists q. auto.
Qed.
(* one step for a finite number other than 2^63 *)
Lemma inf_step m e q : fl_q (FFin m e) = Some q -> ~ (q == inject_Z (2 ^ 63))%Q ->
  (ltz (FFin m e) (- 2 ^ 63) || gtz (FFin m e) (2 ^ 63) = true /\ ~ i64 (FFin m e)) \/
  (ltz (FFin m e) (- 2 ^ 63) || gtz (FFin m e) (2 ^ 63) = false /\ cast_int 64 (FFin m e) = Ok (trunc_fl m e) /\
   ((match cmpz m e (trunc_fl m e) with Eq => true | _ => false end) = true <-> i64 (FFin m e))).
Proof.
  intros Hq N. destruct (ltz (FFin m e) (- 2 ^ 63)) eqn:E1; [|destruct (gtz (FFin m e) (2 ^ 63)) eqn:E2]; cbn [orb].
  - left. split; auto. apply (ltz_spec _ Hq) in E1. intros (z & q' & Hq' & Ez & R). rewrite Hq in Hq'. injection Hq' as <-. rewrite Ez, <- Zlt_Qlt in E1. lia.
  - left. split; auto. apply (gtz_spec _ Hq) in E2. intros (z & q' & Hq' & Ez & R). rewrite Hq in Hq'. injection Hq' as <-. rewrite Ez, <- Zlt_Qlt in E2. lia.
  - right. split; auto.
    assert (L1 : (inject_Z (- 2 ^ 63) <= q)%Q). { apply Qnot_lt_le. intros H. apply (ltz_spec _ Hq) in H. congruence. }
    assert (L2 : (q < inject_Z (2 ^ 63))%Q).
    { assert (L : (q <= inject_Z (2 ^ 63))%Q) by (apply Qnot_lt_le; intros H; apply (gtz_spec _ Hq) in H; congruence). apply Qle_lteq in L. tauto. }
    pose proof (trunc_spec Hq) as T.
    assert (R : - 2 ^ 63 <= trunc_fl m e < 2 ^ 63).
    { destruct T as (T1 & T2 & T3). set (t := trunc_fl m e) in *. change (Qabs (inject_Z t)) with (inject_Z (Z.abs t)) in T1. split.
      - destruct (Z_le_gt_dec 0 t); [lia|]. rewrite Z.abs_neq in T1 by lia.
        assert (Q0 : (q <= 0)%Q). { apply Qnot_lt_le. intros H. assert ((inject_Z t <= -1)%Q) by (change (-1)%Q with (inject_Z (-1)); rewrite <- Zle_Qle; lia). nra. }
        rewrite (Qabs_neg q Q0) in T1. rewrite inject_Z_opp in T1. rewrite Zle_Qle. apply Qle_trans with q; auto. lra.
      - destruct (Z_le_gt_dec t 0); [lia|]. rewrite Z.abs_eq in T1 by lia.
        assert (Q0 : (0 <= q)%Q). { apply Qnot_lt_le. intros H. assert ((1 <= inject_Z t)%Q) by (change 1%Q with (inject_Z 1); rewrite <- Zle_Qle; lia). nra. }
        rewrite (Qabs_pos q Q0) in T1. rewrite Zlt_Qlt. apply Qle_lt_trans with q; auto. }
    split; [apply cast_int_ok; exact R|]. rewrite (cmpz_spec _ Hq). split.
    + intros H. exists (trunc_fl m e), q. split; auto. split; auto. apply Qeq_alt. destruct (q ?= inject_Z (trunc_fl m e))%Q; congruence.
    + intros (z & q' & Hq' & Ez & _). rewrite Hq in Hq'. injection Hq' as <-. rewrite (int_value Hq Ez). apply Qeq_alt in Ez. now rewrite Ez.
Qed.
Definition inf_body (x : list fl) (k : Z) (st : mex bool) : res (mex bool) :=
    match st with
    | Throw s => Ok (Throw s)
    | Ret isint =>
        let* xk := get x k in
        match xk with
        | FInf _ => throw MexInf
        | FNan => throw MexNan
        | FFin m e =>
            if negb isint then mret isint
            else if ltz xk (- 2 ^ 63) || gtz xk (2 ^ 63) then mret false
            else let* xi := cast_int 64 xk in mret (match cmpz m e xi with Eq => true | _ => false end)
        end
    end.
Lemma check_for_inf_eq x n : check_for_inf x n = for_ 0 n (inf_body x) (Ret true).
Proof. reflexivity. Qed.
Lemma inf_prefix x n : 0 <= n <= zlen x -> finite_all x n -> no_2p63 x n ->
  exists b : bool, for_ 0 n (inf_body x) (Ret true) = Ok (Ret b) /\ (b = true <-> int64_all x n).
Proof.
  intros Hn HF H2.
  destruct (wp_ok_ex _ _ (@wp_for _ 0 n (inf_body x) (fun k st => exists b : bool, st = Ret b /\ (b = true <-> int64_all x k)) (Ret true) nerr (proj1 Hn)
    ltac:(exists true; split; auto; split; auto; intros _ k Hk; lia)
    ltac:(intros k st Hk (b & -> & HB);
      unfold inf_body; rewrite get_d by lia; cbn [bind]; destruct (HF k Hk) as (q & Hq); destruct (rdg FNan x k) as [|s|m e] eqn:EV; try discriminate Hq;
      assert (NX : int64_all x (k + 1) <-> int64_all x k /\ i64 (FFin m e));
      [rewrite !int64_all_i64; split; [intros H; split; [intros j Hj; apply H; lia|rewrite <- EV; apply H; lia]|intros [H0 H1] j Hj; destruct (Z.eq_dec j k) as [->|]; [now rewrite EV|apply H0; lia]]|];
      destruct b; cbn [negb]; [|exists false; split; auto; split; [discriminate|intros H; apply NX in H; apply HB; tauto]];
      destruct (@inf_step m e q Hq ltac:(apply (H2 k q Hk); now rewrite EV)) as [(E1 & E2)|(E1 & E2 & E3)]; rewrite E1;
      [exists false; split; auto; split; [discriminate|intros H; apply NX in H; tauto]|];
      rewrite E2; cbn [bind]; eexists; split; [reflexivity|]; rewrite E3, NX; split; [intros H; split; auto; now apply HB|tauto]))) as (st & -> & b & -> & HB).
  exists b. auto.
Qed.
Lemma floop_app S a b : forall lo (F : Z -> S -> res S) s, floop (a + b) lo F s = bind (floop a lo F s) (floop b (lo + Z.of_nat a) F).
Proof.
  induction a as [|a IH]; intros lo F s. { cbn [floop Nat.add bind]. now replace (lo + Z.of_nat 0) with lo by lia. }
  cbn [Nat.add floop]. destruct (F lo s) as [s'| | |]; cbn [bind]; auto. rewrite IH. now replace (lo + 1 + Z.of_nat a) with (lo + Z.of_nat (Datatypes.S a)) by lia.
Qed.
Lemma inf_stuck x s c : forall k, floop c k (inf_body x) (Throw s) = Ok (Throw s).
Proof. induction c as [|c IH]; intros k; cbn [floop]; auto. cbn [inf_body bind]. apply IH. Qed.
(* the first number that is not finite stops the check *)
Lemma inf_stop x n k : 0 <= k < n -> n <= zlen x -> finite_all x k -> no_2p63 x k -> fl_q (rdg FNan x k) = None ->
  check_for_inf x n = Ok (Throw (match rdg FNan x k with FNan => MexNan | _ => MexInf end)).
Proof.
  intros Hk Hn HF H2 HN. rewrite check_for_inf_eq. destruct (@inf_prefix x k ltac:(lia) HF H2) as (b & E & _).
  unfold for_ in *. replace (Z.to_nat (n - 0)) with (Z.to_nat (k - 0) + S (Z.to_nat (n - k - 1)))%nat by lia.
  rewrite floop_app, E. cbn [bind]. replace (0 + Z.of_nat (Z.to_nat (k - 0))) with k by lia. cbn [floop]. unfold inf_body at 1. rewrite get_d by lia. cbn [bind].
  destruct (rdg FNan x k) as [|s|m e]; try discriminate HN; unfold throw; cbn [bind]; apply inf_stuck.
Qed.
Lemma typecast_spec x n : 0 <= n <= zlen x -> int64_all x n -> exists y, typecast x n = Ok y /\ zlen y = n /\ forall k, 0 <= k < n -> holds x k (inject_Z (rd y k)).
Proof.
  intros Hn HI. unfold typecast.
  destruct (wp_ok_ex _ _ (@wp_for _ 0 n (fun k y => let* v := get x k in let* t := cast_int 64 v in set y k t) (fun k y => zlen y = n /\ forall j, 0 <= j < k -> holds x j (inject_Z (rd y j))) (mk n 0) nerr (proj1 Hn)
    ltac:(split; [apply zlen_mk; lia|intros; lia])
    ltac:(intros k y Hk (L & H); rewrite get_d by lia; cbn [bind]; destruct (HI k Hk) as (z & (v & Hv & Ev) & R); destruct (rdg FNan x k) as [|s|m e] eqn:EV; try discriminate Hv;
      pose proof (int_value Hv Ev) as T; rewrite cast_int_ok by (rewrite T; exact R); cbn [bind]; apply wp_set; [lia|]; split; [now rewrite zlen_wr|];
      intros j Hj; destruct (Z.eq_dec j k) as [->|]; [rewrite rd_wr_eq by lia; rewrite T; exists v; rewrite EV; auto|rewrite rd_wr_ne by lia; apply H; lia]))) as (y & -> & L & H).
  exists y. auto.
Qed.

(*----------------------------------------------------------------------------*)
(* reading A and b *)
Lemma csc_copy_int o addr A p i x y s : csc_ok A p i x -> 1 <= opt_prec o -> converted o addr TMPZ A (VZ y) s ->
  (forall c q q', 0 <= c < m_n A -> rd p c <= q < rd p (c + 1) -> rd p c <= q' < rd p (c + 1) -> rd i q = rd i q' -> q = q') ->
  exists Y i', matrix_copy o addr true true KCSC TMPZ (Some A) = Ok Y /\ int_csc (m_m A) (m_n A) Y /\
    m_p Y = Some p /\ m_i Y = Some i' /\ m_x Y = Some (VZ y) /\ m_scale Y = s /\ (forall k, 0 <= k < rd p (m_n A) -> rd i' k = rd i k).
Proof.
  intros C Hp HC HD. assert (HT : is_type TMPZ) by (unfold is_type, TMPZ, TDBL; lia). pose proof (csc_stores C) as HS.
  pose proof (converted_inv HS HT HC) as E0. destruct (stores_facts HS) as (Hz & Hn & Hx & Ht & Hm & Hnn).
  destruct (@cast_array_shape o addr _ _ _ _ _ _ _ (proj1 Hn) Hp E0) as (_ & S2 & _ & _). rewrite fresh_len in S2 by (auto; lia). cbn [vlen] in S2.
  unfold matrix_copy. cbn [negb]. rewrite Hz. cbn [bind negb orb]. set (nz := rd p (m_n A)) in *.
  pose proof (vtype_is x) as HX. rewrite Ht in HX. unfold is_type in HX, HT. dcsc C.
  destruct (Z.ltb_spec nz 0), (Z.ltb_spec (m_type A) TMPZ), (Z.gtb_spec (m_type A) TDBL); try lia. cbn [orb].
  rewrite co_kind'. cbn [Z.eqb KCSC KTRIP KDENSE TMPZ TDBL Z.ltb Z.gtb Z.compare orb]. unfold copy_csc_csc. rewrite alloc_ok by (auto; vm_compute; split; discriminate).
  cbn [bind m_p m_i m_x m_scale Z.eqb KCSC KTRIP KDENSE deref]. rewrite co_p', co_i', co_x'. cbn [deref bind].
  destruct (wp_ok_ex _ _ (@memcpy_all Z (mk (m_n A + 1) 0) p (m_n A + 1) nerr ltac:(apply zlen_mk; lia) co_len')) as (p' & -> & ->). cbn [bind].
  destruct (wp_ok_ex _ _ (@memcpy_spec Z 0 (mk (Z.max nz 1) 0) i nz nerr ltac:(lia) ltac:(rewrite zlen_mk; lia) ltac:(lia))) as (i' & -> & I1 & I2 & _). cbn [bind].
  unfold cast_array_ptr. change (fresh_vals 0) with (fresh_vals TMPZ). rewrite E0. cbn [bind fst snd]. rewrite zlen_mk in I1 by lia.
  assert (IR : forall k, 0 <= k < nz -> rd i' k = rd i k) by (intros k Hk; exact (I2 k Hk)).
  eexists _, i'. split; [reflexivity|]. split; [|repeat (split; [reflexivity|]); exact IR].
  constructor; try reflexivity. exists p, i', y. do 3 (split; [reflexivity|]). constructor; auto.
  - rewrite I1. fold nz. lia.
  - congruence.
  - intros q Hq. rewrite IR by exact Hq. auto.
  - assert (PM : forall a c, 0 <= a <= c -> c <= m_n A -> rd p a <= rd p c).
    { intros a c [Ha0 Ha] Hc. clear - Ha0 Ha Hc co_mono'. replace c with (a + Z.of_nat (Z.to_nat (c - a))) in * by lia. generalize dependent (Z.to_nat (c - a)). intros k Ha Hc.
      induction k as [|k IH]. { replace (a + Z.of_nat 0) with a by lia. lia. }
      rewrite Nat2Z.inj_succ in *. pose proof (IH ltac:(lia) ltac:(lia)). pose proof (co_mono' (a + Z.of_nat k) ltac:(lia)). replace (a + Z.succ (Z.of_nat k)) with (a + Z.of_nat k + 1) by lia. lia. }
    intros c q q' Hc Hq Hq' E. pose proof (PM 0 c ltac:(lia) ltac:(lia)). pose proof (PM (c + 1) (m_n A) ltac:(lia) ltac:(lia)).
    rewrite !IR in E by (subst nz; lia). eapply HD; eauto.
Qed.

(* the integers y and the scale s hold the numbers w (in units of 10^-17); tiny: they are all 0 although the input is not integer *)
Definition scaled (pr : list fl) (nz : Z) (w : Z -> Z) (y : list Z) (s : Q) : Prop :=
  ~ (s == 0)%Q /\ (forall k, 0 <= k < nz -> (inject_Z (rd y k) / s == e17 (w k))%Q) /\ (int64_all pr nz \/ exists k, 0 <= k < nz /\ w k <> 0).
Definition tiny (pr : list fl) (nz : Z) (w : Z -> Z) (y : list Z) (s : Q) : Prop :=
  ~ int64_all pr nz /\ s = 0%Q /\ forall k, 0 <= k < nz -> w k = 0 /\ rd y k = 0.
Lemma units_int pr k z w : holds pr k (inject_Z z) -> units pr k w -> w = z * 10 ^ 17.
Proof.
  intros (v & E & Ev) (q & Eq & R). rewrite E in Eq. injection Eq as <-. apply (@rounded_Z RNDN). eapply rounded_eq; [|exact R].
  rewrite Ev, <- inject_Z_mult. reflexivity.
Qed.
Lemma rounded_unique q a b : rounded RNDN q a -> rounded RNDN q b -> a = b.
Proof.
  intros [A1 A2] [B1 B2].
  assert (A3 : (-(1#2) <= inject_Z a - q <= 1#2)%Q) by (apply Qabs_Qle_condition; lra).
  assert (B3 : (-(1#2) <= inject_Z b - q <= 1#2)%Q) by (apply Qabs_Qle_condition; lra).
  assert (D : -1 <= a - b <= 1). { rewrite !Zle_Qle. unfold Zminus. rewrite inject_Z_plus, inject_Z_opp. change (inject_Z 1) with 1%Q. change (inject_Z (-1)) with (-1)%Q. lra. }
  destruct (Z.eq_dec a b) as [|N]; auto. exfalso.
  assert (C : a = b + 1 \/ b = a + 1) by lia.
  destruct C as [-> | ->].
  - rewrite inject_Z_plus in *. change (inject_Z 1) with 1%Q in *.
    assert (Ea : (Qabs (inject_Z b + 1 - q) == 1#2)%Q) by (rewrite Qabs_pos; lra).
    assert (Eb : (Qabs (inject_Z b - q) == 1#2)%Q) by (rewrite Qabs_neg; lra).
    pose proof (A2 ltac:(rewrite Ea; reflexivity)) as G. pose proof (B2 ltac:(rewrite Eb; reflexivity)) as G'.
    rewrite Z.even_add, G' in G. discriminate.
  - rewrite inject_Z_plus in *. change (inject_Z 1) with 1%Q in *.
    assert (Ea : (Qabs (inject_Z a + 1 - q) == 1#2)%Q) by (rewrite Qabs_pos; lra).
    assert (Eb : (Qabs (inject_Z a - q) == 1#2)%Q) by (rewrite Qabs_neg; lra).
    pose proof (B2 ltac:(rewrite Ea; reflexivity)) as G. pose proof (A2 ltac:(rewrite Eb; reflexivity)) as G'.
    rewrite Z.even_add, G' in G. discriminate.
Qed.
Lemma units_unique pr k a b : units pr k a -> units pr k b -> a = b.
Proof. intros (q & E & A) (q' & E' & B). rewrite E in E'. injection E' as <-. eapply rounded_unique; eauto. Qed.
(* the two ways to read the numbers *)
Lemma read_int pr nz y : int64_all pr nz -> (forall k, 0 <= k < nz -> holds pr k (inject_Z (rd y k))) ->
  let w k := rd y k * 10 ^ 17 in (forall k, 0 <= k < nz -> units pr k (w k)) /\ scaled pr nz w y 1%Q.
Proof.
  intros HI H w. split.
  - intros k Hk. destruct (H k Hk) as (v & E & Ev). exists v. split; auto. unfold w. eapply rounded_eq; [rewrite Ev, <- inject_Z_mult; reflexivity|].
    assert (Z0 : forall z, (Qabs (inject_Z z - inject_Z z) == 0)%Q). { intros z. rewrite Qabs_wd with (y := 0%Q) by ring. reflexivity. }
    split; rewrite Z0; [discriminate|]. intros E2. exfalso. revert E2. unfold Qeq. discriminate.
  - split; [discriminate|]. split; [|auto]. intros k Hk. unfold e17, w. rewrite inject_Z_mult. field. discriminate.
Qed.
Lemma read_double pr nz y s : finite_all pr nz -> ~ int64_all pr nz -> expansion RNDN (10 ^ 17) pr nz y s ->
  exists w, (forall k, 0 <= k < nz -> units pr k (w k)) /\ (scaled pr nz w y s \/ tiny pr nz w y s).
Proof.
  intros FA NI (w & W & H). exists w. split.
  - intros k Hk. destruct (FA k Hk) as (q & E). exists q. split; auto. pose proof (W k Hk) as Wk. now rewrite E in Wk.
  - destruct H as [(H1 & H2 & H3)|(H0 & H1 & H2 & _)].
    + right. split; auto.
    + left. split; auto.
Qed.
(* copying to mpz_t, whatever the kind *)
Lemma read_vals o addr M nz x (isint : bool) y0 : opt_prec o = 128 -> opt_round o = RNDN ->
  finite_all x nz -> (forall k, 0 <= k < nz -> fits 53 (rdg FNan x k)) ->
  stores M nz (if isint then VI y0 else VD x) -> (isint = true <-> int64_all x nz) ->
  (isint = true -> forall k, 0 <= k < nz -> holds x k (inject_Z (rd y0 k))) ->
  exists w y s, converted o addr TMPZ M (VZ y) s /\ (forall k, 0 <= k < nz -> units x k (w k)) /\ (scaled x nz w y s \/ tiny x nz w y s).
Proof.
  intros Hp Hr U F HS HI H. destruct isint.
  - destruct (C41_int64_to_mpz o addr HS) as (y & C & E). destruct (@read_int x nz y (proj1 HI eq_refl)) as (H1 & H2). { intros k Hk. rewrite (E k Hk). auto. }
    exists (fun k => rd y k * 10 ^ 17), y, 1%Q. split; [exact C|]. split; [exact H1|]. left. exact H2.
  - destruct (C42_double_to_mpz o addr HS ltac:(rewrite Hp; lia) F) as (y & s & C & E). rewrite Hr in E.
    destruct (read_double U ltac:(intros G; apply HI in G; discriminate) E) as (w & W1 & W2). exists w, y, s. auto.
Qed.
Lemma prefix_wlog (p : list Z) n c : (forall c, 0 <= c < n -> rd p c <= rd p (c + 1)) -> 0 <= c <= n -> rd p 0 <= rd p c <= rd p n.
Proof.
  intros M Hc.
  assert (PM : forall k, forall a, 0 <= a -> a + Z.of_nat k <= n -> rd p a <= rd p (a + Z.of_nat k)).
  { induction k as [|k IH]; intros a Ha Hk. { replace (a + Z.of_nat 0) with a by lia. lia. }
    rewrite Nat2Z.inj_succ in *. specialize (IH a Ha ltac:(lia)). specialize (M (a + Z.of_nat k) ltac:(lia)).
    replace (a + Z.succ (Z.of_nat k)) with (a + Z.of_nat k + 1) by lia. lia. }
  pose proof (PM (Z.to_nat c) 0 ltac:(lia) ltac:(lia)) as H1. pose proof (PM (Z.to_nat (n - c)) c ltac:(lia) ltac:(lia)) as H2.
  replace (0 + Z.of_nat (Z.to_nat c)) with c in H1 by lia. replace (c + Z.of_nat (Z.to_nat (n - c))) with n in H2 by lia. lia.
Qed.
(* get_A *)
Lemma get_A_spec o addr n A jc ir pr : opt_prec o = 128 -> opt_round o = RNDN -> sparse_double n A jc ir pr ->
  finite_all pr (rd jc n) -> no_2p63 pr (rd jc n) ->
  exists Y i' w y s, get_A o addr A = Ok (Ret Y) /\ int_csc n n Y /\ m_p Y = Some jc /\ m_i Y = Some i' /\ m_x Y = Some (VZ y) /\ m_scale Y = s /\
    (forall k, 0 <= k < rd jc n -> rd i' k = rd ir k) /\ (forall k, 0 <= k < rd jc n -> units pr k (w k)) /\
    (scaled pr (rd jc n) w y s \/ tiny pr (rd jc n) w y s).
Proof.
  intros Hp Hr SD FA N2. pose proof (sd_valid SD) as V.
  assert (P0 : 0 <= rd jc n). { rewrite <- (vp_0 V). apply (@prefix_wlog jc n n (vp_mono V)). pose proof (vp_n V). lia. }
  unfold get_A. rewrite (sd_jc SD), (sd_ir SD), (sd_pr SD), (sd_m SD), (sd_n SD). rewrite get_rd by (pose proof (vp_p V); pose proof (vp_n V); lia).
  cbn [bind]. rewrite Z.eqb_refl. cbn [negb]. rewrite check_for_inf_eq.
  destruct (@inf_prefix pr (rd jc n) ltac:(pose proof (sd_len SD); lia) FA N2) as (b & -> & HB). cbn [mbind].
  assert (AL : forall T, is_type T -> matrix_allocate KCSC T n n (rd jc n) true = Ok (mkM n n (Z.max (rd jc n) 1) 0 KCSC T None None None None 1%Q)).
  { intros T HT. unfold is_type in HT. unfold matrix_allocate. pose proof (vp_n V). destruct (Z.ltb_spec n 0), (Z.ltb_spec T TMPZ), (Z.gtb_spec T TDBL); try lia. reflexivity. }
  assert (EX : exists y0, (b = true -> typecast pr (rd jc n) = Ok y0 /\ zlen y0 = rd jc n /\ forall k, 0 <= k < rd jc n -> holds pr k (inject_Z (rd y0 k)))).
  { destruct b. - destruct (@typecast_spec pr (rd jc n) ltac:(pose proof (sd_len SD); lia) (proj1 HB eq_refl)) as (y0 & H). eauto. - exists []. discriminate. }
  destruct EX as (y0 & HY).
  set (M := mkM n n (Z.max (rd jc n) 1) 0 KCSC (if b then TINT else TDBL) (Some jc) (Some ir) None (Some (if b then VI y0 else VD pr)) 1%Q).
  match goal with |- context [bind ?m _] => assert (EM : m = Ok M) end.
  { destruct b.
    - destruct (HY eq_refl) as (-> & _). cbn [bind]. rewrite AL by (unfold is_type, TMPZ, TINT, TDBL; lia). reflexivity.
    - rewrite AL by (unfold is_type, TMPZ, TDBL; lia). reflexivity. }
  rewrite EM. cbn [bind].
  assert (CO : csc_ok M jc ir (if b then VI y0 else VD pr)).
  { destruct V. constructor; cbn; auto. - destruct b; reflexivity. - destruct b; cbn [vlen]; [destruct (HY eq_refl) as (_ & -> & _); lia|apply (sd_len SD)]. }
  destruct (@read_vals o addr M (rd jc n) pr b y0 Hp Hr FA (sd_fits SD)) as (w & y & s & HC & HU & HS).
  { exact (csc_stores CO). } { exact HB. } { intros B. apply HY. exact B. }
  destruct (@csc_copy_int o addr M _ _ _ y s CO ltac:(rewrite Hp; lia) HC (vp_dup V)) as (Y & i' & E & H1 & H2 & H3 & H4 & H5 & H6).
  unfold mex_ok. rewrite E. exists Y, i', w, y, s. split; [reflexivity|]. auto 10.
Qed.
Lemma dense_copy_int o addr B x y s : dense_ok B x -> 1 <= opt_prec o -> converted o addr TMPZ B (VZ y) s ->
  exists Y, matrix_copy o addr true true KDENSE TMPZ (Some B) = Ok Y /\ int_dense (m_m B) (m_n B) Y /\ m_x Y = Some (VZ y) /\ m_scale Y = s.
Proof.
  intros D Hp HC. assert (HT : is_type TMPZ) by (unfold is_type, TMPZ, TDBL; lia).
  assert (HS : stores B (m_m B * m_n B) x) by (right; right; split; auto).
  pose proof (converted_inv HS HT HC) as E0. destruct (stores_facts HS) as (Hz & Hn & Hx & Ht & Hm & Hnn).
  destruct (@cast_array_shape o addr _ _ _ _ _ _ _ (proj1 Hn) Hp E0) as (_ & S2 & _ & _). rewrite fresh_len in S2 by (auto; lia). cbn [vlen] in S2.
  destruct (same_kind_copy HS HT HC) as (Y & E & X1 & X2 & X3 & X4 & P). unfold same_pattern in P. destruct P as (P1 & P2 & P3 & _).
  ddense D. rewrite do_kind' in E. exists Y. split; [exact E|]. split; [|auto]. constructor; auto; try congruence. eauto.
Qed.
Lemma get_b_spec o addr m k A b pr : opt_prec o = 128 -> opt_round o = RNDN -> full_double m k b pr -> x_m A = m ->
  finite_all pr (m * k) -> no_2p63 pr (m * k) ->
  exists Y w y s, get_b o addr A b = Ok (Ret Y) /\ int_dense m k Y /\ m_x Y = Some (VZ y) /\ m_scale Y = s /\
    (forall p, 0 <= p < m * k -> units pr p (w p)) /\ (scaled pr (m * k) w y s \/ tiny pr (m * k) w y s).
Proof.
  intros Hp Hr FD HA FA N2. destruct (fd_pos FD) as [P1 P2].
  assert (P0 : 0 <= m * k) by nia.
  unfold get_b. rewrite (fd_pr FD), HA, (fd_m FD), (fd_n FD). rewrite Z.eqb_refl. cbn [negb]. rewrite (Z.mul_comm k m). rewrite check_for_inf_eq.
  destruct (@inf_prefix pr (m * k) ltac:(pose proof (fd_len FD); lia) FA N2) as (b0 & -> & HB). cbn [mbind].
  assert (AL : forall T, is_type T -> matrix_allocate KDENSE T m k (m * k) true = Ok (mkM m k (Z.max (m * k) 1) 0 KDENSE T None None None None 1%Q)).
  { intros T HT. unfold is_type in HT. unfold matrix_allocate. destruct (Z.ltb_spec m 0), (Z.ltb_spec k 0), (Z.ltb_spec T TMPZ), (Z.gtb_spec T TDBL); try lia. reflexivity. }
  assert (EX : exists y0, (b0 = true -> typecast pr (m * k) = Ok y0 /\ zlen y0 = m * k /\ forall p, 0 <= p < m * k -> holds pr p (inject_Z (rd y0 p)))).
  { destruct b0. - destruct (@typecast_spec pr (m * k) ltac:(pose proof (fd_len FD); lia) (proj1 HB eq_refl)) as (y0 & H). eauto. - exists []. discriminate. }
  destruct EX as (y0 & HY).
  set (M := mkM m k (Z.max (m * k) 1) 0 KDENSE (if b0 then TINT else TDBL) None None None (Some (if b0 then VI y0 else VD pr)) 1%Q).
  match goal with |- context [bind ?m _] => assert (EM : m = Ok M) end.
  { destruct b0.
    - rewrite AL by (unfold is_type, TMPZ, TINT, TDBL; lia). cbn [bind]. destruct (HY eq_refl) as (-> & _). reflexivity.
    - rewrite AL by (unfold is_type, TMPZ, TDBL; lia). reflexivity. }
  rewrite EM. cbn [bind].
  assert (CO : dense_ok M (if b0 then VI y0 else VD pr)).
  { constructor; cbn; auto. - destruct b0; reflexivity. - destruct b0; cbn [vlen]; [destruct (HY eq_refl) as (_ & -> & _); lia|apply (fd_len FD)]. }
  destruct (@read_vals o addr M (m * k) pr b0 y0 Hp Hr FA (fd_fits FD)) as (w & y & s & HC & HU & HS).
  { right; right. split; [exact CO|reflexivity]. } { exact HB. } { intros B. apply HY. exact B. }
  destruct (@dense_copy_int o addr M _ y s CO ltac:(rewrite Hp; lia) HC) as (Y & E & H1 & H2 & H3).
  unfold mex_ok. rewrite E. exists Y, w, y, s. split; [reflexivity|]. auto 10.
Qed.
(*----------------------------------------------------------------------------*)
(* scaling *)
Lemma det_scale c n : forall f, det n (fun i j => c * f i j) = c ^ Z.of_nat n * det n f.
Proof.
  induction n as [|n IH]; intros f. { cbn. reflexivity. }
  rewrite !det_S, <- sum_scal. apply sum_ext. intros j Hj.
  change (minor 0 j (fun i j0 => c * f i j0)) with (fun i j0 => c * minor 0 j f i j0). rewrite IH.
  rewrite Nat2Z.inj_succ, Z.pow_succ_r by lia. ring.
Qed.
(* proportional matrices are singular together *)
Lemma det_prop n a b f g : 0 <= n -> a <> 0 -> b <> 0 -> (forall i j, 0 <= i < n -> 0 <= j < n -> a * f i j = b * g i j) -> (detz n f = 0 <-> detz n g = 0).
Proof.
  intros Hn Ha Hb H. pose proof (@detz_ext n (fun i j => a * f i j) (fun i j => b * g i j) H) as E. unfold detz in *. rewrite !det_scale in E.
  assert (Pa : a ^ Z.of_nat (Z.to_nat n) <> 0) by (apply Z.pow_nonzero; lia). assert (Pb : b ^ Z.of_nat (Z.to_nat n) <> 0) by (apply Z.pow_nonzero; lia).
  split; intros F; rewrite F in E; nia.
Qed.
Lemma scaled_det n s f g : 0 <= n -> ~ (s == 0)%Q -> (forall i j, 0 <= i < n -> 0 <= j < n -> (inject_Z (f i j) / s == e17 (g i j))%Q) -> (detz n f = 0 <-> detz n g = 0).
Proof.
  intros Hn Hs H. destruct s as [a d]. apply (@det_prop n (Z.pos d * 10 ^ 17) a); auto; try lia.
  - intros ->. apply Hs. reflexivity.
  - intros i j Hi Hj. specialize (H i j Hi Hj). unfold e17 in H.
    assert (E : (inject_Z (f i j) * inject_Z (10 ^ 17) == inject_Z (g i j) * (a # d))%Q).
    { assert (E1 : (inject_Z (f i j) == inject_Z (f i j) / (a # d) * (a # d))%Q) by (field; auto). rewrite E1, H. field. discriminate. }
    unfold Qeq in E. cbn [Qnum Qden inject_Z Qmult] in E. rewrite ?Pos.mul_1_l, ?Pos.mul_1_r, ?Z.mul_1_r in E. clear - E. set (u := 10 ^ 17) in *. clearbody u. lia.
Qed.
(* the entries of the copies *)
Lemma sparse_Cent n jc ir pr W Y i' w y s : valid_pattern n n jc ir -> sparse_units n jc ir pr W -> int_csc n n Y ->
  m_p Y = Some jc -> m_i Y = Some i' -> m_x Y = Some (VZ y) ->
  (forall k, 0 <= k < rd jc n -> rd i' k = rd ir k) -> (forall k, 0 <= k < rd jc n -> units pr k (w k)) ->
  forall i j, 0 <= i < n -> 0 <= j < n ->
    (scaled pr (rd jc n) w y s -> (inject_Z (Cent Y i j) / s == e17 (W i j))%Q) /\ (tiny pr (rd jc n) w y s -> W i j = 0 /\ Cent Y i j = 0).
Proof.
  intros V SU IC Hp Hi Hx HI HU i j Ri Rj. unfold Cent. rewrite Hp, Hi, Hx.
  destruct (ic_arr IC) as (Ap & Ai & Ax & Hp' & Hi' & Hx' & VC). rewrite Hp in Hp'. rewrite Hi in Hi'. rewrite Hx in Hx'.
  injection Hp' as <-. injection Hi' as <-. injection Hx' as <-.
  pose proof (vp_n V) as N0. pose proof (vp_0 V) as J0.
  assert (R : forall p, rd jc j <= p < rd jc (j + 1) -> 0 <= p < rd jc n).
  { intros p Hpp. pose proof (@prefix_wlog jc n j (vp_mono V) ltac:(lia)). pose proof (@prefix_wlog jc n (j + 1) (vp_mono V) ltac:(lia)). lia. }
  destruct (SU i j Ri Rj) as [(p & Hpp & Hr & Hu)|(Hno & H0)].
  - pose proof (R p Hpp) as Rp. assert (E : ent jc i' y i j = rd y p).
    { rewrite <- Hr, <- (HI p Rp). eapply ent_valid; eauto. }
    rewrite E. rewrite (units_unique Hu (HU p Rp)). split.
    + intros (_ & S2 & _). apply S2. exact Rp.
    + intros (_ & _ & T). apply T. exact Rp.
  - rewrite ent_none. 2:{ intros p Hpp. rewrite HI by (apply R; exact Hpp). apply Hno; auto. }
    rewrite H0. split; [|auto]. intros _. unfold e17, Qdiv. rewrite !Qmult_0_l. reflexivity.
Qed.
Lemma full_Dent m k pr W Y w y s : full_units m k pr W -> int_dense m k Y -> m_x Y = Some (VZ y) -> (forall p, 0 <= p < m * k -> units pr p (w p)) ->
  forall i j, 0 <= i < m -> 0 <= j < k ->
    (scaled pr (m * k) w y s -> (inject_Z (Dent Y i j) / s == e17 (W i j))%Q) /\ (tiny pr (m * k) w y s -> W i j = 0 /\ Dent Y i j = 0).
Proof.
  intros FU ID Hx HU i j Ri Rj. unfold Dent. rewrite Hx, (id_m ID). assert (R : 0 <= i + j * m < m * k) by nia.
  rewrite (units_unique (FU i j Ri Rj) (HU _ R)). split.
  - intros (_ & S2 & _). apply S2. exact R.
  - intros (_ & _ & T). apply T. exact R.
Qed.
(* a singular matrix is reported whatever the scales *)
Lemma backslash_singular env ol addr n nrhs A B o : int_csc n n A -> int_dense n nrhs B -> env_ok env (opt_pivot o) ->
  detz n (Cent A) = 0 -> SLIP_backslash env ol addr true true TMPQ (Some A) (Some B) o = Ok (SErr SLIP_SINGULAR, Null).
Proof.
  intros IC ID He H0. destruct (ic_arr IC) as (Ap & Ai & Ax & Hp & Hi & Hx & V).
  destruct (@analyze_spec ol A Ap Ai n o (ic_kind IC) (ic_m IC) (ic_n IC) Hp Hi (csc_pattern V)) as (An & EA & US' & _).
  assert (US : usable n An) by (destruct US' as (U1 & U2 & U3); split; auto; lia).
  unfold SLIP_backslash, has_kt. rewrite (ic_kind IC), (ic_type IC), (id_kind ID), (id_type ID), EA.
  destruct (@factorize_spec env n A An o IC US He) as [(Ap' & Ai' & Ax' & F & R & Hp' & Hi' & Hx' & V' & EF & K & HD)|(EF & HD)]; [contradiction|].
  change (negb true) with false. cbn [call Z.eqb KCSC TMPQ TMPZ KDENSE TDBL TMPFR orb andb negb]. cbn [call]. rewrite EF. reflexivity.
Qed.
(*----------------------------------------------------------------------------*)
(* printed fractions *)
Lemma decimal_snoc l d : DemoSpec.decimal (l ++ [d]) = 10 * DemoSpec.decimal l + (d - 48).
Proof. unfold DemoSpec.decimal. rewrite fold_left_app. reflexivity. Qed.
Lemma dec_ok f : forall n, 0 <= n < 2 ^ Z.of_nat (S f) -> dec (S f) n <> [] /\ Forall DemoSpec.digit (dec (S f) n) /\ DemoSpec.decimal (dec (S f) n) = n.
Proof.
  induction f as [|f IH]; intros n Hn; cbn [dec]; destruct (Z.ltb_spec n 10).
  1, 3: split; [discriminate|]; split; [constructor; [unfold DemoSpec.digit; lia|constructor]|unfold DemoSpec.decimal; cbn [fold_left]; lia].
  - exfalso. change (2 ^ Z.of_nat 1) with 2 in Hn. lia.
  - rewrite Nat2Z.inj_succ, Z.pow_succ_r in Hn by lia. pose proof (Z.mod_pos_bound n 10 ltac:(lia)). pose proof (Z.div_mod n 10 ltac:(lia)).
    destruct (IH (n / 10)) as (I1 & I2 & I3). { split; [apply Z.div_pos; lia|]. apply Z.div_lt_upper_bound; lia. }
    change (dec (S f) (n / 10)) with (dec (S f) (n / 10)) in *.
    split; [intros E; apply app_eq_nil in E; destruct E; discriminate|]. split.
    + apply Forall_app. split; [exact I2|]. constructor; [unfold DemoSpec.digit; lia|constructor].
    + rewrite decimal_snoc. cbn [dec] in I3. rewrite I3. lia.
Qed.
Lemma dec_nat_ok n : 0 <= n -> dec_nat n <> [] /\ Forall DemoSpec.digit (dec_nat n) /\ DemoSpec.decimal (dec_nat n) = n.
Proof.
  intros Hn. unfold dec_nat. apply dec_ok. split; auto. rewrite Nat2Z.inj_succ, Z2Nat.id by apply Z.log2_nonneg.
  destruct (Z.eq_dec n 0) as [->|]; [reflexivity|]. apply Z.log2_spec. lia.
Qed.
Lemma dec_z_ok z : DemoSpec.numeral (dec_z z) z.
Proof.
  unfold dec_z. destruct (Z.ltb_spec z 0).
  - destruct (@dec_nat_ok (- z) ltac:(lia)) as (H1 & H2 & H3). replace z with (- DemoSpec.decimal (dec_nat (- z))) at 2 by lia. constructor; auto.
  - destruct (@dec_nat_ok z ltac:(lia)) as (H1 & H2 & H3). rewrite <- H3 at 2. constructor; auto.
Qed.
Lemma print_q_writes q : Qred q = q -> writes (print_q q) q.
Proof.
  intros R. exists (Qnum q), (Z.pos (Qden q)).
  assert (G : Z.gcd (Qnum q) (Z.pos (Qden q)) = 1).
  { exact (Qcanon.Qred_identity2 q R). }
  split. { destruct q as [a d]. cbn. unfold Qdiv, Qinv, Qmult, Qeq, inject_Z. cbn. lia. }
  split; [lia|]. split; [exact G|]. unfold print_q. destruct (Pos.eqb_spec (Qden q) 1) as [E|E].
  - left. rewrite E. split; auto. rewrite app_nil_r. apply dec_z_ok.
  - right. split; [lia|]. exists (dec_z (Qnum q)), (dec_nat (Z.pos (Qden q))). split; [reflexivity|]. split; [apply dec_z_ok|].
    destruct (@dec_nat_ok (Z.pos (Qden q)) ltac:(lia)) as (H1 & H2 & H3). rewrite <- H3 at 2. constructor; auto.
Qed.
(*----------------------------------------------------------------------------*)
(* mexFunction *)
Definition mex_opt (mo : mexopt) (tol : Q) : option options := Some (mkO (mo_pivot mo) (mo_order mo) tol (mo_print mo) 128 RNDN false).
Definition mex_tail (env : gmp_env) (ol : ordlib) (addr : Z -> Z) (mo : mexopt) (A b : mx) : res (mex mxout) :=
  let! (MA, Mb) := slip_mex_get_A_and_b (mex_opt mo 0%Q) addr A b in
  match fl_q (mo_tol mo) with
  | None => UB
  | Some tol =>
      let o := mex_opt mo tol in
      let! x := mex_ok (call (SLIP_backslash env ol addr true true TMPQ (Some MA) (Some Mb) o) (fun x => Ok x)) in
      if mo_solution mo =? 0 then
        let! t := mex_ok (matrix_copy o addr true true KDENSE TDBL (Some x)) in let* d := xdbl t in mret (MxDouble (m_m t) (m_n t) d)
      else
        let* xq := (match m_x x with Some (VQ l) => Ok l | _ => UB end) in
        let* s := for_ 0 (m_m x * m_n x) (fun p s => let* v := get xq p in Ok (s ++ [print_q v])) [] in
        mret (MxCell (m_m x) (m_n x) s)
  end.
Lemma mexFunction_3 env ol addr g nargout A b opt mo : nargout <= 1 -> x_complex A = false -> x_complex b = false -> x_sparse A = true -> x_sparse b = false ->
  slip_get_matlab_options (x_opts opt) = Ok (Ret mo) -> mexFunction env ol addr g nargout [A; b; opt] = mex_tail env ol addr mo A b.
Proof.
  intros Hn H1 H2 H3 H4 E. unfold mexFunction. destruct (Z.gtb_spec nargout 1); [lia|]. change (zlen [opt] >? 1) with false. cbv iota. rewrite H1, H2, H3, H4. cbn [orb negb].
  rewrite E. reflexivity.
Qed.
Lemma mexFunction_2 env ol addr g nargout A b : nargout <= 1 -> x_complex A = false -> x_complex b = false -> x_sparse A = true -> x_sparse b = false ->
  mexFunction env ol addr g nargout [A; b] = mex_tail env ol addr (mkMO ORD_COLAMD 3 (FFin 1 0) g 0 0) A b.
Proof.
  intros Hn H1 H2 H3 H4. unfold mexFunction. destruct (Z.gtb_spec nargout 1); [lia|]. change (zlen ([] : list mx) >? 1) with false. cbv iota. rewrite H1, H2, H3, H4. reflexivity.
Qed.
(* the values handed to the library *)
Lemma get_A_and_b_spec o addr n k A b jc ir pr bp WA WB : opt_prec o = 128 -> opt_round o = RNDN ->
  sparse_double n A jc ir pr -> full_double n k b bp -> finite_all pr (rd jc n) -> no_2p63 pr (rd jc n) -> no_2p63 bp (n * k) ->
  sparse_units n jc ir pr WA -> full_units n k bp WB ->
  exists MA MB, slip_mex_get_A_and_b o addr A b = Ok (Ret (MA, MB)) /\ int_csc n n MA /\ int_dense n k MB /\
    ((~ (m_scale MA == 0)%Q /\ forall i j, 0 <= i < n -> 0 <= j < n -> (inject_Z (Cent MA i j) / m_scale MA == e17 (WA i j))%Q) \/
     (~ int64_all pr (rd jc n) /\ m_scale MA = 0%Q /\ forall i j, 0 <= i < n -> 0 <= j < n -> WA i j = 0 /\ Cent MA i j = 0)) /\
    ((~ (m_scale MB == 0)%Q /\ forall i j, 0 <= i < n -> 0 <= j < k -> (inject_Z (Dent MB i j) / m_scale MB == e17 (WB i j))%Q) \/
     (~ int64_all bp (n * k) /\ m_scale MB = 0%Q /\ forall i j, 0 <= i < n -> 0 <= j < k -> WB i j = 0 /\ Dent MB i j = 0)).
Proof.
  intros Hp Hr SD FD FA N2 N2b SU FU.
  destruct (@get_A_spec o addr n A jc ir pr Hp Hr SD FA N2) as (MA & i' & w & y & s & EA & IC & Ap & Ai & Ax & As & HI & HU & HS).
  assert (FB : finite_all bp (n * k)).
  { intros p Hpp. assert (N1 : 0 < n) by (destruct (fd_pos FD); nia). destruct (FU (p mod n) (p / n)) as (q & E & _).
    - apply Z.mod_pos_bound. lia.
    - split; [apply Z.div_pos; lia|]. apply Z.div_lt_upper_bound; lia.
    - replace (p mod n + p / n * n) with p in E by (pose proof (Z.div_mod p n ltac:(lia)); nia). eauto. }
  destruct (@get_b_spec o addr n k A b bp Hp Hr FD (sd_m SD) FB N2b) as (MB & wb & yb & sb & EB & ID & Bx & Bs & HUb & HSb).
  exists MA, MB. unfold slip_mex_get_A_and_b. rewrite EA. cbn [mbind]. rewrite EB. cbn [mbind]. split; [reflexivity|]. split; [exact IC|]. split; [exact ID|].
  rewrite As, Bs. split.
  - destruct HS as [HS|HS]; [left|right].
    + split; [apply HS|]. intros i j Hi Hj. exact (proj1 (@sparse_Cent n jc ir pr WA MA i' w y s (sd_valid SD) SU IC Ap Ai Ax HI HU i j Hi Hj) HS).
    + destruct HS as (T1 & T2 & T3). split; [exact T1|]. split; [exact T2|].
      intros i j Hi Hj. exact (proj2 (@sparse_Cent n jc ir pr WA MA i' w y s (sd_valid SD) SU IC Ap Ai Ax HI HU i j Hi Hj) (conj T1 (conj T2 T3))).
  - destruct HSb as [HS'|HS']; [left|right].
    + split; [apply HS'|]. intros i j Hi Hj. exact (proj1 (@full_Dent n k bp WB MB wb yb sb FU ID Bx HUb i j Hi Hj) HS').
    + destruct HS' as (T1 & T2 & T3). split; [exact T1|]. split; [exact T2|].
      intros i j Hi Hj. exact (proj2 (@full_Dent n k bp WB MB wb yb sb FU ID Bx HUb i j Hi Hj) (conj T1 (conj T2 T3))).
Qed.
Lemma cells_spec (xq : list Q) N : 0 <= N <= zlen xq ->
  exists l, for_ 0 N (fun p s => let* v := get xq p in Ok (s ++ [print_q v])) [] = Ok l /\ zlen l = N /\ forall p, 0 <= p < N -> rdg [] l p = print_q (rdg 0%Q xq p).
Proof.
  intros HN. destruct (wp_ok_ex _ _ (@wp_for _ 0 N (fun p s => let* v := get xq p in Ok (s ++ [print_q v]))
    (fun p s => zlen s = p /\ forall q, 0 <= q < p -> rdg [] s q = print_q (rdg 0%Q xq q)) [] nerr (proj1 HN)
    ltac:(split; [reflexivity|intros; lia])
    ltac:(intros p s Hp (L & H); rewrite (@PSolve.get_rdg _ 0%Q) by lia; cbn [bind]; split;
      [unfold zlen in *; rewrite app_length; cbn [length]; lia|];
      intros q Hq; unfold rdg, zlen in *; destruct (Z.eq_dec q p) as [->|];
      [rewrite app_nth2 by lia; replace (Z.to_nat p - length s)%nat with 0%nat by lia; reflexivity|rewrite app_nth1 by lia; apply H; lia]))) as (l & -> & L & H).
  exists l. auto.
Qed.
Lemma mex_tail_spec env ol addr mo tol n k A b jc ir pr bp WA WB : fl_q (mo_tol mo) = Some tol ->
  sparse_double n A jc ir pr -> full_double n k b bp -> finite_all pr (rd jc n) -> no_2p63 pr (rd jc n) -> no_2p63 bp (n * k) ->
  sparse_units n jc ir pr WA -> full_units n k bp WB -> 1 <= n -> env_ok env (mo_pivot mo) ->
  (detz n WA = 0 -> mex_tail env ol addr mo A b = Ok (Throw (MexStatus SLIP_SINGULAR))) /\
  (detz n WA <> 0 -> int64_all bp (n * k) \/ (exists i j, 0 <= i < n /\ 0 <= j < k /\ WB i j <> 0) ->
   exists X : Z -> Z -> Q, (forall i r, 0 <= i < n -> 0 <= r < k -> (sumQ n (fun c => e17 (WA i c) * X c r) == e17 (WB i r))%Q) /\
     (mo_solution mo = 0 -> exists l, mex_tail env ol addr mo A b = Ok (Ret (MxDouble n k l)) /\ n * k <= zlen l /\
        forall i r, 0 <= i < n -> 0 <= r < k -> double_rounded RNDZ true (X i r) (rdg FNan l (i + r * n))) /\
     (mo_solution mo <> 0 -> exists l, mex_tail env ol addr mo A b = Ok (Ret (MxCell n k l)) /\ zlen l = n * k /\
        forall i r, 0 <= i < n -> 0 <= r < k -> writes (rdg [] l (i + r * n)) (X i r))).
Proof.
  intros HT SD FD FA N2 N2b SU FU Hn He.
  destruct (@get_A_and_b_spec (mex_opt mo 0%Q) addr n k A b jc ir pr bp WA WB eq_refl eq_refl SD FD FA N2 N2b SU FU) as (MA & MB & EAB & IC & ID & HA & HB).
  unfold mex_tail. rewrite EAB, HT. cbn [mbind]. set (o := mex_opt mo tol).
  assert (DT : detz n (Cent MA) = 0 <-> detz n WA = 0).
  { destruct HA as [(H1 & H2)|(_ & _ & H2)].
    - apply (@scaled_det n (m_scale MA)); auto. lia.
    - assert (E : detz n (Cent MA) = detz n WA) by (apply detz_ext; intros i j Hi Hj; destruct (H2 i j Hi Hj); congruence). rewrite E. tauto. }
  split.
  - intros D0. rewrite (@backslash_singular env ol addr n k MA MB o IC ID He) by (apply DT; exact D0). reflexivity.
  - intros D1 HBz.
    assert (HsA : ~ (m_scale MA == 0)%Q /\ forall i j, 0 <= i < n -> 0 <= j < n -> (inject_Z (Cent MA i j) / m_scale MA == e17 (WA i j))%Q).
    { destruct HA as [HA|(_ & _ & H2)]; [exact HA|]. exfalso. apply D1.
      assert (E : detz n WA = detz n (fun i j => 0 * WA i j)) by (apply detz_ext; intros i j Hi Hj; destruct (H2 i j Hi Hj); lia).
      rewrite E. unfold detz. rewrite det_scale. rewrite Z.pow_0_l by lia. lia. }
    assert (HsB : ~ (m_scale MB == 0)%Q /\ forall i j, 0 <= i < n -> 0 <= j < k -> (inject_Z (Dent MB i j) / m_scale MB == e17 (WB i j))%Q).
    { destruct HB as [HB|(T1 & _ & H2)]; [exact HB|]. exfalso. destruct HBz as [I|(i & j & Hi & Hj & W)]; [contradiction|]. apply W. apply (H2 i j Hi Hj). }
    destruct HsA as (SA & EA). destruct HsB as (SB & EB).
    destruct (@backslash_spec env ol addr n k MA MB TMPQ o IC ID He Hn SA SB ltac:(auto)) as [(_ & X & RX & SX & E)|(HD' & _)]; [|exfalso; apply D1, DT, HD'].
    exists (Qent X). split.
    { intros i r Hi Hr. rewrite <- (EB i r Hi Hr). rewrite <- (SX i r Hi ltac:(rewrite (id_n ID); exact Hr)).
      apply sumQ_ext. intros c Hc. rewrite (EA i c Hi Hc). reflexivity. }
    rewrite E. rewrite Z.eqb_refl. cbn [finish call mex_ok mret mbind].
    destruct (rq_arr RX) as (x & Hx & Hl & Hc). assert (Hk : 0 <= k) by apply (id_pos ID).
    assert (QE : forall i r, 0 <= i < n -> 0 <= r < k -> 0 <= i + r * n < n * k) by (intros; nia).
    split.
    + intros S0. rewrite S0. cbn [Z.eqb].
      assert (ST : stores X (n * k) (VQ x)).
      { right; right. rewrite (rq_m RX), (rq_n RX). split; auto. constructor; rewrite ?(rq_m RX), ?(rq_n RX); auto; try lia. apply RX. rewrite (rq_type RX). reflexivity. simpl. lia. }
      destruct (@C56_to_double o addr X _ _ ST ltac:(rewrite (rq_type RX); discriminate) ltac:(rewrite (rq_type RX); discriminate)) as (f & HC & HR).
      destruct (@same_kind_stores o addr X _ _ TDBL _ _ ST T_DBL ltac:(discriminate) HC) as (Y & EY & Y1 & Y2 & Y3 & Y4 & Y5 & Y6 & Y7).
      rewrite (rq_kind RX) in EY. rewrite EY. cbn [mex_ok mret mbind]. unfold xdbl. rewrite Y1. cbn [bind]. rewrite Y5, Y6, (rq_m RX), (rq_n RX).
      destruct (stores_facts Y7) as (_ & HB7 & _). cbn [vlen] in HB7.
      exists f. split; [reflexivity|]. split; [lia|]. intros i r Hi Hr. specialize (HR _ (QE i r Hi Hr)). unfold double_of in HR. simpl in HR.
      unfold Qent. rewrite Hx, (rq_m RX). unfold rdg in *. rewrite (nth_indep _ FNan (FFin 0 0)). exact HR. pose proof (QE i r Hi Hr). unfold zlen in HB7. lia.
    + intros S1. destruct (Z.eqb_spec (mo_solution mo) 0); [contradiction|]. rewrite Hx. cbn [bind]. rewrite (rq_m RX), (rq_n RX).
      destruct (@cells_spec x (n * k) ltac:(nia)) as (l & -> & L1 & L2). cbn [bind]. exists l. split; [reflexivity|]. split; [exact L1|].
      intros i r Hi Hr. rewrite (L2 _ (QE i r Hi Hr)). unfold Qent. rewrite Hx, (rq_m RX). apply print_q_writes. apply Hc. apply nth_In. pose proof (QE i r Hi Hr). unfold zlen in Hl. lia.
Qed.
(* a right-hand side with scale 0 *)
Lemma backslash_scale0 env ol addr n nrhs A B o : int_csc n n A -> int_dense n nrhs B -> env_ok env (opt_pivot o) ->
  1 <= n -> ~ (m_scale A == 0)%Q -> (m_scale B == 0)%Q -> detz n (Cent A) <> 0 -> SLIP_backslash env ol addr true true TMPQ (Some A) (Some B) o = UB.
Proof.
  intros IC ID He Hn HsA HsB HD0. destruct (ic_arr IC) as (Ap & Ai & Ax & Hp & Hi & Hx & V).
  destruct (@analyze_spec ol A Ap Ai n o (ic_kind IC) (ic_m IC) (ic_n IC) Hp Hi (csc_pattern V)) as (An & EA & US' & _).
  assert (US : usable n An) by (destruct US' as (U1 & U2 & U3); split; auto; lia).
  unfold SLIP_backslash, has_kt. rewrite (ic_kind IC), (ic_type IC), (id_kind ID), (id_type ID), EA.
  destruct (@factorize_spec env n A An o IC US He) as [(Ap' & Ai' & Ax' & F & R & Hp' & Hi' & Hx' & V' & EF & K & HD)|(EF & HD)]; [|contradiction].
  pose proof (@C42_zero_rhs_refuted env ol n nrhs A B o o o An (lu_of n F) IC ID Hn HsA HsB He EA EF) as ES.
  change (negb true) with false. cbn [call Z.eqb KCSC TMPQ TMPZ KDENSE TDBL TMPFR orb andb negb]. cbn [call]. rewrite EF. cbn [call]. rewrite ES. reflexivity.
Qed.
Lemma mex_tail_tiny env ol addr mo tol n k A b jc ir pr bp WA WB : fl_q (mo_tol mo) = Some tol ->
  sparse_double n A jc ir pr -> full_double n k b bp -> finite_all pr (rd jc n) -> no_2p63 pr (rd jc n) -> no_2p63 bp (n * k) ->
  sparse_units n jc ir pr WA -> full_units n k bp WB -> 1 <= n -> env_ok env (mo_pivot mo) ->
  detz n WA <> 0 -> ~ int64_all bp (n * k) -> (forall i j, 0 <= i < n -> 0 <= j < k -> WB i j = 0) -> mex_tail env ol addr mo A b = UB.
Proof.
  intros HT SD FD FA N2 N2b SU FU Hn He D1 NI W0. assert (Hk : 0 <= k) by apply (fd_pos FD).
  destruct (@get_A_spec (mex_opt mo 0%Q) addr n A jc ir pr eq_refl eq_refl SD FA N2) as (MA & i' & w & y & s & EA & IC & Ap & Ai & Ax & As & HI & HU & HS).
  assert (FB : finite_all bp (n * k)).
  { intros p Hpp. destruct (FU (p mod n) (p / n)) as (q & E & _).
    - apply Z.mod_pos_bound. lia.
    - split; [apply Z.div_pos; lia|]. apply Z.div_lt_upper_bound; lia.
    - replace (p mod n + p / n * n) with p in E by (pose proof (Z.div_mod p n ltac:(lia)); nia). eauto. }
  destruct (@get_b_spec (mex_opt mo 0%Q) addr n k A b bp eq_refl eq_refl FD (sd_m SD) FB N2b) as (MB & wb & yb & sb & EB & ID & Bx & Bs & HUb & HSb).
  unfold mex_tail, slip_mex_get_A_and_b. rewrite EA. cbn [mbind]. rewrite EB, HT. cbn [mbind mret].
  assert (CA := @sparse_Cent n jc ir pr WA MA i' w y s (sd_valid SD) SU IC Ap Ai Ax HI HU).
  destruct HS as [HS|HS].
  2:{ exfalso. apply D1. assert (E : detz n WA = detz n (fun i j => 0 * WA i j)) by (apply detz_ext; intros i j Hi Hj; destruct (proj2 (CA i j Hi Hj) HS); lia).
      rewrite E. unfold detz. rewrite det_scale. rewrite Z.pow_0_l by lia. lia. }
  assert (DT : detz n (Cent MA) <> 0).
  { intros N. apply D1. apply (@scaled_det n s (Cent MA) WA); auto. lia. apply HS. intros i j Hi Hj. apply (CA i j Hi Hj). exact HS. }
  assert (SB : (m_scale MB == 0)%Q).
  { rewrite Bs. destruct HSb as [HSb|(_ & -> & _)]; [|reflexivity]. exfalso.
    destruct HSb as (S1 & S2 & [S3|(p & Hpp & S3)]); [contradiction|].
    apply S3. clear S3. assert (Q1 : 0 <= p mod n < n) by (apply Z.mod_pos_bound; lia). assert (Q2 : 0 <= p / n < k) by (split; [apply Z.div_pos; lia|apply Z.div_lt_upper_bound; lia]).
    pose proof (FU _ _ Q1 Q2) as U. replace (p mod n + p / n * n) with p in U by (pose proof (Z.div_mod p n ltac:(lia)); nia). rewrite (W0 _ _ Q1 Q2) in U.
    eapply units_unique; eauto. }
  rewrite (@backslash_scale0 env ol addr n k MA MB (mex_opt mo tol) IC ID He Hn ltac:(rewrite As; apply HS) SB DT). reflexivity.
Qed.
