(* C87: how the solution changes when the system is transformed. *)
From Coq Require Import QArith.
From Verif Require Import Base Det DetZ Hadamard Spec SumQ MSolve MMatrix MApi ApiSpec PSolve PSolve2 PApi Check LUEx PropLU2.
Set Implicit Arguments.
Open Scope Z_scope.
Set Bullet Behavior "Strict Subproofs".

(*----------------------------------------------------------------------------*)
(* vocabulary: the rational matrices that A and B stand for, products of matrices *)
Definition Aval (A : matrix) (i j : Z) : Q := (inject_Z (Cent A i j) / m_scale A)%Q.
Definition Bval (B : matrix) (i j : Z) : Q := (inject_Z (Dent B i j) / m_scale B)%Q.
Definition times (n : Z) (f g : Z -> Z -> Q) (i j : Z) : Q := sumQ n (fun k => f i k * g k j)%Q.
Definition same (m n : Z) (f g : Z -> Z -> Q) : Prop := forall i j, 0 <= i < m -> 0 <= j < n -> (f i j == g i j)%Q.
Definition unit (i j : Z) : Q := if i =? j then 1%Q else 0%Q.
Definition invertible (n : Z) (f : Z -> Z -> Q) : Prop := exists g, same n n (times n f g) unit /\ same n n (times n g f) unit.
(* a permutation of 0..n-1 *)
Definition permutes (n : Z) (r : Z -> Z) : Prop :=
  (forall i, 0 <= i < n -> 0 <= r i < n) /\ (forall i j, 0 <= i < n -> 0 <= j < n -> r i = r j -> i = j).
(* a system that SLIP_backslash accepts: A is n-by-n, B is n-by-k, the scales are not zero *)
Record system (n k : Z) (A B : matrix) : Prop := {
  sy_A : int_csc n n A;
  sy_B : int_dense n k B;
  sy_n : 1 <= n;
  sy_k : 1 <= k;
  sy_sA : ~ (m_scale A == 0)%Q;
  sy_sB : ~ (m_scale B == 0)%Q }.
(* the outcomes m, m' of two calls of SLIP_backslash: both report a singular matrix, or both return solutions, related by R *)
Definition both (m m' : ret matrix) (R : matrix -> matrix -> Prop) : Prop :=
  (m = Ok (SErr SLIP_SINGULAR, Null) /\ m' = Ok (SErr SLIP_SINGULAR, Null)) \/
  (exists X X', m = Ok (SOK, Out X) /\ m' = Ok (SOK, Out X') /\ R X X').

(*----------------------------------------------------------------------------*)
(* matrix algebra *)
Lemma same_sym m n f g : same m n f g -> same m n g f.
Proof. intros H i j Hi Hj. symmetry. apply H; assumption. Qed.
Lemma same_trans m n f g h : same m n f g -> same m n g h -> same m n f h.
Proof. intros H K i j Hi Hj. rewrite (H i j Hi Hj). apply K; assumption. Qed.
Lemma times_same m n k f f' g g' : same m n f f' -> same n k g g' -> same m k (times n f g) (times n f' g').
Proof. intros H K i j Hi Hj. unfold times. apply sumQ_ext. intros l Hl. rewrite (H i l Hi Hl), (K l j Hl Hj). reflexivity. Qed.
Lemma same_refl m n f : same m n f f.
Proof. intros i j _ _. reflexivity. Qed.
Lemma times_assoc n p f g h i j : (times p (times n f g) h i j == times n f (times p g h) i j)%Q.
Proof.
  unfold times. transitivity (sumQ p (fun k => sumQ n (fun l => f i l * g l k * h k j)))%Q.
  - apply sumQ_ext. intros k Hk. rewrite sumQ_scalr. reflexivity.
  - etransitivity; [apply sumQ_swap|]. apply sumQ_ext. intros l Hl. cbv beta. rewrite <- sumQ_scal. apply sumQ_ext. intros k Hk. ring.
Qed.
Lemma times_unit_l n k f : same n k (times n unit f) f.
Proof.
  intros i j Hi Hj. unfold times. etransitivity; [apply (@sumQ_single n i); [exact Hi|]|cbv beta; unfold unit; rewrite Z.eqb_refl; ring].
  intros l Hl Hne. cbv beta. unfold unit. destruct (Z.eqb_spec i l); [congruence|ring].
Qed.
Lemma times_unit_r m n f : same m n (times n f unit) f.
Proof.
  intros i j Hi Hj. unfold times. etransitivity; [apply (@sumQ_single n j); [exact Hj|]|cbv beta; unfold unit; rewrite Z.eqb_refl; ring].
  intros l Hl Hne. cbv beta. unfold unit. destruct (Z.eqb_spec l j); [congruence|ring].
Qed.
Lemma inv_same n f g : same n n f g -> invertible n f -> invertible n g.
Proof.
  intros H (h & H1 & H2). exists h. split.
  - eapply same_trans; [|exact H1]. apply times_same; [apply same_sym; exact H|apply same_refl].
  - eapply same_trans; [|exact H2]. apply times_same; [apply same_refl|apply same_sym; exact H].
Qed.
Lemma times_mid n a b c d : same n n (times n b c) unit -> same n n (times n (times n a b) (times n c d)) (times n a d).
Proof.
  intros H i j Hi Hj. rewrite times_assoc. apply (@times_same n n n a a (times n b (times n c d)) d); try assumption; [apply same_refl|].
  intros x y Hx Hy. rewrite <- times_assoc. apply (@same_trans n n _ (times n unit d) d); [|apply times_unit_l|exact Hx|exact Hy]. apply times_same; [exact H|apply same_refl].
Qed.
Lemma inv_times n f g : invertible n f -> invertible n g -> invertible n (times n f g).
Proof.
  intros (f1 & F1 & F2) (g1 & G1 & G2). exists (times n g1 f1). split.
  - eapply same_trans; [apply times_mid; exact G1|exact F1].
  - eapply same_trans; [apply times_mid; exact F2|exact G2].
Qed.
Lemma inv_inverse n f g : same n n (times n f g) unit -> same n n (times n g f) unit -> invertible n g.
Proof. intros H1 H2. exists f. split; assumption. Qed.
(* invertible matrices of rationals and determinants *)
Fixpoint denp (f : Z -> Q) (l : list Z) : Z := match l with [] => 1 | k :: t => QDen (f k) * denp f t end.
Lemma denp_pos f l : 0 < denp f l.
Proof. induction l as [|k l IH]; cbn [denp]; [lia|]. apply Z.mul_pos_pos; [reflexivity|exact IH]. Qed.
Lemma denp_div f l k : In k l -> (QDen (f k) | denp f l).
Proof.
  induction l as [|a l IH]; intros H; [destruct H|]. destruct H as [->|H]; cbn [denp].
  - apply Z.divide_factor_l.
  - apply Z.divide_mul_r. apply IH. exact H.
Qed.
Lemma denpp_div (d : Z -> Z) l k : In k l -> (d k | fold_right (fun i acc => d i * acc) 1 l).
Proof. induction l as [|a l IH]; intros H; [destruct H|]. destruct H as [->|H]; cbn [fold_right]; [apply Z.divide_factor_l|apply Z.divide_mul_r, IH, H]. Qed.
Lemma denpp_pos (d : Z -> Z) l : (forall k, 0 < d k) -> 0 < fold_right (fun i acc => d i * acc) 1 l.
Proof. intros H. induction l as [|a l IH]; cbn [fold_right]; [lia|]. apply Z.mul_pos_pos; [apply H|exact IH]. Qed.
Lemma common_den n (f : Z -> Z -> Q) : exists d g, 0 < d /\ forall i j, 0 <= i < n -> 0 <= j < n -> (inject_Z d * f i j == inject_Z (g i j))%Q.
Proof.
  set (d := fold_right (fun i acc => denp (f i) (zseq 0 n) * acc) 1 (zseq 0 n)). exists d, (fun i j => Qnum (f i j) * (d / QDen (f i j))).
  split; [apply (@denpp_pos (fun i => denp (f i) (zseq 0 n))); intros k; apply denp_pos|].
  intros i j Hi Hj. assert (D : (QDen (f i j) | d)). { eapply Z.divide_trans; [apply (@denp_div (f i) (zseq 0 n) j); apply in_zseq; lia|]. apply (@denpp_div (fun i => denp (f i) (zseq 0 n)) (zseq 0 n) i). apply in_zseq. lia. }
  destruct D as (q & Hq). unfold Qeq, Qmult, inject_Z. cbn [Qnum Qden]. rewrite Hq at 1 2. rewrite Z.div_mul by discriminate. rewrite Pos.mul_1_l. ring.
Qed.
Lemma det_scale n x : forall f, det n (fun i j => x * f i j) = x ^ Z.of_nat n * det n f.
Proof.
  induction n as [|n IH]; intros f; [rewrite !det_0; reflexivity|]. rewrite !det_S. rewrite <- sum_scal. apply sum_ext. intros k Hk.
  rewrite (@det_ext n (minor 0 k (fun i j => x * f i j)) (fun i j => x * minor 0 k f i j)) by (intros; unfold minor; reflexivity). rewrite IH.
  replace (Z.of_nat (S n)) with (Z.of_nat n + 1) by lia. rewrite Z.pow_add_r, Z.pow_1_r by lia. ring.
Qed.
Lemma inv_det n (F : Z -> Z -> Z) (s : Q) : 0 <= n -> ~ (s == 0)%Q -> (invertible n (fun i j => inject_Z (F i j) / s)%Q <-> detz n F <> 0).
Proof.
  intros Hn Hs. split.
  - intros (g & _ & G). destruct (common_den n (fun i j => g i j / s)%Q) as (d & w & Hd & W).
    assert (E : det (Z.to_nat n) w * det (Z.to_nat n) F = d ^ Z.of_nat (Z.to_nat n)).
    { rewrite <- det_mul. rewrite (@det_ext _ (mul (Z.to_nat n) w F) (fun i j => d * dl i j)); [rewrite det_scale, det_dl; ring|]. intros i j Hi Hj. unfold mul. change (sumf (Z.to_nat n)) with (sumz n).
      assert (E : (inject_Z (sumz n (fun k => w i k * F k j)%Z) == inject_Z (d * dl i j))%Q); [|unfold Qeq, inject_Z in E; cbn in E; lia].
      rewrite sumQ_sumz by lia. transitivity (inject_Z d * times n g (fun i j => inject_Z (F i j) / s) i j)%Q.
      - unfold times. rewrite <- sumQ_scal. apply sumQ_ext. intros k Hk. rewrite inject_Z_mult, <- W by lia. field. exact Hs.
      - rewrite (G i j) by lia. rewrite inject_Z_mult. unfold unit, dl. destruct (i =? j); reflexivity. }
    unfold detz. intros H. rewrite H in E. assert (0 < d ^ Z.of_nat (Z.to_nat n)) by (apply Z.pow_pos_nonneg; lia). nia.
  - intros HD. destruct (adjz_ex n F) as (w & W1 & W2). assert (ND : ~ (inject_Z (detz n F) == 0)%Q) by (unfold Qeq, inject_Z; cbn; lia).
    exists (fun i j => inject_Z (w i j) * s / inject_Z (detz n F))%Q. split; intros i j Hi Hj; unfold times.
    + transitivity (/ inject_Z (detz n F) * inject_Z (sumz n (fun c => F i c * w c j)%Z))%Q.
      * rewrite sumQ_sumz, <- sumQ_scal by lia. apply sumQ_ext. intros k Hk. rewrite inject_Z_mult. field. auto.
      * rewrite W1 by assumption. unfold unit. destruct (i =? j); [field; exact ND|change (inject_Z 0) with 0%Q; ring].
    + transitivity (/ inject_Z (detz n F) * inject_Z (sumz n (fun c => w i c * F c j)%Z))%Q.
      * rewrite sumQ_sumz, <- sumQ_scal by lia. apply sumQ_ext. intros k Hk. rewrite inject_Z_mult. field. auto.
      * rewrite W2 by assumption. unfold unit. destruct (i =? j); [field; exact ND|change (inject_Z 0) with 0%Q; ring].
Qed.
Lemma Aval_det n k A B : system n k A B -> (invertible n (Aval A) <-> detz n (Cent A) <> 0).
Proof. intros S. apply inv_det; [pose proof (sy_n S); lia|apply (sy_sA S)]. Qed.
Lemma solves_same n k A B X : system n k A B -> solves n A B X -> same n k (times n (Aval A) (Qent X)) (Bval B).
Proof. intros S H i r Hi Hr. unfold times, Aval, Bval. apply H; [exact Hi|]. rewrite (id_n (sy_B S)). exact Hr. Qed.
Lemma cancel n k f g h : invertible n f -> same n k (times n f g) (times n f h) -> same n k g h.
Proof.
  intros (f1 & _ & F) H. assert (G : forall x, same n k (times n f1 (times n f x)) x).
  { intros x i j Hi Hj. rewrite <- times_assoc. apply (@same_trans n k _ (times n unit x) x); [|apply times_unit_l|exact Hi|exact Hj]. apply times_same; [exact F|apply same_refl]. }
  eapply same_trans; [apply same_sym; apply G|]. eapply same_trans; [|apply G]. apply times_same; [apply same_refl|exact H].
Qed.
Lemma Qent_canon n k X i r : rat_dense n k X -> canon (Qent X i r).
Proof. intros R. destruct (rq_arr R) as (x & Ex & _ & C). unfold Qent. rewrite Ex. apply all_canon_rdq. exact C. Qed.

(*----------------------------------------------------------------------------*)
(* The general form.  If A' = M A N and B' = M B K with invertible matrices M and N and any matrix K, then N X' = X K. *)
Theorem C87_transformed : forall env env' ol ol' addr addr' n k k' A B A' B' o o' (M N K : Z -> Z -> Q),
  system n k A B -> system n k' A' B' -> env_ok env (opt_pivot o) -> env_ok env' (opt_pivot o') -> invertible n M -> invertible n N ->
  same n n (Aval A') (times n M (times n (Aval A) N)) -> same n k' (Bval B') (times n M (times k (Bval B) K)) ->
  both (SLIP_backslash env ol addr true true TMPQ (Some A) (Some B) o) (SLIP_backslash env' ol' addr' true true TMPQ (Some A') (Some B') o')
    (fun X X' => rat_dense n k X /\ rat_dense n k' X' /\ solves n A B X /\ solves n A' B' X' /\ same n k' (times n N (Qent X')) (times k (Qent X) K)).
Proof.
  intros env env' ol ol' addr addr' n k k' A B A' B' o o' M N K SY SY' He He' HM HN HA HB. pose proof (sy_n SY) as Hn.
  assert (DD : detz n (Cent A) <> 0 <-> detz n (Cent A') <> 0).
  { rewrite <- (Aval_det SY), <- (Aval_det SY'). split; intros H.
    - eapply inv_same; [apply same_sym; exact HA|]. apply inv_times; [exact HM|]. apply inv_times; assumption.
    - destruct HM as (M1 & M2 & M3). destruct HN as (N1 & N2 & N3).
      assert (G : same n n (times n M1 (times n (Aval A') N1)) (Aval A)).
      { assert (E1 : same n n (times n M1 (Aval A')) (times n (Aval A) N)).
        { eapply same_trans; [apply times_same; [apply same_refl|exact HA]|]. intros i j Hi Hj. rewrite <- times_assoc. revert i j Hi Hj. change (same n n (times n (times n M1 M) (times n (Aval A) N)) (times n (Aval A) N)).
          eapply same_trans; [apply times_same; [exact M3|apply same_refl]|]. apply times_unit_l. }
        intros i j Hi Hj. rewrite <- times_assoc. revert i j Hi Hj. change (same n n (times n (times n M1 (Aval A')) N1) (Aval A)). eapply same_trans; [apply times_same; [exact E1|apply same_refl]|].
        intros i j Hi Hj. rewrite times_assoc. revert i j Hi Hj. change (same n n (times n (Aval A) (times n N N1)) (Aval A)). eapply same_trans; [apply times_same; [apply same_refl|exact N2]|]. apply times_unit_r. }
      eapply inv_same; [exact G|]. apply inv_times; [exists M; split; assumption|]. apply inv_times; [exact H|exists N; split; assumption]. }
  destruct (@backslash_spec env ol addr n k A B TMPQ o (sy_A SY) (sy_B SY) He Hn (sy_sA SY) (sy_sB SY) ltac:(auto)) as [(HD & X & RX & SX & ->)|(HD & ->)];
  destruct (@backslash_spec env' ol' addr' n k' A' B' TMPQ o' (sy_A SY') (sy_B SY') He' Hn (sy_sA SY') (sy_sB SY') ltac:(auto)) as [(HD' & X' & RX' & SX' & ->)|(HD' & ->)].
  - right. exists X, X'. split; [reflexivity|]. split; [reflexivity|]. split; [exact RX|]. split; [exact RX'|]. split; [exact SX|]. split; [exact SX'|].
    pose proof (solves_same SY SX) as E. pose proof (solves_same SY' SX') as E'.
    apply (@cancel n k' (times n M (Aval A))); [apply inv_times; [exact HM|apply (Aval_det SY); exact HD]|].
    apply (@same_trans n k' _ (Bval B')).
    + eapply same_trans; [|exact E']. intros i j Hi Hj. rewrite <- times_assoc. revert i j Hi Hj. change (same n k' (times n (times n (times n M (Aval A)) N) (Qent X')) (times n (Aval A') (Qent X'))). apply times_same; [|apply same_refl].
      eapply same_trans; [|apply same_sym; exact HA]. intros i j _ _. apply times_assoc.
    + eapply same_trans; [exact HB|]. apply same_sym. intros i j Hi Hj. rewrite times_assoc. revert i j Hi Hj. change (same n k' (times n M (times n (Aval A) (times k (Qent X) K))) (times n M (times k (Bval B) K))). apply times_same; [apply same_refl|].
      intros i j Hi Hj. rewrite <- times_assoc. revert i j Hi Hj. change (same n k' (times k (times n (Aval A) (Qent X)) K) (times k (Bval B) K)). apply times_same; [exact E|apply same_refl].
  - exfalso. exact (proj1 DD HD HD').
  - exfalso. exact (proj2 DD HD' HD).
  - left. split; reflexivity.
Qed.

(* invertible matrices that occur below: monomial matrices *)
Definition monorow (d : Z -> Q) (r : Z -> Z) (i j : Z) : Q := if j =? r i then d i else 0%Q.
Definition monocol (d : Z -> Q) (r : Z -> Z) (i j : Z) : Q := if i =? r j then d j else 0%Q.
Lemma times_monorow n k d r f : permutes n r -> same n k (times n (monorow d r) f) (fun i j => d i * f (r i) j)%Q.
Proof.
  intros (P & _) i j Hi Hj. unfold times. etransitivity; [apply (@sumQ_single n (r i)); [apply P; exact Hi|]|cbv beta; unfold monorow; rewrite Z.eqb_refl; reflexivity].
  intros l Hl Hne. cbv beta. unfold monorow. destruct (Z.eqb_spec l (r i)); [congruence|ring].
Qed.
Lemma times_monocol n m d r f : permutes n r -> same m n (times n f (monocol d r)) (fun i j => f i (r j) * d j)%Q.
Proof.
  intros (P & _) i j Hi Hj. unfold times. etransitivity; [apply (@sumQ_single n (r j)); [apply P; exact Hj|]|cbv beta; unfold monocol; rewrite Z.eqb_refl; reflexivity].
  intros l Hl Hne. cbv beta. unfold monocol. destruct (Z.eqb_spec l (r j)); [congruence|ring].
Qed.
Lemma mono_inverse n d r : permutes n r -> (forall i, 0 <= i < n -> ~ (d i == 0)%Q) ->
  same n n (times n (monorow d r) (monocol (fun i => / d i)%Q r)) unit.
Proof.
  intros P D i j Hi Hj. rewrite (@times_monorow n n d r _ P i j Hi Hj). cbv beta. unfold monocol, unit. destruct (Z.eqb_spec (r i) (r j)) as [e|e]; destruct (Z.eqb_spec i j) as [e'|e'].
  - subst j. field. apply D. exact Hi.
  - exfalso. apply e'. apply P; assumption.
  - congruence.
  - ring.
Qed.
Lemma mono_inverse' n d r : 0 <= n -> permutes n r -> (forall i, 0 <= i < n -> ~ (d i == 0)%Q) ->
  same n n (times n (monocol (fun i => / d i)%Q r) (monorow d r)) unit.
Proof.
  intros Hn (P1 & P2) D i j Hi Hj. destruct (@perm_onto (Z.to_nat n) r) with (y := i) as (k & Hk & <-); [intros x Hx; pose proof (P1 x); lia|intros x y Hx Hy; apply P2; lia|lia|].
  unfold times. etransitivity; [apply (@sumQ_single n k); [lia|]|].
  - intros l Hl Hne. cbv beta. unfold monocol. destruct (Z.eqb_spec (r k) (r l)) as [e|e]; [|ring]. exfalso. apply Hne. apply P2; [exact Hl|lia|congruence].
  - cbv beta. unfold monocol, monorow, unit. rewrite Z.eqb_refl. rewrite (Z.eqb_sym j). destruct (r k =? j); [field; apply D; lia|ring].
Qed.
Lemma monorow_inv n d r : 0 <= n -> permutes n r -> (forall i, 0 <= i < n -> ~ (d i == 0)%Q) -> invertible n (monorow d r).
Proof. intros Hn P D. exists (monocol (fun i => / d i)%Q r). split; [apply mono_inverse|apply mono_inverse']; assumption. Qed.
Lemma monocol_inv n d r : 0 <= n -> permutes n r -> (forall i, 0 <= i < n -> ~ (d i == 0)%Q) -> invertible n (monocol d r).
Proof.
  intros Hn P D. assert (D' : forall i, 0 <= i < n -> ~ (/ d i == 0)%Q) by (intros i Hi H; apply (D i Hi); rewrite <- (Qinv_involutive (d i)), H; reflexivity).
  eapply inv_same; [|exists (monorow (fun i => / d i)%Q r); split; [apply (@mono_inverse' n (fun i => / d i)%Q r)|apply (@mono_inverse n (fun i => / d i)%Q r)]; assumption].
  intros i j Hi Hj. unfold monocol. destruct (i =? r j); [|reflexivity]. apply Qinv_involutive.
Qed.
Lemma unit_inv n : invertible n unit.
Proof. exists unit. split; apply times_unit_l. Qed.
Lemma unit_both n k f : same n k (times n unit f) f /\ same k n (times n f unit) f.
Proof. split; [apply times_unit_l|apply times_unit_r]. Qed.
Lemma both_mono m m' (R R' : matrix -> matrix -> Prop) : (forall X X', R X X' -> R' X X') -> both m m' R -> both m m' R'.
Proof. intros H [B|(X & X' & E & E' & HR)]; [left; exact B|right; exists X, X'; auto]. Qed.

(* Exchanging the equations and multiplying each by a number changes nothing: the very same X (or SLIP_SINGULAR) is returned. *)
Theorem C87_equations : forall env env' ol ol' addr addr' n k A B A' B' o o' (r : Z -> Z) (d : Z -> Q),
  system n k A B -> system n k A' B' -> env_ok env (opt_pivot o) -> env_ok env' (opt_pivot o') -> permutes n r -> (forall i, 0 <= i < n -> ~ (d i == 0)%Q) ->
  (forall i j, 0 <= i < n -> 0 <= j < n -> (Aval A' i j == d i * Aval A (r i) j)%Q) -> (forall i j, 0 <= i < n -> 0 <= j < k -> (Bval B' i j == d i * Bval B (r i) j)%Q) ->
  SLIP_backslash env' ol' addr' true true TMPQ (Some A') (Some B') o' = SLIP_backslash env ol addr true true TMPQ (Some A) (Some B) o.
Proof.
  intros env env' ol ol' addr addr' n k A B A' B' o o' r d SY SY' He He' P D HA HB. pose proof (sy_n SY) as Hn. pose proof (sy_k SY) as Hk.
  assert (G : both (SLIP_backslash env ol addr true true TMPQ (Some A) (Some B) o) (SLIP_backslash env' ol' addr' true true TMPQ (Some A') (Some B') o') (fun X X' => X = X')).
  { eapply both_mono; [|apply (@C87_transformed env env' ol ol' addr addr' n k k A B A' B' o o' (monorow d r) unit unit SY SY' He He')].
    - intros X X' (RX & RX' & _ & _ & E). apply (@rat_dense_ext n k X X' Hn Hk RX RX'). intros i j Hi Hj. apply canon_eq; [apply (Qent_canon i j RX)|apply (Qent_canon i j RX')|].
      rewrite <- (@times_unit_r n k (Qent X) i j Hi Hj), <- (E i j Hi Hj). exact (@times_unit_l n k (Qent X') i j Hi Hj).
    - apply monorow_inv; [lia|exact P|exact D].
    - apply unit_inv.
    - intros i j Hi Hj. rewrite HA by assumption. rewrite (@times_monorow n n d r _ P i j Hi Hj). rewrite (@times_unit_r n n (Aval A) (r i) j) by (try apply P; assumption). reflexivity.
    - intros i j Hi Hj. rewrite HB by assumption. rewrite (@times_monorow n k d r _ P i j Hi Hj). rewrite (@times_unit_r n k (Bval B) (r i) j) by (try apply P; assumption). reflexivity. }
  destruct G as [(-> & ->)|(X & X' & -> & -> & <-)]; reflexivity.
Qed.

(* Renaming the unknowns and measuring each in another unit changes the solution accordingly. *)
Theorem C87_unknowns : forall env env' ol ol' addr addr' n k A B A' B' o o' (r : Z -> Z) (d : Z -> Q),
  system n k A B -> system n k A' B' -> env_ok env (opt_pivot o) -> env_ok env' (opt_pivot o') -> permutes n r -> (forall i, 0 <= i < n -> ~ (d i == 0)%Q) ->
  (forall i j, 0 <= i < n -> 0 <= j < n -> (Aval A' i j == Aval A i (r j) * d j)%Q) -> (forall i j, 0 <= i < n -> 0 <= j < k -> (Bval B' i j == Bval B i j)%Q) ->
  both (SLIP_backslash env ol addr true true TMPQ (Some A) (Some B) o) (SLIP_backslash env' ol' addr' true true TMPQ (Some A') (Some B') o')
    (fun X X' => forall j c, 0 <= j < n -> 0 <= c < k -> Qent X' j c = Qred (Qent X (r j) c / d j)).
Proof.
  intros env env' ol ol' addr addr' n k A B A' B' o o' r d SY SY' He He' P D HA HB. pose proof (sy_n SY) as Hn.
  eapply both_mono; [|apply (@C87_transformed env env' ol ol' addr addr' n k k A B A' B' o o' unit (monocol d r) unit SY SY' He He')].
  - intros X X' (RX & RX' & _ & _ & E) j c Hj Hc. rewrite <- (Qent_canon j c RX'). apply Qred_complete. assert (Hr : 0 <= r j < n) by (apply P; exact Hj).
    specialize (E (r j) c Hr Hc). rewrite (@times_unit_r n k (Qent X) (r j) c Hr Hc) in E. rewrite <- E. unfold times.
    rewrite (@sumQ_single n j (fun k0 => (monocol d r (r j) k0 * Qent X' k0 c)%Q) Hj); [|intros l Hl Hne; unfold monocol; destruct (Z.eqb_spec (r j) (r l)) as [e|e]; [|ring]; exfalso; apply Hne; apply P; congruence].
    unfold monocol. rewrite Z.eqb_refl. field. apply D. exact Hj.
  - apply unit_inv.
  - apply monocol_inv; [lia|exact P|exact D].
  - intros i j Hi Hj. rewrite HA by assumption. rewrite (@times_unit_l n n _ i j Hi Hj). rewrite (@times_monocol n n d r (Aval A) P i j Hi Hj). reflexivity.
  - intros i j Hi Hj. rewrite HB by assumption. rewrite (@times_unit_l n k _ i j Hi Hj). rewrite (@times_unit_r n k (Bval B) i j Hi Hj). reflexivity.
Qed.

(* Right-hand sides that are combinations of other right-hand sides have the combinations of their solutions. *)
Theorem C87_combinations : forall env env' ol ol' addr addr' n k k' A B B' o o' (K : Z -> Z -> Q),
  system n k A B -> system n k' A B' -> env_ok env (opt_pivot o) -> env_ok env' (opt_pivot o') ->
  (forall i j, 0 <= i < n -> 0 <= j < k' -> (Bval B' i j == sumQ k (fun s => Bval B i s * K s j))%Q) ->
  both (SLIP_backslash env ol addr true true TMPQ (Some A) (Some B) o) (SLIP_backslash env' ol' addr' true true TMPQ (Some A) (Some B') o')
    (fun X X' => forall i j, 0 <= i < n -> 0 <= j < k' -> Qent X' i j = Qred (sumQ k (fun s => Qent X i s * K s j))%Q).
Proof.
  intros env env' ol ol' addr addr' n k k' A B B' o o' K SY SY' He He' HB.
  eapply both_mono; [|apply (@C87_transformed env env' ol ol' addr addr' n k k' A B A B' o o' unit unit K SY SY' He He')].
  - intros X X' (RX & RX' & _ & _ & E) i j Hi Hj. rewrite <- (Qent_canon i j RX'). apply Qred_complete. rewrite <- (@times_unit_l n k' (Qent X') i j Hi Hj). apply E; assumption.
  - apply unit_inv.
  - apply unit_inv.
  - intros i j Hi Hj. rewrite (@times_unit_l n n _ i j Hi Hj). rewrite (@times_unit_r n n _ i j Hi Hj). reflexivity.
  - intros i j Hi Hj. rewrite (@times_unit_l n k' _ i j Hi Hj). apply HB; assumption.
Qed.

(* Three calls: the solution is linear in the right-hand side. *)
Theorem C87_linear : forall env1 env2 env3 ol1 ol2 ol3 addr1 addr2 addr3 n k A B1 B2 B3 o1 o2 o3 (a b : Q),
  system n k A B1 -> system n k A B2 -> system n k A B3 -> env_ok env1 (opt_pivot o1) -> env_ok env2 (opt_pivot o2) -> env_ok env3 (opt_pivot o3) ->
  (forall i j, 0 <= i < n -> 0 <= j < k -> (Bval B3 i j == a * Bval B1 i j + b * Bval B2 i j)%Q) -> detz n (Cent A) <> 0 ->
  exists X1 X2 X3, SLIP_backslash env1 ol1 addr1 true true TMPQ (Some A) (Some B1) o1 = Ok (SOK, Out X1) /\
    SLIP_backslash env2 ol2 addr2 true true TMPQ (Some A) (Some B2) o2 = Ok (SOK, Out X2) /\
    SLIP_backslash env3 ol3 addr3 true true TMPQ (Some A) (Some B3) o3 = Ok (SOK, Out X3) /\
    forall i j, 0 <= i < n -> 0 <= j < k -> Qent X3 i j = Qred (a * Qent X1 i j + b * Qent X2 i j).
Proof.
  intros env1 env2 env3 ol1 ol2 ol3 addr1 addr2 addr3 n k A B1 B2 B3 o1 o2 o3 a b S1 S2 S3 He1 He2 He3 HB HD.
  destruct (@backslash_spec env1 ol1 addr1 n k A B1 TMPQ o1 (sy_A S1) (sy_B S1) He1 (sy_n S1) (sy_sA S1) (sy_sB S1) ltac:(auto)) as [(_ & X1 & R1 & V1 & ->)|(HD' & _)]; [|contradiction].
  destruct (@backslash_spec env2 ol2 addr2 n k A B2 TMPQ o2 (sy_A S2) (sy_B S2) He2 (sy_n S2) (sy_sA S2) (sy_sB S2) ltac:(auto)) as [(_ & X2 & R2 & V2 & ->)|(HD' & _)]; [|contradiction].
  destruct (@backslash_spec env3 ol3 addr3 n k A B3 TMPQ o3 (sy_A S3) (sy_B S3) He3 (sy_n S3) (sy_sA S3) (sy_sB S3) ltac:(auto)) as [(_ & X3 & R3 & V3 & ->)|(HD' & _)]; [|contradiction].
  exists X1, X2, X3. split; [reflexivity|]. split; [reflexivity|]. split; [reflexivity|].
  assert (G : same n k (Qent X3) (fun i j => a * Qent X1 i j + b * Qent X2 i j)%Q).
  { apply (@cancel n k (Aval A)); [apply (Aval_det S1); exact HD|]. eapply same_trans; [apply (solves_same S3 V3)|]. intros i j Hi Hj. rewrite HB by assumption.
    rewrite <- (solves_same S1 V1 Hi Hj), <- (solves_same S2 V2 Hi Hj). unfold times. rewrite <- !sumQ_scal, <- sumQ_add. apply sumQ_ext. intros l Hl. ring. }
  intros i j Hi Hj. rewrite <- (Qent_canon i j R3). apply Qred_complete. apply G; assumption.
Qed.

(*----------------------------------------------------------------------------*)
(* the hypotheses are met: x + 2y = 5, 3x + 4y = 6 and three transformed systems *)
Definition me (x : list Z) : matrix := mkM 2 2 4 0 KCSC TMPZ (Some [0; 2; 4]) (Some [0; 1; 0; 1]) None (Some (VZ x)) 1%Q.
Definition mb (k : Z) (x : list Z) : matrix := mkM 2 k (2 * k) 0 KDENSE TMPZ None None None (Some (VZ x)) 1%Q.
Lemma me_system x k b : zlen x = 4 -> 1 <= k -> zlen b = 2 * k -> system 2 k (me x) (mb k b).
Proof.
  intros Hx Hk Hb. assert (V : valid_csc 2 2 [0; 2; 4] [0; 1; 0; 1] (mk 4 0)) by (apply valid_cscb_ok; reflexivity).
  constructor; try lia; try discriminate.
  - constructor; try reflexivity. do 3 eexists. do 3 (split; [reflexivity|]). destruct V. constructor; try assumption; try (change (rd [0; 2; 4] 2) with 4; lia).
  - constructor; try reflexivity; [lia|]. exists b. split; [reflexivity|]. lia.
Qed.
Definition flip (i : Z) : Z := 1 - i.
Lemma flip_permutes : permutes 2 flip.
Proof. split; unfold flip; intros; lia. Qed.
Ltac two H := let e := fresh in assert (e := H); match type of e with 0 <= ?x < 2 => assert (x = 0 \/ x = 1) as [-> | ->] by lia end; clear e.
Definition me_run x k b := SLIP_backslash exenv exol (fun _ => 0) true true TMPQ (Some (me x)) (Some (mb k b)) None.
(* equations exchanged and multiplied by 2 and 3 *)
Example C87_equations_ex : me_run [6; 3; 8; 6] 1 [12; 15] = me_run [1; 3; 2; 4] 1 [5; 6].
Proof.
  apply (@C87_equations exenv exenv exol exol (fun _ => 0) (fun _ => 0) 2 1 (me [1; 3; 2; 4]) (mb 1 [5; 6]) (me [6; 3; 8; 6]) (mb 1 [12; 15]) None None flip (fun i => inject_Z (i + 2))).
  1,2: apply me_system; reflexivity || lia. 1,2: apply ex_env. apply flip_permutes.
  - intros i Hi. two Hi; discriminate.
  - intros i j Hi Hj. two Hi; two Hj; reflexivity.
  - intros i j Hi Hj. assert (j = 0) as -> by lia. two Hi; reflexivity.
Qed.
(* unknowns exchanged and scaled *)
Example C87_unknowns_ex : both (me_run [1; 3; 2; 4] 1 [5; 6]) (me_run [4; 8; 3; 9] 1 [5; 6]) (fun X X' => forall j c, 0 <= j < 2 -> 0 <= c < 1 -> Qent X' j c = Qred (Qent X (flip j) c / inject_Z (j + 2))).
Proof.
  apply (@C87_unknowns exenv exenv exol exol (fun _ => 0) (fun _ => 0) 2 1 (me [1; 3; 2; 4]) (mb 1 [5; 6]) (me [4; 8; 3; 9]) (mb 1 [5; 6]) None None flip (fun i => inject_Z (i + 2))).
  1,2: apply me_system; reflexivity || lia. 1,2: apply ex_env. apply flip_permutes.
  - intros i Hi. two Hi; discriminate.
  - intros i j Hi Hj. two Hi; two Hj; reflexivity.
  - intros i j Hi Hj. reflexivity.
Qed.
(* the right-hand side (5,6) - 2 (1,0) as a combination of the two columns (5,6) and (1,0) *)
Example C87_combinations_ex : both (me_run [1; 3; 2; 4] 2 [5; 6; 1; 0]) (me_run [1; 3; 2; 4] 1 [3; 6])
  (fun X X' => forall i j, 0 <= i < 2 -> 0 <= j < 1 -> Qent X' i j = Qred (sumQ 2 (fun s => Qent X i s * inject_Z (1 - 3 * s)))%Q) /\ detz 2 (Cent (me [1; 3; 2; 4])) <> 0.
Proof.
  split; [|discriminate]. apply (@C87_combinations exenv exenv exol exol (fun _ => 0) (fun _ => 0) 2 2 1 (me [1; 3; 2; 4]) (mb 2 [5; 6; 1; 0]) (mb 1 [3; 6]) None None (fun s _ => inject_Z (1 - 3 * s))).
  1,2: apply me_system; reflexivity || lia. 1,2: apply ex_env.
  intros i j Hi Hj. assert (j = 0) as -> by lia. two Hi; reflexivity.
Qed.
