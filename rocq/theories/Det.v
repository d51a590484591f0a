(* Determinants of integer matrices, by Laplace expansion along the first row; only the standard library is used.  This file contains
   no model of C code: it is the definition of the determinant used in the specifications, and the mathematics used in the proofs. *)
From Coq Require Import ZArith List Lia Bool Factorial FinFun.
Set Implicit Arguments.
Set Bullet Behavior "Strict Subproofs".
Open Scope Z_scope.

(*----------------------------------------------------------------------------*)
(* sums f 0 + ... + f (n-1) *)
Fixpoint sumf (n : nat) (f : Z -> Z) : Z :=
  match n with O => 0 | S m => sumf m f + f (Z.of_nat m) end.
(* all indices but j *)
Definition skip (j b : Z) : Z := if b <? j then b else b + 1.
Definition sgn (j : Z) : Z := if Z.even j then 1 else -1.
(* the matrix without row i and column j *)
Definition minor (i j : Z) (f : Z -> Z -> Z) : Z -> Z -> Z := fun a b => f (skip i a) (skip j b).
(* the determinant of the matrix with entries f i j, 0 <= i, j < n *)
Fixpoint det (n : nat) (f : Z -> Z -> Z) : Z :=
  match n with
  | O => 1
  | S m => sumf (S m) (fun j => sgn j * f 0 j * det m (minor 0 j f))
  end.

(*----------------------------------------------------------------------------*)
Lemma sum_ext n f g : (forall k, 0 <= k < Z.of_nat n -> f k = g k) -> sumf n f = sumf n g.
Proof. induction n as [|n IH]; intros H; cbn [sumf]; [reflexivity|]. rewrite IH by (intros; apply H; lia). rewrite H by lia. reflexivity. Qed.
Lemma sum_zero n f : (forall k, 0 <= k < Z.of_nat n -> f k = 0) -> sumf n f = 0.
Proof. induction n as [|n IH]; intros H; cbn [sumf]; [reflexivity|]. rewrite IH by (intros; apply H; lia). rewrite H by lia. reflexivity. Qed.
Lemma sum_lin n x y f g : sumf n (fun k => x * f k + y * g k) = x * sumf n f + y * sumf n g.
Proof. induction n as [|n IH]; cbn [sumf]; [ring|]. rewrite IH. ring. Qed.
Lemma sum_scal n x f : sumf n (fun k => x * f k) = x * sumf n f.
Proof. induction n as [|n IH]; cbn [sumf]; [ring|]. rewrite IH. ring. Qed.
Lemma sum_opp n f : sumf n (fun k => - f k) = - sumf n f.
Proof. induction n as [|n IH]; cbn [sumf]; [ring|]. rewrite IH. ring. Qed.
Lemma sum_add n f g : sumf n (fun k => f k + g k) = sumf n f + sumf n g.
Proof. induction n as [|n IH]; cbn [sumf]; [ring|]. rewrite IH. ring. Qed.
Lemma sum_swap n m f : sumf n (fun i => sumf m (fun j => f i j)) = sumf m (fun j => sumf n (fun i => f i j)).
Proof.
  induction n as [|n IH]; cbn [sumf]; [symmetry; apply sum_zero; reflexivity|]. rewrite IH.
  rewrite <- sum_add. reflexivity.
Qed.
Lemma sum_first n f : sumf (S n) f = f 0 + sumf n (fun k => f (k + 1)).
Proof.
  induction n as [|n IH]; [cbn; ring|]. change (sumf (S (S n)) f) with (sumf (S n) f + f (Z.of_nat (S n))). rewrite IH. cbn [sumf].
  replace (Z.of_nat (S n)) with (Z.of_nat n + 1) by lia. ring.
Qed.
Lemma sum_single n f i : 0 <= i < Z.of_nat n -> (forall k, 0 <= k < Z.of_nat n -> k <> i -> f k = 0) -> sumf n f = f i.
Proof.
  induction n as [|n IH]; intros Hi H; [lia|]. cbn [sumf]. destruct (Z.eq_dec i (Z.of_nat n)) as [->|Hne].
  - rewrite sum_zero by (intros; apply H; lia). ring.
  - rewrite IH by (try lia; intros; apply H; lia). rewrite (H (Z.of_nat n)) by lia. ring.
Qed.
Lemma sum_two n f i j : 0 <= i < Z.of_nat n -> 0 <= j < Z.of_nat n -> i <> j ->
  (forall k, 0 <= k < Z.of_nat n -> k <> i -> k <> j -> f k = 0) -> sumf n f = f i + f j.
Proof.
  induction n as [|n IH]; intros Hi Hj Hij H; [lia|]. cbn [sumf].
  destruct (Z.eq_dec i (Z.of_nat n)) as [->|Hi'].
  - rewrite (@sum_single n f j) by (try lia; intros; apply H; lia). ring.
  - destruct (Z.eq_dec j (Z.of_nat n)) as [->|Hj'].
    + rewrite (@sum_single n f i) by (try lia; intros; apply H; lia). ring.
    + rewrite IH by (try lia; intros; apply H; lia). rewrite (H (Z.of_nat n)) by lia. ring.
Qed.

Lemma sgn_0 : sgn 0 = 1. Proof. reflexivity. Qed.
Lemma sgn_succ j : sgn (j + 1) = - sgn j.
Proof. unfold sgn. rewrite Z.even_add. change (Z.even 1) with false. destruct (Z.even j); reflexivity. Qed.
Lemma sgn_add i j : sgn (i + j) = sgn i * sgn j.
Proof. unfold sgn. rewrite Z.even_add. destruct (Z.even i), (Z.even j); reflexivity. Qed.
Lemma sgn_sq j : sgn j * sgn j = 1.
Proof. unfold sgn. destruct (Z.even j); reflexivity. Qed.
Lemma sgn_abs j : Z.abs (sgn j) = 1.
Proof. unfold sgn. destruct (Z.even j); reflexivity. Qed.

Ltac atom x := lazymatch x with context [if _ then _ else _] => fail | _ => idtac end.
Ltac ltb := repeat match goal with
  | |- context [?x <? ?y] => atom x; atom y; destruct (Z.ltb_spec x y); try lia
  | |- context [?x =? ?y] => atom x; atom y; destruct (Z.eqb_spec x y); try lia
  end.
Lemma skip_range j b n : 0 <= b < n -> 0 <= skip j b < n + 1. Proof. unfold skip. ltb. Qed.
Lemma skip_neq j b : skip j b <> j. Proof. unfold skip. ltb. Qed.
Lemma skip_0 b : 0 <= b -> skip 0 b = b + 1. Proof. unfold skip. ltb. Qed.

Lemma det_S m f : det (S m) f = sumf (S m) (fun j => sgn j * f 0 j * det m (minor 0 j f)).
Proof. reflexivity. Qed.
Lemma det_ext n : forall f g, (forall i j, 0 <= i < Z.of_nat n -> 0 <= j < Z.of_nat n -> f i j = g i j) -> det n f = det n g.
Proof.
  induction n as [|n IH]; intros f g H; [reflexivity|]. rewrite !det_S. apply sum_ext. intros k Hk. rewrite H by lia. f_equal.
  apply IH. intros i j Hi Hj. unfold minor. apply H.
  - pose proof (@skip_range 0 i (Z.of_nat n)). lia.
  - pose proof (@skip_range k j (Z.of_nat n)). lia.
Qed.
Lemma det_0 f : det 0 f = 1. Proof. reflexivity. Qed.
Lemma det_1 f : det 1 f = f 0 0. Proof. rewrite det_S. cbn [sumf det]. change (Z.of_nat 0) with 0. rewrite sgn_0. ring. Qed.

(*----------------------------------------------------------------------------*)
(* the first column instead of the first row; transposition *)
Lemma det_first_col m : forall f, det (S m) f = sumf (S m) (fun i => sgn i * f i 0 * det m (minor i 0 f)).
Proof.
  induction m as [|p IH]; intros f; [reflexivity|].
  rewrite det_S. rewrite !(sum_first (S p)). f_equal.
  rewrite (@sum_ext (S p) (fun k => sgn (k + 1) * f 0 (k + 1) * det (S p) (minor 0 (k + 1) f))
    (fun j => sumf (S p) (fun i => - (sgn i * sgn j) * (f 0 (j + 1) * f (i + 1) 0) * det p (minor i 0 (minor 0 (j + 1) f))))).
  2:{ intros j Hj. rewrite IH, <- sum_scal. apply sum_ext. intros i Hi. rewrite sgn_succ.
      replace (minor 0 (j + 1) f i 0) with (f (i + 1) 0) by (unfold minor; rewrite skip_0 by lia; f_equal; unfold skip; ltb). ring. }
  rewrite (@sum_ext (S p) (fun k => sgn (k + 1) * f (k + 1) 0 * det (S p) (minor (k + 1) 0 f))
    (fun i => sumf (S p) (fun j => - (sgn i * sgn j) * (f 0 (j + 1) * f (i + 1) 0) * det p (minor i 0 (minor 0 (j + 1) f))))).
  { apply sum_swap. }
  intros i Hi. rewrite det_S, <- sum_scal. apply sum_ext. intros j Hj. rewrite sgn_succ.
  replace (minor (i + 1) 0 f 0 j) with (f 0 (j + 1)) by (unfold minor; rewrite (skip_0 (b := j)) by lia; f_equal; unfold skip; ltb).
  rewrite (@det_ext p (minor 0 j (minor (i + 1) 0 f)) (minor i 0 (minor 0 (j + 1) f))); [ring|].
  intros a b Ha Hb. unfold minor. f_equal; unfold skip; ltb.
Qed.
Lemma det_tr n : forall f, det n (fun i j => f j i) = det n f.
Proof.
  induction n as [|n IH]; intros f; [reflexivity|]. rewrite det_first_col, det_S. apply sum_ext. intros k Hk. f_equal.
  rewrite <- (IH (minor 0 k f)). reflexivity.
Qed.

(*----------------------------------------------------------------------------*)
(* linearity in a column; a matrix with two equal columns *)
Definition setc (c : Z) (v : Z -> Z) (f : Z -> Z -> Z) : Z -> Z -> Z := fun a b => if b =? c then v a else f a b.
Definition pred_of (j c : Z) : Z := if c <? j then c else c - 1.
Lemma minor_setc_same c v f m : forall a b, 0 <= a < m -> 0 <= b < m -> minor 0 c (setc c v f) a b = minor 0 c f a b.
Proof. intros a b _ _. unfold minor, setc. destruct (Z.eqb_spec (skip c b) c) as [H|]; [|reflexivity]. exfalso. exact (@skip_neq _ _ H). Qed.
Lemma minor_setc j c v f : j <> c -> forall a b, minor 0 j (setc c v f) a b = setc (pred_of j c) (fun a => v (skip 0 a)) (minor 0 j f) a b.
Proof. intros Hj a b. unfold minor, setc, pred_of. unfold skip at 1. ltb; try reflexivity. Qed.

Lemma det_lin_col n : forall c x y u v f, 0 <= c < Z.of_nat n ->
  det n (setc c (fun a => x * u a + y * v a) f) = x * det n (setc c u f) + y * det n (setc c v f).
Proof.
  induction n as [|n IH]; intros c x y u v f Hc; [lia|]. rewrite !det_S, <- sum_lin. apply sum_ext. intros j Hj.
  destruct (Z.eq_dec j c) as [->|Hjc].
  - assert (E : forall w, det n (minor 0 c (setc c w f)) = det n (minor 0 c f)) by (intros w; apply det_ext; apply minor_setc_same).
    rewrite !E. unfold setc. rewrite Z.eqb_refl. ring.
  - assert (Hp : 0 <= pred_of j c < Z.of_nat n) by (unfold pred_of; ltb).
    assert (E : forall w, det n (minor 0 j (setc c w f)) = det n (setc (pred_of j c) (fun a => w (skip 0 a)) (minor 0 j f)))
      by (intros w; apply det_ext; intros; apply minor_setc; assumption).
    rewrite !E. rewrite (IH (pred_of j c) x y (fun a => u (skip 0 a)) (fun a => v (skip 0 a)) (minor 0 j f) Hp).
    assert (Es : forall w, setc c w f 0 j = f 0 j) by (intros w; unfold setc; destruct (Z.eqb_spec j c); [contradiction|reflexivity]). rewrite !Es. ring.
Qed.

Lemma det_alt_adj n : forall c f, 0 <= c -> c + 1 < Z.of_nat n -> (forall a, 0 <= a < Z.of_nat n -> f a c = f a (c + 1)) -> det n f = 0.
Proof.
  induction n as [|n IH]; intros c f Hc Hn H; [lia|]. rewrite det_S.
  rewrite (@sum_two (S n) _ c (c + 1)); [|lia|lia|lia|].
  2:{ intros k Hk Hk1 Hk2.
    assert (E : det n (minor 0 k f) = 0); [|rewrite E; ring]. apply (IH (pred_of k c)); [unfold pred_of; ltb|unfold pred_of; ltb|].
    intros a Ha. unfold minor. replace (skip k (pred_of k c)) with c by (unfold skip, pred_of; ltb).
    replace (skip k (pred_of k c + 1)) with (c + 1) by (unfold skip, pred_of; ltb).
    apply H. pose proof (@skip_range 0 a (Z.of_nat n)). lia. }
  rewrite sgn_succ, H by lia.
  rewrite (@det_ext n (minor 0 c f) (minor 0 (c + 1) f)); [ring|]. intros a b Ha Hb. unfold minor.
  pose proof (@skip_range 0 a (Z.of_nat n) Ha) as Hs.
  destruct (Z.eq_dec b c) as [->|Hbc].
  - replace (skip c c) with (c + 1) by (unfold skip; ltb). replace (skip (c + 1) c) with c by (unfold skip; ltb). symmetry. apply H. lia.
  - f_equal. unfold skip. ltb.
Qed.

(* exchange of two indices *)
Definition sw (i j x : Z) : Z := if x =? i then j else if x =? j then i else x.
Lemma swap_of_alt n i j : 0 <= i < Z.of_nat n -> 0 <= j < Z.of_nat n -> i <> j ->
  (forall f, (forall a, 0 <= a < Z.of_nat n -> f a i = f a j) -> det n f = 0) ->
  forall f, det n (fun a b => f a (sw i j b)) = - det n f.
Proof.
  intros Hi Hj Hij Halt f.
  set (D := fun u v => det n (setc i u (setc j v f))). set (u := fun a => f a i). set (v := fun a => f a j).
  assert (L1 : forall p q w, D (fun a => p a + q a) w = D p w + D q w).
  { intros p q w. unfold D. pose proof (@det_lin_col n i 1 1 p q (setc j w f) Hi) as E. rewrite !Z.mul_1_l in E. rewrite <- E.
    apply det_ext. intros a b _ _. unfold setc. ltb; ring. }
  assert (L2 : forall w p q, D w (fun a => p a + q a) = D w p + D w q).
  { intros w p q. unfold D.
    assert (C : forall z, det n (setc i w (setc j z f)) = det n (setc j z (setc i w f))) by (intros z; apply det_ext; intros a b _ _; unfold setc; ltb; reflexivity).
    rewrite !C. pose proof (@det_lin_col n j 1 1 p q (setc i w f) Hj) as E. rewrite !Z.mul_1_l in E. rewrite <- E.
    apply det_ext. intros a b _ _. unfold setc. ltb; ring. }
  assert (Z0 : forall w, D w w = 0).
  { intros w. unfold D. apply Halt. intros a _. unfold setc. rewrite !Z.eqb_refl. ltb; reflexivity. }
  pose proof (Z0 (fun a => u a + v a)) as E. rewrite L1, !L2, !Z0 in E.
  assert (E1 : det n f = D u v). { apply det_ext. intros a b _ _. unfold setc, u, v. ltb; subst; reflexivity. }
  assert (E2 : det n (fun a b => f a (sw i j b)) = D v u). { apply det_ext. intros a b _ _. unfold setc, sw, u, v. ltb; subst; reflexivity. }
  lia.
Qed.

Lemma det_alt_cols n : forall i j f, 0 <= i < j -> j < Z.of_nat n -> (forall a, 0 <= a < Z.of_nat n -> f a i = f a j) -> det n f = 0.
Proof.
  intros i j f Hi Hj. remember (Z.to_nat (j - i - 1)) as k eqn:Hk. revert j f Hk Hi Hj. induction k as [|k IH]; intros j f Hk Hi Hj H.
  - apply (@det_alt_adj n i); [lia|lia|]. replace (i + 1) with j by lia. exact H.
  - assert (E : det n (fun a b => f a (sw (j - 1) j b)) = - det n f).
    { apply swap_of_alt; try lia. intros g Hg. apply (@det_alt_adj n (j - 1)); [lia|lia|]. replace (j - 1 + 1) with j by lia. exact Hg. }
    assert (E0 : det n (fun a b => f a (sw (j - 1) j b)) = 0).
    { apply (IH (j - 1)); try lia. intros a Ha. unfold sw. ltb; apply H; exact Ha. }
    lia.
Qed.
Lemma det_alt_rows n i j f : 0 <= i < j -> j < Z.of_nat n -> (forall b, 0 <= b < Z.of_nat n -> f i b = f j b) -> det n f = 0.
Proof. intros Hi Hj H. rewrite <- det_tr. apply (@det_alt_cols n i j); assumption. Qed.
Lemma det_swap_cols n i j f : 0 <= i < j -> j < Z.of_nat n -> det n (fun a b => f a (sw i j b)) = - det n f.
Proof. intros Hi Hj. apply swap_of_alt; try lia. intros g Hg. apply (@det_alt_cols n i j); assumption. Qed.
Lemma det_swap_rows n i j f : 0 <= i < j -> j < Z.of_nat n -> det n (fun a b => f (sw i j a) b) = - det n f.
Proof.
  intros Hi Hj. rewrite <- det_tr. rewrite (@det_swap_cols n i j (fun a b => f b a) Hi Hj). f_equal. apply det_tr.
Qed.

(* rows *)
Definition setr (r : Z) (v : Z -> Z) (f : Z -> Z -> Z) : Z -> Z -> Z := fun a b => if a =? r then v b else f a b.
Lemma det_lin_row n r x y u v f : 0 <= r < Z.of_nat n ->
  det n (setr r (fun b => x * u b + y * v b) f) = x * det n (setr r u f) + y * det n (setr r v f).
Proof.
  intros Hr. assert (T : forall w, det n (setr r w f) = det n (setc r w (fun a b => f b a))) by (intros w; rewrite <- det_tr; reflexivity).
  rewrite !T. apply det_lin_col. exact Hr.
Qed.
Lemma det_lin_row_sum n r k (c : Z -> Z) (v : Z -> Z -> Z) f : 0 <= r < Z.of_nat n ->
  det n (setr r (fun b => sumf k (fun x => c x * v x b)) f) = sumf k (fun x => c x * det n (setr r (v x) f)).
Proof.
  intros Hr. induction k as [|k IH]; cbn [sumf].
  - pose proof (@det_lin_row n r 0 0 (fun _ => 0) (fun _ => 0) f Hr) as E. rewrite <- E || idtac.
    transitivity (det n (setr r (fun _ => 0 * 0 + 0 * 0) f)); [apply det_ext; reflexivity|]. rewrite E. ring.
  - transitivity (det n (setr r (fun b => 1 * sumf k (fun x => c x * v x b) + c (Z.of_nat k) * v (Z.of_nat k) b) f)).
    + apply det_ext. intros a b _ _. unfold setr. destruct (a =? r); [ring|reflexivity].
    + rewrite (@det_lin_row n r 1 (c (Z.of_nat k)) (fun b => sumf k (fun x => c x * v x b)) (v (Z.of_nat k)) f Hr), IH. ring.
Qed.

(*----------------------------------------------------------------------------*)
(* expansion along any row or column; the adjugate *)
Lemma det_row m k : forall f, 0 <= k < Z.of_nat (S m) -> det (S m) f = sumf (S m) (fun c => sgn (k + c) * f k c * det m (minor k c f)).
Proof.
  intros f Hk. remember (Z.to_nat k) as kk eqn:E. revert k f E Hk. induction kk as [|kk IH]; intros k f E Hk.
  - replace k with 0 by lia. rewrite det_S. apply sum_ext. intros c _. reflexivity.
  - pose proof (@det_swap_rows (S m) (k - 1) k f ltac:(lia) ltac:(lia)) as Hs.
    rewrite (IH (k - 1) (fun a b => f (sw (k - 1) k a) b) ltac:(lia) ltac:(lia)) in Hs.
    assert (Hx : det (S m) f = - sumf (S m) (fun c => sgn (k - 1 + c) * f (sw (k - 1) k (k - 1)) c * det m (minor (k - 1) c (fun a b => f (sw (k - 1) k a) b)))) by lia.
    rewrite Hx, <- sum_opp. apply sum_ext. intros c Hc. replace (k + c) with (k - 1 + c + 1) by lia. rewrite sgn_succ.
    replace (sw (k - 1) k (k - 1)) with k by (unfold sw; ltb).
    rewrite (@det_ext m (minor (k - 1) c (fun a b => f (sw (k - 1) k a) b)) (minor k c f)); [ring|].
    intros a b Ha Hb. unfold minor. f_equal. unfold sw, skip. ltb.
Qed.
Lemma det_col m k f : 0 <= k < Z.of_nat (S m) -> det (S m) f = sumf (S m) (fun a => sgn (a + k) * f a k * det m (minor a k f)).
Proof.
  intros Hk. rewrite <- det_tr. rewrite (@det_row m k) by exact Hk. apply sum_ext. intros a Ha. rewrite (Z.add_comm a k). f_equal.
  rewrite <- (det_tr m (minor a k f)). reflexivity.
Qed.

(* adj n f c k: the (c,k) entry of the adjugate of f *)
Definition adj (n : nat) (f : Z -> Z -> Z) (c k : Z) : Z := sgn (k + c) * det (pred n) (minor k c f).
Lemma adj_right n f i k : 0 <= i < Z.of_nat n -> 0 <= k < Z.of_nat n ->
  sumf n (fun c => f i c * adj n f c k) = if i =? k then det n f else 0.
Proof.
  destruct n as [|m]; [lia|]. intros Hi Hk. unfold adj. cbn [pred].
  transitivity (det (S m) (setr k (f i) f)).
  - rewrite (@det_row m k) by exact Hk. apply sum_ext. intros c Hc. unfold setr at 1. rewrite Z.eqb_refl.
    rewrite (@det_ext m (minor k c (setr k (f i) f)) (minor k c f)); [ring|]. intros a b _ _. unfold minor, setr.
    destruct (Z.eqb_spec (skip k a) k) as [H|]; [exfalso; exact (@skip_neq _ _ H)|reflexivity].
  - destruct (Z.eqb_spec i k) as [->|Hik].
    + apply det_ext. intros a b _ _. unfold setr. destruct (Z.eqb_spec a k); subst; reflexivity.
    + destruct (Z_lt_le_dec i k).
      * apply (@det_alt_rows (S m) i k); try lia. intros b _. unfold setr. ltb; reflexivity.
      * apply (@det_alt_rows (S m) k i); try lia. intros b _. unfold setr. ltb; reflexivity.
Qed.
Lemma adj_left n f c d : 0 <= c < Z.of_nat n -> 0 <= d < Z.of_nat n ->
  sumf n (fun i => adj n f c i * f i d) = if c =? d then det n f else 0.
Proof.
  intros Hc Hd. rewrite <- (det_tr n f). rewrite Z.eqb_sym. rewrite <- (@adj_right n (fun i j => f j i) d c Hd Hc). apply sum_ext. intros i Hi.
  rewrite Z.mul_comm. f_equal. unfold adj. rewrite (Z.add_comm i c). f_equal. rewrite <- (det_tr (pred n) (minor i c f)). reflexivity.
Qed.

(*----------------------------------------------------------------------------*)
(* bordered minors: rows 0..j-1 and i, columns 0..j-1 and c *)
Definition border (j i a : Z) : Z := if a <? j then a else i.
Definition bord (f : Z -> Z -> Z) (j : nat) (i c : Z) : Z := det (S j) (fun a b => f (border (Z.of_nat j) i a) (border (Z.of_nat j) c b)).

Lemma bord_sch f j i c :
  bord f j i c = det j f * f i c - sumf j (fun x => sumf j (fun y => f i y * adj j f y x) * f x c).
Proof.
  unfold bord. set (g := fun a b => f (border (Z.of_nat j) i a) (border (Z.of_nat j) c b)).
  rewrite (@det_row j (Z.of_nat j)) by lia. cbn [sumf].
  assert (Hl : g (Z.of_nat j) (Z.of_nat j) = f i c) by (unfold g, border; ltb; reflexivity).
  assert (Hm : det j (minor (Z.of_nat j) (Z.of_nat j) g) = det j f).
  { apply det_ext. intros a b Ha Hb. unfold minor, g. f_equal; unfold skip, border; ltb. }
  rewrite Hl, Hm. rewrite sgn_add, sgn_sq.
  match goal with |- ?s + _ = _ - ?t => assert (E : s = - t) end; [|rewrite E; ring].
  rewrite <- sum_opp.
  transitivity (sumf j (fun y => sumf j (fun x => - (f i y * adj j f y x * f x c)))).
  - apply sum_ext. intros y Hy. destruct j as [|m]; [lia|]. rewrite (@det_col m (Z.of_nat m) (minor (Z.of_nat (S m)) y g)) by lia.
    rewrite <- sum_scal. apply sum_ext. intros x Hx.
    replace (g (Z.of_nat (S m)) y) with (f i y) by (unfold g; f_equal; unfold border; ltb).
    replace (minor (Z.of_nat (S m)) y g x (Z.of_nat m)) with (f x c) by (unfold minor, g; f_equal; unfold skip, border; ltb).
    unfold adj. cbn [pred].
    rewrite (@det_ext m (minor x (Z.of_nat m) (minor (Z.of_nat (S m)) y g)) (minor x y f)).
    + rewrite !sgn_add. replace (Z.of_nat (S m)) with (Z.of_nat m + 1) by lia. rewrite sgn_succ.
      transitivity (- (sgn (Z.of_nat m) * sgn (Z.of_nat m)) * sgn x * sgn y * f i y * f x c * det m (minor x y f)); [ring|]. rewrite sgn_sq. ring.
    + intros a b Ha Hb. unfold minor, g. f_equal; unfold skip, border; ltb.
  - rewrite sum_swap. apply sum_ext. intros x Hx. rewrite sum_opp. f_equal. rewrite (Z.mul_comm (sumf j _) (f x c)), <- sum_scal.
    apply sum_ext. intros y Hy. ring.
Qed.

(* Bareiss / Sylvester one-step identity for bordered minors *)
Lemma bord_step f j i c :
  det j f * bord f (S j) i c = bord f j (Z.of_nat j) (Z.of_nat j) * bord f j i c - bord f j i (Z.of_nat j) * bord f j (Z.of_nat j) c.
Proof.
  set (J := Z.of_nat j). set (g := fun a b => f (border (J + 1) i a) (border (J + 1) c b)).
  replace (bord f (S j) i c) with (det (S (S j)) g).
  2:{ unfold bord. apply det_ext. intros a b _ _. unfold g, J. replace (Z.of_nat (S j)) with (Z.of_nat j + 1) by lia. reflexivity. }
  (* the last row, times det j f, minus a combination of rows 0..j-1 *)
  set (w := fun x => sumf j (fun y => f i y * adj j f y x)).
  set (row := fun b => det j f * g (J + 1) b - sumf j (fun x => w x * g x b)).
  assert (H1 : det (S (S j)) (setr (J + 1) row g) = det j f * det (S (S j)) g).
  { transitivity (det (S (S j)) (setr (J + 1) (fun b => det j f * g (J + 1) b + (-1) * (fun b => sumf j (fun x => w x * g x b)) b) g)).
    - apply det_ext. intros a b _ _. unfold setr, row. destruct (a =? J + 1); [ring|reflexivity].
    - rewrite (@det_lin_row (S (S j)) (J + 1) (det j f) (-1) (g (J + 1)) (fun b => sumf j (fun x => w x * g x b)) g) by (unfold J; lia).
      rewrite (@det_lin_row_sum (S (S j)) (J + 1) j w (fun x b => g x b) g) by (unfold J; lia).
      rewrite (@sum_zero j). 
      + replace (det (S (S j)) (setr (J + 1) (g (J + 1)) g)) with (det (S (S j)) g); [ring|].
        apply det_ext. intros a b _ _. unfold setr. destruct (Z.eqb_spec a (J + 1)); subst; reflexivity.
      + intros x Hx. rewrite (@det_alt_rows (S (S j)) x (J + 1)); [ring|unfold J; lia|unfold J; lia|].
        intros b _. unfold setr. ltb; reflexivity. }
  assert (Hrow : forall b, 0 <= b -> row b = if b <? J then 0 else bord f j i (border (J + 1) c b)).
  { intros b Hb0. rewrite bord_sch. unfold row, w.
    replace (g (J + 1) b) with (f i (border (J + 1) c b)) by (unfold g; f_equal; unfold border; ltb).
    rewrite (@sum_ext j _ (fun x => sumf j (fun y => f i y * adj j f y x) * f x (border (J + 1) c b)))
      by (intros x Hx; f_equal; unfold g; f_equal; unfold border; unfold J in *; ltb).
    destruct (Z.ltb_spec b J) as [Hb|Hb]; [|reflexivity]. replace (border (J + 1) c b) with b by (unfold border; ltb).
    rewrite (@sum_ext j _ (fun x => sumf j (fun y => f i y * (adj j f y x * f x b)))).
    2:{ intros x Hx. rewrite Z.mul_comm, <- sum_scal. apply sum_ext. intros y Hy. ring. }
    rewrite sum_swap. rewrite (@sum_ext j _ (fun y => f i y * (if y =? b then det j f else 0))).
    2:{ intros y Hy. rewrite sum_scal. f_equal. apply adj_left; unfold J in *; lia. }
    rewrite (@sum_single j _ b) by (try (unfold J in *; lia); intros k Hk Hkb; ltb; ring). rewrite Z.eqb_refl. ring. }
  rewrite <- H1. rewrite (@det_row (S j) (J + 1)) by (unfold J; lia).
  rewrite (@sum_two (S (S j)) _ J (J + 1)); [|unfold J; lia|unfold J; lia|lia|].
  2:{ intros k Hk Hk1 Hk2. unfold setr at 1. rewrite Z.eqb_refl, Hrow by lia. destruct (Z.ltb_spec k J); [ring|unfold J in *; lia]. }
  unfold setr at 1 3. rewrite Z.eqb_refl. rewrite !Hrow by (unfold J; lia).
  destruct (Z.ltb_spec J J); [lia|]. destruct (Z.ltb_spec (J + 1) J); [lia|].
  replace (border (J + 1) c J) with J by (unfold border; ltb). replace (border (J + 1) c (J + 1)) with c by (unfold border; ltb).
  replace (det (S j) (minor (J + 1) J (setr (J + 1) row g))) with (bord f j J c).
  2:{ unfold bord. apply det_ext. intros a b Ha Hb. unfold minor, setr. destruct (Z.eqb_spec (skip (J + 1) a) (J + 1)) as [Hx|_]; [exfalso; exact (@skip_neq _ _ Hx)|].
      unfold g. f_equal; unfold skip, border, J in *; ltb. }
  replace (det (S j) (minor (J + 1) (J + 1) (setr (J + 1) row g))) with (bord f j J J).
  2:{ unfold bord. apply det_ext. intros a b Ha Hb. unfold minor, setr. destruct (Z.eqb_spec (skip (J + 1) a) (J + 1)) as [Hx|_]; [exfalso; exact (@skip_neq _ _ Hx)|].
      unfold g. f_equal; unfold skip, border, J in *; ltb. }
  rewrite !sgn_add. change (sgn 1) with (-1).
  transitivity ((sgn J * sgn J) * (bord f j J J * bord f j i c - bord f j i J * bord f j J c)); [ring|]. rewrite sgn_sq. ring.
Qed.

Lemma bord_dup f j i c : 0 <= i < Z.of_nat j -> bord f j i c = 0.
Proof. intros H. unfold bord. apply (@det_alt_rows (S j) i (Z.of_nat j)); try lia. intros b _. f_equal. unfold border. ltb. Qed.
Lemma bord_dupc f j i c : 0 <= c < Z.of_nat j -> bord f j i c = 0.
Proof. intros H. unfold bord. apply (@det_alt_cols (S j) c (Z.of_nat j)); try lia. intros b _. f_equal. unfold border. ltb. Qed.

(* all candidates of the current column vanish => the whole determinant vanishes *)
Lemma det_sing n f j : (j < n)%nat -> det j f <> 0 -> (forall i, Z.of_nat j <= i < Z.of_nat n -> bord f j i (Z.of_nat j) = 0) -> det n f = 0.
Proof.
  intros Hj Hd H. set (J := Z.of_nat j) in *. set (w := fun y => sumf j (fun x => adj j f y x * f x J)).
  assert (Hall : forall i, 0 <= i < Z.of_nat n -> det j f * f i J = sumf j (fun y => w y * f i y)).
  { intros i Hi.
    assert (Hb : bord f j i J = 0). { destruct (Z_lt_le_dec i J); [apply bord_dup; unfold J in *; lia|apply H; lia]. }
    rewrite bord_sch in Hb. 
    replace (sumf j (fun y => w y * f i y)) with (sumf j (fun x => sumf j (fun y => f i y * adj j f y x) * f x J)); [lia|].
    transitivity (sumf j (fun x => sumf j (fun y => f i y * (adj j f y x * f x J)))).
    - apply sum_ext. intros x Hx. rewrite Z.mul_comm, <- sum_scal. apply sum_ext. intros y Hy. ring.
    - rewrite sum_swap. apply sum_ext. intros y Hy. rewrite sum_scal. unfold w. ring. }
  assert (E : det j f * det n f = 0); [|nia]. rewrite <- (det_tr n f). set (h := fun a b => f b a).
  transitivity (det n (setr J (fun b => sumf j (fun y => w y * h y b)) h)).
  - transitivity (det n (setr J (fun b => det j f * h J b + 0 * h J b) h)).
    + rewrite (@det_lin_row n J (det j f) 0 (h J) (h J) h) by (unfold J; lia).
      replace (det n (setr J (h J) h)) with (det n h); [ring|]. apply det_ext. intros a b _ _. unfold setr. destruct (Z.eqb_spec a J); subst; reflexivity.
    + apply det_ext. intros a b Ha Hb. unfold setr. destruct (a =? J); [|reflexivity]. unfold h. rewrite <- Hall by lia. ring.
  - rewrite (@det_lin_row_sum n J j w h h) by (unfold J; lia). apply sum_zero. intros y Hy.
    rewrite (@det_alt_rows n y J); [ring|unfold J in *; lia|unfold J in *; lia|]. intros b _. unfold setr. ltb; reflexivity.
Qed.

(*----------------------------------------------------------------------------*)
(* permutations of the rows or columns *)
Lemma perm_onto m (r : Z -> Z) : (forall i, 0 <= i < Z.of_nat m -> 0 <= r i < Z.of_nat m) ->
  (forall i j, 0 <= i < Z.of_nat m -> 0 <= j < Z.of_nat m -> r i = r j -> i = j) ->
  forall y, 0 <= y < Z.of_nat m -> exists x, 0 <= x < Z.of_nat m /\ r x = y.
Proof.
  intros H1 H2 y Hy. pose (g := fun a => Z.to_nat (r (Z.of_nat a))).
  assert (HF : bFun m g). { intros a Ha. unfold g. pose proof (H1 (Z.of_nat a)). lia. }
  assert (HI : bInjective m g).
  { intros a b Ha Hb. unfold g. intros E. pose proof (H1 (Z.of_nat a)). pose proof (H1 (Z.of_nat b)). pose proof (H2 (Z.of_nat a) (Z.of_nat b)). lia. }
  apply (bInjective_bSurjective HF) in HI. destruct (HI (Z.to_nat y) ltac:(lia)) as (x & Hx & E). exists (Z.of_nat x). split; [lia|].
  unfold g in E. pose proof (H1 (Z.of_nat x)). lia.
Qed.
Lemma det_rows n f r : (forall i, 0 <= i < Z.of_nat n -> 0 <= r i < Z.of_nat n) ->
  (forall i j, 0 <= i < Z.of_nat n -> 0 <= j < Z.of_nat n -> r i = r j -> i = j) ->
  det n (fun i j => f (r i) j) = det n f \/ det n (fun i j => f (r i) j) = - det n f.
Proof.
  intros H1 H2.
  assert (P : forall m, (m <= n)%nat -> forall r, (forall i, 0 <= i < Z.of_nat m -> 0 <= r i < Z.of_nat m) ->
    (forall i j, 0 <= i < Z.of_nat m -> 0 <= j < Z.of_nat m -> r i = r j -> i = j) -> (forall i, Z.of_nat m <= i -> r i = i) ->
    det n (fun i j => f (r i) j) = det n f \/ det n (fun i j => f (r i) j) = - det n f).
  { clear r H1 H2. induction m as [|m IH]; intros Hm r H1 H2 H3.
    - left. apply det_ext. intros i j Hi _. rewrite H3 by lia. reflexivity.
    - destruct (@perm_onto (S m) r H1 H2 (Z.of_nat m) ltac:(lia)) as (k & Hk & Ek).
      destruct (Z.eq_dec k (Z.of_nat m)) as [->|Hkm].
      + apply IH; [lia| | |].
        * intros i Hi. pose proof (H1 i ltac:(lia)). destruct (Z.eq_dec (r i) (Z.of_nat m)) as [E|]; [|lia]. pose proof (H2 i (Z.of_nat m)). lia.
        * intros i j Hi Hj. apply H2; lia.
        * intros i Hi. destruct (Z.eq_dec i (Z.of_nat m)) as [->|]; [exact Ek|apply H3; lia].
      + set (r' := fun a => r (sw k (Z.of_nat m) a)).
        assert (E : det n (fun i j => f (r' i) j) = - det n (fun i j => f (r i) j)) by (apply (@det_swap_rows n k (Z.of_nat m) (fun i j => f (r i) j)); lia).
        assert (Hsw : forall i, 0 <= i < Z.of_nat (S m) -> 0 <= sw k (Z.of_nat m) i < Z.of_nat (S m)) by (intros i Hi; unfold sw; ltb).
        assert (Hr'm : r' (Z.of_nat m) = Z.of_nat m) by (unfold r', sw; ltb; exact Ek).
        assert (Hinj : forall i j, 0 <= i < Z.of_nat (S m) -> 0 <= j < Z.of_nat (S m) -> r' i = r' j -> i = j).
        { intros i j Hi Hj E'. apply H2 in E'; [|apply Hsw; lia|apply Hsw; lia]. revert E'. unfold sw. ltb. }
        destruct (IH ltac:(lia) r') as [E'|E']; [| | |right; lia|left; lia].
        * intros i Hi. pose proof (H1 (sw k (Z.of_nat m) i) (Hsw i ltac:(lia))) as Hx. fold (r' i) in Hx.
          destruct (Z.eq_dec (r' i) (Z.of_nat m)) as [E'|]; [|lia]. pose proof (Hinj i (Z.of_nat m)). lia.
        * intros i j Hi Hj. apply Hinj; lia.
        * intros i Hi. destruct (Z.eq_dec i (Z.of_nat m)) as [->|]; [exact Hr'm|]. unfold r', sw. ltb; apply H3; lia. }
  set (r' := fun i => if (0 <=? i) && (i <? Z.of_nat n) then r i else i).
  assert (Hr : forall i, 0 <= i < Z.of_nat n -> r' i = r i) by (intros i Hi; unfold r'; destruct (Z.leb_spec 0 i), (Z.ltb_spec i (Z.of_nat n)); cbn; lia).
  assert (E : det n (fun i j => f (r i) j) = det n (fun i j => f (r' i) j)) by (apply det_ext; intros i j Hi _; rewrite Hr by lia; reflexivity).
  rewrite E. apply (P n); [lia| | |].
  - intros i Hi. rewrite Hr by lia. apply H1. lia.
  - intros i j Hi Hj. rewrite !Hr by lia. apply H2; lia.
  - intros i Hi. unfold r'. destruct (Z.ltb_spec i (Z.of_nat n)); [lia|]. rewrite andb_false_r. reflexivity.
Qed.

(*----------------------------------------------------------------------------*)
(* |det| <= n! B^n *)
Lemma sum_bound n f C : (forall k, 0 <= k < Z.of_nat n -> Z.abs (f k) <= C) -> Z.abs (sumf n f) <= Z.of_nat n * C.
Proof.
  induction n as [|n IH]; intros H; cbn [sumf]; [lia|]. specialize (IH (fun k Hk => H k ltac:(lia))). pose proof (H (Z.of_nat n) ltac:(lia)).
  replace (Z.of_nat (S n)) with (Z.of_nat n + 1) by lia. lia.
Qed.
Lemma det_bound n B : 0 <= B -> forall f, (forall a b, 0 <= a < Z.of_nat n -> 0 <= b < Z.of_nat n -> Z.abs (f a b) <= B) ->
  Z.abs (det n f) <= Z.of_nat (fact n) * B ^ Z.of_nat n.
Proof.
  intros HB. induction n as [|n IH]; intros f H; [cbn; lia|]. rewrite det_S.
  replace (Z.of_nat (fact (S n))) with (Z.of_nat (S n) * Z.of_nat (fact n)) by (rewrite <- Nat2Z.inj_mul; f_equal).
  rewrite <- Z.mul_assoc. apply sum_bound. intros k Hk. rewrite !Z.abs_mul, sgn_abs.
  replace (Z.of_nat (S n)) with (Z.succ (Z.of_nat n)) by lia. rewrite Z.pow_succ_r by lia.
  assert (H1 : Z.abs (f 0 k) <= B) by (apply H; lia).
  assert (H2 : Z.abs (det n (minor 0 k f)) <= Z.of_nat (fact n) * B ^ Z.of_nat n).
  { apply IH. intros a b Ha Hb. unfold minor. apply H; [pose proof (@skip_range 0 a (Z.of_nat n))|pose proof (@skip_range k b (Z.of_nat n))]; lia. }
  pose proof (Z.abs_nonneg (f 0 k)). pose proof (Z.abs_nonneg (det n (minor 0 k f))). nia.
Qed.
