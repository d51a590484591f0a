(* Determinants with integer sizes; bordered minors of a matrix under a row arrangement.  Mathematics only. *)
From Coq Require Import ZArith List Lia Bool Factorial.
From Verif Require Import Det.
Set Implicit Arguments.
Unset Strict Implicit.
Set Bullet Behavior "Strict Subproofs".
Open Scope Z_scope.

(* the determinant of the matrix with entries f i j, 0 <= i, j < n *)
Definition detz (n : Z) (f : Z -> Z -> Z) : Z := det (Z.to_nat n) f.

(* leading minor of order j of M with rows arranged by R *)
Definition lead (M : Z -> Z -> Z) (R : Z -> Z) (j : Z) : Z := detz j (fun a b => M (R a) b).

Definition sel (R : Z -> Z) (j i a : Z) : Z := if a <? j then R a else i.
(* bordered minor: rows R 0 .. R (j-1) and i, columns 0 .. j-1 and c *)
Definition bm (M : Z -> Z -> Z) (R : Z -> Z) (j i c : Z) : Z :=
  detz (j + 1) (fun a b => M (sel R j i a) (sel (fun b => b) j c b)).

Lemma detz_ext n f g : (forall i j, 0 <= i < n -> 0 <= j < n -> f i j = g i j) -> detz n f = detz n g.
Proof. intros H. apply det_ext. intros i j Hi Hj. apply H; lia. Qed.

Lemma detz_0 f : detz 0 f = 1.
Proof. reflexivity. Qed.

Lemma lead_0 M R : lead M R 0 = 1.
Proof. reflexivity. Qed.

Lemma bm_0 M R i c : bm M R 0 i c = M i c.
Proof. unfold bm, detz. change (Z.to_nat (0 + 1)) with 1%nat. rewrite det_1. reflexivity. Qed.

Lemma bm_ext M R R' j i c : (forall r, 0 <= r < j -> R r = R' r) -> bm M R j i c = bm M R' j i c.
Proof. intros H. apply detz_ext. intros a b Ha Hb. unfold sel. destruct (Z.ltb_spec a j); [rewrite H by lia|]; reflexivity. Qed.

Lemma bm_extM M M' R j i c :
  (forall a b, (0 <= a < j -> M (R a) b = M' (R a) b)) -> (forall b, M i b = M' i b) ->
  bm M R j i c = bm M' R j i c.
Proof. intros H H'. apply detz_ext. intros a b Ha Hb. unfold sel. destruct (Z.ltb_spec a j); [rewrite H by lia|rewrite H']; reflexivity. Qed.

Lemma lead_ext M R R' j : (forall r, 0 <= r < j -> R r = R' r) -> lead M R j = lead M R' j.
Proof. intros H. apply detz_ext. intros a b Ha Hb. rewrite H by lia. reflexivity. Qed.

Lemma lead_S M R j : 0 <= j -> lead M R (j + 1) = bm M R j (R j) j.
Proof.
  intros Hj. apply detz_ext. intros a b Ha Hb. unfold sel.
  destruct (Z.ltb_spec a j); destruct (Z.ltb_spec b j); try reflexivity; f_equal; try f_equal; lia.
Qed.

(* matrix with row i and column c put at position j+1 *)
Definition ext (M : Z -> Z -> Z) (R : Z -> Z) (j i c : Z) (a b : Z) : Z :=
  M (sel R (j + 1) i a) (sel (fun b => b) (j + 1) c b).

Lemma bm_ext_gen M R j i c x y : 0 <= j -> j <= x -> j <= y ->
  bord (ext M R j i c) (Z.to_nat j) x y = bm M R j (sel R (j + 1) i x) (sel (fun b => b) (j + 1) c y).
Proof.
  intros Hj Hx Hy. unfold bord, bm, detz. replace (Z.to_nat (j + 1)) with (S (Z.to_nat j)) by lia. apply det_ext. intros a b Ha Hb. unfold ext.
  rewrite !Z2Nat.id by lia.
  assert (E : forall (K : Z -> Z) z w d, j <= w -> sel K (j + 1) z (border j w d) = sel K j (sel K (j + 1) z w) d).
  { intros K z w d Hw. unfold sel, border. destruct (Z.ltb_spec d j); [|reflexivity]. destruct (Z.ltb_spec d (j + 1)); [reflexivity|lia]. }
  rewrite !E by lia. reflexivity.
Qed.

(* Bareiss / Sylvester step *)
Lemma bm_step M R j i c : 0 <= j -> lead M R j <> 0 ->
  lead M R j * bm M R (j + 1) i c = bm M R j (R j) j * bm M R j i c - bm M R j i j * bm M R j (R j) c.
Proof.
  intros Hj _. set (f := ext M R j i c).
  assert (fd : det (Z.to_nat j) f = lead M R j).
  { apply det_ext. intros a b Ha Hb. unfold f, ext, sel. destruct (Z.ltb_spec a (j + 1)); [|lia]. destruct (Z.ltb_spec b (j + 1)); [reflexivity|lia]. }
  pose proof (@bord_step f (Z.to_nat j) (j + 1) (j + 1)) as E. rewrite fd, !Z2Nat.id in E by lia.
  assert (s1 : forall K z, sel K (j + 1) z (j + 1) = z) by (intros K z; unfold sel; destruct (Z.ltb_spec (j + 1) (j + 1)); [lia|reflexivity]).
  assert (s0 : forall K z, sel K (j + 1) z j = K j) by (intros K z; unfold sel; destruct (Z.ltb_spec j (j + 1)); [reflexivity|lia]).
  unfold f in E. rewrite !bm_ext_gen in E by lia. rewrite !s1, !s0 in E. rewrite <- E. f_equal.
  unfold bord, bm, detz. replace (Z.to_nat (j + 1 + 1)) with (S (S (Z.to_nat j))) by lia. apply det_ext. intros a b Ha Hb. unfold ext.
  replace (Z.of_nat (S (Z.to_nat j))) with (j + 1) by lia.
  assert (E' : forall (K : Z -> Z) z d, sel K (j + 1) z (border (j + 1) (j + 1) d) = sel K (j + 1) z d).
  { intros K z d. unfold border. destruct (Z.ltb_spec d (j + 1)); [reflexivity|]. rewrite s1. unfold sel. destruct (Z.ltb_spec d (j + 1)); [lia|reflexivity]. }
  rewrite !E'. reflexivity.
Qed.

Lemma bm_dup M R j r c : 0 <= r < j -> bm M R j (R r) c = 0.
Proof.
  intros Hr. apply (@det_alt_rows _ r j); try lia. intros b Hb. f_equal. unfold sel.
  destruct (Z.ltb_spec r j); [|lia]. destruct (Z.ltb_spec j j); [lia|reflexivity].
Qed.
Lemma bm_dupc M R j i c : 0 <= c < j -> bm M R j i c = 0.
Proof.
  intros Hr. apply (@det_alt_cols _ c j); try lia. intros b Hb. f_equal. unfold sel.
  destruct (Z.ltb_spec c j); [|lia]. destruct (Z.ltb_spec j j); [lia|reflexivity].
Qed.

(* no candidate pivot => singular *)
Lemma lead_sing M R n j : 0 <= j < n -> lead M R j <> 0 ->
  (forall i, j <= i < n -> bm M R j (R i) j = 0) -> lead M R n = 0.
Proof.
  intros Hj Hl H. apply (@det_sing (Z.to_nat n) (fun a b => M (R a) b) (Z.to_nat j)); [lia|exact Hl|].
  intros i Hi. rewrite !Z2Nat.id in * by lia. rewrite <- (H i) by lia. unfold bord, bm, detz. replace (Z.to_nat (j + 1)) with (S (Z.to_nat j)) by lia.
  apply det_ext. intros a b _ _. rewrite !Z2Nat.id by lia. unfold sel, border. destruct (a <? j), (b <? j); reflexivity.
Qed.

(* sums *)
Definition sumz (n : Z) (f : Z -> Z) : Z := sumf (Z.to_nat n) f.

Lemma sumz_0 n f : n <= 0 -> sumz n f = 0.
Proof. intros H. unfold sumz. replace (Z.to_nat n) with O by lia. reflexivity. Qed.

Lemma sumz_S n f : 0 <= n -> sumz (n + 1) f = sumz n f + f n.
Proof. intros H. unfold sumz. replace (Z.to_nat (n + 1)) with (S (Z.to_nat n)) by lia. cbn [sumf]. rewrite Z2Nat.id by lia. reflexivity. Qed.

Lemma adjz_ex n f : exists w : Z -> Z -> Z,
  (forall i k, 0 <= i < n -> 0 <= k < n -> sumz n (fun c => f i c * w c k) = if i =? k then detz n f else 0) /\
  (forall c d, 0 <= c < n -> 0 <= d < n -> sumz n (fun i => w c i * f i d) = if c =? d then detz n f else 0).
Proof.
  exists (adj (Z.to_nat n) f). split; intros a b Ha Hb.
  - apply adj_right; lia.
  - apply adj_left; lia.
Qed.

(* permutations of 0..n-1 *)
Lemma detz_rows n f r :
  (forall i, 0 <= i < n -> 0 <= r i < n) ->
  (forall i j, 0 <= i < n -> 0 <= j < n -> r i = r j -> i = j) ->
  detz n (fun i j => f (r i) j) = detz n f \/ detz n (fun i j => f (r i) j) = - detz n f.
Proof.
  intros H1 H2. apply det_rows.
  - intros i Hi. pose proof (H1 i). lia.
  - intros i j Hi Hj. apply H2; lia.
Qed.

Lemma detz_cols n f r :
  (forall i, 0 <= i < n -> 0 <= r i < n) ->
  (forall i j, 0 <= i < n -> 0 <= j < n -> r i = r j -> i = j) ->
  detz n (fun i j => f i (r j)) = detz n f \/ detz n (fun i j => f i (r j)) = - detz n f.
Proof.
  intros H1 H2. assert (T : forall g, detz n (fun i j => g j i) = detz n g) by (intros g; apply det_tr).
  pose proof (@detz_rows n (fun i j => f j i) r H1 H2) as H. rewrite (T f) in H. rewrite <- (T (fun i j => f i (r j))). exact H.
Qed.

(* |det| <= n! B^n *)
Lemma detz_bound n f B : 0 <= n -> 0 <= B ->
  (forall a b, 0 <= a < n -> 0 <= b < n -> Z.abs (f a b) <= B) ->
  Z.abs (detz n f) <= Z.of_nat (fact (Z.to_nat n)) * B ^ n.
Proof.
  intros Hn HB H. replace (B ^ n) with (B ^ Z.of_nat (Z.to_nat n)) by (rewrite Z2Nat.id by lia; reflexivity).
  apply det_bound; [exact HB|]. intros a b Ha Hb. apply H; lia.
Qed.
