(* Finite sums of rationals, and what it means to be an exact solution.  Specification vocabulary; no algorithm here. *)
From Coq Require Import Permutation.
From Verif Require Import Base DetZ Spec.
Set Implicit Arguments.
Open Scope Z_scope.

(* f 0 + f 1 + ... + f (n-1) *)
Definition sumQ (n : Z) (f : Z -> Q) : Q := fold_right (fun k acc => (f k + acc)%Q) 0%Q (zseq 0 n).

(* entry i of an array of rationals *)
Definition rdq (l : list Q) (i : Z) : Q := nth (Z.to_nat i) l 0%Q.

Lemma foldQ_app (f : Z -> Q) l1 l2 :
  (fold_right (fun k acc => (f k + acc)%Q) 0%Q (l1 ++ l2) ==
   fold_right (fun k acc => (f k + acc)%Q) 0%Q l1 + fold_right (fun k acc => (f k + acc)%Q) 0%Q l2)%Q.
Proof. induction l1; simpl. ring. rewrite IHl1. ring. Qed.

Lemma sumQ_0 n f : n <= 0 -> sumQ n f = 0%Q.
Proof. intros. unfold sumQ. rewrite zseq_nil by lia. reflexivity. Qed.
Lemma sumQ_S n f : 0 <= n -> (sumQ (n + 1) f == sumQ n f + f n)%Q.
Proof. intros. unfold sumQ. rewrite zseq_snoc by lia. rewrite foldQ_app. simpl. ring. Qed.

Lemma foldQ_ext (f g : Z -> Q) l : (forall k, In k l -> (f k == g k)%Q) ->
  (fold_right (fun k acc => (f k + acc)%Q) 0%Q l == fold_right (fun k acc => (g k + acc)%Q) 0%Q l)%Q.
Proof. induction l; simpl; intros H. reflexivity. rewrite IHl by auto. rewrite (H a) by auto. reflexivity. Qed.
Lemma sumQ_ext n f g : (forall k, 0 <= k < n -> (f k == g k)%Q) -> (sumQ n f == sumQ n g)%Q.
Proof. intros H. apply foldQ_ext. intros k Hk. apply in_zseq in Hk. auto. Qed.

Lemma foldQ_perm (f : Z -> Q) l1 l2 : Permutation l1 l2 ->
  (fold_right (fun k acc => (f k + acc)%Q) 0%Q l1 == fold_right (fun k acc => (f k + acc)%Q) 0%Q l2)%Q.
Proof.
  induction 1; simpl; try reflexivity.
  - rewrite IHPermutation. reflexivity.
  - ring.
  - now rewrite IHPermutation1.
Qed.
Lemma foldQ_map (f : Z -> Q) (g : Z -> Z) (l : list Z) :
  fold_right (fun k acc => (f k + acc)%Q) 0%Q (map g l) = fold_right (fun k acc => (f (g k) + acc)%Q) 0%Q l.
Proof. induction l; simpl; auto. now rewrite IHl. Qed.

Lemma nodup_zseq_ lo hi : NoDup (zseq lo hi).
Proof.
  unfold zseq. apply FinFun.Injective_map_NoDup. intros a b H. lia. apply seq_NoDup.
Qed.

Lemma perm_zseq n (r : Z -> Z) : 0 <= n ->
  (forall i, 0 <= i < n -> 0 <= r i < n) -> (forall i j, 0 <= i < n -> 0 <= j < n -> r i = r j -> i = j) ->
  Permutation (map r (zseq 0 n)) (zseq 0 n).
Proof.
  intros Hn H1 H2. apply NoDup_Permutation_bis.
  - assert (G : forall l, NoDup l -> (forall x, In x l -> 0 <= x < n) -> NoDup (map r l)).
    { induction 1; simpl; intros HH; constructor; auto. rewrite in_map_iff. intros (y & E & Hy).
      apply H2 in E; auto. subst. contradiction. }
    apply G. apply nodup_zseq_. intros x Hx. now apply in_zseq in Hx.
  - rewrite map_length. auto.
  - intros x Hx. apply in_map_iff in Hx. destruct Hx as (y & <- & Hy). apply in_zseq in Hy. apply in_zseq. auto.
Qed.

Lemma sumQ_reindex n (r : Z -> Z) f : 0 <= n ->
  (forall i, 0 <= i < n -> 0 <= r i < n) -> (forall i j, 0 <= i < n -> 0 <= j < n -> r i = r j -> i = j) ->
  (sumQ n f == sumQ n (fun k => f (r k)))%Q.
Proof.
  intros Hn H1 H2. unfold sumQ. rewrite <- (foldQ_map f r). apply foldQ_perm, Permutation_sym, perm_zseq; auto.
Qed.

Lemma sumQ_scal (n : Z) (f : Z -> Q) (a : Q) : (sumQ n (fun k => a * f k) == a * sumQ n f)%Q.
Proof. unfold sumQ. induction (zseq 0 n); simpl. ring. rewrite IHl. ring. Qed.
Lemma sumQ_scalr (n : Z) (f : Z -> Q) (a : Q) : (sumQ n (fun k => f k * a) == sumQ n f * a)%Q.
Proof. unfold sumQ. induction (zseq 0 n); simpl. ring. rewrite IHl. ring. Qed.
Lemma sumQ_add (n : Z) (f g : Z -> Q) : (sumQ n (fun k => f k + g k) == sumQ n f + sumQ n g)%Q.
Proof. unfold sumQ. induction (zseq 0 n); simpl. ring. rewrite IHl. ring. Qed.
Lemma sumQ_zero (n : Z) (f : Z -> Q) : (forall k : Z, 0 <= k < n -> (f k == 0)%Q) -> (sumQ n f == 0)%Q.
Proof.
  intros H. rewrite (@sumQ_ext n f (fun k => 0 * 0)%Q). rewrite sumQ_scal. ring. intros. rewrite H by auto. ring.
Qed.

Lemma sumQ_sumz n f : 0 <= n -> (inject_Z (sumz n f) == sumQ n (fun k => inject_Z (f k)))%Q.
Proof.
  intros Hn. pattern n. apply natlike_ind; auto.
  - rewrite sumz_0, sumQ_0 by lia. reflexivity.
  - intros k Hk IH. unfold Z.succ. rewrite sumz_S, sumQ_S by lia. rewrite inject_Z_plus, IH. reflexivity.
Qed.

Lemma foldQ_swap (m : Z) (f : Z -> Z -> Q) (l : list Z) :
  (fold_right (fun i acc => sumQ m (f i) + acc)%Q 0%Q l ==
   sumQ m (fun j => fold_right (fun i acc => (f i j + acc)%Q) 0%Q l))%Q.
Proof.
  induction l as [|a l IH]; simpl.
  - rewrite sumQ_zero by (intros; reflexivity). reflexivity.
  - rewrite IH, sumQ_add. reflexivity.
Qed.
Lemma sumQ_swap (n m : Z) (f : Z -> Z -> Q) :
  (sumQ n (fun i => sumQ m (f i)) == sumQ m (fun j => sumQ n (fun i => f i j)))%Q.
Proof. apply foldQ_swap. Qed.
Lemma sumQ_single n p f : 0 <= p < n -> (forall k, 0 <= k < n -> k <> p -> (f k == 0)%Q) -> (sumQ n f == f p)%Q.
Proof.
  intros Hp. assert (G : forall m, 0 <= m -> m <= n -> (forall k, 0 <= k < n -> k <> p -> (f k == 0)%Q) ->
     (sumQ m f == if p <? m then f p else 0)%Q).
  { intros m Hm. pattern m. apply natlike_ind; auto.
    - intros _ _. rewrite sumQ_0 by lia. destruct (Z.ltb_spec p 0); try lia. reflexivity.
    - intros k Hk IH H1 H2. unfold Z.succ. rewrite sumQ_S by lia. rewrite IH by (auto; lia).
      destruct (Z.ltb_spec p k), (Z.ltb_spec p (k + 1)); try lia.
      + rewrite (H2 k) by lia. ring.
      + assert (k = p) by lia. subst. ring.
      + rewrite (H2 k) by lia. ring. }
  intros H. rewrite (G n) by (auto; lia). destruct (Z.ltb_spec p n); try lia. reflexivity.
Qed.

(* X (n-by-nrhs, column-major) solves (A/sA) X = B/sB exactly, A being the compressed-column integer matrix (Ap,Ai,Ax)
   with scale sA and B the n-by-nrhs column-major integer matrix b with scale sB *)
Definition exact_solution (n nrhs : Z) (Ap Ai Ax : list Z) (sA : Q) (b : list Z) (sB : Q) (X : list Q) : Prop :=
  forall i r, 0 <= i < n -> 0 <= r < nrhs ->
    (sumQ n (fun c => inject_Z (ent Ap Ai Ax i c) / sA * rdq X (c + r * n)) == inject_Z (rd b (i + r * n)) / sB)%Q.
