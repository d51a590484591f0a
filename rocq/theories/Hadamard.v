(* Multiplicativity of the determinant, Gram determinants, Hadamard's inequality, Cramer's rule.  Mathematics only: nothing of the
   program appears here. *)
From Coq Require Import ZArith List Lia Bool Permutation.
From Verif Require Import Det DetZ.
Import ListNotations.
Set Implicit Arguments.
Unset Strict Implicit.
Set Bullet Behavior "Strict Subproofs".
Open Scope Z_scope.

Definition dl (i j : Z) : Z := if i =? j then 1 else 0.

Lemma det_dl n : det n dl = 1.
Proof.
  induction n as [|m IH]; [reflexivity|]. rewrite det_S, (@sum_single (S m) _ 0); [|lia|].
  - unfold dl at 1. cbn. transitivity (det m dl); [|exact IH]. rewrite (@det_ext m (minor 0 0 dl) dl).
    + destruct (det m dl); reflexivity.
    + intros i j Hi Hj. unfold minor, dl. rewrite !skip_0 by lia. destruct (Z.eqb_spec i j), (Z.eqb_spec (i + 1) (j + 1)); lia.
  - intros k Hk Hn. unfold dl at 1. destruct (Z.eqb_spec 0 k); [lia|ring].
Qed.

(* the sign of a rearrangement of the rows does not depend on the matrix *)
Lemma det_rows_sign n r : (forall i, 0 <= i < Z.of_nat n -> 0 <= r i < Z.of_nat n) ->
  (forall i j, 0 <= i < Z.of_nat n -> 0 <= j < Z.of_nat n -> r i = r j -> i = j) ->
  exists e, forall f, det n (fun i j => f (r i) j) = e * det n f.
Proof.
  intros H1 H2.
  assert (P : forall m, (m <= n)%nat -> forall r, (forall i, 0 <= i < Z.of_nat m -> 0 <= r i < Z.of_nat m) ->
    (forall i j, 0 <= i < Z.of_nat m -> 0 <= j < Z.of_nat m -> r i = r j -> i = j) -> (forall i, Z.of_nat m <= i -> r i = i) ->
    exists e, forall f, det n (fun i j => f (r i) j) = e * det n f).
  { clear r H1 H2. induction m as [|m IH]; intros Hm r H1 H2 H3.
    - exists 1. intros f. rewrite Z.mul_1_l. apply det_ext. intros i j Hi _. rewrite H3 by lia. reflexivity.
    - destruct (@perm_onto (S m) r H1 H2 (Z.of_nat m) ltac:(lia)) as (k & Hk & Ek).
      destruct (Z.eq_dec k (Z.of_nat m)) as [->|Hkm].
      + apply IH; [lia| | |].
        * intros i Hi. pose proof (H1 i ltac:(lia)). destruct (Z.eq_dec (r i) (Z.of_nat m)) as [E|]; [|lia]. pose proof (H2 i (Z.of_nat m)). lia.
        * intros i j Hi Hj. apply H2; lia.
        * intros i Hi. destruct (Z.eq_dec i (Z.of_nat m)) as [->|]; [exact Ek|apply H3; lia].
      + set (r' := fun a => r (sw k (Z.of_nat m) a)).
        assert (E : forall f, det n (fun i j => f (r' i) j) = - det n (fun i j => f (r i) j))
          by (intros f; apply (@det_swap_rows n k (Z.of_nat m) (fun i j => f (r i) j)); lia).
        assert (Hsw : forall i, 0 <= i < Z.of_nat (S m) -> 0 <= sw k (Z.of_nat m) i < Z.of_nat (S m)).
        { intros i Hi. unfold sw. destruct (Z.eqb_spec i k), (Z.eqb_spec i (Z.of_nat m)); lia. }
        assert (Hr'm : r' (Z.of_nat m) = Z.of_nat m).
        { unfold r', sw. destruct (Z.eqb_spec (Z.of_nat m) k); [lia|]. rewrite Z.eqb_refl. exact Ek. }
        assert (Hinj : forall i j, 0 <= i < Z.of_nat (S m) -> 0 <= j < Z.of_nat (S m) -> r' i = r' j -> i = j).
        { intros i j Hi Hj E'. apply H2 in E'; [|apply Hsw; lia|apply Hsw; lia]. revert E'. unfold sw.
          destruct (Z.eqb_spec i k), (Z.eqb_spec i (Z.of_nat m)), (Z.eqb_spec j k), (Z.eqb_spec j (Z.of_nat m)); lia. }
        destruct (IH ltac:(lia) r') as [e E'].
        * intros i Hi. pose proof (H1 (sw k (Z.of_nat m) i) (Hsw i ltac:(lia))) as Hx. fold (r' i) in Hx.
          destruct (Z.eq_dec (r' i) (Z.of_nat m)) as [E'|]; [|lia]. pose proof (Hinj i (Z.of_nat m)). lia.
        * intros i j Hi Hj. apply Hinj; lia.
        * intros i Hi. destruct (Z.eq_dec i (Z.of_nat m)) as [->|]; [exact Hr'm|]. unfold r', sw.
          destruct (Z.eqb_spec i k), (Z.eqb_spec i (Z.of_nat m)); try lia; apply H3; lia.
        * exists (- e). intros f. specialize (E f). specialize (E' f). lia. }
  set (r' := fun i => if (0 <=? i) && (i <? Z.of_nat n) then r i else i).
  assert (Hr : forall i, 0 <= i < Z.of_nat n -> r' i = r i) by (intros i Hi; unfold r'; destruct (Z.leb_spec 0 i), (Z.ltb_spec i (Z.of_nat n)); cbn; lia).
  destruct (P n (le_n n) r') as [e E].
  - intros i Hi. rewrite Hr by lia. apply H1. lia.
  - intros i j Hi Hj. rewrite !Hr by lia. apply H2; lia.
  - intros i Hi. unfold r'. destruct (Z.ltb_spec i (Z.of_nat n)); [lia|]. rewrite andb_false_r. reflexivity.
  - exists e. intros f. rewrite <- E. apply det_ext. intros i j Hi _. rewrite Hr by lia. reflexivity.
Qed.

Lemma inj_dec n (r : Z -> Z) :
  (forall i j, 0 <= i < Z.of_nat n -> 0 <= j < Z.of_nat n -> r i = r j -> i = j) \/
  exists i j, 0 <= i < j /\ j < Z.of_nat n /\ r i = r j.
Proof.
  induction n as [|n [IH|(i & j & H)]].
  - left. intros i j Hi. lia.
  - assert (D : forall m, (m <= n)%nat -> (forall i, 0 <= i < Z.of_nat m -> r i <> r (Z.of_nat n)) \/ exists i, 0 <= i < Z.of_nat m /\ r i = r (Z.of_nat n)).
    { induction m as [|m IHm]; intros Hm; [left; intros i Hi; lia|]. destruct (IHm ltac:(lia)) as [H|(i & Hi & E)].
      - destruct (Z.eq_dec (r (Z.of_nat m)) (r (Z.of_nat n))) as [E|E].
        + right. exists (Z.of_nat m). split; [lia|exact E].
        + left. intros i Hi. destruct (Z.eq_dec i (Z.of_nat m)) as [->|]; [exact E|apply H; lia].
      - right. exists i. split; [lia|exact E]. }
    destruct (D n (le_n n)) as [H|(i & Hi & E)].
    + left. intros i j Hi Hj E. destruct (Z.eq_dec i (Z.of_nat n)) as [->|], (Z.eq_dec j (Z.of_nat n)) as [->|]; try reflexivity.
      * symmetry in E. destruct (H j ltac:(lia) E).
      * destruct (H i ltac:(lia) E).
      * apply IH; [lia|lia|exact E].
    + right. exists i, (Z.of_nat n). split; [lia|split; [lia|exact E]].
  - right. exists i, j. split; [tauto|split; [lia|tauto]].
Qed.

Lemma sum_dl n (f : Z -> Z) i : 0 <= i < Z.of_nat n -> sumf n (fun k => dl i k * f k) = f i.
Proof.
  intros Hi. rewrite (@sum_single n _ i Hi).
  - unfold dl. rewrite Z.eqb_refl. ring.
  - intros k _ Hk. unfold dl. destruct (Z.eqb_spec i k); [lia|ring].
Qed.

(* det (f g) = det f det g *)
Definition mul (N : nat) (f g : Z -> Z -> Z) (i j : Z) : Z := sumf N (fun k => f i k * g k j).
Lemma det_mul n f g : det n (mul n f g) = det n f * det n g.
Proof.
  assert (P : forall k, (k <= n)%nat -> forall f (r : Z -> Z),
    (forall i, Z.of_nat k <= i < Z.of_nat n -> 0 <= r i < Z.of_nat n) ->
    (forall i j, Z.of_nat k <= i < Z.of_nat n -> f i j = dl (r i) j) -> det n (mul n f g) = det n f * det n g).
  { clear f. induction k as [|k IH]; intros Hk f r Hr Hf.
    - assert (E1 : det n (mul n f g) = det n (fun i j => g (r i) j)).
      { apply det_ext. intros i j Hi Hj. unfold mul. rewrite <- (@sum_dl n (fun k => g k j) (r i)) by (apply Hr; lia). apply sum_ext.
        intros k Hk'. rewrite Hf by lia. reflexivity. }
      assert (E2 : det n f = det n (fun i j => dl (r i) j)).
      { apply det_ext. intros i j Hi Hj. apply Hf. lia. }
      rewrite E1, E2. destruct (inj_dec n r) as [Hin|(i & j & Hi & Hj & E)].
      + destruct (@det_rows_sign n r) as [e He]; [intros i Hi; apply Hr; lia|exact Hin|]. rewrite (He g), (He dl), det_dl. ring.
      + rewrite (@det_alt_rows n i j), (@det_alt_rows n i j (fun i j => dl (r i) j)); try lia; intros b _; rewrite E; reflexivity.
    - set (K := Z.of_nat k).
      assert (HK : 0 <= K < Z.of_nat n) by (unfold K; lia).
      assert (E2 : det n f = sumf n (fun x => f K x * det n (setr K (dl x) f))).
      { rewrite <- det_lin_row_sum by exact HK. apply det_ext. intros a b Ha Hb. unfold setr. destruct (Z.eqb_spec a K) as [->|]; [|reflexivity].
        rewrite (@sum_single n _ b Hb).
        - unfold dl. rewrite Z.eqb_refl. ring.
        - intros x _ Hx. unfold dl. destruct (Z.eqb_spec x b); [lia|ring]. }
      assert (E1 : det n (mul n f g) = sumf n (fun x => f K x * det n (mul n (setr K (dl x) f) g))).
      { transitivity (sumf n (fun x => f K x * det n (setr K (g x) (mul n f g)))).
        - rewrite <- det_lin_row_sum by exact HK. apply det_ext. intros a b Ha Hb. unfold setr. destruct (Z.eqb_spec a K) as [->|]; reflexivity.
        - apply sum_ext. intros x Hx. f_equal. apply det_ext. intros a b Ha Hb. unfold mul, setr. destruct (a =? K); [|reflexivity].
          rewrite sum_dl by exact Hx. reflexivity. }
      rewrite E1, E2, Z.mul_comm, <- sum_scal. apply sum_ext. intros x Hx.
      rewrite (IH ltac:(lia) (setr K (dl x) f) (fun i => if i =? K then x else r i)).
      + ring.
      + intros i Hi. destruct (Z.eqb_spec i K) as [->|]; [lia|apply Hr; unfold K in *; lia].
      + intros i j Hi. unfold setr. destruct (Z.eqb_spec i K) as [->|]; [reflexivity|]. apply Hf. unfold K in *. lia. }
  apply (P n (le_n n) f (fun _ => 0)); intros; lia.
Qed.

(* products *)
Fixpoint prodf (n : nat) (f : Z -> Z) : Z := match n with O => 1 | S m => prodf m f * f (Z.of_nat m) end.
Lemma prod_ext n f g : (forall k, 0 <= k < Z.of_nat n -> f k = g k) -> prodf n f = prodf n g.
Proof. induction n as [|n IH]; intros H; cbn [prodf]; [reflexivity|]. rewrite IH, H by (intros; try apply H; lia). reflexivity. Qed.
Lemma prod_nonneg n f : (forall k, 0 <= k < Z.of_nat n -> 0 <= f k) -> 0 <= prodf n f.
Proof. induction n as [|n IH]; intros H; cbn [prodf]; [lia|]. apply Z.mul_nonneg_nonneg; [apply IH; intros; apply H; lia|apply H; lia]. Qed.
Lemma prod_pos n f : (forall k, 0 <= k < Z.of_nat n -> 1 <= f k) -> 1 <= prodf n f.
Proof. induction n as [|n IH]; intros H; cbn [prodf]; [lia|]. pose proof (IH (fun k Hk => H k ltac:(lia))). pose proof (H (Z.of_nat n) ltac:(lia)). nia. Qed.
Lemma prod_mono n f g : (forall k, 0 <= k < Z.of_nat n -> 0 <= f k <= g k) -> prodf n f <= prodf n g.
Proof.
  induction n as [|n IH]; intros H; cbn [prodf]; [lia|]. pose proof (IH (fun k Hk => H k ltac:(lia))). pose proof (H (Z.of_nat n) ltac:(lia)).
  pose proof (@prod_nonneg n f (fun k Hk => proj1 (H k ltac:(lia)))). nia.
Qed.
Lemma prod_const n c : prodf n (fun _ => c) = c ^ Z.of_nat n.
Proof. induction n as [|n IH]; cbn [prodf]; [reflexivity|]. rewrite IH, Nat2Z.inj_succ, Z.pow_succ_r by lia. ring. Qed.
Lemma sum_nonneg n f : (forall k, 0 <= k < Z.of_nat n -> 0 <= f k) -> 0 <= sumf n f.
Proof. induction n as [|n IH]; intros H; cbn [sumf]; [lia|]. pose proof (IH (fun k Hk => H k ltac:(lia))). pose proof (H (Z.of_nat n) ltac:(lia)). lia. Qed.
Lemma sum_mono n f g : (forall k, 0 <= k < Z.of_nat n -> f k <= g k) -> sumf n f <= sumf n g.
Proof. induction n as [|n IH]; intros H; cbn [sumf]; [lia|]. pose proof (IH (fun k Hk => H k ltac:(lia))). pose proof (H (Z.of_nat n) ltac:(lia)). lia. Qed.
Lemma sum_term n f i : 0 <= i < Z.of_nat n -> (forall k, 0 <= k < Z.of_nat n -> 0 <= f k) -> f i <= sumf n f.
Proof.
  induction n as [|n IH]; intros Hi H; cbn [sumf]; [lia|]. destruct (Z.eq_dec i (Z.of_nat n)) as [->|].
  - pose proof (@sum_nonneg n f (fun k Hk => H k ltac:(lia))). lia.
  - pose proof (IH ltac:(lia) (fun k Hk => H k ltac:(lia))). pose proof (H (Z.of_nat n) ltac:(lia)). lia.
Qed.
Lemma sum_sq0 n f : sumf n (fun k => f k * f k) = 0 -> forall k, 0 <= k < Z.of_nat n -> f k = 0.
Proof.
  intros E k Hk. pose proof (@sum_term n (fun k => f k * f k) k Hk (fun k _ => Z.square_nonneg (f k))) as H. cbn beta in H. rewrite E in H. nia.
Qed.

(* Gram determinants: 0 <= det (f f^T) <= product of the squared row norms, f any number of columns N *)
Definition gram (N : nat) (f : Z -> Z -> Z) (i j : Z) : Z := sumf N (fun c => f i c * f j c).
Lemma gram_sym N f i j : gram N f i j = gram N f j i.
Proof. apply sum_ext. intros; ring. Qed.
Lemma sum_mulr n f x : sumf n f * x = sumf n (fun k => f k * x).
Proof. rewrite Z.mul_comm, <- sum_scal. apply sum_ext. intros; ring. Qed.
Lemma gram_det N f k : 0 <= det k (gram N f) <= prodf k (fun i => gram N f i i).
Proof.
  set (G := gram N f). induction k as [|k IH]; [cbn; lia|]. cbn [prodf]. set (d := det k G) in *. set (K := Z.of_nat k). set (P := prodf k _) in *.
  set (w := fun x => sumf k (fun y => G K y * adj k G y x)).
  set (v := fun c => sumf k (fun x => w x * f x c)).
  set (S0 := sumf k (fun x => w x * G x K)).
  assert (Ed : det (S k) G = d * G K K - S0).
  { transitivity (bord G k K K); [|apply bord_sch]. apply det_ext. intros a b Ha Hb. f_equal; unfold border; fold K; destruct (Z.ltb_spec a K), (Z.ltb_spec b K); unfold K in *; lia. }
  assert (Ew : forall y, 0 <= y < Z.of_nat k -> sumf k (fun x => w x * G x y) = d * G K y).
  { intros y Hy. transitivity (sumf k (fun z => G K z * sumf k (fun x => adj k G z x * G x y))).
    - transitivity (sumf k (fun x => sumf k (fun z => G K z * adj k G z x * G x y))).
      + apply sum_ext. intros x _. unfold w. apply sum_mulr.
      + rewrite sum_swap. apply sum_ext. intros z _. rewrite <- sum_scal. apply sum_ext. intros x _. ring.
    - rewrite (@sum_single k _ y Hy).
      + rewrite adj_left by lia. rewrite Z.eqb_refl. fold d. ring.
      + intros z Hz Hn. rewrite adj_left by lia. destruct (Z.eqb_spec z y); [lia|ring]. }
  assert (Ev : forall g : Z -> Z, sumf N (fun c => v c * g c) = sumf k (fun x => w x * sumf N (fun c => f x c * g c))).
  { intros g. transitivity (sumf N (fun c => sumf k (fun x => w x * f x c * g c))).
    - apply sum_ext. intros c _. unfold v. apply sum_mulr.
    - rewrite sum_swap. apply sum_ext. intros x _. rewrite <- sum_scal. apply sum_ext. intros c _. ring. }
  assert (Ea : sumf N (fun c => v c * f K c) = S0) by (rewrite Ev; reflexivity).
  assert (Eq : sumf N (fun c => v c * v c) = d * S0).
  { rewrite Ev. transitivity (sumf k (fun x => w x * (d * G K x))).
    - apply sum_ext. intros x Hx. f_equal. rewrite <- Ew by exact Hx. transitivity (sumf N (fun c => v c * f x c)); [apply sum_ext; intros; ring|]. rewrite Ev. reflexivity.
    - unfold S0. rewrite <- sum_scal. apply sum_ext. intros x _. unfold G. rewrite (gram_sym N f K x). ring. }
  assert (En : sumf N (fun c => (d * f K c - v c) * (d * f K c - v c)) = d * det (S k) G).
  { transitivity (sumf N (fun c => (d * d) * (f K c * f K c) + 1 * ((- (2 * d)) * (v c * f K c) + 1 * (v c * v c)))); [apply sum_ext; intros; ring|].
    rewrite !sum_lin, Ea, Eq, Ed. change (sumf N (fun c => f K c * f K c)) with (G K K). ring. }
  pose proof (@sum_nonneg N (fun c => v c * v c) (fun c _ => Z.square_nonneg _)) as Hq. cbn beta in Hq.
  pose proof (@sum_nonneg N (fun c => (d * f K c - v c) * (d * f K c - v c)) (fun c _ => Z.square_nonneg _)) as Hn. cbn beta in Hn.
  rewrite Eq in Hq. rewrite En in Hn.
  assert (HG : 0 <= G K K) by (apply sum_nonneg; intros c _; apply Z.square_nonneg).
  assert (HP : 0 <= P) by (apply prod_nonneg; intros i _; apply sum_nonneg; intros c _; apply Z.square_nonneg).
  fold K.
  destruct (Z.eq_dec d 0) as [Z0|Hd].
  - assert (HS : S0 = 0).
    { rewrite <- Ea. apply sum_zero. intros c Hc. rewrite (@sum_sq0 N v); [ring| |exact Hc]. rewrite Eq, Z0. ring. }
    rewrite Ed, Z0, HS. nia.
  - split; [nia|]. rewrite Ed. assert (0 <= S0) by nia. assert (d * G K K <= P * G K K) by nia. lia.
Qed.

(* Hadamard's inequality *)
Lemma hadamard n f : det n f * det n f <= prodf n (fun i => sumf n (fun j => f i j * f i j)).
Proof.
  assert (E : det n f * det n f = det n (gram n f)).
  { transitivity (det n f * det n (fun i j => f j i)); [rewrite det_tr; reflexivity|]. rewrite <- det_mul. reflexivity. }
  rewrite E. apply gram_det.
Qed.

(* sums and products over part of the indices *)
Lemma part_le (op : Z -> Z -> Z) (u lo : Z) (h : Z -> Z) :
  (forall a b, op a b = op b a) -> (forall a b c, op (op a b) c = op a (op b c)) -> (forall a, op a u = a) ->
  (forall a b, lo <= a -> lo <= b -> lo <= op a b /\ a <= op a b) -> (forall a b c, lo <= a -> lo <= b -> lo <= c -> b <= c -> op a b <= op a c) -> lo <= u -> (forall a, lo <= a -> u <= a) ->
  forall l m, NoDup l -> incl l m -> (forall x, In x m -> lo <= h x) -> fold_right (fun x => op (h x)) u l <= fold_right (fun x => op (h x)) u m.
Proof.
  intros Hc Ha Hu Hlo Hm Hul Hlu.
  assert (Pos : forall l, (forall x, In x l -> lo <= h x) -> lo <= fold_right (fun x => op (h x)) u l).
  { induction l as [|x l IH]; intros H; cbn; [exact Hul|]. apply Hlo; [apply H; left; reflexivity|apply IH; intros y Hy; apply H; right; exact Hy]. }
  assert (Mid : forall m1 a m2, fold_right (fun x => op (h x)) u (m1 ++ a :: m2) = op (h a) (fold_right (fun x => op (h x)) u (m1 ++ m2))).
  { induction m1 as [|x m1 IH]; intros a m2; cbn; [reflexivity|]. rewrite IH, <- !Ha, (Hc (h x) (h a)). reflexivity. }
  induction l as [|a l IH]; intros m Nd Hi Hh.
  - cbn. apply Hlu. apply Pos. exact Hh.
  - inversion Nd as [|? ? Na Nd']; subst. destruct (in_split a m) as (m1 & m2 & ->); [apply Hi; left; reflexivity|]. rewrite Mid. cbn.
    assert (Hi' : incl l (m1 ++ m2)).
    { intros x Hx. assert (Hx' : In x (m1 ++ a :: m2)) by (apply Hi; right; exact Hx). apply in_app_or in Hx'. apply in_or_app.
      destruct Hx' as [|[->|]]; [left; assumption|contradiction|right; assumption]. }
    assert (Hh' : forall x, In x (m1 ++ m2) -> lo <= h x).
    { intros x Hx. apply Hh. apply in_app_or in Hx. apply in_or_app. destruct Hx; [left|right; right]; assumption. }
    apply Hm; [apply Hh, in_or_app; right; left; reflexivity|apply Pos; intros x Hx; apply Hh', Hi', Hx|apply Pos; exact Hh'|apply IH; assumption].
Qed.

Definition idx (n : nat) : list Z := map Z.of_nat (seq 0 n).
Lemma sum_list n f : sumf n f = fold_right (fun x => Z.add (f x)) 0 (idx n).
Proof.
  unfold idx. induction n as [|n IH]; [reflexivity|]. rewrite seq_S, map_app. cbn [map sumf]. rewrite IH. generalize (map Z.of_nat (seq 0 n)). intros l.
  rewrite fold_right_app. cbn. induction l as [|x l IHl]; cbn; lia.
Qed.
Lemma prod_list n f : prodf n f = fold_right (fun x => Z.mul (f x)) 1 (idx n).
Proof.
  unfold idx. induction n as [|n IH]; [reflexivity|]. rewrite seq_S, map_app. cbn [map prodf]. rewrite IH. generalize (map Z.of_nat (seq 0 n)). intros l.
  rewrite fold_right_app. cbn [fold_right plus]. induction l as [|x l IHl]; cbn [fold_right]; [ring|]. rewrite <- IHl. ring.
Qed.
Lemma fold_comp op (u : Z) f g l : fold_right (fun x => op ((fun y : Z => f (g y : Z) : Z) x)) u l = fold_right (fun x => op (f x)) u (map g l) :> Z.
Proof. induction l as [|x l IH]; cbn; [reflexivity|]. rewrite IH. reflexivity. Qed.
Lemma idx_in n x : In x (idx n) <-> 0 <= x < Z.of_nat n.
Proof.
  unfold idx. rewrite in_map_iff. split.
  - intros (y & <- & Hy). apply in_seq in Hy. lia.
  - intros Hx. exists (Z.to_nat x). split; [lia|]. apply in_seq. lia.
Qed.
Section part.
Variables (s n : nat) (g h : Z -> Z).
Hypothesis Hr : forall a, 0 <= a < Z.of_nat s -> 0 <= g a < Z.of_nat n.
Hypothesis Hinj : forall a b, 0 <= a < Z.of_nat s -> 0 <= b < Z.of_nat s -> g a = g b -> a = b.
Lemma idx_map_nodup : NoDup (map g (idx s)).
Proof.
  assert (P : forall l, NoDup l -> (forall x, In x l -> 0 <= x < Z.of_nat s) -> NoDup (map g l)).
  { induction l as [|x l IH]; intros Nd Hl; cbn; constructor; inversion Nd as [|? ? Hx Nd']; subst.
    - rewrite in_map_iff. intros (y & E & Hy). apply Hinj in E; [subst; contradiction|apply Hl; right; exact Hy|apply Hl; left; reflexivity].
    - apply IH; [exact Nd'|]. intros y Hy. apply Hl. right. exact Hy. }
  apply P; [|intros x Hx; apply idx_in; exact Hx]. unfold idx.
  assert (Q : forall l : list nat, NoDup l -> NoDup (map Z.of_nat l)).
  { induction l as [|x l IH]; intros Nd; cbn; constructor; inversion Nd as [|? ? Hx Nd']; subst; [|apply IH; exact Nd'].
    rewrite in_map_iff. intros (y & E & Hy). apply Nat2Z.inj in E. subst. contradiction. }
  apply Q, seq_NoDup.
Qed.
Lemma idx_map_incl : incl (map g (idx s)) (idx n).
Proof. intros x Hx. apply in_map_iff in Hx. destruct Hx as (y & <- & Hy). apply idx_in, Hr, idx_in, Hy. Qed.
Lemma sum_part : (forall k, 0 <= k < Z.of_nat n -> 0 <= h k) -> sumf s (fun a => h (g a)) <= sumf n h.
Proof.
  intros Hh. rewrite !sum_list, (fold_comp Z.add 0 h g).
  apply (@part_le Z.add 0 0 h); try (intros; lia); [apply idx_map_nodup|apply idx_map_incl|].
  intros x Hx. apply Hh, idx_in, Hx.
Qed.
Lemma prod_part : (forall k, 0 <= k < Z.of_nat n -> 1 <= h k) -> prodf s (fun a => h (g a)) <= prodf n h.
Proof.
  intros Hh. rewrite !prod_list, (fold_comp Z.mul 1 h g).
  apply (@part_le Z.mul 1 1 h); try (intros; nia); [apply idx_map_nodup|apply idx_map_incl|].
  intros x Hx. apply Hh, idx_in, Hx.
Qed.
End part.

(* every minor of a matrix without zero rows is bounded by the product of the row norms of the whole matrix *)
Lemma minor_hadamard n s A f g : 
  (forall a, 0 <= a < Z.of_nat s -> 0 <= f a < Z.of_nat n) -> (forall a b, 0 <= a < Z.of_nat s -> 0 <= b < Z.of_nat s -> f a = f b -> a = b) ->
  (forall a, 0 <= a < Z.of_nat s -> 0 <= g a < Z.of_nat n) -> (forall a b, 0 <= a < Z.of_nat s -> 0 <= b < Z.of_nat s -> g a = g b -> a = b) ->
  det n A <> 0 ->
  det s (fun a b => A (f a) (g b)) * det s (fun a b => A (f a) (g b)) <= prodf n (fun i => sumf n (fun j => A i j * A i j)).
Proof.
  intros F1 F2 G1 G2 Hd.
  assert (Hrow : forall i, 0 <= i < Z.of_nat n -> 1 <= sumf n (fun j => A i j * A i j)).
  { intros i Hi. pose proof (@sum_nonneg n (fun j => A i j * A i j) (fun j _ => Z.square_nonneg _)) as H. cbn beta in H.
    destruct (Z.eq_dec (sumf n (fun j => A i j * A i j)) 0) as [E|]; [|lia]. exfalso. apply Hd.
    destruct n as [|m]; [lia|]. rewrite (@det_row m i) by exact Hi. apply sum_zero. intros c Hc. rewrite (@sum_sq0 (S m) (fun j => A i j) E c Hc). ring. }
  eapply Z.le_trans; [apply hadamard|]. eapply Z.le_trans; [|apply (@prod_part s n f (fun i => sumf n (fun j => A i j * A i j)) F1 F2 Hrow)].
  apply prod_mono. intros k Hk. split; [apply sum_nonneg; intros j _; apply Z.square_nonneg|].
  apply (@sum_part s n g (fun j => A (f k) j * A (f k) j) G1 G2). intros j _. apply Z.square_nonneg.
Qed.

(* Cramer's rule, over the integers: the determinant with column i replaced by v is row i of the adjugate times v *)
Lemma cramer_adj n f i v : 0 <= i < Z.of_nat n -> det n (setc i v f) = sumf n (fun a => adj n f i a * v a).
Proof.
  destruct n as [|m]; [lia|]. intros Hi. rewrite (@det_col m i) by exact Hi. apply sum_ext. intros a Ha. unfold setc at 1. rewrite Z.eqb_refl. unfold adj. cbn [pred].
  rewrite (@det_ext m (minor a i (setc i v f)) (minor a i f)); [ring|]. intros x y _ _. unfold minor, setc.
  destruct (Z.eqb_spec (skip i y) i) as [E|]; [destruct (@skip_neq _ _ E)|reflexivity].
Qed.
