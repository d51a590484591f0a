(* COLAMD, part 1: segments of an array, sums over them, compression in place. *)
From Verif Require Import Base Det DetZ.
Set Implicit Arguments.
Open Scope Z_scope.
Set Bullet Behavior "Strict Subproofs".

(*----------------------------------------------------------------------------*)
(* sums *)
Definition b2z (b : bool) : Z := if b then 1 else 0.

Lemma sumz_ext n f g : (forall k, 0 <= k < n -> f k = g k) -> sumz n f = sumz n g.
Proof. intros H. unfold sumz. apply sum_ext. intros k Hk. apply H. lia. Qed.
Lemma sumz_zero n f : (forall k, 0 <= k < n -> f k = 0) -> sumz n f = 0.
Proof. intros H. unfold sumz. apply sum_zero. intros k Hk. apply H. lia. Qed.
Lemma sumz_add n f g : sumz n (fun k => f k + g k) = sumz n f + sumz n g.
Proof. apply sum_add. Qed.
Lemma sumz_opp n f : sumz n (fun k => - f k) = - sumz n f.
Proof. apply sum_opp. Qed.
Lemma sumz_sub n f g : sumz n (fun k => f k - g k) = sumz n f - sumz n g.
Proof. unfold Z.sub. rewrite <- sumz_opp, <- sumz_add. reflexivity. Qed.
Lemma sumz_swap n m f : sumz n (fun i => sumz m (fun j => f i j)) = sumz m (fun j => sumz n (fun i => f i j)).
Proof. apply sum_swap. Qed.
Lemma sumz_scal n x f : sumz n (fun k => x * f k) = x * sumz n f.
Proof. apply sum_scal. Qed.
Lemma sumz_le n f g : (forall k, 0 <= k < n -> f k <= g k) -> sumz n f <= sumz n g.
Proof.
  intros H. destruct (Z_le_gt_dec 0 n) as [Hn|Hn]; [|rewrite !sumz_0 by lia; lia]. revert H. pattern n. apply natlike_ind; [|clear n Hn|exact Hn].
  - intros _. rewrite !sumz_0 by lia. lia.
  - intros n Hn IH H. unfold Z.succ in *. rewrite !sumz_S by lia. specialize (H n ltac:(lia)) as H'. assert (sumz n f <= sumz n g) by (apply IH; intros; apply H; lia). lia.
Qed.
Lemma sumz_nonneg n f : (forall k, 0 <= k < n -> 0 <= f k) -> 0 <= sumz n f.
Proof. intros H. pose proof (@sumz_le n (fun _ => 0) f H). rewrite sumz_zero in H0 by auto. exact H0. Qed.
Lemma sumz_const n x : 0 <= n -> sumz n (fun _ => x) = n * x.
Proof.
  intros Hn. pattern n. apply natlike_ind; [reflexivity| |exact Hn]. intros k Hk IH. unfold Z.succ. rewrite sumz_S by lia. lia.
Qed.
Lemma sumz_single n f i : 0 <= i < n -> (forall k, 0 <= k < n -> k <> i -> f k = 0) -> sumz n f = f i.
Proof. intros Hi H. unfold sumz. apply sum_single; [lia|]. intros k Hk. apply H. lia. Qed.
Lemma sumz_pos1 n f i : 0 <= i < n -> (forall k, 0 <= k < n -> 0 <= f k) -> f i <= sumz n f.
Proof.
  intros Hi H. pose proof (@sumz_single n (fun k => if k =? i then f k else 0) i Hi) as E. cbv beta in E. rewrite Z.eqb_refl in E. rewrite <- E.
  - apply sumz_le. intros k Hk. specialize (H k Hk). destruct (k =? i); lia.
  - intros k Hk Hne. destruct (Z.eqb_spec k i); [contradiction|reflexivity].
Qed.
(* one term changes *)
Lemma sumz_upd n f g i : 0 <= i < n -> (forall k, 0 <= k < n -> k <> i -> f k = g k) -> sumz n f = sumz n g + (f i - g i).
Proof.
  intros Hi H. assert (sumz n (fun k => f k - g k) = f i - g i). { rewrite (@sumz_single n _ i Hi); [reflexivity|]. intros k Hk Hne. rewrite (H k Hk Hne). lia. }
  rewrite sumz_sub in H0. lia.
Qed.
(* two terms change *)
Lemma sumz_upd2 n f g i j : 0 <= i < n -> 0 <= j < n -> i <> j -> (forall k, 0 <= k < n -> k <> i -> k <> j -> f k = g k) ->
  sumz n f = sumz n g + (f i - g i) + (f j - g j).
Proof.
  intros Hi Hj Hij H. rewrite (@sumz_upd n f (fun k => if k =? i then g k else f k) i Hi).
  - rewrite (@sumz_upd n (fun k => if k =? i then g k else f k) g j Hj).
    + rewrite Z.eqb_refl. destruct (Z.eqb_spec j i); [lia|]. lia.
    + intros k Hk Hne. destruct (Z.eqb_spec k i); [reflexivity|apply H; auto].
  - intros k Hk Hne. destruct (Z.eqb_spec k i); [lia|reflexivity].
Qed.
Lemma sumz_count_le n (b : Z -> bool) : 0 <= n -> sumz n (fun k => b2z (b k)) <= n.
Proof. intros Hn. rewrite <- (Z.mul_1_r n) at 2. rewrite <- sumz_const by lia. apply sumz_le. intros k _. unfold b2z. destruct (b k); lia. Qed.
Lemma sumz_zero_inv n f : (forall k, 0 <= k < n -> 0 <= f k) -> sumz n f <= 0 -> forall k, 0 <= k < n -> f k = 0.
Proof. intros H H0 k Hk. pose proof (@sumz_pos1 n f k Hk H). specialize (H k Hk). lia. Qed.

(* a finite non-empty set has an element of least rank *)
Lemma argmin n (P : Z -> Prop) (rk : Z -> Z) : (forall c, {P c} + {~ P c}) -> (exists c, 0 <= c < n /\ P c) ->
  exists c, 0 <= c < n /\ P c /\ forall c', 0 <= c' < n -> P c' -> rk c <= rk c'.
Proof.
  intros D. destruct (Z_le_gt_dec 0 n) as [Hn|Hn]; [|intros (c & Hc & _); lia]. pattern n. apply natlike_ind; [intros (c & Hc & _); lia| |exact Hn]. clear n Hn.
  intros n Hn IH (c0 & Hc0 & P0). unfold Z.succ in *. destruct (D n) as [Pn|Pn].
  - destruct (Z_le_gt_dec 0 n) as [_|]; [|lia].
    assert (Dex : (exists c, 0 <= c < n /\ P c) \/ ~ (exists c, 0 <= c < n /\ P c)).
    { clear -D Hn. pattern n. apply natlike_ind; [right; intros (c & Hc & _); lia| |exact Hn]. intros k Hk [(c & Hc & Pc)|N].
      - left. exists c. split; [lia|exact Pc].
      - destruct (D k) as [Pk|Pk]; [left; exists k; split; [lia|exact Pk]|right; intros (c & Hc & Pc)]. destruct (Z.eq_dec c k) as [->|]; [auto|]. apply N. exists c. split; [lia|auto]. }
    destruct Dex as [Ex|NEx].
    + destruct (IH Ex) as (c & Hc & Pc & Hm). destruct (Z_le_gt_dec (rk c) (rk n)) as [L|L].
      * exists c. split; [lia|split; [exact Pc|]]. intros c' Hc' Pc'. destruct (Z.eq_dec c' n) as [->|]; [lia|apply Hm; [lia|exact Pc']].
      * exists n. split; [lia|split; [exact Pn|]]. intros c' Hc' Pc'. destruct (Z.eq_dec c' n) as [->|]; [lia|]. specialize (Hm c' ltac:(lia) Pc'). lia.
    + exists n. split; [lia|split; [exact Pn|]]. intros c' Hc' Pc'. destruct (Z.eq_dec c' n) as [->|]; [lia|]. exfalso. apply NEx. exists c'. split; [lia|exact Pc'].
  - destruct IH as (c & Hc & Pc & Hm). { exists c0. split; [|exact P0]. destruct (Z.eq_dec c0 n) as [->|]; [contradiction|lia]. }
    exists c. split; [lia|split; [exact Pc|]]. intros c' Hc' Pc'. destruct (Z.eq_dec c' n) as [->|]; [contradiction|apply Hm; [lia|exact Pc']].
Qed.

(*----------------------------------------------------------------------------*)
(* segments *)
Definition memb (A : list Z) (s l x : Z) : bool := existsb (fun j => rd A j =? x) (zseq s (s + l)).
Definition injs (A : list Z) (s l : Z) : Prop := forall i j, s <= i < s + l -> s <= j < s + l -> rd A i = rd A j -> i = j.

Lemma in_zseq lo hi x : In x (zseq lo hi) <-> lo <= x < hi.
Proof.
  unfold zseq. rewrite in_map_iff. split.
  - intros (k & <- & Hk). apply in_seq in Hk. lia.
  - intros H. exists (Z.to_nat (x - lo)). split; [lia|]. apply in_seq. lia.
Qed.
Lemma memb_spec A s l x : memb A s l x = true <-> exists j, s <= j < s + l /\ rd A j = x.
Proof.
  unfold memb. rewrite existsb_exists. split.
  - intros (j & Hj & E). apply in_zseq in Hj. apply Z.eqb_eq in E. eauto.
  - intros (j & Hj & E). exists j. split; [apply in_zseq; exact Hj|apply Z.eqb_eq; exact E].
Qed.
Lemma memb_false A s l x : memb A s l x = false <-> forall j, s <= j < s + l -> rd A j <> x.
Proof.
  rewrite <- Bool.not_true_iff_false, memb_spec. split.
  - intros H j Hj E. apply H. eauto.
  - intros H (j & Hj & E). apply (H j Hj E).
Qed.
Lemma memb_at A s l j : s <= j < s + l -> memb A s l (rd A j) = true.
Proof. intros H. apply memb_spec. eauto. Qed.
Lemma memb_0 A s l x : l <= 0 -> memb A s l x = false.
Proof. intros H. apply memb_false. intros j Hj. lia. Qed.
Lemma bool_iff b c : (b = true <-> c = true) -> b = c.
Proof. destruct b, c; intuition congruence. Qed.
Lemma memb_S A s l x : 0 <= l -> memb A s (l + 1) x = memb A s l x || (rd A (s + l) =? x).
Proof.
  intros Hl. apply bool_iff. rewrite Bool.orb_true_iff, !memb_spec, Z.eqb_eq. split.
  - intros (j & Hj & E). destruct (Z.eq_dec j (s + l)) as [->|]; [right; exact E|left; exists j; split; [lia|exact E]].
  - intros [(j & Hj & E)|E]; [exists j; split; [lia|exact E]|exists (s + l); split; [lia|exact E]].
Qed.
Lemma memb_ext A B s l x : (forall j, s <= j < s + l -> rd A j = rd B j) -> memb A s l x = memb B s l x.
Proof. intros H. apply bool_iff. rewrite !memb_spec. split; intros (j & Hj & E); exists j; split; auto; [rewrite <- H|rewrite H]; auto. Qed.
(* a moved segment *)
Lemma memb_move A B s t l x : (forall j, 0 <= j < l -> rd A (s + j) = rd B (t + j)) -> memb A s l x = memb B t l x.
Proof.
  intros H. apply bool_iff. rewrite !memb_spec. split; intros (j & Hj & E).
  - exists (t + (j - s)). split; [lia|]. rewrite <- H by lia. replace (s + (j - s)) with j by lia. exact E.
  - exists (s + (j - t)). split; [lia|]. rewrite H by lia. replace (t + (j - t)) with j by lia. exact E.
Qed.
Lemma injs_ext A B s l : (forall j, s <= j < s + l -> rd A j = rd B j) -> injs A s l -> injs B s l.
Proof. intros H I i j Hi Hj E. apply I; auto. rewrite !H by auto. exact E. Qed.
Lemma injs_move A B s t l : (forall j, 0 <= j < l -> rd A (s + j) = rd B (t + j)) -> injs A s l -> injs B t l.
Proof.
  intros H I i j Hi Hj E. assert (s + (i - t) = s + (j - t)); [|lia]. apply I; [lia|lia|]. rewrite !H by lia.
  replace (t + (i - t)) with i by lia. replace (t + (j - t)) with j by lia. exact E.
Qed.
Lemma injs_0 A s : injs A s 0. Proof. intros i j Hi. lia. Qed.
Lemma injs_S A s l : 0 <= l -> injs A s (l + 1) <-> injs A s l /\ memb A s l (rd A (s + l)) = false.
Proof.
  intros Hl. rewrite memb_false. split.
  - intros I. split; [intros i j Hi Hj; apply I; lia|]. intros j Hj E. assert (j = s + l) by (apply I; [lia|lia|exact E]). lia.
  - intros (I & F) i j Hi Hj E. destruct (Z.eq_dec i (s + l)) as [->|], (Z.eq_dec j (s + l)) as [->|]; try lia.
    + exfalso. apply (F j); [lia|auto].
    + exfalso. apply (F i); [lia|auto].
    + apply I; [lia|lia|exact E].
Qed.
Lemma injs_le A s l l' : l' <= l -> injs A s l -> injs A s l'.
Proof. intros H I i j Hi Hj. apply I; lia. Qed.

(* sum over a segment without repetitions *)
Lemma sum_seg n A s l f : 0 <= l -> injs A s l -> (forall j, s <= j < s + l -> 0 <= rd A j < n) ->
  sumz l (fun j => f (rd A (s + j))) = sumz n (fun x => if memb A s l x then f x else 0).
Proof.
  intros Hl. pattern l. apply natlike_ind; [| |exact Hl].
  - intros _ _. rewrite sumz_0 by lia. symmetry. apply sumz_zero. intros k _. rewrite memb_0 by lia. reflexivity.
  - clear l Hl. intros l Hl IH I R. unfold Z.succ in *. apply injs_S in I; [|exact Hl]. destruct I as (I & F). rewrite sumz_S by lia.
    rewrite IH by (auto; intros; apply R; lia). specialize (R (s + l) ltac:(lia)).
    rewrite (@sumz_upd n (fun x => if memb A s (l + 1) x then f x else 0) (fun x => if memb A s l x then f x else 0) (rd A (s + l)) R).
    + rewrite F, memb_S by lia. rewrite Z.eqb_refl, Bool.orb_true_r. lia.
    + intros k Hk Hne. rewrite memb_S by lia. destruct (Z.eqb_spec (rd A (s + l)) k); [congruence|]. rewrite Bool.orb_false_r. reflexivity.
Qed.
Lemma seg_len n A s l : 0 <= l -> injs A s l -> (forall j, s <= j < s + l -> 0 <= rd A j < n) -> l = sumz n (fun x => b2z (memb A s l x)).
Proof.
  intros Hl I R. transitivity (sumz l (fun _ => 1)); [rewrite sumz_const by lia; lia|]. exact (@sum_seg n A s l (fun _ => 1) Hl I R).
Qed.

(*----------------------------------------------------------------------------*)
(* compression in place: the entries of [s,j) that are kept have been moved to [s,w) *)
Record comp (A0 A : list Z) (keep : Z -> bool) (s d j w : Z) : Prop := {
  cp_len : zlen A = zlen A0;
  cp_w : d <= w /\ w - d <= j - s;
  cp_out : forall i, 0 <= i < zlen A0 -> i < d \/ w <= i -> rd A i = rd A0 i;
  cp_mem : forall x, memb A d (w - d) x = memb A0 s (j - s) x && keep x;
  cp_inj : injs A0 s (j - s) -> injs A d (w - d);
  cp_pres : injs A0 s (j - s) -> (forall i, s <= i < j -> keep (rd A0 i) = true) -> w - d = j - s /\ forall i, 0 <= i < j - s -> rd A (d + i) = rd A0 (s + i) }.

Lemma comp_0 A keep s d : comp A A keep s d s d.
Proof.
  constructor; auto; try lia.
  - intros x. rewrite !memb_0 by lia. reflexivity.
  - intros _. rewrite Z.sub_diag. apply injs_0.
  - intros _ _. split; [lia|]. intros i Hi. lia.
Qed.
Lemma comp_drop A0 A keep s d j w : comp A0 A keep s d j w -> s <= j -> keep (rd A0 j) = false -> comp A0 A keep s d (j + 1) w.
Proof.
  intros [H1 H2 H3 H4 H5 H6] Hj K. constructor; auto; try lia.
  - intros x. rewrite H4. replace (j + 1 - s) with (j - s + 1) by lia. rewrite memb_S by lia. replace (s + (j - s)) with j by lia.
    destruct (Z.eqb_spec (rd A0 j) x) as [<-|]; [rewrite K, !Bool.andb_false_r; reflexivity|rewrite Bool.orb_false_r; reflexivity].
  - intros I. apply H5. revert I. apply injs_le. lia.
  - intros I K'. specialize (K' j ltac:(lia)). congruence.
Qed.
Lemma comp_keep A0 A keep s d j w : comp A0 A keep s d j w -> s <= j -> 0 <= d -> 0 <= w < zlen A0 -> keep (rd A0 j) = true ->
  comp A0 (wr A w (rd A0 j)) keep s d (j + 1) (w + 1).
Proof.
  intros [H1 H2 H3 H4 H5 H6] Hj Hd Hw K. constructor; try lia.
  - rewrite zlen_wr. exact H1.
  - intros i Hi Hr. rewrite rd_wr_ne by lia. apply H3; [exact Hi|lia].
  - intros x. replace (w + 1 - d) with (w - d + 1) by lia. replace (j + 1 - s) with (j - s + 1) by lia. rewrite !memb_S by lia.
    replace (s + (j - s)) with j by lia. replace (d + (w - d)) with w by lia. rewrite rd_wr_eq by lia.
    rewrite (@memb_ext (wr A w (rd A0 j)) A) by (intros i Hi; apply rd_wr_ne; lia). rewrite H4.
    destruct (Z.eqb_spec (rd A0 j) x) as [<-|]; [rewrite K, !Bool.orb_true_r; reflexivity|rewrite !Bool.orb_false_r; reflexivity].
  - intros I. replace (j + 1 - s) with (j - s + 1) in I by lia. apply injs_S in I; [|lia]. destruct I as (I & F). replace (s + (j - s)) with j in F by lia.
    replace (w + 1 - d) with (w - d + 1) by lia. apply injs_S; [lia|]. replace (d + (w - d)) with w by lia. rewrite rd_wr_eq by lia. split.
    + apply (@injs_ext A); [intros i Hi; symmetry; apply rd_wr_ne; lia|]. apply H5. exact I.
    + rewrite (@memb_ext (wr A w (rd A0 j)) A) by (intros i Hi; apply rd_wr_ne; lia). rewrite H4, F. reflexivity.
  - intros I K'. destruct H6 as (W & E). { revert I. apply injs_le. lia. } { intros i Hi. apply K'. lia. }
    split; [lia|]. intros i Hi. destruct (Z.eq_dec i (j - s)) as [->|].
    + replace (d + (j - s)) with w by lia. rewrite rd_wr_eq by lia. f_equal. lia.
    + rewrite rd_wr_ne by lia. apply E. lia.
Qed.

(* get / set inside wp *)
Ltac wg := apply wp_bind; apply wp_get.
Ltac ws := apply wp_bind; apply wp_set.
Ltac wdone := try (rewrite ?zlen_wr; lia).
