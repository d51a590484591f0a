(* Correctness of slip_ref_triangular_solve. *)
From Coq Require Import Permutation Sorted.
From Verif Require Import Base Spec MFactor PReach.
Set Implicit Arguments.
Open Scope Z_scope.

(*----------------------------------------------------------------------------*)
(* sorting *)

Lemma insert_perm a l : Permutation (insert_z a l) (a :: l).
Proof.
  induction l as [|b l IH]; simpl; auto. destruct (a <=? b); auto.
  rewrite IH. apply perm_swap.
Qed.
Lemma sort_perm l : Permutation (sort_z l) l.
Proof. induction l; simpl; auto. rewrite insert_perm. auto. Qed.

Lemma insert_sorted a l : StronglySorted Z.le l -> StronglySorted Z.le (insert_z a l).
Proof.
  induction 1 as [|b l Hs IH Hf]; simpl. repeat constructor.
  destruct (Z.leb_spec a b).
  - constructor. constructor; auto. constructor; auto. eapply Forall_impl; [|exact Hf]. simpl; intros; lia.
  - constructor; auto. eapply Permutation_Forall. apply Permutation_sym, insert_perm. constructor; auto. lia.
Qed.
Lemma sort_sorted l : StronglySorted Z.le (sort_z l).
Proof. induction l; simpl. constructor. now apply insert_sorted. Qed.

Lemma in_rd (l : list Z) v : In v l <-> exists t, 0 <= t < zlen l /\ rd l t = v.
Proof.
  split.
  - intros H. apply (In_nth _ _ 0) in H. destruct H as (k & Hk & Hv). exists (Z.of_nat k).
    unfold zlen, rd. rewrite Nat2Z.id. split; auto; lia.
  - intros (t & Ht & <-). apply nth_In. unfold zlen in Ht. lia.
Qed.

Lemma nodup_rd (l : list Z) : NoDup l <-> (forall a b, 0 <= a < zlen l -> 0 <= b < zlen l -> rd l a = rd l b -> a = b).
Proof.
  rewrite (NoDup_nth l 0). unfold rd, zlen. split.
  - intros H a b Ha Hb E. apply H in E; lia.
  - intros H i j Hi Hj E. specialize (H (Z.of_nat i) (Z.of_nat j)). rewrite !Nat2Z.id in H. lia.
Qed.

Lemma ssorted_rd l : StronglySorted Z.le l -> forall a b, 0 <= a <= b -> b < zlen l -> rd l a <= rd l b.
Proof.
  induction 1 as [|x l Hs IH Hf]; intros a b Ha Hb. unfold zlen in Hb; simpl in Hb; lia.
  unfold zlen in Hb; cbn [length] in Hb.
  destruct (Z.eq_dec b 0). replace a with b by lia. lia.
  assert (Eb : rd (x :: l) b = rd l (b - 1)).
  { unfold rd. replace (Z.to_nat b) with (S (Z.to_nat (b - 1))) by lia. reflexivity. }
  destruct (Z.eq_dec a 0) as [->|].
  - rewrite Eb. change (rd (x :: l) 0) with x. rewrite Forall_forall in Hf. apply Hf. apply in_rd.
    exists (b - 1). split; auto. unfold zlen. lia.
  - rewrite Eb. unfold rd at 1. replace (Z.to_nat a) with (S (Z.to_nat (a - 1))) by lia. simpl.
    apply (IH (a - 1) (b - 1)). lia. unfold zlen; lia.
Qed.

Lemma nth_firstn_lt A (l : list A) i k d : (i < k)%nat -> nth i (firstn k l) d = nth i l d.
Proof. revert i k; induction l; intros [|i] [|k] H; simpl; auto; try lia. apply IHl; lia. Qed.
Lemma nth_skipn_ A (l : list A) i k d : nth i (skipn k l) d = nth (k + i) l d.
Proof. revert k; induction l; intros [|k]; simpl; auto. destruct i; auto. Qed.

Lemma rd_firstn l k i : 0 <= i < k -> rd (firstn (Z.to_nat k) l) i = rd l i.
Proof. intros. unfold rd. apply nth_firstn_lt. lia. Qed.
Lemma rd_skipn l k i : 0 <= k -> 0 <= i -> rd (skipn (Z.to_nat k) l) i = rd l (k + i).
Proof. intros. unfold rd. rewrite nth_skipn_. f_equal. lia. Qed.
Lemma zlen_firstn A (l : list A) k : 0 <= k <= zlen l -> zlen (firstn (Z.to_nat k) l) = k.
Proof. unfold zlen; intros. rewrite firstn_length. lia. Qed.
Lemma zlen_skipn A (l : list A) k : 0 <= k <= zlen l -> zlen (skipn (Z.to_nat k) l) = zlen l - k.
Proof. unfold zlen; intros. rewrite skipn_length. lia. Qed.

Lemma sort_range_spec xi top n :
  0 <= top <= n -> n <= zlen xi ->
  (forall a b, top <= a < n -> top <= b < n -> rd xi a = rd xi b -> a = b) ->
  exists xi', sort_range xi top n = Ok xi' /\ zlen xi' = zlen xi /\
    (forall a b, top <= a < b -> b < n -> rd xi' a < rd xi' b) /\
    (forall v, (exists a, top <= a < n /\ rd xi' a = v) <-> (exists a, top <= a < n /\ rd xi a = v)).
Proof.
  intros Ht Hn Hinj. unfold sort_range.
  destruct (Z.leb_spec 0 top), (Z.leb_spec top n), (Z.leb_spec n (zlen xi)); try lia. simpl.
  set (l := firstn (Z.to_nat (n - top)) (skipn (Z.to_nat top) xi)).
  assert (Hl : zlen l = n - top). { unfold l. apply zlen_firstn. rewrite zlen_skipn; lia. }
  assert (Hrl : forall t, 0 <= t < n - top -> rd l t = rd xi (top + t)).
  { intros t H2. unfold l. rewrite rd_firstn, rd_skipn; auto; lia. }
  assert (Hs : zlen (sort_z l) = n - top).
  { unfold zlen in *. rewrite (Permutation_length (sort_perm l)). auto. }
  eexists; split; [reflexivity|].
  assert (Hf : zlen (firstn (Z.to_nat top) xi) = top) by (apply zlen_firstn; lia).
  assert (Hk : zlen (skipn (Z.to_nat n) xi) = zlen xi - n) by (apply zlen_skipn; lia).
  split. rewrite !zlen_app. lia.
  assert (Hr : forall a, top <= a < n -> rd (firstn (Z.to_nat top) xi ++ sort_z l ++ skipn (Z.to_nat n) xi) a = rd (sort_z l) (a - top)).
  { intros a Ha. rewrite rd_app2 by lia. rewrite Hf. rewrite rd_app1 by lia. auto. }
  assert (Hnd : NoDup (sort_z l)).
  { apply Permutation_NoDup with l. apply Permutation_sym, sort_perm. apply nodup_rd.
    intros a b Ha Hb. rewrite !Hrl by lia. intros E. apply Hinj in E; lia. }
  split.
  - intros a b Ha Hb. rewrite !Hr by lia.
    pose proof (ssorted_rd (sort_sorted l) (a := a - top) (b := b - top)).
    rewrite nodup_rd in Hnd. specialize (Hnd (a - top) (b - top)).
    assert (rd (sort_z l) (a - top) <> rd (sort_z l) (b - top)) by (intros E; apply Hnd in E; lia). lia.
  - intros v. transitivity (In v (sort_z l)).
    + rewrite in_rd, Hs. split.
      * intros (a & Ha & Hv). exists (a - top). split. lia. rewrite <- Hr by lia. auto.
      * intros (t & H2 & Hv). exists (top + t). split. lia. rewrite Hr by lia. replace (top + t - top) with t by lia. auto.
    + transitivity (In v l). split; apply Permutation_in; [|apply Permutation_sym]; apply sort_perm.
      rewrite in_rd, Hl. split.
      * intros (t & H2 & Hv). exists (top + t). split. lia. rewrite <- Hrl by lia. auto.
      * intros (a & Ha & Hv). exists (a - top). split. lia. rewrite Hrl by lia. replace (top + (a - top)) with a by lia. auto.
Qed.

(* mapping a range of xi through F *)
Lemma map_range_spec xi F top n E :
  0 <= top <= n -> n <= zlen xi -> (forall a, top <= a < n -> 0 <= rd xi a < zlen F) ->
  wp (for_ top n (fun j xi => let* a := get xi j in let* b := get F a in set xi j b) xi)
     (fun xi' => zlen xi' = zlen xi /\ (forall a, top <= a < n -> rd xi' a = rd F (rd xi a)) /\
                 (forall a, 0 <= a -> ~ (top <= a < n) -> rd xi' a = rd xi a)) E.
Proof.
  intros Ht Hn HF. eapply wp_conseq.
  - apply wp_for with (I := fun t xi' => zlen xi' = zlen xi /\ (forall a, top <= a < t -> rd xi' a = rd F (rd xi a)) /\
                 (forall a, 0 <= a -> ~ (top <= a < t) -> rd xi' a = rd xi a)).
    + lia.
    + split; auto. split; auto. intros; lia.
    + intros j xi' Hj (H1 & H2 & H3). rewrite get_rd by lia. cbn [bind]. rewrite (H3 j) by lia.
      rewrite get_rd by (apply HF; lia). cbn [bind]. rewrite set_wr by lia. simpl.
      split. now rewrite zlen_wr. split.
      * intros a Ha. rewrite rd_wr by lia. destruct (Z.eqb_spec a j). now subst. apply H2; lia.
      * intros a Ha Ha2. rewrite rd_wr_ne by lia. apply H3; lia.
  - intros xi' (H1 & H2 & H3). auto.
Qed.

(* writing a constant at the positions listed in xi[top..n-1] *)
Lemma fill_spec xi x v top n m E :
  0 <= top <= n -> n <= zlen xi -> zlen x = m -> (forall a, top <= a < n -> 0 <= rd xi a < m) ->
  wp (for_ top n (fun i x => let* a := get xi i in set x a v) x)
     (fun x' => zlen x' = m /\ (forall a, top <= a < n -> rd x' (rd xi a) = v) /\
                (forall i, 0 <= i -> (forall a, top <= a < n -> rd xi a <> i) -> rd x' i = rd x i)) E.
Proof.
  intros Ht Hn Hx Hr. eapply wp_conseq.
  - apply wp_for with (I := fun t x' => zlen x' = m /\ (forall a, top <= a < t -> rd x' (rd xi a) = v) /\
                (forall i, 0 <= i -> (forall a, top <= a < t -> rd xi a <> i) -> rd x' i = rd x i)).
    + lia.
    + split; auto. split; auto. intros; lia.
    + intros j x' Hj (H1 & H2 & H3). rewrite get_rd by lia. cbn [bind]. pose proof (Hr j Hj).
      rewrite set_wr by lia. simpl. split. now rewrite zlen_wr. split.
      * intros a Ha. pose proof (Hr a ltac:(lia)). rewrite rd_wr by lia. destruct (Z.eqb_spec (rd xi a) (rd xi j)); auto.
        apply H2. assert (a <> j) by congruence. lia.
      * intros i Hi Hne. rewrite rd_wr_ne; try lia. apply H3; auto. intros; apply Hne; lia. apply Hne; lia.
  - intros x' (H1 & H2 & H3). auto.
Qed.

(*----------------------------------------------------------------------------*)
(* numerics *)

Section Num.
Variables (M : Z -> Z -> Z) (R : Z -> Z) (rhos : list Z) (k : Z).
Hypothesis Hk : 0 <= k.
Hypothesis Hrl : k <= zlen rhos.
Hypothesis Hrho : forall j, 0 <= j < k -> rd rhos j = lead M R (j + 1) /\ rd rhos j <> 0.

Lemma lead_nz j : 0 <= j <= k -> lead M R j <> 0.
Proof.
  intros Hj. destruct (Z.eq_dec j 0) as [->|]. rewrite lead_0. lia.
  destruct (@Hrho (j - 1)) as [E N]; [lia|]. replace (j - 1 + 1) with j in E by lia. congruence.
Qed.

(* entry (value v, history h) of row i of column c is a scaled copy of the level-J entry *)
Definition st (c J i v h : Z) : Prop := -1 <= h /\ h + 1 <= J /\ v * lead M R J = bm M R J i c * lead M R (h + 1).

Lemma st_zero c J i h : 0 <= J <= k -> st c J i 0 h -> bm M R J i c = 0.
Proof.
  intros HJ (H1 & H2 & H3). assert (lead M R (h + 1) <> 0) by (apply lead_nz; lia). nia.
Qed.

Lemma st_adv c J i v h : 0 <= J < k -> st c J i v h ->
  bm M R J i J = 0 \/ bm M R J (R J) c = 0 -> st c (J + 1) i v h.
Proof.
  intros HJ (H1 & H2 & H3) HZ. split; auto. split. lia.
  assert (N0 : lead M R J <> 0) by (apply lead_nz; lia).
  pose proof (@bm_step M R J i c ltac:(lia) N0) as E. rewrite <- lead_S in E by lia.
  assert (E' : lead M R J * bm M R (J + 1) i c = lead M R (J + 1) * bm M R J i c) by (destruct HZ as [Z0|Z0]; rewrite Z0 in E; lia).
  apply (Z.mul_reg_l _ _ (lead M R J)); auto.
  replace (lead M R J * (v * lead M R (J + 1))) with (v * lead M R J * lead M R (J + 1)) by ring.
  rewrite H3. replace (lead M R J * (bm M R (J + 1) i c * lead M R (h + 1))) with
    ((lead M R J * bm M R (J + 1) i c) * lead M R (h + 1)) by ring. rewrite E'. ring.
Qed.

Lemma hist_update_spec c J i v h (Q : Z -> Prop) E : 0 <= J <= k -> st c J i v h -> Q (bm M R J i c) ->
  wp (hist_update rhos v h (J - 1)) Q E.
Proof.
  intros HJ (H1 & H2 & H3) HQ. unfold hist_update.
  destruct (Z.ltb_spec h (J - 1)) as [Hlt|Hge].
  - rewrite get_rd by lia. cbn [bind]. destruct (@Hrho (J - 1)) as [E1 _]; [lia|].
    replace (J - 1 + 1) with J in E1 by lia.
    rewrite Z.gtb_ltb. destruct (Z.ltb_spec (-1) h) as [Hh|Hh].
    + rewrite get_rd by lia. cbn [bind]. destruct (@Hrho h) as [E2 N2]; [lia|].
      apply wp_divexact with (c := bm M R J i c); auto. rewrite E1, E2. lia.
    + simpl. assert (h = -1) by lia. subst h. rewrite E1, H3. change (-1 + 1) with 0. rewrite lead_0, Z.mul_1_r. auto.
  - assert (h = J - 1) by lia. subst h. replace (J - 1 + 1) with J in H3 by lia.
    assert (N0 : lead M R J <> 0) by (apply lead_nz; lia).
    simpl. assert (v = bm M R J i c) by (apply (Z.mul_reg_r _ _ (lead M R J)); auto). now subst.
Qed.

Lemma st_final c J i : 0 <= J -> st c (J + 1) i (bm M R (J + 1) i c) J.
Proof. intros. split. lia. split; lia. Qed.

(* the numerical part of one IPGE update *)
Definition ipge_val (v h lij xj J : Z) : res Z :=
  if v =? 0 then
    if J <? 1 then Ok (v - lij * xj)
    else let* r := get rhos (J - 1) in divexact (v - lij * xj) r
  else
    if J <? 1 then let* r0 := get rhos 0 in Ok (v * r0 - lij * xj)
    else
      let* v1 := hist_update rhos v h (J - 1) in
      let* rj := get rhos J in
      let* r := get rhos (J - 1) in
      divexact (v1 * rj - lij * xj) r.

Lemma ipge_val_spec c J i v h (Q : Z -> Prop) E :
  0 <= J < k -> st c J i v h -> Q (bm M R (J + 1) i c) ->
  wp (ipge_val v h (bm M R J i J) (bm M R J (R J) c) J) Q E.
Proof.
  intros HJ Hst HQ.
  assert (N0 : lead M R J <> 0) by (apply lead_nz; lia).
  pose proof (@bm_step M R J i c ltac:(lia) N0) as Es. rewrite <- lead_S in Es by lia.
  destruct (@Hrho J) as [EJ NJ]; [lia|].
  unfold ipge_val. destruct (Z.eqb_spec v 0) as [->|Hv].
  - pose proof (@st_zero c J i h ltac:(lia) Hst) as Z0. rewrite Z0 in Es.
    destruct (Z.ltb_spec J 1).
    + assert (J = 0) by lia. subst J. simpl. rewrite lead_0 in Es.
      replace (bm M R (0 + 1) i c) with (- (bm M R 0 i 0 * bm M R 0 (R 0) c)) in HQ by lia. exact HQ.
    + rewrite get_rd by lia. cbn [bind]. destruct (@Hrho (J - 1)) as [E1 N1]; [lia|].
      replace (J - 1 + 1) with J in E1 by lia.
      apply wp_divexact with (c := bm M R (J + 1) i c); auto. rewrite E1. lia.
  - destruct (Z.ltb_spec J 1).
    + assert (J = 0) by lia. subst J. rewrite get_rd by lia. simpl. change (0 + 1) with 1 in *.
      destruct Hst as (A1 & A2 & A3). assert (h = -1) by lia. subst h. change (-1 + 1) with 0 in A3.
      rewrite lead_0 in *. rewrite EJ. assert (v = bm M R 0 i c) by lia. subst v.
      replace (bm M R 1 i c) with (bm M R 0 i c * lead M R 1 - bm M R 0 i 0 * bm M R 0 (R 0) c) in HQ by lia. exact HQ.
    + apply wp_bind. eapply hist_update_spec; [|exact Hst|]. lia.
      rewrite !get_rd by lia. cbn [bind]. destruct (@Hrho (J - 1)) as [E1 N1]; [lia|].
      replace (J - 1 + 1) with J in E1 by lia.
      apply wp_divexact with (c := bm M R (J + 1) i c); auto. rewrite E1, EJ. lia.
Qed.

End Num.

(*----------------------------------------------------------------------------*)
(* invariant of the partially built L, and of the permutations *)

Record perm_ok (n : Z) (pinv rowp : list Z) : Prop := {
  p_l1 : zlen pinv = n;
  p_l2 : zlen rowp = n;
  p_r1 : forall i, 0 <= i < n -> 0 <= rd pinv i < n;
  p_r2 : forall i, 0 <= i < n -> 0 <= rd rowp i < n;
  p_c1 : forall i, 0 <= i < n -> rd rowp (rd pinv i) = i;
  p_c2 : forall i, 0 <= i < n -> rd pinv (rd rowp i) = i }.

(* columns 0..k-1 of L are complete and correct, Lp[k] = lnz, the rest of Lp is still zero *)
Record l_ok (M : Z -> Z -> Z) (n k : Z) (Lp Li Lx pinv rowp : list Z) (lnz : Z) : Prop := {
  l_plen : zlen Lp = n + 1;
  l_0 : rd Lp 0 = 0;
  l_mono : forall j, 0 <= j < k -> rd Lp j <= rd Lp (j + 1);
  l_k : rd Lp k = lnz;
  l_rest : forall j, k < j <= n -> rd Lp j = 0;
  l_cap : lnz <= zlen Li;
  l_x : zlen Lx = zlen Li;
  l_i : forall j p, 0 <= j < k -> rd Lp j <= p < rd Lp (j + 1) -> 0 <= rd Li p < n /\ j <= rd pinv (rd Li p);
  l_v : forall j p, 0 <= j < k -> rd Lp j <= p < rd Lp (j + 1) -> rd Lx p = bm M (rd rowp) j (rd Li p) j;
  l_dup : forall j p p', 0 <= j < k -> rd Lp j <= p < rd Lp (j + 1) -> rd Lp j <= p' < rd Lp (j + 1) ->
          rd Li p = rd Li p' -> p = p';
  l_all : forall j i, 0 <= j < k -> 0 <= i < n -> bm M (rd rowp) j i j <> 0 ->
          exists p, rd Lp j <= p < rd Lp (j + 1) /\ rd Li p = i }.

Lemma l_ptr M n k Lp Li Lx pinv rowp lnz : l_ok M n k Lp Li Lx pinv rowp lnz ->
  forall c d, 0 <= c <= d -> d <= k -> 0 <= rd Lp c <= rd Lp d /\ rd Lp d <= lnz.
Proof.
  intros V.
  assert (H1 : forall t c, 0 <= c -> c + Z.of_nat t <= k -> rd Lp c <= rd Lp (c + Z.of_nat t)).
  { induction t; intros c Hc Ht. rewrite Z.add_0_r; lia.
    specialize (IHt c Hc ltac:(lia)).
    pose proof (l_mono V (j := c + Z.of_nat t)). replace (c + Z.of_nat (S t)) with (c + Z.of_nat t + 1) by lia. lia. }
  intros c d Hc Hd. pose proof (H1 (Z.to_nat c) 0). pose proof (H1 (Z.to_nat (d - c)) c). pose proof (H1 (Z.to_nat (k - d)) d).
  pose proof (l_0 V). pose proof (l_k V).
  replace (0 + Z.of_nat (Z.to_nat c)) with c in * by lia.
  replace (c + Z.of_nat (Z.to_nat (d - c))) with d in * by lia.
  replace (d + Z.of_nat (Z.to_nat (k - d))) with k in * by lia. lia.
Qed.

Lemma l_graph M n k Lp Li Lx pinv rowp lnz : 0 <= k <= n -> l_ok M n k Lp Li Lx pinv rowp lnz ->
  perm_ok n pinv rowp -> graph_ok n Lp Li pinv.
Proof.
  intros Hk V P. pose proof (l_ptr V) as HP. constructor.
  - apply V.
  - intros j Hj. destruct (Z_le_dec j k). pose proof (HP j j). lia. rewrite (l_rest V); lia.
  - apply P.
  - apply P.
  - intros c p Hc Hp. destruct (Z_lt_dec c k).
    + pose proof (HP c (c + 1)). destruct (l_i V (j := c) (p := p)); auto. lia. pose proof (l_cap V). split; lia.
    + rewrite (l_rest V (j := c + 1)) in Hp by lia. exfalso.
      destruct (Z.eq_dec c k) as [->|]. pose proof (HP k k). lia. rewrite (l_rest V) in Hp; lia.
Qed.

Section Tri.
Variables (M : Z -> Z -> Z) (n k : Z) (Lp Li Lx rhos pinv rowp : list Z) (lnz : Z).
Let R := rd rowp.
Hypothesis Hkn : 0 <= k < n.
Hypothesis HP : perm_ok n pinv rowp.
Hypothesis HL : l_ok M n k Lp Li Lx pinv rowp lnz.
Hypothesis Hrl : zlen rhos = n.
Hypothesis Hrho : forall j, 0 <= j < k -> rd rhos j = lead M R (j + 1) /\ rd rhos j <> 0.

(* the pattern: rows in xi[top..n-1] *)
Variables (top : Z) (xi : list Z).
Hypothesis Htop : 0 <= top <= n.
Hypothesis Hxl : zlen xi = 2 * n.
Hypothesis Hxr : forall a, top <= a < n -> 0 <= rd xi a < n.
Hypothesis Hxs : forall a b, top <= a < b -> b < n -> rd pinv (rd xi a) < rd pinv (rd xi b).
Let inP (i : Z) := exists a, top <= a < n /\ rd xi a = i.
Hypothesis HcA : forall i, 0 <= i < n -> M i k <> 0 -> inP i.
Hypothesis HcL : forall j i, inP j -> edge Lp Li pinv j i -> inP i.

Lemma inP_dec i : {inP i} + {~ inP i}.
Proof.
  unfold inP. destruct (in_dec Z.eq_dec i (map (rd xi) (zseq top n))) as [H|H].
  - left. apply in_map_iff in H. destruct H as (a & Ha & Hb). apply in_zseq in Hb. eauto.
  - right. intros (a & Ha & Hb). apply H. apply in_map_iff. exists a. split; auto. now apply in_zseq.
Qed.

(* rows outside the pattern are exactly zero at every level *)
Lemma outside_zero i : 0 <= i < n -> ~ inP i -> forall J, 0 <= J <= k -> J <= rd pinv i -> bm M R J i k = 0.
Proof.
  intros Hi0 Hn0 J0 HJ0. revert i Hi0 Hn0.
  assert (G : forall t, Z.of_nat t <= k -> forall i, 0 <= i < n -> ~ inP i -> Z.of_nat t <= rd pinv i -> bm M R (Z.of_nat t) i k = 0).
  { induction t as [t IH] using lt_wf_ind. intros Ht i Hi Hn Hp. destruct t as [|t].
    - change (Z.of_nat 0) with 0. rewrite bm_0. destruct (Z.eq_dec (M i k) 0); auto. exfalso. apply Hn, HcA; auto.
    - replace (Z.of_nat (S t)) with (Z.of_nat t + 1) by lia. set (T := Z.of_nat t).
      assert (N0 : lead M R T <> 0) by (apply (@lead_nz M R rhos k); auto; lia).
      pose proof (@bm_step M R T i k ltac:(lia) N0) as E.
      pose proof (IH t ltac:(lia) ltac:(lia) i Hi Hn ltac:(lia)) as Ez. fold T in Ez. rewrite Ez in E.
      assert (Z0 : bm M R T i T * bm M R T (R T) k = 0).
      { destruct (Z.eq_dec (bm M R T i T) 0) as [Z1|Z1]. rewrite Z1; lia.
        assert (HRT : 0 <= R T < n) by (apply (p_r2 HP); lia).
        assert (HpT : rd pinv (R T) = T) by (apply (p_c2 HP); lia).
        destruct (inP_dec (R T)) as [Hin|Hnin].
        - exfalso. apply Hn. apply (HcL Hin).
          destruct (l_all HL (j := T) (i := i)) as (p & Hpp & Hpi); auto; try lia.
          exists p. rewrite HpT. auto.
        - pose proof (IH t ltac:(lia) ltac:(lia) (R T) HRT Hnin ltac:(fold T; lia)) as Ey. fold T in Ey. rewrite Ey. lia. }
      rewrite Z0 in E. nia. }
  intros i Hi Hn Hp. specialize (G (Z.to_nat J0)). rewrite Z2Nat.id in G by lia. apply G; auto. lia.
Qed.

Let S := st M R k.   (* column c = k *)

Lemma adv_many i v h J J' : S J i v h -> 0 <= J <= J' -> J' <= k ->
  (forall t, J <= t < J' -> ~ inP (R t)) -> S J' i v h.
Proof.
  intros Hs HJ HJ' Hno.
  assert (G : forall d, J + Z.of_nat d <= J' -> S (J + Z.of_nat d) i v h).
  { induction d; intros Hd. now rewrite Z.add_0_r.
    replace (J + Z.of_nat (Datatypes.S d)) with (J + Z.of_nat d + 1) by lia.
    apply (@st_adv M R rhos k); auto; try lia. apply IHd; lia.
    right. set (t := J + Z.of_nat d). apply outside_zero; try lia.
    - apply (p_r2 HP); lia.
    - apply Hno; lia.
    - unfold R. rewrite (p_c2 HP); lia. }
  replace J' with (J + Z.of_nat (Z.to_nat (J' - J))) by lia. apply G. lia.
Qed.

(* state of (x,h) before processing xi[p] *)
Record tinv (p J : Z) (x0 x h : list Z) : Prop := {
  t_x : zlen x = n;
  t_h : zlen h = n;
  t_J : 0 <= J <= k;
  t_done : forall a, top <= a < p -> rd pinv (rd xi a) < k -> rd pinv (rd xi a) < J;
  t_todo : forall a, p <= a < n -> J <= rd pinv (rd xi a);
  t_fin : forall a, top <= a < p -> rd x (rd xi a) = bm M R (Z.min k (rd pinv (rd xi a))) (rd xi a) k;
  t_st : forall a, p <= a < n -> S J (rd xi a) (rd x (rd xi a)) (rd h (rd xi a));
  t_out : forall i, 0 <= i < n -> ~ inP i -> rd x i = rd x0 i }.

Lemma xi_inj a b : top <= a < n -> top <= b < n -> rd xi a = rd xi b -> a = b.
Proof.
  intros Ha Hb E. destruct (Z.lt_trichotomy a b) as [H|[H|H]]; auto.
  - pose proof (@Hxs a b). rewrite E in H0. lia.
  - pose proof (@Hxs b a). rewrite E in H0. lia.
Qed.

(* moving the level up to the position of the next row *)
Lemma tinv_adv p J x0 x h : top <= p < n -> tinv p J x0 x h ->
  let J' := Z.min k (rd pinv (rd xi p)) in tinv p J' x0 x h.
Proof.
  intros Hp I J'. destruct I as [A1 A2 A3 A4 A5 A6 A7 A8].
  assert (HJJ : J <= J') by (specialize (A5 p ltac:(lia)); lia).
  constructor; auto.
  - specialize (A5 p ltac:(lia)). lia.
  - intros a Ha Hk'. specialize (A4 a Ha Hk'). lia.
  - intros a Ha. destruct (Z.eq_dec a p) as [->|]. lia. pose proof (@Hxs p a). lia.
  - intros a Ha. apply adv_many with J; auto; try lia.
    intros t Ht (b & Hb & Hbe). 
    assert (E : rd pinv (rd xi b) = t) by (rewrite Hbe; apply (p_c2 HP); lia).
    destruct (Z_lt_dec b p).
    + specialize (A4 b ltac:(lia)). lia.
    + destruct (Z.eq_dec b p) as [->|]. lia. pose proof (@Hxs p b). lia.
Qed.

(* one IPGE update through memory *)
Lemma ipge_update_eq j jnew m x h :
  forall i v hv xj lij,
  i = rd Li m -> v = rd x i -> hv = rd h i -> xj = rd x j -> lij = rd Lx m ->
  0 <= m < zlen Li -> 0 <= i < n -> 0 <= j < n -> zlen x = n -> zlen h = n ->
  rd pinv i > jnew -> lij <> 0 ->
  forall (Q : list Z * list Z -> Prop) E,
  wp (ipge_val rhos v hv lij xj jnew) (fun v' => Q (wr x i v', wr h i jnew)) E ->
  wp (ipge_update Lx Li rhos pinv j jnew m (x, h)) Q E.
Proof.
  intros i v hv xj lij Hi Hv Hh Hxj Hlij Hm Hir Hj Hx Hhl Hgt Hnz Q E HW.
  pose proof (p_l1 HP). pose proof (l_x HL).
  unfold ipge_update. rewrite get_rd by lia. cbn [bind]. rewrite <- Hi.
  rewrite get_rd by lia. cbn [bind].
  destruct (Z.gtb_spec (rd pinv i) jnew); [|lia].
  rewrite get_rd by lia. cbn [bind]. rewrite <- Hlij. destruct (Z.eqb_spec lij 0); [contradiction|].
  rewrite !get_rd by lia. cbn [bind]. rewrite <- Hv, <- Hxj.
  unfold ipge_val in HW.
  destruct (v =? 0); destruct (jnew <? 1); cbn [bind] in *.
  - rewrite !set_wr by lia. simpl in *. exact HW.
  - destruct (get rhos (jnew - 1)) as [r| | |]; cbn [bind] in *; auto.
    destruct (divexact (v - lij * xj) r) as [v'| | |]; cbn [bind] in *; auto.
    rewrite !set_wr by lia. simpl in *. exact HW.
  - destruct (get rhos 0) as [r| | |]; cbn [bind] in *; auto.
    rewrite !set_wr by lia. simpl in *. exact HW.
  - rewrite !get_rd by lia. cbn [bind]. rewrite <- Hh.
    destruct (hist_update rhos v hv (jnew - 1)) as [v1| | |]; cbn [bind] in *; auto.
    destruct (get rhos jnew) as [rj| | |]; cbn [bind] in *; auto.
    destruct (get rhos (jnew - 1)) as [r| | |]; cbn [bind] in *; auto.
    destruct (divexact (v1 * rj - lij * xj) r) as [v'| | |]; cbn [bind] in *; auto.
    rewrite !set_wr by lia. simpl in *. exact HW.
Qed.

Lemma tri_step_spec p J x0 x h E : top <= p < n -> tinv p J x0 x h ->
  wp (tri_step k Lp Li Lx rhos pinv xi p (x, h)) (fun '(x', h') => exists J', tinv (p + 1) J' x0 x' h') E.
Proof.
  intros Hp I. apply tinv_adv in I; auto. cbv zeta in I.
  set (J' := Z.min k (rd pinv (rd xi p))) in *. clear J.
  set (j := rd xi p) in *. set (jnew := rd pinv j) in *.
  destruct I as [A1 A2 A3 A4 A5 A6 A7 A8].
  assert (Hj : 0 <= j < n) by (apply Hxr; auto).
  assert (Hjn : 0 <= jnew < n) by (apply (p_r1 HP); auto).
  assert (HRj : R jnew = j) by (apply (p_c1 HP); auto).
  assert (HjP : inP j) by (exists p; auto).
  pose proof (A7 p ltac:(lia)) as Sj. fold j in Sj.
  unfold tri_step. rewrite get_rd by lia. cbn [bind]. fold j.
  rewrite get_rd by (rewrite (p_l1 HP); lia). cbn [bind]. fold jnew.
  rewrite get_rd by lia. cbn [bind].
  assert (Hgt : forall a, p + 1 <= a < n -> jnew < rd pinv (rd xi a)).
  { intros a Ha. apply (@Hxs p a); lia. }
  destruct (Z.eqb_spec (rd x j) 0) as [Hz|Hnz].
  - (* x[j] = 0 *)
    rewrite Hz in Sj. apply (@st_zero M R rhos k) in Sj; auto; try lia.
    simpl. destruct (Z_lt_dec jnew k) as [Hlt|Hge].
    + assert (EJ : J' = jnew) by lia.
      exists (jnew + 1). constructor; auto; try lia.
      * intros a Ha Hak. destruct (Z.eq_dec a p) as [->|]. fold j jnew; lia. specialize (A4 a ltac:(lia) Hak). lia.
      * intros a Ha. specialize (Hgt a Ha). lia.
      * intros a Ha. destruct (Z.eq_dec a p) as [->|]. fold j jnew J'. rewrite Hz. auto. apply A6; lia.
      * intros a Ha. apply (@st_adv M R rhos k); auto; try lia. rewrite <- EJ. apply A7; lia.
        right. rewrite HRj, <- EJ. auto.
    + assert (EJ : J' = k) by lia. exists k. constructor; auto; try lia.
      * intros a Ha. specialize (Hgt a Ha). lia.
      * intros a Ha. destruct (Z.eq_dec a p) as [->|]. fold j jnew J'. rewrite Hz. auto. apply A6; lia.
      * intros a Ha. rewrite <- EJ. apply A7; lia.
  - destruct (Z.ltb_spec jnew k) as [Hlt|Hge].
    + (* entry of U *)
      assert (EJ : J' = jnew) by lia. clearbody J'. subst J'.
      rewrite get_rd by lia. cbn [bind]. apply wp_bind.
      eapply (@hist_update_spec M R rhos k); auto; try lia. exact Sj.
      rewrite set_wr by lia. cbn [bind].
      rewrite !get_rd by (rewrite (l_plen HL); lia). cbn [bind].
      set (x1 := wr x j (bm M R jnew j k)).
      assert (Hx1 : forall i, 0 <= i -> i <> j -> rd x1 i = rd x i) by (intros; apply rd_wr_ne; lia).
      assert (Hx1j : rd x1 j = bm M R jnew j k) by (apply rd_wr_eq; lia).
      pose proof (l_ptr HL (c := jnew) (d := jnew + 1) ltac:(lia) ltac:(lia)) as Hptr.
      pose proof (l_cap HL) as Hcap.
      eapply wp_conseq.
      * apply wp_for with (I := fun m '(x', h') => zlen x' = n /\ zlen h' = n /\
           (forall i, 0 <= i < n -> rd pinv i <= jnew \/ ~ inP i -> rd x' i = rd x1 i) /\
           (forall a, p + 1 <= a < n ->
              (exists m', rd Lp jnew <= m' < m /\ rd Li m' = rd xi a /\ rd Lx m' <> 0) ->
              S (jnew + 1) (rd xi a) (rd x' (rd xi a)) (rd h' (rd xi a))) /\
           (forall a, p + 1 <= a < n ->
              (forall m', rd Lp jnew <= m' < m -> rd Lx m' <> 0 -> rd Li m' <> rd xi a) ->
              S jnew (rd xi a) (rd x' (rd xi a)) (rd h' (rd xi a)))).
        -- lia.
        -- split. unfold x1; now rewrite zlen_wr. split; auto. split; auto. split.
           ++ intros a Ha (m' & Hm' & _). lia.
           ++ intros a Ha _. rewrite Hx1. apply A7; lia. apply Hxr; lia. intros E1. apply (@xi_inj a p) in E1; lia.
        -- intros m [x' h'] Hm (B1 & B2 & B3 & B4 & B5).
           destruct (l_i HL (j := jnew) (p := m)) as [Hir Hipv]; auto; try lia.
           pose proof (l_v HL (j := jnew) (p := m) ltac:(lia) Hm) as Hlv. fold R in Hlv.
           set (i := rd Li m) in *.
           assert (HiP : inP i).
           { apply (HcL HjP). exists m. split; auto. }
           assert (Hskip : rd pinv i <= jnew \/ rd Lx m = 0 ->
             wp (Ok (x', h')) (fun '(x'0, h'0) => zlen x'0 = n /\ zlen h'0 = n /\
               (forall i0, 0 <= i0 < n -> rd pinv i0 <= jnew \/ ~ inP i0 -> rd x'0 i0 = rd x1 i0) /\
               (forall a, p + 1 <= a < n ->
                 (exists m', rd Lp jnew <= m' < m + 1 /\ rd Li m' = rd xi a /\ rd Lx m' <> 0) ->
                 S (jnew + 1) (rd xi a) (rd x'0 (rd xi a)) (rd h'0 (rd xi a))) /\
               (forall a, p + 1 <= a < n ->
                 (forall m', rd Lp jnew <= m' < m + 1 -> rd Lx m' <> 0 -> rd Li m' <> rd xi a) ->
                 S jnew (rd xi a) (rd x'0 (rd xi a)) (rd h'0 (rd xi a)))) E).
           { intros Hs. simpl. split; auto. split; auto. split; auto. split.
             - intros a Ha (m' & Hm' & He & Hn0). apply B4; auto. exists m'. split; auto.
               assert (m' <> m). { intros ->. destruct Hs; auto. fold i in He. specialize (Hgt a Ha). rewrite <- He in Hgt. lia. }
               lia.
             - intros a Ha Hno. apply B5; auto. intros m' Hm'. apply Hno. lia. }
           destruct (Z_le_dec (rd pinv i) jnew) as [Hle|Hgti].
           { unfold ipge_update. rewrite get_rd by lia. cbn [bind]. fold i.
             rewrite get_rd by (rewrite (p_l1 HP); lia). cbn [bind].
             destruct (Z.gtb_spec (rd pinv i) jnew); [lia|]. apply Hskip. auto. }
           destruct (Z.eq_dec (rd Lx m) 0) as [Hl0|Hl0].
           { unfold ipge_update. rewrite get_rd by lia. cbn [bind]. fold i.
             rewrite get_rd by (rewrite (p_l1 HP); lia). cbn [bind].
             destruct (Z.gtb_spec (rd pinv i) jnew); [|lia].
             rewrite get_rd by (rewrite (l_x HL); lia). cbn [bind]. rewrite Hl0. simpl (0 =? 0). cbv iota. apply Hskip. auto. }
           destruct HiP as (ai & Hai & Haie).
           assert (Haip : p + 1 <= ai < n).
           { destruct (Z_lt_dec p ai). lia. destruct (Z.eq_dec ai p) as [->|]. fold j in Haie. rewrite <- Haie in Hgti. fold jnew in Hgti. lia.
             pose proof (@Hxs ai p). fold j jnew in H. rewrite Haie in H. lia. }
           assert (Hnew : forall m', rd Lp jnew <= m' < m -> rd Lx m' <> 0 -> rd Li m' <> rd xi ai).
           { intros m' Hm' _ He. rewrite Haie in He. apply (l_dup HL (j := jnew)) in He; lia. }
           pose proof (B5 ai Haip Hnew) as Si. rewrite Haie in Si.
           eapply ipge_update_eq with (i := i) (j := j); try reflexivity; auto; try lia.
           rewrite Hlv. rewrite (B3 j) by (auto; left; fold jnew; lia). rewrite Hx1j. replace (bm M R jnew j k) with (bm M R jnew (R jnew) k) by (now rewrite HRj).
           apply (@ipge_val_spec M R rhos k ltac:(lia) Hrho k jnew i _ _ _ _ ltac:(lia) Si).
           split. now rewrite zlen_wr. split. now rewrite zlen_wr. split; [|split].
           ++ intros i0 Hi0 Hc. rewrite rd_wr_ne; auto; try lia. intros E1. subst i0. destruct Hc as [Hc|Hc]. lia. apply Hc. exists ai; auto.
           ++ intros a Ha Hex. rewrite !rd_wr by (try rewrite (proj1 (conj B1 B2)); try lia; apply Hxr; lia).
              destruct (Z.eqb_spec (rd xi a) i) as [He|He].
              ** rewrite He. apply st_final. lia.
              ** apply B4; auto. destruct Hex as (m' & Hm' & He' & Hn0). exists m'. split; auto.
                 assert (m' <> m) by (intros ->; apply He; auto). lia.
           ++ intros a Ha Hno. assert (rd xi a <> i) by (intros E1; apply (Hno m); auto; lia).
              rewrite !rd_wr_ne; auto; try lia; try (apply Hxr; lia). apply B5; auto. intros; apply Hno; auto; lia.
      * intros [x' h'] (B1 & B2 & B3 & B4 & B5). exists (jnew + 1). constructor; auto; try lia.
        -- intros a Ha Hak. destruct (Z.eq_dec a p) as [->|]. fold j jnew; lia. specialize (A4 a ltac:(lia) Hak). lia.
        -- intros a Ha. specialize (Hgt a Ha). lia.
        -- intros a Ha. pose proof (@Hxr a ltac:(lia)) as Hra. rewrite B3; auto.
           ++ destruct (Z.eq_dec a p) as [->|]. fold j jnew. rewrite Hx1j. f_equal. lia.
              rewrite Hx1; try lia. apply A6; lia. intros E1. apply (@xi_inj a p) in E1; lia.
           ++ left. destruct (Z.eq_dec a p) as [->|]. fold j jnew; lia. pose proof (@Hxs a p). fold j jnew in H. lia.
        -- intros a Ha. pose proof (@Hxr a ltac:(lia)) as Hra.
           destruct (Z.eq_dec (bm M R jnew (rd xi a) jnew) 0) as [Z0|N0].
           ++ assert (Hno : forall m', rd Lp jnew <= m' < rd Lp (jnew + 1) -> rd Lx m' <> 0 -> rd Li m' <> rd xi a).
              { intros m' Hm' Hn' He. apply Hn'. rewrite (l_v HL (j := jnew)) by (auto; lia). rewrite He. auto. }
              apply (@st_adv M R rhos k); auto; try lia. apply B5; auto.
           ++ apply B4; auto. destruct (l_all HL (j := jnew) (i := rd xi a)) as (m' & Hm' & He); auto; try lia.
              exists m'. split; auto. split; auto. rewrite (l_v HL (j := jnew)) by (auto; lia). rewrite He. auto.
        -- intros i Hi Hni. rewrite B3 by auto. rewrite Hx1. apply A8; auto. lia. intros ->. contradiction.
    + (* entry of L *)
      assert (EJ : J' = k) by lia. clearbody J'. subst J'.
      rewrite get_rd by lia. cbn [bind]. apply wp_bind.
      eapply (@hist_update_spec M R rhos k); auto; try lia. exact Sj.
      rewrite set_wr by lia. cbn [bind]. simpl. exists k.
      assert (Hx1 : forall i, 0 <= i -> i <> j -> rd (wr x j (bm M R k j k)) i = rd x i) by (intros; apply rd_wr_ne; lia).
      constructor; auto; try lia.
      * now rewrite zlen_wr.
      * intros a Ha. specialize (Hgt a Ha). lia.
      * intros a Ha. destruct (Z.eq_dec a p) as [->|]. fold j jnew. rewrite rd_wr_eq by lia. f_equal. lia.
        rewrite Hx1. apply A6; lia. apply Hxr; lia. intros E1. apply (@xi_inj a p) in E1; lia.
      * intros a Ha. rewrite Hx1. apply A7; lia. apply Hxr; lia. intros E1. apply (@xi_inj a p) in E1; lia.
      * intros i Hi Hni. rewrite Hx1. apply A8; auto. lia. intros ->. contradiction.
Qed.

Lemma tri_loop_spec x h E :
  zlen x = n -> zlen h = n ->
  (forall a, top <= a < n -> rd x (rd xi a) = M (rd xi a) k /\ rd h (rd xi a) = -1) ->
  wp (for_ top n (fun p st => tri_step k Lp Li Lx rhos pinv xi p st) (x, h))
     (fun '(x', h') => zlen x' = n /\ zlen h' = n /\
        (forall a, top <= a < n -> rd x' (rd xi a) = bm M R (Z.min k (rd pinv (rd xi a))) (rd xi a) k) /\
        (forall i, 0 <= i < n -> ~ inP i -> rd x' i = rd x i)) E.
Proof.
  intros Hx Hh H0. eapply wp_conseq.
  - apply wp_for with (I := fun p '(x', h') => exists J, tinv p J x x' h').
    + lia.
    + exists 0. constructor; auto; try lia.
      * intros a Ha. pose proof (@Hxr a Ha). pose proof (p_r1 HP (i := rd xi a)). lia.
      * intros a Ha. destruct (H0 a Ha) as [E1 E2]. split. lia. split. lia.
        rewrite E1, E2. change (-1 + 1) with 0. rewrite bm_0. auto.
    + intros p [x' h'] Hp (J & HJ). apply tri_step_spec with J; auto.
  - intros [x' h'] (J & [A1 A2 A3 A4 A5 A6 A7 A8]). auto.
Qed.

End Tri.

(*----------------------------------------------------------------------------*)
(* scattering column col of A into x *)
Lemma scatter_spec n Ap Ai Ax c x E :
  valid_csc n n Ap Ai Ax -> 0 <= c < n -> zlen x = n ->
  wp (for_ (rd Ap c) (rd Ap (c + 1)) (fun i x => let* a := get Ai i in let* v := get Ax i in set x a v) x)
     (fun x' => zlen x' = n /\
        (forall p, rd Ap c <= p < rd Ap (c + 1) -> rd x' (rd Ai p) = rd Ax p) /\
        (forall i, 0 <= i < n -> (forall p, rd Ap c <= p < rd Ap (c + 1) -> rd Ai p <> i) -> rd x' i = rd x i)) E.
Proof.
  intros V Hc Hx. pose proof (v_ptr V (c := c) (d := c + 1) ltac:(lia) ltac:(lia)) as Hp.
  pose proof (v_cap V). pose proof (v_x V).
  eapply wp_conseq.
  - apply wp_for with (I := fun t x' => zlen x' = n /\
        (forall p, rd Ap c <= p < t -> rd x' (rd Ai p) = rd Ax p) /\
        (forall i, 0 <= i < n -> (forall p, rd Ap c <= p < t -> rd Ai p <> i) -> rd x' i = rd x i)).
    + lia.
    + split; auto. split; auto. intros; lia.
    + intros j x' Hj (H1 & H2 & H3). pose proof (v_i V (p := j) ltac:(lia)) as Hj2.
      rewrite (get_rd Ai) by lia. cbn [bind]. rewrite get_rd by lia. cbn [bind]. rewrite set_wr by lia. simpl.
      split. now rewrite zlen_wr. split.
      * intros p Hpp. pose proof (v_i V (p := p) ltac:(lia)). rewrite rd_wr by lia.
        destruct (Z.eqb_spec (rd Ai p) (rd Ai j)) as [e|].
        -- apply (v_dup V Hc) in e; try lia. now subst.
        -- apply H2. assert (p <> j) by congruence. lia.
      * intros i Hi Hn. rewrite rd_wr_ne; try lia. apply H3; auto. intros; apply Hn; lia. apply Hn; lia.
  - intros x' (H1 & H2 & H3). auto.
Qed.

(* the matrix A*Q seen as a function *)
Definition colmat (Ap Ai Ax q : list Z) : Z -> Z -> Z := fun i c => ent Ap Ai Ax i (rd q c).

Definition inpat (top n : Z) (xi : list Z) (i : Z) := exists a, top <= a < n /\ rd xi a = i.

Theorem tri_solve_spec n k Lp Li Lx Ap Ai Ax xi q rhos pinv rowp h x lnz :
  let M := colmat Ap Ai Ax q in
  let R := rd rowp in
  0 <= k < n ->
  valid_csc n n Ap Ai Ax -> is_map n q -> perm_ok n pinv rowp ->
  l_ok M n k Lp Li Lx pinv rowp lnz ->
  zlen rhos = n -> (forall j, 0 <= j < k -> rd rhos j = lead M R (j + 1) /\ rd rhos j <> 0) ->
  zlen xi = 2 * n -> zlen h = n -> zlen x = n ->
  exists top xi' x' h',
    slip_ref_triangular_solve n Lp Li Lx Ap Ai Ax k xi q rhos pinv rowp h x = Ok (top, xi', Lp, x', h') /\
    0 <= top <= n /\ zlen xi' = 2 * n /\ zlen x' = n /\ zlen h' = n /\
    (forall a, top <= a < n -> 0 <= rd xi' a < n) /\
    (forall a b, top <= a < b -> b < n -> rd pinv (rd xi' a) < rd pinv (rd xi' b)) /\
    (forall i, reachable Lp Li pinv Ap Ai (rd q k) i <-> inpat top n xi' i) /\
    (forall i, 0 <= i < n -> inpat top n xi' i \/ i = rd q k -> k <= rd pinv i -> rd x' i = bm M R k i k) /\
    (forall i, 0 <= i < n -> inpat top n xi' i -> rd x' i = bm M R (Z.min k (rd pinv i)) i k) /\
    (forall i, 0 <= i < n -> ~ inpat top n xi' i -> forall J, 0 <= J <= k -> J <= rd pinv i -> bm M R J i k = 0).
Proof.
  intros M R Hk V (HqL & HqR) HP HL Hrl Hrho Hxil Hhl Hxl.
  assert (Hcol : 0 <= rd q k < n) by (apply HqR; lia).
  set (col := rd q k) in *.
  pose proof (v_ptr V (c := col) (d := col + 1) ltac:(lia) ltac:(lia)) as Hpc.
  pose proof (v_cap V) as Hcap. pose proof (v_x V) as Hvx. pose proof (v_p V) as Hvp.
  assert (C : col_ok n Ap Ai col).
  { constructor. lia. lia. intros p Hp. apply (v_i V); lia. }
  assert (G : graph_ok n Lp Li pinv) by (eapply l_graph; [|exact HL|exact HP]; lia).
  destruct (@slip_reach_spec n Lp Li pinv Ap Ai col xi ltac:(lia) G C Hxil)
    as (top & xi1 & Er & Ht & Hl1 & Hinj & Hrng & Hrch).
  unfold slip_ref_triangular_solve. rewrite get_rd by lia. cbn [bind]. fold col. rewrite Er. cbn [bind].
  (* map through pinv *)
  pose proof (p_l1 HP) as Hpl1. pose proof (p_l2 HP) as Hpl2.
  assert (HW1 : forall a, top <= a < n -> 0 <= rd xi1 a < zlen pinv) by (rewrite Hpl1; auto).
  pose proof (@map_range_spec xi1 pinv top n nerr Ht ltac:(lia) HW1) as HW.
  destruct (wp_ok_ex _ _ HW) as (xi2 & -> & Hl2 & Hm2 & _). clear HW. cbn [bind].
  (* sort *)
  destruct (@sort_range_spec xi2 top n Ht ltac:(lia)) as (xi3 & -> & Hl3 & Hs3 & Hset3).
  { intros a b Ha Hb. rewrite !Hm2 by lia. intros E. apply Hinj; auto.
    rewrite <- (p_c1 HP (i := rd xi1 a)), <- (p_c1 HP (i := rd xi1 b)) by auto. now rewrite E. }
  cbn [bind].
  assert (Hr3 : forall a, top <= a < n -> 0 <= rd xi3 a < n).
  { intros a Ha. destruct (proj1 (Hset3 (rd xi3 a))) as (b & Hb & <-). eauto.
    rewrite Hm2 by lia. apply (p_r1 HP). auto. }
  (* map back *)
  assert (HW2 : forall a, top <= a < n -> 0 <= rd xi3 a < zlen rowp) by (rewrite Hpl2; auto).
  pose proof (@map_range_spec xi3 rowp top n nerr Ht ltac:(lia) HW2) as HW.
  destruct (wp_ok_ex _ _ HW) as (xi4 & -> & Hl4 & Hm4 & _). clear HW. cbn [bind].
  assert (Hr4 : forall a, top <= a < n -> 0 <= rd xi4 a < n).
  { intros a Ha. rewrite Hm4 by lia. apply (p_r2 HP). auto. }
  assert (Hp4 : forall a, top <= a < n -> rd pinv (rd xi4 a) = rd xi3 a).
  { intros a Ha. rewrite Hm4 by lia. apply (p_c2 HP). auto. }
  assert (Hs4 : forall a b, top <= a < b -> b < n -> rd pinv (rd xi4 a) < rd pinv (rd xi4 b)).
  { intros a b Ha Hb. rewrite !Hp4 by lia. apply Hs3; auto. }
  assert (Hset4 : forall i, inpat top n xi4 i <-> inpat top n xi1 i).
  { intros i. split.
    - intros (a & Ha & <-). destruct (proj1 (Hset3 (rd xi3 a))) as (b & Hb & Hbe). eauto.
      exists b. split; auto. rewrite Hm4, <- Hbe, Hm2 by lia. symmetry. apply (p_c1 HP). auto.
    - intros (a & Ha & <-). destruct (proj2 (Hset3 (rd xi2 a))) as (b & Hb & Hbe). eauto.
      exists b. split; auto. rewrite Hm4, Hbe, Hm2 by lia. apply (p_c1 HP). auto. }
  assert (Hpat : forall i, reachable Lp Li pinv Ap Ai col i <-> inpat top n xi4 i).
  { intros i. rewrite Hset4. apply Hrch. }
  (* fills *)
  destruct (wp_ok_ex _ _ (@fill_spec xi4 x 0 top n n nerr Ht ltac:(lia) Hxl Hr4)) as (x1 & -> & Hlx1 & Hx1 & _). cbn [bind].
  rewrite set_wr by lia. cbn [bind].
  destruct (wp_ok_ex _ _ (@fill_spec xi4 h (-1) top n n nerr Ht ltac:(lia) Hhl Hr4)) as (h1 & -> & Hlh1 & Hh1 & _). cbn [bind].
  rewrite !get_rd by lia. cbn [bind].
  destruct (wp_ok_ex _ _ (@scatter_spec n Ap Ai Ax col (wr x1 col 0) nerr V Hcol ltac:(rewrite zlen_wr; auto))) as (x2 & -> & Hlx2 & Hx2 & Hx2o).
  cbn [bind].
  assert (HMz : forall i, 0 <= i < n -> inpat top n xi4 i \/ i = col -> rd x2 i = M i k).
  { intros i Hi Hp. unfold M, colmat. fold col.
    destruct (in_dec Z.eq_dec i (map (rd Ai) (zseq (rd Ap col) (rd Ap (col + 1))))) as [Hin|Hout].
    - apply in_map_iff in Hin. destruct Hin as (p & <- & Hpp). apply in_zseq in Hpp.
      rewrite Hx2 by auto. symmetry. apply (ent_valid V); auto.
    - assert (Hne : forall p, rd Ap col <= p < rd Ap (col + 1) -> rd Ai p <> i).
      { intros p Hpp E. apply Hout. apply in_map_iff. exists p. split; auto. now apply in_zseq. }
      rewrite Hx2o by auto. rewrite ent_none by auto. rewrite rd_wr by lia. destruct (Z.eqb_spec i col); auto.
      destruct Hp as [(a & Ha & <-)|]; [|contradiction]. apply Hx1; auto. }
  assert (HcA : forall i, 0 <= i < n -> M i k <> 0 -> inpat top n xi4 i).
  { intros i Hi Hm. apply Hpat. unfold M, colmat in Hm. fold col in Hm.
    destruct (in_dec Z.eq_dec i (map (rd Ai) (zseq (rd Ap col) (rd Ap (col + 1))))) as [Hin|Hout].
    - apply in_map_iff in Hin. destruct Hin as (p & <- & Hpp). apply in_zseq in Hpp. apply reach_start; auto.
    - exfalso. apply Hm. apply ent_none. intros p Hpp E. apply Hout. apply in_map_iff. exists p. split; auto. now apply in_zseq. }
  assert (HcL : forall j i, inpat top n xi4 j -> edge Lp Li pinv j i -> inpat top n xi4 i).
  { intros j i Hj He. apply Hpat. apply Hpat in Hj. eapply reach_step; eauto. }
  pose proof (@tri_loop_spec M n k Lp Li Lx rhos pinv rowp lnz Hk HP HL Hrl Hrho top xi4 Ht ltac:(lia) Hr4 Hs4 HcA HcL x2 h1 nerr Hlx2 Hlh1) as HT.
  assert (HT0 : forall a, top <= a < n -> rd x2 (rd xi4 a) = M (rd xi4 a) k /\ rd h1 (rd xi4 a) = -1).
  { intros a Ha; split; [apply HMz; [auto|left; exists a; auto]|auto]. }
  destruct (wp_ok_ex _ _ (HT HT0)) as ([x3 h3] & -> & B1 & B2 & B3 & B4).
  clear HT. cbn [bind].
  pose proof (@outside_zero M n k Lp Li Lx rhos pinv rowp lnz Hk HP HL Hrho top xi4 HcA HcL) as HO.
  exists top, xi4, x3, h3. split; [reflexivity|]. split; [lia|]. split; [lia|]. split; [auto|]. split; [auto|].
  split; [auto|]. split; [auto|]. split; [auto|].
  assert (Hin : forall i, 0 <= i < n -> inpat top n xi4 i -> rd x3 i = bm M R (Z.min k (rd pinv i)) i k).
  { intros i Hi (a & Ha & <-). apply B3; auto. }
  split; [|split; auto].
  intros i Hi Hor Hge.
  destruct (@inP_dec n top xi4 i) as [Hip|Hnp].
  - rewrite Hin by auto. f_equal. lia.
  - destruct Hor as [|He]; [contradiction|]. rewrite B4 by auto. rewrite HMz by auto.
    pose proof (HO i Hi Hnp k) as Hk0. fold R in Hk0. rewrite Hk0 by lia. pose proof (HO i Hi Hnp 0) as H0. rewrite bm_0 in H0. apply H0; lia.
Qed.
