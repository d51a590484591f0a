(* Loop specifications for the kind conversions of SLIP_matrix_copy and for slip_cumsum, generic in the type of values. *)
From Verif Require Import Base DetZ Spec SumQ MSolve PSolve MMatrix PApi.
Set Implicit Arguments.
Open Scope Z_scope.

(*----------------------------------------------------------------------------*)
(* counting *)
Definition cnt (f : Z -> bool) (k : Z) : Z := zlen (filter f (zseq 0 k)).
Lemma cnt_0 f : cnt f 0 = 0.
Proof. reflexivity. Qed.
Lemma cnt_S f k : 0 <= k -> cnt f (k + 1) = cnt f k + if f k then 1 else 0.
Proof.
  intros. unfold cnt. rewrite zseq_snoc, filter_app, zlen_app by lia. simpl. destruct (f k); unfold zlen; simpl; lia.
Qed.
Lemma cnt_mono f a b : 0 <= a <= b -> cnt f a <= cnt f b.
Proof.
  intros [Ha Hb]. replace b with (a + Z.of_nat (Z.to_nat (b - a))) by lia. induction (Z.to_nat (b - a)) as [|c IH].
  - rewrite Z.add_0_r. lia.
  - replace (a + Z.of_nat (S c)) with (a + Z.of_nat c + 1) by lia. rewrite cnt_S by lia. destruct (f (a + Z.of_nat c)); lia.
Qed.
Lemma cnt_lt f k n : 0 <= k < n -> f k = true -> cnt f k < cnt f n.
Proof. intros Hk Hf. pose proof (@cnt_mono f (k + 1) n ltac:(lia)). rewrite cnt_S, Hf in H by lia. lia. Qed.
Lemma cnt_nonneg f k : 0 <= cnt f k.
Proof. apply zlen_nonneg. Qed.
Lemma cnt_le f k : 0 <= k -> cnt f k <= k.
Proof.
  intros Hk. rewrite <- (Z2Nat.id k) by auto. induction (Z.to_nat k) as [|c IH]. simpl. rewrite cnt_0. lia.
  replace (Z.of_nat (S c)) with (Z.of_nat c + 1) by lia. rewrite cnt_S by lia. destruct (f (Z.of_nat c)); lia.
Qed.
Lemma cnt_all f k : 0 <= k -> cnt f k = k -> forall i, 0 <= i < k -> f i = true.
Proof.
  intros Hk E i Hi. destruct (f i) eqn:Ef; auto. exfalso.
  assert (cnt f (i + 1) <= i). { rewrite cnt_S, Ef by lia. pose proof (@cnt_le f i ltac:(lia)). lia. }
  assert (G : forall c, i + 1 + Z.of_nat c <= k -> cnt f (i + 1 + Z.of_nat c) < i + 1 + Z.of_nat c).
  { induction c as [|c IHc]; intros Hc. { simpl Z.of_nat. rewrite Z.add_0_r. lia. }
    replace (i + 1 + Z.of_nat (S c)) with (i + 1 + Z.of_nat c + 1) in * by lia.
    rewrite cnt_S by lia. specialize (IHc ltac:(lia)). destruct (f (i + 1 + Z.of_nat c)); lia. }
  specialize (G (Z.to_nat (k - (i + 1))) ltac:(lia)). replace (i + 1 + Z.of_nat (Z.to_nat (k - (i + 1)))) with k in G by lia. lia.
Qed.
Lemma cnt_full f k : 0 <= k -> (forall i, 0 <= i < k -> f i = true) -> cnt f k = k.
Proof.
  intros Hk H.
  assert (G : forall c, Z.of_nat c <= k -> cnt f (Z.of_nat c) = Z.of_nat c).
  { induction c as [|c IHc]; intros Hc. reflexivity. replace (Z.of_nat (S c)) with (Z.of_nat c + 1) in * by lia.
    rewrite cnt_S, IHc, H by lia. reflexivity. }
  specialize (G (Z.to_nat k)). rewrite Z2Nat.id in G by auto. apply G. lia.
Qed.

(* prefix sums *)
Definition psum (g : Z -> Z) (k : Z) : Z := fold_right Z.add 0 (map g (zseq 0 k)).
Lemma psum_0 g : psum g 0 = 0.
Proof. reflexivity. Qed.
Lemma psum_S g k : 0 <= k -> psum g (k + 1) = psum g k + g k.
Proof.
  intros. unfold psum. rewrite zseq_snoc, map_app by lia. simpl.
  generalize (map g (zseq 0 k)). induction l; simpl; lia.
Qed.
Lemma psum_ext g h k : (forall i, 0 <= i < k -> g i = h i) -> psum g k = psum h k.
Proof. intros H. unfold psum. f_equal. apply map_ext_in. intros i Hi. apply in_zseq in Hi. auto. Qed.
Lemma psum_mono g a b : (forall i, 0 <= g i) -> 0 <= a <= b -> psum g a <= psum g b.
Proof.
  intros Hg [Ha Hb]. replace b with (a + Z.of_nat (Z.to_nat (b - a))) by lia. induction (Z.to_nat (b - a)) as [|c IH].
  - rewrite Z.add_0_r. lia.
  - replace (a + Z.of_nat (S c)) with (a + Z.of_nat c + 1) by lia. rewrite psum_S by lia. specialize (Hg (a + Z.of_nat c)). lia.
Qed.

(* slip_cumsum *)
Lemma cumsum_spec p c n E : 0 <= n -> n + 1 <= zlen p -> n <= zlen c ->
  wp (slip_cumsum (Some p) (Some c) n) (fun '(p', c') =>
    zlen p' = zlen p /\ zlen c' = zlen c /\
    (forall i, 0 <= i <= n -> rd p' i = psum (rd c) i) /\ (forall i, 0 <= i < n -> rd c' i = psum (rd c) i) /\
    (forall i, n < i < zlen p -> rd p' i = rd p i) /\ (forall i, n <= i < zlen c -> rd c' i = rd c i)) E.
Proof.
  intros Hn Hp Hc. unfold slip_cumsum. apply wp_bind. eapply wp_conseq.
  - apply wp_for with (I := fun k '(p', c', nz) => zlen p' = zlen p /\ zlen c' = zlen c /\ nz = psum (rd c) k /\
      (forall i, 0 <= i < k -> rd p' i = psum (rd c) i) /\ (forall i, 0 <= i < k -> rd c' i = psum (rd c) i) /\
      (forall i, k <= i < zlen p -> rd p' i = rd p i) /\ (forall i, k <= i < zlen c -> rd c' i = rd c i)); auto.
    + repeat split; auto; intros; lia.
    + intros k [[p' c'] nz] Hk (L1 & L2 & Hz & H1 & H2 & H3 & H4).
      rewrite set_wr by lia. cbn [bind]. rewrite get_rd by lia. cbn [bind]. rewrite get_rd by (rewrite zlen_wr; lia). cbn [bind].
      rewrite rd_wr_eq by lia. rewrite set_wr by lia. cbn [bind]. simpl. rewrite !zlen_wr. repeat split; auto.
      * rewrite psum_S by lia. rewrite H4 by lia. lia.
      * intros i Hi. rewrite rd_wr by lia. destruct (Z.eqb_spec i k); subst; auto. apply H1; lia.
      * intros i Hi. rewrite rd_wr by lia. destruct (Z.eqb_spec i k); subst; auto. apply H2; lia.
      * intros i Hi. rewrite rd_wr by lia. destruct (Z.eqb_spec i k); try lia. apply H3; lia.
      * intros i Hi. rewrite rd_wr by lia. destruct (Z.eqb_spec i k); try lia. apply H4; lia.
  - intros [[p' c'] nz] (L1 & L2 & Hz & H1 & H2 & H3 & H4). rewrite set_wr by lia. simpl. rewrite zlen_wr. repeat split; auto.
    + intros i Hi. rewrite rd_wr by lia. destruct (Z.eqb_spec i n); subst; auto. apply H1; lia.
    + intros i Hi. rewrite rd_wr by lia. destruct (Z.eqb_spec i n); try lia. apply H3; lia.
Qed.

Section Gen.
Variable T : Type.
Variable d : T.
Variable set1 : T -> T.

(* the (row, value) pairs stored in positions a .. b-1 *)
Definition seg (Ci : list Z) (Cx : list T) (a b : Z) : list (Z * T) := map (fun p => (rd Ci p, rdg d Cx p)) (zseq a b).

Lemma seg_ext Ci Ci' Cx Cx' a b : (forall p, a <= p < b -> rd Ci p = rd Ci' p /\ rdg d Cx p = rdg d Cx' p) -> seg Ci Cx a b = seg Ci' Cx' a b.
Proof. intros H. apply map_ext_in. intros p Hp. apply in_zseq in Hp. destruct (H p Hp) as [-> ->]. reflexivity. Qed.
Lemma seg_snoc Ci Cx a b : a <= b -> seg Ci Cx a (b + 1) = seg Ci Cx a b ++ [(rd Ci b, rdg d Cx b)].
Proof. intros. unfold seg. rewrite zseq_snoc, map_app by lia. reflexivity. Qed.
Lemma seg_nil Ci Cx a : seg Ci Cx a a = [].
Proof. unfold seg. rewrite zseq_nil by lia. reflexivity. Qed.

(*----------------------------------------------------------------------------*)
(* triplet to CSC *)
Lemma count_loop n nz Tj E : 0 <= nz <= zlen Tj -> 0 <= n -> (forall k, 0 <= k < nz -> 0 <= rd Tj k < n) ->
  wp (for_ 0 nz (fun k W => let* j := get Tj k in let* w := get W j in set W j (w + 1)) (mk n 0))
     (fun W => zlen W = n /\ forall c, 0 <= c < n -> rd W c = cnt (fun k => rd Tj k =? c) nz) E.
Proof.
  intros Hz Hn Hj.
  apply wp_for with (I := fun k W => zlen W = n /\ forall c, 0 <= c < n -> rd W c = cnt (fun k => rd Tj k =? c) k); try lia.
  - split. apply zlen_mk; lia. intros c Hc. rewrite rd_mk0. reflexivity.
  - intros k W Hk (H1 & H2). specialize (Hj k Hk). rewrite get_rd by lia. cbn [bind]. rewrite get_rd by lia. cbn [bind].
    rewrite set_wr by lia. simpl. rewrite zlen_wr. split; auto. intros c Hc. rewrite rd_wr by lia. rewrite cnt_S by lia.
    rewrite Z.eqb_sym. destruct (Z.eqb_spec (rd Tj k) c); subst; rewrite H2 by lia; lia.
Qed.

Lemma trip_to_csc_spec n nz Ti Tj Y Cp Ci Cx E : 0 <= n -> 0 <= nz -> nz <= zlen Ti -> nz <= zlen Tj -> nz <= zlen Y ->
  (forall k, 0 <= k < nz -> 0 <= rd Tj k < n) -> n + 1 = zlen Cp -> nz <= zlen Ci -> nz <= zlen Cx ->
  wp (trip_to_csc set1 n nz Ti Tj Y Cp Ci Cx) (fun '(Cp', Ci', Cx') =>
    zlen Cp' = zlen Cp /\ zlen Ci' = zlen Ci /\ zlen Cx' = zlen Cx /\ rd Cp' 0 = 0 /\ rd Cp' n = nz /\
    (forall c, 0 <= c < n -> rd Cp' c <= rd Cp' (c + 1)) /\
    forall c, 0 <= c < n -> seg Ci' Cx' (rd Cp' c) (rd Cp' (c + 1)) =
      map (fun k => (rd Ti k, set1 (rdg d Y k))) (filter (fun k => rd Tj k =? c) (zseq 0 nz))) E.
Proof.
  intros Hn Hz HTi HTj HY Hj HCp HCi HCx. unfold trip_to_csc.
  apply wp_bind. eapply wp_conseq. apply (@count_loop n nz Tj); auto.
  intros W (W1 & W2). apply wp_bind. eapply wp_conseq. apply cumsum_spec; lia.
  intros [P V] (P1 & P2 & P3 & P4 & _). cbn [bind].
  set (cn := fun c => cnt (fun k => rd Tj k =? c)).
  assert (HP : forall i, 0 <= i <= n -> rd P i = psum (fun c => cn c nz) i).
  { intros i Hi. rewrite P3 by auto. apply psum_ext. intros c Hc. apply W2. lia. }
  assert (HPS : forall c, 0 <= c < n -> rd P (c + 1) = rd P c + cn c nz).
  { intros c Hc. rewrite !HP by lia. rewrite psum_S by lia. reflexivity. }
  assert (HPm : forall a b, 0 <= a <= b -> b <= n -> rd P a <= rd P b).
  { intros a b Hab Hb. rewrite !HP by lia. apply psum_mono; auto. intros; apply cnt_nonneg. }
  assert (HPn : rd P n = nz).
  { rewrite HP by lia.
    assert (G : forall k, 0 <= k <= nz -> psum (fun c => cn c k) n = k).
    { intros k Hk. rewrite <- (Z2Nat.id k) in * by lia. induction (Z.to_nat k) as [|q IH].
      - simpl. unfold cn. rewrite (@psum_ext _ (fun _ => 0)) by reflexivity. rewrite <- (Z2Nat.id n) by auto.
        induction (Z.to_nat n) as [|r IHr]; auto. replace (Z.of_nat (S r)) with (Z.of_nat r + 1) by lia. rewrite psum_S; lia.
      - replace (Z.of_nat (S q)) with (Z.of_nat q + 1) in * by lia.
        rewrite (@psum_ext _ (fun c => cn c (Z.of_nat q) + (if rd Tj (Z.of_nat q) =? c then 1 else 0))) by (intros; unfold cn; rewrite cnt_S; auto; lia).
        specialize (IH ltac:(lia)).
        assert (G : forall (f : Z -> Z) t r, 0 <= t -> psum (fun c => f c + (if t =? c then 1 else 0)) (Z.of_nat r) = psum f (Z.of_nat r) + if t <? Z.of_nat r then 1 else 0).
        { intros f t r Ht. induction r. simpl. destruct (Z.ltb_spec t 0); try lia. rewrite !psum_0; lia.
          replace (Z.of_nat (S r)) with (Z.of_nat r + 1) by lia. rewrite !psum_S, IHr by lia.
          destruct (Z.ltb_spec t (Z.of_nat r)), (Z.ltb_spec t (Z.of_nat r + 1)), (Z.eqb_spec t (Z.of_nat r)); lia. }
        specialize (Hj (Z.of_nat q) ltac:(lia)). rewrite <- (Z2Nat.id n) by auto. rewrite G by lia. rewrite Z2Nat.id by auto. rewrite IH.
        destruct (Z.ltb_spec (rd Tj (Z.of_nat q)) n); lia. }
    apply G. lia. }
  apply wp_bind. eapply wp_conseq.
  - apply wp_for with (I := fun k '(W, Ci', Cx') => zlen W = n /\ zlen Ci' = zlen Ci /\ zlen Cx' = zlen Cx /\
      (forall c, 0 <= c < n -> rd W c = rd P c + cn c k) /\
      (forall c, 0 <= c < n -> seg Ci' Cx' (rd P c) (rd P c + cn c k) =
         map (fun k => (rd Ti k, set1 (rdg d Y k))) (filter (fun k => rd Tj k =? c) (zseq 0 k)))); auto.
    + split. lia. split; auto. split; auto. split.
      * intros c Hc. rewrite P4 by lia. unfold cn. rewrite cnt_0, <- P3 by lia. lia.
      * intros c Hc. unfold cn. rewrite cnt_0, Z.add_0_r, seg_nil. reflexivity.
    + intros k [[W' Ci'] Cx'] Hk (G1 & G2 & G3 & G4 & G5). specialize (Hj k Hk). set (j := rd Tj k) in *.
      rewrite get_rd by lia. cbn [bind]. fold j. rewrite (get_rd W') by lia. cbn [bind]. rewrite set_wr by lia. cbn [bind].
      rewrite (get_rd Ti) by lia. cbn [bind].
      assert (Hpos : rd P j <= rd W' j < rd P (j + 1)).
      { rewrite G4, HPS by lia. pose proof (@cnt_lt (fun k => rd Tj k =? j) k nz ltac:(lia) ltac:(apply Z.eqb_refl)).
        pose proof (cnt_nonneg (fun k => rd Tj k =? j) k). unfold cn. lia. }
      assert (0 <= rd W' j < nz).
      { pose proof (HPm 0 j ltac:(lia) ltac:(lia)). pose proof (HPm (j + 1) n ltac:(lia) ltac:(lia)). rewrite (HP 0), psum_0 in * by lia. lia. }
      rewrite set_wr by lia. cbn [bind]. rewrite (get_rdg d Y) by lia. cbn [bind]. rewrite set_wrg by lia. simpl.
      rewrite !zlen_wr, zlen_wrg. split; auto. split; auto. split; auto. split.
      * intros c Hc. rewrite rd_wr by lia. unfold cn. rewrite cnt_S by lia. fold j. rewrite Z.eqb_sym.
        destruct (Z.eqb_spec j c); subst; rewrite G4 by lia; unfold cn; lia.
      * intros c Hc. unfold cn. rewrite cnt_S by lia. fold j. rewrite zseq_snoc, filter_app, map_app by lia. simpl. fold j.
        fold (cn c). destruct (Z.eqb_spec j c).
        -- subst c. simpl. rewrite Z.add_assoc, seg_snoc by (pose proof (cnt_nonneg (fun k => rd Tj k =? j) k); unfold cn; lia). f_equal.
           ++ rewrite <- (G5 j) by lia. apply seg_ext. intros p Hp. rewrite <- G4 in Hp by lia. pose proof (HPm 0 j ltac:(lia) ltac:(lia)). rewrite (HP 0), psum_0 in * by lia.
              rewrite rd_wr_ne by lia. rewrite rdg_wrg_ne by lia. auto.
           ++ rewrite <- G4 by lia. rewrite rd_wr_eq by lia. rewrite rdg_wrg_eq by lia. reflexivity.
        -- simpl. rewrite Z.add_0_r, app_nil_r. rewrite <- G5 by auto. apply seg_ext. intros p Hp.
           assert (rd P c + cn c k <= rd P (c + 1)).
           { rewrite HPS by auto. pose proof (@cnt_mono (fun k => rd Tj k =? c) k nz ltac:(lia)). unfold cn. lia. }
           assert (p <> rd W' j).
           { destruct (Z_lt_dec c j). pose proof (HPm (c + 1) j ltac:(lia) ltac:(lia)). lia. pose proof (HPm (j + 1) c ltac:(lia) ltac:(lia)). lia. }
           pose proof (HPm 0 c ltac:(lia) ltac:(lia)). rewrite (HP 0), psum_0 in * by lia.
           rewrite rd_wr_ne by lia. rewrite rdg_wrg_ne by lia. auto.
  - intros [[W' Ci'] Cx'] (G1 & G2 & G3 & G4 & G5). simpl. split; auto. split; auto. split; auto. split.
    { rewrite HP by lia. apply psum_0. } split; auto. split.
    { intros; apply HPm; lia. }
    intros c Hc. rewrite HPS by auto. apply G5. auto.
Qed.
(*----------------------------------------------------------------------------*)
(* dense to CSC *)
Variable nzb : T -> bool.
Lemma count_nz_spec nz Y E : 0 <= nz <= zlen Y -> wp (count_nz nzb nz Y) (fun c => c = cnt (fun k => nzb (rdg d Y k)) nz) E.
Proof.
  intros H. unfold count_nz. apply wp_for with (I := fun k c => c = cnt (fun k => nzb (rdg d Y k)) k); try lia.
  reflexivity. intros k c Hk ->. rewrite (get_rdg d) by lia. simpl. rewrite cnt_S by lia. destruct (nzb (rdg d Y k)); lia.
Qed.

Lemma dense_to_csc_spec m n Y Cp Ci Cx E : 0 <= m -> 0 <= n -> m * n <= zlen Y ->
  let f := fun k => nzb (rdg d Y k) in
  n + 1 = zlen Cp -> cnt f (m * n) <= zlen Ci -> cnt f (m * n) <= zlen Cx ->
  wp (dense_to_csc nzb set1 m n Y Cp Ci Cx) (fun '(Cp', Ci', Cx') =>
    zlen Cp' = zlen Cp /\ zlen Ci' = zlen Ci /\ zlen Cx' = zlen Cx /\
    (forall c, 0 <= c <= n -> rd Cp' c = cnt f (c * m)) /\
    forall c, 0 <= c < n -> seg Ci' Cx' (rd Cp' c) (rd Cp' (c + 1)) =
      map (fun i => (i, set1 (rdg d Y (i + c * m)))) (filter (fun i => nzb (rdg d Y (i + c * m))) (zseq 0 m))) E.
Proof.
  intros Hm Hn HY f HCp HCi HCx. unfold dense_to_csc.
  set (tgt := fun c i => map (fun i => (i, set1 (rdg d Y (i + c * m)))) (filter (fun i => nzb (rdg d Y (i + c * m))) (zseq 0 i))).
  set (OI := fun j '(Cp', Ci', Cx', nz) => zlen Cp' = zlen Cp /\ zlen Ci' = zlen Ci /\ zlen Cx' = zlen Cx /\ nz = cnt f (j * m) /\
      (forall c, 0 <= c < j -> rd Cp' c = cnt f (c * m)) /\
      (forall c, 0 <= c < j -> seg Ci' Cx' (cnt f (c * m)) (cnt f ((c + 1) * m)) = tgt c m)).
  apply wp_bind. eapply wp_conseq.
  - apply wp_for with (I := OI); auto.
    + repeat split; auto; intros; lia.
    + intros j [[[P I] X] nz] Hj (G1 & G2 & G3 & G4 & G5 & G6). rewrite set_wr by lia. cbn [bind].
      eapply wp_conseq.
      * apply wp_for with (I := fun i '(P', I', X', nz) => P' = wr P j (cnt f (j * m)) /\ zlen I' = zlen Ci /\ zlen X' = zlen Cx /\
          nz = cnt f (i + j * m) /\
          (forall c, 0 <= c < j -> seg I' X' (cnt f (c * m)) (cnt f ((c + 1) * m)) = tgt c m) /\
          seg I' X' (cnt f (j * m)) nz = tgt j i); auto.
        -- subst nz. repeat split; auto. rewrite seg_nil. reflexivity.
        -- intros i [[[P' I'] X'] nz'] Hi (K1 & K2 & K3 & K4 & K5 & K6).
           assert (Hb : i + j * m < m * n) by nia.
           rewrite (get_rdg d) by nia. cbn [bind]. subst nz'.
           replace (i + 1 + j * m) with (i + j * m + 1) by lia. rewrite cnt_S by nia.
           pose proof (@cnt_mono f (j * m) (i + j * m) ltac:(nia)) as Hmono.
           pose proof (cnt_nonneg f (j * m)) as Hnn.
           assert (Ht : tgt j (i + 1) = tgt j i ++ if nzb (rdg d Y (i + j * m)) then [(i, set1 (rdg d Y (i + j * m)))] else []).
           { unfold tgt. rewrite zseq_snoc, filter_app, map_app by lia. simpl. destruct (nzb (rdg d Y (i + j * m))); reflexivity. }
           rewrite Ht. destruct (nzb (rdg d Y (i + j * m))) eqn:En.
           ++ pose proof (@cnt_lt f (i + j * m) (m * n) ltac:(nia) En) as Hlt.
              rewrite set_wr by lia. cbn [bind]. rewrite set_wrg by lia. simpl. rewrite zlen_wr, zlen_wrg.
              split; [auto|]. split; [auto|]. split; [auto|]. split; [unfold f; rewrite ?En; reflexivity|]. split.
              ** intros c Hc. rewrite <- K5 by auto. pose proof (@cnt_mono f ((c + 1) * m) (j * m) ltac:(nia)). pose proof (cnt_nonneg f (c * m)).
                 apply seg_ext. intros p Hp. rewrite rd_wr_ne by lia. rewrite rdg_wrg_ne by lia. auto.
              ** rewrite seg_snoc by lia. f_equal.
                 --- rewrite <- K6. apply seg_ext. intros p Hp. rewrite rd_wr_ne by lia. rewrite rdg_wrg_ne by lia. auto.
                 --- rewrite rd_wr_eq by lia. rewrite rdg_wrg_eq by lia. reflexivity.
           ++ simpl. rewrite app_nil_r. split; [auto|]. split; [auto|]. split; [auto|]. split; [unfold f; rewrite ?En; lia|]. split; auto.
      * intros [[[P' I'] X'] nz'] (K1 & K2 & K3 & K4 & K5 & K6). replace (m + j * m) with ((j + 1) * m) in K4 by lia.
        subst P'. simpl. rewrite zlen_wr. repeat split; auto.
        -- intros c Hc. rewrite rd_wr by lia. destruct (Z.eqb_spec c j); subst; auto. apply G5; lia.
        -- intros c Hc. destruct (Z.eq_dec c j). subst; auto. apply K5; lia.
  - intros [[[P I] X] nz] (G1 & G2 & G3 & G4 & G5 & G6). rewrite set_wr by lia. simpl. rewrite zlen_wr.
    assert (HP : forall c, 0 <= c <= n -> rd (wr P n nz) c = cnt f (c * m)).
    { intros c Hc. rewrite rd_wr by lia. destruct (Z.eqb_spec c n); subst; auto. apply G5; lia. }
    repeat split; auto. intros c Hc. rewrite !HP by lia. apply G6; auto.
Qed.

(*----------------------------------------------------------------------------*)
(* CSC to triplet: column indices *)
Lemma csc_to_cols_spec n Ap Cj E : 0 <= n -> n + 1 <= zlen Ap -> rd Ap 0 = 0 ->
  (forall a b, 0 <= a <= b -> b <= n -> rd Ap a <= rd Ap b) -> rd Ap n <= zlen Cj ->
  wp (csc_to_cols n Ap Cj) (fun Cj' => zlen Cj' = zlen Cj /\ forall c p, 0 <= c < n -> rd Ap c <= p < rd Ap (c + 1) -> rd Cj' p = c) E.
Proof.
  intros Hn HA H0 Hm HC. unfold csc_to_cols.
  apply wp_for with (I := fun j Cj' => zlen Cj' = zlen Cj /\ forall c p, 0 <= c < j -> rd Ap c <= p < rd Ap (c + 1) -> rd Cj' p = c); auto.
  - split; auto. intros; lia.
  - intros j C' Hj (G1 & G2). rewrite get_rd by lia. cbn [bind]. rewrite get_rd by lia. cbn [bind].
    pose proof (Hm 0 j ltac:(lia) ltac:(lia)). pose proof (Hm (j + 1) n ltac:(lia) ltac:(lia)).
    eapply wp_conseq.
    + apply wp_for with (I := fun q C'' => zlen C'' = zlen Cj /\ (forall p, 0 <= p < rd Ap j -> rd C'' p = rd C' p) /\
         forall p, rd Ap j <= p < q -> rd C'' p = j).
      * apply Hm; lia.
      * repeat split; auto. intros; lia.
      * intros q C'' Hq (K1 & K2 & K3). rewrite set_wr by lia. simpl. rewrite zlen_wr. repeat split; auto.
        -- intros p Hp. rewrite rd_wr_ne by lia. auto.
        -- intros p Hp. rewrite rd_wr by lia. destruct (Z.eqb_spec p q); auto. apply K3; lia.
    + intros C'' (K1 & K2 & K3). split; auto. intros c p Hc Hp. destruct (Z.eq_dec c j). subst; auto.
      pose proof (Hm 0 c ltac:(lia) ltac:(lia)). pose proof (Hm (c + 1) j ltac:(lia) ltac:(lia)). rewrite K2 by lia. apply G2; lia.
Qed.

(*----------------------------------------------------------------------------*)
(* to dense: the last entry stored at a position wins *)
Lemma trip_to_dense_spec m n nz Ti Tj Y Cx E : 0 <= m -> 0 <= n -> 0 <= nz -> nz <= zlen Ti -> nz <= zlen Tj -> nz <= zlen Y ->
  (forall k, 0 <= k < nz -> 0 <= rd Ti k < m) -> (forall k, 0 <= k < nz -> 0 <= rd Tj k < n) -> m * n <= zlen Cx ->
  wp (trip_to_dense set1 m nz Ti Tj Y Cx) (fun Cx' => zlen Cx' = zlen Cx /\
    (forall k, 0 <= k < nz -> (forall k', k < k' < nz -> ~ (rd Ti k' = rd Ti k /\ rd Tj k' = rd Tj k)) ->
       rdg d Cx' (ix m (rd Ti k) (rd Tj k)) = set1 (rdg d Y k)) /\
    (forall i j, 0 <= i < m -> 0 <= j < n -> (forall k, 0 <= k < nz -> ~ (rd Ti k = i /\ rd Tj k = j)) ->
       rdg d Cx' (ix m i j) = rdg d Cx (ix m i j))) E.
Proof.
  intros Hm Hn Hz HTi HTj HY Hi Hj HC. unfold trip_to_dense.
  apply wp_for with (I := fun q Cx' => zlen Cx' = zlen Cx /\
    (forall k, 0 <= k < q -> (forall k', k < k' < q -> ~ (rd Ti k' = rd Ti k /\ rd Tj k' = rd Tj k)) ->
       rdg d Cx' (ix m (rd Ti k) (rd Tj k)) = set1 (rdg d Y k)) /\
    (forall i j, 0 <= i < m -> 0 <= j < n -> (forall k, 0 <= k < q -> ~ (rd Ti k = i /\ rd Tj k = j)) ->
       rdg d Cx' (ix m i j) = rdg d Cx (ix m i j))); auto.
  - split; auto. split; auto. intros; lia.
  - intros q C' Hq (G1 & G2 & G3). rewrite (get_rd Ti) by lia. cbn [bind]. rewrite (get_rd Tj) by lia. cbn [bind].
    rewrite (get_rdg d) by lia. cbn [bind]. pose proof (Hi q Hq). pose proof (Hj q Hq).
    pose proof (@ix_range m n (rd Ti q) (rd Tj q) ltac:(lia) ltac:(lia)).
    rewrite set_wrg by lia. simpl. rewrite zlen_wrg. split; auto. split.
    + intros k Hk Hu. specialize (Hi k ltac:(lia)). specialize (Hj k ltac:(lia)).
      pose proof (@ix_range m n (rd Ti k) (rd Tj k) ltac:(lia) ltac:(lia)).
      rewrite rdg_wrg by lia. destruct (Z.eqb_spec (ix m (rd Ti k) (rd Tj k)) (ix m (rd Ti q) (rd Tj q))) as [Ee|Ee].
      * apply ix_inj in Ee; try lia. destruct (Z.eq_dec k q). now subst. exfalso. apply (Hu q). lia. destruct Ee; split; congruence.
      * apply G2. destruct (Z.eq_dec k q). now subst. lia. intros k' Hk'. apply Hu. lia.
    + intros i j Hi' Hj' Hu. pose proof (@ix_range m n i j ltac:(lia) ltac:(lia)).
      rewrite rdg_wrg by lia. destruct (Z.eqb_spec (ix m i j) (ix m (rd Ti q) (rd Tj q))) as [Ee|Ee].
      * apply ix_inj in Ee; try lia. exfalso. apply (Hu q). lia. destruct Ee; split; congruence.
      * apply G3; auto. intros k Hk. apply Hu. lia.
Qed.

Lemma csc_to_dense_spec m n Ap Ai Y Cx E : 0 <= m -> 0 <= n -> n + 1 <= zlen Ap -> rd Ap 0 = 0 ->
  (forall a b, 0 <= a <= b -> b <= n -> rd Ap a <= rd Ap b) -> rd Ap n <= zlen Ai -> rd Ap n <= zlen Y ->
  (forall p, 0 <= p < rd Ap n -> 0 <= rd Ai p < m) -> m * n <= zlen Cx ->
  wp (csc_to_dense set1 m n Ap Ai Y Cx) (fun Cx' => zlen Cx' = zlen Cx /\
    (forall c p, 0 <= c < n -> rd Ap c <= p < rd Ap (c + 1) -> (forall p', p < p' < rd Ap (c + 1) -> rd Ai p' <> rd Ai p) ->
       rdg d Cx' (ix m (rd Ai p) c) = set1 (rdg d Y p)) /\
    (forall i c, 0 <= i < m -> 0 <= c < n -> (forall p, rd Ap c <= p < rd Ap (c + 1) -> rd Ai p <> i) ->
       rdg d Cx' (ix m i c) = rdg d Cx (ix m i c))) E.
Proof.
  intros Hm Hn HA H0 Hmono HAi HY Hi HC. unfold csc_to_dense.
  set (OI := fun j Cx' => zlen Cx' = zlen Cx /\
    (forall c p, 0 <= c < j -> rd Ap c <= p < rd Ap (c + 1) -> (forall p', p < p' < rd Ap (c + 1) -> rd Ai p' <> rd Ai p) ->
       rdg d Cx' (ix m (rd Ai p) c) = set1 (rdg d Y p)) /\
    (forall i c, 0 <= i < m -> 0 <= c < n -> (forall p, c < j -> rd Ap c <= p < rd Ap (c + 1) -> rd Ai p <> i) ->
       rdg d Cx' (ix m i c) = rdg d Cx (ix m i c))).
  eapply wp_conseq.
  - apply wp_for with (I := OI); auto.
    + repeat split; auto. intros; lia.
    + intros j C1 Hj (G1 & G2 & G3). rewrite (get_rd Ap) by lia. cbn [bind]. rewrite (get_rd Ap) by lia. cbn [bind].
      pose proof (Hmono 0 j ltac:(lia) ltac:(lia)). pose proof (Hmono (j + 1) n ltac:(lia) ltac:(lia)).
      eapply wp_conseq.
      * apply wp_for with (I := fun q C2 => zlen C2 = zlen Cx /\
          (forall i c, 0 <= i < m -> 0 <= c < n -> c <> j -> rdg d C2 (ix m i c) = rdg d C1 (ix m i c)) /\
          (forall p, rd Ap j <= p < q -> (forall p', p < p' < q -> rd Ai p' <> rd Ai p) -> rdg d C2 (ix m (rd Ai p) j) = set1 (rdg d Y p)) /\
          (forall i, 0 <= i < m -> (forall p, rd Ap j <= p < q -> rd Ai p <> i) -> rdg d C2 (ix m i j) = rdg d C1 (ix m i j))).
        -- apply Hmono; lia.
        -- repeat split; auto. intros; lia.
        -- intros q C2 Hq (K1 & K2 & K3 & K4). rewrite (get_rd Ai) by lia. cbn [bind]. rewrite (get_rdg d) by lia. cbn [bind].
           pose proof (Hi q ltac:(lia)) as Hq'. pose proof (@ix_range m n (rd Ai q) j ltac:(lia) ltac:(lia)).
           rewrite set_wrg by lia. simpl. rewrite zlen_wrg. split; auto. split; [|split].
           ++ intros i c Hi' Hc Hne. pose proof (@ix_range m n i c ltac:(lia) ltac:(lia)). rewrite rdg_wrg_ne; try lia. auto.
              intros Ee. apply ix_inj in Ee; lia.
           ++ intros p Hp Hu. specialize (Hi p ltac:(lia)). pose proof (@ix_range m n (rd Ai p) j ltac:(lia) ltac:(lia)).
              rewrite rdg_wrg by lia. destruct (Z.eqb_spec (ix m (rd Ai p) j) (ix m (rd Ai q) j)) as [Ee|Ee].
              ** apply ix_inj in Ee; try lia. destruct (Z.eq_dec p q). now subst. exfalso. apply (Hu q). lia. destruct Ee; congruence.
              ** apply K3. destruct (Z.eq_dec p q). now subst. lia. intros p' Hp'. apply Hu. lia.
           ++ intros i Hi' Hu. pose proof (@ix_range m n i j ltac:(lia) ltac:(lia)).
              rewrite rdg_wrg by lia. destruct (Z.eqb_spec (ix m i j) (ix m (rd Ai q) j)) as [Ee|Ee].
              ** apply ix_inj in Ee; try lia. exfalso. apply (Hu q). lia. destruct Ee; congruence.
              ** apply K4; auto. intros p Hp. apply Hu. lia.
      * intros C2 (K1 & K2 & K3 & K4). split; auto. split.
        -- intros c p Hc Hp Hu. destruct (Z.eq_dec c j). subst; auto.
           assert (0 <= rd Ai p < m). { pose proof (Hmono 0 c ltac:(lia) ltac:(lia)). pose proof (Hmono (c + 1) n ltac:(lia) ltac:(lia)). apply Hi; lia. }
           rewrite K2 by lia. apply G2; auto. lia.
        -- intros i c Hi' Hc Hu. destruct (Z.eq_dec c j).
           ++ subst. rewrite K4; auto. apply G3; auto. intros; lia. intros p Hp. apply Hu; lia.
           ++ rewrite K2 by lia. apply G3; auto. intros p Hp Hp2. apply Hu; lia.
  - intros C' (G1 & G2 & G3). split; auto.
Qed.
End Gen.
