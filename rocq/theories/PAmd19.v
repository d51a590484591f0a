(* AMD, part 19: AMD_aat, AMD_1, AMD_valid, AMD_preprocess, AMD_order. *)
From Verif Require Import Base Det DetZ Spec MColamd MAmd PCol1 PCol3 PCol13 PAmd1 PAmd2 PAmd3 PAmd4 PAmd13 PAmd17 PAmd18.
Set Implicit Arguments.
Open Scope Z_scope.
Set Bullet Behavior "Strict Subproofs".

Definition cnt (n : Z) (D : Z -> Z -> bool) (x : Z) : Z := sumz n (fun y => b2z (D x y)).
Lemma cnt_add n D a b x : (forall x y, D x y = D y x) -> 0 <= a < n -> 0 <= b < n -> a <> b -> D a b = false -> cnt n (add D a b) x = cnt n D x + b2z (x =? a) + b2z (x =? b).
Proof.
  intros SY Ha Hb N F. assert (F' : D b a = false) by (rewrite SY; exact F). unfold cnt, add. destruct (Z.eqb_spec x a) as [->|Na].
  - rewrite (proj2 (Z.eqb_neq a b) N). cbn [b2z andb]. rewrite (@sumz_upd n _ (fun y => b2z (D a y)) b Hb); [rewrite F, Z.eqb_refl; cbn; lia|]. intros k Hk Nk. rewrite (proj2 (Z.eqb_neq k b) Nk), !Bool.orb_false_r. reflexivity.
  - destruct (Z.eqb_spec x b) as [->|Nb]; cbn [b2z andb].
    + rewrite (@sumz_upd n _ (fun y => b2z (D b y)) a Ha); [rewrite F', Z.eqb_refl; cbn; lia|]. intros k Hk Nk. rewrite (proj2 (Z.eqb_neq k a) Nk), !Bool.orb_false_r. reflexivity.
    + rewrite !Z.add_0_r. apply sumz_ext. intros k Hk. rewrite !Bool.orb_false_r. reflexivity.
Qed.
Lemma cnt_nn n D x : 0 <= cnt n D x. Proof. apply sumz_nonneg. intros. destruct (D x k); cbn; lia. Qed.
Lemma cnt_sub n D D' x : (forall y, D x y = true -> D' x y = true) -> cnt n D x <= cnt n D' x.
Proof. intros H. apply sumz_le. intros y Hy. destruct (D x y) eqn:E; [rewrite (H y E); lia|destruct (D' x y); cbn; lia]. Qed.

Section Front.
Variables (n : Z) (Ap Ai : list Z).
Hypothesis SP : spat n Ap Ai.

Theorem aat_ok Tp0 : zlen Tp0 = n -> wp (amd_aat n Ap Ai Tp0) (fun '(Len, nzaat) => exists D, (forall x y, D x y = true <-> patt n Ap Ai x y) /\ zlen Len = n /\ (forall x, 0 <= x < n -> rd Len x = cnt n D x) /\ nzaat = sumz n (rd Len)) nerr.
Proof.
  intros LT0. pose proof (sp_n SP) as Hn. unfold amd_aat. apply wp_bind.
  eapply wp_conseq; [apply (@traverse_ok _ _ n Ap Ai SP (fun D Len => zlen Len = n /\ forall x, 0 <= x < n -> rd Len x = cnt n D x))|].
  - intros D Len a b DK (L & H) (Ha & Hb & N & _) F. unfold inc. apply wp_bind. wg; [lia|]. apply wp_set; [lia|]. wg; [rewrite zlen_wr; lia|]. apply wp_set; [rewrite zlen_wr; lia|]. rewrite !zlen_wr. split; [exact L|].
    intros x Hx. rewrite (@cnt_add n D a b x (d_sym DK) Ha Hb N F). rewrite <- H by exact Hx. rewrite !rd_wr by (rewrite ?zlen_wr; lia). rewrite (proj2 (Z.eqb_neq b a)) by lia. destruct (Z.eqb_spec x b) as [->|Nb]; [rewrite (proj2 (Z.eqb_neq b a)) by lia; cbn; lia|]. destruct (Z.eqb_spec x a) as [->|Na]; cbn; lia.
  - exact LT0.
  - split; [apply zlen_mk; lia|]. intros x Hx. rewrite rd_mk by exact Hx. symmetry. apply sumz_zero. reflexivity.
  - intros Len (D & (L & H) & _ & HD). apply wp_bind. eapply wp_conseq; [apply wp_for with (I := fun k s => s = sumz k (rd Len)); [lia|reflexivity|]|].
    + intros k s Hk ->. wg; [lia|]. cbn. symmetry. apply sumz_S. lia.
    + intros s ->. cbn. exists D. auto.
Qed.

Theorem build_adj iwlen Pe0 Iw0 Tp0 Len D : zlen Pe0 = n -> zlen Iw0 = iwlen -> zlen Tp0 = n -> (forall x y, D x y = true <-> patt n Ap Ai x y) -> zlen Len = n -> (forall x, 0 <= x < n -> rd Len x = cnt n D x) -> sumz n (rd Len) + n <= iwlen ->
  wp (amd_build n Pe0 Iw0 Tp0 Ap Ai Len) (fun '(Pe, Iw, pfree) => pfree = sumz n (rd Len) /\ sgr n pfree Iw Pe Len /\ forall x y, 0 <= x < n -> (mL Iw Pe Len x y = true <-> patt n Ap Ai x y)) nerr.
Proof.
  intros LP0 LI0 LT0 HD LL HL HIW. pose proof (sp_n SP) as Hn. unfold amd_build. apply wp_bind.
  eapply wp_conseq; [apply wp_for with (I := fun j '(Pe, pfree) => zlen Pe = n /\ pfree = sumz j (rd Len) /\ forall x, 0 <= x < j -> rd Pe x = sumz x (rd Len)); [lia| |]|].
  - split; [exact LP0|]. split; [reflexivity|]. intros; lia.
  - intros j [Pe pfree] Hj (L & -> & H). ws; [lia|]. wg; [lia|]. cbn. rewrite zlen_wr. split; [exact L|]. split; [symmetry; apply sumz_S; lia|]. intros x Hx. destruct (Z.eq_dec x j) as [->|]; [apply rd_wr_eq; lia|]. rewrite rd_wr_ne by lia. apply H. lia.
  - intros [Pe pfree] (LP & -> & HP). set (nz := sumz n (rd Len)) in *.
    assert (LN : forall x, 0 <= x < n -> 0 <= rd Len x) by (intros x Hx; rewrite HL by exact Hx; apply cnt_nn).
    assert (SS : forall x, 0 <= x < n -> sumz (x + 1) (rd Len) = rd Pe x + rd Len x) by (intros x Hx; rewrite sumz_S, HP by lia; reflexivity).
    assert (PN : forall x, 0 <= x < n -> 0 <= rd Pe x /\ rd Pe x + rd Len x <= nz).
    { intros x Hx. rewrite <- SS by exact Hx. split; [rewrite HP by exact Hx; apply sumz_nonneg; intros; apply LN; lia|apply sumz_mono; [lia|intros; apply LN; lia]]. }
    assert (DIS : forall x y, 0 <= x < y -> y < n -> rd Pe x + rd Len x <= rd Pe y). { intros x y Hx Hy. rewrite <- SS, HP by lia. apply sumz_mono; [lia|intros; apply LN; lia]. }
    assert (NZ : 0 <= nz) by (apply sumz_nonneg; exact LN).
    set (J := fun (D1 : Z -> Z -> bool) '(Iw, Sp) => zlen Iw = iwlen /\ zlen Sp = n /\ (forall x, 0 <= x < n -> rd Sp x = rd Pe x + cnt n D1 x) /\ (forall x, 0 <= x < n -> injs Iw (rd Pe x) (cnt n D1 x)) /\
            (forall x y, 0 <= x < n -> memb Iw (rd Pe x) (cnt n D1 x) y = D1 x y)).
    (* one half of an edge *)
    assert (HALF : forall Iw c a b, zlen Iw = iwlen -> (forall x, 0 <= x < n -> 0 <= c x <= rd Len x) -> 0 <= a < n -> c a < rd Len a ->
       let Iw' := wr Iw (rd Pe a + c a) b in forall x, 0 <= x < n -> forall j, 0 <= j < c x -> rd Iw' (rd Pe x + j) = rd Iw (rd Pe x + j)).
    { intros Iw c a b LI HC Ha HCa Iw' x Hx j Hj. unfold Iw'. destruct (PN a Ha), (PN x Hx), (HC a Ha), (HC x Hx). apply rd_wr_ne; [lia|lia|]. destruct (Z.lt_trichotomy x a) as [Q|[->|Q]]; [pose proof (DIS x a ltac:(lia) ltac:(lia)); lia|lia|pose proof (DIS a x ltac:(lia) ltac:(lia)); lia]. }
    apply wp_bind. eapply wp_conseq; [apply (@traverse_ok _ _ n Ap Ai SP J)|].
    + intros D1 [Iw Sp] a b DK (L1 & L2 & H1 & H2 & H3) PT F. pose proof PT as (Ha & Hb & N & _). assert (F' : D1 b a = false) by (rewrite (d_sym DK); exact F).
      set (D2 := add D1 a b). pose proof (dok_add DK PT) as DK2. fold D2 in DK2.
      assert (C2 : forall x, cnt n D2 x = cnt n D1 x + b2z (x =? a) + b2z (x =? b)) by (intros x; apply cnt_add; auto; apply (d_sym DK)).
      assert (CB : forall x, 0 <= x < n -> cnt n D2 x <= rd Len x). { intros x Hx. rewrite HL by exact Hx. apply cnt_sub. intros y Y. apply HD. apply (d_sub DK2). exact Y. }
      assert (Ca : cnt n D1 a + 1 <= rd Len a) by (pose proof (CB a Ha); rewrite C2, Z.eqb_refl, (proj2 (Z.eqb_neq a b) N) in *; cbn [b2z] in *; lia).
      assert (Cb : cnt n D1 b + 1 <= rd Len b) by (pose proof (CB b Hb); rewrite C2, Z.eqb_refl, (proj2 (Z.eqb_neq b a)) in * by lia; cbn [b2z] in *; lia).
      destruct (PN a Ha) as (Pa1 & Pa2), (PN b Hb) as (Pb1 & Pb2). pose proof (cnt_nn n D1 a). pose proof (cnt_nn n D1 b).
      wg; [lia|]. rewrite (H1 a Ha). ws; [lia|]. ws; [lia|]. wg; [rewrite zlen_wr; lia|]. rewrite rd_wr_ne by lia. rewrite (H1 b Hb). ws; [rewrite zlen_wr; lia|]. ws; [rewrite zlen_wr; lia|]. cbn [wp]. unfold J. rewrite !zlen_wr.
      set (c1 := fun x => cnt n D1 x + b2z (x =? a)). set (I1 := wr Iw (rd Pe a + cnt n D1 a) b). set (I2 := wr I1 (rd Pe b + cnt n D1 b) a).
      assert (K1 : forall x, 0 <= x < n -> forall j, 0 <= j < cnt n D1 x -> rd I1 (rd Pe x + j) = rd Iw (rd Pe x + j)).
      { apply (HALF Iw (cnt n D1) a b L1); [|exact Ha|lia]. intros x Hx. split; [apply cnt_nn|]. pose proof (CB x Hx). rewrite C2 in *. destruct (x =? a), (x =? b); cbn [b2z] in *; lia. }
      assert (c1b : c1 b = cnt n D1 b) by (unfold c1; rewrite (proj2 (Z.eqb_neq b a)) by lia; cbn; lia).
      assert (K2 : forall x, 0 <= x < n -> forall j, 0 <= j < c1 x -> rd I2 (rd Pe x + j) = rd I1 (rd Pe x + j)).
      { unfold I2. rewrite <- c1b. apply (HALF I1 c1 b a); [unfold I1; rewrite zlen_wr; exact L1| |exact Hb|rewrite c1b; lia]. intros x Hx. pose proof (cnt_nn n D1 x). pose proof (CB x Hx). rewrite C2 in *. unfold c1. destruct (x =? a), (x =? b); cbn [b2z] in *; lia. }
      assert (V1 : rd I1 (rd Pe a + cnt n D1 a) = b) by (unfold I1; apply rd_wr_eq; lia). assert (V2 : rd I2 (rd Pe b + cnt n D1 b) = a) by (unfold I2, I1; apply rd_wr_eq; rewrite zlen_wr; lia).
      assert (V3 : rd I2 (rd Pe a + cnt n D1 a) = b). { rewrite K2; [exact V1|exact Ha|]. unfold c1. rewrite Z.eqb_refl. cbn. lia. }
      assert (OLD : forall x, 0 <= x < n -> forall j, 0 <= j < cnt n D1 x -> rd I2 (rd Pe x + j) = rd Iw (rd Pe x + j)). { intros x Hx j Hj. rewrite K2; [apply K1; auto|exact Hx|]. unfold c1. destruct (x =? a); cbn [b2z]; lia. }
      assert (OM : forall x y, 0 <= x < n -> memb I2 (rd Pe x) (cnt n D1 x) y = D1 x y). { intros x y Hx. rewrite <- H3 by exact Hx. apply memb_move. apply OLD. exact Hx. }
      assert (OI : forall x, 0 <= x < n -> injs I2 (rd Pe x) (cnt n D1 x)). { intros x Hx. eapply injs_move; [|apply H2; exact Hx]. intros j Hj. symmetry. apply OLD; auto. }
      split; [exact L1|]. split; [exact L2|]. split; [|split].
      * intros x Hx. rewrite C2. rewrite !rd_wr by (rewrite ?zlen_wr; lia). destruct (Z.eqb_spec x b) as [->|Nb]; [rewrite (proj2 (Z.eqb_neq b a)) by lia; cbn; lia|]. destruct (Z.eqb_spec x a) as [->|Na]; [cbn; lia|]. rewrite H1 by exact Hx. cbn. lia.
      * intros x Hx. rewrite C2. destruct (Z.eqb_spec x a) as [->|Na]; [|destruct (Z.eqb_spec x b) as [->|Nb]]; cbn [b2z]; rewrite ?Z.add_0_r.
        -- rewrite (proj2 (Z.eqb_neq a b) N). cbn [b2z]. rewrite Z.add_0_r. apply injs_S; [lia|]. split; [apply OI; exact Ha|]. rewrite V3, OM by exact Ha. exact F.
        -- apply injs_S; [lia|]. split; [apply OI; exact Hb|]. rewrite V2, OM by exact Hb. exact F'.
        -- apply OI. exact Hx.
      * intros x y Hx. rewrite C2. unfold D2, add. destruct (Z.eqb_spec x a) as [->|Na]; [|destruct (Z.eqb_spec x b) as [->|Nb]]; cbn [b2z andb]; rewrite ?Z.add_0_r.
        -- rewrite (proj2 (Z.eqb_neq a b) N). cbn [b2z andb]. rewrite Z.add_0_r, Bool.orb_false_r, memb_S by lia. rewrite OM, V3 by exact Ha. rewrite Z.eqb_sym. reflexivity.
        -- rewrite Bool.orb_false_r, memb_S by lia. rewrite OM, V2 by exact Hb. rewrite Z.eqb_sym. reflexivity.
        -- rewrite !Bool.orb_false_r. apply OM. exact Hx.
    + exact LT0.
    + assert (C0 : forall x, cnt n (fun _ _ => false) x = 0) by (intros x; apply sumz_zero; reflexivity). cbn. split; [exact LI0|]. split; [exact LP|]. split; [intros x Hx; rewrite C0; lia|]. split; [intros x Hx; rewrite C0; apply injs_0|]. intros x y Hx. rewrite C0. apply memb_0. lia.
    + intros [Iw Sp] (D1 & (L1 & L2 & H1 & H2 & H3) & DK & HD1). cbn. split; [reflexivity|].
      assert (CE : forall x, 0 <= x < n -> cnt n D1 x = rd Len x). { intros x Hx. rewrite HL by exact Hx. apply Z.le_antisymm; apply cnt_sub; intros y Y; [apply HD, HD1; exact Y|apply HD1, HD; exact Y]. }
      assert (ML : forall x y, 0 <= x < n -> mL Iw Pe Len x y = D1 x y). { intros x y Hx. unfold mL. rewrite <- CE by exact Hx. apply H3. exact Hx. }
      split; [|intros x y Hx; rewrite ML by exact Hx; apply HD1].
      constructor; auto; try lia.
      * intros x Hx. destruct (PN x Hx). specialize (LN x Hx). lia.
      * intros x y Hx Hy Nxy. destruct (Z.lt_trichotomy x y) as [Q|[Q|Q]]; [left; apply DIS; lia|contradiction|right; apply DIS; lia].
      * intros j Hj. destruct (@cover (fun k => sumz k (rd Len)) n j ltac:(lia)) as (x & Hx & X1); [cbv beta; rewrite (sumz_0 (rd Len) (n := 0)) by lia; exact Hj|]. rewrite SS, <- HP in X1 by exact Hx.
        assert (M : mL Iw Pe Len x (rd Iw j) = true) by (apply memb_at; exact X1). rewrite ML in M by exact Hx. apply HD1 in M. apply M.
      * intros x Hx. rewrite <- CE by exact Hx. apply H2. exact Hx.
      * intros x y Hx M. rewrite ML in M by exact Hx. apply HD1 in M as M'. destruct M' as (_ & Hy & Nxy & _). split; [lia|]. rewrite ML by exact Hy. rewrite (d_sym DK). exact M.
Qed.
Theorem build_ok iwlen Pe0 Iw0 Tp0 Len D : zlen Pe0 = n -> zlen Iw0 = iwlen -> zlen Tp0 = n -> (forall x y, D x y = true <-> patt n Ap Ai x y) -> zlen Len = n -> (forall x, 0 <= x < n -> rd Len x = cnt n D x) -> sumz n (rd Len) + n <= iwlen ->
  wp (amd_build n Pe0 Iw0 Tp0 Ap Ai Len) (fun '(Pe, Iw, pfree) => pfree = sumz n (rd Len) /\ sgr n pfree Iw Pe Len) nerr.
Proof. intros L1 L2 L3 H1 H2 H3 H4. eapply wp_conseq; [apply (@build_adj iwlen Pe0 Iw0 Tp0 Len D L1 L2 L3 H1 H2 H3 H4)|]. intros [[Pe Iw] pfree] (X1 & X2 & _). auto. Qed.
End Front.
