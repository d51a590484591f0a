(* Correctness of the pivot searches and of the permutation bookkeeping. *)
From Verif Require Import Base Spec MFactor PReach PTri.
From Verif Require Export LUSpec.
Set Implicit Arguments.
Open Scope Z_scope.

(* row i is a candidate pivot: it is in the pattern, has not been selected, and its value is non-zero *)
Definition elig (x pivs xi : list Z) (top n i : Z) : Prop :=
  (exists a, top <= a < n /\ rd xi a = i) /\ rd pivs i < 0 /\ rd x i <> 0.

Section Search.
Variables (x pivs xi : list Z) (top n : Z).
Hypothesis Htop : 0 <= top <= n.
Hypothesis Hxi : n <= zlen xi.
Hypothesis Hx : zlen x = n.
Hypothesis Hp : zlen pivs = n.
Hypothesis Hr : forall a, top <= a < n -> 0 <= rd xi a < n.

Definition eligat (a : Z) : Prop := rd pivs (rd xi a) < 0 /\ rd x (rd xi a) <> 0.

Lemma eligat_elig a : top <= a < n -> eligat a -> elig x pivs xi top n (rd xi a).
Proof. intros Ha [H1 H2]. split; eauto. Qed.

Lemma first_eligible_spec cnt flag : top <= flag -> flag + Z.of_nat cnt = n ->
  match first_eligible cnt flag x pivs xi with
  | Ok (Some (a, i, v)) => flag <= a < n /\ i = rd xi a /\ v = rd x i /\ eligat a /\ (forall b, flag <= b < a -> ~ eligat b)
  | Ok None => forall b, flag <= b < n -> ~ eligat b
  | _ => False
  end.
Proof.
  revert flag; induction cnt as [|c IH]; intros flag Hf Hc; simpl.
  - intros; lia.
  - pose proof (@Hr flag ltac:(lia)).
    rewrite (get_rd xi) by lia. cbn [bind]. rewrite (get_rd x) by lia. cbn [bind]. rewrite (get_rd pivs) by lia. cbn [bind].
    destruct (Z.ltb_spec (rd pivs (rd xi flag)) 0) as [H1|H1], (Z.eqb_spec (rd x (rd xi flag)) 0) as [H2|H2]; simpl.
    2:{ split. lia. split; auto. split; auto. split. split; auto. intros; lia. }
    all: specialize (IH (flag + 1) ltac:(lia) ltac:(lia));
         destruct (first_eligible c (flag + 1) x pivs xi) as [[[[a i] v]|]| | |]; auto.
    all: try (destruct IH as (I1 & I2 & I3 & I4 & I5); split; [lia|]; split; [auto|]; split; [auto|]; split; [auto|];
              intros b Hb; destruct (Z.eq_dec b flag) as [->|]; [intros [? ?]; lia | apply I5; lia]).
    all: intros b Hb; destruct (Z.eq_dec b flag) as [->|]; [intros [? ?]; lia | apply IH; lia].
Qed.

Definition none_elig := forall i, ~ elig x pivs xi top n i.

Lemma none_eligat : none_elig <-> forall b, top <= b < n -> ~ eligat b.
Proof.
  split.
  - intros H b Hb He. apply (H (rd xi b)). apply eligat_elig; auto.
  - intros H i ((a & Ha & <-) & H1 & H2). apply (H a Ha). split; auto.
Qed.

Lemma nonzero_spec :
  match slip_get_nonzero_pivot x pivs n top xi with
  | Ok piv => exists a, top <= a < n /\ piv = rd xi a /\ eligat a /\ (forall b, top <= b < a -> ~ eligat b)
  | Err e => e = SLIP_SINGULAR /\ none_elig
  | _ => False
  end.
Proof.
  unfold slip_get_nonzero_pivot.
  pose proof (@first_eligible_spec (Z.to_nat (n - top)) top ltac:(lia) ltac:(lia)) as H.
  destruct (first_eligible (Z.to_nat (n - top)) top x pivs xi) as [[[[a i] v]|]| | |]; simpl; auto; try contradiction.
  - destruct H as (I1 & I2 & I3 & I4 & I5). exists a. auto.
  - split; auto. apply none_eligat. auto.
Qed.

Lemma smallest_spec :
  match slip_get_smallest_pivot x pivs n top xi with
  | Ok piv => exists a, top <= a < n /\ piv = rd xi a /\ eligat a /\
       (forall b, top <= b < n -> eligat b -> Z.abs (rd x piv) <= Z.abs (rd x (rd xi b))) /\
       (forall b, top <= b < a -> eligat b -> Z.abs (rd x piv) < Z.abs (rd x (rd xi b)))
  | Err e => e = SLIP_SINGULAR /\ none_elig
  | _ => False
  end.
Proof.
  unfold slip_get_smallest_pivot.
  pose proof (@first_eligible_spec (Z.to_nat (n - top)) top ltac:(lia) ltac:(lia)) as H.
  destruct (Z.gtb_spec top (-1)); [|lia].
  destruct (first_eligible (Z.to_nat (n - top)) top x pivs xi) as [[[[a i] v]|]| | |]; cbn [bind]; try contradiction.
  - destruct H as (I1 & -> & -> & I4 & I5).
    match goal with |- context[for_ ?lo ?hi ?f ?s] => assert (HW : wp (for_ lo hi f s)
      (fun '(piv, small) => exists a', top <= a' < n /\ piv = rd xi a' /\ small = rd x piv /\ eligat a' /\
       (forall b, top <= b < n -> eligat b -> Z.abs (rd x piv) <= Z.abs (rd x (rd xi b))) /\
       (forall b, top <= b < a' -> eligat b -> Z.abs (rd x piv) < Z.abs (rd x (rd xi b)))) nerr) end.
    { eapply wp_conseq.
      - apply wp_for with (I := fun t '(piv, small) => exists a', top <= a' < n /\ piv = rd xi a' /\ small = rd x piv /\ eligat a' /\
         (forall b, top <= b < t -> eligat b -> Z.abs (rd x piv) <= Z.abs (rd x (rd xi b))) /\
         (forall b, top <= b < a' -> eligat b -> Z.abs (rd x piv) < Z.abs (rd x (rd xi b))) /\ (a' = a \/ a' < t)).
        + lia.
        + exists a. split. lia. split; auto. split; auto. split; auto. split; [|split].
          * intros b Hb He. exfalso. eapply I5; eauto; lia.
          * intros b Hb He. exfalso. eapply I5; eauto; lia.
          * auto.
        + intros t [piv small] Ht (a' & A1 & A2 & A3 & A4 & A5 & A6 & A7).
          pose proof (@Hr t ltac:(lia)) as Hrt. pose proof (@Hr a' ltac:(lia)) as Hra.
          rewrite (get_rd xi) by lia. cbn [bind]. rewrite (get_rd x) by lia. cbn [bind]. rewrite (get_rd pivs) by lia. cbn [bind].
          subst small. destruct (Z.ltb_spec (rd pivs (rd xi t)) 0) as [H1|H1]; cbn [andb].
          2:{ simpl. exists a'. repeat (split; [assumption || lia|]). split. { intros b Hb He. destruct (Z.eq_dec b t) as [->|]. destruct He; lia. apply A5; auto; lia. } split; auto. lia. }
          destruct (Z.gtb_spec (Z.abs (rd x piv)) (Z.abs (rd x (rd xi t)))) as [H2|H2]; cbn [andb].
          2:{ simpl. exists a'. repeat (split; [assumption || lia|]). split. { intros b Hb He. destruct (Z.eq_dec b t) as [->|]. lia. apply A5; auto; lia. } split; auto. lia. }
          destruct (Z.eqb_spec (rd x (rd xi t)) 0) as [H3|H3]; cbn [negb].
          { simpl. exists a'. repeat (split; [assumption || lia|]). split. { intros b Hb He. destruct (Z.eq_dec b t) as [->|]. destruct He; lia. apply A5; auto; lia. } split; auto. lia. }
          simpl. exists t. split. lia. split; auto. split; auto. split. split; auto. split; [|split].
          * intros b Hb He. destruct (Z.eq_dec b t) as [->|]. lia. specialize (A5 b ltac:(lia) He). lia.
          * intros b Hb He. specialize (A5 b ltac:(lia) He). lia.
          * lia.
      - intros [piv small] (a' & A1 & A2 & A3 & A4 & A5 & A6 & A7). exists a'. auto 10. }
    apply wp_ok_ex in HW. destruct HW as ([piv small] & -> & a' & A1 & A2 & A3 & A4 & A5 & A6). cbn [bind fst].
    pose proof (@Hr a' ltac:(lia)). destruct (Z.eqb_spec piv (-1)); [lia|]. exists a'. auto.
  - split; auto. apply none_eligat. auto.
Qed.

Lemma largest_spec :
  match slip_get_largest_pivot x pivs n top xi with
  | Ok piv => exists a, top <= a < n /\ piv = rd xi a /\ eligat a /\
       (forall b, top <= b < n -> eligat b -> Z.abs (rd x (rd xi b)) <= Z.abs (rd x piv)) /\
       (forall b, top <= b < a -> eligat b -> Z.abs (rd x (rd xi b)) < Z.abs (rd x piv))
  | Err e => e = SLIP_SINGULAR /\ none_elig
  | _ => False
  end.
Proof.
  unfold slip_get_largest_pivot.
  match goal with |- context[for_ ?lo ?hi ?f ?s] => assert (HW : wp (for_ lo hi f s)
      (fun '(piv, big) => (piv = -1 /\ big = 0 /\ forall b, top <= b < n -> ~ eligat b) \/
       exists a', top <= a' < n /\ piv = rd xi a' /\ big = rd x piv /\ eligat a' /\
       (forall b, top <= b < n -> eligat b -> Z.abs (rd x (rd xi b)) <= Z.abs (rd x piv)) /\
       (forall b, top <= b < a' -> eligat b -> Z.abs (rd x (rd xi b)) < Z.abs (rd x piv))) nerr) end.
  { apply wp_for with (I := fun t '(piv, big) => (piv = -1 /\ big = 0 /\ forall b, top <= b < t -> ~ eligat b) \/
       exists a', top <= a' < t /\ piv = rd xi a' /\ big = rd x piv /\ eligat a' /\
       (forall b, top <= b < t -> eligat b -> Z.abs (rd x (rd xi b)) <= Z.abs (rd x piv)) /\
       (forall b, top <= b < a' -> eligat b -> Z.abs (rd x (rd xi b)) < Z.abs (rd x piv))).
    - lia.
    - left. repeat split; auto. intros; lia.
    - intros t [piv big] Ht HI.
      pose proof (@Hr t ltac:(lia)) as Hrt.
      rewrite (get_rd xi) by lia. cbn [bind]. rewrite (get_rd x) by lia. cbn [bind]. rewrite (get_rd pivs) by lia. cbn [bind].
      destruct (Z.ltb_spec (rd pivs (rd xi t)) 0) as [H1|H1]; cbn [andb].
      2:{ simpl. destruct HI as [(B1 & B2 & B3)|(a' & A1 & A2 & A3 & A4 & A5 & A6)]; [left|right].
          - split; auto. split; auto. intros b Hb He. destruct (Z.eq_dec b t) as [->|]. destruct He; lia. eapply B3; eauto; lia.
          - exists a'. split. lia. split; auto. split; auto. split; auto. split; auto.
            intros b Hb He. destruct (Z.eq_dec b t) as [->|]. destruct He; lia. apply A5; auto; lia. }
      destruct (Z.ltb_spec (Z.abs big) (Z.abs (rd x (rd xi t)))) as [H2|H2].
      + simpl. right. exists t. split. lia. split; auto. split; auto. split. split; auto; lia.
        destruct HI as [(B1 & B2 & B3)|(a' & A1 & A2 & A3 & A4 & A5 & A6)].
        * split.
          -- intros b Hb He. destruct (Z.eq_dec b t) as [->|]. lia. exfalso. eapply B3; eauto; lia.
          -- intros b Hb He. exfalso. eapply B3; eauto; lia.
        * subst big. split.
          -- intros b Hb He. destruct (Z.eq_dec b t) as [->|]. lia. specialize (A5 b ltac:(lia) He). lia.
          -- intros b Hb He. specialize (A5 b ltac:(lia) He). lia.
      + simpl. destruct HI as [(B1 & B2 & B3)|(a' & A1 & A2 & A3 & A4 & A5 & A6)]; [left|right].
        * split; auto. split; auto. subst. intros b Hb He. destruct (Z.eq_dec b t) as [->|]. destruct He; lia. eapply B3; eauto; lia.
        * exists a'. split. lia. split; auto. split; auto. split; auto. split; auto. subst big.
          intros b Hb He. destruct (Z.eq_dec b t) as [->|]. lia. apply A5; auto; lia. }
  apply wp_ok_ex in HW. destruct HW as ([piv big] & -> & HW). cbn [bind fst].
  destruct HW as [(-> & B2 & B3)|(a' & A1 & A2 & A3 & A4 & A5 & A6)].
  - simpl. split; auto. apply none_eligat; auto.
  - pose proof (@Hr a' ltac:(lia)). destruct (Z.eqb_spec piv (-1)); [lia|]. exists a'. auto.
Qed.


(* whichever scheme: an eligible row, or SLIP_SINGULAR and there is none *)

Lemma choose_pivot_spec env order tol col : env_ok env order -> 0 <= col < n ->
  (rd pivs col < 0 -> rd x col <> 0 -> inpat top n xi col) ->
  match choose_pivot env order tol x pivs n top xi col with
  | Ok piv => 0 <= piv < n /\ elig x pivs xi top n piv
  | Err e => e = SLIP_SINGULAR /\ none_elig
  | _ => False
  end.
Proof.
  intros He Hc Hcol.
  assert (HC : negb (rd x col =? 0) && (rd pivs col <? 0) = true -> elig x pivs xi top n col).
  { intros H. apply andb_prop in H. destruct H as [H1 H2].
    destruct (Z.eqb_spec (rd x col) 0); try discriminate. apply Z.ltb_lt in H2. split; auto. apply Hcol; auto. }
  pose proof smallest_spec as HS. pose proof largest_spec as HLg. pose proof nonzero_spec as HN.
  assert (HS' : match slip_get_smallest_pivot x pivs n top xi with
          | Ok piv => 0 <= piv < n /\ elig x pivs xi top n piv
          | Err e => e = SLIP_SINGULAR /\ none_elig | _ => False end).
  { destruct (slip_get_smallest_pivot x pivs n top xi); auto. destruct HS as (a' & A1 & A2 & A3 & _).
    subst. split; auto. apply eligat_elig; auto. }
  assert (HL' : match slip_get_largest_pivot x pivs n top xi with
          | Ok piv => 0 <= piv < n /\ elig x pivs xi top n piv
          | Err e => e = SLIP_SINGULAR /\ none_elig | _ => False end).
  { destruct (slip_get_largest_pivot x pivs n top xi); auto. destruct HLg as (a' & A1 & A2 & A3 & _).
    subst. split; auto. apply eligat_elig; auto. }
  unfold choose_pivot.
  destruct (order =? PIV_SMALLEST); [exact HS'|].
  destruct (order =? PIV_DIAGONAL).
  { rewrite !get_rd by lia. cbn [bind]. destruct (negb (rd x col =? 0) && (rd pivs col <? 0)); auto. }
  destruct (order =? PIV_FIRST_NONZERO).
  { destruct (slip_get_nonzero_pivot x pivs n top xi); auto. destruct HN as (a' & A1 & A2 & A3 & _). subst. split; auto.
    apply eligat_elig; auto. }
  destruct (Z.eqb_spec order PIV_TOL_LARGEST) as [Ho|Ho].
  { destruct (slip_get_largest_pivot x pivs n top xi) as [piv| | |]; cbn [bind]; auto. destruct HL' as [Hpv Hel].
    rewrite !get_rd by lia. cbn [bind]. destruct (negb (rd x col =? 0) && (rd pivs col <? 0)) eqn:EC; auto.
    cbn [bind]. unfold mpq_ge.
    destruct (rd x piv >? 0); cbn [bind].
    - destruct (_ <=? _); auto.
    - specialize (He Ho (Z.abs (rd x col)) (rd x piv) tol). destruct (env _ _ _) as [[]|]; cbn [bind]; auto. }
  destruct (order =? PIV_LARGEST); [exact HL'|].
  destruct (slip_get_smallest_pivot x pivs n top xi) as [piv| | |]; cbn [bind]; auto. destruct HS' as [Hpv Hel].
  rewrite !get_rd by lia. cbn [bind]. destruct (negb (rd x col =? 0) && (rd pivs col <? 0)) eqn:EC; auto.
  cbn [bind]. unfold mpq_ge.
  destruct (Z.gtb_spec (Z.abs (rd x col)) 0); cbn [bind].
  - destruct (_ <=? _); auto.
  - exfalso. apply andb_prop in EC. destruct EC as [EC _]. destruct (Z.eqb_spec (rd x col) 0); try discriminate. lia.
Qed.

End Search.

(* permutation bookkeeping *)
Lemma apply_pivot_spec n piv k x rhos pinv rowp pivs E :
  0 <= k < n -> 0 <= piv < n -> perm_ok n pinv rowp -> k <= rd pinv piv ->
  zlen x = n -> zlen rhos = n -> zlen pivs = n ->
  wp (apply_pivot piv k x rhos pinv rowp pivs)
     (fun '(rhos', pinv', rowp', pivs') =>
        rhos' = wr rhos k (rd x piv) /\ pivs' = wr pivs piv 1 /\ perm_ok n pinv' rowp' /\
        rd rowp' k = piv /\
        (forall j, 0 <= j < k -> rd rowp' j = rd rowp j) /\
        (forall i, 0 <= i < n -> rd pinv i < k -> rd pinv' i = rd pinv i) /\
        (forall i, 0 <= i < n -> rd pinv' i < k -> rd pinv i = rd pinv' i)) E.
Proof.
  intros Hk Hp P Hge Hx Hrh Hpv. pose proof (p_l1 P). pose proof (p_l2 P).
  pose proof (p_r1 P (i := piv) Hp). pose proof (p_r2 P (i := k) Hk).
  unfold apply_pivot. rewrite (get_rd pinv) by lia. cbn [bind]. rewrite (get_rd rowp) by lia. cbn [bind].
  set (im := rd pinv piv) in *. set (im2 := rd rowp k) in *.
  rewrite (set_wr rowp) by lia. cbn [bind]. rewrite set_wr by (rewrite zlen_wr; lia). cbn [bind].
  rewrite (set_wr pinv) by lia. cbn [bind]. rewrite set_wr by (rewrite zlen_wr; lia). cbn [bind].
  rewrite set_wr by lia. cbn [bind]. rewrite get_rd by lia. cbn [bind]. rewrite set_wr by lia. cbn [bind]. simpl.
  assert (C1 : rd rowp im = piv) by (apply (p_c1 P); auto).
  assert (C2 : rd pinv im2 = k) by (apply (p_c2 P); auto).
  assert (RR : forall j, 0 <= j < n -> rd (wr (wr rowp k piv) im im2) j = if j =? im then im2 else if j =? k then piv else rd rowp j).
  { intros j Hj. rewrite rd_wr by (rewrite ?zlen_wr; lia). destruct (j =? im); auto. rewrite rd_wr by lia. auto. }
  assert (RP : forall j, 0 <= j < n -> rd (wr (wr pinv piv k) im2 im) j = if j =? im2 then im else if j =? piv then k else rd pinv j).
  { intros j Hj. rewrite rd_wr by (rewrite ?zlen_wr; lia). destruct (j =? im2); auto. rewrite rd_wr by lia. auto. }
  split; auto. split; auto. split; [|split; [|split; [|split]]].
  - constructor.
    + now rewrite !zlen_wr.
    + now rewrite !zlen_wr.
    + intros i Hi. rewrite RP by auto. destruct (i =? im2). lia. destruct (i =? piv). lia. apply (p_r1 P); auto.
    + intros i Hi. rewrite RR by auto. destruct (i =? im). lia. destruct (i =? k). lia. apply (p_r2 P); auto.
    + intros i Hi. pose proof (p_r1 P (i := i) Hi) as Hri. rewrite (RP i) by auto.
      destruct (Z.eqb_spec i im2) as [->|N1].
      * rewrite RR by lia. rewrite Z.eqb_refl. auto.
      * destruct (Z.eqb_spec i piv) as [->|N2].
        -- rewrite RR by lia. rewrite Z.eqb_refl. destruct (Z.eqb_spec k im) as [e|]; auto.
           exfalso. apply N1. rewrite <- C1. rewrite <- e. reflexivity.
        -- rewrite RR by lia.
           destruct (Z.eqb_spec (rd pinv i) im) as [e|]. exfalso. apply N2. rewrite <- (p_c1 P Hi), e. auto.
           destruct (Z.eqb_spec (rd pinv i) k) as [e|]. exfalso. apply N1. rewrite <- (p_c1 P Hi), e. auto.
           apply (p_c1 P); auto.
    + intros i Hi. pose proof (p_r2 P (i := i) Hi) as Hri. rewrite (RR i) by auto.
      destruct (Z.eqb_spec i im) as [->|N1].
      * rewrite RP by lia. rewrite Z.eqb_refl. auto.
      * destruct (Z.eqb_spec i k) as [->|N2].
        -- rewrite RP by lia. rewrite Z.eqb_refl. destruct (Z.eqb_spec piv im2) as [e|]; auto.
           exfalso. apply N1. rewrite <- C2, <- e. reflexivity.
        -- rewrite RP by lia.
           destruct (Z.eqb_spec (rd rowp i) im2) as [e|]. exfalso. apply N2. rewrite <- (p_c2 P Hi), e. auto.
           destruct (Z.eqb_spec (rd rowp i) piv) as [e|]. exfalso. apply N1. rewrite <- (p_c2 P Hi), e. auto.
           apply (p_c2 P); auto.
  - rewrite RR by lia. rewrite Z.eqb_refl. destruct (Z.eqb_spec k im) as [e|]; auto. rewrite <- C1, <- e. reflexivity.
  - intros j Hj. rewrite RR by lia. destruct (Z.eqb_spec j im); [lia|]. destruct (Z.eqb_spec j k); [lia|]. auto.
  - intros i Hi Hlt. rewrite RP by auto. destruct (Z.eqb_spec i im2); [subst i; lia|]. destruct (Z.eqb_spec i piv); [subst i; lia|]. auto.
  - intros i Hi. rewrite RP by auto. destruct (Z.eqb_spec i im2); [subst i; lia|]. destruct (Z.eqb_spec i piv); [subst i; lia|]. auto.
Qed.
