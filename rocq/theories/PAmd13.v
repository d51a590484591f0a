(* AMD, part 13: the state in which the main loop starts. *)
From Verif Require Import Base Det DetZ Spec MColamd MAmd PCol1 PCol3 PAmd1 PAmd2 PAmd3 PAmd4.
Set Implicit Arguments.
Open Scope Z_scope.
Set Bullet Behavior "Strict Subproofs".

(* the graph handed to AMD_2: the rows of a symmetric pattern without diagonal, one after the other in Iw *)
Record sgr (n nz : Z) (Iw Pe Len : list Z) : Prop := {
  sg_n : 1 <= n;
  sg_len : zlen Pe = n /\ zlen Len = n;
  sg_iw : 0 <= nz /\ nz + n <= zlen Iw;
  sg_in : forall x, 0 <= x < n -> 0 <= rd Pe x /\ 0 <= rd Len x /\ rd Pe x + rd Len x <= nz;
  sg_dis : forall x y, 0 <= x < n -> 0 <= y < n -> x <> y -> rd Pe x + rd Len x <= rd Pe y \/ rd Pe y + rd Len y <= rd Pe x;
  sg_rng : forall j, 0 <= j < nz -> 0 <= rd Iw j < n;
  sg_inj : forall x, 0 <= x < n -> injs Iw (rd Pe x) (rd Len x);
  sg_sum : sumz n (rd Len) <= nz;
  sg_sym : forall x y, 0 <= x < n -> mL Iw Pe Len x y = true -> y <> x /\ mL Iw Pe Len y x = true }.
Arguments sg_in {n nz Iw Pe Len} _ {x} _.
Arguments sg_sym {n nz Iw Pe Len} _ {x y} _ _.

Section Init.
Variables (n nz : Z) (Iw Pe Len : list Z).
Hypothesis G : sgr n nz Iw Pe Len.

Lemma len_lt x : 0 <= x < n -> rd Len x < n.
Proof.
  intros Hx. destruct (sg_in G Hx) as (X1 & X2 & X3). rewrite (@seg_len n Iw (rd Pe x) (rd Len x) X2 (sg_inj G Hx)) by (intros j Hj; apply (sg_rng G); lia).
  assert (Y : sumz n (fun y => b2z (memb Iw (rd Pe x) (rd Len x) y)) <= sumz n (fun y => 1 - b2z (y =? x))).
  { apply sumz_le. intros y Hy. destruct (memb Iw (rd Pe x) (rd Len x) y) eqn:M; [|cbn; destruct (y =? x); cbn; lia]. destruct (sg_sym G (y := y) Hx M) as (N & _). rewrite (proj2 (Z.eqb_neq y x) N). cbn. lia. }
  rewrite sumz_sub, sumz_const in Y by lia. rewrite (@sumz_single n (fun k => b2z (k =? x)) x Hx) in Y by (intros k Hk N; rewrite (proj2 (Z.eqb_neq k x) N); reflexivity). rewrite Z.eqb_refl in Y. cbn in Y. lia.
Qed.

Variable dense : Z.
Hypothesis Hd : 0 <= dense.
Definition good (x : Z) : bool := (1 <=? rd Len x) && (rd Len x <=? dense).
Lemma good_spec x : good x = true <-> 1 <= rd Len x <= dense. Proof. unfold good. rewrite Bool.andb_true_iff, !Z.leb_le. tauto. Qed.

Definition lst (W0 : list Z) (i : Z) (s : list Z * list Z * list Z * list Z * list Z * list Z * list Z * Z * Z) : Prop :=
  let '(Pe', Nv, Next, Last, Head, Elen, W, nel, ndense) := s in
  (zlen Pe' = n /\ zlen Nv = n /\ zlen Next = n /\ zlen Last = n /\ zlen Head = n /\ zlen Elen = n /\ zlen W = n) /\
  (forall x, 0 <= x < n -> rd Pe' x = if (x <? i) && negb (good x) then -1 else rd Pe x) /\
  (forall x, 0 <= x < n -> rd Nv x = if (x <? i) && (dense <? rd Len x) then 0 else 1) /\
  (forall x, 0 <= x < n -> rd Elen x = if (x <? i) && negb (good x) then (if rd Len x =? 0 then -3 else -1) else 0) /\
  (forall x, 0 <= x < n -> rd W x = if (x <? i) && (rd Len x =? 0) then 0 else rd W0 x) /\
  nel = sumz i (fun x => b2z (negb (good x))) /\ 0 <= ndense <= nel /\
  (forall x, 0 <= x < n -> i <= x -> rd Last x = EMPTY) /\
  exists rk, dlist n (fun x => 0 <= x < i /\ good x = true) (rd Len) (rd Next) (rd Last) (rd Head) rk.

Lemma lists_ok W0 : zlen W0 = n -> wp (a2_lists n dense Len Pe (mk n 1) (mk n EMPTY) (mk n EMPTY) (mk n EMPTY) (mk n 0) W0) (lst W0 n) nerr.
Proof.
  intros LW0. pose proof (sg_n G) as Hn. destruct (sg_len G) as (LP & LL). unfold a2_lists. apply wp_for with (I := lst W0); [lia| |].
  - unfold lst. rewrite !zlen_mk by lia. repeat split; auto; try lia; try (intros x Hx; destruct (x <? 0) eqn:E; [apply Z.ltb_lt in E; lia|]); try (cbn; rewrite ?rd_mk by lia; reflexivity).
    exists (fun _ => 0). constructor; [intros c (C & _); lia|intros c (C & _); lia|intros c (C & _); lia|]. intros s Hs. left. apply rd_mk. lia.
  - intros i [[[[[[[[Pe' Nv] Next] Last] Head] Elen] W] nel] ndense] Hi I. unfold lst in I. destruct I as ((L1 & L2 & L3 & L4 & L5 & L6 & L7) & IP & IN & IE & IW & INel & IND & IL & rk & DL).
    destruct (sg_in G Hi) as (S1 & S2 & S3).
    assert (LT : forall x, 0 <= x < n -> (x <? i + 1) = (x <? i) || (x =? i)). { intros x Hx. destruct (Z.ltb_spec x (i + 1)), (Z.ltb_spec x i), (Z.eqb_spec x i); cbn; auto; lia. }
    assert (NS : sumz (i + 1) (fun x => b2z (negb (good x))) = nel + b2z (negb (good i))) by (rewrite INel; apply sumz_S; lia).
    wg; [lia|]. destruct (Z.eqb_spec (rd Len i) 0) as [E0|E0]; [|destruct (Z.gtb_spec (rd Len i) dense) as [E1|E1]].
    + assert (B : good i = false) by (unfold good; rewrite E0; reflexivity). ws; [lia|]. ws; [lia|]. ws; [lia|]. cbn [wp lst]. rewrite !zlen_wr. split; [tauto|]. rewrite B in NS. cbn in NS.
      repeat split; try (intros x Hx; rewrite LT by exact Hx; rewrite ?rd_wr by lia); auto; try lia.
      * destruct (Z.eqb_spec x i) as [->|]; [rewrite Bool.orb_true_r, B; reflexivity|rewrite Bool.orb_false_r; apply IP; exact Hx].
      * rewrite IN by exact Hx. destruct (Z.eqb_spec x i) as [->|]; [|rewrite Bool.orb_false_r; reflexivity]. rewrite E0. rewrite Bool.orb_true_r, Z.ltb_irrefl. destruct (Z.ltb_spec dense 0); [lia|reflexivity].
      * destruct (Z.eqb_spec x i) as [->|]; [rewrite Bool.orb_true_r, B, E0; reflexivity|rewrite Bool.orb_false_r; apply IE; exact Hx].
      * destruct (Z.eqb_spec x i) as [->|]; [rewrite Bool.orb_true_r, E0; reflexivity|rewrite Bool.orb_false_r; apply IW; exact Hx].
      * intros x Hx X. apply IL; [exact Hx|lia].
      * exists rk. eapply dlist_ext; [exact DL| |auto|auto]. intros c. split; intros (X1 & X2); (split; [|exact X2]); [assert (c <> i) by congruence; lia|lia].
    + assert (B : good i = false) by (unfold good; rewrite (proj2 (Z.leb_gt (rd Len i) dense)), Bool.andb_false_r by lia; reflexivity). ws; [lia|]. ws; [lia|]. ws; [lia|]. cbn [wp lst]. rewrite !zlen_wr. split; [tauto|]. rewrite B in NS. cbn in NS.
      repeat split; try (intros x Hx; rewrite LT by exact Hx; rewrite ?rd_wr by lia); auto; try lia.
      * destruct (Z.eqb_spec x i) as [->|]; [rewrite Bool.orb_true_r, B; reflexivity|rewrite Bool.orb_false_r; apply IP; exact Hx].
      * destruct (Z.eqb_spec x i) as [->|]; [|rewrite Bool.orb_false_r; apply IN; exact Hx]. rewrite Bool.orb_true_r, (proj2 (Z.ltb_lt dense (rd Len i))) by lia. reflexivity.
      * destruct (Z.eqb_spec x i) as [->|]; [rewrite Bool.orb_true_r, B, (proj2 (Z.eqb_neq _ _) E0); reflexivity|rewrite Bool.orb_false_r; apply IE; exact Hx].
      * rewrite IW by exact Hx. destruct (Z.eqb_spec x i) as [->|]; [rewrite (proj2 (Z.eqb_neq _ _) E0), !Bool.andb_false_r; reflexivity|rewrite Bool.orb_false_r; reflexivity].
      * intros x Hx X. apply IL; [exact Hx|lia].
      * exists rk. eapply dlist_ext; [exact DL| |auto|auto]. intros c. split; intros (X1 & X2); (split; [|exact X2]); [assert (c <> i) by congruence; lia|lia].
    + assert (B : good i = true) by (apply good_spec; lia). apply wp_bind. eapply wp_conseq.
      { apply (@dg_insert_ok n _ (rd Len) Next Last Head rk i (rd Len i) (fun x => 0 <= x < i + 1 /\ good x = true) (rd Len) DL); auto; try lia.
        - pose proof (len_lt Hi). lia.
        - intros x. split.
          + intros (X1 & X2). destruct (Z.eq_dec x i); [auto|left; split; [lia|exact X2]].
          + intros [(X1 & X2)| ->]; split; auto; lia.
        - apply IL; lia. }
      intros [[Next' Last'] Head'] (D1 & D2 & D3 & D4 & D5). cbn [wp lst]. rewrite B in NS. cbn in NS. split; [tauto|].
      repeat split; try (intros x Hx; rewrite LT by exact Hx; rewrite ?rd_wr by lia); auto; try lia.
      * rewrite IP by exact Hx. destruct (Z.eqb_spec x i) as [->|]; [rewrite B, !Bool.andb_false_r; reflexivity|rewrite Bool.orb_false_r; reflexivity].
      * rewrite IN by exact Hx. destruct (Z.eqb_spec x i) as [->|]; [rewrite (proj2 (Z.ltb_ge _ _) E1), !Bool.andb_false_r; reflexivity|rewrite Bool.orb_false_r; reflexivity].
      * rewrite IE by exact Hx. destruct (Z.eqb_spec x i) as [->|]; [rewrite B, !Bool.andb_false_r; reflexivity|rewrite Bool.orb_false_r; reflexivity].
      * rewrite IW by exact Hx. destruct (Z.eqb_spec x i) as [->|]; [rewrite (proj2 (Z.eqb_neq _ _) E0), !Bool.andb_false_r; reflexivity|rewrite Bool.orb_false_r; reflexivity].
      * intros x Hx X. destruct (Z.eq_dec (rd Last' x) (rd Last x)) as [->|N]; [apply IL; lia|]. destruct (D4 x Hx N). lia.
Qed.

Lemma init_flag wbig : wp (clear_flag 0 wbig (mk n 1) n) (fun '(W, wflg) => zlen W = n /\ wflg = 2 /\ forall x, 0 <= x < n -> rd W x = 1) nerr.
Proof.
  pose proof (sg_n G) as Hn. unfold clear_flag. cbn [Z.ltb orb Z.compare]. apply wp_bind.
  eapply wp_conseq; [apply wp_for with (I := fun (_ : Z) W => zlen W = n /\ forall x, 0 <= x < n -> rd W x = 1); [lia| |]|].
  - rewrite zlen_mk by lia. split; [reflexivity|]. intros x Hx. apply rd_mk. exact Hx.
  - intros i W Hi (L & H). wg; [lia|]. rewrite (H i Hi). cbn [Z.eqb negb]. apply wp_set; [lia|]. rewrite zlen_wr. split; [exact L|]. intros x Hx. rewrite rd_wr by lia. destruct (x =? i); auto.
  - intros W (L & H). cbn. auto.
Qed.

Lemma init_inv W0 Pe' Nv Next Last Head Elen W nel ndense : (forall x, 0 <= x < n -> rd W0 x = 1) ->
  lst W0 n (Pe', Nv, Next, Last, Head, Elen, W, nel, ndense) -> inv n nz (mkA2 Iw Pe' Len Nv Next Last Head Elen Len W nz 0 EMPTY nel 2 0 0) /\ 0 <= nel /\ 0 <= ndense <= nel.
Proof.
  intros HW0 I. unfold lst in I. destruct I as ((L1 & L2 & L3 & L4 & L5 & L6 & L7) & IP0 & IN0 & IE0 & IW0 & INel & IND & _ & rk & DL). pose proof (sg_n G) as Hn. destruct (sg_len G) as (LP & LL). destruct (sg_iw G) as (IW1 & IW2).
  assert (IP : forall x, 0 <= x < n -> rd Pe' x = if good x then rd Pe x else -1). { intros x Hx. rewrite IP0, (proj2 (Z.ltb_lt x n)) by lia. destruct (good x); reflexivity. }
  assert (IN : forall x, 0 <= x < n -> rd Nv x = if dense <? rd Len x then 0 else 1). { intros x Hx. rewrite IN0, (proj2 (Z.ltb_lt x n)) by lia. reflexivity. }
  assert (IE : forall x, 0 <= x < n -> rd Elen x = if good x then 0 else if rd Len x =? 0 then -3 else -1). { intros x Hx. rewrite IE0, (proj2 (Z.ltb_lt x n)) by lia. destruct (good x); reflexivity. }
  assert (IW : forall x, 0 <= x < n -> rd W x = if rd Len x =? 0 then 0 else 1). { intros x Hx. rewrite IW0, (proj2 (Z.ltb_lt x n)), HW0 by lia. reflexivity. }
  clear IP0 IN0 IE0 IW0.
  assert (LV : forall x, 0 <= x < n -> lvb Pe' Elen x = good x).
  { intros x Hx. unfold lvb. rewrite IP, IE by exact Hx. destruct (sg_in G Hx) as (S1 & _). destruct (good x); [rewrite (proj2 (Z.leb_le 0 _) S1); reflexivity|reflexivity]. }
  assert (EV : forall x, 0 <= x < n -> evb Elen x = (rd Len x =? 0)).
  { intros x Hx. unfold evb. rewrite IE by exact Hx. destruct (good x) eqn:B; [apply good_spec in B; rewrite (proj2 (Z.eqb_neq _ _)) by lia; reflexivity|]. destruct (rd Len x =? 0); reflexivity. }
  assert (EL : forall x, 0 <= x < n -> elb Pe' Elen x = false).
  { intros x Hx. unfold elb. rewrite IP, IE by exact Hx. destruct (good x); [rewrite Bool.andb_false_r; reflexivity|reflexivity]. }
  assert (GN : forall x, 0 <= x < n -> good x = true -> rd Nv x = 1 /\ rd Len x <> 0 /\ rd Pe' x = rd Pe x /\ rd Elen x = 0).
  { intros x Hx B. rewrite IN, IP, IE, B by exact Hx. apply good_spec in B. rewrite (proj2 (Z.ltb_ge _ _)) by lia. repeat split; lia. }
  assert (PG : forall x, 0 <= x < n -> 0 <= rd Pe' x -> good x = true). { intros x Hx P. rewrite IP in P by exact Hx. destruct (good x); [reflexivity|lia]. }
  assert (VV : forall x y, 0 <= x < n -> good x = true -> mV Iw Pe' Len Elen x y = mL Iw Pe Len x y). { intros x y Hx B. destruct (GN x Hx B) as (_ & _ & P & E). unfold mV, mL. rewrite P, E, Z.add_0_r, Z.sub_0_r. reflexivity. }
  split; [|split; [rewrite INel; apply sumz_nonneg; intros k _; destruct (good k); cbn; lia|exact IND]].
  constructor; cbn [t_Iw t_Pe t_Len t_Nv t_Next t_Last t_Head t_Elen t_Degree t_W t_pfree t_mindeg t_me t_nel t_wflg t_lemax t_lnz]; auto; try lia.
  - exact (sg_rng G).
  - constructor.
    + intros x Hx P. pose proof (PG x Hx P) as B. destruct (GN x Hx B) as (_ & _ & -> & _). apply good_spec in B. destruct (sg_in G Hx). lia.
    + intros x y Hx Hy N P Q. pose proof (PG x Hx P) as B. pose proof (PG y Hy Q) as C. destruct (GN x Hx B) as (_ & _ & -> & _). destruct (GN y Hy C) as (_ & _ & -> & _). apply (sg_dis G); auto.
  - intros x Hx P. pose proof (PG x Hx P) as B. destruct (GN x Hx B) as (_ & _ & -> & ->). apply good_spec in B. split; [lia|]. split; [lia|]. apply (sg_inj G Hx).
  - constructor.
    + intros x Hx B. rewrite LV in B by exact Hx. destruct (GN x Hx B) as (-> & X & _). rewrite EV by exact Hx. split; [apply Z.eqb_neq; exact X|lia].
    + intros e He X. rewrite EL in X by exact He. discriminate.
    + intros x e Hx B X. rewrite LV in B by exact Hx. destruct (GN x Hx B) as (_ & _ & _ & E). unfold mE in X. rewrite E, memb_0 in X by lia. discriminate.
    + intros x y Hx B X. rewrite LV in B by exact Hx. rewrite VV in X by auto. destruct (sg_sym G Hx X) as (N & Y).
      assert (Ry : 0 <= y < n). { apply memb_spec in X. destruct X as (j & Hj & <-). destruct (sg_in G Hx). apply (sg_rng G). lia. }
      split; [exact Ry|]. split; [exact N|]. rewrite EV, LV by exact Ry. split; [|intros C; rewrite VV; auto]. apply Z.eqb_neq. intros Q. unfold mL in Y. rewrite Q, memb_0 in Y by lia. discriminate.
    + intros e x He X. rewrite EL in X by exact He. discriminate.
    + intros e He X. rewrite EL in X by exact He. discriminate.
  - intros e He X. rewrite EL in X by exact He. discriminate.
  - intros x Hx. rewrite IE, IN, IP by exact Hx. destruct (sg_in G Hx) as (_ & S2 & _). destruct (good x) eqn:B; [apply good_spec in B; right; rewrite (proj2 (Z.ltb_ge _ _)) by lia; lia|].
    destruct (Z.eqb_spec (rd Len x) 0) as [Q|Q]; [right; rewrite Q, (proj2 (Z.ltb_ge _ _)) by lia; lia|]. left. split; [reflexivity|]. split; [|lia]. destruct (Z.ltb_spec dense (rd Len x)); [reflexivity|]. exfalso. assert (good x = true) by (apply good_spec; lia). congruence.
  - intros x Hx X. destruct (sg_in G Hx). rewrite IE in X by exact Hx. rewrite IP by exact Hx. destruct (good x); [lia|]. destruct (rd Len x =? 0); lia.
  - etransitivity; [|exact (sg_sum G)]. apply sumz_le. intros x Hx. destruct (sg_in G Hx). destruct (0 <=? rd Pe' x); lia.
  - exists rk. eapply dlist_ext; [exact DL| |auto|auto]. intros c. split; intros (X1 & X2); (split; [exact X1|]); [rewrite <- LV by exact X1|rewrite LV by exact X1]; exact X2.
  - split; [lia|]. intros x Hx _. apply (sg_in G Hx).
  - split; [|rewrite INel; apply sumz_nonneg; intros k _; destruct (good k); cbn; lia]. rewrite INel. unfold wt. rewrite <- sumz_add. rewrite (@sumz_ext n _ (fun _ => 1)); [rewrite sumz_const; lia|]. intros x Hx. rewrite LV by exact Hx. destruct (good x) eqn:B; [destruct (GN x Hx B) as (-> & _); reflexivity|reflexivity].
  - split; [lia|]. intros x Hx. rewrite IW by exact Hx. destruct (rd Len x =? 0) eqn:Q; (split; [lia|]).
    + intros P. apply Z.eqb_eq in Q. apply PG in P; [|exact Hx]. apply GN in P; [tauto|exact Hx].
    + lia.
  - split; [lia|]. intros e He X. rewrite EL in X by exact He. discriminate.
  - exists (fun x => if rd Nv x =? 0 then -1 else x), (fun _ => 0), 1. constructor.
    + intros x Hx N. rewrite (proj2 (Z.eqb_neq _ _) N). split; [reflexivity|]. rewrite (@sumz_single n _ x Hx); [rewrite (proj2 (Z.eqb_neq _ _) N), Z.eqb_refl; rewrite IN in * by exact Hx; destruct (dense <? rd Len x); cbn; lia|].
      intros k Hk Nk. destruct (rd Nv k =? 0); [rewrite (proj2 (Z.eqb_neq (-1) x)) by lia; reflexivity|rewrite (proj2 (Z.eqb_neq k x)) by lia; reflexivity].
    + intros x Hx N. left. rewrite N. split; [|reflexivity]. rewrite IN in N by exact Hx. rewrite IP by exact Hx. destruct (good x) eqn:B; [|reflexivity]. apply good_spec in B. destruct (Z.ltb_spec dense (rd Len x)); lia.
    + intros x Hx P. rewrite IP in P by exact Hx. destruct (sg_in G Hx). destruct (good x); lia.
    + intros x Hx P. rewrite IP in P by exact Hx. destruct (sg_in G Hx). destruct (good x); lia.
    + intros x Hx X. rewrite EV in X by exact Hx. apply Z.eqb_eq in X. rewrite IN, X by exact Hx. destruct (Z.ltb_spec dense 0); lia.
Qed.
End Init.
