(* AMD, part 18: AMD_2; the traversal of A + A'. *)
From Verif Require Import Base Det DetZ Spec MColamd MAmd PCol1 PCol3 PAmd1 PAmd2 PAmd3 PAmd4 PAmd12 PAmd13 PAmd14 PAmd15 PAmd16 PAmd17.
Set Implicit Arguments.
Open Scope Z_scope.
Set Bullet Behavior "Strict Subproofs".

Lemma flips_ok n A : 0 <= n -> zlen A = n -> wp (for_ 0 n (fun i A => let* p := get A i in set A i (FLIP p)) A) (fun A' => zlen A' = n /\ forall x, 0 <= x < n -> rd A' x = FLIP (rd A x)) nerr.
Proof.
  intros Hn L. eapply wp_conseq; [apply wp_for with (I := fun i A' => zlen A' = n /\ forall x, 0 <= x < n -> rd A' x = if x <? i then FLIP (rd A x) else rd A x); [exact Hn| |]|].
  - split; [exact L|]. intros x Hx. destruct (Z.ltb_spec x 0); [lia|reflexivity].
  - intros i A' Hi (L' & H). wg; [lia|]. apply wp_set; [lia|]. rewrite zlen_wr. split; [exact L'|]. intros x Hx. rewrite rd_wr by lia. destruct (Z.eqb_spec x i) as [->|N].
    + rewrite H, Z.ltb_irrefl, (proj2 (Z.ltb_lt i (i + 1))) by lia. reflexivity.
    + rewrite H by exact Hx. destruct (Z.ltb_spec x i), (Z.ltb_spec x (i + 1)); auto; lia.
  - intros A' (L' & H). split; [exact L'|]. intros x Hx. rewrite H, (proj2 (Z.ltb_lt x n)) by lia. reflexivity.
Qed.

Theorem amd_2_ok aggr n dense0 nz Iw Pe Len : sgr n nz Iw Pe Len -> wp (amd_2 aggr n dense0 Pe Iw Len nz) (fun '(P, lnz) => zlen P = n /\ is_perm n P /\ 0 <= lnz /\ 2 * lnz <= n * (n - 1)) nerr.
Proof.
  intros G. pose proof (sg_n G) as Hn. unfold amd_2. apply wp_bind. eapply wp_conseq; [apply (init_flag G)|]. intros [W0 wflg] (LW & -> & HW).
  apply wp_bind. eapply wp_conseq; [apply (@lists_ok n nz Iw Pe Len G (Z.min n (Z.max 16 dense0)) ltac:(lia) W0 LW)|].
  intros [[[[[[[[Pe1 Nv] Next] Last] Head] Elen] W] nel] ndense] LS. destruct (@init_inv n nz Iw Pe Len G (Z.min n (Z.max 16 dense0)) ltac:(lia) W0 Pe1 Nv Next Last Head Elen W nel ndense HW LS) as (I & N0 & D0). clear LS.
  apply wp_bind. eapply wp_conseq; [apply (@loop_lnz aggr n nz (2 ^ 63 - 1 - n) ndense (proj1 D0) (Z.to_nat n) _ I); [|cbn [t_nel]; lia]|].
  { unfold lnz_ok; cbn [t_nel t_lnz]. set (m := n - nel + ndense). assert (m <= n) by lia. pose proof (proj1 (in_nel I)) as Q; cbn [t_nel t_Pe t_Elen t_Nv] in Q. assert (0 <= m); [|nia].
    assert (0 <= wt n (lvb Pe1 Elen) (rd Nv)); [|lia]. apply wt_nonneg. intros x Hx X. apply lvb_spec in X. pose proof (in_nv I Hx) as Y; cbn [t_Pe t_Elen t_Nv] in Y. lia. }
  intros t ((It & HN) & LZ). clear I.
  destruct (in_len It) as (L1 & L2 & L3 & L4 & L5 & L6 & L7 & L8 & L9). pose proof (end_dead It HN) as ED.
  apply wp_bind. eapply wp_conseq; [apply (@flips_ok n (t_Pe t) ltac:(lia) L1)|]. intros P (LP & HP). destruct (end_tree P It HN HP) as (grp & r & T).
  apply wp_bind. eapply wp_conseq; [apply (@flips_ok n (t_Elen t) ltac:(lia) L7)|]. intros F (LF & HF).
  apply wp_bind. eapply wp_conseq; [apply (@paths_ok n (t_Nv t) grp r L3 ltac:(lia) P T LP)|]. intros P' (T' & U & PG). destruct U as (LP' & U).
  apply wp_bind. eapply wp_conseq; [apply (@postorder_ok n P' (t_Nv t) grp r F (t_W t) (t_Last t) T' LP' L3 Hn LF L5)|].
  { intros x Hx N. rewrite HF by exact Hx. destruct (ED x Hx) as (_ & [E|(E & _)]); [|unfold FLIP; lia]. destruct (in_nv It Hx) as [(_ & X & _)|(X & _)]; lia. }
  intros Order NUM. apply wp_bind. eapply wp_conseq; [apply (@output_ok n P' (t_Nv t) grp r Order T' LP' L3 Hn)|].
  - intros x Hx N Q. apply PG; [exact Hx|exact N|]. destruct (U x Hx) as [E|(_ & E & _)]; [congruence|exact E].
  - exact NUM.
  - intros L (X1 & X2). cbn [wp]. split; [exact X1|]. split; [exact X2|]. pose proof (in_lnz It). assert (0 <= (ndense - 1) * ndense / 2) by (apply Z.div_pos; [|lia]; nia). split; [lia|]. unfold lnz_ok in LZ. replace (t_nel t) with n in LZ.
    + pose proof (half_le ((ndense - 1) * ndense)). nia.
    + pose proof (proj1 (in_nel It)). assert (0 <= wt n (lvb (t_Pe t) (t_Elen t)) (rd (t_Nv t))); [|lia]. apply wt_nonneg. intros x Hx X. apply lvb_spec in X. pose proof (in_nv It Hx) as Y. lia.
Qed.

(*----------------------------------------------------------------------------*)
(* a pattern with sorted columns *)
Record spat (n : Z) (Ap Ai : list Z) : Prop := {
  sp_n : 1 <= n;
  sp_ap : n + 1 <= zlen Ap;
  sp_0 : rd Ap 0 = 0;
  sp_mono : forall j, 0 <= j < n -> rd Ap j <= rd Ap (j + 1);
  sp_ai : rd Ap n <= zlen Ai;
  sp_row : forall q, 0 <= q < rd Ap n -> 0 <= rd Ai q < n;
  sp_inc : forall j q q', 0 <= j < n -> rd Ap j <= q < q' -> q' < rd Ap (j + 1) -> rd Ai q < rd Ai q' }.
Definition incol (Ap Ai : list Z) (j i : Z) : Prop := exists q, rd Ap j <= q < rd Ap (j + 1) /\ rd Ai q = i.
Definition patt (n : Z) (Ap Ai : list Z) (x y : Z) : Prop := 0 <= x < n /\ 0 <= y < n /\ x <> y /\ (incol Ap Ai x y \/ incol Ap Ai y x).
Lemma patt_sym n Ap Ai x y : patt n Ap Ai x y -> patt n Ap Ai y x. Proof. unfold patt. intuition auto. Qed.
Definition add (D : Z -> Z -> bool) (a b x y : Z) : bool := D x y || ((x =? a) && (y =? b)) || ((x =? b) && (y =? a)).

Section Trav.
Variables (S : Type) (edge : Z -> Z -> S -> res S) (n : Z) (Ap Ai : list Z).
Hypothesis SP : spat n Ap Ai.
Variable I : (Z -> Z -> bool) -> S -> Prop.
(* D: the pairs dealt with so far *)
Record dok (D : Z -> Z -> bool) : Prop := {
  d_sym : forall x y, D x y = D y x;
  d_sub : forall x y, D x y = true -> patt n Ap Ai x y }.
Hypothesis HE : forall D s a b, dok D -> I D s -> patt n Ap Ai a b -> D a b = false -> wp (edge a b s) (I (add D a b)) nerr.

Lemma ap_mono i j : 0 <= i <= j -> j <= n -> rd Ap i <= rd Ap j.
Proof.
  intros Hij Hj. replace j with (i + Z.of_nat (Z.to_nat (j - i))) by lia. assert (X : forall m : nat, i + Z.of_nat m <= n -> rd Ap i <= rd Ap (i + Z.of_nat m)); [|apply X; lia].
  induction m as [|m IH]; intros Hm; [rewrite Z.add_0_r; lia|]. specialize (IH ltac:(lia)). pose proof (@sp_mono _ _ _ SP (i + Z.of_nat m) ltac:(lia)). replace (i + Z.of_nat (Datatypes.S m)) with (i + Z.of_nat m + 1) by lia. lia.
Qed.
Lemma q_rng j q : 0 <= j < n -> rd Ap j <= q < rd Ap (j + 1) -> 0 <= q < zlen Ai /\ 0 <= rd Ai q < n.
Proof.
  intros Hj Hq. assert (rd Ap 0 <= rd Ap j) by (apply ap_mono; lia). assert (rd Ap (j + 1) <= rd Ap n) by (apply ap_mono; lia). pose proof (sp_0 SP). pose proof (sp_ai SP). split; [lia|]. apply (sp_row SP). lia.
Qed.
Lemma q_lt j q q' : 0 <= j < n -> rd Ap j <= q < rd Ap (j + 1) -> rd Ap j <= q' < rd Ap (j + 1) -> (rd Ai q < rd Ai q' <-> q < q').
Proof.
  intros Hj Hq Hq'. split; intros X; [|apply (sp_inc SP Hj); lia]. destruct (Z.lt_trichotomy q q') as [Q|[Q|Q]]; [exact Q|subst; lia|]. assert (rd Ai q' < rd Ai q) by (apply (sp_inc SP Hj); lia). lia.
Qed.
Lemma dok_add D a b : dok D -> patt n Ap Ai a b -> dok (add D a b).
Proof.
  intros H P. constructor.
  - intros x y. unfold add. rewrite (d_sym H x y). destruct (D y x), (x =? a), (y =? b), (x =? b), (y =? a); reflexivity.
  - intros x y. unfold add. rewrite !Bool.orb_true_iff, !Bool.andb_true_iff, !Z.eqb_eq. intros [[X|(-> & ->)]|(-> & ->)]; [apply (d_sub H); exact X|exact P|apply patt_sym; exact P].
Qed.

(* the state of the traversal: U: the entries above the diagonal dealt with; tp j: the entries of column j from tp j on are still to come *)
Definition st (k : Z) (U : Z -> Z -> Prop) (tp : Z -> Z) (D : Z -> Z -> bool) : Prop :=
  forall i j, 0 <= j < i -> i < n -> (D i j = true <-> U i j \/ (j < k /\ exists q, rd Ap j <= q < tp j /\ rd Ai q = i)).

Lemma add_st k U tp D a b U' tp' : st k U tp D -> b < a ->
  (forall i j, 0 <= j < i -> i < n -> (U' i j \/ (j < k /\ exists q, rd Ap j <= q < tp' j /\ rd Ai q = i)) <-> (U i j \/ (j < k /\ exists q, rd Ap j <= q < tp j /\ rd Ai q = i)) \/ (i = a /\ j = b)) -> st k U' tp' (add D a b).
Proof.
  intros H Hab HU i j Hj Hi. rewrite HU by assumption. unfold add. rewrite !Bool.orb_true_iff, !Bool.andb_true_iff, !Z.eqb_eq. rewrite (H i j Hj Hi). intuition lia.
Qed.
Lemma add_st' k U tp D a b U' tp' : st k U tp D -> a < b ->
  (forall i j, 0 <= j < i -> i < n -> (U' i j \/ (j < k /\ exists q, rd Ap j <= q < tp' j /\ rd Ai q = i)) <-> (U i j \/ (j < k /\ exists q, rd Ap j <= q < tp j /\ rd Ai q = i)) \/ (i = b /\ j = a)) -> st k U' tp' (add D a b).
Proof.
  intros H Hab HU i j Hj Hi. rewrite HU by assumption. unfold add. rewrite !Bool.orb_true_iff, !Bool.andb_true_iff, !Z.eqb_eq. rewrite (H i j Hj Hi). intuition lia.
Qed.

Definition updf (tp : Z -> Z) (j v x : Z) : Z := if x =? j then v else tp x.

Lemma low_ok k j (U : Z -> Z -> Prop) (tp : Z -> Z) : 0 <= j < k -> k < n -> U k j -> forall cnt pj s D, pj + Z.of_nat cnt = rd Ap (j + 1) -> rd Ap j <= pj -> (forall q, pj <= q < rd Ap (j + 1) -> j < rd Ai q) ->
  (forall i, j < i < k -> U i j -> forall q, rd Ap j <= q < rd Ap (j + 1) -> rd Ai q <= i -> q < pj) ->
  dok D -> I D s -> st k U (updf tp j pj) D ->
  wp (tr_low edge Ai cnt k j pj s) (fun '(s', pj') => exists D', dok D' /\ I D' s' /\ st k U (updf tp j pj') D' /\ pj <= pj' <= rd Ap (j + 1) /\ (forall q, pj <= q < pj' -> rd Ai q <= k) /\ (forall q, pj' <= q < rd Ap (j + 1) -> k < rd Ai q)) nerr.
Proof.
  intros Hj Hk UK. induction cnt as [|cnt IH]; intros pj s D E Hp ROW ADV DK Is ST; cbn [tr_low].
  - cbn. exists D. split; [exact DK|]. split; [exact Is|]. split; [exact ST|]. split; [lia|]. split; intros; lia.
  - destruct (@q_rng j pj ltac:(lia) ltac:(lia)) as (B1 & B2). wg; [lia|]. set (i := rd Ai pj) in *. assert (Hi : j < i) by (apply ROW; lia).
    assert (SX : forall a, rd Ap j <= a < rd Ap (j + 1) -> (rd Ai a < i <-> a < pj)) by (intros a Ha; apply (@q_lt j a pj); lia).
    assert (PS : forall x y, y < k -> ((exists q, rd Ap y <= q < updf tp j (pj + 1) y /\ rd Ai q = x) <-> (exists q, rd Ap y <= q < updf tp j pj y /\ rd Ai q = x) \/ (x = i /\ y = j))).
    { intros x y Hy. unfold updf. destruct (Z.eqb_spec y j) as [->|N].
      - split; [intros (q & Q1 & Q2); destruct (Z.eq_dec q pj) as [->|]; [right; auto|left; exists q; split; [lia|exact Q2]]|intros [(q & Q1 & Q2)|(-> & _)]; [exists q; split; [lia|exact Q2]|exists pj; split; [lia|reflexivity]]].
      - split; [auto|intros [X|(_ & X)]; [exact X|contradiction]]. }
    destruct (Z.ltb_spec i k) as [Q|Q].
    + assert (PT : patt n Ap Ai i j). { split; [exact B2|]. split; [lia|]. split; [lia|]. right. exists pj. split; [lia|reflexivity]. }
      assert (DF : D i j = false).
      { destruct (D i j) eqn:X; [|reflexivity]. exfalso. apply (ST i j ltac:(lia) ltac:(lia)) in X. destruct X as [X|(_ & q & X1 & X2)].
        - assert (pj < pj); [|lia]. apply (ADV i); [lia|exact X|lia|fold i; lia].
        - unfold updf in X1. rewrite Z.eqb_refl in X1. assert (rd Ai q < i) by (apply SX; lia). lia. }
      apply wp_bind. eapply wp_conseq; [apply (HE DK Is PT DF)|]. intros s' Is'. eapply wp_conseq; [apply (IH (pj + 1) s' (add D i j))|].
      * lia.
      * lia.
      * intros q Hq. apply ROW. lia.
      * intros i' Hi' X q Hq Y. assert (q < pj) by (apply (ADV i'); auto). lia.
      * apply dok_add; auto.
      * exact Is'.
      * eapply add_st; [exact ST|exact Hi|]. intros x y Hy Hx. split.
        -- intros [X|(X1 & X2)]; [auto|]. apply PS in X2; [|exact X1]. destruct X2 as [X2|X2]; auto.
        -- intros [[X|(X1 & X2)]|(-> & ->)]; [auto|right; split; [exact X1|apply PS; auto]|right; split; [lia|apply PS; [lia|auto]]].
      * intros [s2 pj2] (D2 & Y1 & Y2 & Y3 & Y4 & Y5 & Y6). exists D2. split; [exact Y1|]. split; [exact Y2|]. split; [exact Y3|]. split; [lia|]. split; [|exact Y6]. intros q Hq. destruct (Z.eq_dec q pj) as [->|]; [fold i; lia|apply Y5; lia].
    + destruct (Z.eqb_spec i k) as [Q'|Q'].
      * cbn [wp]. exists D. split; [exact DK|]. split; [exact Is|]. split; [|split; [lia|split]].
        -- intros x y Hy Hx. rewrite (ST x y Hy Hx). split; (intros [X|(X1 & X2)]; [auto|]).
           ++ right. split; [exact X1|]. apply PS; auto.
           ++ apply PS in X2; [|exact X1]. destruct X2 as [X2|(-> & ->)]; [auto|]. left. rewrite Q'. exact UK.
        -- intros q Hq. assert (q = pj) by lia. subst q. fold i. lia.
        -- intros q Hq. rewrite <- Q'. unfold i. apply (sp_inc SP (j := j)); lia.
      * cbn [wp]. exists D. split; [exact DK|]. split; [exact Is|]. split; [exact ST|]. split; [lia|]. split; [intros; lia|]. intros q Hq. destruct (Z.eq_dec q pj) as [->|]; [fold i; lia|]. assert (i < rd Ai q) by (unfold i; apply (sp_inc SP (j := j)); lia). lia.
Qed.

Definition UU (k p i j : Z) : Prop := (i < k /\ incol Ap Ai i j) \/ (i = k /\ exists q, rd Ap k <= q < p /\ rd Ai q = j).
Record tw (k p : Z) (tp : Z -> Z) : Prop := {
  w_rng : forall j, 0 <= j < k -> rd Ap j <= tp j <= rd Ap (j + 1);
  w_row : forall j, 0 <= j < k -> forall q, tp j <= q < rd Ap (j + 1) -> j < rd Ai q;
  w_pas : forall j, 0 <= j < k -> forall q, rd Ap j <= q < tp j -> rd Ai q < k \/ (rd Ai q = k /\ UU k p k j);
  w_adv : forall i j, 0 <= j < k -> j < i -> UU k p i j -> forall q, rd Ap j <= q < rd Ap (j + 1) -> rd Ai q <= i -> q < tp j }.

Lemma up_ok k : 0 <= k < n -> forall cnt p s Tp D, p + Z.of_nat cnt = rd Ap (k + 1) -> rd Ap k <= p -> (forall q, rd Ap k <= q < p -> rd Ai q < k) -> zlen Tp = n ->
  tw k p (rd Tp) -> dok D -> I D s -> st k (UU k p) (rd Tp) D ->
  wp (tr_up edge Ap Ai cnt k p s Tp) (fun '(s', Tp', p') => exists D', zlen Tp' = n /\ rd Ap k <= p' <= rd Ap (k + 1) /\ (forall q, rd Ap k <= q < p' -> rd Ai q <= k) /\ (forall q, p' <= q < rd Ap (k + 1) -> k < rd Ai q) /\
     tw k p' (rd Tp') /\ dok D' /\ I D' s' /\ st k (UU k p') (rd Tp') D') nerr.
Proof.
  intros Hk. induction cnt as [|cnt IH]; intros p s Tp D E Hp LOW LT TW DK Is ST; cbn [tr_up].
  - cbn. exists D. split; [exact LT|]. split; [lia|]. split; [intros q Hq; specialize (LOW q Hq); lia|]. split; [intros; lia|]. auto.
  - destruct (@q_rng k p Hk ltac:(lia)) as (B1 & B2). wg; [lia|]. set (j := rd Ai p) in *.
    assert (UUS : forall i y, UU k (p + 1) i y <-> UU k p i y \/ (i = k /\ y = j)).
    { intros i y. unfold UU. split.
      - intros [X|(-> & q & Q1 & Q2)]; [auto|]. destruct (Z.eq_dec q p) as [->|]; [right; auto|left; right; split; [reflexivity|exists q; split; [lia|exact Q2]]].
      - intros [[X|(-> & q & Q1 & Q2)]|(-> & ->)]; [auto|right; split; [reflexivity|exists q; split; [lia|exact Q2]]|right; split; [reflexivity|exists p; split; [lia|reflexivity]]]. }
    destruct (Z.ltb_spec j k) as [Q|Q].
    + assert (Hj : 0 <= j < k) by lia. destruct (w_rng TW Hj) as (T1 & T2).
      assert (NU : ~ UU k p k j). { intros [(X & _)|(_ & q & Q1 & Q2)]; [lia|]. assert (rd Ai q < rd Ai p) by (apply (sp_inc SP Hk); lia). fold j in H. lia. }
      assert (PT : patt n Ap Ai j k). { split; [lia|]. split; [exact Hk|]. split; [lia|]. right. exists p. split; [lia|reflexivity]. }
      assert (DF : D j k = false).
      { rewrite (d_sym DK). destruct (D k j) eqn:X; [|reflexivity]. exfalso. apply (ST k j ltac:(lia) ltac:(lia)) in X. destruct X as [X|(_ & q & X1 & X2)]; [contradiction|]. destruct (w_pas TW Hj X1) as [Y|(_ & Y)]; [lia|contradiction]. }
      apply wp_bind. eapply wp_conseq; [apply (HE DK Is PT DF)|]. intros s1 I1. wg; [pose proof (sp_ap SP); lia|]. wg; [lia|].
      assert (ST1 : st k (UU k (p + 1)) (updf (rd Tp) j (rd Tp j)) (add D j k)).
      { eapply add_st'; [exact ST|exact Q|]. intros x y Hy Hx. rewrite UUS. assert (X : updf (rd Tp) j (rd Tp j) y = rd Tp y) by (unfold updf; destruct (Z.eqb_spec y j) as [->|]; reflexivity). rewrite X. tauto. }
      apply wp_bind. eapply wp_conseq.
      { apply (@low_ok k j (UU k (p + 1)) (rd Tp) Hj ltac:(lia) ltac:(apply UUS; auto) (Z.to_nat (rd Ap (j + 1) - rd Tp j)) (rd Tp j) s1 (add D j k)); auto; try lia.
        - apply (w_row TW Hj).
        - intros i Hi X q Hq Y. apply UUS in X. destruct X as [X|(X & _)]; [|lia]. apply (@w_adv _ _ _ TW i j Hj ltac:(lia) X q Hq Y).
        - apply dok_add; auto. }
      intros [s2 pj] (D2 & DK2 & I2 & ST2 & P1 & P2 & P3). ws; [lia|].
      assert (TPE : forall y, 0 <= y < n -> rd (wr Tp j pj) y = updf (rd Tp) j pj y) by (intros y Hy; unfold updf; apply rd_wr; lia).
      apply (IH (p + 1) s2 (wr Tp j pj) D2); [lia|lia| |rewrite zlen_wr; exact LT| |exact DK2|exact I2|].
      * intros q Hq. destruct (Z.eq_dec q p) as [->|]; [exact Q|apply LOW; lia].
      * constructor.
        -- intros y Hy. rewrite TPE by lia. unfold updf. destruct (Z.eqb_spec y j) as [->|]; [lia|apply (w_rng TW Hy)].
        -- intros y Hy q. rewrite TPE by lia. unfold updf. destruct (Z.eqb_spec y j) as [->|]; [|apply (w_row TW Hy)]. intros Hq. apply (w_row TW Hj). lia.
        -- intros y Hy q. rewrite TPE by lia. unfold updf. destruct (Z.eqb_spec y j) as [->|]; intros Hq.
           ++ assert (UK : UU k (p + 1) k j) by (apply UUS; auto). destruct (Z_lt_le_dec q (rd Tp j)) as [X|X]; [destruct (@w_pas _ _ _ TW j Hj q ltac:(lia)) as [Y|(Y & _)]; auto|]. specialize (P2 q ltac:(lia)). destruct (Z.eq_dec (rd Ai q) k); [right; auto|left; lia].
           ++ destruct (w_pas TW Hy Hq) as [Y|(Y1 & Y2)]; [auto|]. right. split; [exact Y1|]. apply UUS. auto.
        -- intros i y Hy Hi X q Hq Y. rewrite TPE by lia. unfold updf. apply UUS in X. destruct (Z.eqb_spec y j) as [->|Ny].
           ++ destruct X as [X|(X & _)].
              ** pose proof (@w_adv _ _ _ TW i j Hy Hi X q Hq Y). lia.
              ** destruct (Z_lt_le_dec q pj) as [Z1|Z1]; [exact Z1|]. specialize (P3 q ltac:(lia)). lia.
           ++ destruct X as [X|(_ & X)]; [|contradiction]. apply (@w_adv _ _ _ TW i y Hy Hi X q Hq Y).
      * intros x y Hy Hx. rewrite (ST2 x y Hy Hx). rewrite TPE by lia. tauto.
    + assert (SAME : forall p', p' = p \/ (p' = p + 1 /\ j = k) -> tw k p' (rd Tp) /\ st k (UU k p') (rd Tp) D).
      { intros p' [->|(-> & Ej)]; [auto|]. assert (UE : forall i y, y < i -> UU k (p + 1) i y <-> UU k p i y). { intros i y Hy. rewrite UUS. split; [intros [X|(X1 & X2)]; [exact X|lia]|auto]. } split.
        - constructor; [exact (w_rng TW)|exact (w_row TW)| |].
          + intros y Hy q Hq. rewrite UE by lia. apply (w_pas TW Hy Hq).
          + intros i y Hy Hi X. rewrite UE in X by lia. apply (@w_adv _ _ _ TW i y Hy Hi X).
        - intros x y Hy Hx. rewrite (ST x y Hy Hx). rewrite UE by lia. tauto. }
      destruct (Z.eqb_spec j k) as [Q'|Q']; cbn [wp]; exists D; (split; [exact LT|]); (split; [lia|]).
      * destruct (SAME (p + 1) ltac:(auto)) as (X1 & X2). split; [|split; [|auto]].
        -- intros q Hq. destruct (Z.eq_dec q p) as [->|]; [fold j; lia|]. specialize (LOW q ltac:(lia)). lia.
        -- intros q Hq. rewrite <- Q'. unfold j. apply (sp_inc SP Hk); lia.
      * split; [intros q Hq; specialize (LOW q Hq); lia|]. split; [|auto]. intros q Hq. destruct (Z.eq_dec q p) as [->|]; [fold j; lia|]. assert (rd Ai p < rd Ai q) by (apply (sp_inc SP Hk); lia). fold j in H. lia.
Qed.

Definition U0 (k i j : Z) : Prop := i < k /\ incol Ap Ai i j.
Record tm (k : Z) (tp : Z -> Z) : Prop := {
  m_rng : forall j, 0 <= j < k -> rd Ap j <= tp j <= rd Ap (j + 1);
  m_row : forall j, 0 <= j < k -> forall q, tp j <= q < rd Ap (j + 1) -> j < rd Ai q;
  m_pas : forall j, 0 <= j < k -> forall q, rd Ap j <= q < tp j -> rd Ai q < k;
  m_adv : forall i j, 0 <= j < k -> j < i -> U0 k i j -> forall q, rd Ap j <= q < rd Ap (j + 1) -> rd Ai q <= i -> q < tp j }.

Lemma main_ok s0 Tp0 : zlen Tp0 = n -> I (fun _ _ => false) s0 -> wp (tr_main edge n Ap Ai s0 Tp0) (fun '(s, Tp) => exists D, zlen Tp = n /\ tm n (rd Tp) /\ dok D /\ I D s /\ st n (U0 n) (rd Tp) D) nerr.
Proof.
  intros LT0 I0. pose proof (sp_n SP) as Hn. pose proof (sp_ap SP) as HA. unfold tr_main.
  apply wp_for with (I := fun k '(s, Tp) => exists D, zlen Tp = n /\ tm k (rd Tp) /\ dok D /\ I D s /\ st k (U0 k) (rd Tp) D); [lia| |].
  - exists (fun _ _ => false). split; [exact LT0|]. split; [constructor; intros; lia|]. split; [constructor; [reflexivity|discriminate]|]. split; [exact I0|]. intros i j Hj Hi. split; [discriminate|]. intros [(X & _)|(X & _)]; lia.
  - intros k [s Tp] Hk (D & LT & TM & DK & Is & ST). wg; [lia|]. wg; [lia|]. pose proof (sp_mono SP Hk) as MO.
    assert (UE : forall i y, UU k (rd Ap k) i y <-> U0 k i y). { intros i y. unfold UU, U0. split; [intros [X|(_ & q & X & _)]; [exact X|lia]|auto]. }
    apply wp_bind. eapply wp_conseq.
    { apply (@up_ok k Hk (Z.to_nat (rd Ap (k + 1) - rd Ap k)) (rd Ap k) s Tp D); auto; try lia.
      - constructor; [exact (m_rng TM)|exact (m_row TM)| |].
        + intros j Hj q Hq. left. apply (m_pas TM Hj Hq).
        + intros i j Hj Hi X. apply UE in X. apply (@m_adv _ _ TM i j Hj Hi X).
      - intros i j Hj Hi. rewrite (ST i j Hj Hi). rewrite UE. tauto. }
    intros [[s1 Tp1] p1] (D1 & L1 & R1 & R2 & R3 & TW & DK1 & I1 & ST1). ws; [lia|]. cbn [wp]. exists D1. rewrite zlen_wr. split; [exact L1|].
    assert (TO : forall y, 0 <= y < k -> rd (wr Tp1 k p1) y = rd Tp1 y) by (intros; apply rd_wr_ne; lia). assert (TK : rd (wr Tp1 k p1) k = p1) by (apply rd_wr_eq; lia).
    assert (UE1 : forall i y, y < i -> U0 (k + 1) i y <-> UU k p1 i y).
    { intros i y Hy. unfold UU, U0. split.
      - intros (X1 & X2). destruct (Z.eq_dec i k) as [->|]; [|left; split; [lia|exact X2]]. right. split; [reflexivity|]. destruct X2 as (q & Q1 & Q2). exists q. split; [|exact Q2]. destruct (Z_lt_le_dec q p1); [lia|]. specialize (R3 q ltac:(lia)). lia.
      - intros [(X1 & X2)|(-> & q & Q1 & Q2)]; [split; [lia|exact X2]|]. split; [lia|]. exists q. split; [lia|exact Q2]. }
    split; [|split; [exact DK1|split; [exact I1|]]].
    + constructor.
      * intros j Hj. destruct (Z.eq_dec j k) as [->|]; [rewrite TK; lia|rewrite TO by lia; apply (w_rng TW); lia].
      * intros j Hj. destruct (Z.eq_dec j k) as [->|]; [rewrite TK; exact R3|rewrite TO by lia; apply (w_row TW); lia].
      * intros j Hj q Hq. destruct (Z.eq_dec j k) as [->|]; [rewrite TK in Hq; specialize (R2 q Hq); lia|]. rewrite TO in Hq by lia. destruct (@w_pas _ _ _ TW j ltac:(lia) q Hq) as [X|(X & _)]; lia.
      * intros i j Hj Hi X q Hq Y. apply UE1 in X; [|exact Hi]. destruct (Z.eq_dec j k) as [->|]; [|rewrite TO by lia; apply (@w_adv _ _ _ TW i j ltac:(lia) Hi X q Hq Y)]. exfalso. destruct X as [(X & _)|(X & _)]; lia.
    + intros i j Hj Hi. rewrite (ST1 i j Hj Hi). rewrite UE1 by lia. split; (intros [X|(X1 & q & Q1 & Q2)]; [auto|]).
      * right. split; [lia|]. exists q. rewrite TO by lia. auto.
      * destruct (Z.eq_dec j k) as [->|]; [rewrite TK in Q1; specialize (R2 q Q1); lia|]. rewrite TO in Q1 by lia. right. split; [lia|]. exists q. auto.
Qed.

Theorem traverse_ok s0 Tp0 : zlen Tp0 = n -> I (fun _ _ => false) s0 -> wp (traverse edge n Ap Ai s0 Tp0) (fun s => exists D, I D s /\ dok D /\ forall x y, D x y = true <-> patt n Ap Ai x y) nerr.
Proof.
  intros LT0 I0. pose proof (sp_n SP) as Hn. pose proof (sp_ap SP) as HA. unfold traverse. apply wp_bind. eapply wp_conseq; [apply (@main_ok s0 Tp0 LT0 I0)|]. intros [s Tp] (D & LT & TM & DK & Is & ST). unfold tr_rest.
  set (full := fun c y => if y <? c then rd Ap (y + 1) else rd Tp y).
  assert (F1 : forall c y, 0 <= y < n -> rd Tp y <= full c y <= rd Ap (y + 1)). { intros c y Hy. unfold full. pose proof (m_rng TM Hy). destruct (y <? c); lia. }
  eapply wp_conseq; [apply wp_for with (I := fun c s => exists D, dok D /\ I D s /\ st n (U0 n) (full c) D); [lia| |]|].
  - exists D. split; [exact DK|]. split; [exact Is|]. intros i j Hj Hi. rewrite (ST i j Hj Hi). unfold full. rewrite (proj2 (Z.ltb_ge j 0)) by lia. tauto.
  - clear s D DK Is ST. intros j s Hj (D & DK & Is & ST). wg; [lia|]. wg; [lia|]. pose proof (m_rng TM Hj) as TR.
    eapply wp_conseq; [apply wp_for with (I := fun pj s => exists D, dok D /\ I D s /\ st n (U0 n) (updf (full j) j pj) D); [lia| |]|].
    + exists D. split; [exact DK|]. split; [exact Is|]. intros x y Hy Hx. rewrite (ST x y Hy Hx). unfold updf. destruct (Z.eqb_spec y j) as [->|]; [unfold full; rewrite Z.ltb_irrefl; tauto|tauto].
    + clear s D DK Is ST. intros pj s Hp (D & DK & Is & ST). destruct (@q_rng j pj Hj ltac:(lia)) as (B1 & B2). wg; [lia|]. set (i := rd Ai pj) in *. assert (Hi : j < i) by (apply (m_row TM Hj); lia).
      assert (PT : patt n Ap Ai i j). { split; [exact B2|]. split; [exact Hj|]. split; [lia|]. right. exists pj. split; [lia|reflexivity]. }
      assert (DF : D i j = false).
      { destruct (D i j) eqn:X; [|reflexivity]. exfalso. apply (ST i j ltac:(lia) ltac:(lia)) in X. destruct X as [X|(_ & q & X1 & X2)].
        - assert (pj < rd Tp j); [|lia]. apply (@m_adv _ _ TM i j Hj Hi X pj); [lia|fold i; lia].
        - unfold updf in X1. rewrite Z.eqb_refl in X1. assert (rd Ai q < rd Ai pj) by (apply (@q_lt j q pj); lia). fold i in H. lia. }
      eapply wp_conseq; [apply (HE DK Is PT DF)|]. intros s' Is'. exists (add D i j). split; [apply dok_add; auto|]. split; [exact Is'|]. eapply add_st; [exact ST|exact Hi|].
      intros x y Hy Hx. unfold updf. destruct (Z.eqb_spec y j) as [->|N].
      * split.
        -- intros [X|(X & q & Q1 & Q2)]; [auto|]. destruct (Z.eq_dec q pj) as [->|]; [right; auto|]. left. right. split; [exact X|]. exists q. split; [lia|exact Q2].
        -- intros [[X|(X & q & Q1 & Q2)]|(-> & _)]; [auto|right; split; [exact X|]; exists q; split; [lia|exact Q2]|right; split; [lia|]; exists pj; split; [lia|reflexivity]].
      * split; [auto|intros [X|(_ & X)]; [exact X|contradiction]].
    + intros s' (D' & DK' & Is' & ST'). exists D'. split; [exact DK'|]. split; [exact Is'|]. intros x y Hy Hx. rewrite (ST' x y Hy Hx).
      assert (FE : updf (full j) j (rd Ap (j + 1)) y = full (j + 1) y). { unfold updf, full. destruct (Z.eqb_spec y j) as [->|N]; [rewrite (proj2 (Z.ltb_lt j (j + 1))) by lia; reflexivity|]. destruct (Z.ltb_spec y j), (Z.ltb_spec y (j + 1)); auto; lia. } rewrite FE. tauto.
  - intros s' (D' & DK' & Is' & ST'). exists D'. split; [exact Is'|]. split; [exact DK'|].
    assert (LOW : forall i j, 0 <= j < i -> i < n -> (D' i j = true <-> incol Ap Ai i j \/ incol Ap Ai j i)).
    { intros i j Hj Hi. rewrite (ST' i j Hj Hi). unfold full, U0. rewrite (proj2 (Z.ltb_lt j n)) by lia. unfold incol. intuition lia. }
    intros x y. split; [apply (d_sub DK')|]. intros (X1 & X2 & X3 & X4). destruct (Z_lt_le_dec y x) as [Q|Q]; [apply LOW; [lia|lia|tauto]|]. rewrite (d_sym DK'). apply LOW; [lia|lia|tauto].
Qed.
End Trav.
