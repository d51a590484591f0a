(* Every matrix whose columns may list a row twice has a valid counterpart with the entries in force. *)
From Verif Require Import Base Spec LUSpec MFactor MSolve MMatrix MApi PReach PTri PPivot PFactor PUninit StoreSpec PStorage.
From Verif Require PCheck.
Set Implicit Arguments.
Open Scope Z_scope.
Set Bullet Behavior "Strict Subproofs".
Local Ltac lia := first [Lia.lia | cbv beta in *; Lia.lia].

Lemma in_force_fun Ap Ai Ax c i v w : in_force Ap Ai Ax c i v -> in_force Ap Ai Ax c i w -> v = w.
Proof.
  intros (p & P1 & P2 & P3 & P4) (p' & Q1 & Q2 & Q3 & Q4). destruct (Z.lt_trichotomy p p') as [H|[<-|H]]; [exfalso; apply (P4 p'); [lia|assumption]|congruence|exfalso; apply (Q4 p); [lia|assumption]].
Qed.
Lemma col_list n Ap Ai Ax c : loose_csc n Ap Ai Ax -> 0 <= c < n -> exists l : list (Z * Z), NoDup (map fst l) /\ forall i v, In (i, v) l <-> in_force Ap Ai Ax c i v.
Proof.
  intros L Hc. enough (K : forall t, Z.of_nat t <= n -> exists l : list (Z * Z), NoDup (map fst l) /\ forall i v, In (i, v) l <-> 0 <= i < Z.of_nat t /\ in_force Ap Ai Ax c i v).
  { destruct (K (Z.to_nat n)) as (l & N & E); [pose proof (lc_n L); lia|]. exists l. split; [exact N|]. intros i v. rewrite E. split; [tauto|]. intros F. split; [|exact F]. destruct F as (p & P1 & <- & _). pose proof (lc_ptr L Hc). pose proof (lc_i L (p := p) ltac:(lia)). lia. }
  induction t as [|t IH]; intros Ht; [exists []; split; [constructor|]; intros i v; split; [intros []|lia]|]. destruct (IH ltac:(lia)) as (l & N & E).
  destruct (@col_dec Ap Ai c (Z.of_nat t)) as [D|(p & P1 & P2 & P3)]; [apply (lc_mono L Hc)| |].
  - exists l. split; [exact N|]. intros i v. rewrite E. split; [intros (H & F); split; [lia|exact F]|]. intros (H & F). split; [|exact F]. destruct (Z.eq_dec i (Z.of_nat t)) as [->|]; [|lia]. exfalso. destruct F as (p & P1 & P2 & _). apply (D p P1 P2).
  - exists ((Z.of_nat t, rd Ax p) :: l). assert (F0 : in_force Ap Ai Ax c (Z.of_nat t) (rd Ax p)) by (exists p; auto). split.
    + cbn. constructor; [|exact N]. intros I. apply in_map_iff in I. destruct I as ((i & v) & E1 & I). cbn in E1. subst i. apply E in I. lia.
    + intros i v. cbn. rewrite E. split.
      * intros [[= <- <-]|(H & F)]; [split; [lia|exact F0]|split; [lia|exact F]].
      * intros (H & F). destruct (Z.eq_dec i (Z.of_nat t)) as [->|]; [left; f_equal; apply (in_force_fun F0 F)|right; split; [lia|exact F]].
Qed.
Lemma rd_map_nth A (f : A -> Z) (l : list A) (d : A) k : 0 <= k < Z.of_nat (length l) -> rd (map f l) k = f (nth (Z.to_nat k) l d).
Proof. intros H. unfold rd. rewrite (nth_indep _ 0 (f d)) by (rewrite map_length; lia). apply map_nth. Qed.
Lemma rd_app_snoc (l : list Z) x k : 0 <= k <= zlen l -> rd (l ++ [x]) k = if k =? zlen l then x else rd l k.
Proof.
  intros H. destruct (Z.eqb_spec k (zlen l)) as [->|]; [|apply rd_app1; lia]. rewrite rd_app2 by lia. rewrite Z.sub_diag. reflexivity.
Qed.
Lemma dedup n Ap Ai Ax : loose_csc n Ap Ai Ax -> exists Dp Di Dx, valid_csc n n Dp Di Dx /\ same_matrix n Dp Di Dx Ap Ai Ax.
Proof.
  intros L. pose proof (lc_n L) as Hn.
  enough (K : forall t, Z.of_nat t <= n -> exists Dp Di Dx, zlen Dp = Z.of_nat t + 1 /\ rd Dp 0 = 0 /\ (forall c, 0 <= c < Z.of_nat t -> rd Dp c <= rd Dp (c + 1)) /\ rd Dp (Z.of_nat t) = zlen Di /\ zlen Dx = zlen Di /\
    (forall p, 0 <= p < zlen Di -> 0 <= rd Di p < n) /\ (forall c, 0 <= c <= Z.of_nat t -> 0 <= rd Dp c <= zlen Di) /\
    (forall c p p', 0 <= c < Z.of_nat t -> rd Dp c <= p < rd Dp (c + 1) -> rd Dp c <= p' < rd Dp (c + 1) -> rd Di p = rd Di p' -> p = p') /\
    (forall c, 0 <= c < Z.of_nat t -> forall i v, (exists p, rd Dp c <= p < rd Dp (c + 1) /\ rd Di p = i /\ rd Dx p = v) <-> in_force Ap Ai Ax c i v)).
  { destruct (K (Z.to_nat n) ltac:(lia)) as (Dp & Di & Dx & K1 & K2 & K3 & K4 & K5 & K6 & K7 & K8 & K9). rewrite Z2Nat.id in * by lia. exists Dp, Di, Dx. split.
    - constructor; try assumption; try lia. intros p Hp. apply K6. lia.
    - intros c Hc i v. rewrite <- (K9 c Hc). split.
      + intros (p & P1 & P2 & P3 & _). eauto.
      + intros (p & P1 & P2 & P3). exists p. repeat (split; [assumption|]). intros p' Hp' E. assert (p' = p) by (apply (K8 c); [assumption|lia|assumption|congruence]). lia. }
  induction t as [|t IH]; intros Ht.
  - exists [0], [], []. repeat split; try reflexivity; try (intros; cbn in *; lia); intros; change (zlen (@nil Z)) with 0; assert (c = 0) as -> by lia; cbn; lia.
  - destruct (IH ltac:(lia)) as (Dp & Di & Dx & K1 & K2 & K3 & K4 & K5 & K6 & K7 & K8 & K9). destruct (@col_list n Ap Ai Ax (Z.of_nat t) L ltac:(lia)) as (l & N & E).
    set (m := Z.of_nat t) in *. replace (Z.of_nat (S t)) with (m + 1) in * by lia. assert (0 <= m) by lia. clearbody m. clear IH.
    set (li := map fst l). set (lx := map snd l). set (w := Z.of_nat (length l)).
    assert (Z1 : zlen li = w) by (unfold zlen, li, w; rewrite map_length; reflexivity). assert (Z2 : zlen lx = w) by (unfold zlen, lx, w; rewrite map_length; reflexivity). assert (W0 : 0 <= w) by (unfold w; lia).
    assert (PP : forall c, 0 <= c <= m + 1 -> rd (Dp ++ [zlen Di + w]) c = if c =? m + 1 then zlen Di + w else rd Dp c) by (intros c Hc; rewrite rd_app_snoc by lia; rewrite K1; reflexivity).
    assert (PL : forall c, 0 <= c <= m -> rd (Dp ++ [zlen Di + w]) c = rd Dp c) by (intros c Hc; rewrite PP by lia; destruct (Z.eqb_spec c (m + 1)); [lia|reflexivity]).
    assert (PM : rd (Dp ++ [zlen Di + w]) (m + 1) = zlen Di + w) by (rewrite PP by lia; rewrite Z.eqb_refl; reflexivity).
    assert (NL : forall k, 0 <= k < w -> In (rd li k, rd lx k) l /\ (rd li k, rd lx k) = nth (Z.to_nat k) l (0, 0)).
    { intros k Hk. unfold li, lx. rewrite !(rd_map_nth _ l (0, 0)) by (unfold w in Hk; lia). rewrite <- surjective_pairing. split; [apply nth_In; unfold w in Hk; lia|reflexivity]. }
    assert (NI : forall i v, In (i, v) l -> exists k, 0 <= k < w /\ rd li k = i /\ rd lx k = v).
    { intros i v I. destruct (In_nth _ _ (0, 0) I) as (k & H1 & H2). exists (Z.of_nat k). split; [unfold w; lia|]. unfold li, lx. rewrite !(rd_map_nth _ l (0, 0)) by (unfold w; lia). rewrite Nat2Z.id, H2. auto. }
    assert (ND : forall k k', 0 <= k < w -> 0 <= k' < w -> rd li k = rd li k' -> k = k').
    { intros k k' H1 H2 E1. assert (Z.to_nat k = Z.to_nat k'); [|lia]. apply (proj1 (NoDup_nth li 0) N); [unfold li; rewrite map_length; unfold w in *; lia|unfold li; rewrite map_length; unfold w in *; lia|exact E1]. }
    assert (I1 : forall p, 0 <= p < zlen Di -> rd (Di ++ li) p = rd Di p) by (intros; apply rd_app1; lia). assert (I2 : forall p, zlen Di <= p -> rd (Di ++ li) p = rd li (p - zlen Di)) by (intros; apply rd_app2; lia).
    assert (X1 : forall p, 0 <= p < zlen Di -> rd (Dx ++ lx) p = rd Dx p) by (intros; apply rd_app1; lia). assert (X2 : forall p, zlen Di <= p -> rd (Dx ++ lx) p = rd lx (p - zlen Di)) by (intros; rewrite rd_app2 by lia; f_equal; lia).
    pose proof (zlen_nonneg Di) as D0.
    exists (Dp ++ [zlen Di + w]), (Di ++ li), (Dx ++ lx). rewrite !zlen_app, Z1, Z2. change (zlen [zlen Di + w]) with 1.
    split; [lia|]. split; [rewrite PL by lia; exact K2|].
    split. { intros c Hc. destruct (Z.eq_dec c m) as [->|]; [rewrite PM, PL by lia; lia|rewrite !PL by lia; apply K3; lia]. }
    split; [exact PM|]. split; [lia|].
    split. { intros p Hp. destruct (Z_lt_le_dec p (zlen Di)); [rewrite I1 by lia; apply K6; lia|]. rewrite I2 by lia. destruct (NL (p - zlen Di) ltac:(lia)) as (I & _). apply E in I. destruct I as (q & Q1 & <- & _). apply (lc_i L). pose proof (lc_ptr L (c := m) ltac:(lia)). lia. }
    split. { intros c Hc. rewrite PP by lia. destruct (c =? m + 1); [lia|]. destruct (Z.eq_dec c (m + 1)) as [->|]; [|pose proof (K7 c ltac:(lia)); lia]. assert (rd Dp (m + 1) = 0) as -> by (unfold rd; apply nth_overflow; unfold zlen in K1; lia). lia. }
    split.
    { intros c p p' Hc. destruct (Z.eq_dec c m) as [->|].
      - rewrite PM, PL by lia. intros Hp Hp'. rewrite !I2 by lia. intros Eq. apply ND in Eq; lia.
      - pose proof (K7 c ltac:(lia)). pose proof (K7 (c + 1) ltac:(lia)). rewrite !PL by lia. intros Hp Hp'. rewrite !I1 by lia. apply (K8 c); lia. }
    intros c Hc i v. destruct (Z.eq_dec c m) as [->|].
    + rewrite <- E, PM, PL by lia. split.
      * intros (p & Hp & P1 & P2). rewrite I2 in P1 by lia. rewrite X2 in P2 by lia. destruct (NL (p - zlen Di) ltac:(lia)) as (I & _). rewrite P1, P2 in I. exact I.
      * intros I. destruct (NI i v I) as (k & Hk & Q1 & Q2). exists (zlen Di + k). split; [lia|]. rewrite I2, X2 by lia. replace (zlen Di + k - zlen Di) with k by lia. auto.
    + pose proof (K7 c ltac:(lia)). pose proof (K7 (c + 1) ltac:(lia)). rewrite <- (K9 c ltac:(lia)), !PL by lia. split; intros (p & Hp & P); exists p; (split; [exact Hp|]); rewrite ?I1, ?X1 in * by lia; assumption.
Qed.
