(* Two runs of the factorization on the same matrix stored in different ways, in lockstep. *)
From Verif Require Import Base Spec LUSpec MFactor MSolve MMatrix MApi PReach PTri PPivot PFactor PUninit StoreSpec.
From Verif Require PCheck.
Set Implicit Arguments.
Open Scope Z_scope.
Set Bullet Behavior "Strict Subproofs".
Local Ltac lia := first [Lia.lia | cbv beta in *; Lia.lia].

Lemma lc_ptr n Ap Ai Ax : loose_csc n Ap Ai Ax -> forall c, 0 <= c < n -> 0 <= rd Ap c <= rd Ap (c + 1) /\ rd Ap (c + 1) <= rd Ap n.
Proof.
  intros L.
  assert (M : forall t c, 0 <= c -> c + Z.of_nat t <= n -> rd Ap c <= rd Ap (c + Z.of_nat t)).
  { induction t as [|t IH]; intros c H1 H2; [rewrite Z.add_0_r; lia|]. specialize (IH c H1 ltac:(lia)). pose proof (lc_mono L (c := c + Z.of_nat t) ltac:(lia)). replace (c + Z.of_nat (S t)) with (c + Z.of_nat t + 1) by lia. lia. }
  intros c Hc. pose proof (M (Z.to_nat c) 0 ltac:(lia) ltac:(lia)) as A. pose proof (M (Z.to_nat (n - (c + 1))) (c + 1) ltac:(lia) ltac:(lia)) as B. pose proof (lc_0 L). pose proof (lc_mono L Hc).
  replace (0 + Z.of_nat (Z.to_nat c)) with c in A by lia. replace (c + 1 + Z.of_nat (Z.to_nat (n - (c + 1)))) with n in B by lia. lia.
Qed.
Lemma lc_col n Ap Ai Ax c : loose_csc n Ap Ai Ax -> 0 <= c < n -> col_ok n Ap Ai c.
Proof.
  intros L Hc. pose proof (lc_ptr L Hc). pose proof (lc_p L). pose proof (lc_cap L). constructor; [lia|lia|]. intros p Hp. apply (lc_i L). lia.
Qed.
Lemma valid_loose n Ap Ai Ax : valid_csc n n Ap Ai Ax -> loose_csc n Ap Ai Ax.
Proof. intros V. constructor; try apply V. rewrite (v_x V). apply V. Qed.

(* the last entry of a row in a range of positions *)
Lemma last_dec (f : Z -> Z) lo i : forall t, (forall p, lo <= p < lo + Z.of_nat t -> f p <> i) \/ exists p, lo <= p < lo + Z.of_nat t /\ f p = i /\ forall p', p < p' < lo + Z.of_nat t -> f p' <> i.
Proof.
  induction t as [|t IH]; [left; lia|]. destruct (Z.eq_dec (f (lo + Z.of_nat t)) i) as [E|E].
  - right. exists (lo + Z.of_nat t). split; [lia|]. split; [exact E|]. lia.
  - destruct IH as [IH|(p & Hp & E1 & E2)].
    + left. intros p Hp. destruct (Z.eq_dec p (lo + Z.of_nat t)) as [->|]; [exact E|]. apply IH. lia.
    + right. exists p. split; [lia|]. split; [exact E1|]. intros p' Hp'. destruct (Z.eq_dec p' (lo + Z.of_nat t)) as [->|]; [exact E|]. apply E2. lia.
Qed.
Lemma col_dec Ap Ai c i : rd Ap c <= rd Ap (c + 1) -> (forall p, rd Ap c <= p < rd Ap (c + 1) -> rd Ai p <> i) \/ exists p, rd Ap c <= p < rd Ap (c + 1) /\ rd Ai p = i /\ forall p', p < p' < rd Ap (c + 1) -> rd Ai p' <> i.
Proof.
  intros H. destruct (@last_dec (rd Ai) (rd Ap c) i (Z.to_nat (rd Ap (c + 1) - rd Ap c))) as [K|(p & K1 & K2 & K3)]; replace (rd Ap c + Z.of_nat (Z.to_nat (rd Ap (c + 1) - rd Ap c))) with (rd Ap (c + 1)) in * by lia; eauto 6.
Qed.
Lemma row_iff n Ap Ai Ax Ap' Ai' Ax' c : loose_csc n Ap Ai Ax -> loose_csc n Ap' Ai' Ax' -> 0 <= c < n ->
  (forall i v, in_force Ap Ai Ax c i v <-> in_force Ap' Ai' Ax' c i v) ->
  forall i, (exists p, rd Ap c <= p < rd Ap (c + 1) /\ rd Ai p = i) -> (exists p, rd Ap' c <= p < rd Ap' (c + 1) /\ rd Ai' p = i).
Proof.
  intros L L' Hc E i (p & Hp & Ep). destruct (@col_dec Ap Ai c i) as [N|(p1 & H1 & H2 & H3)]; [apply (lc_mono L Hc)|exfalso; apply (N p); assumption|].
  destruct (proj1 (E i (rd Ax p1))) as (p2 & K1 & K2 & _). { exists p1. auto. } exists p2. auto.
Qed.

Lemma scatter_loose n Ap Ai Ax c x E : loose_csc n Ap Ai Ax -> 0 <= c < n -> zlen x = n ->
  wp (for_ (rd Ap c) (rd Ap (c + 1)) (fun i x => let* a := get Ai i in let* v := get Ax i in set x a v) x)
     (fun x' => zlen x' = n /\ (forall i v, in_force Ap Ai Ax c i v -> rd x' i = v) /\
        (forall i, 0 <= i < n -> (forall p, rd Ap c <= p < rd Ap (c + 1) -> rd Ai p <> i) -> rd x' i = rd x i)) E.
Proof.
  intros L Hc Hx. pose proof (lc_ptr L Hc) as Hp. pose proof (lc_cap L). pose proof (lc_x L). eapply wp_conseq.
  - apply wp_for with (I := fun t x' => zlen x' = n /\ (forall p, rd Ap c <= p < t -> (forall p', p < p' < t -> rd Ai p' <> rd Ai p) -> rd x' (rd Ai p) = rd Ax p) /\
        (forall i, 0 <= i < n -> (forall p, rd Ap c <= p < t -> rd Ai p <> i) -> rd x' i = rd x i)).
    + lia.
    + split; [auto|]. split; [intros; lia|auto].
    + intros j x' Hj (H1 & H2 & H3). pose proof (lc_i L (p := j) ltac:(lia)) as Hj2.
      rewrite (get_rd Ai) by lia. cbn [bind]. rewrite get_rd by lia. cbn [bind]. rewrite set_wr by lia. cbn [wp].
      split; [now rewrite zlen_wr|]. split.
      * intros p Hpp K. pose proof (lc_i L (p := p) ltac:(lia)). rewrite rd_wr by lia.
        destruct (Z.eqb_spec (rd Ai p) (rd Ai j)) as [e|e].
        -- destruct (Z.eq_dec p j) as [->|ne]; [reflexivity|]. exfalso. apply (K j ltac:(lia)). congruence.
        -- apply H2; [assert (p <> j) by congruence; lia|]. intros p' Hp'. apply K. lia.
      * intros i Hi Hn. rewrite rd_wr by lia. destruct (Z.eqb_spec i (rd Ai j)) as [e|]; [exfalso; apply (Hn j); [lia|congruence]|]. apply H3; [exact Hi|]. intros; apply Hn; lia.
  - intros x' (H1 & H2 & H3). split; [exact H1|]. split; [|exact H3]. intros i v (p & P1 & <- & <- & P2). apply H2; [exact P1|exact P2].
Qed.

(* two enumerations without repetition of the same set have the same length *)
Lemma same_count top top' n (f g : Z -> Z) : top <= n -> top' <= n -> (forall a b, top <= a < n -> top <= b < n -> f a = f b -> a = b) ->
  (forall a, top <= a < n -> exists b, top' <= b < n /\ g b = f a) -> top' <= top.
Proof.
  intros Ht Ht' Hi Hs. destruct (Z_le_gt_dec top' top) as [|G]; [assumption|]. exfalso.
  assert (ND : NoDup (map f (zseq top n))).
  { apply PCheck.NoDup_map_iff; [apply PCheck.nodup_zseq|]. intros a b Ha Hb. apply in_zseq in Ha. apply in_zseq in Hb. auto. }
  pose proof (NoDup_incl_length ND (l' := map g (zseq top' n))) as K. rewrite !map_length in K. assert (ZL : forall a b, length (zseq a b) = Z.to_nat (b - a)) by (intros; unfold zseq; rewrite map_length, seq_length; reflexivity). rewrite !ZL in K.
  enough (Z.to_nat (n - top) <= Z.to_nat (n - top'))%nat by lia. apply K. intros y Hy. apply in_map_iff in Hy. destruct Hy as (a & <- & Ha). apply in_zseq in Ha. destruct (Hs a Ha) as (b & Hb & E). rewrite <- E. apply in_map. apply in_zseq. exact Hb.
Qed.
(* and in increasing order they are equal *)
Lemma sorted_same top n (f g : Z -> Z) : (forall a b, top <= a < b -> b < n -> f a < f b) -> (forall a b, top <= a < b -> b < n -> g a < g b) ->
  (forall v, (exists a, top <= a < n /\ f a = v) <-> (exists a, top <= a < n /\ g a = v)) -> forall a, top <= a < n -> f a = g a.
Proof.
  intros Hf Hg Hs. enough (K : forall t a, Z.of_nat t = a - top -> a < n -> f a = g a) by (intros a Ha; apply (K (Z.to_nat (a - top))); lia).
  induction t as [t IH] using lt_wf_ind. intros a Et Ha.
  assert (PR : forall b, top <= b < a -> f b = g b) by (intros b Hb; apply (IH (Z.to_nat (b - top))); lia).
  destruct (proj1 (Hs (f a))) as (b & Hb & Eb); [exists a; split; [lia|reflexivity]|]. destruct (proj2 (Hs (g a))) as (d & Hd & Ed); [exists a; split; [lia|reflexivity]|].
  assert (a <= b). { destruct (Z_le_gt_dec a b); [assumption|]. exfalso. pose proof (PR b ltac:(lia)). pose proof (Hf b a ltac:(lia) Ha). lia. }
  assert (a <= d). { destruct (Z_le_gt_dec a d); [assumption|]. exfalso. pose proof (PR d ltac:(lia)). pose proof (Hg d a ltac:(lia) Ha). lia. }
  destruct (Z.eq_dec a b) as [<-|]; [auto|]. destruct (Z.eq_dec a d) as [<-|]; [auto|]. pose proof (Hg a b ltac:(lia) ltac:(lia)). pose proof (Hf a d ltac:(lia) ltac:(lia)). lia.
Qed.

Definition same_tri2 (n : Z) (r r' : Z * list Z * list Z * list Z * list Z) : Prop :=
  let '(top, xi, Lp, x, h) := r in let '(top', xi', Lp', x', h') := r' in top = top' /\ Lp = Lp' /\ x = x' /\ h = h' /\ agree (fun i => top <= i < n) xi xi' /\ zlen xi = 2 * n.
Lemma reach_mono Lp Li pinv Ap Ai Ap' Ai' k : (forall i, (exists p, rd Ap k <= p < rd Ap (k + 1) /\ rd Ai p = i) -> (exists p, rd Ap' k <= p < rd Ap' (k + 1) /\ rd Ai' p = i)) ->
  forall i, reachable Lp Li pinv Ap Ai k i -> reachable Lp Li pinv Ap' Ai' k i.
Proof.
  intros H i R. induction R as [p Hp|j i R IH E].
  - destruct (H (rd Ai p)) as (p' & P1 & <-); [eauto|]. apply reach_start. exact P1.
  - eapply reach_step; eassumption.
Qed.
Lemma tri_storage n k Lp Li Lx Ap Ai Ax Ap' Ai' Ax' xi xi' q rhos pinv rowp h x :
  0 <= k < n -> loose_csc n Ap Ai Ax -> loose_csc n Ap' Ai' Ax' -> same_matrix n Ap Ai Ax Ap' Ai' Ax' -> is_perm n q -> perm_ok n pinv rowp -> graph_ok n Lp Li pinv ->
  zlen xi = 2 * n -> zlen xi' = 2 * n -> zlen h = n -> zlen x = n ->
  sim (same_tri2 n) (slip_ref_triangular_solve n Lp Li Lx Ap Ai Ax k xi q rhos pinv rowp h x) (slip_ref_triangular_solve n Lp Li Lx Ap' Ai' Ax' k xi' q rhos pinv rowp h x).
Proof.
  intros Hk L L' SM (HqL & HqR & HqI) HP G Hxl Hxl' Hhl Hx. assert (Hcol : 0 <= rd q k < n) by (apply HqR; lia). set (col := rd q k) in *. specialize (SM col Hcol).
  pose proof (lc_col L Hcol) as C. pose proof (lc_col L' Hcol) as C'. assert (SM' : forall i v, in_force Ap' Ai' Ax' col i v <-> in_force Ap Ai Ax col i v) by (intros i v; symmetry; apply SM).
  pose proof (row_iff L L' Hcol SM) as R1. pose proof (row_iff L' L Hcol SM') as R2.
  destruct (@slip_reach_spec n Lp Li pinv Ap Ai col xi ltac:(lia) G C Hxl) as (top & xi1 & Er & Ht & Hl1 & Hinj & Hrng & Hrch).
  destruct (@slip_reach_spec n Lp Li pinv Ap' Ai' col xi' ltac:(lia) G C' Hxl') as (top' & xi1' & Er' & Ht' & Hl1' & Hinj' & Hrng' & Hrch').
  assert (RR : forall i, reachable Lp Li pinv Ap Ai col i <-> reachable Lp Li pinv Ap' Ai' col i) by (intros i; split; apply reach_mono; assumption).
  assert (SET : forall i, (exists a, top <= a < n /\ rd xi1 a = i) <-> (exists a, top' <= a < n /\ rd xi1' a = i)) by (intros i; rewrite <- Hrch, <- Hrch'; apply RR).
  assert (top' = top) as ->.
  { apply Z.le_antisymm.
    - apply (@same_count top top' n (rd xi1) (rd xi1') ltac:(lia) ltac:(lia) Hinj). intros a Ha. apply SET. eauto.
    - apply (@same_count top' top n (rd xi1') (rd xi1) ltac:(lia) ltac:(lia) Hinj'). intros a Ha. apply SET. eauto. }
  unfold slip_ref_triangular_solve. rewrite get_rd by lia. cbn [bind]. fold col. rewrite Er, Er'. cbn [bind].
  pose proof (p_l1 HP) as Hpl1. pose proof (p_l2 HP) as Hpl2.
  destruct (wp_ok_ex _ _ (@map_range_spec xi1 pinv top n nerr Ht ltac:(lia) ltac:(rewrite Hpl1; auto))) as (xi2 & -> & Hl2 & Hm2 & _). cbn [bind].
  destruct (wp_ok_ex _ _ (@map_range_spec xi1' pinv top n nerr Ht ltac:(lia) ltac:(rewrite Hpl1; auto))) as (xi2' & -> & Hl2' & Hm2' & _). cbn [bind].
  destruct (@sort_range_spec xi2 top n Ht ltac:(lia)) as (xi3 & -> & Hl3 & Hs3 & Hset3).
  { intros a b Ha Hb. rewrite !Hm2 by lia. intros E. apply Hinj; auto. rewrite <- (p_c1 HP (i := rd xi1 a)), <- (p_c1 HP (i := rd xi1 b)) by auto. now rewrite E. }
  destruct (@sort_range_spec xi2' top n Ht ltac:(lia)) as (xi3' & -> & Hl3' & Hs3' & Hset3').
  { intros a b Ha Hb. rewrite !Hm2' by lia. intros E. apply Hinj'; auto. rewrite <- (p_c1 HP (i := rd xi1' a)), <- (p_c1 HP (i := rd xi1' b)) by auto. now rewrite E. }
  cbn [bind].
  assert (EQ3 : forall a, top <= a < n -> rd xi3 a = rd xi3' a).
  { apply sorted_same; [exact Hs3|exact Hs3'|]. intros v. rewrite Hset3, Hset3'. split; intros (a & Ha & <-).
    - destruct (proj1 (SET (rd xi1 a))) as (b & Hb & E); [eauto|]. exists b. split; [exact Hb|]. rewrite Hm2, Hm2' by lia. now rewrite E.
    - destruct (proj2 (SET (rd xi1' a))) as (b & Hb & E); [eauto|]. exists b. split; [exact Hb|]. rewrite Hm2, Hm2' by lia. now rewrite E. }
  assert (Hr3 : forall a, top <= a < n -> 0 <= rd xi3 a < n).
  { intros a Ha. destruct (proj1 (Hset3 (rd xi3 a))) as (b & Hb & <-). eauto. rewrite Hm2 by lia. apply (p_r1 HP). auto. }
  destruct (wp_ok_ex _ _ (@map_range_spec xi3 rowp top n nerr Ht ltac:(lia) ltac:(rewrite Hpl2; auto))) as (xi4 & -> & Hl4 & Hm4 & _). cbn [bind].
  destruct (wp_ok_ex _ _ (@map_range_spec xi3' rowp top n nerr Ht ltac:(lia) ltac:(rewrite Hpl2; intros a Ha; rewrite <- EQ3 by lia; auto))) as (xi4' & -> & Hl4' & Hm4' & _). cbn [bind].
  assert (EQ4 : forall a, top <= a < n -> rd xi4 a = rd xi4' a) by (intros a Ha; rewrite Hm4, Hm4', EQ3 by lia; reflexivity).
  assert (A4 : agree (fun i => top <= i < n) xi4 xi4') by (split; [lia|]; intros i Hi; rewrite !get_rd by lia; rewrite EQ4 by lia; reflexivity).
  assert (Hr4 : forall a, top <= a < n -> 0 <= rd xi4 a < n) by (intros a Ha; rewrite Hm4 by lia; apply (p_r2 HP); auto).
  assert (Hr4' : forall a, top <= a < n -> 0 <= rd xi4' a < n) by (intros a Ha; rewrite <- EQ4 by lia; auto).
  destruct (wp_ok_ex _ _ (@fill_spec xi4 x 0 top n n nerr Ht ltac:(lia) Hx Hr4)) as (x1 & E1 & Hlx1 & _).
  assert (E1' : for_ top n (fun i x => let* a := get xi4' i in set x a 0) x = Ok x1).
  { rewrite <- E1. symmetry. apply sim_eq. apply (@sim_for _ _ top n _ _ (fun _ => eq) x x eq_refl). intros i a b Hi <-. rewrite <- (@agree_get _ _ _ i A4) by lia. apply sim_refl. }
  rewrite E1, E1'. cbn [bind]. rewrite set_wr by lia. cbn [bind].
  destruct (wp_ok_ex _ _ (@fill_spec xi4 h (-1) top n n nerr Ht ltac:(lia) Hhl Hr4)) as (h1 & E2 & Hlh1 & _).
  assert (E2' : for_ top n (fun i x => let* a := get xi4' i in set x a (-1)) h = Ok h1).
  { rewrite <- E2. symmetry. apply sim_eq. apply (@sim_for _ _ top n _ _ (fun _ => eq) h h eq_refl). intros i a b Hi <-. rewrite <- (@agree_get _ _ _ i A4) by lia. apply sim_refl. }
  rewrite E2, E2'. cbn [bind]. pose proof (co_p C). pose proof (co_p C'). rewrite !get_rd by lia. cbn [bind].
  destruct (wp_ok_ex _ _ (@scatter_loose n Ap Ai Ax col (wr x1 col 0) nerr L Hcol ltac:(rewrite zlen_wr; auto))) as (x2 & -> & Hlx2 & Hx2 & Hx2o).
  destruct (wp_ok_ex _ _ (@scatter_loose n Ap' Ai' Ax' col (wr x1 col 0) nerr L' Hcol ltac:(rewrite zlen_wr; auto))) as (x2' & -> & Hlx2' & Hx2' & Hx2o').
  assert (x2' = x2) as ->.
  { apply list_ext; [lia|]. intros i Hi. rewrite Hlx2' in Hi. destruct (@col_dec Ap Ai col i) as [N|(p & P1 & P2 & P3)]; [apply (lc_mono L Hcol)| |].
    - rewrite (Hx2o i Hi N). apply Hx2o'; [exact Hi|]. intros p Hp E. destruct (R2 i) as (p' & P1 & P2); [eauto|]. apply (N p' P1 P2).
    - assert (F : in_force Ap Ai Ax col i (rd Ax p)) by (exists p; auto). rewrite (Hx2 _ _ F). apply Hx2'. apply SM. exact F. }
  cbn [bind]. eapply sim_bind with (R := eq).
  { apply (@sim_for _ _ top n _ _ (fun _ => eq) (x2, h1) (x2, h1) eq_refl). intros p a b Hp <-. replace (tri_step k Lp Li Lx rhos pinv xi4' p a) with (tri_step k Lp Li Lx rhos pinv xi4 p a); [apply sim_refl|].
    destruct a as [xx hh]. cbn [tri_step]. rewrite <- (@agree_get _ _ _ p A4) by lia. reflexivity. }
  intros [y3 h3] ? <-. cbn [sim]. unfold same_tri2. repeat (split; [reflexivity|]). split; [exact A4|lia].
Qed.

(* two states that differ in the workspace of the reach *)
Definition but_xi (s t : fstate) : Prop :=
  t = mkF (F_Lp s) (F_Li s) (F_Lx s) (F_Up s) (F_Ui s) (F_Ux s) (F_lnz s) (F_unz s) (F_pinv s) (F_rowp s) (F_pivs s) (F_h s) (F_xi t) (F_x s) (F_rhos s) /\ zlen (F_xi s) = zlen (F_xi t).
Lemma sim_wp A B (S : A -> B -> Prop) (Q : A -> Prop) E m m' : sim S m m' -> wp m Q E -> sim (fun a b => Q a /\ S a b) m m'.
Proof. destruct m, m'; cbn; auto. Qed.
Section Fac.
Variables (n : Z) (Ap Ai Ax Ap' Ai' Ax' q : list Z).
Hypothesis V : valid_csc n n Ap Ai Ax.
Hypothesis L' : loose_csc n Ap' Ai' Ax'.
Hypothesis SM : same_matrix n Ap Ai Ax Ap' Ai' Ax'.
Hypothesis HQ : is_perm n q.
Lemma step_storage env order tol k s t : 0 <= k < n -> finv n Ap Ai Ax q k s -> but_xi s t ->
  sim but_xi (factor_step env order tol n Ap Ai Ax q k s) (factor_step env order tol n Ap' Ai' Ax' q k t).
Proof.
  intros Hk I (Et & Z1). rewrite Et. generalize (F_xi t) Z1. clear t Et Z1. intros xit Z1. destruct I as [P Hpv Hpiv Hh Hxi Hx Hrl Hrho HLl HUl HL HU HUs HLc HUc HUm].
  unfold factor_step. cbn [F_Lp F_Li F_Lx F_Up F_Ui F_Ux F_lnz F_unz F_pinv F_rowp F_pivs F_h F_xi F_x F_rhos].
  rewrite (set_wr (F_Lp s)) by lia. cbn [bind]. apply sim_same. intros Up _. apply sim_same. intros col _.
  set (Lp := wr (F_Lp s) k (F_lnz s)) in *.
  assert (K0 : 0 <= k) by lia. assert (NN : n <= n) by lia. pose proof (realloc_spec HL K0 NN HLc) as HLr.
  destruct (if F_lnz s + n >? zlen (F_Li s) then _ else _) as [Li Lx]. destruct (if F_unz s + n >? zlen (F_Ui s) then _ else _) as [Ui Ux]. destruct HLr as (HL1 & _).
  assert (G : graph_ok n Lp Li (F_pinv s)) by (eapply l_graph; [|exact (l_ok_part HL1)|exact P]; lia).
  eapply sim_bind; [apply (@tri_storage n k Lp Li Lx Ap Ai Ax Ap' Ai' Ax' (F_xi s) xit q (F_rhos s) (F_pinv s) (F_rowp s) (F_h s) (F_x s) Hk (valid_loose V) L' SM HQ P G Hxi ltac:(lia) Hh Hx)|].
  intros [[[[top x1] Lp1] y] h1] [[[[top' x1'] Lp1'] y'] h1'] (<- & <- & <- & <- & A1 & Z2).
  rewrite <- (@get_pivot_eq n top env order tol y (F_pivs s) x1 x1' col k (F_rhos s) (F_pinv s) (F_rowp s) A1). apply sim_same. intros [[[[piv rh] pi] rp] pv] _.
  eapply sim_bind with (R := eq).
  { apply (@sim_for _ _ top n _ _ (fun _ => eq) _ _ eq_refl). intros j a b Hj <-. destruct a as [[[[[a1 a2] a3] a4] a5] a6]. unfold push_LU. rewrite <- (@agree_get _ _ _ j A1) by lia. apply sim_refl. }
  intros [[[[[L3 X3] U3] Y3] l3] u3] ? <-. cbn [sim]. split; [reflexivity|]. cbn [F_xi]. apply A1.
Qed.
Theorem core_storage env order tol lnz0 unz0 : env_ok env order -> n <= 2 * Z.max lnz0 1 ->
  factorize_core env order tol n Ap Ai Ax q lnz0 unz0 = factorize_core env order tol n Ap' Ai' Ax' q lnz0 unz0.
Proof.
  intros He H1. apply sim_eq. unfold factorize_core. eapply sim_bind.
  { apply (@sim_for _ _ 0 n _ _ (fun k s t => finv n Ap Ai Ax q k s /\ but_xi s t) (factor_init n lnz0 unz0) (factor_init n lnz0 unz0)).
    - split; [apply factor_init_inv; assumption|]. split; reflexivity.
    - intros k s t Hk (I & B). eapply sim_wp; [apply step_storage; assumption|]. apply factor_step_spec; first [assumption|apply perm_map; assumption]. }
  intros s t (_ & -> & _). cbn [F_Lp F_Li F_Lx F_Up F_Ui F_Ux F_lnz F_unz F_pinv F_rowp F_pivs F_h F_xi F_x F_rhos]. apply sim_refl.
Qed.
End Fac.
