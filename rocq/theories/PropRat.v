(* C91: systems of rational numbers, end to end: SLIP_matrix_copy of A and B to integer matrices, then SLIP_backslash. *)
From Coq Require Import QArith.
From Verif Require Import Base Det DetZ Hadamard Spec SumQ MSolve MMatrix MApi ApiSpec MatSpec PSolve PSolve2 PApi PMat PCopy PConv PMex PDemo PExample Check LUEx PropLU2 PropMat PropMat2 PropMeta PropMeta2.
Set Implicit Arguments.
Open Scope Z_scope.
Set Bullet Behavior "Strict Subproofs".

(* A is an n-by-n compressed-column matrix of rational numbers in lowest terms, no row twice in a column; M is the matrix it stands for *)
Definition rational_csc (n : Z) (A : matrix) (M : Z -> Z -> Q) : Prop :=
  exists p i x, csc_ok A p i (VQ x) /\ m_m A = n /\ m_n A = n /\
    (forall k, 0 <= k < rd p n -> Qred (rdg 0%Q x k) = rdg 0%Q x k) /\
    (forall c q q', 0 <= c < n -> rd p c <= q < rd p (c + 1) -> rd p c <= q' < rd p (c + 1) -> rd i q = rd i q' -> q = q') /\
    (forall r c, 0 <= r < n -> 0 <= c < n ->
       (exists q, rd p c <= q < rd p (c + 1) /\ rd i q = r /\ (M r c == rdg 0%Q x q)%Q) \/
       ((forall q, rd p c <= q < rd p (c + 1) -> rd i q <> r) /\ (M r c == 0)%Q)).

(* A is an n-by-n triplet matrix of rational numbers in lowest terms, no position twice *)
Definition rational_triplet (n : Z) (A : matrix) (M : Z -> Z -> Q) : Prop :=
  exists ti tj x, trip_ok A ti tj (VQ x) /\ m_m A = n /\ m_n A = n /\
    (forall k, 0 <= k < m_nz A -> Qred (rdg 0%Q x k) = rdg 0%Q x k) /\
    (forall k k', 0 <= k < m_nz A -> 0 <= k' < m_nz A -> rd ti k = rd ti k' -> rd tj k = rd tj k' -> k = k') /\
    (forall r c, 0 <= r < n -> 0 <= c < n ->
       (exists k, 0 <= k < m_nz A /\ rd ti k = r /\ rd tj k = c /\ (M r c == rdg 0%Q x k)%Q) \/
       ((forall k, 0 <= k < m_nz A -> ~ (rd ti k = r /\ rd tj k = c)) /\ (M r c == 0)%Q)).
(* A is an n-by-n dense matrix of rational numbers in lowest terms, stored by columns *)
Definition rational_dense (n : Z) (A : matrix) (M : Z -> Z -> Q) : Prop :=
  rat_dense n n A /\ same n n M (Qent A).
Definition rational_matrix (n : Z) (A : matrix) (M : Z -> Z -> Q) : Prop := rational_csc n A M \/ rational_triplet n A M \/ rational_dense n A M.

(* The copy of A to a compressed-column integer matrix stands for the same matrix (without entries, its scale is 0). *)
Lemma copy_csc : forall addr n A M o, rational_csc n A M -> 1 <= opt_prec o ->
  exists C, matrix_copy o addr true true KCSC TMPZ (Some A) = Ok C /\ int_csc n n C /\
    ((~ (m_scale C == 0)%Q /\ same n n (Aval C) M) \/
     (same n n M (fun _ _ => 0%Q) /\ forall i j, 0 <= i < n -> 0 <= j < n -> Cent C i j = 0)).
Proof.
  intros addr n A M o (p & i & x & OK & Hm & Hn & Cx & Hd & HM) Hp. pose proof (csc_stores OK) as HS. rewrite Hn in HS.
  assert (N0 : 0 <= n) by (rewrite <- Hn; apply (co_n OK)).
  assert (P0 : rd p 0 = 0) by apply (co_0 OK). assert (PM : forall c, 0 <= c < n -> rd p c <= rd p (c + 1)) by (rewrite <- Hn; apply (co_mono OK)).
  assert (PR : forall c q, 0 <= c < n -> rd p c <= q < rd p (c + 1) -> 0 <= q < rd p n).
  { intros c q Hc Hq. pose proof (@prefix_wlog p n c PM ltac:(lia)). pose proof (@prefix_wlog p n (c + 1) PM ltac:(lia)). lia. }
  pose proof (@prefix_wlog p n n PM ltac:(lia)) as PN.
  assert (D' : forall c q q', 0 <= c < m_n A -> rd p c <= q < rd p (c + 1) -> rd p c <= q' < rd p (c + 1) -> rd i q = rd i q' -> q = q') by (rewrite Hn; exact Hd).
  destruct (Z.eq_dec (rd p n) 0) as [E0|E0].
  - rewrite E0 in HS. destruct (@mpq_to_mpz_none o addr A x HS) as (y & HC).
    destruct (@csc_copy_int o addr A p i (VQ x) y 0%Q OK Hp HC D') as (C & i' & E & IC & Cp & Ci & Cxx & Cs & CI). rewrite Hm, Hn in IC.
    exists C. split; [exact E|]. split; [exact IC|]. right. split.
    + intros r c Hr Hc. destruct (HM r c Hr Hc) as [(q & Hq & _)|(_ & H)]; [pose proof (PR c q Hc Hq); lia|exact H].
    + intros r c Hr Hc. unfold Cent. rewrite Cp, Ci, Cxx. apply ent_none. intros q Hq. pose proof (PR c q Hc Hq). lia.
  - destruct (@C39_mpq_to_mpz o addr A (rd p n) x HS ltac:(lia) Cx) as (y & s & HC & Hs & Hy & _).
    destruct (@csc_copy_int o addr A p i (VQ x) y (inject_Z s) OK Hp HC D') as (C & i' & E & IC & Cp & Ci & Cxx & Cs & CI). rewrite Hm, Hn in IC. rewrite Hn in CI.
    assert (S0 : ~ (inject_Z s == 0)%Q) by (intros Q; unfold Qeq in Q; cbn in Q; lia).
    exists C. split; [exact E|]. split; [exact IC|]. left. split; [rewrite Cs; exact S0|].
    destruct (ic_arr IC) as (Ap & Ai & Ax & Hp' & Hi' & Hx' & VC). rewrite Cp in Hp'. rewrite Ci in Hi'. rewrite Cxx in Hx'. injection Hp' as <-. injection Hi' as <-. injection Hx' as <-.
    intros r c Hr Hc. unfold Aval, Cent. rewrite Cp, Ci, Cxx, Cs. destruct (HM r c Hr Hc) as [(q & Hq & Hr' & HV)|(Hno & HV)].
    + pose proof (PR c q Hc Hq) as Rq. assert (EE : ent p i' y r c = rd y q) by (rewrite <- Hr', <- (CI q Rq); eapply ent_valid; eauto).
      rewrite EE, HV, (Hy q Rq). field. exact S0.
    + rewrite ent_none by (intros q Hq; rewrite CI by (apply (PR c q Hc Hq)); apply Hno; exact Hq). rewrite HV. change (inject_Z 0) with 0%Q. field. exact S0.
Qed.

Lemma copy_triplet : forall addr n A M o, rational_triplet n A M -> 1 <= opt_prec o ->
  exists C, matrix_copy o addr true true KCSC TMPZ (Some A) = Ok C /\ int_csc n n C /\
    ((~ (m_scale C == 0)%Q /\ same n n (Aval C) M) \/
     (same n n M (fun _ _ => 0%Q) /\ forall i j, 0 <= i < n -> 0 <= j < n -> Cent C i j = 0)).
Proof.
  intros addr n A M o (ti & tj & x0 & OK & Hm & Hn & Cx & ND0 & HM) Hp. assert (IT : is_type TMPZ) by (unfold is_type, TMPZ, TDBL; lia).
  pose proof (trip_stores OK) as HS. assert (N0 : 0 <= n) by (rewrite <- Hn; apply (to_n OK)). pose proof (to_nz OK) as Z0.
  assert (CV : exists y s, converted o addr TMPZ A (VZ y) s /\
    ((m_nz A = 0) \/ (~ (s == 0)%Q /\ forall k, 0 <= k < m_nz A -> (inject_Z (rd y k) == s * rdg 0%Q x0 k)%Q))).
  { destruct (Z.eq_dec (m_nz A) 0) as [E0|E0].
    - rewrite E0 in HS. destruct (@mpq_to_mpz_none o addr A x0 HS) as (y & HC). exists y, 0%Q. auto.
    - destruct (@C39_mpq_to_mpz o addr A (m_nz A) x0 HS ltac:(lia) Cx) as (y & s & HC & Hs & Hy & _). exists y, (inject_Z s). split; [exact HC|]. right.
      split; [intros Q; unfold Qeq in Q; cbn in Q; lia|exact Hy]. }
  destruct CV as (y & s & HC & HY).
  destruct (trip_to_csc_copy OK IT Hp HC) as (C & p & i & cx & E & CO & C1 & C2 & C3 & C4 & C5 & C6 & C7 & C8).
  destruct (trip_to_csc_len' OK Hp HC E) as (i' & x & X1 & X2 & X3).
  assert (i' = i) by (dcsc CO; congruence). assert (cx = VZ x) by (dcsc CO; congruence). subst i' cx. rewrite <- (to_type OK) in C7. cbn [vtype TMPZ TMPQ Z.eqb] in C7. rewrite Hn in *. rewrite Hm in *.
  assert (ND : forall c q q', 0 <= c < n -> rd p c <= q < rd p (c + 1) -> rd p c <= q' < rd p (c + 1) -> rd i q = rd i q' -> q = q').
  { intros c q q' Hc. apply (@column_pos p i (VZ x) c). rewrite C8 by auto. unfold trip_column. rewrite map_map. cbn [fst].
    apply nodup_map_in; [apply NoDup_filter, nodup_zseq|]. intros a b Ha Hb E1.
    apply filter_In in Ha. destruct Ha as [Ha Ha']. apply filter_In in Hb. destruct Hb as [Hb Hb']. apply in_zseq in Ha, Hb. apply Z.eqb_eq in Ha', Hb'.
    apply ND0; [exact Ha|exact Hb|exact E1|congruence]. }
  dcsc CO. rewrite C1, C2 in *.
  assert (VC : valid_csc n n p i x) by (constructor; auto; lia).
  assert (IC : int_csc n n C) by (constructor; try congruence; exists p, i, x; auto).
  assert (CE : forall k, 0 <= k < m_nz A -> Cent C (rd ti k) (rd tj k) = rd y k).
  { intros k Hk. unfold Cent. rewrite co_p', co_i', co_x'. assert (Hc : 0 <= rd tj k < n) by (rewrite <- Hn; apply (to_col OK); exact Hk).
    assert (HI : In (rd ti k, NZ (rd y k)) (csc_column p i (VZ x) (rd tj k))).
    { rewrite C8 by auto. unfold trip_column. apply in_map_iff. exists k. split; [reflexivity|]. apply filter_In. split; [now apply in_zseq|]. apply Z.eqb_refl. }
    unfold csc_column in HI. apply in_map_iff in HI. destruct HI as (q & Eq & Hq). apply in_zseq in Hq. injection Eq as Er Ev.
    transitivity (rd x q); [rewrite <- Er; eapply ent_valid; eauto|exact Ev]. }
  assert (CN : forall r c, 0 <= c < n -> (forall k, 0 <= k < m_nz A -> ~ (rd ti k = r /\ rd tj k = c)) -> Cent C r c = 0).
  { intros r c Hc Hno. unfold Cent. rewrite co_p', co_i', co_x'. apply ent_none. intros q Hq Er.
    assert (HI : In (rd i q, cell (VZ x) q) (csc_column p i (VZ x) c)) by (unfold csc_column; apply in_map_iff; exists q; split; [reflexivity|apply in_zseq; exact Hq]).
    rewrite C8 in HI by auto. unfold trip_column in HI. apply in_map_iff in HI. destruct HI as (k & Ek & Hk). apply filter_In in Hk. destruct Hk as [Hk Hk'].
    apply in_zseq in Hk. apply Z.eqb_eq in Hk'. injection Ek as Ek _. apply (Hno k Hk). split; congruence. }
  exists C. split; [exact E|]. split; [exact IC|]. destruct HY as [Hz|(S0 & Hy)].
  - right. split; [|intros r c Hr Hc; apply CN; [exact Hc|intros k Hk; lia]]. intros r c Hr Hc. destruct (HM r c Hr Hc) as [(k & Hk & _)|(_ & H)]; [lia|exact H].
  - left. split; [rewrite C7; exact S0|]. intros r c Hr Hc. unfold Aval. rewrite C7. destruct (HM r c Hr Hc) as [(k & Hk & <- & <- & HV)|(Hno & HV)].
    + rewrite (CE k Hk), HV, (Hy k Hk). field. exact S0.
    + rewrite (CN r c Hc Hno), HV. change (inject_Z 0) with 0%Q. field. exact S0.
Qed.
Lemma dense_to_csc_len o addr A x yx s C : dense_ok A x -> 1 <= opt_prec o -> converted o addr TMPZ A yx s ->
  matrix_copy o addr true true KCSC TMPZ (Some A) = Ok C ->
  exists i x, m_i C = Some i /\ m_x C = Some (VZ x) /\ zlen i = zlen x.
Proof.
  intros OK Hp HC EC. assert (IT : is_type TMPZ) by (unfold is_type, TMPZ, TDBL; lia). set (nz := m_m A * m_n A).
  assert (HS : stores A nz x) by (right; right; auto).
  destruct (cast_source HS IT Hp HC) as (Y1 & Y2 & v & Ev & Tv & Lv & Cv).
  rewrite (copy_unfold o addr HS IT (ck := KCSC)) in EC by (vm_compute; split; discriminate).
  ddense OK. rewrite do_kind' in EC. cbn [Z.eqb KCSC KTRIP KDENSE Pos.eqb] in EC. unfold copy_dense_csc in EC. rewrite Ev in EC. cbn [bind fst snd deref] in EC.
  destruct (elem_of v) as (E & d & nzb & set1 & V & N & y & HE & ->). rewrite Tv in HE.
  rewrite (elem_on o _ _ _ HE) in EC. rewrite (elem_len y HE) in Lv. assert (0 <= nz) by (unfold nz; nia).
  destruct (wp_ok_ex _ _ (@count_nz_spec E d nzb nz y nerr ltac:(lia))) as (ac & EA & Hac). fold nz in EC. rewrite EA in EC. cbn [bind] in EC.
  pose proof (cnt_nonneg (fun k => nzb (rdg d y k)) nz) as Hac0. rewrite <- Hac in Hac0.
  rewrite alloc_ok in EC by (auto; vm_compute; split; discriminate). cbn [bind m_p m_i m_x m_scale Z.eqb KCSC KTRIP KDENSE deref Pos.eqb] in EC.
  rewrite (elem_fresh _ HE) in EC. rewrite (elem_on o _ _ _ HE) in EC.
  destruct (wp_ok_ex _ _ (@dense_to_csc_spec E d (set1 o) nzb (m_m A) (m_n A) y (mk (m_n A + 1) 0) (mk (Z.max ac 1) 0) (mk (Z.max ac 1) d) nerr
    do_m' do_n' Lv ltac:(rewrite zlen_mk; lia) ltac:(fold nz; rewrite zlen_mk, <- Hac; lia) ltac:(fold nz; rewrite zlen_mk, <- Hac; lia)))
    as ([[p i] cx] & ES & P1 & P2 & P3 & P4 & P5).
  rewrite ES in EC. cbn [bind] in EC. injection EC as <-. cbn [m_i m_x].
  pose proof (elem_len cx HE) as LL. pose proof (elem_vtype cx HE) as TT.
  destruct (V cx) as [l|l|l|l|l] eqn:EV; try discriminate TT. exists i, l. split; [reflexivity|]. split; [reflexivity|]. cbn [vlen] in LL. rewrite LL, P2, P3, !zlen_mk by lia. reflexivity.
Qed.

Lemma copy_dense : forall addr n A M o, rational_dense n A M -> 1 <= n -> 1 <= opt_prec o ->
  exists C, matrix_copy o addr true true KCSC TMPZ (Some A) = Ok C /\ int_csc n n C /\ ~ (m_scale C == 0)%Q /\ same n n (Aval C) M.
Proof.
  intros addr n A M o (RA & HM) Hn1 Hp. assert (IT : is_type TMPZ) by (unfold is_type, TMPZ, TDBL; lia).
  destruct (rq_arr RA) as (x0 & Ex & Hx & Cx). pose proof (rq_m RA) as Hm. pose proof (rq_n RA) as Hn.
  assert (OK : dense_ok A (VQ x0)).
  { constructor; [apply (rq_kind RA)|exact Ex|cbn; symmetry; apply (rq_type RA)|lia|lia|rewrite Hm, Hn; cbn [vlen]; lia]. }
  assert (HS : stores A (n * n) (VQ x0)) by (right; right; split; [exact OK|rewrite Hm, Hn; reflexivity]).
  destruct (@C39_mpq_to_mpz o addr A (n * n) x0 HS ltac:(nia)) as (y & s & HC & Hs & Hy & _).
  { intros q Hq. apply Cx. unfold rdg. apply nth_In. unfold zlen in Hx. lia. }
  assert (S0 : ~ (inject_Z s == 0)%Q) by (intros Q; unfold Qeq in Q; cbn in Q; lia).
  destruct (dense_to_csc_copy OK IT Hp HC) as (C & p & i & cx & E & CO & C1 & C2 & C3 & C4 & C5 & C6 & C7 & C8).
  destruct (dense_to_csc_len OK Hp HC E) as (i' & x & X1 & X2 & X3).
  assert (i' = i) by (dcsc CO; congruence). assert (cx = VZ x) by (dcsc CO; congruence). subst i' cx. rewrite (rq_type RA) in C7. cbn [TMPZ TMPQ Z.eqb] in C7. rewrite Hn, Hm in *.
  assert (ND : forall c q q', 0 <= c < n -> rd p c <= q < rd p (c + 1) -> rd p c <= q' < rd p (c + 1) -> rd i q = rd i q' -> q = q').
  { intros c q q' Hc. apply (@column_pos p i (VZ x) c). rewrite C8 by auto. unfold dense_column. rewrite map_map. cbn [fst]. rewrite map_id. apply NoDup_filter, nodup_zseq. }
  dcsc CO. rewrite C1, C2 in *.
  assert (VC : valid_csc n n p i x) by (constructor; auto; lia).
  assert (IC : int_csc n n C) by (constructor; try congruence; exists p, i, x; auto).
  exists C. split; [exact E|]. split; [exact IC|]. split; [rewrite C7; exact S0|].
  intros r c Hr Hc. rewrite (HM r c Hr Hc). unfold Aval, Cent, Qent. rewrite co_p', co_i', co_x', C7, Ex, Hm. change (rdq x0 (r + c * n)) with (rdg 0%Q x0 (r + c * n)).
  assert (B : 0 <= r + c * n < n * n) by nia.
  assert (EE : ent p i x r c = rd y (r + c * n)).
  { destruct (Z.eq_dec (rd y (r + c * n)) 0) as [Z0|NZ0].
    - rewrite Z0. apply ent_none. intros q Hq Er.
      assert (HI : In (rd i q, cell (VZ x) q) (csc_column p i (VZ x) c)) by (unfold csc_column; apply in_map_iff; exists q; split; [reflexivity|apply in_zseq; exact Hq]).
      rewrite C8 in HI by auto. unfold dense_column in HI. apply in_map_iff in HI. destruct HI as (k & Ek & Hk). apply filter_In in Hk. destruct Hk as [_ Hk].
      injection Ek as Ek _. subst k. rewrite Er in Hk. change (nonzero (NZ (rd y (r + c * n))) = true) in Hk. rewrite Z0 in Hk. discriminate.
    - assert (HI : In (r, NZ (rd y (r + c * n))) (csc_column p i (VZ x) c)).
      { rewrite C8 by auto. unfold dense_column. apply in_map_iff. exists r. split; [reflexivity|]. apply filter_In. split; [now apply in_zseq|].
        change (nonzero (NZ (rd y (r + c * n))) = true). cbn [nonzero]. destruct (Z.eqb_spec (rd y (r + c * n)) 0); [contradiction|reflexivity]. }
      unfold csc_column in HI. apply in_map_iff in HI. destruct HI as (q & Eq & Hq). apply in_zseq in Hq. injection Eq as Er Ev.
      transitivity (rd x q); [rewrite <- Er; eapply ent_valid; eauto|exact Ev]. }
  rewrite EE, (Hy _ B). field. exact S0.
Qed.
Theorem C91_copy : forall addr n A M o, rational_matrix n A M -> 1 <= n -> 1 <= opt_prec o ->
  exists C, matrix_copy o addr true true KCSC TMPZ (Some A) = Ok C /\ int_csc n n C /\
    ((~ (m_scale C == 0)%Q /\ same n n (Aval C) M) \/
     (same n n M (fun _ _ => 0%Q) /\ forall i j, 0 <= i < n -> 0 <= j < n -> Cent C i j = 0)).
Proof.
  intros addr n A M o [H|[H|H]] Hn Hp; [apply copy_csc; assumption|apply copy_triplet; assumption|].
  destruct (@copy_dense addr n A M o H Hn Hp) as (C & E & IC & HC). exists C. auto.
Qed.

(* A system of rational numbers is solved exactly, and reported as singular exactly if the rational matrix has no inverse.  (The solution is
   the only one, since M has an inverse.) *)
Theorem C91_rational_systems : forall env ol addr addr1 addr2 n k A M B o o1 o2,
  rational_matrix n A M -> rat_dense n k B -> 1 <= n -> 1 <= k -> env_ok env (opt_pivot o) -> 1 <= opt_prec o1 -> 1 <= opt_prec o2 ->
  exists A' B', matrix_copy o1 addr1 true true KCSC TMPZ (Some A) = Ok A' /\ matrix_copy o2 addr2 true true KDENSE TMPZ (Some B) = Ok B' /\
    ((invertible n M /\ exists X, SLIP_backslash env ol addr true true TMPQ (Some A') (Some B') o = Ok (SOK, Out X) /\ rat_dense n k X /\
        forall i r, 0 <= i < n -> 0 <= r < k -> (sumQ n (fun j => M i j * Qent X j r) == Qent B i r)%Q) \/
     (~ invertible n M /\ SLIP_backslash env ol addr true true TMPQ (Some A') (Some B') o = Ok (SErr SLIP_SINGULAR, Null))).
Proof.
  intros env ol addr addr1 addr2 n k A M B o o1 o2 RA RB Hn Hk He Hp1 Hp2.
  destruct (@C91_copy addr1 n A M o1 RA Hn Hp1) as (A' & EA & IA & HA). destruct (@C87_reused addr2 n k B o2 RB Hn Hk Hp2) as (B' & EB & IB & HsB & HB).
  exists A', B'. split; [exact EA|]. split; [exact EB|]. destruct HA as [(HsA & HA)|(HM & HC)].
  - assert (SY : system n k A' B') by (constructor; assumption).
    destruct (@backslash_spec env ol addr n k A' B' TMPQ o IA IB He Hn HsA HsB ltac:(auto)) as [(HD & X & RX & SX & E)|(HD & E)].
    + left. split; [apply (inv_same HA); apply (Aval_det SY); exact HD|]. exists X. split; [exact E|]. split; [exact RX|].
      intros i r Hi Hr. rewrite <- (HB i r Hi Hr), <- (solves_same SY SX Hi Hr). unfold times. apply sumQ_ext. intros j Hj. rewrite (HA i j Hi Hj). reflexivity.
    + right. split; [|exact E]. intros I. apply (inv_same (same_sym HA)) in I. apply (Aval_det SY) in I. contradiction.
  - right. assert (NI : forall f, same n n f (fun _ _ => 0%Q) -> ~ invertible n f).
    { intros f Hf (g & G & _). specialize (G 0 0 ltac:(lia) ltac:(lia)). unfold times in G.
      assert (Z0 : (sumQ n (fun j => f 0%Z j * g j 0%Z) == 0)%Q).
      { transitivity (sumQ n (fun j => 0 * g j 0%Z))%Q; [apply sumQ_ext; intros j Hj; rewrite (Hf 0 j) by lia; reflexivity|]. rewrite sumQ_scal. ring. }
      rewrite Z0 in G. discriminate. }
    split; [apply NI; exact HM|]. apply (@backslash_singular env ol addr n k A' B' o IA IB He).
    destruct (Z.eq_dec (detz n (Cent A')) 0) as [E|E]; [exact E|]. exfalso. apply (@inv_det n (Cent A') 1%Q) in E; [|lia|discriminate]. revert E. apply NI.
    intros i j Hi Hj. cbv beta. rewrite (HC i j Hi Hj). reflexivity.
Qed.

(*----------------------------------------------------------------------------*)
(* the hypotheses are met: [1/2 0; -2/3 3/4] and [1/2; 5/6] *)
Definition raA : matrix := mkM 2 2 3 0 KCSC TMPQ (Some [0; 2; 3]) (Some [0; 1; 1]) None (Some (VQ [1 # 2; -2 # 3; 3 # 4]%Q)) 1%Q.
Definition raM (i j : Z) : Q := if j =? 0 then (if i =? 0 then 1 # 2 else -2 # 3)%Q else (if i =? 0 then 0 else 3 # 4)%Q.
Definition raB : matrix := mkM 2 1 2 0 KDENSE TMPQ None None None (Some (VQ [1 # 2; 5 # 6]%Q)) 1%Q.
Lemma raA_ok : rational_csc 2 raA raM.
Proof.
  exists [0; 2; 3], [0; 1; 1], [1 # 2; -2 # 3; 3 # 4]%Q.
  assert (T : forall q, 0 <= q < 3 -> q = 0 \/ q = 1 \/ q = 2) by (intros; lia).
  split; [|split; [reflexivity|split; [reflexivity|split; [|split]]]].
  - constructor; try reflexivity; try (vm_compute; congruence).
    + intros c Hc. cbn in Hc. two Hc; vm_compute; discriminate.
    + intros q Hq. change (rd [0; 2; 3] (m_n raA)) with 3 in Hq. destruct (T q Hq) as [-> | [-> | ->]]; vm_compute; split; congruence.
  - intros q Hq. change (rd [0; 2; 3] 2) with 3 in Hq. destruct (T q Hq) as [-> | [-> | ->]]; reflexivity.
  - intros c q q' Hc Hq Hq' E. two Hc.
    + change (rd [0; 2; 3] 0) with 0 in *. change (rd [0; 2; 3] (0 + 1)) with 2 in *. two Hq; two Hq'; try reflexivity; vm_compute in E; discriminate.
    + change (rd [0; 2; 3] 1) with 2 in *. change (rd [0; 2; 3] (1 + 1)) with 3 in *. lia.
  - intros r c Hr Hc. two Hc; two Hr.
    + left. exists 0. repeat split; vm_compute; congruence.
    + left. exists 1. repeat split; vm_compute; congruence.
    + right. split; [|reflexivity]. intros q Hq. change (rd [0; 2; 3] 1) with 2 in Hq. change (rd [0; 2; 3] (1 + 1)) with 3 in Hq. assert (q = 2) as -> by lia. vm_compute. discriminate.
    + left. exists 2. repeat split; vm_compute; congruence.
Qed.
Lemma raB_ok : rat_dense 2 1 raB.
Proof.
  constructor; try reflexivity; [repeat split; reflexivity|]. exists [1 # 2; 5 # 6]%Q. split; [reflexivity|]. split; [reflexivity|].
  intros v [<- | [<- | []]]; reflexivity.
Qed.
Example C91_ex := @C91_rational_systems exenv exol (fun _ => 0) (fun _ => 0) (fun _ => 0) 2 1 raA raM raB None None None (or_introl raA_ok) raB_ok
  ltac:(lia) ltac:(lia) (@ex_env _) ltac:(discriminate) ltac:(discriminate).
(* the same matrix as triplets *)
Definition raT : matrix := mkM 2 2 3 3 KTRIP TMPQ None (Some [1; 0; 1]) (Some [1; 0; 0]) (Some (VQ [3 # 4; 1 # 2; -2 # 3]%Q)) 1%Q.
Lemma raT_ok : rational_triplet 2 raT raM.
Proof.
  exists [1; 0; 1], [1; 0; 0], [3 # 4; 1 # 2; -2 # 3]%Q. change (m_nz raT) with 3.
  assert (T : forall q, 0 <= q < 3 -> q = 0 \/ q = 1 \/ q = 2) by (intros; lia).
  split; [|split; [reflexivity|split; [reflexivity|split; [|split]]]].
  - constructor; try reflexivity; try (vm_compute; congruence).
    + intros q Hq. change (m_nz raT) with 3 in Hq. destruct (T q Hq) as [-> | [-> | ->]]; vm_compute; split; congruence.
    + intros q Hq. change (m_nz raT) with 3 in Hq. destruct (T q Hq) as [-> | [-> | ->]]; vm_compute; split; congruence.
  - intros q Hq. destruct (T q Hq) as [-> | [-> | ->]]; reflexivity.
  - intros q q' Hq Hq' E E'. destruct (T q Hq) as [-> | [-> | ->]], (T q' Hq') as [-> | [-> | ->]]; try reflexivity; vm_compute in E, E'; discriminate.
  - intros r c Hr Hc. two Hc; two Hr.
    + left. exists 1. repeat split; vm_compute; congruence.
    + left. exists 2. repeat split; vm_compute; congruence.
    + right. split; [|reflexivity]. intros q Hq (E & E'). destruct (T q Hq) as [-> | [-> | ->]]; vm_compute in E, E'; discriminate.
    + left. exists 0. repeat split; vm_compute; congruence.
Qed.
Example C91_ex_triplet := @C91_rational_systems exenv exol (fun _ => 0) (fun _ => 0) (fun _ => 0) 2 1 raT raM raB None None None (or_intror (or_introl raT_ok)) raB_ok
  ltac:(lia) ltac:(lia) (@ex_env _) ltac:(discriminate) ltac:(discriminate).
(* the same matrix, dense *)
Definition raD : matrix := mkM 2 2 4 0 KDENSE TMPQ None None None (Some (VQ [1 # 2; -2 # 3; 0; 3 # 4]%Q)) 1%Q.
Lemma raD_ok : rational_dense 2 raD raM.
Proof.
  split.
  - constructor; try reflexivity; [repeat split; reflexivity|]. eexists. split; [reflexivity|]. split; [reflexivity|].
    intros v [<- | [<- | [<- | [<- | []]]]]; reflexivity.
  - intros i j Hi Hj. two Hi; two Hj; reflexivity.
Qed.
Example C91_ex_dense := @C91_rational_systems exenv exol (fun _ => 0) (fun _ => 0) (fun _ => 0) 2 1 raD raM raB None None None (or_intror (or_intror raD_ok)) raB_ok
  ltac:(lia) ltac:(lia) (@ex_env _) ltac:(discriminate) ltac:(discriminate).
Example C91_ex_run : match matrix_copy None (fun _ => 0) true true KCSC TMPZ (Some raA), matrix_copy None (fun _ => 0) true true KDENSE TMPZ (Some raB) with
  | Ok A', Ok B' => match SLIP_backslash exenv exol (fun _ => 0) true true TMPQ (Some A') (Some B') None with Ok (SOK, Out X) => m_x X = Some (VQ [1; 2]%Q) | _ => False end
  | _, _ => False end.
Proof. vm_compute. reflexivity. Qed.
