(* Proofs about the example programs (MExample.v) *)
From Coq Require Import QArith Qabs.
From Verif Require Import Base Det DetZ Spec SumQ MFactor MSolve MMatrix MApi ApiSpec PApi MatSpec PMat PFloat PSolve PCopy PConv PRound PCopy2 MDemo PDemo MMex MexSpec PMex MExample.
From Verif Require Import PropMat PropMat2 PropMat3.
From Verif Require DemoSpec.
Set Implicit Arguments.
Open Scope Z_scope.
Set Bullet Behavior "Strict Subproofs".

(* the matrix and the right-hand side made of the random numbers *)
Definition rnd_A (rand : Z -> Z) (n i j : Z) : Z := rand (i * (n + 1) + 1 + j).
Definition rnd_b (rand : Z -> Z) (n i : Z) : Z := rand (i * (n + 1)).

Lemma trip_to_csc_len' o addr A ti tj tx yx s C : trip_ok A ti tj tx -> 1 <= opt_prec o -> converted o addr TMPZ A yx s ->
  matrix_copy o addr true true KCSC TMPZ (Some A) = Ok C ->
  exists i x, m_i C = Some i /\ m_x C = Some (VZ x) /\ zlen i = zlen x.
Proof.
  intros OK Hp HC EC. pose proof (trip_stores OK) as HS. assert (IT : is_type TMPZ) by (unfold is_type, TMPZ, TDBL; lia).
  destruct (cast_source HS IT Hp HC) as (Y1 & Y2 & v & Ev & Tv & Lv & Cv).
  rewrite (copy_unfold o addr HS IT (ck := KCSC)) in EC by (vm_compute; split; discriminate).
  dtrip OK. rewrite to_kind' in EC. cbn [Z.eqb KCSC KTRIP KDENSE Pos.eqb] in EC. unfold copy_trip_csc in EC. rewrite Ev in EC. cbn [bind fst snd deref] in EC.
  rewrite alloc_ok in EC by (auto; vm_compute; split; discriminate). cbn [bind m_p m_i m_x m_scale Z.eqb KCSC KTRIP KDENSE deref Pos.eqb] in EC.
  rewrite to_i', to_j' in EC. cbn [deref bind] in EC.
  destruct v as [y| | | |]; try discriminate Tv. cbn [on_vals fresh_vals TMPZ Z.eqb] in EC. 
  unfold on_vals in EC. change (fresh_vals TMPZ (Z.max (m_nz A) 1)) with (VZ (mk (Z.max (m_nz A) 1) 0)) in EC. cbn [vlen] in Lv.
  destruct (wp_ok_ex _ _ (@trip_to_csc_spec Z 0 (fun v => v) (m_n A) (m_nz A) ti tj y (mk (m_n A + 1) 0) (mk (Z.max (m_nz A) 1) 0) (mk (Z.max (m_nz A) 1) 0) nerr
    to_n' to_nz' to_capi' to_capj' Lv to_col' ltac:(rewrite zlen_mk; lia) ltac:(rewrite zlen_mk; lia) ltac:(rewrite zlen_mk; lia)))
    as ([[p i] cx] & ES & P1 & P2 & P3 & _).
  cbv beta in EC. rewrite ES in EC. cbn [bind] in EC. injection EC as <-. exists i, cx. cbn. rewrite P2, P3, !zlen_mk by lia. auto.
Qed.
Lemma nodup_map_in A B (f : A -> B) l : NoDup l -> (forall x y, In x l -> In y l -> f x = f y -> x = y) -> NoDup (map f l).
Proof.
  induction 1 as [|a l H1 H2 IH]; intros H; [constructor|]. cbn [map]. constructor.
  - intros HI. apply in_map_iff in HI. destruct HI as (b & E & Hb). assert (b = a) by (apply H; cbn; auto). subst. contradiction.
  - apply IH. intros x y Hx Hy. apply H; cbn; auto.
Qed.
Lemma nodup_zseq lo hi : NoDup (zseq lo hi).
Proof. unfold zseq. apply FinFun.Injective_map_NoDup; [intros a b; lia|]. apply seq_NoDup. Qed.

Section Gen.
Variables (rand : Z -> Z) (n : Z).
Hypothesis Hn : 1 <= n.
Notation aij := (rnd_A rand n).
Notation bi := (rnd_b rand n).
Definition made (num0 t0 nb : Z) (st : list Z * list Z * list fl * list fl * Z * Z) : Prop := let '(ti, tj, tx, bx, num, t) := st in
  zlen ti = n * n /\ zlen tj = n * n /\ zlen tx = n * n /\ zlen bx = n /\ num = num0 /\ t = t0 /\
  (forall i j, 0 <= i < n -> 0 <= j < n -> i * n + j < num -> rd ti (i * n + j) = i /\ rd tj (i * n + j) = j /\ rdg FNan tx (i * n + j) = FFin (aij i j) 0) /\
  (forall i, 0 <= i < nb -> rdg FNan bx i = FFin (bi i) 0).
Definition R0 : matrix := mkM n n (n * n) 0 KTRIP TDBL None (Some (mk (n * n) 0)) (Some (mk (n * n) 0)) (Some (VD (mk (n * n) (FFin 0 0)))) 1%Q.
Definition Rb0 : matrix := mkM n 1 n 0 KDENSE TDBL None None None (Some (VD (mk n (FFin 0 0)))) 1%Q.
Lemma alloc_R : ignored (matrix_allocate KTRIP TDBL n n (n * n) false) = Ok R0.
Proof.
  rewrite alloc_ok; [|lia|lia|vm_compute; split; discriminate|unfold is_type, TMPZ, TDBL; lia].
  cbn [Z.eqb KTRIP KDENSE KCSC Pos.eqb ignored]. cbv zeta. rewrite Z.max_l by nia. reflexivity.
Qed.
Lemma alloc_Rb : ignored (matrix_allocate KDENSE TDBL n 1 n false) = Ok Rb0.
Proof.
  rewrite alloc_ok; [|lia|lia|vm_compute; split; discriminate|unfold is_type, TMPZ, TDBL; lia].
  cbn [Z.eqb KTRIP KDENSE KCSC Pos.eqb ignored]. cbv zeta. rewrite Z.mul_1_r, Z.max_l by nia. reflexivity.
Qed.
Lemma generate_ok : wp (generate rand n R0 Rb0) (made (n * n) (n * (n + 1)) n) nerr.
Proof.
  unfold generate. cbn [R0 Rb0 m_i m_j m_x deref xdbl bind].
  apply (@wp_for _ 0 n _ (fun k => made (k * n) (k * (n + 1)) k)); [lia| |].
  - cbn. rewrite !zlen_mk by nia. repeat split; try lia.
  - intros k [[[[[ti tj] tx] bx] num] t] Hk (L1 & L2 & L3 & L4 & -> & -> & V & W).
    rewrite set_wrg by lia. cbn [bind].
    replace ((k + 1) * n) with (k * n + n) by lia. replace ((k + 1) * (n + 1)) with (k * (n + 1) + 1 + n) by lia.
    apply (@wp_for _ 0 n _ (fun p => made (k * n + p) (k * (n + 1) + 1 + p) (k + 1))); [lia| |].
    + cbn. rewrite zlen_wrg, Z.add_0_r. repeat split; auto; try lia; try (apply V; auto; fail).
      intros i Hi. rewrite rdg_wrg by lia. destruct (Z.eqb_spec i k) as [->|]; [reflexivity|]. apply W. lia.
    + clear ti tj tx bx L1 L2 L3 L4 V W. intros p [[[[[ti tj] tx] bx] num] t] Hp (L1 & L2 & L3 & L4 & -> & -> & V & W).
      assert (B : 0 <= k * n + p < n * n) by nia.
      rewrite set_wr by lia. cbn [bind]. rewrite set_wr by lia. cbn [bind]. rewrite set_wrg by lia. cbn [bind wp]. unfold made.
      rewrite !zlen_wr, zlen_wrg. repeat split; auto; try lia.
      all: destruct (Z.eq_dec (i * n + j) (k * n + p)) as [E|E].
      all: try (assert (i = k) by nia; assert (j = p) by lia; subst i j).
      all: try (rewrite rd_wr_eq by lia; reflexivity).
      all: try (rewrite rd_wr_ne by nia; apply V; auto; lia).
      * rewrite rdg_wrg_eq by lia. reflexivity.
      * rewrite rdg_wrg_ne by nia. apply V; auto; lia.
Qed.


(* the two matrices that are copied *)
Definition Rm (ti tj : list Z) (tx : list fl) : matrix := with_nz (with_arrays R0 None (Some ti) (Some tj) (VD tx)) (n * n).
Definition Rbm (bx : list fl) : matrix := with_arrays Rb0 None None None (VD bx).
Lemma split_pos q : 0 <= q < n * n -> exists i j, 0 <= i < n /\ 0 <= j < n /\ q = i * n + j.
Proof.
  intros Hq. exists (q / n), (q mod n). pose proof (Z.mod_pos_bound q n ltac:(lia)). pose proof (Z.div_mod q n ltac:(lia)).
  assert (0 <= q / n) by (apply Z.div_pos; lia). assert (q / n < n) by (apply Z.div_lt_upper_bound; lia). repeat split; lia.
Qed.
Lemma pos_div i j : 0 <= j < n -> (i * n + j) / n = i /\ (i * n + j) mod n = j.
Proof.
  intros Hj. split. symmetry; apply (Z.div_unique _ _ i j); lia. symmetry; apply (Z.mod_unique _ _ i j); lia.
Qed.
Section Copies.
Variables (ti tj : list Z) (tx bx : list fl) (num t : Z).
Hypothesis M : made (n * n) (n * (n + 1)) n (ti, tj, tx, bx, num, t).
Lemma Rm_ok : trip_ok (Rm ti tj tx) ti tj (VD tx).
Proof.
  destruct M as (L1 & L2 & L3 & L4 & En & _ & V & W). constructor; cbn; auto; try lia; try nia.
  - intros k Hk. destruct (split_pos Hk) as (i & j & Hi & Hj & ->). destruct (V i j Hi Hj) as (-> & _); lia.
  - intros k Hk. destruct (split_pos Hk) as (i & j & Hi & Hj & ->). destruct (V i j Hi Hj) as (_ & -> & _); lia.
Qed.
Lemma Rbm_ok : dense_ok (Rbm bx) (VD bx).
Proof. destruct M as (L1 & L2 & L3 & L4 & En & _ & V & W). constructor; cbn; auto; try lia. Qed.
End Copies.
(* the copy of R *)
Lemma copy_R o addr ti tj tx bx num t y s : made (n * n) (n * (n + 1)) n (ti, tj, tx, bx, num, t) -> 1 <= opt_prec o ->
  converted o addr TMPZ (Rm ti tj tx) (VZ y) s ->
  exists C, matrix_copy o addr true true KCSC TMPZ (Some (Rm ti tj tx)) = Ok C /\ int_csc n n C /\ m_scale C = s /\
    forall i j, 0 <= i < n -> 0 <= j < n -> Cent C i j = rd y (i * n + j).
Proof.
  intros M Hp HC. pose proof (Rm_ok M) as OK. assert (IT : is_type TMPZ) by (unfold is_type, TMPZ, TDBL; lia).
  destruct (trip_to_csc_copy OK IT Hp HC) as (C & p & i & cx & E & CO & C1 & C2 & C3 & C4 & C5 & C6 & C7 & C8).
  destruct (trip_to_csc_len' OK Hp HC E) as (i' & x & X1 & X2 & X3).
  assert (i' = i) by (dcsc CO; congruence). assert (cx = VZ x) by (dcsc CO; congruence). subst i' cx. cbn [Rm with_nz with_arrays R0 m_n m_m m_nz] in *.
  destruct M as (L1 & L2 & L3 & L4 & En & _ & V & W).
  assert (ND : forall c q q', 0 <= c < n -> rd p c <= q < rd p (c + 1) -> rd p c <= q' < rd p (c + 1) -> rd i q = rd i q' -> q = q').
  { intros c q q' Hc. apply (@column_pos p i (VZ x) c). rewrite C8 by auto. unfold trip_column. rewrite map_map. cbn [fst].
    apply nodup_map_in; [apply NoDup_filter, nodup_zseq|]. intros a b Ha Hb E1.
    apply filter_In in Ha. destruct Ha as [Ha Ha']. apply filter_In in Hb. destruct Hb as [Hb Hb']. apply in_zseq in Ha, Hb. apply Z.eqb_eq in Ha', Hb'.
    destruct (split_pos Ha) as (ia & ja & A1 & A2 & ->). destruct (split_pos Hb) as (ib & jb & B1 & B2 & ->).
    destruct (V ia ja A1 A2) as (E3 & E4 & _); [lia|]. destruct (V ib jb B1 B2) as (E5 & E6 & _); [lia|]. rewrite E3, E5 in E1. rewrite E4 in Ha'. rewrite E6 in Hb'. congruence. }
  dcsc CO. rewrite C1, C2 in *.
  assert (VC : valid_csc n n p i x) by (constructor; auto; lia).
  exists C. split; [exact E|]. split; [|split; [exact C7|]].
  - constructor; try congruence. exists p, i, x. auto.
  - intros r c Hr Hc. unfold Cent. rewrite co_p', co_i', co_x'.
    assert (B : 0 <= r * n + c < n * n) by nia. destruct (V r c Hr Hc) as (E1 & E2 & _); [lia|].
    assert (HI : In (r, NZ (rd y (r * n + c))) (csc_column p i (VZ x) c)).
    { rewrite C8 by auto. unfold trip_column. apply in_map_iff. exists (r * n + c). split; [rewrite E1; reflexivity|].
      apply filter_In. split; [now apply in_zseq|]. rewrite E2. apply Z.eqb_refl. }
    unfold csc_column in HI. apply in_map_iff in HI. destruct HI as (q & Eq & Hq). apply in_zseq in Hq. injection Eq as Er Ev.
    transitivity (rd x q); [rewrite <- Er; eapply ent_valid; eauto|exact Ev].
Qed.
Lemma copy_Rb o addr ti tj tx bx num t y s : made (n * n) (n * (n + 1)) n (ti, tj, tx, bx, num, t) -> 1 <= opt_prec o ->
  converted o addr TMPZ (Rbm bx) (VZ y) s ->
  exists B, matrix_copy o addr true true KDENSE TMPZ (Some (Rbm bx)) = Ok B /\ int_dense n 1 B /\ m_scale B = s /\
    forall i, 0 <= i < n -> Dent B i 0 = rd y i.
Proof.
  intros M Hp HC. destruct (@dense_copy_int o addr (Rbm bx) (VD bx) y s (Rbm_ok M) Hp HC) as (B & E & ID & HX & HS).
  exists B. split; auto. split; auto. split; auto. intros i Hi. unfold Dent. rewrite HX, (id_m ID). f_equal. cbn. lia.
Qed.

(* the numbers of R and Rb, when they are ints *)
Section Exact.
Variables (ti tj : list Z) (tx bx : list fl) (num t : Z) (o : option options) (addr : Z -> Z).
Hypothesis M : made (n * n) (n * (n + 1)) n (ti, tj, tx, bx, num, t).
Hypothesis HR : forall k, - 2 ^ 53 < rand k < 2 ^ 53.
Hypothesis Hp : 93 <= opt_prec o.
Lemma digits53 z : - 2 ^ 53 < z < 2 ^ 53 -> digits z <= 53.
Proof. intros H. unfold digits. destruct (Z.eqb_spec z 0); [lia|]. assert (Z.log2 (Z.abs z) < 53); [apply Z.log2_lt_pow2; lia|lia]. Qed.
Definition fq (f : fl) : Q := match fl_q f with Some q => q | None => 0%Q end.
Lemma fq_int z : fl_q (FFin z 0) = Some (fq (FFin z 0)) /\ (fq (FFin z 0) == inject_Z z)%Q.
Proof. unfold fq. destruct (fl_q_fin z 0) as (v & E & H & _). rewrite E. split; auto. rewrite H by lia. change (2 ^ 0) with 1. now rewrite Z.mul_1_r. Qed.
Lemma exact_R : (exists i j, 0 <= i < n /\ 0 <= j < n /\ aij i j <> 0) ->
  exists y s, converted o addr TMPZ (Rm ti tj tx) (VZ y) s /\ ~ (s == 0)%Q /\
    forall i j, 0 <= i < n -> 0 <= j < n -> (inject_Z (rd y (i * n + j)) / s == inject_Z (aij i j))%Q.
Proof.
  intros (i0 & j0 & I0 & J0 & N0). pose proof (Rm_ok M) as OK. destruct M as (L1 & L2 & L3 & L4 & En & _ & V & W).
  destruct (@C42_exact o addr (Rm ti tj tx) (n * n) tx (fun k => fq (rdg FNan tx k))) as (y & s & HC & Hs & HV & _); auto.
  - right; left. exists ti, tj. split; auto.
  - intros k Hk. destruct (split_pos Hk) as (i & j & Hi & Hj & ->). destruct (V i j Hi Hj) as (_ & _ & ->); [lia|]. cbn. apply digits53, HR.
  - intros k Hk. destruct (split_pos Hk) as (i & j & Hi & Hj & ->). destruct (V i j Hi Hj) as (_ & _ & ->); [lia|]. apply fq_int.
  - exists (i0 * n + j0). assert (B : 0 <= i0 * n + j0 < n * n) by nia. split; auto. destruct (V i0 j0 I0 J0) as (_ & _ & ->); [lia|].
    rewrite (proj2 (fq_int _)). intros E. apply N0. now apply (proj1 (inject_Z_injective _ 0)).
  - intros k Hk. destruct (split_pos Hk) as (i & j & Hi & Hj & ->). destruct (V i j Hi Hj) as (_ & _ & ->); [lia|].
    exists (aij i j * 10 ^ 17). rewrite (proj2 (fq_int _)), <- inject_Z_mult. reflexivity.
  - exists y, s. split; auto. split; auto. intros i j Hi Hj. assert (B : 0 <= i * n + j < n * n) by nia. rewrite HV by auto.
    destruct (V i j Hi Hj) as (_ & _ & ->); [lia|]. apply fq_int.
Qed.
Lemma zero_R : (forall i j, 0 <= i < n -> 0 <= j < n -> aij i j = 0) ->
  exists y s, converted o addr TMPZ (Rm ti tj tx) (VZ y) s /\ forall i j, 0 <= i < n -> 0 <= j < n -> rd y (i * n + j) = 0.
Proof.
  intros Z0. pose proof (Rm_ok M) as OK. destruct M as (L1 & L2 & L3 & L4 & En & _ & V & W).
  destruct (@C42_zero_refuted o addr (Rm ti tj tx) (n * n) tx) as (y & HC & HV); auto.
  - right; left. exists ti, tj. split; auto.
  - intros k Hk. destruct (split_pos Hk) as (i & j & Hi & Hj & ->). destruct (V i j Hi Hj) as (_ & _ & ->); [lia|]. now rewrite Z0.
  - exists y, 0%Q. split; auto. intros i j Hi Hj. apply HV. nia.
Qed.
Lemma exact_Rb : (exists i, 0 <= i < n /\ bi i <> 0) ->
  exists y s, converted o addr TMPZ (Rbm bx) (VZ y) s /\ ~ (s == 0)%Q /\ forall i, 0 <= i < n -> (inject_Z (rd y i) / s == inject_Z (bi i))%Q.
Proof.
  intros (i0 & I0 & N0). pose proof (Rbm_ok M) as OK. destruct M as (L1 & L2 & L3 & L4 & En & _ & V & W).
  destruct (@C42_exact o addr (Rbm bx) n bx (fun k => fq (rdg FNan bx k))) as (y & s & HC & Hs & HV & _); auto.
  - right; right. split; auto. cbn. lia.
  - intros k Hk. rewrite W by lia. cbn. apply digits53, HR.
  - intros k Hk. rewrite W by lia. apply fq_int.
  - exists i0. split; auto. rewrite W by lia. rewrite (proj2 (fq_int _)). intros E. apply N0. now apply (proj1 (inject_Z_injective _ 0)).
  - intros k Hk. rewrite W by lia. exists (bi k * 10 ^ 17). rewrite (proj2 (fq_int _)), <- inject_Z_mult. reflexivity.
  - exists y, s. split; auto. split; auto. intros i Hi. rewrite HV by auto. rewrite W by lia. apply fq_int.
Qed.
Lemma zero_Rb : (forall i, 0 <= i < n -> bi i = 0) -> exists y, converted o addr TMPZ (Rbm bx) (VZ y) 0%Q.
Proof.
  intros Z0. pose proof (Rbm_ok M) as OK. destruct M as (L1 & L2 & L3 & L4 & En & _ & V & W).
  destruct (@C42_zero_refuted o addr (Rbm bx) n bx) as (y & HC & HV); auto.
  - right; right. split; auto. cbn. lia.
  - intros k Hk. rewrite W by lia. now rewrite Z0.
  - eauto.
Qed.
End Exact.
End Gen.
Lemma backslash_singular' env ol addr n nrhs A B o type : int_csc n n A -> int_dense n nrhs B -> env_ok env (opt_pivot o) -> type = TMPQ \/ type = TDBL \/ type = TMPFR ->
  detz n (Cent A) = 0 -> SLIP_backslash env ol addr true true type (Some A) (Some B) o = Ok (SErr SLIP_SINGULAR, Null).
Proof.
  intros IC ID He HT H0. destruct (ic_arr IC) as (Ap & Ai & Ax & Hp & Hi & Hx & V).
  destruct (@analyze_spec ol A Ap Ai n o (ic_kind IC) (ic_m IC) (ic_n IC) Hp Hi (csc_pattern V)) as (An & EA & US' & _).
  assert (US : usable n An) by (destruct US' as (U1 & U2 & U3); split; auto; lia).
  unfold SLIP_backslash, has_kt. rewrite (ic_kind IC), (ic_type IC), (id_kind ID), (id_type ID), EA.
  destruct (@factorize_spec env n A An o IC US He) as [(Ap' & Ai' & Ax' & F & R & Hp' & Hi' & Hx' & V' & EF & K & HD)|(EF & HD)]; [contradiction|].
  destruct HT as [->|[->| ->]]; change (negb true) with false; cbn [call Z.eqb KCSC TMPQ TMPZ KDENSE TDBL TMPFR orb andb negb Pos.eqb]; cbn [call]; rewrite EF; reflexivity.
Qed.
Lemma backslash_scale0' env ol addr n nrhs A B o type : int_csc n n A -> int_dense n nrhs B -> env_ok env (opt_pivot o) -> type = TMPQ \/ type = TDBL \/ type = TMPFR ->
  1 <= n -> ~ (m_scale A == 0)%Q -> (m_scale B == 0)%Q -> detz n (Cent A) <> 0 -> SLIP_backslash env ol addr true true type (Some A) (Some B) o = UB.
Proof.
  intros IC ID He HT Hn HsA HsB HD0. destruct (ic_arr IC) as (Ap & Ai & Ax & Hp & Hi & Hx & V).
  destruct (@analyze_spec ol A Ap Ai n o (ic_kind IC) (ic_m IC) (ic_n IC) Hp Hi (csc_pattern V)) as (An & EA & US' & _).
  assert (US : usable n An) by (destruct US' as (U1 & U2 & U3); split; auto; lia).
  unfold SLIP_backslash, has_kt. rewrite (ic_kind IC), (ic_type IC), (id_kind ID), (id_type ID), EA.
  destruct (@factorize_spec env n A An o IC US He) as [(Ap' & Ai' & Ax' & F & R & Hp' & Hi' & Hx' & V' & EF & K & HD)|(EF & HD)]; [|contradiction].
  pose proof (@C42_zero_rhs_refuted env ol n nrhs A B o o o An (lu_of n F) IC ID Hn HsA HsB He EA EF) as ES.
  destruct HT as [->|[->| ->]]; change (negb true) with false; cbn [call Z.eqb KCSC TMPQ TMPZ KDENSE TDBL TMPFR orb andb negb Pos.eqb]; cbn [call]; rewrite EF; cbn [call]; rewrite ES; reflexivity.
Qed.
Lemma scaled_det1 n s f g : 0 <= n -> ~ (s == 0)%Q -> (forall i j, 0 <= i < n -> 0 <= j < n -> (inject_Z (f i j) / s == inject_Z (g i j))%Q) -> (detz n f = 0 <-> detz n g = 0).
Proof.
  intros Hn Hs H. destruct s as [a d]. apply (@det_prop n (Z.pos d) a); auto; try lia.
  - intros ->. apply Hs. reflexivity.
  - intros i j Hi Hj. specialize (H i j Hi Hj).
    assert (E : (inject_Z (f i j) == inject_Z (g i j) * (a # d))%Q) by (rewrite <- H; field; auto).
    unfold Qeq in E. cbn [Qnum Qden inject_Z Qmult] in E. rewrite ?Pos.mul_1_l, ?Pos.mul_1_r, ?Z.mul_1_r in E. lia.
Qed.
