(* SLIP_matrix_copy and SLIP_matrix_check with int64_t arithmetic (MInt64b.v) do what the unbounded model does. *)
From Verif Require Import Base MFactor MSolve MMatrix MApi MInt64 MInt64b PInt64.
Set Implicit Arguments.
Open Scope Z_scope.

Definition T1 {A} (_ : A) : Prop := True.
Lemma sim_true A (m : res A) : sim m m T1.
Proof. apply sim_refl. intros; exact I. Qed.
Lemma sim_weak A (m m' : res A) Q : sim m m' Q -> sim m m' T1.
Proof. intros H. eapply sim_mono; eauto. intros; exact I. Qed.
Lemma sim_eq A (m m' : res A) Q : sim m m' Q -> m <> UB -> m' = m.
Proof. intros [->|[-> _]] H; [destruct (H eq_refl)|auto]. Qed.
(* loops with a bounded counter *)
Lemma sim_fort S lo hi (body body' : Z -> S -> res S) s : - 1 <= lo -> hi <= LIM ->
  (forall j s, lo <= j < hi -> sim (body j s) (body' j s) T1) -> sim (for_ lo hi body s) (for64 lo hi body' s) T1.
Proof.
  intros L H HB. apply (@sim_forc S (fun _ => True)); auto. intros j t Hj _. eapply sim_mono; [apply HB; auto|]. intros a _. split; auto. num.
Qed.
Lemma sim_bindt A B (m m' : res A) (k k' : A -> res B) Q P :
  sim m m' P -> (forall a, sim (k a) (k' a) Q) -> sim (bind m k) (bind m' k') Q.
Proof. intros. eapply sim_bind; eauto. Qed.
Lemma sim_same A B (m : res A) (k k' : A -> res B) Q : (forall a, m = Ok a -> sim (k a) (k' a) Q) -> sim (bind m k) (bind m k') Q.
Proof. intros H. destruct m; cbn [bind]; auto using sim_err, sim_ub, sim_fuel. Qed.

Lemma conv_sim A B n (f : A -> res B) x y : n <= LIM -> sim (conv_loop n f x y) (conv_loop64 n f x y) T1.
Proof. intros H. apply sim_fort; auto; try lia. intros k t _. apply sim_true. Qed.
Lemma memcpy_sim A (C S : list A) n : n <= LIM -> sim (memcpy C S n) (memcpy64 C S n) T1.
Proof. apply conv_sim. Qed.
Ltac cv := eapply sim_bindt; [apply conv_sim; assumption|intros ?; try apply sim_true].

Lemma expand_q_sim y x n : n <= LIM -> sim (slip_expand_mpq_array y x n) (slip_expand_mpq_array64 y x n) T1.
Proof.
  intros H. unfold slip_expand_mpq_array, slip_expand_mpq_array64. cv. apply sim_same. intros d0 _.
  eapply sim_bindt; [apply sim_fort; auto; try lia; intros; apply sim_true|]. intros t. cbv zeta. cv.
Qed.
Lemma gcd_inv y n st : for_ 0 n (gcd_step y) (false, 0, 0, false) = Ok st -> 0 <= snd (fst (fst st)).
Proof.
  unfold for_. assert (G : forall c i s st, 0 <= i -> 0 <= snd (fst (fst s)) -> floop c i (gcd_step y) s = Ok st -> 0 <= snd (fst (fst st))).
  { induction c as [|c IH]; intros i s st0 Hi Hs; cbn [floop]. intros [= <-]; auto.
    destruct (gcd_step y i s) as [s'| | |] eqn:E; cbn [bind]; try discriminate. apply IH. lia.
    revert E. unfold gcd_step. destruct s as [[[f k] g] b]. cbn [fst snd] in Hs. destruct b. intros [= <-]; auto.
    destruct (get y i); cbn [bind]; try discriminate. destruct f. intros [= <-]; auto. destruct (_ =? 0); intros [= <-]; auto. }
  intros E. eapply G; [| |exact E]; cbn; lia.
Qed.
Lemma reduce_sim y s n : n <= LIM -> sim (reduce_gcd y s n) (reduce_gcd64 y s n) T1.
Proof.
  intros H. unfold reduce_gcd, reduce_gcd64.
  assert (S1 : sim (for_ 0 n (gcd_step y) (false, 0, 0, false)) (for64 0 n (gcd_step y) (false, 0, 0, false)) (fun st => 0 <= snd (fst (fst st)))).
  { assert (S0 : sim (for_ 0 n (gcd_step y) (false, 0, 0, false)) (for64 0 n (gcd_step y) (false, 0, 0, false)) T1) by (apply sim_fort; auto; try lia; intros; apply sim_true).
    destruct S0 as [->|[-> _]]; [left; auto|]. right. split; auto. intros a. apply gcd_inv. }
  eapply sim_bind; [exact S1|]. intros [[[f k] g] b] Hk. cbn [fst snd] in Hk. destruct (negb f); [apply sim_true|]. destruct b; [apply sim_true|].
  eapply sim_bindt; [apply sim_fort; auto; try lia; intros; apply sim_true|]. intros. apply sim_true.
Qed.
Lemma expand_d_sim r p y x n : n <= LIM -> sim (slip_expand_double_array r p y x n) (slip_expand_double_array64 r p y x n) T1.
Proof. intros H. unfold slip_expand_double_array, slip_expand_double_array64. cv. apply reduce_sim; auto. Qed.
Lemma expand_r_sim r p y x n : n <= LIM -> sim (slip_expand_mpfr_array r p y x n) (slip_expand_mpfr_array64 r p y x n) T1.
Proof. intros H. unfold slip_expand_mpfr_array, slip_expand_mpfr_array64. cv. apply reduce_sim; auto. Qed.

Lemma cast_sim o addr Y X n ys xs : n <= LIM -> sim (slip_cast_array o addr Y X n ys xs) (slip_cast_array64 o addr Y X n ys xs) T1.
Proof.
  intros H. unfold slip_cast_array, slip_cast_array64. cbv zeta. destruct Y, X; try cv;
    try (eapply sim_bindt; [first [apply expand_q_sim|apply expand_r_sim|apply expand_d_sim]; auto|intros; apply sim_true]).
  eapply sim_bindt; [apply sim_fort; auto; try lia; intros; apply sim_true|]. intros. apply sim_true.
Qed.
Lemma cast_ptr_sim o addr Y X n ys xs : n <= LIM -> sim (cast_array_ptr o addr Y X n ys xs) (cast_array_ptr64 o addr Y X n ys xs) T1.
Proof. intros H. unfold cast_array_ptr, cast_array_ptr64. destruct Y, X; try apply sim_err. apply cast_sim; auto. Qed.

Lemma alloc_eq kind type m n nzmax sh : (kind = KDENSE -> m * n <= LIM) -> n <= LIM ->
  matrix_allocate64 ck kind type m n nzmax sh = matrix_allocate kind type m n nzmax sh.
Proof.
  intros H1 H2. unfold matrix_allocate64, matrix_allocate.
  destruct (Z.ltb_spec m 0); cbn [orb]; auto. destruct (Z.ltb_spec n 0); cbn [orb]; auto.
  match goal with |- context [if ?c then Err SLIP_INCORRECT_INPUT else _] => destruct c; auto end.
  destruct (Z.eqb_spec kind KDENSE) as [K|K].
  - specialize (H1 K). rewrite ck_ok by (assert (0 <= m * n) by nia; num). cbn [bind]. destruct sh; auto. destruct (kind =? KCSC); cbn [bind]; auto. rewrite ck_ok by num. reflexivity.
  - cbn [bind]. destruct sh; auto. destruct (kind =? KCSC); cbn [bind]; auto. rewrite ck_ok by num. reflexivity.
Qed.
Lemma nnz_eq A : (m_kind A = KDENSE -> m_m A * m_n A <= LIM) -> matrix_nnz64 ck true (Some A) = matrix_nnz true (Some A).
Proof.
  intros H. unfold matrix_nnz64, matrix_nnz. cbn [negb]. destruct (m_kind A =? KCSC); auto. destruct (m_kind A =? KTRIP); auto.
  destruct (Z.eqb_spec (m_kind A) KDENSE) as [K|K]; auto. specialize (H K).
  destruct (Z.ltb_spec (m_m A) 0); cbn [orb]; auto. destruct (Z.ltb_spec (m_n A) 0); cbn [orb]; auto. apply ck_ok. assert (0 <= m_m A * m_n A) by nia. num.
Qed.
Lemma cast_matrix_sim o addr t A nz : nz <= LIM -> sim (slip_cast_matrix o addr t A nz) (slip_cast_matrix64 o addr t A nz) T1.
Proof.
  intros H. unfold slip_cast_matrix, slip_cast_matrix64. rewrite alloc_eq by (unfold LIM in *; lia). apply sim_same. intros Y _.
  destruct (_ =? _); [apply sim_true|]. eapply sim_bindt; [apply cast_ptr_sim; auto|]. intros. apply sim_true.
Qed.

(* sums of counts *)
Definition zsum (l : list Z) : Z := fold_right Z.add 0 l.
Lemma zsum_app a b : zsum (a ++ b) = zsum a + zsum b.
Proof. induction a; cbn [app zsum fold_right]; auto. change (a + zsum (a0 ++ b) = a + zsum a0 + zsum b). lia. Qed.
Lemma zsum_nonneg l : (forall a, In a l -> 0 <= a) -> 0 <= zsum l.
Proof. induction l as [|a l IH]; cbn; intros H. lia. fold (zsum l). pose proof (H a (or_introl eq_refl)). assert (0 <= zsum l) by (apply IH; intros; apply H; auto). lia. Qed.
Lemma zsum_upd l : forall k v w, nth_error l k = Some w -> zsum (upd l k v) = zsum l + (v - w).
Proof.
  induction l as [|a l IH]; intros [|k] v w; cbn; try discriminate. intros [= ->]. fold (zsum l). lia. intros H. fold (zsum (upd l k v)) (zsum l). rewrite (IH _ _ _ H). lia.
Qed.
Lemma zsum_set l i v w l' : get l i = Ok w -> set l i v = Ok l' -> zsum l' = zsum l + (v - w).
Proof.
  unfold get, set. destruct (i <? 0); [discriminate|]. destruct (nth_error l (Z.to_nat i)) eqn:E; [|discriminate]. intros [= ->].
  destruct (_ && _); [|discriminate]. intros [= <-]. apply zsum_upd. auto.
Qed.
Lemma zsum_mk n : zsum (mk n 0) = 0.
Proof. unfold mk. induction (Z.to_nat n); cbn; auto. Qed.

Lemma in_rd (l : list Z) v : In v l -> exists t, 0 <= t < zlen l /\ rd l t = v.
Proof.
  intros H. apply (In_nth _ _ 0) in H. destruct H as (k & Hk & Hv). exists (Z.of_nat k). unfold zlen, rd. rewrite Nat2Z.id. split; auto. lia.
Qed.
Lemma zsum_first l : forall k, (k < length l)%nat -> zsum (firstn (S k) l) = zsum (firstn k l) + nth k l 0.
Proof.
  induction l as [|a l IH]; intros k; cbn [length]; [lia|]. destruct k; intros H. cbn. lia.
  change (firstn (S (S k)) (a :: l)) with (a :: firstn (S k) l). change (firstn (S k) (a :: l)) with (a :: firstn k l).
  change (a + zsum (firstn (S k) l) = a + zsum (firstn k l) + nth k l 0). rewrite IH by lia. lia.
Qed.
(* slip_cumsum: the partial sums stay below the sum *)
Lemma cumsum_sim p c n : zlen c <= LIM -> (forall a, In a c -> 0 <= a) -> zsum c <= LIM ->
  sim (slip_cumsum (Some p) (Some c) n) (slip_cumsum64 (Some p) (Some c) n) (fun r => zlen (snd r) = zlen c /\ allsm (snd r)).
Proof.
  intros HL HP HS. unfold slip_cumsum, slip_cumsum64.
  set (I := fun (k : Z) (st : list Z * list Z * Z) => let '(_, c', nz) := st in
    zlen c' = zlen c /\ 0 <= k /\ nz = zsum (firstn (Z.to_nat k) c) /\ (forall i, k <= i < zlen c -> rd c' i = rd c i) /\ (forall i, 0 <= i < k -> 0 <= rd c' i <= LIM)).
  assert (B : forall k, 0 <= zsum (firstn k c) <= LIM).
  { intros k. pose proof (zsum_app (firstn k c) (skipn k c)) as E. rewrite firstn_skipn in E.
    assert (0 <= zsum (firstn k c)) by (apply zsum_nonneg; intros a Ha; apply HP; rewrite <- (firstn_skipn k c); apply in_or_app; auto).
    assert (0 <= zsum (skipn k c)) by (apply zsum_nonneg; intros a Ha; apply HP; rewrite <- (firstn_skipn k c); apply in_or_app; auto). lia. }
  assert (B2 : forall i, 0 <= i < zlen c -> 0 <= rd c i <= LIM).
  { intros i Hi. unfold zlen in Hi. pose proof (B (S (Z.to_nat i))) as B1. pose proof (B (Z.to_nat i)) as B0. rewrite zsum_first in B1 by lia. fold (rd c i) in B1.
    assert (0 <= rd c i). { apply HP. unfold rd. apply nth_In. lia. } lia. }
  eapply sim_bind.
  { apply (@sim_for _ I).
    - cbn. split; auto. split; [lia|]. split; auto. split; auto. intros; lia.
    - intros j [[p' c'] nz] Hj (L & Hk & HN & HT & HF). apply sim_same. intros p2 Sp. apply sim_same. intros ci Gi. apply sim_same. intros pj Gp. apply sim_same. intros c2 S2.
      assert (R : 0 <= j < zlen c') by (apply get_in in Gi; tauto). rewrite L in R.
      assert (Ec : ci = rd c j). { rewrite get_rd in Gi by lia. injection Gi as <-. apply HT. lia. }
      assert (SN : nz + ci = zsum (firstn (Z.to_nat (j + 1)) c)).
      { replace (Z.to_nat (j + 1)) with (S (Z.to_nat j)) by lia. unfold zlen in R. rewrite zsum_first by lia. rewrite HN, Ec. reflexivity. }
      apply sim_ck. { rewrite SN. specialize (B (Z.to_nat (j + 1))). num. }
      assert (Pj : pj = nz).
      { pose proof (set_in _ _ _ Sp) as (R2 & L2 & _). rewrite set_wr in Sp by lia. injection Sp as <-. rewrite get_rd in Gp by lia. injection Gp as <-. apply rd_wr_eq. lia. }
      apply sim_ret. split; [|num]. rewrite set_wr in S2 by lia. injection S2 as <-. cbn. rewrite zlen_wr. split; auto. split; [lia|]. split; auto. split.
      + intros i Hi. rewrite rd_wr_ne by lia. apply HT. lia.
      + intros i Hi. rewrite rd_wr by lia. destruct (Z.eqb_spec i j). rewrite Pj, HN. apply B. apply HF. lia. }
  intros [[p' c'] nz] (L & Hk & HN & HT & HF). apply sim_same. intros p2 _. apply sim_ret. cbn [snd]. split; auto.
  intros a Ha. apply in_rd in Ha. destruct Ha as (t & Ht & <-). destruct (Z_lt_le_dec t (Z.max 0 n)).
  - specialize (HF t ltac:(lia)). num.
  - rewrite HT by lia. specialize (B2 t ltac:(lia)). num.
Qed.

Lemma trip_csc_sim A (set1 : A -> A) n nz Ti Tj Y Cp Ci Cx : nz <= LIM -> n <= LIM -> zlen Ci <= LIM ->
  sim (trip_to_csc set1 n nz Ti Tj Y Cp Ci Cx) (trip_to_csc64 set1 n nz Ti Tj Y Cp Ci Cx) T1.
Proof.
  intros Hz Hn HC. unfold trip_to_csc, trip_to_csc64.
  assert (LM : zlen (mk n 0) <= LIM). { unfold zlen, mk. rewrite repeat_length. unfold LIM in *. lia. }
  eapply sim_bind.
  { apply (@sim_for _ (fun k W => zlen W = zlen (mk n 0) /\ 0 <= k /\ zsum W = k /\ forall a, In a W -> 0 <= a <= k)).
    - split; auto. split; [lia|]. split; [apply zsum_mk|]. intros a Ha. apply repeat_spec in Ha. lia.
    - intros k W Hk (L & K & HS & HB). apply sim_same. intros j _. apply sim_same. intros w Gw. pose proof (get_in _ _ Gw) as [Rj Iw].
      apply sim_ck. { specialize (HB w Iw). num. }
      apply sim_refl. intros W' SW. pose proof (zsum_set _ _ _ Gw SW) as ZS. apply set_in in SW as (_ & L2 & IN). split; [|num]. split; [lia|]. split; [lia|]. split; [lia|].
      intros a Ha. destruct (IN a Ha) as [->|Ha']; [specialize (HB w Iw)|specialize (HB a Ha')]; lia. }
  intros W (L & K & HS & HB). eapply sim_bind.
  { apply cumsum_sim. lia. intros a Ha. apply HB; auto. rewrite HS. unfold LIM in *. lia. }
  intros [p' W'] [L2 SM]. cbn [snd] in L2, SM. eapply sim_bind.
  { apply (@sim_forc _ (fun '(W, Ci', Cx') => zlen Ci' = zlen Ci /\ allsm W)).
    - auto.
    - intros k [[W2 Ci2] Cx2] Hk [LC SM2]. apply sim_same. intros j _. apply sim_get. intros q Rq Iq. apply sim_ck. { specialize (SM2 q Iq). num. }
      apply sim_same. intros W3 SW. apply sim_same. intros i _. apply sim_set. intros Ci3 RC LC3 _. apply sim_same. intros v _. apply sim_same. intros Cx3 _. apply sim_ret.
      split; [|num]. split; [lia|]. apply set_in in SW as (_ & _ & IN). intros a Ha. destruct (IN a Ha) as [->|Ha']; [num|auto]. }
  intros [[? ?] ?] _. apply sim_true.
Qed.
Lemma count_sim A (nzb : A -> bool) nz Y : nz <= LIM -> sim (count_nz nzb nz Y) (count_nz64 nzb nz Y) (fun c => c <= LIM).
Proof.
  intros H. unfold count_nz, count_nz64. eapply sim_mono. apply (@sim_for _ (fun k c => 0 <= c <= k)). lia.
  intros k c Hk Hc. apply sim_same. intros v _. destruct (nzb v). rewrite ck_ok by num. apply sim_ret. num. apply sim_ret. num.
  cbv beta. num.
Qed.
Lemma ix64_ok m i j : i64 (j * m) -> i64 (i + j * m) -> ix64 m i j = Ok (ix m i j).
Proof. intros H1 H2. unfold ix64, ix. rewrite ck_ok by auto. cbn [bind]. rewrite ck_ok by auto. reflexivity. Qed.
Lemma dense_csc_sim A (nzb : A -> bool) set1 m n Y Cp Ci Cx : n <= LIM -> m <= LIM -> m * n <= LIM -> zlen Ci <= LIM ->
  sim (dense_to_csc nzb set1 m n Y Cp Ci Cx) (dense_to_csc64 nzb set1 m n Y Cp Ci Cx) (fun '(Cp, _, _) => forall v, get Cp n = Ok v -> v <= LIM).
Proof.
  intros Hn Hm HMN HC. unfold dense_to_csc, dense_to_csc64. eapply sim_bind.
  { apply (@sim_forc _ (fun '(_, Ci', _, nz) => zlen Ci' = zlen Ci /\ 0 <= nz <= LIM)).
    - split; auto. num.
    - intros j [[[Cp1 Ci1] Cx1] nz1] Hj I1. apply sim_same. intros Cp2 _. eapply sim_mono.
      + apply (@sim_forc _ (fun '(_, Ci', _, nz) => zlen Ci' = zlen Ci /\ 0 <= nz <= LIM)). exact I1.
        intros i [[[Cp3 Ci3] Cx3] nz3] Hi [L3 N3].
        assert (B1 : 0 <= j * m <= m * n) by nia. assert (B2 : i + j * m <= m * n) by nia.
        rewrite ix64_ok by num. cbn [bind]. apply sim_same.
        intros v _. destruct (nzb v). 2: { apply sim_ret. split; auto. num. }
        apply sim_set. intros Ci4 R4 L4 _. apply sim_same. intros Cx4 _. apply sim_ck. num. apply sim_ret. split; [split; lia|num].
      + cbv beta. intros st HI. split; [exact HI|]. num. }
  intros [[[Cp1 ?] ?] nz] [_ N]. apply sim_same. intros Cp2 S2. apply sim_ret. intros v G. pose proof (set_in _ _ _ S2) as (R & L & _).
  rewrite set_wr in S2 by lia. injection S2 as <-. rewrite get_rd in G by lia. injection G as <-. rewrite rd_wr_eq by lia. lia.
Qed.
Lemma cols_sim n Ap Cj : n <= LIM -> zlen Cj <= LIM -> sim (csc_to_cols n Ap Cj) (csc_to_cols64 n Ap Cj) T1.
Proof.
  intros Hn HC. unfold csc_to_cols, csc_to_cols64. eapply sim_weak. apply (@sim_forc _ (fun C => zlen C = zlen Cj)); auto.
  intros j C Hj L. apply sim_same. intros lo _. apply sim_ck. num. apply sim_same. intros hi _. eapply sim_mono.
  - apply (@sim_forc _ (fun C => zlen C = zlen Cj)); auto. intros p C2 Hp L2. apply sim_setret. intros C3 R L3 _. split; [lia|num].
  - cbv beta. intros st HI. split; auto. num.
Qed.
Lemma csc_dense_sim A (set1 : A -> A) m n Ap Ai Y Cx : n <= LIM -> 0 <= m -> m * n <= LIM -> zlen Ai <= LIM -> zlen Cx <= LIM ->
  sim (csc_to_dense set1 m n Ap Ai Y Cx) (csc_to_dense64 set1 m n Ap Ai Y Cx) T1.
Proof.
  intros Hn Hm HMN HA HC. unfold csc_to_dense, csc_to_dense64. eapply sim_weak. apply (@sim_forc _ (fun C => zlen C = zlen Cx)); auto.
  intros j C Hj L. apply sim_same. intros lo _. apply sim_ck. num. apply sim_same. intros hi _. eapply sim_mono.
  - apply (@sim_forc _ (fun C => zlen C = zlen Cx)); auto. intros p C2 Hp L2. apply sim_get. intros i Rp _. apply sim_same. intros v _.
    eapply sim_mono; [apply sim_ixset with (Q := fun C3 => zlen C3 = zlen Cx)|]. { assert (0 <= j * m <= m * n) by nia. num. } lia. intros; lia. intros a Ha. split; auto. num.
  - cbv beta. intros st HI. split; auto. num.
Qed.
Lemma trip_dense_sim A (set1 : A -> A) m n nz Ti Tj Y Cx : nz <= LIM -> 0 <= m -> m * n <= LIM -> zlen Cx <= LIM ->
  (forall k, 0 <= k < nz -> 0 <= rd Tj k < n) ->
  sim (trip_to_dense set1 m nz Ti Tj Y Cx) (trip_to_dense64 set1 m nz Ti Tj Y Cx) T1.
Proof.
  intros Hz Hm HMN HC HJ. unfold trip_to_dense, trip_to_dense64. eapply sim_weak. apply (@sim_forc _ (fun C => zlen C = zlen Cx)); auto.
  intros k C Hk L. apply sim_same. intros i _. apply sim_same. intros j Gj. apply sim_same. intros v _.
  assert (Ej : j = rd Tj k). { pose proof (get_in _ _ Gj) as [R _]. rewrite get_rd in Gj by auto. congruence. } pose proof (HJ k Hk) as HJk. rewrite <- Ej in HJk.
  eapply sim_mono; [apply sim_ixset with (Q := fun C3 => zlen C3 = zlen Cx)|]. { assert (0 <= j * m <= m * n) by nia. num. } lia. intros; lia. intros a Ha. split; auto. num.
Qed.

(* SLIP_matrix_copy *)
Definition vlen (v : vals) : Z := match v with VZ l => zlen l | VQ l => zlen l | VR l => zlen l | VI l => zlen l | VD l => zlen l end.
Lemma on_vals_sim R (Q : R -> Prop) o Y C
  (f f' : forall A, (A -> bool) -> (A -> A) -> list A -> list A -> (list A -> vals) -> res R) :
  (forall A nzb set1 (y c : list A) V, zlen c = vlen C ->
     sim (f A nzb set1 y c V) (f' A nzb set1 y c V) Q) -> sim (on_vals o Y C f) (on_vals o Y C f') Q.
Proof. intros H. unfold on_vals. cbv zeta. destruct Y, C; try apply sim_ub; apply H; reflexivity. Qed.
Lemma zlen_mk A n (a : A) : zlen (mk n a) = Z.max 0 n.
Proof. unfold zlen, mk. rewrite repeat_length. lia. Qed.
Lemma vlen_fresh t n : vlen (fresh_vals t n) = Z.max 0 n.
Proof. unfold fresh_vals. repeat match goal with |- context [if ?c then _ else _] => destruct c end; apply zlen_mk. Qed.
Lemma alloc_facts kind t m n nzmax C : (if kind =? KDENSE then m * n else nzmax) <= LIM -> matrix_allocate kind t m n nzmax false = Ok C ->
  m_m C = m /\ m_n C = n /\ m_kind C = kind /\ 0 <= m /\ 0 <= n /\
  (forall i, m_i C = Some i -> zlen i <= LIM) /\ (forall j, m_j C = Some j -> zlen j <= LIM) /\ (forall x, m_x C = Some x -> vlen x <= LIM).
Proof.
  intros H. unfold matrix_allocate. destruct (Z.ltb_spec m 0); [discriminate|]. destruct (Z.ltb_spec n 0); [discriminate|]. cbn [orb].
  match goal with |- (if ?c then _ else _) = _ -> _ => destruct c; [discriminate|] end. intros [= <-]. cbn.
  assert (B : Z.max (if kind =? KDENSE then m * n else nzmax) 1 <= LIM) by (unfold LIM in *; lia).
  repeat split; auto.
  - intros i. destruct (kind =? KDENSE); [discriminate|]. intros [= <-]. rewrite zlen_mk. unfold LIM in *; lia.
  - intros i. destruct (kind =? KTRIP); [|discriminate]. intros [= <-]. rewrite zlen_mk. unfold LIM in *; lia.
  - intros x [= <-]. rewrite vlen_fresh. unfold LIM in *; lia.
Qed.
Ltac dr := apply sim_same; let v := fresh "v" in let E := fresh "E" in intros v E; match type of E with deref ?p = _ => destruct p eqn:?; [injection E as <-|discriminate E] end.
Ltac al := rewrite alloc_eq by (first [discriminate|unfold LIM in *; lia|intros; unfold LIM in *; lia]); apply sim_same; let C := fresh "C" in let EC := fresh "EC" in intros C EC;
  apply alloc_facts in EC; [|cbn; auto]; destruct EC as (? & ? & ? & ? & ? & ? & ? & ?).
Ltac castm := eapply sim_bindt; [apply cast_matrix_sim; auto|intros [? ?]; cbn [fst snd]].
Ltac castp := eapply sim_bindt; [apply cast_ptr_sim; auto|intros [? ?]; cbn [fst snd]].

Lemma csc_csc_sim o addr t A nz : nz <= LIM -> m_n A <= LIM -> sim (copy_csc_csc o addr t A nz) (copy_csc_csc64 o addr t A nz) T1.
Proof.
  intros Hz Hn. unfold copy_csc_csc, copy_csc_csc64. al. dr. dr. dr. dr. apply sim_ck. num.
  eapply sim_bindt. { destruct (Z_le_gt_dec (m_n A + 1) LIM). apply memcpy_sim; auto.
    unfold memcpy, memcpy64, conv_loop, conv_loop64. eapply sim_weak. apply (@sim_forc _ (fun _ => True)); auto. intros j s Hj _. apply sim_refl. intros. split; auto. num. }
  intros Cp'. eapply sim_bindt; [apply memcpy_sim; auto|]. intros Ci'. castp. apply sim_true.
Qed.
Lemma trip_csc_copy_sim o addr t A nz : nz <= LIM -> m_n A <= LIM -> sim (copy_trip_csc o addr t A nz) (copy_trip_csc64 o addr t A nz) T1.
Proof.
  intros Hz Hn. unfold copy_trip_csc, copy_trip_csc64. castm. dr. al. dr. dr. dr. dr. dr. apply on_vals_sim. intros B nzb set1 y c V HV.
  eapply sim_bindt; [apply trip_csc_sim; auto|]. intros [[? ?] ?]. apply sim_true.
Qed.
Lemma dense_csc_copy_sim o addr t A nz : nz <= LIM -> m_n A <= LIM -> m_m A <= LIM -> m_m A * m_n A <= LIM ->
  sim (copy_dense_csc o addr t A nz) (copy_dense_csc64 o addr t A nz)
    (fun T => m_kind T = KCSC /\ m_n T = m_n A /\ forall z, matrix_nnz true (Some T) = Ok z -> z <= LIM).
Proof.
  intros Hz Hn Hm HMN. unfold copy_dense_csc, copy_dense_csc64. castm. dr.
  eapply sim_bind with (P := fun a => a <= LIM).
  { apply on_vals_sim. intros B nzb set1 y c V _. apply count_sim; auto. }
  intros actual HA. al. dr. dr. dr. apply on_vals_sim. intros B nzb set1 y c V HV.
  eapply sim_bind; [apply dense_csc_sim; auto|]. intros [[Cp' ?] ?] HP. apply sim_ret. cbn [with_scale with_arrays m_kind m_n matrix_nnz m_p]. split; auto. split; auto.
  unfold matrix_nnz. cbn [negb m_kind m_p m_n with_scale with_arrays]. match goal with H : m_kind _ = KCSC |- _ => rewrite H end. cbn [Z.eqb KCSC].
  intros z. match goal with H : m_n ?C = m_n A |- _ => rewrite H end. change (0 =? KCSC) with true. cbv iota. destruct (m_n A <? 0). intros [= <-]. unfold LIM; lia. apply HP.
Qed.
Lemma csc_trip_sim o addr t A nz : nz <= LIM -> m_n A <= LIM -> sim (copy_csc_trip o addr t A nz) (copy_csc_trip64 o addr t A nz) T1.
Proof.
  intros Hz Hn. unfold copy_csc_trip, copy_csc_trip64. al. castp. dr. dr. dr. dr. eapply sim_bindt; [apply memcpy_sim; auto|]. intros Ci'.
  eapply sim_bindt; [apply cols_sim; auto|]. intros. apply sim_true.
Qed.
Lemma trip_trip_sim o addr t A nz : nz <= LIM -> m_n A <= LIM -> sim (copy_trip_trip o addr t A nz) (copy_trip_trip64 o addr t A nz) T1.
Proof.
  intros Hz Hn. unfold copy_trip_trip, copy_trip_trip64. al. dr. dr. dr. dr. eapply sim_bindt; [apply memcpy_sim; auto|]. intros Cj'.
  eapply sim_bindt; [apply memcpy_sim; auto|]. intros Ci'. castp. apply sim_true.
Qed.
Lemma dense_trip_sim o addr t A nz : nz <= LIM -> m_n A <= LIM -> m_m A <= LIM -> m_m A * m_n A <= LIM ->
  sim (copy_dense_trip o addr t A nz) (copy_dense_trip64 o addr t A nz) T1.
Proof.
  intros Hz Hn Hm HMN. unfold copy_dense_trip, copy_dense_trip64. eapply sim_bind; [apply dense_csc_copy_sim; auto|]. intros T (K & N & HZ).
  rewrite nnz_eq by (rewrite K; discriminate). apply sim_same. intros tnz E. eapply sim_bindt; [apply csc_trip_sim; auto; rewrite N; auto|]. intros. apply sim_true.
Qed.
Lemma csc_dense_copy_sim o addr t A nz : nz <= LIM -> m_n A <= LIM -> m_m A * m_n A <= LIM -> (forall i, m_i A = Some i -> zlen i <= LIM) ->
  sim (copy_csc_dense o addr t A nz) (copy_csc_dense64 o addr t A nz) T1.
Proof.
  intros Hz Hn HMN HI. unfold copy_csc_dense, copy_csc_dense64. al. castm. dr. dr. dr. dr. apply on_vals_sim. intros B nzb set1 y c V HV.
  eapply sim_bindt; [apply csc_dense_sim; auto|]. { rewrite HV. auto. } intros. apply sim_true.
Qed.
Lemma trip_dense_copy_sim o addr t A nz : nz <= LIM -> m_n A <= LIM -> m_m A * m_n A <= LIM ->
  (forall Tj k, m_j A = Some Tj -> 0 <= k < nz -> 0 <= rd Tj k < m_n A) ->
  sim (copy_trip_dense o addr t A nz) (copy_trip_dense64 o addr t A nz) T1.
Proof.
  intros Hz Hn HMN HI. unfold copy_trip_dense, copy_trip_dense64. al. castm. dr. dr. dr. dr. apply on_vals_sim. intros B nzb set1 y c V HV.
  eapply sim_bindt; [apply trip_dense_sim with (n := m_n A); auto|]. { rewrite HV. auto. } intros. apply sim_true.
Qed.
Lemma dense_dense_sim o addr t A nz : nz <= LIM -> m_n A <= LIM -> m_m A * m_n A <= LIM ->
  sim (copy_dense_dense o addr t A nz) (copy_dense_dense64 o addr t A nz) T1.
Proof. intros Hz Hn HMN. unfold copy_dense_dense, copy_dense_dense64. al. castp. apply sim_true. Qed.

Lemma matrix_copy_sim o addr inited handle kind type A :
  m_m A <= LIM -> m_n A <= LIM -> (forall nz, matrix_nnz true (Some A) = Ok nz -> nz <= LIM) -> (forall i, m_i A = Some i -> zlen i <= LIM) ->
  (m_kind A = KDENSE \/ kind = KDENSE -> m_m A * m_n A <= LIM) ->
  (m_kind A = KTRIP -> kind = KDENSE -> forall Tj k, m_j A = Some Tj -> 0 <= k < m_nz A -> 0 <= rd Tj k < m_n A) ->
  sim (matrix_copy o addr inited handle kind type (Some A)) (matrix_copy64 o addr inited handle kind type (Some A)) T1.
Proof.
  intros Hm Hn HZ HI HD HT. unfold matrix_copy, matrix_copy64. destruct inited; cbn [negb]; [|apply sim_err].
  rewrite nnz_eq by auto. apply sim_same. intros nz E. pose proof (HZ nz E) as Hz.
  match goal with |- sim (if ?c then _ else _) _ _ => destruct c eqn:EC; [apply sim_err|] end.
  assert (HK : KCSC <= kind <= KDENSE /\ 0 <= nz).
  { repeat match goal with H : _ || _ = false |- _ => apply orb_false_iff in H; destruct H end. unfold KCSC, KDENSE in *. lia. }
  destruct HK as [HK H0].
  assert (KA : m_kind A <> KCSC -> m_kind A <> KTRIP -> m_kind A = KDENSE).
  { intros N1 N2. revert E. unfold matrix_nnz. cbn [negb]. destruct (Z.eqb_spec (m_kind A) KCSC); [contradiction|]. destruct (Z.eqb_spec (m_kind A) KTRIP); [contradiction|].
    destruct (Z.eqb_spec (m_kind A) KDENSE); auto. intros [= <-]. lia. }
  assert (KT : m_kind A = KTRIP -> m_nz A = nz). { intros K. revert E. unfold matrix_nnz. rewrite K. cbn. congruence. }
  destruct (Z.eqb_spec kind KCSC) as [C1|C1].
  { destruct (Z.eqb_spec (m_kind A) KCSC); [apply csc_csc_sim; auto|]. destruct (Z.eqb_spec (m_kind A) KTRIP); [apply trip_csc_copy_sim; auto|].
    eapply sim_weak. apply dense_csc_copy_sim; auto. }
  destruct (Z.eqb_spec kind KTRIP) as [C2|C2].
  { destruct (Z.eqb_spec (m_kind A) KCSC); [apply csc_trip_sim; auto|]. destruct (Z.eqb_spec (m_kind A) KTRIP); [apply trip_trip_sim; auto|].
    apply dense_trip_sim; auto. }
  assert (K : kind = KDENSE) by (unfold KCSC, KTRIP, KDENSE in *; lia).
  destruct (Z.eqb_spec (m_kind A) KCSC); [apply csc_dense_copy_sim; auto|]. destruct (Z.eqb_spec (m_kind A) KTRIP); [apply trip_dense_copy_sim; auto|].
  - intros Tj k HJ Hk. apply HT with (Tj := Tj); auto. rewrite KT; auto.
  - apply dense_dense_sim; auto.
Qed.

(* SLIP_matrix_check *)
Lemma check_ptr_sim n nz Ap : n <= LIM -> sim (check_ptr n nz Ap) (check_ptr64 n nz Ap) T1.
Proof. intros H. apply sim_fort; auto. lia. intros j s Hj. apply sim_same. intros p _. apply sim_ck. num. apply sim_true. Qed.
Lemma check_rows_sim m n Ap Ai : n <= LIM -> zlen Ai <= LIM -> sim (check_rows m n Ap Ai) (check_rows64 m n Ap Ai) T1.
Proof.
  intros H HA. unfold check_rows, check_rows64. apply sim_fort; auto. lia. intros j s Hj. apply sim_same. intros lo _. apply sim_ck. num. apply sim_same. intros hi _.
  eapply sim_weak. apply (@sim_forc _ (fun _ => True)); auto. intros p w Hp _. apply sim_get. intros i R _. apply sim_refl. intros. split; auto. num.
Qed.
Lemma check_trip_sim m n nz Ti Tj : 0 <= nz < 2 ^ 60 -> sim (check_trip m n nz Ti Tj) (check_trip64 m n nz Ti Tj) T1.
Proof.
  intros H. assert (HL : nz <= LIM) by (unfold LIM; lia). unfold check_trip, check_trip64. eapply sim_bindt; [apply sim_fort; auto; try lia; intros; apply sim_true|]. intros _.
  apply sim_ck. num. unfold bytes. destruct (Z.leb_spec 0 (nz * 2)); [|lia]. destruct (Z.ltb_spec (nz * 2 * 8) (2 ^ 64)); [|lia]. cbn [andb bind].
  eapply sim_bindt. { apply sim_fort; auto; try lia. intros p w Hp. apply sim_ck. num. apply sim_ck. num. apply sim_true. }
  intros work.
  assert (E : for64 1 nz (fun p (_ : unit) => let* a := ck (2 * p) in let* _ := ck (a + 1) in let* q := ck (p - 1) in let* b := ck (2 * q) in let* _ := ck (b + 1) in Ok tt) tt = Ok tt).
  { assert (S : sim (for_ 1 nz (fun _ (_ : unit) => Ok tt) tt) (for64 1 nz (fun p (_ : unit) => let* a := ck (2 * p) in let* _ := ck (a + 1) in let* q := ck (p - 1) in let* b := ck (2 * q) in let* _ := ck (b + 1) in Ok tt) tt) T1).
    { apply sim_fort; auto; try lia. intros p w Hp. do 5 (apply sim_ck; [num|]). apply sim_true. }
    assert (O : for_ 1 nz (fun _ (_ : unit) => Ok tt) tt = Ok tt). { unfold for_. generalize (Z.to_nat (nz - 1)). intros c. generalize 1 at 1. induction c; intros i; cbn; auto. }
    rewrite O in S. apply (sim_eq S). discriminate. }
  rewrite E. cbn [bind]. apply sim_true.
Qed.
Lemma matrix_check_sim inited A :
  m_n A <= LIM -> (forall i, m_i A = Some i -> zlen i <= LIM) -> (m_kind A = KDENSE -> m_m A * m_n A <= LIM) -> (m_kind A = KTRIP -> m_nz A < 2 ^ 60) ->
  sim (matrix_check inited (Some A)) (matrix_check64 inited (Some A)) T1.
Proof.
  intros Hn HI HD HT. unfold matrix_check, matrix_check64. destruct inited; cbn [negb]; [|apply sim_err]. rewrite nnz_eq by auto. apply sim_same. intros nz E. cbv zeta.
  destruct (Z.ltb_spec nz 0); cbn [orb]; [apply sim_err|].
  match goal with |- sim (if ?c then _ else _) _ _ => destruct c; [apply sim_err|] end.
  match goal with |- sim (if ?c then _ else _) _ _ => destruct c; [apply sim_err|] end.
  destruct (Z.eqb_spec (m_kind A) KCSC).
  { apply sim_same. intros Ap _. apply sim_same. intros p0 _. destruct (negb (p0 =? 0)); [apply sim_err|]. eapply sim_bindt; [apply check_ptr_sim; auto|]. intros _.
    destruct (m_i A) as [Ai|] eqn:EI.
    - specialize (HI Ai eq_refl). destruct (m_x A). eapply sim_bindt; [apply check_rows_sim; auto|intros; apply sim_true].
      destruct (_ >? 0); [apply sim_err|]. cbn [deref bind]. eapply sim_bindt; [apply check_rows_sim; auto|intros; apply sim_true].
    - destruct (_ >? 0); [apply sim_err|]. apply sim_ub. }
  destruct (Z.eqb_spec (m_kind A) KTRIP) as [K|K]; [|apply sim_true].
  specialize (HT K). assert (Ez : m_nz A = nz). { revert E. unfold matrix_nnz. rewrite K. cbn. congruence. } rewrite Ez in HT.
  destruct (m_i A) as [Ti|], (m_j A) as [Tj|], (m_x A); try (apply check_trip_sim; lia);
    (destruct (_ >? 0); [apply sim_err|]; destruct (nz =? 0); [apply sim_true|]; cbn [deref bind]; try apply sim_ub; apply check_trip_sim; lia).
Qed.
