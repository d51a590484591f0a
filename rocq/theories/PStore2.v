(* The store model of SLIP_LU_solve computes what the value model computes. *)
From Verif Require Import Base MFactor MSolve MMatrix MApi MStore PStore.
Set Implicit Arguments.
Open Scope Z_scope.
Set Bullet Behavior "Strict Subproofs".

Definition agrees {T} (S : T -> store) (F : res T) (o : res unit * store) : Prop :=
  match F with Ok t => o = (Ok tt, S t) | Err e => exists t, o = (Err e, S t) | _ => True end.

Lemma sb_ok A B (m : sm A) (k : A -> sm B) s s' a : m s = (Ok a, s') -> sbind m k s = k a s'.
Proof. intros E. unfold sbind. rewrite E. reflexivity. Qed.
Lemma sb_err A B (m : sm A) (k : A -> sm B) s s' e : m s = (Err e, s') -> sbind m k s = (Err e, s').
Proof. intros E. unfold sbind. rewrite E. reflexivity. Qed.
Lemma rdok A (f : sm A) s s' r a : f s = (r, s') -> r = Ok a -> f s = (Ok a, s'). Proof. intros; congruence. Qed.
Lemma sb_lift A B (a : A) (k : A -> sm B) s : sbind (lift (Ok a)) k s = k a s.
Proof. reflexivity. Qed.

Lemma ag_seq T (S : T -> store) (F : res T) (K : T -> res T) (P Q : sm unit) s :
  agrees S F (P s) -> (forall t, F = Ok t -> agrees S (K t) (Q (S t))) -> agrees S (bind F K) ((P ## Q) s).
Proof.
  destruct F as [t|e| |]; simpl; auto.
  - intros H HK. rewrite (sb_ok _ _ _ H). auto.
  - intros (t & E) _. exists t. rewrite (sb_err _ _ _ E). reflexivity.
Qed.
Lemma ag_loop T (S : T -> store) (I : Z -> T -> Prop) F P c : forall lo t, I lo t ->
  (forall i t, lo <= i < lo + Z.of_nat c -> I i t -> agrees S (F i t) (P i (S t)) /\ forall t', F i t = Ok t' -> I (i + 1) t') ->
  agrees S (floop c lo F t) (sloop c lo P (S t)).
Proof.
  induction c as [|c IH]; intros lo t Ht H; simpl. reflexivity.
  destruct (H lo t ltac:(lia) Ht) as [H1 H2]. apply ag_seq; auto.
  intros t' E. apply IH; auto. intros i t'' Hi. apply H. lia.
Qed.
Lemma ag_for T (S : T -> store) F P lo hi t :
  (forall i t, lo <= i < hi -> agrees S (F i t) (P i (S t))) -> agrees S (for_ lo hi F t) (sfor lo hi P (S t)).
Proof.
  intros H. apply ag_loop with (I := fun _ _ => True); auto. intros i t' Hi _. split; auto. apply H. lia.
Qed.
Lemma ag_for_inv T (S : T -> store) (I : Z -> T -> Prop) F P lo hi t : I lo t ->
  (forall i t, lo <= i < hi -> I i t -> agrees S (F i t) (P i (S t)) /\ forall t', F i t = Ok t' -> I (i + 1) t') ->
  agrees S (for_ lo hi F t) (sfor lo hi P (S t)).
Proof. intros H0 H. apply ag_loop with (I := I); auto. intros i t' Hi. apply H. lia. Qed.
Lemma ag_down T (S : T -> store) F P lo hi t :
  (forall i t, agrees S (F i t) (P i (S t))) -> agrees S (down_ hi lo F t) (sdown hi lo P (S t)).
Proof.
  intros H. unfold down_, sdown. generalize (hi - 1). induction (Z.to_nat (hi - lo)) as [|c IH] in t |- *; intros z; simpl. reflexivity.
  apply ag_seq; auto.
Qed.

(* cells *)
Lemma get_upd_eq A (l : list A) c v a : get l c = Ok a -> get (upd l (Z.to_nat c) v) c = Ok v.
Proof.
  intros H. destruct (get_ok_inv _ _ H) as [Hr _]. unfold get. destruct (Z.ltb_spec c 0); try lia.
  rewrite nth_error_upd, Nat.eqb_refl. unfold zlen in Hr. destruct (Nat.ltb_spec (Z.to_nat c) (length l)); simpl; auto. lia.
Qed.
Lemma get_upd_ne A (l : list A) c d v : 0 <= c -> c <> d -> get (upd l (Z.to_nat c) v) d = get l d.
Proof.
  intros Hc Hd. unfold get. destruct (Z.ltb_spec d 0); auto. rewrite nth_error_upd. destruct (Nat.eqb_spec (Z.to_nat d) (Z.to_nat c)); simpl; auto. lia.
Qed.
Lemma set_of_get A (l : list A) c v a : get l c = Ok a -> set l c v = Ok (upd l (Z.to_nat c) v).
Proof.
  intros H. destruct (get_ok_inv _ _ H) as [Hr _]. unfold set. destruct (Z.leb_spec 0 c), (Z.ltb_spec c (zlen l)); simpl; auto; lia.
Qed.
Lemma set_ok_inv A (l l' : list A) c v : set l c v = Ok l' -> 0 <= c < zlen l /\ l' = upd l (Z.to_nat c) v.
Proof. unfold set. destruct (Z.leb_spec 0 c), (Z.ltb_spec c (zlen l)); simpl; try discriminate. intros [= <-]. auto. Qed.
Lemma upd_upd A (l : list A) n v w : upd (upd l n v) n w = upd l n w.
Proof. revert n; induction l; intros [|n]; simpl; auto. f_equal; auto. Qed.
Lemma upd_self A (l : list A) n v : nth_error l n = Some v -> upd l n v = l.
Proof. revert n; induction l; intros [|n]; simpl; intros; try congruence. f_equal; auto. Qed.
Lemma get_nn A (l : list A) c a : get l c = Ok a -> 0 <= c.
Proof. intros H. apply get_ok_inv in H. lia. Qed.

Lemma upd_app2 A (a b : list A) k v : upd (a ++ b) (length a + k) v = a ++ upd b k v.
Proof. induction a; simpl; auto. f_equal; auto. Qed.
Lemma nth_app2 A (a b : list A) k : nth_error (a ++ b) (length a + k) = nth_error b k.
Proof. induction a; simpl; auto. Qed.

Lemma with_x_x A v : m_x (with_x A v) = Some v. Proof. reflexivity. Qed.

Lemma get_noerr A (l : list A) k e : get l k <> Err e.
Proof. unfold get. destruct (k <? 0); try discriminate. destruct (nth_error l _); discriminate. Qed.
Lemma set_noerr A (l : list A) k v e : set l k v <> Err e.
Proof. unfold set. destruct (_ && _); discriminate. Qed.
Lemma div_noerr a b e : divexact a b <> Err e.
Proof. unfold divexact. destruct (b =? 0); try discriminate. destruct (_ =? 0); discriminate. Qed.
Lemma hist_noerr rh v h l e : hist_update rh v h l <> Err e.
Proof.
  unfold hist_update. destruct (h <? l); try discriminate. pose proof (get_noerr rh l (e := e)). destruct (get rh l); cbn [bind]; try discriminate; try congruence.
  destruct (h >? -1); try discriminate. pose proof (get_noerr rh h (e := e)). destruct (get rh h); cbn [bind]; try discriminate; try congruence. apply div_noerr.
Qed.
Lemma fin_noerr (b : bool) rh i a e : (if b then let* r := get rh i in divexact a r else Ok a) <> Err e.
Proof.
  destruct b; try discriminate. pose proof (get_noerr rh i (e := e)). destruct (get rh i); cbn [bind]; try discriminate; try congruence. apply div_noerr.
Qed.
Ltac noerr := exfalso; match goal with
  | H : get _ _ = Err _ |- _ => exact (get_noerr _ _ H) | H : set _ _ _ = Err _ |- _ => exact (set_noerr _ _ _ H)
  | H : divexact _ _ = Err _ |- _ => exact (div_noerr _ _ H) | H : hist_update _ _ _ _ = Err _ |- _ => exact (hist_noerr _ _ _ _ H)
  | H : (if _ then _ else _) = Err _ |- _ => exact (fin_noerr _ _ _ _ H) end.
(* case split on a read of the value model *)
Ltac dg r a E := destruct r as [a| | |] eqn:E; cbn [bind]; try exact I; [|noerr].

Section S.
Variable s0 : store.
Let n0 := length s0.
(* argument objects *)
Definition isM (h : nat) (A : matrix) : Prop := nth_error s0 h = Some (Some (OM A)).
Lemma isM_app h A l : isM h A -> nth_error (s0 ++ l) h = Some (Some (OM A)).
Proof. unfold isM. intros H. rewrite nth_error_app1; auto. apply nth_error_Some. congruence. Qed.
Lemma ldM_old h A l : isM h A -> ldM h (s0 ++ l) = (Ok A, s0 ++ l).
Proof. intros H. unfold ldM. rewrite (isM_app l H). reflexivity. Qed.
Lemma ldM_new k l A : nth_error l k = Some (Some (OM A)) -> ldM (n0 + k) (s0 ++ l) = (Ok A, s0 ++ l).
Proof. intros H. unfold ldM, n0. rewrite nth_app2, H. reflexivity. Qed.
Lemma ldA_old h a l : nth_error s0 h = Some (Some (OA a)) -> ldA h (s0 ++ l) = (Ok a, s0 ++ l).
Proof. intros H. unfold ldA. rewrite nth_error_app1, H; auto. apply nth_error_Some. congruence. Qed.
Lemma ldS_old h a l : nth_error s0 h = Some (Some (OS a)) -> ldS h (s0 ++ l) = (Ok a, s0 ++ l).
Proof. intros H. unfold ldS. rewrite nth_error_app1, H; auto. apply nth_error_Some. congruence. Qed.

(* reading through a handle known to hold A *)
Lemma ldz_run h k s A x : ldM h s = (Ok A, s) -> m_x A = Some (VZ x) -> ldz h k s = (get x k, s).
Proof. intros E Hx. unfold ldz. rewrite (sb_ok _ _ _ E). unfold lift, xmpz. rewrite Hx. reflexivity. Qed.
Lemma ldq_run h k s A x : ldM h s = (Ok A, s) -> m_x A = Some (VQ x) -> ldq h k s = (get x k, s).
Proof. intros E Hx. unfold ldq. rewrite (sb_ok _ _ _ E). unfold lift, xmpq. rewrite Hx. reflexivity. Qed.
Lemma ldint_run h k s A x : ldM h s = (Ok A, s) -> m_x A = Some (VI x) -> ldint h k s = (get x k, s).
Proof. intros E Hx. unfold ldint. rewrite (sb_ok _ _ _ E). unfold lift, xint. rewrite Hx. reflexivity. Qed.
Lemma ldp_run h k s A p : ldM h s = (Ok A, s) -> m_p A = Some p -> ldp h k s = (get p k, s).
Proof. intros E Hx. unfold ldp. rewrite (sb_ok _ _ _ E). unfold lift. rewrite Hx. reflexivity. Qed.
Lemma ldi_run h k s A p : ldM h s = (Ok A, s) -> m_i A = Some p -> ldi h k s = (get p k, s).
Proof. intros E Hx. unfold ldi. rewrite (sb_ok _ _ _ E). unfold lift. rewrite Hx. reflexivity. Qed.
Lemma at2_run h i j s A : ldM h s = (Ok A, s) -> at2 h i j s = (Ok (ix (m_m A) i j), s).
Proof. intros E. unfold at2. rewrite (sb_ok _ _ _ E). reflexivity. Qed.
(* writing to the temporary number k *)
Lemma stz_run k l A x c v x' : nth_error l k = Some (Some (OM A)) -> m_x A = Some (VZ x) -> set x c v = Ok x' ->
  stz (n0 + k) c v (s0 ++ l) = (Ok tt, s0 ++ upd l k (Some (OM (with_x A (VZ x'))))).
Proof.
  intros E Hx Hs. unfold stz. rewrite (sb_ok _ _ _ (ldM_new _ _ E)). unfold xmpz. rewrite Hx. cbn [bind]. rewrite Hs.
  cbn [sbind lift]. unfold sbind, lift, put, n0. rewrite upd_app2. reflexivity.
Qed.
Lemma stq_run k l A x c v x' : nth_error l k = Some (Some (OM A)) -> m_x A = Some (VQ x) -> set x c v = Ok x' ->
  stq (n0 + k) c v (s0 ++ l) = (Ok tt, s0 ++ upd l k (Some (OM (with_x A (VQ x'))))).
Proof.
  intros E Hx Hs. unfold stq. rewrite (sb_ok _ _ _ (ldM_new _ _ E)). unfold xmpq. rewrite Hx. cbn [bind]. rewrite Hs.
  unfold sbind, lift, put, n0. rewrite upd_app2. reflexivity.
Qed.
Lemma stint_run k l A x c v x' : nth_error l k = Some (Some (OM A)) -> m_x A = Some (VI x) -> set x c v = Ok x' ->
  stint (n0 + k) c v (s0 ++ l) = (Ok tt, s0 ++ upd l k (Some (OM (with_x A (VI x'))))).
Proof.
  intros E Hx Hs. unfold stint. rewrite (sb_ok _ _ _ (ldM_new _ _ E)). unfold xint. rewrite Hx. cbn [bind]. rewrite Hs.
  unfold sbind, lift, put, n0. rewrite upd_app2. reflexivity.
Qed.
Lemma alloc_run k t m n z l A : matrix_allocate k t m n z false = Ok A ->
  s_allocate k t m n z (s0 ++ l) = (Ok (n0 + length l)%nat, s0 ++ l ++ [Some (OM A)]).
Proof. intros E. unfold s_allocate. rewrite E, app_length, <- app_assoc. reflexivity. Qed.
Lemma free_run k l A : nth_error l k = Some (Some (OM A)) -> s_free (Some (n0 + k)%nat) (s0 ++ l) = (Ok tt, s0 ++ upd l k None).
Proof. intros E. unfold s_free, n0. rewrite nth_app2, E, upd_app2. reflexivity. Qed.
Lemma require_ok h k t s A : ldM h s = (Ok A, s) -> m_kind A = k -> m_type A = t -> require h k t s = (Ok tt, s).
Proof. intros E <- <-. unfold require. rewrite (sb_ok _ _ _ E). unfold has_kt. rewrite !Z.eqb_refl. reflexivity. Qed.

(* a dense temporary *)
Definition dzM (m n : Z) (x : list Z) : matrix := mkM m n (Z.max (m * n) 1) 0 KDENSE TMPZ None None None (Some (VZ x)) 1%Q.
Definition diM (m n : Z) (x : list Z) : matrix := mkM m n (Z.max (m * n) 1) 0 KDENSE TINT None None None (Some (VI x)) 1%Q.
Definition dqM (m n : Z) (x : list Q) : matrix := mkM m n (Z.max (m * n) 1) 0 KDENSE TMPQ None None None (Some (VQ x)) 1%Q.
Definition dzm m n x : option obj := Some (OM (dzM m n x)).
Definition dim m n x : option obj := Some (OM (diM m n x)).
Definition dqm m n x : option obj := Some (OM (dqM m n x)).

(* forward substitution: temporaries b2 and h *)
Section Fwd.
Variables (L rhos : nat) (ML MR : matrix) (Lp Li Lx rh : list Z) (m n : Z).
Hypothesis HL : isM L ML.  Hypothesis HLp : m_p ML = Some Lp.  Hypothesis HLi : m_i ML = Some Li.  Hypothesis HLx : m_x ML = Some (VZ Lx).
Hypothesis HR : isM rhos MR.  Hypothesis HRx : m_x MR = Some (VZ rh).
Hypothesis HLk : m_kind ML = KCSC.  Hypothesis HLt : m_type ML = TMPZ.
Hypothesis HRk : m_kind MR = KDENSE.  Hypothesis HRt : m_type MR = TMPZ.

Let St (t : list Z * list Z) : store := s0 ++ [dzm m n (fst t); dim m n (snd t)].
Let X := (n0 + 0)%nat.
Let H := (n0 + 1)%nat.

Lemma f_ldL k t : ldz L k (St t) = (get Lx k, St t).
Proof. apply (@ldz_run L k _ ML); auto. apply ldM_old; auto. Qed.
Lemma f_ldLi k t : ldi L k (St t) = (get Li k, St t).
Proof. apply (@ldi_run L k _ ML); auto. apply ldM_old; auto. Qed.
Lemma f_ldLp k t : ldp L k (St t) = (get Lp k, St t).
Proof. apply (@ldp_run L k _ ML); auto. apply ldM_old; auto. Qed.
Lemma f_ldr k t : ldz rhos k (St t) = (get rh k, St t).
Proof. apply (@ldz_run rhos k _ MR); auto. apply ldM_old; auto. Qed.
Lemma f_ldx k t : ldz X k (St t) = (get (fst t) k, St t).
Proof. eapply ldz_run. apply ldM_new. reflexivity. reflexivity. Qed.
Lemma f_ldh k t : ldint H k (St t) = (get (snd t) k, St t).
Proof. eapply ldint_run. apply ldM_new. reflexivity. reflexivity. Qed.
Lemma f_atx i j t : at2 X i j (St t) = (Ok (ix m i j), St t).
Proof. apply (@at2_run X i j _ (dzM m n (fst t))). apply ldM_new. reflexivity. Qed.
Lemma f_ath i j t : at2 H i j (St t) = (Ok (ix m i j), St t).
Proof. apply (@at2_run H i j _ (diM m n (snd t))). apply ldM_new. reflexivity. Qed.
Lemma f_stx k v x h x' : set x k v = Ok x' -> stz X k v (St (x, h)) = (Ok tt, St (x', h)).
Proof. intros E. unfold St, X. cbn [fst snd]. rewrite (@stz_run 0 [dzm m n x; dim m n h] (dzM m n x) x k v x' eq_refl eq_refl E). reflexivity. Qed.
Lemma f_sth k v x h h' : set h k v = Ok h' -> stint H k v (St (x, h)) = (Ok tt, St (x, h')).
Proof. intros E. unfold St, H. cbn [fst snd]. rewrite (@stint_run 1 [dzm m n x; dim m n h] (diM m n h) h k v h' eq_refl eq_refl E). reflexivity. Qed.
Lemma f_mul k b x h a : get x k = Ok a -> z_mul X k b (St (x, h)) = (Ok tt, St (upd x (Z.to_nat k) (a * b), h)).
Proof.
  intros E. unfold z_mul. rewrite (sb_ok _ _ _ (eq_trans (f_ldx k (x, h)) (f_equal (fun r => (r, St (x, h))) E))).
  apply f_stx. eapply set_of_get; eauto.
Qed.
Lemma f_sub k b c x h a : get x k = Ok a -> z_submul X k b c (St (x, h)) = (Ok tt, St (upd x (Z.to_nat k) (a - b * c), h)).
Proof.
  intros E. unfold z_submul. rewrite (sb_ok _ _ _ (eq_trans (f_ldx k (x, h)) (f_equal (fun r => (r, St (x, h))) E))).
  apply f_stx. eapply set_of_get; eauto.
Qed.
Lemma f_div k b x h a q : get x k = Ok a -> divexact a b = Ok q -> z_divexact X k b (St (x, h)) = (Ok tt, St (upd x (Z.to_nat k) q, h)).
Proof.
  intros E D. unfold z_divexact. rewrite (sb_ok _ _ _ (eq_trans (f_ldx k (x, h)) (f_equal (fun r => (r, St (x, h))) E))).
  rewrite D, sb_lift. apply f_stx. eapply set_of_get; eauto.
Qed.

Lemma hist_run k hx i x h v v' : get x k = Ok v -> hist_update rh v hx (i - 1) = Ok v' ->
  s_hist X rhos k hx i (St (x, h)) = (Ok tt, St (upd x (Z.to_nat k) v', h)).
Proof.
  intros E. unfold hist_update, s_hist. destruct (Z.ltb_spec hx (i - 1)).
  - destruct (get rh (i - 1)) as [r| | |] eqn:Er; cbn [bind]; try discriminate.
    intros Hv. rewrite (sb_ok _ _ _ (rdok _ _ (f_ldr (i - 1) (x, h)) Er)).
    rewrite (sb_ok _ _ _ (f_mul k r x h E)).
    destruct (hx >? -1) eqn:Hh.
    + destruct (get rh hx) as [r'| | |] eqn:Er'; cbn [bind] in Hv; try discriminate.
      rewrite (sb_ok _ _ _ (rdok _ _ (f_ldr hx _) Er')).
      rewrite (f_div k r' _ h (get_upd_eq x k _ E) Hv), upd_upd. reflexivity.
    + injection Hv as <-. reflexivity.
  - intros [= <-]. unfold sret. rewrite upd_self; auto. destruct (get_ok_inv _ _ E) as [_ N]. exact N.
Qed.

Lemma ix_inj i j k : i <> j -> ix m i k <> ix m j k. Proof. unfold ix. lia. Qed.

(* the common end of the two branches: x[c] -= lji * xi, then exact division *)
Lemma fin_run c ci lji i x h a xi v : get x c = Ok a -> get x ci = Ok xi -> c <> ci ->
  (if i >? 0 then let* r := get rh (i - 1) in divexact (a - lji * xi) r else Ok (a - lji * xi)) = Ok v ->
  (let# xi := ldz X ci in z_submul X c lji xi ##
     (if i >? 0 then let# r := ldz rhos (i - 1) in z_divexact X c r else sret tt)) (St (x, h)) = (Ok tt, St (upd x (Z.to_nat c) v, h)).
Proof.
  intros Ec Ei Hne Hv. rewrite (sb_ok _ _ _ (rdok _ _ (f_ldx ci (x, h)) Ei)).
  rewrite (sb_ok _ _ _ (f_sub c lji xi x h Ec)).
  destruct (i >? 0).
  - destruct (get rh (i - 1)) as [r| | |] eqn:Er; cbn [bind] in Hv; try discriminate.
    rewrite (sb_ok _ _ _ (rdok _ _ (f_ldr (i - 1) _) Er)).
    rewrite (f_div c r _ h (get_upd_eq x c _ Ec) Hv), upd_upd. reflexivity.
  - injection Hv as <-. reflexivity.
Qed.

Lemma inner_run k i j t : agrees St (fwd_inner m k i Li Lx rh j t) (s_fwd_inner L X H rhos k i j (St t)).
Proof.
  destruct t as [x h]. unfold fwd_inner, s_fwd_inner.
  dg (get Li j) jnew E1. rewrite (sb_ok _ _ _ (rdok _ _ (f_ldLi j (x, h)) E1)).
  dg (get Lx j) lji E2. rewrite (sb_ok _ _ _ (rdok _ _ (f_ldL j (x, h)) E2)).
  destruct (lji =? 0). reflexivity.
  destruct (jnew >? i) eqn:Hji; [|reflexivity]. apply Z.gtb_lt in Hji.
  rewrite (sb_ok _ _ _ (f_atx jnew k (x, h))), (sb_ok _ _ _ (f_atx i k (x, h))).
  dg (get x (ix m jnew k)) xj E3. rewrite (sb_ok _ _ _ (rdok _ _ (f_ldx (ix m jnew k) (x, h)) E3)).
  dg (get x (ix m i k)) xi E4.
  assert (Hne : ix m jnew k <> ix m i k) by (apply ix_inj; lia).
  assert (Hend : forall x', agrees St (let* h' := set h (ix m jnew k) i in Ok (x', h')) ((let# d := at2 H jnew k in stint H d i) (St (x', h)))).
  { intros x'. dg (set h (ix m jnew k) i) h' Eh. cbn [agrees]. rewrite (sb_ok _ _ _ (f_ath jnew k (x', h))). apply f_sth; auto. }
  destruct (xj =? 0).
  - dg (if i >? 0 then let* r := get rh (i - 1) in divexact (xj - lji * xi) r else Ok (xj - lji * xi)) v Ev.
    rewrite (sb_ok _ _ _ (@fin_run _ _ lji i x h _ _ v E3 E4 Hne Ev)). rewrite (set_of_get _ _ _ E3). cbn [bind]. apply Hend.
  - dg (get h (ix m jnew k)) hx E5. dg (hist_update rh xj hx (i - 1)) v1 E6. dg (get rh i) ri E7.
    dg (if i >? 0 then let* r := get rh (i - 1) in divexact (v1 * ri - lji * xi) r else Ok (v1 * ri - lji * xi)) v Ev.
    match goal with |- agrees _ _ (sbind ?p ?q ?s) => assert (Hp : p s = (Ok tt, St (upd x (Z.to_nat (ix m jnew k)) v, h))) end.
    { rewrite (sb_ok _ _ _ (f_ath jnew k (x, h))). rewrite (sb_ok _ _ _ (rdok _ _ (f_ldh (ix m jnew k) (x, h)) E5)).
      rewrite (sb_ok _ _ _ (@hist_run _ _ i x h _ _ E3 E6)). rewrite (sb_ok _ _ _ (rdok _ _ (f_ldr i _) E7)).
      rewrite (sb_ok _ _ _ (@f_mul _ ri _ h _ (get_upd_eq x _ v1 E3))). rewrite upd_upd.
      etransitivity. { eapply fin_run. eapply get_upd_eq; eauto. rewrite get_upd_ne; eauto. eapply get_nn; eauto. exact Hne. exact Ev. }
      rewrite upd_upd. reflexivity. }
    rewrite (sb_ok _ _ _ Hp). rewrite (set_of_get _ _ _ E3). cbn [bind]. apply Hend.
Qed.

Lemma row_run k i t : agrees St (fwd_row m k Lp Li Lx rh i t) (s_fwd_row L X H rhos k i (St t)).
Proof.
  destruct t as [x h]. unfold fwd_row, s_fwd_row.
  dg (get h (ix m i k)) hx E1. rewrite (sb_ok _ _ _ (f_ath i k (x, h))), (sb_ok _ _ _ (rdok _ _ (f_ldh (ix m i k) (x, h)) E1)).
  dg (get x (ix m i k)) xi E2. rewrite (sb_ok _ _ _ (f_atx i k (x, h))), (sb_ok _ _ _ (rdok _ _ (f_ldx (ix m i k) (x, h)) E2)).
  destruct (xi =? 0). reflexivity.
  dg (hist_update rh xi hx (i - 1)) v E3. rewrite (sb_ok _ _ _ (@hist_run _ _ i x h _ _ E2 E3)).
  rewrite (set_of_get _ _ _ E2). cbn [bind].
  dg (get Lp i) lo E4. rewrite (sb_ok _ _ _ (rdok _ _ (f_ldLp i _) E4)).
  dg (get Lp (i + 1)) hi E5. rewrite (sb_ok _ _ _ (rdok _ _ (f_ldLp (i + 1) _) E5)).
  apply ag_for. intros j t Hj. apply inner_run.
Qed.
Lemma rows_run t :
  agrees St (for_ 0 n (fun k st => for_ 0 m (fun i st => fwd_row m k Lp Li Lx rh i st) st) t)
            (sfor 0 n (fun k => sfor 0 m (fun i => s_fwd_row L X H rhos k i)) (St t)).
Proof. apply ag_for. intros k t' Hk. apply ag_for. intros i t'' Hi. apply row_run. Qed.

Lemma fill_run x h c : forall i, agrees (fun h => St (x, h)) (floop c i (fun i h => set h i (-1)) h) (sloop c i (fun i => stint H i (-1)) (St (x, h))).
Proof.
  intros i. apply (@ag_loop _ (fun h => St (x, h)) (fun _ _ => True)); auto.
  intros j h' _ _. split; auto. dg (set h' j (-1)) h'' E. apply f_sth; auto.
Qed.
Hypothesis Hm : 0 <= m.  Hypothesis Hn : 0 <= n.
Lemma fill_val N : 0 <= N -> for_ 0 N (fun i h => set h i (-1)) (mk N 0) = Ok (mk N (-1)).
Proof.
  intros HN. destruct (wp_ok_ex (for_ 0 N (fun i h => set h i (-1)) (mk N 0)) (fun h => zlen h = N /\ forall j, 0 <= j < N -> rd h j = -1)) as (h & E & Hl & Hv).
  - eapply wp_conseq. apply (@wp_for _ 0 N _ (fun i h => zlen h = N /\ forall j, 0 <= j < i -> rd h j = -1)); auto.
    + split. apply zlen_mk; auto. intros; lia.
    + intros i h Hi (Hl & Hv). apply wp_set. lia. split. rewrite zlen_wr; auto. intros j Hj. rewrite rd_wr by lia. destruct (Z.eqb_spec j i); auto. apply Hv. lia.
    + intros h [? ?]. auto.
  - rewrite E. f_equal. apply list_ext. rewrite Hl, zlen_mk; auto. intros i Hi. rewrite rd_mk by lia. apply Hv. lia.
Qed.

Lemma fsub_run x :
  agrees (fun x => s0 ++ [dzm m n x; None]) (slip_forward_sub m n Lp Li Lx rh x) (s_forward_sub L X rhos (s0 ++ [dzm m n x])).
Proof.
  unfold s_forward_sub.
  rewrite (sb_ok _ _ _ (require_ok (@ldM_old L ML [dzm m n x] HL) HLk HLt)).
  rewrite (sb_ok _ _ _ (@require_ok X KDENSE TMPZ _ (dzM m n x) (@ldM_new 0 [dzm m n x] (dzM m n x) eq_refl) eq_refl eq_refl)).
  rewrite (sb_ok _ _ _ (require_ok (@ldM_old rhos MR [dzm m n x] HR) HRk HRt)).
  rewrite (sb_ok _ _ _ (@ldM_new 0 [dzm m n x] (dzM m n x) eq_refl)).
  assert (HA : matrix_allocate KDENSE TINT m n (Z.max (m * n) 1) false = Ok (diM m n (mk (Z.max (m * n) 1) 0))).
  { unfold matrix_allocate. rewrite (proj2 (Z.ltb_ge m 0)), (proj2 (Z.ltb_ge n 0)) by lia. reflexivity. }
  rewrite (sb_ok _ _ _ (@alloc_run _ _ _ _ _ [dzm m n x] _ HA)).
  cbn [length app dzM m_m m_n m_nzmax].
  unfold slip_forward_sub.
  match goal with |- agrees _ _ (always ?P ?C ?s) => assert (HP : agrees St (for_ 0 n (fun k st => for_ 0 m (fun i st => fwd_row m k Lp Li Lx rh i st) st) (x, mk (Z.max (m * n) 1) (-1))) (P s)) end.
  { match goal with |- agrees _ _ (sbind ?P _ ?s) => assert (HF : P s = (Ok tt, St (x, mk (Z.max (m * n) 1) (-1)))) end.
    { pose proof (@fill_run x (mk (Z.max (m * n) 1) 0) (Z.to_nat (Z.max (m * n) 1 - 0)) 0) as F. unfold for_ in *.
      pose proof (@fill_val (Z.max (m * n) 1) ltac:(lia)) as G. unfold for_ in G. rewrite G in F. exact F. }
    rewrite (sb_ok _ _ _ HF). apply rows_run. }
  unfold always. destruct (for_ 0 n _ _) as [t|e| |]; cbn [bind agrees] in *; try exact I.
  - rewrite HP. unfold St. change (n0 + 1)%nat with (n0 + 1)%nat. rewrite (@free_run 1 [dzm m n (fst t); dim m n (snd t)] (diM m n (snd t)) eq_refl). reflexivity.
  - destruct HP as (t & HP). exists (fst t). rewrite HP. unfold St. rewrite (@free_run 1 [dzm m n (fst t); dim m n (snd t)] (diM m n (snd t)) eq_refl). reflexivity.
Qed.
End Fwd.

(* a function that returns a new object; it never fails *)
Definition returns {T} (S : T -> store) (h : nat) (F : res T) (o : res nat * store) : Prop :=
  match F with Ok t => o = (Ok h, S t) | Err e => False | _ => True end.
Lemma floop_noerr T e c : forall lo (F : Z -> T -> res T) x, (forall i x, F i x <> Err e) -> floop c lo F x <> Err e.
Proof. induction c; intros lo F y HFe; simpl. discriminate. specialize (HFe lo y) as HF1. destruct (F lo y); cbn [bind]; auto; discriminate. Qed.
Lemma ret_checked T (S : T -> store) h F (P c : sm unit) s : agrees S F (P s) -> (forall e, F <> Err e) -> returns S h F ((checked P c ## sret h) s).
Proof. unfold checked, sbind. destruct F as [t|e| |]; simpl; auto. intros ->; auto. intros _ H. exact (H e eq_refl). Qed.
Ltac noe := repeat match goal with |- bind ?m _ <> Err ?e => 
   let H := fresh in assert (H : m <> Err e) by (apply get_noerr); destruct m; cbn [bind]; try discriminate; try congruence end.

(* slip_permute_b *)
Lemma permb_run b pinv MB bx pv : isM b MB -> m_kind MB = KDENSE -> m_type MB = TMPZ -> m_x MB = Some (VZ bx) -> 0 <= m_m MB -> 0 <= m_n MB ->
  nth_error s0 pinv = Some (Some (OA pv)) ->
  returns (fun x => s0 ++ [dzm (m_m MB) (m_n MB) x]) (n0 + 0) (slip_permute_b (m_m MB) (m_n MB) bx pv) (s_permute_b b pinv (s0 ++ [])).
Proof.
  intros HB Hk Ht Hx Hm Hn HP. unfold s_permute_b, slip_permute_b.
  rewrite (sb_ok _ _ _ (require_ok (@ldM_old b MB [] HB) Hk Ht)). rewrite (sb_ok _ _ _ (@ldM_old b MB [] HB)).
  set (m := m_m MB) in *. set (n := m_n MB) in *.
  assert (HA : matrix_allocate KDENSE TMPZ m n 0 false = Ok (dzM m n (mk (Z.max (m * n) 1) 0))).
  { unfold matrix_allocate. rewrite (proj2 (Z.ltb_ge m 0)), (proj2 (Z.ltb_ge n 0)) by lia. reflexivity. }
  rewrite (sb_ok _ _ _ (@alloc_run _ _ _ _ _ [] _ HA)). cbn [app length].
  match goal with |- returns _ _ (for_ _ _ ?F ?x0) (sbind (checked ?P _) _ _) => assert (HF : forall x, agrees (fun x => s0 ++ [dzm m n x]) (for_ 0 m F x) (P (s0 ++ [dzm m n x]))) end.
  { intros x. apply ag_for. intros i x1 Hi. apply ag_for. intros j x2 Hj.
    rewrite (sb_ok _ _ _ (@ldA_old pinv pv _ HP)). dg (get bx (ix m i j)) v E1. dg (get pv i) pi E2.
    rewrite sb_lift. rewrite (sb_ok _ _ _ (at2_run i j (@ldM_old b MB _ HB))). fold m.
    rewrite (sb_ok _ _ _ (rdok _ _ (ldz_run (ix m i j) (@ldM_old b MB _ HB) Hx) E1)).
    rewrite (sb_ok _ _ _ (@at2_run (n0 + 0) pi j _ (dzM m n x2) (@ldM_new 0 [dzm m n x2] _ eq_refl))). cbn [dzM m_m].
    dg (set x2 (ix m pi j) v) x3 E3. cbn [agrees]. exact (@stz_run 0 [dzm m n x2] (dzM m n x2) x2 _ v x3 eq_refl eq_refl E3). }
  apply ret_checked.
  - apply HF.
  - intros e. apply floop_noerr. intros i y. apply floop_noerr. intros j z. noe. apply set_noerr.
Qed.

(* slip_matrix_mul and slip_back_sub: store s0, b2, None *)
Section Mid.
Variables (m n : Z).
Let Sz (x : list Z) : store := s0 ++ [dzm m n x; None].
Let X := (n0 + 0)%nat.
Lemma z_ldM x : ldM X (Sz x) = (Ok (dzM m n x), Sz x).
Proof. apply ldM_new. reflexivity. Qed.
Lemma z_ld k x : ldz X k (Sz x) = (get x k, Sz x).
Proof. apply (@ldz_run X k _ (dzM m n x)); auto. apply z_ldM. Qed.
Lemma z_at i j x : at2 X i j (Sz x) = (Ok (ix m i j), Sz x).
Proof. apply (@at2_run X i j _ (dzM m n x)). apply z_ldM. Qed.
Lemma z_st k v x x' : set x k v = Ok x' -> stz X k v (Sz x) = (Ok tt, Sz x').
Proof. intros E. unfold Sz, X. rewrite (@stz_run 0 [dzm m n x; None] (dzM m n x) x k v x' eq_refl eq_refl E). reflexivity. Qed.
Lemma z_nnz x : 0 <= m -> 0 <= n -> matrix_nnz true (Some (dzM m n x)) = Ok (m * n).
Proof. intros. unfold matrix_nnz. cbn [negb dzM m_kind m_m m_n]. simpl (KDENSE =? KCSC). cbn iota. simpl. rewrite (proj2 (Z.ltb_ge m 0)), (proj2 (Z.ltb_ge n 0)) by lia. reflexivity. Qed.

Lemma mmul_run rhos MR rh k det x : isM rhos MR -> m_x MR = Some (VZ rh) -> get rh k = Ok det -> 0 <= m -> 0 <= n ->
  agrees Sz (slip_matrix_mul (m * n) x det) (s_matrix_mul X rhos k (Sz x)).
Proof.
  intros HR Hx Hk Hm Hn. assert (HRM : forall y, ldM rhos (Sz y) = (Ok MR, Sz y)) by (intros; apply ldM_old; auto). unfold s_matrix_mul, slip_matrix_mul. rewrite (sb_ok _ _ _ (z_ldM x)). change (negb (m_type (dzM m n x) =? TMPZ)) with false. cbn iota.
  rewrite z_nnz by auto. rewrite sb_lift. apply ag_for. intros i y Hi.
  rewrite (sb_ok _ _ _ (rdok _ _ (ldz_run k (HRM _) Hx) Hk)).
  dg (get y i) v E. unfold z_mul. fold (Sz y). rewrite (sb_ok _ _ _ (rdok _ _ (z_ld i y) E)).
  rewrite (set_of_get _ _ _ E). cbn [agrees]. apply z_st. eapply set_of_get; eauto.
Qed.

Lemma bsub_run U MU Up Ui Ux x : isM U MU -> m_kind MU = KCSC -> m_type MU = TMPZ -> m_n MU = m ->
  m_p MU = Some Up -> m_i MU = Some Ui -> m_x MU = Some (VZ Ux) ->
  agrees Sz (slip_back_sub m n Up Ui Ux x) (s_back_sub U X (Sz x)).
Proof.
  intros HU Hk Ht Hn HUp HUi HUx. unfold s_back_sub, slip_back_sub.
  assert (HM : forall y, ldM U (Sz y) = (Ok MU, Sz y)) by (intros; apply ldM_old; auto).
  rewrite (sb_ok _ _ _ (require_ok (HM x) Hk Ht)).
  rewrite (sb_ok _ _ _ (@require_ok X KDENSE TMPZ _ (dzM m n x) (z_ldM x) eq_refl eq_refl)).
  rewrite (sb_ok _ _ _ (z_ldM x)), (sb_ok _ _ _ (HM x)). cbn [dzM m_n]. rewrite Hn.
  apply ag_for. intros k y Hk'. apply ag_down. intros j z. unfold back_row.
  rewrite (sb_ok _ _ _ (z_at j k z)).
  dg (get z (ix m j k)) xj E1. rewrite (sb_ok _ _ _ (rdok _ _ (z_ld _ z) E1)).
  destruct (xj =? 0). reflexivity.
  dg (get Up (j + 1)) hi E2. rewrite (sb_ok _ _ _ (rdok _ _ (ldp_run (j + 1) (HM z) HUp) E2)).
  dg (get Ux (hi - 1)) d E3. rewrite (sb_ok _ _ _ (rdok _ _ (ldz_run (hi - 1) (HM z) HUx) E3)).
  dg (divexact xj d) v E4.
  assert (HD : z_divexact X (ix m j k) d (Sz z) = (Ok tt, Sz (upd z (Z.to_nat (ix m j k)) v))).
  { unfold z_divexact. rewrite (sb_ok _ _ _ (rdok _ _ (z_ld _ z) E1)), E4, sb_lift. apply z_st. eapply set_of_get; eauto. }
  rewrite (sb_ok _ _ _ HD). rewrite (set_of_get _ _ _ E1). cbn [bind].
  dg (get Up j) lo E5. rewrite (sb_ok _ _ _ (rdok _ _ (ldp_run j (HM _) HUp) E5)).
  apply ag_for. intros i w Hi.
  dg (get Ux i) u E6. rewrite (sb_ok _ _ _ (rdok _ _ (ldz_run i (HM w) HUx) E6)).
  destruct (u =? 0). reflexivity.
  dg (get Ui i) r E7. rewrite (sb_ok _ _ _ (rdok _ _ (ldi_run i (HM w) HUi) E7)), (sb_ok _ _ _ (z_at r k w)).
  dg (get w (ix m r k)) wrr E8. dg (get w (ix m j k)) wj E9.
  rewrite (sb_ok _ _ _ (rdok _ _ (z_ld _ w) E9)). unfold z_submul. rewrite (sb_ok _ _ _ (rdok _ _ (z_ld _ w) E8)).
  rewrite (set_of_get _ _ _ E8). cbn [agrees]. apply z_st. eapply set_of_get; eauto.
Qed.

(* slip_matrix_div *)
Lemma mdiv_run rhos MR rh k det x : isM rhos MR -> m_x MR = Some (VZ rh) -> get rh k = Ok det -> 0 <= m -> 0 <= n ->
  returns (fun y => s0 ++ [dzm m n x; None; dqm m n y]) (n0 + 2) (slip_matrix_div (m * n) x det) (s_matrix_div X rhos k (Sz x)).
Proof.
  intros HR Hx Hk Hm Hn. assert (HRM : forall y, ldM rhos (Sz y) = (Ok MR, Sz y)) by (intros; apply ldM_old; auto). unfold s_matrix_div, slip_matrix_div.
  rewrite (sb_ok _ _ _ (@require_ok X KDENSE TMPZ _ (dzM m n x) (z_ldM x) eq_refl eq_refl)).
  rewrite (sb_ok _ _ _ (rdok _ _ (ldz_run k (HRM _) Hx) Hk)). fold (Sz x). rewrite (sb_ok _ _ _ (z_ldM x)). cbn [dzM m_m m_n].
  assert (HA : matrix_allocate KDENSE TMPQ m n 0 false = Ok (dqM m n (mk (Z.max (m * n) 1) 0%Q))).
  { unfold matrix_allocate. rewrite (proj2 (Z.ltb_ge m 0)), (proj2 (Z.ltb_ge n 0)) by lia. reflexivity. }
  unfold Sz. rewrite (sb_ok _ _ _ (@alloc_run _ _ _ _ _ [dzm m n x; None] _ HA)). cbn [app length]. fold (dzM m n x). rewrite z_nnz by auto.
  pose (Sq := fun y => s0 ++ [dzm m n x; None; dqm m n y]).
  match goal with |- returns _ _ (for_ _ _ ?F ?x0) (sbind (checked ?P _) _ _) => assert (HF : agrees Sq (for_ 0 (m * n) F x0) (P (Sq x0))) end.
  { rewrite sb_lift.
    apply (@ag_for_inv _ Sq (fun i y => forall j, i <= j -> get y j = UB \/ get y j = Ok 0%Q)).
    - intros j Hj. unfold get. destruct (j <? 0); auto. destruct (nth_error (mk (Z.max (m * n) 1) 0%Q) (Z.to_nat j)) eqn:E; auto.
      right. apply nth_error_In in E. unfold mk in E. apply repeat_spec in E. subst. reflexivity.
    - intros i y Hi Hinv. split.
      + dg (get x i) v E1.
        assert (HX : ldM X (Sq y) = (Ok (dzM m n x), Sq y)) by (apply ldM_new; reflexivity).
        rewrite (sb_ok _ _ _ (rdok _ _ (ldz_run i HX eq_refl) E1)).
        assert (HY : ldM (n0 + 2) (Sq y) = (Ok (dqM m n y), Sq y)) by (apply ldM_new; reflexivity).
        destruct (mpq_div (mpq_z v) (mpq_z det)) as [w| | |] eqn:E2; cbn [bind]; try exact I. 2:{ exfalso. unfold mpq_div in E2. destruct (_ =? 0); discriminate. }
        dg (set y i w) y' E3. cbn [agrees].
        destruct (Hinv i ltac:(lia)) as [Hg|Hg]. { exfalso. destruct (set_ok_inv _ _ _ E3) as [Hr _]. unfold get in Hg. destruct (Z.ltb_spec i 0); try lia.
          destruct (nth_error y (Z.to_nat i)) eqn:En; try discriminate. apply nth_error_None in En. unfold zlen in Hr. lia. }
        assert (H1 : q_set_num (n0 + 2) i v (Sq y) = (Ok tt, Sq (upd y (Z.to_nat i) (mpq_z v)))).
        { unfold q_set_num. rewrite (sb_ok _ _ _ (rdok _ _ (ldq_run i HY eq_refl) Hg)).
          exact (@stq_run 2 [dzm m n x; None; dqm m n y] (dqM m n y) y i _ _ eq_refl eq_refl (set_of_get y i _ Hg)). }
        rewrite (sb_ok _ _ _ H1). unfold q_div.
        assert (HY' : ldM (n0 + 2) (Sq (upd y (Z.to_nat i) (mpq_z v))) = (Ok (dqM m n (upd y (Z.to_nat i) (mpq_z v))), Sq (upd y (Z.to_nat i) (mpq_z v)))) by (apply ldM_new; reflexivity).
        pose proof (get_upd_eq y i (mpq_z v) Hg) as Hg'.
        rewrite (sb_ok _ _ _ (rdok _ _ (ldq_run i HY' eq_refl) Hg')), E2, sb_lift.
        destruct (set_ok_inv _ _ _ E3) as [_ ->]. pose proof (set_of_get _ i w Hg') as Hs. rewrite upd_upd in Hs.
        exact (@stq_run 2 [dzm m n x; None; dqm m n _] (dqM m n _) _ i _ _ eq_refl eq_refl Hs).
      + intros y' E j Hj. destruct (get x i) as [v| | |]; cbn [bind] in E; try discriminate.
        destruct (mpq_div (mpq_z v) (mpq_z det)) as [w| | |]; cbn [bind] in E; try discriminate.
        destruct (set_ok_inv _ _ _ E) as [Hr ->]. rewrite get_upd_ne by lia. apply Hinv. lia. }
  apply ret_checked.
  - exact HF.
  - intros e. apply floop_noerr. intros i y. noe. destruct (mpq_div _ _) as [w| | |] eqn:Ed; cbn [bind]; try discriminate. apply set_noerr.
    exfalso. unfold mpq_div in Ed. destruct (_ =? 0); discriminate.
Qed.
End Mid.

(* slip_permute_x *)
Lemma permx_run b2 m n x2 S An : nth_error s0 S = Some (Some (OS An)) -> 0 <= m -> 0 <= n ->
  returns (fun x => s0 ++ [b2; None; dqm m n x2; dqm m n x]) (n0 + 3) (slip_permute_x m n x2 (s_q An))
          (s_permute_x (n0 + 2) S (s0 ++ [b2; None; dqm m n x2])).
Proof.
  intros HS Hm Hn. unfold s_permute_x, slip_permute_x.
  assert (H2 : forall l, ldM (n0 + 2) (s0 ++ b2 :: None :: dqm m n x2 :: l) = (Ok (dqM m n x2), s0 ++ b2 :: None :: dqm m n x2 :: l)) by (intros; apply ldM_new; reflexivity).
  rewrite (sb_ok _ _ _ (@require_ok (n0 + 2) KDENSE TMPQ _ (dqM m n x2) (H2 []) eq_refl eq_refl)).
  rewrite (sb_ok _ _ _ (H2 [])). cbn [dqM m_m m_n].
  assert (HA : matrix_allocate KDENSE TMPQ m n 0 false = Ok (dqM m n (mk (Z.max (m * n) 1) 0%Q))).
  { unfold matrix_allocate. rewrite (proj2 (Z.ltb_ge m 0)), (proj2 (Z.ltb_ge n 0)) by lia. reflexivity. }
  rewrite (sb_ok _ _ _ (@alloc_run _ _ _ _ _ [b2; None; dqm m n x2] _ HA)). cbn [app length].
  pose (Sq := fun y => s0 ++ [b2; None; dqm m n x2; dqm m n y]).
  match goal with |- returns _ _ (for_ _ _ ?F ?x0) (sbind (checked ?P _) _ _) => assert (HF : agrees Sq (for_ 0 m F x0) (P (Sq x0))) end.
  { apply ag_for. intros i x1 Hi. apply ag_for. intros j x3 Hj.
    unfold Sq. rewrite (sb_ok _ _ _ (@ldS_old S An _ HS)). dg (get x2 (ix m i j)) v E1. dg (get (s_q An) i) pi E2.
    rewrite sb_lift. rewrite (sb_ok _ _ _ (at2_run i j (H2 [dqm m n x3]))). cbn [dqM m_m].
    rewrite (sb_ok _ _ _ (rdok _ _ (ldq_run (ix m i j) (H2 [dqm m n x3]) eq_refl) E1)).
    rewrite (sb_ok _ _ _ (@at2_run (n0 + 3) pi j _ (dqM m n x3) (@ldM_new 3 [b2; None; dqm m n x2; dqm m n x3] _ eq_refl))). cbn [dqM m_m].
    dg (set x3 (ix m pi j) v) x4 E3. cbn [agrees]. exact (@stq_run 3 [b2; None; dqm m n x2; dqm m n x3] (dqM m n x3) x3 _ v x4 eq_refl eq_refl E3). }
  apply ret_checked.
  - exact HF.
  - intros e. apply floop_noerr. intros i y. apply floop_noerr. intros j z. noe. apply set_noerr.
Qed.

(* slip_check_solution: a temporary after x, gone at the end *)
Lemma chk_run b2 m n x A b MA MB Ap Ai Ax bx :
  isM A MA -> m_kind MA = KCSC -> m_type MA = TMPZ -> m_p MA = Some Ap -> m_i MA = Some Ai -> m_x MA = Some (VZ Ax) ->
  isM b MB -> m_kind MB = KDENSE -> m_type MB = TMPZ -> m_m MB = m -> m_n MB = n -> m_x MB = Some (VZ bx) -> 0 <= m -> 0 <= n ->
  agrees (fun _ : unit => s0 ++ [b2; None; None; dqm m n x; None]) (slip_check_solution m n Ap Ai Ax x bx)
         (s_check_solution A (n0 + 3) b (s0 ++ [b2; None; None; dqm m n x])).
Proof.
  intros HA HAk HAt HAp HAi HAx HB HBk HBt HBm HBn HBx Hm Hn. unfold s_check_solution, slip_check_solution.
  assert (LX : forall l, ldM (n0 + 3) (s0 ++ b2 :: None :: None :: dqm m n x :: l) = (Ok (dqM m n x), s0 ++ b2 :: None :: None :: dqm m n x :: l)) by (intros; apply ldM_new; reflexivity).
  rewrite (sb_ok _ _ _ (require_ok (@ldM_old A MA _ HA) HAk HAt)).
  rewrite (sb_ok _ _ _ (@require_ok (n0 + 3) KDENSE TMPQ _ (dqM m n x) (LX []) eq_refl eq_refl)).
  rewrite (sb_ok _ _ _ (require_ok (@ldM_old b MB _ HB) HBk HBt)). rewrite (sb_ok _ _ _ (@ldM_old b MB _ HB)). rewrite HBm, HBn.
  assert (HAl : forall z, matrix_allocate KDENSE TMPQ m n z false = Ok (dqM m n (mk (Z.max (m * n) 1) 0%Q))).
  { intros z. unfold matrix_allocate. rewrite (proj2 (Z.ltb_ge m 0)), (proj2 (Z.ltb_ge n 0)) by lia. reflexivity. }
  rewrite (sb_ok _ _ _ (@alloc_run _ _ _ _ _ [b2; None; None; dqm m n x] _ (HAl _))). cbn [app length].
  set (Sq := fun y => s0 ++ [b2; None; None; dqm m n x; dqm m n y]).
  assert (LA : forall y, ldM A (Sq y) = (Ok MA, Sq y)) by (intros; apply ldM_old; auto).
  assert (LB : forall y, ldM b (Sq y) = (Ok MB, Sq y)) by (intros; apply ldM_old; auto).
  assert (LY : forall y, ldM (n0 + 4) (Sq y) = (Ok (dqM m n y), Sq y)) by (intros; apply ldM_new; reflexivity).
  assert (LX' : forall y, ldM (n0 + 3) (Sq y) = (Ok (dqM m n x), Sq y)) by (intros; apply ldM_new; reflexivity).
  match goal with |- agrees _ (bind (for_ _ _ ?F ?x0) _) (always (sbind ?P _) _ _) => assert (H1 : agrees Sq (for_ 0 n F x0) (P (Sq x0))) end.
  { apply ag_for. intros j y1 Hj. apply ag_for. intros i y2 Hi.
    dg (get Ap i) lo E1. rewrite (sb_ok _ _ _ (rdok _ _ (ldp_run i (LA y2) HAp) E1)).
    dg (get Ap (i + 1)) hi E2. rewrite (sb_ok _ _ _ (rdok _ _ (ldp_run (i + 1) (LA y2) HAp) E2)).
    apply ag_for. intros p y Hp.
    dg (get Ax p) a E3. rewrite (sb_ok _ _ _ (rdok _ _ (ldz_run p (LA y) HAx) E3)).
    rewrite (sb_ok _ _ _ (at2_run i j (LX' y))). cbn [dqM m_m].
    dg (get x (ix m i j)) xi E4. rewrite (sb_ok _ _ _ (rdok _ _ (ldq_run (ix m i j) (LX' y) eq_refl) E4)).
    dg (get Ai p) r E5. rewrite (sb_ok _ _ _ (rdok _ _ (ldi_run p (LA y) HAi) E5)).
    rewrite (sb_ok _ _ _ (at2_run r j (LY y))). cbn [dqM m_m].
    dg (get y (ix m r j)) w E6. unfold q_add. rewrite (sb_ok _ _ _ (rdok _ _ (ldq_run (ix m r j) (LY y) eq_refl) E6)).
    rewrite (set_of_get _ _ _ E6). cbn [agrees].
    exact (@stq_run 4 [b2; None; None; dqm m n x; dqm m n y] (dqM m n y) y _ _ _ eq_refl eq_refl (set_of_get _ _ _ E6)). }
  match goal with |- agrees _ (bind ?F _) (always (sbind ?P _) _ _) => destruct F as [y|e| |] eqn:EF end; cbn [agrees bind] in *; try exact I.
  2:{ exfalso. revert EF. apply floop_noerr. intros j y1. apply floop_noerr. intros i y2. noe. apply floop_noerr. intros p y3. noe. apply set_noerr. }
  assert (H2 : forall t, agrees (fun _ : unit => Sq y)
     (for_ 0 n (fun j _ => for_ 0 m (fun i _ => let* bi := get bx (ix m i j) in let* w := get y (ix m i j) in if mpq_equal (mpq_z bi) w then Ok tt else Err SLIP_INCORRECT) tt) t)
     (sfor 0 n (fun j => sfor 0 m (fun i => let# c := at2 b i j in let# bi := ldz b c in let# d := at2 (n0 + 4)%nat i j in let# w := ldq (n0 + 4)%nat d in
       if mpq_equal (mpq_z bi) w then sret tt else fail SLIP_INCORRECT)) (Sq y))).
  { intros t. apply (@ag_for _ (fun _ : unit => Sq y)). intros j [] Hj. apply (@ag_for _ (fun _ : unit => Sq y)). intros i [] Hi.
    rewrite (sb_ok _ _ _ (at2_run i j (LB y))), HBm.
    dg (get bx (ix m i j)) bi E1. rewrite (sb_ok _ _ _ (rdok _ _ (ldz_run (ix m i j) (LB y) HBx) E1)).
    rewrite (sb_ok _ _ _ (at2_run i j (LY y))). cbn [dqM m_m].
    dg (get y (ix m i j)) w E2. rewrite (sb_ok _ _ _ (rdok _ _ (ldq_run (ix m i j) (LY y) eq_refl) E2)).
    destruct (mpq_equal _ _); [reflexivity|exists tt; reflexivity]. }
  specialize (H2 tt). unfold always.
  match goal with |- context [always] => idtac | _ => idtac end.
  match goal with |- agrees _ _ (match sbind ?P ?Q ?s with _ => _ end) => change s with (Sq (mk (Z.max (m * n) 1) 0%Q)); rewrite (sb_ok P Q _ H1) end.
  assert (HF : s_free (Some (n0 + 4)%nat) (Sq y) = (Ok tt, s0 ++ [b2; None; None; dqm m n x; None])).
  { exact (@free_run 4 [b2; None; None; dqm m n x; dqm m n y] (dqM m n y) eq_refl). }
  match goal with |- agrees _ (bind ?F _) _ => destruct F as [[]|e| |] end; cbn [bind agrees] in *; try exact I.
  - rewrite H2, HF. reflexivity.
  - destruct H2 as [t H2]. exists tt. rewrite H2, HF. reflexivity.
Qed.

(* the final scaling *)
Lemma scale_run b2 tl m n x c : 
  agrees (fun x => s0 ++ b2 :: None :: None :: dqm m n x :: tl)
   (if mpq_equal c 1%Q then Ok x else for_ 0 (m * n) (fun i x => let* v := get x i in set x i (mpq_mul v c)) x)
   (s_scale (n0 + 3) c (s0 ++ b2 :: None :: None :: dqm m n x :: tl)).
Proof.
  set (Sq := fun y => s0 ++ b2 :: None :: None :: dqm m n y :: tl).
  assert (LX : forall y, ldM (n0 + 3) (Sq y) = (Ok (dqM m n y), Sq y)) by (intros; apply ldM_new; reflexivity).
  unfold s_scale. change (s0 ++ b2 :: None :: None :: dqm m n x :: tl) with (Sq x). rewrite (sb_ok _ _ _ (LX x)).
  destruct (mpq_equal c 1). reflexivity. cbn [dqM m_m m_n]. apply ag_for. intros i y Hi.
  dg (get y i) v E. unfold q_mul. rewrite (sb_ok _ _ _ (rdok _ _ (ldq_run i (LX y) eq_refl) E)). rewrite (set_of_get _ _ _ E). cbn [agrees].
  exact (@stq_run 3 (b2 :: None :: None :: dqm m n y :: tl) (dqM m n y) y _ _ _ eq_refl eq_refl (set_of_get _ _ _ E)).
Qed.

(* SLIP_LU_solve after the argument checks *)
Definition ends (F : res (list Q)) (m n : Z) (check : bool) (o : res nat * store) : Prop :=
  match F with
  | Ok x => o = (Ok (n0 + 3)%nat, s0 ++ [None; None; None; dqm m n x] ++ (if check then [None] else []))
  | Err e => exists dead, o = (Err e, s0 ++ dead) /\ Forall (fun c => c = None) dead
  | _ => True
  end.
Lemma body_run b A L U rhos S pinv MB MA ML MU MR Ap Ai Ax Lp Li Lx Up Ui Ux rh bx An pv check :
  isM b MB -> isM A MA -> isM L ML -> isM U MU -> isM rhos MR -> nth_error s0 S = Some (Some (OS An)) -> nth_error s0 pinv = Some (Some (OA pv)) ->
  m_kind MB = KDENSE -> m_type MB = TMPZ -> m_kind MA = KCSC -> m_type MA = TMPZ -> m_kind ML = KCSC -> m_type ML = TMPZ ->
  m_kind MU = KCSC -> m_type MU = TMPZ -> m_kind MR = KDENSE -> m_type MR = TMPZ -> m_n MU = m_m MB ->
  m_p MA = Some Ap -> m_i MA = Some Ai -> m_x MA = Some (VZ Ax) ->
  m_p ML = Some Lp -> m_i ML = Some Li -> m_x ML = Some (VZ Lx) ->
  m_p MU = Some Up -> m_i MU = Some Ui -> m_x MU = Some (VZ Ux) -> m_x MR = Some (VZ rh) -> m_x MB = Some (VZ bx) ->
  ends (solve_core (m_n ML) (m_m MB) (m_n MB) Ap Ai Ax (m_scale MA) bx (m_scale MB) (mkFac Lp Li Lx Up Ui Ux rh pv) (s_q An) check)
       (m_m MB) (m_n MB) check (s_solve_body b A L U rhos S pinv check (s0 ++ [])).
Proof.
  intros HB HA HL HU HR HS HP HBk HBt HAk HAt HLk HLt HUk HUt HRk HRt Hdim HAp HAi HAx HLp HLi HLx HUp HUi HUx HRx HBx.
  unfold solve_core, s_solve_body. cbn [fac_Lp fac_Li fac_Lx fac_Up fac_Ui fac_Ux fac_rhos fac_pinv].
  rewrite (sb_ok _ _ _ (@ldM_old L ML [] HL)).
  destruct (Z.ltb_spec (m_m MB) 0) as [Hm|Hm]; [|destruct (Z.ltb_spec (m_n MB) 0) as [Hn|Hn]]; cbn [orb].
  1,2: exists []; split; [|constructor]; unfold s_permute_b; eapply sb_err; rewrite (sb_ok _ _ _ (require_ok (@ldM_old b MB [] HB) HBk HBt)),
    (sb_ok _ _ _ (@ldM_old b MB [] HB)); apply sb_err; unfold s_allocate, matrix_allocate.
  { rewrite (proj2 (Z.ltb_lt _ _) Hm). reflexivity. }
  { rewrite (proj2 (Z.ltb_lt _ _) Hn), orb_true_r. reflexivity. }
  set (m := m_m MB) in *. set (n := m_n MB) in *.
  pose proof (@permb_run b pinv MB bx pv HB HBk HBt HBx Hm Hn HP) as H1. fold m n in H1.
  destruct (slip_permute_b m n bx pv) as [b1|e| |]; cbn [bind returns ends] in *; try exact I; try contradiction.
  rewrite (sb_ok _ _ _ H1). clear H1.
  assert (CK : forall T (c : sm unit) (P : sm T) s a s', P s = (Ok a, s') -> checked P c s = (Ok a, s')) by (intros T c P s a s' E; unfold checked; rewrite E; reflexivity).
  assert (CE : forall T (c : sm unit) (P : sm T) s e s' s'', P s = (Err e, s') -> c s' = (Ok tt, s'') -> checked P c s = (Err e, s'')) by (intros T c P s e s' s'' E E'; unfold checked; rewrite E, E'; reflexivity).
  pose proof (@fsub_run L rhos ML MR Lp Li Lx rh m n HL HLp HLi HLx HR HRx HLk HLt HRk HRt Hm Hn b1) as H2.
  destruct (slip_forward_sub m n Lp Li Lx rh b1) as [b2|e| |]; cbn [bind agrees ends] in *; try exact I.
  2:{ destruct H2 as [t H2]. exists [None; None]. split; [|repeat constructor]. apply sb_err. eapply CE. exact H2. apply (@free_run 0 [dzm m n t; None] (dzM m n t) eq_refl). }
  rewrite (sb_ok _ _ _ (CK _ _ _ _ _ _ H2)). clear H2.
  destruct (get rh (m_n ML - 1)) as [det| | |] eqn:E3; cbn [bind ends]; try exact I; [|noerr].
  rewrite (sb_ok _ _ _ (rdok _ _ (ldz_run _ (@ldM_old rhos MR _ HR) HRx) E3)).
  pose proof (@mmul_run m n rhos MR rh _ det b2 HR HRx E3 Hm Hn) as H4.
  destruct (slip_matrix_mul (m * n) b2 det) as [b3|e| |]; cbn [bind agrees ends] in *; try exact I.
  2:{ destruct H4 as [t H4]. exists [None; None]. split; [|repeat constructor]. apply sb_err. eapply CE. exact H4. apply (@free_run 0 [dzm m n t; None] (dzM m n t) eq_refl). }
  rewrite (sb_ok _ _ _ (CK _ _ _ _ _ _ H4)). clear H4.
  pose proof (@bsub_run m n U MU Up Ui Ux b3 HU HUk HUt Hdim HUp HUi HUx) as H5.
  destruct (slip_back_sub m n Up Ui Ux b3) as [b4|e| |]; cbn [bind agrees ends] in *; try exact I.
  2:{ destruct H5 as [t H5]. exists [None; None]. split; [|repeat constructor]. apply sb_err. eapply CE. exact H5. apply (@free_run 0 [dzm m n t; None] (dzM m n t) eq_refl). }
  rewrite (sb_ok _ _ _ (CK _ _ _ _ _ _ H5)). clear H5.
  pose proof (@mdiv_run m n rhos MR rh _ det b4 HR HRx E3 Hm Hn) as H6.
  destruct (slip_matrix_div (m * n) b4 det) as [x2|e| |]; cbn [bind returns ends] in *; try exact I; try contradiction.
  rewrite (sb_ok _ _ _ (CK _ _ _ _ _ _ H6)). clear H6. cbv zeta.
  pose proof (@permx_run (dzm m n b4) m n x2 S An HS Hm Hn) as H7.
  destruct (slip_permute_x m n x2 (s_q An)) as [x|e| |]; cbn [bind returns ends] in *; try exact I; try contradiction.
  rewrite (sb_ok _ _ _ (CK _ _ _ _ _ _ H7)). clear H7.
  rewrite (sb_ok _ _ _ (@free_run 2 [dzm m n b4; None; dqm m n x2; dqm m n x] (dqM m n x2) eq_refl)). cbn [upd].
  set (tl := if check then [None : option obj] else []).
  assert (HC : agrees (fun _ : unit => s0 ++ [dzm m n b4; None; None; dqm m n x] ++ tl)
     (if check then slip_check_solution m n Ap Ai Ax x bx else Ok tt)
     ((if check then s_check_solution A (n0 + 3)%nat b else sret tt) (s0 ++ [dzm m n b4; None; None; dqm m n x]))).
  { unfold tl. destruct check. 2: reflexivity.
    apply (@chk_run (dzm m n b4) m n x A b MA MB Ap Ai Ax bx); auto. }
  assert (FR : forall y, (s_free (Some (n0 + 0)%nat) ## s_free (Some (n0 + 3)%nat)) (s0 ++ dzm m n b4 :: None :: None :: dqm m n y :: tl) = (Ok tt, s0 ++ [None; None; None; None] ++ tl)).
  { intros y. rewrite (sb_ok _ _ _ (@free_run 0 (dzm m n b4 :: None :: None :: dqm m n y :: tl) (dzM m n b4) eq_refl)). cbn [upd].
    rewrite (@free_run 3 (None :: None :: None :: dqm m n y :: tl) (dqM m n y) eq_refl). reflexivity. }
  assert (FT : Forall (fun c : option obj => c = None) ([None; None; None; None] ++ tl)) by (unfold tl; destruct check; repeat constructor).
  destruct (if check then slip_check_solution m n Ap Ai Ax x bx else Ok tt) as [[]|e| |]; cbn [bind agrees ends] in *; try exact I.
  2:{ destruct HC as [t HC]. eexists. split; [|exact FT]. apply sb_err. eapply CE. exact HC. apply FR. }
  rewrite (sb_ok _ _ _ (CK _ _ _ _ _ _ HC)). clear HC. cbn [app].
  rewrite (sb_ok _ _ _ (@ldM_old A MA _ HA)), (sb_ok _ _ _ (@ldM_old b MB _ HB)).
  destruct (mpq_div (m_scale MA) (m_scale MB)) as [c|e| |] eqn:E8; cbn [bind ends]; try exact I.
  2:{ exfalso. unfold mpq_div in E8. destruct (_ =? 0); discriminate. }
  rewrite sb_lift. pose proof (@scale_run (dzm m n b4) tl m n x c) as H9.
  destruct (if mpq_equal c 1 then Ok x else for_ 0 (m * n) (fun i x => let* v := get x i in set x i (mpq_mul v c)) x) as [x'|e| |]; cbn [agrees ends] in *; try exact I.
  2:{ destruct H9 as [t H9]. eexists. split; [|exact FT]. apply sb_err. eapply CE. exact H9. apply FR. }
  rewrite (sb_ok _ _ _ (CK _ _ _ _ _ _ H9)).
  rewrite (sb_ok _ _ _ (@free_run 0 (dzm m n b4 :: None :: None :: dqm m n x' :: tl) (dzM m n b4) eq_refl)). reflexivity.
Qed.
End S.
