(* SLIP_matrix_copy: relation between the conversion of types and of kinds. *)
From Verif Require Import Base DetZ Spec SumQ MSolve PSolve MMatrix MatSpec PApi PMat PFloat.
Set Implicit Arguments.
Set Bullet Behavior "Strict Subproofs".
Open Scope Z_scope.

(* partial correctness of loops *)
Lemma for_ok_inv S lo hi (body : Z -> S -> res S) (I : Z -> S -> Prop) s s' :
  lo <= hi -> I lo s -> (forall i s s', lo <= i < hi -> I i s -> body i s = Ok s' -> I (i + 1) s') ->
  for_ lo hi body s = Ok s' -> I hi s'.
Proof.
  intros Hle H0 Hs. unfold for_. remember (Z.to_nat (hi - lo)) as c eqn:Hc. revert lo s Hle H0 Hs Hc.
  induction c; intros lo s Hle H0 Hs Hc E.
  - simpl in E. injection E as <-. replace hi with lo by lia. auto.
  - cbn [floop] in E. destruct (body lo s) as [s1| | |] eqn:E1; try discriminate. cbn [bind] in E.
    apply (IHc (lo + 1) s1); auto; try lia. apply Hs with s; auto. lia. intros i t t' Hi. apply Hs. lia.
Qed.

Lemma get_ok_rdg A (d : A) l i v : get l i = Ok v -> 0 <= i < zlen l /\ v = rdg d l i.
Proof.
  intros E. destruct (get_ok_inv _ _ E) as [H1 H2]. split; auto. unfold rdg. symmetry. now apply nth_error_nth.
Qed.
Lemma set_ok_wrg A (l l' : list A) i v : set l i v = Ok l' -> 0 <= i < zlen l /\ l' = wrg l i v.
Proof.
  unfold set, wrg. destruct (Z.leb_spec 0 i), (Z.ltb_spec i (zlen l)); simpl; try discriminate. intros [= <-]. auto.
Qed.

Lemma conv_loop_gen_inv A B (da : A) (db : B) n (f : Z -> A -> res B) x y y' : 0 <= n ->
  for_ 0 n (fun k y => let* v := get x k in let* w := f k v in set y k w) y = Ok y' ->
  n <= zlen x /\ n <= zlen y /\ zlen y' = zlen y /\ (forall k, 0 <= k < n -> f k (rdg da x k) = Ok (rdg db y' k)) /\
  (forall k, n <= k < zlen y -> rdg db y' k = rdg db y k).
Proof.
  intros Hn E. revert E. eapply for_ok_inv with (I := fun k y' => k <= zlen x /\ k <= zlen y /\ zlen y' = zlen y /\
    (forall i, 0 <= i < k -> f i (rdg da x i) = Ok (rdg db y' i)) /\ (forall i, k <= i < zlen y -> rdg db y' i = rdg db y i)); auto.
  - pose proof (zlen_nonneg x). pose proof (zlen_nonneg y). repeat split; auto; intros; lia.
  - intros i s s' Hi (H1 & H2 & H3 & H4 & H5) E.
    destruct (get x i) as [v| | |] eqn:E1; try discriminate. destruct (get_ok_rdg da _ _ E1) as [G1 ->]. cbn [bind] in E.
    destruct (f i (rdg da x i)) as [w| | |] eqn:E2; try discriminate. cbn [bind] in E.
    apply set_ok_wrg in E. destruct E as [G2 ->]. rewrite zlen_wrg. split; [lia|]. split; [lia|]. split; auto. split.
    + intros k Hk. rewrite rdg_wrg by lia. destruct (Z.eqb_spec k i); subst; auto. apply H4; lia.
    + intros k Hk. rewrite rdg_wrg by lia. destruct (Z.eqb_spec k i); try lia. apply H5; lia.
Qed.
Lemma conv_loop_inv A B (da : A) (db : B) n (f : A -> res B) x y y' : 0 <= n -> conv_loop n f x y = Ok y' ->
  n <= zlen x /\ n <= zlen y /\ zlen y' = zlen y /\ (forall k, 0 <= k < n -> f (rdg da x k) = Ok (rdg db y' k)) /\
  (forall k, n <= k < zlen y -> rdg db y' k = rdg db y k).
Proof. intros Hn E. apply (@conv_loop_gen_inv A B da db n (fun _ => f)); auto. Qed.

Lemma conv_loop_inv_any A B n (f : A -> res B) x y y' (db : B) : 0 <= n -> conv_loop n f x y = Ok y' ->
  n <= zlen x /\ n <= zlen y /\ zlen y' = zlen y /\ (forall k, 0 <= k < n -> exists v, f v = Ok (rdg db y' k)).
Proof.
  intros Hn E. destruct (Z.eq_dec n 0) as [->|Hne].
  - unfold conv_loop in E. rewrite for_empty in E by lia. injection E as <-. pose proof (zlen_nonneg x). pose proof (zlen_nonneg y).
    repeat split; auto; intros; lia.
  - assert (exists da : A, True) as (da & _).
    { unfold conv_loop, for_ in E. replace (Z.to_nat (n - 0)) with (S (Z.to_nat (n - 1))) in E by lia. cbn [floop] in E.
      destruct (get x 0) as [v| | |]; try discriminate. eauto. }
    destruct (conv_loop_inv da db _ _ _ Hn E) as (I1 & I2 & I3 & I4 & I5). repeat split; auto. intros k Hk. eauto.
Qed.
Ltac conv_case E Hn := match type of E with context [conv_loop ?n ?f ?x ?y] =>
    let y1 := fresh "y1" in let E1 := fresh "E1" in
    destruct (conv_loop n f x y) as [y1| | |] eqn:E1; try discriminate;
    cbn [bind fst snd] in E; injection E as <- <-;
    first [apply (@conv_loop_inv_any _ _ _ _ _ _ _ 0 Hn) in E1 | apply (@conv_loop_inv_any _ _ _ _ _ _ _ 0%Q Hn) in E1 | apply (@conv_loop_inv_any _ _ _ _ _ _ _ FNan Hn) in E1];
    destruct E1 as (I1 & I2 & I3 & I4); simpl; split; [reflexivity|]; split; [lia|]; split; [lia|]; discriminate end.
Ltac mpfr_case E Hn := match type of E with context [conv_loop ?n ?f ?x ?y] =>
    let y1 := fresh "y1" in let E1 := fresh "E1" in
    destruct (conv_loop n f x y) as [y1| | |] eqn:E1; try discriminate;
    cbn [bind fst snd] in E; injection E as <- <-;
    apply (@conv_loop_inv_any _ _ _ _ _ _ _ FNan Hn) in E1;
    destruct E1 as (I1 & I2 & I3 & I4); simpl; split; [reflexivity|]; split; [lia|]; split; [lia|]; intros l k [= <-] Hk end.
(*----------------------------------------------------------------------------*)
Lemma reduce_gcd_len y scale n y' s : 0 <= n -> reduce_gcd y scale n = Ok (y', s) -> zlen y' = zlen y.
Proof.
  intros Hn E. unfold reduce_gcd in E. destruct (for_ 0 n (gcd_step y) (false, 0, 0, false)) as [[[[f k] g] st]| | |]; try discriminate.
  cbn [bind] in E. destruct (negb f). { injection E as <- _. auto. } destruct st. { injection E as <- _. auto. }
  destruct (for_ k n _ y) as [y1| | |] eqn:E1; try discriminate. cbn [bind] in E.
  destruct (mpq_div scale (mpq_z g)); try discriminate. injection E as <- _.
  destruct (Z_le_dec k n).
  - revert E1. apply for_ok_inv with (I := fun _ y' => zlen y' = zlen y); auto. intros i t t' _ Ht E.
    destruct (get t i); try discriminate. cbn [bind] in E. destruct (divexact a0 g); try discriminate. cbn [bind] in E.
    apply set_ok_wrg in E. destruct E as [_ ->]. now rewrite zlen_wrg.
  - rewrite for_empty in E1 by lia. congruence.
Qed.

(* the result of slip_cast_array has the type and length of the output array, and mpfr_t results have at most prec digits *)
Lemma cast_array_shape o addr Y X n ys xs yx s : 0 <= n -> 1 <= opt_prec o ->
  slip_cast_array o addr Y X n ys xs = Ok (yx, s) ->
  vtype yx = vtype Y /\ vlen yx = vlen Y /\ n <= vlen Y /\
  (forall l k, yx = VR l -> 0 <= k < n -> rnd_fl (opt_round o) (opt_prec o) (rdg FNan l k) = rdg FNan l k).
Proof.
  intros Hn Hp E.
  assert (D : forall m e, digits m <= opt_prec o -> rnd_fl (opt_round o) (opt_prec o) (FFin m e) = FFin m e).
  { intros m e H. now apply rnd_fin_id. }
  assert (D1 : forall r m e, rnd_fl (opt_round o) (opt_prec o) (rnd_fin r (opt_prec o) m e) = rnd_fin r (opt_prec o) m e).
  { intros r m e. destruct (rnd_fin_digits r m e Hp) as (m' & e' & -> & H). auto. }
  assert (D2 : forall r q, rnd_fl (opt_round o) (opt_prec o) (rnd_q r (opt_prec o) q) = rnd_q r (opt_prec o) q).
  { intros r q. destruct (rnd_q_digits r q Hp) as (m' & e' & -> & H). auto. }
  destruct Y as [y|y|y|y|y], X as [x|x|x|x|x]; unfold slip_cast_array in E.
  (* to mpz *)
  1: conv_case E Hn.
  1: { unfold slip_expand_mpq_array in E. destruct (conv_loop n _ x _) as [x3| | |]; try discriminate. cbn [bind] in E.
       destruct (get x3 0); try discriminate. cbn [bind] in E. destruct (for_ 1 n _ a) as [t| | |]; try discriminate. cbn [bind] in E.
       conv_case E Hn. }
  1: { unfold slip_expand_mpfr_array in E. destruct (conv_loop n _ x y) as [y1| | |] eqn:E1; try discriminate. cbn [bind] in E.
       apply (conv_loop_inv FNan 0 _ _ _ Hn) in E1. destruct E1 as (I1 & I2 & I3 & I4 & I5).
       destruct (reduce_gcd y1 _ n) as [[y2 s2]| | |] eqn:E2; try discriminate. apply reduce_gcd_len in E2; auto.
       cbn [bind fst snd] in E. injection E as <- <-. simpl. split; [reflexivity|]. split; [lia|]. split; [lia|]. discriminate. }
  1: conv_case E Hn.
  1: { unfold slip_expand_double_array in E. destruct (conv_loop n _ x y) as [y1| | |] eqn:E1; try discriminate. cbn [bind] in E.
       apply (conv_loop_inv FNan 0 _ _ _ Hn) in E1. destruct E1 as (I1 & I2 & I3 & I4 & I5).
       destruct (reduce_gcd y1 _ n) as [[y2 s2]| | |] eqn:E2; try discriminate. apply reduce_gcd_len in E2; auto.
       cbn [bind fst snd] in E. injection E as <- <-. simpl. split; [reflexivity|]. split; [lia|]. split; [lia|]. discriminate. }
  (* to mpq *)
  1: conv_case E Hn. 1: conv_case E Hn. 1: conv_case E Hn.
  1: { destruct (for_ 0 n _ y) as [y1| | |] eqn:E1; try discriminate. cbn [bind] in E. injection E as <- <-.
       apply (@conv_loop_gen_inv Z Q 0 0%Q n (fun k v => SLIP_mpq_set_si (addr k) v)) in E1; auto. destruct E1 as (I1 & I2 & I3 & I4 & I5).
       simpl. split; [reflexivity|]. split; [lia|]. split; [lia|]. discriminate. }
  1: conv_case E Hn.
  (* to mpfr *)
  1-5: mpfr_case E Hn; destruct (I4 k Hk) as (v & Hv).
  1: { destruct (mpq_equal xs 1). injection Hv as <-; auto. destruct (unscale xs v); try discriminate. cbn [bind] in Hv. injection Hv as <-. auto. }
  1: { injection Hv as <-; auto. }
  1: { injection Hv as <-; auto. apply rnd_fl_idem; auto. }
  1: { injection Hv as <-; auto. }
  1: { injection Hv as <-; auto. apply rnd_fl_idem; auto. }
  (* to int64, to double *)
  all: conv_case E Hn.
Qed.

(*----------------------------------------------------------------------------*)
Lemma vlen_nonneg v : 0 <= vlen v.
Proof. destruct v; apply zlen_nonneg. Qed.
Lemma vtype_is v : is_type (vtype v).
Proof. destruct v; unfold is_type; simpl; vm_compute; split; discriminate. Qed.
Lemma mono_le p n : (forall c, 0 <= c < n -> rd p c <= rd p (c + 1)) -> forall a b, 0 <= a <= b -> b <= n -> rd p a <= rd p b.
Proof.
  intros H a b [Ha Hb] Hn. replace b with (a + Z.of_nat (Z.to_nat (b - a))) in * by lia. induction (Z.to_nat (b - a)) as [|c IH].
  - rewrite Z.add_0_r. lia.
  - replace (a + Z.of_nat (S c)) with (a + Z.of_nat c + 1) in * by lia. specialize (IH ltac:(lia) ltac:(lia)).
    specialize (H (a + Z.of_nat c) ltac:(lia)). lia.
Qed.

Ltac dcsc C := destruct C as [co_kind' co_p' co_i' co_x' co_type' co_m' co_n' co_len' co_0' co_mono' co_capi' co_capx' co_row'].
Ltac dtrip C := destruct C as [to_kind' to_i' to_j' to_x' to_type' to_m' to_n' to_nz' to_capi' to_capj' to_capx' to_row' to_col'].
Ltac ddense C := destruct C as [do_kind' do_x' do_type' do_m' do_n' do_cap'].
Lemma stores_facts A nz x : stores A nz x ->
  matrix_nnz true (Some A) = Ok nz /\ 0 <= nz <= vlen x /\ m_x A = Some x /\ vtype x = m_type A /\ 0 <= m_m A /\ 0 <= m_n A.
Proof.
  intros [(p & i & C & ->)|[(i & j & C & ->)|(C & ->)]]; [dcsc C|dtrip C|ddense C]; unfold matrix_nnz; simpl.
  - rewrite co_kind'. simpl. rewrite co_p'. destruct (Z.ltb_spec (m_n A) 0); try lia.
    assert (rd p 0 <= rd p (m_n A)) by (apply (mono_le _ co_mono'); lia).
    rewrite get_rd by lia. repeat split; auto; lia.
  - rewrite to_kind'. simpl. repeat split; auto; lia.
  - rewrite do_kind'. simpl. destruct (Z.ltb_spec (m_m A) 0), (Z.ltb_spec (m_n A) 0); try lia. simpl. repeat split; auto; nia.
Qed.
Lemma fresh_type T n : is_type T -> vtype (fresh_vals T n) = T.
Proof.
  unfold is_type, TMPZ, TDBL. intros H. assert (T = 0 \/ T = 1 \/ T = 2 \/ T = 3 \/ T = 4) as [-> |[-> |[-> |[-> | ->]]]] by lia; reflexivity.
Qed.
Lemma fresh_len T n : 0 <= n -> vlen (fresh_vals T n) = n.
Proof.
  intros H. unfold fresh_vals. destruct (T =? TMPZ), (T =? TMPQ), (T =? TMPFR), (T =? TINT); simpl; apply zlen_mk; auto.
Qed.
Lemma alloc_ok kind T m n nzmax : 0 <= m -> 0 <= n -> KCSC <= kind <= KDENSE -> is_type T ->
  matrix_allocate kind T m n nzmax false =
  let nzm := Z.max (if kind =? KDENSE then m * n else nzmax) 1 in
  Ok (mkM m n nzm 0 kind T (if kind =? KCSC then Some (mk (n + 1) 0) else None) (if kind =? KDENSE then None else Some (mk nzm 0))
     (if kind =? KTRIP then Some (mk nzm 0) else None) (Some (fresh_vals T nzm)) 1%Q).
Proof.
  unfold is_type. intros. unfold matrix_allocate.
  destruct (Z.ltb_spec m 0), (Z.ltb_spec n 0), (Z.ltb_spec kind KCSC), (Z.gtb_spec kind KDENSE), (Z.ltb_spec T TMPZ), (Z.gtb_spec T TDBL); try lia.
  reflexivity.
Qed.

(* the same-kind copy converts the values and keeps everything else *)
Definition same_pattern (A Y : matrix) (nz : Z) : Prop :=
  m_m Y = m_m A /\ m_n Y = m_n A /\ m_kind Y = m_kind A /\
  (m_kind A = KCSC -> m_p Y = m_p A) /\
  (m_kind A <> KDENSE -> exists i i', m_i A = Some i /\ m_i Y = Some i' /\ nz <= zlen i' /\ forall k, 0 <= k < nz -> rd i' k = rd i k) /\
  (m_kind A = KTRIP -> m_nz Y = m_nz A /\ exists j j', m_j A = Some j /\ m_j Y = Some j' /\ nz <= zlen j' /\ forall k, 0 <= k < nz -> rd j' k = rd j k).

Lemma copy_same_eq o addr A nz x T : stores A nz x -> is_type T ->
  match slip_cast_array o addr (fresh_vals T (Z.max nz 1)) x nz 1 (m_scale A) with
  | Ok (yx, s) => exists Y, matrix_copy o addr true true (m_kind A) T (Some A) = Ok Y /\ m_x Y = Some yx /\ m_scale Y = s /\
                   m_type Y = T /\ m_nzmax Y = Z.max nz 1 /\ same_pattern A Y nz
  | Err e => matrix_copy o addr true true (m_kind A) T (Some A) = Err e
  | UB => matrix_copy o addr true true (m_kind A) T (Some A) = UB
  | Fuel => matrix_copy o addr true true (m_kind A) T (Some A) = Fuel
  end.
Proof.
  intros HS HT. destruct (stores_facts HS) as (Hz & Hn & Hx & Ht & Hm & Hnn).
  unfold matrix_copy. cbn [negb]. rewrite Hz. cbn [bind negb orb].
  pose proof (vtype_is x) as HX. rewrite Ht in HX. unfold is_type in HX, HT.
  assert (HK : KCSC <= m_kind A <= KDENSE).
  { destruct HS as [(p & i & C & _)|[(i & j & C & _)|(C & _)]]; [dcsc C|dtrip C|ddense C]; [rewrite co_kind'|rewrite to_kind'|rewrite do_kind']; vm_compute; split; discriminate. }
  destruct (Z.ltb_spec nz 0), (Z.ltb_spec (m_type A) TMPZ), (Z.gtb_spec (m_type A) TDBL), (Z.ltb_spec T TMPZ), (Z.gtb_spec T TDBL),
    (Z.ltb_spec (m_kind A) KCSC), (Z.gtb_spec (m_kind A) KDENSE); try lia. cbn [orb].
  destruct HS as [(p & i & C & HE)|[(i & j & C & HE)|(C & HE)]]; [dcsc C|dtrip C|ddense C].
  - rewrite co_kind'. cbn [Z.eqb KCSC KTRIP KDENSE]. unfold copy_csc_csc. rewrite alloc_ok by (auto; vm_compute; split; discriminate).
    cbn [bind m_p m_i m_x m_scale Z.eqb KCSC KTRIP KDENSE deref]. rewrite co_p', co_i', co_x'. cbn [deref bind].
    destruct (wp_ok_ex _ _ (@memcpy_all Z (mk (m_n A + 1) 0) p (m_n A + 1) nerr ltac:(apply zlen_mk; lia) co_len')) as (p' & -> & ->). cbn [bind].
    destruct (wp_ok_ex _ _ (@memcpy_spec Z 0 (mk (Z.max nz 1) 0) i nz nerr ltac:(lia) ltac:(rewrite zlen_mk; lia) ltac:(lia))) as (i' & -> & I1 & I2 & _). cbn [bind].
    unfold cast_array_ptr. destruct (slip_cast_array o addr (fresh_vals T (Z.max nz 1)) x nz 1 (m_scale A)) as [[yx s]| | |]; cbn [bind]; auto.
    eexists. split; [reflexivity|]. do 4 (split; [reflexivity|]).
    split; [reflexivity|]. split; [reflexivity|]. split; [simpl; auto|]. split; [intros _; simpl; auto|]. split.
    { intros _. exists i, i'. split; auto. split; auto. split; auto. rewrite I1, zlen_mk by lia. lia. }
    intros HH. rewrite co_kind' in HH. discriminate.
  - rewrite to_kind'. cbn [Z.eqb KCSC KTRIP KDENSE Pos.eqb]. unfold copy_trip_trip. rewrite alloc_ok by (auto; vm_compute; split; discriminate).
    cbn [bind m_p m_i m_j m_x m_scale Z.eqb KCSC KTRIP KDENSE deref Pos.eqb]. rewrite to_i', to_j', to_x'. cbn [deref bind].
    destruct (wp_ok_ex _ _ (@memcpy_spec Z 0 (mk (Z.max nz 1) 0) j nz nerr ltac:(lia) ltac:(rewrite zlen_mk; lia) ltac:(lia))) as (j' & -> & J1 & J2 & _). cbn [bind].
    destruct (wp_ok_ex _ _ (@memcpy_spec Z 0 (mk (Z.max nz 1) 0) i nz nerr ltac:(lia) ltac:(rewrite zlen_mk; lia) ltac:(lia))) as (i' & -> & I1 & I2 & _). cbn [bind].
    unfold cast_array_ptr. destruct (slip_cast_array o addr (fresh_vals T (Z.max nz 1)) x nz 1 (m_scale A)) as [[yx s]| | |]; cbn [bind]; auto.
    eexists. split; [reflexivity|]. do 4 (split; [reflexivity|]).
    split; [reflexivity|]. split; [reflexivity|]. split; [simpl; auto|]. split; [intros HH; rewrite to_kind' in HH; discriminate|]. split.
    { intros _. exists i, i'. split; auto. split; auto. split; auto. rewrite I1, zlen_mk by lia. lia. }
    intros _. split; [simpl; auto|]. exists j, j'. split; auto. split; auto. split; auto. rewrite J1, zlen_mk by lia. lia.
  - rewrite do_kind'. cbn [Z.eqb KCSC KTRIP KDENSE Pos.eqb]. unfold copy_dense_dense. rewrite alloc_ok by (auto; vm_compute; split; discriminate).
    cbn [bind m_p m_i m_j m_x m_scale Z.eqb KCSC KTRIP KDENSE deref Pos.eqb]. rewrite do_x'. rewrite <- HE.
    unfold cast_array_ptr. destruct (slip_cast_array o addr (fresh_vals T (Z.max nz 1)) x nz 1 (m_scale A)) as [[yx s]| | |]; cbn [bind]; auto.
    eexists. split; [reflexivity|]. do 3 (split; [reflexivity|]). split; [simpl; rewrite HE; auto|].
    split; [reflexivity|]. split; [reflexivity|]. split; [simpl; auto|]. split; [intros HH; rewrite do_kind' in HH; discriminate|]. split.
    { intros HH. contradiction. } intros HH; rewrite do_kind' in HH; discriminate.
Qed.
Lemma converted_inv o addr A nz x T yx s : stores A nz x -> is_type T -> converted o addr T A yx s ->
  slip_cast_array o addr (fresh_vals T (Z.max nz 1)) x nz 1 (m_scale A) = Ok (yx, s).
Proof.
  intros HS HT (Y & E & E1 & E2). pose proof (@copy_same_eq o addr A nz x T HS HT) as H.
  destruct (slip_cast_array o addr (fresh_vals T (Z.max nz 1)) x nz 1 (m_scale A)) as [[yx' s']| | |].
  - destruct H as (Y' & F & F1 & F2 & _). rewrite E in F. injection F as <-. congruence.
  - congruence. - congruence. - congruence.
Qed.
Lemma converted_intro o addr A nz x T yx s : stores A nz x -> is_type T ->
  slip_cast_array o addr (fresh_vals T (Z.max nz 1)) x nz 1 (m_scale A) = Ok (yx, s) -> converted o addr T A yx s.
Proof.
  intros HS HT E. pose proof (@copy_same_eq o addr A nz x T HS HT) as H. rewrite E in H. destruct H as (Y' & F & F1 & F2 & _). exists Y'. auto.
Qed.

(*----------------------------------------------------------------------------*)
(* the array from which the kind conversions read *)
Definition stored (o : option options) (v : num) : num := match v with NR x => NR (rnd_fl (opt_round o) (opt_prec o) x) | _ => v end.
Lemma nonzero_rnd r p x : 1 <= p -> nonzero (NR (rnd_fl r p x)) = nonzero (NR x).
Proof.
  intros Hp. destruct x; auto. simpl rnd_fl. destruct (Z.eq_dec m 0) as [->|Hm].
  - rewrite rnd_fin_id; auto. change (digits 0) with 0. lia.
  - destruct (rnd_fin_nz r e Hp Hm) as (m' & e' & -> & H). simpl. destruct (Z.eqb_spec m 0), (Z.eqb_spec m' 0); auto; contradiction.
Qed.
Lemma cast_source o addr A nz x T yx s : stores A nz x -> is_type T -> 1 <= opt_prec o -> converted o addr T A yx s ->
  vtype yx = T /\ nz <= vlen yx /\
  exists v, slip_cast_matrix o addr T A nz = Ok (Some v, if T =? m_type A then 1%Q else s) /\ vtype v = T /\ nz <= vlen v /\
    forall k, 0 <= k < nz -> stored o (cell v k) = cell yx k /\ nonzero (cell v k) = nonzero (cell yx k).
Proof.
  intros HS HT Hp HC. pose proof (converted_inv HS HT HC) as E. destruct (stores_facts HS) as (Hz & Hn & Hx & Ht & Hm & Hnn).
  destruct (@cast_array_shape o addr _ _ nz _ _ _ _ (proj1 Hn) Hp E) as (S1 & S2 & S3 & S4). rewrite fresh_type in S1 by auto. rewrite fresh_len in S2, S3 by lia.
  split; auto. split. lia.
  unfold slip_cast_matrix. destruct (Z.eqb_spec T (m_type A)) as [ET|ET].
  - exists x. unfold matrix_allocate. unfold is_type in HT.
    destruct (Z.ltb_spec nz 0); try lia. destruct (Z.ltb_spec T TMPZ), (Z.gtb_spec T TDBL); try lia. simpl. rewrite Hx. split; auto.
    split. congruence. split. lia. intros k Hk. rewrite <- Ht in ET. rewrite ET in E.
    destruct x as [x|x|x|x|x];
      cbn [fresh_vals vtype Z.eqb TMPZ TMPQ TMPFR TINT TDBL Pos.eqb slip_cast_array] in E; simpl in Hn.
    all: match type of E with context [conv_loop ?n ?f ?x ?y] => destruct (conv_loop n f x y) as [y1| | |] eqn:E1; try discriminate end.
    all: cbn [bind] in E; injection E as <- <-.
    + destruct (conv_loop_inv 0 0 _ _ _ (proj1 Hn) E1) as (_ & _ & _ & I & _). specialize (I k Hk). injection I as I. unfold cell. fold (rdg 0 x k) (rdg 0 y1 k). rewrite <- I. auto.
    + destruct (conv_loop_inv 0%Q 0%Q _ _ _ (proj1 Hn) E1) as (_ & _ & _ & I & _). specialize (I k Hk). injection I as I. unfold cell. fold (rdg 0%Q x k) (rdg 0%Q y1 k). rewrite <- I. auto.
    + destruct (conv_loop_inv FNan FNan _ _ _ (proj1 Hn) E1) as (_ & _ & _ & I & _). specialize (I k Hk). injection I as I. unfold cell. fold (rdg FNan x k) (rdg FNan y1 k). rewrite <- I.
      split; auto. symmetry. now apply nonzero_rnd.
    + destruct (conv_loop_inv 0 0 _ _ _ (proj1 Hn) E1) as (_ & _ & _ & I & _). specialize (I k Hk). injection I as I. unfold cell. fold (rdg 0 x k) (rdg 0 y1 k). rewrite <- I. auto.
    + destruct (conv_loop_inv (FFin 0 0) (FFin 0 0) _ _ _ (proj1 Hn) E1) as (_ & _ & _ & I & _). specialize (I k Hk). injection I as I. unfold cell. fold (rdg (FFin 0 0) x k) (rdg (FFin 0 0) y1 k). rewrite <- I. auto.
  - exists yx. rewrite alloc_ok by (auto; try lia; vm_compute; split; discriminate). cbn [bind m_x m_scale Z.eqb KDENSE Pos.eqb].
    rewrite Z.mul_1_r, Hx. unfold cast_array_ptr. rewrite E. cbn [bind fst snd]. split; auto. split; auto. split. lia.
    intros k Hk. split; auto. unfold stored. destruct (cell yx k) eqn:EC; auto. destruct yx as [l|l|l|l|l]; try discriminate.
    simpl in EC. injection EC as EC. f_equal. rewrite <- EC. apply (S4 l k); auto.
Qed.

(*----------------------------------------------------------------------------*)
(* kind conversions *)
Lemma copy_unfold o addr A nz x ck T : stores A nz x -> is_type T -> KCSC <= ck <= KDENSE ->
  matrix_copy o addr true true ck T (Some A) =
        if ck =? KCSC then
          if m_kind A =? KCSC then copy_csc_csc o addr T A nz
          else if m_kind A =? KTRIP then copy_trip_csc o addr T A nz
          else copy_dense_csc o addr T A nz
        else if ck =? KTRIP then
          if m_kind A =? KCSC then copy_csc_trip o addr T A nz
          else if m_kind A =? KTRIP then copy_trip_trip o addr T A nz
          else copy_dense_trip o addr T A nz
        else
          if m_kind A =? KCSC then copy_csc_dense o addr T A nz
          else if m_kind A =? KTRIP then copy_trip_dense o addr T A nz
          else copy_dense_dense o addr T A nz.
Proof.
  intros HS HT HK. destruct (stores_facts HS) as (Hz & Hn & Hx & Ht & Hm & Hnn).
  unfold matrix_copy. cbn [negb]. rewrite Hz. cbn [bind negb orb].
  pose proof (vtype_is x) as HX. rewrite Ht in HX. unfold is_type in HX, HT.
  destruct (Z.ltb_spec nz 0), (Z.ltb_spec (m_type A) TMPZ), (Z.gtb_spec (m_type A) TDBL), (Z.ltb_spec T TMPZ), (Z.gtb_spec T TDBL),
    (Z.ltb_spec ck KCSC), (Z.gtb_spec ck KDENSE); try lia. reflexivity.
Qed.

Lemma find_col p n q : rd p 0 = 0 -> 0 <= n -> 0 <= q < rd p n -> exists c, 0 <= c < n /\ rd p c <= q < rd p (c + 1).
Proof.
  intros H0 Hn Hq.
  assert (G : forall m, Z.of_nat m <= n -> rd p (Z.of_nat m) <= q \/ exists c, 0 <= c < n /\ rd p c <= q < rd p (c + 1)).
  { induction m; intros Hm. { left. simpl. lia. }
    destruct (IHm ltac:(lia)) as [IH|IH]; auto. destruct (Z_le_dec (rd p (Z.of_nat (S m))) q); auto.
    right. exists (Z.of_nat m). replace (Z.of_nat (S m)) with (Z.of_nat m + 1) in * by lia. split; lia. }
  destruct (G (Z.to_nat n)) as [G1|G1]; auto; rewrite ?Z2Nat.id in * by lia; lia.
Qed.

(* the five element types *)
Inductive elem : forall T : Type, T -> (T -> bool) -> (option options -> T -> T) -> (list T -> vals) -> (T -> num) -> Z -> Prop :=
| elZ : @elem Z 0 nzZ (fun _ v => v) VZ NZ TMPZ
| elQ : @elem Q 0%Q nzQ (fun _ v => v) VQ NQ TMPQ
| elR : @elem fl FNan nzR (fun o => rnd_fl (opt_round o) (opt_prec o)) VR NR TMPFR
| elI : @elem Z 0 nzZ (fun _ v => v) VI NI TINT
| elD : @elem fl (FFin 0 0) nzD (fun _ v => v) VD ND TDBL.
Lemma elem_of v : exists T d nzb set1 V N (y : list T), @elem T d nzb set1 V N (vtype v) /\ v = V y.
Proof.
  destruct v.
  - exists Z, 0, nzZ, (fun _ v => v), VZ, NZ, l. split; [constructor|auto].
  - exists Q, 0%Q, nzQ, (fun _ v => v), VQ, NQ, l. split; [constructor|auto].
  - exists fl, FNan, nzR, (fun o => rnd_fl (opt_round o) (opt_prec o)), VR, NR, l. split; [constructor|auto].
  - exists Z, 0, nzZ, (fun _ v => v), VI, NI, l. split; [constructor|auto].
  - exists fl, (FFin 0 0), nzD, (fun _ v => v), VD, ND, l. split; [constructor|auto].
Qed.
Lemma elem_cell T d nzb set1 V N t (y : list T) k : @elem T d nzb set1 V N t -> cell (V y) k = N (rdg d y k).
Proof. intros H. revert y. destruct H; reflexivity. Qed.
Lemma elem_len T d nzb set1 V N t (y : list T) : @elem T d nzb set1 V N t -> vlen (V y) = zlen y.
Proof. intros H. revert y. destruct H; reflexivity. Qed.
Lemma elem_vtype T d nzb set1 V N t (y : list T) : @elem T d nzb set1 V N t -> vtype (V y) = t.
Proof. intros H. revert y. destruct H; reflexivity. Qed.
Lemma elem_stored T d nzb set1 V N t o (v : T) : @elem T d nzb set1 V N t -> stored o (N v) = N (set1 o v).
Proof. intros H. revert v. destruct H; reflexivity. Qed.
Lemma elem_nz T d nzb set1 V N t (v : T) : @elem T d nzb set1 V N t -> nonzero (N v) = nzb v.
Proof. intros H. revert v. destruct H; intros v; try reflexivity; destruct v; reflexivity. Qed.
Lemma elem_fresh T d nzb set1 V N t n : @elem T d nzb set1 V N t -> fresh_vals t n = V (mk n d).
Proof. intros []; reflexivity. Qed.
Lemma elem_on T d nzb set1 V N t o R (y c : list T) f : @elem T d nzb set1 V N t -> @on_vals R o (V y) (V c) f = f T nzb (set1 o) y c V.
Proof. intros H. revert y c. destruct H; reflexivity. Qed.

Lemma csc_column_seg T d nzb set1 V N t p i (y : list T) c : @elem T d nzb set1 V N t ->
  csc_column p i (V y) c = map (fun '(r, v) => (r, N v)) (seg d i y (rd p c) (rd p (c + 1))).
Proof. intros HE. unfold csc_column, seg. rewrite map_map. apply map_ext. intros q. now rewrite (elem_cell y q HE). Qed.

Theorem trip_to_csc_copy o addr A ti tj x T yx s : trip_ok A ti tj x -> is_type T -> 1 <= opt_prec o -> converted o addr T A yx s ->
  exists C p i cx, matrix_copy o addr true true KCSC T (Some A) = Ok C /\ csc_ok C p i cx /\
    m_m C = m_m A /\ m_n C = m_n A /\ m_type C = T /\ rd p (m_n A) = m_nz A /\ m_nzmax C = Z.max (m_nz A) 1 /\ m_nz C = 0 /\
    m_scale C = (if T =? m_type A then 1%Q else s) /\
    forall c, 0 <= c < m_n A -> csc_column p i cx c = trip_column (m_nz A) ti tj yx c.
Proof.
  intros OK HT Hp HC.
  assert (HS : stores A (m_nz A) x) by (right; left; exists ti, tj; auto).
  destruct (cast_source HS HT Hp HC) as (Y1 & Y2 & v & Ev & Tv & Lv & Cv).
  rewrite (copy_unfold o addr HS HT (ck := KCSC)) by (vm_compute; split; discriminate).
  dtrip OK. rewrite to_kind'. cbn [Z.eqb KCSC KTRIP KDENSE Pos.eqb]. unfold copy_trip_csc. rewrite Ev. cbn [bind fst snd deref].
  rewrite alloc_ok by (auto; vm_compute; split; discriminate). cbn [bind m_p m_i m_x m_scale Z.eqb KCSC KTRIP KDENSE deref Pos.eqb].
  rewrite to_i', to_j'. cbn [deref bind].
  destruct (elem_of v) as (E & d & nzb & set1 & V & N & y & HE & ->). rewrite Tv in HE.
  rewrite (elem_fresh _ HE). rewrite (elem_on o _ _ _ HE). rewrite (elem_len y HE) in Lv.
  destruct (wp_ok_ex _ _ (@trip_to_csc_spec E d (set1 o) (m_n A) (m_nz A) ti tj y (mk (m_n A + 1) 0) (mk (Z.max (m_nz A) 1) 0) (mk (Z.max (m_nz A) 1) d) nerr
    to_n' to_nz' to_capi' to_capj' Lv to_col' ltac:(rewrite zlen_mk; lia) ltac:(rewrite zlen_mk; lia) ltac:(rewrite zlen_mk; lia)))
    as ([[p i] cx] & -> & P1 & P2 & P3 & P4 & P5 & P6 & P7).
  cbn [bind]. eexists _, p, i, (V cx). split; [reflexivity|].
  assert (HCol : forall c, 0 <= c < m_n A -> csc_column p i (V cx) c = trip_column (m_nz A) ti tj yx c).
  { intros c Hc. rewrite (csc_column_seg _ _ _ _ HE), P7 by auto. unfold trip_column. rewrite map_map. apply map_ext_in.
    intros k Hk. apply filter_In in Hk. destruct Hk as [Hk _]. apply in_zseq in Hk. destruct (Cv k Hk) as [C1 _].
    rewrite <- C1, (elem_cell y k HE), (elem_stored o _ HE). reflexivity. }
  split; [|split; [reflexivity|split; [reflexivity|split; [reflexivity|split; [exact P5|split; [reflexivity|split; [reflexivity|split; [reflexivity|exact HCol]]]]]]]].
  rewrite zlen_mk in * by lia.
  constructor; simpl; auto; rewrite ?P5, ?(elem_len cx HE), ?P2, ?P3, ?(elem_vtype cx HE); auto; try lia.
  intros q Hq. destruct (@find_col p (m_n A) q P4 to_n' ltac:(rewrite P5; simpl in Hq; rewrite ?P5 in Hq; lia)) as (c & Hc & Hqc).
  assert (In (rd i q, cell (V cx) q) (csc_column p i (V cx) c)).
  { unfold csc_column. apply (in_map (fun q => (rd i q, cell (V cx) q))). apply in_zseq. lia. }
  rewrite HCol in H by auto. unfold trip_column in H. apply in_map_iff in H. destruct H as (k & [= <- _] & Hk).
  apply filter_In in Hk. destruct Hk as [Hk _]. apply in_zseq in Hk. apply to_row'. auto.
Qed.

Lemma cnt_ext f g n : (forall k, 0 <= k < n -> f k = g k) -> cnt f n = cnt g n.
Proof. 
  intros H. destruct (Z_le_dec n 0). { unfold cnt. now rewrite zseq_nil by lia. }
  assert (0 <= n) by lia. revert n H0 H n0. apply (natlike_ind (fun n => (forall k, 0 <= k < n -> f k = g k) -> ~ n <= 0 -> cnt f n = cnt g n)).
  - lia.
  - intros n Hn IH H _. replace (Z.succ n) with (n + 1) in * by lia. rewrite !cnt_S by lia. rewrite H by lia.
    destruct (Z.eq_dec n 0) as [->|]. reflexivity. rewrite IH; auto; try lia. intros; apply H; lia.
Qed.

Theorem dense_to_csc_copy o addr A x T yx s : dense_ok A x -> is_type T -> 1 <= opt_prec o -> converted o addr T A yx s ->
  exists C p i cx, matrix_copy o addr true true KCSC T (Some A) = Ok C /\ csc_ok C p i cx /\
    m_m C = m_m A /\ m_n C = m_n A /\ m_type C = T /\ rd p (m_n A) = dense_count A yx /\ m_nzmax C = Z.max (dense_count A yx) 1 /\ m_nz C = 0 /\
    m_scale C = (if T =? m_type A then 1%Q else s) /\
    forall c, 0 <= c < m_n A -> csc_column p i cx c = dense_column (m_m A) yx c.
Proof.
  intros OK HT Hp HC. set (nz := m_m A * m_n A).
  assert (HS : stores A nz x) by (right; right; auto).
  destruct (cast_source HS HT Hp HC) as (Y1 & Y2 & v & Ev & Tv & Lv & Cv).
  rewrite (copy_unfold o addr HS HT (ck := KCSC)) by (vm_compute; split; discriminate).
  ddense OK. rewrite do_kind'. cbn [Z.eqb KCSC KTRIP KDENSE Pos.eqb]. unfold copy_dense_csc. rewrite Ev. cbn [bind fst snd deref].
  destruct (elem_of v) as (E & d & nzb & set1 & V & N & y & HE & ->). rewrite Tv in HE.
  rewrite (elem_on o _ _ _ HE). rewrite (elem_len y HE) in Lv. assert (0 <= nz) by (unfold nz; nia).
  destruct (wp_ok_ex _ _ (@count_nz_spec E d nzb nz y nerr ltac:(lia))) as (ac & -> & Hac). cbn [bind].
  assert (Hac' : ac = dense_count A yx).
  { rewrite Hac. apply cnt_ext. intros k Hk. destruct (Cv k Hk) as [_ C2]. rewrite <- C2, (elem_cell y k HE), (elem_nz _ HE). auto. }
  pose proof (cnt_nonneg (fun k => nzb (rdg d y k)) nz) as Hac0. rewrite <- Hac in Hac0.
  rewrite alloc_ok by (auto; vm_compute; split; discriminate). cbn [bind m_p m_i m_x m_scale Z.eqb KCSC KTRIP KDENSE deref Pos.eqb].
  rewrite (elem_fresh _ HE). rewrite (elem_on o _ _ _ HE).
  destruct (wp_ok_ex _ _ (@dense_to_csc_spec E d (set1 o) nzb (m_m A) (m_n A) y (mk (m_n A + 1) 0) (mk (Z.max ac 1) 0) (mk (Z.max ac 1) d) nerr
    do_m' do_n' Lv ltac:(rewrite zlen_mk; lia) ltac:(fold nz; rewrite zlen_mk, <- Hac; lia) ltac:(fold nz; rewrite zlen_mk, <- Hac; lia)))
    as ([[p i] cx] & -> & P1 & P2 & P3 & P4 & P5).
  cbn [bind]. eexists _, p, i, (V cx). split; [reflexivity|].
  assert (Hidx : forall r c, 0 <= r < m_m A -> 0 <= c < m_n A -> 0 <= r + c * m_m A < nz) by (intros; unfold nz; nia).
  assert (HCol : forall c, 0 <= c < m_n A -> csc_column p i (V cx) c = dense_column (m_m A) yx c).
  { intros c Hc. rewrite (csc_column_seg _ _ _ _ HE), P5 by auto. unfold dense_column. rewrite map_map.
    assert (F : filter (fun i0 => nzb (rdg d y (i0 + c * m_m A))) (zseq 0 (m_m A)) = filter (fun r => nonzero (cell yx (r + c * m_m A))) (zseq 0 (m_m A))).
    { apply filter_ext_in. intros r Hr. apply in_zseq in Hr. destruct (Cv (r + c * m_m A) ltac:(auto)) as [_ C2].
      rewrite <- C2, (elem_cell y _ HE), (elem_nz _ HE). auto. }
    rewrite F. apply map_ext_in. intros r Hr. apply filter_In in Hr. destruct Hr as [Hr _]. apply in_zseq in Hr.
    destruct (Cv (r + c * m_m A) ltac:(auto)) as [C1 _]. rewrite <- C1, (elem_cell y _ HE), (elem_stored o _ HE). reflexivity. }
  assert (Pn : rd p (m_n A) = ac). { rewrite P4 by lia. rewrite Hac. unfold nz. f_equal. lia. }
  split; [|split; [reflexivity|split; [reflexivity|split; [reflexivity|split; [rewrite Pn; auto|split; [simpl; now rewrite Hac'|split; [reflexivity|split; [reflexivity|exact HCol]]]]]]]].
  rewrite zlen_mk in * by lia.
  assert (P0 : rd p 0 = 0) by (rewrite P4 by lia; apply cnt_0).
  constructor; simpl; auto; rewrite ?Pn, ?(elem_len cx HE), ?P2, ?P3, ?(elem_vtype cx HE); auto; try lia.
  { intros c Hc. rewrite !P4 by lia. apply cnt_mono; nia. }
  intros q Hq. destruct (@find_col p (m_n A) q P0 do_n' ltac:(lia)) as (c & Hc & Hqc).
  assert (I : In (rd i q, cell (V cx) q) (csc_column p i (V cx) c)).
  { unfold csc_column. apply (in_map (fun q => (rd i q, cell (V cx) q))). apply in_zseq. lia. }
  rewrite HCol in I by auto. unfold dense_column in I. apply in_map_iff in I. destruct I as (k & [= <- _] & Hk).
  apply filter_In in Hk. destruct Hk as [Hk _]. apply in_zseq in Hk. auto.
Qed.

(* CSC to triplet: column c of the result is column c of A, and the entries keep their positions *)
Theorem csc_to_trip_copy o addr A p i x T yx s : csc_ok A p i x -> is_type T -> 1 <= opt_prec o -> converted o addr T A yx s ->
  exists C ti tj, matrix_copy o addr true true KTRIP T (Some A) = Ok C /\ trip_ok C ti tj yx /\
    m_m C = m_m A /\ m_n C = m_n A /\ m_type C = T /\ m_nz C = rd p (m_n A) /\ m_nzmax C = Z.max (rd p (m_n A)) 1 /\
    m_scale C = s /\ zlen ti = m_nzmax C /\ zlen tj = m_nzmax C /\
    (forall q, 0 <= q < rd p (m_n A) -> rd ti q = rd i q) /\
    (forall c q, 0 <= c < m_n A -> rd p c <= q < rd p (c + 1) -> rd tj q = c).
Proof.
  intros OK HT Hp HC. set (nz := rd p (m_n A)).
  assert (HS : stores A nz x) by (left; eauto).
  pose proof (converted_inv HS HT HC) as E. destruct (stores_facts HS) as (Hz & Hn & Hx & Ht & Hm & Hnn).
  destruct (@cast_array_shape o addr _ _ nz _ _ _ _ (proj1 Hn) Hp E) as (S1 & S2 & S3 & S4). rewrite fresh_type in S1 by auto. rewrite fresh_len in S2, S3 by lia.
  rewrite (copy_unfold o addr HS HT (ck := KTRIP)) by (vm_compute; split; discriminate).
  dcsc OK. rewrite co_kind'. cbn [Z.eqb KCSC KTRIP KDENSE Pos.eqb]. unfold copy_csc_trip.
  rewrite alloc_ok by (auto; vm_compute; split; discriminate). cbn [bind m_p m_i m_j m_x m_scale Z.eqb KCSC KTRIP KDENSE deref Pos.eqb].
  rewrite co_x'. unfold cast_array_ptr. rewrite E. cbn [bind fst snd]. rewrite co_p', co_i'. cbn [deref bind].
  destruct (wp_ok_ex _ _ (@memcpy_spec Z 0 (mk (Z.max nz 1) 0) i nz nerr ltac:(lia) ltac:(rewrite zlen_mk; lia) ltac:(unfold nz; lia))) as (i' & -> & I1 & I2 & _). cbn [bind].
  destruct (wp_ok_ex _ _ (@csc_to_cols_spec (m_n A) p (mk (Z.max nz 1) 0) nerr co_n' ltac:(lia) co_0' (mono_le _ co_mono') ltac:(rewrite zlen_mk; unfold nz; lia)))
    as (j' & -> & J1 & J2). cbn [bind]. rewrite zlen_mk in * by lia.
  eexists _, i', j'. split; [reflexivity|]. simpl. fold nz.
  split; [|repeat (split; [reflexivity|]); auto].
  constructor; simpl; auto; try lia.
  - intros k Hk. change (rd i' k) with (rdg 0 i' k). rewrite I2 by auto. apply co_row'. auto.
  - intros k Hk. destruct (@find_col p (m_n A) k co_0' co_n' ltac:(auto)) as (c & Hc & Hqc). rewrite (J2 c k) by auto. auto.
Qed.

(* what an element of a freshly allocated array holds: NaN for mpfr_t, zero for the others *)
Definition fresh_of (T : Z) : num := if T =? TMPFR then NR FNan else zero_of T.
Lemma elem_freshof T d nzb set1 V N t : @elem T d nzb set1 V N t -> N d = fresh_of t.
Proof. intros H. destruct H; reflexivity. Qed.

Theorem csc_to_dense_copy o addr A p i x T yx s : csc_ok A p i x -> is_type T -> 1 <= opt_prec o -> converted o addr T A yx s ->
  exists C cx, matrix_copy o addr true true KDENSE T (Some A) = Ok C /\ dense_ok C cx /\
    m_m C = m_m A /\ m_n C = m_n A /\ m_type C = T /\ m_nzmax C = Z.max (m_m A * m_n A) 1 /\
    m_scale C = (if T =? m_type A then 1%Q else s) /\
    (forall c q, 0 <= c < m_n A -> rd p c <= q < rd p (c + 1) -> (forall q', q < q' < rd p (c + 1) -> rd i q' <> rd i q) ->
       cell cx (rd i q + c * m_m A) = cell yx q) /\
    (forall r c, 0 <= r < m_m A -> 0 <= c < m_n A -> (forall q, rd p c <= q < rd p (c + 1) -> rd i q <> r) ->
       cell cx (r + c * m_m A) = fresh_of T).
Proof.
  intros OK HT Hp HC. set (nz := rd p (m_n A)).
  assert (HS : stores A nz x) by (left; eauto).
  destruct (cast_source HS HT Hp HC) as (Y1 & Y2 & v & Ev & Tv & Lv & Cv). destruct (stores_facts HS) as (Hz & Hn & _).
  rewrite (copy_unfold o addr HS HT (ck := KDENSE)) by (vm_compute; split; discriminate).
  dcsc OK. rewrite co_kind'. cbn [Z.eqb KCSC KTRIP KDENSE Pos.eqb]. unfold copy_csc_dense.
  rewrite alloc_ok by (auto; vm_compute; split; discriminate). cbn [bind m_p m_i m_x m_scale Z.eqb KCSC KTRIP KDENSE deref Pos.eqb].
  rewrite Ev. cbn [bind fst snd deref].
  rewrite co_p', co_i'. cbn [deref bind].
  destruct (elem_of v) as (E & d & nzb & set1 & V & N & y & HE & ->). rewrite Tv in HE.
  rewrite (elem_fresh _ HE). rewrite (elem_on o _ _ _ HE). rewrite (elem_len y HE) in Lv.
  set (mn := m_m A * m_n A). assert (0 <= mn) by (unfold mn; nia).
  destruct (wp_ok_ex _ _ (@csc_to_dense_spec E d (set1 o) (m_m A) (m_n A) p i y (mk (Z.max mn 1) d) nerr
    co_m' co_n' ltac:(lia) co_0' (mono_le _ co_mono') ltac:(auto) Lv co_row' ltac:(fold mn; rewrite zlen_mk; lia)))
    as (cx & -> & P1 & P2 & P3).
  cbn [bind]. rewrite zlen_mk in * by lia. assert (m0 : forall a b, a <= b -> 0 <= a -> b <= m_n A -> rd p a <= rd p b) by (intros; apply (mono_le _ co_mono'); lia).
  eexists _, (V cx). split; [reflexivity|]. simpl. split; [|split; [reflexivity|split; [reflexivity|split; [reflexivity|split; [reflexivity|split; [reflexivity|split]]]]]].
  - constructor; simpl; auto. apply (elem_vtype cx HE). rewrite (elem_len cx HE). fold mn. lia.
  - intros c q Hc Hq Hl. rewrite (elem_cell cx _ HE). pose proof (P2 c q Hc Hq Hl) as P. unfold ix in P. rewrite P.
    pose proof (m0 (c + 1) (m_n A) ltac:(lia) ltac:(lia) ltac:(lia)). pose proof (m0 0 c ltac:(lia) ltac:(lia) ltac:(lia)).
    destruct (Cv q ltac:(unfold nz; lia)) as [C1 _]. rewrite <- C1, (elem_cell y q HE), (elem_stored o _ HE). reflexivity.
  - intros r c Hr Hc Hl. rewrite (elem_cell cx _ HE). pose proof (P3 r c Hr Hc Hl) as P. unfold ix in P. rewrite P.
    rewrite rdg_mk by nia. apply (elem_freshof HE).
Qed.

Theorem trip_to_dense_copy o addr A ti tj x T yx s : trip_ok A ti tj x -> is_type T -> 1 <= opt_prec o -> converted o addr T A yx s ->
  exists C cx, matrix_copy o addr true true KDENSE T (Some A) = Ok C /\ dense_ok C cx /\
    m_m C = m_m A /\ m_n C = m_n A /\ m_type C = T /\ m_nzmax C = Z.max (m_m A * m_n A) 1 /\
    m_scale C = (if T =? m_type A then 1%Q else s) /\
    (forall k, 0 <= k < m_nz A -> (forall k', k < k' < m_nz A -> ~ (rd ti k' = rd ti k /\ rd tj k' = rd tj k)) ->
       cell cx (rd ti k + rd tj k * m_m A) = cell yx k) /\
    (forall r c, 0 <= r < m_m A -> 0 <= c < m_n A -> (forall k, 0 <= k < m_nz A -> ~ (rd ti k = r /\ rd tj k = c)) ->
       cell cx (r + c * m_m A) = fresh_of T).
Proof.
  intros OK HT Hp HC. set (nz := m_nz A).
  assert (HS : stores A nz x) by (right; left; exists ti, tj; auto).
  destruct (cast_source HS HT Hp HC) as (Y1 & Y2 & v & Ev & Tv & Lv & Cv). destruct (stores_facts HS) as (Hz & Hn & _).
  rewrite (copy_unfold o addr HS HT (ck := KDENSE)) by (vm_compute; split; discriminate).
  dtrip OK. rewrite to_kind'. cbn [Z.eqb KCSC KTRIP KDENSE Pos.eqb]. unfold copy_trip_dense.
  rewrite alloc_ok by (auto; vm_compute; split; discriminate). cbn [bind m_p m_i m_j m_x m_scale Z.eqb KCSC KTRIP KDENSE deref Pos.eqb].
  rewrite Ev. cbn [bind fst snd deref].
  rewrite to_i', to_j'. cbn [deref bind].
  destruct (elem_of v) as (E & d & nzb & set1 & V & N & y & HE & ->). rewrite Tv in HE.
  rewrite (elem_fresh _ HE). rewrite (elem_on o _ _ _ HE). rewrite (elem_len y HE) in Lv.
  set (mn := m_m A * m_n A). assert (0 <= mn) by (unfold mn; nia).
  destruct (wp_ok_ex _ _ (@trip_to_dense_spec E d (set1 o) (m_m A) (m_n A) nz ti tj y (mk (Z.max mn 1) d) nerr
    to_m' to_n' to_nz' to_capi' to_capj' Lv to_row' to_col' ltac:(fold mn; rewrite zlen_mk; lia)))
    as (cx & -> & P1 & P2 & P3).
  cbn [bind]. rewrite zlen_mk in * by lia.
  eexists _, (V cx). split; [reflexivity|]. simpl. split; [|split; [reflexivity|split; [reflexivity|split; [reflexivity|split; [reflexivity|split; [reflexivity|split]]]]]].
  - constructor; simpl; auto. apply (elem_vtype cx HE). rewrite (elem_len cx HE). fold mn. lia.
  - intros k Hk Hl. rewrite (elem_cell cx _ HE). pose proof (P2 k Hk Hl) as P. unfold ix in P. rewrite P.
    destruct (Cv k ltac:(auto)) as [C1 _]. rewrite <- C1, (elem_cell y k HE), (elem_stored o _ HE). reflexivity.
  - intros r c Hr Hc Hl. rewrite (elem_cell cx _ HE). pose proof (P3 r c Hr Hc Hl) as P. unfold ix in P. rewrite P.
    rewrite rdg_mk by nia. apply (elem_freshof HE).
Qed.

(* the same-kind copy *)
Theorem same_kind_copy o addr A nz x T yx s : stores A nz x -> is_type T -> converted o addr T A yx s ->
  exists Y, matrix_copy o addr true true (m_kind A) T (Some A) = Ok Y /\ m_x Y = Some yx /\ m_scale Y = s /\
    m_type Y = T /\ m_nzmax Y = Z.max nz 1 /\ same_pattern A Y nz.
Proof.
  intros HS HT HC. pose proof (converted_inv HS HT HC) as E. pose proof (@copy_same_eq o addr A nz x T HS HT) as H. rewrite E in H. auto.
Qed.

(* a copy of the same type and kind keeps the numbers, rounded to the working precision for mpfr_t; the scale of mpz matrices is kept *)
Theorem same_type_values o addr A nz x : stores A nz x -> exists yx,
  converted o addr (m_type A) A yx (if m_type A =? TMPZ then m_scale A else 1%Q) /\
  forall k, 0 <= k < nz -> cell yx k = stored o (cell x k).
Proof.
  intros HS. destruct (stores_facts HS) as (Hz & Hn & Hx & Ht & Hm & Hnn).
  assert (HT : is_type (m_type A)) by (rewrite <- Ht; apply vtype_is).
  enough (exists yx, slip_cast_array o addr (fresh_vals (m_type A) (Z.max nz 1)) x nz 1 (m_scale A) = Ok (yx, if m_type A =? TMPZ then m_scale A else 1%Q) /\
    forall k, 0 <= k < nz -> cell yx k = stored o (cell x k)) as (yx & E & H).
  { exists yx. split; auto. apply (converted_intro o addr HS HT E). }
  rewrite <- Ht. destruct x as [x|x|x|x|x]; cbn [fresh_vals vtype Z.eqb TMPZ TMPQ TMPFR TINT TDBL Pos.eqb slip_cast_array]; simpl in Hn.
  all: match goal with |- context [conv_loop ?n ?f ?x (mk ?m ?d)] =>
    destruct (wp_ok_ex _ _ (@conv_loop_spec _ _ d d n f x (mk m d) nerr ltac:(lia) ltac:(lia) ltac:(rewrite zlen_mk; lia) ltac:(intros; exact I))) as (y & -> & G1 & G2 & _) end;
  cbn [bind]; eexists; (split; [reflexivity|]); intros k Hk; specialize (G2 k Hk); injection G2 as G2; unfold cell.
  - change (nth (Z.to_nat k) y 0) with (rdg 0 y k). now rewrite <- G2.
  - change (nth (Z.to_nat k) y 0%Q) with (rdg 0%Q y k). now rewrite <- G2.
  - change (nth (Z.to_nat k) y FNan) with (rdg FNan y k). now rewrite <- G2.
  - change (nth (Z.to_nat k) y 0) with (rdg 0 y k). now rewrite <- G2.
  - change (nth (Z.to_nat k) y (FFin 0 0)) with (rdg (FFin 0 0) y k). now rewrite <- G2.
Qed.
