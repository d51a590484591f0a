(* C21: the objects given to SLIP_LU_solve are inputs only.  Stated on the store model (MStore.v), where the functions work on
   handles and modify cells in place. *)
From Verif Require Import Base DetZ Spec MFactor MSolve MMatrix MApi ApiSpec PPivot PApi PropLU PropLU2 Check MStore PStore PStore2.
Set Implicit Arguments.
Open Scope Z_scope.
Set Bullet Behavior "Strict Subproofs".

(* the object behind handle k, if any *)
Definition object (s : store) (k : nat) : option obj := match nth_error s k with Some c => c | None => None end.

(* Whatever the arguments (aliased, malformed, NULL), whatever the outcome: every object that existed before the call is the same
   object with the same contents after it. *)
Theorem C21_arguments_unchanged : forall inited handle b A L U rhos An pinv o s r s',
  s_LU_solve inited handle b A L U rhos An pinv o s = (r, s') -> forall k, (k < length s)%nat -> object s' k = object s k.
Proof.
  intros inited handle b A L U rhos An pinv o s r s' E k Hk.
  assert (H : (length s <= length s')%nat /\ firstn (length s) s' = firstn (length s) s).
  { revert E. unfold s_LU_solve.
    repeat match goal with |- (if ?c then _ else _) = _ -> _ => destruct c; [intros [= _ <-]; split; auto|] end.
    destruct (mat_at s b), (mat_at s A), (mat_at s L), (mat_at s U), An as [hS|], pinv as [hp|]; try (intros [= _ <-]; split; auto; fail).
    match goal with |- (if ?c then _ else _) = _ -> _ => destruct c; [intros [= _ <-]; split; auto|] end.
    destruct b, A, L, U, rhos; try (intros [= _ <-]; split; auto; fail).
    match goal with |- match s_solve_body ?b ?A ?L ?U ?r ?S ?p ?c s with _ => _ end = _ -> _ =>
      destruct (@fr_body (length s) b A L U r S p c s (le_n _)) as (H1 & H2 & _); destruct (s_solve_body b A L U r S p c s) as [[]  s1] end;
      intros [= _ <-]; auto. }
  destruct H as [H1 H2]. unfold object. 
  rewrite <- (firstn_skipn (length s) s'). rewrite nth_error_app1 by (rewrite firstn_length; lia).
  rewrite H2, firstn_all. reflexivity.
Qed.

(* the value behind a pointer argument *)
Definition an_at (s : store) (h : option nat) : option analysis := match h with Some h => match nth_error s h with Some (Some (OS a)) => Some a | _ => None end | None => None end.
Definition arr_at (s : store) (h : option nat) : option (list Z) := match h with Some h => match nth_error s h with Some (Some (OA a)) => Some a | _ => None end | None => None end.
(* NULL, or an existing object of the right sort *)
Definition ptr_ok {A} (at_ : store -> option nat -> option A) (s : store) (h : option nat) : Prop := h = None \/ at_ s h <> None.
(* the call creates no object other than the one it returns, and leaves none of its temporaries behind *)
Definition only_new (s s' : store) (keep : option nat) : Prop :=
  forall k, (length s <= k)%nat -> Some k <> keep -> object s' k = None.

Lemma floop_len T (F : Z -> list T -> res (list T)) : (forall i x y, F i x = Ok y -> zlen y = zlen x) ->
  forall c lo x y, floop c lo F x = Ok y -> zlen y = zlen x.
Proof.
  intros HF. induction c; simpl; intros lo x y. congruence. destruct (F lo x) eqn:E; cbn [bind]; try discriminate.
  intros Hy. rewrite (IHc _ _ _ Hy). eauto.
Qed.
Lemma set_len T (l l' : list T) k v : set l k v = Ok l' -> zlen l' = zlen l.
Proof. intros H. destruct (set_ok_inv _ _ _ H) as [_ ->]. apply zlen_upd. Qed.
Lemma solve_core_len nl m n Ap Ai Ax sA b sB F q ck X : solve_core nl m n Ap Ai Ax sA b sB F q ck = Ok X -> zlen X = Z.max (m * n) 1.
Proof.
  unfold solve_core. destruct ((m <? 0) || (n <? 0)); [discriminate|].
  destruct (slip_permute_b _ _ _ _); cbn [bind]; try discriminate. destruct (slip_forward_sub _ _ _ _ _ _ _); cbn [bind]; try discriminate.
  destruct (get _ _); cbn [bind]; try discriminate. destruct (slip_matrix_mul _ _ _); cbn [bind]; try discriminate.
  destruct (slip_back_sub _ _ _ _ _ _); cbn [bind]; try discriminate. destruct (slip_matrix_div _ _ _); cbn [bind]; try discriminate.
  destruct (slip_permute_x _ _ _ _) as [x| | |] eqn:EX; cbn [bind]; try discriminate.
  assert (Hx : zlen x = Z.max (m * n) 1).
  { unfold slip_permute_x, for_ in EX. apply floop_len in EX. { rewrite EX. apply zlen_mk. lia. }
    intros i y y' Hy. apply floop_len in Hy; auto. intros j z z' Hz.
    repeat match type of Hz with bind ?m _ = _ => destruct m; cbn [bind] in Hz; try discriminate end. eapply set_len; eauto. }
  destruct (if ck then _ else _); cbn [bind]; try discriminate. destruct (mpq_div _ _); cbn [bind]; try discriminate.
  destruct (mpq_equal _ _). congruence. intros H. unfold for_ in H. apply floop_len in H. congruence.
  intros i y y' Hy. destruct (get _ _); cbn [bind] in Hy; try discriminate. eapply set_len; eauto.
Qed.

(* The store model computes exactly the result of the value model (to which the theorems of PropLU and PropLU2 apply), returns it
   in a new object, and leaves nothing else behind. *)
Theorem C21_computes_values : forall inited handle b A L U rhos An pinv o s st h,
  ptr_ok mat_at s b -> ptr_ok mat_at s A -> ptr_ok mat_at s L -> ptr_ok mat_at s U -> ptr_ok mat_at s rhos ->
  ptr_ok an_at s An -> ptr_ok arr_at s pinv ->
  SLIP_LU_solve inited handle (mat_at s b) (mat_at s A) (mat_at s L) (mat_at s U) (mat_at s rhos) (an_at s An) (arr_at s pinv) o = Ok (st, h) ->
  exists s', 
    match h with
    | Out X => exists k, s_LU_solve inited handle b A L U rhos An pinv o s = (Ok (st, Out k), s') /\ (length s <= k)%nat /\
                         object s' k = Some (OM X) /\ only_new s s' (Some k)
    | Kept => s_LU_solve inited handle b A L U rhos An pinv o s = (Ok (st, Kept), s') /\ only_new s s' None
    | Null => s_LU_solve inited handle b A L U rhos An pinv o s = (Ok (st, Null), s') /\ only_new s s' None
    end.
Proof.
  intros inited handle b A L U rhos An pinv o s st h Pb PA PL PU PR PS Pp.
  assert (ON : only_new s s None).
  { intros k Hk _. unfold object. rewrite (proj2 (nth_error_None s k)); auto. }
  unfold SLIP_LU_solve, s_LU_solve.
  destruct (negb inited). { intros [= <- <-]. exists s. auto. }
  assert (LV : forall h, ptr_ok mat_at s h -> live s h = true).
  { intros [k|] [H|H]; unfold live; auto; try discriminate. destruct (mat_at s (Some k)); congruence. }
  rewrite !LV by auto. cbn [andb negb].
  destruct (negb (has_kt (mat_at s b) KDENSE TMPZ && has_kt (mat_at s A) KCSC TMPZ && has_kt (mat_at s L) KCSC TMPZ && has_kt (mat_at s U) KCSC TMPZ
     && has_kt (mat_at s rhos) KDENSE TMPZ)) eqn:HK. { intros [= <- <-]. exists s. auto. }
  apply negb_false_iff in HK. rewrite !andb_true_iff in HK. destruct HK as ((((K1 & K2) & K3) & K4) & K5).
  assert (KT : forall h k t, has_kt (mat_at s h) k t = true -> exists i M, h = Some i /\ mat_at s h = Some M /\ nth_error s i = Some (Some (OM M)) /\ m_kind M = k /\ m_type M = t).
  { intros [i|] k t H; unfold has_kt, mat_at in *; try discriminate. destruct (nth_error s i) as [[[M| |]|]|] eqn:E; try discriminate.
    apply andb_true_iff in H. destruct H as [H1 H2]. apply Z.eqb_eq in H1, H2. exists i, M. auto. }
  destruct (KT _ _ _ K1) as (hb & MB & -> & EB & NB & KB & TB). destruct (KT _ _ _ K2) as (hA & MA & -> & EA & NA & KA & TA).
  destruct (KT _ _ _ K3) as (hL & ML & -> & EL & NL & KL & TL). destruct (KT _ _ _ K4) as (hU & MU & -> & EU & NU & KU & TU).
  destruct (KT _ _ _ K5) as (hr & MR & -> & ER & NR & KR & TR). rewrite EB, EA, EL, EU, ER.
  destruct An as [hS|]. 2:{ cbn [an_at]. intros [= <- <-]. exists s. auto. }
  destruct PS as [PS|PS]; [discriminate|]. unfold an_at in *. destruct (nth_error s hS) as [[[ | |An]|]|] eqn:NS; try congruence. clear PS.
  destruct pinv as [hp|]. 2:{ cbn [arr_at]. intros [= <- <-]. exists s. auto. }
  destruct Pp as [Pp|Pp]; [discriminate|]. unfold arr_at in *. destruct (nth_error s hp) as [[[|pv|]|]|] eqn:NP; try congruence. clear Pp.
  match goal with |- (if ?c then _ else _) = _ -> _ => destruct c eqn:Hd; [intros [= <- <-]; exists s; auto|] end.
  rewrite !orb_false_iff in Hd. destruct Hd as (((((D0 & D1) & D2) & D3) & D4) & D5).
  apply negb_false_iff, Z.eqb_eq in D1, D2, D3, D4, D5.
  destruct (m_p MA) as [Ap|] eqn:PAp; cbn [deref bind finish]; try discriminate. destruct (m_i MA) as [Ai|] eqn:PAi; cbn [deref bind finish]; try discriminate.
  unfold xmpz at 1. destruct (m_x MA) as [[Ax| | | |]|] eqn:PAx; cbn [bind finish]; try discriminate.
  destruct (m_p ML) as [Lp|] eqn:PLp; cbn [deref bind finish]; try discriminate. destruct (m_i ML) as [Li|] eqn:PLi; cbn [deref bind finish]; try discriminate.
  unfold xmpz at 1. destruct (m_x ML) as [[Lx| | | |]|] eqn:PLx; cbn [bind finish]; try discriminate.
  destruct (m_p MU) as [Up|] eqn:PUp; cbn [deref bind finish]; try discriminate. destruct (m_i MU) as [Ui|] eqn:PUi; cbn [deref bind finish]; try discriminate.
  unfold xmpz at 1. destruct (m_x MU) as [[Ux| | | |]|] eqn:PUx; cbn [bind finish]; try discriminate.
  unfold xmpz at 1. destruct (m_x MR) as [[rh| | | |]|] eqn:PRx; cbn [bind finish]; try discriminate.
  unfold xmpz at 1. destruct (m_x MB) as [[bx| | | |]|] eqn:PBx; cbn [bind finish]; try discriminate.
  pose proof (@body_run s hb hA hL hU hr hS hp MB MA ML MU MR Ap Ai Ax Lp Li Lx Up Ui Ux rh bx An pv (opt_check o) NB NA NL NU NR NS NP
     KB TB KA TA KL TL KU TU KR TR ltac:(congruence) PAp PAi PAx PLp PLi PLx PUp PUi PUx PRx PBx) as H.
  rewrite app_nil_r in H.
  assert (HO : forall l k, (length s <= k)%nat -> object (s ++ l) k = object l (k - length s)).
  { intros l k Hk. unfold object. rewrite nth_error_app2; auto. }
  destruct (solve_core _ _ _ _ _ _ _ _ _ _ _ _) as [X|e| |] eqn:EC; cbn [bind finish ends] in *; try discriminate; intros [= <- <-].
  - rewrite H. eexists. eexists. split; [reflexivity|]. split; [lia|]. split.
    + rewrite HO by lia. replace (length s + 3 - length s)%nat with 3%nat by lia. cbn [app object nth_error]. unfold dqm, dqM.
      rewrite <- (solve_core_len _ _ _ _ _ _ _ _ _ _ _ _ EC). reflexivity.
    + intros k Hk Hne. rewrite HO by lia. destruct (k - length s)%nat as [|[|[|[|[|j]]]]] eqn:Ek; cbn [app object nth_error]; auto.
      * exfalso. apply Hne. f_equal. lia.
      * unfold object. destruct (opt_check o); auto.
      * unfold object. destruct (opt_check o); auto; destruct j; auto.
  - destruct H as (dead & H & Hd). rewrite H. eexists. split; [reflexivity|]. intros k Hk _. rewrite HO by lia. unfold object.
    destruct (nth_error dead (k - length s)) eqn:E; auto. apply nth_error_In in E. rewrite Forall_forall in Hd. auto.
Qed.

(* One factorization, any number of solves, each with its own right-hand side and options. *)
Fixpoint solve_all (A L U rhos An pinv : nat) (reqs : list (nat * option options)) : sm (list (status * hdl nat)) :=
  match reqs with
  | [] => sret []
  | (b, o) :: reqs =>
      let# r := s_LU_solve true true (Some b) (Some A) (Some L) (Some U) (Some rhos) (Some An) (Some pinv) o in
      let# rs := solve_all A L U rhos An pinv reqs in sret (r :: rs)
  end.
(* every solve succeeds, the result for each right-hand side is its exact solution and is still so after all the later
   solves, and no object that was there before has changed: not A, L, U, rhos, pinv, the analysis, nor any right-hand side *)
Theorem C21_many_solves : forall env n A An o F (hA hL hU hR hS hP : nat) s reqs,
  int_csc n n A -> 1 <= n -> ~ (m_scale A == 0)%Q -> usable n An -> env_ok env (opt_pivot o) ->
  SLIP_LU_factorize env true true (Some A) (Some An) o = Ok (SOK, Out F) ->
  object s hA = Some (OM A) -> object s hL = Some (OM (lu_L F)) -> object s hU = Some (OM (lu_U F)) -> object s hR = Some (OM (lu_rhos F)) ->
  object s hS = Some (OS An) -> object s hP = Some (OA (lu_pinv F)) ->
  (forall b o', In (b, o') reqs -> exists B nrhs, object s b = Some (OM B) /\ int_dense n nrhs B /\ ~ (m_scale B == 0)%Q) ->
  exists hs s',
    solve_all hA hL hU hR hS hP reqs s = (Ok (map (fun h => (SOK, Out h)) hs), s') /\
    (forall k, (k < length s)%nat -> object s' k = object s k) /\
    Forall2 (fun req h => exists B X, object s (fst req) = Some (OM B) /\ object s' h = Some (OM X) /\
                                      rat_dense n (m_n B) X /\ solves n A B X) reqs hs.
Proof.
  intros env n A An o F hA hL hU hR hS hP s reqs IC Hn HsA US He EF. revert s.
  induction reqs as [|[b o1] reqs IH]; intros s OA_ OL OU OR OS_ OP HB.
  - exists [], s. split; [reflexivity|]. split; auto.
  - destruct (HB b o1 (or_introl eq_refl)) as (B & nrhs & OB & ID & HsB).
    assert (MT : forall k M, object s k = Some (OM M) -> mat_at s (Some k) = Some M).
    { intros k M. unfold object, mat_at. destruct (nth_error s k); try discriminate. intros ->. reflexivity. }
    assert (AT : an_at s (Some hS) = Some An). { revert OS_. unfold object, an_at. destruct (nth_error s hS); try discriminate. intros ->. reflexivity. }
    assert (PT : arr_at s (Some hP) = Some (lu_pinv F)). { revert OP. unfold object, arr_at. destruct (nth_error s hP); try discriminate. intros ->. reflexivity. }
    destruct (@solve_of_factors env n nrhs A B An o o1 F IC ID Hn HsA HsB US He EF) as (_ & X & EX & RX & SX).
    rewrite <- (MT _ _ OB), <- (MT _ _ OA_), <- (MT _ _ OL), <- (MT _ _ OU), <- (MT _ _ OR), <- AT, <- PT in EX.
    destruct (@C21_computes_values true true (Some b) (Some hA) (Some hL) (Some hU) (Some hR) (Some hS) (Some hP) o1 s SOK (Out X)) as (s1 & k & E1 & Hk & OX & ON); auto.
    1-5: right; erewrite MT by eauto; discriminate. 1-2: right; congruence.
    pose proof (C21_arguments_unchanged _ _ _ _ _ _ _ _ _ _ _ E1) as FR.
    assert (LT : forall k x, object s k = Some x -> (k < length s)%nat).
    { intros k' x Hx. apply nth_error_Some. unfold object in Hx. destruct (nth_error s k'); congruence. }
    assert (LTk : (k < length s1)%nat). { apply nth_error_Some. unfold object in OX. destruct (nth_error s1 k); congruence. }
    destruct (IH s1) as (hs & s2 & E2 & FR2 & F2); try (rewrite FR; eauto).
    { intros b' o' Hin. destruct (HB b' o' (or_intror Hin)) as (B' & nr' & OB' & ID' & HsB'). exists B', nr'. rewrite FR; eauto. }
    exists (k :: hs), s2. split; [|split].
    + cbn [solve_all]. rewrite (sb_ok _ _ _ E1). rewrite (sb_ok _ _ _ E2). reflexivity.
    + intros j Hj. rewrite FR2. apply FR; auto. clear - Hj Hk LTk. lia.
    + constructor.
      * exists B, X. split; auto. split. rewrite FR2; auto. split; auto. rewrite (id_n ID). auto.
      * assert (HB' : forall b' o', In (b', o') reqs -> exists B', object s b' = Some (OM B')).
        { intros b' o' Hin. destruct (HB b' o' (or_intror Hin)) as (B' & _ & OB' & _). eauto. }
        clear - F2 FR LT HB'. induction F2 as [|[b' o'] h l l' (B' & Y & H1 & H2 & H3) F2 IH]; constructor.
        -- exists B', Y. cbn [fst] in *. destruct (HB' b' o' (or_introl eq_refl)) as (B2 & OB2). rewrite FR in H1 by eauto. auto.
        -- apply IH. intros b2 o2 Hin. apply (HB' b2 o2). right; auto.
Qed.

(* a 2-by-2 system with two right-hand sides in separate objects, solved twice each, with and without the self-check *)
Definition exA := mkcsc 2 2 [0; 2; 4] [0; 1; 0; 1] [2; 1; 1; 3].
Definition exB1 := mkM 2 1 2 0 KDENSE TMPZ None None None (Some (VZ [1; 2])) 1%Q.
Definition exB2 := mkM 2 1 2 0 KDENSE TMPZ None None None (Some (VZ [5; 0])) 1%Q.
Definition exAn := mkS [0; 1; 2] 4 4.
Definition exE : gmp_env := fun _ _ _ => None.
Definition exF := match SLIP_LU_factorize exE true true (Some exA) (Some exAn) None with Ok (SOK, Out F) => F | _ => mkLU exA exA exA [] end.
Definition exS : store :=
  [Some (OM exA); Some (OM (lu_L exF)); Some (OM (lu_U exF)); Some (OM (lu_rhos exF)); Some (OS exAn); Some (OA (lu_pinv exF)); Some (OM exB1); Some (OM exB2)].
Definition exReqs : list (nat * option options) :=
  [(6%nat, None); (7%nat, Some (mkO 3 1 1 0 128 RNDN true)); (7%nat, None); (6%nat, None)].
Example C21_many_solves_applies : exists hs s',
    solve_all 0 1 2 3 4 5 exReqs exS = (Ok (map (fun h => (SOK, Out h)) hs), s') /\
    (forall k, (k < length exS)%nat -> object s' k = object exS k) /\
    Forall2 (fun req h => exists B X, object exS (fst req) = Some (OM B) /\ object s' h = Some (OM X) /\
                                      rat_dense 2 (m_n B) X /\ solves 2 exA B X) exReqs hs.
Proof.
  apply (@C21_many_solves exE 2 exA exAn None exF); try reflexivity; try lia; try (intros H; discriminate).
  - apply int_cscb. reflexivity.
  - apply usableb. reflexivity.
  - intros b o' [[= <- <-]|[[= <- <-]|[[= <- <-]|[[= <- <-]|[]]]]]; [exists exB1, 1|exists exB2, 1|exists exB2, 1|exists exB1, 1];
      (split; [reflexivity|split; [constructor; try reflexivity; try lia; eexists; split; reflexivity|intros H; discriminate]]).
Qed.
(* the objects it returns: 1/5, 3/5 for the first and 3, -1 for the second right-hand side *)
Example C21_many_solves_run : fst (solve_all 0 1 2 3 4 5 exReqs exS) = Ok [(SOK, Out 11%nat); (SOK, Out 15%nat); (SOK, Out 20%nat); (SOK, Out 24%nat)] /\
  object (snd (solve_all 0 1 2 3 4 5 exReqs exS)) 11 = Some (OM (mkM 2 1 2 0 KDENSE TMPQ None None None (Some (VQ [1 # 5; 3 # 5]%Q)) 1%Q)) /\
  object (snd (solve_all 0 1 2 3 4 5 exReqs exS)) 20 = Some (OM (mkM 2 1 2 0 KDENSE TMPQ None None None (Some (VQ [3 # 1; -1 # 1]%Q)) 1%Q)).
Proof. vm_compute. auto. Qed.
