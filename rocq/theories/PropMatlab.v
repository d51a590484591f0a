(* C84.  The MATLAB function x = SLIP_backslash (A, b, option). *)
From Coq Require Import QArith Qabs String.
From Verif Require Import Base DetZ Spec SumQ MFactor MSolve MMatrix MApi ApiSpec MatSpec MDemo MMex MexSpec PMat PCopy PCopy2 PCheck PConv PropMex MMatlab LUEx.
Set Implicit Arguments.
Set Bullet Behavior "Strict Subproofs".
Open Scope string_scope.
Open Scope list_scope.
Open Scope Z_scope.

(* A is a real n-by-n matrix of class double, sparse or full, of finite numbers other than 2^63; W holds its entries in units of 10^-17 *)
Inductive matrix_arg (n : Z) (A : mx) (W : Z -> Z -> Z) : Prop :=
| arg_sparse jc ir pr : sparse_double n A jc ir pr -> finite_all pr (rd jc n) -> no_2p63 pr (rd jc n) -> sparse_units n jc ir pr W -> matrix_arg n A W
| arg_full pr : full_double n n A pr -> finite_all pr (n * n) -> no_2p63 pr (n * n) -> full_units n n pr W -> matrix_arg n A W.

(* the outcome m is the exact solution of WA X = WB in the form asked for by the options, or the message that A is singular *)
Definition m_answers (n k : Z) (WA WB : Z -> Z -> Z) (i : mxopts) (m : res mout) : Prop :=
  (detz n WA = 0 -> m = Ok (MThrow (MexStatus SLIP_SINGULAR))) /\
  (detz n WA <> 0 -> exists X : Z -> Z -> Q,
     (forall i r, 0 <= i < n -> 0 <= r < k -> (sumQ n (fun c => e17 (WA i c) * X c r) == e17 (WB i r))%Q) /\
     (xo_solution i = None \/ xo_solution i = Some (MxChar (codes "double")) -> exists l, m = Ok (MValue (MxDouble n k l)) /\ n * k <= zlen l /\
        forall i r, 0 <= i < n -> 0 <= r < k -> double_rounded RNDZ true (X i r) (rdg FNan l (i + r * n))) /\
     (xo_solution i = Some (MxChar (codes "char")) -> exists l, m = Ok (MValue (MxCell n k l)) /\ zlen l = n * k /\
        forall i r, 0 <= i < n -> 0 <= r < k -> writes (rdg [] l (i + r * n)) (X i r)) /\
     (xo_solution i = Some (MxChar (codes "vpa")) -> exists l, m = Ok (MVpa (MxCell n k l) (xo_digits i)) /\ zlen l = n * k /\
        forall i r, 0 <= i < n -> 0 <= r < k -> writes (rdg [] l (i + r * n)) (X i r))).

Lemma rounded_0 w : rounded RNDN (0 * inject_Z (10 ^ 17)) w -> w = 0.
Proof.
  intros (H & _). assert (E : (Qabs (inject_Z w - 0 * inject_Z (10 ^ 17)) == inject_Z (Z.abs w))%Q).
  { transitivity (Qabs (inject_Z w)). apply Qabs_wd. ring. reflexivity. }
  rewrite E in H. change 2%Q with (inject_Z 2) in H. change 1%Q with (inject_Z 1) in H. rewrite <- inject_Z_mult, <- Zle_Qle in H. lia.
Qed.

(* sparse (A) has the entries of A *)
Lemma to_sparse_ok n A ap W : full_double n n A ap -> finite_all ap (n * n) -> no_2p63 ap (n * n) -> full_units n n ap W ->
  exists B, mx_to_sparse A = Ok (Some B) /\ matrix_arg n B W /\ x_sparse B = true.
Proof.
  intros FD FA N2 FU. destruct (fd_pos FD) as [Hn _]. unfold mx_to_sparse. rewrite (fd_pr FD), (fd_m FD), (fd_n FD).
  pose proof (fd_len FD) as HL. assert (NN : 0 <= n * n) by nia.
  destruct (wp_ok_ex _ _ (@count_nz_spec fl FNan nzD (n * n) ap nerr ltac:(lia))) as (nz & -> & Hnz). cbn [bind].
  pose proof (cnt_nonneg (fun k => nzD (rdg FNan ap k)) (n * n)) as H0.
  destruct (wp_ok_ex _ _ (@dense_to_csc_spec fl FNan (fun v => v) nzD n n ap (mk (n + 1) 0) (mk nz 0) (mk nz FNan) nerr Hn Hn HL
    ltac:(rewrite zlen_mk; lia) ltac:(rewrite zlen_mk; lia) ltac:(rewrite zlen_mk; lia))) as ([[jc ir] pr] & -> & P1 & P2 & P3 & P4 & P5).
  cbn [bind]. eexists. split; [reflexivity|]. split; [|reflexivity]. rewrite zlen_mk in * by lia.
  set (f := fun c i => nzD (rdg FNan ap (i + c * n))) in *.
  assert (M : forall c, 0 <= c < n -> rd jc c <= rd jc (c + 1)) by (intros c Hc; rewrite !P4 by lia; apply cnt_mono; nia).
  assert (Pn : rd jc n = nz) by (rewrite P4 by lia; auto).
  assert (P0 : rd jc 0 = 0) by (rewrite P4 by lia; apply cnt_0).
  (* position q of column c holds entry i *)
  assert (A1 : forall c q, 0 <= c < n -> rd jc c <= q < rd jc (c + 1) -> 0 <= rd ir q < n /\ f c (rd ir q) = true /\ rdg FNan pr q = rdg FNan ap (rd ir q + c * n)).
  { intros c q Hc Hq. assert (I : In (rd ir q, rdg FNan pr q) (seg FNan ir pr (rd jc c) (rd jc (c + 1)))).
    { unfold seg. apply (in_map (fun q => (rd ir q, rdg FNan pr q))). apply in_zseq. lia. }
    rewrite P5 in I by auto. apply in_map_iff in I. destruct I as (i & [= E1 E2] & Hi). apply filter_In in Hi. destruct Hi as [Hi Hf]. apply in_zseq in Hi.
    rewrite <- E1, <- E2. auto. }
  assert (A2 : forall c i, 0 <= c < n -> 0 <= i < n -> f c i = true -> exists q, rd jc c <= q < rd jc (c + 1) /\ rd ir q = i).
  { intros c i Hc Hi Hf. assert (I : In (i, rdg FNan ap (i + c * n)) (seg FNan ir pr (rd jc c) (rd jc (c + 1)))).
    { rewrite P5 by auto. apply (in_map (fun i => (i, rdg FNan ap (i + c * n)))). apply filter_In. split; auto. apply in_zseq. lia. }
    unfold seg in I. apply in_map_iff in I. destruct I as (q & [= E1 _] & Hq). apply in_zseq in Hq. eauto. }
  assert (A3 : forall c, 0 <= c < n -> NoDup (map (fun q => rd ir q) (zseq (rd jc c) (rd jc (c + 1))))).
  { intros c Hc. replace (map (fun q => rd ir q) (zseq (rd jc c) (rd jc (c + 1)))) with (map fst (seg FNan ir pr (rd jc c) (rd jc (c + 1)))).
    - rewrite P5 by auto. rewrite map_map. cbn [fst]. rewrite map_id. apply NoDup_filter. apply nodup_zseq.
    - unfold seg. rewrite map_map. reflexivity. }
  assert (HM : forall c c', 0 <= c <= c' -> c' <= n -> rd jc c <= rd jc c') by (intros; rewrite !P4 by lia; apply cnt_mono; nia).
  apply arg_sparse with (jc := jc) (ir := ir) (pr := pr).
  - constructor; cbn; try reflexivity; try (apply FD).
    + constructor; try lia; auto.
      * intros q Hq. destruct (@find_col jc n q P0 Hn Hq) as (c & Hc & Hqc). apply (A1 c q Hc Hqc).
      * intros c q q' Hc Hq Hq' E. pose proof (A3 c Hc) as ND.
        destruct (Z.lt_trichotomy q q') as [L|[L|L]]; auto; exfalso.
        -- rewrite (@zseq_app (rd jc c) q' (rd jc (c + 1))), (@zseq_cons q' (rd jc (c + 1))), map_app in ND by lia. cbn [map] in ND.
           apply NoDup_remove with (l := map (fun q => rd ir q) (zseq (rd jc c) q')) (l' := map (fun q => rd ir q) (zseq (q' + 1) (rd jc (c + 1)))) (a := rd ir q') in ND.
           destruct ND as [_ ND]. apply ND. apply in_or_app. left. rewrite <- E. apply (in_map (fun q => rd ir q)). apply in_zseq. lia.
        -- rewrite (@zseq_app (rd jc c) q (rd jc (c + 1))), (@zseq_cons q (rd jc (c + 1))), map_app in ND by lia. cbn [map] in ND.
           apply NoDup_remove with (l := map (fun q => rd ir q) (zseq (rd jc c) q)) (l' := map (fun q => rd ir q) (zseq (q + 1) (rd jc (c + 1)))) (a := rd ir q) in ND.
           destruct ND as [_ ND]. apply ND. apply in_or_app. left. rewrite E. apply (in_map (fun q => rd ir q)). apply in_zseq. lia.
    + lia.
    + intros q Hq. destruct (@find_col jc n q P0 Hn Hq) as (c & Hc & Hqc). destruct (A1 c q Hc Hqc) as (I1 & _ & ->). apply (fd_fits FD). nia.
  - intros q Hq. destruct (@find_col jc n q P0 Hn Hq) as (c & Hc & Hqc). destruct (A1 c q Hc Hqc) as (I1 & _ & ->). apply FA. nia.
  - intros q v Hq. destruct (@find_col jc n q P0 Hn Hq) as (c & Hc & Hqc). destruct (A1 c q Hc Hqc) as (I1 & _ & ->). apply N2. nia.
  - intros i j Hi Hj. destruct (f j i) eqn:Hf.
    + left. destruct (A2 j i Hj Hi Hf) as (q & Hq & E). exists q. split; auto. split; auto. destruct (A1 j q Hj Hq) as (_ & _ & EQ).
      destruct (FU i j Hi Hj) as (v & V1 & V2). exists v. rewrite EQ, E. auto.
    + right. split. { intros q Hq E. destruct (A1 j q Hj Hq) as (_ & F2 & _). rewrite E in F2. congruence. }
      destruct (FU i j Hi Hj) as (v & V1 & V2). unfold f, nzD in Hf. destruct (rdg FNan ap (i + j * n)) as [m e| |]; try discriminate.
      apply negb_false_iff in Hf. apply Z.eqb_eq in Hf. subst m. apply rounded_0.
      assert (E : (v == 0)%Q). { cbn in V1. injection V1 as <-. destruct (0 <=? e); reflexivity. }
      eapply rounded_eq; [|exact V2]. rewrite E. reflexivity.
Qed.

(* the name given for the solution *)
Lemma sol_code i z : named solution_names 0 (xo_solution i) z ->
  (xo_solution i = None \/ xo_solution i = Some (MxChar (codes "double")) -> z = 0) /\
  (xo_solution i = Some (MxChar (codes "char")) -> z <> 0) /\ (xo_solution i = Some (MxChar (codes "vpa")) -> z <> 0).
Proof.
  intros [(E & ->)|(s & name & E & S & I)]; rewrite E; split.
  - auto.
  - split; discriminate.
  - intros [H|H]; [discriminate|]. injection H as ->. destruct I as [I|[I|[I|[]]]]; injection I as <- <-; auto; discriminate S.
  - split; intros H; injection H as ->; destruct I as [I|[I|[I|[]]]]; injection I as <- <-; try discriminate; discriminate S.
Qed.
Lemma is_vpa_spec s : is_vpa (Some (MxChar s)) = true <-> s = codes "vpa".
Proof. unfold is_vpa. destruct (list_eq_dec Z.eq_dec s [118; 112; 97]) as [->|N]; split; try reflexivity; try discriminate. intros ->. now destruct N. Qed.

Lemma to_sparse_arg n A WA : matrix_arg n A WA ->
  exists A' jc ir pr, (if negb (x_sparse A) then mx_to_sparse A else Ok (Some A)) = Ok (Some A') /\ sparse_double n A' jc ir pr /\ finite_all pr (rd jc n) /\
    no_2p63 pr (rd jc n) /\ sparse_units n jc ir pr WA.
Proof.
  intros [jc ir pr SD F1 F2 SU|pr FA F1 F2 SU].
  - rewrite (sd_sparse SD). exists A, jc, ir, pr. auto.
  - rewrite (fd_full FA). destruct (to_sparse_ok FA F1 F2 SU) as (B & E & HB' & ES). destruct HB' as [jc ir pr' SD G1 G2 SU'|pr' FA' _ _ _].
    + exists B, jc, ir, pr'. auto 6.
    + pose proof (fd_full FA'). congruence.
Qed.
(* C84: the answer.  As with the mex function (C78), the numbers are first rounded to 17 decimal places *)
Theorem C84_solution env ol addr g A b option r n k bp WA WB :
  let i := fields (match option with Some o => x_opts o | None => None end) in
  documented i r -> matrix_arg n A WA -> full_double n k b bp -> no_2p63 bp (n * k) -> full_units n k bp WB -> 1 <= n -> env_ok env (mo_pivot r) ->
  int64_all bp (n * k) \/ (exists i j, 0 <= i < n /\ 0 <= j < k /\ WB i j <> 0) ->
  m_answers n k WA WB i (SLIP_backslash_m env ol addr g true true A b option).
Proof.
  intros i D HA FD N2 FU Hn He HB. unfold SLIP_backslash_m. cbn [negb orb].
  set (opt := match option with Some o => o | None => mx_empty end).
  assert (Ei : i = fields (x_opts opt)) by (unfold i, opt; destruct option; reflexivity).
  destruct (to_sparse_arg HA) as (A' & jc & ir & pr & -> & SD & F1 & F2 & SU).
  cbn [bind]. rewrite Ei in D.
  assert (AN := @C78_solution env ol addr g 1 A' b opt r n k jc ir pr bp WA WB ltac:(lia) D SD FD F1 F2 N2 SU FU Hn He HB).
  rewrite <- Ei in D. destruct AN as [A0 A1]. destruct (@sol_code i _ (d_solution D)) as (S1 & S2 & S3). split.
  - intros H. rewrite (A0 H). reflexivity.
  - intros H. destruct (A1 H) as (X & X1 & X2 & X3). exists X. split; auto.
    assert (V : match x_opts opt with Some i => is_vpa (xo_solution i) | None => false end = is_vpa (xo_solution i)) by (rewrite Ei; destruct (x_opts opt); reflexivity).
    assert (Dg : forall j, x_opts opt = Some j -> xo_digits j = xo_digits i) by (intros j Ej; rewrite Ei, Ej; reflexivity).
    split; [|split].
    + intros HS. destruct (X2 (S1 HS)) as (l & -> & L). exists l. split; auto. cbn [bind].
      assert (N : is_vpa (xo_solution i) = false) by (destruct HS as [-> | ->]; reflexivity). rewrite N in V.
      destruct (x_opts opt) as [j|]; [rewrite V|]; reflexivity.
    + intros HS. destruct (X3 (S2 HS)) as (l & -> & L). exists l. split; auto. cbn [bind].
      assert (N : is_vpa (xo_solution i) = false) by (rewrite HS; reflexivity). rewrite N in V.
      destruct (x_opts opt) as [j|]; [rewrite V|]; reflexivity.
    + intros HS. destruct (X3 (S3 HS)) as (l & -> & L). exists l. split; auto. cbn [bind].
      assert (N : is_vpa (xo_solution i) = true) by (rewrite HS; reflexivity). rewrite N in V.
      destruct (x_opts opt) as [j|]; [|discriminate]. rewrite V, (Dg j eq_refl). reflexivity.
Qed.
(* two arguments: the defaults, rounded to doubles.  In particular, nothing depends on the value g of the uninitialized variable of the mex function (C78) *)
Theorem C84_defaults env ol addr A b n k bp WA WB :
  matrix_arg n A WA -> full_double n k b bp -> no_2p63 bp (n * k) -> full_units n k bp WB -> 1 <= n -> env_ok env 3 ->
  int64_all bp (n * k) \/ (exists i j, 0 <= i < n /\ 0 <= j < k /\ WB i j <> 0) ->
  exists m, (forall g, SLIP_backslash_m env ol addr g true true A b None = m) /\    (detz n WA = 0 -> m = Ok (MThrow (MexStatus SLIP_SINGULAR))) /\
    (detz n WA <> 0 -> exists (X : Z -> Z -> Q) l,
       (forall i r, 0 <= i < n -> 0 <= r < k -> (sumQ n (fun c => e17 (WA i c) * X c r) == e17 (WB i r))%Q) /\
       m = Ok (MValue (MxDouble n k l)) /\ n * k <= zlen l /\
       forall i r, 0 <= i < n -> 0 <= r < k -> double_rounded RNDZ true (X i r) (rdg FNan l (i + r * n))).
Proof.
  intros HA FD N2 FU Hn He HB. exists (SLIP_backslash_m env ol addr 0 true true A b None). split.
  - intros g. unfold SLIP_backslash_m. cbn [negb orb]. destruct (if negb (x_sparse A) then mx_to_sparse A else Ok (Some A)) as [[B|]| | |]; reflexivity.
  - assert (D : documented (fields None) (mkMO 1 3 tol_default 0 100 0)) by (constructor; cbn; left; auto).
    destruct (@C84_solution env ol addr 0 A b None _ n k bp WA WB D HA FD N2 FU Hn He HB) as (H1 & H2). split; auto.
    intros H. destruct (H2 H) as (X & X1 & X2 & _). destruct (X2 (or_introl eq_refl)) as (l & L1 & L2 & L3). exists X, l. auto.
Qed.

(* the mex function compares C strings, SLIP_backslash.m compares MATLAB strings: "vpa" followed by a character 0 is accepted, but the answer is
   a cell array of strings, not a vpa matrix *)
Theorem C84_vpa_nul_refuted env ol addr g A b option i r s n k bp WA WB : x_opts option = Some i -> xo_solution i = Some (MxChar s) ->
  mx_string s = codes "vpa" -> s <> codes "vpa" -> documented i r ->
  matrix_arg n A WA -> full_double n k b bp -> no_2p63 bp (n * k) -> full_units n k bp WB -> 1 <= n -> env_ok env (mo_pivot r) ->
  int64_all bp (n * k) \/ (exists i j, 0 <= i < n /\ 0 <= j < k /\ WB i j <> 0) -> detz n WA <> 0 ->
  exists l, SLIP_backslash_m env ol addr g true true A b (Some option) = Ok (MValue (MxCell n k l)).
Proof.
  intros Eo Es Es1 Es2 D HA FD N2 FU Hn He HB HD. unfold SLIP_backslash_m. cbn [negb orb].
  destruct (to_sparse_arg HA) as (A' & jc & ir & pr & -> & SD & F1 & F2 & SU). cbn [bind].
  assert (D' : documented (fields (x_opts option)) r) by (rewrite Eo; exact D).
  destruct (@C78_solution env ol addr g 1 A' b option r n k jc ir pr bp WA WB ltac:(lia) D' SD FD F1 F2 N2 SU FU Hn He HB) as (_ & A1).
  destruct (A1 HD) as (X & _ & _ & X3).
  assert (mo_solution r <> 0).
  { destruct (d_solution D) as [(E & _)|(s' & name & E & S & I)]; [congruence|]. rewrite Es in E. injection E as <-. rewrite Es1 in S.
    destruct I as [I|[I|[I|[]]]]; injection I as <- <-; try discriminate; discriminate S. }
  destruct (X3 H) as (l & -> & _). cbn [bind]. rewrite Eo, Es. exists l. destruct (is_vpa (Some (MxChar s))) eqn:V; [|reflexivity].
  apply is_vpa_spec in V. contradiction.
Qed.

(* what is rejected, and how *)
Theorem C84_rejects env ol addr g A b option :
  (forall numA numB, numA && numB = false -> SLIP_backslash_m env ol addr g numA numB A b option = Ok MNumeric) /\
  (x_sparse A = false -> x_pr A = None -> SLIP_backslash_m env ol addr g true true A b option = Ok MNotDouble) /\
  (x_sparse A = true -> x_complex A = true \/ x_complex b = true -> SLIP_backslash_m env ol addr g true true A b option = Ok (MThrow MexReal)) /\
  (x_sparse A = true -> x_complex A = false -> x_complex b = false -> x_sparse b = true -> SLIP_backslash_m env ol addr g true true A b option = Ok (MThrow MexFull)).
Proof.
  set (opt := match option with Some o => o | None => mx_empty end).
  destruct (@C78_inputs env ol addr g 1 A b [opt] ltac:(lia) ltac:(cbn; lia)) as (I1 & _ & I3). unfold SLIP_backslash_m. fold opt.
  split; [|split; [|split]].
  - intros [] []; try discriminate; reflexivity.
  - intros H1 H2. rewrite H1. cbn [negb orb]. unfold mx_to_sparse. rewrite H2. reflexivity.
  - intros H1 H2. rewrite H1. cbn [negb orb bind]. rewrite (I1 H2). reflexivity.
  - intros H1 H2 H3 H4. rewrite H1. cbn [negb orb bind]. rewrite (I3 H2 H3 H1 H4). reflexivity.
Qed.

(*----------------------------------------------------------------------------*)
(* concrete cases: the matrix of C78, stored as full *)
Definition mfA : mx := mkMx false false 2 2 None None (Some [FFin 1 (-1); FFin (-3) 0; FFin 2 0; FFin 0 0]) None.
Ltac four H := match type of H with 0 <= ?i < 4 => assert (i = 0 \/ i = 1 \/ i = 2 \/ i = 3) as [-> | [-> | [-> | ->]]] by lia end.
Lemma mfA_ok : matrix_arg 2 mfA mxWA.
Proof.
  apply arg_full with (pr := [FFin 1 (-1); FFin (-3) 0; FFin 2 0; FFin 0 0]).
  - constructor; try reflexivity; try lia; try discriminate. intros p Hp. change (2 * 2) with 4 in Hp. four Hp; vm_compute; try discriminate; auto.
  - intros p Hp. change (2 * 2) with 4 in Hp. four Hp; eexists; reflexivity.
  - intros p q Hp E. change (2 * 2) with 4 in Hp. four Hp; vm_compute in E; injection E as <-; vm_compute; discriminate.
  - intros i j Hi Hj. apply exact_units. two Hi; two Hj; eexists; split; reflexivity.
Qed.
Lemma mxA_arg : matrix_arg 2 mxA mxWA.
Proof. exact (@arg_sparse 2 mxA mxWA _ _ _ mxA_ok (proj1 mxA_finite) (proj2 mxA_finite) mxA_units). Qed.
Example C84_ex sol z A : In (sol, z) solution_names -> A = mxA \/ A = mfA ->
  m_answers 2 1 mxWA mxWB (fields (x_opts (mxO sol))) (SLIP_backslash_m exenv exol (fun _ => 0) 7 true true A mxb (Some (mxO sol))).
Proof.
  intros I HA. apply (@C84_solution exenv exol (fun _ => 0) 7 A mxb (Some (mxO sol)) _ 2 1 _ mxWA mxWB (@mxO_documented sol z I)
    ltac:(destruct HA as [-> | ->]; [exact mxA_arg|exact mfA_ok]) mxb_ok mxb_2p63 mxb_units ltac:(lia) (@ex_env _) (or_intror mxb_big)).
Qed.
Example C84_ex_run :
  SLIP_backslash_m exenv exol (fun _ => 0) 7 true true mfA mxb (Some (mxO "char")) = Ok (MValue (MxCell 2 1 [codes "-1/4"; codes "9/16"])) /\
  SLIP_backslash_m exenv exol (fun _ => 0) 7 true true mfA mxb (Some (mxO "vpa")) = Ok (MVpa (MxCell 2 1 [codes "-1/4"; codes "9/16"]) None) /\
  SLIP_backslash_m exenv exol (fun _ => 0) 7 true true mfA mxb None = Ok (MValue (MxDouble 2 1 [FFin (-4503599627370496) (-54); FFin 5066549580791808 (-53)])).
Proof. split; [|split]; vm_compute; reflexivity. Qed.
Example C84_defaults_ex := @C84_defaults exenv exol (fun _ => 0) mfA mxb 2 1 _ mxWA mxWB mfA_ok mxb_ok mxb_2p63 mxb_units ltac:(lia) (@ex_env _) (or_intror mxb_big).
Definition mxN : mx := mkMx false false 1 1 None None None (Some (mkXO None None None (Some (MxChar [118; 112; 97; 0])) None None)).
Example C84_vpa_nul_ex : SLIP_backslash_m exenv exol (fun _ => 0) 7 true true mfA mxb (Some mxN) = Ok (MValue (MxCell 2 1 [codes "-1/4"; codes "9/16"])) /\
  documented (fields (x_opts mxN)) (mkMO 1 3 tol_default 1 100 0).
Proof.
  split; [vm_compute; reflexivity|]. constructor; cbn; try (left; auto; fail). right. exists [118; 112; 97; 0], "vpa". repeat split; auto. cbn. auto.
Qed.
Example C84_rejects_ex :
  SLIP_backslash_m exenv exol (fun _ => 0) 7 true true (mkMx true true 2 2 (Some [0; 2; 3]) (Some [0; 1; 0]) (Some [FFin 1 (-1); FFin (-3) 0; FFin 2 0]) None) mxb None = Ok (MThrow MexReal) /\
  SLIP_backslash_m exenv exol (fun _ => 0) 7 true true mfA mxA None = Ok (MThrow MexFull).
Proof. split; vm_compute; reflexivity. Qed.
