(* Properties C16 - C29, C54: symbolic analysis, independence of the options, checks, limits. *)
From Verif Require Import Base DetZ Spec SumQ PivotSpec MFactor MSolve MMatrix MApi ApiSpec.
From Verif Require Import PReach PTri PPivot PFactor PSolve PSolve2 PLU PApi PRule Check LUEx PropLU.
Set Implicit Arguments.
Open Scope Z_scope.

(*----------------------------------------------------------------------------*)
(* C16, C17, C18, C24: stated at every step k of every run of the main loop of SLIP_LU_factorize. *)
(* s is the state of a run that has completed the columns 0 .. k-1 *)
Definition at_step (env : gmp_env) (order : Z) (tol : Q) (n : Z) (Ap Ai Ax q : list Z) (lnz unz k : Z) (s : fstate) : Prop :=
  for_ 0 k (fun k s => factor_step env order tol n Ap Ai Ax q k s) (factor_init n lnz unz) = Ok s.
(* the arrays of L at the moment column k is computed (column pointer k set, arrays doubled when nearly full) *)
Definition L_ptr (k : Z) (s : fstate) : list Z := wr (F_Lp s) k (F_lnz s).
Definition L_arrays (n : Z) (s : fstate) : list Z * list Z :=
  if F_lnz s + n >? zlen (F_Li s) then sparse_realloc (F_Li s) (F_Lx s) else (F_Li s, F_Lx s).

Lemma for_snoc S lo hi (body : Z -> S -> res S) s : lo <= hi ->
  for_ lo (hi + 1) body s = let* s' := for_ lo hi body s in body hi s'.
Proof.
  unfold for_. intros H. replace (Z.to_nat (hi + 1 - lo)) with (Datatypes.S (Z.to_nat (hi - lo))) by lia.
  remember (Z.to_nat (hi - lo)) as c eqn:E. revert lo s H E. induction c; intros lo s H E.
  - simpl. replace hi with lo by lia. destruct (body lo s); reflexivity.
  - cbn [floop]. destruct (body lo s) as [s1| | |]; try reflexivity. cbn [bind].
    specialize (IHc (lo + 1) s1 ltac:(lia) ltac:(lia)). cbn [floop] in IHc. exact IHc.
Qed.

Lemma get_not_err A (l : list A) i : (forall e, get l i <> Err e) /\ get l i <> Fuel.
Proof. unfold get. destruct (i <? 0). split; discriminate. destruct (nth_error l (Z.to_nat i)); split; discriminate. Qed.
Lemma at_step_inv env order tol n Ap Ai Ax q lnz unz k s :
  valid_csc n n Ap Ai Ax -> is_perm n q -> env_ok env order -> n <= 2 * Z.max lnz 1 -> 0 <= k <= n ->
  at_step env order tol n Ap Ai Ax q lnz unz k s -> finv n Ap Ai Ax q k s.
Proof.
  intros V HQ He Hl Hk E. unfold at_step in E.
  assert (W : wp (for_ 0 k (fun k s => factor_step env order tol n Ap Ai Ax q k s) (factor_init n lnz unz)) (finv n Ap Ai Ax q k) (Edet n Ap Ai Ax q)).
  { apply wp_for with (I := finv n Ap Ai Ax q). lia. apply factor_init_inv; auto using perm_map.
    intros j s' Hj I. apply factor_step_spec; auto using perm_map. lia. }
  rewrite E in W. exact W.
Qed.

(* row i is reachable from column c of A through the columns of L: from row j one reaches the rows of column pinv[j] *)
Theorem C16_reach_exact : forall env order tol n Ap Ai Ax q lnz unz k s,
  valid_csc n n Ap Ai Ax -> is_perm n q -> env_ok env order -> n <= 2 * Z.max lnz 1 -> 0 <= k < n ->
  at_step env order tol n Ap Ai Ax q lnz unz k s ->
  let Li := fst (L_arrays n s) in
  exists top xi, 
    (exists x h, slip_ref_triangular_solve n (L_ptr k s) Li (snd (L_arrays n s)) Ap Ai Ax k (F_xi s) q (F_rhos s) (F_pinv s) (F_rowp s) (F_h s) (F_x s)
       = Ok (top, xi, L_ptr k s, x, h)) /\
    0 <= top <= n /\
    (forall i, reachable (L_ptr k s) Li (F_pinv s) Ap Ai (rd q k) i <-> exists a, top <= a < n /\ rd xi a = i) /\
    (forall a b, top <= a < b -> b < n -> rd (F_pinv s) (rd xi a) < rd (F_pinv s) (rd xi b)).
Proof.
  intros env order tol n Ap Ai Ax q lnz unz k s V HQ He Hl Hk E Li.
  pose proof (at_step_inv V HQ He Hl (k := k) ltac:(lia) E) as I.
  destruct I as [P Hpv Hpiv Hh Hxi Hx Hrl Hrho HLl HUl HL HU HUs HLc HUc HUm].
  pose proof (@realloc_spec n n _ _ _ _ _ _ _ HL ltac:(lia) ltac:(lia) HLc) as HLr.
  unfold Li, L_arrays. destruct (if F_lnz s + n >? zlen (F_Li s) then _ else _) as [Li' Lx']. simpl.
  destruct HLr as (HL1 & _).
  destruct (@tri_solve_spec n k (L_ptr k s) Li' Lx' Ap Ai Ax (F_xi s) q (F_rhos s) (F_pinv s) (F_rowp s) (F_h s) (F_x s) (F_lnz s)
     Hk V HQ P (l_ok_part HL1) Hrl Hrho Hxi Hh Hx) as (top & xi & x & h & E1 & Ht & Hxil & Hxl & Hhl & Hxr & Hxs & HR & _).
  exists top, xi. split; [eauto|]. split; auto.
Qed.
(* the state of the example after two columns *)
Definition ex_state : fstate :=
  match for_ 0 2 (fun k s => factor_step exenv 3 1 4 exAp exAi exAx [0; 3; 1; 2; 0] k s) (factor_init 4 8 8) with Ok s => s | _ => factor_init 4 8 8 end.
Lemma ex_at_step : at_step exenv 3 1 4 exAp exAi exAx [0; 3; 1; 2; 0] 8 8 2 ex_state.
Proof. vm_compute. reflexivity. Qed.
Example C16_ex := @C16_reach_exact exenv 3 1 4 exAp exAi exAx [0; 3; 1; 2; 0] 8 8 2 ex_state ex_valid (proj1 ex_usable) (@ex_env _) ltac:(simpl; lia) ltac:(lia) ex_at_step.

(* C17.  For every well-formed graph, the reach returns the column pointers of L exactly as they were. *)
Theorem C17_reach_restores : forall n Lp Li pinv Ap Ai c xi,
  0 <= n -> graph_ok n Lp Li pinv -> col_ok n Ap Ai c -> zlen xi = 2 * n ->
  exists top xi', slip_reach n Li Ap Ai c pinv xi Lp = Ok (top, xi', Lp).
Proof. intros n Lp Li pinv Ap Ai c xi H1 H2 H3 H4. destruct (@slip_reach_spec n Lp Li pinv Ap Ai c xi H1 H2 H3 H4) as (top & xi' & E & _). eauto. Qed.
(* ... and the graphs that occur in a run are well-formed *)
Theorem C17_graphs_in_runs : forall env order tol n Ap Ai Ax q lnz unz k s,
  valid_csc n n Ap Ai Ax -> is_perm n q -> env_ok env order -> n <= 2 * Z.max lnz 1 -> 0 <= k < n ->
  at_step env order tol n Ap Ai Ax q lnz unz k s ->
  graph_ok n (L_ptr k s) (fst (L_arrays n s)) (F_pinv s) /\ col_ok n Ap Ai (rd q k) /\ zlen (F_xi s) = 2 * n.
Proof.
  intros env order tol n Ap Ai Ax q lnz unz k s V HQ He Hl Hk E.
  pose proof (at_step_inv V HQ He Hl (k := k) ltac:(lia) E) as I.
  destruct I as [P Hpv Hpiv Hh Hxi Hx Hrl Hrho HLl HUl HL HU HUs HLc HUc HUm].
  pose proof (@realloc_spec n n _ _ _ _ _ _ _ HL ltac:(lia) ltac:(lia) HLc) as HLr.
  unfold L_arrays. destruct (if F_lnz s + n >? zlen (F_Li s) then _ else _) as [Li' Lx']. simpl.
  destruct HLr as (HL1 & _). split; [|split; auto].
  - eapply l_graph; [|apply (l_ok_part HL1)|auto]. lia.
  - destruct HQ as (Q1 & Q2 & Q3). specialize (Q2 k Hk). pose proof (v_ptr V (c := rd q k) (d := rd q k + 1) ltac:(lia) ltac:(lia)) as HP.
    pose proof (v_p V). pose proof (v_cap V). constructor; try lia. intros p Hp. apply (v_i V). lia.
Qed.
Example C17_ex := @C17_graphs_in_runs exenv 3 1 4 exAp exAi exAx [0; 3; 1; 2; 0] 8 8 2 ex_state ex_valid (proj1 ex_usable) (@ex_env _) ltac:(simpl; lia) ltac:(lia) ex_at_step.
Example C17_ex2 : exists top xi, slip_reach 4 (fst (L_arrays 4 ex_state)) exAp exAi 1 (F_pinv ex_state) (F_xi ex_state) (L_ptr 2 ex_state)
  = Ok (top, xi, L_ptr 2 ex_state).
Proof. destruct C17_ex as (H1 & H2 & H3). apply C17_reach_restores; auto; lia. Qed.

(* C18.  exact value of row i in column k: for a row at pivot position r, the minor of the rows chosen for positions
   0 .. min(k,r)-1 and row i, and the columns q[0] .. q[min(k,r)-1] and q[k].  Outside the pattern it is zero, inside the
   pattern the workspace x holds it. *)
Definition exact_value (Ap Ai Ax q rowp : list Z) (k i r : Z) : Z :=
  let t := Z.min k r in
  detz (t + 1) (fun a b => ent Ap Ai Ax (if a <? t then rd rowp a else i) (rd q (if b <? t then b else k))).
Theorem C18_pattern_covers : forall env order tol n Ap Ai Ax q lnz unz k s,
  valid_csc n n Ap Ai Ax -> is_perm n q -> env_ok env order -> n <= 2 * Z.max lnz 1 -> 0 <= k < n ->
  at_step env order tol n Ap Ai Ax q lnz unz k s ->
  exists top xi x h,
    slip_ref_triangular_solve n (L_ptr k s) (fst (L_arrays n s)) (snd (L_arrays n s)) Ap Ai Ax k (F_xi s) q (F_rhos s) (F_pinv s) (F_rowp s)
       (F_h s) (F_x s) = Ok (top, xi, L_ptr k s, x, h) /\
    forall i, 0 <= i < n ->
      ((exists a, top <= a < n /\ rd xi a = i) -> rd x i = exact_value Ap Ai Ax q (F_rowp s) k i (rd (F_pinv s) i)) /\
      (exact_value Ap Ai Ax q (F_rowp s) k i (rd (F_pinv s) i) <> 0 -> exists a, top <= a < n /\ rd xi a = i).
Proof.
  intros env order tol n Ap Ai Ax q lnz unz k s V HQ He Hl Hk E.
  pose proof (at_step_inv V HQ He Hl (k := k) ltac:(lia) E) as I.
  destruct I as [P Hpv Hpiv Hh Hxi Hx Hrl Hrho HLl HUl HL HU HUs HLc HUc HUm].
  pose proof (@realloc_spec n n _ _ _ _ _ _ _ HL ltac:(lia) ltac:(lia) HLc) as HLr.
  unfold L_arrays. destruct (if F_lnz s + n >? zlen (F_Li s) then _ else _) as [Li' Lx']. simpl.
  destruct HLr as (HL1 & _).
  destruct (@tri_solve_spec n k (L_ptr k s) Li' Lx' Ap Ai Ax (F_xi s) q (F_rhos s) (F_pinv s) (F_rowp s) (F_h s) (F_x s) (F_lnz s)
     Hk V HQ P (l_ok_part HL1) Hrl Hrho Hxi Hh Hx) as (top & xi & x & h & E1 & Ht & Hxil & Hxl & Hhl & Hxr & Hxs & HR & Hx1 & Hx2 & Hout).
  exists top, xi, x, h. split; auto. intros i Hi. split.
  - intros Hin. exact (Hx2 i Hi Hin).
  - intros Hne. destruct (@inP_dec n top xi i) as [Hin|Hn]; auto. exfalso. apply Hne.
    pose proof (p_r1 P Hi) as Hr. exact (Hout i Hi Hn (Z.min k (rd (F_pinv s) i)) ltac:(lia) ltac:(lia)).
Qed.
Example C18_ex := @C18_pattern_covers exenv 3 1 4 exAp exAi exAx [0; 3; 1; 2; 0] 8 8 2 ex_state ex_valid (proj1 ex_usable) (@ex_env _) ltac:(simpl; lia) ltac:(lia) ex_at_step.

(*----------------------------------------------------------------------------*)
(* two factorizations of the same matrix *)
Lemma solve_of_factors env n nrhs A B An o o' F :
  int_csc n n A -> int_dense n nrhs B -> 1 <= n -> ~ (m_scale A == 0)%Q -> ~ (m_scale B == 0)%Q ->
  usable n An -> env_ok env (opt_pivot o) ->
  SLIP_LU_factorize env true true (Some A) (Some An) o = Ok (SOK, Out F) ->
  detz n (Cent A) <> 0 /\
  exists X, SLIP_LU_solve true true (Some B) (Some A) (Some (lu_L F)) (Some (lu_U F)) (Some (lu_rhos F)) (Some An) (Some (lu_pinv F)) o'
    = Ok (SOK, Out X) /\ rat_dense n nrhs X /\ solves n A B X.
Proof.
  intros IC ID Hn HsA HsB US He EF.
  destruct (factorize_ok_inv o IC US He EF) as (Ap & Ai & Ax & F0 & R & Hp & Hi & Hx & V & -> & K & HD & _). split; auto.
  destruct An as [q lnz unz]. eapply solve_spec; eauto. apply US.
Qed.

(* C19.  Any two runs, whatever ordering, pivoting scheme, tolerance and analysis, return the same matrix. *)
Theorem C19_independent_of_options : forall env env' n nrhs A B An An' o o' o1 o1' F F' X X',
  int_csc n n A -> int_dense n nrhs B -> 1 <= n -> 1 <= nrhs -> ~ (m_scale A == 0)%Q -> ~ (m_scale B == 0)%Q ->
  usable n An -> usable n An' -> env_ok env (opt_pivot o) -> env_ok env' (opt_pivot o') ->
  SLIP_LU_factorize env true true (Some A) (Some An) o = Ok (SOK, Out F) ->
  SLIP_LU_factorize env' true true (Some A) (Some An') o' = Ok (SOK, Out F') ->
  SLIP_LU_solve true true (Some B) (Some A) (Some (lu_L F)) (Some (lu_U F)) (Some (lu_rhos F)) (Some An) (Some (lu_pinv F)) o1 = Ok (SOK, Out X) ->
  SLIP_LU_solve true true (Some B) (Some A) (Some (lu_L F')) (Some (lu_U F')) (Some (lu_rhos F')) (Some An') (Some (lu_pinv F')) o1' = Ok (SOK, Out X') ->
  X = X'.
Proof.
  intros env env' n nrhs A B An An' o o' o1 o1' F F' X X' IC ID Hn Hr HsA HsB US US' He He' EF EF' ES ES'.
  destruct (@solve_of_factors env n nrhs A B An o o1 F IC ID Hn HsA HsB US He EF) as (HD & Y & EY & RY & SY).
  destruct (@solve_of_factors env' n nrhs A B An' o' o1' F' IC ID Hn HsA HsB US' He' EF') as (_ & Y' & EY' & RY' & SY').
  rewrite ES in EY. injection EY as <-. rewrite ES' in EY'. injection EY' as <-.
  apply (@rat_dense_ext n nrhs); auto. apply (@solves_unique n nrhs A B); auto.
Qed.
Definition sol_of (F : lu) (An : analysis) (B : matrix) (o : option options) : matrix :=
  match SLIP_LU_solve true true (Some B) (Some exA) (Some (lu_L F)) (Some (lu_U F)) (Some (lu_rhos F)) (Some An) (Some (lu_pinv F)) o with
  | Ok (_, Out X) => X | _ => B end.
Lemma ex_solve : SLIP_LU_solve true true (Some exB) (Some exA) (Some (lu_L (fac_of exAn None))) (Some (lu_U (fac_of exAn None)))
  (Some (lu_rhos (fac_of exAn None))) (Some exAn) (Some (lu_pinv (fac_of exAn None))) None = Ok (SOK, Out (sol_of (fac_of exAn None) exAn exB None)).
Proof. vm_compute. reflexivity. Qed.
Lemma ex_solve1 : SLIP_LU_solve true true (Some exB1) (Some exA) (Some (lu_L (fac_of exAn None))) (Some (lu_U (fac_of exAn None)))
  (Some (lu_rhos (fac_of exAn None))) (Some exAn) (Some (lu_pinv (fac_of exAn None))) None = Ok (SOK, Out (sol_of (fac_of exAn None) exAn exB1 None)).
Proof. vm_compute. reflexivity. Qed.
Lemma ex_solve2 : SLIP_LU_solve true true (Some exB) (Some exA) (Some (lu_L (fac_of exAn2 (exo 5)))) (Some (lu_U (fac_of exAn2 (exo 5))))
  (Some (lu_rhos (fac_of exAn2 (exo 5)))) (Some exAn2) (Some (lu_pinv (fac_of exAn2 (exo 5)))) (exo 0)
  = Ok (SOK, Out (sol_of (fac_of exAn2 (exo 5)) exAn2 exB (exo 0))).
Proof. vm_compute. reflexivity. Qed.
(* two different factorizations (ex_pinv), one solution *)
Example C19_ex := @C19_independent_of_options exenv exenv 4 2 exA exB exAn exAn2 None (exo 5) None (exo 0) _ _ _ _
  ex_csc ex_dense ex_n ltac:(lia) ex_scaleA ex_scaleB ex_usable ex_usable2 (@ex_env _) (@ex_env _) ex_factorize ex_factorize2 ex_solve ex_solve2.
(* the same for the complete driver *)
Theorem C19_backslash : forall env env' ol ol' addr addr' n nrhs A B o o',
  int_csc n n A -> int_dense n nrhs B -> 1 <= n -> 1 <= nrhs -> ~ (m_scale A == 0)%Q -> ~ (m_scale B == 0)%Q ->
  env_ok env (opt_pivot o) -> env_ok env' (opt_pivot o') ->
  SLIP_backslash env ol addr true true TMPQ (Some A) (Some B) o = SLIP_backslash env' ol' addr' true true TMPQ (Some A) (Some B) o'.
Proof.
  intros env env' ol ol' addr addr' n nrhs A B o o' IC ID Hn Hr HsA HsB He He'.
  destruct (@backslash_spec env ol addr n nrhs A B TMPQ o IC ID He Hn HsA HsB ltac:(auto)) as [(HD & X & RX & SX & ->)|(HD & ->)];
  destruct (@backslash_spec env' ol' addr' n nrhs A B TMPQ o' IC ID He' Hn HsA HsB ltac:(auto)) as [(HD' & X' & RX' & SX' & ->)|(HD' & ->)];
    try contradiction; auto.
  simpl. replace X' with X; auto. apply (@rat_dense_ext n nrhs); auto. apply (@solves_unique n nrhs A B); auto.
Qed.
Example C19_ex2 := @C19_backslash exenv exenv exol exol (fun _ => 0) (fun _ => 0) 4 2 exA exB None (exo 5)
  ex_csc ex_dense ex_n ltac:(lia) ex_scaleA ex_scaleB (@ex_env _) (@ex_env _).

(* C20.  B1 holds column c of B: the solution for B1 alone is column c of the solution for B. *)
Theorem C20_columns_independent : forall env n nrhs A B B1 c An o o1 o2 F X X1,
  int_csc n n A -> int_dense n nrhs B -> int_dense n 1 B1 -> 1 <= n -> ~ (m_scale A == 0)%Q -> ~ (m_scale B == 0)%Q ->
  0 <= c < nrhs -> m_scale B1 = m_scale B -> (forall i, 0 <= i < n -> Dent B1 i 0 = Dent B i c) ->
  usable n An -> env_ok env (opt_pivot o) ->
  SLIP_LU_factorize env true true (Some A) (Some An) o = Ok (SOK, Out F) ->
  SLIP_LU_solve true true (Some B) (Some A) (Some (lu_L F)) (Some (lu_U F)) (Some (lu_rhos F)) (Some An) (Some (lu_pinv F)) o1 = Ok (SOK, Out X) ->
  SLIP_LU_solve true true (Some B1) (Some A) (Some (lu_L F)) (Some (lu_U F)) (Some (lu_rhos F)) (Some An) (Some (lu_pinv F)) o2 = Ok (SOK, Out X1) ->
  forall i, 0 <= i < n -> Qent X1 i 0 = Qent X i c.
Proof.
  intros env n nrhs A B B1 c An o o1 o2 F X X1 IC ID ID1 Hn HsA HsB Hc Hs HB US He EF EX EX1 i Hi.
  destruct (@solve_of_factors env n nrhs A B An o o1 F IC ID Hn HsA HsB US He EF) as (HD & Y & EY & RY & SY).
  rewrite EX in EY. injection EY as <-.
  destruct (@solve_of_factors env n 1 A B1 An o o2 F IC ID1 Hn HsA ltac:(rewrite Hs; auto) US He EF) as (_ & Y & EY & RY1 & SY1).
  rewrite EX1 in EY. injection EY as <-.
  set (col := map (fun i => Qent X i c) (zseq 0 n)).
  assert (Hl : zlen col = n) by (unfold zlen, col, zseq; rewrite !map_length, seq_length; lia).
  set (Y := mkM n 1 n 0 KDENSE TMPQ None None None (Some (VQ col)) 1%Q).
  assert (HY : forall i, 0 <= i < n -> Qent Y i 0 = Qent X i c).
  { intros j Hj. unfold Qent at 1. simpl. rewrite Z.add_0_r. unfold rdq, col.
    rewrite nth_indep with (d' := Qent X 0 c). 2:{ unfold zlen, col in Hl. lia. }
    rewrite (map_nth (fun i => Qent X i c)). f_equal. change (rd (zseq 0 n) j = j). rewrite rd_zseq; lia. }
  assert (RYY : rat_dense n 1 Y).
  { constructor; simpl; auto. split; auto. lia. exists col. split; auto. split. lia.
    intros v Hv. unfold col in Hv. apply in_map_iff in Hv. destruct Hv as (j & <- & Hj). apply in_zseq in Hj.
    destruct (rq_arr RY) as (x & Ex & Lx & Cx). unfold Qent. rewrite Ex. apply (all_canon_rdq Cx). }
  assert (SYY : solves n A B1 Y).
  { intros j r Hj Hr. rewrite (id_n ID1) in Hr. assert (r = 0) as -> by lia.
    rewrite HB, Hs by auto. rewrite <- (SY j c Hj) by (rewrite (id_n ID); auto). apply sumQ_ext. intros t Ht. rewrite HY by auto. reflexivity. }
  rewrite <- HY by auto. eapply (@solves_unique n 1 A B1); eauto. lia.
Qed.
Example C20_ex := @C20_columns_independent exenv 4 2 exA exB exB1 1 exAn None None None _ _ _ ex_csc ex_dense ex_dense1 ex_n ex_scaleA ex_scaleB
  ltac:(lia) eq_refl ltac:(intros i Hi; assert (i = 0 \/ i = 1 \/ i = 2 \/ i = 3) as [->|[->|[->| ->]]] by lia; reflexivity)
  ex_usable (@ex_env _) ex_factorize ex_solve ex_solve1.

(* C22.  The internal check: SLIP_OK iff A*x = b exactly, SLIP_INCORRECT otherwise (x and b without scale factors). *)
Theorem C22_check_exact : forall m nrhs Ap Ai Ax (x : list Q) (b : list Z),
  valid_csc m m Ap Ai Ax -> 0 <= nrhs -> m * nrhs <= zlen x -> m * nrhs <= zlen b ->
  let exact := forall i r, 0 <= i < m -> 0 <= r < nrhs ->
      (sumQ m (fun c => inject_Z (ent Ap Ai Ax i c) * rdq x (c + r * m)) == inject_Z (rd b (i + r * m)))%Q in
  (slip_check_solution m nrhs Ap Ai Ax x b = Ok tt /\ exact) \/ (slip_check_solution m nrhs Ap Ai Ax x b = Err SLIP_INCORRECT /\ ~ exact).
Proof.
  intros m nrhs Ap Ai Ax x b V Hr Hx Hb exact.
  pose proof (@check_spec m nrhs Ap Ai Ax V Hr x b Hx Hb) as C.
  destruct (slip_check_solution m nrhs Ap Ai Ax x b) as [[]|e| |]; simpl in C; try contradiction.
  - left. split; auto.
  - right. destruct C as [-> C]. split; auto.
Qed.
Example C22_ex : slip_check_solution 2 1 [0; 1; 3] [0; 0; 1] [2; 1; 4] [1 # 2; 3 # 4]%Q [7; 3] = Err SLIP_INCORRECT /\
  slip_check_solution 2 1 [0; 1; 3] [0; 0; 1] [2; 1; 4] [3 # 1; 1 # 2]%Q [6; 2] = Err SLIP_INCORRECT /\
  slip_check_solution 2 1 [0; 1; 3] [0; 0; 1] [2; 1; 4] [11 # 4; 3 # 2]%Q [7; 6] = Ok tt /\
  valid_csc 2 2 [0; 1; 3] [0; 0; 1] [2; 1; 4].
Proof. split; [vm_compute; reflexivity|]. split; [vm_compute; reflexivity|]. split; [vm_compute; reflexivity|]. apply valid_cscb_ok. reflexivity. Qed.
(* ... and with option->check set, solve still always succeeds *)
Theorem C22_never_fires : forall env n nrhs A B An o o' F,
  int_csc n n A -> int_dense n nrhs B -> 1 <= n -> ~ (m_scale A == 0)%Q -> ~ (m_scale B == 0)%Q ->
  usable n An -> env_ok env (opt_pivot o) -> opt_check o' = true ->
  SLIP_LU_factorize env true true (Some A) (Some An) o = Ok (SOK, Out F) ->
  exists X, SLIP_LU_solve true true (Some B) (Some A) (Some (lu_L F)) (Some (lu_U F)) (Some (lu_rhos F)) (Some An) (Some (lu_pinv F)) o'
    = Ok (SOK, Out X).
Proof.
  intros env n nrhs A B An o o' F IC ID Hn HsA HsB US He Hc EF.
  destruct (@solve_of_factors env n nrhs A B An o o' F IC ID Hn HsA HsB US He EF) as (_ & X & E & _). eauto.
Qed.
Example C22_ex2 := @C22_never_fires exenv 4 2 exA exB exAn None (Some (mkO 3 1 1%Q 0 128 RNDN true)) _ ex_csc ex_dense ex_n ex_scaleA ex_scaleB ex_usable (@ex_env _) eq_refl ex_factorize.

(* C23.  A and B represent A/scaleA and B/scaleB.  A0, B0 are the same matrices with scale 1. *)
Definition unscaled (A : matrix) : matrix := with_scale A 1%Q.
Theorem C23_scales : forall env n nrhs A B An o o' F,
  int_csc n n A -> int_dense n nrhs B -> 1 <= n -> ~ (m_scale A == 0)%Q -> ~ (m_scale B == 0)%Q ->
  usable n An -> env_ok env (opt_pivot o) ->
  SLIP_LU_factorize env true true (Some A) (Some An) o = Ok (SOK, Out F) ->
  exists X X0,
    SLIP_LU_solve true true (Some B) (Some A) (Some (lu_L F)) (Some (lu_U F)) (Some (lu_rhos F)) (Some An) (Some (lu_pinv F)) o' = Ok (SOK, Out X) /\
    SLIP_LU_solve true true (Some (unscaled B)) (Some (unscaled A)) (Some (lu_L F)) (Some (lu_U F)) (Some (lu_rhos F)) (Some An) (Some (lu_pinv F)) o'
      = Ok (SOK, Out X0) /\
    (forall i r, 0 <= i < n -> 0 <= r < nrhs -> (Qent X i r == Qent X0 i r * (m_scale A / m_scale B))%Q).
Proof.
  intros env n nrhs A B An o o' F IC ID Hn HsA HsB US He EF.
  destruct (@solve_of_factors env n nrhs A B An o o' F IC ID Hn HsA HsB US He EF) as (HD & X & EX & RX & SX).
  assert (IC0 : int_csc n n (unscaled A)) by (destruct IC; constructor; auto).
  assert (ID0 : int_dense n nrhs (unscaled B)) by (destruct ID; constructor; auto).
  assert (EF0 : SLIP_LU_factorize env true true (Some (unscaled A)) (Some An) o = Ok (SOK, Out F)) by exact EF.
  destruct (@solve_of_factors env n nrhs (unscaled A) (unscaled B) An o o' F IC0 ID0 Hn ltac:(discriminate) ltac:(discriminate) US He EF0)
    as (_ & X0 & EX0 & RX0 & SX0).
  exists X, X0. split; auto. split; auto. intros i r Hi Hr.
  destruct (rq_arr RX0) as (x0 & Ex0 & Lx0 & Cx0).
  set (y := map (fun v => Qred (v * (m_scale A / m_scale B))) x0).
  set (Y := mkM n nrhs (Z.max (n * nrhs) 1) 0 KDENSE TMPQ None None None (Some (VQ y)) 1%Q).
  assert (HY : forall j c, 0 <= j < n -> 0 <= c < nrhs -> (Qent Y j c == Qent X0 j c * (m_scale A / m_scale B))%Q).
  { intros j c Hj Hc. unfold Qent. rewrite Ex0, (rq_m RX0). simpl. unfold rdq, y.
    rewrite nth_indep with (d' := Qred (0 * (m_scale A / m_scale B))). 2:{ rewrite map_length. unfold zlen in Lx0. nia. }
    rewrite (map_nth (fun v => Qred (v * (m_scale A / m_scale B)))). apply Qred_correct. }
  assert (RY : rat_dense n nrhs Y).
  { constructor; simpl; auto. exists y. split; auto. split. unfold y, zlen. rewrite map_length. exact Lx0.
    intros v Hv. unfold y in Hv. apply in_map_iff in Hv. destruct Hv as (w & <- & _). apply Qred_complete, Qred_correct. }
  assert (SY : solves n A B Y).
  { intros j c Hj Hc. assert (Hc' : 0 <= c < nrhs) by (rewrite (id_n ID) in Hc; auto).
    specialize (SX0 j c Hj Hc). unfold unscaled in SX0. cbn [m_scale with_scale] in SX0.
    assert (E : (inject_Z (Dent B j c) == sumQ n (fun t => inject_Z (Cent A j t) * Qent X0 t c))%Q).
    { transitivity (inject_Z (Dent B j c) / 1)%Q. field. change (Dent B j c) with (Dent (with_scale B 1%Q) j c). rewrite <- SX0.
      apply sumQ_ext. intros t Ht. change (Cent (with_scale A 1%Q) j t) with (Cent A j t). field. }
    rewrite E. rewrite (@sumQ_ext n _ (fun t => / m_scale B * (inject_Z (Cent A j t) * Qent X0 t c))%Q).
    - rewrite sumQ_scal. field. auto.
    - intros t Ht. rewrite HY by auto. field. auto. }
  rewrite <- HY by auto. rewrite (@solves_unique n nrhs A B X Y IC ID HD HsA RX RY SX SY i r Hi Hr). reflexivity.
Qed.
Example C23_ex := @C23_scales exenv 4 2 exA exB exAn None None _ ex_csc ex_dense ex_n ex_scaleA ex_scaleB ex_usable (@ex_env _) ex_factorize.

(* C24.  At every step, one doubling makes room for the column, and no column is ever written past the arrays. *)
Theorem C24_capacity : forall env order tol n Ap Ai Ax q lnz unz k s,
  valid_csc n n Ap Ai Ax -> is_perm n q -> env_ok env order -> n <= 2 * Z.max lnz 1 -> 0 <= k <= n ->
  at_step env order tol n Ap Ai Ax q lnz unz k s ->
  F_lnz s <= zlen (F_Li s) /\ F_unz s <= zlen (F_Ui s) /\
  (k < n -> F_lnz s + n <= 2 * zlen (F_Li s) /\ F_unz s + (k + 1) <= 2 * zlen (F_Ui s)) /\
  (k < n -> (exists s', factor_step env order tol n Ap Ai Ax q k s = Ok s' /\ at_step env order tol n Ap Ai Ax q lnz unz (k + 1) s') \/
            factor_step env order tol n Ap Ai Ax q k s = Err SLIP_SINGULAR).
Proof.
  intros env order tol n Ap Ai Ax q lnz unz k s V HQ He Hl Hk E.
  pose proof (at_step_inv V HQ He Hl Hk E) as I.
  split. apply (cp_cap (fi_L I)). split. apply (cp_cap (fi_U I)). split.
  - intros H. pose proof (fi_Lc I). pose proof (fi_Uc I H). lia.
  - intros H. pose proof (@factor_step_spec n Ap Ai Ax q V HQ env order tol k s He ltac:(lia) I) as W.
    destruct (factor_step env order tol n Ap Ai Ax q k s) as [s'|e| |] eqn:ES; simpl in W; try contradiction.
    + left. exists s'. split; auto. unfold at_step in *. rewrite for_snoc by lia. rewrite E. simpl. exact ES.
    + right. destruct W as [-> _]. auto.
Qed.
Example C24_ex := @C24_capacity exenv 3 1 4 exAp exAi exAx [0; 3; 1; 2; 0] 8 8 2 ex_state ex_valid (proj1 ex_usable) (@ex_env _) ltac:(simpl; lia) ltac:(lia) ex_at_step.

(*----------------------------------------------------------------------------*)
(* C25.  Analyze. *)
Theorem C25_usable_analysis : forall ol A Ap Ai n o,
  m_kind A = KCSC -> m_m A = n -> m_n A = n -> m_p A = Some Ap -> m_i A = Some Ai -> valid_pattern n n Ap Ai ->
  exists An, SLIP_LU_analyze ol true true (Some A) o = Ok (SOK, Out An) /\
    is_perm n (s_q An) /\ (1 <= n -> n <= s_lnz An <= n * n /\ n <= s_unz An <= n * n) /\
    (opt_order o = ORD_NONE -> forall c, 0 <= c < n -> rd (s_q An) c = c).
Proof.
  intros ol A Ap Ai n o H1 H2 H3 H4 H5 V. destruct (@analyze_spec ol A Ap Ai n o H1 H2 H3 H4 H5 V) as (An & E & (U1 & U2 & U3) & U4 & U5).
  exists An. split; [exact E|]. split; [exact U1|]. split; [|exact U4]. intros H. destruct (U5 H). lia.
Qed.
(* with AMD as well; for n = 0 see C79_empty_refuted *)
Example C25_ex0 := @C25_usable_analysis exol exA exAp exAi 4 (Some (mkO 3 2 1%Q 0 128 RNDN false)) eq_refl eq_refl eq_refl eq_refl eq_refl (csc_pattern ex_valid).
Example C25_ex := @C25_usable_analysis exol exA exAp exAi 4 None eq_refl eq_refl eq_refl eq_refl eq_refl (csc_pattern ex_valid).
(* rejected calls leave the handle alone *)
Theorem C25_rejections : forall ol handle A o,
  SLIP_LU_analyze ol false handle A o = Ok (SErr SLIP_PANIC, Kept) /\
  ((A = None \/ (exists M, A = Some M /\ (m_kind M <> KCSC \/ m_n M <> m_m M)) \/ handle = false) ->
   SLIP_LU_analyze ol true handle A o = Ok (SErr SLIP_INCORRECT_INPUT, Kept)).
Proof.
  intros ol handle A o. split. reflexivity.
  intros [->|[(M & -> & H)| ->]]; unfold SLIP_LU_analyze, has_kind; simpl; auto.
  - destruct (Z.eqb_spec (m_kind M) KCSC) as [e|e]; simpl; auto. destruct H as [H|H]. contradiction.
    destruct (Z.eqb_spec (m_n M) (m_m M)); [contradiction|]. simpl. rewrite orb_true_r. auto.
  - destruct A as [M|]; auto. destruct (m_kind M =? KCSC); simpl; auto.
Qed.
(* C26.  The complete driver. *)
Theorem C26_backslash : forall env ol addr n nrhs A B o,
  int_csc n n A -> int_dense n nrhs B -> env_ok env (opt_pivot o) ->
  1 <= n -> ~ (m_scale A == 0)%Q -> ~ (m_scale B == 0)%Q ->
  (detz n (Cent A) <> 0 /\ exists X, SLIP_backslash env ol addr true true TMPQ (Some A) (Some B) o = Ok (SOK, Out X) /\
     rat_dense n nrhs X /\ solves n A B X) \/
  (detz n (Cent A) = 0 /\ SLIP_backslash env ol addr true true TMPQ (Some A) (Some B) o = Ok (SErr SLIP_SINGULAR, Null)).
Proof.
  intros env ol addr n nrhs A B o IC ID He Hn HsA HsB.
  destruct (@backslash_spec env ol addr n nrhs A B TMPQ o IC ID He Hn HsA HsB ltac:(auto)) as [(HD & X & RX & SX & ->)|(HD & ->)]; eauto.
  left. split; auto. exists X. auto.
Qed.
Example C26_ex := @C26_backslash exenv exol (fun _ => 0) 4 2 exA exB None ex_csc ex_dense (@ex_env _) ex_n ex_scaleA ex_scaleB.
Example C26_ex2 : match SLIP_backslash exenv exol (fun _ => 0) true true TMPQ (Some exA) (Some exB) None with
  | Ok (SOK, Out X) => rdq (match m_x X with Some (VQ l) => l | _ => [] end) 0 | _ => 0%Q end = (8 # 5)%Q.
Proof. vm_compute. reflexivity. Qed.
Theorem C26_rejections : forall env ol addr handle type A B o,
  SLIP_backslash env ol addr false handle type A B o = Ok (SErr SLIP_PANIC, Kept) /\
  SLIP_backslash env ol addr true false type A B o = Ok (SErr SLIP_INCORRECT_INPUT, Kept) /\
  (~ In type [TMPQ; TDBL; TMPFR] -> SLIP_backslash env ol addr true true type A B o = Ok (SErr SLIP_INCORRECT_INPUT, Null)) /\
  (has_kt A KCSC TMPZ = false \/ has_kt B KDENSE TMPZ = false ->
     SLIP_backslash env ol addr true true type A B o = Ok (SErr SLIP_INCORRECT_INPUT, Null)).
Proof.
  intros env ol addr handle type A B o. split; [|split; [|split]]; try reflexivity.
  - intros H. simpl in H. unfold SLIP_backslash. simpl.
    destruct (Z.eqb_spec type TMPQ); [exfalso; auto|]. destruct (Z.eqb_spec type TDBL); [exfalso; auto|].
    destruct (Z.eqb_spec type TMPFR); [exfalso; auto|]. reflexivity.
  - intros H. unfold SLIP_backslash. simpl. destruct (negb (type =? TMPQ) && negb (type =? TDBL) && negb (type =? TMPFR)); auto.
    destruct H as [-> | ->]; simpl; auto. destruct (negb (has_kt A KCSC TMPZ)); auto.
Qed.

(* C27.  Factorize does not check that A is square.  With at most as many rows as columns it is safe, and a matrix with fewer
   rows is always reported singular ... *)
Lemma detz_zero_row n f r : 0 <= r < n -> (forall c, 0 <= c < n -> f r c = 0) -> detz n f = 0.
Proof.
  intros Hr H. destruct (adjz_ex n f) as (w & H1 & _). specialize (H1 r r Hr Hr). rewrite Z.eqb_refl in H1. rewrite <- H1.
  rewrite (@sumz_ext n _ (fun c => 0 * 0)); [|lia|intros c Hc; rewrite H; lia]. rewrite sumz_scal by lia. lia.
Qed.
Theorem C27_wide_is_safe : forall env m n A An o,
  int_csc m n A -> m <= n -> usable n An -> env_ok env (opt_pivot o) ->
  (exists F, SLIP_LU_factorize env true true (Some A) (Some An) o = Ok (SOK, Out F) /\ m = n) \/
  SLIP_LU_factorize env true true (Some A) (Some An) o = Ok (SErr SLIP_SINGULAR, Null).
Proof.
  intros env m n A An o IC Hmn US He.
  set (A' := mkM n (m_n A) (m_nzmax A) (m_nz A) (m_kind A) (m_type A) (m_p A) (m_i A) (m_j A) (m_x A) (m_scale A)).
  assert (E : SLIP_LU_factorize env true true (Some A) (Some An) o = SLIP_LU_factorize env true true (Some A') (Some An) o).
  { unfold SLIP_LU_factorize, has_kt, matrix_nnz. simpl. rewrite (ic_kind IC). reflexivity. }
  destruct (ic_arr IC) as (Ap & Ai & Ax & Hp & Hi & Hx & V).
  assert (IC' : int_csc n n A').
  { constructor; simpl; try apply IC; auto. exists Ap, Ai, Ax. split; auto. split; auto. split; auto.
    destruct V as [V1 V2 V3 V4 V5 V6 V7 V8 V9]. constructor; auto. intros p Hp'. specialize (V8 p Hp'). lia. }
  rewrite E. destruct (C02_singular_iff o IC' US He) as [(HD & F & EF)|(HD & EF)]; auto.
  left. exists F. split; auto. destruct (Z.eq_dec m n); auto. exfalso. apply HD. apply detz_zero_row with (r := m).
  pose proof (v_m V). lia. intros c Hc. unfold Cent; simpl. rewrite Hp, Hi, Hx. apply ent_none. intros p Hpp Ee.
  pose proof (v_ptr V (c := c) (d := c + 1) ltac:(lia) ltac:(lia)). specialize (v_i V (p := p) ltac:(lia)). lia.
Qed.
Example C27_ex : int_csc 1 2 (mkcsc 1 2 [0; 1; 2] [0; 0] [3; 5]) /\ usable 2 (mkS [1; 0] 2 2) /\
  SLIP_LU_factorize exenv true true (Some (mkcsc 1 2 [0; 1; 2] [0; 0] [3; 5])) (Some (mkS [1; 0] 2 2)) None = Ok (SErr SLIP_SINGULAR, Null).
Proof. split. apply int_cscb. reflexivity. split. apply usableb. reflexivity. vm_compute. reflexivity. Qed.
(* ... but a valid matrix with more rows than columns makes it read outside its workspace. *)
Definition tall : matrix := mkcsc 2 1 [0; 2] [0; 1] [3; 5].
Theorem C27_tall_refuted : exists A An, int_csc 2 1 A /\ usable 1 An /\
  forall env o, SLIP_LU_factorize env true true (Some A) (Some An) o = UB.
Proof.
  exists tall, (mkS [0; 1] 2 2). split; [|split].
  - apply int_cscb. reflexivity.
  - apply usableb. reflexivity.
  - intros env o. vm_compute. reflexivity.
Qed.

(* C28.  Solve is safe for every n >= 1, whatever usable analysis was used ... *)
Theorem C28_nonempty : forall env n nrhs A B An F o o',
  int_csc n n A -> int_dense n nrhs B -> 1 <= n -> ~ (m_scale A == 0)%Q -> ~ (m_scale B == 0)%Q -> usable n An -> env_ok env (opt_pivot o) ->
  SLIP_LU_factorize env true true (Some A) (Some An) o = Ok (SOK, Out F) ->
  exists X, SLIP_LU_solve true true (Some B) (Some A) (Some (lu_L F)) (Some (lu_U F)) (Some (lu_rhos F)) (Some An) (Some (lu_pinv F)) o'
    = Ok (SOK, Out X).
Proof.
  intros env n nrhs A B An F o o' IC ID Hn HsA HsB US He EF.
  destruct (factorize_ok_inv o IC US He EF) as (Ap' & Ai' & Ax' & F0 & R & Hp' & Hi' & Hx' & V' & -> & K & _).
  destruct An as [q lnz unz].
  assert (G : exists X, SLIP_LU_solve true true (Some B) (Some A) (Some (lu_L (lu_of n F0))) (Some (lu_U (lu_of n F0))) (Some (lu_rhos (lu_of n F0)))
    (Some (mkS q lnz unz)) (Some (lu_pinv (lu_of n F0))) o' = Ok (SOK, Out X) /\ rat_dense n nrhs X /\ solves n A B X) . { eapply solve_spec; eauto. apply US. }
  destruct G as (X & E & _). eauto.
Qed.
Example C28_nonempty_ex := @C28_nonempty exenv 4 2 exA exB exAn (fac_of exAn None) None None
  ex_csc ex_dense ex_n ex_scaleA ex_scaleB ex_usable (@ex_env _) ex_factorize.
(* ... and for n = 0 it always reads rhos[-1]. *)
Theorem C28_empty_refuted : forall env nrhs A B An F o o',
  int_csc 0 0 A -> int_dense 0 nrhs B -> usable 0 An ->
  SLIP_LU_factorize env true true (Some A) (Some An) o = Ok (SOK, Out F) ->
  SLIP_LU_solve true true (Some B) (Some A) (Some (lu_L F)) (Some (lu_U F)) (Some (lu_rhos F)) (Some An) (Some (lu_pinv F)) o' = UB.
Proof.
  intros env nrhs A B An F o o' IC ID US EF.
  destruct (ic_arr IC) as (Ap & Ai & Ax & Hp & Hi & Hx & V). destruct (id_arr ID) as (b & Hb & Hbl).
  destruct (nnz_csc A (ic_kind IC) (ic_n IC) Hp (csc_pattern V)) as [Hz Hz0].
  assert (exists F0, F = lu_of 0 F0 ) as (F0 & ->).
  { unfold SLIP_LU_factorize, has_kt in EF. rewrite (ic_kind IC), (ic_type IC), Hz in EF. simpl in EF.
    destruct (rd Ap 0 <? 0); try discriminate. unfold xmpz in EF. rewrite Hp, Hi, Hx in EF. cbn [deref bind] in EF. rewrite (ic_n IC) in EF.
    destruct (factorize_core env (opt_pivot o) (opt_tol o) 0 Ap Ai Ax (s_q An) (s_lnz An) (s_unz An)) as [F1| | |]; try discriminate.
    exists F1. simpl in EF. congruence. }
  unfold SLIP_LU_solve, has_kt, lu_of, csc_matrix, dense_matrix; simpl.
  rewrite (ic_kind IC), (ic_type IC), (ic_m IC), (ic_n IC), (id_kind ID), (id_type ID), (id_m ID), (id_n ID). simpl.
  unfold xmpz. rewrite Hp, Hi, Hx, Hb. cbn [deref bind m_x csc_matrix dense_matrix]. unfold solve_core, slip_permute_b, slip_forward_sub.
  assert (G : forall m (st : list Z * list Z), floop m 0 (fun k st => for_ 0 0 (fun i st => fwd_row 0 k (fac_Lp F0) (fac_Li F0) (fac_Lx F0) (fac_rhos F0) i st) st) st = Ok st).
  { intros m st. generalize 0 at 1. induction m; intros z; simpl; auto. }
  pose proof (id_pos ID) as [_ Hr0]. destruct (Z.ltb_spec nrhs 0); try lia. cbn [orb Z.ltb Z.compare].
  cbn [for_ floop Z.to_nat Z.sub Z.opp Z.add bind]. unfold for_ at 1. cbn [fac_Lp fac_Li fac_Lx fac_rhos fac_pinv]. rewrite G. simpl. reflexivity.
Qed.
Example C28_ex : let A := mkM 0 0 1 0 KCSC TMPZ (Some [0]) (Some [0]) None (Some (VZ [0])) 1%Q in
  let B := mkM 0 1 1 0 KDENSE TMPZ None None None (Some (VZ [0])) 1%Q in
  int_csc 0 0 A /\ int_dense 0 1 B /\ usable 0 (mkS [0] 0 0) /\
  exists F, SLIP_LU_factorize exenv true true (Some A) (Some (mkS [0] 0 0)) None = Ok (SOK, Out F).
Proof.
  split. constructor; try reflexivity. do 3 eexists. do 3 (split; [reflexivity|]). apply valid_cscb_ok. reflexivity.
  split. constructor; try reflexivity. lia. eexists. split; reflexivity.
  split. apply usableb. reflexivity. eexists. vm_compute. reflexivity.
Qed.

(* C29.  The estimates lnz and unz carried by the (user writable) analysis only size the initial arrays.  Factorize is safe for
   every unz and every lnz with n <= 2 * max (lnz,1) ... *)
Theorem C29_estimates : forall env n A An o,
  int_csc n n A -> is_perm n (s_q An) -> n <= 2 * Z.max (s_lnz An) 1 -> env_ok env (opt_pivot o) ->
  exists st h, SLIP_LU_factorize env true true (Some A) (Some An) o = Ok (st, h).
Proof.
  intros env n A An o IC HQ Hl He. destruct (C02_singular_iff o IC (conj HQ Hl) He) as [(_ & F & ->)|(_ & ->)]; eauto.
Qed.
Example C29_ex := @C29_estimates exenv 4 exA exAn2 None ex_csc (proj1 ex_usable2) ltac:(simpl; lia) (@ex_env _).
(* ... and this bound is sharp: with a smaller lnz it writes past the end of L whenever the first column is full. *)
Lemma push_loop_full k n xi pinv x cnt : forall j Li Lx Ui Ux lnz unz,
  0 <= j -> j + Z.of_nat cnt <= n -> n <= zlen xi -> (forall a, 0 <= a < n -> 0 <= rd xi a < n) -> zlen pinv = n ->
  (forall i, 0 <= i < n -> k <= rd pinv i) ->
  match floop cnt j (fun j st => push_LU k xi pinv x j st) (Li, Lx, Ui, Ux, lnz, unz) with
  | Ok (Li', _, _, _, lnz', _) => zlen Li' = zlen Li /\ lnz' = lnz + Z.of_nat cnt /\ (0 < Z.of_nat cnt -> lnz' <= zlen Li)
  | UB => True
  | _ => False
  end.
Proof.
  induction cnt; intros j Li Lx Ui Ux lnz unz Hj Hc Hxi Hxr Hpl Hp.
  - simpl. split; auto. split; lia.
  - cbn [floop]. unfold push_LU at 1. rewrite get_rd by lia. cbn [bind]. pose proof (Hxr j ltac:(lia)) as Hr.
    rewrite get_rd by lia. cbn [bind]. destruct (get x (rd xi j)) as [v|e| |] eqn:Ex; cbn [bind]; auto; try (exfalso; revert Ex; apply get_not_err).
    specialize (Hp (rd xi j) Hr) as Hpj.
    destruct (rd pinv (rd xi j) >=? k) eqn:Eg; [|rewrite Z.geb_leb in Eg; apply Z.leb_gt in Eg; lia].
    assert (HS : forall Ui1 Ux1 unz1,
      match (let* sl := (let* Li' := set Li lnz (rd xi j) in let* Lx' := set Lx lnz v in Ok (Li', Lx', lnz + 1)) in
             let '(Li, Lx, lnz) := sl in Ok (Li, Lx, Ui1, Ux1, lnz, unz1)) with
      | Ok st => match floop cnt (j + 1) (fun j st => push_LU k xi pinv x j st) st with
                 | Ok (Li', _, _, _, lnz', _) => zlen Li' = zlen Li /\ lnz' = lnz + Z.of_nat (S cnt) /\ (0 < Z.of_nat (S cnt) -> lnz' <= zlen Li)
                 | UB => True | _ => False end
      | UB => True | _ => False end).
    { intros Ui1 Ux1 unz1. unfold set at 1. destruct ((0 <=? lnz) && (lnz <? zlen Li)) eqn:E1; [|simpl; auto]. cbn [bind].
      apply andb_true_iff in E1. destruct E1 as [E1 E2]. apply Z.leb_le in E1. apply Z.ltb_lt in E2.
      unfold set at 1. destruct ((0 <=? lnz) && (lnz <? zlen Lx)) eqn:E3; [|simpl; auto]. cbn [bind].
      specialize (IHcnt (j + 1) (upd Li (Z.to_nat lnz) (rd xi j)) (upd Lx (Z.to_nat lnz) v) Ui1 Ux1 (lnz + 1) unz1 ltac:(lia) ltac:(lia) Hxi Hxr Hpl Hp).
      destruct (floop cnt (j + 1) _ _) as [[[[[[Li' Lx'] Ui'] Ux'] lnz'] unz']| | |]; auto.
      rewrite zlen_upd in IHcnt. destruct IHcnt as (I1 & I2 & I3). split; auto. split. lia. intros _.
      destruct cnt; [simpl in *; lia|]. lia. }
    destruct (rd pinv (rd xi j) <=? k).
    + unfold set at 1. destruct ((0 <=? unz) && (unz <? zlen Ui)); [|simpl; auto]. cbn [bind].
      unfold set at 1. destruct ((0 <=? unz) && (unz <? zlen Ux)); [|simpl; auto]. cbn [bind].
      specialize (HS (upd Ui (Z.to_nat unz) (rd xi j)) (upd Ux (Z.to_nat unz) v) (unz + 1)).
      destruct (let* sl := _ in _) as [st|e| |]; cbn [bind]; auto.
    + cbn [bind]. specialize (HS Ui Ux unz). destruct (let* sl := _ in _) as [st|e| |]; cbn [bind]; auto.
Qed.

Theorem C29_sharp : forall env n A An o,
  int_csc n n A -> is_perm n (s_q An) -> 2 * Z.max (s_lnz An) 1 < n -> env_ok env (opt_pivot o) ->
  (forall i, 0 <= i < n -> Cent A i (rd (s_q An) 0) <> 0) ->
  SLIP_LU_factorize env true true (Some A) (Some An) o = UB.
Proof.
  intros env n A An o IC HQ Hl He Hfull.
  destruct (ic_arr IC) as (Ap & Ai & Ax & Hp & Hi & Hx & V).
  destruct (nnz_csc A (ic_kind IC) (ic_n IC) Hp (csc_pattern V)) as [Hz Hz0].
  unfold SLIP_LU_factorize, has_kt. rewrite (ic_kind IC), (ic_type IC), Hz. simpl negb. cbn iota.
  destruct (Z.ltb_spec (rd Ap n) 0); try lia. cbn [orb negb]. cbn iota. unfold xmpz. rewrite Hp, Hi, Hx. cbn [deref bind]. rewrite (ic_n IC).
  assert (HM : forall i, 0 <= i < n -> ent Ap Ai Ax i (rd (s_q An) 0) <> 0).
  { intros i Hi'. specialize (Hfull i Hi'). unfold Cent in Hfull. rewrite Hp, Hi, Hx in Hfull. auto. }
  set (q := s_q An) in *. set (lnz := s_lnz An) in *. set (unz := s_unz An).
  assert (E : factor_step env (opt_pivot o) (opt_tol o) n Ap Ai Ax q 0 (factor_init n lnz unz) = UB).
  2:{ unfold factorize_core, for_. replace (Z.to_nat (n - 0)) with (S (Z.to_nat (n - 1))) by lia. cbn [floop]. rewrite E. reflexivity. }
  unfold factor_step, factor_init. cbn [F_Lp F_Up F_lnz F_unz F_Li F_Lx F_Ui F_Ux F_xi F_rhos F_pinv F_rowp F_h F_x F_pivs].
  rewrite set_wr by (rewrite zlen_mk; lia). cbn [bind].
  pose proof HQ as (Q1 & Q2 & Q3). rewrite (get_rd q) by lia. cbn [bind]. rewrite !zlen_mk by lia.
  destruct (Z.gtb_spec (0 + n) (Z.max lnz 1)); [|lia]. unfold sparse_realloc at 1. rewrite !zlen_mk by lia.
  set (Li := mk (Z.max lnz 1) 0 ++ mk (Z.max lnz 1) 0).
  assert (HLi : zlen Li = 2 * Z.max lnz 1) by (unfold Li; rewrite zlen_app, zlen_mk; lia).
  destruct (if 0 + n >? Z.max unz 1 then _ else _) as [Ui Ux].
  set (Lp := wr (mk (n + 1) 0) 0 0). set (M := colmat Ap Ai Ax q).
  assert (P : perm_ok n (zseq 0 n) (zseq 0 n)).
  { constructor; rewrite ?zlen_zseq by lia; try lia; intros i Hi'; rewrite !rd_zseq; try lia. rewrite rd_zseq; lia. rewrite rd_zseq; lia. }
  assert (LK : l_ok M n 0 Lp Li Li (zseq 0 n) (zseq 0 n) 0).
  { constructor; unfold Lp; rewrite ?zlen_wr, ?zlen_mk by lia; auto; try (intros; lia).
    - rewrite rd_wr_eq; rewrite ?zlen_mk; lia.
    - rewrite rd_wr_eq; rewrite ?zlen_mk; lia.
    - intros j Hj. rewrite rd_wr_ne by lia. apply rd_mk0. }
  destruct (@tri_solve_spec n 0 Lp Li Li Ap Ai Ax (mk (2 * n) 0) q (mk n 0) (zseq 0 n) (zseq 0 n) (mk n (-1)) (mk n 0) 0
     ltac:(lia) V HQ P LK ltac:(rewrite zlen_mk; lia) ltac:(intros; lia) ltac:(rewrite zlen_mk; lia) ltac:(rewrite zlen_mk; lia) ltac:(rewrite zlen_mk; lia))
     as (top & xi & x & h & -> & Ht & Hxil & Hxl & Hhl & Hxr & Hxs & HR & Hx1 & _).
  cbn [bind].
  assert (Hall : forall i, 0 <= i < n -> inpat top n xi i).
  { intros i Hi'. apply HR. destruct (@inP_dec n top xi i) as [Hin|Hn]. now apply HR.
    assert (Hex : exists p, rd Ap (rd q 0) <= p < rd Ap (rd q 0 + 1) /\ rd Ai p = i).
    { destruct (existsb (fun p => rd Ai p =? i) (zseq (rd Ap (rd q 0)) (rd Ap (rd q 0 + 1)))) eqn:Ee.
      - apply existsb_exists in Ee. destruct Ee as (p & Hp1 & Hp2). apply in_zseq in Hp1. apply Z.eqb_eq in Hp2. eauto.
      - exfalso. apply (HM i Hi'). apply ent_none. intros p Hp1 Hp2.
        assert (existsb (fun p => rd Ai p =? i) (zseq (rd Ap (rd q 0)) (rd Ap (rd q 0 + 1))) = true).
        { apply existsb_exists. exists p. split. now apply in_zseq. now apply Z.eqb_eq. } congruence. }
    destruct Hex as (p & Hp1 & <-). now constructor. }
  assert (top = 0) as ->.
  { assert (HL : (length (zseq 0 n) <= length (map (rd xi) (zseq top n)))%nat).
    { apply NoDup_incl_length. apply nodup_zseq_. intros i Hi'. apply in_zseq in Hi'. destruct (Hall i Hi') as (a & Ha & <-).
      apply in_map. now apply in_zseq. }
    unfold zseq in HL. rewrite !map_length, !seq_length in HL. lia. }
  assert (Hcol : 0 <= rd q 0 < n) by (apply Q2; lia).
  pose proof (@choose_pivot_spec x (mk n (-1)) xi 0 n ltac:(lia) ltac:(lia) Hxl ltac:(rewrite zlen_mk; lia) Hxr env (opt_pivot o) (opt_tol o) (rd q 0) He Hcol
     ltac:(intros; apply Hall; auto)) as HC.
  unfold slip_get_pivot. destruct (choose_pivot env (opt_pivot o) (opt_tol o) x (mk n (-1)) n 0 xi (rd q 0)) as [piv|e| |]; cbn [bind]; try contradiction.
  2:{ exfalso. destruct HC as [_ Hne]. apply (Hne (rd q 0)). split. apply Hall; auto. rewrite rd_mk by lia. split. lia.
      rewrite Hx1; auto. rewrite bm_0. apply (HM (rd q 0)). lia. rewrite rd_zseq; lia. }
  destruct HC as (Hpr & _).
  destruct (wp_ok_ex _ _ (@apply_pivot_spec n piv 0 x (mk n 0) (zseq 0 n) (zseq 0 n) (mk n (-1)) nerr ltac:(lia) Hpr P ltac:(rewrite rd_zseq; lia) Hxl
     ltac:(rewrite zlen_mk; lia) ltac:(rewrite zlen_mk; lia))) as ([[[rhos' pinv'] rowp'] pivs'] & -> & _ & _ & P' & _). cbn [bind].
  pose proof (@push_loop_full 0 n xi pinv' x (Z.to_nat (n - 0)) 0 Li Li Ui Ux 0 0 ltac:(lia) ltac:(lia) ltac:(lia) Hxr (p_l1 P')
    ltac:(intros i Hi'; apply (p_r1 P' Hi'))) as HF.
  unfold for_. destruct (floop (Z.to_nat (n - 0)) 0 _ _) as [[[[[[Li' Lx'] Ui'] Ux'] lnz'] unz']| | |]; try contradiction; auto.
  destruct HF as (F1 & F2 & F3). lia.
Qed.
Example C29_ex2 : let A := mkcsc 3 3 [0; 3; 4; 5] [0; 1; 2; 1; 2] [2; 3; 4; 5; 7] in let An := mkS [0; 1; 2] 1 9 in
  int_csc 3 3 A /\ is_perm 3 (s_q An) /\ 2 * Z.max (s_lnz An) 1 < 3 /\ forall i, 0 <= i < 3 -> Cent A i (rd (s_q An) 0) <> 0.
Proof.
  split. apply int_cscb. reflexivity. split. apply is_permb_ok. reflexivity. split. simpl. lia.
  intros i Hi. assert (i = 0 \/ i = 1 \/ i = 2) as [->|[->| ->]] by lia; vm_compute; discriminate.
Qed.

(* C54.  NULL options behave like the documented defaults, for every routine that takes options. *)
(* Include/SLIP_LU.h:114-118, slip_internal.h:160-208, the comments on the SLIP_options fields: pivot SLIP_TOL_SMALLEST (3), order SLIP_COLAMD (1), tol 1, print_level 0, prec 128, round MPFR_RNDN, check false *)
Definition documented_options : options := mkO 3 1 1%Q 0 128 RNDN false.
Theorem C54_default_options :
  default_options = documented_options /\
  (forall ol i h A, SLIP_LU_analyze ol i h A None = SLIP_LU_analyze ol i h A (Some documented_options)) /\
  (forall env i h A An, SLIP_LU_factorize env i h A An None = SLIP_LU_factorize env i h A An (Some documented_options)) /\
  (forall i h b A L U r An pinv, SLIP_LU_solve i h b A L U r An pinv None = SLIP_LU_solve i h b A L U r An pinv (Some documented_options)) /\
  (forall env ol addr i h t A b, SLIP_backslash env ol addr i h t A b None = SLIP_backslash env ol addr i h t A b (Some documented_options)) /\
  (forall addr i h k t A, matrix_copy None addr i h k t A = matrix_copy (Some documented_options) addr i h k t A).
Proof. repeat split. Qed.

(* in particular, without options the default pivot rule is followed with tolerance 1, and the column order is COLAMD's *)
Theorem C54_default_rule : forall env n A An F,
  int_csc n n A -> usable n An ->
  SLIP_LU_factorize env true true (Some A) (Some An) None = Ok (SOK, Out F) ->
  forall k, 0 <= k < n -> tol_smallest_rule (L_cand F n k) (L_val F k) (rd (lu_pinv F) (rd (s_q An) k)) 1 k.
Proof.
  intros env n A An F IC US EF k Hk. apply (@C13_tol_smallest env n A An None F); auto. simpl. intros H. repeat destruct H as [H|H]; try discriminate. auto.
Qed.
Example C54_ex := @C54_default_rule exenv 4 exA exAn _ ex_csc ex_usable ex_factorize.

(* C14, refutation of the unrestricted rule: for a negative largest candidate the comparison is made on a malformed rational, and
   depending on what GMP makes of it the documented rule is violated or the behaviour is undefined. *)
Definition neg2 : matrix := mkcsc 2 2 [0; 2; 3] [0; 1; 1] [1; -5; 1].
Theorem C14_documented_rule_refuted : exists A An o, int_csc 2 2 A /\ usable 2 An /\ opt_pivot o = 4 /\
  (exists (env : gmp_env) (F : lu), env_ok env 4 /\ SLIP_LU_factorize env true true (Some A) (Some An) o = Ok (SOK, Out F) /\
     ~ tol_largest_rule (L_cand F 2 0) (L_val F 0) (rd (lu_pinv F) (rd (s_q An) 0)) (opt_tol o) 0) /\
  (exists env : gmp_env, SLIP_LU_factorize env true true (Some A) (Some An) o = UB).
Proof.
  exists neg2, (mkS [0; 1; 2] 20 20), (Some (mkO 4 0 1 0 128 RNDN false)).
  split; [apply int_cscb; reflexivity|]. split; [apply usableb; reflexivity|]. split; [reflexivity|]. split.
  - exists (fun _ _ _ => Some true). eexists. split; [intros _; discriminate|]. split; [vm_compute; reflexivity|].
    intros (g & (G1 & G2) & _ & G3). 
    set (F := mkLU _ _ _ _) in *.
    assert (C1 : L_cand F 2 0 1) by (split; [lia|vm_compute; discriminate]).
    assert (g = 1). { destruct G1 as [G1 _]. specialize (G2 1 C1). assert (g = 0 \/ g = 1) as [-> | ->] by lia; auto. exfalso. apply G2. reflexivity. }
    subst g. assert (0 = 1); [|discriminate]. apply G3. intros [_ H]. apply H. reflexivity.
  - exists (fun _ _ _ => None). vm_compute. reflexivity.
Qed.
