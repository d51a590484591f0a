(* C90: SLIP_LU_analyze with SLIP_AMD when AMD runs out of memory, and SLIP_LU_factorize with a column order that need not be a permutation. *)
From Verif Require Import Base Det DetZ Spec MFactor MSolve MMatrix MApi ApiSpec PTri PFactor PApi Check LUEx.
From Verif Require Import PSolve2 MColamd MAmd MAmdMem PCol1 PAmd18 PAmd19 PAmd20 PAmd21 PropAmd.
Set Implicit Arguments.
Open Scope Z_scope.
Set Bullet Behavior "Strict Subproofs".

(* an allocation of AMD that is needed for this matrix fails *)
Definition amd_fails (n : Z) (Ap Ai : list Z) (mem : amem) : Prop :=
  am_Len mem = false \/ am_Pinv mem = false \/ am_S mem = false \/ (unsorted n Ap Ai /\ (am_Rp mem = false \/ am_Ri mem = false)).

Lemma malloced_snoc ol b n : 0 <= n -> malloced ol b (n + 1) = block (ol_junk ol b) 0 n ++ [ol_junk ol b n].
Proof. intros H. unfold malloced, block. rewrite zseq_snoc, map_app by lia. reflexivity. Qed.


Lemma amd_mem_granted mem ol n Ap Ai : square_pattern n Ap Ai -> ~ amd_fails n Ap Ai mem -> amd_l_order_mem mem ol n Ap Ai = amd_l_order ol n Ap Ai.
Proof.
  intros V NF. pose proof (square_jpat V) as JP. pose proof (qp_n V) as Hn. unfold amd_fails in NF.
  assert (M1 : am_Len mem = true) by (destruct (am_Len mem); tauto). assert (M2 : am_Pinv mem = true) by (destruct (am_Pinv mem); tauto). assert (M3 : am_S mem = true) by (destruct (am_S mem); tauto).
  pose proof (amd_order_ok (ol_junk ol) true (ol_amd_dense ol n) JP) as W. apply wp_ok_ex in W. destruct W as (r & E & P & lnz & -> & _). unfold amd_l_order. rewrite E.
  unfold amd_l_order_mem, amd_order_mem. unfold amd_order in E. rewrite M1, M2, M3. cbn [negb orb].
  destruct (n <? 0); [discriminate|]. destruct (n =? 0); [discriminate|]. destruct (get Ap n) as [nz| | |]; try discriminate. cbn [bind] in *. destruct (nz <? 0); [discriminate|].
  destruct (amd_valid n n Ap Ai) as [jb| | |] eqn:EV; try discriminate. cbn [bind] in E.
  assert (J : jb && (negb (am_Rp mem) || negb (am_Ri mem)) = false).
  { destruct jb; [|reflexivity]. pose proof (jumbled_unsorted JP EV) as U. destruct (am_Rp mem), (am_Ri mem); try reflexivity; exfalso; apply NF; auto 8. }
  rewrite J. destruct (if jb then _ else _) as [[Cp Ci]| | |]; try discriminate. cbn [bind] in *. destruct (amd_aat n Cp Ci _) as [[Len nzaat]| | |]; try discriminate. cbn [bind] in *.
  destruct (amd_build n _ _ _ Cp Ci Len) as [[[Pe Iw] pf]| | |]; try discriminate. cbn [bind] in *. destruct (amd_2 _ _ _ _ _ _ _) as [[P' l']| | |]; try discriminate. cbn [bind fst snd] in *. injection E as <- <-. reflexivity.
Qed.

(* what AMD_aat leaves in P: positions, increasing with the column *)
Lemma aat_left_ok n Cp Ci P0 : spat n Cp Ci -> zlen P0 = n -> exists P, aat_left n Cp Ci P0 = Ok P /\ zlen P = n /\ forall j, 0 <= j < n -> rd Cp j <= rd P j <= rd Cp (j + 1).
Proof.
  intros SP L0. pose proof (sp_n SP) as Hn. unfold aat_left.
  assert (W : wp (tr_main (fun a b Len => let* Len := inc Len a 1 in inc Len b 1) n Cp Ci (mk n 0) P0) (fun '(s, Tp) => exists D, zlen Tp = n /\ tm Cp Ci n (rd Tp) /\ dok n Cp Ci D /\ zlen s = n /\ st n Cp Ci n (U0 Cp Ci n) (rd Tp) D) nerr).
  { apply (@main_ok _ _ n Cp Ci SP (fun _ Len => zlen Len = n)).
    - intros D Len a b _ L (Ha & Hb & _ & _) _. unfold inc. apply wp_bind. wg; [lia|]. apply wp_set; [lia|]. wg; [rewrite zlen_wr; lia|]. apply wp_set; [rewrite zlen_wr; lia|]. rewrite !zlen_wr. exact L.
    - exact L0.
    - apply zlen_mk; lia. }
  apply wp_ok_ex in W. destruct W as ([s Tp] & -> & D & L & T & _). cbn [bind snd]. exists Tp. split; [reflexivity|]. split; [exact L|]. apply (m_rng T).
Qed.

Lemma amd_mem_fails mem ol n Ap Ai : square_pattern n Ap Ai -> amd_fails n Ap Ai mem -> exists q, amd_l_order_mem mem ol n Ap Ai = Ok (q, -1) /\ zlen q = n + 1 /\
  ((am_Len mem = false \/ am_Pinv mem = false \/ (unsorted n Ap Ai /\ (am_Rp mem = false \/ am_Ri mem = false))) -> q = malloced ol 0 (n + 1)) /\
  (am_Len mem = true -> am_Pinv mem = true -> ~ unsorted n Ap Ai -> forall j, 0 <= j < n -> rd Ap j <= rd q j <= rd Ap (j + 1)).
Proof.
  intros V F. pose proof (square_jpat V) as JP. pose proof (qp_n V) as Hn. pose proof (jp_ap JP) as La. pose proof (@jap n Ap Ai JP 0 n ltac:(lia) ltac:(lia)) as Z0. rewrite (jp_0 JP) in Z0.
  rewrite malloced_snoc by lia. unfold amd_fails in F. unfold amd_l_order_mem, amd_order_mem. rewrite (proj2 (Z.ltb_ge n 0)), (proj2 (Z.eqb_neq n 0)) by lia. rewrite get_rd by lia. cbn [bind]. rewrite (proj2 (Z.ltb_ge (rd Ap n) 0)) by lia.
  assert (LB : zlen (block (ol_junk ol 0) 0 n) = n) by (apply zlen_block; lia).
  pose proof (valid_ok JP) as W. apply wp_ok_ex in W. destruct W as (jb & EV & HV). rewrite EV.
  destruct (am_Len mem) eqn:M1; [|cbn [negb orb bind fst snd]; eexists; split; [reflexivity|]; split; [rewrite zlen_app, LB; reflexivity|]; split; [reflexivity|discriminate]].
  destruct (am_Pinv mem) eqn:M2; [|cbn [negb orb bind fst snd]; eexists; split; [reflexivity|]; split; [rewrite zlen_app, LB; reflexivity|]; split; [reflexivity|discriminate]].
  cbn [negb orb]. destruct (jb && (negb (am_Rp mem) || negb (am_Ri mem))) eqn:J.
  { apply Bool.andb_true_iff in J. destruct J as (-> & J). cbn [bind fst snd]. eexists. split; [reflexivity|]. split; [rewrite zlen_app, LB; reflexivity|]. split; [reflexivity|]. intros _ _ NU. exfalso. apply NU. apply (jumbled_unsorted JP EV). }
  assert (NJ : ~ (unsorted n Ap Ai /\ (am_Rp mem = false \/ am_Ri mem = false))).
  { intros (U & X). rewrite (unsorted_jumbled JP U) in EV. injection EV as <-. cbn [andb] in J. destruct X as [X|X]; rewrite X in J; cbn in J; [discriminate|]. rewrite Bool.orb_true_r in J. discriminate. }
  assert (M3 : am_S mem = false) by (destruct F as [F|[F|[F|F]]]; try discriminate; [exact F|contradiction]).
  assert (P : wp (if jb then amd_preprocess n Ap Ai (block (ol_junk ol 1) 0 (n + 1)) (block (ol_junk ol 2) 0 (rd Ap n)) else Ok (Ap, Ai)) (fun '(Cp, Ci) => spat n Cp Ci /\ (jb = false -> Cp = Ap)) nerr).
  { destruct jb; [|cbn; split; [apply HV; reflexivity|reflexivity]]. eapply wp_conseq; [apply (@preprocess_ok n Ap Ai JP); apply zlen_block; lia|]. intros [Rp Ri] (X & _). split; [exact X|discriminate]. }
  apply wp_ok_ex in P. destruct P as ((Cp & Ci) & -> & SP & HC). cbn [bind]. destruct (wp_ok_ex _ _ (@aat_ok n Cp Ci SP _ LB)) as ((Len & nzaat) & -> & _). cbn [bind]. rewrite M3. cbn [negb].
  destruct (@aat_left_ok n Cp Ci _ SP LB) as (P & -> & LP & HP). cbn [bind fst snd]. eexists. split; [reflexivity|]. split; [rewrite zlen_app, LP; reflexivity|]. split.
  - intros [X|[X|X]]; try discriminate. contradiction.
  - intros _ _ NU j Hj. assert (jb = false) as ->. { destruct jb; [|reflexivity]. exfalso. apply NU. apply (jumbled_unsorted JP EV). } rewrite <- (HC eq_refl). rewrite rd_app1 by lia. apply HP. exact Hj.
Qed.

(* C90.  SLIP_LU_analyze with the ordering AMD, on every valid square matrix, for every pattern of successes and failures of AMD's five
   allocations: SLIP_OK in every case.  If what is needed is granted, the analysis is the one of SLIP_LU_analyze, so usable (C25).  If not, the
   failure is not reported; the estimates are n-1, and the column order is what malloc returned, or the workspace of AMD_aat. *)
Theorem C90_analyze : forall mem ol A Ap Ai n o,
  m_kind A = KCSC -> m_m A = n -> m_n A = n -> m_p A = Some Ap -> m_i A = Some Ai -> valid_pattern n n Ap Ai -> 1 <= n ->
  ((opt_order o <> ORD_AMD \/ ~ amd_fails n Ap Ai mem) -> SLIP_LU_analyze_mem mem ol true true (Some A) o = SLIP_LU_analyze ol true true (Some A) o) /\
  (opt_order o = ORD_AMD -> amd_fails n Ap Ai mem ->
   exists q, SLIP_LU_analyze_mem mem ol true true (Some A) o = Ok (SOK, Out (mkS q (n - 1) (n - 1))) /\ zlen q = n + 1 /\
     ((am_Len mem = false \/ am_Pinv mem = false \/ (unsorted n Ap Ai /\ (am_Rp mem = false \/ am_Ri mem = false))) -> q = malloced ol 0 (n + 1)) /\
     (am_Len mem = true -> am_Pinv mem = true -> ~ unsorted n Ap Ai -> forall j, 0 <= j < n -> rd Ap j <= rd q j <= rd Ap (j + 1))).
Proof.
  intros mem ol A Ap Ai n o HK HM HN HP HI V Hn. pose proof (valid_square Hn V) as SV.
  assert (H0 : SLIP_LU_analyze_mem mem ol true true (Some A) o = finish (analyze_core_mem mem ol (opt_order o) A (rd Ap n)) /\ SLIP_LU_analyze ol true true (Some A) o = finish (analyze_core ol (opt_order o) A (rd Ap n))).
  { unfold SLIP_LU_analyze_mem, SLIP_LU_analyze. cbn [negb orb has_kind]. rewrite HK. change (KCSC =? KCSC) with true. cbn [negb]. rewrite HM, HN, Z.eqb_refl. cbn [negb orb].
    destruct (nnz_csc A HK HN HP V) as (Z1 & _). rewrite Z1. split; reflexivity. }
  destruct H0 as (E1 & E2). rewrite E1, E2. unfold analyze_core_mem. split.
  - intros H. destruct (Z.eqb_spec (opt_order o) ORD_AMD) as [e|ne]; [|reflexivity]. destruct H as [H|H]; [contradiction|]. unfold analyze_core. rewrite HN, HP, HI. cbn [deref bind]. rewrite e. change (ORD_AMD =? ORD_NONE) with false. change (ORD_AMD =? ORD_AMD) with true. cbv iota. rewrite (@amd_mem_granted mem ol n Ap Ai SV H). reflexivity.
  - intros e F. rewrite e. change (ORD_AMD =? ORD_AMD) with true. cbv iota. rewrite HN, HP, HI. cbn [deref bind]. destruct (@amd_mem_fails mem ol n Ap Ai SV F) as (q & -> & X). cbn [bind fst snd]. exists q. split; [|exact X].
    unfold fix_estimate. rewrite Z.gtb_ltb. destruct (Z.ltb_spec (n * n) (-1)); [nia|]. destruct (Z.ltb_spec (-1) n); [|lia]. cbn [finish]. replace (-1 + n) with (n - 1) by lia. reflexivity.
Qed.

(* C90.  SLIP_LU_factorize with any column order whose entries are in range, a permutation or not: it stays inside its arrays and ends; it returns
   factors exactly if the order is a permutation and the matrix is non-singular, otherwise SLIP_SINGULAR and nothing. *)
Theorem C90_factorize_in_range : forall env n A An o,
  int_csc n n A -> is_map n (s_q An) -> n <= 2 * Z.max (s_lnz An) 1 -> env_ok env (opt_pivot o) ->
  (is_perm n (s_q An) /\ detz n (Cent A) <> 0 /\ exists F, SLIP_LU_factorize env true true (Some A) (Some An) o = Ok (SOK, Out F)) \/
  ((~ is_perm n (s_q An) \/ detz n (Cent A) = 0) /\ SLIP_LU_factorize env true true (Some A) (Some An) o = Ok (SErr SLIP_SINGULAR, Null)).
Proof.
  intros env n A An o IC HQ Hl He. destruct (ic_arr IC) as (Ap & Ai & Ax & Hp & Hi & Hx & V).
  destruct (nnz_csc A (ic_kind IC) (ic_n IC) Hp (csc_pattern V)) as [Hz Hz0].
  unfold SLIP_LU_factorize. simpl negb. cbn iota. unfold has_kt. rewrite (ic_kind IC), (ic_type IC).
  change (KCSC =? KCSC) with true. change (TMPZ =? TMPZ) with true. simpl negb. cbn iota.
  rewrite Hz. destruct (Z.ltb_spec (rd Ap n) 0); try lia. simpl. unfold xmpz. rewrite Hp, Hi, Hx. cbn [deref bind]. rewrite (ic_n IC).
  assert (HD : detz n (Cent A) = detz n (ent Ap Ai Ax)). { unfold Cent. rewrite Hp, Hi, Hx. reflexivity. }
  assert (Hn : 0 <= n) by apply (v_n V).
  pose proof (@factorize_core_map env (opt_pivot o) (opt_tol o) n Ap Ai Ax (s_q An) (s_lnz An) (s_unz An) V HQ He Hl) as W.
  apply wp_exists in W. destruct W as [(F & E & R & K)|(e & E & -> & D)]; rewrite E; cbn [bind finish]; rewrite HD.
  - left. assert (PQ : is_perm n (s_q An)).
    { destruct HQ as (Q1 & Q2). split; [exact Q1|]. split; [exact Q2|]. intros i j Hi' Hj' Eq.
      destruct (Z.eq_dec i j) as [|N]; [assumption|exfalso]. assert (NZ : lead (colmat Ap Ai Ax (s_q An)) R n <> 0) by (apply (fac_lead_nz K); lia). apply NZ. unfold lead, detz.
      destruct (Z.lt_total i j) as [L|[L|L]]; [|contradiction|]; [apply (@det_alt_cols (Z.to_nat n) i j)|apply (@det_alt_cols (Z.to_nat n) j i)]; try lia; intros a Ha; unfold colmat; rewrite Eq; reflexivity. }
    split; [exact PQ|]. split; [eapply fac_det_nz; eauto|]. eexists; reflexivity.
  - right. split; [|reflexivity].
    destruct (Z.eq_dec (detz n (ent Ap Ai Ax)) 0) as [|N]; [auto|left]. intros PQ. apply N. destruct PQ as (_ & Q2 & Q3). destruct (@detz_cols n (ent Ap Ai Ax) (rd (s_q An))) as [E'|E']; auto; unfold colmat in D; lia.
Qed.

(* C90.  So a failure inside AMD never leads to wrong factors as long as the entries of the column order happen to be in range: the factors that
   SLIP_LU_factorize returns belong to a usable analysis. *)
Theorem C90_no_wrong_factors : forall mem ol env n A o An o',
  int_csc n n A -> 1 <= n -> env_ok env (opt_pivot o') ->
  SLIP_LU_analyze_mem mem ol true true (Some A) o = Ok (SOK, Out An) -> is_map n (s_q An) ->
  (usable n An /\ detz n (Cent A) <> 0 /\ exists F, SLIP_LU_factorize env true true (Some A) (Some An) o' = Ok (SOK, Out F)) \/
  SLIP_LU_factorize env true true (Some A) (Some An) o' = Ok (SErr SLIP_SINGULAR, Null).
Proof.
  intros mem ol env n A o An o' IC Hn He E HQ. destruct (ic_arr IC) as (Ap & Ai & Ax & Hp & Hi & Hx & V).
  assert (HL : n <= 2 * Z.max (s_lnz An) 1).
  { destruct (@C90_analyze mem ol A Ap Ai n o (ic_kind IC) (ic_m IC) (ic_n IC) Hp Hi (csc_pattern V) Hn) as (C1 & C2).
    assert (X : opt_order o <> ORD_AMD \/ ~ amd_fails n Ap Ai mem -> n <= 2 * Z.max (s_lnz An) 1).
    { intros H. rewrite (C1 H) in E. destruct (@analyze_spec ol A Ap Ai n o (ic_kind IC) (ic_m IC) (ic_n IC) Hp Hi (csc_pattern V)) as (An' & E' & (_ & U2 & _) & _). rewrite E' in E. injection E as <-. lia. }
    destruct (Z.eq_dec (opt_order o) ORD_AMD) as [e|ne]; [|apply X; auto]. destruct (Z.eq_dec (s_lnz An) (n - 1)) as [e'|ne']; [lia|]. apply X. right. intros F. destruct (C2 e F) as (q & E' & _). rewrite E' in E. injection E as <-. apply ne'. reflexivity. }
  destruct (@C90_factorize_in_range env n A An o' IC HQ HL He) as [(P & D & F)|(_ & F)]; [left; split; [split; assumption|]; auto|right; exact F].
Qed.

(* The cases occur.  With the matrix of LUEx and AMD, what AMD needs not granted: *)
Definition exo_amd : option options := Some (mkO 3 2 1%Q 0 128 RNDN false).
Definition no_Len : amem := mkAM false true true true true.
Definition no_S : amem := mkAM true true true true false.
Example C90_ex_fails : amd_fails 4 exAp exAi no_Len /\ amd_fails 4 exAp exAi no_S /\ ~ amd_fails 4 exAp exAi (mkAM true true true true true).
Proof. split; [left; reflexivity|]. split; [right; right; left; reflexivity|]. intros [X|[X|[X|(_ & [X|X])]]]; discriminate X. Qed.
(* malloc returned cells that hold 0: a non-singular matrix is reported as singular *)
Definition ol_zero : ordlib := mkOL (fun _ => 20) (fun _ => 20) (fun _ _ => 0).
Theorem C90_false_singular_refuted : exists mem ol A o An, int_csc 4 4 A /\ detz 4 (Cent A) <> 0 /\ SLIP_LU_analyze_mem mem ol true true (Some A) o = Ok (SOK, Out An) /\ is_map 4 (s_q An) /\
  forall env o', env_ok env (opt_pivot o') -> SLIP_LU_factorize env true true (Some A) (Some An) o' = Ok (SErr SLIP_SINGULAR, Null).
Proof.
  exists no_Len, ol_zero, exA, exo_amd, (mkS [0; 0; 0; 0; 0] 3 3).
  assert (E : SLIP_LU_analyze_mem no_Len ol_zero true true (Some exA) exo_amd = Ok (SOK, Out (mkS [0; 0; 0; 0; 0] 3 3))) by (vm_compute; reflexivity).
  assert (M : is_map 4 (s_q (mkS [0; 0; 0; 0; 0] 3 3))). { split; [cbn; lia|]. intros i Hi. assert (i = 0 \/ i = 1 \/ i = 2 \/ i = 3) as [-> | [-> | [-> | ->] ] ] by lia; (vm_compute; split; [discriminate|reflexivity]). }
  split; [exact ex_csc|]. split; [vm_compute; discriminate|]. split; [exact E|]. split; [exact M|]. intros env o' He.
  destruct (@C90_no_wrong_factors no_Len ol_zero env 4 exA exo_amd _ o' ex_csc ltac:(lia) He E M) as [(US & _)|F]; [|exact F]. exfalso. destruct US as ((_ & _ & U) & _). specialize (U 0 1 ltac:(lia) ltac:(lia) eq_refl). discriminate.
Qed.
(* the workspace S of AMD is not granted: whatever malloc returns, SLIP_OK, and then SLIP_LU_factorize reads outside the arrays of A *)
Definition exD : matrix := mkM 2 2 4 0 KCSC TMPZ (Some [0; 2; 4]) (Some [0; 1; 0; 1]) None (Some (VZ [1; 2; 3; 4])) 1%Q.
Theorem C90_unsafe_refuted : exists mem A o, int_csc 2 2 A /\ detz 2 (Cent A) <> 0 /\ forall ol, exists An, SLIP_LU_analyze_mem mem ol true true (Some A) o = Ok (SOK, Out An) /\
  rd (s_q An) 0 = 2 /\ forall env o', SLIP_LU_factorize env true true (Some A) (Some An) o' = UB.
Proof.
  exists no_S, exD, exo_amd. split; [constructor; try reflexivity; do 3 eexists; repeat (split; [reflexivity|]); apply valid_cscb_ok; reflexivity|]. split; [vm_compute; discriminate|].
  intros ol. exists (mkS [2; 4; ol_junk ol 0 2] 1 1). split; [vm_compute; reflexivity|]. split; [reflexivity|]. intros env o'. vm_compute. reflexivity.
Qed.
(* malloc returned cells that happen to hold a permutation: the run goes on as if nothing had happened *)
Definition ol_lucky : ordlib := mkOL (fun _ => 20) (fun _ => 20) (fun _ i => i).
Example C90_ex_lucky : SLIP_LU_analyze_mem no_Len ol_lucky true true (Some exA) exo_amd = Ok (SOK, Out (mkS [0; 1; 2; 3; 4] 3 3)) /\ usable 4 (mkS [0; 1; 2; 3; 4] 3 3).
Proof.
  split; [vm_compute; reflexivity|]. split; [|cbn; lia]. change [0; 1; 2; 3; 4] with (zseq 0 5). cbn [s_q]. split; [rewrite zlen_zseq; lia|]. split; [intros i Hi; rewrite rd_zseq by lia; lia|]. intros i j Hi Hj. rewrite !rd_zseq by lia. lia.
Qed.

(* C90.  SLIP_backslash with the ordering AMD, whichever allocations inside AMD fail: as long as the entries of the column order are in range it
   returns what it would have returned with enough memory - the exact solution, in the type asked for, or SLIP_SINGULAR - or SLIP_SINGULAR. *)
Theorem C90_backslash : forall mem ol env addr n nrhs A B type o An,
  int_csc n n A -> int_dense n nrhs B -> 1 <= n -> 1 <= nrhs -> ~ (m_scale A == 0)%Q -> ~ (m_scale B == 0)%Q -> env_ok env (opt_pivot o) ->
  type = TMPQ \/ type = TDBL \/ type = TMPFR ->
  SLIP_LU_analyze_mem mem ol true true (Some A) o = Ok (SOK, Out An) -> is_map n (s_q An) ->
  SLIP_backslash_mem mem env ol addr true true type (Some A) (Some B) o = SLIP_backslash env ol addr true true type (Some A) (Some B) o \/
  SLIP_backslash_mem mem env ol addr true true type (Some A) (Some B) o = Ok (SErr SLIP_SINGULAR, Null).
Proof.
  intros mem ol env addr n nrhs A B type o An IC ID Hn Hr HsA HsB He HT EA HQ.
  assert (EB : SLIP_backslash_mem mem env ol addr true true type (Some A) (Some B) o =
    finish (call (SLIP_LU_factorize env true true (Some A) (Some An) o) (fun F =>
    call (SLIP_LU_solve true true (Some B) (Some A) (Some (lu_L F)) (Some (lu_U F)) (Some (lu_rhos F)) (Some An) (Some (lu_pinv F)) o) (fun x =>
    if type =? TMPQ then Ok x else matrix_copy o addr true true KDENSE type (Some x))))).
  { unfold SLIP_backslash_mem. unfold has_kt. rewrite (ic_kind IC), (ic_type IC), (id_kind ID), (id_type ID). rewrite EA.
    destruct HT as [->|[-> | ->]]; reflexivity. }
  rewrite EB. destruct (@C90_no_wrong_factors mem ol env n A o An o IC Hn He EA HQ) as [(US & HD & F0 & EF0)|EF]; [|right; rewrite EF; reflexivity].
  left. destruct An as [q lnz unz].
  destruct (@factorize_spec env n A (mkS q lnz unz) o IC US He) as [(Ap' & Ai' & Ax' & F & R & Hp' & Hi' & Hx' & V' & EF & K & _)|(EF & HD')]; [|contradiction].
  destruct (@solve_spec n nrhs A B Ap' Ai' Ax' q lnz unz F R o IC Hp' Hi' Hx' V' ID (proj1 US) Hn HsA HsB K) as (X & ES & RX & SX).
  rewrite EF. cbn [call]. rewrite ES. cbn [call].
  destruct (@backslash_spec env ol addr n nrhs A B type o IC ID He Hn HsA HsB HT) as [(_ & X' & RX' & SX' & ->)|(HD' & _)]; [|contradiction].
  replace X' with X; [reflexivity|]. apply (@rat_dense_ext n nrhs X X' Hn Hr RX RX'). apply (@solves_unique n nrhs A B X X' IC ID HD HsA RX RX' SX SX').
Qed.
(* and with what AMD needs granted, or another ordering, it is SLIP_backslash *)
Theorem C90_backslash_granted : forall mem ol env addr n A Ap Ai b type o,
  m_kind A = KCSC -> m_m A = n -> m_n A = n -> m_p A = Some Ap -> m_i A = Some Ai -> valid_pattern n n Ap Ai -> 1 <= n ->
  (opt_order o <> ORD_AMD \/ ~ amd_fails n Ap Ai mem) ->
  SLIP_backslash_mem mem env ol addr true true type (Some A) b o = SLIP_backslash env ol addr true true type (Some A) b o.
Proof.
  intros mem ol env addr n A Ap Ai b type o HK HM HN HP HI V Hn H. unfold SLIP_backslash_mem, SLIP_backslash. rewrite (proj1 (@C90_analyze mem ol A Ap Ai n o HK HM HN HP HI V Hn) H). reflexivity.
Qed.
Example C90_ex_backslash : SLIP_backslash_mem no_Len exenv ol_lucky (fun _ => 1) true true TMPQ (Some exA) (Some exB) exo_amd = SLIP_backslash exenv ol_lucky (fun _ => 1) true true TMPQ (Some exA) (Some exB) exo_amd /\
  SLIP_backslash_mem no_Len exenv ol_zero (fun _ => 1) true true TMPQ (Some exA) (Some exB) exo_amd = Ok (SErr SLIP_SINGULAR, Null).
Proof. split; vm_compute; reflexivity. Qed.
