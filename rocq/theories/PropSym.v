(* C89: SYMAMD, the ordering for symmetric matrices in the bundled COLAMD library. *)
From Verif Require Import Base DetZ Spec MFactor MSolve MMatrix MApi ApiSpec Check.
From Verif Require Import MColamd MSymamd SymSpec PSym1 PSym2 PSym3 PropColamd.
Set Implicit Arguments.
Open Scope Z_scope.
Set Bullet Behavior "Strict Subproofs".

(* The recommended workspace is computed without undetected overflow: the exact number, or 0. *)
Theorem C89_recommended : forall nnz n_row n_col, 0 <= nnz < 2 ^ 63 -> 0 <= n_row < 2 ^ 63 -> 0 <= n_col < 2 ^ 63 ->
  recommended nnz n_row n_col = let s := colamd_need n_row n_col nnz + nnz / 5 in
    if (48 * (n_col + 1) <? 2 ^ 64) && (32 * (n_row + 1) <? 2 ^ 64) && (s <? 2 ^ 63 - 1) then s else 0.
Proof.
  intros nnz n_row n_col H1 H2 H3. rewrite recommended_eq by assumption. unfold colamd_need. cbv zeta.
  replace (2 * nnz + n_col + 6 * (n_col + 1) + 4 * (n_row + 1) + nnz / 5) with (2 * nnz + 6 * (n_col + 1) + 4 * (n_row + 1) + n_col + nnz / 5) by lia. reflexivity.
Qed.

(* what symamd does on a valid pattern, when memory suffices: COLAMD on M *)
Lemma symamd_run ag dense n p A perm : sym_valid n p A -> zlen perm = n + 1 -> n <= 2 ^ 58 -> rd p n <= 2 ^ 58 ->
  let E := lower n p A in let M0 := mk (recommended (2 * zlen E) (zlen E) n) 0 in
  exists q, colamd ag (zlen E) n (n - 1) (dense (zlen E)) (Mof n E M0) (Pof n E) = Ok q /\ is_perm n q /\
    symamd ag dense n (Some A) (Some p) perm true true true = Ok (inr tt, q, [Allocated Bcount; Allocated Bmark; Allocated BM; Released Bcount; Released Bmark; Released BM]).
Proof.
  intros V Lq HN HZ E M0. pose proof (sv_n V) as Hn. pose proof (sv_p V) as Lp. pose proof (sv_0 V) as P0. pose proof (sym_mono V) as MON. pose proof (sv_cap V) as CAP.
  assert (LE : 0 <= zlen E <= 2 ^ 58) by (split; [apply zlen_nonneg|]; pose proof (zlen_lower V); fold E in H; lia).
  assert (RC : recommended (2 * zlen E) (zlen E) n = colamd_need (zlen E) n (2 * zlen E) + 2 * zlen E / 5).
  { rewrite C89_recommended by lia. cbv zeta. unfold colamd_need. assert (0 <= 2 * zlen E / 5 <= 2 * zlen E) by (split; [apply Z.div_pos; lia|apply Z.div_le_upper_bound; lia]).
    rewrite !(proj2 (Z.ltb_lt _ _)) by lia. reflexivity. }
  assert (D5 : 0 <= 2 * zlen E / 5) by (apply Z.div_pos; lia).
  assert (LM0 : zlen M0 = colamd_need (zlen E) n (2 * zlen E) + 2 * zlen E / 5) by (unfold M0; rewrite zlen_mk; [exact RC|rewrite RC; unfold colamd_need; lia]).
  assert (GE : forall e, In e E -> good_edge n e) by (apply lower_good; exact V).
  assert (TOT : ptr E n = 2 * zlen E) by (apply deg_total; exact GE).
  assert (LM : ptr (lower n p A) n <= zlen M0) by (fold E; rewrite TOT, LM0; unfold colamd_need; lia).
  destruct (@Mof_valid n A p M0 V LM) as (VP & PN & ML). fold E in VP, PN, ML.
  destruct (@C70_colamd_permutation ag (zlen E) n (n - 1) (dense (zlen E)) (Pof n E) (Mof n E M0) (Mof n E M0) VP) as (q & HQ & PQ); [auto|rewrite PN, ML, LM0; lia|].
  exists q. split; [exact HQ|]. split; [exact PQ|].
  unfold symamd. destruct (Z.ltb_spec n 0); [lia|]. rewrite !get_rd by lia. cbn [bind]. pose proof (MON 0 n ltac:(lia) ltac:(lia) ltac:(lia)). destruct (Z.ltb_spec (rd p n) 0); [lia|]. rewrite P0. change (0 =? 0) with true. cbn [negb]. cbv zeta.
  destruct (@wp_ok_ex _ _ _ (@sy_clear_ok n (mk (n + 1) 0) Hn ltac:(rewrite zlen_mk; lia))) as (mark & -> & L1 & M1). cbn [bind]. rewrite zlen_mk in L1 by lia.
  assert (PA : forall j, 0 <= j <= n -> rd p j <= zlen A) by (intros j Hj; pose proof (MON j n); lia).
  destruct (@wp_ok_ex _ _ _ (@sy_check_ok n A p Hn Lp P0 PA (mk (n + 1) 0) mark ltac:(apply zlen_mk; lia) L1 M1)) as (s & -> & HS). cbn [bind].
  destruct s as [e|((c & m) & jb)].
  { exfalso. destruct e; cbn [bad_here] in HS; try contradiction.
    - destruct HS as (Hj & -> & X). pose proof (sv_mono V Hj). lia.
    - destruct HS as (Hj & u & Hu & <- & X). apply X. apply (sv_i V). pose proof (MON 0 j). pose proof (MON (j + 1) n). lia. }
  destruct HS as (CO & EC & L2 & SO). fold E in EC.
  rewrite (@sy_pointers_ok n E c perm Hn); [|rewrite EC, zlen_bumps, zlen_mk; lia|exact Lq| |].
  2:{ intros x Hx. rewrite EC, (@rd_bumps n) by (auto; try lia; rewrite zlen_mk; lia). rewrite rd_mk by lia. lia. }
  2:{ rewrite EC, (@rd_bumps n) by (auto; try lia; rewrite zlen_mk; lia). rewrite rd_mk by lia.
      assert (G : forall l, (forall e, In e l -> good_edge n e) -> deg n l = 0).
      { induction l as [|e l IH]; intros Hl; [reflexivity|]. cbn [deg]. rewrite IH by (intros e' He'; apply Hl; right; exact He'). destruct (Hl e (or_introl eq_refl)). unfold deg1. rewrite !(proj2 (Z.eqb_neq _ _)) by lia. reflexivity. }
      rewrite G by exact GE. reflexivity. }
  cbn [bind]. rewrite get_rd by (rewrite zlen_Pof; lia). cbn [bind]. rewrite PN. replace (Z.quot (2 * zlen E) 2) with (zlen E) by (rewrite Z.mul_comm, Z.quot_mul; lia). fold M0.
  unfold E. rewrite (@sy_build_ok n A p M0 V LM jb m L2 SO). fold E. cbn [bind]. rewrite HQ. reflexivity.
Qed.

(* C89.  Every n-by-n pattern, rows in any order and repeated at will, any contents of perm, any dense threshold: SYMAMD returns TRUE, the
   ordering is a permutation, nothing is leaked.  (COLAMD itself does not tolerate duplicates: C70_duplicates_refuted.) *)
Theorem C89_symamd_permutation : forall aggressive dense n p A perm,
  sym_valid n p A -> zlen perm = n + 1 -> n <= 2 ^ 58 -> rd p n <= 2 ^ 58 ->
  exists q log, symamd aggressive dense n (Some A) (Some p) perm true true true = Ok (inr tt, q, log) /\ is_perm n q /\ tidy log.
Proof.
  intros ag dense n p A perm V L HN HZ. destruct (@symamd_run ag dense n p A perm V L HN HZ) as (q & _ & PQ & ->). eexists _, _. split; [reflexivity|]. split; [exact PQ|reflexivity].
Qed.

(* Only the entries below the diagonal count: the diagonal, the entries above it, repeated entries and the previous contents of perm do
   not influence the result. *)
Theorem C89_lower_triangle : forall aggressive dense n p A p' A' perm perm',
  sym_valid n p A -> sym_valid n p' A' -> zlen perm = n + 1 -> zlen perm' = n + 1 -> n <= 2 ^ 58 -> rd p n <= 2 ^ 58 -> rd p' n <= 2 ^ 58 ->
  lower n p A = lower n p' A' ->
  symamd aggressive dense n (Some A) (Some p) perm true true true = symamd aggressive dense n (Some A') (Some p') perm' true true true.
Proof.
  intros ag dense n p A p' A' perm perm' V V' L L' HN HZ HZ' E. destruct (@symamd_run ag dense n p A perm V L HN HZ) as (q & HQ & _ & ->). destruct (@symamd_run ag dense n p' A' perm' V' L' HN HZ') as (q' & HQ' & _ & ->).
  cbv zeta in *. rewrite E, HQ' in HQ. injection HQ as ->. reflexivity.
Qed.

(* Any arguments whose arrays are as long as the column pointers claim, any failure of the allocator: SYMAMD stays inside its arrays,
   releases everything it has allocated, returns TRUE with a permutation if the pattern is valid and memory suffices, otherwise FALSE
   with a true reason; unless memory ran out perm is then left alone. *)
Theorem C89_report : forall aggressive dense n A p perm ok1 ok2 ok3,
  (forall q, p = Some q -> 0 <= n -> zlen q = n + 1 /\ rd q n <= 2 ^ 58 /\ forall a j, A = Some a -> 0 <= j <= n -> rd q j <= zlen a) ->
  n <= 2 ^ 58 -> (0 <= n -> zlen perm = n + 1) ->
  exists r q log, symamd aggressive dense n A p perm ok1 ok2 ok3 = Ok (r, q, log) /\ tidy log /\
    match r with
    | inr tt => ok1 && ok2 && ok3 = true /\ is_perm n q /\ exists a c, A = Some a /\ p = Some c /\ sym_valid n c a
    | inl e => true_reason n A p (ok1 && ok2 && ok3) e /\ (e <> out_of_memory -> q = perm)
    end.
Proof.
  intros ag dense n A p perm ok1 ok2 ok3 HP HN LQ. destruct A as [A|]. 2:{ eexists _, _, _. split; [reflexivity|]. split; [reflexivity|]. cbn [true_reason]. auto. }
  destruct p as [p|]. 2:{ eexists _, _, _. split; [reflexivity|]. split; [reflexivity|]. cbn [true_reason]. auto. }
  specialize (HP p eq_refl). destruct (Z_lt_ge_dec n 0) as [X|Hn].
  { unfold symamd. rewrite (proj2 (Z.ltb_lt n 0) X). eexists _, _, _. split; [reflexivity|]. split; [reflexivity|]. cbn [true_reason]. auto. }
  destruct (HP ltac:(lia)) as (Lp & HZ & PA0). assert (PA : forall j, 0 <= j <= n -> rd p j <= zlen A) by (intros j Hj; apply (PA0 A j eq_refl Hj)). clear HP PA0. specialize (LQ ltac:(lia)).
  destruct (Z_lt_ge_dec (rd p n) 0) as [N|N].
  { unfold symamd. rewrite (proj2 (Z.ltb_ge n 0)) by lia. rewrite !get_rd by lia. cbn [bind]. rewrite (proj2 (Z.ltb_lt _ 0) N). eexists _, _, _. split; [reflexivity|]. split; [reflexivity|]. cbn [true_reason]. split; [|auto]. exists p. auto. }
  destruct (Z.eq_dec (rd p 0) 0) as [P0|P0].
  2:{ unfold symamd. rewrite (proj2 (Z.ltb_ge n 0)) by lia. rewrite !get_rd by lia. cbn [bind]. rewrite (proj2 (Z.ltb_ge _ 0)) by lia. rewrite (proj2 (Z.eqb_neq _ 0) P0). cbn [negb]. eexists _, _, _. split; [reflexivity|]. split; [reflexivity|]. cbn [true_reason]. split; [|auto]. exists p. auto. }
  assert (BODY : exists s c m jb, sy_clear n (mk (n + 1) 0) = Ok m /\ sy_check n A p (mk (n + 1) 0) m = Ok s /\
     match s with inl e => bad_here n A p e | inr st => st = (c, snd (fst st), jb) /\ sym_valid n p A /\ zlen c = n + 1 end).
  { destruct (@wp_ok_ex _ _ _ (@sy_clear_ok n (mk (n + 1) 0) ltac:(lia) ltac:(rewrite zlen_mk; lia))) as (mark & E1 & L1 & M1). rewrite zlen_mk in L1 by lia.
    destruct (@wp_ok_ex _ _ _ (@sy_check_ok n A p ltac:(lia) Lp P0 PA (mk (n + 1) 0) mark ltac:(apply zlen_mk; lia) L1 M1)) as (s & E2 & HS).
    destruct s as [e|((c & m) & jb)]; [exists (inl e), [], mark, false; auto|]. exists (inr (c, m, jb)), c, mark, jb. split; [exact E1|]. split; [exact E2|]. destruct HS as (CO & EC & _). split; [reflexivity|].
    split; [apply cols_ok_valid; auto; lia|]. rewrite EC, zlen_bumps, zlen_mk; lia. }
  destruct BODY as (s & c & m & jb & E1 & E2 & HS).
  destruct ok1; [|unfold symamd; rewrite (proj2 (Z.ltb_ge n 0)) by lia; rewrite !get_rd by lia; cbn [bind]; rewrite (proj2 (Z.ltb_ge _ 0)) by lia; rewrite P0; cbn [negb Z.eqb]; eexists _, _, _; split; [reflexivity|]; split; [reflexivity|]; cbn [true_reason andb]; auto].
  destruct ok2; [|unfold symamd; rewrite (proj2 (Z.ltb_ge n 0)) by lia; rewrite !get_rd by lia; cbn [bind]; rewrite (proj2 (Z.ltb_ge _ 0)) by lia; rewrite P0; cbn [negb Z.eqb]; eexists _, _, _; split; [reflexivity|]; split; [reflexivity|]; cbn [true_reason andb]; auto].
  destruct s as [e|st].
  { unfold symamd. rewrite (proj2 (Z.ltb_ge n 0)) by lia. rewrite !get_rd by lia. cbn [bind]. rewrite (proj2 (Z.ltb_ge _ 0)) by lia. rewrite P0. cbn [negb Z.eqb]. cbv zeta. rewrite E1. cbn [bind]. rewrite E2. cbn [bind].
    eexists _, _, _. split; [reflexivity|]. split; [reflexivity|]. split; [|auto]. destruct e; cbn [bad_here true_reason] in *; try contradiction.
    - exists p. tauto.
    - destruct HS as (Hj & u & Hu & X & Y). exists A, p, u. tauto. }
  destruct HS as (Est & V & Lc).
  destruct ok3.
  - destruct (@C89_symamd_permutation ag dense n p A perm V LQ HN HZ) as (q & log & -> & PQ & T). exists (inr tt), q, log. split; [reflexivity|]. split; [exact T|]. split; [reflexivity|]. split; [exact PQ|]. eauto.
  - destruct st as [[c1 m1] jb1]. cbn [fst snd] in Est. injection Est as -> ->.
    unfold symamd. rewrite (proj2 (Z.ltb_ge n 0)) by lia. rewrite !get_rd by lia. cbn [bind]. rewrite (proj2 (Z.ltb_ge _ 0)) by lia. rewrite P0. cbn [negb Z.eqb]. cbv zeta. rewrite E1. cbn [bind]. rewrite E2. cbn [bind].
    assert (W : wp (sy_pointers n c perm) (fun st => zlen (fst st) = n + 1) nerr).
    { unfold sy_pointers. apply wp_bind. apply wp_set; [lia|]. apply wp_bind. eapply wp_conseq; [apply wp_for with (I := fun j pm => zlen pm = n + 1); [lia|rewrite zlen_wr; exact LQ|]|].
      - intros j pm Hj L. cbv beta in L |- *. apply wp_bind. apply wp_get; [lia|]. apply wp_bind. apply wp_get; [lia|]. apply wp_set; [lia|]. rewrite zlen_wr. exact L.
      - intros pm L. cbv beta in L. apply wp_bind. eapply wp_conseq; [apply wp_for with (I := fun j c => zlen c = n + 1); [lia|exact Lc|]|].
        + intros j c' Hj L'. cbv beta in L' |- *. apply wp_bind. apply wp_get; [lia|]. apply wp_set; [lia|]. rewrite zlen_wr. exact L'.
        + intros c' _. exact L. }
    apply wp_ok_ex in W. destruct W as ((pm & c') & -> & L). cbn [fst] in L. cbn [bind]. rewrite get_rd by lia. cbn [bind]. eexists _, _, _. split; [reflexivity|]. split; [reflexivity|]. cbn [true_reason andb]. split; [reflexivity|congruence].
Qed.

(* The lengths are needed: the column lengths are tested only as the columns are read, so with decreasing pointers SYMAMD reads A past
   its end although p [n] is its length (COLAMD tests all of them first: C70_colamd_rejects_invalid). *)
Theorem C89_decreasing_refuted : exists n p A perm, zlen p = n + 1 /\ rd p 0 = 0 /\ rd p n = zlen A /\ (forall u, 0 <= u < rd p n -> 0 <= rd A u < n) /\ zlen perm = n + 1 /\
  (exists j, 0 <= j < n /\ rd p (j + 1) < rd p j) /\ forall aggressive dense, symamd aggressive dense n (Some A) (Some p) perm true true true = UB.
Proof.
  exists 2, [0; 5; 3], [0; 1; 0], [0; 0; 0]. repeat (split; [reflexivity|]). split.
  { intros u Hu. change (rd [0; 5; 3] 2) with 3 in Hu. assert (u = 0 \/ u = 1 \/ u = 2) as [->|[->| ->]] by lia; cbv; split; congruence. }
  split; [reflexivity|]. split; [exists 1; split; [lia|reflexivity]|]. intros. reflexivity.
Qed.

(* The hypotheses are met: a 6-by-6 pattern, unsorted, with repeated entries and entries above the diagonal; without those the result is the same. *)
Definition exSp : list Z := [0; 5; 8; 10; 13; 14; 16].
Definition exSi : list Z := [3; 0; 5; 3; 1;   1; 4; 4;   2; 5;   3; 0; 4;   0;   5; 2].
Definition exSp' : list Z := [0; 3; 4; 5; 6; 6; 6].
Definition exSi' : list Z := [3; 5; 1;   4;   5;   4].
Lemma exS_valid : sym_valid 6 exSp exSi.
Proof.
  constructor; try reflexivity; try (vm_compute; congruence).
  - intros j Hj. apply Z.leb_le. exact (@allz_ok 0 6 (fun j => rd exSp j <=? rd exSp (j + 1)) eq_refl j Hj).
  - intros u Hu. pose proof (@allz_ok 0 16 (fun u => (0 <=? rd exSi u) && (rd exSi u <? 6)) eq_refl u Hu) as H. cbv beta in H. apply andb_true_iff in H. lia.
Qed.
Lemma exS'_valid : sym_valid 6 exSp' exSi'.
Proof.
  constructor; try reflexivity; try (vm_compute; congruence).
  - intros j Hj. apply Z.leb_le. exact (@allz_ok 0 6 (fun j => rd exSp' j <=? rd exSp' (j + 1)) eq_refl j Hj).
  - intros u Hu. pose proof (@allz_ok 0 6 (fun u => (0 <=? rd exSi' u) && (rd exSi' u <? 6)) eq_refl u Hu) as H. cbv beta in H. apply andb_true_iff in H. lia.
Qed.
Example C89_ex_lower : lower 6 exSp exSi = [(3, 0); (5, 0); (1, 0); (4, 1); (5, 2); (4, 3)] /\ lower 6 exSp exSi = lower 6 exSp' exSi'.
Proof. split; vm_compute; reflexivity. Qed.
Example C89_ex : exists log, symamd true (fun _ => 16) 6 (Some exSi) (Some exSp) (mk 7 (-5)) true true true = Ok (inr tt, [2; 5; 0; 1; 4; 3; -1], log).
Proof. eexists. vm_compute. reflexivity. Qed.
Example C89_ex_same : symamd true (fun _ => 16) 6 (Some exSi) (Some exSp) (mk 7 (-5)) true true true = symamd true (fun _ => 16) 6 (Some exSi') (Some exSp') (mk 7 9) true true true.
Proof. apply C89_lower_triangle; try reflexivity; try (vm_compute; congruence). exact exS_valid. exact exS'_valid. Qed.
Example C89_ex_report : symamd true (fun _ => 16) 2 (Some [0; 2]) (Some [0; 1; 2]) (mk 3 7) true true true =
  Ok (inl (row_index_out_of_bounds 1 2), [7; 7; 7], [Allocated Bcount; Allocated Bmark; Released Bcount; Released Bmark]).
Proof. reflexivity. Qed.
Example C89_ex_recommended : recommended 69 20 20 = 381 /\ recommended 0 0 (2 ^ 59) = 0.
Proof. split; vm_compute; reflexivity. Qed.
