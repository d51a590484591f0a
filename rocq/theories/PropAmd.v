(* C79, C80: the column ordering computed by the bundled AMD (SLIP_AMD). *)
From Verif Require Import Base DetZ Spec MFactor MSolve MMatrix MApi ApiSpec PApi Check LUEx.
From Verif Require Import MColamd MAmd PCol1 PCol13 PAmd4 PAmd13 PAmd18 PAmd19 PAmd20 PAmd21 PUninit6.
Set Implicit Arguments.
Open Scope Z_scope.
Set Bullet Behavior "Strict Subproofs".

(* A square pattern: column pointers that start at 0 and do not decrease, row indices inside the matrix.  The rows of a column may
   come in any order, and more than once. *)
Record square_pattern (n : Z) (Ap Ai : list Z) : Prop := {
  qp_n : 1 <= n;
  qp_p : zlen Ap = n + 1;
  qp_0 : rd Ap 0 = 0;
  qp_mono : forall c, 0 <= c < n -> rd Ap c <= rd Ap (c + 1);
  qp_cap : rd Ap n <= zlen Ai;
  qp_i : forall p, 0 <= p < rd Ap n -> 0 <= rd Ai p < n }.
Lemma square_jpat n Ap Ai : square_pattern n Ap Ai -> jpat n Ap Ai.
Proof. intros []. constructor; auto; lia. Qed.
Lemma valid_square n Ap Ai : 1 <= n -> valid_pattern n n Ap Ai -> square_pattern n Ap Ai.
Proof. intros Hn []. constructor; auto. Qed.

(* C79.  On every square pattern, with or without duplicates, sorted or not, with or without aggressive absorption, with any
   threshold for dense rows, whatever its output array and its workspace contain on entry (junk): AMD stops, stays inside its arrays and returns a permutation and a count of
   entries of L below the diagonal that is between 0 and n(n-1)/2. *)
Theorem C79_amd_permutation : forall junk aggressive n dense Ap Ai, square_pattern n Ap Ai ->
  exists P lnz, amd_order junk aggressive n dense Ap Ai = Ok (Some (P, lnz)) /\ zlen P = n /\ is_perm n P /\ 0 <= lnz /\ 2 * lnz <= n * (n - 1).
Proof.
  intros junk ag n dense Ap Ai V. pose proof (amd_order_ok junk ag dense (square_jpat V)) as W. apply wp_ok_ex in W. destruct W as (r & -> & P & lnz & -> & H). exists P, lnz. auto.
Qed.

(* The rejected patterns: AMD returns AMD_INVALID. *)
Lemma valid_bad n Ap Ai : 1 <= n -> n + 1 <= zlen Ap -> rd Ap 0 = 0 -> (forall c, 0 <= c < n -> rd Ap c <= rd Ap (c + 1)) -> rd Ap n <= zlen Ai ->
  wp (amd_valid n n Ap Ai) (fun _ => forall p, 0 <= p < rd Ap n -> 0 <= rd Ai p < n) (fun e => e = SLIP_INCORRECT_INPUT).
Proof.
  intros Hn La H0 HM HC. pose proof (@mono_le (rd Ap) n HM) as mono. unfold amd_valid. rewrite (proj2 (Z.ltb_ge n 0)) by lia. cbn [orb].
  wg; [lia|]. wg; [lia|]. rewrite H0. pose proof (mono 0 n ltac:(lia) ltac:(lia) ltac:(lia)) as Z0. rewrite (proj2 (Z.ltb_ge (rd Ap n) 0)) by lia. cbn [Z.eqb negb orb].
  apply wp_for with (I := fun j _ => forall p, 0 <= p < rd Ap j -> 0 <= rd Ai p < n); [lia|intros p Hp; lia|].
  intros j b Hj H. wg; [lia|]. wg; [lia|]. pose proof (HM j Hj) as M. pose proof (mono 0 j ltac:(lia) ltac:(lia) ltac:(lia)). pose proof (mono (j + 1) n ltac:(lia) ltac:(lia) ltac:(lia)). rewrite Z.gtb_ltb, (proj2 (Z.ltb_ge _ _) M).
  apply wp_bind. eapply wp_mono; [| |apply wp_for with (E := fun e => e = SLIP_INCORRECT_INPUT) (I := fun t _ => forall p, 0 <= p < t -> 0 <= rd Ai p < n); [exact M|exact H|]].
  - intros st X. exact X.
  - auto.
  - intros t [r il] Ht X. wg; [lia|]. destruct (Z.ltb_spec (rd Ai t) 0); [reflexivity|]. destruct (Z.geb_spec (rd Ai t) n); [reflexivity|]. cbn [orb wp]. intros p Hp. destruct (Z.eq_dec p t) as [->|]; [lia|apply X; lia].
Qed.
Theorem C79_amd_rejects_invalid : forall junk aggressive n dense Ap Ai, 1 <= n -> zlen Ap = n + 1 -> rd Ap n <= zlen Ai ->
  rd Ap n < 0 \/ rd Ap 0 <> 0 \/
  (rd Ap 0 = 0 /\ (forall c, 0 <= c < n -> rd Ap c <= rd Ap (c + 1)) /\ exists p, 0 <= p < rd Ap n /\ (rd Ai p < 0 \/ n <= rd Ai p)) ->
  amd_order junk aggressive n dense Ap Ai = Err SLIP_INCORRECT_INPUT.
Proof.
  intros junk ag n dense Ap Ai Hn La HC H. unfold amd_order. rewrite (proj2 (Z.ltb_ge n 0)), (proj2 (Z.eqb_neq n 0)) by lia. rewrite get_rd by lia. cbn [bind]. destruct (Z.ltb_spec (rd Ap n) 0) as [X|X]; [reflexivity|].
  destruct H as [H|[H|(H0 & HM & p & Hp & HB)]]; [lia| |].
  - unfold amd_valid. rewrite (proj2 (Z.ltb_ge n 0)) by lia. cbn [orb]. rewrite !get_rd by lia. cbn [bind]. rewrite (proj2 (Z.eqb_neq _ _) H). reflexivity.
  - pose proof (@valid_bad n Ap Ai Hn ltac:(lia) H0 HM HC) as W. destruct (amd_valid n n Ap Ai) as [b|e| |]; cbn [wp] in W; try contradiction; [specialize (W p Hp); lia|]. subst e. reflexivity.
Qed.

(* The full claim, that every invalid pattern is rejected, is false.  AMD_valid looks at the row indices of a column before it has seen that a
   later column pointer is too small: it reads outside the nnz = Ap [n] entries of Ai. *)
Theorem C79_invalid_pointers_refuted : forall junk, exists Ap Ai, zlen Ap = 3 /\ rd Ap 0 = 0 /\ rd Ap 2 = zlen Ai /\ rd Ap 2 < rd Ap 1 /\ amd_order junk true 2 14 Ap Ai = UB.
Proof. intros junk. exists [0; 5; 2], [0; 1]. repeat (split; [reflexivity|]). vm_compute. reflexivity. Qed.

(* What AMD orders is the graph of A + A', without its diagonal: in the arrays passed to AMD_2, x is next to y if and only if (x,y) or (y,x)
   is an entry of A.  Neither the order of the entries nor duplicates matter. *)
Definition entry (Ap Ai : list Z) (i j : Z) : Prop := exists p, rd Ap j <= p < rd Ap (j + 1) /\ rd Ai p = i.
Definition adjacent (Iw Pe Len : list Z) (x y : Z) : Prop := exists p, rd Pe x <= p < rd Pe x + rd Len x /\ rd Iw p = y.
(* amd_order.c:93-176, everything up to the call of AMD_2 *)
Definition amd_front (junk : Z -> Z -> Z) (n : Z) (Ap Ai : list Z) : res (list Z * list Z * list Z * Z) :=
  let* nz := get Ap n in
  let* jumbled := amd_valid n n Ap Ai in
  let* st := (if jumbled then amd_preprocess n Ap Ai (block (junk 1) 0 (n + 1)) (block (junk 2) 0 nz) else Ok (Ap, Ai)) in
  let '(Cp, Ci) := st in
  let* st := amd_aat n Cp Ci (block (junk 0) 0 n) in
  let '(Len, nzaat) := st in
  let* st := amd_build n (block (junk 3) 0 n) (block (junk 3) (6 * n) (nzaat + nzaat / 5 + 7 * n - 6 * n)) (block (junk 3) (5 * n) n) Cp Ci Len in
  let '(Pe, Iw, pfree) := st in Ok (Pe, Iw, Len, pfree).
Lemma amd_order_front junk aggressive n dense Ap Ai : 1 <= n -> 0 <= rd Ap n -> n + 1 <= zlen Ap ->
  amd_order junk aggressive n dense Ap Ai = let* st := amd_front junk n Ap Ai in let '(Pe, Iw, Len, pfree) := st in let* r := amd_2 aggressive n dense Pe Iw Len pfree in Ok (Some r).
Proof.
  intros Hn H0 La. unfold amd_order, amd_front. rewrite (proj2 (Z.ltb_ge n 0)), (proj2 (Z.eqb_neq n 0)) by lia. rewrite get_rd by lia. cbn [bind]. rewrite (proj2 (Z.ltb_ge (rd Ap n) 0)) by lia.
  destruct (amd_valid n n Ap Ai) as [b| | |]; [|reflexivity..]. cbn [bind]. destruct (if b then amd_preprocess n Ap Ai (block (junk 1) 0 (n + 1)) (block (junk 2) 0 (rd Ap n)) else Ok (Ap, Ai)) as [[Cp Ci]| | |]; [|reflexivity..]. cbn [bind].
  destruct (amd_aat n Cp Ci (block (junk 0) 0 n)) as [[Len nzaat]| | |]; [|reflexivity..]. cbn [bind]. destruct (amd_build n (block (junk 3) 0 n) (block (junk 3) (6 * n) (nzaat + nzaat / 5 + 7 * n - 6 * n)) (block (junk 3) (5 * n) n) Cp Ci Len) as [[[Pe Iw] pfree]| | |]; reflexivity.
Qed.
Theorem C79_graph : forall junk n Ap Ai, square_pattern n Ap Ai -> exists Pe Iw Len pfree, amd_front junk n Ap Ai = Ok (Pe, Iw, Len, pfree) /\
  (forall aggressive dense, amd_order junk aggressive n dense Ap Ai = let* r := amd_2 aggressive n dense Pe Iw Len pfree in Ok (Some r)) /\
  zlen Pe = n /\ zlen Len = n /\ pfree + n <= zlen Iw /\
  (forall x, 0 <= x < n -> 0 <= rd Pe x /\ 0 <= rd Len x /\ rd Pe x + rd Len x <= pfree) /\
  (forall x p p', 0 <= x < n -> rd Pe x <= p < rd Pe x + rd Len x -> rd Pe x <= p' < rd Pe x + rd Len x -> rd Iw p = rd Iw p' -> p = p') /\
  forall x y, 0 <= x < n -> (adjacent Iw Pe Len x y <-> 0 <= y < n /\ x <> y /\ (entry Ap Ai x y \/ entry Ap Ai y x)).
Proof.
  intros junk n Ap Ai V. pose proof (square_jpat V) as JP. pose proof (jp_n JP) as Hn. pose proof (jp_ap JP) as La. pose proof (@jap n Ap Ai JP 0 n ltac:(lia) ltac:(lia)) as Z0. rewrite (jp_0 JP) in Z0.
  assert (W : wp (amd_front junk n Ap Ai) (fun '(Pe, Iw, Len, pfree) => sgr n pfree Iw Pe Len /\ forall x y, 0 <= x < n -> (adjacent Iw Pe Len x y <-> patt n Ap Ai x y)) nerr).
  { unfold amd_front. wg; [lia|]. apply wp_bind. eapply wp_conseq; [apply (valid_ok JP)|]. intros b Hb. apply wp_bind. apply wp_conseq with (Q := fun '(Cp, Ci) => spat n Cp Ci /\ forall x y, patt n Cp Ci x y <-> patt n Ap Ai x y).
    { destruct b; [|cbn; split; [apply Hb; reflexivity|tauto]]. eapply wp_conseq; [apply (@preprocess_ok n Ap Ai JP); apply zlen_block; lia|]. intros [Rp Ri] (X & _ & Y). split; [exact X|]. intros x y. unfold patt. split; intros (P1 & P2 & P3 & P4); (split; [exact P1|]; split; [exact P2|]; split; [exact P3|]).
      - rewrite (Y x y P1 P2), (Y y x P2 P1) in P4. tauto.
      - rewrite (Y x y P1 P2), (Y y x P2 P1). tauto. }
    intros [Cp Ci] (SP & HP). apply wp_bind. eapply wp_conseq; [apply (@aat_ok n Cp Ci SP); apply zlen_block; lia|]. intros [Len nzaat] (D & HD & LL & HL & ->).
    assert (NN : 0 <= sumz n (rd Len)) by (apply sumz_nonneg; intros k Hk; rewrite HL by exact Hk; apply cnt_nn).
    pose proof (Z.div_pos (sumz n (rd Len)) 5 NN ltac:(lia)) as DP.
    apply wp_bind. eapply wp_conseq; [apply (@build_adj n Cp Ci SP (sumz n (rd Len) + sumz n (rd Len) / 5 + 7 * n - 6 * n)) with (D := D); try apply zlen_block; auto; lia|].
    intros [[Pe Iw] pfree] (-> & G & HG). cbn [wp]. split; [exact G|]. intros x y Hx. rewrite <- HP, <- (HG x y Hx). unfold mL, adjacent. rewrite memb_spec. tauto. }
  apply wp_ok_ex in W. destruct W as ((((Pe & Iw) & Len) & pfree) & E & G & HA). exists Pe, Iw, Len, pfree. split; [exact E|]. split.
  { intros ag dense. rewrite amd_order_front by lia. rewrite E. reflexivity. }
  destruct (sg_len G) as (L1 & L2). split; [exact L1|]. split; [exact L2|]. split; [apply G|]. split; [intros x Hx; apply (sg_in G Hx)|]. split.
  - intros x p p' Hx Hp Hp' X. apply (sg_inj G Hx); auto.
  - intros x y Hx. rewrite HA by exact Hx. unfold patt, incol, entry. tauto.
Qed.

(* Limits at the level of SLIP_LU_analyze.  The return value of AMD is ignored: on a matrix that AMD rejects, analyze returns SLIP_OK, with
   whatever malloc returned as the column order. *)
Theorem C25_amd_failure_ignored : forall ol A Ap Ai n o,
  m_kind A = KCSC -> m_m A = n -> m_n A = n -> m_p A = Some Ap -> m_i A = Some Ai -> 1 <= n -> zlen Ap = n + 1 -> rd Ap n <= zlen Ai -> opt_order o = ORD_AMD ->
  rd Ap 0 = 0 -> (forall c, 0 <= c < n -> rd Ap c <= rd Ap (c + 1)) -> (exists p, 0 <= p < rd Ap n /\ (rd Ai p < 0 \/ n <= rd Ai p)) ->
  exists An, SLIP_LU_analyze ol true true (Some A) o = Ok (SOK, Out An) /\ s_q An = malloced ol 0 (n + 1).
Proof.
  intros ol A Ap Ai n o Hk Hm Hn Hp Hi H1 La HC Ho H0 HM HB.
  assert (HN : matrix_nnz true (Some A) = Ok (rd Ap n)).
  { unfold matrix_nnz. cbn [negb]. rewrite Hk. change (KCSC =? KCSC) with true. cbv iota. rewrite Hp, Hn. rewrite (proj2 (Z.ltb_ge n 0)) by lia. apply get_rd. lia. }
  unfold SLIP_LU_analyze, has_kind. rewrite Hk. change (KCSC =? KCSC) with true. cbn [negb]. rewrite Hm, Hn, Z.eqb_refl. cbn [negb orb]. rewrite HN. unfold analyze_core. rewrite Hp, Hi, Hn, Ho. cbn [deref bind].
  change (ORD_AMD =? ORD_NONE) with false. change (ORD_AMD =? ORD_AMD) with true. cbv iota. unfold amd_l_order. rewrite C79_amd_rejects_invalid; [|exact H1|exact La|exact HC|right; right; auto].
  cbn [bind fst snd]. destruct (fix_estimate n (-1) (-1)) as [l u]. cbn [finish]. eauto.
Qed.
Example C25_ex2 : exists An, SLIP_LU_analyze exol true true (Some (mkcsc 2 2 [0; 2; 3] [0; 2; 1] [1; 1; 1])) (Some (mkO 3 2 1%Q 0 128 RNDN false)) = Ok (SOK, Out An) /\ s_q An = [77; 76; 75].
Proof.
  destruct (@C25_amd_failure_ignored exol (mkcsc 2 2 [0; 2; 3] [0; 2; 1] [1; 1; 1]) [0; 2; 3] [0; 2; 1] 2 (Some (mkO 3 2 1%Q 0 128 RNDN false))) as (An & E & Q); try reflexivity; try discriminate.
  - intros c Hc. assert (c = 0 \/ c = 1) as [-> | ->] by lia; discriminate.
  - exists 1. split; [split; [discriminate|reflexivity]|right; discriminate].
  - eauto.
Qed.

(* The empty matrix: AMD_order returns before it computes anything, and the analysis then promises -1 entries of L and of U
   (with the other orderings: 0). *)
Theorem C79_empty_refuted : forall ol, exists A, m_kind A = KCSC /\ m_m A = 0 /\ m_n A = 0 /\ (exists Ap Ai, m_p A = Some Ap /\ m_i A = Some Ai /\ valid_pattern 0 0 Ap Ai) /\
  (exists An, SLIP_LU_analyze ol true true (Some A) (Some (mkO 3 ORD_AMD 1%Q 0 128 RNDN false)) = Ok (SOK, Out An) /\ s_lnz An = -1 /\ s_unz An = -1) /\
  (exists An, SLIP_LU_analyze ol true true (Some A) (Some (mkO 3 ORD_NONE 1%Q 0 128 RNDN false)) = Ok (SOK, Out An) /\ s_lnz An = 0 /\ s_unz An = 0).
Proof.
  intros ol. exists (mkcsc 0 0 [0] [0] [0]). repeat (split; [reflexivity|]). split; [exists [0], [0]; repeat (split; [reflexivity|]); constructor; intros; try reflexivity; cbn in *; try lia; discriminate|].
  split; eexists; (split; [reflexivity|]); split; reflexivity.
Qed.

(* The hypotheses are met: an unsorted pattern with a duplicate entry (row 2 twice in column 0), an empty column 3, an empty row 5, row 7 only below the diagonal. *)
Definition exAp8 : list Z := [0; 5; 6; 9; 9; 12; 14; 16; 19].
Definition exAi8 : list Z := [0; 2; 1; 3; 2;  3;  2; 7; 4;   7; 0; 6;  3; 2;  6; 0;  2; 3; 1].
Lemma exA8_pattern : square_pattern 8 exAp8 exAi8.
Proof.
  constructor; try reflexivity; try discriminate.
  - intros c Hc. apply Z.leb_le. exact (@allz_ok 0 8 (fun c => rd exAp8 c <=? rd exAp8 (c + 1)) eq_refl c Hc).
  - intros p Hp. pose proof (@allz_ok 0 19 (fun p => (0 <=? rd exAi8 p) && (rd exAi8 p <? 8)) eq_refl p Hp) as H. cbv beta in H. apply andb_true_iff in H. lia.
Qed.
Example C79_ex : square_pattern 8 exAp8 exAi8 /\ exists P, amd_order (ol_junk exol) true 8 28 exAp8 exAi8 = Ok (Some (P, 16)) /\ P = [5; 6; 4; 2; 0; 1; 7; 3].
Proof. split; [exact exA8_pattern|]. eexists. split; vm_compute; reflexivity. Qed.

(*----------------------------------------------------------------------------*)
(* C80.  How the entries are stored.  Two matrices with the same entries, either both with sorted columns or neither: the same ordering and
   the same count, however the row indices are arranged within the columns, however often they are repeated, and whatever the fresh
   memory contains. *)
Definition unsorted (n : Z) (Ap Ai : list Z) : Prop := exists j p, 0 <= j < n /\ rd Ap j <= p /\ p + 1 < rd Ap (j + 1) /\ rd Ai (p + 1) <= rd Ai p.
Definition same_entries (n : Z) (Ap Ai Ap' Ai' : list Z) : Prop := forall i j, 0 <= i < n -> 0 <= j < n -> (entry Ap Ai i j <-> entry Ap' Ai' i j).

Lemma increasing_unique (f g : Z -> Z) (l : Z) : (forall i j, 0 <= i < j -> j < l -> f i < f j) -> (forall i j, 0 <= i < j -> j < l -> g i < g j) ->
  (forall v, (exists i, 0 <= i < l /\ f i = v) <-> (exists i, 0 <= i < l /\ g i = v)) -> forall k, 0 <= k < l -> f k = g k.
Proof.
  intros Hf Hg H. assert (X : forall m, 0 <= m -> forall k, 0 <= k < m -> k < l -> f k = g k).
  { intros m Hm. pattern m. apply natlike_ind; [intros; lia| |exact Hm]. clear m Hm. intros m Hm IH k Hk Hl. destruct (Z.eq_dec k m) as [->|]; [|apply IH; lia].
    destruct (proj1 (H (f m)) (ex_intro _ m (conj (conj Hm Hl) eq_refl))) as (a & Ha & E). destruct (proj2 (H (g m)) (ex_intro _ m (conj (conj Hm Hl) eq_refl))) as (b & Hb & E').
    assert (m <= a). { destruct (Z_lt_le_dec a m) as [Q|Q]; [|exact Q]. exfalso. rewrite <- (IH a) in E by lia. pose proof (Hf a m ltac:(lia) Hl). lia. }
    assert (m <= b). { destruct (Z_lt_le_dec b m) as [Q|Q]; [|exact Q]. exfalso. rewrite (IH b) in E' by lia. pose proof (Hg b m ltac:(lia) Hl). lia. }
    assert (g m <= g a) by (destruct (Z.eq_dec m a) as [->|]; [lia|pose proof (Hg m a ltac:(lia) ltac:(lia)); lia]).
    assert (f m <= f b) by (destruct (Z.eq_dec m b) as [->|]; [lia|pose proof (Hf m b ltac:(lia) ltac:(lia)); lia]). lia. }
  intros k Hk. apply (X (k + 1)); lia.
Qed.
Lemma sorted_unique n Rp Ri Rp' Ri' : spat n Rp Ri -> spat n Rp' Ri' -> zlen Rp = n + 1 -> zlen Rp' = n + 1 ->
  (forall i j, 0 <= i < n -> 0 <= j < n -> (incol Rp Ri i j <-> incol Rp' Ri' i j)) -> Rp = Rp' /\ forall q, 0 <= q < rd Rp n -> rd Ri q = rd Ri' q.
Proof.
  intros S1 S2 L1 L2 H. pose proof (sp_n S1) as Hn.
  assert (LEN : forall R I, spat n R I -> forall i, 0 <= i < n -> rd R (i + 1) - rd R i = sumz n (fun x => b2z (memb I (rd R i) (rd R (i + 1) - rd R i) x))).
  { intros R I SP i Hi. pose proof (sp_mono SP Hi). apply seg_len; [lia| |intros j Hj; apply (@q_rng n R I SP i j Hi ltac:(lia))].
    intros a b Ha Hb E. destruct (Z.lt_trichotomy a b) as [Q|[Q|Q]]; [|exact Q|]; [pose proof (@sp_inc _ _ _ SP i a b Hi ltac:(lia) ltac:(lia))|pose proof (@sp_inc _ _ _ SP i b a Hi ltac:(lia) ltac:(lia))]; lia. }
  assert (SEG : forall i, 0 <= i < n -> rd Rp (i + 1) - rd Rp i = rd Rp' (i + 1) - rd Rp' i).
  { intros i Hi. rewrite (LEN Rp Ri S1 i Hi), (LEN Rp' Ri' S2 i Hi). apply sumz_ext. intros x Hx. f_equal. apply bool_iff. rewrite !memb_spec. specialize (H i x Hi Hx). unfold incol in H.
    split; intros (q & Q1 & Q2); [destruct (proj1 H) as (q' & Q1' & Q2')|destruct (proj2 H) as (q' & Q1' & Q2')]; try (exists q; split; [lia|exact Q2]); exists q'; (split; [lia|exact Q2']). }
  assert (RP : forall i, 0 <= i -> i <= n -> rd Rp i = rd Rp' i).
  { intros i Hi. pattern i. apply natlike_ind; [rewrite (sp_0 S1), (sp_0 S2); reflexivity| |exact Hi]. clear i Hi. intros i Hi IH Hl. unfold Z.succ in *. specialize (IH ltac:(lia)). specialize (SEG i ltac:(lia)). lia. }
  split; [apply list_ext; [lia|]; intros i Hi; apply RP; lia|]. intros q Hq.
  destruct (@cover (rd Rp) n q ltac:(lia)) as (i & Hi & HI); [rewrite (sp_0 S1); lia|]. pose proof (RP i ltac:(lia) ltac:(lia)) as R0. pose proof (RP (i + 1) ltac:(lia) ltac:(lia)) as R1.
  pose proof (@increasing_unique (fun k => rd Ri (rd Rp i + k)) (fun k => rd Ri' (rd Rp i + k)) (rd Rp (i + 1) - rd Rp i)) as X. cbv beta in X. replace q with (rd Rp i + (q - rd Rp i)) by lia. apply X; [| | |lia].
  - intros a b Ha Hb. apply (sp_inc S1 Hi); lia.
  - intros a b Ha Hb. apply (@sp_inc _ _ _ S2 i); lia.
  - intros v. split; intros (k & K1 & K2).
    + destruct (@q_rng n Rp Ri S1 i (rd Rp i + k) Hi ltac:(lia)) as (_ & V). rewrite K2 in V. destruct (proj1 (H i v Hi V)) as (t & T1 & T2); [exists (rd Rp i + k); split; [lia|exact K2]|]. exists (t - rd Rp i). split; [lia|]. replace (rd Rp i + (t - rd Rp i)) with t by lia. exact T2.
    + rewrite R0 in K2. destruct (@q_rng n Rp' Ri' S2 i (rd Rp' i + k) Hi ltac:(lia)) as (_ & V). rewrite K2 in V. destruct (proj2 (H i v Hi V)) as (t & T1 & T2); [exists (rd Rp' i + k); split; [lia|exact K2]|]. exists (t - rd Rp i). split; [lia|]. replace (rd Rp i + (t - rd Rp i)) with t by lia. exact T2.
Qed.
Lemma unsorted_jumbled n Ap Ai : jpat n Ap Ai -> unsorted n Ap Ai -> amd_valid n n Ap Ai = Ok true.
Proof.
  intros JP (j & p & Hj & P1 & P2 & P3). pose proof (valid_ok JP) as W. apply wp_ok_ex in W. destruct W as ([] & E & H); [exact E|]. exfalso. pose proof (@sp_inc _ _ _ (H eq_refl) j p (p + 1) Hj ltac:(lia) P2). lia.
Qed.
Lemma jumbled_unsorted n Ap Ai : jpat n Ap Ai -> amd_valid n n Ap Ai = Ok true -> unsorted n Ap Ai.
Proof.
  intros JP E. enough (W : wp (amd_valid n n Ap Ai) (fun b => b = true -> unsorted n Ap Ai) nerr) by (rewrite E in W; apply W; reflexivity). clear E.
  pose proof (jp_n JP) as Hn. pose proof (jp_ap JP) as La. unfold amd_valid. rewrite (proj2 (Z.ltb_ge n 0)) by lia. cbn [orb].
  wg; [lia|]. wg; [lia|]. rewrite (jp_0 JP). pose proof (@jap n Ap Ai JP 0 n ltac:(lia) ltac:(lia)) as Z0. rewrite (jp_0 JP) in Z0. rewrite (proj2 (Z.ltb_ge (rd Ap n) 0)) by lia. cbn [Z.eqb negb orb].
  apply wp_for with (I := fun j b => b = true -> unsorted n Ap Ai); [lia|discriminate|].
  intros j b Hj H. wg; [lia|]. wg; [lia|]. pose proof (jp_mono JP Hj) as M. rewrite Z.gtb_ltb, (proj2 (Z.ltb_ge _ _) M).
  apply wp_bind. eapply wp_conseq; [apply wp_for with (I := fun p '(r, il) => (r = true -> unsorted n Ap Ai) /\ il = (if p =? rd Ap j then -1 else rd Ai (p - 1))); [exact M| |]|].
  - split; [exact H|]. rewrite Z.eqb_refl. reflexivity.
  - intros p [r il] Hp (H1 & ->). destruct (@jq n Ap Ai JP j p Hj Hp) as (_ & P1 & P2). wg; [lia|]. rewrite (proj2 (Z.ltb_ge (rd Ai p) 0)) by lia. rewrite Z.geb_leb, (proj2 (Z.leb_gt n (rd Ai p))) by lia. cbn [orb wp]. split.
    + intros E. apply Bool.orb_true_iff in E. destruct E as [E|E]; [auto|]. apply Z.leb_le in E. destruct (Z.eqb_spec p (rd Ap j)); [lia|]. exists j, (p - 1). replace (p - 1 + 1) with p by lia. repeat split; try lia.
    + destruct (Z.eqb_spec (p + 1) (rd Ap j)); [lia|]. replace (p + 1 - 1) with p by lia. reflexivity.
  - intros [r il] (H1 & _). exact H1.
Qed.
Lemma amd_order_rest junk ag n dense Ap Ai : square_pattern n Ap Ai -> exists b, amd_valid n n Ap Ai = Ok b /\ (b = true <-> unsorted n Ap Ai) /\
  amd_order junk ag n dense Ap Ai = let* st := (if b then amd_preprocess n Ap Ai (block (junk 1) 0 (n + 1)) (block (junk 2) 0 (rd Ap n)) else Ok (Ap, Ai)) in amd_rest junk ag n dense (fst st) (snd st).
Proof.
  intros V. pose proof (square_jpat V) as JP. pose proof (jp_n JP) as Hn. pose proof (jp_ap JP) as La. pose proof (@jap n Ap Ai JP 0 n ltac:(lia) ltac:(lia)) as Z0. rewrite (jp_0 JP) in Z0.
  pose proof (valid_ok JP) as W. apply wp_ok_ex in W. destruct W as (b & E & H). exists b. split; [exact E|]. split.
  - split; [intros ->; apply (jumbled_unsorted JP E)|]. intros U. rewrite (unsorted_jumbled JP U) in E. congruence.
  - unfold amd_order. rewrite (proj2 (Z.ltb_ge n 0)), (proj2 (Z.eqb_neq n 0)) by lia. rewrite get_rd by lia. cbn [bind]. rewrite (proj2 (Z.ltb_ge (rd Ap n) 0)) by lia. rewrite E. cbn [bind].
    destruct (if b then amd_preprocess n Ap Ai (block (junk 1) 0 (n + 1)) (block (junk 2) 0 (rd Ap n)) else Ok (Ap, Ai)) as [[Cp Ci]| | |]; [|reflexivity..]. cbn [bind fst snd]. reflexivity.
Qed.
Theorem C80_storage_order : forall junk junk' aggressive n dense Ap Ai Ap' Ai', square_pattern n Ap Ai -> square_pattern n Ap' Ai' ->
  (unsorted n Ap Ai <-> unsorted n Ap' Ai') -> same_entries n Ap Ai Ap' Ai' -> amd_order junk aggressive n dense Ap Ai = amd_order junk' aggressive n dense Ap' Ai'.
Proof.
  intros junk junk' ag n dense Ap Ai Ap' Ai' V V' U SE. pose proof (square_jpat V) as JP. pose proof (square_jpat V') as JP'. pose proof (jp_n JP) as Hn.
  pose proof (@jap n Ap Ai JP 0 n ltac:(lia) ltac:(lia)) as Z0. rewrite (jp_0 JP) in Z0. pose proof (@jap n Ap' Ai' JP' 0 n ltac:(lia) ltac:(lia)) as Z1. rewrite (jp_0 JP') in Z1.
  destruct (@amd_order_rest junk ag n dense Ap Ai V) as (b & E & Hb & ->). destruct (@amd_order_rest junk' ag n dense Ap' Ai' V') as (b' & E' & Hb' & ->).
  assert (b' = b) as ->. { destruct b, b'; try reflexivity; exfalso; [assert (false = true) by (apply Hb', U, Hb; reflexivity)|assert (false = true) by (apply Hb, U, Hb'; reflexivity)]; discriminate. }
  destruct b.
  - pose proof (@preprocess_ok n Ap Ai JP (block (junk 1) 0 (n + 1)) (block (junk 2) 0 (rd Ap n)) ltac:(apply zlen_block; lia) ltac:(apply zlen_block; lia)) as W. apply wp_ok_ex in W. destruct W as ((Rp & Ri) & -> & S1 & (A1 & _) & A4).
    pose proof (@preprocess_ok n Ap' Ai' JP' (block (junk' 1) 0 (n + 1)) (block (junk' 2) 0 (rd Ap' n)) ltac:(apply zlen_block; lia) ltac:(apply zlen_block; lia)) as W. apply wp_ok_ex in W. destruct W as ((Rp' & Ri') & -> & S2 & (B1 & _) & B4).
    destruct (@sorted_unique n Rp Ri Rp' Ri' S1 S2 A1 B1) as (<- & H).
    { intros i j Hi Hj. rewrite (A4 i j Hi Hj), (B4 i j Hi Hj). apply (SE i j Hi Hj). }
    cbn [bind fst snd]. apply rest_uninit; assumption.
  - pose proof (valid_ok JP) as W. rewrite E in W. specialize (W eq_refl). pose proof (valid_ok JP') as W'. rewrite E' in W'. specialize (W' eq_refl).
    destruct (@sorted_unique n Ap Ai Ap' Ai' W W' (qp_p V) (qp_p V')) as (<- & H).
    { intros i j Hi Hj. apply (SE j i Hj Hi). }
    cbn [bind fst snd]. apply rest_uninit; assumption.
Qed.
(* the same for the analysis *)
Theorem C80_analyze : forall ol A A' Ap Ai Ap' Ai' n o,
  m_kind A = KCSC -> m_m A = n -> m_n A = n -> m_p A = Some Ap -> m_i A = Some Ai -> m_kind A' = KCSC -> m_m A' = n -> m_n A' = n -> m_p A' = Some Ap' -> m_i A' = Some Ai' ->
  square_pattern n Ap Ai -> square_pattern n Ap' Ai' -> (unsorted n Ap Ai <-> unsorted n Ap' Ai') -> same_entries n Ap Ai Ap' Ai' -> opt_order o = ORD_AMD ->
  SLIP_LU_analyze ol true true (Some A) o = SLIP_LU_analyze ol true true (Some A') o.
Proof.
  intros ol A A' Ap Ai Ap' Ai' n o Hk Hm Hn Hp Hi Hk' Hm' Hn' Hp' Hi' V V' U SE Ho.
  assert (HN : forall B Bp, m_kind B = KCSC -> m_n B = n -> m_p B = Some Bp -> zlen Bp = n + 1 -> matrix_nnz true (Some B) = Ok (rd Bp n)).
  { intros B Bp K1 K2 K3 K4. unfold matrix_nnz. cbn [negb]. rewrite K1. change (KCSC =? KCSC) with true. cbv iota. rewrite K2, K3. pose proof (qp_n V). rewrite (proj2 (Z.ltb_ge n 0)) by lia. apply get_rd. lia. }
  unfold SLIP_LU_analyze, has_kind. rewrite Hk, Hk'. change (KCSC =? KCSC) with true. cbn [negb]. rewrite Hm, Hm', Hn, Hn', Z.eqb_refl. cbn [negb orb]. rewrite (HN A Ap Hk Hn Hp (qp_p V)), (HN A' Ap' Hk' Hn' Hp' (qp_p V')).
  unfold analyze_core. rewrite Hp, Hi, Hn, Hp', Hi', Hn', Ho. cbn [deref bind]. change (ORD_AMD =? ORD_NONE) with false. change (ORD_AMD =? ORD_AMD) with true. cbv iota.
  unfold amd_l_order. rewrite (@C80_storage_order (ol_junk ol) (ol_junk ol) true n (ol_amd_dense ol n) Ap Ai Ap' Ai') by assumption. reflexivity.
Qed.


(* The hypotheses are met, with two arrangements of the entries of the same matrix (in the second, other entries are repeated). *)
Lemma entry_memb Ap Ai i j : entry Ap Ai i j <-> memb Ai (rd Ap j) (rd Ap (j + 1) - rd Ap j) i = true.
Proof. rewrite memb_spec. unfold entry. split; intros (p & H & E); exists p; (split; [lia|exact E]). Qed.
Lemma same_entries_dec n Ap Ai Ap' Ai' :
  Check.allz 0 n (fun i => Check.allz 0 n (fun j => Bool.eqb (memb Ai (rd Ap j) (rd Ap (j + 1) - rd Ap j) i) (memb Ai' (rd Ap' j) (rd Ap' (j + 1) - rd Ap' j) i))) = true -> same_entries n Ap Ai Ap' Ai'.
Proof.
  intros H i j Hi Hj. pose proof (allz_ok H Hi) as H1. cbv beta in H1. pose proof (allz_ok H1 Hj) as H2. cbv beta in H2. apply Bool.eqb_prop in H2. rewrite !entry_memb, H2. tauto.
Qed.
Definition square_patternb (n : Z) (Ap Ai : list Z) : bool :=
  (1 <=? n) && (zlen Ap =? n + 1) && (rd Ap 0 =? 0) && (rd Ap n <=? zlen Ai) && Check.allz 0 n (fun c => rd Ap c <=? rd Ap (c + 1)) && Check.allz 0 (rd Ap n) (fun p => (0 <=? rd Ai p) && (rd Ai p <? n)).
Lemma square_patternb_ok n Ap Ai : square_patternb n Ap Ai = true -> square_pattern n Ap Ai.
Proof.
  unfold square_patternb. rewrite !andb_true_iff. intros (((((H1 & H2) & H3) & H4) & H5) & H6). constructor; try lia.
  - intros c Hc. pose proof (allz_ok H5 Hc) as X. cbv beta in X. lia.
  - intros p Hp. pose proof (allz_ok H6 Hp) as X. cbv beta in X. apply andb_true_iff in X. lia.
Qed.
Definition exAi8' : list Z := [3; 2; 1; 0; 0;  3;  2; 7; 4;   6; 7; 0;  2; 3;  0; 6;  1; 3; 2].
Example C80_ex : square_pattern 8 exAp8 exAi8 /\ square_pattern 8 exAp8 exAi8' /\ unsorted 8 exAp8 exAi8 /\ unsorted 8 exAp8 exAi8' /\ same_entries 8 exAp8 exAi8 exAp8 exAi8' /\
  amd_order (ol_junk exol) true 8 28 exAp8 exAi8' = Ok (Some ([5; 6; 4; 2; 0; 1; 7; 3], 16)).
Proof.
  split; [apply square_patternb_ok; reflexivity|]. split; [apply square_patternb_ok; reflexivity|]. split; [exists 0, 1; repeat split; discriminate|]. split; [exists 0, 0; repeat split; discriminate|].
  split; [apply same_entries_dec; reflexivity|]. vm_compute. reflexivity.
Qed.
(* Another arrangement with more repetitions (23 stored entries instead of 19), and other contents of the fresh memory. *)
Definition exAp8r : list Z := [0; 5; 9; 12; 12; 15; 17; 20; 23].
Definition exAi8r : list Z := [3; 2; 1; 0; 0;  3; 3; 3; 3;  2; 7; 4;   6; 7; 0;  2; 3;  0; 6; 0;  1; 3; 2].
Example C80_ex_repeated : square_pattern 8 exAp8r exAi8r /\ unsorted 8 exAp8r exAi8r /\ same_entries 8 exAp8 exAi8 exAp8r exAi8r /\
  forall junk, amd_order junk true 8 28 exAp8r exAi8r = Ok (Some ([5; 6; 4; 2; 0; 1; 7; 3], 16)).
Proof.
  assert (V : square_pattern 8 exAp8r exAi8r) by (apply square_patternb_ok; reflexivity). assert (U : unsorted 8 exAp8r exAi8r) by (exists 0, 0; repeat split; discriminate). assert (U0 : unsorted 8 exAp8 exAi8) by (exists 0, 1; repeat split; discriminate).
  assert (S : same_entries 8 exAp8 exAi8 exAp8r exAi8r) by (apply same_entries_dec; reflexivity). repeat (split; [assumption|]).
  intros junk. rewrite <- (@C80_storage_order (ol_junk exol) junk true 8 28 exAp8 exAi8 exAp8r exAi8r exA8_pattern V); [|tauto|exact S]. destruct C79_ex as (_ & P & E & ->). exact E.
Qed.
(* The full claim - the same ordering for every arrangement - is false: sorting the columns of a matrix can change the ordering, and the bound on
   the number of entries of L with it.  (AMD orders the rows of A when the columns are sorted, and those of A' otherwise.) *)
Theorem C80_sorted_refuted : forall junk, exists n Ap Ai Ai' P P' lnz lnz', square_pattern n Ap Ai /\ square_pattern n Ap Ai' /\ same_entries n Ap Ai Ap Ai' /\ ~ unsorted n Ap Ai /\ unsorted n Ap Ai' /\
  amd_order junk true n 20 Ap Ai = Ok (Some (P, lnz)) /\ amd_order junk true n 20 Ap Ai' = Ok (Some (P', lnz')) /\ P <> P' /\ lnz <> lnz'.
Proof.
  intros junk. exists 6, [0; 3; 6; 9; 10; 12; 15], [1; 2; 3; 2; 3; 4; 1; 4; 5; 2; 0; 2; 1; 3; 5], [3; 2; 1; 4; 3; 2; 5; 4; 1; 2; 2; 0; 5; 3; 1], [5; 0; 1; 3; 4; 2], [5; 3; 1; 2; 4; 0], 13, 12.
  split; [apply square_patternb_ok; reflexivity|]. split; [apply square_patternb_ok; reflexivity|]. split; [apply same_entries_dec; reflexivity|].
  split. { intros (j & p & Hj & P1 & P2 & P3). pose proof (@allz_ok 0 6 (fun j => Check.allz (rd [0; 3; 6; 9; 10; 12; 15] j) (rd [0; 3; 6; 9; 10; 12; 15] (j + 1) - 1) (fun p => rd [1; 2; 3; 2; 3; 4; 1; 4; 5; 2; 0; 2; 1; 3; 5] p <? rd [1; 2; 3; 2; 3; 4; 1; 4; 5; 2; 0; 2; 1; 3; 5] (p + 1))) eq_refl j Hj) as H. cbv beta in H.
    assert (Hp : rd [0; 3; 6; 9; 10; 12; 15] j <= p < rd [0; 3; 6; 9; 10; 12; 15] (j + 1) - 1) by lia. pose proof (allz_ok H Hp) as X. cbv beta in X. lia. }
  split; [exists 0, 0; repeat split; discriminate|]. split; [vm_compute; reflexivity|]. split; [vm_compute; reflexivity|]. split; discriminate.
Qed.
