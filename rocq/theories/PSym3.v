(* SYMAMD, part 3: the matrix M. *)
From Verif Require Import Base Det DetZ Spec MColamd ApiSpec MSymamd SymSpec PCol1 PSym1 PSym2.
Set Implicit Arguments.
Open Scope Z_scope.
Set Bullet Behavior "Strict Subproofs".

Definition ptr (E : list (Z * Z)) (x : Z) : Z := sumz x (fun y => deg y E).
Lemma ptr_S E x : 0 <= x -> ptr E (x + 1) = ptr E x + deg x E.
Proof. intros H. unfold ptr. rewrite sumz_S by lia. lia. Qed.
Lemma ptr_0 E : ptr E 0 = 0.
Proof. reflexivity. Qed.
Lemma ptr_le E x y : 0 <= x -> x <= y -> ptr E x <= ptr E y.
Proof.
  intros Hx Hxy. remember (Z.to_nat (y - x)) as k eqn:E0. revert y Hxy E0. induction k as [|k IH]; intros y Hxy E0.
  - replace y with x by lia. lia.
  - pose proof (IH (y - 1) ltac:(lia) ltac:(lia)). pose proof (@ptr_S E (y - 1) ltac:(lia)). replace (y - 1 + 1) with y in * by lia. pose proof (deg_nonneg (y - 1) E). lia.
Qed.
Lemma ptr_find E n q : 0 <= n -> 0 <= q < ptr E n -> exists x, 0 <= x < n /\ ptr E x <= q < ptr E (x + 1).
Proof.
  intros Hn Hq. assert (G : forall x, 0 <= x -> x <= n -> ptr E x <= q -> exists c, 0 <= c < n /\ ptr E c <= q < ptr E (c + 1)).
  { intros x Hx. remember (Z.to_nat (n - x)) as k eqn:E0. revert x Hx E0. induction k as [|k IH]; intros x Hx E0 Lx Hxu.
    - replace x with n in * by lia. lia.
    - destruct (Z_lt_ge_dec q (ptr E (x + 1))) as [Y|Y]; [exists x; lia|]. apply (IH (x + 1)); lia. }
  apply (G 0); [lia|lia|rewrite ptr_0; lia].
Qed.
Definition Pof (n : Z) (E : list (Z * Z)) : list Z := map (ptr E) (zseq 0 (n + 1)).
Definition Cof (n : Z) (E : list (Z * Z)) : list Z := map (fun x => if x =? n then 0 else ptr E x) (zseq 0 (n + 1)).
Lemma rd_map_zseq f k x : 0 <= x < k -> rd (map f (zseq 0 k)) x = f x.
Proof.
  intros H. unfold rd. rewrite (nth_indep _ 0 (f 0)) by (rewrite map_length; pose proof (zlen_zseq (lo := 0) (hi := k) ltac:(lia)); unfold zlen in *; lia). rewrite map_nth. f_equal. exact (@rd_zseq 0 k x ltac:(lia)).
Qed.
Lemma zlen_map_zseq (f : Z -> Z) k : 0 <= k -> zlen (map f (zseq 0 k)) = k.
Proof. intros H. pose proof (@zlen_zseq 0 k H) as E. unfold zlen in *. rewrite map_length. lia. Qed.
Lemma zlen_Pof n E : 0 <= n -> zlen (Pof n E) = n + 1.
Proof. intros H. apply zlen_map_zseq. lia. Qed.
Lemma zlen_Cof n E : 0 <= n -> zlen (Cof n E) = n + 1.
Proof. intros H. apply zlen_map_zseq. lia. Qed.
Lemma rd_Pof n E x : 0 <= x <= n -> rd (Pof n E) x = ptr E x.
Proof. intros H. unfold Pof. apply rd_map_zseq. lia. Qed.
Lemma rd_Cof n E x : 0 <= x < n -> rd (Cof n E) x = ptr E x.
Proof. intros H. unfold Cof. rewrite rd_map_zseq by lia. destruct (Z.eqb_spec x n); [lia|reflexivity]. Qed.

Lemma sy_pointers_ok n E count perm : 0 <= n -> zlen count = n + 1 -> zlen perm = n + 1 -> (forall x, 0 <= x < n -> rd count x = deg x E) -> rd count n = 0 ->
  sy_pointers n count perm = Ok (Pof n E, Cof n E).
Proof.
  intros Hn Lc Lp D DN.
  assert (W : wp (sy_pointers n count perm) (fun st => st = (Pof n E, Cof n E)) nerr).
  { unfold sy_pointers. ws; [lia|]. apply wp_bind. eapply wp_conseq; [apply wp_for with (I := fun j pm => zlen pm = n + 1 /\ forall x, 0 <= x < j -> rd pm x = ptr E x); [lia| |]|].
    - rewrite zlen_wr. split; [exact Lp|]. intros x Hx. replace x with 0 by lia. rewrite rd_wr_eq by lia. reflexivity.
    - intros j pm Hj (L & H). wg; [lia|]. wg; [lia|]. apply wp_set; [lia|]. rewrite zlen_wr. split; [exact L|]. intros x Hx. rewrite rd_wr by lia.
      destruct (Z.eqb_spec x j) as [->|]; [|apply H; lia]. rewrite H, D by lia. pose proof (@ptr_S E (j - 1) ltac:(lia)). replace (j - 1 + 1) with j in * by lia. lia.
    - intros pm (L & H). assert (EP : pm = Pof n E). { apply list_ext; [rewrite zlen_Pof; lia|]. intros i Hi. rewrite H by lia. rewrite rd_Pof by lia. reflexivity. }
      subst pm. apply wp_bind. eapply wp_conseq; [apply wp_for with (I := fun j c => zlen c = n + 1 /\ (forall x, 0 <= x < j -> rd c x = ptr E x) /\ rd c n = 0); [lia| |]|].
      + split; [exact Lc|]. split; [intros; lia|exact DN].
      + intros j c Hj (L1 & H1 & H2). wg; [lia|]. apply wp_set; [lia|]. rewrite zlen_wr. split; [exact L1|]. split.
        * intros x Hx. rewrite rd_wr by lia. destruct (Z.eqb_spec x j) as [->|]; [apply rd_Pof; lia|apply H1; lia].
        * rewrite rd_wr by lia. destruct (Z.eqb_spec n j); [lia|exact H2].
      + intros c (L1 & H1 & H2). cbn [wp]. f_equal. apply list_ext; [rewrite zlen_Cof; lia|]. intros i Hi. unfold Cof. rewrite rd_map_zseq by lia. destruct (Z.eqb_spec i n) as [->|]; [exact H2|apply H1; lia]. }
  apply wp_ok_ex in W. destruct W as (st & -> & ->). reflexivity.
Qed.

(*----------------------------------------------------------------------------*)
Definition put1 (st : list Z * list Z) (i k : Z) : list Z * list Z := let '(c, M) := st in (wr c i (rd c i + 1), wr M (rd c i) k).
Definition put (st : list Z * list Z * Z) (e : Z * Z) : list Z * list Z * Z := let '(c, M, k) := st in (put1 (put1 (c, M) (fst e) k) (snd e) k, k + 1).
Definition puts (n : Z) (E : list (Z * Z)) (M0 : list Z) (P : list (Z * Z)) : list Z * list Z * Z := fold_left put P (Cof n E, M0, 0).

Section Build.
Variables (n : Z) (E : list (Z * Z)) (M0 : list Z).
Hypothesis Hn : 0 <= n.
Hypothesis GE : forall e, In e E -> good_edge n e.
Hypothesis LM : ptr E n <= zlen M0.

Record binv (P : list (Z * Z)) (c M : list Z) (k : Z) : Prop := {
  b_c : zlen c = n + 1;
  b_M : zlen M = zlen M0;
  b_k : k = zlen P;
  b_at : forall x, 0 <= x < n -> rd c x = ptr E x + deg x P;
  b_rng : forall x q, 0 <= x < n -> ptr E x <= q < rd c x -> 0 <= rd M q < k;
  b_srt : forall x q r, 0 <= x < n -> ptr E x <= q -> q < r -> r < rd c x -> rd M q < rd M r }.

Lemma room P e R x : P ++ e :: R = E -> 0 <= x < n -> 0 < deg1 x e -> ptr E x + deg x P + deg1 x e <= ptr E (x + 1) /\ ptr E (x + 1) <= zlen M0.
Proof.
  intros <- Hx D. rewrite ptr_S by lia. rewrite deg_app. cbn [deg]. pose proof (deg_nonneg x R). pose proof (@ptr_le (P ++ e :: R) (x + 1) n ltac:(lia) ltac:(lia)) as Q. rewrite ptr_S in Q by lia. rewrite deg_app in Q. cbn [deg] in Q. lia.
Qed.

(* the three facts about one column of M, when k is appended to column i *)
Lemma put_inv P e R c M k : P ++ e :: R = E -> binv P c M k ->
  let '(c', M', k') := put (c, M, k) e in binv (P ++ [e]) c' M' k' /\
    0 <= fst e < zlen c /\ 0 <= rd c (fst e) < zlen M /\ 0 <= snd e < zlen c /\ 0 <= rd (wr c (fst e) (rd c (fst e) + 1)) (snd e) < zlen M.
Proof.
  intros HE [B1 B2 B3 B4 B5 B6]. assert (G : good_edge n e) by (apply GE; rewrite <- HE; apply in_or_app; right; left; reflexivity). destruct e as [i j]. unfold good_edge in G. cbn [fst snd] in *.
  assert (Di : deg1 i (i, j) = 1) by (unfold deg1; cbn [fst snd]; rewrite Z.eqb_refl, (proj2 (Z.eqb_neq j i)) by lia; reflexivity).
  assert (Dj : deg1 j (i, j) = 1) by (unfold deg1; cbn [fst snd]; rewrite Z.eqb_refl, (proj2 (Z.eqb_neq i j)) by lia; reflexivity).
  assert (Dx : forall x, x <> i -> x <> j -> deg1 x (i, j) = 0) by (intros x X1 X2; unfold deg1; cbn [fst snd]; rewrite (proj2 (Z.eqb_neq i x)), (proj2 (Z.eqb_neq j x)) by lia; reflexivity).
  pose proof (@room P (i, j) R i HE ltac:(lia) ltac:(lia)) as Ri. pose proof (@room P (i, j) R j HE ltac:(lia) ltac:(lia)) as Rj. rewrite Di in Ri. rewrite Dj in Rj.
  pose proof (B4 i ltac:(lia)) as Ci. pose proof (B4 j ltac:(lia)) as Cj. pose proof (deg_nonneg i P). pose proof (deg_nonneg j P).
  pose proof (@ptr_le E 0 i ltac:(lia) ltac:(lia)) as Qi. pose proof (@ptr_le E 0 j ltac:(lia) ltac:(lia)) as Qj. rewrite ptr_0 in Qi, Qj.
  pose proof (zlen_nonneg P) as Hk.
  unfold put, put1. cbn [fst snd]. set (c1 := wr c i (rd c i + 1)). assert (C1j : rd c1 j = rd c j) by (unfold c1; rewrite rd_wr_ne by lia; reflexivity). rewrite C1j.
  set (M2 := wr (wr M (rd c i) k) (rd c j) k). set (c2 := wr c1 j (rd c j + 1)).
  assert (E2 : forall x, 0 <= x < n -> rd c2 x = rd c x + deg1 x (i, j)).
  { intros x Hx. unfold c2, c1. rewrite !rd_wr by (rewrite ?zlen_wr; lia). destruct (Z.eqb_spec x j) as [->|]; [lia|]. destruct (Z.eqb_spec x i) as [->|]; [lia|]. rewrite Dx by assumption. lia. }
  assert (EM : forall q, 0 <= q -> rd M2 q = if (q =? rd c i) || (q =? rd c j) then k else rd M q).
  { intros q Hq. unfold M2. rewrite !rd_wr by (rewrite ?zlen_wr; lia). destruct (q =? rd c j), (q =? rd c i); reflexivity. }
  (* the cells written belong to columns i and j only *)
  assert (SEP : forall x q, 0 <= x < n -> ptr E x <= q < rd c x -> q <> rd c i /\ q <> rd c j).
  { intros x q Hx Hq. assert (O : forall y, (y = i \/ y = j) -> q <> rd c y).
    { intros y Hy. assert (Hy' : 0 <= y < n) by lia. assert (rd c y < ptr E (y + 1)) by (destruct Hy as [->| ->]; lia).
      assert (rd c x <= ptr E (x + 1)). { rewrite (B4 x Hx), ptr_S by lia. rewrite <- HE, deg_app. pose proof (deg_nonneg x ((i, j) :: R)). lia. }
      pose proof (deg_nonneg y P). pose proof (B4 y Hy').
      destruct (Z.lt_trichotomy x y) as [L|[->|L]]; [pose proof (@ptr_le E (x + 1) y ltac:(lia) ltac:(lia)); lia|lia|pose proof (@ptr_le E (y + 1) x ltac:(lia) ltac:(lia)); lia]. }
    split; apply O; auto. }
  split; [|unfold c1; rewrite ?zlen_wr; lia].
  assert (OLD : forall x q, 0 <= x < n -> ptr E x <= q < rd c x -> rd M2 q = rd M q).
  { intros x q Hx Hq. destruct (SEP x q Hx Hq). pose proof (@ptr_le E 0 x ltac:(lia) ltac:(lia)) as Q. rewrite ptr_0 in Q. rewrite EM by lia. rewrite !(proj2 (Z.eqb_neq _ _)) by assumption. reflexivity. }
  assert (NEW : forall x, 0 <= x < n -> 0 < deg1 x (i, j) -> deg1 x (i, j) = 1 /\ rd M2 (rd c x) = k /\ 0 <= rd c x).
  { intros x Hx D. assert (x = i \/ x = j) by (destruct (Z.eq_dec x i); [auto|]; destruct (Z.eq_dec x j); [auto|]; rewrite Dx in D by assumption; lia).
    destruct H1 as [->| ->]; (split; [assumption|]); (split; [|lia]); rewrite EM by lia; rewrite Z.eqb_refl, ?orb_true_r; reflexivity. }
  constructor.
  - unfold c2, c1. rewrite !zlen_wr. exact B1.
  - unfold M2. rewrite !zlen_wr. exact B2.
  - rewrite zlen_app. unfold zlen at 2. cbn [length]. lia.
  - intros x Hx. rewrite E2, B4 by exact Hx. rewrite deg_app. cbn [deg]. lia.
  - intros x q Hx Hq. rewrite E2 in Hq by exact Hx. pose proof (deg1_nonneg x (i, j)). destruct (Z_lt_ge_dec q (rd c x)) as [L|L].
    + rewrite (OLD x q Hx) by lia. pose proof (B5 x q Hx ltac:(lia)). lia.
    + destruct (NEW x Hx ltac:(lia)) as (N1 & N2 & _). replace q with (rd c x) by lia. rewrite N2. lia.
  - intros x q r Hx Hq Hqr Hr. rewrite E2 in Hr by exact Hx. pose proof (deg1_nonneg x (i, j)). destruct (Z_lt_ge_dec r (rd c x)) as [L|L].
    + rewrite !(OLD x) by (try exact Hx; lia). apply (B6 x q r Hx); lia.
    + destruct (NEW x Hx ltac:(lia)) as (N1 & N2 & _). replace r with (rd c x) in * by lia. rewrite N2. rewrite (OLD x q Hx) by lia. apply (B5 x q Hx). lia.
Qed.

Lemma puts_inv P R c M k : P ++ R = E -> puts n E M0 P = (c, M, k) -> binv P c M k.
Proof.
  revert R c M k. induction P as [|e P IH] using rev_ind; intros R c M k HE HP.
  - unfold puts in HP. cbn [fold_left] in HP. injection HP as <- <- <-. constructor; auto.
    + apply zlen_Cof. exact Hn.
    + intros x Hx. cbn [deg]. rewrite rd_Cof by exact Hx. lia.
    + intros x q Hx Hq. rewrite rd_Cof in Hq by exact Hx. lia.
    + intros x q r Hx Hq Hqr Hr. rewrite rd_Cof in Hr by exact Hx. lia.
  - rewrite <- app_assoc in HE. cbn [app] in HE. unfold puts in HP. rewrite fold_left_app in HP. cbn [fold_left] in HP. fold (puts n E M0 P) in HP. destruct (puts n E M0 P) as [[c0 M1] k0] eqn:E0.
    pose proof (@put_inv P e R c0 M1 k0 HE (IH _ _ _ _ HE eq_refl)) as Q. rewrite HP in Q. apply Q.
Qed.
Lemma puts_snoc P e : puts n E M0 (P ++ [e]) = put (puts n E M0 P) e.
Proof. unfold puts. rewrite fold_left_app. reflexivity. Qed.

(* one entry of M on each of the two columns: the C code computes put *)
Lemma two_puts P e R c M k (Q : list Z * list Z * Z -> Prop) : P ++ e :: R = E -> puts n E M0 P = (c, M, k) ->
  Q (puts n E M0 (P ++ [e])) ->
  wp (let* st := sy_put c M (fst e) k in let '(c, M) := st in let* st := sy_put c M (snd e) k in let '(c, M) := st in Ok (c, M, k + 1)) Q nerr.
Proof.
  intros HE HP HQ. pose proof (@put_inv P e R c M k HE (@puts_inv P (e :: R) c M k HE HP)) as H. rewrite puts_snoc, HP in HQ. unfold put, put1 in *. destruct H as (_ & H1 & H2 & H3 & H4).
  unfold sy_put at 1. apply wp_bind. wg; [lia|]. ws; [lia|]. ws; [lia|]. cbn [wp]. apply wp_bind. unfold sy_put. wg; [rewrite zlen_wr; lia|]. ws; [rewrite zlen_wr; lia|]. ws; [rewrite zlen_wr; lia|]. exact HQ.
Qed.
End Build.

Section Build2.
Variables (n : Z) (A p M0 : list Z).
Hypothesis V : sym_valid n p A.
Let E := lower n p A.
Hypothesis LM : ptr E n <= zlen M0.

Definition Mof (n : Z) (E : list (Z * Z)) (M0 : list Z) : list Z := snd (fst (puts n E M0 E)).

(* one column; mk j t mark: what is known about mark *)
Lemma col_build j (mk : Z -> list Z -> Prop) (body : Z -> list Z * list Z * list Z * Z -> res (list Z * list Z * list Z * Z)) mark c M k :
  0 <= j < n -> (forall t c mark M k, rd p j <= t < rd p (j + 1) -> mk t mark -> puts n E M0 (lower j p A ++ col_lower A j (rd p j) t) = (c, M, k) ->
    wp (body t (c, mark, M, k)) (fun '(c, mark, M, k) => mk (t + 1) mark /\ puts n E M0 (lower j p A ++ col_lower A j (rd p j) (t + 1)) = (c, M, k)) nerr) ->
  mk (rd p j) mark -> puts n E M0 (lower j p A) = (c, M, k) ->
  wp (for_ (rd p j) (rd p (j + 1)) body (c, mark, M, k)) (fun '(c, mark, M, k) => mk (rd p (j + 1)) mark /\ puts n E M0 (lower (j + 1) p A) = (c, M, k)) nerr.
Proof.
  intros Hj HB HM HP. eapply wp_conseq; [apply wp_for with (I := fun t '(c, mark, M, k) => mk t mark /\ puts n E M0 (lower j p A ++ col_lower A j (rd p j) t) = (c, M, k)); [apply (sv_mono V); exact Hj| |]|].
  - rewrite col_lower_nil, app_nil_r. auto.
  - intros t [[[c' mark'] M'] k'] Ht (H1 & H2). apply HB; auto.
  - intros [[[c' mark'] M'] k'] (H1 & H2). rewrite lower_snoc by lia. auto.
Qed.

Lemma sy_build_ok jb mark : zlen mark = n + 1 -> (jb = false -> sorted_cols A p n) ->
  sy_build n A p jb (Cof n E) mark M0 = Ok (Mof n E M0).
Proof.
  intros Lm SO. pose proof (sv_n V) as Hn. pose proof (sv_p V) as Lp. pose proof (sv_0 V) as P0. pose proof (sym_mono V) as MON. pose proof (sv_cap V) as CAP.
  assert (GE : forall e, In e E -> good_edge n e) by (apply lower_good; exact V).
  assert (RA : forall j t, 0 <= j < n -> rd p j <= t < rd p (j + 1) -> 0 <= t < zlen A /\ 0 <= rd A t < n).
  { intros j t Hj Ht. pose proof (MON 0 j). pose proof (MON (j + 1) n). split; [lia|]. apply (sv_i V). lia. }
  assert (NEXT : forall j t, 0 <= j < n -> rd p j <= t < rd p (j + 1) -> j < rd A t -> seen_before A (rd p j) t = false ->
     exists R, (lower j p A ++ col_lower A j (rd p j) t) ++ (rd A t, j) :: R = E).
  { intros j t Hj Ht G S. destruct (@lower_prefix n j p A (t + 1) Hj ltac:(lia) ltac:(lia)) as (R & HR). exists R. unfold E. rewrite HR, col_lower_snoc by lia. unfold cand. rewrite (proj2 (Z.ltb_lt _ _) G), S. cbn [andb negb]. rewrite !app_assoc. rewrite <- (app_assoc _ [_] R). reflexivity. }
  assert (STEP : forall j t c M k (Q : list Z * list Z * Z -> Prop), 0 <= j < n -> rd p j <= t < rd p (j + 1) -> j < rd A t -> seen_before A (rd p j) t = false ->
     puts n E M0 (lower j p A ++ col_lower A j (rd p j) t) = (c, M, k) -> Q (puts n E M0 (lower j p A ++ col_lower A j (rd p j) (t + 1))) ->
     wp (let* st := sy_put c M (rd A t) k in let '(c, M) := st in let* st := sy_put c M j k in let '(c, M) := st in Ok (c, M, k + 1)) Q nerr).
  { intros j t c M k Q Hj Ht G S HP HQ. destruct (NEXT j t Hj Ht G S) as (R & HR). apply (@two_puts n E M0 Hn GE LM _ (rd A t, j) R c M k Q HR HP).
    rewrite col_lower_snoc in HQ by lia. unfold cand in HQ. rewrite (proj2 (Z.ltb_lt _ _) G), S in HQ. cbn [andb negb] in HQ. rewrite app_assoc in HQ. exact HQ. }
  assert (SKIP : forall j t, rd p j <= t -> (j <? rd A t) && negb (seen_before A (rd p j) t) = false -> col_lower A j (rd p j) (t + 1) = col_lower A j (rd p j) t).
  { intros j t Ht H. rewrite col_lower_snoc by lia. unfold cand. rewrite H. apply app_nil_r. }
  assert (W : wp (sy_build n A p jb (Cof n E) mark M0) (fun M => M = Mof n E M0) nerr).
  { unfold sy_build. apply wp_bind. eapply wp_conseq with (Q := fun '(c, _, M, k) => puts n E M0 (lower n p A) = (c, M, k)).
    2:{ intros [[[c' mark'] M'] k'] H. cbn [wp]. unfold Mof. fold E in H. rewrite H. reflexivity. }
    destruct jb; cbn [negb].
    - apply wp_bind. eapply wp_conseq; [apply (@sy_clear_ok n mark Hn ltac:(lia))|]. intros mark1 (L1 & C1).
      eapply wp_conseq; [apply wp_for with (I := fun j '(c, m, M, k) => (zlen m = n + 1 /\ forall i, 0 <= i < n -> rd m i < j) /\ puts n E M0 (lower j p A) = (c, M, k)); [exact Hn| |]|].
      + split; [split; [lia|]|reflexivity]. intros i Hi. rewrite C1 by exact Hi. lia.
      + intros j [[[c m] M] k] Hj ((Lm1 & HM) & HP). wg; [lia|]. wg; [lia|].
        eapply wp_conseq; [apply (@col_build j (fun t m => zlen m = n + 1 /\ (forall i, 0 <= i < n -> rd m i <= j) /\ forall i, j < i < n -> (rd m i = j <-> exists u, rd p j <= u < t /\ rd A u = i))); [exact Hj| | |exact HP]|].
        * intros t c' m' M' k' Ht (Lm' & HM' & HK) HP'. destruct (RA j t Hj Ht) as (T1 & T2). wg; [lia|]. rewrite Z.gtb_ltb. destruct (Z.ltb_spec j (rd A t)) as [G|G].
          -- wg; [lia|]. assert (SB : seen_before A (rd p j) t = (rd m' (rd A t) =? j)). { apply eq_iff_eq_true. rewrite seen_iff, Z.eqb_eq. symmetry. apply HK. lia. }
             cbn [andb]. destruct (Z.eqb_spec (rd m' (rd A t)) j) as [Q|Q]; cbn [negb].
             ++ cbn [wp]. rewrite SKIP by (try lia; rewrite SB; apply andb_false_r). split; [|exact HP']. split; [exact Lm'|]. split; [exact HM'|]. intros i Hi. rewrite (HK i Hi).
                split; intros (u & Hu & X); [exists u; split; [lia|exact X]|]. destruct (Z.eq_dec u t) as [->|]; [|exists u; split; [lia|exact X]]. apply HK; [exact Hi|]. congruence.
             ++ pose proof (@STEP j t c' M' k' (fun r => puts n E M0 (lower j p A ++ col_lower A j (rd p j) (t + 1)) = r) Hj Ht G SB HP' eq_refl) as W.
                destruct (sy_put c' M' (rd A t) k') as [[c1 M1]|?| |]; cbn [bind wp] in W |- *; try contradiction. destruct (sy_put c1 M1 j k') as [[c2 M2]|?| |]; cbn [bind wp] in W |- *; try contradiction.
                ws; [lia|]. cbn [wp]. rewrite zlen_wr. split; [|exact W]. split; [exact Lm'|]. split.
                ** intros i Hi. rewrite rd_wr by lia. destruct (i =? rd A t); [lia|apply HM'; exact Hi].
                ** intros i Hi. rewrite rd_wr by lia. destruct (Z.eqb_spec i (rd A t)) as [->|Ne].
                   --- split; [intros _; exists t; split; [lia|reflexivity]|reflexivity].
                   --- rewrite (HK i Hi). split; intros (u & Hu & X); exists u; (split; [|exact X]); [lia|]. destruct (Z.eq_dec u t) as [->|]; [congruence|lia].
          -- cbn [andb bind wp]. rewrite SKIP by (try lia; rewrite (proj2 (Z.ltb_ge _ _) G); reflexivity). split; [|exact HP']. split; [exact Lm'|]. split; [exact HM'|]. intros i Hi. rewrite (HK i Hi).
             split; intros (u & Hu & X); exists u; (split; [|exact X]); [lia|]. destruct (Z.eq_dec u t) as [->|]; lia.
        * split; [exact Lm1|]. split; [intros i Hi; specialize (HM i Hi); lia|]. intros i Hi. specialize (HM i ltac:(lia)). split; [lia|intros (u & Hu & _); lia].
        * intros [[[c' m'] M'] k'] ((Lm' & HM' & _) & HP'). split; [|exact HP']. split; [exact Lm'|]. intros i Hi. specialize (HM' i Hi). lia.
      + intros [[[c' m'] M'] k'] (_ & H). exact H.
    - eapply wp_conseq; [apply wp_for with (I := fun j '(c, m, M, k) => puts n E M0 (lower j p A) = (c, M, k)); [exact Hn|reflexivity|]|].
      + intros j [[[c m] M] k] Hj HP. wg; [lia|]. wg; [lia|]. eapply wp_conseq; [apply (@col_build j (fun _ _ => True)); [exact Hj| |exact I|exact HP]|].
        * intros t c' m' M' k' Ht _ HP'. destruct (RA j t Hj Ht) as (T1 & T2). wg; [lia|]. rewrite Z.gtb_ltb. destruct (Z.ltb_spec j (rd A t)) as [G|G].
          -- assert (SB : seen_before A (rd p j) t = false). { destruct (seen_before A (rd p j) t) eqn:S; [|reflexivity]. apply seen_iff in S. destruct S as (v & Hv & X). pose proof (SO eq_refl j v t Hj ltac:(lia) ltac:(lia) ltac:(lia)). lia. }
             pose proof (@STEP j t c' M' k' (fun r => puts n E M0 (lower j p A ++ col_lower A j (rd p j) (t + 1)) = r) Hj Ht G SB HP' eq_refl) as W.
             destruct (sy_put c' M' (rd A t) k') as [[c1 M1]|?| |]; cbn [bind wp] in W |- *; try contradiction. destruct (sy_put c1 M1 j k') as [[c2 M2]|?| |]; cbn [bind wp] in W |- *; try contradiction.
             split; [exact I|exact W].
          -- cbn [wp]. rewrite SKIP by (try lia; rewrite (proj2 (Z.ltb_ge _ _) G); reflexivity). split; [exact I|exact HP'].
        * intros [[[c' m'] M'] k'] (_ & H). exact H.
      + intros [[[c' m'] M'] k'] H. exact H. }
  apply wp_ok_ex in W. destruct W as (M & -> & ->). reflexivity.
Qed.

(* M is a pattern without duplicates, in fact with sorted columns *)
Lemma Mof_valid : valid_pattern (zlen E) n (Pof n E) (Mof n E M0) /\ rd (Pof n E) n = 2 * zlen E /\ zlen (Mof n E M0) = zlen M0.
Proof.
  pose proof (sv_n V) as Hn. assert (GE : forall e, In e E -> good_edge n e) by (apply lower_good; exact V).
  assert (TOT : ptr E n = 2 * zlen E) by (apply deg_total; exact GE).
  unfold Mof. destruct (puts n E M0 E) as [[c M] k] eqn:HP. cbn [fst snd].
  pose proof (@puts_inv n E M0 Hn GE LM E [] c M k (app_nil_r _) HP) as [B1 B2 B3 B4 B5 B6].
  assert (CE : forall x, 0 <= x < n -> rd c x = ptr E (x + 1)) by (intros x Hx; rewrite B4, ptr_S by lia; lia).
  split; [|split; [rewrite rd_Pof by lia; exact TOT|exact B2]]. constructor.
  - apply zlen_nonneg.
  - exact Hn.
  - apply zlen_Pof. exact Hn.
  - rewrite rd_Pof by lia. apply ptr_0.
  - intros x Hx. rewrite !rd_Pof by lia. apply ptr_le; lia.
  - rewrite rd_Pof by lia. lia.
  - intros q Hq. rewrite rd_Pof in Hq by lia. destruct (@ptr_find E n q Hn Hq) as (x & Hx & Hxq). rewrite <- B3. apply (B5 x q Hx). rewrite CE by exact Hx. exact Hxq.
  - intros x q r Hx Hq Hr X. rewrite !rd_Pof in Hq, Hr by lia. destruct (Z.lt_trichotomy q r) as [L|[L|L]]; [|exact L|].
    + pose proof (B6 x q r Hx ltac:(lia) L) as S. rewrite CE in S by exact Hx. lia.
    + pose proof (B6 x r q Hx ltac:(lia) L) as S. rewrite CE in S by exact Hx. lia.
Qed.
End Build2.
