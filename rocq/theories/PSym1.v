(* SYMAMD, part 1: COLAMD_recommended; the list of entries below the diagonal; counting. *)
From Verif Require Import Base Det DetZ Spec MColamd MSymamd SymSpec PCol1.
Set Implicit Arguments.
Open Scope Z_scope.
Set Bullet Behavior "Strict Subproofs".

(*----------------------------------------------------------------------------*)
Lemma t_add_spec a b ok : 0 <= a < 2 ^ 64 -> 0 <= b < 2 ^ 64 -> t_add a b ok = if ok && (a + b <? 2 ^ 64) then (a + b, true) else (0, false).
Proof.
  intros Ha Hb. unfold t_add. destruct ok; [|reflexivity]. cbn [andb]. destruct (Z.ltb_spec (a + b) (2 ^ 64)) as [H|H].
  - rewrite Z.mod_small by lia. destruct (Z.geb_spec (a + b) (Z.max a b)); [reflexivity|lia].
  - replace ((a + b) mod 2 ^ 64) with (a + b - 2 ^ 64). 2:{ symmetry. replace (a + b) with ((a + b - 2 ^ 64) + 1 * 2 ^ 64) at 1 by lia. rewrite Z.mod_add by lia. apply Z.mod_small. lia. }
    destruct (Z.geb_spec (a + b - 2 ^ 64) (Z.max a b)); [lia|reflexivity].
Qed.
Lemma t_mult_false k a : 0 <= a < 2 ^ 64 -> t_mult_loop k a 0 false = (0, false).
Proof. intros Ha. induction k as [|k IH]; [reflexivity|]. cbn [t_mult_loop]. rewrite t_add_spec by lia. cbn [andb]. exact IH. Qed.
Lemma t_mult_loop_spec k a s : 0 <= a < 2 ^ 64 -> 0 <= s < 2 ^ 64 ->
  t_mult_loop k a s true = if s + Z.of_nat k * a <? 2 ^ 64 then (s + Z.of_nat k * a, true) else (0, false).
Proof.
  revert s. induction k as [|k IH]; intros s Ha Hs.
  - cbn [t_mult_loop]. replace (s + Z.of_nat 0 * a) with s by lia. destruct (Z.ltb_spec s (2 ^ 64)); [reflexivity|lia].
  - cbn [t_mult_loop]. rewrite t_add_spec by lia. cbn [andb]. replace (s + Z.of_nat (S k) * a) with (s + a + Z.of_nat k * a) by lia.
    destruct (Z.ltb_spec (s + a) (2 ^ 64)) as [H|H].
    + apply IH; lia.
    + rewrite t_mult_false by lia. destruct (Z.ltb_spec (s + a + Z.of_nat k * a) (2 ^ 64)); [nia|reflexivity].
Qed.
Lemma t_mult_spec a k ok : 0 <= a < 2 ^ 64 -> 0 <= k -> t_mult a k ok = if ok && (k * a <? 2 ^ 64) then (k * a, true) else (0, false).
Proof.
  intros Ha Hk. unfold t_mult. destruct ok; cbn [andb]; [|apply t_mult_false; exact Ha]. rewrite t_mult_loop_spec by lia. rewrite Z2Nat.id by lia. reflexivity.
Qed.
Lemma size_of_spec z n ok : 0 < z -> z mod 8 = 0 -> 0 <= n < 2 ^ 64 - 1 -> size_of z n ok = if ok && (z * (n + 1) <? 2 ^ 64) then (z / 8 * (n + 1), true) else (0, false).
Proof.
  intros Hz H8 Hn. unfold size_of. rewrite t_add_spec by lia. destruct (Z.ltb_spec (n + 1) (2 ^ 64)); [|lia]. rewrite andb_true_r. destruct ok; cbn [andb].
  - rewrite t_mult_spec by lia. cbn [andb]. destruct (z * (n + 1) <? 2 ^ 64); [|reflexivity]. f_equal. replace z with (8 * (z / 8)) at 1 by (pose proof (Z.div_mod z 8); lia).
    replace (8 * (z / 8) * (n + 1)) with (z / 8 * (n + 1) * 8) by lia. apply Z.div_mul. lia.
  - rewrite t_mult_spec by lia. reflexivity.
Qed.
Lemma recommended_eq nnz n_row n_col : 0 <= nnz < 2 ^ 63 -> 0 <= n_row < 2 ^ 63 -> 0 <= n_col < 2 ^ 63 ->
  recommended nnz n_row n_col = let s := 2 * nnz + 6 * (n_col + 1) + 4 * (n_row + 1) + n_col + nnz / 5 in
    if (48 * (n_col + 1) <? 2 ^ 64) && (32 * (n_row + 1) <? 2 ^ 64) && (s <? 2 ^ 63 - 1) then s else 0.
Proof.
  intros H1 H2 H3. cbv zeta. unfold recommended. assert (H5 : 0 <= nnz / 5 <= nnz) by (split; [apply Z.div_pos; lia|apply Z.div_le_upper_bound; lia]).
  destruct (Z.ltb_spec nnz 0); [lia|]. destruct (Z.ltb_spec n_row 0); [lia|]. destruct (Z.ltb_spec n_col 0); [lia|]. cbn [orb].
  rewrite t_mult_spec by lia. cbn [andb]. destruct (Z.ltb_spec (2 * nnz) (2 ^ 64)); [|lia]. rewrite size_of_spec by (try reflexivity; lia). change (48 / 8) with 6. cbn [andb].
  destruct (Z.ltb_spec (48 * (n_col + 1)) (2 ^ 64)).
  - rewrite size_of_spec by (try reflexivity; lia). change (32 / 8) with 4. cbn [andb]. destruct (Z.ltb_spec (32 * (n_row + 1)) (2 ^ 64)).
    + rewrite t_add_spec by lia. cbn [andb]. destruct (Z.ltb_spec (2 * nnz + 6 * (n_col + 1)) (2 ^ 64)).
      * rewrite t_add_spec by lia. cbn [andb]. destruct (Z.ltb_spec (2 * nnz + 6 * (n_col + 1) + 4 * (n_row + 1)) (2 ^ 64)).
        -- rewrite t_add_spec by lia. cbn [andb]. destruct (Z.ltb_spec (2 * nnz + 6 * (n_col + 1) + 4 * (n_row + 1) + n_col) (2 ^ 64)).
           ++ rewrite t_add_spec by lia. cbn [andb]. destruct (Z.ltb_spec (2 * nnz + 6 * (n_col + 1) + 4 * (n_row + 1) + n_col + nnz / 5) (2 ^ 64)); [reflexivity|].
              cbn [andb]. destruct (Z.ltb_spec (2 * nnz + 6 * (n_col + 1) + 4 * (n_row + 1) + n_col + nnz / 5) (2 ^ 63 - 1)); [lia|reflexivity].
           ++ rewrite t_add_spec by lia. cbn [andb]. destruct (Z.ltb_spec (2 * nnz + 6 * (n_col + 1) + 4 * (n_row + 1) + n_col + nnz / 5) (2 ^ 63 - 1)); [lia|reflexivity].
        -- rewrite !t_add_spec by lia. cbn [andb]. rewrite t_add_spec by lia. cbn [andb]. destruct (Z.ltb_spec (2 * nnz + 6 * (n_col + 1) + 4 * (n_row + 1) + n_col + nnz / 5) (2 ^ 63 - 1)); [lia|reflexivity].
      * rewrite t_add_spec by lia. cbn [andb]. rewrite t_add_spec by lia. cbn [andb]. rewrite t_add_spec by lia. cbn [andb]. destruct (Z.ltb_spec (2 * nnz + 6 * (n_col + 1) + 4 * (n_row + 1) + n_col + nnz / 5) (2 ^ 63 - 1)); [lia|reflexivity].
    + rewrite t_add_spec by lia. cbn [andb]. rewrite t_add_spec by lia. cbn [andb]. rewrite t_add_spec by lia. cbn [andb]. rewrite t_add_spec by lia. reflexivity.
  - rewrite size_of_spec by (try reflexivity; lia). cbn [andb]. rewrite t_add_spec by lia. cbn [andb]. rewrite t_add_spec by lia. cbn [andb]. rewrite t_add_spec by lia. cbn [andb]. rewrite t_add_spec by lia. reflexivity.
Qed.

(*----------------------------------------------------------------------------*)
Definition good_edge (n : Z) (e : Z * Z) : Prop := 0 <= snd e < fst e /\ fst e < n.
Definition deg1 (x : Z) (e : Z * Z) : Z := b2z (fst e =? x) + b2z (snd e =? x).
Fixpoint deg (x : Z) (l : list (Z * Z)) : Z := match l with [] => 0 | e :: l => deg1 x e + deg x l end.
Lemma deg_app x a b : deg x (a ++ b) = deg x a + deg x b.
Proof. induction a as [|e a IH]; cbn [app deg]; lia. Qed.
Lemma deg1_nonneg x e : 0 <= deg1 x e.
Proof. unfold deg1, b2z. destruct (fst e =? x), (snd e =? x); lia. Qed.
Lemma deg_nonneg x l : 0 <= deg x l.
Proof. induction l as [|e l IH]; cbn [deg]; [lia|]. pose proof (deg1_nonneg x e). lia. Qed.
Lemma deg_total n l : (forall e, In e l -> good_edge n e) -> sumz n (fun x => deg x l) = 2 * zlen l.
Proof.
  induction l as [|e l IH]; intros H.
  - cbn [deg]. apply sumz_zero. auto.
  - cbn [deg]. rewrite sumz_add, IH by (intros e' He'; apply H; right; exact He'). destruct (H e (or_introl eq_refl)) as (X & Y).
    unfold deg1. rewrite sumz_add. rewrite (@sumz_single n (fun k => b2z (fst e =? k)) (fst e)) by first [lia | (intros k _ Hk; unfold b2z; destruct (Z.eqb_spec (fst e) k); [congruence|reflexivity])].
    rewrite (@sumz_single n (fun k => b2z (snd e =? k)) (snd e)) by first [lia | (intros k _ Hk; unfold b2z; destruct (Z.eqb_spec (snd e) k); [congruence|reflexivity])].
    rewrite !Z.eqb_refl. cbn [b2z]. unfold zlen. cbn [length]. lia.
Qed.

(* counting *)
Definition bump (c : list Z) (e : Z * Z) : list Z := let c := wr c (fst e) (rd c (fst e) + 1) in wr c (snd e) (rd c (snd e) + 1).
Lemma zlen_bump c e : zlen (bump c e) = zlen c.
Proof. unfold bump. now rewrite !zlen_wr. Qed.
Lemma zlen_bumps l c : zlen (fold_left bump l c) = zlen c.
Proof. revert c. induction l as [|e l IH]; intros c; cbn [fold_left]; [reflexivity|]. now rewrite IH, zlen_bump. Qed.
Lemma rd_bump n c e x : good_edge n e -> n <= zlen c -> 0 <= x -> rd (bump c e) x = rd c x + deg1 x e.
Proof.
  intros (H1 & H2) L Hx. unfold bump, deg1. rewrite !rd_wr by (rewrite ?zlen_wr; lia). rewrite (Z.eqb_sym (fst e) x), (Z.eqb_sym (snd e) x).
  destruct (Z.eqb_spec x (snd e)) as [E1|E1], (Z.eqb_spec x (fst e)) as [E2|E2]; try lia; subst; cbn [b2z]; try lia.
  rewrite (proj2 (Z.eqb_neq (snd e) (fst e))) by lia. lia.
Qed.
Lemma rd_bumps n l c x : (forall e, In e l -> good_edge n e) -> n <= zlen c -> 0 <= x -> rd (fold_left bump l c) x = rd c x + deg x l.
Proof.
  revert c. induction l as [|e l IH]; intros c H L Hx; cbn [fold_left deg]; [lia|].
  rewrite IH by (rewrite ?zlen_bump; auto; intros e' He'; apply H; right; exact He'). rewrite (@rd_bump n) by (auto; apply H; left; reflexivity). lia.
Qed.

(*----------------------------------------------------------------------------*)
(* the list of entries below the diagonal *)
Definition cand (A : list Z) (j s u : Z) : list (Z * Z) := if (j <? rd A u) && negb (seen_before A s u) then [(rd A u, j)] else [].
Lemma col_lower_snoc A j s t : s <= t -> col_lower A j s (t + 1) = col_lower A j s t ++ cand A j s t.
Proof. intros H. unfold col_lower. rewrite zseq_snoc by exact H. rewrite flat_map_app. cbn [flat_map]. rewrite app_nil_r. reflexivity. Qed.
Lemma col_lower_nil A j s : col_lower A j s s = [].
Proof. unfold col_lower. rewrite zseq_nil by lia. reflexivity. Qed.
Lemma lower_snoc j p A : 0 <= j -> lower (j + 1) p A = lower j p A ++ col_lower A j (rd p j) (rd p (j + 1)).
Proof. intros H. unfold lower. rewrite zseq_snoc by exact H. rewrite flat_map_app. cbn [flat_map]. rewrite app_nil_r. reflexivity. Qed.
Lemma lower_0 p A : lower 0 p A = [].
Proof. reflexivity. Qed.
Lemma zseq_split a b c : a <= b -> b <= c -> zseq a c = zseq a b ++ zseq b c.
Proof.
  intros H1 H2. remember (Z.to_nat (c - b)) as k eqn:E. revert c H2 E. induction k as [|k IH]; intros c H2 E.
  - assert (c = b) by lia. subst. rewrite (@zseq_nil b b) by lia. now rewrite app_nil_r.
  - replace c with (c - 1 + 1) by lia. rewrite !zseq_snoc by lia. rewrite (IH (c - 1)) by lia. now rewrite app_assoc.
Qed.
Lemma col_lower_split A j s t u : s <= t -> t <= u -> exists r, col_lower A j s u = col_lower A j s t ++ r.
Proof. intros H1 H2. unfold col_lower. rewrite (zseq_split H1 H2), flat_map_app. eauto. Qed.
Lemma lower_split n j p A : 0 <= j <= n -> exists r, lower n p A = lower j p A ++ r.
Proof. intros H. unfold lower. rewrite (@zseq_split 0 j n) by lia. rewrite flat_map_app. eauto. Qed.
Lemma lower_prefix n j p A t : 0 <= j < n -> rd p j <= t -> t <= rd p (j + 1) -> exists r, lower n p A = (lower j p A ++ col_lower A j (rd p j) t) ++ r.
Proof.
  intros H1 H2 H3. destruct (@lower_split n (j + 1) p A ltac:(lia)) as (r & ->). rewrite lower_snoc by lia. destruct (@col_lower_split A j _ _ _ H2 H3) as (r' & ->).
  exists (r' ++ r). now rewrite !app_assoc.
Qed.
Lemma seen_iff A s u : seen_before A s u = true <-> exists v, s <= v < u /\ rd A v = rd A u.
Proof.
  unfold seen_before. rewrite existsb_exists. split.
  - intros (v & Hv & E). apply in_zseq in Hv. exists v. split; [exact Hv|lia].
  - intros (v & Hv & E). exists v. split; [apply in_zseq; exact Hv|lia].
Qed.
Lemma lower_in n p A e : In e (lower n p A) -> exists j u, 0 <= j < n /\ rd p j <= u < rd p (j + 1) /\ j < rd A u /\ e = (rd A u, j).
Proof.
  unfold lower. rewrite in_flat_map. intros (j & Hj & H). apply in_zseq in Hj. unfold col_lower in H. rewrite in_flat_map in H. destruct H as (u & Hu & H). apply in_zseq in Hu.
  exists j, u. destruct (Z.ltb_spec j (rd A u)) as [X|X]; cbn [andb] in H; [|destruct H]. destruct (negb (seen_before A (rd p j) u)); [|destruct H]. destruct H as [H|[]]. auto.
Qed.
Lemma sym_mono n p A : sym_valid n p A -> forall x y, 0 <= x -> x <= y -> y <= n -> rd p x <= rd p y.
Proof.
  intros V x y Hx Hxy. remember (Z.to_nat (y - x)) as k eqn:E. revert y Hxy E. induction k as [|k IH]; intros y Hxy E Hy.
  - replace y with x by lia. lia.
  - pose proof (IH (y - 1) ltac:(lia) ltac:(lia) ltac:(lia)). pose proof (sv_mono V (j := y - 1) ltac:(lia)). replace (y - 1 + 1) with y in * by lia. lia.
Qed.
Lemma lower_good n p A : sym_valid n p A -> forall e, In e (lower n p A) -> good_edge n e.
Proof.
  intros V e H. apply lower_in in H. destruct H as (j & u & Hj & Hu & X & ->). unfold good_edge. cbn [fst snd].
  pose proof (sym_mono V (x := 0) (y := j)). pose proof (sym_mono V (x := j + 1) (y := n)). pose proof (sv_0 V). pose proof (sv_i V (u := u) ltac:(lia)). lia.
Qed.
Lemma zlen_col_lower A j s t : s <= t -> zlen (col_lower A j s t) <= t - s.
Proof.
  intros H. remember (Z.to_nat (t - s)) as k eqn:E. revert t H E. induction k as [|k IH]; intros t H E.
  - replace t with s by lia. rewrite col_lower_nil. unfold zlen. cbn [length]. lia.
  - replace t with (t - 1 + 1) by lia. rewrite col_lower_snoc by lia. rewrite zlen_app. pose proof (IH (t - 1) ltac:(lia) ltac:(lia)).
    unfold cand. destruct (_ && _); unfold zlen in *; cbn [length]; lia.
Qed.
Lemma zlen_lower n p A : sym_valid n p A -> zlen (lower n p A) <= rd p n.
Proof.
  intros V. assert (H : forall j, 0 <= j -> j <= n -> zlen (lower j p A) <= rd p j).
  { intros j Hj. pattern j. apply natlike_ind; [|clear j Hj|exact Hj].
    - rewrite lower_0. pose proof (sv_0 V). unfold zlen. cbn [length]. lia.
    - intros j Hj IH L. unfold Z.succ in *. rewrite lower_snoc by lia. rewrite zlen_app. pose proof (sv_mono V (j := j) ltac:(lia)). pose proof (@zlen_col_lower A j _ _ H). specialize (IH ltac:(lia)). lia. }
  apply H; [apply (sv_n V)|lia].
Qed.
