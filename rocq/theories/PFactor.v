(* Correctness of the factorization loop. *)
From Verif Require Import Base Spec MFactor PReach PTri PPivot.
Set Implicit Arguments.
Open Scope Z_scope.
Local Ltac lia := first [Lia.lia | cbv beta in *; Lia.lia].

(*----------------------------------------------------------------------------*)
(* partially built compressed-column matrices: columns 0..k-1 are complete *)
Record csc_part (n k : Z) (Mp Mi Mx : list Z) (nz : Z) (V : Z -> Z -> Z -> Prop) (W : Z -> Z -> Prop) : Prop := {
  cp_len : zlen Mp = n + 1;
  cp_0 : rd Mp 0 = 0;
  cp_mono : forall j, 0 <= j < k -> rd Mp j <= rd Mp (j + 1);
  cp_k : rd Mp k = nz;
  cp_rest : forall j, k < j <= n -> rd Mp j = 0;
  cp_cap : nz <= zlen Mi;
  cp_x : zlen Mx = zlen Mi;
  cp_V : forall j p, 0 <= j < k -> rd Mp j <= p < rd Mp (j + 1) -> V j (rd Mi p) (rd Mx p);
  cp_dup : forall j p p', 0 <= j < k -> rd Mp j <= p < rd Mp (j + 1) -> rd Mp j <= p' < rd Mp (j + 1) ->
          rd Mi p = rd Mi p' -> p = p';
  cp_W : forall j i, 0 <= j < k -> W j i -> exists p, rd Mp j <= p < rd Mp (j + 1) /\ rd Mi p = i }.

Lemma cp_ptr n k Mp Mi Mx nz V W : csc_part n k Mp Mi Mx nz V W ->
  forall c d, 0 <= c <= d -> d <= k -> 0 <= rd Mp c <= rd Mp d /\ rd Mp d <= nz.
Proof.
  intros P.
  assert (H1 : forall t c, 0 <= c -> c + Z.of_nat t <= k -> rd Mp c <= rd Mp (c + Z.of_nat t)).
  { induction t; intros c Hc Ht. rewrite Z.add_0_r; lia.
    specialize (IHt c Hc ltac:(lia)).
    pose proof (cp_mono P (j := c + Z.of_nat t)). replace (c + Z.of_nat (S t)) with (c + Z.of_nat t + 1) by lia. lia. }
  intros c d Hc Hd. pose proof (H1 (Z.to_nat c) 0). pose proof (H1 (Z.to_nat (d - c)) c). pose proof (H1 (Z.to_nat (k - d)) d).
  pose proof (cp_0 P). pose proof (cp_k P).
  replace (0 + Z.of_nat (Z.to_nat c)) with c in * by lia.
  replace (c + Z.of_nat (Z.to_nat (d - c))) with d in * by lia.
  replace (d + Z.of_nat (Z.to_nat (k - d))) with k in * by lia. lia.
Qed.

Lemma cp_grow n k Mp Mi Mx nz V W a b : csc_part n k Mp Mi Mx nz V W -> 0 <= k -> zlen a = zlen b ->
  csc_part n k Mp (Mi ++ a) (Mx ++ b) nz V W.
Proof.
  intros P Hk Hab. pose proof (cp_ptr P) as HP. pose proof (cp_cap P). pose proof (cp_x P).
  assert (Hr : forall j p, 0 <= j < k -> rd Mp j <= p < rd Mp (j + 1) -> 0 <= p < zlen Mi).
  { intros j p Hj Hp. pose proof (HP j (j + 1)). lia. }
  destruct P as [A1 A2 A3 A4 A5 A6 A7 A8 A9 A10]. constructor; auto; try (rewrite !zlen_app; pose proof (zlen_nonneg a); lia).
  - intros j p Hj Hp. pose proof (Hr j p Hj Hp). rewrite !rd_app1 by lia. auto.
  - intros j p p' Hj Hp Hp'. pose proof (Hr j p Hj Hp). pose proof (Hr j p' Hj Hp'). rewrite !rd_app1 by lia. eauto.
  - intros j i Hj Hw. destruct (A10 j i Hj Hw) as (p & Hp & He). exists p. split; auto. pose proof (Hr j p Hj Hp).
    rewrite rd_app1 by lia. auto.
Qed.

(* entries selected by sel have been appended, in the order of xi[top..j-1] *)
Record pushed (sel : Z -> Prop) (op : Z -> Z) (x xi : list Z) (top base : Z) (Mi0 Mx0 : list Z) (j cur : Z) (Mi Mx : list Z) : Prop := {
  pu_l1 : zlen Mi = zlen Mi0;
  pu_l2 : zlen Mx = zlen Mx0;
  pu_c : base <= cur <= base + (j - top);
  pu_old : forall p, 0 <= p < base -> rd Mi p = rd Mi0 p /\ rd Mx p = rd Mx0 p;
  pu_new : forall p, base <= p < cur -> exists t, top <= t < j /\ sel (rd xi t) /\ rd Mi p = rd xi t /\ rd Mx p = rd x (rd xi t);
  pu_all : forall t, top <= t < j -> sel (rd xi t) -> exists p, base <= p < cur /\ rd Mi p = rd xi t;
  pu_ord : forall p p', base <= p < p' -> p' < cur -> op (rd Mi p) < op (rd Mi p') }.

Lemma pushed_0 sel op x xi top base Mi Mx : pushed sel op x xi top base Mi Mx top base Mi Mx.
Proof. constructor; auto; intros; lia. Qed.

Lemma pushed_no sel op x xi top base Mi0 Mx0 j cur Mi Mx :
  pushed sel op x xi top base Mi0 Mx0 j cur Mi Mx -> ~ sel (rd xi j) -> pushed sel op x xi top base Mi0 Mx0 (j + 1) cur Mi Mx.
Proof.
  intros [A1 A2 A3 A4 A5 A6 A7] H. constructor; auto; try lia.
  - intros p Hp. destruct (A5 p Hp) as (t & Ht & R). exists t. split; auto; lia.
  - intros t Ht Hs. apply A6; auto. destruct (Z.eq_dec t j) as [->|]. contradiction. lia.
Qed.

Lemma pushed_yes sel op x xi top base Mi0 Mx0 j cur Mi Mx :
  pushed sel op x xi top base Mi0 Mx0 j cur Mi Mx -> sel (rd xi j) -> 0 <= base -> cur < zlen Mi0 -> zlen Mx0 = zlen Mi0 ->
  top <= j -> (forall t, top <= t < j -> op (rd xi t) < op (rd xi j)) ->
  pushed sel op x xi top base Mi0 Mx0 (j + 1) (cur + 1) (wr Mi cur (rd xi j)) (wr Mx cur (rd x (rd xi j))).
Proof.
  intros [A1 A2 A3 A4 A5 A6 A7] H Hb Hc Hx Hj Ho. constructor; rewrite ?zlen_wr; auto; try lia.
  - intros p Hp. rewrite !rd_wr_ne by lia. apply A4; auto.
  - intros p Hp. rewrite !rd_wr by lia. destruct (Z.eqb_spec p cur).
    + exists j. split; auto. lia.
    + destruct (A5 p ltac:(lia)) as (t & Ht & R). exists t. split; auto; lia.
  - intros t Ht Hs. destruct (Z.eq_dec t j) as [->|].
    + exists cur. split. lia. rewrite rd_wr_eq by lia. auto.
    + destruct (A6 t ltac:(lia) Hs) as (p & Hp & He). exists p. split. lia. rewrite rd_wr_ne by lia. auto.
  - intros p p' Hp Hp'. rewrite (@rd_wr_ne Mi cur p) by lia. rewrite rd_wr by lia. destruct (Z.eqb_spec p' cur).
    + destruct (A5 p ltac:(lia)) as (t & Ht & _ & He & _). rewrite He. apply Ho; auto.
    + apply A7; lia.
Qed.

(* the pushed entries and the next one are distinct, so there are at most hi - lo of them when f maps them into lo..hi-1 *)
Lemma pushed_room sel op x xi top base Mi0 Mx0 j cur Mi Mx (f : Z -> Z) lo hi (ok : Z -> Prop) :
  pushed sel op x xi top base Mi0 Mx0 j cur Mi Mx ->
  top <= j -> sel (rd xi j) -> (forall t, top <= t <= j -> ok (rd xi t)) ->
  (forall t, top <= t < j -> op (rd xi t) < op (rd xi j)) ->
  (forall i, ok i -> sel i -> lo <= f i < hi) ->
  (forall i i', ok i -> ok i' -> f i = f i' -> i = i') ->
  cur - base + 1 <= hi - lo.
Proof.
  intros [A1 A2 A3 A4 A5 A6 A7] Hj Hs Hok Ho Hf Hinj.
  assert (B : forall p, base <= p < cur -> ok (rd Mi p) /\ sel (rd Mi p) /\ op (rd Mi p) < op (rd xi j)).
  { intros p Hp. destruct (A5 p Hp) as (t & T1 & T2 & T3 & _). rewrite T3. split; [|split]; auto. apply Hok; lia. }
  set (l := f (rd xi j) :: map (fun p => f (rd Mi p)) (zseq base cur)).
  assert (ND : NoDup l).
  { unfold l. constructor.
    - intros H. apply in_map_iff in H. destruct H as (p & E & Hp). apply in_zseq in Hp. destruct (B p Hp) as (B1 & B2 & B3).
      apply Hinj in E; auto. rewrite E in B3. lia. apply Hok; lia.
    - assert (G : forall c, base <= c <= cur -> NoDup (map (fun p => f (rd Mi p)) (zseq base c))).
      { intros c Hc. remember (Z.to_nat (c - base)) as m eqn:Em. revert c Hc Em. induction m; intros c Hc Em.
        - rewrite zseq_nil by lia. constructor.
        - replace c with (c - 1 + 1) by lia. rewrite zseq_snoc, map_app by lia. simpl. apply NoDup_Add with (a := f (rd Mi (c - 1))) (l := map (fun p => f (rd Mi p)) (zseq base (c - 1))).
          + replace (map (fun p => f (rd Mi p)) (zseq base (c - 1))) with (map (fun p => f (rd Mi p)) (zseq base (c - 1)) ++ []) at 1 by apply app_nil_r.
            apply Add_app.
          + split. apply IHm; lia. intros H. apply in_map_iff in H. destruct H as (p & E & Hp). apply in_zseq in Hp.
            apply Hinj in E; try (apply B; lia). specialize (A7 p (c - 1) ltac:(lia) ltac:(lia)). rewrite E in A7. lia. }
      apply G. lia. }
  assert (IN : incl l (zseq lo hi)).
  { intros v [<-|H]; apply in_zseq.
    - apply Hf; auto. apply Hok; lia.
    - apply in_map_iff in H. destruct H as (p & <- & Hp). apply in_zseq in Hp. apply Hf; apply B; auto. }
  pose proof (NoDup_incl_length ND IN) as HL. unfold l, zseq in HL. simpl in HL. rewrite !map_length, !seq_length in HL. lia.
Qed.

Lemma csc_part_push n k Mp Mi0 Mx0 nz V W (V' : Z -> Z -> Z -> Prop) (W' : Z -> Z -> Prop) sel op x xi top cur Mi Mx :
  csc_part n k Mp Mi0 Mx0 nz V W -> 0 <= k < n -> 0 <= top <= n ->
  pushed sel op x xi top nz Mi0 Mx0 n cur Mi Mx -> cur <= zlen Mi0 ->
  (forall a, top <= a < n -> sel (rd xi a) -> V' k (rd xi a) (rd x (rd xi a))) ->
  (forall i, W' k i -> exists a, top <= a < n /\ sel (rd xi a) /\ rd xi a = i) ->
  (forall j i v, 0 <= j < k -> V j i v -> V' j i v) ->
  (forall j i, 0 <= j < k -> W' j i -> W j i) ->
  csc_part n (k + 1) (wr Mp (k + 1) cur) Mi Mx cur V' W'.
Proof.
  intros P Hk Ht [A1 A2 A3 A4 A5 A6 A7] Hcap HV HW HVV HWW.
  pose proof (cp_ptr P) as HP. pose proof (cp_len P) as Hl. pose proof (cp_x P) as Hx.
  assert (Hm : forall j, 0 <= j <= k -> rd (wr Mp (k + 1) cur) j = rd Mp j) by (intros; apply rd_wr_ne; lia).
  assert (Hmk : rd (wr Mp (k + 1) cur) (k + 1) = cur) by (apply rd_wr_eq; lia).
  assert (Hr : forall j p, 0 <= j < k -> rd Mp j <= p < rd Mp (j + 1) -> 0 <= p < nz).
  { intros j p Hj Hp. pose proof (HP j (j + 1)). lia. }
  pose proof (cp_k P) as HK. pose proof (HP 0 k ltac:(lia) ltac:(lia)) as Hnz.
  constructor.
  - rewrite zlen_wr. apply P.
  - rewrite Hm by lia. apply P.
  - intros j Hj. destruct (Z.eq_dec j k) as [->|]. rewrite Hmk, Hm by lia. lia. rewrite !Hm by lia. apply P. lia.
  - auto.
  - intros j Hj. rewrite rd_wr_ne by lia. apply P. lia.
  - lia.
  - lia.
  - intros j p Hj. destruct (Z.eq_dec j k) as [->|].
    + rewrite Hmk, Hm, HK by lia. intros Hp. destruct (A5 p Hp) as (t & B1 & B2 & B3 & B4). rewrite B3, B4. apply HV; auto.
    + rewrite !Hm by lia. intros Hp. pose proof (Hr j p ltac:(lia) Hp). destruct (A4 p) as [-> ->]; auto.
      apply HVV. lia. apply (cp_V P); auto; lia.
  - intros j p p' Hj. destruct (Z.eq_dec j k) as [->|].
    + rewrite Hmk, Hm, HK by lia. intros Hp Hp' E. destruct (Z.lt_trichotomy p p') as [L|[L|L]]; auto.
      * specialize (A7 p p'). rewrite E in A7. lia.
      * specialize (A7 p' p). rewrite E in A7. lia.
    + rewrite !Hm by lia. intros Hp Hp'. pose proof (Hr j p ltac:(lia) Hp). pose proof (Hr j p' ltac:(lia) Hp').
      destruct (A4 p) as [-> _]; auto. destruct (A4 p') as [-> _]; auto. apply (cp_dup P (j := j)); auto; lia.
  - intros j i Hj Hw. destruct (Z.eq_dec j k) as [->|].
    + rewrite Hmk, Hm, HK by lia. destruct (HW i Hw) as (a & Ha & Hs & <-). apply A6; auto.
    + rewrite !Hm by lia. destruct (cp_W P (j := j) i) as (p & Hp & He). lia. apply HWW; auto; lia.
      exists p. split; auto. pose proof (Hr j p ltac:(lia) Hp). destruct (A4 p) as [-> _]; auto.
Qed.

(*----------------------------------------------------------------------------*)
Definition VL (M : Z -> Z -> Z) (n : Z) (pinv : list Z) (R : Z -> Z) (j i v : Z) : Prop :=
  0 <= i < n /\ j <= rd pinv i /\ v = bm M R j i j.
Definition WL (M : Z -> Z -> Z) (n : Z) (R : Z -> Z) (j i : Z) : Prop := 0 <= i < n /\ bm M R j i j <> 0.
Definition VU (M : Z -> Z -> Z) (n : Z) (pinv : list Z) (R : Z -> Z) (c i v : Z) : Prop :=
  0 <= i < n /\ rd pinv i <= c /\ v = bm M R (rd pinv i) i c.
Definition WU (M : Z -> Z -> Z) (n : Z) (pinv : list Z) (R : Z -> Z) (c i : Z) : Prop :=
  0 <= i < n /\ rd pinv i <= c /\ bm M R (rd pinv i) i c <> 0.

Lemma l_ok_part M n k Lp Li Lx pinv rowp lnz :
  csc_part n k Lp Li Lx lnz (VL M n pinv (rd rowp)) (WL M n (rd rowp)) -> l_ok M n k Lp Li Lx pinv rowp lnz.
Proof.
  intros [A1 A2 A3 A4 A5 A6 A7 A8 A9 A10]. constructor; auto.
  - intros j p Hj Hp. destruct (A8 j p Hj Hp) as (B1 & B2 & B3). auto.
  - intros j p Hj Hp. destruct (A8 j p Hj Hp) as (B1 & B2 & B3). auto.
  - intros j i Hj Hi Hn. apply A10; auto. split; auto.
Qed.

Section Fac.
Variables (n : Z) (Ap Ai Ax q : list Z).
Hypothesis V : valid_csc n n Ap Ai Ax.
Hypothesis HQ : is_map n q.
Let M := colmat Ap Ai Ax q.

Record finv (k : Z) (s : fstate) : Prop := {
  fi_perm : perm_ok n (F_pinv s) (F_rowp s);
  fi_pivs : zlen (F_pivs s) = n;
  fi_piv : forall i, 0 <= i < n -> (rd (F_pivs s) i < 0 <-> k <= rd (F_pinv s) i);
  fi_h : zlen (F_h s) = n;
  fi_xi : zlen (F_xi s) = 2 * n;
  fi_x : zlen (F_x s) = n;
  fi_rhl : zlen (F_rhos s) = n;
  fi_rho : forall j, 0 <= j < k -> rd (F_rhos s) j = lead M (rd (F_rowp s)) (j + 1) /\ rd (F_rhos s) j <> 0;
  fi_Ll : zlen (F_Lp s) = n + 1;
  fi_Ul : zlen (F_Up s) = n + 1;
  fi_L : csc_part n k (wr (F_Lp s) k (F_lnz s)) (F_Li s) (F_Lx s) (F_lnz s)
           (VL M n (F_pinv s) (rd (F_rowp s))) (WL M n (rd (F_rowp s)));
  fi_U : csc_part n k (wr (F_Up s) k (F_unz s)) (F_Ui s) (F_Ux s) (F_unz s)
           (VU M n (F_pinv s) (rd (F_rowp s))) (WU M n (F_pinv s) (rd (F_rowp s)));
  fi_Us : forall c p p', 0 <= c < k -> rd (wr (F_Up s) k (F_unz s)) c <= p < p' -> p' < rd (wr (F_Up s) k (F_unz s)) (c + 1) ->
           rd (F_pinv s) (rd (F_Ui s) p) < rd (F_pinv s) (rd (F_Ui s) p');
  fi_Lc : F_lnz s + n <= 2 * zlen (F_Li s);
  fi_Uc : k < n -> F_unz s + k + 1 <= 2 * zlen (F_Ui s);
  fi_Un : k <= F_unz s }.

Lemma factor_init_inv lnz0 unz0 : n <= 2 * Z.max lnz0 1 -> finv 0 (factor_init n lnz0 unz0).
Proof.
  intros H1. pose proof (v_n V). unfold factor_init. constructor; cbn [F_pinv F_rowp F_pivs F_h F_xi F_x F_rhos F_Lp F_Up F_Li F_Lx F_Ui F_Ux F_lnz F_unz];
    rewrite ?zlen_wr, ?zlen_mk by lia; auto; try (intros; lia).
  - constructor; rewrite ?zlen_zseq by lia; try lia; intros i Hi; rewrite !rd_zseq; try lia. rewrite rd_zseq; lia. rewrite rd_zseq; lia.
  - intros i Hi. rewrite rd_mk, rd_zseq by lia. lia.
  - constructor; rewrite ?zlen_wr, ?zlen_mk by lia; auto; try (intros; lia).
    + rewrite rd_wr_eq; rewrite ?zlen_mk; lia.
    + rewrite rd_wr_eq; rewrite ?zlen_mk; lia.
    + intros j Hj. rewrite rd_wr_ne by lia. apply rd_mk0.
  - constructor; rewrite ?zlen_wr, ?zlen_mk by lia; auto; try (intros; lia).
    + rewrite rd_wr_eq; rewrite ?zlen_mk; lia.
    + rewrite rd_wr_eq; rewrite ?zlen_mk; lia.
    + intros j Hj. rewrite rd_wr_ne by lia. apply rd_mk0.
Qed.

(* the loop that distributes x over L and U *)
Lemma push_loop_spec k xi pinv x top op Li Lx Ui Ux lnz unz E :
  0 <= top <= n -> zlen xi = 2 * n -> zlen pinv = n -> zlen x = n ->
  (forall a, top <= a < n -> 0 <= rd xi a < n) ->
  (forall a b, top <= a < b -> b < n -> op (rd xi a) < op (rd xi b)) ->
  0 <= k -> (forall i, 0 <= i < n -> 0 <= rd pinv i) -> (forall i i', 0 <= i < n -> 0 <= i' < n -> rd pinv i = rd pinv i' -> i = i') ->
  0 <= lnz -> 0 <= unz -> lnz + n <= zlen Li -> unz + (k + 1) <= zlen Ui -> zlen Lx = zlen Li -> zlen Ux = zlen Ui ->
  wp (for_ top n (fun j st => push_LU k xi pinv x j st) (Li, Lx, Ui, Ux, lnz, unz))
     (fun '(Li', Lx', Ui', Ux', lnz', unz') =>
        pushed (fun i => k <= rd pinv i) op x xi top lnz Li Lx n lnz' Li' Lx' /\
        pushed (fun i => rd pinv i <= k) op x xi top unz Ui Ux n unz' Ui' Ux' /\ unz' <= unz + (k + 1)) E.
Proof.
  intros Ht Hxi Hpi Hx Hr Ho Hk0 Hpp Hpj Hl0 Hu0 Hlc Huc HLx HUx.
  apply wp_for with (I := fun j '(Li', Lx', Ui', Ux', lnz', unz') =>
        pushed (fun i => k <= rd pinv i) op x xi top lnz Li Lx j lnz' Li' Lx' /\
        pushed (fun i => rd pinv i <= k) op x xi top unz Ui Ux j unz' Ui' Ux' /\ unz' <= unz + (k + 1)).
  - lia.
  - split; [|split]; try apply pushed_0. lia.
  - intros j [[[[[Li' Lx'] Ui'] Ux'] lnz'] unz'] Hj (PL & PU & PN).
    pose proof (@Hr j Hj). pose proof (pu_c PL). pose proof (pu_c PU).
    pose proof (pu_l1 PL). pose proof (pu_l2 PL). pose proof (pu_l1 PU). pose proof (pu_l2 PU).
    unfold push_LU. rewrite get_rd by lia. cbn [bind]. rewrite get_rd by lia. cbn [bind]. rewrite get_rd by lia. cbn [bind].
    destruct (Z.leb_spec (rd pinv (rd xi j)) k) as [HU|HU].
    + assert (Hroom := @pushed_room (fun i => rd pinv i <= k) op x xi top unz Ui Ux j unz' Ui' Ux' (rd pinv) 0 (k + 1) (fun i => 0 <= i < n)
        PU ltac:(lia) HU ltac:(intros; apply Hr; lia) ltac:(intros; apply Ho; lia) ltac:(intros i Hi Hs; specialize (Hpp i Hi); lia) Hpj).
      rewrite (set_wr Ui') by lia. cbn [bind]. rewrite (set_wr Ux') by lia. cbn [bind].
      assert (PU' := @pushed_yes (fun i => rd pinv i <= k) op x xi top unz Ui Ux j unz' Ui' Ux' PU HU Hu0 ltac:(lia) ltac:(lia) ltac:(lia)
                      ltac:(intros; apply Ho; lia)).
      destruct (Z.geb_spec (rd pinv (rd xi j)) k) as [HLL|HLL].
      * rewrite !set_wr by lia. simpl. split; [|split; [auto|lia]]. apply pushed_yes; auto; try lia. intros; apply Ho; lia.
      * simpl. split; [|split; [auto|lia]]. apply pushed_no; auto. lia.
    + cbn [bind]. destruct (Z.geb_spec (rd pinv (rd xi j)) k) as [HLL|HLL].
      * rewrite !set_wr by lia. simpl. split; [|split; [|lia]].
        -- apply pushed_yes; auto; try lia. intros; apply Ho; lia.
        -- apply pushed_no; auto. lia.
      * lia.
Qed.

Lemma realloc_spec w k Mp Mi Mx nz VV WW : csc_part n k Mp Mi Mx nz VV WW -> 0 <= k -> w <= n -> nz + w <= 2 * zlen Mi ->
  let '(Mi', Mx') := if nz + n >? zlen Mi then sparse_realloc Mi Mx else (Mi, Mx) in
  csc_part n k Mp Mi' Mx' nz VV WW /\ 0 <= nz /\ (nz + w <= zlen Mi' /\ (zlen Mi' = 2 * zlen Mi \/ nz + n <= zlen Mi')) /\ (forall p, 0 <= p < nz -> rd Mi' p = rd Mi p).
Proof.
  intros P Hk Hwn Hc. pose proof (cp_cap P). pose proof (cp_x P).
  assert (0 <= nz) by (pose proof (cp_ptr P (c := k) (d := k)); rewrite <- (cp_k P); lia).
  destruct (Z.gtb_spec (nz + n) (zlen Mi)).
  - unfold sparse_realloc. split. apply cp_grow; auto. rewrite !zlen_mk; lia.
    rewrite zlen_app, zlen_mk by lia. split. lia. split. lia. intros p Hp. apply rd_app1. lia.
  - split; auto. split; auto. split; auto. lia.
Qed.

Definition Edet (e : info) : Prop := e = SLIP_SINGULAR /\ detz n M = 0.

Lemma lead_det rowp pinv : perm_ok n pinv rowp -> lead M (rd rowp) n = detz n M \/ lead M (rd rowp) n = - detz n M.
Proof.
  intros P. unfold lead. apply (@detz_rows n M (rd rowp)).
  { apply P. } { intros i j Hi Hj He. rewrite <- (p_c2 P Hi), <- (p_c2 P Hj). now rewrite He. }
Qed.

Lemma factor_step_spec env order tol k s : env_ok env order -> 0 <= k < n -> finv k s ->
  wp (factor_step env order tol n Ap Ai Ax q k s) (finv (k + 1)) Edet.
Proof.
  intros Henv Hk I. destruct I as [P Hpv Hpiv Hh Hxi Hx Hrl Hrho HLl HUl HL HU HUs HLc HUc HUm].
  unfold factor_step. rewrite (set_wr (F_Lp s)) by lia. cbn [bind]. rewrite (set_wr (F_Up s)) by lia. cbn [bind].
  pose proof HQ as (Q1 & Q2). rewrite (get_rd q) by lia. cbn [bind].
  set (Lp := wr (F_Lp s) k (F_lnz s)) in *. set (Up := wr (F_Up s) k (F_unz s)) in *.
  pose proof (@realloc_spec n _ _ _ _ _ _ _ HL ltac:(lia) ltac:(lia) HLc) as HLr.
  pose proof (@realloc_spec (k + 1) _ _ _ _ _ _ _ HU ltac:(lia) ltac:(lia) ltac:(lia)) as HUr.
  destruct (if F_lnz s + n >? zlen (F_Li s) then _ else _) as [Li Lx].
  destruct (if F_unz s + n >? zlen (F_Ui s) then _ else _) as [Ui Ux].
  destruct HLr as (HL1 & HLc1 & HLc2 & HLk). destruct HUr as (HU1 & HUc1 & HUc2 & HUk).
  set (R := rd (F_rowp s)) in *.
  destruct (@tri_solve_spec n k Lp Li Lx Ap Ai Ax (F_xi s) q (F_rhos s) (F_pinv s) (F_rowp s) (F_h s) (F_x s) (F_lnz s)
     Hk V HQ P (l_ok_part HL1) Hrl Hrho Hxi Hh Hx) as (top & xi & x & h & -> & Ht & Hxil & Hxl & Hhl & Hxr & Hxs & _ & Hx1 & Hx2 & Hout).
  cbn [bind]. fold M R in Hx1, Hx2, Hout.
  assert (Hcol : 0 <= rd q k < n) by (apply Q2; lia).
  pose proof (@choose_pivot_spec x (F_pivs s) xi top n Ht ltac:(lia) Hxl Hpv Hxr env order tol (rd q k) Henv Hcol) as HC.
  assert (Hcp : rd (F_pivs s) (rd q k) < 0 -> rd x (rd q k) <> 0 -> inpat top n xi (rd q k)).
  { intros H1 H2. destruct (@inP_dec n top xi (rd q k)) as [|Hn]; auto. exfalso. apply H2.
    apply Hpiv in H1; auto. rewrite Hx1; auto. apply (Hout (rd q k)); auto. lia. }
  specialize (HC Hcp). unfold slip_get_pivot.
  destruct (choose_pivot env order tol x (F_pivs s) n top xi (rd q k)) as [piv|e| |]; cbn [bind]; try contradiction.
  2:{ (* singular *)
      simpl. destruct HC as [-> Hne]. split; auto.
      assert (Hz : lead M R n = 0).
      { apply lead_sing with k; auto.
        - destruct (Z.eq_dec k 0) as [->|]. rewrite lead_0. lia. destruct (Hrho (k - 1)) as [E1 E2]. lia.
          replace (k - 1 + 1) with k in E1 by lia. congruence.
        - intros i Hi. assert (HRi : 0 <= R i < n) by (apply (p_r2 P); lia).
          assert (Hpi : rd (F_pinv s) (R i) = i) by (apply (p_c2 P); lia).
          destruct (@inP_dec n top xi (R i)) as [Hin|Hn].
          + destruct (Z.eq_dec (bm M R k (R i) k) 0); auto. exfalso. apply (Hne (R i)). split; auto.
            split. apply Hpiv; auto; lia. rewrite Hx1; auto. lia.
          + apply Hout; auto; lia. }
      destruct (lead_det P) as [E|E]; fold R in E; lia. }
  destruct HC as (Hpr & ((ap & Hap & Hape) & Hep & Hex)).
  assert (Hpk : k <= rd (F_pinv s) piv) by (apply Hpiv; auto).
  destruct (wp_ok_ex _ _ (@apply_pivot_spec n piv k x (F_rhos s) (F_pinv s) (F_rowp s) (F_pivs s) nerr Hk Hpr P Hpk Hxl Hrl Hpv))
    as ([[[rhos' pinv'] rowp'] pivs'] & -> & -> & -> & P' & Hrk & Hrj & Hpi1 & Hpi2). cbn [bind].
  pose proof (cp_ptr HL1 (c := 0) (d := k) ltac:(lia) ltac:(lia)) as HLn.
  pose proof (cp_ptr HU1 (c := 0) (d := k) ltac:(lia) ltac:(lia)) as HUn.
  assert (HLk0 : rd Lp k = F_lnz s) by apply (cp_k HL1).
  assert (HUk0 : rd Up k = F_unz s) by apply (cp_k HU1).
  pose proof (cp_x HL1). pose proof (cp_x HU1).
  pose proof (@push_loop_spec k xi pinv' x top (rd (F_pinv s)) Li Lx Ui Ux (F_lnz s) (F_unz s) nerr Ht Hxil (p_l1 P') Hxl Hxr Hxs
    ltac:(lia) ltac:(intros i Hi; apply (p_r1 P' Hi))
    ltac:(intros i i' Hi Hi' E; rewrite <- (p_c1 P' Hi), <- (p_c1 P' Hi'); now rewrite E)
    ltac:(lia) ltac:(lia) ltac:(lia) ltac:(lia) ltac:(lia) ltac:(lia)) as HW.
  destruct (wp_ok_ex _ _ HW) as ([[[[[Li' Lx'] Ui'] Ux'] lnz'] unz'] & -> & PL & PU & PN). clear HW. cbn [bind]. simpl.
  set (R' := rd rowp') in *.
  assert (Hbm : forall j i c, 0 <= j <= k -> bm M R' j i c = bm M R j i c).
  { intros j i c Hj. apply bm_ext. intros r Hr. apply Hrj. lia. }
  assert (Hld : forall j, 0 <= j <= k -> lead M R' j = lead M R j).
  { intros j Hj. apply lead_ext. intros r Hr. apply Hrj. lia. }
  assert (Hpi1' : forall i, 0 <= i < n -> k <= rd (F_pinv s) i -> k <= rd pinv' i).
  { intros i Hi Hge. destruct (Z_le_dec k (rd pinv' i)); auto. specialize (Hpi2 i Hi ltac:(lia)). lia. }
  assert (Hpi2' : forall i, 0 <= i < n -> k <= rd pinv' i -> k <= rd (F_pinv s) i).
  { intros i Hi Hge. destruct (Z_le_dec k (rd (F_pinv s) i)); auto. specialize (Hpi1 i Hi ltac:(lia)). lia. }
  assert (Hppiv : rd pinv' piv = k) by (rewrite <- Hrk; apply (p_c2 P'); auto).
  assert (Honly : forall i, 0 <= i < n -> rd pinv' i = k -> i = piv).
  { intros i Hi He. rewrite <- (p_c1 P' Hi), He. auto. }
  assert (Hxp : rd x piv = lead M R' (k + 1)).
  { rewrite lead_S by lia. rewrite Hrk, Hbm by lia. apply Hx1; auto. left. exists ap; auto. }
  assert (Hdup : forall i c, 0 <= i < n -> rd (F_pinv s) i < k -> bm M R k i c = 0).
  { intros i c Hi Hlt. rewrite <- (p_c1 P Hi). fold R. apply bm_dup. pose proof (p_r1 P Hi). lia. }
  (* the two new columns *)
  assert (HL' : csc_part n (k + 1) (wr Lp (k + 1) lnz') Li' Lx' lnz' (VL M n pinv' R') (WL M n R')).
  { eapply csc_part_push; [exact HL1|exact Hk|exact Ht|exact PL|pose proof (pu_c PL); lia| | | |].
    - intros a Ha Hs. pose proof (@Hxr a Ha) as Hi. split; auto. split; auto. rewrite Hbm by lia. apply Hx1; auto.
      left. exists a; auto.
    - intros i (Hi & Hn0). rewrite Hbm in Hn0 by lia.
      assert (Hge : k <= rd (F_pinv s) i).
      { destruct (Z_le_dec k (rd (F_pinv s) i)); auto. exfalso. apply Hn0. apply Hdup; auto. lia. }
      destruct (@inP_dec n top xi i) as [(a & Ha & He)|Hn1].
      + exists a. rewrite He. auto.
      + exfalso. apply Hn0. apply Hout; auto; lia.
    - intros j i v Hj (B1 & B2 & B3). split; auto. split. 
      + destruct (Z_lt_dec (rd (F_pinv s) i) k). rewrite Hpi1; auto. specialize (Hpi1' i B1). lia.
      + rewrite Hbm by lia. auto.
    - intros j i Hj (B1 & B2). split; auto. rewrite Hbm in B2 by lia. auto. }
  assert (HU' : csc_part n (k + 1) (wr Up (k + 1) unz') Ui' Ux' unz' (VU M n pinv' R') (WU M n pinv' R')).
  { eapply csc_part_push; [exact HU1|exact Hk|exact Ht|exact PU|lia| | | |].
    - intros a Ha Hs. pose proof (@Hxr a Ha) as Hi. pose proof (p_r1 P' Hi) as Hr'. split; auto. split; auto. rewrite Hbm by lia.
      rewrite Hx2; auto. 2: { exists a; auto. } f_equal. destruct (Z.eq_dec (rd pinv' (rd xi a)) k) as [e|].
      + specialize (Hpi2' (rd xi a) Hi). lia.
      + rewrite Hpi2; auto; lia.
    - intros i (Hi & Hle & Hn0). pose proof (p_r1 P' Hi) as Hr'. rewrite Hbm in Hn0 by lia.
      destruct (Z.eq_dec (rd pinv' i) k) as [e|].
      + exists ap. rewrite Hape. split; auto. split. lia. symmetry. apply Honly; auto.
      + assert (He : rd (F_pinv s) i = rd pinv' i) by (apply Hpi2; auto; lia).
        destruct (@inP_dec n top xi i) as [(a & Ha & He')|Hn1].
        * exists a. rewrite He'. auto.
        * exfalso. apply Hn0. apply Hout; auto; lia.
    - intros j i v Hj (B1 & B2 & B3). pose proof (p_r1 P B1) as Hr1. pose proof (Hpi1 i B1 ltac:(lia)) as Ep. rewrite <- Ep in B2, B3, Hr1.
      split; auto. split; auto. rewrite Hbm by lia. auto.
    - intros j i Hj (B1 & B2 & B3). pose proof (p_r1 P' B1). rewrite Hbm in B3 by lia.
      pose proof (Hpi2 i B1 ltac:(lia)) as Ep. rewrite <- Ep in B2, B3. split; auto. }
  constructor; cbn [F_pinv F_rowp F_pivs F_h F_xi F_x F_rhos F_Lp F_Up F_Li F_Lx F_Ui F_Ux F_lnz F_unz]; rewrite ?zlen_wr; auto.
  - intros i Hi. rewrite rd_wr by lia. destruct (Z.eqb_spec i piv) as [->|Hne]. lia.
    rewrite (Hpiv i Hi). split; intros Hc.
    + specialize (Hpi1' i Hi Hc). assert (rd pinv' i <> k) by (intros e; apply Hne, Honly; auto). lia.
    + apply Hpi2'; auto. lia.
  - intros j Hj. rewrite rd_wr by lia. destruct (Z.eqb_spec j k) as [->|].
    + rewrite Hxp. split; auto. rewrite <- Hxp. auto.
    + fold R'. rewrite Hld by lia. apply Hrho. lia.
  - unfold Lp; now rewrite zlen_wr.
  - unfold Up; now rewrite zlen_wr.
  - intros c p p' Hc.
    assert (HA : forall j, 0 <= j <= k -> rd (wr Up (k + 1) unz') j = rd Up j) by (intros; apply rd_wr_ne; lia).
    assert (HB : rd (wr Up (k + 1) unz') (k + 1) = unz') by (apply rd_wr_eq; unfold Up; rewrite zlen_wr; lia).
    destruct (Z.eq_dec c k) as [->|].
    + rewrite HB, HA, HUk0 by lia. intros Hp Hp'.
      pose proof (pu_ord PU Hp Hp') as Ho.
      destruct (pu_new PU (p := p) ltac:(lia)) as (t & T1 & T2 & T3 & _).
      destruct (pu_new PU (p := p') ltac:(lia)) as (t' & T1' & T2' & T3' & _).
      rewrite T3, T3' in *. pose proof (@Hxr t ltac:(lia)) as Hrt. pose proof (@Hxr t' ltac:(lia)) as Hrt'.
      destruct (Z.eq_dec (rd pinv' (rd xi t)) k) as [e|].
      * exfalso. apply Honly in e; auto. rewrite e in Ho.
        destruct (Z.eq_dec (rd pinv' (rd xi t')) k) as [e'|]. apply Honly in e'; auto. rewrite e' in Ho. lia.
        specialize (Hpi2 (rd xi t') Hrt' ltac:(lia)). lia.
      * rewrite <- (Hpi2 (rd xi t)) by (auto; lia).
        destruct (Z.eq_dec (rd pinv' (rd xi t')) k) as [e'|]. rewrite (Hpi2 (rd xi t)) by (auto; lia). lia.
        rewrite <- (Hpi2 (rd xi t')) by (auto; lia). auto.
    + rewrite !HA by lia. intros Hp Hp'.
      pose proof (cp_ptr HU1 (c := c) (d := c + 1) ltac:(lia) ltac:(lia)) as Hptr.
      destruct (pu_old PU (p := p) ltac:(lia)) as [Ep _]. destruct (pu_old PU (p := p') ltac:(lia)) as [Ep' _].
      destruct (cp_V HU1 (j := c) (p := p)) as (B1 & B2 & _); try lia.
      destruct (cp_V HU1 (j := c) (p := p')) as (C1 & C2 & _); try lia.
      rewrite Ep, Ep'. rewrite (HUk p) in * by lia. rewrite (HUk p') in * by lia.
      rewrite !Hpi1 by (auto; lia). apply (HUs c); auto; lia.
  - rewrite (pu_l1 PL). pose proof (pu_c PL). lia.
  - intros Hk1. rewrite (pu_l1 PU). lia.
  - destruct (pu_all PU (t := ap) Hap ltac:(rewrite Hape; lia)) as (p & Hp & _). lia.
Qed.

Lemma factor_loop_spec env order tol lnz0 unz0 : env_ok env order -> n <= 2 * Z.max lnz0 1 ->
  wp (for_ 0 n (fun k s => factor_step env order tol n Ap Ai Ax q k s) (factor_init n lnz0 unz0)) (finv n) Edet.
Proof.
  intros He H1. apply wp_for with (I := finv).
  - apply V.
  - apply factor_init_inv; auto.
  - intros k s Hk I. apply factor_step_spec; auto.
Qed.

End Fac.

(*----------------------------------------------------------------------------*)
(* the finished factors, row indices renamed to pivot positions *)
Record fac_ok (n : Z) (M : Z -> Z -> Z) (R : Z -> Z) (F : factors) : Prop := {
  fk_pl : zlen (fac_pinv F) = n;
  fk_R : forall k, 0 <= k < n -> 0 <= R k < n /\ rd (fac_pinv F) (R k) = k;
  fk_P : forall i, 0 <= i < n -> 0 <= rd (fac_pinv F) i < n /\ R (rd (fac_pinv F) i) = i;
  fk_rl : zlen (fac_rhos F) = n;
  fk_rho : forall j, 0 <= j < n -> rd (fac_rhos F) j = lead M R (j + 1) /\ rd (fac_rhos F) j <> 0;
  fk_L : valid_csc n n (fac_Lp F) (fac_Li F) (fac_Lx F);
  fk_U : valid_csc n n (fac_Up F) (fac_Ui F) (fac_Ux F);
  fk_Ln : zlen (fac_Li F) = rd (fac_Lp F) n;
  fk_Un : zlen (fac_Ui F) = rd (fac_Up F) n;
  fk_Lv : forall j p, 0 <= j < n -> rd (fac_Lp F) j <= p < rd (fac_Lp F) (j + 1) ->
          j <= rd (fac_Li F) p /\ rd (fac_Lx F) p = bm M R j (R (rd (fac_Li F) p)) j;
  fk_Lw : forall j r, 0 <= j < n -> 0 <= r < n -> bm M R j (R r) j <> 0 ->
          exists p, rd (fac_Lp F) j <= p < rd (fac_Lp F) (j + 1) /\ rd (fac_Li F) p = r;
  fk_Uv : forall c p, 0 <= c < n -> rd (fac_Up F) c <= p < rd (fac_Up F) (c + 1) ->
          rd (fac_Ui F) p <= c /\ rd (fac_Ux F) p = bm M R (rd (fac_Ui F) p) (R (rd (fac_Ui F) p)) c;
  fk_Uw : forall c r, 0 <= r <= c -> c < n -> bm M R r (R r) c <> 0 ->
          exists p, rd (fac_Up F) c <= p < rd (fac_Up F) (c + 1) /\ rd (fac_Ui F) p = r;
  fk_Us : forall c p p', 0 <= c < n -> rd (fac_Up F) c <= p < p' -> p' < rd (fac_Up F) (c + 1) ->
          rd (fac_Ui F) p < rd (fac_Ui F) p' }.

(* renaming the row indices of a finished matrix *)
Lemma renumber_spec n Mp Mi Mx nz VV WW pinv rowp (E : info -> Prop) :
  csc_part n n Mp Mi Mx nz VV WW -> 0 <= n -> perm_ok n pinv rowp ->
  (forall j i v, VV j i v -> 0 <= i < n) ->
  wp (for_ 0 nz (fun i Li => let* a := get Li i in let* b := get pinv a in set Li i b) (firstn (Z.to_nat nz) Mi))
     (fun Mi' => zlen Mi' = nz /\
        (forall p, 0 <= p < nz -> 0 <= rd Mi p < n /\ rd Mi' p = rd pinv (rd Mi p)) /\
        valid_csc n n Mp Mi' (firstn (Z.to_nat nz) Mx)) E.
Proof.
  intros P Hn HP HV.
  pose proof (cp_ptr P) as Hptr. pose proof (cp_cap P) as Hcap. pose proof (cp_x P) as Hx. pose proof (cp_k P) as Hk.
  assert (Hnz : 0 <= nz) by (pose proof (Hptr n n); lia).
  (* every position below nz lies in a column *)
  assert (Hcol : forall m p, (m <= Z.to_nat n)%nat -> 0 <= p < rd Mp (Z.of_nat m) -> exists j, 0 <= j < n /\ rd Mp j <= p < rd Mp (j + 1)).
  { induction m; intros p Hm Hp. change (Z.of_nat 0) with 0 in Hp. rewrite (cp_0 P) in Hp. lia.
    destruct (Z_lt_dec p (rd Mp (Z.of_nat m))). apply IHm; auto; lia.
    exists (Z.of_nat m). split. lia. replace (Z.of_nat m + 1) with (Z.of_nat (S m)) by lia. lia. }
  assert (Hr : forall p, 0 <= p < nz -> 0 <= rd Mi p < n).
  { intros p Hp. destruct (Hcol (Z.to_nat n) p) as (j & Hj & Hjp). lia. rewrite Z2Nat.id by lia. lia.
    eapply HV. apply (cp_V P (j := j)); auto. }
  assert (Hl : zlen (firstn (Z.to_nat nz) Mi) = nz) by (apply zlen_firstn; lia).
  pose proof (@map_range_spec (firstn (Z.to_nat nz) Mi) pinv 0 nz nerr ltac:(lia) ltac:(lia)) as HW.
  assert (HW0 : forall a, 0 <= a < nz -> 0 <= rd (firstn (Z.to_nat nz) Mi) a < zlen pinv).
  { intros a Ha. rewrite rd_firstn by lia. rewrite (p_l1 HP). auto. }
  eapply wp_mono; [| |exact (HW HW0)]; [|intros ? []].
  intros Mi' (A1 & A2 & _). rewrite Hl in A1. split; auto.
  assert (A3 : forall p, 0 <= p < nz -> rd Mi' p = rd pinv (rd Mi p)).
  { intros p Hp. rewrite A2 by auto. now rewrite rd_firstn by lia. }
  split. intros; split; auto.
  constructor; auto; try lia.
  - apply P.
  - apply P.
  - apply P.
  - rewrite A1, zlen_firstn; lia.
  - intros p Hp. rewrite A3 by lia. apply (p_r1 HP). apply Hr. lia.
  - intros c p p' Hc Hp Hp' He. pose proof (Hptr c (c + 1) ltac:(lia) ltac:(lia)).
    rewrite !A3 in He by lia. apply (cp_dup P (j := c)); auto.
    rewrite <- (p_c1 HP (i := rd Mi p)), <- (p_c1 HP (i := rd Mi p')) by (apply Hr; lia). now rewrite He.
Qed.

Theorem factorize_core_map env order tol n Ap Ai Ax q lnz0 unz0 :
  valid_csc n n Ap Ai Ax -> is_map n q -> env_ok env order -> n <= 2 * Z.max lnz0 1 ->
  wp (factorize_core env order tol n Ap Ai Ax q lnz0 unz0)
     (fun F => exists R, fac_ok n (colmat Ap Ai Ax q) R F)
     (fun e => e = SLIP_SINGULAR /\ detz n (colmat Ap Ai Ax q) = 0).
Proof.
  intros V HQ He H1. unfold factorize_core.
  apply wp_bind. eapply wp_conseq. apply (@factor_loop_spec n Ap Ai Ax q V HQ env order tol lnz0 unz0 He H1).
  intros s I. destruct I as [P Hpv Hpiv Hh Hxi Hx Hrl Hrho HLl HUl HL HU HUs HLc HUc HUm]. set (M := colmat Ap Ai Ax q) in *.
  pose proof (v_n V) as Hn.
  rewrite (set_wr (F_Lp s)) by lia. cbn [bind]. rewrite (set_wr (F_Up s)) by lia. cbn [bind].
  set (Lp := wr (F_Lp s) n (F_lnz s)) in *. set (Up := wr (F_Up s) n (F_unz s)) in *.
  destruct (wp_ok_ex _ _ (renumber_spec nerr HL Hn P ltac:(intros j i v (B & _); auto))) as (Li & -> & L1 & L2 & L3). cbn [bind].
  destruct (wp_ok_ex _ _ (renumber_spec nerr HU Hn P ltac:(intros j i v (B & _); auto))) as (Ui & -> & U1 & U2 & U3). cbn [bind].
  simpl. exists (rd (F_rowp s)). set (R := rd (F_rowp s)) in *.
  pose proof (cp_ptr HL) as HLp. pose proof (cp_ptr HU) as HUp.
  constructor; cbn [fac_Lp fac_Li fac_Lx fac_Up fac_Ui fac_Ux fac_rhos fac_pinv]; auto.
  - apply P.
  - intros k Hk. split. apply (p_r2 P); auto. apply (p_c2 P); auto.
  - intros k Hk. split. apply (p_r1 P); auto. apply (p_c1 P); auto.
  - rewrite (cp_k HL). auto.
  - rewrite (cp_k HU). auto.
  - intros j p Hj Hp. pose proof (HLp j (j + 1) ltac:(lia) ltac:(lia)). destruct (L2 p) as [B1 B2]. lia.
    destruct (cp_V HL (j := j) (p := p)) as (C1 & C2 & C3); auto.
    rewrite B2. split; auto. rewrite rd_firstn by lia. rewrite C3. f_equal. symmetry. apply (p_c1 P); auto.
  - intros j r Hj Hr Hne. destruct (cp_W HL (j := j) (R r)) as (p & Hp & Hpe); auto.
    { split; auto. apply (p_r2 P); auto. }
    exists p. split; auto. pose proof (HLp j (j + 1) ltac:(lia) ltac:(lia)). destruct (L2 p) as [B1 B2]. lia.
    rewrite B2, Hpe. apply (p_c2 P); auto.
  - intros j p Hj Hp. pose proof (HUp j (j + 1) ltac:(lia) ltac:(lia)). destruct (U2 p) as [B1 B2]. lia.
    destruct (cp_V HU (j := j) (p := p)) as (C1 & C2 & C3); auto.
    rewrite B2. split; auto. rewrite rd_firstn by lia. rewrite C3. f_equal. symmetry. apply (p_c1 P); auto.
  - intros c r Hr Hc Hne.
    assert (HRr : rd (F_pinv s) (R r) = r) by (apply (p_c2 P); lia).
    destruct (cp_W HU (j := c) (R r)) as (p & Hp & Hpe); auto. lia.
    { split. apply (p_r2 P); lia. rewrite HRr. split; auto. lia. }
    exists p. split; auto. pose proof (HUp c (c + 1) ltac:(lia) ltac:(lia)). destruct (U2 p) as [B1 B2]. lia.
    rewrite B2, Hpe. auto.
  - intros c p p' Hc Hp Hp'. pose proof (HUp c (c + 1) ltac:(lia) ltac:(lia)).
    destruct (U2 p) as [_ B2]. lia. destruct (U2 p') as [_ B2']. lia. rewrite B2, B2'. apply (HUs c); auto.
Qed.
Theorem factorize_core_spec env order tol n Ap Ai Ax q lnz0 unz0 :
  valid_csc n n Ap Ai Ax -> is_perm n q -> env_ok env order -> n <= 2 * Z.max lnz0 1 ->
  wp (factorize_core env order tol n Ap Ai Ax q lnz0 unz0)
     (fun F => exists R, fac_ok n (colmat Ap Ai Ax q) R F)
     (fun e => e = SLIP_SINGULAR /\ detz n (ent Ap Ai Ax) = 0).
Proof.
  intros V HQ He H1. eapply wp_mono; [| |apply (@factorize_core_map env order tol n Ap Ai Ax q lnz0 unz0 V HQ He H1)]; [auto|].
  intros e (-> & D). split; [reflexivity|]. destruct HQ as (_ & Q2 & Q3). destruct (@detz_cols n (ent Ap Ai Ax) (rd q)) as [E|E]; auto; unfold colmat in D; lia.
Qed.

(*----------------------------------------------------------------------------*)
(* consequences, in terms of the denoted matrices *)
Section FacOk.
Variables (n : Z) (M : Z -> Z -> Z) (R : Z -> Z) (F : factors).
Hypothesis K : fac_ok n M R F.

Lemma fac_n : 0 <= n.
Proof. rewrite <- (fk_pl K). apply zlen_nonneg. Qed.

Lemma fac_lead_nz j : 0 <= j <= n -> lead M R j <> 0.
Proof.
  intros Hj. destruct (Z.eq_dec j 0) as [->|]. rewrite lead_0; lia.
  destruct (fk_rho K (j := j - 1)) as [E N]. lia. replace (j - 1 + 1) with j in E by lia. congruence.
Qed.

Lemma entL r j : 0 <= r < n -> 0 <= j < n ->
  ent (fac_Lp F) (fac_Li F) (fac_Lx F) r j = if j <=? r then bm M R j (R r) j else 0.
Proof.
  intros Hr Hj.
  destruct (in_dec Z.eq_dec r (map (rd (fac_Li F)) (zseq (rd (fac_Lp F) j) (rd (fac_Lp F) (j + 1))))) as [Hin|Hout].
  - apply in_map_iff in Hin. destruct Hin as (p & <- & Hp). apply in_zseq in Hp.
    rewrite (ent_valid (fk_L K)) by auto. destruct (fk_Lv K Hj Hp) as [B1 B2].
    destruct (Z.leb_spec j (rd (fac_Li F) p)); auto; lia.
  - assert (Hno : forall p, rd (fac_Lp F) j <= p < rd (fac_Lp F) (j + 1) -> rd (fac_Li F) p <> r).
    { intros p Hp E. apply Hout, in_map_iff. exists p. split; auto. now apply in_zseq. }
    rewrite ent_none by auto. destruct (Z.leb_spec j r); auto.
    destruct (Z.eq_dec (bm M R j (R r) j) 0); auto. exfalso.
    destruct (fk_Lw K Hj Hr) as (p & Hp & He); auto. eapply Hno; eauto.
Qed.

Lemma entU r c : 0 <= r < n -> 0 <= c < n ->
  ent (fac_Up F) (fac_Ui F) (fac_Ux F) r c = if r <=? c then bm M R r (R r) c else 0.
Proof.
  intros Hr Hc.
  destruct (in_dec Z.eq_dec r (map (rd (fac_Ui F)) (zseq (rd (fac_Up F) c) (rd (fac_Up F) (c + 1))))) as [Hin|Hout].
  - apply in_map_iff in Hin. destruct Hin as (p & <- & Hp). apply in_zseq in Hp.
    rewrite (ent_valid (fk_U K)) by auto. destruct (fk_Uv K Hc Hp) as [B1 B2].
    destruct (Z.leb_spec (rd (fac_Ui F) p) c); auto; lia.
  - assert (Hno : forall p, rd (fac_Up F) c <= p < rd (fac_Up F) (c + 1) -> rd (fac_Ui F) p <> r).
    { intros p Hp E. apply Hout, in_map_iff. exists p. split; auto. now apply in_zseq. }
    rewrite ent_none by auto. destruct (Z.leb_spec r c); auto.
    destruct (Z.eq_dec (bm M R r (R r) c) 0); auto. exfalso.
    destruct (fk_Uw K (c := c) (r := r)) as (p & Hp & He); auto; try lia. eapply Hno; eauto.
Qed.

(* the diagonal of U is stored last *)
Lemma U_last c : 0 <= c < n -> rd (fac_Up F) c < rd (fac_Up F) (c + 1) /\
  rd (fac_Ui F) (rd (fac_Up F) (c + 1) - 1) = c /\
  rd (fac_Ux F) (rd (fac_Up F) (c + 1) - 1) = lead M R (c + 1).
Proof.
  intros Hc. pose proof (fac_lead_nz (j := c + 1) ltac:(lia)) as Hl. rewrite lead_S in * by lia.
  destruct (fk_Uw K (c := c) (r := c)) as (p & Hp & He); auto; try lia.
  assert (E : p = rd (fac_Up F) (c + 1) - 1).
  { destruct (Z.eq_dec p (rd (fac_Up F) (c + 1) - 1)); auto. exfalso.
    pose proof (fk_Us K (c := c) (p := p) (p' := rd (fac_Up F) (c + 1) - 1)) as Hs.
    destruct (fk_Uv K (c := c) (p := rd (fac_Up F) (c + 1) - 1)); lia. }
  split. lia. rewrite <- E. split; auto. destruct (fk_Uv K Hc Hp) as [_ B2]. rewrite B2, He. auto.
Qed.
End FacOk.
