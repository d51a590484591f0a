(* Proofs about the whole solve phase: the computed X is the exact solution; the solution check is sound and complete;
   exact solutions of a non-singular system are unique.  Proof file. *)
From Coq Require Import Setoid Morphisms.
From Verif Require Import Base Spec SumQ MFactor PTri PFactor MSolve PSolve.
Set Implicit Arguments.
Open Scope Z_scope.

Lemma sumz_add m f g : 0 <= m -> sumz m (fun c => f c + g c) = sumz m f + sumz m g.
Proof. intros. rewrite <- (Z.mul_1_l (sumz m (fun c => f c + g c))). rewrite (@sumz_lin m _ f g 1 1); auto. lia. intros; lia. Qed.
Lemma sumz_zero m f : 0 <= m -> (forall c, 0 <= c < m -> f c = 0) -> sumz m f = 0.
Proof. intros. rewrite (@sumz_ext m f (fun c => 0 * 0)); auto. rewrite sumz_scal by auto. lia. Qed.
Lemma sumz_swap m k (f : Z -> Z -> Z) : 0 <= m -> 0 <= k ->
  sumz m (fun i => sumz k (f i)) = sumz k (fun j => sumz m (fun i => f i j)).
Proof.
  intros Hm Hk. pattern m. apply natlike_ind; auto.
  - rewrite (@sumz_0 0) by lia. symmetry. apply sumz_zero; auto.
  - intros a Ha IH. unfold Z.succ. rewrite sumz_S, IH by lia. rewrite <- sumz_add by auto.
    apply sumz_ext; auto. intros. now rewrite sumz_S by lia.
Qed.
Lemma sumz_single n p f : 0 <= p < n -> (forall k, 0 <= k < n -> k <> p -> f k = 0) -> sumz n f = f p.
Proof.
  intros Hp H. apply (inject_Z_injective (sumz n f) (f p)). rewrite sumQ_sumz by lia.
  rewrite (@sumQ_single n p (fun k => inject_Z (f k))); auto. reflexivity. intros k Hk Hne. rewrite H by auto. reflexivity.
Qed.

(* Cramer's vector exists *)
Lemma cramer_ex n (M : Z -> Z -> Z) (R : Z -> Z) (B : Z -> Z -> Z) : 0 <= n ->
  exists zz : Z -> Z -> Z, forall r i, 0 <= i < n -> sumz n (fun c => M (R i) c * zz r c) = lead M R n * B r (R i).
Proof.
  intros Hn. destruct (adjz_ex n (fun i c => M (R i) c)) as (w & H1 & _).
  exists (fun r c => sumz n (fun k => w c k * B r (R k))). intros r i Hi.
  rewrite (@sumz_ext n _ (fun c => sumz n (fun k => M (R i) c * w c k * B r (R k)))); auto.
  2:{ intros c Hc. rewrite <- sumz_scal by auto. apply sumz_ext; auto. intros; ring. }
  rewrite (@sumz_swap n n (fun c k => M (R i) c * w c k * B r (R k))) by auto.
  rewrite (@sumz_ext n _ (fun k => (if i =? k then lead M R n else 0) * B r (R k))); auto.
  2:{ intros k Hk. unfold lead. rewrite <- (H1 i k Hi Hk). rewrite Z.mul_comm, <- sumz_scal by auto. apply sumz_ext; auto. intros; ring. }
  rewrite (@sumz_single n i); auto. now rewrite Z.eqb_refl.
  intros k Hk Hne. destruct (Z.eqb_spec i k); try congruence. lia.
Qed.

(*----------------------------------------------------------------------------*)
(* elementwise loops *)
Lemma matrix_mul_spec nz x s : 0 <= nz <= zlen x ->
  wp (slip_matrix_mul nz x s) (fun x' => zlen x' = zlen x /\ forall i, 0 <= i < nz -> rd x' i = rd x i * s) nerr.
Proof.
  intros Hz. unfold slip_matrix_mul. eapply wp_conseq.
  - apply wp_for with (I := fun i x' => zlen x' = zlen x /\ (forall k, 0 <= k < i -> rd x' k = rd x k * s) /\
       (forall k, i <= k < zlen x -> rd x' k = rd x k)). lia.
    + split; auto. split; auto. intros; lia.
    + intros i x' Hi (H1 & H2 & H3). rewrite get_rd by lia. cbn [bind]. rewrite set_wr by lia. simpl. rewrite zlen_wr.
      split; auto. split.
      * intros k Hk. rewrite rd_wr by lia. destruct (Z.eqb_spec k i). subst. rewrite H3 by lia. auto. apply H2; lia.
      * intros k Hk. rewrite rd_wr_ne by lia. apply H3; lia.
  - intros x' (H1 & H2 & H3). auto.
Qed.

Definition canon (q : Q) : Prop := Qred q = q.
Lemma canon_red q : canon (Qred q).
Proof. unfold canon. apply Qred_complete, Qred_correct. Qed.
Lemma canon_z z : canon (inject_Z z).
Proof.
  unfold canon, inject_Z, Qred. pose proof (Z.ggcd_gcd z 1) as H. pose proof (Z.ggcd_correct_divisors z 1) as H'.
  destruct (Z.ggcd z 1) as [g [a b]]. simpl in *. rewrite Z.gcd_1_r in H. subst g. destruct H' as [Ha Hb].
  rewrite !Z.mul_1_l in *. subst. reflexivity.
Qed.
Lemma canon_1 : canon 1.
Proof. reflexivity. Qed.
Lemma canon_0 : canon 0.
Proof. reflexivity. Qed.
Lemma canon_eq a b : canon a -> canon b -> (a == b)%Q -> a = b.
Proof. unfold canon. intros H1 H2 H. rewrite <- H1, <- H2. now apply Qred_complete. Qed.
Lemma mpq_equal_spec a b : canon a -> canon b -> reflect (a == b)%Q (mpq_equal a b).
Proof.
  intros Ha Hb. unfold mpq_equal. destruct (Z.eqb_spec (Qnum a) (Qnum b)), (Pos.eqb_spec (Qden a) (Qden b)); simpl; constructor.
  - destruct a, b; simpl in *; subst; reflexivity.
  - intros H. apply (canon_eq Ha Hb) in H. subst. tauto.
  - intros H. apply (canon_eq Ha Hb) in H. subst. tauto.
  - intros H. apply (canon_eq Ha Hb) in H. subst. tauto.
Qed.

Local Opaque Qred.
Lemma matrix_div_spec nz x s : 0 <= nz <= zlen x -> s <> 0 ->
  wp (slip_matrix_div nz x s) (fun x' => zlen x' = Z.max nz 1 /\ (forall i, canon (rdq x' i)) /\
        forall i, 0 <= i < nz -> (rdq x' i == inject_Z (rd x i) / inject_Z s)%Q) nerr.
Proof.
  intros Hz Hs. unfold slip_matrix_div. eapply wp_conseq.
  - apply wp_for with (I := fun i x' => zlen x' = Z.max nz 1 /\ (forall i, canon (rdq x' i)) /\
       (forall k, 0 <= k < i -> (rdq x' k == inject_Z (rd x k) / inject_Z s)%Q)). lia.
    + split. apply zlen_mk; lia. split. 2: intros; lia. intros i. unfold rdq, mk. rewrite nth_repeat. apply canon_0.
    + intros i x' Hi (H1 & H2 & H3). rewrite get_rd by lia. cbn [bind]. unfold mpq_div at 1. simpl.
      destruct (Z.eqb_spec s 0); [lia|]. cbn [bind]. rewrite set_wrg by lia. simpl. rewrite zlen_wrg. split; auto. split.
      * intros k. unfold rdq, wrg. rewrite nth_upd. destruct (_ && _). apply canon_red. apply H2.
      * intros k Hk. pose proof (@rdg_wrg Q 0%Q x' i k (Qred (inject_Z (rd x i) / inject_Z s)) ltac:(lia) ltac:(lia)) as E.
        unfold rdg in E. unfold rdq. unfold mpq_z. rewrite E. destruct (Z.eqb_spec k i). subst. apply Qred_correct. apply H3; lia.
  - intros x' (H1 & H2 & H3). auto.
Qed.

(*----------------------------------------------------------------------------*)
(* slip_check_solution *)
Section Check.
Variables (n nrhs : Z) (Ap Ai Ax : list Z).
Hypothesis V : valid_csc n n Ap Ai Ax.
Hypothesis Hnr : 0 <= nrhs.
Variables (x : list Q) (b : list Z).
Hypothesis Hx : n * nrhs <= zlen x.
Hypothesis Hb : n * nrhs <= zlen b.

Definition entp (i lo hi : Z) : Z := fold_right (fun p acc => (if rd Ai p =? i then rd Ax p else 0) + acc) 0 (zseq lo hi).
Lemma entp_nil i lo : entp i lo lo = 0.
Proof. unfold entp. rewrite zseq_nil by lia. reflexivity. Qed.
Lemma entp_S i lo p : lo <= p -> entp i lo (p + 1) = entp i lo p + (if rd Ai p =? i then rd Ax p else 0).
Proof.
  intros H. unfold entp. rewrite zseq_snoc by lia. rewrite fold_right_app. simpl.
  generalize (if rd Ai p =? i then rd Ax p else 0). intros d. induction (zseq lo p); simpl; lia.
Qed.

Definition Axs (i r : Z) : Q := sumQ n (fun c => (inject_Z (ent Ap Ai Ax i c) * rdq x (ix n c r))%Q).
Definition Axp (i r c : Z) : Q := sumQ c (fun c => (inject_Z (ent Ap Ai Ax i c) * rdq x (ix n c r))%Q).

Definition b2ok (b2 : list Q) := zlen b2 = Z.max (n * nrhs) 1 /\ forall i, canon (rdq b2 i).

Lemma check_spec :
  wp (slip_check_solution n nrhs Ap Ai Ax x b)
     (fun _ => forall i r, 0 <= i < n -> 0 <= r < nrhs -> (Axs i r == inject_Z (rd b (ix n i r)))%Q)
     (fun e => e = SLIP_INCORRECT /\ ~ (forall i r, 0 <= i < n -> 0 <= r < nrhs -> (Axs i r == inject_Z (rd b (ix n i r)))%Q)).
Proof.
  pose proof (v_n V) as Hn. pose proof (v_p V) as Hp. pose proof (v_cap V) as Hcap. pose proof (v_x V) as Hxx.
  unfold slip_check_solution. apply wp_bind.
  assert (HB : wp (for_ 0 nrhs (fun j b2 => for_ 0 n (fun i b2 =>
        let* lo := get Ap i in let* hi := get Ap (i + 1) in
        for_ lo hi (fun p b2 =>
          let* a := get Ax p in let* xi := get x (ix n i j) in let* r := get Ai p in let* w := get b2 (ix n r j) in
          set b2 (ix n r j) (mpq_add w (mpq_mul (mpq_z a) xi))) b2) b2) (mk (Z.max (n * nrhs) 1) 0%Q))
     (fun b2 => b2ok b2 /\ forall i r, 0 <= i < n -> 0 <= r < nrhs -> (rdq b2 (ix n i r) == Axs i r)%Q) nerr).
  { eapply wp_conseq.
    - apply wp_for with (I := fun j b2 => b2ok b2 /\
        (forall i r, 0 <= i < n -> 0 <= r < j -> (rdq b2 (ix n i r) == Axs i r)%Q) /\
        (forall i r, 0 <= i < n -> j <= r < nrhs -> (rdq b2 (ix n i r) == 0)%Q)); auto.
      + assert (H0 : forall i, rdq (mk (Z.max (n * nrhs) 1) 0%Q) i = 0%Q) by (intros; apply nth_repeat).
        split. split. apply zlen_mk; lia. intros; rewrite H0; apply canon_0.
        split. intros; lia. intros. rewrite H0. reflexivity.
      + intros j b2 Hj ((A0 & A1) & A2 & A3). eapply wp_conseq.
        * apply wp_for with (I := fun c b2' => b2ok b2' /\
            (forall i, 0 <= i < n -> (rdq b2' (ix n i j) == Axp i j c)%Q) /\
            (forall i r, 0 <= i < n -> 0 <= r < nrhs -> r <> j -> rdq b2' (ix n i r) = rdq b2 (ix n i r))); auto.
          -- split. split; auto. split; auto. intros i Hi. rewrite A3 by lia. unfold Axp. rewrite sumQ_0 by lia. reflexivity.
          -- intros c b3 Hc ((B0 & B1) & B2 & B3).
             pose proof (v_ptr V (c := c) (d := c + 1) ltac:(lia) ltac:(lia)) as Hpt.
             rewrite get_rd by lia. cbn [bind]. rewrite get_rd by lia. cbn [bind].
             eapply wp_conseq.
             ++ apply wp_for with (I := fun p b4 => b2ok b4 /\
                  (forall i, 0 <= i < n -> (rdq b4 (ix n i j) == Axp i j c + inject_Z (entp i (rd Ap c) p) * rdq x (ix n c j))%Q) /\
                  (forall i r, 0 <= i < n -> 0 <= r < nrhs -> r <> j -> rdq b4 (ix n i r) = rdq b2 (ix n i r))). lia.
                ** split. split; auto. split; auto. intros i Hi. rewrite entp_nil, B2 by auto. ring.
                ** intros p b4 Hpp ((C0 & C1) & C2 & C3). pose proof (v_i V (p := p) ltac:(lia)) as Hr.
                   rewrite get_rd by lia. cbn [bind].
                   pose proof (@ix_range n nrhs c j Hc Hj). pose proof (@ix_range n nrhs (rd Ai p) j Hr Hj).
                   rewrite (get_rdg 0%Q x) by lia. cbn [bind]. rewrite (get_rd Ai) by lia. cbn [bind].
                   rewrite (get_rdg 0%Q b4) by lia. cbn [bind]. rewrite set_wrg by lia. simpl.
                   set (v := mpq_add _ _). split; [split|split].
                   { now rewrite zlen_wrg. }
                   { intros k. unfold rdq, wrg. rewrite nth_upd. destruct (_ && _). apply canon_red. apply C1. }
                   { intros i Hi. pose proof (@ix_range n nrhs i j Hi Hj).
                     pose proof (@rdg_wrg Q 0%Q b4 (ix n (rd Ai p) j) (ix n i j) v ltac:(lia) ltac:(lia)) as E.
                     unfold rdg in E. unfold rdq at 1. rewrite E. rewrite entp_S by lia.
                     destruct (Z.eqb_spec (rd Ai p) i) as [e|ne].
                     - rewrite e, Z.eqb_refl. subst v. unfold mpq_add, mpq_mul, mpq_z. rewrite !Qred_correct.
                       rewrite e. change (rdg 0%Q b4 (ix n i j)) with (rdq b4 (ix n i j)). rewrite C2 by auto.
                       change (rdg 0%Q x (ix n c j)) with (rdq x (ix n c j)). rewrite inject_Z_plus. ring.
                     - destruct (Z.eqb_spec (ix n i j) (ix n (rd Ai p) j)) as [e'|]. apply ix_inj in e'; auto. lia.
                       change (nth (Z.to_nat (ix n i j)) b4 0%Q) with (rdq b4 (ix n i j)); rewrite C2 by auto. rewrite Z.add_0_r. reflexivity. }
                   { intros i r Hi Hr' Hne. pose proof (@ix_range n nrhs i r Hi Hr'). rewrite <- C3 by auto.
                     apply (@rdg_wrg_ne Q 0%Q); try lia. intros e. apply ix_inj in e; auto; lia. }
             ++ intros b4 (C0 & C2 & C3). split; auto. split; auto. intros i Hi. rewrite C2 by auto.
                unfold Axp. rewrite sumQ_S by lia. reflexivity.
        * intros b3 (B0 & B2 & B3). split; auto. split.
          -- intros i r Hi Hr. destruct (Z.eq_dec r j) as [->|]. apply B2; auto. rewrite B3 by lia. apply A2; lia.
          -- intros i r Hi Hr. rewrite B3 by lia. apply A3; lia.
    - intros b2 (H1 & H2 & _). auto. }
  apply wp_nerr. eapply wp_conseq; [exact HB|]. intros b2 ((A0 & A1) & A2). apply wp_bind.
  set (E := fun e : info => _).
  eapply wp_conseq.
  - apply wp_for with (I := fun j _ => forall i r, 0 <= i < n -> 0 <= r < j -> (Axs i r == inject_Z (rd b (ix n i r)))%Q); auto.
    + intros; lia.
    + intros j _ Hj H. eapply wp_conseq.
      * apply wp_for with (I := fun i _ => forall i', 0 <= i' < i -> (Axs i' j == inject_Z (rd b (ix n i' j)))%Q); auto.
        -- intros; lia.
        -- intros i _ Hi H'. pose proof (@ix_range n nrhs i j Hi Hj). rewrite get_rd by lia. cbn [bind].
           rewrite (get_rdg 0%Q b2) by lia. cbn [bind]. fold (rdq b2 (ix n i j)).
           unfold mpq_z. change (rdg 0%Q b2 (ix n i j)) with (rdq b2 (ix n i j)).
           destruct (mpq_equal_spec (canon_z (rd b (ix n i j))) (A1 (ix n i j))) as [e|ne].
           ++ simpl. intros i' Hi'. destruct (Z.eq_dec i' i) as [->|]. rewrite <- A2 by auto. symmetry; auto. apply H'; lia.
           ++ simpl. split; auto. intros G. apply ne. rewrite A2 by auto. symmetry. apply G; auto.
      * intros u H'. intros i r Hi Hr. destruct (Z.eq_dec r j) as [->|]. apply H'; auto. apply H; lia.
  - intros u H. simpl. exact H.
Qed.
End Check.

(*----------------------------------------------------------------------------*)
(* the whole solve *)
Lemma fac_perm n M R F : fac_ok n M R F -> is_perm n (fac_pinv F).
Proof.
  intros K. split. rewrite (fk_pl K); lia. split.
  - intros i Hi. apply (fk_P K); auto.
  - intros i j Hi Hj E. destruct (fk_P K Hi) as [_ H1]. destruct (fk_P K Hj) as [_ H2]. congruence.
Qed.

Definition all_canon (X : list Q) : Prop := forall v, In v X -> canon v.
Lemma all_canon_rdq X : all_canon X -> forall i, canon (rdq X i).
Proof.
  intros H i. unfold rdq. destruct (nth_in_or_default (Z.to_nat i) X 0%Q) as [Hin | E]. apply H; auto. rewrite E. apply canon_0.
Qed.
Lemma rdq_all_canon X : (forall i, canon (rdq X i)) -> all_canon X.
Proof. intros H v Hv. destruct (In_nth X v 0%Q Hv) as (k & _ & E). specialize (H (Z.of_nat k)). unfold rdq in H. rewrite Nat2Z.id in H. congruence. Qed.

(* writing canonical values keeps an array canonical *)
Lemma canon_wrg x i v : (forall i, canon (rdq x i)) -> canon v -> forall k, canon (rdq (wrg x i v) k).
Proof. intros H Hv k. unfold rdq, wrg. rewrite nth_upd. destruct (_ && _); auto. apply H. Qed.

Lemma wp_and A (m : res A) (P1 P2 : A -> Prop) E : wp m P1 E -> wp m P2 E -> wp m (fun a => P1 a /\ P2 a) E.
Proof. destruct m; simpl; auto. Qed.

Lemma permute_x_spec n nrhs x2 q : 0 <= n -> 0 <= nrhs -> n * nrhs <= zlen x2 -> is_perm n q -> (forall i, canon (rdq x2 i)) ->
  wp (slip_permute_x n nrhs x2 q) (fun x => (zlen x = Z.max (n * nrhs) 1 /\
     forall t r, 0 <= t < n -> 0 <= r < nrhs -> (rdq x (ix n (rd q t) r) = rdq x2 (ix n t r))) /\
     (zlen x = Z.max (n * nrhs) 1 /\ (forall i, canon (rdq x i)))) nerr.
Proof.
  intros Hn Hr Hl HQ Hc. unfold slip_permute_x. apply wp_and.
  - apply (@permute_spec Q 0%Q n nrhs x2 q 0%Q Hn Hr Hl HQ).
  - destruct HQ as (Q1 & Q2 & Q3).
    apply wp_for with (I := fun _ x => zlen x = Z.max (n * nrhs) 1 /\ (forall i, canon (rdq x i))); auto.
    + split. apply zlen_mk; lia. intros k. unfold rdq, mk. rewrite nth_repeat. apply canon_0.
    + intros i x Hi Hx. apply wp_for with (I := fun _ x => zlen x = Z.max (n * nrhs) 1 /\ (forall i, canon (rdq x i))); auto.
      intros j x' Hj [H1 H2]. pose proof (@ix_range n nrhs i j Hi Hj). pose proof (@ix_range n nrhs (rd q i) j (Q2 i Hi) Hj).
      rewrite (get_rdg 0%Q x2) by lia. cbn [bind]. rewrite get_rd by lia. cbn [bind]. rewrite set_wrg by lia. simpl.
      rewrite zlen_wrg. split; auto. apply canon_wrg; auto.
Qed.

(* the last loop of SLIP_LU_solve *)
Lemma scale_loop_spec nz x s : 0 <= nz <= zlen x -> (forall i, canon (rdq x i)) ->
  wp (for_ 0 nz (fun i x => let* v := get x i in set x i (mpq_mul v s)) x)
     (fun x' => zlen x' = zlen x /\ (forall i, canon (rdq x' i)) /\ forall i, 0 <= i < nz -> (rdq x' i == rdq x i * s)%Q) nerr.
Proof.
  intros Hz Hc. eapply wp_conseq.
  - apply wp_for with (I := fun i x' => zlen x' = zlen x /\ (forall i, canon (rdq x' i)) /\
       (forall k, 0 <= k < i -> (rdq x' k == rdq x k * s)%Q) /\ (forall k, i <= k < zlen x -> rdq x' k = rdq x k)). lia.
    + split; auto. split; auto. split; auto. intros; lia.
    + intros i x' Hi (H1 & H2 & H3 & H4). rewrite (get_rdg 0%Q x') by lia. cbn [bind]. rewrite set_wrg by lia. simpl.
      rewrite zlen_wrg. split; auto. split. apply canon_wrg; auto. apply canon_red. split.
      * intros k Hk. pose proof (@rdg_wrg Q 0%Q x' i k (mpq_mul (rdg 0%Q x' i) s) ltac:(lia) ltac:(lia)) as E.
        unfold rdq at 1. unfold rdg at 1 in E. rewrite E. destruct (Z.eqb_spec k i) as [->|].
        -- unfold mpq_mul. rewrite Qred_correct. change (rdg 0%Q x' i) with (rdq x' i). rewrite H4 by lia. reflexivity.
        -- apply H3; lia.
      * intros k Hk. rewrite <- H4 by lia. apply (@rdg_wrg_ne Q 0%Q); lia.
  - intros x' (H1 & H2 & H3 & H4). auto.
Qed.

Theorem solve_core_spec n nrhs Ap Ai Ax sA b sB F q R check :
  valid_csc n n Ap Ai Ax -> is_perm n q -> 1 <= n -> 0 <= nrhs -> zlen b = Z.max (n * nrhs) 1 ->
  ~ (sA == 0)%Q -> ~ (sB == 0)%Q ->
  fac_ok n (colmat Ap Ai Ax q) R F ->
  wp (solve_core n n nrhs Ap Ai Ax sA b sB F q check)
     (fun X => zlen X = Z.max (n * nrhs) 1 /\ all_canon X /\ exact_solution n nrhs Ap Ai Ax sA b sB X) nerr.
Proof.
  intros V HQ Hn Hnr Hb HsA HsB K. set (M := colmat Ap Ai Ax q) in *.
  pose (B := fun r i => rd b (ix n i r)).
  destruct (@cramer_ex n M R B) as (zz & Hzz). lia.
  assert (Hz : forall r i, 0 <= r < nrhs -> 0 <= i < n -> sumz n (fun c => M (R i) c * zz r c) = lead M R n * B r (R i)) by auto.
  assert (Hrho : rd (fac_rhos F) (n - 1) = lead M R n /\ lead M R n <> 0).
  { destruct (fk_rho K (j := n - 1)) as [H1 H2]. lia. replace (n - 1 + 1) with n in H1 by lia. split; congruence. }
  destruct Hrho as [Hrho Hdet].
  assert (Hnn : 0 <= n * nrhs) by nia.
  unfold solve_core, slip_permute_b.
  rewrite (proj2 (Z.ltb_ge n 0)), (proj2 (Z.ltb_ge nrhs 0)) by lia. cbn [orb]. apply wp_bind.
  eapply wp_conseq. apply (@permute_spec Z 0 n nrhs b (fac_pinv F) 0); auto; try lia. exact (fac_perm K).
  intros b1 (Hl1 & H1). apply wp_bind.
  eapply wp_conseq. apply (@forward_sub_spec n M R F K nrhs Hnr B b1 Hl1).
  { intros t r Ht Hr. destruct (fk_R K Ht) as [HR1 HR2]. unfold B. rewrite <- HR2 at 1. apply H1; auto. }
  intros b2 (Hl2 & H2). rewrite get_rd by (rewrite (fk_rl K); lia). cbn [bind]. rewrite Hrho. apply wp_bind.
  eapply wp_conseq. apply matrix_mul_spec; lia.
  intros b3 (Hl3 & H3). apply wp_bind.
  eapply wp_conseq. apply (@back_sub_spec n M R F K nrhs Hnr B zz Hz b3). lia.
  { intros t r Ht Hr. rewrite H3 by (apply ix_range; auto). rewrite H2; auto. }
  intros b4 (Hl4 & H4). apply wp_bind.
  eapply wp_conseq. apply matrix_div_spec; auto; lia.
  intros x2 (Hl5 & Hc5 & H5). apply wp_bind.
  eapply wp_conseq. apply permute_x_spec; auto; lia.
  intros x ((Hl6 & H6) & _ & Hc6).
  (* the unscaled solution *)
  assert (HX : forall i r, 0 <= i < n -> 0 <= r < nrhs ->
     (sumQ n (fun c => inject_Z (ent Ap Ai Ax i c) * rdq x (ix n c r)) == inject_Z (rd b (ix n i r)))%Q).
  { intros i r Hi Hr. destruct HQ as (_ & Q2 & Q3).
    rewrite (@sumQ_reindex n (rd q)) by (auto; lia).
    rewrite (@sumQ_ext n _ (fun t => inject_Z (M i t * zz r t) * / inject_Z (lead M R n))%Q).
    2:{ intros t Ht. rewrite H6, H5, H4 by (auto; apply ix_range; auto). unfold M, colmat. rewrite inject_Z_mult. unfold Qdiv. ring. }
    rewrite sumQ_scalr. rewrite <- (sumQ_sumz (fun t => M i t * zz r t)) by lia.
    destruct (fk_P K Hi) as [HP1 HP2]. specialize (Hz r (rd (fac_pinv F) i) Hr HP1). rewrite HP2 in Hz. rewrite Hz.
    unfold B. rewrite inject_Z_mult. field. intros H. apply Hdet. apply inject_Z_injective. rewrite H. reflexivity. }
  assert (Hchk : wp (if check then slip_check_solution n nrhs Ap Ai Ax x b else Ok tt) (fun _ => True) nerr).
  { destruct check; simpl; auto. pose proof (@check_spec n nrhs Ap Ai Ax V Hnr x b ltac:(lia) ltac:(lia)) as C.
    destruct (slip_check_solution n nrhs Ap Ai Ax x b); simpl in *; auto. destruct C as [_ C]. apply C. exact HX. }
  apply wp_bind. eapply wp_conseq; [exact Hchk|]. intros _ _.
  assert (HsB' : Qnum sB <> 0). { intros H. apply HsB. unfold Qeq. simpl. lia. }
  unfold mpq_div at 1. destruct (Z.eqb_spec (Qnum sB) 0); [lia|]. cbn [bind].
  destruct (mpq_equal_spec (canon_red (sA / sB)) canon_1) as [e|ne].
  - simpl. split; auto. split. apply rdq_all_canon; auto. intros i r Hi Hr.
    rewrite Qred_correct in e.
    assert (e' : (sA == sB)%Q). { rewrite <- (Qmult_1_l sB), <- e. field. auto. }
    rewrite (@sumQ_ext n _ (fun c => / sB * (inject_Z (ent Ap Ai Ax i c) * rdq x (ix n c r)))%Q).
    2:{ intros c Hc. unfold ix. rewrite e'. unfold Qdiv. ring. }
    rewrite sumQ_scal, HX by auto. unfold ix, Qdiv. ring.
  - eapply wp_conseq. apply scale_loop_spec; auto; lia.
    intros x' (Hl7 & Hc7 & H7). split. lia. split. apply rdq_all_canon; auto. intros i r Hi Hr.
    rewrite (@sumQ_ext n _ (fun c => / sB * (inject_Z (ent Ap Ai Ax i c) * rdq x (ix n c r)))%Q).
    2:{ intros c Hc. change (c + r * n) with (ix n c r). rewrite H7 by (apply ix_range; auto). rewrite Qred_correct. field. auto. }
    rewrite sumQ_scal, HX by auto. unfold ix, Qdiv. ring.
Qed.

(* a non-singular system has at most one solution *)
Theorem solution_unique n nrhs Ap Ai Ax sA b sB X Y : 0 <= n ->
  detz n (ent Ap Ai Ax) <> 0 -> ~ (sA == 0)%Q ->
  exact_solution n nrhs Ap Ai Ax sA b sB X -> exact_solution n nrhs Ap Ai Ax sA b sB Y ->
  forall c r, 0 <= c < n -> 0 <= r < nrhs -> (rdq X (c + r * n) == rdq Y (c + r * n))%Q.
Proof.
  intros Hn Hdet HsA HX HY d r Hd Hr.
  destruct (adjz_ex n (ent Ap Ai Ax)) as (w & _ & H2).
  assert (G : forall Z_, exact_solution n nrhs Ap Ai Ax sA b sB Z_ ->
    (inject_Z (detz n (ent Ap Ai Ax)) * rdq Z_ (d + r * n) ==
     sumQ n (fun i => inject_Z (w d i) * (sA * (inject_Z (rd b (i + r * n)) / sB))))%Q).
  { intros Z_ HZ.
    rewrite (@sumQ_ext n (fun i => inject_Z (w d i) * (sA * (inject_Z (rd b (i + r * n)) / sB)))%Q
       (fun i => sumQ n (fun c => inject_Z (w d i * ent Ap Ai Ax i c) * rdq Z_ (c + r * n)))%Q).
    2:{ intros i Hi. rewrite <- (HZ i r Hi Hr). rewrite <- sumQ_scal, <- sumQ_scal. apply sumQ_ext. intros c Hc.
        rewrite inject_Z_mult. field. auto. }
    rewrite sumQ_swap.
    rewrite (@sumQ_ext n _ (fun c => inject_Z (if d =? c then detz n (ent Ap Ai Ax) else 0) * rdq Z_ (c + r * n))%Q).
    2:{ intros c Hc. rewrite <- (H2 d c Hd Hc). rewrite sumQ_sumz by lia. rewrite <- sumQ_scalr. reflexivity. }
    rewrite (@sumQ_single n d); auto.
    - rewrite Z.eqb_refl. reflexivity.
    - intros k Hk Hne. destruct (Z.eqb_spec d k). congruence. ring. }
  pose proof (G X HX) as GX. rewrite <- (G Y HY) in GX.
  assert (ND : ~ (inject_Z (detz n (ent Ap Ai Ax)) == 0)%Q).
  { intros H. apply Hdet. apply inject_Z_injective. rewrite H. reflexivity. }
  apply (Qmult_inj_l _ _ _ ND). exact GX.
Qed.
