(* Properties C65 - C68: Cramer's rule, Hadamard's bound, the objects returned pass SLIP_matrix_check, growth of the arrays. *)
From Verif Require Import Base DetZ Spec SumQ PivotSpec MFactor MSolve MMatrix MApi ApiSpec LUSpec.
From Coq Require Qcanon.
From Verif Require Import Det Hadamard PCopy PReach PTri PPivot PFactor PSolve PSolve2 PLU PApi PRule Check LUEx PropLU PropLU2.
Set Implicit Arguments.
Set Bullet Behavior "Strict Subproofs".
Open Scope Z_scope.

(*----------------------------------------------------------------------------*)
(* C65.  Cramer's rule.  A_i(b): A with column i replaced by b. *)
Definition with_column (A : Z -> Z -> Z) (i : Z) (b : Z -> Z) : Z -> Z -> Z := fun a c => if c =? i then b a else A a c.

Lemma cramer_of_solves n A B X i r : 0 <= i < n -> 0 <= r < m_n B -> ~ (m_scale A == 0)%Q -> ~ (m_scale B == 0)%Q -> solves n A B X ->
  (Qent X i r * inject_Z (detz n (Cent A)) ==
   inject_Z (detz n (with_column (Cent A) i (fun a => Dent B a r))) * (m_scale A / m_scale B))%Q.
Proof.
  intros Hi Hr HsA HsB HS. unfold detz at 2. change (with_column (Cent A) i (fun a => Dent B a r)) with (setc i (fun a => Dent B a r) (Cent A)).
  rewrite cramer_adj by lia. fold (sumz n (fun a => adj (Z.to_nat n) (Cent A) i a * Dent B a r)). rewrite sumQ_sumz by lia.
  set (w := adj (Z.to_nat n) (Cent A)).
  rewrite <- sumQ_scalr.
  rewrite (@sumQ_ext n (fun k => inject_Z (w i k * Dent B k r) * (m_scale A / m_scale B))%Q
             (fun k => sumQ n (fun c => inject_Z (w i k * Cent A k c) * Qent X c r))%Q).
  2:{ intros k Hk. specialize (HS k r Hk Hr). rewrite inject_Z_mult.
      transitivity (inject_Z (w i k) * m_scale A * (inject_Z (Dent B k r) / m_scale B))%Q; [field; exact HsB|]. rewrite <- HS, <- sumQ_scal.
      apply sumQ_ext. intros c Hc. rewrite inject_Z_mult. field. exact HsA. }
  rewrite sumQ_swap.
  rewrite (@sumQ_ext n _ (fun c => inject_Z (if i =? c then detz n (Cent A) else 0) * Qent X c r)%Q).
  - rewrite (@sumQ_single n i) by (lia || (intros k Hk Hn; destruct (Z.eqb_spec i k); [lia|]; change (inject_Z 0) with 0%Q; ring)).
    rewrite Z.eqb_refl. ring.
  - intros c Hc. rewrite sumQ_scalr. rewrite <- sumQ_sumz by lia. unfold sumz, w. rewrite adj_left by lia. reflexivity.
Qed.

Theorem C65_cramer : forall env n nrhs A B An o o' F X,
  int_csc n n A -> int_dense n nrhs B -> 1 <= n -> ~ (m_scale A == 0)%Q -> ~ (m_scale B == 0)%Q ->
  usable n An -> env_ok env (opt_pivot o) ->
  SLIP_LU_factorize env true true (Some A) (Some An) o = Ok (SOK, Out F) ->
  SLIP_LU_solve true true (Some B) (Some A) (Some (lu_L F)) (Some (lu_U F)) (Some (lu_rhos F)) (Some An) (Some (lu_pinv F)) o' = Ok (SOK, Out X) ->
  forall i r, 0 <= i < n -> 0 <= r < nrhs ->
  (Qent X i r * inject_Z (detz n (Cent A)) ==
   inject_Z (detz n (with_column (Cent A) i (fun a => Dent B a r))) * (m_scale A / m_scale B))%Q.
Proof.
  intros env n nrhs A B An o o' F X IC ID Hn HsA HsB US He EF EX i r Hi Hr.
  destruct (@solve_of_factors env n nrhs A B An o o' F IC ID Hn HsA HsB US He EF) as (_ & X' & EX' & _ & SX).
  rewrite EX in EX'. injection EX' as <-. apply cramer_of_solves; auto. rewrite (id_n ID). exact Hr.
Qed.
Example C65_ex := @C65_cramer exenv 4 2 exA exB exAn None None _ _ ex_csc ex_dense ex_n ex_scaleA ex_scaleB ex_usable (@ex_env _) ex_factorize ex_solve.

(* ... so that, for integer systems, the denominators divide the determinant and the numerators are bounded by the Cramer minors *)
Theorem C65_integer_systems : forall env n nrhs A B An o o' F X,
  int_csc n n A -> int_dense n nrhs B -> 1 <= n -> (m_scale A == 1)%Q -> (m_scale B == 1)%Q ->
  usable n An -> env_ok env (opt_pivot o) ->
  SLIP_LU_factorize env true true (Some A) (Some An) o = Ok (SOK, Out F) ->
  SLIP_LU_solve true true (Some B) (Some A) (Some (lu_L F)) (Some (lu_U F)) (Some (lu_rhos F)) (Some An) (Some (lu_pinv F)) o' = Ok (SOK, Out X) ->
  forall i r, 0 <= i < n -> 0 <= r < nrhs ->
  (Zpos (Qden (Qent X i r)) | detz n (Cent A)) /\
  (Qnum (Qent X i r) | detz n (with_column (Cent A) i (fun a => Dent B a r))) /\
  (Z.abs (detz n (Cent A)) = 1 -> Qden (Qent X i r) = 1%positive).
Proof.
  intros env n nrhs A B An o o' F X IC ID Hn HsA HsB US He EF EX i r Hi Hr.
  assert (NA : ~ (m_scale A == 0)%Q) by (rewrite HsA; discriminate). assert (NB : ~ (m_scale B == 0)%Q) by (rewrite HsB; discriminate).
  destruct (@solve_of_factors env n nrhs A B An o o' F IC ID Hn NA NB US He EF) as (_ & X' & EX' & RX & _).
  rewrite EX in EX'. injection EX' as <-.
  pose proof (@C65_cramer env n nrhs A B An o o' F X IC ID Hn NA NB US He EF EX i r Hi Hr) as H. rewrite HsA, HsB in H.
  set (d := detz n (Cent A)) in *. set (e := detz n (with_column (Cent A) i (fun a => Dent B a r))) in *.
  assert (HR : Qred (Qent X i r) = Qent X i r).
  { destruct (rq_arr RX) as (x & Ex & Lx & Cx). unfold Qent. rewrite Ex. apply Cx. unfold rdq. apply nth_In. unfold zlen in Lx. rewrite (rq_m RX). nia. }
  destruct (Qent X i r) as [a b]. cbn [Qnum Qden].
  assert (G : Z.gcd a (Zpos b) = 1) by (exact (Qcanon.Qred_identity2 (a # b) HR)).
  assert (E : a * d = e * Zpos b). { unfold Qeq in H. cbn in H. rewrite ?Pos.mul_1_r, ?Z.mul_1_r in H. exact H. }
  assert (D1 : (Zpos b | d)).
  { apply (@Znumtheory.Gauss (Zpos b) a d); [exists e; exact E|]. apply Znumtheory.rel_prime_sym. apply Znumtheory.Zgcd_1_rel_prime. exact G. }
  split; [exact D1|split].
  - apply (@Znumtheory.Gauss a (Zpos b) e); [exists d; rewrite Z.mul_comm, <- E; ring|]. apply Znumtheory.Zgcd_1_rel_prime. exact G.
  - intros Hd. apply Z.divide_abs_r in D1. rewrite Hd in D1. apply Z.divide_1_r_nonneg in D1; lia.
Qed.
Definition exA1 : matrix := with_scale exA 1%Q.
Definition exBu : matrix := with_scale exB 1%Q.
Definition solu : matrix := match SLIP_LU_solve true true (Some exBu) (Some exA1) (Some (lu_L (fac_of exAn None))) (Some (lu_U (fac_of exAn None)))
  (Some (lu_rhos (fac_of exAn None))) (Some exAn) (Some (lu_pinv (fac_of exAn None))) None with Ok (_, Out X) => X | _ => exB end.
Example C65_ex2 := @C65_integer_systems exenv 4 2 exA1 exBu exAn None None (fac_of exAn None) solu
  ltac:(destruct ex_csc; constructor; auto) ltac:(destruct ex_dense; constructor; auto) ex_n ltac:(reflexivity) ltac:(reflexivity)
  ex_usable (@ex_env _) ex_factorize ltac:(vm_compute; reflexivity).
(* not trivially: some denominator is 7 = |det A| *)
Example C65_ex3 : Qent solu 2 0 = (79 # 7)%Q.
Proof. vm_compute. reflexivity. Qed.


(*----------------------------------------------------------------------------*)
(* C66.  Hadamard's bound on every stored integer of the factors. *)
Definition prodz (n : Z) (f : Z -> Z) : Z := fold_right (fun k acc => f k * acc) 1 (zseq 0 n).
Definition row_norm2 (n : Z) (A : Z -> Z -> Z) (i : Z) : Z := sumz n (fun j => A i j ^ 2).
Definition col_norm2 (n : Z) (A : Z -> Z -> Z) (j : Z) : Z := sumz n (fun i => A i j ^ 2).
(* v is one of the integers stored in L, U or rhos *)
Definition stored_in_factors (n : Z) (F : lu) (v : Z) : Prop :=
  (exists T Tp Tx p, (T = lu_L F \/ T = lu_U F) /\ m_p T = Some Tp /\ m_x T = Some (VZ Tx) /\ 0 <= p < rd Tp n /\ v = rd Tx p) \/
  (exists k, 0 <= k < n /\ v = Dent (lu_rhos F) k 0).

Lemma stored_minor env n A An o F v : int_csc n n A -> usable n An -> env_ok env (opt_pivot o) ->
  SLIP_LU_factorize env true true (Some A) (Some An) o = Ok (SOK, Out F) -> stored_in_factors n F v ->
  detz n (Cent A) <> 0 /\ is_minor n (Cent A) v.
Proof.
  intros IC US He EF HS.
  destruct (factorize_ok_inv o IC US He EF) as (Ap & Ai & Ax & F0 & R & Hp & Hi & Hx & V & E0 & K & HD & _).
  split; [exact HD|]. destruct HS as [(T & Tp & Tx & p & HT & H1 & H2 & H3 & ->)|(k & Hk & ->)].
  - assert (exists Ti, m_i T = Some Ti) as (Ti & HTi) by (rewrite E0 in HT; destruct HT as [-> | ->]; simpl; eauto).
    eapply (@C09_entries_are_minors env n A An o F IC US He EF T Tp Ti Tx HT H1 HTi H2 p H3).
  - destruct (@C08_pivots_are_minors env n A An o F IC US He EF) as (row & HR & HM & _). rewrite (HM k Hk).
    destruct US as ((Q1 & Q2 & Q3) & _).
    exists (k + 1), row, (rd (s_q An)). split; [lia|]. split; [intros a Ha; apply HR; lia|]. split.
    + intros a b Ha Hb E. destruct (HR a ltac:(lia)) as [_ Ea]. destruct (HR b ltac:(lia)) as [_ Eb]. congruence.
    + split; [intros a Ha; apply Q2; lia|]. split; [intros a b Ha Hb; apply Q3; lia|reflexivity].
Qed.

Lemma prodz_prodf n f : 0 <= n -> prodz n f = prodf (Z.to_nat n) f.
Proof.
  intros Hn. rewrite prod_list. unfold prodz. replace (idx (Z.to_nat n)) with (zseq 0 n); [reflexivity|].
  unfold idx, zseq. rewrite Z.sub_0_r. apply map_ext. intros a. lia.
Qed.
Lemma minor_rows n A v : detz n A <> 0 -> is_minor n A v -> v ^ 2 <= prodz n (row_norm2 n A).
Proof.
  intros HD (s & f & g & Hs & F1 & F2 & G1 & G2 & ->). rewrite prodz_prodf by lia. unfold detz in *.
  pose proof (@minor_hadamard (Z.to_nat n) (Z.to_nat s) A f g) as H.
  rewrite !Z2Nat.id in H by lia. specialize (H F1 F2 G1 G2 HD).
  rewrite Z.pow_2_r. eapply Z.le_trans; [exact H|]. apply Z.eq_le_incl. apply prod_ext. intros k Hk. unfold row_norm2, sumz. apply sum_ext. intros j Hj. ring.
Qed.
Lemma minor_cols n A v : detz n A <> 0 -> is_minor n A v -> v ^ 2 <= prodz n (col_norm2 n A).
Proof.
  intros HD (s & f & g & Hs & F1 & F2 & G1 & G2 & ->).
  apply (@minor_rows n (fun i j => A j i)).
  - unfold detz in *. rewrite det_tr. exact HD.
  - exists s, g, f. split; [exact Hs|]. split; [exact G1|]. split; [exact G2|]. split; [exact F1|]. split; [exact F2|]. unfold detz. rewrite <- det_tr. reflexivity.
Qed.

Theorem C66_hadamard : forall env n A An o F v,
  int_csc n n A -> usable n An -> env_ok env (opt_pivot o) ->
  SLIP_LU_factorize env true true (Some A) (Some An) o = Ok (SOK, Out F) -> stored_in_factors n F v ->
  v ^ 2 <= prodz n (row_norm2 n (Cent A)) /\ v ^ 2 <= prodz n (col_norm2 n (Cent A)).
Proof.
  intros env n A An o F v IC US He EF HS. destruct (@stored_minor env n A An o F v IC US He EF HS) as [HD HM].
  split; [apply minor_rows|apply minor_cols]; assumption.
Qed.
Lemma ex_stored : stored_in_factors 4 (fac_of exAn None) (Dent (lu_rhos (fac_of exAn None)) 2 0).
Proof. right. exists 2. split; [lia|reflexivity]. Qed.
Example C66_ex := @C66_hadamard exenv 4 exA exAn None _ _ ex_csc ex_usable (@ex_env _) ex_factorize ex_stored.

(* the size of the solution of an integer system: Hadamard's bound for A, and for A with a column replaced by b *)
Lemma det_hadamard n A : 0 <= n -> detz n A ^ 2 <= prodz n (row_norm2 n A).
Proof.
  intros Hn. rewrite prodz_prodf by lia. unfold detz. rewrite Z.pow_2_r. eapply Z.le_trans; [apply hadamard|]. apply Z.eq_le_incl. apply prod_ext.
  intros k Hk. unfold row_norm2, sumz. apply sum_ext. intros j Hj. ring.
Qed.
Theorem C65_solution_size : forall env n nrhs A B An o o' F X,
  int_csc n n A -> int_dense n nrhs B -> 1 <= n -> (m_scale A == 1)%Q -> (m_scale B == 1)%Q ->
  usable n An -> env_ok env (opt_pivot o) ->
  SLIP_LU_factorize env true true (Some A) (Some An) o = Ok (SOK, Out F) ->
  SLIP_LU_solve true true (Some B) (Some A) (Some (lu_L F)) (Some (lu_U F)) (Some (lu_rhos F)) (Some An) (Some (lu_pinv F)) o' = Ok (SOK, Out X) ->
  forall i r, 0 <= i < n -> 0 <= r < nrhs ->
  Zpos (Qden (Qent X i r)) ^ 2 <= prodz n (row_norm2 n (Cent A)) /\
  Qnum (Qent X i r) ^ 2 <= prodz n (row_norm2 n (with_column (Cent A) i (fun a => Dent B a r))).
Proof.
  intros env n nrhs A B An o o' F X IC ID Hn HsA HsB US He EF EX i r Hi Hr.
  destruct (@C65_integer_systems env n nrhs A B An o o' F X IC ID Hn HsA HsB US He EF EX i r Hi Hr) as (D1 & D2 & _).
  assert (HD : detz n (Cent A) <> 0).
  { destruct (factorize_ok_inv o IC US He EF) as (? & ? & ? & ? & ? & _ & _ & _ & _ & _ & _ & HD & _). exact HD. }
  assert (NA : ~ (m_scale A == 0)%Q) by (rewrite HsA; discriminate). assert (NB : ~ (m_scale B == 0)%Q) by (rewrite HsB; discriminate).
  pose proof (@C65_cramer env n nrhs A B An o o' F X IC ID Hn NA NB US He EF EX i r Hi Hr) as H. rewrite HsA, HsB in H.
  set (d := detz n (Cent A)) in *. set (M := with_column (Cent A) i (fun a => Dent B a r)) in *. split.
  - eapply Z.le_trans; [|apply det_hadamard; lia]. fold d. apply Z.divide_abs_r in D1. apply Z.divide_pos_le in D1; [|lia].
    rewrite (Z.pow_even_abs d 2) by (exists 1; lia). apply Z.pow_le_mono_l. lia.
  - eapply Z.le_trans; [|apply det_hadamard; lia]. destruct (Z.eq_dec (detz n M) 0) as [E|E].
    + rewrite E in *. assert (Q0 : (Qent X i r * inject_Z d == 0)%Q) by (rewrite H; change (inject_Z 0) with 0%Q; reflexivity).
      assert (N0 : Qnum (Qent X i r) = 0). { unfold Qeq in Q0. cbn in Q0. nia. } rewrite N0. lia.
    + apply Z.divide_abs_l, Z.divide_abs_r in D2. apply Z.divide_pos_le in D2; [|lia].
      rewrite (Z.pow_even_abs (detz n M) 2), (Z.pow_even_abs (Qnum (Qent X i r)) 2) by (exists 1; lia). apply Z.pow_le_mono_l. lia.
Qed.
Example C65_ex4 := @C65_solution_size exenv 4 2 exA1 exBu exAn None None (fac_of exAn None) solu
  ltac:(destruct ex_csc; constructor; auto) ltac:(destruct ex_dense; constructor; auto) ex_n ltac:(reflexivity) ltac:(reflexivity)
  ex_usable (@ex_env _) ex_factorize ltac:(vm_compute; reflexivity).

(* the form of the bound in the papers on SLIP LU: at most g entries per column, each at most s in absolute value *)
Lemma sparse_sum n (h : Z -> Z) (S : Z) l : NoDup l -> (forall i, 0 <= h i <= S) -> (forall i, 0 <= i < Z.of_nat n -> h i <> 0 -> In i l) ->
  sumf n h <= Z.of_nat (length l) * S.
Proof.
  intros Nd Hh Hl. rewrite sum_list.
  assert (E : fold_right (fun x => Z.add (h x)) 0 (idx n) = fold_right (fun x => Z.add (h x)) 0 (filter (fun x => negb (h x =? 0)) (idx n))).
  { generalize (idx n) as m. induction m as [|x m IH]; cbn; [reflexivity|]. destruct (Z.eqb_spec (h x) 0) as [E|]; cbn; rewrite IH; lia. }
  rewrite E. eapply Z.le_trans; [apply (@part_le Z.add 0 0 h) with (m := l)|]; try (intros; lia).
  - apply NoDup_filter. unfold idx.
    assert (Q : forall l : list nat, NoDup l -> NoDup (map Z.of_nat l)).
    { induction l0 as [|x l0 IH]; intros N; cbn; constructor; inversion N as [|? ? Hx N']; subst; [|apply IH; exact N'].
      rewrite in_map_iff. intros (y & E' & Hy). apply Nat2Z.inj in E'. subst. contradiction. }
    apply Q, seq_NoDup.
  - intros x Hx. apply filter_In in Hx. destruct Hx as [H1 H2]. apply idx_in in H1. apply Hl; [exact H1|]. destruct (Z.eqb_spec (h x) 0); [discriminate|assumption].
  - intros x _. apply Hh.
  - clear E Nd Hl. induction l as [|x l IH]; cbn [fold_right length]; [lia|]. specialize (Hh x). replace (Z.of_nat (Datatypes.S (length l))) with (Z.of_nat (length l) + 1) by lia. lia.
Qed.
Lemma NoDup_map_zseq (f : Z -> Z) a b : (forall p q, a <= p < b -> a <= q < b -> f p = f q -> p = q) -> NoDup (map f (zseq a b)).
Proof.
  intros H. assert (P : forall l, NoDup l -> (forall x, In x l -> a <= x < b) -> NoDup (map f l)).
  { induction l as [|x l IH]; intros N Hl; cbn; constructor; inversion N as [|? ? Hx N']; subst.
    - rewrite in_map_iff. intros (y & E & Hy). apply H in E; [subst; contradiction|apply Hl; right; exact Hy|apply Hl; left; reflexivity].
    - apply IH; [exact N'|]. intros y Hy. apply Hl. right. exact Hy. }
  apply P; [apply nodup_zseq|]. intros x Hx. apply in_zseq. exact Hx.
Qed.
Theorem C66_sparse_bound : forall env n A An o F v Ap s g,
  int_csc n n A -> usable n An -> env_ok env (opt_pivot o) ->
  SLIP_LU_factorize env true true (Some A) (Some An) o = Ok (SOK, Out F) -> stored_in_factors n F v ->
  m_p A = Some Ap -> (forall c, 0 <= c < n -> rd Ap (c + 1) - rd Ap c <= g) ->
  (forall i j, 0 <= i < n -> 0 <= j < n -> Z.abs (Cent A i j) <= s) ->
  v ^ 2 <= (g * s ^ 2) ^ n.
Proof.
  intros env n A An o F v Ap s g IC US He EF HS Hp Hg Hs0. destruct (@C66_hadamard env n A An o F v IC US He EF HS) as [_ H].
  eapply Z.le_trans; [exact H|]. destruct (ic_arr IC) as (Ap' & Ai & Ax & Hp' & Hi & Hx & V). rewrite Hp in Hp'. injection Hp' as <-.
  pose proof (v_n V) as Hn.
  rewrite prodz_prodf by lia. replace ((g * s ^ 2) ^ n) with ((g * s ^ 2) ^ Z.of_nat (Z.to_nat n)) by (rewrite Z2Nat.id by lia; reflexivity).
  rewrite <- prod_const. apply prod_mono. intros c Hc. rewrite Z2Nat.id in Hc by lia. unfold col_norm2, sumz. split.
  - apply sum_nonneg. intros i _. rewrite Z.pow_2_r. apply Z.square_nonneg.
  - pose proof (@sparse_sum (Z.to_nat n) (fun i => if (0 <=? i) && (i <? n) then Cent A i c ^ 2 else 0) (s ^ 2) (map (rd Ai) (zseq (rd Ap c) (rd Ap (c + 1))))) as Q.
    rewrite map_length in Q. fold (zlen (zseq (rd Ap c) (rd Ap (c + 1)))) in Q. pose proof (v_mono V Hc). rewrite zlen_zseq in Q by lia.
    eapply Z.le_trans; [|eapply Z.le_trans; [apply Q|]].
    + apply Z.eq_le_incl, sum_ext. intros i Hi'. destruct (Z.leb_spec 0 i), (Z.ltb_spec i n); cbn [andb]; try reflexivity; lia.
    + apply NoDup_map_zseq. intros p p' H1 H2. apply (v_dup V Hc); assumption.
    + intros i. destruct ((0 <=? i) && (i <? n)) eqn:Eb; [|pose proof (Z.pow_even_nonneg s 2 ltac:(exists 1; lia)); lia].
      apply andb_prop in Eb. destruct Eb as [E1 E2]. apply Z.leb_le in E1. apply Z.ltb_lt in E2. specialize (Hs0 i c ltac:(lia) Hc). nia.
    + intros i Hi' Hne. assert (Hc0 : Cent A i c <> 0) by (intros E; apply Hne; rewrite E; destruct (_ && _); reflexivity).
      unfold Cent in Hc0. rewrite Hp, Hi, Hx in Hc0. destruct (in_dec Z.eq_dec i (map (rd Ai) (zseq (rd Ap c) (rd Ap (c + 1))))) as [|No]; [assumption|].
      exfalso. apply Hc0. apply ent_none. intros p Hpp E. apply No. apply in_map_iff. exists p. split; [exact E|]. apply in_zseq. exact Hpp.
    + specialize (Hg c Hc). pose proof (Z.pow_even_nonneg s 2 ltac:(exists 1; lia)). nia.
Qed.
Local Ltac cases4 c H := assert (c = 0 \/ c = 1 \/ c = 2 \/ c = 3) as [->|[->|[->| ->]]] by lia.
Example C66_ex2 := @C66_sparse_bound exenv 4 exA exAn None _ _ exAp 8 3 ex_csc ex_usable (@ex_env _) ex_factorize ex_stored eq_refl
  ltac:(intros c Hc; cases4 c Hc; vm_compute; discriminate) ltac:(intros i j Hi Hj; cases4 i Hi; cases4 j Hj; vm_compute; discriminate).

(*----------------------------------------------------------------------------*)
(* C68.  Growth of the arrays of L and U: the capacity is the estimate of the analysis, or less than twice what is in use plus n,
   and never more than 2 n^2; every step adds at most n entries. *)
Lemma tri_top n Lp Li Lx Ap Ai Ax k xi q rhos pinv rowp h x top xi' Lp' x' h' :
  slip_ref_triangular_solve n Lp Li Lx Ap Ai Ax k xi q rhos pinv rowp h x = Ok (top, xi', Lp', x', h') -> 0 <= top <= n.
Proof.
  unfold slip_ref_triangular_solve. intros E. apply bind_ok in E. destruct E as (col & _ & E).
  apply bind_ok in E. destruct E as ([[top0 xi0] Lp0] & _ & E).
  apply bind_ok in E. destruct E as (xi1 & _ & E). apply bind_ok in E. destruct E as (xi2 & ES & E).
  do 8 (apply bind_ok in E; destruct E as (? & _ & E)).
  match type of E with context [let '(_, _) := ?z in _] => destruct z end. injection E as <- <- <- <- <-.
  unfold sort_range in ES. destruct (Z.leb_spec 0 top0), (Z.leb_spec top0 n); cbn [andb] in ES; try discriminate. lia.
Qed.
Lemma set_len A (l l' : list A) i v : set l i v = Ok l' -> zlen l' = zlen l.
Proof. intros E. apply set_ok_wrg in E. destruct E as [_ ->]. unfold wrg. apply zlen_upd. Qed.
Lemma push_grows k xi pinv x j Li Lx Ui Ux lnz unz Li' Lx' Ui' Ux' lnz' unz' :
  push_LU k xi pinv x j (Li, Lx, Ui, Ux, lnz, unz) = Ok (Li', Lx', Ui', Ux', lnz', unz') ->
  zlen Li' = zlen Li /\ zlen Ui' = zlen Ui /\ lnz <= lnz' <= lnz + 1 /\ unz <= unz' <= unz + 1.
Proof.
  unfold push_LU. intros E. do 3 (apply bind_ok in E; destruct E as (? & _ & E)).
  apply bind_ok in E. destruct E as ([[Ui0 Ux0] unz0] & EU & E). apply bind_ok in E. destruct E as ([[Li0 Lx0] lnz0] & EL & E).
  injection E as <- <- <- <- <- <-.
  assert (HU : zlen Ui0 = zlen Ui /\ unz <= unz0 <= unz + 1).
  { destruct (x1 <=? k); [|injection EU as <- <- <-; lia]. apply bind_ok in EU. destruct EU as (U1 & E1 & EU). apply bind_ok in EU. destruct EU as (U2 & _ & EU).
    injection EU as <- <- <-. apply set_len in E1. lia. }
  assert (HL : zlen Li0 = zlen Li /\ lnz <= lnz0 <= lnz + 1).
  { destruct (x1 >=? k); [|injection EL as <- <- <-; lia]. apply bind_ok in EL. destruct EL as (U1 & E1 & EL). apply bind_ok in EL. destruct EL as (U2 & _ & EL).
    injection EL as <- <- <-. apply set_len in E1. lia. }
  lia.
Qed.
Lemma step_grows env order tol n Ap Ai Ax q k s s' : factor_step env order tol n Ap Ai Ax q k s = Ok s' ->
  F_lnz s <= F_lnz s' <= F_lnz s + n /\ F_unz s <= F_unz s' <= F_unz s + n /\
  (zlen (F_Li s') = zlen (F_Li s) \/ zlen (F_Li s) < F_lnz s + n /\ zlen (F_Li s') = 2 * zlen (F_Li s)) /\
  (zlen (F_Ui s') = zlen (F_Ui s) \/ zlen (F_Ui s) < F_unz s + n /\ zlen (F_Ui s') = 2 * zlen (F_Ui s)).
Proof.
  unfold factor_step. intros E. do 3 (apply bind_ok in E; destruct E as (? & _ & E)).
  assert (HL : forall lnz (Mi Mx : list Z), zlen (fst (if lnz + n >? zlen Mi then sparse_realloc Mi Mx else (Mi, Mx))) = zlen Mi \/
     zlen Mi < lnz + n /\ zlen (fst (if lnz + n >? zlen Mi then sparse_realloc Mi Mx else (Mi, Mx))) = 2 * zlen Mi).
  { intros lnz Mi Mx. pose proof (zlen_nonneg Mi). destruct (Z.gtb_spec (lnz + n) (zlen Mi)); cbn [fst sparse_realloc]; [|auto].
    right. rewrite zlen_app, zlen_mk by lia. lia. }
  pose proof (HL (F_lnz s) (F_Li s) (F_Lx s)) as G1. pose proof (HL (F_unz s) (F_Ui s) (F_Ux s)) as G2. clear HL.
  destruct (if F_lnz s + n >? zlen (F_Li s) then _ else _) as [Li Lx]. destruct (if F_unz s + n >? zlen (F_Ui s) then _ else _) as [Ui Ux]. cbn [fst] in *.
  apply bind_ok in E. destruct E as ([[[[top xi] Lp] x'] h] & ET & E). apply tri_top in ET.
  apply bind_ok in E. destruct E as ([[[[piv rhos] pinv] rowp] pivs] & _ & E).
  apply bind_ok in E. destruct E as ([[[[[Li' Lx'] Ui'] Ux'] lnz'] unz'] & EP & E). injection E as <-. cbn.
  apply (@for_ok_inv _ top n _ (fun j '(Li1, _, Ui1, _, lnz1, unz1) => zlen Li1 = zlen Li /\ zlen Ui1 = zlen Ui /\
    F_lnz s <= lnz1 <= F_lnz s + (j - top) /\ F_unz s <= unz1 <= F_unz s + (j - top))) in EP.
  - destruct EP as (P1 & P2 & P3 & P4). rewrite P1, P2. split; [lia|]. split; [lia|]. tauto.
  - lia.
  - lia.
  - intros j [[[[[L1 X1] U1] Y1] a1] b1] [[[[[L2 X2] U2] Y2] a2] b2] Hj I EJ. apply push_grows in EJ. lia.
Qed.
Theorem C68_array_growth : forall env order tol n Ap Ai Ax q lnz unz k s,
  0 <= k <= n -> at_step env order tol n Ap Ai Ax q lnz unz k s ->
  F_lnz s <= k * n /\ F_unz s <= k * n /\
  zlen (F_Li s) <= Z.max (Z.max lnz 1) (2 * (F_lnz s + n)) /\ zlen (F_Ui s) <= Z.max (Z.max unz 1) (2 * (F_unz s + n)) /\
  zlen (F_Li s) <= Z.max (Z.max lnz 1) (2 * n ^ 2) /\ zlen (F_Ui s) <= Z.max (Z.max unz 1) (2 * n ^ 2).
Proof.
  intros env order tol n Ap Ai Ax q lnz unz k s Hk E. unfold at_step in E.
  apply (@for_ok_inv _ 0 k _ (fun k s => F_lnz s <= k * n /\ F_unz s <= k * n /\
    zlen (F_Li s) <= Z.max (Z.max lnz 1) (2 * (F_lnz s + n)) /\ zlen (F_Ui s) <= Z.max (Z.max unz 1) (2 * (F_unz s + n)) /\
    zlen (F_Li s) <= Z.max (Z.max lnz 1) (2 * n ^ 2) /\ zlen (F_Ui s) <= Z.max (Z.max unz 1) (2 * n ^ 2))) in E; auto; try lia.
  - cbn. rewrite !zlen_mk by lia. lia.
  - clear s E. intros j s s' Hj (I1 & I2 & I3 & I4 & I5 & I6) ES. apply step_grows in ES. destruct ES as (S1 & S2 & S3 & S4).
    assert (HB : (j + 1) * n = j * n + n) by ring. assert (HN : j * n + n <= n ^ 2) by nia.
    split; [lia|]. split; [lia|]. split; [destruct S3; lia|]. split; [destruct S4; lia|]. split; [destruct S3; lia|destruct S4; lia].
Qed.
Example C68_ex := @C68_array_growth exenv 3 1 4 exAp exAi exAx [0; 3; 1; 2; 0] 8 8 2 ex_state ltac:(lia) ex_at_step.
(* so that the 64-bit arithmetic of the code on these sizes does not overflow *)
Theorem C68_no_overflow : forall env order tol n Ap Ai Ax q lnz unz k s,
  0 <= k < n -> at_step env order tol n Ap Ai Ax q lnz unz k s -> n < 2 ^ 30 -> lnz < 2 ^ 61 -> unz < 2 ^ 61 ->
  F_lnz s + n < 2 ^ 63 /\ F_unz s + n < 2 ^ 63 /\ 2 * zlen (F_Li s) < 2 ^ 63 /\ 2 * zlen (F_Ui s) < 2 ^ 63.
Proof.
  intros env order tol n Ap Ai Ax q lnz unz k s Hk E Hn Hl Hu.
  destruct (@C68_array_growth env order tol n Ap Ai Ax q lnz unz k s ltac:(lia) E) as (H1 & H2 & _ & _ & H5 & H6).
  assert (n ^ 2 < 2 ^ 60) by nia. assert (k * n + n <= n ^ 2) by nia. lia.
Qed.
Example C68_ex2 := @C68_no_overflow exenv 3 1 4 exAp exAi exAx [0; 3; 1; 2; 0] 8 8 2 ex_state ltac:(lia) ex_at_step eq_refl eq_refl eq_refl.
