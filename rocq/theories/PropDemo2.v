(* Property C82: the example programs example2.c and example.c.  Specification: DemoSpec.v, ApiSpec.v, MatSpec.v; model: MExample.v. *)
From Coq Require Import QArith Qabs String.
From Verif Require Import Base Det DetZ Spec SumQ MFactor MSolve MMatrix MApi ApiSpec PApi MatSpec PMat PCopy MDemo PDemo MExample PExample LUEx.
From Verif Require Import PropMat PropMat2 PropMat3 PropLU2 PropDemo.
From Verif Require Import DemoSpec.
Set Implicit Arguments.
Open Scope Z_scope.
Set Bullet Behavior "Strict Subproofs".

(* the two file names: those on the command line if there are at least two words, otherwise the default ones *)
Definition chosen (args : list (list Z)) (def : list Z * list Z) (mat rhs : list Z) : Prop :=
  (exists more, args = mat :: rhs :: more) \/ (zlen args < 2 /\ def = (mat, rhs)).
Lemma chosen_eq args def mat rhs : chosen args def mat rhs -> match args with a :: b :: _ => (a, b) | _ => def end = (mat, rhs).
Proof.
  intros [(more & ->)|(H & E)]; auto. destruct args as [|a [|b l]]; auto. exfalso. unfold zlen in H. cbn [List.length] in H. lia.
Qed.
Theorem C82_example2 : forall env ol addr files def args mat rhs fm fr n k es vs tail tail',
  env_ok env 3 -> chosen args def mat rhs ->
  (* the files hold an n-by-n matrix and n-by-k right-hand sides *)
  files mat = Some fm -> triplet_file n n es tail fm -> es <> [] -> Forall (inside n n) es -> no_repeat es -> (zlen es = 1 -> ~ Forall blank tail) ->
  files rhs = Some fr -> dense_file n k vs tail' fr -> 1 <= k -> zlen vs = n * k ->
  fits n -> fits k -> fits (zlen es) ->
  (detz n (listed es) <> 0 /\ exists X, example2 env ol addr files def args = Ok (Solved X) /\ rat_dense n k X /\
     forall i r, 0 <= i < n -> 0 <= r < k -> (sumQ n (fun j => inject_Z (listed es i j) * Qent X j r) == inject_Z (rd vs (i * k + r)))%Q) \/
  (detz n (listed es) = 0 /\ example2 env ol addr files def args = Ok (Failed SLIP_SINGULAR)).
Proof.
  intros env ol addr files def args mat rhs fm fr n k es vs tail tail' HE HCh Fm TF Hes Hin ND Hend Fr DF Hk Lv Fn Fk Fz.
  assert (Hn : 1 <= n). { destruct es as [|e es']; [congruence|]. inversion Hin as [|? ? [I1 I2] _]. lia. }
  set (o := Some (default_options false)).
  destruct (@tripread_ok o addr n n es tail fm TF Hes Fn Fn Fz Hin Hend ltac:(discriminate)) as (A & p & r & x & EA & _ & A1 & A2 & A3 & A4 & _ & _ & _ & _ & AV & IC).
  specialize (IC ND). destruct (@C72_read_dense o n k vs tail' fr DF Fn Fk Hn Hk Lv) as (B & EB & ID & B1 & BV).
  assert (DE : detz n (listed es) = detz n (Cent A)) by (apply detz_ext; intros i j Hi Hj; symmetry; auto).
  assert (SA : ~ (m_scale A == 0)%Q) by (rewrite A4; discriminate). assert (SB : ~ (m_scale B == 0)%Q) by (rewrite B1; discriminate).
  unfold example2. rewrite (chosen_eq HCh). fold o. rewrite Fm, EA, Fr, EB. rewrite A2, (id_m ID), Z.eqb_refl. cbn [negb]. rewrite DE.
  destruct (@C26_backslash env ol addr n k A B (Some (default_options true)) IC ID HE Hn SA SB) as [(HD & X & EX & RX & SX)|(HD & EX)]; rewrite EX.
  - left. split; auto. exists X. split; auto. split; auto. intros i j Hi0 Hj.
    specialize (SX i j Hi0). rewrite (id_n ID) in SX. specialize (SX Hj). rewrite BV in SX by auto. rewrite A4, B1 in SX.
    setoid_replace (inject_Z (rd vs (i * k + j))) with (inject_Z (rd vs (i * k + j)) / 1)%Q by (field; discriminate).
    rewrite <- SX. apply sumQ_ext. intros jj Hjj. rewrite AV by auto. field.
  - right. split; auto.
Qed.
(* what it reports otherwise: a missing file, sizes that do not match, a truncated right-hand side *)
Theorem C82_example2_reports : forall env ol addr files def args mat rhs fm m n es tail,
  chosen args def mat rhs ->
  (files mat = None -> example2 env ol addr files def args = Ok NoFile) /\
  (files mat = Some fm -> triplet_file m n es tail fm -> es <> [] -> Forall (inside m n) es -> (zlen es = 1 -> ~ Forall blank tail) ->
   fits m -> fits n -> fits (zlen es) ->
    (files rhs = None -> example2 env ol addr files def args = Ok NoFile) /\
    (forall fr mb k vs tail', files rhs = Some fr -> dense_file mb k vs tail' fr -> 1 <= mb -> 1 <= k -> fits mb -> fits k ->
      (zlen vs = mb * k -> mb <> n -> example2 env ol addr files def args = Ok BadSize) /\
      (zlen vs < mb * k -> Forall blank tail' -> example2 env ol addr files def args = Ok (Failed SLIP_INCORRECT_INPUT)))).
Proof.
  intros env ol addr files def args mat rhs fm m n es tail HCh. unfold example2. rewrite (chosen_eq HCh).
  split; [intros Fm; now rewrite Fm|]. intros Fm TF Hes Hin Hend Xm Xn Xz.
  set (o := Some (default_options false)).
  destruct (@tripread_ok o addr m n es tail fm TF Hes Xm Xn Xz Hin Hend ltac:(discriminate)) as (A & p & r & x & EA & _ & A1 & A2 & _).
  split; [intros Fr; now rewrite Fm, EA, Fr|].
  intros fr mb k vs tail' Fr DF P1 P2 X1 X2. split.
  - intros L NE. destruct (@C72_read_dense o mb k vs tail' fr DF X1 X2 P1 P2 L) as (B & EB & ID & _).
    rewrite Fm, EA, Fr, EB, A2, (id_m ID). destruct (Z.eqb_spec n mb); [congruence|reflexivity].
  - intros L HB. pose proof (@C72_missing_numbers o mb k vs tail' fr DF X1 X2 P1 P2 L HB) as EB. now rewrite Fm, EA, Fr, EB.
Qed.

(*----------------------------------------------------------------------------*)
(* example.c: the t-th number drawn is rand t.  The first number of each group of n+1 goes to the right-hand side, the others to a row of the matrix. *)
Definition drawn_b (rand : Z -> Z) (n i : Z) : Z := rand (i * (n + 1)).
Definition drawn_A (rand : Z -> Z) (n i j : Z) : Z := rand (i * (n + 1) + 1 + j).
(* the numbers are ints, so doubles hold them *)
Definition ints (rand : Z -> Z) : Prop := forall t, - 2 ^ 31 <= rand t < 2 ^ 31.
Lemma opt_prec_def c : 93 <= opt_prec (Some (default_options c)).
Proof. cbn. lia. Qed.
Lemma example_run env ol addr rand n : 1 <= n -> ints rand -> env_ok env 3 ->
  exists ti tj tx bx num t, made rand n (n * n) (n * (n + 1)) n (ti, tj, tx, bx, num, t) /\
  forall A B, matrix_copy (Some (default_options false)) addr true true KCSC TMPZ (Some (Rm n ti tj tx)) = Ok A ->
    matrix_copy (Some (default_options false)) addr true true KDENSE TMPZ (Some (Rbm n bx)) = Ok B ->
    example env ol addr rand n =
      match SLIP_backslash env ol addr true true TDBL (Some A) (Some B) (Some (default_options true)) with
      | Ok (SOK, Out x) => Ok (Solved x)
      | Ok (SErr e, _) => Ok (Failed e)
      | Ok (SOK, _) => UB | Err e => Err e | UB => UB | Fuel => Fuel
      end.
Proof.
  intros Hn HI HE. destruct (wp_ok_ex _ _ (@generate_ok rand n Hn)) as ([[[[[ti tj] tx] bx] num] t] & EG & M).
  exists ti, tj, tx, bx, num, t. split; auto. intros A B EA EB. unfold example. rewrite alloc_R, alloc_Rb by auto. cbn [bind]. rewrite EG. cbn [bind].
  fold (Rm n ti tj tx). fold (Rbm n bx). now rewrite EA, EB.
Qed.
Lemma zero_dec n (f : Z -> Z -> Z) : (exists i j, 0 <= i < n /\ 0 <= j < n /\ f i j <> 0) \/ (forall i j, 0 <= i < n -> 0 <= j < n -> f i j = 0).
Proof.
  destruct (existsb (fun i => existsb (fun j => negb (f i j =? 0)) (zseq 0 n)) (zseq 0 n)) eqn:E.
  - left. apply existsb_exists in E. destruct E as (i & Hi & E). apply existsb_exists in E. destruct E as (j & Hj & E). apply in_zseq in Hi, Hj.
    apply negb_true_iff, Z.eqb_neq in E. exists i, j. auto.
  - right. intros i j Hi Hj. destruct (Z.eqb_spec (f i j) 0) as [|N]; auto. exfalso. enough (T : existsb (fun i => existsb (fun j => negb (f i j =? 0)) (zseq 0 n)) (zseq 0 n) = true) by congruence.
    apply existsb_exists. exists i. split; [now apply in_zseq|]. apply existsb_exists. exists j. split; [now apply in_zseq|]. now apply negb_true_iff, Z.eqb_neq.
Qed.
Theorem C82_example : forall env ol addr rand n, 1 <= n -> ints rand -> env_ok env 3 ->
  (exists i, 0 <= i < n /\ drawn_b rand n i <> 0) ->
  (detz n (drawn_A rand n) <> 0 /\ exists Y f x, example env ol addr rand n = Ok (Solved Y) /\
     m_kind Y = KDENSE /\ m_type Y = TDBL /\ m_m Y = n /\ m_n Y = 1 /\ m_x Y = Some (VD f) /\
     (forall i, 0 <= i < n -> (sumQ n (fun j => inject_Z (drawn_A rand n i j) * x j) == inject_Z (drawn_b rand n i))%Q) /\
     (forall i, 0 <= i < n -> double_rounded RNDZ true (x i) (nth (Z.to_nat i) f FNan))) \/
  (detz n (drawn_A rand n) = 0 /\ example env ol addr rand n = Ok (Failed SLIP_SINGULAR)).
Proof.
  intros env ol addr rand n Hn HI HE Hb. destruct (@example_run env ol addr rand n Hn HI HE) as (ti & tj & tx & bx & num & t & M & HX).
  assert (HR : forall k, - 2 ^ 53 < rand k < 2 ^ 53). { intros k. specialize (HI k). change (2 ^ 31) with 2147483648 in HI. change (2 ^ 53) with 9007199254740992. lia. }
  set (o := Some (default_options false)) in *. pose proof (@opt_prec_def false) as Hp. fold o in Hp.
  destruct (@exact_Rb rand n Hn ti tj tx bx num t o addr M HR Hp Hb) as (yb & sb & HCb & Hsb & HVb).
  destruct (@copy_Rb rand n Hn o addr ti tj tx bx num t yb sb M ltac:(lia) HCb) as (B & EB & ID & SB & BV).
  destruct (zero_dec n (drawn_A rand n)) as [DZ|DZ].
  - destruct (@exact_R rand n Hn ti tj tx bx num t o addr M HR Hp DZ) as (ya & sa & HCa & Hsa & HVa).
    destruct (@copy_R rand n Hn o addr ti tj tx bx num t ya sa M ltac:(lia) HCa) as (A & EA & IC & SA & AV).
    rewrite (HX A B EA EB). subst sa sb.
    assert (HD : detz n (Cent A) = 0 <-> detz n (drawn_A rand n) = 0).
    { apply (@scaled_det1 n (m_scale A)); auto; [lia|]. intros i j Hi Hj. rewrite AV by auto. apply HVa; auto. }
    destruct (Z.eq_dec (detz n (drawn_A rand n)) 0) as [D0|D0].
    + right. split; auto. rewrite (@backslash_singular' env ol addr n 1 A B (Some (default_options true)) TDBL IC ID HE); auto. now apply HD.
    + left. split; auto.
      destruct (@C57_backslash_rounded env ol addr n 1 A B (Some (default_options true)) TDBL IC ID HE Hn Hsa Hsb ltac:(cbn; lia)) as (X & Y & f & RX & SX & EY & Y1 & Y2 & Y3 & Y4 & Y5 & YV); auto.
      { intros D. apply D0. now apply HD. }
      rewrite EY. cbn [Z.eqb TDBL Pos.eqb] in Y5. exists Y, f, (fun i => Qent X i 0). split; auto. do 5 (split; auto). split.
      * intros i Hi. specialize (SX i 0 Hi ltac:(rewrite (id_n ID); lia)). rewrite BV, HVb in SX by auto. rewrite <- SX. apply sumQ_ext. intros j Hj.
        rewrite AV by auto. rewrite HVa by auto. reflexivity.
      * intros i Hi. destruct (YV i 0 Hi ltac:(lia)) as (YD & _). specialize (YD eq_refl). replace (i + 0 * n) with i in YD by lia. exact YD.
  - destruct (@zero_R rand n Hn ti tj tx bx num t o addr M Hp DZ) as (ya & sa & HCa & HVa).
    destruct (@copy_R rand n Hn o addr ti tj tx bx num t ya sa M ltac:(lia) HCa) as (A & EA & IC & SA & AV).
    assert (D0 : detz n (drawn_A rand n) = 0). { apply (@detz_zero_row n _ 0); [lia|]. intros c Hc. apply DZ; lia. }
    assert (D1 : detz n (Cent A) = 0). { apply (@detz_zero_row n _ 0); [lia|]. intros c Hc. rewrite AV by lia. apply HVa; lia. }
    right. split; auto. rewrite (HX A B EA EB). rewrite (@backslash_singular' env ol addr n 1 A B (Some (default_options true)) TDBL IC ID HE); auto.
Qed.
(* if only zeros are drawn for the right-hand side, the program divides by zero (see C42_zero_rhs_refuted) *)
Theorem C82_example_zero_refuted : forall env ol addr rand n, 1 <= n -> ints rand -> env_ok env 3 ->
  (forall i, 0 <= i < n -> drawn_b rand n i = 0) -> detz n (drawn_A rand n) <> 0 -> example env ol addr rand n = UB.
Proof.
  intros env ol addr rand n Hn HI HE Hb D0. destruct (@example_run env ol addr rand n Hn HI HE) as (ti & tj & tx & bx & num & t & M & HX).
  assert (HR : forall k, - 2 ^ 53 < rand k < 2 ^ 53). { intros k. specialize (HI k). change (2 ^ 31) with 2147483648 in HI. change (2 ^ 53) with 9007199254740992. lia. }
  set (o := Some (default_options false)) in *. pose proof (@opt_prec_def false) as Hp. fold o in Hp.
  destruct (@zero_Rb rand n Hn ti tj tx bx num t o addr M Hp Hb) as (yb & HCb).
  destruct (@copy_Rb rand n Hn o addr ti tj tx bx num t yb 0%Q M ltac:(lia) HCb) as (B & EB & ID & SB & BV).
  assert (DZ : exists i j, 0 <= i < n /\ 0 <= j < n /\ drawn_A rand n i j <> 0).
  { destruct (zero_dec n (drawn_A rand n)) as [DZ|DZ]; auto. exfalso. apply D0. apply (@detz_zero_row n _ 0); [lia|]. intros c Hc. apply DZ; lia. }
  destruct (@exact_R rand n Hn ti tj tx bx num t o addr M HR Hp DZ) as (ya & sa & HCa & Hsa & HVa).
  destruct (@copy_R rand n Hn o addr ti tj tx bx num t ya sa M ltac:(lia) HCa) as (A & EA & IC & SA & AV).
  rewrite (HX A B EA EB). subst sa.
  assert (HD : detz n (Cent A) = 0 <-> detz n (drawn_A rand n) = 0).
  { apply (@scaled_det1 n (m_scale A)); auto; [lia|]. intros i j Hi Hj. rewrite AV by auto. apply HVa; auto. }
  rewrite (@backslash_scale0' env ol addr n 1 A B (Some (default_options true)) TDBL IC ID HE); auto.
  - rewrite SB. reflexivity.
  - intros D. apply D0. now apply HD.
Qed.
(* concrete cases.  example2: A = [2 0; -1 3], b = [4 1; 1 0], names on the command line *)
Example C82_example2_ex : exists X, example2 exenv exol (fun _ => 0) ex_files ([], []) [bytes "A"; bytes "b"; bytes "z"] = Ok (Solved X) /\ rat_dense 2 2 X.
Proof.
  assert (Hfit : fits 2 /\ fits (zlen ex_prog_es)) by (unfold fits; cbn; lia). destruct Hfit as [Hf1 Hf2].
  assert (Hin : Forall (inside 2 2) ex_prog_es) by (repeat constructor; cbn; lia).
  assert (Hnd : no_repeat ex_prog_es) by (repeat constructor; cbn; intuition congruence).
  destruct (@C82_example2 exenv exol (fun _ => 0) ex_files ([], []) [bytes "A"; bytes "b"; bytes "z"] (bytes "A") (bytes "b") ex_prog_A ex_prog_b 2 2 ex_prog_es [4; 1; 1; 0] nl nl
    (@ex_env _) (or_introl (ex_intro _ [bytes "z"] eq_refl)) eq_refl ex_prog_A_file ltac:(discriminate) Hin Hnd ltac:(discriminate) eq_refl ex_prog_b_file ltac:(discriminate) eq_refl Hf1 Hf1 Hf2) as [(_ & X & E & RX & _)|(H & _)].
  2:{ discriminate H. }
  eauto.
Qed.
Example C82_example2_run : exists X, example2 exenv exol (fun _ => 0) ex_files ([], []) [bytes "A"; bytes "b"] = Ok (Solved X) /\
  m_x X = Some (VQ [2%Q; 1%Q; (1 # 2)%Q; (1 # 6)%Q]).
Proof. eexists. split; vm_compute; reflexivity. Qed.
Example C82_example2_reports_run :
  example2 exenv exol (fun _ => 0) ex_files (bytes "A", bytes "X") [bytes "b"] = Ok NoFile /\
  example2 exenv exol (fun _ => 0) ex_files0 ([], []) [bytes "A"; bytes "b"] = Ok BadSize.
Proof. split; vm_compute; reflexivity. Qed.
(* example, with n = 2: b = [1; 0], A = [3 5; 7 11] *)
Definition ex_rand (t : Z) : Z := rd [1; 3; 5; 0; 7; 11] t.
Lemma ex_rand_ints : ints ex_rand.
Proof.
  intros t. unfold ex_rand, rd. destruct (Z.to_nat t) as [|[|[|[|[|[|k]]]]]]; cbn [nth]; try lia. destruct k; lia.
Qed.
Example C82_example_ex : exists Y f x, example exenv exol (fun _ => 0) ex_rand 2 = Ok (Solved Y) /\ m_x Y = Some (VD f) /\
  (forall i, 0 <= i < 2 -> (sumQ 2 (fun j => inject_Z (drawn_A ex_rand 2 i j) * x j) == inject_Z (drawn_b ex_rand 2 i))%Q).
Proof.
  destruct (@C82_example exenv exol (fun _ => 0) ex_rand 2 ltac:(lia) ex_rand_ints (@ex_env 3)) as [(_ & Y & f & x & E & _ & _ & _ & _ & H & S & _)|(H & _)].
  - exists 0. split; [lia|discriminate].
  - exists Y, f, x. auto.
  - discriminate H.
Qed.
(* the exact solution is [-11/2; 7/2] (the doubles have 53-bit significands) *)
Example C82_example_run : exists Y, example exenv exol (fun _ => 0) ex_rand 2 = Ok (Solved Y) /\ m_x Y = Some (VD [FFin (-6192449487634432) (-50); FFin 7881299347898368 (-51)]).
Proof. eexists. split; vm_compute; reflexivity. Qed.
Example C82_example_zero_ex : example exenv exol (fun _ => 0) (fun t => rd [0; 3; 5; 0; 7; 11] t) 2 = UB.
Proof. vm_compute. reflexivity. Qed.
