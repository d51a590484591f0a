(* C46, C52, C53, C60-C62: ownership of memory on every path, for every oracle (every failing allocation, every data-dependent branch).
   Vocabulary: ResSpec.v *)
From Coq Require Import ZArith List Bool Lia Arith Permutation.
From Verif Require Import Base MMatrix MRes PRes PRes2 PRes3 PRes4 PRes5 PRes6 ResSpec PRes7 PRes8.
Import ListNotations.
Set Bullet Behavior "Strict Subproofs".
Open Scope Z_scope.

Lemma outs1 t (P : obj -> Prop) (l : list obj) : (forall x, okty t x -> P x) -> oks [t] l -> exists x, l = [x] /\ P x.
Proof. intros H HF. inversion HF as [|? ? ? ? H1 H2]; subst. inversion H2; subst. eauto. Qed.
Lemma mat_dense ty x : okty (YMat (Some (KDENSE, ty))) x -> is_dense ty x.
Proof. intros (A & -> & H1 & H2 & H3). exists A. split; [reflexivity|]. split; [apply full_ok; exact H1|auto]. Qed.
Lemma mat_matrix kt x : okty (YMat kt) x -> is_matrix x.
Proof. intros (A & -> & H1 & _). exists A. split; [reflexivity|]. apply full_ok. exact H1. Qed.

(*----------------------------------------------------------------------------*)
(* C46: whatever fails inside SLIP_matrix_allocate, either an error is returned with *A NULL and the heap as before, or SLIP_OK with a
   matrix that owns exactly the new blocks, and then no allocation failed *)
Theorem C46_allocate_memory : forall O kind type m n nzmax shallow init rest s,
  heap_is s rest ->
  transaction O (SLIP_matrix_allocate O kind type m n nzmax shallow init) 1 []
    (fun outs => exists A, outs = [Mat A] /\ matrix_ok A) True rest s.
Proof.
  intros O kind type m n nzmax shallow init rest s Hs.
  eapply FJ_transaction with (outs := [made kind type shallow init (room kind m n nzmax)]); [apply fj_allocate|constructor| |exact Hs].
  intros l Hl. eapply outs1 with (P := is_matrix) in Hl.
  - destruct Hl as (x & -> & A & -> & HA). exists A. auto.
  - intros x Hx. unfold made in Hx. destruct shallow.
    + destruct Hx as (A & -> & H1 & H2). exists A. split; [reflexivity|]. apply anym_ok. split; [exact H1|congruence].
    + destruct (negb init && (type =? TMPZ)); [destruct Hx as (A & -> & (H1 & _) & _); exists A; split; [reflexivity|apply full_ok; exact H1]|eapply mat_matrix; exact Hx].
Qed.

(* oracles for examples: every request is granted, except at the times in l; GMP allocates (e = 1) or not (e = 0) for each limb pointer *)
Definition granted (l : list nat) (e : Z) (v : nat -> Z) : orc :=
  let ok c := negb (existsb (Nat.eqb c) l) in mkOrc ok (fun _ => true) ok (fun _ _ => e) v.
Definition empty : rst := mkRS [] 1 0 0 [].

(* the documented code for exhaustion is SLIP_OUT_OF_MEMORY; when an index or value array cannot be allocated, SLIP_INCORRECT_INPUT is
   returned although the arguments are valid *)
Theorem C46_oom_code_refuted : exists O s', heap_is empty [] /\
  SLIP_matrix_allocate O KCSC TMPZ 2 2 3 false true [Nil] empty = Fin (Some SLIP_INCORRECT_INPUT) [Nil] s' /\ nfail s' = 1%nat.
Proof.
  exists (granted [3%nat] 0 (fun _ => 0)). eexists. split; [|split; [vm_compute; reflexivity|reflexivity]].
  split; [constructor|]. split; [intros p []|]. split; [reflexivity|]. apply perm_nil.
Qed.
(* when the header or the scale cannot be allocated the code is right *)
Theorem C46_header_code : forall O kind type m n nzmax shallow init s,
  0 <= m -> 0 <= n -> KCSC <= kind <= KDENSE -> TMPZ <= type <= TDBL ->
  o_mem O (clk s) = false ->
  exists s', SLIP_matrix_allocate O kind type m n nzmax shallow init [Nil] s = Fin (Some SLIP_OUT_OF_MEMORY) [Nil] s' /\ live s' = live s.
Proof.
  intros O kind type m n nzmax shallow init s Hm Hn Hk Ht Ho. unfold SLIP_matrix_allocate, func. cbn [app]. unfold bind at 1. cbn [setv upd].
  replace (m <? 0) with false by lia. replace (n <? 0) with false by lia. replace (kind <? KCSC) with false by lia. replace (kind >? KDENSE) with false by lia.
  replace (type <? TMPZ) with false by lia. replace (type >? TDBL) with false by lia. cbn [orb]. unfold bind at 1. unfold alloc. rewrite Ho. cbn. eexists. split; reflexivity.
Qed.

(*----------------------------------------------------------------------------*)
(* C52: the drivers are transactions *)
(* the bundled AMD frees its workspace on every path, and reports exhaustion *)
Theorem C52_amd_order : forall O A rest s,
  is_matrix A -> heap_is s (owned [A] ++ rest) -> transaction O (AMD_order O) 0 [A] (fun outs => outs = []) True rest s.
Proof.
  intros O A rest s HA Hs. eapply FJ_transaction with (outs := []); [cbn [map app repeat]; apply fj_amd; reflexivity| | |exact Hs].
  - constructor; [apply is_matrix_ok; exact HA|constructor].
  - intros l Hl. inversion Hl. reflexivity.
Qed.
Theorem C52_analyze : forall O args order A rest s,
  is_matrix A -> heap_is s (owned [A] ++ rest) ->
  transaction O (SLIP_LU_analyze O args order) 1 [A] (fun outs => exists S, outs = [S] /\ is_analysis S) (order <> 2) rest s.
Proof.
  intros O args order A rest s HA Hs. eapply FJ_transaction with (outs := [YAna]); [cbn [map app repeat]; apply fj_analyze; [exact (fun x => x)|reflexivity]| | |exact Hs].
  - constructor; [apply is_matrix_ok; exact HA|constructor].
  - intros l Hl. eapply outs1; [|exact Hl]. intros x Hx. exact Hx.
Qed.
Theorem C52_factorize : forall O args pivot n lnz unz A S rest s,
  is_matrix A -> is_analysis S -> n <= Z.max lnz 1 -> n <= Z.max unz 1 -> heap_is s (owned [A; S] ++ rest) ->
  transaction O (SLIP_LU_factorize O args pivot n lnz unz) 4 [A; S]
    (fun outs => exists L U rhos pinv, outs = [L; U; rhos; pinv] /\ is_matrix L /\ is_matrix U /\ is_matrix rhos /\ is_array pinv) True rest s.
Proof.
  intros O args pivot n lnz unz A An rest s HA HS H1 H2 Hs.
  eapply FJ_transaction with (outs := [YMat None; YMat None; YMat None; YArr]); [cbn [map app repeat]; apply fj_factorize; try assumption; reflexivity| | |exact Hs].
  - constructor; [apply is_matrix_ok; exact HA|]. constructor; [apply is_analysis_ok; exact HS|constructor].
  - intros l Hl. inversion Hl as [|? L ? ? K1 Hl1]; subst. inversion Hl1 as [|? U ? ? K2 Hl2]; subst. inversion Hl2 as [|? rhos ? ? K3 Hl3]; subst. inversion Hl3 as [|? pinv ? ? K4 Hl4]; subst. inversion Hl4; subst.
    exists L, U, rhos, pinv. split; [reflexivity|]. split; [eapply mat_matrix; exact K1|]. split; [eapply mat_matrix; exact K2|]. split; [eapply mat_matrix; exact K3|]. exact K4.
Qed.
Theorem C52_solve : forall O args check m nrhs b A L U rhos S pinv rest s,
  Forall is_matrix [b; A; L; U; rhos] -> is_analysis S -> is_array pinv -> heap_is s (owned [b; A; L; U; rhos; S; pinv] ++ rest) ->
  transaction O (SLIP_LU_solve O args check m nrhs) 1 [b; A; L; U; rhos; S; pinv] (fun outs => exists x, outs = [x] /\ is_dense TMPQ x) True rest s.
Proof.
  intros O args check m nrhs b A L U rhos An pinv rest s HM HS Hp Hs.
  eapply FJ_transaction with (outs := [YMat (Some (KDENSE, TMPQ))]); [cbn [map app repeat]; apply fj_solve; reflexivity| | |exact Hs].
  - change [b; A; L; U; rhos; An; pinv] with ([b; A; L; U; rhos] ++ [An; pinv]). apply Forall_app. split; [eapply Forall_impl; [|exact HM]; intros v; apply is_matrix_ok|].
    constructor; [apply is_analysis_ok; exact HS|]. constructor; [apply is_array_ok; exact Hp|constructor].
  - intros l Hl. eapply outs1; [|exact Hl]. apply mat_dense.
Qed.
Theorem C52_backslash : forall O args type order pivot check n nrhs lnz unz A b rest s,
  is_matrix A -> is_matrix b -> n <= Z.max lnz 1 -> n <= Z.max unz 1 -> heap_is s (owned [A; b] ++ rest) ->
  transaction O (SLIP_backslash O args type order pivot check n nrhs lnz unz) 1 [A; b] (fun outs => exists X, outs = [X] /\ is_dense type X) (order <> 2) rest s.
Proof.
  intros O args type order pivot check n nrhs lnz unz A b rest s HA Hb H1 H2 Hs.
  eapply FJ_transaction with (outs := [YMat (Some (KDENSE, type))]); [cbn [map app repeat]; apply fj_backslash; try assumption; try reflexivity; exact (fun x => x)| | |exact Hs].
  - constructor; [apply is_matrix_ok; exact HA|]. constructor; [apply is_matrix_ok; exact Hb|constructor].
  - intros l Hl. eapply outs1; [|exact Hl]. apply mat_dense.
Qed.
(* after the argument checks, what the handles held before does not matter (they are overwritten, not freed) *)
Theorem C52_handles_overwritten : forall O order pivot check type n m nrhs lnz unz A b L U rhos S pinv h h1 h2 h3 s,
  SLIP_LU_analyze O None order [h; A] s = SLIP_LU_analyze O None order [Nil; A] s /\
  SLIP_LU_factorize O None pivot n lnz unz [h; h1; h2; h3; A; S] s = SLIP_LU_factorize O None pivot n lnz unz [Nil; Nil; Nil; Nil; A; S] s /\
  SLIP_LU_solve O None check m nrhs [h; b; A; L; U; rhos; S; pinv] s = SLIP_LU_solve O None check m nrhs [Nil; b; A; L; U; rhos; S; pinv] s /\
  SLIP_backslash O None type order pivot check n nrhs lnz unz [h; A; b] s = SLIP_backslash O None type order pivot check n nrhs lnz unz [Nil; A; b] s.
Proof. intros. repeat split. Qed.

(*----------------------------------------------------------------------------*)
(* C53: if memory runs out (nfail changes), an error is returned, every handle is NULL, the arguments are unchanged and, unless GMP gave
   up a block, the heap holds exactly the blocks it held before *)
Definition clean_failure (O : orc) (F : fn) (nh : nat) (ins : list obj) (s : rst) : Prop :=
  exists r l s', F (repeat Nil nh ++ ins) s = Fin r l s' /\
    (nfail s' <> nfail s -> r <> None /\ l = repeat Nil nh ++ ins /\ (tidy_gmp O -> Permutation (live s') (live s))).
Lemma transaction_clean O F nh ins P (sure : Prop) rest s : heap_is s (owned ins ++ rest) -> sure -> transaction O F nh ins P sure rest s -> clean_failure O F nh ins s.
Proof.
  intros Hs Hsure (r & outs & s' & E & Hh & Hl & Hr). exists r, (outs ++ ins), s'. split; [exact E|]. intros HN. destruct r as [e|]; [|destruct Hr as [_ Hr]; specialize (Hr Hsure); congruence].
  split; [discriminate|]. subst outs. split; [reflexivity|]. intros HT. specialize (Hl HT). destruct Hs as (_ & _ & _ & Hs), Hh as (_ & _ & _ & Hh). rewrite owned_nil in Hh. rewrite Hl in Hh. cbn [app] in Hh. eapply Permutation_trans; [exact Hh|]. apply Permutation_sym. exact Hs.
Qed.
Theorem C53_allocate : forall O kind type m n nzmax shallow init rest s, heap_is s rest ->
  clean_failure O (SLIP_matrix_allocate O kind type m n nzmax shallow init) 1 [] s.
Proof. intros. eapply transaction_clean; [| |apply C46_allocate_memory; exact H]; [exact H|exact I]. Qed.
Theorem C53_analyze : forall O args order A rest s, is_matrix A -> order <> 2 -> heap_is s (owned [A] ++ rest) ->
  clean_failure O (SLIP_LU_analyze O args order) 1 [A] s.
Proof. intros. eapply transaction_clean; [| |apply C52_analyze; [|exact H1]]; assumption. Qed.
Theorem C53_factorize : forall O args pivot n lnz unz A S rest s,
  is_matrix A -> is_analysis S -> n <= Z.max lnz 1 -> n <= Z.max unz 1 -> heap_is s (owned [A; S] ++ rest) ->
  clean_failure O (SLIP_LU_factorize O args pivot n lnz unz) 4 [A; S] s.
Proof. intros. eapply transaction_clean; [| |apply C52_factorize; [| | | |exact H3]]; try assumption. exact I. Qed.
Theorem C53_solve : forall O args check m nrhs b A L U rhos S pinv rest s,
  Forall is_matrix [b; A; L; U; rhos] -> is_analysis S -> is_array pinv -> heap_is s (owned [b; A; L; U; rhos; S; pinv] ++ rest) ->
  clean_failure O (SLIP_LU_solve O args check m nrhs) 1 [b; A; L; U; rhos; S; pinv] s.
Proof. intros. eapply transaction_clean; [| |apply C52_solve; [| | |exact H2]]; try assumption. exact I. Qed.
Theorem C53_backslash : forall O args type order pivot check n nrhs lnz unz A b rest s,
  is_matrix A -> is_matrix b -> order <> 2 -> n <= Z.max lnz 1 -> n <= Z.max unz 1 -> heap_is s (owned [A; b] ++ rest) ->
  clean_failure O (SLIP_backslash O args type order pivot check n nrhs lnz unz) 1 [A; b] s.
Proof. intros. eapply transaction_clean; [| |apply C52_backslash; [| | | |exact H4]]; assumption. Qed.

(* objects for examples: A is a 1-by-1 CSC matrix, b a 1-by-1 dense one, both mpz *)
Definition exA : obj := Mat (mkR 1 2 3 0 4 [[5]] [6; 7] false KCSC TMPZ 1 1 1).
Definition exb : obj := Mat (mkR 8 0 0 0 9 [[10]] [-1; -1] false KDENSE TMPZ 1 1 1).
Definition exS : obj := Ana 11 12.
Definition ex_heap : rst := mkRS [12; 11; 10; 9; 8; 7; 6; 5; 4; 3; 2; 1] 13 0 0 [].
Ltac okm := eexists; split; [reflexivity|]; unfold matrix_ok, written; cbn; repeat match goal with |- _ /\ _ => split | |- _ -> _ => intros _ end; repeat first [apply Forall_nil | apply Forall_cons | lia].
Lemma ex_A : is_matrix exA. Proof. okm. Qed.
Lemma ex_b : is_matrix exb. Proof. okm. Qed.
Lemma ex_S : is_analysis exS. Proof. exists 11, 12. repeat split; lia. Qed.
Lemma ex_heap_is L : Permutation (live ex_heap) L -> heap_is ex_heap L.
Proof.
  intros H. split; [|split; [|split; [reflexivity|]]].
  - cbn. repeat (constructor; [cbn; lia|]). constructor.
  - intros p Hp. cbn in Hp. cbn [nxt ex_heap]. lia.
  - cbn [lost ex_heap]. rewrite app_nil_r. exact H.
Qed.
Example ex_heap_bs : heap_is ex_heap (owned [exA; exb] ++ [11; 12]).
Proof. apply ex_heap_is. cbn. apply NoDup_Permutation; [repeat (constructor; [cbn; lia|]); constructor|repeat (constructor; [cbn; lia|]); constructor|]. intros x. cbn. tauto. Qed.
Example ex_heap_fac : heap_is ex_heap (owned [exA; exS] ++ [8; 9; 10]).
Proof. apply ex_heap_is. cbn. apply NoDup_Permutation; [repeat (constructor; [cbn; lia|]); constructor|repeat (constructor; [cbn; lia|]); constructor|]. intros x. cbn. tauto. Qed.
(* both outcomes occur: success, and exhaustion half way *)
Example ex_backslash_ok : exists X s', SLIP_backslash (granted [] 1 (fun _ => 0)) None TMPQ 1 3 true 1 1 10 10 [Nil; exA; exb] ex_heap = Fin None [X; exA; exb] s' /\ nfail s' = 0%nat /\ blocks X <> [].
Proof. eexists _, _. split; [vm_compute; reflexivity|]. split; [reflexivity|vm_compute; discriminate]. Qed.
Example ex_backslash_oom : exists s', SLIP_backslash (granted [97%nat] 1 (fun _ => 0)) None TMPQ 1 3 true 1 1 10 10 [Nil; exA; exb] ex_heap = Fin (Some SLIP_OUT_OF_MEMORY) [Nil; exA; exb] s' /\ nfail s' = 1%nat /\ live s' = live ex_heap /\ nxt s' <> nxt ex_heap.
Proof. eexists. split; [vm_compute; reflexivity|]. split; [reflexivity|]. split; [reflexivity|vm_compute; discriminate]. Qed.
Example ex_factorize_ok : exists L U rhos pinv s', SLIP_LU_factorize (granted [] 1 (fun _ => 0)) None 3 1 10 10 [Nil; Nil; Nil; Nil; exA; exS] ex_heap = Fin None [L; U; rhos; pinv; exA; exS] s' /\ nfail s' = 0%nat.
Proof. eexists _, _, _, _, _. split; [vm_compute; reflexivity|reflexivity]. Qed.

(* exceptions.  GMP gives up a block when it runs out of memory after having detached it from its object (C48_detached_leak_refuted);
   then the error return leaks that block: here 13 blocks are left, of which no object knows the last *)
Theorem C53_detached_leak_refuted : exists O s', heap_is ex_heap (owned [exA; exb] ++ [11; 12]) /\
  SLIP_backslash O None TMPQ 1 3 true 1 1 10 10 [Nil; exA; exb] ex_heap = Fin (Some SLIP_OUT_OF_MEMORY) [Nil; exA; exb] s' /\
  length (live ex_heap) = 12%nat /\ length (live s') = 13%nat.
Proof.
  exists (mkOrc (fun _ => true) (fun _ => true) (fun c => negb (Nat.eqb c 97)) (fun _ j => if j =? 0 then 2 else 1) (fun _ => 0)). eexists. split; [exact ex_heap_bs|]. split; [vm_compute; reflexivity|]. split; reflexivity.
Qed.
(* AMD on an unsorted matrix: all five blocks are granted; the last one is refused *)
Example ex_amd_order : exists s' s'', AMD_order (granted [] 1 (fun c => if Nat.eqb c 0 then 0 else 1)) [exA] ex_heap = Fin None [exA] s' /\ nfail s' = 0%nat /\ live s' = live ex_heap /\
  AMD_order (granted [7%nat] 1 (fun c => if Nat.eqb c 0 then 0 else 1)) [exA] ex_heap = Fin (Some SLIP_OUT_OF_MEMORY) [exA] s'' /\ nfail s'' = 1%nat /\ live s'' = live ex_heap.
Proof. eexists _, _. split; [vm_compute; reflexivity|]. split; [reflexivity|]. split; [reflexivity|]. split; [vm_compute; reflexivity|]. split; reflexivity. Qed.
(* with SLIP_AMD exhaustion is not noticed: SLIP_OK is returned although the ordering was not computed *)
Theorem C53_amd_refuted : exists O S s', heap_is ex_heap (owned [exA; exb] ++ [11; 12]) /\
  SLIP_LU_analyze O None 2 [Nil; exA] ex_heap = Fin None [S; exA] s' /\ nfail ex_heap = 0%nat /\ nfail s' = 1%nat.
Proof.
  exists (granted [3%nat] 1 (fun _ => 0)). eexists _, _. split; [exact ex_heap_bs|]. split; [vm_compute; reflexivity|]. split; reflexivity.
Qed.
(* exhaustion may be reported as SLIP_INCORRECT_INPUT *)
Theorem C53_code_refuted : exists O s',
  SLIP_backslash O None TMPQ 1 3 true 1 1 10 10 [Nil; exA; exb] ex_heap = Fin (Some SLIP_INCORRECT_INPUT) [Nil; exA; exb] s' /\ nfail ex_heap = 0%nat /\ nfail s' = 1%nat.
Proof. exists (granted [100%nat] 1 (fun _ => 0)). eexists. split; [vm_compute; reflexivity|]. split; reflexivity. Qed.

(*----------------------------------------------------------------------------*)
(* C60: SLIP_matrix_free frees each block that the matrix owns exactly once (it was live, it is not any more) and no other block, and sets
   the handle to NULL; a second call does nothing.  The arrays of a shallow matrix are not freed *)
Theorem C60_matrix_free : forall v A f rest s,
  nth v f Nil = Mat A -> matrix_ok A -> heap_is s (blocks (Mat A) ++ rest) ->
  exists s', matrix_free v f s = Next tt (upd f v Nil) s' /\ heap_is s' rest /\ lost s' = lost s /\
    matrix_free v (upd f v Nil) s' = Next tt (upd f v Nil) s'.
Proof.
  intros v A f rest s E HA Hs. set (O := granted [] 1 (fun _ => 0)).
  assert (HT : tidy O) by (intros c j; cbn; lia).
  destruct (mat_free_ok O (lost s) v A (fun q => count_occ Z.eq_dec rest q) f s E (proj1 (ok_anym _ HA))) as (s' & E' & H1 & H2).
  { eapply heap_hown; [|exact Hs]. intros q. rewrite count_occ_app, cnt_blocks. reflexivity. }
  exists s'. split; [exact E'|]. destruct (hown_heap O (lost s) s' _ rest (fun q => eq_refl) H1) as [G1 G2]. split; [exact G1|]. split; [apply G2; exact HT|].
  assert (EN : nth v (upd f v Nil) Nil = Nil).
  { assert (Hl : (v < length f)%nat) by (destruct (Nat.lt_ge_cases v (length f)) as [|X]; [assumption|rewrite nth_overflow in E by exact X; discriminate]).
    erewrite nth_error_nth; [|apply nth_error_upd_eq; exact Hl]. reflexivity. }
  unfold matrix_free, getv, bind. rewrite EN. reflexivity.
Qed.
(* the destructor of SLIP_LU_analysis *)
Theorem C60_analysis_free : forall v h q f rest s,
  nth v f Nil = Ana h q -> 0 < h -> 0 < q -> heap_is s (blocks (Ana h q) ++ rest) ->
  exists s', analysis_free v f s = Next tt (upd f v Nil) s' /\ heap_is s' rest /\ lost s' = lost s.
Proof.
  intros v h q f rest s E Hh Hq Hs. set (O := granted [] 1 (fun _ => 0)). assert (HT : tidy O) by (intros c j; cbn; lia).
  assert (Hs' : hown O (lost s) (fun p => (lc p [q] + (lc p [h] + count_occ Z.eq_dec rest p))%nat) s).
  { eapply heap_hown; [|exact Hs]. intros p. rewrite count_occ_app, cnt_blocks. cbn [oc lc]. lia. }
  destruct (free_ok O (lost s) _ q f s ltac:(lia) Hs') as (s1 & E1 & H1 & _). destruct (free_ok O (lost s) _ h f s1 ltac:(lia) H1) as (s2 & E2 & H2 & _).
  exists s2. unfold analysis_free, getv, bind. rewrite E, E1, E2. split; [reflexivity|]. destruct (hown_heap O (lost s) s2 _ rest (fun q => eq_refl) H2) as [G1 G2]. split; [exact G1|apply G2; exact HT].
Qed.
Example ex_free : exists s', matrix_free 1 [exS; exA] ex_heap = Next tt [exS; Nil] s' /\ live s' = [12; 11; 10; 9; 8].
Proof. eexists. split; vm_compute; reflexivity. Qed.
(* a shallow matrix with the arrays of exA: they survive *)
Example ex_free_shallow : exists s', matrix_free 0 [Mat (mkR 11 2 3 0 4 [[5]] [12; -1] true KCSC TMPZ 1 1 1)] ex_heap = Next tt [Nil] s' /\ live s' = [10; 9; 8; 7; 6; 5; 4; 3; 2; 1].
Proof. eexists. split; vm_compute; reflexivity. Qed.

(*----------------------------------------------------------------------------*)
(* C61: SLIP_matrix_copy is a transaction, for every pair of kinds and types.  SLIP_OK implies that memory did not run out whenever the
   type is changed to anything but mpz from mpfr or double, and the kind is kept or changed from CSC to triplet *)
Definition every_call_checked (ckind ctype akind atype : Z) : Prop :=
  ~ (ctype = TMPZ /\ (atype = TMPFR \/ atype = TDBL)) /\ (ckind = akind \/ ckind = KTRIP /\ akind = KCSC).
Theorem C61_copy : forall O args ckind ctype A rest s,
  KCSC <= ckind <= KDENSE -> KCSC <= r_kind A <= KDENSE -> TMPZ <= r_type A <= TDBL ->
  matrix_ok A -> heap_is s (owned [Mat A] ++ rest) ->
  transaction O (SLIP_matrix_copy O args ckind ctype (r_kind A)) 1 [Mat A]
    (fun outs => exists C, outs = [Mat C] /\ matrix_ok C /\ r_kind C = ckind /\ r_type C = ctype)
    (every_call_checked ckind ctype (r_kind A) (r_type A)) rest s.
Proof.
  intros O args ckind ctype A rest s Hck Hk Ht HA Hs.
  eapply FJ_transaction with (outs := [YMat (Some (okind ckind, ctype))]); [|constructor; [exact HA|constructor]| |exact Hs].
  - cbn [map app repeat]. eapply fj_copy; [apply mty_is with (kt := Some (r_kind A, r_type A)); [exists A; auto|intros B E; injection E as <-; split; reflexivity]|].
    intros [H1 H2]. split.
    + exists (r_kind A), (r_type A). split; [reflexivity|]. unfold checked_copy. apply andb_true_intro. split.
      * unfold unchecked_cast. unfold TMPZ, TMPQ, TMPFR, TINT, TDBL in *. destruct (Z.eqb_spec ctype 0); [|reflexivity]. cbn [andb]. rewrite negb_involutive. destruct (Z.eqb_spec (r_type A) 0), (Z.eqb_spec (r_type A) 1), (Z.eqb_spec (r_type A) 3); try reflexivity. exfalso. apply H1. split; [assumption|lia].
      * unfold KCSC, KTRIP, KDENSE in *. destruct (Z.eqb_spec ckind 0); [apply Z.eqb_eq; lia|]. destruct (Z.eqb_spec ckind 1); [apply negb_true_iff; apply Z.eqb_neq; lia|]. apply Z.eqb_eq. lia.
    + unfold KCSC, KTRIP, KDENSE in *. lia.
  - intros l Hl. eapply outs1 with (P := fun x => exists C, x = Mat C /\ matrix_ok C /\ r_kind C = ckind /\ r_type C = ctype) in Hl.
    + destruct Hl as (x & -> & C & -> & HC). exists C. auto.
    + intros x (C & -> & H1 & H2 & H3). exists C. split; [reflexivity|]. split; [apply full_ok; exact H1|]. split; [|exact H3]. rewrite H2. unfold okind, KCSC, KTRIP, KDENSE in *. destruct (Z.eqb_spec ckind 0); [lia|]. destruct (Z.eqb_spec ckind 1); lia.
Qed.
(* elsewhere the status of SLIP_mpq_set (C->scale, ...) is ignored: SLIP_OK although memory ran out.  Here dense to CSC *)
Theorem C61_silent_exhaustion_refuted : exists O C s', heap_is ex_heap (owned [exA; exb] ++ [11; 12]) /\
  SLIP_matrix_copy O None KCSC TMPZ KDENSE [Nil; exb] ex_heap = Fin None [C; exb] s' /\ nfail ex_heap = 0%nat /\ nfail s' = 1%nat.
Proof.
  exists (granted [21%nat] 1 (fun _ => 0)). eexists _, _. split; [exact ex_heap_bs|]. split; [vm_compute; reflexivity|]. split; reflexivity.
Qed.

(*----------------------------------------------------------------------------*)
(* C62: a program that uses the library in any order never frees a block twice, never uses a freed block, and at any time the heap
   consists of exactly the blocks of its objects; when it has freed all its objects, the heap is as it was before *)
Theorem C62_history : forall O l s0,
  heap_is s0 [] -> proper_run O l [] s0 ->
  exists f s, run O l [] s0 = Next tt f s /\ heap_is s (owned f) /\ Forall (null_or object_ok) f /\
    (tidy_gmp O -> lost s = lost s0) /\
    (f = repeat Nil (length f) -> Permutation (live s) (lost s) /\ (tidy_gmp O -> lost s0 = [] -> live s = [])).
Proof.
  intros O l s0 Hs HP. destruct (inv_run O (lost s0) (fun _ => 0%nat) l [] s0 HP) as (f & s & E & HI & HF).
  { split; [|constructor]. eapply heap_hown; [|exact Hs]. reflexivity. }
  exists f, s. split; [exact E|]. destruct (hown_heap O (lost s0) s _ (owned f) (fun q => eq_trans (cnt_owned f q) (plus_n_O _)) HI) as [G1 G2].
  split; [exact G1|]. split; [exact HF|]. split; [exact G2|]. intros EN. rewrite EN, owned_nil in G1. destruct G1 as (_ & _ & _ & G1). split; [exact G1|].
  intros HT E0. rewrite (G2 HT), E0 in G1. apply Permutation_sym in G1. apply Permutation_nil in G1. exact G1.
Qed.
(* a program that solves a system twice, with exhaustion in between *)
Definition ex_program : list act :=
  [New KCSC TMPZ 1 1 1 false true; New KDENSE TMPZ 1 1 1 false true; Analyze None 1 0; Factorize None 3 1 10 10 0 2;
   Solve None true 1 1 1 0 3 4 5 2 6; Backslash None TDBL 1 3 false 1 1 10 10 0 1;
   FreeMatrix 0; FreeMatrix 1; FreeAnalysis 2; FreeMatrix 3; FreeMatrix 4; FreeMatrix 5; FreeArray 6; FreeMatrix 7; FreeMatrix 8].

Definition matrixb (x : obj) : bool :=
  match x with
  | Mat A => (0 <? r_hdr A) && forallb (Z.leb (-1)) (r_scale A) &&
      (r_shallow A || ((0 <=? r_p A) && (0 <=? r_i A) && (0 <=? r_j A) && (0 <? r_x A) &&
       forallb (forallb (Z.leb (-1))) (firstn (Z.to_nat (r_nzmax A)) (r_ent A)) && forallb (forallb (fun p => p <=? 0)) (skipn (Z.to_nat (r_nzmax A)) (r_ent A))))
  | _ => false
  end.
Lemma forallb_Forall {A} (p : A -> bool) (P : A -> Prop) l : (forall x, p x = true -> P x) -> forallb p l = true -> Forall P l.
Proof. intros H. induction l; cbn; intros E; constructor; apply andb_prop in E; destruct E; auto. Qed.
Lemma matrixb_ok x : matrixb x = true -> is_matrix x.
Proof.
  destruct x; try discriminate. cbn [matrixb]. intros E. exists A. split; [reflexivity|]. apply andb_prop in E. destruct E as [E E3]. apply andb_prop in E. destruct E as [E1 E2].
  split; [lia|]. split; [eapply forallb_Forall; [|exact E2]; unfold written; intros; lia|]. intros ES. rewrite ES in E3. cbn [orb] in E3.
  repeat (apply andb_prop in E3; destruct E3 as [E3 ?]). repeat split; try lia.
  - eapply forallb_Forall; [|exact H0]. intros l Hl. eapply forallb_Forall; [|exact Hl]. unfold written. intros; lia.
  - eapply forallb_Forall; [|exact H]. intros l Hl. eapply forallb_Forall; [|exact Hl]. cbv beta. intros; lia.
Qed.
Ltac solve_proper := cbn [proper nth]; unfold passed; intros;
  repeat match goal with
  | |- True => exact I
  | |- _ /\ _ => split
  | |- null_or is_matrix _ => right
  | |- null_or _ _ => right
  | |- is_matrix _ => apply matrixb_ok; vm_compute; reflexivity
  | |- is_analysis _ => eexists _, _; split; [reflexivity|split; reflexivity]
  | |- is_array _ => eexists; split; reflexivity
  | |- Forall _ _ => constructor
  | |- NoDup _ => repeat (constructor; [cbn; intuition discriminate|]); constructor
  | |- _ <= _ => lia
  | |- _ <> _ => discriminate
  end.
Ltac run_proper := repeat match goal with
  | |- proper_run _ (_ :: _) _ _ => cbn [proper_run]
  | |- True => exact I
  | |- proper _ _ /\ _ => split; [solve_proper|]
  | |- match step ?O ?a ?f ?s with _ => _ end => let r := eval vm_compute in (step O a f s) in replace (step O a f s) with r by (vm_compute; reflexivity); cbv iota beta
  end.
Example ex_program_proper : proper_run (granted [] 1 (fun _ => 0)) ex_program [] empty.
Proof. unfold ex_program. run_proper. Qed.
Example ex_program_run : exists s, run (granted [] 1 (fun _ => 0)) ex_program [] empty = Next tt (repeat Nil 9) s /\ live s = [] /\ 100 < nxt s.
Proof. eexists. split; [vm_compute; reflexivity|]. split; [reflexivity|reflexivity]. Qed.
