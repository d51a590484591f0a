(* C47-C50: library state, GMP memory failures, reallocation *)
From Verif Require Import Base MFactor MSolve MMatrix MApi ApiSpec.
From Verif Require Import MMem MemSpec PMem PMem2 PMem3.
Set Bullet Behavior "Strict Subproofs".
Open Scope Z_scope.

(*============================================================================*)
(* C47.  A history of calls by the user; each driver is given the library state of the moment it is called in. *)
Inductive api :=
  | AInit | AExpert (funs : Z) | AFinalize (caches : list Z)
  | AMalloc (size : Z) | ACalloc (n size : Z) | ARealloc (nnew nold size p : Z) | AFree (p : Z)
  | ANnz (A : option matrix) | ACheck (A : option matrix)
  | ACopy (o : option options) (addr : Z -> Z) (handle : bool) (kind type : Z) (A : option matrix)
  | AAnalyze (ol : ordlib) (handle : bool) (A : option matrix) (o : option options)
  | AFactorize (g : gmp_env) (handles : bool) (A : option matrix) (An : option analysis) (o : option options)
  | ASolve (handle : bool) (b A L U rhos : option matrix) (An : option analysis) (pinv : option (list Z)) (o : option options)
  | ABackslash (g : gmp_env) (ol : ordlib) (addr : Z -> Z) (handle : bool) (type : Z) (A b : option matrix) (o : option options).
Inductive answer :=
  | Info (i : option info) | Ptr (p : Z) | PtrOk (p : Z) (ok : bool) | Void | Count (r : res Z) | Checked (r : res unit) | Copied (r : res matrix)
  | Analyzed (r : MApi.ret analysis) | Factorized (r : MApi.ret lu) | Solved (r : MApi.ret matrix).

Definition answer_of {A} (f : A -> answer) (o : out A) : option (answer * st) :=
  match o with Ret a s => Some (f a, s) | _ => None end.
(* one call in state s: its answer and the new state; None if its behaviour is undefined (e.g. freeing an invalid pointer) *)
Definition api_step (E : MMem.env) (a : api) (s : st) : option (answer * st) :=
  match a with
  | AInit => answer_of Info (SLIP_initialize s)
  | AExpert f => answer_of Info (SLIP_initialize_expert f s)
  | AFinalize caches => answer_of Info (SLIP_finalize E caches s)
  | AMalloc size => answer_of Ptr (SLIP_malloc E size s)
  | ACalloc n size => answer_of Ptr (SLIP_calloc E n size s)
  | ARealloc nnew nold size p => answer_of (fun r => PtrOk (fst r) (snd r)) (SLIP_realloc E nnew nold size p s)
  | AFree p => answer_of (fun _ => Void) (SLIP_free p s)
  | ANnz A => Some (Count (matrix_nnz (s_inited s) A), s)
  | ACheck A => Some (Checked (matrix_check (s_inited s) A), s)
  | ACopy o addr h k t A => Some (Copied (matrix_copy o addr (s_inited s) h k t A), s)
  | AAnalyze ol h A o => Some (Analyzed (SLIP_LU_analyze ol (s_inited s) h A o), s)
  | AFactorize g h A An o => Some (Factorized (SLIP_LU_factorize g (s_inited s) h A An o), s)
  | ASolve h b A L U r An p o => Some (Solved (SLIP_LU_solve (s_inited s) h b A L U r An p o), s)
  | ABackslash g ol addr h t A b o => Some (Solved (SLIP_backslash g ol addr (s_inited s) h t A b o), s)
  end.
Fixpoint api_run (E : MMem.env) (h : list api) (s : st) : option st :=
  match h with
  | [] => Some s
  | a :: h => match api_step E a s with Some (_, s') => api_run E h s' | None => None end
  end.

(* the specification: is the library open after a history? *)
Fixpoint opened (o : bool) (h : list api) : bool :=
  match h with
  | [] => o
  | (AInit | AExpert _) :: h => opened true h
  | AFinalize _ :: h => opened false h
  | _ :: h => opened o h
  end.
(* what a call outside an initialize/finalize bracket answers; none of them changes anything *)
Definition refusal (a : api) : option answer :=
  match a with
  | AInit | AExpert _ => None
  | AFinalize _ => Some (Info (Some SLIP_PANIC))
  | AMalloc _ | ACalloc _ _ => Some (Ptr 0)
  | ARealloc _ _ _ p => Some (PtrOk p false)
  | AFree _ => Some Void
  | ANnz _ => Some (Count (Ok (-1)))
  | ACheck _ => Some (Checked (Err SLIP_PANIC))
  | ACopy _ _ _ _ _ _ => Some (Copied (Err SLIP_PANIC))
  | AAnalyze _ _ _ _ => Some (Analyzed (Ok (SErr SLIP_PANIC, Kept)))
  | AFactorize _ _ _ _ _ => Some (Factorized (Ok (SErr SLIP_PANIC, Kept)))
  | ASolve _ _ _ _ _ _ _ _ _ => Some (Solved (Ok (SErr SLIP_PANIC, Kept)))
  | ABackslash _ _ _ _ _ _ _ _ => Some (Solved (Ok (SErr SLIP_PANIC, Kept)))
  end.

Lemma alloc_inited E size init s a s' : alloc_func E size init s = Ret a s' -> s_inited s' = s_inited s.
Proof. unfold alloc_func. destruct (_ || _); intros H; injection H as <- <-; reflexivity. Qed.
Lemma malloc_inited E n size s a s' : SuiteSparse_malloc E n size s = Ret a s' -> s_inited s' = s_inited s.
Proof.
  unfold SuiteSparse_malloc, MMem.ret. destruct (negb (size_ok _ _)); [intros H; injection H as <- <-; reflexivity|].
  unfold malloc_func. apply alloc_inited.
Qed.
Lemma free_inited p s a s' : SuiteSparse_free p s = Ret a s' -> s_inited s' = s_inited s.
Proof.
  unfold SuiteSparse_free, MMem.ret, free_func. destruct (p =? 0); [intros H; injection H as <- <-; reflexivity|].
  destruct (s_heap s p); [|discriminate]. intros H; injection H as <- <-; reflexivity.
Qed.
Lemma realloc_inited E a b c p s r s' : SuiteSparse_realloc E a b c p s = Ret r s' -> s_inited s' = s_inited s.
Proof.
  unfold SuiteSparse_realloc, MMem.ret, mbind. destruct (negb (size_ok _ _)); [intros H; injection H as <- <-; reflexivity|].
  destruct (p =? 0).
  - destruct (SuiteSparse_malloc _ _ _ _) eqn:Hm; try discriminate. intros H; injection H as <- <-. eapply malloc_inited; eassumption.
  - destruct (_ =? _); [intros H; injection H as <- <-; reflexivity|].
    unfold realloc_func. destruct (s_heap s p); [|discriminate]. 
    destruct (_ =? p); [|destruct (_ || _)]; cbv beta iota zeta.
    + destruct (p =? 0); [destruct (_ <? _)|]; intros H; injection H as <- <-; reflexivity.
    + cbn [Z.eqb]. destruct (_ <? _); intros H; injection H as <- <-; reflexivity.
    + destruct (_ =? 0); [destruct (_ <? _)|]; intros H; injection H as <- <-; reflexivity.
Qed.

Lemma api_step_state E a s ans s' : api_step E a s = Some (ans, s') -> s_inited s' = opened (s_inited s) [a].
Proof.
  destruct a; cbn [api_step opened]; try (intros H; injection H as <- <-; reflexivity).
  - unfold SLIP_initialize, mbind, getst, MMem.ret, modst. destruct (s_inited s) eqn:Hi; cbn; intros H; injection H as <- <-; simpl; auto.
  - unfold SLIP_initialize_expert, SLIP_initialize, mbind, getst, MMem.ret, modst. destruct (s_inited s) eqn:Hi; cbn.
    + intros H; injection H as <- <-; assumption.
    + rewrite Hi. cbn. intros H; injection H as <- <-; reflexivity.
  - unfold SLIP_finalize, mbind, getst, MMem.ret, modst. destruct (s_inited s) eqn:Hi; cbn [negb].
    + destruct (wrapper _ _ _ _ _); try discriminate. destruct (slip_gmp_finalize _); try discriminate. cbn. intros H; injection H as <- <-; reflexivity.
    + cbn. intros H; injection H as <- <-; assumption.
  - unfold SLIP_malloc, mbind, getst, MMem.ret. destruct (negb (s_inited s)); [cbn; intros H; injection H as <- <-; reflexivity|].
    destruct (SuiteSparse_malloc _ _ _ _) eqn:Hm; try discriminate. cbn. intros H; injection H as <- <-. eapply malloc_inited; eassumption.
  - unfold SLIP_calloc, mbind, getst, MMem.ret. destruct (negb (s_inited s)); [cbn; intros H; injection H as <- <-; reflexivity|].
    unfold SuiteSparse_calloc, MMem.ret, calloc_func. destruct (negb (size_ok _ _)); [cbn; intros H; injection H as <- <-; reflexivity|].
    destruct (alloc_func _ _ _ _) eqn:Hm; try discriminate. cbn. intros H; injection H as <- <-. eapply alloc_inited; eassumption.
  - unfold SLIP_realloc, mbind, getst, MMem.ret. destruct (negb (s_inited s)); [cbn; intros H; injection H as <- <-; reflexivity|].
    destruct (SuiteSparse_realloc _ _ _ _ _ _) eqn:Hm; try discriminate. cbn. intros H; injection H as <- <-. eapply realloc_inited; eassumption.
  - unfold SLIP_free, mbind, getst, MMem.ret. destruct (negb (s_inited s)); [cbn; intros H; injection H as <- <-; reflexivity|].
    destruct (SuiteSparse_free _ _) eqn:Hm; try discriminate. cbn. intros H; injection H as <- <-. eapply free_inited; eassumption.
Qed.
Lemma opened_app o h h' : opened o (h ++ h') = opened (opened o h) h'.
Proof. revert o. induction h as [|a h IH]; intros o1; [reflexivity|]. destruct a; cbn [app opened]; apply IH. Qed.
Lemma opened_cons o a h : opened o (a :: h) = opened (opened o [a]) h.
Proof. apply (opened_app o [a] h). Qed.
Lemma api_run_state E h : forall s s', api_run E h s = Some s' -> s_inited s' = opened (s_inited s) h.
Proof.
  induction h as [|a h IH]; intros s s'; cbn [api_run]; [intros H; injection H as <-; reflexivity|].
  destruct (api_step E a s) as [[ans s1]|] eqn:Ha; [|discriminate]. intros H. apply IH in H. rewrite H, opened_cons. f_equal.
  eapply api_step_state; eassumption.
Qed.

(* C47: after any history h of calls by a program that starts with the library closed,
   - whether the library is open is a function of the initialize and finalize calls made;
   - when it is open, initialize and initialize_expert answer SLIP_PANIC and change nothing; finalize closes it and answers SLIP_OK;
   - when it is closed, initialize and initialize_expert open it and answer SLIP_OK; every other routine answers SLIP_PANIC (or NULL, -1,
     or does nothing) and changes nothing. *)
Theorem C47_state_machine E h s0 s : s_inited s0 = false -> api_run E h s0 = Some s ->
  s_inited s = opened false h /\
  (opened false h = true ->
     api_step E AInit s = Some (Info (Some SLIP_PANIC), s) /\ (forall f, api_step E (AExpert f) s = Some (Info (Some SLIP_PANIC), s)) /\
     (forall caches ans s', api_step E (AFinalize caches) s = Some (ans, s') -> ans = Info None /\ s_inited s' = false)) /\
  (opened false h = false ->
     (exists s', api_step E AInit s = Some (Info None, s') /\ s_inited s' = true /\ s_funs s' = s_funs s) /\
     (forall f, exists s', api_step E (AExpert f) s = Some (Info None, s') /\ s_inited s' = true /\ s_funs s' = f) /\
     (forall a ans, refusal a = Some ans -> api_step E a s = Some (ans, s))).
Proof.
  intros H0 HR. apply api_run_state in HR. rewrite H0 in HR. split; [assumption|]. split; intros Ho; rewrite Ho in HR.
  - split; [|split].
    + cbn [api_step]. unfold SLIP_initialize, mbind, getst, MMem.ret. rewrite HR. reflexivity.
    + intros f. cbn [api_step]. unfold SLIP_initialize_expert, mbind, getst, MMem.ret. rewrite HR. reflexivity.
    + intros caches ans s'. intros H. pose proof (api_step_state _ _ _ _ _ H) as Hs. cbn [opened] in Hs. split; [|assumption].
      cbn [api_step] in H. unfold SLIP_finalize, mbind, getst, MMem.ret, modst in H. rewrite HR in H. cbn [negb] in H.
      destruct (wrapper _ _ _ _ _); try discriminate. destruct (slip_gmp_finalize _); try discriminate. cbn in H. injection H as <- <-. reflexivity.
  - split; [|split].
    + cbn [api_step]. unfold SLIP_initialize, mbind, getst, MMem.ret, modst. rewrite HR. cbn. eexists. split; [reflexivity|]. split; reflexivity.
    + intros f. cbn [api_step]. unfold SLIP_initialize_expert, SLIP_initialize, mbind, getst, MMem.ret, modst. rewrite HR. cbn. rewrite HR. cbn.
      eexists. split; [reflexivity|]. split; reflexivity.
    + intros a ans. destruct a; cbn [refusal]; intros Ha; try discriminate; injection Ha as <-; cbn [api_step];
        unfold SLIP_finalize, SLIP_malloc, SLIP_calloc, SLIP_realloc, SLIP_free, mbind, getst, MMem.ret, matrix_nnz, matrix_check, matrix_copy,
          SLIP_LU_analyze, SLIP_LU_factorize, SLIP_LU_solve, SLIP_backslash; rewrite HR; reflexivity.
Qed.

(* no routine but SLIP_initialize_expert changes the memory functions in use *)
Definition keeps {A} (m : M A) : Prop := forall s, match m s with Ret _ s' | Jump _ s' => s_funs s' = s_funs s | Undef => True end.
Lemma keeps_ret {A} (a : A) : keeps (MMem.ret a). Proof. intros s. reflexivity. Qed.
Lemma keeps_jump {A} c : keeps (@longjmp A c). Proof. intros s. reflexivity. Qed.
Lemma keeps_get : keeps getst. Proof. intros s. reflexivity. Qed.
Lemma keeps_mod f : (forall s, s_funs (f s) = s_funs s) -> keeps (modst f). Proof. intros H s. apply H. Qed.
Lemma keeps_bind {A B} (m : M A) (k : A -> M B) : keeps m -> (forall a, keeps (k a)) -> keeps (mbind m k).
Proof. intros H1 H2 s. unfold mbind. specialize (H1 s). destruct (m s) as [a s1|c s1|]; [|exact H1|exact I]. specialize (H2 a s1). destruct (k a s1); congruence. Qed.
Lemma keeps_load p o : keeps (load p o).
Proof. intros s. unfold load. destruct (s_heap s p); [|exact I]. destruct (_ && _); [reflexivity|exact I]. Qed.
Lemma keeps_store p o v : keeps (store p o v).
Proof. intros s. unfold store. destruct (s_heap s p); [|exact I]. destruct (_ && _); [reflexivity|exact I]. Qed.
Lemma keeps_free p : keeps (SLIP_free p).
Proof.
  unfold SLIP_free. apply keeps_bind; [apply keeps_get|]. intros s. destruct (negb _); [apply keeps_ret|]. unfold SuiteSparse_free.
  destruct (p =? 0); [apply keeps_ret|]. intros s1. unfold free_func. destruct (s_heap s1 p); [reflexivity|exact I].
Qed.
Lemma keeps_gmp_free p : keeps (slip_gmp_free p).
Proof.
  unfold slip_gmp_free. apply keeps_bind; [apply keeps_get|]. intros s. apply keeps_bind.
  - destruct (_ && _); [|apply keeps_ret]. generalize (Z.to_nat (s_nmalloc s)) as cnt. generalize 0 as i. intros i cnt. revert i.
    induction cnt as [|c IH]; intros i; cbn [remove_entry]; [apply keeps_ret|]. apply keeps_bind; [apply keeps_get|]. intros s1.
    apply keeps_bind; [apply keeps_load|]. intros e. destruct (e =? p); [|apply IH]. apply keeps_bind; [apply keeps_mod; reflexivity|]. intros _.
    apply keeps_bind; [apply keeps_load|]. intros l. apply keeps_store.
  - intros _. unfold safe_free. apply keeps_bind; [apply keeps_mod; reflexivity|]. intros _. apply keeps_free.
Qed.
Lemma keeps_finalize : keeps slip_gmp_finalize.
Proof.
  unfold slip_gmp_finalize. do 3 (apply keeps_bind; [apply keeps_mod; reflexivity|intros _]). apply keeps_bind; [apply keeps_get|]. intros s.
  apply keeps_bind; [apply keeps_free|]. intros _. apply keeps_mod. reflexivity.
Qed.
Lemma keeps_failure caches : keeps (slip_gmp_failure caches).
Proof.
  unfold slip_gmp_failure. apply keeps_bind.
  - induction caches as [|p l IH]; cbn [free_all]; [apply keeps_ret|]. apply keeps_bind; [apply keeps_gmp_free|]. intros _. exact IH.
  - intros _. apply keeps_bind; [apply keeps_get|]. intros s. apply keeps_bind; [|intros _; apply keeps_finalize].
    destruct (_ =? 0); [apply keeps_ret|]. generalize (Z.to_nat (s_nmalloc s)) as cnt. generalize 0 as i. intros i cnt. revert i.
    induction cnt as [|c IH]; intros i; cbn [free_entries]; [apply keeps_ret|]. apply keeps_bind; [apply keeps_get|]. intros s1.
    apply keeps_bind; [apply keeps_load|]. intros q. apply keeps_bind; [|intros _; apply keeps_bind; [apply keeps_store|intros _; apply IH]].
    unfold safe_free. apply keeps_bind; [apply keeps_mod; reflexivity|]. intros _. apply keeps_free.
Qed.
Lemma keeps_frees E l : keeps (do_acts E (map GFree l)).
Proof. induction l as [|p l IH]; cbn [map do_acts]; [apply keeps_ret|]. apply keeps_bind; [apply keeps_gmp_free|]. intros _. exact IH. Qed.

(* the memory functions given to SLIP_initialize_expert outlive SLIP_finalize: a later SLIP_initialize keeps using them *)
Theorem C47_expert_functions_persist : forall E f caches s0 s1 s2 s3,
  s_inited s0 = false -> SLIP_initialize_expert f s0 = Ret None s1 -> SLIP_finalize E caches s1 = Ret None s2 -> SLIP_initialize s2 = Ret None s3 ->
  s_funs s1 = f /\ s_funs s2 = f /\ s_funs s3 = f.
Proof.
  intros E f caches s0 s1 s2 s3 H0 H1 H2 H3.
  assert (F1 : s_funs s1 = f).
  { unfold SLIP_initialize_expert, SLIP_initialize, mbind, getst, MMem.ret, modst in H1. rewrite H0 in H1. cbn in H1. rewrite H0 in H1. cbn in H1.
    injection H1 as <-. reflexivity. }
  assert (F2 : s_funs s2 = s_funs s1).
  { unfold SLIP_finalize, mbind, getst, MMem.ret, modst in H2. destruct (s_inited s1); cbn [negb] in H2; [|discriminate].
    unfold wrapper in H2. pose proof (keeps_frees E caches (set_nmalloc 0 s1)) as K1.
    destruct (do_acts E (map GFree caches) (set_nmalloc 0 s1)) as [u s'|c s'|]; [| |discriminate].
    - pose proof (keeps_finalize (set_nmalloc 0 (set_arch [] s'))) as K2. destruct (slip_gmp_finalize _) as [[] s''|c s''|]; try discriminate.
      injection H2 as <-. cbn in *. congruence.
    - unfold mbind in H2. pose proof (keeps_failure caches s') as K3. destruct (slip_gmp_failure caches s') as [[] s''|c' s''|]; try discriminate.
      cbn [MMem.ret] in H2. unfold MMem.ret in H2. pose proof (keeps_finalize s'') as K2. destruct (slip_gmp_finalize s'') as [[] s4|c4 s4|]; try discriminate.
      injection H2 as <-. cbn in *. congruence. }
  split; [assumption|]. split; [congruence|].
  unfold SLIP_initialize, mbind, getst, MMem.ret, modst in H3. destruct (s_inited s2); [discriminate|]. injection H3 as <-. cbn. congruence.
Qed.

(* GMP objects outlive the library badly: after SLIP_finalize, clearing one frees nothing, and a GMP function that needs memory fails *)
Theorem C47_gmp_after_finalize E s : s_inited s = false -> s_list s = 0 ->
  (forall p, exists s', slip_gmp_free p s = Ret tt s' /\ s_heap s' = s_heap s) /\
  (forall size body arch caches, s_ntrials s <> 0 -> (forall x, caches x = []) ->
     exists s', wrapper E arch (GAlloc size :: body) caches s = Ret (Some SLIP_OUT_OF_MEMORY) s' /\ s_heap s' = s_heap s).
Proof.
  intros Hi Hl. split.
  - intros p. unfold slip_gmp_free, mbind, getst, safe_free, modst, MMem.ret. rewrite Hl. cbn [Z.eqb negb]. rewrite andb_false_r.
    unfold SLIP_free, mbind, getst, MMem.ret. cbn [set_fld s_inited]. rewrite Hi. cbn [negb]. eexists. split; reflexivity.
  - intros size body arch caches Hn Hc. unfold wrapper. set (s1 := set_nmalloc 0 _).
    assert (E1 : s_inited s1 = false) by (destruct arch; assumption). assert (E2 : s_list s1 = 0) by (destruct arch; assumption).
    assert (E3 : s_ntrials s1 = s_ntrials s) by (destruct arch; reflexivity). assert (E4 : s_heap s1 = s_heap s) by (destruct arch; reflexivity).
    clearbody s1. cbn [do_acts do_act]. unfold slip_gmp_allocate, mbind, getst, modst, MMem.ret, longjmp. rewrite E3.
    destruct (Z.eqb_spec (s_ntrials s) 0); [congruence|].
    assert (Hfail : forall s2, s_inited s2 = false -> s_list s2 = 0 -> s_heap s2 = s_heap s -> exists s', slip_gmp_failure (caches s2) s2 = Ret tt s' /\ s_heap s' = s_heap s).
    { intros s2 G1 G2 G3. rewrite Hc. unfold slip_gmp_failure, slip_gmp_finalize, mbind, getst, modst, MMem.ret. cbn [free_all]. unfold MMem.ret.
      rewrite G2. cbn [Z.eqb]. unfold SLIP_free, mbind, getst, MMem.ret. cbn. rewrite G1. cbn. eexists. split; [reflexivity|]. assumption. }
    destruct (0 <? s_ntrials s).
    + cbn [set_ntrials s_list]. rewrite E2. cbn [Z.eqb]. unfold slip_gmp_init, mbind, modst, SLIP_malloc, getst, MMem.ret. cbn. rewrite E1. cbn.
      match goal with |- context [slip_gmp_failure _ ?s2] => destruct (Hfail s2) as (s' & -> & Hh); [assumption|reflexivity|assumption|] end.
      eexists. split; [reflexivity|]. assumption.
    + rewrite E2. cbn [Z.eqb]. unfold slip_gmp_init, mbind, modst, SLIP_malloc, getst, MMem.ret. cbn. rewrite E1. cbn.
      match goal with |- context [slip_gmp_failure _ ?s2] => destruct (Hfail s2) as (s' & -> & Hh); [assumption|reflexivity|assumption|] end.
      eexists. split; [reflexivity|]. assumption.
Qed.

(*============================================================================*)
(* Checkers, for concrete cases *)
Definition userb (s : st) (p : Z) : bool := is_live s p && negb (p =? s_list s).
Definition soundb (s : st) (p : Z) : bool := (p <=? 0) || userb s p.
Definition size_tb (z : Z) : bool := (0 <=? z) && (z <? TWO64).
Definition legalb (s : st) (a : act) : bool :=
  match a with
  | GAlloc size => size_tb size
  | GFree p => (p =? 0) || userb s p
  | GRealloc p o n => size_tb n && (0 <=? o) && ((p =? 0) || (negb (p =? s_list s) && match s_heap s p with Some b => o <=? b_size b | None => false end))
  | GSet f p => soundb s p
  | GWrite p o v => negb (p =? s_list s) && match s_heap s p with Some b => (0 <=? o) && (o + 8 <=? b_size b) | None => false end
  end.
Fixpoint legal_runb (E : MMem.env) (l : list act) (s : st) : bool :=
  match l with
  | [] => true
  | a :: l => legalb s a && match do_act E a s with Ret _ s' => legal_runb E l s' | _ => true end
  end.
Lemma userb_ok s p : userb s p = true -> user_block s p.
Proof.
  unfold userb, is_live. intros H. apply andb_prop in H. destruct H as [H1 H2]. split; [|intros ->; rewrite Z.eqb_refl in H2; discriminate].
  destruct (s_heap s p) as [b|] eqn:Hb; [exists b; exact Hb|discriminate].
Qed.
Lemma soundb_ok s p : soundb s p = true -> sound_pointer s p.
Proof. unfold soundb. intros H. apply orb_prop in H. destruct H as [H|H]; [left; apply Z.leb_le; exact H|right; apply userb_ok; exact H]. Qed.
Lemma size_tb_ok z : size_tb z = true -> size_t z.
Proof. unfold size_tb. intros H. apply andb_prop in H. destruct H. split; [apply Z.leb_le|apply Z.ltb_lt]; assumption. Qed.
Lemma legalb_ok s a : legalb s a = true -> legal s a.
Proof.
  destruct a as [size|p|p o n|f p|p o v]; cbn [legalb legal]; intros H.
  - apply size_tb_ok. exact H.
  - apply orb_prop in H. destruct H as [H|H]; [left; apply Z.eqb_eq; exact H|right; apply userb_ok; exact H].
  - apply andb_prop in H. destruct H as [H H2]. apply andb_prop in H. destruct H as [H0 H1]. split; [apply size_tb_ok; exact H0|].
    split; [apply Z.leb_le; exact H1|]. apply orb_prop in H2. destruct H2 as [H2|H2]; [left; apply Z.eqb_eq; exact H2|right].
    apply andb_prop in H2. destruct H2 as [H2 H3]. split; [intros ->; rewrite Z.eqb_refl in H2; discriminate|].
    destruct (s_heap s p) as [b|]; [|discriminate]. exists b. split; [reflexivity|apply Z.leb_le; exact H3].
  - apply soundb_ok. exact H.
  - apply andb_prop in H. destruct H as [H2 H3]. split; [intros ->; rewrite Z.eqb_refl in H2; discriminate|].
    destruct (s_heap s p) as [b|]; [|discriminate]. apply andb_prop in H3. destruct H3. exists b. split; [reflexivity|].
    split; apply Z.leb_le; assumption.
Qed.
Lemma legal_runb_ok E l : forall s, legal_runb E l s = true -> legal_run E l s.
Proof.
  induction l as [|a l IH]; intros s; cbn [legal_runb legal_run]; [auto|]. intros H. apply andb_prop in H. destruct H as [H1 H2].
  split; [apply legalb_ok; exact H1|]. intros s' Hs. rewrite Hs in H2. apply IH. exact H2.
Qed.

(* an allocator that serves request t at address 2000 + 16 t, except request number bad; the list starts with 2 entries *)
Definition E_ex (bad : nat) : MMem.env := mkE (fun _ t => if Nat.eqb t bad then 0 else 2000 + 16 * Z.of_nat t) (fun _ _ => 0) 2.
(* a program with one mpz_t whose limb pointer (field 100) points to an 8-byte block at 1000 *)
Definition s_ex : st :=
  mkSt (fun p => if p =? 1000 then Some (mkB 0 8 (fun _ => 7)) else None) 1 true 0 0 0 0 (-1) [] (fun f => if f =? 100 then 1000 else 0).
Lemma idle_ex : idle s_ex.
Proof.
  split; [reflexivity|]. split; [|split; [left; reflexivity|reflexivity]].
  intros p b. cbn. destruct (Z.eqb_spec p 1000); [|discriminate]. intros H. injection H as <-. cbn. split; [lia|]. split; [lia|]. reflexivity.
Qed.
Lemma sound_ex : sound_object s_ex [100].
Proof. intros f [<-|[]]. apply soundb_ok. reflexivity. Qed.
Lemma no_caches s : caches_ok s []. Proof. split; [constructor|intros p []]. Qed.

(* C47: histories with both outcomes exist *)
Example C47_example : let s0 := set_inited false s_ex in
  match api_run (E_ex 9) [AInit; AMalloc 8; AInit; AFinalize []; AMalloc 8; AExpert 5] s0 with
  | Some s => s_inited s = true /\ s_funs s = 5 /\ is_live s 2016 = true /\ is_live s 2032 = false | None => False end /\
  match api_run (E_ex 9) [AExpert 5; AFinalize []] s0 with Some s => s_inited s = false | None => False end.
Proof. vm_compute. auto. Qed.

(*============================================================================*)
(* C48.  A wrapped call: any sequence of memory requests, pointer assignments and writes that GMP may make, any allocator. *)
(* GMP is never given a NULL block: its allocation function returns a block of the size asked for, disjoint from every other, or does not return *)
Theorem C48_never_null E size s : 1 <= e_list_init E < 2 ^ 50 -> idle s -> size_t size -> s_nmalloc s = 0 ->
  match slip_gmp_allocate E size s with
  | Ret p s' => 0 < p /\ ~ user_block s p /\ user_block s' p /\ exists b, s_heap s' p = Some b /\ Z.max 1 size = b_size b
  | Jump _ _ => True
  | Undef => False
  end.
Proof.
  intros HE Hid Hs Hn.
  assert (HI : inv (s_time s) (s_heap s) [] (fun _ => None) (fun _ => None) (started None s)).
  { apply (@start_inv None); [assumption|intros f []|discriminate|discriminate]. }
  replace (started None s) with s in HI by (destruct s; cbn in *; subst; reflexivity).
  assert (HFs : forall f, (fun _ : Z => @None Z) f <> None -> ~ In f ([] : list Z)) by congruence.
  pose proof (@allocate_wp E HE (s_time s) (s_heap s) [] (fun _ => None) (fun _ => None) size s HI Hs) as HA.
  destruct (slip_gmp_allocate E size s) as [p s'|c s'|]; cbn [wpM] in HA; [|exact I|exact HA].
  destruct HA as (_ & _ & Hp & Hpl & (b & Hb & Hsz & _) & Hfresh). split; [exact Hp|]. split.
  - intros [[b0 Hb0] Hx]. exact (Hfresh p b0 Hb0 Hx eq_refl).
  - split; [split; [exists b; exact Hb|exact Hpl]|]. exists b. auto.
Qed.

(* Whatever the call does and wherever memory runs out, the wrapper returns with SLIP_OK or SLIP_OUT_OF_MEMORY, never with undefined
   behaviour (no invalid or double free); it returns SLIP_OUT_OF_MEMORY exactly when an allocation failed; in that case no block
   allocated by the call survives, and the registered object has no dangling pointer.  In all cases the library is again between calls. *)
Theorem C48_recovery E arch body caches s : 1 <= e_list_init E < 2 ^ 50 ->
  idle s -> sound_object s (archived arch) -> legal_run E body (started arch s) ->
  (forall c sj, do_acts E body (started arch s) = Jump c sj -> caches_ok sj (caches sj)) ->
  exists r s', wrapper E arch body caches s = Ret r s' /\ idle s' /\ s_nmalloc s' = 0 /\ sound_object s' (archived arch) /\
    (r = None \/ r = Some SLIP_OUT_OF_MEMORY) /\
    (r = Some SLIP_OUT_OF_MEMORY <-> exists c sj, do_acts E body (started arch s) = Jump c sj) /\
    (r = Some SLIP_OUT_OF_MEMORY ->
       s_list s' = 0 /\
       forall p b, s_heap s' p = Some b -> exists b0, s_heap s p = Some b0 /\ b_id b0 = b_id b).
Proof.
  intros HE Hid Ho HL HC. pose proof (@during E HE arch body [] s Hid Ho) as HD. rewrite app_nil_r in HD. specialize (HD HL).
  destruct (@wrapper_spec E HE arch body caches s Hid Ho HL HC) as (r & s' & HW & Hid' & Hn & [[-> (s1 & HB & Hs')]|[-> (c & sj & HB & HA)]]).
  - rewrite HB in HD. cbn [wpM] in HD. exists None, s'. split; [exact HW|]. split; [exact Hid'|]. split; [exact Hn|].
    split; [subst s'; exact (i_obj HD)|]. split; [left; reflexivity|]. split; [|discriminate]. split; [discriminate|]. intros (c & sj & H). congruence.
  - rewrite HB in HD. cbn [wpM] in HD. destruct HA as (H1 & H2 & H3). exists (Some SLIP_OUT_OF_MEMORY), s'. split; [exact HW|]. split; [exact Hid'|].
    split; [exact Hn|]. split; [exact H2|]. split; [right; reflexivity|]. split; [split; [intros _; exists c, sj; exact HB|reflexivity]|]. intros _. split.
    + unfold wrapper in HW. fold (started arch s) in HW. change (set_nmalloc 0 match arch with | Some l => set_arch l s | None => s end) with (started arch s) in HW.
      rewrite HB in HW. pose proof (@failure_wp E HE (s_time s) (s_heap s) (archived arch) (fun _ => None) (fun _ => None)) as HF.
      specialize (HF ltac:(congruence) (caches sj) sj HD (HC c sj HB) ltac:(reflexivity)). unfold mbind in HW.
      destruct (slip_gmp_failure (caches sj) sj) as [[] s2|c2 s2|]; cbn [wpM] in HF; try discriminate. injection HW as <-. apply HF.
    + intros p b Hb. apply H1 in Hb. destruct Hb as (Hb & Hlt & _). destruct (i_old HD p Hb Hlt) as (b0 & Hb0 & Heq). exists b0. auto.
Qed.

(* a block that the call neither frees nor writes, and a limb pointer that it does not assign, are untouched, whatever happens *)
Theorem C48_others_untouched E arch body caches s p f : 1 <= e_list_init E < 2 ^ 50 ->
  idle s -> sound_object s (archived arch) -> legal_run E body (started arch s) ->
  (forall c sj, do_acts E body (started arch s) = Jump c sj -> caches_ok sj (caches sj) /\ ~ In p (caches sj)) ->
  user_block s p -> (forall a, In a body -> ~ names a p) -> ~ In f (archived arch) -> (forall a, In a body -> ~ assigns a f) ->
  forall r s', wrapper E arch body caches s = Ret r s' -> s_heap s' p = s_heap s p /\ s_fld s' f = s_fld s f.
Proof.
  intros HE Hid Ho HL HC Hp Hpb Hf Hfb r s' HW.
  pose proof (@wrapper_frame E HE arch body caches s (fun x => x = p) (fun x => x = f) (fun x => Z.eq_dec x p) (fun x => Z.eq_dec x f) Hid Ho HL) as H.
  destruct (H) with (r := r) (s' := s') as [H1 H2]; try assumption.
  - intros c sj Hj. destruct (HC c sj Hj) as [H1 H2]. split; [exact H1|]. intros q Hq ->. exact (H2 Hq).
  - intros q ->. exact Hp.
  - intros a q Ha ->. exact (Hpb a Ha).
  - intros g ->. exact Hf.
  - intros a g Ha ->. exact (Hfb a Ha).
  - split; [apply H1; reflexivity|apply H2; reflexivity].
Qed.

(* the hypotheses are met: growing the object (allocate, assign, free the old block), served and refused at each request *)
Definition grow : list act := [GAlloc 16; GSet 100 2032; GFree 1000; GWrite 2032 0 5; GRealloc 2032 16 32; GSet 100 2048].
Example C48_example : 
  (forall bad, In bad [1; 2; 3; 9]%nat -> legal_run (E_ex bad) grow (started (Some [100]) s_ex)) /\
  (match wrapper (E_ex 9) (Some [100]) grow (fun _ => []) s_ex with Ret r s' => r = None /\ s_fld s' 100 = 2048 /\ userb s' 2048 = true /\ userb s' 2032 = false /\ userb s' 1000 = false | _ => False end) /\
  (match wrapper (E_ex 3) (Some [100]) grow (fun _ => []) s_ex with Ret r s' => r = Some SLIP_OUT_OF_MEMORY /\ s_fld s' 100 = 0 /\ userb s' 2032 = false /\ userb s' 1000 = false | _ => False end) /\
  (match wrapper (E_ex 2) (Some [100]) grow (fun _ => []) s_ex with Ret r s' => r = Some SLIP_OUT_OF_MEMORY /\ s_fld s' 100 = 1000 /\ userb s' 1000 = true | _ => False end) /\
  (match wrapper (E_ex 1) (Some [100]) grow (fun _ => []) s_ex with Ret r s' => r = Some SLIP_OUT_OF_MEMORY /\ s_fld s' 100 = 1000 /\ userb s' 1000 = true | _ => False end).
Proof.
  split; [|vm_compute; auto 10]. intros bad Hb. apply legal_runb_ok.
  repeat (destruct Hb as [<-|Hb]; [vm_compute; reflexivity|]). destruct Hb.
Qed.

(* The registered object is the only one protected.  SLIP_gmp_fscanf (SLIP_gmp.c:461-483) registers none: if memory runs out after the object
   read was grown, its limb pointer is left dangling. *)
Theorem C48_unregistered_refuted : exists E body s f s',
  1 <= e_list_init E < 2 ^ 50 /\ idle s /\ sound_pointer s (s_fld s f) /\ legal_run E body (started None s) /\
  wrapper E None body (fun _ => []) s = Ret (Some SLIP_OUT_OF_MEMORY) s' /\ 0 < s_fld s' f /\ ~ live s' (s_fld s' f).
Proof.
  exists (E_ex 3), [GRealloc 1000 8 16; GSet 100 2032; GAlloc 8], s_ex, 100.
  destruct (wrapper (E_ex 3) None [GRealloc 1000 8 16; GSet 100 2032; GAlloc 8] (fun _ => []) s_ex) as [r s'|c s'|] eqn:HW; [|vm_compute in HW; discriminate|vm_compute in HW; discriminate].
  assert (HR : match wrapper (E_ex 3) None [GRealloc 1000 8 16; GSet 100 2032; GAlloc 8] (fun _ => []) s_ex with
               | Ret r s' => r = Some SLIP_OUT_OF_MEMORY /\ s_fld s' 100 = 2032 /\ is_live s' 2032 = false | _ => False end) by (vm_compute; auto).
  rewrite HW in HR. destruct HR as (-> & Hf & Hd). exists s'. split; [cbn; lia|]. split; [exact idle_ex|]. split; [apply sound_ex; left; reflexivity|].
  split; [apply legal_runb_ok; vm_compute; reflexivity|]. split; [reflexivity|]. rewrite Hf. split; [lia|]. intros [b Hb]. unfold is_live in Hd. rewrite Hb in Hd. discriminate.
Qed.

(* Nor is everything that the registered object owned given back: if GMP has already replaced the limb pointer and keeps the old block for a
   later free (as mpz_mul does when the result is one of the factors), the old block is still live after the failure and no pointer leads to it. *)
Theorem C48_detached_leak_refuted : exists E body s f p s',
  1 <= e_list_init E < 2 ^ 50 /\ idle s /\ s_fld s f = p /\ user_block s p /\ legal_run E body (started (Some [f]) s) /\
  wrapper E (Some [f]) body (fun _ => []) s = Ret (Some SLIP_OUT_OF_MEMORY) s' /\ live s' p /\ forall g, s_fld s' g <> p.
Proof.
  exists (E_ex 3), [GAlloc 16; GSet 100 2032; GAlloc 8; GFree 1000], s_ex, 100, 1000.
  destruct (wrapper (E_ex 3) (Some [100]) [GAlloc 16; GSet 100 2032; GAlloc 8; GFree 1000] (fun _ => []) s_ex) as [r s'|c s'|] eqn:HW; [|vm_compute in HW; discriminate|vm_compute in HW; discriminate].
  assert (HR : match wrapper (E_ex 3) (Some [100]) [GAlloc 16; GSet 100 2032; GAlloc 8; GFree 1000] (fun _ => []) s_ex with
               | Ret r s' => r = Some SLIP_OUT_OF_MEMORY /\ s_fld s' 100 = 0 /\ is_live s' 1000 = true | _ => False end) by (vm_compute; auto).
  rewrite HW in HR. destruct HR as (-> & Hf & Hd). exists s'. split; [cbn; lia|]. split; [exact idle_ex|]. split; [reflexivity|].
  split; [apply userb_ok; reflexivity|]. assert (HL : legal_run (E_ex 3) [GAlloc 16; GSet 100 2032; GAlloc 8; GFree 1000] (started (Some [100]) s_ex)) by (apply legal_runb_ok; vm_compute; reflexivity).
  split; [exact HL|]. split; [reflexivity|]. split.
  - unfold is_live in Hd. destruct (s_heap s' 1000) as [b|] eqn:Hb; [exists b; exact Hb|discriminate].
  - intros g. destruct (Z.eq_dec g 100) as [->|Hg]; [rewrite Hf; discriminate|].
    pose proof (@wrapper_frame (E_ex 3) ltac:(cbn; lia) (Some [100]) _ (fun _ => []) s_ex (fun _ => False) (fun x => x = g) (fun _ => right (fun x => x)) (fun x => Z.eq_dec x g)
      idle_ex sound_ex HL) as H.
    destruct H with (r := Some SLIP_OUT_OF_MEMORY) (s' := s') as [_ H2]; try assumption; try (intros; contradiction).
    + intros c sj _. split; [apply no_caches|]. intros q [].
    + intros x -> [Hx|[]]. cbn in Hx. congruence.
    + intros a x Ha -> Has. repeat (destruct Ha as [<-|Ha]; [cbn in Has; congruence|]). destruct Ha.
    + rewrite H2 by reflexivity. cbn. destruct (Z.eqb_spec g 100); [congruence|discriminate].
Qed.

(*============================================================================*)
(* C49.  At every point of a wrapped call, the list holds exactly the live blocks allocated since the call began, each once. *)
Theorem C49_list_exact E arch pre post s s' : 1 <= e_list_init E < 2 ^ 50 ->
  idle s -> sound_object s (archived arch) -> legal_run E (pre ++ post) (started arch s) ->
  do_acts E pre (started arch s) = Ret tt s' ->
  (forall p, recorded s' p <-> new_since (s_time s) s' p) /\
  (forall i j, 0 <= i < s_nmalloc s' -> 0 <= j < s_nmalloc s' -> entry s' i = entry s' j -> i = j).
Proof.
  intros HE Hid Ho HL HB. pose proof (@during E HE arch pre post s Hid Ho HL) as HD. rewrite HB in HD. cbn [wpM] in HD.
  split; [exact (i_rec HD)|exact (i_inj HD)].
Qed.
(* also at the point where memory runs out, so that the failure routine finds them all *)
Theorem C49_list_exact_at_failure E arch pre post s c s' : 1 <= e_list_init E < 2 ^ 50 ->
  idle s -> sound_object s (archived arch) -> legal_run E (pre ++ post) (started arch s) ->
  do_acts E pre (started arch s) = Jump c s' ->
  (forall p, recorded s' p <-> new_since (s_time s) s' p) /\
  (forall i j, 0 <= i < s_nmalloc s' -> 0 <= j < s_nmalloc s' -> entry s' i = entry s' j -> i = j).
Proof.
  intros HE Hid Ho HL HB. pose proof (@during E HE arch pre post s Hid Ho HL) as HD. rewrite HB in HD. cbn [wpM] in HD.
  split; [exact (i_rec HD)|exact (i_inj HD)].
Qed.
Lemma free_nm p s u s' : SLIP_free p s = Ret u s' -> s_nmalloc s' = s_nmalloc s.
Proof.
  unfold SLIP_free, mbind, getst, MMem.ret, SuiteSparse_free. destruct (negb _); [intros H; injection H as _ <-; reflexivity|].
  destruct (p =? 0); [intros H; injection H as _ <-; reflexivity|]. unfold free_func. destruct (s_heap s p); [|discriminate].
  intros H; injection H as _ <-; reflexivity.
Qed.
(* it is empty when the call returns *)
Theorem C49_emptied E arch body caches s r s' : wrapper E arch body caches s = Ret r s' -> forall p, ~ recorded s' p.
Proof.
  intros HW p (i & Hi & _). assert (Hn : s_nmalloc s' = 0); [|lia]. revert HW. unfold wrapper. destruct (do_acts _ _ _) as [u s1|c s1|].
  - intros H. injection H as _ <-. reflexivity.
  - unfold mbind. destruct (slip_gmp_failure (caches s1) s1) as [u s2|c2 s2|] eqn:Hf; [|discriminate|discriminate]. cbn [MMem.ret]. unfold MMem.ret. intros H. injection H as _ <-.
    revert Hf. unfold slip_gmp_failure, slip_gmp_finalize, mbind, getst, modst.
    destruct (free_all _ _); try discriminate. match goal with |- context [(if ?b then ?x else ?y) ?z] => destruct ((if b then x else y) z) end; try discriminate.
    match goal with |- context [SLIP_free ?a ?b] => destruct (SLIP_free a b) eqn:Hs end; try discriminate.
    intros H. injection H as _ <-. apply free_nm in Hs. cbn in *. exact Hs.
  - discriminate.
Qed.
Example C49_example :
  match do_acts (E_ex 9) [GAlloc 8; GAlloc 24; GAlloc 40; GFree 2032] (started (Some [100]) s_ex) with
  | Ret _ s' => s_nmalloc s' = 2 /\ entry s' 0 = 2080 /\ entry s' 1 = 2048 /\ s_nlist s' = 4 /\ s_list s' = 2064 | _ => False end.
Proof. vm_compute. auto. Qed.

(*============================================================================*)
(* C50 *)
(* the guard against overflow of nitems * size_of_item, computed in double precision: a product that does not fit is never accepted; a
   product that fits is accepted when both factors are below 2^53 *)
Theorem C50_overflow_guard :
  (forall n s, 0 <= n < TWO64 -> 0 <= s < TWO64 -> size_ok n s = true -> n * s < TWO64) /\
  (forall n s, 0 <= n < 2 ^ 53 -> 0 <= s < 2 ^ 53 -> n * s < TWO64 -> size_ok n s = true).
Proof. split; [exact size_ok_sound|exact size_ok_complete]. Qed.
(* above 2^53 a product that fits may be refused *)
Theorem C50_guard_incomplete_refuted : exists n s, 0 <= n < TWO64 /\ 0 <= s < TWO64 /\ n * s < TWO64 /\ size_ok n s = false.
Proof. exists (2 ^ 56 + 9), 100. vm_compute. repeat split; discriminate. Qed.

(* blocks from SLIP_malloc and SLIP_calloc: fresh, of the size asked for (at least one byte), cleared for calloc; no other block changes *)
Theorem C50_malloc_calloc E s : s_inited s = true ->
  (forall size, 0 <= size < TWO64 -> exists p s', SLIP_malloc E size s = Ret p s' /\ (forall x, x <> p -> s_heap s' x = s_heap s x) /\
     ((p = 0 /\ s_heap s' 0 = s_heap s 0) \/ (0 < p /\ s_heap s p = None /\ exists b, s_heap s' p = Some b /\ b_size b = Z.max 1 size))) /\
  (forall n size, 0 <= n < TWO64 -> 0 <= size < TWO64 -> exists p s', SLIP_calloc E n size s = Ret p s' /\ (forall x, x <> p -> s_heap s' x = s_heap s x) /\
     ((p = 0 /\ s_heap s' 0 = s_heap s 0) \/ (0 < p /\ s_heap s p = None /\ exists b, s_heap s' p = Some b /\ b_size b = Z.max 1 n * Z.max 1 size /\ b_size b < TWO64 /\ forall o, b_data b o = 0))).
Proof.
  intros Hi. split.
  - intros size Hs.
    pose proof (@SLIP_malloc_wp E size s (fun p s' => (forall x, x <> p -> s_heap s' x = s_heap s x) /\
     ((p = 0 /\ s_heap s' 0 = s_heap s 0) \/ (0 < p /\ s_heap s p = None /\ exists b, s_heap s' p = Some b /\ b_size b = Z.max 1 size))) (fun _ _ => False) Hi Hs) as H.
    assert (HW : wpM (SLIP_malloc E size s) (fun p s' => (forall x, x <> p -> s_heap s' x = s_heap s x) /\
     ((p = 0 /\ s_heap s' 0 = s_heap s 0) \/ (0 < p /\ s_heap s p = None /\ exists b, s_heap s' p = Some b /\ b_size b = Z.max 1 size))) (fun _ _ => False)).
    { apply H; cbn [tick set_heap s_heap]; [auto|auto|]. intros a b Ha Hn _ Hb. split; [intros x Hx; apply put_other; exact Hx|]. right.
      split; [exact Ha|]. split; [exact Hn|]. exists b. split; [apply put_same|exact Hb]. }
    destruct (SLIP_malloc E size s) as [p s'|c s'|]; cbn [wpM] in HW; [|contradiction|contradiction]. exists p, s'. auto.
  - intros n size Hn Hs. unfold SLIP_calloc, mbind, getst. rewrite Hi. cbn [negb]. unfold SuiteSparse_calloc, MMem.ret.
    set (n1 := if n <? 1 then 1 else n). set (z1 := if size <? 1 then 1 else size).
    assert (Hn1 : n1 = Z.max 1 n) by (unfold n1; destruct (Z.ltb_spec n 1); lia).
    assert (Hz1 : z1 = Z.max 1 size) by (unfold z1; destruct (Z.ltb_spec size 1); lia).
    destruct (size_ok n1 z1) eqn:Hok; cbn [negb]; [|exists 0, s; auto].
    assert (Hlt : n1 * z1 < TWO64) by (apply size_ok_sound; [unfold TWO64 in *; lia|unfold TWO64 in *; lia|exact Hok]).
    unfold calloc_func, alloc_func. destruct (_ || _) eqn:Hc; [exists 0, (tick s); auto|]. apply orb_false_iff in Hc. destruct Hc as [Ha Hl].
    apply Z.leb_gt in Ha. apply live_false in Hl. eexists _, _. split; [reflexivity|]. cbn [tick set_heap s_heap]. split; [intros x Hx; apply put_other; exact Hx|].
    right. split; [exact Ha|]. split; [exact Hl|]. eexists. split; [apply put_same|]. cbn [b_size b_data]. rewrite <- Hn1, <- Hz1. auto.
Qed.

(* SLIP_realloc of a block of nold items: on success, a block of nnew items (at least) whose common prefix is that of the old block; if it is
   moved, the old block is gone; no other block changes.  On failure everything is as before and the old pointer is returned; it fails only when
   growing (or when 2^53 items or more are asked for). *)
Theorem C50_realloc E nnew nold size p b s : s_inited s = true -> s_heap s p = Some b -> p <> 0 ->
  0 <= nnew < 2 ^ 63 -> 0 <= nold < 2 ^ 63 -> 1 <= size < 2 ^ 53 -> b_size b = Z.max 1 nold * size -> b_size b < TWO64 ->
  exists q ok s', SLIP_realloc E nnew nold size p s = Ret (q, ok) s' /\
  (ok = true -> q <> 0 /\ (exists b', s_heap s' q = Some b' /\ Z.max 1 nnew * size <= b_size b' /\
       (forall o, 0 <= o < Z.min (Z.max 1 nnew) (Z.max 1 nold) * size -> b_data b' o = b_data b o)) /\
     (q = p \/ (s_heap s q = None /\ s_heap s' p = None)) /\
     (forall x, x <> p -> x <> q -> s_heap s' x = s_heap s x)) /\
  (ok = false -> q = p /\ (forall x, s_heap s' x = s_heap s x) /\ (Z.max 1 nold < Z.max 1 nnew \/ 2 ^ 53 <= nnew)).
Proof.
  assert (Hit : forall n, items n = Z.max 1 n) by (intros n; unfold items; destruct (Z.ltb_spec n 1); lia).
  rewrite <- !Hit. apply realloc_spec.
Qed.
(* a NULL pointer is a new allocation *)
Theorem C50_realloc_null E nnew nold size s : s_inited s = true -> 0 <= nnew < 2 ^ 63 -> 0 <= size < TWO64 ->
  exists q ok s', SLIP_realloc E nnew nold size 0 s = Ret (q, ok) s' /\ (forall x, x <> q -> s_heap s' x = s_heap s x) /\
    (ok = true -> 0 < q /\ s_heap s q = None /\ exists b, s_heap s' q = Some b /\ b_size b = Z.max 1 nnew * Z.max 1 size) /\
    (ok = false -> q = 0 /\ s_heap s' 0 = s_heap s 0).
Proof.
  intros Hi Hn Hs. unfold SLIP_realloc, mbind, getst. rewrite Hi. cbn [negb]. rewrite (Z.mod_small nnew) by (unfold TWO64; lia).
  unfold SuiteSparse_realloc, MMem.ret, mbind.
  set (n1 := if nnew <? 1 then 1 else nnew). set (z1 := if size <? 1 then 1 else size).
  assert (Hn1 : n1 = Z.max 1 nnew) by (unfold n1; destruct (Z.ltb_spec nnew 1); lia).
  assert (Hz1 : z1 = Z.max 1 size) by (unfold z1; destruct (Z.ltb_spec size 1); lia). cbv beta iota zeta.
  destruct (size_ok n1 z1) eqn:Hok; cbn [negb]; [|eexists _, _, _; split; [reflexivity|]; split; [reflexivity|]; split; [discriminate|auto]].
  cbn [Z.eqb].
  assert (Hlt : n1 * z1 < TWO64) by (apply size_ok_sound; [unfold TWO64 in *; lia|unfold TWO64 in *; lia|exact Hok]).
  unfold SuiteSparse_malloc, MMem.ret. replace (if n1 <? 1 then 1 else n1) with n1 by (destruct (Z.ltb_spec n1 1); lia).
  replace (if z1 <? 1 then 1 else z1) with z1 by (destruct (Z.ltb_spec z1 1); lia). rewrite Hok. cbn [negb].
  unfold malloc_func, alloc_func. destruct (_ || _) eqn:Hc.
  - cbn. eexists _, _, _. split; [reflexivity|]. cbn. split; [reflexivity|]. split; [discriminate|auto].
  - apply orb_false_iff in Hc. destruct Hc as [Ha Hl]. apply Z.leb_gt in Ha. apply live_false in Hl. eexists _, _, _. split; [reflexivity|].
    destruct (Z.eqb_spec (e_addr E (s_funs s) (s_time s)) 0); [lia|]. cbn [negb tick set_heap s_heap]. split; [intros x Hx; apply put_other; exact Hx|]. split; [|discriminate]. intros _.
    split; [exact Ha|]. split; [exact Hl|]. eexists. split; [apply put_same|]. cbn [b_size]. rewrite Z.mod_small by nia. congruence.
Qed.
Example C50_example :
  match SLIP_realloc (E_ex 9) 3 1 8 1000 s_ex with
  | Ret (q, ok) s' => ok = true /\ q = 2016 /\ is_live s' 1000 = false /\ match s_heap s' 2016 with Some b => b_size b = 24 /\ b_data b 0 = 7 | None => False end
  | _ => False end /\
  match SLIP_realloc (E_ex 1) 3 1 8 1000 s_ex with Ret (q, ok) s' => ok = false /\ q = 1000 /\ is_live s' 1000 = true | _ => False end.
Proof. vm_compute. auto 10. Qed.
