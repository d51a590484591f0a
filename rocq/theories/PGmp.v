(* Programs over GMP objects: what a wrapped call does to the objects it does not write.  Proof file. *)
From Coq Require Import String.
From Verif Require Import Base MSolve MMatrix MMem MemSpec PMem PMem2 PMem3 MGmp GmpSpec.
Set Bullet Behavior "Strict Subproofs".
Set Implicit Arguments.
Open Scope Z_scope.

(*----------------------------------------------------------------------------*)
(* relations between the states before and after that hold for every function if they hold for the primitive ones *)
Section Resp.
Variable E : env.
Variable R : st -> st -> Prop.
Hypothesis Rrefl : forall s, R s s.
Hypothesis Rtrans : forall s s' s'', R s s' -> R s' s'' -> R s s''.
Definition resp {A} (m : M A) : Prop := forall s, match m s with Ret _ s' | Jump _ s' => R s s' | Undef => True end.
(* assignments to the global variables of SLIP_gmp.c *)
Definition global (f : st -> st) : Prop := forall s, s_heap (f s) = s_heap s /\ s_fld (f s) = s_fld s /\ s_time (f s) = s_time s /\ s_funs (f s) = s_funs s /\ s_inited (f s) = s_inited s.
Hypothesis Rglobal : forall f, global f -> resp (modst f).
Hypothesis Rdrop : forall p, resp (modst (fun s => set_fld (fun f => if existsb (Z.eqb f) (s_arch s) && (s_fld s f =? p) then 0 else s_fld s f) s)).
Hypothesis Ralloc : forall z i, resp (alloc_func E z i).
Hypothesis Rrealloc : forall p z, resp (realloc_func E p z).
Hypothesis Rfree : forall p, resp (free_func p).
Hypothesis Rstore : forall p o v, resp (store p o v).
Hypothesis Rmemcpy : forall d p n, resp (memcpy d p n).

Lemma resp_ret {A} (a : A) : resp (ret a). Proof. intros s. apply Rrefl. Qed.
Lemma resp_jump {A} c : resp (@longjmp A c). Proof. intros s. apply Rrefl. Qed.
Lemma resp_get : resp getst. Proof. intros s. apply Rrefl. Qed.
Lemma resp_bind {A B} (m : M A) (k : A -> M B) : resp m -> (forall a, resp (k a)) -> resp (mbind m k).
Proof.
  intros H1 H2 s. unfold mbind. specialize (H1 s). destruct (m s) as [a s1|c s1|]; [|exact H1|exact I]. specialize (H2 a s1).
  destruct (k a s1); [eapply Rtrans; eassumption|eapply Rtrans; eassumption|exact I].
Qed.
Lemma resp_load p o : resp (load p o).
Proof. intros s. unfold load. destruct (s_heap s p); [|exact I]. destruct (_ && _); [apply Rrefl|exact I]. Qed.
Ltac gmod := apply resp_bind; [apply Rglobal; intros ?; repeat split|intros _].
Lemma resp_SSmalloc n z : resp (SuiteSparse_malloc E n z).
Proof. unfold SuiteSparse_malloc. destruct (negb _); [apply resp_ret|]. intros s. apply Ralloc. Qed.
Lemma resp_malloc z : resp (SLIP_malloc E z).
Proof. unfold SLIP_malloc. apply resp_bind; [apply resp_get|]. intros s. destruct (negb _); [apply resp_ret|apply resp_SSmalloc]. Qed.
Lemma resp_realloc a b c p : resp (SLIP_realloc E a b c p).
Proof.
  unfold SLIP_realloc. apply resp_bind; [apply resp_get|]. intros s. destruct (negb _); [apply resp_ret|]. unfold SuiteSparse_realloc.
  destruct (negb _); [apply resp_ret|]. destruct (p =? 0).
  - apply resp_bind; [apply resp_SSmalloc|]. intros q. apply resp_ret.
  - destruct (_ =? _); [apply resp_ret|]. apply resp_bind; [apply Rrealloc|]. intros q. destruct (q =? 0); [destruct (_ <? _)|]; apply resp_ret.
Qed.
Lemma resp_free p : resp (SLIP_free p).
Proof.
  unfold SLIP_free. apply resp_bind; [apply resp_get|]. intros s. destruct (negb _); [apply resp_ret|]. unfold SuiteSparse_free.
  destruct (p =? 0); [apply resp_ret|apply Rfree].
Qed.
Lemma resp_safe_free p : resp (safe_free p).
Proof. unfold safe_free. apply resp_bind; [apply Rdrop|intros _; apply resp_free]. Qed.
Lemma resp_gmp_free p : resp (slip_gmp_free p).
Proof.
  unfold slip_gmp_free. apply resp_bind; [apply resp_get|]. intros s. apply resp_bind; [|intros _; apply resp_safe_free].
  destruct (_ && _); [|apply resp_ret]. generalize (Z.to_nat (s_nmalloc s)) as cnt. generalize 0 as i. intros i cnt. revert i.
  induction cnt as [|c IH]; intros i; cbn [remove_entry]; [apply resp_ret|]. apply resp_bind; [apply resp_get|]. intros s1.
  apply resp_bind; [apply resp_load|]. intros e. destruct (e =? p); [|apply IH]. gmod.
  apply resp_bind; [apply resp_load|]. intros l. apply Rstore.
Qed.
Lemma resp_gmp_allocate z : resp (slip_gmp_allocate E z).
Proof.
  unfold slip_gmp_allocate. apply resp_bind; [apply resp_get|]. intros s. apply resp_bind.
  { destruct (_ =? 0); [apply resp_jump|]. destruct (0 <? _); [apply Rglobal; intros ?; repeat split|apply resp_ret]. }
  intros _. apply resp_bind; [apply resp_get|]. intros s1. apply resp_bind.
  { destruct (_ =? 0).
    - apply resp_bind; [|intros ok; destruct (negb ok); [apply resp_jump|apply resp_ret]].
      unfold slip_gmp_init. gmod. gmod. apply resp_bind; [apply resp_malloc|]. intros p. gmod. apply resp_ret.
    - destruct (_ =? _); [|apply resp_ret]. apply resp_bind; [apply resp_realloc|]. intros r. gmod.
      destruct (negb _); [apply resp_jump|apply Rglobal; intros ?; repeat split]. }
  intros _. apply resp_bind; [apply resp_malloc|]. intros p. destruct (p =? 0); [apply resp_jump|].
  apply resp_bind; [apply resp_get|]. intros s2. apply resp_bind; [apply Rstore|intros _]. gmod. apply resp_ret.
Qed.
Lemma resp_act a : (forall f p, a <> GSet f p) -> resp (do_act E a).
Proof.
  intros H. destruct a as [z|p|p o n|f p|p o v]; cbn [do_act].
  - apply resp_bind; [apply resp_gmp_allocate|]. intros _. apply resp_ret.
  - apply resp_gmp_free.
  - apply resp_bind; [|intros _; apply resp_ret]. unfold slip_gmp_reallocate. destruct (p =? 0); [apply resp_gmp_allocate|].
    destruct (n =? 0); [apply resp_bind; [apply resp_gmp_free|intros _; apply resp_ret]|].
    apply resp_bind; [apply resp_gmp_allocate|]. intros q. apply resp_bind; [apply Rmemcpy|intros _].
    apply resp_bind; [apply resp_gmp_free|intros _; apply resp_ret].
  - exfalso. apply (H f p). reflexivity.
  - apply Rstore.
Qed.
End Resp.

(* limb pointers are only assigned by GMP or set to NULL *)
Definition same_or_null (s s' : st) : Prop := forall f, s_fld s' f = s_fld s f \/ s_fld s' f = 0.
Lemma sn_refl s : same_or_null s s. Proof. left. reflexivity. Qed.
Lemma sn_eq s s' : s_fld s' = s_fld s -> same_or_null s s'. Proof. intros H f. left. congruence. Qed.
Lemma sn_trans s s' s'' : same_or_null s s' -> same_or_null s' s'' -> same_or_null s s''.
Proof. intros H1 H2 f. destruct (H2 f) as [->|]; [apply H1|right; assumption]. Qed.
Lemma nulls_act E a : (forall f p, a <> GSet f p) -> resp same_or_null (do_act E a).
Proof.
  apply resp_act; try exact sn_refl; try exact sn_trans.
  - intros f Hf s. apply sn_eq. apply Hf.
  - intros p s f. simpl. destruct (_ && _); auto.
  - intros z i s. unfold alloc_func. destruct (_ || _); apply sn_eq; reflexivity.
  - intros p z s. unfold realloc_func. destruct (s_heap s p); [|exact I]. destruct (_ =? p); [|destruct (_ || _)]; apply sn_eq; reflexivity.
  - intros p s. unfold free_func. destruct (s_heap s p); [apply sn_eq; reflexivity|exact I].
  - intros p o v s. unfold store. destruct (s_heap s p); [|exact I]. destruct (_ && _); [apply sn_eq; reflexivity|exact I].
  - intros d p n s. unfold memcpy. destruct (s_heap s d); [|exact I]. destruct (s_heap s p); [|exact I]. destruct (_ && _); [apply sn_eq; reflexivity|exact I].
Qed.

(* every block was there before or lies at an address that the allocator returned in between *)
Definition grown (E : env) (s s' : st) : Prop := s_funs s' = s_funs s /\ (s_time s <= s_time s')%nat /\
  forall p, s_heap s' p <> None -> s_heap s p <> None \/ exists t, (s_time s <= t < s_time s')%nat /\ p = e_addr E (s_funs s) t.
Lemma grown_eq E s s' : s_funs s' = s_funs s -> (s_time s <= s_time s')%nat -> (forall p, s_heap s p = None -> s_heap s' p = None) -> grown E s s'.
Proof. intros H1 H2 H3. split; [assumption|]. split; [assumption|]. intros p Hp. left. auto. Qed.
Lemma grown_refl E s : grown E s s. Proof. apply grown_eq; auto. Qed.
Lemma grown_trans E s s' s'' : grown E s s' -> grown E s' s'' -> grown E s s''.
Proof.
  intros (F1 & T1 & H1) (F2 & T2 & H2). split; [congruence|]. split; [lia|]. intros p Hp. destruct (H2 p Hp) as [H|(t & Ht & ->)].
  - destruct (H1 p H) as [|(t & Ht & ->)]; [auto|]. right. exists t. split; [lia|reflexivity].
  - right. exists t. split; [lia|congruence].
Qed.
Lemma grown_put E s b : grown E s (tick (set_heap (put (s_heap s) (e_addr E (s_funs s) (s_time s)) b) s)).
Proof.
  split; [reflexivity|]. split; [simpl; lia|]. intros p. simpl. destruct (put_cases (s_heap s) (e_addr E (s_funs s) (s_time s)) b p) as [[-> _]|[_ ->]]; [|auto].
  intros _. right. exists (s_time s). split; [lia|reflexivity].
Qed.
Lemma put_none h p b q : h p <> None -> h q = @None blk -> put h p b q = None.
Proof. intros H1 H2. rewrite put_other; [assumption|congruence]. Qed.
Lemma grown_realloc E q z : resp (grown E) (realloc_func E q z).
Proof.
  intros s. unfold realloc_func. destruct (s_heap s q) as [b|] eqn:Hq; [|exact I].
  destruct (Z.eqb_spec (e_addr E (s_funs s) (s_time s)) q) as [Hc|Hc].
  - apply grown_eq; simpl; auto. intros x Hx. apply put_none; congruence.
  - destruct (_ || _); [apply grown_eq; simpl; auto|]. split; [reflexivity|]. split; [simpl; lia|]. intros x. simpl.
    match goal with |- context [put (put (s_heap s) q None) ?a ?v x] => destruct (put_cases (put (s_heap s) q None) a v x) as [[-> _]|[_ ->]] end;
      [intros _; right; exists (s_time s); split; [lia|reflexivity]|].
    destruct (put_cases (s_heap s) q None x) as [[_ ->]|[_ ->]]; [congruence|auto].
Qed.
Lemma grown_act E a : resp (grown E) (do_act E a).
Proof.
  assert (H : (forall f p, a <> GSet f p) -> resp (grown E) (do_act E a)).
  { apply resp_act; try apply grown_refl; try apply grown_trans; try apply grown_realloc.
    - intros f Hf s. destruct (Hf s) as (Hh & _ & Ht & Hfu & _). apply grown_eq; [assumption|simpl; rewrite Ht; lia|simpl; rewrite Hh; auto].
    - intros q s. simpl. apply grown_eq; auto.
    - intros z1 i s. unfold alloc_func. destruct (_ || _); [apply grown_eq; simpl; auto|apply grown_put].
    - intros q s. unfold free_func. destruct (s_heap s q) eqn:Hq; [|exact I]. apply grown_eq; auto. intros x Hx. simpl.
      destruct (put_cases (s_heap s) q None x) as [[_ ->]|[_ ->]]; auto.
    - intros q o1 v1 s. unfold store. destruct (s_heap s q) eqn:Hq; [|exact I]. destruct (_ && _); [|exact I]. apply grown_eq; auto.
      intros x Hx. simpl. apply put_none; congruence.
    - intros d q n1 s. unfold memcpy. destruct (s_heap s d) eqn:Hd; [|exact I]. destruct (s_heap s q); [|exact I]. destruct (_ && _); [|exact I]. apply grown_eq; auto.
      intros x Hx. simpl. apply put_none; congruence. }
  destruct a as [z|p|p o n|f p|p o v]; try (apply H; discriminate). intros s. apply grown_eq; auto.
Qed.
Lemma grown_acts E l : resp (grown E) (do_acts E l).
Proof.
  induction l as [|a l IH]; cbn [do_acts]; [intros s; apply grown_refl|].
  apply resp_bind; [apply grown_trans|apply grown_act|]. intros _. exact IH.
Qed.
Lemma sn_exclusive s s' : same_or_null s s' -> exclusive s -> exclusive s'.
Proof.
  intros H X f g Hfg Hf. destruct (H f) as [Ef|Ef]; [|lia]. rewrite Ef in *. destruct (H g) as [->| ->]; [apply X; assumption|lia].
Qed.

(*----------------------------------------------------------------------------*)
(* functions that allocate nothing: a limb pointer set to NULL led to a block that has been freed *)
Definition only_frees (s s' : st) : Prop := s_inited s = true ->
  s_inited s' = true /\ (forall p, s_heap s p = None -> s_heap s' p = None) /\
  (forall f, s_fld s' f = s_fld s f \/ (s_fld s' f = 0 /\ s_heap s' (s_fld s f) = None)).
Definition frees {A} (m : M A) : Prop := forall s, match m s with Ret _ s' | Jump _ s' => only_frees s s' | Undef => True end.
Lemma of_refl s : only_frees s s. Proof. intros Hi. split; [assumption|]. split; auto. Qed.
Lemma of_trans s s' s'' : only_frees s s' -> only_frees s' s'' -> only_frees s s''.
Proof.
  intros H1 H2 Hi. destruct (H1 Hi) as (I1 & D1 & F1). destruct (H2 I1) as (I2 & D2 & F2). split; [assumption|]. split; [auto|].
  intros f. destruct (F1 f) as [E1|[E1 N1]]; destruct (F2 f) as [E2|[E2 N2]].
  - left. congruence.
  - right. split; [assumption|]. congruence.
  - right. split; [congruence|]. auto.
  - right. split; [assumption|]. auto.
Qed.
Lemma frees_ret {A} (a : A) : frees (ret a). Proof. intros s. apply of_refl. Qed.
Lemma frees_get : frees getst. Proof. intros s. apply of_refl. Qed.
Lemma frees_bind {A B} (m : M A) (k : A -> M B) : frees m -> (forall a, frees (k a)) -> frees (mbind m k).
Proof.
  intros H1 H2 s. unfold mbind. specialize (H1 s). destruct (m s) as [a s1|c s1|]; [|exact H1|exact I]. specialize (H2 a s1).
  destruct (k a s1); [eapply of_trans; eassumption|eapply of_trans; eassumption|exact I].
Qed.
Lemma frees_load p o : frees (load p o).
Proof. intros s. unfold load. destruct (s_heap s p); [|exact I]. destruct (_ && _); [apply of_refl|exact I]. Qed.
Lemma frees_store p o v : frees (store p o v).
Proof.
  intros s. unfold store. destruct (s_heap s p) eqn:Hp; [|exact I]. destruct (_ && _); [|exact I]. intros Hi. split; [assumption|]. split; [|left; reflexivity].
  intros q Hq. simpl. rewrite put_other; [assumption|congruence].
Qed.
Lemma frees_mod f : (forall s, s_inited (f s) = s_inited s /\ s_heap (f s) = s_heap s /\ s_fld (f s) = s_fld s) -> frees (modst f).
Proof. intros H s Hi. destruct (H s) as (H1 & H2 & H3). simpl. split; [congruence|]. rewrite H2, H3. auto. Qed.
Lemma frees_free p : frees (SLIP_free p).
Proof.
  unfold SLIP_free. apply frees_bind; [apply frees_get|]. intros s. destruct (negb _); [apply frees_ret|]. unfold SuiteSparse_free.
  destruct (p =? 0); [apply frees_ret|]. intros s1. unfold free_func. destruct (s_heap s1 p); [|exact I]. intros Hi. split; [assumption|]. split; [|left; reflexivity].
  intros q Hq. simpl. destruct (put_cases (s_heap s1) p None q) as [[_ ->]|[_ ->]]; auto.
Qed.
Lemma frees_safe_free p : frees (safe_free p).
Proof.
  intros s. unfold safe_free, mbind, modst. set (s1 := set_fld _ s). pose proof (frees_free p s1) as H.
  destruct (SLIP_free p s1) as [[] s2|c s2|] eqn:Hf; [|unfold SLIP_free, mbind, getst in Hf|exact I].
  - intros Hi. destruct (H Hi) as (I2 & D2 & F2). split; [assumption|]. split; [exact D2|].
    intros f. assert (HF : s_fld s2 f = s_fld s1 f).
    { unfold SLIP_free, mbind, getst, ret in Hf. destruct (negb (s_inited s1)); [injection Hf as <-; reflexivity|]. unfold SuiteSparse_free, ret in Hf.
      destruct (p =? 0); [injection Hf as <-; reflexivity|]. unfold free_func in Hf. destruct (s_heap s1 p); [|discriminate]. injection Hf as <-. reflexivity. }
    rewrite HF. unfold s1. simpl. destruct (existsb (Z.eqb f) (s_arch s) && (s_fld s f =? p)) eqn:Hc; [|left; reflexivity].
    apply andb_true_iff in Hc. destruct Hc as [_ Hc]. apply Z.eqb_eq in Hc.
    destruct (Z.eq_dec p 0) as [Hp|Hp]; [left; congruence|]. right. split; [reflexivity|]. rewrite Hc.
    unfold SLIP_free, mbind, getst, ret in Hf. change (s_inited s1) with (s_inited s) in Hf. rewrite Hi in Hf. cbn [negb] in Hf. unfold SuiteSparse_free in Hf.
    destruct (Z.eqb_spec p 0); [contradiction|]. unfold free_func in Hf. destruct (s_heap s1 p); [|discriminate]. injection Hf as <-. simpl. apply put_same.
  - destruct (negb (s_inited s1)); [discriminate|]. unfold SuiteSparse_free in Hf. destruct (p =? 0); [discriminate|]. unfold free_func in Hf.
    destruct (s_heap s1 p); discriminate.
Qed.
Ltac fmod := apply frees_bind; [apply frees_mod; intros ?; repeat split|intros _].
Lemma frees_gmp_free p : frees (slip_gmp_free p).
Proof.
  unfold slip_gmp_free. apply frees_bind; [apply frees_get|]. intros s. apply frees_bind; [|intros _; apply frees_safe_free].
  destruct (_ && _); [|apply frees_ret]. generalize (Z.to_nat (s_nmalloc s)) as cnt. generalize 0 as i. intros i cnt. revert i.
  induction cnt as [|c IH]; intros i; cbn [remove_entry]; [apply frees_ret|]. apply frees_bind; [apply frees_get|]. intros s1.
  apply frees_bind; [apply frees_load|]. intros e. destruct (e =? p); [|apply IH]. fmod.
  apply frees_bind; [apply frees_load|]. intros l. apply frees_store.
Qed.
Lemma frees_failure caches : frees (slip_gmp_failure caches).
Proof.
  unfold slip_gmp_failure. apply frees_bind.
  - induction caches as [|p l IH]; cbn [free_all]; [apply frees_ret|]. apply frees_bind; [apply frees_gmp_free|]. intros _. exact IH.
  - intros _. apply frees_bind; [apply frees_get|]. intros s. apply frees_bind.
    + destruct (_ =? 0); [apply frees_ret|]. generalize (Z.to_nat (s_nmalloc s)) as cnt. generalize 0 as i. intros i cnt. revert i.
      induction cnt as [|c IH]; intros i; cbn [free_entries]; [apply frees_ret|]. apply frees_bind; [apply frees_get|]. intros s1.
      apply frees_bind; [apply frees_load|]. intros q. apply frees_bind; [apply frees_safe_free|intros _].
      apply frees_bind; [apply frees_store|intros _; apply IH].
    + intros _. unfold slip_gmp_finalize. fmod. fmod. fmod. apply frees_bind; [apply frees_get|]. intros s1.
      apply frees_bind; [apply frees_free|intros _]. apply frees_mod. repeat split.
Qed.
Lemma frees_nulls s s' : s_inited s = true -> only_frees s s' -> same_or_null s s'.
Proof. intros Hi H f. destruct (H Hi) as (_ & _ & F). destruct (F f) as [|[]]; auto. Qed.

(*----------------------------------------------------------------------------*)
Section Call.
Variable E : env.
Hypothesis Einit : 1 <= e_list_init E < 2 ^ 50.

Lemma wpM_and {A} (m : out A) Q Q' J J' : wpM m Q J -> wpM m Q' J' -> wpM m (fun a s => Q a s /\ Q' a s) (fun c s => J c s /\ J' c s).
Proof. unfold wpM. destruct m; auto. Qed.

(* one act: exclusiveness is kept *)
Lemma act_exclusive a dst s : exclusive s -> act_on dst s a ->
  match do_act E a s with Ret _ s' | Jump _ s' => exclusive s' | Undef => True end.
Proof.
  intros X A. destruct a as [z|p|p o n|f p|p o v].
  1,2,3,5: match goal with |- context [do_act E ?a ?s0] => pose proof (@nulls_act E a ltac:(discriminate) s0) as H; destruct (do_act E a s0);
    [eapply sn_exclusive; eassumption|eapply sn_exclusive; eassumption|exact I] end.
  cbn [do_act modst]. destruct A as [_ A]. intros g h Hgh. simpl.
  destruct (put_cases (s_fld s) f p g) as [[-> ->]|[Hg ->]]; destruct (put_cases (s_fld s) f p h) as [[-> ->]|[Hh ->]]; intros Hp.
  - congruence.
  - intros Heq. apply (A Hp h Hh). congruence.
  - intros Heq. rewrite Heq in Hp. apply (A Hp g Hg). congruence.
  - apply X; assumption.
Qed.
Lemma acts_exclusive dst l : forall s, exclusive s -> acts_on E dst l s ->
  match do_acts E l s with Ret _ s' | Jump _ s' => exclusive s' | Undef => True end.
Proof.
  induction l as [|a l IH]; intros s X A; cbn [do_acts]; [exact X|]. destruct A as [A1 A2]. unfold mbind.
  pose proof (@act_exclusive a dst s X A1) as H. destruct (do_act E a s) as [[] s1|c s1|] eqn:Ha; [|exact H|exact I]. apply IH; auto.
Qed.

(* a limb pointer outside dst, and its block, survive the acts *)
Lemma acts_keep t0 h0 dst g v K F l : ~ In g dst ->
  (forall f, F f = if f =? g then Some v else None) -> (forall p, K p <> None -> 0 < p /\ p = v) -> forall s,
  inv t0 h0 dst K F s -> legal_run E l s -> acts_on E dst l s ->
  wpM (do_acts E l s) (fun _ s' => inv t0 h0 dst K F s') (fun _ s' => inv t0 h0 dst K F s').
Proof.
  intros Hg HF HK. assert (HFs : forall f, F f <> None -> ~ In f dst).
  { intros f. rewrite HF. destruct (Z.eqb_spec f g); [congruence|congruence]. }
  induction l as [|a l IH]; intros s HI L A; cbn [do_acts]; [exact HI|].
  destruct L as [La Lr]. destruct A as [Aa Ar]. apply wpM_bind.
  assert (Hv : s_fld s g = v) by (apply (i_fkeep HI); rewrite HF, Z.eqb_refl; reflexivity).
  assert (HKp : forall p, (forall g, ~ In g dst -> 0 < p -> s_fld s g <> p) -> K p = None).
  { intros p Hp. destruct (K p) eqn:Hk; [|reflexivity]. exfalso. destruct (HK p) as [Hp0 ->]; [congruence|]. apply (Hp g Hg Hp0). assumption. }
  assert (Sa : spares K F a).
  { destruct a as [z|p|p o n|f p|p o w]; cbn [act_on spares] in *; auto. rewrite HF. destruct (Z.eqb_spec f g) as [->|]; [destruct Aa; contradiction|reflexivity]. }
  pose proof (@do_act_wp E Einit t0 h0 dst K F HFs a s HI La Sa) as H.
  destruct (do_act E a s) as [[] s1|c s1|] eqn:Ha; cbn [wpM] in *; [|assumption|assumption]. apply IH; auto.
Qed.

Lemma call_keeps dst body caches s g : objects_ok s -> ~ In g dst ->
  forall arch, archived arch = dst -> legal_run E body (started arch s) -> acts_on E dst body (started arch s) ->
  (forall c sj, do_acts E body (started arch s) = Jump c sj -> caches_ok sj (caches sj) /\ forall f, ~ In (s_fld sj f) (caches sj)) ->
  forall r s', wrapper E arch body caches s = Ret r s' ->
  s_fld s' g = s_fld s g /\ (0 < s_fld s g -> s_heap s' (s_fld s g) = s_heap s (s_fld s g) /\ user_block s' (s_fld s g)).
Proof.
  intros (Hid & Hnm & Hso & Hex) Hg arch Ha HL HA HC r s' HW. subst dst.
  set (v := s_fld s g).
  set (F := fun f => if f =? g then Some v else None). set (K := fun p => if (p =? v) && (0 <? v) then s_heap s p else None).
  assert (HK : forall p, K p <> None -> 0 < p /\ p = v).
  { intros p. unfold K. destruct (Z.eqb_spec p v); cbn [andb]; [|congruence]. destruct (Z.ltb_spec 0 v); [subst; auto|congruence]. }
  assert (HFs : forall f, F f <> None -> ~ In f (archived arch)).
  { intros f. unfold F. destruct (Z.eqb_spec f g); congruence. }
  assert (HI : inv (s_time s) (s_heap s) (archived arch) K F (started arch s)).
  { apply start_inv; try assumption.
    - intros f _. apply Hso.
    - intros p b Hp. destruct (HK p) as [Hp0 ->]; [congruence|]. unfold K in Hp. rewrite Z.eqb_refl in Hp. destruct (Z.ltb_spec 0 v); [|lia]. split; [assumption|].
      destruct (Hso g) as [|[_ Hx]]; [fold v in H0; lia|exact Hx].
    - intros f w. unfold F. destruct (Z.eqb_spec f g) as [->|]; [intros H; injection H as <-; reflexivity|discriminate]. }
  pose proof (@acts_keep (s_time s) (s_heap s) (archived arch) g v K F body Hg ltac:(reflexivity) HK _ HI HL HA) as HD.
  assert (Hend : 0 < v -> exists b, s_heap s v = Some b /\ K v = Some b).
  { intros Hv. destruct (Hso g) as [|[[b Hb] _]]; [fold v in H; lia|]. fold v in Hb. exists b. split; [assumption|]. unfold K. rewrite Z.eqb_refl.
    destruct (Z.ltb_spec 0 v); [assumption|lia]. }
  assert (HFg : F g = Some v) by (unfold F; rewrite Z.eqb_refl; reflexivity).
  unfold wrapper in HW. change (set_nmalloc 0 match arch with | Some l => set_arch l s | None => s end) with (started arch s) in HW.
  destruct (do_acts E body (started arch s)) as [[] s1|c sj|] eqn:HB; cbn [wpM] in HD; [| |discriminate].
  - injection HW as <- <-. split; [apply (i_fkeep HD); assumption|]. intros Hv. destruct (Hend Hv) as (b & Hb & Hk).
    destruct (i_keep HD v Hk) as [H1 H2]. split; [cbn; congruence|]. split; [exists b; exact H1|exact H2].
  - destruct (HC c sj eq_refl) as [HC1 HC2].
    assert (Hjv : s_fld sj g = v) by (apply (i_fkeep HD); assumption).
    assert (HKc : forall p, In p (caches sj) -> K p = None).
    { intros p Hp. destruct (K p) eqn:Hk; [|reflexivity]. exfalso. destruct (HK p) as [_ ->]; [congruence|]. apply (HC2 g). rewrite Hjv. assumption. }
    pose proof (@failure_wp E Einit (s_time s) (s_heap s) (archived arch) K F HFs (caches sj) sj HD HC1 HKc) as HF.
    unfold mbind in HW. destruct (slip_gmp_failure (caches sj) sj) as [[] s2|c' s2|] eqn:Hf; cbn [wpM] in HF; [|contradiction|contradiction].
    injection HW as <- <-. destruct HF as (_ & _ & _ & Hl0 & H5 & _ & H7). split; [rewrite H7 by assumption; exact Hjv|].
    intros Hv. destruct (Hend Hv) as (b & Hb & Hk). destruct (i_keep HD v Hk) as [Hk1 Hk2].
    assert (H2 : s_heap s2 v = Some b).
    { apply H5. split; [assumption|]. destruct Hid as (_ & Hh & _). destruct (Hh _ _ Hb) as (_ & Hlt & _). split; [assumption|]. split; [|assumption].
      rewrite <- Hjv. apply HC2. }
    split; [congruence|]. split; [exists b; exact H2|]. rewrite Hl0. lia.
Qed.

Lemma wrapper_ret_or arch body caches s r s' : wrapper E arch body caches s = Ret r s' ->
  (exists s1, do_acts E body (started arch s) = Ret tt s1 /\ r = None /\ s' = set_nmalloc 0 (set_arch [] s1)) \/
  (exists c sj, do_acts E body (started arch s) = Jump c sj /\ r = Some SLIP_OUT_OF_MEMORY /\ slip_gmp_failure (caches sj) sj = Ret tt s').
Proof.
  unfold wrapper. change (set_nmalloc 0 match arch with | Some l => set_arch l s | None => s end) with (started arch s).
  destruct (do_acts E body (started arch s)) as [[] s1|c sj|] eqn:HB; [| |discriminate].
  - intros H. injection H as <- <-. left. eauto.
  - unfold mbind. destruct (slip_gmp_failure (caches sj) sj) as [[] s2|c' s2|] eqn:Hf; [|discriminate|discriminate].
    intros H. injection H as <- <-. right. eauto 6.
Qed.
Lemma started_fld arch s : s_fld (started arch s) = s_fld s. Proof. destruct arch; reflexivity. Qed.

Lemma call_ok dst body caches s arch : objects_ok s -> archived arch = dst -> legal_run E body (started arch s) -> acts_on E dst body (started arch s) ->
  (forall c sj, do_acts E body (started arch s) = Jump c sj -> caches_ok sj (caches sj) /\ forall f, ~ In (s_fld sj f) (caches sj)) ->
  exists r s', wrapper E arch body caches s = Ret r s' /\ (r = None \/ r = Some SLIP_OUT_OF_MEMORY) /\ objects_ok s'.
Proof.
  intros Hok Ha HL HA HC. pose proof Hok as (Hid & Hnm & Hso & Hex). subst dst.
  destruct (@wrapper_spec E Einit arch body caches s Hid) as (r & s' & HW & Hid' & Hn & Hr); try assumption.
  { intros f _. apply Hso. }
  { intros c sj H. apply (HC c sj H). }
  exists r, s'. split; [exact HW|]. split; [destruct Hr as [[-> _]|[-> _]]; auto|]. split; [exact Hid'|]. split; [exact Hn|].
  assert (Hinit : s_inited s' = true) by apply Hid'.
  assert (Hheap' : heap_ok s') by apply Hid'.
  assert (Xstart : exclusive (started arch s)) by (unfold exclusive; rewrite started_fld; exact Hex).
  pose proof (@acts_exclusive (archived arch) body (started arch s) Xstart HA) as HX.
  assert (HOB : sound_object s' (archived arch)).
  { pose proof (@during E Einit arch body [] s Hid) as HD. rewrite app_nil_r in HD. specialize (HD ltac:(intros f _; apply Hso) HL).
    destruct Hr as [[-> (s1 & HB & ->)]|[-> (c & sj & HB & HAF)]].
    - rewrite HB in HD. exact (i_obj HD).
    - destruct HAF as (_ & H & _). exact H. }
  split.
  - intros g. destruct (in_dec Z.eq_dec g (archived arch)) as [Hin|Hin]; [apply HOB; assumption|].
    destruct (@call_keeps (archived arch) body caches s g Hok Hin arch eq_refl HL HA HC r s' HW) as [H1 H2].
    destruct (Z_lt_le_dec 0 (s_fld s g)) as [Hp|Hp]; [|left; congruence]. right. rewrite H1. apply (H2 Hp).
  - destruct (wrapper_ret_or _ _ _ _ HW) as [(s1 & HB & _ & ->)|(c & sj & HB & _ & Hf)]; rewrite HB in HX.
    + exact HX.
    + pose proof (frees_failure (caches sj) sj) as HFr. rewrite Hf in HFr. eapply sn_exclusive; [|exact HX]. apply frees_nulls; [|exact HFr].
      pose proof (@during E Einit arch body [] s Hid) as HD. rewrite app_nil_r in HD. specialize (HD ltac:(intros f _; apply Hso) HL). rewrite HB in HD.
      exact (i_init HD).
Qed.

(*----------------------------------------------------------------------------*)
(* SLIP_MPZ_CLEAR *)
Lemma clear_field_ok f s : objects_ok s -> exists s', clear_field f s = Ret tt s' /\ objects_ok s' /\ s_fld s' f = 0 /\
  (forall g, g <> f -> s_fld s' g = s_fld s g) /\ (forall p, s_heap s' p = if (p =? s_fld s f) && (0 <? p) then None else s_heap s p) /\ s_list s' = s_list s.
Proof.
  intros (Hid & Hnm & Hso & Hex). pose proof Hid as (Hi & Hh & Hl & Har).
  unfold clear_field, mbind, getst. destruct (Z.eqb_spec (s_fld s f) 0) as [Hz|Hz].
  - exists s. split; [reflexivity|]. split; [split; [assumption|]; auto|]. split; [assumption|]. split; [auto|]. split; [|reflexivity]. intros p.
    rewrite Hz. destruct (Z.eqb_spec p 0); cbn [andb]; [|reflexivity]. subst p. destruct (Z.ltb_spec 0 0); [lia|reflexivity].
  - destruct (Z.ltb_spec 0 (s_fld s f)) as [Hp|Hp].
    + destruct (Hso f) as [|[[b Hb] Hx]]; [lia|].
      assert (HG : exists s1, slip_gmp_free (s_fld s f) s = Ret tt s1 /\ s1 = set_heap (put (s_heap s) (s_fld s f) None) s).
      { unfold slip_gmp_free, mbind, getst. rewrite Hnm. cbn [Z.to_nat remove_entry].
        assert (Hrm : (if negb (s_fld s f =? 0) && negb (s_list s =? 0) then ret tt else ret tt) s = Ret tt s) by (destruct (_ && _); reflexivity).
        rewrite Hrm. unfold safe_free, mbind, modst, SLIP_free, mbind, getst. cbn [set_fld s_inited]. rewrite Hi. cbn [negb]. unfold SuiteSparse_free.
        destruct (Z.eqb_spec (s_fld s f) 0); [lia|]. unfold free_func. cbn [set_fld s_heap]. rewrite Hb. eexists. split; [reflexivity|].
        rewrite Har. cbn [existsb andb]. destruct s; reflexivity. }
      destruct HG as (s1 & -> & ->). unfold modst. eexists. split; [reflexivity|].
      assert (Hheap : forall p, put (s_heap s) (s_fld s f) None p = if (p =? s_fld s f) && (0 <? p) then None else s_heap s p).
      { intros p. unfold put. destruct (Z.eqb_spec p (s_fld s f)); cbn [andb]; [|reflexivity]. destruct (Z.ltb_spec 0 p); [reflexivity|lia]. }
      split; [|split; [apply put_same|split; [intros g Hg; simpl; apply put_other; assumption|split; [exact Hheap|reflexivity]]]].
      split; [|split; [exact Hnm|split]].
      * split; [exact Hi|]. split; [intros p c; simpl; destruct (put_cases (s_heap s) (s_fld s f) None p) as [[_ ->]|[_ ->]]; [discriminate|apply Hh]|].
        split; [|exact Har]. destruct Hl as [Hl|(Hl1 & lb & Hlb & Hsz)]; [left; exact Hl|right]. split; [exact Hl1|]. exists lb. split; [|exact Hsz]. simpl.
        rewrite put_other; [exact Hlb|congruence].
      * intros g. simpl. destruct (put_cases (s_fld s) f 0 g) as [[-> ->]|[Hg ->]]; [left; lia|]. destruct (Hso g) as [|[[c Hc] Hcx]]; [left; assumption|right].
        split; [|exact Hcx]. exists c. simpl. rewrite put_other; [assumption|]. intros Heq. apply (Hex f g); [congruence|assumption|congruence].
      * intros g h Hgh. simpl. destruct (put_cases (s_fld s) f 0 g) as [[-> ->]|[Hg ->]]; [lia|]. intros Hgp.
        destruct (put_cases (s_fld s) f 0 h) as [[-> ->]|[Hh' ->]]; [lia|]. apply Hex; assumption.
    + unfold ret, modst. eexists. split; [reflexivity|].
      split; [|split; [apply put_same|split; [intros g Hg; simpl; apply put_other; assumption|split; [|reflexivity]]]].
      * split; [exact Hid|]. split; [exact Hnm|]. split.
        -- intros g. simpl. destruct (put_cases (s_fld s) f 0 g) as [[-> ->]|[Hg ->]]; [left; lia|apply Hso].
        -- intros g h Hgh. simpl. destruct (put_cases (s_fld s) f 0 g) as [[-> ->]|[Hg ->]]; [lia|]. intros Hgp.
           destruct (put_cases (s_fld s) f 0 h) as [[-> ->]|[Hh' ->]]; [lia|]. apply Hex; assumption.
      * intros p. simpl. destruct (Z.eqb_spec p (s_fld s f)); cbn [andb]; [|reflexivity]. destruct (Z.ltb_spec 0 p); [lia|reflexivity].
Qed.
Lemma clear_ok obj : forall s, objects_ok s -> exists s', clear obj s = Ret tt s' /\ objects_ok s' /\ (forall f, In f obj -> s_fld s' f = 0) /\
  (forall g, ~ In g obj -> s_fld s' g = s_fld s g) /\ s_list s' = s_list s /\
  (forall p, (exists f, In f obj /\ s_fld s f = p /\ 0 < p) -> s_heap s' p = None) /\
  (forall p, 0 < p -> (forall f, In f obj -> s_fld s f <> p) -> s_heap s' p = s_heap s p).
Proof.
  induction obj as [|f l IH]; intros s Hok; cbn [clear].
  - exists s. split; [reflexivity|]. split; [assumption|]. split; [intros f []|]. split; [auto|]. split; [reflexivity|]. split; [intros p (f & [] & _)|auto].
  - destruct (@clear_field_ok f s Hok) as (s1 & H1 & Hok1 & Hf & Hg & Hh & Hl). destruct (IH s1 Hok1) as (s2 & H2 & Hok2 & Hf2 & Hg2 & Hl2 & Hd2 & Hh2).
    unfold mbind. rewrite H1. exists s2. split; [exact H2|]. split; [exact Hok2|].
    assert (Hz : forall h, s_fld s1 h = 0 -> s_fld s2 h = 0).
    { intros h Hh0. destruct (in_dec Z.eq_dec h l); [apply Hf2; assumption|]. rewrite Hg2 by assumption. assumption. }
    split; [intros h [->|Hh']; [apply Hz; assumption|apply Hf2; assumption]|].
    split; [intros g Hgn; rewrite Hg2 by (intros H; apply Hgn; right; assumption); apply Hg; intros ->; apply Hgn; left; reflexivity|].
    split; [congruence|]. split.
    + intros p (h & Hh' & Hhp & Hp). destruct (Z.eq_dec h f) as [->|Hhf].
      * (* p freed first; stays free *)
        assert (Hn1 : s_heap s1 p = None) by (rewrite Hh, Hhp, Z.eqb_refl; destruct (Z.ltb_spec 0 p); [reflexivity|lia]).
        rewrite Hh2; [exact Hn1|assumption|]. intros k Hk Hkp. destruct Hok1 as (Hid1 & _ & Hso1 & _). destruct (Hso1 k) as [|[[b Hb] _]]; [lia|]. rewrite Hkp in Hb. congruence.
      * apply Hd2. exists h. destruct Hh' as [|Hh']; [congruence|]. split; [assumption|]. split; [rewrite Hg by assumption; assumption|assumption].
    + intros p Hp0 Hp. rewrite Hh2; [|assumption|].
      * rewrite Hh. destruct (Z.eqb_spec p (s_fld s f)) as [->|]; [|reflexivity]. exfalso. apply (Hp f); [left; reflexivity|reflexivity].
      * intros k Hk. destruct (Z.eq_dec k f) as [->|Hkf]; [lia|rewrite Hg by assumption; apply Hp; right; assumption].
Qed.
End Call.
