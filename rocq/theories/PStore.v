(* The store model of SLIP_LU_solve: it touches only objects it created itself, and it computes what the value model computes. *)
From Verif Require Import Base MFactor MSolve MMatrix MApi MStore.
Set Implicit Arguments.
Open Scope Z_scope.
Set Bullet Behavior "Strict Subproofs".

(*----------------------------------------------------------------------------*)
(* the first n cells are left alone, whatever happens *)
Definition frames {A} (n : nat) (P : sm A) (Q : A -> Prop) : Prop :=
  forall s, (n <= length s)%nat ->
    (n <= length (snd (P s)))%nat /\ firstn n (snd (P s)) = firstn n s /\ forall a, fst (P s) = Ok a -> Q a.
Definition any {A} : A -> Prop := fun _ => True.

Lemma fr_ret A n (a : A) (Q : A -> Prop) : Q a -> frames n (sret a) Q.
Proof. intros H s Hs. simpl. repeat split; auto. congruence. Qed.
Lemma fr_fail A n e (Q : A -> Prop) : frames n (fail e) Q.
Proof. intros s Hs. simpl. repeat split; auto. congruence. Qed.
Lemma fr_lift A n (m : res A) : frames n (lift m) any.
Proof. intros s Hs. simpl. repeat split; auto. Qed.
Lemma fr_bind A B n (m : sm A) (k : A -> sm B) Q R : frames n m Q -> (forall a, Q a -> frames n (k a) R) -> frames n (sbind m k) R.
Proof.
  intros Hm Hk s Hs. destruct (Hm s Hs) as (H1 & H2 & H3). unfold sbind. destruct (m s) as [r s']. simpl in *.
  destruct r as [a|e| |]; simpl; try (repeat split; auto; congruence).
  destruct (Hk a (H3 a eq_refl) s' H1) as (K1 & K2 & K3). repeat split; auto. congruence.
Qed.
Lemma fr_weak A n (m : sm A) (Q R : A -> Prop) : frames n m Q -> (forall a, Q a -> R a) -> frames n m R.
Proof. intros H HQ s Hs. destruct (H s Hs) as (H1 & H2 & H3). repeat split; auto. Qed.
Lemma fr_any A n (m : sm A) Q : frames n m Q -> frames n m any.
Proof. intros H. eapply fr_weak; eauto. intros; exact I. Qed.
Lemma fr_loop n body : (forall i, frames n (body i) any) -> forall c i, frames n (sloop c i body) any.
Proof. intros H. induction c; intros i; simpl. apply fr_ret; exact I. eapply fr_bind. apply H. intros; apply IHc. Qed.
Lemma fr_dloop n body : (forall i, frames n (body i) any) -> forall c i, frames n (sdloop c i body) any.
Proof. intros H. induction c; intros i; simpl. apply fr_ret; exact I. eapply fr_bind. apply H. intros; apply IHc. Qed.
Lemma fr_for n lo hi body : (forall i, frames n (body i) any) -> frames n (sfor lo hi body) any.
Proof. intros. apply fr_loop; auto. Qed.
Lemma fr_down n lo hi body : (forall i, frames n (body i) any) -> frames n (sdown hi lo body) any.
Proof. intros. apply fr_dloop; auto. Qed.
Lemma fr_if A n (b : bool) (m m' : sm A) Q : frames n m Q -> frames n m' Q -> frames n (if b then m else m') Q.
Proof. destruct b; auto. Qed.
Lemma fr_ldM n h : frames n (ldM h) any.
Proof. intros s Hs. simpl. repeat split; auto. Qed.
Lemma fr_ldA n h : frames n (ldA h) any.
Proof. intros s Hs. simpl. repeat split; auto. Qed.
Lemma fr_ldS n h : frames n (ldS h) any.
Proof. intros s Hs. simpl. repeat split; auto. Qed.
Lemma firstn_upd A (l : list A) n h v : (n <= h)%nat -> firstn n (upd l h v) = firstn n l.
Proof. revert n h; induction l; intros [|n] [|h] H; simpl; auto; try lia. f_equal. apply IHl. lia. Qed.
Lemma fr_put n h o : (n <= h)%nat -> frames n (put h o) any.
Proof. intros H s Hs. simpl. rewrite length_upd, firstn_upd by auto. repeat split; auto. Qed.
Lemma fr_alloc n k t m c z : frames n (s_allocate k t m c z) (fun h => n <= h)%nat.
Proof.
  intros s Hs. unfold s_allocate. destruct (matrix_allocate k t m c z false) as [A|e| |]; simpl; try (repeat split; auto; congruence).
  rewrite app_length, firstn_app. replace (n - length s)%nat with O by lia. simpl. rewrite app_nil_r.
  split; [lia|]. split; [reflexivity|]. intros a E. injection E as <-. exact Hs.
Qed.
Lemma fr_free n h : (n <= h)%nat -> frames n (s_free (Some h)) any.
Proof.
  intros H s Hs. simpl. destruct (nth_error s h) as [[[]|]|]; simpl; repeat split; auto.
  rewrite length_upd; auto. apply firstn_upd; auto.
Qed.
Lemma fr_always A n (m : sm A) c Q : frames n m Q -> frames n c any -> frames n (always m c) Q.
Proof.
  intros Hm Hc s Hs. destruct (Hm s Hs) as (H1 & H2 & H3). unfold always. destruct (m s) as [r s']. simpl in *.
  destruct r as [a|e| |]; simpl; try (repeat split; auto; congruence);
    destruct (Hc s' H1) as (K1 & K2 & K3); destruct (c s') as [r s'']; simpl in *; destruct r; simpl; repeat split; auto; try congruence.
Qed.
Lemma fr_checked A n (m : sm A) c Q : frames n m Q -> frames n c any -> frames n (checked m c) Q.
Proof.
  intros Hm Hc s Hs. destruct (Hm s Hs) as (H1 & H2 & H3). unfold checked. destruct (m s) as [r s']. simpl in *.
  destruct r as [a|e| |]; simpl; try (repeat split; auto; congruence).
  destruct (Hc s' H1) as (K1 & K2 & K3); destruct (c s') as [r s'']; simpl in *; destruct r; simpl; repeat split; auto; try congruence.
Qed.

Create HintDb fr.
Ltac fr1 := match goal with
  | |- frames _ (sbind _ _) _ => eapply fr_bind; [solve [eauto 3 with fr]|intros ? ?]
  | |- frames _ (sret _) _ => apply fr_ret; first [exact I|assumption]
  | |- frames _ (fail _) _ => apply fr_fail
  | |- frames _ (lift _) _ => apply fr_lift
  | |- frames _ (if _ then _ else _) _ => apply fr_if
  | |- frames _ (sfor _ _ _) _ => apply fr_for; intros ?
  | |- frames _ (sdown _ _ _) _ => apply fr_down; intros ?
  | |- frames _ (checked _ _) _ => apply fr_checked
  | |- frames _ (always _ _) _ => apply fr_always
  | _ => solve [eauto 3 with fr]
  end.
#[export] Hint Resolve fr_ldM fr_ldA fr_ldS fr_lift fr_put fr_alloc fr_free fr_fail : fr.
Ltac frs := repeat fr1.
Ltac frb := repeat (first [fr1 | eapply fr_bind; [frs|intros ? ?]]).

Lemma fr_ldp n h k : frames n (ldp h k) any. Proof. unfold ldp. frs. Qed.
Lemma fr_ldi n h k : frames n (ldi h k) any. Proof. unfold ldi. frs. Qed.
Lemma fr_ldz n h k : frames n (ldz h k) any. Proof. unfold ldz. frs. Qed.
Lemma fr_ldq n h k : frames n (ldq h k) any. Proof. unfold ldq. frs. Qed.
Lemma fr_ldint n h k : frames n (ldint h k) any. Proof. unfold ldint. frs. Qed.
Lemma fr_at2 n h i j : frames n (at2 h i j) any. Proof. unfold at2. frs. Qed.
Lemma fr_stz n h k v : (n <= h)%nat -> frames n (stz h k v) any. Proof. intros; unfold stz. frs. Qed.
Lemma fr_stq n h k v : (n <= h)%nat -> frames n (stq h k v) any. Proof. intros; unfold stq. frs. Qed.
Lemma fr_stint n h k v : (n <= h)%nat -> frames n (stint h k v) any. Proof. intros; unfold stint. frs. Qed.
#[export] Hint Resolve fr_ldp fr_ldi fr_ldz fr_ldq fr_ldint fr_at2 fr_stz fr_stq fr_stint : fr.
Lemma fr_zmul n h k b : (n <= h)%nat -> frames n (z_mul h k b) any. Proof. intros; unfold z_mul. frs. Qed.
Lemma fr_zsub n h k b c : (n <= h)%nat -> frames n (z_submul h k b c) any. Proof. intros; unfold z_submul. frs. Qed.
Lemma fr_zdiv n h k b : (n <= h)%nat -> frames n (z_divexact h k b) any. Proof. intros; unfold z_divexact. frs. Qed.
Lemma fr_qmul n h k b : (n <= h)%nat -> frames n (q_mul h k b) any. Proof. intros; unfold q_mul. frs. Qed.
Lemma fr_qadd n h k b : (n <= h)%nat -> frames n (q_add h k b) any. Proof. intros; unfold q_add. frs. Qed.
Lemma fr_qdiv n h k b : (n <= h)%nat -> frames n (q_div h k b) any. Proof. intros; unfold q_div. frs. Qed.
Lemma fr_qnum n h k b : (n <= h)%nat -> frames n (q_set_num h k b) any. Proof. intros; unfold q_set_num. frs. Qed.
Lemma fr_req n h k t : frames n (require h k t) any. Proof. unfold require. frs. Qed.
#[export] Hint Resolve fr_zmul fr_zsub fr_zdiv fr_qmul fr_qadd fr_qdiv fr_qnum fr_req : fr.
Lemma fr_hist n x r k hx i : (n <= x)%nat -> frames n (s_hist x r k hx i) any. Proof. intros; unfold s_hist. frb. Qed.
#[export] Hint Resolve fr_hist : fr.
Lemma fr_permb n b p : frames n (s_permute_b b p) (fun h => n <= h)%nat. Proof. unfold s_permute_b. frb. Qed.
Lemma fr_inner n L x h rhos k i j : (n <= x)%nat -> (n <= h)%nat -> frames n (s_fwd_inner L x h rhos k i j) any.
Proof. intros; unfold s_fwd_inner. frb. Qed.
#[export] Hint Resolve fr_inner : fr.
Lemma fr_row n L x h rhos k i : (n <= x)%nat -> (n <= h)%nat -> frames n (s_fwd_row L x h rhos k i) any.
Proof. intros; unfold s_fwd_row. frb. Qed.
#[export] Hint Resolve fr_row : fr.
Lemma fr_fsub n L x rhos : (n <= x)%nat -> frames n (s_forward_sub L x rhos) any.
Proof. intros; unfold s_forward_sub. frb. Qed.
Lemma fr_mmul n x sh sk : (n <= x)%nat -> frames n (s_matrix_mul x sh sk) any.
Proof. intros; unfold s_matrix_mul. frb. Qed.
Lemma fr_bsub n U x : (n <= x)%nat -> frames n (s_back_sub U x) any.
Proof. intros; unfold s_back_sub. frb. Qed.
Lemma fr_mdiv n x sh sk : frames n (s_matrix_div x sh sk) (fun h => n <= h)%nat.
Proof. intros; unfold s_matrix_div. frb. Qed.
Lemma fr_permx n x S : frames n (s_permute_x x S) (fun h => n <= h)%nat.
Proof. intros; unfold s_permute_x. frb. Qed.
Lemma fr_chk n A x b : frames n (s_check_solution A x b) any.
Proof. intros; unfold s_check_solution. frb. Qed.
Lemma fr_scale n x c : (n <= x)%nat -> frames n (s_scale x c) any.
Proof. intros; unfold s_scale. frb. Qed.
#[export] Hint Resolve fr_permb fr_fsub fr_mmul fr_bsub fr_mdiv fr_permx fr_chk fr_scale : fr.
Lemma fr_body n b A L U r S p ck : frames n (s_solve_body b A L U r S p ck) (fun h => n <= h)%nat.
Proof. unfold s_solve_body. frb. Qed.
