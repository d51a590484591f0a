(* Ownership: every function of the factorisation and of the solution *)
From Coq Require Import ZArith List Bool Lia Arith.
From Verif Require Import Base MMatrix MRes PRes PRes2 PRes3.
Import ListNotations.
Set Bullet Behavior "Strict Subproofs".
Open Scope Z_scope.

Section fns.
Variable O : orc.
Variable L0 : list Z.
Variable st : Prop.
Notation hown := (hown O L0).
Notation J := (J O L0 st).
Notation FJ := (FJ O L0 st).
Notation post := (post O L0 st).
Notation keep := (keep O L0 st).

Lemma J_chk_call cs g ts F vs ats oN oE : FJ ats F (FQ oN oE) -> NoDup vs -> forallb (fun v => Nat.ltb v (length ts)) vs = true ->
  subs (map (fun v => nth v ts YNil) vs) ats = true -> length oN = length vs -> length oE = length vs -> subs (put_back ts vs oE) cs = true ->
  J cs g ts (chk (call F vs)) (fun _ g1 t1 => g1 = g /\ t1 = put_back ts vs oN).
Proof.
  intros HF HN Hv HS HLN HLE HE. eapply J_chk.
  - eapply J_call; [exact HF|exact HN| |exact HS|].
    + intros v Hi. rewrite forallb_forall in Hv. apply Nat.ltb_lt. auto.
    + intros [e|] ats' ->; assumption.
  - cbv beta. intros e g' ts' (ats' & -> & _ & ->). exact HE.
  - cbv beta. intros g' ts' (ats' & -> & -> & ->). auto.
Qed.
Lemma J_new cs g ts v kind type m n nzmax shallow init : nth_error ts v = Some YNil -> subs ts cs = true ->
  J cs g ts (new_matrix O v kind type m n nzmax shallow init) (fun _ g1 t1 => g1 = g /\ t1 = upd ts v (made kind type shallow init (room kind m n nzmax))).
Proof.
  intros Hv HS. assert (Hlen : (v < length ts)%nat) by (apply nth_error_Some; congruence).
  unfold new_matrix. eapply J_conseq; [eapply J_chk_call; [apply fj_allocate| | | | | |]|].
  - constructor; [intros []|constructor].
  - cbn [forallb]. apply Nat.ltb_lt in Hlen. rewrite Hlen. reflexivity.
  - cbn. erewrite nth_error_nth by exact Hv. reflexivity.
  - reflexivity.
  - reflexivity.
  - cbn. rewrite (upd_same ts v _ Hv). exact HS.
  - intros a g' ts' H. exact H.
Qed.
Lemma J_ign_scale cs g ts v kt : (st -> False) -> nth_error ts v = Some (YMat kt) -> J cs g ts (ign (on_scale (gmp O) v)) (fun _ g1 t1 => g1 = g /\ t1 = ts).
Proof.
  intros Hst Hv N base f s Hf Hs Hg. pose proof (J_scale O L0 st cs g ts v kt Hv N base f s Hf Hs Hg) as H. unfold ign, bind.
  destruct (on_scale (gmp O) v f s) as [r f' s'|e f' s'|]; cbn in *; [|exact H|exact H]. destruct H as (H1 & g' & ts' & (_ & ->) & H2 & _). split; [exact H1|]. exists g, ts. split; [auto|]. split; [exact H2|]. intros _ X. contradiction.
Qed.
Lemma J_getm {A} cs g ts v t (k : rmat -> M A) Q : nth_error ts v = Some t -> (forall o, okty t o -> exists A, o = Mat A) ->
  (forall B, okty t (Mat B) -> J cs g ts (k B) Q) -> J cs g ts (bind (getm v) k) Q.
Proof.
  intros Hv Ht H N base f s Hf Hs Hg. destruct (oks_nth _ _ _ _ Hf Hv) as [Ho _]. destruct (Ht _ Ho) as (B & E). unfold bind. rewrite (getm_at _ _ _ _ E). apply H; try assumption. rewrite <- E. exact Ho.
Qed.


Lemma keep_use cs g ts v t : nth_error ts v = Some t -> usable t = true -> keep cs g ts (use v).
Proof. intros. eapply J_use; eassumption. Qed.
Lemma J_keep cs g ts m : keep cs g ts m -> J cs g ts m (fun _ g1 t1 => g1 = g /\ t1 = ts).
Proof. exact (fun x => x). Qed.
Lemma J_free_arr' cs g ts v t : nth_error ts v = Some t -> sub t WA = true -> subs ts (upd ts v WA) = true -> J cs g ts (free_arr v) (fun _ g1 t1 => g1 = g /\ t1 = upd ts v YNil).
Proof.
  intros Hv Ht HS. eapply J_sub; [exact HS|]. eapply J_conseq; [apply J_free_arr; apply nth_error_upd_eq; apply nth_error_Some; congruence|]. cbv beta. intros a g1 t1 [-> ->]. split; [reflexivity|].
  clear. revert v. induction ts; intros [|v]; cbn; auto. f_equal. auto.
Qed.
Lemma upd_upd {A} (l : list A) v x y : upd (upd l v x) v y = upd l v y.
Proof. revert v. induction l; intros [|v]; cbn; auto. f_equal. auto. Qed.
Lemma J_matrix_free' cs g ts v : subs ts (upd ts v WM) = true -> (v < length ts)%nat -> J cs g ts (matrix_free v) (fun _ g1 t1 => g1 = g /\ t1 = upd ts v YNil).
Proof.
  intros HS Hv. eapply J_sub; [exact HS|]. eapply J_conseq; [apply J_matrix_free; apply nth_error_upd_eq; exact Hv|]. cbv beta. intros a g1 t1 [-> ->]. rewrite upd_upd. auto.
Qed.
Lemma J_analysis_free' cs g ts v : subs ts (upd ts v WS) = true -> (v < length ts)%nat -> J cs g ts (analysis_free v) (fun _ g1 t1 => g1 = g /\ t1 = upd ts v YNil).
Proof.
  intros HS Hv. eapply J_sub; [exact HS|]. eapply J_conseq; [apply J_analysis_free; apply nth_error_upd_eq; exact Hv|]. cbv beta. intros a g1 t1 [-> ->]. rewrite upd_upd. auto.
Qed.
Lemma J_clear_num' cs g ts v k : subs ts (upd ts v (YNum k)) = true -> (v < length ts)%nat -> J cs g ts (clear_num v) (fun _ g1 t1 => g1 = g /\ t1 = upd ts v (YZero k)).
Proof.
  intros HS Hv. eapply J_sub; [exact HS|]. eapply J_conseq; [apply J_clear_num; apply nth_error_upd_eq; exact Hv|]. cbv beta. intros a g1 t1 [-> ->]. rewrite upd_upd. auto.
Qed.
End fns.
Lemma sub_refl t : usable t = true -> sub t t = true.
Proof. destruct t; try discriminate; intros _; cbn [sub]; try (match goal with |- context [obj_eq_dec ?o ?o] => destruct (obj_eq_dec o o); [reflexivity|congruence] end); rewrite ?eqb_reflx, ?Z.eqb_refl, ?Nat.eqb_refl; try reflexivity; destruct kt as [[]|]; cbn; rewrite ?Z.eqb_refl; reflexivity. Qed.
Lemma ktsub_refl kt : ktsub kt kt = true.
Proof. destruct kt as [[]|]; cbn; rewrite ?Z.eqb_refl; reflexivity. Qed.
Ltac subt := cbn [subs upd put_back made negb andb sub map nth]; rewrite ?ktsub_refl; rewrite ?sub_refl by assumption; cbn [andb]; rewrite ?eqb_reflx, ?Z.eqb_refl, ?Nat.eqb_refl; reflexivity.
Ltac lent := cbn; lia.
Ltac usab := first [reflexivity | assumption].
(* a statement that keeps the types *)
Ltac kp := lazymatch goal with |- PRes2.keep _ _ _ _ _ _ ?m => lazymatch m with
  | ret tt => apply keep_ret
  | when _ _ => unfold when
  | chk (gread _) => apply keep_gread; subt
  | chk (gent _ _) => eapply keep_gent; [reflexivity|subt]
  | chk (on_scale (gmp _) _) => eapply keep_scale; [reflexivity|subt]
  | chk (on_num (gmp _) _) => eapply keep_num; [reflexivity|subt]
  | use _ => eapply keep_use; [reflexivity|usab]
  | maybe _ _ => apply keep_maybe; kp
  | some_times _ _ => apply keep_some; kp
  | rep _ _ => apply keep_rep; kp
  | bind (coin _) (fun _ => if _ then _ else _) => apply keep_coin; intros []; kp
  | bind _ _ => apply keep_seq; kp
  end end.

Section calls.
Variable O : orc.
Variable L0 : list Z.
Variable st : Prop.
Lemma J_assoc {A B C} cs g ts (a : M A) (b : A -> M B) (c : B -> M C) Q :
  J O L0 st cs g ts (bind a (fun x => bind (b x) c)) Q -> J O L0 st cs g ts (bind (bind a b) c) Q.
Proof.
  intros H N base f s Hf Hs Hg. specialize (H N base f s Hf Hs Hg). unfold bind in *. destruct (a f s); exact H.
Qed.
Lemma J_last cs g ts (m : M unit) Q : J O L0 st cs g ts (m ;; ret tt) Q -> J O L0 st cs g ts m Q.
Proof. intros H N base f s Hf Hs Hg. specialize (H N base f s Hf Hs Hg). unfold bind, ret in H. destruct (m f s) as [[] ? ?|? ? ?|]; exact H. Qed.
Lemma J_if {A} cs g ts (b : bool) (m1 m2 : M A) Q : (b = true -> J O L0 st cs g ts m1 Q) -> (b = false -> J O L0 st cs g ts m2 Q) -> J O L0 st cs g ts (if b then m1 else m2) Q.
Proof. destruct b; auto. Qed.
Lemma J_retbind {A B} cs g ts (a : A) (k : A -> M B) Q : J O L0 st cs g ts (k a) Q -> J O L0 st cs g ts (bind (ret a) k) Q.
Proof. exact (fun x => x). Qed.
End calls.

Create HintDb fj.
Ltac nodup := repeat constructor; cbn; intuition discriminate.
Ltac fin := cbv beta; lazymatch goal with |- exists out loc, ?ts = _ /\ length out = length ?ats /\ _ =>
  let n := eval cbn in (length ats) in let o := eval cbn in (firstn n ts) in let l := eval cbn in (skipn n ts) in
  exists o, l; split; [reflexivity|]; split; [reflexivity|]; split; [reflexivity|]; first [intros; reflexivity | split; [reflexivity|first [reflexivity | discriminate]]] end.
(* the next statement *)
Ltac js := cbn [app upd put_back]; lazymatch goal with |- PRes2.J _ _ _ _ _ ?ts ?m _ => lazymatch m with
  | bind (bind _ _) _ => apply J_assoc; cbv beta
  | bind (ret _) _ => apply J_retbind
  | bind (if ?b then _ else _) _ => destruct b eqn:?
  | bind (setv _ Nil) _ => eapply J_seq; [apply J_setnil; reflexivity|]
  | bind (matrix_free _) _ => eapply J_seq; [apply J_matrix_free'; [subt|lent]|]
  | bind (analysis_free _) _ => eapply J_seq; [apply J_analysis_free'; [subt|lent]|]
  | bind (free_arr _) _ => eapply J_seq; [eapply J_free_arr'; [reflexivity|reflexivity|subt]|]
  | bind (clear_num ?v) _ => let t := eval cbn in (nth v ts YNil) in
      lazymatch t with YNum ?k => eapply J_seq; [apply (@J_clear_num' _ _ _ _ _ _ _ k); [subt|lent]|] | YZero ?k => eapply J_seq; [apply (@J_clear_num' _ _ _ _ _ _ _ k); [subt|lent]|] end
  | bind (hand_over _ _) _ => eapply J_seq; [eapply J_hand_over; [reflexivity|reflexivity|discriminate]|]
  | bind (new_matrix _ _ _ _ _ _ _ _ _) _ => eapply J_seq; [apply J_new; [reflexivity|subt]|]; cbn [made negb andb Z.eqb TMPZ]
  | bind (chk (on_num (ginit _) _)) _ => eapply J_seq; [apply J_init_num; [reflexivity|subt]|]
  | bind (chk (call _ ?vs)) _ => let a := eval cbn in (map (fun v => nth v ts YNil) vs) in
      eapply J_seq; [eapply (@J_chk_call _ _ _ _ _ _ _ _ a); [solve [eauto with fj]|nodup|reflexivity|subt|reflexivity|reflexivity|subt]|]
  | bind (coin _) _ => apply J_coin_bind; intros []
  | bind (pick _) _ => apply J_pick_bind; intros ?
  | bind _ _ => eapply J_seq; [apply J_keep; kp|]
  | stop _ => apply J_stop; subt
  | ret _ => apply J_ret
  | (if ?b then _ else _) => destruct b eqn:?
  | _ => apply J_last
  end end.
Ltac fjt ats lts cs := unfold PRes2.FJ; lazymatch goal with |- PRes2.FJ _ _ _ _ _ _ => idtac | _ => idtac end;
  eapply (@FJ_func _ _ _ ats lts cs); [repeat constructor|reflexivity| | |intros ? ? ? ? ? EE; match type of EE with ?m ?f ?s = _ => let H := fresh in assert (H : nostop m) by nostop_tac; specialize (H f s); rewrite EE in H; exact H end].

Section fns2.
Variable O : orc.
Variable L0 : list Z.
Variable st : Prop.
Notation J := (J O L0 st).
Notation FJ := (FJ O L0 st).

Lemma fj_tri tL tA tR kt : usable tL = true -> usable tA = true -> usable tR = true ->
  FJ [YMat kt; tL; tA; tR] (slip_ref_triangular_solve O) (FQ [YMat kt; tL; tA; tR] [YMat kt; tL; tA; tR]).
Proof.
  intros HL HA HR. eapply (@FJ_func O L0 st [YMat kt; tL; tA; tR] [] [YMat kt; tL; tA; tR]); [constructor|reflexivity| | |].
  - repeat js. fin.
  - repeat js. fin.
  - intros; discriminate.
Qed.
Lemma fj_smallest kt : FJ [YMat kt] (slip_get_smallest_pivot O) (FQ [YMat kt] [YMat kt]).
Proof. fjt [YMat kt] [YZero 1] [YMat kt; YNum 1]; repeat js; fin. Qed.
Lemma fj_largest kt : FJ [YMat kt] (slip_get_largest_pivot O) (FQ [YMat kt] [YMat kt]).
Proof. fjt [YMat kt] [YZero 1] [YMat kt; YNum 1]; repeat js; fin. Qed.
Lemma fj_nonzero kt : FJ [YMat kt] (slip_get_nonzero_pivot O) (FQ [YMat kt] [YMat kt]).
Proof. fjt [YMat kt] (@nil ty) [YMat kt]; repeat js; fin. Qed.
Hint Resolve fj_smallest fj_largest fj_nonzero : fj.

Lemma fj_permute_b m n tb tp : usable tb = true -> usable tp = true ->
  FJ [YNil; tb; tp] (slip_permute_b O m n) (FQ [YMat (Some (KDENSE, TMPZ)); tb; tp] [YNil; tb; tp]).
Proof. intros Hb Hp. fjt [YNil; tb; tp] [YNil] [YNil; tb; tp; WM]; repeat js; fin. Qed.
Lemma fj_permute_x m n tb tp : usable tb = true -> usable tp = true ->
  FJ [YNil; tb; tp] (slip_permute_x O m n) (FQ [YMat (Some (KDENSE, TMPQ)); tb; tp] [YNil; tb; tp]).
Proof. intros Hb Hp. fjt [YNil; tb; tp] [YNil] [YNil; tb; tp; WM]; repeat js; fin. Qed.
Lemma fj_forward m n nz kt tL tR : usable tL = true -> usable tR = true ->
  FJ [YMat kt; tL; tR] (slip_forward_sub O m n nz) (FQ [YMat kt; tL; tR] [YMat kt; tL; tR]).
Proof. intros Hb Hp. fjt [YMat kt; tL; tR] [YNil] [YMat kt; tL; tR; WM]; repeat js; fin. Qed.
Lemma fj_mul kt : FJ [YMat kt] (slip_matrix_mul O) (FQ [YMat kt] [YMat kt]).
Proof. fjt [YMat kt] (@nil ty) [YMat kt]; repeat js; fin. Qed.
Lemma fj_back kt tU : usable tU = true -> FJ [YMat kt; tU] (slip_back_sub O) (FQ [YMat kt; tU] [YMat kt; tU]).
Proof. intros HU. fjt [YMat kt; tU] (@nil ty) [YMat kt; tU]; repeat js; fin. Qed.
Lemma fj_div m n tx tr : usable tx = true -> usable tr = true ->
  FJ [YNil; tx; tr] (slip_matrix_div O m n) (FQ [YMat (Some (KDENSE, TMPQ)); tx; tr] [YNil; tx; tr]).
Proof. intros Hx Hr. fjt [YNil; tx; tr] [YNil; YZero 2] [YNil; tx; tr; WM; YNum 2]; repeat js; fin. Qed.
Lemma fj_check m n nz tA tx tb : usable tA = true -> usable tx = true -> usable tb = true ->
  FJ [tA; tx; tb] (slip_check_solution O m n nz) (FQ [tA; tx; tb] [tA; tx; tb]).
Proof. intros HA Hx Hb. fjt [tA; tx; tb] [YNil; YZero 2] [tA; tx; tb; WM; YNum 2]; repeat js; fin. Qed.
Hint Resolve fj_permute_b fj_permute_x fj_forward fj_mul fj_back fj_div fj_check : fj.
Hint Extern 1 (usable _ = true) => first [reflexivity|assumption] : fj.

Lemma fj_solve args check m nrhs tb tA tL tU tR tS tp :
  usable tb = true -> usable tA = true -> usable tL = true -> usable tU = true -> usable tR = true -> usable tS = true -> usable tp = true ->
  FJ [YNil; tb; tA; tL; tU; tR; tS; tp] (SLIP_LU_solve O args check m nrhs)
    (FQ [YMat (Some (KDENSE, TMPQ)); tb; tA; tL; tU; tR; tS; tp] [YNil; tb; tA; tL; tU; tR; tS; tp]).
Proof.
  intros Hb HA HL HU HR HS Hp. fjt [YNil; tb; tA; tL; tU; tR; tS; tp] [YZero 2; YNil; YNil; YNil] [YNil; tb; tA; tL; tU; tR; tS; tp; YNum 2; WM; WM; WM].
  - destruct args; unfold s_work; repeat js; fin.
  - unfold s_work; repeat js; fin.
Qed.
End fns2.
