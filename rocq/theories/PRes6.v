(* Ownership: conversion of matrices, and SLIP_backslash *)
From Coq Require Import ZArith List Bool Lia Arith.
From Verif Require Import Base MMatrix MRes PRes PRes2 PRes3 PRes4 PRes5.
Import ListNotations.
Set Bullet Behavior "Strict Subproofs".
Open Scope Z_scope.

Section fns.
Variable O : orc.
Variable L0 : list Z.
Variable st : Prop.
Notation hown := (hown O L0).
Notation J := (J O L0 st).
Notation FJ := (FJ O L0 st).
Notation keep := (keep O L0 st).

Lemma J_expand_gcd {A} cs g ts (k : bool -> M A) Q : nth_error ts 1 = Some (YNum 1) -> subs ts cs = true -> (forall b, J cs g ts (k b) Q) -> J cs g ts (bind (expand_gcd O) k) Q.
Proof.
  intros H1 HS Hk. unfold expand_gcd. apply J_assoc. apply J_coin_bind. intros found. apply J_assoc.
  eapply J_seq with (g' := g) (ts' := ts); [|apply J_retbind; apply Hk].
  apply J_keep. apply keep_some. apply keep_seq; [apply keep_gread; exact HS|]. apply keep_seq; apply keep_maybe; [eapply keep_num; eassumption|]. apply keep_seq; [eapply keep_num; eassumption|apply keep_gread; exact HS].
Qed.
Lemma fj_expand_double n kt : (st -> False) -> FJ [YMat kt] (slip_expand_double_array O n) (FQ [YMat kt] [YMat kt]).
Proof.
  intros Hst. unfold slip_expand_double_array. fjt [YMat kt] [YZero 1; YZero 1; YZero 2; YNil] [YMat kt; YNum 1; YNum 1; YNum 2; WM].
  - repeat js. apply J_expand_gcd; [reflexivity|subt|]. intros [].
    + cbn [negb]. repeat js; fin.
    + cbn [negb]. repeat js. eapply J_seq; [eapply J_ign_scale; [exact Hst|reflexivity]|]. repeat js; fin.
  - repeat js; fin.
Qed.
Lemma fj_expand_mpfr n kt : (st -> False) -> FJ [YMat kt] (slip_expand_mpfr_array O n) (FQ [YMat kt] [YMat kt]).
Proof.
  intros Hst. unfold slip_expand_mpfr_array. fjt [YMat kt] [YZero 1; YZero 1; YZero 2; YNil; YZero 1; YZero 1] [YMat kt; YNum 1; YNum 1; YNum 2; WM; YNum 1; YNum 1].
  - repeat js. apply J_expand_gcd; [reflexivity|subt|]. intros [].
    + cbn [negb]. repeat js; fin.
    + cbn [negb]. repeat js. eapply J_seq; [eapply J_ign_scale; [exact Hst|reflexivity]|]. repeat js; fin.
  - repeat js; fin.
Qed.
Lemma fj_expand_mpq n kt : FJ [YMat kt] (slip_expand_mpq_array O n) (FQ [YMat kt] [YMat kt]).
Proof.
  unfold slip_expand_mpq_array. fjt [YMat kt] [YZero 1; YNil; YNil] [YMat kt; YNum 1; WM; WM]; repeat js; fin.
Qed.
Hint Resolve fj_expand_double fj_expand_mpfr fj_expand_mpq : fj.
Hint Extern 1 (usable _ = true) => first [reflexivity|assumption] : fj.

(* the casts with an unchecked call: mpfr and double to mpz *)
Definition unchecked_cast (ytype xtype : Z) : bool := (ytype =? TMPZ) && negb ((xtype =? TMPZ) || (xtype =? TMPQ) || (xtype =? TINT)).
Lemma fj_cast_array ytype xtype n kt tA : (st -> unchecked_cast ytype xtype = false) -> usable tA = true ->
  FJ [YMat kt; tA] (slip_cast_array O ytype xtype n) (FQ [YMat kt; tA] [YMat kt; tA]).
Proof.
  intros Hst HuA. unfold slip_cast_array. unfold unchecked_cast in Hst.
  fjt [YMat kt; tA] [YZero 2] [YMat kt; tA; YNum 2].
  - js. assert (Hend : J [YMat kt; tA; YNum 2] true [YMat kt; tA; YNum 2] (clear_num 2 ;; ret None) (fun r g ts => exists out loc, ts = out ++ loc /\ length out = length [YMat kt; tA] /\ forallb dead loc = true /\ FQ [YMat kt; tA] [YMat kt; tA] r out /\ (r = None -> g = true))) by (repeat js; fin).
    assert (HSub : subs [YMat kt; tA; YZero 2] [YMat kt; tA; YNum 2] = true) by subt.
    pose proof (J_sub _ _ _ _ _ _ _ _ _ HSub Hend) as Hend2.
    destruct (ytype =? TMPZ) eqn:Ey.
    { cbn [andb] in Hst. destruct (xtype =? TMPZ) eqn:E1; [repeat (first [exact Hend2 | js])|]. destruct (xtype =? TMPQ) eqn:E2; [repeat (first [exact Hend2 | js])|]. destruct (xtype =? TINT) eqn:E3.
      - destruct (xtype =? TMPFR) eqn:E4; [apply Z.eqb_eq in E3, E4; subst; discriminate|]. repeat (first [exact Hend2 | js]).
      - cbn [orb negb] in Hst. assert (Hst' : st -> False) by (intros X; discriminate (Hst X)). destruct (xtype =? TMPFR); repeat (first [exact Hend2 | js]). }
    clear Hst. destruct (ytype =? TMPQ); [destruct (xtype =? TMPZ); repeat (first [exact Hend2 | js])|].
    destruct (ytype =? TMPFR); [destruct (xtype =? TMPZ); repeat (first [exact Hend2 | exact Hend | js])|].
    destruct (xtype =? TMPZ); repeat (first [exact Hend2 | exact Hend | js]).
  - repeat js; fin.
Qed.

Hint Resolve fj_cast_array : fj.
Definition known (kt : option (Z * Z)) (P : Z -> Z -> bool) : Prop := exists k t, kt = Some (k, t) /\ P k t = true.
Definition mty (tA : ty) (kt : option (Z * Z)) : Prop := usable tA = true /\ forall o, okty tA o -> exists A, o = Mat A /\ ktok kt A.
Lemma mty_any kt : mty (YAny kt) kt.
Proof. split; [reflexivity|]. intros o (A & -> & _ & H). exists A. auto. Qed.
Lemma fj_cast_matrix ytype nz tA kt : mty tA kt -> (st -> known kt (fun _ t => negb (unchecked_cast ytype t))) ->
  FJ [YNil; tA] (slip_cast_matrix O ytype nz) (FQ [YAny None; tA] [YNil; tA]).
Proof.
  intros HM Hst. pose proof HM as [HuA HTA]. fjt [YNil; tA] [YNil] [YNil; tA; WM]; [|repeat js; fin].
  cbn [app]. eapply J_getm; [reflexivity|intros o Ho; destruct (HTA _ Ho) as (A & -> & _); exists A; reflexivity|]. intros A HA. destruct (HTA _ HA) as (A' & EA & HK). injection EA as <-.
  assert (Hend : J [YNil; tA; WM] true [YNil; tA; YAny None] (hand_over 2 0 ;; ret None) (fun r g ts => exists out loc, ts = out ++ loc /\ length out = length [YNil; tA] /\ forallb dead loc = true /\ FQ [YAny None; tA] [YNil; tA] r out /\ (r = None -> g = true))) by (repeat js; fin).
  js. unfold made. destruct (ytype =? r_type A) eqn:E.
  - cbn [upd]. apply J_assoc. intros N base f s Hf Hs Hg. destruct (oks_nth _ _ 2 _ Hf eq_refl) as [(Y & EY & HY & HS) Hl]. unfold bind at 1. rewrite (getm_at _ _ _ _ EY).
    unfold bind at 1. unfold setv. apply Hend; [|eapply hown_ext; [|exact Hs]|exact Hg].
    + apply (oks_upd [YNil; tA; YShal] f 2 (YAny None)); [exact Hf|]. eexists. split; [reflexivity|]. split; [|exact I]. split; [|cbn; congruence]. destruct HY as (K1 & K2 & K3). split; [exact K1|]. split; [exact K2|]. cbn. congruence.
    + intros q. cbv beta. pose proof (fc_upd q f 2 (Mat (set_x (r_x A) (r_ent A) Y)) Hl) as Hq. rewrite EY in Hq. cbn [oc] in Hq.
      assert (EM : mc q (set_x (r_x A) (r_ent A) Y) = mc q Y) by (unfold mc; rm; rewrite HS; reflexivity). lia.
  - cbn [negb andb]. assert (Hf : st -> unchecked_cast ytype (r_type A) = false).
    { intros X. destruct (Hst X) as (k & t & -> & E'). cbn in HK. destruct HK as [_ ->]. apply negb_true_iff. exact E'. }
    js. eapply J_sub; [|exact Hend]. subt.
Qed.

Hint Resolve fj_cast_matrix : fj.
(* conversions without an unchecked call *)
Definition okind (ckind : Z) : Z := if ckind =? KCSC then KCSC else if ckind =? KTRIP then KTRIP else KDENSE.
Definition checked_copy (ckind ctype k t : Z) : bool :=
  negb (unchecked_cast ctype t) && (if ckind =? KCSC then k =? KCSC else if ckind =? KTRIP then negb (k =? KDENSE) else k =? KDENSE).
Lemma J_copy_nnz {A} cs g ts tA kt (k : Z -> M A) Q : mty tA kt -> nth_error ts 1 = Some tA -> (forall nz, J cs g ts (k nz) Q) -> J cs g ts (bind (copy_nnz O) k) Q.
Proof.
  intros [HuA HTA] H1 Hk. unfold copy_nnz. apply J_assoc. eapply J_getm; [exact H1|intros o Ho; destruct (HTA _ Ho) as (A' & -> & _); exists A'; reflexivity|]. intros B _. destruct (r_kind B =? KDENSE); [apply J_retbind; apply Hk|]. apply J_assoc. apply J_pick_bind. intros z. apply J_retbind. apply Hk.
Qed.
Lemma fj_copy_flat ckind ctype tA kt : mty tA kt -> (st -> known kt (checked_copy ckind ctype)) ->
  FJ [YNil; tA] (copy_flat O ckind ctype) (FQ [YMat (Some (okind ckind, ctype)); tA] [YNil; tA]).
Proof.
  intros HM Hst. pose proof HM as [HuA HTA]. unfold copy_flat, c_free, c_work. fjt [YNil; tA] [YNil; YNil; YNil; YNil] [YNil; tA; WM; WM; WM; WA]; [|repeat js; fin].
  js. js. eapply J_getm; [reflexivity|intros o Ho; destruct (HTA _ Ho) as (A & -> & _); exists A; reflexivity|]. intros A HA. destruct (HTA _ HA) as (A' & EA & HK). injection EA as <-. eapply J_copy_nnz; [split; eassumption|reflexivity|]. intros nz.
  set (QF := fun (r : option info) g ts => exists out loc, ts = out ++ loc /\ length out = length [YNil; tA] /\ forallb dead loc = true /\ FQ [YMat (Some (okind ckind, ctype)); tA] [YNil; tA] r out /\ (r = None -> g = true)).
  set (cs := [YNil; tA; WM; WM; WM; WA]).
  assert (Hend : forall t3 t5, sub t3 WM = true -> sub t5 WA = true ->
    J cs true [YNil; tA; YMat (Some (okind ckind, ctype)); t3; YNil; t5] ((matrix_free 4 ;; matrix_free 3 ;; free_arr 5) ;; hand_over 2 0 ;; ret None) QF).
  { intros t3 t5 H3 H5. eapply J_sub with (ts2 := [YNil; tA; YMat (Some (okind ckind, ctype)); WM; YNil; WA]); [cbn [subs]; rewrite H3, H5; subt|]. unfold cs, QF. repeat js. fin. }
  unfold okind in *.
  assert (HF : st -> unchecked_cast ctype (r_type A) = false).
  { intros X. destruct (Hst X) as (k & t & -> & E'). cbn in HK. destruct HK as [_ ->]. apply andb_prop in E'. apply negb_true_iff. apply E'. }
  assert (HF2 : st -> known kt (fun _ t => negb (unchecked_cast ctype t))).
  { intros X. destruct (Hst X) as (k & t & -> & E'). exists k, t. split; [reflexivity|]. apply andb_prop in E'. apply E'. }
  assert (HU : (if ckind =? KCSC then r_kind A =? KCSC else if ckind =? KTRIP then negb (r_kind A =? KDENSE) else r_kind A =? KDENSE) = false -> st -> False).
  { intros EF X. destruct (Hst X) as (k & t & -> & E'). apply andb_prop in E'. destruct E' as [_ E']. cbn in HK. destruct HK as [HK _]. rewrite HK in EF. congruence. }
  clear Hst. unfold cs.
  destruct (ckind =? KCSC) eqn:EC.
  - destruct (r_kind A =? KCSC) eqn:EA.
    + repeat (first [apply Hend; reflexivity | js]).
    + specialize (HU eq_refl). destruct (r_kind A =? KTRIP) eqn:ET.
      * js. js. js. apply J_malloc'; [reflexivity| |]; cbn [upd].
        -- repeat (first [apply Hend; reflexivity | js]). eapply J_seq; [eapply J_ign_scale; [exact HU|reflexivity]|]. repeat (first [apply Hend; reflexivity | js]).
        -- eapply J_bind; [apply J_stop; subt|]. intros a g' ts' HX; exact (False_ind _ HX).
      * repeat (first [apply Hend; reflexivity | js]). eapply J_seq; [eapply J_ign_scale; [exact HU|reflexivity]|]. repeat (first [apply Hend; reflexivity | js]).
  - destruct (ckind =? KTRIP) eqn:ET.
    + repeat (first [apply Hend; reflexivity | js]).
    + js. js. destruct (r_kind A =? KDENSE) eqn:ED.
      * repeat (first [apply Hend; reflexivity | js]).
      * specialize (HU eq_refl). js. js. js. eapply J_seq; [eapply J_ign_scale; [exact HU|reflexivity]|]. repeat (first [apply Hend; reflexivity | js]).
Qed.

Hint Resolve fj_copy_flat : fj.
Lemma fj_copy_dense_triplet ctype tA kt : mty tA kt -> (st -> False) ->
  FJ [YNil; tA] (copy_dense_triplet O ctype) (FQ [YMat (Some (KTRIP, ctype)); tA] [YNil; tA]).
Proof.
  intros HM Hst. pose proof HM as [HuA HTA]. unfold copy_dense_triplet, c_free, c_work. fjt [YNil; tA] [YNil; YNil; YNil; YNil] [YNil; tA; WM; WM; WM; WA]; [|repeat js; fin].
  assert (HX : forall kt P, st -> known kt P) by (intros ? ? X; contradiction). js. js.
  eapply J_seq; [eapply (@J_chk_call _ _ _ _ _ _ _ _ [YNil; tA]); [eapply (fj_copy_flat KCSC); [split; eassumption|apply HX]|nodup|reflexivity|subt|reflexivity|reflexivity|subt]|]. cbn [put_back upd].
  eapply J_seq; [eapply (@J_chk_call _ _ _ _ _ _ _ _ [YNil; YAny None]); [eapply (fj_copy_flat KTRIP); [apply mty_any|apply HX]|nodup|reflexivity|subt|reflexivity|reflexivity|subt]|]. cbn [put_back upd].
  repeat js. fin.
Qed.
Lemma fj_copy args ckind ctype akind tA kt : mty tA kt -> (st -> known kt (checked_copy ckind ctype) /\ (ckind = KTRIP -> akind <> KDENSE)) ->
  FJ [YNil; tA] (SLIP_matrix_copy O args ckind ctype akind) (FQ [YMat (Some (okind ckind, ctype)); tA] [YNil; tA]).
Proof.
  intros HM Hst. pose proof HM as [HuA HTA]. destruct args as [e|].
  - intros base l s Hl Hs. cbn. split; [exact Hs|]. split; [discriminate|]. exists [YNil; tA]. split; [reflexivity|exact Hl].
  - intros base l s Hl Hs. cbn [SLIP_matrix_copy]. destruct ((ckind =? KTRIP) && (akind =? KDENSE)) eqn:E.
    + apply andb_prop in E. destruct E as [E1 E2]. apply Z.eqb_eq in E1, E2. subst. eapply fj_copy_dense_triplet; [split; eassumption| |assumption..]. intros X. destruct (Hst X) as [_ H]. apply H; reflexivity.
    + eapply fj_copy_flat; [split; eassumption| |assumption..]. intros X. apply Hst. exact X.
Qed.

Hint Resolve fj_analyze fj_factorize fj_solve : fj.
Lemma fj_backslash args type order pivot check n nrhs lnz unz tA tb : (st -> order <> 2) -> n <= Z.max lnz 1 -> n <= Z.max unz 1 -> usable tA = true -> usable tb = true ->
  FJ [YNil; tA; tb] (SLIP_backslash O args type order pivot check n nrhs lnz unz) (FQ [YMat (Some (KDENSE, type)); tA; tb] [YNil; tA; tb]).
Proof.
  intros Hst Hn1 Hn2 HA Hb. unfold SLIP_backslash, b_work.
  assert (HNS : nostop ((matrix_free 3 ;; matrix_free 4 ;; free_arr 6 ;; matrix_free 7 ;; analysis_free 8) ;; matrix_free 5)) by nostop_tac.
  eapply (@FJ_func _ _ _ [YNil; tA; tb] [YNil; YNil; YNil; YNil; YNil; YNil; YNil] [YNil; tA; tb; WM; WM; WM; WA; WM; WS; YNil]). 1: repeat constructor. 1: reflexivity.
  3: intros f s e f' s' EE; pose proof (HNS f s) as X; rewrite EE in X; exact X.
  2: repeat js; fin.
  destruct args as [e|]; [repeat js; fin|].
  assert (Hend : forall t5 t9, dead t5 = true -> dead t9 = true ->
    J [YNil; tA; tb; WM; WM; WM; WA; WM; WS; YNil] true [YMat (Some (KDENSE, type)); tA; tb; YMat None; YMat None; YNil; YArr; YMat None; YAna; YNil] ((matrix_free 3 ;; matrix_free 4 ;; free_arr 6 ;; matrix_free 7 ;; analysis_free 8) ;; ret None)
    (fun r g ts => exists out loc, ts = out ++ loc /\ length out = length [YNil; tA; tb] /\ forallb dead loc = true /\ FQ [YMat (Some (KDENSE, type)); tA; tb] [YNil; tA; tb] r out /\ (r = None -> g = true))).
  { intros t5 t9 _ _. repeat js. fin. }
  do 4 js. destruct (Z.eqb_spec type TMPQ) as [->|].
  - js. apply (Hend YNil YNil); reflexivity.
  - cbn [put_back upd]. apply J_assoc.
    eapply J_seq; [eapply (@J_chk_call _ _ _ _ _ _ _ _ [YNil; YAny (Some (KDENSE, TMPQ))]); [eapply fj_copy; [apply mty_any|]|nodup|reflexivity|subt|reflexivity|reflexivity|subt]|].
    + intros _. split; [|discriminate]. exists KDENSE, TMPQ. split; [reflexivity|]. unfold checked_copy, unchecked_cast. cbn. rewrite andb_false_r. reflexivity.
    + repeat (first [apply (Hend YNil YNil); reflexivity | js]).
Qed.
End fns.
