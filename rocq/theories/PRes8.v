(* Ownership: any history of calls *)
From Coq Require Import ZArith List Bool Lia Arith Permutation.
From Verif Require Import Base MMatrix MRes PRes PRes2 PRes3 PRes4 PRes5 PRes6 ResSpec PRes7.
Import ListNotations.
Set Bullet Behavior "Strict Subproofs".
Open Scope Z_scope.
Local Notation cnt := (count_occ Z.eq_dec).

Section history.
Variable O : orc.
Definition inv (L0 : list Z) (base : Z -> nat) (f : list obj) (s : rst) : Prop :=
  hown O L0 (fun q => (fc q f + base q)%nat) s /\ Forall (null_or object_ok) f.

(* results are NULL or good objects *)
Definition decent (t : ty) : bool := match t with YNil | YArr | YMat _ | YFac _ _ _ | YAny _ | YShal | YAna | YIs _ => true | _ => false end.
Lemma decent_ok t x : decent t = true -> okty t x -> null_or object_ok x.
Proof.
  destruct t; try discriminate; intros _ H.
  - left. exact H.
  - right. apply is_array_ok. exact H.
  - right. destruct H as (A & -> & H & _). apply full_ok. exact H.
  - right. destruct H as (A & -> & (H & _) & _). apply full_ok. exact H.
  - right. destruct H as (A & -> & H & _). apply anym_ok. exact H.
  - right. destruct H as (A & -> & H & E). apply anym_ok. split; [exact H|congruence].
  - right. apply is_analysis_ok. exact H.
  - right. destruct H as [-> H]. apply object_good. exact H.
Qed.
Lemma decents_ok ts l : forallb decent ts = true -> oks ts l -> Forall (null_or object_ok) l.
Proof. intros H HF. induction HF; constructor; cbn in H; apply andb_prop in H; destruct H; [eapply decent_ok; eassumption|auto]. Qed.
Lemma Forall_put_back {A} (P : A -> Prop) vs : forall f l, Forall P f -> Forall P l -> Forall P (put_back f vs l).
Proof. induction vs; intros f l Hf Hl; [exact Hf|]. destruct Hl; cbn; [exact Hf|]. apply IHvs; [|assumption]. apply Forall_upd; assumption. Qed.
Lemma fc_repeat q nh : fc q (repeat Nil nh) = 0%nat.
Proof. induction nh; [reflexivity|exact IHnh]. Qed.
Lemma map_nth_seq (f : list obj) l : map (fun v => nth v (f ++ l) Nil) (seq (length f) (length l)) = l.
Proof.
  revert f. induction l as [|x l IH]; intros f; [reflexivity|]. cbn [length seq map]. rewrite app_nth2, Nat.sub_diag by lia. cbn [nth]. f_equal.
  specialize (IH (f ++ [x])). rewrite app_length in IH. cbn [length] in IH. replace (length f + 1)%nat with (S (length f)) in IH by lia. rewrite <- app_assoc in IH. exact IH.
Qed.
Lemma map_nth_app (f l : list obj) ins : (forall v, In v ins -> (v < length f)%nat) -> map (fun v => nth v (f ++ l) Nil) ins = map (fun v => nth v f Nil) ins.
Proof. intros H. apply map_ext_in. intros v Hv. apply app_nth1. auto. Qed.
Lemma in_range (f : list obj) v : object_ok (f @ v) -> (v < length f)%nat.
Proof. intros H. destruct (Nat.lt_ge_cases v (length f)) as [|E]; [assumption|]. rewrite nth_overflow in H by assumption. destruct H. Qed.

Lemma inv_call L0 base F nh ins f s oN :
  Forall (fun v => object_ok (f @ v)) ins -> NoDup ins ->
  (let ai := map (fun v => YIs (f @ v)) ins in FJ O L0 False (repeat YNil nh ++ ai) F (FQ (oN ++ ai) (repeat YNil nh ++ ai))) ->
  forallb decent oN = true -> length oN = nh -> inv L0 base f s ->
  exists f' s', do_call F nh ins f s = Next tt f' s' /\ inv L0 base f' s'.
Proof.
  intros Hi HN HF HD HL [Hs Hf]. set (xs := map (fun v => f @ v) ins).
  assert (Ha : map (fun v => YIs (f @ v)) ins = map YIs xs) by (unfold xs; rewrite map_map; reflexivity). cbv zeta in HF. rewrite Ha in HF.
  assert (Hx : Forall object_ok xs) by (unfold xs; apply Forall_map; exact Hi).
  assert (Hr : forall v, In v ins -> (v < length f)%nat). { intros v Hv. rewrite Forall_forall in Hi. apply in_range. auto. }
  assert (HN' : NoDup (seq (length f) nh ++ ins)).
  { assert (HG : forall l, NoDup l -> (forall v, In v l -> ~ In v ins) -> NoDup (l ++ ins)).
    { induction l as [|v l IH]; intros H1 H2; [exact HN|]. apply NoDup_cons_iff in H1. destruct H1 as [H1 H1']. cbn. constructor; [|apply IH; auto; intros w Hw; apply H2; right; exact Hw]. intros HX. apply in_app_or in HX. destruct HX as [HX|HX]; [contradiction|]. exact (H2 v (or_introl eq_refl) HX). }
    apply HG; [apply seq_NoDup|]. intros v Hv Hv'. apply in_seq in Hv. apply Hr in Hv'. lia. }
  assert (Harg : map (fun v => nth v (f ++ repeat Nil nh) Nil) (seq (length f) nh ++ ins) = repeat Nil nh ++ xs).
  { rewrite map_app, (map_nth_app f _ ins Hr). f_equal. pose proof (map_nth_seq f (repeat Nil nh)) as E. rewrite repeat_length in E. exact E. }
  unfold do_call, bind, call. rewrite Harg.
  pose proof (fun (l : list obj) q => fc_put_back q (seq (length f) nh ++ ins) (f ++ repeat Nil nh) l HN') as HB.
  assert (Hall : forall v, In v (seq (length f) nh ++ ins) -> (v < length (f ++ repeat Nil nh))%nat).
  { intros v Hv. rewrite app_length, repeat_length. apply in_app_or in Hv. destruct Hv as [Hv|Hv]; [apply in_seq in Hv; lia|apply Hr in Hv; lia]. }
  assert (Hlen : length (seq (length f) nh ++ ins) = (nh + length ins)%nat) by (rewrite app_length, seq_length; reflexivity).
  assert (Hq : forall l q, length l = (nh + length ins)%nat -> (fc q (put_back (f ++ repeat Nil nh) (seq (length f) nh ++ ins) l) + fc q xs = fc q f + fc q l)%nat).
  { intros l q Hl. rewrite Hlen in HB. specialize (HB l q Hall Hl). rewrite Harg in HB. rewrite !fc_app, !fc_repeat in HB. lia. }
  assert (Hle : forall q, (fc q xs <= fc q f)%nat).
  { intros q. specialize (Hq (repeat Nil (nh + length ins)) q (repeat_length _ _)). rewrite fc_repeat in Hq. lia. }
  specialize (HF (fun q => (fc q f + base q - fc q xs)%nat) (repeat Nil nh ++ xs) s (Forall2_app (nil_oks nh) (is_oks xs Hx))).
  assert (Hs' : hown O L0 (fun q => (fc q (repeat Nil nh ++ xs) + (fc q f + base q - fc q xs))%nat) s).
  { eapply hown_ext; [|exact Hs]. intros q. cbv beta. rewrite fc_app, fc_repeat. specialize (Hle q). lia. }
  specialize (HF Hs'). destruct (F (repeat Nil nh ++ xs) s) as [r l s'|]; [|contradiction]. destruct HF as (H1 & _ & ts & -> & H3).
  assert (Hll : length l = (nh + length ins)%nat).
  { apply Forall2_length in H3. rewrite <- H3. destruct r; rewrite app_length, map_length, ?repeat_length; unfold xs; rewrite map_length; lia. }
  eexists _, s'. split; [reflexivity|]. split.
  - eapply hown_ext; [|exact H1]. intros q. cbv beta. specialize (Hq l q Hll). specialize (Hle q). lia.
  - apply Forall_put_back.
    + apply Forall_app. split; [exact Hf|]. apply Forall_forall. intros x Hx'. apply repeat_spec in Hx'. left. exact Hx'.
    + eapply decents_ok; [|exact H3]. destruct r; rewrite forallb_app; apply andb_true_intro; split; try exact HD; apply forallb_forall; intros t Ht.
      * apply repeat_spec in Ht. subst. reflexivity.
      * apply in_map_iff in Ht. destruct Ht as (y & <- & _). reflexivity.
      * apply in_map_iff in Ht. destruct Ht as (y & <- & _). reflexivity.
Qed.
(* rejected by the argument checks *)
Lemma inv_reject L0 base F nh ins f s e : (forall l, F l s = Fin (Some e) l s) -> inv L0 base f s ->
  exists f' s', do_call F nh ins f s = Next tt f' s' /\ inv L0 base f' s'.
Proof.
  intros HF [Hs Hf]. unfold do_call, bind, call. rewrite HF. eexists _, s. split; [reflexivity|].
  assert (HX : forall vs g, put_back g vs (map (fun v => nth v g Nil) vs) = g).
  { induction vs as [|v vs IH]; intros g; [reflexivity|]. cbn. assert (E : upd g v (nth v g Nil) = g).
    { clear. revert v. induction g; intros [|v]; cbn; try reflexivity. f_equal. apply IHg. } rewrite E. apply IH. }
  rewrite HX. split.
  - eapply hown_ext; [|exact Hs]. intros q. cbv beta. rewrite fc_app, fc_repeat. lia.
  - apply Forall_app. split; [exact Hf|]. apply Forall_forall. intros x Hx'. apply repeat_spec in Hx'. left. exact Hx'.
Qed.
Lemma inv_free L0 base v f s : null_or is_matrix (f @ v) -> inv L0 base f s -> exists f' s', matrix_free v f s = Next tt f' s' /\ inv L0 base f' s'.
Proof.
  intros Hv [Hs Hf]. destruct Hv as [E|(A & E & HA)].
  - exists f, s. unfold matrix_free, getv, bind. rewrite E. split; [reflexivity|]. split; assumption.
  - assert (Hl : (v < length f)%nat) by (apply in_range; rewrite E; exact HA).
    destruct (mat_free_ok O L0 v A (fun q => (fc q (upd f v Nil) + base q)%nat) f s E (proj1 (ok_anym _ HA))) as (s' & E' & H1 & H2).
    { eapply hown_ext; [|exact Hs]. intros q. cbv beta. pose proof (fc_upd q f v Nil Hl). rewrite E in H. cbn [oc] in H. lia. }
    exists (upd f v Nil), s'. split; [exact E'|]. split; [exact H1|]. apply Forall_upd; [exact Hf|left; reflexivity].
Qed.
Lemma inv_J L0 base ts m (f : list obj) s Q : J O L0 False ts true ts m Q -> (forall f s, match m f s with Stop _ _ _ => False | _ => True end) -> oks ts f -> inv L0 base f s ->
  (forall a g t, Q a g t -> forallb decent t = true) ->
  exists f' s', m f s = Next tt f' s' /\ inv L0 base f' s'.
Proof.
  intros HJ Hns Hts [Hs Hf] HQ. specialize (HJ (nfail s) base f s Hts Hs (fun _ _ => eq_refl)). specialize (Hns f s). destruct (m f s) as [[] f' s'|e f' s'|]; cbn in HJ; try contradiction.
  destruct HJ as (H1 & g & t & H2 & H3 & _). exists f', s'. split; [reflexivity|]. split; [exact H1|]. eapply decents_ok; [eapply HQ; exact H2|exact H3].
Qed.
Definition own_ty (x : obj) : ty := match x with Nil => YNil | x => YIs x end.
Lemma own_oks f : Forall (null_or object_ok) f -> oks (map own_ty f) f.
Proof. induction 1 as [|x f H]; constructor; [|assumption]. destruct H as [->|H]; [reflexivity|]. destruct x; try (destruct H; fail); (split; [reflexivity|apply object_good; exact H]). Qed.
Lemma decent_own f : forallb decent (map own_ty f) = true.
Proof. induction f as [|[] f IH]; cbn; auto. Qed.
Lemma inv_set L0 base v t f s (m : M unit) : (forall ts, nth_error ts v = Some t -> J O L0 False ts true ts m (fun _ g1 t1 => g1 = true /\ t1 = upd ts v YNil)) ->
  (forall f s, match m f s with Stop _ _ _ => False | _ => True end) -> (v < length f)%nat -> okty t (f @ v) -> inv L0 base f s -> exists f' s', m f s = Next tt f' s' /\ inv L0 base f' s'.
Proof.
  intros HJ Hns Hl Ht HI. pose proof HI as [Hs Hf]. eapply inv_J; [apply (HJ (upd (map own_ty f) v t)); apply nth_error_upd_eq; rewrite map_length; exact Hl|exact Hns| |exact HI|].
  - rewrite <- (upd_same f v (f @ v)) by (apply nth_error_nth'; exact Hl). apply oks_upd; [|exact Ht]. rewrite (upd_same f v (f @ v)) by (apply nth_error_nth'; exact Hl). apply own_oks. exact Hf.
  - cbv beta. intros a g ts [_ ->]. rewrite upd_upd. pose proof (decent_own f) as HD. revert HD. generalize (map own_ty f). clear. intros ts. revert v. induction ts as [|t ts IH]; intros [|v] H; cbn in *; auto.
    + apply andb_prop in H. apply H.
    + apply andb_prop in H. destruct H as [H1 H2]. rewrite H1. apply IH. exact H2.
Qed.
Lemma func_reject locals fa e l s : func locals fa (ret (Some e)) l s = Fin (Some e) l s.
Proof. unfold func, ret. rewrite firstn_app, Nat.sub_diag, firstn_all, firstn_O, app_nil_r. reflexivity. Qed.

Lemma inv_step L0 base a f s : proper f a -> inv L0 base f s -> exists f' s', step O a f s = Next tt f' s' /\ inv L0 base f' s'.
Proof.
  assert (HN1 : forall v : nat, NoDup [v]) by (intros v; constructor; [intros []|constructor]).
  intros HP HI. destruct a; cbn [step proper] in *; unfold passed in *.
  - eapply (@inv_call L0 base _ 1 [] f s [_]); [constructor|constructor|apply fj_allocate| |reflexivity|exact HI]. unfold made. destruct shallow; [reflexivity|]. destruct (negb init && (type =? TMPZ)); reflexivity.
  - destruct args as [e|]; [eapply inv_reject with (e := e); [reflexivity|exact HI]|]. specialize (HP eq_refl).
    eapply (@inv_call L0 base _ 1 [A] f s [_]); [constructor; [apply is_matrix_ok; exact HP|constructor]|apply HN1|cbn [map app repeat]; eapply fj_copy; [apply mty_is with (kt := None); [exact HP|intros; exact I]|intros []]|reflexivity|reflexivity|exact HI].
  - destruct args as [e|]; [eapply inv_reject with (e := e); [intros; apply func_reject|exact HI]|]. specialize (HP eq_refl).
    eapply (@inv_call L0 base _ 1 [A] f s [_]); [constructor; [apply is_matrix_ok; exact HP|constructor]|apply HN1|cbn [map app repeat]; apply fj_analyze; [intros []|reflexivity]|reflexivity|reflexivity|exact HI].
  - destruct args as [e|]; [eapply inv_reject with (e := e); [intros; apply func_reject|exact HI]|].
    destruct (HP eq_refl) as (H1 & H2 & H3 & H4). eapply (@inv_call L0 base _ 4 [A; An] f s [_; _; _; _]); [|constructor; [|apply HN1]| | |reflexivity|exact HI].
    + constructor; [apply is_matrix_ok; exact H1|]. constructor; [apply is_analysis_ok; exact H2|constructor].
    + intros [->|[]]. destruct H1 as (B & E & _), H2 as (h & q & E' & _). congruence.
    + cbn [map app repeat]. apply fj_factorize; try assumption; reflexivity.
    + reflexivity.
  - destruct args as [e|]; [eapply inv_reject with (e := e); [intros; apply func_reject|exact HI]|].
    destruct (HP eq_refl) as (H1 & H2 & H3 & H4). assert (HM : Forall (fun v => is_matrix (f @ v)) [b; A; L; U; rhos]) by (apply Forall_map with (f := fun v => f @ v); exact H1).
    eapply (@inv_call L0 base _ 1 [b; A; L; U; rhos; An; pinv] f s [_]); [| | | |reflexivity|exact HI].
    + change [b; A; L; U; rhos; An; pinv] with ([b; A; L; U; rhos] ++ [An; pinv]). apply Forall_app. split; [eapply Forall_impl; [|exact HM]; intros v; apply is_matrix_ok|].
      constructor; [apply is_analysis_ok; exact H2|]. constructor; [apply is_array_ok; exact H3|constructor].
    + assert (HX : forall v, In v [b; A; L; U; rhos] -> v <> An /\ v <> pinv).
      { intros v Hv. rewrite Forall_forall in HM. destruct (HM v Hv) as (B & E & _). destruct H2 as (h & q & E2 & _), H3 as (p & E3 & _). split; intros ->; congruence. }
      assert (HY : An <> pinv) by (destruct H2 as (h & q & E2 & _), H3 as (p & E3 & _); intros ->; congruence).
      change [b; A; L; U; rhos; An; pinv] with ([b; A; L; U; rhos] ++ [An; pinv]). revert HX H4. generalize [b; A; L; U; rhos]. clear - HY. induction l as [|v l IH]; intros HX HN.
      * constructor; [intros [E|[]]; congruence|constructor; [intros []|constructor]].
      * apply NoDup_cons_iff in HN. cbn. constructor; [|apply IH; [intros w Hw; apply HX; right; exact Hw|apply HN]]. intros HI. apply in_app_or in HI. destruct HI as [HI|[HI|[HI|[]]]]; [apply HN; exact HI| |]; destruct (HX v (or_introl eq_refl)); congruence.
    + cbn [map app repeat]. apply fj_solve; reflexivity.
    + reflexivity.
  - destruct args as [e|]; [eapply inv_reject with (e := e); [intros; apply func_reject|exact HI]|].
    destruct (HP eq_refl) as (H1 & H2 & H3 & H4 & H5). eapply (@inv_call L0 base _ 1 [A; b] f s [_]); [|constructor; [|apply HN1]| | |reflexivity|exact HI].
    + constructor; [apply is_matrix_ok; exact H1|]. constructor; [apply is_matrix_ok; exact H2|constructor].
    + intros [->|[]]. congruence.
    + cbn [map app repeat]. apply fj_backslash; try assumption; try reflexivity. intros [].
    + reflexivity.
  - apply inv_free; assumption.
  - destruct (Nat.lt_ge_cases v (length f)) as [Hl|Hl].
    + eapply inv_set; [intros ts Hts; apply J_analysis_free; exact Hts|apply ns_analysis_free|exact Hl|exact HP|exact HI].
    + exists f, s. unfold analysis_free, getv, bind. rewrite nth_overflow by exact Hl. split; [reflexivity|exact HI].
  - destruct (Nat.lt_ge_cases v (length f)) as [Hl|Hl].
    + eapply inv_set; [intros ts Hts; apply J_free_arr; exact Hts|apply ns_free_arr|exact Hl|exact HP|exact HI].
    + exists f, s. unfold free_arr, getv, bind. rewrite nth_overflow by exact Hl. split; [reflexivity|exact HI].
Qed.
Lemma inv_run L0 base : forall l f s, proper_run O l f s -> inv L0 base f s -> exists f' s', run O l f s = Next tt f' s' /\ inv L0 base f' s'.
Proof.
  induction l as [|a l IH]; intros f s HP HI; [exists f, s; split; [reflexivity|exact HI]|]. destruct HP as [HP1 HP2]. destruct (inv_step L0 base a f s HP1 HI) as (f1 & s1 & E & HI1).
  cbn [run]. unfold bind. rewrite E in *. apply IH; assumption.
Qed.
End history.
