(* Wrapped GMP calls: what holds during and after *)
From Verif Require Import Base MSolve MMatrix MMem MemSpec PMem PMem2.
Set Bullet Behavior "Strict Subproofs".
Set Implicit Arguments.
Open Scope Z_scope.

Section Call.
Variable E : env.
Hypothesis Einit : 1 <= e_list_init E < 2 ^ 50.

Lemma start_inv arch s K F : idle s -> sound_object s (archived arch) ->
  (forall p b, K p = Some b -> s_heap s p = Some b /\ p <> s_list s) -> (forall f v, F f = Some v -> s_fld s f = v) ->
  inv (s_time s) (s_heap s) (archived arch) K F (started arch s).
Proof.
  intros (Hi & Hh & Hl & Ha) Ho HK HF.
  assert (E1 : s_heap (started arch s) = s_heap s) by (destruct arch; reflexivity).
  assert (E2 : s_time (started arch s) = s_time s) by (destruct arch; reflexivity).
  assert (E3 : s_list (started arch s) = s_list s) by (destruct arch; reflexivity).
  assert (E4 : s_nlist (started arch s) = s_nlist s) by (destruct arch; reflexivity).
  assert (E5 : s_fld (started arch s) = s_fld s) by (destruct arch; reflexivity).
  assert (E6 : s_nmalloc (started arch s) = 0) by (destruct arch; reflexivity).
  assert (E7 : s_inited (started arch s) = s_inited s) by (destruct arch; reflexivity).
  assert (E8 : s_arch (started arch s) = archived arch) by (destruct arch; [reflexivity|exact Ha]).
  constructor.
  - congruence.
  - intros p b. rewrite E1, E2. apply Hh.
  - lia.
  - rewrite E1, E3, E4, E6. destruct Hl as [->|(H1 & b & Hb & Hsz)]; [left; auto|right]. split; [assumption|]. split; [lia|]. exists b. auto.
  - intros i j. rewrite E6. lia.
  - intros p. split; [intros (i & Hi' & _); lia|]. intros [(b & Hb & Hge) _]. rewrite E1 in Hb. apply Hh in Hb. lia.
  - rewrite E1. intros p b Hb _. exists b. auto.
  - assumption.
  - intros f Hf. rewrite E5. destruct (Ho f Hf) as [|[[b Hb] Hx]]; [left; assumption|right]. split; [exists b; congruence|congruence].
  - rewrite E1, E3. assumption.
  - rewrite E5. assumption.
Qed.

Lemma do_acts_app l1 l2 s : do_acts E (l1 ++ l2) s = match do_acts E l1 s with Ret _ s' => do_acts E l2 s' | o => o end.
Proof.
  revert s. induction l1 as [|a l IH]; intros s; cbn [app do_acts]; [reflexivity|].
  unfold mbind. destruct (do_act E a s); [apply IH|reflexivity|reflexivity].
Qed.
Lemma legal_app l1 l2 s : legal_run E (l1 ++ l2) s -> legal_run E l1 s.
Proof. revert s. induction l1 as [|a l IH]; intros s; cbn [app legal_run]; [auto|]. intros [H1 H2]. split; [assumption|]. intros s' Hs. apply IH. auto. Qed.
Lemma spares_none l : Forall (spares (fun _ => None) (fun _ => None)) l.
Proof. induction l as [|[] l IH]; constructor; simpl; auto. Qed.

(* at every point of a wrapped call *)
Lemma during arch pre post s : idle s -> sound_object s (archived arch) -> legal_run E (pre ++ post) (started arch s) ->
  wpM (do_acts E pre (started arch s))
    (fun _ s' => inv (s_time s) (s_heap s) (archived arch) (fun _ => None) (fun _ => None) s')
    (fun _ s' => inv (s_time s) (s_heap s) (archived arch) (fun _ => None) (fun _ => None) s').
Proof.
  intros Hid Ho HL. apply do_acts_wp; try assumption.
  - congruence.
  - apply start_inv; try assumption; discriminate.
  - eapply legal_app; eassumption.
  - apply spares_none.
Qed.

Lemma finish_idle t0 h0 A0 K F s : inv t0 h0 A0 K F s -> idle (set_nmalloc 0 (set_arch [] s)).
Proof.
  intros []. split; [assumption|]. split; [exact i_heap|]. split; [|reflexivity].
  destruct i_list as [[H _]|(H1 & _ & b & Hb & Hsz)]; [left; exact H|right]. split; [exact H1|]. exists b. auto.
Qed.

Definition after_failure (t0 : nat) (A0 caches : list Z) (sj s' : st) : Prop :=
  (forall x b, s_heap s' x = Some b <-> s_heap sj x = Some b /\ (b_id b < t0)%nat /\ ~ In x caches /\ x <> s_list sj) /\
  sound_object s' A0 /\ (forall f, ~ In f A0 -> s_fld s' f = s_fld sj f).

Lemma wrapper_spec arch body caches s : idle s -> sound_object s (archived arch) -> legal_run E body (started arch s) ->
  (forall c sj, do_acts E body (started arch s) = Jump c sj -> caches_ok sj (caches sj)) ->
  exists r s', wrapper E arch body caches s = Ret r s' /\ idle s' /\ s_nmalloc s' = 0 /\
    ((r = None /\ exists s1, do_acts E body (started arch s) = Ret tt s1 /\ s' = set_nmalloc 0 (set_arch [] s1)) \/
     (r = Some SLIP_OUT_OF_MEMORY /\ exists c sj, do_acts E body (started arch s) = Jump c sj /\ after_failure (s_time s) (archived arch) (caches sj) sj s')).
Proof.
  intros Hid Ho HL HC. pose proof (@during arch body [] s Hid Ho) as HD. rewrite app_nil_r in HD. specialize (HD HL).
  unfold wrapper. fold (started arch s).
  change (set_nmalloc 0 match arch with | Some l => set_arch l s | None => s end) with (started arch s).
  destruct (do_acts E body (started arch s)) as [[] s1|c sj|] eqn:HB; cbn [wpM] in HD; [| |contradiction].
  - eexists _, _. split; [reflexivity|]. split; [eapply finish_idle; eassumption|]. split; [reflexivity|]. left. split; [reflexivity|]. exists s1. auto.
  - specialize (HC c sj eq_refl).
    pose proof (@failure_wp E Einit (s_time s) (s_heap s) (archived arch) (fun _ => None) (fun _ => None)) as HF.
    specialize (HF ltac:(congruence) (caches sj) sj HD HC ltac:(reflexivity)).
    unfold mbind. destruct (slip_gmp_failure (caches sj) sj) as [[] s'|c' s'|] eqn:Hf; cbn [wpM] in HF; [|contradiction|contradiction].
    destruct HF as (H1 & H2 & H3 & H4 & H5 & H6 & H7). eexists _, _. split; [reflexivity|]. split; [assumption|]. split; [assumption|].
    right. split; [reflexivity|]. exists c, sj. split; [reflexivity|]. split; [assumption|]. split; assumption.
Qed.

(* blocks and limb pointers that the call does not name are untouched, whatever happens *)

Lemma wrapper_frame arch body caches s (P : Z -> Prop) (G : Z -> Prop) (Pd : forall x, {P x} + {~ P x}) (Gd : forall x, {G x} + {~ G x}) :
  idle s -> sound_object s (archived arch) -> legal_run E body (started arch s) ->
  (forall c sj, do_acts E body (started arch s) = Jump c sj -> caches_ok sj (caches sj) /\ forall p, In p (caches sj) -> ~ P p) ->
  (forall p, P p -> user_block s p) -> (forall a p, In a body -> P p -> ~ names a p) ->
  (forall f, G f -> ~ In f (archived arch)) -> (forall a f, In a body -> G f -> ~ assigns a f) ->
  forall r s', wrapper E arch body caches s = Ret r s' ->
  (forall p, P p -> s_heap s' p = s_heap s p) /\ (forall f, G f -> s_fld s' f = s_fld s f).
Proof.
  intros Hid Ho HL HC HP HPb HG HGb r s' HW.
  set (K := fun p => if Pd p then s_heap s p else None). set (F := fun f => if Gd f then Some (s_fld s f) else None).
  assert (HFs : forall f, F f <> None -> ~ In f (archived arch)).
  { intros f. unfold F. destruct (Gd f); [auto|congruence]. }
  assert (HI : inv (s_time s) (s_heap s) (archived arch) K F (started arch s)).
  { apply start_inv; try assumption.
    - intros p b. unfold K. destruct (Pd p) as [Hp|]; [|discriminate]. intros Hb. split; [assumption|]. apply HP. assumption.
    - intros f v. unfold F. destruct (Gd f); congruence. }
  assert (HS : Forall (spares K F) body).
  { apply Forall_forall. intros a Ha. destruct a as [size|p|p o n|f p|p o v]; simpl; try exact I.
    - unfold K. destruct (Pd p) as [Hp|]; [|reflexivity]. exfalso. apply (HPb _ p Ha Hp). reflexivity.
    - unfold K. destruct (Pd p) as [Hp|]; [|reflexivity]. exfalso. apply (HPb _ p Ha Hp). reflexivity.
    - unfold F. destruct (Gd f) as [Hp|]; [|reflexivity]. exfalso. apply (HGb _ f Ha Hp). reflexivity.
    - unfold K. destruct (Pd p) as [Hp|]; [|reflexivity]. exfalso. apply (HPb _ p Ha Hp). reflexivity. }
  pose proof (@do_acts_wp E Einit (s_time s) (s_heap s) (archived arch) K F HFs body _ HI HL HS) as HD.
  unfold wrapper in HW. change (set_nmalloc 0 match arch with | Some l => set_arch l s | None => s end) with (started arch s) in HW.
  destruct (do_acts E body (started arch s)) as [[] s1|c sj|] eqn:HB; cbn [wpM] in HD; [| |discriminate].
  - injection HW as <- <-. split.
    + intros p Hp. destruct (HP p Hp) as [[b Hb] _]. assert (HKp : K p = Some b) by (unfold K; destruct (Pd p); [assumption|contradiction]).
      destruct (i_keep HD p HKp) as [Hk _]. change (s_heap s1 p = s_heap s p). congruence.
    + intros f Hf. change (s_fld s1 f = s_fld s f). apply (i_fkeep HD). unfold F. destruct (Gd f); [reflexivity|contradiction].
  - destruct (HC c sj eq_refl) as [HC1 HC2].
    assert (HKc : forall p, In p (caches sj) -> K p = None).
    { intros p Hp. unfold K. destruct (Pd p) as [Hp'|]; [|reflexivity]. exfalso. apply (HC2 p Hp Hp'). }
    pose proof (@failure_wp E Einit (s_time s) (s_heap s) (archived arch) K F HFs (caches sj) sj HD HC1 HKc) as HF.
    unfold mbind in HW. destruct (slip_gmp_failure (caches sj) sj) as [[] s2|c' s2|] eqn:Hf; cbn [wpM] in HF; [|contradiction|contradiction].
    injection HW as <- <-. destruct HF as (_ & _ & _ & _ & H5 & _ & H7). split.
    + intros p Hp. destruct (HP p Hp) as [[b Hb] Hpl]. assert (HKp : K p = Some b) by (unfold K; destruct (Pd p); [assumption|contradiction]).
      destruct (i_keep HD p HKp) as [Hk Hkl]. rewrite Hb. apply H5. split; [assumption|].
      destruct Hid as (_ & Hh & _). destruct (Hh _ _ Hb) as (_ & Hlt & _). split; [assumption|]. split; [|assumption]. intros Hin. apply (HC2 p Hin Hp).
    + intros f Hf'. rewrite H7 by (apply HG; assumption). apply (i_fkeep HD). unfold F. destruct (Gd f); [reflexivity|contradiction].
Qed.
End Call.

(*----------------------------------------------------------------------------*)
(* SLIP_realloc *)
Definition items (n : Z) : Z := if n <? 1 then 1 else n.

Lemma realloc_spec E nnew nold size p b s : s_inited s = true -> s_heap s p = Some b -> p <> 0 ->
  0 <= nnew < 2 ^ 63 -> 0 <= nold < 2 ^ 63 -> 1 <= size < 2 ^ 53 -> b_size b = items nold * size -> b_size b < TWO64 ->
  exists q ok s', SLIP_realloc E nnew nold size p s = Ret (q, ok) s' /\
  (ok = true -> q <> 0 /\ (exists b', s_heap s' q = Some b' /\ items nnew * size <= b_size b' /\
       (forall o, 0 <= o < Z.min (items nnew) (items nold) * size -> b_data b' o = b_data b o)) /\
     (q = p \/ (s_heap s q = None /\ s_heap s' p = None)) /\
     (forall x, x <> p -> x <> q -> s_heap s' x = s_heap s x)) /\
  (ok = false -> q = p /\ (forall x, s_heap s' x = s_heap s x) /\ (items nold < items nnew \/ 2 ^ 53 <= nnew)).
Proof.
  intros Hi Hb Hp Hnn Hno Hs Hbs Hblt. unfold SLIP_realloc, getst, mbind, ret. rewrite Hi. cbn [negb]. cbv beta iota zeta.
  rewrite !Z.mod_small by (unfold TWO64; lia). unfold SuiteSparse_realloc, ret, mbind. fold (items nnew). fold (items nold).
  destruct (Z.ltb_spec size 1); [lia|]. cbv beta iota zeta.
  assert (Hin : 1 <= items nnew) by (unfold items; destruct (Z.ltb_spec nnew 1); lia).
  assert (Hio : 1 <= items nold) by (unfold items; destruct (Z.ltb_spec nold 1); lia).
  destruct (size_ok (items nnew) size) eqn:Hok; cbn [negb].
  - destruct (Z.eqb_spec p 0); [congruence|].
    assert (Hlt : items nnew * size < TWO64).
    { apply size_ok_sound; [|unfold TWO64; lia|assumption]. unfold items, TWO64 in *. destruct (Z.ltb_spec nnew 1); lia. }
    destruct (Z.eqb_spec (items nold) (items nnew)) as [Heq|Hne].
    + eexists _, _, _. split; [reflexivity|]. split; [|discriminate]. intros _. split; [assumption|].
      split; [exists b; rewrite <- Heq; split; [assumption|]; split; [lia|auto]|]. split; [auto|reflexivity].
    + cbv beta. unfold realloc_func. rewrite Hb. rewrite Z.mod_small by nia. cbv beta iota zeta.
      set (a := e_addr E (s_funs s) (s_time s)).
      assert (Hdata : forall o, 0 <= o < Z.min (items nnew) (items nold) * size -> (o <? Z.min (b_size b) (items nnew * size)) = true).
      { intros o Ho. apply Z.ltb_lt. rewrite Hbs. nia. }
      destruct (Z.eqb_spec a p) as [Hap|Hap].
      * destruct (Z.eqb_spec p 0); [congruence|]. eexists _, _, _. split; [reflexivity|]. split; [|discriminate]. intros _. split; [assumption|].
        split; [eexists; split; [simpl; apply put_same|]; split; [simpl; lia|]|].
        -- intros o Ho. simpl. rewrite Hdata by assumption. reflexivity.
        -- split; [auto|]. intros x Hx _. simpl. apply put_other. assumption.
      * destruct ((a <=? 0) || is_live s a) eqn:Hc.
        -- cbn [Z.eqb]. destruct (Z.ltb_spec (items nnew) (items nold)).
           ++ eexists _, _, _. split; [reflexivity|]. split; [|discriminate]. intros _. split; [assumption|].
              split; [exists b; split; [assumption|]; split; [nia|auto]|]. split; [auto|reflexivity].
           ++ eexists _, _, _. split; [reflexivity|]. split; [discriminate|]. intros _. split; [reflexivity|]. split; [reflexivity|]. lia.
        -- apply orb_false_iff in Hc. destruct Hc as [Hc1 Hc2]. apply Z.leb_gt in Hc1. apply live_false in Hc2.
           destruct (Z.eqb_spec a 0); [lia|]. eexists _, _, _. split; [reflexivity|]. split; [|discriminate]. intros _. split; [assumption|].
           split; [eexists; split; [simpl; apply put_same|]; split; [simpl; lia|]|].
           ++ intros o Ho. simpl. rewrite Hdata by assumption. reflexivity.
           ++ split; [right; split; [assumption|]; simpl; rewrite put_other by congruence; apply put_same|].
              intros x Hx1 Hx2. simpl. rewrite !put_other by assumption. reflexivity.
  - eexists _, _, _. split; [reflexivity|]. split; [discriminate|]. intros _. split; [reflexivity|]. split; [reflexivity|].
    destruct (Z_lt_le_dec (items nold) (items nnew)) as [|Hle]; [left; assumption|].
    destruct (Z_lt_le_dec nnew (2 ^ 53)) as [Hlt|]; [|right; assumption]. exfalso.
    assert (Hx : items nnew < 2 ^ 53) by (unfold items; destruct (Z.ltb_spec nnew 1); lia).
    rewrite size_ok_complete in Hok; [discriminate|lia|lia|]. rewrite Hbs in Hblt. nia.
Qed.
