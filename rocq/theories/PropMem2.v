(* C48, what the three functions given to GMP do at any point of a wrapped call.  Model: MMem.v; specification: MemSpec.v. *)
From Verif Require Import Base MMem MemSpec PMem PMem2 PMem3 PropMem.
Set Implicit Arguments.
Set Bullet Behavior "Strict Subproofs".
Open Scope Z_scope.

(* s1 is a state inside a wrapped call *)
Definition inside (E : MMem.env) (s1 : st) : Prop := exists arch pre s,
  idle s /\ sound_object s (archived arch) /\ legal_run E pre (started arch s) /\ do_acts E pre (started arch s) = Ret tt s1.
Lemma inside_inv E s1 : 1 <= e_list_init E < 2 ^ 50 -> inside E s1 -> exists t0 h0 A0, inv t0 h0 A0 (fun _ => None) (fun _ => None) s1.
Proof.
  intros HE (arch & pre & s & Hid & Ho & HL & HB). pose proof (@during E HE arch pre [] s Hid Ho ltac:(rewrite app_nil_r; exact HL)) as HD. rewrite HB in HD. cbn [wpM] in HD. eauto.
Qed.
(* GMP's allocation function returns a new block of the size asked for and changes no other block, or does not return *)
Theorem C48_allocate : forall E size s, 1 <= e_list_init E < 2 ^ 50 -> inside E s -> size_t size ->
  match slip_gmp_allocate E size s with
  | Ret p s' => 0 < p /\ ~ user_block s p /\ (p <> s_list s') /\ (exists b, s_heap s' p = Some b /\ b_size b = Z.max 1 size) /\
      (forall x b, user_block s x -> s_heap s x = Some b -> s_heap s' x = Some b)
  | Jump _ _ => True
  | Undef => False
  end.
Proof.
  intros E size s HE HI Hs. destruct (inside_inv HE HI) as (t0 & h0 & A0 & I0).
  pose proof (@allocate_wp E HE t0 h0 A0 (fun _ => None) (fun _ => None) size s I0 Hs) as HA.
  destruct (slip_gmp_allocate E size s) as [p s'|c s'|]; cbn [wpM] in HA; [|exact I|exact HA].
  destruct HA as (_ & (Fr & _) & Hp & Hpl & (b & Hb & Hsz & _) & Hfresh). split; [exact Hp|]. split; [|split; [exact Hpl|split; [exists b; auto|]]].
  - intros [[b0 Hb0] Hx]. exact (Hfresh p b0 Hb0 Hx eq_refl).
  - intros x b0 [_ Hx] Hb0. apply (Fr x b0 Hb0 Hx).
Qed.
(* its reallocation function returns a new block of the size asked for that begins with the contents of the old one, frees the old block
   and changes no other block, or does not return *)
Theorem C48_reallocate : forall E p old new b s, 1 <= e_list_init E < 2 ^ 50 -> inside E s -> user_block s p -> s_heap s p = Some b -> 0 <= old <= b_size b -> size_t new -> new <> 0 ->
  match slip_gmp_reallocate E p old new s with
  | Ret q s' => 0 < q /\ q <> p /\ ~ user_block s q /\ s_heap s' p = None /\
      (exists b', s_heap s' q = Some b' /\ b_size b' = Z.max 1 new /\ forall o, 0 <= o < Z.min old new -> b_data b' o = b_data b o) /\
      (forall x c, user_block s x -> x <> p -> s_heap s x = Some c -> s_heap s' x = Some c)
  | Jump _ _ => True
  | Undef => False
  end.
Proof.
  intros E p old new b s HE HI Hu Hb Ho Hn Hn0. destruct (inside_inv HE HI) as (t0 & h0 & A0 & I0). destruct Hu as [_ Hpl].
  enough (G : wpM (slip_gmp_reallocate E p old new s) (fun q s' => 0 < q /\ q <> p /\ ~ user_block s q /\ s_heap s' p = None /\
      (exists b', s_heap s' q = Some b' /\ b_size b' = Z.max 1 new /\ forall o, 0 <= o < Z.min old new -> b_data b' o = b_data b o) /\
      (forall x c, user_block s x -> x <> p -> s_heap s x = Some c -> s_heap s' x = Some c)) (fun _ _ => True)).
  { destruct (slip_gmp_reallocate E p old new s); exact G. }
  unfold slip_gmp_reallocate. assert (Hp0 : 0 < p) by (apply (i_heap I0) in Hb; lia). destruct (Z.eqb_spec p 0); [lia|]. destruct (Z.eqb_spec new 0); [lia|].
  apply wpM_bind. eapply wpM_mono; [apply (@allocate_wp E HE t0 h0 A0 (fun _ => None) (fun _ => None) new s I0 Hn)| |auto].
  intros q s1 (I1 & (Fr & _) & Hq & Hql & (qb & Hqb & Hqs & _) & Hfresh). destruct (Fr p b Hb Hpl) as [Hb1 Hpl1]. assert (Hpq : p <> q) by (eapply Hfresh; eassumption).
  apply wpM_bind. unfold memcpy. rewrite Hqb, Hb1. destruct Hn as [Hn1 Hn2].
  replace ((0 <=? Z.min old new) && (Z.min old new <=? b_size qb) && (Z.min old new <=? b_size b) && negb (q =? p)) with true.
  2:{ symmetry. rewrite !andb_true_iff, !Z.leb_le, negb_true_iff, Z.eqb_neq. repeat split; lia. }
  unfold wpM at 1. apply wpM_bind. set (s2 := set_heap _ s1).
  eapply wpM_mono; [eapply (@free_wp t0 h0 A0 (fun _ => None) (fun _ => None))|intros _ s3 (_ & Hh & Hl & _)|intros ? ? []].
  - intros f H. contradiction.
  - apply inv_write; [exact I1|exact Hqb|exact Hql|reflexivity].
  - split; [exists b; cbn; rewrite put_other by congruence; exact Hb1|exact Hpl1].
  - reflexivity.
  - cbn [wpM MMem.ret]. change (s_list s2) with (s_list s1) in Hh. split; [exact Hq|]. split; [congruence|]. split.
    { intros [[b0 Hb0] Hx]. exact (Hfresh q b0 Hb0 Hx eq_refl). }
    split; [rewrite Hh by exact Hpl1; rewrite Z.eqb_refl; reflexivity|]. split.
    + eexists. split; [rewrite Hh by exact Hql; destruct (Z.eqb_spec q p); [congruence|]; cbn; apply put_same|]. split; [exact Hqs|]. intros o Hoo. cbn [b_data]. destruct (Z.ltb_spec o (Z.min old new)); [reflexivity|lia].
    + intros x c [_ Hx] Hxp Hc. destruct (Fr x c Hc Hx) as [Hc1 Hx1]. rewrite Hh by exact Hx1. destruct (Z.eqb_spec x p); [congruence|]. cbn. rewrite put_other; [exact Hc1|]. intros ->. exact (Hfresh q c Hc Hx eq_refl).
Qed.
(* its free function frees the block and changes no other *)
Theorem C48_free : forall E p s, 1 <= e_list_init E < 2 ^ 50 -> inside E s -> user_block s p ->
  exists s', slip_gmp_free p s = Ret tt s' /\ s_heap s' p = None /\ forall x, user_block s x -> x <> p -> s_heap s' x = s_heap s x.
Proof.
  intros E p s HE HI Hu. destruct (inside_inv HE HI) as (t0 & h0 & A0 & I0).
  pose proof (@free_wp t0 h0 A0 (fun _ => None) (fun _ => None) ltac:(intros f H; contradiction) p s I0 Hu eq_refl) as HF.
  destruct (slip_gmp_free p s) as [[] s'|c s'|]; cbn [wpM] in HF; [|contradiction|contradiction]. destruct HF as (_ & Hh & _). exists s'. split; [reflexivity|]. split.
  - rewrite Hh by apply Hu. rewrite Z.eqb_refl. reflexivity.
  - intros x [_ Hx] Hxp. rewrite Hh by exact Hx. destruct (Z.eqb_spec x p); [contradiction|reflexivity].
Qed.
(* the hypotheses are met: inside a call that has allocated a block and written to it; the block is grown and keeps what was written *)
Example C48_inside_example : exists s1, inside (E_ex 9) s1 /\ user_block s1 2032 /\
  match slip_gmp_reallocate (E_ex 9) 2032 16 32 s1 with Ret q s' => q = 2048 /\ match s_heap s' 2048 with Some b => b_size b = 32 /\ b_data b 0 = 5 | None => False end | _ => False end.
Proof.
  destruct (do_acts (E_ex 9) (firstn 4 grow) (started (Some [100]) s_ex)) as [[] s1|c s1|] eqn:E; try (vm_compute in E; discriminate).
  exists s1. split; [|split].
  - exists (Some [100]), (firstn 4 grow), s_ex. split; [exact idle_ex|]. split; [exact sound_ex|]. split; [apply legal_runb_ok; vm_compute; reflexivity|exact E].
  - apply userb_ok. vm_compute in E. injection E as <-. vm_compute. reflexivity.
  - vm_compute in E. injection E as <-. vm_compute. auto.
Qed.
