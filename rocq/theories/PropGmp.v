(* Property C69: programs that use GMP numbers through the wrappers, with memory running out anywhere.  Model: MGmp.v, MMem.v;
   specification: GmpSpec.v, MemSpec.v. *)
From Coq Require Import String.
From Verif Require Import Base MSolve MMatrix MMem MemSpec PMem PMem2 PMem3 PropMem MGmp GmpSpec PGmp.
Set Bullet Behavior "Strict Subproofs".
Open Scope string_scope.
Open Scope Z_scope.

(*----------------------------------------------------------------------------*)
(* The table of wrappers.  Every wrapper but SLIP_gmp_fscanf registers exactly the object that its GMP function writes, with the macro
   for its type; a wrapper whose GMP function writes no object registers none. *)
Definition registers_well (w : wrap) : Prop :=
  match written_type (w_gmp w) with
  | Some t => exists d l, w_call w = d :: l /\ w_arch w = Some (t, d) /\ nth_error (w_params w) d = Some t
  | None => In (w_gmp w) gmp_reads /\ w_arch w = None
  end.
Theorem C69_registration : forall w, In w wrappers -> w_name w <> "SLIP_gmp_fscanf" -> registers_well w.
Proof.
  intros w Hw Hn. unfold wrappers in Hw.
  repeat (destruct Hw as [<-|Hw];
    [first [exfalso; apply Hn; reflexivity
           |unfold registers_well; match goal with |- context [written_type (w_gmp ?w)] => let r := eval vm_compute in (written_type (w_gmp w)) in change (written_type (w_gmp w)) with r end;
            cbv iota; first [do 2 eexists; split; [reflexivity|split; reflexivity]
                            |split; [cbn [w_gmp]; unfold gmp_reads; cbn [In]; tauto|reflexivity]]]|]).
  destruct Hw.
Qed.
(* SLIP_gmp_fscanf is the exception (see C48_unregistered_refuted for what follows) *)
Theorem C69_fscanf_refuted : exists w, In w wrappers /\ w_name w = "SLIP_gmp_fscanf" /\ w_gmp w = "gmp_vfscanf" /\ w_arch w = None.
Proof. eexists. split; [unfold wrappers; do 3 right; left; reflexivity|]. repeat split. Qed.

(* Every wrapper but SLIP_mpq_set_si hands its parameters to the GMP function in order, except the one that receives the result
   (and the rounding mode of SLIP_mpfr_get_q, which mpfr_get_q does not need); SLIP_mpq_set_si passes x where the denominator z belongs. *)
Definition other_params (w : wrap) : list nat :=
  filter (fun i => match w_result w with Some r => negb (Nat.eqb i r) | None => true end) (seq 0 (List.length (w_params w))).
Theorem C69_arguments : forall w, In w wrappers -> w_varargs w = false ->
  w_name w <> "SLIP_mpq_set_si" -> w_name w <> "SLIP_mpfr_get_q" -> w_call w = other_params w.
Proof.
  intros w Hw Hv H1 H2. unfold wrappers in Hw.
  repeat (destruct Hw as [<-|Hw]; [first [discriminate Hv|reflexivity|exfalso; apply H1; reflexivity|exfalso; apply H2; reflexivity]|]).
  destruct Hw.
Qed.
Theorem C69_mpq_set_si_refuted : exists w, In w wrappers /\ w_name w = "SLIP_mpq_set_si" /\ other_params w = [0; 1; 2]%nat /\ w_call w = [0; 1; 0]%nat.
Proof. exists (nth 35 wrappers (mkW "" [] false None "" [] None)). split; [apply nth_In; vm_compute; lia|]. repeat split. Qed.

(* Every wrapper calls the GMP or MPFR function of its name (those with a variable number of arguments call its va_list form), and no two
   wrappers have the same name. *)
Theorem C69_names : (forall w, In w wrappers ->
    (w_varargs w = false /\ w_name w = "SLIP_" ++ w_gmp w) \/
    (w_varargs w = true /\ exists lib f, In lib ["gmp_"; "mpfr_"] /\ w_name w = "SLIP_" ++ lib ++ f /\ w_gmp w = lib ++ "v" ++ f)) /\
  NoDup (map w_name wrappers).
Proof.
  split.
  - intros w Hw. unfold wrappers in Hw.
    repeat (destruct Hw as [<-|Hw]; [first [left; split; reflexivity|right; split; [reflexivity|]; first
      [exists "gmp_", "fprintf"; split; [cbn; auto|split; reflexivity]|exists "gmp_", "printf"; split; [cbn; auto|split; reflexivity]|exists "gmp_", "asprintf"; split; [cbn; auto|split; reflexivity]
      |exists "gmp_", "fscanf"; split; [cbn; auto|split; reflexivity]|exists "mpfr_", "asprintf"; split; [cbn; auto|split; reflexivity]|exists "mpfr_", "fprintf"; split; [cbn; auto|split; reflexivity]
      |exists "mpfr_", "printf"; split; [cbn; auto|split; reflexivity]]]|]).
    destruct Hw.
  - assert (D : forall l, (fix nd (l : list string) : bool := match l with [] => true | a :: t => negb (existsb (String.eqb a) t) && nd t end) l = true -> NoDup l).
    { induction l as [|a l IH]; intros H; constructor; apply andb_true_iff in H; destruct H as [H1 H2].
      - intros HI. apply negb_true_iff in H1. assert (existsb (String.eqb a) l = true); [|congruence]. apply existsb_exists. exists a. split; [exact HI|apply String.eqb_refl].
      - apply IH. exact H2. }
    apply D. vm_compute. reflexivity.
Qed.

Lemma registered_destination w args : In w wrappers -> w_name w <> "SLIP_gmp_fscanf" -> archived (registered w args) = destination w args.
Proof.
  intros Hw Hn. pose proof (C69_registration w Hw Hn) as H. unfold registers_well in H. unfold registered, destination.
  destruct (written_type (w_gmp w)).
  - destruct H as (d & l & -> & -> & _). reflexivity.
  - destruct H as [_ ->]. reflexivity.
Qed.

(*----------------------------------------------------------------------------*)
(* one step *)
Lemma step_ok E c s : 1 <= e_list_init E < 2 ^ 50 -> objects_ok s -> good_cmd E c s ->
  exists r s', step E c s = Ret r s' /\ (r = None \/ r = Some SLIP_OUT_OF_MEMORY) /\ objects_ok s'.
Proof.
  intros HE Hok Hg. destruct c as [w args body caches|obj]; cbn [step good_cmd] in *.
  - destruct Hg as (Hw & Hn & HL & HA & HC). eapply call_ok; try eassumption. apply registered_destination; assumption.
  - destruct (@clear_ok obj s Hok) as (s' & H & Hok' & _). unfold mbind. rewrite H. exists None, s'. split; [reflexivity|]. auto.
Qed.

(* Any program that uses numbers only through the wrappers (and the CLEAR macros), with memory running out at any allocation: no call has
   undefined behaviour, every call returns SLIP_OK or SLIP_OUT_OF_MEMORY, and after every call each limb pointer of the program is
   NULL or static or leads to a live block that belongs to it alone - so every number, also one whose computation failed, can be
   cleared or passed on. *)
Theorem C69_history : forall E p s, 1 <= e_list_init E < 2 ^ 50 -> objects_ok s -> good_run E p s ->
  exists l s', run E p s = Ret l s' /\ Forall (fun r => r = None \/ r = Some SLIP_OUT_OF_MEMORY) l /\ objects_ok s'.
Proof.
  intros E p s HE. revert s. induction p as [|c p IH]; intros s Hok Hg; cbn [run].
  - exists [], s. split; [reflexivity|]. split; [constructor|assumption].
  - destruct Hg as [Hc Hr]. destruct (@step_ok E c s HE Hok Hc) as (r & s1 & H1 & Hr1 & Hok1).
    destruct (IH s1 Hok1 (Hr r s1 H1)) as (l & s2 & H2 & HF & Hok2). unfold mbind. rewrite H1, H2. exists (r :: l), s2.
    split; [reflexivity|]. split; [constructor; assumption|assumption].
Qed.

(* A step, failing or not, changes only the number it is meant to write: the limb pointers of all others and the blocks they lead to are the same *)
Theorem C69_others_unchanged : forall E c s r s' g, 1 <= e_list_init E < 2 ^ 50 -> objects_ok s -> good_cmd E c s ->
  step E c s = Ret r s' -> ~ In g (changes c) ->
  s_fld s' g = s_fld s g /\ (0 < s_fld s g -> s_heap s' (s_fld s g) = s_heap s (s_fld s g)).
Proof.
  intros E c s r s' g HE Hok Hg HS Hn. destruct c as [w args body caches|obj]; cbn [step good_cmd changes] in *.
  - destruct Hg as (Hw & Hnm & HL & HA & HC).
    destruct (@call_keeps E HE (destination w args) body caches s g Hok Hn (registered w args) (registered_destination w args Hw Hnm) HL HA HC r s' HS) as [H1 H2].
    split; [exact H1|]. intros Hp. apply (H2 Hp).
  - destruct (@clear_ok obj s Hok) as (s1 & H & _ & _ & Hk & _ & _ & Hh). unfold mbind in HS. rewrite H in HS. injection HS as <- <-.
    split; [apply Hk; assumption|]. intros Hp. apply Hh; [assumption|]. intros f Hf Heq. destruct Hok as (_ & _ & _ & Hex). apply (Hex f g); [intros ->; contradiction|lia|assumption].
Qed.

(* No block is lost: if GMP itself loses none, every block without an owner after the program was there, without an owner, before it.  So
   when all numbers are cleared, nothing that the program allocated is left. *)
Lemma step_tidy E c s r s' : 1 <= e_list_init E < 2 ^ 50 -> objects_ok s -> good_cmd E c s -> tidy E c s -> step E c s = Ret r s' ->
  forall p, loose s' p -> loose s p.
Proof.
  intros HE Hok Hg Ht HS p Hp. pose proof Hok as (Hid & Hnm & Hso & Hex). destruct c as [w args body caches|obj]; cbn [step good_cmd tidy] in *.
  - destruct Hg as (Hw & Hnm' & HL & HA & HC). destruct Ht as [T1 T2].
    destruct (wrapper_ret_or E _ _ _ _ HS) as [(s1 & HB & _ & ->)|(k & sj & HB & _ & Hf)].
    + apply (T1 s1 HB). exact Hp.
    + pose proof (@during E HE (registered w args) body [] s Hid) as HD. rewrite app_nil_r in HD. specialize (HD ltac:(intros f _; apply Hso) HL).
      rewrite HB in HD. cbn [wpM] in HD. destruct (HC k sj HB) as [HC1 _].
      pose proof (@failure_wp E HE (s_time s) (s_heap s) (archived (registered w args)) (fun _ => None) (fun _ => None)) as HF.
      specialize (HF ltac:(congruence) (caches sj) sj HD HC1 ltac:(reflexivity)). rewrite Hf in HF. cbn [wpM] in HF.
      destruct HF as (_ & _ & _ & _ & H5 & _). destruct Hp as [[[b Hb] Hpl] Hpf]. pose proof Hb as Hb'. apply H5 in Hb. destruct Hb as (Hbj & Hlt & _ & Hlj).
      apply (T2 k sj HB p b Hbj Hlt). split; [split; [exists b; exact Hbj|exact Hlj]|]. intros f Hfp.
      pose proof (frees_failure (caches sj) sj) as HFr. rewrite Hf in HFr. destruct (HFr (i_init HD)) as (_ & _ & HFl).
      destruct (HFl f) as [Heq|[_ Hdead]]; [apply (Hpf f); congruence|]. rewrite Hfp in Hdead. congruence.
  - destruct (@clear_ok obj s Hok) as (s1 & H & _ & _ & Hk & Hl & Hd & Hh). unfold mbind in HS. rewrite H in HS. injection HS as <- <-.
    destruct Hp as [[[b Hb] Hpl] Hpf]. assert (Hp0 : 0 < p \/ p <= 0) by lia.
    assert (Hobj : 0 < p -> forall f, In f obj -> s_fld s f <> p).
    { intros Hp f Hf Heq. rewrite (Hd p) in Hb; [discriminate|]. exists f. auto. }
    assert (Hpos : 0 < p).
    { destruct (@clear_ok obj s Hok) as (s2 & H' & Hok2 & _). rewrite H in H'. injection H' as <-. destruct Hok2 as ((_ & Hhp & _) & _). apply (Hhp _ _ Hb). }
    split.
    + split; [exists b; rewrite <- Hh by auto; exact Hb|congruence].
    + intros f Hfp. destruct (in_dec Z.eq_dec f obj) as [Hin|Hin]; [apply (Hobj Hpos f Hin Hfp)|]. apply (Hpf f). rewrite Hk by assumption. assumption.
Qed.
Theorem C69_no_leak : forall E p s l s', 1 <= e_list_init E < 2 ^ 50 -> objects_ok s -> good_run E p s -> tidy_run E p s ->
  run E p s = Ret l s' ->
  (forall b, loose s' b -> loose s b) /\
  (forall objs, (forall f, 0 < s_fld s' f -> In f objs) ->
     exists s'', clear objs s' = Ret tt s'' /\ (forall f, s_fld s'' f <= 0) /\ forall b, user_block s'' b -> loose s b).
Proof.
  intros E p s l s' HE Hok Hg Ht HR.
  assert (HL : forall b, loose s' b -> loose s b).
  { revert s l Hok Hg Ht HR. induction p as [|c p IH]; intros s l Hok Hg Ht HR; cbn [run] in HR.
    - unfold MMem.ret in HR. injection HR as _ <-. auto.
    - destruct Hg as [Hc Hr]. destruct Ht as [Tc Tr]. destruct (@step_ok E c s HE Hok Hc) as (r & s1 & H1 & _ & Hok1). unfold mbind in HR. rewrite H1 in HR.
      destruct (run E p s1) as [l1 s2|k s2|] eqn:H2; [|discriminate|discriminate]. unfold MMem.ret in HR. injection HR as _ <-.
      intros b Hb. apply (@step_tidy E c s r s1 HE Hok Hc Tc H1). eapply IH; try eassumption; [apply (Hr r s1 H1)|apply (Tr r s1 H1)]. }
  split; [exact HL|]. intros objs Hall.
  destruct (C69_history E p s HE Hok Hg) as (l' & s0 & HR' & _ & Hok'). rewrite HR in HR'. injection HR' as _ <-.
  destruct (@clear_ok objs s' Hok') as (s2 & HC & Hok2 & Hz & Hk & Hl & Hd & Hh). exists s2. split; [exact HC|].
  assert (Hfld : forall f, s_fld s2 f <= 0).
  { intros f. destruct (in_dec Z.eq_dec f objs) as [Hin|Hin]; [rewrite Hz by assumption; lia|]. rewrite Hk by assumption.
    destruct (Z_lt_le_dec 0 (s_fld s' f)) as [H|H]; [|assumption]. exfalso. apply Hin. apply Hall. assumption. }
  split; [exact Hfld|]. intros b Hb. apply HL.
  assert (Hb0 : 0 < b). { destruct Hb as [[c Hc] _]. destruct Hok2 as ((_ & Hhp & _) & _). apply (Hhp _ _ Hc). }
  assert (Hno : loose s2 b) by (split; [exact Hb|intros f; specialize (Hfld f); lia]).
  eapply (@step_tidy E (Clear objs) s' None s2); try assumption; try exact I.
  cbn [step]. unfold mbind. rewrite HC. reflexivity.
Qed.

(*----------------------------------------------------------------------------*)
(* The hypotheses are met.  A checker for programs that use finitely many fields F and addresses P; its verdict implies good_run and
   tidy_run. *)
Section Checker.
Variable E : env.
Variable F P : list Z.
Definition memb (x : Z) (l : list Z) : bool := existsb (Z.eqb x) l.
Definition supported (s : st) : Prop := (forall f, ~ In f F -> s_fld s f = 0) /\ forall p, s_heap s p <> None -> In p P.
Definition others (s : st) (dst : list Z) (p : Z) : bool := forallb (fun g => memb g dst || negb (0 <? p) || negb (s_fld s g =? p)) F.
Definition act_onb (dst : list Z) (s : st) (a : act) : bool :=
  match a with
  | GAlloc _ => true
  | GFree p | GRealloc p _ _ | GWrite p _ _ => others s dst p
  | GSet f p => memb f dst && memb f F && others s [f] p
  end.
Fixpoint acts_onb (dst : list Z) (l : list act) (s : st) : bool :=
  match l with
  | [] => true
  | a :: l => act_onb dst s a && match do_act E a s with Ret _ s' => acts_onb dst l s' | _ => true end
  end.
Definition served (s s' : st) : bool := forallb (fun t => memb (e_addr E (s_funs s) t) P) (seq (s_time s) (s_time s' - s_time s)).
Definition looseb (s : st) (p : Z) : bool := userb s p && forallb (fun f => negb (s_fld s f =? p)) F.
Definition old (s sj : st) (p : Z) : bool := match s_heap sj p with Some b => Nat.ltb (b_id b) (s_time s) | None => false end.
Definition cmdb (c : cmd) (s : st) : bool :=
  match c with
  | Clear _ => true
  | Call w args body caches =>
    let s0 := started (registered w args) s in
    legal_runb E body s0 && acts_onb (destination w args) body s0 &&
    match do_acts E body s0 with
    | Ret _ s1 => served s0 s1 && forallb (fun p => negb (looseb s1 p) || (looseb s p && negb (p =? 0))) P
    | Jump _ sj => served s0 sj && match caches sj with [] => true | _ => false end &&
        forallb (fun p => negb (looseb sj p && old s sj p) || (looseb s p && negb (p =? 0))) P
    | Undef => false
    end
  end.
Fixpoint runb (p : list cmd) (s : st) : bool :=
  match p with [] => true | c :: p => cmdb c s && match step E c s with Ret _ s' => runb p s' | _ => true end end.

Lemma memb_in x l : memb x l = true -> In x l.
Proof. unfold memb. rewrite existsb_exists. intros (y & Hy & He). apply Z.eqb_eq in He. congruence. Qed.
(* fields outside F stay 0 *)
Definition fsup (s : st) : Prop := forall f, ~ In f F -> s_fld s f = 0.
Lemma act_fsup dst s a : fsup s -> act_onb dst s a = true -> match do_act E a s with Ret _ s' | Jump _ s' => fsup s' | Undef => True end.
Proof.
  intros HS HA. destruct a as [z|p|p o n|f p|p o v].
  1,2,3,5: match goal with |- context [do_act E ?a ?s0] => pose proof (@nulls_act E a ltac:(discriminate) s0) as H; destruct (do_act E a s0) as [? s1|? s1|]; [| |exact I];
    intros g Hg; destruct (H g) as [->| ->]; auto end.
  cbn [do_act modst act_onb] in *. apply andb_prop in HA. destruct HA as [HA _]. apply andb_prop in HA. destruct HA as [_ HA]. apply memb_in in HA.
  intros g Hg. simpl. destruct (put_cases (s_fld s) f p g) as [[-> _]|[_ ->]]; [contradiction|apply HS; assumption].
Qed.
Lemma others_fsup s dst p : fsup s -> others s dst p = true -> forall g, ~ In g dst -> 0 < p -> s_fld s g <> p.
Proof.
  intros HF H g Hg Hp. destruct (in_dec Z.eq_dec g F) as [Hin|Hin]; [|rewrite HF by assumption; lia].
  unfold others in H. rewrite forallb_forall in H. specialize (H g Hin). apply orb_prop in H. destruct H as [H|H].
  - apply orb_prop in H. destruct H as [H|H]; [exfalso; apply Hg; apply memb_in; exact H|]. destruct (Z.ltb_spec 0 p); [discriminate|lia].
  - destruct (Z.eqb_spec (s_fld s g) p); [discriminate|assumption].
Qed.
Lemma acts_onb_ok dst l : forall s, fsup s -> acts_onb dst l s = true ->
  acts_on E dst l s /\ match do_acts E l s with Ret _ s' | Jump _ s' => fsup s' | Undef => True end.
Proof.
  induction l as [|a l IH]; intros s HS H; cbn [acts_onb acts_on do_acts] in *; [split; [exact I|exact HS]|].
  apply andb_prop in H. destruct H as [H1 H2].
  assert (HA : act_on dst s a).
  { destruct a as [z|p|p o n|f p|p o v]; cbn [act_onb act_on] in *; auto; try (apply others_fsup; assumption).
    apply andb_prop in H1. destruct H1 as [H1 H3]. apply andb_prop in H1. destruct H1 as [H1 _]. split; [apply memb_in; exact H1|].
    intros Hp g Hg. apply (@others_fsup s [f] p HS H3); [|assumption]. intros [|[]]; congruence. }
  pose proof (@act_fsup dst s a HS H1) as HF. unfold mbind. destruct (do_act E a s) as [[] s1|c s1|] eqn:Ha.
  - destruct (IH s1 HF H2) as [H3 H4]. split; [|exact H4]. split; [exact HA|]. intros s' Hs. injection Hs as <-. exact H3.
  - split; [|exact HF]. split; [exact HA|]. discriminate.
  - split; [|exact I]. split; [exact HA|]. discriminate.
Qed.
Lemma looseb_ok s p : fsup s -> looseb s p && negb (p =? 0) = true -> loose s p.
Proof.
  intros HS H. apply andb_prop in H. destruct H as [H H0]. apply andb_prop in H. destruct H as [H1 H2]. split; [apply userb_ok; exact H1|].
  intros f Hf. destruct (in_dec Z.eq_dec f F) as [Hin|Hin].
  - rewrite forallb_forall in H2. specialize (H2 f Hin). rewrite Hf, Z.eqb_refl in H2. discriminate.
  - rewrite HS in Hf by assumption. subst p. discriminate.
Qed.
Lemma loose_b s p : loose s p -> looseb s p = true.
Proof.
  intros [[[b Hb] Hl] Hf]. unfold looseb, userb, is_live. rewrite Hb. destruct (Z.eqb_spec p (s_list s)); [contradiction|]. cbn [andb negb].
  apply forallb_forall. intros f _. destruct (Z.eqb_spec (s_fld s f) p) as [H|]; [exfalso; exact (Hf f H)|reflexivity].
Qed.
Lemma served_ok s s' : (forall p, s_heap s p <> None -> In p P) -> grown E s s' -> served s s' = true -> forall p, s_heap s' p <> None -> In p P.
Proof.
  intros HP (_ & _ & HG) HS p Hp. destruct (HG p Hp) as [H|(t & Ht & ->)]; [auto|]. unfold served in HS. rewrite forallb_forall in HS. apply memb_in. apply HS.
  apply in_seq. lia.
Qed.

(* every call in the list is one of the wrappers, SLIP_gmp_fscanf excepted *)
Definition named (c : cmd) : Prop := match c with Call w _ _ _ => In w wrappers /\ w_name w <> "SLIP_gmp_fscanf" | Clear _ => True end.
Lemma runb_ok p : 1 <= e_list_init E < 2 ^ 50 -> forall s, objects_ok s -> supported s -> Forall named p -> runb p s = true -> good_run E p s /\ tidy_run E p s.
Proof.
  intros HE. induction p as [|c p IH]; intros s Hok HS HN H; cbn [runb good_run tidy_run] in *; [auto|].
  apply andb_prop in H. destruct H as [H1 H2]. inversion HN as [|? ? HN1 HN2]; subst.
  pose proof Hok as (Hid & Hnm & Hso & Hex). destruct HS as [HF HP].
  assert (HC : good_cmd E c s /\ tidy E c s /\ forall r s', step E c s = Ret r s' -> supported s').
  { destruct c as [w args body caches|obj]; cbn [cmdb good_cmd tidy step] in *.
    - apply andb_prop in H1. destruct H1 as [H1 Hx]. apply andb_prop in H1. destruct H1 as [HL HA]. destruct HN1 as [Hw Hn].
      apply legal_runb_ok in HL.
      assert (HF0 : fsup (started (registered w args) s)) by (unfold fsup; rewrite started_fld; exact HF).
      destruct (@acts_onb_ok _ _ _ HF0 HA) as [HA' HFa].
      pose proof (@grown_acts E body (started (registered w args) s)) as HG.
      assert (HP0 : forall p, s_heap (started (registered w args) s) p <> None -> In p P) by (destruct (registered w args); exact HP).
      assert (HCa : forall c sj, do_acts E body (started (registered w args) s) = Jump c sj -> caches sj = []).
      { intros c sj HB. rewrite HB in Hx. apply andb_prop in Hx. destruct Hx as [Hx _]. apply andb_prop in Hx. destruct Hx as [_ Hx]. destruct (caches sj); [reflexivity|discriminate]. }
      split; [|split].
      + split; [exact Hw|]. split; [exact Hn|]. split; [exact HL|]. split; [exact HA'|]. intros c sj HB. rewrite (HCa c sj HB). split; [apply no_caches|]. intros f [].
      + split.
        * intros s1 HB q Hq. rewrite HB in Hx, HFa, HG. apply andb_prop in Hx. destruct Hx as [Hx1 Hx2].
          rewrite forallb_forall in Hx2. assert (Hin : In q P). { eapply served_ok; [exact HP0|exact HG|exact Hx1|]. destruct Hq as [[[b Hb] _] _]. congruence. }
          specialize (Hx2 q Hin). rewrite (@loose_b s1 q Hq) in Hx2. cbn [negb orb] in Hx2. apply looseb_ok; assumption.
        * intros k sj HB q b Hb Hlt Hq. rewrite HB in Hx, HFa, HG. apply andb_prop in Hx. destruct Hx as [Hx1 Hx2]. apply andb_prop in Hx1. destruct Hx1 as [Hx1 _].
          rewrite forallb_forall in Hx2. assert (Hin : In q P) by (eapply served_ok; [exact HP0|exact HG|exact Hx1|congruence]).
          specialize (Hx2 q Hin). rewrite (@loose_b sj q Hq) in Hx2. unfold old in Hx2. rewrite Hb in Hx2. apply Nat.ltb_lt in Hlt. rewrite Hlt in Hx2.
          cbn [negb orb andb] in Hx2. apply looseb_ok; assumption.
      + intros r s' HW. destruct (wrapper_ret_or E _ _ _ _ HW) as [(s1 & HB & _ & ->)|(k & sj & HB & _ & Hf)]; rewrite HB in Hx, HFa, HG.
        * apply andb_prop in Hx. destruct Hx as [Hx1 _]. split; [exact HFa|]. simpl. eapply served_ok; [exact HP0|exact HG|exact Hx1].
        * apply andb_prop in Hx. destruct Hx as [Hx1 _]. apply andb_prop in Hx1. destruct Hx1 as [Hx1 _].
          pose proof (@during E HE (registered w args) body [] s Hid) as HD. rewrite app_nil_r in HD. specialize (HD ltac:(intros f _; apply Hso) HL). rewrite HB in HD. cbn [wpM] in HD.
          pose proof (frees_failure (caches sj) sj) as HFr. rewrite Hf in HFr. destruct (HFr (i_init HD)) as (_ & Hhp & HFl). split.
          -- intros f Hfn. destruct (HFl f) as [->|[-> _]]; [apply HFa; assumption|reflexivity].
          -- intros q Hq. eapply served_ok; [exact HP0|exact HG|exact Hx1|]. intros Hnone. apply Hq. apply Hhp. exact Hnone.
    - split; [exact I|]. split; [exact I|]. intros r s' HW. destruct (@clear_ok obj s Hok) as (s1 & HCl & Hok1 & Hz & Hk & _ & Hd & Hh). unfold mbind in HW. rewrite HCl in HW. injection HW as <- <-.
      split.
      + intros f Hfn. destruct (in_dec Z.eq_dec f obj) as [Hin|Hin]; [apply Hz; assumption|rewrite Hk by assumption; apply HF; assumption].
      + intros q Hq. destruct (s_heap s1 q) as [b|] eqn:Hb; [|congruence]. assert (Hp0 : 0 < q). { destruct Hok1 as ((_ & H' & _) & _). apply (H' _ _ Hb). }
        apply HP. rewrite <- Hh; [congruence|assumption|]. intros f Hfo Hfq. rewrite (Hd q) in Hb; [discriminate|]. exists f. auto. }
  destruct HC as (HC1 & HC2 & HC3). destruct (@step_ok E c s HE Hok HC1) as (r & s' & Hst & _ & Hok'). rewrite Hst in H2.
  destruct (IH s' Hok' (HC3 r s' Hst) HN2 H2) as [HG HT].
  split; (split; [assumption|]); intros r' s'' Hst'; rewrite Hst in Hst'; injection Hst' as <- <-; assumption.
Qed.
End Checker.

(* A program with an mpz_t x (field 1), an mpq_t q (fields 2 and 3) and an mpz_t y (field 4), on an empty heap: initialize all three, set q,
   let y = x * x grow y's limbs, clear all.  Request number bad of the allocator is refused. *)
Definition wr (n : string) : wrap := match find (fun w => String.eqb (w_name w) n) wrappers with Some w => w | None => mkW "SLIP_gmp_fscanf" [] false None "" [] None end.
Definition wrap_dec (v w : wrap) : {v = w} + {v <> w}.
Proof. repeat decide equality. Defined.
Definition namedb (p : list cmd) : bool :=
  forallb (fun c => match c with Call w _ _ _ => (if in_dec wrap_dec w wrappers then true else false) && negb (String.eqb (w_name w) "SLIP_gmp_fscanf") | Clear _ => true end) p.
Lemma namedb_ok p : namedb p = true -> Forall named p.
Proof.
  unfold namedb. rewrite forallb_forall. intros H. apply Forall_forall. intros c Hc. specialize (H c Hc). destruct c as [w args body caches|]; [|exact I].
  apply andb_prop in H. destruct H as [H1 H2]. split; [destruct (in_dec wrap_dec w wrappers); [assumption|discriminate]|].
  intros Heq. rewrite Heq in H2. discriminate.
Qed.
Definition no_cache (_ : st) : list Z := [].
Definition s_gmp : st := mkSt (fun _ => None) 1 true 0 0 0 0 (-1) [] (fun _ => 0).
Definition prog_gmp : list cmd := [
  Call (wr "SLIP_mpz_init2") [[1]; []] [GAlloc 8; GSet 1 2032] no_cache;
  Call (wr "SLIP_mpq_init") [[2; 3]] [GAlloc 8; GSet 2 2048; GAlloc 8; GSet 3 2064; GWrite 2064 0 1] no_cache;
  Call (wr "SLIP_mpz_init") [[4]] [GSet 4 (-1)] no_cache;
  Call (wr "SLIP_mpq_set_z") [[2; 3]; [1]] [GWrite 2048 0 5] no_cache;
  Call (wr "SLIP_mpz_mul") [[4]; [1]; [1]] [GAlloc 16; GSet 4 2080; GAlloc 64; GWrite 2080 0 9; GFree (2000 + 16 * 6)] no_cache;
  Call (wr "SLIP_mpz_sgn") [[]; [4]] [] no_cache;
  Clear [1]; Clear [2; 3]; Clear [4]].
Definition fields_gmp : list Z := [1; 2; 3; 4].
Definition addrs_gmp : list Z := 0 :: map (fun t => 2000 + 16 * Z.of_nat t) (seq 0 20).
Lemma s_gmp_ok : objects_ok s_gmp.
Proof.
  split; [|split; [reflexivity|split]].
  - split; [reflexivity|]. split; [intros p b H; discriminate|]. split; [left; reflexivity|reflexivity].
  - intros f. left. simpl. lia.
  - intros f g _ H. simpl in H. lia.
Qed.
Lemma s_gmp_sup : supported fields_gmp addrs_gmp s_gmp.
Proof. split; [reflexivity|]. intros p H. exfalso. apply H. reflexivity. Qed.
Example C69_example : forall bad, In bad [1; 5; 6; 9]%nat ->
  objects_ok s_gmp /\ good_run (E_ex bad) prog_gmp s_gmp /\ tidy_run (E_ex bad) prog_gmp s_gmp.
Proof.
  intros bad Hb. split; [exact s_gmp_ok|]. eapply (@runb_ok (E_ex bad) fields_gmp addrs_gmp); [cbn; lia|exact s_gmp_ok|exact s_gmp_sup| |].
  - apply namedb_ok. vm_compute. reflexivity.
  - repeat (destruct Hb as [<-|Hb]; [vm_compute; reflexivity|]). destruct Hb.
Qed.
(* served throughout; the first and the second request of the multiplication refused (y's limbs given back, x and q intact until cleared) *)
Example C69_example_results :
  let oom := Some SLIP_OUT_OF_MEMORY in
  map (fun bad => match run (E_ex bad) prog_gmp s_gmp with Ret l s' => Some (l, map (s_fld s') fields_gmp, filter (userb s') addrs_gmp) | _ => None end) [9; 5; 6]%nat =
  [Some ([None; None; None; None; None; None; None; None; None], [0; 0; 0; 0], []);
   Some ([None; None; None; None; oom; None; None; None; None], [0; 0; 0; 0], []);
   Some ([None; None; None; None; oom; None; None; None; None], [0; 0; 0; 0], [])] /\
  map (fun bad => match run (E_ex bad) (firstn 5 prog_gmp) s_gmp with Ret l s' => Some (map (s_fld s') fields_gmp) | _ => None end) [9; 5; 6]%nat =
  [Some [2032; 2048; 2064; 2080]; Some [2032; 2048; 2064; -1]; Some [2032; 2048; 2064; 0]].
Proof. vm_compute. split; reflexivity. Qed.
