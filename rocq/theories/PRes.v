(* Ownership of memory: a type system for the resource model, sound for undefined behaviour, leaks and double frees *)
From Coq Require Import ZArith List Bool Lia Arith.
From Verif Require Import Base MMatrix MRes.
Import ListNotations.
Set Bullet Behavior "Strict Subproofs".
Open Scope Z_scope.

Local Notation cnt := (count_occ Z.eq_dec).
(* multiplicity of block q *)
Fixpoint lc (q : Z) (l : list Z) : nat :=
  match l with [] => 0%nat | a :: l => ((if Z.ltb 0 a && Z.eqb a q then 1 else 0) + lc q l)%nat end.
Fixpoint ec (q : Z) (e : list (list Z)) : nat := match e with [] => 0%nat | l :: e => (lc q l + ec q e)%nat end.
Definition mc (q : Z) (A : rmat) : nat :=
  (lc q [r_hdr A] + (if r_shallow A then 0 else lc q [r_p A; r_i A; r_j A; r_x A] + ec q (r_ent A)) + lc q (r_scale A))%nat.
Definition oc (q : Z) (x : obj) : nat :=
  match x with Nil => 0%nat | Arr p => lc q [p] | Mat A => mc q A | Num l => lc q l | Ana h p => lc q [h; p] end.
Fixpoint fc (q : Z) (f : list obj) : nat := match f with [] => 0%nat | x :: f => (oc q x + fc q f)%nat end.

Section proofs.
Variable O : orc.
Definition tidy : Prop := forall c j, o_limb O c j <> 2.
Variable L0 : list Z.

Definition hown (H : Z -> nat) (s : rst) : Prop :=
  NoDup (live s) /\ (forall x, In x (live s) -> 0 < x < nxt s) /\ 0 < nxt s /\
  (forall q, cnt (live s) q = (H q + cnt (lost s) q)%nat) /\ (tidy -> lost s = L0).

Lemma hown_ext H H' s : (forall q, H q = H' q) -> hown H s -> hown H' s.
Proof. intros E (h1 & h2 & h3 & h4 & h5). repeat split; try assumption; try (apply h2; assumption). intros q. rewrite h4, E. reflexivity. Qed.
Lemma hown_tick H s : hown H s -> hown H (tick s).
Proof. exact (fun x => x). Qed.
Lemma hown_failed H s : hown H s -> hown H (failed s).
Proof. exact (fun x => x). Qed.
Lemma hown_fresh H s : hown H s -> hown (fun q => ((if Z.eqb (nxt s) q then 1 else 0) + H q)%nat) (fresh s).
Proof.
  intros (h1 & h2 & h3 & h4 & h5). unfold hown, fresh; cbn [live nxt lost]. repeat split; try assumption; try lia.
  - constructor; [|assumption]. intros HI. specialize (h2 _ HI). lia.
  - destruct H0 as [<-|H0]; [assumption|]. apply h2 in H0. lia.
  - destruct H0 as [<-|H0]; [lia|]. apply h2 in H0. lia.
  - intros q. cbn [count_occ]. rewrite h4. destruct (Z.eq_dec (nxt s) q) as [->|n]; [rewrite Z.eqb_refl|apply Z.eqb_neq in n; rewrite n]; lia.
Qed.
Lemma cnt_filter p l q : cnt (filter (fun x => negb (Z.eqb x p)) l) q = if Z.eqb p q then 0%nat else cnt l q.
Proof.
  induction l as [|a l IH]; cbn [filter count_occ]; [destruct (Z.eqb p q); reflexivity|].
  destruct (Z.eqb_spec a p) as [->|Ha]; cbn [negb].
  - rewrite IH. destruct (Z.eqb_spec p q) as [->|Hq]; [reflexivity|]. destruct (Z.eq_dec p q); [contradiction|reflexivity].
  - cbn [count_occ]. rewrite IH. destruct (Z.eqb_spec p q) as [->|Hq]; [|reflexivity]. destruct (Z.eq_dec a q); [contradiction|reflexivity].
Qed.
Lemma hown_drop H p s : 0 < p -> hown (fun q => (lc q [p] + H q)%nat) s -> alive p s = true /\ hown H (drop p s).
Proof.
  intros Hp (h1 & h2 & h3 & h4 & h5).
  assert (HI : In p (live s)).
  { apply (count_occ_In Z.eq_dec). rewrite h4. cbn [lc]. replace (0 <? p) with true by (symmetry; apply Z.ltb_lt; lia). rewrite Z.eqb_refl. cbn. lia. }
  split. { unfold alive. apply existsb_exists. exists p. rewrite Z.eqb_refl. auto. }
  unfold hown, drop; cbn [live nxt lost]. repeat split; try assumption; try lia.
  - apply NoDup_filter. assumption.
  - apply filter_In in H0. apply h2. tauto.
  - apply filter_In in H0. apply h2. tauto.
  - intros q. rewrite cnt_filter. specialize (h4 q). cbn [lc] in h4. replace (0 <? p) with true in h4 by (symmetry; apply Z.ltb_lt; lia). cbn [andb] in h4.
    destruct (Z.eqb_spec p q) as [->|Hq]; [|lia]. pose proof (proj1 (NoDup_count_occ Z.eq_dec _) h1 q). lia.
Qed.
Lemma hown_lose H p s : 0 < p -> ~ tidy -> hown (fun q => (lc q [p] + H q)%nat) s -> hown H (lose p s).
Proof.
  intros Hp Ht (h1 & h2 & h3 & h4 & h5). unfold hown, lose; cbn [live nxt lost]. split; [assumption|]. split; [assumption|]. split; [assumption|].
  split; [|intros X; contradiction]. intros q. rewrite h4. cbn [lc count_occ]. replace (0 <? p) with true by (symmetry; apply Z.ltb_lt; lia). cbn [andb].
  destruct (Z.eqb_spec p q) as [e|Hq]; destruct (Z.eq_dec p q); try congruence; lia.
Qed.
Lemma hown_alive H p s : 0 < p -> hown H s -> (1 <= H p)%nat -> alive p s = true.
Proof.
  intros Hp (h1 & h2 & h3 & h4 & h5) HH. unfold alive. apply existsb_exists. exists p. rewrite Z.eqb_refl. split; [|reflexivity].
  apply (count_occ_In Z.eq_dec). rewrite h4. lia.
Qed.

Lemma lc_neg q p l : p <= 0 -> lc q (p :: l) = lc q l.
Proof. intros H. cbn [lc]. replace (0 <? p) with false by (symmetry; apply Z.ltb_ge; lia). reflexivity. Qed.
Lemma lc_pos q p l : 0 < p -> lc q (p :: l) = ((if Z.eqb p q then 1 else 0) + lc q l)%nat.
Proof. intros H. cbn [lc]. replace (0 <? p) with true by (symmetry; apply Z.ltb_lt; lia). reflexivity. Qed.
Lemma lc_app q l1 l2 : lc q (l1 ++ l2) = (lc q l1 + lc q l2)%nat.
Proof. induction l1; cbn [lc app]; lia. Qed.
Lemma ec_app q l1 l2 : ec q (l1 ++ l2) = (ec q l1 + ec q l2)%nat.
Proof. induction l1; cbn [ec app]; lia. Qed.

Lemma give_ok H p s : hown (fun q => (lc q [p] + H q)%nat) s -> exists s', give p s = Some s' /\ hown H s' /\ nfail s' = nfail s.
Proof.
  intros Hs. unfold give. destruct (Z.leb_spec p 0) as [Hp|Hp].
  - exists s. split; [reflexivity|]. split; [|reflexivity]. eapply hown_ext; [|exact Hs]. intros q. cbv beta. rewrite lc_neg by assumption. reflexivity.
  - destruct (hown_drop H p s Hp Hs) as [-> HD]. exists (drop p s). auto.
Qed.

(* limb lists *)
Definition okl (l : list Z) : Prop := Forall (fun p => -1 <= p) l.
Definition nul (l : list Z) : Prop := Forall (fun p => p <= 0) l.
Lemma lc_nul q l : nul l -> lc q l = 0%nat.
Proof. induction 1; [reflexivity|]. rewrite lc_neg; assumption. Qed.

Lemma hown_nxt H s : hown H s -> 0 < nxt s.
Proof. intros (h1 & h2 & h3 & h4 & h5). exact h3. Qed.

(* an operation on the limbs of one object *)
Definition limbs_spec (pre : list Z -> Prop) (op : list Z -> M (option info * list Z)) : Prop := forall l H f s,
  pre l -> hown (fun q => (lc q l + H q)%nat) s ->
  match op l f s with
  | Next (r, l') f' s' => f' = f /\ hown (fun q => (lc q l' + H q)%nat) s' /\ okl l' /\ length l' = length l /\ (r = None -> nfail s' = nfail s)
  | _ => False
  end.

Definition each_spec (P : Z -> Prop) (g : Z -> Z -> M Z) : Prop := forall j p H f s,
  P p -> hown (fun q => (lc q [p] + H q)%nat) s ->
  match g j p f s with
  | Next p' f' s' => f' = f /\ hown (fun q => (lc q [p'] + H q)%nat) s' /\ -1 <= p' /\ nfail s' = nfail s
  | _ => False
  end.
Lemma each_ok P g : each_spec P g -> forall l j H f s, Forall P l -> hown (fun q => (lc q l + H q)%nat) s ->
  match each g j l f s with
  | Next l' f' s' => f' = f /\ hown (fun q => (lc q l' + H q)%nat) s' /\ okl l' /\ length l' = length l /\ nfail s' = nfail s
  | _ => False
  end.
Proof.
  intros Hg. induction l as [|p l IH]; intros j H f s HP Hs.
  - cbn. split; [reflexivity|]. split; [exact Hs|]. split; [constructor|]. split; reflexivity.
  - apply Forall_cons_iff in HP. destruct HP as [Hp HP].
    cbn [each]. unfold bind.
    pose proof (Hg j p (fun q => (lc q l + H q)%nat) f s Hp) as HG.
    assert (Hs' : hown (fun q => (lc q [p] + (lc q l + H q))%nat) s) by (eapply hown_ext; [|exact Hs]; intros q; cbn [lc]; lia).
    specialize (HG Hs'). destruct (g j p f s) as [p' f' s'|e f' s'|]; try contradiction. destruct HG as (-> & H1 & H2 & H3).
    assert (H1' : hown (fun q => (lc q l + (lc q [p'] + H q))%nat) s') by (eapply hown_ext; [|exact H1]; intros q; cbn [lc]; lia).
    specialize (IH (j + 1) _ f s' HP H1'). destruct (each g (j + 1) l f s') as [l' f' s''|e f' s''|]; try contradiction.
    destruct IH as (-> & K1 & K2 & K3 & K4). cbn. split; [reflexivity|]. split; [|split; [constructor; assumption|split; [lia|lia]]].
    eapply hown_ext; [|exact K1]. intros q. cbn [lc]. lia.
Qed.
Lemma limb_ok_spec e : each_spec (fun p => -1 <= p) (fun j => limb_ok (e j)).
Proof.
  intros j p H f s Hp Hs. unfold limb_ok. destruct (Z.eqb_spec p (-2)); [lia|]. destruct (Z.eqb (e j) 0); [auto|].
  destruct (give_ok _ _ _ Hs) as (s' & -> & H1 & H2). split; [reflexivity|]. pose proof (hown_nxt _ _ H1). split; [|split; [lia|exact H2]].
  eapply hown_ext; [|apply hown_fresh; exact H1]. intros q. cbv beta. rewrite lc_pos by assumption. cbn [lc]. lia.
Qed.
Lemma limb_oom_spec e : (forall j, e j = 2 -> ~ tidy) -> each_spec (fun p => -1 <= p) (fun j => limb_oom (e j)).
Proof.
  intros He j p H f s Hp Hs. unfold limb_oom. destruct (Z.eqb_spec p (-2)); [lia|]. destruct (Z.eqb (e j) 0); [auto|].
  destruct ((e j =? 2) && (0 <? p)) eqn:E2.
  - apply andb_prop in E2. destruct E2 as [E2 Ep]. apply Z.eqb_eq in E2. apply Z.ltb_lt in Ep. split; [reflexivity|]. split; [|split; [lia|reflexivity]].
    eapply hown_ext; [|apply (hown_lose H p s Ep (He j E2)); exact Hs]. intros q. cbv beta. rewrite lc_neg by lia. reflexivity.
  - destruct (give_ok _ _ _ Hs) as (s' & -> & H1 & H2). split; [reflexivity|]. split; [|split; [lia|exact H2]].
    eapply hown_ext; [|exact H1]. intros q. cbv beta. rewrite lc_neg by lia. reflexivity.
Qed.
Lemma init_ok_spec e : each_spec (fun p => p <= 0) (fun j => init_ok (e j)).
Proof.
  intros j p H f s Hp Hs. unfold init_ok.
  assert (Hs' : hown H s) by (eapply hown_ext; [|exact Hs]; intros q; cbv beta; rewrite lc_neg by assumption; reflexivity).
  destruct (Z.eqb (e j) 0).
  - split; [reflexivity|]. split; [exact Hs'|split; [lia|reflexivity]].
  - split; [reflexivity|]. pose proof (hown_nxt _ _ Hs'). split; [|split; [lia|reflexivity]].
    eapply hown_ext; [|apply hown_fresh; exact Hs']. intros q. cbv beta. rewrite lc_pos by assumption. cbn [lc]. lia.
Qed.
Lemma init_oom_spec e : each_spec (fun p => -1 <= p <= 0) (fun j => init_oom (e j)).
Proof.
  intros j p H f s Hp Hs. unfold init_oom.
  assert (Hs' : hown H s) by (eapply hown_ext; [|exact Hs]; intros q; cbv beta; rewrite lc_neg by lia; reflexivity).
  split; [reflexivity|]. split; [|split; [|reflexivity]].
  - eapply hown_ext; [|exact Hs']. intros q. cbv beta. rewrite lc_neg; [reflexivity|]. destruct (Z.eqb (e j) 0); [lia|]. destruct (Z.eqb (e j) 1); lia.
  - destruct (Z.eqb (e j) 0); [lia|]. destruct (Z.eqb (e j) 1); lia.
Qed.
Lemma clear1_spec : forall p H f s, -1 <= p -> hown (fun q => (lc q [p] + H q)%nat) s ->
  match clear1 p f s with Next p' f' s' => p' = 0 /\ f' = f /\ hown H s' /\ nfail s' = nfail s | _ => False end.
Proof.
  intros p H f s Hp Hs. unfold clear1. destruct (Z.eqb_spec p (-2)); [lia|]. destruct (give_ok _ _ _ Hs) as (s' & -> & H1 & H2). auto.
Qed.
Lemma clear_spec l : forall H f s, okl l -> hown (fun q => (lc q l + H q)%nat) s ->
  match clear l f s with Next l' f' s' => l' = repeat 0 (length l) /\ f' = f /\ hown H s' /\ nfail s' = nfail s | _ => False end.
Proof.
  unfold clear. generalize 0 at 1. induction l as [|p l IH]; intros j H f s Ho Hs; [cbn; auto|].
  apply Forall_cons_iff in Ho. destruct Ho as [Hp Ho]. cbn [each length repeat]. unfold bind.
  assert (Hs' : hown (fun q => (lc q [p] + (lc q l + H q))%nat) s) by (eapply hown_ext; [|exact Hs]; intros q; cbn [lc]; lia).
  pose proof (clear1_spec p _ f s Hp Hs') as HC. destruct (clear1 p f s) as [p' f' s'|e f' s'|]; try contradiction. destruct HC as (-> & -> & H1 & H2).
  specialize (IH (j + 1) H f s' Ho H1). destruct (each (fun _ => clear1) (j + 1) l f s') as [l' f' s''|e f' s''|]; try contradiction.
  destruct IH as (-> & -> & K1 & K2). cbn. split; [reflexivity|]. split; [reflexivity|]. split; [exact K1|lia].
Qed.
Lemma gmp_spec : limbs_spec okl (gmp O).
Proof.
  intros l H f s Hl Hs. unfold gmp. destruct (o_gmp O (clk s)); unfold bind.
  - pose proof (each_ok _ _ (limb_ok_spec (o_limb O (clk s))) l 0 H f (tick s) Hl Hs) as HE.
    destruct (each _ 0 l f (tick s)) as [l' f' s'|e f' s'|]; try contradiction. cbn in *. tauto.
  - assert (He : forall j, o_limb O (clk s) j = 2 -> ~ tidy) by (intros j Hj Ht; exact (Ht _ _ Hj)).
    pose proof (each_ok _ _ (limb_oom_spec (o_limb O (clk s)) He) l 0 H f (failed s) Hl Hs) as HE.
    destruct (each _ 0 l f (failed s)) as [l' f' s'|e f' s'|]; try contradiction. cbn in *. destruct HE as (h1 & h2 & h3 & h4 & h5). split; [exact h1|]. split; [exact h2|]. split; [exact h3|]. split; [exact h4|discriminate].
Qed.
Lemma ginit_spec : limbs_spec (Forall (fun p => -1 <= p <= 0)) (ginit O).
Proof.
  intros l H f s Hl Hs. unfold ginit. destruct (o_gmp O (clk s)); unfold bind.
  - assert (Hl' : Forall (fun p => p <= 0) l) by (eapply Forall_impl; [|exact Hl]; cbv beta; lia).
    pose proof (each_ok _ _ (init_ok_spec (o_limb O (clk s))) l 0 H f (tick s) Hl' Hs) as HE.
    destruct (each _ 0 l f (tick s)) as [l' f' s'|e f' s'|]; try contradiction. cbn in *. tauto.
  - pose proof (each_ok _ _ (init_oom_spec (o_limb O (clk s))) l 0 H f (failed s) Hl Hs) as HE.
    destruct (each _ 0 l f (failed s)) as [l' f' s'|e f' s'|]; try contradiction. cbn in *. destruct HE as (h1 & h2 & h3 & h4 & h5). split; [exact h1|]. split; [exact h2|]. split; [exact h3|]. split; [exact h4|discriminate].
Qed.
(* after a failed initialisation nothing is owned *)
Lemma ginit_fail l f s : match ginit O l f s with Next (Some _, l') _ _ => Forall (fun p => -1 <= p <= 0) l -> Forall (fun p => -1 <= p <= 0) l' | _ => True end.
Proof.
  unfold ginit. destruct (o_gmp O (clk s)); unfold bind.
  - destruct (each _ 0 l f (tick s)); cbn; trivial.
  - assert (HE : forall l j s, match each (fun j => init_oom (o_limb O (clk s) j)) j l f (failed s) with Next l' _ _ => Forall (fun p => -1 <= p <= 0) l -> Forall (fun p => -1 <= p <= 0) l' | _ => True end).
    { clear l s. intros l j s. generalize (failed s) as s0. revert j. induction l as [|p l IH]; intros j s0; [cbn; auto|]. cbn [each]. unfold bind. cbn [init_oom].
      unfold init_oom at 1. specialize (IH (j + 1) s0). destruct (each _ (j + 1) l f s0); cbn; trivial. intros Hl. apply Forall_cons_iff in Hl. destruct Hl as [Hp Hl].
      constructor; [|auto]. destruct (o_limb O (clk s) j =? 0); [lia|]. destruct (o_limb O (clk s) j =? 1); lia. }
    specialize (HE l 0 s). destruct (each _ 0 l f (failed s)); cbn; trivial.
Qed.
End proofs.
