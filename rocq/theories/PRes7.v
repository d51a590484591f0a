(* From the type system to the specification of ResSpec.v *)
From Coq Require Import ZArith List Bool Lia Arith Permutation.
From Verif Require Import Base MMatrix MRes PRes PRes2 PRes3 PRes4 PRes5 PRes6 ResSpec.
Import ListNotations.
Set Bullet Behavior "Strict Subproofs".
Open Scope Z_scope.
Local Notation cnt := (count_occ Z.eq_dec).

Lemma cnt_real l q : cnt (real l) q = lc q l.
Proof.
  induction l as [|a l IH]; [reflexivity|]. unfold real in *. cbn [filter lc]. destruct (0 <? a); cbn [andb]; [|exact IH]. cbn [count_occ].
  destruct (Z.eq_dec a q) as [->|n]; [rewrite Z.eqb_refl|apply Z.eqb_neq in n; rewrite n]; lia.
Qed.
Lemma ec_concat q e : ec q e = lc q (concat e).
Proof. induction e; cbn; [reflexivity|]. rewrite lc_app. lia. Qed.
Lemma cnt_blocks x q : cnt (blocks x) q = oc q x.
Proof.
  unfold blocks. rewrite cnt_real. destruct x; try reflexivity. cbn [oc]. unfold pointers, mc. destruct (r_shallow A).
  - change (r_hdr A :: r_scale A ++ []) with ([r_hdr A] ++ r_scale A ++ []). rewrite !lc_app. cbn [lc]. lia.
  - change (r_hdr A :: r_scale A ++ [r_p A; r_i A; r_j A; r_x A] ++ concat (r_ent A)) with ([r_hdr A] ++ r_scale A ++ [r_p A; r_i A; r_j A; r_x A] ++ concat (r_ent A)). rewrite !lc_app, ec_concat. lia.
Qed.
Lemma cnt_owned l q : cnt (owned l) q = fc q l.
Proof. induction l; [reflexivity|]. cbn [owned flat_map fc]. rewrite count_occ_app, cnt_blocks. unfold owned in IHl. lia. Qed.
Lemma owned_app a b : owned (a ++ b) = owned a ++ owned b.
Proof. apply flat_map_app. Qed.
Lemma heap_hown O s H L : (forall q, cnt L q = H q) -> heap_is s L -> hown O (lost s) H s.
Proof.
  intros HH (h1 & h2 & h3 & h4). repeat split; try assumption; try (apply h2; assumption). intros q. rewrite (proj1 (Permutation_count_occ Z.eq_dec _ _) h4 q), count_occ_app, HH. reflexivity.
Qed.
Lemma hown_heap O L0 s H L : (forall q, cnt L q = H q) -> hown O L0 H s -> heap_is s L /\ (tidy_gmp O -> lost s = L0).
Proof.
  intros HH (h1 & h2 & h3 & h4 & h5). split; [|exact h5]. split; [assumption|]. split; [assumption|]. split; [assumption|]. apply (Permutation_count_occ Z.eq_dec). intros q. rewrite h4, count_occ_app, HH. reflexivity.
Qed.
Lemma anym_ok A : anym A -> matrix_ok A.
Proof.
  intros ((H1 & H2 & H3) & H4). split; [exact H1|]. split; [exact H2|]. intros E. destruct (H3 E) as (K1 & K2 & K3 & K4 & K5 & K6 & K7). specialize (H4 E).
  split; [exact K1|]. split; [exact K2|]. split; [exact K3|]. split; [exact H4|]. split; [exact K5|exact K6].
Qed.
Lemma ok_anym A : matrix_ok A -> anym A.
Proof.
  intros (H1 & H2 & H3). split.
  - split; [exact H1|]. split; [exact H2|]. intros E. destruct (H3 E) as (K1 & K2 & K3 & K4 & K5 & K6). split; [exact K1|]. split; [exact K2|]. split; [exact K3|]. split; [lia|]. split; [exact K5|]. split; [exact K6|]. lia.
  - intros E. apply H3. exact E.
Qed.
Lemma full_ok A : full A -> matrix_ok A.
Proof. intros (H1 & H2 & H3 & H4). apply anym_ok. split; auto. Qed.
Lemma object_good x : object_ok x <-> good x.
Proof. destruct x; cbn; try tauto. split; [apply ok_anym|apply anym_ok]. Qed.
Lemma is_matrix_ok x : is_matrix x -> object_ok x.
Proof. intros (A & -> & H). exact H. Qed.
Lemma is_array_ok x : is_array x -> object_ok x.
Proof. intros (p & -> & H). exact H. Qed.
Lemma is_analysis_ok x : is_analysis x -> object_ok x.
Proof. intros (h & q & -> & H). exact H. Qed.
Lemma mty_is x kt : is_matrix x -> (forall A, x = Mat A -> ktok kt A) -> mty (YIs x) kt.
Proof. intros (A & -> & H) HK. split; [reflexivity|]. intros o (-> & _). exists A. split; [reflexivity|]. apply HK. reflexivity. Qed.

Lemma oks_is ins l : oks (map YIs ins) l -> l = ins.
Proof. revert l. induction ins; intros l H; inversion H; subst; [reflexivity|]. destruct H2 as [-> _]. f_equal. auto. Qed.
Lemma is_oks ins : Forall object_ok ins -> oks (map YIs ins) ins.
Proof. induction 1; cbn; constructor; [split; [reflexivity|apply object_good; assumption]|assumption]. Qed.
Lemma nil_oks nh : oks (repeat YNil nh) (repeat Nil nh).
Proof. induction nh; cbn; constructor; [reflexivity|assumption]. Qed.
Lemma oks_nil nh l : oks (repeat YNil nh) l -> l = repeat Nil nh.
Proof. revert l. induction nh; intros l H; inversion H; subst; [reflexivity|]. cbn in H2. subst. cbn. f_equal. auto. Qed.
Lemma owned_nil nh : owned (repeat Nil nh) = [].
Proof. induction nh; [reflexivity|exact IHnh]. Qed.

Lemma FJ_transaction O F nh ins outs (P : list obj -> Prop) (sure : Prop) rest s :
  FJ O (lost s) sure (repeat YNil nh ++ map YIs ins) F (FQ (outs ++ map YIs ins) (repeat YNil nh ++ map YIs ins)) ->
  Forall object_ok ins -> (forall l, oks outs l -> P l) -> heap_is s (owned ins ++ rest) ->
  transaction O F nh ins P sure rest s.
Proof.
  intros HF Hi HP Hs. specialize (HF (fun q => cnt rest q) (repeat Nil nh ++ ins) s (Forall2_app (nil_oks nh) (is_oks ins Hi))).
  assert (Hs' : hown O (lost s) (fun q => (fc q (repeat Nil nh ++ ins) + cnt rest q)%nat) s).
  { eapply heap_hown; [|exact Hs]. intros q. rewrite count_occ_app, <- !cnt_owned, owned_app, owned_nil. reflexivity. }
  specialize (HF Hs'). unfold transaction. destruct (F (repeat Nil nh ++ ins) s) as [r l s'|]; [|contradiction]. destruct HF as (H1 & H2 & ts & -> & H3).
  assert (HX : exists os, l = os ++ ins /\ match r with None => P os | Some _ => os = repeat Nil nh end).
  { destruct r as [e|]; apply Forall2_app_inv_l in H3; destruct H3 as (l1 & l2 & K1 & K2 & ->); apply oks_is in K2; subst l2; exists l1; (split; [reflexivity|]).
    - apply oks_nil. exact K1.
    - apply HP. exact K1. }
  destruct HX as (os & -> & HX). exists r, os, s'. split; [reflexivity|]. eapply hown_heap in H1; [destruct H1 as [G1 G2]|].
  - split; [exact G1|]. split; [exact G2|]. destruct r; [exact HX|]. split; [exact HX|]. intros X. apply H2; auto.
  - intros q. cbv beta. rewrite fc_app, !count_occ_app, !cnt_owned. lia.
Qed.
