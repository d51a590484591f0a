(* Correctness of slip_dfs and slip_reach. *)
From Coq Require FinFun.
From Verif Require Import Base Spec MFactor.
From Verif Require Export LUSpec.
Set Implicit Arguments.
Open Scope Z_scope.

Lemma unflip_flip v : 0 <= v -> unflip (flip v) = v.
Proof. unfold unflip, flip; intros. destruct (Z.ltb_spec (- v - 2) 0); lia. Qed.
Lemma unflip_nonneg v : 0 <= v -> unflip v = v.
Proof. unfold unflip; intros. destruct (Z.ltb_spec v 0); lia. Qed.
Lemma flip_unflip_neg v : v < 0 -> flip v = unflip v.
Proof. unfold unflip; intros. destruct (Z.ltb_spec v 0); lia. Qed.
Lemma flip_neg v : 0 <= v -> flip v < 0.
Proof. unfold flip; lia. Qed.

Section Pigeon.
(* a duplicate-free list of numbers in [0,n) has length at most n *)
Lemma nodup_range (l : list Z) n : NoDup l -> (forall x, In x l -> 0 <= x < n) -> zlen l <= Z.max n 0.
Proof.
  intros Hn Hr.
  assert (incl l (zseq 0 n)) as Hi.
  { intros x Hx. specialize (Hr x Hx). unfold zseq. apply in_map_iff.
    exists (Z.to_nat x). split. lia. apply in_seq. lia. }
  pose proof (NoDup_incl_length Hn Hi) as HH. unfold zlen.
  unfold zseq in HH. rewrite map_length, seq_length in HH. lia.
Qed.
End Pigeon.


Lemma nodup_zseq lo hi : NoDup (zseq lo hi).
Proof.
  unfold zseq. apply FinFun.Injective_map_NoDup. intros a b; lia. apply seq_NoDup.
Qed.

Lemma nodup_map_inj (f : Z -> Z) l :
  NoDup l -> (forall a b, In a l -> In b l -> f a = f b -> a = b) -> NoDup (map f l).
Proof.
  induction l as [|a l IH]; simpl; intros Hn Hi. constructor.
  inversion Hn; subst. constructor.
  - intros (b & Hb & Hb2)%in_map_iff. assert (b = a) by (apply Hi; auto). congruence.
  - apply IH; auto.
Qed.

Section Dfs.
Variable n : Z.
Variables Li pinv Lp0 : list Z.
Variable Rch : Z -> Prop.

Definition lo (j : Z) := rd Lp0 (rd pinv j).
Definition hi (j : Z) := rd Lp0 (rd pinv j + 1).

Hypothesis Hlp0 : zlen Lp0 = n + 1.
Hypothesis Hpos : forall j, 0 <= j <= n -> 0 <= rd Lp0 j.
Hypothesis Hpl : zlen pinv = n.
Hypothesis Hpinv : forall j, 0 <= j < n -> 0 <= rd pinv j < n.
Hypothesis Hnb : forall j p, 0 <= j < n -> lo j <= p < hi j -> 0 <= p < zlen Li /\ 0 <= rd Li p < n.
Hypothesis Hrch : forall j p, 0 <= j < n -> Rch j -> lo j <= p < hi j -> Rch (rd Li p).

Lemma lo_nonneg j : 0 <= j < n -> 0 <= lo j.
Proof. intros H. apply Hpos. specialize (Hpinv H). lia. Qed.

(* marked nodes *)
Definition mk_ (Lp : list Z) (j : Z) := rd Lp j < 0.

Definition dom (head top a : Z) := 0 <= a <= head \/ top <= a < n.

Record lpok (Lp : list Z) : Prop := {
  lp_len : zlen Lp = n + 1;
  lp_un : forall j, 0 <= j <= n -> unflip (rd Lp j) = rd Lp0 j;
  lp_n : 0 <= rd Lp n }.

Record inv (T : Z -> Prop) (head top : Z) (xi Lp : list Z) : Prop := {
  i_len : zlen xi = 2 * n;
  i_lp : lpok Lp;
  i_ht : -1 <= head < top;
  i_top : top <= n;
  i_rng : forall a, dom head top a -> 0 <= rd xi a < n;
  i_inj : forall a b, dom head top a -> dom head top b -> rd xi a = rd xi b -> a = b;
  i_om : forall a, top <= a < n -> mk_ Lp (rd xi a);
  i_sm : forall a, 0 <= a < head -> mk_ Lp (rd xi a);
  i_all : forall j, 0 <= j < n -> mk_ Lp j -> exists a, dom head top a /\ rd xi a = j;
  i_cl : forall a, top <= a < n -> forall p, lo (rd xi a) <= p < hi (rd xi a) -> mk_ Lp (rd Li p);
  i_ps : forall a, 0 <= a <= head -> mk_ Lp (rd xi a) ->
         lo (rd xi a) <= rd xi (n + a) /\
         (forall p, lo (rd xi a) <= p < hi (rd xi a) -> p < rd xi (n + a) -> mk_ Lp (rd Li p));
  i_rc : forall a, dom head top a -> Rch (rd xi a);
  i_T : forall j, T j -> exists a, dom head top a /\ rd xi a = j }.

Lemma pigeon head top xi i :
  -1 <= head < top -> top <= n ->
  (forall a, dom head top a -> 0 <= rd xi a < n) ->
  (forall a b, dom head top a -> dom head top b -> rd xi a = rd xi b -> a = b) ->
  0 <= i < n -> (forall a, dom head top a -> rd xi a <> i) ->
  head + 1 < top.
Proof.
  intros Hht Ht Hr Hin Hi Hni.
  set (l := zseq 0 (head + 1) ++ zseq top n).
  assert (Hd : forall a, In a l <-> dom head top a).
  { intros a. unfold l, dom. rewrite in_app_iff, !in_zseq. lia. }
  assert (NoDup l) as Hl.
  { unfold l. pose proof (nodup_zseq 0 (head+1)) as H1. pose proof (nodup_zseq top n) as H2.
    revert H1. assert (forall a, In a (zseq 0 (head+1)) -> ~ In a (zseq top n)) as Hx.
    { intros a. rewrite !in_zseq. lia. }
    revert Hx. generalize (zseq 0 (head+1)) as l1. induction l1 as [|a l1 IH]; simpl; intros Hx H1; auto.
    inversion H1; subst. constructor. rewrite in_app_iff. intros [?|?]; auto. eapply Hx; eauto.
    apply IH; auto. }
  assert (NoDup (i :: map (rd xi) l)) as Hn.
  { constructor.
    - intros (a & Ha & Hb)%in_map_iff. apply Hd in Hb. eapply Hni; eauto.
    - apply nodup_map_inj; auto. intros a b Ha Hb. apply Hin; apply Hd; auto. }
  apply nodup_range with (n := n) in Hn.
  - unfold zlen in Hn. simpl in Hn. rewrite map_length in Hn. unfold l in Hn. rewrite app_length in Hn.
    pose proof (@zlen_zseq 0 (head+1)). pose proof (@zlen_zseq top n). unfold zlen in *. lia.
  - simpl. intros x [<-|(a & <- & Ha)%in_map_iff]; auto. apply Hr, Hd, Ha.
Qed.

Lemma mark_spec Lp j :
  lpok Lp -> 0 <= j < n -> 0 <= rd Lp j ->
  exists Lp', mark Lp j = Ok Lp' /\ lpok Lp' /\ (forall i, 0 <= i <= n -> (mk_ Lp' i <-> mk_ Lp i \/ i = j)).
Proof.
  intros [H1 H2 H3] Hj Hu. unfold mark. rewrite get_rd by lia. cbn [bind]. rewrite set_wr by lia.
  eexists; split; [reflexivity|]. split.
  - constructor.
    + now rewrite zlen_wr.
    + intros i Hi. rewrite rd_wr by lia. destruct (Z.eqb_spec i j).
      * subst. rewrite unflip_flip by auto. rewrite <- H2 by lia. now rewrite unflip_nonneg.
      * apply H2; auto.
    + rewrite rd_wr_ne by lia. auto.
  - intros i Hi. unfold mk_. rewrite rd_wr by lia. destruct (Z.eqb_spec i j).
    + subst. pose proof (flip_neg Hu). lia.
    + lia.
Qed.

Lemma scan_spec cnt p Lp :
  lpok Lp ->
  (forall p', p <= p' < p + Z.of_nat cnt -> 0 <= p' < zlen Li /\ 0 <= rd Li p' < n) ->
  match dfs_scan cnt p Lp Li with
  | Ok None => forall p', p <= p' < p + Z.of_nat cnt -> mk_ Lp (rd Li p')
  | Ok (Some (p1, i)) => p <= p1 < p + Z.of_nat cnt /\ i = rd Li p1 /\ ~ mk_ Lp i /\
       forall p', p <= p' < p1 -> mk_ Lp (rd Li p')
  | _ => False
  end.
Proof.
  intros Hok. revert p; induction cnt as [|c IH]; intros p Hp.
  - simpl. intros; lia.
  - cbn [dfs_scan]. destruct (Hp p) as [Ha Hb]; [lia|]. rewrite get_rd by lia. cbn [bind].
    rewrite get_rd by (rewrite (lp_len Hok); lia). cbn [bind].
    destruct (Z.ltb_spec (rd Lp (rd Li p)) 0) as [Hm|Hm].
    + specialize (IH (p + 1)). destruct (dfs_scan c (p+1) Lp Li) as [[[p1 i]|]| | |].
      * destruct IH as (A & B & C & D). intros; apply Hp; lia. split; [lia|]. split; [auto|]. split; auto.
        intros p' Hp'. destruct (Z.eq_dec p' p); [subst; auto|apply D; lia].
      * intros p' Hp'. destruct (Z.eq_dec p' p); [subst; auto|apply IH; intros; try apply Hp; lia].
      * apply IH; intros; apply Hp; lia.
      * apply IH; intros; apply Hp; lia.
      * apply IH; intros; apply Hp; lia.
    + split; [lia|]. split; auto. split. unfold mk_; lia. intros; lia.
Qed.

Lemma dfs_loop_spec T fuel : forall head top xi Lp,
  inv T head top xi Lp -> 2 * top - (head + 1) < Z.of_nat fuel ->
  exists top' xi' Lp', dfs_loop fuel n Li pinv head top xi Lp = Ok (top', xi', Lp') /\
    inv T (-1) top' xi' Lp'.
Proof.
  induction fuel as [|fuel IH]; intros head top xi Lp I Hf.
  { destruct I. lia. }
  cbn [dfs_loop]. destruct (Z.ltb_spec head 0) as [Hh|Hh].
  { assert (head = -1) by (destruct I; lia). subst. eauto. }
  pose proof (i_len I) as Hlen. pose proof (i_ht I) as Hht. pose proof (i_top I) as Htop.
  rewrite get_rd by lia. cbn [bind].
  set (j := rd xi head).
  assert (Hj : 0 <= j < n). { apply (i_rng I). left; lia. }
  rewrite get_rd by lia. cbn [bind].
  set (jnew := rd pinv j).
  assert (Hjn : 0 <= jnew < n) by (apply Hpinv; auto).
  rewrite (get_rd Lp) by (rewrite (lp_len (i_lp I)); lia). cbn [bind].
  (* after the marking phase *)
  match goal with |- context[bind ?m _] => set (mm := m) end.
  assert (Hmid : exists xi1 Lp1, mm = Ok (xi1, Lp1) /\ inv T head top xi1 Lp1 /\ mk_ Lp1 j /\
      rd xi1 head = j).
  { unfold mm; clear mm. destruct (Z.ltb_spec (rd Lp j) 0) as [Hm|Hm].
    - exists xi, Lp. split; auto.
    - destruct (mark_spec (i_lp I) Hj Hm) as (Lp1 & -> & Hok1 & Hmk1). cbn [bind].
      destruct (Z.ltb_spec jnew 0); [lia|].
      rewrite (get_rd Lp1) by (rewrite (lp_len Hok1); lia). cbn [bind].
      rewrite (lp_un Hok1) by lia.
      rewrite set_wr by lia. cbn [bind].
      exists (wr xi (n + head) (rd Lp0 jnew)), Lp1.
      assert (Hrd : forall a, 0 <= a < n -> rd (wr xi (n + head) (rd Lp0 jnew)) a = rd xi a).
      { intros a Ha. apply rd_wr_ne; lia. }
      assert (Hd : forall a, dom head top a -> 0 <= a < n) by (unfold dom; intros; lia).
      split; [reflexivity|]. split; [|split].
      + destruct I as [A1 A2 A3 A4 A5 A6 A7 A8 A9 A10 A11 A12 A13].
        constructor; auto.
        * now rewrite zlen_wr.
        * intros a Ha. rewrite Hrd by auto. auto.
        * intros a b Ha Hb. rewrite !Hrd by auto. auto.
        * intros a Ha. rewrite Hrd by lia. apply Hmk1. assert (0 <= rd xi a < n) by (apply A5; right; lia). lia. auto.
        * intros a Ha. rewrite Hrd by lia. apply Hmk1. assert (0 <= rd xi a < n) by (apply A5; left; lia). lia. auto.
        * intros i Hi Hm1. apply Hmk1 in Hm1; [|lia]. destruct Hm1 as [Hm1| ->].
          -- destruct (A9 i Hi Hm1) as (a & Ha & Hb). exists a. split; auto. rewrite Hrd; auto.
          -- exists head. split. left; lia. rewrite Hrd by lia. reflexivity.
        * intros a Ha p. rewrite Hrd by lia. intros Hp. apply Hmk1.
          -- destruct (@Hnb (rd xi a) p); auto. apply A5. right; auto. lia.
          -- left. apply (A10 a Ha p Hp).
        * intros a Ha. rewrite Hrd by lia. intros Hm1.
          destruct (Z.eq_dec a head) as [->|Hne].
          -- rewrite rd_wr_eq by lia. change (rd xi head) with j. split. unfold lo. fold jnew. lia.
             intros p Hp. unfold lo in Hp. fold jnew in Hp. lia.
          -- rewrite rd_wr_ne by lia.
             assert (Hm0 : mk_ Lp (rd xi a)) by (apply A8; lia).
             destruct (A11 a Ha Hm0) as [B1 B2]. split; auto.
             intros p Hp Hp2. apply Hmk1. destruct (@Hnb (rd xi a) p); auto. apply A5. left; lia. lia. left; auto.
        * intros a Ha. rewrite Hrd by auto. auto.
        * intros i Hi. destruct (A13 i Hi) as (a & Ha & Hb). exists a. split; auto. rewrite Hrd; auto.
      + apply Hmk1; [lia|auto].
      + rewrite Hrd by lia. reflexivity. }
  destruct Hmid as (xi1 & Lp1 & -> & I1 & Hmj & Hxh). cbn [bind].
  destruct (Z.ltb_spec jnew 0); [lia|].
  pose proof (i_lp I1) as Hok1.
  rewrite (get_rd Lp1) by (rewrite (lp_len Hok1); lia). cbn [bind].
  rewrite (lp_un Hok1) by lia.
  pose proof (i_len I1) as Hlen1.
  rewrite (get_rd xi1) by lia. cbn [bind].
  change (rd Lp0 (jnew + 1)) with (hi j).
  set (p0 := rd xi1 (n + head)).
  destruct (@i_ps _ _ _ _ _ I1 head) as [Hp0 Hps]; [lia|now rewrite Hxh|]. rewrite Hxh in Hp0, Hps. fold p0 in Hp0, Hps.
  pose proof (@scan_spec (Z.to_nat (hi j - p0)) p0 Lp1 Hok1) as Hscan.
  assert (Hrng : forall p', p0 <= p' < p0 + Z.of_nat (Z.to_nat (hi j - p0)) -> lo j <= p' < hi j) by lia.
  specialize (Hscan ltac:(intros p' Hp'; apply (@Hnb j); auto; apply Hrng; lia)).
  destruct (dfs_scan (Z.to_nat (hi j - p0)) p0 Lp1 Li) as [[[p i]|]| | |]; try (exfalso; exact Hscan); cbn [bind].
  - (* push i *)
    destruct Hscan as (Hp & Hi & Hum & Hbef).
    assert (Hpj : lo j <= p < hi j) by (apply Hrng; auto).
    destruct (@Hnb j p Hj Hpj) as [Hpl1 Hir]. rewrite <- Hi in Hir.
    assert (Hht2 : head + 1 < top).
    { apply (@pigeon head top xi1 i); auto; try apply I1.
      intros a Ha Heq. destruct Ha as [Ha|Ha].
      - destruct (Z.eq_dec a head) as [->|].
        + apply Hum. rewrite <- Heq, Hxh. auto.
        + apply Hum. rewrite <- Heq. apply (i_sm I1). lia.
      - apply Hum. rewrite <- Heq. apply (i_om I1). auto. }
    rewrite set_wr by lia. cbn [bind]. rewrite set_wr by (rewrite zlen_wr; lia). cbn [bind].
    set (xi2 := wr (wr xi1 (n + head) p) (head + 1) i).
    assert (Hrd : forall a, 0 <= a < n -> a <> head + 1 -> rd xi2 a = rd xi1 a).
    { intros a Ha Hne. unfold xi2. rewrite rd_wr_ne by lia. apply rd_wr_ne; lia. }
    assert (Hrdh : rd xi2 (head + 1) = i).
    { unfold xi2. apply rd_wr_eq. rewrite zlen_wr. lia. }
    assert (Hrp : forall a, 0 <= a < n -> a <> head -> rd xi2 (n + a) = rd xi1 (n + a)).
    { intros a Ha Hne. unfold xi2. rewrite rd_wr_ne by lia. apply rd_wr_ne; lia. }
    assert (Hrph : rd xi2 (n + head) = p).
    { unfold xi2. rewrite rd_wr_ne by lia. apply rd_wr_eq. lia. }
    apply IH; [|lia].
    destruct I1 as [A1 A2 A3 A4 A5 A6 A7 A8 A9 A10 A11 A12 A13].
    assert (Hd : forall a, dom (head + 1) top a -> a = head + 1 \/ (a <> head + 1 /\ dom head top a /\ 0 <= a < n)).
    { unfold dom. intros a Ha. lia. }
    assert (Hni : forall a, dom head top a -> rd xi1 a <> i).
    { intros a Ha Heq. destruct Ha as [Ha|Ha].
      - destruct (Z.eq_dec a head) as [->|].
        + apply Hum. rewrite <- Heq, Hxh. auto.
        + apply Hum. rewrite <- Heq. apply A8. lia.
      - apply Hum. rewrite <- Heq. apply A7. auto. }
    constructor; auto.
    + unfold xi2. rewrite !zlen_wr. auto.
    + lia.
    + intros a Ha. destruct (Hd a Ha) as [->|(Hne & Hda & Hr)].
      * rewrite Hrdh. auto.
      * rewrite Hrd by auto. auto.
    + intros a b Ha Hb. destruct (Hd a Ha) as [->|(Hne & Hda & Hr)]; destruct (Hd b Hb) as [->|(Hne' & Hdb & Hr')]; auto.
      * rewrite Hrdh, Hrd by auto. intros E. exfalso. apply (Hni b Hdb). auto.
      * rewrite Hrdh, Hrd by auto. intros E. exfalso. apply (Hni a Hda). auto.
      * rewrite !Hrd by auto. auto.
    + intros a Ha. rewrite Hrd by lia. auto.
    + intros a Ha. rewrite Hrd by lia. destruct (Z.eq_dec a head) as [->|]. now rewrite Hxh. apply A8. lia.
    + intros j' Hj' Hm'. destruct (A9 j' Hj' Hm') as (a & Ha & Hb). exists a.
      split. unfold dom in *; lia. rewrite Hrd; auto; unfold dom in *; lia.
    + intros a Ha p'. rewrite Hrd by lia. apply A10; auto.
    + intros a Ha. destruct (Z.eq_dec a (head + 1)) as [->|Hne].
      * rewrite Hrdh. intros; contradiction.
      * rewrite Hrd by lia. intros Hm'. destruct (Z.eq_dec a head) as [->|Hne2].
        -- rewrite Hrph, Hxh. split. lia. intros p' Hp' Hp''.
           destruct (Z_lt_dec p' p0). apply Hps; auto. apply Hbef. lia.
        -- rewrite Hrp by lia. apply A11; auto. lia.
    + intros a Ha. destruct (Hd a Ha) as [->|(Hne & Hda & Hr)].
      * rewrite Hrdh, Hi. apply (@Hrch j); auto. rewrite <- Hxh. apply A12. left; lia.
      * rewrite Hrd by auto. auto.
    + intros t Ht. destruct (A13 t Ht) as (a & Ha & Hb). exists a.
      split. unfold dom in *; lia. rewrite Hrd; auto; unfold dom in *; lia.
  - (* pop j *)
    rewrite set_wr by lia. cbn [bind].
    set (xi2 := wr xi1 (top - 1) j).
    assert (Hrd : forall a, 0 <= a -> a <> top - 1 -> rd xi2 a = rd xi1 a).
    { intros a Ha Hne. unfold xi2. apply rd_wr_ne; lia. }
    assert (Hrdt : rd xi2 (top - 1) = j) by (unfold xi2; apply rd_wr_eq; lia).
    assert (Hcl : forall p, lo j <= p < hi j -> mk_ Lp1 (rd Li p)).
    { intros p Hp. destruct (Z_lt_dec p p0). apply Hps; auto. apply Hscan. lia. }
    apply IH; [|lia].
    destruct I1 as [A1 A2 A3 A4 A5 A6 A7 A8 A9 A10 A11 A12 A13].
    assert (Hd : forall a, dom (head - 1) (top - 1) a -> a = top - 1 \/ (a <> top - 1 /\ a <> head /\ dom head top a /\ 0 <= a < n)).
    { unfold dom. intros a Ha. lia. }
    assert (Hd2 : forall a, dom head top a -> a = head \/ (a <> top - 1 /\ dom (head - 1) (top - 1) a /\ 0 <= a)).
    { unfold dom. intros a Ha. lia. }
    assert (Hdh : dom head top head) by (left; lia).
    constructor; auto.
    + unfold xi2. rewrite !zlen_wr. auto.
    + lia.
    + lia.
    + intros a Ha. destruct (Hd a Ha) as [->|(Hne & Hne2 & Hda & Hr)].
      * rewrite Hrdt. auto.
      * rewrite Hrd by lia. auto.
    + intros a b Ha Hb. destruct (Hd a Ha) as [->|(Hne & Hne2 & Hda & Hr)]; destruct (Hd b Hb) as [->|(Hne' & Hne2' & Hdb & Hr')]; auto.
      * rewrite Hrdt, Hrd by lia. rewrite <- Hxh. intros E. apply A6 in E; auto. congruence.
      * rewrite Hrdt, Hrd by lia. rewrite <- Hxh. intros E. apply A6 in E; auto. congruence.
      * rewrite !Hrd by lia. auto.
    + intros a Ha. destruct (Z.eq_dec a (top - 1)) as [->|]. rewrite Hrdt; auto. rewrite Hrd by lia. apply A7; lia.
    + intros a Ha. rewrite Hrd by lia. apply A8; lia.
    + intros i Hi Hm. destruct (A9 i Hi Hm) as (a & Ha & Hb). destruct (Hd2 a Ha) as [->|(Hne & Hda & Hr)].
      * exists (top - 1). split. right; lia. rewrite Hrdt. rewrite <- Hb. auto.
      * exists a. split; auto. rewrite Hrd; auto.
    + intros a Ha p. destruct (Z.eq_dec a (top - 1)) as [->|].
      * rewrite Hrdt. apply Hcl.
      * rewrite Hrd by lia. apply A10; lia.
    + intros a Ha. rewrite Hrd by lia. intros Hm. rewrite Hrd by lia. apply A11; auto. lia.
    + intros a Ha. destruct (Hd a Ha) as [->|(Hne & Hne2 & Hda & Hr)].
      * rewrite Hrdt, <- Hxh. auto.
      * rewrite Hrd by lia. auto.
    + intros i Hi. destruct (A13 i Hi) as (a & Ha & Hb). destruct (Hd2 a Ha) as [->|(Hne & Hda & Hr)].
      * exists (top - 1). split. right; lia. rewrite Hrdt. rewrite <- Hb. auto.
      * exists a. split; auto. rewrite Hrd; auto.
Qed.

(* one call of slip_dfs: from a state with an empty stack *)
Lemma slip_dfs_spec T top xi Lp j :
  inv T (-1) top xi Lp -> 0 <= j < n -> Rch j -> ~ mk_ Lp j ->
  exists top' xi' Lp', slip_dfs n top j Li pinv xi Lp = Ok (top', xi', Lp') /\
    inv (fun t => T t \/ t = j) (-1) top' xi' Lp'.
Proof.
  intros I Hj Hr Hm. unfold slip_dfs. pose proof (i_len I) as Hlen.
  assert (Hht : -1 + 1 < top).
  { apply (@pigeon (-1) top xi j); auto; try apply I.
    intros a [Ha|Ha] E; [lia|]. apply Hm. rewrite <- E. apply (i_om I). auto. }
  pose proof (i_top I) as Htop.
  rewrite set_wr by lia. cbn [bind].
  apply dfs_loop_spec; [|lia].
  assert (Hrd : forall a, 0 < a -> rd (wr xi 0 j) a = rd xi a) by (intros; apply rd_wr_ne; lia).
  assert (Hr0 : rd (wr xi 0 j) 0 = j) by (apply rd_wr_eq; lia).
  assert (Hd : forall a, dom 0 top a -> a = 0 \/ (0 < a /\ dom (-1) top a)) by (unfold dom; intros; lia).
  destruct I as [A1 A2 A3 A4 A5 A6 A7 A8 A9 A10 A11 A12 A13].
  assert (Hni : forall a, dom (-1) top a -> rd xi a <> j).
  { intros a [Ha|Ha] E; [lia|]. apply Hm. rewrite <- E. auto. }
  constructor; auto.
  - now rewrite zlen_wr.
  - lia.
  - intros a Ha. destruct (Hd a Ha) as [->|[? ?]]. rewrite Hr0; auto. rewrite Hrd by auto. auto.
  - intros a b Ha Hb. destruct (Hd a Ha) as [->|[? ?]], (Hd b Hb) as [->|[? ?]]; auto.
    + rewrite Hr0, Hrd by auto. intros E. exfalso; eapply Hni; eauto.
    + rewrite Hr0, Hrd by auto. intros E. exfalso; eapply Hni; eauto.
    + rewrite !Hrd by auto. auto.
  - intros a Ha. rewrite Hrd by lia. auto.
  - intros; lia.
  - intros i Hi Hmi. destruct (A9 i Hi Hmi) as (a & Ha & Hb). exists a. split. unfold dom in *; lia. rewrite Hrd; auto. unfold dom in Ha; lia.
  - intros a Ha p. rewrite Hrd by lia. apply A10; auto.
  - intros a Ha. replace a with 0 by lia. rewrite Hr0. intros; contradiction.
  - intros a Ha. destruct (Hd a Ha) as [->|[? ?]]. rewrite Hr0; auto. rewrite Hrd by auto. auto.
  - intros t [Ht| ->].
    + destruct (A13 t Ht) as (a & Ha & Hb). exists a. split. unfold dom in *; lia. rewrite Hrd; auto. unfold dom in Ha; lia.
    + exists 0. split. left; lia. auto.
Qed.

Lemma inv_weaken (T T' : Z -> Prop) head top xi Lp :
  (forall t, T' t -> T t) -> inv T head top xi Lp -> inv T' head top xi Lp.
Proof. intros H [A1 A2 A3 A4 A5 A6 A7 A8 A9 A10 A11 A12 A13]. constructor; auto. Qed.

(* restoring: marking every output node again yields Lp0 *)
Lemma restore_spec T top xi Lp E :
  inv T (-1) top xi Lp ->
  wp (for_ top n (fun p Lp => let* j := get xi p in mark Lp j) Lp) (fun Lp' => Lp' = Lp0) E.
Proof.
  intros I. pose proof (i_len I) as Hlen. pose proof (i_top I) as Htop. pose proof (i_ht I) as Hht.
  pose proof (i_lp I) as Hok.
  eapply wp_conseq.
  - apply wp_for with (I := fun t Lp' => zlen Lp' = n + 1 /\
      (forall j, 0 <= j <= n -> (exists a, top <= a < t /\ rd xi a = j) -> rd Lp' j = rd Lp0 j) /\
      (forall j, 0 <= j <= n -> (forall a, top <= a < t -> rd xi a <> j) -> rd Lp' j = rd Lp j)).
    + auto.
    + split. apply Hok. split. intros j Hj (a & Ha & _); lia. auto.
    + intros t Lp' Ht (L1 & L2 & L3).
      assert (Hr : 0 <= rd xi t < n) by (apply (i_rng I); right; lia).
      rewrite get_rd by lia. cbn [bind]. unfold mark. rewrite get_rd by lia. cbn [bind]. rewrite set_wr by lia. simpl.
      assert (Hne : forall a, top <= a < t -> rd xi a <> rd xi t).
      { intros a Ha He. apply (i_inj I) in He; [lia|right; lia|right; lia]. }
      split. now rewrite zlen_wr. split.
      * intros j Hj (a & Ha & Hb). rewrite rd_wr by lia. destruct (Z.eqb_spec j (rd xi t)) as [->|Hn].
        -- rewrite L3 by (auto; lia). rewrite flip_unflip_neg. apply (lp_un Hok). lia. apply (i_om I). lia.
        -- apply L2; auto. exists a. split; auto. assert (a <> t) by congruence. lia.
      * intros j Hj Hna. assert (j <> rd xi t). { intros ->. apply (Hna t). lia. auto. }
        rewrite rd_wr_ne by lia. apply L3; auto. intros a Ha. apply Hna. lia.
  - intros Lp' (L1 & L2 & L3). apply list_ext. lia. intros j Hj.
    destruct (Z.eq_dec j n) as [->|Hn].
    + rewrite L3; try lia.
      * pose proof (lp_un Hok (j := n)) as E1. rewrite unflip_nonneg in E1 by apply Hok. apply E1. lia.
      * intros a Ha E1. assert (0 <= rd xi a < n) by (apply (i_rng I); right; lia). lia.
    + destruct (Z_lt_dec (rd Lp j) 0) as [Hm|Hm].
      * destruct (@i_all _ _ _ _ _ I j) as (a & Ha & Hb); [lia|auto|]. apply L2; [lia|].
        exists a. split; auto. destruct Ha; lia.
      * rewrite L3; try lia.
        -- rewrite <- (lp_un Hok) by lia. rewrite unflip_nonneg; lia.
        -- intros a Ha E1. apply Hm. rewrite <- E1. apply (i_om I). auto.
Qed.

End Dfs.

(*----------------------------------------------------------------------------*)
(* specification of the reach, and the theorem about slip_reach *)


Theorem slip_reach_spec n Lp Li pinv Ap Ai k xi :
  0 <= n -> graph_ok n Lp Li pinv -> col_ok n Ap Ai k -> zlen xi = 2 * n ->
  exists top xi', slip_reach n Li Ap Ai k pinv xi Lp = Ok (top, xi', Lp) /\
    0 <= top <= n /\ zlen xi' = 2 * n /\
    (forall a b, top <= a < n -> top <= b < n -> rd xi' a = rd xi' b -> a = b) /\
    (forall a, top <= a < n -> 0 <= rd xi' a < n) /\
    (forall i, reachable Lp Li pinv Ap Ai k i <-> exists a, top <= a < n /\ rd xi' a = i).
Proof.
  intros Hn G C Hx. destruct G as [G1 G2 G3 G4 G5]. destruct C as [C1 C2 C3].
  set (Rch := reachable Lp Li pinv Ap Ai k).
  assert (Hnb : forall j p, 0 <= j < n -> lo pinv Lp j <= p < hi pinv Lp j -> 0 <= p < zlen Li /\ 0 <= rd Li p < n).
  { intros j p Hj Hp. apply (G5 (rd pinv j)); auto. }
  assert (Hrch : forall j p, 0 <= j < n -> Rch j -> lo pinv Lp j <= p < hi pinv Lp j -> Rch (rd Li p)).
  { intros j p Hj Hr Hp. apply (reach_step (j := j)); auto. exists p. split; auto. }
  unfold slip_reach. rewrite get_rd by lia. cbn [bind]. rewrite get_rd by lia. cbn [bind].
  pose (I := fun p (st : Z * list Z * list Z) => let '(top, xi, Lp') := st in
     inv n Li pinv Lp Rch (fun t => exists p', rd Ap k <= p' < p /\ t = rd Ai p') (-1) top xi Lp').
  match goal with |- context[for_ ?a ?b ?f ?s] => assert (HW : wp (for_ a b f s) (I b) nerr) end.
  { apply wp_for. lia.
    - unfold I. constructor; auto; try (unfold dom; intros; lia).
      + constructor; auto. intros j Hj. apply unflip_nonneg; auto. apply G2; lia.
      + intros j Hj Hm. unfold mk_ in Hm. pose proof (G2 j). lia.
      + intros t (p' & Hp' & _). lia.
    - intros p [[top xi1] Lp1] Hp HI. unfold I in HI |- *.
      assert (Hi : 0 <= rd Ai p < n) by (apply C3; lia).
      pose proof (i_lp HI) as Hok. pose proof (lp_len Hok) as Hll.
      rewrite (get_rd Ai) by lia. cbn [bind]. rewrite get_rd by lia. cbn [bind].
      destruct (Z.ltb_spec (rd Lp1 (rd Ai p)) 0) as [Hm|Hm].
      + simpl. destruct HI as [A1 A2 A3 A4 A5 A6 A7 A8 A9 A10 A11 A12 A13].
        constructor; auto. intros t (p' & Hp' & ->). destruct (Z.eq_dec p' p) as [->|].
        * apply A9; auto.
        * apply A13. exists p'. split; auto. lia.
      + assert (Rch (rd Ai p)) as Hr by (apply reach_start; lia).
        destruct (@slip_dfs_spec n Li pinv Lp Rch G1 G2 G3 G4 Hnb Hrch _ top xi1 Lp1 (rd Ai p) HI Hi Hr) as (t' & x' & l' & -> & HI').
        { unfold mk_; lia. }
        simpl. eapply inv_weaken; [|exact HI']. intros t (p' & Hp' & ->). destruct (Z.eq_dec p' p) as [->|]. auto.
        left. exists p'. split; auto; lia. }
  apply wp_ok_ex in HW. destruct HW as ([[top xi1] Lp1] & -> & HI). cbn [bind].
  unfold I in HI.
  match goal with |- context[for_ ?a ?b ?f ?s] =>
    pose proof (@restore_spec n Li pinv Lp Rch G1 _ _ _ _ nerr HI) as HR end.
  apply wp_ok_ex in HR. destruct HR as (Lp2 & -> & ->). cbn [bind].
  exists top, xi1. split; [reflexivity|].
  destruct HI as [A1 A2 A3 A4 A5 A6 A7 A8 A9 A10 A11 A12 A13].
  assert (Hd : forall a, top <= a < n -> dom n (-1) top a) by (right; auto).
  split. lia. split; auto. split; [|split].
  - intros a b Ha Hb. apply A6; auto.
  - auto.
  - intros i. split.
    + intros Hr. induction Hr as [p Hp | j i Hr IHr (p & Hp & ->)].
      * destruct (A13 (rd Ai p)) as (a & Ha & Hb). exists p; split; auto; lia.
        exists a. split; auto. destruct Ha; lia.
      * destruct IHr as (a & Ha & Hb).
        assert (Hp' : lo pinv Lp (rd xi1 a) <= p < hi pinv Lp (rd xi1 a)) by (rewrite Hb; auto).
        pose proof (A10 a Ha p Hp') as Hmk.
        destruct (A9 (rd Li p)) as (b & Hbd & Hbe); auto.
        { apply (Hnb (rd xi1 a) p). apply A5; auto. auto. }
        exists b. split; auto. destruct Hbd; lia.
    + intros (a & Ha & <-). apply A12. auto.
Qed.
