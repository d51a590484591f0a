(* AMD, part 15: the lists of children. *)
From Verif Require Import Base Det DetZ Spec MColamd MAmd PCol1 PCol3 PAmd1 PAmd14.
Set Implicit Arguments.
Open Scope Z_scope.
Set Bullet Behavior "Strict Subproofs".

Fixpoint seg (nx : Z -> Z) (f : Z) (l : list Z) (g : Z) : Prop := match l with [] => f = g | a :: l' => f = a /\ seg nx (nx a) l' g end.
Lemma seg_chain nx l : forall f, chain nx f l <-> seg nx f l EMPTY.
Proof. induction l as [|a l IH]; intros f; cbn; [tauto|]. rewrite IH. tauto. Qed.
Lemma seg_app nx a b : forall f g, seg nx f (a ++ b) g <-> exists h, seg nx f a h /\ seg nx h b g.
Proof.
  induction a as [|y a IH]; intros f g; cbn.
  - split; [intros H; exists f; auto|intros (h & -> & H); exact H].
  - rewrite IH. split; [intros (E & h & H1 & H2); exists h; auto|intros (h & (E & H1) & H2); split; [exact E|exists h; auto]].
Qed.
Lemma seg_snoc nx a y f g : seg nx f (a ++ [y]) g <-> seg nx f a y /\ nx y = g.
Proof. rewrite seg_app. cbn. split; [intros (h & H & -> & E); auto|intros (H & E); exists y; auto]. Qed.
Lemma seg_ext nx nx' l : forall f g, (forall x, In x l -> nx' x = nx x) -> seg nx f l g -> seg nx' f l g.
Proof. induction l as [|a l IH]; intros f g H C; cbn in *; [exact C|]. destruct C as (E & C). split; [exact E|]. rewrite H by auto. apply IH; auto. Qed.

Lemma zseq_cons lo hi : lo < hi -> zseq lo hi = lo :: zseq (lo + 1) hi.
Proof.
  intros H. unfold zseq. replace (Z.to_nat (hi - lo)) with (S (Z.to_nat (hi - (lo + 1)))) by lia. cbn [seq map]. f_equal; [lia|]. rewrite <- seq_shift, map_map. apply map_ext. intros k. lia.
Qed.
Lemma zseq_nil lo hi : hi <= lo -> zseq lo hi = [].
Proof. intros H. unfold zseq. replace (Z.to_nat (hi - lo)) with 0%nat by lia. reflexivity. Qed.
Lemma zseq_nodup lo hi : NoDup (zseq lo hi).
Proof. unfold zseq. apply FinFun.Injective_map_NoDup; [intros a b; lia|apply seq_NoDup]. Qed.
Lemma last_snoc (a : list Z) y d : last (a ++ [y]) d = y. Proof. induction a as [|x a IH]; [reflexivity|]. cbn. destruct (a ++ [y]) eqn:E; [destruct a; discriminate|exact IH]. Qed.
Lemma snoc_inv (a : list Z) : a = [] \/ exists b y, a = b ++ [y].
Proof. induction a as [|x a _] using rev_ind; [left; reflexivity|right; eauto]. Qed.

Section Kids.
Variables (n : Z) (P Nv : list Z) (grp r : Z -> Z).
Hypothesis T : ptree n P Nv grp r.
Hypothesis LP : zlen P = n.
Hypothesis LN : zlen Nv = n.
Hypothesis Hn : 1 <= n.

Definition isk (p j : Z) : bool := (0 <? rd Nv j) && (rd P j =? p).
Lemma isk_spec p j : isk p j = true <-> 0 < rd Nv j /\ rd P j = p.
Proof. unfold isk. rewrite Bool.andb_true_iff, Z.ltb_lt, Z.eqb_eq. tauto. Qed.
(* the list of the children of p *)
Definition kl (Child Sibling : list Z) (p : Z) : Prop :=
  exists l, chain (rd Sibling) (rd Child p) l /\ NoDup l /\ forall x, In x l <-> 0 <= x < n /\ isk p x = true.

Lemma children_ok : wp (po_children n P Nv) (fun '(Child, Sibling) => zlen Child = n /\ zlen Sibling = n /\ forall p, 0 <= p < n -> kl Child Sibling p) nerr.
Proof.
  unfold po_children.
  eapply wp_conseq; [apply wp_down with (I := fun j '(Child, Sibling) => zlen Child = n /\ zlen Sibling = n /\ forall p, 0 <= p < n -> chain (rd Sibling) (rd Child p) (filter (isk p) (zseq j n))); [lia| |]|].
  - rewrite zlen_mk by lia. repeat split; auto. intros p Hp. rewrite zseq_nil by lia. cbn. apply rd_mk. exact Hp.
  - intros j [Child Sibling] Hj (L1 & L2 & C). wg; [lia|].
    assert (ZS : zseq j n = j :: zseq (j + 1) n) by (apply zseq_cons; lia).
    destruct (Z.gtb_spec (rd Nv j) 0) as [Q|Q].
    + wg; [lia|]. destruct (Z.eqb_spec (rd P j) EMPTY) as [E|E]; cbn [negb].
      * cbn [wp]. repeat split; auto. intros p Hp. rewrite ZS. cbn [filter]. unfold isk at 1. rewrite (proj2 (Z.eqb_neq (rd P j) p)), Bool.andb_false_r by (unfold EMPTY in E; lia). auto.
      * change EMPTY with (-1) in E. destruct (pt_up T Hj E) as (U1 & U2). wg; [lia|]. ws; [lia|]. ws; [lia|]. cbn [wp]. rewrite !zlen_wr. repeat split; auto. intros p Hp. rewrite ZS. cbn [filter].
        assert (EX : chain (rd (wr Sibling j (rd Child (rd P j)))) (rd Child p) (filter (isk p) (zseq (j + 1) n))).
        { eapply chain_ext; [|apply C; exact Hp]. intros x Hx. apply filter_In in Hx. destruct Hx as (Hx & _). apply in_zseq in Hx. apply rd_wr_ne; lia. }
        destruct (Z.eq_dec p (rd P j)) as [->|Np].
        -- assert (X : isk (rd P j) j = true) by (apply isk_spec; split; [lia|reflexivity]). rewrite X. cbn [chain]. rewrite rd_wr_eq by lia. split; [reflexivity|]. rewrite rd_wr_eq by lia. exact EX.
        -- assert (X : isk p j = false). { destruct (isk p j) eqn:X; [|reflexivity]. apply isk_spec in X. lia. } rewrite X. rewrite rd_wr_ne by lia. exact EX.
    + cbn [wp]. repeat split; auto. intros p Hp. rewrite ZS. cbn [filter]. assert (X : isk p j = false). { destruct (isk p j) eqn:X; [|reflexivity]. apply isk_spec in X. lia. } rewrite X. auto.
  - intros [Child Sibling] (L1 & L2 & C). split; [exact L1|]. split; [exact L2|]. intros p Hp. exists (filter (isk p) (zseq 0 n)). split; [apply C; exact Hp|]. split; [apply NoDup_filter, zseq_nodup|]. intros x. rewrite filter_In, in_zseq. tauto.
Qed.

Variable Fsize : list Z.
Hypothesis LF : zlen Fsize = n.
Hypothesis HF : forall x, 0 <= x < n -> 0 < rd Nv x -> -1 <= rd Fsize x.

Lemma big_ok Sibling : zlen Sibling = n -> forall l pre fuel f fprev maxf bigp big, chain (rd Sibling) f l -> (forall x, In x l -> 0 <= x < n /\ -1 <= rd Fsize x) -> (length l <= fuel)%nat -> fprev = last pre EMPTY ->
  (pre = [] /\ maxf = EMPTY /\ l <> [] \/ exists a b, pre = a ++ big :: b /\ bigp = last a EMPTY) ->
  wp (po_big fuel f fprev maxf bigp big Fsize Sibling) (fun '(big, bigp, fprev) => exists a b, pre ++ l = a ++ big :: b /\ bigp = last a EMPTY /\ fprev = last (pre ++ l) EMPTY) nerr.
Proof.
  intros LS. induction l as [|x l IH]; intros pre fuel f fprev maxf bigp big C R HL HP HB.
  - cbn in C. destruct fuel; cbn [po_big]; rewrite C, Z.eqb_refl; cbn [wp]; rewrite app_nil_r; (destruct HB as [(_ & _ & X)|(a & b & X1 & X2)]; [congruence|exists a, b; auto]).
  - cbn in C. destruct C as (-> & C). destruct (R x (or_introl eq_refl)) as (Rx & Fx). destruct fuel as [|fuel]; [cbn in HL; lia|]. cbn [po_big]. destruct (Z.eqb_spec x EMPTY) as [E|_]; [unfold EMPTY in E; lia|]. wg; [lia|]. wg; [lia|].
    assert (AP : (pre ++ [x]) ++ l = pre ++ x :: l) by (rewrite <- app_assoc; reflexivity). rewrite <- AP.
    destruct (Z.geb_spec (rd Fsize x) maxf) as [Q|Q].
    + apply IH; auto; [intros y Hy; apply R; right; exact Hy|cbn in HL; lia|rewrite last_snoc; reflexivity|]. right. exists pre, []. auto.
    + apply IH; auto; [intros y Hy; apply R; right; exact Hy|cbn in HL; lia|rewrite last_snoc; reflexivity|]. right. destruct HB as [(_ & -> & _)|(a & b & -> & X2)]; [unfold EMPTY in Q; lia|]. exists a, (b ++ [x]). split; [rewrite <- app_assoc; reflexivity|exact X2].
Qed.

Lemma kl_ext Child Sibling Child' Sibling' i q : (forall x, 0 <= x < n -> x <> i -> rd Child' x = rd Child x) -> (forall x, 0 <= x < n -> rd P x <> i -> rd Sibling' x = rd Sibling x) -> 0 <= q < n -> q <> i -> kl Child Sibling q -> kl Child' Sibling' q.
Proof.
  intros HC HS Hq Nq (l & C & ND & M). exists l. split; [|auto]. rewrite HC by auto. eapply chain_ext; [|exact C]. intros x Hx. apply M in Hx. destruct Hx as (Hx & K). apply isk_spec in K. apply HS; [exact Hx|]. lia.
Qed.

Lemma biglast_ok Child Sibling : zlen Child = n -> zlen Sibling = n -> (forall p, 0 <= p < n -> kl Child Sibling p) ->
  wp (po_biglast n Nv Fsize Child Sibling) (fun '(Child, Sibling) => zlen Child = n /\ zlen Sibling = n /\ forall p, 0 <= p < n -> kl Child Sibling p) nerr.
Proof.
  intros L1 L2 K. unfold po_biglast. apply wp_for with (I := fun (_ : Z) '(Child, Sibling) => zlen Child = n /\ zlen Sibling = n /\ forall p, 0 <= p < n -> kl Child Sibling p); [lia|auto|].
  clear Child Sibling L1 L2 K. intros i [Child Sibling] Hi (L1 & L2 & K). wg; [lia|]. wg; [lia|].
  destruct ((rd Nv i >? 0) && negb (rd Child i =? EMPTY)) eqn:B; [|cbn; auto]. apply Bool.andb_true_iff in B. destruct B as (_ & B). apply Bool.negb_true_iff, Z.eqb_neq in B.
  destruct (K i Hi) as (l & C & ND & M).
  assert (Rl : forall x, In x l -> 0 <= x < n /\ rd P x = i /\ -1 <= rd Fsize x). { intros x Hx. apply M in Hx. destruct Hx as (Hx & X). apply isk_spec in X. split; [exact Hx|]. split; [apply X|]. apply HF; [exact Hx|apply X]. }
  assert (LL : (length l <= Z.to_nat n)%nat). { assert (Z.of_nat (length l) <= Z.max 0 n) by (apply nodup_len; [exact ND|intros x Hx; apply Rl; exact Hx]). lia. }
  apply wp_bind. eapply wp_conseq.
  { apply (@big_ok Sibling L2 l [] (Z.to_nat n) (rd Child i) EMPTY EMPTY EMPTY EMPTY C); auto; [intros x Hx; destruct (Rl x Hx) as (? & ? & ?); auto|]. left. repeat split; auto. intros ->. cbn in C. contradiction. }
  intros [[big bigp] fprev] (a & b & E1 & E2 & E3). cbn [app] in E1, E3. apply seg_chain in C. rewrite E1 in C. apply seg_app in C. destruct C as (h & C1 & C2). cbn [seg] in C2. destruct C2 as (-> & C2).
  assert (Rb : 0 <= big < n) by (apply Rl; rewrite E1; apply in_or_app; right; left; reflexivity). wg; [lia|]. set (fnext := rd Sibling big) in *.
  destruct (Z.eqb_spec fnext EMPTY) as [F|F]; cbn [negb]; [cbn; auto|].
  destruct (snoc_inv b) as [->|(b' & z & ->)]; [cbn in C2; contradiction|]. apply seg_snoc in C2. destruct C2 as (C2 & C3).
  assert (E4 : fprev = z). { rewrite E3, E1. replace (a ++ big :: b' ++ [z]) with ((a ++ big :: b') ++ [z]) by (rewrite <- app_assoc; reflexivity). apply last_snoc. }
  clear E3. subst fprev.
  assert (Rz : 0 <= z < n /\ rd P z = i) by (destruct (Rl z) as (? & ? & _); [rewrite E1; apply in_or_app; right; right; apply in_or_app; right; left; reflexivity|auto]).
  assert (PB : rd P big = i) by (apply Rl; rewrite E1; apply in_or_app; right; left; reflexivity).
  rewrite E1 in ND. apply NoDup_remove in ND. destruct ND as (ND & Nbig). pose proof ND as ND'. rewrite app_assoc in ND. apply NoDup_remove in ND. destruct ND as (ND & Nz). rewrite app_nil_r in ND, Nz.
  assert (BZ : big <> z). { intros ->. apply Nbig. apply in_or_app. right. apply in_or_app. right. left. reflexivity. }
  assert (NEW : NoDup (a ++ b' ++ [z] ++ [big])). { rewrite !app_assoc. apply NoDup_rev in ND'. rewrite <- (rev_involutive (_ ++ [big])). apply NoDup_rev. rewrite rev_app_distr. cbn [rev app]. constructor; [|rewrite <- app_assoc; exact ND']. rewrite <- in_rev, <- app_assoc. exact Nbig. }
  assert (MEM : forall x, In x (a ++ b' ++ [z] ++ [big]) <-> 0 <= x < n /\ isk i x = true). { intros x. rewrite <- M, E1. rewrite !in_app_iff. cbn [In]. rewrite in_app_iff. cbn [In]. tauto. }
  set (S2 := fun S1 => wr (wr S1 big EMPTY) z big).
  destruct (snoc_inv a) as [->|(a' & y & ->)].
  - cbn in E2, C1. subst bigp. cbn [Z.eqb EMPTY]. change (EMPTY =? EMPTY) with true. cbv iota. apply wp_bind. ws; [lia|]. cbn [wp]. ws; [lia|]. ws; [rewrite zlen_wr; lia|]. cbn [wp]. rewrite !zlen_wr. repeat split; auto.
    assert (SO : forall x, 0 <= x < n -> x <> big -> x <> z -> rd (wr (wr Sibling big EMPTY) z big) x = rd Sibling x) by (intros x Hx N1 N2; rewrite !rd_wr_ne by lia; reflexivity).
    intros p Hp. destruct (Z.eq_dec p i) as [->|Np].
    + exists ([] ++ b' ++ [z] ++ [big]). split; [|auto]. apply seg_chain. cbn [app]. rewrite rd_wr_eq by lia. change (b' ++ z :: [big]) with (b' ++ [z] ++ [big]). rewrite app_assoc. apply seg_snoc. split; [apply seg_snoc; split|].
      * eapply seg_ext; [|exact C2]. intros x Hx. apply SO; [apply Rl; rewrite E1; right; apply in_or_app; left; exact Hx|intros ->; apply Nbig; apply in_or_app; right; apply in_or_app; left; exact Hx|intros ->; apply Nz; exact Hx].
      * apply rd_wr_eq. rewrite zlen_wr. lia.
      * rewrite rd_wr_ne by lia. apply rd_wr_eq. lia.
    + eapply (@kl_ext Child Sibling _ _ i); [intros x Hx N; apply rd_wr_ne; lia| |exact Hp|exact Np|apply K; exact Hp]. intros x Hx N. apply SO; [exact Hx|intros ->; lia|intros ->; lia].
  - rewrite last_snoc in E2. subst bigp. assert (Ry : 0 <= y < n /\ rd P y = i) by (destruct (Rl y) as (? & ? & _); [rewrite E1; apply in_or_app; left; apply in_or_app; right; left; reflexivity|auto]).
    destruct (Z.eqb_spec y EMPTY) as [Q|_]; [unfold EMPTY in Q; lia|]. apply wp_bind. ws; [lia|]. cbn [wp]. ws; [rewrite zlen_wr; lia|]. ws; [rewrite !zlen_wr; lia|]. cbn [wp]. rewrite !zlen_wr. repeat split; auto.
    apply seg_snoc in C1. destruct C1 as (C1 & C4).
    assert (Ya : In y ((a' ++ [y]) ++ b')) by (apply in_or_app; left; apply in_or_app; right; left; reflexivity).
    assert (YB : y <> big). { intros ->. apply Nbig. apply in_or_app. left. apply in_or_app. right. left. reflexivity. }
    assert (YZ : y <> z) by (intros ->; apply Nz; exact Ya).
    assert (Yn : ~ In y (a' ++ b')). { rewrite <- app_assoc in ND. cbn in ND. apply NoDup_remove in ND. apply ND. }
    assert (SO : forall x, 0 <= x < n -> x <> big -> x <> z -> x <> y -> rd (wr (wr (wr Sibling y fnext) big EMPTY) z big) x = rd Sibling x) by (intros x Hx N1 N2 N3; rewrite !rd_wr_ne by lia; reflexivity).
    assert (SI : forall x, In x a' \/ In x b' -> rd (wr (wr (wr Sibling y fnext) big EMPTY) z big) x = rd Sibling x).
    { intros x Hx. apply SO; [apply Rl; rewrite E1; rewrite !in_app_iff; cbn [In]; rewrite in_app_iff; tauto|intros ->; apply Nbig; rewrite !in_app_iff; tauto|intros ->; apply Nz; rewrite !in_app_iff; tauto|intros ->; apply Yn; rewrite in_app_iff; tauto]. }
    intros p Hp. destruct (Z.eq_dec p i) as [->|Np].
    + exists ((a' ++ [y]) ++ b' ++ [z] ++ [big]). split; [|auto]. apply seg_chain. apply seg_app. exists fnext. split.
      * apply seg_snoc. split; [eapply seg_ext; [|exact C1]; auto|]. rewrite rd_wr_ne by lia. rewrite rd_wr_ne by lia. apply rd_wr_eq. lia.
      * rewrite app_assoc. apply seg_snoc. split; [apply seg_snoc; split|].
        -- eapply seg_ext; [|exact C2]. auto.
        -- apply rd_wr_eq. rewrite !zlen_wr. lia.
        -- rewrite rd_wr_ne by lia. apply rd_wr_eq. rewrite zlen_wr. lia.
    + eapply (@kl_ext Child Sibling _ _ i); [auto| |exact Hp|exact Np|apply K; exact Hp]. intros x Hx N. apply SO; [exact Hx|intros ->; lia|intros ->; lia|intros ->; lia].
Qed.
End Kids.
