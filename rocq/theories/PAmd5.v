(* AMD, part 5: the state after the construction of the element; Scan 1. *)
From Verif Require Import Base Det DetZ Spec MColamd MAmd PCol1 PCol3 PAmd1 PAmd2 PAmd3 PAmd4.
Set Implicit Arguments.
Open Scope Z_scope.
Set Bullet Behavior "Strict Subproofs".

Definition lmb (Iw : list Z) (pme1 pme2 x : Z) : bool := memb Iw pme1 (pme2 + 1 - pme1) x.
(* what Scan 1 starts from; me's element is at pme1..pme2 *)
Record scn (n nz iwlen me wflg pme1 pme2 pfree degme nvp : Z) (Iw Pe Len Nv Next Last Head Elen Degree W : list Z) (rk : Z -> Z) : Prop := {
  sc_n : 1 <= n;
  sc_len : zlen Iw = iwlen /\ zlen Pe = n /\ zlen Len = n /\ zlen Nv = n /\ zlen Next = n /\ zlen Last = n /\ zlen Head = n /\ zlen Elen = n /\ zlen Degree = n /\ zlen W = n;
  sc_me : 0 <= me < n;
  sc_pf : 0 <= pme1 /\ pme1 <= pme2 + 1 /\ pme2 + 1 <= pfree /\ pfree <= iwlen;
  sc_rng : forall j, 0 <= j < pfree -> 0 <= rd Iw j < n;
  sc_meq : rd Pe me = pme1 /\ rd Len me = pme2 - pme1 + 1 /\ rd Elen me < -1 /\ rd Nv me = - nvp /\ 1 <= nvp /\ rd Degree me = degme;
  sc_inj : injs Iw pme1 (pme2 + 1 - pme1);
  sc_lay : lay n pfree (oPe me Pe) (rd Len);
  sc_dis : forall x, 0 <= x < n -> x <> me -> 0 <= rd Pe x -> rd Pe x + rd Len x <= pme1 \/ pme2 + 1 <= rd Pe x;
  sc_obj : forall x, 0 <= x < n -> x <> me -> 0 <= rd Pe x -> rd Elen x <> -1 /\ rd Elen x <= rd Len x /\ injs Iw (rd Pe x) (rd Len x);
  sc_lv2 : forall x, 0 <= x < n -> 0 <= rd Elen x -> 0 <= rd Pe x;
  sc_nv : forall x, 0 <= x < n -> x <> me -> (rd Elen x = -1 /\ rd Nv x = 0 /\ rd Pe x < 0) \/ (rd Elen x <> -1 /\ if lmb Iw pme1 pme2 x then rd Nv x <= -1 else 1 <= rd Nv x);
  sc_lm : forall x, lmb Iw pme1 pme2 x = true -> 0 <= x < n /\ lvb Pe Elen x = true;
  sc_E : forall x e, 0 <= x < n -> lvb Pe Elen x = true -> mE Iw Pe Elen x e = true -> 0 <= e < n /\ e <> me /\ rd Elen e < -1 /\
           ((0 <= rd Pe e /\ rd W e <> 0 /\ mL Iw Pe Len e x = true) \/ (rd Pe e < 0 /\ rd W e = 0 /\ lmb Iw pme1 pme2 x = true));
  sc_V : forall x y, 0 <= x < n -> lvb Pe Elen x = true -> mV Iw Pe Len Elen x y = true -> 0 <= y < n /\ y <> x /\
           ((y = me /\ lmb Iw pme1 pme2 x = true) \/ (evb Elen y = false /\ (lvb Pe Elen y = true -> mV Iw Pe Len Elen y x = true)));
  sc_L : forall e x, 0 <= e < n -> e <> me -> elb Pe Elen e = true -> mL Iw Pe Len e x = true -> 0 <= x < n /\ evb Elen x = false /\ (lvb Pe Elen x = true -> mE Iw Pe Elen x e = true);
  sc_ne : forall e, 0 <= e < n -> e <> me -> elb Pe Elen e = true -> exists x, 0 <= x < n /\ lvb Pe Elen x = true /\ mL Iw Pe Len e x = true;
  sc_dg : forall e, 0 <= e < n -> e <> me -> elb Pe Elen e = true -> wt n (fun x => lvb Pe Elen x && mL Iw Pe Len e x) (fun x => Z.abs (rd Nv x)) <= rd Degree e;
  sc_x : forall x, lmb Iw pme1 pme2 x = true -> (exists e, mE Iw Pe Elen x e = true /\ rd W e = 0) \/ mV Iw Pe Len Elen x me = true;
  sc_w : 2 <= wflg /\ forall x, 0 <= x < n -> 0 <= rd W x < wflg /\ (0 <= rd Pe x -> rd W x <> 0);
  sc_degme : degme = wt n (lmb Iw pme1 pme2) (fun x => - rd Nv x);
  sc_dl : dlist n (fun x => 0 <= x < n /\ lvb Pe Elen x = true /\ lmb Iw pme1 pme2 x = false) (rd Degree) (rd Next) (rd Last) (rd Head) rk;
  sc_d0 : forall x, lmb Iw pme1 pme2 x = true -> 0 <= rd Degree x;
  sc_sum : lsum n (oPe me Pe) (rd Len) + (pme2 + 1 - pme1) <= nz;
  sc_fo : forest n (rd Pe) (rd Nv) (evb Elen) }.
Arguments sc_lm {n nz iwlen me wflg pme1 pme2 pfree degme nvp Iw Pe Len Nv Next Last Head Elen Degree W rk} _ {x} _.
Arguments sc_E {n nz iwlen me wflg pme1 pme2 pfree degme nvp Iw Pe Len Nv Next Last Head Elen Degree W rk} _ {x e} _ _ _.
Arguments sc_V {n nz iwlen me wflg pme1 pme2 pfree degme nvp Iw Pe Len Nv Next Last Head Elen Degree W rk} _ {x y} _ _ _.
Arguments sc_L {n nz iwlen me wflg pme1 pme2 pfree degme nvp Iw Pe Len Nv Next Last Head Elen Degree W rk} _ {e x} _ _ _ _.
Arguments sc_ne {n nz iwlen me wflg pme1 pme2 pfree degme nvp Iw Pe Len Nv Next Last Head Elen Degree W rk} _ {e} _ _ _.
Arguments sc_dg {n nz iwlen me wflg pme1 pme2 pfree degme nvp Iw Pe Len Nv Next Last Head Elen Degree W rk} _ {e} _ _ _.
Arguments sc_x {n nz iwlen me wflg pme1 pme2 pfree degme nvp Iw Pe Len Nv Next Last Head Elen Degree W rk} _ {x} _.
Arguments sc_d0 {n nz iwlen me wflg pme1 pme2 pfree degme nvp Iw Pe Len Nv Next Last Head Elen Degree W rk} _ {x} _.
Arguments sc_nv {n nz iwlen me wflg pme1 pme2 pfree degme nvp Iw Pe Len Nv Next Last Head Elen Degree W rk} _ {x} _ _.
Arguments sc_obj {n nz iwlen me wflg pme1 pme2 pfree degme nvp Iw Pe Len Nv Next Last Head Elen Degree W rk} _ {x} _ _ _.
Arguments sc_dis {n nz iwlen me wflg pme1 pme2 pfree degme nvp Iw Pe Len Nv Next Last Head Elen Degree W rk} _ {x} _ _ _.
Arguments sc_lv2 {n nz iwlen me wflg pme1 pme2 pfree degme nvp Iw Pe Len Nv Next Last Head Elen Degree W rk} _ {x} _ _.
Arguments sc_rng {n nz iwlen me wflg pme1 pme2 pfree degme nvp Iw Pe Len Nv Next Last Head Elen Degree W rk} _ {j} _.

Lemma s1_one_ok n wflg nvi pe eln Iw Degree W0 : zlen W0 = n -> zlen Degree = n -> 0 <= pe -> 0 <= eln -> pe + eln <= zlen Iw -> injs Iw pe eln -> (forall j, pe <= j < pe + eln -> 0 <= rd Iw j < n) ->
  wp (s1_one wflg nvi pe eln Iw Degree W0) (fun W' => zlen W' = n /\ forall e, 0 <= e < n -> rd W' e = if memb Iw pe eln e then
      (if rd W0 e >=? wflg then rd W0 e - nvi else if rd W0 e =? 0 then rd W0 e else rd Degree e + (wflg - nvi)) else rd W0 e) nerr.
Proof.
  intros LW LD Hp He HI J R. unfold s1_one. eapply wp_conseq.
  { apply wp_for with (I := fun p W' => zlen W' = n /\ forall e, 0 <= e < n -> rd W' e = if memb Iw pe (p - pe) e then
      (if rd W0 e >=? wflg then rd W0 e - nvi else if rd W0 e =? 0 then rd W0 e else rd Degree e + (wflg - nvi)) else rd W0 e); [lia| |].
    - split; [exact LW|]. intros e _. rewrite memb_0 by lia. reflexivity.
    - intros p W' Hp' (Q1 & Q2). wg; [lia|]. specialize (R p ltac:(lia)). set (e := rd Iw p) in *. wg; [lia|].
      assert (M : memb Iw pe (p - pe) e = false) by (apply memb_false; intros j Hj X; assert (j = p) by (apply J; [lia|lia|exact X]); lia). rewrite (Q2 e R), M.
      assert (G : forall v, v = (if rd W0 e >=? wflg then rd W0 e - nvi else if rd W0 e =? 0 then rd W0 e else rd Degree e + (wflg - nvi)) ->
        wp (set W' e v) (fun W'' => zlen W'' = n /\ forall e, 0 <= e < n -> rd W'' e = if memb Iw pe (p + 1 - pe) e then
      (if rd W0 e >=? wflg then rd W0 e - nvi else if rd W0 e =? 0 then rd W0 e else rd Degree e + (wflg - nvi)) else rd W0 e) nerr).
      { intros v Hv. apply wp_set; [lia|]. rewrite zlen_wr. split; [exact Q1|]. intros x Hx. replace (p + 1 - pe) with (p - pe + 1) by lia. rewrite memb_S by lia. replace (pe + (p - pe)) with p by lia. fold e. rewrite rd_wr by lia.
        destruct (Z.eqb_spec e x) as [<-|N].
        - rewrite Bool.orb_true_r, Z.eqb_refl. exact Hv.
        - rewrite Bool.orb_false_r. destruct (Z.eqb_spec x e); [congruence|]. apply Q2. exact Hx. }
      destruct (Z.geb_spec (rd W0 e) wflg) as [C|C]; [apply G; reflexivity|]. destruct (Z.eqb_spec (rd W0 e) 0) as [Z0|Z0]; cbn [negb]; [apply G; reflexivity|]. wg; [lia|]. apply G. reflexivity. }
  intros W' (Q1 & Q2). split; [exact Q1|]. intros e H. rewrite Q2 by exact H. replace (pe + eln - pe) with eln by lia. reflexivity.
Qed.

Section Scan1.
Variables (n nz iwlen me wflg pme1 pme2 pfree degme nvp : Z) (Iw Pe Len Nv Next Last Head Elen Degree W : list Z) (rk : Z -> Z).
Hypothesis S : scn n nz iwlen me wflg pme1 pme2 pfree degme nvp Iw Pe Len Nv Next Last Head Elen Degree W rk.
Let lv := lvb Pe Elen.
Let ev := evb Elen.
Let E := mE Iw Pe Elen.
Let V := mV Iw Pe Len Elen.
Let L := mL Iw Pe Len.
Let lm := lmb Iw pme1 pme2.
Let cnt := pme2 + 1 - pme1.

Definition dn (k x : Z) : bool := memb Iw pme1 k x.
Definition tch (k e : Z) : bool := existsb (fun j => E (rd Iw (pme1 + j)) e) (zseq 0 k).
Definition nvz (x : Z) : Z := - rd Nv x.
Definition wk (k e : Z) : Z := wt n (fun x => dn k x && E x e) nvz.
Definition W1 (e : Z) : Z := if rd W e =? 0 then 0 else if tch cnt e then wflg + (rd Degree e - wk cnt e) else rd W e.

Lemma dn_lm k x : 0 <= k <= cnt -> dn k x = true -> lm x = true.
Proof. intros Hk. unfold dn, lm, lmb. rewrite !memb_spec. fold cnt. intros (j & Hj & X). exists j. split; [lia|exact X]. Qed.
Arguments dn_lm {k x} _ _.
Lemma dn_S k x : 0 <= k -> dn (k + 1) x = dn k x || (rd Iw (pme1 + k) =? x).
Proof. intros Hk. unfold dn. apply memb_S. exact Hk. Qed.
Lemma dn_new k : 0 <= k < cnt -> dn k (rd Iw (pme1 + k)) = false.
Proof. intros Hk. apply memb_false. intros j Hj X. assert (j = pme1 + k) by (apply (sc_inj S); unfold cnt in *; [lia|lia|exact X]). lia. Qed.
Arguments dn_new {k} _.
Lemma lm_at k : 0 <= k < cnt -> lm (rd Iw (pme1 + k)) = true.
Proof. intros Hk. apply memb_at. unfold cnt in *. lia. Qed.
Arguments lm_at {k} _.
Lemma tch_S k e : 0 <= k -> tch (k + 1) e = tch k e || E (rd Iw (pme1 + k)) e.
Proof.
  intros Hk. apply bool_iff. unfold tch. rewrite Bool.orb_true_iff, !existsb_exists. split.
  - intros (j & Hj & Y). apply in_zseq in Hj. destruct (Z.eq_dec j k) as [->|]; [auto|]. left. exists j. split; [apply in_zseq; lia|exact Y].
  - intros [(j & Hj & Y)|Y]; [apply in_zseq in Hj; exists j; split; [apply in_zseq; lia|exact Y]|exists k; split; [apply in_zseq; lia|exact Y]].
Qed.
Lemma tch_spec k e : 0 <= k <= cnt -> tch k e = true <-> exists x, dn k x = true /\ E x e = true.
Proof.
  intros Hk. unfold tch. rewrite existsb_exists. split.
  - intros (j & Hj & Y). apply in_zseq in Hj. exists (rd Iw (pme1 + j)). split; [apply memb_at; lia|exact Y].
  - intros (x & X & Y). apply memb_spec in X. destruct X as (j & Hj & <-). exists (j - pme1). split; [apply in_zseq; lia|]. replace (pme1 + (j - pme1)) with j by lia. exact Y.
Qed.
Lemma lm_not_me x : lm x = true -> x <> me.
Proof. intros X ->. destruct (sc_lm S X) as (_ & Y). apply lvb_spec in Y. destruct (sc_meq S) as (_ & _ & M & _). lia. Qed.
Arguments lm_not_me {x} _ _.
Lemma lm_nv x : lm x = true -> 1 <= nvz x.
Proof.
  intros X. destruct (sc_lm S X) as (R & Y). apply lvb_spec in Y. unfold nvz. destruct (sc_nv S R (lm_not_me X)) as [(Z1 & _)|(_ & Z1)]; [lia|]. unfold lm in X. rewrite X in Z1. lia.
Qed.
Arguments lm_nv {x} _.
Lemma wk_S k e : 0 <= k < cnt -> wk (k + 1) e = wk k e + if E (rd Iw (pme1 + k)) e then nvz (rd Iw (pme1 + k)) else 0.
Proof.
  intros Hk. set (i := rd Iw (pme1 + k)). destruct (sc_lm S (lm_at Hk)) as (Ri & _). fold i in Ri. unfold wk. destruct (E i e) eqn:Ee.
  - apply (@wt_add n _ _ nvz i Ri).
    + unfold i. rewrite dn_new by exact Hk. reflexivity.
    + intros x Hx. rewrite dn_S by lia. fold i. rewrite (Z.eqb_sym i x). destruct (Z.eqb_spec x i) as [->|]; [rewrite Ee, !Bool.orb_true_r; reflexivity|]. rewrite !Bool.orb_false_r. reflexivity.
  - rewrite Z.add_0_r. apply wt_ext. intros x Hx. rewrite dn_S by lia. fold i. split; [|auto]. destruct (Z.eqb_spec i x) as [<-|]; [rewrite Ee, !Bool.andb_false_r; reflexivity|rewrite Bool.orb_false_r; reflexivity].
Qed.
Lemma wk_nonneg k e : 0 <= k <= cnt -> 0 <= wk k e.
Proof. intros Hk. apply wt_nonneg. intros x Hx X. apply Bool.andb_true_iff in X. destruct X as (X & _). pose proof (lm_nv (dn_lm Hk X)). lia. Qed.
Lemma wk_le k e : 0 <= k <= cnt -> 0 <= e < n -> e <> me -> elb Pe Elen e = true -> wk k e <= wt n (fun x => lv x && L e x && lm x) nvz.
Proof.
  intros Hk He Ne Ele. apply wt_le.
  - intros x Hx X. apply Bool.andb_true_iff in X. destruct X as (X1 & X2). pose proof (dn_lm Hk X1) as X3. destruct (sc_lm S X3) as (_ & X4). apply elb_spec in Ele. destruct (sc_E S Hx X4 X2) as (_ & _ & _ & [(_ & _ & Y)|(Y & _)]); [|lia].
    unfold lv, L. rewrite X3, X4, Y. reflexivity.
  - intros x Hx X. apply Bool.andb_true_iff in X. destruct X as (_ & X). pose proof (lm_nv X). lia.
Qed.
Lemma wk_dg k e : 0 <= k <= cnt -> 0 <= e < n -> e <> me -> elb Pe Elen e = true -> wk k e <= rd Degree e.
Proof.
  intros Hk He Ne Ele. etransitivity; [apply wk_le; auto|]. etransitivity; [|apply (sc_dg S He Ne Ele)]. fold lv. fold L.
  rewrite (@wt_ext n (fun x => lv x && L e x && lm x) (fun x => lv x && L e x && lm x) nvz (fun x => Z.abs (rd Nv x))).
  - apply wt_le; [|intros; lia]. intros x Hx X. apply Bool.andb_true_iff in X. apply X.
  - intros x Hx. split; [reflexivity|]. intros X. apply Bool.andb_true_iff in X. destruct X as (_ & X). pose proof (lm_nv X). unfold nvz in *. lia.
Qed.
(* x's list *)
Lemma lv_facts x : 0 <= x < n -> lv x = true -> x <> me /\ 0 <= rd Pe x /\ 0 <= rd Elen x <= rd Len x /\ 1 <= rd Len x /\ rd Pe x + rd Len x <= pfree /\ injs Iw (rd Pe x) (rd Len x).
Proof.
  intros Hx X. pose proof X as (P & Q)%lvb_spec. assert (N : x <> me) by (intros ->; destruct (sc_meq S) as (_ & _ & M & _); lia). destruct (sc_obj S Hx N P) as (_ & O1 & O2). pose proof (la_in (sc_lay S) Hx) as Y. unfold oPe in Y. rewrite (proj2 (Z.eqb_neq x me) N) in Y. specialize (Y P). repeat split; auto; lia.
Qed.
Arguments lv_facts {x} _ _.

Lemma scan1_ok : wp (a2_scan1 wflg pme1 pme2 Iw Pe Nv Elen Degree W) (fun W' => zlen W' = n /\ forall e, 0 <= e < n -> rd W' e = W1 e) nerr.
Proof.
  destruct (sc_len S) as (L1 & L2 & L3 & L4 & L5 & L6 & L7 & L8 & L9 & L10). destruct (sc_pf S) as (P1 & P2 & P3 & P4). destruct (sc_w S) as (W2 & WW).
  unfold a2_scan1. eapply wp_conseq.
  { apply wp_for with (I := fun pme W' => zlen W' = n /\ forall e, 0 <= e < n -> rd W' e = if rd W e =? 0 then 0 else if tch (pme - pme1) e then wflg + (rd Degree e - wk (pme - pme1) e) else rd W e); [lia| |].
    - split; [exact L10|]. intros e He. rewrite Z.sub_diag. unfold tch. change (zseq 0 0) with (@nil Z). cbn [existsb]. destruct (Z.eqb_spec (rd W e) 0); auto.
    - intros pme W' Hp (Q1 & Q2). set (k := pme - pme1) in *. assert (Hk : 0 <= k < cnt) by (unfold k, cnt in *; lia). replace (pme + 1 - pme1) with (k + 1) by lia.
      wg; [lia|]. set (i := rd Iw pme). assert (Ei : i = rd Iw (pme1 + k)) by (unfold i; f_equal; lia). pose proof (lm_at Hk) as Li. rewrite <- Ei in Li. destruct (sc_lm S Li) as (Ri & Lvi). destruct (lv_facts Ri Lvi) as (F0 & F1 & F2 & F3 & F4 & F5).
      wg; [lia|]. destruct (Z.gtb_spec (rd Elen i) 0) as [G|G].
      + wg; [lia|]. wg; [lia|]. eapply wp_conseq.
        { apply (@s1_one_ok n); auto; try lia. - eapply injs_le; [|exact F5]. lia. - intros j Hj. apply (sc_rng S). lia. }
        intros W'' (Z1 & Z2). split; [exact Z1|]. intros e He. rewrite (Z2 e He), (Q2 e He), tch_S by lia. rewrite <- Ei. change (memb Iw (rd Pe i) (rd Elen i) e) with (E i e).
        rewrite wk_S by exact Hk. rewrite <- Ei. fold (nvz i). destruct (E i e) eqn:Ee; [|rewrite Bool.orb_false_r, Z.add_0_r; reflexivity]. rewrite Bool.orb_true_r.
        destruct (sc_E S Ri Lvi Ee) as (_ & Ne & Eev & [(Pe0 & We & Le)|(_ & We & _)]).
        * destruct (Z.eqb_spec (rd W e) 0) as [|_]; [contradiction|]. destruct (WW e He) as (Wb & _). destruct (tch k e) eqn:T.
          -- assert (Ele : elb Pe Elen e = true) by (apply elb_spec; lia). pose proof (@wk_dg (k + 1) e ltac:(lia) He Ne Ele) as X. rewrite wk_S, <- Ei, Ee in X by exact Hk. pose proof (lm_nv Li).
             destruct (Z.geb_spec (wflg + (rd Degree e - wk k e)) wflg); [|lia]. lia.
          -- destruct (Z.geb_spec (rd W e) wflg); [lia|]. destruct (Z.eqb_spec (rd W e) 0); [contradiction|].
             assert (X : wk k e = 0). { apply sumz_zero. intros x Hx. destruct (dn k x && E x e) eqn:Y; [|reflexivity]. exfalso. apply Bool.andb_true_iff in Y. assert (tch k e = true) by (apply tch_spec; [lia|exists x; exact Y]). congruence. }
             lia.
        * rewrite We, Z.eqb_refl. destruct (Z.geb_spec 0 wflg); [lia|]. reflexivity.
      + cbn. split; [exact Q1|]. intros e He. rewrite (Q2 e He), tch_S by lia. rewrite <- Ei. rewrite wk_S by exact Hk. rewrite <- Ei. assert (Ee : E i e = false) by (unfold E, mE; apply memb_0; lia). rewrite Ee, Bool.orb_false_r, Z.add_0_r. reflexivity. }
  intros W' (Q1 & Q2). split; [exact Q1|]. intros e He. rewrite Q2 by exact He. reflexivity.
Qed.
End Scan1.
