(* AMD, part 9: supervariable detection. *)
From Verif Require Import Base Det DetZ Spec MColamd MAmd PCol1 PCol3 PAmd1 PAmd2 PAmd3 PAmd4 PAmd5 PAmd6 PAmd7 PAmd8.
Set Implicit Arguments.
Open Scope Z_scope.
Set Bullet Behavior "Strict Subproofs".

Lemma wt_merge n b b' th th' i j : 0 <= i < n -> 0 <= j < n -> i <> j -> b i = b j -> b' i = b i -> b' j = false -> th' i = th i + th j ->
  (forall x, 0 <= x < n -> x <> i -> x <> j -> b' x = b x /\ th' x = th x) -> wt n b' th' = wt n b th.
Proof.
  intros Hi Hj N B1 B2 B3 T H. unfold wt. rewrite (@sumz_upd2 n _ (fun c => if b c then th c else 0) i j Hi Hj N).
  - rewrite B2, B3, T, <- B1. destruct (b i); lia.
  - intros x Hx N1 N2. destruct (H x Hx N1 N2) as (-> & ->). reflexivity.
Qed.

Lemma seg_eq n A s s' l x : 0 <= l -> injs A s l -> injs A s' l -> (forall j, s <= j < s + l -> 0 <= rd A j < n) -> (forall j, s' <= j < s' + l -> 0 <= rd A j < n) ->
  (forall j, s' <= j < s' + l -> memb A s l (rd A j) = true) -> memb A s l x = memb A s' l x.
Proof.
  intros Hl J J' R R' H.
  assert (IN : forall y, memb A s' l y = true -> memb A s l y = true) by (intros y Y; apply memb_spec in Y; destruct Y as (j & Hj & <-); apply H; exact Hj).
  pose proof (seg_len Hl J R) as S1. pose proof (seg_len Hl J' R') as S2.
  pose proof (@sumz_zero_inv n (fun y => b2z (memb A s l y) - b2z (memb A s' l y))) as Q. cbv beta in Q. rewrite sumz_sub, <- S1, <- S2 in Q.
  specialize (Q ltac:(intros k Hk; specialize (IN k); unfold b2z; destruct (memb A s l k), (memb A s' l k); try lia; discriminate (IN eq_refl)) ltac:(lia)).
  apply bool_iff. split; [|apply IN]. intros X. assert (Rx : 0 <= x < n) by (apply memb_spec in X; destruct X as (j & Hj & <-); apply R; exact Hj). specialize (Q x Rx). rewrite X in Q. destruct (memb A s' l x); [reflexivity|cbn in Q; lia].
Qed.

Lemma dti_merge n nz iwlen me pme1 pme2 pfree degme nvp nel Iw Len Degree Pe Nv Elen i j :
  dti n nz iwlen me pme1 pme2 pfree degme nvp nel Iw Len Degree Pe Nv Elen -> lmb Iw pme1 pme2 i = true -> lvb Pe Elen i = true -> lmb Iw pme1 pme2 j = true -> lvb Pe Elen j = true -> i <> j ->
  (forall e, mE Iw Pe Elen i e = mE Iw Pe Elen j e) ->
  dti n nz iwlen me pme1 pme2 pfree degme nvp nel Iw Len Degree (wr Pe j (FLIP i)) (wr (wr Nv i (rd Nv i + rd Nv j)) j 0) (wr Elen j EMPTY).
Proof.
  intros D Mi Li Mj Lj N HE. destruct (dt_lm D Mi) as (Ri & Ei). destruct (dt_lm D Mj) as (Rj & Ej). destruct (dt_len D) as (L1 & L2 & L3 & L4 & L5 & L6).
  destruct (dt_meq D) as (M1 & M2 & M3 & M4 & M5 & M6). pose proof (dt_me D) as Hme. set (lm := lmb Iw pme1 pme2) in *.
  apply lvb_spec in Li as Li'. apply lvb_spec in Lj as Lj'.
  assert (Ni : i <> me) by (intros ->; lia). assert (Nj : j <> me) by (intros ->; lia).
  assert (FE : FLIP i < -1) by (unfold FLIP; lia).
  assert (NVI : rd Nv i <= -1). { destruct (dt_nv D Ri Ni) as [(X & _)|(_ & X)]; [lia|]. fold lm in X. rewrite Mi in X. exact X. }
  assert (NVJ : rd Nv j <= -1). { destruct (dt_nv D Rj Nj) as [(X & _)|(_ & X)]; [lia|]. fold lm in X. rewrite Mj in X. exact X. }
  set (Pe' := wr Pe j (FLIP i)). set (Nv' := wr (wr Nv i (rd Nv i + rd Nv j)) j 0). set (Elen' := wr Elen j EMPTY).
  assert (PO : forall x, 0 <= x < n -> x <> j -> rd Pe' x = rd Pe x) by (intros; apply rd_wr_ne; lia).
  assert (EO : forall x, 0 <= x < n -> x <> j -> rd Elen' x = rd Elen x) by (intros; apply rd_wr_ne; lia).
  assert (PJ : rd Pe' j = FLIP i) by (apply rd_wr_eq; lia). assert (EJ : rd Elen' j = -1) by (apply rd_wr_eq; lia).
  assert (NO : forall x, 0 <= x < n -> rd Nv' x = if x =? j then 0 else if x =? i then rd Nv i + rd Nv j else rd Nv x) by (intros x Hx; unfold Nv'; rewrite !rd_wr by (rewrite ?zlen_wr; lia); reflexivity).
  assert (LV : forall x, 0 <= x < n -> lvb Pe' Elen' x = lvb Pe Elen x && negb (x =? j)).
  { intros x Hx. unfold lvb. destruct (Z.eqb_spec x j) as [->|Nx]; [rewrite PJ; destruct (Z.leb_spec 0 (FLIP i)); [lia|]; rewrite Bool.andb_false_r; reflexivity|]. rewrite PO, EO by auto. rewrite Bool.andb_true_r. reflexivity. }
  assert (EV : forall x, 0 <= x < n -> evb Elen' x = evb Elen x).
  { intros x Hx. destruct (Z.eq_dec x j) as [->|Nx]; [rewrite Ej; unfold evb; rewrite EJ; reflexivity|]. unfold evb. rewrite EO by auto. reflexivity. }
  assert (EL : forall x, 0 <= x < n -> elb Pe' Elen' x = elb Pe Elen x).
  { intros x Hx. unfold elb. destruct (Z.eq_dec x j) as [->|Nx]; [rewrite PJ; destruct (Z.leb_spec 0 (FLIP i)); [lia|]; cbn; symmetry; apply Bool.andb_false_iff; right; apply Z.ltb_ge; lia|]. rewrite PO, EO by auto. reflexivity. }
  assert (EE : forall x e, 0 <= x < n -> x <> j -> mE Iw Pe' Elen' x e = mE Iw Pe Elen x e) by (intros x e Hx Nx; unfold mE; rewrite PO, EO by auto; reflexivity).
  assert (VV : forall x e, 0 <= x < n -> x <> j -> mV Iw Pe' Len Elen' x e = mV Iw Pe Len Elen x e) by (intros x e Hx Nx; unfold mV; rewrite PO, EO by auto; reflexivity).
  assert (LL : forall x e, 0 <= x < n -> x <> j -> mL Iw Pe' Len x e = mL Iw Pe Len x e) by (intros x e Hx Nx; unfold mL; rewrite PO by auto; reflexivity).
  assert (LVJ : forall x, 0 <= x < n -> lvb Pe' Elen' x = true -> lvb Pe Elen x = true /\ x <> j) by (intros x Hx X; rewrite LV, Bool.andb_true_iff, Bool.negb_true_iff, Z.eqb_neq in X by exact Hx; exact X).
  assert (ELJ : forall e, 0 <= e < n -> elb Pe Elen e = true -> e <> j) by (intros e He X ->; apply elb_spec in X; lia).
  pose proof (dt_agr D) as A.
  assert (WM : forall b, b i = b j -> wt n (fun x => lvb Pe' Elen' x && b x) (fun x => Z.abs (rd Nv' x)) = wt n (fun x => lvb Pe Elen x && b x) (fun x => Z.abs (rd Nv x))).
  { intros b Hb. apply (@wt_merge n (fun x => lvb Pe Elen x && b x) _ (fun x => Z.abs (rd Nv x)) _ i j Ri Rj N).
    - rewrite Li, Lj. exact Hb.
    - rewrite LV by exact Ri. rewrite (proj2 (Z.eqb_neq i j) N), Bool.andb_true_r. reflexivity.
    - rewrite LV, Z.eqb_refl by exact Rj. rewrite Bool.andb_false_r. reflexivity.
    - rewrite NO by exact Ri. rewrite (proj2 (Z.eqb_neq i j) N), Z.eqb_refl. lia.
    - intros x Hx N1 N2. rewrite LV, NO by exact Hx. rewrite (proj2 (Z.eqb_neq x j) N2), (proj2 (Z.eqb_neq x i) N1), Bool.andb_true_r. auto. }
  assert (LIJ : forall e, 0 <= e < n -> elb Pe Elen e = true -> mL Iw Pe Len e i = mL Iw Pe Len e j).
  { intros e He Ee. apply bool_iff. split; intros X; destruct (ag_L A He Ee X) as (_ & _ & Y).
    - specialize (Y Li). rewrite HE in Y. apply (ag_E A Rj Lj Y).
    - specialize (Y Lj). rewrite <- HE in Y. apply (ag_E A Ri Li Y). }
  constructor; try (rewrite ?zlen_wr; assumption).
  - apply (dt_n D).
  - unfold Pe', Nv', Elen'. rewrite !zlen_wr. repeat split; auto.
  - apply (dt_pf D).
  - apply @dt_rng with (1 := D).
  - rewrite PO, EO, NO by auto. rewrite (proj2 (Z.eqb_neq me j)), (proj2 (Z.eqb_neq me i)) by auto. repeat split; auto; lia.
  - apply (dt_inj D).
  - eapply lay_ext; [exact (dt_lay D)|lia|]. intros x Hx. unfold oPe. destruct (Z.eqb_spec x me); [lia|]. destruct (Z.eq_dec x j) as [->|Nx]; [lia|]. rewrite PO by auto. auto.
  - intros x Hx Nx P. destruct (Z.eq_dec x j) as [->|Nx']; [lia|]. rewrite PO in * by auto. apply (dt_dis D Hx Nx P).
  - intros x Hx Nx P. destruct (Z.eq_dec x j) as [->|Nx']; [lia|]. rewrite EO, PO in * by auto. apply (dt_obj D Hx Nx P).
  - intros x Hx X. destruct (Z.eq_dec x j) as [->|Nx']; [lia|]. rewrite EO, PO in * by auto. apply (dt_lv2 D Hx X).
  - intros x Hx Nx. fold lm. destruct (Z.eq_dec x j) as [->|Nx']; [left; rewrite NO by exact Hx; rewrite Z.eqb_refl; lia|]. rewrite EO, PO, NO by auto. rewrite (proj2 (Z.eqb_neq x j) Nx'). destruct (Z.eqb_spec x i) as [->|Nxi]; [right; rewrite Mi; lia|]. apply (dt_nv D Hx Nx).
  - intros x X. destruct (dt_lm D X) as (Rx & Y). rewrite EV by exact Rx. auto.
  - constructor.
    + intros x Hx X. destruct (LVJ x Hx X) as (X1 & X2). rewrite EV by exact Hx. destruct (ag_lv A Hx X1) as (Y1 & Y2). split; [exact Y1|]. rewrite NO by exact Hx. rewrite (proj2 (Z.eqb_neq x j) X2). destruct (x =? i); lia.
    + intros e He X. rewrite EL in X by exact He. rewrite EV by exact He. apply (ag_el A He X).
    + intros x e Hx X Y. destruct (LVJ x Hx X) as (X1 & X2). rewrite EE in Y by auto. destruct (ag_E A Hx X1 Y) as (Z1 & Z2 & Z3). split; [exact Z1|]. rewrite EL by exact Z1. split; [exact Z2|]. rewrite LL; auto.
    + intros x y Hx X Y. destruct (LVJ x Hx X) as (X1 & X2). rewrite VV in Y by auto. destruct (ag_V A Hx X1 Y) as (Z1 & Z2 & Z3 & Z4). split; [exact Z1|]. split; [exact Z2|]. rewrite EV by exact Z1. split; [exact Z3|]. intros Q. destruct (LVJ y Z1 Q) as (Q1 & Q2). rewrite VV by auto. auto.
    + intros e x He X Y. rewrite EL in X by exact He. rewrite LL in Y by auto. destruct (ag_L A He X Y) as (Z1 & Z2 & Z3). split; [exact Z1|]. rewrite EV by exact Z1. split; [exact Z2|]. intros Q. destruct (LVJ x Z1 Q) as (Q1 & Q2). rewrite EE by auto. auto.
    + intros e He X. rewrite EL in X by exact He. etransitivity; [|exact (ag_dg A He X)]. apply Z.eq_le_incl. rewrite <- (WM (fun x => mL Iw Pe Len e x)) by (apply LIJ; auto). apply wt_ext. intros x Hx. rewrite LL by auto. auto.
  - intros e He X. rewrite EL in X by exact He. destruct (dt_ne D He X) as (x & Hx & X1 & X2). apply Bool.andb_true_iff in X. destruct X as (X & _). pose proof (ELJ e He X) as Nej. destruct (Z.eq_dec x j) as [->|Nx].
    + exists i. split; [exact Ri|]. rewrite LL by auto. split; [rewrite LV by exact Ri; rewrite Li, (proj2 (Z.eqb_neq i j) N); reflexivity|]. rewrite LIJ; auto.
    + exists x. split; [exact Hx|]. rewrite LL by auto. split; [rewrite LV by exact Hx; rewrite X1, (proj2 (Z.eqb_neq x j) Nx); reflexivity|exact X2].
  - intros x X Y. destruct (dt_lm D X) as (Rx & _). destruct (LVJ x Rx Y) as (Y1 & Y2). rewrite PO, EO by auto. apply (dt_fst D X Y1).
  - rewrite (dt_degme D). symmetry. fold lm. apply (WM lm). congruence.
  - pose proof (WM (fun _ => true) eq_refl) as X. pose proof (dt_tot D) as T. rewrite (@wt_ext n (lvb Pe' Elen') (fun x => lvb Pe' Elen' x && true) _ (fun x => Z.abs (rd Nv' x))), X by (intros; rewrite Bool.andb_true_r; auto).
    rewrite (@wt_ext n (fun x => lvb Pe Elen x && true) (lvb Pe Elen) _ (fun x => Z.abs (rd Nv x))) by (intros; rewrite Bool.andb_true_r; auto). exact T.
  - assert (lsum n (oPe me Pe') (rd Len) <= lsum n (oPe me Pe) (rd Len)); [|pose proof (dt_sum D); lia]. apply lsum_shrink.
    + intros x Hx P. pose proof (la_in (dt_lay D) Hx P). lia.
    + intros x Hx. unfold oPe. destruct (Z.eqb_spec x me) as [|Nx]; [lia|]. destruct (Z.eq_dec x j) as [->|Nx']; [lia|]. rewrite PO by auto. lia.
  - eapply forest_ext with (ev := evb Elen) (pe := rd Pe') (nv := fun x => if x =? me then - nvp else rd Nv' x); auto.
    + apply (@forest_kill n (rd Pe) (fun x => if x =? me then - nvp else rd Nv x) (evb Elen) i j); auto; try lia; try exact (dt_fo D).
      * rewrite (proj2 (Z.eqb_neq i me) Ni). lia.
      * rewrite (proj2 (Z.eqb_neq j me) Nj). lia.
      * rewrite (proj2 (Z.eqb_neq j me) Nj), NO, Z.eqb_refl by exact Rj. reflexivity.
      * rewrite (proj2 (Z.eqb_neq j me) Nj), (proj2 (Z.eqb_neq i me) Ni), NO by exact Ri. rewrite (proj2 (Z.eqb_neq i j) N), Z.eqb_refl. lia.
      * intros x Hx N1 N2. rewrite NO by exact Hx. rewrite (proj2 (Z.eqb_neq x j) N2), (proj2 (Z.eqb_neq x i) N1). reflexivity.
    + intros x Hx X. rewrite EV by exact Hx. exact X.
    + intros x Hx X. rewrite EV in X by exact Hx. destruct (Z.eqb_spec x me); [lia|]. destruct (dt_fo D) as (g & d & T & F). pose proof (fo_ev F Hx X) as Y. cbv beta in Y. rewrite (proj2 (Z.eqb_neq x me)) in Y by auto. rewrite NO by exact Hx. destruct (Z.eqb_spec x j) as [->|]; [congruence|]. destruct (x =? i); lia.
Qed.
