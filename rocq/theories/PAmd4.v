(* AMD, part 4: the invariant of the main loop; the pivot and its element. *)
From Verif Require Import Base Det DetZ Spec MColamd MAmd PCol1 PCol3 PAmd1 PAmd2 PAmd3.
Set Implicit Arguments.
Open Scope Z_scope.
Set Bullet Behavior "Strict Subproofs".

(*----------------------------------------------------------------------------*)
(* The quotient graph.  lv: live variables, ev: has been a pivot, el: elements in use; E x e: e is an element of x, V x y: y is a variable of x,
   L e x: x is a variable of the element e; nv: sizes, dg: degrees of the elements. *)
Record agr (n : Z) (lv ev el : Z -> bool) (E V L : Z -> Z -> bool) (nv dg : Z -> Z) : Prop := {
  ag_lv : forall x, 0 <= x < n -> lv x = true -> ev x = false /\ 1 <= nv x;
  ag_el : forall e, 0 <= e < n -> el e = true -> ev e = true;
  ag_E : forall x e, 0 <= x < n -> lv x = true -> E x e = true -> 0 <= e < n /\ el e = true /\ L e x = true;
  ag_V : forall x y, 0 <= x < n -> lv x = true -> V x y = true -> 0 <= y < n /\ y <> x /\ ev y = false /\ (lv y = true -> V y x = true);
  ag_L : forall e x, 0 <= e < n -> el e = true -> L e x = true -> 0 <= x < n /\ ev x = false /\ (lv x = true -> E x e = true);
  ag_dg : forall e, 0 <= e < n -> el e = true -> wt n (fun x => lv x && L e x) nv <= dg e }.
Arguments ag_lv {n lv ev el E V L nv dg} _ {x} _ _.
Arguments ag_el {n lv ev el E V L nv dg} _ {e} _ _.
Arguments ag_E {n lv ev el E V L nv dg} _ {x e} _ _ _.
Arguments ag_V {n lv ev el E V L nv dg} _ {x y} _ _ _.
Arguments ag_L {n lv ev el E V L nv dg} _ {e x} _ _ _.
Arguments ag_dg {n lv ev el E V L nv dg} _ {e} _ _.

(* no element is empty *)
Definition ane (n : Z) (lv el : Z -> bool) (L : Z -> Z -> bool) : Prop := forall e, 0 <= e < n -> el e = true -> exists x, 0 <= x < n /\ lv x = true /\ L e x = true.

Definition lvb (Pe Elen : list Z) (x : Z) : bool := (0 <=? rd Pe x) && (0 <=? rd Elen x).
Definition evb (Elen : list Z) (x : Z) : bool := rd Elen x <? -1.
Definition elb (Pe Elen : list Z) (x : Z) : bool := (0 <=? rd Pe x) && (rd Elen x <? -1).
Definition mE (Iw Pe Elen : list Z) (x e : Z) : bool := memb Iw (rd Pe x) (rd Elen x) e.
Definition mV (Iw Pe Len Elen : list Z) (x y : Z) : bool := memb Iw (rd Pe x + rd Elen x) (rd Len x - rd Elen x) y.
Definition mL (Iw Pe Len : list Z) (e x : Z) : bool := memb Iw (rd Pe e) (rd Len e) x.
Lemma lvb_spec Pe Elen x : lvb Pe Elen x = true <-> 0 <= rd Pe x /\ 0 <= rd Elen x.
Proof. unfold lvb. rewrite Bool.andb_true_iff, !Z.leb_le. tauto. Qed.
Lemma elb_spec Pe Elen x : elb Pe Elen x = true <-> 0 <= rd Pe x /\ rd Elen x < -1.
Proof. unfold elb. rewrite Bool.andb_true_iff, Z.leb_le, Z.ltb_lt. tauto. Qed.

(* the invariant of the main loop *)
Record inv (n nz : Z) (t : a2st) : Prop := {
  in_n : 1 <= n;
  in_len : zlen (t_Pe t) = n /\ zlen (t_Len t) = n /\ zlen (t_Nv t) = n /\ zlen (t_Next t) = n /\ zlen (t_Last t) = n /\ zlen (t_Head t) = n /\
           zlen (t_Elen t) = n /\ zlen (t_Degree t) = n /\ zlen (t_W t) = n;
  in_iw : nz + n <= zlen (t_Iw t);
  in_pf : 0 <= t_pfree t <= zlen (t_Iw t);
  in_rng : forall j, 0 <= j < t_pfree t -> 0 <= rd (t_Iw t) j < n;
  in_lay : lay n (t_pfree t) (rd (t_Pe t)) (rd (t_Len t));
  in_obj : forall x, 0 <= x < n -> 0 <= rd (t_Pe t) x -> rd (t_Elen t) x <> -1 /\ rd (t_Elen t) x <= rd (t_Len t) x /\ injs (t_Iw t) (rd (t_Pe t) x) (rd (t_Len t) x);
  in_agr : agr n (lvb (t_Pe t) (t_Elen t)) (evb (t_Elen t)) (elb (t_Pe t) (t_Elen t)) (mE (t_Iw t) (t_Pe t) (t_Elen t)) (mV (t_Iw t) (t_Pe t) (t_Len t) (t_Elen t))
             (mL (t_Iw t) (t_Pe t) (t_Len t)) (rd (t_Nv t)) (rd (t_Degree t));
  in_ne : ane n (lvb (t_Pe t) (t_Elen t)) (elb (t_Pe t) (t_Elen t)) (mL (t_Iw t) (t_Pe t) (t_Len t));
  in_nv : forall x, 0 <= x < n -> (rd (t_Elen t) x = -1 /\ rd (t_Nv t) x = 0 /\ rd (t_Pe t) x < 0) \/ (rd (t_Elen t) x <> -1 /\ 1 <= rd (t_Nv t) x);
  in_lv : forall x, 0 <= x < n -> 0 <= rd (t_Elen t) x -> 0 <= rd (t_Pe t) x;
  in_sum : lsum n (rd (t_Pe t)) (rd (t_Len t)) <= nz;
  in_dl : exists rk, dlist n (fun x => 0 <= x < n /\ lvb (t_Pe t) (t_Elen t) x = true) (rd (t_Degree t)) (rd (t_Next t)) (rd (t_Last t)) (rd (t_Head t)) rk;
  in_min : 0 <= t_mindeg t /\ forall x, 0 <= x < n -> lvb (t_Pe t) (t_Elen t) x = true -> t_mindeg t <= rd (t_Degree t) x;
  in_nel : t_nel t + wt n (lvb (t_Pe t) (t_Elen t)) (rd (t_Nv t)) = n /\ 0 <= t_nel t;
  in_w : 2 <= t_wflg t /\ forall x, 0 <= x < n -> 0 <= rd (t_W t) x < t_wflg t /\ (0 <= rd (t_Pe t) x -> rd (t_W t) x <> 0);
  in_dg : 0 <= t_lemax t /\ forall e, 0 <= e < n -> elb (t_Pe t) (t_Elen t) e = true -> rd (t_Degree t) e <= t_lemax t;
  in_lnz : 0 <= t_lnz t;
  in_fo : forest n (rd (t_Pe t)) (rd (t_Nv t)) (evb (t_Elen t)) }.

(* the pivot is out of the degree lists: what the rest of the step needs *)
Section Pivot.
Variables (n nz iwlen me : Z) (Iw Pe Len Nv Next Last Head Elen Degree W : list Z) (pfree : Z) (rk : Z -> Z).
Hypothesis Hn : 1 <= n.
Hypothesis HL : zlen Pe = n /\ zlen Len = n /\ zlen Nv = n /\ zlen Next = n /\ zlen Last = n /\ zlen Head = n /\ zlen Elen = n /\ zlen Degree = n /\ zlen W = n.
Hypothesis LI : zlen Iw = iwlen.
Hypothesis HIW : nz + n <= iwlen.
Hypothesis HPF : 0 <= pfree <= iwlen.
Hypothesis RNG : forall j, 0 <= j < pfree -> 0 <= rd Iw j < n.
Hypothesis LAY : lay n pfree (rd Pe) (rd Len).
Hypothesis OBJ : forall x, 0 <= x < n -> 0 <= rd Pe x -> rd Elen x <> -1 /\ rd Elen x <= rd Len x /\ injs Iw (rd Pe x) (rd Len x).
Let lv := lvb Pe Elen.
Let ev := evb Elen.
Let el := elb Pe Elen.
Let E := mE Iw Pe Elen.
Let V := mV Iw Pe Len Elen.
Let L := mL Iw Pe Len.
Hypothesis AGR : agr n lv ev el E V L (rd Nv) (rd Degree).
Hypothesis NVH : forall x, 0 <= x < n -> (rd Elen x = -1 /\ rd Nv x = 0 /\ rd Pe x < 0) \/ (rd Elen x <> -1 /\ 1 <= rd Nv x).
Hypothesis LVH : forall x, 0 <= x < n -> 0 <= rd Elen x -> 0 <= rd Pe x.
Hypothesis SUM : lsum n (rd Pe) (rd Len) <= nz.
Hypothesis Hme : 0 <= me < n.
Hypothesis Lme : lv me = true.
Hypothesis DL : dlist n (fun x => 0 <= x < n /\ lv x = true /\ x <> me) (rd Degree) (rd Next) (rd Last) (rd Head) rk.
Hypothesis FO : forest n (rd Pe) (rd Nv) ev.
Let ps := rd Pe me.
Let lenme := rd Len me.
Let elenme := rd Elen me.
(* Nv with the sign of me flipped, amd_2.c:761 *)
Let Nv1 := wr Nv me (- rd Nv me).

Lemma me_facts : 0 <= ps /\ 0 <= elenme <= lenme /\ 1 <= lenme /\ ps + lenme <= pfree /\ injs Iw ps lenme /\ 1 <= rd Nv me /\ ev me = false.
Proof.
  apply lvb_spec in Lme as X. destruct X as (X1 & X2). destruct (OBJ Hme X1) as (O1 & O2 & O3). destruct (la_in LAY Hme X1). destruct (ag_lv AGR Hme Lme). unfold ps, lenme, elenme. repeat split; auto; lia.
Qed.

Definition lmd (d x : Z) : bool := lv x && negb (x =? me) && existsb (fun k => L (rd Iw (ps + k)) x) (zseq 0 d).
Definition lm (x : Z) : bool := lv x && negb (x =? me) && (V me x || existsb (fun k => L (rd Iw (ps + k)) x) (zseq 0 elenme)).

Lemma lm_lv x : lm x = true -> lv x = true /\ x <> me.
Proof. unfold lm. rewrite !Bool.andb_true_iff, Bool.negb_true_iff, Z.eqb_neq. tauto. Qed.
Lemma lm_spec x : lm x = true <-> lv x = true /\ x <> me /\ (V me x = true \/ exists e, E me e = true /\ L e x = true).
Proof.
  unfold lm. rewrite !Bool.andb_true_iff, Bool.negb_true_iff, Z.eqb_neq, Bool.orb_true_iff, existsb_exists. split.
  - intros ((H1 & H2) & [H3|(k & Hk & H3)]); repeat split; auto. right. apply in_zseq in Hk. exists (rd Iw (ps + k)). split; [|exact H3]. unfold E, mE. fold ps elenme. apply memb_at. lia.
  - intros (H1 & H2 & [H3|(e & H3 & H4)]); repeat split; auto. right. unfold E, mE in H3. apply memb_spec in H3. destruct H3 as (j & Hj & <-). fold ps elenme in Hj. exists (j - ps). split; [apply in_zseq; lia|].
    replace (ps + (j - ps)) with j by lia. exact H4.
Qed.

Definition oPe (P : list Z) (x : Z) : Z := if x =? me then -1 else rd P x.
Definition fPe (P : list Z) (x : Z) : Z := if x =? me then 0 else rd P x.
Definition ev1 (x : Z) : bool := ev x || (x =? me).

(* after the construction *)
Record mid (Iw' Pe' Len' Nv' Next' Last' Head' W' : list Z) (pme1 pme2 pfree' degme : Z) : Prop := {
  md_len : zlen Iw' = iwlen /\ zlen Pe' = n /\ zlen Len' = n /\ zlen Nv' = n /\ zlen Next' = n /\ zlen Last' = n /\ zlen Head' = n /\ zlen W' = n;
  md_pf : 0 <= pme1 /\ pme1 <= pme2 + 1 /\ pme2 + 1 <= pfree' /\ pfree' <= iwlen;
  md_rng : forall j, 0 <= j < pfree' -> 0 <= rd Iw' j < n;
  md_set : forall x, 0 <= x < n -> memb Iw' pme1 (pme2 + 1 - pme1) x = lm x;
  md_inj : injs Iw' pme1 (pme2 + 1 - pme1);
  md_old : forall x, 0 <= x < n -> x <> me -> if E me x then rd Pe' x = FLIP me /\ rd W' x = 0 else moved Iw Pe Len Iw' Pe' Len' x /\ rd W' x = rd W x;
  md_wme : rd W' me = rd W me;
  md_lay : lay n pfree' (oPe Pe') (rd Len');
  md_dis : forall x, 0 <= x < n -> x <> me -> 0 <= rd Pe' x -> rd Pe' x + rd Len' x <= pme1 \/ pme2 + 1 <= rd Pe' x;
  md_nv : forall x, 0 <= x < n -> rd Nv' x = if lm x || (x =? me) then - rd Nv x else rd Nv x;
  md_dg : degme = wt n lm (rd Nv);
  md_dl : dlist n (fun x => (0 <= x < n /\ lv x = true /\ x <> me) /\ lm x = false) (rd Degree) (rd Next') (rd Last') (rd Head') rk;
  md_sum : lsum n (oPe Pe') (rd Len') + (pme2 + 1 - pme1) <= nz;
  md_fo : forest n (fPe Pe') (rd Nv') ev1;
  md_top : elenme = 0 \/ (pfree' = pme2 + 1 /\ forall x, 0 <= x < n -> x <> me -> 0 <= rd Pe' x -> rd Pe' x + rd Len' x <= pme1) }.

Lemma nv_lv x : 0 <= x < n -> ev x = false -> if lv x then 1 <= rd Nv x else rd Nv x = 0.
Proof.
  intros Hx Ex. destruct (lv x) eqn:Lx; [apply (ag_lv AGR Hx Lx)|]. unfold ev, evb in Ex. apply Z.ltb_ge in Ex. destruct (NVH Hx) as [(_ & X & _)|(X1 & X2)]; [exact X|]. exfalso.
  assert (lv x = true) by (apply lvb_spec; split; [apply LVH; [exact Hx|lia]|lia]). congruence.
Qed.
Lemma nv_obj x : 0 <= x < n -> 0 <= rd Pe x -> rd Nv x <> 0.
Proof. intros Hx P. destruct (NVH Hx) as [(_ & _ & X)|(_ & X)]; lia. Qed.

Lemma lsum_me : lsum n (oPe Pe) (rd Len) <= nz - lenme.
Proof.
  unfold lsum in *. rewrite (@sumz_upd n _ (fun x => if 0 <=? rd Pe x then rd Len x else 0) me Hme).
  - unfold oPe. rewrite Z.eqb_refl. change (0 <=? -1) with false. cbv iota. destruct me_facts as (X & _). fold ps lenme. destruct (Z.leb_spec 0 ps); lia.
  - intros x Hx N. unfold oPe. rewrite (proj2 (Z.eqb_neq x me) N). reflexivity.
Qed.

Lemma wt_ltn b : (forall x, 0 <= x < n -> b x = true -> lv x = true) -> 0 <= wt n b (rd Nv).
Proof. intros H. apply wt_nonneg. intros x Hx B. pose proof (ag_lv AGR Hx (H x Hx B)). lia. Qed.

(* the element takes the place of me's variables, amd_2.c:771-812 *)
Lemma inplace_ok : elenme = 0 ->
  wp (a2_inplace ps lenme Degree Iw Nv1 Next Last Head) (fun '(Iw', Nv', Next', Last', Head', pme2, degme) => mid Iw' Pe Len Nv' Next' Last' Head' W ps pme2 pfree degme) nerr.
Proof.
  intros E0. destruct me_facts as (F1 & F2 & F3 & F4 & F5 & F6 & F7). destruct HL as (L1 & L2 & L3 & L4 & L5 & L6 & L7 & L8 & L9).
  assert (VM : forall x, V me x = memb Iw ps lenme x). { intros x. unfold V, mV. fold ps elenme lenme. f_equal; lia. }
  assert (EM : forall x, E me x = false). { intros x. unfold E, mE. fold ps elenme. apply memb_0. lia. }
  assert (LM : forall x, 0 <= x < n -> lm x = memb Iw ps lenme x && lv x).
  { intros x Hx. unfold lm. rewrite VM, E0. change (zseq 0 0) with (@nil Z). cbn [existsb]. rewrite Bool.orb_false_r. destruct (memb Iw ps lenme x) eqn:M; [|rewrite Bool.andb_false_r; reflexivity].
    rewrite <- VM in M. destruct (ag_V AGR Hme Lme M) as (_ & X & _). rewrite (proj2 (Z.eqb_neq x me) X). rewrite !Bool.andb_true_r. reflexivity. }
  set (pre := fun p x => memb Iw ps (p - ps) x && lv x).
  assert (PS : forall p x, ps <= p -> pre (p + 1) x = pre p x || ((rd Iw p =? x) && lv x)).
  { intros p x Hp. unfold pre. replace (p + 1 - ps) with (p - ps + 1) by lia. rewrite memb_S by lia. replace (ps + (p - ps)) with p by lia. destruct (memb Iw ps (p - ps) x), (rd Iw p =? x), (lv x); reflexivity. }
  unfold a2_inplace. eapply wp_conseq.
  { apply wp_for with (I := fun p '(Iw', Nv', Next', Last', Head', pme2, degme) => comp Iw Iw' lv ps ps p (pme2 + 1) /\ zlen Nv' = n /\ zlen Next' = n /\ zlen Last' = n /\ zlen Head' = n /\
      (forall x, 0 <= x < n -> rd Nv' x = if pre p x || (x =? me) then - rd Nv x else rd Nv x) /\ degme = wt n (pre p) (rd Nv) /\
      dlist n (fun x => (0 <= x < n /\ lv x = true /\ x <> me) /\ pre p x = false) (rd Degree) (rd Next') (rd Last') (rd Head') rk); [lia| |].
    - assert (P0 : forall x, pre ps x = false) by (intros x; unfold pre; rewrite memb_0 by lia; reflexivity). replace (ps - 1 + 1) with ps by lia. split; [apply comp_0|]. unfold Nv1. rewrite zlen_wr. split; [exact L3|]. split; [exact L4|]. split; [exact L5|]. split; [exact L6|]. split; [|split].
      + intros x Hx. rewrite P0. cbn [orb]. rewrite rd_wr by lia. destruct (Z.eqb_spec x me) as [->|]; reflexivity.
      + symmetry. apply sumz_zero. intros x _. rewrite P0. reflexivity.
      + eapply dlist_ext; [exact DL| | |]; auto. intros x. rewrite P0. tauto.
    - intros p [[[[[[Iw' Nv'] Next'] Last'] Head'] pme2] degme] Hp (K & Q1 & Q2 & Q3 & Q4 & Q5 & Q6 & Q7). pose proof (cp_len K) as KL. destruct (cp_w K) as (K1 & K2).
      wg; [lia|]. assert (RI : rd Iw' p = rd Iw p) by (apply (cp_out K); lia). rewrite RI. set (i := rd Iw p) in *. assert (Ri : 0 <= i < n) by (apply RNG; lia).
      assert (Vi : V me i = true) by (rewrite VM; apply memb_at; lia). destruct (ag_V AGR Hme Lme Vi) as (_ & Ni & Ei & _).
      assert (Pi : pre p i = false). { unfold pre. replace (memb Iw ps (p - ps) i) with false; [reflexivity|]. symmetry. apply memb_false. intros j Hj X. assert (j = p) by (apply F5; [lia|lia|exact X]). lia. }
      wg; [lia|]. rewrite (Q5 i Ri), Pi, (proj2 (Z.eqb_neq i me) Ni). cbn [orb]. pose proof (@nv_lv i Ri Ei) as NI. destruct (lv i) eqn:Li.
      + destruct (Z.gtb_spec (rd Nv i) 0) as [_|]; [|lia].
        assert (PE : forall x, pre (p + 1) x = pre p x || (x =? i)). { intros x. rewrite PS by lia. fold i. rewrite (Z.eqb_sym i x). destruct (Z.eqb_spec x i) as [->|]; [rewrite Li|]; reflexivity. }
        ws; [lia|]. ws; [lia|]. apply wp_bind. eapply wp_conseq; [apply (dg_remove_ok i Q7); auto|]. intros [[Next'' Last''] Head''] (Z1 & Z2 & Z3 & ZD). cbn. rewrite zlen_wr. split; [|split; [exact Q1|split; [exact Z1|split; [exact Z2|split; [exact Z3|split; [|split]]]]]].
        * apply comp_keep; auto; lia.
        * intros x Hx. rewrite PE, rd_wr by lia. destruct (Z.eqb_spec x i) as [->|N]; [rewrite Bool.orb_true_r; reflexivity|]. rewrite Bool.orb_false_r. apply Q5. exact Hx.
        * rewrite Q6. symmetry. apply (@wt_add n (pre p) _ (rd Nv) i Ri Pi). intros x _. apply PE.
        * eapply dlist_ext; [exact ZD| | |]; auto. intros x. rewrite PE, Bool.orb_false_iff, Z.eqb_neq. tauto.
      + destruct (Z.gtb_spec (rd Nv i) 0) as [|_]; [lia|]. cbn.
        assert (PE : forall x, pre (p + 1) x = pre p x). { intros x. rewrite PS by lia. fold i. destruct (Z.eqb_spec i x) as [<-|]; [rewrite Li|]; rewrite Bool.orb_false_r; reflexivity. }
        split; [apply comp_drop; auto; lia|]. repeat (split; [assumption|]). split; [|split].
        * intros x Hx. rewrite PE. apply Q5. exact Hx.
        * rewrite Q6. apply wt_ext. intros x _. rewrite PE. auto.
        * eapply dlist_ext; [exact Q7| | |]; auto. intros x. rewrite PE. tauto. }
  intros [[[[[[Iw' Nv'] Next'] Last'] Head'] pme2] degme] (K & Q1 & Q2 & Q3 & Q4 & Q5 & Q6 & Q7). pose proof (cp_len K) as KL. destruct (cp_w K) as (K1 & K2).
  replace (ps + lenme - ps) with lenme in * by lia.
  assert (PL : forall x, 0 <= x < n -> pre (ps + lenme) x = lm x). { intros x Hx. rewrite LM by exact Hx. unfold pre. replace (ps + lenme - ps) with lenme by lia. reflexivity. }
  assert (OUT : forall x, 0 <= x < n -> x <> me -> 0 <= rd Pe x -> rd Pe x + rd Len x <= ps \/ ps + lenme <= rd Pe x). { intros x Hx N P. apply (la_dis LAY); auto. }
  constructor.
  - repeat split; auto; lia.
  - lia.
  - intros j Hj. destruct (Z_lt_le_dec j ps) as [X|X]; [rewrite (cp_out K) by lia; apply RNG; lia|]. destruct (Z_lt_le_dec j (pme2 + 1)) as [Y|Y]; [|rewrite (cp_out K) by lia; apply RNG; lia].
    assert (M : memb Iw' ps (pme2 + 1 - ps) (rd Iw' j) = true) by (apply memb_at; lia). rewrite (cp_mem K) in M. apply Bool.andb_true_iff in M. destruct M as (M & _). apply memb_spec in M. destruct M as (i & Hi & <-). apply RNG. lia.
  - intros x Hx. rewrite (cp_mem K), LM by exact Hx. replace (ps + lenme - ps) with lenme by lia. reflexivity.
  - apply (cp_inj K). replace (ps + lenme - ps) with lenme by lia. exact F5.
  - intros x Hx N. rewrite EM. split; [|reflexivity]. unfold moved. destruct (Z.leb_spec 0 (rd Pe x)) as [P|P]; [|reflexivity]. split; [exact P|]. split; [reflexivity|]. intros k Hk. destruct (la_in LAY Hx P). destruct (OUT x Hx N P); apply (cp_out K); lia.
  - reflexivity.
  - eapply lay_ext; [exact LAY|lia|]. intros x Hx P. unfold oPe in *. destruct (Z.eqb_spec x me); [lia|auto].
  - intros x Hx N P. destruct (OUT x Hx N P); lia.
  - intros x Hx. rewrite <- PL by exact Hx. apply Q5. exact Hx.
  - rewrite Q6. apply wt_ext. intros x Hx. rewrite PL by exact Hx. auto.
  - eapply dlist_ext; [exact Q7| | |]; auto. intros x. split; intros ((X1 & X2) & X3); split; auto; rewrite PL in * by exact X1; auto.
  - pose proof lsum_me. lia.
  - eapply forest_ext; [exact FO| | | |].
    + intros x Hx. rewrite Q5 by exact Hx. destruct (_ || _); lia.
    + intros x Hx. unfold fPe. destruct (Z.eqb_spec x me) as [->|]; [|left; reflexivity]. right. fold ps. lia.
    + intros x Hx X. unfold ev1. rewrite X. reflexivity.
    + intros x Hx X. unfold ev1 in X. apply Bool.orb_true_iff in X. destruct X as [X|X]; [|apply Z.eqb_eq in X; subst x; lia]. destruct FO as (g & dd & T & F). apply (fo_ev F Hx X).
  - left. exact E0.
Qed.

(* the element is built from the elements and the variables of me, amd_2.c:821-983 *)
Definition cinv (d : Z) (b : bld) : Prop := let '(mkB Iw' Pe' Len' Nv' Next' Last' Head' W' p pme1 pfree' degme) := b in
  (zlen Iw' = iwlen /\ zlen Pe' = n /\ zlen Len' = n /\ zlen Nv' = n /\ zlen Next' = n /\ zlen Last' = n /\ zlen Head' = n /\ zlen W' = n) /\
  (0 <= pme1 <= pfree' /\ pfree' <= iwlen) /\ (forall j, 0 <= j < pfree' -> 0 <= rd Iw' j < n) /\
  lay n pme1 (fun x => if x =? me then (if lenme - d =? 0 then -1 else p) else rd Pe' x) (fun x => if x =? me then lenme - d else rd Len' x) /\
  (forall x, 0 <= x < n -> x <> me -> if memb Iw ps d x then rd Pe' x = FLIP me /\ rd W' x = 0 else moved Iw Pe Len Iw' Pe' Len' x /\ rd W' x = rd W x) /\
  (rd W' me = rd W me /\ -1 <= rd Pe' me /\ (0 < lenme - d -> 0 <= p) /\ forall k, 0 <= k < lenme - d -> rd Iw' (p + k) = rd Iw (ps + (d + k))) /\
  ((forall x, 0 <= x < n -> memb Iw' pme1 (pfree' - pme1) x = lmd d x) /\ injs Iw' pme1 (pfree' - pme1)) /\
  (forall x, 0 <= x < n -> rd Nv' x = if lmd d x || (x =? me) then - rd Nv x else rd Nv x) /\
  degme = wt n (lmd d) (rd Nv) /\
  dlist n (fun x => (0 <= x < n /\ lv x = true /\ x <> me) /\ lmd d x = false) (rd Degree) (rd Next') (rd Last') (rd Head') rk /\
  lsum n (oPe Pe') (rd Len') + (pfree' - pme1) <= nz - lenme /\ ((rd Len' me = lenme) \/ pme1 + n <= iwlen) /\
  forest n (fPe Pe') (rd Nv') ev1.
Definition cfin (b : bld) : Prop := let '(mkB Iw' Pe' Len' Nv' Next' Last' Head' W' p pme1 pfree' degme) := b in
  mid Iw' Pe' Len' Nv' Next' Last' Head' W' pme1 (pfree' - 1) pfree' degme.

Lemma lmd_lv d x : lmd d x = true -> lv x = true /\ x <> me.
Proof. unfold lmd. rewrite !Bool.andb_true_iff, Bool.negb_true_iff, Z.eqb_neq. tauto. Qed.
Lemma msrc_memb A s l x : msrc (fun k => rd A (s + k)) l x = memb A s l x.
Proof.
  apply bool_iff. unfold msrc. rewrite existsb_exists, memb_spec. split.
  - intros (k & Hk & X). apply in_zseq in Hk. apply Z.eqb_eq in X. exists (s + k). split; [lia|exact X].
  - intros (j & Hj & X). exists (j - s). split; [apply in_zseq; lia|]. apply Z.eqb_eq. rewrite <- X. f_equal. lia.
Qed.
Lemma lmd_S d x : 0 <= d -> lmd (d + 1) x = lmd d x || (lv x && negb (x =? me) && L (rd Iw (ps + d)) x).
Proof.
  intros Hd. unfold lmd. assert (X : existsb (fun k => L (rd Iw (ps + k)) x) (zseq 0 (d + 1)) = existsb (fun k => L (rd Iw (ps + k)) x) (zseq 0 d) || L (rd Iw (ps + d)) x).
  { apply bool_iff. rewrite Bool.orb_true_iff, !existsb_exists. split.
    - intros (k & Hk & Y). apply in_zseq in Hk. destruct (Z.eq_dec k d) as [->|]; [auto|]. left. exists k. split; [apply in_zseq; lia|exact Y].
    - intros [(k & Hk & Y)|Y]; [apply in_zseq in Hk; exists k; split; [apply in_zseq; lia|exact Y]|exists d; split; [apply in_zseq; lia|exact Y]]. }
  rewrite X. destruct (lv x), (x =? me), (existsb _ _), (L _ x); reflexivity.
Qed.
Lemma nv_abs b (N : list Z) : (forall x, 0 <= x < n -> rd N x = if b x || (x =? me) then - rd Nv x else rd Nv x) -> forall x, 0 <= x < n -> Z.abs (rd N x) = Z.abs (rd Nv x).
Proof. intros H x Hx. rewrite H by exact Hx. destruct (_ || _); lia. Qed.

Lemma construct_ginv d Iw' Pe' Len' Nv' Next' Last' Head' W' p pme1 pfree' degme : 0 <= d < elenme -> cinv d (mkB Iw' Pe' Len' Nv' Next' Last' Head' W' p pme1 pfree' degme) ->
  let e := rd Iw (ps + d) in
  (0 <= p < iwlen /\ rd Iw' p = e) /\ 0 <= e < n /\ e <> me /\ 0 <= rd Pe e /\ 0 <= rd Pe' e /\ 0 <= rd Len e /\ rd Len' e = rd Len e /\
  (forall k, 0 <= k < rd Len e -> 0 <= rd Iw (rd Pe e + k) < n /\ ev (rd Iw (rd Pe e + k)) = false) /\
  lsum n (fun x => if (x =? me) || (x =? e) then -1 else rd Pe' x) (rd Len') = lsum n (oPe Pe') (rd Len') - rd Len e /\
  ginv n me e (d + 1) (rd Len e) lenme (fun k => rd Iw (rd Pe e + k)) (fun k => rd Iw (ps + (d + 1 + k))) lv (lmd d) Nv Iw' Pe' Len' W' Degree rk (pfree' - pme1) iwlen 0 (mkB Iw' Pe' Len' Nv' Next' Last' Head' W' (p + 1) pme1 pfree' degme, rd Pe' e).
Proof.
  intros Hd
  ((L1 & L2 & L3 & L4 & L5 & L6 & L7 & L8) & (B1 & B2) & RI & LA & OLD & (WM & PM & PP & CM) & (MS & JS) & NV & DG & DLx & SM & NC & FO').
  destruct me_facts as (F1 & F2 & F3 & F4 & F5 & F6 & F7). destruct HL as (LL1 & LL2 & LL3 & LL4 & LL5 & LL6 & LL7 & LL8 & LL9). specialize (PP ltac:(lia)).
  pose proof (la_in LA Hme) as LM. cbv beta in LM. rewrite Z.eqb_refl in LM. destruct (Z.eqb_spec (lenme - d) 0); [lia|]. specialize (LM PP).
  assert (EE : rd Iw' p = rd Iw (ps + d)) by (pose proof (CM 0 ltac:(lia)) as X; rewrite Z.add_0_r in X; rewrite X; f_equal; lia). set (e := rd Iw (ps + d)) in *.
  assert (Ee : E me e = true) by (unfold E, mE; fold ps elenme; apply memb_at; lia). destruct (ag_E AGR Hme Lme Ee) as (Re & Ele & Lem).
  assert (Ne : e <> me). { intros X. rewrite X in Ele. pose proof (ag_el AGR Hme Ele). congruence. }
  assert (PRE : memb Iw ps d e = false). { apply memb_false. intros j Hj X. assert (j = ps + d) by (apply F5; [lia|lia|exact X]). lia. }
  pose proof (OLD e Re Ne) as Oe. rewrite PRE in Oe. destruct Oe as (Oe & We). pose proof Ele as (Pe0 & Ee0)%elb_spec. unfold moved in Oe. destruct (Z.leb_spec 0 (rd Pe e)) as [_|]; [|lia]. destruct Oe as (Oe1 & Oe2 & Oe3).
  destruct (la_in LAY Re Pe0) as (S1 & S2). 
  assert (SRC : forall k, 0 <= k < rd Len e -> 0 <= rd Iw (rd Pe e + k) < n /\ ev (rd Iw (rd Pe e + k)) = false).
  { intros k Hk. assert (X : L e (rd Iw (rd Pe e + k)) = true) by (unfold L, mL; apply memb_at; lia). destruct (ag_L AGR Re Ele X) as (X1 & X2 & _). auto. }
  assert (SBX : lsum n (fun x => if (x =? me) || (x =? e) then -1 else rd Pe' x) (rd Len') = lsum n (oPe Pe') (rd Len') - rd Len e).
  { unfold lsum. rewrite (@sumz_upd n _ (fun x => if 0 <=? oPe Pe' x then rd Len' x else 0) e Re).
    - unfold oPe. rewrite Z.eqb_refl, Bool.orb_true_r, (proj2 (Z.eqb_neq e me) Ne). change (0 <=? -1) with false. cbv iota. destruct (Z.leb_spec 0 (rd Pe' e)); lia.
    - intros x Hx N. unfold oPe. rewrite (proj2 (Z.eqb_neq x e) N), Bool.orb_false_r. reflexivity. }
  cbv zeta. fold e. split; [split; [lia|exact EE]|]. split; [exact Re|]. split; [exact Ne|]. split; [exact Pe0|]. split; [exact Oe1|]. split; [lia|]. split; [exact Oe2|]. split; [exact SRC|]. split; [exact SBX|].
  unfold ginv. split; [tauto|]. split; [lia|]. split; [exact RI|]. rewrite !Z.sub_0_r. split; [|split; [|split; [|split; [lia|split; [|split; [|split; [|split; [|split; [lia|split; [exact NC|reflexivity]]]]]]]]]].
  + unfold vst, vln. constructor.
    * intros x Hx P. destruct (Z.eqb_spec x e) as [->|Nx].
      -- pose proof (la_in LA Re) as X. cbv beta in X. rewrite (proj2 (Z.eqb_neq e me) Ne) in X. specialize (X Oe1). destruct (Z.eqb_spec (rd Len e) 0); lia.
      -- destruct (Z.eqb_spec x me) as [->|Nx']; [destruct (Z.eqb_spec (lenme - (d + 1)) 0); lia|]. pose proof (la_in LA Hx) as X. cbv beta in X. rewrite (proj2 (Z.eqb_neq x me) Nx') in X. auto.
    * assert (ED : forall y, 0 <= y < n -> y <> e -> y <> me -> 0 <= rd Pe' y -> rd Pe' e + rd Len e <= rd Pe' y \/ rd Pe' y + rd Len' y <= rd Pe' e).
      { intros y Hy N1 N2 P. pose proof (@la_dis _ _ _ _ LA e y Re Hy ltac:(auto)) as X. cbv beta in X. rewrite (proj2 (Z.eqb_neq e me) Ne), (proj2 (Z.eqb_neq y me) N2), Oe2 in X. auto. }
      assert (MD : forall y, 0 <= y < n -> y <> me -> 0 <= rd Pe' y -> rd Pe' y + rd Len' y <= p \/ p + (lenme - d) <= rd Pe' y).
      { intros y Hy N2 P. pose proof (@la_dis _ _ _ _ LA y me Hy Hme N2) as X. cbv beta in X. rewrite Z.eqb_refl, (proj2 (Z.eqb_neq y me) N2) in X. destruct (Z.eqb_spec (lenme - d) 0); [lia|]. auto. }
      specialize (MD e Re Ne Oe1) as MDe. rewrite Oe2 in MDe.
      intros x y Hx Hy N Px Py. destruct (Z.eqb_spec x e) as [->|Nx], (Z.eqb_spec y e) as [->|Ny]; try contradiction; destruct (Z.eqb_spec (rd Len e) 0); try lia.
      -- destruct (Z.eqb_spec y me) as [->|Ny']; [destruct (Z.eqb_spec (lenme - (d + 1)) 0); lia|]. apply ED; auto.
      -- destruct (Z.eqb_spec x me) as [->|Nx']; [destruct (Z.eqb_spec (lenme - (d + 1)) 0); lia|]. specialize (ED x Hx Nx Nx' Px). lia.
      -- destruct (Z.eqb_spec x me) as [->|Nx'], (Z.eqb_spec y me) as [->|Ny']; try contradiction.
         ++ destruct (Z.eqb_spec (lenme - (d + 1)) 0); [lia|]. specialize (MD y Hy Ny' Py). lia.
         ++ destruct (Z.eqb_spec (lenme - (d + 1)) 0); [lia|]. specialize (MD x Hx Nx' Px). lia.
         ++ pose proof (@la_dis _ _ _ _ LA x y Hx Hy N) as X. cbv beta in X. rewrite (proj2 (Z.eqb_neq x me) Nx'), (proj2 (Z.eqb_neq y me) Ny') in X. auto.
  + intros x Hx _ _. apply moved_refl.
  + split; [|split; [|split; [lia|]]].
    * intros k Hk. rewrite Oe3 by lia. reflexivity.
    * intros _ k Hk. replace (p + 1 + k) with (p + (k + 1)) by lia. rewrite CM by lia. f_equal. lia.
    * intros _ _. lia.
  + assert (GZ : forall x, gs me (fun k => rd Iw (rd Pe e + k)) lv (lmd d) 0 x = lmd d x) by (intros x; unfold gs, msrc; change (zseq 0 0) with (@nil Z); cbn [existsb]; rewrite Bool.andb_false_r, Bool.orb_false_r; reflexivity).
    split; [|exact JS]. intros x Hx. rewrite GZ. apply MS. exact Hx.
  + intros x Hx. replace (gs _ _ _ _ 0 x) with (lmd d x) by (unfold gs, msrc; change (zseq 0 0) with (@nil Z); cbn [existsb]; rewrite Bool.andb_false_r, Bool.orb_false_r; reflexivity). apply NV. exact Hx.
  + rewrite DG. apply wt_ext. intros x _. split; [|auto]. unfold gs, msrc; change (zseq 0 0) with (@nil Z); cbn [existsb]; rewrite Bool.andb_false_r, Bool.orb_false_r; reflexivity.
  + eapply dlist_ext; [exact DLx| | |]; auto. intros x. replace (gs _ _ _ _ 0 x) with (lmd d x) by (unfold gs, msrc; change (zseq 0 0) with (@nil Z); cbn [existsb]; rewrite Bool.andb_false_r, Bool.orb_false_r; reflexivity). tauto.
Qed.

Lemma construct_step d b : 0 <= d < elenme -> cinv d b ->
  let '(mkB Iw' Pe' Len' Nv' Next' Last' Head' W' p pme1 pfree' degme) := b in
  wp (let* e := get Iw' p in let* pj := get Pe' e in let* ln := get Len' e in
      let* st := a2_gather n me e (d + 1) ln pj Degree (mkB Iw' Pe' Len' Nv' Next' Last' Head' W' (p + 1) pme1 pfree' degme) in
      let '(mkB Iw Pe Len Nv Next Last Head W p pme1 pfree degme, _) := st in
      if negb (e =? me) then
        let* Pe := set Pe e (FLIP me) in
        let* W := set W e 0 in
        Ok (mkB Iw Pe Len Nv Next Last Head W p pme1 pfree degme)
      else Ok (mkB Iw Pe Len Nv Next Last Head W p pme1 pfree degme)) (cinv (d + 1)) nerr.
Proof.
  intros Hd. destruct b as [Iw' Pe' Len' Nv' Next' Last' Head' W' p pme1 pfree' degme].
  intros ((L1 & L2 & L3 & L4 & L5 & L6 & L7 & L8) & (B1 & B2) & RI & LA & OLD & (WM & PM & PP & CM) & (MS & JS) & NV & DG & DLx & SM & NC & FO').
  assert (CI : cinv d (mkB Iw' Pe' Len' Nv' Next' Last' Head' W' p pme1 pfree' degme)) by (unfold cinv; tauto).
  destruct me_facts as (F1 & F2 & F3 & F4 & F5 & F6 & F7). destruct HL as (LL1 & LL2 & LL3 & LL4 & LL5 & LL6 & LL7 & LL8 & LL9).
  destruct (@construct_ginv d _ _ _ _ _ _ _ _ _ _ _ _ Hd CI) as ((Hp & EE) & Re & Ne & Pe0 & Oe1 & Hle & Oe2 & SRC & SBX & GI). set (e := rd Iw (ps + d)) in *.
  wg; [lia|]. rewrite EE. wg; [lia|]. wg; [lia|]. rewrite Oe2. apply wp_bind.
  eapply wp_conseq.
  { apply (@gather_ok n nz me e (d + 1) (rd Len e) lenme (fun k => rd Iw (rd Pe e + k)) (fun k => rd Iw (ps + (d + 1 + k))) lv ev (lmd d) Nv Iw' Pe' Len' W' Degree rk (pfree' - pme1)) with (iwlen := iwlen); auto; try lia.
    - apply nv_lv.
    - intros x Hx X. apply (@lmd_lv d x X).
    - rewrite SBX. destruct (Z.eqb_spec e me); lia. }
  intros [[Iw2 Pe2 Len2 Nv2 Next2 Last2 Head2 W2 p2 pme12 pfree2 degme2] pj2] ((Z1 & Z2 & Z3 & Z4 & Z5 & Z6 & Z7) & (Y1 & Y2) & RI2 & LA2 & MV2 & (C1 & C2 & C3 & C4) & PP2 & (MS2 & JS2) & NV2 & DG2 & DL2 & CN2 & NC2 & WE2).
  assert (GE : forall x, gs me (fun k => rd Iw (rd Pe e + k)) lv (lmd d) (rd Len e) x = lmd (d + 1) x).
  { intros x. rewrite lmd_S by lia. unfold gs. rewrite msrc_memb. reflexivity. }
  rewrite (proj2 (Z.eqb_neq e me) Ne). cbn [negb]. ws; [lia|]. rewrite WE2. ws; [lia|]. cbn. rewrite Z.sub_diag in *. rewrite !zlen_wr.
  assert (PS1 : forall x, 0 <= x < n -> x <> e -> rd (wr Pe2 e (FLIP me)) x = rd Pe2 x) by (intros x Hx N; apply rd_wr_ne; lia).
  split; [repeat split; auto|]. split; [lia|]. split; [exact RI2|]. split; [|split; [|split; [|split; [|split; [|split; [|split; [|split; [|split]]]]]]]].
  - assert (FN : FLIP me < 0) by (unfold FLIP; lia).
    eapply lay_ext; [exact LA2|lia|]. intros x Hx P. unfold vst, vln. destruct (Z.eqb_spec x me) as [->|Nx].
    + rewrite (proj2 (Z.eqb_neq me e)) by auto. auto.
    + destruct (Z.eqb_spec x e) as [->|Nx']; [rewrite rd_wr_eq in P by lia; lia|]. rewrite PS1 by auto. auto.
  - intros x Hx N. replace (d + 1) with (d + 1) by lia. rewrite memb_S by lia. fold e. destruct (Z.eqb_spec e x) as [<-|Nx].
    + rewrite Bool.orb_true_r. rewrite !rd_wr_eq by lia. auto.
    + rewrite Bool.orb_false_r, (rd_wr_ne W') by lia. pose proof (OLD x Hx N) as O. pose proof (MV2 x Hx N ltac:(auto)) as M. destruct (memb Iw ps d x) eqn:T.
      * destruct O as (O1 & O2). split; [|exact O2]. rewrite PS1 by auto. unfold moved in M. rewrite O1 in M. destruct (Z.leb_spec 0 (FLIP me)); [unfold FLIP in *; lia|exact M].
      * destruct O as (O1 & O2). split; [|exact O2]. pose proof (moved_trans O1 M) as M'. unfold moved in *. rewrite PS1 by auto. exact M'.
  - split; [rewrite rd_wr_ne by lia; exact WM|]. split; [rewrite PS1 by auto; lia|]. split; [intros Y; apply C4; [exact Ne|lia]|]. intros k Hk. rewrite C2 by (auto; lia). reflexivity.
  - split; [|exact JS2]. intros x Hx. rewrite <- GE. apply MS2. exact Hx.
  - intros x Hx. rewrite <- GE. apply NV2. exact Hx.
  - rewrite DG2. apply wt_ext. intros x _. rewrite GE. auto.
  - eapply dlist_ext; [exact DL2| | |]; auto. intros x. cbv beta. rewrite <- GE. tauto.
  - assert (X : lsum n (oPe (wr Pe2 e (FLIP me))) (rd Len2) = lsum n (fun x => if (x =? me) || (x =? e) then -1 else rd Pe' x) (rd Len')).
    { apply lsum_ext. intros x Hx. unfold oPe. destruct (Z.eqb_spec x me) as [->|N1]; [cbn; split; lia|]. cbn [orb]. destruct (Z.eqb_spec x e) as [->|N2]; [rewrite rd_wr_eq by lia; unfold FLIP; split; lia|].
      rewrite PS1 by auto. pose proof (MV2 x Hx N1 N2) as M. pose proof (moved_sign M). split; [lia|]. intros P. unfold moved in M. destruct (Z.leb_spec 0 (rd Pe' x)); [|lia]. apply M. }
    rewrite X, SBX. lia.
  - exact NC2.
  - apply (@forest_absorb n (fPe Pe2) (rd Nv2) ev1 e me (fPe (wr Pe2 e (FLIP me)))); auto.
    + eapply forest_ext; [exact FO'| | | |].
      * intros x Hx. transitivity (Z.abs (rd Nv x)); [|symmetry; apply (@nv_abs (lmd d) _ NV x Hx)]. apply (@nv_abs (lmd (d + 1))); [|exact Hx]. intros y Hy. rewrite <- GE. apply NV2. exact Hy.
      * intros x Hx. unfold fPe. destruct (Z.eqb_spec x me) as [->|N1]; [left; reflexivity|]. destruct (Z.eq_dec x e) as [->|N2].
        -- right. rewrite NV by exact Re. pose proof (@nv_obj e Re Pe0). split; [destruct (_ || _); lia|]. split; lia.
        -- pose proof (MV2 x Hx N1 N2) as M. pose proof (moved_sign M). unfold moved in M. destruct (Z.leb_spec 0 (rd Pe' x)) as [P|P]; [|left; exact M]. right. split; [|lia].
           pose proof (OLD x Hx N1) as O. destruct (memb Iw ps d x) eqn:T; [unfold FLIP in O; lia|]. destruct O as (O & _). pose proof (moved_sign O). pose proof (@nv_obj x Hx ltac:(lia)). rewrite NV by exact Hx. destruct (_ || _); lia.
      * auto.
      * intros x Hx X. destruct FO' as (g & dd & T & F). apply (fo_ev F Hx X).
    + unfold fPe. destruct (Z.eqb_spec e me); [contradiction|]. lia.
    + unfold fPe. rewrite Z.eqb_refl. lia.
    + unfold ev1. rewrite Z.eqb_refl. apply Bool.orb_true_r.
    + rewrite NV2 by exact Re. pose proof (@nv_obj e Re Pe0). destruct (_ || _); lia.
    + unfold fPe. destruct (Z.eqb_spec e me); [contradiction|]. apply rd_wr_eq. lia.
    + intros x Hx N. unfold fPe. destruct (x =? me); [reflexivity|]. apply PS1; auto.
Qed.

Lemma gs_0 (src : Z -> Z) (b : Z -> bool) x : gs me src lv b 0 x = b x.
Proof. unfold gs, msrc. change (zseq 0 0) with (@nil Z). cbn [existsb]. rewrite Bool.andb_false_r, Bool.orb_false_r. reflexivity. Qed.

Lemma last_ginv Iw' Pe' Len' Nv' Next' Last' Head' W' p pme1 pfree' degme : 0 < elenme -> cinv elenme (mkB Iw' Pe' Len' Nv' Next' Last' Head' W' p pme1 pfree' degme) ->
  (forall k, 0 <= k < lenme - elenme -> 0 <= rd Iw (ps + elenme + k) < n /\ ev (rd Iw (ps + elenme + k)) = false) /\
  lsum n (fun x => if (x =? me) || (x =? me) then -1 else rd Pe' x) (rd Len') = lsum n (oPe Pe') (rd Len') /\ lsum n (oPe Pe') (rd Len') + (lenme - elenme) <= nz /\
  ginv n me me (elenme + 1) (lenme - elenme) lenme (fun k => rd Iw (ps + elenme + k)) (fun k => 0) lv (lmd elenme) Nv Iw' Pe' Len' W' Degree rk (pfree' - pme1) iwlen 0 (mkB Iw' Pe' Len' Nv' Next' Last' Head' W' p pme1 pfree' degme, p).
Proof.
  intros Hd.
  intros ((L1 & L2 & L3 & L4 & L5 & L6 & L7 & L8) & (B1 & B2) & RI & LA & OLD & (WM & PM & PP & CM) & (MS & JS) & NV & DG & DLx & SM & NC & FO').
  destruct me_facts as (F1 & F2 & F3 & F4 & F5 & F6 & F7). destruct HL as (LL1 & LL2 & LL3 & LL4 & LL5 & LL6 & LL7 & LL8 & LL9).
  assert (SL : forall P Ln, lsum n (fun x => if (x =? me) || (x =? me) then -1 else rd P x) Ln = lsum n (oPe P) Ln). { intros P Ln. apply lsum_ext. intros x Hx. unfold oPe. destruct (x =? me); cbn; split; auto; lia. }
  split; [|split; [apply SL|split; [lia|]]].
  { intros k Hk. assert (X : V me (rd Iw (ps + elenme + k)) = true) by (unfold V, mV; fold ps elenme lenme; apply memb_at; lia). destruct (ag_V AGR Hme Lme X) as (X1 & _ & X2 & _). auto. }
  unfold ginv. split; [tauto|]. split; [lia|]. split; [exact RI|]. rewrite !Z.sub_0_r. split; [|split; [|split; [|split; [lia|split; [|split; [|split; [|split; [|split; [lia|split; [exact NC|reflexivity]]]]]]]]]].
  + eapply lay_ext; [exact LA|lia|]. intros x Hx P. unfold vst, vln. destruct (Z.eqb_spec x me); auto.
  + intros x Hx _ _. apply moved_refl.
  + split; [|split; [intros X; contradiction|split; [|intros X; contradiction]]].
    * intros k Hk. rewrite CM by lia. f_equal. lia.
    * intros Y. apply PP. lia.
  + split; [|exact JS]. intros x Hx. rewrite gs_0. apply MS. exact Hx.
  + intros x Hx. rewrite gs_0. apply NV. exact Hx.
  + rewrite DG. apply wt_ext. intros x _. rewrite gs_0. auto.
  + eapply dlist_ext; [exact DLx| | |]; auto. intros x. rewrite gs_0. tauto.
Qed.

Lemma construct_last b : 0 < elenme -> cinv elenme b ->
  let '(mkB Iw' Pe' Len' Nv' Next' Last' Head' W' p pme1 pfree' degme) := b in
  wp (a2_gather n me me (elenme + 1) (lenme - elenme) p Degree b) (fun st => cfin (fst st)) nerr.
Proof.
  intros Hd. destruct b as [Iw' Pe' Len' Nv' Next' Last' Head' W' p pme1 pfree' degme].
  intros ((L1 & L2 & L3 & L4 & L5 & L6 & L7 & L8) & (B1 & B2) & RI & LA & OLD & (WM & PM & PP & CM) & (MS & JS) & NV & DG & DLx & SM & NC & FO').
  destruct me_facts as (F1 & F2 & F3 & F4 & F5 & F6 & F7). destruct HL as (LL1 & LL2 & LL3 & LL4 & LL5 & LL6 & LL7 & LL8 & LL9).
  assert (CI : cinv elenme (mkB Iw' Pe' Len' Nv' Next' Last' Head' W' p pme1 pfree' degme)) by (unfold cinv; tauto).
  destruct (@last_ginv _ _ _ _ _ _ _ _ _ _ _ _ Hd CI) as (SRC & SL & SN & GI).
  eapply wp_conseq.
  { apply (@gather_ok n nz me me (elenme + 1) (lenme - elenme) lenme (fun k => rd Iw (ps + elenme + k)) (fun k => 0) lv ev (lmd elenme) Nv Iw' Pe' Len' W' Degree rk (pfree' - pme1)) with (iwlen := iwlen); auto; try lia.
    - apply nv_lv.
    - intros x Hx X. apply (@lmd_lv elenme x X).
    - rewrite SL, Z.eqb_refl. lia. }
  intros [[Iw2 Pe2 Len2 Nv2 Next2 Last2 Head2 W2 p2 pme12 pfree2 degme2] pj2] ((Z1 & Z2 & Z3 & Z4 & Z5 & Z6 & Z7) & (Y1 & Y2) & RI2 & LA2 & MV2 & _ & PP2 & (MS2 & JS2) & NV2 & DG2 & DL2 & CN2 & NC2 & WE2).
  assert (GE : forall x, gs me (fun k => rd Iw (ps + elenme + k)) lv (lmd elenme) (lenme - elenme) x = lm x).
  { intros x. unfold gs. rewrite msrc_memb. unfold lm, lmd. unfold V, mV. fold ps elenme lenme. destruct (lv x), (x =? me), (existsb _ _), (memb Iw (ps + elenme) _ x); reflexivity. }
  assert (LAY2 : forall x, 0 <= x < n -> x <> me -> 0 <= rd Pe2 x -> rd Pe2 x + rd Len2 x <= pme12).
  { intros x Hx N P. pose proof (la_in LA2 Hx) as X. unfold vst, vln in X. rewrite (proj2 (Z.eqb_neq x me) N) in X. specialize (X P). lia. }
  cbn [fst cfin]. rewrite Z.sub_diag in LA2. rewrite WE2 in *. constructor; replace (pfree2 - 1 + 1) with pfree2 by lia.
  - tauto.
  - lia.
  - exact RI2.
  - intros x Hx. rewrite <- GE. apply MS2. exact Hx.
  - exact JS2.
  - intros x Hx N. unfold E, mE. fold ps elenme. specialize (OLD x Hx N). specialize (MV2 x Hx N N). destruct (memb Iw ps elenme x) eqn:T.
    + destruct OLD as (O1 & O2). split; [|exact O2]. unfold moved in MV2. rewrite O1 in MV2. destruct (Z.leb_spec 0 (FLIP me)); [unfold FLIP in *; lia|exact MV2].
    + destruct OLD as (O1 & O2). split; [|exact O2]. exact (moved_trans O1 MV2).
  - exact WM.
  - eapply lay_ext; [exact LA2|lia|]. intros x Hx. unfold oPe, vst, vln. destruct (Z.eqb_spec x me); [lia|auto].
  - intros x Hx N P. left. apply LAY2; auto.
  - intros x Hx. rewrite <- GE. apply NV2. exact Hx.
  - rewrite DG2. apply wt_ext. intros x _. rewrite GE. auto.
  - eapply dlist_ext; [exact DL2| | |]; auto. intros x. cbv beta. rewrite <- GE. tauto.
  - assert (X : lsum n (oPe Pe2) (rd Len2) = lsum n (oPe Pe') (rd Len')).
    { apply lsum_ext. intros x Hx. unfold oPe. destruct (Z.eqb_spec x me) as [->|N1]; [split; lia|].
      pose proof (MV2 x Hx N1 N1) as M. pose proof (moved_sign M). split; [lia|]. intros P. unfold moved in M. destruct (Z.leb_spec 0 (rd Pe' x)); [|lia]. apply M. }
    lia.
  - eapply forest_ext; [exact FO'| | | |].
    + intros x Hx. transitivity (Z.abs (rd Nv x)); [|symmetry; apply (@nv_abs (lmd elenme) _ NV x Hx)]. apply (@nv_abs lm); [|exact Hx]. intros y Hy. rewrite <- GE. apply NV2. exact Hy.
    + intros x Hx. unfold fPe. destruct (Z.eqb_spec x me) as [->|N1]; [left; reflexivity|].
      pose proof (MV2 x Hx N1 N1) as M. pose proof (moved_sign M). unfold moved in M. destruct (Z.leb_spec 0 (rd Pe' x)) as [P|P]; [|left; exact M]. right. split; [|lia].
      pose proof (OLD x Hx N1) as O. destruct (memb Iw ps elenme x) eqn:T; [unfold FLIP in O; lia|]. destruct O as (O & _). pose proof (moved_sign O). pose proof (@nv_obj x Hx ltac:(lia)). rewrite NV by exact Hx. destruct (_ || _); lia.
    + auto.
    + intros x Hx X. destruct FO' as (g & dd & T & F). apply (fo_ev F Hx X).
  - right. split; [lia|]. exact LAY2.
Qed.

Lemma forest_me : forest n (fPe Pe) (rd Nv1) ev1.
Proof.
  destruct me_facts as (F1 & F2 & F3 & F4 & F5 & F6 & F7). destruct HL as (LL1 & LL2 & LL3 & LL4 & LL5 & LL6 & LL7 & LL8 & LL9).
  eapply forest_ext; [exact FO| | | |].
  - intros x Hx. unfold Nv1. rewrite rd_wr by lia. destruct (Z.eqb_spec x me) as [->|]; lia.
  - intros x Hx. unfold fPe. destruct (Z.eqb_spec x me) as [->|]; [|left; reflexivity]. right. fold ps. lia.
  - intros x Hx X. unfold ev1. rewrite X. reflexivity.
  - intros x Hx X. unfold ev1 in X. apply Bool.orb_true_iff in X. destruct X as [X|X]; [|apply Z.eqb_eq in X; subst x; lia]. destruct FO as (g & dd & T & F). apply (fo_ev F Hx X).
Qed.

(* the loop over the elements, and the body *)
Definition kinv (k : Z) (b : bld) : Prop := (k <= elenme + 1 -> cinv (k - 1) b) /\ (k = elenme + 2 -> cfin b).
Lemma cons1_ok k b : 0 < elenme -> 1 <= k < elenme + 2 -> kinv k b -> wp (a2_cons1 n me elenme (lenme - elenme) Degree k b) (kinv (k + 1)) nerr.
Proof.
  intros Hd Hk (I1 & _). specialize (I1 ltac:(lia)). unfold kinv, a2_cons1. destruct b as [Iw' Pe' Len' Nv' Next' Last' Head' W' p pme1 pfree' degme]. destruct (Z.gtb_spec k elenme) as [Y|Y].
      + assert (EK : k - 1 = elenme) by lia. rewrite EK in I1. pose proof (@construct_last _ Hd I1) as G. cbv beta iota in G. cbn [bind]. replace k with (elenme + 1) by lia. apply wp_bind. eapply wp_conseq; [exact G|].
        intros [[Iw2 Pe2 Len2 Nv2 Next2 Last2 Head2 W2 p2 pme12 pfree2 degme2] pj2] Q. rewrite Z.eqb_refl. cbn [negb]. cbn. split; [lia|]. intros _. exact Q.
      + pose proof (@construct_step (k - 1) _ ltac:(lia) I1) as G. cbv beta iota in G. replace (k - 1 + 1) with k in G by lia. replace (k + 1 - 1) with k by lia.
        assert (G' : wp _ (fun b => (k + 1 <= elenme + 1 -> cinv k b) /\ (k + 1 = elenme + 2 -> cfin b)) nerr) by (eapply wp_conseq; [exact G|]; intros b Q; split; [auto|lia]).
        unfold bind in G' |- *. destruct (get Iw' p) as [e| | |]; try exact G'. destruct (get Pe' e) as [pj| | |]; try exact G'. destruct (get Len' e) as [ln| | |]; exact G'.
Qed.
Lemma kinv_0 : 0 < elenme -> kinv 1 (mkB Iw Pe Len Nv1 Next Last Head W ps pfree pfree 0).
Proof.
  intros Hd. destruct me_facts as (F1 & F2 & F3 & F4 & F5 & F6 & F7). destruct HL as (LL1 & LL2 & LL3 & LL4 & LL5 & LL6 & LL7 & LL8 & LL9).
  split; [|lia]. intros _. unfold cinv. assert (P0 : forall x, lmd 0 x = false) by (intros x; unfold lmd; change (zseq 0 0) with (@nil Z); cbn [existsb]; apply Bool.andb_false_r). unfold Nv1 at 1. rewrite zlen_wr.
      change (1 - 1) with 0. rewrite !Z.sub_0_r, Z.sub_diag. split; [tauto|]. split; [lia|]. split; [exact RNG|]. split; [|split; [|split; [|split; [|split; [|split; [|split; [|split; [|split; [left; reflexivity|exact forest_me]]]]]]]]].
      + eapply lay_ext; [exact LAY|lia|]. intros x Hx P. destruct (Z.eqb_spec x me) as [->|]; [|auto]. fold ps lenme. destruct (Z.eqb_spec lenme 0); [lia|auto].
      + intros x Hx N. rewrite memb_0 by lia. split; [apply moved_refl|reflexivity].
      + split; [reflexivity|]. fold ps. split; [lia|]. split; [lia|]. intros k Hk. f_equal.
      + split; [|apply injs_0; lia]. intros x Hx. rewrite P0. apply memb_0. lia.
      + intros x Hx. rewrite P0. cbn [orb]. unfold Nv1. rewrite rd_wr by lia. destruct (Z.eqb_spec x me) as [->|]; reflexivity.
      + symmetry. apply sumz_zero. intros x _. rewrite P0. reflexivity.
      + eapply dlist_ext; [exact DL| | |]; auto. intros x. rewrite P0. tauto.
      + pose proof lsum_me. lia.
Qed.
Lemma construct_ok : 0 < elenme -> wp (a2_construct n me elenme Degree (mkB Iw Pe Len Nv1 Next Last Head W ps pfree pfree 0)) cfin nerr.
Proof.
  intros Hd. destruct HL as (LL1 & LL2 & LL3 & LL4 & LL5 & LL6 & LL7 & LL8 & LL9).
  unfold a2_construct. cbn [b_Len]. wg; [lia|]. fold lenme. eapply wp_conseq.
  { apply wp_for with (I := kinv); [lia|apply kinv_0; exact Hd|]. intros k b Hk I. apply cons1_ok; auto. }
  intros b (_ & X). apply X. reflexivity.
Qed.

(* what the loops over the lists meet *)
Lemma construct_gok d Iw' Pe' Len' Nv' Next' Last' Head' W' p pme1 pfree' degme : 0 <= d < elenme -> cinv d (mkB Iw' Pe' Len' Nv' Next' Last' Head' W' p pme1 pfree' degme) ->
  gok n me (rd Iw' p) (d + 1) (rd Len' (rd Iw' p)) Degree iwlen 0 (mkB Iw' Pe' Len' Nv' Next' Last' Head' W' (p + 1) pme1 pfree' degme, rd Pe' (rd Iw' p)).
Proof.
  intros Hd CI. destruct (@construct_ginv d _ _ _ _ _ _ _ _ _ _ _ _ Hd CI) as ((Hp & EE) & Re & Ne & Pe0 & Oe1 & Hle & Oe2 & SRC & SBX & GI).
  destruct CI as ((L1 & L2 & L3 & L4 & L5 & L6 & L7 & L8) & (B1 & B2) & RI & LA & OLD & (WM & PM & PP & CM) & (MS & JS) & NV & DG & DLx & SM & NC & FO').
  destruct me_facts as (F1 & F2 & F3 & F4 & F5 & F6 & F7). destruct HL as (LL1 & LL2 & LL3 & LL4 & LL5 & LL6 & LL7 & LL8 & LL9).
  rewrite EE, Oe2. set (e := rd Iw (ps + d)) in *. eapply Gok with (nz := nz) (ev := ev); [| | | | | | | | | | |exact GI]; [lia|exact Hme|exact Re|exact Hle|exact SRC|apply nv_lv|intros x Hx X; apply (@lmd_lv d x X)|exact LL8|lia|rewrite SBX; destruct (Z.eqb_spec e me); lia|lia].
Qed.
Lemma last_gok Iw' Pe' Len' Nv' Next' Last' Head' W' p pme1 pfree' degme : 0 < elenme -> cinv elenme (mkB Iw' Pe' Len' Nv' Next' Last' Head' W' p pme1 pfree' degme) ->
  gok n me me (elenme + 1) (lenme - elenme) Degree iwlen 0 (mkB Iw' Pe' Len' Nv' Next' Last' Head' W' p pme1 pfree' degme, p).
Proof.
  intros Hd CI. destruct (@last_ginv _ _ _ _ _ _ _ _ _ _ _ _ Hd CI) as (SRC & SL & SN & GI).
  destruct me_facts as (F1 & F2 & F3 & F4 & F5 & F6 & F7). destruct HL as (LL1 & LL2 & LL3 & LL4 & LL5 & LL6 & LL7 & LL8 & LL9).
  eapply Gok with (nz := nz) (ev := ev); [| | | | | | | | | | |exact GI]; [lia|exact Hme|exact Hme|lia|exact SRC|apply nv_lv|intros x Hx X; apply (@lmd_lv elenme x X)|exact LL8|intros X; contradiction|rewrite SL, Z.eqb_refl; lia|lia].
Qed.
End Pivot.
