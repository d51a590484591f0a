(* COLAMD, part 6: removal from the degree lists, set differences. *)
From Verif Require Import Base Det DetZ Spec MColamd PCol1 PCol2 PCol3 PCol5.
Set Implicit Arguments.
Open Scope Z_scope.
Set Bullet Behavior "Strict Subproofs".

Lemma list_remove_ok n act Co Cp Cn head rk c : dlist n act (rd Co) (rd Cn) (rd Cp) (rd head) rk -> act c ->
  zlen Co = n -> zlen Cp = n -> zlen Cn = n -> zlen head = n + 1 ->
  wp (list_remove c Co Cp Cn head) (fun '(Cp', Cn', head') => zlen Cp' = n /\ zlen Cn' = n /\ zlen head' = n + 1 /\
    dlist n (fun x => act x /\ x <> c) (rd Co) (rd Cn') (rd Cp') (rd head') rk) nerr.
Proof.
  intros D Hc L1 L2 L3 L4. destruct (dl_sc D Hc) as (Rc & Sc). unfold list_remove. wg; [lia|]. wg; [lia|]. wg; [lia|].
  assert (PVR : rd Cp c = EMPTY \/ 0 <= rd Cp c < n). { destruct (dl_pv D Hc) as [(E & _)|(A & _)]; [left; exact E|right; apply (dl_sc D A)]. }
  assert (NXR : rd Cn c = EMPTY \/ 0 <= rd Cn c < n). { destruct (dl_nx D Hc) as [E|(A & _)]; [left; exact E|right; apply (dl_sc D A)]. }
  assert (G : forall Cn' head' Cp', zlen Cp' = n -> zlen Cn' = n -> zlen head' = n + 1 ->
     (forall x, 0 <= x < n -> rd Cn' x = if x =? rd Cp c then rd Cn c else rd Cn x) -> (forall x, 0 <= x < n -> rd Cp' x = if x =? rd Cn c then rd Cp c else rd Cp x) ->
     (forall s, 0 <= s <= n -> rd head' s = if (rd Cp c =? EMPTY) && (s =? rd Co c) then rd Cn c else rd head s) ->
     zlen Cp' = n /\ zlen Cn' = n /\ zlen head' = n + 1 /\ dlist n (fun x => act x /\ x <> c) (rd Co) (rd Cn') (rd Cp') (rd head') rk).
  { intros Cn' head' Cp' Q1 Q2 Q3 Q4 Q5 Q6. repeat (split; [assumption|]). apply (@dl_remove n act (rd Co) (rd Cn) (rd Cp) (rd head) rk c); auto.
    - intros x. reflexivity.
    - intros x (Hx & _). apply Q4. apply (dl_sc D Hx).
    - intros x (Hx & _). apply Q5. apply (dl_sc D Hx). }
  destruct (Z.eqb_spec (rd Cp c) EMPTY) as [E|E].
  - apply wp_bind. apply wp_bind. apply wp_set; [lia|]. cbn [wp]. apply wp_bind. destruct (Z.eqb_spec (rd Cn c) EMPTY) as [E'|E']; cbn [negb].
    + cbn [wp]. apply G; auto; try (rewrite ?zlen_wr; lia).
      * intros x Hx. rewrite E. destruct (Z.eqb_spec x EMPTY); [unfold EMPTY in *; lia|reflexivity].
      * intros x Hx. rewrite E'. destruct (Z.eqb_spec x EMPTY); [unfold EMPTY in *; lia|reflexivity].
      * intros s Hs. cbn [andb]. destruct (Z.eqb_spec s (rd Co c)) as [->|]; [apply rd_wr_eq; lia|apply rd_wr_ne; lia].
    + apply wp_set; [lia|]. cbn [wp]. apply G; auto; try (rewrite ?zlen_wr; lia).
      * intros x Hx. rewrite E. destruct (Z.eqb_spec x EMPTY); [unfold EMPTY in *; lia|reflexivity].
      * intros x Hx. destruct (Z.eqb_spec x (rd Cn c)) as [->|]; [apply rd_wr_eq; lia|apply rd_wr_ne; lia].
      * intros s Hs. cbn [andb]. destruct (Z.eqb_spec s (rd Co c)) as [->|]; [apply rd_wr_eq; lia|apply rd_wr_ne; lia].
  - apply wp_bind. apply wp_bind. apply wp_set; [lia|]. cbn [wp]. apply wp_bind. destruct (Z.eqb_spec (rd Cn c) EMPTY) as [E'|E']; cbn [negb].
    + cbn [wp]. apply G; auto; try (rewrite ?zlen_wr; lia).
      * intros x Hx. destruct (Z.eqb_spec x (rd Cp c)) as [->|]; [apply rd_wr_eq; lia|apply rd_wr_ne; lia].
      * intros x Hx. rewrite E'. destruct (Z.eqb_spec x EMPTY); [unfold EMPTY in *; lia|reflexivity].
    + apply wp_set; [lia|]. cbn [wp]. apply G; auto; try (rewrite ?zlen_wr; lia).
      * intros x Hx. destruct (Z.eqb_spec x (rd Cp c)) as [->|]; [apply rd_wr_eq; lia|apply rd_wr_ne; lia].
      * intros x Hx. destruct (Z.eqb_spec x (rd Cn c)) as [->|]; [apply rd_wr_eq; lia|apply rd_wr_ne; lia].
Qed.

(* one column *)
Definition dstep (aggressive : bool) (tag t d mk : Z) : Z :=
  let sd := (if mk - tag <? 0 then d else mk - tag) - t in if (sd =? 0) && aggressive then -1 else sd + tag.

Lemma fo_diff_ok m aggressive tag s l t B Rd Rm : zlen Rd = Z.max m 1 -> zlen Rm = Z.max m 1 -> 0 <= l -> 0 <= s -> s + l <= zlen B -> injs B s l ->
  (forall j, s <= j < s + l -> 0 <= rd B j < m) ->
  wp (fo_diff aggressive tag s l t B Rd Rm) (fun Rm' => zlen Rm' = Z.max m 1 /\
    forall r, 0 <= r < m -> rd Rm' r = if memb B s l r && (0 <=? rd Rm r) then dstep aggressive tag t (rd Rd r) (rd Rm r) else rd Rm r) nerr.
Proof.
  intros L1 L2 Hl Hs Hb J R. unfold fo_diff. eapply wp_conseq.
  { apply wp_for with (I := fun cp Rm' => zlen Rm' = Z.max m 1 /\ forall r, 0 <= r < m -> rd Rm' r = if memb B s (cp - s) r && (0 <=? rd Rm r) then dstep aggressive tag t (rd Rd r) (rd Rm r) else rd Rm r); [lia| |].
    - split; [exact L2|]. intros r Hr. rewrite memb_0 by lia. reflexivity.
    - intros cp Rm' Hcp (L & K). specialize (R cp Hcp). wg; [lia|]. set (row := rd B cp) in *. wg; [lia|].
      assert (NM : memb B s (cp - s) row = false). { apply memb_false. intros j Hj E. assert (j = cp) by (apply J; [lia|lia|exact E]). lia. }
      assert (MX : forall r, memb B s (cp + 1 - s) r = memb B s (cp - s) r || (row =? r)). { intros r. replace (cp + 1 - s) with (cp - s + 1) by lia. rewrite memb_S by lia. replace (s + (cp - s)) with cp by lia. reflexivity. }
      rewrite (K row) by lia. rewrite NM. cbn [andb]. destruct (Z.ltb_spec (rd Rm row) 0) as [X|X].
      + cbn. split; [exact L|]. intros r Hr. rewrite MX. destruct (Z.eqb_spec row r) as [<-|]; [|rewrite Bool.orb_false_r; apply K; exact Hr].
        rewrite Bool.orb_true_r. rewrite (K row) by lia. rewrite NM. rewrite (proj2 (Z.leb_gt 0 (rd Rm row))) by lia. reflexivity.
      + assert (G : forall v, v = dstep aggressive tag t (rd Rd row) (rd Rm row) -> wp (set Rm' row v) (fun Rm' => zlen Rm' = Z.max m 1 /\ forall r, 0 <= r < m -> rd Rm' r = if memb B s (cp + 1 - s) r && (0 <=? rd Rm r) then dstep aggressive tag t (rd Rd r) (rd Rm r) else rd Rm r) nerr).
        { intros v Ev. apply wp_set; [lia|]. rewrite zlen_wr. split; [exact L|]. intros r Hr. rewrite MX. destruct (Z.eqb_spec row r) as [<-|].
          - rewrite Bool.orb_true_r. rewrite (proj2 (Z.leb_le 0 (rd Rm row))) by lia. cbn [andb]. rewrite rd_wr_eq by lia. exact Ev.
          - rewrite Bool.orb_false_r. rewrite rd_wr_ne by lia. apply K. exact Hr. }
        apply wp_bind. assert (E1 : (if rd Rm row - tag <? 0 then get Rd row else Ok (rd Rm row - tag)) = Ok (if rd Rm row - tag <? 0 then rd Rd row else rd Rm row - tag)).
        { destruct (rd Rm row - tag <? 0); [apply get_rd; lia|reflexivity]. }
        rewrite E1. cbn [wp]. unfold dstep in G. destruct (_ && aggressive); apply G; reflexivity. }
  intros Rm' (L & K). split; [exact L|]. intros r Hr. rewrite (K r Hr). replace (s + l - s) with l by lia. reflexivity.
Qed.

Section Diffs.
Variables (aggressive : bool) (m n cend pf q : Z) (A B Rs Rl Rd Rm Rm1 Cs Cl Co Ct0 : list Z) (p max_deg tag : Z) (rk : Z -> Z).
Hypothesis I : mem m n cend pf A Rs Rl Rm Cs Cl.
Hypothesis TH : forall c, 0 <= c < n -> 0 <= rd Cs c -> 1 <= rd Ct0 c.
Hypothesis Hp : 0 <= p < n.
Hypothesis Ap : 0 <= rd Cs p.
Let M := Mof A Cs Cl.
Let PRb := prb m A Cs Cl p.
Hypothesis N : num m n M (alv Cs) Rd Rm (rd Ct0) max_deg tag.
Hypothesis LB : zlen B = zlen A.
Hypothesis EB : forall j, 0 <= j < pf -> rd B j = rd A j.
Hypothesis Hq : pf <= q /\ q <= zlen A.
Hypothesis JB : injs B pf (q - pf).
Hypothesis RB : forall j, pf <= j < q -> 0 <= rd B j < n.
Hypothesis PB : forall c, 0 <= c < n -> memb B pf (q - pf) c = PRb c.
Hypothesis LRm1 : zlen Rm1 = Z.max m 1.
Hypothesis ERm1 : forall r, 0 <= r < m -> rd Rm1 r = if M p r then -1 else rd Rm r.

(* the columns of the pivot row before position i *)
Definition pre (i c : Z) : bool := memb B pf (i - pf) c.
Definition sd (i r : Z) : Z := wt n (fun c => pre i c && M c r) (rd Ct0).
Definition mark (i r : Z) : Z :=
  if rd Rm1 r <? 0 then rd Rm1 r else if sd i r =? 0 then rd Rm1 r else if (sd i r =? rd Rd r) && aggressive then -1 else tag + rd Rd r - sd i r.

Definition dinv (i : Z) (st : list Z * list Z * list Z * list Z * list Z) : Prop := let '(Rm', Ct, Cp, Cn, head) := st in
  zlen Rm' = Z.max m 1 /\ zlen Ct = n /\ zlen Cp = n /\ zlen Cn = n /\ zlen head = n + 1 /\
  (forall c, 0 <= c < n -> rd Ct c = if PRb c && negb (pre i c) then - rd Ct0 c else rd Ct0 c) /\
  (forall r, 0 <= r < m -> rd Rm' r = mark i r) /\
  dlist n (fun c => 0 <= c < n /\ 0 <= rd Cs c /\ c <> p /\ pre i c = false) (rd Co) (rd Cn) (rd Cp) (rd head) rk.

Lemma pre_pr i c : pf <= i <= q -> pre i c = true -> 0 <= c < n /\ PRb c = true.
Proof.
  intros Hi H. apply memb_spec in H. destruct H as (j & Hj & <-). assert (X : 0 <= rd B j < n) by (apply RB; lia). split; [exact X|]. rewrite <- PB by exact X. apply memb_at. lia.
Qed.
Lemma pr_al c : PRb c = true -> 0 <= rd Cs c /\ c <> p.
Proof. intros H. apply prb_spec in H. tauto. Qed.

Lemma sd_le i r : pf <= i <= q -> 0 <= r < m -> 0 <= rd Rm r -> 0 <= sd i r <= rd Rd r.
Proof.
  intros Hi Hr HR. destruct (nu_d N Hr HR) as (-> & _). split.
  - apply wt_nonneg. intros c Hc H. apply Bool.andb_true_iff in H. destruct H as (H & _). apply pre_pr in H; [|exact Hi]. destruct H as (_ & H). apply pr_al in H. pose proof (TH Hc). lia.
  - apply wt_le.
    + intros c Hc H. apply Bool.andb_true_iff in H. destruct H as (H & H'). apply pre_pr in H; [|exact Hi]. destruct H as (_ & H). apply pr_al in H. rewrite H'. rewrite (proj2 (alv_spec Cs c)) by lia. reflexivity.
    + intros c Hc H. apply Bool.andb_true_iff in H. destruct H as (H & H'). apply alv_spec in H. pose proof (TH Hc H). lia.
Qed.
Lemma sd_pos i r c : pf <= i <= q -> 0 <= c < n -> pre i c = true -> M c r = true -> rd Ct0 c <= sd i r.
Proof.
  intros Hi Hc H1 H2. apply wt_in; [|exact Hc|rewrite H1, H2; reflexivity].
  intros x Hx H. apply Bool.andb_true_iff in H. destruct H as (H & _). apply pre_pr in H; [|exact Hi]. destruct H as (_ & H). apply pr_al in H. pose proof (TH Hx). lia.
Qed.
Lemma pre_S i c : pf <= i -> pre (i + 1) c = pre i c || (rd B i =? c).
Proof. intros Hi. unfold pre. replace (i + 1 - pf) with (i - pf + 1) by lia. rewrite memb_S by lia. replace (pf + (i - pf)) with i by lia. reflexivity. Qed.
Lemma pre_new i : pf <= i < q -> pre i (rd B i) = false.
Proof. intros Hi. apply memb_false. intros j Hj E. assert (j = i) by (apply JB; [lia|lia|exact E]). lia. Qed.
Lemma sd_S i r : pf <= i < q -> sd (i + 1) r = sd i r + (if M (rd B i) r then rd Ct0 (rd B i) else 0).
Proof.
  intros Hi. unfold sd. destruct (M (rd B i) r) eqn:E.
  - apply wt_add; [apply RB; exact Hi|rewrite pre_new by exact Hi; reflexivity|]. intros x _. rewrite pre_S by lia. rewrite (Z.eqb_sym x). destruct (Z.eqb_spec (rd B i) x) as [<-|]; [rewrite E, !Bool.orb_true_r; reflexivity|rewrite !Bool.orb_false_r; reflexivity].
  - rewrite Z.add_0_r. apply wt_ext. intros x _. split; [|auto]. rewrite pre_S by lia. destruct (Z.eqb_spec (rd B i) x) as [<-|]; [rewrite E, !Bool.andb_false_r; reflexivity|rewrite Bool.orb_false_r; reflexivity].
Qed.

Lemma diffs_ok Ct Cp Cn head : zlen Ct = n -> zlen Co = n -> zlen Cp = n -> zlen Cn = n -> zlen head = n + 1 ->
  (forall c, 0 <= c < n -> rd Ct c = if PRb c then - rd Ct0 c else rd Ct0 c) ->
  dlist n (fun c => 0 <= c < n /\ 0 <= rd Cs c /\ c <> p) (rd Co) (rd Cn) (rd Cp) (rd head) rk ->
  wp (fo_diffs aggressive tag pf (q - pf) B Rd Cs Cl Co Rm1 Ct Cp Cn head) (dinv q) nerr.
Proof.
  intros L1 L2 L3 L4 L5 ECt D. destruct (me_b I) as (B1 & B2 & B3). pose proof (me_Cs I) as LCs. pose proof (me_Cl I) as LCl. pose proof (nu_Rd N) as LRd. pose proof (me_m I) as Hm.
  unfold fo_diffs. replace (pf + (q - pf)) with q by lia. apply wp_for with (I := dinv); [lia| |].
  - unfold dinv. repeat (split; [assumption|]). assert (P0 : forall c, pre pf c = false) by (intros c; apply memb_0; lia). split; [|split].
    + intros c Hc. rewrite P0, Bool.andb_true_r. apply ECt. exact Hc.
    + intros r Hr. unfold mark. assert (X : sd pf r = 0). { apply sumz_zero. intros c _. rewrite P0. reflexivity. } rewrite X. cbn. destruct (rd Rm1 r <? 0); reflexivity.
    + eapply dlist_ext; [exact D| |auto|auto]. intros c. cbv beta. rewrite P0. tauto.
  - intros i [[[[Rm' Ct'] Cp'] Cn'] head'] Hi (Q1 & Q2 & Q3 & Q4 & Q5 & QC & QR & QD). pose proof (RB Hi) as Rc. set (c := rd B i) in *.
    assert (PC : PRb c = true) by (unfold c; rewrite <- PB by exact Rc; apply memb_at; lia). pose proof (pr_al _ PC) as (Ac & Nc). pose proof (pre_new Hi) as PN. fold c in PN.
    destruct (me_c I Rc Ac) as (C1 & C2). pose proof (TH Rc Ac) as TC.
    assert (ES : forall j, rd Cs c <= j < rd Cs c + rd Cl c -> rd B j = rd A j) by (intros j Hj; apply EB; lia).
    wg; [lia|]. fold c. wg; [lia|]. ws; [lia|]. rewrite (QC c Rc), PC, PN. cbn [andb negb]. rewrite Z.opp_involutive.
    apply wp_bind. eapply wp_conseq; [apply (list_remove_ok c QD); auto|]. intros [[Cp'' Cn''] head''] (Z1 & Z2 & Z3 & ZD).
    wg; [lia|]. wg; [lia|]. apply wp_bind. eapply wp_conseq.
    { apply (@fo_diff_ok m aggressive tag (rd Cs c) (rd Cl c) (rd Ct0 c) B Rd Rm'); auto; try lia.
      - apply (@injs_ext A); [intros j Hj; symmetry; apply ES; exact Hj|apply (me_ci I Rc Ac)].
      - intros j Hj. rewrite ES by exact Hj. pose proof (me_cr I Rc Ac Hj). pose proof (me_pos I (j := j) ltac:(lia)). lia. }
    intros Rm'' (Y1 & Y2). cbn. rewrite zlen_wr. repeat (split; [assumption|]). split; [|split].
    + intros x Hx. rewrite pre_S by lia. fold c. destruct (Z.eq_dec x c) as [->|Ne].
      * rewrite rd_wr_eq by lia. rewrite Z.eqb_refl, Bool.orb_true_r. rewrite Bool.andb_false_r. reflexivity.
      * rewrite rd_wr_ne by lia. rewrite (proj2 (Z.eqb_neq c x)) by auto. rewrite Bool.orb_false_r. apply QC. exact Hx.
    + intros r Hr. rewrite (Y2 r Hr), (QR r Hr). rewrite (@memb_ext B A) by exact ES. change (memb A (rd Cs c) (rd Cl c) r) with (M c r).
      unfold mark. rewrite sd_S by exact Hi. fold c. destruct (Z.ltb_spec (rd Rm1 r) 0) as [X|X].
      * rewrite (proj2 (Z.leb_gt 0 (rd Rm1 r))) by lia. rewrite Bool.andb_false_r. reflexivity.
      * assert (HR : 0 <= rd Rm r). { rewrite (ERm1 Hr) in X. destruct (M p r); lia. } assert (ER : rd Rm1 r = rd Rm r). { rewrite (ERm1 Hr) in X |- *. destruct (M p r); [lia|reflexivity]. }
        pose proof (nu_m N Hr) as TG. pose proof (sd_le (i := i) (r := r) ltac:(lia) Hr HR) as SL. pose proof (sd_le (i := i + 1) (r := r) ltac:(lia) Hr HR) as SL'. rewrite sd_S in SL' by exact Hi. fold c in SL'.
        pose proof (nu_t N) as T1. destruct (M c r) eqn:Mc; [|rewrite Z.add_0_r; reflexivity]. cbn [andb].
        destruct (Z.eqb_spec (sd i r) 0) as [S0|S0].
        -- rewrite (proj2 (Z.leb_le 0 (rd Rm1 r))) by lia. unfold dstep. destruct (Z.ltb_spec (rd Rm1 r - tag) 0); [|lia]. rewrite S0. cbn [Z.add]. destruct (Z.eqb_spec (rd Ct0 c) 0); [lia|].
           destruct (Z.eqb_spec (rd Rd r - rd Ct0 c) 0), (Z.eqb_spec (rd Ct0 c) (rd Rd r)); try lia; destruct aggressive; cbn [andb]; lia.
        -- destruct (Z.eqb_spec (sd i r) (rd Rd r)) as [S1|S1]; [lia|]. cbn [andb]. rewrite (proj2 (Z.leb_le 0 (tag + rd Rd r - sd i r))) by lia. unfold dstep.
           destruct (Z.ltb_spec (tag + rd Rd r - sd i r - tag) 0); [lia|]. destruct (Z.eqb_spec (sd i r + rd Ct0 c) 0); [lia|].
           destruct (Z.eqb_spec (tag + rd Rd r - sd i r - tag - rd Ct0 c) 0), (Z.eqb_spec (sd i r + rd Ct0 c) (rd Rd r)); try lia; destruct aggressive; cbn [andb]; lia.
    + eapply dlist_ext; [exact ZD| |auto|auto]. intros x. cbv beta. rewrite pre_S by lia. fold c. rewrite Bool.orb_false_iff, Z.eqb_neq. split; [intros (? & ? & ? & ? & ?); auto|intros ((? & ? & ? & ?) & ?); auto].
Qed.

Lemma mark_nn i r : 0 <= mark i r -> 0 <= rd Rm1 r.
Proof. unfold mark. destruct (Z.ltb_spec (rd Rm1 r) 0); lia. Qed.
(* what the rest of the iteration needs to know about the marks *)
Lemma mark_facts Rm2 : (forall r, 0 <= r < m -> rd Rm2 r = mark q r) ->
  (forall r, 0 <= r < m -> 0 <= rd Rm2 r -> 0 <= rd Rm r /\ M p r = false /\ rd Rm2 r < tag + max_deg + 1) /\
  (forall r c, 0 <= r < m -> 0 <= c < n -> 0 <= rd Rm2 r -> PRb c = true -> M c r = true ->
     rd Rm2 r = tag + wt n (fun c' => alv Cs c' && M c' r && negb (PRb c')) (rd Ct0)) /\
  (forall r c, 0 <= r < m -> 0 <= c < n -> 0 <= rd Cs c -> c <> p -> PRb c = false -> M c r = true -> 0 <= rd Rm2 r).
Proof.
  intros H. assert (PQ : forall c, 0 <= c < n -> pre q c = PRb c) by (intros c Hc; apply PB; exact Hc). pose proof (nu_t N) as T1. split; [|split].
  - intros r Hr X. rewrite (H r Hr) in *. apply mark_nn in X as Y. unfold mark in *. destruct (Z.ltb_spec (rd Rm1 r) 0); [lia|]. rewrite (ERm1 Hr) in *. destruct (M p r); [lia|].
    split; [exact Y|]. split; [reflexivity|]. pose proof (sd_le (i := q) (r := r) ltac:(lia) Hr Y) as SL. pose proof (nu_m N Hr) as TG. destruct (nu_d N Hr Y) as (_ & DM). pose proof (nu_x N).
    destruct (sd q r =? 0); [lia|]. destruct (_ && _); lia.
  - intros r c Hr Hc X PC Mc. assert (Y : 0 <= rd Rm r /\ M p r = false /\ 0 <= rd Rm1 r).
    { rewrite (H r Hr) in X. apply mark_nn in X. rewrite (ERm1 Hr) in *. destruct (M p r); [lia|auto]. }
    destruct Y as (Y & Mp & Y1). pose proof (pr_al _ PC) as (Ac & _). pose proof (TH Hc Ac) as TC. rewrite <- (PQ c Hc) in PC. pose proof (@sd_pos q r c ltac:(lia) Hc PC Mc) as SP.
    rewrite (H r Hr) in *. revert X. unfold mark. destruct (Z.ltb_spec (rd Rm1 r) 0); [lia|]. destruct (Z.eqb_spec (sd q r) 0); [lia|]. destruct ((sd q r =? rd Rd r) && aggressive); [lia|]. intros _.
    destruct (nu_d N Hr Y) as (-> & _). rewrite (@wt_split n (fun c => alv Cs c && M c r) PRb). unfold sd.
    rewrite (@wt_ext n (fun c => pre q c && M c r) (fun c => alv Cs c && M c r && PRb c) (rd Ct0) (rd Ct0)); [lia|].
    intros x Hx. split; [|auto]. rewrite (PQ x Hx). destruct (PRb x) eqn:Px; [|rewrite Bool.andb_false_r; reflexivity]. apply pr_al in Px. rewrite (proj2 (alv_spec Cs x)) by tauto. destruct (M x r); reflexivity.
  - intros r c Hr Hc Ac Nc PC Mc. rewrite (H r Hr). unfold mark.
    assert (HR : 0 <= rd Rm r). { unfold M, Mof in Mc. apply memb_spec in Mc. destruct Mc as (j & Hj & <-). apply (me_cr I Hc Ac Hj). }
    assert (Mp : M p r = false). { destruct (M p r) eqn:X; [|reflexivity]. assert (PRb c = true); [|congruence]. apply prb_spec. split; [exact Ac|]. split; [exact Nc|]. exists r. auto. }
    rewrite (ERm1 Hr), Mp. destruct (Z.ltb_spec (rd Rm r) 0); [lia|]. destruct (sd q r =? 0); [exact HR|].
    pose proof (sd_le (i := q) (r := r) ltac:(lia) Hr HR) as SL. destruct (Z.eqb_spec (sd q r) (rd Rd r)) as [E|E]; [|cbn [andb]; lia]. exfalso.
    assert (X : sd q r + rd Ct0 c <= rd Rd r); [|pose proof (TH Hc Ac); lia]. destruct (nu_d N Hr HR) as (-> & _).
    unfold sd. rewrite <- (@wt_add n (fun c => pre q c && M c r) (fun x => (pre q x && M x r) || (x =? c)) (rd Ct0) c); [|exact Hc|rewrite (PQ c Hc), PC; reflexivity|auto].
    apply wt_le.
    + intros x Hx K. apply Bool.orb_true_iff in K. destruct K as [K|K].
      * apply Bool.andb_true_iff in K. destruct K as (K & K'). rewrite (PQ x Hx) in K. apply pr_al in K. rewrite K'. rewrite (proj2 (alv_spec Cs x)) by tauto. reflexivity.
      * apply Z.eqb_eq in K. subst x. rewrite Mc. rewrite (proj2 (alv_spec Cs c)) by exact Ac. reflexivity.
    + intros x Hx K. apply Bool.andb_true_iff in K. destruct K as (K & _). apply alv_spec in K. pose proof (TH Hx K). lia.
Qed.
End Diffs.
