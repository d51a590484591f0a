(* COLAMD, part 9: the columns of the pivot row get the new row, their scores and their places in the degree lists. *)
From Verif Require Import Base Det DetZ Spec MColamd PCol1 PCol2 PCol3.
Set Implicit Arguments.
Open Scope Z_scope.
Set Bullet Behavior "Strict Subproofs".

Lemma list_insert_ok n act Co Cp Cn head rk c s act' (sc' : Z -> Z) : dlist n act (rd Co) (rd Cn) (rd Cp) (rd head) rk -> ~ act c -> 0 <= c < n -> 0 <= s <= n ->
  zlen Cp = n -> zlen Cn = n -> zlen head = n + 1 -> (forall x, act' x <-> act x \/ x = c) -> sc' c = s -> (forall x, act x -> sc' x = rd Co x) ->
  wp (list_insert c s Cp Cn head) (fun '(Cp', Cn', head') => zlen Cp' = n /\ zlen Cn' = n /\ zlen head' = n + 1 /\
    exists rk', dlist n act' sc' (rd Cn') (rd Cp') (rd head') rk') nerr.
Proof.
  intros D NA Rc Rs L1 L2 L3 HA SC SX. unfold list_insert. wg; [lia|]. set (nx := rd head s). ws; [lia|]. ws; [lia|]. apply wp_bind.
  assert (NX : nx = EMPTY \/ (act nx /\ 0 <= nx < n)). { destruct (dl_hd D Rs) as [E|(A & _)]; [left; exact E|right]. split; [exact A|apply (dl_sc D A)]. }
  assert (G : forall Cp', zlen Cp' = n -> rd Cp' c = EMPTY -> (forall x, act x -> rd Cp' x = if x =? nx then c else rd Cp x) ->
    wp (let* head := set head s c in Ok (Cp', wr Cn c nx, head)) (fun '(Cp', Cn', head') => zlen Cp' = n /\ zlen Cn' = n /\ zlen head' = n + 1 /\
    exists rk', dlist n act' sc' (rd Cn') (rd Cp') (rd head') rk') nerr).
  { intros Cp' LC E1 E2. ws; [lia|]. cbn. rewrite !zlen_wr. split; [exact LC|]. split; [exact L2|]. split; [exact L3|].
    apply (@dl_insert n act (rd Co) (rd Cn) (rd Cp) (rd head) rk c act' sc'); auto; rewrite ?SC; auto.
    - apply rd_wr_eq. lia.
    - intros x Ax. destruct (dl_sc D Ax). apply rd_wr_ne; [lia|lia|]. intros ->. contradiction.
    - intros h Hh. destruct (Z.eqb_spec h s) as [->|N]; [apply rd_wr_eq; lia|apply rd_wr_ne; lia]. }
  destruct (Z.eqb_spec nx EMPTY) as [E|E]; cbn [negb].
  - cbn [wp]. apply G; [rewrite zlen_wr; exact L1|apply rd_wr_eq; lia|]. intros x Ax. destruct (dl_sc D Ax). rewrite rd_wr_ne; [|lia|lia|intros ->; contradiction].
    destruct (Z.eqb_spec x nx) as [X|]; [rewrite E in X; unfold EMPTY in X; lia|reflexivity].
  - destruct NX as [|(NX1 & NX2)]; [contradiction|]. assert (c <> nx) by (intros X; rewrite <- X in NX1; contradiction). apply wp_set; [rewrite zlen_wr; lia|]. apply G; [rewrite !zlen_wr; exact L1|rewrite rd_wr_ne by lia; apply rd_wr_eq; lia|].
    intros x Ax. destruct (dl_sc D Ax). destruct (Z.eqb_spec x nx) as [->|N]; [apply rd_wr_eq; rewrite zlen_wr; lia|]. rewrite !rd_wr_ne; try lia. intros ->. contradiction.
Qed.

Section Fin.
Variables (n k cend pf q : Z) (A6 Cl6 Co7 Cp7 Cn7 head7 Cs7 Ct7 : list Z) (PRb : Z -> bool) (prow dg mn : Z) (rk : Z -> Z).
Hypothesis Hn : 0 <= n.
Hypothesis HB : 0 <= cend /\ cend <= pf /\ pf <= q /\ q <= zlen A6.
Hypothesis JB : injs A6 pf (q - pf).
Hypothesis RB : forall j, pf <= j < q -> 0 <= rd A6 j < n.
Hypothesis PB : forall c, 0 <= c < n -> memb A6 pf (q - pf) c = PRb c.
Hypothesis LCl : zlen Cl6 = n.
Hypothesis LCo : zlen Co7 = n.
Hypothesis LCp : zlen Cp7 = n.
Hypothesis LCn : zlen Cn7 = n.
Hypothesis LH : zlen head7 = n + 1.
Hypothesis LCs : zlen Cs7 = n.
Hypothesis LCt : zlen Ct7 = n.
Hypothesis COL : forall c, 0 <= c < n -> 0 <= rd Cs7 c -> 0 <= rd Cl6 c /\ rd Cs7 c + rd Cl6 c + b2z (PRb c) <= cend.
Hypothesis ORD : forall c c', 0 <= c -> c < c' -> c' < n -> 0 <= rd Cs7 c -> 0 <= rd Cs7 c' -> rd Cs7 c + rd Cl6 c + b2z (PRb c) <= rd Cs7 c'.
Hypothesis SC : forall c, 0 <= c < n -> 0 <= rd Cs7 c -> PRb c = true -> 0 <= rd Co7 c /\ 0 <= rd Ct7 c <= dg /\ 0 <= n - k - rd Ct7 c /\ 0 <= prow.
Hypothesis Hk : 0 <= k.
Hypothesis D0 : dlist n (fun c => 0 <= c < n /\ 0 <= rd Cs7 c /\ PRb c = false) (rd Co7) (rd Cn7) (rd Cp7) (rd head7) rk.
Hypothesis MN : 0 <= mn <= n /\ forall c, 0 <= c < n -> 0 <= rd Cs7 c -> PRb c = false -> mn <= rd Co7 c.
Hypothesis POS : forall j, 0 <= j < pf -> 0 <= rd A6 j.

Definition pre9 (i c : Z) : bool := memb A6 pf (i - pf) c.
Definition cur (c : Z) : Z := Z.min (rd Co7 c + dg - rd Ct7 c) (n - k - rd Ct7 c).

Definition finv (i : Z) (st : list Z * list Z * list Z * list Z * list Z * list Z * Z * Z) : Prop := let '(A, Cl, Co, Cp, Cn, head, mn', w) := st in
  (zlen A = zlen A6 /\ zlen Cl = n /\ zlen Co = n /\ zlen Cp = n /\ zlen Cn = n /\ zlen head = n + 1) /\ pf <= w <= i /\
  (forall j, cend <= j < zlen A6 -> j < pf \/ i <= j -> rd A j = rd A6 j) /\ (forall j, 0 <= j < pf -> 0 <= rd A j) /\ (forall j, pf <= j < q -> 0 <= rd A j < n) /\
  injs A pf (w - pf) /\ (forall c, 0 <= c < n -> memb A pf (w - pf) c = pre9 i c && alv Cs7 c) /\
  (forall c, 0 <= c < n -> 0 <= rd Cs7 c -> rd Cl c = rd Cl6 c + b2z (pre9 i c) /\ (forall j, rd Cs7 c <= j < rd Cs7 c + rd Cl6 c -> rd A j = rd A6 j) /\
     (pre9 i c = true -> rd A (rd Cs7 c + rd Cl6 c) = prow)) /\
  (forall c, 0 <= c < n -> rd Co c = if pre9 i c && alv Cs7 c then cur c else rd Co7 c) /\
  (exists rk', dlist n (fun c => 0 <= c < n /\ 0 <= rd Cs7 c /\ (PRb c = false \/ pre9 i c = true)) (rd Co) (rd Cn) (rd Cp) (rd head) rk') /\
  0 <= mn' <= n /\ (forall c, 0 <= c < n -> 0 <= rd Cs7 c -> PRb c = false \/ pre9 i c = true -> mn' <= rd Co c).

Lemma pre9_S i c : pf <= i -> pre9 (i + 1) c = pre9 i c || (rd A6 i =? c).
Proof. intros Hi. unfold pre9. replace (i + 1 - pf) with (i - pf + 1) by lia. rewrite memb_S by lia. replace (pf + (i - pf)) with i by lia. reflexivity. Qed.
Lemma pre9_new i : pf <= i < q -> pre9 i (rd A6 i) = false.
Proof. intros Hi. apply memb_false. intros j Hj E. assert (j = i) by (apply JB; [lia|lia|exact E]). lia. Qed.
Lemma pre9_pr i c : pf <= i <= q -> pre9 i c = true -> PRb c = true.
Proof.
  intros Hi H. apply memb_spec in H. destruct H as (j & Hj & <-). rewrite <- PB by (apply RB; lia). apply memb_at. lia.
Qed.
Lemma b2z01 b : 0 <= b2z b <= 1. Proof. destruct b; cbn; lia. Qed.

Lemma final_ok : wp (fo_final n k prow dg pf (q - pf) Cs7 Ct7 A6 Cl6 Co7 Cp7 Cn7 head7 mn) (finv q) nerr.
Proof.
  unfold fo_final. replace (pf + (q - pf)) with q by lia. apply wp_for with (I := finv); [lia| |].
  - assert (P0 : forall c, pre9 pf c = false) by (intros c; apply memb_0; lia). unfold finv. split; [auto 10|]. split; [lia|]. split; [auto|]. split; [exact POS|]. split; [exact RB|]. split; [rewrite Z.sub_diag; apply injs_0|].
    split; [intros c _; rewrite P0, memb_0 by lia; reflexivity|]. split; [|split; [|split; [|split; [apply MN|]]]].
    + intros c Hc Ac. rewrite P0. split; [cbn; lia|]. split; [auto|discriminate].
    + intros c _. rewrite P0. reflexivity.
    + exists rk. eapply dlist_ext; [exact D0| |auto|auto]. intros c. cbv beta. rewrite P0. intuition discriminate.
    + intros c Hc Ac [X|X]; [apply MN; auto|rewrite P0 in X; discriminate].
  - intros i [[[[[[[A Cl] Co] Cp] Cn] head] mn'] w] Hi ((L1 & L2 & L3 & L4 & L5 & L6) & Hw & Q1 & Q2 & Q3 & Q4 & Q5 & Q6 & Q7 & (rk' & Q8) & Q9 & Q10).
    pose proof (RB Hi) as Rc. pose proof (pre9_new Hi) as PN. wg; [lia|]. rewrite Q1 by lia. set (c := rd A6 i) in *.
    assert (PC : PRb c = true) by (unfold c; rewrite <- PB by exact Rc; apply memb_at; lia).
    assert (PS : forall x, pre9 (i + 1) x = if x =? c then true else pre9 i x).
    { intros x. rewrite pre9_S by lia. fold c. rewrite (Z.eqb_sym x). destruct (c =? x); [apply Bool.orb_true_r|apply Bool.orb_false_r]. }
    wg; [lia|]. destruct (Z.ltb_spec (rd Cs7 c) 0) as [Dc|Dc].
    + cbn. split; [auto 10|]. split; [lia|]. split; [intros j Hj X; apply Q1; [exact Hj|lia]|]. split; [exact Q2|]. split; [exact Q3|]. split; [exact Q4|].
      assert (AF : alv Cs7 c = false) by (apply alv_false; exact Dc). split; [|split; [|split; [|split; [|split; [exact Q9|]]]]].
      * intros x Hx. rewrite PS. destruct (Z.eqb_spec x c) as [->|]; [|apply Q5; exact Hx]. rewrite Q5, PN, AF by exact Rc. reflexivity.
      * intros x Hx Ax. rewrite PS. destruct (Z.eqb_spec x c) as [->|]; [lia|]. apply Q6; auto.
      * intros x Hx. rewrite PS. destruct (Z.eqb_spec x c) as [->|]; [|apply Q7; exact Hx]. rewrite Q7, PN, AF by exact Rc. reflexivity.
      * exists rk'. eapply dlist_ext; [exact Q8| |auto|auto]. intros x. cbv beta. rewrite PS. destruct (Z.eqb_spec x c) as [->|]; [|tauto]. rewrite PN. split; [|tauto]. intros (_ & X & _). lia.
      * intros x Hx Ax. rewrite PS. destruct (Z.eqb_spec x c) as [->|]; [lia|]. apply Q10; auto.
    + assert (AT : alv Cs7 c = true) by (apply alv_spec; exact Dc). destruct (COL Rc Dc) as (C1 & C2). rewrite PC in C2. cbn [b2z] in C2. destruct (SC Rc Dc PC) as (S1 & S2 & S3 & S4).
      destruct (Q6 c Rc Dc) as (E1 & E2 & _). rewrite PN in E1. cbn [b2z] in E1. rewrite Z.add_0_r in E1.
      ws; [lia|]. wg; [lia|]. rewrite E1. ws; [rewrite zlen_wr; lia|]. ws; [lia|]. wg; [lia|]. wg; [lia|]. rewrite (Q7 c Rc), PN. cbn [andb]. fold (cur c). ws; [lia|].
      assert (CU : 0 <= cur c <= n) by (unfold cur; lia).
      assert (OUT : forall j, 0 <= j -> j <> w -> j <> rd Cs7 c + rd Cl6 c -> rd (wr (wr A w c) (rd Cs7 c + rd Cl6 c) prow) j = rd A j) by (intros j Hj N1 N2; rewrite !rd_wr_ne by lia; reflexivity).
      assert (NA : ~ (0 <= c < n /\ 0 <= rd Cs7 c /\ (PRb c = false \/ pre9 i c = true))) by (intros (_ & _ & [X|X]); congruence).
      apply wp_bind. eapply wp_conseq.
      { apply (@list_insert_ok n _ Co Cp Cn head rk' c (cur c) (fun x => 0 <= x < n /\ 0 <= rd Cs7 x /\ (PRb x = false \/ pre9 (i + 1) x = true)) (rd (wr Co c (cur c))) Q8 NA Rc CU L4 L5 L6).
        - intros x. cbv beta. rewrite PS. destruct (Z.eqb_spec x c) as [->|N]; [tauto|]. tauto.
        - apply rd_wr_eq. lia.
        - intros x (Hx & _ & X). apply rd_wr_ne; [lia|lia|]. intros <-. destruct X; congruence. }
      intros [[Cp' Cn'] head'] (Z1 & Z2 & Z3 & D'). cbn. rewrite !zlen_wr. split; [auto 10|]. split; [lia|].
      split; [intros j Hj X; rewrite OUT by lia; apply Q1; lia|].
      split; [intros j Hj; destruct (Z.eq_dec j (rd Cs7 c + rd Cl6 c)) as [->|]; [rewrite rd_wr_eq by (rewrite zlen_wr; lia); lia|rewrite OUT by lia; apply Q2; exact Hj]|].
      split; [intros j Hj; rewrite rd_wr_ne by lia; destruct (Z.eq_dec j w) as [->|]; [rewrite rd_wr_eq by lia; lia|rewrite rd_wr_ne by lia; apply Q3; exact Hj]|].
      assert (SEG : forall j, pf <= j < w -> rd (wr (wr A w c) (rd Cs7 c + rd Cl6 c) prow) j = rd A j) by (intros j Hj; apply OUT; lia).
      assert (LST : rd (wr (wr A w c) (rd Cs7 c + rd Cl6 c) prow) w = c) by (rewrite rd_wr_ne by lia; apply rd_wr_eq; lia).
      assert (MW : forall x, memb (wr (wr A w c) (rd Cs7 c + rd Cl6 c) prow) pf (w - pf) x = memb A pf (w - pf) x) by (intros x; apply memb_ext; intros j Hj; apply SEG; lia).
      replace (w + 1 - pf) with (w - pf + 1) by lia. split; [|split; [|split; [|split; [|split; [|split]]]]].
      * apply injs_S; [lia|]. replace (pf + (w - pf)) with w by lia. rewrite LST. split.
        -- apply (@injs_ext A); [intros j Hj; symmetry; apply SEG; lia|exact Q4].
        -- rewrite MW, Q5, PN by exact Rc. reflexivity.
      * intros x Hx. rewrite memb_S by lia. replace (pf + (w - pf)) with w by lia. rewrite LST, MW, Q5, PS by exact Hx. destruct (Z.eqb_spec c x) as [<-|N].
        -- rewrite Z.eqb_refl, Bool.orb_true_r, AT. reflexivity.
        -- rewrite (proj2 (Z.eqb_neq x c)) by auto. apply Bool.orb_false_r.
      * intros x Hx Ax. rewrite PS. destruct (Z.eqb_spec x c) as [->|N].
        -- rewrite rd_wr_eq by lia. split; [reflexivity|]. split; [intros j Hj; rewrite OUT by lia; apply E2; exact Hj|]. intros _. apply rd_wr_eq. rewrite zlen_wr. lia.
        -- rewrite rd_wr_ne by lia. destruct (Q6 x Hx Ax) as (X1 & X2 & X3). split; [exact X1|]. destruct (COL Hx Ax) as (X4 & X5). pose proof (b2z01 (PRb x)) as X6.
           assert (DJ : forall j, rd Cs7 x <= j < rd Cs7 x + rd Cl6 x + b2z (PRb x) -> j <> rd Cs7 c + rd Cl6 c).
           { intros j Hj. destruct (Z_lt_le_dec x c) as [O|O]; [pose proof (ORD (c := x) (c' := c))|pose proof (ORD (c := c) (c' := x)) as X; rewrite PC in X; cbn [b2z] in X]; lia. }
           split.
           ++ intros j Hj. rewrite OUT by (try apply DJ; lia). apply X2. exact Hj.
           ++ intros Px. pose proof (@pre9_pr i x ltac:(lia) Px) as Px'. rewrite Px' in *. cbn [b2z] in *. rewrite OUT by (try apply DJ; lia). apply X3. exact Px.
      * intros x Hx. rewrite PS. destruct (Z.eqb_spec x c) as [->|N]; [rewrite AT; apply rd_wr_eq; lia|]. rewrite rd_wr_ne by lia. apply Q7. exact Hx.
      * exact D'.
      * lia.
      * intros x Hx Ax. rewrite PS. destruct (Z.eqb_spec x c) as [->|N]; [intros _; rewrite rd_wr_eq by lia; lia|]. intros X. rewrite rd_wr_ne by lia. pose proof (Q10 x Hx Ax X). lia.
Qed.
End Fin.

(* clear_mark *)
Lemma clear_mark_ok m tag mx Rm : zlen Rm = Z.max m 1 -> 0 <= m -> (1 <= tag -> forall r, 0 <= r < m -> rd Rm r < tag) ->
  wp (clear_mark tag mx m Rm) (fun '(tag', Rm') => 1 <= tag' /\ zlen Rm' = Z.max m 1 /\ forall r, 0 <= r < m -> rd Rm' r < tag' /\ (0 <= rd Rm' r <-> 0 <= rd Rm r)) nerr.
Proof.
  intros L Hm H. unfold clear_mark. destruct ((tag <=? 0) || (tag >=? mx)) eqn:E.
  - apply wp_bind. eapply wp_conseq.
    { apply wp_for with (I := fun i Rm' => zlen Rm' = Z.max m 1 /\ forall r, 0 <= r < m -> rd Rm' r = if (r <? i) && (0 <=? rd Rm r) then 0 else rd Rm r); [lia| |].
      - split; [exact L|]. intros r Hr. destruct (Z.ltb_spec r 0); [lia|]. reflexivity.
      - intros i Rm' Hi (L' & K). wg; [lia|]. assert (Ki : rd Rm' i = rd Rm i) by (rewrite (K i Hi); destruct (Z.ltb_spec i i); [lia|reflexivity]). rewrite Ki.
        assert (ST : forall r, 0 <= r < m -> r <> i -> (r <? i + 1) = (r <? i)). { intros r Hr N. destruct (Z.ltb_spec r i), (Z.ltb_spec r (i + 1)); lia || reflexivity. }
        assert (SI : (i <? i + 1) = true) by (apply Z.ltb_lt; lia).
        destruct (Z.geb_spec (rd Rm i) 0) as [X|X].
        + apply wp_set; [lia|]. rewrite zlen_wr. split; [exact L'|]. intros r Hr. destruct (Z.eq_dec r i) as [->|N].
          * rewrite rd_wr_eq by lia. rewrite SI. rewrite (proj2 (Z.leb_le 0 (rd Rm i))) by lia. reflexivity.
          * rewrite rd_wr_ne by lia. rewrite (ST r Hr N). apply K. exact Hr.
        + cbn. split; [exact L'|]. intros r Hr. destruct (Z.eq_dec r i) as [->|N].
          * rewrite SI. rewrite (proj2 (Z.leb_gt 0 (rd Rm i))) by lia. exact Ki.
          * rewrite (ST r Hr N). apply K. exact Hr. }
    intros Rm' (L' & K). cbn. split; [lia|]. split; [exact L'|]. intros r Hr. rewrite (K r Hr). rewrite (proj2 (Z.ltb_lt r m)) by lia. cbn [andb]. destruct (Z.leb_spec 0 (rd Rm r)); lia.
  - apply Bool.orb_false_iff in E. destruct E as (E & _). apply Z.leb_gt in E. cbn. split; [lia|]. split; [exact L|]. intros r Hr. split; [apply H; lia|tauto].
Qed.
