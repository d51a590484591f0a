(* Two runs of COLAMD that differ only in the contents of uninitialised memory, in lockstep: the main loop. *)
From Verif Require Import Base Det DetZ Spec MColamd PCol1 PCol2 PCol3 PCol4 PCol5 PCol6 PCol7 PCol8 PCol9 PCol10 PCol11 PCol12 MUninit PUninit.
Set Implicit Arguments.
Open Scope Z_scope.
Set Bullet Behavior "Strict Subproofs".

Lemma get_inv (l : list Z) i v : get l i = Ok v -> 0 <= i < zlen l /\ v = rd l i.
Proof. intros H. destruct (get_ok_inv _ _ H) as (R & _). rewrite get_rd in H by exact R. split; congruence. Qed.
Lemma set_inv (l l' : list Z) i v : set l i v = Ok l' -> 0 <= i < zlen l /\ l' = wr l i v.
Proof.
  intros H. destruct (Z_lt_le_dec i 0) as [X|X]; [rewrite set_out in H by lia; discriminate|]. destruct (Z_lt_le_dec i (zlen l)) as [Y|Y]; [|rewrite set_out in H by lia; discriminate].
  rewrite set_wr in H by lia. split; [lia|congruence].
Qed.
Lemma sim_wp A B (R : A -> B -> Prop) m m' Q E : sim R m m' -> wp m Q E -> sim (fun a b => Q a /\ R a b) m m'.
Proof. destruct m, m'; cbn; auto. Qed.
Lemma sim_dloop S T cnt hi (f : Z -> S -> res S) (g : Z -> T -> res T) (R : Z -> S -> T -> Prop) s t :
  R (hi + 1) s t -> (forall k s t, hi - Z.of_nat cnt < k <= hi -> R (k + 1) s t -> sim (R k) (f k s) (g k t)) -> sim (R (hi + 1 - Z.of_nat cnt)) (dloop cnt hi f s) (dloop cnt hi g t).
Proof.
  revert hi s t. induction cnt as [|cnt IH]; intros hi s t H K; [cbn; replace (hi + 1 - 0) with (hi + 1) by lia; exact H|]. cbn [dloop]. eapply sim_bind; [apply K; [lia|exact H]|]. intros a b Hab. cbv beta in Hab.
  replace (hi + 1 - Z.of_nat (Datatypes.S cnt)) with (hi - 1 + 1 - Z.of_nat cnt) by lia. apply IH; [replace (hi - 1 + 1) with hi by lia; exact Hab|]. intros k s' t' Hk. apply K. lia.
Qed.
Lemma sim_down S T hi lo (f : Z -> S -> res S) (g : Z -> T -> res T) (R : Z -> S -> T -> Prop) s t :
  lo <= hi -> R hi s t -> (forall k s t, lo <= k < hi -> R (k + 1) s t -> sim (R k) (f k s) (g k t)) -> sim (R lo) (down_ hi lo f s) (down_ hi lo g t).
Proof.
  intros L H K. unfold down_. replace lo with (hi - 1 + 1 - Z.of_nat (Z.to_nat (hi - lo))) at 1 by lia. apply sim_dloop; [replace (hi - 1 + 1) with hi by lia; exact H|]. intros k s' t' Hk. apply K. lia.
Qed.

Notation Low q := (agree (fun i => i < q)).
Lemma low_sub q q' A A' : Low q A A' -> q' <= q -> Low q' A A'.
Proof. intros H L. eapply agree_sub; [exact H|]. cbv beta. intros. lia. Qed.
Lemma low_set q A A' i v : Low q A A' -> sim (fun B B' => B = wr A i v /\ 0 <= i < zlen A /\ Low q B B' /\ (q = i -> Low (q + 1) B B')) (set A i v) (set A' i v).
Proof.
  intros H. pose proof (agree_set i v H) as S. destruct (set A i v) as [B|e| |] eqn:E; cbn [sim] in *; auto. destruct (set A' i v) as [B'|e'| |]; try contradiction. destruct (set_inv _ _ _ E) as (R & ->).
  split; [reflexivity|]. split; [exact R|]. split; [eapply agree_sub; [exact S|]; cbv beta; intros; auto|]. intros <-. eapply agree_sub; [exact S|]. cbv beta. intros. lia.
Qed.
Lemma low_get q A A' i : Low q A A' -> i < q -> get A i = get A' i.
Proof. intros H L. apply (@agree_get _ _ _ i H). exact L. Qed.

(* columns of nonnegative start end before q *)
Definition cols (q : Z) (Cs Cl : list Z) : Prop := forall c, 0 <= c < zlen Cs -> 0 <= rd Cs c -> 0 <= rd Cl c /\ rd Cs c + rd Cl c <= q.
Definition rows (q : Z) (Rs Rl Rm : list Z) : Prop := forall r, 0 <= r < zlen Rl -> 0 <= rd Rm r -> 0 <= rd Rl r /\ rd Rs r + rd Rl r <= q.
Lemma mem_cols m n cend pf A Rs Rl Rm Cs Cl : mem m n cend pf A Rs Rl Rm Cs Cl -> cols pf Cs Cl.
Proof. intros I c Hc Hs. rewrite (me_Cs I) in Hc. pose proof (me_c I Hc Hs). destruct (me_b I) as (_ & X & _). lia. Qed.
Lemma mem_rows m n cend pf A Rs Rl Rm Cs Cl : mem m n cend pf A Rs Rl Rm Cs Cl -> rows pf Rs Rl Rm.
Proof. intros I r Hr Hs. rewrite (me_Rl I) in Hr. pose proof (me_r I Hr Hs). lia. Qed.
Lemma cols_le q q' Cs Cl : cols q Cs Cl -> q <= q' -> cols q' Cs Cl.
Proof. intros H L c Hc Hs. specialize (H c Hc Hs). lia. Qed.

(* garbage collection *)
Definition R4 (q : Z) (st st' : list Z * list Z * list Z * Z) : Prop :=
  let '(A, Cs, Cl, pd) := st in let '(A', Cs', Cl', pd') := st' in Low q A A' /\ Cs = Cs' /\ Cl = Cl' /\ pd = pd'.
Lemma gc_cols_sim q n Rm A A' Cs Cl : Low q A A' -> cols q Cs Cl -> zlen Cs = n -> zlen Cl = n -> sim (R4 q) (gc_cols n Rm A Cs Cl) (gc_cols n Rm A' Cs Cl).
Proof.
  intros L J LC LL. unfold gc_cols. eapply sim_conseq; [apply (@sim_for _ _ 0 n _ _ (fun i st st' => R4 q st st' /\ let '(_, Cs1, Cl1, _) := st in zlen Cs1 = n /\ zlen Cl1 = n /\ forall c, i <= c < n -> rd Cs1 c = rd Cs c /\ rd Cl1 c = rd Cl c))|].
  - cbn [sim fst snd R4 bind]. auto 10.
  - intros c [[[B Cs1] Cl1] pd] [[[B' Cs1'] Cl1'] pd'] Hc ((LB & <- & <- & <-) & L1 & L2 & E). destruct (E c ltac:(lia)) as (E1 & E2).
    apply sim_same. intros s Gs. apply get_inv in Gs. destruct Gs as (_ & ->). destruct (Z.geb_spec (rd Cs1 c) 0) as [S|S].
    + apply sim_same. intros Cs2 G2. apply set_inv in G2. destruct G2 as (_ & ->). apply sim_same. intros l Gl. apply get_inv in Gl. destruct Gl as (_ & ->). destruct (J c ltac:(lia) ltac:(lia)) as (J1 & J2).
      eapply sim_bind; [apply (@sim_for _ _ 0 (rd Cl1 c) _ _ (fun j st st' => Low q (fst st) (fst st') /\ snd st = snd st'))|].
      * cbn [sim fst snd R4 bind]. auto.
      * intros j [D w] [D' w'] Hj (LD & W). cbn [fst snd] in *. subst w'. rewrite <- (@low_get q D D' _ LD) by lia. apply sim_same. intros r _. apply sim_same. intros m _. destruct (m >=? 0); [|cbn [sim fst snd R4 bind]; auto].
        eapply sim_bind; [apply (low_set w r LD)|]. intros F F' (_ & _ & LF & _). cbn [sim fst snd R4 bind]. auto.
      * intros [D w] [D' w'] (LD & W). cbn [fst snd] in *. subst w'. apply sim_same. intros Cl2 G3. apply set_inv in G3. destruct G3 as (_ & ->). cbn [sim fst snd R4 bind]. rewrite !zlen_wr. split; [auto|]. split; [exact L1|]. split; [exact L2|].
        intros c' Hc'. rewrite !rd_wr_ne by lia. apply E. lia.
    + cbn [sim fst snd R4 bind]. split; [auto|]. split; [exact L1|]. split; [exact L2|]. intros c' Hc'. apply E. lia.
  - intros [[[B Cs1] Cl1] pd] [[[B' Cs1'] Cl1'] pd'] (H & _). exact H.
Qed.
Lemma gc_mark_sim q m Rs Rl Rm A A' : Low q A A' -> rows q Rs Rl Rm -> zlen Rl = m ->
  sim (fun st st' => Low q (fst st) (fst st') /\ snd st = snd st') (gc_mark_rows m Rs Rl A Rm) (gc_mark_rows m Rs Rl A' Rm).
Proof.
  intros L J LR. unfold gc_mark_rows. eapply sim_conseq; [apply (@sim_for _ _ 0 m _ _ (fun i st st' => Low q (fst st) (fst st') /\ snd st = snd st' /\ forall r, i <= r < m -> rd (snd st) r = rd Rm r))|].
  - cbn [sim fst snd R4 bind]. auto.
  - intros r [B Rm1] [B' Rm1'] Hr (LB & E & K). cbn [fst snd] in *. subst Rm1'. apply sim_same. intros v Gv. apply get_inv in Gv. destruct Gv as (Rr & ->). apply sim_same. intros l Gl. apply get_inv in Gl. destruct Gl as (_ & ->).
    destruct ((rd Rm1 r <? 0) || (rd Rl r =? 0)) eqn:T.
    + apply sim_same. intros Rm2 G2. apply set_inv in G2. destruct G2 as (_ & ->). cbn [sim fst snd R4 bind]. split; [exact LB|]. split; [reflexivity|]. intros r' Hr'. rewrite rd_wr_ne by lia. apply K. lia.
    + apply orb_false_iff in T. destruct T as (T1 & T2). apply Z.ltb_ge in T1. apply Z.eqb_neq in T2. rewrite K in T1 by lia. destruct (J r ltac:(lia) T1) as (J1 & J2).
      apply sim_same. intros s Gs. apply get_inv in Gs. destruct Gs as (_ & ->). rewrite <- (@low_get q B B' _ LB) by lia. apply sim_same. intros f _. apply sim_same. intros Rm2 G2. apply set_inv in G2. destruct G2 as (_ & ->).
      eapply sim_bind; [apply (low_set (rd Rs r) (- r - 1) LB)|]. intros F F' (_ & _ & LF & _). cbn [sim fst snd R4 bind]. split; [exact LF|]. split; [reflexivity|]. intros r' Hr'. rewrite rd_wr_ne by lia. apply K. lia.
  - intros st st' (H1 & H2 & _). auto.
Qed.
(* a negative cell i marks the start of a row that ends before q *)
Definition marks (q psrc : Z) (B Rl Rm : list Z) : Prop := forall i, psrc <= i < q -> 0 <= i -> rd B i < 0 -> let r := - rd B i - 1 in 0 <= rd Rl r /\ i + rd Rl r <= q /\ 0 <= rd Rm r.
Lemma gc_rows_sim q Rm Cs : forall fuel psrc A A' Rs Rl pd, Low q A A' -> q <= zlen A -> marks q psrc A Rl Rm -> 0 <= psrc -> sim (R4 q) (gc_rows fuel psrc q Rm Cs A Rs Rl pd) (gc_rows fuel psrc q Rm Cs A' Rs Rl pd).
Proof.
  induction fuel as [|fuel IH]; intros psrc A A' Rs Rl pd L LA MK P0; cbn [gc_rows]; (destruct (Z.ltb_spec psrc q) as [X|X]; [|cbn [sim fst snd R4 bind]; auto]); [exact I|].
  rewrite <- (@low_get q A A' _ L) by lia. apply sim_same. intros v Gv. apply get_inv in Gv. destruct Gv as (Rv & ->). destruct (Z.ltb_spec (rd A psrc) 0) as [Y|Y].
  - cbv zeta. destruct (MK psrc ltac:(lia) ltac:(lia) Y) as (M1 & M2 & M3). set (r := - rd A psrc - 1) in *. apply sim_same. intros f Gf. apply get_inv in Gf. destruct Gf as (_ & ->).
    eapply sim_bind; [apply (low_set psrc (rd Rm r) L)|]. intros B B' (EB & _ & LB & _). apply sim_same. intros Rs1 _. apply sim_same. intros l Gl. apply get_inv in Gl. destruct Gl as (Rr & ->).
    assert (NB : forall i, 0 <= i < zlen A -> rd B i < 0 -> rd B i = rd A i /\ i <> psrc). { intros i Hi N. subst B. destruct (Z.eq_dec i psrc) as [->|Ne]; [rewrite rd_wr_eq in N by lia; lia|]. rewrite rd_wr_ne by lia. auto. }
    assert (ZB : zlen B = zlen A) by (subst B; apply zlen_wr).
    eapply sim_bind; [apply (@sim_for _ _ 0 (rd Rl r) _ _ (fun j st st' => Low q (fst st) (fst st') /\ snd st = snd st' /\ pd <= snd st <= pd + j /\ zlen (fst st) = zlen A /\ forall i, 0 <= i < zlen A -> rd (fst st) i < 0 -> rd (fst st) i = rd A i /\ i <> psrc))|].
    + cbn [sim fst snd R4 bind]. split; [exact LB|]. split; [reflexivity|]. split; [lia|]. split; [exact ZB|exact NB].
    + intros j [D w] [D' w'] Hj (LD & W & Hw & ZD & ND). cbn [fst snd] in *. subst w'. rewrite <- (@low_get q D D' _ LD) by lia. apply sim_same. intros c _. apply sim_same. intros s Gs. apply get_inv in Gs. destruct Gs as (Hc & ->).
      destruct (rd Cs c >=? 0); [|cbn [sim fst snd R4 bind]; split; [exact LD|]; split; [reflexivity|]; split; [lia|]; split; [exact ZD|exact ND]].
      eapply sim_bind; [apply (low_set w c LD)|]. intros F F' (-> & Rw & LF & _). cbn [sim fst snd R4 bind]. split; [exact LF|]. split; [reflexivity|]. split; [lia|]. split; [rewrite zlen_wr; exact ZD|].
      intros i Hi. destruct (Z.eq_dec i w) as [->|Ne]; [rewrite rd_wr_eq by lia; lia|]. rewrite rd_wr_ne by lia. apply ND. exact Hi.
    + intros [D w] [D' w'] (LD & W & Hw & ZD & ND). cbn [fst snd] in *. subst w'. apply sim_same. intros Rl2 G2. apply set_inv in G2. destruct G2 as (_ & ->). apply IH; [exact LD|lia| |lia].
      intros i Hi0 Hi1 N. cbv zeta. destruct (ND i ltac:(lia) N) as (E1 & E2). rewrite E1 in *. destruct (MK i ltac:(lia) ltac:(lia) N) as (K1 & K2 & K3). split; [|split; [|exact K3]].
      * destruct (Z.eq_dec (- rd A i - 1) r) as [E|Ne]; [rewrite E, rd_wr_eq by lia; lia|]. rewrite rd_wr_ne by lia. exact K1.
      * destruct (Z.eq_dec (- rd A i - 1) r) as [E|Ne]; [rewrite E in *; rewrite rd_wr_eq by lia; lia|]. rewrite rd_wr_ne by lia. exact K2.
  - apply IH; [exact L|exact LA| |lia]. intros i Hi. apply MK. lia.
Qed.
Definition R7 (q : Z) (st st' : list Z * list Z * list Z * list Z * list Z * list Z * Z) : Prop :=
  let '(A, Rs, Rl, Rm, Cs, Cl, pd) := st in let '(A', Rs', Rl', Rm', Cs', Cl', pd') := st' in Low q A A' /\ Rs = Rs' /\ Rl = Rl' /\ Rm = Rm' /\ Cs = Cs' /\ Cl = Cl' /\ pd = pd'.
Lemma gc_sim m n cend pf A A' Rs Rl Rm Cs Cl : mem m n cend pf A Rs Rl Rm Cs Cl -> Low pf A A' -> sim (R7 pf) (garbage_collection m n A Rs Rl Rm Cs Cl pf) (garbage_collection m n A' Rs Rl Rm Cs Cl pf).
Proof.
  intros M L. pose proof (me_n M) as Hn. pose proof (me_m M) as Hm. destruct (me_b M) as (B1 & B2 & B3). unfold garbage_collection.
  eapply sim_bind; [eapply sim_wp; [apply (@gc_cols_sim pf n Rm A A' Cs Cl L (mem_cols M) (me_Cs M) (me_Cl M))|apply (gc_cols_ok M)]|].
  intros [[[A1 Cs1] Cl1] c0] [[[A1' Cs1'] Cl1'] c0'] ((L1 & L2 & L3 & P & _ & E & F & _) & (LA1 & <- & <- & <-)).
  eapply sim_bind; [eapply sim_wp; [apply (@gc_mark_sim pf m Rs Rl Rm A1 A1' LA1 (mem_rows M) (me_Rl M))|apply (@gc_mark_ok m n cend pf A Rs Rl Rm Cs Cl M A1 c0 L1 P E)]|].
  intros [A2 Rm2] [A2' Rm2'] ((M1 & M2 & _ & M4 & M5 & M6) & (LA2 & E2)). cbn [fst snd] in *. subst Rm2'.
  eapply sim_bind; [apply (@gc_rows_sim pf Rm2 Cs1 _ c0 A2 A2' Rs Rl c0 LA2); [lia| |lia]|].
  - intros i Hi Hi0 N. cbv zeta. destruct (existsb (fun r => keptb Rl Rm r && (rd Rs r =? i)) (zseq 0 m)) eqn:X.
    + apply existsb_exists in X. destruct X as (r & Hr & X). apply in_zseq in Hr. apply andb_true_iff in X. destruct X as (X1 & X2). apply (@keptb_spec m) in X1; [|exact Hr]. apply Z.eqb_eq in X2. subst i.
      destruct (M5 r Hr X1) as (X3 & X4). rewrite X4 in *. replace (- (- r - 1) - 1) with r by lia. destruct (kept_in M X1) as (X5 & X6 & X7). split; [lia|]. split; [lia|]. rewrite X3. apply (me_pos M). lia.
    + exfalso. rewrite M6 in N; [|lia|].
      * rewrite E in N by lia. pose proof (me_pos M (j := i) ltac:(lia)). lia.
      * intros r Hr K Er. rewrite <- Bool.not_true_iff_false in X. apply X. apply existsb_exists. exists r. split; [apply in_zseq; exact Hr|]. rewrite (proj2 (@keptb_spec m Rl Rm r Hr) K), Er, Z.eqb_refl. reflexivity.
  - intros [[[A3 Rs3] Rl3] pd] [[[A3' Rs3'] Rl3'] pd'] (LA3 & <- & <- & <-). cbn [sim R7]. auto 10.
Qed.

(* the pivot row *)
Lemma pivot_row_sim pf s l Rs Rl Rm Cs A A' Ct : Low pf A A' -> rows pf Rs Rl Rm -> s + l <= pf ->
  sim (fun st st' => let '(B, Ct1, q, d) := st in let '(B', Ct1', q', d') := st' in Ct1 = Ct1' /\ q = q' /\ d = d' /\ pf <= q /\ Low q B B') (fo_pivot_row s l Rs Rl Rm Cs A Ct pf) (fo_pivot_row s l Rs Rl Rm Cs A' Ct pf).
Proof.
  intros L J H. unfold fo_pivot_row. set (R := fun (st st' : list Z * list Z * Z * Z) => let '(B, Ct1, q, d) := st in let '(B', Ct1', q', d') := st' in Ct1 = Ct1' /\ q = q' /\ d = d' /\ pf <= q /\ Low q B B').
  apply (@sim_for _ _ s (s + l) _ _ (fun _ => R)); [cbn; repeat split; auto; try lia; apply L|].
  intros cp [[[B Ct1] q] d] [[[B' Ct1'] q'] d'] Hcp HR. pose proof HR as (<- & <- & <- & Q & LB). rewrite <- (@low_get q B B' _ LB) by lia. apply sim_same. intros row _. apply sim_same. intros mk Gm. apply get_inv in Gm. destruct Gm as (_ & ->).
  destruct (Z.geb_spec (rd Rm row) 0) as [X|X]; [|exact HR]. apply sim_same. intros rs Gs. apply get_inv in Gs. destruct Gs as (_ & ->). apply sim_same. intros rl Gl. apply get_inv in Gl. destruct Gl as (Rr & ->). destruct (J row Rr ltac:(lia)) as (J1 & J2).
  apply (@sim_for _ _ (rd Rs row) (rd Rs row + rd Rl row) _ _ (fun _ => R)); [exact HR|]. clear B B' Ct1 q d HR Q LB. intros rp [[[B Ct1] q] d] [[[B' Ct1'] q'] d'] Hrp HR. pose proof HR as (<- & <- & <- & Q & LB).
  rewrite <- (@low_get q B B' _ LB) by lia. apply sim_same. intros col _. apply sim_same. intros t _. apply sim_same. intros cs _. destruct ((t >? 0) && (cs >=? 0)); [|exact HR].
  apply sim_same. intros Ct2 _. eapply sim_bind; [apply (low_set q col LB)|]. intros F F' (_ & _ & _ & LF). cbn [sim R]. split; [reflexivity|]. split; [reflexivity|]. split; [reflexivity|]. split; [lia|apply LF; reflexivity].
Qed.
Lemma sim_for_eq S lo hi (f g : Z -> S -> res S) s : (forall k s, lo <= k < hi -> f k s = g k s) -> for_ lo hi f s = for_ lo hi g s.
Proof. intros H. apply sim_eq. apply (@sim_for _ _ lo hi f g (fun _ => eq) s s eq_refl). intros k a b Hk <-. rewrite H by exact Hk. apply sim_refl. Qed.
Lemma kill_rows_eq q s l A A' Rm : Low q A A' -> s + l <= q -> fo_kill_rows s l A Rm = fo_kill_rows s l A' Rm.
Proof. intros L H. unfold fo_kill_rows. apply sim_for_eq. intros k a Hk. rewrite (@low_get q A A' _ L) by lia. reflexivity. Qed.
(* a loop that starts by reading before the array *)
Lemma for_neg S s l (f : Z -> S -> res S) st : 0 < l -> (forall st, f s st = UB) -> for_ s (s + l) f st = UB.
Proof. intros H E. unfold for_. destruct (Z.to_nat (s + l - s)) eqn:X; [lia|]. cbn [floop]. rewrite E. reflexivity. Qed.
Lemma for_none S s l (f : Z -> S -> res S) st : l <= 0 -> for_ s (s + l) f st = Ok st.
Proof. intros H. unfold for_. replace (Z.to_nat (s + l - s)) with O by lia. reflexivity. Qed.
Lemma diff_eq q ag tag s l t A A' Rd Rm : Low q A A' -> (0 <= s -> s + l <= q) -> fo_diff ag tag s l t A Rd Rm = fo_diff ag tag s l t A' Rd Rm.
Proof.
  intros L H. unfold fo_diff. destruct (Z_lt_le_dec s 0) as [X|X].
  - destruct (Z_le_gt_dec l 0); [rewrite !for_none by lia; reflexivity|]. rewrite !for_neg; try reflexivity; try lia; intros st; rewrite get_out by lia; reflexivity.
  - apply sim_for_eq. intros k a Hk. rewrite (@low_get q A A' _ L) by lia. reflexivity.
Qed.
Lemma diffs_eq q ag tag s l A A' Rd Cs Cl Co Rm Ct Cp Cn head : Low q A A' -> s + l <= q -> cols q Cs Cl -> fo_diffs ag tag s l A Rd Cs Cl Co Rm Ct Cp Cn head = fo_diffs ag tag s l A' Rd Cs Cl Co Rm Ct Cp Cn head.
Proof.
  intros L H J. unfold fo_diffs. apply sim_for_eq. intros rp [[[[Rm1 Ct1] Cp1] Cn1] h1] Hrp. rewrite (@low_get q A A' _ L) by lia. apply sim_eq. apply sim_same. intros col _. apply sim_same. intros t _. apply sim_same. intros Ct2 _. apply sim_same. intros [[Cp2 Cn2] h2] _.
  apply sim_same. intros cs Gs. apply get_inv in Gs. destruct Gs as (Rc & ->). apply sim_same. intros cl Gl. apply get_inv in Gl. destruct Gl as (_ & ->). rewrite (@diff_eq q ag tag _ _ (- t) A A' Rd Rm1 L); [apply sim_refl|]. intros X. apply (J col Rc X).
Qed.
Lemma compress_sim q n tag s l Rm A A' : Low q A A' -> (0 <= s -> 0 <= l /\ s + l <= q) ->
  sim (fun st st' => let '(B, cp, h, sc) := st in let '(B', cp', h', sc') := st' in cp = cp' /\ h = h' /\ sc = sc' /\ Low q B B' /\ s <= cp <= s + Z.max l 0) (fo_compress n tag s l Rm A) (fo_compress n tag s l Rm A').
Proof.
  intros L H. unfold fo_compress. destruct (Z_lt_le_dec s 0) as [X|X].
  - destruct (Z_le_gt_dec l 0); [rewrite !for_none by lia; cbn; repeat split; auto; try lia; apply L|]. rewrite !for_neg; try exact I; try lia; intros [[[B cp] h] sc]; rewrite get_out by lia; reflexivity.
  - specialize (H X). eapply sim_conseq; [apply (@sim_for _ _ s (s + l) _ _ (fun i st st' => let '(B, cp, h, sc) := st in let '(B', cp', h', sc') := st' in cp = cp' /\ h = h' /\ sc = sc' /\ Low q B B' /\ s <= cp <= i))|].
    + repeat split; auto; try lia; apply L.
    + intros i [[[B cp] h] sc] [[[B' cp'] h'] sc'] Hi (<- & <- & <- & LB & W). rewrite <- (@low_get q B B' _ LB) by lia. apply sim_same. intros row _. apply sim_same. intros mk _.
      destruct (mk <? 0); [cbn [sim]; repeat split; auto; try lia; apply LB|]. eapply sim_bind; [apply (low_set cp row LB)|]. intros F F' (_ & _ & LF & _). cbn [sim]. repeat split; auto; try lia; apply LF.
    + intros [[[B cp] h] sc] [[[B' cp'] h'] sc'] (E1 & E2 & E3 & LB & W). split; [exact E1|]. split; [exact E2|]. split; [exact E3|]. split; [exact LB|]. lia.
Qed.
Definition R9 (q : Z) (st st' : list Z * list Z * list Z * list Z * list Z * list Z * list Z * Z * Z) : Prop :=
  let '(A, Cs, Cl, Co, Cp, Cn, h, d, k) := st in let '(A', Cs', Cl', Co', Cp', Cn', h', d', k') := st' in
  Low q A A' /\ cols q Cs Cl /\ Cs = Cs' /\ Cl = Cl' /\ Co = Co' /\ Cp = Cp' /\ Cn = Cn' /\ h = h' /\ d = d' /\ k = k'.
Lemma add_sim q n tag s l Rm Ct A A' Cs Cl Co Cp Cn head d k : Low q A A' -> s + l <= q -> cols q Cs Cl ->
  sim (R9 q) (fo_add n tag s l Rm Ct A Cs Cl Co Cp Cn head d k) (fo_add n tag s l Rm Ct A' Cs Cl Co Cp Cn head d k).
Proof.
  intros L H J. unfold fo_add. apply (@sim_for _ _ s (s + l) _ _ (fun _ => R9 q)); [cbn [R9]; auto 12|].
  intros rp [[[[[[[[B Cs1] Cl1] Co1] Cp1] Cn1] h1] d1] k1] [[[[[[[[B' Cs1'] Cl1'] Co1'] Cp1'] Cn1'] h1'] d1'] k1'] Hrp (LB & J1 & <- & <- & <- & <- & <- & <- & <- & <-).
  rewrite <- (@low_get q B B' _ LB) by lia. apply sim_same. intros col _. apply sim_same. intros cs Gs. apply get_inv in Gs. destruct Gs as (Rc & ->). apply sim_same. intros cl Gl. apply get_inv in Gl. destruct Gl as (Rc' & ->).
  eapply sim_bind; [apply (@compress_sim q n tag _ _ Rm B B' LB); intros X; apply (J1 col Rc X)|]. intros [[[B2 cp] hs] sc] [[[B2' cp'] hs'] sc'] (<- & <- & <- & LB2 & W).
  apply sim_same. intros Cl2 G2. apply set_inv in G2. destruct G2 as (_ & ->).
  assert (J2 : cols q Cs1 (wr Cl1 col (cp - rd Cs1 col))). { intros c Hc X. destruct (J1 c Hc X) as (Y1 & Y2). destruct (Z.eq_dec c col) as [->|Ne]; [rewrite rd_wr_eq by lia; lia|rewrite rd_wr_ne by lia; lia]. }
  destruct (cp - rd Cs1 col =? 0).
  - apply sim_same. intros Cs2 G3. apply set_inv in G3. destruct G3 as (_ & ->). apply sim_same. intros t _. apply sim_same. intros Co2 _. cbn [sim R9]. split; [exact LB2|]. split; [|auto 10]. intros c Hc X. rewrite zlen_wr in Hc.
    destruct (Z.eq_dec c col) as [->|Ne]; [rewrite rd_wr_eq in X by lia; lia|]. rewrite (@rd_wr_ne Cs1) in * by lia. apply (J2 c Hc X).
  - apply sim_same. intros Co2 _. cbv zeta. apply sim_same. intros hc _. apply sim_same. intros [[fc Cp2] h2] _. apply sim_same. intros Cn2 _. apply sim_same. intros Cp3 _. cbn [sim R9]. auto 12.
Qed.
Lemma low_get' q A A' i : Low q A A' -> (0 <= i -> i < q) -> get A i = get A' i.
Proof. intros L H. destruct (Z_lt_le_dec i 0); [rewrite !get_out by lia; reflexivity|apply (@low_get q A A' i L); lia]. Qed.
Lemma same_pattern_eq q A A' : Low q A A' -> forall cnt s1 s2, (0 <= s1 -> s1 + Z.of_nat cnt <= q) -> (0 <= s2 -> s2 + Z.of_nat cnt <= q) -> same_pattern cnt A s1 s2 = same_pattern cnt A' s1 s2.
Proof.
  intros L. induction cnt as [|cnt IH]; intros s1 s2 H1 H2; [reflexivity|]. cbn [same_pattern]. rewrite <- (@low_get' q A A' s1 L) by lia. destruct (get A s1) as [x| | |] eqn:G1; cbn [bind]; try reflexivity. rewrite <- (@low_get' q A A' s2 L) by lia. destruct (get A s2) as [y| | |] eqn:G2; cbn [bind]; try reflexivity.
  apply get_inv in G1. apply get_inv in G2. destruct (negb (x =? y)); [reflexivity|]. apply IH; lia.
Qed.
Lemma ds_inner_sim q A A' Cl super len : Low q A A' -> get Cl super = Ok len -> forall fuel c prev Cs Ct Co Cn, cols q Cs Cl ->
  sim (fun a b => a = b /\ cols q (fst (fst (fst a))) Cl) (ds_inner fuel A Cl super len c prev Cs Ct Co Cn) (ds_inner fuel A' Cl super len c prev Cs Ct Co Cn).
Proof.
  intros L GL. apply get_inv in GL. destruct GL as (RS & EL). induction fuel as [|fuel IH]; intros c prev Cs Ct Co Cn J; cbn [ds_inner]; (destruct (c =? EMPTY); [cbn; auto|]); [exact I|].
  apply sim_same. intros l Gl. apply get_inv in Gl. destruct Gl as (Rl & ->). apply sim_same. intros sc _. apply sim_same. intros ss _. eapply sim_bind with (R := eq).
  { destruct (negb (rd Cl c =? len) || negb (sc =? ss)) eqn:T; [reflexivity|]. apply orb_false_iff in T. destruct T as (T & _). apply negb_false_iff, Z.eqb_eq in T.
    apply sim_same. intros s1 G1. apply get_inv in G1. destruct G1 as (R1 & ->). apply sim_same. intros s2 G2. apply get_inv in G2. destruct G2 as (R2 & ->). rewrite (@same_pattern_eq q A A' L); [apply sim_refl| |].
    - intros X. destruct (J super R1 X). lia.
    - intros X. destruct (J c R2 X). lia. }
  intros b ? <-. destruct (negb b).
  - apply sim_same. intros nx _. apply IH. exact J.
  - apply sim_same. intros t _. apply sim_same. intros Ct1 _. apply sim_same. intros Ct2 _. apply sim_same. intros Cs1 G1. apply set_inv in G1. destruct G1 as (R1 & ->). apply sim_same. intros Co1 _. apply sim_same. intros nx _. apply sim_same. intros Cn1 _. apply sim_same. intros nx' _.
    apply IH. intros x Hx X. rewrite zlen_wr in Hx. destruct (Z.eq_dec x c) as [->|Ne]; [rewrite rd_wr_eq in X by lia; lia|]. rewrite rd_wr_ne in * by lia. apply (J x Hx X).
Qed.
Lemma ds_outer_sim q A A' Cl fuel' : Low q A A' -> forall fuel super Cs Ct Co Cn, cols q Cs Cl ->
  sim (fun a b => a = b /\ cols q (fst (fst (fst a))) Cl) (ds_outer fuel fuel' A Cl super Cs Ct Co Cn) (ds_outer fuel fuel' A' Cl super Cs Ct Co Cn).
Proof.
  intros L. induction fuel as [|fuel IH]; intros super Cs Ct Co Cn J; cbn [ds_outer]; (destruct (super =? EMPTY); [cbn; auto|]); [exact I|].
  apply sim_same. intros len Gl. apply sim_same. intros c _. eapply sim_bind; [apply (@ds_inner_sim q A A' Cl super len L Gl); exact J|]. intros [[[Cs1 Ct1] Co1] Cn1] ? (<- & J1). cbn [fst] in J1. apply sim_same. intros nx _. apply IH. exact J1.
Qed.
Lemma detect_eq q A A' Cl s l Cs Ct Co Cp Cn head : Low q A A' -> s + l <= q -> cols q Cs Cl -> detect_super_cols A Cl s l Cs Ct Co Cp Cn head = detect_super_cols A' Cl s l Cs Ct Co Cp Cn head.
Proof.
  intros L H J. unfold detect_super_cols. apply sim_eq. eapply sim_conseq; [apply (@sim_for _ _ s (s + l) _ _ (fun _ st st' => st = st' /\ let '(Cs, _, _, _, _, _) := st in cols q Cs Cl))|].
  - auto.
  - intros rp [[[[[Cs1 Ct1] Co1] Cp1] Cn1] h1] ? Hrp (<- & J1). rewrite <- (@low_get q A A' _ L) by lia. apply sim_same. intros col _. apply sim_same. intros cs _. destruct (cs <? 0); [cbn; auto|]. apply sim_same. intros hash _. apply sim_same. intros [hc fc] _.
    eapply sim_bind; [apply (@ds_outer_sim q A A' Cl _ L); exact J1|]. intros [[[Cs2 Ct2] Co2] Cn2] ? (<- & J2). cbn [fst] in J2. destruct (hc >? EMPTY); apply sim_same; intros x _; cbn; auto.
  - intros a b (E & _). exact E.
Qed.
Definition R8 (q : Z) (st st' : list Z * list Z * list Z * list Z * list Z * list Z * Z * Z) : Prop :=
  let '(A, Cl, Co, Cp, Cn, h, d, k) := st in let '(A', Cl', Co', Cp', Cn', h', d', k') := st' in Low q A A' /\ Cl = Cl' /\ Co = Co' /\ Cp = Cp' /\ Cn = Cn' /\ h = h' /\ d = d' /\ k = k'.
Lemma final_sim q n k pr dg s l Cs Ct A A' Cl Co Cp Cn head mn : Low q A A' -> s + l <= q -> sim (R8 q) (fo_final n k pr dg s l Cs Ct A Cl Co Cp Cn head mn) (fo_final n k pr dg s l Cs Ct A' Cl Co Cp Cn head mn).
Proof.
  intros L H. unfold fo_final. apply (@sim_for _ _ s (s + l) _ _ (fun _ => R8 q)); [cbn [R8]; auto 12|].
  intros rp [[[[[[[B Cl1] Co1] Cp1] Cn1] h1] d1] k1] [[[[[[[B' Cl1'] Co1'] Cp1'] Cn1'] h1'] d1'] k1'] Hrp (LB & <- & <- & <- & <- & <- & <- & <-).
  rewrite <- (@low_get q B B' _ LB) by lia. apply sim_same. intros col _. apply sim_same. intros cs _. destruct (cs <? 0); [cbn [sim R8]; auto 12|]. eapply sim_bind; [apply (low_set k1 col LB)|]. intros F F' (_ & _ & LF & _).
  apply sim_same. intros cl _. eapply sim_bind; [apply (low_set (cs + cl) pr LF)|]. intros G G' (_ & _ & LG & _). apply sim_same. intros Cl2 _. apply sim_same. intros sc _. apply sim_same. intros t _. cbv zeta. apply sim_same. intros Co2 _. apply sim_same. intros [[Cp2 Cn2] h2] _. cbn [sim R8]. auto 12.
Qed.

(* one iteration *)
Definition Rfo (st st' : fo_state) : Prop :=
  let '(mkFo (mkAr A Rs Rl Rd Rm Cs Cl Ct Co Cp Cn) head k md tag mn pf) := st in
  exists A', st' = mkFo (mkAr A' Rs Rl Rd Rm Cs Cl Ct Co Cp Cn) head k md tag mn pf /\ Low pf A A'.
Lemma clear_mark_alive tag mx m Rm : sim (fun a b => a = b /\ zlen (snd a) = zlen Rm /\ forall r, 0 <= r < zlen Rm -> 0 <= rd (snd a) r -> 0 <= rd Rm r) (clear_mark tag mx m Rm) (clear_mark tag mx m Rm).
Proof.
  unfold clear_mark. destruct ((tag <=? 0) || (tag >=? mx)); [|cbn; auto]. eapply sim_bind; [apply (@sim_for _ _ 0 m _ _ (fun _ a b => a = b /\ zlen a = zlen Rm /\ forall r, 0 <= r < zlen Rm -> 0 <= rd a r -> 0 <= rd Rm r))|].
  - auto.
  - intros r a ? Hr (<- & Z & K). apply sim_same. intros v Gv. apply get_inv in Gv. destruct Gv as (R & ->). destruct (Z.geb_spec (rd a r) 0) as [X|X]; [|cbn; auto]. rewrite set_wr by exact R. cbn [sim]. split; [reflexivity|]. rewrite zlen_wr. split; [exact Z|]. intros r' Rr' Hr'. destruct (Z.eq_dec r' r) as [->|Ne]; [apply K; lia|].
    rewrite rd_wr_ne in Hr' by lia. apply K; assumption.
  - intros a ? (<- & Z & K). cbn. auto.
Qed.
