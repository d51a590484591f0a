(* Two runs of COLAMD that differ only in the contents of uninitialised memory, in lockstep: initialisation, the whole function. *)
From Verif Require Import Base Det DetZ Spec MColamd PCol1 PCol2 PCol3 PCol9 PCol11 PCol12 PCol13 PCol14 PCol15 PCol16 MMatrix MApi ApiSpec PApi MUninit PUninit PUninit2 PUninit3.
Set Implicit Arguments.
Open Scope Z_scope.
Set Bullet Behavior "Strict Subproofs".

Lemma agree_all q a b : agree (fun i => i < q) a b -> zlen a <= q -> a = b.
Proof. intros [L H] K. apply list_ext; [exact L|]. intros i Hi. specialize (H i ltac:(cbv beta; lia)). rewrite !get_rd in H by lia. congruence. Qed.

Section Scoring.
Variables (q : Z) (A A' : list Z).
Hypothesis L : Low q A A'.
Lemma dense_cols_eq n dc Cl Cs Co Rd n2 : cols q Cs Cl -> is_dense_cols n dc A Cl Cs Co Rd n2 = is_dense_cols n dc A' Cl Cs Co Rd n2.
Proof.
  intros J. unfold is_dense_cols. destruct (Z_lt_le_dec n 0) as [X|X]; [unfold down_; replace (Z.to_nat (n - 0)) with O by lia; reflexivity|]. apply sim_eq. eapply sim_conseq; [apply (@sim_down _ _ n 0 _ _ (fun _ st st' => st = st' /\ let '(Cs, _, _, _) := st in cols q Cs Cl))|].
  - exact X.
  - auto.
  - intros c [[[Cs1 Co1] Rd1] k] ? Hc (<- & J1). apply sim_same. intros s Gs. apply get_inv in Gs. destruct Gs as (Rc & ->). destruct (Z.ltb_spec (rd Cs1 c) 0) as [S|S]; [cbn; auto|]. apply sim_same. intros d Gd. apply get_inv in Gd. destruct Gd as (_ & ->). destruct (J1 c Rc S) as (_ & J2).
    destruct (rd Cl c >? dc); [|cbn; auto]. apply sim_same. intros Co2 _. eapply sim_bind with (R := eq).
    + rewrite (@sim_for_eq _ _ _ _ (fun cp Rd => let* row := get A' cp in inc Rd row (-1))); [apply sim_refl|]. intros cp R Hcp. rewrite (@low_get q A A' _ L) by lia. reflexivity.
    + intros Rd2 ? <-. apply sim_same. intros Cs2 G. apply set_inv in G. destruct G as (_ & ->). cbn [sim]. split; [reflexivity|]. intros x Hx H. rewrite zlen_wr in Hx. destruct (Z.eq_dec x c) as [->|Ne]; [rewrite rd_wr_eq in H by lia; lia|]. rewrite rd_wr_ne in * by lia. apply (J1 x Hx H).
  - intros a b (E & _). exact E.
Qed.
Definition R5 (st st' : list Z * list Z * list Z * list Z * Z) : Prop :=
  let '(A, Cl, Cs, Co, k) := st in let '(A', Cl', Cs', Co', k') := st' in Low q A A' /\ Cl = Cl' /\ Cs = Cs' /\ Co = Co' /\ k = k'.
Lemma scores_sim n Rd Rm Cl Cs Co n2 : 0 <= n -> cols q Cs Cl -> zlen Cs = zlen Cl -> sim R5 (is_scores n Rd Rm A Cl Cs Co n2) (is_scores n Rd Rm A' Cl Cs Co n2).
Proof.
  intros Hn J LL. unfold is_scores. eapply sim_conseq; [apply (@sim_down _ _ n 0 _ _ (fun _ st st' => R5 st st' /\ let '(_, Cl, Cs, _, _) := st in cols q Cs Cl /\ zlen Cs = zlen Cl)); [exact Hn|cbn [R5]; auto 10|]|intros a b (R & _); exact R].
  intros c [[[[B Cl1] Cs1] Co1] k] [[[[B' Cl1'] Cs1'] Co1'] k'] Hc ((LB & <- & <- & <- & <-) & J1 & LL1). apply sim_same. intros s Gs. apply get_inv in Gs. destruct Gs as (Rc & ->). destruct (Z.ltb_spec (rd Cs1 c) 0) as [S|S]; [cbn; auto 10|].
  apply sim_same. intros d Gd. apply get_inv in Gd. destruct Gd as (_ & ->). destruct (J1 c Rc S) as (J2 & J3).
  eapply sim_bind; [apply (@sim_for _ _ (rd Cs1 c) (rd Cs1 c + rd Cl1 c) _ _ (fun cp st st' => let '(D, w, sc) := st in let '(D', w', sc') := st' in Low q D D' /\ w = w' /\ sc = sc' /\ rd Cs1 c <= w <= cp))|].
  - repeat split; auto; try lia; apply LB.
  - intros cp [[D w] sc] [[D' w'] sc'] Hcp (LD & <- & <- & Hw). rewrite <- (@low_get q D D' _ LD) by lia. apply sim_same. intros row _. apply sim_same. intros mm _. destruct (mm <? 0); [cbn [sim]; repeat split; auto; try lia; apply LD|].
    eapply sim_bind; [apply (low_set w row LD)|]. intros F F' (_ & _ & LF & _). apply sim_same. intros dd _. cbn [sim]. repeat split; auto; try lia; apply LF.
  - intros [[D w] sc] [[D' w'] sc'] (LD & <- & <- & Hw). destruct (w - rd Cs1 c =? 0).
    + apply sim_same. intros Co2 _. apply sim_same. intros Cs2 G. apply set_inv in G. destruct G as (_ & ->). cbn [sim R5]. rewrite zlen_wr. split; [auto 10|]. split; [|exact LL1]. intros x Hx H. rewrite zlen_wr in Hx. destruct (Z.eq_dec x c) as [->|Ne]; [rewrite rd_wr_eq in H by lia; lia|]. rewrite rd_wr_ne in * by lia. apply (J1 x Hx H).
    + apply sim_same. intros Cl2 G. apply set_inv in G. destruct G as (_ & ->). apply sim_same. intros Co2 _. cbn [sim R5]. rewrite zlen_wr. split; [auto 10|]. split; [|exact LL1]. intros x Hx H. destruct (Z.eq_dec x c) as [->|Ne]; [rewrite rd_wr_eq by lia; lia|]. rewrite rd_wr_ne by lia. apply (J1 x Hx H).
Qed.
End Scoring.
Lemma keep_null q n Cl Cs Co : 0 <= n -> cols q Cs Cl -> sim (fun a b => a = b /\ let '(Cs1, _, _) := a in cols q Cs1 Cl /\ zlen Cs1 = zlen Cs) (is_null_cols n Cl Cs Co) (is_null_cols n Cl Cs Co).
Proof.
  intros Hn J. unfold is_null_cols. apply (@sim_down _ _ n 0 _ _ (fun _ a b => a = b /\ let '(Cs1, _, _) := a in cols q Cs1 Cl /\ zlen Cs1 = zlen Cs)); [exact Hn|auto|].
  intros c [[Cs1 Co1] k] ? Hc (<- & J1 & LL). apply sim_same. intros d _. destruct (d =? 0); [|cbn; auto]. apply sim_same. intros Co2 _. apply sim_same. intros Cs2 G. apply set_inv in G. destruct G as (RR & ->). cbn [sim]. rewrite zlen_wr. split; [reflexivity|]. split; [|exact LL].
  intros x Hx H. rewrite zlen_wr in Hx. destruct (Z.eq_dec x c) as [->|Ne]; [rewrite rd_wr_eq in H by lia; lia|]. rewrite rd_wr_ne in * by lia. apply (J1 x Hx H).
Qed.
Lemma keep_dense q n dc A Cl Cs Co Rd n2 : 0 <= n -> cols q Cs Cl -> sim (fun a b => a = b /\ let '(Cs1, _, _, _) := a in cols q Cs1 Cl /\ zlen Cs1 = zlen Cs) (is_dense_cols n dc A Cl Cs Co Rd n2) (is_dense_cols n dc A Cl Cs Co Rd n2).
Proof.
  intros Hn J. unfold is_dense_cols. apply (@sim_down _ _ n 0 _ _ (fun _ a b => a = b /\ let '(Cs1, _, _, _) := a in cols q Cs1 Cl /\ zlen Cs1 = zlen Cs)); [exact Hn|auto|].
  intros c [[[Cs1 Co1] Rd1] k] ? Hc (<- & J1 & LL). apply sim_same. intros s _. destruct (s <? 0); [cbn; auto|]. apply sim_same. intros d _. destruct (d >? dc); [|cbn; auto]. apply sim_same. intros Co2 _. apply sim_same. intros Rd2 _. apply sim_same. intros Cs2 G. apply set_inv in G. destruct G as (RR & ->). cbn [sim]. rewrite zlen_wr. split; [reflexivity|]. split; [|exact LL].
  intros x Hx H. rewrite zlen_wr in Hx. destruct (Z.eq_dec x c) as [->|Ne]; [rewrite rd_wr_eq in H by lia; lia|]. rewrite rd_wr_ne in * by lia. apply (J1 x Hx H).
Qed.
Lemma init_scoring_sim q m n dr dc ar ar' head : 0 <= n -> Rar q ar ar' -> cols q (a_Cs ar) (a_Cl ar) -> zlen (a_Cs ar) = zlen (a_Cl ar) ->
  sim (fun a b => let '(ar, h, n2, mx) := a in let '(ar', h', n2', mx') := b in Rar q ar ar' /\ h = h' /\ n2 = n2' /\ mx = mx') (init_scoring m n dr dc ar head) (init_scoring m n dr dc ar' head).
Proof.
  destruct ar as [A Rs Rl Rd Rm Cs Cl Ct Co Cp Cn]. intros Hn (A' & -> & L) J LL. unfold init_scoring. cbn [a_A a_Rs a_Rl a_Rd a_Rm a_Cs a_Cl a_Ct a_Co a_Cp a_Cn] in *.
  eapply sim_bind; [apply (@keep_null q n Cl Cs Co Hn J)|]. intros [[Cs1 Co1] n2] ? (<- & J1 & L1). rewrite <- (@dense_cols_eq q A A' L n dc Cl Cs1 Co1 Rd n2 J1). eapply sim_bind; [apply (@keep_dense q n dc A Cl Cs1 Co1 Rd n2 Hn J1)|]. intros [[[Cs2 Co2] Rd2] n3] ? (<- & J2 & L2).
  apply sim_same. intros [Rm2 mx] _. eapply sim_bind; [apply (@scores_sim q A A' L n Rd2 Rm2 Cl Cs2 Co2 n3 Hn J2); congruence|]. intros [[[[B Cl3] Cs3] Co3] n4] [[[[B' Cl3'] Cs3'] Co3'] n4'] (LB & <- & <- & <- & <-). apply sim_same. intros [[Cp4 Cn4] h4] _. cbn [sim Rar]. repeat split. exists B'. auto.
Qed.

(* init_rows_cols *)
Section Init.
Variables (m n : Z) (p A A' : list Z).
Let nz := rd p n.
Hypothesis Hm : 0 <= m.
Hypothesis Hn : 0 <= n.
Hypothesis Lp : zlen p = n + 1.
Hypothesis P0 : rd p 0 = 0.
Hypothesis PM : forall x, 0 <= x < n -> rd p x <= rd p (x + 1).
Hypothesis AR : forall j, 0 <= j < nz -> 0 <= rd A j < m.
Hypothesis AI : forall x, 0 <= x < n -> injs A (rd p x) (rd p (x + 1) - rd p x).
Hypothesis LA : 2 * nz <= zlen A.
Hypothesis LO : Low nz A A'.

Lemma p_hi x : 0 <= x < n -> rd p (x + 1) <= nz.
Proof. intros H. apply (@mono_le (rd p) n PM); lia. Qed.
Lemma count_sim Cl Rl Rm Rm' : Low m Rm Rm' ->
  sim (fun a b => let '(Cl, Rl, Rm, jb) := a in let '(Cl', Rl', Rm', jb') := b in Cl = Cl' /\ Rl = Rl' /\ Low m Rm Rm' /\ jb = jb') (irc_count m n p A Cl Rl Rm) (irc_count m n p A' Cl Rl Rm').
Proof.
  intros LR. unfold irc_count. set (RR := fun (a b : list Z * list Z * list Z * bool) => let '(Cl, Rl, Rm, jb) := a in let '(Cl', Rl', Rm', jb') := b in Cl = Cl' /\ Rl = Rl' /\ Low m Rm Rm' /\ jb = jb').
  apply (@sim_for _ _ 0 n _ _ (fun _ => RR)); [cbn [RR]; auto|].
  intros c [[[Cl1 Rl1] Rm1] jb] [[[Cl1' Rl1'] Rm1'] jb'] Hc (<- & <- & L1 & <-). rewrite !get_rd by lia. cbn [bind]. pose proof (p_hi Hc) as PH.
  eapply sim_bind; [apply (@sim_for _ _ (rd p c) (rd p (c + 1)) _ _ (fun _ a b => let '(Cl, Rl, Rm, jb, lr) := a in let '(Cl', Rl', Rm', jb', lr') := b in Cl = Cl' /\ Rl = Rl' /\ Low m Rm Rm' /\ jb = jb' /\ lr = lr'))|].
  - auto 10.
  - intros cp [[[[Cl2 Rl2] Rm2] j2] lr] [[[[Cl2' Rl2'] Rm2'] j2'] lr'] Hcp (<- & <- & L2 & <- & <-). rewrite <- (@low_get nz A A' _ LO) by lia. apply sim_same. intros row _. destruct (Z.ltb_spec row 0) as [X|X]; cbn [orb]; [reflexivity|]. destruct (Z.geb_spec row m) as [Y|Y]; [reflexivity|].
    rewrite <- (@low_get m Rm2 Rm2' _ L2) by lia. apply sim_same. intros v _. cbv zeta. apply sim_same. intros Rl3 _. apply sim_same. intros Cl3 _. eapply sim_bind; [apply (low_set row c L2)|]. intros F F' (_ & _ & LF & _). cbn [sim]. auto 10.
  - intros [[[[Cl2 Rl2] Rm2] j2] lr] [[[[Cl2' Rl2'] Rm2'] j2'] lr'] (<- & <- & L2 & <- & <-). cbn [sim fst RR]. auto.
Qed.
Lemma starts_eq nnz Rl Rs Rd Rm Rs' Rd' Rm' : zlen Rs = Z.max m 1 -> zlen Rd = Z.max m 1 -> zlen Rm = Z.max m 1 -> zlen Rs' = Z.max m 1 -> zlen Rd' = Z.max m 1 -> zlen Rm' = Z.max m 1 ->
  irc_starts m nnz Rl Rs Rd Rm = irc_starts m nnz Rl Rs' Rd' Rm'.
Proof.
  intros L1 L2 L3 L4 L5 L6. assert (ST : forall v a b, zlen a = Z.max m 1 -> zlen b = Z.max m 1 -> sim (fun x y => zlen x = Z.max m 1 /\ Low 1 x y) (set a 0 v) (set b 0 v)).
  { intros v a b La Lb. rewrite !set_wr by lia. cbn [sim]. rewrite zlen_wr. split; [exact La|]. split; [rewrite !zlen_wr; lia|]. intros i Hi. rewrite !get_wr by lia. destruct (Z.eqb_spec i 0); [reflexivity|]. rewrite !get_out by lia. reflexivity. }
  apply sim_eq. unfold irc_starts. eapply sim_bind; [apply ST; assumption|]. intros s s' (Ls & As). eapply sim_bind; [apply ST; assumption|]. intros d d' (Ld & Ad). eapply sim_bind; [apply ST; assumption|]. intros k k' (Lk & Ak).
  eapply sim_conseq; [apply (@sim_for _ _ 1 m _ _ (fun i a b => let '(s, d, k) := a in let '(s', d', k') := b in (zlen s = Z.max m 1 /\ zlen d = Z.max m 1 /\ zlen k = Z.max m 1) /\ Low i s s' /\ Low i d d' /\ Low i k k'))|].
  - auto.
  - intros r [[a b] c] [[a' b'] c'] Hr ((M1 & M2 & M3) & X1 & X2 & X3). rewrite <- (@low_get r a a' _ X1) by lia. apply sim_same. intros v _. apply sim_same. intros l _.
    eapply sim_bind; [apply (low_set r (v + l) X1)|]. intros x x' (-> & _ & _ & Y1). eapply sim_bind; [apply (low_set r (v + l) X2)|]. intros y y' (-> & _ & _ & Y2). eapply sim_bind; [apply (low_set r (-1) X3)|]. intros z z' (-> & _ & _ & Y3). cbn [sim]. rewrite !zlen_wr. auto.
  - intros [[a b] c] [[a' b'] c'] ((M1 & M2 & M3) & X1 & X2 & X3). rewrite (agree_all X1), (agree_all X2), (agree_all X3) by lia. reflexivity.
Qed.
(* what has been written so far *)
Definition filled (TT : Z -> Z) (Rd : list Z) (j : Z) : Prop := j < nz \/ exists r, (0 <= r < m /\ r < zlen Rd) /\ TT r <= j < rd Rd r.
Lemma rows_sim TT jb Rd Rm : (forall r, 0 <= r < m -> rd Rd r = TT r) -> m <= zlen Rd ->
  sim (fun a b => let '(B, Rd, Rm) := a in let '(B', Rd', Rm') := b in agree (filled TT Rd) B B' /\ Rd = Rd' /\ Rm = Rm') (irc_rows jb n p A Rd Rm) (irc_rows jb n p A' Rd Rm).
Proof.
  intros E Z. unfold irc_rows. set (RR := fun (a b : list BinNums.Z * list BinNums.Z * list BinNums.Z) => let '(B, Rd, Rm) := a in let '(B', Rd', Rm') := b in agree (filled TT Rd) B B' /\ Rd = Rd' /\ Rm = Rm').
  apply (@sim_for _ _ 0 n _ _ (fun _ => RR)).
  - cbn [RR]. split; [|auto]. eapply agree_sub; [exact LO|]. cbv beta. intros i [X|(r & Hr & X)]; [exact X|]. rewrite E in X by apply Hr. lia.
  - intros c a b Hc HR. rewrite !get_rd by lia. cbn [bind]. pose proof (p_hi Hc) as PH. eapply sim_conseq; [apply (@sim_for _ _ (rd p c) (rd p (c + 1)) _ _ (fun _ => RR) a b HR)|auto].
    clear a b HR. intros cp [[B Rd1] Rm1] [[B' Rd1'] Rm1'] Hcp (LB & <- & <-). rewrite <- (@agree_get _ B B' cp LB) by (left; lia). apply sim_same. intros row _. apply sim_same. intros mm _. destruct (jb && (mm =? c)); [cbn [sim RR]; auto|].
    apply sim_same. intros w Gw. apply get_inv in Gw. destruct Gw as (Rr & ->). eapply sim_bind; [apply (@agree_set _ B B' (rd Rd1 row) c LB)|]. intros F F' LF. apply sim_same. intros Rd2 G. apply set_inv in G. destruct G as (_ & ->). apply sim_same. intros Rm2 _. cbn [sim RR]. split; [|auto].
    eapply agree_sub; [exact LF|]. cbv beta. intros i [X|(r & Hr & X)]; [left; left; exact X|]. destruct (Z.eq_dec r row) as [->|Ne].
    + rewrite rd_wr_eq in X by lia. destruct (Z.eq_dec i (rd Rd1 row)); [right; assumption|left; right; exists row; rewrite zlen_wr in Hr; split; [exact Hr|lia]].
    + left. right. exists r. rewrite zlen_wr in Hr. split; [exact Hr|]. rewrite rd_wr_ne in X by lia. exact X.
Qed.
Lemma rebuild_sim B B' Rs Rl Cs Cl q : Low q B B' -> (forall r, 0 <= r < m -> rd Rs r + rd Rl r <= q) ->
  sim (fun a b => let '(B, p, Cs) := a in let '(B', p', Cs') := b in Low q B B' /\ p = p' /\ Cs = Cs') (irc_rebuild m n p B Rs Rl Cs Cl) (irc_rebuild m n p B' Rs Rl Cs Cl).
Proof.
  intros L E. unfold irc_rebuild. apply sim_same. intros Cs1 _. apply sim_same. intros p1 _. apply sim_same. intros [Cs2 p2] _.
  eapply sim_bind with (R := fun a b => let '(B, p) := a in let '(B', p') := b in Low q B B' /\ p = p').
  2:{ intros [D d] [D' d'] (LD & <-). cbn [sim]. auto. }
  apply (@sim_for _ _ 0 m _ _ (fun _ (a b : list Z * list Z) => let '(B, p) := a in let '(B', p') := b in Low q B B' /\ p = p')); [auto|]. intros r a b Hr HR. apply sim_same. intros s Gs. apply get_inv in Gs. destruct Gs as (_ & ->). apply sim_same. intros l Gl. apply get_inv in Gl. destruct Gl as (_ & ->).
  specialize (E r Hr). eapply sim_conseq; [apply (@sim_for _ _ (rd Rs r) (rd Rs r + rd Rl r) _ _ (fun _ (a b : list Z * list Z) => let '(B, p) := a in let '(B', p') := b in Low q B B' /\ p = p') a b HR)|auto].
  clear a b HR. intros rp [D d] [D' d'] Hrp (LD & <-). rewrite <- (@low_get q D D' _ LD) by lia. apply sim_same. intros c _. apply sim_same. intros w _. apply sim_same. intros d2 _. eapply sim_bind; [apply (low_set w r LD)|]. intros F F' (_ & _ & LF & _). cbn [sim]. auto.
Qed.

Lemma init_rows_cols_sim T T' : sim (fun a b => let '(ar, p1) := a in let '(ar', p1') := b in Rar (2 * nz) ar ar' /\ p1 = p1') (init_rows_cols m n p A T) (init_rows_cols m n p A' T').
Proof.
  unfold init_rows_cols. cbv zeta.
  match goal with |- sim _ (bind ?a _) (bind ?b _) => assert (E1 : a = b /\ wp a (fun '(Cs, Cl, Ct, Co, Cp, Cn) => zlen Cs = n /\ zlen Cl = n /\ (forall c, 0 <= c < n -> rd Cs c = rd p c /\ rd Cl c = rd p (c + 1) - rd p c) /\ Ct = mk n 1 /\ Co = mk n 0 /\ Cp = mk n EMPTY /\ Cn = mk n EMPTY) nerr) end.
  { split; [|apply irc_cols_ok; auto; apply zlen_field; lia].
    destruct (wp_ok_ex _ _ (@irc_cols_ok n p Hn Lp PM (field T 0 6 0 n) (field T 0 6 1 n) (field T 0 6 2 n) (field T 0 6 3 n) (field T 0 6 4 n) (field T 0 6 5 n) ltac:(apply zlen_field; lia) ltac:(apply zlen_field; lia) ltac:(apply zlen_field; lia) ltac:(apply zlen_field; lia) ltac:(apply zlen_field; lia) ltac:(apply zlen_field; lia))) as ([[[[[a1 a2] a3] a4] a5] a6] & -> & (X1 & X2 & X3 & -> & -> & -> & ->)).
    destruct (wp_ok_ex _ _ (@irc_cols_ok n p Hn Lp PM (field T' 0 6 0 n) (field T' 0 6 1 n) (field T' 0 6 2 n) (field T' 0 6 3 n) (field T' 0 6 4 n) (field T' 0 6 5 n) ltac:(apply zlen_field; lia) ltac:(apply zlen_field; lia) ltac:(apply zlen_field; lia) ltac:(apply zlen_field; lia) ltac:(apply zlen_field; lia) ltac:(apply zlen_field; lia))) as ([[[[[b1 b2] b3] b4] b5] b6] & -> & (Y1 & Y2 & Y3 & -> & -> & -> & ->)).
    assert (a1 = b1) as ->. { apply list_ext; [lia|]. intros i Hi. destruct (X3 i ltac:(lia)) as (-> & _). destruct (Y3 i ltac:(lia)) as (-> & _). reflexivity. }
    assert (a2 = b2) as ->. { apply list_ext; [lia|]. intros i Hi. destruct (X3 i ltac:(lia)) as (_ & ->). destruct (Y3 i ltac:(lia)) as (_ & ->). reflexivity. }
    reflexivity. }
  destruct E1 as (E1 & W1). eapply sim_bind; [rewrite <- E1; eapply sim_wp; [apply sim_refl|exact W1]|]. clear E1 W1. intros [[[[[Cs Cl] Ct] Co] Cp] Cn] ? ((L1 & L2 & EC & -> & -> & -> & ->) & <-).
  rewrite get_rd by lia. cbn [bind]. fold nz.
  destruct (wp_ok_ex _ _ (@irc_clear_ok m Hm (field T (6 * (n + 1)) 4 1 m) (field T (6 * (n + 1)) 4 3 (Z.max m 1)) ltac:(apply zlen_field; lia) ltac:(apply zlen_field; lia))) as ([Rl Rm] & -> & (X1 & X2 & X3)).
  destruct (wp_ok_ex _ _ (@irc_clear_ok m Hm (field T' (6 * (n + 1)) 4 1 m) (field T' (6 * (n + 1)) 4 3 (Z.max m 1)) ltac:(apply zlen_field; lia) ltac:(apply zlen_field; lia))) as ([Rl' Rm'] & -> & (Y1 & Y2 & Y3)).
  assert (Rl = Rl') as <-. { apply list_ext; [lia|]. intros i Hi. destruct (X3 i ltac:(lia)) as (-> & _). destruct (Y3 i ltac:(lia)) as (-> & _). reflexivity. }
  assert (AM : Low m Rm Rm'). { split; [lia|]. intros i Hi. destruct (Z_lt_le_dec i 0); [rewrite !get_out by lia; reflexivity|]. rewrite !get_rd by lia. destruct (X3 i ltac:(lia)) as (_ & ->). destruct (Y3 i ltac:(lia)) as (_ & ->). reflexivity. }
  cbn [bind]. eapply sim_bind; [eapply sim_wp; [apply (@count_sim Cl Rl Rm Rm' AM)|apply (@irc_count_ok m n p A); auto]|]. intros [[[Cl1 Rl1] Rm1] jb] [[[Cl1' Rl1'] Rm1'] jb'] ((-> & (L3 & (L4 & _) & ERl) & HJ) & <- & <- & (L5 & _) & <-).
  rewrite <- (@starts_eq nz Rl1 (field T (6 * (n + 1)) 4 0 (Z.max m 1)) (field T (6 * (n + 1)) 4 2 (Z.max m 1)) Rm1 (field T' (6 * (n + 1)) 4 0 (Z.max m 1)) (field T' (6 * (n + 1)) 4 2 (Z.max m 1)) Rm1') by (try apply zlen_field; lia).
  eapply sim_bind; [eapply sim_wp; [apply sim_refl|apply (@irc_starts_ok m n p A); auto; apply zlen_field; lia]|]. intros [[Rs Rd] Rm2] ? ((L6 & L7 & L8 & ERs) & <-).
  eapply sim_bind; [eapply sim_wp; [apply (@rows_sim (TT n p A) jb Rd Rm2); [intros r Hr; apply ERs; exact Hr|lia]|apply (@irc_rows_ok m n p A); auto; intros r Hr; split; apply ERs; exact Hr]|].
  intros [[B Rd1] Rm3] [[B' Rd1'] Rm3'] ((I & L9 & L10) & LB & <- & <-).
  assert (LB2 : Low (2 * nz) B B').
  { eapply agree_sub; [exact LB|]. cbv beta. intros j Hj. destruct (Z_lt_le_dec j nz) as [X|X]; [left; exact X|right]. pose proof (@TT_m m n p A Hn P0 PM AR) as TM. destruct (@cover (TT n p A) m j Hm) as (r & Hr & Y); [rewrite TM, TT_0; unfold PCol14.nnz; fold nz; lia|].
    exists r. split; [lia|]. rewrite (ti_P I Hr). rewrite <- TT_S by lia. exact Y. }
  apply sim_same. intros [Rd2 Rm4] _. eapply sim_bind with (R := fun a b => let '(B, p, Cs) := a in let '(B', p', Cs') := b in Low (2 * nz) B B' /\ p = p' /\ Cs = Cs').
  - destruct jb; [|cbn [sim]; auto]. apply rebuild_sim; [exact LB2|]. intros r Hr. destruct (ERs r Hr) as (-> & _). rewrite ERl by exact Hr. rewrite <- TT_S by lia. pose proof (@TT_m m n p A Hn P0 PM AR) as TM. fold nz in TM. change (PCol14.nnz n p) with nz in TM. rewrite <- TM. apply (@TT_mono m n p A); auto; lia.
  - intros [[D d] E] [[D' d'] E'] (LD & <- & <-). cbn [sim Rar]. split; [|reflexivity]. exists D'. auto.
Qed.
End Init.

Theorem colamd_uninit ag m n dr dc A A' p : 0 <= m -> 0 <= n -> zlen p = n + 1 -> rd p 0 = 0 -> (forall x, 0 <= x < n -> rd p x <= rd p (x + 1)) ->
  (forall j, 0 <= j < rd p n -> 0 <= rd A j < m) -> (forall x i j, 0 <= x < n -> rd p x <= i < rd p (x + 1) -> rd p x <= j < rd p (x + 1) -> rd A i = rd A j -> i = j) ->
  2 * rd p n + n + 6 * (n + 1) + 4 * (m + 1) <= zlen A -> zlen A' = zlen A -> (forall j, 0 <= j < rd p n -> rd A' j = rd A j) ->
  colamd ag m n dr dc A p = colamd ag m n dr dc A' p.
Proof.
  intros Hm Hn Lp P0 PM AR AI LA LA' EA. assert (N0 : 0 <= rd p n) by (rewrite <- P0; apply (@mono_le (rd p) n PM); lia).
  unfold colamd. destruct ((m <? 0) || (n <? 0)); [reflexivity|]. rewrite !get_rd by lia. cbn [bind]. destruct ((rd p n <? 0) || negb (rd p 0 =? 0)); [reflexivity|]. cbv zeta. rewrite LA'.
  destruct (2 * rd p n + n + 6 * (n + 1) + 4 * (m + 1) >? zlen A); [reflexivity|].
  set (k := zlen A - (6 * (n + 1) + 4 * (m + 1))). set (T := skipn (Z.to_nat k) A). set (T' := skipn (Z.to_nat k) A'). clearbody T T'.
  assert (Hk : 2 * rd p n + n <= k <= zlen A) by (unfold k; lia).
  assert (L1 : zlen (firstn (Z.to_nat k) A) = k) by (apply zlen_firstn; lia). assert (L1' : zlen (firstn (Z.to_nat k) A') = k) by (apply zlen_firstn; lia).
  assert (E1 : forall j, 0 <= j < k -> rd (firstn (Z.to_nat k) A) j = rd A j) by (intros j Hj; apply rd_firstn; exact Hj). assert (E1' : forall j, 0 <= j < k -> rd (firstn (Z.to_nat k) A') j = rd A' j) by (intros j Hj; apply rd_firstn; exact Hj).
  set (B := firstn (Z.to_nat k) A) in *. set (B' := firstn (Z.to_nat k) A') in *. clearbody B B'.
  assert (HR : forall j, 0 <= j < rd p n -> 0 <= rd B j < m) by (intros j Hj; rewrite E1 by lia; auto).
  assert (HI : forall x, 0 <= x < n -> injs B (rd p x) (rd p (x + 1) - rd p x)).
  { intros x Hx i j Hi Hj E. pose proof (@mono_le (rd p) n PM 0 x). pose proof (@mono_le (rd p) n PM (x + 1) n). rewrite !E1 in E by lia. apply (AI x); auto; lia. }
  assert (LO : Low (rd p n) B B'). { split; [lia|]. intros i Hi. destruct (Z_lt_le_dec i 0); [rewrite !get_out by lia; reflexivity|]. rewrite !get_rd by lia. rewrite E1, E1', EA by lia. reflexivity. }
  apply sim_eq. eapply sim_bind; [eapply sim_wp; [apply (@init_rows_cols_sim m n p B B' Hm Hn Lp P0 PM HR HI ltac:(lia) LO T T')|apply (@init_rows_cols_ok m n p B Hm Hn Lp P0 PM HR HI)]; unfold PCol14.nnz; lia|].
  intros [ar p1] [ar' p1'] ((Lp' & LB & I & LRd & ER & AC & ECt & L2 & L3 & L4) & RA & <-). unfold PCol14.nnz in I.
  pose proof (@init_scoring_sim (2 * rd p n) m n dr dc ar ar' p1 Hn RA (mem_cols I)) as S1. rewrite (me_Cs I), (me_Cl I) in S1. specialize (S1 eq_refl).
  destruct ar as [A2 Rs Rl Rd Rm Cs Cl Ct Co Cp Cn]. cbn [a_A a_Rs a_Rl a_Rd a_Rm a_Cs a_Cl a_Ct a_Co a_Cp a_Cn] in *.
  eapply sim_bind; [eapply sim_wp; [exact S1|apply (@init_scoring_ok m n (rd p n) A2 Rs Rl Rd Rm Cs Cl I LRd ER AC dr dc Ct Co Cp Cn p1); auto; lia]|].
  intros [[[ar2 h] n2] mx] [[[ar2' h'] n2'] mx'] ((J & Lh) & R2 & <- & <- & <-). rewrite (@find_ordering_sim ag m n n2 (rd p n) ar2 ar2' h mx (2 * rd p n) h J R2). apply sim_refl.
Qed.

(* SLIP_LU_analyze: nothing that malloc leaves in the workspace of COLAMD reaches the result *)
Theorem analyze_uninit ol ol' A Ap Ai n o :
  m_kind A = KCSC -> m_m A = n -> m_n A = n -> m_p A = Some Ap -> m_i A = Some Ai -> valid_pattern n n Ap Ai ->
  ol_dense ol' n = ol_dense ol n -> opt_order o <> ORD_AMD ->
  SLIP_LU_analyze ol true true (Some A) o = SLIP_LU_analyze ol' true true (Some A) o.
Proof.
  intros Hk Hm Hn Hp Hi V HD HO. destruct (nnz_csc A Hk Hn Hp V) as [Hz Hz0].
  unfold SLIP_LU_analyze. change (negb true) with false. cbv iota. destruct (negb (has_kind (Some A) KCSC)); [reflexivity|].
  destruct (false || negb (m_n A =? m_m A)); [reflexivity|]. rewrite Hz. f_equal.
  unfold analyze_core. rewrite Hp, Hi, Hn. cbn [deref bind]. apply (f_equal (fun x => bind x _)).
  destruct (Z.eqb_spec (opt_order o) ORD_NONE); [reflexivity|]. destruct (Z.eqb_spec (opt_order o) ORD_AMD); [contradiction|].
  pose proof (vp_n V) as Hn0. pose proof (vp_p V) as Hpl. pose proof (vp_cap V).
  destruct (wp_ok_ex _ _ (@memcpy_all Z (malloced ol 0 (n + 1)) Ap (n + 1) nerr ltac:(apply zlen_malloced; lia) Hpl)) as (q0 & -> & ->).
  destruct (wp_ok_ex _ _ (@memcpy_all Z (malloced ol' 0 (n + 1)) Ap (n + 1) nerr ltac:(apply zlen_malloced; lia) Hpl)) as (q0 & -> & ->). cbn [bind].
  assert (M : forall ol, exists a2, memcpy (malloced ol 4 (2 * rd Ap n + 12 * (n + 1) + n)) Ai (rd Ap n) = Ok a2 /\ zlen a2 = 2 * rd Ap n + 12 * (n + 1) + n /\ (forall j, 0 <= j < rd Ap n -> rd a2 j = rd Ai j)).
  { intros l. destruct (wp_ok_ex _ _ (@memcpy_spec Z 0 (malloced l 4 (2 * rd Ap n + 12 * (n + 1) + n)) Ai (rd Ap n) nerr Hz0 ltac:(rewrite zlen_malloced; lia) ltac:(lia))) as (a2 & E & L & X & _). rewrite zlen_malloced in L by lia. exists a2. split; [exact E|]. split; [exact L|]. intros j Hj. apply (X j Hj). }
  destruct (M ol) as (a & -> & La & Ea). destruct (M ol') as (b & -> & Lb & Eb). cbn [bind]. unfold colamd_l. rewrite HD.
  rewrite (@colamd_uninit true n n (ol_dense ol n) (ol_dense ol n) a b Ap); auto; try apply V; try lia.
  - intros j Hj. rewrite Ea by exact Hj. apply (vp_i V Hj).
  - intros x i j Hx Hi' Hj X. pose proof (vp_0 V). pose proof (@mono_le (rd Ap) n (vp_mono V) 0 x). pose proof (@mono_le (rd Ap) n (vp_mono V) (x + 1) n). rewrite !Ea in X by lia. apply (vp_dup V Hx); auto.
  - intros j Hj. rewrite Ea, Eb by exact Hj. reflexivity.
Qed.
