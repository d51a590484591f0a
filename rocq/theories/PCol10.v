(* COLAMD, part 10: the invariant after one iteration of the main loop. *)
From Verif Require Import Base Det DetZ Spec MColamd PCol1 PCol2 PCol3 PCol4 PCol5 PCol6 PCol7 PCol8 PCol9.
Set Implicit Arguments.
Open Scope Z_scope.
Set Bullet Behavior "Strict Subproofs".

Section Post.
Variables (m n n2 cend pf q : Z) (A B Rs Rl Rd Rm Rm2 Cs Cl Ct Co0 Cp0 Cn0 head0 : list Z) (p k0 max_deg md tag : Z) (grp sz rk : Z -> Z).
Let M := Mof A Cs Cl.
Let PRb := prb m A Cs Cl p.
Let M6' := M6 A Rm2 Cs Cl.
Hypothesis I : mem m n cend pf A Rs Rl Rm Cs Cl.
Hypothesis N : num m n M (alv Cs) Rd Rm (rd Ct) max_deg tag.
Hypothesis LCt : zlen Ct = n.
Hypothesis TH : forall c, 0 <= c < n -> 0 <= rd Cs c -> 1 <= rd Ct c.
Hypothesis Hp : 0 <= p < n.
Hypothesis Ap : 0 <= rd Cs p.
Hypothesis LB : zlen B = zlen A.
Hypothesis EB : forall j, 0 <= j < pf -> rd B j = rd A j.
Hypothesis Hq : pf <= q /\ q <= zlen A.
Hypothesis JB : injs B pf (q - pf).
Hypothesis RB : forall j, pf <= j < q -> 0 <= rd B j < n.
Hypothesis PB : forall c, 0 <= c < n -> memb B pf (q - pf) c = PRb c.
Hypothesis LRm2 : zlen Rm2 = Z.max m 1.
Hypothesis F1 : forall r, 0 <= r < m -> 0 <= rd Rm2 r -> 0 <= rd Rm r /\ M p r = false /\ rd Rm2 r < tag + max_deg + 1.
Hypothesis F3 : forall r c, 0 <= r < m -> 0 <= c < n -> 0 <= rd Cs c -> c <> p -> PRb c = false -> M c r = true -> 0 <= rd Rm2 r.
Hypothesis D0 : dlist n (actN m n A Cs Cl p) (rd Co0) (rd Cn0) (rd Cp0) (rd head0) rk.
Hypothesis LD0 : led n n2 k0 (fun c => if c =? p then -1 else rd Cs c) (rd Ct) (rd Co0) grp sz.
Hypothesis MD : md = Z.max max_deg (wt n PRb (rd Ct)).
Hypothesis EX0 : forall c, 0 <= c < n -> 0 <= rd Cs c -> c <> p -> ext m n M (alv Cs) (rd Ct) c <= rd Co0 c.
(* after fo_add *)
Variables (A6 Cs6 Cl6 Co6 Cp6 Cn6 head6 : list Z) (dg k : Z).
Hypothesis AI : ainv m n n2 cend pf q A B Rm2 Cs Cl Ct Co0 Cp0 Cn0 head0 p grp sz q (A6, Cs6, Cl6, Co6, Cp6, Cn6, head6, dg, k).
(* after detect_super_cols *)
Variables (Cs7 Ct7 Co7 Cn7 : list Z).
Let PO := pos B pf q.
Hypothesis DI : dsi n n2 k p A6 Cl6 Cs6 Ct Co6 Cp6 Cn6 PRb PO (Cs7, Ct7, Co7, Cn7).
Let Cs8 := wr Cs7 p (-1).

Lemma PRp : PRb p = false.
Proof. destruct (PRb p) eqn:E; [|reflexivity]. apply prb_spec in E. destruct E as (_ & E & _). congruence. Qed.
Lemma preq c : 0 <= c < n -> pre7 pf B q c = PRb c.
Proof. intros Hc. apply PB. exact Hc. Qed.
Lemma Mr c r : 0 <= c < n -> 0 <= rd Cs c -> M c r = true -> 0 <= r < m /\ 0 <= rd Rm r.
Proof.
  intros Hc Ac H. unfold M, Mof in H. apply memb_spec in H. destruct H as (j & Hj & <-). destruct (me_cr I Hc Ac Hj) as (X1 & X2). destruct (me_c I Hc Ac). destruct (me_b I).
  pose proof (me_pos I (j := j) ltac:(lia)). lia.
Qed.

(* the columns alive in Cs6: those of Cs, without the eliminated ones *)
Lemma al6 c : 0 <= c < n -> rd Cs6 c = rd Cs c \/ (rd Cs6 c = -1 /\ PRb c = true /\ forall r, M6' c r = false).
Proof.
  intros Hc. destruct AI as (_ & _ & _ & Q3 & Q4 & _). destruct (PRb c) eqn:P.
  - assert (X : pre7 pf B q c = true) by (rewrite preq by exact Hc; exact P). destruct (Q4 c Hc X) as (_ & X1 & _ & [(X2 & X3)|(_ & X3 & _)]); [right|left; exact X3].
    split; [exact X3|]. split; [reflexivity|]. intros r. unfold M6'. rewrite <- X1. apply memb_0. lia.
  - left. apply (Q3 c Hc). rewrite preq by exact Hc. exact P.
Qed.
Lemma pr6 c : PRb c = true -> 0 <= rd Cs c /\ c <> p. Proof. intros H. apply prb_spec in H. tauto. Qed.
Lemma al8 c : 0 <= c < n -> 0 <= rd Cs8 c -> c <> p /\ rd Cs8 c = rd Cs c /\ rd Cs7 c = rd Cs c /\ rd Cs6 c = rd Cs c.
Proof.
  intros Hc H. destruct DI as ((L1 & _) & J1 & _). unfold Cs8 in *. destruct (Z.eq_dec c p) as [->|Np]; [rewrite rd_wr_eq in H by lia; lia|]. rewrite rd_wr_ne in * by lia.
  destruct (J1 c Hc) as [E|(_ & _ & E)]; [|lia]. rewrite E in *. destruct (al6 Hc) as [E'|(E' & _)]; [|lia]. auto.
Qed.
Lemma np8 c : 0 <= c < n -> c <> p -> PRb c = false -> rd Cs8 c = rd Cs c /\ rd Ct7 c = rd Ct c.
Proof.
  intros Hc Np P. destruct DI as ((L1 & _) & J1 & J2 & _). unfold Cs8. rewrite rd_wr_ne by lia. split; [|apply (J2 c Hc P)]. destruct (J1 c Hc) as [E|(E & _)]; [|congruence].
  destruct (al6 Hc) as [E'|(_ & E' & _)]; congruence.
Qed.
Lemma pat6 c : 0 <= c < n -> 0 <= rd Cs6 c -> c <> p -> rd Cs6 c = rd Cs c /\ 0 <= rd Cl6 c /\ rd Cl6 c + b2z (PRb c) <= rd Cl c /\ (forall r, memb A6 (rd Cs c) (rd Cl6 c) r = M6' c r) /\ injs A6 (rd Cs c) (rd Cl6 c).
Proof.
  intros Hc H Np. destruct (al6 Hc) as [E|(E & _)]; [|lia]. rewrite E in H. split; [exact E|]. destruct AI as (_ & _ & _ & Q3 & Q4 & _). destruct (PRb c) eqn:P; cbn [b2z].
  - assert (X : pre7 pf B q c = true) by (rewrite preq by exact Hc; exact P). destruct (Q4 c Hc X) as (X0 & X1 & X2 & _). split; [lia|]. split; [lia|]. auto.
  - destruct (Q3 c Hc) as (_ & _ & X1 & X2); [rewrite preq by exact Hc; exact P|]. rewrite X1. destruct (me_c I Hc H) as (X3 & _). split; [exact X3|]. split; [lia|]. split.
    + intros r. rewrite (@memb_ext A6 A) by (apply X2; exact H). unfold M6', M6. change (memb A (rd Cs c) (rd Cl c) r) with (M c r). change (Mof A Cs Cl c r) with (M c r). destruct (M c r) eqn:Mc; [|reflexivity].
      destruct (@Mr c r Hc H Mc) as (Hr & _). pose proof (F3 Hr Hc H Np P Mc) as X. unfold al2. symmetry. apply Z.leb_le. exact X.
    + apply (@injs_ext A); [intros j Hj; symmetry; apply X2; auto|apply (me_ci I Hc H)].
Qed.
Lemma th8 c : 0 <= c < n -> 0 <= rd Cs8 c -> 1 <= rd Ct7 c.
Proof.
  intros Hc H. destruct (al8 Hc H) as (Np & E1 & E2 & _). destruct DI as (_ & _ & _ & _ & _ & (g & s & L) & _). apply (led_pos L Hc). cbv beta. rewrite (proj2 (Z.eqb_neq c p) Np). lia.
Qed.
(* weighted sums over the columns *)
Lemma sum8 f : f p = 0 -> (forall c c', 0 <= c < n -> 0 <= c' < n -> PRb c = true -> PRb c' = true -> (forall r, M6' c r = M6' c' r) -> f c = f c') ->
  sumz n (fun c => if alv Cs8 c then f c * rd Ct7 c else 0) = sumz n (fun c => if alv Cs6 c then f c * rd Ct c else 0).
Proof.
  intros Fp H. destruct DI as ((L1 & _) & J1 & _ & _ & J4 & _). rewrite <- J4.
  - apply sumz_ext. intros c Hc. unfold alv, Cs8. destruct (Z.eq_dec c p) as [->|Np]; [rewrite Fp; destruct (0 <=? _), (0 <=? _); lia|]. rewrite rd_wr_ne by lia. reflexivity.
  - intros c c' (Hc & P & Ac) (Hc' & P' & Ac') E. apply H; auto. intros r. destruct (@pr6 _ P) as (_ & Np). destruct (@pr6 _ P') as (_ & Np'). destruct (pat6 Hc Ac Np) as (X1 & _ & _ & X2 & _). destruct (pat6 Hc' Ac' Np') as (Y1 & _ & _ & Y2 & _).
    rewrite <- X2, <- Y2. rewrite <- X1, <- Y1. apply E.
Qed.
(* the pivot column was the only one to ... *)
Lemma k_grows : k0 <= k.
Proof.
  pose proof (ld_sum LD0) as S0. destruct AI as (_ & _ & _ & _ & _ & LK & _). pose proof (ld_sum LK) as S1.
  assert (S : sumz n (fun c => if 0 <=? (if c =? p then -1 else rd Cs6 c) then rd Ct c else 0) <= sumz n (fun c => if 0 <=? (if c =? p then -1 else rd Cs c) then rd Ct c else 0)); [|cbv beta in S0, S1; lia].
  apply sumz_le. intros c Hc. destruct (c =? p); [cbn; lia|]. destruct (al6 Hc) as [->|(-> & P & _)]; [lia|]. destruct (@pr6 _ P) as (X & _). pose proof (TH Hc X). cbn. destruct (0 <=? rd Cs c); lia.
Qed.
Lemma dg_eq : dg = wt n (fun c => PRb c && alv Cs8 c) (rd Ct7).
Proof.
  destruct AI as (_ & _ & _ & _ & _ & _ & EDG & _). rewrite EDG. pose proof (@sum8 (fun c => b2z (PRb c))) as S. cbv beta in S. rewrite PRp in S. specialize (S eq_refl).
  transitivity (sumz n (fun c => if alv Cs6 c then b2z (PRb c) * rd Ct c else 0)).
  - apply sumz_ext. intros c _. fold PRb. destruct (PRb c), (alv Cs6 c); cbn [andb b2z]; lia.
  - rewrite <- S by (intros c c' _ _ -> -> _; reflexivity). apply sumz_ext. intros c _. destruct (PRb c), (alv Cs8 c); cbn [andb b2z]; lia.
Qed.
Lemma dg_md : dg <= md.
Proof.
  destruct AI as (_ & _ & _ & _ & _ & _ & EDG & _). rewrite EDG. assert (wt n (fun c => PRb c && alv Cs6 c) (rd Ct) <= wt n PRb (rd Ct)); [|fold PRb; lia]. apply wt_le.
  - intros c _ H. apply Bool.andb_true_iff in H. apply H.
  - intros c Hc H. destruct (@pr6 _ H) as (X & _). pose proof (TH Hc X). lia.
Qed.
(* the rows that are still alive keep their degree *)
Lemma rd8 r : 0 <= r < m -> 0 <= rd Rm2 r -> rd Rd r = wt n (fun c => alv Cs8 c && M6' c r) (rd Ct7).
Proof.
  intros Hr HR. destruct (F1 Hr HR) as (HR0 & Mp & _). destruct (nu_d N Hr HR0) as (-> & _).
  assert (AL : al2 Rm2 r = true) by (apply Z.leb_le; exact HR). assert (ME : forall c, M6' c r = M c r) by (intros c; unfold M6', M6; rewrite AL; apply Bool.andb_true_r).
  pose proof (@sum8 (fun c => b2z (M6' c r))) as S. cbv beta in S. rewrite (ME p), Mp in S. specialize (S eq_refl ltac:(intros c c' _ _ _ _ E; rewrite E; reflexivity)).
  transitivity (sumz n (fun c => if alv Cs6 c then b2z (M6' c r) * rd Ct c else 0)).
  - apply sumz_ext. intros c Hc. rewrite ME. destruct (al6 Hc) as [E|(E & P & X)].
    + unfold alv. rewrite E. destruct (0 <=? rd Cs c), (M c r); cbn [andb b2z]; lia.
    + rewrite <- ME, X. rewrite Bool.andb_false_r. destruct (alv Cs6 c); cbn; lia.
  - rewrite <- S. apply sumz_ext. intros c _. destruct (alv Cs8 c), (M6' c r); cbn [andb b2z]; lia.
Qed.

Lemma led8 : exists g s, led n n2 k (rd Cs8) (rd Ct7) (rd Co7) g s.
Proof.
  destruct DI as ((L1 & _) & _ & _ & _ & _ & (g & s & L) & _). exists g, s. eapply led_ext; [exact L|]. intros c Hc. cbv beta. split; [|auto]. left. unfold Cs8. destruct (Z.eqb_spec c p) as [->|X]; [apply rd_wr_eq; lia|apply rd_wr_ne; lia].
Qed.
Lemma sum_alive c : 0 <= c < n -> 0 <= rd Cs8 c -> forall b, (forall x, 0 <= x < n -> b x = true -> 0 <= rd Cs8 x) -> b c = false -> wt n b (rd Ct7) <= n - k - rd Ct7 c.
Proof.
  intros Hc Ac b Hb Bc. destruct led8 as (g & s & L). destruct (ld_k L) as (K1 & K2 & K3). pose proof (@led_sum_le n n2 k _ _ _ g s (fun x => b x || (x =? c)) L) as S.
  pose proof (@wt_add n b (fun x => b x || (x =? c)) (rd Ct7) c Hc Bc (fun _ _ => eq_refl)) as W. unfold wt in W at 1. cbv beta in S, W. rewrite W in S.
  assert (wt n b (rd Ct7) + rd Ct7 c <= n2 - k); [|lia]. apply S. intros x Hx H. apply Bool.orb_true_iff in H. destruct H as [H|H]; [apply Hb; auto|]. apply Z.eqb_eq in H. subst x. exact Ac.
Qed.

(* after fo_final *)
Variables (A8 Cl8 Co8 Cp8 Cn8 head8 : list Z) (mn8 w prow : Z).
Hypothesis FI : finv n k cend pf q A6 Cl6 Co7 Cs8 Ct7 PRb prow dg q (A8, Cl8, Co8, Cp8, Cn8, head8, mn8, w).
Hypothesis PROW : dg > 0 -> 0 <= prow < m /\ M p prow = true.
Let new : bool := dg >? 0.
Let M8 := Mof A8 Cs8 Cl8.

Lemma pre9q c : 0 <= c < n -> pre9 pf A6 q c = PRb c.
Proof.
  intros Hc. destruct AI as (_ & Q1 & _). unfold pre9. rewrite <- (PB Hc). apply memb_ext. intros j Hj. apply Q1. destruct (me_b I). lia.
Qed.
Lemma new_pr c : 0 <= c < n -> 0 <= rd Cs8 c -> PRb c = true -> dg > 0.
Proof.
  intros Hc Ac P. pose proof (th8 Hc Ac) as T. rewrite dg_eq. assert (rd Ct7 c <= wt n (fun c => PRb c && alv Cs8 c) (rd Ct7)); [|lia]. apply (@wt_in n (fun c => PRb c && alv Cs8 c) (rd Ct7) c).
  - intros x Hx H. apply Bool.andb_true_iff in H. destruct H as (_ & H). apply alv_spec in H. pose proof (th8 Hx H). lia.
  - exact Hc.
  - rewrite P. apply alv_spec. exact Ac.
Qed.
Lemma prow_dead : dg > 0 -> rd Rm2 prow < 0.
Proof. intros H. destruct (PROW H) as (H1 & H2). destruct (Z_lt_le_dec (rd Rm2 prow) 0) as [X|X]; [exact X|]. destruct (F1 H1 X) as (_ & Y & _). congruence. Qed.
Lemma m8 c r : 0 <= c < n -> 0 <= rd Cs8 c -> M8 c r = M6' c r || (PRb c && (prow =? r)).
Proof.
  intros Hc Ac. destruct (al8 Hc Ac) as (Np & E1 & E2 & E3). destruct (@pat6 c Hc ltac:(lia) Np) as (_ & P1 & P2 & P3 & P4). destruct FI as (_ & _ & _ & _ & _ & _ & _ & Q6 & _). destruct (Q6 c Hc Ac) as (X1 & X2 & X3).
  rewrite (pre9q Hc) in *. unfold M8, Mof. rewrite X1, E1 in *. destruct (PRb c) eqn:P; cbn [b2z andb].
  - rewrite memb_S by lia. rewrite X3 by reflexivity. rewrite (@memb_ext A8 A6) by exact X2. rewrite P3. reflexivity.
  - rewrite Z.add_0_r, Bool.orb_false_r. rewrite (@memb_ext A8 A6) by exact X2. apply P3.
Qed.
Lemma m6_prow c : 0 <= c < n -> 0 <= rd Cs8 c -> dg > 0 -> M6' c prow = false.
Proof. intros Hc Ac H. unfold M6', M6, al2. rewrite (proj2 (Z.leb_gt 0 (rd Rm2 prow))) by (apply prow_dead; exact H). apply Bool.andb_false_r. Qed.
Lemma m6_al c r : M6' c r = true -> M c r = true /\ 0 <= rd Rm2 r.
Proof. intros H. unfold M6', M6 in H. apply Bool.andb_true_iff in H. destruct H as (H1 & H2). apply Z.leb_le in H2. auto. Qed.

Variables (Rs' Rl' Rd' Rm' : list Z) (tag' : Z).
Hypothesis LR : zlen Rs' = Z.max m 1 /\ zlen Rl' = m /\ zlen Rd' = Z.max m 1 /\ zlen Rm' = Z.max m 1.
Hypothesis RO : forall r, 0 <= r < m -> new && (r =? prow) = false -> rd Rs' r = rd Rs r /\ rd Rl' r = rd Rl r /\ rd Rd' r = rd Rd r /\ (0 <= rd Rm' r <-> 0 <= rd Rm2 r).
Hypothesis RN : dg > 0 -> rd Rs' prow = pf /\ rd Rl' prow = w - pf /\ rd Rd' prow = dg /\ rd Rm' prow = 0.
Hypothesis RT : 1 <= tag' /\ forall r, 0 <= r < m -> rd Rm' r < tag'.

Lemma rcase r : 0 <= r < m -> 0 <= rd Rm' r -> (dg > 0 /\ r = prow) \/ (new && (r =? prow) = false /\ 0 <= rd Rm2 r /\ 0 <= rd Rm r /\ rd Rs' r = rd Rs r /\ rd Rl' r = rd Rl r /\ rd Rd' r = rd Rd r).
Proof.
  intros Hr H. destruct (new && (r =? prow)) eqn:E.
  - left. apply Bool.andb_true_iff in E. destruct E as (E & E'). unfold new in E. rewrite Z.gtb_lt in E. apply Z.eqb_eq in E'. split; [lia|exact E'].
  - right. destruct (RO Hr E) as (X1 & X2 & X3 & X4). apply X4 in H. destruct (F1 Hr H) as (X5 & _). auto 10.
Qed.
Lemma row_seg r : 0 <= r < m -> 0 <= rd Rm r -> forall j, rd Rs r <= j < rd Rs r + rd Rl r -> rd A8 j = rd A j.
Proof.
  intros Hr H j Hj. destruct (me_r I Hr H) as (X1 & X2 & X3). destruct (me_b I) as (B1 & B2 & B3). destruct FI as ((L & _) & _ & Q1 & _). destruct AI as ((L' & _) & Q1' & _). rewrite Q1 by lia. rewrite Q1' by lia. apply EB. lia.
Qed.

Lemma mem8 : mem m n cend q A8 Rs' Rl' Rm' Cs8 Cl8.
Proof.
  destruct (me_b I) as (B1 & B2 & B3). pose proof FI as ((L1 & L2 & _) & Hw & Q1 & Q2 & Q3 & Q4 & Q5 & Q6 & _). pose proof AI as ((L' & _) & Q1' & _). pose proof DI as ((L7 & _) & _).
  assert (CL : forall c, 0 <= c < n -> 0 <= rd Cs8 c -> 0 <= rd Cl8 c <= rd Cl c /\ rd Cs8 c = rd Cs c /\ 0 <= rd Cs c).
  { intros c Hc Ac. destruct (al8 Hc Ac) as (Np & E1 & E2 & E3). destruct (@pat6 c Hc ltac:(lia) Np) as (_ & P1 & P2 & _). destruct (Q6 c Hc Ac) as (X & _). rewrite X, pre9q by exact Hc. pose proof (b2z01 (PRb c)). lia. }
  constructor.
  - apply (me_m I).
  - apply (me_n I).
  - apply LR.
  - apply LR.
  - apply LR.
  - unfold Cs8. rewrite zlen_wr. exact L7.
  - exact L2.
  - lia.
  - intros c Hc Ac. destruct (CL c Hc Ac) as (X1 & X2 & X3). destruct (me_c I Hc X3). lia.
  - intros c c' H1 H2 H3 Ac Ac'. destruct (CL c ltac:(lia) Ac) as (X1 & X2 & X3). destruct (CL c' ltac:(lia) Ac') as (Y1 & Y2 & Y3). pose proof (me_o I H1 H2 H3 X3 Y3). lia.
  - intros r Hr H. destruct (rcase Hr H) as [(E & ->)|(_ & _ & R0 & E1 & E2 & _)].
    + destruct (RN E) as (-> & -> & _). lia.
    + rewrite E1, E2. destruct (me_r I Hr R0). lia.
  - intros r r' j Hr Hr' Nr H H' Hj Hj'. destruct (rcase Hr H) as [(E & ->)|(_ & _ & R0 & E1 & E2 & _)], (rcase Hr' H') as [(E' & ->)|(_ & _ & R0' & E1' & E2' & _)].
    + congruence.
    + destruct (RN E) as (X1 & X2 & _). destruct (me_r I Hr' R0'). lia.
    + destruct (RN E') as (X1 & X2 & _). destruct (me_r I Hr R0). lia.
    + rewrite E1, E2, E1', E2' in *. apply (me_d I Hr Hr' Nr R0 R0' Hj Hj').
  - intros j Hj. destruct (Z_lt_le_dec j pf); [apply Q2|apply Q3]; lia.
  - intros r j Hr H Hj. destruct (rcase Hr H) as [(E & ->)|(_ & _ & R0 & E1 & E2 & _)].
    + destruct (RN E) as (X1 & X2 & _). apply Q3. lia.
    + rewrite E1, E2 in Hj. rewrite (row_seg Hr R0 Hj). apply (me_e I Hr R0 Hj).
  - intros c Hc Ac. destruct (al8 Hc Ac) as (Np & E1 & E2 & E3). destruct (@pat6 c Hc ltac:(lia) Np) as (_ & P1 & P2 & P3 & P4). destruct (Q6 c Hc Ac) as (X1 & X2 & X3). rewrite pre9q in * by exact Hc. rewrite X1. pose proof Ac as Ac8. rewrite E1 in Ac, X2, X3 |- *.
    assert (J : injs A8 (rd Cs c) (rd Cl6 c)) by (apply (@injs_ext A6); [intros j Hj; symmetry; apply X2; exact Hj|exact P4]). destruct (PRb c) eqn:P; cbn [b2z]; [|rewrite Z.add_0_r; exact J].
    apply injs_S; [exact P1|]. split; [exact J|]. rewrite X3 by reflexivity. rewrite (@memb_ext A8 A6) by exact X2. rewrite P3. apply (m6_prow Hc Ac8). apply (new_pr Hc Ac8 P).
  - intros c j Hc Ac Hj. assert (X : M8 c (rd A8 j) = true) by (apply memb_at; exact Hj). rewrite (m8 _ Hc Ac) in X. apply Bool.orb_true_iff in X. destruct (al8 Hc Ac) as (Np & E1 & E2 & E3). destruct X as [X|X].
    + destruct (m6_al _ _ X) as (Y1 & Y2). destruct (@Mr c _ Hc ltac:(lia) Y1) as (Y3 & _). split; [lia|]. destruct (new && (rd A8 j =? prow)) eqn:E.
      * apply Bool.andb_true_iff in E. destruct E as (E & E'). unfold new in E. rewrite Z.gtb_lt in E. apply Z.eqb_eq in E'. rewrite E'. destruct (RN ltac:(lia)) as (_ & _ & _ & ->). lia.
      * apply (RO Y3 E). exact Y2.
    + apply Bool.andb_true_iff in X. destruct X as (X1 & X2). apply Z.eqb_eq in X2. rewrite <- X2. pose proof (new_pr Hc Ac X1) as G. destruct (PROW G). destruct (RN G) as (_ & _ & _ & ->). lia.
  - intros r Hr H. destruct (rcase Hr H) as [(E & ->)|(_ & _ & R0 & E1 & E2 & _)].
    + destruct (RN E) as (-> & -> & _). exact Q4.
    + rewrite E1, E2. apply (@injs_ext A); [intros j Hj; symmetry; apply (row_seg Hr R0 Hj)|apply (me_ri I Hr R0)].
  - intros c r Hc Ac Hr H. change (memb A8 (rd Cs8 c) (rd Cl8 c) r) with (M8 c r). rewrite (m8 _ Hc Ac). destruct (al8 Hc Ac) as (Np & X1 & X2 & X3). destruct (rcase Hr H) as [(E & ->)|(NR & R2 & R0 & E1 & E2 & _)].
    + destruct (RN E) as (-> & -> & _). rewrite (Q5 c Hc), pre9q by exact Hc. rewrite (proj2 (alv_spec Cs8 c)) by exact Ac. rewrite Z.eqb_refl, (m6_prow Hc Ac E), !Bool.andb_true_r. reflexivity.
    + rewrite E1, E2. rewrite (@memb_ext A8 A) by (intros j Hj; apply (row_seg Hr R0 Hj)). rewrite (me_m2 I Hc ltac:(lia) Hr R0).
      change (memb A (rd Cs c) (rd Cl c) r) with (M c r). unfold M6', M6, al2. rewrite (proj2 (Z.leb_le 0 (rd Rm2 r)) R2), Bool.andb_true_r. change (Mof A Cs Cl c r) with (M c r).
      destruct (PRb c) eqn:P; cbn [andb]; [|rewrite Bool.orb_false_r; reflexivity]. destruct (Z.eqb_spec prow r) as [E|E]; [|rewrite Bool.orb_false_r; reflexivity]. exfalso. pose proof (new_pr Hc Ac P) as G. rewrite <- E in R2. pose proof (prow_dead G). lia.
Qed.

Lemma num8 : num m n M8 (alv Cs8) Rd' Rm' (rd Ct7) md tag'.
Proof.
  constructor.
  - apply LR.
  - intros r Hr H. destruct (rcase Hr H) as [(E & ->)|(NR & R2 & R0 & E1 & E2 & E3)].
    + destruct (RN E) as (_ & _ & -> & _). split; [|apply dg_md]. rewrite dg_eq at 1. apply wt_ext. intros c Hc. split; [|auto]. destruct (alv Cs8 c) eqn:Ac; [|apply Bool.andb_false_r]. apply alv_spec in Ac.
      rewrite (m8 _ Hc Ac), (m6_prow Hc Ac E), Z.eqb_refl, !Bool.andb_true_r. reflexivity.
    + rewrite E3. split; [|destruct (nu_d N Hr R0) as (_ & X); lia]. rewrite (rd8 Hr R2). apply wt_ext. intros c Hc. split; [|auto]. destruct (alv Cs8 c) eqn:Ac; [|reflexivity]. apply alv_spec in Ac. cbn [andb]. rewrite (m8 _ Hc Ac).
      destruct (PRb c) eqn:P; cbn [andb]; [|rewrite Bool.orb_false_r; reflexivity]. destruct (Z.eqb_spec prow r) as [E|E]; [|rewrite Bool.orb_false_r; reflexivity]. exfalso. pose proof (new_pr Hc Ac P) as G. rewrite <- E in R2. pose proof (prow_dead G). lia.
  - apply RT.
  - apply RT.
  - pose proof (nu_x N). lia.
Qed.

Lemma led9 : exists g s, led n n2 k (rd Cs8) (rd Ct7) (rd Co8) g s.
Proof.
  destruct led8 as (g & s & L). exists g, s. eapply led_ext; [exact L|]. intros c Hc. split; [left; reflexivity|]. split; [reflexivity|]. intros X. destruct FI as (_ & _ & _ & _ & _ & _ & _ & _ & Q7 & _). rewrite (Q7 c Hc).
  rewrite (proj2 (alv_false Cs8 c) X), Bool.andb_false_r. reflexivity.
Qed.

Lemma co8 c : 0 <= c < n -> 0 <= rd Cs8 c -> if PRb c then rd Co8 c = Z.min (rd Co6 c + dg - rd Ct7 c) (n - k - rd Ct7 c) else rd Co8 c = rd Co0 c.
Proof.
  intros Hc Ac. destruct FI as (_ & _ & _ & _ & _ & _ & _ & _ & Q7 & _). destruct (al8 Hc Ac) as (Np & X1 & X2 & X3). destruct DI as (_ & _ & _ & J3 & _). pose proof (J3 c Hc ltac:(congruence)) as E. rewrite (Q7 c Hc), pre9q, (proj2 (alv_spec Cs8 c) Ac), Bool.andb_true_r by exact Hc. destruct (PRb c) eqn:P.
  - unfold cur. rewrite E. reflexivity.
  - rewrite E. destruct AI as (_ & _ & _ & Q3 & _). apply (Q3 c Hc). rewrite preq by exact Hc. exact P.
Qed.

Lemma ext8 c : 0 <= c < n -> 0 <= rd Cs8 c -> ext m n M8 (alv Cs8) (rd Ct7) c <= rd Co8 c.
Proof.
  intros Hc Ac. pose proof (co8 Hc Ac) as CO. destruct (al8 Hc Ac) as (Np & X1 & X2 & X3).
  assert (T0 : forall x, 0 <= x < n -> alv Cs8 x = true -> 0 <= rd Ct7 x) by (intros x Hx H; apply alv_spec in H; pose proof (th8 Hx H); lia).
  (* two columns that are not both in the pivot row share only old rows *)
  assert (SH : forall x, 0 <= x < n -> 0 <= rd Cs8 x -> PRb c = false \/ PRb x = false -> sh m M8 c x = true -> sh m M6' c x = true).
  { intros x Hx Ax P H. apply sh_spec in H. destruct H as (r & Hr & H1 & H2). apply sh_spec. exists r. split; [exact Hr|]. rewrite (m8 _ Hc Ac) in H1. rewrite (m8 _ Hx Ax) in H2. apply Bool.orb_true_iff in H1, H2.
    assert (NP : forall y, 0 <= y < n -> 0 <= rd Cs8 y -> M6' y r = true -> forall z, 0 <= z < n -> 0 <= rd Cs8 z -> PRb z && (prow =? r) = true -> False).
    { intros y Hy Ay My z Hz Az Q. apply Bool.andb_true_iff in Q. destruct Q as (Q1 & Q2). apply Z.eqb_eq in Q2. subst r. rewrite (m6_prow Hy Ay (new_pr Hz Az Q1)) in My. discriminate. }
    destruct H1 as [H1|H1], H2 as [H2|H2]; auto.
    - exfalso. apply (NP c Hc Ac H1 x Hx Ax H2).
    - exfalso. apply (NP x Hx Ax H2 c Hc Ac H1).
    - exfalso. apply Bool.andb_true_iff in H1, H2. destruct H1 as (H1 & _), H2 as (H2 & _). destruct P; congruence. }
  destruct (PRb c) eqn:P.
  - rewrite CO. apply Z.min_glb.
    + (* the other columns of the pivot row, and the neighbours through old rows *)
      assert (PC : pre7 pf B q c = true) by (rewrite preq by exact Hc; exact P). destruct AI as (_ & _ & _ & _ & Q4 & _). destruct (Q4 c Hc PC) as (_ & _ & _ & [(_ & Y)|(_ & _ & _ & NPC)]); [lia|].
      unfold ext. rewrite (@wt_split n _ PRb).
      assert (S1 : wt n (fun x => alv Cs8 x && negb (x =? c) && sh m M8 c x && PRb x) (rd Ct7) + rd Ct7 c <= dg).
      { rewrite dg_eq. rewrite (@wt_add n (fun x => PRb x && alv Cs8 x && negb (x =? c)) (fun x => PRb x && alv Cs8 x) (rd Ct7) c Hc).
        - apply Z.add_le_mono_r. apply wt_le.
          + intros x Hx H. rewrite !Bool.andb_true_iff in *. tauto.
          + intros x Hx H. rewrite !Bool.andb_true_iff in *. apply T0; tauto.
        - rewrite Z.eqb_refl, Bool.andb_false_r. reflexivity.
        - intros x Hx. destruct (Z.eqb_spec x c) as [->|]; cbn [negb]; [rewrite P, (proj2 (alv_spec Cs8 c) Ac); reflexivity|rewrite Bool.andb_true_r, Bool.orb_false_r; reflexivity]. }
      assert (S2 : wt n (fun x => alv Cs8 x && negb (x =? c) && sh m M8 c x && negb (PRb x)) (rd Ct7) <= NP m n A Rm2 Cs Cl Ct p c).
      { unfold NP. apply sumz_le. intros x Hx. fold PRb. change (M6 A Rm2 Cs Cl) with M6'. destruct (alv Cs8 x && negb (x =? c) && sh m M8 c x && negb (PRb x)) eqn:E.
        - rewrite !Bool.andb_true_iff in E. destruct E as (((E1 & E2) & E3) & E4). apply alv_spec in E1. destruct (al8 Hx E1) as (Nx & Y1 & _). apply Bool.negb_true_iff in E4. destruct (np8 Hx Nx E4) as (_ & Y2).
          rewrite (SH x Hx E1 (or_intror E4) E3), E4, (proj2 (Z.eqb_neq x p) Nx), (proj2 (alv_spec Cs x)) by lia. cbn. lia.
        - destruct (alv Cs x && _ && _ && _) eqn:E'; [|lia]. rewrite !Bool.andb_true_iff in E'. destruct E' as (((E1 & _) & _) & _). apply alv_spec in E1. pose proof (TH Hx E1). lia. }
      lia.
    + apply (sum_alive Hc Ac).
      * intros x Hx H. rewrite !Bool.andb_true_iff in H. destruct H as ((H & _) & _). apply alv_spec. exact H.
      * rewrite Z.eqb_refl, Bool.andb_false_r. reflexivity.
  - rewrite CO. etransitivity; [|apply (EX0 Hc ltac:(lia) Np)]. unfold ext at 1.
    set (f := fun x => b2z (negb (x =? c) && sh m M6' c x)).
    assert (Fp : f p = 0).
    { unfold f. destruct (sh m M6' c p) eqn:E; [|rewrite Bool.andb_false_r; reflexivity]. apply sh_spec in E. destruct E as (r & Hr & _ & E). destruct (m6_al _ _ E) as (E1 & E2). destruct (F1 Hr E2) as (_ & E3 & _). congruence. }
    assert (FQ : forall x x', 0 <= x < n -> 0 <= x' < n -> PRb x = true -> PRb x' = true -> (forall r, M6' x r = M6' x' r) -> f x = f x').
    { intros x x' _ _ Px Px' E. unfold f. assert (x <> c) by congruence. assert (x' <> c) by congruence. rewrite !(proj2 (Z.eqb_neq _ c)) by assumption. cbn [negb andb]. f_equal. apply bool_iff. rewrite !sh_spec. split; intros (r & Hr & E1 & E2); exists r; rewrite E in * || rewrite <- E in *; auto. }
    pose proof (sum8 f Fp FQ) as S. transitivity (sumz n (fun x => if alv Cs8 x then f x * rd Ct7 x else 0)).
    + apply sumz_le. intros x Hx. destruct (alv Cs8 x) eqn:Ax; [|cbn [andb]; lia]. cbn [andb]. pose proof (T0 x Hx Ax) as T. apply alv_spec in Ax. unfold f. destruct (negb (x =? c)) eqn:Nx; cbn [andb]; [|cbn [b2z]; lia].
      destruct (sh m M8 c x) eqn:Sx; [|destruct (sh m M6' c x); cbn [b2z]; lia]. rewrite (SH x Hx Ax (or_introl eq_refl) Sx). cbn [b2z]. lia.
    + rewrite S. apply sumz_le. intros x Hx. destruct (alv Cs6 x) eqn:Ax.
      * apply alv_spec in Ax. destruct (al6 Hx) as [E|(E & _)]; [|lia]. rewrite E in Ax. pose proof (TH Hx Ax) as T. rewrite (proj2 (alv_spec Cs x) Ax). cbn [andb]. unfold f. destruct (negb (x =? c)); cbn [andb]; [|cbn; lia].
        destruct (sh m M6' c x) eqn:E1; cbn [b2z].
        -- apply sh_spec in E1. destruct E1 as (r & Hr & E2 & E3). destruct (m6_al _ _ E2) as (E4 & _). destruct (m6_al _ _ E3) as (E5 & _). rewrite (proj2 (sh_spec m M c x)); [lia|]. exists r. auto.
        -- destruct (sh m M c x); lia.
      * destruct (alv Cs x && _ && _) eqn:E; [|lia]. rewrite !Bool.andb_true_iff in E. destruct E as ((E & _) & _). apply alv_spec in E. pose proof (TH Hx E). lia.
Qed.

Lemma dl8 : exists rk', dlist n (fun c => 0 <= c < n /\ 0 <= rd Cs8 c) (rd Co8) (rd Cn8) (rd Cp8) (rd head8) rk'.
Proof.
  destruct FI as (_ & _ & _ & _ & _ & _ & _ & _ & _ & (rk' & D) & _). exists rk'. eapply dlist_ext; [exact D| |auto|auto]. intros c. cbv beta. split; [|tauto]. intros (Hc & Ac). split; [exact Hc|]. split; [exact Ac|]. rewrite pre9q by exact Hc. destruct (PRb c); auto.
Qed.
Lemma mn8_ok : 0 <= mn8 <= n /\ forall c, 0 <= c < n -> 0 <= rd Cs8 c -> mn8 <= rd Co8 c.
Proof.
  destruct FI as (_ & _ & _ & _ & _ & _ & _ & _ & _ & _ & X & Y). split; [exact X|]. intros c Hc Ac. apply (Y c Hc Ac). rewrite pre9q by exact Hc. destruct (PRb c); auto.
Qed.
End Post.
