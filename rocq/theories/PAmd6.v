(* AMD, part 6: Scan 2, the lists of one variable; the hash buckets. *)
From Verif Require Import Base Det DetZ Spec MColamd MAmd PCol1 PCol3 PAmd1.
Set Implicit Arguments.
Open Scope Z_scope.
Set Bullet Behavior "Strict Subproofs".

Definition kpe (aggr : bool) (wflg : Z) (W : list Z) (e : Z) : bool := negb (rd W e =? 0) && ((rd W e - wflg >? 0) || negb aggr).
Definition dpe (aggr : bool) (wflg : Z) (W : list Z) (e : Z) : bool := negb (rd W e =? 0) && negb ((rd W e - wflg >? 0) || negb aggr).

Lemma s2_elems_ok aggr n me wflg p1 p2 Iw Pe W : zlen Pe = n -> zlen W = n -> 0 <= p1 -> p1 <= p2 + 1 -> p2 + 1 <= zlen Iw -> injs Iw p1 (p2 + 1 - p1) ->
  (forall j, p1 <= j <= p2 -> 0 <= rd Iw j < n /\ (rd W (rd Iw j) = 0 \/ wflg <= rd W (rd Iw j))) ->
  wp (s2_elems aggr me wflg p1 p2 Iw Pe W) (fun '(Iw', Pe', W', pn, hash, deg) => comp Iw Iw' (kpe aggr wflg W) p1 p1 (p2 + 1) pn /\ zlen Pe' = n /\ zlen W' = n /\
    (forall e, 0 <= e < n -> rd Pe' e = if memb Iw p1 (p2 + 1 - p1) e && dpe aggr wflg W e then FLIP me else rd Pe e) /\
    (forall e, 0 <= e < n -> rd W' e = if memb Iw p1 (p2 + 1 - p1) e && dpe aggr wflg W e then 0 else rd W e) /\ 0 <= hash /\ 0 <= deg) nerr.
Proof.
  intros LP LW H1 H2 H3 J R. unfold s2_elems.
  apply wp_for with (I := fun p '(Iw', Pe', W', pn, hash, deg) => comp Iw Iw' (kpe aggr wflg W) p1 p1 p pn /\ zlen Pe' = n /\ zlen W' = n /\
    (forall e, 0 <= e < n -> rd Pe' e = if memb Iw p1 (p - p1) e && dpe aggr wflg W e then FLIP me else rd Pe e) /\
    (forall e, 0 <= e < n -> rd W' e = if memb Iw p1 (p - p1) e && dpe aggr wflg W e then 0 else rd W e) /\ 0 <= hash /\ 0 <= deg); [lia| |].
  - split; [apply comp_0|]. split; [exact LP|]. split; [exact LW|]. split; [|split; [|lia]]; intros e He; rewrite memb_0 by lia; reflexivity.
  - intros p [[[[[Iw' Pe'] W'] pn] hash] deg] Hp (K & Q1 & Q2 & Q3 & Q4 & Q5 & Q6). pose proof (cp_len K) as KL. destruct (cp_w K) as (K1 & K2). wg; [lia|].
    assert (RI : rd Iw' p = rd Iw p) by (apply (cp_out K); lia). rewrite RI. set (e := rd Iw p) in *. destruct (R p ltac:(lia)) as (Re & We). fold e in Re, We. wg; [lia|].
    assert (M : memb Iw p1 (p - p1) e = false) by (apply memb_false; intros j Hj X; assert (j = p) by (apply J; [lia|lia|exact X]); lia). rewrite (Q4 e Re), M. cbn [andb].
    assert (MS : forall x, memb Iw p1 (p + 1 - p1) x = memb Iw p1 (p - p1) x || (e =? x)). { intros x. replace (p + 1 - p1) with (p - p1 + 1) by lia. rewrite memb_S by lia. replace (p1 + (p - p1)) with p by lia. reflexivity. }
    assert (ND : dpe aggr wflg W e = false -> forall x, memb Iw p1 (p + 1 - p1) x && dpe aggr wflg W x = memb Iw p1 (p - p1) x && dpe aggr wflg W x).
    { intros D x. rewrite MS. destruct (Z.eqb_spec e x) as [<-|]; [rewrite D, !Bool.andb_false_r; reflexivity|rewrite Bool.orb_false_r; reflexivity]. }
    destruct (Z.eqb_spec (rd W e) 0) as [Z0|Z0]; cbn [negb].
    + assert (D : dpe aggr wflg W e = false) by (unfold dpe; rewrite Z0; reflexivity). cbn. split; [|split; [exact Q1|split; [exact Q2|split; [|split; [|lia]]]]].
      * apply comp_drop; [exact K|lia|]. unfold kpe. fold e. rewrite Z0. reflexivity.
      * intros x Hx. rewrite ND by exact D. auto.
      * intros x Hx. rewrite ND by exact D. auto.
    + destruct ((rd W e - wflg >? 0) || negb aggr) eqn:C.
      * assert (D : dpe aggr wflg W e = false) by (unfold dpe; rewrite C; apply Bool.andb_false_r). ws; [lia|]. cbn. split; [|split; [exact Q1|split; [exact Q2|split; [|split; [|split]]]]].
        -- apply comp_keep; auto; try lia. unfold kpe. fold e. rewrite C. destruct (Z.eqb_spec (rd W e) 0); [contradiction|reflexivity].
        -- intros x Hx. rewrite ND by exact D. auto.
        -- intros x Hx. rewrite ND by exact D. auto.
        -- apply Z.mod_pos_bound. reflexivity.
        -- destruct We; [contradiction|]. lia.
      * assert (D : dpe aggr wflg W e = true) by (unfold dpe; rewrite C; destruct (Z.eqb_spec (rd W e) 0); [contradiction|reflexivity]). ws; [lia|]. ws; [lia|]. cbn. rewrite !zlen_wr. split; [|split; [exact Q1|split; [exact Q2|split; [|split; [|lia]]]]].
        -- apply comp_drop; [exact K|lia|]. unfold kpe. fold e. rewrite C. apply Bool.andb_false_r.
        -- intros x Hx. rewrite MS, rd_wr by lia. rewrite (Z.eqb_sym e x). destruct (Z.eqb_spec x e) as [->|]; [rewrite Bool.orb_true_r, D; reflexivity|]. rewrite Bool.orb_false_r. auto.
        -- intros x Hx. rewrite MS, rd_wr by lia. rewrite (Z.eqb_sym e x). destruct (Z.eqb_spec x e) as [->|]; [rewrite Bool.orb_true_r, D; reflexivity|]. rewrite Bool.orb_false_r. auto.
Qed.

Definition kvb (Nv : list Z) (y : Z) : bool := rd Nv y >? 0.
Lemma s2_vars_ok n p2 p4 Nv Iw pn hash deg : zlen Nv = n -> 0 <= pn <= p2 + 1 -> p2 + 1 <= p4 -> p4 <= zlen Iw -> (forall j, p2 < j < p4 -> 0 <= rd Iw j < n) -> 0 <= hash -> 0 <= deg ->
  wp (s2_vars p2 p4 Nv Iw pn hash deg) (fun '(Iw', pn', hash', deg') => comp Iw Iw' (kvb Nv) (p2 + 1) pn p4 pn' /\ 0 <= hash' /\ 0 <= deg') nerr.
Proof.
  intros LN H1 H2 H3 R Hh Hd. unfold s2_vars.
  apply wp_for with (I := fun p '(Iw', pn', hash', deg') => comp Iw Iw' (kvb Nv) (p2 + 1) pn p pn' /\ 0 <= hash' /\ 0 <= deg'); [lia| |].
  - split; [apply comp_0|]. lia.
  - intros p [[[Iw' pn'] hash'] deg'] Hp (K & Q1 & Q2). pose proof (cp_len K) as KL. destruct (cp_w K) as (K1 & K2). wg; [lia|].
    assert (RI : rd Iw' p = rd Iw p) by (apply (cp_out K); lia). rewrite RI. set (e := rd Iw p) in *. specialize (R p ltac:(lia)). fold e in R. wg; [lia|].
    destruct (Z.gtb_spec (rd Nv e) 0) as [C|C].
    + ws; [lia|]. cbn. split; [|split; [apply Z.mod_pos_bound; reflexivity|lia]]. apply comp_keep; auto; try lia. unfold kvb. fold e. destruct (Z.gtb_spec (rd Nv e) 0); [reflexivity|lia].
    + cbn. split; [|lia]. apply comp_drop; [exact K|lia|]. unfold kvb. fold e. destruct (Z.gtb_spec (rd Nv e) 0); [lia|reflexivity].
Qed.

(*----------------------------------------------------------------------------*)
(* the buckets *)
Definition bfb (Last Head : list Z) (h : Z) : Z := if rd Head h >? EMPTY then rd Last (rd Head h) else FLIP (rd Head h).
Definition bhd (Head : list Z) (s : Z) : Z := if rd Head s >? EMPTY then rd Head s else EMPTY.
Record bks (n : Z) (act : Z -> Prop) (Next0 Last0 Head0 Next Last Head : list Z) (B : Z -> list Z) (mem : Z -> Prop) : Prop := {
  bk_len : zlen Next = n /\ zlen Last = n /\ zlen Head = n;
  bk_ch : forall h, 0 <= h < n -> chain (rd Next) (bfb Last Head h) (B h) /\ NoDup (B h);
  bk_in : forall h c, 0 <= h < n -> In c (B h) -> 0 <= c < n /\ mem c /\ rd Last c = h;
  bk_ml : forall c, 0 <= c < n -> mem c -> 0 <= rd Last c < n;
  bk_hd : forall h, 0 <= h < n -> bhd Head h = rd Head0 h;
  bk_nx : forall c, act c -> rd Next c = rd Next0 c;
  bk_pv : forall c, act c -> rd Last0 c <> EMPTY -> rd Last c = rd Last0 c }.
Arguments bk_ch {n act Next0 Last0 Head0 Next Last Head B mem} _ {h} _.
Arguments bk_in {n act Next0 Last0 Head0 Next Last Head B mem} _ {h c} _ _.
Arguments bk_ml {n act Next0 Last0 Head0 Next Last Head B mem} _ {c} _ _.
Arguments bk_hd {n act Next0 Last0 Head0 Next Last Head B mem} _ {h} _.
Arguments bk_nx {n act Next0 Last0 Head0 Next Last Head B mem} _ {c} _.
Arguments bk_pv {n act Next0 Last0 Head0 Next Last Head B mem} _ {c} _ _.

Section Buckets.
Variables (n : Z) (act : Z -> Prop) (sc rk : Z -> Z) (Next0 Last0 Head0 : list Z).
Hypothesis D0 : dlist n act sc (rd Next0) (rd Last0) (rd Head0) rk.
Hypothesis L0 : zlen Next0 = n /\ zlen Last0 = n /\ zlen Head0 = n.

Lemma bhd_act Next Last Head B mem h : bks n act Next0 Last0 Head0 Next Last Head B mem -> 0 <= h < n -> EMPTY < rd Head h ->
  act (rd Head h) /\ sc (rd Head h) = h /\ rd Last0 (rd Head h) = EMPTY /\ 0 <= rd Head h < n.
Proof.
  intros K Hh X. pose proof (bk_hd K Hh) as Y. unfold bhd in Y. destruct (Z.gtb_spec (rd Head h) EMPTY); [|lia]. rewrite Y in *. destruct (dl_hd D0 Hh) as [Z0|(Z1 & Z2 & Z3)]; [lia|]. destruct (dl_sc D0 Z1). auto.
Qed.
Lemma bks_0 : bks n act Next0 Last0 Head0 Next0 Last0 Head0 (fun _ => ([] : list Z)) (fun _ => False).
Proof.
  constructor; try tauto.
  - intros h Hh. split; [|constructor]. cbn. unfold bfb. destruct (dl_hd D0 Hh) as [Z0|(Z1 & Z2 & Z3)]; [rewrite Z0; reflexivity|]. destruct (dl_sc D0 Z1). destruct (Z.gtb_spec (rd Head0 h) EMPTY); [exact Z3|unfold EMPTY in *; lia].
  - intros h c Hh X. destruct X.
  - intros h Hh. unfold bhd. destruct (dl_hd D0 Hh) as [Z0|(Z1 & Z2 & Z3)]; [rewrite Z0; reflexivity|]. destruct (dl_sc D0 Z1). destruct (Z.gtb_spec (rd Head0 h) EMPTY); [reflexivity|unfold EMPTY in *; lia].
Qed.

Lemma s2_bucket_ok Next Last Head B mem i h : bks n act Next0 Last0 Head0 Next Last Head B mem -> 0 <= i < n -> 0 <= h < n -> ~ act i -> ~ mem i -> (forall c, mem c -> ~ act c) ->
  wp (s2_bucket i h Next Last Head) (fun '(N, L, H) => bks n act Next0 Last0 Head0 N L H (fun x => if x =? h then i :: B h else B x) (fun c => mem c \/ c = i)) nerr.
Proof.
  intros K Ri Rh NA NM MA. destruct (bk_len K) as (L1 & L2 & L3). unfold s2_bucket. wg; [lia|]. apply wp_bind.
  eapply wp_conseq with (Q := fun '(N, L, H) => zlen N = n /\ zlen L = n /\ zlen H = n /\ rd N i = bfb Last Head h /\ (forall x, 0 <= x < n -> x <> i -> rd N x = rd Next x) /\
    (forall x, 0 <= x < n -> mem x -> rd L x = rd Last x) /\ (forall x, act x -> rd Last0 x <> EMPTY -> rd L x = rd Last x) /\ (forall x, 0 <= x < n -> bhd H x = bhd Head x) /\
    (forall x, 0 <= x < n -> x <> h -> bfb (wr L i h) H x = bfb Last Head x) /\ bfb (wr L i h) H h = i).
  { destruct (Z.leb_spec (rd Head h) EMPTY) as [X|X].
    - ws; [lia|]. ws; [lia|]. cbn. rewrite !zlen_wr. repeat (split; [assumption|]). split; [|split; [|split; [|split; [|split; [|split]]]]].
      + rewrite rd_wr_eq by lia. unfold bfb. destruct (Z.gtb_spec (rd Head h) EMPTY); [lia|reflexivity].
      + intros x Hx N. apply rd_wr_ne; lia.
      + auto.
      + auto.
      + intros x Hx. unfold bhd. rewrite rd_wr by lia. destruct (Z.eqb_spec x h) as [->|]; [|reflexivity]. unfold FLIP. destruct (Z.gtb_spec (- i - 2) EMPTY), (Z.gtb_spec (rd Head h) EMPTY); unfold EMPTY in *; try lia.
      + intros x Hx N. unfold bfb. rewrite rd_wr_ne by lia. destruct (Z.gtb_spec (rd Head x) EMPTY) as [Y|Y]; [|reflexivity]. destruct (bhd_act K Hx Y) as (A & _ & _ & R). apply rd_wr_ne; [lia|lia|]. congruence.
      + unfold bfb. rewrite rd_wr_eq by lia. unfold FLIP. destruct (Z.gtb_spec (- i - 2) EMPTY); unfold EMPTY in *; lia.
    - destruct (bhd_act K Rh X) as (A & SA & PA & R). set (j := rd Head h) in *. assert (Nij : j <> i) by congruence. wg; [lia|]. ws; [lia|]. ws; [lia|]. cbn. rewrite !zlen_wr. repeat (split; [assumption|]). split; [|split; [|split; [|split; [|split; [|split]]]]].
      + rewrite rd_wr_eq by lia. unfold bfb. fold j. destruct (Z.gtb_spec j EMPTY); [reflexivity|lia].
      + intros x Hx N. apply rd_wr_ne; lia.
      + intros x Hx M. apply rd_wr_ne; [lia|lia|]. intros ->. exact (MA _ M A).
      + intros x Ax Nx. destruct (dl_sc D0 Ax). apply rd_wr_ne; [lia|lia|]. intros ->. congruence.
      + auto.
      + intros x Hx N. unfold bfb. destruct (Z.gtb_spec (rd Head x) EMPTY) as [Y|Y]; [|reflexivity]. destruct (bhd_act K Hx Y) as (A' & SA' & _ & R'). rewrite rd_wr_ne; [|rewrite ?zlen_wr; lia|lia|congruence]. apply rd_wr_ne; [lia|lia|]. fold j. intros Z. apply N. rewrite <- SA', <- SA. congruence.
      + unfold bfb. fold j. destruct (Z.gtb_spec j EMPTY); [|lia]. rewrite rd_wr_ne by (rewrite ?zlen_wr; lia). apply rd_wr_eq. lia. }
  intros [[N L] H] (Z1 & Z2 & Z3 & Z4 & Z5 & Z6 & Z7 & Z8 & Z9 & Z10). ws; [lia|]. cbn. constructor; rewrite ?zlen_wr; auto.
  - intros x Hx. destruct (bk_ch K Hx) as (C1 & C2). assert (C3 : chain (rd N) (bfb Last Head x) (B x)).
    { eapply chain_ext; [|exact C1]. intros y Hy. destruct (bk_in K Hx Hy) as (R & M & _). apply Z5; [exact R|]. intros ->. contradiction. }
    destruct (Z.eqb_spec x h) as [->|Nx].
    + rewrite Z10. split; [cbn; split; [reflexivity|rewrite Z4; exact C3]|]. constructor; [|exact C2]. intros X. apply NM. apply (bk_in K Hx X).
    + rewrite Z9 by auto. auto.
  - intros x c Hx. destruct (Z.eqb_spec x h) as [->|Nx].
    + intros [<-|X]; [split; [exact Ri|split; [auto|apply rd_wr_eq; lia]]|]. destruct (bk_in K Hx X) as (R & M & E). split; [exact R|]. split; [auto|]. rewrite rd_wr_ne; [rewrite Z6; auto|lia|lia|]. intros ->. contradiction.
    + intros X. destruct (bk_in K Hx X) as (R & M & E). split; [exact R|]. split; [auto|]. rewrite rd_wr_ne; [rewrite Z6; auto|lia|lia|]. intros ->. contradiction.
  - intros c Hc M. rewrite rd_wr by lia. destruct (Z.eqb_spec c i); [lia|]. destruct M as [M|M]; [|contradiction]. rewrite Z6 by auto. apply (bk_ml K Hc M).
  - intros x Hx. rewrite Z8 by exact Hx. apply (bk_hd K Hx).
  - intros c Ac. destruct (dl_sc D0 Ac). rewrite Z5; [apply (bk_nx K Ac)|lia|]. intros ->. contradiction.
  - intros c Ac Nc. destruct (dl_sc D0 Ac). rewrite rd_wr_ne; [rewrite Z7; auto; apply (bk_pv K Ac Nc)|lia|lia|]. intros ->. contradiction.
Qed.

(* the buckets are empty: the degree lists are back *)
Lemma bks_done Next Last Head B mem : bks n act Next0 Last0 Head0 Next Last Head B mem -> (forall h, 0 <= h < n -> B h = []) -> dlist n act sc (rd Next) (rd Last) (rd Head) rk.
Proof.
  intros K HB.
  assert (HD : forall h, 0 <= h < n -> rd Head h = rd Head0 h).
  { intros h Hh. destruct (bk_ch K Hh) as (C & _). rewrite (HB h Hh) in C. cbn in C. pose proof (bk_hd K Hh) as X. unfold bhd, bfb in *. destruct (Z.gtb_spec (rd Head h) EMPTY) as [Y|Y]; [exact X|]. rewrite <- X. unfold FLIP, EMPTY in *. lia. }
  eapply dlist_ext; [exact D0|reflexivity| |exact HD].
  intros c Ac. split; [reflexivity|]. split; [apply (bk_nx K Ac)|]. destruct (Z.eq_dec (rd Last0 c) EMPTY) as [X|X]; [|apply (bk_pv K Ac X)].
  destruct (dl_sc D0 Ac) as (R & Rs). destruct (dl_pv D0 Ac) as [(_ & Y)|(A & _ & _)]; [|rewrite X in A; apply (dl_sc D0) in A; unfold EMPTY in A; lia].
  destruct (bk_ch K Rs) as (C & _). rewrite (HB _ Rs) in C. cbn in C. unfold bfb in C. rewrite HD, Y in C by exact Rs. destruct (Z.gtb_spec c EMPTY); [congruence|unfold EMPTY in *; lia].
Qed.
End Buckets.
