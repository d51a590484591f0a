(* AMD, part 20: AMD_valid and AMD_preprocess. *)
From Verif Require Import Base Det DetZ Spec MColamd MAmd PCol1 PCol3 PCol13 PAmd1 PAmd2 PAmd17 PAmd18.
Set Implicit Arguments.
Open Scope Z_scope.
Set Bullet Behavior "Strict Subproofs".

(* a valid pattern; the columns need not be sorted, and may have duplicates *)
Record jpat (n : Z) (Ap Ai : list Z) : Prop := {
  jp_n : 1 <= n;
  jp_ap : n + 1 <= zlen Ap;
  jp_0 : rd Ap 0 = 0;
  jp_mono : forall j, 0 <= j < n -> rd Ap j <= rd Ap (j + 1);
  jp_ai : rd Ap n <= zlen Ai;
  jp_row : forall q, 0 <= q < rd Ap n -> 0 <= rd Ai q < n }.

Section Pre.
Variables (n : Z) (Ap Ai : list Z).
Hypothesis JP : jpat n Ap Ai.
Lemma jap i j : 0 <= i <= j -> j <= n -> rd Ap i <= rd Ap j.
Proof. intros H1 H2. apply (@mono_le (rd Ap) n (jp_mono JP)); lia. Qed.
Lemma jq j q : 0 <= j < n -> rd Ap j <= q < rd Ap (j + 1) -> 0 <= q < rd Ap n /\ 0 <= q < zlen Ai /\ 0 <= rd Ai q < n.
Proof.
  intros Hj Hq. pose proof (@jap 0 j ltac:(lia) ltac:(lia)). pose proof (@jap (j + 1) n ltac:(lia) ltac:(lia)). pose proof (jp_0 JP). pose proof (jp_ai JP).
  split; [lia|]. split; [lia|]. apply (jp_row JP). lia.
Qed.

Theorem valid_ok : wp (amd_valid n n Ap Ai) (fun b => b = false -> spat n Ap Ai) nerr.
Proof.
  pose proof (jp_n JP) as Hn. pose proof (jp_ap JP) as La. unfold amd_valid. rewrite (proj2 (Z.ltb_ge n 0)) by lia. cbn [orb].
  wg; [lia|]. wg; [lia|]. rewrite (jp_0 JP). pose proof (@jap 0 n ltac:(lia) ltac:(lia)) as Z0. rewrite (jp_0 JP) in Z0. rewrite (proj2 (Z.ltb_ge (rd Ap n) 0)) by lia. cbn [Z.eqb negb orb].
  set (G := fun j p => forall q q', rd Ap j <= q < q' -> q' < p -> rd Ai q < rd Ai q').
  eapply wp_conseq; [apply wp_for with (I := fun j b => b = false -> forall j', 0 <= j' < j -> G j' (rd Ap (j' + 1))); [lia| |]|].
  - intros _ j' Hj'. lia.
  - intros j b Hj H. wg; [lia|]. wg; [lia|]. pose proof (jp_mono JP Hj) as M. unfold Z.gtb. destruct (Z.compare_spec (rd Ap j) (rd Ap (j + 1))) as [X|X|X]; [| |lia].
    all: apply wp_bind; eapply wp_conseq; [apply wp_for with (I := fun p '(r, il) => r = false -> (forall j', 0 <= j' < j -> G j' (rd Ap (j' + 1))) /\ G j p /\ forall q, rd Ap j <= q < p -> rd Ai q <= il); [lia| |]|].
    all: try (intros E; split; [exact (H E)|]; split; [intros q q' Q1 Q2; lia|intros; lia]).
    all: try (intros [r il] Q; cbn; intros E j' Hj'; destruct (Q E) as (Q1 & Q2 & _); destruct (Z.eq_dec j' j) as [->|]; [exact Q2|apply Q1; lia]).
    all: intros p [r il] Hp Q; destruct (@jq j p Hj Hp) as (_ & P1 & P2); wg; [lia|]; rewrite (proj2 (Z.ltb_ge (rd Ai p) 0)) by lia; rewrite Z.geb_leb, (proj2 (Z.leb_gt n (rd Ai p))) by lia; cbn [orb wp].
    all: intros E; apply Bool.orb_false_iff in E; destruct E as (E1 & E2); apply Z.leb_gt in E2; destruct (Q E1) as (Q1 & Q2 & Q3); split; [exact Q1|]; split.
    all: try (intros q q' Y1 Y2; destruct (Z.eq_dec q' p) as [->|]; [specialize (Q3 q ltac:(lia)); lia|apply Q2; lia]).
    all: intros q Hq; destruct (Z.eq_dec q p) as [->|]; [lia|specialize (Q3 q ltac:(lia)); lia].
  - cbv beta. intros b H E. specialize (H E). constructor; try apply JP. intros j q q' Hj Q1 Q2. apply (H j Hj); lia.
Qed.

(*----------------------------------------------------------------------------*)
Definition col (j i : Z) : bool := memb Ai (rd Ap j) (rd Ap (j + 1) - rd Ap j) i.
Definition pre (j p i : Z) : bool := memb Ai (rd Ap j) (p - rd Ap j) i.
Definition cc (j p i : Z) : Z := sumz j (fun k => b2z (col k i)) + b2z (pre j p i).
Definition tot (i : Z) : Z := sumz n (fun k => b2z (col k i)).
Lemma pre0 j i : pre j (rd Ap j) i = false. Proof. apply memb_0. lia. Qed.
Lemma preS j p i : rd Ap j <= p -> pre j (p + 1) i = pre j p i || (rd Ai p =? i).
Proof. intros H. unfold pre. replace (p + 1 - rd Ap j) with (p - rd Ap j + 1) by lia. rewrite memb_S by lia. replace (rd Ap j + (p - rd Ap j)) with p by lia. reflexivity. Qed.
Lemma cc0 j i : cc j (rd Ap j) i = sumz j (fun k => b2z (col k i)). Proof. unfold cc. rewrite pre0. cbn. lia. Qed.
Lemma ccE j i : 0 <= j -> cc j (rd Ap (j + 1)) i = sumz (j + 1) (fun k => b2z (col k i)). Proof. intros H. unfold cc. rewrite sumz_S by exact H. reflexivity. Qed.
Lemma b2zr b : 0 <= b2z b <= 1. Proof. destruct b; cbn; lia. Qed.
Lemma cc_nn j p i : 0 <= cc j p i.
Proof. unfold cc. pose proof (b2zr (pre j p i)). assert (0 <= sumz j (fun k => b2z (col k i))); [|lia]. apply sumz_nonneg. intros. apply b2zr. Qed.
Lemma cc_le j p i : 0 <= j < n -> rd Ap j <= p <= rd Ap (j + 1) -> cc j p i <= tot i.
Proof.
  intros Hj Hp. assert (X : sumz (j + 1) (fun k => b2z (col k i)) <= tot i) by (apply sumz_mono; [lia|intros; apply b2zr]). rewrite <- ccE in X by lia. etransitivity; [|exact X]. unfold cc.
  assert (b2z (pre j p i) <= b2z (pre j (rd Ap (j + 1)) i)); [|lia]. destruct (pre j p i) eqn:E; [|apply b2zr]. apply memb_spec in E. destruct E as (q & Q1 & Q2).
  assert (F : pre j (rd Ap (j + 1)) i = true) by (apply memb_spec; exists q; split; [lia|exact Q2]). rewrite F. lia.
Qed.

(* the flags *)
Definition fl (j p : Z) (F : list Z) : Prop := zlen F = n /\ forall i, 0 <= i < n -> -1 <= rd F i <= j /\ (rd F i = j <-> pre j p i = true).
Lemma fl_next j F : 0 <= j < n -> fl j (rd Ap (j + 1)) F -> fl (j + 1) (rd Ap (j + 1)) F.
Proof. intros Hj (L & H). split; [exact L|]. intros i Hi. destruct (H i Hi) as (B & _). split; [lia|]. rewrite pre0. split; [lia|discriminate]. Qed.
Lemma fl_0 : fl 0 (rd Ap 0) (mk n EMPTY).
Proof. pose proof (jp_n JP). split; [apply zlen_mk; lia|]. intros i Hi. rewrite rd_mk by exact Hi. unfold EMPTY. split; [lia|]. rewrite pre0. split; [lia|discriminate]. Qed.
Lemma fl_old j p F : 0 <= j < n -> rd Ap j <= p < rd Ap (j + 1) -> fl j p F -> rd F (rd Ai p) = j -> fl j (p + 1) F /\ forall i, pre j (p + 1) i = pre j p i.
Proof.
  intros Hj Hp (L & H) E. assert (X : forall i, pre j (p + 1) i = pre j p i). { intros i. rewrite preS by lia. destruct (Z.eqb_spec (rd Ai p) i) as [<-|]; [|apply Bool.orb_false_r]. destruct (@jq j p Hj Hp) as (_ & _ & R). rewrite (proj1 (proj2 (H _ R)) E). reflexivity. }
  split; [|exact X]. split; [exact L|]. intros i Hi. rewrite X. apply H. exact Hi.
Qed.
Lemma fl_new j p F : 0 <= j < n -> rd Ap j <= p < rd Ap (j + 1) -> fl j p F -> rd F (rd Ai p) <> j -> fl j (p + 1) (wr F (rd Ai p) j) /\ pre j p (rd Ai p) = false /\ rd F (rd Ai p) < j.
Proof.
  intros Hj Hp (L & H) E. destruct (@jq j p Hj Hp) as (_ & _ & R). destruct (H _ R) as (B1 & B2). split; [|split; [destruct (pre j p (rd Ai p)) eqn:X; [exfalso; apply E, B2; reflexivity|reflexivity]|lia]].
  split; [rewrite zlen_wr; exact L|]. intros i Hi. rewrite rd_wr by lia. rewrite preS by lia. destruct (Z.eqb_spec i (rd Ai p)) as [->|N].
  - split; [lia|]. rewrite Z.eqb_refl, Bool.orb_true_r. tauto.
  - destruct (Z.eqb_spec (rd Ai p) i); [congruence|]. rewrite Bool.orb_false_r. apply H. exact Hi.
Qed.

Lemma count_ok : wp (pp_count n Ap Ai (mk n 0) (mk n EMPTY)) (fun '(W, _) => zlen W = n /\ (forall i, 0 <= i < n -> rd W i = tot i) /\ sumz n tot <= rd Ap n) nerr.
Proof.
  pose proof (jp_n JP) as Hn. pose proof (jp_ap JP) as La. unfold pp_count.
  eapply wp_conseq; [apply wp_for with (I := fun j '(W, F) => zlen W = n /\ fl j (rd Ap j) F /\ (forall i, 0 <= i < n -> rd W i = cc j (rd Ap j) i) /\ sumz n (rd W) <= rd Ap j); [lia| |]|].
  - split; [apply zlen_mk; lia|]. split; [exact fl_0|]. split.
    + intros i Hi. rewrite cc0, rd_mk, sumz_0 by lia. reflexivity.
    + rewrite (jp_0 JP), sumz_zero; [lia|]. intros k Hk. apply rd_mk. exact Hk.
  - intros j [W F] Hj (LW & HF & HW & HS). wg; [lia|]. wg; [lia|]. pose proof (jp_mono JP Hj) as M.
    eapply wp_conseq; [apply wp_for with (I := fun p '(W, F) => zlen W = n /\ fl j p F /\ (forall i, 0 <= i < n -> rd W i = cc j p i) /\ sumz n (rd W) <= p); [lia|auto|]|].
    + clear W F LW HF HW HS. intros p [W F] Hp (LW & HF & HW & HS). destruct (@jq j p Hj Hp) as (_ & P1 & P2). wg; [lia|]. wg; [destruct HF as (LF & _); lia|]. destruct (Z.eqb_spec (rd F (rd Ai p)) j) as [E|E]; cbn [negb].
      * cbn [wp]. destruct (fl_old Hj Hp HF E) as (F1 & F2). split; [exact LW|]. split; [exact F1|]. split; [|lia]. intros i Hi. unfold cc. rewrite F2. apply HW. exact Hi.
      * destruct (fl_new Hj Hp HF E) as (F1 & F2 & F3). unfold inc. apply wp_bind. wg; [lia|]. apply wp_set; [lia|]. ws; [destruct HF as (LF & _); lia|]. cbn [wp]. rewrite zlen_wr. split; [exact LW|]. split; [exact F1|].
        assert (V : forall i, 0 <= i < n -> rd (wr W (rd Ai p) (rd W (rd Ai p) + 1)) i = rd W i + b2z (i =? rd Ai p)). { intros i Hi. rewrite rd_wr by lia. destruct (Z.eqb_spec i (rd Ai p)) as [->|]; cbn; lia. }
        split.
        -- intros i Hi. rewrite V by exact Hi. rewrite HW by exact Hi. unfold cc. rewrite preS by lia. destruct (Z.eqb_spec i (rd Ai p)) as [->|N]; [rewrite F2, Z.eqb_refl; cbn; lia|]. destruct (Z.eqb_spec (rd Ai p) i); [congruence|]. rewrite Bool.orb_false_r. cbn. lia.
        -- rewrite (@sumz_upd n _ (rd W) (rd Ai p) P2); [rewrite V, Z.eqb_refl by exact P2; cbn [b2z]; lia|]. intros k Hk N. rewrite V by exact Hk. rewrite (proj2 (Z.eqb_neq _ _) N). cbn. lia.
    + intros [W1 F1] (A1 & A2 & A3 & A4). split; [exact A1|]. split; [apply fl_next; auto|]. split; [|exact A4]. intros i Hi. rewrite A3 by exact Hi. rewrite cc0. apply ccE. lia.
  - intros [W F] (A1 & _ & A3 & A4). split; [exact A1|]. assert (X : forall i, 0 <= i < n -> rd W i = tot i) by (intros i Hi; rewrite A3 by exact Hi; apply cc0). split; [exact X|]. rewrite (@sumz_ext n tot (rd W)); [exact A4|]. intros k Hk. symmetry. apply X. exact Hk.
Qed.

(* the rows: row i of the result is at Rp i *)
Definition rp (i : Z) : Z := sumz i tot.
Lemma tot_nn i : 0 <= tot i. Proof. apply sumz_nonneg. intros. apply b2zr. Qed.
Lemma rp_S i : 0 <= i -> rp (i + 1) = rp i + tot i. Proof. intros H. apply sumz_S. exact H. Qed.
Lemma rp_mono i j : 0 <= i <= j -> rp i <= rp j. Proof. intros H. apply sumz_mono; [exact H|]. intros. apply tot_nn. Qed.
Lemma starts_ok W Rp : zlen W = n -> zlen Rp = n + 1 -> (forall i, 0 <= i < n -> rd W i = tot i) -> wp (pp_starts n W Rp) (fun Rp => zlen Rp = n + 1 /\ forall i, 0 <= i <= n -> rd Rp i = rp i) nerr.
Proof.
  intros LW LR HW. pose proof (jp_n JP) as Hn. unfold pp_starts. ws; [lia|].
  eapply wp_conseq; [apply wp_for with (I := fun k R => zlen R = n + 1 /\ forall i, 0 <= i <= k -> rd R i = rp i); [lia| |]|].
  - split; [rewrite zlen_wr; exact LR|]. intros i Hi. assert (i = 0) by lia. subst i. rewrite rd_wr_eq by lia. reflexivity.
  - intros k R Hk (LR' & HR). wg; [lia|]. wg; [lia|]. apply wp_set; [lia|]. rewrite zlen_wr. split; [exact LR'|]. intros i Hi. rewrite rd_wr by lia. destruct (Z.eqb_spec i (k + 1)) as [->|]; [rewrite HR, HW, rp_S by lia; reflexivity|apply HR; lia].
  - auto.
Qed.

(* pp_fill: the rows as far as they are filled *)
Record fin (Ri0 : list Z) (j p : Z) (Ri W F : list Z) (nz : Z) : Prop := {
  f_ri : zlen Ri = nz;
  f_w : zlen W = n;
  f_fl : fl j p F;
  f_wv : forall i, 0 <= i < n -> rd W i = rp i + cc j p i;
  f_le : forall i q, 0 <= i < n -> rp i <= q < rd W i -> 0 <= rd Ri q <= rd F i;
  f_inc : forall i q q', 0 <= i < n -> rp i <= q < q' -> q' < rd W i -> rd Ri q < rd Ri q';
  f_out : forall q, rp n <= q -> rd Ri q = rd Ri0 q;
  f_mem : forall i k, 0 <= i < n -> ((exists q, rp i <= q < rd W i /\ rd Ri q = k) <-> (0 <= k < j /\ col k i = true) \/ (k = j /\ pre j p i = true)) }.

Lemma fill_ok W Ri nz : zlen W = n -> zlen Ri = nz -> rp n <= nz -> (forall i, 0 <= i < n -> rd W i = rp i) ->
  wp (pp_fill n Ap Ai Ri W (mk n EMPTY)) (fun '(Ri', W, F) => fin Ri n (rd Ap n) Ri' W F nz) nerr.
Proof.
  intros LW LR HNZ HW. pose proof (jp_n JP) as Hn. pose proof (jp_ap JP) as La. unfold pp_fill.
  set (Ri0 := Ri).
  apply wp_for with (I := fun j '(Ri, W, F) => fin Ri0 j (rd Ap j) Ri W F nz); [lia| |].
  - assert (C0 : forall i, cc 0 (rd Ap 0) i = 0) by (intros i; rewrite cc0; apply sumz_0; lia). constructor; auto.
    + exact fl_0.
    + intros i Hi. rewrite C0, HW by exact Hi. lia.
    + intros i q Hi. rewrite HW by exact Hi. lia.
    + intros i q q' Hi. rewrite HW by exact Hi. lia.
    + intros i k Hi. rewrite HW by exact Hi. rewrite pre0. split; [intros (q & Q & _); lia|]. intros [(X & _)|(_ & X)]; [lia|discriminate].
  - clearbody Ri0. clear W Ri LW LR HW. intros j [[Ri W] F] Hj FI. wg; [lia|]. wg; [lia|]. pose proof (jp_mono JP Hj) as M.
    eapply wp_conseq; [apply wp_for with (I := fun p '(Ri, W, F) => fin Ri0 j p Ri W F nz); [lia|exact FI|]|].
    + clear FI Ri W F. intros p [[Ri W] F] Hp FI. destruct (@jq j p Hj Hp) as (_ & P1 & P2). destruct (f_fl FI) as (LF & _). wg; [lia|]. wg; [lia|]. set (a := rd Ai p) in *.
      destruct (Z.eqb_spec (rd F a) j) as [E|E]; cbn [negb].
      * cbn [wp]. destruct (fl_old Hj Hp (f_fl FI) E) as (F1 & F2). constructor; try apply FI; auto.
        -- intros i Hi. unfold cc. rewrite F2. apply (f_wv FI Hi).
        -- intros i k Hi. rewrite F2. apply (f_mem FI k Hi).
      * destruct (fl_new Hj Hp (f_fl FI) E) as (F1 & F2 & F3). fold a in F1, F2, F3. pose proof (f_w FI) as LW. pose proof (f_ri FI) as LR. pose proof (f_wv FI P2) as WA.
        assert (CS : forall i, cc j (p + 1) i = cc j p i + b2z (i =? a)). { intros i. unfold cc. rewrite preS by lia. fold a. destruct (Z.eqb_spec i a) as [->|N]; [rewrite F2, Z.eqb_refl; cbn; lia|]. destruct (Z.eqb_spec a i); [congruence|]. rewrite Bool.orb_false_r. cbn. lia. }
        assert (CL : forall i, 0 <= i < n -> cc j (p + 1) i <= tot i) by (intros i Hi; apply cc_le; [exact Hj|lia]).
        pose proof (CL a P2) as CA. rewrite CS, Z.eqb_refl in CA. cbn [b2z] in CA. pose proof (cc_nn j p a) as CN. pose proof (@rp_mono 0 a ltac:(lia)) as R0. pose proof (@rp_mono (a + 1) n ltac:(lia)) as R1. rewrite rp_S in R1 by lia. change (rp 0) with 0 in R0.
        wg; [lia|]. ws; [lia|]. ws; [lia|]. ws; [lia|]. cbn [wp]. set (w := rd W a) in *.
        assert (WE : forall i, 0 <= i < n -> rd (wr W a (w + 1)) i = rd W i + b2z (i =? a)). { intros i Hi. rewrite rd_wr by lia. destruct (Z.eqb_spec i a) as [->|]; cbn; [fold w|]; lia. }
        (* the entries of the rows are not overwritten *)
        assert (OLD : forall i q, 0 <= i < n -> rp i <= q < rd W i -> rd (wr Ri w j) q = rd Ri q).
        { intros i q Hi Hq. pose proof (f_wv FI Hi) as WI. pose proof (CL i Hi) as CI. rewrite CS in CI. pose proof (b2zr (i =? a)). pose proof (@rp_mono 0 i ltac:(lia)) as RI. change (rp 0) with 0 in RI. apply rd_wr_ne; [lia|lia|]. destruct (Z.lt_trichotomy i a) as [Q|[->|Q]]; [|fold w in Hq; lia|].
          - pose proof (@rp_mono (i + 1) a ltac:(lia)) as X. rewrite rp_S in X by lia. lia.
          - pose proof (@rp_mono (a + 1) i ltac:(lia)) as X. rewrite rp_S in X by lia. lia. }
        assert (NEW : rd (wr Ri w j) w = j) by (apply rd_wr_eq; lia).
        assert (FE : forall i, 0 <= i < n -> rd (wr F a j) i = if i =? a then j else rd F i) by (intros i Hi; apply rd_wr; lia).
        constructor.
        -- rewrite zlen_wr. exact LR.
        -- rewrite zlen_wr. exact LW.
        -- exact F1.
        -- intros i Hi. rewrite WE, CS by exact Hi. rewrite (f_wv FI Hi). lia.
        -- intros i q Hi. rewrite WE, FE by exact Hi. destruct (Z.eqb_spec i a) as [->|N]; cbn [b2z]; intros Hq; fold w in Hq.
           ++ destruct (Z.eq_dec q w) as [->|]; [rewrite NEW; lia|]. rewrite OLD with (i := a) by (fold w; lia). pose proof (@f_le _ _ _ _ _ _ _ FI a q P2 ltac:(fold w; lia)). lia.
           ++ rewrite OLD with (i := i) by lia. apply (f_le FI Hi). lia.
        -- intros i q q' Hi. rewrite WE by exact Hi. destruct (Z.eqb_spec i a) as [->|N]; cbn [b2z]; intros Hq Hq'; fold w in Hq'.
           ++ rewrite (@OLD a q) by (fold w; lia). destruct (Z.eq_dec q' w) as [->|]; [rewrite NEW; pose proof (@f_le _ _ _ _ _ _ _ FI a q P2 ltac:(fold w; lia)); lia|]. rewrite (@OLD a q') by (fold w; lia). apply (@f_inc _ _ _ _ _ _ _ FI a q q' P2); fold w; lia.
           ++ rewrite (@OLD i q), (@OLD i q') by lia. apply (@f_inc _ _ _ _ _ _ _ FI i q q' Hi); lia.
        -- intros q Hq. rewrite rd_wr_ne by lia. apply (f_out FI). exact Hq.
        -- intros i k Hi. rewrite WE by exact Hi. rewrite preS by lia. fold a. rewrite (Z.eqb_sym a i). destruct (Z.eqb_spec i a) as [->|N]; cbn [b2z].
           ++ rewrite Bool.orb_true_r. split.
              ** intros (q & Q1 & Q2). fold w in Q1. destruct (Z.eq_dec q w) as [->|]; [right; rewrite NEW in Q2; auto|]. rewrite (@OLD a q) in Q2 by (fold w; lia). destruct (proj1 (f_mem FI k P2)) as [Y|(Y & _)]; [exists q; split; [fold w; lia|exact Q2]|auto|auto].
              ** intros [Y|(-> & _)]; [|exists w; split; [fold w; lia|exact NEW]]. destruct (proj2 (f_mem FI k P2) (or_introl Y)) as (q & Q1 & Q2). exists q. split; [lia|]. rewrite (@OLD a q) by lia. exact Q2.
           ++ rewrite Bool.orb_false_r, Z.add_0_r, <- (f_mem FI k Hi). split; intros (q & Q1 & Q2); exists q; (split; [exact Q1|]); [rewrite <- (@OLD i q)|rewrite (@OLD i q)]; auto.
    + intros [[R1 W1] F1] FI1. destruct FI1 as [A1 A2 A3 A4 A5 A6 A8 A7]. constructor; auto.
      * apply fl_next; auto.
      * intros i Hi. rewrite cc0, <- ccE by lia. apply A4. exact Hi.
      * intros i k Hi. rewrite (A7 i k Hi), pre0. fold (col j i). unfold pre. fold (col j i). split.
        -- intros [(X1 & X2)|(-> & X)]; left; (split; [lia|assumption]).
        -- intros [(X1 & X2)|(_ & X)]; [|discriminate]. destruct (Z.eq_dec k j) as [->|]; [right; auto|left; split; [lia|exact X2]].
Qed.

Theorem preprocess_ok Rp0 Ri0 : zlen Rp0 = n + 1 -> zlen Ri0 = rd Ap n -> wp (amd_preprocess n Ap Ai Rp0 Ri0)
  (fun '(Rp, Ri) => spat n Rp Ri /\ (zlen Rp = n + 1 /\ zlen Ri = rd Ap n /\ forall q, rd Rp n <= q -> rd Ri q = rd Ri0 q) /\ forall i j, 0 <= i < n -> 0 <= j < n -> (incol Rp Ri i j <-> incol Ap Ai j i)) nerr.
Proof.
  intros LR0 LI0. pose proof (jp_n JP) as Hn. pose proof (@jap 0 n ltac:(lia) ltac:(lia)) as Z0. rewrite (jp_0 JP) in Z0. unfold amd_preprocess. apply wp_bind. eapply wp_conseq; [exact count_ok|]. intros [W F0] (LW & HW & HS).
  apply wp_bind. eapply wp_conseq; [apply (@starts_ok W Rp0 LW LR0 HW)|]. intros Rp (LR & HR).
  apply wp_bind. eapply wp_conseq; [apply wp_for with (I := fun k W => zlen W = n /\ forall i, 0 <= i < k -> rd W i = rp i); [lia|split; [exact LW|intros; lia]|]|].
  { intros k W1 Hk (L1 & H1). wg; [lia|]. apply wp_set; [lia|]. rewrite zlen_wr. split; [exact L1|]. intros i Hi. rewrite rd_wr by lia. destruct (Z.eqb_spec i k) as [->|]; [apply HR; lia|apply H1; lia]. }
  intros W1 (L1 & H1). apply wp_bind. eapply wp_conseq; [apply (@fill_ok W1 Ri0 (rd Ap n) L1 LI0 HS H1)|]. intros [[Ri W2] F] FI. cbn [wp].
  assert (WE : forall i, 0 <= i < n -> rd W2 i = rp (i + 1)) by (intros i Hi; rewrite (f_wv FI Hi), cc0, rp_S by lia; reflexivity).
  assert (FL : forall i, 0 <= i < n -> rd F i < n). { intros i Hi. destruct (f_fl FI) as (_ & X). destruct (X i Hi) as (X1 & X2). rewrite pre0 in X2. assert (rd F i <> n); [|lia]. intros Y. apply X2 in Y. discriminate. }
  split.
  - constructor.
    + exact Hn.
    + lia.
    + rewrite HR by lia. reflexivity.
    + intros j Hj. rewrite !HR by lia. apply rp_mono. lia.
    + rewrite HR by lia. rewrite (f_ri FI). exact HS.
    + intros q Hq. rewrite HR in Hq by lia. destruct (@cover rp n q ltac:(lia) Hq) as (i & Hi & Q). rewrite <- WE in Q by exact Hi. pose proof (@f_le _ _ _ _ _ _ _ FI i q Hi Q). specialize (FL i Hi). lia.
    + intros j q q' Hj Q1 Q2. rewrite HR in Q1, Q2 by lia. rewrite <- WE in Q2 by exact Hj. apply (@f_inc _ _ _ _ _ _ _ FI j q q' Hj Q1 Q2).
  - split; [split; [exact LR|]; split; [apply (f_ri FI)|]; rewrite HR by lia; apply (f_out FI)|]. intros i j Hi Hj. unfold incol at 1. rewrite !HR, <- WE by lia. rewrite (f_mem FI j Hi), pre0. unfold col, incol. rewrite memb_spec. split.
    + intros [(_ & q & Q1 & Q2)|(_ & X)]; [exists q; split; [lia|exact Q2]|discriminate].
    + intros (q & Q1 & Q2). left. split; [exact Hj|]. exists q. split; [lia|exact Q2].
Qed.
End Pre.
