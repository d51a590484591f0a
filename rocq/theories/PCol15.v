(* COLAMD, part 15: init_scoring. *)
From Verif Require Import Base Det DetZ Spec MColamd PCol1 PCol2 PCol3 PCol9 PCol11 PCol12.
Set Implicit Arguments.
Open Scope Z_scope.
Set Bullet Behavior "Strict Subproofs".

(* columns killed so far are ordered last *)
Record kd (n n2 : Z) (cs co : Z -> Z) : Prop := {
  kd_n2 : 0 <= n2 <= n;
  kd_cs : forall c, 0 <= c < n -> -1 <= cs c;
  kd_co : forall c, 0 <= c < n -> cs c = -1 -> n2 <= co c < n;
  kd_ne : forall c c', 0 <= c < n -> 0 <= c' < n -> c <> c' -> cs c = -1 -> cs c' = -1 -> co c <> co c';
  kd_sum : wt n (fun c => 0 <=? cs c) (fun _ => 1) = n2 }.
Lemma kd_kill n n2 cs co c0 cs' co' : kd n n2 cs co -> 0 <= c0 < n -> 0 <= cs c0 -> cs' c0 = -1 -> co' c0 = n2 - 1 ->
  (forall c, 0 <= c < n -> c <> c0 -> cs' c = cs c /\ (cs c < 0 -> co' c = co c)) -> kd n (n2 - 1) cs' co'.
Proof.
  intros K Hc A E1 E2 H. pose proof (kd_sum K) as S. pose proof (kd_n2 K) as N.
  assert (S' : wt n (fun c => 0 <=? cs c) (fun _ => 1) = wt n (fun c => 0 <=? cs' c) (fun _ => 1) + 1).
  { apply (@wt_add n (fun c => 0 <=? cs' c) (fun c => 0 <=? cs c) (fun _ => 1) c0 Hc); [rewrite E1; reflexivity|]. intros x Hx. destruct (Z.eqb_spec x c0) as [->|Ne].
    - rewrite Bool.orb_true_r. apply Z.leb_le. exact A.
    - rewrite Bool.orb_false_r. destruct (H x Hx Ne) as (-> & _). reflexivity. }
  assert (P : 0 <= wt n (fun c => 0 <=? cs' c) (fun _ => 1)) by (apply wt_nonneg; intros; lia).
  constructor; [lia| | | |lia].
  - intros c Hc'. destruct (Z.eq_dec c c0) as [->|Ne]; [lia|]. destruct (H c Hc' Ne) as (-> & _). apply (kd_cs K Hc').
  - intros c Hc' E. destruct (Z.eq_dec c c0) as [->|Ne]; [lia|]. destruct (H c Hc' Ne) as (X & Y). rewrite X in E. rewrite Y by lia. pose proof (kd_co K Hc' E). lia.
  - intros c c' Hc1 Hc2 Ne X1 X2. destruct (Z.eq_dec c c0) as [->|N1], (Z.eq_dec c' c0) as [->|N2].
    + congruence.
    + destruct (H c' Hc2 N2) as (X & Y). rewrite X in X2. rewrite Y by lia. pose proof (kd_co K Hc2 X2). lia.
    + destruct (H c Hc1 N1) as (X & Y). rewrite X in X1. rewrite Y by lia. pose proof (kd_co K Hc1 X1). lia.
    + destruct (H c Hc1 N1) as (X & Y). destruct (H c' Hc2 N2) as (X' & Y'). rewrite X in X1. rewrite X' in X2. rewrite Y, Y' by lia. apply (kd_ne K); auto.
Qed.
Lemma kd_ext n n2 cs co cs' co' : kd n n2 cs co -> (forall c, 0 <= c < n -> cs' c = cs c /\ (cs c < 0 -> co' c = co c)) -> kd n n2 cs' co'.
Proof.
  intros K H. constructor.
  - apply (kd_n2 K).
  - intros c Hc. destruct (H c Hc) as (-> & _). apply (kd_cs K Hc).
  - intros c Hc. destruct (H c Hc) as (-> & Y). intros E. rewrite Y by lia. apply (kd_co K Hc E).
  - intros c c' Hc Hc' Ne. destruct (H c Hc) as (-> & Y). destruct (H c' Hc') as (-> & Y'). intros E E'. rewrite Y, Y' by lia. apply (kd_ne K); auto.
  - rewrite <- (kd_sum K). apply wt_ext. intros c Hc. destruct (H c Hc) as (-> & _). auto.
Qed.
Lemma kd_led n n2 cs co ct : kd n n2 cs co -> (forall c, 0 <= c < n -> ct c = 1) -> led n n2 0 cs ct co (fun c => c) (fun _ => 1).
Proof.
  intros K H. pose proof (kd_n2 K). constructor.
  - lia.
  - intros c Hc. pose proof (kd_cs K Hc). lia.
  - intros c Hc. split; [exact Hc|]. pose proof (kd_cs K Hc). lia.
  - intros c Hc _. split; [reflexivity|]. rewrite H by exact Hc. reflexivity.
  - intros c Hc E. pose proof (kd_cs K Hc). lia.
  - intros c Hc. lia.
  - intros c Hc _. rewrite H by exact Hc. rewrite (@sumz_single n _ c Hc); [rewrite Z.eqb_refl; reflexivity|]. intros x _ Ne. rewrite (proj2 (Z.eqb_neq _ _) Ne). reflexivity.
  - intros c Hc E. rewrite H by exact Hc. pose proof (kd_co K Hc E). lia.
  - intros c c' Hc Hc' Ne E E'. rewrite !H by auto. pose proof (kd_ne K Hc Hc' Ne E E'). lia.
  - rewrite Z.sub_0_r, <- (kd_sum K). apply sumz_ext. intros c Hc. rewrite H by exact Hc. reflexivity.
Qed.

Section Isc.
Variables (m n nz : Z) (A0 Rs Rl Rd0 Rm0 Cs0 Cl0 : list Z).
Hypothesis I0 : mem m n nz (2 * nz) A0 Rs Rl Rm0 Cs0 Cl0.
Hypothesis LRd : zlen Rd0 = Z.max m 1.
Hypothesis ER : forall r, 0 <= r < m -> rd Rd0 r = rd Rl r /\ rd Rm0 r = 0.
Hypothesis AC : forall c, 0 <= c < n -> 0 <= rd Cs0 c.
Let Hm := me_m I0.
Let Hn := me_n I0.
Let M0 (c r : Z) : bool := memb A0 (rd Cs0 c) (rd Cl0 c) r.
Definition deg (cs : list Z) (r : Z) : Z := wt n (fun c => alv cs c && M0 c r) (fun _ => 1).
(* alive columns keep their start *)
Definition sub (Cs : list Z) : Prop := zlen Cs = n /\ forall c, 0 <= c < n -> rd Cs c = -1 \/ rd Cs c = rd Cs0 c.

Lemma seg_ok c j : 0 <= c < n -> rd Cs0 c <= j < rd Cs0 c + rd Cl0 c -> 0 <= j < nz /\ nz <= zlen A0 /\ 0 <= rd A0 j < m.
Proof.
  intros Hc Hj. pose proof (AC Hc) as A. destruct (me_c I0 Hc A). destruct (me_b I0) as (? & ? & ?). split; [lia|]. split; [lia|]. split; [apply (me_pos I0); lia|]. apply (me_cr I0 Hc A Hj).
Qed.
Lemma len_ok c : 0 <= c < n -> 0 <= rd Cs0 c /\ 0 <= rd Cl0 c /\ injs A0 (rd Cs0 c) (rd Cl0 c).
Proof. intros Hc. pose proof (AC Hc) as A. split; [exact A|]. split; [apply (me_c I0 Hc A)|apply (me_ci I0 Hc A)]. Qed.

Lemma null_ok Co : zlen Co = n -> wp (is_null_cols n Cl0 Cs0 Co) (fun '(Cs, Co, n2) => zlen Co = n /\ sub Cs /\ kd n n2 (rd Cs) (rd Co) /\ forall c, 0 <= c < n -> rd Cs c = -1 -> rd Cl0 c = 0) nerr.
Proof.
  intros L. unfold is_null_cols. pose proof (me_Cs I0) as LCs. pose proof (me_Cl I0) as LCl.
  eapply wp_conseq; [apply wp_down with (I := fun i '(Cs, Co, n2) => zlen Co = n /\ sub Cs /\ kd n n2 (rd Cs) (rd Co) /\ (forall c, 0 <= c < i -> rd Cs c = rd Cs0 c) /\ forall c, 0 <= c < n -> rd Cs c = -1 -> rd Cl0 c = 0); [exact Hn| |]|].
  - split; [exact L|]. split; [split; [exact LCs|auto]|]. split; [|split; [auto|intros c Hc E; pose proof (AC Hc); lia]]. constructor; try lia.
    + intros c Hc. pose proof (AC Hc). lia.
    + intros c Hc E. pose proof (AC Hc). lia.
    + intros c c' Hc _ _ E. pose proof (AC Hc). lia.
    + unfold wt. rewrite (@sumz_ext n _ (fun _ => 1)); [rewrite sumz_const by lia; lia|]. intros c Hc. rewrite (proj2 (Z.leb_le 0 _) (AC Hc)). reflexivity.
  - intros i [[Cs Co'] n2] Hi (L1 & (L2 & S) & K & U & Z0). wg; [lia|]. pose proof (U i ltac:(lia)) as Ui. pose proof (AC Hi) as Ai. destruct (Z.eqb_spec (rd Cl0 i) 0) as [E|E].
    + ws; [lia|]. ws; [lia|]. cbn [wp]. rewrite zlen_wr. split; [exact L1|]. split; [split; [rewrite zlen_wr; exact L2|]|].
      { intros c Hc. destruct (Z.eq_dec c i) as [->|Ne]; [left; apply rd_wr_eq; lia|rewrite rd_wr_ne by lia; auto]. }
      split; [|split].
      * apply (@kd_kill _ _ _ _ i _ _ K); auto; try lia; [apply rd_wr_eq; lia|apply rd_wr_eq; lia|]. intros c Hc Ne. rewrite !rd_wr_ne by lia. auto.
      * intros c Hc. rewrite rd_wr_ne by lia. apply U. lia.
      * intros c Hc. destruct (Z.eq_dec c i) as [->|Ne]; [auto|rewrite rd_wr_ne by lia; auto].
    + cbn [wp]. split; [exact L1|]. split; [split; auto|]. split; [exact K|]. split; [intros c Hc; apply U; lia|exact Z0].
  - intros [[Cs Co'] n2] (L1 & S & K & _ & Z0). auto.
Qed.

Lemma deg_kill Cs c r : sub Cs -> 0 <= c < n -> rd Cs c = rd Cs0 c -> deg (wr Cs c (-1)) r = deg Cs r - b2z (M0 c r).
Proof.
  intros (L & S) Hc E. pose proof (AC Hc) as A. unfold deg, wt. rewrite (@sumz_upd n _ (fun c => if alv Cs c && M0 c r then 1 else 0) c Hc).
  - unfold alv. rewrite rd_wr_eq by lia. rewrite E, (proj2 (Z.leb_le 0 _) A). cbn [andb Z.leb]. destruct (M0 c r); cbn; lia.
  - intros k Hk Ne. unfold alv. rewrite rd_wr_ne by lia. reflexivity.
Qed.

Lemma deg_start Cs r : sub Cs -> (forall c, 0 <= c < n -> rd Cs c = -1 -> rd Cl0 c = 0) -> 0 <= r < m -> rd Rd0 r = deg Cs r.
Proof.
  intros (L & S) Z0 Hr. destruct (ER Hr) as (-> & E). assert (A : 0 <= rd Rm0 r) by lia. destruct (me_r I0 Hr A) as (B1 & B2 & B3).
  rewrite (@seg_len n A0 (rd Rs r) (rd Rl r)); [|exact B2|apply (me_ri I0 Hr A)|intros j Hj; split; [apply (me_pos I0); pose proof (me_b I0); lia|apply (me_e I0 Hr A Hj)]].
  unfold deg, wt. apply sumz_ext. intros c Hc. pose proof (AC Hc) as Ac. rewrite (me_m2 I0 Hc Ac Hr A). fold (M0 c r). unfold alv. destruct (S c Hc) as [X|X]; rewrite X.
  - cbn [Z.leb andb]. unfold M0. rewrite (Z0 c Hc X), memb_0 by lia. reflexivity.
  - rewrite (proj2 (Z.leb_le 0 _) Ac). cbn [andb]. destruct (M0 c r); reflexivity.
Qed.

Lemma dense_cols_ok dense_col Cs1 Co1 n2 : zlen Co1 = n -> sub Cs1 -> kd n n2 (rd Cs1) (rd Co1) -> (forall r, 0 <= r < m -> rd Rd0 r = deg Cs1 r) ->
  wp (is_dense_cols n dense_col A0 Cl0 Cs1 Co1 Rd0 n2) (fun '(Cs, Co, Rd, n2) => zlen Co = n /\ sub Cs /\ kd n n2 (rd Cs) (rd Co) /\ zlen Rd = Z.max m 1 /\ forall r, 0 <= r < m -> rd Rd r = deg Cs r) nerr.
Proof.
  intros L S K D. unfold is_dense_cols. pose proof (me_Cl I0) as LCl.
  apply wp_down with (I := fun i '(Cs, Co, Rd, n2) => zlen Co = n /\ sub Cs /\ kd n n2 (rd Cs) (rd Co) /\ zlen Rd = Z.max m 1 /\ forall r, 0 <= r < m -> rd Rd r = deg Cs r); [exact Hn|auto|].
  clear L S K D Cs1 Co1 n2. intros i [[[Cs Co] Rd] n2] Hi (L & S & K & LR & D). pose proof (proj1 S) as LCs. wg; [lia|]. destruct (Z.ltb_spec (rd Cs i) 0) as [X|X]; [cbn [wp]; auto|].
  assert (E : rd Cs i = rd Cs0 i) by (destruct (proj2 S i Hi); [lia|assumption]). wg; [lia|]. destruct (Z.gtb_spec (rd Cl0 i) dense_col) as [Y|Y]; [|cbn [wp]; auto].
  destruct (len_ok Hi) as (B1 & B2 & B3). ws; [lia|]. rewrite E. apply wp_bind.
  eapply wp_conseq; [apply wp_for with (I := fun t R => zlen R = Z.max m 1 /\ forall r, 0 <= r < m -> rd R r = rd Rd r - b2z (memb A0 (rd Cs0 i) (t - rd Cs0 i) r)); [lia| |]|].
  - split; [exact LR|]. intros r Hr. rewrite memb_0 by lia. cbn [b2z]. lia.
  - intros t R Ht (LR' & D'). destruct (seg_ok Hi Ht) as (T1 & T2 & T3). wg; [lia|]. unfold inc. wg; [lia|]. apply wp_set; [lia|]. rewrite zlen_wr. split; [exact LR'|]. intros r Hr.
    replace (t + 1 - rd Cs0 i) with (t - rd Cs0 i + 1) by lia. rewrite memb_S by lia. replace (rd Cs0 i + (t - rd Cs0 i)) with t by lia.
    destruct (Z.eqb_spec (rd A0 t) r) as [<-|Ne].
    + rewrite rd_wr_eq by lia. rewrite D' by exact T3. assert (N : memb A0 (rd Cs0 i) (t - rd Cs0 i) (rd A0 t) = false).
      { apply memb_false. intros j Hj Ej. assert (j = t); [|lia]. apply B3; auto; lia. }
      rewrite N. cbn [orb b2z]. lia.
    + rewrite rd_wr_ne by lia. rewrite D', Bool.orb_false_r by exact Hr. reflexivity.
  - intros R (LR' & D'). ws; [lia|]. cbn [wp]. rewrite zlen_wr. split; [exact L|]. split; [|split; [|split; [exact LR'|]]].
    + split; [rewrite zlen_wr; exact LCs|]. intros c Hc. destruct (Z.eq_dec c i) as [->|Ne]; [left; apply rd_wr_eq; lia|rewrite rd_wr_ne by lia; apply S; exact Hc].
    + apply (@kd_kill _ _ _ _ i _ _ K); auto; try lia; [apply rd_wr_eq; lia|apply rd_wr_eq; lia|]. intros c Hc Ne. rewrite !rd_wr_ne by lia. auto.
    + intros r Hr. rewrite deg_kill by auto. rewrite D', D by exact Hr. unfold M0. do 3 f_equal. lia.
Qed.

Lemma dense_rows_ok dense_row Rd : zlen Rd = Z.max m 1 -> wp (is_dense_rows m dense_row Rd Rm0) (fun '(Rm, mx) => zlen Rm = Z.max m 1 /\ 0 <= mx /\ forall r, 0 <= r < m -> rd Rm r = -1 \/ (rd Rm r = 0 /\ rd Rd r <= mx /\ rd Rd r <> 0)) nerr.
Proof.
  intros L. unfold is_dense_rows. pose proof (me_Rm I0) as LR.
  eapply wp_conseq; [apply wp_for with (I := fun i '(Rm, mx) => zlen Rm = Z.max m 1 /\ 0 <= mx /\ (forall r, i <= r < m -> rd Rm r = 0) /\ forall r, 0 <= r < i -> rd Rm r = -1 \/ (rd Rm r = 0 /\ rd Rd r <= mx /\ rd Rd r <> 0)); [exact Hm| |]|].
  - repeat split; auto; try lia. intros r Hr. apply ER. lia.
  - intros i [Rm mx] Hi (L1 & X & U & P). wg; [lia|]. destruct ((rd Rd i >? dense_row) || (rd Rd i =? 0)) eqn:E.
    + ws; [lia|]. cbn [wp]. rewrite zlen_wr. split; [exact L1|]. split; [exact X|]. split.
      * intros r Hr. rewrite rd_wr_ne by lia. apply U. lia.
      * intros r Hr. destruct (Z.eq_dec r i) as [->|Ne]; [left; apply rd_wr_eq; lia|rewrite rd_wr_ne by lia; apply P; lia].
    + apply Bool.orb_false_iff in E. destruct E as (_ & E). apply Z.eqb_neq in E. cbn [wp]. split; [exact L1|]. split; [lia|]. split; [intros r Hr; apply U; lia|].
      intros r Hr. destruct (Z.eq_dec r i) as [->|Ne]; [right; split; [apply U; lia|lia]|]. destruct (P r ltac:(lia)) as [Y|Y]; [left; exact Y|right; lia].
  - intros [Rm mx] (L1 & X & _ & P). auto.
Qed.

(* scores *)
Section Sc.
Variables (Cs1 Co1 Rd Rm : list Z) (n2' mx : Z).
Hypothesis LCo1 : zlen Co1 = n.
Hypothesis S1 : sub Cs1.
Hypothesis K1 : kd n n2' (rd Cs1) (rd Co1).
Hypothesis LRd1 : zlen Rd = Z.max m 1.
Hypothesis D1 : forall r, 0 <= r < m -> rd Rd r = deg Cs1 r.
Hypothesis LRm : zlen Rm = Z.max m 1.
Hypothesis RM : forall r, 0 <= r < m -> rd Rm r = -1 \/ (rd Rm r = 0 /\ rd Rd r <= mx /\ rd Rd r <> 0).
Definition kp (r : Z) : bool := 0 <=? rd Rm r.
Definition scr (c : Z) : Z := wt m (fun r => M0 c r && kp r) (fun r => rd Rd r - 1).

Definition done (A Cl Cs Co : list Z) (c : Z) : Prop :=
  (rd Cs1 c = -1 /\ rd Cs c = -1 /\ rd Co c = rd Co1 c) \/
  (0 <= rd Cs1 c /\ rd Cs c = -1 /\ forall r, M0 c r && kp r = false) \/
  (0 <= rd Cs1 c /\ rd Cs c = rd Cs0 c /\ 0 < rd Cl c <= rd Cl0 c /\ injs A (rd Cs0 c) (rd Cl c) /\ (forall r, memb A (rd Cs0 c) (rd Cl c) r = M0 c r && kp r) /\ rd Co c = Z.min (scr c) n).
Record sinv (i : Z) (A Cl Cs Co : list Z) (n2 : Z) : Prop := {
  si_A : zlen A = zlen A0; si_Cl : zlen Cl = n; si_Cs : zlen Cs = n; si_Co : zlen Co = n;
  si_k : kd n n2 (rd Cs) (rd Co);
  si_u : forall c, 0 <= c < i -> rd Cs c = rd Cs1 c /\ rd Cl c = rd Cl0 c /\ rd Co c = rd Co1 c;
  si_ua : forall c j, 0 <= c < i -> rd Cs0 c <= j < rd Cs0 c + rd Cl0 c -> rd A j = rd A0 j;
  si_p : forall c, i <= c < n -> done A Cl Cs Co c;
  si_r : forall j, nz <= j -> rd A j = rd A0 j;
  si_n : forall j, 0 <= j < nz -> 0 <= rd A j }.

Lemma rd_ge r : 0 <= r < m -> rd Rm r >= 0 -> 1 <= rd Rd r.
Proof.
  intros Hr A. destruct (RM Hr) as [X|(_ & _ & N)]; [lia|]. rewrite D1 in * by exact Hr. assert (0 <= deg Cs1 r); [|lia]. unfold deg. apply wt_nonneg. intros; lia.
Qed.

Lemma scores_ok : wp (is_scores n Rd Rm A0 Cl0 Cs1 Co1 n2') (fun '(A, Cl, Cs, Co, n2) => sinv 0 A Cl Cs Co n2) nerr.
Proof.
  unfold is_scores. pose proof (me_Cl I0) as LCl. destruct (me_b I0) as (B1 & B2 & B3).
  apply wp_down with (I := fun i '(A, Cl, Cs, Co, n2) => sinv i A Cl Cs Co n2); [exact Hn| |].
  - constructor; auto; try lia. apply S1. intros j Hj. apply (me_pos I0). lia.
  - intros i [[[[A Cl] Cs] Co] n2] Hi J. pose proof (si_A J) as LA. pose proof (si_Cl J) as LCl'. pose proof (si_Cs J) as LCs. pose proof (si_Co J) as LCo. destruct (si_u J (c := i) ltac:(lia)) as (U1 & U2 & U3).
    wg; [lia|]. rewrite U1. destruct (Z.ltb_spec (rd Cs1 i) 0) as [X|X].
    + cbn [wp]. destruct J as [j1 j2 j3 j4 j5 j6 j7 j8 j9 j10]. constructor; auto.
      * intros c Hc. apply j6. lia.
      * intros c j Hc. apply j7. lia.
      * intros c Hc. destruct (Z.eq_dec c i) as [->|Ne]; [|apply j8; lia]. left. pose proof (kd_cs K1 Hi). assert (rd Cs1 i = -1) by lia. rewrite U1. auto.
    + assert (E : rd Cs1 i = rd Cs0 i) by (destruct (proj2 S1 i Hi); [lia|assumption]). rewrite E. wg; [lia|]. rewrite U2. destruct (len_ok Hi) as (C1 & C2 & C3). set (s := rd Cs0 i) in *. set (l := rd Cl0 i) in *.
      apply wp_bind.
      eapply wp_conseq; [apply wp_for with (I := fun t '(A', w, sc) => comp A A' kp s s t w /\ sc = Z.min (wt m (fun r => memb A0 s (t - s) r && kp r) (fun r => rd Rd r - 1)) n); [lia| |]|].
      * split; [apply comp_0|]. rewrite (@wt_ext m _ (fun _ => false) _ (fun _ => 0)); [|intros r Hr; rewrite memb_0 by lia; split; [reflexivity|discriminate]]. unfold wt. rewrite sumz_zero by auto. lia.
      * intros t [[A' w] sc] Ht (C & Sc). destruct (seg_ok Hi Ht) as (T1 & T2 & T3). pose proof (cp_len C) as LA'. destruct (cp_w C) as (W1 & W2).
        assert (EA : rd A' t = rd A0 t). { rewrite (cp_out C) by lia. apply (si_ua J) with (c := i); [lia|exact Ht]. }
        assert (EA0 : rd A t = rd A0 t) by (apply (si_ua J) with (c := i); [lia|exact Ht]).
        wg; [lia|]. rewrite EA. wg; [lia|].
        assert (NM : memb A0 s (t - s) (rd A0 t) = false). { apply memb_false. intros j Hj Ej. assert (j = t); [|lia]. apply C3; auto; lia. }
        assert (MS : forall r, memb A0 s (t + 1 - s) r = memb A0 s (t - s) r || (rd A0 t =? r)). { intros r. replace (t + 1 - s) with (t - s + 1) by lia. rewrite memb_S by lia. do 4 f_equal. lia. }
        destruct (Z.ltb_spec (rd Rm (rd A0 t)) 0) as [Y|Y].
        -- cbn [wp]. assert (KF : kp (rd A0 t) = false) by (apply Z.leb_gt; exact Y). split; [apply comp_drop; [exact C|lia|rewrite EA0; exact KF]|]. rewrite Sc. f_equal. apply wt_ext. intros r Hr. split; [|auto]. rewrite MS.
           destruct (Z.eqb_spec (rd A0 t) r) as [<-|]; [rewrite KF, !Bool.andb_false_r; reflexivity|rewrite Bool.orb_false_r; reflexivity].
        -- assert (KT : kp (rd A0 t) = true) by (apply Z.leb_le; exact Y). ws; [lia|]. wg; [lia|]. cbn [wp]. split; [rewrite <- EA0; apply comp_keep; auto; try lia; rewrite EA0; exact KT|].
           rewrite (@wt_add m (fun r => memb A0 s (t - s) r && kp r) (fun r => memb A0 s (t + 1 - s) r && kp r) (fun r => rd Rd r - 1) (rd A0 t) T3); [|rewrite NM; reflexivity|].
           ++ pose proof (rd_ge T3 ltac:(lia)). rewrite Sc. lia.
           ++ intros r Hr. rewrite MS. rewrite (Z.eqb_sym (rd A0 t) r). destruct (Z.eqb_spec r (rd A0 t)) as [->|]; [rewrite KT, !Bool.orb_true_r; reflexivity|rewrite !Bool.orb_false_r; reflexivity].
      * intros [[A' w] sc] (C & Sc). replace (s + l - s) with l in Sc by lia. fold (M0 i) in Sc. pose proof (cp_len C) as LA'. destruct (cp_w C) as (W1 & W2).
        assert (EA0 : forall j, s <= j < s + l -> rd A0 j = rd A j) by (intros j Hj; symmetry; apply (si_ua J) with (c := i); [lia|exact Hj]).
        assert (CM : forall r, memb A' s (w - s) r = M0 i r && kp r). { intros r. rewrite (cp_mem C). f_equal. replace (s + l - s) with l by lia. symmetry. apply memb_ext. exact EA0. }
        assert (CI : injs A' s (w - s)). { apply (cp_inj C). replace (s + l - s) with l by lia. apply (injs_ext (A := A0)); [exact EA0|exact C3]. }
        destruct (me_c I0 Hi C1) as (C4 & C5). fold s in C5. fold l in C4, C5.
        assert (OUT : forall j, 0 <= j < zlen A0 -> j < s \/ s + l <= j -> rd A' j = rd A j). { intros j Hj Hj'. apply (cp_out C); lia. }
        assert (UA : forall c j, 0 <= c < i -> rd Cs0 c <= j < rd Cs0 c + rd Cl0 c -> rd A' j = rd A0 j).
        { intros c j Hc Hj. destruct (seg_ok (c := c) ltac:(lia) Hj) as (T1 & T2 & _). pose proof (me_o I0 (c := c) (c' := i) ltac:(lia) ltac:(lia) ltac:(lia) (AC (c := c) ltac:(lia)) C1) as O. fold s in O. rewrite OUT by lia. apply (si_ua J) with (c := c); [lia|exact Hj]. }
        assert (RR : forall j, nz <= j -> rd A' j = rd A0 j).
        { intros j Hj. destruct (Z_lt_le_dec j (zlen A0)) as [Q|Q]; [rewrite OUT by lia; apply (si_r J Hj)|]. unfold rd. rewrite !nth_overflow; auto; unfold zlen in *; lia. }
        assert (PD : forall c, i + 1 <= c < n -> forall j, rd Cs0 c <= j < rd Cs0 c + rd Cl0 c -> rd A' j = rd A j).
        { intros c Hc j Hj. destruct (seg_ok (c := c) ltac:(lia) Hj) as (T1 & T2 & _). pose proof (me_o I0 (c := i) (c' := c) ltac:(lia) ltac:(lia) ltac:(lia) C1 (AC (c := c) ltac:(lia))) as O. fold s l in O. apply OUT; lia. }
        assert (NN : forall j, 0 <= j < nz -> 0 <= rd A' j).
        { intros j Hj. destruct (Z_lt_le_dec j s) as [Q|Q]; [rewrite OUT by lia; apply (si_n J Hj)|]. destruct (Z_le_gt_dec w j) as [Q'|Q'].
          - rewrite (cp_out C) by lia. apply (si_n J Hj).
          - assert (T : memb A' s (w - s) (rd A' j) = true) by (apply memb_at; lia). rewrite CM in T. apply Bool.andb_true_iff in T. destruct T as (T & _). apply memb_spec in T. destruct T as (j' & Hj' & <-). apply (seg_ok Hi). exact Hj'. }
        assert (DN : forall Cl' Cs' Co' c, i + 1 <= c < n -> rd Cl' c = rd Cl c -> rd Cs' c = rd Cs c -> rd Co' c = rd Co c -> done A' Cl' Cs' Co' c).
        { intros Cl' Cs' Co' c Hc e1 e2 e3. unfold done. rewrite e1, e2, e3. destruct (si_p J Hc) as [Q|[Q|(Q1 & Q2 & Q3 & Q4 & Q5 & Q6)]]; [left; exact Q|right; left; exact Q|right; right]. split; [exact Q1|]. split; [exact Q2|]. split; [exact Q3|].
          assert (QE : forall j, rd Cs0 c <= j < rd Cs0 c + rd Cl c -> rd A j = rd A' j) by (intros j Hj; symmetry; apply (PD c Hc); lia). split; [apply (injs_ext (A := A)); [exact QE|exact Q4]|]. split; [|exact Q6].
          intros r. rewrite <- Q5. symmetry. apply memb_ext. exact QE. }
        destruct (Z.eqb_spec (w - s) 0) as [Q|Q].
        -- ws; [lia|]. ws; [lia|]. cbn [wp]. destruct J as [j1 j2 j3 j4 j5 j6 j7 j8 j9 j10]. constructor; rewrite ?zlen_wr; auto; try lia.
           ++ apply (@kd_kill _ _ _ _ i _ _ j5); auto; try lia; [apply rd_wr_eq; lia|apply rd_wr_eq; lia|]. intros c Hc Ne. rewrite !rd_wr_ne by lia. auto.
           ++ intros c Hc. rewrite !rd_wr_ne by lia. apply j6. lia.
           ++ intros c Hc. destruct (Z.eq_dec c i) as [->|Ne]; [|apply DN; [lia|reflexivity|apply rd_wr_ne; lia|apply rd_wr_ne; lia]].
              right. left. split; [exact X|]. split; [apply rd_wr_eq; lia|]. intros r. rewrite <- CM. apply memb_0. lia.
        -- ws; [lia|]. ws; [lia|]. cbn [wp]. destruct J as [j1 j2 j3 j4 j5 j6 j7 j8 j9 j10]. constructor; rewrite ?zlen_wr; auto; try lia.
           ++ apply (@kd_ext _ _ _ _ _ _ j5). intros c Hc. split; [reflexivity|]. intros Neg. rewrite rd_wr_ne; [reflexivity|lia|lia|]. intros <-. lia.
           ++ intros c Hc. rewrite !rd_wr_ne by lia. apply j6. lia.
           ++ intros c Hc. destruct (Z.eq_dec c i) as [->|Ne]; [|apply DN; [lia|apply rd_wr_ne; lia|reflexivity|apply rd_wr_ne; lia]].
              right. right. rewrite !rd_wr_eq by lia. fold s l. split; [exact X|]. split; [congruence|]. split; [lia|]. split; [exact CI|]. split; [exact CM|]. exact Sc.
Qed.

(* lists *)
Lemma lists_ok A Cl Cs Co n2 Cp Cn head : sinv 0 A Cl Cs Co n2 -> zlen Cp = n -> zlen Cn = n -> zlen head = n + 1 ->
  (forall c, 0 <= c < n -> 0 <= rd Cs c -> 0 <= rd Co c <= n) ->
  wp (is_lists n Cs Co Cp Cn head) (fun '(Cp, Cn, head) => zlen Cp = n /\ zlen Cn = n /\ zlen head = n + 1 /\
    exists rk, dlist n (fun c => 0 <= c < n /\ 0 <= rd Cs c) (rd Co) (rd Cn) (rd Cp) (rd head) rk) nerr.
Proof.
  intros J L1 L2 L3 SC. unfold is_lists. apply wp_bind.
  eapply wp_conseq; [apply wp_for with (I := fun i h => zlen h = n + 1 /\ forall c, 0 <= c < i -> rd h c = EMPTY); [lia|split; [exact L3|lia]|]|].
  - intros i h Hi (L & E). apply wp_set; [lia|]. rewrite zlen_wr. split; [exact L|]. intros c Hc. destruct (Z.eq_dec c i) as [->|Ne]; [apply rd_wr_eq; lia|rewrite rd_wr_ne by lia; apply E; lia].
  - intros h (L & E). pose proof (si_Cs J) as LCs. pose proof (si_Co J) as LCo.
    eapply wp_conseq; [apply wp_down with (I := fun i '(Cp, Cn, head) => zlen Cp = n /\ zlen Cn = n /\ zlen head = n + 1 /\ exists rk, dlist n (fun c => i <= c < n /\ 0 <= rd Cs c) (rd Co) (rd Cn) (rd Cp) (rd head) rk); [exact Hn| |]|].
    + split; [exact L1|]. split; [exact L2|]. split; [exact L|]. exists (fun _ => 0). constructor; try (intros c (Hc & _); lia). intros s Hs. left. apply E. lia.
    + intros i [[Cp' Cn'] h'] Hi (M1 & M2 & M3 & rk & D). wg; [lia|]. destruct (Z.geb_spec (rd Cs i) 0) as [X|X].
      * wg; [lia|]. apply (@list_insert_ok n (fun c => i + 1 <= c < n /\ 0 <= rd Cs c) Co Cp' Cn' h' rk i (rd Co i) (fun c => i <= c < n /\ 0 <= rd Cs c) (rd Co)); auto.
        -- intros (Y & _). lia.
        -- intros x. split; [intros (Y & Z); destruct (Z.eq_dec x i); [right; assumption|left; split; [lia|exact Z]]|intros [(Y & Z)| ->]; split; try lia].
      * cbn [wp]. split; [exact M1|]. split; [exact M2|]. split; [exact M3|]. exists rk. eapply dlist_ext; [exact D| |auto|auto]. intros c. split; intros (Y & Z); (split; [|exact Z]); [|lia]. destruct (Z.eq_dec c i) as [->|]; lia.
    + intros [[Cp' Cn'] h'] (M1 & M2 & M3 & rk & D). eauto 6.
Qed.

(* the result *)
Lemma done_alive A Cl Cs Co n2 c : sinv 0 A Cl Cs Co n2 -> 0 <= c < n -> 0 <= rd Cs c ->
  0 <= rd Cs1 c /\ rd Cs c = rd Cs0 c /\ 0 < rd Cl c <= rd Cl0 c /\ injs A (rd Cs c) (rd Cl c) /\ (forall r, Mof A Cs Cl c r = M0 c r && kp r) /\ rd Co c = Z.min (scr c) n.
Proof.
  intros J Hc Ac. destruct (si_p J Hc) as [(_ & X & _)|[(_ & X & _)|X]]; [lia|lia|]. destruct X as (X1 & X2 & X3 & X4 & X5 & X6). unfold Mof. rewrite X2. auto 7.
Qed.
Lemma scored_mem A Cl Cs Co n2 : sinv 0 A Cl Cs Co n2 -> mem m n nz (2 * nz) A Rs Rl Rm Cs Cl.
Proof.
  intros J. assert (Q : forall r, 0 <= r < m -> 0 <= rd Rm r -> 0 <= rd Rm0 r) by (intros r Hr _; destruct (ER Hr) as (_ & ->); lia).
  assert (RE : forall r j, 0 <= r < m -> rd Rs r <= j < rd Rs r + rd Rl r -> rd A0 j = rd A j). { intros r j Hr Hj. symmetry. apply (si_r J). destruct (ER Hr) as (_ & E). destruct (me_r I0 Hr ltac:(lia)). lia. }
  constructor; try apply I0; auto; try apply J.
  - rewrite (si_A J). apply (me_b I0).
  - intros c Hc Ac. destruct (done_alive J Hc Ac) as (_ & -> & X & _). destruct (me_c I0 Hc (AC Hc)). lia.
  - intros c c' H1 H2 H3 A1 A2. destruct (done_alive J (c := c) ltac:(lia) A1) as (_ & -> & X & _). destruct (done_alive J (c := c') ltac:(lia) A2) as (_ & -> & X' & _). pose proof (me_o I0 H1 H2 H3 (AC (c := c) ltac:(lia)) (AC (c := c') ltac:(lia))). lia.
  - intros r Hr Ar. apply (me_r I0 Hr). auto.
  - intros r r' j Hr Hr' Ne A1 A2. apply (me_d I0); auto.
  - intros j Hj. destruct (Z_lt_le_dec j nz) as [X|X]; [apply (si_n J); lia|]. rewrite (si_r J X). apply (me_pos I0 Hj).
  - intros r j Hr Ar Hj. rewrite <- (RE r j Hr Hj). apply (me_e I0 Hr); auto.
  - intros c Hc Ac. apply (done_alive J Hc Ac).
  - intros c j Hc Ac Hj. destruct (done_alive J Hc Ac) as (_ & _ & _ & _ & X & _). specialize (X (rd A j)). unfold Mof in X. rewrite memb_at in X by exact Hj. symmetry in X. apply Bool.andb_true_iff in X. destruct X as (X1 & X2). apply memb_spec in X1. destruct X1 as (j' & Hj' & EJ). apply Z.leb_le in X2. split; [|exact X2]. rewrite <- EJ. apply (seg_ok Hc Hj').
  - intros r Hr Ar. apply (injs_ext (A := A0)); [intros j Hj; apply (RE r j Hr Hj)|]. apply (me_ri I0 Hr). auto.
  - intros c r Hc Ac Hr Ar. destruct (done_alive J Hc Ac) as (_ & _ & _ & _ & X & _). specialize (X r). unfold Mof in X. rewrite X. unfold kp. rewrite (proj2 (Z.leb_le 0 _) Ar), Bool.andb_true_r. unfold M0. rewrite <- (me_m2 I0 Hc (AC Hc) Hr (Q r Hr Ar)). symmetry. apply memb_ext. intros j Hj. apply (RE r j Hr Hj).
Qed.
Lemma scored_deg A Cl Cs Co n2 r : sinv 0 A Cl Cs Co n2 -> 0 <= r < m -> 0 <= rd Rm r -> rd Rd r = wt n (fun c => alv Cs c && Mof A Cs Cl c r) (fun _ => 1).
Proof.
  intros J Hr Ar. rewrite D1 by exact Hr. apply wt_ext. intros c Hc. split; [|auto]. assert (KT : kp r = true) by (apply Z.leb_le; exact Ar). unfold alv at 1. destruct (si_p J Hc) as [(X1 & X2 & _)|[(X1 & X2 & X3)|X]].
  - unfold alv. rewrite X1, X2. reflexivity.
  - unfold alv. rewrite X2. cbn [Z.leb andb]. specialize (X3 r). rewrite KT, Bool.andb_true_r in X3. rewrite X3. apply Bool.andb_false_r.
  - assert (Ac : 0 <= rd Cs c) by (destruct X as (_ & -> & _); apply (AC Hc)). destruct (done_alive J Hc Ac) as (Y1 & _ & _ & _ & Y & _). rewrite Y, KT, Bool.andb_true_r. rewrite (proj2 (Z.leb_le 0 _) Y1). rewrite (proj2 (alv_spec Cs c) Ac). reflexivity.
Qed.
Lemma scr_nonneg c : 0 <= scr c.
Proof. apply wt_nonneg. intros r Hr E. apply Bool.andb_true_iff in E. destruct E as (_ & E). apply Z.leb_le in E. pose proof (rd_ge Hr ltac:(lia)). lia. Qed.
Lemma scored_ext A Cl Cs Co n2 c : sinv 0 A Cl Cs Co n2 -> 0 <= c < n -> 0 <= rd Cs c -> ext m n (Mof A Cs Cl) (alv Cs) (fun _ => 1) c <= rd Co c.
Proof.
  intros J Hc Ac. destruct (done_alive J Hc Ac) as (_ & _ & _ & _ & ME & ->). apply Z.min_glb.
  - set (M := Mof A Cs Cl) in *. set (g := fun c' r => if alv Cs c' && negb (c' =? c) && (M c r && M c' r) then 1 else 0).
    assert (E : scr c = sumz n (fun c' => sumz m (fun r => g c' r))).
    { rewrite sumz_swap. unfold scr, wt. apply sumz_ext. intros r Hr. destruct (M0 c r && kp r) eqn:Q.
      - assert (Ar : 0 <= rd Rm r) by (apply Bool.andb_true_iff in Q; destruct Q as (_ & Q); apply Z.leb_le; exact Q). rewrite (scored_deg (r := r) J Hr Ar). fold M. unfold wt.
        rewrite (@sumz_upd n (fun c0 => if alv Cs c0 && M c0 r then 1 else 0) (fun c' => g c' r) c Hc).
        + unfold g. rewrite Z.eqb_refl, ME, Q, (proj2 (alv_spec Cs c) Ac). cbn. lia.
        + intros k Hk Ne. unfold g. rewrite (proj2 (Z.eqb_neq k c) Ne), ME, Q. cbn [negb]. rewrite Bool.andb_true_r. cbn [andb]. reflexivity.
      - symmetry. apply sumz_zero. intros k Hk. unfold g. rewrite ME, Q. cbn [andb]. rewrite Bool.andb_false_r. reflexivity. }
    rewrite E. unfold ext, wt. apply sumz_le. intros c' Hc'. unfold g. destruct (alv Cs c' && negb (c' =? c)) eqn:Q; cbn [andb]; [|rewrite sumz_zero by auto; lia].
    destruct (sh m M c c') eqn:SH.
    + apply sh_spec in SH. destruct SH as (r & Hr & X1 & X2). pose proof (@sumz_pos1 m (fun r => if M c r && M c' r then 1 else 0) r Hr) as P. cbv beta in P. rewrite X1, X2 in P. apply P. intros k Hk. destruct (M c k), (M c' k); cbn; lia.
    + apply sumz_nonneg. intros k Hk. destruct (M c k), (M c' k); cbn; lia.
  - unfold ext, wt. etransitivity; [apply (@sumz_le n _ (fun _ => 1)); intros k Hk; destruct (_ && _); lia|]. rewrite sumz_const by lia. lia.
Qed.
End Sc.

Lemma init_scoring_ok dense_row dense_col Ct Co Cp Cn head : Ct = mk n 1 -> zlen Co = n -> zlen Cp = n -> zlen Cn = n -> zlen head = n + 1 -> 2 * nz + n <= zlen A0 ->
  wp (init_scoring m n dense_row dense_col (mkAr A0 Rs Rl Rd0 Rm0 Cs0 Cl0 Ct Co Cp Cn) head) (fun '(ar, head, n2, mx) => linit m n n2 nz ar head mx (2 * nz) /\ zlen head = n + 1) nerr.
Proof.
  intros ECt L1 L2 L3 L4 LA. unfold init_scoring. cbn [a_A a_Rs a_Rl a_Rd a_Rm a_Cs a_Cl a_Ct a_Co a_Cp a_Cn].
  apply wp_bind. eapply wp_conseq; [apply null_ok; exact L1|]. intros [[Cs Co1] n2] (L5 & S & K & Z0).
  apply wp_bind. eapply wp_conseq; [apply dense_cols_ok; auto; intros r Hr; apply deg_start; auto|]. clear Z0 K S L5 Cs Co1 n2. intros [[[Cs1 Co1] Rd] n2] (L5 & S & K & L6 & D).
  apply wp_bind. eapply wp_conseq; [apply dense_rows_ok; exact L6|]. intros [Rm mx] (L7 & MX & RM).
  apply wp_bind. eapply wp_conseq; [apply (@scores_ok Cs1 Co1 Rd Rm n2 mx); auto|]. intros [[[[A Cl] Cs] Co2] n3] J.
  assert (SC : forall c, 0 <= c < n -> 0 <= rd Cs c -> 0 <= rd Co2 c <= n).
  { intros c Hc Ac. destruct (done_alive J Hc Ac) as (_ & _ & _ & _ & _ & ->). pose proof (@scr_nonneg Cs1 Rd Rm mx D RM c). lia. }
  apply wp_bind. eapply wp_conseq; [apply (@lists_ok Cs1 Co1 Rd Rm A Cl Cs Co2 n3); auto|]. intros [[Cp' Cn'] h'] (M1 & M2 & M3 & rk & DL). cbn [wp]. split; [|exact M3].
  assert (CT : forall c, 0 <= c < n -> rd Ct c = 1) by (intros c Hc; rewrite ECt; apply rd_mk; lia).
  exists nz, (fun c => c), (fun _ => 1), rk. split; [eapply scored_mem; eassumption|]. split; [exact L6|]. split; [exact MX|]. split.
  { intros r Hr Ar. split; [|destruct (RM r Hr); lia]. erewrite scored_deg by eassumption. apply wt_ext. intros c Hc. split; [reflexivity|]. intros _. symmetry. apply CT. exact Hc. }
  split; [apply (@kd_led _ _ _ _ _ (si_k J)); exact CT|]. split; [exact DL|]. split; [rewrite ECt, zlen_mk by lia; rewrite (si_Co J); auto|]. split; [|split; [lia|rewrite (si_A J); exact LA]].
  intros c Hc Ac. etransitivity; [|eapply scored_ext; eassumption]. apply Z.eq_le_incl. apply wt_ext. intros x Hx. split; [reflexivity|]. intros _. apply CT. exact Hx.
Qed.
End Isc.
