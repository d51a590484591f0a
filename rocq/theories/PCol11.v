(* COLAMD, part 11: one iteration of the main loop; the main loop. *)
From Verif Require Import Base Det DetZ Spec MColamd PCol1 PCol2 PCol3 PCol4 PCol5 PCol6 PCol7 PCol8 PCol9 PCol10.
Set Implicit Arguments.
Open Scope Z_scope.
Set Bullet Behavior "Strict Subproofs".

(* the loop invariant *)
Definition linv (m n n2 nnz : Z) (st : fo_state) : Prop :=
  let '(mkFo (mkAr A Rs Rl Rd Rm Cs Cl Ct Co Cp Cn) head k max_deg tag mn pf) := st in
  exists cend grp sz rk,
    mem m n cend pf A Rs Rl Rm Cs Cl /\ num m n (Mof A Cs Cl) (alv Cs) Rd Rm (rd Ct) max_deg tag /\ led n n2 k (rd Cs) (rd Ct) (rd Co) grp sz /\
    dlist n (fun c => 0 <= c < n /\ 0 <= rd Cs c) (rd Co) (rd Cn) (rd Cp) (rd head) rk /\
    (zlen Ct = n /\ zlen Co = n /\ zlen Cp = n /\ zlen Cn = n /\ zlen head = n + 1) /\
    (forall c, 0 <= c < n -> 0 <= rd Cs c -> ext m n (Mof A Cs Cl) (alv Cs) (rd Ct) c <= rd Co c) /\
    0 <= mn <= n /\ (forall c, 0 <= c < n -> 0 <= rd Cs c -> mn <= rd Co c) /\ cend <= nnz /\ 2 * nnz + n <= zlen A.

(* the iteration after the choice of the pivot column and the garbage collection *)
Definition fo_rest (aggressive : bool) (n_row n_col max_mark : Z) (A Rs Rl Rd Rm Cs Cl Ct Co Cp Cn head : list Z) (k max_deg tag_mark min_score pfree pivot_col thick : Z) : res fo_state :=
  let* Ct := set Ct pivot_col (- thick) in
  let* s := get Cs pivot_col in let* l := get Cl pivot_col in
  let* pr := fo_pivot_row s l Rs Rl Rm Cs A Ct pfree in
  let '(A, Ct, pfree', degree) := pr in
  let* Ct := set Ct pivot_col thick in
  let max_deg := Z.max max_deg degree in
  let* Rm := fo_kill_rows s l A Rm in
  let length := pfree' - pfree in
  let* pivot_row := (if length >? 0 then get A s else Ok EMPTY) in
  let* d := fo_diffs aggressive tag_mark pfree length A Rd Cs Cl Co Rm Ct Cp Cn head in
  let '(Rm, Ct, Cp, Cn, head) := d in
  let* d := fo_add n_col tag_mark pfree length Rm Ct A Cs Cl Co Cp Cn head degree k in
  let '(A, Cs, Cl, Co, Cp, Cn, head, degree, k) := d in
  let* d := detect_super_cols A Cl pfree length Cs Ct Co Cp Cn head in
  let '(Cs, Ct, Co, Cp, Cn, head) := d in
  let* Cs := set Cs pivot_col (-1) in
  let* t := clear_mark (tag_mark + max_deg + 1) max_mark n_row Rm in
  let '(tag_mark, Rm) := t in
  let* d := fo_final n_col k pivot_row degree pfree length Cs Ct A Cl Co Cp Cn head min_score in
  let '(A, Cl, Co, Cp, Cn, head, min_score, new_rp) := d in
  let* d := (if degree >? 0 then
               let* Rs := set Rs pivot_row pfree in
               let* Rl := set Rl pivot_row (new_rp - pfree) in
               let* Rd := set Rd pivot_row degree in
               let* Rm := set Rm pivot_row 0 in Ok (Rs, Rl, Rd, Rm)
             else Ok (Rs, Rl, Rd, Rm)) in
  let '(Rs, Rl, Rd, Rm) := d in
  Ok (mkFo (mkAr A Rs Rl Rd Rm Cs Cl Ct Co Cp Cn) head k max_deg tag_mark min_score pfree').

Section Rest.
Variables (aggressive : bool) (m n n2 nnz mx cend pf : Z) (A Rs Rl Rd Rm Cs Cl Ct Co Cp Cn head : list Z) (p k max_deg tag mn need : Z) (grp sz rk : Z -> Z).
Hypothesis I : mem m n cend pf A Rs Rl Rm Cs Cl.
Hypothesis N : num m n (Mof A Cs Cl) (alv Cs) Rd Rm (rd Ct) max_deg tag.
Hypothesis LD : led n n2 k (fun c => if c =? p then -1 else rd Cs c) (rd Ct) (rd Co) grp sz.
Hypothesis D : dlist n (fun c => 0 <= c < n /\ 0 <= rd Cs c /\ c <> p) (rd Co) (rd Cn) (rd Cp) (rd head) rk.
Hypothesis LL : zlen Ct = n /\ zlen Co = n /\ zlen Cp = n /\ zlen Cn = n /\ zlen head = n + 1.
Hypothesis Hp : 0 <= p < n.
Hypothesis Ap : 0 <= rd Cs p.
Hypothesis TH : forall c, 0 <= c < n -> 0 <= rd Cs c -> 1 <= rd Ct c.
Hypothesis SUM : wt n (alv Cs) (rd Ct) <= n.
Let PRb := prb m A Cs Cl p.
Hypothesis NEED : wt n PRb (rd Ct) <= need.
Hypothesis ROOM : pf + need <= zlen A.
Hypothesis EX : forall c, 0 <= c < n -> 0 <= rd Cs c -> c <> p -> ext m n (Mof A Cs Cl) (alv Cs) (rd Ct) c <= rd Co c /\ mn <= rd Co c.
Hypothesis MN : 0 <= mn <= n.
Hypothesis NZ : cend <= nnz /\ 2 * nnz + n <= zlen A.

Lemma rest_ok : wp (fo_rest aggressive m n mx A Rs Rl Rd Rm Cs Cl Ct Co Cp Cn head k max_deg tag mn pf p (rd Ct p)) (fun st => linv m n n2 nnz st /\ k <= f_k st) nerr.
Proof.
  destruct LL as (LCt & LCo & LCp & LCn & LH). pose proof (me_Cs I) as LCs. pose proof (me_Cl I) as LCl. pose proof (me_Rm I) as LRm. pose proof (me_Rs I) as LRs. pose proof (me_Rl I) as LRl. pose proof (nu_Rd N) as LRd.
  pose proof (me_n I) as Hn. pose proof (me_m I) as Hm. destruct (me_b I) as (B1 & B2 & B3).
  unfold fo_rest. ws; [lia|]. wg; [lia|]. wg; [lia|]. apply wp_bind. eapply wp_conseq; [apply (@pivot_row_ok m n cend pf A Rs Rl Rm Cs Cl Ct p need I LCt TH Hp Ap NEED ROOM)|].
  intros [[[B Ct1] q] dg0] (LB & LCt1 & Hq1 & Hq2 & EB & JB & RB & PB & ECt1 & EDG). fold PRb in PB, ECt1, EDG. ws; [lia|].
  apply wp_bind. eapply wp_conseq; [apply (kill_rows_ok I Hp Ap B LB EB)|]. intros Rm1 (LRm1 & ERm1).
  assert (PRp0 : PRb p = false). { destruct (PRb p) eqn:E; [|reflexivity]. apply prb_spec in E. destruct E as (_ & E & _). congruence. }
  assert (CS : wp (if q - pf >? 0 then get B (rd Cs p) else Ok EMPTY) (fun prow => q > pf -> 0 <= prow < m /\ Mof A Cs Cl p prow = true) nerr).
  { destruct (Z.gtb_spec (q - pf) 0) as [X|X]; [|cbn; lia].
    assert (P : PRb (rd B pf) = true) by (rewrite <- PB by (apply RB; lia); apply memb_at; lia). apply prb_spec in P. destruct P as (_ & _ & r & Hr & Mp & _).
    assert (0 < rd Cl p). { unfold Mof in Mp. apply memb_spec in Mp. destruct Mp as (j & Hj & _). lia. } destruct (me_c I Hp Ap) as (C1 & C2).
    apply wp_get; [lia|]. intros _. rewrite EB by lia. destruct (me_cr I Hp Ap (j := rd Cs p) ltac:(lia)) as (R1 & _). pose proof (me_pos I (j := rd Cs p) ltac:(lia)). split; [lia|]. apply memb_at. lia. }
  apply wp_bind. eapply wp_conseq; [exact CS|]. intros prow PROW0. apply wp_bind.
  assert (ECt1' : forall c, 0 <= c < n -> rd (wr Ct1 p (rd Ct p)) c = if PRb c then - rd Ct c else rd Ct c).
  { intros c Hc. destruct (Z.eq_dec c p) as [->|Np]; [rewrite rd_wr_eq, PRp0 by lia; reflexivity|]. rewrite rd_wr_ne, ECt1 by lia. rewrite (proj2 (Z.eqb_neq c p) Np), Bool.orb_false_r. reflexivity. }
  eapply wp_conseq.
  { apply (@diffs_ok aggressive m n cend pf q A B Rs Rl Rd Rm Rm1 Cs Cl Co Ct p max_deg tag rk I TH Hp N LB EB ltac:(lia) JB RB PB LRm1 ERm1 (wr Ct1 p (rd Ct p)) Cp Cn head); auto. rewrite zlen_wr. exact LCt1. }
  intros [[[[Rm2 Ct2] Cp2] Cn2] head2] (LRm2 & LCt2 & LCp2 & LCn2 & LH2 & ECt2 & ERm2 & D2). fold PRb in ECt2.
  assert (PQ : forall c, 0 <= c < n -> pre pf B q c = PRb c) by (intros c Hc; apply PB; exact Hc).
  assert (ECt : forall c, 0 <= c < n -> rd Ct2 c = rd Ct c). { intros c Hc. rewrite (ECt2 c Hc), (PQ c Hc). destruct (PRb c); reflexivity. }
  destruct (@mark_facts aggressive m n cend pf q A B Rs Rl Rd Rm Rm1 Cs Cl Ct p max_deg tag rk I TH Hp N ltac:(lia) RB PB ERm1 Rm2 ERm2) as (F1 & F2 & F3). fold PRb in F2, F3.
  assert (TH2 : forall c, 0 <= c < n -> 0 <= rd Cs c -> 1 <= rd Ct2 c) by (intros c Hc Ac; rewrite ECt by exact Hc; apply TH; auto).
  assert (WT : forall b, wt n b (rd Ct2) = wt n b (rd Ct)) by (intros b; apply wt_ext; intros c Hc; split; [reflexivity|intros _; apply ECt; exact Hc]).
  assert (N2 : num m n (Mof A Cs Cl) (alv Cs) Rd Rm (rd Ct2) max_deg tag) by (destruct N as [n1 n2' n3 n4 n5]; constructor; auto; intros r Hr HR; rewrite WT; auto).
  assert (D3 : dlist n (actN m n A Cs Cl p) (rd Co) (rd Cn2) (rd Cp2) (rd head2) rk).
  { eapply dlist_ext; [exact D2| |auto|auto]. intros c. cbv beta. unfold actN. fold PRb. split; intros (X1 & X2 & X3 & X4); repeat split; auto; try lia; [rewrite PQ by lia|rewrite <- PQ by lia]; exact X4. }
  assert (LD2 : led n n2 k (fun c => if c =? p then -1 else rd Cs c) (rd Ct2) (rd Co) grp sz) by (eapply led_ext; [exact LD|]; intros c Hc; split; [left; reflexivity|]; split; [apply ECt; exact Hc|reflexivity]).
  apply wp_bind. eapply wp_conseq.
  { apply (@add_ok m n n2 cend pf q A B Rs Rl Rm Rm2 Cs Cl Ct2 Co Cp2 Cn2 head2 p tag grp sz rk I LCt2 TH2 Hp LB EB ltac:(lia) JB RB PB LRm2); auto.
    - intros r Hr HR. apply (F1 r Hr HR).
    - intros r c Hr Hc HR P Mc. rewrite WT. apply (F2 r c); auto.
    - rewrite WT. exact SUM.
    - fold PRb. rewrite WT. exact EDG. }
  intros [[[[[[[[A6 Cs6] Cl6] Co6] Cp6] Cn6] head6] dg] k6] AI. pose proof AI as ((LA6 & LCs6 & LCl6 & LCo6 & LCp6 & LCn6 & LH6) & Q1 & Q2 & Q3 & Q4 & Q5 & Q6 & Q7 & Q8 & Q9 & Q10 & Q11 & Q12). fold PRb in Q6.
  assert (SB : forall j, pf <= j < q -> rd A6 j = rd B j) by (intros j Hj; apply Q1; lia).
  assert (PR7 : forall c, 0 <= c < n -> pre7 pf B q c = PRb c) by (intros c Hc; apply PB; exact Hc).
  set (PO := pos B pf q) in *.
  assert (PAT : forall c, 0 <= c < n -> 0 <= rd Cs6 c -> PRb c = true -> rd Cs6 c = rd Cs c /\ 0 <= rd Cl6 c < rd Cl c).
  { intros c Hc Ac P. destruct (Q4 c Hc) as (X1 & _ & _ & [(_ & X)|(_ & X & _)]); [rewrite PR7 by exact Hc; exact P|lia|]. auto. }
  apply wp_bind. eapply wp_conseq.
  { apply (@detect_ok n n2 k6 p pf q A6 Cl6 Cs6 Ct2 Co6 Cp6 Cn6 head6 PRb PO) with (act := fun _ => True) (head0 := head2); auto.
    - lia.
    - intros j Hj. rewrite (SB j Hj). pose proof (RB j Hj) as Rj. split; [exact Rj|]. split; [rewrite <- PB by exact Rj; apply memb_at; lia|]. unfold PO. apply pos_at; auto.
    - intros c Hc P. destruct (@pre7_pos m n pf q A B Cs Cl p JB RB PB q c ltac:(lia) ltac:(rewrite PR7 by exact Hc; exact P)) as (X1 & X2 & _). fold PO in X1, X2. split; [exact X1|]. rewrite SB by exact X1. exact X2.
    - intros c (Hc & P & Ac). destruct (PAT c Hc Ac P) as (E & X). destruct (me_c I Hc ltac:(lia)). lia.
    - unfold dsi. split; [auto|]. split; [auto|]. split; [auto|]. split; [auto|]. split; [reflexivity|]. split; [exists grp, sz; exact Q5|].
      intros c (Hc & P & Ac). assert (P7 : pre7 pf B q c = true) by (rewrite PR7; auto). destruct (Q8 c Hc P7 Ac) as (_ & X). split.
      + destruct X as [X|(X1 & X2 & X3 & X4 & X5)]; [left; exact X|right]. rewrite PR7 in X2 by exact X1. split; [unfold pa; auto|auto].
      + intros y (Hy & Py & Ay). apply Q12; auto. rewrite PR7; auto.
    - intros h Hh. destruct (Q7 h Hh) as [X|(X1 & X2 & X3 & X4)]; [left; exact X|right]. rewrite PR7 in X2 by exact X1. split; [unfold pa; auto|exact X4].
    - intros c (Hc & P & Ac). apply (Q8 c Hc); auto. rewrite PR7; auto.
    - intros h Hh. destruct (dl_hd D3 Hh) as [E|((X1 & X2 & X3 & X4) & _)]; [left; exact E|right]. split; [exact X1|exact X4].
    - intros h h' Hh Hh' NE E. destruct (dl_hd D3 Hh) as [X|(_ & X & _)]; [contradiction|]. destruct (dl_hd D3 Hh') as [Y|(_ & Y & _)]; congruence. }
  intros [[[[[Cs7 Ct7] Co7] Cp7] Cn7] head7] (DI & LCp7 & LH7 & HH7 & HP7 & HC7). pose proof DI as ((LCs7 & LCt7 & LCo7 & LCn7) & J1 & J2 & J3 & _).
  ws; [lia|]. set (Cs8 := wr Cs7 p (-1)). assert (LCs8 : zlen Cs8 = n) by (unfold Cs8; rewrite zlen_wr; exact LCs7).
  set (md := Z.max max_deg dg0).
  assert (EMD : md = Z.max max_deg (wt n PRb (rd Ct2))) by (rewrite WT, <- EDG; reflexivity).
  apply wp_bind. eapply wp_conseq.
  { apply (@clear_mark_ok m (tag + md + 1) mx Rm2 LRm2 Hm). intros _ r Hr. destruct (Z_lt_le_dec (rd Rm2 r) 0) as [X|X]; [pose proof (nu_t N); pose proof (nu_x N); lia|]. destruct (F1 r Hr X) as (_ & _ & Y). lia. }
  intros [tag3 Rm3] (T1 & LRm3 & T2). apply wp_bind.
  (* facts from PCol10 *)
  assert (AL8 : forall c, 0 <= c < n -> 0 <= rd Cs8 c -> c <> p /\ rd Cs8 c = rd Cs c /\ rd Cs7 c = rd Cs c /\ rd Cs6 c = rd Cs c) by (intros c Hc Ac; eapply al8; eassumption).
  assert (NP8 : forall c, 0 <= c < n -> c <> p -> PRb c = false -> rd Cs8 c = rd Cs c /\ rd Ct7 c = rd Ct2 c) by (intros c Hc Np P; eapply np8 with (p := p); eassumption).
  assert (TH8 : forall c, 0 <= c < n -> 0 <= rd Cs8 c -> 1 <= rd Ct7 c) by (intros c Hc Ac; eapply th8 with (p := p); eassumption).
  assert (HQ : pf <= q /\ q <= zlen A) by lia.
  assert (DGE : dg = wt n (fun c => PRb c && alv Cs8 c) (rd Ct7)) by (eapply dg_eq; eassumption).
  assert (KG : k <= k6) by (eapply k_grows with (p := p) (Ct := Ct2); eassumption).
  assert (PA6 : forall c, 0 <= c < n -> 0 <= rd Cs6 c -> c <> p -> rd Cs6 c = rd Cs c /\ 0 <= rd Cl6 c /\ rd Cl6 c + b2z (PRb c) <= rd Cl c).
  { intros c Hc Ac Np. destruct (PRb c) eqn:P; cbn [b2z].
    - destruct (PAT c Hc Ac P). lia.
    - destruct (Q3 c Hc) as (X1 & _ & X2 & _); [rewrite PR7; auto|]. rewrite X1 in Ac. destruct (me_c I Hc Ac). lia. }
  assert (COL : forall c, 0 <= c < n -> 0 <= rd Cs8 c -> 0 <= rd Cs c /\ rd Cs8 c = rd Cs c /\ 0 <= rd Cl6 c /\ rd Cl6 c + b2z (PRb c) <= rd Cl c).
  { intros c Hc Ac. destruct (AL8 c Hc Ac) as (Np & E1 & _ & E2). destruct (PA6 c Hc ltac:(lia) Np). lia. }
  assert (PROW : dg > 0 -> 0 <= prow < m /\ Mof A Cs Cl p prow = true).
  { intros G. apply PROW0. destruct (Z_lt_le_dec pf q) as [|X]; [lia|]. exfalso. rewrite DGE in G. unfold wt in G. rewrite sumz_zero in G; [lia|]. intros c Hc. rewrite <- (PB c Hc), memb_0 by lia. reflexivity. }
  assert (IN : forall c, 0 <= c < n -> 0 <= rd Cs8 c -> PRb c = true -> 1 <= rd Ct7 c <= dg).
  { intros c Hc Ac P. split; [apply TH8; auto|]. rewrite DGE. apply (@wt_in n (fun c => PRb c && alv Cs8 c) (rd Ct7) c); [|exact Hc|rewrite P; apply alv_spec; exact Ac].
    intros x Hx H. apply Bool.andb_true_iff in H. destruct H as (_ & H). apply alv_spec in H. pose proof (TH8 x Hx H). lia. }
  assert (L8 : exists g s, led n n2 k6 (rd Cs8) (rd Ct7) (rd Co7) g s) by (eapply led8 with (p := p); eassumption). destruct L8 as (g8 & s8 & L8). pose proof (ld_k L8) as (K1 & K2 & K3).
  assert (D8 : dlist n (fun c => 0 <= c < n /\ 0 <= rd Cs8 c /\ PRb c = false) (rd Co7) (rd Cn7) (rd Cp7) (rd head7) rk).
  { eapply dlist_ext; [exact D3| | |exact HH7].
    - intros c. unfold actN. fold PRb. split.
      + intros (Hc & Ac & P). destruct (AL8 c Hc Ac) as (Np & E & _). rewrite E in Ac. auto.
      + intros (Hc & Ac & Np & P). destruct (NP8 c Hc Np P) as (E & _). rewrite E. auto.
    - intros c AC. pose proof AC as (Hc & Ac & Np & P). fold PRb in P. destruct (NP8 c Hc Np P) as (E & _). destruct (AL8 c Hc ltac:(lia)) as (_ & E1 & E2 & E3). destruct (Q3 c Hc) as (_ & E4 & _); [rewrite PR7; auto|]. destruct (J2 c Hc P) as (_ & E5). destruct (Q9 c AC) as (E6 & E7).
      split; [rewrite (J3 c Hc) by congruence; exact E4|]. split; [congruence|]. destruct (Z.eq_dec (rd Cp2 c) EMPTY) as [X|X].
      + rewrite X. destruct (dl_pv D3 AC) as [(_ & Y)|((Y & _) & _)]; [|rewrite X in Y; unfold EMPTY in Y; lia]. destruct (dl_sc D3 AC) as (_ & Z). rewrite <- Y. apply HP7; [exact Z|]. rewrite Y. unfold EMPTY. lia.
      + rewrite <- (E7 X). destruct (HC7 c Hc Logic.I) as [Y|(h & Hh & Y)]; [exact Y|]. destruct (dl_hd D3 Hh) as [W|(_ & _ & W)]; [rewrite W in Y; unfold EMPTY in Y; lia|]. congruence. }
  eapply wp_conseq.
  { apply (@final_ok n k6 cend pf q A6 Cl6 Co7 Cp7 Cn7 head7 Cs8 Ct7 PRb prow dg mn rk); auto.
    - lia.
    - apply (@injs_ext B); [intros j Hj; symmetry; apply SB; lia|exact JB].
    - intros j Hj. rewrite SB by exact Hj. apply RB. exact Hj.
    - intros c Hc. rewrite (@memb_ext A6 B) by (intros j Hj; apply SB; lia). apply PB. exact Hc.
    - intros c Hc Ac. destruct (COL c Hc Ac) as (X1 & X2 & X3 & X4). destruct (me_c I Hc X1). lia.
    - intros c c' H1 H2 H3 Ac Ac'. destruct (COL c ltac:(lia) Ac) as (X1 & X2 & X3 & X4). destruct (COL c' ltac:(lia) Ac') as (Y1 & Y2 & Y3 & Y4). pose proof (me_o I H1 H2 H3 X1 Y1). lia.
    - intros c Hc Ac P. pose proof (IN c Hc Ac P) as X. destruct (AL8 c Hc Ac) as (Np & E1 & E2 & E3). split; [|split; [lia|split]].
      + rewrite (J3 c Hc) by congruence. destruct (Q4 c Hc) as (_ & _ & _ & [(_ & Y)|(_ & _ & Y & _)]); [rewrite PR7; auto|lia|lia].
      + pose proof (@led_sum_le n n2 k6 _ _ _ g8 s8 (fun x => x =? c) L8) as S. rewrite (@sumz_single n _ c Hc) in S.
        * rewrite Z.eqb_refl in S. assert (rd Ct7 c <= n2 - k6); [|lia]. apply S. intros x _ E. apply Z.eqb_eq in E. subst x. exact Ac.
        * intros x _ Nx. rewrite (proj2 (Z.eqb_neq x c) Nx). reflexivity.
      + apply PROW. lia.
    - split; [exact MN|]. intros c Hc Ac P. destruct (AL8 c Hc Ac) as (Np & E1 & E2 & E3). rewrite (J3 c Hc) by congruence. destruct (Q3 c Hc) as (_ & E4 & _); [rewrite PR7; auto|]. rewrite E4. apply EX; auto. lia. }
  intros [[[[[[[A8 Cl8] Co8] Cp8] Cn8] head8] mn8] w] FI. pose proof FI as ((LA8 & LCl8 & LCo8 & LCp8 & LCn8 & LH8) & _).
  apply wp_bind. eapply wp_conseq with (Q := fun '(Rs', Rl', Rd', Rm') => (zlen Rs' = Z.max m 1 /\ zlen Rl' = m /\ zlen Rd' = Z.max m 1 /\ zlen Rm' = Z.max m 1) /\
     (forall r, 0 <= r < m -> (dg >? 0) && (r =? prow) = false -> rd Rs' r = rd Rs r /\ rd Rl' r = rd Rl r /\ rd Rd' r = rd Rd r /\ (0 <= rd Rm' r <-> 0 <= rd Rm2 r)) /\
     (dg > 0 -> rd Rs' prow = pf /\ rd Rl' prow = w - pf /\ rd Rd' prow = dg /\ rd Rm' prow = 0) /\ (forall r, 0 <= r < m -> rd Rm' r < tag3)).
  { destruct (Z.gtb_spec dg 0) as [G|G].
    - destruct (PROW ltac:(lia)) as (RP & _). ws; [lia|]. ws; [lia|]. ws; [lia|]. ws; [lia|]. cbn. rewrite !zlen_wr. split; [auto|]. split; [|split].
      + intros r Hr E. apply Z.eqb_neq in E. rewrite !rd_wr_ne by lia. destruct (T2 r Hr). auto.
      + intros _. rewrite !rd_wr_eq by lia. auto.
      + intros r Hr. destruct (Z.eq_dec r prow) as [->|]; [rewrite rd_wr_eq by lia; lia|]. rewrite rd_wr_ne by lia. apply T2. exact Hr.
    - cbn. split; [auto|]. split; [|split; [lia|]].
      + intros r Hr _. destruct (T2 r Hr). auto.
      + intros r Hr. apply T2. exact Hr. }
  intros [[[Rs' Rl'] Rd'] Rm'] (LR & RO & RN & RT). cbn [wp]. split; [|exact KG].
  assert (RT' : 1 <= tag3 /\ forall r, 0 <= r < m -> rd Rm' r < tag3) by auto.
  assert (EX2 : forall c, 0 <= c < n -> 0 <= rd Cs c -> c <> p -> ext m n (Mof A Cs Cl) (alv Cs) (rd Ct2) c <= rd Co c) by (intros c Hc Ac Np; unfold ext; rewrite WT; apply EX; auto).
  assert (L9 : exists g s, led n n2 k6 (rd Cs8) (rd Ct7) (rd Co8) g s) by (eapply led9 with (p := p); eassumption). destruct L9 as (g9 & s9 & L9).
  assert (DL9 : exists rk', dlist n (fun c => 0 <= c < n /\ 0 <= rd Cs8 c) (rd Co8) (rd Cn8) (rd Cp8) (rd head8) rk') by (eapply dl8 with (p := p); eassumption). destruct DL9 as (rk9 & DL9).
  assert (MN9 : 0 <= mn8 <= n /\ forall c, 0 <= c < n -> 0 <= rd Cs8 c -> mn8 <= rd Co8 c) by (eapply mn8_ok with (p := p); eassumption).
  exists cend, g9, s9, rk9. split; [eapply mem8 with (p := p) (Ct := Ct2) (max_deg := max_deg); eassumption|]. split; [eapply num8 with (p := p); eassumption|]. split; [exact L9|]. split; [exact DL9|]. split; [auto|].
  split; [intros c Hc Ac; eapply ext8 with (p := p) (Ct := Ct2) (max_deg := max_deg); eassumption|]. split; [apply MN9|]. split; [apply MN9|]. split; [apply NZ|]. rewrite LA8, LA6. apply NZ.
Qed.
End Rest.
