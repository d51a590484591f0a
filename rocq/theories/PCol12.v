(* COLAMD, part 12: the main loop. *)
From Verif Require Import Base Det DetZ Spec MColamd PCol1 PCol2 PCol3 PCol4 PCol5 PCol6 PCol7 PCol8 PCol9 PCol10 PCol11.
Set Implicit Arguments.
Open Scope Z_scope.
Set Bullet Behavior "Strict Subproofs".

Lemma wt_pos_ex n b th : 0 < wt n b th -> exists c, 0 <= c < n /\ b c = true.
Proof.
  intros H. destruct (existsb b (zseq 0 n)) eqn:E.
  - apply existsb_exists in E. destruct E as (c & Hc & E). apply in_zseq in Hc. eauto.
  - exfalso. unfold wt in H. rewrite sumz_zero in H; [lia|]. intros c Hc. destruct (b c) eqn:X; [|reflexivity]. exfalso. rewrite <- Bool.not_true_iff_false in E. apply E. apply existsb_exists. exists c. split; [apply in_zseq; exact Hc|exact X].
Qed.

Lemma step_ok aggressive m n n2 nnz mx st : linv m n n2 nnz st -> f_k st < n2 -> wp (fo_step aggressive m n mx st) (fun st' => linv m n n2 nnz st' /\ f_k st < f_k st') nerr.
Proof.
  destruct st as [[A Rs Rl Rd Rm Cs Cl Ct Co Cp Cn] head k max_deg tag mn pf]. intros (cend & grp & sz & rk & I & N & LD & D & (LCt & LCo & LCp & LCn & LH) & EX & MN & MC & NZ1 & NZ2) Hk. cbn [f_k] in *.
  pose proof (me_Cs I) as LCs. pose proof (me_Cl I) as LCl. pose proof (me_n I) as Hn. pose proof (me_m I) as Hm. destruct (me_b I) as (B1 & B2 & B3). destruct (ld_k LD) as (K1 & K2 & K3).
  assert (TH : forall c, 0 <= c < n -> 0 <= rd Cs c -> 1 <= rd Ct c) by (intros c Hc Ac; apply (led_pos LD Hc); lia).
  assert (SUM : wt n (alv Cs) (rd Ct) = n2 - k) by apply (ld_sum LD).
  assert (EXA : exists c, 0 <= c < n /\ 0 <= rd Cs c). { destruct (@wt_pos_ex n (alv Cs) (rd Ct)) as (c & Hc & X); [lia|]. apply alv_spec in X. eauto. }
  destruct (fo_min_ok (min0 := mn) D) with (fuel := Z.to_nat n) as (mn' & EMN & MN' & NE & MC'); auto; try lia.
  { intros c. destruct (Z_le_dec 0 c), (Z_lt_dec c n), (Z_le_dec 0 (rd Cs c)); (left; lia) || (right; lia). }
  { intros c (Hc & Ac). apply MC; auto. }
  unfold fo_step. rewrite EMN. cbn [bind]. wg; [lia|]. set (p := rd head mn'). destruct (dl_hd D MN') as [X|(AP & SP & PP)]; [contradiction|]. fold p in AP, SP, PP. pose proof AP as (Hp & Ap).
  wg; [lia|]. set (nx := rd Cn p). ws; [lia|]. apply wp_bind.
  assert (NX : nx = EMPTY \/ (0 <= nx < n /\ 0 <= rd Cs nx /\ nx <> p)). { destruct (dl_nx D AP) as [X|((X & Y) & _ & _ & Z)]; [left; exact X|right]. fold nx in X, Y, Z. repeat split; try lia. intros E. rewrite E in Z. lia. }
  assert (CP : wp (if negb (nx =? EMPTY) then set Cp nx EMPTY else Ok Cp) (fun Cp' => zlen Cp' = n /\ forall x, 0 <= x < n -> rd Cp' x = if x =? nx then EMPTY else rd Cp x) nerr).
  { destruct (Z.eqb_spec nx EMPTY) as [E|E]; cbn [negb].
    - cbn. split; [exact LCp|]. intros x Hx. rewrite (proj2 (Z.eqb_neq x nx)); [reflexivity|]. unfold EMPTY in E. lia.
    - destruct NX as [|(NX & _)]; [contradiction|]. apply wp_set; [lia|]. rewrite zlen_wr. split; [exact LCp|]. intros x Hx. destruct (Z.eqb_spec x nx) as [->|]; [apply rd_wr_eq; lia|apply rd_wr_ne; lia]. }
  eapply wp_conseq; [exact CP|]. intros Cp' (LCp' & ECp'). wg; [lia|]. ws; [lia|]. wg; [lia|]. cbv zeta.
  pose proof (TH p Hp Ap) as TP.
  assert (D' : dlist n (fun c => 0 <= c < n /\ 0 <= rd Cs c /\ c <> p) (rd (wr Co p k)) (rd Cn) (rd Cp') (rd (wr head mn' nx)) rk).
  { eapply dlist_ext with (sc := rd Co) (nx := rd Cn) (pv := rd Cp') (hd := rd (wr head mn' nx)) (act := fun c => (0 <= c < n /\ 0 <= rd Cs c) /\ c <> p).
    - apply (@dl_remove n (fun c => 0 <= c < n /\ 0 <= rd Cs c) (rd Co) (rd Cn) (rd Cp) (rd head) rk p); auto.
      + tauto.
      + intros x ((Hx & _) & _). destruct (Z.eqb_spec x (rd Cp p)) as [E|]; [|reflexivity]. rewrite PP in E. unfold EMPTY in E. lia.
      + intros x ((Hx & _) & _). rewrite PP. apply ECp'. exact Hx.
      + intros s Hs. rewrite PP, SP. cbn [Z.eqb EMPTY]. destruct (Z.eqb_spec s mn') as [->|]; [rewrite Bool.andb_true_r; apply rd_wr_eq; lia|rewrite Bool.andb_false_r; apply rd_wr_ne; lia].
    - intros c. tauto.
    - intros c ((Hc & _) & Np). rewrite rd_wr_ne by lia. auto.
    - auto. }
  assert (LD' : led n n2 (k + rd Ct p) (fun c => if c =? p then -1 else rd Cs c) (rd Ct) (rd (wr Co p k)) grp sz).
  { eapply led_kill; [exact LD|exact Hp|exact Ap| | |reflexivity|].
    - cbv beta. rewrite Z.eqb_refl. reflexivity.
    - apply rd_wr_eq. lia.
    - intros c Hc Np. cbv beta. rewrite (proj2 (Z.eqb_neq c p) Np). rewrite rd_wr_ne by lia. auto. }
  destruct (ld_k LD') as (K1' & K2' & _).
  set (need := Z.min (rd Co p) (n - (k + rd Ct p))).
  assert (WP : forall A' Cs' Cl', (forall c, 0 <= c < n -> (0 <= rd Cs' c <-> 0 <= rd Cs c)) -> (forall c r, 0 <= c < n -> 0 <= rd Cs c -> Mof A' Cs' Cl' c r = Mof A Cs Cl c r) ->
    wt n (prb m A' Cs' Cl' p) (rd Ct) <= need).
  { intros A' Cs' Cl' HS HM.
    assert (E : wt n (prb m A' Cs' Cl' p) (rd Ct) = ext m n (Mof A Cs Cl) (alv Cs) (rd Ct) p).
    { apply wt_ext. intros c Hc. split; [|auto]. apply bool_iff. rewrite prb_spec, !Bool.andb_true_iff, Bool.negb_true_iff, Z.eqb_neq, alv_spec, sh_spec. rewrite (HS c Hc). split.
      - intros (X1 & X2 & r & Hr & X3 & X4). rewrite HM in X3, X4 by auto. split; [auto|]. exists r. auto.
      - intros ((X1 & X2) & r & Hr & X3 & X4). split; [exact X1|]. split; [exact X2|]. exists r. rewrite !HM by auto. auto. }
    rewrite E. unfold need. apply Z.min_glb; [apply EX; auto|]. unfold ext.
    assert (S : wt n (fun x => alv Cs x && negb (x =? p)) (rd Ct) + rd Ct p = n2 - k).
    { rewrite <- SUM. symmetry. apply wt_add; [exact Hp|rewrite Z.eqb_refl, Bool.andb_false_r; reflexivity|]. intros x Hx. destruct (Z.eqb_spec x p) as [->|]; cbn [negb]; [rewrite (proj2 (alv_spec Cs p) Ap); reflexivity|rewrite Bool.andb_true_r, Bool.orb_false_r; reflexivity]. }
    assert (wt n (fun c' => alv Cs c' && negb (c' =? p) && sh m (Mof A Cs Cl) p c') (rd Ct) <= wt n (fun x => alv Cs x && negb (x =? p)) (rd Ct)); [|lia]. apply wt_le.
    - intros c Hc H. apply Bool.andb_true_iff in H. apply H.
    - intros c Hc H. apply Bool.andb_true_iff in H. destruct H as (H & _). apply alv_spec in H. pose proof (TH c Hc H). lia. }
  assert (NB : need <= n - 1) by (unfold need; lia).
  (* the rest, from any state with the same columns *)
  assert (G : forall A' Rs' Rl' Rm' Cs' Cl' pf' tag' cend', mem m n cend' pf' A' Rs' Rl' Rm' Cs' Cl' -> zlen A' = zlen A -> cend' <= cend -> pf' + need <= zlen A -> 
     (forall c, 0 <= c < n -> rd Cs c < 0 -> rd Cs' c = rd Cs c) -> (forall c, 0 <= c < n -> 0 <= rd Cs c -> 0 <= rd Cs' c /\ forall r, Mof A' Cs' Cl' c r = Mof A Cs Cl c r) ->
     num m n (Mof A Cs Cl) (alv Cs) Rd Rm' (rd Ct) max_deg tag' ->
     wp (fo_rest aggressive m n mx A' Rs' Rl' Rd Rm' Cs' Cl' Ct (wr Co p k) Cp' Cn (wr head mn' nx) (k + rd Ct p) max_deg tag' mn' pf' p (rd Ct p)) (fun st' => linv m n n2 nnz st' /\ k < f_k st') nerr).
  { intros A' Rs' Rl' Rm' Cs' Cl' pf' tag' cend' I' LA' HC' HR' HD HA NM.
    assert (HS : forall c, 0 <= c < n -> (0 <= rd Cs' c <-> 0 <= rd Cs c)). { intros c Hc. split; [|intros X; apply (HA c Hc X)]. intros X. destruct (Z_lt_le_dec (rd Cs c) 0) as [Y|Y]; [rewrite (HD c Hc Y) in X; lia|exact Y]. }
    assert (AE : forall c, 0 <= c < n -> alv Cs' c = alv Cs c) by (intros c Hc; apply bool_iff; rewrite !alv_spec; apply HS; exact Hc).
    assert (WE : forall b, wt n (fun c => alv Cs' c && b c) (rd Ct) = wt n (fun c => alv Cs c && b c) (rd Ct)) by (intros b; apply wt_ext; intros c Hc; rewrite AE by exact Hc; auto).
    eapply wp_conseq.
    { apply (@rest_ok aggressive m n n2 nnz mx cend' pf' A' Rs' Rl' Rd Rm' Cs' Cl' Ct (wr Co p k) Cp' Cn (wr head mn' nx) p (k + rd Ct p) max_deg tag' mn' need grp sz rk I'); auto.
      - destruct NM as [n1 n2' n3 n4 n5]. constructor; auto. intros r Hr HR. destruct (n2' r Hr HR) as (E & L). split; [|exact L]. rewrite E. apply wt_ext. intros c Hc. split; [|auto]. rewrite AE by exact Hc. destruct (alv Cs c) eqn:Ac; [|reflexivity]. apply alv_spec in Ac. cbn [andb]. symmetry. apply (HA c Hc Ac).
      - eapply led_ext; [exact LD'|]. intros c Hc. cbv beta. split; [|auto]. destruct (c =? p); [left; reflexivity|]. destruct (Z_lt_le_dec (rd Cs c) 0) as [Y|Y]; [left; apply HD; auto|right]. split; [exact Y|]. apply HS; auto.
      - eapply dlist_ext; [exact D'| |auto|auto]. intros c. cbv beta. split; intros (X1 & X2 & X3); repeat split; auto; try lia; apply (HS c X1); exact X2.
      - rewrite !zlen_wr. auto.
      - apply HS; auto.
      - intros c Hc Ac. apply TH; [exact Hc|]. apply HS; auto.
      - assert (E : wt n (alv Cs') (rd Ct) = wt n (alv Cs) (rd Ct)) by (apply wt_ext; intros c Hc; split; [apply AE; exact Hc|auto]). rewrite E. lia.
      - apply WP; [exact HS|]. intros c r Hc Ac. apply (HA c Hc Ac).
      - lia.
      - intros c Hc Ac Np. apply HS in Ac; [|exact Hc]. rewrite rd_wr_ne by lia. split; [|apply MC'; auto]. etransitivity; [|apply EX; auto]. apply Z.eq_le_incl. unfold ext. apply wt_ext. intros x Hx. split; [|auto]. rewrite AE by exact Hx.
        destruct (alv Cs x) eqn:Ax; [|reflexivity]. apply alv_spec in Ax. cbn [andb]. f_equal. apply bool_iff. rewrite !sh_spec. split; intros (r & Hr & X1 & X2); exists r; destruct (HA c Hc Ac) as (_ & Y1); destruct (HA x Hx Ax) as (_ & Y2); rewrite Y1, Y2 in * || rewrite <- Y1, <- Y2 in *; auto.
      - lia. }
    intros st' (L & KK). split; [exact L|]. lia. }
  apply wp_bind. fold need. destruct (Z.geb_spec (pf + need) (zlen A)) as [R|R].
  - apply wp_bind. eapply wp_conseq; [apply (gc_ok I)|]. intros [[[[[[A' Rs'] Rl'] Rm'] Cs'] Cl'] pf'] (cend' & I' & LA' & HC' & EP & HD & HA & HR & _).
    assert (CM : wp (clear_mark 0 mx m Rm') (fun '(tag', Rm2) => 1 <= tag' /\ zlen Rm2 = Z.max m 1 /\ forall r, 0 <= r < m -> rd Rm2 r < tag' /\ (0 <= rd Rm2 r <-> 0 <= rd Rm' r)) nerr).
    { apply clear_mark_ok; [apply (me_Rm I')|exact Hm|lia]. }
    apply wp_bind. eapply wp_conseq; [exact CM|]. intros [tag' Rm2] (T1 & T2 & T3). cbn [wp].
    assert (I2 : mem m n cend' pf' A' Rs' Rl' Rm2 Cs' Cl').
    { assert (T4 : forall r, 0 <= r < m -> 0 <= rd Rm2 r -> 0 <= rd Rm' r) by (intros r Hr X; apply (T3 r Hr); exact X). destruct I' as [i1 i2 i3 i4 i5 i6 i7 i8 i9 i10 i11 i12 i13 i14 i15 i16 i17 i18]. constructor; auto.
      - intros r r' j Hr Hr' Nr X X'. apply i12; auto.
      - intros r j Hr X. apply i14; auto.
      - intros c j Hc Ac Hj. destruct (i16 c j Hc Ac Hj) as (Y1 & Y2). split; [exact Y1|]. apply T3; [|exact Y2]. pose proof (i9 c Hc Ac). assert (0 <= rd A' j) by (apply i13; lia). lia. }
    apply (G A' Rs' Rl' Rm2 Cs' Cl' pf' tag' cend' I2 LA' HC').
    + lia.
    + exact HD.
    + intros c Hc Ac. destruct (HA c Hc Ac) as (X1 & _ & X2). auto.
    + constructor; [apply (nu_Rd N)| |exact T1|intros r Hr; apply (T3 r Hr)|apply (nu_x N)]. intros r Hr X. apply (nu_d N Hr). apply (HR r Hr). apply (T3 r Hr). exact X.
  - cbn [wp]. apply (G A Rs Rl Rm Cs Cl pf tag cend I); auto; lia.
Qed.

Lemma loop_ok aggressive m n n2 nnz mx fuel : forall st, linv m n n2 nnz st -> n2 - f_k st <= Z.of_nat fuel ->
  wp (fo_loop fuel aggressive m n n2 mx st) (fun st' => linv m n n2 nnz st' /\ n2 <= f_k st') nerr.
Proof.
  induction fuel as [|fuel IH]; intros st L F; cbn [fo_loop].
  - destruct (Z.ltb_spec (f_k st) n2) as [X|X]; [lia|]. cbn. auto.
  - destruct (Z.ltb_spec (f_k st) n2) as [X|X]; [|cbn; auto]. apply wp_bind. eapply wp_conseq; [apply (@step_ok aggressive m n n2 nnz mx st L X)|]. intros st' (L' & K). apply IH; [exact L'|]. lia.
Qed.

(* the invariant before the main loop, without the marks *)
Definition linit (m n n2 nnz : Z) (ar : arrays) (head : list Z) (max_deg pf : Z) : Prop :=
  let '(mkAr A Rs Rl Rd Rm Cs Cl Ct Co Cp Cn) := ar in
  exists cend grp sz rk,
    mem m n cend pf A Rs Rl Rm Cs Cl /\ zlen Rd = Z.max m 1 /\ 0 <= max_deg /\
    (forall r, 0 <= r < m -> 0 <= rd Rm r -> rd Rd r = wt n (fun c => alv Cs c && Mof A Cs Cl c r) (rd Ct) /\ rd Rd r <= max_deg) /\
    led n n2 0 (rd Cs) (rd Ct) (rd Co) grp sz /\
    dlist n (fun c => 0 <= c < n /\ 0 <= rd Cs c) (rd Co) (rd Cn) (rd Cp) (rd head) rk /\
    (zlen Ct = n /\ zlen Co = n /\ zlen Cp = n /\ zlen Cn = n /\ zlen head = n + 1) /\
    (forall c, 0 <= c < n -> 0 <= rd Cs c -> ext m n (Mof A Cs Cl) (alv Cs) (rd Ct) c <= rd Co c) /\ cend <= nnz /\ 2 * nnz + n <= zlen A.

Lemma find_ordering_ok aggressive m n n2 nnz ar head max_deg pf p0 : linit m n n2 nnz ar head max_deg pf -> zlen p0 = n + 1 ->
  wp (let* ar := find_ordering aggressive m n n2 max_deg pf ar head in order_children n (a_Cs ar) (a_Ct ar) (a_Co ar) p0) (fun p => is_perm n p /\ zlen p = n + 1) nerr.
Proof.
  destruct ar as [A Rs Rl Rd Rm Cs Cl Ct Co Cp Cn]. intros (cend & grp & sz & rk & I & LRd & MX & RD & LD & D & LL & EX & NZ1 & NZ2) LP.
  pose proof (me_n I) as Hn. pose proof (me_m I) as Hm. apply wp_bind. unfold find_ordering. cbn [a_A a_Rs a_Rl a_Rd a_Rm a_Cs a_Cl a_Ct a_Co a_Cp a_Cn]. set (mx := 2 ^ 31 - 1 - n). clearbody mx. apply wp_bind.
  eapply wp_conseq; [apply (@clear_mark_ok m 0 mx Rm (me_Rm I) Hm); lia|]. intros [tag Rm2] (T1 & T2 & T3). apply wp_bind.
  assert (I2 : mem m n cend pf A Rs Rl Rm2 Cs Cl).
  { assert (T4 : forall r, 0 <= r < m -> 0 <= rd Rm2 r -> 0 <= rd Rm r) by (intros r Hr X; apply (T3 r Hr); exact X). destruct I as [i1 i2 i3 i4 i5 i6 i7 i8 i9 i10 i11 i12 i13 i14 i15 i16 i17 i18]. constructor; auto.
    - intros r r' j Hr Hr' Nr X X'. apply i12; auto.
    - intros r j Hr X. apply i14; auto.
    - intros c j Hc Ac Hj. destruct (i16 c j Hc Ac Hj) as (Y1 & Y2). split; [exact Y1|]. apply T3; [|exact Y2]. pose proof (i9 c Hc Ac). assert (0 <= rd A j) by (apply i13; lia). lia. }
  eapply wp_conseq.
  { apply (@loop_ok aggressive m n n2 nnz mx).
    - exists cend, grp, sz, rk. split; [exact I2|]. split.
      { constructor; auto; [intros r Hr X; apply RD; [exact Hr|]; apply (T3 r Hr); exact X|intros r Hr; apply (T3 r Hr)]. }
      split; [exact LD|]. split; [exact D|]. split; [exact LL|]. split; [exact EX|]. split; [lia|]. split; [|auto]. intros c Hc Ac. apply (dl_sc D). auto.
    - cbn [f_k]. pose proof (ld_k LD). lia. }
  intros st (L & K). destruct st as [[A' Rs' Rl' Rd' Rm' Cs' Cl' Ct' Co' Cp' Cn'] head' k' md' tag' mn' pf']. destruct L as (cend' & grp' & sz' & rk' & I' & _ & LD' & _ & (L1 & L2 & _) & _). cbn [f_ar f_k a_Cs a_Ct a_Co wp] in *.
  assert (E : k' = n2) by (pose proof (ld_k LD'); lia). subst k'.
  destruct (@order_children_ok n n2 Cs' Ct' Co' grp' sz') with (p0 := p0) as (pp & -> & X); auto. apply (me_Cs I').
Qed.
