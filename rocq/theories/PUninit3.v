(* Two runs of COLAMD that differ only in the contents of uninitialised memory, in lockstep: one iteration of the main loop, the main loop. *)
From Verif Require Import Base Det DetZ Spec MColamd PCol1 PCol2 PCol3 PCol4 PCol5 PCol6 PCol7 PCol8 PCol9 PCol10 PCol11 PCol12 MUninit PUninit PUninit2.
Set Implicit Arguments.
Open Scope Z_scope.
Set Bullet Behavior "Strict Subproofs".

Lemma rest_sim ag m n mx pf A A' Rs Rl Rd Rm Cs Cl Ct Co Cp Cn head k md tag mn p th : cols pf Cs Cl -> rows pf Rs Rl Rm -> Low pf A A' -> 0 <= rd Cs p ->
  sim Rfo (fo_rest ag m n mx A Rs Rl Rd Rm Cs Cl Ct Co Cp Cn head k md tag mn pf p th) (fo_rest ag m n mx A' Rs Rl Rd Rm Cs Cl Ct Co Cp Cn head k md tag mn pf p th).
Proof.
  intros JC JR L Ap. unfold fo_rest. apply sim_same. intros Ct1 _. apply sim_same. intros s Gs. apply get_inv in Gs. destruct Gs as (Rp & ->). apply sim_same. intros l Gl. apply get_inv in Gl. destruct Gl as (_ & ->).
  destruct (JC p Rp Ap) as (P1 & P2). eapply sim_bind; [apply (@pivot_row_sim pf (rd Cs p) (rd Cl p) Rs Rl Rm Cs A A' Ct1 L JR P2)|]. intros [[[B Ct2] q] d] [[[B' Ct2'] q'] d'] (<- & <- & <- & Hq & LB).
  apply sim_same. intros Ct3 _. cbv zeta. rewrite <- (@kill_rows_eq q (rd Cs p) (rd Cl p) B B' Rm LB) by lia. apply sim_same. intros Rm2 _. eapply sim_bind with (R := eq).
  { destruct (Z.gtb_spec (q - pf) 0); [|reflexivity]. rewrite <- (@low_get q B B' _ LB) by lia. apply sim_refl. }
  intros pr ? <-. assert (JQ : cols q Cs Cl) by (eapply cols_le; eassumption). assert (E : pf + (q - pf) = q) by lia. rewrite <- (@diffs_eq q ag tag pf (q - pf) B B' Rd Cs Cl Co Rm2 Ct3 Cp Cn head LB) by (lia || exact JQ). apply sim_same. intros [[[[Rm3 Ct4] Cp1] Cn1] h1] _.
  eapply sim_bind; [apply (@add_sim q n tag pf (q - pf) Rm3 Ct4 B B' Cs Cl Co Cp1 Cn1 h1 d k LB); [lia|exact JQ]|]. intros [[[[[[[[B2 Cs1] Cl1] Co1] Cp2] Cn2] h2] d1] k1] [[[[[[[[B2' Cs1'] Cl1'] Co1'] Cp2'] Cn2'] h2'] d1'] k1'] (LB2 & J2 & <- & <- & <- & <- & <- & <- & <- & <-).
  rewrite <- (@detect_eq q B2 B2' Cl1 pf (q - pf) Cs1 Ct4 Co1 Cp2 Cn2 h2 LB2) by (lia || exact J2). apply sim_same. intros [[[[[Cs3 Ct5] Co2] Cp3] Cn3] h3] _. apply sim_same. intros Cs4 _. apply sim_same. intros [tg Rm4] _.
  eapply sim_bind; [apply (@final_sim q n k1 pr d1 pf (q - pf) Cs4 Ct5 B2 B2' Cl1 Co2 Cp3 Cn3 h3 mn LB2); lia|]. intros [[[[[[[B3 Cl2] Co3] Cp4] Cn4] h4] mn2] w] [[[[[[[B3' Cl2'] Co3'] Cp4'] Cn4'] h4'] mn2'] w'] (LB3 & <- & <- & <- & <- & <- & <- & <-).
  apply sim_same. intros [[[Rs5 Rl5] Rd5] Rm5] _. cbn [sim Rfo]. exists B3'. split; [reflexivity|exact LB3].
Qed.

Lemma step_sim ag m n n2 nnz mx st st' : linv m n n2 nnz st -> Rfo st st' -> sim Rfo (fo_step ag m n mx st) (fo_step ag m n mx st').
Proof.
  destruct st as [[A Rs Rl Rd Rm Cs Cl Ct Co Cp Cn] head k md tag mn pf]. intros (cend & grp & sz & rk & I & N & LD & D & (LCt & LCo & LCp & LCn & LH) & _) (A' & -> & L). pose proof (me_Cs I) as LCs.
  unfold fo_step. apply sim_same. intros mn' _. apply sim_same. intros p Gp. apply get_inv in Gp. destruct Gp as (Rmn & ->). apply sim_same. intros nx Gn. apply get_inv in Gn. destruct Gn as (Rp & ->).
  destruct (@dl_hd _ _ _ _ _ _ _ D mn' ltac:(lia)) as [X|((_ & Ap) & _ & _)]; [unfold EMPTY in X; lia|]. set (p := rd head mn') in *.
  apply sim_same. intros h1 _. apply sim_same. intros Cp1 _. apply sim_same. intros ps _. apply sim_same. intros Co1 _. apply sim_same. intros th _. cbv zeta. replace (zlen A') with (zlen A) by apply L.
  eapply sim_bind with (R := fun g g' => let '(B, Rs1, Rl1, Rm1, Cs1, Cl1, pf1, tag1) := g in exists B', g' = (B', Rs1, Rl1, Rm1, Cs1, Cl1, pf1, tag1) /\ Low pf1 B B' /\ cols pf1 Cs1 Cl1 /\ rows pf1 Rs1 Rl1 Rm1 /\ 0 <= rd Cs1 p).
  - destruct (pf + Z.min ps (n - (k + th)) >=? zlen A).
    + eapply sim_bind; [eapply sim_wp; [apply (gc_sim I L)|apply (gc_ok I)]|]. intros [[[[[[B Rs1] Rl1] Rm1] Cs1] Cl1] pf1] [[[[[[B' Rs1'] Rl1'] Rm1'] Cs1'] Cl1'] pf1'] ((cend' & I' & LA' & HC' & EP & HD & HA & HR & PP) & LB & <- & <- & <- & <- & <- & <-).
      eapply sim_bind; [apply (clear_mark_alive 0 mx m Rm1)|]. intros [tg Rm2] ? (<- & ZR & K). cbn [snd] in *. cbn [sim]. exists B'. split; [reflexivity|]. split; [eapply low_sub; eassumption|]. split; [apply (mem_cols I')|]. split; [|apply HA; [lia|exact Ap]].
      intros r Hr X. apply (mem_rows I' Hr). apply K; [|exact X]. rewrite (me_Rl I') in Hr. rewrite (me_Rm I'). lia.
    + cbn [sim]. exists A'. split; [reflexivity|]. split; [exact L|]. split; [apply (mem_cols I)|]. split; [apply (mem_rows I)|exact Ap].
  - intros [[[[[[[B Rs1] Rl1] Rm1] Cs1] Cl1] pf1] tag1] g' (B' & -> & LB & JC & JR & Ap'). apply (@rest_sim ag m n mx pf1 B B' Rs1 Rl1 Rd Rm1 Cs1 Cl1 Ct Co1 Cp1 Cn h1 (k + th) md tag1 mn' p th JC JR LB Ap').
Qed.
Lemma loop_sim ag m n n2 nnz mx fuel : forall st st', linv m n n2 nnz st -> Rfo st st' -> sim Rfo (fo_loop fuel ag m n n2 mx st) (fo_loop fuel ag m n n2 mx st').
Proof.
  induction fuel as [|fuel IH]; intros st st' I R; cbn [fo_loop]; (assert (E : f_k st' = f_k st) by (destruct st as [[] ]; cbn in R; destruct R as (A' & -> & _); reflexivity)); rewrite E; (destruct (Z.ltb_spec (f_k st) n2) as [X|X]; [|exact R]).
  - exact Logic.I.
  - eapply sim_bind; [eapply sim_wp; [apply (@step_sim ag m n n2 nnz mx st st' I R)|apply (@step_ok ag m n n2 nnz mx st I X)]|]. intros s s' ((I' & _) & R'). apply IH; assumption.
Qed.

(* the same arrays, except A, of which only the part below pf counts *)
Definition Rar (pf : Z) (ar ar' : arrays) : Prop :=
  let '(mkAr A Rs Rl Rd Rm Cs Cl Ct Co Cp Cn) := ar in exists A', ar' = mkAr A' Rs Rl Rd Rm Cs Cl Ct Co Cp Cn /\ Low pf A A'.
Lemma find_ordering_sim ag m n n2 nnz ar ar' head md pf p0 : linit m n n2 nnz ar head md pf -> Rar pf ar ar' ->
  (let* ar := find_ordering ag m n n2 md pf ar head in order_children n (a_Cs ar) (a_Ct ar) (a_Co ar) p0) = (let* ar := find_ordering ag m n n2 md pf ar' head in order_children n (a_Cs ar) (a_Ct ar) (a_Co ar) p0).
Proof.
  destruct ar as [A Rs Rl Rd Rm Cs Cl Ct Co Cp Cn]. intros (cend & grp & sz & rk & I & LRd & MX & RD & LD & D & LL & EX & NZ1 & NZ2) (A' & -> & L).
  pose proof (me_n I) as Hn. pose proof (me_m I) as Hm. apply sim_eq. eapply sim_bind with (R := fun ar ar' => a_Cs ar = a_Cs ar' /\ a_Ct ar = a_Ct ar' /\ a_Co ar = a_Co ar').
  2:{ intros ar ar' (-> & -> & ->). apply sim_refl. }
  unfold find_ordering. cbn [a_A a_Rs a_Rl a_Rd a_Rm a_Cs a_Cl a_Ct a_Co a_Cp a_Cn]. set (mx := 2 ^ 31 - 1 - n). clearbody mx.
  eapply sim_bind; [eapply sim_wp; [apply sim_refl|apply (@clear_mark_ok m 0 mx Rm (me_Rm I) Hm); lia]|]. intros [tag Rm2] ? ((T1 & T2 & T3) & <-).
  assert (I2 : mem m n cend pf A Rs Rl Rm2 Cs Cl).
  { assert (T4 : forall r, 0 <= r < m -> 0 <= rd Rm2 r -> 0 <= rd Rm r) by (intros r Hr X; apply (T3 r Hr); exact X). destruct I as [i1 i2 i3 i4 i5 i6 i7 i8 i9 i10 i11 i12 i13 i14 i15 i16 i17 i18]. constructor; auto.
    - intros r r' j Hr Hr' Nr X X'. apply i12; auto.
    - intros r j Hr X. apply i14; auto.
    - intros c j Hc Ac Hj. destruct (i16 c j Hc Ac Hj) as (Y1 & Y2). split; [exact Y1|]. apply T3; [|exact Y2]. pose proof (i9 c Hc Ac). assert (0 <= rd A j) by (apply i13; lia). lia. }
  eapply sim_bind.
  - eapply (@loop_sim ag m n n2 nnz).
    + exists cend, grp, sz, rk. split; [exact I2|]. split.
      { constructor; auto; [intros r Hr X; apply RD; [exact Hr|]; apply (T3 r Hr); exact X|intros r Hr; apply (T3 r Hr)]. }
      split; [exact LD|]. split; [exact D|]. split; [exact LL|]. split; [exact EX|]. split; [lia|]. split; [|auto]. intros c Hc Ac. apply (dl_sc D). auto.
    + cbn [Rfo]. exists A'. split; [reflexivity|exact L].
  - intros [[]] [[]] (B & E & _). injection E as -> -> -> -> -> -> -> -> -> -> -> -> -> -> -> -> ->. cbn. auto.
Qed.
