(* Two runs of AMD that differ only in the contents of uninitialised memory: a run in which every uninitialised cell is w, a value that is no
   index, reads none of them. *)
From Verif Require Import Base Det DetZ Spec MColamd MAmd PCol1 PCol3 PAmd1 PAmd2 PAmd3 PAmd4 PUninit PUninit2.
Set Implicit Arguments.
Open Scope Z_scope.
Set Bullet Behavior "Strict Subproofs".

(* if c succeeds, so does a, with a related value *)
Definition imp {A B} (R : A -> B -> Prop) (c : res A) (a : res B) : Prop := forall v, c = Ok v -> exists u, a = Ok u /\ R v u.
Lemma imp_ok A B (R : A -> B -> Prop) v u : R v u -> imp R (Ok v) (Ok u).
Proof. intros H x E. injection E as <-. eauto. Qed.
Lemma imp_bind A B C D (R : A -> B -> Prop) (S : C -> D -> Prop) m m' k k' : imp R m m' -> (forall v u, m = Ok v -> R v u -> imp S (k v) (k' u)) -> imp S (bind m k) (bind m' k').
Proof. intros H K x E. destruct m as [v| | |]; try discriminate. destruct (H v eq_refl) as (u & -> & Q). apply (K v u eq_refl Q x E). Qed.
Lemma imp_same A C D (S : C -> D -> Prop) (m : res A) (k : A -> res C) k' : (forall a, m = Ok a -> imp S (k a) (k' a)) -> imp S (bind m k) (bind m k').
Proof. intros K x E. destruct m as [v| | |]; try discriminate. apply (K v eq_refl x E). Qed.
Lemma imp_conseq A B (R S : A -> B -> Prop) m m' : imp R m m' -> (forall a b, R a b -> S a b) -> imp S m m'.
Proof. intros H K x E. destruct (H x E) as (u & -> & Q). eauto. Qed.
Lemma imp_wp A B (R : A -> B -> Prop) m m' Q E : imp R m m' -> wp m Q E -> imp (fun a b => Q a /\ R a b) m m'.
Proof. intros H W x G. destruct (H x G) as (u & -> & K). rewrite G in W. cbn in W. eauto. Qed.
Lemma imp_refl A (m : res A) : imp eq m m.
Proof. intros x E. eauto. Qed.
Lemma imp_not A B (R : A -> B -> Prop) m m' : (forall x, m <> Ok x) -> imp R m m'.
Proof. intros H x E. destruct (H x E). Qed.
Lemma imp_floop S T cnt lo (f : Z -> S -> res S) (g : Z -> T -> res T) (R : Z -> S -> T -> Prop) s t :
  R lo s t -> (forall k s t, lo <= k < lo + Z.of_nat cnt -> R k s t -> imp (R (k + 1)) (f k s) (g k t)) -> imp (R (lo + Z.of_nat cnt)) (floop cnt lo f s) (floop cnt lo g t).
Proof.
  revert lo s t. induction cnt as [|cnt IH]; intros lo s t H K; [cbn; rewrite Z.add_0_r; apply imp_ok; exact H|]. cbn [floop]. eapply imp_bind; [apply K; [lia|exact H]|]. intros a b _ Hab. cbv beta in Hab.
  replace (lo + Z.of_nat (Datatypes.S cnt)) with (lo + 1 + Z.of_nat cnt) by lia. apply IH; [exact Hab|]. intros k s' t' Hk. apply K. lia.
Qed.
Lemma imp_for S T lo hi (f : Z -> S -> res S) (g : Z -> T -> res T) (R : Z -> S -> T -> Prop) s t :
  R lo s t -> (forall k s t, lo <= k < hi -> R k s t -> imp (R (k + 1)) (f k s) (g k t)) -> imp (R (Z.max lo hi)) (for_ lo hi f s) (for_ lo hi g t).
Proof.
  intros H K. unfold for_. replace (Z.max lo hi) with (lo + Z.of_nat (Z.to_nat (hi - lo))) by lia. apply imp_floop; [exact H|]. intros k s' t' Hk. apply K. lia.
Qed.
Lemma imp_for0 S T lo hi (f : Z -> S -> res S) (g : Z -> T -> res T) (R : S -> T -> Prop) s t :
  R s t -> (forall k s t, lo <= k < hi -> R s t -> imp R (f k s) (g k t)) -> imp R (for_ lo hi f s) (for_ lo hi g t).
Proof. intros H K. apply (@imp_for S T lo hi f g (fun _ => R) s t H K). Qed.

(* every cell is the same, or poisoned in the first array *)
Definition pois (w : Z) (C A : list Z) : Prop := zlen C = zlen A /\ forall i, 0 <= i < zlen C -> rd C i = rd A i \/ rd C i = w.
Lemma pois_refl w C : pois w C C.
Proof. split; auto. Qed.
Section Poison.
Variable w : Z.
Hypothesis Hw : w < 0.
Lemma pois_get C A i : pois w C A -> imp (fun v u => v = u \/ v = w) (get C i) (get A i).
Proof. intros (L & H) v E. apply get_inv in E. destruct E as (R & ->). exists (rd A i). split; [apply get_rd; lia|]. apply H. exact R. Qed.
Lemma imp_read C A i T U (S : T -> U -> Prop) k k' : pois w C A -> (forall x, k w <> Ok x) -> (forall v, get C i = Ok v -> imp S (k v) (k' v)) -> imp S (bind (get C i) k) (bind (get A i) k').
Proof. intros P X K. eapply imp_bind; [apply (pois_get i P)|]. intros v u G [->| ->]; [auto|apply imp_not; exact X]. Qed.
Lemma imp_copy C A i T U (S : T -> U -> Prop) k k' : pois w C A -> (forall v u, v = u \/ v = w -> imp S (k v) (k' u)) -> imp S (bind (get C i) k) (bind (get A i) k').
Proof. intros P K. eapply imp_bind; [apply (pois_get i P)|]. intros v u _ H. auto. Qed.
Lemma pois_set C A i v u : pois w C A -> v = u \/ v = w -> imp (pois w) (set C i v) (set A i u).
Proof.
  intros (L & H) Q x E. apply set_inv in E. destruct E as (R & ->). exists (wr A i u). split; [apply set_wr; lia|]. split; [rewrite !zlen_wr; exact L|]. intros j Hj. rewrite zlen_wr in Hj. rewrite !rd_wr by lia. destruct (j =? i); auto.
Qed.
Lemma imp_set C A i v u T U (S : T -> U -> Prop) k k' : pois w C A -> v = u \/ v = w -> (forall C' A', pois w C' A' -> imp S (k C') (k' A')) -> imp S (bind (set C i v) k) (bind (set A i u) k').
Proof. intros P Q K. eapply imp_bind; [apply (pois_set i P Q)|]. auto. Qed.
Lemma bad_get (l : list Z) : get l w = UB.
Proof. apply get_out. lia. Qed.

Ltac sm := apply imp_same; intros ? _.
Ltac bad := intros ?; cbv beta; rewrite bad_get; discriminate.

(* the element in place *)
Definition Rip (s t : list Z * list Z * list Z * list Z * list Z * Z * Z) : Prop :=
  let '(Iw, Nv, Next, Last, Head, pme2, degme) := s in let '(Iw', Nv', Next', Last', Head', pme2', degme') := t in
  pois w Iw Iw' /\ Nv = Nv' /\ Next = Next' /\ Last = Last' /\ Head = Head' /\ pme2 = pme2' /\ degme = degme'.
Lemma inplace_imp pme1 lenme Degree Iw Iw' Nv Next Last Head : pois w Iw Iw' -> imp Rip (a2_inplace pme1 lenme Degree Iw Nv Next Last Head) (a2_inplace pme1 lenme Degree Iw' Nv Next Last Head).
Proof.
  intros P. unfold a2_inplace. apply (@imp_for0 _ _ pme1 (pme1 + lenme) _ _ Rip); [cbn; auto 10|]. clear Iw Iw' Nv Next Last Head P.
  intros p [[[[[[Iw Nv] Next] Last] Head] pme2] degme] [[[[[[Iw' Nv'] Next'] Last'] Head'] pme2'] degme'] _ (P & <- & <- & <- & <- & <- & <-).
  apply imp_read; [exact P|bad|]. intros i _. sm. destruct (a >? 0); [|apply imp_ok; cbn; auto 10]. sm. apply imp_set; [exact P|auto|]. intros C' A' P'. sm. destruct a1 as [[Next1 Last1] Head1]. apply imp_ok. cbn. auto 10.
Qed.

(* garbage collection *)
Lemma heads_imp n q Iw Iw' Pe : w < - n - 1 -> 0 <= q -> q <= zlen Iw -> pois w Iw Iw' -> (forall j, 0 <= j < q -> rd Iw j <> w) -> (forall x, 0 <= x < n -> rd Pe x < q) ->
  imp (fun s t => pois w (fst s) (fst t) /\ snd s = snd t /\ zlen (snd s) = zlen Pe) (gc_heads n Iw Pe) (gc_heads n Iw' Pe).
Proof.
  intros Hn Hq Lq P F B. unfold gc_heads. eapply imp_conseq; [apply (@imp_for _ _ 0 n _ _ (fun j s t => pois w (fst s) (fst t) /\ snd s = snd t /\ zlen (snd s) = zlen Pe /\ zlen (fst s) = zlen Iw /\ (forall i, 0 <= i < q -> rd (fst s) i <> w) /\ forall x, j <= x < n -> rd (snd s) x = rd Pe x))|].
  - cbn. auto 10.
  - intros j [I1 P1] [I1' P1'] Hj (PI & E & LP & LI & FI & U). cbn [fst snd] in *. subst P1'. apply imp_same. intros pn G. apply get_inv in G. destruct G as (R & ->). specialize (B j Hj). rewrite <- U in B by lia.
    destruct (Z.geb_spec (rd P1 j) 0) as [X|X].
    + pose proof PI as (L0 & H0). rewrite (@get_rd I1 (rd P1 j)), (@get_rd I1' (rd P1 j)) by lia. cbn [bind]. destruct (H0 (rd P1 j) ltac:(lia)) as [<-|Y]; [|destruct (FI (rd P1 j) ltac:(lia) Y)].
      apply imp_same. intros P2 G. apply set_inv in G. destruct G as (_ & ->). eapply imp_bind with (R := fun a b => pois w a b /\ a = wr I1 (rd P1 j) (FLIP j)).
      { intros x G. destruct (@pois_set I1 I1' (rd P1 j) (FLIP j) (FLIP j) PI (or_introl eq_refl) x G) as (u & -> & Q). apply set_inv in G. destruct G as (_ & ->). eauto. }
      intros C' A' _ (PC & ->). apply imp_ok. cbn [fst snd]. rewrite !zlen_wr. split; [exact PC|]. split; [reflexivity|]. split; [exact LP|]. split; [exact LI|]. split.
      * intros i Hi. rewrite rd_wr by lia. destruct (i =? rd P1 j); [unfold FLIP; lia|auto].
      * intros x Hx. rewrite rd_wr_ne by lia. apply U. lia.
    + apply imp_ok. cbn [fst snd]. split; [exact PI|]. split; [reflexivity|]. split; [exact LP|]. split; [exact LI|]. split; [exact FI|]. intros x Hx. apply U. lia.
  - intros s t (X1 & X2 & X3 & _). auto.
Qed.
Lemma gcopy_imp lenj psrc pdst Iw Iw' : pois w Iw Iw' -> imp (pois w) (gc_copy lenj psrc pdst Iw) (gc_copy lenj psrc pdst Iw').
Proof. intros P. unfold gc_copy. apply (@imp_for0 _ _ 0 (lenj - 1) _ _ (pois w)); [exact P|]. intros k C A _ H. apply imp_copy; [exact H|]. intros v u Q. apply pois_set; auto. Qed.
Lemma squeeze_imp n pend Len : FLIP w = n -> forall fuel psrc pdst Iw Iw' Pe, zlen Pe = n -> 0 <= n -> pois w Iw Iw' ->
  imp (fun s t => let '(Iw, Pe, p) := s in let '(Iw', Pe', p') := t in pois w Iw Iw' /\ Pe = Pe' /\ p = p') (gc_squeeze fuel pend psrc pdst Len Iw Pe) (gc_squeeze fuel pend psrc pdst Len Iw' Pe).
Proof.
  intros FW. induction fuel as [|fuel IH]; intros psrc pdst Iw Iw' Pe LP Hn P; cbn [gc_squeeze]; (destruct (psrc <=? pend); [|apply imp_ok; auto]); [apply imp_not; discriminate|].
  apply imp_read; [exact P| |].
  - intros x. cbv beta zeta. rewrite FW. destruct (Z.geb_spec n 0); [|lia]. rewrite (@get_out _ Pe n) by lia. discriminate.
  - intros v _. cbv zeta. destruct (FLIP v >=? 0); [|apply IH; auto]. sm. apply imp_set; [exact P|auto|]. intros C A PC. apply imp_same. intros Pe1 G. apply set_inv in G. destruct G as (_ & ->). sm. eapply imp_bind; [apply (gcopy_imp _ _ _ PC)|]. intros C' A' _ PC'. apply IH; [rewrite zlen_wr; exact LP|exact Hn|exact PC'].
Qed.
Definition Rcp (s t : list Z * list Z * list Z * Z * Z * Z * Z) : Prop :=
  let '(Iw, Pe, Len, p, pj, p1, pf) := s in let '(Iw', Pe', Len', p', pj', p1', pf') := t in pois w Iw Iw' /\ Pe = Pe' /\ Len = Len' /\ p = p' /\ pj = pj' /\ p1 = p1' /\ pf = pf'.
Lemma compress_imp n me e knt1 knt2 ln p pj pme1 pfree Iw Iw' Pe Len : FLIP w = n -> 0 <= me < n -> 0 <= e < n -> zlen Pe = n -> zlen Len = n -> 0 <= pme1 <= pfree -> pfree <= zlen Iw ->
  (forall j, 0 <= j < pfree -> 0 <= rd Iw j < n) -> lay n pme1 (vst me e (ln - knt2) (rd Len me - knt1) p pj Pe) (vln me e (ln - knt2) (rd Len me - knt1) Len) -> pois w Iw Iw' ->
  imp Rcp (a2_compress n me e knt1 knt2 ln p pj pme1 pfree Iw Pe Len) (a2_compress n me e knt1 knt2 ln p pj pme1 pfree Iw' Pe Len).
Proof.
  intros FW Hme He LP LL HP HF RI LA P. unfold a2_compress. apply imp_same. intros Pe1 G1. apply set_inv in G1. destruct G1 as (_ & ->). apply imp_same. intros l Gl. apply get_inv in Gl. destruct Gl as (_ & ->).
  apply imp_same. intros Len1 _. apply imp_same. intros Pe2 G2. apply imp_same. intros Pe3 G3. apply set_inv in G3. destruct G3 as (_ & ->). apply imp_same. intros Len2 _. apply imp_same. intros Pe4 G4.
  assert (E2 : Pe2 = if rd Len me - knt1 =? 0 then wr (wr Pe me p) me EMPTY else wr Pe me p). { destruct (rd Len me - knt1 =? 0); [apply set_inv in G2; apply G2|injection G2 as <-; reflexivity]. }
  assert (L2 : zlen Pe2 = n) by (rewrite E2; destruct (rd Len me - knt1 =? 0); rewrite ?zlen_wr; exact LP).
  assert (E4 : Pe4 = if ln - knt2 =? 0 then wr (wr Pe2 e pj) e EMPTY else wr Pe2 e pj). { destruct (ln - knt2 =? 0); [apply set_inv in G4; apply G4|injection G4 as <-; reflexivity]. }
  assert (L4 : zlen Pe4 = n) by (rewrite E4; destruct (ln - knt2 =? 0); rewrite ?zlen_wr; exact L2).
  assert (V : forall x, 0 <= x < n -> rd Pe4 x = vst me e (ln - knt2) (rd Len me - knt1) p pj Pe x).
  { intros x Hx. unfold vst. rewrite E4, E2. destruct (Z.eqb_spec x e) as [->|N].
    - destruct (ln - knt2 =? 0); repeat (rewrite rd_wr_eq; [|rewrite ?zlen_wr; destruct (_ =? 0); rewrite ?zlen_wr; lia]); reflexivity.
    - transitivity (rd (if rd Len me - knt1 =? 0 then wr (wr Pe me p) me EMPTY else wr Pe me p) x); [destruct (ln - knt2 =? 0); rewrite ?rd_wr_ne by (auto; lia); reflexivity|].
      destruct (Z.eqb_spec x me) as [->|M].
      + destruct (rd Len me - knt1 =? 0); repeat (rewrite rd_wr_eq; [|rewrite ?zlen_wr; lia]); reflexivity.
      + destruct (rd Len me - knt1 =? 0); rewrite ?rd_wr_ne by (auto; lia); reflexivity. }
  eapply imp_bind; [apply (@heads_imp n pme1 Iw Iw' Pe4)|].
  - unfold FLIP in FW. lia.
  - lia.
  - lia.
  - exact P.
  - intros j Hj. pose proof (RI j ltac:(lia)). lia.
  - intros x Hx. rewrite V by exact Hx. destruct (Z_lt_le_dec (vst me e (ln - knt2) (rd Len me - knt1) p pj Pe x) 0) as [N|N]; [lia|]. pose proof (la_in LA Hx N). lia.
  - intros [Iw1 Pe5] [Iw1' Pe5'] _ (P1 & E5 & L5). cbn [fst snd] in *. subst Pe5'. eapply imp_bind; [apply (@squeeze_imp n (pme1 - 1) Len2 FW); [lia|lia|exact P1]|].
    intros [[Iw2 Pe6] p1] [[Iw2' Pe6'] p1'] _ (P2 & <- & <-). eapply imp_bind with (R := pois w).
    + apply (@imp_for0 _ _ pme1 pfree _ _ (pois w)); [exact P2|]. intros k C A _ PC. apply imp_copy; [exact PC|]. intros v u Q. apply pois_set; auto.
    + intros C A _ PC. sm. sm. apply imp_ok. cbn. auto 10.
Qed.

(* the element in the empty space *)
Definition Rb (b c : bld) : Prop := exists Iw', pois w (b_Iw b) Iw' /\ c = mkB Iw' (b_Pe b) (b_Len b) (b_Nv b) (b_Next b) (b_Last b) (b_Head b) (b_W b) (b_p b) (b_pme1 b) (b_pfree b) (b_degme b).
Definition Rbz (b c : bld * Z) : Prop := Rb (fst b) (fst c) /\ snd b = snd c.
Lemma gather1_imp n me e knt1 ln Degree iwlen dd st st' : FLIP w = n -> 0 <= dd < ln -> gok n me e knt1 ln Degree iwlen dd st -> Rbz st st' ->
  imp Rbz (a2_gather1 n me e knt1 ln Degree (dd + 1) st) (a2_gather1 n me e knt1 ln Degree (dd + 1) st').
Proof.
  intros FW Hdd G. destruct st as [[Iw Pe Len Nv Next Last Head W p pme1 pfree degme] pj]. destruct st' as [c' pj']. intros ((Iw' & P & E) & E'). cbn [fst snd b_Iw b_Pe b_Len b_Nv b_Next b_Last b_Head b_W b_p b_pme1 b_pfree b_degme] in *. subst c' pj'.
  unfold a2_gather1. cbv zeta. apply imp_read; [exact P|bad|]. intros i _. sm. destruct (a >? 0); [|apply imp_ok; split; [exists Iw'; auto|reflexivity]].
  rewrite <- (proj1 P). eapply imp_bind with (R := Rcp).
  - destruct (Z.geb_spec pfree (zlen Iw)) as [X|X]; [|apply imp_ok; cbn; auto 10].
    destruct (@gok_compress n me e knt1 ln Degree iwlen dd Iw Pe Len Nv Next Last Head W p pme1 pfree degme pj Hdd G ltac:(lia)) as (H1 & H2 & H3 & H4 & H5 & H6 & H7 & H8 & H9).
    apply compress_imp; auto.
  - intros [[[[[[Iw2 Pe2] Len2] p2] pj2] pme2] pfree2] [[[[[[Iw2' Pe2'] Len2'] p2'] pj2'] pme2'] pfree2'] _ (P2 & <- & <- & <- & <- & <- & <-). sm. apply imp_set; [exact P2|auto|]. intros C A PC. sm. destruct a1 as [[Next1 Last1] Head1]. apply imp_ok. split; [exists A; auto|reflexivity].
Qed.
Lemma gather_imp n me e knt1 ln pj Degree iwlen b b' : FLIP w = n -> gok n me e knt1 ln Degree iwlen 0 (b, pj) -> Rb b b' ->
  imp Rbz (a2_gather n me e knt1 ln pj Degree b) (a2_gather n me e knt1 ln pj Degree b').
Proof.
  intros FW G RB. unfold a2_gather. eapply imp_conseq; [apply (@imp_for _ _ 1 (ln + 1) _ _ (fun k s t => gok n me e knt1 ln Degree iwlen (k - 1) s /\ Rbz s t))|].
  - split; [exact G|split; [exact RB|reflexivity]].
  - intros k s t Hk (GK & RS). assert (exists d, k = d + 1) as (d & ->) by (exists (k - 1); lia). replace (d + 1 - 1) with d in GK by lia. replace (d + 1 + 1 - 1) with (d + 1) by lia. eapply imp_wp; [apply (@gather1_imp n me e knt1 ln Degree iwlen d s t FW ltac:(lia) GK RS)|apply gok_step; [lia|exact GK]].
  - intros s t (_ & H). exact H.
Qed.

(* Scan 1 *)
Lemma s1_one_imp wflg nvi pe eln Iw Iw' Degree W : pois w Iw Iw' -> imp eq (s1_one wflg nvi pe eln Iw Degree W) (s1_one wflg nvi pe eln Iw' Degree W).
Proof. intros P. unfold s1_one. apply (@imp_for0 _ _ pe (pe + eln) _ _ eq); [reflexivity|]. intros p W1 ? _ <-. apply imp_read; [exact P|bad|]. intros e _. apply imp_refl. Qed.
Lemma scan1_imp wflg pme1 pme2 Iw Iw' Pe Nv Elen Degree W : pois w Iw Iw' -> imp eq (a2_scan1 wflg pme1 pme2 Iw Pe Nv Elen Degree W) (a2_scan1 wflg pme1 pme2 Iw' Pe Nv Elen Degree W).
Proof.
  intros P. unfold a2_scan1. apply (@imp_for0 _ _ pme1 (pme2 + 1) _ _ eq); [reflexivity|]. intros p W1 ? _ <-. apply imp_read; [exact P|bad|]. intros i _. sm. destruct (a >? 0); [|apply imp_refl]. sm. sm. apply s1_one_imp. exact P.
Qed.

(* Scan 2 *)
Definition Re2 (s t : list Z * list Z * list Z * Z * Z * Z) : Prop :=
  let '(Iw, Pe, W, pn, hash, deg) := s in let '(Iw', Pe', W', pn', hash', deg') := t in pois w Iw Iw' /\ Pe = Pe' /\ W = W' /\ pn = pn' /\ hash = hash' /\ deg = deg'.
Lemma elems_imp aggr me wflg p1 p2 Iw Iw' Pe W : pois w Iw Iw' -> imp Re2 (s2_elems aggr me wflg p1 p2 Iw Pe W) (s2_elems aggr me wflg p1 p2 Iw' Pe W).
Proof.
  intros P. unfold s2_elems. apply (@imp_for0 _ _ p1 (p2 + 1) _ _ Re2); [cbn; auto 10|]. clear Iw Iw' Pe W P. intros p [[[[[Iw Pe] W] pn] hash] deg] [[[[[Iw' Pe'] W'] pn'] hash'] deg'] _ (P & <- & <- & <- & <- & <-).
  apply imp_read; [exact P|bad|]. intros e _. sm. destruct (negb (a =? 0)); [|apply imp_ok; cbn; auto 10]. cbv zeta. destruct ((a - wflg >? 0) || negb aggr).
  - apply imp_set; [exact P|auto|]. intros C A PC. apply imp_ok. cbn. auto 10.
  - sm. sm. apply imp_ok. cbn. auto 10.
Qed.
Definition Rv2 (s t : list Z * Z * Z * Z) : Prop := let '(Iw, pn, hash, deg) := s in let '(Iw', pn', hash', deg') := t in pois w Iw Iw' /\ pn = pn' /\ hash = hash' /\ deg = deg'.
Lemma vars_imp p2 p4 Nv Iw Iw' pn hash deg : pois w Iw Iw' -> imp Rv2 (s2_vars p2 p4 Nv Iw pn hash deg) (s2_vars p2 p4 Nv Iw' pn hash deg).
Proof.
  intros P. unfold s2_vars. apply (@imp_for0 _ _ (p2 + 1) p4 _ _ Rv2); [cbn; auto 10|]. clear Iw Iw' pn hash deg P. intros p [[[Iw pn] hash] deg] [[[Iw' pn'] hash'] deg'] _ (P & <- & <- & <-).
  apply imp_read; [exact P|bad|]. intros j _. sm. destruct (a >? 0); [|apply imp_ok; cbn; auto 10]. apply imp_set; [exact P|auto|]. intros C A PC. apply imp_ok. cbn. auto 10.
Qed.
Definition Rs2 (s t : sc2) : Prop := exists Iw', pois w (s_Iw s) Iw' /\ t = mkS2 Iw' (s_Pe s) (s_Len s) (s_Nv s) (s_Next s) (s_Last s) (s_Head s) (s_Elen s) (s_Degree s) (s_W s) (s_degme s) (s_nvpiv s) (s_nel s).
Lemma s2_one_imp aggr n me wflg pme s t : Rs2 s t -> imp Rs2 (s2_one aggr n me wflg pme s) (s2_one aggr n me wflg pme t).
Proof.
  destruct s as [Iw Pe Len Nv Next Last Head Elen Degree W degme nvpiv nel]. intros (Iw' & P & ->). cbn [s_Iw s_Pe s_Len s_Nv s_Next s_Last s_Head s_Elen s_Degree s_W s_degme s_nvpiv s_nel] in *. unfold s2_one.
  apply imp_read; [exact P|bad|]. intros i _. sm. sm. cbv zeta. eapply imp_bind; [apply (elems_imp _ _ _ _ _ _ _ P)|]. intros [[[[[Iw1 Pe1] W1] pn] hash] deg] [[[[[Iw1' Pe1'] W1'] pn'] hash'] deg'] _ (P1 & <- & <- & <- & <- & <-).
  sm. sm. eapply imp_bind; [apply (vars_imp _ _ _ _ _ _ P1)|]. intros [[[Iw2 pn2] hash2] deg2] [[[Iw2' pn2'] hash2'] deg2'] _ (P2 & <- & <- & <-). destruct ((pn - a + 1 =? 1) && (pn =? pn2)).
  - sm. sm. sm. sm. apply imp_ok. exists Iw2'. auto.
  - sm. sm. apply imp_copy; [exact P2|]. intros v u Q. apply imp_set; [exact P2|exact Q|]. intros C1 A1 PC1. apply imp_copy; [exact PC1|]. intros v1 u1 Q1. apply imp_set; [exact PC1|exact Q1|]. intros C2 A2 PC2. apply imp_set; [exact PC2|auto|]. intros C3 A3 PC3.
    sm. sm. destruct a6 as [[Next1 Last1] Head1]. apply imp_ok. exists A3. auto.
Qed.
Lemma scan2_imp aggr n me wflg pme1 pme2 s t : Rs2 s t -> imp Rs2 (a2_scan2 aggr n me wflg pme1 pme2 s) (a2_scan2 aggr n me wflg pme1 pme2 t).
Proof. intros H. unfold a2_scan2. apply (@imp_for0 _ _ pme1 (pme2 + 1) _ _ Rs2); [exact H|]. intros p x y _ HR. apply s2_one_imp. exact HR. Qed.

(* supervariable detection *)
Lemma scatter_imp pe ln wflg Iw Iw' W : pois w Iw Iw' -> imp eq (sv_scatter pe ln wflg Iw W) (sv_scatter pe ln wflg Iw' W).
Proof.
  intros P. unfold sv_scatter. apply (@imp_for0 _ _ (pe + 1) (pe + ln) _ _ eq); [reflexivity|]. intros p W1 ? _ <-. apply imp_read; [exact P| |intros x _; apply imp_refl]. intros x. cbv beta. rewrite set_out by lia. discriminate.
Qed.
Lemma same_imp wflg Iw Iw' W : pois w Iw Iw' -> forall cnt p, imp eq (sv_same cnt p wflg Iw W) (sv_same cnt p wflg Iw' W).
Proof. intros P. induction cnt as [|cnt IH]; intros p; cbn [sv_same]; [apply imp_refl|]. apply imp_read; [exact P|bad|]. intros x _. sm. destruct (negb (a =? wflg)); [apply imp_refl|apply IH]. Qed.
Lemma inner_imp i ln eln wflg Iw Iw' Len W : pois w Iw Iw' -> forall fuel jlast j Pe Nv Elen Next, imp eq (sv_inner fuel i ln eln wflg jlast j Iw Len W Pe Nv Elen Next) (sv_inner fuel i ln eln wflg jlast j Iw' Len W Pe Nv Elen Next).
Proof.
  intros P. induction fuel as [|fuel IH]; intros jlast j Pe Nv Elen Next; cbn [sv_inner]; (destruct (negb (j =? EMPTY)); [|apply imp_refl]); [apply imp_refl|]. sm. sm. eapply imp_bind with (R := eq).
  - destruct ((a =? ln) && (a0 =? eln)); [|apply imp_refl]. sm. apply same_imp. exact P.
  - intros ok ? _ <-. destruct ok; [|sm; apply IH]. sm. sm. sm. sm. sm. sm. sm. sm. apply IH.
Qed.
Lemma outer_imp fuel' Iw Iw' Len : pois w Iw Iw' -> forall fuel i wflg Pe Nv Elen Next W, imp eq (sv_outer fuel fuel' i wflg Iw Len Pe Nv Elen Next W) (sv_outer fuel fuel' i wflg Iw' Len Pe Nv Elen Next W).
Proof.
  intros P. induction fuel as [|fuel IH]; intros i wflg Pe Nv Elen Next W; cbn [sv_outer]; (destruct (i =? EMPTY); [apply imp_refl|]); sm; (destruct (a =? EMPTY); [apply imp_refl|]); [apply imp_refl|].
  sm. sm. sm. eapply imp_bind; [apply (scatter_imp _ _ _ _ P)|]. intros W1 ? _ <-. eapply imp_bind; [apply (inner_imp _ _ _ _ _ _ P)|]. intros [[[Pe1 Nv1] Elen1] Next1] ? _ <-. sm. apply IH.
Qed.
Lemma detect_imp n pme1 pme2 Iw Iw' Len Pe Nv Elen Next Last Head W wflg : pois w Iw Iw' -> imp eq (a2_detect n pme1 pme2 Iw Len Pe Nv Elen Next Last Head W wflg) (a2_detect n pme1 pme2 Iw' Len Pe Nv Elen Next Last Head W wflg).
Proof.
  intros P. unfold a2_detect. apply (@imp_for0 _ _ pme1 (pme2 + 1) _ _ eq); [reflexivity|]. clear Pe Nv Elen Next Last Head W wflg. intros p [[[[[[[Pe Nv] Elen] Next] Last] Head] W] wflg] ? _ <-.
  apply imp_read; [exact P|bad|]. intros i _. sm. destruct (a <? 0); [|apply imp_refl]. sm. sm. apply imp_same. intros [[i1 Last1] Head1] _. eapply imp_bind; [apply (outer_imp _ _ P)|]. intros [[[[[Pe1 Nv1] Elen1] Next1] W1] wflg1] ? _ <-. apply imp_refl.
Qed.

(* the last pass *)
Definition Rf (s t : list Z * list Z * list Z * list Z * list Z * list Z * Z * Z) : Prop :=
  let '(Iw, Nv, Next, Last, Head, Degree, mindeg, p) := s in let '(Iw', Nv', Next', Last', Head', Degree', mindeg', p') := t in
  pois w Iw Iw' /\ Nv = Nv' /\ Next = Next' /\ Last = Last' /\ Head = Head' /\ Degree = Degree' /\ mindeg = mindeg' /\ p = p'.
Lemma final_imp n nel degme pme1 pme2 Iw Iw' Nv Next Last Head Degree mindeg : pois w Iw Iw' -> imp Rf (a2_final n nel degme pme1 pme2 Iw Nv Next Last Head Degree mindeg) (a2_final n nel degme pme1 pme2 Iw' Nv Next Last Head Degree mindeg).
Proof.
  intros P. unfold a2_final. apply (@imp_for0 _ _ pme1 (pme2 + 1) _ _ Rf); [cbn; auto 10|]. clear Iw Iw' Nv Next Last Head Degree mindeg P.
  intros q [[[[[[[Iw Nv] Next] Last] Head] Degree] mindeg] p] [[[[[[[Iw' Nv'] Next'] Last'] Head'] Degree'] mindeg'] p'] _ (P & <- & <- & <- & <- & <- & <- & <-).
  apply imp_read; [exact P|bad|]. intros i _. sm. cbv zeta. destruct (- a >? 0); [|apply imp_ok; cbn; auto 10]. sm. sm. sm. sm. sm. sm. sm. sm. apply imp_set; [exact P|auto|]. intros C A PC. apply imp_ok. cbn. auto 10.
Qed.
End Poison.
