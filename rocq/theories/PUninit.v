(* Two runs of SLIP_LU_factorize that differ only in the contents of uninitialised memory, in lockstep. *)
From Verif Require Import Base MFactor MSolve MMatrix MApi MUninit.
Set Implicit Arguments.
Open Scope Z_scope.
Set Bullet Behavior "Strict Subproofs".

(* the same outcome, and related values *)
Definition sim {A B} (R : A -> B -> Prop) (m : res A) (m' : res B) : Prop :=
  match m, m' with Ok a, Ok b => R a b | Err e, Err f => e = f | UB, UB => True | Fuel, Fuel => True | _, _ => False end.
Lemma sim_bind A B C D (R : A -> B -> Prop) (S : C -> D -> Prop) m m' k k' : sim R m m' -> (forall a b, R a b -> sim S (k a) (k' b)) -> sim S (bind m k) (bind m' k').
Proof. intros H K. destruct m, m'; cbn in *; auto; contradiction. Qed.
Lemma sim_same A C D (S : C -> D -> Prop) (m : res A) (k : A -> res C) k' : (forall a, m = Ok a -> sim S (k a) (k' a)) -> sim S (bind m k) (bind m k').
Proof. intros K. destruct m; cbn; auto. Qed.
Lemma sim_conseq A B (R S : A -> B -> Prop) m m' : sim R m m' -> (forall a b, R a b -> S a b) -> sim S m m'.
Proof. intros H K. destruct m, m'; cbn in *; auto. Qed.
Lemma sim_eq A (m m' : res A) : sim eq m m' -> m = m'.
Proof. destruct m, m'; cbn; intros H; try contradiction; congruence. Qed.
Lemma sim_refl A (m : res A) : sim eq m m.
Proof. destruct m; cbn; auto. Qed.
Lemma sim_floop S T cnt lo (f : Z -> S -> res S) (g : Z -> T -> res T) (R : Z -> S -> T -> Prop) s t :
  R lo s t -> (forall k s t, lo <= k < lo + Z.of_nat cnt -> R k s t -> sim (R (k + 1)) (f k s) (g k t)) ->
  sim (R (lo + Z.of_nat cnt)) (floop cnt lo f s) (floop cnt lo g t).
Proof.
  revert lo s t. induction cnt as [|cnt IH]; intros lo s t H K; [cbn; rewrite Z.add_0_r; exact H|]. cbn [floop]. eapply sim_bind; [apply K; [lia|exact H]|]. intros a b Hab. cbv beta in Hab.
  replace (lo + Z.of_nat (Datatypes.S cnt)) with (lo + 1 + Z.of_nat cnt) by lia. apply IH; [exact Hab|]. intros k s' t' Hk. apply K. lia.
Qed.
Lemma sim_for S T lo hi (f : Z -> S -> res S) (g : Z -> T -> res T) (R : Z -> S -> T -> Prop) s t :
  R lo s t -> (forall k s t, lo <= k < hi -> R k s t -> sim (R (k + 1)) (f k s) (g k t)) -> sim (R (Z.max lo hi)) (for_ lo hi f s) (for_ lo hi g t).
Proof.
  intros H K. unfold for_. replace (Z.max lo hi) with (lo + Z.of_nat (Z.to_nat (hi - lo))) by lia. apply sim_floop; [exact H|]. intros k s' t' Hk. apply K. lia.
Qed.

(* arrays of the same length with the same contents in the cells D *)
Definition agree (D : Z -> Prop) (a b : list Z) : Prop := zlen a = zlen b /\ forall i, D i -> get a i = get b i.
Lemma agree_sub (D E : Z -> Prop) a b : agree D a b -> (forall i, E i -> D i) -> agree E a b.
Proof. intros [L H] K. split; auto. Qed.
Lemma get_out A (l : list A) i : i < 0 \/ zlen l <= i -> get l i = UB.
Proof.
  intros H. unfold get. destruct (Z.ltb_spec i 0); [reflexivity|]. destruct (nth_error l (Z.to_nat i)) eqn:E; [|reflexivity].
  assert (X : nth_error l (Z.to_nat i) <> None) by congruence. apply nth_error_Some in X. unfold zlen in H. lia.
Qed.
Lemma set_out A (l : list A) i v : i < 0 \/ zlen l <= i -> set l i v = UB.
Proof. intros H. unfold set. destruct (Z.leb_spec 0 i), (Z.ltb_spec i (zlen l)); cbn; try reflexivity; lia. Qed.
Lemma get_wr l i j v : 0 <= i < zlen l -> get (wr l i v) j = if j =? i then Ok v else get l j.
Proof.
  intros Hi. destruct (Z_lt_le_dec j 0); [rewrite !get_out by lia; destruct (Z.eqb_spec j i); [lia|reflexivity]|]. destruct (Z_lt_le_dec j (zlen l)).
  - rewrite !get_rd by (rewrite ?zlen_wr; lia). rewrite rd_wr by lia. destruct (j =? i); reflexivity.
  - rewrite !get_out by (rewrite ?zlen_wr; lia). destruct (Z.eqb_spec j i); [lia|reflexivity].
Qed.
Lemma agree_set (D : Z -> Prop) a b i v : agree D a b -> sim (agree (fun j => D j \/ j = i)) (set a i v) (set b i v).
Proof.
  intros [L H]. destruct (Z_lt_le_dec i 0) as [X|X]; [rewrite !set_out by lia; exact I|]. destruct (Z_lt_le_dec i (zlen a)) as [Y|Y]; [|rewrite !set_out by lia; exact I].
  rewrite !set_wr by lia. split; [rewrite !zlen_wr; exact L|]. intros j Hj. rewrite !get_wr by lia. destruct (Z.eqb_spec j i); [reflexivity|]. apply H. destruct Hj; [assumption|contradiction].
Qed.
Lemma agree_get (D : Z -> Prop) a b i : agree D a b -> D i -> get a i = get b i.
Proof. intros [_ H] K. auto. Qed.
Lemma agree_rd (D : Z -> Prop) a b i : agree D a b -> D i -> 0 <= i < zlen a -> rd a i = rd b i.
Proof. intros [L H] K X. specialize (H i K). rewrite !get_rd in H by lia. congruence. Qed.
Lemma agree_low D a b : agree D a b -> agree (fun i => D i \/ i < 0) a b.
Proof. intros [L H]. split; [exact L|]. intros i [Hi|Hi]; [auto|rewrite !get_out by lia; reflexivity]. Qed.

(* the column pointers of L, possibly marked *)
Definition okp (lnz : Z) (Lp : list Z) : Prop := forall i, 0 <= i < zlen Lp -> 0 <= unflip (rd Lp i) <= lnz /\ rd Lp i <> -1.
Lemma unflip_flip v : v <> -1 -> unflip (flip v) = unflip v.
Proof. intros H. unfold unflip, flip. destruct (Z.ltb_spec v 0), (Z.ltb_spec (- v - 2) 0); lia. Qed.
Lemma okp_mark lnz Lp j Lp' : okp lnz Lp -> mark Lp j = Ok Lp' -> okp lnz Lp'.
Proof.
  intros H E. unfold mark in E. destruct (get Lp j) as [v| | |] eqn:G; try discriminate. cbn [bind] in E. destruct (get_ok_inv _ _ G) as (R & _). rewrite get_rd in G by exact R. injection G as <-. rewrite set_wr in E by exact R. injection E as <-.
  intros i Hi. rewrite zlen_wr in Hi. rewrite rd_wr by lia. destruct (Z.eqb_spec i j) as [->|]; [|auto]. destruct (H j R) as (U & N). rewrite unflip_flip by exact N. split; [exact U|]. unfold flip. lia.
Qed.
Lemma okp_get lnz Lp j v : okp lnz Lp -> get Lp j = Ok v -> 0 <= unflip v <= lnz /\ v <> -1.
Proof. intros H G. destruct (get_ok_inv _ _ G) as (R & _). rewrite get_rd in G by exact R. injection G as <-. auto. Qed.

Lemma dfs_scan_eq lnz Lp Li Li' : agree (fun i => i < lnz) Li Li' -> forall cnt p, (cnt = O \/ p + Z.of_nat cnt <= lnz) -> dfs_scan cnt p Lp Li = dfs_scan cnt p Lp Li'.
Proof.
  intros A. induction cnt as [|cnt IH]; intros p H; [reflexivity|]. cbn [dfs_scan]. rewrite (@agree_get _ _ _ p A) by lia. destruct (get Li' p) as [i| | |]; cbn [bind]; try reflexivity. destruct (get Lp i) as [v| | |]; cbn [bind]; try reflexivity.
  destruct (v <? 0); [|reflexivity]. apply IH. lia.
Qed.
Lemma dfs_scan_some Lp Li : forall cnt p p' i, dfs_scan cnt p Lp Li = Ok (Some (p', i)) -> exists v, get Lp i = Ok v /\ 0 <= v.
Proof.
  induction cnt as [|cnt IH]; intros p p' i H; [discriminate|]. cbn [dfs_scan] in H. destruct (get Li p) as [i0| | |]; cbn [bind] in H; try discriminate. destruct (get Lp i0) as [v| | |] eqn:G; cbn [bind] in H; try discriminate.
  destruct (Z.ltb_spec v 0); [eauto|]. injection H as _ <-. eauto.
Qed.
Definition same_pat (n lnz : Z) (r r' : Z * list Z * list Z) : Prop :=
  let '(top, xi, Lp) := r in let '(top', xi', Lp') := r' in top = top' /\ Lp = Lp' /\ okp lnz Lp /\ agree (fun i => top <= i < n) xi xi'.
Lemma dfs_loop_sim n lnz Li Li' pinv : agree (fun i => i < lnz) Li Li' -> forall fuel head top xi xi' Lp, okp lnz Lp ->
  agree (fun i => i <= head \/ n <= i < n + head \/ top <= i < n) xi xi' ->
  (forall j v, get xi head = Ok j -> get Lp j = Ok v -> v < 0 -> get xi (n + head) = get xi' (n + head)) ->
  sim (same_pat n lnz) (dfs_loop fuel n Li pinv head top xi Lp) (dfs_loop fuel n Li' pinv head top xi' Lp).
Proof.
  intros AL. induction fuel as [|fuel IH]; intros head top xi xi' Lp HL A HM; [exact I|]. cbn [dfs_loop]. destruct (Z.ltb_spec head 0) as [Hh|Hh].
  { split; [reflexivity|]. split; [reflexivity|]. split; [exact HL|]. eapply agree_sub; [exact A|]. intros i Hi. cbv beta. lia. }
  rewrite <- (@agree_get _ _ _ head A) by lia. apply sim_same. intros j Gj. apply sim_same. intros jnew Gn. apply sim_same. intros v Gv.
  apply sim_bind with (R := fun a b => snd a = snd b /\ okp lnz (snd a) /\ (exists w, get (snd a) j = Ok w /\ w < 0) /\ agree (fun i => i <= head \/ n <= i < n + (head + 1) \/ top <= i < n) (fst a) (fst b)).
  { destruct (Z.ltb_spec v 0) as [Hv|Hv].
    - cbn. split; [reflexivity|]. split; [exact HL|]. split; [eauto|]. split; [apply A|]. intros i Hi. destruct (Z.eq_dec i (n + head)) as [->|]; [apply (HM j v Gj Gv Hv)|apply A; lia].
    - apply sim_same. intros Lp1 E1. apply sim_same. intros s Es. eapply sim_bind; [apply (agree_set (n + head) s A)|]. intros x1 x1' A1. cbn. split; [reflexivity|]. split; [apply (@okp_mark _ _ _ _ HL E1)|]. split.
      + unfold mark in E1. rewrite Gv in E1. cbn [bind] in E1. destruct (get_ok_inv _ _ Gv) as (R & _). rewrite set_wr in E1 by exact R. injection E1 as <-. exists (flip v). rewrite get_wr, Z.eqb_refl by exact R. split; [reflexivity|]. unfold flip. lia.
      + eapply agree_sub; [exact A1|]. intros i Hi. cbv beta. lia. }
  intros [xi1 Lp1] [xi1' Lp1'] (E & HL1 & (w & Gw & Hw) & A1). cbn [fst snd] in *. subst Lp1'.
  apply sim_same. intros p2 E2. rewrite <- (@agree_get _ _ _ (n + head) A1) by lia. apply sim_same. intros p0 E0.
  assert (P2 : p2 <= lnz \/ p2 <= 0 /\ jnew < 0).
  { destruct (Z.ltb_spec jnew 0) as [Q|Q]; [injection E2 as <-; right; lia|]. destruct (get Lp1 (jnew + 1)) as [u| | |] eqn:Gu; cbn [bind] in E2; try discriminate. injection E2 as <-. left. apply (@okp_get _ _ _ _ HL1 Gu). }
  assert (P3 : p2 <= lnz). { destruct P2 as [P2|P2]; [exact P2|]. pose proof (@okp_get _ _ _ _ HL1 Gw). lia. }
  rewrite <- (@dfs_scan_eq lnz Lp1 Li Li' AL) by lia. apply sim_same. intros r Er. destruct r as [(p & i)|].
  - destruct (@dfs_scan_some _ _ _ _ _ _ Er) as (vi & Gi & Hvi). eapply sim_bind; [apply (agree_set (n + head) p A1)|]. intros x2 x2' A2. eapply sim_bind with (R := fun a b => agree _ a b /\ get a (head + 1) = Ok i).
    { pose proof (agree_set (head + 1) i A2) as S. destruct (set x2 (head + 1) i) as [y| | |] eqn:Y; cbn [sim] in *; auto. destruct (set x2' (head + 1) i); try contradiction. split; [exact S|].
      unfold set in Y. destruct ((0 <=? head + 1) && (head + 1 <? zlen x2)) eqn:Q; [|discriminate]. apply andb_true_iff in Q. injection Y as <-. fold (wr x2 (head + 1) i). rewrite get_wr, Z.eqb_refl by lia. reflexivity. }
    intros x3 x3' (A3 & G3). apply IH; [exact HL1| |].
    + eapply agree_sub; [exact A3|]. intros t Ht. cbv beta. lia.
    + intros j' v' Gj' Gv' Hv'. rewrite G3 in Gj'. injection Gj' as <-. rewrite Gi in Gv'. injection Gv' as <-. lia.
  - eapply sim_bind; [apply (agree_set (top - 1) j A1)|]. intros x2 x2' A2. apply IH; [exact HL1| |].
    + eapply agree_sub; [exact A2|]. intros t Ht. cbv beta. lia.
    + intros j' v' Gj' _ _. destruct (get_ok_inv _ _ Gj') as (R & _). apply A2. lia.
Qed.
Lemma slip_dfs_sim n lnz Li Li' pinv top j xi xi' Lp v : agree (fun i => i < lnz) Li Li' -> okp lnz Lp -> agree (fun i => top <= i < n) xi xi' -> get Lp j = Ok v -> 0 <= v ->
  sim (same_pat n lnz) (slip_dfs n top j Li pinv xi Lp) (slip_dfs n top j Li' pinv xi' Lp).
Proof.
  intros AL HL A Gj Hv. unfold slip_dfs. eapply sim_bind with (R := fun a b => agree _ a b /\ get a 0 = Ok j).
  { pose proof (agree_set 0 j A) as S. destruct (set xi 0 j) as [y| | |] eqn:Y; cbn [sim] in *; auto. destruct (set xi' 0 j); try contradiction. split; [exact S|].
    unfold set in Y. destruct ((0 <=? 0) && (0 <? zlen xi)) eqn:Q; [|discriminate]. apply andb_true_iff in Q. injection Y as <-. change (get (wr xi 0 j) 0 = Ok j). rewrite get_wr, Z.eqb_refl by lia. reflexivity. }
  intros y y' (A1 & G1). apply (@dfs_loop_sim n lnz Li Li' pinv AL); [exact HL| |].
  - eapply agree_sub; [exact (agree_low A1)|]. intros t Ht. cbv beta. lia.
  - intros j' v' Gj' Gv' Hv'. rewrite G1 in Gj'. injection Gj' as <-. rewrite Gj in Gv'. injection Gv' as <-. lia.
Qed.
Lemma slip_reach_sim n lnz Li Li' Ap Ai k pinv xi xi' Lp : agree (fun i => i < lnz) Li Li' -> okp lnz Lp -> zlen xi = zlen xi' ->
  sim (same_pat n lnz) (slip_reach n Li Ap Ai k pinv xi Lp) (slip_reach n Li' Ap Ai k pinv xi' Lp).
Proof.
  intros AL HL L. unfold slip_reach. apply sim_same. intros lo _. apply sim_same. intros hi _. apply sim_bind with (R := same_pat n lnz).
  { apply (@sim_for _ _ lo hi _ _ (fun _ => same_pat n lnz)).
    - split; [reflexivity|]. split; [reflexivity|]. split; [exact HL|]. split; [exact L|]. intros i Hi. lia.
    - intros p [[top x] Lq] [[top' x'] Lq'] _ (<- & <- & HQ & A). apply sim_same. intros i _. apply sim_same. intros v Gv. destruct (Z.ltb_spec v 0); [cbn; auto|]. eapply slip_dfs_sim; eassumption. }
  intros [[top x] Lq] [[top' x'] Lq'] (<- & <- & HQ & A). eapply sim_bind with (R := fun a b => a = b /\ okp lnz a).
  { apply (@sim_for _ _ top n _ _ (fun _ a b => a = b /\ okp lnz a)); [auto|]. intros p a b Hp (<- & HA). rewrite <- (@agree_get _ _ _ p A) by lia. destruct (get x p) as [j| | |]; cbn [bind sim]; auto. destruct (mark a j) eqn:E; cbn; auto. split; [reflexivity|apply (@okp_mark _ _ _ _ HA E)]. }
  intros a b (<- & HA). cbn. auto.
Qed.

(* the pattern in pivot order *)
Lemma map_range_sim n top T xi xi' : agree (fun i => top <= i < n) xi xi' ->
  sim (agree (fun i => top <= i < n)) (for_ top n (fun j xi => let* a := get xi j in let* b := get T a in set xi j b) xi) (for_ top n (fun j xi => let* a := get xi j in let* b := get T a in set xi j b) xi').
Proof.
  intros A. apply (@sim_for _ _ top n _ _ (fun _ => agree (fun i => top <= i < n)) xi xi' A). intros k a b Hk AB. rewrite <- (@agree_get _ _ _ k AB) by lia. apply sim_same. intros v _. apply sim_same. intros w _.
  eapply sim_conseq; [apply (agree_set k w AB)|]. intros x y H. eapply agree_sub; [exact H|]. intros i Hi. left. exact Hi.
Qed.
Lemma get_app2 (a b : list Z) i : zlen a <= i -> get (a ++ b) i = get b (i - zlen a).
Proof.
  intros H. pose proof (zlen_nonneg a). destruct (Z_lt_le_dec (i - zlen a) (zlen b)) as [Q|Q].
  - rewrite !get_rd by (rewrite ?zlen_app; lia). rewrite rd_app2 by lia. reflexivity.
  - rewrite !get_out by (rewrite ?zlen_app; lia). reflexivity.
Qed.
Lemma get_app1 (a b : list Z) i : i < zlen a -> get (a ++ b) i = get a i.
Proof.
  intros H. destruct (Z_lt_le_dec i 0) as [Q|Q]; [rewrite !get_out by lia; reflexivity|]. pose proof (zlen_nonneg b). rewrite !get_rd by (rewrite ?zlen_app; lia). rewrite rd_app1 by lia. reflexivity.
Qed.
Lemma zlen_firstn_le (l : list Z) k : 0 <= k <= zlen l -> zlen (firstn (Z.to_nat k) l) = k.
Proof. intros H. unfold zlen in *. rewrite firstn_length. lia. Qed.
Lemma seg_eq (D : Z -> Prop) a b lo hi : agree D a b -> (forall i, lo <= i < hi -> D i) -> 0 <= lo <= hi -> hi <= zlen a ->
  firstn (Z.to_nat (hi - lo)) (skipn (Z.to_nat lo) a) = firstn (Z.to_nat (hi - lo)) (skipn (Z.to_nat lo) b).
Proof.
  intros A K R H. pose proof (proj1 A) as L. assert (S : forall l : list Z, zlen l = zlen a -> zlen (skipn (Z.to_nat lo) l) = zlen a - lo) by (intros l El; unfold zlen in *; rewrite skipn_length; lia).
  apply list_ext; [rewrite !zlen_firstn_le; rewrite ?S; lia|]. intros i Hi. rewrite zlen_firstn_le in Hi by (rewrite S; lia).
  assert (X : forall l : list Z, zlen l = zlen a -> rd (firstn (Z.to_nat (hi - lo)) (skipn (Z.to_nat lo) l)) i = rd l (lo + i)).
  { intros l El. unfold rd. transitivity (nth (Z.to_nat i) (skipn (Z.to_nat lo) l) 0).
    - rewrite <- (firstn_skipn (Z.to_nat (hi - lo)) (skipn (Z.to_nat lo) l)) at 2. rewrite app_nth1; [reflexivity|]. rewrite firstn_length, skipn_length. unfold zlen in *. lia.
    - replace (Z.to_nat (lo + i)) with (Z.to_nat lo + Z.to_nat i)%nat by lia. generalize (Z.to_nat lo). intros m. revert l El. clear. intros l _. revert l. induction m as [|m IH]; intros l; [reflexivity|]. destruct l as [|c l]; cbn; [destruct (Z.to_nat i); reflexivity|apply IH]. }
  rewrite !X by lia. apply (agree_rd A); [apply K|]; lia.
Qed.
Lemma zlen_sort l : zlen (sort_z l) = zlen l.
Proof.
  assert (I : forall a l, zlen (insert_z a l) = zlen l + 1). { intros a. induction l0 as [|b l0 IH]; [reflexivity|]. cbn [insert_z]. destruct (a <=? b); unfold zlen in *; cbn [length] in *; lia. }
  induction l as [|a l IH]; [reflexivity|]. cbn [sort_z]. rewrite I, IH. unfold zlen. cbn [length]. lia.
Qed.
Lemma sort_range_sim n top xi xi' : agree (fun i => top <= i < n) xi xi' -> sim (agree (fun i => top <= i < n)) (sort_range xi top n) (sort_range xi' top n).
Proof.
  intros A. pose proof (proj1 A) as L. unfold sort_range. rewrite <- L. destruct (Z.leb_spec 0 top); [|exact I]. destruct (Z.leb_spec top n); [|exact I]. destruct (Z.leb_spec n (zlen xi)); [|exact I]. cbn [andb sim].
  assert (E : firstn (Z.to_nat (n - top)) (skipn (Z.to_nat top) xi) = firstn (Z.to_nat (n - top)) (skipn (Z.to_nat top) xi')) by (eapply seg_eq; [exact A|auto|lia|lia]).
  rewrite <- E. set (m := sort_z (firstn (Z.to_nat (n - top)) (skipn (Z.to_nat top) xi))).
  assert (ZM : zlen m = n - top). { unfold m. rewrite zlen_sort, zlen_firstn_le; [reflexivity|]. unfold zlen in *. rewrite skipn_length. lia. }
  assert (Z3 : zlen (skipn (Z.to_nat n) xi) = zlen (skipn (Z.to_nat n) xi')) by (unfold zlen in *; rewrite !skipn_length; lia).
  pose proof (@zlen_firstn_le xi top ltac:(lia)) as Z1. pose proof (@zlen_firstn_le xi' top ltac:(lia)) as Z2.
  split; [rewrite !zlen_app; lia|]. intros i Hi. rewrite (@get_app2 (firstn (Z.to_nat top) xi)), (@get_app2 (firstn (Z.to_nat top) xi')) by lia. rewrite Z1, Z2. rewrite !get_app1 by lia. reflexivity.
Qed.

Definition same_tri (n lnz : Z) (r r' : Z * list Z * list Z * list Z * list Z) : Prop :=
  let '(top, xi, Lp, x, h) := r in let '(top', xi', Lp', x', h') := r' in same_pat n lnz (top, xi, Lp) (top', xi', Lp') /\ x = x' /\ h = h'.
Lemma tri_step_eq n lnz k Lp Li Li' Lx rhos pinv xi xi' top p st : agree (fun i => i < lnz) Li Li' -> okp lnz Lp -> agree (fun i => top <= i < n) xi xi' -> top <= p < n ->
  tri_step k Lp Li Lx rhos pinv xi p st = tri_step k Lp Li' Lx rhos pinv xi' p st.
Proof.
  intros AL HL A Hp. destruct st as [x h]. cbn [tri_step]. rewrite <- (@agree_get _ _ _ p A) by lia. destruct (get xi p) as [j| | |]; cbn [bind]; try reflexivity. destruct (get pinv j) as [jnew| | |]; cbn [bind]; try reflexivity.
  destruct (get x j) as [xj| | |]; cbn [bind]; try reflexivity. destruct (xj =? 0); [reflexivity|]. destruct (jnew <? k); [|reflexivity]. destruct (get h j) as [hj| | |]; cbn [bind]; try reflexivity.
  destruct (hist_update rhos xj hj (jnew - 1)) as [v| | |]; cbn [bind]; try reflexivity. destruct (set x j v) as [x1| | |]; cbn [bind]; try reflexivity. destruct (get Lp jnew) as [lo| | |]; cbn [bind]; try reflexivity.
  destruct (get Lp (jnew + 1)) as [hi| | |] eqn:G; cbn [bind]; try reflexivity. apply sim_eq. apply (@sim_for _ _ lo hi _ _ (fun _ => eq) (x1, h) (x1, h) eq_refl). intros m s t Hm <-. destruct s as [xx hh]. cbn [ipge_update].
  pose proof (@okp_get _ _ _ _ HL G) as (U & _). unfold unflip, flip in U. destruct (Z.ltb_spec hi 0); [rewrite (@get_out _ Li m), (@get_out _ Li' m) by lia; apply sim_refl|]. rewrite <- (@agree_get _ _ _ m AL) by lia. apply sim_refl.
Qed.
Lemma tri_sim n lnz Lp Li Li' Lx Ap Ai Ax k xi xi' q rhos pinv rowp h x : agree (fun i => i < lnz) Li Li' -> okp lnz Lp -> zlen xi = zlen xi' ->
  sim (same_tri n lnz) (slip_ref_triangular_solve n Lp Li Lx Ap Ai Ax k xi q rhos pinv rowp h x) (slip_ref_triangular_solve n Lp Li' Lx Ap Ai Ax k xi' q rhos pinv rowp h x).
Proof.
  intros AL HL L. unfold slip_ref_triangular_solve. apply sim_same. intros col _. eapply sim_bind; [apply (@slip_reach_sim n lnz Li Li' Ap Ai col pinv xi xi' Lp AL HL L)|]. intros [[top x1] Lp1] [[top' x1'] Lp1'] (<- & <- & HL1 & A1).
  eapply sim_bind; [apply (map_range_sim pinv A1)|]. intros x2 x2' A2. eapply sim_bind; [apply (sort_range_sim A2)|]. intros x3 x3' A3. eapply sim_bind; [apply (map_range_sim rowp A3)|]. intros x4 x4' A4.
  eapply sim_bind with (R := eq).
  { apply (@sim_for _ _ top n _ _ (fun _ => eq) x x eq_refl). intros i a b Hi <-. rewrite <- (@agree_get _ _ _ i A4) by lia. apply sim_refl. }
  intros y ? <-. apply sim_same. intros y1 _. eapply sim_bind with (R := eq).
  { apply (@sim_for _ _ top n _ _ (fun _ => eq) h h eq_refl). intros i a b Hi <-. rewrite <- (@agree_get _ _ _ i A4) by lia. apply sim_refl. }
  intros h1 ? <-. apply sim_same. intros lo _. apply sim_same. intros hi _. apply sim_same. intros y2 _. eapply sim_bind with (R := eq).
  { apply (@sim_for _ _ top n _ _ (fun _ => eq) (y2, h1) (y2, h1) eq_refl). intros p a b Hp <-. rewrite (@tri_step_eq n lnz k Lp1 Li Li' Lx rhos pinv x4 x4' top p a AL HL1 A4 Hp). apply sim_refl. }
  intros [y3 h3] ? <-. cbn. auto 10.
Qed.

(* the pivot search looks at the pattern only *)
Lemma first_eligible_eq n top x pivs xi xi' : agree (fun i => top <= i < n) xi xi' -> forall cnt flag, top <= flag -> flag + Z.of_nat cnt <= n \/ cnt = O ->
  first_eligible cnt flag x pivs xi = first_eligible cnt flag x pivs xi'.
Proof.
  intros A. induction cnt as [|cnt IH]; intros flag H1 H2; [reflexivity|]. cbn [first_eligible]. rewrite <- (@agree_get _ _ _ flag A) by lia. destruct (get xi flag) as [i| | |]; cbn [bind]; try reflexivity.
  destruct (get x i) as [v| | |]; cbn [bind]; try reflexivity. destruct (get pivs i) as [pv| | |]; cbn [bind]; try reflexivity. destruct ((pv <? 0) && negb (v =? 0)); [reflexivity|]. apply IH; lia.
Qed.
Lemma first_eligible_ge x pivs xi : forall cnt flag j p v, first_eligible cnt flag x pivs xi = Ok (Some (j, p, v)) -> flag <= j.
Proof.
  induction cnt as [|cnt IH]; intros flag j p v H; [discriminate|]. cbn [first_eligible] in H. destruct (get xi flag) as [i| | |]; cbn [bind] in H; try discriminate.
  destruct (get x i) as [w| | |]; cbn [bind] in H; try discriminate. destruct (get pivs i) as [pv| | |]; cbn [bind] in H; try discriminate. destruct ((pv <? 0) && negb (w =? 0)); [injection H; lia|]. apply IH in H. lia.
Qed.
Lemma smallest_eq n top x pivs xi xi' : agree (fun i => top <= i < n) xi xi' -> slip_get_smallest_pivot x pivs n top xi = slip_get_smallest_pivot x pivs n top xi'.
Proof.
  intros A. unfold slip_get_smallest_pivot. rewrite <- (@first_eligible_eq n top x pivs xi xi' A (Z.to_nat (n - top)) top) by lia. destruct (top >? -1) eqn:T; [|reflexivity].
  destruct (first_eligible (Z.to_nat (n - top)) top x pivs xi) as [[[[j p] v]|]| | |] eqn:F; cbn [bind]; try reflexivity. apply first_eligible_ge in F. apply sim_eq. eapply sim_bind with (R := eq).
  - apply (@sim_for _ _ j n _ _ (fun _ => eq) (p, v) (p, v) eq_refl). intros i a b Hi <-. destruct a. rewrite <- (@agree_get _ _ _ i A) by lia. apply sim_refl.
  - intros a b <-. apply sim_refl.
Qed.
Lemma largest_eq n top x pivs xi xi' : agree (fun i => top <= i < n) xi xi' -> slip_get_largest_pivot x pivs n top xi = slip_get_largest_pivot x pivs n top xi'.
Proof.
  intros A. unfold slip_get_largest_pivot. apply sim_eq. eapply sim_bind with (R := eq).
  - apply (@sim_for _ _ top n _ _ (fun _ => eq) (-1, 0) (-1, 0) eq_refl). intros i a b Hi <-. destruct a. rewrite <- (@agree_get _ _ _ i A) by lia. apply sim_refl.
  - intros a b <-. apply sim_refl.
Qed.
Lemma get_pivot_eq n top env order tol x pivs xi xi' col k rhos pinv rowp : agree (fun i => top <= i < n) xi xi' ->
  slip_get_pivot env order tol x pivs n top xi col k rhos pinv rowp = slip_get_pivot env order tol x pivs n top xi' col k rhos pinv rowp.
Proof.
  intros A. unfold slip_get_pivot. replace (choose_pivot env order tol x pivs n top xi' col) with (choose_pivot env order tol x pivs n top xi col); [reflexivity|].
  unfold choose_pivot. unfold slip_get_nonzero_pivot. rewrite <- (@first_eligible_eq n top x pivs xi xi' A (Z.to_nat (n - top)) top) by lia. rewrite <- (smallest_eq x pivs A), <- (largest_eq x pivs A). reflexivity.
Qed.

(* two states that differ in memory that was never written *)
Record same_st (s t : fstate) : Prop := {
  ss_Lp : F_Lp s = F_Lp t;  ss_Lx : F_Lx s = F_Lx t;  ss_Up : F_Up s = F_Up t;  ss_Ux : F_Ux s = F_Ux t;  ss_lnz : F_lnz s = F_lnz t;  ss_unz : F_unz s = F_unz t;
  ss_pinv : F_pinv s = F_pinv t;  ss_rowp : F_rowp s = F_rowp t;  ss_pivs : F_pivs s = F_pivs t;  ss_h : F_h s = F_h t;  ss_x : F_x s = F_x t;  ss_rhos : F_rhos s = F_rhos t;
  ss_xi : zlen (F_xi s) = zlen (F_xi t);
  ss_Li : agree (fun i => i < F_lnz s) (F_Li s) (F_Li t);  ss_Ui : agree (fun i => i < F_unz s) (F_Ui s) (F_Ui t);
  ss_okp : okp (F_lnz s) (F_Lp s);  ss_l : 0 <= F_lnz s <= zlen (F_Li s);  ss_u : 0 <= F_unz s <= zlen (F_Ui s) }.
Lemma zlen_fresh f k : zlen (fresh f k) = Z.max 0 k.
Proof. unfold fresh, zseq, zlen. rewrite !map_length, seq_length. lia. Qed.
Lemma realloc_agree lnz f Mi Mi' Mx : agree (fun i => i < lnz) Mi Mi' -> lnz <= zlen Mi ->
  agree (fun i => i < lnz) (fst (sparse_realloc_u f Mi Mx)) (fst (sparse_realloc Mi' Mx)) /\ snd (sparse_realloc_u f Mi Mx) = snd (sparse_realloc Mi' Mx) /\ zlen Mi <= zlen (fst (sparse_realloc_u f Mi Mx)).
Proof.
  intros (L & A) H. unfold sparse_realloc_u, sparse_realloc. cbn [fst snd]. pose proof (zlen_nonneg Mi'). pose proof (zlen_nonneg (fresh f (zlen Mi))). split; [|split; [reflexivity|rewrite zlen_app; lia]].
  split; [rewrite !zlen_app, zlen_fresh, zlen_mk; lia|]. intros i Hi. rewrite !get_app1 by lia. auto.
Qed.
Lemma push_sim k xi xi' pinv x j (D : Z -> Prop) Li Li' Lx Ui Ui' Ux lnz unz : agree D xi xi' -> D j -> agree (fun i => i < lnz) Li Li' -> agree (fun i => i < unz) Ui Ui' -> 0 <= lnz <= zlen Li -> 0 <= unz <= zlen Ui ->
  sim (fun '(Li, Lx, Ui, Ux, lnz', unz') '(Li', Lx', Ui', Ux', lnz'', unz'') => Lx = Lx' /\ Ux = Ux' /\ lnz' = lnz'' /\ unz' = unz'' /\
        agree (fun i => i < lnz') Li Li' /\ agree (fun i => i < unz') Ui Ui' /\ lnz <= lnz' <= zlen Li /\ 0 <= unz' <= zlen Ui)
    (push_LU k xi pinv x j (Li, Lx, Ui, Ux, lnz, unz)) (push_LU k xi' pinv x j (Li', Lx, Ui', Ux, lnz, unz)).
Proof.
  intros A Hj AL AU HL HU. unfold push_LU. rewrite <- (@agree_get _ _ _ j A Hj). apply sim_same. intros jnew _. apply sim_same. intros loc _. apply sim_same. intros v _.
  assert (SET : forall M M' w p, agree (fun i => i < p) M M' -> 0 <= p <= zlen M -> sim (fun a b => agree (fun i => i < p + 1) a b /\ p + 1 <= zlen a) (set M p w) (set M' p w)).
  { intros M M' w p AM HM. pose proof (agree_set p w AM) as S. destruct (set M p w) as [y| | |] eqn:Y; cbn [sim] in *; auto. destruct (set M' p w); try contradiction. split; [eapply agree_sub; [exact S|]; intros i Hi; cbv beta; lia|].
    unfold set in Y. destruct ((0 <=? p) && (p <? zlen M)) eqn:Q; [|discriminate]. apply andb_true_iff in Q. injection Y as <-. rewrite zlen_upd. lia. }
  eapply sim_bind with (R := fun '(Ui, Ux, u) '(Ui', Ux', u') => Ux = Ux' /\ u = u' /\ agree (fun i => i < u) Ui Ui' /\ 0 <= u <= zlen Ui).
  { destruct (loc <=? k); [|cbn; auto]. eapply sim_bind; [apply (SET _ _ jnew _ AU HU)|]. intros a b (AB & Z1). apply sim_same. intros y _. cbn. split; [reflexivity|]. split; [reflexivity|]. split; [exact AB|lia]. }
  intros [[U1 X1] u1] [[U1' X1'] u1'] (<- & <- & AU1 & HU1). eapply sim_bind with (R := fun '(Li, Lx, u) '(Li', Lx', u') => Lx = Lx' /\ u = u' /\ agree (fun i => i < u) Li Li' /\ lnz <= u <= zlen Li).
  { destruct (loc >=? k); [|cbn; split; [reflexivity|]; split; [reflexivity|]; split; [exact AL|lia]]. eapply sim_bind; [apply (SET _ _ jnew _ AL HL)|]. intros a b (AB & Z1). apply sim_same. intros y _. cbn. split; [reflexivity|]. split; [reflexivity|]. split; [exact AB|lia]. }
  intros [[L1 Y1] l1] [[L1' Y1'] l1'] (<- & <- & AL1 & HL1). cbn [sim]. auto 10.
Qed.
Lemma okp_mono a b Lp : a <= b -> okp a Lp -> okp b Lp.
Proof. intros H K i Hi. destruct (K i Hi). split; [lia|assumption]. Qed.
Lemma factor_step_sim u env order tol n Ap Ai Ax q k s t : same_st s t -> sim same_st (factor_step_u u env order tol n Ap Ai Ax q k s) (factor_step env order tol n Ap Ai Ax q k t).
Proof.
  intros []. destruct s as [Lp Li Lx Up Ui Ux lnz unz pinv rowp pivs h xi x rhos], t as [Lp' Li' Lx' Up' Ui' Ux' lnz' unz' pinv' rowp' pivs' h' xi' x' rhos']. cbn [F_Lp F_Li F_Lx F_Up F_Ui F_Ux F_lnz F_unz F_pinv F_rowp F_pivs F_h F_xi F_x F_rhos] in *. subst.
  unfold factor_step_u, factor_step. cbn [F_Lp F_Li F_Lx F_Up F_Ui F_Ux F_lnz F_unz F_pinv F_rowp F_pivs F_h F_xi F_x F_rhos].
  apply sim_same. intros Lp E1. apply sim_same. intros Up _. apply sim_same. intros col _.
  assert (OK : okp lnz' Lp).
  { unfold set in E1. destruct ((0 <=? k) && (k <? zlen Lp')) eqn:Q; [|discriminate]. apply andb_true_iff in Q. injection E1 as <-. fold (wr Lp' k lnz'). intros i Hi. rewrite zlen_wr in Hi. rewrite rd_wr by lia. destruct (Z.eqb_spec i k); [|auto]. unfold unflip. destruct (Z.ltb_spec lnz' 0); lia. }
  set (a := if lnz' + n >? zlen Li then sparse_realloc_u (u_Li u k) Li Lx' else (Li, Lx')). set (a' := if lnz' + n >? zlen Li' then sparse_realloc Li' Lx' else (Li', Lx')).
  assert (HA : agree (fun i => i < lnz') (fst a) (fst a') /\ snd a = snd a' /\ zlen Li <= zlen (fst a)).
  { unfold a, a'. rewrite <- (proj1 ss_Li0). destruct (lnz' + n >? zlen Li); [apply realloc_agree; [assumption|lia]|cbn [fst snd]; split; [assumption|split; [reflexivity|lia]]]. }
  set (b := if unz' + n >? zlen Ui then sparse_realloc_u (u_Ui u k) Ui Ux' else (Ui, Ux')). set (b' := if unz' + n >? zlen Ui' then sparse_realloc Ui' Ux' else (Ui', Ux')).
  assert (HB : agree (fun i => i < unz') (fst b) (fst b') /\ snd b = snd b' /\ zlen Ui <= zlen (fst b)).
  { unfold b, b'. rewrite <- (proj1 ss_Ui0). destruct (unz' + n >? zlen Ui); [apply realloc_agree; [assumption|lia]|cbn [fst snd]; split; [assumption|split; [reflexivity|lia]]]. }
  clearbody a a' b b'. destruct a as [Li1 Lx1], a' as [Li1' Lx1'], b as [Ui1 Ux1], b' as [Ui1' Ux1']. cbn [fst snd] in *. destruct HA as (AL & <- & ZL), HB as (AU & <- & ZU).
  eapply sim_bind; [apply (@tri_sim n lnz' Lp Li1 Li1' Lx1 Ap Ai Ax k xi xi' q rhos' pinv' rowp' h' x' AL OK ss_xi0)|]. intros [[[[top x1] Lp1] y] h1] [[[[top' x1'] Lp1'] y'] h1'] ((<- & <- & OK1 & A1) & <- & <-).
  rewrite <- (@get_pivot_eq n top env order tol y pivs' x1 x1' col k rhos' pinv' rowp' A1). apply sim_same. intros [[[[piv rh] pi] rp] pv] _.
  eapply sim_bind with (R := fun '(Li, Lx, Ui, Ux, lnz, unz) '(Li', Lx', Ui', Ux', lnz'', unz'') => Lx = Lx' /\ Ux = Ux' /\ lnz = lnz'' /\ unz = unz'' /\ agree (fun i => i < lnz) Li Li' /\ agree (fun i => i < unz) Ui Ui' /\ lnz' <= lnz <= zlen Li /\ 0 <= unz <= zlen Ui).
  { apply (@sim_for _ _ top n _ _ (fun _ '(Li, Lx, Ui, Ux, lnz, unz) '(Li', Lx', Ui', Ux', lnz'', unz'') => Lx = Lx' /\ Ux = Ux' /\ lnz = lnz'' /\ unz = unz'' /\ agree (fun i => i < lnz) Li Li' /\ agree (fun i => i < unz) Ui Ui' /\ lnz' <= lnz <= zlen Li /\ 0 <= unz <= zlen Ui)).
    - repeat (split; [reflexivity|]). split; [exact AL|]. split; [exact AU|]. lia.
    - intros j [[[[[L2 X2] U2] Y2] l2] u2] [[[[[L2' X2'] U2'] Y2'] l2'] u2'] Hj (<- & <- & <- & <- & AL2 & AU2 & HL2 & HU2).
      eapply sim_conseq; [apply (@push_sim k x1 x1' pi y j (fun i => top <= i < n) L2 L2' X2 U2 U2' Y2 l2 u2 A1 Hj AL2 AU2 ltac:(lia) HU2)|].
      intros [[[[[L3 X3] U3] Y3] l3] u3] [[[[[L3' X3'] U3'] Y3'] l3'] u3'] (<- & <- & <- & <- & AL3 & AU3 & HL3 & HU3). repeat (split; [reflexivity|]). split; [exact AL3|]. split; [exact AU3|]. lia. }
  intros [[[[[L3 X3] U3] Y3] l3] u3] [[[[[L3' X3'] U3'] Y3'] l3'] u3'] (<- & <- & <- & <- & AL3 & AU3 & HL3 & HU3). cbn [sim]. constructor; cbn; try reflexivity; try assumption; try lia; [apply A1|eapply okp_mono; [|exact OK1]; lia].
Qed.
Lemma init_u u n lnz0 unz0 : exists s, factor_init_u u n lnz0 unz0 = Ok s /\ same_st s (factor_init n lnz0 unz0).
Proof.
  unfold factor_init_u.
  assert (W : wp (for_ 0 n (fun i '(h, pivs, pinv, rowp) => let* h := set h i (-1) in let* pivs := set pivs i (-1) in let* pinv := set pinv i i in let* rowp := set rowp i i in Ok (h, pivs, pinv, rowp))
    (fresh (u_h u) n, fresh (u_pivs u) n, fresh (u_pinv u) n, fresh (u_rowp u) n)) (fun '(h, pivs, pinv, rowp) => h = mk n (-1) /\ pivs = mk n (-1) /\ pinv = zseq 0 n /\ rowp = zseq 0 n) nerr).
  { destruct (Z_lt_le_dec n 0) as [Hn|Hn].
    - rewrite for_empty by lia. cbn [wp]. assert (E : forall f, fresh f n = []) by (intros f; destruct (fresh f n) eqn:E; [reflexivity|]; pose proof (zlen_fresh f n) as Z0; rewrite E in Z0; unfold zlen in Z0; cbn [length] in Z0; lia).
      rewrite !E. unfold mk, zseq. replace (Z.to_nat n) with O by lia. replace (Z.to_nat (n - 0)) with O by lia. auto.
    - eapply wp_conseq; [apply wp_for with (I := fun k '(h, pivs, pinv, rowp) => zlen h = n /\ zlen pivs = n /\ zlen pinv = n /\ zlen rowp = n /\ forall i, 0 <= i < k -> rd h i = -1 /\ rd pivs i = -1 /\ rd pinv i = i /\ rd rowp i = i); [exact Hn| |]|].
      + rewrite !zlen_fresh. repeat split; lia.
      + intros k [[[h pv] pi] rp] Hk (L1 & L2 & L3 & L4 & H). apply wp_bind. apply wp_set; [lia|]. apply wp_bind. apply wp_set; [lia|]. apply wp_bind. apply wp_set; [lia|]. apply wp_bind. apply wp_set; [lia|]. cbn [wp]. rewrite !zlen_wr. repeat (split; [assumption|]).
        intros i Hi. rewrite !rd_wr by lia. destruct (Z.eqb_spec i k); [auto|]. apply H. lia.
      + intros [[[h pv] pi] rp] (L1 & L2 & L3 & L4 & H). cbv beta. repeat split; apply list_ext; rewrite ?zlen_mk, ?zlen_zseq by lia; try lia; intros i Hi; rewrite ?rd_mk, ?rd_zseq by lia; destruct (H i) as (Q1 & Q2 & Q3 & Q4); lia. }
  apply wp_ok_ex in W. destruct W as ([[[h pv] pi] rp] & E & -> & -> & -> & ->). rewrite E. cbn [bind]. eexists. split; [reflexivity|]. unfold factor_init. constructor; cbn [F_Lp F_Li F_Lx F_Up F_Ui F_Ux F_lnz F_unz F_pinv F_rowp F_pivs F_h F_xi F_x F_rhos]; try reflexivity.
  - rewrite zlen_fresh. unfold mk, zlen. rewrite repeat_length. lia.
  - split; [reflexivity|]. auto.
  - split; [reflexivity|]. auto.
  - intros i Hi. rewrite rd_mk0. cbn. lia.
  - split; [lia|apply zlen_nonneg].
  - split; [lia|apply zlen_nonneg].
Qed.
Lemma firstn_agree k a b : agree (fun i => i < k) a b -> 0 <= k <= zlen a -> firstn (Z.to_nat k) a = firstn (Z.to_nat k) b.
Proof. intros A H. pose proof (@seg_eq (fun i => i < k) a b 0 k A ltac:(cbv beta; intros; lia) ltac:(lia) ltac:(lia)) as E. rewrite Z.sub_0_r in E. exact E. Qed.
Theorem factorize_core_uninit u env order tol n Ap Ai Ax q lnz0 unz0 : factorize_core_u u env order tol n Ap Ai Ax q lnz0 unz0 = factorize_core env order tol n Ap Ai Ax q lnz0 unz0.
Proof.
  apply sim_eq. unfold factorize_core_u, factorize_core. destruct (init_u u n lnz0 unz0) as (s0 & -> & S0). cbn [bind]. eapply sim_bind.
  { apply (@sim_for _ _ 0 n _ _ (fun _ => same_st) s0 (factor_init n lnz0 unz0) S0). intros k s t _ H. apply factor_step_sim. exact H. }
  intros s t []. destruct s as [Lp Li Lx Up Ui Ux lnz unz pinv rowp pivs h xi x rhos], t as [Lp' Li' Lx' Up' Ui' Ux' lnz' unz' pinv' rowp' pivs' h' xi' x' rhos']. cbn [F_Lp F_Li F_Lx F_Up F_Ui F_Ux F_lnz F_unz F_pinv F_rowp F_pivs F_h F_xi F_x F_rhos] in *. subst.
  rewrite (firstn_agree ss_Li0 ss_l0), (firstn_agree ss_Ui0 ss_u0). apply sim_refl.
Qed.
