(* The checked int64_t arithmetic of MInt64.v never leaves its range where the unbounded model is defined: factorization and solve. *)
From Verif Require Import Base MFactor MSolve MMatrix MApi MInt64.
Set Implicit Arguments.
Open Scope Z_scope.

Definition sim {A} (m m' : res A) (Q : A -> Prop) : Prop := m = UB \/ (m' = m /\ forall a, m = Ok a -> Q a).
Definition LIM := 2 ^ 61.
Definition i64 (z : Z) : Prop := INT64_MIN <= z <= INT64_MAX.
Definition sm (z : Z) : Prop := - LIM - 2 <= z <= LIM.
Definition allsm (l : list Z) : Prop := forall a, In a l -> sm a.

Ltac sp := repeat match goal with |- _ /\ _ => split end.
Ltac num := unfold i64, sm, LIM, INT64_MIN, INT64_MAX in *; lia.

Lemma ck_ok z : i64 z -> ck z = Ok z.
Proof. unfold ck, i64; intros [? ?]. destruct (Z.leb_spec INT64_MIN z), (Z.leb_spec z INT64_MAX); simpl; auto; lia. Qed.
Lemma ck_or z : (ck z = Ok z /\ i64 z) \/ (ck z = UB /\ ~ i64 z).
Proof.
  unfold ck, i64. destruct (Z.leb_spec INT64_MIN z), (Z.leb_spec z INT64_MAX); simpl; auto; right; split; auto; lia.
Qed.

Lemma sim_ret A (a : A) (Q : A -> Prop) : Q a -> sim (Ok a) (Ok a) Q.
Proof. right; split; auto. intros b [= <-]; auto. Qed.
Lemma sim_refl A (m : res A) (Q : A -> Prop) : (forall a, m = Ok a -> Q a) -> sim m m Q.
Proof. right; auto. Qed.
Lemma sim_err A e (Q : A -> Prop) : sim (Err e) (Err e) Q.
Proof. right; split; auto. discriminate. Qed.
Lemma sim_fuel A (Q : A -> Prop) : sim Fuel Fuel Q.
Proof. right; split; auto. discriminate. Qed.
Lemma sim_ub A m' (Q : A -> Prop) : sim UB m' Q.
Proof. left; auto. Qed.
Lemma sim_mono A (m m' : res A) (P Q : A -> Prop) : sim m m' P -> (forall a, P a -> Q a) -> sim m m' Q.
Proof. intros [->|[-> H]] HQ; [left; auto|right; split; auto]. Qed.
Lemma sim_bind A B (m m' : res A) P (k k' : A -> res B) Q :
  sim m m' P -> (forall a, P a -> sim (k a) (k' a) Q) -> sim (bind m k) (bind m' k') Q.
Proof.
  intros [->|[-> H]] HK; [left; auto|]. destruct m; simpl; auto using sim_err, sim_ub, sim_fuel.
Qed.
Lemma sim_ck A (m : res A) z k' Q : i64 z -> sim m (k' z) Q -> sim m (bind (ck z) k') Q.
Proof. intros H S. now rewrite (ck_ok H). Qed.

Lemma get_in A (l : list A) i v : get l i = Ok v -> 0 <= i < zlen l /\ In v l.
Proof.
  unfold get, zlen. destruct (Z.ltb_spec i 0); [discriminate|]. destruct (nth_error l (Z.to_nat i)) eqn:E; [|discriminate].
  intros [= <-]. split; [|eapply nth_error_In; eauto]. assert (Z.to_nat i < length l)%nat by (apply nth_error_Some; congruence). lia.
Qed.
Lemma get_out A (l : list A) i : i < 0 \/ zlen l <= i -> get l i = UB.
Proof.
  unfold get, zlen. intros H. destruct (Z.ltb_spec i 0); auto.
  replace (nth_error l (Z.to_nat i)) with (@None A); auto. symmetry; apply nth_error_None. lia.
Qed.
Lemma in_upd A (l : list A) k v a : In a (upd l k v) -> a = v \/ In a l.
Proof.
  revert k; induction l as [|b l IH]; intros [|k]; simpl; auto.
  - intros [<-|H]; auto.
  - intros [<-|H]; auto. destruct (IH _ H); auto.
Qed.
Lemma set_in A (l : list A) i v l' : set l i v = Ok l' -> 0 <= i < zlen l /\ zlen l' = zlen l /\ (forall a, In a l' -> a = v \/ In a l).
Proof.
  unfold set. destruct (Z.leb_spec 0 i); [|discriminate]. destruct (Z.ltb_spec i (zlen l)); [|discriminate].
  simpl. intros [= <-]. rewrite zlen_upd. split; [lia|split; auto]. apply in_upd.
Qed.
Lemma set_out A (l : list A) i v : i < 0 \/ zlen l <= i -> set l i v = UB.
Proof. unfold set. intros H. destruct (Z.leb_spec 0 i); auto. destruct (Z.ltb_spec i (zlen l)); auto. lia. Qed.

Lemma sim_get A B (l : list A) i (k k' : A -> res B) Q :
  (forall v, 0 <= i < zlen l -> In v l -> sim (k v) (k' v) Q) -> sim (bind (get l i) k) (bind (get l i) k') Q.
Proof.
  intros H. destruct (get l i) eqn:E; simpl; auto using sim_err, sim_ub, sim_fuel. apply get_in in E as [? ?]. auto.
Qed.
Lemma sim_set A B (l : list A) i v (k k' : list A -> res B) Q :
  (forall l', 0 <= i < zlen l -> zlen l' = zlen l -> (forall a, In a l' -> a = v \/ In a l) -> sim (k l') (k' l') Q) ->
  sim (bind (set l i v) k) (bind (set l i v) k') Q.
Proof.
  intros H. destruct (set l i v) eqn:E; simpl; auto using sim_err, sim_ub, sim_fuel. apply set_in in E as [? [? ?]]. auto.
Qed.
Lemma sim_setret A (l : list A) i v (Q : list A -> Prop) :
  (forall l', 0 <= i < zlen l -> zlen l' = zlen l -> (forall a, In a l' -> a = v \/ In a l) -> Q l') -> sim (set l i v) (set l i v) Q.
Proof. intros H. apply sim_refl. intros l' E. apply set_in in E as [? [? ?]]. auto. Qed.
Lemma sim_ckget A B (l : list A) z (k : A -> res B) k' Q :
  zlen l <= LIM -> (forall v, 0 <= z < zlen l -> In v l -> sim (k v) (k' z v) Q) ->
  sim (bind (get l z) k) (bind (ck z) (fun z => bind (get l z) (k' z))) Q.
Proof.
  intros HL H. destruct (ck_or z) as [[-> C]|[-> C]].
  - simpl. apply sim_get; auto.
  - left. rewrite get_out; auto. num.
Qed.
Lemma sim_ckset A B (l : list A) z v (k : list A -> res B) k' Q :
  zlen l <= LIM -> (forall l', 0 <= z < zlen l -> zlen l' = zlen l -> (forall a, In a l' -> a = v \/ In a l) -> sim (k l') (k' z l') Q) ->
  sim (bind (set l z v) k) (bind (ck z) (fun z => bind (set l z v) (k' z))) Q.
Proof.
  intros HL H. destruct (ck_or z) as [[-> C]|[-> C]].
  - simpl. apply sim_set; auto.
  - left. rewrite set_out; auto. num.
Qed.

Lemma sim_floop S (I : Z -> S -> Prop) body body' cnt : forall i s,
  I i s ->
  (forall j s, i <= j < i + Z.of_nat cnt -> I j s -> sim (body j s) (body' j s) (fun s' => I (j + 1) s' /\ i64 (j + 1))) ->
  sim (floop cnt i body s) (floop64 cnt i body' s) (fun s' => I (i + Z.of_nat cnt) s').
Proof.
  induction cnt as [|c IH]; intros i s HI HB; cbn [floop floop64].
  - apply sim_ret. now rewrite Z.add_0_r.
  - eapply sim_bind; [apply HB; auto; lia|]. intros s' [HI' R]. cbv beta. apply sim_ck; auto.
    eapply sim_mono; [apply IH; auto|].
    + intros j t Hj. apply HB. lia.
    + cbv beta. intros a. replace (i + 1 + Z.of_nat c) with (i + Z.of_nat (Datatypes.S c)) by lia. auto.
Qed.
Lemma sim_for S (I : Z -> S -> Prop) lo hi body body' s :
  I lo s ->
  (forall j s, lo <= j < hi -> I j s -> sim (body j s) (body' j s) (fun s' => I (j + 1) s' /\ i64 (j + 1))) ->
  sim (for_ lo hi body s) (for64 lo hi body' s) (fun s' => I (Z.max lo hi) s').
Proof.
  intros HI HB. unfold for_, for64. eapply sim_mono; [eapply (@sim_floop S I); eauto|].
  - intros j t Hj. apply HB. lia.
  - cbv beta. intros a. destruct (Z.le_gt_cases lo hi).
    + rewrite Z.max_r by lia. now replace (lo + Z.of_nat (Z.to_nat (hi - lo))) with hi by lia.
    + rewrite Z.max_l by lia. now replace (lo + Z.of_nat (Z.to_nat (hi - lo))) with lo by lia.
Qed.
(* an invariant that does not mention the counter *)
Lemma sim_forc S (I : S -> Prop) lo hi body body' s :
  I s -> (forall j s, lo <= j < hi -> I s -> sim (body j s) (body' j s) (fun s' => I s' /\ i64 (j + 1))) ->
  sim (for_ lo hi body s) (for64 lo hi body' s) I.
Proof. intros. eapply sim_mono; [apply (@sim_for S (fun _ => I)); auto|auto]. Qed.
Lemma sim_down S (I : S -> Prop) hi lo body body' s :
  i64 (hi - 1) -> I s -> (forall j s, lo <= j < hi -> I s -> sim (body j s) (body' j s) (fun s' => I s' /\ i64 (j - 1))) ->
  sim (down_ hi lo body s) (down64 hi lo body' s) I.
Proof.
  intros H0 HI HB. unfold down_, down64. apply sim_ck; auto. clear H0.
  assert (G : forall cnt i s, (forall j s, i - Z.of_nat cnt < j <= i -> I s -> sim (body j s) (body' j s) (fun s' => I s' /\ i64 (j - 1))) ->
            I s -> sim (dloop cnt i body s) (dloop64 cnt i body' s) I).
  { induction cnt as [|c IH]; intros i t HB' HI'; cbn [dloop dloop64].
    - apply sim_ret; auto.
    - eapply sim_bind; [apply HB'; auto; lia|]. intros s' [HI2 R]. cbv beta. apply sim_ck; auto. apply IH; auto.
      intros j u Hj. apply HB'. lia. }
  apply G; auto. intros j t Hj. apply HB. lia.
Qed.

Ltac sg := apply sim_get; intros ? ? ?.
Ltac ss := apply sim_set; intros ? ? ? ?.

(*----------------------------------------------------------------------------*)
(* factorization *)
Lemma flip64_eq v : sm v -> flip64 v = Ok (flip v) /\ sm (flip v).
Proof.
  intros H. unfold flip64, flip. rewrite ck_ok by num. simpl. rewrite ck_ok by num. split; auto. num.
Qed.
Lemma unflip64_eq v : sm v -> unflip64 v = Ok (unflip v) /\ sm (unflip v).
Proof. intros H. unfold unflip64, unflip. destruct (v <? 0); auto. now apply flip64_eq. Qed.
Lemma mark_sim Lp j : allsm Lp -> sim (mark Lp j) (mark64 Lp j) (fun Lp' => zlen Lp' = zlen Lp /\ allsm Lp').
Proof.
  intros H. unfold mark, mark64. sg. destruct (flip64_eq (H _ H1)) as [-> S]. simpl. apply sim_setret.
  intros l' _ Hz Hc. split; auto. intros a Ha. destruct (Hc _ Ha) as [->|]; auto.
Qed.

Lemma dfs_scan_sim Lp Li cnt : zlen Li <= LIM -> forall p,
  sim (dfs_scan cnt p Lp Li) (dfs_scan64 cnt p Lp Li) (fun _ => True).
Proof.
  intros HL. induction cnt as [|c IH]; intros p; cbn [dfs_scan dfs_scan64]; [apply sim_ret; auto|].
  sg. sg. destruct (_ <? 0); [|apply sim_ret; auto]. apply sim_ck; auto. num.
Qed.

Section Dfs.
Variables (n : Z) (Li pinv : list Z).
Hypotheses (Hn : 0 <= n <= 2 ^ 30) (HLi : zlen Li <= LIM).
Definition Pdfs (X P : Z) (r : Z * list Z * list Z) : Prop :=
  let '(top, xi, Lp) := r in 0 <= top <= n /\ zlen xi = X /\ zlen Lp = P /\ allsm Lp.

Lemma dfs_loop_sim X P fuel : X <= LIM -> P <= LIM -> forall head top xi Lp, Pdfs X P (top, xi, Lp) ->
  sim (dfs_loop fuel n Li pinv head top xi Lp) (dfs_loop64 fuel n Li pinv head top xi Lp) (Pdfs X P).
Proof.
  intros HX HP. induction fuel as [|f IH]; intros head top xi Lp Hi; cbn [dfs_loop dfs_loop64]; [apply sim_fuel|].
  destruct (Z.ltb_spec head 0); [apply sim_ret; auto|].
  destruct Hi as [Ht [Hx [Hp Hs]]].
  apply sim_get. intros j Hj _. apply sim_get. intros jnew Hjj _. apply sim_get. intros v Hv _.
  apply (@sim_bind _ _ _ _ (fun st : list Z * list Z => let '(xi1, Lp1) := st in zlen xi1 = X /\ zlen Lp1 = P /\ allsm Lp1)).
  { destruct (v <? 0); [apply sim_ret; auto|].
    eapply sim_bind; [apply mark_sim; auto|]. intros Lp1 [L1 S1].
    apply (@sim_bind _ _ _ _ (fun _ => True)).
    - destruct (jnew <? 0); [apply sim_ret; auto|]. sg. destruct (unflip64_eq (S1 _ H1)) as [-> _]. apply sim_ret; auto.
    - intros s _. ss. apply sim_ret. sp; auto; lia. }
  intros [xi1 Lp1] [X1 [P1 S1]].
  apply (@sim_bind _ _ _ _ (fun _ => True)).
  { destruct (jnew <? 0); [apply sim_ret; auto|]. apply sim_ckget; [lia|]. intros w _ Hw.
    destruct (unflip64_eq (S1 _ Hw)) as [-> _]. apply sim_ret; auto. }
  intros p2 _. sg. eapply sim_bind; [apply dfs_scan_sim; auto|]. intros [[p i]|] _.
  - ss. apply sim_ckset; [lia|]. intros xi3 _ X3 _. apply IH. unfold Pdfs. sp; auto; lia.
  - apply sim_ck; [num|]. apply sim_ckset; [lia|]. intros xi2 Hb X2 _. apply IH. unfold Pdfs. sp; auto; lia.
Qed.

Lemma slip_dfs_sim X P top j xi Lp : X <= LIM -> P <= LIM -> Pdfs X P (top, xi, Lp) ->
  sim (slip_dfs n top j Li pinv xi Lp) (slip_dfs64 n top j Li pinv xi Lp) (Pdfs X P).
Proof.
  intros HX HP Hi. unfold slip_dfs, slip_dfs64. ss. apply dfs_loop_sim; auto.
  destruct Hi as [? [? [? ?]]]. unfold Pdfs. sp; auto; lia.
Qed.

Lemma slip_reach_sim X P Ap Ai k xi Lp : X <= LIM -> P <= LIM -> zlen Ap <= LIM -> zlen Ai <= LIM -> zlen xi = X -> zlen Lp = P -> allsm Lp ->
  sim (slip_reach n Li Ap Ai k pinv xi Lp) (slip_reach64 n Li Ap Ai k pinv xi Lp) (Pdfs X P).
Proof.
  intros HX HP HAp HAi Ex EL HS. unfold slip_reach, slip_reach64. sg. apply sim_ckget; auto. intros hi _ _.
  eapply sim_bind.
  { apply (@sim_forc _ (Pdfs X P)).
    - unfold Pdfs. sp; auto; lia.
    - intros p [[top xi'] Lp'] _ Hi. sg. sg. destruct (_ <? 0).
      + apply sim_ret. split; auto. num.
      + eapply sim_mono; [apply slip_dfs_sim with (X := X) (P := P); auto|]. intros a Ha. split; auto. num. }
  intros [[top xi'] Lp'] [Ht [Hx [Hp Hs]]]. cbv beta iota.
  eapply sim_bind.
  { apply (@sim_forc _ (fun Lp => zlen Lp = P /\ allsm Lp)); auto.
    intros p L _ [L1 S1]. sg. eapply sim_mono; [apply mark_sim; auto|]. intros a [? ?]. sp; auto; num. }
  intros L [L1 S1]. apply sim_ret. unfold Pdfs. auto.
Qed.
End Dfs.

Section Tri.
Variables (pinv Li : list Z).
Hypotheses (Hpinv : allsm pinv) (HLi : zlen Li <= LIM).

Lemma ipge_sim Lx rhos j jnew m st : sm jnew ->
  sim (ipge_update Lx Li rhos pinv j jnew m st) (ipge_update64 Lx Li rhos pinv j jnew m st) (fun _ => i64 (m + 1)).
Proof.
  intros Hj. destruct st as [x h]. unfold ipge_update, ipge_update64. sg.
  assert (R : i64 (m + 1)) by num. sg.
  destruct (_ >? jnew); [|apply sim_ret; auto]. sg. destruct (_ =? 0); [apply sim_ret; auto|]. sg. sg.
  destruct (_ =? 0); destruct (jnew <? 1).
  - apply sim_refl; auto.
  - apply sim_ck; [num|]. apply sim_refl; auto.
  - apply sim_refl; auto.
  - sg. apply sim_ck; [num|]. apply sim_refl; auto.
Qed.

Lemma tri_step_sim k Lp Lx rhos xi p st : zlen Lp <= LIM -> zlen xi <= LIM -> 0 <= k <= LIM ->
  sim (tri_step k Lp Li Lx rhos pinv xi p st) (tri_step64 k Lp Li Lx rhos pinv xi p st) (fun _ => i64 (p + 1)).
Proof.
  intros HP HX Hk. destruct st as [x h]. unfold tri_step, tri_step64. sg. assert (R : i64 (p + 1)) by num.
  sg. sg. destruct (_ =? 0); [apply sim_ret; auto|].
  match goal with H : In ?v pinv |- _ => rename v into jnew; apply Hpinv in H end.
  destruct (jnew <? k).
  - sg. apply sim_ck; [num|]. eapply sim_bind; [apply sim_refl; intros; exact I|]. intros ? _. ss. sg.
    apply sim_ckget; auto. intros hi _ _. eapply sim_mono; [apply (@sim_forc _ (fun _ => True)); auto|auto].
    intros m st _ _. eapply sim_mono; [apply ipge_sim; auto|auto].
  - sg. apply sim_ck; [num|]. apply sim_refl; auto.
Qed.

Lemma tri_solve_sim n Lp Lx Ap Ai Ax k xi q rhos row_perm h x X P : 0 <= n <= 2 ^ 30 -> X <= LIM -> P <= LIM ->
  zlen Ap <= LIM -> zlen Ai <= LIM -> zlen xi = X -> zlen Lp = P -> allsm Lp -> 0 <= k <= LIM ->
  sim (slip_ref_triangular_solve n Lp Li Lx Ap Ai Ax k xi q rhos pinv row_perm h x)
      (slip_ref_triangular_solve64 n Lp Li Lx Ap Ai Ax k xi q rhos pinv row_perm h x)
      (fun r => let '(top, xi, Lp, x, h) := r in 0 <= top <= n /\ zlen xi = X /\ zlen Lp = P /\ allsm Lp).
Proof.
  intros Hn HX HP HAp HAi Ex EP HS Hk. unfold slip_ref_triangular_solve, slip_ref_triangular_solve64.
  apply sim_get. intros col Hcol _.
  eapply sim_bind; [apply slip_reach_sim with (X := X) (P := P); auto|]. intros [[top xi1] Lp1] [Ht [X1 [P1 S1]]]. cbv beta iota.
  apply (@sim_bind _ _ _ _ (fun xi => zlen xi = X)).
  { apply (@sim_forc _ (fun xi => zlen xi = X)); auto. intros j l _ Hl. sg. sg. apply sim_setret. intros. split; [lia|num]. }
  intros xi2 X2. apply sim_ck; [num|].
  apply (@sim_bind _ _ _ _ (fun xi => zlen xi = X)).
  { apply sim_refl. unfold sort_range. intros xi3. destruct ((0 <=? top) && (top <=? n) && (n <=? zlen xi2)) eqn:E; [|discriminate].
    apply andb_prop in E as [E E3]. intros [= <-]. rewrite <- X2. unfold zlen in *. rewrite !app_length.
    assert (Hlen : forall l, length (sort_z l) = length l).
    { assert (Hi : forall a l, length (insert_z a l) = S (length l)).
      { intros a l; induction l as [|b l IH]; simpl; auto. destruct (a <=? b); simpl; auto. }
      induction l; simpl; auto. rewrite Hi. lia. }
    rewrite Hlen, !firstn_length, !skipn_length. apply Z.leb_le in E3. lia. }
  intros xi3 X3.
  apply (@sim_bind _ _ _ _ (fun xi => zlen xi = X)).
  { apply (@sim_forc _ (fun xi => zlen xi = X)); auto. intros j l _ Hl. sg. sg. apply sim_setret. intros. split; [lia|num]. }
  intros xi4 X4.
  apply (@sim_bind _ _ _ _ (fun _ => True)).
  { apply (@sim_forc _ (fun _ => True)); auto. intros j l _ Hl. sg. apply sim_setret. intros. split; auto. num. }
  intros x1 _. ss.
  apply (@sim_bind _ _ _ _ (fun _ => True)).
  { apply (@sim_forc _ (fun _ => True)); auto. intros j l _ Hl'. sg. apply sim_setret. intros. split; auto. num. }
  intros h1 _. sg. apply sim_ckget; auto. intros hi _ _.
  apply (@sim_bind _ _ _ _ (fun _ => True)).
  { apply (@sim_forc _ (fun _ => True)); auto. intros j l _ Hl'. sg. sg. apply sim_setret. intros. split; auto. num. }
  intros x2 _.
  apply (@sim_bind _ _ _ _ (fun _ => True)).
  { apply (@sim_forc _ (fun _ => True)); auto. intros p st _ _. eapply sim_mono; [apply tri_step_sim; auto; lia|auto]. }
  intros [x3 h3] _. apply sim_ret. auto.
Qed.
End Tri.

Lemma first_eligible_sim x pivs xi cnt : zlen xi <= LIM -> forall flag,
  sim (first_eligible cnt flag x pivs xi) (first_eligible64 cnt flag x pivs xi) (fun _ => True).
Proof.
  intros HX. induction cnt as [|c IH]; intros flag; cbn [first_eligible first_eligible64]; [apply sim_ret; auto|].
  sg. sg. sg. destruct (_ && _); [apply sim_ret; auto|]. apply sim_ck; auto. num.
Qed.
Lemma smallest_sim x pivs n top xi : zlen xi <= LIM ->
  sim (slip_get_smallest_pivot x pivs n top xi) (slip_get_smallest_pivot64 x pivs n top xi) (fun _ => True).
Proof.
  intros HX. unfold slip_get_smallest_pivot, slip_get_smallest_pivot64.
  apply (@sim_bind _ _ _ _ (fun _ => True)).
  { destruct (top >? -1); [apply first_eligible_sim; auto|apply sim_ret; auto]. }
  intros [[[j piv] small]|] _; [|apply sim_err].
  apply (@sim_bind _ _ _ _ (fun _ => True)).
  { apply (@sim_forc _ (fun _ => True)); auto. intros i [p s] _ _. sg. sg. sg. apply sim_refl. intros. split; auto. num. }
  intros st _. apply sim_refl. auto.
Qed.
Lemma largest_sim x pivs n top xi : zlen xi <= LIM ->
  sim (slip_get_largest_pivot x pivs n top xi) (slip_get_largest_pivot64 x pivs n top xi) (fun _ => True).
Proof.
  intros HX. unfold slip_get_largest_pivot, slip_get_largest_pivot64.
  apply (@sim_bind _ _ _ _ (fun _ => True)).
  { apply (@sim_forc _ (fun _ => True)); auto. intros i [p s] _ _. sg. sg. sg. apply sim_refl. intros. split; auto. num. }
  intros st _. apply sim_refl. auto.
Qed.
Lemma nonzero_sim x pivs n top xi : zlen xi <= LIM ->
  sim (slip_get_nonzero_pivot x pivs n top xi) (slip_get_nonzero_pivot64 x pivs n top xi) (fun _ => True).
Proof.
  intros HX. unfold slip_get_nonzero_pivot, slip_get_nonzero_pivot64.
  eapply sim_bind; [apply first_eligible_sim; auto|]. intros f _. apply sim_refl. auto.
Qed.
Lemma choose_sim env order tol x pivs n top xi col : zlen xi <= LIM ->
  sim (choose_pivot env order tol x pivs n top xi col) (choose_pivot64 env order tol x pivs n top xi col) (fun _ => True).
Proof.
  intros HX. unfold choose_pivot, choose_pivot64.
  destruct (order =? PIV_SMALLEST); [apply smallest_sim; auto|].
  destruct (order =? PIV_DIAGONAL).
  { sg. sg. destruct (_ && _); [apply sim_ret; auto|apply smallest_sim; auto]. }
  destruct (order =? PIV_FIRST_NONZERO); [apply nonzero_sim; auto|].
  destruct (order =? PIV_TOL_LARGEST).
  { eapply sim_bind; [apply largest_sim; auto|]. intros piv _. apply sim_refl; auto. }
  destruct (order =? PIV_LARGEST); [apply largest_sim; auto|].
  eapply sim_bind; [apply smallest_sim; auto|]. intros piv _. apply sim_refl; auto.
Qed.
Lemma get_pivot_sim env order tol x pivs n top xi col k rhos pinv rowp : zlen xi <= LIM -> 0 <= k <= LIM -> allsm pinv ->
  sim (slip_get_pivot env order tol x pivs n top xi col k rhos pinv rowp)
      (slip_get_pivot64 env order tol x pivs n top xi col k rhos pinv rowp)
      (fun r => let '(piv, rhos, pinv, rowp, pivs) := r in allsm pinv).
Proof.
  intros HX Hk HP. unfold slip_get_pivot, slip_get_pivot64. eapply sim_bind; [apply choose_sim; auto|]. intros piv _.
  apply (@sim_bind _ _ _ _ (fun r : list Z * list Z * list Z * list Z => let '(rhos, pinv, rowp, pivs) := r in allsm pinv)).
  { unfold apply_pivot. apply sim_get. intros im _ Him. sg. ss. ss. apply sim_set. intros p1 _ _ G1. apply sim_set. intros p2 _ _ G2.
    ss. sg. ss. apply sim_ret. intros a Ha. destruct (G2 _ Ha) as [->|Ha1]; auto. destruct (G1 _ Ha1) as [->|]; auto. num. }
  intros [[[r1 p1] w1] v1] H. apply sim_ret. auto.
Qed.

(* what one step of the factorization keeps *)
Definition Pst (n M k : Z) (s : fstate) : Prop :=
  zlen (F_xi s) = 2 * n /\ zlen (F_Lp s) = n + 1 /\ allsm (F_Lp s) /\ allsm (F_pinv s) /\
  zlen (F_Li s) <= M /\ zlen (F_Ui s) <= M /\ 0 <= F_lnz s <= k * n /\ 0 <= F_unz s <= k * n.

Lemma zlen_app A (l1 l2 : list A) : zlen (l1 ++ l2) = zlen l1 + zlen l2.
Proof. unfold zlen. rewrite app_length. lia. Qed.

Lemma push_sim n k xi pinv x top M Li Lx Ui Ux lnz unz c : 0 <= n <= 2 ^ 30 -> 0 <= top <= n -> zlen xi = 2 * n ->
  0 <= c <= n -> 0 <= lnz <= c * n -> 0 <= unz <= c * n -> M <= LIM -> zlen Li <= M -> zlen Ui <= M ->
  sim (for_ top n (fun j st => push_LU k xi pinv x j st) (Li, Lx, Ui, Ux, lnz, unz))
      (for64 top n (fun j st => push_LU64 k xi pinv x j st) (Li, Lx, Ui, Ux, lnz, unz))
      (fun r => let '(Li, Lx, Ui, Ux, lnz, unz) := r in
         zlen Li <= M /\ zlen Ui <= M /\ 0 <= lnz <= (c + 1) * n /\ 0 <= unz <= (c + 1) * n).
Proof.
  intros Hn Ht Hx Hc Hl Hu HM HLi HUi.
  eapply sim_mono.
  - apply (@sim_for _ (fun j (r : list Z * list Z * list Z * list Z * Z * Z) => let '(Li, Lx, Ui, Ux, lnz', unz') := r in
         zlen Li <= M /\ zlen Ui <= M /\ 0 <= lnz' <= lnz + (j - top) /\ 0 <= unz' <= unz + (j - top))).
    + sp; lia.
    + intros j [[[[[Li1 Lx1] Ui1] Ux1] l1] u1] Hj [A1 [A2 [A3 A4]]]. unfold push_LU, push_LU64. sg. sg. sg.
      assert (R : i64 (j + 1)) by num.
      apply (@sim_bind _ _ _ _ (fun r : list Z * list Z * Z => let '(Ui, Ux, u) := r in zlen Ui <= M /\ 0 <= u <= unz + (j + 1 - top))).
      { destruct (_ <=? k); [|apply sim_ret; split; [auto|lia]]. ss. ss.
        apply sim_ck; [num|]. apply sim_ret. split; lia. }
      intros [[Ui2 Ux2] u2] [B1 B2].
      apply (@sim_bind _ _ _ _ (fun r : list Z * list Z * Z => let '(Li, Lx, l) := r in zlen Li <= M /\ 0 <= l <= lnz + (j + 1 - top))).
      { destruct (_ >=? k); [|apply sim_ret; split; [auto|lia]]. ss. ss.
        apply sim_ck; [num|]. apply sim_ret. split; lia. }
      intros [[Li2 Lx2] l2] [C1 C2]. apply sim_ret. sp; auto; try lia; num.
  - intros [[[[[Li1 Lx1] Ui1] Ux1] l1] u1]. cbv beta iota. intros [A1 [A2 [A3 A4]]]. rewrite Z.max_r in A3, A4 by lia.
    sp; try lia; nia.
Qed.

Lemma step_sim env order tol n Ap Ai Ax q M k s : 0 <= n <= 2 ^ 30 -> 2 * (n * n) <= M -> M <= LIM -> zlen Ap <= LIM -> zlen Ai <= LIM ->
  0 <= k < n -> Pst n M k s ->
  sim (factor_step env order tol n Ap Ai Ax q k s) (factor_step64 env order tol n Ap Ai Ax q k s) (Pst n M (k + 1)).
Proof.
  intros Hn HM HL HAp HAi Hk [Hx [Hp [Sp [Sv [Hli [Hui [Hl Hu]]]]]]]. unfold factor_step, factor_step64.
  assert (Hnn : k * n + n <= n * n) by nia. assert (Hkk : 0 <= k * n) by nia. assert (Hn2 : n * n <= 2 ^ 60) by nia.
  apply sim_set. intros Lp1 _ L1 C1. apply sim_set. intros Up1 _ U1 _. apply sim_get. intros col _ _.
  assert (S1 : allsm Lp1). { intros a Ha. destruct (C1 _ Ha) as [->|]; auto. num. }
  apply sim_ck; [num|].
  assert (RL : exists L, (if F_lnz s + n >? zlen (F_Li s) then sparse_realloc (F_Li s) (F_Lx s) else (F_Li s, F_Lx s)) = L /\
     (if F_lnz s + n >? zlen (F_Li s) then sparse_realloc64 (F_Li s) (F_Lx s) else Ok (F_Li s, F_Lx s)) = Ok L /\ zlen (fst L) <= M).
  { destruct (Z.gtb_spec (F_lnz s + n) (zlen (F_Li s))); eexists; sp; eauto.
    - unfold sparse_realloc64. rewrite ck_ok; [reflexivity|]. pose proof (zlen_nonneg (F_Li s)). num.
    - unfold sparse_realloc. cbn [fst]. rewrite zlen_app, zlen_mk by apply zlen_nonneg. lia. }
  destruct RL as [[Li Lx] [E1 [E2 HLi]]]. rewrite E1, E2. cbn [bind fst] in *.
  apply sim_ck; [num|].
  assert (RU : exists L, (if F_unz s + n >? zlen (F_Ui s) then sparse_realloc (F_Ui s) (F_Ux s) else (F_Ui s, F_Ux s)) = L /\
     (if F_unz s + n >? zlen (F_Ui s) then sparse_realloc64 (F_Ui s) (F_Ux s) else Ok (F_Ui s, F_Ux s)) = Ok L /\ zlen (fst L) <= M).
  { destruct (Z.gtb_spec (F_unz s + n) (zlen (F_Ui s))); eexists; sp; eauto.
    - unfold sparse_realloc64. rewrite ck_ok; [reflexivity|]. pose proof (zlen_nonneg (F_Ui s)). num.
    - unfold sparse_realloc. cbn [fst]. rewrite zlen_app, zlen_mk by apply zlen_nonneg. lia. }
  destruct RU as [[Ui Ux] [E3 [E4 HUi]]]. rewrite E3, E4. cbn [bind fst] in *.
  eapply sim_bind.
  { apply tri_solve_sim with (X := 2 * n) (P := n + 1); auto; try num. }
  intros [[[[top xi] Lp2] x] h] [Ht [X2 [P2 S2]]]. cbv beta iota.
  eapply sim_bind; [apply get_pivot_sim; auto; num|].
  intros [[[[piv rhos] pinv] rowp] pivs] Hpv. cbv beta iota.
  eapply sim_bind; [apply push_sim with (c := k) (M := M); auto; lia|].
  intros [[[[[Li1 Lx1] Ui1] Ux1] l1] u1] [A1 [A2 [A3 A4]]]. cbv beta iota. apply sim_ret. unfold Pst; cbn. sp; auto; lia.
Qed.

Lemma in_zseq lo hi a : In a (zseq lo hi) -> lo <= a < hi.
Proof. unfold zseq. intros H. apply in_map_iff in H as [i [<- H]]. apply in_seq in H. lia. Qed.

(* the factorization with int64_t arithmetic is the factorization with unbounded integers, wherever the latter is defined *)
Theorem factorize_core_sim env order tol n Ap Ai Ax q lnz0 unz0 : 0 <= n <= 2 ^ 30 -> zlen Ap <= LIM -> zlen Ai <= LIM ->
  lnz0 <= LIM -> unz0 <= LIM ->
  sim (factorize_core env order tol n Ap Ai Ax q lnz0 unz0) (factorize_core64 env order tol n Ap Ai Ax q lnz0 unz0) (fun _ => True).
Proof.
  intros Hn HAp HAi Hl Hu. unfold factorize_core, factorize_core64.
  assert (Eb : forall z, 0 <= z <= 2 ^ 31 -> bytes z 8 = Ok tt).
  { intros z Hz. unfold bytes. destruct (Z.leb_spec 0 z); [|lia]. destruct (Z.ltb_spec (z * 8) (2 ^ 64)); auto. lia. }
  rewrite Eb by lia. cbn [bind]. apply sim_ck; [num|]. rewrite Eb by lia. cbn [bind]. apply sim_ck; [num|]. apply sim_ck; [num|].
  assert (Hn2 : n * n <= 2 ^ 60) by nia.
  eapply sim_bind.
  { apply (@sim_for _ (Pst n LIM)).
    - unfold Pst, factor_init; cbn [F_xi F_Lp F_pinv F_Li F_Ui F_lnz F_unz]. rewrite !zlen_mk by lia. sp; try num.
      + intros a Ha. apply repeat_spec in Ha. subst. num.
      + intros a Ha. apply in_zseq in Ha. num.
    - intros k s Hk HI. eapply sim_mono; [apply step_sim with (M := LIM); eauto; num|]. intros a Ha. split; auto. num. }
  intros s [Hx [Hp [Sp [Sv [Hli [Hui [Hls Hus]]]]]]]. ss. ss.
  rewrite Z.max_r in Hls, Hus by lia.
  eapply sim_bind.
  { apply (@sim_forc _ (fun _ => True)); auto. intros i L Hi _. sg. sg. apply sim_setret. intros. split; auto. num. }
  intros Li _. eapply sim_bind.
  { apply (@sim_forc _ (fun _ => True)); auto. intros i L Hi _. sg. sg. apply sim_setret. intros. split; auto. num. }
  intros Ui _. apply sim_ret. auto.
Qed.

(*----------------------------------------------------------------------------*)
(* solve *)
Lemma ix64_or m i j : i64 (j * m) -> ix64 m i j = Ok (ix m i j) \/ (ix64 m i j = UB /\ ~ i64 (ix m i j)).
Proof.
  intros H. unfold ix64, ix. rewrite (ck_ok H). simpl. destruct (ck_or (i + j * m)) as [[-> ?]|[-> ?]]; auto.
Qed.
Lemma sim_ixget A B (l : list A) m i j (k : A -> res B) k' Q :
  i64 (j * m) -> zlen l <= LIM -> (forall v, 0 <= ix m i j < zlen l -> In v l -> sim (k v) (k' (ix m i j) v) Q) ->
  sim (bind (get l (ix m i j)) k) (bind (ix64 m i j) (fun z => bind (get l z) (k' z))) Q.
Proof.
  intros H HL HK. destruct (ix64_or m i j H) as [->|[-> C]].
  - simpl. apply sim_get; auto.
  - left. rewrite get_out; auto. num.
Qed.
Lemma sim_ixset A (l : list A) m i j v (Q : list A -> Prop) :
  i64 (j * m) -> zlen l <= LIM -> (forall l', 0 <= ix m i j < zlen l -> zlen l' = zlen l -> Q l') ->
  sim (set l (ix m i j) v) (bind (ix64 m i j) (fun z => set l z v)) Q.
Proof.
  intros H HL HK. destruct (ix64_or m i j H) as [->|[-> C]].
  - simpl. apply sim_setret; auto.
  - left. rewrite set_out; auto. num.
Qed.

Section Solve.
Variables (m n : Z).
Hypotheses (Hm : 0 <= m <= LIM) (Hn : 0 <= n <= LIM) (Hmn : m * n <= LIM).

Lemma jm_ok j : 0 <= j < n -> i64 (j * m).
Proof. intros. assert (0 <= j * m <= m * n) by nia. num. Qed.
Lemma dense64_eq : dense64 m n = Ok tt.
Proof. unfold dense64. rewrite ck_ok; auto. assert (0 <= m * n) by nia. num. Qed.
Definition LX := Z.max (m * n) 1.
Lemma LX_ok : 1 <= LX <= LIM.
Proof. unfold LX. num. Qed.
Local Ltac lx := pose proof LX_ok; num.

Lemma permute_b_sim b2 pinv : zlen b2 <= LIM ->
  sim (slip_permute_b m n b2 pinv) (slip_permute_b64 m n b2 pinv) (fun x => zlen x = LX).
Proof.
  intros Hb. unfold slip_permute_b, slip_permute_b64. rewrite dense64_eq. cbn [bind].
  apply (@sim_forc _ (fun x => zlen x = LX)); [rewrite zlen_mk; [reflexivity|lia]|].
  intros i x Hi Hx. eapply sim_mono; [|intros a Ha; split; [exact Ha|num]].
  apply (@sim_forc _ (fun x => zlen x = LX)); auto.
  intros j y Hj Hy. apply sim_ixget; auto using jm_ok. intros v _ _. sg. apply sim_ixset; auto using jm_ok; [lx|].
  intros l' _ Hl. split; [lia|num].
Qed.

Lemma permute_x_sim x2 q : zlen x2 <= LIM ->
  sim (slip_permute_x m n x2 q) (slip_permute_x64 m n x2 q) (fun x => zlen x = LX).
Proof.
  intros Hb. unfold slip_permute_x, slip_permute_x64. rewrite dense64_eq. cbn [bind].
  apply (@sim_forc _ (fun x => zlen x = LX)); [rewrite zlen_mk; [reflexivity|lia]|].
  intros i x Hi Hx. eapply sim_mono; [|intros a Ha; split; [exact Ha|num]].
  apply (@sim_forc _ (fun x => zlen x = LX)); auto.
  intros j y Hj Hy. apply sim_ixget; auto using jm_ok. intros v _ _. sg. apply sim_ixset; auto using jm_ok; [lx|].
  intros l' _ Hl. split; [lia|num].
Qed.

Definition Pxh (st : list Z * list Z) : Prop := let '(x, h) := st in zlen x = LX /\ zlen h = LX.

Lemma fwd_inner_sim k i Li Lx rhos j st : 0 <= k < n -> 0 <= i < m -> zlen Li <= LIM -> Pxh st ->
  sim (fwd_inner m k i Li Lx rhos j st) (fwd_inner64 m k i Li Lx rhos j st) (fun st => Pxh st /\ i64 (j + 1)).
Proof.
  intros Hk Hi HLi. destruct st as [x h]. intros [Hx Hh]. unfold fwd_inner, fwd_inner64. sg. assert (R : i64 (j + 1)) by num. sg.
  destruct (_ =? 0); [apply sim_ret; unfold Pxh; auto|]. destruct (_ >? i); [|apply sim_ret; unfold Pxh; auto].
  apply sim_ixget; auto using jm_ok; [lx|]. intros xj _ _. apply sim_ixget; auto using jm_ok; [lx|]. intros xi _ _.
  assert (R1 : i64 (i - 1)) by num.
  eapply sim_bind with (P := fun _ => True).
  { destruct (xj =? 0); [|sg]; destruct (i >? 0); try (apply sim_ck; [exact R1|]); apply sim_refl; auto. }
  intros v' _. ss. ss. apply sim_ret. unfold Pxh. sp; auto; lia.
Qed.

Lemma fwd_row_sim k Lp Li Lx rhos i st : 0 <= k < n -> 0 <= i < m -> zlen Li <= LIM -> zlen Lp <= LIM -> Pxh st ->
  sim (fwd_row m k Lp Li Lx rhos i st) (fwd_row64 m k Lp Li Lx rhos i st) Pxh.
Proof.
  intros Hk Hi HLi HLp. destruct st as [x h]. intros [Hx Hh]. unfold fwd_row, fwd_row64.
  apply sim_ixget; auto using jm_ok; [lx|]. intros hx _ _. sg. destruct (_ =? 0); [apply sim_ret; unfold Pxh; auto|].
  apply sim_ck; [num|]. eapply sim_bind; [apply sim_refl; intros; exact I|]. intros v' _. ss. sg.
  apply sim_ckget; auto. intros hi _ _. apply (@sim_forc _ Pxh); [unfold Pxh; split; lia|].
  intros j st _ Hst. apply fwd_inner_sim; auto.
Qed.

Lemma forward_sim Lp Li Lx rhos x : zlen Li <= LIM -> zlen Lp <= LIM -> zlen x = LX ->
  sim (slip_forward_sub m n Lp Li Lx rhos x) (slip_forward_sub64 m n Lp Li Lx rhos x) (fun x => zlen x = LX).
Proof.
  intros HLi HLp Hx. unfold slip_forward_sub, slip_forward_sub64. rewrite dense64_eq. cbn [bind].
  eapply sim_bind.
  { apply (@sim_forc _ Pxh).
    - split; auto. rewrite zlen_mk; [reflexivity|lia].
    - intros k st Hk Hst. eapply sim_mono; [|intros a Ha; split; [exact Ha|num]].
      apply (@sim_forc _ Pxh); auto. intros i st' Hi Hst'.
      eapply sim_mono; [apply fwd_row_sim; auto|]. intros a Ha. split; auto. num. }
  intros [a h] [Ha _]. apply sim_ret. auto.
Qed.

Lemma mul_sim x s : zlen x = LX -> sim (slip_matrix_mul (m * n) x s) (slip_matrix_mul64 m n x s) (fun x => zlen x = LX).
Proof.
  intros Hx. unfold slip_matrix_mul, slip_matrix_mul64. apply sim_ck; [assert (0 <= m * n) by nia; num|].
  apply (@sim_forc _ (fun x => zlen x = LX)); auto. intros i l Hi Hl. sg. apply sim_setret. intros. split; [lia|]. lx.
Qed.

Lemma back_row_sim k Up Ui Ux j x : 0 <= k < n -> 0 <= j < m -> zlen Up <= LIM -> zlen Ux <= LIM -> zlen x = LX ->
  sim (back_row m k Up Ui Ux j x) (back_row64 m k Up Ui Ux j x) (fun x => zlen x = LX).
Proof.
  intros Hk Hj HUp HUx Hx. unfold back_row, back_row64. apply sim_ixget; auto using jm_ok; [lx|]. intros xj _ _.
  destruct (xj =? 0); [apply sim_ret; auto|]. apply sim_ckget; auto. intros hi _ _. apply sim_ckget; auto. intros d _ _.
  eapply sim_bind; [apply sim_refl; intros; exact I|]. intros v' _. apply sim_set. intros x1 _ E1 _. sg.
  apply (@sim_forc _ (fun x => zlen x = LX)); [lia|]. intros i y _ Hy. sg. assert (R : i64 (i + 1)) by num.
  destruct (_ =? 0); [apply sim_ret; auto|]. sg. apply sim_ixget; auto using jm_ok; [lx|]. intros w _ _. sg.
  apply sim_setret. intros. split; auto. lia.
Qed.

Lemma back_sim Up Ui Ux x : zlen Up <= LIM -> zlen Ux <= LIM -> zlen x = LX ->
  sim (slip_back_sub m n Up Ui Ux x) (slip_back_sub64 m n Up Ui Ux x) (fun x => zlen x = LX).
Proof.
  intros HUp HUx Hx. unfold slip_back_sub, slip_back_sub64. apply (@sim_forc _ (fun x => zlen x = LX)); auto.
  intros k y Hk Hy. eapply sim_mono; [|intros a Ha; split; [exact Ha|num]].
  apply (@sim_down _ (fun x => zlen x = LX)); auto; [num|].
  intros j z Hj Hz. eapply sim_mono; [apply back_row_sim; auto|]. intros a Ha. split; auto. num.
Qed.

Lemma div_sim x s : zlen x = LX -> sim (slip_matrix_div (m * n) x s) (slip_matrix_div64 m n x s) (fun x => zlen x = LX).
Proof.
  intros Hx. unfold slip_matrix_div, slip_matrix_div64. apply sim_ck; [assert (0 <= m * n) by nia; num|].
  apply (@sim_forc _ (fun x => zlen x = LX)); [rewrite zlen_mk; [reflexivity|lia]|].
  intros i l Hi Hl. sg. eapply sim_bind; [apply sim_refl; intros; exact I|]. intros w _. apply sim_setret. intros. split; [lia|]. lx.
Qed.

Lemma check_sim Ap Ai Ax (x : list Q) b : zlen Ap <= LIM -> zlen Ax <= LIM -> zlen x = LX -> zlen b <= LIM ->
  sim (slip_check_solution m n Ap Ai Ax x b) (slip_check_solution64 m n Ap Ai Ax x b) (fun _ => True).
Proof.
  intros HAp HAx Hx Hb. unfold slip_check_solution, slip_check_solution64. rewrite dense64_eq. cbn [bind].
  apply (@sim_bind _ _ _ _ (fun x => zlen x = LX)).
  { apply (@sim_forc _ (fun x => zlen x = LX)); [rewrite zlen_mk; [reflexivity|lia]|].
    intros j y Hj Hy. eapply sim_mono; [|intros a Ha; split; [exact Ha|num]].
    apply (@sim_forc _ (fun x => zlen x = LX)); auto.
    intros i z Hi Hz. eapply sim_mono; [|intros a Ha; split; [exact Ha|num]]. sg. apply sim_ckget; auto. intros hi _ _.
    apply (@sim_forc _ (fun x => zlen x = LX)); auto. intros p w _ Hw. sg. assert (R : i64 (p + 1)) by num.
    apply sim_ixget; auto using jm_ok; [lx|]. intros xi _ _. sg. apply sim_ixget; auto using jm_ok; [lx|]. intros w' _ _.
    apply sim_setret. intros. split; auto. lia. }
  intros b2 Hb2.
  apply (@sim_bind _ _ _ _ (fun _ => True)); [|intros _ _; apply sim_ret; auto].
  apply (@sim_forc _ (fun _ => True)); auto.
  intros j u Hj _. eapply sim_mono; [|intros a Ha; split; [exact Ha|num]].
  apply (@sim_forc _ (fun _ => True)); auto.
  intros i u' Hi _. eapply sim_mono; [|intros a Ha; split; [exact Ha|num]].
  apply sim_ixget; auto using jm_ok. intros bi _ _. sg. apply sim_refl; auto.
Qed.
End Solve.

Theorem solve_core_sim nl n nrhs Ap Ai Ax sA b sB F q check : nl <= LIM -> n <= LIM -> nrhs <= LIM -> n * nrhs <= LIM ->
  zlen Ap <= LIM -> zlen Ax <= LIM -> zlen b <= LIM -> zlen (fac_Lp F) <= LIM -> zlen (fac_Li F) <= LIM ->
  zlen (fac_Up F) <= LIM -> zlen (fac_Ux F) <= LIM -> zlen (fac_rhos F) <= LIM ->
  sim (solve_core nl n nrhs Ap Ai Ax sA b sB F q check) (solve_core64 nl n nrhs Ap Ai Ax sA b sB F q check) (fun _ => True).
Proof.
  intros Hnl Hn Hr Hm HAp HAx Hb HLp HLi HUp HUx Hrh. unfold solve_core, solve_core64.
  destruct (Z.ltb_spec n 0); [apply sim_err|]. destruct (Z.ltb_spec nrhs 0); [apply sim_err|]. cbn [orb].
  assert (H2 : 0 <= n * nrhs) by nia.
  pose proof (@LX_ok n nrhs Hm) as HX.
  eapply sim_bind; [apply permute_b_sim; auto|]. intros b1 B1. cbv beta in B1.
  eapply sim_bind; [apply forward_sim; auto|]. intros b2 B2. cbv beta in B2.
  apply sim_ckget; auto. intros det _ _.
  eapply sim_bind; [apply mul_sim; auto|]. intros b3 B3. cbv beta in B3.
  eapply sim_bind; [apply back_sim; auto|]. intros b4 B4. cbv beta in B4.
  eapply sim_bind; [apply div_sim; auto|]. intros x2 X2. cbv beta in X2.
  eapply sim_bind; [apply permute_x_sim; auto; lia|]. intros x X. cbv beta in X.
  apply (@sim_bind _ _ _ _ (fun _ => True)).
  { destruct check; [apply check_sim; auto|apply sim_ret; auto]. }
  intros _ _. eapply sim_bind; [apply sim_refl; intros; exact I|]. intros sc _. apply sim_ck; [num|].
  destruct (mpq_equal sc 1); [apply sim_ret; auto|].
  apply (@sim_forc _ (fun _ => True)); auto. intros i l Hi _. sg. apply sim_setret. intros. split; auto. num.
Qed.
