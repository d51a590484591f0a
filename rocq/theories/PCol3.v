(* COLAMD, part 3: the invariant of the main loop; the degree lists. *)
From Verif Require Import Base Det DetZ Spec MColamd PCol1 PCol2.
Set Implicit Arguments.
Open Scope Z_scope.
Set Bullet Behavior "Strict Subproofs".

(*----------------------------------------------------------------------------*)
(* the columns and rows stored in A.  Columns in [0,cend), ordered; rows in [cend,pf), disjoint. *)
Record mem (m n cend pf : Z) (A Rs Rl Rm Cs Cl : list Z) : Prop := {
  me_m : 0 <= m; me_n : 0 <= n;
  me_Rs : zlen Rs = Z.max m 1; me_Rl : zlen Rl = m; me_Rm : zlen Rm = Z.max m 1; me_Cs : zlen Cs = n; me_Cl : zlen Cl = n;
  me_b : 0 <= cend /\ cend <= pf /\ pf <= zlen A;
  me_c : forall c, 0 <= c < n -> 0 <= rd Cs c -> 0 <= rd Cl c /\ rd Cs c + rd Cl c <= cend;
  me_o : forall c c', 0 <= c -> c < c' -> c' < n -> 0 <= rd Cs c -> 0 <= rd Cs c' -> rd Cs c + rd Cl c <= rd Cs c';
  me_r : forall r, 0 <= r < m -> 0 <= rd Rm r -> cend <= rd Rs r /\ 0 <= rd Rl r /\ rd Rs r + rd Rl r <= pf;
  me_d : forall r r' j, 0 <= r < m -> 0 <= r' < m -> r <> r' -> 0 <= rd Rm r -> 0 <= rd Rm r' ->
         rd Rs r <= j < rd Rs r + rd Rl r -> rd Rs r' <= j < rd Rs r' + rd Rl r' -> False;
  me_pos : forall j, 0 <= j < pf -> 0 <= rd A j;
  me_e : forall r j, 0 <= r < m -> 0 <= rd Rm r -> rd Rs r <= j < rd Rs r + rd Rl r -> rd A j < n;
  me_ci : forall c, 0 <= c < n -> 0 <= rd Cs c -> injs A (rd Cs c) (rd Cl c);
  me_cr : forall c j, 0 <= c < n -> 0 <= rd Cs c -> rd Cs c <= j < rd Cs c + rd Cl c -> rd A j < m /\ 0 <= rd Rm (rd A j);
  me_ri : forall r, 0 <= r < m -> 0 <= rd Rm r -> injs A (rd Rs r) (rd Rl r);
  me_m2 : forall c r, 0 <= c < n -> 0 <= rd Cs c -> 0 <= r < m -> 0 <= rd Rm r -> memb A (rd Rs r) (rd Rl r) c = memb A (rd Cs c) (rd Cl c) r }.

(* does column c contain row r? *)
Definition Mof (A Cs Cl : list Z) (c r : Z) : bool := memb A (rd Cs c) (rd Cl c) r.
Definition alv (Cs : list Z) (c : Z) : bool := 0 <=? rd Cs c.
Lemma alv_spec Cs c : alv Cs c = true <-> 0 <= rd Cs c. Proof. apply Z.leb_le. Qed.
Lemma alv_false Cs c : alv Cs c = false <-> rd Cs c < 0. Proof. apply Z.leb_gt. Qed.

(* c and c' share a row *)
Definition sh (m : Z) (M : Z -> Z -> bool) (c c' : Z) : bool := existsb (fun r => M c r && M c' r) (zseq 0 m).
Lemma sh_spec m M c c' : sh m M c c' = true <-> exists r, 0 <= r < m /\ M c r = true /\ M c' r = true.
Proof.
  unfold sh. rewrite existsb_exists. split.
  - intros (r & Hr & E). apply in_zseq in Hr. apply Bool.andb_true_iff in E. destruct E. eauto.
  - intros (r & Hr & E & E'). exists r. split; [apply in_zseq; exact Hr|]. rewrite E, E'. reflexivity.
Qed.
(* weight of the columns in the set b;  external degree of column c *)
Definition wt (n : Z) (b : Z -> bool) (th : Z -> Z) : Z := sumz n (fun c => if b c then th c else 0).
Definition ext (m n : Z) (M : Z -> Z -> bool) (al : Z -> bool) (th : Z -> Z) (c : Z) : Z := wt n (fun c' => al c' && negb (c' =? c) && sh m M c c') th.
Lemma wt_ext n b b' th th' : (forall c, 0 <= c < n -> b c = b' c /\ (b c = true -> th c = th' c)) -> wt n b th = wt n b' th'.
Proof. intros H. apply sumz_ext. intros c Hc. destruct (H c Hc) as (<- & E). destruct (b c); auto. Qed.
Lemma wt_le n b b' th : (forall c, 0 <= c < n -> b c = true -> b' c = true) -> (forall c, 0 <= c < n -> b' c = true -> 0 <= th c) -> wt n b th <= wt n b' th.
Proof.
  intros H P. apply sumz_le. intros c Hc. destruct (b c) eqn:E.
  - rewrite (H c Hc E). lia.
  - destruct (b' c) eqn:E'; [auto|lia].
Qed.
Lemma wt_nonneg n b th : (forall c, 0 <= c < n -> b c = true -> 0 <= th c) -> 0 <= wt n b th.
Proof. intros P. apply sumz_nonneg. intros c Hc. destruct (b c) eqn:E; [auto|lia]. Qed.
Lemma wt_split n b b' th : wt n b th = wt n (fun c => b c && b' c) th + wt n (fun c => b c && negb (b' c)) th.
Proof. unfold wt. rewrite <- sumz_add. apply sumz_ext. intros c _. destruct (b c), (b' c); cbn; lia. Qed.
Lemma wt_in n b th c : (forall c, 0 <= c < n -> b c = true -> 0 <= th c) -> 0 <= c < n -> b c = true -> th c <= wt n b th.
Proof.
  intros P Hc E. pose proof (@sumz_pos1 n (fun c => if b c then th c else 0) c Hc) as H. cbv beta in H. rewrite E in H. apply H. intros x Hx. destruct (b x) eqn:X; [auto|lia].
Qed.
(* adding one column to the set *)
Lemma wt_add n b b' th c : 0 <= c < n -> b c = false -> (forall x, 0 <= x < n -> b' x = b x || (x =? c)) -> wt n b' th = wt n b th + th c.
Proof.
  intros Hc E H. unfold wt. rewrite (@sumz_upd n _ (fun x => if b x then th x else 0) c Hc).
  - rewrite (H c Hc), E, Z.eqb_refl. cbn. lia.
  - intros x Hx Hne. rewrite (H x Hx). destruct (Z.eqb_spec x c); [contradiction|]. rewrite Bool.orb_false_r. reflexivity.
Qed.

(* degrees of the rows and marks *)
Record num (m n : Z) (M : Z -> Z -> bool) (al : Z -> bool) (Rd Rm : list Z) (th : Z -> Z) (max_deg tag : Z) : Prop := {
  nu_Rd : zlen Rd = Z.max m 1;
  nu_d : forall r, 0 <= r < m -> 0 <= rd Rm r -> rd Rd r = wt n (fun c => al c && M c r) th /\ rd Rd r <= max_deg;
  nu_t : 1 <= tag;
  nu_m : forall r, 0 <= r < m -> rd Rm r < tag;
  nu_x : 0 <= max_deg }.

(*----------------------------------------------------------------------------*)
(* the degree lists, in local form; rk grows along each list *)
Record dlist (n : Z) (act : Z -> Prop) (sc nx pv hd rk : Z -> Z) : Prop := {
  dl_sc : forall c, act c -> 0 <= c < n /\ 0 <= sc c <= n;
  dl_nx : forall c, act c -> nx c = EMPTY \/ (act (nx c) /\ pv (nx c) = c /\ sc (nx c) = sc c /\ rk c < rk (nx c));
  dl_pv : forall c, act c -> (pv c = EMPTY /\ hd (sc c) = c) \/ (act (pv c) /\ nx (pv c) = c /\ sc (pv c) = sc c);
  dl_hd : forall s, 0 <= s <= n -> hd s = EMPTY \/ (act (hd s) /\ sc (hd s) = s /\ pv (hd s) = EMPTY) }.

Arguments dl_sc {n act sc nx pv hd rk} _ {c} _.
Arguments dl_nx {n act sc nx pv hd rk} _ {c} _.
Arguments dl_pv {n act sc nx pv hd rk} _ {c} _.
Arguments dl_hd {n act sc nx pv hd rk} _ {s} _.

Lemma dlist_ext n act act' sc nx pv hd sc' nx' pv' hd' rk : dlist n act sc nx pv hd rk -> (forall c, act' c <-> act c) ->
  (forall c, act c -> sc' c = sc c /\ nx' c = nx c /\ pv' c = pv c) -> (forall s, 0 <= s <= n -> hd' s = hd s) -> dlist n act' sc' nx' pv' hd' rk.
Proof.
  intros D HA H HH. constructor.
  - intros c Hc. apply HA in Hc. destruct (H c Hc) as (-> & _). apply (dl_sc D Hc).
  - intros c Hc. apply HA in Hc. destruct (H c Hc) as (-> & -> & _). destruct (dl_nx D Hc) as [E|(A & P & S & R)]; [left; exact E|right].
    destruct (H _ A) as (-> & _ & ->). rewrite HA. auto.
  - intros c Hc. apply HA in Hc. destruct (H c Hc) as (-> & _ & ->). rewrite HH by (apply (dl_sc D Hc)). destruct (dl_pv D Hc) as [E|(A & P & S)]; [left; exact E|right].
    destruct (H _ A) as (-> & -> & _). rewrite HA. auto.
  - intros s Hs. rewrite HH by exact Hs. destruct (dl_hd D Hs) as [E|(A & S & P)]; [left; exact E|right]. destruct (H _ A) as (-> & _ & ->). rewrite HA. auto.
Qed.

(* every active column is in a non-empty list *)
Lemma dl_nonempty n act sc nx pv hd rk c : dlist n act sc nx pv hd rk -> (forall c, {act c} + {~ act c}) -> act c -> hd (sc c) <> EMPTY.
Proof.
  intros D Dec Hc. destruct (@argmin n (fun x => act x /\ sc x = sc c) rk) as (x & Hx & (Ax & Sx) & Min).
  - intros x. destruct (Dec x), (Z.eq_dec (sc x) (sc c)); [left; auto| | |]; right; tauto.
  - exists c. split; [apply (dl_sc D Hc)|auto].
  - destruct (dl_pv D Ax) as [(_ & E)|(A & N & S)].
    + rewrite <- Sx, E. unfold EMPTY. lia.
    + exfalso. destruct (dl_nx D A) as [E|(_ & _ & _ & R)]; [rewrite E in N; unfold EMPTY in N; lia|]. rewrite N in R.
      specialize (Min (pv x)). pose proof (dl_sc D A). specialize (Min ltac:(lia)). rewrite S in Min. specialize (Min (conj A Sx)). lia.
Qed.

Arguments dl_nonempty {n act sc nx pv hd rk c} _ _ _ _.
(* removal *)
Lemma dl_remove n act sc nx pv hd rk c act' nx' pv' hd' : dlist n act sc nx pv hd rk -> act c -> (forall x, act' x <-> act x /\ x <> c) ->
  (forall x, act' x -> nx' x = if x =? pv c then nx c else nx x) -> (forall x, act' x -> pv' x = if x =? nx c then pv c else pv x) ->
  (forall s, 0 <= s <= n -> hd' s = if (pv c =? EMPTY) && (s =? sc c) then nx c else hd s) -> dlist n act' sc nx' pv' hd' rk.
Proof.
  intros D Hc HA HN HP HH. pose proof (dl_sc D Hc) as SC.
  assert (Nself : nx c <> c). { destruct (dl_nx D Hc) as [E|(_ & _ & _ & R)]; [rewrite E; unfold EMPTY; lia|]. intros X. rewrite X in R. lia. }
  constructor.
  - intros x Hx. apply HA in Hx. destruct Hx as (Hx & _). apply (dl_sc D Hx).
  - intros x Hx'. pose proof Hx' as (Hx & Ne)%HA. rewrite (HN _ Hx'). destruct (Z.eqb_spec x (pv c)) as [E|E].
    + destruct (dl_pv D Hc) as [(P & _)|(A & N & S)]; [rewrite P in E; pose proof (dl_sc D Hx); unfold EMPTY in *; lia|]. rewrite <- E in A, N, S.
      destruct (dl_nx D Hc) as [N'|(A' & P' & S' & R')]; [left; exact N'|right]. assert (act' (nx c)) by (apply HA; auto).
      destruct (dl_nx D Hx) as [X|(_ & _ & _ & R)]; [rewrite X in N; unfold EMPTY in N; lia|]. rewrite N in R.
      rewrite (HP _ H), Z.eqb_refl. repeat split; auto; congruence || lia.
    + destruct (dl_nx D Hx) as [N|(A & P & S & R)]; [left; exact N|right]. assert (nx x <> c) by congruence. assert (act' (nx x)) by (apply HA; auto).
      rewrite (HP _ H0). destruct (Z.eqb_spec (nx x) (nx c)) as [E'|E']; [|auto]. exfalso.
      destruct (dl_nx D Hc) as [N'|(_ & P' & _)]; [|congruence]. rewrite N' in E'. pose proof (dl_sc D A). unfold EMPTY in *. lia.
  - intros x Hx'. pose proof Hx' as (Hx & Ne)%HA. pose proof (dl_sc D Hx) as SX. rewrite (HP _ Hx'), HH by lia. destruct (Z.eqb_spec x (nx c)) as [E|E].
    + destruct (dl_nx D Hc) as [N'|(A' & P' & S' & R')]; [rewrite N' in E; unfold EMPTY in *; lia|]. rewrite <- E in *. destruct (dl_pv D Hc) as [(P & H)|(A & N & S)].
      * left. rewrite P. split; [reflexivity|]. rewrite S', !Z.eqb_refl. reflexivity.
      * right. assert (pv c <> c). { intros X. rewrite X in N. congruence. } assert (Ap : act' (pv c)) by (apply HA; auto). rewrite (HN _ Ap), Z.eqb_refl. repeat split; auto; congruence.
    + destruct (dl_pv D Hx) as [(P & H)|(A & N & S)].
      * left. split; [exact P|]. destruct (Z.eqb_spec (pv c) EMPTY) as [Ep|Ep], (Z.eqb_spec (sc x) (sc c)) as [Es|Es]; cbn; auto. exfalso.
        destruct (dl_pv D Hc) as [(_ & H')|(A' & _)]; [congruence|]. pose proof (dl_sc D A'). unfold EMPTY in *; lia.
      * right. assert (pv x <> c) by congruence. assert (Ap : act' (pv x)) by (apply HA; auto). rewrite (HN _ Ap). destruct (Z.eqb_spec (pv x) (pv c)) as [E'|E']; [|auto]. exfalso.
        destruct (dl_pv D Hc) as [(P & _)|(_ & N' & _)]; [|congruence]. rewrite P in E'. pose proof (dl_sc D A). unfold EMPTY in *. lia.
  - intros s Hs. rewrite HH by exact Hs. destruct (Z.eqb_spec (pv c) EMPTY) as [Ep|Ep], (Z.eqb_spec s (sc c)) as [Es|Es]; cbn.
    + destruct (dl_nx D Hc) as [N'|(A' & P' & S' & R')]; [left; exact N'|right]. assert (Ax : act' (nx c)) by (apply HA; auto). rewrite (HP _ Ax), Z.eqb_refl. split; [exact Ax|]. split; congruence.
    + destruct (dl_hd D Hs) as [E|(A & S & P)]; [left; exact E|right]. assert (Ax : act' (hd s)) by (apply HA; split; [exact A|congruence]). rewrite (HP _ Ax).
      destruct (Z.eqb_spec (hd s) (nx c)) as [X|X]; [|auto]. exfalso. destruct (dl_nx D Hc) as [N'|(_ & _ & S' & _)]; [rewrite N' in X; pose proof (dl_sc D A); unfold EMPTY in *; lia|]. congruence.
    + destruct (dl_hd D Hs) as [E|(A & S & P)]; [left; exact E|right]. assert (Ax : act' (hd s)) by (apply HA; split; [exact A|congruence]). rewrite (HP _ Ax).
      destruct (Z.eqb_spec (hd s) (nx c)) as [X|X]; [|auto]. exfalso. destruct (dl_nx D Hc) as [N'|(_ & P' & _ & _)]; [rewrite N' in X; pose proof (dl_sc D A); unfold EMPTY in *; lia|].
      rewrite <- X, P in P'. pose proof (dl_sc D Hc). unfold EMPTY in *. lia.
    + destruct (dl_hd D Hs) as [E|(A & S & P)]; [left; exact E|right]. assert (Ax : act' (hd s)) by (apply HA; split; [exact A|congruence]). rewrite (HP _ Ax).
      destruct (Z.eqb_spec (hd s) (nx c)) as [X|X]; [|auto]. exfalso. destruct (dl_nx D Hc) as [N'|(_ & _ & S' & _)]; [rewrite N' in X; pose proof (dl_sc D A); unfold EMPTY in *; lia|]. congruence.
Qed.

(* insertion at the head *)
Lemma dl_insert n act sc nx pv hd rk c act' sc' nx' pv' hd' : dlist n act sc nx pv hd rk -> ~ act c -> 0 <= c < n -> 0 <= sc' c <= n -> (forall x, act' x <-> act x \/ x = c) ->
  (forall x, act x -> sc' x = sc x) -> nx' c = hd (sc' c) -> pv' c = EMPTY -> (forall x, act x -> nx' x = nx x) ->
  (forall x, act x -> pv' x = if x =? hd (sc' c) then c else pv x) -> (forall s, 0 <= s <= n -> hd' s = if s =? sc' c then c else hd s) ->
  exists rk', dlist n act' sc' nx' pv' hd' rk'.
Proof.
  intros D Hn Hc HS HA SC NC PC NX PV HD. set (rk' := fun x => if x =? c then rk (hd (sc' c)) - 1 else rk x). exists rk'.
  assert (NE : forall x, act x -> x <> c) by (intros x Hx ->; contradiction).
  assert (RK : forall x, act x -> rk' x = rk x). { intros x Hx. unfold rk'. destruct (Z.eqb_spec x c); [exfalso; apply (NE x Hx); assumption|reflexivity]. }
  constructor.
  - intros x [Hx| ->]%HA; [rewrite SC by exact Hx; apply (dl_sc D Hx)|auto].
  - intros x [Hx| ->]%HA.
    + rewrite NX by exact Hx. destruct (dl_nx D Hx) as [E|(A & P & S & R)]; [left; exact E|right]. rewrite !SC, !RK by auto. rewrite (PV _ A).
      destruct (Z.eqb_spec (nx x) (hd (sc' c))) as [X|X]; [|rewrite HA; auto]. exfalso. destruct (dl_hd D HS) as [E|(A' & S' & P')].
      * rewrite E in X. pose proof (dl_sc D A). unfold EMPTY in *. lia.
      * rewrite <- X, P in P'. pose proof (dl_sc D Hx). unfold EMPTY in *. lia.
    + rewrite NC. destruct (dl_hd D HS) as [E|(A' & S' & P')]; [left; exact E|right]. rewrite (PV _ A'), Z.eqb_refl, HA, (SC _ A'), (RK _ A'). unfold rk'. rewrite Z.eqb_refl. repeat split; auto. lia.
  - intros x [Hx| ->]%HA.
    + rewrite SC, HD, PV by (auto; apply (dl_sc D Hx)). destruct (dl_pv D Hx) as [(P & H)|(A & N & S)].
      * destruct (Z.eqb_spec x (hd (sc' c))) as [X|X].
        -- right. split; [apply HA; auto|]. split; [congruence|]. destruct (dl_hd D HS) as [E|(A' & S' & P')]; [pose proof (dl_sc D Hx); rewrite E in X; unfold EMPTY in *; lia|]. congruence.
        -- left. split; [exact P|]. destruct (Z.eqb_spec (sc x) (sc' c)) as [Y|Y]; [congruence|exact H].
      * destruct (Z.eqb_spec x (hd (sc' c))) as [X|X].
        -- exfalso. destruct (dl_hd D HS) as [E|(A' & S' & P')]; [pose proof (dl_sc D Hx); rewrite E in X; unfold EMPTY in *; lia|]. rewrite <- X in P'. rewrite P' in A. pose proof (dl_sc D A). unfold EMPTY in *. lia.
        -- right. rewrite NX, SC by auto. rewrite HA. auto.
    + left. split; [exact PC|]. rewrite HD by lia. rewrite Z.eqb_refl. reflexivity.
  - intros s Hs. rewrite HD by exact Hs. destruct (Z.eqb_spec s (sc' c)) as [->|X].
    + right. split; [apply HA; auto|]. auto.
    + destruct (dl_hd D Hs) as [E|(A' & S' & P')]; [left; exact E|right]. rewrite HA, SC, PV by auto. split; [auto|]. split; [auto|].
      destruct (Z.eqb_spec (hd s) (hd (sc' c))) as [Y|Y]; [|exact P']. exfalso. destruct (dl_hd D HS) as [E|(A'' & S'' & P'')]; [|congruence].
      rewrite E in Y. pose proof (dl_sc D A'). unfold EMPTY in *. lia.
Qed.

(*----------------------------------------------------------------------------*)
(* fo_min *)
Lemma fo_min_ok n act sc nx pv head rk min0 : dlist n act sc nx pv (rd head) rk -> (forall c, {act c} + {~ act c}) -> zlen head = n + 1 ->
  (exists c, act c) -> 0 <= min0 -> (forall c, act c -> min0 <= sc c) ->
  forall fuel, n - min0 < Z.of_nat fuel + 1 ->
  exists mn, fo_min fuel n head min0 = Ok mn /\ 0 <= mn <= n /\ rd head mn <> EMPTY /\ forall c, act c -> mn <= sc c.
Proof.
  intros D Dec LH (c0 & A0) H0 HM fuel. revert min0 H0 HM. induction fuel as [|fuel IH]; intros min0 H0 HM Hf.
  - cbn [fo_min]. pose proof (dl_sc D A0). pose proof (HM c0 A0). assert (min0 = n) by lia. rewrite get_rd by lia. cbn [bind].
    replace (min0 <? n) with false by (symmetry; apply Z.ltb_ge; lia). rewrite Bool.andb_false_r. exists min0. split; [reflexivity|]. split; [lia|]. split; [|auto].
    pose proof (dl_nonempty D Dec A0). replace min0 with (sc c0) by lia. assumption.
  - cbn [fo_min]. pose proof (dl_sc D A0). pose proof (HM c0 A0). rewrite get_rd by lia. cbn [bind]. destruct (Z.eqb_spec (rd head min0) EMPTY) as [E|E]; cbn [andb].
    + assert (N : forall c, act c -> min0 <> sc c). { intros c Hc X. apply (dl_nonempty D Dec Hc). rewrite <- X. exact E. }
      destruct (Z.ltb_spec min0 n) as [X|X].
      * apply IH; [lia| |lia]. intros c Hc. specialize (HM c Hc). specialize (N c Hc). lia.
      * exfalso. apply (N c0 A0). lia.
    + exists min0. repeat split; auto; lia.
Qed.
