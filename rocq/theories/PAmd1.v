(* AMD, part 1: degree lists, chains, flags, the forest of eliminated nodes. *)
From Verif Require Import Base Det DetZ Spec MColamd MAmd PCol1.
From Verif Require Import PCol3.
Set Implicit Arguments.
Open Scope Z_scope.
Set Bullet Behavior "Strict Subproofs".

(* the degree lists, in local form; rk grows along each list *)
Record dlist (n : Z) (act : Z -> Prop) (sc nx pv hd rk : Z -> Z) : Prop := {
  dl_sc : forall c, act c -> 0 <= c < n /\ 0 <= sc c < n;
  dl_nx : forall c, act c -> nx c = EMPTY \/ (act (nx c) /\ pv (nx c) = c /\ sc (nx c) = sc c /\ rk c < rk (nx c));
  dl_pv : forall c, act c -> (pv c = EMPTY /\ hd (sc c) = c) \/ (act (pv c) /\ nx (pv c) = c /\ sc (pv c) = sc c);
  dl_hd : forall s, 0 <= s < n -> hd s = EMPTY \/ (act (hd s) /\ sc (hd s) = s /\ pv (hd s) = EMPTY) }.

Arguments dl_sc {n act sc nx pv hd rk} _ {c} _.
Arguments dl_nx {n act sc nx pv hd rk} _ {c} _.
Arguments dl_pv {n act sc nx pv hd rk} _ {c} _.
Arguments dl_hd {n act sc nx pv hd rk} _ {s} _.

Lemma dlist_ext n act act' sc nx pv hd sc' nx' pv' hd' rk : dlist n act sc nx pv hd rk -> (forall c, act' c <-> act c) ->
  (forall c, act c -> sc' c = sc c /\ nx' c = nx c /\ pv' c = pv c) -> (forall s, 0 <= s < n -> hd' s = hd s) -> dlist n act' sc' nx' pv' hd' rk.
Proof.
  intros D HA H HH. constructor.
  - intros c Hc. apply HA in Hc. destruct (H c Hc) as (-> & _). apply (dl_sc D Hc).
  - intros c Hc. apply HA in Hc. destruct (H c Hc) as (-> & -> & _). destruct (dl_nx D Hc) as [E|(A & P & S & R)]; [left; exact E|right].
    destruct (H _ A) as (-> & _ & ->). rewrite HA. auto.
  - intros c Hc. apply HA in Hc. destruct (H c Hc) as (-> & _ & ->). rewrite HH by (apply (dl_sc D Hc)). destruct (dl_pv D Hc) as [E|(A & P & S)]; [left; exact E|right].
    destruct (H _ A) as (-> & -> & _). rewrite HA. auto.
  - intros s Hs. rewrite HH by exact Hs. destruct (dl_hd D Hs) as [E|(A & S & P)]; [left; exact E|right]. destruct (H _ A) as (-> & _ & ->). rewrite HA. auto.
Qed.

(* every active column is in a non-empty list *)
Lemma dl_nonempty n act sc nx pv hd rk c : dlist n act sc nx pv hd rk -> (forall c, {act c} + {~ act c}) -> act c -> hd (sc c) <> EMPTY.
Proof.
  intros D Dec Hc. destruct (@argmin n (fun x => act x /\ sc x = sc c) rk) as (x & Hx & (Ax & Sx) & Min).
  - intros x. destruct (Dec x), (Z.eq_dec (sc x) (sc c)); [left; auto| | |]; right; tauto.
  - exists c. split; [apply (dl_sc D Hc)|auto].
  - destruct (dl_pv D Ax) as [(_ & E)|(A & N & S)].
    + rewrite <- Sx, E. unfold EMPTY. lia.
    + exfalso. destruct (dl_nx D A) as [E|(_ & _ & _ & R)]; [rewrite E in N; unfold EMPTY in N; lia|]. rewrite N in R.
      specialize (Min (pv x)). pose proof (dl_sc D A). specialize (Min ltac:(lia)). rewrite S in Min. specialize (Min (conj A Sx)). lia.
Qed.

Arguments dl_nonempty {n act sc nx pv hd rk c} _ _ _ _.
(* removal *)
Lemma dl_remove n act sc nx pv hd rk c act' nx' pv' hd' : dlist n act sc nx pv hd rk -> act c -> (forall x, act' x <-> act x /\ x <> c) ->
  (forall x, act' x -> nx' x = if x =? pv c then nx c else nx x) -> (forall x, act' x -> pv' x = if x =? nx c then pv c else pv x) ->
  (forall s, 0 <= s < n -> hd' s = if (pv c =? EMPTY) && (s =? sc c) then nx c else hd s) -> dlist n act' sc nx' pv' hd' rk.
Proof.
  intros D Hc HA HN HP HH. pose proof (dl_sc D Hc) as SC.
  assert (Nself : nx c <> c). { destruct (dl_nx D Hc) as [E|(_ & _ & _ & R)]; [rewrite E; unfold EMPTY; lia|]. intros X. rewrite X in R. lia. }
  constructor.
  - intros x Hx. apply HA in Hx. destruct Hx as (Hx & _). apply (dl_sc D Hx).
  - intros x Hx'. pose proof Hx' as (Hx & Ne)%HA. rewrite (HN _ Hx'). destruct (Z.eqb_spec x (pv c)) as [E|E].
    + destruct (dl_pv D Hc) as [(P & _)|(A & N & S)]; [rewrite P in E; pose proof (dl_sc D Hx); unfold EMPTY in *; lia|]. rewrite <- E in A, N, S.
      destruct (dl_nx D Hc) as [N'|(A' & P' & S' & R')]; [left; exact N'|right]. assert (act' (nx c)) by (apply HA; auto).
      destruct (dl_nx D Hx) as [X|(_ & _ & _ & R)]; [rewrite X in N; unfold EMPTY in N; lia|]. rewrite N in R.
      rewrite (HP _ H), Z.eqb_refl. repeat split; auto; congruence || lia.
    + destruct (dl_nx D Hx) as [N|(A & P & S & R)]; [left; exact N|right]. assert (nx x <> c) by congruence. assert (act' (nx x)) by (apply HA; auto).
      rewrite (HP _ H0). destruct (Z.eqb_spec (nx x) (nx c)) as [E'|E']; [|auto]. exfalso.
      destruct (dl_nx D Hc) as [N'|(_ & P' & _)]; [|congruence]. rewrite N' in E'. pose proof (dl_sc D A). unfold EMPTY in *. lia.
  - intros x Hx'. pose proof Hx' as (Hx & Ne)%HA. pose proof (dl_sc D Hx) as SX. rewrite (HP _ Hx'), HH by lia. destruct (Z.eqb_spec x (nx c)) as [E|E].
    + destruct (dl_nx D Hc) as [N'|(A' & P' & S' & R')]; [rewrite N' in E; unfold EMPTY in *; lia|]. rewrite <- E in *. destruct (dl_pv D Hc) as [(P & H)|(A & N & S)].
      * left. rewrite P. split; [reflexivity|]. rewrite S', !Z.eqb_refl. reflexivity.
      * right. assert (pv c <> c). { intros X. rewrite X in N. congruence. } assert (Ap : act' (pv c)) by (apply HA; auto). rewrite (HN _ Ap), Z.eqb_refl. repeat split; auto; congruence.
    + destruct (dl_pv D Hx) as [(P & H)|(A & N & S)].
      * left. split; [exact P|]. destruct (Z.eqb_spec (pv c) EMPTY) as [Ep|Ep], (Z.eqb_spec (sc x) (sc c)) as [Es|Es]; cbn; auto. exfalso.
        destruct (dl_pv D Hc) as [(_ & H')|(A' & _)]; [congruence|]. pose proof (dl_sc D A'). unfold EMPTY in *; lia.
      * right. assert (pv x <> c) by congruence. assert (Ap : act' (pv x)) by (apply HA; auto). rewrite (HN _ Ap). destruct (Z.eqb_spec (pv x) (pv c)) as [E'|E']; [|auto]. exfalso.
        destruct (dl_pv D Hc) as [(P & _)|(_ & N' & _)]; [|congruence]. rewrite P in E'. pose proof (dl_sc D A). unfold EMPTY in *. lia.
  - intros s Hs. rewrite HH by exact Hs. destruct (Z.eqb_spec (pv c) EMPTY) as [Ep|Ep], (Z.eqb_spec s (sc c)) as [Es|Es]; cbn.
    + destruct (dl_nx D Hc) as [N'|(A' & P' & S' & R')]; [left; exact N'|right]. assert (Ax : act' (nx c)) by (apply HA; auto). rewrite (HP _ Ax), Z.eqb_refl. split; [exact Ax|]. split; congruence.
    + destruct (dl_hd D Hs) as [E|(A & S & P)]; [left; exact E|right]. assert (Ax : act' (hd s)) by (apply HA; split; [exact A|congruence]). rewrite (HP _ Ax).
      destruct (Z.eqb_spec (hd s) (nx c)) as [X|X]; [|auto]. exfalso. destruct (dl_nx D Hc) as [N'|(_ & _ & S' & _)]; [rewrite N' in X; pose proof (dl_sc D A); unfold EMPTY in *; lia|]. congruence.
    + destruct (dl_hd D Hs) as [E|(A & S & P)]; [left; exact E|right]. assert (Ax : act' (hd s)) by (apply HA; split; [exact A|congruence]). rewrite (HP _ Ax).
      destruct (Z.eqb_spec (hd s) (nx c)) as [X|X]; [|auto]. exfalso. destruct (dl_nx D Hc) as [N'|(_ & P' & _ & _)]; [rewrite N' in X; pose proof (dl_sc D A); unfold EMPTY in *; lia|].
      rewrite <- X, P in P'. pose proof (dl_sc D Hc). unfold EMPTY in *. lia.
    + destruct (dl_hd D Hs) as [E|(A & S & P)]; [left; exact E|right]. assert (Ax : act' (hd s)) by (apply HA; split; [exact A|congruence]). rewrite (HP _ Ax).
      destruct (Z.eqb_spec (hd s) (nx c)) as [X|X]; [|auto]. exfalso. destruct (dl_nx D Hc) as [N'|(_ & _ & S' & _)]; [rewrite N' in X; pose proof (dl_sc D A); unfold EMPTY in *; lia|]. congruence.
Qed.

(* insertion at the head *)
Lemma dl_insert n act sc nx pv hd rk c act' sc' nx' pv' hd' : dlist n act sc nx pv hd rk -> ~ act c -> 0 <= c < n -> 0 <= sc' c < n -> (forall x, act' x <-> act x \/ x = c) ->
  (forall x, act x -> sc' x = sc x) -> nx' c = hd (sc' c) -> pv' c = EMPTY -> (forall x, act x -> nx' x = nx x) ->
  (forall x, act x -> pv' x = if x =? hd (sc' c) then c else pv x) -> (forall s, 0 <= s < n -> hd' s = if s =? sc' c then c else hd s) ->
  exists rk', dlist n act' sc' nx' pv' hd' rk'.
Proof.
  intros D Hn Hc HS HA SC NC PC NX PV HD. set (rk' := fun x => if x =? c then rk (hd (sc' c)) - 1 else rk x). exists rk'.
  assert (NE : forall x, act x -> x <> c) by (intros x Hx ->; contradiction).
  assert (RK : forall x, act x -> rk' x = rk x). { intros x Hx. unfold rk'. destruct (Z.eqb_spec x c); [exfalso; apply (NE x Hx); assumption|reflexivity]. }
  constructor.
  - intros x [Hx| ->]%HA; [rewrite SC by exact Hx; apply (dl_sc D Hx)|auto].
  - intros x [Hx| ->]%HA.
    + rewrite NX by exact Hx. destruct (dl_nx D Hx) as [E|(A & P & S & R)]; [left; exact E|right]. rewrite !SC, !RK by auto. rewrite (PV _ A).
      destruct (Z.eqb_spec (nx x) (hd (sc' c))) as [X|X]; [|rewrite HA; auto]. exfalso. destruct (dl_hd D HS) as [E|(A' & S' & P')].
      * rewrite E in X. pose proof (dl_sc D A). unfold EMPTY in *. lia.
      * rewrite <- X, P in P'. pose proof (dl_sc D Hx). unfold EMPTY in *. lia.
    + rewrite NC. destruct (dl_hd D HS) as [E|(A' & S' & P')]; [left; exact E|right]. rewrite (PV _ A'), Z.eqb_refl, HA, (SC _ A'), (RK _ A'). unfold rk'. rewrite Z.eqb_refl. repeat split; auto. lia.
  - intros x [Hx| ->]%HA.
    + rewrite SC, HD, PV by (auto; apply (dl_sc D Hx)). destruct (dl_pv D Hx) as [(P & H)|(A & N & S)].
      * destruct (Z.eqb_spec x (hd (sc' c))) as [X|X].
        -- right. split; [apply HA; auto|]. split; [congruence|]. destruct (dl_hd D HS) as [E|(A' & S' & P')]; [pose proof (dl_sc D Hx); rewrite E in X; unfold EMPTY in *; lia|]. congruence.
        -- left. split; [exact P|]. destruct (Z.eqb_spec (sc x) (sc' c)) as [Y|Y]; [congruence|exact H].
      * destruct (Z.eqb_spec x (hd (sc' c))) as [X|X].
        -- exfalso. destruct (dl_hd D HS) as [E|(A' & S' & P')]; [pose proof (dl_sc D Hx); rewrite E in X; unfold EMPTY in *; lia|]. rewrite <- X in P'. rewrite P' in A. pose proof (dl_sc D A). unfold EMPTY in *. lia.
        -- right. rewrite NX, SC by auto. rewrite HA. auto.
    + left. split; [exact PC|]. rewrite HD by lia. rewrite Z.eqb_refl. reflexivity.
  - intros s Hs. rewrite HD by exact Hs. destruct (Z.eqb_spec s (sc' c)) as [->|X].
    + right. split; [apply HA; auto|]. auto.
    + destruct (dl_hd D Hs) as [E|(A' & S' & P')]; [left; exact E|right]. rewrite HA, SC, PV by auto. split; [auto|]. split; [auto|].
      destruct (Z.eqb_spec (hd s) (hd (sc' c))) as [Y|Y]; [|exact P']. exfalso. destruct (dl_hd D HS) as [E|(A'' & S'' & P'')]; [|congruence].
      rewrite E in Y. pose proof (dl_sc D A'). unfold EMPTY in *. lia.
Qed.


Lemma dg_remove_ok n act Degree Next Last Head rk c : dlist n act (rd Degree) (rd Next) (rd Last) (rd Head) rk -> act c ->
  zlen Degree = n -> zlen Last = n -> zlen Next = n -> zlen Head = n ->
  wp (dg_remove c Degree Next Last Head) (fun '(Next', Last', Head') => zlen Next' = n /\ zlen Last' = n /\ zlen Head' = n /\
    dlist n (fun x => act x /\ x <> c) (rd Degree) (rd Next') (rd Last') (rd Head') rk) nerr.
Proof.
  intros D Hc L1 L2 L3 L4. destruct (dl_sc D Hc) as (Rc & Sc). unfold dg_remove. wg; [lia|]. wg; [lia|].
  assert (PVR : rd Last c = EMPTY \/ 0 <= rd Last c < n). { destruct (dl_pv D Hc) as [(E & _)|(A & _)]; [left; exact E|right; apply (dl_sc D A)]. }
  assert (NXR : rd Next c = EMPTY \/ 0 <= rd Next c < n). { destruct (dl_nx D Hc) as [E|(A & _)]; [left; exact E|right; apply (dl_sc D A)]. }
  assert (G : forall Cn' Cp' head', zlen Cp' = n -> zlen Cn' = n -> zlen head' = n ->
     (forall x, 0 <= x < n -> rd Cn' x = if x =? rd Last c then rd Next c else rd Next x) -> (forall x, 0 <= x < n -> rd Cp' x = if x =? rd Next c then rd Last c else rd Last x) ->
     (forall s, 0 <= s < n -> rd head' s = if (rd Last c =? EMPTY) && (s =? rd Degree c) then rd Next c else rd Head s) ->
     zlen Cn' = n /\ zlen Cp' = n /\ zlen head' = n /\ dlist n (fun x => act x /\ x <> c) (rd Degree) (rd Cn') (rd Cp') (rd head') rk).
  { intros Cn' Cp' head' Q1 Q2 Q3 Q4 Q5 Q6. repeat (split; [assumption|]). apply (@dl_remove n act (rd Degree) (rd Next) (rd Last) (rd Head) rk c); auto.
    - intros x. reflexivity.
    - intros x (Hx & _). apply Q4. apply (dl_sc D Hx).
    - intros x (Hx & _). apply Q5. apply (dl_sc D Hx). }
  apply wp_bind. eapply wp_conseq with (Q := fun L => zlen L = n /\ forall x, 0 <= x < n -> rd L x = if x =? rd Next c then rd Last c else rd Last x).
  { destruct (Z.eqb_spec (rd Next c) EMPTY) as [E|E]; cbn [negb].
    - cbn. split; [exact L2|]. intros x Hx. rewrite E. destruct (Z.eqb_spec x EMPTY); [unfold EMPTY in *; lia|reflexivity].
    - apply wp_set; [lia|]. rewrite zlen_wr. split; [exact L2|]. intros x Hx. apply rd_wr; lia. }
  intros L (LL & EL). destruct (Z.eqb_spec (rd Last c) EMPTY) as [E|E]; cbn [negb].
  - wg; [lia|]. ws; [lia|]. cbn. apply G; rewrite ?zlen_wr; auto.
    + intros x Hx. rewrite E. destruct (Z.eqb_spec x EMPTY); [unfold EMPTY in *; lia|reflexivity].
    + intros s Hs. cbn [andb]. apply rd_wr; lia.
  - ws; [lia|]. cbn. apply G; rewrite ?zlen_wr; auto. intros x Hx. apply rd_wr; lia.
Qed.

Lemma dg_insert_ok n act sc Next Last Head rk c s act' (sc' : Z -> Z) : dlist n act sc (rd Next) (rd Last) (rd Head) rk -> ~ act c -> 0 <= c < n -> 0 <= s < n ->
  zlen Last = n -> zlen Next = n -> zlen Head = n -> (forall x, act' x <-> act x \/ x = c) -> sc' c = s -> (forall x, act x -> sc' x = sc x) -> rd Last c = EMPTY ->
  wp (dg_insert c s Next Last Head) (fun '(Next', Last', Head') => zlen Next' = n /\ zlen Last' = n /\ zlen Head' = n /\
    (forall x, 0 <= x < n -> rd Last' x <> rd Last x -> act x) /\ exists rk', dlist n act' sc' (rd Next') (rd Last') (rd Head') rk') nerr.
Proof.
  intros D NA Rc Rs L1 L2 L3 HA SC SX LE. unfold dg_insert. wg; [lia|]. set (nx := rd Head s). apply wp_bind.
  assert (NX : nx = EMPTY \/ (act nx /\ 0 <= nx < n)). { destruct (dl_hd D Rs) as [E|(A & _)]; [left; exact E|right]. split; [exact A|apply (dl_sc D A)]. }
  eapply wp_conseq with (Q := fun L => zlen L = n /\ rd L c = EMPTY /\ (forall x, 0 <= x < n -> rd L x <> rd Last x -> act x) /\ forall x, act x -> rd L x = if x =? nx then c else rd Last x).
  { destruct (Z.eqb_spec nx EMPTY) as [E|E]; cbn [negb].
    - cbn. split; [exact L1|]. split; [exact LE|]. split; [intros x Hx N; congruence|]. intros x Ax. destruct (dl_sc D Ax). rewrite E. destruct (Z.eqb_spec x EMPTY); [unfold EMPTY in *; lia|reflexivity].
    - destruct NX as [|(NX1 & NX2)]; [contradiction|]. apply wp_set; [lia|]. rewrite zlen_wr. split; [exact L1|]. split; [|split].
      + rewrite rd_wr_ne; [exact LE|lia|lia|]. intros X. apply NA. rewrite <- X. exact NX1.
      + intros x Hx N. destruct (Z.eq_dec x nx) as [->|N']; [exact NX1|]. rewrite rd_wr_ne in N by lia. congruence.
      + intros x Ax. destruct (dl_sc D Ax). apply rd_wr; lia. }
  intros L (LL & EL & WL & XL). ws; [lia|]. ws; [lia|]. cbn. rewrite !zlen_wr. split; [exact L2|]. split; [exact LL|]. split; [exact L3|]. split; [exact WL|].
  apply (@dl_insert n act sc (rd Next) (rd Last) (rd Head) rk c act' sc'); auto; rewrite ?SC; auto.
  - apply rd_wr_eq. lia.
  - intros x Ax. destruct (dl_sc D Ax). apply rd_wr_ne; [lia|lia|]. intros ->. contradiction.
  - intros h Hh. apply rd_wr; lia.
Qed.

(*----------------------------------------------------------------------------*)
(* the least degree *)
Lemma a2_min_ok n act sc nx pv Head rk : dlist n act sc nx pv (rd Head) rk -> (forall c, {act c} + {~ act c}) -> zlen Head = n -> (exists c, act c) ->
  forall cnt deg me, 0 <= deg -> Z.of_nat cnt = n - deg -> (forall c, act c -> deg <= sc c) ->
  wp (a2_min cnt deg me Head) (fun '(d, m) => deg <= d < n /\ act m /\ sc m = d /\ pv m = EMPTY /\ rd Head d = m /\ forall c, act c -> d <= sc c) nerr.
Proof.
  intros D Dec LH (c0 & A0). induction cnt as [|cnt IH]; intros deg me H0 HC HM.
  - pose proof (dl_sc D A0). pose proof (HM c0 A0). lia.
  - cbn [a2_min]. wg; [lia|]. destruct (Z.eqb_spec (rd Head deg) EMPTY) as [E|E]; cbn [negb].
    + eapply wp_conseq; [apply (IH (deg + 1)); [lia|lia|]|].
      * intros c Hc. specialize (HM c Hc). assert (deg <> sc c); [|lia]. intros X. apply (dl_nonempty D Dec Hc). rewrite <- X. exact E.
      * intros [d m] (X1 & X2). split; [lia|exact X2].
    + cbn. destruct (@dl_hd _ _ _ _ _ _ _ D deg ltac:(lia)) as [X|(X1 & X2 & X3)]; [contradiction|]. repeat split; auto; lia.
Qed.

(*----------------------------------------------------------------------------*)
(* flags *)
Lemma clear_flag_ok n wflg wbig W : 0 <= n -> zlen W = n -> (forall x, 0 <= x < n -> 0 <= rd W x < wflg) ->
  wp (clear_flag wflg wbig W n) (fun '(W', w') => zlen W' = n /\ 2 <= w' /\ (forall x, 0 <= x < n -> 0 <= rd W' x < w') /\
    forall x, 0 <= x < n -> (rd W' x = 0 <-> rd W x = 0)) nerr.
Proof.
  intros Hn LW HW. unfold clear_flag. destruct ((wflg <? 2) || (wflg >=? wbig)) eqn:E.
  - apply wp_bind. eapply wp_conseq.
    { apply wp_for with (I := fun i W' => zlen W' = n /\ (forall x, 0 <= x < n -> i <= x -> rd W' x = rd W x) /\ (forall x, 0 <= x < i -> 0 <= rd W' x < 2 /\ (rd W' x = 0 <-> rd W x = 0))); [exact Hn| |].
      - repeat split; auto; lia.
      - intros i W' Hi (Q1 & Q2 & Q3). wg; [lia|]. rewrite Q2 by lia. destruct (Z.eqb_spec (rd W i) 0) as [Z0|Z0]; cbn [negb].
        + cbn. split; [exact Q1|]. split; [intros x Hx Hx'; apply Q2; lia|]. intros x Hx. destruct (Z.eq_dec x i) as [->|]; [rewrite Q2 by lia; lia|apply Q3; lia].
        + apply wp_set; [lia|]. rewrite zlen_wr. split; [exact Q1|]. split.
          * intros x Hx Hx'. rewrite rd_wr_ne by lia. apply Q2; lia.
          * intros x Hx. destruct (Z.eq_dec x i) as [->|]; [rewrite rd_wr_eq by lia; lia|rewrite rd_wr_ne by lia; apply Q3; lia]. }
    intros W' (Q1 & Q2 & Q3). cbn. split; [exact Q1|]. split; [lia|]. split; intros x Hx; apply Q3; exact Hx.
  - apply Bool.orb_false_iff in E. destruct E as (E & _). apply Z.ltb_ge in E. cbn. repeat split; auto; apply HW; auto.
Qed.

(*----------------------------------------------------------------------------*)
(* chains *)
Fixpoint chain (nx : Z -> Z) (f : Z) (l : list Z) : Prop := match l with [] => f = EMPTY | a :: l' => f = a /\ chain nx (nx a) l' end.
Lemma chain_ext nx nx' l : forall f, (forall x, In x l -> nx' x = nx x) -> chain nx f l -> chain nx' f l.
Proof.
  induction l as [|a l IH]; intros f H C; cbn in *; [exact C|]. destruct C as (E & C). split; [exact E|]. rewrite H by auto. apply IH; auto.
Qed.
Lemma nodup_len n (l : list Z) : NoDup l -> (forall x, In x l -> 0 <= x < n) -> Z.of_nat (length l) <= Z.max 0 n.
Proof.
  intros N R. destruct (Z_lt_le_dec n 0) as [Hn|Hn].
  - destruct l as [|a l]; [cbn; lia|]. specialize (R a (or_introl eq_refl)). lia.
  - assert (length l <= length (zseq 0 n))%nat. { apply NoDup_incl_length; [exact N|]. intros x Hx. apply in_zseq. apply R. exact Hx. }
    unfold zseq in H. rewrite map_length, seq_length in H. lia.
Qed.

(*----------------------------------------------------------------------------*)
(* The forest.  pe x: >= 0 in use, -1 a root, otherwise FLIP of the parent; nv x: size of the group of x, up to sign, 0 if x is absorbed;
   ev x: x is an element; grp x: the node that x is absorbed in (-1: dense); d x: when x got its parent. *)
Record fo (n : Z) (pe nv : Z -> Z) (ev : Z -> bool) (grp d : Z -> Z) (T : Z) : Prop := {
  fo_nv : forall x, 0 <= x < n -> nv x <> 0 -> grp x = x /\ Z.abs (nv x) = sumz n (fun y => b2z (grp y =? x));
  fo_dead : forall x, 0 <= x < n -> nv x = 0 -> (pe x = -1 /\ grp x = -1) \/ (pe x < -1 /\ 0 <= grp x < n /\ nv (grp x) <> 0 /\ grp (FLIP (pe x)) = grp x);
  fo_par : forall x, 0 <= x < n -> pe x < -1 -> 0 <= FLIP (pe x) < n /\ d x < T /\ (-1 <= pe (FLIP (pe x)) \/ d x < d (FLIP (pe x)));
  fo_el : forall x, 0 <= x < n -> pe x < -1 -> nv x <> 0 -> ev (FLIP (pe x)) = true;
  fo_ev : forall x, 0 <= x < n -> ev x = true -> nv x <> 0 }.
Definition forest n pe nv ev := exists grp d T, fo n pe nv ev grp d T.

Lemma forest_ext n pe nv pe' nv' ev ev' : forest n pe nv ev -> (forall x, 0 <= x < n -> Z.abs (nv' x) = Z.abs (nv x)) ->
  (forall x, 0 <= x < n -> pe' x = pe x \/ (nv x <> 0 /\ -1 <= pe x /\ -1 <= pe' x)) ->
  (forall x, 0 <= x < n -> ev x = true -> ev' x = true) -> (forall x, 0 <= x < n -> ev' x = true -> nv x <> 0) -> forest n pe' nv' ev'.
Proof.
  intros (grp & d & T & F) HN HP HE HE'. exists grp, d, T.
  assert (Z0 : forall x, 0 <= x < n -> nv' x = 0 <-> nv x = 0) by (intros x Hx; specialize (HN x Hx); lia).
  assert (PF : forall x, 0 <= x < n -> nv x = 0 -> pe' x = pe x). { intros x Hx Nx. destruct (HP x Hx) as [E|(E & _)]; [exact E|contradiction]. }
  assert (PL : forall x, 0 <= x < n -> pe' x < -1 -> pe' x = pe x). { intros x Hx P. destruct (HP x Hx) as [E|(_ & _ & E)]; [exact E|lia]. }
  constructor.
  - intros x Hx N. rewrite HN by exact Hx. apply (fo_nv F Hx). rewrite <- Z0; auto.
  - intros x Hx N. apply Z0 in N; [|exact Hx]. rewrite (PF x Hx N). destruct (fo_dead F Hx N) as [X|(X1 & X2 & X3 & X4)]; [left; exact X|right]. repeat split; auto; try lia. rewrite Z0; auto.
  - intros x Hx P. pose proof (PL x Hx P) as E. rewrite E in *. destruct (fo_par F Hx P) as (X1 & X2 & X3). split; [exact X1|]. split; [exact X2|]. destruct X3 as [X3|X3]; [left|right; exact X3].
    destruct (HP _ X1) as [Y|(_ & _ & Y)]; [rewrite Y; exact X3|exact Y].
  - intros x Hx P N. pose proof (PL x Hx P) as E. rewrite E in *. rewrite Z0 in N by exact Hx. destruct (fo_par F Hx P) as (X1 & _). apply HE; [exact X1|]. apply (fo_el F Hx P N).
  - intros x Hx E. rewrite Z0 by exact Hx. apply HE'; auto.
Qed.

Lemma flip_flip x : FLIP (FLIP x) = x. Proof. unfold FLIP. lia. Qed.

(* x gets the parent q *)
Lemma forest_absorb n pe nv ev e q pe' : forest n pe nv ev -> 0 <= e < n -> 0 <= q < n -> e <> q -> -1 <= pe e -> -1 <= pe q -> ev q = true -> nv e <> 0 ->
  pe' e = FLIP q -> (forall x, 0 <= x < n -> x <> e -> pe' x = pe x) -> forest n pe' nv ev.
Proof.
  intros (grp & d & T & F) He Hq N Pe Pq Eq Ne E H. exists grp, (fun x => if x =? e then T else d x), (T + 1).
  assert (FE : FLIP q < -1) by (unfold FLIP; lia).
  constructor.
  - apply (fo_nv F).
  - intros x Hx X. assert (x <> e) by congruence. rewrite H by auto. destruct (fo_dead F Hx X) as [Y|Y]; [left; exact Y|right; exact Y].
  - intros x Hx P. destruct (Z.eqb_spec x e) as [->|Nx].
    + rewrite E, flip_flip. split; [exact Hq|]. split; [lia|]. left. rewrite H by auto. exact Pq.
    + rewrite H in * by auto. destruct (fo_par F Hx P) as (X1 & X2 & X3). split; [exact X1|]. split; [lia|]. destruct (Z.eqb_spec (FLIP (pe x)) e) as [Y|Y]; [right; lia|]. rewrite H by auto. exact X3.
  - intros x Hx P X. destruct (Z.eq_dec x e) as [->|Nx]; [rewrite E, flip_flip; exact Eq|]. rewrite H in * by auto. apply (fo_el F Hx P X).
  - apply (fo_ev F).
Qed.

(* the variable j is absorbed in i *)
Lemma forest_kill n pe nv ev i j pe' nv' : forest n pe nv ev -> 0 <= i < n -> 0 <= j < n -> i <> j -> -1 <= pe i -> 0 <= pe j -> nv i <> 0 -> nv j <> 0 -> ev j = false ->
  pe' j = FLIP i -> (forall x, 0 <= x < n -> x <> j -> pe' x = pe x) -> nv' j = 0 -> Z.abs (nv' i) = Z.abs (nv i) + Z.abs (nv j) ->
  (forall x, 0 <= x < n -> x <> i -> x <> j -> nv' x = nv x) -> forest n pe' nv' ev.
Proof.
  intros (grp & d & T & F) Hi Hj N Pi Pj Ni Nj Ej E H Zj Zi HN. destruct (fo_nv F Hi Ni) as (Gi & Ci). destruct (fo_nv F Hj Nj) as (Gj & Cj).
  exists (fun x => if grp x =? j then i else grp x), (fun x => if x =? j then T else d x), (T + 1).
  assert (FE : FLIP i < -1) by (unfold FLIP; lia).
  assert (NZ : forall x, 0 <= x < n -> x <> j -> nv' x <> 0 <-> nv x <> 0). { intros x Hx Nx. destruct (Z.eq_dec x i) as [->|Nx']; [lia|]. rewrite HN by auto. tauto. }
  constructor.
  - intros x Hx X. assert (Xj : x <> j) by congruence. assert (X' : nv x <> 0) by (apply NZ; auto). destruct (fo_nv F Hx X') as (Y1 & Y2). rewrite Y1. destruct (Z.eqb_spec x j); [contradiction|]. split; [reflexivity|].
    destruct (Z.eq_dec x i) as [->|Xi].
    + rewrite Zi, Ci, Cj, <- sumz_add. apply sumz_ext. intros y Hy. destruct (Z.eqb_spec (grp y) j) as [->|G]; [rewrite Z.eqb_refl; destruct (Z.eqb_spec j i); [congruence|reflexivity]|]. unfold b2z. destruct (grp y =? i); lia.
    + rewrite HN, Y2 by auto. apply sumz_ext. intros y Hy. destruct (Z.eqb_spec (grp y) j) as [->|G]; [|reflexivity]. destruct (Z.eqb_spec j x), (Z.eqb_spec i x); congruence || reflexivity.
  - intros x Hx X. destruct (Z.eq_dec x j) as [->|Xj].
    + right. rewrite E, flip_flip, Gj, Z.eqb_refl, Gi. destruct (Z.eqb_spec i j); [contradiction|]. repeat split; try lia.
    + assert (X' : nv x = 0). { destruct (Z.eq_dec (nv x) 0) as [Y|Y]; [exact Y|]. apply NZ in Y; auto. contradiction. } rewrite H by auto. destruct (fo_dead F Hx X') as [(Y1 & Y2)|(Y1 & Y2 & Y3 & Y4)].
      * left. split; [exact Y1|]. rewrite Y2. destruct (Z.eqb_spec (-1) j); [lia|reflexivity].
      * right. split; [exact Y1|]. rewrite Y4. destruct (Z.eqb_spec (grp x) j) as [G|G]; [repeat split; lia|]. repeat split; try lia. apply NZ; auto.
  - intros x Hx P. destruct (Z.eqb_spec x j) as [->|Nx].
    + rewrite E, flip_flip. split; [exact Hi|]. split; [lia|]. left. rewrite H by auto. exact Pi.
    + rewrite H in * by auto. destruct (fo_par F Hx P) as (X1 & X2 & X3). split; [exact X1|]. split; [lia|]. destruct (Z.eqb_spec (FLIP (pe x)) j) as [Y|Y]; [right; lia|]. rewrite H by auto. exact X3.
  - intros x Hx P X. assert (Xj : x <> j) by congruence. rewrite H in * by auto. apply NZ in X; auto. apply (fo_el F Hx P X).
  - intros x Hx X. assert (x <> j) by congruence. apply NZ; auto. apply (fo_ev F Hx X).
Qed.
