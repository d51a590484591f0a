(* COLAMD, part 2: the ledger of eliminated columns, and order_children. *)
From Verif Require Import Base Det DetZ Spec MColamd PCol1.
Set Implicit Arguments.
Open Scope Z_scope.
Set Bullet Behavior "Strict Subproofs".

(* The ledger.  cs, ct, co: start (>= 0 alive, -1 ordered, -2 absorbed), thickness or parent, order.
   grp c: the principal column that c belongs to;  sz: grows along the parents. *)
Record led (n n2 k : Z) (cs ct co grp sz : Z -> Z) : Prop := {
  ld_k : 0 <= k /\ k <= n2 /\ n2 <= n;
  ld_cs : forall c, 0 <= c < n -> -2 <= cs c;
  ld_grp : forall c, 0 <= c < n -> 0 <= grp c < n /\ cs (grp c) <> -2;
  ld_self : forall c, 0 <= c < n -> cs c <> -2 -> grp c = c /\ sz c = ct c;
  ld_par : forall c, 0 <= c < n -> cs c = -2 -> 0 <= ct c < n /\ grp (ct c) = grp c /\ sz c < sz (ct c) /\ co c = EMPTY;
  ld_sz : forall c, 0 <= c < n -> 0 <= sz c <= n;
  ld_cnt : forall c, 0 <= c < n -> cs c <> -2 -> ct c = sumz n (fun x => b2z (grp x =? c));
  ld_co : forall c, 0 <= c < n -> cs c = -1 -> 0 <= co c /\ co c + ct c <= n /\ (co c + ct c <= k \/ n2 <= co c);
  ld_dis : forall c c', 0 <= c < n -> 0 <= c' < n -> c <> c' -> cs c = -1 -> cs c' = -1 -> co c + ct c <= co c' \/ co c' + ct c' <= co c;
  ld_sum : sumz n (fun c => if 0 <=? cs c then ct c else 0) = n2 - k }.

Section Led.
Variables (n n2 k : Z).

Lemma led_pos cs ct co grp sz c : led n n2 k cs ct co grp sz -> 0 <= c < n -> cs c <> -2 -> 1 <= ct c.
Proof.
  intros L Hc Hs. rewrite (ld_cnt L) by auto. pose proof (@sumz_pos1 n (fun x => b2z (grp x =? c)) c Hc) as H. cbv beta in H.
  destruct (ld_self L Hc Hs) as (E & _). rewrite E, Z.eqb_refl in H. cbn in H. apply H. intros x _. unfold b2z. destruct (_ =? _); lia.
Qed.
Lemma led_sum_le cs ct co grp sz (b : Z -> bool) : led n n2 k cs ct co grp sz -> (forall c, 0 <= c < n -> b c = true -> 0 <= cs c) ->
  sumz n (fun c => if b c then ct c else 0) <= n2 - k.
Proof.
  intros L H. rewrite <- (ld_sum L). apply sumz_le. intros c Hc. destruct (b c) eqn:E.
  - specialize (H c Hc E). destruct (Z.leb_spec 0 (cs c)); lia.
  - destruct (Z.leb_spec 0 (cs c)); [|lia]. pose proof (@led_pos _ _ _ _ _ c L Hc). lia.
Qed.
Lemma led_root cs ct co grp sz : led n n2 k cs ct co grp sz -> forall m c, 0 <= c < n -> n - sz c <= Z.of_nat m -> sz c <= sz (grp c).
Proof.
  intros L. induction m as [|m IH]; intros c Hc Hm.
  - destruct (Z.eq_dec (cs c) (-2)) as [E|E].
    + destruct (ld_par L Hc E) as (Hp & _ & Hs & _). pose proof (ld_sz L Hp). lia.
    + destruct (ld_self L Hc E) as (-> & _). lia.
  - destruct (Z.eq_dec (cs c) (-2)) as [E|E].
    + destruct (ld_par L Hc E) as (Hp & Hg & Hs & _). rewrite <- Hg. etransitivity; [|apply IH; [exact Hp|lia]]. lia.
    + destruct (ld_self L Hc E) as (-> & _). lia.
Qed.
Lemma led_root_lt cs ct co grp sz c : led n n2 k cs ct co grp sz -> 0 <= c < n -> cs c = -2 -> sz c < sz (grp c).
Proof.
  intros L Hc E. destruct (ld_par L Hc E) as (Hp & Hg & Hs & _). rewrite <- Hg. pose proof (ld_sz L Hp).
  assert (sz (ct c) <= sz (grp (ct c))) by (apply (led_root L (Z.to_nat n)); [exact Hp|lia]). lia.
Qed.

(* extensionality *)
Lemma led_ext cs ct co cs' ct' co' grp sz : led n n2 k cs ct co grp sz ->
  (forall c, 0 <= c < n -> (cs' c = cs c \/ (0 <= cs c /\ 0 <= cs' c)) /\ ct' c = ct c /\ (cs c < 0 -> co' c = co c)) -> led n n2 k cs' ct' co' grp sz.
Proof.
  intros L H. constructor.
  - apply (ld_k L).
  - intros c Hc. destruct (H c Hc) as (S & _). pose proof (ld_cs L Hc). lia.
  - intros c Hc. destruct (ld_grp L Hc) as (G1 & G2). split; [exact G1|]. destruct (H _ G1) as (S & _). lia.
  - intros c Hc Hs. destruct (H c Hc) as (S & T & _). rewrite T. apply (ld_self L); [exact Hc|lia].
  - intros c Hc Hs. destruct (H c Hc) as (S & T & O). rewrite T, O by lia. apply (ld_par L); [exact Hc|lia].
  - apply (ld_sz L).
  - intros c Hc Hs. destruct (H c Hc) as (S & T & _). rewrite T. apply (ld_cnt L); [exact Hc|lia].
  - intros c Hc Hs. destruct (H c Hc) as (S & T & O). rewrite T, O by lia. apply (ld_co L); [exact Hc|lia].
  - intros c c' Hc Hc' Hne Hs Hs'. destruct (H c Hc) as (S & T & O), (H c' Hc') as (S' & T' & O'). rewrite T, O, T', O' by lia. apply (ld_dis L); auto; lia.
  - rewrite <- (ld_sum L). apply sumz_ext. intros c Hc. destruct (H c Hc) as (S & T & O). rewrite T. destruct (Z.leb_spec 0 (cs' c)), (Z.leb_spec 0 (cs c)); lia.
Qed.
End Led.

(* an alive column is ordered: it takes the positions k, ..., k+ct-1 *)
Lemma led_kill n n2 k cs ct co grp sz c0 cs' ct' co' : led n n2 k cs ct co grp sz -> 0 <= c0 < n -> 0 <= cs c0 ->
  cs' c0 = -1 -> co' c0 = k -> ct' c0 = ct c0 ->
  (forall c, 0 <= c < n -> c <> c0 -> cs' c = cs c /\ ct' c = ct c /\ (cs c < 0 -> co' c = co c)) ->
  led n n2 (k + ct c0) cs' ct' co' grp sz.
Proof.
  intros L H0 A0 S0 O0 T0 H. pose proof (@led_pos n n2 k cs ct co grp sz c0 L H0 ltac:(lia)) as P0. destruct (ld_k L) as (K1 & K2 & K3).
  assert (K4 : k + ct c0 <= n2).
  { pose proof (@led_sum_le n n2 k cs ct co grp sz (fun c => c =? c0) L) as B. rewrite (@sumz_single n _ c0 H0) in B.
    - rewrite Z.eqb_refl in B. specialize (B ltac:(intros c _ E; apply Z.eqb_eq in E; subst; lia)). lia.
    - intros c _ Hne. destruct (Z.eqb_spec c c0); [contradiction|reflexivity]. }
  assert (CS : forall c, 0 <= c < n -> c <> c0 -> cs' c = cs c) by (intros c Hc Hne; apply H; auto).
  assert (CT : forall c, 0 <= c < n -> ct' c = ct c) by (intros c Hc; destruct (Z.eq_dec c c0) as [->|Hne]; [exact T0|apply H; auto]).
  constructor.
  - lia.
  - intros c Hc. destruct (Z.eq_dec c c0) as [->|Hne]; [lia|]. rewrite CS by auto. apply (ld_cs L Hc).
  - intros c Hc. destruct (ld_grp L Hc) as (G1 & G2). split; [exact G1|]. destruct (Z.eq_dec (grp c) c0) as [->|Hne]; [lia|]. rewrite CS by auto. exact G2.
  - intros c Hc Hs. rewrite CT by auto. apply (ld_self L Hc). destruct (Z.eq_dec c c0) as [->|Hne]; [lia|]. rewrite <- CS by auto. exact Hs.
  - intros c Hc Hs. destruct (Z.eq_dec c c0) as [->|Hne]; [lia|]. destruct (H c Hc Hne) as (S & T & O). rewrite T, O by lia. apply (ld_par L Hc). lia.
  - apply (ld_sz L).
  - intros c Hc Hs. rewrite CT by auto. apply (ld_cnt L Hc). destruct (Z.eq_dec c c0) as [->|Hne]; [lia|]. rewrite <- CS by auto. exact Hs.
  - intros c Hc Hs. rewrite CT by auto. destruct (Z.eq_dec c c0) as [->|Hne]; [lia|]. destruct (H c Hc Hne) as (S & T & O). rewrite O by lia. pose proof (ld_co L Hc ltac:(lia)). lia.
  - intros c c' Hc Hc' Hne Hs Hs'. rewrite !CT by auto. destruct (Z.eq_dec c c0) as [->|N], (Z.eq_dec c' c0) as [->|N']; try contradiction.
    + destruct (H c' Hc' N') as (S & T & O). rewrite O0, O by lia. pose proof (ld_co L Hc' ltac:(lia)). lia.
    + destruct (H c Hc N) as (S & T & O). rewrite O0, O by lia. pose proof (ld_co L Hc ltac:(lia)). lia.
    + destruct (H c Hc N) as (S & T & O), (H c' Hc' N') as (S' & T' & O'). rewrite O, O' by lia. apply (ld_dis L); auto; lia.
  - rewrite (@sumz_upd n _ (fun c => if 0 <=? cs c then ct c else 0) c0 H0).
    + rewrite (ld_sum L), S0. cbn. destruct (Z.leb_spec 0 (cs c0)); lia.
    + intros c Hc Hne. rewrite CT, CS by auto. reflexivity.
Qed.

(* column c1 is absorbed by s *)
Lemma led_merge n n2 k cs ct co grp sz c1 s cs' ct' co' : led n n2 k cs ct co grp sz -> 0 <= c1 < n -> 0 <= s < n -> s <> c1 -> 0 <= cs c1 -> 0 <= cs s ->
  cs' c1 = -2 -> ct' c1 = s -> co' c1 = EMPTY -> cs' s = cs s -> ct' s = ct s + ct c1 ->
  (forall c, 0 <= c < n -> c <> c1 -> c <> s -> cs' c = cs c /\ ct' c = ct c /\ (cs c < 0 -> co' c = co c)) ->
  exists grp' sz', led n n2 k cs' ct' co' grp' sz'.
Proof.
  intros L H1 Hs Hne A1 As S1 T1 O1 Ss Ts H.
  pose proof (@led_pos n n2 k cs ct co grp sz c1 L H1 ltac:(lia)) as P1. pose proof (@led_pos n n2 k cs ct co grp sz s L Hs ltac:(lia)) as Ps.
  set (grp' := fun c => if grp c =? c1 then s else grp c). set (sz' := fun c => if c =? s then ct s + ct c1 else sz c). exists grp', sz'.
  assert (CS : forall c, 0 <= c < n -> c <> c1 -> cs' c = cs c).
  { intros c Hc N. destruct (Z.eq_dec c s) as [->|N']; [exact Ss|]. apply H; auto. }
  destruct (ld_self L H1 ltac:(lia)) as (G1 & Z1). destruct (ld_self L Hs ltac:(lia)) as (Gs & Zs).
  assert (CNT : sumz n (fun x => b2z (grp' x =? s)) = ct s + ct c1).
  { rewrite (ld_cnt L Hs), (ld_cnt L H1) by lia. rewrite <- sumz_add. apply sumz_ext. intros x Hx. unfold grp'.
    destruct (Z.eqb_spec (grp x) c1) as [->|N]; [rewrite Z.eqb_refl; destruct (Z.eqb_spec c1 s); [lia|reflexivity]|]. cbn. lia. }
  assert (SZL : ct s + ct c1 <= n) by (rewrite <- CNT; apply sumz_count_le; lia).
  constructor.
  - apply (ld_k L).
  - intros c Hc. destruct (Z.eq_dec c c1) as [->|N]; [lia|]. rewrite CS by auto. apply (ld_cs L Hc).
  - intros c Hc. destruct (ld_grp L Hc) as (G & G'). unfold grp'. destruct (Z.eqb_spec (grp c) c1) as [E|E]; [split; [exact Hs|lia]|]. split; [exact G|]. rewrite CS by auto. exact G'.
  - intros c Hc Hc'. destruct (Z.eq_dec c c1) as [->|N]; [lia|]. rewrite CS in Hc' by auto. destruct (ld_self L Hc Hc') as (G & Zc). unfold grp', sz'. rewrite G.
    destruct (Z.eqb_spec c c1); [contradiction|]. split; [reflexivity|]. destruct (Z.eqb_spec c s) as [->|N']; [lia|]. rewrite Zc. symmetry. apply H; auto.
  - intros c Hc Hc'. destruct (Z.eq_dec c c1) as [->|N].
    + rewrite T1. split; [exact Hs|]. unfold grp', sz'. rewrite Gs, G1, !Z.eqb_refl. destruct (Z.eqb_spec s c1); [contradiction|]. destruct (Z.eqb_spec c1 s); [lia|].
      split; [reflexivity|]. split; [lia|exact O1].
    + rewrite CS in Hc' by auto. assert (N' : c <> s) by (intros ->; lia). destruct (H c Hc N N') as (S & T & O). rewrite T, O by lia.
      destruct (ld_par L Hc Hc') as (P & G & Q & R). split; [exact P|]. unfold grp', sz'. rewrite G. split; [reflexivity|]. split; [|exact R].
      destruct (Z.eqb_spec c s); [contradiction|]. destruct (Z.eqb_spec (ct c) s) as [E|E]; [|exact Q]. rewrite E, Zs in Q. lia.
  - intros c Hc. unfold sz'. destruct (Z.eqb_spec c s); [lia|apply (ld_sz L Hc)].
  - intros c Hc Hc'. destruct (Z.eq_dec c c1) as [->|N]; [lia|]. destruct (Z.eq_dec c s) as [->|N']; [lia|]. rewrite CS in Hc' by auto.
    destruct (H c Hc N N') as (S & T & O). rewrite T, (ld_cnt L Hc Hc'). apply sumz_ext. intros x Hx. unfold grp'.
    destruct (Z.eqb_spec (grp x) c1) as [->|]; [|reflexivity]. destruct (Z.eqb_spec c1 c), (Z.eqb_spec s c); try reflexivity; congruence.
  - intros c Hc Hc'. destruct (Z.eq_dec c c1) as [->|N]; [lia|]. destruct (Z.eq_dec c s) as [->|N']; [lia|]. rewrite CS in Hc' by auto.
    destruct (H c Hc N N') as (S & T & O). rewrite T, O by lia. apply (ld_co L Hc Hc').
  - intros c c' Hc Hc' Hd Hk Hk'. destruct (Z.eq_dec c c1) as [->|N]; [lia|]. destruct (Z.eq_dec c s) as [->|N']; [lia|].
    destruct (Z.eq_dec c' c1) as [->|M]; [lia|]. destruct (Z.eq_dec c' s) as [->|M']; [lia|]. rewrite CS in Hk, Hk' by auto.
    destruct (H c Hc N N') as (S & T & O), (H c' Hc' M M') as (S' & T' & O'). rewrite T, O, T', O' by lia. apply (ld_dis L); auto.
  - rewrite (@sumz_upd2 n _ (fun c => if 0 <=? cs c then ct c else 0) c1 s H1 Hs ltac:(auto)).
    + rewrite (ld_sum L), S1, Ss, Ts. destruct (Z.leb_spec 0 (-2)), (Z.leb_spec 0 (cs s)), (Z.leb_spec 0 (cs c1)); lia.
    + intros c Hc N N'. destruct (H c Hc N N') as (-> & -> & _). reflexivity.
Qed.

(*----------------------------------------------------------------------------*)
(* order_children *)
Section OC.
Variables (n n2 : Z) (cs ct co grp sz : Z -> Z).
Hypothesis L : led n n2 n2 cs ct co grp sz.

Lemma oc_dead c : 0 <= c < n -> cs c = -1 \/ cs c = -2.
Proof.
  intros Hc. pose proof (ld_cs L Hc). destruct (Z_lt_le_dec (cs c) 0); [lia|]. exfalso.
  assert (E : (if 0 <=? cs c then ct c else 0) = 0).
  { apply (@sumz_zero_inv n (fun c => if 0 <=? cs c then ct c else 0)); [|rewrite (ld_sum L); lia|exact Hc].
    intros x Hx. destruct (Z.leb_spec 0 (cs x)); [|lia]. pose proof (@led_pos n n2 n2 cs ct co grp sz x L Hx). lia. }
  rewrite (proj2 (Z.leb_le 0 (cs c))) in E by lia. pose proof (@led_pos n n2 n2 cs ct co grp sz c L Hc). lia.
Qed.

(* the members of group g among the first i columns, g excluded *)
Definition cnt g i := sumz i (fun c => b2z ((cs c =? -2) && (grp c =? g))).
Lemma cnt_S g i : 0 <= i -> cnt g (i + 1) = cnt g i + b2z ((cs i =? -2) && (grp i =? g)).
Proof. intros H. unfold cnt. apply sumz_S. exact H. Qed.
Lemma cnt_mono g i j : 0 <= i <= j -> cnt g i <= cnt g j.
Proof.
  intros H. replace j with (i + (j - i)) by lia. pattern (j - i). apply natlike_ind; [|intros x Hx IH|lia].
  - rewrite Z.add_0_r. lia.
  - unfold Z.succ. rewrite Z.add_assoc, cnt_S by lia. unfold b2z. destruct (_ && _); lia.
Qed.
Lemma cnt_total g : 0 <= g < n -> cs g = -1 -> cnt g n = ct g - 1.
Proof.
  intros Hg E. rewrite (ld_cnt L Hg) by lia. unfold cnt. rewrite (@sumz_upd n _ (fun x => b2z (grp x =? g)) g Hg).
  - rewrite E. destruct (ld_self L Hg ltac:(lia)) as (-> & _). rewrite Z.eqb_refl. cbn. lia.
  - intros x Hx Hne. destruct (Z.eqb_spec (cs x) (-2)) as [Ex|Ex]; [reflexivity|]. destruct (ld_self L Hx Ex) as (-> & _). destruct (Z.eqb_spec x g); [contradiction|reflexivity].
Qed.
Definition final c := if cs c =? -2 then co (grp c) + cnt (grp c) c else co c + cnt c n.
Lemma cnt_nonneg g i : 0 <= cnt g i.
Proof. unfold cnt. apply sumz_nonneg. intros x _. unfold b2z. destruct (_ && _); lia. Qed.
Lemma grp_principal c : 0 <= c < n -> 0 <= grp c < n /\ cs (grp c) = -1.
Proof. intros Hc. destruct (ld_grp L Hc) as (G & G'). split; [exact G|]. destruct (oc_dead G); [assumption|contradiction]. Qed.
Lemma final_in c : 0 <= c < n -> co (grp c) <= final c < co (grp c) + ct (grp c) /\ 0 <= final c < n.
Proof.
  intros Hc. destruct (grp_principal Hc) as (G & GP). pose proof (cnt_total G GP) as CT. pose proof (ld_co L G GP) as CO.
  assert (co (grp c) <= final c < co (grp c) + ct (grp c)); [|lia]. unfold final. destruct (Z.eqb_spec (cs c) (-2)) as [E|E].
  - assert (cnt (grp c) (c + 1) <= cnt (grp c) n) by (apply cnt_mono; lia). rewrite cnt_S in H by lia. rewrite E, Z.eqb_refl, Z.eqb_refl in H. cbn in H.
    pose proof (cnt_nonneg (grp c) c). lia.
  - destruct (ld_self L Hc E) as (Eg & _). rewrite Eg in *. pose proof (cnt_nonneg c n). lia.
Qed.
Lemma final_inj c c' : 0 <= c < n -> 0 <= c' < n -> final c = final c' -> c = c'.
Proof.
  enough (W : forall c c', 0 <= c < n -> 0 <= c' < n -> c < c' -> final c <> final c').
  { intros Hc Hc' E. destruct (Z.lt_trichotomy c c') as [H|[H|H]]; [exfalso; apply (@W c c'); auto|exact H|exfalso; apply (@W c' c); auto]. }
  clear c c'. intros c c' Hc Hc' Hlt E. destruct (final_in Hc) as (F & _), (final_in Hc') as (F' & _). destruct (grp_principal Hc) as (G & GP), (grp_principal Hc') as (G' & GP').
  destruct (Z.eq_dec (grp c) (grp c')) as [Eg|Ng].
  - unfold final in E. destruct (Z.eqb_spec (cs c) (-2)) as [Ec|Ec], (Z.eqb_spec (cs c') (-2)) as [Ec'|Ec'].
    + rewrite Eg in E. assert (cnt (grp c') (c + 1) <= cnt (grp c') c') by (apply cnt_mono; lia). rewrite cnt_S in H by lia. rewrite Ec, Eg, !Z.eqb_refl in H. cbn in H. lia.
    + destruct (ld_self L Hc' Ec') as (Es & _). rewrite Es in Eg. rewrite Eg in E. assert (cnt c' (c + 1) <= cnt c' n) by (apply cnt_mono; lia). rewrite cnt_S in H by lia. rewrite Ec, Eg, !Z.eqb_refl in H. cbn in H. lia.
    + destruct (ld_self L Hc Ec) as (Es & _). rewrite Es in Eg. rewrite <- Eg in E. assert (cnt c (c' + 1) <= cnt c n) by (apply cnt_mono; lia). rewrite cnt_S in H by lia. rewrite Ec', <- Eg, !Z.eqb_refl in H. cbn in H. lia.
    + destruct (ld_self L Hc Ec) as (Es & _), (ld_self L Hc' Ec') as (Es' & _). lia.
  - destruct (ld_dis L G G' Ng GP GP'); lia.
Qed.
End OC.

Section OC2.
Variables (n n2 : Z) (Cs Ct0 Co0 : list Z) (grp sz : Z -> Z).
Hypothesis L : led n n2 n2 (rd Cs) (rd Ct0) (rd Co0) grp sz.
Hypothesis LCs : zlen Cs = n.
Let final := final n (rd Cs) (rd Co0) grp.
Let cnt := cnt (rd Cs) grp.

Definition oc_inv (i : Z) (st : list Z * list Z) : Prop := let '(Ct, Co) := st in
  zlen Ct = n /\ zlen Co = n /\
  (forall c, 0 <= c < n -> rd Cs c = -1 -> rd Co c = rd Co0 c + cnt c i) /\
  (forall c, 0 <= c < i -> rd Cs c = -2 -> rd Co c = final c) /\
  (forall c, i <= c < n -> rd Cs c = -2 -> rd Co c = EMPTY) /\
  (forall c, 0 <= c < n -> rd Cs c = -2 -> rd Ct c = rd Ct0 c \/ rd Ct c = grp c).

Lemma oc_root_ok Ct : zlen Ct = n -> (forall c, 0 <= c < n -> rd Cs c = -2 -> rd Ct c = rd Ct0 c \/ rd Ct c = grp c) ->
  forall fuel c, 0 <= c < n -> rd Cs c = -2 -> n - sz c < Z.of_nat fuel -> oc_root fuel Cs Ct c = Ok (grp c).
Proof.
  intros LC H. induction fuel as [|fuel IH]; intros c Hc E Hf; [pose proof (ld_sz L Hc); lia|]. cbn [oc_root]. rewrite get_rd by lia. cbn [bind].
  destruct (ld_par L Hc E) as (P & G & S & _). destruct (H c Hc E) as [-> | ->].
  - rewrite get_rd by lia. cbn [bind]. destruct (Z.eqb_spec (rd Cs (rd Ct0 c)) (-1)) as [E'|E'].
    + destruct (ld_self L P ltac:(lia)) as (G' & _). congruence.
    + rewrite <- G. apply IH; [exact P| |lia]. destruct (oc_dead L P); [contradiction|assumption].
  - destruct (grp_principal L Hc) as (Gr & GP). rewrite get_rd by lia. cbn [bind]. rewrite GP. reflexivity.
Qed.

Lemma order_children_ok p0 : zlen Ct0 = n -> zlen Co0 = n -> zlen p0 = n + 1 -> exists p, order_children n Cs Ct0 Co0 p0 = Ok p /\ is_perm n p /\ zlen p = n + 1.
Proof.
  intros LCt LCo Lp. destruct (ld_k L) as (K1 & K2 & K3). apply wp_ok_ex. unfold order_children. apply wp_bind. eapply wp_conseq.
  { apply wp_for with (I := oc_inv); [lia| |].
    - unfold oc_inv, cnt, PCol2.cnt. repeat split; try lia.
      + intros c Hc E. rewrite sumz_0 by lia. lia.
      + intros c Hc E. apply (ld_par L Hc E).
    - intros i [Ct Co] Hi (L1 & L2 & I1 & I2 & I3 & I4). wg; [lia|]. wg; [lia|].
      destruct (oc_dead L Hi) as [E|E].
      + rewrite E. cbn. repeat split; auto.
        * intros c Hc Ec. unfold cnt. rewrite cnt_S, E by lia. cbn. rewrite Z.add_0_r. apply I1; auto.
        * intros c Hc Ec. destruct (Z.eq_dec c i) as [->|]; [lia|]. apply I2; [lia|exact Ec].
        * intros c Hc Ec. apply I3; [lia|exact Ec].
      + rewrite E, I3 by (lia || exact E). cbn -[oc_root oc_up]. rewrite (@oc_root_ok Ct L1 I4) by (auto; pose proof (ld_sz L Hi); lia). cbn -[oc_up].
        destruct (grp_principal L Hi) as (G & GP). wg; [lia|].
        replace (Z.to_nat (n + 1)) with (S (Z.to_nat n)) by lia. cbn [oc_up]. rewrite set_wr by lia. cbn [bind]. rewrite set_wr by lia. cbn [bind].
        rewrite get_rd by (rewrite zlen_wr; lia). cbn [bind]. rewrite rd_wr_eq by lia. rewrite get_rd by (rewrite zlen_wr; lia). cbn [bind].
        assert (Ng : grp i <> i) by congruence. rewrite rd_wr_ne by lia. rewrite (I1 _ G GP). pose proof (ld_co L G GP) as CO. pose proof (cnt_nonneg (rd Cs) grp (grp i) i) as CN. fold cnt in CN.
        destruct (Z.eqb_spec (rd Co0 (grp i) + cnt (grp i) i) EMPTY) as [X|_]; [unfold EMPTY in X; lia|]. cbn [bind].
        ws; [rewrite zlen_wr; lia|]. cbn. repeat split.
        * rewrite zlen_wr. exact L1.
        * rewrite !zlen_wr. exact L2.
        * intros c Hc Ec. unfold cnt. rewrite cnt_S by lia. rewrite E, Z.eqb_refl. fold cnt. destruct (Z.eqb_spec (grp i) c) as [Eg|Ngc]; cbn [andb b2z].
          -- rewrite <- Eg. rewrite rd_wr_eq by (rewrite zlen_wr; lia). lia.
          -- rewrite rd_wr_ne by lia. assert (c <> i) by congruence. rewrite rd_wr_ne by lia. rewrite I1 by auto. lia.
        * intros c Hc Ec. assert (c <> grp i) by congruence. rewrite rd_wr_ne by lia. destruct (Z.eq_dec c i) as [->|].
          -- rewrite rd_wr_eq by lia. unfold final, PCol2.final. rewrite E. reflexivity.
          -- rewrite rd_wr_ne by lia. apply I2; [lia|exact Ec].
        * intros c Hc Ec. assert (c <> grp i) by congruence. rewrite !rd_wr_ne by lia. apply I3; [lia|exact Ec].
        * intros c Hc Ec. destruct (Z.eq_dec c i) as [->|]; [rewrite rd_wr_eq by lia; right; reflexivity|rewrite rd_wr_ne by lia; apply I4; auto]. }
  intros [Ct Co] (L1 & L2 & I1 & I2 & _ & _).
  assert (F : forall c, 0 <= c < n -> rd Co c = final c).
  { intros c Hc. destruct (oc_dead L Hc) as [E|E]; [|apply I2; auto]. rewrite I1 by auto. unfold final, PCol2.final. rewrite E. reflexivity. }
  assert (FI : forall c, 0 <= c < n -> 0 <= final c < n) by (intros c Hc; apply (final_in L Hc)).
  assert (FJ : forall c c', 0 <= c < n -> 0 <= c' < n -> final c = final c' -> c = c') by (intros; eapply (final_inj L); eauto).
  eapply wp_conseq.
  { apply wp_for with (I := fun i p => zlen p = n + 1 /\ forall c, 0 <= c < i -> rd p (final c) = c); [lia| |].
    - split; [exact Lp|]. intros c Hc. lia.
    - intros i p Hi (Lp' & I). wg; [lia|]. rewrite F by exact Hi. specialize (FI i Hi) as Fi. apply wp_set; [lia|]. rewrite zlen_wr. split; [exact Lp'|].
      intros c Hc. specialize (FI c ltac:(lia)) as Fc. destruct (Z.eq_dec c i) as [->|Hne]; [apply rd_wr_eq; lia|].
      rewrite rd_wr_ne; [apply I; lia|lia|lia|]. intros X. apply Hne. apply FJ; [lia|exact Hi|auto]. }
  intros p (Lp' & I). split; [|exact Lp'].
  assert (onto : forall o, 0 <= o < n -> exists c, 0 <= c < n /\ final c = o).
  { intros o Ho. pose proof (@perm_onto (Z.to_nat n) final) as PO. destruct (PO ltac:(intros; specialize (FI i); lia) ltac:(intros; apply FJ; auto; lia) o ltac:(lia)) as (c & Hc & Ec).
    exists c. split; [lia|exact Ec]. }
  split; [lia|]. split.
  - intros i Hi. destruct (onto i Hi) as (c & Hc & <-). rewrite I by exact Hc. exact Hc.
  - intros i j Hi Hj E. destruct (onto i Hi) as (c & Hc & <-), (onto j Hj) as (c' & Hc' & <-). rewrite !I in E by assumption. congruence.
Qed.
End OC2.
