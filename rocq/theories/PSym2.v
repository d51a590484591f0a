(* SYMAMD, part 2: the check and the counts. *)
From Verif Require Import Base Det DetZ Spec MColamd MSymamd SymSpec PCol1 PSym1.
Set Implicit Arguments.
Open Scope Z_scope.
Set Bullet Behavior "Strict Subproofs".

Lemma sy_clear_ok n mark : 0 <= n -> n <= zlen mark -> wp (sy_clear n mark) (fun m => zlen m = zlen mark /\ forall i, 0 <= i < n -> rd m i = -1) nerr.
Proof.
  intros Hn L. unfold sy_clear. eapply wp_conseq; [apply wp_for with (I := fun k m => zlen m = zlen mark /\ forall i, 0 <= i < k -> rd m i = -1); [exact Hn|split; [reflexivity|intros; lia]|]|auto].
  intros i m Hi (L1 & H). apply wp_set; [lia|]. rewrite zlen_wr. split; [exact L1|]. intros x Hx. rewrite rd_wr by lia. destruct (Z.eqb_spec x i); [reflexivity|apply H; lia].
Qed.

Section Check.
Variables (n : Z) (A p : list Z).
Hypothesis Hn : 0 <= n.
Hypothesis Lp : zlen p = n + 1.
Hypothesis P0 : rd p 0 = 0.
Hypothesis PA : forall j, 0 <= j <= n -> rd p j <= zlen A.

Definition bad_here (e : sfail) : Prop :=
  match e with
  | col_length_negative j l => 0 <= j < n /\ l = rd p (j + 1) - rd p j /\ l < 0
  | row_index_out_of_bounds j i => 0 <= j < n /\ exists u, rd p j <= u < rd p (j + 1) /\ rd A u = i /\ ~ 0 <= i < n
  | _ => False
  end.
Definition cols_ok (j : Z) : Prop := forall c, 0 <= c < j -> rd p c <= rd p (c + 1) /\ forall u, rd p c <= u < rd p (c + 1) -> 0 <= rd A u < n.
Definition sorted_cols (j : Z) : Prop := forall c u v, 0 <= c < j -> rd p c <= u -> u < v -> v < rd p (c + 1) -> rd A u < rd A v.

Lemma cols_ok_mono j : cols_ok j -> forall x, 0 <= x <= j -> 0 <= rd p x.
Proof.
  intros H x Hx. destruct Hx as (H0 & H1). revert H1. pattern x. apply natlike_ind; [|clear x H0|exact H0].
  - lia.
  - intros x Hx IH L. unfold Z.succ in *. destruct (H x ltac:(lia)) as (M & _). specialize (IH ltac:(lia)). lia.
Qed.
Lemma cand_good j s u : 0 <= j -> 0 <= rd A u < n -> forall e, In e (cand A j s u) -> good_edge n e.
Proof. intros Hj H e. unfold cand. destruct (Z.ltb_spec j (rd A u)); cbn [andb]; [|intros []]. destruct (negb _); [|intros []]. intros [<-|[]]. unfold good_edge. cbn [fst snd]. lia. Qed.

Lemma sy_check_ok count mark : zlen count = n + 1 -> zlen mark = n + 1 -> (forall i, 0 <= i < n -> rd mark i = -1) ->
  wp (sy_check n A p count mark) (fun s => match s with
    | inl e => bad_here e
    | inr (c, m, jb) => cols_ok n /\ c = fold_left bump (lower n p A) count /\ zlen m = n + 1 /\ (jb = false -> sorted_cols n) end) nerr.
Proof.
  intros Lc Lm M0. unfold sy_check.
  eapply wp_conseq; [apply wp_for with (I := fun j s => match s with
    | inl e => bad_here e
    | inr (c, m, jb) => cols_ok j /\ c = fold_left bump (lower j p A) count /\ zlen m = n + 1 /\ (forall i, 0 <= i < n -> rd m i < j) /\ (jb = false -> sorted_cols j) end); [exact Hn| |]|].
  - split; [intros c Hc; lia|]. split; [reflexivity|]. split; [exact Lm|]. split; [intros i Hi; rewrite M0 by exact Hi; lia|]. intros _ c u v Hc; lia.
  - intros j [e|((c & m) & jb)] Hj H; [exact H|]. destruct H as (CO & EC & L1 & MM & SO). wg; [lia|]. wg; [lia|].
    destruct (Z.ltb_spec (rd p (j + 1) - rd p j) 0) as [X|X]; [cbn [wp bad_here]; lia|].
    pose proof (@cols_ok_mono j CO j ltac:(lia)) as Pj. pose proof (@PA (j + 1) ltac:(lia)) as PB.
    apply wp_bind. eapply wp_conseq; [apply wp_for with (I := fun t s => match s with
      | inl e => bad_here e
      | inr (c, m, jb, last) => (forall u, rd p j <= u < t -> 0 <= rd A u < n) /\ c = fold_left bump (lower j p A ++ col_lower A j (rd p j) t) count /\ zlen m = n + 1 /\
          (forall i, 0 <= i < n -> rd m i <= j) /\ (forall i, 0 <= i < n -> (rd m i = j <-> exists u, rd p j <= u < t /\ rd A u = i)) /\
          (jb = false -> sorted_cols j /\ (forall u, rd p j <= u < t -> rd A u <= last) /\ forall u v, rd p j <= u -> u < v -> v < t -> rd A u < rd A v) end); [lia| |]|].
    + split; [intros u Hu; lia|]. rewrite col_lower_nil, app_nil_r. split; [exact EC|]. split; [exact L1|]. split; [intros i Hi; specialize (MM i Hi); lia|].
      split; [intros i Hi; specialize (MM i Hi); split; [lia|intros (u & Hu & _); lia]|]. intros Jb. split; [apply SO; exact Jb|]. split; intros; lia.
    + clear c m jb EC L1 MM SO. intros t [e|(((c & m) & jb) & last)] Ht H; [exact H|]. destruct H as (R & EC & L1 & MM & MK & SO).
      wg; [lia|]. destruct (Z.ltb_spec (rd A t) 0) as [Y|Y]; [cbn [orb wp bad_here]; split; [exact Hj|exists t; split; [lia|split; [reflexivity|lia]]]|].
      destruct (Z.geb_spec (rd A t) n) as [W|W]; [cbn [orb wp bad_here]; split; [exact Hj|exists t; split; [lia|split; [reflexivity|lia]]]|]. cbn [orb].
      wg; [lia|]. cbv zeta.
      assert (SB : seen_before A (rd p j) t = (rd m (rd A t) =? j)).
      { apply eq_iff_eq_true. rewrite seen_iff, Z.eqb_eq. symmetry. apply MK. lia. }
      assert (LC : zlen c = n + 1) by (rewrite EC, zlen_bumps; exact Lc).
      apply wp_bind. eapply wp_conseq with (Q := fun c' => c' = fold_left bump (lower j p A ++ col_lower A j (rd p j) (t + 1)) count).
      { rewrite col_lower_snoc by lia. rewrite app_assoc, fold_left_app, <- EC. unfold cand. rewrite SB, Z.gtb_ltb. destruct (Z.ltb_spec j (rd A t)) as [G|G]; cbn [andb]; [|reflexivity].
        destruct (negb (rd m (rd A t) =? j)); [|reflexivity]. cbn [fold_left]. unfold bump. cbn [fst snd]. apply wp_bind. unfold inc. wg; [lia|]. apply wp_set; [lia|]. wg; [rewrite zlen_wr; lia|]. apply wp_set; [rewrite zlen_wr; lia|]. reflexivity. }
      intros c' EC'. ws; [lia|]. cbn [wp]. rewrite zlen_wr.
      split. { intros u Hu. destruct (Z.eq_dec u t) as [->|Ne]; [lia|apply R; lia]. }
      split; [exact EC'|]. split; [exact L1|].
      split. { intros i Hi. rewrite rd_wr by lia. destruct (i =? rd A t); [lia|apply MM; exact Hi]. }
      split. { intros i Hi. rewrite rd_wr by lia. destruct (Z.eqb_spec i (rd A t)) as [->|Ne].
        - split; [intros _; exists t; split; [lia|reflexivity]|reflexivity].
        - rewrite (MK i Hi). split; intros (u & Hu & E); exists u; (split; [|exact E]); [lia|]. destruct (Z.eq_dec u t) as [->|]; [congruence|lia]. }
      intros Jb. apply orb_false_iff in Jb. destruct Jb as (Jb & J3). apply orb_false_iff in Jb. destruct Jb as (J1 & J2). destruct (SO J1) as (S1 & S2 & S3). apply Z.leb_gt in J2.
      split; [exact S1|]. split.
      * intros u Hu. destruct (Z.eq_dec u t) as [->|Ne]; [lia|]. specialize (S2 u ltac:(lia)). lia.
      * intros u v Hu Huv Hv. destruct (Z.eq_dec v t) as [->|Ne]; [specialize (S2 u ltac:(lia)); lia|apply S3; lia].
    + intros [e|(((c' & m') & jb') & last)] H; [exact H|]. destruct H as (R & EC' & L1' & MM' & _ & SO'). cbn [wp].
      split. { intros x Hx. destruct (Z.eq_dec x j) as [->|Ne]; [split; [lia|exact R]|apply CO; lia]. }
      split; [rewrite lower_snoc by lia; exact EC'|]. split; [exact L1'|]. split; [intros i Hi; specialize (MM' i Hi); lia|].
      intros Jb. destruct (SO' Jb) as (S1 & _ & S3). intros x u v Hx Hu Huv Hv. destruct (Z.eq_dec x j) as [->|Ne]; [apply S3; auto|apply (S1 x); auto; lia].
  - intros [e|((c & m) & jb)] H; [exact H|]. destruct H as (CO & EC & L1 & _ & SO). auto.
Qed.

Lemma cols_ok_valid : cols_ok n -> sym_valid n p A.
Proof.
  intros H. constructor; auto.
  - intros j Hj. apply (H j Hj).
  - apply PA. lia.
  - intros u Hu. assert (G : forall x, 0 <= x -> x <= n -> rd p x <= u -> exists c, 0 <= c < n /\ rd p c <= u < rd p (c + 1)).
    { intros x Hx. remember (Z.to_nat (n - x)) as k eqn:E. revert x Hx E. induction k as [|k IH]; intros x Hx E Lx Hxu.
      - replace x with n in * by lia. lia.
      - destruct (Z_lt_ge_dec u (rd p (x + 1))) as [Y|Y]; [exists x; lia|]. apply (IH (x + 1)); lia. }
    destruct (G 0 ltac:(lia) Hn ltac:(lia)) as (c & Hc & Hu'). apply (H c Hc). exact Hu'.
Qed.
End Check.
