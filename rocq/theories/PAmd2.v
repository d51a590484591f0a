(* AMD, part 2: the layout of the lists in Iw, and the compression of Iw. *)
From Verif Require Import Base Det DetZ Spec MColamd MAmd PCol1 PCol3 PAmd1.
Set Implicit Arguments.
Open Scope Z_scope.
Set Bullet Behavior "Strict Subproofs".

(* the lists [st x, st x + ln x) of the nodes with st x >= 0 are disjoint, not empty, and below top *)
Record lay (n top : Z) (st ln : Z -> Z) : Prop := {
  la_in : forall x, 0 <= x < n -> 0 <= st x -> 1 <= ln x /\ st x + ln x <= top;
  la_dis : forall x y, 0 <= x < n -> 0 <= y < n -> x <> y -> 0 <= st x -> 0 <= st y -> st x + ln x <= st y \/ st y + ln y <= st x }.
Definition lsum (n : Z) (st ln : Z -> Z) : Z := sumz n (fun x => if 0 <=? st x then ln x else 0).
Lemma lay_ext n top top' st ln st' ln' : lay n top st ln -> top <= top' -> (forall x, 0 <= x < n -> 0 <= st' x -> st' x = st x /\ ln' x = ln x) -> lay n top' st' ln'.
Proof.
  intros L HT H. constructor.
  - intros x Hx P. destruct (H x Hx P) as (E1 & E2). rewrite E1 in *. rewrite E2. pose proof (la_in L Hx P). lia.
  - intros x y Hx Hy N Px Py. destruct (H x Hx Px) as (E1 & E2), (H y Hy Py) as (E3 & E4). rewrite E1, E3 in *. rewrite E2, E4. apply (la_dis L); auto.
Qed.
Lemma lsum_ext n st ln st' ln' : (forall x, 0 <= x < n -> (0 <= st x <-> 0 <= st' x) /\ (0 <= st x -> ln x = ln' x)) -> lsum n st ln = lsum n st' ln'.
Proof.
  intros H. apply sumz_ext. intros x Hx. destruct (H x Hx) as (H1 & H2). destruct (Z.leb_spec 0 (st x)), (Z.leb_spec 0 (st' x)); try lia; auto.
Qed.

Section GC.
Variables (n top : Z) (Iw Pe Len : list Z).
Hypothesis Hn : 0 <= n.
Hypothesis LP : zlen Pe = n.
Hypothesis LL : zlen Len = n.
Hypothesis LA : lay n top (rd Pe) (rd Len).
Hypothesis HT : 0 <= top <= zlen Iw.
Hypothesis RI : forall j, 0 <= j < top -> 0 <= rd Iw j < n.

Lemma gc_heads_ok : wp (gc_heads n Iw Pe) (fun '(I1, P1) => zlen I1 = zlen Iw /\ zlen P1 = n /\
  (forall x, 0 <= x < n -> rd P1 x = if 0 <=? rd Pe x then rd Iw (rd Pe x) else rd Pe x) /\
  (forall x, 0 <= x < n -> 0 <= rd Pe x -> rd I1 (rd Pe x) = FLIP x) /\
  (forall j, 0 <= j < zlen Iw -> (forall x, 0 <= x < n -> rd Pe x <> j) -> rd I1 j = rd Iw j)) nerr.
Proof.
  unfold gc_heads. eapply wp_conseq.
  { apply wp_for with (I := fun i '(I1, P1) => zlen I1 = zlen Iw /\ zlen P1 = n /\
      (forall x, 0 <= x < i -> rd P1 x = if 0 <=? rd Pe x then rd Iw (rd Pe x) else rd Pe x) /\ (forall x, i <= x < n -> rd P1 x = rd Pe x) /\
      (forall x, 0 <= x < i -> 0 <= rd Pe x -> rd I1 (rd Pe x) = FLIP x) /\
      (forall j, 0 <= j < zlen Iw -> (forall x, 0 <= x < i -> rd Pe x <> j) -> rd I1 j = rd Iw j)); [exact Hn| |].
    - repeat split; auto; intros; lia.
    - intros i [I1 P1] Hi (Q1 & Q2 & Q3 & Q4 & Q5 & Q6). wg; [lia|]. rewrite Q4 by lia. destruct (Z.geb_spec (rd Pe i) 0) as [P|P].
      + destruct (la_in LA Hi ltac:(lia)) as (S1 & S2). assert (D : forall x, 0 <= x < n -> x <> i -> rd Pe x <> rd Pe i).
        { intros x Hx N E. destruct (la_in LA Hx ltac:(lia)). destruct (@la_dis _ _ _ _ LA x i Hx Hi N); lia. }
        wg; [lia|]. rewrite Q6 by (try lia; intros x Hx; apply D; lia). ws; [lia|]. ws; [lia|]. cbn. rewrite !zlen_wr. split; [exact Q1|]. split; [exact Q2|]. split; [|split; [|split]].
        * intros x Hx. rewrite rd_wr by lia. destruct (Z.eqb_spec x i) as [->|]; [destruct (Z.leb_spec 0 (rd Pe i)); [reflexivity|lia]|apply Q3; lia].
        * intros x Hx. rewrite rd_wr_ne by lia. apply Q4. lia.
        * intros x Hx Px. destruct (Z.eq_dec x i) as [->|]; [apply rd_wr_eq; lia|]. rewrite rd_wr_ne; [apply Q5; lia|lia|lia|]. specialize (D x ltac:(lia) ltac:(lia)). lia.
        * intros j Hj X. assert (rd Pe i <> j) by (apply X; lia). rewrite rd_wr_ne by lia. apply Q6; [exact Hj|]. intros x Hx. apply X. lia.
      + cbn. split; [exact Q1|]. split; [exact Q2|]. split; [|split; [|split]].
        * intros x Hx. destruct (Z.eq_dec x i) as [->|]; [|apply Q3; lia]. rewrite Q4 by lia. destruct (Z.leb_spec 0 (rd Pe i)); [lia|reflexivity].
        * intros x Hx. apply Q4. lia.
        * intros x Hx Px. apply Q5; [|exact Px]. destruct (Z.eq_dec x i) as [->|]; lia.
        * intros j Hj X. apply Q6; [exact Hj|]. intros x Hx. apply X. lia. }
  intros [I1 P1] (Q1 & Q2 & Q3 & Q4 & Q5 & Q6). auto.
Qed.

Lemma gc_copy_ok I1 lenj src dst : dst <= src -> 0 <= dst -> src + (lenj - 1) <= zlen I1 ->
  wp (gc_copy lenj src dst I1) (fun I2 => zlen I2 = zlen I1 /\ (forall k, 0 <= k < lenj - 1 -> rd I2 (dst + k) = rd I1 (src + k)) /\
    (forall j, 0 <= j -> j < dst \/ dst + (lenj - 1) <= j -> rd I2 j = rd I1 j)) nerr.
Proof.
  intros H1 H2 H3. unfold gc_copy. destruct (Z_le_gt_dec (lenj - 1) 0) as [X|X].
  { rewrite for_empty by lia. cbn. split; [reflexivity|]. split; [intros; lia|auto]. }
  eapply wp_conseq.
  { apply wp_for with (I := fun i I2 => zlen I2 = zlen I1 /\ (forall k, 0 <= k < i -> rd I2 (dst + k) = rd I1 (src + k)) /\
      (forall j, 0 <= j -> j < dst \/ dst + i <= j -> rd I2 j = rd I1 j)); [lia| |].
    - split; [reflexivity|]. split; [intros; lia|auto].
    - intros i I2 Hi (Q1 & Q2 & Q3). wg; [lia|]. apply wp_set; [lia|]. rewrite zlen_wr. split; [exact Q1|]. split.
      + intros k Hk. rewrite rd_wr by lia. destruct (Z.eqb_spec (dst + k) (dst + i)) as [E|E]; [replace k with i by lia; apply Q3; lia|apply Q2; lia].
      + intros j Hj Hj'. rewrite rd_wr_ne by lia. apply Q3; lia. }
  intros I2 Q. exact Q.
Qed.

(* what is left after the lists that start before psrc have been moved *)
Definition sqi (I1 P1 : list Z) (psrc pdst : Z) (I2 P2 : list Z) : Prop :=
  zlen I2 = zlen Iw /\ zlen P2 = n /\ 0 <= pdst /\ pdst <= psrc /\
  (forall x, 0 <= x < n -> 0 <= rd Pe x -> psrc <= rd Pe x \/ rd Pe x + rd Len x <= psrc) /\
  (forall x, 0 <= x < n -> rd Pe x < 0 \/ psrc <= rd Pe x -> rd P2 x = rd P1 x) /\
  (forall j, 0 <= j < zlen Iw -> psrc <= j -> rd I2 j = rd I1 j) /\
  (forall x, 0 <= x < n -> 0 <= rd Pe x < psrc -> 0 <= rd P2 x /\ rd P2 x + rd Len x <= pdst /\ forall k, 0 <= k < rd Len x -> rd I2 (rd P2 x + k) = rd Iw (rd Pe x + k)) /\
  (forall x y, 0 <= x < n -> 0 <= y < n -> x <> y -> 0 <= rd Pe x < psrc -> 0 <= rd Pe y < psrc -> rd P2 x + rd Len x <= rd P2 y \/ rd P2 y + rd Len y <= rd P2 x) /\
  (forall j, 0 <= j < pdst -> 0 <= rd I2 j < n) /\
  pdst = sumz n (fun x => if (0 <=? rd Pe x) && (rd Pe x <? psrc) then rd Len x else 0).

Lemma gc_squeeze_ok I1 P1 : zlen I1 = zlen Iw -> zlen P1 = n ->
  (forall x, 0 <= x < n -> rd P1 x = if 0 <=? rd Pe x then rd Iw (rd Pe x) else rd Pe x) ->
  (forall x, 0 <= x < n -> 0 <= rd Pe x -> rd I1 (rd Pe x) = FLIP x) ->
  (forall j, 0 <= j < zlen Iw -> (forall x, 0 <= x < n -> rd Pe x <> j) -> rd I1 j = rd Iw j) ->
  forall fuel psrc pdst I2 P2, 0 <= psrc <= top -> top - psrc <= Z.of_nat fuel -> sqi I1 P1 psrc pdst I2 P2 ->
  wp (gc_squeeze fuel (top - 1) psrc pdst Len I2 P2) (fun '(I3, P3, p1) => sqi I1 P1 top p1 I3 P3) nerr.
Proof.
  intros K1 K2 K3 K4 K5. induction fuel as [|fuel IH]; intros psrc pdst I2 P2 Hp Hf Q.
  { cbn [gc_squeeze]. destruct (Z.leb_spec psrc (top - 1)); [lia|]. cbn. replace top with psrc by lia. exact Q. }
  cbn [gc_squeeze]. destruct (Z.leb_spec psrc (top - 1)) as [X|X]; [|cbn; replace top with psrc by lia; exact Q].
  pose proof Q as (Q1 & Q2 & Q3 & Q4 & Q5 & Q6 & Q7 & Q8 & Q9 & Q10 & Q11). wg; [lia|]. rewrite Q7 by lia.
  assert (Dec : (exists x, 0 <= x < n /\ rd Pe x = psrc) \/ (forall x, 0 <= x < n -> rd Pe x <> psrc)).
  { destruct (existsb (fun x => rd Pe x =? psrc) (zseq 0 n)) eqn:E.
    - left. apply existsb_exists in E. destruct E as (x & Hx & E). apply in_zseq in Hx. apply Z.eqb_eq in E. eauto.
    - right. intros x Hx Y. rewrite <- Bool.not_true_iff_false in E. apply E. apply existsb_exists. exists x. split; [apply in_zseq; exact Hx|apply Z.eqb_eq; exact Y]. }
  destruct Dec as [(j & Hj & E)|NE].
  - assert (Ij : rd I1 psrc = FLIP j) by (rewrite <- E; apply K4; [exact Hj|lia]). rewrite Ij, flip_flip. destruct (Z.geb_spec j 0); [|lia].
    destruct (la_in LA Hj ltac:(lia)) as (S1 & S2). assert (OTH : forall x, 0 <= x < n -> x <> j -> 0 <= rd Pe x -> rd Pe x + rd Len x <= psrc \/ psrc + rd Len j <= rd Pe x).
    { intros x Hx N Px. rewrite <- E. apply (la_dis LA); auto; lia. }
    wg; [lia|]. rewrite Q6 by (lia || (right; lia)). rewrite K3 by exact Hj. destruct (Z.leb_spec 0 (rd Pe j)) as [_|]; [|lia]. rewrite E. ws; [lia|]. ws; [lia|]. wg; [lia|]. apply wp_bind.
    eapply wp_conseq; [apply gc_copy_ok; rewrite ?zlen_wr; lia|]. intros I4 (C1 & C2 & C3). rewrite zlen_wr in C1. rewrite Z.max_r by lia. apply IH; [lia|lia|].
    replace (psrc + 1 + (rd Len j - 1)) with (psrc + rd Len j) by lia. replace (pdst + 1 + (rd Len j - 1)) with (pdst + rd Len j) by lia.
    assert (CONT : forall k, 0 <= k < rd Len j -> rd I4 (pdst + k) = rd Iw (psrc + k)).
    { intros k Hk. destruct (Z.eq_dec k 0) as [->|Nk].
      - rewrite !Z.add_0_r, C3, rd_wr_eq by lia. reflexivity.
      - replace (pdst + k) with (pdst + 1 + (k - 1)) by lia. rewrite C2 by lia. rewrite rd_wr_ne by lia. rewrite Q7, K5; try lia; [f_equal; lia|].
        intros x Hx Y. destruct (Z.eq_dec x j) as [->|Nx]; [lia|]. destruct (la_in LA Hx ltac:(lia)). destruct (OTH x Hx Nx ltac:(lia)); lia. }
    assert (LOW : forall i, 0 <= i < pdst -> rd I4 i = rd I2 i) by (intros i Hi; rewrite C3, rd_wr_ne by lia; reflexivity).
    assert (PRC : forall x, 0 <= x < n -> 0 <= rd Pe x < psrc + rd Len j -> x = j \/ (x <> j /\ 0 <= rd Pe x < psrc)).
    { intros x Hx Px. destruct (Z.eq_dec x j) as [|Nx]; [auto|right]. split; [exact Nx|]. destruct (la_in LA Hx ltac:(lia)). destruct (OTH x Hx Nx ltac:(lia)); lia. }
    unfold sqi. rewrite !zlen_wr. split; [lia|]. split; [exact Q2|]. split; [lia|]. split; [lia|]. split; [|split; [|split; [|split; [|split; [|split]]]]].
    + intros x Hx Px. destruct (Z.eq_dec x j) as [->|Nx]; [right; lia|]. destruct (OTH x Hx Nx Px); lia.
    + intros x Hx Px. assert (x <> j) by (intros ->; lia). rewrite rd_wr_ne by lia. apply Q6; lia.
    + intros i Hi Hi'. rewrite C3 by lia. rewrite rd_wr_ne by lia. apply Q7; lia.
    + intros x Hx Px. destruct (PRC x Hx Px) as [->|(Nx & Px')].
      * rewrite rd_wr_eq by lia. split; [lia|]. split; [lia|]. intros k Hk. rewrite CONT, E by lia. reflexivity.
      * rewrite rd_wr_ne by lia. destruct (Q8 x Hx Px') as (Y1 & Y2 & Y3). split; [lia|]. split; [lia|]. intros k Hk. rewrite LOW by lia. apply Y3. exact Hk.
    + intros x y Hx Hy N Px Py. destruct (PRC x Hx Px) as [->|(Nx & Px')], (PRC y Hy Py) as [->|(Ny & Py')]; try contradiction.
      * rewrite rd_wr_eq, rd_wr_ne by lia. destruct (Q8 y Hy Py'). lia.
      * rewrite rd_wr_eq, rd_wr_ne by lia. destruct (Q8 x Hx Px'). lia.
      * rewrite !rd_wr_ne by lia. apply Q9; auto.
    + intros i Hi. destruct (Z_lt_le_dec i pdst) as [Y|Y]; [rewrite LOW by lia; apply Q10; lia|]. replace i with (pdst + (i - pdst)) by lia. rewrite CONT by lia. apply RI. lia.
    + rewrite Q11. symmetry. rewrite (@sumz_upd n _ (fun x => if (0 <=? rd Pe x) && (rd Pe x <? psrc) then rd Len x else 0) j Hj).
      * rewrite E. destruct (Z.leb_spec 0 psrc), (Z.ltb_spec psrc (psrc + rd Len j)), (Z.ltb_spec psrc psrc); cbn; lia.
      * intros x Hx Nx. destruct (Z.leb_spec 0 (rd Pe x)) as [Y|Y]; [|reflexivity]. cbn [andb]. destruct (la_in LA Hx Y). destruct (OTH x Hx Nx Y); destruct (Z.ltb_spec (rd Pe x) (psrc + rd Len j)), (Z.ltb_spec (rd Pe x) psrc); lia.
  - rewrite K5 by (auto; lia). pose proof (RI (j := psrc) ltac:(lia)). destruct (Z.geb_spec (FLIP (rd Iw psrc)) 0); [unfold FLIP in *; lia|]. apply IH; [lia|lia|].
    unfold sqi. split; [exact Q1|]. split; [exact Q2|]. split; [lia|]. split; [lia|]. split; [|split; [|split; [|split; [|split; [|split]]]]].
    + intros x Hx Px. specialize (NE x Hx). destruct (Q5 x Hx Px); lia.
    + intros x Hx Px. apply Q6; lia.
    + intros i Hi Hi'. apply Q7; lia.
    + intros x Hx Px. specialize (NE x Hx). apply Q8; lia.
    + intros x y Hx Hy N Px Py. specialize (NE x Hx) as N1. specialize (NE y Hy) as N2. apply Q9; auto; lia.
    + exact Q10.
    + rewrite Q11. apply sumz_ext. intros x Hx. specialize (NE x Hx). destruct (Z.ltb_spec (rd Pe x) (psrc + 1)), (Z.ltb_spec (rd Pe x) psrc); try lia; reflexivity.
Qed.

(* the whole compression; pfree: the end of the list under construction, which starts at top *)
Lemma gc_ok pfree : top <= pfree <= zlen Iw -> (forall j, top <= j < pfree -> 0 <= rd Iw j < n) ->
  wp (let* st := gc_heads n Iw Pe in
      let '(Iw, Pe) := st in
      let* st := gc_squeeze (Z.to_nat (top + 1)) (top - 1) 0 0 Len Iw Pe in
      let '(Iw, Pe, p1) := st in
      let* Iw := for_ top pfree (fun psrc Iw => let* v := get Iw psrc in set Iw (p1 + (psrc - top)) v) Iw in
      Ok (Iw, Pe, p1))
    (fun '(I3, P3, p1) => zlen I3 = zlen Iw /\ zlen P3 = n /\ 0 <= p1 <= top /\ p1 = lsum n (rd Pe) (rd Len) /\ lay n p1 (rd P3) (rd Len) /\
      (forall x, 0 <= x < n -> if 0 <=? rd Pe x then 0 <= rd P3 x /\ forall k, 0 <= k < rd Len x -> rd I3 (rd P3 x + k) = rd Iw (rd Pe x + k) else rd P3 x = rd Pe x) /\
      (forall k, 0 <= k < pfree - top -> rd I3 (p1 + k) = rd Iw (top + k)) /\ (forall j, 0 <= j < p1 + (pfree - top) -> 0 <= rd I3 j < n)) nerr.
Proof.
  intros HF RF. apply wp_bind. eapply wp_conseq; [apply gc_heads_ok|]. intros [I1 P1] (K1 & K2 & K3 & K4 & K5). apply wp_bind.
  eapply wp_conseq; [apply (@gc_squeeze_ok I1 P1 K1 K2 K3 K4 K5 (Z.to_nat (top + 1)) 0 0 I1 P1); [lia|lia|]|].
  { unfold sqi. split; [exact K1|]. split; [exact K2|]. split; [lia|]. split; [lia|]. split; [intros; lia|]. split; [reflexivity|]. split; [reflexivity|]. split; [intros; lia|]. split; [intros; lia|]. split; [intros; lia|].
    symmetry. apply sumz_zero. intros x Hx. destruct (Z.leb_spec 0 (rd Pe x)), (Z.ltb_spec (rd Pe x) 0); try lia; reflexivity. }
  intros [[I2 P2] p1] (Q1 & Q2 & Q3 & Q4 & Q5 & Q6 & Q7 & Q8 & Q9 & Q10 & Q11). apply wp_bind.
  assert (TP : forall j, top <= j < pfree -> rd I2 j = rd Iw j). { intros j Hj. rewrite Q7, K5 by lia || (intros x Hx E; destruct (la_in LA Hx ltac:(lia)); lia). reflexivity. }
  eapply wp_conseq.
  { apply wp_for with (I := fun i I3 => zlen I3 = zlen Iw /\ (forall k, 0 <= k < i - top -> rd I3 (p1 + k) = rd Iw (top + k)) /\ (forall j, 0 <= j < zlen Iw -> j < p1 \/ p1 + (i - top) <= j -> rd I3 j = rd I2 j)); [lia| |].
    - split; [exact Q1|]. split; [intros; lia|auto].
    - intros i I3 Hi (Y1 & Y2 & Y3). wg; [lia|]. rewrite Y3, TP by lia. apply wp_set; [lia|]. rewrite zlen_wr. split; [exact Y1|]. split.
      + intros k Hk. rewrite rd_wr by lia. destruct (Z.eqb_spec (p1 + k) (p1 + (i - top))) as [E|E]; [f_equal; lia|apply Y2; lia].
      + intros j Hj Hj'. rewrite rd_wr_ne by lia. apply Y3; lia. }
  intros I3 (Y1 & Y2 & Y3). cbn. assert (PT : forall x, 0 <= x < n -> 0 <= rd Pe x -> 0 <= rd Pe x < top) by (intros x Hx P; destruct (la_in LA Hx P); lia).
  assert (NG : forall x, 0 <= x < n -> rd Pe x < 0 -> rd P2 x = rd Pe x). { intros x Hx P. rewrite Q6, K3 by auto. destruct (Z.leb_spec 0 (rd Pe x)); [lia|reflexivity]. }
  split; [exact Y1|]. split; [exact Q2|]. split; [lia|]. split; [|split; [|split; [|split]]].
  - rewrite Q11. apply sumz_ext. intros x Hx. destruct (Z.leb_spec 0 (rd Pe x)) as [P|P]; [|reflexivity]. specialize (PT x Hx P). destruct (Z.ltb_spec (rd Pe x) top); [reflexivity|lia].
  - assert (PP : forall x, 0 <= x < n -> 0 <= rd P2 x -> 0 <= rd Pe x). { intros x Hx P. destruct (Z_le_gt_dec 0 (rd Pe x)) as [|G]; [assumption|]. rewrite NG in P by lia. lia. }
    constructor.
    + intros x Hx P. specialize (PP x Hx P). destruct (la_in LA Hx PP). destruct (Q8 x Hx (PT x Hx PP)). lia.
    + intros x y Hx Hy N Px Py. apply Q9; auto.
  - intros x Hx. destruct (Z.leb_spec 0 (rd Pe x)) as [P|P]; [|apply NG; auto]. destruct (Q8 x Hx (PT x Hx P)) as (X1 & X2 & X3). split; [exact X1|]. intros k Hk. rewrite Y3 by lia. apply X3. exact Hk.
  - intros k Hk. apply Y2. lia.
  - intros j Hj. destruct (Z_lt_le_dec j p1) as [X|X]; [rewrite Y3 by lia; apply Q10; lia|]. replace j with (p1 + (j - p1)) by lia. rewrite Y2 by lia. apply RF. lia.
Qed.
End GC.
