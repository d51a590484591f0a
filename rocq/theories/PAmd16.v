(* AMD, part 16: the postordering. *)
From Verif Require Import Base Det DetZ Spec MColamd MAmd PCol1 PCol3 PAmd1 PAmd14 PAmd15.
Set Implicit Arguments.
Open Scope Z_scope.
Set Bullet Behavior "Strict Subproofs".

Section Post.
Variables (n : Z) (P Nv : list Z) (grp r : Z -> Z).
Hypothesis T : ptree n P Nv grp r.
Hypothesis LP : zlen P = n.
Hypothesis LN : zlen Nv = n.
Hypothesis Hn : 1 <= n.
Variables (Child0 Sibling : list Z).
Hypothesis LC0 : zlen Child0 = n.
Hypothesis LS : zlen Sibling = n.
Hypothesis KL : forall p, 0 <= p < n -> kl n P Nv Child0 Sibling p.
Let isk := isk P Nv.

Lemma count_ok : forall l fuel f head, chain (rd Sibling) f l -> (forall x, In x l -> 0 <= x < n) -> (length l <= fuel)%nat -> wp (pt_count fuel f head Sibling) (fun h => h = head + Z.of_nat (length l)) nerr.
Proof.
  induction l as [|x l IH]; intros fuel f head C R HL; cbn in C.
  - destruct fuel; cbn [pt_count]; rewrite C, Z.eqb_refl; cbn; lia.
  - destruct C as (-> & C). pose proof (R x (or_introl eq_refl)) as Rx. destruct fuel as [|fuel]; [cbn in HL; lia|]. cbn [pt_count]. destruct (Z.eqb_spec x EMPTY) as [E|_]; [unfold EMPTY in E; lia|]. wg; [lia|]. eapply wp_conseq; [apply IH; [exact C|intros y Hy; apply R; right; exact Hy|cbn in HL; lia]|]. intros h ->. cbn [length]. lia.
Qed.

Lemma push_ok : forall l fuel f h Stack, chain (rd Sibling) f l -> NoDup l -> (forall x, In x l -> 0 <= x < n) -> (length l <= fuel)%nat -> -1 <= h - Z.of_nat (length l) -> h < zlen Stack ->
  wp (pt_push fuel f h Sibling Stack) (fun S' => zlen S' = zlen Stack /\ (forall j, 0 <= j -> j <= h - Z.of_nat (length l) \/ h < j -> rd S' j = rd Stack j) /\
    (forall j, h - Z.of_nat (length l) < j <= h -> In (rd S' j) l) /\ (forall i j, h - Z.of_nat (length l) < i <= h -> h - Z.of_nat (length l) < j <= h -> rd S' i = rd S' j -> i = j) /\
    (forall x, In x l -> exists j, h - Z.of_nat (length l) < j <= h /\ rd S' j = x)) nerr.
Proof.
  induction l as [|x l IH]; intros fuel f h Stack C ND R HL Hh HS; cbn in C.
  - destruct fuel; cbn [pt_push]; rewrite C, Z.eqb_refl; cbn; repeat split; auto; intros; try lia; contradiction.
  - destruct C as (-> & C). apply NoDup_cons_iff in ND. destruct ND as (NI & ND). pose proof (R x (or_introl eq_refl)) as Rx. cbn [length] in *. destruct fuel as [|fuel]; [lia|]. cbn [pt_push]. destruct (Z.eqb_spec x EMPTY) as [E|_]; [unfold EMPTY in E; lia|].
    ws; [lia|]. wg; [lia|]. eapply wp_conseq; [apply (IH fuel _ (h - 1)); [exact C|exact ND|intros y Hy; apply R; right; exact Hy|lia|lia|rewrite zlen_wr; lia]|].
    intros S' (L & O & I & J & K). rewrite zlen_wr in L. assert (Sh : rd S' h = x) by (rewrite O by lia; apply rd_wr_eq; lia). replace (h - Z.of_nat (Datatypes.S (length l))) with (h - 1 - Z.of_nat (length l)) by lia.
    split; [exact L|]. split; [|split; [|split]].
    + intros j Hj X. rewrite O by lia. apply rd_wr_ne; lia.
    + intros j Hj. destruct (Z.eq_dec j h) as [->|]; [left; auto|right; apply I; lia].
    + intros i j Hi Hj E. destruct (Z.eq_dec i h) as [->|Ni], (Z.eq_dec j h) as [->|Nj]; auto.
      * exfalso. apply NI. rewrite <- Sh, E. apply I. lia.
      * exfalso. apply NI. rewrite <- Sh, <- E. apply I. lia.
      * apply J; lia.
    + intros y [->|Hy]; [exists h; split; [lia|exact Sh]|]. destruct (K y Hy) as (j & Hj & E). exists j. split; [lia|exact E].
Qed.

Definition seen (head : Z) (Order Stack : list Z) (x : Z) : Prop := rd Order x <> EMPTY \/ memb Stack 0 (head + 1) x = true.
Record pinv (i0 head k : Z) (Child Order Stack : list Z) : Prop := {
  p_len : zlen Child = n /\ zlen Order = n /\ zlen Stack = n;
  p_hd : -1 <= head < n;
  p_inj : injs Stack 0 (head + 1);
  p_stk : forall h, 0 <= h <= head -> 0 <= rd Stack h < n /\ 0 < rd Nv (rd Stack h) /\ rd Order (rd Stack h) = EMPTY;
  p_ord : forall x, 0 <= x < n -> rd Order x = EMPTY \/ (0 <= rd Order x < k /\ 0 < rd Nv x /\ rd Child x = EMPTY);
  p_oinj : forall x y, 0 <= x < n -> 0 <= y < n -> rd Order x <> EMPTY -> rd Order x = rd Order y -> x = y;
  p_osur : forall j, 0 <= j < k -> exists x, 0 <= x < n /\ rd Order x = j;
  p_k : k = sumz n (fun x => b2z (negb (rd Order x =? EMPTY)));
  p_ch : forall x, 0 <= x < n -> rd Child x = rd Child0 x \/ rd Child x = EMPTY;
  p_no : forall x y, 0 <= x < n -> 0 <= y < n -> rd Child x <> EMPTY -> isk x y = true -> ~ seen head Order Stack y;
  p_yes : forall x y, 0 <= x < n -> 0 <= y < n -> rd Child x = EMPTY -> isk x y = true -> seen head Order Stack y;
  p_root : forall x, 0 <= x < n -> seen head Order Stack x -> rd P x = -1 -> x <= i0 }.

Definition mu (Child Order : list Z) : Z := sumz n (fun x => b2z (negb (rd Child x =? EMPTY))) + sumz n (fun x => b2z (rd Order x =? EMPTY)).

Lemma stack_memb head Stack x : memb Stack 0 (head + 1) x = true <-> exists h, 0 <= h <= head /\ rd Stack h = x.
Proof. rewrite memb_spec. split; intros (j & Hj & E); exists j; (split; [lia|exact E]). Qed.

Lemma push_step i0 head k Child Order Stack : pinv i0 head k Child Order Stack -> 0 <= head -> rd Child (rd Stack head) <> EMPTY ->
  exists l, chain (rd Sibling) (rd Child (rd Stack head)) l /\ NoDup l /\ (forall x, In x l -> 0 <= x < n) /\ head + Z.of_nat (length l) < n /\ (0 < length l)%nat /\
  forall S', zlen S' = zlen Stack -> (forall j, 0 <= j -> j <= head \/ head + Z.of_nat (length l) < j -> rd S' j = rd Stack j) ->
    (forall j, head < j <= head + Z.of_nat (length l) -> In (rd S' j) l) ->
    (forall i j, head < i <= head + Z.of_nat (length l) -> head < j <= head + Z.of_nat (length l) -> rd S' i = rd S' j -> i = j) ->
    (forall x, In x l -> exists j, head < j <= head + Z.of_nat (length l) /\ rd S' j = x) ->
    pinv i0 (head + Z.of_nat (length l)) k (wr Child (rd Stack head) EMPTY) Order S' /\ (forall x, seen head Order Stack x -> seen (head + Z.of_nat (length l)) Order S' x).
Proof.
  intros I Hh HC. destruct (p_len I) as (L1 & L2 & L3). set (i := rd Stack head) in *. destruct (@p_stk _ _ _ _ _ _ I head ltac:(lia)) as (Ri & Ni & Oi). fold i in Ri, Ni, Oi.
  destruct (p_ch I Ri) as [CE|CE]; [|contradiction]. destruct (KL Ri) as (l & C & ND & M). exists l. rewrite CE in HC |- *. split; [exact C|]. split; [exact ND|].
  assert (Rl : forall x, In x l -> 0 <= x < n) by (intros x Hx; apply M; exact Hx). split; [exact Rl|].
  assert (NS : forall x, In x l -> ~ seen head Order Stack x). { intros x Hx. apply M in Hx. destruct Hx as (Hx & K). apply (p_no I Ri Hx); [rewrite CE; exact HC|exact K]. }
  assert (BD : head + Z.of_nat (length l) < n).
  { assert (X : Z.of_nat (length (map (rd Stack) (zseq 0 (head + 1)) ++ l)) <= Z.max 0 n).
    { apply nodup_len.
      - assert (ND2 : NoDup (map (rd Stack) (zseq 0 (head + 1)))).
        { assert (G : forall L, NoDup L -> (forall x, In x L -> 0 <= x < head + 1) -> NoDup (map (rd Stack) L)).
          { induction L as [|a L IH]; intros D H; [constructor|]. apply NoDup_cons_iff in D. destruct D as (D1 & D2). cbn. constructor; [|apply IH; [exact D2|intros; apply H; right; assumption]]. intros X. apply in_map_iff in X. destruct X as (b & E & Hb). apply D1. replace a with b; [exact Hb|].
            apply (p_inj I); [apply H; right; exact Hb|apply H; left; reflexivity|exact E]. }
          apply G; [apply zseq_nodup|]. intros x Hx. apply in_zseq in Hx. exact Hx. }
        clear -ND ND2 NS I. induction (map (rd Stack) (zseq 0 (head + 1))) as [|a L IH] eqn:E in ND2, NS |- *; [exact ND|]. 
        assert (Q : forall x, In x (map (rd Stack) (zseq 0 (head + 1))) -> ~ In x l). { intros x Hx Y. apply (NS x Y). right. apply in_map_iff in Hx. destruct Hx as (j & E' & Hj). apply in_zseq in Hj. rewrite <- E'. apply memb_at. lia. }
        rewrite E in Q. clear E IH. induction (a :: L) as [|b L' IH]; [exact ND|]. cbn. apply NoDup_cons_iff in ND2. destruct ND2 as (D1 & D2). constructor; [|apply IH; [exact D2|intros; apply Q; right; assumption]]. intros X. apply in_app_or in X. destruct X as [X|X]; [contradiction|]. exact (Q b (or_introl eq_refl) X).
      - intros x Hx. apply in_app_or in Hx. destruct Hx as [Hx|Hx]; [|apply Rl; exact Hx]. apply in_map_iff in Hx. destruct Hx as (j & <- & Hj). apply in_zseq in Hj. apply (@p_stk _ _ _ _ _ _ I j). lia. }
    rewrite app_length, map_length in X. pose proof (@zlen_zseq 0 (head + 1) ltac:(lia)) as Y. unfold zlen in Y. lia. }
  split; [exact BD|]. split; [destruct l; [cbn in C; contradiction|cbn; lia]|].
  intros S' LS' O IN INJ SUR. set (q := Z.of_nat (length l)) in *.
  assert (SE : forall x, seen (head + q) Order S' x <-> seen head Order Stack x \/ In x l).
  { intros x. unfold seen. rewrite !stack_memb. split.
    - intros [X|(h & H & E)]; [auto|]. destruct (Z_le_gt_dec h head) as [Q|Q]; [left; right; exists h; split; [lia|]; rewrite <- E; symmetry; apply O; lia|right; rewrite <- E; apply IN; lia].
    - intros [[X|(h & H & E)]|X]; [auto|right; exists h; split; [lia|]; rewrite <- E; apply O; lia|]. right. destruct (SUR x X) as (j & Hj & E). exists j. split; [lia|exact E]. }
  split; [|intros x X; apply SE; left; exact X].
  assert (CO : forall x, 0 <= x < n -> rd (wr Child i EMPTY) x = if x =? i then EMPTY else rd Child x) by (intros x Hx; apply rd_wr; lia).
  constructor.
  - rewrite zlen_wr. split; [exact L1|]. split; [exact L2|congruence].
  - lia.
  - intros a b Ha Hb E. destruct (Z_le_gt_dec a head) as [Qa|Qa], (Z_le_gt_dec b head) as [Qb|Qb].
    + rewrite !O in E by lia. apply (p_inj I); [lia|lia|exact E].
    + exfalso. rewrite O in E by lia. apply (NS (rd S' b)); [apply IN; lia|]. right. rewrite <- E. apply memb_at. lia.
    + exfalso. rewrite (O b) in E by lia. apply (NS (rd S' a)); [apply IN; lia|]. right. rewrite E. apply memb_at. lia.
    + apply INJ; [lia|lia|exact E].
  - intros h Hh'. destruct (Z_le_gt_dec h head) as [Q|Q]; [rewrite O by lia; apply (@p_stk _ _ _ _ _ _ I h); lia|]. assert (X : In (rd S' h) l) by (apply IN; lia). split; [apply Rl; exact X|]. split; [apply M in X; destruct X as (_ & X); apply isk_spec in X; apply X|].
    destruct (Z.eq_dec (rd Order (rd S' h)) EMPTY) as [E|E]; [exact E|]. exfalso. apply (NS _ X). left. exact E.
  - intros x Hx. destruct (p_ord I Hx) as [X|(X1 & X2 & X3)]; [left; exact X|right]. split; [exact X1|]. split; [exact X2|]. rewrite CO by exact Hx. destruct (x =? i); auto.
  - exact (p_oinj I).
  - exact (p_osur I).
  - exact (p_k I).
  - intros x Hx. rewrite CO by exact Hx. destruct (x =? i); [right; reflexivity|apply (p_ch I Hx)].
  - intros x y Hx Hy. rewrite CO by exact Hx. destruct (Z.eqb_spec x i) as [->|Nx]; [intros X; contradiction|]. intros X K. rewrite SE. intros [Y|Y]; [exact (p_no I Hx Hy X K Y)|]. apply M in Y. destruct Y as (_ & Y). apply isk_spec in Y. apply isk_spec in K. lia.
  - intros x y Hx Hy. rewrite CO by exact Hx. destruct (Z.eqb_spec x i) as [->|Nx]; intros X K; apply SE; [right; apply M; auto|left; exact (p_yes I Hx Hy X K)].
  - intros x Hx X Q. apply SE in X. destruct X as [X|X]; [exact (p_root I Hx X Q)|]. apply M in X. destruct X as (_ & X). apply isk_spec in X. lia.
Qed.

Lemma pop_step i0 head k Child Order Stack : pinv i0 head k Child Order Stack -> 0 <= head -> rd Child (rd Stack head) = EMPTY ->
  pinv i0 (head - 1) (k + 1) Child (wr Order (rd Stack head) k) Stack /\ (forall x, 0 <= x < n -> seen head Order Stack x -> seen (head - 1) (wr Order (rd Stack head) k) Stack x) /\ 0 <= k.
Proof.
  intros I Hh HC. destruct (p_len I) as (L1 & L2 & L3). pose proof (p_hd I) as HH. set (i := rd Stack head) in *. destruct (@p_stk _ _ _ _ _ _ I head ltac:(lia)) as (Ri & Ni & Oi). fold i in Ri, Ni, Oi.
  assert (K0 : 0 <= k) by (rewrite (p_k I); apply sumz_nonneg; intros; destruct (negb _); cbn; lia).
  assert (OO : forall x, 0 <= x < n -> rd (wr Order i k) x = if x =? i then k else rd Order x) by (intros x Hx; apply rd_wr; lia).
  assert (SE : forall x, 0 <= x < n -> seen (head - 1) (wr Order i k) Stack x <-> seen head Order Stack x).
  { intros x Hx. unfold seen. rewrite OO by exact Hx. rewrite !stack_memb. destruct (Z.eqb_spec x i) as [->|Nx].
    - split; intros _; [right; exists head; split; [lia|reflexivity]|left; unfold EMPTY; lia].
    - split; (intros [X|(h & H & E)]; [auto|right; exists h; split; [|exact E]]); [lia|]. assert (h <> head) by (intros ->; apply Nx; symmetry; exact E). lia. }
  assert (OK : forall x, 0 <= x < n -> rd Order x <> k). { intros x Hx E. destruct (p_ord I Hx) as [X|(X & _)]; [unfold EMPTY in X; lia|lia]. }
  split; [|split; [intros x Hx X; apply SE; auto|exact K0]]. constructor.
  - rewrite zlen_wr. auto.
  - lia.
  - eapply injs_le; [|exact (p_inj I)]. lia.
  - intros h Hh'. destruct (@p_stk _ _ _ _ _ _ I h ltac:(lia)) as (X1 & X2 & X3). split; [exact X1|]. split; [exact X2|]. rewrite OO by exact X1. destruct (Z.eqb_spec (rd Stack h) i) as [E|]; [|exact X3]. exfalso. assert (h = head) by (apply (p_inj I); [lia|lia|exact E]). lia.
  - intros x Hx. rewrite OO by exact Hx. destruct (Z.eqb_spec x i) as [->|]; [right; split; [lia|auto]|]. destruct (p_ord I Hx) as [X|(X1 & X2 & X3)]; [left; exact X|right; repeat split; auto; lia].
  - intros x y Hx Hy. rewrite !OO by assumption. destruct (Z.eqb_spec x i) as [->|Nx], (Z.eqb_spec y i) as [->|Ny]; auto.
    + intros _ E. exfalso. apply (OK y Hy). auto.
    + intros _ E. exfalso. apply (OK x Hx). auto.
    + apply (p_oinj I); auto.
  - intros j Hj. destruct (Z.eq_dec j k) as [->|]; [exists i; split; [exact Ri|apply rd_wr_eq; lia]|]. destruct (@p_osur _ _ _ _ _ _ I j ltac:(lia)) as (x & Hx & E). exists x. split; [exact Hx|]. rewrite OO by exact Hx. destruct (Z.eqb_spec x i) as [->|]; [|exact E]. unfold EMPTY in Oi. lia.
  - rewrite (@sumz_upd n (fun x => b2z (negb (rd (wr Order i k) x =? EMPTY))) (fun x => b2z (negb (rd Order x =? EMPTY))) i Ri).
    + rewrite <- (p_k I), OO, Z.eqb_refl, Oi by exact Ri. rewrite (proj2 (Z.eqb_neq k EMPTY)) by (unfold EMPTY; lia). cbn. lia.
    + intros x Hx Nx. rewrite OO by exact Hx. rewrite (proj2 (Z.eqb_neq x i) Nx). reflexivity.
  - exact (p_ch I).
  - intros x y Hx Hy X K. rewrite SE by exact Hy. exact (p_no I Hx Hy X K).
  - intros x y Hx Hy X K. rewrite SE by exact Hy. exact (p_yes I Hx Hy X K).
  - intros x Hx X. apply SE in X; [|exact Hx]. exact (p_root I Hx X).
Qed.

Lemma mu_pos Child Order : 0 <= mu Child Order.
Proof. assert (0 <= sumz n (fun x => b2z (negb (rd Child x =? EMPTY)))) by (apply sumz_nonneg; intros; destruct (negb _); cbn; lia). assert (0 <= sumz n (fun x => b2z (rd Order x =? EMPTY))) by (apply sumz_nonneg; intros; destruct (_ =? _); cbn; lia). unfold mu. lia. Qed.

Lemma ptloop_ok i0 : forall fuel head k Child Order Stack, pinv i0 head k Child Order Stack -> mu Child Order <= Z.of_nat fuel ->
  wp (pt_loop fuel n head k Child Sibling Order Stack) (fun '(Order', Child', Stack', k') => pinv i0 (-1) k' Child' Order' Stack' /\ forall x, 0 <= x < n -> seen head Order Stack x -> rd Order' x <> EMPTY) nerr.
Proof.
  induction fuel as [|fuel IH]; intros head k Child Order Stack I HM; cbn [pt_loop]; destruct (p_len I) as (L1 & L2 & L3); pose proof (p_hd I) as HH; destruct (Z.geb_spec head 0) as [Hh|Hh].
  - exfalso. destruct (@p_stk _ _ _ _ _ _ I head ltac:(lia)) as (Ri & Ni & Oi). assert (X : 1 <= sumz n (fun x => b2z (rd Order x =? EMPTY))). { etransitivity; [|apply (@sumz_pos1 n (fun x => b2z (rd Order x =? EMPTY)) _ Ri); intros; destruct (_ =? _); cbn; lia]. cbv beta. rewrite Oi. cbn. lia. }
    unfold mu in HM. assert (0 <= sumz n (fun x => b2z (negb (rd Child x =? EMPTY)))) by (apply sumz_nonneg; intros; destruct (negb _); cbn; lia). lia.
  - cbn. assert (E : head = -1) by lia. subst head. split; [exact I|]. intros x Hx [X|X]; [exact X|]. rewrite memb_0 in X by lia. discriminate.
  - destruct (@p_stk _ _ _ _ _ _ I head ltac:(lia)) as (Ri & Ni & Oi). wg; [lia|]. wg; [lia|]. set (i := rd Stack head) in *. destruct (Z.eqb_spec (rd Child i) EMPTY) as [E|E]; cbn [negb].
    + destruct (pop_step I Hh E) as (I' & SM & K0). fold i in I', SM. ws; [lia|]. eapply wp_conseq; [apply (IH _ _ _ _ _ I')|].
      * unfold mu in *. rewrite (@sumz_upd n (fun x => b2z (rd (wr Order i k) x =? EMPTY)) (fun x => b2z (rd Order x =? EMPTY)) i Ri).
        -- rewrite rd_wr_eq by lia. rewrite Oi, Z.eqb_refl. rewrite (proj2 (Z.eqb_neq k EMPTY)) by (unfold EMPTY; lia). cbn [b2z]. lia.
        -- intros x Hx Nx. rewrite rd_wr_ne by lia. reflexivity.
      * intros [[[Order' Child'] Stack'] k'] (X1 & X2). split; [exact X1|]. intros x Hx X. apply X2; auto.
    + destruct (push_step I Hh E) as (l & C & ND & R & BD & LP0 & ST). fold i in C, ST. assert (LL : (length l <= Z.to_nat n)%nat) by lia.
      apply wp_bind. eapply wp_conseq; [apply (@count_ok l); [exact C|exact R|exact LL]|]. intros h ->.
      apply wp_bind. eapply wp_conseq; [apply (@push_ok l); [exact C|exact ND|exact R|exact LL|lia|lia]|]. intros S' (Q1 & Q2 & Q3 & Q4 & Q5).
      replace (head + Z.of_nat (length l) - Z.of_nat (length l)) with head in * by lia. destruct (ST S' Q1 Q2 Q3 Q4 Q5) as (I' & SM). ws; [lia|]. eapply wp_conseq; [apply (IH _ _ _ _ _ I')|].
      * unfold mu in *. rewrite (@sumz_upd n (fun x => b2z (negb (rd (wr Child i EMPTY) x =? EMPTY))) (fun x => b2z (negb (rd Child x =? EMPTY))) i Ri).
        -- rewrite rd_wr_eq by lia. rewrite Z.eqb_refl, (proj2 (Z.eqb_neq _ _) E). cbn [b2z negb]. lia.
        -- intros x Hx Nx. rewrite rd_wr_ne by lia. reflexivity.
      * intros [[[Order' Child'] Stack'] k'] (X1 & X2). split; [exact X1|]. intros x Hx X. apply X2; auto.
  - cbn. assert (E : head = -1) by lia. subst head. split; [exact I|]. intros x Hx [X|X]; [exact X|]. rewrite memb_0 in X by lia. discriminate.
Qed.

(* the order: a numbering of the elements *)
Definition numbering (Order : list Z) (K : Z) : Prop := zlen Order = n /\ 0 <= K <= n /\
  (forall x, 0 <= x < n -> (rd Order x = EMPTY /\ rd Nv x = 0) \/ (0 <= rd Order x < K /\ 0 < rd Nv x)) /\
  (forall x y, 0 <= x < n -> 0 <= y < n -> rd Order x <> EMPTY -> rd Order x = rd Order y -> x = y) /\ (forall j, 0 <= j < K -> exists x, 0 <= x < n /\ rd Order x = j).

Lemma trees_ok Stack : zlen Stack = n ->
  wp (for_ 0 n (fun i '(Order, Child, Stack, k) =>
    let* pa := get P i in
    let* nv := get Nv i in
    if (pa =? EMPTY) && (nv >? 0) then amd_post_tree n i k Child Sibling Order Stack
    else Ok (Order, Child, Stack, k)) (mk n EMPTY, Child0, Stack, 0)) (fun '(Order, _, _, _) => exists K, numbering Order K) nerr.
Proof.
  intros LS0. eapply wp_conseq; [apply wp_for with (I := fun i '(Order, Child, Stack, k) => pinv (i - 1) (-1) k Child Order Stack /\ forall x, 0 <= x < i -> rd P x = -1 -> 0 < rd Nv x -> rd Order x <> EMPTY); [lia| |]|].
  - split; [|intros; lia]. assert (SN : forall x, 0 <= x < n -> ~ seen (-1) (mk n EMPTY) Stack x). { intros x Hx [X|X]; [apply X; apply rd_mk; exact Hx|]. rewrite memb_0 in X by lia. discriminate. }
    constructor; auto; try lia.
    + rewrite zlen_mk by lia. auto.
    + intros a b Ha. lia.
    + intros x Hx. left. apply rd_mk. exact Hx.
    + intros x y Hx Hy X. exfalso. apply X. apply rd_mk. exact Hx.
    + symmetry. apply sumz_zero. intros x Hx. rewrite rd_mk by exact Hx. reflexivity.
    + intros x y Hx Hy X K. exfalso. destruct (KL Hx) as (l & C & ND & M). destruct l as [|a l]; [apply (M y); auto|]. cbn in C. destruct C as (C & _). assert (0 <= a < n) by (apply M; left; reflexivity). unfold EMPTY in X. lia.
    + intros x Hx X. exfalso. exact (SN x Hx X).
  - intros i [[[Order Child] Stack1] k] Hi (I & RD). destruct (p_len I) as (L1 & L2 & L3). wg; [lia|]. wg; [lia|].
    destruct ((rd P i =? EMPTY) && (rd Nv i >? 0)) eqn:B.
    + apply Bool.andb_true_iff in B. destruct B as (B1 & B2). apply Z.eqb_eq in B1. apply Z.gtb_lt in B2. change EMPTY with (-1) in B1.
      assert (NSi : ~ seen (-1) Order Stack1 i). { intros X. pose proof (p_root I Hi X B1). lia. }
      assert (Oi : rd Order i = EMPTY). { destruct (Z.eq_dec (rd Order i) EMPTY) as [E|E]; [exact E|]. exfalso. apply NSi. left. exact E. }
      unfold amd_post_tree. ws; [lia|].
      assert (S0 : rd (wr Stack1 0 i) 0 = i) by (apply rd_wr_eq; lia).
      assert (SE : forall x, seen 0 Order (wr Stack1 0 i) x <-> seen (-1) Order Stack1 x \/ x = i).
      { intros x. unfold seen. rewrite !stack_memb. split.
        - intros [X|(h & H & E)]; [auto|]. assert (h = 0) by lia. subst h. right. congruence.
        - intros [[X|(h & H & E)]|X]; [auto|lia|]. right. exists 0. split; [lia|congruence]. }
      assert (I' : pinv i 0 k Child Order (wr Stack1 0 i)).
      { constructor; try (rewrite zlen_wr; auto; fail); try lia.
        - intros a b Ha Hb _. lia.
        - intros h Hh. assert (h = 0) by lia. subst h. rewrite S0. auto.
        - exact (p_ord I). - exact (p_oinj I). - exact (p_osur I). - exact (p_k I). - exact (p_ch I).
        - intros x y Hx Hy X K. rewrite SE. intros [Y|Y]; [exact (p_no I Hx Hy X K Y)|]. apply isk_spec in K. subst y. lia.
        - intros x y Hx Hy X K. apply SE. left. exact (p_yes I Hx Hy X K).
        - intros x Hx X Q. apply SE in X. destruct X as [X|X]; [pose proof (p_root I Hx X Q); lia|lia]. }
      eapply wp_conseq; [apply ptloop_ok; [exact I'|]|].
      * unfold mu. pose proof (@sumz_count_le n (fun x => negb (rd Child x =? EMPTY)) ltac:(lia)). pose proof (@sumz_count_le n (fun x => rd Order x =? EMPTY) ltac:(lia)). cbv beta in *. lia.
      * intros [[[Order' Child'] Stack'] k'] (J & SD). replace (i + 1 - 1) with i by lia. split; [exact J|]. intros x Hx X1 X2. apply SD; [lia|]. apply SE. destruct (Z.eq_dec x i) as [->|]; [right; reflexivity|]. left. left. apply RD; auto. lia.
    + cbn [wp]. split.
      * constructor; [exact (p_len I)|exact (p_hd I)|exact (p_inj I)|exact (p_stk I)|exact (p_ord I)|exact (p_oinj I)|exact (p_osur I)|exact (p_k I)|exact (p_ch I)|exact (p_no I)|exact (p_yes I)|]. intros x Hx X Q. pose proof (p_root I Hx X Q). lia.
      * intros x Hx X1 X2. destruct (Z.eq_dec x i) as [->|]; [|apply RD; auto; lia]. exfalso. change EMPTY with (-1) in B. rewrite X1 in B. cbn in B. destruct (Z.gtb_spec (rd Nv i) 0); [discriminate|lia].
  - intros [[[Order Child] Stack1] k] (I & RD). exists k. destruct (p_len I) as (L1 & L2 & L3).
    assert (ALL : forall m x, (Z.to_nat (n - r x) <= m)%nat -> 0 <= x < n -> 0 < rd Nv x -> rd Order x <> EMPTY).
    { induction m as [|m IH]; intros x Hm Hx N; pose proof (pt_rk T Hx); [lia|]. destruct (Z.eq_dec (rd P x) (-1)) as [Q|Q]; [apply RD; auto; lia|]. destruct (pt_up T Hx Q) as (U1 & U2). destruct (pt_el T Hx N) as (_ & _ & U3). pose proof (pt_rk T U1).
      assert (D : rd Order (rd P x) <> EMPTY) by (apply IH; [lia|exact U1|apply U3; exact Q]). destruct (p_ord I U1) as [X|(_ & _ & X)]; [contradiction|]. assert (S : seen (-1) Order Stack1 x). { apply (p_yes I U1 Hx X). apply isk_spec. auto. } destruct S as [S|S]; [exact S|]. rewrite memb_0 in S by lia. discriminate. }
    split; [exact L2|]. split; [rewrite (p_k I); split; [apply sumz_nonneg; intros; destruct (negb _); cbn; lia|apply (@sumz_count_le n (fun x => negb (rd Order x =? EMPTY))); lia]|]. split; [|split; [exact (p_oinj I)|exact (p_osur I)]].
    intros x Hx. destruct (p_ord I Hx) as [X|(X1 & X2 & X3)]; [left|right; auto]. split; [exact X|]. pose proof (pt_nn T Hx). destruct (Z.eq_dec (rd Nv x) 0) as [|N]; [assumption|]. exfalso. apply (ALL _ x (le_n _) Hx); [lia|exact X].
Qed.
End Post.

Theorem postorder_ok n P Nv grp r Fsize Order0 Stack : ptree n P Nv grp r -> zlen P = n -> zlen Nv = n -> 1 <= n -> zlen Fsize = n -> zlen Stack = n -> (forall x, 0 <= x < n -> 0 < rd Nv x -> -1 <= rd Fsize x) ->
  wp (amd_postorder n P Nv Fsize Order0 Stack) (fun Order => exists K, numbering n Nv Order K) nerr.
Proof.
  intros T LP LN Hn LF LS HF. unfold amd_postorder. apply wp_bind. eapply wp_conseq; [apply (children_ok T LP LN Hn)|]. intros [Child Sibling] (L1 & L2 & K).
  apply wp_bind. eapply wp_conseq; [apply (@biglast_ok n P Nv LN Hn Fsize LF HF Child Sibling L1 L2 K)|]. intros [Child1 Sibling1] (L3 & L4 & K1).
  apply wp_bind. eapply wp_conseq; [apply (@trees_ok n P Nv grp r T LP LN Hn Child1 Sibling1 L3 L4 K1 Stack LS)|]. intros [[[Order c] s] k] X. exact X.
Qed.
