(* SLIP_matrix_check *)
From Coq Require Import Permutation Sorted.
From Verif Require Import Base DetZ Spec SumQ MSolve PSolve MMatrix MatSpec PApi PMat PCopy.
Set Implicit Arguments.
Set Bullet Behavior "Strict Subproofs".
Open Scope Z_scope.

Lemma wp_weaken A (m : res A) (Q Q' : A -> Prop) (E E' : info -> Prop) :
  wp m Q E -> (forall a, Q a -> Q' a) -> (forall e, E e -> E' e) -> wp m Q' E'.
Proof. destruct m; simpl; auto. Qed.
Lemma nodup_zseq a b : NoDup (zseq a b).
Proof. unfold zseq. apply FinFun.Injective_map_NoDup. intros x y H. lia. apply seq_NoDup. Qed.
Definition bad (P : Prop) (e : info) : Prop := e = SLIP_INCORRECT_INPUT /\ ~ P.

Lemma check_ptr_spec n nz p : 0 <= n -> n + 1 <= zlen p -> nz = rd p n ->
  wp (check_ptr n nz p) (fun _ => forall c, 0 <= c < n -> rd p c <= rd p (c + 1)) (bad (forall c, 0 <= c < n -> rd p c <= rd p (c + 1))).
Proof.
  intros Hn Hp ->. unfold check_ptr.
  apply wp_for with (I := fun j _ => forall c, 0 <= c < j -> rd p c <= rd p (c + 1)); auto.
  - intros; lia.
  - intros j _ Hj IH. rewrite get_rd by lia. cbn [bind]. rewrite get_rd by lia. cbn [bind].
    destruct (Z.ltb_spec (rd p (j + 1)) (rd p j)), (Z.gtb_spec (rd p (j + 1)) (rd p n)); simpl.
    1,2: split; auto; intros HH; specialize (HH j ltac:(lia)); lia.
    + split; auto. intros HH. assert (rd p (j + 1) <= rd p n) by (apply (mono_le _ HH); lia). lia.
    + intros c Hc. destruct (Z.eq_dec c j) as [->|]; auto. apply IH; lia.
Qed.

Definition rows_ok (m n : Z) (p i : list Z) : Prop :=
  (forall q, 0 <= q < rd p n -> 0 <= rd i q < m) /\
  (forall c q q', 0 <= c < n -> rd p c <= q < rd p (c + 1) -> rd p c <= q' < rd p (c + 1) -> rd i q = rd i q' -> q = q').

Lemma check_rows_spec m n p i : 0 <= m -> 0 <= n -> n + 1 <= zlen p -> rd p 0 = 0 -> (forall c, 0 <= c < n -> rd p c <= rd p (c + 1)) -> rd p n <= zlen i ->
  wp (check_rows m n p i) (fun _ => rows_ok m n p i) (bad (rows_ok m n p i)).
Proof.
  intros Hm Hn Hp H0 Hmono Hi. pose proof (mono_le _ Hmono) as ML. unfold check_rows.
  eapply wp_conseq.
  - apply wp_for with (I := fun j work => zlen work = m /\ (forall r, 0 <= r < m -> rd work r <= j) /\
      (forall q, 0 <= q < rd p j -> 0 <= rd i q < m) /\
      (forall c q q', 0 <= c < j -> rd p c <= q < rd p (c + 1) -> rd p c <= q' < rd p (c + 1) -> rd i q = rd i q' -> q = q')); auto.
    + rewrite zlen_mk by lia. split; auto. split. { intros r Hr. rewrite rd_mk by lia. lia. } rewrite H0. split; intros; lia.
    + intros j work Hj (W1 & W2 & W3 & W4). rewrite get_rd by lia. cbn [bind]. rewrite get_rd by lia. cbn [bind].
      pose proof (ML 0 j ltac:(lia) ltac:(lia)). pose proof (ML (j + 1) n ltac:(lia) ltac:(lia)). pose proof (Hmono j Hj).
      eapply wp_conseq.
      * apply wp_for with (I := fun q work => zlen work = m /\ (forall r, 0 <= r < m -> rd work r <= j + 1) /\
          (forall q', 0 <= q' < q -> 0 <= rd i q' < m) /\
          (forall r, 0 <= r < m -> rd work r = j + 1 -> exists q', rd p j <= q' < q /\ rd i q' = r) /\
          (forall q', rd p j <= q' < q -> rd work (rd i q') = j + 1) /\
          (forall q' q'', rd p j <= q' < q -> rd p j <= q'' < q -> rd i q' = rd i q'' -> q' = q'')); auto.
        -- split; auto. split. { intros r Hr. specialize (W2 r Hr). lia. } split; auto. split. { intros r Hr Hw. specialize (W2 r Hr). lia. } split; intros; lia.
        -- intros q wk Hq (V1 & V2 & V3 & V4 & V5 & V6). rewrite get_rd by lia. cbn [bind].
           destruct (Z.ltb_spec (rd i q) 0); simpl. { split; auto. intros [HH _]. specialize (HH q ltac:(lia)). lia. }
           destruct (Z.geb_spec (rd i q) m); simpl. { split; auto. intros [HH _]. specialize (HH q ltac:(lia)). lia. }
           rewrite get_rd by lia. cbn [bind]. destruct (Z.eqb_spec (rd wk (rd i q)) (j + 1)) as [E|E].
           { simpl. split; auto. intros [_ HH]. destruct (V4 (rd i q) ltac:(lia) E) as (q' & Hq' & Eq'). specialize (HH j q' q Hj ltac:(lia) ltac:(lia) Eq'). lia. }
           rewrite set_wr by lia. cbn [wp]. rewrite zlen_wr. split; auto. split.
           { intros r Hr. rewrite rd_wr by lia. destruct (Z.eqb_spec r (rd i q)). lia. auto. }
           split. { intros q' Hq'. destruct (Z.eq_dec q' q) as [->|]. lia. apply V3; lia. }
           assert (D : forall q', rd p j <= q' < q -> rd i q' <> rd i q). { intros q' Hq' Eq. apply E. rewrite <- Eq. auto. }
           split. { intros r Hr. rewrite rd_wr by lia. destruct (Z.eqb_spec r (rd i q)) as [->|].
             - intros _. exists q. split; auto. lia.
             - intros Hw. destruct (V4 r Hr Hw) as (q' & A & B). exists q'. split; auto. lia. }
           split. { intros q' Hq'. assert (0 <= rd i q' < m). { destruct (Z.eq_dec q' q) as [->|]. lia. apply V3; lia. }
             rewrite rd_wr by lia. destruct (Z.eqb_spec (rd i q') (rd i q)); auto. apply V5. assert (q' <> q) by congruence. lia. }
           intros q' q'' Hq' Hq'' Eq. destruct (Z.eq_dec q' q) as [->|], (Z.eq_dec q'' q) as [->|]; auto.
           ++ exfalso. apply (D q''); auto. lia.
           ++ exfalso. apply (D q'); auto. lia.
           ++ apply V6; auto; lia.
      * intros wk (V1 & V2 & V3 & V4 & V5 & V6). split; auto. split; auto. split; auto.
        intros c q q' Hc. destruct (Z.eq_dec c j) as [->|]. apply V6. apply W4. lia.
  - intros work (W1 & W2 & W3 & W4). split; auto.
Qed.

(* NULL pointers aside, the CSC test is exact *)
Lemma check_csc A p i x : m_kind A = KCSC -> m_p A = Some p -> m_i A = Some i -> m_x A = Some x -> 1 <= m_nzmax A ->
  (0 <= m_n A -> m_n A + 1 <= zlen p) -> (0 <= m_n A -> rd p (m_n A) <= zlen i) ->
  let V := 0 <= m_m A /\ 0 <= m_n A /\ is_type (m_type A) /\ csc_valid (m_m A) (m_n A) p i in
  wp (matrix_check true (Some A)) (fun _ => V) (bad V).
Proof.
  intros Hk Hp Hi Hx Hz Hlp Hli V. unfold matrix_check, matrix_nnz. cbn [negb]. rewrite Hk. simpl (KCSC =? KCSC). cbv iota. rewrite Hp.
  destruct (Z.ltb_spec (m_n A) 0) as [N|N]. { simpl. split; auto. intros (_ & G & _). lia. }
  rewrite get_rd by lia. cbn [bind].
  destruct (Z.ltb_spec (rd p (m_n A)) 0) as [B|B].
  { simpl. split; auto. intros (_ & _ & _ & G0 & G1 & _). assert (rd p 0 <= rd p (m_n A)) by (apply (mono_le _ G1); lia). lia. }
  destruct (Z.ltb_spec (m_m A) 0). { simpl. split; auto. intros (G & _). lia. }
  destruct (Z.ltb_spec (m_n A) 0); try lia. destruct (Z.ltb_spec (m_nzmax A) 0); try lia. cbn [orb].
  destruct (Z.ltb_spec (m_type A) TMPZ), (Z.gtb_spec (m_type A) TDBL); cbn [orb]; try (simpl; split; auto; intros (_ & _ & G & _); unfold is_type in G; lia).
  cbn [deref bind]. destruct (Z.gtb_spec (m_nzmax A) 0); try lia. rewrite get_rd by lia. cbn [bind].
  destruct (Z.eqb_spec (rd p 0) 0) as [P0|P0]; simpl negb; cbv iota. 2: { simpl. split; auto. intros (_ & _ & _ & G & _). lia. }
  apply wp_bind. eapply wp_weaken; [apply check_ptr_spec; auto; lia|intros [] |intros e].
  - intros Hmono. rewrite Hi, Hx. apply wp_bind. eapply wp_weaken; [apply check_rows_spec; auto|intros w|intros e]; try lia.
    + intros [R1 R2]. simpl. repeat split; auto.
      * apply (R1 q); auto.
      * apply (R1 q); auto.
    + intros [E1 E2]. split; auto. intros (_ & _ & _ & _ & _ & G1 & G2). apply E2. split; auto.
  - intros [E1 E2]. split; auto. intros (_ & _ & _ & _ & G1 & _). auto.
Qed.

(*----------------------------------------------------------------------------*)
(* triplets *)
Definition pleP (a b : Z * Z) : Prop := fst a < fst b \/ (fst a = fst b /\ snd a <= snd b).
Lemma ple_spec a b : reflect (pleP a b) (ple a b).
Proof.
  apply Bool.iff_reflect. unfold ple, pleP. destruct (Z.ltb_spec (fst a) (fst b)). split; auto. destruct (Z.gtb_spec (fst a) (fst b)). split; try discriminate; lia.
  rewrite Z.leb_le. lia.
Qed.
Lemma ple_total a b : ple a b = false -> pleP b a.
Proof. destruct (ple_spec a b) as [H|H]; try discriminate. unfold pleP in *. lia. Qed.
Lemma insert_perm a l : Permutation (a :: l) (insert_p a l).
Proof.
  induction l as [|b l IH]; simpl; auto. destruct (ple a b); auto. apply perm_trans with (b :: a :: l). constructor. constructor. auto.
Qed.
Lemma sort_perm l : Permutation l (sort_p l).
Proof. induction l as [|a l IH]; simpl; auto. apply perm_trans with (a :: sort_p l). auto. apply insert_perm. Qed.
Lemma insert_sorted a l : StronglySorted pleP l -> StronglySorted pleP (insert_p a l).
Proof.
  induction 1 as [|b l Hs IH Hb]; simpl. repeat constructor.
  destruct (ple_spec a b) as [H|H].
  - constructor. constructor; auto. constructor; auto. eapply Forall_impl; [|exact Hb]. intros c Hc. unfold pleP in *. lia.
  - constructor; auto. assert (G : pleP b a) by (unfold pleP in *; lia).
    apply Permutation_Forall with (a :: l). apply insert_perm. constructor; auto.
Qed.
Lemma sort_sorted l : StronglySorted pleP (sort_p l).
Proof. induction l; simpl. constructor. now apply insert_sorted. Qed.
Lemma adj_dup_spec l : StronglySorted pleP l -> (adj_dup l = true <-> ~ NoDup l).
Proof.
  induction 1 as [|a l Hs IH Ha]. { simpl. split. discriminate. intros H. exfalso. apply H. constructor. }
  destruct l as [|b l]. { simpl. split. discriminate. intros H. exfalso. apply H. constructor. auto. constructor. }
  change (adj_dup (a :: b :: l)) with (((fst a =? fst b) && (snd a =? snd b)) || adj_dup (b :: l)).
  rewrite Bool.orb_true_iff, Bool.andb_true_iff, !Z.eqb_eq, IH. split.
  - intros [[H1 H2]|H] G; inversion G; subst; auto. apply H3. left. destruct a, b; simpl in *; congruence.
  - intros H. destruct (Z.eq_dec (fst a) (fst b)) as [E1|E1], (Z.eq_dec (snd a) (snd b)) as [E2|E2]; auto.
    all: right; intros G; apply H; constructor; auto; intros [E|I]; [subst; tauto|].
    all: inversion Hs; subst; rewrite Forall_forall in H3; specialize (H3 a I); inversion Ha; subst; unfold pleP in *; lia.
Qed.
Lemma load_spec nz ti tj E : 0 <= nz -> nz <= zlen ti -> nz <= zlen tj ->
  wp (for_ 0 nz (fun p w => let* j := get tj p in let* i := get ti p in Ok (w ++ [(j, i)])) [])
     (fun w => w = map (fun k => (rd tj k, rd ti k)) (zseq 0 nz)) E.
Proof.
  intros Hz Hi Hj. apply wp_for with (I := fun k w => w = map (fun k => (rd tj k, rd ti k)) (zseq 0 k)); auto.
  intros k w Hk ->. rewrite !get_rd by lia. simpl. rewrite zseq_snoc, map_app by lia. auto.
Qed.
Lemma NoDup_map_iff T (f : Z -> T) l : NoDup l -> (NoDup (map f l) <-> forall a b, In a l -> In b l -> f a = f b -> a = b).
Proof.
  induction 1 as [|x l Hx Hn IH]. { simpl. split. intros; contradiction. intros; constructor. }
  simpl. split.
  - intros H a b Ha Hb E. inversion H; subst. pose proof (proj1 IH H3) as H4. 
    destruct Ha as [<-|Ha], Hb as [<-|Hb]; auto.
    + exfalso. apply H2. rewrite E. now apply in_map.
    + exfalso. apply H2. rewrite <- E. now apply in_map.
  - intros H. constructor.
    + intros I. apply in_map_iff in I. destruct I as (y & E & Hy). apply Hx. rewrite <- (H y x); auto.
    + apply IH. intros; apply H; auto.
Qed.
Lemma check_trip_spec m n nz ti tj : 0 <= nz -> nz <= zlen ti -> nz <= zlen tj ->
  wp (check_trip m n nz ti tj) (fun _ => trip_valid m n nz ti tj) (bad (trip_valid m n nz ti tj)).
Proof.
  intros Hz Hi Hj. unfold check_trip. apply wp_bind. apply (@wp_weaken _ _ (fun _ => forall k, 0 <= k < nz -> 0 <= rd ti k < m /\ 0 <= rd tj k < n) _ (bad (trip_valid m n nz ti tj)) _).
  - apply wp_for with (I := fun q _ => forall k, 0 <= k < q -> 0 <= rd ti k < m /\ 0 <= rd tj k < n); auto.
    + intros; lia.
    + intros k _ Hk IH. rewrite !get_rd by lia. cbn [bind].
      destruct (Z.ltb_spec (rd ti k) 0), (Z.geb_spec (rd ti k) m), (Z.ltb_spec (rd tj k) 0), (Z.geb_spec (rd tj k) n); cbn [orb];
        try (split; auto; intros [G _]; specialize (G k Hk); lia).
      simpl. intros k' Hk'. destruct (Z.eq_dec k' k) as [->|]. lia. apply IH; lia.
  - intros [] Hr. apply wp_bind. eapply wp_conseq. apply load_spec; auto. intros w ->.
    pose proof (adj_dup_spec (sort_sorted (map (fun k => (rd tj k, rd ti k)) (zseq 0 nz)))) as HA.
    assert (HN : NoDup (sort_p (map (fun k => (rd tj k, rd ti k)) (zseq 0 nz))) <-> forall k k', 0 <= k < nz -> 0 <= k' < nz -> rd ti k = rd ti k' -> rd tj k = rd tj k' -> k = k').
    { assert (HP : NoDup (sort_p (map (fun k => (rd tj k, rd ti k)) (zseq 0 nz))) <-> NoDup (map (fun k => (rd tj k, rd ti k)) (zseq 0 nz))).
      { split; intros G. eapply Permutation_NoDup; [|exact G]. symmetry. apply sort_perm. eapply Permutation_NoDup; [|exact G]. apply sort_perm. }
      rewrite HP, NoDup_map_iff by apply nodup_zseq. split.
      - intros G k k' Hk Hk' E1 E2. apply G; try (apply in_zseq; auto). congruence.
      - intros G a b Ha Hb E. apply in_zseq in Ha. apply in_zseq in Hb. injection E as E1 E2. apply G; auto. }
    destruct (adj_dup _).
    + simpl. split; auto. intros [_ G]. apply HA; auto. apply HN. auto.
    + simpl. split; auto. apply HN. destruct (ListDec.NoDup_dec (fun a b : Z * Z => ltac:(repeat decide equality)) (sort_p (map (fun k => (rd tj k, rd ti k)) (zseq 0 nz)))) as [D|D]; auto.
      apply HA in D. discriminate.
  - auto.
Qed.
Lemma check_trip_mat A ti tj x : m_kind A = KTRIP -> m_i A = Some ti -> m_j A = Some tj -> m_x A = Some x -> 0 <= m_nzmax A ->
  m_nz A <= zlen ti -> m_nz A <= zlen tj ->
  let V := 0 <= m_nz A /\ 0 <= m_m A /\ 0 <= m_n A /\ is_type (m_type A) /\ trip_valid (m_m A) (m_n A) (m_nz A) ti tj in
  wp (matrix_check true (Some A)) (fun _ => V) (bad V).
Proof.
  intros Hk Hi Hj Hx Hz Hli Hlj V. unfold matrix_check, matrix_nnz. cbn [negb]. rewrite Hk. simpl (KTRIP =? _). cbv iota. cbn [bind].
  destruct (Z.ltb_spec (m_nz A) 0). { simpl. split; auto. intros (G & _). lia. }
  destruct (Z.ltb_spec (m_m A) 0). { simpl. split; auto. intros (_ & G & _). lia. }
  destruct (Z.ltb_spec (m_n A) 0). { simpl. split; auto. intros (_ & _ & G & _). lia. }
  destruct (Z.ltb_spec (m_nzmax A) 0); try lia. cbn [orb].
  destruct (Z.ltb_spec (m_type A) TMPZ), (Z.gtb_spec (m_type A) TDBL); cbn [orb]; try (simpl; split; auto; intros (_ & _ & _ & G & _); unfold is_type in G; lia).
  rewrite Hi, Hj, Hx. eapply wp_weaken; [apply check_trip_spec; auto|intros []|intros e].
  - intros G. unfold V. unfold is_type. repeat split; auto; apply G; auto.
  - intros [E1 E2]. split; auto. intros (_ & _ & _ & _ & G). auto.
Qed.
Lemma check_dense_mat A x : m_kind A = KDENSE -> m_x A = Some x -> 0 <= m_nzmax A ->
  let V := 0 <= m_m A /\ 0 <= m_n A /\ is_type (m_type A) in
  wp (matrix_check true (Some A)) (fun _ => V) (bad V).
Proof.
  intros Hk Hx Hz V. unfold matrix_check, matrix_nnz. cbn [negb]. rewrite Hk. simpl (KDENSE =? _). cbv iota. cbn [bind].
  destruct (Z.ltb_spec (m_m A) 0). { simpl. split; auto. intros (G & _). lia. }
  destruct (Z.ltb_spec (m_n A) 0). { simpl. split; auto. intros (_ & G & _). lia. }
  simpl (false || false). cbv iota. destruct (Z.ltb_spec (m_m A * m_n A) 0). nia.
  destruct (Z.ltb_spec (m_nzmax A) 0); try lia. cbn [orb].
  destruct (Z.ltb_spec (m_type A) TMPZ), (Z.gtb_spec (m_type A) TDBL); cbn [orb]; try (simpl; split; auto; intros (_ & _ & G); unfold is_type in G; lia).
  rewrite Hx. simpl. unfold V, is_type. lia.
Qed.
