(* Correctness of the solve phase. *)
From Coq Require Import Permutation.
From Verif Require Import Base Spec MFactor PReach PTri PFactor MSolve.
Set Implicit Arguments.
Open Scope Z_scope.

(*----------------------------------------------------------------------------*)
(* two-dimensional addressing *)
Lemma ix_range m n i j : 0 <= i < m -> 0 <= j < n -> 0 <= ix m i j < m * n.
Proof. unfold ix. intros. nia. Qed.
Lemma ix_inj m i j i' j' : 0 <= i < m -> 0 <= i' < m -> ix m i j = ix m i' j' -> i = i' /\ j = j'.
Proof. unfold ix. intros. assert (j = j') by nia. subst. lia. Qed.

(* generic arrays *)
Section Gen.
Variable A : Type.
Variable d : A.
Definition wrg (l : list A) (i : Z) (v : A) : list A := upd l (Z.to_nat i) v.
Lemma get_rdg l i : 0 <= i < zlen l -> get l i = Ok (rdg d l i).
Proof.
  unfold get, rdg, zlen; intros. destruct (Z.ltb_spec i 0); [lia|].
  rewrite (nth_error_nth' l d) by lia. reflexivity.
Qed.
Lemma set_wrg l i v : 0 <= i < zlen l -> set l i v = Ok (wrg l i v).
Proof. unfold set, wrg; intros. destruct (Z.leb_spec 0 i), (Z.ltb_spec i (zlen l)); simpl; auto; lia. Qed.
Lemma zlen_wrg l i v : zlen (wrg l i v) = zlen l.
Proof. apply zlen_upd. Qed.
Lemma rdg_wrg_eq l i v : 0 <= i < zlen l -> rdg d (wrg l i v) i = v.
Proof.
  unfold rdg, wrg, zlen; intros. rewrite nth_upd, Nat.eqb_refl.
  destruct (Nat.ltb_spec (Z.to_nat i) (length l)); simpl; auto. lia.
Qed.
Lemma rdg_wrg_ne l i j v : 0 <= i -> 0 <= j -> i <> j -> rdg d (wrg l i v) j = rdg d l j.
Proof. unfold rdg, wrg; intros. rewrite nth_upd. destruct (Nat.eqb_spec (Z.to_nat j) (Z.to_nat i)); simpl; auto. lia. Qed.
Lemma rdg_wrg l i j v : 0 <= i < zlen l -> 0 <= j -> rdg d (wrg l i v) j = if j =? i then v else rdg d l j.
Proof. intros; destruct (Z.eqb_spec j i). subst; apply rdg_wrg_eq; auto. apply rdg_wrg_ne; lia. Qed.
Lemma rdg_mk n v i : 0 <= i < n -> rdg d (mk n v) i = v.
Proof. intros. unfold rdg, mk. rewrite (nth_indep _ d v) by (rewrite repeat_length; lia). apply nth_repeat. Qed.

(* x (perm, j) = x2 (i, j), for all i and j *)
Lemma permute_spec m n (x2 : list A) perm z :
  0 <= m -> 0 <= n -> m * n <= zlen x2 -> is_perm m perm ->
  wp (for_ 0 m (fun i x => for_ 0 n (fun j x =>
        let* v := get x2 (ix m i j) in let* p := get perm i in set x (ix m p j) v) x) (mk (Z.max (m * n) 1) z))
     (fun x => zlen x = Z.max (m * n) 1 /\
        forall i j, 0 <= i < m -> 0 <= j < n -> rdg d x (ix m (rd perm i) j) = rdg d x2 (ix m i j)) nerr.
Proof.
  intros Hm Hn Hl (P1 & P2 & P3).
  apply wp_for with (I := fun i x => zlen x = Z.max (m * n) 1 /\
     forall i' j, 0 <= i' < i -> 0 <= j < n -> rdg d x (ix m (rd perm i') j) = rdg d x2 (ix m i' j)); auto.
  - split. rewrite zlen_mk; lia. intros; lia.
  - intros i x Hi (H1 & H2). eapply wp_conseq.
    + apply wp_for with (I := fun j x => zlen x = Z.max (m * n) 1 /\
        forall i' j', 0 <= i' <= i -> 0 <= j' < n -> i' < i \/ j' < j -> rdg d x (ix m (rd perm i') j') = rdg d x2 (ix m i' j')); auto.
      * split; auto. intros. apply H2; lia.
      * intros j x' Hj (H1' & H2'). pose proof (@ix_range m n i j Hi Hj). pose proof (P2 i Hi).
        pose proof (@ix_range m n (rd perm i) j ltac:(auto) Hj).
        rewrite get_rdg by lia. cbn [bind]. rewrite get_rd by lia. cbn [bind]. rewrite set_wrg by lia. simpl.
        split. now rewrite zlen_wrg. intros i' j' Hi' Hj' Hc.
        pose proof (P2 i' ltac:(lia)). pose proof (@ix_range m n (rd perm i') j' ltac:(auto) Hj').
        rewrite rdg_wrg by lia. destruct (Z.eqb_spec (ix m (rd perm i') j') (ix m (rd perm i) j)) as [e|ne].
        -- apply ix_inj in e; auto. destruct e as [e ->]. apply P3 in e; try lia. now subst.
        -- apply H2'; auto. destruct Hc as [Hc|Hc]; auto.
           destruct (Z.eq_dec j' j) as [->|]; [|lia]. destruct (Z.eq_dec i' i) as [->|]; [|lia]. contradiction.
    + intros x' (H1' & H2'). split; auto. intros i' j' Hi' Hj'. apply H2'; auto; lia.
Qed.
End Gen.

(*----------------------------------------------------------------------------*)
(* bordering by a right-hand side: column n of the bordered matrix is b *)
Definition border_col (n : Z) (M : Z -> Z -> Z) (b : Z -> Z) : Z -> Z -> Z := fun i c => if c =? n then b i else M i c.

Lemma bm_extc M M' R j i c : (forall a b, 0 <= b < j \/ b = c -> M a b = M' a b) -> bm M R j i c = bm M' R j i c.
Proof.
  intros H. unfold bm. apply detz_ext. intros a b Ha Hb. apply H. unfold sel. destruct (Z.ltb_spec b j); lia.
Qed.
Lemma lead_extc M M' R j : (forall a b, 0 <= b < j -> M a b = M' a b) -> lead M R j = lead M' R j.
Proof. intros H. unfold lead. apply detz_ext. intros a b Ha Hb. apply H. lia. Qed.

Section Rhs.
Variables (n : Z) (M : Z -> Z -> Z) (R : Z -> Z) (F : factors).
Hypothesis K : fac_ok n M R F.
Variable nrhs : Z.
Hypothesis Hnr : 0 <= nrhs.
Variable B : Z -> Z -> Z.   (* B r i: entry (i,r) of b *)
Let Mb (r : Z) := border_col n M (B r).
Let rhos := fac_rhos F.

Lemma Mb_lead r j : 0 <= j <= n -> lead (Mb r) R j = lead M R j.
Proof.
  intros Hj. apply lead_extc. intros a b Hb. unfold Mb, border_col. destruct (Z.eqb_spec b n); auto; lia.
Qed.
Lemma Mb_bm r j i c : 0 <= j <= n -> 0 <= c < n -> bm (Mb r) R j i c = bm M R j i c.
Proof.
  intros Hj Hc. apply bm_extc. intros a b Hb. unfold Mb, border_col. destruct (Z.eqb_spec b n); auto; lia.
Qed.
Lemma Mb_rho r : forall j, 0 <= j < n -> rd rhos j = lead (Mb r) R (j + 1) /\ rd rhos j <> 0.
Proof. intros j Hj. rewrite Mb_lead by lia. apply (fk_rho K); auto. Qed.

(* level-t value of row position t of right-hand side r: what forward substitution must produce *)
Definition yv (r t : Z) : Z := bm (Mb r) R t (R t) n.

Let Hn : 0 <= n := fac_n K.
Let Hrl : n <= zlen rhos.
Proof. unfold rhos. rewrite (fk_rl K). lia. Qed.

(* state of right-hand side r before row i *)
Record fwd_inv (r i : Z) (x h : list Z) : Prop := {
  fw_done : forall t, 0 <= t < i -> rd x (ix n t r) = yv r t;
  fw_todo : forall t, i <= t < n -> st (Mb r) R n i (R t) (rd x (ix n t r)) (rd h (ix n t r)) }.

Definition frame (r : Z) (x x' : list Z) : Prop :=
  forall t r', 0 <= t < n -> 0 <= r' < nrhs -> r' <> r -> rd x' (ix n t r') = rd x (ix n t r').

Lemma frame_wr r t x v : 0 <= r < nrhs -> 0 <= t < n -> frame r x (wr x (ix n t r) v).
Proof.
  intros Hr Ht t' r' Ht' Hr' Hne. pose proof (@ix_range n nrhs t r Ht Hr). pose proof (@ix_range n nrhs t' r' Ht' Hr').
  rewrite rd_wr_ne; auto; try lia. intros e. apply ix_inj in e; auto; lia.
Qed.
Lemma frame_trans r x y z : frame r x y -> frame r y z -> frame r x z.
Proof. intros H1 H2 t r' Ht Hr Hne. rewrite H2 by auto. apply H1; auto. Qed.

Lemma fwd_row_spec r i x h E : 0 <= r < nrhs -> 0 <= i < n -> n * nrhs <= zlen x -> zlen h = zlen x -> fwd_inv r i x h ->
  wp (fwd_row n r (fac_Lp F) (fac_Li F) (fac_Lx F) rhos i (x, h))
     (fun '(x', h') => zlen x' = zlen x /\ zlen h' = zlen x /\ fwd_inv r (i + 1) x' h' /\ frame r x x' /\ frame r h h') E.
Proof.
  intros Hr Hi Hlx Hlh [Hd Ht].
  assert (Hix : forall t, 0 <= t < n -> 0 <= ix n t r < zlen x).
  { intros t Htt. pose proof (@ix_range n nrhs t r Htt Hr). lia. }
  pose proof (Hix i Hi) as Hii. pose proof (Ht i ltac:(lia)) as Si.
  unfold fwd_row. rewrite (get_rd h) by lia. cbn [bind]. rewrite (get_rd x) by lia. cbn [bind].
  destruct (Z.eqb_spec (rd x (ix n i r)) 0) as [Hz|Hnz].
  - rewrite Hz in Si. apply (@st_zero (Mb r) R rhos n) in Si; auto; [|apply Mb_rho|lia].
    simpl. split; auto. split; auto. split.
    + constructor.
      * intros t Htt. destruct (Z.eq_dec t i) as [->|]. rewrite Hz. symmetry. exact Si. apply Hd; lia.
      * intros t Htt. apply (@st_adv (Mb r) R rhos n); auto. apply Mb_rho. apply Ht; lia.
    + split; intros ? ? ? ? ?; auto.
  - apply wp_bind. eapply (@hist_update_spec (Mb r) R rhos n); [lia|apply Mb_rho| |exact Si|]. lia.
    fold (yv r i). rewrite set_wr by lia. cbn [bind].
    pose proof (fk_L K) as VL_. pose proof (v_p VL_) as Hlp.
    pose proof (v_ptr VL_ (c := i) (d := i + 1) ltac:(lia) ltac:(lia)) as Hptr.
    pose proof (v_cap VL_) as Hcap. pose proof (v_x VL_) as Hlxx.
    rewrite !get_rd by lia. cbn [bind].
    set (x1 := wr x (ix n i r) (yv r i)).
    assert (Hx1l : zlen x1 = zlen x) by apply zlen_wr.
    assert (Hx1i : rd x1 (ix n i r) = yv r i) by (apply rd_wr_eq; lia).
    assert (Hx1 : forall t, 0 <= t < n -> t <> i -> rd x1 (ix n t r) = rd x (ix n t r)).
    { intros t Htt Hne. pose proof (Hix t Htt). apply rd_wr_ne; try lia. intros e. apply ix_inj in e; auto; lia. }
    eapply wp_conseq.
    + apply wp_for with (I := fun m '(x', h') => zlen x' = zlen x /\ zlen h' = zlen x /\
         (forall t, 0 <= t <= i -> rd x' (ix n t r) = rd x1 (ix n t r)) /\
         (forall t, i < t < n -> (exists m', rd (fac_Lp F) i <= m' < m /\ rd (fac_Li F) m' = t /\ rd (fac_Lx F) m' <> 0) ->
             st (Mb r) R n (i + 1) (R t) (rd x' (ix n t r)) (rd h' (ix n t r))) /\
         (forall t, i < t < n -> (forall m', rd (fac_Lp F) i <= m' < m -> rd (fac_Lx F) m' <> 0 -> rd (fac_Li F) m' <> t) ->
             st (Mb r) R n i (R t) (rd x' (ix n t r)) (rd h' (ix n t r))) /\
         frame r x x' /\ frame r h h').
      * lia.
      * split; auto. split; auto. split; auto. split; [|split; [|split]].
        -- intros t Htt (m' & Hm' & _). lia.
        -- intros t Htt _. rewrite Hx1 by lia. apply Ht; lia.
        -- unfold x1. apply frame_wr; auto.
        -- intros ? ? ? ? ?; auto.
      * intros m [x' h'] Hm (B1 & B2 & B3 & B4 & B5 & B6 & B7).
        pose proof (v_i VL_ (p := m) ltac:(lia)) as Hir.
        destruct (fk_Lv K Hi Hm) as [Hge Hlv]. set (t := rd (fac_Li F) m) in *.
        unfold fwd_inner. rewrite (get_rd (fac_Li F)) by lia. cbn [bind]. fold t. rewrite (get_rd (fac_Lx F)) by lia. cbn [bind].
        assert (Hskip : t <= i \/ rd (fac_Lx F) m = 0 ->
          wp (Ok (x', h')) (fun '(x'0, h'0) => zlen x'0 = zlen x /\ zlen h'0 = zlen x /\
           (forall t, 0 <= t <= i -> rd x'0 (ix n t r) = rd x1 (ix n t r)) /\
           (forall t, i < t < n -> (exists m', rd (fac_Lp F) i <= m' < m + 1 /\ rd (fac_Li F) m' = t /\ rd (fac_Lx F) m' <> 0) ->
             st (Mb r) R n (i + 1) (R t) (rd x'0 (ix n t r)) (rd h'0 (ix n t r))) /\
           (forall t, i < t < n -> (forall m', rd (fac_Lp F) i <= m' < m + 1 -> rd (fac_Lx F) m' <> 0 -> rd (fac_Li F) m' <> t) ->
             st (Mb r) R n i (R t) (rd x'0 (ix n t r)) (rd h'0 (ix n t r))) /\
           frame r x x'0 /\ frame r h h'0) E).
        { intros Hs. simpl. split; auto. split; auto. split; auto. split; [|split; [|split]]; auto.
          - intros t' Ht' (m' & Hm' & He & Hn0). apply B4; auto. exists m'. split; auto.
            assert (m' <> m). { intros ->. destruct Hs; auto. fold t in He. lia. } lia.
          - intros t' Ht' Hno. apply B5; auto. intros m' Hm'. apply Hno. lia. }
        destruct (Z.eqb_spec (rd (fac_Lx F) m) 0) as [Hl0|Hl0]. { apply Hskip; auto. }
        destruct (Z.gtb_spec t i) as [Hgt|Hle]. 2:{ apply Hskip; auto. }
        pose proof (Hix t Hir) as Htx.
        rewrite (get_rd x' (i := ix n t r)) by lia. cbn [bind]. rewrite (get_rd x') by lia. cbn [bind].
        rewrite (B3 i) by lia. rewrite Hx1i.
        assert (St : st (Mb r) R n i (R t) (rd x' (ix n t r)) (rd h' (ix n t r))).
        { apply B5. lia. intros m' Hm' _ He. apply (v_dup VL_ Hi) in He; lia. }
        assert (HV : wp (ipge_val rhos (rd x' (ix n t r)) (rd h' (ix n t r)) (rd (fac_Lx F) m) (yv r i) i)
                        (fun v => v = bm (Mb r) R (i + 1) (R t) n) E).
        { rewrite Hlv. rewrite <- (@Mb_bm r i (R t) i) by lia. unfold yv.
          apply (@ipge_val_spec (Mb r) R rhos n Hrl (@Mb_rho r) n i (R t) _ _ _ _ ltac:(lia) St). reflexivity. }
        assert (Hfin : forall v, v = bm (Mb r) R (i + 1) (R t) n ->
          wp (let* x'0 := set x' (ix n t r) v in let* h'0 := set h' (ix n t r) i in Ok (x'0, h'0))
          (fun '(x'0, h'0) => zlen x'0 = zlen x /\ zlen h'0 = zlen x /\
           (forall t, 0 <= t <= i -> rd x'0 (ix n t r) = rd x1 (ix n t r)) /\
           (forall t, i < t < n -> (exists m', rd (fac_Lp F) i <= m' < m + 1 /\ rd (fac_Li F) m' = t /\ rd (fac_Lx F) m' <> 0) ->
             st (Mb r) R n (i + 1) (R t) (rd x'0 (ix n t r)) (rd h'0 (ix n t r))) /\
           (forall t, i < t < n -> (forall m', rd (fac_Lp F) i <= m' < m + 1 -> rd (fac_Lx F) m' <> 0 -> rd (fac_Li F) m' <> t) ->
             st (Mb r) R n i (R t) (rd x'0 (ix n t r)) (rd h'0 (ix n t r))) /\
           frame r x x'0 /\ frame r h h'0) E).
        { intros v ->. rewrite !set_wr by lia. simpl. rewrite !zlen_wr.
          assert (Hwn : forall y w t', 0 <= t' < n -> t' <> t -> rd (wr y (ix n t r) w) (ix n t' r) = rd y (ix n t' r)).
          { intros y w t' Ht' Hne. pose proof (Hix t' Ht'). apply rd_wr_ne; try lia. intros e. apply ix_inj in e; auto; lia. }
          split; auto. split; auto. split; [|split; [|split; [|split]]].
          - intros t' Ht'. rewrite Hwn by lia. apply B3; lia.
          - intros t' Ht' Hex. destruct (Z.eq_dec t' t) as [->|Hne].
            + rewrite !rd_wr_eq by lia. apply st_final. lia.
            + rewrite !Hwn by lia. apply B4; auto. destruct Hex as (m' & Hm' & He & Hn0). exists m'. split; auto.
              assert (m' <> m) by (intros ->; apply Hne; auto). lia.
          - intros t' Ht' Hno. assert (t' <> t) by (intros ->; apply (Hno m); auto; lia).
            rewrite !Hwn by lia. apply B5; auto. intros; apply Hno; auto; lia.
          - eapply frame_trans; [exact B6|]. apply frame_wr; auto.
          - eapply frame_trans; [exact B7|]. apply frame_wr; auto. }
        (* the C code computes ipge_val *)
        assert (Hval : (if rd x' (ix n t r) =? 0
            then if i >? 0 then let* r0 := get rhos (i - 1) in divexact (rd x' (ix n t r) - rd (fac_Lx F) m * yv r i) r0
                 else Ok (rd x' (ix n t r) - rd (fac_Lx F) m * yv r i)
            else let* hx := get h' (ix n t r) in
                 let* v1 := hist_update rhos (rd x' (ix n t r)) hx (i - 1) in
                 let* ri := get rhos i in
                 if i >? 0 then let* r0 := get rhos (i - 1) in divexact (v1 * ri - rd (fac_Lx F) m * yv r i) r0
                 else Ok (v1 * ri - rd (fac_Lx F) m * yv r i))
            = ipge_val rhos (rd x' (ix n t r)) (rd h' (ix n t r)) (rd (fac_Lx F) m) (yv r i) i).
        { unfold ipge_val. destruct (rd x' (ix n t r) =? 0) eqn:E0.
          - destruct (Z.gtb_spec i 0), (Z.ltb_spec i 1); auto; lia.
          - rewrite (get_rd h') by lia. cbn [bind].
            destruct (Z.gtb_spec i 0), (Z.ltb_spec i 1); auto; try lia.
            assert (i = 0) by lia. subst i. destruct St as (S1 & S2 & _).
            unfold hist_update. destruct (Z.ltb_spec (rd h' (ix n t r)) (0 - 1)); [lia|]. cbn [bind]. reflexivity. }
        rewrite Hval. apply wp_bind. eapply wp_conseq; [exact HV|]. exact Hfin.
    + intros [x' h'] (B1 & B2 & B3 & B4 & B5 & B6 & B7). split; auto. split; auto. split; [|split; auto].
      constructor.
      * intros t Htt. rewrite B3 by lia. destruct (Z.eq_dec t i) as [->|]. auto. rewrite Hx1 by lia. apply Hd; lia.
      * intros t Htt. destruct (Z.eq_dec (bm M R i (R t) i) 0) as [Z0|N0].
        -- apply (@st_adv (Mb r) R rhos n); auto. apply Mb_rho.
           ++ apply B5. lia. intros m' Hm' Hn' He. apply Hn'. destruct (fk_Lv K Hi Hm') as [_ ->]. rewrite He. auto.
           ++ left. rewrite Mb_bm by lia. auto.
        -- apply B4. lia. destruct (fk_Lw K (j := i) (r := t)) as (m' & Hm' & He); auto. lia.
           exists m'. split; auto. split; auto. destruct (fk_Lv K Hi Hm') as [_ ->]. rewrite He. auto.
Qed.

Lemma forward_sub_spec x : zlen x = Z.max (n * nrhs) 1 ->
  (forall t r, 0 <= t < n -> 0 <= r < nrhs -> rd x (ix n t r) = B r (R t)) ->
  wp (slip_forward_sub n nrhs (fac_Lp F) (fac_Li F) (fac_Lx F) rhos x)
     (fun x' => zlen x' = Z.max (n * nrhs) 1 /\ forall t r, 0 <= t < n -> 0 <= r < nrhs -> rd x' (ix n t r) = yv r t) nerr.
Proof.
  intros Hl Hx. unfold slip_forward_sub.
  apply wp_bind. eapply wp_conseq.
  - apply wp_for with (I := fun k '(x', h') => zlen x' = Z.max (n * nrhs) 1 /\ zlen h' = Z.max (n * nrhs) 1 /\
       (forall t r, 0 <= t < n -> 0 <= r < k -> rd x' (ix n t r) = yv r t) /\
       (forall t r, 0 <= t < n -> k <= r < nrhs -> rd x' (ix n t r) = B r (R t) /\ rd h' (ix n t r) = -1)); auto.
    + split; auto. split. apply zlen_mk; lia. split. intros; lia.
      intros t r Ht Hr. split. apply Hx; auto. rewrite rd_mk; auto. pose proof (@ix_range n nrhs t r Ht Hr). lia.
    + intros k [x' h'] Hk (A1 & A2 & A3 & A4). eapply wp_conseq.
      * apply wp_for with (I := fun i '(x2, h2) => zlen x2 = zlen x' /\ zlen h2 = zlen x' /\ fwd_inv k i x2 h2 /\ frame k x' x2 /\ frame k h' h2); auto.
        -- split; auto. split. lia. split; [|split; intros ? ? ? ? ?; auto].
           constructor. intros; lia. intros t Ht. destruct (A4 t k Ht ltac:(lia)) as [-> ->].
           split. lia. split. lia. change (-1 + 1) with 0. rewrite bm_0. unfold Mb, border_col. rewrite Z.eqb_refl. lia.
        -- intros i [x2 h2] Hi (C1 & C2 & C3 & C4 & C5). eapply wp_conseq. apply fwd_row_spec; auto; lia.
           intros [x3 h3] (D1 & D2 & D3 & D4 & D5). split. lia. split. lia. split; auto.
           split; eapply frame_trans; eauto.
      * intros [x2 h2] (C1 & C2 & C3 & C4 & C5). split. lia. split. lia. split.
        -- intros t r Ht Hr. destruct (Z.eq_dec r k) as [->|]. apply (fw_done C3); auto. rewrite C4 by lia. apply A3; auto; lia.
        -- intros t r Ht Hr. rewrite C4, C5 by lia. apply A4; auto; lia.
  - intros [x' h'] (A1 & A2 & A3 & A4). simpl. auto.
Qed.

(*----------------------------------------------------------------------------*)
(* Cramer: the integer vector z with (P A Q) z = det b also satisfies U z = det y *)
Variable zz : Z -> Z -> Z.   (* zz r c *)
Hypothesis Hz : forall r i, 0 <= r < nrhs -> 0 <= i < n ->
  sumz n (fun c => M (R i) c * zz r c) = lead M R n * B r (R i).

Lemma sumz_lin m f g h a b : 0 <= m -> (forall c, 0 <= c < m -> a * f c = b * g c + h c) ->
  a * sumz m f = b * sumz m g + sumz m h.
Proof.
  intros Hm. pattern m. apply natlike_ind; auto.
  - intros _. rewrite !sumz_0 by lia. lia.
  - intros k Hk IH H. unfold Z.succ. rewrite !sumz_S by lia.
    specialize (IH ltac:(intros; apply H; lia)). pose proof (H k ltac:(lia)). lia.
Qed.
Lemma sumz_scal m f a : 0 <= m -> sumz m (fun c => a * f c) = a * sumz m f.
Proof.
  intros Hm. pattern m. apply natlike_ind; auto.
  - rewrite !sumz_0 by lia. lia.
  - intros k Hk IH. unfold Z.succ. rewrite !sumz_S by lia. rewrite IH. lia.
Qed.
Lemma sumz_ext m f g : 0 <= m -> (forall c, 0 <= c < m -> f c = g c) -> sumz m f = sumz m g.
Proof.
  intros Hm. pattern m. apply natlike_ind; auto.
  intros k Hk IH H. unfold Z.succ. rewrite !sumz_S by lia. rewrite IH by (intros; apply H; lia). rewrite (H k) by lia. auto.
Qed.

Lemma cramer_levels r : 0 <= r < nrhs -> forall j, 0 <= j <= n -> forall i, 0 <= i < n ->
  sumz n (fun c => bm M R j (R i) c * zz r c) = lead M R n * bm (Mb r) R j (R i) n.
Proof.
  intros Hr j0 Hj0.
  assert (G : forall m, Z.of_nat m <= n -> forall i, 0 <= i < n ->
    sumz n (fun c => bm M R (Z.of_nat m) (R i) c * zz r c) = lead M R n * bm (Mb r) R (Z.of_nat m) (R i) n).
  { induction m as [|m IH]; intros Hm i Hi.
    - change (Z.of_nat 0) with 0. rewrite bm_0. unfold Mb at 1, border_col. rewrite Z.eqb_refl. rewrite <- (Hz Hr Hi).
      apply sumz_ext; auto. intros c Hc. now rewrite bm_0.
    - replace (Z.of_nat (S m)) with (Z.of_nat m + 1) by lia. set (j := Z.of_nat m) in *.
      assert (N0 : lead M R j <> 0) by (apply (fac_lead_nz K); lia).
      assert (N0' : lead (Mb r) R j <> 0) by (rewrite Mb_lead by lia; auto).
      pose proof (@bm_step (Mb r) R j (R i) n ltac:(lia) N0') as Eb.
      rewrite Mb_lead in Eb by lia. rewrite (@Mb_bm r j (R j) j), (@Mb_bm r j (R i) j) in Eb by lia.
      apply (Z.mul_reg_l _ _ (lead M R j)); auto.
      rewrite (@sumz_lin n (fun c => bm M R (j + 1) (R i) c * zz r c) (fun c => bm M R j (R i) c * zz r c)
         (fun c => - bm M R j (R i) j * (bm M R j (R j) c * zz r c)) (lead M R j) (bm M R j (R j) j)); auto.
      + rewrite sumz_scal by auto. rewrite IH by (auto; lia). rewrite (IH ltac:(lia) j) by lia.
        replace (lead M R j * (lead M R n * bm (Mb r) R (j + 1) (R i) n)) with (lead M R n * (lead M R j * bm (Mb r) R (j + 1) (R i) n)) by ring.
        rewrite Eb. ring.
      + intros c Hc. pose proof (@bm_step M R j (R i) c ltac:(lia) N0) as Ec.
        replace (lead M R j * (bm M R (j + 1) (R i) c * zz r c)) with (lead M R j * bm M R (j + 1) (R i) c * zz r c) by ring.
        rewrite Ec. ring. }
  intros i Hi. specialize (G (Z.to_nat j0)). rewrite Z2Nat.id in G by lia. apply G; auto. lia.
Qed.

(* partial sums of row t of U times z, over columns < j *)
Definition psum (r t j : Z) : Z := sumz j (fun c => bm M R t (R t) c * zz r c).

Lemma psum_full r t : 0 <= r < nrhs -> 0 <= t < n -> psum r t n = lead M R n * yv r t.
Proof. intros Hr Ht. apply cramer_levels; auto; lia. Qed.
Lemma psum_S r t j : 0 <= j -> psum r t (j + 1) = psum r t j + bm M R t (R t) j * zz r j.
Proof. intros. unfold psum. now rewrite sumz_S. Qed.
Lemma psum_low r t : 0 <= t -> psum r t t = 0.
Proof.
  intros Ht. unfold psum.
  rewrite (@sumz_ext t _ (fun c => 0 * 0)); auto.
  - rewrite sumz_scal by auto. lia.
  - intros c Hc. rewrite bm_dupc by auto. lia.
Qed.

(* state of column r in back substitution: columns >= j done *)
Record back_inv (r j : Z) (x : list Z) : Prop := {
  bk_done : forall t, j <= t < n -> rd x (ix n t r) = zz r t;
  bk_todo : forall t, 0 <= t < j -> rd x (ix n t r) = psum r t j }.

Lemma back_row_spec r j x E : 0 <= r < nrhs -> 0 <= j < n -> n * nrhs <= zlen x -> back_inv r (j + 1) x ->
  wp (back_row n r (fac_Up F) (fac_Ui F) (fac_Ux F) j x)
     (fun x' => zlen x' = zlen x /\ back_inv r j x' /\ frame r x x') E.
Proof.
  intros Hr Hj Hl [Hd Ht].
  assert (Hix : forall t, 0 <= t < n -> 0 <= ix n t r < zlen x).
  { intros t Htt. pose proof (@ix_range n nrhs t r Htt Hr). lia. }
  pose proof (Hix j Hj) as Hjj.
  assert (Hxj : rd x (ix n j r) = lead M R (j + 1) * zz r j).
  { rewrite Ht by lia. rewrite psum_S, psum_low by lia. rewrite lead_S by lia. lia. }
  assert (Hdet : lead M R (j + 1) <> 0) by (apply (fac_lead_nz K); lia).
  destruct (U_last K Hj) as (UL1 & UL2 & UL3).
  pose proof (fk_U K) as VU_. pose proof (v_p VU_) as Hlp.
  pose proof (v_ptr VU_ (c := j) (d := j + 1) ltac:(lia) ltac:(lia)) as Hptr.
  pose proof (v_cap VU_) as Hcap. pose proof (v_x VU_) as Hlxx.
  unfold back_row. rewrite get_rd by lia. cbn [bind].
  destruct (Z.eqb_spec (rd x (ix n j r)) 0) as [H0|H0].
  - assert (Hzj : zz r j = 0) by nia.
    simpl. split; auto. split; [|intros ? ? ? ? ?; auto]. constructor.
    + intros t Htt. destruct (Z.eq_dec t j) as [->|]. lia. apply Hd; lia.
    + intros t Htt. rewrite Ht by lia. rewrite psum_S, Hzj by lia. lia.
  - rewrite (get_rd (fac_Up F)) by lia. cbn [bind]. rewrite (get_rd (fac_Ux F)) by lia. cbn [bind].
    rewrite UL3. apply wp_bind. apply wp_divexact with (c := zz r j); auto.
    rewrite set_wr by lia. cbn [bind]. rewrite (get_rd (fac_Up F)) by lia. cbn [bind].
    set (x1 := wr x (ix n j r) (zz r j)).
    assert (Hx1j : rd x1 (ix n j r) = zz r j) by (apply rd_wr_eq; lia).
    assert (Hx1 : forall t, 0 <= t < n -> t <> j -> rd x1 (ix n t r) = rd x (ix n t r)).
    { intros t Htt Hne. pose proof (Hix t Htt). apply rd_wr_ne; try lia. intros e. apply ix_inj in e; auto; lia. }
    eapply wp_conseq.
    + apply wp_for with (I := fun m x' => zlen x' = zlen x /\
        (forall t, j <= t < n -> rd x' (ix n t r) = rd x1 (ix n t r)) /\
        (forall t, 0 <= t < j -> (exists m', rd (fac_Up F) j <= m' < m /\ rd (fac_Ui F) m' = t) -> rd x' (ix n t r) = psum r t j) /\
        (forall t, 0 <= t < j -> (forall m', rd (fac_Up F) j <= m' < m -> rd (fac_Ui F) m' <> t) -> rd x' (ix n t r) = psum r t (j + 1)) /\
        frame r x x').
      * lia.
      * split. apply zlen_wr. split; auto. split; [|split].
        -- intros t Htt (m' & Hm' & _). lia.
        -- intros t Htt _. rewrite Hx1 by lia. apply Ht; lia.
        -- apply frame_wr; auto.
      * intros m x' Hm (B1 & B2 & B3 & B4 & B5).
        assert (Hm' : rd (fac_Up F) j <= m < rd (fac_Up F) (j + 1)) by lia.
        pose proof (v_i VU_ (p := m) ltac:(lia)) as Hir.
        destruct (fk_Uv K Hj Hm') as [_ Huv]. set (t := rd (fac_Ui F) m) in *.
        assert (Htj : t < j).
        { pose proof (fk_Us K (c := j) (p := m) (p' := rd (fac_Up F) (j + 1) - 1) Hj ltac:(lia) ltac:(lia)). fold t in H. lia. }
        assert (Hnew : forall m', rd (fac_Up F) j <= m' < m -> rd (fac_Ui F) m' <> t).
        { intros m' Hm2 He. apply (v_dup VU_ Hj) in He; lia. }
        pose proof (B4 t ltac:(lia) Hnew) as Hxt.
        rewrite (get_rd (fac_Ux F)) by lia. cbn [bind].
        destruct (Z.eqb_spec (rd (fac_Ux F) m) 0) as [Hu0|Hu0].
        -- simpl. split; auto. split; auto. split; [|split]; auto.
           ++ intros t' Ht' (m' & Hm2 & He). destruct (Z.eq_dec m' m) as [->|].
              ** fold t in He. subst t'. rewrite Hxt, psum_S by lia. rewrite <- Huv, Hu0. lia.
              ** apply B3; auto. exists m'. split; auto. lia.
           ++ intros t' Ht' Hno. apply B4; auto. intros m' Hm2. apply Hno. lia.
        -- pose proof (Hix t Hir) as Htx. rewrite (get_rd (fac_Ui F)) by lia. cbn [bind]. fold t.
           rewrite (get_rd x' (i := ix n t r)) by lia. cbn [bind]. rewrite (get_rd x') by lia. cbn [bind]. rewrite set_wr by lia. simpl.
           rewrite (B2 j) by lia. rewrite Hx1j, Hxt, psum_S by lia. rewrite <- Huv.
           replace (psum r t j + rd (fac_Ux F) m * zz r j - rd (fac_Ux F) m * zz r j) with (psum r t j) by ring.
           assert (Hwn : forall w t', 0 <= t' < n -> t' <> t -> rd (wr x' (ix n t r) w) (ix n t' r) = rd x' (ix n t' r)).
           { intros w t' Ht' Hne. pose proof (Hix t' Ht'). apply rd_wr_ne; try lia. intros e. apply ix_inj in e; auto; lia. }
           rewrite zlen_wr. split; auto. split; [|split; [|split]].
           ++ intros t' Ht'. rewrite Hwn by lia. apply B2; auto.
           ++ intros t' Ht' Hex. destruct (Z.eq_dec t' t) as [->|Hne]. rewrite rd_wr_eq by lia. auto.
              rewrite Hwn by lia. apply B3; auto. destruct Hex as (m' & Hm2 & He). exists m'. split; auto.
              assert (m' <> m) by (intros ->; apply Hne; auto). lia.
           ++ intros t' Ht' Hno. assert (t' <> t) by (intros ->; apply (Hno m); auto; lia). rewrite Hwn by lia. apply B4; auto.
              intros m' Hm2. apply Hno. lia.
           ++ eapply frame_trans; [exact B5|]. apply frame_wr; auto.
    + intros x' (B1 & B2 & B3 & B4 & B5). split; auto. split; auto. constructor.
      * intros t Htt. rewrite B2 by lia. destruct (Z.eq_dec t j) as [->|]. auto. rewrite Hx1 by lia. apply Hd; lia.
      * intros t Htt. destruct (Z.eq_dec (bm M R t (R t) j) 0) as [Z0|N0].
        -- destruct (in_dec Z.eq_dec t (map (rd (fac_Ui F)) (zseq (rd (fac_Up F) j) (rd (fac_Up F) (j + 1) - 1)))) as [Hin|Hout].
           ++ apply in_map_iff in Hin. destruct Hin as (p & He & Hp). apply in_zseq in Hp. apply B3; auto. eauto.
           ++ rewrite B4; auto. rewrite psum_S, Z0 by lia. lia.
              intros m' Hm2 He. apply Hout, in_map_iff. exists m'. split; auto. now apply in_zseq.
        -- destruct (fk_Uw K (c := j) (r := t)) as (p & Hp & He); auto; try lia.
           apply B3; auto. exists p. split; auto. assert (p <> rd (fac_Up F) (j + 1) - 1) by (intros ->; lia). lia.
Qed.

Lemma back_sub_spec x : n * nrhs <= zlen x ->
  (forall t r, 0 <= t < n -> 0 <= r < nrhs -> rd x (ix n t r) = yv r t * lead M R n) ->
  wp (slip_back_sub n nrhs (fac_Up F) (fac_Ui F) (fac_Ux F) x)
     (fun x' => zlen x' = zlen x /\ forall t r, 0 <= t < n -> 0 <= r < nrhs -> rd x' (ix n t r) = zz r t) nerr.
Proof.
  intros Hl Hx. unfold slip_back_sub. eapply wp_conseq.
  - apply wp_for with (I := fun k x' => zlen x' = zlen x /\
       (forall t r, 0 <= t < n -> 0 <= r < k -> rd x' (ix n t r) = zz r t) /\
       (forall t r, 0 <= t < n -> k <= r < nrhs -> rd x' (ix n t r) = yv r t * lead M R n)); auto.
    + split; auto. split; auto. intros; lia.
    + intros k x' Hk (A1 & A2 & A3). eapply wp_conseq.
      * apply wp_down with (I := fun j x2 => zlen x2 = zlen x' /\ back_inv k j x2 /\ frame k x' x2); auto.
        -- split; auto. split; [|intros ? ? ? ? ?; auto]. constructor. intros; lia. intros t Ht. rewrite psum_full by auto.
           rewrite A3 by lia. lia.
        -- intros j x2 Hj (C1 & C2 & C3). eapply wp_conseq. apply back_row_spec; auto; lia.
           intros x3 (D1 & D2 & D3). split. lia. split; auto. eapply frame_trans; eauto.
      * intros x2 (C1 & C2 & C3). split. lia. split.
        -- intros t r Ht Hr. destruct (Z.eq_dec r k) as [->|]. apply (bk_done C2); auto. rewrite C3 by lia. apply A2; auto; lia.
        -- intros t r Ht Hr. rewrite C3 by lia. apply A3; auto; lia.
  - intros x' (A1 & A2 & A3). auto.
Qed.
End Rhs.
