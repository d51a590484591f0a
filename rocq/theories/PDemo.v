(* Proofs about MDemo: the file readers *)
From Coq Require Import QArith.
From Verif Require Import Base Spec MFactor MSolve MMatrix MApi ApiSpec MatSpec PMat PCopy PropMat MDemo DemoSpec.
Set Implicit Arguments.
Open Scope Z_scope.

Lemma isspace_blank c : isspace c = true <-> blank c.
Proof.
  unfold isspace, blank. simpl. rewrite orb_true_iff, andb_true_iff, Z.eqb_eq, !Z.leb_le. split; intros H; [|lia].
  destruct H as [->|H]; auto. assert (c = 9 \/ c = 10 \/ c = 11 \/ c = 12 \/ c = 13) as [->|[->|[->|[->| ->]]]] by lia; auto 10.
Qed.
Lemma isdigit_digit c : isdigit c = true <-> digit c.
Proof. unfold isdigit, digit. rewrite andb_true_iff, !Z.leb_le. reflexivity. Qed.
Lemma digit_not_space c : digit c -> isspace c = false.
Proof. intros H. destruct (isspace c) eqn:E; auto. apply isspace_blank in E. unfold blank, digit in *. simpl in E. lia. Qed.
Lemma blank_not_digit c : blank c -> isdigit c = false.
Proof. intros H. destruct (isdigit c) eqn:E; auto. apply isdigit_digit in E. unfold blank, digit in *. simpl in H. lia. Qed.

Lemma skip_ws_blank w l : Forall blank w -> skip_ws (w ++ l) = skip_ws l.
Proof. induction 1; simpl; auto. now rewrite (proj2 (isspace_blank x) H). Qed.
Lemma skip_ws_idem l : skip_ws (skip_ws l) = skip_ws l.
Proof. induction l as [|c l]; simpl; auto. destruct (isspace c) eqn:E; auto. simpl. now rewrite E. Qed.
Lemma skip_ws_all w : Forall blank w -> skip_ws w = [].
Proof. intros H. rewrite <- (app_nil_r w), skip_ws_blank; auto. Qed.

Lemma number_digits ds rest : Forall digit ds -> starts_blank rest -> forall acc,
  number acc (ds ++ rest) = (fold_left (fun v c => 10 * v + (c - 48)) ds acc, rest).
Proof.
  intros H R. induction H as [|c ds Hc Hds]; intros acc; simpl.
  - destruct rest as [|c rest]; simpl; auto. now rewrite (blank_not_digit R).
  - rewrite (proj2 (isdigit_digit c) Hc). apply IHHds.
Qed.

(* a state reached by reading: the end-of-file indicator is set exactly when nothing is left *)
Definition at_ (l : list Z) : stream := mkF l (nil l).
Lemma white_at l : white (at_ l) = at_ (skip_ws l).
Proof. unfold white, at_. simpl. f_equal. destruct l; simpl; auto. Qed.
Lemma numeral_first s z : numeral s z -> exists c t, s = c :: t /\ isspace c = false.
Proof.
  destruct 1 as [ds Hn H|ds Hn H|ds Hn H]; [|exists 43, ds; auto|exists 45, ds; auto].
  destruct ds as [|c t]; [congruence|]. inversion H; subst. exists c, t. split; auto. now apply digit_not_space.
Qed.
Lemma sign_digit c t : digit c -> sign (c :: t) = (1, c :: t).
Proof. unfold digit, sign. intros H. destruct (Z.eqb_spec c 45); [lia|]. destruct (Z.eqb_spec c 43); [lia|reflexivity]. Qed.
Lemma nil_skip_num s z rest : numeral s z -> nil (s ++ rest) = false.
Proof. intros H. destruct (numeral_first H) as (c & t & -> & _). reflexivity. Qed.
Lemma skip_num w s z rest : Forall blank w -> numeral s z -> skip_ws (w ++ s ++ rest) = s ++ rest.
Proof. intros Hw H. rewrite skip_ws_blank by auto. destruct (numeral_first H) as (c & t & -> & E). simpl. now rewrite E. Qed.
Lemma scan_num w s z rest : Forall blank w -> numeral s z -> starts_blank rest -> scan_int (at_ (w ++ s ++ rest)) = CInt z (at_ rest).
Proof.
  intros Hw Hs R. unfold scan_int. rewrite white_at, (skip_num _ Hw Hs). unfold at_ at 1. cbn [f_rest f_eof]. rewrite (nil_skip_num _ Hs).
  assert (G : forall ds, ds <> [] -> Forall digit ds -> forall sg, match ds ++ rest with
    | d :: _ => if isdigit d then let '(v, l) := number 0 (ds ++ rest) in CInt (sg * v) (mkF l (false || nil l)) else CBad (mkF (ds ++ rest) false)
    | [] => CBad (mkF [] true) end = CInt (sg * decimal ds) (at_ rest)).
  { intros ds Hn Hd sg. rewrite number_digits by auto. destruct ds as [|d ds]; [congruence|]. inversion Hd; subst. cbn [app].
    rewrite (proj2 (isdigit_digit d) H1). reflexivity. }
  unfold at_. cbn [f_rest f_eof]. rewrite (nil_skip_num _ Hs).
  destruct Hs as [ds Hn Hd|ds Hn Hd|ds Hn Hd].
  - replace (sign (ds ++ rest)) with (1, ds ++ rest). rewrite (G ds Hn Hd 1). f_equal; try lia.
    destruct ds as [|d ds]; [congruence|]. inversion Hd; subst. symmetry. apply (sign_digit _ H1).
  - cbn [app sign]. change (43 =? 45) with false. change (43 =? 43) with true. cbn iota. rewrite (G ds Hn Hd 1). f_equal; try lia.
  - cbn [app sign]. change (45 =? 45) with true. cbn iota. rewrite (G ds Hn Hd (-1)). f_equal; try lia.
Qed.

(* what is left of a text: zs, then the tail *)
Definition left_ (tail l zs : list Z) : Prop := match zs with [] => skip_ws l = skip_ws tail | _ => text tail l zs end.
Lemma text_left tail l zs : text tail l zs -> left_ tail l zs.
Proof. destruct zs; simpl; auto. inversion 1; subst; auto. Qed.
Lemma left_skip tail l zs : left_ tail l zs -> left_ tail (skip_ws l) zs.
Proof.
  destruct zs; simpl. { now rewrite skip_ws_idem. }
  inversion 1 as [|w s z' rest zs' Hw Hs Hr Ht]; subst. rewrite (skip_num _ Hw Hs). apply (@text_num tail [] s); auto.
Qed.
Lemma left_nil tail l zs : left_ tail l zs -> nil (skip_ws l) = match zs with [] => nil (skip_ws tail) | _ => false end.
Proof.
  destruct zs; simpl. { now intros ->. }
  inversion 1 as [|w s z' rest zs' Hw Hs Hr Ht]; subst. rewrite (skip_num _ Hw Hs). eapply nil_skip_num; eauto.
Qed.
Lemma scan_left tail l z zs : left_ tail l (z :: zs) -> exists r, scan_int (at_ l) = CInt z (at_ r) /\ left_ tail r zs.
Proof. simpl. inversion 1 as [|w s z' rest zs' Hw Hs Hr Ht]; subst. exists rest. split. apply scan_num; auto. apply text_left; auto. Qed.
Definition item_fits (it : item) (z : Z) : Prop := match it with I64 => fits z | MPZ => True end.
Lemma scanf_left tail ws : forall fmt zs more l done, Forall2 item_fits fmt zs -> left_ tail l (zs ++ more) ->
  exists r, scanf fmt ws done (at_ l) = Ok (zs, at_ (if ws then skip_ws r else r), done + zlen fmt) /\ left_ tail r more.
Proof.
  induction fmt as [|it fmt]; intros zs more l done F HL; inversion F as [|? z ? zs' Hz Hzs]; subst; cbn [scanf app] in *.
  - exists l. rewrite white_at. split; auto. change (zlen (@List.nil item)) with 0. rewrite Z.add_0_r. destruct ws; reflexivity.
  - destruct (scan_left HL) as (r & -> & HL').
    replace (match it with I64 => negb (int64 z) | MPZ => false end) with false.
    2:{ destruct it; auto. simpl in Hz. unfold fits in Hz. unfold int64, INT64_MIN, INT64_MAX. symmetry. apply negb_false_iff, andb_true_iff.
        rewrite !Z.leb_le. lia. }
    destruct (IHfmt zs' more r (done + 1) Hzs HL') as (r' & -> & HL2). cbn [bind]. exists r'. split; auto. f_equal. f_equal. unfold zlen. cbn [length]. lia.
Qed.
Lemma fopen_at tail l z zs : left_ tail l (z :: zs) -> fopen l = at_ l.
Proof. simpl. inversion 1 as [|w s z' rest zs' Hw Hs Hr Ht]; subst. unfold fopen, at_. f_equal. destruct (numeral_first Hs) as (c & t & -> & _). now destruct w. Qed.

Lemma wr_wr l k a b : wr (wr l k a) k b = wr l k b.
Proof. unfold wr. generalize (Z.to_nat k). induction l; intros [|n]; simpl; auto. f_equal. apply IHl. Qed.
Lemma rd_mk0 n k : rd (mk n 0) k = 0.
Proof.
  unfold rd, mk. generalize (Z.to_nat k). induction (Z.to_nat n) as [|j IH]; intros [|i]; simpl; auto.
Qed.
Lemma read_entry_ok tail l e more k ti tj tx : left_ tail l (row e :: col e :: val e :: more) -> fits (row e) -> fits (col e) ->
  0 <= k < zlen ti -> 0 <= k < zlen tj -> 0 <= k < zlen tx ->
  exists r, read_entry k (at_ l) ti tj tx = Ok (wr ti k (row e), wr tj k (col e), wr tx k (val e), at_ (skip_ws r), true) /\ left_ tail r more.
Proof.
  intros HL F1 F2 K1 K2 K3.
  destruct (@scanf_left tail true [I64; I64; MPZ] [row e; col e; val e] more l 0 ltac:(repeat (apply Forall2_cons; [simpl; auto|]); apply Forall2_nil) HL) as (r & E & HL').
  exists r. split; auto. unfold read_entry. rewrite E. cbn [bind]. rewrite !set_wr by auto. reflexivity.
Qed.
Lemma dec64_ok a k v : 0 <= k < zlen a -> 1 <= v -> dec64 (wr a k v) k = Ok (wr a k (v - 1)).
Proof.
  intros Hk Hv. unfold dec64. rewrite get_rd by (rewrite zlen_wr; auto). rewrite rd_wr_eq by auto. cbn [bind].
  destruct (Z.eqb_spec v INT64_MIN); [unfold INT64_MIN in *; lia|]. rewrite set_wr by (rewrite zlen_wr; auto). now rewrite wr_wr.
Qed.

Section Trip.
Variables (m n : Z) (es : list entry) (tail bytes : list Z).
Hypothesis HF : triplet_file m n es tail bytes.
Hypothesis Hes : es <> [].
Hypothesis Hm : fits m.
Hypothesis Hn : fits n.
Hypothesis Hz : fits (zlen es).
Hypothesis Hin : Forall (inside m n) es.
Hypothesis Hend : zlen es = 1 -> skip_ws tail <> [].
Let E p := nth (Z.to_nat p) es (0, 0, 0).
Let nz := zlen es.
Lemma E_inside p : 0 <= p < nz -> inside m n (E p).
Proof. intros Hp. rewrite Forall_forall in Hin. apply Hin. apply nth_In. unfold nz, zlen in Hp. lia. Qed.
Lemma E_fits p : 0 <= p < nz -> fits (row (E p)) /\ fits (col (E p)) /\ 1 <= row (E p) /\ 1 <= col (E p).
Proof. intros Hp. destruct (E_inside Hp). unfold fits in *. lia. Qed.
Lemma more_cons p : 0 <= p < nz -> numbers (skipn (Z.to_nat p) es) = row (E p) :: col (E p) :: val (E p) :: numbers (skipn (Z.to_nat (p + 1)) es).
Proof.
  intros Hp. assert (H : skipn (Z.to_nat p) es = E p :: skipn (Z.to_nat (p + 1)) es); [|now rewrite H].
  replace (Z.to_nat (p + 1)) with (S (Z.to_nat p)) by lia. unfold E. assert (Hk : (Z.to_nat p < length es)%nat) by (unfold nz, zlen in Hp; lia).
  revert Hk. generalize (Z.to_nat p) as k. generalize es as l. induction l; intros [|k] Hk; simpl in *; auto; try lia. apply IHl. lia.
Qed.
Lemma nz_pos : 1 <= nz.
Proof. unfold nz, zlen. destruct es; [congruence|]. simpl. lia. Qed.
Definition read_upto (k : Z) (st : list Z * list Z * list Z * stream) : Prop := let '(ti, tj, tx, f) := st in
  zlen ti = Z.max nz 1 /\ zlen tj = Z.max nz 1 /\ zlen tx = Z.max nz 1 /\
  (forall p, 0 <= p < k -> rd ti p = row (E p) - 1 /\ rd tj p = col (E p) - 1 /\ rd tx p = val (E p)) /\
  exists l, f = at_ (skip_ws l) /\ left_ tail l (numbers (skipn (Z.to_nat k) es)).
Lemma read_upto_step k ti tj tx l : 0 <= k < nz -> read_upto k (ti, tj, tx, at_ (skip_ws l)) -> left_ tail l (numbers (skipn (Z.to_nat k) es)) ->
  exists r, read_entry k (at_ (skip_ws l)) ti tj tx = Ok (wr ti k (row (E k)), wr tj k (col (E k)), wr tx k (val (E k)), at_ (skip_ws r), true) /\
    left_ tail r (numbers (skipn (Z.to_nat (k + 1)) es)) /\
    dec64 (wr ti k (row (E k))) k = Ok (wr ti k (row (E k) - 1)) /\ dec64 (wr tj k (col (E k))) k = Ok (wr tj k (col (E k) - 1)) /\
    read_upto (k + 1) (wr ti k (row (E k) - 1), wr tj k (col (E k) - 1), wr tx k (val (E k)), at_ (skip_ws r)).
Proof.
  intros Hk (L1 & L2 & L3 & HV & _) HL. destruct (E_fits Hk) as (F1 & F2 & F3 & F4).
  rewrite (more_cons Hk) in HL.
  destruct (@read_entry_ok tail (skip_ws l) (E k) (numbers (skipn (Z.to_nat (k + 1)) es)) k ti tj tx (@left_skip _ _ _ HL) F1 F2) as (r & R & HL'); try lia.
  exists r. split; auto. split; auto. split. { apply dec64_ok; lia. } split. { apply dec64_ok; lia. }
  cbn. rewrite !zlen_wr. repeat split; auto; try (exists r; auto).
  all: destruct (Z.eq_dec p k) as [->|N]; [rewrite rd_wr_eq by lia; auto|rewrite rd_wr_ne by lia; apply HV; lia].
Qed.
Lemma feof_after k r : 0 <= k <= nz -> left_ tail r (numbers (skipn (Z.to_nat k) es)) -> k < nz -> f_eof (at_ (skip_ws r)) = false.
Proof. intros Hk HL Hlt. simpl. rewrite (@left_nil _ _ _ HL). rewrite more_cons by lia. reflexivity. Qed.
Lemma tripread_body_ok o : wp (tripread_body o (fopen bytes)) (fun A => m_m A = m /\ m_n A = n /\ m_type A = TMPZ /\ m_nz A = nz /\ m_scale A = 1%Q /\
  exists ti tj tx, trip_ok A ti tj (VZ tx) /\
    forall p, 0 <= p < nz -> rd ti p = row (E p) - 1 /\ rd tj p = col (E p) - 1 /\ rd tx p = val (E p)) nerr.
Proof.
  pose proof nz_pos as Hpos. unfold triplet_file in HF. pose proof (text_left HF) as HL.
  unfold tripread_body. rewrite (@fopen_at _ _ _ _ HL).
  destruct (@scanf_left tail true [I64; I64; I64] [m; n; zlen es] (numbers es) bytes 0 ltac:(repeat (apply Forall2_cons; [simpl; auto|]); apply Forall2_nil) HL) as (l & -> & HL1).
  cbn [bind].
  assert (E0 : f_eof (at_ (skip_ws l)) = false) by (apply (@feof_after 0); simpl; auto; lia).
  rewrite E0. change (0 + zlen [I64; I64; I64] <? 3) with false. cbn iota. cbn [orb].
  pose proof (E_inside (p := 0) ltac:(lia)) as [I1 I2].
  unfold matrix_allocate. destruct (Z.ltb_spec m 0); [lia|]. destruct (Z.ltb_spec n 0); [lia|]. cbn -[Z.max read_entry dec64 zlen].
  change (VZ (mk (Z.max (zlen es) 1) 0)) with (VZ (mk (Z.max nz 1) 0)). fold nz.
  assert (R0 : read_upto 0 (mk (Z.max nz 1) 0, mk (Z.max nz 1) 0, mk (Z.max nz 1) 0, at_ (skip_ws l))).
  { cbn. rewrite !zlen_mk by lia. repeat split; auto; try lia. exists l. auto. }
  destruct (@read_upto_step 0 _ _ _ l ltac:(lia) R0 HL1) as (r & -> & HL2 & D1 & D2 & R1). cbn [bind].
  assert (E1 : f_eof (at_ (skip_ws r)) = false).
  { destruct (Z.eq_dec nz 1) as [H1|H1]; [|apply (@feof_after 1); auto; lia].
    simpl. rewrite (@left_nil _ _ _ HL2). replace (skipn (Z.to_nat (0 + 1)) es) with (@List.nil entry). simpl.
    - specialize (Hend H1). destruct (skip_ws tail); auto. congruence.
    - symmetry. apply skipn_all2. unfold nz, zlen in H1. simpl. lia. }
  rewrite E1. cbn [orb negb]. rewrite D1. cbn [bind]. rewrite D2. cbn [bind]. apply wp_bind.
  eapply wp_conseq; [apply (@wp_for _ 1 nz _ read_upto); [lia|exact R1|]|].
  - intros p [[[ti tj] tx] f] Hp HR. destruct (HR) as (_ & _ & _ & _ & l' & -> & HL').
    destruct (@read_upto_step p _ _ _ l' ltac:(lia) HR HL') as (r' & -> & HL'' & D1' & D2' & R'). cbn [bind].
    replace ((f_eof (at_ (skip_ws r')) && negb (p =? nz - 1)) || negb true) with false.
    2:{ destruct (Z.eqb_spec p (nz - 1)); [now rewrite andb_false_r|]. rewrite (@feof_after (p + 1)); auto; lia. }
    rewrite D1'. cbn [bind]. rewrite D2'. exact R'.
  - intros [[[ti tj] tx] f] (L1 & L2 & L3 & HV & _). cbn. repeat split; auto. exists ti, tj, tx. split; auto.
    constructor; cbn; auto; try lia; fold nz; try lia.
    + intros k Hk. destruct (HV k Hk) as [-> _]. destruct (E_inside Hk). lia.
    + intros k Hk. destruct (HV k Hk) as (_ & -> & _). destruct (E_inside Hk). lia.
Qed.
End Trip.

(* the arrays of a copy to CSC have the same length *)
Lemma trip_to_csc_len o addr A ti tj tx C : trip_ok A ti tj (VZ tx) -> 1 <= opt_prec o -> matrix_copy o addr true true KCSC TMPZ (Some A) = Ok C ->
  exists i x, m_i C = Some i /\ m_x C = Some (VZ x) /\ zlen i = zlen x.
Proof.
  intros OK Hp EC. pose proof (trip_stores OK) as HS. assert (HT : m_type A = TMPZ) by (dtrip OK; simpl in *; auto).
  assert (NR : m_type A <> TMPFR) by (rewrite HT; discriminate).
  destruct (same_type_exact o addr HS NR) as (yx & HC & _). pose proof (type_is HS) as IT. rewrite HT in *.
  destruct (cast_source HS IT Hp HC) as (Y1 & Y2 & v & Ev & Tv & Lv & Cv).
  rewrite (copy_unfold o addr HS IT (ck := KCSC)) in EC by (vm_compute; split; discriminate).
  dtrip OK. rewrite to_kind' in EC. cbn [Z.eqb KCSC KTRIP KDENSE Pos.eqb] in EC. unfold copy_trip_csc in EC. rewrite Ev in EC. cbn [bind fst snd deref] in EC.
  rewrite alloc_ok in EC by (auto; vm_compute; split; discriminate). cbn [bind m_p m_i m_x m_scale Z.eqb KCSC KTRIP KDENSE deref Pos.eqb] in EC.
  rewrite to_i', to_j' in EC. cbn [deref bind] in EC.
  destruct v as [y| | | |]; try discriminate Tv. cbn [on_vals fresh_vals TMPZ Z.eqb] in EC. 
  unfold on_vals in EC. change (fresh_vals TMPZ (Z.max (m_nz A) 1)) with (VZ (mk (Z.max (m_nz A) 1) 0)) in EC. cbn [vlen] in Lv.
  destruct (wp_ok_ex _ _ (@trip_to_csc_spec Z 0 (fun v => v) (m_n A) (m_nz A) ti tj y (mk (m_n A + 1) 0) (mk (Z.max (m_nz A) 1) 0) (mk (Z.max (m_nz A) 1) 0) nerr
    to_n' to_nz' to_capi' to_capj' Lv to_col' ltac:(rewrite zlen_mk; lia) ltac:(rewrite zlen_mk; lia) ltac:(rewrite zlen_mk; lia)))
    as ([[p i] cx] & ES & P1 & P2 & P3 & _).
  cbv beta in EC. rewrite ES in EC. cbn [bind] in EC. injection EC as <-. exists i, cx. cbn. rewrite P2, P3, !zlen_mk by lia. auto.
Qed.

Definition nval (v : num) : Z := match v with NZ z => z | _ => 0 end.
Lemma ent_column p i x r c : ent p i x r c = fold_right (fun rv acc => (if fst rv =? r then nval (snd rv) else 0) + acc) 0 (csc_column p i (VZ x) c).
Proof. unfold ent, csc_column. induction (zseq (rd p c) (rd p (c + 1))) as [|q l IH]; simpl; auto. rewrite IH. reflexivity. Qed.
Lemma zseq_len T (l : list T) : length (zseq 0 (zlen l)) = length l.
Proof. unfold zseq, zlen. rewrite map_length, seq_length. lia. Qed.
Lemma es_map (es : list entry) : es = map (fun p => nth (Z.to_nat p) es (0, 0, 0)) (zseq 0 (zlen es)).
Proof.
  unfold zseq, zlen. rewrite map_map, Z.sub_0_r, Nat2Z.id.
  rewrite (map_ext _ (fun k => nth k es (0, 0, 0))) by (intros k; f_equal; lia).
  apply (nth_ext _ _ (0, 0, 0) (0, 0, 0)). { now rewrite map_length, seq_length. }
  intros k Hk. pose proof (map_nth (fun k => nth k es (0, 0, 0)) (seq 0 (length es)) (length es) k) as H.
  cbv beta in H. rewrite (@nth_overflow _ es (length es)) in H by lia. etransitivity; [|symmetry; exact H]. now rewrite seq_nth.
Qed.
Lemma filter_map_comm A B (f : A -> B) (p : B -> bool) l : filter p (map f l) = map f (filter (fun x => p (f x)) l).
Proof. induction l; simpl; auto. rewrite IHl. now destruct (p (f a)). Qed.
Lemma trip_column_entries es ti tj tx c :
  (forall p, 0 <= p < zlen es -> rd ti p = row (nth (Z.to_nat p) es (0, 0, 0)) - 1 /\ rd tj p = col (nth (Z.to_nat p) es (0, 0, 0)) - 1 /\
     rd tx p = val (nth (Z.to_nat p) es (0, 0, 0))) ->
  trip_column (zlen es) ti tj (VZ tx) c = map (fun e => (row e - 1, NZ (val e))) (filter (fun e => col e =? c + 1) es).
Proof.
  intros H. assert (ES := es_map es). rewrite ES at 2. rewrite filter_map_comm, map_map. clear ES. unfold trip_column.
  rewrite (filter_ext_in _ (fun x => col (nth (Z.to_nat x) es (0, 0, 0)) =? c + 1)).
  - apply map_ext_in. intros k Hk. apply filter_In in Hk. destruct Hk as [Hk _]. apply in_zseq in Hk. destruct (H k Hk) as (-> & _ & E). simpl.
    f_equal. f_equal. exact E.
  - intros k Hk. apply in_zseq in Hk. destruct (H k Hk) as (_ & -> & _). destruct (Z.eqb_spec (col (nth (Z.to_nat k) es (0, 0, 0)) - 1) c), (Z.eqb_spec (col (nth (Z.to_nat k) es (0, 0, 0))) (c + 1)); auto; lia.
Qed.
Lemma listed_column es i c :
  fold_right (fun rv acc => (if fst rv =? i then nval (snd rv) else 0) + acc) 0 (map (fun e => (row e - 1, NZ (val e))) (filter (fun e => col e =? c + 1) es)) = listed es i c.
Proof.
  unfold listed. induction es as [|e es]; simpl; auto. destruct (Z.eqb_spec (col e) (c + 1)); simpl.
  - rewrite IHes. rewrite andb_true_r. destruct (Z.eqb_spec (row e - 1) i), (Z.eqb_spec (row e) (i + 1)); lia.
  - rewrite IHes, andb_false_r. lia.
Qed.
Lemma column_nodup es c : no_repeat es -> NoDup (map row (filter (fun e => col e =? c) es)).
Proof.
  unfold no_repeat. induction es as [|e es]; simpl; intros H; [constructor|]. inversion H as [|? ? N1 N2]; subst.
  destruct (Z.eqb_spec (col e) c); auto. simpl. constructor; auto. intros HI. apply N1. apply in_map_iff in HI. destruct HI as (e' & E1 & E2).
  apply filter_In in E2. destruct E2 as [E2 E3]. apply Z.eqb_eq in E3. apply in_map_iff. exists e'. split; auto. congruence.
Qed.
Lemma map_nodup_pos A B (f : A -> B) l d : NoDup (map f l) -> forall i j, (i < length l)%nat -> (j < length l)%nat -> f (nth i l d) = f (nth j l d) -> i = j.
Proof.
  intros H i j Hi Hj E. assert (L : length (map f l) = length l) by apply map_length.
  apply (proj1 (NoDup_nth (map f l) (f d)) H); try lia. now rewrite !(map_nth f).
Qed.
Lemma column_pos p i x c : NoDup (map fst (csc_column p i x c)) -> forall q q', rd p c <= q < rd p (c + 1) -> rd p c <= q' < rd p (c + 1) -> rd i q = rd i q' -> q = q'.
Proof.
  unfold csc_column. rewrite map_map. simpl. intros H q q' Hq Hq' E.
  pose proof (@zlen_zseq (rd p c) (rd p (c + 1)) ltac:(lia)) as L.
  pose proof (@map_nodup_pos _ _ (fun x => rd i x) (zseq (rd p c) (rd p (c + 1))) 0 H (Z.to_nat (q - rd p c)) (Z.to_nat (q' - rd p c))) as G.
  unfold zlen in L. specialize (G ltac:(lia) ltac:(lia)).
  pose proof (@rd_zseq (rd p c) (rd p (c + 1)) (q - rd p c) ltac:(lia)) as R1. pose proof (@rd_zseq (rd p c) (rd p (c + 1)) (q' - rd p c) ltac:(lia)) as R2.
  unfold rd at 1 in R1. unfold rd at 1 in R2. rewrite R1, R2 in G.
  replace (rd p c + (q - rd p c)) with q in G by lia. replace (rd p c + (q' - rd p c)) with q' in G by lia. specialize (G E). lia.
Qed.

Theorem tripread_ok o addr m n es tail bytes :
  triplet_file m n es tail bytes -> es <> [] -> fits m -> fits n -> fits (zlen es) -> Forall (inside m n) es ->
  (zlen es = 1 -> ~ Forall blank tail) -> 1 <= opt_prec o ->
  exists C p r x, SLIP_tripread o addr true (Some (fopen bytes)) = Ok (SOK, Out C) /\
    csc_ok C p r (VZ x) /\ m_m C = m /\ m_n C = n /\ m_type C = TMPZ /\ m_scale C = 1%Q /\ m_nzmax C = zlen es /\ m_nz C = 0 /\ rd p n = zlen es /\
    (forall c, 0 <= c < n -> csc_column p r (VZ x) c = map (fun e => (row e - 1, NZ (val e))) (filter (fun e => col e =? c + 1) es)) /\
    (forall i j, 0 <= i < m -> 0 <= j < n -> Cent C i j = listed es i j) /\
    (no_repeat es -> int_csc m n C).
Proof.
  intros HF Hes Hm Hn Hz Hin Hend Hp.
  assert (Hend' : zlen es = 1 -> skip_ws tail <> []).
  { intros H1 H2. apply (Hend H1). clear - H2. induction tail as [|c t]; auto. simpl in H2. destruct (isspace c) eqn:E; [|discriminate].
    constructor; auto. now apply isspace_blank. }
  destruct (wp_ok_ex _ _ (@tripread_body_ok m n es tail bytes HF Hes Hm Hn Hz Hin Hend' o)) as (A & EB & A1 & A2 & A3 & A4 & A5 & ti & tj & tx & OK & HV).
  assert (NR : m_type A <> TMPFR) by (rewrite A3; discriminate).
  pose proof (trip_stores OK) as HS. destruct (same_type_exact o addr HS NR) as (yx & HC & HVx).
  destruct (trip_to_csc_copy OK (type_is HS) Hp HC) as (C & p & i & cx & E & CO & C1 & C2 & C3 & C4 & C5 & C6 & C7 & C8).
  rewrite A3 in *. destruct (trip_to_csc_len o addr OK Hp E) as (i' & x & X1 & X2 & X3).
  assert (i' = i) by (dcsc CO; congruence). assert (cx = VZ x) by (dcsc CO; congruence). subst i' cx.
  assert (HCol : forall c, 0 <= c < n -> csc_column p i (VZ x) c = map (fun e => (row e - 1, NZ (val e))) (filter (fun e => col e =? c + 1) es)).
  { intros c Hc. rewrite C8 by lia. rewrite (@column_ext (m_nz A) ti tj yx (VZ tx) HVx). rewrite A4. apply trip_column_entries. exact HV. }
  assert (1 <= zlen es) by (unfold zlen; destruct es; [congruence|simpl; lia]).
  exists C, p, i, x. unfold SLIP_tripread. rewrite EB, E. split; auto. split; auto. rewrite C1, C2, A1, A2. do 3 (split; auto).
  split. { rewrite C7. reflexivity. } split. { rewrite C5, A4. lia. } split; auto. split. { rewrite <- A2, C4. auto. } split; auto. split.
  - intros r c Hr Hc. unfold Cent. dcsc CO. rewrite co_p', co_i', co_x'. rewrite ent_column, HCol by auto. apply listed_column.
  - intros ND. dcsc CO. constructor; try congruence.
    exists p, i, x. split; auto. split; auto. split; auto. rewrite C2, A2 in *. rewrite C1, A1 in *.
    constructor; auto. intros c q q' Hc Hq Hq' Eq. eapply column_pos; eauto. rewrite HCol by auto. rewrite map_map. simpl.
    rewrite <- (map_map row (fun r => r - 1)). apply FinFun.Injective_map_NoDup; [intros a b; lia|]. apply column_nodup. auto.
Qed.

(*----------------------------------------------------------------------------*)
(* SLIP_read_dense *)
Lemma skipn_nth l j : (j < length l)%nat -> skipn j l = nth j l 0 :: skipn (S j) l.
Proof. revert j. induction l; intros [|j] Hj; simpl in *; auto; try lia. apply IHl. lia. Qed.
Lemma skipn_rd l k : 0 <= k < zlen l -> skipn (Z.to_nat k) l = rd l k :: skipn (Z.to_nat (k + 1)) l.
Proof. intros Hk. replace (Z.to_nat (k + 1)) with (S (Z.to_nat k)) by lia. apply skipn_nth. unfold zlen in Hk. lia. Qed.
Lemma rd_over l k : zlen l <= k -> rd l k = 0.
Proof. intros H. unfold rd. apply nth_overflow. unfold zlen in H. lia. Qed.
Lemma scan_missing l : skip_ws l = [] -> scanf [MPZ] false 0 (at_ l) = Ok ([], at_ [], -1).
Proof. intros H. unfold scanf, scan_int. rewrite white_at, H. reflexivity. Qed.
Lemma scan_junk tail l : junk tail -> skip_ws l = skip_ws tail -> exists l', scanf [MPZ] false 0 (at_ l) = Ok ([], at_ l', 0) /\ skip_ws l' = skip_ws tail.
Proof.
  intros (w & c & t & -> & Hw & N1 & N2 & N3 & N4) HL. exists (skip_ws l).
  assert (S1 : isspace c = false). { destruct (isspace c) eqn:E; auto. apply isspace_blank in E. contradiction. }
  assert (S2 : isdigit c = false). { destruct (isdigit c) eqn:E; auto. apply isdigit_digit in E. contradiction. }
  rewrite skip_ws_idem. rewrite HL, skip_ws_blank in * by auto. simpl skip_ws in *. rewrite S1 in *. split; [|reflexivity].
  unfold scanf, scan_int. rewrite white_at, HL. cbn [f_rest at_ nil sign]. destruct (Z.eqb_spec c 45); [lia|]. destruct (Z.eqb_spec c 43); [lia|].
  rewrite S2. reflexivity.
Qed.

Section Dense.
Variables (m n : Z) (vs : list Z) (tail bytes : list Z).
Hypothesis HF : dense_file m n vs tail bytes.
Hypothesis Hm : fits m.
Hypothesis Hn : fits n.
Hypothesis Pm : 1 <= m.
Hypothesis Pn : 1 <= n.
Hypothesis Hv : zlen vs <= m * n.
Hypothesis Hne : vs <> [] \/ tail <> [].
Hypothesis Ht : zlen vs < m * n -> Forall blank tail \/ junk tail.
Definition dense_upto (k : Z) (st : list Z * stream) : Prop := let '(x, f) := st in
  zlen x = m * n /\ (k <= zlen vs \/ junk tail) /\
  (forall i j, 0 <= i < m -> 0 <= j < n -> rd x (i + j * m) = if i * n + j <? k then rd vs (i * n + j) else 0) /\
  exists l, f = at_ l /\ left_ tail l (skipn (Z.to_nat k) vs).
Lemma pos_inj i j i' j' : 0 <= i < m -> 0 <= i' < m -> i + j * m = i' + j' * m -> i = i' /\ j = j'.
Proof. intros. assert (j = j') by nia. lia. Qed.
Lemma pos_inj' i j i' j' : 0 <= j < n -> 0 <= j' < n -> i * n + j = i' * n + j' -> i = i' /\ j = j'.
Proof. intros. assert (i = i') by nia. lia. Qed.
Lemma dense_step i j st : 0 <= i < m -> 0 <= j < n -> dense_upto (i * n + j) st ->
  wp (let '(x, f) := st in
      let* st := scanf [MPZ] false 0 f in
      let '(l, f, r) := st in
      if r <? 0 then Err SLIP_INCORRECT_INPUT
      else let* x := match l with v :: _ => set x (i + j * m) v | _ => Ok x end in Ok (x, f))
    (dense_upto (i * n + j + 1)) (fun e => e = SLIP_INCORRECT_INPUT /\ zlen vs < m * n /\ Forall blank tail).
Proof.
  destruct st as [x f]. intros Hi Hj (L & K & V & l & -> & HL). pose proof (Z.eq_dec 0 0) as _.
  assert (B : 0 <= i * n + j < m * n) by nia.
  destruct (Z_lt_dec (i * n + j) (zlen vs)) as [Hlt|Hge].
  - rewrite skipn_rd in HL by lia.
    destruct (@scanf_left tail false [MPZ] [rd vs (i * n + j)] (skipn (Z.to_nat (i * n + j + 1)) vs) l 0 ltac:(repeat constructor) HL) as (r & -> & HL').
    cbn [bind]. change (0 + zlen [MPZ] <? 0) with false. cbn iota. rewrite set_wr by nia. cbn [bind wp]. split; [now rewrite zlen_wr|]. split; [left; lia|].
    split; [|eauto]. intros i' j' Hi' Hj'. destruct (Z.eq_dec (i + j * m) (i' + j' * m)) as [Q|Q].
    + destruct (pos_inj _ _ Hi Hi' Q). subst i' j'. rewrite rd_wr_eq by nia. destruct (Z.ltb_spec (i * n + j) (i * n + j + 1)); [reflexivity|lia].
    + rewrite rd_wr_ne by nia. rewrite V by auto. destruct (Z.ltb_spec (i' * n + j') (i * n + j)), (Z.ltb_spec (i' * n + j') (i * n + j + 1)); auto; try lia.
      exfalso. assert (i * n + j = i' * n + j') by lia. destruct (pos_inj' _ _ Hj Hj' H1). subst. congruence.
  - rewrite skipn_all2 in HL by (unfold zlen in Hge; lia). simpl in HL. destruct (Ht ltac:(lia)) as [Hb|Hb].
    + rewrite (skip_ws_all Hb) in HL. rewrite scan_missing by auto. cbn. repeat split; auto. lia.
    + destruct (@scan_junk _ _ Hb HL) as (l' & -> & HL'). cbn. split; auto. split; auto. split; [|exists l'; split; auto].
      2:{ rewrite skipn_all2 by (unfold zlen in Hge; lia). exact HL'. }
      intros i' j' Hi' Hj'. rewrite V by auto. destruct (Z.ltb_spec (i' * n + j') (i * n + j)), (Z.ltb_spec (i' * n + j') (i * n + j + 1)); auto; try lia.
      symmetry. apply rd_over. lia.
Qed.
Lemma read_dense_body_ok o : wp (read_dense_body o (fopen bytes)) (fun B => (zlen vs = m * n \/ junk tail) /\ m_scale B = 1%Q /\ int_dense m n B /\
    forall i j, 0 <= i < m -> 0 <= j < n -> Dent B i j = rd vs (i * n + j)) (fun e => e = SLIP_INCORRECT_INPUT /\ zlen vs < m * n /\ Forall blank tail).
Proof.
  pose proof (text_left HF) as HL. unfold read_dense_body. rewrite (@fopen_at _ _ _ _ HL). assert (P : 1 <= m * n) by nia.
  assert (HT : exists r, scanf [I64; I64] false 0 (at_ bytes) = Ok ([m; n], at_ r, 2) /\ left_ tail r vs /\ r <> []).
  { destruct (@scanf_left tail false [I64; I64] [m; n] vs bytes 0 ltac:(repeat (apply Forall2_cons; [simpl; auto|]); apply Forall2_nil) HL) as (r & E & HL').
    exists r. split; [exact E|]. split; auto. intros ->. destruct vs as [|v vs'].
    - clear HL' HL. assert (Hne' : tail <> []) by (destruct Hne; auto; congruence). unfold dense_file in HF. inversion HF as [|w s z rest zs Hw Hs Hr T1]; subst.
      inversion T1 as [|w' s' z' rest' zs' Hw' Hs' Hr' T2]; subst. inversion T2; subst.
      assert (E2 := @scan_num w s m (w' ++ s' ++ rest') Hw Hs Hr). unfold scanf in E. rewrite E2 in E. assert (E3 := @scan_num w' s' n rest' Hw' Hs' Hr').
      destruct (negb (int64 m)); [discriminate E|]. cbn [bind] in E. rewrite E3 in E. destruct (negb (int64 n)); [discriminate E|]. cbn [bind] in E.
      injection E as E _. congruence.
    - simpl in HL'. inversion HL' as [|w s z rest zs Hw Hs Hr T]. destruct (numeral_first Hs) as (c & t & -> & _). destruct w; discriminate. }
  destruct HT as (r & -> & HL' & Hr). cbn [bind]. replace (f_eof (at_ r)) with false by (destruct r; auto; congruence).
  change (2 <? 2) with false. cbn iota. cbn [orb]. unfold matrix_allocate. destruct (Z.ltb_spec m 0); [lia|]. destruct (Z.ltb_spec n 0); [lia|].
  cbn -[Z.max zlen scanf Z.mul Z.add]. change (VZ (mk (Z.max (m * n) 1) 0)) with (VZ (mk (Z.max (m * n) 1) 0)). rewrite Z.max_l by lia.
  apply wp_bind. eapply wp_conseq; [apply (@wp_for _ 0 m _ (fun i => dense_upto (i * n))); [lia| |]|].
  - cbn. rewrite zlen_mk by lia. split; auto. split; [left; unfold zlen; lia|]. split; [|exists r; auto].
    intros i j Hi Hj. rewrite rd_mk0. destruct (Z.ltb_spec (i * n + j) 0); [nia|reflexivity].
  - intros i st Hi H1. replace ((i + 1) * n) with (i * n + n) by lia.
    apply (@wp_for _ 0 n _ (fun j => dense_upto (i * n + j))); [lia|now rewrite Z.add_0_r|].
    intros j st' Hj H2. rewrite Z.add_assoc. destruct st' as [x f]. exact (@dense_step i j (x, f) Hi Hj H2).
  - intros [x f] (L & K & V & _). cbn. split. { destruct K; auto. left. lia. } split; auto. split.
    + constructor; cbn; auto; try lia. exists x. split; auto. lia.
    + intros i j Hi Hj. unfold Dent. cbn. rewrite V by auto. destruct (Z.ltb_spec (i * n + j) (m * n)); [reflexivity|nia].
Qed.
End Dense.
