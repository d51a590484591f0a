(* C71-C75: the demo programs: the file readers SLIP_tripread, SLIP_tripread_double, SLIP_read_dense, the command line, and SLIPLU. *)
From Coq Require Import QArith String Ascii.
From Verif Require Import Base DetZ Spec SumQ MFactor LUSpec MSolve MMatrix MApi ApiSpec PApi MatSpec Check LUEx MDemo DemoSpec PDemo.
Set Implicit Arguments.
Open Scope string_scope.
Open Scope list_scope.
Open Scope Z_scope.
Set Bullet Behavior "Strict Subproofs".

(* for the examples: the bytes of a string; a file given piece by piece (white space, numeral) *)
Definition bytes (s : string) : list Z := map (fun c => Z.of_N (N_of_ascii c)) (list_ascii_of_string s).
Definition nl : list Z := [10].
Definition nval (s : list Z) : Z := match s with c :: t => if c =? 45 then - decimal t else if c =? 43 then decimal t else decimal s | [] => 0 end.
Definition numb (s : list Z) : bool :=
  match s with c :: t => if (c =? 45) || (c =? 43) then negb (nil t) && forallb isdigit t else forallb isdigit s | [] => false end.
Fixpoint textb (ps : list (list Z * list Z)) (tail : list Z) : bool :=
  match ps with
  | [] => true
  | (w, s) :: ps => forallb isspace w && numb s && match ps with (w' , _) :: _ => match w' with c :: _ => isspace c | [] => false end | [] => match tail with c :: _ => isspace c | [] => true end end && textb ps tail
  end.
Fixpoint joined (ps : list (list Z * list Z)) (tail : list Z) : list Z := match ps with [] => tail | (w, s) :: ps => w ++ s ++ joined ps tail end.
Lemma spaces w : forallb isspace w = true -> Forall blank w.
Proof. intros H. apply Forall_forall. intros c Hc. rewrite forallb_forall in H. apply isspace_blank. auto. Qed.
Lemma numb_ok s : numb s = true -> numeral s (nval s).
Proof.
  assert (D : forall t, forallb isdigit t = true -> Forall digit t).
  { intros t H. apply Forall_forall. intros c Hc. rewrite forallb_forall in H. apply isdigit_digit. auto. }
  destruct s as [|c t]; [discriminate|]. unfold numb, nval. destruct (Z.eqb_spec c 45) as [->|N1]; [|destruct (Z.eqb_spec c 43) as [->|N2]]; cbn [orb].
  - intros H. apply andb_true_iff in H. destruct H as [H1 H2]. constructor; auto. intros ->. discriminate.
  - intros H. apply andb_true_iff in H. destruct H as [H1 H2]. constructor; auto. intros ->. discriminate.
  - intros H. constructor; auto. discriminate.
Qed.
Lemma textb_ok tail : forall ps, textb ps tail = true -> text tail (joined ps tail) (map (fun p => nval (snd p)) ps).
Proof.
  induction ps as [|[w s] ps]; intros H; [constructor|]. cbn [textb] in H. apply andb_true_iff in H. destruct H as [H H4].
  apply andb_true_iff in H. destruct H as [H H3]. apply andb_true_iff in H. destruct H as [H1 H2]. cbn [joined map snd].
  constructor; auto using spaces, numb_ok. destruct ps as [|[w' s'] ps]; cbn [joined].
  - destruct tail; simpl; auto. now apply isspace_blank.
  - destruct w'; [discriminate|]. simpl. now apply isspace_blank.
Qed.

(*----------------------------------------------------------------------------*)
(* C71.  SLIP_tripread: a triplet file with entries es is read exactly: the m-by-n matrix of scale 1 whose column c lists the entries of
   column c+1 of the file, in the order of the file, with the row numbers counted from 0; repeated positions are kept (their sum is the
   entry).  If no position is repeated, the result can be used by all the functions of the library.  A file with a single entry must
   be followed by something else (see C71_single_entry_refuted). *)
Theorem C71_tripread : forall o addr m n es tail bytes,
  triplet_file m n es tail bytes -> es <> [] -> fits m -> fits n -> fits (zlen es) -> Forall (inside m n) es ->
  (zlen es = 1 -> ~ Forall blank tail) -> 1 <= opt_prec o ->
  exists C p r x, SLIP_tripread o addr true (Some (fopen bytes)) = Ok (SOK, Out C) /\
    csc_ok C p r (VZ x) /\ m_m C = m /\ m_n C = n /\ m_type C = TMPZ /\ m_scale C = 1%Q /\ rd p n = zlen es /\
    (forall c, 0 <= c < n -> csc_column p r (VZ x) c = map (fun e => (row e - 1, NZ (val e))) (filter (fun e => col e =? c + 1) es)) /\
    (forall i j, 0 <= i < m -> 0 <= j < n -> Cent C i j = listed es i j) /\
    (no_repeat es -> int_csc m n C).
Proof.
  intros o addr m n es tail b H1 H2 H3 H4 H5 H6 H7 H8.
  destruct (@tripread_ok o addr m n es tail b H1 H2 H3 H4 H5 H6 H7 H8) as (C & p & r & x & E & CO & C1 & C2 & C3 & C4 & C5 & C6 & C7 & C8 & C9 & C10).
  exists C, p, r, x. repeat (split; auto).
Qed.
Definition ex_trip : list Z := bytes "3 2 4" ++ nl ++ bytes "2 1 -10" ++ nl ++ bytes "1  2 99999999999999999999" ++ nl ++ bytes "3 1 +7" ++ nl ++ bytes "1 1 05" ++ nl.
Definition ex_es : list entry := [(2, 1, -10); (1, 2, 99999999999999999999); (3, 1, 7); (1, 1, 5)].
Lemma ex_trip_file : triplet_file 3 2 ex_es nl ex_trip.
Proof.
  exact (@textb_ok nl [([], bytes "3"); (bytes " ", bytes "2"); (bytes " ", bytes "4"); (nl, bytes "2"); (bytes " ", bytes "1"); (bytes " ", bytes "-10");
    (nl, bytes "1"); (bytes "  ", bytes "2"); (bytes " ", bytes "99999999999999999999"); (nl, bytes "3"); (bytes " ", bytes "1"); (bytes " ", bytes "+7");
    (nl, bytes "1"); (bytes " ", bytes "1"); (bytes " ", bytes "05")] eq_refl).
Qed.
Example C71_ex : exists C p r x, SLIP_tripread None (fun _ => 0) true (Some (fopen ex_trip)) = Ok (SOK, Out C) /\
    csc_ok C p r (VZ x) /\ m_m C = 3 /\ m_n C = 2 /\ m_type C = TMPZ /\ m_scale C = 1%Q /\ rd p 2 = 4 /\
    (forall c, 0 <= c < 2 -> csc_column p r (VZ x) c = map (fun e => (row e - 1, NZ (val e))) (filter (fun e => col e =? c + 1) ex_es)) /\
    (forall i j, 0 <= i < 3 -> 0 <= j < 2 -> Cent C i j = listed ex_es i j) /\
    (no_repeat ex_es -> int_csc 3 2 C).
Proof.
  apply (@C71_tripread None (fun _ => 0) 3 2 ex_es nl ex_trip ex_trip_file); try discriminate; try (unfold fits; cbn; lia).
  repeat constructor; cbn; lia.
Qed.
Example C71_ex2 : no_repeat ex_es /\ match SLIP_tripread None (fun _ => 0) true (Some (fopen ex_trip)) with
  | Ok (SOK, Out C) => m_p C = Some [0; 3; 4] /\ m_i C = Some [1; 2; 0; 0] /\ m_x C = Some (VZ [-10; 7; 5; 99999999999999999999]) | _ => False end.
Proof. split; [|vm_compute; auto]. repeat constructor; cbn; intuition congruence. Qed.

(* but a file that ends after its single entry, as every correct file with one entry does, is rejected *)
Theorem C71_single_entry_refuted : forall o addr m n e tail bytes,
  triplet_file m n [e] tail bytes -> fits m -> fits n -> inside m n e -> Forall blank tail ->
  SLIP_tripread o addr true (Some (fopen bytes)) = Ok (SErr SLIP_INCORRECT_INPUT, Null).
Proof.
  intros o addr m n e tail b HF Hm Hn [I1 I2] HB. unfold SLIP_tripread, tripread_body. pose proof (text_left HF) as HL. rewrite (@fopen_at _ _ _ _ HL).
  destruct (@scanf_left tail true [I64; I64; I64] [m; n; 1] (numbers [e]) b 0 ltac:(repeat (apply Forall2_cons; [simpl; auto|]); [unfold fits; lia|apply Forall2_nil]) HL) as (l & E & HL1).
  rewrite E. cbn [bind].
  replace (f_eof (at_ (skip_ws l))) with false by (simpl; rewrite (@left_nil _ _ _ HL1); reflexivity).
  change (0 + zlen [I64; I64; I64] <? 3) with false. cbn [orb]. unfold matrix_allocate. destruct (Z.ltb_spec m 0); [lia|]. destruct (Z.ltb_spec n 0); [lia|].
  cbn -[read_entry mk]. assert (F1 : fits (row e)) by (unfold fits in *; lia). assert (F2 : fits (col e)) by (unfold fits in *; lia).
  destruct (@read_entry_ok tail (skip_ws l) e [] 0 (mk 1 0) (mk 1 0) (mk 1 0) (@left_skip _ _ _ HL1) F1 F2) as (r & -> & HL2); try (rewrite zlen_mk; lia).
  cbn [bind]. replace (f_eof (at_ (skip_ws r))) with true; [reflexivity|]. simpl. rewrite (@left_nil _ _ _ HL2), (skip_ws_all HB). reflexivity.
Qed.
Example C71_single_entry_ex : triplet_file 1 1 [(1, 1, 5)] nl (bytes "1 1 1" ++ nl ++ bytes "1 1 5" ++ nl) /\
  SLIP_tripread None (fun _ => 0) true (Some (fopen (bytes "1 1 1" ++ nl ++ bytes "1 1 5" ++ nl))) = Ok (SErr SLIP_INCORRECT_INPUT, Null).
Proof.
  split; [|reflexivity].
  exact (@textb_ok nl [([], bytes "1"); (bytes " ", bytes "1"); (bytes " ", bytes "1"); (nl, bytes "1"); (bytes " ", bytes "1"); (bytes " ", bytes "5")] eq_refl).
Qed.
(* without a handle or a file the call is refused and nothing is written *)
Theorem C71_null : forall o addr handle file, handle = false \/ file = None -> SLIP_tripread o addr handle file = Ok (SErr SLIP_INCORRECT_INPUT, Kept).
Proof. intros o addr [] [f|] [H|H]; try discriminate; reflexivity. Qed.
(* and wrong files are not all rejected: a last line cut off after the row number, or a column number that is too large, leads to an access
   outside the arrays; a negative number of entries gives SLIP_OK and no matrix; a row number that is too large gives an invalid matrix *)
Theorem C71_bad_files_refuted :
  SLIP_tripread None (fun _ => 0) true (Some (fopen (bytes "2 2 2" ++ nl ++ bytes "1 1 5" ++ nl ++ bytes "2"))) = UB /\
  SLIP_tripread None (fun _ => 0) true (Some (fopen (bytes "2 2 2" ++ nl ++ bytes "1 1 5" ++ nl ++ bytes "1 3 7" ++ nl))) = UB /\
  SLIP_tripread None (fun _ => 0) true (Some (fopen (bytes "2 2 -1" ++ nl ++ bytes "1 1 5" ++ nl ++ bytes "2 2 7" ++ nl))) = Ok (SOK, Null) /\
  exists C, SLIP_tripread None (fun _ => 0) true (Some (fopen (bytes "2 2 2" ++ nl ++ bytes "1 1 5" ++ nl ++ bytes "9 2 7" ++ nl))) = Ok (SOK, Out C) /\ m_m C = 2 /\ m_i C = Some [0; 8].
Proof. split; [reflexivity|]. split; [reflexivity|]. split; [reflexivity|]. eexists. split; [vm_compute; reflexivity|]. split; reflexivity. Qed.

(*----------------------------------------------------------------------------*)
(* C72.  SLIP_read_dense reads the numbers row by row; if some are missing, it returns SLIP_INCORRECT_INPUT and does not touch the handle *)
Theorem C72_read_dense : forall o m n vs tail bytes,
  dense_file m n vs tail bytes -> fits m -> fits n -> 1 <= m -> 1 <= n -> zlen vs = m * n ->
  exists B, SLIP_read_dense o (Some (fopen bytes)) = Ok (SOK, Out B) /\ int_dense m n B /\ m_scale B = 1%Q /\
    forall i j, 0 <= i < m -> 0 <= j < n -> Dent B i j = rd vs (i * n + j).
Proof.
  intros o m n vs tail b HF Hm Hn Pm Pn L.
  assert (NE : vs <> [] \/ tail <> []). { left. intros ->. cbn in L. nia. }
  assert (W := @read_dense_body_ok m n vs tail b HF Hm Hn Pm Pn ltac:(lia) NE ltac:(intros; lia) o). unfold SLIP_read_dense.
  destruct (read_dense_body o (fopen b)) as [B|e| |]; simpl in W; try tauto; [|lia]. destruct W as (_ & W1 & W2 & W3). exists B. auto.
Qed.
Theorem C72_missing_numbers : forall o m n vs tail bytes,
  dense_file m n vs tail bytes -> fits m -> fits n -> 1 <= m -> 1 <= n -> zlen vs < m * n -> Forall blank tail ->
  SLIP_read_dense o (Some (fopen bytes)) = Ok (SErr SLIP_INCORRECT_INPUT, Kept).
Proof.
  intros o m n vs tail b HF Hm Hn Pm Pn L HB.
  assert (NJ : ~ junk tail).
  { intros (w & c & t & -> & Hw & Hc & _). apply Hc. rewrite Forall_forall in HB. apply HB. apply in_or_app. right. now left. }
  destruct vs as [|v vs'] eqn:EV; [destruct tail as [|c t] eqn:ET|].
  - unfold SLIP_read_dense, read_dense_body. pose proof (text_left HF) as HL. rewrite (@fopen_at _ _ _ _ HL).
    unfold dense_file in HF. inversion HF as [|w s z rest zs Hw Hs Hr T1]; subst. inversion T1 as [|w' s' z' rest' zs' Hw' Hs' Hr' T2]; subst. inversion T2; subst.
    assert (E2 := @scan_num w s m (w' ++ s' ++ []) Hw Hs Hr). assert (E3 := @scan_num w' s' n [] Hw' Hs' Hr').
    assert (I : forall z, fits z -> negb (int64 z) = false).
    { intros z Hz. apply negb_false_iff, andb_true_iff. rewrite !Z.leb_le. unfold fits in Hz. unfold INT64_MIN, INT64_MAX. lia. }
    unfold scanf. rewrite E2, (I m) by auto. rewrite E3, (I n) by auto. reflexivity.
  - assert (W := @read_dense_body_ok m n [] (c :: t) b HF Hm Hn Pm Pn (Z.lt_le_incl _ _ L) ltac:(right; discriminate) ltac:(auto) o). unfold SLIP_read_dense.
    destruct (read_dense_body o (fopen b)) as [B|e| |]; cbn [wp] in W; try tauto; [destruct W as ([W|W] & _); [lia|contradiction]|]. destruct W as (-> & _). reflexivity.
  - assert (W := @read_dense_body_ok m n (v :: vs') tail b HF Hm Hn Pm Pn (Z.lt_le_incl _ _ L) ltac:(left; discriminate) ltac:(auto) o). unfold SLIP_read_dense.
    destruct (read_dense_body o (fopen b)) as [B|e| |]; cbn [wp] in W; try tauto; [destruct W as ([W|W] & _); [lia|contradiction]|]. destruct W as (-> & _). reflexivity.
Qed.
Theorem C72_null : forall o, SLIP_read_dense o None = Ok (SErr SLIP_INCORRECT_INPUT, Kept).
Proof. reflexivity. Qed.
(* but text that is not a number is not noticed: from there on every entry is read as 0 *)
Theorem C72_junk_refuted : forall o m n vs tail bytes,
  dense_file m n vs tail bytes -> fits m -> fits n -> 1 <= m -> 1 <= n -> zlen vs < m * n -> junk tail ->
  exists B, SLIP_read_dense o (Some (fopen bytes)) = Ok (SOK, Out B) /\ int_dense m n B /\
    forall i j, 0 <= i < m -> 0 <= j < n -> Dent B i j = if i * n + j <? zlen vs then rd vs (i * n + j) else 0.
Proof.
  intros o m n vs tail b HF Hm Hn Pm Pn L HJ.
  assert (NB : ~ Forall blank tail).
  { destruct HJ as (w & c & t & -> & Hw & Hc & _). intros HB. apply Hc. rewrite Forall_forall in HB. apply HB. apply in_or_app. right. now left. }
  assert (NE : vs <> [] \/ tail <> []). { right. intros ->. apply NB. constructor. }
  assert (W := @read_dense_body_ok m n vs tail b HF Hm Hn Pm Pn ltac:(lia) NE ltac:(auto) o). unfold SLIP_read_dense.
  destruct (read_dense_body o (fopen b)) as [B|e| |]; simpl in W; try tauto. destruct W as (_ & W1 & W2 & W3). exists B. split; auto. split; auto.
  intros i j Hi Hj. rewrite W3 by auto. destruct (Z.ltb_spec (i * n + j) (zlen vs)); auto. now apply rd_over.
Qed.
Definition ex_dense_bytes : list Z := bytes "2 3" ++ nl ++ bytes "1 -2 3" ++ nl ++ bytes "4 5 6".
Lemma ex_dense_file : dense_file 2 3 [1; -2; 3; 4; 5; 6] [] ex_dense_bytes.
Proof.
  exact (@textb_ok [] [([], bytes "2"); (bytes " ", bytes "3"); (nl, bytes "1"); (bytes " ", bytes "-2"); (bytes " ", bytes "3"); (nl, bytes "4"); (bytes " ", bytes "5"); (bytes " ", bytes "6")] eq_refl).
Qed.
Example C72_ex : exists B, SLIP_read_dense None (Some (fopen ex_dense_bytes)) = Ok (SOK, Out B) /\ int_dense 2 3 B /\ m_scale B = 1%Q /\
    forall i j, 0 <= i < 2 -> 0 <= j < 3 -> Dent B i j = rd [1; -2; 3; 4; 5; 6] (i * 3 + j).
Proof. apply (C72_read_dense None ex_dense_file); unfold fits; try reflexivity; lia. Qed.
Example C72_ex2 : SLIP_read_dense None (Some (fopen (bytes "2 1" ++ nl ++ bytes "7 "))) = Ok (SErr SLIP_INCORRECT_INPUT, Kept) /\
  match SLIP_read_dense None (Some (fopen (bytes "2 1" ++ nl ++ bytes "7 x 8"))) with Ok (SOK, Out B) => m_x B = Some (VZ [7; 0]) | _ => False end.
Proof. split; vm_compute; reflexivity. Qed.

(*----------------------------------------------------------------------------*)
(* C73.  SLIP_tripread_double never reads a matrix: whatever follows, a file that begins with "m n nz" and "i j" is rejected *)
Theorem C73_tripread_double_refuted : forall lf o addr m n nz i j tail bytes,
  text tail bytes [m; n; nz; i; j] -> fits m -> fits n -> fits nz -> fits i -> fits j ->
  SLIP_tripread_double lf o addr true (Some (fopen bytes)) = Ok (SErr SLIP_INCORRECT_INPUT, Null).
Proof.
  intros lf o addr m n nz i j tail b HF Hm Hn Hz Hi Hj. unfold SLIP_tripread_double. pose proof (text_left HF) as HL. rewrite (@fopen_at _ _ _ _ HL).
  assert (X : tripread_double_body lf o (at_ b) = Err SLIP_INCORRECT_INPUT); [|now rewrite X]. unfold tripread_double_body.
  destruct (@scanf_left tail true [I64; I64; I64] [m; n; nz] [i; j] b 0 ltac:(repeat (apply Forall2_cons; [simpl; auto|]); apply Forall2_nil) HL) as (l & E & HL1).
  rewrite E. cbn [bind]. replace (f_eof (at_ (skip_ws l))) with false by (simpl; rewrite (@left_nil _ _ _ HL1); reflexivity).
  change (0 + zlen [I64; I64; I64] <? 3) with false. cbn [orb]. unfold matrix_allocate. destruct (Z.ltb_spec m 0); [reflexivity|]. destruct (Z.ltb_spec n 0); [reflexivity|].
  cbn -[read_entry_double Z.max mk]. assert (HL2 := @left_skip _ _ _ HL1).
  destruct (@scanf_left tail false [I64; I64] [i; j] [] (skip_ws l) 0 ltac:(repeat (apply Forall2_cons; [simpl; auto|]); apply Forall2_nil) HL2) as (r & E2 & _).
  unfold read_entry_double, scan_entry. rewrite E2. cbn [bind]. change (0 + zlen [I64; I64] <? 2) with false. cbn iota.
  assert (LM : forall (T : Type) (d : T), 0 <= 0 < zlen (mk (Z.max nz 1) d)) by (intros; rewrite zlen_mk; lia).
  assert (SE : forall (T : Type) (d v : T), exists a, set (mk (Z.max nz 1) d) 0 v = Ok a).
  { intros T d v. unfold set. specialize (LM T d). destruct (Z.ltb_spec 0 (zlen (mk (Z.max nz 1) d))); [|lia]. cbn. eauto. }
  destruct (SE Z 0 i) as (a1 & S1). destruct (SE Z 0 j) as (a2 & S2).
  assert (OT : forall b k, k <> 0 -> b || negb (k =? 0) = true) by (intros b' k Hk; destruct (Z.eqb_spec k 0); [contradiction|apply orb_true_r]).
  destruct (lf (at_ r)) as [s|s|x s]; cbn [bind]; rewrite S1; cbn [bind]; rewrite S2; cbn [bind].
  - rewrite OT by discriminate. reflexivity.
  - rewrite OT by discriminate. reflexivity.
  - destruct (SE fl (FFin 0 0) x) as (a3 & S3). rewrite S3. cbn [bind]. rewrite OT by discriminate. reflexivity.
Qed.
Example C73_ex : text (bytes " 2.5" ++ nl ++ bytes "1 2 3.0") (bytes "1 2 2" ++ nl ++ bytes "1 1 2.5" ++ nl ++ bytes "1 2 3.0") [1; 2; 2; 1; 1].
Proof. exact (@textb_ok (bytes " 2.5" ++ nl ++ bytes "1 2 3.0") [([], bytes "1"); (bytes " ", bytes "2"); (bytes " ", bytes "2"); (nl, bytes "1"); (bytes " ", bytes "1")] eq_refl). Qed.

(*----------------------------------------------------------------------------*)
(* C74.  The command line.  A setting and the words by which it is written; numbers are written in decimal, tolerances in any way. *)
Inductive setting := Help | Pivot (k : Z) | Order (k : Z) | Tol (t : fl) | Print (k : Z) | Files (mat rhs : list Z).
Inductive written (atof : list Z -> fl) : setting -> list (list Z) -> Prop :=
| w_help : written atof Help [bytes "help"]
| w_pivot w v k : In w [bytes "p"; bytes "piv"] -> numeral v k -> written atof (Pivot k) [w; v]
| w_order w v k : In w [bytes "q"; bytes "col"] -> numeral v k -> written atof (Order k) [w; v]
| w_tol w v : In w [bytes "t"; bytes "tol"] -> written atof (Tol (atof v)) [w; v]
| w_print w v k : In w [bytes "o"; bytes "out"] -> numeral v k -> written atof (Print k) [w; v]
| w_files w v v' : In w [bytes "f"; bytes "file"] -> written atof (Files v v') [w; v; v'].
Inductive written_all (atof : list Z -> fl) : list setting -> list (list Z) -> Prop :=
| wa_nil : written_all atof [] []
| wa_cons s ws ss args : written atof s ws -> written_all atof ss args -> written_all atof (s :: ss) (ws ++ args).
(* the settings that are accepted: numbers fit an int, the tolerance is not 0 and not negative, the print level is not 0 *)
Definition is_int (k : Z) : Prop := - 2 ^ 31 <= k < 2 ^ 31.
Definition positive_or_nan (t : fl) : Prop := match t with FFin m _ => 0 < m | FInf neg => neg = false | FNan => True end.
Definition allowed (s : setting) : Prop :=
  match s with Pivot k => is_int k | Order k => is_int k | Print k => is_int k /\ k <> 0 | Tol t => positive_or_nan t | _ => True end.
(* what is selected: the last setting of each kind, else the default; a pivot outside 0..5 selects 0, an order outside 0..2 selects 1 *)
Definition pivots ss := flat_map (fun s => match s with Pivot k => [if (0 <=? k) && (k <=? 5) then k else 0] | _ => [] end) ss.
Definition orders ss := flat_map (fun s => match s with Order k => [if (0 <=? k) && (k <=? 2) then k else 1] | _ => [] end) ss.
Definition tols ss := flat_map (fun s => match s with Tol t => [t] | _ => [] end) ss.
Definition prints ss := flat_map (fun s => match s with Print k => [k] | _ => [] end) ss.
Definition filess ss := flat_map (fun s => match s with Files a b => [Some (a, b)] | _ => [] end) ss.
Definition helps ss := flat_map (fun s => match s with Help => [true] | _ => [] end) ss.

Lemma last_cons A (x : A) l d : last (x :: l) d = last l x.
Proof. revert x d. induction l as [|y l IH]; intros; auto. change (last (x :: y :: l) d) with (last (y :: l) d). now rewrite IH, (IH y x). Qed.
Lemma last_app_1 A (l1 l2 : list A) d : last (l1 ++ l2) d = last l2 (last l1 d).
Proof. revert d. induction l1; intros; auto. cbn [app]. now rewrite !last_cons, IHl1. Qed.
Lemma atoi_numeral v k : numeral v k -> is_int k -> atoi v = Ok k.
Proof.
  intros Hv Hk. unfold atoi. assert (S : skip_ws v = v). { destruct (numeral_first Hv) as (c & t & -> & E). simpl. now rewrite E. }
  rewrite S. unfold is_int in Hk.
  assert (N : forall ds, Forall digit ds -> number 0 ds = (decimal ds, [])).
  { intros ds Hd. rewrite <- (app_nil_r ds) at 1. rewrite number_digits; auto. exact I. }
  assert (G : forall z, z = k -> (if (- 2 ^ 31 <=? z) && (z <? 2 ^ 31) then Ok z else UB) = Ok k).
  { intros z ->. destruct (Z.leb_spec (- 2 ^ 31) k), (Z.ltb_spec k (2 ^ 31)); auto; lia. }
  destruct Hv as [ds Hn Hd|ds Hn Hd|ds Hn Hd].
  - destruct ds as [|c t]; [congruence|]. inversion Hd; subst. rewrite sign_digit by auto. rewrite N by auto. cbn [fst]. apply G. lia.
  - cbn [sign]. change (43 =? 45) with false. change (43 =? 43) with true. cbn iota. rewrite N by auto. cbn [fst]. apply G. lia.
  - cbn [sign]. change (45 =? 45) with true. cbn iota. rewrite N by auto. cbn [fst]. apply G. lia.
Qed.
Lemma process_all atof ss args : written_all atof ss args -> Forall allowed ss -> forall c,
  process atof args c = Ok (mkCl (last (pivots ss) (cl_pivot c)) (last (orders ss) (cl_order c)) (last (tols ss) (cl_tol c)) (last (prints ss) (cl_print c))
    (last (filess ss) (cl_files c)) (last (helps ss) (cl_help c))).
Proof.
  induction 1 as [|s ws ss args Hw Ha IH]; intros HF c; [destruct c; reflexivity|]. inversion HF as [|? ? A1 A2]; subst.
  unfold pivots, orders, tols, prints, filess, helps. cbn [flat_map]. rewrite !last_app_1.
  fold (pivots ss) (orders ss) (tols ss) (prints ss) (filess ss) (helps ss).
  destruct Hw as [|w v k Hw Hv|w v k Hw Hv|w v Hw|w v k Hw Hv|w v v' Hw]; cbn [allowed] in A1; cbn [last].
  - cbn [app]. cbn [process]. change (streq (bytes "help") s_help) with true. cbn iota. rewrite IH by auto. reflexivity.
  - cbn [app process]. rewrite (atoi_numeral Hv A1). cbn [bind].
    replace (if (k <? 0) || (k >? 5) then 0 else k) with (if (0 <=? k) && (k <=? 5) then k else 0) by (destruct (Z.leb_spec 0 k), (Z.leb_spec k 5), (Z.ltb_spec k 0), (Z.gtb_spec k 5); auto; lia).
    destruct Hw as [<-|[<-|[]]]; cbn -[process Z.leb]; rewrite IH by auto; reflexivity.
  - cbn [app process]. rewrite (atoi_numeral Hv A1). cbn [bind].
    replace (if (k <? 0) || (k >? 2) then ORD_COLAMD else k) with (if (0 <=? k) && (k <=? 2) then k else 1) by (unfold ORD_COLAMD; destruct (Z.leb_spec 0 k), (Z.leb_spec k 2), (Z.ltb_spec k 0), (Z.gtb_spec k 2); auto; lia).
    destruct Hw as [<-|[<-|[]]]; cbn -[process Z.leb]; rewrite IH by auto; reflexivity.
  - cbn [app process]. replace (is0 (atof v) || neg0 (atof v)) with false.
    2:{ destruct (atof v) as [m e|neg|]; simpl in *; subst; auto. destruct (Z.eqb_spec m 0), (Z.ltb_spec m 0); auto; lia. }
    destruct Hw as [<-|[<-|[]]]; cbn -[process]; rewrite IH by auto; reflexivity.
  - destruct A1 as [A1 A3]. cbn [app process]. rewrite (atoi_numeral Hv A1). cbn [bind]. destruct (Z.eqb_spec k 0); [contradiction|].
    destruct Hw as [<-|[<-|[]]]; cbn -[process]; rewrite IH by auto; reflexivity.
  - cbn [app process]. destruct Hw as [<-|[<-|[]]]; cbn -[process]; rewrite IH by auto; reflexivity.
Qed.
(* every sequence of allowed settings is accepted, and the last setting of each kind counts *)
Theorem C74_command_line : forall atof ss args, written_all atof ss args -> Forall allowed ss ->
  exists c, SLIP_process_command_line atof args = Ok c /\
    cl_pivot c = last (pivots ss) 3 /\ cl_order c = last (orders ss) 1 /\ cl_tol c = last (tols ss) (FFin 1 0) /\ cl_print c = last (prints ss) 0 /\
    cl_files c = last (filess ss) None /\ (cl_help c = true <-> In Help ss).
Proof.
  intros atof ss args H A. eexists. split; [apply (process_all H A)|]. cbn. repeat (split; [reflexivity|]).
  clear. assert (G : forall b, last (helps ss) b = true <-> b = true \/ In Help ss).
  { induction ss as [|s ss IH]; intros b; [simpl; tauto|]. unfold helps. cbn [flat_map]. rewrite last_app_1. fold (helps ss). rewrite IH.
    destruct s; cbn [last In]; split; intros Q; intuition congruence. }
  rewrite G. intuition discriminate.
Qed.
Example C74_ex : let atof (_ : list Z) := FFin 1 (-3) in
  let ss := [Pivot 5; Order 2; Help; Pivot 9; Tol (FFin 1 (-3)); Files (bytes "A.txt") (bytes "b.txt"); Print 2] in
  written_all atof ss [bytes "p"; bytes "5"; bytes "col"; bytes "2"; bytes "help"; bytes "piv"; bytes "+9"; bytes "tol"; bytes "0.125"; bytes "f"; bytes "A.txt"; bytes "b.txt"; bytes "out"; bytes "2"] /\
  Forall allowed ss /\ last (pivots ss) 3 = 0.
Proof.
  assert (N : forall s, numb s = true -> numeral s (nval s)) by apply numb_ok. cbv zeta. split; [|split; [repeat constructor; discriminate|reflexivity]].
  apply (@wa_cons _ _ [bytes "p"; bytes "5"] _ _ (@w_pivot _ (bytes "p") (bytes "5") 5 (or_introl eq_refl) (N (bytes "5") eq_refl))).
  apply (@wa_cons _ _ [bytes "col"; bytes "2"] _ _ (@w_order _ (bytes "col") (bytes "2") 2 (or_intror (or_introl eq_refl)) (N (bytes "2") eq_refl))).
  apply (@wa_cons _ _ [bytes "help"] _ _ (@w_help _)).
  apply (@wa_cons _ _ [bytes "piv"; bytes "+9"] _ _ (@w_pivot _ (bytes "piv") (bytes "+9") 9 (or_intror (or_introl eq_refl)) (N (bytes "+9") eq_refl))).
  apply (@wa_cons (fun _ => FFin 1 (-3)) (Tol (FFin 1 (-3))) [bytes "tol"; bytes "0.125"] _ _ (@w_tol (fun _ => FFin 1 (-3)) (bytes "tol") (bytes "0.125") (or_intror (or_introl eq_refl)))).
  apply (@wa_cons _ _ [bytes "f"; bytes "A.txt"; bytes "b.txt"] _ _ (@w_files _ (bytes "f") (bytes "A.txt") (bytes "b.txt") (or_introl eq_refl))).
  apply (@wa_cons _ _ [bytes "out"; bytes "2"] _ _ (@w_print _ (bytes "out") (bytes "2") 2 (or_intror (or_introl eq_refl)) (N (bytes "2") eq_refl))).
  apply wa_nil.
Qed.
(* whatever the command line: the options it leaves are in range *)
Theorem C74_ranges : forall atof args c, SLIP_process_command_line atof args = Ok c ->
  0 <= cl_pivot c <= 5 /\ 0 <= cl_order c <= 2 /\ positive_or_nan (cl_tol c).
Proof.
  intros atof args c. unfold SLIP_process_command_line.
  assert (G : forall args c0 c, 0 <= cl_pivot c0 <= 5 /\ 0 <= cl_order c0 <= 2 /\ positive_or_nan (cl_tol c0) -> process atof args c0 = Ok c ->
    0 <= cl_pivot c <= 5 /\ 0 <= cl_order c <= 2 /\ positive_or_nan (cl_tol c)).
  2:{ apply G. cbn. lia. }
  clear. intros args. remember (List.length args) as k eqn:Hk. assert (Hk' : (List.length args <= k)%nat) by lia. clear Hk. revert args Hk'.
  induction k as [|k IH]; intros args Hk c0 c H E; destruct args as [|a t]; cbn [List.length] in Hk; try lia; try (injection E as <-; exact H).
  cbn [process] in E. destruct H as (H1 & H2 & H3).
  destruct (streq a s_help). { eapply IH; [|  |exact E]; [lia|cbn; auto]. }
  destruct (streq a s_p || streq a s_piv).
  { destruct t as [|v t]; [discriminate|]. destruct (atoi v) as [z| | |]; try discriminate E. cbn [bind] in E. cbn [List.length] in Hk. eapply IH; [| |exact E]; [lia|cbn].
    split; auto. destruct (Z.ltb_spec z 0), (Z.gtb_spec z 5); cbn; lia. }
  destruct (streq a s_q_ || streq a s_col).
  { destruct t as [|v t]; [discriminate|]. destruct (atoi v) as [z| | |]; try discriminate E. cbn [bind] in E. cbn [List.length] in Hk. eapply IH; [| |exact E]; [lia|cbn].
    split; auto. split; auto. unfold ORD_COLAMD. destruct (Z.ltb_spec z 0), (Z.gtb_spec z 2); cbn; lia. }
  destruct (streq a s_t || streq a s_tol).
  { destruct t as [|v t]; [discriminate|]. destruct (is0 (atof v)) eqn:E1, (neg0 (atof v)) eqn:E2; try discriminate E. cbn [orb] in E. cbn [List.length] in Hk.
    eapply IH; [| |exact E]; [lia|cbn]. split; auto. split; auto. destruct (atof v) as [m e|neg|]; simpl in *; auto.
    apply Z.eqb_neq in E1. apply Z.ltb_ge in E2. lia. }
  destruct (streq a s_out || streq a s_o).
  { destruct t as [|v t]; [discriminate|]. destruct (atoi v) as [z| | |]; try discriminate E. cbn [bind] in E. cbn [List.length] in Hk. destruct (z =? 0); [discriminate|].
    eapply IH; [| |exact E]; [lia|cbn]. auto. }
  destruct (streq a s_f || streq a s_file); [|discriminate].
  destruct t as [|v [|w t]]; try discriminate. cbn [List.length] in Hk. eapply IH; [| |exact E]; [lia|cbn]. auto.
Qed.
(* and if no word has more than nine characters, it is accepted or rejected with SLIP_INCORRECT_INPUT *)
Lemma number_bound l : forall acc, 0 <= acc -> 0 <= fst (number acc l) < (acc + 1) * 10 ^ zlen l.
Proof.
  induction l as [|c l IH]; intros acc Ha; cbn [number].
  - cbn. lia.
  - assert (P : 10 ^ zlen (c :: l) = 10 * 10 ^ zlen l). { unfold zlen. cbn [List.length]. rewrite Nat2Z.inj_succ, Z.pow_succ_r by lia. reflexivity. }
    assert (0 < 10 ^ zlen l) by (apply Z.pow_pos_nonneg; unfold zlen; lia).
    destruct (isdigit c) eqn:E; cbn [fst]; [|rewrite P; nia]. apply isdigit_digit in E. unfold digit in E.
    destruct (IH (10 * acc + (c - 48)) ltac:(lia)) as [B1 B2]. split; [exact B1|]. rewrite P. nia.
Qed.
Lemma skip_ws_len l : zlen (skip_ws l) <= zlen l.
Proof. induction l as [|c l]; simpl; [lia|]. destruct (isspace c); [|lia]. unfold zlen in *. cbn [List.length]. lia. Qed.
Lemma sign_len l : (fst (sign l) = 1 \/ fst (sign l) = -1) /\ zlen (snd (sign l)) <= zlen l.
Proof. destruct l as [|c t]; simpl; [lia|]. destruct (c =? 45); [|destruct (c =? 43)]; cbn [fst snd]; unfold zlen; cbn [List.length]; lia. Qed.
Lemma atoi_short v : zlen v <= 9 -> exists k, atoi v = Ok k.
Proof.
  intros H. unfold atoi. pose proof (skip_ws_len v). destruct (sign (skip_ws v)) as [sg body] eqn:E.
  pose proof (sign_len (skip_ws v)) as [S1 S2]. rewrite E in S1, S2. cbn [fst snd] in *. pose proof (@number_bound body 0 ltac:(lia)) as B.
  assert (10 ^ zlen body <= 10 ^ 9) by (apply Z.pow_le_mono_r; lia). change (10 ^ 9) with 1000000000 in *.
  destruct (Z.leb_spec (- 2 ^ 31) (sg * fst (number 0 body))), (Z.ltb_spec (sg * fst (number 0 body)) (2 ^ 31)); cbn [andb]; eauto; exfalso; change (2 ^ 31) with 2147483648 in *; nia.
Qed.
Theorem C74_total : forall atof args, Forall (fun v => zlen v <= 9) args ->
  SLIP_process_command_line atof args = Err SLIP_INCORRECT_INPUT \/ exists c, SLIP_process_command_line atof args = Ok c.
Proof.
  intros atof args. unfold SLIP_process_command_line. generalize (mkCl 3 1 (FFin 1 0) 0 None false).
  remember (List.length args) as k eqn:Hk. assert (Hk' : (List.length args <= k)%nat) by lia. clear Hk. revert args Hk'.
  induction k as [|k IH]; intros args Hk c0 H; destruct args as [|a t]; cbn [List.length] in Hk; try lia; try (right; eexists; reflexivity).
  inversion H as [|? ? Ha Ht]; subst. cbn [process].
  assert (G1 : forall (f : Z -> list (list Z) -> res cl), (forall z v t', t = v :: t' -> f z t' = Err SLIP_INCORRECT_INPUT \/ exists c, f z t' = Ok c) ->
    match t with [] => Err SLIP_INCORRECT_INPUT | v :: t' => let* z := atoi v in f z t' end = Err SLIP_INCORRECT_INPUT \/
    exists c, match t with [] => Err SLIP_INCORRECT_INPUT | v :: t' => let* z := atoi v in f z t' end = Ok c).
  { intros f Hf. destruct t as [|v t']; auto. inversion Ht; subst. destruct (@atoi_short v H2) as (z & ->). cbn [bind]. eapply Hf. reflexivity. }
  destruct (streq a s_help). { apply IH; auto. lia. }
  destruct (streq a s_p || streq a s_piv).
  { apply (G1 (fun z t => process atof t _)). intros z v t' ->. inversion Ht; subst. cbn [List.length] in Hk. apply IH; auto. lia. }
  destruct (streq a s_q_ || streq a s_col).
  { apply (G1 (fun z t => process atof t _)). intros z v t' ->. inversion Ht; subst. cbn [List.length] in Hk. apply IH; auto. lia. }
  destruct (streq a s_t || streq a s_tol).
  { destruct t as [|v t']; auto. inversion Ht; subst. destruct (is0 (atof v) || neg0 (atof v)); auto. cbn [List.length] in Hk. apply IH; auto. lia. }
  destruct (streq a s_out || streq a s_o).
  { apply (G1 (fun z t => if z =? 0 then Err SLIP_INCORRECT_INPUT else process atof t _)). intros z v t' ->. inversion Ht; subst. cbn [List.length] in Hk. destruct (z =? 0); auto. apply IH; auto. lia. }
  destruct (streq a s_f || streq a s_file); auto.
  destruct t as [|v [|w t']]; auto. inversion Ht; subst. inversion H3; subst. cbn [List.length] in Hk. apply IH; auto. lia.
Qed.
(* documented settings that are refused: print level 0, tolerance 0, "c"; and a tolerance that is not a number is accepted *)
Theorem C74_documented_refuted : forall atof, atof (bytes "0") = FFin 0 0 -> atof (bytes "nan") = FNan ->
  SLIP_process_command_line atof [bytes "o"; bytes "0"] = Err SLIP_INCORRECT_INPUT /\
  SLIP_process_command_line atof [bytes "t"; bytes "0"] = Err SLIP_INCORRECT_INPUT /\
  SLIP_process_command_line atof [bytes "c"] = Err SLIP_INCORRECT_INPUT /\
  exists c, SLIP_process_command_line atof [bytes "t"; bytes "nan"] = Ok c /\ cl_tol c = FNan.
Proof.
  intros atof H1 H2. split; [reflexivity|]. split; [|split; [reflexivity|]]; unfold SLIP_process_command_line; cbn -[bytes]; cbn [process].
  - change (streq (bytes "t") s_help) with false. change (streq (bytes "t") s_p) with false. change (streq (bytes "t") s_piv) with false.
    change (streq (bytes "t") s_q_) with false. change (streq (bytes "t") s_col) with false. change (streq (bytes "t") s_t) with true. cbn iota. cbn [orb]. rewrite H1. reflexivity.
  - change (streq (bytes "t") s_help) with false. change (streq (bytes "t") s_p) with false. change (streq (bytes "t") s_piv) with false.
    change (streq (bytes "t") s_q_) with false. change (streq (bytes "t") s_col) with false. change (streq (bytes "t") s_t) with true. cbn iota. cbn [orb]. rewrite H2. eexists. split; reflexivity.
Qed.

(*----------------------------------------------------------------------------*)
(* C75.  The program SLIPLU.  Files: what is found under a name.  The tolerance must be a number if the pivoting scheme uses it. *)
Definition tol_ok (c : cl) : Prop := cl_pivot c = 3 \/ cl_pivot c = 4 -> exists t, fl_q (cl_tol c) = Some t.
Lemma tol_some c : tol_ok c -> exists t, (match fl_q (cl_tol c) with Some t => Some t | None => if (cl_pivot c =? 3) || (cl_pivot c =? 4) then None else Some 0%Q end) = Some t.
Proof.
  intros H. destruct (fl_q (cl_tol c)) as [t|] eqn:E; eauto. destruct (Z.eqb_spec (cl_pivot c) 3), (Z.eqb_spec (cl_pivot c) 4); cbn [orb]; eauto;
  destruct H as (t & Ht); auto; congruence.
Qed.
Theorem C75_sliplu : forall env ol addr atof files def args c mat rhs fm fr n k es vs tail tail',
  (* the command line selects files mat and rhs *)
  SLIP_process_command_line atof args = Ok c -> cl_help c = false -> match cl_files c with Some p => p | None => def end = (mat, rhs) -> tol_ok c ->
  env_ok env (cl_pivot c) ->
  (* they hold an n-by-n matrix and n-by-k right-hand sides *)
  files mat = Some fm -> triplet_file n n es tail fm -> es <> [] -> Forall (inside n n) es -> no_repeat es -> (zlen es = 1 -> ~ Forall blank tail) ->
  files rhs = Some fr -> dense_file n k vs tail' fr -> 1 <= k -> zlen vs = n * k ->
  fits n -> fits k -> fits (zlen es) ->
  (detz n (listed es) <> 0 /\ exists X, SLIPLU env ol addr atof files def args = Ok (Solved X) /\ rat_dense n k X /\
     forall i r, 0 <= i < n -> 0 <= r < k -> (sumQ n (fun j => inject_Z (listed es i j) * Qent X j r) == inject_Z (rd vs (i * k + r)))%Q) \/
  (detz n (listed es) = 0 /\ SLIPLU env ol addr atof files def args = Ok (Failed SLIP_SINGULAR)).
Proof.
  intros env ol addr atof files def args c mat rhs fm fr n k es vs tail tail' Hc Hh Hf Ht HE Fm TF Hes Hin ND Hend Fr DF Hk Lv Fn Fk Fz.
  destruct (tol_some Ht) as (t & Et).
  assert (Hn : 1 <= n). { destruct es as [|e es']; [congruence|]. inversion Hin as [|? ? [I1 I2] _]. lia. }
  set (o := Some (mkO (cl_pivot c) (cl_order c) t (cl_print c) 128 RNDN false)).
  destruct (@tripread_ok o addr n n es tail fm TF Hes Fn Fn Fz Hin Hend ltac:(discriminate)) as (A & p & r & x & EA & _ & A1 & A2 & A3 & A4 & _ & _ & _ & _ & AV & IC).
  specialize (IC ND). destruct (@C72_read_dense o n k vs tail' fr DF Fn Fk Hn Hk Lv) as (B & EB & ID & B1 & BV).
  assert (DE : detz n (listed es) = detz n (Cent A)) by (apply detz_ext; intros i j Hi Hj; symmetry; auto).
  assert (SA : ~ (m_scale A == 0)%Q) by (rewrite A4; discriminate). assert (SB : ~ (m_scale B == 0)%Q) by (rewrite B1; discriminate).
  destruct (ic_arr IC) as (Ap & Ai & Ax & Hp & Hi & Hx & V).
  destruct (@analyze_spec ol A Ap Ai n o (ic_kind IC) (ic_m IC) (ic_n IC) Hp Hi (csc_pattern V)) as (An & EAn & (U1 & U2 & U3) & _).
  assert (US : usable n An) by (split; auto; lia).
  unfold SLIPLU. rewrite Hc, Hh, Hf, Et. fold o. rewrite Fm, EA, Fr, EB. rewrite A2, (id_m ID), Z.eqb_refl. cbn [negb]. rewrite EAn. cbn [call].
  rewrite DE. destruct (@factorize_spec env n A An o IC US HE) as [(Ap' & Ai' & Ax' & F & R & Hp' & Hi' & Hx' & V' & EF & K & HD)|(EF & HD)].
  - left. split; auto. rewrite EF. cbn [call]. destruct An as [q lnz unz].
    destruct (@solve_spec n k A B Ap' Ai' Ax' q lnz unz F R (Some (mkO (cl_pivot c) (cl_order c) t (cl_print c) 128 RNDN true)) IC Hp' Hi' Hx' V' ID U1 Hn SA SB K) as (X & EX & RX & SX).
    rewrite EX. cbn [call]. exists X. split; auto. split; auto. intros i j Hi0 Hj.
    specialize (SX i j Hi0). rewrite (id_n ID) in SX. specialize (SX Hj). rewrite BV in SX by auto. rewrite A4, B1 in SX.
    setoid_replace (inject_Z (rd vs (i * k + j))) with (inject_Z (rd vs (i * k + j)) / 1)%Q by (field; discriminate).
    rewrite <- SX. apply sumQ_ext. intros jj Hjj. rewrite AV by auto. field.
  - right. split; auto. rewrite EF. reflexivity.
Qed.
(* what it reports otherwise: a wrong command line, help, a missing matrix file, a missing right-hand-side file, sizes that do not match *)
Theorem C75_reports : forall env ol addr atof files def args c mat rhs fm m n es tail,
  (SLIP_process_command_line atof args = Err SLIP_INCORRECT_INPUT -> SLIPLU env ol addr atof files def args = Ok (Failed SLIP_INCORRECT_INPUT)) /\
  (SLIP_process_command_line atof args = Ok c ->
    (cl_help c = true -> SLIPLU env ol addr atof files def args = Ok Helped) /\
    (cl_help c = false -> match cl_files c with Some p => p | None => def end = (mat, rhs) -> tol_ok c ->
      (files mat = None -> SLIPLU env ol addr atof files def args = Ok NoFile) /\
      (files mat = Some fm -> triplet_file m n es tail fm -> es <> [] -> Forall (inside m n) es -> (zlen es = 1 -> ~ Forall blank tail) ->
       fits m -> fits n -> fits (zlen es) ->
        (files rhs = None -> SLIPLU env ol addr atof files def args = Ok NoFile) /\
        (forall fr mb k vs tail', files rhs = Some fr -> dense_file mb k vs tail' fr -> 1 <= mb -> 1 <= k -> fits mb -> fits k ->
          (zlen vs = mb * k -> mb <> n -> SLIPLU env ol addr atof files def args = Ok BadSize) /\
          (zlen vs < mb * k -> Forall blank tail' -> SLIPLU env ol addr atof files def args = Ok (Failed SLIP_INCORRECT_INPUT)))))).
Proof.
  intros env ol addr atof files def args c mat rhs fm m n es tail. split; [intros H; unfold SLIPLU; now rewrite H|].
  intros Hc. split; [intros Hh; unfold SLIPLU; now rewrite Hc, Hh|]. intros Hh Hf Ht. destruct (tol_some Ht) as (t & Et).
  split; [intros Fm; unfold SLIPLU; now rewrite Hc, Hh, Hf, Et, Fm|]. intros Fm TF Hes Hin Hend Xm Xn Xz.
  set (o := Some (mkO (cl_pivot c) (cl_order c) t (cl_print c) 128 RNDN false)).
  destruct (@tripread_ok o addr m n es tail fm TF Hes Xm Xn Xz Hin Hend ltac:(discriminate)) as (A & p & r & x & EA & _ & A1 & A2 & _).
  split; [intros Fr; unfold SLIPLU; rewrite Hc, Hh, Hf, Et; fold o; now rewrite Fm, EA, Fr|].
  intros fr mb k vs tail' Fr DF P1 P2 X1 X2. split.
  - intros L NE. destruct (@C72_read_dense o mb k vs tail' fr DF X1 X2 P1 P2 L) as (B & EB & ID & _).
    unfold SLIPLU. rewrite Hc, Hh, Hf, Et. fold o. rewrite Fm, EA, Fr, EB, A2, (id_m ID). destruct (Z.eqb_spec n mb); [congruence|reflexivity].
  - intros L HB. pose proof (@C72_missing_numbers o mb k vs tail' fr DF X1 X2 P1 P2 L HB) as EB.
    unfold SLIPLU. rewrite Hc, Hh, Hf, Et. fold o. now rewrite Fm, EA, Fr, EB.
Qed.
Definition ex_files0 (s : list Z) : option (list Z) :=
  if streq s (bytes "A") then Some (bytes "2 2 3" ++ nl ++ bytes "1 1 2" ++ nl ++ bytes "2 1 -1" ++ nl ++ bytes "2 2 3" ++ nl)
  else if streq s (bytes "b") then Some (bytes "3 1" ++ nl ++ bytes "4 1 5") else None.
Example C75_reports_ex :
  SLIPLU exenv exol (fun _ => 0) (fun _ => FFin 1 0) ex_files0 ([], []) [bytes "help"; bytes "p"] = Ok (Failed SLIP_INCORRECT_INPUT) /\
  SLIPLU exenv exol (fun _ => 0) (fun _ => FFin 1 0) ex_files0 ([], []) [bytes "help"] = Ok Helped /\
  SLIPLU exenv exol (fun _ => 0) (fun _ => FFin 1 0) ex_files0 ([], []) [bytes "f"; bytes "A"; bytes "X"] = Ok NoFile /\
  SLIPLU exenv exol (fun _ => 0) (fun _ => FFin 1 0) ex_files0 ([], []) [bytes "f"; bytes "A"; bytes "b"] = Ok BadSize.
Proof. repeat split; vm_compute; reflexivity. Qed.
(* an example: A = [2 0; -1 3], b = [4 1; 1 0], with default options and file names A and b on the command line *)
Definition ex_prog_A : list Z := bytes "2 2 3" ++ nl ++ bytes "1 1 2" ++ nl ++ bytes "2 1 -1" ++ nl ++ bytes "2 2 3" ++ nl.
Definition ex_prog_b : list Z := bytes "2 2" ++ nl ++ bytes "4 1" ++ nl ++ bytes "1 0" ++ nl.
Definition ex_files (s : list Z) : option (list Z) := if streq s (bytes "A") then Some ex_prog_A else if streq s (bytes "b") then Some ex_prog_b else None.
Definition ex_prog_es : list entry := [(1, 1, 2); (2, 1, -1); (2, 2, 3)].
Lemma ex_prog_A_file : triplet_file 2 2 ex_prog_es nl ex_prog_A.
Proof.
  exact (@textb_ok nl [([], bytes "2"); (bytes " ", bytes "2"); (bytes " ", bytes "3"); (nl, bytes "1"); (bytes " ", bytes "1"); (bytes " ", bytes "2");
    (nl, bytes "2"); (bytes " ", bytes "1"); (bytes " ", bytes "-1"); (nl, bytes "2"); (bytes " ", bytes "2"); (bytes " ", bytes "3")] eq_refl).
Qed.
Lemma ex_prog_b_file : dense_file 2 2 [4; 1; 1; 0] nl ex_prog_b.
Proof. exact (@textb_ok nl [([], bytes "2"); (bytes " ", bytes "2"); (nl, bytes "4"); (bytes " ", bytes "1"); (nl, bytes "1"); (bytes " ", bytes "0")] eq_refl). Qed.
Example C75_ex : detz 2 (listed ex_prog_es) = 6 /\ exists X, SLIPLU exenv exol (fun _ => 0) (fun _ => FFin 1 0) ex_files ([], []) [bytes "f"; bytes "A"; bytes "b"] = Ok (Solved X) /\
  rat_dense 2 2 X /\ m_x X = Some (VQ [2; 1; 1 # 2; 1 # 6]%Q).
Proof.
  split; [reflexivity|].
  assert (Hfit : fits 2 /\ fits (zlen ex_prog_es)) by (unfold fits; cbn; lia). destruct Hfit as [Hf1 Hf2].
  assert (Hin : Forall (inside 2 2) ex_prog_es) by (repeat constructor; cbn; lia).
  assert (Hnd : no_repeat ex_prog_es) by (repeat constructor; cbn; intuition congruence).
  destruct (@C75_sliplu exenv exol (fun _ => 0) (fun _ => FFin 1 0) ex_files ([], []) [bytes "f"; bytes "A"; bytes "b"] (mkCl 3 1 (FFin 1 0) 0 (Some (bytes "A", bytes "b")) false)
    (bytes "A") (bytes "b") ex_prog_A ex_prog_b 2 2 ex_prog_es [4; 1; 1; 0] nl nl eq_refl eq_refl eq_refl ltac:(intros _; eexists; reflexivity) (@ex_env _)
    eq_refl ex_prog_A_file ltac:(discriminate) Hin Hnd ltac:(discriminate) eq_refl ex_prog_b_file ltac:(discriminate) eq_refl Hf1 Hf1 Hf2) as [(_ & X & E & RX & _)|(H & _)].
  2:{ discriminate H. }
  exists X. split; auto. split; auto.
  assert (G : match SLIPLU exenv exol (fun _ => 0) (fun _ => FFin 1 0) ex_files ([], []) [bytes "f"; bytes "A"; bytes "b"] with Ok (Solved X) => m_x X | _ => None end = Some (VQ [2; 1; 1 # 2; 1 # 6]%Q)) by (vm_compute; reflexivity).
  rewrite E in G. exact G.
Qed.
(* but an input file with a negative number of entries makes the program use a null pointer *)
Theorem C75_bad_file_refuted : SLIPLU exenv exol (fun _ => 0) (fun _ => FFin 1 0)
  (fun s => if streq s (bytes "A") then Some (bytes "2 2 -1" ++ nl ++ bytes "1 1 5" ++ nl ++ bytes "2 2 7" ++ nl) else Some ex_prog_b) ([], []) [bytes "f"; bytes "A"; bytes "b"] = UB.
Proof. vm_compute. reflexivity. Qed.
