(* Property C88: what SLIP_matrix_check prints.  Specification: PrintSpec.v. *)
From Coq Require Import String.
From Verif Require Import Base MFactor MSolve MMatrix MPrint PrintSpec PPrint MatSpec PropMat.
Set Implicit Arguments.
Open Scope Z_scope.

Definition verdict (v : unit + info) : res unit := match v with inl _ => Ok tt | inr e => Err e end.

(* the return value is the same at every print level *)
Theorem C88_same_verdict : forall E level inited A v,
  (forall M, A = Some M -> print_ok E level M) -> matrix_check inited A = verdict v ->
  exists out, matrix_check_print E level inited A = Ok (out, v).
Proof.
  intros E level inited A v PO H. unfold matrix_check_print. destruct inited. 2: { destruct v; try discriminate. injection H as <-. cbn. eauto. }
  destruct A as [M|]. 2: { destruct v; try discriminate. injection H as <-. cbn. destruct (level >=? 1); cbn; eauto. }
  pose proof (@body_run E level M (PO M eq_refl)) as R. rewrite H in R. cbn [negb]. destruct v as [[]|e]; cbn [verdict outcome] in R.
  - destruct R as (nz & _ & R). unfold init in R. rewrite R. cbn. eauto.
  - destruct R as (-> & s1 & evs & msg & _ & _ & R). unfold init in R. rewrite R. cbn. eauto.
Qed.

(* what is added to the output *)
Lemma out_put E s l : e_printf E = true -> p_out (put E s l) = p_out s ++ [l].
Proof. intros H. unfold put. rewrite H. auto. Qed.
Lemma emit_quiet E t x s e : p_pr s <= 1 -> p_out (emit E t x s e) = p_out s /\ p_pr (emit E t x s e) = p_pr s.
Proof.
  intros H. destruct e as [j|h p]; cbn [emit].
  - unfold lim1. cbn. destruct (Z.eqb_spec (p_pr s) 2); [lia|]. cbn. unfold say2. cbn. destruct (Z.geb_spec (p_pr s) 2); [lia|]. auto.
  - destruct (Z.geb_spec (p_pr s) 2); [lia|]. auto.
Qed.
Lemma emits_quiet E t x l : forall s, p_pr s <= 1 -> p_out (emits E t x s l) = p_out s /\ p_pr (emits E t x s l) = p_pr s.
Proof.
  induction l as [|e l IH]; intros s H; cbn [emits fold_left]; auto. destruct (@emit_quiet E t x s e H) as [E1 E2].
  destruct (IH (emit E t x s e) ltac:(lia)) as [E3 E4]. split; etransitivity; eauto.
Qed.
Lemma emits_out E t x l s : p_pr s <= 1 -> p_out (emits E t x s l) = p_out s.
Proof. intros H. apply (@emits_quiet E t x l s H). Qed.
Lemma head_quiet E M nz level : level <= 1 -> head1 E M nz (init level) = init level.
Proof. intros H. unfold head1, say2. cbn. destruct (Z.geb_spec level 2); [lia|]. cbn. destruct (Z.geb_spec level 2); [lia|]. auto. Qed.

(* level 0 and below: nothing; level 1: at most one message, and one exactly when the matrix is rejected.
   No string is allocated, so nothing else can go wrong. *)
Theorem C88_quiet : forall E level inited A v,
  level <= 0 -> matrix_check inited A = verdict v -> matrix_check_print E level inited A = Ok ([], v).
Proof.
  intros E level inited A v L H. unfold matrix_check_print. destruct inited. 2: { destruct v; try discriminate. injection H as <-. auto. }
  destruct A as [M|]. 2: { destruct v; try discriminate. injection H as <-. cbn. destruct (Z.geb_spec level 1); [lia|]. auto. }
  assert (PO : print_ok E level M) by (left; lia). pose proof (@body_run E level M PO) as R. rewrite H in R. cbn [negb]. destruct v as [[]|e]; cbn [verdict outcome] in R.
  - destruct R as (nz & _ & R). rewrite head_quiet in R by lia. unfold init in R. rewrite R. cbn [bind fst snd].
    rewrite emits_out by (cbn; lia). auto.
  - destruct R as (-> & s1 & evs & msg & HX & S1 & R). assert (s1 = init level) as ->. { destruct S1 as [->|[nz ->]]; [auto|apply head_quiet; lia]. }
    unfold init in R. rewrite R. cbn [bind fst snd]. unfold say1. destruct (@emits_quiet E (m_type M) (m_x M) evs (mkP level 0 None 0 []) ltac:(cbn; lia)) as [O1 O2].
    rewrite O2. cbn [p_pr]. destruct (Z.geb_spec level 1); [lia|]. rewrite O1. auto.
Qed.
Theorem C88_messages : forall E A v,
  e_printf E = true -> matrix_check true A = verdict v ->
  match v with
  | inl _ => matrix_check_print E 1 true A = Ok ([], v)
  | inr _ => exists msg, matrix_check_print E 1 true A = Ok ([LMsg msg], v) /\ match A with Some M => explains M msg | None => msg = MNull end
  end.
Proof.
  intros E A v PF H. unfold matrix_check_print.
  destruct A as [M|]. 2: { destruct v; try discriminate. injection H as <-. exists MNull. split; auto. cbn. rewrite out_put by auto. auto. }
  assert (PO : print_ok E 1 M) by (left; lia). pose proof (@body_run E 1 M PO) as R. rewrite H in R. cbn [negb]. destruct v as [[]|e]; cbn [verdict outcome] in R.
  - destruct R as (nz & _ & R). rewrite head_quiet in R by lia. unfold init in R. rewrite R. cbn [bind fst snd].
    rewrite emits_out by (cbn; lia). auto.
  - destruct R as (-> & s1 & evs & msg & HX & S1 & R). assert (s1 = init 1) as ->. { destruct S1 as [->|[nz ->]]; [auto|apply head_quiet; lia]. }
    unfold init in R. exists msg. split; [|exact HX]. rewrite R. cbn [bind fst snd]. unfold say1. destruct (@emits_quiet E (m_type M) (m_x M) evs (mkP 1 0 None 0 []) ltac:(cbn; lia)) as [O1 O2].
    rewrite O2. cbn [p_pr Z.geb Z.compare Pos.compare Pos.compare_cont]. rewrite out_put, O1 by auto. auto.
Qed.

(* at every level from 1 on a rejection ends with a message that names a defect of the matrix *)
Lemma emits_pr E t x l : forall s, 1 <= p_pr s -> 1 <= p_pr (emits E t x s l).
Proof.
  induction l as [|e l IH]; intros s H; cbn [emits fold_left]; auto. apply IH. destruct e as [j|h p]; cbn [emit].
  - rewrite say2_pr. destruct (lim1_pr E s) as [->|[_ ->]]; lia.
  - destruct (_ >=? _); auto. rewrite val1_pr, say2_pr. destruct (lim1_pr E s) as [->|[_ ->]]; lia.
Qed.
Theorem C88_message_true : forall E level M,
  e_printf E = true -> 1 <= level -> print_ok E level M -> matrix_check true (Some M) = Err SLIP_INCORRECT_INPUT ->
  exists before msg, matrix_check_print E level true (Some M) = Ok (before ++ [LMsg msg], inr SLIP_INCORRECT_INPUT) /\ explains M msg.
Proof.
  intros E level M PF L PO H. unfold matrix_check_print. cbn [negb]. pose proof (@body_run E level M PO) as R. rewrite H in R. cbn [outcome] in R.
  destruct R as (_ & s1 & evs & msg & HX & S1 & R). unfold init in R. exists (p_out (emits E (m_type M) (m_x M) s1 evs)), msg. split; [|exact HX]. rewrite R. cbn [bind fst snd].
  assert (P1 : 1 <= p_pr (emits E (m_type M) (m_x M) s1 evs)). { apply emits_pr. destruct S1 as [->|[nz ->]]; rewrite ?head1_pr; cbn; lia. }
  unfold say1. destruct (Z.geb_spec (p_pr (emits E (m_type M) (m_x M) s1 evs)) 1); [|lia]. rewrite out_put by auto. reflexivity.
Qed.
(* level 3 and above, or level 2 and at most 30 lines: everything *)
Definition lines_of (x : option vals) (e : event) : list line :=
  match e with ECol j => [LCol j] | EEnt h p => [h; LVal (val_at x p)] end.
Lemma val1_out E t x p s : e_printf E = true -> 2 <= p_pr s -> p_out (val1 E t x p s) = p_out s ++ [LVal (val_at x p)] /\ p_lines (val1 E t x p s) = p_lines s.
Proof.
  intros PF H. unfold val1, say2. destruct (_ <=? _); cbn [call p_pr]; (destruct (Z.geb_spec (p_pr s) 2); [|lia]); rewrite out_put, put_lines by auto; auto.
Qed.
Lemma emit_loud E t x s e : e_printf E = true -> 3 <= p_pr s \/ (p_pr s = 2 /\ p_lines s < 30) ->
  p_out (emit E t x s e) = p_out s ++ lines_of x e /\ p_pr (emit E t x s e) = p_pr s /\ p_lines (emit E t x s e) = p_lines s + 1.
Proof.
  intros PF H. assert (L : lim1 E s = mkP (p_pr s) (p_lines s + 1) (p_status s) (p_calls s) (p_out s)).
  { unfold lim1. cbn. destruct (Z.eqb_spec (p_pr s) 2); auto. destruct (Z.gtb_spec (p_lines s + 1) 30); auto. lia. }
  assert (P2 : p_pr s >=? 2 = true) by (apply Z.geb_le; lia).
  destruct e as [j|h p]; cbn [emit lines_of]; rewrite L.
  - unfold say2. cbn [p_pr]. rewrite P2, out_put, put_pr, put_lines by auto. auto.
  - rewrite P2. rewrite val1_pr, say2_pr. cbn [p_pr].
    destruct (@val1_out E t x p (say2 E h (mkP (p_pr s) (p_lines s + 1) (p_status s) (p_calls s) (p_out s))) PF) as [O1 O2]. rewrite say2_pr. cbn. lia.
    rewrite O1, O2. unfold say2. cbn [p_pr]. rewrite P2, out_put, put_lines by auto. cbn [p_out p_lines]. rewrite <- app_assoc. auto.
Qed.
Lemma emits_loud E t x l : e_printf E = true -> forall s, 3 <= p_pr s \/ (p_pr s = 2 /\ p_lines s + Z.of_nat (length l) <= 30) ->
  p_out (emits E t x s l) = p_out s ++ flat_map (lines_of x) l /\ p_pr (emits E t x s l) = p_pr s /\ p_lines (emits E t x s l) = p_lines s + Z.of_nat (length l).
Proof.
  intros PF. induction l as [|e l IH]; intros s H; cbn [emits fold_left flat_map length] in *. rewrite app_nil_r; repeat split; auto; lia.
  destruct (@emit_loud E t x s e PF) as (O1 & O2 & O3). lia. fold (emits E t x (emit E t x s e) l).
  destruct (IH (emit E t x s e)) as (I1 & I2 & I3); [lia|]. rewrite I1, I2, I3, O1, <- app_assoc. repeat split; auto; lia.
Qed.
Lemma flat_flat A B C (f : A -> list B) (g : B -> list C) l : flat_map g (flat_map f l) = flat_map (fun a => flat_map g (f a)) l.
Proof. induction l; cbn; auto. rewrite flat_map_app, IHl. auto. Qed.
Lemma events_lines A nz : matrix_nnz true (Some A) = Ok nz -> 0 <= nz -> nz = nnz A /\ flat_map (lines_of (m_x A)) (events A nz) = entries A /\
  length (events A nz) = body_lines (entries A).
Proof.
  intros N Z. assert (NN : nz = nnz A).
  { revert N. unfold matrix_nnz, nnz. cbn [negb]. destruct (_ =? KCSC). destruct (m_p A) as [p|]; [|intros [= <-]; lia]. destruct (_ <? 0); [intros [= <-]; lia|]. apply get_val.
    destruct (_ =? KTRIP); [intros [= <-]; auto|]. destruct (_ =? KDENSE); intros [= <-]; [|lia]. destruct (_ || _); auto. lia. }
  split; auto. assert (B : forall x l, body_lines (flat_map (lines_of x) l) = length (filter starts_line (flat_map (lines_of x) l))) by reflexivity.
  assert (FE : flat_map (lines_of (m_x A)) (events A nz) = entries A).
  { unfold events, entries. destruct (_ =? KCSC).
    - unfold csc_events. rewrite flat_flat. apply flat_map_ext. intros j. cbn [flat_map lines_of app]. f_equal. rewrite flat_flat. apply flat_map_ext. auto.
    - destruct (m_kind A =? KTRIP) eqn:K.
      + unfold trip_events. rewrite flat_flat. replace nz with (m_nz A). apply flat_map_ext. auto.
        subst nz. unfold nnz in *. rewrite K in *. destruct (m_kind A =? KCSC) eqn:K'; auto. apply Z.eqb_eq in K, K'. rewrite K in K'. discriminate.
      + unfold dense_events. rewrite flat_flat. apply flat_map_ext. intros j. cbn [flat_map lines_of app]. f_equal. rewrite flat_flat. apply flat_map_ext. auto. }
  split; auto. rewrite <- FE.
  assert (H : Forall (fun e => match e with EEnt h _ => starts_line h = true | _ => True end) (events A nz)).
  { unfold events. destruct (_ =? KCSC); [|destruct (_ =? KTRIP)]; apply Forall_flat_map, Forall_forall; intros a _; repeat constructor;
      apply Forall_flat_map, Forall_forall; intros b _; repeat constructor. }
  clear - H. unfold body_lines. induction H as [|e l He _ IH]; cbn; auto. destruct e as [j|h p]; cbn. auto. rewrite He. cbn. auto.
Qed.

Lemma names_ok A : matrix_check true (Some A) = Ok tt -> kind_name (m_kind A) = kind_text (m_kind A) /\ type_name (m_type A) = type_text (m_type A).
Proof.
  unfold matrix_check. cbn [negb]. destruct (matrix_nnz true (Some A)) as [nz| | |] eqn:N; try discriminate. cbn [bind]. cbv zeta.
  destruct (Z.ltb_spec nz 0); [discriminate|]. cbn [orb]. destruct (_ || _ || _); [discriminate|].
  destruct ((m_type A <? TMPZ) || (m_type A >? TDBL)) eqn:T; [discriminate|]. intros _. apply orb_false_iff in T. destruct T as [T1 T2].
  assert (K : KCSC <= m_kind A <= KDENSE).
  { revert N. unfold matrix_nnz. cbn [negb]. destruct (Z.eqb_spec (m_kind A) KCSC) as [->|]; [unfold KCSC, KDENSE; lia|]. destruct (Z.eqb_spec (m_kind A) KTRIP) as [->|]; [unfold KTRIP, KCSC, KDENSE; lia|].
    destruct (Z.eqb_spec (m_kind A) KDENSE) as [->|]; [unfold KCSC, KDENSE; lia|]. intros [= <-]. lia. }
  unfold kind_name, kind_text, type_name, type_text. unfold TMPZ, TMPQ, TMPFR, TINT, TDBL, KCSC, KTRIP, KDENSE in *.
  split; repeat match goal with |- context [if ?c then _ else _] => destruct c eqn:? end; auto; lia.
Qed.
Lemma head_out E A level : e_printf E = true -> 2 <= level -> matrix_check true (Some A) = Ok tt -> p_out (head1 E A (nnz A) (mkP level 0 None 0 [])) = heading A.
Proof.
  intros PF L H. destruct (@names_ok A H) as [N1 N2]. assert (P2 : (level >=? 2) = true) by (apply Z.geb_le; lia).
  unfold heading. rewrite <- N1, <- N2. unfold head1, say2, put, call. cbn [p_pr]. rewrite P2, PF. cbn [p_pr]. rewrite P2. cbn [p_pr]. rewrite P2. auto.
Qed.
Lemma say2_lines E s l : p_lines (say2 E l s) = p_lines s. Proof. unfold say2. destruct (_ >=? _); auto using put_lines. Qed.
Lemma head1_lines E A nz s : p_lines (head1 E A nz s) = p_lines s.
Proof. unfold head1. destruct (_ >=? _); rewrite ?say2_lines; auto. unfold call. cbn [p_lines]. rewrite !say2_lines. auto. Qed.
Lemma nnz_of E level A : (forall k, e_asprintf E k = None) -> has_values A -> matrix_check true (Some A) = Ok tt ->
  check_body E (Some A) (init level) = Ok (emits E (m_type A) (m_x A) (head1 E A (nnz A) (init level)) (events A (nnz A)), inl tt) /\
  flat_map (lines_of (m_x A)) (events A (nnz A)) = entries A /\ length (events A (nnz A)) = body_lines (entries A).
Proof.
  intros AP HV H. pose proof (@body_run E level A (or_intror (conj AP HV))) as R. rewrite H in R. destruct R as (nz & N & R).
  assert (NZ : 0 <= nz). { revert H. unfold matrix_check. cbn [negb]. rewrite N. cbn [bind]. destruct (Z.ltb_spec nz 0); auto. discriminate. }
  destruct (events_lines A N NZ) as (-> & FE & LE). auto.
Qed.

Theorem C88_listing : forall E level A,
  e_printf E = true -> (forall k, e_asprintf E k = None) -> has_values A -> matrix_check true (Some A) = Ok tt ->
  3 <= level \/ (level = 2 /\ (body_lines (entries A) <= 30)%nat) ->
  matrix_check_print E level true (Some A) = Ok (listing A, inl tt).
Proof.
  intros E level A PF AP HV H L. unfold matrix_check_print. cbn [negb]. destruct (@nnz_of E level A AP HV H) as (R & FE & LE).
  unfold init in R. rewrite R. cbn [bind fst snd]. do 2 f_equal.
  destruct (@emits_loud E (m_type A) (m_x A) (events A (nnz A)) PF (head1 E A (nnz A) (mkP level 0 None 0 []))) as [O _].
  { rewrite head1_pr, head1_lines. cbn [p_pr p_lines]. lia. }
  rewrite O, FE, head_out by (auto; lia). reflexivity.
Qed.

(* level 2 and more than 30 lines: the first 30, and dots *)
Lemma emits_hush E t x l : forall s, p_pr s <= 1 -> p_out (emits E t x s l) = p_out s.
Proof. intros s H. rewrite emits_out by auto. auto. Qed.
Lemma starts_of x A e l : events A (nnz A) = l -> In e l -> exists h r, lines_of x e = h :: r /\ starts_line h = true.
Proof.
  intros <-. unfold events, csc_events, trip_events, dense_events. destruct (_ =? KCSC); [|destruct (_ =? KTRIP)]; intros H; apply in_flat_map in H; destruct H as (j & _ & H).
  - destruct H as [<-|H]; [cbn; eauto|]. apply in_flat_map in H. destruct H as (p & _ & [<-|[]]). cbn; eauto.
  - destruct H as [<-|[]]. cbn; eauto.
  - destruct H as [<-|H]; [cbn; eauto|]. apply in_flat_map in H. destruct H as (p & _ & [<-|[]]). cbn; eauto.
Qed.
Theorem C88_truncated : forall E A,
  e_printf E = true -> (forall k, e_asprintf E k = None) -> has_values A -> matrix_check true (Some A) = Ok tt -> (30 < body_lines (entries A))%nat ->
  exists shown l rest, entries A = shown ++ l :: rest /\ body_lines shown = 30%nat /\ starts_line l = true /\
    matrix_check_print E 2 true (Some A) = Ok (heading A ++ shown ++ [LDots], inl tt).
Proof.
  intros E A PF AP HV H L. unfold matrix_check_print. cbn [negb]. destruct (@nnz_of E 2 A AP HV H) as (R & FE & LE).
  unfold init in R. rewrite R. cbn [bind fst snd]. set (l := events A (nnz A)) in *.
  assert (F30 : length (firstn 30 l) = 30%nat) by (rewrite firstn_length; lia).
  destruct (skipn 30 l) as [|e t] eqn:SK. { apply (f_equal (@length event)) in SK. rewrite skipn_length in SK. cbn in SK. lia. }
  assert (EL : l = firstn 30 l ++ e :: t) by (rewrite <- SK; symmetry; apply firstn_skipn).
  assert (IE : In e l) by (rewrite EL; apply in_or_app; right; left; auto).
  destruct (@starts_of (m_x A) A e l eq_refl IE) as (h & r & LH & SH).
  exists (flat_map (lines_of (m_x A)) (firstn 30 l)), h, (r ++ flat_map (lines_of (m_x A)) t).
  split. { rewrite <- FE, EL at 1. rewrite flat_map_app. cbn [flat_map]. rewrite LH. reflexivity. }
  split.
  { assert (B : forall k, (forall e, In e k -> exists h r, lines_of (m_x A) e = h :: r /\ starts_line h = true) -> body_lines (flat_map (lines_of (m_x A)) k) = length k).
    { induction k as [|a k IH]; intros HK; auto. cbn [flat_map length]. unfold body_lines. rewrite filter_app, app_length. fold (body_lines (flat_map (lines_of (m_x A)) k)).
      rewrite IH by (intros; apply HK; right; auto). destruct (HK a (or_introl eq_refl)) as (h0 & r0 & E0 & S0). destruct a; cbn [lines_of] in *; injection E0 as <- <-; cbn [filter]; rewrite ?S0; cbn; auto. }
    rewrite B; auto. intros a Ha. apply (@starts_of (m_x A) A a l eq_refl). rewrite EL. apply in_or_app. auto. }
  split; [exact SH|]. do 2 f_equal.
  transitivity (p_out (emits E (m_type A) (m_x A) (head1 E A (nnz A) (mkP 2 0 None 0 [])) (firstn 30 l ++ e :: t))). { rewrite <- EL. reflexivity. }
  rewrite emits_app.
  set (s0 := head1 E A (nnz A) (mkP 2 0 None 0 [])).
  destruct (@emits_loud E (m_type A) (m_x A) (firstn 30 l) PF s0) as (O & OP & OL).
  { unfold s0. rewrite head1_pr, head1_lines, F30. cbn. lia. }
  set (s1 := emits E (m_type A) (m_x A) s0 (firstn 30 l)) in *.
  assert (P1 : p_pr s1 = 2) by (rewrite OP; unfold s0; rewrite head1_pr; auto). assert (L1 : p_lines s1 = 30) by (rewrite OL, F30; unfold s0; rewrite head1_lines; auto).
  assert (LM : p_pr (lim1 E s1) = 1 /\ p_out (lim1 E s1) = p_out s1 ++ [LDots]).
  { unfold lim1. cbn [p_pr p_lines]. rewrite P1, L1. change ((2 =? 2) && (30 + 1 >? 30)) with true. cbv iota zeta. cbn [p_pr p_out]. rewrite out_put by auto. auto. }
  destruct LM as [M1 M2].
  assert (Q : p_pr (emit E (m_type A) (m_x A) s1 e) = 1 /\ p_out (emit E (m_type A) (m_x A) s1 e) = p_out s1 ++ [LDots]).
  { assert (S2 : forall g, p_pr (say2 E g (lim1 E s1)) = 1 /\ p_out (say2 E g (lim1 E s1)) = p_out s1 ++ [LDots]). { intros g. unfold say2. rewrite M1. auto. }
    destruct e as [j|g p]; cbn [emit]; [apply S2|]. rewrite P1. change (2 >=? 2) with true. cbv iota. rewrite val1_pr. split; [apply S2|].
    unfold val1, say2 at 1 3. unfold call. cbn [p_pr p_out]. destruct (S2 g) as [-> S3]. change (1 >=? 2) with false. cbv iota. destruct (_ <=? _); auto. }
  destruct Q as [Q1 Q2]. cbn [emits fold_left]. fold (emits E (m_type A) (m_x A) (emit E (m_type A) (m_x A) s1 e) t). rewrite emits_hush by lia. rewrite Q2, O.
  unfold s0. rewrite head_out by (auto; lia). rewrite <- app_assoc. reflexivity.
Qed.

(* level 2: never more than 30 lines *)
Definition few (s : pst) : Prop :=
  (p_pr s = 2 /\ Z.of_nat (body_lines (p_out s)) <= p_lines s <= 30) \/ (p_pr s <= 1 /\ Z.of_nat (body_lines (p_out s)) <= 30).
Lemma body_app a b : body_lines (a ++ b) = (body_lines a + body_lines b)%nat.
Proof. unfold body_lines. rewrite filter_app, app_length. auto. Qed.
Lemma few_put_other E s l : starts_line l = false -> few s -> few (put E s l).
Proof. intros H. unfold few, put. destruct (e_printf E); auto. cbn [p_pr p_lines p_out]. rewrite body_app.
  replace (body_lines [l]) with O. rewrite Nat.add_0_r. auto. unfold body_lines. cbn [filter]. rewrite H. auto. Qed.
Lemma few_say2_other E s l : starts_line l = false -> few s -> few (say2 E l s).
Proof. intros. unfold say2. destruct (_ >=? _); auto using few_put_other. Qed.
Lemma few_line E s h : few s -> few (say2 E h (lim1 E s)).
Proof.
  intros H. unfold lim1. cbn. destruct (Z.eqb_spec (p_pr s) 2) as [P|P]; cbn [andb].
  - destruct (Z.gtb_spec (p_lines s + 1) 30); unfold say2; cbn [p_pr].
    + change (1 >=? 2) with false. cbv iota. right. cbn [p_pr p_out]. split; [lia|]. destruct H as [[_ H]|[H _]]; [|lia]. unfold put. destruct (e_printf E); cbn [p_out]; [|lia].
      rewrite body_app. change (body_lines [LDots]) with O. lia.
    + rewrite P. cbn [Z.geb Z.compare Pos.compare Pos.compare_cont]. destruct H as [[_ H]|[H _]]; [|lia]. unfold few, put.
      destruct (e_printf E); cbn [p_pr p_lines p_out]; left; (split; [auto|]); [|lia]. rewrite body_app.
      assert (body_lines [h] <= 1)%nat by (unfold body_lines; cbn [filter]; destruct (starts_line h); cbn; lia). lia.
  - destruct H as [[H _]|[H1 H2]]; [contradiction|]. unfold say2. cbn [p_pr]. destruct (Z.geb_spec (p_pr s) 2); [lia|]. right. auto.
Qed.
Lemma few_emits E t x l : forall s, few s -> few (emits E t x s l).
Proof.
  induction l as [|e l IH]; intros s F; cbn [emits fold_left]; auto. apply IH. destruct e as [j|h p]; cbn [emit]. apply few_line; auto.
  destruct (_ >=? _); auto. unfold val1. apply few_line with (E := E) (h := h) in F. destruct (_ <=? _); apply few_say2_other; auto.
Qed.
Theorem C88_limit : forall E A v out,
  (forall M, A = Some M -> print_ok E 2 M) -> matrix_check true A = verdict v ->
  matrix_check_print E 2 true A = Ok (out, v) -> (body_lines out <= 30)%nat.
Proof.
  intros E A v out PO H R0. unfold matrix_check_print in R0. cbn [negb] in R0.
  destruct A as [M|]. 2: { cbn in R0. injection R0 as <- _. unfold put. destruct (e_printf E); cbn; lia. }
  pose proof (@body_run E 2 M (PO M eq_refl)) as R. rewrite H in R. unfold init in R.
  assert (F0 : few (mkP 2 0 None 0 [])) by (left; cbn; lia).
  assert (F1 : forall nz, few (head1 E M nz (mkP 2 0 None 0 []))).
  { intros nz. unfold head1. destruct (_ >=? _); repeat apply few_say2_other; auto. }
  assert (FF : forall s, few s -> (body_lines (p_out s) <= 30)%nat) by (intros s [[_ ?]|[_ ?]]; lia).
  destruct v as [[]|e]; cbn [verdict outcome] in R.
  - destruct R as (nz & _ & R). rewrite R in R0. cbn [bind fst snd] in R0. injection R0 as <-. apply FF, few_emits, F1.
  - destruct R as (-> & s1 & evs & msg & HX & S1 & R). rewrite R in R0. cbn [bind fst snd] in R0. injection R0 as <-. apply FF.
    unfold say1. assert (F : few (emits E (m_type M) (m_x M) s1 evs)) by (apply few_emits; destruct S1 as [->|[nz ->]]; auto).
    destruct (_ >=? _); auto using few_put_other.
Qed.

(* printing is memory safe where the checks are and the values are there *)
Theorem C88_memory_safe : forall E level inited A,
  (forall M, A = Some M -> check_storage M /\ has_values M) -> (forall k, e_asprintf E k = None) ->
  exists out v, matrix_check_print E level inited A = Ok (out, v).
Proof.
  intros E level inited A HM AP. assert (PO : forall M, A = Some M -> print_ok E level M) by (intros M HA; right; split; auto; apply HM; auto).
  destruct (@C32_check_safe inited A) as [C|[C|[-> C]]]. intros M HA. apply HM; auto.
  - destruct (@C88_same_verdict E level inited A (inl tt) PO C) as [out ->]; eauto.
  - destruct (@C88_same_verdict E level inited A (inr SLIP_INCORRECT_INPUT) PO C) as [out ->]; eauto.
  - destruct (@C88_same_verdict E level false A (inr SLIP_PANIC) PO C) as [out ->]; eauto.
Qed.

Lemma dense_ub E m n type s : 1 <= m -> 1 <= n -> 2 <= p_pr s -> p_lines s = 0 -> print_dense E m n type None s = UB.
Proof.
  intros Hm Hn HP HL. unfold print_dense, pfor. destruct (Z.to_nat (n - 0)) as [|c] eqn:C; [lia|]. cbn [ploop]. unfold pbind at 1 2. rewrite limit_eq.
  assert (L : lim1 E s = mkP (p_pr s) 1 (p_status s) (p_calls s) (p_out s)). { unfold lim1. rewrite HL. cbn. rewrite andb_false_r. auto. }
  rewrite L. unfold pbind at 1, say at 1. cbn [p_pr]. destruct (Z.geb_spec (p_pr s) 2) as [_|]; [|lia].
  set (s1 := put E _ _). assert (P1 : p_pr s1 = p_pr s) by (unfold s1; rewrite put_pr; auto). assert (L1 : p_lines s1 = 1) by (unfold s1; rewrite put_lines; auto).
  destruct (Z.to_nat (m - 0)) as [|d] eqn:D; [lia|]. cbn [ploop]. unfold pbind at 1. unfold print_entry at 1. rewrite P1. destruct (Z.geb_spec (p_pr s) 2) as [_|]; [|lia].
  unfold pbind at 1. rewrite limit_eq.
  assert (L2 : lim1 E s1 = mkP (p_pr s1) 2 (p_status s1) (p_calls s1) (p_out s1)). { unfold lim1. rewrite L1. cbn. rewrite andb_false_r. auto. }
  rewrite L2. unfold pbind at 1, say at 1. cbn [p_pr]. destruct (Z.geb_spec (p_pr s1) 2) as [_|]; [|lia]. unfold pbind at 1. unfold print_value. destruct (type <=? TMPFR); auto.
  rewrite put_pr. cbn [p_pr]. destruct (Z.geb_spec (p_pr s1) 2) as [_|]; [|lia]. auto.
Qed.
(* Beyond that the level matters: a dense matrix without values passes the check silently and is dereferenced when printed, *)
Theorem C88_missing_values_refuted : forall E m n type scale level,
  1 <= m -> 1 <= n -> is_type type -> (forall k, e_asprintf E k = None) ->
  matrix_check_print E level true (Some (mkM m n 0 0 KDENSE type None None None None scale)) =
    if level >=? 2 then UB else Ok ([], inl tt).
Proof.
  intros E m n type scale level Hm Hn Ht AP. set (A := mkM _ _ _ _ _ _ _ _ _ _ _).
  assert (C : matrix_check true (Some A) = Ok tt).
  { unfold matrix_check, matrix_nnz, A. cbn. destruct (Z.ltb_spec m 0); [lia|]. destruct (Z.ltb_spec n 0); [lia|]. cbn. destruct (Z.ltb_spec (m * n) 0); [nia|]. cbn.
    destruct Ht as [T1 T2]. unfold TMPZ, TDBL in *. destruct (Z.ltb_spec type 0); [lia|]. destruct (Z.gtb_spec type 4); [lia|]. auto. }
  destruct (Z.geb_spec level 2) as [L|L].
  - unfold matrix_check_print, check_body. cbn [negb]. fold (init level).
    assert (N : matrix_nnz true (Some A) = Ok (m * n)).
    { unfold matrix_nnz, A. cbn. destruct (Z.ltb_spec m 0); [lia|]. destruct (Z.ltb_spec n 0); [lia|]. auto. }
    rewrite N. unfold pbind at 1, lift at 1. cbv zeta.
    destruct (Z.ltb_spec (m * n) 0); [nia|]. destruct (Z.ltb_spec (m_m A) 0) as [X|_]; [cbn in X; lia|]. destruct (Z.ltb_spec (m_n A) 0) as [X|_]; [cbn in X; lia|].
    change (m_nzmax A <? 0) with false. cbv iota. destruct Ht as [T1 T2].
    destruct (Z.ltb_spec (m_type A) TMPZ) as [X|_]; [cbn [A m_type] in X; lia|]. destruct (Z.gtb_spec (m_type A) TDBL) as [X|_]; [cbn [A m_type] in X; lia|]. cbn [orb].
    match goal with |- context [pbind ?a (fun _ => pbind ?b (fun _ => ?c)) (init level)] => rewrite <- (passoc a (fun _ => b) (fun _ => c)) end.
    unfold pbind at 1.
    rewrite (@head1_eq E A (m * n) (init level)) by (split; auto). change (m_kind A =? KCSC) with false. change (m_kind A =? KTRIP) with false. cbv iota. change (m_x A) with (@None vals). change (m_nzmax A >? 0) with false. cbv iota.
    rewrite dense_ub; auto. rewrite head1_pr. auto. rewrite head1_lines. auto.
  - destruct (Z.le_gt_cases level 0). apply C88_quiet with (v := inl tt); auto. 
    unfold matrix_check_print. cbn [negb]. assert (PO : print_ok E level A) by (left; lia). pose proof (@body_run E level A PO) as R. rewrite C in R. cbn [outcome] in R.
    destruct R as (nz & _ & R). rewrite head_quiet in R by lia. unfold init in R. rewrite R. cbn [bind fst snd].
    rewrite emits_out by (cbn; lia). auto.
Qed.
(* and a valid matrix is reported as incorrect when a string cannot be allocated (the third one here) *)
Theorem C88_print_failure_refuted :
  let E := mkE true (fun k => if Nat.eqb k 2 then Some SLIP_OUT_OF_MEMORY else None) in
  let A := mkM 2 2 3 0 KCSC TMPZ (Some [0; 2; 3]) (Some [1; 0; 0]) None (Some (VZ [5; 7; -2])) 1%Q in
  matrix_check true (Some A) = Ok tt /\ matrix_check_print E 1 true (Some A) = Ok ([], inl tt) /\
  matrix_check_print E 2 true (Some A) =
    Ok ([LHead 2 2 3 3 "CSC" "MPZ"; LScaleOf; LScale 1%Q; LCol 0; LRow 1; LVal (PZ 5); LRow 0; LStatus SLIP_OUT_OF_MEMORY], inr SLIP_OUT_OF_MEMORY).
Proof. repeat split. Qed.

Definition okE : penv := mkE true (fun _ => None).
Definition exP : matrix := mkM 2 3 3 0 KCSC TDBL (Some [0; 2; 2; 3]) (Some [1; 0; 1]) None (Some (VD [FFin 5 0; FFin 7 (-1); FFin (-2) 0])) (3 # 2).
Example C88_ex : matrix_check_print okE 2 true (Some exP) = Ok (listing exP, inl tt) /\
  listing exP = [LHead 2 3 3 3 "CSC" "double"; LScaleOf; LScale (3 # 2); LCol 0; LRow 1; LVal (PD (FFin 5 0)); LRow 0; LVal (PD (FFin 7 (-1)));
                 LCol 1; LCol 2; LRow 1; LVal (PD (FFin (-2) 0))].
Proof.
  split; [|reflexivity]. apply C88_listing; try reflexivity. repeat split; try discriminate. intros _ i [= <-]. vm_compute. discriminate.
  right. split; [reflexivity|]. vm_compute. lia.
Qed.
Example C88_ex_dup : matrix_check_print okE 3 true (Some (mkM 2 3 3 0 KCSC TINT (Some [0; 2; 2; 3]) (Some [1; 1; 1]) None (Some (VI [5; 7; -2])) 1%Q)) =
  Ok ([LHead 2 3 3 3 "CSC" "int64"; LScaleOf; LScale 1%Q; LCol 0; LRow 1; LVal (PI 5); LMsg (MDup 1 0)], inr SLIP_INCORRECT_INPUT).
Proof. reflexivity. Qed.
Example C88_ex_long : exists out, matrix_check_print okE 2 true (Some (mkM 40 1 40 0 KDENSE TINT None None None (Some (VI (mk 40 7))) 1%Q)) = Ok (out, inl tt) /\
  body_lines out = 30%nat /\ last out LScaleOf = LDots.
Proof. eexists. split; [vm_compute; reflexivity|]. split; reflexivity. Qed.
Example C88_ex_truncated : exists shown l rest, let A := mkM 40 1 40 0 KDENSE TINT None None None (Some (VI (mk 40 7))) 1%Q in
  entries A = shown ++ l :: rest /\ body_lines shown = 30%nat /\ starts_line l = true /\ matrix_check_print okE 2 true (Some A) = Ok (heading A ++ shown ++ [LDots], inl tt).
Proof.
  apply C88_truncated; try reflexivity.
  - repeat split; try discriminate.
  - vm_compute. lia.
Qed.
Example C88_ex_message : exists before msg,
  matrix_check_print okE 2 true (Some (mkM 2 3 3 3 KTRIP TINT None (Some [1; 0; 1]) (Some [2; 1; 2]) (Some (VI [5; 7; -2])) 1%Q)) = Ok (before ++ [LMsg msg], inr SLIP_INCORRECT_INPUT) /\
  msg = MDupT 1 2.
Proof.
  destruct (@C88_message_true okE 2 (mkM 2 3 3 3 KTRIP TINT None (Some [1; 0; 1]) (Some [2; 1; 2]) (Some (VI [5; 7; -2])) 1%Q) eq_refl ltac:(lia)) as (b & msg & E & X).
  - right. repeat split; try discriminate. intros _ i [= <-]. vm_compute. discriminate.
  - reflexivity.
  - exists b, msg. split; [exact E|]. vm_compute in E. injection E as E.
    do 10 (destruct b; [cbn in E; congruence|]; cbn in E; first [injection E as _ E|discriminate E]).
    destruct b; discriminate E.
Qed.
