(* What SLIP_matrix_check prints: the checks do not depend on the printing (MPrint.v, MMatrix.v). *)
From Coq Require Import String Permutation.
From Verif Require Import Base MFactor MSolve MMatrix MPrint PrintSpec PCopy PCheck.
Set Implicit Arguments.
Open Scope Z_scope.

(* what the loops print: the start of a column, or an entry with the index of its value *)
Inductive event := ECol (j : Z) | EEnt (head : line) (p : Z).

Section Run.
Variables (E : penv) (type : Z) (x : option vals) (Pm : message -> Prop).

Definition vrd (p : Z) : value := val_at x p.
Lemma vget_val p v : vget type x p = Ok v -> v = vrd p.
Proof.
  unfold vget, vrd, val_at. destruct x as [w|]; [|discriminate]. destruct (negb _); [discriminate|].
  assert (N : forall A (d : A) l a, get l p = Ok a -> a = nth (Z.to_nat p) l d).
  { intros A d l a. unfold get. destruct (p <? 0); [discriminate|]. destruct (nth_error l (Z.to_nat p)) eqn:H; [|discriminate].
    intros [= <-]. symmetry. apply nth_error_nth. auto. }
  destruct w as [l|l|l|l|l]; destruct (get l p) eqn:G; cbn [bind]; intros [= <-]; f_equal; apply N; auto.
Qed.
Definition lim1 (s : pst) : pst :=
  let s := mkP (p_pr s) (p_lines s + 1) (p_status s) (p_calls s) (p_out s) in
  if (p_pr s =? 2) && (p_lines s >? 30) then let s := put E s LDots in mkP 1 (p_lines s) (p_status s) (p_calls s) (p_out s) else s.
Definition say2 (l : line) (s : pst) : pst := if p_pr s >=? 2 then put E s l else s.
Definition say1 (l : line) (s : pst) : pst := if p_pr s >=? 1 then put E s l else s.
Definition call (s : pst) : pst := mkP (p_pr s) (p_lines s) None (S (p_calls s)) (p_out s).
Definition val1 (p : Z) (s : pst) : pst :=
  if type <=? TMPFR then say2 (LVal (vrd p)) (call s) else say2 (LVal (vrd p)) s.
Definition emit (s : pst) (e : event) : pst :=
  match e with
  | ECol j => say2 (LCol j) (lim1 s)
  | EEnt head p => if p_pr s >=? 2 then val1 p (say2 head (lim1 s)) else s
  end.
Definition emits (s : pst) (l : list event) : pst := fold_left emit l s.

Definition good (s : pst) : Prop := p_status s = None /\ (p_pr s <= 1 \/ forall k, e_asprintf E k = None).
Definition readable (p : Z) : Prop := exists v, vget type x p = Ok v.
Definition rd_ok (s : pst) (p : Z) : Prop := p_pr s <= 1 \/ readable p.

Lemma put_pr s l : p_pr (put E s l) = p_pr s. Proof. unfold put. destruct (e_printf E); auto. Qed.
Lemma put_st s l : p_status (put E s l) = p_status s. Proof. unfold put. destruct (e_printf E); auto. Qed.
Lemma put_lines s l : p_lines (put E s l) = p_lines s. Proof. unfold put. destruct (e_printf E); auto. Qed.
Lemma say2_pr s l : p_pr (say2 l s) = p_pr s. Proof. unfold say2. destruct (_ >=? _); auto using put_pr. Qed.
Lemma say2_st s l : p_status (say2 l s) = p_status s. Proof. unfold say2. destruct (_ >=? _); auto using put_st. Qed.
Lemma lim1_pr s : p_pr (lim1 s) = p_pr s \/ (p_pr s = 2 /\ p_pr (lim1 s) = 1).
Proof. unfold lim1. cbn. destruct (Z.eqb_spec (p_pr s) 2); cbn; auto. destruct (_ >? _); cbn; auto. Qed.
Lemma lim1_st s : p_status (lim1 s) = p_status s.
Proof. unfold lim1. cbn. destruct (_ && _); cbn; auto. rewrite put_st. auto. Qed.
Lemma limit_eq s : limit E s = Ok (lim1 s, inl tt).
Proof. unfold limit, lim1. cbn. destruct (_ && _); auto. Qed.
Lemma good_le s s' : good s -> p_pr s' <= p_pr s -> p_status s' = None -> good s'.
Proof. intros [_ H] L S. split; auto. destruct H; [left; lia|auto]. Qed.
Lemma lim1_le s : p_pr (lim1 s) <= p_pr s. Proof. destruct (lim1_pr s); lia. Qed.
Lemma val1_pr p s : p_pr (val1 p s) = p_pr s. Proof. unfold val1. destruct (_ <=? _); rewrite say2_pr; auto. Qed.
Lemma emit_le s e : p_pr (emit s e) <= p_pr s.
Proof.
  destruct e; cbn [emit]. rewrite say2_pr. apply lim1_le. destruct (_ >=? _); [|lia]. rewrite val1_pr, say2_pr. apply lim1_le.
Qed.
Lemma emit_st s e : p_status s = None -> p_status (emit s e) = None.
Proof.
  intros H. destruct e; cbn [emit]. rewrite say2_st, lim1_st. auto. destruct (_ >=? _); auto. unfold val1.
  destruct (_ <=? _); rewrite say2_st; auto. rewrite say2_st, lim1_st. auto.
Qed.
Lemma emit_good s e : good s -> good (emit s e).
Proof. intros G. eapply good_le; eauto using emit_le. apply emit_st. apply G. Qed.
Lemma emits_good l : forall s, good s -> good (emits s l).
Proof. induction l as [|e l IH]; intros s G; cbn [emits fold_left]; auto. apply IH. apply emit_good. auto. Qed.
Lemma emits_le l : forall s, p_pr (emits s l) <= p_pr s.
Proof. induction l as [|e l IH]; intros s; cbn [emits fold_left]. lia. etransitivity; [apply IH|apply emit_le]. Qed.
Lemma emits_app s a b : emits s (a ++ b) = emits (emits s a) b.
Proof. apply fold_left_app. Qed.

Lemma print_entry_eq loud head p s : good s -> rd_ok s p -> print_entry E loud head type x p s = Ok (emit s (EEnt head p), inl tt).
Proof.
  intros [G1 G2] R. unfold print_entry. cbn [emit]. destruct (Z.geb_spec (p_pr s) 2) as [H|H]; auto.
  destruct G2 as [G2|G2]; [lia|]. destruct R as [R|[v R]]; [lia|].
  unfold pbind at 1. rewrite limit_eq. unfold pbind at 1. unfold say at 1. fold (say2 head (lim1 s)). unfold pbind at 1.
  set (s1 := say2 head (lim1 s)). assert (S1 : p_status s1 = None) by (unfold s1; rewrite say2_st, lim1_st; auto).
  unfold print_value, val1. rewrite R, <- (vget_val _ R). destruct (type <=? TMPFR).
  - unfold pbind, lift, asprintf. rewrite G2. unfold say. fold (call s1). fold (say2 (LVal v) (call s1)).
    replace (p_status (say2 (LVal v) (call s1))) with (@None info) by (rewrite say2_st; auto). auto.
  - destruct (Z.geb_spec (p_pr s1) 2) as [H1|H1].
    + unfold pbind, lift, say. destruct (Z.geb_spec (p_pr s1) 2); [|lia]. rewrite put_st, S1. unfold say2. destruct (Z.geb_spec (p_pr s1) 2); [auto|lia].
    + rewrite S1. unfold say2. destruct (Z.geb_spec (p_pr s1) 2); [lia|auto].
Qed.

(* c does what m does, and prints the events F when it goes on *)
Definition agree {A} (pr0 : Z) (m : res A) (F : list event) (c : P A) : Prop :=
  forall s, good s -> p_pr s <= pr0 ->
  match m with
  | Ok a => c s = Ok (emits s F, inl a)
  | Err e => e = SLIP_INCORRECT_INPUT /\ exists evs msg, Pm msg /\ c s = Ok (say1 (LMsg msg) (emits s evs), inr e)
  | _ => True
  end.

Lemma agree_bind A B pr0 (m : res A) F1 c (k : A -> res B) F2 k' :
  agree pr0 m F1 c -> (forall a, m = Ok a -> agree pr0 (k a) F2 (k' a)) -> agree pr0 (bind m k) (F1 ++ F2) (pbind c k').
Proof.
  intros H1 H2 s G L. specialize (H1 s G L). unfold pbind. destruct m as [a|e| |]; cbn; auto.
  - rewrite H1. specialize (H2 a eq_refl (emits s F1) (emits_good _ G)). rewrite emits_app.
    assert (L' : p_pr (emits s F1) <= pr0) by (pose proof (emits_le F1 s); lia). specialize (H2 L'). destruct (k a); auto.
    destruct H2 as (-> & evs & msg & HP & ->). split; auto. exists (F1 ++ evs), msg. rewrite emits_app. auto.
  - destruct H1 as (-> & evs & msg & HP & ->). eauto 10.
Qed.
Lemma agree_lift A pr0 (m : res A) : (forall e, m <> Err e) -> agree pr0 m [] (lift m).
Proof. intros H s G L. unfold lift. destruct m; auto. destruct (H e); auto. Qed.
Lemma agree_lok A B pr0 (m : res B) F (a : A) k : agree pr0 m F (k a) -> agree pr0 m F (pbind (lift (Ok a)) k).
Proof. intros H s G L. exact (H s G L). Qed.
Lemma agree_ret A pr0 (a : A) : agree pr0 (Ok a) [] (pret a).
Proof. intros s G L. reflexivity. Qed.
Lemma agree_complain A pr0 F msg : Pm msg -> agree pr0 (@Err A SLIP_INCORRECT_INPUT) F (complain E msg).
Proof. intros HP s G L. split; auto. exists [], msg. split; auto. Qed.
Lemma agree_ub A pr0 F c : agree pr0 (@UB A) F c.
Proof. intros s G L. exact I. Qed.
Lemma agree_entry pr0 loud head p : pr0 <= 1 \/ readable p -> agree pr0 (Ok tt) [EEnt head p] (print_entry E loud head type x p).
Proof. intros R s G L. apply print_entry_eq; auto. destruct R; [left; lia|right; auto]. Qed.
Lemma agree_col pr0 j : agree pr0 (Ok tt) [ECol j] (let+ _ := limit E in say E 2 (LCol j)).
Proof. intros s G L. unfold pbind. rewrite limit_eq. reflexivity. Qed.
Lemma agree_loop S pr0 (f : Z -> list event) (body : Z -> S -> res S) body' (I : Z -> S -> Prop) cnt : forall i w, I i w ->
  (forall j w, i <= j < i + Z.of_nat cnt -> I j w -> agree pr0 (body j w) (f j) (body' j w)) ->
  (forall j w w', i <= j < i + Z.of_nat cnt -> I j w -> body j w = Ok w' -> I (j + 1) w') ->
  agree pr0 (floop cnt i body w) (flat_map f (zseq i (i + Z.of_nat cnt))) (ploop cnt i body' w).
Proof.
  induction cnt as [|c IH]; intros i w H0 H HI; cbn [floop ploop].
  - replace (zseq i (i + Z.of_nat 0)) with (@nil Z). apply agree_ret. unfold zseq. replace (Z.to_nat (i + Z.of_nat 0 - i)) with O by lia. auto.
  - replace (zseq i (i + Z.of_nat (Datatypes.S c))) with (i :: zseq (i + 1) (i + 1 + Z.of_nat c)).
    2: { unfold zseq. replace (Z.to_nat (i + Z.of_nat (Datatypes.S c) - i)) with (Datatypes.S c) by lia.
         replace (Z.to_nat (i + 1 + Z.of_nat c - (i + 1))) with c by lia. cbn [seq map]. f_equal. lia.
         rewrite <- seq_shift, map_map. apply map_ext. intros a. lia. }
    cbn [flat_map]. apply agree_bind. apply H; auto; lia. intros w' Ew. apply IH. apply (HI i w w'); auto; lia. intros j w2 Hj. apply H. lia. intros j w2 w3 Hj. apply HI. lia.
Qed.
Lemma zseq_max lo hi : zseq lo hi = zseq lo (lo + Z.of_nat (Z.to_nat (hi - lo))).
Proof. unfold zseq. f_equal. f_equal. lia. Qed.
Lemma agree_for S pr0 (f : Z -> list event) (body : Z -> S -> res S) body' lo hi w :
  (forall j w, lo <= j < hi -> agree pr0 (body j w) (f j) (body' j w)) ->
  agree pr0 (for_ lo hi body w) (flat_map f (zseq lo hi)) (pfor lo hi body' w).
Proof. intros H. rewrite zseq_max. apply agree_loop with (I := fun _ _ => True); auto. intros j w2 Hj _. apply H. lia. Qed.
Lemma agree_fori S pr0 (f : Z -> list event) (body : Z -> S -> res S) body' (I : Z -> S -> Prop) lo hi w : I lo w ->
  (forall j w, lo <= j < hi -> I j w -> agree pr0 (body j w) (f j) (body' j w)) ->
  (forall j w w', lo <= j < hi -> I j w -> body j w = Ok w' -> I (j + 1) w') ->
  agree pr0 (for_ lo hi body w) (flat_map f (zseq lo hi)) (pfor lo hi body' w).
Proof. intros H0 H HI. rewrite zseq_max. apply agree_loop with (I := I); auto. intros j w2 Hj. apply H. lia. intros j w2 w3 Hj. apply HI. lia. Qed.

(* the result and the printed text when the checks go through *)
Lemma agree_ext A pr0 (m m' : res A) F F' c : agree pr0 m F c -> m = m' -> (forall a, m' = Ok a -> F = F') -> agree pr0 m' F' c.
Proof. intros H <- HF s G L. specialize (H s G L). destruct m; auto. rewrite <- (HF a eq_refl). auto. Qed.
End Run.

Lemma get_val (l : list Z) i v : get l i = Ok v -> v = rd l i.
Proof.
  unfold get, rd. destruct (i <? 0) eqn:N; [discriminate|]. destruct (nth_error l (Z.to_nat i)) eqn:H; [|discriminate].
  intros [= <-]. symmetry. rewrite (nth_error_nth _ _ _ H). auto.
Qed.
Lemma for_inv_max S lo hi (body : Z -> S -> res S) (I : Z -> S -> Prop) s s' :
  I lo s -> (forall i s s', lo <= i < hi -> I i s -> body i s = Ok s' -> I (i + 1) s') -> for_ lo hi body s = Ok s' -> I (Z.max lo hi) s'.
Proof.
  intros H0 HS. destruct (Z_le_gt_dec lo hi). rewrite Z.max_r by lia. apply for_ok_inv; auto. rewrite for_empty, Z.max_l by lia. intros [= <-]. auto.
Qed.
Lemma get_noerr A (l : list A) i e : get l i <> Err e.
Proof. unfold get. destruct (i <? 0); [discriminate|]. destruct (nth_error l (Z.to_nat i)); discriminate. Qed.
Lemma set_noerr A (l : list A) i v e : set l i v <> Err e.
Proof. unfold set. destruct (_ && _); discriminate. Qed.
Lemma get_range A (l : list A) i v : get l i = Ok v -> 0 <= i < zlen l.
Proof.
  unfold get, zlen. destruct (Z.ltb_spec i 0); [discriminate|]. destruct (nth_error l (Z.to_nat i)) eqn:H0; [|discriminate].
  intros _. assert (Z.to_nat i < length l)%nat by (apply nth_error_Some; congruence). lia.
Qed.
Lemma get_some A (l : list A) i : 0 <= i < zlen l -> exists v, get l i = Ok v.
Proof.
  unfold get, zlen. intros H. destruct (Z.ltb_spec i 0); [lia|]. destruct (nth_error l (Z.to_nat i)) eqn:E; [eauto|].
  apply nth_error_None in E. lia.
Qed.
Lemma readable_in type v p : vtype v = type -> 0 <= p < vlen v -> readable type (Some v) p.
Proof.
  intros T H. unfold readable, vget. rewrite T, Z.eqb_refl. cbn [negb]. destruct v as [l|l|l|l|l]; cbn [vlen] in H;
    destruct (get_some l H) as [a ->]; cbn [bind]; eauto.
Qed.
Lemma flat_nil A B (l : list A) : flat_map (fun _ => @nil B) l = [].
Proof. induction l; auto. Qed.
Lemma first_dup_adj l : match first_dup l with Some _ => adj_dup l = true | None => adj_dup l = false end.
Proof.
  induction l as [|a l IH]; cbn; auto. destruct l as [|b l]; auto. rewrite (Z.eqb_sym (fst b)), (Z.eqb_sym (snd b)).
  destruct ((fst a =? fst b) && (snd a =? snd b)); auto.
Qed.

Lemma passoc A B C (a : P A) (b : A -> P B) (c : B -> P C) s : pbind (pbind a b) c s = pbind a (fun u => pbind (b u) c) s.
Proof. unfold pbind. destruct (a s) as [[s' [v|e]]|e| |]; auto. Qed.

Lemma floop_noerr S body cnt : (forall i (w : S) e, body i w <> Err e) -> forall i w e, floop cnt i body w <> Err e.
Proof.
  intros H. induction cnt as [|c IH]; intros i w e; cbn [floop]. discriminate.
  destruct (body i w) eqn:E; cbn [bind]; try discriminate; auto. destruct (H _ _ _ E).
Qed.

Ltac ag := match goal with
  | |- agree _ _ _ _ _ (bind (get _ _) _) _ (pbind (lift _) _) => apply (@agree_bind _ _ _ _ _ _ _ _ []); [apply agree_lift; intros; apply get_noerr|intros ? ?; cbv beta]
  end.

Section Checks.
Variables (E : penv) (type : Z) (x : option vals) (Pm : message -> Prop) (pr0 : Z).

Lemma ptr_agree n nz Ap : (forall c, 0 <= c < n -> rd Ap (c + 1) < rd Ap c \/ nz < rd Ap (c + 1) -> Pm MPtr) ->
  agree E type x Pm pr0 (check_ptr n nz Ap) [] (pcheck_ptr E n nz Ap).
Proof.
  intros HM. eapply agree_ext; [|reflexivity|intros; apply flat_nil]. apply agree_for. intros j w Hj. apply (@agree_bind _ _ _ _ _ _ _ _ [] _ _ []).
  apply agree_lift; intros; apply get_noerr. intros p Gp. apply (@agree_bind _ _ _ _ _ _ _ _ [] _ _ []).
  apply agree_lift; intros; apply get_noerr. intros q Gq. cbv beta. apply get_val in Gp, Gq. subst.
  destruct (Z.ltb_spec (rd Ap (j + 1)) (rd Ap j)); cbn [orb]. apply agree_complain. eapply HM; eauto.
  destruct (Z.gtb_spec (rd Ap (j + 1)) nz). apply agree_complain. eapply HM; eauto. destruct w. apply agree_ret.
Qed.

Definition csc_events (n : Z) (Ap Ai : list Z) : list event :=
  flat_map (fun j => ECol j :: flat_map (fun p => [EEnt (LRow (rd Ai p)) p]) (zseq (rd Ap j) (rd Ap (j + 1)))) (zseq 0 n).
(* the marks: column j leaves no mark above j + 1, and a mark j + 1 comes from an entry of column j *)
Definition marks (j : Z) (work : list Z) : Prop := forall i w, get work i = Ok w -> w <= j.
Definition marks_in (Ai : list Z) (j lo p : Z) (work : list Z) : Prop :=
  lo <= p /\ forall i w, get work i = Ok w -> w <= j \/ (w = j + 1 /\ exists q, lo <= q < p /\ rd Ai q = i).
Lemma get_set A (l l' : list A) i v k w : set l i v = Ok l' -> get l' k = Ok w -> (k = i /\ w = v) \/ get l k = Ok w.
Proof.
  unfold set. destruct ((0 <=? i) && _) eqn:B; [|discriminate]. intros [= <-]. unfold get. destruct (Z.ltb_spec k 0); [discriminate|].
  apply andb_true_iff in B. destruct B as [B1 B2]. destruct (Z.eq_dec k i) as [->|N].
  - intros Q. left. split; auto. revert Q. generalize (Z.to_nat i). clear. revert l. induction l as [|a l IH]; intros [|q]; cbn; try discriminate. intros [= <-]; auto. apply IH.
  - intros Q. right. rewrite <- Q. assert (NN : Z.to_nat k <> Z.to_nat i) by lia. clear - NN. revert NN. generalize (Z.to_nat i), (Z.to_nat k).
    induction l as [|a l IH]; intros [|q] [|r] H; cbn; auto. contradiction.
Qed.
Lemma rows_agree m n Ap Ai : (pr0 <= 1 \/ forall p, 0 <= p < zlen Ai -> readable type x p) ->
  (forall i j p, 0 <= j < n -> rd Ap j <= p < rd Ap (j + 1) -> rd Ai p = i -> i < 0 \/ m <= i -> Pm (MRange i j)) ->
  (forall i j q p, 0 <= j < n -> rd Ap j <= q -> q < p -> p < rd Ap (j + 1) -> rd Ai q = i -> rd Ai p = i -> Pm (MDup i j)) ->
  agree E type x Pm pr0 (check_rows m n Ap Ai) (csc_events n Ap Ai) (pcheck_rows E m n Ap Ai type x).
Proof.
  intros R HR HD.
  assert (STEP : forall j lo p work work', marks_in Ai j lo p work ->
    (let* i := get Ai p in if (i <? 0) || (i >=? m) then Err SLIP_INCORRECT_INPUT
      else let* w := get work i in if w =? j + 1 then Err SLIP_INCORRECT_INPUT else set work i (j + 1)) = Ok work' -> marks_in Ai j lo (p + 1) work').
  { intros j lo p work work' [L M]. destruct (get Ai p) as [i| | |] eqn:Gi; cbn [bind]; try discriminate. apply get_val in Gi. destruct (_ || _); [discriminate|].
    destruct (get work i) as [w| | |]; cbn [bind]; try discriminate. destruct (_ =? _); [discriminate|]. intros S. split; [lia|]. intros k v Gk.
    destruct (@get_set _ _ _ _ _ _ _ S Gk) as [[-> ->]|Gk']. right. split; auto. exists p. split; [lia|auto].
    destruct (M k v Gk') as [H|[H (q & Hq & Eq)]]; [left; auto|right; split; auto; exists q; split; [lia|auto]]. }
  assert (START : forall j lo work, marks j work -> marks_in Ai j lo lo work). { intros j lo work M. split; [lia|]. intros i w G. left. eauto. }
  assert (STOP : forall j lo p work, marks_in Ai j lo p work -> marks (j + 1) work). { intros j lo p work [_ M] i w G. destruct (M i w G) as [H|[H _]]; lia. }
  apply agree_fori with (I := marks).
  { intros i w G. unfold get, mk in G. destruct (i <? 0); [discriminate|]. destruct (nth_error _ _) eqn:Q; [|discriminate]. injection G as <-.
    apply nth_error_In in Q. apply repeat_spec in Q. lia. }
  2: { intros j w w' Hj M. destruct (get Ap j) as [lo| | |]; cbn [bind]; try discriminate. destruct (get Ap (j + 1)) as [hi| | |]; cbn [bind]; try discriminate.
       intros FO. apply (@STOP j lo (Z.max lo hi)). revert FO. apply for_inv_max with (I := marks_in Ai j lo). auto. intros p wk wk' Hp. apply STEP. }
  intros j work Hj M.
  intros s G L.
  assert (H : agree E type x Pm pr0
    (let* lo := get Ap j in let* hi := get Ap (j + 1) in
     for_ lo hi (fun p work => let* i := get Ai p in
      if (i <? 0) || (i >=? m) then Err SLIP_INCORRECT_INPUT
      else let* w := get work i in if w =? j + 1 then Err SLIP_INCORRECT_INPUT else set work i (j + 1)) work)
    (ECol j :: flat_map (fun p => [EEnt (LRow (rd Ai p)) p]) (zseq (rd Ap j) (rd Ap (j + 1))))
    (let+ _ := (let+ _ := limit E in say E 2 (LCol j)) in
     let+ lo := lift (get Ap j) in
     let+ hi := lift (get Ap (j + 1)) in
     pfor lo hi (fun p work =>
      let+ i := lift (get Ai p) in
      if (i <? 0) || (i >=? m) then complain E (MRange i j)
      else let+ w := lift (get work i) in
        if w =? j + 1 then complain E (MDup i j)
        else let+ _ := print_entry E true (LRow i) type x p in lift (set work i (j + 1))) work)).
  { change (ECol j :: ?l) with ([ECol j] ++ l).
    match goal with |- agree _ _ _ _ _ ?m _ _ => change m with (bind (Ok tt) (fun _ => m)) end.
    apply agree_bind; [apply agree_col|]. intros _ _. ag. ag. apply get_val in H. apply get_val in H0. subst.
    apply agree_fori with (I := marks_in Ai j (rd Ap j)); auto. 2: { intros p wk wk' Hp. apply STEP. }
    intros p w Hp MI. ag. rename a into i. pose proof (get_val _ _ H) as VI.
    destruct (Z.ltb_spec i 0) as [I0|I0]; cbn [orb]; [apply agree_complain; eapply HR; eauto|].
    destruct (Z.geb_spec i m) as [I1|I1]; cbn [orb]; [apply agree_complain; eapply HR; eauto|]. ag.
    destruct (Z.eqb_spec a (j + 1)) as [EM|EM]; [apply agree_complain|].
    { destruct MI as [_ MI]. destruct (MI _ _ H0) as [C|[_ (q & Hq & Eq)]]; [lia|]. apply (HD i j q p); auto; lia. }
    rewrite <- VI.
    match goal with |- agree _ _ _ _ _ ?m _ _ => change m with (bind (Ok tt) (fun _ => m)) end.
    apply (@agree_bind _ _ _ _ _ _ _ _ [_] _ _ []).
    - apply agree_entry. destruct R as [R|R]; auto. right. apply R. eapply get_range; eauto.
    - intros _ _. apply agree_lift. intros. apply set_noerr. }
  specialize (H s G L). rewrite passoc in H. exact H.
Qed.

Definition trip_events (nz : Z) (Ti Tj : list Z) : list event := flat_map (fun p => [EEnt (LEnt (rd Ti p) (rd Tj p)) p]) (zseq 0 nz).
Lemma load_in nz Ti Tj w : for_ 0 nz (fun p w => let* j := get Tj p in let* i := get Ti p in Ok (w ++ [(j, i)])) [] = Ok w ->
  forall a b, nth_error w a = Some b -> Z.of_nat a < nz /\ b = (rd Tj (Z.of_nat a), rd Ti (Z.of_nat a)).
Proof.
  intros H. assert (Q : Z.of_nat (length w) = Z.max 0 nz /\ forall a b, nth_error w a = Some b -> b = (rd Tj (Z.of_nat a), rd Ti (Z.of_nat a))).
  { revert H. apply for_inv_max with (I := fun k w => Z.of_nat (length w) = k /\ forall a b, nth_error w a = Some b -> b = (rd Tj (Z.of_nat a), rd Ti (Z.of_nat a))).
    - split; auto. intros [|a] b; discriminate.
    - intros k v v' Hk [L N]. destruct (get Tj k) eqn:G1; cbn [bind]; try discriminate. destruct (get Ti k) eqn:G2; cbn [bind]; try discriminate. intros [= <-].
      apply get_val in G1, G2. rewrite app_length. cbn [length]. split; [lia|]. intros a1 b Hb.
      destruct (Nat.lt_ge_cases a1 (length v)). rewrite nth_error_app1 in Hb by auto. auto.
      rewrite nth_error_app2 in Hb by auto. assert (Ea : a1 = length v). { assert (B : nth_error [(a, a0)] (a1 - length v) <> None) by congruence. apply nth_error_Some in B. cbn in B. lia. }
      rewrite Ea, Nat.sub_diag in Hb. cbn in Hb. injection Hb as <-. rewrite Ea, L. congruence. }
  destruct Q as [L N]. intros a b Hb. split; auto. assert (B : nth_error w a <> None) by congruence. apply nth_error_Some in B. lia.
Qed.
Lemma first_dup_in l b : first_dup l = Some b -> exists u v, l = u ++ b :: b :: v.
Proof.
  induction l as [|a l IH]; cbn; [discriminate|]. destruct l as [|c l]; [discriminate|]. destruct (_ && _) eqn:Q.
  - intros [= <-]. exists [], l. apply andb_true_iff in Q. destruct Q as [Q1 Q2]. apply Z.eqb_eq in Q1, Q2. destruct a, c; cbn in *. subst. auto.
  - intros H. destruct (IH H) as (u & v & ->). exists (a :: u), v. auto.
Qed.
Lemma twice_nth (l : list (Z * Z)) b : forall u v, Permutation l (u ++ b :: b :: v) -> exists p q, (p < q)%nat /\ nth_error l p = Some b /\ nth_error l q = Some b.
Proof.
  intros u v H. assert (IB : In b l) by (eapply Permutation_in; [symmetry; exact H|apply in_or_app; right; left; auto]).
  apply in_split in IB. destruct IB as (l1 & l2 & ->).
  assert (H2 : Permutation (l1 ++ l2) (u ++ b :: v)). { apply (Permutation_app_inv l1 l2 u (b :: v) b). exact H. }
  assert (IB : In b (l1 ++ l2)) by (eapply Permutation_in; [symmetry; exact H2|apply in_or_app; right; left; auto]).
  apply in_app_or in IB. destruct IB as [IB|IB]; apply In_nth_error in IB; destruct IB as [k Hk]; idtac.
  - assert (B : (k < length l1)%nat) by (apply nth_error_Some; congruence). exists k, (length l1). split; auto. split. rewrite nth_error_app1; auto. rewrite nth_error_app2, Nat.sub_diag; auto.
  - exists (length l1), (length l1 + S k)%nat. split; [lia|]. split. rewrite nth_error_app2, Nat.sub_diag; auto. rewrite nth_error_app2 by lia.
    replace (length l1 + S k - length l1)%nat with (S k) by lia. auto.
Qed.
Lemma trip_agree m n nz Ti Tj : (pr0 <= 1 \/ forall p, 0 <= p < zlen Ti -> readable type x p) ->
  (forall p, 0 <= p < nz -> rd Ti p < 0 \/ m <= rd Ti p \/ rd Tj p < 0 \/ n <= rd Tj p -> Pm MIndex) ->
  (forall i j p q, 0 <= p -> p < q -> q < nz -> rd Ti p = i -> rd Tj p = j -> rd Ti q = i -> rd Tj q = j -> Pm (MDupT i j)) ->
  agree E type x Pm pr0 (check_trip m n nz Ti Tj) (trip_events nz Ti Tj) (pcheck_trip E m n nz Ti Tj type x).
Proof.
  intros R HI HD. rewrite <- (app_nil_r (trip_events _ _ _)). apply agree_bind.
  - apply agree_for. intros p w Hp. ag. ag. pose proof (get_val _ _ H) as V1. pose proof (get_val _ _ H0) as V2.
    destruct ((a <? 0) || (a >=? m) || (a0 <? 0) || (a0 >=? n)) eqn:B.
    { apply agree_complain. apply (HI p Hp). rewrite <- V1, <- V2. apply orb_true_iff in B. destruct B as [B|B]; [apply orb_true_iff in B; destruct B as [B|B]; [apply orb_true_iff in B; destruct B as [B|B]|]|]; lia. }
    rewrite <- V1, <- V2. apply agree_entry. destruct R as [R|R]; auto. right. apply R. eapply get_range; eauto.
  - intros _ _. apply (@agree_bind _ _ _ _ _ _ _ _ []).
    + apply agree_lift. intros e. apply floop_noerr. intros i w e' H. destruct (get Tj i) eqn:E1; cbn [bind] in H; try discriminate. 2: { eapply get_noerr; eauto. }
      destruct (get Ti i) eqn:E2; cbn [bind] in H; try discriminate. eapply get_noerr; eauto.
    + intros w Ew. cbv beta. pose proof (first_dup_adj (sort_p w)) as D. destruct (first_dup (sort_p w)) as [[j i]|] eqn:FD; rewrite D; [apply agree_complain|apply agree_ret].
      apply first_dup_in in FD. destruct FD as (u & v & FD). pose proof (sort_perm w) as PW. rewrite FD in PW. apply twice_nth in PW. destruct PW as (p & q & L & N1 & N2).
      apply (@load_in _ _ _ _ Ew) in N1, N2. destruct N1 as [L1 N1], N2 as [L2 N2]. injection N1 as N1 N1'. injection N2 as N2 N2'.
      apply (HD i j (Z.of_nat p) (Z.of_nat q)); auto; lia.
Qed.

Definition dense_events (m n : Z) : list event :=
  flat_map (fun j => ECol j :: flat_map (fun i => [EEnt (LRow i) (ix m i j)]) (zseq 0 m)) (zseq 0 n).
Lemma dense_agree m n : (pr0 <= 1 \/ forall p, 0 <= p < m * n -> readable type x p) ->
  agree E type x Pm pr0 (Ok tt) (dense_events m n) (print_dense E m n type x).
Proof.
  intros R.
  assert (Z0 : forall k lo (u : unit), floop k lo (fun _ (_ : unit) => Ok tt) u = Ok tt).
  { induction k; intros lo u; cbn; auto. destruct u; auto. }
  assert (Z1 : forall lo hi (u : unit), for_ lo hi (fun _ (_ : unit) => Ok tt) u = Ok tt) by (intros; apply Z0).
  rewrite <- (Z1 0 n tt). apply agree_for. intros j w Hj. intros s G L.
  assert (H : agree E type x Pm pr0 (Ok tt) ([ECol j] ++ flat_map (fun i => [EEnt (LRow i) (ix m i j)]) (zseq 0 m))
     (let+ _ := (let+ _ := limit E in say E 2 (LCol j)) in pfor 0 m (fun i (_ : unit) => print_entry E false (LRow i) type x (ix m i j)) tt)).
  { change (Ok tt) with (bind (Ok tt) (fun _ => Ok tt)). apply agree_bind; [apply agree_col|]. intros _ _.
    rewrite <- (Z1 0 m tt). apply agree_for. intros i u Hi. apply agree_entry. destruct R as [R|R]; auto. right. apply R. unfold ix. nia. }
  specialize (H s G L). rewrite passoc in H. exact H.
Qed.
End Checks.

(* the whole function *)
Definition init (level : Z) : pst := mkP level 0 None O [].
Definition head1 (E : penv) (A : matrix) (nz : Z) (s : pst) : pst :=
  let s := say2 E (LHead (m_m A) (m_n A) nz (m_nzmax A) (kind_name (m_kind A)) (type_name (m_type A))) s in
  if p_pr s >=? 2 then say2 E (LScale (m_scale A)) (call (say2 E LScaleOf s)) else s.
Definition events (A : matrix) (nz : Z) : list event :=
  if m_kind A =? KCSC then csc_events (m_n A) (arr (m_p A)) (arr (m_i A))
  else if m_kind A =? KTRIP then trip_events nz (arr (m_i A)) (arr (m_j A))
  else dense_events (m_m A) (m_n A).
Lemma head1_eq E A nz s : good E s ->
  (let+ _ := say E 2 (LHead (m_m A) (m_n A) nz (m_nzmax A) (kind_name (m_kind A)) (type_name (m_type A))) in
   fun s => if p_pr s >=? 2 then (let+ _ := say E 2 LScaleOf in asprintf E (LScale (m_scale A))) s else Ok (s, inl tt)) s = Ok (head1 E A nz s, inl tt).
Proof.
  intros [G1 G2]. unfold pbind at 1, say at 1. unfold head1. fold (say2 E (LHead (m_m A) (m_n A) nz (m_nzmax A) (kind_name (m_kind A)) (type_name (m_type A))) s).
  set (s1 := say2 E _ s). assert (P1 : p_pr s1 = p_pr s) by apply say2_pr.
  destruct (Z.geb_spec (p_pr s1) 2) as [H|H]; auto. destruct G2 as [G2|G2]; [lia|].
  unfold pbind, say at 1. fold (say2 E LScaleOf s1). unfold asprintf. rewrite G2. reflexivity.
Qed.
Lemma head1_pr E A nz s : p_pr (head1 E A nz s) = p_pr s.
Proof. unfold head1. destruct (_ >=? _). rewrite say2_pr. unfold call. cbn [p_pr]. rewrite !say2_pr. auto. rewrite say2_pr. auto. Qed.
Lemma head1_st E A nz s : p_status s = None -> p_status (head1 E A nz s) = None.
Proof. intros H. unfold head1. destruct (_ >=? _). rewrite say2_st. auto. rewrite say2_st. auto. Qed.

Definition outcome (E : penv) (level : Z) (A : matrix) (r : res unit) (c : res (pst * (unit + info))) : Prop :=
  match r with
  | Ok _ => exists nz, matrix_nnz true (Some A) = Ok nz /\ c = Ok (emits E (m_type A) (m_x A) (head1 E A nz (init level)) (events A nz), inl tt)
  | Err e => e = SLIP_INCORRECT_INPUT /\ exists s1 evs msg, explains A msg /\
      (s1 = init level \/ exists nz, s1 = head1 E A nz (init level)) /\ c = Ok (say1 E (LMsg msg) (emits E (m_type A) (m_x A) s1 evs), inr e)
  | _ => True
  end.

Theorem body_run E level A : print_ok E level A -> outcome E level A (matrix_check true (Some A)) (check_body E (Some A) (init level)).
Proof.
  intros PO. unfold matrix_check, check_body. cbn [negb].
  assert (G0 : good E (init level)). { split; auto. destruct PO as [PO|[PO _]]; auto. }
  assert (NE : forall e, matrix_nnz true (Some A) <> Err e).
  { intros e. unfold matrix_nnz. cbn [negb]. destruct (_ =? _). destruct (m_p A); [|discriminate]. destruct (_ <? _); [discriminate|]. apply get_noerr.
    destruct (_ =? _); [discriminate|]. destruct (_ =? _); discriminate. }
  unfold pbind at 1, lift at 1. destruct (matrix_nnz true (Some A)) as [nz|e| |] eqn:N; cbn [bind]; try exact I. 2: { destruct (NE e eq_refl). }
  cbv zeta.
  assert (EC : forall msg, explains A msg -> outcome E level A (Err SLIP_INCORRECT_INPUT) (@complain unit E msg (init level))).
  { intros msg HP. split; auto. exists (init level), [], msg. split; auto. }
  destruct (nz <? 0) eqn:NN; [cbn [orb]; apply EC; exists nz; split; auto; lia|].
  destruct (Z.ltb_spec (m_m A) 0) as [NM|NM]; [cbn [orb]; apply EC; exact NM|]. destruct (Z.ltb_spec (m_n A) 0) as [NC|NC]; [cbn [orb]; apply EC; exact NC|].
  destruct (Z.ltb_spec (m_nzmax A) 0) as [NZ|NZ]; [cbn [orb]; apply EC; exact NZ|]. cbn [orb].
  destruct (Z.ltb_spec (m_type A) TMPZ) as [T1|T1]; [cbn [orb]; apply EC; left; exact T1|]. destruct (Z.gtb_spec (m_type A) TDBL) as [T2|T2]; [cbn [orb]; apply EC; right; exact T2|]. cbn [orb].
  match goal with |- outcome _ _ _ ?m (pbind ?a (fun _ => pbind ?b (fun _ => ?c)) _) =>
    assert (AG : agree E (m_type A) (m_x A) (explains A) level m (events A nz) c);
    [|rewrite <- (passoc a (fun _ => b) (fun _ => c)); unfold pbind at 1; rewrite head1_eq by auto;
      assert (GH : good E (head1 E A nz (init level))) by (apply (@good_le E (init level)); auto; [rewrite head1_pr; lia|apply head1_st; auto]);
      specialize (AG _ GH ltac:(rewrite head1_pr; cbn; lia)); destruct m as [[]|e| |]; try exact I;
      [exists nz; auto|destruct AG as (-> & evs & msg & HP & ->); split; auto; exists (head1 E A nz (init level)), evs, msg; split; auto; split; auto; right; eauto]] end.
  unfold events. unfold print_ok, has_values in PO.
  destruct (Z.eqb_spec (m_kind A) KCSC) as [K|K].
  { assert (KD : m_kind A <> KDENSE) by (rewrite K; discriminate).
    destruct (m_p A) as [Ap|] eqn:EP; [|apply agree_ub]. cbn [deref bind arr]. apply agree_lok.
    assert (NA : nz = nnz A). { revert N. unfold matrix_nnz, nnz. rewrite K, EP. cbn [negb Z.eqb KCSC]. change (0 =? 0) with true. cbv iota. destruct (m_n A <? 0) eqn:Q; [lia|]. intros G. apply get_val in G. exact G. }
    apply (@agree_bind _ _ _ _ _ _ _ _ []). { apply agree_lift. intros e. destruct (_ >? _). apply get_noerr. discriminate. }
    intros p0 Gp0. cbv beta. destruct (Z.eqb_spec p0 0) as [P0|P0]; cbn [negb].
    2: { apply agree_complain. unfold explains. cbv zeta. split; auto. left. rewrite EP. cbn [arr]. destruct (_ >? _). apply get_val in Gp0. congruence. injection Gp0 as <-. contradiction. }
    apply (@agree_bind _ _ _ _ _ _ _ _ []).
    { apply ptr_agree. intros c Hc H. unfold explains. cbv zeta. split; auto. right. exists c. rewrite EP. cbn [arr]. rewrite <- NA. auto. }
    intros _ _.
    assert (HR : forall Ai, m_i A = Some Ai -> forall i j p, 0 <= j < m_n A -> rd Ap j <= p < rd Ap (j + 1) -> rd Ai p = i -> i < 0 \/ m_m A <= i -> explains A (MRange i j)).
    { intros Ai EI i j p Hj Hp Hi Hr. unfold explains. cbv zeta. rewrite EP, EI. cbn [arr]. split; auto. split; auto. split; auto. exists p. auto. }
    assert (HD : forall Ai, m_i A = Some Ai -> forall i j q p, 0 <= j < m_n A -> rd Ap j <= q -> q < p -> p < rd Ap (j + 1) -> rd Ai q = i -> rd Ai p = i -> explains A (MDup i j)).
    { intros Ai EI i j q p Hj Hq Hqp Hp E1 E2. unfold explains. cbv zeta. rewrite EP, EI. cbn [arr]. split; auto. split; auto. exists q, p. auto. }
    destruct (m_i A) as [Ai|] eqn:EI; cbn [deref bind arr].
    - specialize (HR Ai eq_refl). specialize (HD Ai eq_refl). destruct (m_x A) as [v|] eqn:EX.
      + match goal with |- agree _ _ _ _ _ _ ?F _ => change F with (csc_events (m_n A) Ap Ai) end; rewrite <- (app_nil_r (csc_events _ _ _)); apply agree_bind; [|intros; apply agree_ret]. apply rows_agree; auto.
        destruct PO as [PO|(_ & T & PO & _)]; auto. right. intros p Hp. apply readable_in; auto. specialize (PO KD _ eq_refl). lia.
      + destruct (Z.gtb_spec (m_nzmax A) 0) as [Hz|Hz]; [apply agree_complain; unfold explains; cbv zeta; split; [auto|split; [lia|auto]]|].  apply agree_lok.
        match goal with |- agree _ _ _ _ _ _ ?F _ => change F with (csc_events (m_n A) Ap Ai) end; rewrite <- (app_nil_r (csc_events _ _ _)); apply agree_bind; [|intros; apply agree_ret]. apply rows_agree; auto.
        destruct PO as [PO|(_ & PO)]; auto. lia.
    - destruct (Z.gtb_spec (m_nzmax A) 0) as [Hz|Hz]; [apply agree_complain; unfold explains; cbv zeta; split; [auto|split; [lia|auto]]|apply agree_ub]. }
  destruct (Z.eqb_spec (m_kind A) KTRIP) as [K2|K2].
  { assert (KD : m_kind A <> KDENSE) by (rewrite K2; discriminate).
    assert (NA : nz = m_nz A). { revert N. unfold matrix_nnz. rewrite K2. cbn. congruence. }
    assert (HI : forall Ti Tj, m_i A = Some Ti -> m_j A = Some Tj -> forall p, 0 <= p < nz -> rd Ti p < 0 \/ m_m A <= rd Ti p \/ rd Tj p < 0 \/ m_n A <= rd Tj p -> explains A MIndex).
    { intros Ti Tj EI EJ p Hp H. unfold explains. cbv zeta. rewrite EI, EJ. cbn [arr]. split; auto. exists p. split; auto. lia. }
    assert (HD : forall Ti Tj, m_i A = Some Ti -> m_j A = Some Tj -> forall i j p q, 0 <= p -> p < q -> q < nz -> rd Ti p = i -> rd Tj p = j -> rd Ti q = i -> rd Tj q = j -> explains A (MDupT i j)).
    { intros Ti Tj EI EJ i j p q H1 H2 H3 H4 H5 H6 H7. unfold explains. cbv zeta. rewrite EI, EJ. cbn [arr]. split; auto. exists p, q. repeat split; auto. lia. }
    destruct (m_i A) as [Ti|] eqn:EI, (m_j A) as [Tj|] eqn:EJ, (m_x A) as [v|] eqn:EX; cbn [deref bind arr].
    1: { apply trip_agree; [|eapply HI; eauto|eapply HD; eauto]. destruct PO as [PO|(_ & T & PO & _)]; auto. right. intros p Hp. apply readable_in; auto. specialize (PO KD _ eq_refl). lia. }
    all: destruct (Z.gtb_spec (m_nzmax A) 0) as [Hz|Hz]; [apply agree_complain; unfold explains; cbv zeta; split; [auto|split; [lia|auto]]|]; (destruct (Z.eqb_spec nz 0) as [NZ0|]; [rewrite NZ0; apply agree_ret|]); try apply agree_ub.
    apply agree_lok. apply agree_lok.
    apply trip_agree; [|eapply HI; eauto|eapply HD; eauto]. destruct PO as [PO|(_ & PO)]; auto. lia. }
  assert (KD : m_kind A = KDENSE).
  { revert N. unfold matrix_nnz. cbn [negb]. destruct (Z.eqb_spec (m_kind A) KCSC); [contradiction|]. destruct (Z.eqb_spec (m_kind A) KTRIP); [contradiction|].
    destruct (Z.eqb_spec (m_kind A) KDENSE); auto. intros [= <-]. discriminate NN. }
  destruct (m_x A) as [v|] eqn:EX.
  - apply dense_agree. destruct PO as [PO|(_ & T & _ & PO)]; auto. right. intros p Hp. apply readable_in; auto. specialize (PO KD). lia.
  - destruct (Z.gtb_spec (m_nzmax A) 0) as [Hz|Hz]; [apply agree_complain; unfold explains; cbv zeta; split; [auto|split; [lia|auto]]|]. apply dense_agree. destruct PO as [PO|(_ & PO)]; auto. lia.
Qed.
