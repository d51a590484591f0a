(* Properties C76-C78: the MATLAB interface.  Specification: MexSpec.v; model: MMex.v.  Each theorem is followed by a concrete case. *)
From Coq Require Import QArith Qabs Qpower Lqa String Ascii.
From Verif Require Import Base Det DetZ Spec SumQ MFactor MSolve MMatrix MApi ApiSpec PApi MatSpec PMat PFloat PConv PRound MDemo MMex MexSpec PMex LUEx.
From Verif Require DemoSpec.
Set Implicit Arguments.
Open Scope string_scope.
Open Scope list_scope.
Open Scope Z_scope.
Set Bullet Behavior "Strict Subproofs".

(*----------------------------------------------------------------------------*)
(* C76: the options *)
Lemma options_eq input : slip_get_matlab_options input =
  (let i := fields input in
  let! (order, buf) := get_order (xo_order i) in
  let! (pivot, buf) := get_pivot (xo_pivot i) buf in
  let! tol := get_tol pivot (xo_tol i) in
  let! solution := get_solution (xo_solution i) buf in
  let! digits := get_digits (xo_digits i) in
  let! print := get_print (xo_print i) in
  mret (mkMO order pivot tol solution digits print)).
Proof. reflexivity. Qed.
(* documented options are taken as documented *)
Theorem C76_options input r : documented (fields input) r -> slip_get_matlab_options input = Ok (Ret r).
Proof.
  intros D. rewrite options_eq. cbv zeta. set (i := fields input) in *.
  destruct (get_order_spec (xo_order i)) as (O1 & O2 & _). destruct (O1 _ (d_order D)) as (b & E). rewrite E. destruct (O2 _ _ E) as (_ & B & _). cbn [mbind].
  destruct (get_pivot_spec (xo_pivot i) B) as (P1 & P2 & _). destruct (P1 _ (d_pivot D)) as (b' & E'). rewrite E'. destruct (P2 _ _ E') as (_ & B' & _). cbn [mbind].
  rewrite (proj1 (get_tol_spec _ _) _ (d_tol D)). cbn [mbind]. rewrite (proj1 (get_solution_spec _ B') _ (d_solution D)). cbn [mbind].
  rewrite (proj1 (get_digits_spec _) _ (d_digits D)). cbn [mbind]. rewrite (proj1 (get_print_spec _) _ (d_print D)). cbn [mbind]. now destruct r.
Qed.
(* whatever is accepted is documented; except that a tolerance NaN passes the range check *)
Theorem C76_accepted input r : slip_get_matlab_options input = Ok (Ret r) ->
  documented (fields input) r \/ (mo_tol r = FNan /\ exists g, xo_tol (fields input) = Some g /\ scalar g FNan).
Proof.
  rewrite options_eq. cbv zeta. set (i := fields input) in *. intros H.
  destruct (get_order_spec (xo_order i)) as (_ & O2 & _). destruct (get_order (xo_order i)) as [[m|[z b]]| | |] eqn:E; try discriminate. cbn [mbind] in H.
  destruct (O2 _ _ eq_refl) as (O & B & _).
  destruct (get_pivot_spec (xo_pivot i) B) as (_ & P2 & _). destruct (get_pivot (xo_pivot i) b) as [[m|[z' b']]| | |] eqn:E'; try discriminate. cbn [mbind] in H.
  destruct (P2 _ _ eq_refl) as (P & B' & _).
  destruct (get_tol_spec z' (xo_tol i)) as (_ & T2 & _). destruct (get_tol z' (xo_tol i)) as [[m|t]| | |]; try discriminate. cbn [mbind] in H.
  destruct (get_solution_spec (xo_solution i) B') as (_ & S2 & _). destruct (get_solution (xo_solution i) b') as [[m|s]| | |]; try discriminate. cbn [mbind] in H.
  destruct (get_digits_spec (xo_digits i)) as (_ & D2 & _). destruct (get_digits (xo_digits i)) as [[m|d]| | |]; try discriminate. cbn [mbind] in H.
  destruct (get_print_spec (xo_print i)) as (_ & R2 & _). destruct (get_print (xo_print i)) as [[m|k]| | |]; try discriminate. cbn [mbind mret] in H.
  injection H as <-. destruct (T2 _ eq_refl) as [T|(g & T1 & T3 & ->)].
  - left. constructor; cbn; auto.
  - right. cbn. eauto.
Qed.
Ltac ifs H := repeat match type of H with (if ?c then _ else _) = _ => destruct c; try discriminate H end.
(* every error message is about an option that is not as documented *)
Theorem C76_rejected input m : slip_get_matlab_options input = Ok (Throw m) -> blames m (fields input).
Proof.
  rewrite options_eq. cbv zeta. set (i := fields input) in *. intros H.
  destruct (get_order_spec (xo_order i)) as (O1 & O2 & _). destruct (get_order (xo_order i)) as [[m'|[z b]]| | |] eqn:E; try discriminate; cbn [mbind] in H.
  { injection H as ->. unfold get_order in E. destruct (xo_order i) as [[s|x]|] eqn:EO; try discriminate.
    - assert (m = MexOrder). { cbv zeta in E. ifs E. now injection E as <-. }
      subst m. cbn. rewrite EO. split; [eauto|]. intros z N. destruct (O1 z N) as (b & F). discriminate.
    - injection E as <-. cbn. eauto. }
  destruct (O2 _ _ eq_refl) as (O & B & _).
  destruct (get_pivot_spec (xo_pivot i) B) as (P1 & P2 & _). destruct (get_pivot (xo_pivot i) b) as [[m'|[z' b']]| | |] eqn:E'; try discriminate; cbn [mbind] in H.
  { injection H as ->. unfold get_pivot in E'. destruct (xo_pivot i) as [[s|x]|] eqn:EO; try discriminate.
    - assert (m = MexPivot). { cbv zeta in E'. ifs E'. now injection E' as <-. }
      subst m. cbn. rewrite EO. split; [eauto|]. intros z0 N. destruct (P1 z0 N) as (b0 & F). discriminate.
    - injection E' as <-. cbn. eauto. }
  destruct (P2 _ _ eq_refl) as (P & B' & _).
  destruct (get_tol_spec z' (xo_tol i)) as (T1 & T2 & _). destruct (get_tol z' (xo_tol i)) as [[m'|t]| | |] eqn:ET; try discriminate; cbn [mbind] in H.
  { injection H as ->. assert (m = MexTol). { unfold get_tol in ET. destruct ((z' =? 3) || (z' =? 4)); [|discriminate]. destruct (xo_tol i) as [g|]; [|discriminate].
      destruct (mx_scalar g) as [y| | |]; try discriminate. cbn [bind] in ET. destruct (gtz y 1 || lez y 0); [|discriminate]. now injection ET as <-. }
    subst m. cbn. intros p N x T. destruct (P1 p N) as (b0 & F). injection F as F1 F2. subst z'. specialize (T1 x T). discriminate. }
  destruct (get_solution_spec (xo_solution i) B') as (S1 & _). destruct (get_solution (xo_solution i) b') as [[m'|s]| | |] eqn:ES; try discriminate; cbn [mbind] in H.
  { injection H as ->. assert (m = MexSolution). { unfold get_solution in ES. destruct (xo_solution i) as [f|]; [|discriminate]. destruct (match f with MxChar s => Some (mx_string s) | MxNum _ => b' end); [|discriminate].
      ifs ES. now injection ES as <-. }
    subst m. cbn. intros z0 N. specialize (S1 z0 N). discriminate. }
  destruct (get_digits_spec (xo_digits i)) as (D1 & _). destruct (get_digits (xo_digits i)) as [[m'|d]| | |] eqn:ED; try discriminate; cbn [mbind] in H.
  { injection H as ->. assert (m = MexDigits). { unfold get_digits in ED. destruct (xo_digits i) as [f|]; [|discriminate]. destruct (mx_scalar f) as [x| | |]; try discriminate. cbn [bind] in ED.
      destruct (negb (is_int x) || ltz x 2 || gtz x (2 ^ 29)); [now injection ED as <-|]. destruct (cast_int 32 x); discriminate. }
    subst m. cbn. intros z0 N. specialize (D1 z0 N). discriminate. }
  destruct (get_print_spec (xo_print i)) as (_ & _ & R3). destruct (get_print (xo_print i)) as [[m'|k]| | |] eqn:EP; try discriminate; cbn [mbind mret] in H.
  destruct (R3 _ eq_refl) as (k & K). discriminate.
Qed.

(* no other outcome: provided the tolerance and the number of digits are not empty strings, the print level fits an int, and an option
   "solution" that is not a string comes with an option "order" or "pivot" *)
Theorem C76_total input : let i := fields input in xo_tol i <> Some (MxChar []) -> xo_digits i <> Some (MxChar []) -> (exists k, print_opt (xo_print i) k) ->
  (forall x, xo_solution i = Some (MxNum x) -> xo_order i <> None \/ xo_pivot i <> None) ->
  exists r, slip_get_matlab_options input = Ok r.
Proof.
  intros i HT HD (k & HP) HS. rewrite options_eq. cbv zeta. fold i.
  destruct (get_order_spec (xo_order i)) as (_ & O2 & ([m|[z b]] & E)); rewrite E; cbn [mbind]; [eexists; reflexivity|]. destruct (O2 _ _ E) as (_ & B & BN).
  destruct (get_pivot_spec (xo_pivot i) B) as (_ & P2 & ([m|[z' b']] & E')); rewrite E'; cbn [mbind]; [eexists; reflexivity|]. destruct (P2 _ _ E') as (_ & B' & BN').
  destruct (proj2 (proj2 (get_tol_spec z' (xo_tol i))) HT) as ([m|t] & ->); cbn [mbind]; [eexists; reflexivity|].
  assert (HB : forall x, xo_solution i = Some (MxNum x) -> b' <> None). { intros x Hx. apply BN'. destruct (HS x Hx) as [H|H]; auto. }
  destruct (proj2 (proj2 (get_solution_spec (xo_solution i) B')) HB) as ([m|s] & ->); cbn [mbind]; [eexists; reflexivity|].
  destruct (proj2 (proj2 (get_digits_spec (xo_digits i))) HD) as ([m|d] & ->); cbn [mbind]; [eexists; reflexivity|].
  rewrite (proj1 (get_print_spec (xo_print i)) k HP). cbn [mbind]. eexists; reflexivity.
Qed.
(* order "amd", pivot "tol largest", tol 0.5, solution "vpa", digits 50, print 7 (level 3) *)
Definition exXO : mxopts := mkXO (Some (MxChar (codes "amd"))) (Some (MxChar (codes "tol largest"))) (Some (MxNum (FFin 1 (-1)))) (Some (MxChar (codes "vpa")))
  (Some (MxNum (FFin 50 0))) (Some (MxNum (FFin 7 0))).
Definition exMO : mexopt := mkMO 2 4 (FFin 1 (-1)) 1 50 3.
Lemma exXO_documented : documented exXO exMO.
Proof.
  constructor; cbn.
  - right. exists (codes "amd"), "amd". repeat split; auto. cbn. auto.
  - right. exists (codes "tol largest"), "tol largest". repeat split; auto. cbn. auto 10.
  - right. split; [auto|]. exists (MxNum (FFin 1 (-1))), (1 # 2)%Q. split; auto. split; [left; auto|]. split; [reflexivity|]. split; reflexivity || discriminate.
  - right. exists (codes "vpa"), "vpa". repeat split; auto. cbn. auto.
  - right. exists (MxNum (FFin 50 0)), (FFin 50 0), (inject_Z 50). split; auto. split; [left; auto|]. split; [reflexivity|]. split; [reflexivity|]. lia.
  - right. exists (MxNum (FFin 7 0)), (FFin 7 0), (inject_Z 7), 7. split; auto. split; [left; auto|]. split; [reflexivity|]. split; [|split; [lia|reflexivity]].
    split; [apply Qle_refl|]. split; [reflexivity|discriminate].
Qed.
Example C76_ex : slip_get_matlab_options (Some exXO) = Ok (Ret exMO).
Proof. exact (@C76_options (Some exXO) exMO exXO_documented). Qed.
(* all defaults: COLAMD, tolerance-based smallest pivot, tolerance 0.1, double output, 100 digits, no printing *)
Theorem C76_defaults input r : fields input = no_fields -> (slip_get_matlab_options input = Ok (Ret r) <-> r = mkMO 1 3 (FFin 3602879701896397 (-55)) 0 100 0).
Proof.
  intros E. rewrite options_eq, E. cbn. split; [intros H; injection H as <-; reflexivity|intros ->; reflexivity].
Qed.
(* the default tolerance is the double nearest to 0.1 *)
Theorem C76_default_tolerance : forall input r q, slip_get_matlab_options input = Ok (Ret r) -> xo_tol (fields input) = None -> fl_q (mo_tol r) = Some q ->
  fits 53 (mo_tol r) /\ (Qabs (q - (1 # 10)) <= 1 # 144115188075855872)%Q.
Proof.
  intros input r q E T Q. rewrite options_eq in E. cbv zeta in E. destruct (get_order (xo_order (fields input))) as [ [ sm | [o b] ] | | | ]; cbn [mbind] in E; try discriminate.
  destruct (get_pivot (xo_pivot (fields input)) b) as [[|[p b']]| | |]; cbn [mbind] in E; try discriminate. rewrite T in E.
  assert (G : get_tol p None = Ok (Ret (FFin 3602879701896397 (-55)))) by (unfold get_tol; destruct (_ || _); reflexivity). rewrite G in E. cbn [mbind] in E.
  destruct (get_solution (xo_solution (fields input)) b') as [[|s]| | |]; cbn [mbind] in E; try discriminate. destruct (get_digits (xo_digits (fields input))) as [[|d]| | |]; cbn [mbind] in E; try discriminate.
  destruct (get_print (xo_print (fields input))) as [[|k]| | |]; cbn [mbind] in E; try discriminate. injection E as <-. cbn [mo_tol] in *. split; [cbn; lia|]. vm_compute in Q. injection Q as <-. vm_compute. discriminate.
Qed.
(* how a MATLAB string is read: its characters before the first 0, at most 255 *)
Theorem C76_strings : forall s t, mx_string s = t <-> ~ In 0 t /\ exists rest, firstn 255 s = t ++ rest /\ (rest = [] \/ exists r, rest = 0 :: r).
Proof.
  intros s t. unfold mx_string. generalize (firstn 255 s). intros l. split.
  - intros <-. induction l as [|c l (N & rest & E & R)]; [split; [intros []|exists []; auto]|]. cbn [cstr]. destruct (Z.eqb_spec c 0) as [->|Hc].
    + split; [intros []|]. exists (0 :: l). split; [reflexivity|]. right. eauto.
    + split; [intros [H|H]; [congruence|contradiction]|]. exists rest. split; [cbn; congruence|exact R].
  - intros (N & rest & -> & R). induction t as [|c t IH]; cbn [app cstr].
    + destruct R as [-> | (r & ->)]; reflexivity.
    + destruct (Z.eqb_spec c 0) as [->|_]; [exfalso; apply N; left; reflexivity|]. f_equal. apply IH. intros H. apply N. right. exact H.
Qed.
Example C76_defaults_ex : fields None = no_fields /\ fields (Some no_fields) = no_fields.
Proof. split; reflexivity. Qed.
Example C76_rejected_ex : slip_get_matlab_options (Some (mkXO None (Some (MxChar (codes "best"))) None None None None)) = Ok (Throw MexPivot) /\
  slip_get_matlab_options (Some (mkXO None None (Some (MxNum (FFin 3 (-1)))) None None None)) = Ok (Throw MexTol) /\
  slip_get_matlab_options (Some (mkXO None None None None (Some (MxNum (FFin 5 (-1)))) None)) = Ok (Throw MexDigits).
Proof. repeat split. Qed.
(* a tolerance NaN is accepted, whatever the other options are *)
Theorem C76_nan_tolerance_refuted i r : documented i r -> mo_pivot r = 3 \/ mo_pivot r = 4 ->
  slip_get_matlab_options (Some (mkXO (xo_order i) (xo_pivot i) (Some (MxNum FNan)) (xo_solution i) (xo_digits i) (xo_print i))) =
    Ok (Ret (mkMO (mo_order r) (mo_pivot r) FNan (mo_solution r) (mo_digits r) (mo_print r))).
Proof.
  intros D HP. rewrite options_eq. cbn [fields xo_order xo_pivot xo_tol xo_solution xo_digits xo_print].
  destruct (get_order_spec (xo_order i)) as (O1 & O2 & _). destruct (O1 _ (d_order D)) as (b & E). rewrite E. destruct (O2 _ _ E) as (_ & B & _). cbn [mbind].
  destruct (get_pivot_spec (xo_pivot i) B) as (P1 & P2 & _). destruct (P1 _ (d_pivot D)) as (b' & E'). rewrite E'. destruct (P2 _ _ E') as (_ & B' & _). cbn [mbind].
  assert (T : get_tol (mo_pivot r) (Some (MxNum FNan)) = Ok (Ret FNan)) by (unfold get_tol; destruct HP as [-> | ->]; reflexivity). rewrite T. cbn [mbind].
  rewrite (proj1 (get_solution_spec _ B') _ (d_solution D)). cbn [mbind].
  rewrite (proj1 (get_digits_spec _) _ (d_digits D)). cbn [mbind]. rewrite (proj1 (get_print_spec _) _ (d_print D)). reflexivity.
Qed.
(* a print level that does not fit an int (an infinity, a NaN, 10^10) is converted all the same, which C does not define *)
Theorem C76_print_refuted i r x : documented i r -> (forall q t, fl_q x = Some q -> truncated q t -> ~ (- 2 ^ 31 <= t < 2 ^ 31)) ->
  slip_get_matlab_options (Some (mkXO (xo_order i) (xo_pivot i) (xo_tol i) (xo_solution i) (xo_digits i) (Some (MxNum x)))) = UB.
Proof.
  intros D HX. rewrite options_eq. cbn [fields xo_order xo_pivot xo_tol xo_solution xo_digits xo_print].
  destruct (get_order_spec (xo_order i)) as (O1 & O2 & _). destruct (O1 _ (d_order D)) as (b & E). rewrite E. destruct (O2 _ _ E) as (_ & B & _). cbn [mbind].
  destruct (get_pivot_spec (xo_pivot i) B) as (P1 & P2 & _). destruct (P1 _ (d_pivot D)) as (b' & E'). rewrite E'. destruct (P2 _ _ E') as (_ & B' & _). cbn [mbind].
  rewrite (proj1 (get_tol_spec _ _) _ (d_tol D)). cbn [mbind]. rewrite (proj1 (get_solution_spec _ B') _ (d_solution D)). cbn [mbind].
  rewrite (proj1 (get_digits_spec _) _ (d_digits D)). cbn [mbind]. unfold get_print. cbn [mx_scalar bind].
  destruct x as [|s|m e]; try reflexivity. destruct (fl_q_fin m e) as (q & Hq & _). specialize (HX q _ Hq (trunc_spec Hq)). unfold cast_int.
  change (2 ^ (32 - 1)) with (2 ^ 31). destruct (Z.leb_spec (- 2 ^ 31) (trunc_fl m e)), (Z.ltb_spec (trunc_fl m e) (2 ^ 31)); cbn [andb bind]; try reflexivity. lia.
Qed.
Example C76_print_bad : slip_get_matlab_options (Some (mkXO None None None None None (Some (MxNum (FFin 9765625 10))))) = UB.
Proof. reflexivity. Qed.
(* an option "solution" that is not a string: the text of the previous string option is compared, and without one an uninitialized buffer *)
Theorem C76_solution_refuted x i : xo_order i = None -> xo_pivot i = None -> xo_tol i = None -> xo_solution i = Some (MxNum x) -> slip_get_matlab_options (Some i) = UB.
Proof. intros E1 E2 E3 E4. rewrite options_eq. cbn [fields]. rewrite E1, E2, E3, E4. reflexivity. Qed.

(*----------------------------------------------------------------------------*)
(* C77: the numbers handed to the library *)
(* the integer matrices and their scales: every entry is the double rounded to the nearest multiple of 10^-17 (so, an integer is kept) *)
Theorem C77_values o addr n k A b jc ir pr bp WA WB : opt_prec o = 128 -> opt_round o = RNDN ->
  sparse_double n A jc ir pr -> full_double n k b bp -> finite_all pr (rd jc n) -> no_2p63 pr (rd jc n) -> no_2p63 bp (n * k) ->
  sparse_units n jc ir pr WA -> full_units n k bp WB ->
  int64_all pr (rd jc n) \/ (exists i j, 0 <= i < n /\ 0 <= j < n /\ WA i j <> 0) ->
  int64_all bp (n * k) \/ (exists i j, 0 <= i < n /\ 0 <= j < k /\ WB i j <> 0) ->
  exists MA MB, slip_mex_get_A_and_b o addr A b = Ok (Ret (MA, MB)) /\ int_csc n n MA /\ int_dense n k MB /\
    ~ (m_scale MA == 0)%Q /\ (forall i j, 0 <= i < n -> 0 <= j < n -> (inject_Z (Cent MA i j) / m_scale MA == e17 (WA i j))%Q) /\
    ~ (m_scale MB == 0)%Q /\ (forall i j, 0 <= i < n -> 0 <= j < k -> (inject_Z (Dent MB i j) / m_scale MB == e17 (WB i j))%Q).
Proof.
  intros Hp Hr SD FD FA N2 N2b SU FU ZA ZB. destruct (@get_A_and_b_spec o addr n k A b jc ir pr bp WA WB Hp Hr SD FD FA N2 N2b SU FU) as (MA & MB & E & IC & ID & HA & HB).
  exists MA, MB. do 3 (split; [assumption|]).
  destruct HA as [(A1 & A2)|(A1 & _ & A2)].
  2:{ exfalso. destruct ZA as [I|(i & j & Hi & Hj & N)]; [contradiction|]. apply N, (A2 i j Hi Hj). }
  destruct HB as [(B1 & B2)|(B1 & _ & B2)].
  2:{ exfalso. destruct ZB as [I|(i & j & Hi & Hj & N)]; [contradiction|]. apply N, (B2 i j Hi Hj). }
  auto.
Qed.
(* an infinity or a NaN stops the call, with the message about the first one *)
Theorem C77_nonfinite o addr n A b jc ir pr p : sparse_double n A jc ir pr -> 0 <= p < rd jc n -> finite_all pr p -> no_2p63 pr p -> fl_q (rdg FNan pr p) = None ->
  slip_mex_get_A_and_b o addr A b = Ok (Throw (match rdg FNan pr p with FNan => MexNan | _ => MexInf end)).
Proof.
  intros SD Hp FA N2 NF. unfold slip_mex_get_A_and_b, get_A. rewrite (sd_jc SD), (sd_ir SD), (sd_pr SD), (sd_m SD), (sd_n SD).
  pose proof (sd_valid SD) as V. rewrite get_rd by (pose proof (vp_p V); pose proof (vp_n V); lia). cbn [bind]. rewrite Z.eqb_refl. cbn [negb].
  rewrite (@inf_stop pr (rd jc n) p Hp (sd_len SD) FA N2 NF). reflexivity.
Qed.
Theorem C77_nonfinite_rhs o addr n k A b jc ir pr bp p : opt_prec o = 128 -> opt_round o = RNDN -> sparse_double n A jc ir pr -> finite_all pr (rd jc n) -> no_2p63 pr (rd jc n) ->
  full_double n k b bp -> 0 <= p < n * k -> finite_all bp p -> no_2p63 bp p -> fl_q (rdg FNan bp p) = None ->
  slip_mex_get_A_and_b o addr A b = Ok (Throw (match rdg FNan bp p with FNan => MexNan | _ => MexInf end)).
Proof.
  intros H1 H2 SD FA N2 FD Hp FB N2b NF. destruct (@get_A_spec o addr n A jc ir pr H1 H2 SD FA N2) as (MA & i' & w & y & s & EA & _).
  unfold slip_mex_get_A_and_b. rewrite EA. cbn [mbind]. unfold get_b. rewrite (fd_pr FD), (sd_m SD), (fd_m FD), (fd_n FD), Z.eqb_refl, (Z.mul_comm k n). cbn [negb].
  rewrite (@inf_stop bp (n * k) p Hp (fd_len FD) FB N2b NF). reflexivity.
Qed.
(* the sizes *)
Theorem C77_sizes o addr A b jc ir pr : x_jc A = Some jc -> x_ir A = Some ir -> x_pr A = Some pr -> 0 <= x_n A < zlen jc ->
  (x_n A <> x_m A -> slip_mex_get_A_and_b o addr A b = Ok (Throw MexSquare)) /\
  (forall MA bp, get_A o addr A = Ok (Ret MA) -> x_pr b = Some bp -> x_m b <> x_m A -> slip_mex_get_A_and_b o addr A b = Ok (Throw MexDim)).
Proof.
  intros E1 E2 E3 L. split.
  - intros N. unfold slip_mex_get_A_and_b, get_A. rewrite E1, E2, E3, get_rd by lia. cbn [bind]. destruct (Z.eqb_spec (x_n A) (x_m A)); [contradiction|]. reflexivity.
  - intros MA bp EA EB N. unfold slip_mex_get_A_and_b. rewrite EA. cbn [mbind]. unfold get_b. rewrite EB. destruct (Z.eqb_spec (x_m b) (x_m A)); [contradiction|]. reflexivity.
Qed.
(* 2^63 passes the check for 64-bit integers, because INT64_MAX is converted to the double 2^63; the cast is then undefined *)
Theorem C77_2p63_refuted o addr n A b jc ir pr p q : sparse_double n A jc ir pr -> 0 <= p < rd jc n -> int64_all pr p ->
  fl_q (rdg FNan pr p) = Some q -> (q == inject_Z (2 ^ 63))%Q -> slip_mex_get_A_and_b o addr A b = UB.
Proof.
  intros SD Hp HI Hq Eq. unfold slip_mex_get_A_and_b, get_A. rewrite (sd_jc SD), (sd_ir SD), (sd_pr SD), (sd_m SD), (sd_n SD).
  pose proof (sd_valid SD) as V. rewrite get_rd by (pose proof (vp_p V); pose proof (vp_n V); lia). cbn [bind]. rewrite Z.eqb_refl. cbn [negb].
  assert (FA : finite_all pr p). { intros j Hj. destruct (HI j Hj) as (z & (v & E & _) & _). eauto. }
  assert (N2 : no_2p63 pr p). { intros j v Hj Ev E2. destruct (HI j Hj) as (z & (v' & E & Ez) & R). rewrite E in Ev. injection Ev as ->. rewrite Ez in E2.
    apply (proj1 (inject_Z_injective _ _)) in E2. rewrite E2 in R. exact (Z.lt_irrefl _ (proj2 R)). }
  assert (EC : check_for_inf pr (rd jc n) = UB).
  { rewrite check_for_inf_eq. pose proof (sd_len SD). destruct (@inf_prefix pr p ltac:(lia) FA N2) as (b0 & E & HB). rewrite (proj2 HB HI) in E.
    unfold for_ in *. replace (Z.to_nat (rd jc n - 0)) with (Z.to_nat (p - 0) + S (Z.to_nat (rd jc n - p - 1)))%nat by lia.
    rewrite floop_app, E. cbn [bind]. replace (0 + Z.of_nat (Z.to_nat (p - 0))) with p by lia. cbn [floop]. unfold inf_body at 1. rewrite get_d by lia. cbn [bind].
    destruct (rdg FNan pr p) as [|s|m e]; try discriminate Hq. cbn [negb].
    destruct (ltz (FFin m e) (- 2 ^ 63)) eqn:G1. { apply (ltz_spec _ Hq) in G1. rewrite Eq, <- Zlt_Qlt in G1. lia. }
    destruct (gtz (FFin m e) (2 ^ 63)) eqn:G2. { apply (gtz_spec _ Hq) in G2. rewrite Eq in G2. apply Qlt_irrefl in G2. contradiction. }
    cbn [orb]. unfold cast_int. rewrite (int_value Hq Eq). reflexivity. }
  rewrite EC. reflexivity.
Qed.

(*----------------------------------------------------------------------------*)
(* C78: x = SLIP_mex_soln (A, b, option) *)
(* "answers n k WA WB sol m": the call m ends with the solution of WA x = WB, rounded to doubles or written as fractions, or reports that the
   matrix is singular *)
Definition answers (n k : Z) (WA WB : Z -> Z -> Z) (solution : Z) (m : res (mex mxout)) : Prop :=
  (detz n WA = 0 -> m = Ok (Throw (MexStatus SLIP_SINGULAR))) /\
  (detz n WA <> 0 -> exists X : Z -> Z -> Q,
     (forall i r, 0 <= i < n -> 0 <= r < k -> (sumQ n (fun c => e17 (WA i c) * X c r) == e17 (WB i r))%Q) /\
     (solution = 0 -> exists l, m = Ok (Ret (MxDouble n k l)) /\ n * k <= zlen l /\
        forall i r, 0 <= i < n -> 0 <= r < k -> double_rounded RNDZ true (X i r) (rdg FNan l (i + r * n))) /\
     (solution <> 0 -> exists l, m = Ok (Ret (MxCell n k l)) /\ zlen l = n * k /\
        forall i r, 0 <= i < n -> 0 <= r < k -> writes (rdg [] l (i + r * n)) (X i r))).
Lemma documented_tol i r : documented i r -> exists q, fl_q (mo_tol r) = Some q.
Proof. intros D. destruct (d_tol D) as [(_ & ->)|(_ & g & q & _ & _ & E & _)]; eauto. eexists. reflexivity. Qed.
Lemma tail_answers env ol addr mo tol n k A b jc ir pr bp WA WB : fl_q (mo_tol mo) = Some tol ->
  sparse_double n A jc ir pr -> full_double n k b bp -> finite_all pr (rd jc n) -> no_2p63 pr (rd jc n) -> no_2p63 bp (n * k) ->
  sparse_units n jc ir pr WA -> full_units n k bp WB -> 1 <= n -> env_ok env (mo_pivot mo) ->
  int64_all bp (n * k) \/ (exists i j, 0 <= i < n /\ 0 <= j < k /\ WB i j <> 0) -> answers n k WA WB (mo_solution mo) (mex_tail env ol addr mo A b).
Proof.
  intros HT SD FD FA N2 N2b SU FU Hn He HB. destruct (@mex_tail_spec env ol addr mo tol n k A b jc ir pr bp WA WB HT SD FD FA N2 N2b SU FU Hn He) as (H1 & H2).
  split; auto.
Qed.
Theorem C78_solution env ol addr g nargout A b opt r n k jc ir pr bp WA WB : nargout <= 1 -> documented (fields (x_opts opt)) r ->
  sparse_double n A jc ir pr -> full_double n k b bp -> finite_all pr (rd jc n) -> no_2p63 pr (rd jc n) -> no_2p63 bp (n * k) ->
  sparse_units n jc ir pr WA -> full_units n k bp WB -> 1 <= n -> env_ok env (mo_pivot r) ->
  int64_all bp (n * k) \/ (exists i j, 0 <= i < n /\ 0 <= j < k /\ WB i j <> 0) ->
  answers n k WA WB (mo_solution r) (mexFunction env ol addr g nargout [A; b; opt]).
Proof.
  intros No D SD FD FA N2 N2b SU FU Hn He HB. destruct (documented_tol D) as (tol & HT).
  rewrite (@mexFunction_3 env ol addr g nargout A b opt r No (sd_real SD) (fd_real FD) (sd_sparse SD) (fd_full FD) (C76_options _ D)).
  eapply tail_answers; eassumption.
Qed.
(* in particular: if all entries are multiples of 10^-17, the system is the one given *)
Theorem C78_exact env ol addr g nargout A b opt r n k jc ir pr bp WA WB : nargout <= 1 -> documented (fields (x_opts opt)) r ->
  sparse_double n A jc ir pr -> full_double n k b bp -> finite_all pr (rd jc n) -> no_2p63 pr (rd jc n) -> no_2p63 bp (n * k) ->
  (forall i j, 0 <= i < n -> 0 <= j < n -> sparse_entry jc ir pr i j (e17 (WA i j))) -> (forall i j, 0 <= i < n -> 0 <= j < k -> holds bp (i + j * n) (e17 (WB i j))) ->
  1 <= n -> env_ok env (mo_pivot r) ->
  answers n k WA WB (mo_solution r) (mexFunction env ol addr g nargout [A; b; opt]).
Proof.
  intros No D SD FD FA N2 N2b SE FE Hn He.
  assert (U : forall l p w, holds l p (e17 w) -> units l p w).
  { intros l p w (v & E & Ev). exists v. split; auto. eapply rounded_eq with (q := inject_Z w). { rewrite Ev. unfold e17. field. discriminate. }
    assert (Z0 : (Qabs (inject_Z w - inject_Z w) == 0)%Q) by (rewrite Qabs_wd with (y := 0%Q) by ring; reflexivity).
    split; rewrite Z0; [discriminate|]. intros E2. exfalso. revert E2. unfold Qeq. discriminate. }
  assert (FU : full_units n k bp WB) by (intros i j Hi Hj; apply U, FE; auto).
  apply (@C78_solution env ol addr g nargout A b opt r n k jc ir pr bp WA WB); auto.
  - intros i j Hi Hj. destruct (SE i j Hi Hj) as [(p & P1 & P2 & P3)|(P1 & P2)]; [left|right].
    + exists p. auto.
    + split; auto. assert (E : (inject_Z (WA i j) == 0)%Q). { assert (E1 : (inject_Z (WA i j) == e17 (WA i j) * inject_Z (10 ^ 17))%Q) by (unfold e17; field; discriminate). rewrite E1, P2. ring. }
      change 0%Q with (inject_Z 0) in E. exact (proj1 (inject_Z_injective _ _) E).
  - (* all multiples of 10^-17: either some entry is not 0, or all are 0 and hence integers *)
    destruct (forallb (fun p => forallb (fun j => WB p j =? 0) (zseq 0 k)) (zseq 0 n)) eqn:F.
    + left. rewrite forallb_forall in F. intros p Hp. exists 0. split; [|lia]. assert (Q1 : 0 <= p mod n < n) by (apply Z.mod_pos_bound; lia).
      assert (Q2 : 0 <= p / n < k) by (split; [apply Z.div_pos; lia|apply Z.div_lt_upper_bound; lia]).
      specialize (F (p mod n) ltac:(apply in_zseq; exact Q1)). rewrite forallb_forall in F. specialize (F (p / n) ltac:(apply in_zseq; exact Q2)). apply Z.eqb_eq in F.
      pose proof (FE _ _ Q1 Q2) as H. rewrite F in H. replace (p mod n + p / n * n) with p in H by (pose proof (Z.div_mod p n ltac:(lia)); nia). destruct H as (v & V1 & V2). exists v. split; [exact V1|]. rewrite V2. reflexivity.
    + right. assert (T : forall (f : Z -> bool) l, forallb f l = false -> exists x, In x l /\ f x = false).
      { intros f l. induction l as [|a l IH]; cbn; [discriminate|]. destruct (f a) eqn:E; cbn; [|eauto]. intros H. destruct (IH H) as (x & X1 & X2). eauto. }
      destruct (T _ _ F) as (i & I1 & I2). destruct (T _ _ I2) as (j & J1 & J2). apply in_zseq in I1. apply in_zseq in J1. apply Z.eqb_neq in J2. eauto 10.
Qed.
(* the work is done by SLIP_backslash with the documented options *)
Theorem C78_delegates env ol addr g nargout A b opt r q MA MB : nargout <= 1 -> x_complex A = false -> x_complex b = false -> x_sparse A = true -> x_sparse b = false ->
  documented (fields (x_opts opt)) r -> fl_q (mo_tol r) = Some q ->
  let o t := Some (mkO (mo_pivot r) (mo_order r) t (mo_print r) 128 RNDN false) in
  (forall t, slip_mex_get_A_and_b (o t) addr A b = Ok (Ret (MA, MB))) ->
  (forall e h, SLIP_backslash env ol addr true true TMPQ (Some MA) (Some MB) (o q) = Ok (SErr e, h) ->
     mexFunction env ol addr g nargout [A; b; opt] = Ok (Throw (MexStatus e))) /\
  (forall X x, SLIP_backslash env ol addr true true TMPQ (Some MA) (Some MB) (o q) = Ok (SOK, Out X) -> m_x X = Some (VQ x) -> 0 <= m_m X * m_n X <= zlen x ->
     (forall v, In v x -> Qred v = v) -> mo_solution r <> 0 ->
     exists l, mexFunction env ol addr g nargout [A; b; opt] = Ok (Ret (MxCell (m_m X) (m_n X) l)) /\ zlen l = m_m X * m_n X /\
       forall p, 0 <= p < m_m X * m_n X -> writes (rdg [] l p) (rdg 0%Q x p)).
Proof.
  intros No H1 H2 H3 H4 D HT o HAB.
  rewrite (@mexFunction_3 env ol addr g nargout A b opt r No H1 H2 H3 H4 (C76_options _ D)). unfold mex_tail.
  change (mex_opt r 0%Q) with (o 0%Q). rewrite HAB. cbn [mbind]. rewrite HT. change (mex_opt r q) with (o q). cbv zeta. split.
  - intros e h E. rewrite E. reflexivity.
  - intros X x E Hx HL HC S1. rewrite E. cbn [call mex_ok mret mbind]. destruct (Z.eqb_spec (mo_solution r) 0); [contradiction|]. rewrite Hx. cbn [bind].
    destruct (@cells_spec x (m_m X * m_n X) HL) as (l & -> & L1 & L2). cbn [bind]. exists l. split; [reflexivity|]. split; [exact L1|].
    intros p Hp. rewrite (L2 p Hp). apply print_q_writes. apply HC. apply nth_In. unfold zlen in HL. lia.
Qed.
(* wrong calls *)
Theorem C78_usage env ol addr g nargout args : nargout > 1 \/ zlen args < 2 \/ zlen args > 3 -> mexFunction env ol addr g nargout args = Ok (Throw MexUsage).
Proof.
  intros H. unfold mexFunction. destruct (Z.gtb_spec nargout 1); [reflexivity|]. destruct args as [|A [|b rest]]; try reflexivity.
  destruct (Z.gtb_spec (zlen rest) 1); [reflexivity|]. exfalso. unfold zlen in *. cbn [length] in H. lia.
Qed.
Theorem C78_inputs env ol addr g nargout A b rest : nargout <= 1 -> zlen rest <= 1 ->
  (x_complex A = true \/ x_complex b = true -> mexFunction env ol addr g nargout (A :: b :: rest) = Ok (Throw MexReal)) /\
  (x_complex A = false -> x_complex b = false -> x_sparse A = false -> mexFunction env ol addr g nargout (A :: b :: rest) = Ok (Throw MexSparse)) /\
  (x_complex A = false -> x_complex b = false -> x_sparse A = true -> x_sparse b = true -> mexFunction env ol addr g nargout (A :: b :: rest) = Ok (Throw MexFull)).
Proof.
  intros H1 H2. unfold mexFunction. destruct (Z.gtb_spec nargout 1); [lia|]. destruct (Z.gtb_spec (zlen rest) 1); [lia|].
  split; [|split].
  - intros [-> | ->]; [reflexivity|]. rewrite orb_true_r. reflexivity.
  - intros -> -> ->. reflexivity.
  - intros -> -> -> ->. reflexivity.
Qed.
(* with two arguments, allowed by the check of their number, the kind of the answer is decided by an uninitialized variable *)
Theorem C78_two_arguments_refuted env ol addr nargout A b n k jc ir pr bp WA WB : nargout <= 1 ->
  sparse_double n A jc ir pr -> full_double n k b bp -> finite_all pr (rd jc n) -> no_2p63 pr (rd jc n) -> no_2p63 bp (n * k) ->
  sparse_units n jc ir pr WA -> full_units n k bp WB -> 1 <= n -> env_ok env 3 ->
  int64_all bp (n * k) \/ (exists i j, 0 <= i < n /\ 0 <= j < k /\ WB i j <> 0) ->
  (forall g, answers n k WA WB g (mexFunction env ol addr g nargout [A; b])) /\
  (detz n WA <> 0 -> forall g, g <> 0 -> mexFunction env ol addr g nargout [A; b] <> mexFunction env ol addr 0 nargout [A; b]).
Proof.
  intros No SD FD FA N2 N2b SU FU Hn He HB.
  assert (H : forall g, answers n k WA WB g (mexFunction env ol addr g nargout [A; b])).
  { intros g. rewrite (@mexFunction_2 env ol addr g nargout A b No (sd_real SD) (fd_real FD) (sd_sparse SD) (fd_full FD)).
    set (mo := mkMO ORD_COLAMD 3 (FFin 1 0) g 0 0). change g with (mo_solution mo) at 1. eapply tail_answers; try eassumption. reflexivity. }
  split; [exact H|]. intros D g Hg E. destruct (proj2 (H 0) D) as (X & _ & X0 & _). destruct (proj2 (H g) D) as (Y & _ & _ & Y1).
  destruct (X0 eq_refl) as (l & El & _). destruct (Y1 Hg) as (l' & El' & _). congruence.
Qed.
(* a right-hand side of non-integers below 5*10^-18: the scale becomes 0 and is divided by *)
Theorem C78_tiny_rhs_refuted env ol addr g nargout A b opt r n k jc ir pr bp WA WB : nargout <= 1 -> documented (fields (x_opts opt)) r ->
  sparse_double n A jc ir pr -> full_double n k b bp -> finite_all pr (rd jc n) -> no_2p63 pr (rd jc n) -> no_2p63 bp (n * k) ->
  sparse_units n jc ir pr WA -> full_units n k bp WB -> 1 <= n -> env_ok env (mo_pivot r) ->
  detz n WA <> 0 -> ~ int64_all bp (n * k) -> (forall i j, 0 <= i < n -> 0 <= j < k -> WB i j = 0) ->
  mexFunction env ol addr g nargout [A; b; opt] = UB.
Proof.
  intros No D SD FD FA N2 N2b SU FU Hn He D1 NI W0. destruct (documented_tol D) as (tol & HT).
  rewrite (@mexFunction_3 env ol addr g nargout A b opt r No (sd_real SD) (fd_real FD) (sd_sparse SD) (fd_full FD) (C76_options _ D)).
  eapply mex_tail_tiny; eassumption.
Qed.

(*----------------------------------------------------------------------------*)
(* concrete cases.  A = [0.5 2; -3 0], b = [1; 0.75], n = 2; entries by columns: A(0,0) A(1,0) A(0,1) *)
Definition mxA : mx := mkMx false true 2 2 (Some [0; 2; 3]) (Some [0; 1; 0]) (Some [FFin 1 (-1); FFin (-3) 0; FFin 2 0]) None.
Definition mxb : mx := mkMx false false 2 1 None None (Some [FFin 1 0; FFin 3 (-2)]) None.
Definition mxO (sol : string) : mx := mkMx false false 1 1 None None None (Some (mkXO None None None (Some (MxChar (codes sol))) None None)).
Definition mxWA (i j : Z) : Z := if j =? 0 then (if i =? 0 then 50000000000000000 else -300000000000000000) else if i =? 0 then 200000000000000000 else 0.
Definition mxWB (i j : Z) : Z := if i =? 0 then 100000000000000000 else 75000000000000000.
Ltac two H := match type of H with 0 <= ?i < 2 => assert (i = 0 \/ i = 1) as [-> | ->] by lia end.
Ltac three H := match type of H with 0 <= ?i < 3 => assert (i = 0 \/ i = 1 \/ i = 2) as [-> | [-> | ->]] by lia end.
Lemma mxA_ok : sparse_double 2 mxA [0; 2; 3] [0; 1; 0] [FFin 1 (-1); FFin (-3) 0; FFin 2 0].
Proof.
  constructor; try reflexivity.
  - constructor; try reflexivity; try lia; try discriminate.
    + intros c Hc. two Hc; vm_compute; discriminate.
    + intros p Hp. change (rd [0; 2; 3] 2) with 3 in Hp. three Hp; vm_compute; split; congruence.
    + intros c p p' Hc Hp Hp' E. two Hc.
      * change (rd [0; 2; 3] 0) with 0 in *. change (rd [0; 2; 3] (0 + 1)) with 2 in *. two Hp; two Hp'; try reflexivity; vm_compute in E; discriminate E.
      * change (rd [0; 2; 3] 1) with 2 in *. change (rd [0; 2; 3] (1 + 1)) with 3 in *. lia.
  - intros p Hp. change (rd [0; 2; 3] 2) with 3 in Hp. three Hp; vm_compute; discriminate.
Qed.
Lemma mxb_ok : full_double 2 1 mxb [FFin 1 0; FFin 3 (-2)].
Proof.
  constructor; try reflexivity; try lia; try discriminate. intros p Hp. change (2 * 1) with 2 in Hp. two Hp; vm_compute; discriminate.
Qed.
Lemma mxA_finite : finite_all [FFin 1 (-1); FFin (-3) 0; FFin 2 0] (rd [0; 2; 3] 2) /\ no_2p63 [FFin 1 (-1); FFin (-3) 0; FFin 2 0] (rd [0; 2; 3] 2).
Proof.
  split.
  - intros p Hp. change (rd [0; 2; 3] 2) with 3 in Hp. three Hp; eexists; reflexivity.
  - intros p q Hp E. change (rd [0; 2; 3] 2) with 3 in Hp. three Hp; vm_compute in E; injection E as <-; vm_compute; discriminate.
Qed.
Lemma mxb_2p63 : no_2p63 [FFin 1 0; FFin 3 (-2)] (2 * 1).
Proof. intros p q Hp E. change (2 * 1) with 2 in Hp. two Hp; vm_compute in E; injection E as <-; vm_compute; discriminate. Qed.
Lemma mxA_entries i j : 0 <= i < 2 -> 0 <= j < 2 -> sparse_entry [0; 2; 3] [0; 1; 0] [FFin 1 (-1); FFin (-3) 0; FFin 2 0] i j (e17 (mxWA i j)).
Proof.
  intros Hi Hj. two Hi; two Hj.
  - left. exists 0. split; [vm_compute; split; congruence|]. split; [reflexivity|]. eexists. split; [reflexivity|]. reflexivity.
  - left. exists 2. split; [vm_compute; split; congruence|]. split; [reflexivity|]. eexists. split; [reflexivity|]. reflexivity.
  - left. exists 1. split; [vm_compute; split; congruence|]. split; [reflexivity|]. eexists. split; [reflexivity|]. reflexivity.
  - right. split; [|reflexivity]. intros p Hp. change (rd [0; 2; 3] 1) with 2 in *. change (rd [0; 2; 3] (1 + 1)) with 3 in *. replace p with 2 by lia. discriminate.
Qed.
Lemma mxb_entries i j : 0 <= i < 2 -> 0 <= j < 1 -> holds [FFin 1 0; FFin 3 (-2)] (i + j * 2) (e17 (mxWB i j)).
Proof. intros Hi Hj. replace j with 0 by lia. two Hi; eexists; split; reflexivity. Qed.
Lemma mxO_documented sol z : In (sol, z) solution_names -> documented (fields (x_opts (mxO sol))) (mkMO 1 3 tol_default z 100 0).
Proof.
  intros I. constructor; cbn; try (left; auto; fail).
  - right. exists (codes sol), sol. split; auto. split; auto. destruct I as [I|[I|[I|[]]]]; injection I as <- _; reflexivity.
Qed.
Definition mxrun sol := mexFunction exenv exol (fun _ => 0) 7 1 [mxA; mxb; mxO sol].
Example C78_ex sol z : In (sol, z) solution_names -> answers 2 1 mxWA mxWB z (mxrun sol).
Proof.
  intros I. exact (@C78_exact exenv exol (fun _ => 0) 7 1 mxA mxb (mxO sol) _ 2 1 _ _ _ _ mxWA mxWB ltac:(lia) (@mxO_documented sol z I) mxA_ok mxb_ok (proj1 mxA_finite) (proj2 mxA_finite) mxb_2p63
    mxA_entries mxb_entries ltac:(lia) (@ex_env _)).
Qed.
(* x = [-1/4; 9/16] *)
Example C78_ex_char : mxrun "char" = Ok (Ret (MxCell 2 1 [codes "-1/4"; codes "9/16"])).
Proof. vm_compute. reflexivity. Qed.
Example C78_ex_double : mxrun "double" = Ok (Ret (MxDouble 2 1 [FFin (-4503599627370496) (-54); FFin 5066549580791808 (-53)])) /\
  fl_q (FFin (-4503599627370496) (-54)) = Some (-1 # 4)%Q /\ fl_q (FFin 5066549580791808 (-53)) = Some (9 # 16)%Q.
Proof. split; [vm_compute; reflexivity|]. split; vm_compute; reflexivity. Qed.
Example C78_ex_det : detz 2 mxWA <> 0.
Proof. vm_compute. discriminate. Qed.
Lemma mxb_big : exists i j, 0 <= i < 2 /\ 0 <= j < 1 /\ mxWB i j <> 0.
Proof. exists 0, 0. repeat split; try lia. discriminate. Qed.
Lemma mxA_big : exists i j, 0 <= i < 2 /\ 0 <= j < 2 /\ mxWA i j <> 0.
Proof. exists 0, 0. repeat split; try lia. discriminate. Qed.
Lemma exact_units l p w : holds l p (e17 w) -> units l p w.
Proof.
  intros (v & E & Ev). exists v. split; auto. eapply rounded_eq with (q := inject_Z w). { rewrite Ev. unfold e17. field. discriminate. }
  assert (Z0 : (Qabs (inject_Z w - inject_Z w) == 0)%Q) by (rewrite Qabs_wd with (y := 0%Q) by ring; reflexivity).
  split; rewrite Z0; [discriminate|]. intros E2. exfalso. revert E2. unfold Qeq. discriminate.
Qed.
Lemma mxA_units : sparse_units 2 [0; 2; 3] [0; 1; 0] [FFin 1 (-1); FFin (-3) 0; FFin 2 0] mxWA.
Proof.
  intros i j Hi Hj. destruct (mxA_entries Hi Hj) as [(p & P1 & P2 & P3)|(P1 & P2)]; [left; exists p; split; auto; split; auto; now apply exact_units|right; split; auto].
  two Hi; two Hj; try reflexivity; revert P2; vm_compute; discriminate.
Qed.
Lemma mxb_units : full_units 2 1 [FFin 1 0; FFin 3 (-2)] mxWB.
Proof. intros i j Hi Hj. apply exact_units. now apply mxb_entries. Qed.
Example C77_ex addr := @C77_values None addr 2 1 mxA mxb _ _ _ _ mxWA mxWB eq_refl eq_refl mxA_ok mxb_ok (proj1 mxA_finite) (proj2 mxA_finite) mxb_2p63 mxA_units mxb_units
  (or_intror mxA_big) (or_intror mxb_big).
Example C78_delegates_ex addr MA MB := @C78_delegates exenv exol addr 7 1 mxA mxb (mxO "char") _ _ MA MB ltac:(lia) eq_refl eq_refl eq_refl eq_refl
  (@mxO_documented "char" 2 ltac:(simpl; auto)) eq_refl.
Example C77_ex_run : slip_mex_get_A_and_b None (fun _ => 0) mxA mxb = Ok (Ret
  (mkM 2 2 3 0 KCSC TMPZ (Some [0; 2; 3]) (Some [0; 1; 0]) None (Some (VZ [1; -6; 4])) 2%Q, mkM 2 1 2 0 KDENSE TMPZ None None None (Some (VZ [4; 3])) 4%Q)).
Proof. vm_compute. reflexivity. Qed.
(* with an infinity as the last entry; with a right-hand side that is NaN; not square; a shorter right-hand side *)
Definition mxInf : mx := mkMx false true 2 2 (Some [0; 2; 3]) (Some [0; 1; 0]) (Some [FFin 1 (-1); FFin (-3) 0; FInf true]) None.
Example C77_nonfinite_ex : slip_mex_get_A_and_b None (fun _ => 0) mxInf mxb = Ok (Throw MexInf) /\
  slip_mex_get_A_and_b None (fun _ => 0) mxA (mkMx false false 2 1 None None (Some [FFin 1 0; FNan]) None) = Ok (Throw MexNan).
Proof. split; vm_compute; reflexivity. Qed.
Example C77_sizes_ex : slip_mex_get_A_and_b None (fun _ => 0) (mkMx false true 3 2 (Some [0; 2; 3]) (Some [0; 1; 0]) (Some [FFin 1 (-1); FFin (-3) 0; FFin 2 0]) None) mxb = Ok (Throw MexSquare) /\
  slip_mex_get_A_and_b None (fun _ => 0) mxA (mkMx false false 1 1 None None (Some [FFin 1 0]) None) = Ok (Throw MexDim).
Proof. split; vm_compute; reflexivity. Qed.
Example C77_2p63_ex : slip_mex_get_A_and_b None (fun _ => 0) (mkMx false true 1 1 (Some [0; 1]) (Some [0]) (Some [FFin 1 63]) None) mxb = UB /\
  get_A None (fun _ => 0) (mkMx false true 1 1 (Some [0; 1]) (Some [0]) (Some [FFin (2 ^ 53 - 1) 10]) None) =
    Ok (Ret (mkM 1 1 1 0 KCSC TMPZ (Some [0; 1]) (Some [0]) None (Some (VZ [2 ^ 63 - 2 ^ 10])) 1%Q)).
Proof. split; vm_compute; reflexivity. Qed.
Example C78_two_arguments_ex := @C78_two_arguments_refuted exenv exol (fun _ => 0) 1 mxA mxb 2 1 _ _ _ _ mxWA mxWB ltac:(lia) mxA_ok mxb_ok (proj1 mxA_finite) (proj2 mxA_finite) mxb_2p63
  mxA_units mxb_units ltac:(lia) (@ex_env _) (or_intror mxb_big).
Example C78_two_arguments_run : (exists l, mexFunction exenv exol (fun _ => 0) 0 1 [mxA; mxb] = Ok (Ret (MxDouble 2 1 l))) /\
  mexFunction exenv exol (fun _ => 0) 1 1 [mxA; mxb] = Ok (Ret (MxCell 2 1 [codes "-1/4"; codes "9/16"])).
Proof. split; [exists [FFin (-4503599627370496) (-54); FFin 5066549580791808 (-53)]|]; vm_compute; reflexivity. Qed.
(* A = diag (0.5, 2^-58): nonsingular, but 2^-58 is below half of 10^-17 and is dropped: "the input matrix is singular" *)
Definition mxD : mx := mkMx false true 2 2 (Some [0; 1; 2]) (Some [0; 1]) (Some [FFin 1 (-1); FFin 1 (-58)]) None.
Example C78_dropped : mexFunction exenv exol (fun _ => 0) 7 1 [mxD; mxb; mxO "char"] = Ok (Throw (MexStatus SLIP_SINGULAR)).
Proof. vm_compute. reflexivity. Qed.
(* b = [2^-60; 2^-60] *)
Definition mxT : mx := mkMx false false 2 1 None None (Some [FFin 1 (-60); FFin 1 (-60)]) None.
Example C78_tiny : mexFunction exenv exol (fun _ => 0) 7 1 [mxA; mxT; mxO "char"] = UB.
Proof. vm_compute. reflexivity. Qed.
(* the nonsingular matrix diag (1/2, 2^-58) has a unique solution, but is rejected: an answer for all nonsingular double matrices cannot be proved *)
Theorem C78_doubles_refuted : ~ (forall n A b opt r jc ir pr k bp (a : Z -> Z -> Q), documented (fields (x_opts opt)) r ->
  sparse_double n A jc ir pr -> full_double n k b bp -> finite_all pr (rd jc n) -> no_2p63 pr (rd jc n) -> no_2p63 bp (n * k) -> int64_all bp (n * k) ->
  (forall i j, 0 <= i < n -> 0 <= j < n -> sparse_entry jc ir pr i j (a i j)) -> 1 <= n ->
  (exists v : Z -> Z -> Q, forall i j, 0 <= i < n -> 0 <= j < n -> (sumQ n (fun c => a i c * v c j) == if i =? j then 1 else 0)%Q) ->
  exists y, mexFunction exenv exol (fun _ => 0) 0 1 [A; b; opt] = Ok (Ret y)).
Proof.
  intros H.
  assert (S : sparse_double 2 mxD [0; 1; 2] [0; 1] [FFin 1 (-1); FFin 1 (-58)]).
  { constructor; try reflexivity.
    - constructor; try reflexivity; try lia; try discriminate.
      + intros c Hc. two Hc; vm_compute; discriminate.
      + intros p Hp. change (rd [0; 1; 2] 2) with 2 in Hp. two Hp; vm_compute; split; congruence.
      + intros c p p' Hc Hp Hp' E. two Hc.
        * change (rd [0; 1; 2] 0) with 0 in *. change (rd [0; 1; 2] (0 + 1)) with 1 in *. lia.
        * change (rd [0; 1; 2] 1) with 1 in *. change (rd [0; 1; 2] (1 + 1)) with 2 in *. lia.
    - intros p Hp. change (rd [0; 1; 2] 2) with 2 in Hp. two Hp; vm_compute; discriminate. }
  assert (F : full_double 2 1 (mkMx false false 2 1 None None (Some [FFin 1 0; FFin 1 0]) None) [FFin 1 0; FFin 1 0]).
  { constructor; try reflexivity; try lia; try discriminate. intros p Hp. change (2 * 1) with 2 in Hp. two Hp; vm_compute; discriminate. }
  destruct (H 2 mxD _ (mxO "char") (mkMO 1 3 tol_default 2 100 0) _ _ _ 1 _
    (fun i j => if i =? j then (if i =? 0 then 1 # 2 else 1 # 288230376151711744) else 0)%Q (@mxO_documented "char" 2 ltac:(simpl; auto)) S F) as (y & E).
  - intros p Hp. change (rd [0; 1; 2] 2) with 2 in Hp. two Hp; eexists; reflexivity.
  - intros p q Hp E. change (rd [0; 1; 2] 2) with 2 in Hp. two Hp; vm_compute in E; injection E as <-; vm_compute; discriminate.
  - intros p q Hp E. change (2 * 1) with 2 in Hp. two Hp; vm_compute in E; injection E as <-; vm_compute; discriminate.
  - intros p Hp. exists 1. change (2 * 1) with 2 in Hp. split; [two Hp; eexists; split; reflexivity|lia].
  - intros i j Hi Hj. two Hi; two Hj; cbn [Z.eqb].
    + left. exists 0. split; [vm_compute; split; congruence|]. split; [reflexivity|]. eexists. split; reflexivity.
    + right. split; [|reflexivity]. intros p Hp. change (rd [0; 1; 2] 1) with 1 in *. change (rd [0; 1; 2] (1 + 1)) with 2 in *. replace p with 1 by lia. discriminate.
    + right. split; [|reflexivity]. intros p Hp. change (rd [0; 1; 2] 0) with 0 in *. change (rd [0; 1; 2] (0 + 1)) with 1 in *. replace p with 0 by lia. discriminate.
    + left. exists 1. split; [vm_compute; split; congruence|]. split; [reflexivity|]. eexists. split; reflexivity.
  - lia.
  - exists (fun i j => if i =? j then (if i =? 0 then 2 else 288230376151711744 # 1) else 0)%Q. intros i j Hi Hj. two Hi; two Hj; vm_compute; reflexivity.
  - revert E. vm_compute. discriminate.
Qed.
