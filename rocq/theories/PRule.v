(* The pivoting schemes: choose_pivot and the whole factorization follow pivot_rule. *)
From Verif Require Import Base Spec MFactor PReach PTri PPivot PFactor PivotSpec.
Set Implicit Arguments.
Open Scope Z_scope.

Lemma ratio_ge_b a b (tol : Q) : b <> 0 ->
  (Qnum tol * Z.abs b <=? Z.abs a * Z.pos (Qden tol)) = true <-> ratio_ge a b tol.
Proof.
  intros Hb. unfold ratio_ge, Qle, Qmult, inject_Z. simpl. rewrite Pos.mul_1_r, Z.mul_1_r. rewrite Z.leb_le. tauto.
Qed.

(* transporting a rule along a renaming of the rows *)
Lemma least_map (f : Z -> Z) (c c' : Z -> Prop) v v' p :
  (forall i, c i -> c' (f i) /\ v' (f i) = v i) -> (forall r, c' r -> exists i, c i /\ f i = r) ->
  least c v p -> least c' v' (f p).
Proof.
  intros H1 H2 (A & B). split. now apply H1. intros r Hr. destruct (H2 r Hr) as (i & Hi & <-).
  destruct (H1 _ Hi) as [_ ->]. destruct (H1 _ A) as [_ ->]. auto.
Qed.
Lemma greatest_map (f : Z -> Z) (c c' : Z -> Prop) v v' p :
  (forall i, c i -> c' (f i) /\ v' (f i) = v i) -> (forall r, c' r -> exists i, c i /\ f i = r) ->
  greatest c v p -> greatest c' v' (f p).
Proof.
  intros H1 H2 (A & B). split. now apply H1. intros r Hr. destruct (H2 r Hr) as (i & Hi & <-).
  destruct (H1 _ Hi) as [_ ->]. destruct (H1 _ A) as [_ ->]. auto.
Qed.

Lemma rule_map order tol (f : Z -> Z) (c c' : Z -> Prop) v v' d p :
  (forall i, c i -> c' (f i) /\ v' (f i) = v i) -> (forall r, c' r -> exists i, c i /\ f i = r) ->
  (c' (f d) -> c d) ->
  pivot_rule order tol c v d p -> pivot_rule order tol c' v' (f d) (f p).
Proof.
  intros H1 H2 H3 [Hc H]. split. now apply H1.
  assert (Hd : c' (f d) <-> c d) by (split; auto; apply H1).
  destruct (order =? 0). { eapply least_map; eauto. }
  destruct (order =? 1).
  { destruct H as [A B]. split. intros; f_equal; tauto. intros Hn. eapply least_map; eauto. apply B. tauto. }
  destruct (order =? 2); auto.
  destruct (order =? 4).
  { destruct H as (g & A & B & C). exists (f g). split. eapply greatest_map; eauto. split.
    - destruct B as [->|[B ->]]; auto. right. split; auto. tauto.
    - destruct (H1 g (proj1 A)) as [_ Hg]. rewrite Hg. intros Hp. destruct (C Hp) as [C1 C2]. split.
      + intros Q1. pose proof (proj1 Hd Q1) as Q1'. destruct (H1 d Q1') as [_ ->]. intros; f_equal; auto.
      + intros Q1. f_equal. apply C2. intros [Q2 Q3]. apply Q1. split. tauto. destruct (H1 d Q2) as [_ ->]. auto. }
  destruct (order =? 5). { eapply greatest_map; eauto. }
  destruct H as (s & A & B & C). exists (f s). split. eapply least_map; eauto.
  destruct (H1 s (proj1 A)) as [_ Hs]. rewrite Hs. split.
  - intros Q1. pose proof (proj1 Hd Q1) as Q1'. destruct (H1 d Q1') as [_ ->]. intros; f_equal; auto.
  - intros Q1. f_equal. apply C. intros [Q2 Q3]. apply Q1. split. tauto. destruct (H1 d Q2) as [_ ->]. auto.
Qed.

Lemma rule_ext order tol (c c' : Z -> Prop) v v' d p :
  (forall i, c i <-> c' i) -> (forall i, c i -> v' i = v i) ->
  pivot_rule order tol c v d p -> pivot_rule order tol c' v' d p.
Proof.
  intros H1 H2. apply (@rule_map order tol (fun i => i)).
  - intros i Hi. split; auto. now apply H1.
  - intros r Hr. exists r. split; auto. now apply H1.
  - apply H1.
Qed.

(* choose_pivot, for every state of the search *)
Section Search.
Variables (x pivs xi : list Z) (top n : Z).
Hypothesis Htop : 0 <= top <= n.
Hypothesis Hxi : n <= zlen xi.
Hypothesis Hx : zlen x = n.
Hypothesis Hp : zlen pivs = n.
Hypothesis Hr : forall a, top <= a < n -> 0 <= rd xi a < n.

Lemma smallest_least piv : slip_get_smallest_pivot x pivs n top xi = Ok piv -> least (elig x pivs xi top n) (rd x) piv.
Proof.
  intros E. pose proof (@smallest_spec x pivs xi top n Htop Hxi Hx Hp Hr) as H. rewrite E in H. destruct H as (a & A1 & -> & A3 & A4 & _).
  split. apply eligat_elig; auto. intros i ((b & Hb & <-) & B2 & B3). apply A4; auto. split; auto.
Qed.
Lemma largest_greatest piv : slip_get_largest_pivot x pivs n top xi = Ok piv -> greatest (elig x pivs xi top n) (rd x) piv.
Proof.
  intros E. pose proof (@largest_spec x pivs xi top n Htop Hxi Hx Hp Hr) as H. rewrite E in H. destruct H as (a & A1 & -> & A3 & A4 & _).
  split. apply eligat_elig; auto. intros i ((b & Hb & <-) & B2 & B3). apply A4; auto. split; auto.
Qed.

Theorem choose_pivot_rule env order tol col piv : 0 <= col < n ->
  (rd pivs col < 0 -> rd x col <> 0 -> inpat top n xi col) ->
  choose_pivot env order tol x pivs n top xi col = Ok piv ->
  pivot_rule order tol (elig x pivs xi top n) (rd x) col piv.
Proof.
  intros Hc Hcol.
  assert (HC : negb (rd x col =? 0) && (rd pivs col <? 0) = true <-> elig x pivs xi top n col).
  { split.
    - intros H. apply andb_prop in H. destruct H as [H1 H2].
      destruct (Z.eqb_spec (rd x col) 0); try discriminate. apply Z.ltb_lt in H2. split; auto. apply Hcol; auto.
    - intros (_ & H1 & H2). destruct (Z.eqb_spec (rd x col) 0); try contradiction. simpl. apply Z.ltb_lt; auto. }
  pose proof smallest_least as HS. pose proof largest_greatest as HL.
  unfold choose_pivot, pivot_rule, PIV_SMALLEST, PIV_DIAGONAL, PIV_FIRST_NONZERO, PIV_TOL_LARGEST, PIV_LARGEST.
  destruct (order =? 0). { intros E. apply HS in E. split; auto. apply E. }
  destruct (order =? 1).
  { rewrite !get_rd by lia. cbn [bind]. destruct (negb (rd x col =? 0) && (rd pivs col <? 0)) eqn:EC.
    - intros [= <-]. assert (elig x pivs xi top n col) by tauto. split; auto. split; auto. tauto.
    - intros E. apply HS in E. split. apply E. assert (~ elig x pivs xi top n col) by (intros G; apply HC in G; congruence).
      split; tauto. }
  destruct (order =? 2).
  { intros E. pose proof (@nonzero_spec x pivs xi top n Htop Hxi Hx Hp Hr) as H. rewrite E in H. destruct H as (a & A1 & -> & A3 & _).
    split; auto. apply eligat_elig; auto. }
  destruct (order =? 4).
  { destruct (slip_get_largest_pivot x pivs n top xi) as [g| | |]; cbn [bind]; try discriminate. specialize (HL g eq_refl).
    pose proof (proj1 HL) as Hg. assert (Hgr : 0 <= g < n) by (destruct Hg as ((b & Hb & <-) & _); auto).
    rewrite !get_rd by lia. cbn [bind]. destruct (negb (rd x col =? 0) && (rd pivs col <? 0)) eqn:EC.
    - assert (Hcc : elig x pivs xi top n col) by tauto.
      cbn [bind]. unfold mpq_ge. destruct (Z.gtb_spec (rd x g) 0) as [G|G]; cbn [bind].
      + assert (Q1 : (Qnum tol * rd x g <=? Z.abs (rd x col) * Z.pos (Qden tol)) = true <-> ratio_ge (rd x col) (rd x g) tol).
        { rewrite <- ratio_ge_b by lia. rewrite (Z.abs_eq (rd x g)) by lia. tauto. }
        destruct (_ <=? _); intros [= <-]; (split; [assumption|]); exists g; (split; [assumption|]); (split; [tauto|]).
        * intros _. split; auto. intros Q2. exfalso. apply Q2. split; auto. apply Q1; auto.
        * intros _. split; auto. intros _ Q2. apply Q1 in Q2. discriminate.
      + destruct (env _ _ _) as [[]|]; cbn [bind]; try discriminate; intros [= <-]; (split; [assumption|]); exists g;
          (split; [assumption|]); (split; [tauto|]); intros; lia.
    - intros [= <-]. split; auto. exists g. split; auto. split; auto. intros _. split; auto.
      intros G. apply HC in G. congruence. }
  destruct (order =? 5). { intros E. apply HL in E. split; auto. apply E. }
  destruct (slip_get_smallest_pivot x pivs n top xi) as [s| | |]; cbn [bind]; try discriminate. specialize (HS s eq_refl).
  pose proof (proj1 HS) as Hg. assert (Hgr : 0 <= s < n) by (destruct Hg as ((b & Hb & <-) & _); auto).
  rewrite !get_rd by lia. cbn [bind]. destruct (negb (rd x col =? 0) && (rd pivs col <? 0)) eqn:EC.
  - assert (Hcc : elig x pivs xi top n col) by tauto. pose proof Hcc as (_ & _ & Hnz).
    cbn [bind]. unfold mpq_ge. destruct (Z.gtb_spec (Z.abs (rd x col)) 0) as [G|G]; [|lia]. cbn [bind].
    assert (Q1 : (Qnum tol * Z.abs (rd x col) <=? Z.abs (rd x s) * Z.pos (Qden tol)) = true <-> ratio_ge (rd x s) (rd x col) tol).
    { rewrite <- ratio_ge_b by lia. tauto. }
    destruct (_ <=? _); intros [= <-]; (split; [assumption|]); exists s; (split; [assumption|]).
    + split; auto. intros Q2. exfalso. apply Q2. split; auto. apply Q1; auto.
    + split; auto. intros _ Q2. apply Q1 in Q2. discriminate.
  - intros [= <-]. split; auto. exists s. split; auto. split; auto. intros G. apply HC in G. congruence.
Qed.
End Search.

(* the whole factorization: at every step k the selected row R k follows the rule, the candidates being the rows not selected
   in steps 0..k-1 whose value in the reduced column k is not zero *)
Definition step_rule (order : Z) (tol : Q) (n : Z) (M : Z -> Z -> Z) (q : list Z) (pinv : Z -> Z) (R : Z -> Z) (k : Z) : Prop :=
  pivot_rule order tol (fun i => 0 <= i < n /\ k <= pinv i /\ bm M R k i k <> 0) (fun i => bm M R k i k) (rd q k) (R k).

Lemma bind_ok A B (m : res A) (f : A -> res B) b : bind m f = Ok b -> exists a, m = Ok a /\ f a = Ok b.
Proof. destruct m; simpl; try discriminate. eauto. Qed.

Section Fac.
Variables (n : Z) (Ap Ai Ax q : list Z).
Hypothesis V : valid_csc n n Ap Ai Ax.
Hypothesis HQ : is_perm n q.
Let M := colmat Ap Ai Ax q.

Lemma factor_step_rule env order tol k s s' : 0 <= k < n -> env_ok env order -> finv n Ap Ai Ax q k s ->
  factor_step env order tol n Ap Ai Ax q k s = Ok s' ->
  (forall j, 0 <= j < k -> rd (F_rowp s') j = rd (F_rowp s) j) /\
  (forall i, 0 <= i < n -> forall j, 0 <= j <= k -> j <= rd (F_pinv s) i <-> j <= rd (F_pinv s') i) /\
  step_rule order tol n M q (rd (F_pinv s')) (rd (F_rowp s')) k.
Proof.
  intros Hk Henv I HS. destruct I as [P Hpv Hpiv Hh Hxi Hx Hrl Hrho HLl HUl HL HU HUs HLc HUc HUm].
  unfold factor_step in HS. rewrite (set_wr (F_Lp s)) in HS by lia. cbn [bind] in HS. rewrite (set_wr (F_Up s)) in HS by lia. cbn [bind] in HS.
  pose proof HQ as (Q1 & Q2 & Q3). rewrite (get_rd q) in HS by lia. cbn [bind] in HS.
  set (Lp := wr (F_Lp s) k (F_lnz s)) in *. set (Up := wr (F_Up s) k (F_unz s)) in *.
  pose proof (@realloc_spec n n _ _ _ _ _ _ _ HL ltac:(lia) ltac:(lia) HLc) as HLr.
  destruct (if F_lnz s + n >? zlen (F_Li s) then _ else _) as [Li Lx].
  destruct (if F_unz s + n >? zlen (F_Ui s) then _ else _) as [Ui Ux].
  destruct HLr as (HL1 & HLc1 & HLc2 & HLk).
  set (R := rd (F_rowp s)) in *.
  destruct (@tri_solve_spec n k Lp Li Lx Ap Ai Ax (F_xi s) q (F_rhos s) (F_pinv s) (F_rowp s) (F_h s) (F_x s) (F_lnz s)
     Hk V HQ P (l_ok_part HL1) Hrl Hrho Hxi Hh Hx) as (top & xi & x & h & ET & Ht & Hxil & Hxl & Hhl & Hxr & Hxs & _ & Hx1 & Hx2 & Hout).
  rewrite ET in HS. cbn [bind] in HS. fold M R in Hx1, Hx2, Hout.
  assert (Hcol : 0 <= rd q k < n) by (apply Q2; lia).
  assert (Hcp : rd (F_pivs s) (rd q k) < 0 -> rd x (rd q k) <> 0 -> inpat top n xi (rd q k)).
  { intros H1 H2. destruct (@inP_dec n top xi (rd q k)) as [|Hn]; auto. exfalso. apply H2.
    apply Hpiv in H1; auto. rewrite Hx1; auto. apply (Hout (rd q k)); auto. lia. }
  apply bind_ok in HS. destruct HS as ([[[[piv rhos'] pinv'] rowp'] pivs'] & EG & HS).
  apply bind_ok in HS. destruct HS as ([[[[[Li' Lx'] Ui'] Ux'] lnz'] unz'] & EP & HS). injection HS as <-.
  cbn [F_pinv F_rowp].
  unfold slip_get_pivot in EG. apply bind_ok in EG. destruct EG as (piv0 & EC & EG).
  apply bind_ok in EG. destruct EG as ([[[rh0 pi0] rp0] pv0] & EA & EG). injection EG as <- <- <- <- <-.
  pose proof (@choose_pivot_spec x (F_pivs s) xi top n Ht ltac:(lia) Hxl Hpv Hxr env order tol (rd q k) Henv Hcol Hcp) as HC.
  rewrite EC in HC. destruct HC as (Hpr & ((ap & Hap & Hape) & Hep & Hex)).
  assert (Hpk : k <= rd (F_pinv s) piv0) by (apply Hpiv; auto).
  destruct (wp_ok_ex _ _ (@apply_pivot_spec n piv0 k x (F_rhos s) (F_pinv s) (F_rowp s) (F_pivs s) nerr Hk Hpr P Hpk Hxl Hrl Hpv))
    as ([[[rhos1 pinv1] rowp1] pivs1] & EA' & -> & -> & P' & Hrk & Hrj & Hpi1 & Hpi2).
  rewrite EA' in EA. injection EA as <- <- <- <-.
  assert (PIN : forall i, 0 <= i < n -> forall j, 0 <= j <= k -> j <= rd (F_pinv s) i <-> j <= rd pinv1 i).
  { intros i Hi j Hj. specialize (Hpi1 i Hi). specialize (Hpi2 i Hi). split; intros.
    - destruct (Z_lt_le_dec (rd pinv1 i) k). rewrite <- Hpi2; auto. lia.
    - destruct (Z_lt_le_dec (rd (F_pinv s) i) k). rewrite <- Hpi1; auto. lia. }
  split; auto. split; auto.
  unfold step_rule. rewrite Hrk.
  assert (Hbm : forall i, bm M (rd rowp1) k i k = bm M R k i k).
  { intros i. apply bm_ext. intros r Hr. apply Hrj. lia. }
  eapply rule_ext; [ | | eapply (@choose_pivot_rule x (F_pivs s) xi top n Ht ltac:(lia) Hxl Hpv Hxr env order tol (rd q k)); eauto].
  - intros i. split.
    + intros ((a & Ha & <-) & H1 & H2). pose proof (@Hxr a Ha) as Hi. split; auto.
      apply Hpiv in H1; auto. split. apply PIN; auto; lia. rewrite Hbm. rewrite <- Hx1; auto. left; exists a; auto.
    + intros (Hi & H1 & H2). rewrite Hbm in H2. apply PIN in H1; auto; try lia.
      destruct (@inP_dec n top xi i) as [Hin|Hn].
      * split; auto. split. apply Hpiv; auto. rewrite Hx1; auto.
      * exfalso. apply H2. apply Hout; auto; lia.
  - intros i ((a & Ha & <-) & H1 & H2). pose proof (@Hxr a Ha) as Hi. rewrite Hbm. symmetry. apply Hx1; auto. left; exists a; auto.
    apply Hpiv; auto.
Qed.

Lemma wp_ok_and A (m : res A) (P1 P2 : A -> Prop) E : wp m P1 E -> (forall a, m = Ok a -> P2 a) -> wp m (fun a => P1 a /\ P2 a) E.
Proof. destruct m; simpl; auto. Qed.

Lemma step_rule_stable order tol k j (p p' R R' : Z -> Z) : 0 <= j < k ->
  (forall t, 0 <= t < k -> R' t = R t) ->
  (forall i, 0 <= i < n -> forall t, 0 <= t <= k -> t <= p i <-> t <= p' i) ->
  step_rule order tol n M q p R j -> step_rule order tol n M q p' R' j.
Proof.
  intros Hj H1 H2 H. unfold step_rule in *. rewrite (H1 j) by lia.
  assert (Hbm : forall i, bm M R' j i j = bm M R j i j) by (intros i; apply bm_ext; intros r Hr; apply H1; lia).
  eapply rule_ext; [| |exact H].
  - intros i. cbv beta. rewrite Hbm. split; intros (A & B & C); (split; [exact A|]); (split; [|exact C]).
    + apply (H2 i A j); auto; lia.
    + apply (H2 i A j); auto; lia.
  - intros i _. apply Hbm.
Qed.

Lemma factor_loop_rule env order tol lnz0 unz0 : env_ok env order -> n <= 2 * Z.max lnz0 1 ->
  wp (for_ 0 n (fun k s => factor_step env order tol n Ap Ai Ax q k s) (factor_init n lnz0 unz0))
     (fun s => finv n Ap Ai Ax q n s /\ forall k, 0 <= k < n -> step_rule order tol n M q (rd (F_pinv s)) (rd (F_rowp s)) k)
     (Edet n Ap Ai Ax q).
Proof.
  intros He H1.
  apply wp_for with (I := fun k s => finv n Ap Ai Ax q k s /\ forall j, 0 <= j < k -> step_rule order tol n M q (rd (F_pinv s)) (rd (F_rowp s)) j).
  - apply V.
  - split. apply factor_init_inv; auto using perm_map. intros; lia.
  - intros k s Hk [I J]. apply wp_ok_and. apply factor_step_spec; auto using perm_map.
    intros s' E. destruct (@factor_step_rule env order tol k s s' Hk He I E) as (A & B & C).
    intros j Hj. destruct (Z.eq_dec j k) as [->|]; auto.
    apply (@step_rule_stable order tol k j (rd (F_pinv s)) _ (rd (F_rowp s))); auto; try lia. apply J; lia.
Qed.
End Fac.

Theorem factorize_core_rule env order tol n Ap Ai Ax q lnz0 unz0 F :
  valid_csc n n Ap Ai Ax -> is_perm n q -> env_ok env order -> n <= 2 * Z.max lnz0 1 ->
  factorize_core env order tol n Ap Ai Ax q lnz0 unz0 = Ok F ->
  exists R, fac_ok n (colmat Ap Ai Ax q) R F /\
    forall k, 0 <= k < n -> step_rule order tol n (colmat Ap Ai Ax q) q (rd (fac_pinv F)) R k.
Proof.
  intros V HQ He H1 E.
  pose proof (@factorize_core_spec env order tol n Ap Ai Ax q lnz0 unz0 V HQ He H1) as W. rewrite E in W. destruct W as (R & K).
  exists R. split; auto.
  unfold factorize_core in E. pose proof (@factor_loop_rule n Ap Ai Ax q V HQ env order tol lnz0 unz0 He H1) as W.
  destruct (for_ 0 n _ _) as [s| | |] eqn:ES in E; try discriminate.
  rewrite ES in W. destruct W as [I J]. cbn [bind] in E.
  repeat (apply bind_ok in E; destruct E as (? & _ & E)). injection E as <-. cbn [fac_pinv] in *.
  intros k Hk. pose proof (fi_perm I) as P.
  assert (HR : forall t, 0 <= t < n -> R t = rd (F_rowp s) t).
  { intros t Ht. destruct (fk_R K Ht) as [B1 B2]. cbn [fac_pinv] in B2. rewrite <- (p_c1 P B1). now rewrite B2. }
  apply (@step_rule_stable n Ap Ai Ax q order tol n k (rd (F_pinv s)) _ (rd (F_rowp s))); auto; try lia.
Qed.
