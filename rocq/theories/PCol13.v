(* COLAMD, part 13: transposition, init_rows_cols. *)
From Verif Require Import Base Det DetZ Spec MColamd PCol1 PCol2 PCol3.
Set Implicit Arguments.
Open Scope Z_scope.
Set Bullet Behavior "Strict Subproofs".

Lemma mono_le f N : (forall x, 0 <= x < N -> f x <= f (x + 1)) -> forall x y, 0 <= x -> x <= y -> y <= N -> f x <= f y.
Proof.
  intros H x y Hx Hxy Hy. replace y with (x + (y - x)) by lia. assert (D : y - x <= N - x) by lia. revert D. pattern (y - x). apply natlike_ind; [|intros d Hd IH D|lia].
  - rewrite Z.add_0_r. lia.
  - unfold Z.succ in *. specialize (IH ltac:(lia)). specialize (H (x + d) ltac:(lia)). replace (x + (d + 1)) with (x + d + 1) by lia. lia.
Qed.
Lemma cover f N j : 0 <= N -> f 0 <= j < f N -> exists x, 0 <= x < N /\ f x <= j < f (x + 1).
Proof.
  intros HN. pattern N. apply natlike_ind; [lia| |exact HN]. intros d Hd IH H. unfold Z.succ in *. destruct (Z_lt_le_dec j (f d)) as [X|X].
  - destruct IH as (x & ? & ?); [lia|]. exists x. lia.
  - exists d. lia.
Qed.

Section Tran.
Variables (N M : Z) (S T : Z -> Z) (A0 : list Z).
Definition cntt (y t : Z) : Z := sumz (t - S 0) (fun i => b2z (rd A0 (S 0 + i) =? y)).
Hypothesis HN : 0 <= N.
Hypothesis HM : 0 <= M.
Hypothesis HS : forall x, 0 <= x < N -> S x <= S (x + 1).
Hypothesis HR : forall j, S 0 <= j < S N -> 0 <= rd A0 j < M.
Hypothesis HI : forall x, 0 <= x < N -> injs A0 (S x) (S (x + 1) - S x).

Lemma S_mono x y : 0 <= x -> x <= y -> y <= N -> S x <= S y. Proof. apply mono_le. exact HS. Qed.
Lemma cntt_0 y : cntt y (S 0) = 0.
Proof. unfold cntt. rewrite Z.sub_diag. reflexivity. Qed.
Lemma cntt_S y t : S 0 <= t -> cntt y (t + 1) = cntt y t + b2z (rd A0 t =? y).
Proof. intros H. unfold cntt. replace (t + 1 - S 0) with (t - S 0 + 1) by lia. rewrite sumz_S by lia. do 3 f_equal. f_equal. lia. Qed.
Lemma cntt_mono y t t' : S 0 <= t -> t <= t' -> cntt y t <= cntt y t'.
Proof.
  intros Ht H. replace t' with (t + (t' - t)) by lia. pattern (t' - t). apply natlike_ind; [rewrite Z.add_0_r; lia| |lia].
  intros d Hd IH. unfold Z.succ. replace (t + (d + 1)) with (t + d + 1) by lia. rewrite cntt_S by lia. unfold b2z. destruct (_ =? _); lia.
Qed.
Lemma cntt_nonneg y t : S 0 <= t -> 0 <= cntt y t.
Proof. intros H. rewrite <- (cntt_0 y). apply cntt_mono; lia. Qed.
Lemma cntt_tot t : S 0 <= t <= S N -> sumz M (fun y => cntt y t) = t - S 0.
Proof.
  intros H. unfold cntt. rewrite sumz_swap. transitivity (sumz (t - S 0) (fun _ => 1)).
  - apply sumz_ext. intros i Hi. pose proof (HR (j := S 0 + i) ltac:(lia)). rewrite (@sumz_single M _ (rd A0 (S 0 + i))); [rewrite Z.eqb_refl; reflexivity|assumption|].
    intros k Hk Hne. rewrite (proj2 (Z.eqb_neq _ _)) by lia. reflexivity.
  - rewrite sumz_const by lia. lia.
Qed.
(* count within a segment *)
Lemma cntt_in y s l : S 0 <= s -> 0 <= l -> injs A0 s l -> cntt y (s + l) = cntt y s + b2z (memb A0 s l y).
Proof.
  intros Hs Hl. pattern l. apply natlike_ind; [| |exact Hl].
  - intros _. rewrite Z.add_0_r, memb_0 by lia. cbn [b2z]. lia.
  - intros d Hd IH J. unfold Z.succ in *. apply injs_S in J; [|lia]. destruct J as (J & E). rewrite Z.add_assoc, cntt_S by lia. rewrite IH by exact J. rewrite memb_S by lia.
    destruct (Z.eqb_spec (rd A0 (s + d)) y) as [X|X]; [rewrite X in E; rewrite E; cbn [b2z orb]; lia|rewrite Bool.orb_false_r; cbn [b2z]; lia].
Qed.
Lemma cntt_seg y x : 0 <= x <= N -> cntt y (S x) = sumz x (fun x' => b2z (memb A0 (S x') (S (x' + 1) - S x') y)).
Proof.
  intros (Hx & Hx'). revert Hx'. pattern x. apply natlike_ind; [|intros d Hd IH D|exact Hx].
  - intros _. rewrite cntt_0. reflexivity.
  - unfold Z.succ in *. rewrite sumz_S by lia. rewrite <- IH by lia. rewrite <- cntt_in; [f_equal; lia|apply S_mono; lia| |apply HI; lia]. specialize (HS (x := d)). lia.
Qed.

(* T: where the lists of the targets start *)
Hypothesis HT : forall y, 0 <= y < M -> T (y + 1) = T y + cntt y (S N).
Hypothesis HD : forall j, S 0 <= j < S N -> j < T 0 \/ T M <= j.
Hypothesis HB : 0 <= S 0 /\ 0 <= T 0 /\ S N <= zlen A0 /\ T M <= zlen A0.

Lemma T_mono x y : 0 <= x -> x <= y -> y <= M -> T x <= T y.
Proof. apply mono_le. intros z Hz. rewrite HT by exact Hz. pose proof (@cntt_nonneg z (S N) ltac:(apply S_mono; lia)). lia. Qed.
Lemma T_sum y : 0 <= y <= M -> T y = T 0 + sumz y (fun y => cntt y (S N)).
Proof.
  intros (Hy & Hy'). revert Hy'. pattern y. apply natlike_ind; [|intros d Hd IH D|exact Hy].
  - intros _. cbn. lia.
  - unfold Z.succ in *. rewrite HT, sumz_S, IH by lia. lia.
Qed.
Lemma T_end : T M = T 0 + (S N - S 0).
Proof. rewrite T_sum by lia. rewrite cntt_tot; [reflexivity|]. split; [apply S_mono; lia|lia]. Qed.

Record tinv (t : Z) (A P : list Z) : Prop := {
  ti_A : zlen A = zlen A0;
  ti_o : forall j, 0 <= j -> j < T 0 \/ T M <= j -> rd A j = rd A0 j;
  ti_P : forall y, 0 <= y < M -> rd P y = T y + cntt y t;
  ti_i : forall y, 0 <= y < M -> injs A (T y) (cntt y t);
  ti_m : forall y x, 0 <= y < M -> (memb A (T y) (cntt y t) x = true <-> 0 <= x < N /\ exists j, S x <= j < S (x + 1) /\ j < t /\ rd A0 j = y) }.

Lemma tinv_0 P : (forall y, 0 <= y < M -> rd P y = T y) -> tinv (S 0) A0 P.
Proof.
  intros H. constructor; auto.
  - intros y Hy. rewrite cntt_0, H by exact Hy. lia.
  - intros y Hy. rewrite cntt_0. apply injs_0.
  - intros y x Hy. rewrite cntt_0, memb_0 by lia. split; [discriminate|]. intros (Hx & j & Hj & Ht & _). pose proof (S_mono (x := 0) (y := x) ltac:(lia) ltac:(lia) ltac:(lia)). lia.
Qed.
Lemma tinv_src t A P x : tinv t A P -> 0 <= x < N -> S x <= t < S (x + 1) -> 0 <= t < zlen A /\ rd A t = rd A0 t /\ 0 <= rd A0 t < M /\ 0 <= rd P (rd A0 t) < zlen A.
Proof.
  intros I Hx Ht. pose proof (S_mono (x := 0) (y := x) ltac:(lia) ltac:(lia) ltac:(lia)). pose proof (S_mono (x := x + 1) (y := N) ltac:(lia) ltac:(lia) ltac:(lia)).
  pose proof (HR (j := t) ltac:(lia)) as R. rewrite (ti_A I). split; [lia|]. split; [apply (ti_o I); [lia|apply HD; lia]|]. split; [exact R|].
  rewrite (ti_P I) by exact R. pose proof (@cntt_nonneg (rd A0 t) t ltac:(lia)). pose proof (T_mono (x := 0) (y := rd A0 t) ltac:(lia) ltac:(lia) ltac:(lia)). pose proof (T_mono (x := rd A0 t + 1) (y := M) ltac:(lia) ltac:(lia) ltac:(lia)).
  pose proof (HT R). pose proof (@cntt_S (rd A0 t) t ltac:(lia)) as C. rewrite Z.eqb_refl in C. cbn [b2z] in C. pose proof (@cntt_mono (rd A0 t) (t + 1) (S N) ltac:(lia) ltac:(lia)). lia.
Qed.
Lemma tinv_S t A P x : tinv t A P -> 0 <= x < N -> S x <= t < S (x + 1) -> M <= zlen P ->
  tinv (t + 1) (wr A (rd P (rd A0 t)) x) (wr P (rd A0 t) (rd P (rd A0 t) + 1)).
Proof.
  intros I Hx Ht LP. destruct (tinv_src I Hx Ht) as (R1 & R2 & R3 & R4). set (y0 := rd A0 t) in *. set (q := rd P y0) in *.
  pose proof (S_mono (x := 0) (y := x) ltac:(lia) ltac:(lia) ltac:(lia)) as S0. pose proof (S_mono (x := x + 1) (y := N) ltac:(lia) ltac:(lia) ltac:(lia)) as S1.
  assert (Eq : q = T y0 + cntt y0 t) by apply (ti_P I R3).
  assert (CN : forall y, 0 <= cntt y t) by (intros y; apply cntt_nonneg; lia).
  assert (CS : forall y, cntt y t <= cntt y (t + 1) <= cntt y (S N)) by (intros y; split; apply cntt_mono; lia).
  assert (C0 : cntt y0 (t + 1) = cntt y0 t + 1) by (rewrite cntt_S by lia; fold y0; rewrite Z.eqb_refl; reflexivity).
  assert (Cne : forall y, y <> y0 -> cntt y (t + 1) = cntt y t) by (intros y Ny; rewrite cntt_S by lia; fold y0; rewrite (proj2 (Z.eqb_neq y0 y)) by congruence; cbn [b2z]; lia).
  assert (OUT : forall y j, 0 <= y < M -> y <> y0 -> T y <= j < T y + cntt y (S N) -> j <> q).
  { intros y j Hy Ny Hj E. pose proof (HT Hy). pose proof (HT R3). pose proof (CS y0). pose proof (CN y0). destruct (Z_lt_le_dec y y0).
    - pose proof (T_mono (x := y + 1) (y := y0) ltac:(lia) ltac:(lia) ltac:(lia)). lia.
    - pose proof (T_mono (x := y0 + 1) (y := y) ltac:(lia) ltac:(lia) ltac:(lia)). lia. }
  assert (T0y : forall y, 0 <= y < M -> 0 <= T y). { intros y Hy. pose proof (T_mono (x := 0) (y := y) ltac:(lia) ltac:(lia) ltac:(lia)). lia. }
  assert (OLD : forall y j, 0 <= y < M -> T y <= j < T y + cntt y t -> rd (wr A q x) j = rd A j).
  { intros y j Hy Hj. specialize (T0y y Hy). apply rd_wr_ne; [lia|lia|]. intros E. destruct (Z.eq_dec y y0) as [->|Ny]; [lia|]. apply (OUT y j Hy Ny); [pose proof (CS y); lia|auto]. }
  assert (NEW : memb A (T y0) (cntt y0 t) x = false).
  { apply Bool.not_true_iff_false. intros X. apply (ti_m I x R3) in X. destruct X as (_ & j & Hj & Lt & E). assert (j = t); [|lia]. apply (HI Hx); [lia|lia|]. rewrite E. reflexivity. }
  constructor.
  - rewrite zlen_wr. apply (ti_A I).
  - intros j Hj0 Hj. rewrite rd_wr_ne; [apply (ti_o I); auto|lia|lia|]. intros E. pose proof (HT R3). pose proof (CS y0). pose proof (T_mono (x := 0) (y := y0) ltac:(lia) ltac:(lia) ltac:(lia)). pose proof (T_mono (x := y0 + 1) (y := M) ltac:(lia) ltac:(lia) ltac:(lia)). specialize (CN y0). lia.
  - intros y Hy. destruct (Z.eq_dec y y0) as [->|Ny]; [rewrite rd_wr_eq by lia; lia|]. rewrite rd_wr_ne by lia. rewrite Cne by exact Ny. apply (ti_P I Hy).
  - intros y Hy. destruct (Z.eq_dec y y0) as [->|Ny].
    + rewrite C0. apply injs_S; [apply CN|]. split; [apply (injs_ext (A := A)); [intros j Hj; symmetry; apply OLD with (y := y0); auto|apply (ti_i I Hy)]|]. rewrite <- Eq, rd_wr_eq by lia. rewrite <- NEW. apply memb_ext. intros j Hj. apply OLD with (y := y0); auto.
    + rewrite Cne by exact Ny. apply (injs_ext (A := A)); [intros j Hj; symmetry; apply OLD with (y := y); auto|apply (ti_i I Hy)].
  - intros y x' Hy. destruct (Z.eq_dec y y0) as [->|Ny].
    + rewrite C0, memb_S by apply CN. rewrite <- Eq, rd_wr_eq by lia. rewrite (@memb_ext _ A) by (intros j Hj; apply OLD with (y := y0); auto). rewrite Bool.orb_true_iff, (ti_m I x' Hy), Z.eqb_eq. split.
      * intros [(Hx' & j & Hj & Lt & E)| <-]; [split; [exact Hx'|]; exists j; repeat split; auto; lia|]. split; [exact Hx|]. exists t. repeat split; auto; lia.
      * intros (Hx' & j & Hj & Lt & E). destruct (Z.eq_dec j t) as [->|Nj]; [right|left; split; [exact Hx'|]; exists j; repeat split; auto; lia].
        destruct (Z_lt_le_dec x x') as [X|X]; [pose proof (S_mono (x := x + 1) (y := x') ltac:(lia) ltac:(lia) ltac:(lia)); lia|]. destruct (Z_lt_le_dec x' x) as [X'|X']; [pose proof (S_mono (x := x' + 1) (y := x) ltac:(lia) ltac:(lia) ltac:(lia)); lia|lia].
    + rewrite Cne by exact Ny. rewrite (@memb_ext _ A) by (intros j Hj; apply OLD with (y := y); auto). rewrite (ti_m I x' Hy). split; intros (Hx' & j & Hj & Lt & E); (split; [exact Hx'|]); exists j; repeat split; auto; try lia.
      destruct (Z.eq_dec j t) as [->|Nj]; [|lia]. exfalso. apply Ny. rewrite <- E. reflexivity.
Qed.

(* at the end *)
Lemma tinv_end A P : tinv (S N) A P ->
  (forall y, 0 <= y < M -> injs A (T y) (T (y + 1) - T y)) /\
  (forall y x, 0 <= y < M -> 0 <= x < N -> memb A (T y) (T (y + 1) - T y) x = memb A0 (S x) (S (x + 1) - S x) y) /\
  (forall j, T 0 <= j < T M -> 0 <= rd A j < N) /\ (forall j, S 0 <= j < S N -> rd A j = rd A0 j).
Proof.
  intros I. assert (E : forall y, 0 <= y < M -> T (y + 1) - T y = cntt y (S N)) by (intros y Hy; rewrite HT by exact Hy; lia). repeat split.
  - intros y Hy. rewrite E by exact Hy. apply (ti_i I Hy).
  - intros y x Hy Hx. rewrite E by exact Hy. apply bool_iff. rewrite (ti_m I x Hy), memb_spec. split.
    + intros (_ & j & Hj & _ & X). exists j. split; [lia|exact X].
    + intros (j & Hj & X). split; [exact Hx|]. exists j. pose proof (S_mono (x := x + 1) (y := N) ltac:(lia) ltac:(lia) ltac:(lia)). repeat split; auto; lia.
  - destruct (cover T HM H) as (y & Hy & Hj). assert (X : memb A (T y) (cntt y (S N)) (rd A j) = true) by (apply memb_at; rewrite <- E by exact Hy; lia). apply (ti_m I _ Hy) in X. apply X.
  - destruct (cover T HM H) as (y & Hy & Hj). assert (X : memb A (T y) (cntt y (S N)) (rd A j) = true) by (apply memb_at; rewrite <- E by exact Hy; lia). apply (ti_m I _ Hy) in X. apply X.
  - intros j Hj. apply (ti_o I); [lia|apply HD; exact Hj].
Qed.
End Tran.
