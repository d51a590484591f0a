(* The factorization identity and the minors stored in L and U, from the postcondition of factorize.  Proof file. *)
From Coq Require Import Setoid Factorial.
From Verif Require Import Base Spec SumQ MFactor LUSpec PTri PFactor MSolve PSolve PSolve2.
Set Implicit Arguments.
Open Scope Z_scope.

(* pivot k-1, with the convention that the pivot before the first is 1 *)
Definition prev (rhos : list Z) (k : Z) : Z := if k =? 0 then 1 else rd rhos (k - 1).

Section S.
Variables (n : Z) (Ap Ai Ax q : list Z) (R : Z -> Z) (F : factors).
Let M := colmat Ap Ai Ax q.
Hypothesis K : fac_ok n M R F.
Hypothesis HQ : is_perm n q.

Lemma prev_lead k : 0 <= k <= n -> prev (fac_rhos F) k = lead M R k.
Proof.
  intros Hk. unfold prev. destruct (Z.eqb_spec k 0) as [->|]. now rewrite lead_0.
  destruct (fk_rho K (j := k - 1)) as [-> _]. lia. f_equal. lia.
Qed.

Lemma injz_nz z : z <> 0 -> ~ (inject_Z z == 0)%Q.
Proof. intros H E. apply H. apply inject_Z_injective. rewrite E. reflexivity. Qed.

Lemma lu_identity i j : 0 <= i < n -> 0 <= j < n ->
  (sumQ n (fun k => inject_Z (ent (fac_Lp F) (fac_Li F) (fac_Lx F) (rd (fac_pinv F) i) k) *
                    inject_Z (ent (fac_Up F) (fac_Ui F) (fac_Ux F) k j) /
                    (inject_Z (prev (fac_rhos F) k) * inject_Z (rd (fac_rhos F) k)))
   == inject_Z (ent Ap Ai Ax i (rd q j)))%Q.
Proof.
  intros Hi Hj. destruct (fk_P K Hi) as [Ht HR]. set (t := rd (fac_pinv F) i) in *.
  assert (G : forall m, 0 <= m -> m <= n ->
    (sumQ m (fun k => inject_Z (ent (fac_Lp F) (fac_Li F) (fac_Lx F) t k) *
                    inject_Z (ent (fac_Up F) (fac_Ui F) (fac_Ux F) k j) /
                    (inject_Z (prev (fac_rhos F) k) * inject_Z (rd (fac_rhos F) k)))
     == inject_Z (M i j) - inject_Z (bm M R m i j) / inject_Z (lead M R m))%Q).
  { intros m Hm. pattern m. apply natlike_ind; auto.
    - intros _. rewrite sumQ_0, bm_0, lead_0 by lia. field.
    - intros k Hk IH Hle. unfold Z.succ in *. rewrite sumQ_S, IH by lia.
      rewrite prev_lead by lia. destruct (fk_rho K (j := k)) as [-> _]. lia.
      assert (N1 : lead M R k <> 0) by (apply (fac_lead_nz K); lia).
      assert (N2 : lead M R (k + 1) <> 0) by (apply (fac_lead_nz K); lia).
      assert (EL : ent (fac_Lp F) (fac_Li F) (fac_Lx F) t k = bm M R k i k).
      { rewrite (entL K) by lia. rewrite HR. destruct (Z.leb_spec k t); auto. rewrite <- HR. symmetry. apply bm_dup; lia. }
      assert (EU : ent (fac_Up F) (fac_Ui F) (fac_Ux F) k j = bm M R k (R k) j).
      { rewrite (entU K) by lia. destruct (Z.leb_spec k j); auto. symmetry. apply bm_dupc; lia. }
      rewrite EL, EU. pose proof (@bm_step M R k i j Hk N1) as Eb. rewrite <- lead_S in Eb by lia.
      apply (f_equal inject_Z) in Eb. rewrite !inject_Z_mult in Eb. unfold Zminus in Eb.
      rewrite inject_Z_plus, inject_Z_opp, !inject_Z_mult in Eb.
      apply injz_nz in N1. apply injz_nz in N2.
      assert (Eb' : (inject_Z (bm M R k i k) * inject_Z (bm M R k (R k) j) ==
         inject_Z (lead M R (k + 1)) * inject_Z (bm M R k i j) - inject_Z (lead M R k) * inject_Z (bm M R (k + 1) i j))%Q).
      { rewrite Eb. ring. }
      rewrite Eb'. field. auto. }
  rewrite (G n) by lia. rewrite bm_dupc by lia. unfold M, colmat. unfold Qdiv. setoid_replace (inject_Z 0) with 0%Q by reflexivity. ring.
Qed.

Lemma sel_rows r : forall j, 0 <= j <= r -> r < n ->
  (forall a, 0 <= a < j + 1 -> 0 <= sel R j (R r) a < n) /\
  (forall a b, 0 <= a < j + 1 -> 0 <= b < j + 1 -> sel R j (R r) a = sel R j (R r) b -> a = b).
Proof.
  intros j Hj Hr.
  assert (RI : forall a b, 0 <= a < n -> 0 <= b < n -> R a = R b -> a = b).
  { intros a b Ha Hb E. destruct (fk_R K Ha) as [_ <-]. destruct (fk_R K Hb) as [_ <-]. now rewrite E. }
  unfold sel. split.
  - intros a Ha. destruct (Z.ltb_spec a j); apply (fk_R K); lia.
  - intros a b Ha Hb E. destruct (Z.ltb_spec a j), (Z.ltb_spec b j); try lia; apply RI in E; lia.
Qed.
Lemma sel_cols c : forall j, 0 <= j <= c -> c < n ->
  (forall a, 0 <= a < j + 1 -> 0 <= rd q (sel (fun b => b) j c a) < n) /\
  (forall a b, 0 <= a < j + 1 -> 0 <= b < j + 1 -> rd q (sel (fun b => b) j c a) = rd q (sel (fun b => b) j c b) -> a = b).
Proof.
  intros j Hj Hr. destruct HQ as (_ & Q2 & Q3). unfold sel. split.
  - intros a Ha. destruct (Z.ltb_spec a j); apply Q2; lia.
  - intros a b Ha Hb E. apply Q3 in E; destruct (Z.ltb_spec a j), (Z.ltb_spec b j); lia.
Qed.

Lemma bm_minor j r c : 0 <= j -> j <= r < n -> j <= c < n -> is_minor n (ent Ap Ai Ax) (bm M R j (R r) c).
Proof.
  intros Hj Hr Hc. exists (j + 1), (sel R j (R r)), (fun a => rd q (sel (fun b => b) j c a)).
  destruct (@sel_rows r j) as [A1 A2]; try lia. destruct (@sel_cols c j) as [B1 B2]; try lia.
  split. lia. split; auto.
Qed.

Lemma L_minor j p : 0 <= j < n -> rd (fac_Lp F) j <= p < rd (fac_Lp F) (j + 1) -> is_minor n (ent Ap Ai Ax) (rd (fac_Lx F) p).
Proof.
  intros Hj Hp. destruct (fk_Lv K Hj Hp) as [B1 ->]. pose proof (fk_L K) as V.
  pose proof (v_ptr V (c := j) (d := j + 1) ltac:(lia) ltac:(lia)). pose proof (v_i V (p := p) ltac:(lia)).
  apply bm_minor; lia.
Qed.
Lemma U_minor j p : 0 <= j < n -> rd (fac_Up F) j <= p < rd (fac_Up F) (j + 1) -> is_minor n (ent Ap Ai Ax) (rd (fac_Ux F) p).
Proof.
  intros Hj Hp. destruct (fk_Uv K Hj Hp) as [B1 ->]. pose proof (fk_U K) as V.
  pose proof (v_ptr V (c := j) (d := j + 1) ltac:(lia) ltac:(lia)). pose proof (v_i V (p := p) ltac:(lia)).
  apply bm_minor; lia.
Qed.
End S.

Lemma minor_bound n A B v : 0 <= n -> 1 <= B ->
  (forall i j, 0 <= i < n -> 0 <= j < n -> Z.abs (A i j) <= B) -> is_minor n A v ->
  Z.abs v <= Z.of_nat (fact (Z.to_nat n)) * B ^ n.
Proof.
  intros Hn HB HA (s & f & g & Hs & F1 & F2 & G1 & G2 & ->).
  pose proof (@detz_bound s (fun a b => A (f a) (g b)) B ltac:(lia) ltac:(lia)) as D.
  specialize (D ltac:(intros; apply HA; auto)).
  assert (Z.of_nat (fact (Z.to_nat s)) <= Z.of_nat (fact (Z.to_nat n))).
  { apply inj_le, fact_le. lia. }
  assert (B ^ s <= B ^ n) by (apply Z.pow_le_mono_r; lia).
  pose proof (Z.pow_pos_nonneg B s ltac:(lia) ltac:(lia)). nia.
Qed.
