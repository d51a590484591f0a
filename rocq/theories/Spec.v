(* Specification vocabulary: what a sparse matrix denotes, permutations, exact solutions.  Nothing here refers to the
   algorithms. *)
From Verif Require Import Base.
From Verif Require Export DetZ.
Set Implicit Arguments.
Open Scope Z_scope.

(* entry (i,c) denoted by a compressed-column matrix: the sum of the values stored in column c at row i *)
Definition ent (Ap Ai Ax : list Z) (i c : Z) : Z :=
  fold_right (fun p acc => (if rd Ai p =? i then rd Ax p else 0) + acc) 0 (zseq (rd Ap c) (rd Ap (c + 1))).

(* structurally valid m-by-n compressed-column matrix: pointers start at 0, are monotone and stay inside the arrays,
   row indices are in range and no column holds the same row twice *)
Record valid_csc (m n : Z) (Ap Ai Ax : list Z) : Prop := {
  v_m : 0 <= m;
  v_n : 0 <= n;
  v_p : zlen Ap = n + 1;
  v_0 : rd Ap 0 = 0;
  v_mono : forall c, 0 <= c < n -> rd Ap c <= rd Ap (c + 1);
  v_cap : rd Ap n <= zlen Ai;
  v_x : zlen Ax = zlen Ai;
  v_i : forall p, 0 <= p < rd Ap n -> 0 <= rd Ai p < m;
  v_dup : forall c p p', 0 <= c < n -> rd Ap c <= p < rd Ap (c + 1) -> rd Ap c <= p' < rd Ap (c + 1) ->
          rd Ai p = rd Ai p' -> p = p' }.

(* cell i of an array of any type; d outside the array *)
Definition rdg A (d : A) (l : list A) (i : Z) : A := nth (Z.to_nat i) l d.

(* l (of length at least n) holds a permutation of 0..n-1 in its first n cells *)
Definition is_perm (n : Z) (l : list Z) : Prop :=
  n <= zlen l /\
  (forall i, 0 <= i < n -> 0 <= rd l i < n) /\
  (forall i j, 0 <= i < n -> 0 <= j < n -> rd l i = rd l j -> i = j).
(* l holds indices of 0..n-1 in its first n cells, perhaps some of them twice *)
Definition is_map (n : Z) (l : list Z) : Prop := n <= zlen l /\ forall i, 0 <= i < n -> 0 <= rd l i < n.
Lemma perm_map n l : is_perm n l -> is_map n l.
Proof. intros (H1 & H2 & _). split; auto. Qed.
Coercion perm_map : is_perm >-> is_map.

(*----------------------------------------------------------------------------*)
(* basic facts *)

Lemma v_ptr m n Ap Ai Ax : valid_csc m n Ap Ai Ax ->
  forall c d, 0 <= c <= d -> d <= n -> 0 <= rd Ap c <= rd Ap d /\ rd Ap d <= rd Ap n.
Proof.
  intros V.
  assert (H1 : forall k c, 0 <= c -> c + Z.of_nat k <= n -> rd Ap c <= rd Ap (c + Z.of_nat k)).
  { induction k; intros c Hc Hk. rewrite Z.add_0_r; lia.
    specialize (IHk c Hc ltac:(lia)).
    pose proof (v_mono V (c := c + Z.of_nat k)). replace (c + Z.of_nat (S k)) with (c + Z.of_nat k + 1) by lia. lia. }
  intros c d Hc Hd. pose proof (H1 (Z.to_nat c) 0). pose proof (H1 (Z.to_nat (d - c)) c). pose proof (H1 (Z.to_nat (n - d)) d).
  pose proof (v_0 V).
  replace (0 + Z.of_nat (Z.to_nat c)) with c in * by lia.
  replace (c + Z.of_nat (Z.to_nat (d - c))) with d in * by lia.
  replace (d + Z.of_nat (Z.to_nat (n - d))) with n in * by lia. lia.
Qed.

Lemma fold_zero (l : list Z) (f : Z -> Z) : (forall p, In p l -> f p = 0) -> fold_right (fun p acc => f p + acc) 0 l = 0.
Proof. induction l; simpl; intros H; auto. rewrite IHl by auto. rewrite H; auto. Qed.

Lemma zseq_nil a b : b <= a -> zseq a b = [].
Proof. intros. unfold zseq. replace (Z.to_nat (b - a)) with O by lia. reflexivity. Qed.

Lemma zseq_cons a b : a < b -> zseq a b = a :: zseq (a + 1) b.
Proof.
  intros. unfold zseq. replace (Z.to_nat (b - a)) with (S (Z.to_nat (b - (a + 1)))) by lia.
  simpl. f_equal. lia. rewrite <- seq_shift, map_map. apply map_ext. intros; lia.
Qed.

Lemma zseq_snoc a b : a <= b -> zseq a (b + 1) = zseq a b ++ [b].
Proof.
  intros. unfold zseq. replace (Z.to_nat (b + 1 - a)) with (S (Z.to_nat (b - a))) by lia.
  rewrite seq_S, map_app. simpl. repeat f_equal. lia.
Qed.

Lemma in_zseq lo hi x : In x (zseq lo hi) <-> lo <= x < hi.
Proof.
  unfold zseq. rewrite in_map_iff. split.
  - intros (k & <- & Hk). apply in_seq in Hk. lia.
  - intros. exists (Z.to_nat (x - lo)). split. lia. apply in_seq. lia.
Qed.

Lemma fold_single a b p (f : Z -> Z) : a <= p < b -> (forall p', a <= p' < b -> p' <> p -> f p' = 0) ->
  fold_right (fun p acc => f p + acc) 0 (zseq a b) = f p.
Proof.
  remember (Z.to_nat (b - a)) as k eqn:Hk. revert a Hk. induction k; intros a Hk Hp H. lia.
  rewrite zseq_cons by lia. simpl. destruct (Z.eq_dec a p).
  - subst. rewrite fold_zero. lia. intros p' Hp'. apply in_zseq in Hp'. apply H; lia.
  - rewrite IHk; try lia. rewrite (H a); lia. intros; apply H; lia.
Qed.

Lemma ent_none Ap Ai Ax i c : (forall p, rd Ap c <= p < rd Ap (c + 1) -> rd Ai p <> i) -> ent Ap Ai Ax i c = 0.
Proof.
  intros H. unfold ent. apply fold_zero with (f := fun p => if rd Ai p =? i then rd Ax p else 0).
  intros p Hp. apply in_zseq in Hp. destruct (Z.eqb_spec (rd Ai p) i); auto. exfalso; eapply H; eauto.
Qed.

Lemma ent_some Ap Ai Ax c p : rd Ap c <= p < rd Ap (c + 1) ->
  (forall p', rd Ap c <= p' < rd Ap (c + 1) -> rd Ai p' = rd Ai p -> p' = p) ->
  ent Ap Ai Ax (rd Ai p) c = rd Ax p.
Proof.
  intros Hp H. unfold ent.
  rewrite fold_single with (f := fun p' => if rd Ai p' =? rd Ai p then rd Ax p' else 0) (p := p); auto.
  - now rewrite Z.eqb_refl.
  - intros p' Hp' Hn. destruct (Z.eqb_spec (rd Ai p') (rd Ai p)); auto. exfalso; auto.
Qed.

Lemma ent_valid m n Ap Ai Ax c p : valid_csc m n Ap Ai Ax -> 0 <= c < n -> rd Ap c <= p < rd Ap (c + 1) ->
  ent Ap Ai Ax (rd Ai p) c = rd Ax p.
Proof. intros V Hc Hp. apply ent_some; auto. intros p' Hp' He. eapply (v_dup V); eauto. Qed.
