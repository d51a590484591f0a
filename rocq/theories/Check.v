(* Boolean checkers for the specification predicates, used only to show that concrete cases meet the hypotheses. *)
From Verif Require Import Base Spec SumQ MMatrix MApi ApiSpec.
Set Implicit Arguments.
Open Scope Z_scope.

Definition allz (a b : Z) (f : Z -> bool) : bool := forallb f (zseq a b).
Lemma allz_ok {a b f} : allz a b f = true -> forall i, a <= i < b -> f i = true.
Proof. intros H i Hi. unfold allz in H. rewrite forallb_forall in H. apply H. now apply in_zseq. Qed.

Definition valid_cscb (m n : Z) (Ap Ai Ax : list Z) : bool :=
  (0 <=? m) && (0 <=? n) && (zlen Ap =? n + 1) && (rd Ap 0 =? 0) && allz 0 n (fun c => rd Ap c <=? rd Ap (c + 1)) &&
  (rd Ap n <=? zlen Ai) && (zlen Ax =? zlen Ai) && allz 0 (rd Ap n) (fun p => (0 <=? rd Ai p) && (rd Ai p <? m)) &&
  allz 0 n (fun c => allz (rd Ap c) (rd Ap (c + 1)) (fun p => allz (rd Ap c) (rd Ap (c + 1)) (fun p' =>
    implb (rd Ai p =? rd Ai p') (p =? p')))).
Lemma valid_cscb_ok m n Ap Ai Ax : valid_cscb m n Ap Ai Ax = true -> valid_csc m n Ap Ai Ax.
Proof.
  unfold valid_cscb. rewrite !andb_true_iff. intros [[[[[[[[H1 H2] H3] H4] H5] H6] H7] H8] H9].
  apply Z.leb_le in H1. apply Z.leb_le in H2. apply Z.eqb_eq in H3. apply Z.eqb_eq in H4. apply Z.leb_le in H6. apply Z.eqb_eq in H7.
  constructor; auto.
  - intros c Hc. apply Z.leb_le. exact (allz_ok H5 Hc).
  - intros p Hp. pose proof (allz_ok H8 Hp) as H. simpl in H. apply andb_true_iff in H. lia.
  - intros c p p' Hc Hp Hp' He. pose proof (allz_ok (allz_ok (allz_ok H9 Hc) Hp) Hp') as H. simpl in H.
    rewrite He, Z.eqb_refl in H. simpl in H. now apply Z.eqb_eq.
Qed.
Definition is_permb (n : Z) (l : list Z) : bool :=
  (n <=? zlen l) && allz 0 n (fun i => (0 <=? rd l i) && (rd l i <? n)) &&
  allz 0 n (fun i => allz 0 n (fun j => implb (rd l i =? rd l j) (i =? j))).
Lemma is_permb_ok n l : is_permb n l = true -> is_perm n l.
Proof.
  unfold is_permb. rewrite !andb_true_iff. intros [[H1 H2] H3]. split. lia. split.
  - intros i Hi. pose proof (allz_ok H2 Hi) as H. simpl in H. lia.
  - intros i j Hi Hj He. pose proof (allz_ok (allz_ok H3 Hi) Hj) as H. simpl in H. rewrite He, Z.eqb_refl in H. now apply Z.eqb_eq.
Qed.
(* an n-by-n (m-by-n) integer matrix object *)
Definition mkcsc (m n : Z) (Ap Ai Ax : list Z) : matrix :=
  mkM m n (zlen Ai) 0 KCSC TMPZ (Some Ap) (Some Ai) None (Some (VZ Ax)) 1%Q.
Lemma int_cscb m n Ap Ai Ax : valid_cscb m n Ap Ai Ax = true -> int_csc m n (mkcsc m n Ap Ai Ax).
Proof. intros H. constructor; try reflexivity. exists Ap, Ai, Ax. repeat (split; [reflexivity|]). now apply valid_cscb_ok. Qed.
Lemma usableb n An : is_permb n (s_q An) && (n <=? 2 * Z.max (s_lnz An) 1) = true -> usable n An.
Proof. rewrite andb_true_iff. intros [H1 H2]. split. now apply is_permb_ok. lia. Qed.
