(* A concrete run, used to show that the hypotheses of the theorems in PropLU.v and PropLU2.v are met: a 4-by-4 integer matrix
   of scale 2/3 with fill-in and a non-trivial column order, a 4-by-2 right-hand side of scale 5/2, an ordering library. *)
From Verif Require Import Base DetZ Spec SumQ MFactor MSolve MMatrix MApi ApiSpec Check.
Set Implicit Arguments.
Open Scope Z_scope.

(*  [ 2  0  0  1 ]
    [ 3 -4  0  0 ]
    [ 0  5  0  2 ]
    [-1  3  7  8 ]   *)
Definition exAp : list Z := [0; 3; 6; 8; 11].
Definition exAi : list Z := [0; 1; 3; 1; 2; 3; 2; 3; 0; 2; 3].
Definition exAx : list Z := [2; 3; -1; -4; 5; 3; 0; 7; 1; 2; 8].
Definition exA : matrix := mkM 4 4 11 0 KCSC TMPZ (Some exAp) (Some exAi) None (Some (VZ exAx)) (2 # 3)%Q.
Definition exB : matrix := mkM 4 2 8 0 KDENSE TMPZ None None None (Some (VZ [1; -2; 3; 0; 5; 7; 0; -1])) (5 # 2)%Q.
(* column 1 of exB *)
Definition exB1 : matrix := mkM 4 1 4 0 KDENSE TMPZ None None None (Some (VZ [5; 7; 0; -1])) (5 # 2)%Q.
(* a singular matrix: row 2 is row 0 plus row 1 *)
Definition exS : matrix := mkM 3 3 7 0 KCSC TMPZ (Some [0; 3; 5; 7]) (Some [0; 1; 2; 1; 2; 0; 2]) None (Some (VZ [1; 2; 3; 5; 5; 4; 4])) 1%Q.
(* AMD orders the columns naturally *)
Definition exol : ordlib := mkOL (fun _ => 20) (fun _ => 16) (fun b k => 77 - k - 3 * b).
Definition exenv : gmp_env := fun _ _ _ => Some true.
Definition exAn : analysis := mkS [0; 3; 1; 2; 0] 8 8.
Definition exAn2 : analysis := mkS [0; 1; 2; 3] 2 0.
Definition exo (pivot : Z) : option options := Some (mkO pivot 1 1%Q 0 128 RNDN false).

Lemma ex_valid : valid_csc 4 4 exAp exAi exAx.
Proof. apply valid_cscb_ok. reflexivity. Qed.
Lemma ex_csc : int_csc 4 4 exA.
Proof. constructor; try reflexivity. exists exAp, exAi, exAx. repeat (split; [reflexivity|]). exact ex_valid. Qed.
Lemma exS_csc : int_csc 3 3 exS.
Proof. constructor; try reflexivity. do 3 eexists. repeat (split; [reflexivity|]). apply valid_cscb_ok. reflexivity. Qed.
Lemma ex_dense : int_dense 4 2 exB.
Proof. constructor; try reflexivity. lia. eexists. split; reflexivity. Qed.
Lemma ex_dense1 : int_dense 4 1 exB1.
Proof. constructor; try reflexivity. lia. eexists. split; reflexivity. Qed.
Lemma ex_usable : usable 4 exAn.
Proof. apply usableb. reflexivity. Qed.
Lemma ex_usable2 : usable 4 exAn2.
Proof. apply usableb. reflexivity. Qed.
Lemma exS_usable : usable 3 (mkS [2; 0; 1] 3 3).
Proof. apply usableb. reflexivity. Qed.
Lemma ex_env o : env_ok exenv o.
Proof. intros _ a b t. discriminate. Qed.
Lemma ex_scaleA : ~ (m_scale exA == 0)%Q.  Proof. discriminate. Qed.
Lemma ex_scaleB : ~ (m_scale exB == 0)%Q.  Proof. discriminate. Qed.
Lemma ex_n : 1 <= 4.  Proof. lia. Qed.

(* analyze and factorize on these data; the factors for the default options, for the diagonal analysis and for each scheme *)
Definition fac_of (An : analysis) (o : option options) : lu :=
  match SLIP_LU_factorize exenv true true (Some exA) (Some An) o with Ok (_, Out F) => F | _ => mkLU exA exA exA [] end.
Lemma ex_analyze : SLIP_LU_analyze exol true true (Some exA) None = Ok (SOK, Out exAn).
Proof. vm_compute. reflexivity. Qed.
Lemma ex_factorize : SLIP_LU_factorize exenv true true (Some exA) (Some exAn) None = Ok (SOK, Out (fac_of exAn None)).
Proof. vm_compute. reflexivity. Qed.
Lemma ex_factorize2 : SLIP_LU_factorize exenv true true (Some exA) (Some exAn2) (exo 5) = Ok (SOK, Out (fac_of exAn2 (exo 5))).
Proof. vm_compute. reflexivity. Qed.
Lemma ex_scheme p : 0 <= p < 6 -> SLIP_LU_factorize exenv true true (Some exA) (Some exAn) (exo p) = Ok (SOK, Out (fac_of exAn (exo p))).
Proof.
  intros H. assert (p = 0 \/ p = 1 \/ p = 2 \/ p = 3 \/ p = 4 \/ p = 5) as [->|[->|[->|[->|[->| ->]]]]] by lia; vm_compute; reflexivity.
Qed.
(* the run is not trivial: rows are exchanged, the factors have fill-in, the determinant is 7 *)
Example ex_pinv : lu_pinv (fac_of exAn None) <> zseq 0 4 /\ lu_pinv (fac_of exAn None) <> lu_pinv (fac_of exAn2 (exo 5)).
Proof. split; vm_compute; discriminate. Qed.
Example ex_det : detz 4 (Cent exA) = 7 /\ detz 3 (Cent exS) = 0.
Proof. split; vm_compute; reflexivity. Qed.
