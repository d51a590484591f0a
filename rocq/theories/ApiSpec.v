(* Specification vocabulary at the level of the user-callable API: what a SLIP_matrix denotes, what a usable analysis is, what
   it means to solve a linear system, and what is assumed of the ordering libraries AMD and COLAMD.
   Nothing here refers to the algorithms. *)
From Verif Require Import Base DetZ Spec SumQ MMatrix MApi.
From Verif Require Export LUSpec.
Set Implicit Arguments.
Open Scope Z_scope.

(* entry (i,j) of an integer matrix object in compressed-column form *)
Definition Cent (A : matrix) (i j : Z) : Z :=
  match m_p A, m_i A, m_x A with Some p, Some r, Some (VZ x) => ent p r x i j | _, _, _ => 0 end.
(* entry (i,j) of an integer dense matrix object, stored by columns *)
Definition Dent (B : matrix) (i j : Z) : Z :=
  match m_x B with Some (VZ x) => rd x (i + j * m_m B) | _ => 0 end.
(* entry (i,j) of a rational dense matrix object, stored by columns *)
Definition Qent (X : matrix) (i j : Z) : Q :=
  match m_x X with Some (VQ x) => rdq x (i + j * m_m X) | _ => 0%Q end.

(* A is a structurally valid m-by-n integer compressed-column matrix *)
Record int_csc (m n : Z) (A : matrix) : Prop := {
  ic_m : m_m A = m;
  ic_n : m_n A = n;
  ic_kind : m_kind A = KCSC;
  ic_type : m_type A = TMPZ;
  ic_arr : exists Ap Ai Ax, m_p A = Some Ap /\ m_i A = Some Ai /\ m_x A = Some (VZ Ax) /\ valid_csc m n Ap Ai Ax }.

(* B is an m-by-n integer dense matrix (array of max (m*n,1) cells, as SLIP_matrix_allocate makes it) *)
Record int_dense (m n : Z) (B : matrix) : Prop := {
  id_m : m_m B = m;
  id_n : m_n B = n;
  id_kind : m_kind B = KDENSE;
  id_type : m_type B = TMPZ;
  id_pos : 0 <= m /\ 0 <= n;
  id_arr : exists b, m_x B = Some (VZ b) /\ zlen b = Z.max (m * n) 1 }.

(* X is an m-by-n rational dense matrix with scale 1 whose entries are all in lowest terms *)
Record rat_dense (m n : Z) (X : matrix) : Prop := {
  rq_m : m_m X = m;
  rq_n : m_n X = n;
  rq_kind : m_kind X = KDENSE;
  rq_type : m_type X = TMPQ;
  rq_scale : m_scale X = 1%Q;
  rq_rest : m_nzmax X = Z.max (m * n) 1 /\ m_nz X = 0 /\ m_p X = None /\ m_i X = None /\ m_j X = None;
  rq_arr : exists x, m_x X = Some (VQ x) /\ zlen x = Z.max (m * n) 1 /\ forall v, In v x -> Qred v = v }.

(* (A / scale A) * X = B / scale B, exactly, in rational arithmetic; A is n-by-n *)
Definition solves (n : Z) (A B X : matrix) : Prop :=
  forall i r, 0 <= i < n -> 0 <= r < m_n B ->
    (sumQ n (fun c => inject_Z (Cent A i c) / m_scale A * Qent X c r) == inject_Z (Dent B i r) / m_scale B)%Q.

(* the column order is a permutation and the estimate for L is at least n/2 (none is needed for U) *)
Definition usable (n : Z) (An : analysis) : Prop := is_perm n (s_q An) /\ n <= 2 * Z.max (s_lnz An) 1.

(* the pattern of a matrix is valid: valid_csc without the values *)
Record valid_pattern (m n : Z) (Ap Ai : list Z) : Prop := {
  vp_m : 0 <= m;
  vp_n : 0 <= n;
  vp_p : zlen Ap = n + 1;
  vp_0 : rd Ap 0 = 0;
  vp_mono : forall c, 0 <= c < n -> rd Ap c <= rd Ap (c + 1);
  vp_cap : rd Ap n <= zlen Ai;
  vp_i : forall p, 0 <= p < rd Ap n -> 0 <= rd Ai p < m;
  vp_dup : forall c p p', 0 <= c < n -> rd Ap c <= p < rd Ap (c + 1) -> rd Ap c <= p' < rd Ap (c + 1) ->
           rd Ai p = rd Ai p' -> p = p' }.

