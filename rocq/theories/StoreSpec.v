(* Spec: one matrix, stored in different ways.  No proofs in this file. *)
From Verif Require Import Base Spec MMatrix ApiSpec.
Set Implicit Arguments.
Open Scope Z_scope.

(* compressed columns that may list a row twice: pointers start at 0, are monotone and stay inside the arrays, row indices are in range *)
Record loose_csc (n : Z) (Ap Ai Ax : list Z) : Prop := {
  lc_n : 0 <= n;
  lc_p : zlen Ap = n + 1;
  lc_0 : rd Ap 0 = 0;
  lc_mono : forall c, 0 <= c < n -> rd Ap c <= rd Ap (c + 1);
  lc_cap : rd Ap n <= zlen Ai;
  lc_x : rd Ap n <= zlen Ax;
  lc_i : forall p, 0 <= p < rd Ap n -> 0 <= rd Ai p < n }.

(* v is the last value that column c lists for row i *)
Definition in_force (Ap Ai Ax : list Z) (c i v : Z) : Prop :=
  exists p, rd Ap c <= p < rd Ap (c + 1) /\ rd Ai p = i /\ rd Ax p = v /\ forall p', p < p' < rd Ap (c + 1) -> rd Ai p' <> i.

(* every column lists the same rows with the same values, in any order; if a row is listed more than once, the last value counts *)
Definition same_matrix (n : Z) (Ap Ai Ax Ap' Ai' Ax' : list Z) : Prop :=
  forall c, 0 <= c < n -> forall i v, in_force Ap Ai Ax c i v <-> in_force Ap' Ai' Ax' c i v.

(* A is an n-by-n integer matrix in compressed-column form whose columns may list a row twice *)
Record loose_matrix (n : Z) (A : matrix) : Prop := {
  lm_m : m_m A = n;
  lm_n : m_n A = n;
  lm_kind : m_kind A = KCSC;
  lm_type : m_type A = TMPZ;
  lm_arr : exists Ap Ai Ax, m_p A = Some Ap /\ m_i A = Some Ai /\ m_x A = Some (VZ Ax) /\ loose_csc n Ap Ai Ax }.

(* v is the last value that column c of the matrix object lists for row i *)
Definition last_entry (A : matrix) (c i v : Z) : Prop :=
  match m_p A, m_i A, m_x A with Some p, Some r, Some (VZ x) => in_force p r x c i v | _, _, _ => False end.

(* M holds the last listed value of each cell, and 0 in the cells that are not listed *)
Definition last_values (n : Z) (A : matrix) (M : Z -> Z -> Z) : Prop :=
  forall i c, 0 <= i < n -> 0 <= c < n -> last_entry A c i (M i c) \/ ((forall v, ~ last_entry A c i v) /\ M i c = 0).
