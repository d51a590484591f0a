(* Specification of the six pivoting schemes.  No algorithm here.
   cand i: row i may be selected; val i: its value in the current column; diag: the row of the diagonal entry. *)
From Verif Require Import Base.
Set Implicit Arguments.
Open Scope Z_scope.

Section PivotRule.
Variables (cand : Z -> Prop) (val : Z -> Z) (diag : Z).

(* p is a candidate of least / greatest magnitude *)
Definition least (p : Z) : Prop := cand p /\ forall i, cand i -> Z.abs (val p) <= Z.abs (val i).
Definition greatest (p : Z) : Prop := cand p /\ forall i, cand i -> Z.abs (val i) <= Z.abs (val p).

(* |a| / |b| >= tol *)
Definition ratio_ge (a b : Z) (tol : Q) : Prop := (tol * inject_Z (Z.abs b) <= inject_Z (Z.abs a))%Q.

Definition smallest_rule (p : Z) : Prop := least p.
Definition largest_rule (p : Z) : Prop := greatest p.
Definition diagonal_rule (p : Z) : Prop := (cand diag -> p = diag) /\ (~ cand diag -> least p).
(* the diagonal when it is a candidate and |smallest|/|diagonal| >= tol, otherwise a smallest candidate *)
Definition tol_smallest_rule (tol : Q) (p : Z) : Prop :=
  exists s, least s /\
    (cand diag -> ratio_ge (val s) (val diag) tol -> p = diag) /\
    (~ (cand diag /\ ratio_ge (val s) (val diag) tol) -> p = s).
(* the diagonal when it is a candidate and |diagonal|/|largest| >= tol, otherwise a largest candidate *)
Definition tol_largest_rule (tol : Q) (p : Z) : Prop :=
  exists g, greatest g /\
    (cand diag -> ratio_ge (val diag) (val g) tol -> p = diag) /\
    (~ (cand diag /\ ratio_ge (val diag) (val g) tol) -> p = g).
(* the same, when the largest candidate g is positive (see the finding on negative denominators); otherwise the diagonal
   or a largest candidate *)
Definition tol_largest_rule_weak (tol : Q) (p : Z) : Prop :=
  exists g, greatest g /\ (p = g \/ cand diag /\ p = diag) /\
    (0 < val g ->
    (cand diag -> ratio_ge (val diag) (val g) tol -> p = diag) /\
    (~ (cand diag /\ ratio_ge (val diag) (val g) tol) -> p = g)).
End PivotRule.

(* the rule selected by option->pivot: Include/SLIP_LU.h:211-219 (any other value behaves like SLIP_TOL_SMALLEST = 3) *)
Definition pivot_rule (order : Z) (tol : Q) (cand : Z -> Prop) (val : Z -> Z) (diag p : Z) : Prop :=
  cand p /\
  if order =? 0 then smallest_rule cand val p
  else if order =? 1 then diagonal_rule cand val diag p
  else if order =? 2 then True
  else if order =? 4 then tol_largest_rule_weak cand val diag tol p
  else if order =? 5 then largest_rule cand val p
  else tol_smallest_rule cand val diag tol p.
