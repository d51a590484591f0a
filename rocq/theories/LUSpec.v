(* Specification vocabulary for the factorization: the graph of the partially built L, minors, the hypothesis on GMP under
   SLIP_TOL_LARGEST.  No algorithm here. *)
From Verif Require Import Base Spec MFactor.
Set Implicit Arguments.
Open Scope Z_scope.

(* edge j -> i of the graph: i is a row index stored in column pinv[j] of the partially built L *)
Definition edge (Lp Li pinv : list Z) (j i : Z) : Prop :=
  exists p, rd Lp (rd pinv j) <= p < rd Lp (rd pinv j + 1) /\ i = rd Li p.

(* rows reachable from the entries of column k of A *)
Inductive reachable (Lp Li pinv Ap Ai : list Z) (k : Z) : Z -> Prop :=
| reach_start p : rd Ap k <= p < rd Ap (k + 1) -> reachable Lp Li pinv Ap Ai k (rd Ai p)
| reach_step j i : reachable Lp Li pinv Ap Ai k j -> edge Lp Li pinv j i -> reachable Lp Li pinv Ap Ai k i.

(* well-formedness of the partially built L as a graph on rows 0..n-1 *)
Record graph_ok (n : Z) (Lp Li pinv : list Z) : Prop := {
  g_len : zlen Lp = n + 1;
  g_pos : forall j, 0 <= j <= n -> 0 <= rd Lp j;
  g_pl : zlen pinv = n;
  g_pinv : forall j, 0 <= j < n -> 0 <= rd pinv j < n;
  g_nb : forall c p, 0 <= c < n -> rd Lp c <= p < rd Lp (c + 1) -> 0 <= p < zlen Li /\ 0 <= rd Li p < n }.

(* a column k of A, as needed: pointers in range and row indices in range *)
Record col_ok (n : Z) (Ap Ai : list Z) (k : Z) : Prop := {
  co_p : 0 <= k /\ k + 1 < zlen Ap;
  co_r : 0 <= rd Ap k <= rd Ap (k + 1) /\ rd Ap (k + 1) <= zlen Ai;
  co_i : forall p, rd Ap k <= p < rd Ap (k + 1) -> 0 <= rd Ai p < n }.

(* SLIP_TOL_LARGEST calls mpq_div and mpq_cmp on a fraction with a possibly negative denominator, outside GMP's contract; env is what
   GMP does there.  The hypothesis: whatever GMP answers, it returns. *)
Definition env_ok (env : gmp_env) (order : Z) : Prop :=
  order = PIV_TOL_LARGEST -> forall a b t, env a b t <> None.

(* v is the determinant of a square submatrix (distinct rows, distinct columns) of the n-by-n matrix A *)
Definition is_minor (n : Z) (A : Z -> Z -> Z) (v : Z) : Prop :=
  exists (s : Z) (f g : Z -> Z), 0 <= s <= n /\
    (forall a, 0 <= a < s -> 0 <= f a < n) /\ (forall a b, 0 <= a < s -> 0 <= b < s -> f a = f b -> a = b) /\
    (forall a, 0 <= a < s -> 0 <= g a < n) /\ (forall a b, 0 <= a < s -> 0 <= b < s -> g a = g b -> a = b) /\
    v = detz s (fun a b => A (f a) (g b)).

