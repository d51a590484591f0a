(* Specification vocabulary for the MATLAB interface: the documented options, the values of MATLAB matrices, printed fractions.
   Nothing here refers to the algorithms. *)
From Coq Require Import QArith Qabs Qpower String Ascii.
From Verif Require Import Base Spec MMatrix ApiSpec MatSpec MMex.
From Verif Require DemoSpec.
Set Implicit Arguments.
Open Scope string_scope.
Open Scope list_scope.
Open Scope Z_scope.

Definition codes (s : string) : list Z := map (fun c => Z.of_N (N_of_ascii c)) (list_ascii_of_string s).

(* the documented values (MATLAB/SLIP_backslash.m:26-62), with the enumeration constants they stand for *)
Definition order_names : list (string * Z) := [("none", 0); ("colamd", 1); ("amd", 2)].
Definition pivot_names : list (string * Z) :=
  [("smallest", 0); ("diagonal", 1); ("first", 2); ("tol smallest", 3); ("tol largest", 4); ("largest", 5)].
Definition solution_names : list (string * Z) := [("double", 0); ("vpa", 1); ("char", 2)].
(* a string option: absent, or one of the names.  MATLAB strings are compared as C strings: up to the first 0, at most 255 characters *)
Definition named (names : list (string * Z)) (default : Z) (f : option mxfield) (z : Z) : Prop :=
  (f = None /\ z = default) \/ exists s name, f = Some (MxChar s) /\ mx_string s = codes name /\ In (name, z) names.
(* a numeric option with value x (a string counts as its first character) *)
Definition scalar (f : mxfield) (x : fl) : Prop := f = MxNum x \/ exists c t, f = MxChar (c :: t) /\ x = FFin c 0.
(* the tolerance: only looked at for the two schemes that use it; 0 < tol <= 1; the default is 0.1 as a double (C76_default_tolerance) *)
Definition tolerance (pivot : Z) (f : option mxfield) (x : fl) : Prop :=
  ((f = None \/ ~ (pivot = 3 \/ pivot = 4)) /\ x = FFin 3602879701896397 (-55)) \/
  ((pivot = 3 \/ pivot = 4) /\ exists g q, f = Some g /\ scalar g x /\ fl_q x = Some q /\ (0 < q <= 1)%Q).
Definition digits_opt (f : option mxfield) (d : Z) : Prop :=
  (f = None /\ d = 100) \/ exists g x q, f = Some g /\ scalar g x /\ fl_q x = Some q /\ (q == inject_Z d)%Q /\ 2 <= d <= 2 ^ 29.
(* t is q truncated to an integer *)
Definition truncated (q : Q) (t : Z) : Prop := (Qabs (inject_Z t) <= Qabs q)%Q /\ (Qabs (q - inject_Z t) < 1)%Q /\ (0 <= inject_Z t * q)%Q.
(* the print level is truncated and clamped to 0..3; the number must fit an int *)
Definition print_opt (f : option mxfield) (k : Z) : Prop :=
  (f = None /\ k = 0) \/ exists g x q t, f = Some g /\ scalar g x /\ fl_q x = Some q /\ truncated q t /\ - 2 ^ 31 <= t < 2 ^ 31 /\
    k = if t <? 0 then 0 else if 3 <? t then 3 else t.
(* the options struct i has exactly the meaning r *)
Record documented (i : mxopts) (r : mexopt) : Prop := {
  d_order : named order_names 1 (xo_order i) (mo_order r);
  d_pivot : named pivot_names 3 (xo_pivot i) (mo_pivot r);
  d_tol : tolerance (mo_pivot r) (xo_tol i) (mo_tol r);
  d_solution : named solution_names 0 (xo_solution i) (mo_solution r);
  d_digits : digits_opt (xo_digits i) (mo_digits r);
  d_print : print_opt (xo_print i) (mo_print r) }.

(* a real sparse n-by-n and a real full m-by-k matrix of class double; every element is a double *)
Record sparse_double (n : Z) (A : mx) (jc ir : list Z) (pr : list fl) : Prop := {
  sd_real : x_complex A = false;
  sd_sparse : x_sparse A = true;
  sd_m : x_m A = n;
  sd_n : x_n A = n;
  sd_jc : x_jc A = Some jc;
  sd_ir : x_ir A = Some ir;
  sd_pr : x_pr A = Some pr;
  sd_valid : valid_pattern n n jc ir;
  sd_len : rd jc n <= zlen pr;
  sd_fits : forall p, 0 <= p < rd jc n -> fits 53 (rdg FNan pr p) }.
Record full_double (m k : Z) (b : mx) (pr : list fl) : Prop := {
  fd_real : x_complex b = false;
  fd_full : x_sparse b = false;
  fd_pos : 0 <= m /\ 0 <= k;
  fd_m : x_m b = m;
  fd_n : x_n b = k;
  fd_pr : x_pr b = Some pr;
  fd_len : m * k <= zlen pr;
  fd_fits : forall p, 0 <= p < m * k -> fits 53 (rdg FNan pr p) }.
(* cell p of the array holds the finite number q *)
Definition holds (pr : list fl) (p : Z) (q : Q) : Prop := exists v, fl_q (rdg FNan pr p) = Some v /\ (v == q)%Q.
(* entry (i,j) of the sparse matrix is q *)
Definition sparse_entry (jc ir : list Z) (pr : list fl) (i j : Z) (q : Q) : Prop :=
  (exists p, rd jc j <= p < rd jc (j + 1) /\ rd ir p = i /\ holds pr p q) \/
  ((forall p, rd jc j <= p < rd jc (j + 1) -> rd ir p <> i) /\ (q == 0)%Q).

(* the value of a decimal number with at most 17 digits after the point, in units of 10^-17 *)
Definition e17 (w : Z) : Q := (inject_Z w / inject_Z (10 ^ 17))%Q.

(* s is the fraction q written in lowest terms: "a", or "a/d" with d > 1 *)
Definition writes (s : list Z) (q : Q) : Prop :=
  exists a d, (q == inject_Z a / inject_Z d)%Q /\ 1 <= d /\ Z.gcd a d = 1 /\
    ((d = 1 /\ DemoSpec.numeral s a) \/ (1 < d /\ exists s1 s2, s = s1 ++ codes "/" ++ s2 /\ DemoSpec.numeral s1 a /\ DemoSpec.numeral s2 d)).

(* the first nz numbers are all finite; none is 2^63; all are integers that fit int64_t *)
Definition finite_all (pr : list fl) (nz : Z) : Prop := forall k, 0 <= k < nz -> exists q, fl_q (rdg FNan pr k) = Some q.
Definition no_2p63 (pr : list fl) (nz : Z) : Prop := forall k q, 0 <= k < nz -> fl_q (rdg FNan pr k) = Some q -> ~ (q == inject_Z (2 ^ 63))%Q.
Definition int64_all (pr : list fl) (nz : Z) : Prop := forall k, 0 <= k < nz -> exists z, holds pr k (inject_Z z) /\ - 2 ^ 63 <= z < 2 ^ 63.
(* w k is the number in cell k in units of 10^-17, rounded to nearest *)
Definition units (pr : list fl) (k w : Z) : Prop := exists q, fl_q (rdg FNan pr k) = Some q /\ rounded RNDN (q * inject_Z (10 ^ 17)) w.
(* W holds the entries of the sparse n-by-n matrix, and of the full m-by-k matrix, in these units *)
Definition sparse_units (n : Z) (jc ir : list Z) (pr : list fl) (W : Z -> Z -> Z) : Prop := forall i j, 0 <= i < n -> 0 <= j < n ->
  (exists p, rd jc j <= p < rd jc (j + 1) /\ rd ir p = i /\ units pr p (W i j)) \/
  ((forall p, rd jc j <= p < rd jc (j + 1) -> rd ir p <> i) /\ W i j = 0).
Definition full_units (m k : Z) (pr : list fl) (W : Z -> Z -> Z) : Prop := forall i j, 0 <= i < m -> 0 <= j < k -> units pr (i + j * m) (W i j).

(* the fields of the third argument: none if it is not a nonempty struct *)
Definition no_fields : mxopts := mkXO None None None None None None.
Definition fields (o : option mxopts) : mxopts := match o with Some i => i | None => no_fields end.
(* the message m names an option whose value is not a documented one *)
Definition blames (m : msg) (i : mxopts) : Prop :=
  match m with
  | MexOrderString => exists x, xo_order i = Some (MxNum x)
  | MexOrder => (exists s, xo_order i = Some (MxChar s)) /\ forall z, ~ named order_names 1 (xo_order i) z
  | MexPivotString => exists x, xo_pivot i = Some (MxNum x)
  | MexPivot => (exists s, xo_pivot i = Some (MxChar s)) /\ forall z, ~ named pivot_names 3 (xo_pivot i) z
  | MexTol => forall p, named pivot_names 3 (xo_pivot i) p -> forall x, ~ tolerance p (xo_tol i) x
  | MexSolution => forall z, ~ named solution_names 0 (xo_solution i) z
  | MexDigits => forall d, ~ digits_opt (xo_digits i) d
  | _ => False
  end.
