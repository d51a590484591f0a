(* Specification vocabulary for SLIP_matrix objects of the three kinds and five types.  Nothing here refers to the algorithms. *)
From Coq Require Import QArith Qabs Qpower.
From Verif Require Import Base Spec MMatrix.
Set Implicit Arguments.
Open Scope Z_scope.

(* one stored number of any of the five types *)
Inductive num := NZ (z : Z) | NQ (q : Q) | NR (x : fl) | NI (z : Z) | ND (x : fl).
(* cell k of an array of numbers *)
Definition cell (v : vals) (k : Z) : num :=
  match v with
  | VZ l => NZ (nth (Z.to_nat k) l 0)
  | VQ l => NQ (nth (Z.to_nat k) l 0%Q)
  | VR l => NR (nth (Z.to_nat k) l FNan)
  | VI l => NI (nth (Z.to_nat k) l 0)
  | VD l => ND (nth (Z.to_nat k) l (FFin 0 0))
  end.
(* the exact rational value; None for NaN and infinities *)
Definition value (v : num) : option Q :=
  match v with NZ z => Some (inject_Z z) | NI z => Some (inject_Z z) | NQ q => Some q | NR x => fl_q x | ND x => fl_q x end.
(* the numbers that SLIP_matrix_copy regards as entries of a dense matrix (a NaN counts for doubles, not for mpfr_t) *)
Definition nonzero (v : num) : bool :=
  match v with NZ z => negb (z =? 0) | NI z => negb (z =? 0) | NQ q => negb (Qnum q =? 0)
  | NR FNan => false | ND FNan => true | NR (FInf _) => true | ND (FInf _) => true
  | NR (FFin m _) => negb (m =? 0) | ND (FFin m _) => negb (m =? 0) end.
(* the zero of a type *)
Definition zero_of (type : Z) : num :=
  if type =? TMPZ then NZ 0 else if type =? TMPQ then NQ 0%Q else if type =? TMPFR then NR (FFin 0 0)
  else if type =? TINT then NI 0 else ND (FFin 0 0).

(* well-formed matrices: the arrays exist, are large enough for the entries, and the indices are in range *)
Record csc_ok (A : matrix) (p i : list Z) (x : vals) : Prop := {
  co_kind : m_kind A = KCSC;
  co_p : m_p A = Some p;
  co_i : m_i A = Some i;
  co_x : m_x A = Some x;
  co_type : vtype x = m_type A;
  co_m : 0 <= m_m A;
  co_n : 0 <= m_n A;
  co_len : zlen p = m_n A + 1;
  co_0 : rd p 0 = 0;
  co_mono : forall c, 0 <= c < m_n A -> rd p c <= rd p (c + 1);
  co_capi : rd p (m_n A) <= zlen i;
  co_capx : rd p (m_n A) <= vlen x;
  co_row : forall q, 0 <= q < rd p (m_n A) -> 0 <= rd i q < m_m A }.
Record trip_ok (A : matrix) (i j : list Z) (x : vals) : Prop := {
  to_kind : m_kind A = KTRIP;
  to_i : m_i A = Some i;
  to_j : m_j A = Some j;
  to_x : m_x A = Some x;
  to_type : vtype x = m_type A;
  to_m : 0 <= m_m A;
  to_n : 0 <= m_n A;
  to_nz : 0 <= m_nz A;
  to_capi : m_nz A <= zlen i;
  to_capj : m_nz A <= zlen j;
  to_capx : m_nz A <= vlen x;
  to_row : forall k, 0 <= k < m_nz A -> 0 <= rd i k < m_m A;
  to_col : forall k, 0 <= k < m_nz A -> 0 <= rd j k < m_n A }.
Record dense_ok (A : matrix) (x : vals) : Prop := {
  do_kind : m_kind A = KDENSE;
  do_x : m_x A = Some x;
  do_type : vtype x = m_type A;
  do_m : 0 <= m_m A;
  do_n : 0 <= m_n A;
  do_cap : m_m A * m_n A <= vlen x }.
(* A is well-formed, of any kind, and stores nz numbers, the first nz cells of x *)
Definition stores (A : matrix) (nz : Z) (x : vals) : Prop :=
  (exists p i, csc_ok A p i x /\ nz = rd p (m_n A)) \/
  (exists i j, trip_ok A i j x /\ nz = m_nz A) \/
  (dense_ok A x /\ nz = m_m A * m_n A).

(* the (row, number) pairs of column c, in the order in which they are stored *)
Definition csc_column (p i : list Z) (x : vals) (c : Z) : list (Z * num) :=
  map (fun q => (rd i q, cell x q)) (zseq (rd p c) (rd p (c + 1))).
Definition trip_column (nz : Z) (i j : list Z) (x : vals) (c : Z) : list (Z * num) :=
  map (fun k => (rd i k, cell x k)) (filter (fun k => rd j k =? c) (zseq 0 nz)).
(* the non-zero ones of column c of a dense matrix with m rows *)
Definition dense_column (m : Z) (x : vals) (c : Z) : list (Z * num) :=
  map (fun r => (r, cell x (r + c * m))) (filter (fun r => nonzero (cell x (r + c * m))) (zseq 0 m)).

(* yx and s are the numbers and the scale of A converted to another type without changing the kind *)
Definition converted (o : option options) (addr : Z -> Z) (type : Z) (A : matrix) (yx : vals) (s : Q) : Prop :=
  exists Y, matrix_copy o addr true true (m_kind A) type (Some A) = Ok Y /\ m_x Y = Some yx /\ m_scale Y = s.
Definition is_type (t : Z) : Prop := TMPZ <= t <= TDBL.

(* rounding a rational number to an integer in the five MPFR modes (to nearest: a tie goes to the even integer) *)
Definition rounded (r : rmode) (q : Q) (w : Z) : Prop :=
  match r with
  | RNDN => (2 * Qabs (inject_Z w - q) <= 1)%Q /\ ((2 * Qabs (inject_Z w - q) == 1)%Q -> Z.even w = true)
  | RNDZ => (Qabs (inject_Z w) <= Qabs q)%Q /\ (Qabs (inject_Z w - q) < 1)%Q
  | RNDU => (q <= inject_Z w)%Q /\ (inject_Z w < q + 1)%Q
  | RNDD => (inject_Z w <= q)%Q /\ (q < inject_Z w + 1)%Q
  | RNDA => (Qabs q <= Qabs (inject_Z w))%Q /\ (Qabs (inject_Z w - q) < 1)%Q
  end.
(* y is a floating-point number with at most p binary digits *)
Definition representable (p : Z) (y : Q) : Prop := exists m e, Z.abs m < 2 ^ p /\ (y == inject_Z m * 2 ^ e)%Q.
(* x is the largest number of the format F below q; the smallest one above q; the nearest one *)
Definition below (F : Q -> Prop) (q x : Q) : Prop := (x <= q)%Q /\ forall y, F y -> (y <= q)%Q -> (y <= x)%Q.
Definition above (F : Q -> Prop) (q x : Q) : Prop := (q <= x)%Q /\ forall y, F y -> (q <= y)%Q -> (x <= y)%Q.
Definition closest (F : Q -> Prop) (q x : Q) : Prop := forall y, F y -> (Qabs (x - q) <= Qabs (y - q))%Q.
(* x is q rounded to the format F in mode r; ties: what is required of x when q is half-way between two neighbours *)
Definition rounding (r : rmode) (F : Q -> Prop) (ties : Q -> Q -> Prop) (q x : Q) : Prop :=
  F x /\
  match r with
  | RNDN => closest F q x /\ ties q x
  | RNDZ => ((0 <= q)%Q -> below F q x) /\ ((q <= 0)%Q -> above F q x)
  | RNDU => above F q x
  | RNDD => below F q x
  | RNDA => ((0 <= q)%Q -> above F q x) /\ ((q <= 0)%Q -> below F q x)
  end.
(* the significand of x, taken with the exponent of q, is even *)
Definition even_tie (p : Z) (q x : Q) : Prop :=
  forall e, (2 ^ (p - 1) * 2 ^ e <= Qabs q)%Q -> (Qabs q < 2 ^ p * 2 ^ e)%Q -> (2 * Qabs (x - q) == 2 ^ e)%Q ->
    exists w, Z.even w = true /\ (x == inject_Z w * 2 ^ e)%Q.
(* f is q correctly rounded to p binary digits *)
Definition fl_rounded (r : rmode) (p : Z) (q : Q) (f : fl) : Prop :=
  exists x, fl_q f = Some x /\ rounding r (representable p) (even_tie p) q x.

(* IEEE 754 binary64.  Numbers with 53 digits and exponent at least -1074 (the largest exponent is treated apart) *)
Definition double_grid (y : Q) : Prop := exists m e, Z.abs m < 2 ^ 53 /\ -1074 <= e /\ (y == inject_Z m * 2 ^ e)%Q.
Definition double_tie (q x : Q) : Prop :=
  forall e, -1074 <= e -> (2 ^ 52 * 2 ^ e <= Qabs q)%Q \/ e = -1074 -> (Qabs q < 2 ^ 53 * 2 ^ e)%Q -> (2 * Qabs (x - q) == 2 ^ e)%Q ->
    exists w, Z.even w = true /\ (x == inject_Z w * 2 ^ e)%Q.
(* "away from zero" on overflow *)
Definition overflows_to_inf (r : rmode) (negative : bool) : bool :=
  match r with RNDN | RNDA => true | RNDZ => false | RNDU => negb negative | RNDD => negative end.
(* f is q correctly rounded to a double: round as if the exponent were not bounded above; a result of magnitude 2^1024 or more becomes an
   infinity or the largest finite number, depending on the mode (an infinity in any case if inf is set) *)
Definition double_rounded (r : rmode) (inf : bool) (q : Q) (f : fl) : Prop :=
  exists x, rounding r double_grid double_tie q x /\
    ((Qabs x < 2 ^ 1024)%Q -> exists x', fl_q f = Some x' /\ (x' == x)%Q) /\
    ((2 ^ 1024 <= Qabs x)%Q ->
       ((0 < q)%Q -> f = if inf || overflows_to_inf r false then FInf false else FFin (2 ^ 53 - 1) 971) /\
       ((q < 0)%Q -> f = if inf || overflows_to_inf r true then FInf true else FFin (- (2 ^ 53 - 1)) 971)).

(* what SLIP_matrix_check tests.  The storage is assumed to be as large as the header promises: see check_storage. *)
Definition csc_valid (m n : Z) (p i : list Z) : Prop :=
  rd p 0 = 0 /\ (forall c, 0 <= c < n -> rd p c <= rd p (c + 1)) /\
  (forall q, 0 <= q < rd p n -> 0 <= rd i q < m) /\
  (forall c q q', 0 <= c < n -> rd p c <= q < rd p (c + 1) -> rd p c <= q' < rd p (c + 1) -> rd i q = rd i q' -> q = q').
Definition trip_valid (m n nz : Z) (i j : list Z) : Prop :=
  (forall k, 0 <= k < nz -> 0 <= rd i k < m /\ 0 <= rd j k < n) /\
  (forall k k', 0 <= k < nz -> 0 <= k' < nz -> rd i k = rd i k' -> rd j k = rd j k' -> k = k').

(* the number of non-zero numbers of a dense matrix *)
Definition dense_count (A : matrix) (x : vals) : Z := zlen (filter (fun k => nonzero (cell x k)) (zseq 0 (m_m A * m_n A))).

(* the number that a stored value stands for: integers of type MPZ are divided by the scale of the matrix *)
Definition stands_for (s : Q) (v : num) : option Q := match v with NZ z => Some (inject_Z z / s)%Q | _ => value v end.

(* f represents the number v: rounded correctly to p digits in mode r; NaN and infinities are kept *)
Definition rounds_to (r : rmode) (p : Z) (s : Q) (v : num) (f : fl) : Prop :=
  match stands_for s v with
  | Some q => fl_rounded r p q f
  | None => match v with NR g | ND g => f = g | _ => False end
  end.
(* f is the double for the number v of a matrix with scale s: MPFR numbers are rounded in the mode r of the options, MPZ and MPQ numbers
   are truncated and overflow to infinity (mpz_get_d, mpq_get_d), int64_t numbers are rounded to nearest by the C conversion *)
Definition double_of (r : rmode) (s : Q) (v : num) (f : fl) : Prop :=
  match v with
  | NZ z => double_rounded RNDZ true (inject_Z z / s) f
  | NQ q => double_rounded RNDZ true q f
  | NR g => match fl_q g with Some q => double_rounded r false q f | None => f = g end
  | NI z => double_rounded RNDN false (inject_Z z) f
  | ND g => f = g
  end.
(* x has at most p binary digits *)
Definition fits (p : Z) (x : fl) : Prop := match x with FFin m _ => digits m <= p | _ => True end.
(* y and s are the integers and the scale obtained from the floating-point numbers x: each number is multiplied by B and rounded to an
   integer w k (0 for NaN and infinities), then the common factor of all w k is removed.  The scale of an array of zeros is 0. *)
Definition expansion (r : rmode) (B : Z) (x : list fl) (nz : Z) (y : list Z) (s : Q) : Prop :=
  exists w : Z -> Z,
    (forall k, 0 <= k < nz -> match fl_q (rdg FNan x k) with Some q => rounded r (q * inject_Z B) (w k) | None => w k = 0 end) /\
    (((forall k, 0 <= k < nz -> w k = 0) /\ (forall k, 0 <= k < nz -> rd y k = 0) /\ s = 0%Q) \/
     ((exists k, 0 <= k < nz /\ w k <> 0) /\ ~ (s == 0)%Q /\
      (forall k, 0 <= k < nz -> (inject_Z (rd y k) / s == inject_Z (w k) / inject_Z B)%Q) /\
      (forall c, (forall k, 0 <= k < nz -> (c | rd y k)) -> c = 1 \/ c = -1))).

