(* Model of SLIP_matrix objects: number types, allocation, nnz, slip_cumsum, conversion of values (slip_cast_array and the
   slip_expand_* functions) and of kinds (SLIP_matrix_copy), SLIP_matrix_check.
   Paths are relative to /repo/SLIP_LU/Source unless they start with Include/.
   Simplifications: int64_t arithmetic on dimensions and indices is unbounded (Z); an array is a list, a pointer to an array is
   an option (None = NULL); MPFR exponents are unbounded and the sign of a floating-point zero is dropped; memory allocation
   succeeds (the out-of-memory paths are in MMem.v); printing (option->print_level >= 2) is not modelled.
   No proofs in this file. *)
From Verif Require Import Base MSolve.
Open Scope Z_scope.

(*----------------------------------------------------------------------------*)
(* enumerations: Include/SLIP_LU.h:189-274 *)
Definition KCSC := 0.  Definition KTRIP := 1.  Definition KDENSE := 2.
Definition TMPZ := 0.  Definition TMPQ := 1.  Definition TMPFR := 2.  Definition TINT := 3.  Definition TDBL := 4.
(* mpfr_rnd_t: N = nearest even, Z = toward zero, U = up, D = down, A = away from zero *)
Inductive rmode := RNDN | RNDZ | RNDU | RNDD | RNDA.

(* SLIP_options: Include/SLIP_LU.h:286-299; o_tol is the exact value of the double tol *)
Record options := mkO { o_pivot : Z; o_order : Z; o_tol : Q; o_print : Z; o_prec : Z; o_round : rmode; o_check : bool }.
(* SLIP_create_default_options.c:14-50 and SLIP_DEFAULT_*: slip_internal.h:160-208 *)
Definition default_options : options := mkO 3 1 1%Q 0 128 RNDN false.
(* SLIP_OPTION_*: slip_internal.h:214-236 *)
Definition opt_get {A} (f : options -> A) (dflt : A) (o : option options) : A := match o with None => dflt | Some o => f o end.
Definition opt_tol := opt_get o_tol 1%Q.
Definition opt_check := opt_get o_check false.
Definition opt_pivot := opt_get o_pivot 3.
Definition opt_order := opt_get o_order 1.
Definition opt_prec := opt_get o_prec 128.
Definition opt_round := opt_get o_round RNDN.

(*----------------------------------------------------------------------------*)
(* floating point: double and mpfr_t values.  FFin m e is m * 2^e *)
Inductive fl := FNan | FInf (neg : bool) | FFin (m e : Z).

(* rounded division of integers, b > 0 *)
Definition rdiv (r : rmode) (a b : Z) : Z :=
  match r with
  | RNDZ => Z.quot a b
  | RNDD => a / b
  | RNDU => - ((- a) / b)
  | RNDA => if a <? 0 then a / b else - ((- a) / b)
  | RNDN => let q := a / b in
            let t := 2 * (a - q * b) in
            if t <? b then q else if t >? b then q + 1 else if Z.even q then q else q + 1
  end.
(* number of binary digits *)
Definition digits (m : Z) : Z := if m =? 0 then 0 else Z.log2 (Z.abs m) + 1.
(* rounding up may give m = +-2^p: renormalise to at most p digits *)
Definition norm (p m e : Z) : fl := if digits m <=? p then FFin m e else FFin (m / 2) (e + 1).
(* round m*2^e to p significant bits *)
Definition rnd_fin (r : rmode) (p m e : Z) : fl :=
  let d := digits m - p in
  if d <=? 0 then FFin m e else norm p (rdiv r m (2 ^ d)) (e + d).
Definition rnd_fl (r : rmode) (p : Z) (x : fl) : fl := match x with FFin m e => rnd_fin r p m e | _ => x end.
(* n / (d * 2^e) as a fraction of integers *)
Definition shl (n d e : Z) : Z * Z := if 0 <=? e then (n, d * 2 ^ e) else (n * 2 ^ (- e), d).
(* round a rational to p significant bits: the exponent e is chosen with 2^(p-1) <= |q| / 2^e < 2^p *)
Definition exp_q (p n d : Z) : Z :=
  let e0 := digits n - digits d - p in
  let '(a, b) := shl (Z.abs n) d e0 in
  if 2 ^ p * b <=? a then e0 + 1 else e0.
Definition rnd_q (r : rmode) (p : Z) (q : Q) : fl :=
  let n := Qnum q in let d := Z.pos (Qden q) in
  if n =? 0 then FFin 0 0
  else let e := exp_q p n d in let '(a, b) := shl n d e in norm p (rdiv r a b) e.
(* exact value *)
Definition fl_q (x : fl) : option Q :=
  match x with
  | FFin m e => Some (if 0 <=? e then inject_Z (m * 2 ^ e) else Qred (m # (Z.to_pos (2 ^ (- e)))))
  | _ => None
  end.

(* mpfr_get_z (MPFR: NaN and Inf give 0 and set the erange flag) *)
Definition mpfr_get_z (r : rmode) (x : fl) : Z :=
  match x with FFin m e => if 0 <=? e then m * 2 ^ e else rdiv r m (2 ^ (- e)) | _ => 0 end.
(* mpfr_mul / mpfr_mul_d into a variable of precision p *)
Definition mpfr_mul (r : rmode) (p : Z) (x y : fl) : fl :=
  match x, y with
  | FFin m e, FFin m' e' => rnd_fin r p (m * m') (e + e')
  | FNan, _ | _, FNan => FNan
  | FInf s, FInf s' => FInf (xorb s s')
  | FInf s, FFin m _ | FFin m _, FInf s => if m =? 0 then FNan else FInf (xorb s (m <? 0))
  end.
(* mpfr_get_q: exact; NaN and Inf give 0 *)
Definition mpfr_get_q (x : fl) : Q := match fl_q x with Some q => q | None => 0%Q end.
Definition INT64_MAX := 9223372036854775807.
Definition INT64_MIN := - 9223372036854775808.
(* mpfr_get_si: NaN gives 0, out of range saturates *)
Definition mpfr_get_si (r : rmode) (x : fl) : Z :=
  match x with
  | FNan => 0
  | FInf s => if s then INT64_MIN else INT64_MAX
  | FFin _ _ => Z.max INT64_MIN (Z.min INT64_MAX (mpfr_get_z r x))
  end.
(* mpz_get_si: the low 63 bits with the sign (GMP mpz/get_si.c) *)
Definition mpz_get_si (z : Z) : Z :=
  if z >? 0 then z mod 2 ^ 63 else if z <? 0 then -1 - ((- z - 1) mod 2 ^ 63) else 0.
(* IEEE doubles: at most 53 bits, exponent at least -1074, magnitude below 2^1024.  Overflow gives an infinity (always for GMP's functions,
   inf = true; depending on the rounding mode for MPFR's) or the largest finite number. *)
Definition dbl_overflow (r : rmode) (inf : bool) (x : fl) : fl :=
  match x with
  | FFin m e =>
      if (1024 <? digits m + e) && negb (m =? 0) then
        if inf || match r with RNDN | RNDA => true | RNDZ => false | RNDU => negb (m <? 0) | RNDD => m <? 0 end
        then FInf (m <? 0) else FFin (if m <? 0 then - (2 ^ 53 - 1) else 2 ^ 53 - 1) 971
      else x
  | _ => x
  end.
Definition dbl_q (r : rmode) (inf : bool) (q : Q) : fl :=
  let n := Qnum q in let d := Z.pos (Qden q) in
  if n =? 0 then FFin 0 0
  else let e := Z.max (exp_q 53 n d) (-1074) in let '(a, b) := shl n d e in dbl_overflow r inf (norm 53 (rdiv r a b) e).
(* mpz_get_d, mpq_get_d (GMP's mpn_get_d): truncation to a double, subnormal numbers included; infinity on overflow *)
Definition mpz_get_d (z : Z) : fl := dbl_q RNDZ true (inject_Z z).
Definition mpq_get_d (q : Q) : fl := dbl_q RNDZ true q.
(* mpfr_get_d: rounding to a double in the given mode *)
Definition mpfr_get_d (r : rmode) (x : fl) : fl := match fl_q x with Some q => dbl_q r false q | None => x end.
(* mpq_set_d: exact; GMP traps on NaN and Inf *)
Definition mpq_set_d (x : fl) : res Q := match fl_q x with Some q => Ok q | None => UB end.
(* mpz_set_q: truncation *)
Definition mpz_set_q (q : Q) : Z := Z.quot (Qnum q) (Z.pos (Qden q)).

(* slip_cast_double_to_int64: slip_internal.h:657-675.  The comparison x > INT64_MAX converts INT64_MAX to double, giving
   2^63, so x = 2^63 reaches the C cast, which is undefined there.  The cast truncates. *)
Definition trunc_fl (m e : Z) : Z := if 0 <=? e then m * 2 ^ e else Z.quot m (2 ^ (- e)).
Definition slip_cast_double_to_int64 (x : fl) : res Z :=
  match x with
  | FNan => Ok 0
  | FInf s => Ok (if s then INT64_MIN else INT64_MAX)
  | FFin m e =>
      let gt := if 0 <=? e then m * 2 ^ e >? 2 ^ 63 else m >? 2 ^ 63 * 2 ^ (- e) in
      let lt := if 0 <=? e then m * 2 ^ e <? - 2 ^ 63 else m <? - 2 ^ 63 * 2 ^ (- e) in
      if gt then Ok INT64_MAX
      else if lt then Ok INT64_MIN
      else let t := trunc_fl m e in
           if (INT64_MIN <=? t) && (t <=? INT64_MAX) then Ok t else UB
  end.

(*----------------------------------------------------------------------------*)
(* matrices: Include/SLIP_LU.h:309-342.  The union x is a pointer to an array of the type given by the field type. *)
Inductive vals := VZ (l : list Z) | VQ (l : list Q) | VR (l : list fl) | VI (l : list Z) | VD (l : list fl).
Definition vtype (v : vals) : Z := match v with VZ _ => TMPZ | VQ _ => TMPQ | VR _ => TMPFR | VI _ => TINT | VD _ => TDBL end.
Definition vlen (v : vals) : Z := match v with VZ l => zlen l | VQ l => zlen l | VR l => zlen l | VI l => zlen l | VD l => zlen l end.

Record matrix := mkM {
  m_m : Z; m_n : Z; m_nzmax : Z; m_nz : Z; m_kind : Z; m_type : Z;
  m_p : option (list Z); m_i : option (list Z); m_j : option (list Z); m_x : option vals; m_scale : Q }.

(* dereferencing a pointer that may be NULL *)
Definition deref {A} (p : option A) : res A := match p with Some a => Ok a | None => UB end.

(* the value arrays that SLIP_matrix_allocate creates: slip_create_mpz_array.c, slip_create_mpq_array.c (0),
   slip_create_mpfr_array.c (mpfr_init2: NaN), calloc (0) *)
Definition fresh_vals (type nzmax : Z) : vals :=
  if type =? TMPZ then VZ (mk nzmax 0)
  else if type =? TMPQ then VQ (mk nzmax 0%Q)
  else if type =? TMPFR then VR (mk nzmax FNan)
  else if type =? TINT then VI (mk nzmax 0)
  else VD (mk nzmax (FFin 0 0)).

(* SLIP_matrix_allocate.c:24-198 when memory suffices and the library is initialized *)
Definition matrix_allocate (kind type m n nzmax : Z) (shallow : bool) : res matrix :=
  if (m <? 0) || (n <? 0) || (kind <? KCSC) || (kind >? KDENSE) || (type <? TMPZ) || (type >? TDBL)
  then Err SLIP_INCORRECT_INPUT                                            (* :60-66 *)
  else
    let nzmax := Z.max (if kind =? KDENSE then m * n else nzmax) 1 in      (* :78-82 *)
    if shallow then Ok (mkM m n nzmax 0 kind type None None None None 1%Q) (* :107-117 *)
    else
      let p := if kind =? KCSC then Some (mk (n + 1) 0) else None in       (* :123-143 *)
      let i := if kind =? KDENSE then None else Some (mk nzmax 0) in
      let j := if kind =? KTRIP then Some (mk nzmax 0) else None in
      Ok (mkM m n nzmax 0 kind type p i j (Some (fresh_vals type nzmax)) 1%Q). (* :146-185 *)

(* SLIP_matrix_nnz.c:14-52; UB when A->p is shorter than n+1 *)
Definition matrix_nnz (inited : bool) (A : option matrix) : res Z :=
  if negb inited then Ok (-1)
  else match A with
  | None => Ok (-1)
  | Some A =>
      if m_kind A =? KCSC then
        match m_p A with
        | None => Ok (-1)
        | Some p => if m_n A <? 0 then Ok (-1) else get p (m_n A)
        end
      else if m_kind A =? KTRIP then Ok (m_nz A)
      else if m_kind A =? KDENSE then Ok (if (m_m A <? 0) || (m_n A <? 0) then -1 else m_m A * m_n A)
      else Ok (-1)
  end.

(* slip_cumsum.c:17-36.  Result (p, c) *)
Definition slip_cumsum (p c : option (list Z)) (n : Z) : res (list Z * list Z) :=
  match p, c with
  | Some p, Some c =>
      let* st := for_ 0 n (fun i '(p, c, nz) =>
          let* p := set p i nz in
          let* ci := get c i in
          let* pi := get p i in
          let* c := set c i pi in
          Ok (p, c, nz + ci)) (p, c, 0) in
      let '(p, c, nz) := st in
      let* p := set p n nz in
      Ok (p, c)
  | _, _ => Err SLIP_INCORRECT_INPUT
  end.

(*----------------------------------------------------------------------------*)
(* conversion of values *)

(* the loops "for (k = 0 ; k < n ; k++) y [k] = conv (x [k])" of slip_cast_array *)
Definition conv_loop {A B} (n : Z) (f : A -> res B) (x : list A) (y : list B) : res (list B) :=
  for_ 0 n (fun k y => let* v := get x k in let* w := f v in set y k w) y.

(* slip_expand_mpq_array.c:23-76.  x3 has max(n,1) cells; x3[0] is 0 when n = 0 *)
Definition slip_expand_mpq_array (y : list Z) (x : list Q) (n : Z) : res (list Z * Q) :=
  let* x3 := conv_loop n (fun q => Ok (Z.pos (Qden q))) x (mk (Z.max n 1) 0) in   (* :55-58 *)
  let* d0 := get x3 0 in                                                          (* :61 *)
  let* temp := for_ 1 n (fun i t => let* d := get x3 i in Ok (Z.lcm d t)) d0 in   (* :62-65 *)
  let scale := mpq_z temp in                                                      (* :66 *)
  let* y := conv_loop n (fun q => Ok (mpz_set_q (mpq_mul q scale))) x y in        (* :68-75 *)
  Ok (y, scale).

(* The common tail of slip_expand_double_array.c:82-128 and slip_expand_mpfr_array.c:86-135: divide by the gcd.
   State of the search loop: nz_found, k, gcd, r2 = 0 (stop); the loop ends ("break") as soon as gcd = 1.
   When the array is all zeros, SLIP_FREE_ALL clears [one] before it is copied into scale, so scale becomes 0. *)
Definition gcd_step (y : list Z) (i : Z) (st : bool * Z * Z * bool) : res (bool * Z * Z * bool) :=
  let '(found, k, g, stop) := st in
  if stop then Ok st
  else
    let* v := get y i in
    if found then let g := Z.gcd g v in Ok (true, k, g, g =? 1)
    else if v =? 0 then Ok st else Ok (true, i, v, false).
Definition reduce_gcd (y : list Z) (scale : Q) (n : Z) : res (list Z * Q) :=
  let* st := for_ 0 n (gcd_step y) (false, 0, 0, false) in
  let '(found, k, g, stop) := st in
  if negb found then Ok (y, 0%Q)
  else if stop then Ok (y, scale)
  else
    let* y := for_ k n (fun i y => let* v := get y i in let* w := divexact v g in set y i w) y in
    let* s := mpq_div scale (mpq_z g) in
    Ok (y, s).

(* slip_expand_double_array.c:26-130.  pow(10,17) = 10^17 is exactly representable: 10^17 = 5^17 * 2^17, 5^17 < 2^53 *)
Definition ten17 : fl := FFin (5 ^ 17) 17.
Definition slip_expand_double_array (r : rmode) (prec : Z) (y : list Z) (x : list fl) (n : Z) : res (list Z * Q) :=
  let* y := conv_loop n (fun v => Ok (mpfr_get_z r (mpfr_mul r prec (rnd_fl r prec v) ten17))) x y in   (* :67-76 *)
  reduce_gcd y (inject_Z (10 ^ 17)) n.

(* slip_expand_mpfr_array.c:27-137.  2^prec is exactly representable *)
Definition slip_expand_mpfr_array (r : rmode) (prec : Z) (y : list Z) (x : list fl) (n : Z) : res (list Z * Q) :=
  let* y := conv_loop n (fun v => Ok (mpfr_get_z r (mpfr_mul r prec v (FFin 1 prec)))) x y in           (* :73-80 *)
  reduce_gcd y (inject_Z (2 ^ prec)) n.

(* SLIP_mpq_set_si (x, y, z): SLIP_gmp.c:1135-1146 passes (unsigned long) x, the address of x, as the denominator.
   addr is that address; GMP does not reduce the fraction (mpq_set_si). *)
Definition SLIP_mpq_set_si (addr : Z) (y : Z) : res Q := if addr <=? 0 then UB else Ok (y # Z.to_pos addr).

(* x / x_scale as done for mpz input: slip_cast_array.c:154-176 etc. *)
Definition unscale (xscale : Q) (z : Z) : res Q := if mpq_equal xscale 1%Q then Ok (mpq_z z) else mpq_div (mpq_z z) xscale.

(* slip_cast_array.c:43-484.  Y is the output array (its constructor is the output type); result: Y and y_scale.
   addr k is the address of the k-th mpq_t of the output array (only used by the int64 to mpq case). *)
Definition slip_cast_array (o : option options) (addr : Z -> Z) (Y X : vals) (n : Z) (yscale xscale : Q) : res (vals * Q) :=
  let r := opt_round o in
  let prec := opt_prec o in
  match Y, X with
  | VZ y, VZ x => let* y := conv_loop n (fun v => Ok v) x y in Ok (VZ y, xscale)                          (* :98-107 *)
  | VZ y, VQ x => let* st := slip_expand_mpq_array y x n in Ok (VZ (fst st), snd st)                      (* :110-115 *)
  | VZ y, VR x => let* st := slip_expand_mpfr_array r prec y x n in Ok (VZ (fst st), snd st)              (* :117-123 *)
  | VZ y, VI x => let* y := conv_loop n (fun v => Ok v) x y in Ok (VZ y, 1%Q)                             (* :125-134 *)
  | VZ y, VD x => let* st := slip_expand_double_array r prec y x n in Ok (VZ (fst st), snd st)            (* :136-142 *)
  | VQ y, VZ x => let* y := conv_loop n (unscale xscale) x y in Ok (VQ y, yscale)                         (* :159-188 *)
  | VQ y, VQ x => let* y := conv_loop n (fun v => Ok v) x y in Ok (VQ y, yscale)                          (* :190-198 *)
  | VQ y, VR x => let* y := conv_loop n (fun v => Ok (mpfr_get_q v)) x y in Ok (VQ y, yscale)             (* :200-208 *)
  | VQ y, VI x => let* y := for_ 0 n (fun k y => let* v := get x k in let* w := SLIP_mpq_set_si (addr k) v in set y k w) y in
                  Ok (VQ y, yscale)                                                                       (* :210-218 *)
  | VQ y, VD x => let* y := conv_loop n mpq_set_d x y in Ok (VQ y, yscale)                                (* :220-228 *)
  | VR y, VZ x => let* y := conv_loop n (fun z => if mpq_equal xscale 1%Q then Ok (rnd_fin r prec z 0)
                                        else let* q := unscale xscale z in Ok (rnd_q r prec q)) x y in Ok (VR y, yscale) (* :235-266 *)
  | VR y, VQ x => let* y := conv_loop n (fun q => Ok (rnd_q r prec q)) x y in Ok (VR y, yscale)  (* :268-276 *)
  | VR y, VR x => let* y := conv_loop n (fun v => Ok (rnd_fl r prec v)) x y in Ok (VR y, yscale)  (* :278-286 *)
  | VR y, VI x => let* y := conv_loop n (fun v => Ok (rnd_fin r prec v 0)) x y in Ok (VR y, yscale)  (* :288-296 *)
  | VR y, VD x => let* y := conv_loop n (fun v => Ok (rnd_fl r prec v)) x y in Ok (VR y, yscale)  (* :298-306 *)
  | VI y, VZ x => let* y := conv_loop n (fun z => if mpq_equal xscale 1%Q then Ok (mpz_get_si z)
                                        else let* q := unscale xscale z in slip_cast_double_to_int64 (mpq_get_d q)) x y in
                  Ok (VI y, yscale)  (* :322-354 *)
  | VI y, VQ x => let* y := conv_loop n (fun q => slip_cast_double_to_int64 (mpq_get_d q)) x y in Ok (VI y, yscale)  (* :356-366 *)
  | VI y, VR x => let* y := conv_loop n (fun v => Ok (mpfr_get_si r v)) x y in Ok (VI y, yscale)  (* :368-376 *)
  | VI y, VI x => let* y := conv_loop n (fun v => Ok v) x y in Ok (VI y, yscale)  (* :378-382 *)
  | VI y, VD x => let* y := conv_loop n slip_cast_double_to_int64 x y in Ok (VI y, yscale)  (* :384-392 *)
  | VD y, VZ x => let* y := conv_loop n (fun z => if mpq_equal xscale 1%Q then Ok (mpz_get_d z)
                                        else let* q := unscale xscale z in Ok (mpq_get_d q)) x y in Ok (VD y, yscale)  (* :408-438 *)
  | VD y, VQ x => let* y := conv_loop n (fun q => Ok (mpq_get_d q)) x y in Ok (VD y, yscale)  (* :440-448 *)
  | VD y, VR x => let* y := conv_loop n (fun v => Ok (mpfr_get_d r v)) x y in Ok (VD y, yscale)  (* :450-459 *)
  | VD y, VI x => let* y := conv_loop n (fun v => Ok (dbl_q RNDN false (inject_Z v))) x y in Ok (VD y, yscale)  (* :461-469 *)
  | VD y, VD x => let* y := conv_loop n (fun v => Ok v) x y in Ok (VD y, yscale)  (* :471-475 *)
  end.

(* slip_cast_array.c:63-66: NULL arrays are rejected *)
Definition cast_array_ptr (o : option options) (addr : Z -> Z) (Y X : option vals) (n : Z) (yscale xscale : Q) : res (vals * Q) :=
  match Y, X with Some Y, Some X => slip_cast_array o addr Y X n yscale xscale | _, _ => Err SLIP_INCORRECT_INPUT end.

(* slip_cast_matrix.c:20-103: values and scale of Y.  Same type: the values of A with Y's initial scale 1 (the scale of A
   is not copied). *)
Definition slip_cast_matrix (o : option options) (addr : Z -> Z) (ytype : Z) (A : matrix) (nz : Z) : res (option vals * Q) :=
  let* Y := matrix_allocate KDENSE ytype nz 1 nz (ytype =? m_type A) in
  if ytype =? m_type A then Ok (m_x A, m_scale Y)
  else let* st := cast_array_ptr o addr (m_x Y) (m_x A) nz (m_scale Y) (m_scale A) in Ok (Some (fst st), snd st).

(*----------------------------------------------------------------------------*)
(* conversion of kinds.  The C code repeats each loop for the five value types; here it is written once for any type of
   values.  set1 is the assignment used (it rounds for MPFR). *)

(* SLIP_matrix_copy.c:123-187: triplet to CSC.  Result (Cp, Ci, Cx). *)
Definition trip_to_csc {A} (set1 : A -> A) (n nz : Z) (Ti Tj : list Z) (Y : list A) (Cp Ci : list Z) (Cx : list A)
  : res (list Z * list Z * list A) :=
  let* W := for_ 0 nz (fun k W => let* j := get Tj k in let* w := get W j in set W j (w + 1)) (mk n 0) in (* :123-126 *)
  let* pc := slip_cumsum (Some Cp) (Some W) n in                                                           (* :129 *)
  let '(Cp, W) := pc in
  let* st := for_ 0 nz (fun k '(W, Ci, Cx) =>                                                              (* :132-187 *)
      let* j := get Tj k in
      let* p := get W j in
      let* W := set W j (p + 1) in
      let* i := get Ti k in
      let* Ci := set Ci p i in
      let* v := get Y k in
      let* Cx := set Cx p (set1 v) in
      Ok (W, Ci, Cx)) (W, Ci, Cx) in
  let '(_, Ci, Cx) := st in
  Ok (Cp, Ci, Cx).

(* SLIP_matrix_copy.c:204-250: count the nonzeros *)
Definition count_nz {A} (nzb : A -> bool) (nz : Z) (Y : list A) : res Z :=
  for_ 0 nz (fun k c => let* v := get Y k in Ok (if nzb v then c + 1 else c)) 0.

(* SLIP_matrix_copy.c:259-361: dense to CSC *)
Definition dense_to_csc {A} (nzb : A -> bool) (set1 : A -> A) (m n : Z) (Y : list A) (Cp Ci : list Z) (Cx : list A)
  : res (list Z * list Z * list A) :=
  let* st := for_ 0 n (fun j '(Cp, Ci, Cx, nz) =>
      let* Cp := set Cp j nz in
      for_ 0 m (fun i '(Cp, Ci, Cx, nz) =>
        let* v := get Y (i + j * m) in
        if nzb v then
          let* Ci := set Ci nz i in
          let* Cx := set Cx nz (set1 v) in
          Ok (Cp, Ci, Cx, nz + 1)
        else Ok (Cp, Ci, Cx, nz)) (Cp, Ci, Cx, nz)) (Cp, Ci, Cx, 0) in
  let '(Cp, Ci, Cx, nz) := st in
  let* Cp := set Cp n nz in
  Ok (Cp, Ci, Cx).

(* SLIP_matrix_copy.c:394-400: column indices of a CSC matrix *)
Definition csc_to_cols (n : Z) (Ap : list Z) (Cj : list Z) : res (list Z) :=
  for_ 0 n (fun j Cj =>
    let* lo := get Ap j in let* hi := get Ap (j + 1) in
    for_ lo hi (fun p Cj => set Cj p j) Cj) Cj.

(* SLIP_matrix_copy.c:479-543: CSC to dense *)
Definition csc_to_dense {A} (set1 : A -> A) (m n : Z) (Ap Ai : list Z) (Y Cx : list A) : res (list A) :=
  for_ 0 n (fun j Cx =>
    let* lo := get Ap j in let* hi := get Ap (j + 1) in
    for_ lo hi (fun p Cx =>
      let* i := get Ai p in
      let* v := get Y p in
      set Cx (ix m i j) (set1 v)) Cx) Cx.

(* SLIP_matrix_copy.c:560-618: triplet to dense *)
Definition trip_to_dense {A} (set1 : A -> A) (m nz : Z) (Ti Tj : list Z) (Y Cx : list A) : res (list A) :=
  for_ 0 nz (fun k Cx =>
    let* i := get Ti k in
    let* j := get Tj k in
    let* v := get Y k in
    set Cx (ix m i j) (set1 v)) Cx.

(* memcpy (C, A, nz) between arrays *)
Definition memcpy {A} (C S : list A) (nz : Z) : res (list A) := conv_loop nz (fun v => Ok v) S C.

(* non-zero tests: mpz_sgn, mpq_sgn, mpfr_sgn (0 for NaN), != 0 for doubles (true for NaN) *)
Definition nzZ (z : Z) : bool := negb (z =? 0).
Definition nzQ (q : Q) : bool := negb (Qnum q =? 0).
Definition nzR (x : fl) : bool := match x with FNan => false | FInf _ => true | FFin m _ => negb (m =? 0) end.
Definition nzD (x : fl) : bool := match x with FFin m _ => negb (m =? 0) | _ => true end.

(* dispatch on the common type of Y and C *)
Definition on_vals {R} (o : option options) (Y C : vals)
  (f : forall A, (A -> bool) -> (A -> A) -> list A -> list A -> (list A -> vals) -> res R) : res R :=
  let r := opt_round o in let prec := opt_prec o in
  match Y, C with
  | VZ y, VZ c => f Z nzZ (fun v => v) y c VZ
  | VQ y, VQ c => f Q nzQ (fun v => v) y c VQ
  | VR y, VR c => f fl nzR (rnd_fl r prec) y c VR
  | VI y, VI c => f Z nzZ (fun v => v) y c VI
  | VD y, VD c => f fl nzD (fun v => v) y c VD
  | _, _ => UB
  end.

Definition with_scale (C : matrix) (s : Q) : matrix :=
  mkM (m_m C) (m_n C) (m_nzmax C) (m_nz C) (m_kind C) (m_type C) (m_p C) (m_i C) (m_j C) (m_x C) s.
Definition with_nz (C : matrix) (nz : Z) : matrix :=
  mkM (m_m C) (m_n C) (m_nzmax C) nz (m_kind C) (m_type C) (m_p C) (m_i C) (m_j C) (m_x C) (m_scale C).
Definition with_arrays (C : matrix) (p i j : option (list Z)) (x : vals) : matrix :=
  mkM (m_m C) (m_n C) (m_nzmax C) (m_nz C) (m_kind C) (m_type C) p i j (Some x) (m_scale C).

(* SLIP_matrix_copy.c:86-107: CSC to CSC *)
Definition copy_csc_csc (o : option options) (addr : Z -> Z) (ctype : Z) (A : matrix) (nz : Z) : res matrix :=
  let* C := matrix_allocate KCSC ctype (m_m A) (m_n A) nz false in
  let* Ap := deref (m_p A) in let* Ai := deref (m_i A) in
  let* Cp := deref (m_p C) in let* Ci := deref (m_i C) in
  let* Cp := memcpy Cp Ap (m_n A + 1) in
  let* Ci := memcpy Ci Ai nz in
  let* st := cast_array_ptr o addr (m_x C) (m_x A) nz (m_scale C) (m_scale A) in
  Ok (with_scale (with_arrays C (Some Cp) (Some Ci) None (fst st)) (snd st)).

(* :113-191: triplet to CSC *)
Definition copy_trip_csc (o : option options) (addr : Z -> Z) (ctype : Z) (A : matrix) (nz : Z) : res matrix :=
  let* ys := slip_cast_matrix o addr ctype A nz in
  let* Y := deref (fst ys) in
  let* C := matrix_allocate KCSC ctype (m_m A) (m_n A) nz false in
  let* Ti := deref (m_i A) in let* Tj := deref (m_j A) in
  let* Cp := deref (m_p C) in let* Ci := deref (m_i C) in let* Cx := deref (m_x C) in
  on_vals o Y Cx (fun _ _ set1 y cx V =>
    let* st := trip_to_csc set1 (m_n A) nz Ti Tj y Cp Ci cx in
    let '(Cp, Ci, cx) := st in
    Ok (with_scale (with_arrays C (Some Cp) (Some Ci) None (V cx)) (snd ys))).

(* :197-364: dense to CSC *)
Definition copy_dense_csc (o : option options) (addr : Z -> Z) (ctype : Z) (A : matrix) (nz : Z) : res matrix :=
  let* ys := slip_cast_matrix o addr ctype A nz in
  let* Y := deref (fst ys) in
  let* actual := on_vals o Y Y (fun _ nzb _ y _ _ => count_nz nzb nz y) in
  let* C := matrix_allocate KCSC ctype (m_m A) (m_n A) actual false in
  let* Cp := deref (m_p C) in let* Ci := deref (m_i C) in let* Cx := deref (m_x C) in
  on_vals o Y Cx (fun _ nzb set1 y cx V =>
    let* st := dense_to_csc nzb set1 (m_m A) (m_n A) y Cp Ci cx in
    let '(Cp, Ci, cx) := st in
    Ok (with_scale (with_arrays C (Some Cp) (Some Ci) None (V cx)) (snd ys))).

(* :382-405: CSC to triplet *)
Definition copy_csc_trip (o : option options) (addr : Z -> Z) (ctype : Z) (A : matrix) (nz : Z) : res matrix :=
  let* C := matrix_allocate KTRIP ctype (m_m A) (m_n A) nz false in
  let* st := cast_array_ptr o addr (m_x C) (m_x A) nz (m_scale C) (m_scale A) in
  let* Ap := deref (m_p A) in let* Ai := deref (m_i A) in
  let* Ci := deref (m_i C) in let* Cj := deref (m_j C) in
  let* Ci := memcpy Ci Ai nz in
  let* Cj := csc_to_cols (m_n A) Ap Cj in
  Ok (with_nz (with_scale (with_arrays C None (Some Ci) (Some Cj) (fst st)) (snd st)) nz).

(* :411-426: triplet to triplet *)
Definition copy_trip_trip (o : option options) (addr : Z -> Z) (ctype : Z) (A : matrix) (nz : Z) : res matrix :=
  let* C := matrix_allocate KTRIP ctype (m_m A) (m_n A) nz false in
  let* Ai := deref (m_i A) in let* Aj := deref (m_j A) in
  let* Ci := deref (m_i C) in let* Cj := deref (m_j C) in
  let* Cj := memcpy Cj Aj nz in
  let* Ci := memcpy Ci Ai nz in
  let* st := cast_array_ptr o addr (m_x C) (m_x A) nz (m_scale C) (m_scale A) in
  Ok (with_nz (with_scale (with_arrays C None (Some Ci) (Some Cj) (fst st)) (snd st)) nz).

(* :432-446: dense to triplet, through a temporary CSC matrix; then C->nz = m*n *)
Definition copy_dense_trip (o : option options) (addr : Z -> Z) (ctype : Z) (A : matrix) (nz : Z) : res matrix :=
  let* T := copy_dense_csc o addr ctype A nz in
  let* tnz := matrix_nnz true (Some T) in
  let* C := copy_csc_trip o addr ctype T tnz in
  Ok (with_nz C nz).

(* :462-547: CSC to dense *)
Definition copy_csc_dense (o : option options) (addr : Z -> Z) (ctype : Z) (A : matrix) (nz : Z) : res matrix :=
  let* C := matrix_allocate KDENSE ctype (m_m A) (m_n A) nz false in
  let* ys := slip_cast_matrix o addr ctype A nz in
  let* Y := deref (fst ys) in
  let* Ap := deref (m_p A) in let* Ai := deref (m_i A) in let* Cx := deref (m_x C) in
  on_vals o Y Cx (fun _ _ set1 y cx V =>
    let* cx := csc_to_dense set1 (m_m A) (m_n A) Ap Ai y cx in
    Ok (with_scale (with_arrays C None None None (V cx)) (snd ys))).

(* :553-622: triplet to dense *)
Definition copy_trip_dense (o : option options) (addr : Z -> Z) (ctype : Z) (A : matrix) (nz : Z) : res matrix :=
  let* C := matrix_allocate KDENSE ctype (m_m A) (m_n A) nz false in
  let* ys := slip_cast_matrix o addr ctype A nz in
  let* Y := deref (fst ys) in
  let* Ti := deref (m_i A) in let* Tj := deref (m_j A) in let* Cx := deref (m_x C) in
  on_vals o Y Cx (fun _ _ set1 y cx V =>
    let* cx := trip_to_dense set1 (m_m A) nz Ti Tj y cx in
    Ok (with_scale (with_arrays C None None None (V cx)) (snd ys))).

(* :628-636: dense to dense *)
Definition copy_dense_dense (o : option options) (addr : Z -> Z) (ctype : Z) (A : matrix) (nz : Z) : res matrix :=
  let* C := matrix_allocate KDENSE ctype (m_m A) (m_n A) nz false in
  let* st := cast_array_ptr o addr (m_x C) (m_x A) nz (m_scale C) (m_scale A) in
  Ok (with_scale (with_arrays C None None None (fst st)) (snd st)).

(* SLIP_matrix_copy.c:30-649 *)
Definition matrix_copy (o : option options) (addr : Z -> Z) (inited handle : bool) (ckind ctype : Z) (A : option matrix) : res matrix :=
  if negb inited then Err SLIP_PANIC                                       (* :46 *)
  else
    let* nz := matrix_nnz inited A in                                      (* :48 *)
    match A with
    | None => Err SLIP_INCORRECT_INPUT
    | Some A =>
        if negb handle || (nz <? 0) || (m_type A <? TMPZ) || (m_type A >? TDBL) || (ckind <? KCSC) || (ckind >? KDENSE)
           || (ctype <? TMPZ) || (ctype >? TDBL)
        then Err SLIP_INCORRECT_INPUT                                      (* :49-57 *)
        else if ckind =? KCSC then
          if m_kind A =? KCSC then copy_csc_csc o addr ctype A nz
          else if m_kind A =? KTRIP then copy_trip_csc o addr ctype A nz
          else copy_dense_csc o addr ctype A nz
        else if ckind =? KTRIP then
          if m_kind A =? KCSC then copy_csc_trip o addr ctype A nz
          else if m_kind A =? KTRIP then copy_trip_trip o addr ctype A nz
          else copy_dense_trip o addr ctype A nz
        else
          if m_kind A =? KCSC then copy_csc_dense o addr ctype A nz
          else if m_kind A =? KTRIP then copy_trip_dense o addr ctype A nz
          else copy_dense_dense o addr ctype A nz
    end.

(*----------------------------------------------------------------------------*)
(* SLIP_matrix_check *)

(* SLIP_matrix_check.c:161-172 *)
Definition check_ptr (n nz : Z) (Ap : list Z) : res unit :=
  for_ 0 n (fun j (_ : unit) =>
    let* p := get Ap j in
    let* pend := get Ap (j + 1) in
    if (pend <? p) || (pend >? nz) then Err SLIP_INCORRECT_INPUT else Ok tt) tt.
(* SLIP_matrix_check.c:195-272; printing of values not modelled *)
Definition check_rows (m n : Z) (Ap Ai : list Z) : res (list Z) :=
  for_ 0 n (fun j work =>
    let* lo := get Ap j in
    let* hi := get Ap (j + 1) in
    for_ lo hi (fun p work =>
      let* i := get Ai p in
      if (i <? 0) || (i >=? m) then Err SLIP_INCORRECT_INPUT
      else
        let* w := get work i in
        if w =? j + 1 then Err SLIP_INCORRECT_INPUT else set work i (j + 1)) work) (mk m 0).

(* comparison of (j,i) pairs, SLIP_matrix_check.c:26-53, and qsort by insertion sort (trusted: qsort sorts) *)
Definition ple (a b : Z * Z) : bool :=
  if fst a <? fst b then true else if fst a >? fst b then false else snd a <=? snd b.
Fixpoint insert_p (a : Z * Z) (l : list (Z * Z)) : list (Z * Z) :=
  match l with [] => [a] | b :: t => if ple a b then a :: l else b :: insert_p a t end.
Fixpoint sort_p (l : list (Z * Z)) : list (Z * Z) := match l with [] => [] | a :: t => insert_p a (sort_p t) end.
Fixpoint adj_dup (l : list (Z * Z)) : bool :=
  match l with
  | a :: ((b :: _) as t) => ((fst a =? fst b) && (snd a =? snd b)) || adj_dup t
  | _ => false
  end.
(* SLIP_matrix_check.c:300-309: index ranges; :372-405: duplicates *)
Definition check_trip (m n nz : Z) (Ti Tj : list Z) : res unit :=
  let* _ := for_ 0 nz (fun p (_ : unit) =>
      let* i := get Ti p in
      let* j := get Tj p in
      if (i <? 0) || (i >=? m) || (j <? 0) || (j >=? n) then Err SLIP_INCORRECT_INPUT else Ok tt) tt in
  let* work := for_ 0 nz (fun p w => let* j := get Tj p in let* i := get Ti p in Ok (w ++ [(j, i)])) [] in
  if adj_dup (sort_p work) then Err SLIP_INCORRECT_INPUT else Ok tt.

(* SLIP_matrix_check.c:62-523 *)
Definition matrix_check (inited : bool) (A : option matrix) : res unit :=
  if negb inited then Err SLIP_PANIC
  else
    let* nz := matrix_nnz inited A in
    match A with
    | None => Err SLIP_INCORRECT_INPUT
    | Some A =>
        let m := m_m A in let n := m_n A in let nzmax := m_nzmax A in
        if (nz <? 0) || (m <? 0) || (n <? 0) || (nzmax <? 0) then Err SLIP_INCORRECT_INPUT     (* :82-108 *)
        else if (m_type A <? TMPZ) || (m_type A >? TDBL) then Err SLIP_INCORRECT_INPUT         (* :114-119 *)
        else if m_kind A =? KCSC then
          let* Ap := deref (m_p A) in
          let* p0 := (if nzmax >? 0 then get Ap 0 else Ok 0) in
          if negb (p0 =? 0) then Err SLIP_INCORRECT_INPUT                                      (* :154-160 *)
          else
            let* _ := check_ptr n nz Ap in
            match m_i A, m_x A with
            | Some Ai, Some _ => let* _ := check_rows m n Ap Ai in Ok tt
            | _, _ => if nzmax >? 0 then Err SLIP_INCORRECT_INPUT                              (* :178-183 *)
                      else let* Ai := deref (m_i A) in let* _ := check_rows m n Ap Ai in Ok tt
            end
        else if m_kind A =? KTRIP then
          match m_i A, m_j A, m_x A with
          | Some Ti, Some Tj, Some _ => check_trip m n nz Ti Tj
          | _, _, _ => if nzmax >? 0 then Err SLIP_INCORRECT_INPUT                             (* :289-294 *)
                       else if nz =? 0 then Ok tt
                       else let* Ti := deref (m_i A) in let* Tj := deref (m_j A) in check_trip m n nz Ti Tj
          end
        else
          match m_x A with                                                                     (* :420-426 *)
          | Some _ => Ok tt
          | None => if nzmax >? 0 then Err SLIP_INCORRECT_INPUT else Ok tt
          end
    end.
