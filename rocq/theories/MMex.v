(* Model of the MATLAB interface: MATLAB/SLIP_mex_soln.c (mexFunction) and MATLAB/Source/slip_get_matlab_options.c,
   slip_mex_check_for_inf.c, slip_mex_get_A_and_b.c, slip_mex_error.c.  Paths are relative to /repo/SLIP_LU/MATLAB.
   The library is initialized and memory suffices.  Printing and the release of memory are not modelled.  No proofs in this file. *)
From Verif Require Import Base MFactor MSolve MMatrix MApi MDemo.
Open Scope Z_scope.

(*----------------------------------------------------------------------------*)
(* MATLAB values.  A field of the options struct: a char array (its first row), or anything else, with the value that mxGetScalar finds *)
Inductive mxfield := MxChar (s : list Z) | MxNum (x : fl).
(* the fields of the options struct that are looked up (mxGetField gives NULL if there is no such field) *)
Record mxopts := mkXO { xo_order : option mxfield; xo_pivot : option mxfield; xo_tol : option mxfield; xo_solution : option mxfield;
                        xo_digits : option mxfield; xo_print : option mxfield }.
(* mxArray: mxIsComplex, mxIsSparse, mxGetM, mxGetN, mxGetJc, mxGetIr, mxGetDoubles (NULL if the class is not double), and the fields if it
   is a nonempty struct *)
Record mx := mkMx { x_complex : bool; x_sparse : bool; x_m : Z; x_n : Z; x_jc : option (list Z); x_ir : option (list Z);
                    x_pr : option (list fl); x_opts : option mxopts }.

(* the message passed to mexErrMsgTxt, which does not return.  slip_mex_error.c:16-51; MexStatus e: the message for a status other than OK *)
Inductive msg :=
| MexStatus (e : info)
| MexUsage                                       (* "Usage: x = SLIP_mex_soln (A,b,option)" *)
| MexReal | MexSparse | MexFull                  (* "inputs must be real", "first input must be sparse", "second input must be full" *)
| MexOrderString | MexOrder | MexPivotString | MexPivot | MexTol | MexSolution | MexDigits
| MexSquare | MexDim | MexInf | MexNan.
(* a call ends with an error message or a value *)
Inductive mex (A : Type) := Throw (s : msg) | Ret (a : A).
Arguments Throw {A} s.  Arguments Ret {A} a.
Definition mbind {A B} (m : res (mex A)) (f : A -> res (mex B)) : res (mex B) :=
  match m with Ok (Ret a) => f a | Ok (Throw s) => Ok (Throw s) | Err e => Err e | UB => UB | Fuel => Fuel end.
Notation "'let!' x ':=' m 'in' f" := (mbind m (fun x => f)) (at level 200, x pattern, m at level 100, f at level 200, right associativity).
Definition mret {A} (a : A) : res (mex A) := Ok (Ret a).
Definition throw {A} (s : msg) : res (mex A) := Ok (Throw s).
(* SLIP_MEX_OK, SLIP_LU_mex.h:17-24 *)
Definition mex_ok {A} (m : res A) : res (mex A) :=
  match m with Ok a => mret a | Err e => throw (MexStatus e) | UB => UB | Fuel => Fuel end.

(*----------------------------------------------------------------------------*)
(* the C string up to the terminating 0; mxGetString (field, string, 256) copies at most 255 characters *)
Fixpoint cstr (s : list Z) : list Z := match s with c :: t => if c =? 0 then [] else c :: cstr t | [] => [] end.
Definition mx_string (s : list Z) : list Z := cstr (firstn 255 s).
(* mxGetScalar: the first element; for an empty array it is not defined *)
Definition mx_scalar (f : mxfield) : res fl := match f with MxNum x => Ok x | MxChar (c :: _) => Ok (FFin c 0) | MxChar [] => UB end.
(* the strings "none", "colamd", "amd"; "smallest", "diagonal", "first", "tol smallest", "tol largest", "largest"; "vpa", "char", "double" *)
Definition t_none := [110; 111; 110; 101].  Definition t_colamd := [99; 111; 108; 97; 109; 100].  Definition t_amd := [97; 109; 100].
Definition t_smallest := [115; 109; 97; 108; 108; 101; 115; 116].  Definition t_diagonal := [100; 105; 97; 103; 111; 110; 97; 108].
Definition t_first := [102; 105; 114; 115; 116].  Definition t_largest := [108; 97; 114; 103; 101; 115; 116].
Definition t_tol_ := [116; 111; 108; 32].
Definition t_vpa := [118; 112; 97].  Definition t_char := [99; 104; 97; 114].  Definition t_double := [100; 111; 117; 98; 108; 101].
(* comparison of a finite m * 2^e with an integer *)
Definition cmpz (m e z : Z) : comparison := if 0 <=? e then m * 2 ^ e ?= z else m ?= z * 2 ^ (- e).
Definition gtz (x : fl) (z : Z) : bool :=
  match x with FNan => false | FInf s => negb s | FFin m e => match cmpz m e z with Gt => true | _ => false end end.
Definition ltz (x : fl) (z : Z) : bool :=
  match x with FNan => false | FInf s => s | FFin m e => match cmpz m e z with Lt => true | _ => false end end.
Definition lez (x : fl) (z : Z) : bool :=
  match x with FNan => false | FInf s => s | FFin m e => match cmpz m e z with Gt => false | _ => true end end.
(* x == trunc (x); false for a NaN *)
Definition is_int (x : fl) : bool :=
  match x with FNan => false | FInf _ => true | FFin m e => if 0 <=? e then true else m =? trunc_fl m e * 2 ^ (- e) end.
(* the cast of a double to a signed integer type of b bits: defined if the truncated value fits (C11 6.3.1.4) *)
Definition cast_int (b : Z) (x : fl) : res Z :=
  match x with FFin m e => let t := trunc_fl m e in if (- 2 ^ (b - 1) <=? t) && (t <? 2 ^ (b - 1)) then Ok t else UB | _ => UB end.

(* slip_get_matlab_options.c:18-185.  Result: option->order, pivot, tol, print_level and mexoptions->solution (0 double, 1 vpa, 2 char), digits.
   The last argument of the auxiliary functions is the contents of the buffer "string" (None: not initialized). *)
Record mexopt := mkMO { mo_order : Z; mo_pivot : Z; mo_tol : fl; mo_solution : Z; mo_digits : Z; mo_print : Z }.
Definition get_order (f : option mxfield) : res (mex (Z * option (list Z))) :=                       (* :41-63 *)
  match f with
  | None => mret (ORD_COLAMD, None)
  | Some (MxNum _) => throw MexOrderString
  | Some (MxChar s) =>
      let s := mx_string s in
      if streq s t_none then mret (ORD_NONE, Some s) else if streq s t_colamd then mret (ORD_COLAMD, Some s)
      else if streq s t_amd then mret (ORD_AMD, Some s) else throw MexOrder
  end.
Definition get_pivot (f : option mxfield) (buf : option (list Z)) : res (mex (Z * option (list Z))) := (* :69-105 *)
  match f with
  | None => mret (3, buf)
  | Some (MxNum _) => throw MexPivotString
  | Some (MxChar s) =>
      let s := mx_string s in
      if streq s t_smallest then mret (0, Some s) else if streq s t_diagonal then mret (1, Some s)
      else if streq s t_first then mret (2, Some s) else if streq s (t_tol_ ++ t_smallest) then mret (3, Some s)
      else if streq s (t_tol_ ++ t_largest) then mret (4, Some s) else if streq s t_largest then mret (5, Some s)
      else throw MexPivot
  end.
(* the double nearest to 0.1 *)
Definition tol_default : fl := FFin 3602879701896397 (-55).
Definition get_tol (pivot : Z) (f : option mxfield) : res (mex fl) :=                                (* :111-124 *)
  if (pivot =? 3) || (pivot =? 4) then
    match f with
    | None => mret tol_default
    | Some f => let* x := mx_scalar f in if gtz x 1 || lez x 0 then throw MexTol else mret x
    end
  else mret tol_default.
(* there is no mxIsChar here: for another class mxGetString fails and the buffer keeps its contents *)
Definition get_solution (f : option mxfield) (buf : option (list Z)) : res (mex Z) :=                (* :130-151 *)
  match f with
  | None => mret 0
  | Some f =>
      match (match f with MxChar s => Some (mx_string s) | MxNum _ => buf end) with
      | None => UB
      | Some s => if streq s t_vpa then mret 1 else if streq s t_char then mret 2 else if streq s t_double then mret 0 else throw MexSolution
      end
  end.
Definition get_digits (f : option mxfield) : res (mex Z) :=                                          (* :157-169 *)
  match f with
  | None => mret 100
  | Some f => let* d := mx_scalar f in
              if negb (is_int d) || ltz d 2 || gtz d (2 ^ 29) then throw MexDigits else let* v := cast_int 32 d in mret v
  end.
Definition get_print (f : option mxfield) : res (mex Z) :=                                           (* :175-183 *)
  match f with
  | None => mret 0
  | Some f => let* d := mx_scalar f in let* v := cast_int 32 d in mret (Z.max (Z.min v 3) 0)
  end.
Definition slip_get_matlab_options (input : option mxopts) : res (mex mexopt) :=
  let i := match input with Some i => i | None => mkXO None None None None None None end in
  let! (order, buf) := get_order (xo_order i) in
  let! (pivot, buf) := get_pivot (xo_pivot i) buf in
  let! tol := get_tol pivot (xo_tol i) in
  let! solution := get_solution (xo_solution i) buf in
  let! digits := get_digits (xo_digits i) in
  let! print := get_print (xo_print i) in
  mret (mkMO order pivot tol solution digits print).

(*----------------------------------------------------------------------------*)
(* slip_mex_check_for_inf.c:18-57.  INT64_MIN and INT64_MAX are converted to double: -2^63 and 2^63.  (double) xi is exact, since xi is
   xk truncated. *)
Definition check_for_inf (x : list fl) (n : Z) : res (mex bool) :=
  for_ 0 n (fun k st =>
    match st with
    | Throw s => Ok (Throw s)
    | Ret isint =>
        let* xk := get x k in
        match xk with
        | FInf _ => throw MexInf
        | FNan => throw MexNan
        | FFin m e =>
            if negb isint then mret isint
            else if ltz xk (- 2 ^ 63) || gtz xk (2 ^ 63) then mret false
            else let* xi := cast_int 64 xk in mret (match cmpz m e xi with Eq => true | _ => false end)
        end
    end) (Ret true).
(* for (k = 0 ; k < n ; k++) y [k] = (int64_t) x [k] ; where y is a new array of n cells *)
Definition typecast (x : list fl) (n : Z) : res (list Z) :=
  for_ 0 n (fun k y => let* v := get x k in let* t := cast_int 64 v in set y k t) (mk n 0).

(* slip_mex_get_A_and_b.c:16-173.  o: option, addr: see matrix_copy.  The results of SLIP_matrix_allocate are not tested, but the calls cannot
   fail here: the sizes are not negative.  mb*nb is unbounded. *)
Definition get_A (o : option options) (addr : Z -> Z) (A : mx) : res (mex matrix) :=                  (* :45-110 *)
  match x_jc A, x_ir A, x_pr A with
  | Some Ap, Some Ai, Some Ax =>
      let* anz := get Ap (x_n A) in
      if negb (x_n A =? x_m A) then throw MexSquare
      else
        let! isint := check_for_inf Ax anz in
        let* M := (if isint : bool then
                     let* Ax64 := typecast Ax anz in
                     let* M := matrix_allocate KCSC TINT (x_m A) (x_n A) anz true in Ok (with_arrays M (Some Ap) (Some Ai) None (VI Ax64))
                   else
                     let* M := matrix_allocate KCSC TDBL (x_m A) (x_n A) anz true in Ok (with_arrays M (Some Ap) (Some Ai) None (VD Ax))) in
        mex_ok (matrix_copy o addr true true KCSC TMPZ (Some M))
  | _, _, _ => throw (MexStatus SLIP_INCORRECT_INPUT)
  end.
Definition get_b (o : option options) (addr : Z -> Z) (A b : mx) : res (mex matrix) :=                (* :116-169 *)
  match x_pr b with
  | Some bx =>
      if negb (x_m b =? x_m A) then throw MexDim
      else
        let! isint := check_for_inf bx (x_n b * x_m b) in
        let* M := (if isint : bool then
                     let* M := matrix_allocate KDENSE TINT (x_m b) (x_n b) (x_m b * x_n b) true in
                     let* bx64 := typecast bx (x_m b * x_n b) in Ok (with_arrays M None None None (VI bx64))
                   else
                     let* M := matrix_allocate KDENSE TDBL (x_m b) (x_n b) (x_m b * x_n b) true in Ok (with_arrays M None None None (VD bx))) in
        mex_ok (matrix_copy o addr true true KDENSE TMPZ (Some M))
  | None => throw (MexStatus SLIP_INCORRECT_INPUT)
  end.
Definition slip_mex_get_A_and_b (o : option options) (addr : Z -> Z) (A b : mx) : res (mex (matrix * matrix)) :=
  let! MA := get_A o addr A in let! Mb := get_b o addr A b in mret (MA, Mb).

(*----------------------------------------------------------------------------*)
(* "%Qd" (GMP: mpq_get_str in base 10): the numerator, and "/" and the denominator unless that is 1 *)
Fixpoint dec (fuel : nat) (n : Z) : list Z :=
  match fuel with
  | O => []
  | S f => if n <? 10 then [48 + n] else dec f (n / 10) ++ [48 + n mod 10]
  end.
Definition dec_nat (n : Z) : list Z := dec (S (Z.to_nat (Z.log2 n))) n.
Definition dec_z (z : Z) : list Z := if z <? 0 then 45 :: dec_nat (- z) else dec_nat z.
Definition print_q (q : Q) : list Z := dec_z (Qnum q) ++ (if (Qden q =? 1)%positive then [] else 47 :: dec_nat (Z.pos (Qden q))).

(* what is returned to MATLAB: a double matrix or a cell array of strings, both stored by columns *)
Inductive mxout := MxDouble (m n : Z) (x : list fl) | MxCell (m n : Z) (x : list (list Z)).
(* SLIP_mex_soln.c:17-177.  garbage: the uninitialized mexoptions.solution, used if there are only two arguments (:70-71).
   In that case option has the defaults of SLIP_create_default_options (tolerance 1).
   A NaN tolerance makes GMP trap when it is used in slip_get_pivot; simplified: when SLIP_backslash is called. *)
Definition mexFunction (env : gmp_env) (ol : ordlib) (addr : Z -> Z) (garbage : Z) (nargout : Z) (args : list mx) : res (mex mxout) :=
  if nargout >? 1 then throw MexUsage
  else match args with
  | A :: b :: rest =>
      if (zlen rest >? 1) then throw MexUsage                                                        (* :38-41 *)
      else if x_complex A || x_complex b then throw MexReal                                          (* :47-58 *)
      else if negb (x_sparse A) then throw MexSparse
      else if x_sparse b then throw MexFull
      else
        let! mo := match rest with
                   | opt :: _ => slip_get_matlab_options (x_opts opt)                                (* :71 *)
                   | [] => mret (mkMO ORD_COLAMD 3 (FFin 1 0) garbage 0 0)
                   end in
        let oo tol := Some (mkO (mo_pivot mo) (mo_order mo) tol (mo_print mo) 128 RNDN false) in
        let! (MA, Mb) := slip_mex_get_A_and_b (oo 0%Q) addr A b in                                   (* :79; tol is not used *)
        match fl_q (mo_tol mo) with
        | None => UB
        | Some tol =>
            let o := oo tol in
            let! x := mex_ok (call (SLIP_backslash env ol addr true true TMPQ (Some MA) (Some Mb) o) (fun x => Ok x)) in   (* :98 *)
            if mo_solution mo =? 0 then                                                              (* :114-135 *)
              let! t := mex_ok (matrix_copy o addr true true KDENSE TDBL (Some x)) in
              let* d := xdbl t in mret (MxDouble (m_m t) (m_n t) d)
            else                                                                                     (* :136-161 *)
              let* xq := (match m_x x with Some (VQ l) => Ok l | _ => UB end) in
              let* s := for_ 0 (m_m x * m_n x) (fun p s => let* v := get xq p in Ok (s ++ [print_q v])) [] in
              mret (MxCell (m_m x) (m_n x) s)
        end
  | _ => throw MexUsage
  end.
