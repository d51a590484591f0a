(* Model of the MATLAB function SLIP_backslash: MATLAB/SLIP_backslash.m (paths relative to /repo/SLIP_LU).  The symbolic toolbox (vpa) is not
   modelled: the outcome says what is passed to it.  No proofs in this file. *)
From Coq Require Import String.
From Verif Require Import Base MFactor MSolve MMatrix MApi MDemo MMex.
Open Scope Z_scope.

(* sparse (A), built into MATLAB, for a full matrix of class double: its nonzero entries (NaN is one) by columns.  None: MATLAB has no sparse
   matrices of the other numeric classes and reports an error.  A complex matrix stays complex; its values are not modelled. *)
Definition mx_to_sparse (A : mx) : res (option mx) :=
  match x_pr A with
  | None => Ok None
  | Some pr =>
      let* nz := count_nz nzD (x_m A * x_n A) pr in
      let* st := dense_to_csc nzD (fun v => v) (x_m A) (x_n A) pr (mk (x_n A + 1) 0) (mk nz 0) (mk nz FNan) in
      let '(jc, ir, x) := st in
      Ok (Some (mkMx (x_complex A) true (x_m A) (x_n A) (Some jc) (Some ir) (Some x) None))
  end.

(* [ ] *)
Definition mx_empty : mx := mkMx false false 0 0 None None (Some []) None.

(* how a call ends: error ('inputs must be numeric'), the error of sparse, an error of SLIP_mex_soln, the result of SLIP_mex_soln itself, or
   vpa (x) or vpa (x, d) of that result *)
Inductive mout := MNumeric | MNotDouble | MThrow (s : msg) | MValue (x : mxout) | MVpa (x : mxout) (d : option mxfield).

(* isequal (option.solution, 'vpa'); a number is a scalar *)
Definition is_vpa (f : option mxfield) : bool :=
  match f with
  | Some (MxChar s) => if list_eq_dec Z.eq_dec s [118; 112; 97] then true else false
  | _ => false
  end.

(* SLIP_backslash.m:101-128.  numA, numB: isnumeric (A), isnumeric (b); option: the third argument, if there is one; g: see mexFunction *)
Definition SLIP_backslash_m (env : gmp_env) (ol : ordlib) (addr : Z -> Z) (g : Z) (numA numB : bool) (A b : mx) (option : option mx) : res mout :=
  let opt := match option with Some o => o | None => mx_empty end in                         (* :101-103 *)
  if negb numA || negb numB then Ok MNumeric                                                  (* :105-107 *)
  else
    let* SA := (if negb (x_sparse A) then mx_to_sparse A else Ok (Some A)) in                 (* :111-113 *)
    match SA with
    | None => Ok MNotDouble
    | Some A =>
        let* r := mexFunction env ol addr g 1 [A; b; opt] in                                  (* :116 *)
        match r with
        | Throw s => Ok (MThrow s)
        | Ret x =>
            match x_opts opt with                                                             (* :119-128 *)
            | Some i => if is_vpa (xo_solution i) then Ok (MVpa x (xo_digits i)) else Ok (MValue x)
            | None => Ok (MValue x)
            end
        end
    end.
