(* SLIP_LU_analyze, SLIP_LU_factorize and SLIP_LU_solve once more, with the integer arithmetic of C: every sum, difference, product and
   negation of int64_t numbers in the code is an operation of this file that is undefined when the result does not fit (C11 6.5:5), every
   loop counter included.  MFactor.v, MSolve.v and MApi.v, whose int64_t is unbounded, are otherwise unchanged.  COLAMD, AMD and the GMP
   numbers are as there.  Paths are relative to /repo/SLIP_LU/Source.  No proofs in this file. *)
From Verif Require Import Base MFactor MSolve MMatrix MApi.
Set Implicit Arguments.
Open Scope Z_scope.

(* the value of an int64_t expression *)
Definition ck (z : Z) : res Z := if (INT64_MIN <=? z) && (z <=? INT64_MAX) then Ok z else UB.
(* malloc (k * sizeof): size_t arithmetic wraps around, and the block would then be too small *)
Definition bytes (k size : Z) : res unit := if (0 <=? k) && (k * size <? 2 ^ 64) then Ok tt else UB.

(* for (i = lo ; i < hi ; i++) and for (i = hi - 1 ; i >= lo ; i--) *)
Fixpoint floop64 {S : Type} (cnt : nat) (i : Z) (body : Z -> S -> res S) (s : S) : res S :=
  match cnt with
  | O => Ok s
  | Datatypes.S c => let* s := body i s in let* i := ck (i + 1) in floop64 c i body s
  end.
Definition for64 {S : Type} (lo hi : Z) (body : Z -> S -> res S) (s : S) : res S := floop64 (Z.to_nat (hi - lo)) lo body s.
Fixpoint dloop64 {S : Type} (cnt : nat) (i : Z) (body : Z -> S -> res S) (s : S) : res S :=
  match cnt with
  | O => Ok s
  | Datatypes.S c => let* s := body i s in let* i := ck (i - 1) in dloop64 c i body s
  end.
Definition down64 {S : Type} (hi lo : Z) (body : Z -> S -> res S) (s : S) : res S :=
  let* i := ck (hi - 1) in dloop64 (Z.to_nat (hi - lo)) i body s.

(*----------------------------------------------------------------------------*)
(* factorization *)
(* SLIP_FLIP (i) = (-(i)-2), SLIP_UNFLIP, SLIP_MARK: slip_internal.h:77-80 *)
Definition flip64 (i : Z) : res Z := let* a := ck (- i) in ck (a - 2).
Definition unflip64 (i : Z) : res Z := if i <? 0 then flip64 i else Ok i.
Definition mark64 (Lp : list Z) (j : Z) : res (list Z) := let* v := get Lp j in let* w := flip64 v in set Lp j w.

(* slip_dfs.c:67-83 *)
Fixpoint dfs_scan64 (cnt : nat) (p : Z) (Lp Li : list Z) : res (option (Z * Z)) :=
  match cnt with
  | O => Ok None
  | S c =>
      let* i := get Li p in
      let* v := get Lp i in
      if v <? 0 then let* p := ck (p + 1) in dfs_scan64 c p Lp Li else Ok (Some (p, i))
  end.

(* slip_dfs.c:44-89; pstack[head] is xi[n+head] *)
Fixpoint dfs_loop64 (fuel : nat) (n : Z) (Li pinv : list Z) (head top : Z) (xi Lp : list Z) : res (Z * list Z * list Z) :=
  match fuel with
  | O => Fuel
  | S fuel' =>
      if head <? 0 then Ok (top, xi, Lp)
      else
        let* j := get xi head in
        let* jnew := get pinv j in
        let* v := get Lp j in
        let* st :=
          (if v <? 0 then Ok (xi, Lp)
           else
             let* Lp1 := mark64 Lp j in
             let* s := (if jnew <? 0 then Ok 0 else let* w := get Lp1 jnew in unflip64 w) in
             let* xi1 := set xi (n + head) s in
             Ok (xi1, Lp1)) in
        let '(xi1, Lp1) := st in
        let* p2 := (if jnew <? 0 then Ok 0 else let* j1 := ck (jnew + 1) in let* w := get Lp1 j1 in unflip64 w) in
        let* p0 := get xi1 (n + head) in
        let* r := dfs_scan64 (Z.to_nat (p2 - p0)) p0 Lp1 Li in
        match r with
        | Some (p, i) =>
            let* xi2 := set xi1 (n + head) p in
            let* head := ck (head + 1) in
            let* xi3 := set xi2 head i in
            dfs_loop64 fuel' n Li pinv head top xi3 Lp1
        | None =>
            let* head := ck (head - 1) in
            let* top := ck (top - 1) in
            let* xi2 := set xi1 top j in
            dfs_loop64 fuel' n Li pinv head top xi2 Lp1
        end
  end.
Definition slip_dfs64 (n top j : Z) (Li pinv : list Z) (xi Lp : list Z) : res (Z * list Z * list Z) :=
  let* xi0 := set xi 0 j in
  dfs_loop64 (Z.to_nat (2 * n + 2)) n Li pinv 0 top xi0 Lp.

(* slip_reach.c:19-56 *)
Definition slip_reach64 (n : Z) (Li : list Z) (Ap Ai : list Z) (k : Z) (pinv : list Z) (xi Lp : list Z) : res (Z * list Z * list Z) :=
  let* lo := get Ap k in
  let* k1 := ck (k + 1) in
  let* hi := get Ap k1 in
  let* st := for64 lo hi (fun p '(top, xi, Lp) =>
      let* i := get Ai p in
      let* v := get Lp i in
      if v <? 0 then Ok (top, xi, Lp) else slip_dfs64 n top i Li pinv xi Lp)
    (n, xi, Lp) in
  let '(top, xi, Lp) := st in
  let* Lp' := for64 top n (fun p Lp => let* j := get xi p in mark64 Lp j) Lp in
  Ok (top, xi, Lp').

(* slip_ref_triangular_solve.c:216-304 *)
Definition ipge_update64 (Lx Li rhos pinv : list Z) (j jnew m : Z) (st : list Z * list Z) : res (list Z * list Z) :=
  let '(x, h) := st in
  let* i := get Li m in
  let* inew := get pinv i in
  if inew >? jnew then
    let* lij := get Lx m in
    if lij =? 0 then Ok (x, h)
    else
      let* xi_ := get x i in
      let* xj := get x j in
      if xi_ =? 0 then
        if jnew <? 1 then
          let* x' := set x i (xi_ - lij * xj) in
          let* h' := set h i jnew in Ok (x', h')
        else
          let* j1 := ck (jnew - 1) in
          let* r := get rhos j1 in
          let* v := divexact (xi_ - lij * xj) r in
          let* x' := set x i v in
          let* h' := set h i jnew in Ok (x', h')
      else
        if jnew <? 1 then
          let* r0 := get rhos 0 in
          let* x' := set x i (xi_ * r0 - lij * xj) in
          let* h' := set h i jnew in Ok (x', h')
        else
          let* hi := get h i in
          let* j1 := ck (jnew - 1) in
          let* v1 := hist_update rhos xi_ hi j1 in
          let* rj := get rhos jnew in
          let* r := get rhos j1 in
          let* v2 := divexact (v1 * rj - lij * xj) r in
          let* x' := set x i v2 in
          let* h' := set h i jnew in Ok (x', h')
  else Ok (x, h).

(* slip_ref_triangular_solve.c:181-324 *)
Definition tri_step64 (k : Z) (Lp Li Lx rhos pinv xi : list Z) (p : Z) (st : list Z * list Z) : res (list Z * list Z) :=
  let '(x, h) := st in
  let* j := get xi p in
  let* jnew := get pinv j in
  let* xj := get x j in
  if xj =? 0 then Ok (x, h)
  else if jnew <? k then
    let* hj := get h j in
    let* j1 := ck (jnew - 1) in
    let* v := hist_update rhos xj hj j1 in
    let* x1 := set x j v in
    let* lo := get Lp jnew in
    let* j2 := ck (jnew + 1) in
    let* hi := get Lp j2 in
    for64 lo hi (fun m st => ipge_update64 Lx Li rhos pinv j jnew m st) (x1, h)
  else
    let* hj := get h j in
    let* k1 := ck (k - 1) in
    let* v := hist_update rhos xj hj k1 in
    let* x1 := set x j v in
    Ok (x1, h).

(* slip_ref_triangular_solve.c:87-328 *)
Definition slip_ref_triangular_solve64 (n : Z) (Lp Li Lx : list Z) (Ap Ai Ax : list Z) (k : Z) (xi q rhos pinv row_perm h x : list Z)
  : res (Z * list Z * list Z * list Z * list Z) :=
  let* col := get q k in
  let* rr := slip_reach64 n Li Ap Ai col pinv xi Lp in
  let '(top, xi, Lp) := rr in
  let* xi := for64 top n (fun j xi => let* a := get xi j in let* b := get pinv a in set xi j b) xi in
  let* _ := ck (n - top) in                                               (* :143, the number of elements for qsort *)
  let* xi := sort_range xi top n in
  let* xi := for64 top n (fun j xi => let* a := get xi j in let* b := get row_perm a in set xi j b) xi in
  let* x := for64 top n (fun i x => let* a := get xi i in set x a 0) x in
  let* x := set x col 0 in
  let* h := for64 top n (fun i h => let* a := get xi i in set h a (-1)) h in
  let* lo := get Ap col in
  let* col1 := ck (col + 1) in
  let* hi := get Ap col1 in
  let* x := for64 lo hi (fun i x => let* a := get Ai i in let* v := get Ax i in set x a v) x in
  let* st := for64 top n (fun p st => tri_step64 k Lp Li Lx rhos pinv xi p st) (x, h) in
  let '(x, h) := st in
  Ok (top, xi, Lp, x, h).

(* slip_get_smallest_pivot.c:59-79 *)
Fixpoint first_eligible64 (cnt : nat) (flag : Z) (x pivs xi : list Z) : res (option (Z * Z * Z)) :=
  match cnt with
  | O => Ok None
  | S c =>
      let* inew := get xi flag in
      let* v := get x inew in
      let* pv := get pivs inew in
      if (pv <? 0) && negb (v =? 0) then Ok (Some (flag, inew, v)) else let* flag := ck (flag + 1) in first_eligible64 c flag x pivs xi
  end.
Definition slip_get_smallest_pivot64 (x pivs : list Z) (n top : Z) (xi : list Z) : res Z :=
  let* f := (if top >? -1 then first_eligible64 (Z.to_nat (n - top)) top x pivs xi else Ok None) in
  match f with
  | None => Err SLIP_SINGULAR
  | Some (j, piv, small) =>
      let* st := for64 j n (fun i '(piv, small) =>
          let* inew := get xi i in
          let* v := get x inew in
          let* pv := get pivs inew in
          if (pv <? 0) && (Z.abs small >? Z.abs v) && negb (v =? 0) then Ok (inew, v) else Ok (piv, small))
        (piv, small) in
      if fst st =? -1 then Err SLIP_SINGULAR else Ok (fst st)
  end.
(* slip_get_largest_pivot.c:25-89 *)
Definition slip_get_largest_pivot64 (x pivs : list Z) (n top : Z) (xi : list Z) : res Z :=
  let* st := for64 top n (fun i '(piv, big) =>
      let* inew := get xi i in
      let* v := get x inew in
      let* pv := get pivs inew in
      if (pv <? 0) && (Z.abs big <? Z.abs v) then Ok (inew, v) else Ok (piv, big))
    (-1, 0) in
  if fst st =? -1 then Err SLIP_SINGULAR else Ok (fst st).
(* slip_get_nonzero_pivot.c:22-69 *)
Definition slip_get_nonzero_pivot64 (x pivs : list Z) (n top : Z) (xi : list Z) : res Z :=
  let* f := first_eligible64 (Z.to_nat (n - top)) top x pivs xi in
  match f with None => Err SLIP_SINGULAR | Some (_, piv, _) => Ok piv end.

(* slip_get_pivot.c:33-167 *)
Definition choose_pivot64 (env : gmp_env) (order : Z) (tol : Q) (x pivs : list Z) (n top : Z) (xi : list Z) (col : Z) : res Z :=
  if order =? PIV_SMALLEST then slip_get_smallest_pivot64 x pivs n top xi
  else if order =? PIV_DIAGONAL then
    let* xc := get x col in
    let* pc := get pivs col in
    if negb (xc =? 0) && (pc <? 0) then Ok col else slip_get_smallest_pivot64 x pivs n top xi
  else if order =? PIV_FIRST_NONZERO then slip_get_nonzero_pivot64 x pivs n top xi
  else if order =? PIV_TOL_LARGEST then
    let* piv := slip_get_largest_pivot64 x pivs n top xi in
    let* xc := get x col in
    let* pc := get pivs col in
    if negb (xc =? 0) && (pc <? 0) then
      let* xp := get x piv in
      let* ge := mpq_ge env (Z.abs xc) xp tol in
      if ge then Ok col else Ok piv
    else Ok piv
  else if order =? PIV_LARGEST then slip_get_largest_pivot64 x pivs n top xi
  else
    let* piv := slip_get_smallest_pivot64 x pivs n top xi in
    let* xc := get x col in
    let* pc := get pivs col in
    if negb (xc =? 0) && (pc <? 0) then
      let* xp := get x piv in
      let* ge := mpq_ge env (Z.abs xp) (Z.abs xc) tol in
      if ge then Ok col else Ok piv
    else Ok piv.
(* slip_get_pivot.c:33-220; apply_pivot has no arithmetic *)
Definition slip_get_pivot64 (env : gmp_env) (order : Z) (tol : Q) (x pivs : list Z) (n top : Z) (xi : list Z) (col k : Z)
    (rhos pinv row_perm : list Z) : res (Z * list Z * list Z * list Z * list Z) :=
  let* piv := choose_pivot64 env order tol x pivs n top xi col in
  let* st := apply_pivot piv k x rhos pinv row_perm pivs in
  let '(rhos, pinv, row_perm, pivs) := st in
  Ok (piv, rhos, pinv, row_perm, pivs).

(* slip_sparse_realloc.c:35-58 *)
Definition sparse_realloc64 (Mi Mx : list Z) : res (list Z * list Z) := let* _ := ck (2 * zlen Mi) in Ok (sparse_realloc Mi Mx).

(* SLIP_LU_factorize.c:231-270 *)
Definition push_LU64 (k : Z) (xi pinv x : list Z) (j : Z) (st : list Z * list Z * list Z * list Z * Z * Z)
  : res (list Z * list Z * list Z * list Z * Z * Z) :=
  let '(Li, Lx, Ui, Ux, lnz, unz) := st in
  let* jnew := get xi j in
  let* loc := get pinv jnew in
  let* v := get x jnew in
  let* su := (if loc <=? k then
                let* Ui' := set Ui unz jnew in
                let* Ux' := set Ux unz v in let* unz := ck (unz + 1) in Ok (Ui', Ux', unz)
              else Ok (Ui, Ux, unz)) in
  let '(Ui, Ux, unz) := su in
  let* sl := (if loc >=? k then
                let* Li' := set Li lnz jnew in
                let* Lx' := set Lx lnz v in let* lnz := ck (lnz + 1) in Ok (Li', Lx', lnz)
              else Ok (Li, Lx, lnz)) in
  let '(Li, Lx, lnz) := sl in
  Ok (Li, Lx, Ui, Ux, lnz, unz).

(* SLIP_LU_factorize.c:189-271 *)
Definition factor_step64 (env : gmp_env) (order : Z) (tol : Q) (n : Z) (Ap Ai Ax q : list Z) (k : Z) (s : fstate) : res fstate :=
  let* Lp := set (F_Lp s) k (F_lnz s) in
  let* Up := set (F_Up s) k (F_unz s) in
  let* col := get q k in
  let* l := ck (F_lnz s + n) in                                           (* :201 *)
  let* L := (if l >? zlen (F_Li s) then sparse_realloc64 (F_Li s) (F_Lx s) else Ok (F_Li s, F_Lx s)) in
  let* u := ck (F_unz s + n) in                                           (* :206 *)
  let* U := (if u >? zlen (F_Ui s) then sparse_realloc64 (F_Ui s) (F_Ux s) else Ok (F_Ui s, F_Ux s)) in
  let '(Li, Lx) := L in let '(Ui, Ux) := U in
  let* ts := slip_ref_triangular_solve64 n Lp Li Lx Ap Ai Ax k (F_xi s) q (F_rhos s) (F_pinv s) (F_rowp s) (F_h s) (F_x s) in
  let '(top, xi, Lp, x, h) := ts in
  let* gp := slip_get_pivot64 env order tol x (F_pivs s) n top xi col k (F_rhos s) (F_pinv s) (F_rowp s) in
  let '(piv, rhos, pinv, rowp, pivs) := gp in
  let* st := for64 top n (fun j st => push_LU64 k xi pinv x j st) (Li, Lx, Ui, Ux, F_lnz s, F_unz s) in
  let '(Li, Lx, Ui, Ux, lnz, unz) := st in
  Ok (mkF Lp Li Lx Up Ui Ux lnz unz pinv rowp pivs h xi x rhos).

(* SLIP_LU_factorize.c:97-323 after the argument checks.  The allocations: :97-117 (n, n, n, 2*n, n numbers) and, in
   SLIP_matrix_allocate.c:78-82, 124, n*1 entries of rhos and x and n+1 column pointers.  The loops :127-134 and :186-190 count to n. *)
Definition factorize_core64 (env : gmp_env) (order : Z) (tol : Q) (n : Z) (Ap Ai Ax q : list Z) (lnz0 unz0 : Z) : res factors :=
  let* _ := bytes n 8 in
  let* n2 := ck (2 * n) in let* _ := bytes n2 8 in
  let* _ := ck (n * 1) in
  let* _ := ck (n + 1) in
  let* s := for64 0 n (fun k s => factor_step64 env order tol n Ap Ai Ax q k s) (factor_init n lnz0 unz0) in
  let* Lp := set (F_Lp s) n (F_lnz s) in
  let* Up := set (F_Up s) n (F_unz s) in
  let Li := firstn (Z.to_nat (F_lnz s)) (F_Li s) in
  let Lx := firstn (Z.to_nat (F_lnz s)) (F_Lx s) in
  let Ui := firstn (Z.to_nat (F_unz s)) (F_Ui s) in
  let Ux := firstn (Z.to_nat (F_unz s)) (F_Ux s) in
  let* Li := for64 0 (F_lnz s) (fun i Li => let* a := get Li i in let* b := get (F_pinv s) a in set Li i b) Li in
  let* Ui := for64 0 (F_unz s) (fun i Ui => let* a := get Ui i in let* b := get (F_pinv s) a in set Ui i b) Ui in
  Ok (mkFac Lp Li Lx Up Ui Ux (F_rhos s) (F_pinv s)).

(* SLIP_LU_factorize.c:42-323 *)
Definition SLIP_LU_factorize64 (env : gmp_env) (inited handles : bool) (A : option matrix) (An : option analysis) (o : option options) : ret lu :=
  if negb inited then reject SLIP_PANIC
  else if negb (has_kt A KCSC TMPZ) then reject SLIP_INCORRECT_INPUT
  else match matrix_nnz inited A with
  | Ok anz =>
      match A, An with
      | Some A, Some An =>
          if negb handles || (anz <? 0) then reject SLIP_INCORRECT_INPUT
          else finish (
            let* Ap := deref (m_p A) in let* Ai := deref (m_i A) in let* Ax := xmpz A in
            let* F := factorize_core64 env (opt_pivot o) (opt_tol o) (m_n A) Ap Ai Ax (s_q An) (s_lnz An) (s_unz An) in
            Ok (lu_of (m_n A) F))
      | _, _ => reject SLIP_INCORRECT_INPUT
      end
  | Err e => reject e | UB => UB | Fuel => Fuel
  end.

(*----------------------------------------------------------------------------*)
(* solve *)
(* SLIP_2D: Include/SLIP_LU.h:425: (i) + (j)*((A)->m) *)
Definition ix64 (m i j : Z) : res Z := let* a := ck (j * m) in ck (i + a).

(* SLIP_matrix_allocate.c:78-82 for a dense matrix: m*n entries *)
Definition dense64 (m n : Z) : res unit := let* _ := ck (m * n) in Ok tt.

(* slip_permute_b.c:20-67 *)
Definition slip_permute_b64 (m n : Z) (b2 pinv : list Z) : res (list Z) :=
  let* _ := dense64 m n in
  for64 0 m (fun i b =>
    for64 0 n (fun j b =>
      let* z := ix64 m i j in let* v := get b2 z in
      let* pi := get pinv i in
      let* z := ix64 m pi j in set b z v) b) (mk (Z.max (m * n) 1) 0).

(* slip_forward_sub.c:103-171 *)
Definition fwd_inner64 (m k i : Z) (Li Lx rhos : list Z) (j : Z) (st : list Z * list Z) : res (list Z * list Z) :=
  let '(x, h) := st in
  let* jnew := get Li j in
  let* lji := get Lx j in
  if lji =? 0 then Ok (x, h)
  else if jnew >? i then
    let* z := ix64 m jnew k in
    let* xj := get x z in
    let* y := ix64 m i k in
    let* xi := get x y in
    let* v :=
      (if xj =? 0 then
         if i >? 0 then let* i1 := ck (i - 1) in let* r := get rhos i1 in divexact (xj - lji * xi) r
         else Ok (xj - lji * xi)
       else
         let* hx := get h z in
         let* i1 := ck (i - 1) in
         let* v1 := hist_update rhos xj hx i1 in
         let* ri := get rhos i in
         if i >? 0 then let* r := get rhos i1 in divexact (v1 * ri - lji * xi) r
         else Ok (v1 * ri - lji * xi)) in
    let* x' := set x z v in
    let* h' := set h z i in
    Ok (x', h')
  else Ok (x, h).

(* slip_forward_sub.c:72-172 *)
Definition fwd_row64 (m k : Z) (Lp Li Lx rhos : list Z) (i : Z) (st : list Z * list Z) : res (list Z * list Z) :=
  let '(x, h) := st in
  let* y := ix64 m i k in
  let* hx := get h y in
  let* xi := get x y in
  if xi =? 0 then Ok (x, h)
  else
    let* i1 := ck (i - 1) in
    let* v := hist_update rhos xi hx i1 in
    let* x := set x y v in
    let* lo := get Lp i in
    let* i2 := ck (i + 1) in
    let* hi := get Lp i2 in
    for64 lo hi (fun j st => fwd_inner64 m k i Li Lx rhos j st) (x, h).

(* slip_forward_sub.c:27-181 *)
Definition slip_forward_sub64 (m n : Z) (Lp Li Lx rhos x : list Z) : res (list Z) :=
  let* _ := dense64 m n in
  let h := mk (Z.max (m * n) 1) (-1) in
  let* st := for64 0 n (fun k st => for64 0 m (fun i st => fwd_row64 m k Lp Li Lx rhos i st) st) (x, h) in
  Ok (fst st).

(* slip_matrix_mul.c:19-45; nz = SLIP_matrix_nnz = m*n *)
Definition slip_matrix_mul64 (m n : Z) (x : list Z) (scalar : Z) : res (list Z) :=
  let* nz := ck (m * n) in
  for64 0 nz (fun i x => let* v := get x i in set x i (v * scalar)) x.

(* slip_back_sub.c:49-67 *)
Definition back_row64 (m k : Z) (Up Ui Ux : list Z) (j : Z) (x : list Z) : res (list Z) :=
  let* y := ix64 m j k in
  let* xj := get x y in
  if xj =? 0 then Ok x
  else
    let* j1 := ck (j + 1) in
    let* hi := get Up j1 in
    let* hi1 := ck (hi - 1) in
    let* d := get Ux hi1 in
    let* v := divexact xj d in
    let* x := set x y v in
    let* lo := get Up j in
    for64 lo hi1 (fun i x =>
      let* u := get Ux i in
      if u =? 0 then Ok x
      else
        let* r := get Ui i in
        let* z := ix64 m r k in
        let* w := get x z in
        let* xj := get x y in
        set x z (w - u * xj)) x.
Definition slip_back_sub64 (m n : Z) (Up Ui Ux x : list Z) : res (list Z) :=
  for64 0 n (fun k x => down64 m 0 (fun j x => back_row64 m k Up Ui Ux j x) x) x.

(* slip_matrix_div.c:28-82 *)
Definition slip_matrix_div64 (m n : Z) (x : list Z) (scalar : Z) : res (list Q) :=
  let* nz := ck (m * n) in
  for64 0 nz (fun i x2 =>
    let* v := get x i in
    let* w := mpq_div (mpq_z v) (mpq_z scalar) in
    set x2 i w) (mk (Z.max nz 1) 0%Q).

(* slip_permute_x.c:20-68 *)
Definition slip_permute_x64 (m n : Z) (x2 : list Q) (q : list Z) : res (list Q) :=
  let* _ := dense64 m n in
  for64 0 m (fun i x =>
    for64 0 n (fun j x =>
      let* z := ix64 m i j in let* v := get x2 z in
      let* qi := get q i in
      let* z := ix64 m qi j in set x z v) x) (mk (Z.max (m * n) 1) 0%Q).

(* slip_check_solution.c:21-120 *)
Definition slip_check_solution64 (m n : Z) (Ap Ai Ax : list Z) (x : list Q) (b : list Z) : res unit :=
  let* _ := dense64 m n in
  let* b2 := for64 0 n (fun j b2 =>
      for64 0 m (fun i b2 =>
        let* lo := get Ap i in
        let* i1 := ck (i + 1) in
        let* hi := get Ap i1 in
        for64 lo hi (fun p b2 =>
          let* a := get Ax p in
          let* y := ix64 m i j in let* xi := get x y in
          let* r := get Ai p in
          let* z := ix64 m r j in let* w := get b2 z in
          set b2 z (mpq_add w (mpq_mul (mpq_z a) xi))) b2) b2) (mk (Z.max (m * n) 1) 0%Q) in
  let* _ := for64 0 n (fun j (_ : unit) =>
      for64 0 m (fun i (_ : unit) =>
        let* y := ix64 m i j in
        let* bi := get b y in
        let* w := get b2 y in
        if mpq_equal (mpq_z bi) w then Ok tt else Err SLIP_INCORRECT) tt) tt in
  Ok tt.

(* SLIP_LU_solve.c:88-175 *)
Definition solve_core64 (nl n nrhs : Z) (Ap Ai Ax : list Z) (scaleA : Q) (b : list Z) (scaleB : Q) (F : factors) (q : list Z) (check : bool)
  : res (list Q) :=
  if (n <? 0) || (nrhs <? 0) then Err SLIP_INCORRECT_INPUT else
  let* b2 := slip_permute_b64 n nrhs b (fac_pinv F) in
  let* b2 := slip_forward_sub64 n nrhs (fac_Lp F) (fac_Li F) (fac_Lx F) (fac_rhos F) b2 in
  let* nl1 := ck (nl - 1) in
  let* det := get (fac_rhos F) nl1 in
  let* b2 := slip_matrix_mul64 n nrhs b2 det in
  let* b2 := slip_back_sub64 n nrhs (fac_Up F) (fac_Ui F) (fac_Ux F) b2 in
  let* x2 := slip_matrix_div64 n nrhs b2 det in
  let* x := slip_permute_x64 n nrhs x2 q in
  let* _ := (if check then slip_check_solution64 n nrhs Ap Ai Ax x b else Ok tt) in
  let* scale := mpq_div scaleA scaleB in
  let* nz := ck (n * nrhs) in                                              (* :159 *)
  if mpq_equal scale 1%Q then Ok x
  else for64 0 nz (fun i x => let* v := get x i in set x i (mpq_mul v scale)) x.

(* SLIP_LU_solve.c:53-175 *)
Definition SLIP_LU_solve64 (inited handle : bool) (b A L U rhos : option matrix) (An : option analysis) (pinv : option (list Z))
    (o : option options) : ret matrix :=
  if negb inited then reject SLIP_PANIC
  else if negb (has_kt b KDENSE TMPZ && has_kt A KCSC TMPZ && has_kt L KCSC TMPZ && has_kt U KCSC TMPZ && has_kt rhos KDENSE TMPZ)
  then reject SLIP_INCORRECT_INPUT
  else match b, A, L, U, rhos, An, pinv with
  | Some b, Some A, Some L, Some U, Some rhos, Some An, Some pinv =>
      if negb handle || negb (m_m L =? m_m A) || negb (m_n L =? m_m U) || negb (m_n U =? m_n A)
         || negb (m_n A =? m_m A) || negb (m_m A =? m_m b)
      then reject SLIP_INCORRECT_INPUT
      else finish (
        let* Ap := deref (m_p A) in let* Ai := deref (m_i A) in let* Ax := xmpz A in
        let* Lp := deref (m_p L) in let* Li := deref (m_i L) in let* Lx := xmpz L in
        let* Up := deref (m_p U) in let* Ui := deref (m_i U) in let* Ux := xmpz U in
        let* rh := xmpz rhos in let* bx := xmpz b in
        let* X := solve_core64 (m_n L) (m_m b) (m_n b) Ap Ai Ax (m_scale A) bx (m_scale b)
                    (mkFac Lp Li Lx Up Ui Ux rh pinv) (s_q An) (opt_check o) in
        Ok (mkM (m_m b) (m_n b) (zlen X) 0 KDENSE TMPQ None None None (Some (VQ X)) 1%Q))
  | _, _, _, _, _, _, _ => reject SLIP_INCORRECT_INPUT
  end.

(*----------------------------------------------------------------------------*)
(* analyze *)
(* int64_t to double, the product of doubles, comparison and ceil; all numbers here are far below 2^1024 and multiples of 1/2 *)
Definition d_of (z : Z) : fl := rnd_fin RNDN 53 z 0.
Definition d_mul (x y : fl) : fl := mpfr_mul RNDN 53 x y.
Definition d_half : fl := FFin 1 (-1).
Definition d_gt (x y : fl) : bool := match fl_q x, fl_q y with Some a, Some b => negb (Qle_bool a b) | _, _ => false end.
Definition d_ceil (x : fl) : Z := match x with FFin m e => if 0 <=? e then m * 2 ^ e else - ((- m) / 2 ^ (- e)) | _ => 0 end.

(* SLIP_LU_analyze.c:158-176: S->lnz > (double) n*n, ceil (0.5*n*n), S->lnz + n, S->unz + n *)
Definition fix_estimate64 (n lnz unz : Z) : res (Z * Z) :=
  let* e := (if d_gt (d_of lnz) (d_mul (d_of n) (d_of n)) then
               let* nnz := ck (d_ceil (d_mul (d_mul d_half (d_of n)) (d_of n))) in Ok (nnz, nnz)
             else Ok (lnz, unz)) in
  let '(lnz, unz) := e in
  let* lnz := (if lnz <? n then ck (lnz + n) else Ok lnz) in
  let* unz := (if unz <? n then ck (unz + n) else Ok unz) in
  Ok (lnz, unz).

(* SLIP_LU_analyze.c:52-183.  The loops :82 and :130 count to n + 1, :135 to anz.  AMD and COLAMD are those of MApi.v. *)
Definition analyze_core64 (ol : ordlib) (order : Z) (A : matrix) (anz : Z) : res analysis :=
  let n := m_n A in
  let* n1 := ck (n + 1) in let* _ := bytes n1 8 in                         (* :64 *)
  let* Ap := deref (m_p A) in
  let* st :=
    (if order =? ORD_NONE then
       let* e := ck (10 * anz) in Ok (zseq 0 n1, e)                         (* :87 *)
     else if order =? ORD_AMD then
       let* Ai := deref (m_i A) in
       let* r := amd_l_order ol n Ap Ai in let* e := ck (snd r) in Ok (fst r, e)
     else
       let* a := ck (2 * anz) in let* b := ck (6 * n1) in
       let* c := ck (a + b) in let* d := ck (c + b) in let* alen := ck (d + n) in   (* :120 *)
       let* _ := bytes alen 8 in                                            (* :121 *)
       let* Ai := deref (m_i A) in
       let* q0 := memcpy (malloced ol 0 n1) Ap n1 in
       let* a2 := memcpy (malloced ol 4 alen) Ai anz in
       let* q := colamd_l ol n q0 a2 in
       let* e := ck (10 * anz) in                                           (* :143 *)
       Ok (q, e)) in
  let* e := fix_estimate64 n (snd st) (snd st) in
  Ok (mkS (fst st) (fst e) (snd e)).

(* SLIP_LU_analyze.c:30-183 *)
Definition SLIP_LU_analyze64 (ol : ordlib) (inited handle : bool) (A : option matrix) (o : option options) : ret analysis :=
  if negb inited then reject SLIP_PANIC
  else if negb (has_kind A KCSC) then reject SLIP_INCORRECT_INPUT
  else match A with
  | None => reject SLIP_INCORRECT_INPUT
  | Some A =>
      if negb handle || negb (m_n A =? m_m A) then reject SLIP_INCORRECT_INPUT
      else
        match matrix_nnz inited (Some A) with
        | Ok anz => finish (analyze_core64 ol (opt_order o) A anz)
        | Err e => Ok (SErr e, Null) | UB => UB | Fuel => Fuel
        end
  end.

(*----------------------------------------------------------------------------*)
(* two's complement: what the compiled code does on the usual machines *)
Definition wrap (z : Z) : res Z := Ok ((z + 2 ^ 63) mod 2 ^ 64 - 2 ^ 63).

(* SLIP_matrix_allocate.c:60-185 with the int64_t arithmetic ar: m*n at :80 and n+1 at :124 *)
Definition matrix_allocate64 (ar : Z -> res Z) (kind type m n nzmax : Z) (shallow : bool) : res matrix :=
  if (m <? 0) || (n <? 0) || (kind <? KCSC) || (kind >? KDENSE) || (type <? TMPZ) || (type >? TDBL)
  then Err SLIP_INCORRECT_INPUT
  else
    let* nzmax := (if kind =? KDENSE then ar (m * n) else Ok nzmax) in
    let nzmax := Z.max nzmax 1 in
    if shallow then Ok (mkM m n nzmax 0 kind type None None None None 1%Q)
    else
      let* p := (if kind =? KCSC then let* n1 := ar (n + 1) in Ok (Some (mk n1 0)) else Ok None) in
      let i := if kind =? KDENSE then None else Some (mk nzmax 0) in
      let j := if kind =? KTRIP then Some (mk nzmax 0) else None in
      Ok (mkM m n nzmax 0 kind type p i j (Some (fresh_vals type nzmax)) 1%Q).

(* SLIP_matrix_nnz.c:38-54: m*n of a dense matrix *)
Definition matrix_nnz64 (ar : Z -> res Z) (inited : bool) (A : option matrix) : res Z :=
  if negb inited then Ok (-1)
  else match A with
  | None => Ok (-1)
  | Some A =>
      if m_kind A =? KCSC then
        match m_p A with
        | None => Ok (-1)
        | Some p => if m_n A <? 0 then Ok (-1) else get p (m_n A)
        end
      else if m_kind A =? KTRIP then Ok (m_nz A)
      else if m_kind A =? KDENSE then (if (m_m A <? 0) || (m_n A <? 0) then Ok (-1) else ar (m_m A * m_n A))
      else Ok (-1)
  end.
