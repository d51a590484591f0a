(* Model of the numerical factorization: slip_dfs, slip_reach, slip_ref_triangular_solve, the pivot searches and
   the main loop of SLIP_LU_factorize.  Paths are relative to /repo/SLIP_LU/Source.
   Simplifications: int64_t is unbounded Z; mpz_t is Z; allocation succeeds (out-of-memory paths are modelled
   separately in MMem.v); sizes passed to mpz_init2 are dropped.  No proofs in this file. *)
From Verif Require Import Base.
Open Scope Z_scope.

(* SLIP_FLIP, SLIP_UNFLIP, SLIP_MARKED: slip_internal.h:77-80 *)
Definition flip (i : Z) : Z := - i - 2.
Definition unflip (i : Z) : Z := if i <? 0 then flip i else i.

(* SLIP_MARK(Ap,j): slip_internal.h:80 *)
Definition mark (Lp : list Z) (j : Z) : res (list Z) :=
  let* v := get Lp j in set Lp j (flip v).

(* slip_dfs.c:67-83: scan the neighbours p..p2-1 for the first unmarked one; Some (p,i) = "break" with pstack[head]=p *)
Fixpoint dfs_scan (cnt : nat) (p : Z) (Lp Li : list Z) : res (option (Z * Z)) :=
  match cnt with
  | O => Ok None
  | S c =>
      let* i := get Li p in
      let* v := get Lp i in
      if v <? 0 then dfs_scan c (p + 1) Lp Li else Ok (Some (p, i))
  end.

(* slip_dfs.c:44-89, the while loop.  xi has 2n cells; pstack = xi+n (slip_reach.c:47), so pstack[head] is xi[n+head].
   Result: (top, xi, Lp). *)
Fixpoint dfs_loop (fuel : nat) (n : Z) (Li pinv : list Z) (head top : Z) (xi Lp : list Z)
  : res (Z * list Z * list Z) :=
  match fuel with
  | O => Fuel
  | S fuel' =>
      if head <? 0 then Ok (top, xi, Lp)                                  (* :44 *)
      else
        let* j := get xi head in                                          (* :47 *)
        let* jnew := get pinv j in                                        (* :49 *)
        let* v := get Lp j in
        let* st :=
          (if v <? 0 then Ok (xi, Lp)                                     (* :54 already marked *)
           else
             let* Lp1 := mark Lp j in                                     (* :56 *)
             let* s := (if jnew <? 0 then Ok 0
                        else let* w := get Lp1 jnew in Ok (unflip w)) in  (* :57 *)
             let* xi1 := set xi (n + head) s in
             Ok (xi1, Lp1)) in
        let '(xi1, Lp1) := st in
        let* p2 := (if jnew <? 0 then Ok 0
                    else let* w := get Lp1 (jnew + 1) in Ok (unflip w)) in (* :62 *)
        let* p0 := get xi1 (n + head) in                                   (* :67 *)
        let* r := dfs_scan (Z.to_nat (p2 - p0)) p0 Lp1 Li in
        match r with
        | Some (p, i) =>                                                   (* :75-81 *)
            let* xi2 := set xi1 (n + head) p in
            let* xi3 := set xi2 (head + 1) i in
            dfs_loop fuel' n Li pinv (head + 1) top xi3 Lp1
        | None =>                                                          (* :84-88 *)
            let* xi2 := set xi1 (top - 1) j in
            dfs_loop fuel' n Li pinv (head - 1) (top - 1) xi2 Lp1
        end
  end.

(* slip_dfs.c:18-90.  The fuel 2n+2 is proved sufficient. *)
Definition slip_dfs (n top j : Z) (Li pinv : list Z) (xi Lp : list Z) : res (Z * list Z * list Z) :=
  let* xi0 := set xi 0 j in                                               (* :42 *)
  dfs_loop (Z.to_nat (2 * n + 2)) n Li pinv 0 top xi0 Lp.

(* slip_reach.c:19-56.  Result (top, xi, Lp); n = L->n *)
Definition slip_reach (n : Z) (Li : list Z) (Ap Ai : list Z) (k : Z) (pinv : list Z) (xi Lp : list Z)
  : res (Z * list Z * list Z) :=
  let* lo := get Ap k in
  let* hi := get Ap (k + 1) in
  let* st := for_ lo hi (fun p '(top, xi, Lp) =>                           (* :41-49 *)
      let* i := get Ai p in
      let* v := get Lp i in
      if v <? 0 then Ok (top, xi, Lp) else slip_dfs n top i Li pinv xi Lp)
    (n, xi, Lp) in
  let '(top, xi, Lp) := st in
  let* Lp' := for_ top n (fun p Lp => let* j := get xi p in mark Lp j) Lp in (* :52-55 *)
  Ok (top, xi, Lp').

(* qsort with the comparison of slip_ref_triangular_solve.c:65-85, modelled by insertion sort (trusted: qsort sorts) *)
Fixpoint insert_z (a : Z) (l : list Z) : list Z :=
  match l with [] => [a] | b :: t => if a <=? b then a :: l else b :: insert_z a t end.
Fixpoint sort_z (l : list Z) : list Z := match l with [] => [] | a :: t => insert_z a (sort_z t) end.
(* qsort(&xi[top], n-top, ...) : sorts cells top..n-1, other cells unchanged *)
Definition sort_range (xi : list Z) (top n : Z) : res (list Z) :=
  if (0 <=? top) && (top <=? n) && (n <=? zlen xi) then
    Ok (firstn (Z.to_nat top) xi ++ sort_z (firstn (Z.to_nat (n - top)) (skipn (Z.to_nat top) xi))
        ++ skipn (Z.to_nat n) xi)
  else UB.

(* The "history update" fragment: slip_ref_triangular_solve.c:196-207, 280-291, 312-322 and slip_forward_sub.c:83-96,
   136-150:   if (h < l) { v *= rhos[l]; if (h > -1) v = divexact (v, rhos[h]) } *)
Definition hist_update (rhos : list Z) (v h l : Z) : res Z :=
  if h <? l then
    let* r := get rhos l in
    if h >? -1 then let* rh := get rhos h in divexact (v * r) rh else Ok (v * r)
  else Ok v.

(* One IPGE update of x[i] by L(i,j) and x[j]: slip_ref_triangular_solve.c:216-304 (body of the loop over m) *)
Definition ipge_update (Lx Li rhos pinv : list Z) (j jnew m : Z) (st : list Z * list Z) : res (list Z * list Z) :=
  let '(x, h) := st in
  let* i := get Li m in                                                   (* :216 *)
  let* inew := get pinv i in                                              (* :217 *)
  if inew >? jnew then                                                    (* :218 *)
    let* lij := get Lx m in
    if lij =? 0 then Ok (x, h)                                            (* :221-222 *)
    else
      let* xi_ := get x i in
      let* xj := get x j in
      if xi_ =? 0 then
        if jnew <? 1 then                                                 (* :236-242 *)
          let* x' := set x i (xi_ - lij * xj) in
          let* h' := set h i jnew in Ok (x', h')
        else                                                              (* :245-255 *)
          let* r := get rhos (jnew - 1) in
          let* v := divexact (xi_ - lij * xj) r in
          let* x' := set x i v in
          let* h' := set h i jnew in Ok (x', h')
      else
        if jnew <? 1 then                                                 (* :265-275 *)
          let* r0 := get rhos 0 in
          let* x' := set x i (xi_ * r0 - lij * xj) in
          let* h' := set h i jnew in Ok (x', h')
        else                                                              (* :277-302 *)
          let* hi := get h i in
          let* v1 := hist_update rhos xi_ hi (jnew - 1) in
          let* rj := get rhos jnew in
          let* r := get rhos (jnew - 1) in
          let* v2 := divexact (v1 * rj - lij * xj) r in
          let* x' := set x i v2 in
          let* h' := set h i jnew in Ok (x', h')
  else Ok (x, h).

(* slip_ref_triangular_solve.c:181-324, body of the loop over p *)
Definition tri_step (k : Z) (Lp Li Lx rhos pinv xi : list Z) (p : Z) (st : list Z * list Z) : res (list Z * list Z) :=
  let '(x, h) := st in
  let* j := get xi p in                                                   (* :184 *)
  let* jnew := get pinv j in                                              (* :185 *)
  let* xj := get x j in
  if xj =? 0 then Ok (x, h)                                               (* :187-188 *)
  else if jnew <? k then                                                  (* :191 *)
    let* hj := get h j in
    let* v := hist_update rhos xj hj (jnew - 1) in                        (* :196-207 *)
    let* x1 := set x j v in
    let* lo := get Lp jnew in
    let* hi := get Lp (jnew + 1) in
    for_ lo hi (fun m st => ipge_update Lx Li rhos pinv j jnew m st) (x1, h)  (* :214-305 *)
  else
    let* hj := get h j in
    let* v := hist_update rhos xj hj (k - 1) in                           (* :312-322 *)
    let* x1 := set x j v in
    Ok (x1, h).

(* slip_ref_triangular_solve.c:87-328.  Result (top, xi, Lp, x, h). *)
Definition slip_ref_triangular_solve (n : Z) (Lp Li Lx : list Z) (Ap Ai Ax : list Z) (k : Z) (xi q rhos pinv row_perm h x : list Z)
  : res (Z * list Z * list Z * list Z * list Z) :=
  let* col := get q k in                                                  (* :130 *)
  let* rr := slip_reach n Li Ap Ai col pinv xi Lp in                      (* :133 *)
  let '(top, xi, Lp) := rr in
  let* xi := for_ top n (fun j xi => let* a := get xi j in let* b := get pinv a in set xi j b) xi in      (* :137-140 *)
  let* xi := sort_range xi top n in                                       (* :143 *)
  let* xi := for_ top n (fun j xi => let* a := get xi j in let* b := get row_perm a in set xi j b) xi in  (* :146-149 *)
  let* x := for_ top n (fun i x => let* a := get xi i in set x a 0) x in  (* :152-155 *)
  let* x := set x col 0 in                                                (* :162 *)
  let* h := for_ top n (fun i h => let* a := get xi i in set h a (-1)) h in (* :165-168 *)
  let* lo := get Ap col in
  let* hi := get Ap (col + 1) in
  let* x := for_ lo hi (fun i x => let* a := get Ai i in let* v := get Ax i in set x a v) x in (* :171-175 *)
  let* st := for_ top n (fun p st => tri_step k Lp Li Lx rhos pinv xi p st) (x, h) in          (* :181-324 *)
  let '(x, h) := st in
  Ok (top, xi, Lp, x, h).

(*----------------------------------------------------------------------------*)
(* pivot selection *)

(* SLIP_pivot: Include/SLIP_LU.h:211-219 (values are ints; anything else takes the final else branch) *)
Definition PIV_SMALLEST := 0.
Definition PIV_DIAGONAL := 1.
Definition PIV_FIRST_NONZERO := 2.
Definition PIV_TOL_SMALLEST := 3.
Definition PIV_TOL_LARGEST := 4.
Definition PIV_LARGEST := 5.

(* slip_get_smallest_pivot.c:59-79: first eligible entry; Some (flag, inew, x[inew]) *)
Fixpoint first_eligible (cnt : nat) (flag : Z) (x pivs xi : list Z) : res (option (Z * Z * Z)) :=
  match cnt with
  | O => Ok None
  | S c =>
      let* inew := get xi flag in
      let* v := get x inew in
      let* pv := get pivs inew in
      if (pv <? 0) && negb (v =? 0) then Ok (Some (flag, inew, v)) else first_eligible c (flag + 1) x pivs xi
  end.

(* slip_get_smallest_pivot.c:23-116 *)
Definition slip_get_smallest_pivot (x pivs : list Z) (n top : Z) (xi : list Z) : res Z :=
  let* f := (if top >? -1 then first_eligible (Z.to_nat (n - top)) top x pivs xi else Ok None) in (* :59-79 *)
  match f with
  | None => Err SLIP_SINGULAR                                             (* j = n: the second loop is empty; :108-111 *)
  | Some (j, piv, small) =>
      let* st := for_ j n (fun i '(piv, small) =>                         (* :85-101 *)
          let* inew := get xi i in
          let* v := get x inew in
          let* pv := get pivs inew in
          if (pv <? 0) && (Z.abs small >? Z.abs v) && negb (v =? 0) then Ok (inew, v) else Ok (piv, small))
        (piv, small) in
      if fst st =? -1 then Err SLIP_SINGULAR else Ok (fst st)
  end.

(* slip_get_largest_pivot.c:25-89 *)
Definition slip_get_largest_pivot (x pivs : list Z) (n top : Z) (xi : list Z) : res Z :=
  let* st := for_ top n (fun i '(piv, big) =>                             (* :61-74 *)
      let* inew := get xi i in
      let* v := get x inew in
      let* pv := get pivs inew in
      if (pv <? 0) && (Z.abs big <? Z.abs v) then Ok (inew, v) else Ok (piv, big))
    (-1, 0) in
  if fst st =? -1 then Err SLIP_SINGULAR else Ok (fst st).

(* slip_get_nonzero_pivot.c:22-69 *)
Definition slip_get_nonzero_pivot (x pivs : list Z) (n top : Z) (xi : list Z) : res Z :=
  let* f := first_eligible (Z.to_nat (n - top)) top x pivs xi in
  match f with None => Err SLIP_SINGULAR | Some (_, piv, _) => Ok piv end.

(* What GMP does when mpq_cmp is called on a "rational" with a negative denominator (outside its contract) is
   unknown: None = crash / undefined, Some b = returns and b tells whether the result was >= 0. *)
Definition gmp_env := Z -> Z -> Q -> option bool.

(* mpq_cmp (num/den, tol) >= 0, with num, den as stored in the mpq_t *)
Definition mpq_ge (env : gmp_env) (num den : Z) (tol : Q) : res bool :=
  if den >? 0 then Ok (Qnum tol * den <=? num * Z.pos (Qden tol))
  else match env num den tol with Some b => Ok b | None => UB end.

(* slip_get_pivot.c:33-167: the choice of the pivot row.  tol is the exact value of the double option->tol *)
Definition choose_pivot (env : gmp_env) (order : Z) (tol : Q) (x pivs : list Z) (n top : Z) (xi : list Z) (col : Z)
  : res Z :=
  if order =? PIV_SMALLEST then slip_get_smallest_pivot x pivs n top xi   (* :80-83 *)
  else if order =? PIV_DIAGONAL then                                      (* :88-100 *)
    let* xc := get x col in
    let* pc := get pivs col in
    if negb (xc =? 0) && (pc <? 0) then Ok col else slip_get_smallest_pivot x pivs n top xi
  else if order =? PIV_FIRST_NONZERO then slip_get_nonzero_pivot x pivs n top xi (* :105-108 *)
  else if order =? PIV_TOL_LARGEST then                                   (* :113-141 *)
    let* piv := slip_get_largest_pivot x pivs n top xi in
    let* xc := get x col in
    let* pc := get pivs col in
    if negb (xc =? 0) && (pc <? 0) then
      let* xp := get x piv in
      (* mpq_set_num, mpq_set_den, then mpq_abs: only the numerator loses its sign (GMP mpq/abs.c) *)
      let* ge := mpq_ge env (Z.abs xc) xp tol in
      if ge then Ok col else Ok piv
    else Ok piv
  else if order =? PIV_LARGEST then slip_get_largest_pivot x pivs n top xi (* :146-149 *)
  else                                                                    (* :154-184 *)
    let* piv := slip_get_smallest_pivot x pivs n top xi in
    let* xc := get x col in
    let* pc := get pivs col in
    if negb (xc =? 0) && (pc <? 0) then
      let* xp := get x piv in
      let* ge := mpq_ge env (Z.abs xp) (Z.abs xc) tol in
      if ge then Ok col else Ok piv
    else Ok piv.

(* slip_get_pivot.c:186-220: bookkeeping after the choice.  Result (rhos, pinv, row_perm, pivs). *)
Definition apply_pivot (piv k : Z) (x rhos pinv row_perm pivs : list Z) : res (list Z * list Z * list Z * list Z) :=
  let* intermed := get pinv piv in                                        (* :190 *)
  let* intermed2 := get row_perm k in                                     (* :191 *)
  let* rp1 := set row_perm k piv in                                       (* :197 *)
  let* rp2 := set rp1 intermed intermed2 in                               (* :198 *)
  let* pi1 := set pinv piv k in                                           (* :199 *)
  let* pi2 := set pi1 intermed2 intermed in                               (* :200 *)
  let* pv := set pivs piv 1 in                                            (* :202 *)
  let* xp := get x piv in
  let* rh := set rhos k xp in                                             (* :205-211 *)
  Ok (rh, pi2, rp2, pv).

(* slip_get_pivot.c:33-220 *)
Definition slip_get_pivot (env : gmp_env) (order : Z) (tol : Q) (x pivs : list Z) (n top : Z) (xi : list Z) (col k : Z)
    (rhos pinv row_perm : list Z) : res (Z * list Z * list Z * list Z * list Z) :=
  let* piv := choose_pivot env order tol x pivs n top xi col in
  let* st := apply_pivot piv k x rhos pinv row_perm pivs in
  let '(rhos, pinv, row_perm, pivs) := st in
  Ok (piv, rhos, pinv, row_perm, pivs).

(*----------------------------------------------------------------------------*)
(* SLIP_LU_factorize *)

(* slip_sparse_realloc.c:19-59: double the arrays; new cells are set to NULL (0 here).  An mpz_t cell that is still NULL
   reads as 0 in GMP, and A->i's new cells are uninitialised in C (0 here; proved never read before being written). *)
Definition sparse_realloc (Mi Mx : list Z) : list Z * list Z := (Mi ++ mk (zlen Mi) 0, Mx ++ mk (zlen Mx) 0).

Record fstate := mkF {
  F_Lp : list Z; F_Li : list Z; F_Lx : list Z; F_Up : list Z; F_Ui : list Z; F_Ux : list Z;
  F_lnz : Z; F_unz : Z; F_pinv : list Z; F_rowp : list Z; F_pivs : list Z; F_h : list Z; F_xi : list Z;
  F_x : list Z; F_rhos : list Z }.

(* SLIP_LU_factorize.c:231-270: distribute x over U and L *)
Definition push_LU (k : Z) (xi pinv x : list Z) (j : Z) (st : list Z * list Z * list Z * list Z * Z * Z)
  : res (list Z * list Z * list Z * list Z * Z * Z) :=
  let '(Li, Lx, Ui, Ux, lnz, unz) := st in
  let* jnew := get xi j in                                                (* :233 *)
  let* loc := get pinv jnew in                                            (* :235 *)
  let* v := get x jnew in
  let* su := (if loc <=? k then                                           (* :240-252 *)
                let* Ui' := set Ui unz jnew in
                let* Ux' := set Ux unz v in Ok (Ui', Ux', unz + 1)
              else Ok (Ui, Ux, unz)) in
  let '(Ui, Ux, unz) := su in
  let* sl := (if loc >=? k then                                           (* :257-269 *)
                let* Li' := set Li lnz jnew in
                let* Lx' := set Lx lnz v in Ok (Li', Lx', lnz + 1)
              else Ok (Li, Lx, lnz)) in
  let '(Li, Lx, lnz) := sl in
  Ok (Li, Lx, Ui, Ux, lnz, unz).

(* SLIP_LU_factorize.c:189-271, one iteration *)
Definition factor_step (env : gmp_env) (order : Z) (tol : Q) (n : Z) (Ap Ai Ax q : list Z) (k : Z) (s : fstate)
  : res fstate :=
  let* Lp := set (F_Lp s) k (F_lnz s) in                                  (* :192 *)
  let* Up := set (F_Up s) k (F_unz s) in                                  (* :193 *)
  let* col := get q k in                                                  (* :194 *)
  let '(Li, Lx) := if F_lnz s + n >? zlen (F_Li s) then sparse_realloc (F_Li s) (F_Lx s) else (F_Li s, F_Lx s) in (* :201-205 *)
  let '(Ui, Ux) := if F_unz s + n >? zlen (F_Ui s) then sparse_realloc (F_Ui s) (F_Ux s) else (F_Ui s, F_Ux s) in (* :206-210 *)
  let* ts := slip_ref_triangular_solve n Lp Li Lx Ap Ai Ax k (F_xi s) q (F_rhos s) (F_pinv s) (F_rowp s) (F_h s) (F_x s) in
  let '(top, xi, Lp, x, h) := ts in                                       (* :215-220 *)
  let* gp := slip_get_pivot env order tol x (F_pivs s) n top xi col k (F_rhos s) (F_pinv s) (F_rowp s) in
  let '(piv, rhos, pinv, rowp, pivs) := gp in                             (* :225-226 *)
  let* st := for_ top n (fun j st => push_LU k xi pinv x j st) (Li, Lx, Ui, Ux, F_lnz s, F_unz s) in (* :231-270 *)
  let '(Li, Lx, Ui, Ux, lnz, unz) := st in
  Ok (mkF Lp Li Lx Up Ui Ux lnz unz pinv rowp pivs h xi x rhos).

(* SLIP_LU_factorize.c:97-183: workspace.  L,U get nzmax = max(lnz,1) cells (SLIP_matrix_allocate.c:92-98, calloc) *)
Definition factor_init (n lnz0 unz0 : Z) : fstate :=
  mkF (mk (n + 1) 0) (mk (Z.max lnz0 1) 0) (mk (Z.max lnz0 1) 0)
      (mk (n + 1) 0) (mk (Z.max unz0 1) 0) (mk (Z.max unz0 1) 0) 0 0
      (zseq 0 n) (zseq 0 n) (mk n (-1)) (mk n (-1)) (mk (2 * n) 0) (mk n 0) (mk n 0).

Record factors := mkFac {
  fac_Lp : list Z; fac_Li : list Z; fac_Lx : list Z; fac_Up : list Z; fac_Ui : list Z; fac_Ux : list Z;
  fac_rhos : list Z; fac_pinv : list Z }.

(* SLIP_LU_factorize.c:97-323 after the argument checks; slip_sparse_collapse.c:20-50 keeps the first nnz cells *)
Definition factorize_core (env : gmp_env) (order : Z) (tol : Q) (n : Z) (Ap Ai Ax q : list Z) (lnz0 unz0 : Z) : res factors :=
  let* s := for_ 0 n (fun k s => factor_step env order tol n Ap Ai Ax q k s) (factor_init n lnz0 unz0) in
  let* Lp := set (F_Lp s) n (F_lnz s) in                                  (* :274 *)
  let* Up := set (F_Up s) n (F_unz s) in                                  (* :275 *)
  let Li := firstn (Z.to_nat (F_lnz s)) (F_Li s) in                       (* :286 *)
  let Lx := firstn (Z.to_nat (F_lnz s)) (F_Lx s) in
  let Ui := firstn (Z.to_nat (F_unz s)) (F_Ui s) in                       (* :288 *)
  let Ux := firstn (Z.to_nat (F_unz s)) (F_Ux s) in
  let* Li := for_ 0 (F_lnz s) (fun i Li => let* a := get Li i in let* b := get (F_pinv s) a in set Li i b) Li in (* :295-298 *)
  let* Ui := for_ 0 (F_unz s) (fun i Ui => let* a := get Ui i in let* b := get (F_pinv s) a in set Ui i b) Ui in (* :300-303 *)
  Ok (mkFac Lp Li Lx Up Ui Ux (F_rhos s) (F_pinv s)).
