(* Model of the solve phase: slip_permute_b, slip_forward_sub, slip_matrix_mul, slip_back_sub, slip_matrix_div,
   slip_permute_x, slip_check_solution and SLIP_LU_solve after its argument checks.
   Paths are relative to /repo/SLIP_LU/Source.  A dense m-by-n matrix is an array addressed by SLIP_2D (i + j*m,
   Include/SLIP_LU.h:425).  Simplifications: int64_t is Z, mpz_t is Z, mpq_t is Q kept in lowest terms by the GMP
   operations (Qred); allocation succeeds (see MMem.v for the out-of-memory paths).  No proofs in this file. *)
From Verif Require Import Base MFactor.
Open Scope Z_scope.

(* SLIP_2D: Include/SLIP_LU.h:425 *)
Definition ix (m i j : Z) : Z := i + j * m.

(* GMP rational arithmetic: results are canonical.  mpq_div by zero is outside the contract (it traps). *)
Definition mpq_add (a b : Q) : Q := Qred (a + b)%Q.
Definition mpq_mul (a b : Q) : Q := Qred (a * b)%Q.
Definition mpq_div (a b : Q) : res Q := if Qnum b =? 0 then UB else Ok (Qred (a / b)%Q).
(* mpq_equal compares numerators and denominators *)
Definition mpq_equal (a b : Q) : bool := (Qnum a =? Qnum b) && (Pos.eqb (Qden a) (Qden b)).
(* mpq_set_z *)
Definition mpq_z (z : Z) : Q := inject_Z z.

(* slip_permute_b.c:20-67: b (pinv) = b2 ; the new matrix is allocated with calloc (zeros), SLIP_matrix_allocate.c:92-98 *)
Definition slip_permute_b (m n : Z) (b2 pinv : list Z) : res (list Z) :=
  for_ 0 m (fun i b =>
    for_ 0 n (fun j b =>
      let* v := get b2 (ix m i j) in
      let* pi := get pinv i in
      set b (ix m pi j) v) b) (mk (Z.max (m * n) 1) 0).

(* slip_forward_sub.c:103-171: body of the loop over the entries of L(:,i) *)
Definition fwd_inner (m k i : Z) (Li Lx rhos : list Z) (j : Z) (st : list Z * list Z) : res (list Z * list Z) :=
  let '(x, h) := st in
  let* jnew := get Li j in                                                 (* :106 *)
  let* lji := get Lx j in
  if lji =? 0 then Ok (x, h)                                               (* :109-110 *)
  else if jnew >? i then                                                   (* :113 *)
    let* xj := get x (ix m jnew k) in
    let* xi := get x (ix m i k) in
    let* v :=
      (if xj =? 0 then                                                     (* :117-131 *)
         if i >? 0 then let* r := get rhos (i - 1) in divexact (xj - lji * xi) r
         else Ok (xj - lji * xi)
       else                                                                (* :132-167 *)
         let* hx := get h (ix m jnew k) in
         let* v1 := hist_update rhos xj hx (i - 1) in
         let* ri := get rhos i in
         if i >? 0 then let* r := get rhos (i - 1) in divexact (v1 * ri - lji * xi) r
         else Ok (v1 * ri - lji * xi)) in
    let* x' := set x (ix m jnew k) v in
    let* h' := set h (ix m jnew k) i in                                    (* :169 *)
    Ok (x', h')
  else Ok (x, h).

(* slip_forward_sub.c:72-172: one row of one right-hand side *)
Definition fwd_row (m k : Z) (Lp Li Lx rhos : list Z) (i : Z) (st : list Z * list Z) : res (list Z * list Z) :=
  let '(x, h) := st in
  let* hx := get h (ix m i k) in                                           (* :74 *)
  let* xi := get x (ix m i k) in
  if xi =? 0 then Ok (x, h)                                                (* :76-77 *)
  else
    let* v := hist_update rhos xi hx (i - 1) in                            (* :83-96 *)
    let* x := set x (ix m i k) v in
    let* lo := get Lp i in
    let* hi := get Lp (i + 1) in
    for_ lo hi (fun j st => fwd_inner m k i Li Lx rhos j st) (x, h).       (* :103-175 *)

(* slip_forward_sub.c:27-181 *)
Definition slip_forward_sub (m n : Z) (Lp Li Lx rhos x : list Z) : res (list Z) :=
  let h := mk (Z.max (m * n) 1) (-1) in                                    (* :50-57; x->nzmax = max(m*n,1) *)
  let* st := for_ 0 n (fun k st => for_ 0 m (fun i st => fwd_row m k Lp Li Lx rhos i st) st) (x, h) in
  Ok (fst st).

(* slip_matrix_mul.c:19-45 *)
Definition slip_matrix_mul (nz : Z) (x : list Z) (scalar : Z) : res (list Z) :=
  for_ 0 nz (fun i x => let* v := get x i in set x i (v * scalar)) x.

(* slip_back_sub.c:49-67: one column of U *)
Definition back_row (m k : Z) (Up Ui Ux : list Z) (j : Z) (x : list Z) : res (list Z) :=
  let* xj := get x (ix m j k) in
  if xj =? 0 then Ok x                                                     (* :52-53 *)
  else
    let* hi := get Up (j + 1) in
    let* d := get Ux (hi - 1) in
    let* v := divexact xj d in                                             (* :56-58 *)
    let* x := set x (ix m j k) v in
    let* lo := get Up j in
    for_ lo (hi - 1) (fun i x =>                                           (* :59-66 *)
      let* u := get Ux i in
      if u =? 0 then Ok x
      else
        let* r := get Ui i in
        let* w := get x (ix m r k) in
        let* xj := get x (ix m j k) in
        set x (ix m r k) (w - u * xj)) x.

(* slip_back_sub.c:24-71; U->n = m *)
Definition slip_back_sub (m n : Z) (Up Ui Ux x : list Z) : res (list Z) :=
  for_ 0 n (fun k x => down_ m 0 (fun j x => back_row m k Up Ui Ux j x) x) x.

(* slip_matrix_div.c:28-82 *)
Definition slip_matrix_div (nz : Z) (x : list Z) (scalar : Z) : res (list Q) :=
  for_ 0 nz (fun i x2 =>
    let* v := get x i in
    let* w := mpq_div (mpq_z v) (mpq_z scalar) in
    set x2 i w) (mk (Z.max nz 1) 0%Q).

(* slip_permute_x.c:20-68 *)
Definition slip_permute_x (m n : Z) (x2 : list Q) (q : list Z) : res (list Q) :=
  for_ 0 m (fun i x =>
    for_ 0 n (fun j x =>
      let* v := get x2 (ix m i j) in
      let* qi := get q i in
      set x (ix m qi j) v) x) (mk (Z.max (m * n) 1) 0%Q).

(* slip_check_solution.c:21-120; A is m-by-m, b is m-by-n *)
Definition slip_check_solution (m n : Z) (Ap Ai Ax : list Z) (x : list Q) (b : list Z) : res unit :=
  let* b2 := for_ 0 n (fun j b2 =>                                         (* :55-73 *)
      for_ 0 m (fun i b2 =>
        let* lo := get Ap i in
        let* hi := get Ap (i + 1) in
        for_ lo hi (fun p b2 =>
          let* a := get Ax p in
          let* xi := get x (ix m i j) in
          let* r := get Ai p in
          let* w := get b2 (ix m r j) in
          set b2 (ix m r j) (mpq_add w (mpq_mul (mpq_z a) xi))) b2) b2) (mk (Z.max (m * n) 1) 0%Q) in
  let* _ := for_ 0 n (fun j (_ : unit) =>                                  (* :79-97; the first mismatch ends both loops *)
      for_ 0 m (fun i (_ : unit) =>
        let* bi := get b (ix m i j) in
        let* w := get b2 (ix m i j) in
        if mpq_equal (mpq_z bi) w then Ok tt else Err SLIP_INCORRECT) tt) tt in
  Ok tt.

(* SLIP_LU_solve.c:88-175, after the argument checks.  nl = L->n, n = A->n = A->m = b->m = U->n (the checks do not compare L->n
   with them), nrhs = b->n.  Negative dimensions are rejected by the first SLIP_matrix_allocate (slip_permute_b.c:47). *)
Definition solve_core (nl n nrhs : Z) (Ap Ai Ax : list Z) (scaleA : Q) (b : list Z) (scaleB : Q) (F : factors) (q : list Z) (check : bool)
  : res (list Q) :=
  if (n <? 0) || (nrhs <? 0) then Err SLIP_INCORRECT_INPUT else
  let* b2 := slip_permute_b n nrhs b (fac_pinv F) in                       (* :105 *)
  let* b2 := slip_forward_sub n nrhs (fac_Lp F) (fac_Li F) (fac_Lx F) (fac_rhos F) b2 in (* :111 *)
  let* det := get (fac_rhos F) (nl - 1) in                                 (* :117 *)
  let* b2 := slip_matrix_mul (n * nrhs) b2 det in
  let* b2 := slip_back_sub n nrhs (fac_Up F) (fac_Ui F) (fac_Ux F) b2 in   (* :122 *)
  let* x2 := slip_matrix_div (n * nrhs) b2 det in                          (* :128 *)
  let* x := slip_permute_x n nrhs x2 q in                                  (* :134 *)
  let* _ := (if check then slip_check_solution n nrhs Ap Ai Ax x b else Ok tt) in (* :141-145 *)
  let* scale := mpq_div scaleA scaleB in                                   (* :154 *)
  if mpq_equal scale 1%Q then Ok x                                         (* :157-166 *)
  else for_ 0 (n * nrhs) (fun i x => let* v := get x i in set x i (mpq_mul v scale)) x.
