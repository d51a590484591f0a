(* SLIP_matrix_copy, SLIP_matrix_check and what they call, with the integer arithmetic of C: every int64_t operation, loop counters included, is
   undefined when its result does not fit.  Otherwise as in MMatrix.v (whose comments give the lines of each step).  calloc checks its sizes
   itself; malloc does not.  Paths are relative to /repo/SLIP_LU/Source.  No proofs in this file. *)
From Verif Require Import Base MFactor MSolve MMatrix MApi MInt64.
Set Implicit Arguments.
Open Scope Z_scope.

(* slip_cumsum.c:17-36.  Result (p, c) *)
Definition slip_cumsum64 (p c : option (list Z)) (n : Z) : res (list Z * list Z) :=
  match p, c with
  | Some p, Some c =>
      let* st := for64 0 n (fun i '(p, c, nz) =>
          let* p := set p i nz in
          let* ci := get c i in
          let* pi := get p i in
          let* c := set c i pi in
          let* nz := ck (nz + ci) in
          Ok (p, c, nz)) (p, c, 0) in
      let '(p, c, nz) := st in
      let* p := set p n nz in
      Ok (p, c)
  | _, _ => Err SLIP_INCORRECT_INPUT
  end.

(* the loops "for (k = 0 ; k < n ; k++) y [k] = conv (x [k])" of slip_cast_array64 *)
Definition conv_loop64 {A B} (n : Z) (f : A -> res B) (x : list A) (y : list B) : res (list B) :=
  for64 0 n (fun k y => let* v := get x k in let* w := f v in set y k w) y.

(* slip_expand_mpq_array.c:23-76.  x3 has max(n,1) cells; x3[0] is 0 when n = 0 *)
Definition slip_expand_mpq_array64 (y : list Z) (x : list Q) (n : Z) : res (list Z * Q) :=
  let* x3 := conv_loop64 n (fun q => Ok (Z.pos (Qden q))) x (mk (Z.max n 1) 0) in   (* :55-58 *)
  let* d0 := get x3 0 in                                                          (* :61 *)
  let* temp := for64 1 n (fun i t => let* d := get x3 i in Ok (Z.lcm d t)) d0 in   (* :62-65 *)
  let scale := mpq_z temp in                                                      (* :66 *)
  let* y := conv_loop64 n (fun q => Ok (mpz_set_q (mpq_mul q scale))) x y in        (* :68-75 *)
  Ok (y, scale).

(* slip_expand_double_array.c:82-128 and slip_expand_mpfr_array.c:86-135 *)
Definition reduce_gcd64 (y : list Z) (scale : Q) (n : Z) : res (list Z * Q) :=
  let* st := for64 0 n (gcd_step y) (false, 0, 0, false) in
  let '(found, k, g, stop) := st in
  if negb found then Ok (y, 0%Q)
  else if stop then Ok (y, scale)
  else
    let* y := for64 k n (fun i y => let* v := get y i in let* w := divexact v g in set y i w) y in
    let* s := mpq_div scale (mpq_z g) in
    Ok (y, s).

Definition slip_expand_double_array64 (r : rmode) (prec : Z) (y : list Z) (x : list fl) (n : Z) : res (list Z * Q) :=
  let* y := conv_loop64 n (fun v => Ok (mpfr_get_z r (mpfr_mul r prec (rnd_fl r prec v) ten17))) x y in   (* :67-76 *)
  reduce_gcd64 y (inject_Z (10 ^ 17)) n.

(* slip_expand_mpfr_array.c:27-137.  2^prec is exactly representable *)
Definition slip_expand_mpfr_array64 (r : rmode) (prec : Z) (y : list Z) (x : list fl) (n : Z) : res (list Z * Q) :=
  let* y := conv_loop64 n (fun v => Ok (mpfr_get_z r (mpfr_mul r prec v (FFin 1 prec)))) x y in           (* :73-80 *)
  reduce_gcd64 y (inject_Z (2 ^ prec)) n.

(* slip_cast_array.c:43-484.  Y is the output array (its constructor is the output type); result: Y and y_scale.
   addr k is the address of the k-th mpq_t of the output array (only used by the int64 to mpq case). *)
Definition slip_cast_array64 (o : option options) (addr : Z -> Z) (Y X : vals) (n : Z) (yscale xscale : Q) : res (vals * Q) :=
  let r := opt_round o in
  let prec := opt_prec o in
  match Y, X with
  | VZ y, VZ x => let* y := conv_loop64 n (fun v => Ok v) x y in Ok (VZ y, xscale)                          (* :98-107 *)
  | VZ y, VQ x => let* st := slip_expand_mpq_array64 y x n in Ok (VZ (fst st), snd st)                      (* :110-115 *)
  | VZ y, VR x => let* st := slip_expand_mpfr_array64 r prec y x n in Ok (VZ (fst st), snd st)              (* :117-123 *)
  | VZ y, VI x => let* y := conv_loop64 n (fun v => Ok v) x y in Ok (VZ y, 1%Q)                             (* :125-134 *)
  | VZ y, VD x => let* st := slip_expand_double_array64 r prec y x n in Ok (VZ (fst st), snd st)            (* :136-142 *)
  | VQ y, VZ x => let* y := conv_loop64 n (unscale xscale) x y in Ok (VQ y, yscale)                         (* :159-188 *)
  | VQ y, VQ x => let* y := conv_loop64 n (fun v => Ok v) x y in Ok (VQ y, yscale)                          (* :190-198 *)
  | VQ y, VR x => let* y := conv_loop64 n (fun v => Ok (mpfr_get_q v)) x y in Ok (VQ y, yscale)             (* :200-208 *)
  | VQ y, VI x => let* y := for64 0 n (fun k y => let* v := get x k in let* w := SLIP_mpq_set_si (addr k) v in set y k w) y in
                  Ok (VQ y, yscale)                                                                       (* :210-218 *)
  | VQ y, VD x => let* y := conv_loop64 n mpq_set_d x y in Ok (VQ y, yscale)                                (* :220-228 *)
  | VR y, VZ x => let* y := conv_loop64 n (fun z => if mpq_equal xscale 1%Q then Ok (rnd_fin r prec z 0)
                                        else let* q := unscale xscale z in Ok (rnd_q r prec q)) x y in Ok (VR y, yscale) (* :235-266 *)
  | VR y, VQ x => let* y := conv_loop64 n (fun q => Ok (rnd_q r prec q)) x y in Ok (VR y, yscale)  (* :268-276 *)
  | VR y, VR x => let* y := conv_loop64 n (fun v => Ok (rnd_fl r prec v)) x y in Ok (VR y, yscale)  (* :278-286 *)
  | VR y, VI x => let* y := conv_loop64 n (fun v => Ok (rnd_fin r prec v 0)) x y in Ok (VR y, yscale)  (* :288-296 *)
  | VR y, VD x => let* y := conv_loop64 n (fun v => Ok (rnd_fl r prec v)) x y in Ok (VR y, yscale)  (* :298-306 *)
  | VI y, VZ x => let* y := conv_loop64 n (fun z => if mpq_equal xscale 1%Q then Ok (mpz_get_si z)
                                        else let* q := unscale xscale z in slip_cast_double_to_int64 (mpq_get_d q)) x y in
                  Ok (VI y, yscale)  (* :322-354 *)
  | VI y, VQ x => let* y := conv_loop64 n (fun q => slip_cast_double_to_int64 (mpq_get_d q)) x y in Ok (VI y, yscale)  (* :356-366 *)
  | VI y, VR x => let* y := conv_loop64 n (fun v => Ok (mpfr_get_si r v)) x y in Ok (VI y, yscale)  (* :368-376 *)
  | VI y, VI x => let* y := conv_loop64 n (fun v => Ok v) x y in Ok (VI y, yscale)  (* :378-382 *)
  | VI y, VD x => let* y := conv_loop64 n slip_cast_double_to_int64 x y in Ok (VI y, yscale)  (* :384-392 *)
  | VD y, VZ x => let* y := conv_loop64 n (fun z => if mpq_equal xscale 1%Q then Ok (mpz_get_d z)
                                        else let* q := unscale xscale z in Ok (mpq_get_d q)) x y in Ok (VD y, yscale)  (* :408-438 *)
  | VD y, VQ x => let* y := conv_loop64 n (fun q => Ok (mpq_get_d q)) x y in Ok (VD y, yscale)  (* :440-448 *)
  | VD y, VR x => let* y := conv_loop64 n (fun v => Ok (mpfr_get_d r v)) x y in Ok (VD y, yscale)  (* :450-459 *)
  | VD y, VI x => let* y := conv_loop64 n (fun v => Ok (dbl_q RNDN false (inject_Z v))) x y in Ok (VD y, yscale)  (* :461-469 *)
  | VD y, VD x => let* y := conv_loop64 n (fun v => Ok v) x y in Ok (VD y, yscale)  (* :471-475 *)
  end.

(* slip_cast_array.c:63-66: NULL arrays are rejected *)
Definition cast_array_ptr64 (o : option options) (addr : Z -> Z) (Y X : option vals) (n : Z) (yscale xscale : Q) : res (vals * Q) :=
  match Y, X with Some Y, Some X => slip_cast_array64 o addr Y X n yscale xscale | _, _ => Err SLIP_INCORRECT_INPUT end.

(* slip_cast_matrix.c:20-103: values and scale of Y.  Same type: the values of A with Y's initial scale 1 (the scale of A
   is not copied). *)
Definition slip_cast_matrix64 (o : option options) (addr : Z -> Z) (ytype : Z) (A : matrix) (nz : Z) : res (option vals * Q) :=
  let* Y := matrix_allocate64 ck KDENSE ytype nz 1 nz (ytype =? m_type A) in
  if ytype =? m_type A then Ok (m_x A, m_scale Y)
  else let* st := cast_array_ptr64 o addr (m_x Y) (m_x A) nz (m_scale Y) (m_scale A) in Ok (Some (fst st), snd st).

(* SLIP_matrix_copy.c:123-187: triplet to CSC.  Result (Cp, Ci, Cx). *)
Definition trip_to_csc64 {A} (set1 : A -> A) (n nz : Z) (Ti Tj : list Z) (Y : list A) (Cp Ci : list Z) (Cx : list A)
  : res (list Z * list Z * list A) :=
  let* W := for64 0 nz (fun k W => let* j := get Tj k in let* w := get W j in let* w := ck (w + 1) in set W j w) (mk n 0) in (* :123-126 *)
  let* pc := slip_cumsum64 (Some Cp) (Some W) n in                                                           (* :129 *)
  let '(Cp, W) := pc in
  let* st := for64 0 nz (fun k '(W, Ci, Cx) =>                                                              (* :132-187 *)
      let* j := get Tj k in
      let* p := get W j in
      let* p1 := ck (p + 1) in
      let* W := set W j p1 in
      let* i := get Ti k in
      let* Ci := set Ci p i in
      let* v := get Y k in
      let* Cx := set Cx p (set1 v) in
      Ok (W, Ci, Cx)) (W, Ci, Cx) in
  let '(_, Ci, Cx) := st in
  Ok (Cp, Ci, Cx).

(* SLIP_matrix_copy.c:204-250: count the nonzeros *)
Definition count_nz64 {A} (nzb : A -> bool) (nz : Z) (Y : list A) : res Z :=
  for64 0 nz (fun k c => let* v := get Y k in if nzb v then ck (c + 1) else Ok c) 0.

(* SLIP_matrix_copy.c:259-361: dense to CSC *)
Definition dense_to_csc64 {A} (nzb : A -> bool) (set1 : A -> A) (m n : Z) (Y : list A) (Cp Ci : list Z) (Cx : list A)
  : res (list Z * list Z * list A) :=
  let* st := for64 0 n (fun j '(Cp, Ci, Cx, nz) =>
      let* Cp := set Cp j nz in
      for64 0 m (fun i '(Cp, Ci, Cx, nz) =>
        let* z := ix64 m i j in
        let* v := get Y z in
        if nzb v then
          let* Ci := set Ci nz i in
          let* Cx := set Cx nz (set1 v) in
          let* nz := ck (nz + 1) in
          Ok (Cp, Ci, Cx, nz)
        else Ok (Cp, Ci, Cx, nz)) (Cp, Ci, Cx, nz)) (Cp, Ci, Cx, 0) in
  let '(Cp, Ci, Cx, nz) := st in
  let* Cp := set Cp n nz in
  Ok (Cp, Ci, Cx).

(* SLIP_matrix_copy.c:394-400: column indices of a CSC matrix *)
Definition csc_to_cols64 (n : Z) (Ap : list Z) (Cj : list Z) : res (list Z) :=
  for64 0 n (fun j Cj =>
    let* lo := get Ap j in let* j1 := ck (j + 1) in let* hi := get Ap j1 in
    for64 lo hi (fun p Cj => set Cj p j) Cj) Cj.

(* SLIP_matrix_copy.c:479-543: CSC to dense *)
Definition csc_to_dense64 {A} (set1 : A -> A) (m n : Z) (Ap Ai : list Z) (Y Cx : list A) : res (list A) :=
  for64 0 n (fun j Cx =>
    let* lo := get Ap j in let* j1 := ck (j + 1) in let* hi := get Ap j1 in
    for64 lo hi (fun p Cx =>
      let* i := get Ai p in
      let* v := get Y p in
      let* z := ix64 m i j in
      set Cx z (set1 v)) Cx) Cx.

(* SLIP_matrix_copy.c:560-618: triplet to dense *)
Definition trip_to_dense64 {A} (set1 : A -> A) (m nz : Z) (Ti Tj : list Z) (Y Cx : list A) : res (list A) :=
  for64 0 nz (fun k Cx =>
    let* i := get Ti k in
    let* j := get Tj k in
    let* v := get Y k in
    let* z := ix64 m i j in
    set Cx z (set1 v)) Cx.

(* memcpy64 (C, A, nz) between arrays *)
Definition memcpy64 {A} (C S : list A) (nz : Z) : res (list A) := conv_loop64 nz (fun v => Ok v) S C.

(* SLIP_matrix_copy.c:86-107: CSC to CSC *)
Definition copy_csc_csc64 (o : option options) (addr : Z -> Z) (ctype : Z) (A : matrix) (nz : Z) : res matrix :=
  let* C := matrix_allocate64 ck KCSC ctype (m_m A) (m_n A) nz false in
  let* Ap := deref (m_p A) in let* Ai := deref (m_i A) in
  let* Cp := deref (m_p C) in let* Ci := deref (m_i C) in
  let* n1 := ck (m_n A + 1) in
  let* Cp := memcpy64 Cp Ap n1 in
  let* Ci := memcpy64 Ci Ai nz in
  let* st := cast_array_ptr64 o addr (m_x C) (m_x A) nz (m_scale C) (m_scale A) in
  Ok (with_scale (with_arrays C (Some Cp) (Some Ci) None (fst st)) (snd st)).

(* :113-191: triplet to CSC *)
Definition copy_trip_csc64 (o : option options) (addr : Z -> Z) (ctype : Z) (A : matrix) (nz : Z) : res matrix :=
  let* ys := slip_cast_matrix64 o addr ctype A nz in
  let* Y := deref (fst ys) in
  let* C := matrix_allocate64 ck KCSC ctype (m_m A) (m_n A) nz false in
  let* Ti := deref (m_i A) in let* Tj := deref (m_j A) in
  let* Cp := deref (m_p C) in let* Ci := deref (m_i C) in let* Cx := deref (m_x C) in
  on_vals o Y Cx (fun _ _ set1 y cx V =>
    let* st := trip_to_csc64 set1 (m_n A) nz Ti Tj y Cp Ci cx in
    let '(Cp, Ci, cx) := st in
    Ok (with_scale (with_arrays C (Some Cp) (Some Ci) None (V cx)) (snd ys))).

(* :197-364: dense to CSC *)
Definition copy_dense_csc64 (o : option options) (addr : Z -> Z) (ctype : Z) (A : matrix) (nz : Z) : res matrix :=
  let* ys := slip_cast_matrix64 o addr ctype A nz in
  let* Y := deref (fst ys) in
  let* actual := on_vals o Y Y (fun _ nzb _ y _ _ => count_nz64 nzb nz y) in
  let* C := matrix_allocate64 ck KCSC ctype (m_m A) (m_n A) actual false in
  let* Cp := deref (m_p C) in let* Ci := deref (m_i C) in let* Cx := deref (m_x C) in
  on_vals o Y Cx (fun _ nzb set1 y cx V =>
    let* st := dense_to_csc64 nzb set1 (m_m A) (m_n A) y Cp Ci cx in
    let '(Cp, Ci, cx) := st in
    Ok (with_scale (with_arrays C (Some Cp) (Some Ci) None (V cx)) (snd ys))).

(* :382-405: CSC to triplet *)
Definition copy_csc_trip64 (o : option options) (addr : Z -> Z) (ctype : Z) (A : matrix) (nz : Z) : res matrix :=
  let* C := matrix_allocate64 ck KTRIP ctype (m_m A) (m_n A) nz false in
  let* st := cast_array_ptr64 o addr (m_x C) (m_x A) nz (m_scale C) (m_scale A) in
  let* Ap := deref (m_p A) in let* Ai := deref (m_i A) in
  let* Ci := deref (m_i C) in let* Cj := deref (m_j C) in
  let* Ci := memcpy64 Ci Ai nz in
  let* Cj := csc_to_cols64 (m_n A) Ap Cj in
  Ok (with_nz (with_scale (with_arrays C None (Some Ci) (Some Cj) (fst st)) (snd st)) nz).

(* :411-426: triplet to triplet *)
Definition copy_trip_trip64 (o : option options) (addr : Z -> Z) (ctype : Z) (A : matrix) (nz : Z) : res matrix :=
  let* C := matrix_allocate64 ck KTRIP ctype (m_m A) (m_n A) nz false in
  let* Ai := deref (m_i A) in let* Aj := deref (m_j A) in
  let* Ci := deref (m_i C) in let* Cj := deref (m_j C) in
  let* Cj := memcpy64 Cj Aj nz in
  let* Ci := memcpy64 Ci Ai nz in
  let* st := cast_array_ptr64 o addr (m_x C) (m_x A) nz (m_scale C) (m_scale A) in
  Ok (with_nz (with_scale (with_arrays C None (Some Ci) (Some Cj) (fst st)) (snd st)) nz).

(* :432-446: dense to triplet, through a temporary CSC matrix; then C->nz = m*n *)
Definition copy_dense_trip64 (o : option options) (addr : Z -> Z) (ctype : Z) (A : matrix) (nz : Z) : res matrix :=
  let* T := copy_dense_csc64 o addr ctype A nz in
  let* tnz := matrix_nnz64 ck true (Some T) in
  let* C := copy_csc_trip64 o addr ctype T tnz in
  Ok (with_nz C nz).

(* :462-547: CSC to dense *)
Definition copy_csc_dense64 (o : option options) (addr : Z -> Z) (ctype : Z) (A : matrix) (nz : Z) : res matrix :=
  let* C := matrix_allocate64 ck KDENSE ctype (m_m A) (m_n A) nz false in
  let* ys := slip_cast_matrix64 o addr ctype A nz in
  let* Y := deref (fst ys) in
  let* Ap := deref (m_p A) in let* Ai := deref (m_i A) in let* Cx := deref (m_x C) in
  on_vals o Y Cx (fun _ _ set1 y cx V =>
    let* cx := csc_to_dense64 set1 (m_m A) (m_n A) Ap Ai y cx in
    Ok (with_scale (with_arrays C None None None (V cx)) (snd ys))).

(* :553-622: triplet to dense *)
Definition copy_trip_dense64 (o : option options) (addr : Z -> Z) (ctype : Z) (A : matrix) (nz : Z) : res matrix :=
  let* C := matrix_allocate64 ck KDENSE ctype (m_m A) (m_n A) nz false in
  let* ys := slip_cast_matrix64 o addr ctype A nz in
  let* Y := deref (fst ys) in
  let* Ti := deref (m_i A) in let* Tj := deref (m_j A) in let* Cx := deref (m_x C) in
  on_vals o Y Cx (fun _ _ set1 y cx V =>
    let* cx := trip_to_dense64 set1 (m_m A) nz Ti Tj y cx in
    Ok (with_scale (with_arrays C None None None (V cx)) (snd ys))).

(* :628-636: dense to dense *)
Definition copy_dense_dense64 (o : option options) (addr : Z -> Z) (ctype : Z) (A : matrix) (nz : Z) : res matrix :=
  let* C := matrix_allocate64 ck KDENSE ctype (m_m A) (m_n A) nz false in
  let* st := cast_array_ptr64 o addr (m_x C) (m_x A) nz (m_scale C) (m_scale A) in
  Ok (with_scale (with_arrays C None None None (fst st)) (snd st)).

(* SLIP_matrix_copy.c:30-649 *)
Definition matrix_copy64 (o : option options) (addr : Z -> Z) (inited handle : bool) (ckind ctype : Z) (A : option matrix) : res matrix :=
  if negb inited then Err SLIP_PANIC                                       (* :46 *)
  else
    let* nz := matrix_nnz64 ck inited A in                                      (* :48 *)
    match A with
    | None => Err SLIP_INCORRECT_INPUT
    | Some A =>
        if negb handle || (nz <? 0) || (m_type A <? TMPZ) || (m_type A >? TDBL) || (ckind <? KCSC) || (ckind >? KDENSE)
           || (ctype <? TMPZ) || (ctype >? TDBL)
        then Err SLIP_INCORRECT_INPUT                                      (* :49-57 *)
        else if ckind =? KCSC then
          if m_kind A =? KCSC then copy_csc_csc64 o addr ctype A nz
          else if m_kind A =? KTRIP then copy_trip_csc64 o addr ctype A nz
          else copy_dense_csc64 o addr ctype A nz
        else if ckind =? KTRIP then
          if m_kind A =? KCSC then copy_csc_trip64 o addr ctype A nz
          else if m_kind A =? KTRIP then copy_trip_trip64 o addr ctype A nz
          else copy_dense_trip64 o addr ctype A nz
        else
          if m_kind A =? KCSC then copy_csc_dense64 o addr ctype A nz
          else if m_kind A =? KTRIP then copy_trip_dense64 o addr ctype A nz
          else copy_dense_dense64 o addr ctype A nz
    end.

(* SLIP_matrix_check.c:161-172 *)
Definition check_ptr64 (n nz : Z) (Ap : list Z) : res unit :=
  for64 0 n (fun j (_ : unit) =>
    let* p := get Ap j in
    let* j1 := ck (j + 1) in
    let* pend := get Ap j1 in
    if (pend <? p) || (pend >? nz) then Err SLIP_INCORRECT_INPUT else Ok tt) tt.

(* SLIP_matrix_check.c:195-272; printing of values not modelled *)
Definition check_rows64 (m n : Z) (Ap Ai : list Z) : res (list Z) :=
  for64 0 n (fun j work =>
    let* lo := get Ap j in
    let* j1 := ck (j + 1) in
    let* hi := get Ap j1 in
    for64 lo hi (fun p work =>
      let* i := get Ai p in
      if (i <? 0) || (i >=? m) then Err SLIP_INCORRECT_INPUT
      else
        let* w := get work i in
        if w =? j1 then Err SLIP_INCORRECT_INPUT else set work i j1) work) (mk m 0).

(* SLIP_matrix_check.c:300-309: index ranges; :372-405: duplicates *)
Definition check_trip64 (m n nz : Z) (Ti Tj : list Z) : res unit :=
  let* _ := for64 0 nz (fun p (_ : unit) =>
      let* i := get Ti p in
      let* j := get Tj p in
      if (i <? 0) || (i >=? m) || (j <? 0) || (j >=? n) then Err SLIP_INCORRECT_INPUT else Ok tt) tt in
  let* n2 := ck (nz * 2) in let* _ := bytes n2 8 in                         (* :389 *)
  let* work := for64 0 nz (fun p w =>                                       (* :399-403: work [2*p], work [2*p+1] *)
      let* a := ck (2 * p) in let* _ := ck (a + 1) in
      let* j := get Tj p in let* i := get Ti p in Ok (w ++ [(j, i)])) [] in
  let* _ := for64 1 nz (fun p (_ : unit) =>                                 (* :409-414: the indices; all of them, although the loop may end early *)
      let* a := ck (2 * p) in let* _ := ck (a + 1) in
      let* q := ck (p - 1) in let* b := ck (2 * q) in let* _ := ck (b + 1) in Ok tt) tt in
  if adj_dup (sort_p work) then Err SLIP_INCORRECT_INPUT else Ok tt.

(* SLIP_matrix_check.c:62-523 *)
Definition matrix_check64 (inited : bool) (A : option matrix) : res unit :=
  if negb inited then Err SLIP_PANIC
  else
    let* nz := matrix_nnz64 ck inited A in
    match A with
    | None => Err SLIP_INCORRECT_INPUT
    | Some A =>
        let m := m_m A in let n := m_n A in let nzmax := m_nzmax A in
        if (nz <? 0) || (m <? 0) || (n <? 0) || (nzmax <? 0) then Err SLIP_INCORRECT_INPUT     (* :82-108 *)
        else if (m_type A <? TMPZ) || (m_type A >? TDBL) then Err SLIP_INCORRECT_INPUT         (* :114-119 *)
        else if m_kind A =? KCSC then
          let* Ap := deref (m_p A) in
          let* p0 := (if nzmax >? 0 then get Ap 0 else Ok 0) in
          if negb (p0 =? 0) then Err SLIP_INCORRECT_INPUT                                      (* :154-160 *)
          else
            let* _ := check_ptr64 n nz Ap in
            match m_i A, m_x A with
            | Some Ai, Some _ => let* _ := check_rows64 m n Ap Ai in Ok tt
            | _, _ => if nzmax >? 0 then Err SLIP_INCORRECT_INPUT                              (* :178-183 *)
                      else let* Ai := deref (m_i A) in let* _ := check_rows64 m n Ap Ai in Ok tt
            end
        else if m_kind A =? KTRIP then
          match m_i A, m_j A, m_x A with
          | Some Ti, Some Tj, Some _ => check_trip64 m n nz Ti Tj
          | _, _, _ => if nzmax >? 0 then Err SLIP_INCORRECT_INPUT                             (* :289-294 *)
                       else if nz =? 0 then Ok tt
                       else let* Ti := deref (m_i A) in let* Tj := deref (m_j A) in check_trip64 m n nz Ti Tj
          end
        else
          match m_x A with                                                                     (* :420-426 *)
          | Some _ => Ok tt
          | None => if nzmax >? 0 then Err SLIP_INCORRECT_INPUT else Ok tt
          end
    end.


(* SLIP_backslash.c:29-136, calling the functions with int64_t arithmetic of this file and of MInt64.v *)
Definition SLIP_backslash64 (env : gmp_env) (ol : ordlib) (addr : Z -> Z) (inited handle : bool) (type : Z) (A b : option matrix)
    (o : option options) : ret matrix :=
  if negb inited then reject SLIP_PANIC                                    (* :64 *)
  else if negb handle then reject SLIP_INCORRECT_INPUT                     (* :66-69 *)
  else if negb (type =? TMPQ) && negb (type =? TDBL) && negb (type =? TMPFR) then Ok (SErr SLIP_INCORRECT_INPUT, Null) (* :72-75 *)
  else if negb (has_kt A KCSC TMPZ) || negb (has_kt b KDENSE TMPZ) then Ok (SErr SLIP_INCORRECT_INPUT, Null)          (* :77-78 *)
  else finish (
    call (SLIP_LU_analyze64 ol inited true A o) (fun An =>                  (* :91 *)
    call (SLIP_LU_factorize64 env inited true A (Some An) o) (fun F =>      (* :97 *)
    call (SLIP_LU_solve64 inited true b A (Some (lu_L F)) (Some (lu_U F)) (Some (lu_rhos F)) (Some An) (Some (lu_pinv F)) o) (fun x => (* :103 *)
    if type =? TMPQ then Ok x                                              (* :115-118 *)
    else matrix_copy64 o addr inited true KDENSE type (Some x))))).        (* :120-125 *)
