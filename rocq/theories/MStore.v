(* Model of SLIP_LU_solve on a store of objects: every matrix and index array is an object with an identity, the functions receive
   handles (pointers), temporaries are created and destroyed, and every GMP operation reads and writes cells in place, one C
   statement at a time.  MSolve.v and MApi.v describe the same functions as functions on values; here nothing but the code says
   that an argument is not modified.  Paths are relative to /repo/SLIP_LU/Source.
   Simplifications: one object stands for a SLIP_matrix header together with its arrays (that distinct matrices own distinct
   arrays is the subject of MRes.v), memory suffices, int64_t is Z.  Aliased arguments are allowed.  No proofs in this file. *)
From Verif Require Import Base MFactor MSolve MMatrix MApi.
Open Scope Z_scope.

(* an object: a SLIP_matrix, an int64_t array (pinv), or a SLIP_LU_analysis *)
Inductive obj := OM (A : matrix) | OA (a : list Z) | OS (An : analysis).
(* the store: handle k is cell k; None = the object was freed *)
Definition store : Type := list (option obj).

(* a C function acting on the store *)
Definition sm A : Type := store -> res A * store.
Definition sret {A} (a : A) : sm A := fun s => (Ok a, s).
Definition fail {A} (e : info) : sm A := fun s => (Err e, s).
Definition lift {A} (m : res A) : sm A := fun s => (m, s).
Definition sbind {A B} (m : sm A) (k : A -> sm B) : sm B := fun s =>
  match m s with
  | (Ok a, s') => k a s'
  | (Err e, s') => (Err e, s')
  | (UB, s') => (UB, s')
  | (Fuel, s') => (Fuel, s')
  end.
Notation "'let#' x ':=' m 'in' k" := (sbind m (fun x => k)) (at level 200, x pattern, m at level 100, k at level 200, right associativity).
Notation "m '##' k" := (sbind m (fun _ : unit => k)) (at level 190, right associativity).

(* for (i = lo ; i < hi ; i++) body, and for (i = hi-1 ; i >= lo ; i--) body *)
Fixpoint sloop (cnt : nat) (i : Z) (body : Z -> sm unit) : sm unit :=
  match cnt with O => sret tt | S c => body i ## sloop c (i + 1) body end.
Definition sfor (lo hi : Z) (body : Z -> sm unit) : sm unit := sloop (Z.to_nat (hi - lo)) lo body.
Fixpoint sdloop (cnt : nat) (i : Z) (body : Z -> sm unit) : sm unit :=
  match cnt with O => sret tt | S c => body i ## sdloop c (i - 1) body end.
Definition sdown (hi lo : Z) (body : Z -> sm unit) : sm unit := sdloop (Z.to_nat (hi - lo)) (hi - 1) body.

(* dereferencing a handle; a freed object or the wrong sort of object is undefined behaviour *)
Definition ldM (h : nat) : sm matrix := fun s => (match nth_error s h with Some (Some (OM A)) => Ok A | _ => UB end, s).
Definition ldA (h : nat) : sm (list Z) := fun s => (match nth_error s h with Some (Some (OA a)) => Ok a | _ => UB end, s).
Definition ldS (h : nat) : sm analysis := fun s => (match nth_error s h with Some (Some (OS a)) => Ok a | _ => UB end, s).
Definition put (h : nat) (o : obj) : sm unit := fun s => (Ok tt, upd s h (Some o)).
(* a matrix with its value array replaced *)
Definition with_x (A : matrix) (v : vals) : matrix :=
  mkM (m_m A) (m_n A) (m_nzmax A) (m_nz A) (m_kind A) (m_type A) (m_p A) (m_i A) (m_j A) (Some v) (m_scale A).

(* A->p[k], A->i[k], A->x.mpz[k], A->x.mpq[k], A->x.int64[k] *)
Definition xmpq (A : matrix) : res (list Q) := match m_x A with Some (VQ l) => Ok l | _ => UB end.
Definition xint (A : matrix) : res (list Z) := match m_x A with Some (VI l) => Ok l | _ => UB end.
Definition ldp (h : nat) (k : Z) : sm Z := let# A := ldM h in lift (let* p := deref (m_p A) in get p k).
Definition ldi (h : nat) (k : Z) : sm Z := let# A := ldM h in lift (let* i := deref (m_i A) in get i k).
Definition ldz (h : nat) (k : Z) : sm Z := let# A := ldM h in lift (let* x := xmpz A in get x k).
Definition ldq (h : nat) (k : Z) : sm Q := let# A := ldM h in lift (let* x := xmpq A in get x k).
Definition ldint (h : nat) (k : Z) : sm Z := let# A := ldM h in lift (let* x := xint A in get x k).
Definition stz (h : nat) (k v : Z) : sm unit :=
  let# A := ldM h in let# x := lift (let* x := xmpz A in set x k v) in put h (OM (with_x A (VZ x))).
Definition stq (h : nat) (k : Z) (v : Q) : sm unit :=
  let# A := ldM h in let# x := lift (let* x := xmpq A in set x k v) in put h (OM (with_x A (VQ x))).
Definition stint (h : nat) (k v : Z) : sm unit :=
  let# A := ldM h in let# x := lift (let* x := xint A in set x k v) in put h (OM (with_x A (VI x))).
(* SLIP_2D (A, i, j, ...): Include/SLIP_LU.h:425, the position in the array *)
Definition at2 (h : nat) (i j : Z) : sm Z := let# A := ldM h in sret (ix (m_m A) i j).

(* in-place GMP operations on cell k of h (SLIP_gmp.c): mpz_mul, mpz_submul, mpz_divexact, mpq_mul *)
Definition z_mul (h : nat) (k b : Z) : sm unit := let# a := ldz h k in stz h k (a * b).
Definition z_submul (h : nat) (k b c : Z) : sm unit := let# a := ldz h k in stz h k (a - b * c).
Definition z_divexact (h : nat) (k b : Z) : sm unit := let# a := ldz h k in let# q := lift (divexact a b) in stz h k q.
Definition q_mul (h : nat) (k : Z) (b : Q) : sm unit := let# a := ldq h k in stq h k (mpq_mul a b).
Definition q_add (h : nat) (k : Z) (b : Q) : sm unit := let# a := ldq h k in stq h k (mpq_add a b).
Definition q_div (h : nat) (k : Z) (b : Q) : sm unit := let# a := ldq h k in let# q := lift (mpq_div a b) in stq h k q.
(* mpq_set_num: only the numerator is replaced *)
Definition q_set_num (h : nat) (k v : Z) : sm unit := let# a := ldq h k in stq h k (v # Qden a)%Q.

(* SLIP_matrix_allocate.c:24-198, not shallow: a new object *)
Definition s_allocate (kind type m n nzmax : Z) : sm nat := fun s =>
  match matrix_allocate kind type m n nzmax false with
  | Ok A => (Ok (length s), s ++ [Some (OM A)])
  | Err e => (Err e, s) | UB => (UB, s) | Fuel => (Fuel, s)
  end.
(* SLIP_matrix_free.c:23-88 on a pointer that may be NULL; freeing twice is undefined behaviour *)
Definition s_free (h : option nat) : sm unit := fun s =>
  match h with
  | None => (Ok tt, s)
  | Some h => match nth_error s h with Some (Some (OM _)) => (Ok tt, upd s h None) | _ => (UB, s) end
  end.
(* SLIP_REQUIRE: slip_internal.h:718-722 *)
Definition require (h : nat) (kind type : Z) : sm unit :=
  let# A := ldM h in if has_kt (Some A) kind type then sret tt else fail SLIP_INCORRECT_INPUT.
(* run the clean-up whether or not m fails *)
Definition always {A} (m : sm A) (cleanup : sm unit) : sm A := fun s =>
  match m s with
  | (Ok a, s') => match cleanup s' with (Ok _, s'') => (Ok a, s'') | (Err e, s'') => (Err e, s'') | (UB, s'') => (UB, s'') | (Fuel, s'') => (Fuel, s'') end
  | (Err e, s') => match cleanup s' with (Ok _, s'') => (Err e, s'') | (Err e', s'') => (Err e', s'') | (UB, s'') => (UB, s'') | (Fuel, s'') => (Fuel, s'') end
  | r => r
  end.
(* SLIP_CHECK (slip_internal.h:122-130) inside a function with a SLIP_FREE_ALL: the clean-up runs only when m fails *)
Definition checked {A} (m : sm A) (cleanup : sm unit) : sm A := fun s =>
  match m s with
  | (Err e, s') => match cleanup s' with (Ok _, s'') => (Err e, s'') | (Err e', s'') => (Err e', s'') | (UB, s'') => (UB, s'') | (Fuel, s'') => (Fuel, s'') end
  | r => r
  end.

(* slip_permute_b.c:20-67; pinv is a handle on an int64_t array *)
Definition s_permute_b (b2 pinv : nat) : sm nat :=
  require b2 KDENSE TMPZ ##                                                (* :34 *)
  let# B2 := ldM b2 in                                                     (* :43-44 *)
  let# b := s_allocate KDENSE TMPZ (m_m B2) (m_n B2) 0 in                  (* :48-49 *)
  checked (sfor 0 (m_m B2) (fun i => sfor 0 (m_n B2) (fun j =>             (* :52-59 *)
    let# P := ldA pinv in let# pi := lift (get P i) in
    let# src := at2 b2 i j in let# v := ldz b2 src in
    let# dst := at2 b pi j in stz b dst v)) ) (s_free (Some b)) ##
  sret b.

(* slip_forward_sub.c:83-96 and :139-152: history update of cell k of x *)
Definition s_hist (x rhos : nat) (k hx i : Z) : sm unit :=
  if hx <? i - 1 then
    let# r := ldz rhos (i - 1) in z_mul x k r ##
    (if hx >? -1 then let# r := ldz rhos hx in z_divexact x k r else sret tt)
  else sret tt.

(* slip_forward_sub.c:103-171: body of the loop over the entries of L(:,i) *)
Definition s_fwd_inner (L x h rhos : nat) (k i j : Z) : sm unit :=
  let# jnew := ldi L j in                                                  (* :106 *)
  let# lji := ldz L j in
  if lji =? 0 then sret tt                                                 (* :109-110 *)
  else if jnew >? i then                                                   (* :113 *)
    let# c := at2 x jnew k in
    let# ci := at2 x i k in
    let# xj := ldz x c in
    (if xj =? 0 then                                                       (* :117-131 *)
       let# xi := ldz x ci in
       z_submul x c lji xi ##
       (if i >? 0 then let# r := ldz rhos (i - 1) in z_divexact x c r else sret tt)
     else                                                                  (* :132-167 *)
       let# d := at2 h jnew k in
       let# hx := ldint h d in
       s_hist x rhos c hx i ##
       let# ri := ldz rhos i in
       z_mul x c ri ##
       let# xi := ldz x ci in
       z_submul x c lji xi ##
       (if i >? 0 then let# r := ldz rhos (i - 1) in z_divexact x c r else sret tt)) ##
    let# d := at2 h jnew k in stint h d i                                  (* :169 *)
  else sret tt.

(* slip_forward_sub.c:72-175: one row of one right-hand side *)
Definition s_fwd_row (L x h rhos : nat) (k i : Z) : sm unit :=
  let# d := at2 h i k in
  let# hx := ldint h d in                                                  (* :74 *)
  let# c := at2 x i k in
  let# xi := ldz x c in
  if xi =? 0 then sret tt                                                  (* :76-77 *)
  else
    s_hist x rhos c hx i ##                                                (* :83-96 *)
    let# lo := ldp L i in
    let# hi := ldp L (i + 1) in
    sfor lo hi (fun j => s_fwd_inner L x h rhos k i j).                    (* :103-175; L is not written to *)

(* slip_forward_sub.c:27-181 *)
Definition s_forward_sub (L x rhos : nat) : sm unit :=
  require L KCSC TMPZ ## require x KDENSE TMPZ ## require rhos KDENSE TMPZ ## (* :40-42 *)
  let# X := ldM x in
  let# h := s_allocate KDENSE TINT (m_m X) (m_n X) (m_nzmax X) in          (* :51-52 *)
  always
    (sfor 0 (m_nzmax X) (fun i => stint h i (-1)) ##                       (* :54-58 *)
     sfor 0 (m_n X) (fun k => sfor 0 (m_m X) (fun i => s_fwd_row L x h rhos k i))) (* :65-173 *)
    (s_free (Some h)).                                                     (* :179 *)

(* slip_matrix_mul.c:19-45; the scalar is the cell sk of matrix sh (rhos->x.mpz [n-1]), read again at every use *)
Definition s_matrix_mul (x sh : nat) (sk : Z) : sm unit :=
  let# X := ldM x in
  if negb (m_type X =? TMPZ) then fail SLIP_INCORRECT_INPUT                (* :31 *)
  else
    let# nz := lift (matrix_nnz true (Some X)) in                          (* :37 *)
    sfor 0 nz (fun i => let# v := ldz sh sk in z_mul x i v).

(* slip_back_sub.c:24-71 *)
Definition s_back_sub (U bx : nat) : sm unit :=
  require U KCSC TMPZ ## require bx KDENSE TMPZ ##                         (* :36-37 *)
  let# X := ldM bx in
  let# MU := ldM U in
  sfor 0 (m_n X) (fun k => sdown (m_n MU) 0 (fun j =>                      (* :46-49 *)
    let# c := at2 bx j k in
    let# xj := ldz bx c in
    if xj =? 0 then sret tt                                                (* :52-53 *)
    else
      let# hi := ldp U (j + 1) in
      let# d := ldz U (hi - 1) in z_divexact bx c d ##                     (* :56-58 *)
      let# lo := ldp U j in
      sfor lo (hi - 1) (fun i =>                                           (* :59-66 *)
        let# u := ldz U i in
        if u =? 0 then sret tt
        else
          let# r := ldi U i in
          let# cr := at2 bx r k in
          let# xj := ldz bx c in
          z_submul bx cr u xj))).

(* slip_matrix_div.c:28-82 *)
Definition s_matrix_div (x sh : nat) (sk : Z) : sm nat :=
  require x KDENSE TMPZ ##                                                 (* :43 *)
  let# scalar := ldz sh sk in                                              (* :49-52: scalar2 is a local mpq_t *)
  let# X := ldM x in
  let# x2 := s_allocate KDENSE TMPQ (m_m X) (m_n X) 0 in                   (* :58-59 *)
  checked (let# nz := lift (matrix_nnz true (Some X)) in                   (* :65 *)
    sfor 0 nz (fun i =>                                                    (* :66-72 *)
      let# v := ldz x i in q_set_num x2 i v ## q_div x2 i (mpq_z scalar))) (s_free (Some x2)) ##
  sret x2.

(* slip_permute_x.c:20-68 *)
Definition s_permute_x (x2 S : nat) : sm nat :=
  require x2 KDENSE TMPQ ##                                                (* :34 *)
  let# X2 := ldM x2 in
  let# x := s_allocate KDENSE TMPQ (m_m X2) (m_n X2) 0 in                  (* :49-50 *)
  checked (sfor 0 (m_m X2) (fun i => sfor 0 (m_n X2) (fun j =>             (* :53-60 *)
    let# An := ldS S in let# qi := lift (get (s_q An) i) in
    let# src := at2 x2 i j in let# v := ldq x2 src in
    let# dst := at2 x qi j in stq x dst v))) (s_free (Some x)) ##
  sret x.

(* slip_check_solution.c:21-120.  The comparison loop stops at the first difference (j = b->n; break) and the clean-up runs in
   either case. *)
Definition s_check_solution (A x b : nat) : sm unit :=
  require A KCSC TMPZ ## require x KDENSE TMPQ ## require b KDENSE TMPZ ## (* :35-37 *)
  let# B := ldM b in
  let# b2 := s_allocate KDENSE TMPQ (m_m B) (m_n B) (m_nzmax B) in         (* :48-49 *)
  always
    (sfor 0 (m_n B) (fun j => sfor 0 (m_m B) (fun i =>                     (* :55-73 *)
       let# lo := ldp A i in
       let# hi := ldp A (i + 1) in
       sfor lo hi (fun p =>
         let# a := ldz A p in
         let# c := at2 x i j in let# xi := ldq x c in
         let# r := ldi A p in
         let# d := at2 b2 r j in q_add b2 d (mpq_mul (mpq_z a) xi)))) ##
     sfor 0 (m_n B) (fun j => sfor 0 (m_m B) (fun i =>                     (* :79-97 *)
       let# c := at2 b i j in let# bi := ldz b c in
       let# d := at2 b2 i j in let# w := ldq b2 d in
       if mpq_equal (mpq_z bi) w then sret tt else fail SLIP_INCORRECT)))
    (s_free (Some b2)).                                                    (* :117 *)

(* SLIP_LU_solve.c:160-166 *)
Definition s_scale (x : nat) (scale : Q) : sm unit :=
  let# X := ldM x in
  if mpq_equal scale 1%Q then sret tt
  else sfor 0 (m_m X * m_n X) (fun i => q_mul x i scale).

(* SLIP_LU_solve.c:88-175, after the argument checks *)
Definition s_solve_body (b A L U rhos An pinv : nat) (check : bool) : sm nat :=
  let# ML := ldM L in let n := m_n ML in                                   (* :94 *)
  let# b2 := s_permute_b b pinv in                                         (* :105 *)
  let fb := s_free (Some b2) in
  checked (s_forward_sub L b2 rhos) fb ##                                  (* :111 *)
  let# _ := ldz rhos (n - 1) in                                            (* &rhos->x.mpz[n-1] *)
  checked (s_matrix_mul b2 rhos (n - 1)) fb ##                             (* :117 *)
  checked (s_back_sub U b2) fb ##                                          (* :122 *)
  let# x2 := checked (s_matrix_div b2 rhos (n - 1)) fb in                  (* :128 *)
  let fb := fb ## s_free (Some x2) in
  let# x := checked (s_permute_x x2 An) fb in                              (* :134 *)
  s_free (Some x2) ##                                                      (* :135 *)
  let fb := s_free (Some b2) ## s_free (Some x) in
  checked (if check then s_check_solution A x b else sret tt) fb ##        (* :141-145 *)
  let# MA := ldM A in let# MB := ldM b in
  let# scale := lift (mpq_div (m_scale MA) (m_scale MB)) in                (* :151-154 *)
  checked (s_scale x scale) fb ##                                          (* :157-166 *)
  s_free (Some b2) ##                                                      (* :172 *)
  sret x.

(* the object behind a pointer argument; NULL, or not a matrix *)
Definition mat_at (s : store) (h : option nat) : option matrix :=
  match h with Some h => match nth_error s h with Some (Some (OM A)) => Some A | _ => None end | None => None end.

(* the pointer is NULL or the handle of an existing matrix *)
Definition live (s : store) (h : option nat) : bool :=
  match h with None => true | Some _ => match mat_at s h with Some _ => true | None => false end end.

(* SLIP_LU_solve.c:53-175.  Every pointer argument is NULL or a handle; the result is a status and what *x_handle holds. *)
Definition s_LU_solve (inited handle : bool) (b A L U rhos An pinv : option nat) (o : option options) : sm (status * hdl nat) := fun s =>
  if negb inited then (Ok (SErr SLIP_PANIC, Kept), s)                      (* :74 *)
  else if negb (live s b && live s A && live s L && live s U && live s rhos) then (UB, s) (* a dangling pointer *)
  else if negb (has_kt (mat_at s b) KDENSE TMPZ && has_kt (mat_at s A) KCSC TMPZ && has_kt (mat_at s L) KCSC TMPZ
                && has_kt (mat_at s U) KCSC TMPZ && has_kt (mat_at s rhos) KDENSE TMPZ)
  then (Ok (SErr SLIP_INCORRECT_INPUT, Kept), s)                           (* :76-80 *)
  else match mat_at s b, mat_at s A, mat_at s L, mat_at s U, An, pinv with
  | Some Mb, Some MA, Some ML, Some MU, Some hS, Some hp =>
      if negb handle || negb (m_m ML =? m_m MA) || negb (m_n ML =? m_m MU) || negb (m_n MU =? m_n MA)
         || negb (m_n MA =? m_m MA) || negb (m_m MA =? m_m Mb)
      then (Ok (SErr SLIP_INCORRECT_INPUT, Kept), s)                       (* :82-86 *)
      else
        match b, A, L, U, rhos with
        | Some hb, Some hA, Some hL, Some hU, Some hr =>
            match s_solve_body hb hA hL hU hr hS hp (opt_check o) s with
            | (Ok x, s') => (Ok (SOK, Out x), s')                          (* :173 *)
            | (Err e, s') => (Ok (SErr e, Null), s')
            | (UB, s') => (UB, s') | (Fuel, s') => (Fuel, s')
            end
        | _, _, _, _, _ => (UB, s)
        end
  | _, _, _, _, _, _ => (Ok (SErr SLIP_INCORRECT_INPUT, Kept), s)
  end.
