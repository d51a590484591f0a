(* Model of the memory layer: the C allocator, SuiteSparse_malloc/calloc/realloc/free, SLIP_malloc/calloc/realloc/free,
   SLIP_initialize / SLIP_initialize_expert / SLIP_finalize, and the GMP memory functions of SLIP_gmp.c with their
   setjmp/longjmp protocol.
   Paths are relative to /repo/SLIP_LU/Source unless they start with SuiteSparse_config/.
   Simplifications: a pointer is an integer, 0 is NULL, positive integers are heap addresses (one per block: interior pointers do
   not occur), negative integers stand for statically allocated storage (GMP's dummy limb).  A block has a size in bytes and
   untyped contents indexed by byte offset; an 8-byte word is stored at its first offset.  The allocator is an arbitrary
   oracle: it may fail at any request, may return any address that is not live (so it may reuse freed addresses), and may
   move or not move a reallocated block.  GMP itself is an arbitrary sequence of calls to the three memory functions, of
   assignments to limb pointers and of writes to blocks.  Debug printing is not modelled.  No proofs in this file. *)
From Verif Require Import Base MSolve MMatrix.
Open Scope Z_scope.

(*----------------------------------------------------------------------------*)
(* the heap *)
(* b_id: the number of the request that created the block (not part of the C state; identifies blocks across address reuse) *)
Record blk := mkB { b_id : nat; b_size : Z; b_data : Z -> Z }.

(* the behaviour of the allocator at its t-th request under the memory functions numbered f: the address it returns (a value <= 0
   or the address of a live block means NULL) and the initial contents of a malloc'd block *)
Record env := mkE { e_addr : Z -> nat -> Z; e_junk : nat -> Z -> Z; e_list_init : Z }.

(* global state: SLIP_gmp.c:70-82, SLIP_initialize.c:20-32, SuiteSparse_config.*_func (s_funs: 0 = malloc/calloc/realloc/free).
   s_arch: the limb-pointer fields of the archived object (mpz: one, mpq: numerator and denominator, mpfr: one; none archived: [])
   s_fld: the pointer held in each limb-pointer field of the program *)
Record st := mkSt {
  s_heap : Z -> option blk; s_time : nat; s_inited : bool; s_funs : Z;
  s_nmalloc : Z; s_nlist : Z; s_list : Z; s_ntrials : Z;
  s_arch : list Z; s_fld : Z -> Z }.

Definition put {A} (f : Z -> A) (a : Z) (v : A) : Z -> A := fun x => if x =? a then v else f x.
Definition set_heap (h : Z -> option blk) (s : st) := mkSt h (s_time s) (s_inited s) (s_funs s) (s_nmalloc s) (s_nlist s) (s_list s) (s_ntrials s) (s_arch s) (s_fld s).
Definition tick (s : st) := mkSt (s_heap s) (S (s_time s)) (s_inited s) (s_funs s) (s_nmalloc s) (s_nlist s) (s_list s) (s_ntrials s) (s_arch s) (s_fld s).
Definition set_inited (b : bool) (s : st) := mkSt (s_heap s) (s_time s) b (s_funs s) (s_nmalloc s) (s_nlist s) (s_list s) (s_ntrials s) (s_arch s) (s_fld s).
Definition set_funs (f : Z) (s : st) := mkSt (s_heap s) (s_time s) (s_inited s) f (s_nmalloc s) (s_nlist s) (s_list s) (s_ntrials s) (s_arch s) (s_fld s).
Definition set_nmalloc (n : Z) (s : st) := mkSt (s_heap s) (s_time s) (s_inited s) (s_funs s) n (s_nlist s) (s_list s) (s_ntrials s) (s_arch s) (s_fld s).
Definition set_nlist (n : Z) (s : st) := mkSt (s_heap s) (s_time s) (s_inited s) (s_funs s) (s_nmalloc s) n (s_list s) (s_ntrials s) (s_arch s) (s_fld s).
Definition set_list (p : Z) (s : st) := mkSt (s_heap s) (s_time s) (s_inited s) (s_funs s) (s_nmalloc s) (s_nlist s) p (s_ntrials s) (s_arch s) (s_fld s).
Definition set_ntrials (n : Z) (s : st) := mkSt (s_heap s) (s_time s) (s_inited s) (s_funs s) (s_nmalloc s) (s_nlist s) (s_list s) n (s_arch s) (s_fld s).
Definition set_arch (l : list Z) (s : st) := mkSt (s_heap s) (s_time s) (s_inited s) (s_funs s) (s_nmalloc s) (s_nlist s) (s_list s) (s_ntrials s) l (s_fld s).
Definition set_fld (f : Z -> Z) (s : st) := mkSt (s_heap s) (s_time s) (s_inited s) (s_funs s) (s_nmalloc s) (s_nlist s) (s_list s) (s_ntrials s) (s_arch s) f.

(* a C function: it returns, or leaves by longjmp with a status, or its behaviour is undefined *)
Inductive out (A : Type) := Ret (a : A) (s : st) | Jump (code : Z) (s : st) | Undef.
Arguments Ret {A} a s. Arguments Jump {A} code s. Arguments Undef {A}.
Definition M (A : Type) := st -> out A.
Definition ret {A} (a : A) : M A := fun s => Ret a s.
Definition mbind {A B} (m : M A) (k : A -> M B) : M B :=
  fun s => match m s with Ret a s' => k a s' | Jump c s' => Jump c s' | Undef => Undef end.
Definition longjmp {A} (code : Z) : M A := fun s => Jump code s.
Definition getst : M st := fun s => Ret s s.
Definition modst (f : st -> st) : M unit := fun s => Ret tt (f s).
Notation "'do' x '<-' m ';' k" := (mbind m (fun x => k)) (at level 200, x name, m at level 100, k at level 200, right associativity).
Notation "m ';;' k" := (mbind m (fun _ => k)) (at level 100, right associativity).

(*----------------------------------------------------------------------------*)
(* ISO C malloc, calloc, realloc, free (or the user's four functions) *)
Definition is_live (s : st) (a : Z) : bool := match s_heap s a with Some _ => true | None => false end.

Definition alloc_func (E : env) (size : Z) (init : Z -> Z) : M Z := fun s =>
  let a := e_addr E (s_funs s) (s_time s) in
  if (a <=? 0) || is_live s a then Ret 0 (tick s)
  else Ret a (tick (set_heap (put (s_heap s) a (Some (mkB (s_time s) size init))) s)).
Definition malloc_func (E : env) (size : Z) : M Z := fun s => alloc_func E size (e_junk E (s_time s)) s.
Definition calloc_func (E : env) (n size : Z) : M Z := alloc_func E (n * size) (fun _ => 0).
(* realloc: NULL and p unchanged, or the block (same place or moved) with the common prefix kept *)
Definition realloc_func (E : env) (p size : Z) : M Z := fun s =>
  match s_heap s p with
  | None => Undef
  | Some b =>
    let a := e_addr E (s_funs s) (s_time s) in
    let data := fun o => if o <? Z.min (b_size b) size then b_data b o else e_junk E (s_time s) o in
    if a =? p then Ret p (tick (set_heap (put (s_heap s) p (Some (mkB (b_id b) size data))) s))
    else if (a <=? 0) || is_live s a then Ret 0 (tick s)
    else Ret a (tick (set_heap (put (put (s_heap s) p None) a (Some (mkB (s_time s) size data))) s))
  end.
Definition free_func (p : Z) : M unit := fun s =>
  match s_heap s p with
  | None => Undef
  | Some _ => Ret tt (set_heap (put (s_heap s) p None) s)
  end.

(*----------------------------------------------------------------------------*)
(* SuiteSparse_config.c.  size_t arithmetic is modulo 2^64; the test size != ((double) nitems) * size_of_item compares doubles. *)
Definition TWO64 := 18446744073709551616.
Definition dbl (z : Z) : fl := rnd_fin RNDN 53 z 0.
Definition fl_eqb (x y : fl) : bool :=
  match fl_q x, fl_q y with Some a, Some b => Qeq_bool a b | _, _ => false end.
(* SuiteSparse_config/SuiteSparse_config.c:183-185, 212-214, 252-254 *)
Definition size_ok (nitems size_of_item : Z) : bool :=
  fl_eqb (dbl ((nitems * size_of_item) mod TWO64)) (mpfr_mul RNDN 53 (dbl nitems) (dbl size_of_item)).

(* SuiteSparse_config/SuiteSparse_config.c:173-195 *)
Definition SuiteSparse_malloc (E : env) (nitems size_of_item : Z) : M Z :=
  let nitems := if nitems <? 1 then 1 else nitems in
  let size_of_item := if size_of_item <? 1 then 1 else size_of_item in
  if negb (size_ok nitems size_of_item) then ret 0
  else malloc_func E ((nitems * size_of_item) mod TWO64).
(* SuiteSparse_config/SuiteSparse_config.c:202-224 *)
Definition SuiteSparse_calloc (E : env) (nitems size_of_item : Z) : M Z :=
  let nitems := if nitems <? 1 then 1 else nitems in
  let size_of_item := if size_of_item <? 1 then 1 else size_of_item in
  if negb (size_ok nitems size_of_item) then ret 0
  else calloc_func E nitems size_of_item.
(* SuiteSparse_config/SuiteSparse_config.c:238-297; returns the pointer and ok *)
Definition SuiteSparse_realloc (E : env) (nitems_new nitems_old size_of_item p : Z) : M (Z * bool) :=
  let nitems_old := if nitems_old <? 1 then 1 else nitems_old in
  let nitems_new := if nitems_new <? 1 then 1 else nitems_new in
  let size_of_item := if size_of_item <? 1 then 1 else size_of_item in
  if negb (size_ok nitems_new size_of_item) then ret (p, false)                     (* :254-258 *)
  else if p =? 0 then
    do q <- SuiteSparse_malloc E nitems_new size_of_item; ret (q, negb (q =? 0))    (* :259-264 *)
  else if nitems_old =? nitems_new then ret (p, true)                               (* :265-269 *)
  else
    do pnew <- realloc_func E p ((nitems_new * size_of_item) mod TWO64);            (* :274 *)
    if pnew =? 0 then (if nitems_new <? nitems_old then ret (p, true) else ret (p, false))   (* :275-288 *)
    else ret (pnew, true).                                                          (* :289-294 *)
(* SuiteSparse_config/SuiteSparse_config.c:303-313 *)
Definition SuiteSparse_free (p : Z) : M unit := if p =? 0 then ret tt else free_func p.

(* SLIP_malloc.c:15-22, SLIP_calloc.c:15-24, SLIP_realloc.c:37-58, SLIP_free.c:15-22 *)
Definition SLIP_malloc (E : env) (size : Z) : M Z :=
  do s <- getst; if negb (s_inited s) then ret 0 else SuiteSparse_malloc E 1 size.
Definition SLIP_calloc (E : env) (nitems size : Z) : M Z :=
  do s <- getst; if negb (s_inited s) then ret 0 else SuiteSparse_calloc E nitems size.
(* the casts (size_t) nitems_new and (size_t) nitems_old (SLIP_realloc.c:54) *)
Definition SLIP_realloc (E : env) (nitems_new nitems_old size_of_item p : Z) : M (Z * bool) :=
  do s <- getst; if negb (s_inited s) then ret (p, false)
                 else SuiteSparse_realloc E (nitems_new mod TWO64) (nitems_old mod TWO64) size_of_item p.
Definition SLIP_free (p : Z) : M unit :=
  do s <- getst; if negb (s_inited s) then ret tt else SuiteSparse_free p.

(*----------------------------------------------------------------------------*)
(* SLIP_gmp.c *)
(* reading and writing a word of a block *)
Definition load (p o : Z) : M Z := fun s =>
  match s_heap s p with
  | Some b => if (0 <=? o) && (o + 8 <=? b_size b) then Ret (b_data b o) s else Undef
  | None => Undef
  end.
Definition store (p o v : Z) : M unit := fun s =>
  match s_heap s p with
  | Some b => if (0 <=? o) && (o + 8 <=? b_size b)
              then Ret tt (set_heap (put (s_heap s) p (Some (mkB (b_id b) (b_size b) (put (b_data b) o v)))) s) else Undef
  | None => Undef
  end.

(* slip_gmp_init: SLIP_gmp.c:95-101; SLIP_GMP_LIST_INIT (slip_internal.h:142-147) is e_list_init *)
Definition slip_gmp_init (E : env) : M bool :=
  modst (set_nmalloc 0) ;;
  modst (set_nlist (e_list_init E)) ;;
  do p <- SLIP_malloc E (e_list_init E * 8 mod TWO64);
  modst (set_list p) ;;
  ret (negb (p =? 0)).

(* SLIP_FREE (p): free and set the variable to NULL (Include/SLIP_LU.h:483-487) *)
(* slip_gmp_finalize: SLIP_gmp.c:108-116 *)
Definition slip_gmp_finalize : M unit :=
  modst (set_arch []) ;; modst (set_nmalloc 0) ;; modst (set_nlist 0) ;;
  do s <- getst; SLIP_free (s_list s) ;; modst (set_list 0).

(* slip_gmp_allocate: SLIP_gmp.c:128-216 *)
Definition slip_gmp_allocate (E : env) (size : Z) : M Z :=
  do s <- getst;
  (if s_ntrials s =? 0 then longjmp 1                                               (* :142-149 *)
   else if 0 <? s_ntrials s then modst (set_ntrials (s_ntrials s - 1)) else ret tt) ;;   (* :150-154 *)
  do s <- getst;
  (if s_list s =? 0 then
     (do ok <- slip_gmp_init E; if negb ok then longjmp 2 else ret tt)              (* :160-168 *)
   else if s_nmalloc s =? s_nlist s then                                            (* :169-188 *)
     (let newsize := 2 * s_nlist s in
      do r <- SLIP_realloc E newsize (s_nlist s) 8 (s_list s);
      modst (set_list (fst r)) ;;
      if negb (snd r) then longjmp 3 else modst (set_nlist newsize))
   else ret tt) ;;
  do p <- SLIP_malloc E size;                                                       (* :194 *)
  if p =? 0 then longjmp 4 else                                                     (* :196-200 *)
  do s <- getst;
  store (s_list s) (8 * s_nmalloc s) p ;;                                           (* :206 *)
  modst (set_nmalloc (s_nmalloc s + 1)) ;;
  ret p.

(* SLIP_GMP_SAFE_FREE: SLIP_gmp.h:68-96.  The comparison of an mpfr object's significand with the block (SLIP_MPFR_REAL_PTR) is
   modelled as the other two: the field holds the address of the block. *)
Definition safe_free (p : Z) : M unit :=
  modst (fun s => set_fld (fun f => if existsb (Z.eqb f) (s_arch s) && (s_fld s f =? p) then 0 else s_fld s f) s) ;;
  SLIP_free p.

(* slip_gmp_free: SLIP_gmp.c:223-259; the loop :237-247 *)
Fixpoint remove_entry (cnt : nat) (i p : Z) : M unit :=
  match cnt with
  | O => ret tt
  | S c =>
    do s <- getst;
    do e <- load (s_list s) (8 * i);
    if e =? p then
      modst (set_nmalloc (s_nmalloc s - 1)) ;;
      do l <- load (s_list s) (8 * (s_nmalloc s - 1));
      store (s_list s) (8 * i) l
    else remove_entry c (i + 1) p
  end.
Definition slip_gmp_free (p : Z) : M unit :=
  do s <- getst;
  (if negb (p =? 0) && negb (s_list s =? 0) then remove_entry (Z.to_nat (s_nmalloc s)) 0 p else ret tt) ;;
  safe_free p.

(* memcpy of n bytes between two blocks *)
Definition memcpy (dst src n : Z) : M unit := fun s =>
  match s_heap s dst, s_heap s src with
  | Some d, Some b =>
    if (0 <=? n) && (n <=? b_size d) && (n <=? b_size b) && negb (dst =? src)
    then Ret tt (set_heap (put (s_heap s) dst (Some (mkB (b_id d) (b_size d) (fun o => if o <? n then b_data b o else b_data d o)))) s)
    else Undef
  | _, _ => Undef
  end.
(* slip_gmp_reallocate: SLIP_gmp.c:266-299 *)
Definition slip_gmp_reallocate (E : env) (p_old old_size new_size : Z) : M Z :=
  if p_old =? 0 then slip_gmp_allocate E new_size
  else if new_size =? 0 then slip_gmp_free p_old ;; ret 0
  else
    do p_new <- slip_gmp_allocate E new_size;
    memcpy p_new p_old (Z.min old_size new_size) ;;
    slip_gmp_free p_old ;;
    ret p_new.

(* what a GMP / MPFR function does, one step at a time *)
Inductive act :=
  | GAlloc (size : Z)                        (* calls slip_gmp_allocate *)
  | GFree (p : Z)                            (* calls slip_gmp_free *)
  | GRealloc (p old_size new_size : Z)       (* calls slip_gmp_reallocate *)
  | GSet (f p : Z)                           (* sets the limb pointer f to p *)
  | GWrite (p o v : Z).                      (* writes a word of a block *)
Definition do_act (E : env) (a : act) : M unit :=
  match a with
  | GAlloc size => slip_gmp_allocate E size ;; ret tt
  | GFree p => slip_gmp_free p
  | GRealloc p o n => slip_gmp_reallocate E p o n ;; ret tt
  | GSet f p => modst (fun s => set_fld (put (s_fld s) f p) s)
  | GWrite p o v => store p o v
  end.
Fixpoint do_acts (E : env) (l : list act) : M unit :=
  match l with [] => ret tt | a :: l => do_act E a ;; do_acts E l end.

(* mpfr_free_cache: frees MPFR's caches through slip_gmp_free *)
Fixpoint free_all (l : list Z) : M unit := match l with [] => ret tt | p :: l => slip_gmp_free p ;; free_all l end.

(* slip_gmp_failure: SLIP_gmp.c:327-349; SLIP_FREE inside SLIP_GMP_SAFE_FREE sets the list entry to NULL *)
Fixpoint free_entries (cnt : nat) (i : Z) : M unit :=
  match cnt with
  | O => ret tt
  | S c =>
    do s <- getst;
    do p <- load (s_list s) (8 * i);
    safe_free p ;;
    store (s_list s) (8 * i) 0 ;;
    free_entries c (i + 1)
  end.
Definition slip_gmp_failure (caches : list Z) : M unit :=
  free_all caches ;;
  do s <- getst;
  (if s_list s =? 0 then ret tt else free_entries (Z.to_nat (s_nmalloc s)) 0) ;;
  slip_gmp_finalize.

(* a wrapped call: SLIP_GMP*_WRAPPER_START (SLIP_gmp.h:20-55), the GMP function, SLIP_GMP_WRAPPER_FINISH (SLIP_gmp.h:57-65).
   arch: the limb-pointer fields of the object given to SLIP_GMPZ/GMPQ/GMPFR_WRAPPER_START; None for SLIP_GMP_WRAPPER_START.
   caches: what mpfr_free_cache frees if the call fails. *)
Definition wrapper (E : env) (arch : option (list Z)) (body : list act) (caches : st -> list Z) : M (option info) := fun s =>
  let s := match arch with Some l => set_arch l s | None => s end in
  let s := set_nmalloc 0 s in
  match do_acts E body s with
  | Ret _ s' => Ret None (set_nmalloc 0 (set_arch [] s'))
  | Jump _ s' => (slip_gmp_failure (caches s') ;; ret (Some SLIP_OUT_OF_MEMORY)) s'
  | Undef => Undef
  end.

(*----------------------------------------------------------------------------*)
(* SLIP_initialize.c:38-47, SLIP_initialize_expert.c:26-51, SLIP_finalize.c:15-27.  mp_set_memory_functions is not modelled: GMP
   always calls the functions above. *)
Definition SLIP_initialize : M (option info) :=
  do s <- getst; if s_inited s then ret (Some SLIP_PANIC) else modst (set_inited true) ;; ret None.
Definition SLIP_initialize_expert (funs : Z) : M (option info) :=
  do s <- getst; if s_inited s then ret (Some SLIP_PANIC) else modst (set_funs funs) ;; SLIP_initialize.
Definition SLIP_finalize (E : env) (caches : list Z) : M (option info) :=
  do s <- getst; if negb (s_inited s) then ret (Some SLIP_PANIC) else
  wrapper E None (map GFree caches) (fun _ => caches) ;;
  slip_gmp_finalize ;;
  modst (set_inited false) ;;
  ret None.
