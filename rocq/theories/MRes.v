(* Model of the ownership of memory in SLIP LU: which heap blocks each function allocates and frees, on every path.
   Paths are relative to /repo/SLIP_LU/Source.
   A block is a number; the state has the list of live blocks.  A pointer is a block (positive), NULL (0), the address of static
   storage (-1: GMP's dummy limb), or uninitialised memory (-2).  Freeing anything that is not live, clearing an uninitialised
   GMP object, and indexing outside an array when an entry is initialised are undefined behaviour (Bad).
   What is left out: the values.  Which allocation fails, whether GMP moves the limbs of an object, and every data-dependent
   branch, loop count and index is taken from an arbitrary oracle, so a theorem for all oracles covers every execution.
   An index chosen by the oracle outside the array is skipped (that indices are in range is C04 and C32-C37).  Memory that
   libraries keep for themselves (MPFR caches, the list of GMP blocks) is not counted.
   Printing is not modelled.  No proofs in this file. *)
From Coq Require Import ZArith List Bool.
From Verif Require Import Base MMatrix.
Import ListNotations.
Open Scope Z_scope.

(*----------------------------------------------------------------------------*)
(* objects *)
(* SLIP_matrix: Include/SLIP_LU.h:507-560.  r_ent: the limb pointers of each entry of x (one for mpz and mpfr, two for mpq, none for
   int64 and double); r_scale: those of the scale; r_shallow: the four *_shallow flags (always equal in the functions modelled) *)
Record rmat := mkR { r_hdr : Z; r_p : Z; r_i : Z; r_j : Z; r_x : Z; r_ent : list (list Z); r_scale : list Z;
                     r_shallow : bool; r_kind : Z; r_type : Z; r_m : Z; r_n : Z; r_nzmax : Z }.
(* what a variable holds: NULL, an int64 array, a matrix, a GMP number (on the stack), an SLIP_LU_analysis (header and q) *)
Inductive obj := Nil | Arr (p : Z) | Mat (A : rmat) | Num (l : list Z) | Ana (h q : Z).

Definition set_pij (p i j : Z) (A : rmat) := mkR (r_hdr A) p i j (r_x A) (r_ent A) (r_scale A) (r_shallow A) (r_kind A) (r_type A) (r_m A) (r_n A) (r_nzmax A).
Definition set_x (x : Z) (e : list (list Z)) (A : rmat) := mkR (r_hdr A) (r_p A) (r_i A) (r_j A) x e (r_scale A) (r_shallow A) (r_kind A) (r_type A) (r_m A) (r_n A) (r_nzmax A).
Definition set_scale (l : list Z) (A : rmat) := mkR (r_hdr A) (r_p A) (r_i A) (r_j A) (r_x A) (r_ent A) l (r_shallow A) (r_kind A) (r_type A) (r_m A) (r_n A) (r_nzmax A).
Definition set_shallow (b : bool) (A : rmat) := mkR (r_hdr A) (r_p A) (r_i A) (r_j A) (r_x A) (r_ent A) (r_scale A) b (r_kind A) (r_type A) (r_m A) (r_n A) (r_nzmax A).
Definition set_nzmax (z : Z) (A : rmat) := mkR (r_hdr A) (r_p A) (r_i A) (r_j A) (r_x A) (r_ent A) (r_scale A) (r_shallow A) (r_kind A) (r_type A) (r_m A) (r_n A) z.

(* number of limb pointers of an entry *)
Definition nlimbs (type : Z) : nat := if type =? TMPZ then 1 else if type =? TMPQ then 2 else if type =? TMPFR then 1 else 0.
Definition nulls (type : Z) : list Z := repeat 0 (nlimbs type).

(*----------------------------------------------------------------------------*)
(* state and oracle *)
(* live: the live blocks; nxt: the next block number; clk: how often the oracle was consulted; nfail: how often memory ran out;
   lost: blocks that GMP itself gave up when it ran out of memory (C48_detached_leak_refuted) *)
Record rst := mkRS { live : list Z; nxt : Z; clk : nat; nfail : nat; lost : list Z }.
(* at each consultation: is the allocation granted, does realloc move, does the GMP call complete, what happens to limb pointer j
   of its output, which value does the data-dependent choice have *)
Record orc := mkOrc { o_mem : nat -> bool; o_move : nat -> bool; o_gmp : nat -> bool; o_limb : nat -> Z -> Z; o_val : nat -> Z }.

Inductive out (A : Type) := Next (a : A) (f : list obj) (s : rst) | Stop (e : info) (f : list obj) (s : rst) | Bad.
Arguments Next {A} a f s. Arguments Stop {A} e f s. Arguments Bad {A}.
(* a piece of a function body: it works on the variables of the function and on the heap.  Stop: SLIP_CHECK found an error *)
Definition M (A : Type) := list obj -> rst -> out A.
Definition ret {A} (a : A) : M A := fun f s => Next a f s.
Definition bind {A B} (m : M A) (k : A -> M B) : M B :=
  fun f s => match m f s with Next a f s => k a f s | Stop e f s => Stop e f s | Bad => Bad end.
Notation "'do' x '<-' m ';' k" := (bind m (fun x => k)) (at level 200, x name, m at level 100, k at level 200, right associativity).
Notation "m ';;' k" := (bind m (fun _ => k)) (at level 100, right associativity).
Definition stop {A} (e : info) : M A := fun f s => Stop e f s.
Definition bad {A} : M A := fun f s => Bad.

Definition getv (v : nat) : M obj := fun f s => Next (nth v f Nil) f s.
Fixpoint upd {A} (l : list A) (i : nat) (x : A) : list A :=
  match l, i with [], _ => [] | _ :: l, O => x :: l | y :: l, S i => y :: upd l i x end.
Definition setv (v : nat) (x : obj) : M unit := fun f s => Next tt (upd f v x) s.

Section model.
Variable O : orc.

Definition tick (s : rst) := mkRS (live s) (nxt s) (S (clk s)) (nfail s) (lost s).
Definition fresh (s : rst) := mkRS (nxt s :: live s) (nxt s + 1) (S (clk s)) (nfail s) (lost s).
Definition failed (s : rst) := mkRS (live s) (nxt s) (S (clk s)) (S (nfail s)) (lost s).
Definition drop (p : Z) (s : rst) := mkRS (filter (fun x => negb (x =? p)) (live s)) (nxt s) (clk s) (nfail s) (lost s).
Definition lose (p : Z) (s : rst) := mkRS (live s) (nxt s) (clk s) (nfail s) (p :: lost s).
Definition alive (p : Z) (s : rst) : bool := existsb (Z.eqb p) (live s).

Definition pick : M Z := fun f s => Next (o_val O (clk s)) f (tick s).
Definition coin : M bool := do z <- pick; ret (negb (z =? 0)).

(*----------------------------------------------------------------------------*)
(* allocator: SLIP_malloc, SLIP_calloc, SLIP_free, SLIP_realloc (MMem.v has their definition in detail) *)
Definition alloc : M Z := fun f s => if o_mem O (clk s) then Next (nxt s) f (fresh s) else Next 0 f (failed s).
Definition free (p : Z) : M unit := fun f s =>
  if p =? 0 then Next tt f s else if alive p s then Next tt f (drop p s) else Bad.
(* growing may fail and then keeps the block; shrinking does not fail *)
Definition realloc (grow : bool) (p : Z) : M (Z * bool) := fun f s =>
  if p =? 0 then (if o_mem O (clk s) then Next (nxt s, true) f (fresh s) else Next (0, false) f (failed s))
  else if negb (alive p s) then Bad
  else if grow && negb (o_mem O (clk s)) then Next (p, false) f (failed s)
  else if o_move O (clk s) then Next (nxt s, true) f (fresh (drop p s))
  else Next (p, true) f (tick s).

(*----------------------------------------------------------------------------*)
(* GMP calls through the wrappers of SLIP_gmp.c; what they may do to the limb pointers of their output is C48 (PropMem.v) *)
Definition give (p : Z) (s : rst) : option rst := if p <=? 0 then Some s else if alive p s then Some (drop p s) else None.
(* the call completes: the limbs are kept, or moved to a new block and the old one is freed *)
Definition limb_ok (e p : Z) : M Z := fun f s =>
  if p =? -2 then Bad
  else if e =? 0 then Next p f s
  else match give p s with Some s => Next (nxt s) f (fresh s) | None => Bad end.
(* memory runs out: the limbs are kept, or were freed, or were given up; in the last two cases the pointer is now NULL *)
Definition limb_oom (e p : Z) : M Z := fun f s =>
  if p =? -2 then Bad
  else if e =? 0 then Next p f s
  else if (e =? 2) && (0 <? p) then Next 0 f (lose p s)
  else match give p s with Some s => Next 0 f s | None => Bad end.
Fixpoint each (g : Z -> Z -> M Z) (j : Z) (l : list Z) : M (list Z) :=
  match l with [] => ret [] | p :: l => do q <- g j p; do r <- each g (j + 1) l; ret (q :: r) end.
(* any function with an output object: SLIP_mpz_set, SLIP_mpz_mul, SLIP_mpq_div, SLIP_mpfr_set_q, ... *)
Definition gmp (l : list Z) : M (option info * list Z) := fun f s =>
  if o_gmp O (clk s) then (do l <- each (fun j => limb_ok (o_limb O (clk s) j)) 0 l; ret (None, l)) f (tick s)
  else (do l <- each (fun j => limb_oom (o_limb O (clk s) j)) 0 l; ret (Some SLIP_OUT_OF_MEMORY, l)) f (failed s).
(* SLIP_mpz_init, SLIP_mpz_init2, SLIP_mpq_init, SLIP_mpfr_init2: whatever the pointers were is overwritten (GMP >= 6.2 points an
   empty number at static storage, earlier releases allocate one limb); on failure some may not have been written *)
Definition init_ok (e p : Z) : M Z := fun f s => if e =? 0 then Next (-1) f s else Next (nxt s) f (fresh s).
Definition init_oom (e p : Z) : M Z := fun f s => Next (if e =? 0 then p else if e =? 1 then 0 else -1) f s.
Definition ginit (l : list Z) : M (option info * list Z) := fun f s =>
  if o_gmp O (clk s) then (do l <- each (fun j => init_ok (o_limb O (clk s) j)) 0 l; ret (None, l)) f (tick s)
  else (do l <- each (fun j => init_oom (o_limb O (clk s) j)) 0 l; ret (Some SLIP_OUT_OF_MEMORY, l)) f (failed s).
(* functions without an output object: SLIP_mpz_sgn, SLIP_mpz_cmp, SLIP_mpq_cmp_ui, SLIP_mpz_sizeinbase, SLIP_mpq_get_d, ... *)
Definition gread : M (option info) := fun f s =>
  if o_gmp O (clk s) then Next None f (tick s) else Next (Some SLIP_OUT_OF_MEMORY) f (failed s).
(* SLIP_MPZ_CLEAR, SLIP_MPQ_CLEAR, SLIP_MPFR_CLEAR: slip_internal.h:298-322 *)
Definition clear1 (p : Z) : M Z := fun f s =>
  if p =? -2 then Bad else match give p s with Some s => Next 0 f s | None => Bad end.
Definition clear (l : list Z) : M (list Z) := each (fun _ => clear1) 0 l.

(*----------------------------------------------------------------------------*)
(* SLIP_CHECK: slip_internal.h:122-130 *)
Definition chk (m : M (option info)) : M unit := do r <- m; match r with None => ret tt | Some e => stop e end.
(* a call whose result is ignored *)
Definition ign (m : M (option info)) : M unit := do r <- m; ret tt.
Fixpoint rep (n : nat) (body : M unit) : M unit := match n with Datatypes.O => ret tt | S n => body ;; rep n body end.
(* a loop whose number of iterations depends on the data *)
Definition some_times (body : M unit) : M unit := do z <- pick; rep (Z.to_nat z) body.
Definition when (b : bool) (m : M unit) : M unit := if b then m else ret tt.
Definition maybe (m : M unit) : M unit := do b <- coin; when b m.

(* operations on the variable v *)
Definition getm (v : nat) : M rmat := do x <- getv v; match x with Mat A => ret A | _ => bad end.
(* entry i of the array x of the matrix v, 0 <= i < nzmax *)
Definition on_entry (op : list Z -> M (option info * list Z)) (v : nat) (i : Z) : M (option info) :=
  do A <- getm v;
  match nth_error (r_ent A) (Z.to_nat i) with
  | Some l => do r <- op l; setv v (Mat (set_x (r_x A) (upd (r_ent A) (Z.to_nat i) (snd r)) A)) ;; ret (fst r)
  | None => bad
  end.
Definition gent (v : nat) : M (option info) :=
  do A <- getm v; do i <- pick; if (0 <=? i) && (i <? r_nzmax A) then on_entry gmp v i else ret None.
Definition gent_at (v : nat) (i : Z) : M (option info) := if i <? 0 then bad else on_entry gmp v i.
Definition init_at (v : nat) (i : Z) : M (option info) := if i <? 0 then bad else on_entry ginit v i.
Definition on_scale (op : list Z -> M (option info * list Z)) (v : nat) : M (option info) :=
  do A <- getm v; do r <- op (r_scale A); setv v (Mat (set_scale (snd r) A)) ;; ret (fst r).
Definition on_num (op : list Z -> M (option info * list Z)) (v : nat) : M (option info) :=
  do x <- getv v; match x with Num l => do r <- op l; setv v (Num (snd r)) ;; ret (fst r) | _ => bad end.
(* the matrix or array v is read: its blocks must be live (the values of a shallow matrix belong to another object) *)
Definition use (v : nat) : M unit := fun f s =>
  match nth v f Nil with
  | Mat A => if alive (r_hdr A) s && (r_shallow A || alive (r_x A) s) then Next tt f s else Bad
  | Arr p => if alive p s then Next tt f s else Bad
  | Ana h q => if alive h s && alive q s then Next tt f s else Bad
  | _ => Bad
  end.
(* *handle = v; v goes out of scope *)
Definition hand_over (v h : nat) : M unit := do x <- getv v; setv h x ;; setv v Nil.

(* functions: the arguments are variables of the caller, the locals follow them.  The body returns the status; when SLIP_CHECK
   stops it, SLIP_FREE_ALL is executed and the status returned *)
Inductive fout := Fin (r : option info) (f : list obj) (s : rst) | FBad.
Definition fn := list obj -> rst -> fout.
Definition func (locals : list obj) (free_all : M unit) (body : M (option info)) : fn := fun args s =>
  match body (args ++ locals) s with
  | Next r f s => Fin r (firstn (length args) f) s
  | Stop e f s => match free_all f s with Next _ f s => Fin (Some e) (firstn (length args) f) s | _ => FBad end
  | Bad => FBad
  end.
Fixpoint put_back {A} (f : list A) (vs : list nat) (l : list A) : list A :=
  match vs, l with v :: vs, x :: l => put_back (upd f v x) vs l | _, _ => f end.
Definition call (F : fn) (vs : list nat) : M (option info) := fun f s =>
  match F (map (fun v => nth v f Nil) vs) s with
  | Fin r l s => Next r (put_back f vs l) s
  | FBad => Bad
  end.

(* SLIP_FREE (v): Include/SLIP_LU.h:483-487 *)
Definition free_arr (v : nat) : M unit :=
  do x <- getv v; match x with Nil => ret tt | Arr p => free p ;; setv v Nil | _ => bad end.
(* SLIP_MPZ_CLEAR (v) etc. of a variable *)
Definition clear_num (v : nat) : M unit :=
  do x <- getv v; match x with Num l => do l <- clear l; setv v (Num l) | _ => bad end.
(* SLIP_malloc into the variable v *)
Definition malloc_arr (v : nat) : M bool := do p <- alloc; setv v (if p =? 0 then Nil else Arr p) ;; ret (negb (p =? 0)).

(*----------------------------------------------------------------------------*)
(* SLIP_matrix_free.c:15-110, for the matrix variable v; the library is initialised *)
Fixpoint clear_all (l : list (list Z)) : M unit := match l with [] => ret tt | e :: l => clear e ;; clear_all l end.
Definition matrix_free (v : nat) : M unit :=
  do x <- getv v;
  match x with
  | Nil => ret tt                                                                    (* :30-34 *)
  | Mat A =>
    (if r_shallow A then ret tt else                                                 (* :43-97 *)
       free (r_p A) ;; free (r_i A) ;; free (r_j A) ;;
       (if r_x A =? 0 then ret tt else clear_all (firstn (Z.to_nat (r_nzmax A)) (r_ent A))) ;;
       free (r_x A)) ;;
    clear (r_scale A) ;;                                                             (* :100 *)
    free (r_hdr A) ;; setv v Nil                                                     (* :107-108 *)
  | _ => bad
  end.

(* slip_create_mpz_array.c:15-52, slip_create_mpq_array.c, slip_create_mpfr_array.c: the array and the limb pointers of its entries.
   acc: the entries initialised so far; the entries after the failing one are still zero *)
Fixpoint create_loop (type : Z) (todo : nat) (acc : list (list Z)) : M (option (list (list Z))) :=
  match todo with
  | Datatypes.O => ret (Some acc)
  | S t => do r <- ginit (nulls type);
           match fst r with
           | None => create_loop type t (acc ++ [snd r])
           | Some _ => clear_all acc ;; ret None
           end
  end.
Definition create_array (type n : Z) : M (Z * list (list Z)) :=
  if n <=? 0 then ret (0, [])
  else do x <- alloc;
       if x =? 0 then ret (0, [])
       else do r <- create_loop type (Z.to_nat n) [];
            match r with Some e => ret (x, e) | None => free x ;; ret (0, []) end.
(* SLIP_calloc (n, size): the entries are zero *)
Definition calloc_array (type n : Z) : M (Z * list (list Z)) :=
  do x <- alloc; ret (x, if x =? 0 then [] else repeat (nulls type) (Z.to_nat n)).

(* SLIP_matrix_allocate.c:24-198.  Argument 0: *A_handle.  Local 1: A *)
Definition SLIP_matrix_allocate (kind type m n nzmax : Z) (shallow init : bool) : fn :=
  func [Nil] (matrix_free 1) (
  setv 0 Nil ;;                                                                      (* :58 *)
  if (m <? 0) || (n <? 0) || (kind <? KCSC) || (kind >? KDENSE) || (type <? TMPZ) || (type >? TDBL)
  then ret (Some SLIP_INCORRECT_INPUT) else                                          (* :59-65 *)
  do h <- alloc;                                                                     (* :71 *)
  if h =? 0 then ret (Some SLIP_OUT_OF_MEMORY) else
  let nzmax := Z.max (if kind =? KDENSE then m * n else nzmax) 1 in                  (* :77-81 *)
  setv 1 (Mat (mkR h 0 0 0 0 [] [0; 0] false kind type m n nzmax)) ;;
  chk (on_scale ginit 1) ;; chk (on_scale gmp 1) ;;                                  (* :98-99 *)
  (if shallow then do A <- getm 1; setv 1 (Mat (set_shallow true A))                 (* :105-114 *)
   else
     do ok1 <- (if kind =? KCSC then                                                 (* :121-140 *)
                  do p <- alloc; do A <- getm 1; setv 1 (Mat (set_pij p 0 0 A)) ;;
                  do i <- alloc; do A <- getm 1; setv 1 (Mat (set_pij p i 0 A)) ;;
                  ret (negb (p =? 0) && negb (i =? 0))
                else if kind =? KTRIP then
                  do i <- alloc; do A <- getm 1; setv 1 (Mat (set_pij 0 i 0 A)) ;;
                  do j <- alloc; do A <- getm 1; setv 1 (Mat (set_pij 0 i j A)) ;;
                  ret (negb (i =? 0) && negb (j =? 0))
                else ret true);
     do xe <- (if init && negb ((type =? TINT) || (type =? TDBL))                    (* :142-183 *)
               then create_array type nzmax else calloc_array type nzmax);
     do A <- getm 1; setv 1 (Mat (set_x (fst xe) (snd xe) A)) ;;
     if ok1 && negb (fst xe =? 0) then ret tt else stop SLIP_INCORRECT_INPUT) ;;     (* :185-189 *)
  hand_over 1 0 ;; ret None).                                                        (* :196 *)

(* SLIP_CHECK (SLIP_matrix_allocate (&v, ...)) *)
Definition new_matrix (v : nat) (kind type m n nzmax : Z) (shallow init : bool) : M unit :=
  chk (call (SLIP_matrix_allocate kind type m n nzmax shallow init) [v]).

(*----------------------------------------------------------------------------*)
(* SLIP_LU_analysis_free.c:18-35 *)
Definition analysis_free (v : nat) : M unit :=
  do x <- getv v;
  match x with Nil => ret tt | Ana h q => free q ;; free h ;; setv v Nil | _ => bad end.

(* AMD/Source/amd_order.c:20-199.  Argument 0: A (its p and i are read).  Locals 1: Len, 2: Pinv, 3: Rp, 4: Ri, 5: S. *)
Definition AMD_order : fn :=
  func [Nil; Nil; Nil; Nil; Nil] (ret tt) (
  use 0 ;;
  do early <- coin;                                                                  (* :53-91: n = 0, or the input is rejected *)
  if early then ret None else
  do l <- malloc_arr 1; do p <- malloc_arr 2;                                        (* :94-95 *)
  if negb l || negb p then free_arr 1 ;; free_arr 2 ;; ret (Some SLIP_OUT_OF_MEMORY) (* :98-105 *)
  else
  do jumbled <- coin;
  do ok <- (if jumbled then do r <- malloc_arr 3; do i <- malloc_arr 4; ret (r && i) (* :107-114 *)
            else ret true);
  if negb ok then free_arr 3 ;; free_arr 4 ;; free_arr 1 ;; free_arr 2 ;; ret (Some SLIP_OUT_OF_MEMORY) (* :115-124 *)
  else
  use 0 ;; use 1 ;; use 2 ;;
  do small <- coin;                                                                  (* :148-158: slen does not overflow *)
  do s <- (if small then malloc_arr 5 else ret false);                               (* :159-162 *)
  if negb s then free_arr 3 ;; free_arr 4 ;; free_arr 1 ;; free_arr 2 ;; ret (Some SLIP_OUT_OF_MEMORY)  (* :164-173 *)
  else
  use 0 ;; use 1 ;; use 2 ;; use 5 ;;                                                (* :184 *)
  free_arr 3 ;; free_arr 4 ;; free_arr 1 ;; free_arr 2 ;; free_arr 5 ;; ret None).   (* :190-196 *)

(* SLIP_LU_analyze.c:30-183.  Arguments 0: *S_handle, 1: A.  Locals 2: S, 3: A2.
   args: the status of the argument checks :40-47.  order: SLIP_OPTION_ORDER.  The return value of AMD is ignored (:102) *)
Definition SLIP_LU_analyze (args : option info) (order : Z) : fn :=
  func [Nil; Nil] (ret tt) (
  match args with
  | Some e => ret (Some e)
  | None =>
    setv 0 Nil ;;                                                                    (* :51 *)
    do h <- alloc;                                                                   (* :60 *)
    if h =? 0 then ret (Some SLIP_OUT_OF_MEMORY) else                                (* :61 *)
    do q <- alloc;                                                                   (* :64 *)
    if q =? 0 then free h ;; ret (Some SLIP_OUT_OF_MEMORY) else                      (* :65-69 *)
    setv 2 (Ana h q) ;;
    do r <- (if order =? 0 then ret None                                             (* :80-88 *)
             else if order =? 2 then ign (call AMD_order [1%nat]) ;; ret None        (* :95-110 *)
             else do ok <- malloc_arr 3;                                             (* :121 *)
                  if negb ok then analysis_free 2 ;; ret (Some SLIP_OUT_OF_MEMORY)   (* :122-127 *)
                  else use 1 ;; use 3 ;; free_arr 3 ;; ret None);                    (* :130-153 *)
    match r with
    | Some e => ret (Some e)
    | None => hand_over 2 0 ;; ret None                                              (* :181 *)
    end
  end).

(*----------------------------------------------------------------------------*)
(* slip_sparse_realloc.c:21-59, for the matrix variable v *)
Definition sparse_realloc (v : nat) : M (option info) :=
  do A <- getm v;
  let nz := r_nzmax A in
  do rx <- realloc true (r_x A);                                                     (* :37 *)
  let e1 := if snd rx then firstn (Z.to_nat nz) (r_ent A) ++ repeat [-2] (Z.to_nat nz) else r_ent A in
  setv v (Mat (set_x (fst rx) e1 A)) ;;
  do ri <- realloc true (r_i A);                                                     (* :40 *)
  setv v (Mat (set_pij (r_p A) (fst ri) (r_j A) (set_x (fst rx) e1 A))) ;;
  if negb (snd ri) || negb (snd rx) then ret (Some SLIP_OUT_OF_MEMORY)               (* :42-45 *)
  else
    setv v (Mat (set_nzmax (2 * nz) (set_pij (r_p A) (fst ri) (r_j A)                (* :47-56 *)
      (set_x (fst rx) (firstn (Z.to_nat nz) (r_ent A) ++ repeat [0] (Z.to_nat nz)) A)))) ;;
    ret None.

(* slip_sparse_collapse.c:20-51; anz = A->p [n] *)
Definition sparse_collapse (v : nat) (anz : Z) : M unit :=
  do A <- getm v;
  do ri <- realloc false (r_i A);                                                    (* :41 *)
  setv v (Mat (set_pij (r_p A) (fst ri) (r_j A) A)) ;;
  do rx <- realloc false (r_x A);                                                    (* :45 *)
  setv v (Mat (set_nzmax anz (set_pij (r_p A) (fst ri) (r_j A)
    (set_x (fst rx) (firstn (Z.to_nat anz) (r_ent A)) A)))).                         (* :44-48 *)

(* slip_ref_triangular_solve.c:58-329.  Arguments 0: x, 1: L, 2: A, 3: rhos *)
Definition slip_ref_triangular_solve : fn :=
  func [] (ret tt) (
  use 1 ;; use 2 ;; use 3 ;;
  some_times (chk (gent 0)) ;;                                                       (* :125-128 *)
  chk (gent 0) ;;                                                                    (* :129 *)
  some_times (chk (gent 0)) ;;                                                       (* :138-141 *)
  some_times (                                                                       (* :147-325 *)
    chk gread ;;                                                                     (* :152-153 *)
    maybe (
      do past <- coin;
      if past then                                                                   (* jnew < k *)
        maybe (chk (gent 0) ;; maybe (chk (gent 0))) ;;                              (* :169-184 *)
        some_times (                                                                 (* :190-290 *)
          maybe (chk gread ;; maybe (chk gread ;;
            do zero <- coin;
            if zero then chk (gent 0) ;; maybe (chk (gent 0))                        (* :206-230 *)
            else do first <- coin;
              if first then chk (gent 0) ;; chk (gent 0)                             (* :238-247 *)
              else maybe (chk (gent 0) ;; maybe (chk (gent 0))) ;;                   (* :252-265 *)
                   chk (gent 0) ;; chk (gent 0) ;; chk (gent 0))))                   (* :268-283 *)
      else maybe (chk (gent 0) ;; maybe (chk (gent 0))))) ;;                         (* :293-318 *)
  ret None).

(* slip_get_smallest_pivot.c:27-117.  Argument 0: x.  Local 1: small *)
Definition slip_get_smallest_pivot : fn :=
  func [Num [0]] (clear_num 1) (
  chk (on_num ginit 1) ;;                                                            (* :53 *)
  some_times (use 0 ;; chk gread ;; maybe (chk (on_num gmp 1))) ;;                   (* :60-77 *)
  some_times (use 0 ;; chk gread ;; maybe (chk gread ;; maybe (chk (on_num gmp 1)))) ;;   (* :87-103 *)
  clear_num 1 ;;                                                                     (* :107 *)
  do none <- coin; ret (if none then Some SLIP_SINGULAR else None)).                 (* :108-115 *)

(* slip_get_largest_pivot.c:26-90.  Argument 0: x.  Local 1: big *)
Definition slip_get_largest_pivot : fn :=
  func [Num [0]] (clear_num 1) (
  chk (on_num ginit 1) ;;                                                            (* :55 *)
  some_times (use 0 ;; chk gread ;; maybe (chk (on_num gmp 1))) ;;                   (* :61-75 *)
  clear_num 1 ;;                                                                     (* :80 *)
  do none <- coin; ret (if none then Some SLIP_SINGULAR else None)).                 (* :81-88 *)

(* slip_get_nonzero_pivot.c:24-70.  Argument 0: x *)
Definition slip_get_nonzero_pivot : fn :=
  func [] (ret tt) (
  some_times (use 0 ;; chk gread) ;;                                                 (* :48-66 *)
  do none <- coin; ret (if none then Some SLIP_SINGULAR else None)).

(* slip_get_pivot.c:33-220.  Arguments 0: x, 1: rhos.  Locals 2: tol, 3: ratio.  order: SLIP_OPTION_PIVOT, k: the column *)
Definition slip_get_pivot (order k : Z) : fn :=
  func [Num [0; 0]; Num [0; 0]] (clear_num 2 ;; clear_num 3) (
  (if order =? 0 then chk (call slip_get_smallest_pivot [0%nat])                     (* :85-88 *)
   else if order =? 1 then                                                           (* :94-105 *)
     use 0 ;; chk gread ;; do diag <- coin;
     if diag then ret tt else chk (call slip_get_smallest_pivot [0%nat])
   else if order =? 2 then chk (call slip_get_nonzero_pivot [0%nat])                 (* :110-113 *)
   else if order =? 4 then                                                           (* :118-146 *)
     chk (call slip_get_largest_pivot [0%nat]) ;; use 0 ;; chk gread ;;
     maybe (chk (on_num ginit 2) ;; chk (on_num ginit 3) ;; chk (on_num gmp 2) ;;
            chk (on_num gmp 3) ;; chk (on_num gmp 3) ;; chk (on_num gmp 3) ;; chk gread)
   else if order =? 5 then chk (call slip_get_largest_pivot [0%nat])                 (* :150-153 *)
   else                                                                              (* :158-188 *)
     chk (call slip_get_smallest_pivot [0%nat]) ;; use 0 ;; chk gread ;;
     maybe (chk (on_num ginit 2) ;; chk (on_num ginit 3) ;;
            chk (on_num gmp 3) ;; chk (on_num gmp 3) ;; chk (on_num gmp 2) ;; chk gread)) ;;
  chk gread ;; chk (init_at 1 k) ;; chk (gent_at 1 k) ;;                             (* :210-214 *)
  clear_num 2 ;; clear_num 3 ;; ret None).                                           (* :217 *)

(* SLIP_LU_factorize.c:42-323.  Arguments 0-3: the four handles, 4: A, 5: S.
   Locals 6: L, 7: U, 8: rhos, 9: pinv, 10: xi, 11: h, 12: pivs, 13: row_perm, 14: x *)
Definition f_work : M unit := matrix_free 14 ;; free_arr 10 ;; free_arr 11 ;; free_arr 12 ;; free_arr 13.   (* :26-31 *)
Definition f_all : M unit := f_work ;; matrix_free 6 ;; matrix_free 7 ;; matrix_free 8 ;; free_arr 9.       (* :33-38 *)

Fixpoint init_x (todo : nat) (i : Z) : M unit :=                                     (* :186-190 *)
  match todo with Datatypes.O => ret tt | S t => chk (init_at 14 i) ;; init_x t (i + 1) end.
(* :236-270, for the entries in positions j, ..., n-1 *)
Fixpoint copy_column (todo : nat) (lnz unz : Z) : M (Z * Z) :=
  match todo with
  | Datatypes.O => ret (lnz, unz)
  | S t =>
    do place <- pick;                                                                (* loc - k *)
    do unz <- (if place <=? 0 then chk gread ;; chk (init_at 7 unz) ;; chk (gent_at 7 unz) ;; ret (unz + 1) else ret unz);
    do lnz <- (if place >=? 0 then chk gread ;; chk (init_at 6 lnz) ;; chk (gent_at 6 lnz) ;; ret (lnz + 1) else ret lnz);
    copy_column t lnz unz
  end.
Definition factor_step (order n k lnz unz : Z) : M (Z * Z) :=                        (* :196-271 *)
  do L <- getm 6; (if lnz + n >? r_nzmax L then chk (sparse_realloc 6) else ret tt) ;;
  do U <- getm 7; (if unz + n >? r_nzmax U then chk (sparse_realloc 7) else ret tt) ;;
  use 5 ;; use 10 ;; use 9 ;; use 13 ;; use 11 ;; use 12 ;;
  chk (call slip_ref_triangular_solve [14; 6; 4; 8]%nat) ;;
  chk (call (slip_get_pivot order k) [14; 8]%nat) ;;
  do top <- pick;
  use 14 ;; copy_column (Z.to_nat (n - Z.max 0 top)) lnz unz.
Fixpoint factor_loop (order n : Z) (todo : nat) (k lnz unz : Z) : M (Z * Z) :=
  match todo with
  | Datatypes.O => ret (lnz, unz)
  | S t => do r <- factor_step order n k lnz unz; factor_loop order n t (k + 1) (fst r) (snd r)
  end.
(* args: the status of the argument checks :61-69; n = A->n, lnz0 = S->lnz, unz0 = S->unz *)
Definition SLIP_LU_factorize (args : option info) (order n lnz0 unz0 : Z) : fn :=
  func [Nil; Nil; Nil; Nil; Nil; Nil; Nil; Nil; Nil] f_all (
  match args with
  | Some e => ret (Some e)
  | None =>
    setv 0 Nil ;; setv 1 Nil ;; setv 2 Nil ;; setv 3 Nil ;;                          (* :71-74 *)
    do ok1 <- malloc_arr 9; do ok2 <- malloc_arr 12; do ok3 <- malloc_arr 11;        (* :106-116 *)
    do ok4 <- malloc_arr 10; do ok5 <- malloc_arr 13;
    (if ok1 && ok2 && ok3 && ok4 && ok5 then ret tt else stop SLIP_OUT_OF_MEMORY) ;; (* :118-123 *)
    new_matrix 8 KDENSE TMPZ n 1 n false false ;;                                    (* :141 *)
    new_matrix 6 KCSC TMPZ n n lnz0 false false ;;                                   (* :151 *)
    new_matrix 7 KCSC TMPZ n n unz0 false false ;;                                   (* :153 *)
    new_matrix 14 KDENSE TMPZ n 1 n false false ;;                                   (* :175 *)
    init_x (Z.to_nat n) 0 ;;
    do r <- factor_loop order n (Z.to_nat n) 0 0 0;
    f_work ;;                                                                        (* :282 *)
    sparse_collapse 6 (fst r) ;; sparse_collapse 7 (snd r) ;;                        (* :288-291 *)
    use 6 ;; use 7 ;; use 9 ;;                                                       (* :294-303 *)
    hand_over 6 0 ;; hand_over 7 1 ;; hand_over 8 2 ;; hand_over 9 3 ;;              (* :317-320 *)
    ret None
  end).

(*----------------------------------------------------------------------------*)
(* slip_permute_b.c:22-68.  Arguments 0: *b_handle, 1: b2, 2: pinv.  Local 3: b.  m, n: dimensions of b2 *)
Definition slip_permute_b (m n : Z) : fn :=
  func [Nil] (matrix_free 3) (
  setv 0 Nil ;; new_matrix 3 KDENSE TMPZ m n 0 false true ;;                         (* :38-51 *)
  rep (Z.to_nat m) (rep (Z.to_nat n) (use 1 ;; use 2 ;; chk (gent 3))) ;;            (* :55-63 *)
  hand_over 3 0 ;; ret None).
(* slip_permute_x.c:22-69.  Arguments 0: *x_handle, 1: x2, 2: S.  Local 3: x *)
Definition slip_permute_x (m n : Z) : fn :=
  func [Nil] (matrix_free 3) (
  setv 0 Nil ;; new_matrix 3 KDENSE TMPQ m n 0 false true ;;
  rep (Z.to_nat m) (rep (Z.to_nat n) (use 1 ;; use 2 ;; chk (gent 3))) ;;
  hand_over 3 0 ;; ret None).
(* slip_forward_sub.c:25-181.  Arguments 0: x, 1: L, 2: rhos.  Local 3: h.  m, n, nzmax: those of x *)
Definition slip_forward_sub (m n nzmax : Z) : fn :=
  func [Nil] (matrix_free 3) (
  use 1 ;; use 2 ;;
  new_matrix 3 KDENSE TINT m n nzmax false true ;;                                   (* :51 *)
  use 3 ;;
  rep (Z.to_nat n) (rep (Z.to_nat m) (                                               (* :58-176 *)
    chk gread ;; maybe (
      maybe (chk (gent 0) ;; maybe (chk (gent 0))) ;;                                (* :81-97 *)
      some_times (chk gread ;; maybe (maybe (chk gread ;;                            (* :103-175 *)
        do zero <- coin;
        if zero then chk (gent 0) ;; maybe (chk (gent 0))
        else maybe (chk (gent 0) ;; maybe (chk (gent 0))) ;;
             chk (gent 0) ;; chk (gent 0) ;; maybe (chk (gent 0)))))))) ;;
  matrix_free 3 ;; ret None).                                                        (* :179 *)
(* slip_matrix_mul.c:17-45.  Argument 0: x *)
Definition slip_matrix_mul : fn := func [] (ret tt) (some_times (chk (gent 0)) ;; ret None).
(* slip_back_sub.c:24-72.  Arguments 0: bx, 1: U *)
Definition slip_back_sub : fn :=
  func [] (ret tt) (
  use 1 ;;
  some_times (some_times (chk gread ;; maybe (chk (gent 0) ;; some_times (chk gread ;; maybe (chk (gent 0)))))) ;;
  ret None).
(* slip_matrix_div.c:27-82.  Arguments 0: *x2_handle, 1: x, 2: the matrix that holds the scalar.  Locals 3: x2, 4: scalar2 *)
Definition slip_matrix_div (m n : Z) : fn :=
  func [Nil; Num [0; 0]] (clear_num 4 ;; matrix_free 3) (
  setv 0 Nil ;;                                                                      (* :43 *)
  use 1 ;; use 2 ;;
  chk (on_num ginit 4) ;; chk (on_num gmp 4) ;;                                      (* :52-53 *)
  new_matrix 3 KDENSE TMPQ m n 0 false true ;;                                       (* :59 *)
  some_times (chk (gent 3) ;; chk (gent 3)) ;;                                       (* :66-73 *)
  clear_num 4 ;; hand_over 3 0 ;; ret None).                                         (* :79-80 *)
(* slip_check_solution.c:20-120.  Arguments 0: A, 1: x, 2: b.  Locals 3: b2, 4: temp *)
Definition slip_check_solution (m n nzmax : Z) : fn :=
  func [Nil; Num [0; 0]] (clear_num 4 ;; matrix_free 3) (
  use 0 ;; use 1 ;; use 2 ;;
  chk (on_num ginit 4) ;;                                                            (* :47 *)
  new_matrix 3 KDENSE TMPQ m n nzmax false true ;;                                   (* :48 *)
  some_times (chk (on_num gmp 4) ;; chk (on_num gmp 4) ;; chk (gent 3)) ;;           (* :54-74 *)
  some_times (chk (on_num gmp 4) ;; chk gread) ;;                                    (* :79-98 *)
  do wrong <- coin;
  clear_num 4 ;; matrix_free 3 ;;                                                    (* :118 *)
  ret (if wrong then Some SLIP_INCORRECT else None)).

(* SLIP_LU_solve.c:53-175.  Arguments 0: *x_handle, 1: b, 2: A, 3: L, 4: U, 5: rhos, 6: S, 7: pinv.
   Locals 8: scale, 9: x, 10: x2, 11: b2.  args: the status of the argument checks :74-86; m, nrhs: dimensions of b *)
Definition s_work : M unit := matrix_free 11 ;; matrix_free 10 ;; clear_num 8.       (* :42-45 *)
Definition SLIP_LU_solve (args : option info) (check : bool) (m nrhs : Z) : fn :=
  func [Num [0; 0]; Nil; Nil; Nil] (s_work ;; matrix_free 9) (
  match args with
  | Some e => ret (Some e)
  | None =>
    setv 0 Nil ;;                                                                    (* :87 *)
    chk (call (slip_permute_b m nrhs) [11; 1; 7]%nat) ;;                             (* :105 *)
    chk (call (slip_forward_sub m nrhs (Z.max (m * nrhs) 1)) [11; 3; 5]%nat) ;;      (* :111 *)
    use 5 ;; chk (call slip_matrix_mul [11]%nat) ;;                                  (* :117 *)
    chk (call slip_back_sub [11; 4]%nat) ;;                                          (* :122 *)
    chk (call (slip_matrix_div m nrhs) [10; 11; 5]%nat) ;;                           (* :128 *)
    chk (call (slip_permute_x m nrhs) [9; 10; 6]%nat) ;;                             (* :134 *)
    matrix_free 10 ;;                                                                (* :135 *)
    (if check then chk (call (slip_check_solution m nrhs (Z.max (m * nrhs) 1)) [2; 9; 1]%nat) else ret tt) ;;   (* :141-146 *)
    use 1 ;; use 2 ;;
    chk (on_num ginit 8) ;; chk (on_num gmp 8) ;; chk gread ;;                       (* :151-158 *)
    maybe (some_times (chk (gent 9))) ;;                                             (* :160-167 *)
    s_work ;; hand_over 9 0 ;; ret None                                              (* :172-173 *)
  end).

(*----------------------------------------------------------------------------*)
(* slip_expand_double_array.c:26-130.  Argument 0: the matrix that owns x_out and scale.  Locals 1: gcd, 2: one, 3: temp, 4: x3 *)
Definition expand_gcd : M bool :=                                                    (* :83-106: true if a nonzero entry was found *)
  do found <- coin;
  some_times (chk gread ;; maybe (chk (on_num gmp 1)) ;; maybe (chk (on_num gmp 1) ;; chk gread)) ;;
  ret found.
Definition slip_expand_double_array (n : Z) : fn :=
  let free_all := clear_num 1 ;; clear_num 2 ;; clear_num 3 ;; matrix_free 4 in      (* :18-22 *)
  func [Num [0]; Num [0]; Num [0; 0]; Nil] free_all (
  chk (on_num ginit 3) ;; chk (on_num ginit 1) ;; chk (on_num ginit 2) ;;            (* :58-60 *)
  new_matrix 4 KDENSE TMPFR n 1 n false true ;;                                      (* :62 *)
  chk (on_scale gmp 0) ;;                                                            (* :65 *)
  rep (Z.to_nat n) (chk (gent 4) ;; chk (gent 4) ;; chk (gent 0)) ;;                 (* :66-76 *)
  chk (on_num gmp 2) ;;                                                              (* :82 *)
  do found <- expand_gcd;
  if negb found then free_all ;; ign (on_scale gmp 0) ;; ret None                    (* :108-113 *)
  else
    maybe (some_times (chk (gent 0)) ;; chk (on_num gmp 3) ;; chk (on_scale gmp 0)) ;;   (* :117-127 *)
    free_all ;; ret None).

(* slip_expand_mpfr_array.c:26-138.  Argument 0: the matrix that owns x_out and scale; 5: expon, 6: temp_expon *)
Definition slip_expand_mpfr_array (n : Z) : fn :=
  let free_all := clear_num 5 ;; clear_num 6 ;; clear_num 1 ;; clear_num 2 ;; clear_num 3 ;; matrix_free 4 in
  func [Num [0]; Num [0]; Num [0; 0]; Nil; Num [0]; Num [0]] free_all (
  chk (on_num ginit 3) ;; chk (on_num ginit 5) ;; chk (on_num ginit 6) ;; chk (on_num ginit 1) ;; chk (on_num ginit 2) ;;
  new_matrix 4 KDENSE TMPFR n 1 n false true ;;
  chk (on_num gmp 5) ;;
  rep (Z.to_nat n) (chk (gent 4) ;; chk (gent 0)) ;;
  chk (on_num gmp 6) ;; chk (on_scale gmp 0) ;; chk (on_num gmp 2) ;;
  do found <- expand_gcd;
  if negb found then free_all ;; ign (on_scale gmp 0) ;; ret None
  else
    maybe (some_times (chk (gent 0)) ;; chk (on_num gmp 3) ;; chk (on_scale gmp 0)) ;;
    free_all ;; ret None).

(* slip_expand_mpq_array.c:23-77.  Argument 0: the matrix that owns x_out and scale.  Locals 1: temp, 2: x3, 3: x4 *)
Definition slip_expand_mpq_array (n : Z) : fn :=
  let free_all := clear_num 1 ;; matrix_free 2 ;; matrix_free 3 in
  func [Num [0]; Nil; Nil] free_all (
  chk (on_num ginit 1) ;;
  new_matrix 2 KDENSE TMPZ n 1 n false true ;; new_matrix 3 KDENSE TMPQ n 1 n false true ;;
  rep (Z.to_nat n) (chk (gent 2)) ;;
  chk (on_num gmp 1) ;; some_times (chk (on_num gmp 1)) ;;
  chk (on_scale gmp 0) ;;
  rep (Z.to_nat n) (chk (gent 3) ;; chk (gent 0)) ;;
  free_all ;; ret None).

(* slip_cast_array.c:41-484.  Arguments 0: the matrix that owns Y and y_scale, 1: the one that owns X and x_scale.  Local 2: temp *)
Definition slip_cast_array (ytype xtype n : Z) : fn :=
  let each_entry := rep (Z.to_nat n) in
  let scaled (body : M unit) := chk (on_num ginit 2) ;; each_entry (chk (on_num gmp 2) ;; chk (on_num gmp 2) ;; body) in
  func [Num [0; 0]] (clear_num 2) (
  use 1 ;;
  (if ytype =? TMPZ then
     (if xtype =? TMPZ then each_entry (chk (gent 0)) ;; chk (on_scale gmp 0)        (* :90-100 *)
      else if xtype =? TMPQ then chk (call (slip_expand_mpq_array n) [0%nat])        (* :103-107 *)
      else if xtype =? TMPFR then chk (call (slip_expand_mpfr_array n) [0%nat])      (* :110-115 *)
      else if xtype =? TINT then each_entry (chk (gent 0)) ;; chk (on_scale gmp 0)   (* :118-126 *)
      else chk (call (slip_expand_double_array n) [0%nat]))                          (* :129-134 *)
   else if ytype =? TMPQ then
     (if xtype =? TMPZ then chk gread ;; do one <- coin;                             (* :151-179 *)
        if one then each_entry (chk (gent 0)) else each_entry (chk (gent 0) ;; chk (gent 0))
      else each_entry (chk (gent 0)))                                                (* :182-220 *)
   else if ytype =? TMPFR then
     (if xtype =? TMPZ then chk gread ;; do one <- coin;                             (* :235-266 *)
        if one then each_entry (chk (gent 0)) else scaled (chk (gent 0))
      else each_entry (chk (gent 0)))                                                (* :269-307 *)
   else
     (if xtype =? TMPZ then chk gread ;; do one <- coin;                             (* :321-353, :407-438 *)
        if one then each_entry (chk gread) else scaled (chk gread)
      else if (xtype =? TMPQ) || (xtype =? TMPFR) then each_entry (chk gread)        (* :356-376, :440-458 *)
      else ret tt)) ;;                                                               (* :378-394, :460-476 *)
  clear_num 2 ;; ret None).                                                          (* :482 *)

(* slip_cast_matrix.c:20-104.  Arguments 0: *Y_handle, 1: A.  Local 2: Y *)
Definition slip_cast_matrix (ytype nz : Z) : fn :=
  func [Nil] (matrix_free 2) (
  do A <- getm 1;
  new_matrix 2 KDENSE ytype nz 1 nz (ytype =? r_type A) true ;;                      (* :56 *)
  (if ytype =? r_type A
   then do Y <- getm 2; setv 2 (Mat (set_x (r_x A) (r_ent A) Y))                     (* :64-84 *)
   else chk (call (slip_cast_array ytype (r_type A) nz) [2; 1]%nat)) ;;              (* :94 *)
  hand_over 2 0 ;; ret None).

(* SLIP_matrix_copy.c:30-649.  Arguments 0: *C_handle, 1: A.  Locals 2: C, 3: Y, 4: T, 5: W.
   args: the status of the argument checks :46-57; nz = SLIP_matrix_nnz (A) is taken from the oracle unless A is dense.
   The assignments to int64 and double entries of C own nothing and are gent on entries without limbs *)
Definition c_work : M unit := matrix_free 4 ;; matrix_free 3 ;; free_arr 5.          (* :19-22 *)
Definition c_free : M unit := c_work ;; matrix_free 2.                               (* :24-26 *)
Definition copy_nnz : M Z := do A <- getm 1; if r_kind A =? KDENSE then ret (r_m A * r_n A) else do z <- pick; ret (Z.max 0 z).
(* every case but dense to triplet *)
Definition copy_flat (ckind ctype : Z) : fn :=
  func [Nil; Nil; Nil; Nil] c_free (
  setv 0 Nil ;;                                                                      (* :58 *)
  use 1 ;; do A <- getm 1; do nz <- copy_nnz;
  (if ckind =? KCSC then
     (if r_kind A =? KCSC then                                                       (* :87-100 *)
        new_matrix 2 KCSC ctype (r_m A) (r_n A) nz false true ;;
        chk (call (slip_cast_array ctype (r_type A) nz) [2; 1]%nat)
      else if r_kind A =? KTRIP then                                                 (* :106-196 *)
        chk (call (slip_cast_matrix ctype nz) [3; 1]%nat) ;;
        do ok <- malloc_arr 5; (if ok then ret tt else stop SLIP_OUT_OF_MEMORY) ;;
        new_matrix 2 KCSC ctype (r_m A) (r_n A) nz false true ;;
        ign (on_scale gmp 2) ;;                                                      (* :127 *)
        use 5 ;; use 3 ;; rep (Z.to_nat nz) (chk (gent 2))
      else                                                                           (* :202-371 *)
        chk (call (slip_cast_matrix ctype nz) [3; 1]%nat) ;;
        use 3 ;; some_times (chk gread) ;;
        do actual <- pick;
        new_matrix 2 KCSC ctype (r_m A) (r_n A) actual false true ;;
        ign (on_scale gmp 2) ;;                                                      (* :263 *)
        some_times (chk gread ;; maybe (chk (gent 2))))
   else if ckind =? KTRIP then                                                       (* :385-428 *)
     new_matrix 2 KTRIP ctype (r_m A) (r_n A) nz false true ;;
     chk (call (slip_cast_array ctype (r_type A) nz) [2; 1]%nat)
   else
     new_matrix 2 KDENSE ctype (r_m A) (r_n A) nz false true ;;                      (* :460 *)
     if r_kind A =? KDENSE then                                                      (* :625-631 *)
       chk (call (slip_cast_array ctype (r_type A) nz) [2; 1]%nat)
     else                                                                            (* :470-620 *)
       chk (call (slip_cast_matrix ctype nz) [3; 1]%nat) ;;
       ign (on_scale gmp 2) ;;                                                       (* :476, :551 *)
       use 3 ;; some_times (chk (gent 2))) ;;
  c_work ;; hand_over 2 0 ;; ret None).                                              (* :645-646 *)
(* dense to triplet: through a temporary CSC matrix (:433-446) *)
Definition copy_dense_triplet (ctype : Z) : fn :=
  func [Nil; Nil; Nil; Nil] c_free (
  setv 0 Nil ;;
  use 1 ;;
  chk (call (copy_flat KCSC ctype) [4; 1]%nat) ;;
  chk (call (copy_flat KTRIP ctype) [2; 4]%nat) ;;
  matrix_free 4 ;;
  c_work ;; hand_over 2 0 ;; ret None).
Definition SLIP_matrix_copy (args : option info) (ckind ctype akind : Z) : fn := fun l s =>
  match args with
  | Some e => Fin (Some e) l s
  | None => if (ckind =? KTRIP) && (akind =? KDENSE) then copy_dense_triplet ctype l s else copy_flat ckind ctype l s
  end.

(*----------------------------------------------------------------------------*)
(* SLIP_backslash.c:47-135.  Arguments 0: *X_handle, 1: A, 2: b.  Locals 3: L, 4: U, 5: x, 6: pinv, 7: rhos, 8: S, 9: x2.
   args: the status of the argument checks :65-82.  The estimates lnz and unz are computed by SLIP_LU_analyze *)
Definition b_work : M unit := matrix_free 3 ;; matrix_free 4 ;; free_arr 6 ;; matrix_free 7 ;; analysis_free 8.   (* :36-41 *)
Definition SLIP_backslash (args : option info) (type order pivot : Z) (check : bool) (n nrhs lnz unz : Z) : fn :=
  func [Nil; Nil; Nil; Nil; Nil; Nil; Nil] (b_work ;; matrix_free 5) (
  match args with
  | Some e => ret (Some e)
  | None =>
    setv 0 Nil ;;                                                                    (* :71 *)
    chk (call (SLIP_LU_analyze None order) [8; 1]%nat) ;;                            (* :96 *)
    chk (call (SLIP_LU_factorize None pivot n lnz unz) [3; 4; 7; 6; 1; 8]%nat) ;;    (* :99 *)
    chk (call (SLIP_LU_solve None check n nrhs) [5; 2; 1; 3; 4; 7; 8; 6]%nat) ;;     (* :105 *)
    (if type =? TMPQ then hand_over 5 0                                              (* :119-121 *)
     else chk (call (SLIP_matrix_copy None KDENSE type KDENSE) [9; 5]%nat) ;;        (* :124-127 *)
          hand_over 9 0 ;; matrix_free 5) ;;
    b_work ;; ret None                                                               (* :133-134 *)
  end).

End model.
