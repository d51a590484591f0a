(* Specification vocabulary for memory ownership (model: MRes.v) *)
From Coq Require Import ZArith List Bool Permutation.
From Verif Require Import Base MMatrix MRes.
Import ListNotations.
Open Scope Z_scope.

(* the heap blocks among some pointers: neither NULL, nor static, nor uninitialised *)
Definition real (l : list Z) : list Z := filter (Z.ltb 0) l.
(* the blocks that an object owns, i.e. those its destructor has to free.  A shallow matrix does not own its arrays *)
Definition pointers (A : rmat) : list Z :=
  r_hdr A :: r_scale A ++ (if r_shallow A then [] else [r_p A; r_i A; r_j A; r_x A] ++ concat (r_ent A)).
Definition blocks (x : obj) : list Z :=
  real match x with Nil => [] | Arr p => [p] | Num l => l | Ana h q => [h; q] | Mat A => pointers A end.
Definition owned (l : list obj) : list Z := flat_map blocks l.

(* the heap consists of exactly the blocks of L, each once, and of those that GMP gave up *)
Definition heap_is (s : rst) (L : list Z) : Prop :=
  NoDup (live s) /\ (forall p, In p (live s) -> 0 < p < nxt s) /\ 0 < nxt s /\ Permutation (live s) (L ++ lost s).
(* GMP gives no block up when it runs out of memory (that it may is the finding C48_detached_leak_refuted) *)
Definition tidy_gmp (O : orc) : Prop := forall c j, o_limb O c j <> 2.

(* a matrix, array or analysis a user may pass: allocated, with initialised entries *)
Definition written (p : Z) : Prop := -1 <= p.
Definition matrix_ok (A : rmat) : Prop :=
  0 < r_hdr A /\ Forall written (r_scale A) /\
  (r_shallow A = false ->
   0 <= r_p A /\ 0 <= r_i A /\ 0 <= r_j A /\ 0 < r_x A /\
   Forall (Forall written) (firstn (Z.to_nat (r_nzmax A)) (r_ent A)) /\
   (* what lies past nzmax is not initialised *)
   Forall (Forall (fun p => p <= 0)) (skipn (Z.to_nat (r_nzmax A)) (r_ent A))).
Definition object_ok (x : obj) : Prop :=
  match x with Arr p => 0 < p | Ana h q => 0 < h /\ 0 < q | Mat A => matrix_ok A | _ => False end.
Definition is_matrix (x : obj) : Prop := exists A, x = Mat A /\ matrix_ok A.
Definition is_dense (type : Z) (x : obj) : Prop := exists A, x = Mat A /\ matrix_ok A /\ r_kind A = KDENSE /\ r_type A = type.
Definition is_array (x : obj) : Prop := exists p, x = Arr p /\ 0 < p.
Definition is_analysis (x : obj) : Prop := exists h q, x = Ana h q /\ 0 < h /\ 0 < q.

(* what a call of F does: it returns (no undefined behaviour, in particular nothing is freed twice or used after it was freed);
   on an error every handle is NULL and the heap holds what it held before; on success the handles hold objects that satisfy P
   and the heap holds in addition their blocks, each exactly once.  In both cases the arguments that follow the handles are unchanged.
   sure: under this condition SLIP_OK implies that memory did not run out *)
Definition transaction (O : orc) (F : fn) (nh : nat) (ins : list obj) (P : list obj -> Prop) (sure : Prop) (rest : list Z) (s : rst) : Prop :=
  exists r outs s', F (repeat Nil nh ++ ins) s = Fin r (outs ++ ins) s' /\
    heap_is s' (owned outs ++ owned ins ++ rest) /\
    (tidy_gmp O -> lost s' = lost s) /\
    match r with
    | Some e => outs = repeat Nil nh
    | None => P outs /\ (sure -> nfail s' = nfail s)
    end.

(*----------------------------------------------------------------------------*)
(* A program that uses the library: it keeps objects in variables 0, 1, 2, ...; each call that creates objects creates new variables
   for them.  The status of the argument checks, and everything that depends on values, is arbitrary *)
Inductive act :=
| New (kind type m n nzmax : Z) (shallow init : bool)
| Copy (args : option info) (ckind ctype akind : Z) (A : nat)
| Analyze (args : option info) (order : Z) (A : nat)
| Factorize (args : option info) (pivot n lnz unz : Z) (A An : nat)
| Solve (args : option info) (check : bool) (m nrhs : Z) (b A L U rhos An pinv : nat)
| Backslash (args : option info) (type order pivot : Z) (check : bool) (n nrhs lnz unz : Z) (A b : nat)
| FreeMatrix (v : nat) | FreeAnalysis (v : nat) | FreeArray (v : nat).
Definition do_call (F : fn) (nh : nat) (ins : list nat) : M unit := fun f s =>
  (call F (seq (length f) nh ++ ins) ;; ret tt) (f ++ repeat Nil nh) s.
Definition step (O : orc) (a : act) : M unit :=
  match a with
  | New kind type m n nzmax shallow init => do_call (SLIP_matrix_allocate O kind type m n nzmax shallow init) 1 []
  | Copy args ckind ctype akind A => do_call (SLIP_matrix_copy O args ckind ctype akind) 1 [A]
  | Analyze args order A => do_call (SLIP_LU_analyze O args order) 1 [A]
  | Factorize args pivot n lnz unz A An => do_call (SLIP_LU_factorize O args pivot n lnz unz) 4 [A; An]
  | Solve args check m nrhs b A L U rhos An pinv => do_call (SLIP_LU_solve O args check m nrhs) 1 [b; A; L; U; rhos; An; pinv]
  | Backslash args type order pivot check n nrhs lnz unz A b => do_call (SLIP_backslash O args type order pivot check n nrhs lnz unz) 1 [A; b]
  | FreeMatrix v => matrix_free v
  | FreeAnalysis v => analysis_free v
  | FreeArray v => free_arr v
  end.
Fixpoint run (O : orc) (l : list act) : M unit := match l with [] => ret tt | a :: l => step O a ;; run O l end.
Notation "f @ v" := (nth v f Nil) (at level 30).
Definition null_or (P : obj -> Prop) (x : obj) : Prop := x = Nil \/ P x.
(* if the argument checks succeed, the program has passed objects of the right sort (the library cannot recognise a pointer to something
   else), no object twice in one call, and an S whose estimates are at least n, as SLIP_LU_analyze computes them (C25, C29) *)
Definition passed (args : option info) (P : Prop) : Prop := args = None -> P.
Definition proper (f : list obj) (a : act) : Prop :=
  match a with
  | New _ _ _ _ _ _ _ => True
  | Copy args _ _ _ A => passed args (is_matrix (f @ A))
  | Analyze args _ A => passed args (is_matrix (f @ A))
  | Factorize args _ n lnz unz A An => passed args (is_matrix (f @ A) /\ is_analysis (f @ An) /\ n <= Z.max lnz 1 /\ n <= Z.max unz 1)
  | Solve args _ _ _ b A L U rhos An pinv =>
      passed args (Forall is_matrix [f @ b; f @ A; f @ L; f @ U; f @ rhos] /\ is_analysis (f @ An) /\ is_array (f @ pinv) /\ NoDup [b; A; L; U; rhos])
  | Backslash args _ _ _ _ n _ lnz unz A b =>
      passed args (is_matrix (f @ A) /\ is_matrix (f @ b) /\ A <> b /\ n <= Z.max lnz 1 /\ n <= Z.max unz 1)
  | FreeMatrix v => null_or is_matrix (f @ v)
  | FreeAnalysis v => null_or is_analysis (f @ v)
  | FreeArray v => null_or is_array (f @ v)
  end.
Fixpoint proper_run (O : orc) (l : list act) (f : list obj) (s : rst) : Prop :=
  match l with
  | [] => True
  | a :: l => proper f a /\ match step O a f s with Next _ f s => proper_run O l f s | _ => True end
  end.
