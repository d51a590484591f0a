(* Model of the use of GMP objects by the library and its users: the wrappers of SLIP_gmp.c (which GMP function each calls, with which of
   its parameters, and which object it registers), SLIP_MPZ_CLEAR / SLIP_MPQ_CLEAR / SLIP_MPFR_CLEAR, and sequences of such calls.
   Paths are relative to /repo/SLIP_LU/Source.  What a GMP function does to memory is a sequence of acts (MMem.v); its arithmetic is
   not modelled here.  Simplification: the rounding mode and other plain values are parameters of type OV.  No proofs in this file. *)
From Coq Require Import String.
From Verif Require Import Base MSolve MMatrix MMem.
Open Scope string_scope.
Open Scope Z_scope.

(* mpz_t, mpq_t, mpfr_t, anything else *)
Inductive otype := OZ | OQ | OF | OV.
(* w_params: the named parameters; w_varargs: "..." follows; w_arch: the macro used, SLIP_GMPZ/GMPQ/GMPFR_WRAPPER_START (parameter), or
   None for SLIP_GMP_WRAPPER_START; w_gmp: the GMP/MPFR function called; w_call: which parameters it is given, in order; w_result: the
   parameter through which its return value is handed out *)
Record wrap := mkW { w_name : string; w_params : list otype; w_varargs : bool; w_arch : option (otype * nat); w_gmp : string;
  w_call : list nat; w_result : option nat }.

(* SLIP_gmp.c:368-1709, one line per wrapper *)
Definition wrappers : list wrap := [
  mkW "SLIP_gmp_fprintf" [OV; OV] true (None) "gmp_vfprintf" [] (None) ; (* :368-388 *)
  mkW "SLIP_gmp_printf" [OV] true (None) "gmp_vprintf" [] (None) ; (* :400-419 *)
  mkW "SLIP_gmp_asprintf" [OV; OV] true (None) "gmp_vasprintf" [] (None) ; (* :435-450 *)
  mkW "SLIP_gmp_fscanf" [OV; OV] true (None) "gmp_vfscanf" [] (None) ; (* :461-483 *)
  mkW "SLIP_mpfr_asprintf" [OV; OV] true (None) "mpfr_vasprintf" [] (None) ; (* :495-510 *)
  mkW "SLIP_mpfr_free_str" [OV] false (None) "mpfr_free_str" [0]%nat (None) ; (* :519-530 *)
  mkW "SLIP_mpfr_fprintf" [OV; OV] true (None) "mpfr_vfprintf" [] (None) ; (* :543-567 *)
  mkW "SLIP_mpfr_printf" [OV] true (None) "mpfr_vprintf" [] (None) ; (* :580-603 *)
  mkW "SLIP_mpz_init" [OZ] false (Some (OZ, 0%nat)) "mpz_init" [0]%nat (None) ; (* :617-626 *)
  mkW "SLIP_mpz_init2" [OZ; OV] false (Some (OZ, 0%nat)) "mpz_init2" [0; 1]%nat (None) ; (* :634-644 *)
  mkW "SLIP_mpz_set" [OZ; OZ] false (Some (OZ, 0%nat)) "mpz_set" [0; 1]%nat (None) ; (* :652-662 *)
  mkW "SLIP_mpz_set_ui" [OZ; OV] false (Some (OZ, 0%nat)) "mpz_set_ui" [0; 1]%nat (None) ; (* :670-680 *)
  mkW "SLIP_mpz_set_si" [OZ; OV] false (Some (OZ, 0%nat)) "mpz_set_si" [0; 1]%nat (None) ; (* :688-698 *)
  mkW "SLIP_mpz_set_d" [OZ; OV] false (Some (OZ, 0%nat)) "mpz_set_d" [0; 1]%nat (None) ; (* :707-717 *)
  mkW "SLIP_mpz_get_d" [OV; OZ] false (None) "mpz_get_d" [1]%nat (Some 0%nat) ; (* :726-736 *)
  mkW "SLIP_mpz_get_si" [OV; OZ] false (None) "mpz_get_si" [1]%nat (Some 0%nat) ; (* :744-754 *)
  mkW "SLIP_mpz_set_q" [OZ; OQ] false (Some (OZ, 0%nat)) "mpz_set_q" [0; 1]%nat (None) ; (* :762-772 *)
  mkW "SLIP_mpz_mul" [OZ; OZ; OZ] false (Some (OZ, 0%nat)) "mpz_mul" [0; 1; 2]%nat (None) ; (* :780-791 *)
  mkW "SLIP_mpz_add" [OZ; OZ; OZ] false (Some (OZ, 0%nat)) "mpz_add" [0; 1; 2]%nat (None) ; (* :802-813 *)
  mkW "SLIP_mpz_addmul" [OZ; OZ; OZ] false (Some (OZ, 0%nat)) "mpz_addmul" [0; 1; 2]%nat (None) ; (* :825-836 *)
  mkW "SLIP_mpz_submul" [OZ; OZ; OZ] false (Some (OZ, 0%nat)) "mpz_submul" [0; 1; 2]%nat (None) ; (* :847-858 *)
  mkW "SLIP_mpz_divexact" [OZ; OZ; OZ] false (Some (OZ, 0%nat)) "mpz_divexact" [0; 1; 2]%nat (None) ; (* :866-877 *)
  mkW "SLIP_mpz_gcd" [OZ; OZ; OZ] false (Some (OZ, 0%nat)) "mpz_gcd" [0; 1; 2]%nat (None) ; (* :885-896 *)
  mkW "SLIP_mpz_lcm" [OZ; OZ; OZ] false (Some (OZ, 0%nat)) "mpz_lcm" [0; 1; 2]%nat (None) ; (* :904-915 *)
  mkW "SLIP_mpz_abs" [OZ; OZ] false (Some (OZ, 0%nat)) "mpz_abs" [0; 1]%nat (None) ; (* :923-933 *)
  mkW "SLIP_mpz_cmp" [OV; OZ; OZ] false (None) "mpz_cmp" [1; 2]%nat (Some 0%nat) ; (* :942-953 *)
  mkW "SLIP_mpz_cmpabs" [OV; OZ; OZ] false (None) "mpz_cmpabs" [1; 2]%nat (Some 0%nat) ; (* :962-973 *)
  mkW "SLIP_mpz_cmp_ui" [OV; OZ; OV] false (None) "mpz_cmp_ui" [1; 2]%nat (Some 0%nat) ; (* :981-992 *)
  mkW "SLIP_mpz_sgn" [OV; OZ] false (None) "mpz_sgn" [1]%nat (Some 0%nat) ; (* :1000-1010 *)
  mkW "SLIP_mpz_sizeinbase" [OV; OZ; OV] false (None) "mpz_sizeinbase" [1; 2]%nat (Some 0%nat) ; (* :1018-1029 *)
  mkW "SLIP_mpq_init" [OQ] false (Some (OQ, 0%nat)) "mpq_init" [0]%nat (None) ; (* :1043-1052 *)
  mkW "SLIP_mpq_set" [OQ; OQ] false (Some (OQ, 0%nat)) "mpq_set" [0; 1]%nat (None) ; (* :1060-1070 *)
  mkW "SLIP_mpq_set_z" [OQ; OZ] false (Some (OQ, 0%nat)) "mpq_set_z" [0; 1]%nat (None) ; (* :1078-1088 *)
  mkW "SLIP_mpq_set_d" [OQ; OV] false (Some (OQ, 0%nat)) "mpq_set_d" [0; 1]%nat (None) ; (* :1096-1106 *)
  mkW "SLIP_mpq_set_ui" [OQ; OV; OV] false (Some (OQ, 0%nat)) "mpq_set_ui" [0; 1; 2]%nat (None) ; (* :1116-1127 *)
  mkW "SLIP_mpq_set_si" [OQ; OV; OV] false (Some (OQ, 0%nat)) "mpq_set_si" [0; 1; 0]%nat (None) ; (* :1135-1146 *)
  mkW "SLIP_mpq_set_num" [OQ; OZ] false (Some (OQ, 0%nat)) "mpq_set_num" [0; 1]%nat (None) ; (* :1154-1164 *)
  mkW "SLIP_mpq_set_den" [OQ; OZ] false (Some (OQ, 0%nat)) "mpq_set_den" [0; 1]%nat (None) ; (* :1172-1182 *)
  mkW "SLIP_mpq_get_den" [OZ; OQ] false (Some (OZ, 0%nat)) "mpq_get_den" [0; 1]%nat (None) ; (* :1190-1200 *)
  mkW "SLIP_mpq_get_d" [OV; OQ] false (None) "mpq_get_d" [1]%nat (Some 0%nat) ; (* :1208-1218 *)
  mkW "SLIP_mpq_abs" [OQ; OQ] false (Some (OQ, 0%nat)) "mpq_abs" [0; 1]%nat (None) ; (* :1226-1236 *)
  mkW "SLIP_mpq_add" [OQ; OQ; OQ] false (Some (OQ, 0%nat)) "mpq_add" [0; 1; 2]%nat (None) ; (* :1244-1255 *)
  mkW "SLIP_mpq_mul" [OQ; OQ; OQ] false (Some (OQ, 0%nat)) "mpq_mul" [0; 1; 2]%nat (None) ; (* :1262-1273 *)
  mkW "SLIP_mpq_div" [OQ; OQ; OQ] false (Some (OQ, 0%nat)) "mpq_div" [0; 1; 2]%nat (None) ; (* :1281-1292 *)
  mkW "SLIP_mpq_cmp" [OV; OQ; OQ] false (None) "mpq_cmp" [1; 2]%nat (Some 0%nat) ; (* :1301-1312 *)
  mkW "SLIP_mpq_cmp_ui" [OV; OQ; OV; OV] false (None) "mpq_cmp_ui" [1; 2; 3]%nat (Some 0%nat) ; (* :1321-1333 *)
  mkW "SLIP_mpq_equal" [OV; OQ; OQ] false (None) "mpq_equal" [1; 2]%nat (Some 0%nat) ; (* :1342-1353 *)
  mkW "SLIP_mpq_sgn" [OV; OQ] false (None) "mpq_sgn" [1]%nat (Some 0%nat) ; (* :1361-1371 *)
  mkW "SLIP_mpfr_init2" [OF; OV] false (Some (OF, 0%nat)) "mpfr_init2" [0; 1]%nat (None) ; (* :1385-1395 *)
  mkW "SLIP_mpfr_set" [OF; OF; OV] false (Some (OF, 0%nat)) "mpfr_set" [0; 1; 2]%nat (None) ; (* :1403-1414 *)
  mkW "SLIP_mpfr_set_d" [OF; OV; OV] false (Some (OF, 0%nat)) "mpfr_set_d" [0; 1; 2]%nat (None) ; (* :1422-1433 *)
  mkW "SLIP_mpfr_set_si" [OF; OV; OV] false (Some (OF, 0%nat)) "mpfr_set_si" [0; 1; 2]%nat (None) ; (* :1442-1453 *)
  mkW "SLIP_mpfr_set_q" [OF; OQ; OV] false (Some (OF, 0%nat)) "mpfr_set_q" [0; 1; 2]%nat (None) ; (* :1461-1472 *)
  mkW "SLIP_mpfr_set_z" [OF; OZ; OV] false (Some (OF, 0%nat)) "mpfr_set_z" [0; 1; 2]%nat (None) ; (* :1480-1491 *)
  mkW "SLIP_mpfr_get_z" [OZ; OF; OV] false (Some (OZ, 0%nat)) "mpfr_get_z" [0; 1; 2]%nat (None) ; (* :1499-1510 *)
  mkW "SLIP_mpfr_get_q" [OQ; OF; OV] false (Some (OQ, 0%nat)) "mpfr_get_q" [0; 1]%nat (None) ; (* :1518-1529 *)
  mkW "SLIP_mpfr_get_d" [OV; OF; OV] false (None) "mpfr_get_d" [1; 2]%nat (Some 0%nat) ; (* :1537-1548 *)
  mkW "SLIP_mpfr_get_si" [OV; OF; OV] false (None) "mpfr_get_si" [1; 2]%nat (Some 0%nat) ; (* :1556-1567 *)
  mkW "SLIP_mpfr_mul" [OF; OF; OF; OV] false (Some (OF, 0%nat)) "mpfr_mul" [0; 1; 2; 3]%nat (None) ; (* :1575-1587 *)
  mkW "SLIP_mpfr_mul_d" [OF; OF; OV; OV] false (Some (OF, 0%nat)) "mpfr_mul_d" [0; 1; 2; 3]%nat (None) ; (* :1597-1609 *)
  mkW "SLIP_mpfr_div_d" [OF; OF; OV; OV] false (Some (OF, 0%nat)) "mpfr_div_d" [0; 1; 2; 3]%nat (None) ; (* :1619-1631 *)
  mkW "SLIP_mpfr_ui_pow_ui" [OF; OV; OV; OV] false (Some (OF, 0%nat)) "mpfr_ui_pow_ui" [0; 1; 2; 3]%nat (None) ; (* :1641-1653 *)
  mkW "SLIP_mpfr_log2" [OF; OF; OV] false (Some (OF, 0%nat)) "mpfr_log2" [0; 1; 2]%nat (None) ; (* :1664-1675 *)
  mkW "SLIP_mpfr_sgn" [OV; OF] false (None) "mpfr_sgn" [1]%nat (Some 0%nat) ; (* :1685-1695 *)
  mkW "SLIP_mpfr_free_cache" [] false (None) "mpfr_free_cache" []%nat (None) (* :1703-1709 *) ].

(* an object is the list of its limb-pointer fields: one for mpz_t and mpfr_t, numerator and denominator for mpq_t, none for a value *)
Definition registered (w : wrap) (args : list (list Z)) : option (list Z) :=
  match w_arch w with Some (_, i) => Some (nth i args []) | None => None end.

(* SLIP_MPZ_CLEAR, SLIP_MPFR_CLEAR: slip_internal.h:299-324; mpz_clear and mpfr_clear free the limbs unless they are static storage.
   The fields _mp_size, _mp_alloc, ... are not modelled. *)
Definition clear_field (f : Z) : M unit :=
  do s <- getst;
  if s_fld s f =? 0 then ret tt
  else (if 0 <? s_fld s f then slip_gmp_free (s_fld s f) else ret tt) ;; modst (fun s => set_fld (put (s_fld s) f 0) s).
(* SLIP_MPQ_CLEAR: slip_internal.h:308-312 clears numerator, then denominator *)
Fixpoint clear (obj : list Z) : M unit := match obj with [] => ret tt | f :: l => clear_field f ;; clear l end.

(* a step of a program: a wrapped call (wrapper, arguments, what GMP does, what mpfr_free_cache frees if it fails) or a clear *)
Inductive cmd := Call (w : wrap) (args : list (list Z)) (body : list act) (caches : st -> list Z) | Clear (obj : list Z).
Definition step (E : env) (c : cmd) : M (option info) :=
  match c with
  | Call w args body caches => wrapper E (registered w args) body caches
  | Clear obj => clear obj ;; ret None
  end.
Fixpoint run (E : env) (p : list cmd) : M (list (option info)) :=
  match p with
  | [] => ret []
  | c :: p => do r <- step E c; do l <- run E p; ret (r :: l)
  end.
