(* Specification vocabulary for programs that use GMP objects through the wrappers (model: MGmp.v, MMem.v) *)
From Coq Require Import String.
From Verif Require Import Base MSolve MMatrix MMem MemSpec MGmp.
Open Scope string_scope.
Open Scope Z_scope.

(* The GMP and MPFR manuals: these functions write the object given as first argument, and no other object. *)
Definition gmp_writes_first : list (string * otype) :=
  map (fun f => (f, OZ)) ["mpz_init"; "mpz_init2"; "mpz_set"; "mpz_set_ui"; "mpz_set_si"; "mpz_set_d"; "mpz_set_q"; "mpz_mul"; "mpz_add"; "mpz_addmul";
    "mpz_submul"; "mpz_divexact"; "mpz_gcd"; "mpz_lcm"; "mpz_abs"; "mpq_get_den"; "mpfr_get_z"] ++
  map (fun f => (f, OQ)) ["mpq_init"; "mpq_set"; "mpq_set_z"; "mpq_set_d"; "mpq_set_ui"; "mpq_set_si"; "mpq_set_num"; "mpq_set_den"; "mpq_abs";
    "mpq_add"; "mpq_mul"; "mpq_div"; "mpfr_get_q"] ++
  map (fun f => (f, OF)) ["mpfr_init2"; "mpfr_set"; "mpfr_set_d"; "mpfr_set_si"; "mpfr_set_q"; "mpfr_set_z"; "mpfr_mul"; "mpfr_mul_d"; "mpfr_div_d";
    "mpfr_ui_pow_ui"; "mpfr_log2"].
(* these write no object *)
Definition gmp_reads : list string :=
  ["gmp_vfprintf"; "gmp_vprintf"; "gmp_vasprintf"; "mpfr_vasprintf"; "mpfr_free_str"; "mpfr_vfprintf"; "mpfr_vprintf"; "mpfr_free_cache";
   "mpz_get_d"; "mpz_get_si"; "mpz_cmp"; "mpz_cmpabs"; "mpz_cmp_ui"; "mpz_sgn"; "mpz_sizeinbase"; "mpq_get_d"; "mpq_cmp"; "mpq_cmp_ui"; "mpq_equal";
   "mpq_sgn"; "mpfr_get_d"; "mpfr_get_si"; "mpfr_sgn"].
Definition written_type (f : string) : option otype :=
  match find (fun e => String.eqb f (fst e)) gmp_writes_first with Some (_, t) => Some t | None => None end.

(* the object that the wrapped GMP function writes *)
Definition destination (w : wrap) (args : list (list Z)) : list Z :=
  match written_type (w_gmp w) with Some _ => nth (nth 0 (w_call w) 0%nat) args [] | None => [] end.

(* the state of the program's GMP objects between two calls: every limb pointer is NULL, static, or a live block that no other
   limb pointer leads to *)
Definition exclusive (s : st) : Prop := forall f g, f <> g -> 0 < s_fld s f -> s_fld s f <> s_fld s g.
Definition objects_ok (s : st) : Prop :=
  idle s /\ s_nmalloc s = 0 /\ (forall f, sound_pointer s (s_fld s f)) /\ exclusive s.

(* What GMP may do in a call that writes the object dst: assign the limb pointers of dst (to blocks that no other limb pointer leads to), and
   free, reallocate or write blocks that do not belong to another object *)
Definition act_on (dst : list Z) (s : st) (a : act) : Prop :=
  match a with
  | GAlloc _ => True
  | GFree p | GRealloc p _ _ | GWrite p _ _ => forall g, ~ In g dst -> 0 < p -> s_fld s g <> p
  | GSet f p => In f dst /\ (0 < p -> forall g, g <> f -> s_fld s g <> p)
  end.
Fixpoint acts_on (E : env) (dst : list Z) (l : list act) (s : st) : Prop :=
  match l with
  | [] => True
  | a :: l => act_on dst s a /\ forall s', do_act E a s = Ret tt s' -> acts_on E dst l s'
  end.
(* a call with these properties; MPFR's caches are not objects of the program *)
Definition good_call (E : env) (w : wrap) (args : list (list Z)) (body : list act) (caches : st -> list Z) (s : st) : Prop :=
  In w wrappers /\ w_name w <> "SLIP_gmp_fscanf" /\
  legal_run E body (started (registered w args) s) /\ acts_on E (destination w args) body (started (registered w args) s) /\
  forall c sj, do_acts E body (started (registered w args) s) = Jump c sj ->
    caches_ok sj (caches sj) /\ forall f, ~ In (s_fld sj f) (caches sj).
Definition good_cmd (E : env) (c : cmd) (s : st) : Prop :=
  match c with Call w args body caches => good_call E w args body caches s | Clear _ => True end.
Fixpoint good_run (E : env) (p : list cmd) (s : st) : Prop :=
  match p with [] => True | c :: p => good_cmd E c s /\ forall r s', step E c s = Ret r s' -> good_run E p s' end.
(* the fields a step may change *)
Definition changes (c : cmd) : list Z := match c with Call w args _ _ => destination w args | Clear obj => obj end.
(* a live block to which no limb pointer leads *)
Definition loose (s : st) (p : Z) : Prop := user_block s p /\ forall f, s_fld s f <> p.
(* GMP gives back what it takes: a call leaves no new block without an owner - neither when it returns, nor (for the blocks that were
   there before it started) at the point where memory runs out *)
Definition tidy (E : env) (c : cmd) (s : st) : Prop :=
  match c with
  | Call w args body _ =>
    (forall s1, do_acts E body (started (registered w args) s) = Ret tt s1 -> forall p, loose s1 p -> loose s p) /\
    (forall k sj, do_acts E body (started (registered w args) s) = Jump k sj ->
       forall p b, s_heap sj p = Some b -> (b_id b < s_time s)%nat -> loose sj p -> loose s p)
  | Clear _ => True
  end.
Fixpoint tidy_run (E : env) (p : list cmd) (s : st) : Prop :=
  match p with [] => True | c :: p => tidy E c s /\ forall r s', step E c s = Ret r s' -> tidy_run E p s' end.
