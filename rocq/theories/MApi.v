(* Model of the user-callable drivers: SLIP_LU_analyze, SLIP_LU_factorize, SLIP_LU_solve, SLIP_backslash, with their argument
   checks.  Paths are relative to /repo/SLIP_LU/Source.  Memory suffices (the out-of-memory paths are in MMem.v).
   No proofs in this file. *)
From Verif Require Import Base MFactor MSolve MMatrix.
From Verif Require MColamd MAmd.
Open Scope Z_scope.

(* what the caller finds behind an output handle after the call *)
Inductive hdl (A : Type) := Kept | Null | Out (a : A).
Arguments Kept {A}. Arguments Null {A}. Arguments Out {A} a.
(* what an API function returns: a status and the handle *)
Inductive status := SOK | SErr (e : info).
Definition ret A : Type := res (status * hdl A).

(* early return in the argument checks: the handle is not touched *)
Definition reject {A} (e : info) : ret A := Ok (SErr e, Kept).
(* result of the body, after the handle was set to NULL *)
Definition finish {A} (m : res A) : ret A :=
  match m with Ok a => Ok (SOK, Out a) | Err e => Ok (SErr e, Null) | UB => UB | Fuel => Fuel end.

(* SLIP_REQUIRE_KIND, SLIP_REQUIRE: slip_internal.h:706-722 *)
Definition has_kind (A : option matrix) (kind : Z) : bool := match A with Some A => m_kind A =? kind | None => false end.
Definition has_kt (A : option matrix) (kind type : Z) : bool :=
  match A with Some A => (m_kind A =? kind) && (m_type A =? type) | None => false end.

(* SLIP_LU_analysis: Include/SLIP_LU.h:572-580 *)
Record analysis := mkS { s_q : list Z; s_lnz : Z; s_unz : Z }.

(* What the ordering libraries depend on.  amd_dense n: the value of (Int) (alpha * sqrt ((double) n)) with alpha = 10
   (AMD/Source/amd_2.c:602-604); dense n: DENSE_DEGREE (10, n) = (Int) MAX (16.0, 10 * sqrt ((double) n)) (COLAMD/Source/colamd.c:819,
   1105-1106); any value is allowed for both.  junk b: contents of the malloc'ed block b: S->q (0), Rp, Ri and S of AMD_order (1-3, MAmd.v), A2 of COLAMD (4).  COLAMD is in MColamd.v, AMD in MAmd.v. *)
Record ordlib := mkOL {
  ol_amd_dense : Z -> Z;
  ol_dense : Z -> Z;
  ol_junk : Z -> Z -> Z }.
Definition malloced (ol : ordlib) (b k : Z) : list Z := map (ol_junk ol b) (zseq 0 k).
(* the call of colamd_l, :139-141: default knobs; the return value is not tested.  COLAMD does not write to S->q before it
   returns FALSE. *)
Definition colamd_l (ol : ordlib) (n : Z) (q a2 : list Z) : res (list Z) :=
  match MColamd.colamd true n n (ol_dense ol n) (ol_dense ol n) a2 q with Err _ => Ok q | r => r end.

(* the call of amd_l_order, :97-103: default control parameters (aggressive absorption); the return value is not tested.  S->q is
   the output array P of AMD_2, whose first n cells it writes; nothing is written when AMD_order returns early, and Info [AMD_LNZ] is
   then -1 (AMD/Source/amd_order.c:57-93). *)
Definition amd_l_order (ol : ordlib) (n : Z) (Ap Ai : list Z) : res (list Z * Z) :=
  match MAmd.amd_order (ol_junk ol) true n (ol_amd_dense ol n) Ap Ai with
  | Ok (Some (P, lnz)) => Ok (P ++ [ol_junk ol 0 n], lnz)
  | Ok None | Err _ => Ok (malloced ol 0 (n + 1), -1)
  | UB => UB | Fuel => Fuel
  end.

Definition ORD_NONE := 0.  Definition ORD_COLAMD := 1.  Definition ORD_AMD := 2.

(* SLIP_LU_analyze.c:158-176.  (double) n*n and ceil (0.5*n*n) are modelled exactly (true for n < 2^26). *)
Definition fix_estimate (n lnz unz : Z) : Z * Z :=
  let '(lnz, unz) := if lnz >? n * n then ((n * n + 1) / 2, (n * n + 1) / 2) else (lnz, unz) in
  (if lnz <? n then lnz + n else lnz, if unz <? n then unz + n else unz).

(* SLIP_LU_analyze.c:52-183, after the argument checks *)
Definition analyze_core (ol : ordlib) (order : Z) (A : matrix) (anz : Z) : res analysis :=
  let n := m_n A in
  let* Ap := deref (m_p A) in
  let* st :=
    (if order =? ORD_NONE then                                             (* :80-88 *)
       Ok (zseq 0 (n + 1), 10 * anz)
     else if order =? ORD_AMD then                                         (* :95-110 *)
       let* Ai := deref (m_i A) in
       amd_l_order ol n Ap Ai
     else                                                                  (* :117-153 *)
       let* Ai := deref (m_i A) in
       let* q0 := memcpy (malloced ol 0 (n + 1)) Ap (n + 1) in
       let* a2 := memcpy (malloced ol 4 (2 * anz + 12 * (n + 1) + n)) Ai anz in
       let* q := colamd_l ol n q0 a2 in
       Ok (q, 10 * anz)) in
  let '(lnz, unz) := fix_estimate n (snd st) (snd st) in                   (* :162-175 *)
  Ok (mkS (fst st) lnz unz).

(* SLIP_LU_analyze.c:30-183 *)
Definition SLIP_LU_analyze (ol : ordlib) (inited handle : bool) (A : option matrix) (o : option options) : ret analysis :=
  if negb inited then reject SLIP_PANIC                                    (* :42 *)
  else if negb (has_kind A KCSC) then reject SLIP_INCORRECT_INPUT          (* :45 *)
  else match A with
  | None => reject SLIP_INCORRECT_INPUT
  | Some A =>
      if negb handle || negb (m_n A =? m_m A) then reject SLIP_INCORRECT_INPUT   (* :47-50 *)
      else
        match matrix_nnz inited (Some A) with
        | Ok anz => finish (analyze_core ol (opt_order o) A anz)
        | Err e => Ok (SErr e, Null) | UB => UB | Fuel => Fuel
        end
  end.

(* L, U, rhos, pinv as the caller receives them: SLIP_LU_factorize.c:176-188, 286-310 *)
Definition csc_matrix (n : Z) (p i x : list Z) : matrix :=
  mkM n n (zlen i) 0 KCSC TMPZ (Some p) (Some i) None (Some (VZ x)) 1%Q.
Definition dense_matrix (m n : Z) (x : list Z) : matrix :=
  mkM m n (Z.max (m * n) 1) 0 KDENSE TMPZ None None None (Some (VZ x)) 1%Q.
Record lu := mkLU { lu_L : matrix; lu_U : matrix; lu_rhos : matrix; lu_pinv : list Z }.
Definition lu_of (n : Z) (F : factors) : lu :=
  mkLU (csc_matrix n (fac_Lp F) (fac_Li F) (fac_Lx F)) (csc_matrix n (fac_Up F) (fac_Ui F) (fac_Ux F))
       (dense_matrix n 1 (fac_rhos F)) (fac_pinv F).

(* the mpz values of a matrix: A->x.mpz *)
Definition xmpz (A : matrix) : res (list Z) := match m_x A with Some (VZ l) => Ok l | _ => UB end.

(* SLIP_LU_factorize.c:42-323 *)
Definition SLIP_LU_factorize (env : gmp_env) (inited handles : bool) (A : option matrix) (An : option analysis)
    (o : option options) : ret lu :=
  if negb inited then reject SLIP_PANIC                                    (* :61 *)
  else if negb (has_kt A KCSC TMPZ) then reject SLIP_INCORRECT_INPUT       (* :63 *)
  else match matrix_nnz inited A with                                      (* :64 *)
  | Ok anz =>
      match A, An with
      | Some A, Some An =>
          if negb handles || (anz <? 0) then reject SLIP_INCORRECT_INPUT   (* :66-69 *)
          else finish (
            let* Ap := deref (m_p A) in let* Ai := deref (m_i A) in let* Ax := xmpz A in
            let* F := factorize_core env (opt_pivot o) (opt_tol o) (m_n A) Ap Ai Ax (s_q An) (s_lnz An) (s_unz An) in
            Ok (lu_of (m_n A) F))
      | _, _ => reject SLIP_INCORRECT_INPUT
      end
  | Err e => reject e | UB => UB | Fuel => Fuel
  end.

(* SLIP_LU_solve.c:53-175 *)
Definition SLIP_LU_solve (inited handle : bool) (b A L U rhos : option matrix) (An : option analysis) (pinv : option (list Z))
    (o : option options) : ret matrix :=
  if negb inited then reject SLIP_PANIC                                    (* :74 *)
  else if negb (has_kt b KDENSE TMPZ && has_kt A KCSC TMPZ && has_kt L KCSC TMPZ && has_kt U KCSC TMPZ && has_kt rhos KDENSE TMPZ)
  then reject SLIP_INCORRECT_INPUT                                         (* :76-80 *)
  else match b, A, L, U, rhos, An, pinv with
  | Some b, Some A, Some L, Some U, Some rhos, Some An, Some pinv =>
      if negb handle || negb (m_m L =? m_m A) || negb (m_n L =? m_m U) || negb (m_n U =? m_n A)
         || negb (m_n A =? m_m A) || negb (m_m A =? m_m b)
      then reject SLIP_INCORRECT_INPUT                                     (* :82-86 *)
      else finish (
        let* Ap := deref (m_p A) in let* Ai := deref (m_i A) in let* Ax := xmpz A in
        let* Lp := deref (m_p L) in let* Li := deref (m_i L) in let* Lx := xmpz L in
        let* Up := deref (m_p U) in let* Ui := deref (m_i U) in let* Ux := xmpz U in
        let* rh := xmpz rhos in let* bx := xmpz b in
        let* X := solve_core (m_n L) (m_m b) (m_n b) Ap Ai Ax (m_scale A) bx (m_scale b)
                    (mkFac Lp Li Lx Up Ui Ux rh pinv) (s_q An) (opt_check o) in
        Ok (mkM (m_m b) (m_n b) (zlen X) 0 KDENSE TMPQ None None None (Some (VQ X)) 1%Q))
  | _, _, _, _, _, _, _ => reject SLIP_INCORRECT_INPUT
  end.

(* SLIP_CHECK on the result of a callee inside a driver *)
Definition call {A B} (r : ret A) (k : A -> res B) : res B :=
  match r with
  | Ok (SOK, Out a) => k a
  | Ok (SErr e, _) => Err e
  | Ok (SOK, _) => UB
  | Err e => Err e | UB => UB | Fuel => Fuel
  end.

(* SLIP_backslash.c:47-135 *)
Definition SLIP_backslash (env : gmp_env) (ol : ordlib) (addr : Z -> Z) (inited handle : bool) (type : Z) (A b : option matrix)
    (o : option options) : ret matrix :=
  if negb inited then reject SLIP_PANIC                                    (* :64 *)
  else if negb handle then reject SLIP_INCORRECT_INPUT                     (* :66-69 *)
  else if negb (type =? TMPQ) && negb (type =? TDBL) && negb (type =? TMPFR) then Ok (SErr SLIP_INCORRECT_INPUT, Null) (* :72-75 *)
  else if negb (has_kt A KCSC TMPZ) || negb (has_kt b KDENSE TMPZ) then Ok (SErr SLIP_INCORRECT_INPUT, Null)          (* :77-78 *)
  else finish (
    call (SLIP_LU_analyze ol inited true A o) (fun An =>                    (* :91 *)
    call (SLIP_LU_factorize env inited true A (Some An) o) (fun F =>        (* :97 *)
    call (SLIP_LU_solve inited true b A (Some (lu_L F)) (Some (lu_U F)) (Some (lu_rhos F)) (Some An) (Some (lu_pinv F)) o) (fun x => (* :103 *)
    if type =? TMPQ then Ok x                                              (* :115-118 *)
    else matrix_copy o addr inited true KDENSE type (Some x))))).          (* :120-125 *)
