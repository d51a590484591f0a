(* SLIP_LU_factorize once more, with uninitialised memory made explicit: what malloc and realloc return (workspace of
   SLIP_LU_factorize.c:97-117, the new cells of L->i and U->i in slip_sparse_realloc.c:41-42) are arbitrary numbers, given by a
   record of type uninit.  With all numbers 0 this is the model of MFactor.v and MApi.v.  No proofs in this file. *)
From Verif Require Import Base MFactor MSolve MMatrix MApi.
Set Implicit Arguments.
Open Scope Z_scope.

(* contents of fresh memory: cell i of each array; for L->i and U->i, cell i of the cells added in step k *)
Record uninit := mkU { u_pinv : Z -> Z; u_pivs : Z -> Z; u_h : Z -> Z; u_xi : Z -> Z; u_rowp : Z -> Z; u_Li : Z -> Z -> Z; u_Ui : Z -> Z -> Z }.
Definition fresh (f : Z -> Z) (k : Z) : list Z := map f (zseq 0 k).

(* slip_sparse_realloc.c:35-58 *)
Definition sparse_realloc_u (f : Z -> Z) (Mi Mx : list Z) : list Z * list Z := (Mi ++ fresh f (zlen Mi), Mx ++ mk (zlen Mx) 0).

(* SLIP_LU_factorize.c:189-271, one iteration *)
Definition factor_step_u (u : uninit) (env : gmp_env) (order : Z) (tol : Q) (n : Z) (Ap Ai Ax q : list Z) (k : Z) (s : fstate) : res fstate :=
  let* Lp := set (F_Lp s) k (F_lnz s) in                                  (* :192 *)
  let* Up := set (F_Up s) k (F_unz s) in                                  (* :193 *)
  let* col := get q k in                                                  (* :194 *)
  let '(Li, Lx) := if F_lnz s + n >? zlen (F_Li s) then sparse_realloc_u (u_Li u k) (F_Li s) (F_Lx s) else (F_Li s, F_Lx s) in (* :201-205 *)
  let '(Ui, Ux) := if F_unz s + n >? zlen (F_Ui s) then sparse_realloc_u (u_Ui u k) (F_Ui s) (F_Ux s) else (F_Ui s, F_Ux s) in (* :206-210 *)
  let* ts := slip_ref_triangular_solve n Lp Li Lx Ap Ai Ax k (F_xi s) q (F_rhos s) (F_pinv s) (F_rowp s) (F_h s) (F_x s) in
  let '(top, xi, Lp, x, h) := ts in                                       (* :215-220 *)
  let* gp := slip_get_pivot env order tol x (F_pivs s) n top xi col k (F_rhos s) (F_pinv s) (F_rowp s) in
  let '(piv, rhos, pinv, rowp, pivs) := gp in                             (* :225-226 *)
  let* st := for_ top n (fun j st => push_LU k xi pinv x j st) (Li, Lx, Ui, Ux, F_lnz s, F_unz s) in (* :231-270 *)
  let '(Li, Lx, Ui, Ux, lnz, unz) := st in
  Ok (mkF Lp Li Lx Up Ui Ux lnz unz pinv rowp pivs h xi x rhos).

(* SLIP_LU_factorize.c:97-183 *)
Definition factor_init_u (u : uninit) (n lnz0 unz0 : Z) : res fstate :=
  let* st := for_ 0 n (fun i '(h, pivs, pinv, rowp) =>                     (* :127-134 *)
    let* h := set h i (-1) in let* pivs := set pivs i (-1) in
    let* pinv := set pinv i i in let* rowp := set rowp i i in Ok (h, pivs, pinv, rowp))
    (fresh (u_h u) n, fresh (u_pivs u) n, fresh (u_pinv u) n, fresh (u_rowp u) n) in
  let '(h, pivs, pinv, rowp) := st in
  Ok (mkF (mk (n + 1) 0) (mk (Z.max lnz0 1) 0) (mk (Z.max lnz0 1) 0)
          (mk (n + 1) 0) (mk (Z.max unz0 1) 0) (mk (Z.max unz0 1) 0) 0 0
          pinv rowp pivs h (fresh (u_xi u) (2 * n)) (mk n 0) (mk n 0)).

(* SLIP_LU_factorize.c:97-323 after the argument checks *)
Definition factorize_core_u (u : uninit) (env : gmp_env) (order : Z) (tol : Q) (n : Z) (Ap Ai Ax q : list Z) (lnz0 unz0 : Z) : res factors :=
  let* s0 := factor_init_u u n lnz0 unz0 in
  let* s := for_ 0 n (fun k s => factor_step_u u env order tol n Ap Ai Ax q k s) s0 in
  let* Lp := set (F_Lp s) n (F_lnz s) in                                  (* :274 *)
  let* Up := set (F_Up s) n (F_unz s) in                                  (* :275 *)
  let Li := firstn (Z.to_nat (F_lnz s)) (F_Li s) in                       (* :286 *)
  let Lx := firstn (Z.to_nat (F_lnz s)) (F_Lx s) in
  let Ui := firstn (Z.to_nat (F_unz s)) (F_Ui s) in                       (* :288 *)
  let Ux := firstn (Z.to_nat (F_unz s)) (F_Ux s) in
  let* Li := for_ 0 (F_lnz s) (fun i Li => let* a := get Li i in let* b := get (F_pinv s) a in set Li i b) Li in (* :295-298 *)
  let* Ui := for_ 0 (F_unz s) (fun i Ui => let* a := get Ui i in let* b := get (F_pinv s) a in set Ui i b) Ui in (* :300-303 *)
  Ok (mkFac Lp Li Lx Up Ui Ux (F_rhos s) (F_pinv s)).

(* SLIP_LU_factorize.c:42-323 *)
Definition SLIP_LU_factorize_u (u : uninit) (env : gmp_env) (inited handles : bool) (A : option matrix) (An : option analysis)
    (o : option options) : ret lu :=
  if negb inited then reject SLIP_PANIC                                    (* :61 *)
  else if negb (has_kt A KCSC TMPZ) then reject SLIP_INCORRECT_INPUT       (* :63 *)
  else match matrix_nnz inited A with                                      (* :64 *)
  | Ok anz =>
      match A, An with
      | Some A, Some An =>
          if negb handles || (anz <? 0) then reject SLIP_INCORRECT_INPUT   (* :66-69 *)
          else finish (
            let* Ap := deref (m_p A) in let* Ai := deref (m_i A) in let* Ax := xmpz A in
            let* F := factorize_core_u u env (opt_pivot o) (opt_tol o) (m_n A) Ap Ai Ax (s_q An) (s_lnz An) (s_unz An) in
            Ok (lu_of (m_n A) F))
      | _, _ => reject SLIP_INCORRECT_INPUT
      end
  | Err e => reject e | UB => UB | Fuel => Fuel
  end.
