(* SLIP_LU_analyze with the ordering SLIP_AMD when AMD itself may run out of memory: AMD_order (AMD/Source/amd_order.c) with its five
   allocations, and the caller, which does not look at its status.  The allocations of SLIP_LU_analyze itself (S, S->q, A2) are in MRes.v;
   here they succeed.  No proofs in this file. *)
From Verif Require Import Base MFactor MSolve MMatrix MApi.
From Verif Require Import MColamd MAmd.
Open Scope Z_scope.

(* which of the allocations of AMD_order succeed: amd_order.c:92, :93, :109, :110, :163 (:163 also fails when the size is too large) *)
Record amem := mkAM { am_Len : bool; am_Pinv : bool; am_Rp : bool; am_Ri : bool; am_S : bool }.

(* what AMD_aat leaves in its workspace Tp, which is the output array P of AMD_order: amd_aat.c:59-126 (:129-141 only read it) *)
Definition aat_left (n : Z) (Ap Ai P : list Z) : res (list Z) :=
  let* st := tr_main (fun a b Len => let* Len := inc Len a 1 in inc Len b 1) n Ap Ai (mk n 0) P in Ok (snd st).

(* AMD_order, amd_order.c:20-199: the contents of P, and Info [AMD_LNZ], which is EMPTY (-1) unless AMD_2 sets it (:42-45).  junk: as in
   MAmd.amd_order. *)
Definition amd_order_mem (mem : amem) (junk : Z -> Z -> Z) (aggressive : bool) (n dense0 : Z) (Ap Ai : list Z) : res (list Z * Z) :=
  let P0 := block (junk 0) 0 n in
  if n <? 0 then Ok (P0, -1)                                                                  (* :52-56 *)
  else if n =? 0 then Ok (P0, -1)                                                             (* :58-61 *)
  else
    let* nz := get Ap n in
    if nz <? 0 then Ok (P0, -1)                                                               (* :68-72 *)
    else
      match amd_valid n n Ap Ai with
      | Err _ => Ok (P0, -1)                                                                  (* :82-89 *)
      | UB => UB | Fuel => Fuel
      | Ok jumbled =>
          if negb (am_Len mem) || negb (am_Pinv mem) then Ok (P0, -1)                         (* :91-103 *)
          else if jumbled && (negb (am_Rp mem) || negb (am_Ri mem)) then Ok (P0, -1)          (* :105-122 *)
          else
            let* st := (if jumbled then amd_preprocess n Ap Ai (block (junk 1) 0 (n + 1)) (block (junk 2) 0 nz) else Ok (Ap, Ai)) in
            let '(Cp, Ci) := st in
            let* st := amd_aat n Cp Ci P0 in                                                  (* :141 *)
            let '(Len, nzaat) := st in
            if negb (am_S mem) then let* P := aat_left n Cp Ci P0 in Ok (P, -1)               (* :149-175 *)
            else
              let slen := nzaat + nzaat / 5 + 7 * n in
              let* st := amd_build n (block (junk 3) 0 n) (block (junk 3) (6 * n) (slen - 6 * n)) (block (junk 3) (5 * n) n) Cp Ci Len in
              let '(Pe, Iw, pfree) := st in
              amd_2 aggressive n dense0 Pe Iw Len pfree
      end.

(* SLIP_LU_analyze.c:95-110: the status is dropped; S->q has n+1 cells, of which AMD_order gets the first n *)
Definition amd_l_order_mem (mem : amem) (ol : ordlib) (n : Z) (Ap Ai : list Z) : res (list Z * Z) :=
  let* r := amd_order_mem mem (ol_junk ol) true n (ol_amd_dense ol n) Ap Ai in
  Ok (fst r ++ [ol_junk ol 0 n], snd r).

(* SLIP_LU_analyze.c:52-183, with the call of AMD above *)
Definition analyze_core_mem (mem : amem) (ol : ordlib) (order : Z) (A : matrix) (anz : Z) : res analysis :=
  if order =? ORD_AMD then
    let n := m_n A in
    let* Ap := deref (m_p A) in
    let* Ai := deref (m_i A) in
    let* st := amd_l_order_mem mem ol n Ap Ai in
    let '(lnz, unz) := fix_estimate n (snd st) (snd st) in
    Ok (mkS (fst st) lnz unz)
  else analyze_core ol order A anz.

(* SLIP_LU_analyze.c:30-183 *)
Definition SLIP_LU_analyze_mem (mem : amem) (ol : ordlib) (inited handle : bool) (A : option matrix) (o : option options) : ret analysis :=
  if negb inited then reject SLIP_PANIC
  else if negb (has_kind A KCSC) then reject SLIP_INCORRECT_INPUT
  else match A with
  | None => reject SLIP_INCORRECT_INPUT
  | Some A =>
      if negb handle || negb (m_n A =? m_m A) then reject SLIP_INCORRECT_INPUT
      else
        match matrix_nnz inited (Some A) with
        | Ok anz => finish (analyze_core_mem mem ol (opt_order o) A anz)
        | Err e => Ok (SErr e, Null) | UB => UB | Fuel => Fuel
        end
  end.

(* SLIP_backslash.c:47-135, with the analysis above *)
Definition SLIP_backslash_mem (mem : amem) (env : gmp_env) (ol : ordlib) (addr : Z -> Z) (inited handle : bool) (type : Z) (A b : option matrix)
    (o : option options) : ret matrix :=
  if negb inited then reject SLIP_PANIC
  else if negb handle then reject SLIP_INCORRECT_INPUT
  else if negb (type =? TMPQ) && negb (type =? TDBL) && negb (type =? TMPFR) then Ok (SErr SLIP_INCORRECT_INPUT, Null)
  else if negb (has_kt A KCSC TMPZ) || negb (has_kt b KDENSE TMPZ) then Ok (SErr SLIP_INCORRECT_INPUT, Null)
  else finish (
    call (SLIP_LU_analyze_mem mem ol inited true A o) (fun An =>
    call (SLIP_LU_factorize env inited true A (Some An) o) (fun F =>
    call (SLIP_LU_solve inited true b A (Some (lu_L F)) (Some (lu_U F)) (Some (lu_rhos F)) (Some An) (Some (lu_pinv F)) o) (fun x =>
    if type =? TMPQ then Ok x
    else matrix_copy o addr inited true KDENSE type (Some x))))).
