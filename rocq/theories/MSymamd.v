(* SYMAMD (COLAMD/Source/colamd.c:1112-1421), the ordering for symmetric matrices of the bundled COLAMD library, and COLAMD_recommended
   (:990-1057), here for symamd_l: Int = SuiteSparse_long (64 bits).  Integers are unbounded in symamd itself, size_t arithmetic in
   COLAMD_recommended is modulo 2^64.  allocate is calloc: the array is zero; which of the three calls succeed is a parameter.
   Of stats, what describes an error (COLAMD_STATUS, COLAMD_INFO1, COLAMD_INFO2) is modelled; stats itself is present.  *)
From Verif Require Import Base MColamd.
Set Implicit Arguments.
Open Scope Z_scope.

(*----------------------------------------------------------------------------*)
(* :1006-1011 *)
Definition t_add (a b : Z) (ok : bool) : Z * bool :=
  let s := (a + b) mod 2 ^ 64 in
  let ok := ok && (s >=? Z.max a b) in ((if ok then s else 0), ok).
(* :1013-1022 *)
Fixpoint t_mult_loop (k : nat) (a s : Z) (ok : bool) : Z * bool :=
  match k with O => (s, ok) | S k => let '(s, ok) := t_add s a ok in t_mult_loop k a s ok end.
Definition t_mult (a k : Z) (ok : bool) : Z * bool := t_mult_loop (Z.to_nat k) a 0 ok.
(* COLAMD_C, COLAMD_R, :1024-1029; sizeof (Colamd_Col) = 48, sizeof (Colamd_Row) = 32, sizeof (Int) = 8 *)
Definition size_of (size n : Z) (ok : bool) : Z * bool :=
  let '(x, ok) := t_add n 1 ok in let '(y, ok) := t_mult x size ok in (y / 8, ok).
(* COLAMD_recommended, :1032-1057; Int_MAX = 2^63 - 1 *)
Definition recommended (nnz n_row n_col : Z) : Z :=
  if (nnz <? 0) || (n_row <? 0) || (n_col <? 0) then 0
  else
    let '(s, ok) := t_mult nnz 2 true in
    let '(c, ok) := size_of 48 n_col ok in
    let '(r, ok) := size_of 32 n_row ok in
    let '(s, ok) := t_add s c ok in
    let '(s, ok) := t_add s r ok in
    let '(s, ok) := t_add s n_col ok in
    let '(s, ok) := t_add s (nnz / 5) ok in
    if ok && (s <? 2 ^ 63 - 1) then s else 0.

(*----------------------------------------------------------------------------*)
(* stats [COLAMD_STATUS], [COLAMD_INFO1], [COLAMD_INFO2] when FALSE is returned *)
Inductive sfail :=
  | A_not_present | p_not_present | ncol_negative (n : Z) | nnz_negative (nnz : Z) | p0_nonzero (p0 : Z) | out_of_memory
  | col_length_negative (j length : Z) | row_index_out_of_bounds (j i : Z).
Inductive sblock := Bcount | Bmark | BM.
Inductive sevent := Allocated (b : sblock) | Released (b : sblock).

(* :1241-1244, :1363-1366 *)
Definition sy_clear (n : Z) (mark : list Z) : res (list Z) := for_ 0 n (fun i mark => set mark i (-1)) mark.

(* :1246-1302.  inl: return (FALSE), the remaining iterations do nothing *)
Definition sy_check (n : Z) (A p count mark : list Z) : res (sfail + (list Z * list Z * bool)) :=
  for_ 0 n (fun j s =>
    match s with
    | inl e => Ok (inl e)
    | inr (count, mark, jumbled) =>
        let* a := get p j in let* b := get p (j + 1) in
        if b - a <? 0 then Ok (inl (col_length_negative j (b - a)))
        else
          let* s := for_ a b (fun pp s =>
            match s with
            | inl e => Ok (inl e)
            | inr (count, mark, jumbled, last_row) =>
                let* i := get A pp in
                if (i <? 0) || (i >=? n) then Ok (inl (row_index_out_of_bounds j i))
                else
                  let* m := get mark i in
                  let jumbled := jumbled || (i <=? last_row) || (m =? j) in
                  let* count := (if (i >? j) && negb (m =? j) then let* count := inc count i 1 in inc count j 1 else Ok count) in
                  let* mark := set mark i j in
                  Ok (inr (count, mark, jumbled, i))
            end) (inr (count, mark, jumbled, -1)) in
          Ok (match s with inl e => inl e | inr (count, mark, jumbled, _) => inr (count, mark, jumbled) end)
    end) (inr (count, mark, false)).

(* :1309-1317 *)
Definition sy_pointers (n : Z) (count perm : list Z) : res (list Z * list Z) :=
  let* perm := set perm 0 0 in
  let* perm := for_ 1 (n + 1) (fun j perm => let* a := get perm (j - 1) in let* c := get count (j - 1) in set perm j (a + c)) perm in
  let* count := for_ 0 n (fun j count => let* a := get perm j in set count j a) count in
  Ok (perm, count).

(* M [count [i]++] = k *)
Definition sy_put (count M : list Z) (i k : Z) : res (list Z * list Z) :=
  let* c := get count i in let* M := set M c k in let* count := set count i (c + 1) in Ok (count, M).

(* :1337-1385 *)
Definition sy_build (n : Z) (A p : list Z) (jumbled : bool) (count mark M : list Z) : res (list Z) :=
  let* st :=
    (if negb jumbled
     then
       for_ 0 n (fun j st =>
         let* a := get p j in let* b := get p (j + 1) in
         for_ a b (fun pp '(count, mark, M, k) =>
           let* i := get A pp in
           if i >? j then
             let* st := sy_put count M i k in let '(count, M) := st in
             let* st := sy_put count M j k in let '(count, M) := st in
             Ok (count, mark, M, k + 1)
           else Ok (count, mark, M, k)) st) (count, mark, M, 0)
     else
       let* mark := sy_clear n mark in
       for_ 0 n (fun j st =>
         let* a := get p j in let* b := get p (j + 1) in
         for_ a b (fun pp '(count, mark, M, k) =>
           let* i := get A pp in
           let* m := (if i >? j then get mark i else Ok 0) in
           if (i >? j) && negb (m =? j) then
             let* st := sy_put count M i k in let '(count, M) := st in
             let* st := sy_put count M j k in let '(count, M) := st in
             let* mark := set mark i j in
             Ok (count, mark, M, k + 1)
           else Ok (count, mark, M, k)) st) (count, mark, M, 0)) in
  let '(_, _, M, _) := st in Ok M.

(* symamd_l, :1115-1421: the report (inl: FALSE and why, inr: TRUE), the array perm and what was allocated and released, in order.
   perm has whatever the caller left in it.  dense n_row: the dense-column threshold COLAMD computes from the knobs for M (:1935-1943);
   without dense rows (knob -1) the dense-row threshold is n-1 (:1925-1929).  The return value of COLAMD is ignored (:1406). *)
Definition symamd (aggressive : bool) (dense : Z -> Z) (n : Z) (A p : option (list Z)) (perm : list Z) (ok1 ok2 ok3 : bool)
  : res ((sfail + unit) * list Z * list sevent) :=
  match A, p with
  | None, _ => Ok (inl A_not_present, perm, [])
  | _, None => Ok (inl p_not_present, perm, [])
  | Some A, Some p =>
      if n <? 0 then Ok (inl (ncol_negative n), perm, [])
      else
        let* nnz := get p n in
        if nnz <? 0 then Ok (inl (nnz_negative nnz), perm, [])
        else
          let* p0 := get p 0 in
          if negb (p0 =? 0) then Ok (inl (p0_nonzero p0), perm, [])
          else if negb ok1 then Ok (inl out_of_memory, perm, [])
          else if negb ok2 then Ok (inl out_of_memory, perm, [Allocated Bcount; Released Bcount])
          else
            let log := [Allocated Bcount; Allocated Bmark] in
            let count := mk (n + 1) 0 in
            let* mark := sy_clear n (mk (n + 1) 0) in
            let* s := sy_check n A p count mark in
            match s with
            | inl e => Ok (inl e, perm, log ++ [Released Bcount; Released Bmark])
            | inr (count, mark, jumbled) =>
                let* st := sy_pointers n count perm in
                let '(perm, count) := st in
                let* mnz := get perm n in
                let n_row := Z.quot mnz 2 in
                let Mlen := recommended mnz n_row n in
                if negb ok3 then Ok (inl out_of_memory, perm, log ++ [Released Bcount; Released Bmark])
                else
                  let* M := sy_build n A p jumbled count mark (mk Mlen 0) in
                  let* perm := match colamd aggressive n_row n (n - 1) (dense n_row) M perm with Err _ => Ok perm | r => r end in
                  Ok (inr tt, perm, log ++ [Allocated BM; Released Bcount; Released Bmark; Released BM])
            end
  end.
