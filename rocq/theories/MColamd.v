(* COLAMD (COLAMD/Source/colamd.c), as called by SLIP_LU_analyze.  Each function and each loop of the C code is one definition.
   The structures Row and Col, which the C code carves out of the tail of A (:1561-1566), are separate arrays, one per field:
     Rs start, Rl length, Rd shared1 (degree / p), Rm shared2 (mark / first_column)          (:729-755)
     Cs start, Cl length, Ct shared1 (thickness / parent), Co shared2 (score / order), Cp shared3 (headhash / hash / prev),
     Cn shared4 (degree_next / hash_next)                                                    (:695-727)
   A has the remaining elements.  The C arrays have n+1 elements, but the last one is not used (except for Row [0], other than its
   length, if n_row = 0, :1760): here they have n_col elements, n_row elements (Rl) or max (n_row,1) elements (Rs, Rd, Rm).  At first they hold whatever the tail of A contains (field).
   Err SLIP_INCORRECT_INPUT stands for the return value FALSE.  Integers are unbounded, except for the hash (unsigned, 64 bits). *)
From Verif Require Import Base.
Set Implicit Arguments.
Open Scope Z_scope.

Definition EMPTY := -1.
Definition FALSE {A} : res A := Err SLIP_INCORRECT_INPUT.
Definition hash64 : Z := 2 ^ 64.

(* a[i] += d *)
Definition inc (a : list Z) (i d : Z) : res (list Z) := let* v := get a i in set a i (v + d).

(*----------------------------------------------------------------------------*)
(* init_rows_cols, :1647-1876 *)

(* :1672-1693 *)
Definition irc_cols (n_col : Z) (p Cs Cl Ct Co Cp Cn : list Z) : res (list Z * list Z * list Z * list Z * list Z * list Z) :=
  for_ 0 n_col (fun col '(Cs, Cl, Ct, Co, Cp, Cn) =>
    let* a := get p col in let* b := get p (col + 1) in
    let* Cs := set Cs col a in let* Cl := set Cl col (b - a) in
    if b - a <? 0 then FALSE
    else
      let* Ct := set Ct col 1 in let* Co := set Co col 0 in
      let* Cp := set Cp col EMPTY in let* Cn := set Cn col EMPTY in Ok (Cs, Cl, Ct, Co, Cp, Cn)) (Cs, Cl, Ct, Co, Cp, Cn).

(* :1699-1703 *)
Definition irc_clear (n_row : Z) (Rl Rm : list Z) : res (list Z * list Z) :=
  for_ 0 n_row (fun row '(Rl, Rm) => let* Rl := set Rl row 0 in let* Rm := set Rm row (-1) in Ok (Rl, Rm)) (Rl, Rm).

(* :1705-1755.  jumbled: stats [COLAMD_STATUS] == COLAMD_OK_BUT_JUMBLED *)
Definition irc_count (n_row n_col : Z) (p A Cl Rl Rm : list Z) : res (list Z * list Z * list Z * bool) :=
  for_ 0 n_col (fun col '(Cl, Rl, Rm, jumbled) =>
    let* a := get p col in let* b := get p (col + 1) in
    let* st := for_ a b (fun cp '(Cl, Rl, Rm, jumbled, last_row) =>
      let* row := get A cp in
      if (row <? 0) || (row >=? n_row) then FALSE
      else
        let* m := get Rm row in
        let jumbled := jumbled || (row <=? last_row) || (m =? col) in
        let* Rl := (if negb (m =? col) then inc Rl row 1 else Ok Rl) in
        let* Cl := (if negb (m =? col) then Ok Cl else inc Cl col (-1)) in
        let* Rm := set Rm row col in
        Ok (Cl, Rl, Rm, jumbled, row)) (Cl, Rl, Rm, jumbled, -1) in
    Ok (fst st)) (Cl, Rl, Rm, false).

(* :1757-1768 *)
Definition irc_starts (n_row nnz : Z) (Rl Rs Rd Rm : list Z) : res (list Z * list Z * list Z) :=
  let* Rs := set Rs 0 nnz in let* Rd := set Rd 0 nnz in let* Rm := set Rm 0 (-1) in
  for_ 1 n_row (fun row '(Rs, Rd, Rm) =>
    let* s := get Rs (row - 1) in let* l := get Rl (row - 1) in
    let* Rs := set Rs row (s + l) in let* Rd := set Rd row (s + l) in let* Rm := set Rm row (-1) in
    Ok (Rs, Rd, Rm)) (Rs, Rd, Rm).

(* :1772-1802: both branches; the second does not test the mark *)
Definition irc_rows (jumbled : bool) (n_col : Z) (p A Rd Rm : list Z) : res (list Z * list Z * list Z) :=
  for_ 0 n_col (fun col st =>
    let* a := get p col in let* b := get p (col + 1) in
    for_ a b (fun cp '(A, Rd, Rm) =>
      let* row := get A cp in
      let* m := get Rm row in
      if jumbled && (m =? col) then Ok (A, Rd, Rm)
      else
        let* q := get Rd row in
        let* A := set A q col in let* Rd := set Rd row (q + 1) in
        let* Rm := (if jumbled then set Rm row col else Ok Rm) in
        Ok (A, Rd, Rm)) st) (A, Rd, Rm).

(* :1806-1810 *)
Definition irc_marks (n_row : Z) (Rl Rd Rm : list Z) : res (list Z * list Z) :=
  for_ 0 n_row (fun row '(Rd, Rm) =>
    let* Rm := set Rm row 0 in let* l := get Rl row in let* Rd := set Rd row l in Ok (Rd, Rm)) (Rd, Rm).

(* :1840-1867 *)
Definition irc_rebuild (n_row n_col : Z) (p A Rs Rl Cs Cl : list Z) : res (list Z * list Z * list Z) :=
  let* Cs := set Cs 0 0 in let* p := set p 0 0 in
  let* st := for_ 1 n_col (fun col '(Cs, p) =>
    let* s := get Cs (col - 1) in let* l := get Cl (col - 1) in
    let* Cs := set Cs col (s + l) in let* p := set p col (s + l) in Ok (Cs, p)) (Cs, p) in
  let '(Cs, p) := st in
  let* st := for_ 0 n_row (fun row st =>
    let* s := get Rs row in let* l := get Rl row in
    for_ s (s + l) (fun rp '(A, p) =>
      let* c := get A rp in let* q := get p c in
      let* p := set p c (q + 1) in let* A := set A q row in Ok (A, p)) st) (A, p) in
  let '(A, p) := st in Ok (A, p, Cs).

(* the arrays *)
Record arrays := mkAr { a_A : list Z; a_Rs : list Z; a_Rl : list Z; a_Rd : list Z; a_Rm : list Z;
  a_Cs : list Z; a_Cl : list Z; a_Ct : list Z; a_Co : list Z; a_Cp : list Z; a_Cn : list Z }.

(* field f of the structures at T [base..], of size Ints each *)
Definition field (T : list Z) (base size f cnt : Z) : list Z := map (fun i => rd T (base + size * i + f)) (zseq 0 cnt).

(* :1647-1876.  T is the tail of A that holds Col (n_col+1 structures) and Row (n_row+1 structures), :1563-1566.
   Returns the arrays and p, which is used as scratch space. *)
Definition init_rows_cols (n_row n_col : Z) (p A T : list Z) : res (arrays * list Z) :=
  let col f := field T 0 6 f n_col in
  let row f cnt := field T (6 * (n_col + 1)) 4 f cnt in
  let n_row1 := Z.max n_row 1 in
  let* st := irc_cols n_col p (col 0) (col 1) (col 2) (col 3) (col 4) (col 5) in
  let '(Cs, Cl, Ct, Co, Cp, Cn) := st in
  let* nnz := get p n_col in
  let* st := irc_clear n_row (row 1 n_row) (row 3 n_row1) in
  let '(Rl, Rm) := st in
  let* st := irc_count n_row n_col p A Cl Rl Rm in
  let '(Cl, Rl, Rm, jumbled) := st in
  let* st := irc_starts n_row nnz Rl (row 0 n_row1) (row 2 n_row1) Rm in
  let '(Rs, Rd, Rm) := st in
  let* st := irc_rows jumbled n_col p A Rd Rm in
  let '(A, Rd, Rm) := st in
  let* st := irc_marks n_row Rl Rd Rm in
  let '(Rd, Rm) := st in
  let* st := (if jumbled then irc_rebuild n_row n_col p A Rs Rl Cs Cl else Ok (A, p, Cs)) in
  let '(A, p, Cs) := st in
  Ok (mkAr A Rs Rl Rd Rm Cs Cl Ct Co Cp Cn, p).

(*----------------------------------------------------------------------------*)
(* init_scoring, :1884-2148 *)

(* :1954-1963 *)
Definition is_null_cols (n_col : Z) (Cl Cs Co : list Z) : res (list Z * list Z * Z) :=
  down_ n_col 0 (fun c '(Cs, Co, n_col2) =>
    let* deg := get Cl c in
    if deg =? 0 then
      let* Co := set Co c (n_col2 - 1) in let* Cs := set Cs c (-1) in Ok (Cs, Co, n_col2 - 1)
    else Ok (Cs, Co, n_col2)) (Cs, Co, n_col).
(* :1969-1990 *)
Definition is_dense_cols (n_col dense_col : Z) (A Cl Cs Co Rd : list Z) (n_col2 : Z) : res (list Z * list Z * list Z * Z) :=
  down_ n_col 0 (fun c '(Cs, Co, Rd, n_col2) =>
    let* s := get Cs c in
    if s <? 0 then Ok (Cs, Co, Rd, n_col2)
    else
      let* deg := get Cl c in
      if deg >? dense_col then
        let* Co := set Co c (n_col2 - 1) in
        let* Rd := for_ s (s + deg) (fun cp Rd => let* row := get A cp in inc Rd row (-1)) Rd in
        let* Cs := set Cs c (-1) in
        Ok (Cs, Co, Rd, n_col2 - 1)
      else Ok (Cs, Co, Rd, n_col2)) (Cs, Co, Rd, n_col2).
(* :1995-2010 *)
Definition is_dense_rows (n_row dense_row : Z) (Rd Rm : list Z) : res (list Z * Z) :=
  for_ 0 n_row (fun r '(Rm, max_deg) =>
    let* deg := get Rd r in
    if (deg >? dense_row) || (deg =? 0) then let* Rm := set Rm r (-1) in Ok (Rm, max_deg)
    else Ok (Rm, Z.max max_deg deg)) (Rm, 0).
(* :2021-2070 *)
Definition is_scores (n_col : Z) (Rd Rm A Cl Cs Co : list Z) (n_col2 : Z) : res (list Z * list Z * list Z * list Z * Z) :=
  down_ n_col 0 (fun c '(A, Cl, Cs, Co, n_col2) =>
    let* s := get Cs c in
    if s <? 0 then Ok (A, Cl, Cs, Co, n_col2)
    else
      let* l := get Cl c in
      let* st := for_ s (s + l) (fun cp '(A, new_cp, score) =>
        let* row := get A cp in
        let* m := get Rm row in
        if m <? 0 then Ok (A, new_cp, score)
        else
          let* A := set A new_cp row in
          let* d := get Rd row in
          Ok (A, new_cp + 1, Z.min (score + (d - 1)) n_col)) (A, s, 0) in
      let '(A, new_cp, score) := st in
      if new_cp - s =? 0 then
        let* Co := set Co c (n_col2 - 1) in let* Cs := set Cs c (-1) in Ok (A, Cl, Cs, Co, n_col2 - 1)
      else
        let* Cl := set Cl c (new_cp - s) in let* Co := set Co c score in Ok (A, Cl, Cs, Co, n_col2))
    (A, Cl, Cs, Co, n_col2).
(* insert col into the list of its score: :2104-2114 and :2659-2671 *)
Definition list_insert (col score : Z) (Cp Cn head : list Z) : res (list Z * list Z * list Z) :=
  let* next_col := get head score in
  let* Cp := set Cp col EMPTY in
  let* Cn := set Cn col next_col in
  let* Cp := (if negb (next_col =? EMPTY) then set Cp next_col col else Ok Cp) in
  let* head := set head score col in
  Ok (Cp, Cn, head).
(* :2086-2130.  min_score is not used afterwards *)
Definition is_lists (n_col : Z) (Cs Co Cp Cn : list Z) (head : list Z) : res (list Z * list Z * list Z) :=
  let* head := for_ 0 (n_col + 1) (fun c head => set head c EMPTY) head in
  down_ n_col 0 (fun c '(Cp, Cn, head) =>
    let* s := get Cs c in
    if s >=? 0 then let* score := get Co c in list_insert c score Cp Cn head
    else Ok (Cp, Cn, head)) (Cp, Cn, head).

(* :1884-2148.  dense_row, dense_col: the thresholds of :1929-1945 (floating-point arithmetic, any value is allowed here) *)
Definition init_scoring (n_row n_col dense_row dense_col : Z) (ar : arrays) (head : list Z) : res (arrays * list Z * Z * Z) :=
  let* st := is_null_cols n_col (a_Cl ar) (a_Cs ar) (a_Co ar) in
  let '(Cs, Co, n_col2) := st in
  let* st := is_dense_cols n_col dense_col (a_A ar) (a_Cl ar) Cs Co (a_Rd ar) n_col2 in
  let '(Cs, Co, Rd, n_col2) := st in
  let* st := is_dense_rows n_row dense_row Rd (a_Rm ar) in
  let '(Rm, max_deg) := st in
  let* st := is_scores n_col Rd Rm (a_A ar) (a_Cl ar) Cs Co n_col2 in
  let '(A, Cl, Cs, Co, n_col2) := st in
  let* st := is_lists n_col Cs Co (a_Cp ar) (a_Cn ar) head in
  let '(Cp, Cn, head) := st in
  Ok (mkAr A (a_Rs ar) (a_Rl ar) Rd Rm Cs Cl (a_Ct ar) Co Cp Cn, head, n_col2, max_deg).

(*----------------------------------------------------------------------------*)
(* clear_mark, :3114-3142 *)
Definition clear_mark (tag_mark max_mark n_row : Z) (Rm : list Z) : res (Z * list Z) :=
  if (tag_mark <=? 0) || (tag_mark >=? max_mark) then
    let* Rm := for_ 0 n_row (fun r Rm => let* m := get Rm r in if m >=? 0 then set Rm r 0 else Ok Rm) Rm in
    Ok (1, Rm)
  else Ok (tag_mark, Rm).

(*----------------------------------------------------------------------------*)
(* garbage_collection, :2982-3103 *)
(* :3012-3034 *)
Definition gc_cols (n_col : Z) (Rm A Cs Cl : list Z) : res (list Z * list Z * list Z * Z) :=
  for_ 0 n_col (fun c '(A, Cs, Cl, pdest) =>
    let* s := get Cs c in
    if s >=? 0 then
      let* Cs := set Cs c pdest in
      let* l := get Cl c in
      let* st := for_ 0 l (fun j '(A, q) =>
        let* r := get A (s + j) in let* m := get Rm r in
        if m >=? 0 then let* A := set A q r in Ok (A, q + 1) else Ok (A, q)) (A, pdest) in
      let '(A, q) := st in
      let* Cl := set Cl c (q - pdest) in
      Ok (A, Cs, Cl, q)
    else Ok (A, Cs, Cl, pdest)) (A, Cs, Cl, 0).
(* :3037-3058 *)
Definition gc_mark_rows (n_row : Z) (Rs Rl A Rm : list Z) : res (list Z * list Z) :=
  for_ 0 n_row (fun r '(A, Rm) =>
    let* m := get Rm r in let* l := get Rl r in
    if (m <? 0) || (l =? 0) then let* Rm := set Rm r (-1) in Ok (A, Rm)
    else
      let* s := get Rs r in let* f := get A s in
      let* Rm := set Rm r f in let* A := set A s (- r - 1) in Ok (A, Rm)) (A, Rm).
(* :3063-3098 *)
Fixpoint gc_rows (fuel : nat) (psrc pfree : Z) (Rm Cs : list Z) (A Rs Rl : list Z) (pdest : Z) : res (list Z * list Z * list Z * Z) :=
  if psrc <? pfree then
    match fuel with
    | O => Fuel
    | S fuel =>
        let* v := get A psrc in
        if v <? 0 then
          let r := - v - 1 in
          let* f := get Rm r in
          let* A := set A psrc f in
          let* Rs := set Rs r pdest in
          let* l := get Rl r in
          let* st := for_ 0 l (fun j '(A, q) =>
            let* c := get A (psrc + j) in let* s := get Cs c in
            if s >=? 0 then let* A := set A q c in Ok (A, q + 1) else Ok (A, q)) (A, pdest) in
          let '(A, q) := st in
          let* Rl := set Rl r (q - pdest) in
          gc_rows fuel (psrc + l) pfree Rm Cs A Rs Rl q
        else gc_rows fuel (psrc + 1) pfree Rm Cs A Rs Rl pdest
    end
  else Ok (A, Rs, Rl, pdest).
Definition garbage_collection (n_row n_col : Z) (A Rs Rl Rm Cs Cl : list Z) (pfree : Z) : res (list Z * list Z * list Z * list Z * list Z * list Z * Z) :=
  let* st := gc_cols n_col Rm A Cs Cl in
  let '(A, Cs, Cl, pdest) := st in
  let* st := gc_mark_rows n_row Rs Rl A Rm in
  let '(A, Rm) := st in
  let* st := gc_rows (Z.to_nat (pfree - pdest)) pdest pfree Rm Cs A Rs Rl pdest in
  let '(A, Rs, Rl, pdest) := st in
  Ok (A, Rs, Rl, Rm, Cs, Cl, pdest).

(*----------------------------------------------------------------------------*)
(* detect_super_cols, :2825-2972 *)
(* the first column of hash bucket h: :2877-2885; head_column is returned too *)
Definition bucket (hash : Z) (Cp head : list Z) : res (Z * Z) :=
  let* hc := get head hash in
  if hc >? EMPTY then let* f := get Cp hc in Ok (hc, f) else Ok (hc, - (hc + 2)).
(* :2916-2930: are the patterns at s1 and s2 equal? *)
Fixpoint same_pattern (cnt : nat) (A : list Z) (s1 s2 : Z) : res bool :=
  match cnt with
  | O => Ok true
  | S cnt => let* x := get A s1 in let* y := get A s2 in if negb (x =? y) then Ok false else same_pattern cnt A (s1 + 1) (s2 + 1)
  end.
(* :2900-2957 *)
Fixpoint ds_inner (fuel : nat) (A Cl : list Z) (super_c length c prev_c : Z) (Cs Ct Co Cn : list Z) : res (list Z * list Z * list Z * list Z) :=
  if c =? EMPTY then Ok (Cs, Ct, Co, Cn)
  else
    match fuel with
    | O => Fuel
    | S fuel =>
        let* l := get Cl c in
        let* sc := get Co c in let* ss := get Co super_c in
        let* eq := (if negb (l =? length) || negb (sc =? ss) then Ok false
                    else let* s1 := get Cs super_c in let* s2 := get Cs c in same_pattern (Z.to_nat length) A s1 s2) in
        if negb eq then
          let* next := get Cn c in
          ds_inner fuel A Cl super_c length next c Cs Ct Co Cn
        else
          let* t := get Ct c in
          let* Ct := inc Ct super_c t in
          let* Ct := set Ct c super_c in
          let* Cs := set Cs c (-2) in
          let* Co := set Co c EMPTY in
          let* next := get Cn c in
          let* Cn := set Cn prev_c next in
          let* next := get Cn c in
          ds_inner fuel A Cl super_c length next prev_c Cs Ct Co Cn
    end.
(* :2888-2959 *)
Fixpoint ds_outer (fuel fuel' : nat) (A Cl : list Z) (super_c : Z) (Cs Ct Co Cn : list Z) : res (list Z * list Z * list Z * list Z) :=
  if super_c =? EMPTY then Ok (Cs, Ct, Co, Cn)
  else
    match fuel with
    | O => Fuel
    | S fuel =>
        let* length := get Cl super_c in
        let* c := get Cn super_c in
        let* st := ds_inner fuel' A Cl super_c length c super_c Cs Ct Co Cn in
        let '(Cs, Ct, Co, Cn) := st in
        let* next := get Cn super_c in
        ds_outer fuel fuel' A Cl next Cs Ct Co Cn
    end.
(* :2862-2971.  fuel: the length of the row bounds the length of a bucket *)
Definition detect_super_cols (A Cl : list Z) (row_start row_length : Z) (Cs Ct Co Cp Cn head : list Z)
  : res (list Z * list Z * list Z * list Z * list Z * list Z) :=
  for_ row_start (row_start + row_length) (fun rp '(Cs, Ct, Co, Cp, Cn, head) =>
    let* col := get A rp in
    let* s := get Cs col in
    if s <? 0 then Ok (Cs, Ct, Co, Cp, Cn, head)
    else
      let* hash := get Cp col in
      let* st := bucket hash Cp head in
      let '(head_column, first_col) := st in
      let* st := ds_outer (Z.to_nat row_length) (Z.to_nat row_length) A Cl first_col Cs Ct Co Cn in
      let '(Cs, Ct, Co, Cn) := st in
      if head_column >? EMPTY then let* Cp := set Cp head_column EMPTY in Ok (Cs, Ct, Co, Cp, Cn, head)
      else let* head := set head hash EMPTY in Ok (Cs, Ct, Co, Cp, Cn, head)) (Cs, Ct, Co, Cp, Cn, head).

(*----------------------------------------------------------------------------*)
(* find_ordering, :2159-2702 *)
(* :2258-2262 *)
Fixpoint fo_min (fuel : nat) (n_col : Z) (head : list Z) (min_score : Z) : res Z :=
  let* h := get head min_score in
  if (h =? EMPTY) && (min_score <? n_col) then
    match fuel with O => Fuel | S fuel => fo_min fuel n_col head (min_score + 1) end
  else Ok min_score.
(* :2312-2345: the pivot row is written to A [pfree..] *)
Definition fo_pivot_row (start length : Z) (Rs Rl Rm Cs : list Z) (A Ct : list Z) (pfree : Z) : res (list Z * list Z * Z * Z) :=
  for_ start (start + length) (fun cp st =>
    let '(A, _, _, _) := st in
    let* row := get A cp in
    let* m := get Rm row in
    if m >=? 0 then
      let* s := get Rs row in let* l := get Rl row in
      for_ s (s + l) (fun rp '(A, Ct, pfree, degree) =>
        let* col := get A rp in
        let* t := get Ct col in
        let* cs := get Cs col in
        if (t >? 0) && (cs >=? 0) then
          let* Ct := set Ct col (- t) in let* A := set A pfree col in Ok (A, Ct, pfree + 1, degree + t)
        else Ok (A, Ct, pfree, degree)) st
    else Ok st) (A, Ct, pfree, 0).
(* :2358-2366 *)
Definition fo_kill_rows (start length : Z) (A Rm : list Z) : res (list Z) :=
  for_ start (start + length) (fun cp Rm => let* row := get A cp in set Rm row (-1)) Rm.
(* remove col from the degree lists: :2428-2445 *)
Definition list_remove (col : Z) (Co Cp Cn head : list Z) : res (list Z * list Z * list Z) :=
  let* cur_score := get Co col in
  let* prev_col := get Cp col in
  let* next_col := get Cn col in
  let* st := (if prev_col =? EMPTY then let* head := set head cur_score next_col in Ok (Cn, head)
              else let* Cn := set Cn prev_col next_col in Ok (Cn, head)) in
  let '(Cn, head) := st in
  let* Cp := (if negb (next_col =? EMPTY) then set Cp next_col prev_col else Ok Cp) in
  Ok (Cp, Cn, head).
(* :2448-2484 *)
Definition fo_diff (aggressive : bool) (tag_mark start length thickness : Z) (A Rd Rm : list Z) : res (list Z) :=
  for_ start (start + length) (fun cp Rm =>
    let* row := get A cp in
    let* m := get Rm row in
    if m <? 0 then Ok Rm
    else
      let* sd := (if m - tag_mark <? 0 then get Rd row else Ok (m - tag_mark)) in
      let sd := sd - thickness in
      if (sd =? 0) && aggressive then set Rm row (-1) else set Rm row (sd + tag_mark)) Rm.
(* :2410-2486 *)
Definition fo_diffs (aggressive : bool) (tag_mark start length : Z) (A Rd Cs Cl Co : list Z) (Rm Ct Cp Cn head : list Z)
  : res (list Z * list Z * list Z * list Z * list Z) :=
  for_ start (start + length) (fun rp '(Rm, Ct, Cp, Cn, head) =>
    let* col := get A rp in
    let* t := get Ct col in
    let* Ct := set Ct col (- t) in
    let* st := list_remove col Co Cp Cn head in
    let '(Cp, Cn, head) := st in
    let* s := get Cs col in let* l := get Cl col in
    let* Rm := fo_diff aggressive tag_mark s l (- t) A Rd Rm in
    Ok (Rm, Ct, Cp, Cn, head)) (Rm, Ct, Cp, Cn, head).
(* :2503-2535: compress the column, compute hash and score *)
Definition fo_compress (n_col tag_mark start length : Z) (Rm A : list Z) : res (list Z * Z * Z * Z) :=
  for_ start (start + length) (fun cp '(A, new_cp, hash, score) =>
    let* row := get A cp in
    let* m := get Rm row in
    if m <? 0 then Ok (A, new_cp, hash, score)
    else
      let* A := set A new_cp row in
      Ok (A, new_cp + 1, (hash + row) mod hash64, Z.min (score + (m - tag_mark)) n_col)) (A, start, 0, 0).
(* :2495-2585 *)
Definition fo_add (n_col tag_mark start length : Z) (Rm Ct : list Z) (A Cs Cl Co Cp Cn head : list Z) (degree k : Z)
  : res (list Z * list Z * list Z * list Z * list Z * list Z * list Z * Z * Z) :=
  for_ start (start + length) (fun rp '(A, Cs, Cl, Co, Cp, Cn, head, degree, k) =>
    let* col := get A rp in
    let* s := get Cs col in let* l := get Cl col in
    let* st := fo_compress n_col tag_mark s l Rm A in
    let '(A, new_cp, hash, score) := st in
    let* Cl := set Cl col (new_cp - s) in
    if new_cp - s =? 0 then
      let* Cs := set Cs col (-1) in
      let* t := get Ct col in
      let* Co := set Co col k in
      Ok (A, Cs, Cl, Co, Cp, Cn, head, degree - t, k + t)
    else
      let* Co := set Co col score in
      let hash := hash mod (n_col + 1) in
      let* hc := get head hash in
      let* st := (if hc >? EMPTY then let* f := get Cp hc in let* Cp := set Cp hc col in Ok (f, Cp, head)
                  else let* head := set head hash (- (col + 2)) in Ok (- (hc + 2), Cp, head)) in
      let '(first_col, Cp, head) := st in
      let* Cn := set Cn col first_col in
      let* Cp := set Cp col hash in
      Ok (A, Cs, Cl, Co, Cp, Cn, head, degree, k)) (A, Cs, Cl, Co, Cp, Cn, head, degree, k).
(* :2620-2676 *)
Definition fo_final (n_col k pivot_row degree start length : Z) (Cs Ct : list Z) (A Cl Co Cp Cn head : list Z) (min_score : Z)
  : res (list Z * list Z * list Z * list Z * list Z * list Z * Z * Z) :=
  for_ start (start + length) (fun rp '(A, Cl, Co, Cp, Cn, head, min_score, new_rp) =>
    let* col := get A rp in
    let* s := get Cs col in
    if s <? 0 then Ok (A, Cl, Co, Cp, Cn, head, min_score, new_rp)
    else
      let* A := set A new_rp col in
      let* l := get Cl col in
      let* A := set A (s + l) pivot_row in
      let* Cl := set Cl col (l + 1) in
      let* sc := get Co col in
      let* t := get Ct col in
      let cur_score := Z.min (sc + degree - t) (n_col - k - t) in
      let* Co := set Co col cur_score in
      let* st := list_insert col cur_score Cp Cn head in
      let '(Cp, Cn, head) := st in
      Ok (A, Cl, Co, Cp, Cn, head, Z.min min_score cur_score, new_rp + 1)) (A, Cl, Co, Cp, Cn, head, min_score, start).

(* what the main loop carries *)
Record fo_state := mkFo { f_ar : arrays; f_head : list Z; f_k : Z; f_max_deg : Z; f_tag : Z; f_min : Z; f_pfree : Z }.

(* one iteration of :2225-2699 *)
Definition fo_step (aggressive : bool) (n_row n_col max_mark : Z) (st : fo_state) : res fo_state :=
  let '(mkFo (mkAr A Rs Rl Rd Rm Cs Cl Ct Co Cp Cn) head k max_deg tag_mark min_score pfree) := st in
  let* min_score := fo_min (Z.to_nat n_col) n_col head min_score in
  let* pivot_col := get head min_score in                                                   (* :2263-2275 *)
  let* next_col := get Cn pivot_col in
  let* head := set head min_score next_col in
  let* Cp := (if negb (next_col =? EMPTY) then set Cp next_col EMPTY else Ok Cp) in
  let* pivot_score := get Co pivot_col in                                                   (* :2277-2284 *)
  let* Co := set Co pivot_col k in
  let* thick := get Ct pivot_col in
  let k := k + thick in
  let needed := Z.min pivot_score (n_col - k) in                                            (* :2286-2300 *)
  let* g := (if pfree + needed >=? zlen A then
               let* g := garbage_collection n_row n_col A Rs Rl Rm Cs Cl pfree in
               let '(A, Rs, Rl, Rm, Cs, Cl, pfree) := g in
               let* t := clear_mark 0 max_mark n_row Rm in
               let '(tag_mark, Rm) := t in Ok (A, Rs, Rl, Rm, Cs, Cl, pfree, tag_mark)
             else Ok (A, Rs, Rl, Rm, Cs, Cl, pfree, tag_mark)) in
  let '(A, Rs, Rl, Rm, Cs, Cl, pfree, tag_mark) := g in
  let* Ct := set Ct pivot_col (- thick) in                                                  (* :2307-2350 *)
  let* s := get Cs pivot_col in let* l := get Cl pivot_col in
  let* pr := fo_pivot_row s l Rs Rl Rm Cs A Ct pfree in
  let '(A, Ct, pfree', degree) := pr in
  let* Ct := set Ct pivot_col thick in
  let max_deg := Z.max max_deg degree in
  let* Rm := fo_kill_rows s l A Rm in
  let length := pfree' - pfree in                                                           (* :2370-2381 *)
  let* pivot_row := (if length >? 0 then get A s else Ok EMPTY) in
  let* d := fo_diffs aggressive tag_mark pfree length A Rd Cs Cl Co Rm Ct Cp Cn head in
  let '(Rm, Ct, Cp, Cn, head) := d in
  let* d := fo_add n_col tag_mark pfree length Rm Ct A Cs Cl Co Cp Cn head degree k in
  let '(A, Cs, Cl, Co, Cp, Cn, head, degree, k) := d in
  let* d := detect_super_cols A Cl pfree length Cs Ct Co Cp Cn head in
  let '(Cs, Ct, Co, Cp, Cn, head) := d in
  let* Cs := set Cs pivot_col (-1) in                                                       (* :2605-2609 *)
  let* t := clear_mark (tag_mark + max_deg + 1) max_mark n_row Rm in
  let '(tag_mark, Rm) := t in
  let* d := fo_final n_col k pivot_row degree pfree length Cs Ct A Cl Co Cp Cn head min_score in
  let '(A, Cl, Co, Cp, Cn, head, min_score, new_rp) := d in
  let* d := (if degree >? 0 then                                                            (* :2685-2698 *)
               let* Rs := set Rs pivot_row pfree in
               let* Rl := set Rl pivot_row (new_rp - pfree) in
               let* Rd := set Rd pivot_row degree in
               let* Rm := set Rm pivot_row 0 in Ok (Rs, Rl, Rd, Rm)
             else Ok (Rs, Rl, Rd, Rm)) in
  let '(Rs, Rl, Rd, Rm) := d in
  Ok (mkFo (mkAr A Rs Rl Rd Rm Cs Cl Ct Co Cp Cn) head k max_deg tag_mark min_score pfree').

(* :2225 *)
Fixpoint fo_loop (fuel : nat) (aggressive : bool) (n_row n_col n_col2 max_mark : Z) (st : fo_state) : res fo_state :=
  if f_k st <? n_col2 then
    match fuel with
    | O => Fuel
    | S fuel => let* st := fo_step aggressive n_row n_col max_mark st in fo_loop fuel aggressive n_row n_col n_col2 max_mark st
    end
  else Ok st.
(* :2215-2702; INT_MAX is 2^31-1 also for 64-bit integers *)
Definition find_ordering (aggressive : bool) (n_row n_col n_col2 max_deg pfree : Z) (ar : arrays) (head : list Z) : res arrays :=
  let max_mark := 2 ^ 31 - 1 - n_col in
  let* t := clear_mark 0 max_mark n_row (a_Rm ar) in
  let '(tag_mark, Rm) := t in
  let ar := mkAr (a_A ar) (a_Rs ar) (a_Rl ar) (a_Rd ar) Rm (a_Cs ar) (a_Cl ar) (a_Ct ar) (a_Co ar) (a_Cp ar) (a_Cn ar) in
  let* st := fo_loop (Z.to_nat n_col2) aggressive n_row n_col n_col2 max_mark (mkFo ar head 0 max_deg tag_mark 0 pfree) in
  Ok (f_ar st).

(*----------------------------------------------------------------------------*)
(* order_children, :2724-2790 *)
(* :2748-2753 *)
Fixpoint oc_root (fuel : nat) (Cs Ct : list Z) (parent : Z) : res Z :=
  match fuel with
  | O => Fuel
  | S fuel =>
      let* parent := get Ct parent in
      let* s := get Cs parent in
      if s =? -1 then Ok parent else oc_root fuel Cs Ct parent
  end.
(* :2761-2776 *)
Fixpoint oc_up (fuel : nat) (parent c order : Z) (Ct Co : list Z) : res (list Z * list Z * Z) :=
  match fuel with
  | O => Fuel
  | S fuel =>
      let* Co := set Co c order in
      let* Ct := set Ct c parent in
      let* c := get Ct c in
      let* o := get Co c in
      if o =? EMPTY then oc_up fuel parent c (order + 1) Ct Co else Ok (Ct, Co, order + 1)
  end.
Definition order_children (n_col : Z) (Cs Ct Co p : list Z) : res (list Z) :=
  let* st := for_ 0 n_col (fun i '(Ct, Co) =>
    let* s := get Cs i in let* o := get Co i in
    if negb (s =? -1) && (o =? EMPTY) then
      let* parent := oc_root (Z.to_nat (n_col + 1)) Cs Ct i in
      let* order := get Co parent in
      let* st := oc_up (Z.to_nat (n_col + 1)) parent i order Ct Co in
      let '(Ct, Co, order) := st in
      let* Co := set Co parent order in
      Ok (Ct, Co)
    else Ok (Ct, Co)) (Ct, Co) in
  let '(Ct, Co) := st in
  for_ 0 n_col (fun c p => let* o := get Co c in set p o c) p.

(*----------------------------------------------------------------------------*)
(* colamd_l (COLAMD_MAIN with Int = SuiteSparse_long), :1435-1602.  A has Alen elements; the result is p.
   sizeof (Colamd_Col) = 48 and sizeof (Colamd_Row) = 32, so Col_size = 6 (n_col+1), Row_size = 4 (n_row+1). *)
Definition colamd (aggressive : bool) (n_row n_col dense_row dense_col : Z) (A p : list Z) : res (list Z) :=
  if (n_row <? 0) || (n_col <? 0) then FALSE
  else
    let* nnz := get p n_col in
    let* p0 := get p 0 in
    if (nnz <? 0) || negb (p0 =? 0) then FALSE
    else
      let Col_size := 6 * (n_col + 1) in let Row_size := 4 * (n_row + 1) in
      if 2 * nnz + n_col + Col_size + Row_size >? zlen A then FALSE
      else
        let Alen := zlen A - (Col_size + Row_size) in
        let* st := init_rows_cols n_row n_col p (firstn (Z.to_nat Alen) A) (skipn (Z.to_nat Alen) A) in
        let '(ar, p) := st in
        let* st := init_scoring n_row n_col dense_row dense_col ar p in
        let '(ar, head, n_col2, max_deg) := st in
        let* ar := find_ordering aggressive n_row n_col n_col2 max_deg (2 * nnz) ar head in
        order_children n_col (a_Cs ar) (a_Ct ar) (a_Co ar) head.
