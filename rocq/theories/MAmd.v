(* AMD (AMD/Source), as called by SLIP_LU_analyze (amd_l_order, Int = SuiteSparse_long, 64 bits).  Each function and each loop of
   the C code is one definition.  The workspace S of AMD_1 is one array per carved-out vector (amd_1.c:53-61).  Freshly allocated memory
   has arbitrary contents (block).  Err SLIP_INCORRECT_INPUT stands for the return value AMD_INVALID.
   Integers are unbounded, except for the hash (unsigned, 64 bits); allocations succeed.  Of Info only Info [AMD_LNZ] is modelled
   (a sum of integers held in a double, modelled exactly); AMD_DEBUG and ASSERT are compiled out (amd_internal.h:36-38). *)
From Verif Require Import Base.
From Verif Require Import MColamd.
Set Implicit Arguments.
Open Scope Z_scope.

(* amd_internal.h:105-106 (EMPTY is also COLAMD's) *)
Definition FLIP (i : Z) : Z := - i - 2.

(*----------------------------------------------------------------------------*)
(* AMD_valid, amd_valid.c:38-92; true = AMD_OK_BUT_JUMBLED, false = AMD_OK *)
Definition amd_valid (n_row n_col : Z) (Ap Ai : list Z) : res bool :=
  if (n_row <? 0) || (n_col <? 0) then FALSE
  else
    let* nz := get Ap n_col in
    let* a0 := get Ap 0 in
    if negb (a0 =? 0) || (nz <? 0) then FALSE
    else
      for_ 0 n_col (fun j result =>
        let* p1 := get Ap j in let* p2 := get Ap (j + 1) in
        if p1 >? p2 then FALSE
        else
          let* st := for_ p1 p2 (fun p '(result, ilast) =>
            let* i := get Ai p in
            if (i <? 0) || (i >=? n_row) then FALSE
            else Ok (result || (i <=? ilast), i)) (result, EMPTY) in
          Ok (fst st)) false.

(*----------------------------------------------------------------------------*)
(* AMD_preprocess, amd_preprocess.c:32-118 *)
(* :56-77: W [i] = number of distinct columns in which row i appears *)
Definition pp_count (n : Z) (Ap Ai W Flag : list Z) : res (list Z * list Z) :=
  for_ 0 n (fun j st =>
    let* p2 := get Ap (j + 1) in let* p1 := get Ap j in
    for_ p1 p2 (fun p '(W, Flag) =>
      let* i := get Ai p in
      let* f := get Flag i in
      if negb (f =? j) then let* W := inc W i 1 in let* Flag := set Flag i j in Ok (W, Flag)
      else Ok (W, Flag)) st) (W, Flag).
(* :83-92 *)
Definition pp_starts (n : Z) (W Rp : list Z) : res (list Z) :=
  let* Rp := set Rp 0 0 in
  for_ 0 n (fun i Rp => let* a := get Rp i in let* w := get W i in set Rp (i + 1) (a + w)) Rp.
(* :98-112 *)
Definition pp_fill (n : Z) (Ap Ai Ri W Flag : list Z) : res (list Z * list Z * list Z) :=
  for_ 0 n (fun j st =>
    let* p2 := get Ap (j + 1) in let* p1 := get Ap j in
    for_ p1 p2 (fun p '(Ri, W, Flag) =>
      let* i := get Ai p in
      let* f := get Flag i in
      if negb (f =? j) then
        let* w := get W i in
        let* Ri := set Ri w j in
        let* W := set W i (w + 1) in
        let* Flag := set Flag i j in Ok (Ri, W, Flag)
      else Ok (Ri, W, Flag)) st) (Ri, W, Flag).
Definition amd_preprocess (n : Z) (Ap Ai Rp Ri : list Z) : res (list Z * list Z) :=
  let* st := pp_count n Ap Ai (mk n 0) (mk n EMPTY) in
  let '(W, _) := st in
  let* Rp := pp_starts n W Rp in
  let* W := for_ 0 n (fun i W => let* a := get Rp i in set W i a) W in                      (* :88-92 *)
  let* st := pp_fill n Ap Ai Ri W (mk n EMPTY) in
  let '(Ri, _, _) := st in Ok (Rp, Ri).

(*----------------------------------------------------------------------------*)
(* the traversal of the pattern of A + A' without the diagonal, the same in AMD_aat and AMD_1; edge a b is what is done for the
   pair (a,b), (b,a) of entries of A + A' *)
Section Traverse.
Variables (S : Type) (edge : Z -> Z -> S -> res S) (n : Z) (Ap Ai : list Z).
(* amd_aat.c:96-121, amd_1.c:122-146: for (pj = Tp [j] ; pj < pj2 ; ); cnt = pj2 - pj *)
Fixpoint tr_low (cnt : nat) (k j pj : Z) (s : S) : res (S * Z) :=
  match cnt with
  | O => Ok (s, pj)
  | Datatypes.S cnt =>
      let* i := get Ai pj in
      if i <? k then let* s := edge i j s in tr_low cnt k j (pj + 1) s
      else if i =? k then Ok (s, pj + 1)
      else Ok (s, pj)
  end.
(* amd_aat.c:66-123, amd_1.c:93-148: for (p = p1 ; p < p2 ; ); cnt = p2 - p *)
Fixpoint tr_up (cnt : nat) (k p : Z) (s : S) (Tp : list Z) : res (S * list Z * Z) :=
  match cnt with
  | O => Ok (s, Tp, p)
  | Datatypes.S cnt =>
      let* j := get Ai p in
      if j <? k then
        let* s := edge j k s in
        let* pj2 := get Ap (j + 1) in
        let* pj := get Tp j in
        let* st := tr_low (Z.to_nat (pj2 - pj)) k j pj s in
        let '(s, pj) := st in
        let* Tp := set Tp j pj in
        tr_up cnt k (p + 1) s Tp
      else if j =? k then Ok (s, Tp, p + 1)
      else Ok (s, Tp, p)
  end.
(* amd_aat.c:59-126, amd_1.c:86-150 *)
Definition tr_main (s : S) (Tp : list Z) : res (S * list Z) :=
  for_ 0 n (fun k '(s, Tp) =>
    let* p1 := get Ap k in let* p2 := get Ap (k + 1) in
    let* st := tr_up (Z.to_nat (p2 - p1)) k p1 s Tp in
    let '(s, Tp, p) := st in
    let* Tp := set Tp k p in Ok (s, Tp)) (s, Tp).
(* amd_aat.c:129-141, amd_1.c:153-165 *)
Definition tr_rest (s : S) (Tp : list Z) : res S :=
  for_ 0 n (fun j s =>
    let* pj := get Tp j in let* e := get Ap (j + 1) in
    for_ pj e (fun pj s => let* i := get Ai pj in edge i j s) s) s.
Definition traverse (s : S) (Tp : list Z) : res S :=
  let* st := tr_main s Tp in
  let '(s, Tp) := st in tr_rest s Tp.
End Traverse.

(* AMD_aat, amd_aat.c:20-184 (the symmetry statistics are not modelled): Len (set to 0 in :51-54) and nzaat.  Tp is the output array
   P of AMD_order (amd_order.c:141) with arbitrary contents. *)
Definition amd_aat (n : Z) (Ap Ai Tp : list Z) : res (list Z * Z) :=
  let* Len := traverse (fun a b Len => let* Len := inc Len a 1 in inc Len b 1) n Ap Ai (mk n 0) Tp in
  let* nzaat := for_ 0 n (fun k s => let* l := get Len k in Ok (s + l)) 0 in                  (* :162-166 *)
  Ok (Len, nzaat).

(* AMD_1, amd_1.c:53-165: Pe, Iw, pfree.  Pe, Iw (slen - 6n entries) and Tp, which is W (:67), with arbitrary contents; Sp, which is Nv
   (:66), is set with Pe. *)
Definition amd_build (n : Z) (Pe Iw Tp Ap Ai Len : list Z) : res (list Z * list Z * Z) :=
  let* st := for_ 0 n (fun j '(Pe, pfree) =>                                                  (* :69-74 *)
    let* Pe := set Pe j pfree in let* l := get Len j in Ok (Pe, pfree + l)) (Pe, 0) in
  let '(Pe, pfree) := st in
  let* st := traverse (fun a b '(Iw, Sp) =>
    let* q := get Sp a in let* Iw := set Iw q b in let* Sp := set Sp a (q + 1) in
    let* q := get Sp b in let* Iw := set Iw q a in let* Sp := set Sp b (q + 1) in Ok (Iw, Sp)) n Ap Ai (Iw, Pe) Tp in
  Ok (Pe, fst st, pfree).

(*----------------------------------------------------------------------------*)
(* AMD_2, amd_2.c *)

(* clear_flag, :22-35 *)
Definition clear_flag (wflg wbig : Z) (W : list Z) (n : Z) : res (list Z * Z) :=
  if (wflg <? 2) || (wflg >=? wbig) then
    let* W := for_ 0 n (fun x W => let* w := get W x in if negb (w =? 0) then set W x 1 else Ok W) W in
    Ok (W, 2)
  else Ok (W, wflg).

(* insertion of i at the head of the degree list deg: :685-689 *)
Definition dg_insert (i deg : Z) (Next Last Head : list Z) : res (list Z * list Z * list Z) :=
  let* inext := get Head deg in
  let* Last := (if negb (inext =? EMPTY) then set Last inext i else Ok Last) in
  let* Next := set Next i inext in
  let* Head := set Head deg i in
  Ok (Next, Last, Head).
(* removal of i from its degree list: :796-810, :955-969 *)
Definition dg_remove (i : Z) (Degree Next Last Head : list Z) : res (list Z * list Z * list Z) :=
  let* ilast := get Last i in
  let* inext := get Next i in
  let* Last := (if negb (inext =? EMPTY) then set Last inext ilast else Ok Last) in
  if negb (ilast =? EMPTY) then let* Next := set Next ilast inext in Ok (Next, Last, Head)
  else let* d := get Degree i in let* Head := set Head d inext in Ok (Next, Last, Head).

(* :638-692: Pe, Nv, Next, Last, Head, Elen, W, nel, ndense *)
Definition a2_lists (n dense : Z) (Degree Pe Nv Next Last Head Elen W : list Z)
  : res (list Z * list Z * list Z * list Z * list Z * list Z * list Z * Z * Z) :=
  for_ 0 n (fun i '(Pe, Nv, Next, Last, Head, Elen, W, nel, ndense) =>
    let* deg := get Degree i in
    if deg =? 0 then
      let* Elen := set Elen i (FLIP 1) in
      let* Pe := set Pe i EMPTY in
      let* W := set W i 0 in
      Ok (Pe, Nv, Next, Last, Head, Elen, W, nel + 1, ndense)
    else if deg >? dense then
      let* Nv := set Nv i 0 in
      let* Elen := set Elen i EMPTY in
      let* Pe := set Pe i EMPTY in
      Ok (Pe, Nv, Next, Last, Head, Elen, W, nel + 1, ndense + 1)
    else
      let* st := dg_insert i deg Next Last Head in
      let '(Next, Last, Head) := st in
      Ok (Pe, Nv, Next, Last, Head, Elen, W, nel, ndense)) (Pe, Nv, Next, Last, Head, Elen, W, 0, 0).

(* :719-724: for (deg = mindeg ; deg < n ; deg++); cnt = n - mindeg.  me keeps its value if every list is empty. *)
Fixpoint a2_min (cnt : nat) (deg me : Z) (Head : list Z) : res (Z * Z) :=
  match cnt with
  | O => Ok (deg, me)
  | S cnt => let* me := get Head deg in if negb (me =? EMPTY) then Ok (deg, me) else a2_min cnt (deg + 1) me Head
  end.

(* :771-812: the new element in place: Iw, Nv, Next, Last, Head, pme2, degme *)
Definition a2_inplace (pme1 lenme : Z) (Degree Iw Nv Next Last Head : list Z)
  : res (list Z * list Z * list Z * list Z * list Z * Z * Z) :=
  for_ pme1 (pme1 + lenme) (fun p '(Iw, Nv, Next, Last, Head, pme2, degme) =>
    let* i := get Iw p in
    let* nvi := get Nv i in
    if nvi >? 0 then
      let* Nv := set Nv i (- nvi) in
      let* Iw := set Iw (pme2 + 1) i in
      let* st := dg_remove i Degree Next Last Head in
      let '(Next, Last, Head) := st in
      Ok (Iw, Nv, Next, Last, Head, pme2 + 1, degme + nvi)
    else Ok (Iw, Nv, Next, Last, Head, pme2, degme)) (Iw, Nv, Next, Last, Head, pme1 - 1, 0).

(* :891-902 *)
Definition gc_heads (n : Z) (Iw Pe : list Z) : res (list Z * list Z) :=
  for_ 0 n (fun j '(Iw, Pe) =>
    let* pn := get Pe j in
    if pn >=? 0 then
      let* v := get Iw pn in
      let* Pe := set Pe j v in
      let* Iw := set Iw pn (FLIP j) in Ok (Iw, Pe)
    else Ok (Iw, Pe)) (Iw, Pe).
(* :919-923 *)
Definition gc_copy (lenj psrc pdst : Z) (Iw : list Z) : res (list Z) :=
  for_ 0 (lenj - 1) (fun k Iw => let* v := get Iw (psrc + k) in set Iw (pdst + k) v) Iw.
(* :909-925 *)
Fixpoint gc_squeeze (fuel : nat) (pend psrc pdst : Z) (Len Iw Pe : list Z) : res (list Z * list Z * Z) :=
  if psrc <=? pend then
    match fuel with
    | O => Fuel
    | S fuel =>
        let* v := get Iw psrc in
        let j := FLIP v in
        if j >=? 0 then
          let* h := get Pe j in
          let* Iw := set Iw pdst h in
          let* Pe := set Pe j pdst in
          let* lenj := get Len j in
          let* Iw := gc_copy lenj (psrc + 1) (pdst + 1) Iw in
          let k := Z.max 0 (lenj - 1) in
          gc_squeeze fuel pend (psrc + 1 + k) (pdst + 1 + k) Len Iw Pe
        else gc_squeeze fuel pend (psrc + 1) pdst Len Iw Pe
    end
  else Ok (Iw, Pe, pdst).
(* :880-936: Iw, Pe, Len, p, pj, pme1, pfree *)
Definition a2_compress (n me e knt1 knt2 ln p pj pme1 pfree : Z) (Iw Pe Len : list Z)
  : res (list Z * list Z * list Z * Z * Z * Z * Z) :=
  let* Pe := set Pe me p in
  let* l := get Len me in
  let* Len := set Len me (l - knt1) in
  let* Pe := (if l - knt1 =? 0 then set Pe me EMPTY else Ok Pe) in
  let* Pe := set Pe e pj in
  let* Len := set Len e (ln - knt2) in
  let* Pe := (if ln - knt2 =? 0 then set Pe e EMPTY else Ok Pe) in
  let* st := gc_heads n Iw Pe in
  let '(Iw, Pe) := st in
  let* st := gc_squeeze (Z.to_nat (pme1 + 1)) (pme1 - 1) 0 0 Len Iw Pe in
  let '(Iw, Pe, p1) := st in
  let* Iw := for_ pme1 pfree (fun psrc Iw => let* v := get Iw psrc in set Iw (p1 + (psrc - pme1)) v) Iw in     (* :928-932 *)
  let* pj := get Pe e in
  let* p := get Pe me in
  Ok (Iw, Pe, Len, p, pj, p1, p1 + (pfree - pme1)).

(* what the construction of an element in the empty space works on *)
Record bld := mkB { b_Iw : list Z; b_Pe : list Z; b_Len : list Z; b_Nv : list Z; b_Next : list Z; b_Last : list Z; b_Head : list Z;
  b_W : list Z; b_p : Z; b_pme1 : Z; b_pfree : Z; b_degme : Z }.

(* :855-971, for one list of ln supervariables that starts at pj; the body of the loop *)
Definition a2_gather1 (n me e knt1 ln : Z) (Degree : list Z) (knt2 : Z) (st : bld * Z) : res (bld * Z) :=
  let '(mkB Iw Pe Len Nv Next Last Head W p pme1 pfree degme, pj) := st in
  let* i := get Iw pj in
  let pj := pj + 1 in
  let* nvi := get Nv i in
  if nvi >? 0 then
    let* st := (if pfree >=? zlen Iw then a2_compress n me e knt1 knt2 ln p pj pme1 pfree Iw Pe Len
                else Ok (Iw, Pe, Len, p, pj, pme1, pfree)) in
    let '(Iw, Pe, Len, p, pj, pme1, pfree) := st in
    let* Nv := set Nv i (- nvi) in
    let* Iw := set Iw pfree i in
    let* st := dg_remove i Degree Next Last Head in
    let '(Next, Last, Head) := st in
    Ok (mkB Iw Pe Len Nv Next Last Head W p pme1 (pfree + 1) (degme + nvi), pj)
  else Ok (mkB Iw Pe Len Nv Next Last Head W p pme1 pfree degme, pj).
Definition a2_gather (n me e knt1 ln pj : Z) (Degree : list Z) (b : bld) : res (bld * Z) :=
  for_ 1 (ln + 1) (a2_gather1 n me e knt1 ln Degree) (b, pj).
(* :821-983, the body of the loop *)
Definition a2_cons1 (n me elenme slenme : Z) (Degree : list Z) (knt1 : Z) (b : bld) : res bld :=
  let '(mkB Iw Pe Len Nv Next Last Head W p pme1 pfree degme) := b in
  let* st := (if knt1 >? elenme then Ok (me, p, slenme, p)
              else
                let* e := get Iw p in
                let* pj := get Pe e in
                let* ln := get Len e in Ok (e, pj, ln, p + 1)) in
  let '(e, pj, ln, p) := st in
  let* st := a2_gather n me e knt1 ln pj Degree (mkB Iw Pe Len Nv Next Last Head W p pme1 pfree degme) in
  let '(mkB Iw Pe Len Nv Next Last Head W p pme1 pfree degme, _) := st in
  if negb (e =? me) then
    let* Pe := set Pe e (FLIP me) in
    let* W := set W e 0 in
    Ok (mkB Iw Pe Len Nv Next Last Head W p pme1 pfree degme)
  else Ok (mkB Iw Pe Len Nv Next Last Head W p pme1 pfree degme).
Definition a2_construct (n me elenme : Z) (Degree : list Z) (b : bld) : res bld :=
  let* lenme := get (b_Len b) me in
  let slenme := lenme - elenme in
  for_ 1 (elenme + 2) (a2_cons1 n me elenme slenme Degree) b.

(* :1046-1067 *)
Definition s1_one (wflg nvi pe eln : Z) (Iw Degree W : list Z) : res (list Z) :=
  for_ pe (pe + eln) (fun p W =>
    let* e := get Iw p in
    let* we := get W e in
    if we >=? wflg then set W e (we - nvi)
    else if negb (we =? 0) then let* d := get Degree e in set W e (d + (wflg - nvi))
    else set W e we) W.
(* Scan 1, :1034-1069 *)
Definition a2_scan1 (wflg pme1 pme2 : Z) (Iw Pe Nv Elen Degree W : list Z) : res (list Z) :=
  for_ pme1 (pme2 + 1) (fun pme W =>
    let* i := get Iw pme in
    let* eln := get Elen i in
    if eln >? 0 then
      let* nvi := get Nv i in
      let* pe := get Pe i in
      s1_one wflg (- nvi) pe eln Iw Degree W
    else Ok W) W.

(* Scan 2, the elements of i, :1100-1149: Iw, Pe, W, pn, hash, deg *)
Definition s2_elems (aggressive : bool) (me wflg p1 p2 : Z) (Iw Pe W : list Z) : res (list Z * list Z * list Z * Z * Z * Z) :=
  for_ p1 (p2 + 1) (fun p '(Iw, Pe, W, pn, hash, deg) =>
    let* e := get Iw p in
    let* we := get W e in
    if negb (we =? 0) then
      let dext := we - wflg in
      if (dext >? 0) || negb aggressive then
        let* Iw := set Iw pn e in
        Ok (Iw, Pe, W, pn + 1, (hash + e) mod hash64, deg + dext)
      else
        let* Pe := set Pe e (FLIP me) in
        let* W := set W e 0 in
        Ok (Iw, Pe, W, pn, hash, deg)
    else Ok (Iw, Pe, W, pn, hash, deg)) (Iw, Pe, W, p1, 0, 0).
(* the supervariables of i, :1163-1178 *)
Definition s2_vars (p2 p4 : Z) (Nv Iw : list Z) (pn hash deg : Z) : res (list Z * Z * Z * Z) :=
  for_ (p2 + 1) p4 (fun p '(Iw, pn, hash, deg) =>
    let* j := get Iw p in
    let* nvj := get Nv j in
    if nvj >? 0 then let* Iw := set Iw pn j in Ok (Iw, pn + 1, (hash + j) mod hash64, deg + nvj)
    else Ok (Iw, pn, hash, deg)) (Iw, pn, hash, deg).
(* :1262-1282: Next, Last, Head *)
Definition s2_bucket (i hash : Z) (Next Last Head : list Z) : res (list Z * list Z * list Z) :=
  let* j := get Head hash in
  let* st := (if j <=? EMPTY then
                let* Next := set Next i (FLIP j) in
                let* Head := set Head hash (FLIP i) in Ok (Next, Last, Head)
              else
                let* l := get Last j in
                let* Next := set Next i l in
                let* Last := set Last j i in Ok (Next, Last, Head)) in
  let '(Next, Last, Head) := st in
  let* Last := set Last i hash in
  Ok (Next, Last, Head).

(* what Scan 2 works on *)
Record sc2 := mkS2 { s_Iw : list Z; s_Pe : list Z; s_Len : list Z; s_Nv : list Z; s_Next : list Z; s_Last : list Z; s_Head : list Z;
  s_Elen : list Z; s_Degree : list Z; s_W : list Z; s_degme : Z; s_nvpiv : Z; s_nel : Z }.
(* :1085-1283 *)
Definition s2_one (aggressive : bool) (n me wflg pme : Z) (s : sc2) : res sc2 :=
  let '(mkS2 Iw Pe Len Nv Next Last Head Elen Degree W degme nvpiv nel) := s in
  let* i := get Iw pme in
  let* p1 := get Pe i in
  let* eln := get Elen i in
  let p2 := p1 + eln - 1 in
  let* st := s2_elems aggressive me wflg p1 p2 Iw Pe W in
  let '(Iw, Pe, W, pn, hash, deg) := st in
  let* Elen := set Elen i (pn - p1 + 1) in
  let p3 := pn in
  let* li := get Len i in
  let* st := s2_vars p2 (p1 + li) Nv Iw pn hash deg in
  let '(Iw, pn, hash, deg) := st in
  if (p3 - p1 + 1 =? 1) && (p3 =? pn) then                                                   (* :1188-1224 *)
    let* Pe := set Pe i (FLIP me) in
    let* nvi := get Nv i in
    let* Nv := set Nv i 0 in
    let* Elen := set Elen i EMPTY in
    Ok (mkS2 Iw Pe Len Nv Next Last Head Elen Degree W (degme - (- nvi)) (nvpiv + - nvi) (nel + - nvi))
  else
    let* d := get Degree i in                                                                (* :1235 *)
    let* Degree := set Degree i (Z.min d deg) in
    let* v := get Iw p3 in let* Iw := set Iw pn v in                                         (* :1242-1248 *)
    let* v := get Iw p1 in let* Iw := set Iw p3 v in
    let* Iw := set Iw p1 me in
    let* Len := set Len i (pn - p1 + 1) in
    let* st := s2_bucket i (hash mod n) Next Last Head in                                    (* :1258-1282 *)
    let '(Next, Last, Head) := st in
    Ok (mkS2 Iw Pe Len Nv Next Last Head Elen Degree W degme nvpiv nel).
(* :1083-1284 *)
Definition a2_scan2 (aggressive : bool) (n me wflg pme1 pme2 : Z) (s : sc2) : res sc2 :=
  for_ pme1 (pme2 + 1) (fun pme s => s2_one aggressive n me wflg pme s) s.

(* :1364-1368 *)
Definition sv_scatter (pe ln wflg : Z) (Iw W : list Z) : res (list Z) :=
  for_ (pe + 1) (pe + ln) (fun p W => let* x := get Iw p in set W x wflg) W.
(* :1391-1395: for (p = Pe [j] + 1 ; ok && p <= Pe [j] + ln - 1 ; p++); cnt = ln - 1 *)
Fixpoint sv_same (cnt : nat) (p wflg : Z) (Iw W : list Z) : res bool :=
  match cnt with
  | O => Ok true
  | S cnt => let* x := get Iw p in let* w := get W x in if negb (w =? wflg) then Ok false else sv_same cnt (p + 1) wflg Iw W
  end.
(* :1378-1424: Pe, Nv, Elen, Next *)
Fixpoint sv_inner (fuel : nat) (i ln eln wflg jlast j : Z) (Iw Len W Pe Nv Elen Next : list Z)
  : res (list Z * list Z * list Z * list Z) :=
  if negb (j =? EMPTY) then
    match fuel with
    | O => Fuel
    | S fuel =>
        let* lj := get Len j in
        let* ej := get Elen j in
        let* ok := (if (lj =? ln) && (ej =? eln) then let* pj := get Pe j in sv_same (Z.to_nat (ln - 1)) (pj + 1) wflg Iw W
                    else Ok false) in
        if ok then
          let* Pe := set Pe j (FLIP i) in
          let* nvi := get Nv i in let* nvj := get Nv j in
          let* Nv := set Nv i (nvi + nvj) in
          let* Nv := set Nv j 0 in
          let* Elen := set Elen j EMPTY in
          let* nj := get Next j in
          let* Next := set Next jlast nj in
          sv_inner fuel i ln eln wflg jlast nj Iw Len W Pe Nv Elen Next
        else
          let* nj := get Next j in
          sv_inner fuel i ln eln wflg j nj Iw Len W Pe Nv Elen Next
    end
  else Ok (Pe, Nv, Elen, Next).
(* :1350-1435: Pe, Nv, Elen, Next, W, wflg *)
Fixpoint sv_outer (fuel fuel' : nat) (i wflg : Z) (Iw Len Pe Nv Elen Next W : list Z)
  : res (list Z * list Z * list Z * list Z * list Z * Z) :=
  if i =? EMPTY then Ok (Pe, Nv, Elen, Next, W, wflg)
  else
    let* nx := get Next i in
    if nx =? EMPTY then Ok (Pe, Nv, Elen, Next, W, wflg)
    else
      match fuel with
      | O => Fuel
      | S fuel =>
          let* ln := get Len i in
          let* eln := get Elen i in
          let* pe := get Pe i in
          let* W := sv_scatter pe ln wflg Iw W in
          let* st := sv_inner fuel' i ln eln wflg i nx Iw Len W Pe Nv Elen Next in
          let '(Pe, Nv, Elen, Next) := st in
          let* i' := get Next i in
          sv_outer fuel fuel' i' (wflg + 1) Iw Len Pe Nv Elen Next W
      end.
(* :1303-1437: Pe, Nv, Elen, Next, Last, Head, W, wflg *)
Definition a2_detect (n pme1 pme2 : Z) (Iw Len Pe Nv Elen Next Last Head W : list Z) (wflg : Z)
  : res (list Z * list Z * list Z * list Z * list Z * list Z * list Z * Z) :=
  for_ pme1 (pme2 + 1) (fun pme '(Pe, Nv, Elen, Next, Last, Head, W, wflg) =>
    let* i := get Iw pme in
    let* nvi := get Nv i in
    if nvi <? 0 then
      let* hash := get Last i in
      let* j := get Head hash in
      let* st := (if j =? EMPTY then Ok (EMPTY, Last, Head)
                  else if j <? EMPTY then let* Head := set Head hash EMPTY in Ok (FLIP j, Last, Head)
                  else let* i := get Last j in let* Last := set Last j EMPTY in Ok (i, Last, Head)) in
      let '(i, Last, Head) := st in
      let* st := sv_outer (Z.to_nat n) (Z.to_nat n) i wflg Iw Len Pe Nv Elen Next W in
      let '(Pe, Nv, Elen, Next, W, wflg) := st in
      Ok (Pe, Nv, Elen, Next, Last, Head, W, wflg)
    else Ok (Pe, Nv, Elen, Next, Last, Head, W, wflg)) (Pe, Nv, Elen, Next, Last, Head, W, wflg).

(* :1444-1491: Iw, Nv, Next, Last, Head, Degree, mindeg, p *)
Definition a2_final (n nel degme pme1 pme2 : Z) (Iw Nv Next Last Head Degree : list Z) (mindeg : Z)
  : res (list Z * list Z * list Z * list Z * list Z * list Z * Z * Z) :=
  for_ pme1 (pme2 + 1) (fun pme '(Iw, Nv, Next, Last, Head, Degree, mindeg, p) =>
    let* i := get Iw pme in
    let* nv := get Nv i in
    let nvi := - nv in
    if nvi >? 0 then
      let* Nv := set Nv i nvi in
      let* d := get Degree i in
      let deg := Z.min (d + degme - nvi) (n - nel - nvi) in
      let* inext := get Head deg in
      let* Last := (if negb (inext =? EMPTY) then set Last inext i else Ok Last) in
      let* Next := set Next i inext in
      let* Last := set Last i EMPTY in
      let* Head := set Head deg i in
      let* Degree := set Degree i deg in
      let* Iw := set Iw p i in
      Ok (Iw, Nv, Next, Last, Head, Degree, Z.min mindeg deg, p + 1)
    else Ok (Iw, Nv, Next, Last, Head, Degree, mindeg, p)) (Iw, Nv, Next, Last, Head, Degree, mindeg, pme1).

(* what the main loop carries; t_lnz: lnz, :1523-1542 *)
Record a2st := mkA2 { t_Iw : list Z; t_Pe : list Z; t_Len : list Z; t_Nv : list Z; t_Next : list Z; t_Last : list Z; t_Head : list Z;
  t_Elen : list Z; t_Degree : list Z; t_W : list Z; t_pfree : Z; t_mindeg : Z; t_me : Z; t_nel : Z; t_wflg : Z; t_lemax : Z; t_lnz : Z }.

(* one iteration of :698-1553 *)
Definition a2_step (aggressive : bool) (n wbig ndense : Z) (t : a2st) : res a2st :=
  let '(mkA2 Iw Pe Len Nv Next Last Head Elen Degree W pfree mindeg me nel wflg lemax lnz) := t in
  let* st := a2_min (Z.to_nat (n - mindeg)) mindeg me Head in                                (* :719-724 *)
  let '(mindeg, me) := st in
  let* inext := get Next me in                                                               (* :732-735 *)
  let* Last := (if negb (inext =? EMPTY) then set Last inext EMPTY else Ok Last) in
  let* Head := set Head mindeg inext in
  let* elenme := get Elen me in                                                              (* :742-761 *)
  let* nvpiv := get Nv me in
  let nel := nel + nvpiv in
  let* Nv := set Nv me (- nvpiv) in
  let* pe := get Pe me in
  let* st := (if elenme =? 0 then                                                            (* :764-984 *)
                let* lenme := get Len me in
                let* st := a2_inplace pe lenme Degree Iw Nv Next Last Head in
                let '(Iw, Nv, Next, Last, Head, pme2, degme) := st in
                Ok (mkB Iw Pe Len Nv Next Last Head W pe pe pfree degme, pme2)
              else
                let* b := a2_construct n me elenme Degree (mkB Iw Pe Len Nv Next Last Head W pe pfree pfree 0) in
                Ok (b, b_pfree b - 1)) in
  let '(mkB Iw Pe Len Nv Next Last Head W _ pme1 pfree degme, pme2) := st in
  let* Degree := set Degree me degme in                                                      (* :991-996 *)
  let* Pe := set Pe me pme1 in
  let* Len := set Len me (pme2 - pme1 + 1) in
  let* Elen := set Elen me (FLIP (nvpiv + degme)) in
  let* st := clear_flag wflg wbig W n in                                                     (* :1013 *)
  let '(W, wflg) := st in
  let* W := a2_scan1 wflg pme1 pme2 Iw Pe Nv Elen Degree W in
  let* s := a2_scan2 aggressive n me wflg pme1 pme2 (mkS2 Iw Pe Len Nv Next Last Head Elen Degree W degme nvpiv nel) in
  let '(mkS2 Iw Pe Len Nv Next Last Head Elen Degree W degme nvpiv nel) := s in
  let* Degree := set Degree me degme in                                                      (* :1286-1295 *)
  let lemax := Z.max lemax degme in
  let* st := clear_flag (wflg + lemax) wbig W n in
  let '(W, wflg) := st in
  let* st := a2_detect n pme1 pme2 Iw Len Pe Nv Elen Next Last Head W wflg in
  let '(Pe, Nv, Elen, Next, Last, Head, W, wflg) := st in
  let* st := a2_final n nel degme pme1 pme2 Iw Nv Next Last Head Degree mindeg in
  let '(Iw, Nv, Next, Last, Head, Degree, mindeg, p) := st in
  let* Nv := set Nv me nvpiv in                                                              (* :1499-1514 *)
  let* Len := set Len me (p - pme1) in
  let* st := (if p - pme1 =? 0 then let* Pe := set Pe me EMPTY in let* W := set W me 0 in Ok (Pe, W) else Ok (Pe, W)) in
  let '(Pe, W) := st in
  let pfree := if negb (elenme =? 0) then p else pfree in
  let r := degme + ndense in                                                                 (* :1525-1531 *)
  let lnz := lnz + (nvpiv * r + (nvpiv - 1) * nvpiv / 2) in
  Ok (mkA2 Iw Pe Len Nv Next Last Head Elen Degree W pfree mindeg me nel wflg lemax lnz).

(* :698 *)
Fixpoint a2_loop (fuel : nat) (aggressive : bool) (n wbig ndense : Z) (t : a2st) : res a2st :=
  if t_nel t <? n then
    match fuel with
    | O => Fuel
    | S fuel => let* t := a2_step aggressive n wbig ndense t in a2_loop fuel aggressive n wbig ndense t
    end
  else Ok t.

(* the path of i up to an element, :1732-1740 *)
Fixpoint a2_root (fuel : nat) (Nv Pe : list Z) (j : Z) : res Z :=
  match fuel with
  | O => Fuel
  | S fuel => let* nv := get Nv j in if nv =? 0 then let* j := get Pe j in a2_root fuel Nv Pe j else Ok j
  end.
(* :1749-1758 *)
Fixpoint a2_path (fuel : nat) (e : Z) (Nv : list Z) (j : Z) (Pe : list Z) : res (list Z) :=
  match fuel with
  | O => Fuel
  | S fuel =>
      let* nv := get Nv j in
      if nv =? 0 then let* jnext := get Pe j in let* Pe := set Pe j e in a2_path fuel e Nv jnext Pe else Ok Pe
  end.
(* :1708-1760 *)
Definition a2_paths (n : Z) (Nv Pe : list Z) : res (list Z) :=
  for_ 0 n (fun i Pe =>
    let* nv := get Nv i in
    if nv =? 0 then
      let* j := get Pe i in
      if j =? EMPTY then Ok Pe
      else
        let* e := a2_root (Z.to_nat (n + 1)) Nv Pe j in
        a2_path (Z.to_nat (n + 1)) e Nv i Pe
    else Ok Pe) Pe.

(*----------------------------------------------------------------------------*)
(* AMD_post_tree, amd_post_tree.c *)
(* :76-81: the number of children; :84-90: push them *)
Fixpoint pt_count (fuel : nat) (f head : Z) (Sibling : list Z) : res Z :=
  if f =? EMPTY then Ok head
  else match fuel with O => Fuel | S fuel => let* f := get Sibling f in pt_count fuel f (head + 1) Sibling end.
Fixpoint pt_push (fuel : nat) (f h : Z) (Sibling Stack : list Z) : res (list Z) :=
  if f =? EMPTY then Ok Stack
  else
    match fuel with
    | O => Fuel
    | S fuel => let* Stack := set Stack h f in let* f := get Sibling f in pt_push fuel f (h - 1) Sibling Stack
    end.
(* :62-118: Order, Child, Stack, k *)
Fixpoint pt_loop (fuel : nat) (n head k : Z) (Child Sibling Order Stack : list Z) : res (list Z * list Z * list Z * Z) :=
  if head >=? 0 then
    match fuel with
    | O => Fuel
    | S fuel =>
        let* i := get Stack head in
        let* c := get Child i in
        if negb (c =? EMPTY) then
          let* h := pt_count (Z.to_nat n) c head Sibling in
          let* Stack := pt_push (Z.to_nat n) c h Sibling Stack in
          let* Child := set Child i EMPTY in
          pt_loop fuel n h k Child Sibling Order Stack
        else
          let* Order := set Order i k in
          pt_loop fuel n (head - 1) (k + 1) Child Sibling Order Stack
    end
  else Ok (Order, Child, Stack, k).
Definition amd_post_tree (n root k : Z) (Child Sibling Order Stack : list Z) : res (list Z * list Z * list Z * Z) :=
  let* Stack := set Stack 0 root in
  pt_loop (Z.to_nat (2 * n)) n 0 k Child Sibling Order Stack.

(* AMD_postorder, amd_postorder.c *)
(* :45-59 *)
Definition po_children (n : Z) (Parent Nv : list Z) : res (list Z * list Z) :=
  down_ n 0 (fun j '(Child, Sibling) =>
    let* nv := get Nv j in
    if nv >? 0 then
      let* parent := get Parent j in
      if negb (parent =? EMPTY) then
        let* c := get Child parent in
        let* Sibling := set Sibling j c in
        let* Child := set Child parent j in Ok (Child, Sibling)
      else Ok (Child, Sibling)
    else Ok (Child, Sibling)) (mk n EMPTY, mk n EMPTY).
(* :125-137: the biggest child: bigf, bigfprev, fprev *)
Fixpoint po_big (fuel : nat) (f fprev maxfrsize bigfprev bigf : Z) (Fsize Sibling : list Z) : res (Z * Z * Z) :=
  if f =? EMPTY then Ok (bigf, bigfprev, fprev)
  else
    match fuel with
    | O => Fuel
    | S fuel =>
        let* frsize := get Fsize f in
        let* f' := get Sibling f in
        if frsize >=? maxfrsize then po_big fuel f' f frsize fprev f Fsize Sibling
        else po_big fuel f' f maxfrsize bigfprev bigf Fsize Sibling
    end.
(* :102-181 *)
Definition po_biglast (n : Z) (Nv Fsize Child Sibling : list Z) : res (list Z * list Z) :=
  for_ 0 n (fun i '(Child, Sibling) =>
    let* nv := get Nv i in
    let* c := get Child i in
    if (nv >? 0) && negb (c =? EMPTY) then
      let* st := po_big (Z.to_nat n) c EMPTY EMPTY EMPTY EMPTY Fsize Sibling in
      let '(bigf, bigfprev, fprev) := st in
      let* fnext := get Sibling bigf in
      if negb (fnext =? EMPTY) then
        let* st := (if bigfprev =? EMPTY then let* Child := set Child i fnext in Ok (Child, Sibling)
                    else let* Sibling := set Sibling bigfprev fnext in Ok (Child, Sibling)) in
        let '(Child, Sibling) := st in
        let* Sibling := set Sibling bigf EMPTY in
        let* Sibling := set Sibling fprev bigf in
        Ok (Child, Sibling)
      else Ok (Child, Sibling)
    else Ok (Child, Sibling)) (Child, Sibling).
(* :15-206 *)
Definition amd_postorder (n : Z) (Parent Nv Fsize Order Stack : list Z) : res (list Z) :=
  let* st := po_children n Parent Nv in
  let '(Child, Sibling) := st in
  let* st := po_biglast n Nv Fsize Child Sibling in
  let '(Child, Sibling) := st in
  let* st := for_ 0 n (fun i '(Order, Child, Stack, k) =>                                    (* :192-205 *)
    let* pa := get Parent i in
    let* nv := get Nv i in
    if (pa =? EMPTY) && (nv >? 0) then amd_post_tree n i k Child Sibling Order Stack
    else Ok (Order, Child, Stack, k)) (mk n EMPTY, Child, Stack, 0) in
  let '(Order, _, _, _) := st in Ok Order.

(* :1797-1804: for (k = 0 ; k < n ; k++); cnt = n - k: Next, nel *)
Fixpoint a2_offsets (cnt : nat) (k : Z) (Head Nv Next : list Z) (nel : Z) : res (list Z * Z) :=
  match cnt with
  | O => Ok (Next, nel)
  | S cnt =>
      let* e := get Head k in
      if e =? EMPTY then Ok (Next, nel)
      else let* Next := set Next e nel in let* nv := get Nv e in a2_offsets cnt (k + 1) Head Nv Next (nel + nv)
  end.
(* :1778-1841: the permutation *)
Definition a2_output (n : Z) (Nv Pe W : list Z) : res (list Z) :=
  let* Head := for_ 0 n (fun e Head =>                                                       (* :1783-1792 *)
    let* k := get W e in if negb (k =? EMPTY) then set Head k e else Ok Head) (mk n EMPTY) in
  let* st := a2_offsets (Z.to_nat n) 0 Head Nv (mk n EMPTY) 0 in
  let '(Next, nel) := st in
  let* st := for_ 0 n (fun i '(Next, nel) =>                                                 (* :1808-1831 *)
    let* nv := get Nv i in
    if nv =? 0 then
      let* e := get Pe i in
      if negb (e =? EMPTY) then
        let* x := get Next e in
        let* Next := set Next i x in
        let* Next := set Next e (x + 1) in Ok (Next, nel)
      else let* Next := set Next i nel in Ok (Next, nel + 1)
    else Ok (Next, nel)) (Next, nel) in
  let '(Next, _) := st in
  for_ 0 n (fun i Last => let* k := get Next i in set Last k i) (mk n 0).                    (* :1835-1841 *)

(* AMD_2, :560-1842.  dense0 = alpha * sqrt (n), :603; any value is allowed.  Int_MAX = 2^63-1. *)
Definition amd_2 (aggressive : bool) (n dense0 : Z) (Pe Iw Len : list Z) (pfree : Z) : res (list Z * Z) :=
  let dense := Z.min n (Z.max 16 dense0) in
  let wbig := 2 ^ 63 - 1 - n in
  let* st := clear_flag 0 wbig (mk n 1) n in
  let '(W, wflg) := st in
  let* st := a2_lists n dense Len Pe (mk n 1) (mk n EMPTY) (mk n EMPTY) (mk n EMPTY) (mk n 0) W in
  let '(Pe, Nv, Next, Last, Head, Elen, W, nel, ndense) := st in
  let* t := a2_loop (Z.to_nat n) aggressive n wbig ndense (mkA2 Iw Pe Len Nv Next Last Head Elen Len W pfree 0 EMPTY nel wflg 0 0) in
  let lnz := t_lnz t + (ndense - 1) * ndense / 2 in                                          (* :1567-1568, :1581 *)
  let* Pe := for_ 0 n (fun i Pe => let* p := get Pe i in set Pe i (FLIP p)) (t_Pe t) in      (* :1634-1643 *)
  let* Elen := for_ 0 n (fun i Elen => let* p := get Elen i in set Elen i (FLIP p)) (t_Elen t) in
  let* Pe := a2_paths n (t_Nv t) Pe in
  let* Order := amd_postorder n Pe (t_Nv t) Elen (t_W t) (t_Last t) in
  let* P := a2_output n (t_Nv t) Pe Order in
  Ok (P, lnz).

(* k cells of fresh memory from cell lo on *)
Definition block (junk : Z -> Z) (lo k : Z) : list Z := map junk (zseq lo (lo + k)).

(* AMD_order, amd_order.c:20-199.  junk: the contents of the output array P (0) on entry and of the malloc'ed Rp (1), Ri (2), S (3).  None: nothing is written to P, and Info [AMD_LNZ] is EMPTY (:67-70, n = 0). *)
Definition amd_order (junk : Z -> Z -> Z) (aggressive : bool) (n dense0 : Z) (Ap Ai : list Z) : res (option (list Z * Z)) :=
  if n <? 0 then FALSE
  else if n =? 0 then Ok None
  else
    let* nz := get Ap n in
    if nz <? 0 then FALSE
    else
      let* jumbled := amd_valid n n Ap Ai in
      let* st := (if jumbled then amd_preprocess n Ap Ai (block (junk 1) 0 (n + 1)) (block (junk 2) 0 nz) else Ok (Ap, Ai)) in
      let '(Cp, Ci) := st in
      let* st := amd_aat n Cp Ci (block (junk 0) 0 n) in
      let '(Len, nzaat) := st in
      let slen := nzaat + nzaat / 5 + 7 * n in                                               (* :134-142 *)
      let* st := amd_build n (block (junk 3) 0 n) (block (junk 3) (6 * n) (slen - 6 * n)) (block (junk 3) (5 * n) n) Cp Ci Len in
      let '(Pe, Iw, pfree) := st in
      let* r := amd_2 aggressive n dense0 Pe Iw Len pfree in
      Ok (Some r).
