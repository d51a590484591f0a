(* SLIP_matrix_check with its output: what is printed at each print_level.  MMatrix.v has the checks alone.
   Paths are relative to /repo/SLIP_LU/Source.  No proofs in this file. *)
From Coq Require Import String.
From Verif Require Import Base MFactor MSolve MMatrix.
Set Implicit Arguments.
Open Scope Z_scope.

(* the strings printed.  The conversion of numbers to digits is that of printf and mpfr_asprintf.  For MPFR values the precision argument of
   "%.*Rf" is a uint64_t where an int is expected (SLIP_matrix_check.c:139,256,356,485): undefined in C, harmless in the usual ABI for prec < 2^31. *)
Inductive value := PZ (z : Z) | PQ (q : Q) | PR (x : fl) | PI (z : Z) | PD (x : fl).
Inductive message :=
| MNull | MM | MN | MNzmax | MType          (* :81, 91, 96, 101, 112 *)
| MPtr | MIX | MRange (i j : Z) | MDup (i j : Z)  (* :166, 176; 188; 213; 220 *)
| MIJX | MIndex | MDupT (i j : Z)           (* :305; 320; 417 *)
| MX.                                       (* :439 *)
Inductive line :=
| LHead (m n nz nzmax : Z) (kind type : string)   (* :116-120 *)
| LScaleOf                                        (* :124 "scale factor: " *)
| LScale (q : Q)                                  (* :128 *)
| LCol (j : Z) | LRow (i : Z) | LEnt (i j : Z)    (* :205, 450; 227, 456; 327 *)
| LVal (v : value)
| LDots                                           (* :21 "    ..." *)
| LMsg (m : message)
| LStatus (e : info).                             (* " error: %d" *)

(* the environment: SuiteSparse_config.printf_func is not NULL (slip_internal.h:116-122), and the outcome of the k-th call of
   SLIP_mpfr_asprintf (SLIP_gmp.c:495-510): None, or the error returned *)
Record penv := mkE { e_printf : bool; e_asprintf : nat -> option info }.
(* pr, lines, status < 0, calls of asprintf so far, what was printed so far *)
Record pst := mkP { p_pr : Z; p_lines : Z; p_status : option info; p_calls : nat; p_out : list line }.

(* a part of the function: it goes on, or makes SLIP_matrix_check return an error *)
Definition P (A : Type) := pst -> res (pst * (A + info)).
Definition pret {A} (a : A) : P A := fun s => Ok (s, inl a).
Definition pfail {A} (e : info) : P A := fun s => Ok (s, inr e).
Definition pbind {A B} (c : P A) (k : A -> P B) : P B := fun s =>
  match c s with
  | Ok (s', inl a) => k a s'
  | Ok (s', inr e) => Ok (s', inr e)
  | Err e => Err e | UB => UB | Fuel => Fuel
  end.
Notation "'let+' x ':=' m 'in' k" := (pbind m (fun x => k)) (at level 200, x pattern, m at level 100, k at level 200, right associativity).
Definition lift {A} (m : res A) : P A := fun s =>
  match m with Ok a => Ok (s, inl a) | Err e => Ok (s, inr e) | UB => UB | Fuel => Fuel end.
Fixpoint ploop {S : Type} (cnt : nat) (i : Z) (body : Z -> S -> P S) (w : S) : P S :=
  match cnt with
  | O => pret w
  | Datatypes.S c => let+ w := body i w in ploop c (i + 1) body w
  end.
Definition pfor {S : Type} (lo hi : Z) (body : Z -> S -> P S) (w : S) : P S := ploop (Z.to_nat (hi - lo)) lo body w.

(* SLIP_PRINTF, SLIP_PR1, SLIP_PR2: slip_internal.h:116-125 *)
Definition put (E : penv) (s : pst) (l : line) : pst :=
  if e_printf E then mkP (p_pr s) (p_lines s) (p_status s) (p_calls s) (p_out s ++ [l]) else s.
Definition say (E : penv) (level : Z) (l : line) : P unit := fun s => Ok (if p_pr s >=? level then put E s l else s, inl tt).
Definition complain {A} (E : penv) (m : message) : P A := let+ _ := say E 1 (LMsg m) in pfail SLIP_INCORRECT_INPUT.
(* SLIP_PR_LIMIT: SLIP_matrix_check.c:16-24 *)
Definition limit (E : penv) : P unit := fun s =>
  let s := mkP (p_pr s) (p_lines s + 1) (p_status s) (p_calls s) (p_out s) in
  if (p_pr s =? 2) && (p_lines s >? 30)
  then let s := put E s LDots in Ok (mkP 1 (p_lines s) (p_status s) (p_calls s) (p_out s), inl tt)
  else Ok (s, inl tt).
(* status = SLIP_mpfr_asprintf (&buff, ...) ; if (status >= 0) SLIP_PR2 ("%s", buff) *)
Definition asprintf (E : penv) (l : line) : P unit := fun s =>
  let st := e_asprintf E (p_calls s) in
  let s := mkP (p_pr s) (p_lines s) st (S (p_calls s)) (p_out s) in
  match st with None => say E 2 l s | Some _ => Ok (s, inl tt) end.

(* x [p], with A->type selecting the member of the union *)
Definition vget (type : Z) (x : option vals) (p : Z) : res value :=
  match x with
  | None => UB
  | Some v =>
      if negb (vtype v =? type) then UB
      else match v with
      | VZ l => let* a := get l p in Ok (PZ a)
      | VQ l => let* a := get l p in Ok (PQ a)
      | VR l => let* a := get l p in Ok (PR a)
      | VI l => let* a := get l p in Ok (PI a)
      | VD l => let* a := get l p in Ok (PD a)
      end
  end.
(* the switch on A->type at :229-274, :329-374 and :458-503: the GMP types go through asprintf, the others through SLIP_PR2 *)
Definition print_value (E : penv) (type : Z) (x : option vals) (p : Z) : P unit :=
  if type <=? TMPFR then let+ v := lift (vget type x p) in asprintf E (LVal v)
  else fun s => if p_pr s >=? 2 then (let+ v := lift (vget type x p) in say E 2 (LVal v)) s else Ok (s, inl tt).
(* :224-281, :324-381 and :453-509.  loud: " error" is printed at any level (CSC and triplet) *)
Definition print_entry (E : penv) (loud : bool) (head : line) (type : Z) (x : option vals) (p : Z) : P unit := fun s =>
  if p_pr s >=? 2 then
    (let+ _ := limit E in
     let+ _ := say E 2 head in
     let+ _ := print_value E type x p in
     fun s => match p_status s with
              | None => Ok (s, inl tt)
              | Some e => (let+ _ := say E (if loud then p_pr s else 2) (LStatus e) in pfail e) s
              end) s
  else Ok (s, inl tt).

(* :169-179 *)
Definition pcheck_ptr (E : penv) (n nz : Z) (Ap : list Z) : P unit :=
  pfor 0 n (fun j (_ : unit) =>
    let+ p := lift (get Ap j) in
    let+ pend := lift (get Ap (j + 1)) in
    if (pend <? p) || (pend >? nz) then complain E MPtr else pret tt) tt.
(* :202-286 *)
Definition pcheck_rows (E : penv) (m n : Z) (Ap Ai : list Z) (type : Z) (x : option vals) : P (list Z) :=
  pfor 0 n (fun j work =>
    let+ _ := limit E in
    let+ _ := say E 2 (LCol j) in
    let+ lo := lift (get Ap j) in
    let+ hi := lift (get Ap (j + 1)) in
    pfor lo hi (fun p work =>
      let+ i := lift (get Ai p) in
      if (i <? 0) || (i >=? m) then complain E (MRange i j)
      else
        let+ w := lift (get work i) in
        if w =? j + 1 then complain E (MDup i j)
        else
          let+ _ := print_entry E true (LRow i) type x p in
          lift (set work i (j + 1))) work) (mk m 0).
(* :409-421: the first pair equal to its predecessor *)
Fixpoint first_dup (l : list (Z * Z)) : option (Z * Z) :=
  match l with
  | a :: ((b :: _) as t) => if (fst b =? fst a) && (snd b =? snd a) then Some b else first_dup t
  | _ => None
  end.
(* :313-421 *)
Definition pcheck_trip (E : penv) (m n nz : Z) (Ti Tj : list Z) (type : Z) (x : option vals) : P unit :=
  let+ _ := pfor 0 nz (fun p (_ : unit) =>
      let+ i := lift (get Ti p) in
      let+ j := lift (get Tj p) in
      if (i <? 0) || (i >=? m) || (j <? 0) || (j >=? n) then complain E MIndex
      else print_entry E true (LEnt i j) type x p) tt in
  let+ work := lift (for_ 0 nz (fun p w => let* j := get Tj p in let* i := get Ti p in Ok (w ++ [(j, i)])) []) in
  match first_dup (sort_p work) with Some (j, i) => complain E (MDupT i j) | None => pret tt end.
(* :447-511 *)
Definition print_dense (E : penv) (m n type : Z) (x : option vals) : P unit :=
  pfor 0 n (fun j (_ : unit) =>
    let+ _ := limit E in
    let+ _ := say E 2 (LCol j) in
    pfor 0 m (fun i (_ : unit) => print_entry E false (LRow i) type x (ix m i j)) tt) tt.

(* :118-120 *)
Definition kind_name (kind : Z) : string := if kind <? 1 then "CSC"%string else if kind <? 2 then "Triplet"%string else "Dense"%string.
Definition type_name (type : Z) : string :=
  if type <? 1 then "MPZ"%string else if type <? 2 then "MPQ"%string else if type <? 3 then "MPFR"%string
  else if type <? 4 then "int64"%string else "double"%string.

(* SLIP_matrix_check.c:62-523, after the call of slip_initialized *)
Definition check_body (E : penv) (A : option matrix) : P unit :=
  let+ nz := lift (matrix_nnz true A) in
  match A with
  | None => complain E MNull
  | Some A =>
      let m := m_m A in let n := m_n A in let nzmax := m_nzmax A in let type := m_type A in
      if nz <? 0 then complain E MNull
      else if m <? 0 then complain E MM
      else if n <? 0 then complain E MN
      else if nzmax <? 0 then complain E MNzmax
      else if (type <? TMPZ) || (type >? TDBL) then complain E MType
      else
        let+ _ := say E 2 (LHead m n nz nzmax (kind_name (m_kind A)) (type_name type)) in
        let+ _ := (fun s => if p_pr s >=? 2 then (let+ _ := say E 2 LScaleOf in asprintf E (LScale (m_scale A))) s else Ok (s, inl tt)) in
        if m_kind A =? KCSC then
          let+ Ap := lift (deref (m_p A)) in
          let+ p0 := lift (if nzmax >? 0 then get Ap 0 else Ok 0) in
          if negb (p0 =? 0) then complain E MPtr
          else
            let+ _ := pcheck_ptr E n nz Ap in
            match m_i A, m_x A with
            | Some Ai, Some _ => let+ _ := pcheck_rows E m n Ap Ai type (m_x A) in pret tt
            | _, _ => if nzmax >? 0 then complain E MIX
                      else let+ Ai := lift (deref (m_i A)) in let+ _ := pcheck_rows E m n Ap Ai type (m_x A) in pret tt
            end
        else if m_kind A =? KTRIP then
          match m_i A, m_j A, m_x A with
          | Some Ti, Some Tj, Some _ => pcheck_trip E m n nz Ti Tj type (m_x A)
          | _, _, _ => if nzmax >? 0 then complain E MIJX
                       else if nz =? 0 then pret tt
                       else let+ Ti := lift (deref (m_i A)) in let+ Tj := lift (deref (m_j A)) in pcheck_trip E m n nz Ti Tj type (m_x A)
          end
        else
          match m_x A with
          | Some _ => print_dense E m n type (m_x A)
          | None => if nzmax >? 0 then complain E MX else print_dense E m n type None
          end
  end.
(* the result: what was printed, and the return value (inl tt is SLIP_OK) *)
Definition matrix_check_print (E : penv) (level : Z) (inited : bool) (A : option matrix) : res (list line * (unit + info)) :=
  if negb inited then Ok ([], inr SLIP_PANIC)
  else let* r := check_body E A (mkP level 0 None O []) in Ok (p_out (fst r), snd r).
