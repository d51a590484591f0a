(* Model of the file readers, of the command line and of the main program of SLIP_LU/Demo (demos.c, SLIPLU.c).
   Paths are relative to /repo/SLIP_LU/Demo.  A file is the list of its bytes, a string the list of its characters (without the final 0).
   The library is initialized and memory suffices.  printf, clock and fclose are not modelled.  No proofs in this file. *)
From Verif Require Import Base MFactor MSolve MMatrix MApi.
Open Scope Z_scope.

(*----------------------------------------------------------------------------*)
(* FILE* : the bytes not yet read and the end-of-file indicator, which is set by an attempt to read past the end *)
Record stream := mkF { f_rest : list Z; f_eof : bool }.
Definition fopen (bytes : list Z) : stream := mkF bytes false.
(* isspace in the C locale; isdigit *)
Definition isspace (c : Z) : bool := (c =? 32) || ((9 <=? c) && (c <=? 13)).
Definition isdigit (c : Z) : bool := (48 <=? c) && (c <=? 57).
Definition nil {A} (l : list A) : bool := match l with [] => true | _ => false end.

(* a white-space directive of scanf: reads up to the first other character, or to the end *)
Fixpoint skip_ws (l : list Z) : list Z := match l with c :: t => if isspace c then skip_ws t else l | [] => [] end.
Definition white (s : stream) : stream := let l := skip_ws (f_rest s) in mkF l (f_eof s || nil l).
(* the digits at the front of l *)
Fixpoint number (acc : Z) (l : list Z) : Z * list Z :=
  match l with c :: t => if isdigit c then number (10 * acc + (c - 48)) t else (acc, l) | [] => (acc, []) end.
(* the conversions %ld (C library) and %Zd (GMP): end of file before any character, no number there, or a number *)
Inductive conv := CEof (s : stream) | CBad (s : stream) | CInt (z : Z) (s : stream).
Definition sign (l : list Z) : Z * list Z :=
  match l with c :: t => if c =? 45 then (-1, t) else if c =? 43 then (1, t) else (1, l) | [] => (1, []) end.
Definition scan_int (s : stream) : conv :=
  let s := white s in
  if nil (f_rest s) then CEof s
  else
    let '(sg, body) := sign (f_rest s) in
    match body with
    | d :: _ => if isdigit d then let '(v, l) := number 0 body in CInt (sg * v) (mkF l (f_eof s || nil l)) else CBad (mkF body (f_eof s))
    | [] => CBad (mkF [] true)
    end.
(* fscanf and gmp_fscanf with a format of such conversions, separated by white space; tail: the format ends with white space.
   Result: the numbers stored, in the order of the format, the stream, and the return value: the number of conversions done, or
   EOF = -1 if the end was reached before the first.  A number outside int64_t is undefined for %ld (C11 7.21.6.2). *)
Inductive item := I64 | MPZ.
Definition int64 (z : Z) : bool := (INT64_MIN <=? z) && (z <=? INT64_MAX).
Fixpoint scanf (fmt : list item) (tail : bool) (done : Z) (s : stream) : res (list Z * stream * Z) :=
  match fmt with
  | [] => Ok ([], if tail then white s else s, done)
  | it :: fmt =>
      match scan_int s with
      | CEof s => Ok ([], s, if done =? 0 then -1 else done)
      | CBad s => Ok ([], s, done)
      | CInt z s =>
          if match it with I64 => negb (int64 z) | MPZ => false end then UB
          else let* st := scanf fmt tail (done + 1) s in let '(l, s, r) := st in Ok (z :: l, s, r)
      end
  end.

(*----------------------------------------------------------------------------*)
(* x -= 1 on int64_t *)
Definition dec64 (a : list Z) (k : Z) : res (list Z) := let* v := get a k in if v =? INT64_MIN then UB else set a k (v - 1).
(* SLIP_gmp_fscanf (file, "%ld %ld %Zd\n", &A->i[k], &A->j[k], &A->x.mpz[k]), demos.c:287-288, 304-305.  The cells for which there is no
   number keep their content.  The last component is the status: SLIP_OK unless gmp_vfscanf returned EOF (Source/SLIP_gmp.c:461-483) *)
Definition read_entry (k : Z) (f : stream) (ti tj tx : list Z) : res (list Z * list Z * list Z * stream * bool) :=
  let* st := scanf [I64; I64; MPZ] true 0 f in
  let '(l, f, r) := st in
  let* ti := match l with i :: _ => set ti k i | _ => Ok ti end in
  let* tj := match l with _ :: j :: _ => set tj k j | _ => Ok tj end in
  let* tx := match l with _ :: _ :: x :: _ => set tx k x | _ => Ok tx end in
  Ok (ti, tj, tx, f, negb (r <? 0)).

(* SLIP_tripread, demos.c:249-330.  Inside the body Err stands for "return SLIP_INCORRECT_INPUT" after A was freed.  The status of
   SLIP_matrix_copy is not looked at: if it fails, the result is SLIP_OK with *A_handle = NULL. *)
Definition tripread_body (o : option options) (f : stream) : res matrix :=
  let* st := scanf [I64; I64; I64] true 0 f in                                    (* :269-274 *)
  let '(l, f, s) := st in
  if f_eof f || (s <? 3) then Err SLIP_INCORRECT_INPUT
  else match l with
  | [m; n; nz] =>
      let* A := matrix_allocate KTRIP TMPZ m n nz false in                         (* :278-284 *)
      let* ti := deref (m_i A) in let* tj := deref (m_j A) in let* tx := xmpz A in
      let* st := read_entry 0 f ti tj tx in                                        (* :287-294 *)
      let '(ti, tj, tx, f, ok) := st in
      if f_eof f || negb ok then Err SLIP_INCORRECT_INPUT
      else
        let* ti := dec64 ti 0 in let* tj := dec64 tj 0 in                          (* :298-299 *)
        let* st := for_ 1 nz (fun p '(ti, tj, tx, f) =>                            (* :302-315 *)
          let* st := read_entry p f ti tj tx in
          let '(ti, tj, tx, f, ok) := st in
          if (f_eof f && negb (p =? nz - 1)) || negb ok then Err SLIP_INCORRECT_INPUT
          else let* ti := dec64 ti p in let* tj := dec64 tj p in Ok (ti, tj, tx, f)) (ti, tj, tx, f) in
        let '(ti, tj, tx, f) := st in
        Ok (with_nz (with_arrays A None (Some ti) (Some tj) (VZ tx)) nz)           (* :318 *)
  | _ => UB
  end.
Definition SLIP_tripread (o : option options) (addr : Z -> Z) (handle : bool) (file : option stream) : ret matrix :=
  match handle, file with
  | true, Some f =>
      match tripread_body o f with
      | Ok A => match matrix_copy o addr true true KCSC TMPZ (Some A) with         (* :323-329 *)
                | Ok C => Ok (SOK, Out C) | Err _ => Ok (SOK, Null) | UB => UB | Fuel => Fuel end
      | Err e => Ok (SErr e, Null) | UB => UB | Fuel => Fuel
      end
  | _, _ => reject SLIP_INCORRECT_INPUT                                            (* :258-262 *)
  end.

(*----------------------------------------------------------------------------*)
(* SLIP_tripread_double, demos.c:347-426.  lf: the conversion %lf, which is not modelled further: the end, no number, or a number.
   The first entry is read with "info = fscanf (...)", so info is the number of conversions (:383-385). *)
Inductive dconv := DEof (s : stream) | DBad (s : stream) | DNum (x : fl) (s : stream).
Definition scan_entry (lf : stream -> dconv) (f : stream) : res (list Z * option fl * stream * Z) :=
  let* st := scanf [I64; I64] false 0 f in
  let '(l, f, r) := st in
  if r <? 2 then Ok (l, None, f, r)
  else match lf f with
       | DEof f | DBad f => Ok (l, None, f, 2)
       | DNum x f => Ok (l, Some x, white f, 3)
       end.
Definition read_entry_double (lf : stream -> dconv) (k : Z) (f : stream) (ti tj : list Z) (tx : list fl) : res (list Z * list Z * list fl * stream * Z) :=
  let* st := scan_entry lf f in
  let '(l, d, f, r) := st in
  let* ti := match l with i :: _ => set ti k i | _ => Ok ti end in
  let* tj := match l with _ :: j :: _ => set tj k j | _ => Ok tj end in
  let* tx := match d with Some x => set tx k x | _ => Ok tx end in
  Ok (ti, tj, tx, f, r).
(* A->x.fp64 *)
Definition xdbl (A : matrix) : res (list fl) := match m_x A with Some (VD l) => Ok l | _ => UB end.
Definition tripread_double_body (lf : stream -> dconv) (o : option options) (f : stream) : res (matrix * Z) :=
  let* st := scanf [I64; I64; I64] true 0 f in                                    (* :367-372 *)
  let '(l, f, s) := st in
  if f_eof f || (s <? 3) then Err SLIP_INCORRECT_INPUT
  else match l with
  | [m; n; nz] =>
      let* A := matrix_allocate KTRIP TDBL m n nz false in                         (* :375-381 *)
      let* ti := deref (m_i A) in let* tj := deref (m_j A) in let* tx := xdbl A in
      let* st := read_entry_double lf 0 f ti tj tx in                              (* :383-390 *)
      let '(ti, tj, tx, f, r) := st in
      if f_eof f || negb (r =? 0) then Err SLIP_INCORRECT_INPUT
      else
        let* ti := dec64 ti 0 in let* tj := dec64 tj 0 in                          (* :394-395 *)
        let* st := for_ 1 nz (fun p '(ti, tj, tx, f) =>                            (* :398-411 *)
          let* st := read_entry_double lf p f ti tj tx in
          let '(ti, tj, tx, f, r) := st in
          if (f_eof f && negb (p =? nz - 1)) || (r <? 3) then Err SLIP_INCORRECT_INPUT
          else let* ti := dec64 ti p in let* tj := dec64 tj p in Ok (ti, tj, tx, f)) (ti, tj, tx, f) in
        let '(ti, tj, tx, f) := st in
        Ok (with_nz (with_arrays A None (Some ti) (Some tj) (VD tx)) nz, r)        (* :414; info is still r *)
  | _ => UB
  end.
(* the returned info is r = 0 = SLIP_OK here *)
Definition SLIP_tripread_double (lf : stream -> dconv) (o : option options) (addr : Z -> Z) (handle : bool) (file : option stream) : ret matrix :=
  match handle, file with
  | true, Some f =>
      match tripread_double_body lf o f with
      | Ok (A, _) => match matrix_copy o addr true true KCSC TMPZ (Some A) with    (* :418-426 *)
                     | Ok C => Ok (SOK, Out C) | Err _ => Ok (SOK, Null) | UB => UB | Fuel => Fuel end
      | Err e => Ok (SErr e, Null) | UB => UB | Fuel => Fuel
      end
  | _, _ => reject SLIP_INCORRECT_INPUT                                            (* :356-360 *)
  end.

(*----------------------------------------------------------------------------*)
(* SLIP_read_dense, demos.c:436-489: *b_handle is only written on success.  nrows*ncols is unbounded. *)
Definition read_dense_body (o : option options) (f : stream) : res matrix :=
  let* st := scanf [I64; I64] false 0 f in                                        (* :453-458 *)
  let '(l, f, s) := st in
  if f_eof f || (s <? 2) then Err SLIP_INCORRECT_INPUT
  else match l with
  | [m; n] =>
      let* A := matrix_allocate KDENSE TMPZ m n (m * n) false in                   (* :461-467 *)
      let* x := xmpz A in
      let* st := for_ 0 m (fun i st =>                                             (* :470-482 *)
        for_ 0 n (fun j '(x, f) =>
          let* st := scanf [MPZ] false 0 f in
          let '(l, f, r) := st in
          if r <? 0 then Err SLIP_INCORRECT_INPUT
          else let* x := match l with v :: _ => set x (i + j * m) v | _ => Ok x end in Ok (x, f)) st) (x, f) in
      let '(x, f) := st in
      Ok (with_arrays A None None None (VZ x))
  | _ => UB
  end.
Definition SLIP_read_dense (o : option options) (file : option stream) : ret matrix :=
  match file with
  | Some f => match read_dense_body o f with Ok b => Ok (SOK, Out b) | Err e => Ok (SErr e, Kept) | UB => UB | Fuel => Fuel end
  | None => reject SLIP_INCORRECT_INPUT
  end.

(*----------------------------------------------------------------------------*)
(* SLIP_process_command_line, demos.c:95-213.  args: argv[1..argc-1] (argv[argc] is NULL). *)
(* atoi: white space, sign, digits; 0 if there are none; undefined if the number does not fit an int (C11 7.22.1) *)
Definition atoi (s : list Z) : res Z :=
  let '(sg, body) := sign (skip_ws s) in
  let v := sg * fst (number 0 body) in
  if (- 2 ^ 31 <=? v) && (v <? 2 ^ 31) then Ok v else UB.
Fixpoint streq (a b : list Z) : bool :=
  match a, b with [], [] => true | x :: a, y :: b => (x =? y) && streq a b | _, _ => false end.
(* "help", "p", "piv", "q", "col", "t", "tol", "o", "out", "f", "file" *)
Definition s_help := [104; 101; 108; 112].  Definition s_p := [112].  Definition s_piv := [112; 105; 118].
Definition s_q_ := [113].  Definition s_col := [99; 111; 108].  Definition s_t := [116].  Definition s_tol := [116; 111; 108].
Definition s_o := [111].  Definition s_out := [111; 117; 116].  Definition s_f := [102].  Definition s_file := [102; 105; 108; 101].
(* what the command line sets: fields of option, file names, help.  The tolerance is a double. *)
Record cl := mkCl { cl_pivot : Z; cl_order : Z; cl_tol : fl; cl_print : Z; cl_files : option (list Z * list Z); cl_help : bool }.
(* comparison of a double with 0 *)
Definition is0 (x : fl) : bool := match x with FFin m _ => m =? 0 | _ => false end.
Definition neg0 (x : fl) : bool := match x with FFin m _ => m <? 0 | FInf s => s | FNan => false end.
(* atof is not modelled: any function *)
Fixpoint process (atof : list Z -> fl) (args : list (list Z)) (c : cl) : res cl :=
  match args with
  | [] => Ok c
  | a :: t =>
      if streq a s_help then process atof t (mkCl (cl_pivot c) (cl_order c) (cl_tol c) (cl_print c) (cl_files c) true)  (* :113-117 *)
      else if streq a s_p || streq a s_piv then                                                                         (* :118-133 *)
        match t with
        | [] => Err SLIP_INCORRECT_INPUT
        | v :: t => let* k := atoi v in
                    process atof t (mkCl (if (k <? 0) || (k >? 5) then 0 else k) (cl_order c) (cl_tol c) (cl_print c) (cl_files c) (cl_help c))
        end
      else if streq a s_q_ || streq a s_col then                                                                        (* :134-149 *)
        match t with
        | [] => Err SLIP_INCORRECT_INPUT
        | v :: t => let* k := atoi v in
                    process atof t (mkCl (cl_pivot c) (if (k <? 0) || (k >? 2) then ORD_COLAMD else k) (cl_tol c) (cl_print c) (cl_files c) (cl_help c))
        end
      else if streq a s_t || streq a s_tol then                                                                         (* :150-171 *)
        match t with
        | [] => Err SLIP_INCORRECT_INPUT
        | v :: t => if is0 (atof v) || neg0 (atof v) then Err SLIP_INCORRECT_INPUT
                    else process atof t (mkCl (cl_pivot c) (cl_order c) (atof v) (cl_print c) (cl_files c) (cl_help c))
        end
      else if streq a s_out || streq a s_o then                                                                         (* :172-187 *)
        match t with
        | [] => Err SLIP_INCORRECT_INPUT
        | v :: t => let* k := atoi v in
                    if k =? 0 then Err SLIP_INCORRECT_INPUT
                    else process atof t (mkCl (cl_pivot c) (cl_order c) (cl_tol c) k (cl_files c) (cl_help c))
        end
      else if streq a s_f || streq a s_file then                                                                        (* :188-203 *)
        match t with
        | v :: w :: t => process atof t (mkCl (cl_pivot c) (cl_order c) (cl_tol c) (cl_print c) (Some (v, w)) (cl_help c))
        | _ => Err SLIP_INCORRECT_INPUT
        end
      else Err SLIP_INCORRECT_INPUT                                                                                     (* :204-209 *)
  end.
(* with the default options of SLIP_create_default_options *)
Definition SLIP_process_command_line (atof : list Z -> fl) (args : list (list Z)) : res cl :=
  process atof args (mkCl 3 1 (FFin 1 0) 0 None false).

(*----------------------------------------------------------------------------*)
(* SLIPLU.c:80-295.  files: what fopen finds under a name; def: the contents found under the default names (:137-138).
   The program ends with the solution ("all tests passed"), or stops after a message.  A NaN or an infinite tolerance makes GMP trap
   (mpq_set_d in slip_get_pivot) if it is used. *)
Inductive outcome := Solved (x : matrix) | Helped | Failed (e : info) | NoFile | BadSize.
Definition SLIPLU (env : gmp_env) (ol : ordlib) (addr : Z -> Z) (atof : list Z -> fl) (files : list Z -> option (list Z)) (def : list Z * list Z)
    (args : list (list Z)) : res outcome :=
  match SLIP_process_command_line atof args with                                   (* :155-157 *)
  | Err e => Ok (Failed e) | UB => UB | Fuel => Fuel
  | Ok c =>
      if cl_help c then Ok Helped
      else
        let '(mat, rhs) := match cl_files c with Some p => p | None => def end in
        match (match fl_q (cl_tol c) with Some t => Some t | None => if (cl_pivot c =? 3) || (cl_pivot c =? 4) then None else Some 0%Q end) with
        | None => UB
        | Some tol =>
            let o := mkO (cl_pivot c) (cl_order c) tol (cl_print c) 128 RNDN false in
            match files mat with                                                   (* :168-175 *)
            | None => Ok NoFile
            | Some bytes =>
                match SLIP_tripread (Some o) addr true (Some (fopen bytes)) with
                | Ok (SErr e, _) => Ok (Failed e)
                | Ok (SOK, Out A) =>
                    match files rhs with                                           (* :179-186 *)
                    | None => Ok NoFile
                    | Some bytes =>
                        match SLIP_read_dense (Some o) (Some (fopen bytes)) with
                        | Ok (SErr e, _) => Ok (Failed e)
                        | Ok (SOK, Out b) =>
                            if negb (m_n A =? m_m b) then Ok BadSize               (* :190-195 *)
                            else
                              let o' := mkO (cl_pivot c) (cl_order c) tol (cl_print c) 128 RNDN true in                 (* :249 *)
                              match call (SLIP_LU_analyze ol true true (Some A) (Some o)) (fun An =>                    (* :211 *)
                                call (SLIP_LU_factorize env true true (Some A) (Some An) (Some o)) (fun F =>            (* :227 *)
                                call (SLIP_LU_solve true true (Some b) (Some A) (Some (lu_L F)) (Some (lu_U F)) (Some (lu_rhos F)) (Some An) (Some (lu_pinv F)) (Some o'))
                                  (fun x => Ok x))) with                                                                (* :252-259 *)
                              | Ok x => Ok (Solved x) | Err e => Ok (Failed e) | UB => UB | Fuel => Fuel
                              end
                        | Ok (SOK, _) => UB | Err e => Err e | UB => UB | Fuel => Fuel
                        end
                    end
                | Ok (SOK, _) => UB                                                (* A is NULL: A->n *)
                | Err e => Err e | UB => UB | Fuel => Fuel
                end
            end
        end
  end.
