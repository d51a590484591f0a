(* Model of the two example programs SLIP_LU/Demo/example.c and example2.c.  Paths are relative to /repo/SLIP_LU/Demo.  As in MDemo: the library
   is initialized, memory suffices; printf, clock and fclose are not modelled.  No proofs in this file. *)
From Verif Require Import Base MFactor MSolve MMatrix MApi MDemo.
Open Scope Z_scope.

(* SLIP_create_default_options, then option->check = true (example.c:112, example2.c:115) *)
Definition default_options (check : bool) : options := mkO 3 ORD_COLAMD 1%Q 0 128 RNDN check.

(* example2.c:35-130.  files, def: as for SLIPLU; args: argv[1..argc-1]; "if (argc > 2)" (:48-52) *)
Definition example2 (env : gmp_env) (ol : ordlib) (addr : Z -> Z) (files : list Z -> option (list Z)) (def : list Z * list Z) (args : list (list Z)) : res outcome :=
  let '(mat, rhs) := match args with a :: b :: _ => (a, b) | _ => def end in
  let o := Some (default_options false) in
  match files mat with                                                             (* :76-82 *)
  | None => Ok NoFile
  | Some bytes =>
      match SLIP_tripread o addr true (Some (fopen bytes)) with                    (* :83 *)
      | Ok (SErr e, _) => Ok (Failed e)
      | Ok (SOK, Out A) =>
          match files rhs with                                                     (* :88-94 *)
          | None => Ok NoFile
          | Some bytes =>
              match SLIP_read_dense o (Some (fopen bytes)) with                    (* :95 *)
              | Ok (SErr e, _) => Ok (Failed e)
              | Ok (SOK, Out b) =>
                  if negb (m_n A =? m_m b) then Ok BadSize                         (* :99-105 *)
                  else match SLIP_backslash env ol addr true true TMPQ (Some A) (Some b) (Some (default_options true)) with (* :115-118 *)
                       | Ok (SOK, Out x) => Ok (Solved x)
                       | Ok (SErr e, _) => Ok (Failed e)
                       | Ok (SOK, _) => UB | Err e => Err e | UB => UB | Fuel => Fuel
                       end
              | Ok (SOK, _) => UB | Err e => Err e | UB => UB | Fuel => Fuel
              end
          end
      | Ok (SOK, _) => UB                                                          (* A is NULL: A->n *)
      | Err e => Err e | UB => UB | Fuel => Fuel
      end
  end.

(* example.c:31-125.  The program has n = 50 (and nz = 2500 = n*n); here n is a parameter.  rand t: the value of the t-th call of rand() (t from 0);
   an int is converted to double exactly.  The status of SLIP_matrix_allocate is not looked at (:71-76): a failure leaves the NULL pointer, UB below. *)
Definition ignored (m : res matrix) : res matrix := match m with Err _ => UB | m => m end.
Definition generate (rand : Z -> Z) (n : Z) (R Rb : matrix) : res (list Z * list Z * list fl * list fl * Z * Z) :=
  let* ti := deref (m_i R) in let* tj := deref (m_j R) in let* tx := xdbl R in let* bx := xdbl Rb in
  for_ 0 n (fun k '(ti, tj, tx, bx, num, t) =>                                     (* :81-91 *)
    let* bx := set bx k (FFin (rand t) 0) in
    for_ 0 n (fun p '(ti, tj, tx, bx, num, t) =>
      let* ti := set ti num k in
      let* tj := set tj num p in
      let* tx := set tx num (FFin (rand t) 0) in
      Ok (ti, tj, tx, bx, num + 1, t + 1)) (ti, tj, tx, bx, num, t + 1)) (ti, tj, tx, bx, 0, 0).
Definition example (env : gmp_env) (ol : ordlib) (addr : Z -> Z) (rand : Z -> Z) (n : Z) : res outcome :=
  let o := Some (default_options false) in
  let* R := ignored (matrix_allocate KTRIP TDBL n n (n * n) false) in              (* :71-72 *)
  let* Rb := ignored (matrix_allocate KDENSE TDBL n 1 n false) in                  (* :75-76 *)
  let* st := generate rand n R Rb in
  let '(ti, tj, tx, bx, num, t) := st in
  let R := with_nz (with_arrays R None (Some ti) (Some tj) (VD tx)) (n * n) in     (* :93 *)
  let Rb := with_arrays Rb None None None (VD bx) in
  match matrix_copy o addr true true KCSC TMPZ (Some R) with                       (* :100 *)
  | Err e => Ok (Failed e) | UB => UB | Fuel => Fuel
  | Ok A =>
      match matrix_copy o addr true true KDENSE TMPZ (Some Rb) with                (* :102 *)
      | Err e => Ok (Failed e) | UB => UB | Fuel => Fuel
      | Ok b =>
          match SLIP_backslash env ol addr true true TDBL (Some A) (Some b) (Some (default_options true)) with (* :112-114 *)
          | Ok (SOK, Out x) => Ok (Solved x)
          | Ok (SErr e, _) => Ok (Failed e)
          | Ok (SOK, _) => UB | Err e => Err e | UB => UB | Fuel => Fuel
          end
      end
  end.
