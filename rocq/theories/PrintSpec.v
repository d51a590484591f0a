(* What SLIP_matrix_check should print: specification for PropPrint.v.  The type of lines is that of MPrint.v. *)
From Coq Require Import String.
From Verif Require Import Base MMatrix MPrint.
Set Implicit Arguments.
Open Scope Z_scope.

(* the documented names of the kinds and types *)
Definition kind_text (kind : Z) : string := if kind =? KCSC then "CSC"%string else if kind =? KTRIP then "Triplet"%string else "Dense"%string.
Definition type_text (type : Z) : string :=
  if type =? TMPZ then "MPZ"%string else if type =? TMPQ then "MPQ"%string else if type =? TMPFR then "MPFR"%string else if type =? TINT then "int64"%string else "double"%string.

(* the p-th value *)
Definition val_at (x : option vals) (p : Z) : value :=
  match x with
  | Some (VZ l) => PZ (nth (Z.to_nat p) l 0)
  | Some (VQ l) => PQ (nth (Z.to_nat p) l 0%Q)
  | Some (VR l) => PR (nth (Z.to_nat p) l FNan)
  | Some (VI l) => PI (nth (Z.to_nat p) l 0)
  | Some (VD l) => PD (nth (Z.to_nat p) l FNan)
  | None => PZ 0
  end.
Definition arr (o : option (list Z)) : list Z := match o with Some l => l | None => [] end.

(* the entries, column by column; for a triplet matrix, in the order given *)
Definition entries (A : matrix) : list line :=
  if m_kind A =? KCSC then
    flat_map (fun j => LCol j :: flat_map (fun p => [LRow (rd (arr (m_i A)) p); LVal (val_at (m_x A) p)]) (zseq (rd (arr (m_p A)) j) (rd (arr (m_p A)) (j + 1))))
      (zseq 0 (m_n A))
  else if m_kind A =? KTRIP then
    flat_map (fun p => [LEnt (rd (arr (m_i A)) p) (rd (arr (m_j A)) p); LVal (val_at (m_x A) p)]) (zseq 0 (m_nz A))
  else
    flat_map (fun j => LCol j :: flat_map (fun i => [LRow i; LVal (val_at (m_x A) (i + j * m_m A))]) (zseq 0 (m_m A))) (zseq 0 (m_n A)).
Definition nnz (A : matrix) : Z :=
  if m_kind A =? KCSC then rd (arr (m_p A)) (m_n A) else if m_kind A =? KTRIP then m_nz A else m_m A * m_n A.
Definition heading (A : matrix) : list line :=
  [LHead (m_m A) (m_n A) (nnz A) (m_nzmax A) (kind_text (m_kind A)) (type_text (m_type A)); LScaleOf; LScale (m_scale A)].
Definition listing (A : matrix) : list line := heading A ++ entries A.
(* the start of a line of the body *)
Definition starts_line (l : line) : bool := match l with LCol _ | LRow _ | LEnt _ _ => true | _ => false end.
Definition body_lines (l : list line) : nat := length (filter starts_line l).

(* every entry has a value of the declared type: what printing needs beyond what the checks need *)
Definition has_values (A : matrix) : Prop :=
  match m_x A with
  | None => 1 <= m_nzmax A
  | Some v => vtype v = m_type A /\
      (m_kind A <> KDENSE -> forall i, m_i A = Some i -> zlen i <= vlen v) /\ (m_kind A = KDENSE -> m_m A * m_n A <= vlen v)
  end.
(* printing goes well: nothing but errors is printed, or the output strings can be allocated and there are values to print *)
Definition print_ok (E : penv) (level : Z) (A : matrix) : Prop :=
  level <= 1 \/ ((forall k, e_asprintf E k = None) /\ has_values A).

(* what a message says about the matrix *)
Definition explains (A : matrix) (msg : message) : Prop :=
  let m := m_m A in let n := m_n A in let p := arr (m_p A) in let i := arr (m_i A) in let j := arr (m_j A) in
  match msg with
  | MNull => exists z, matrix_nnz true (Some A) = Ok z /\ z < 0                    (* "A is NULL", or its entries cannot be counted *)
  | MM => m < 0
  | MN => n < 0
  | MNzmax => m_nzmax A < 0
  | MType => m_type A < TMPZ \/ TDBL < m_type A
  | MPtr => m_kind A = KCSC /\ (rd p 0 <> 0 \/ exists c, 0 <= c < n /\ (rd p (c + 1) < rd p c \/ nnz A < rd p (c + 1)))
  | MIX => m_kind A = KCSC /\ 0 < m_nzmax A /\ (m_i A = None \/ m_x A = None)
  | MRange r c => m_kind A = KCSC /\ 0 <= c < n /\ (r < 0 \/ m <= r) /\ exists q, rd p c <= q < rd p (c + 1) /\ rd i q = r
  | MDup r c => m_kind A = KCSC /\ 0 <= c < n /\ exists q q', rd p c <= q /\ q < q' /\ q' < rd p (c + 1) /\ rd i q = r /\ rd i q' = r
  | MIJX => m_kind A = KTRIP /\ 0 < m_nzmax A /\ (m_i A = None \/ m_j A = None \/ m_x A = None)
  | MIndex => m_kind A = KTRIP /\ exists q, 0 <= q < m_nz A /\ (rd i q < 0 \/ m <= rd i q \/ rd j q < 0 \/ n <= rd j q)
  | MDupT r c => m_kind A = KTRIP /\ exists q q', 0 <= q /\ q < q' /\ q' < m_nz A /\ rd i q = r /\ rd j q = c /\ rd i q' = r /\ rd j q' = c
  | MX => m_kind A = KDENSE /\ 0 < m_nzmax A /\ m_x A = None
  end.
