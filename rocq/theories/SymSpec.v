(* Specification vocabulary for C89 (SYMAMD). *)
From Verif Require Import Base Spec MSymamd.
Set Implicit Arguments.
Open Scope Z_scope.

(* An n-by-n pattern in compressed columns; rows in any order, duplicates allowed. *)
Record sym_valid (n : Z) (p A : list Z) : Prop := {
  sv_n : 0 <= n;
  sv_p : zlen p = n + 1;
  sv_0 : rd p 0 = 0;
  sv_mono : forall j, 0 <= j < n -> rd p j <= rd p (j + 1);
  sv_cap : rd p n <= zlen A;
  sv_i : forall u, 0 <= u < rd p n -> 0 <= rd A u < n }.

(* The entries strictly below the diagonal, column by column, in the order in which they first occur. *)
Definition seen_before (A : list Z) (s u : Z) : bool := existsb (fun v => rd A v =? rd A u) (zseq s u).
Definition col_lower (A : list Z) (j s t : Z) : list (Z * Z) :=
  flat_map (fun u => if (j <? rd A u) && negb (seen_before A s u) then [(rd A u, j)] else []) (zseq s t).
Definition lower (n : Z) (p A : list Z) : list (Z * Z) := flat_map (fun j => col_lower A j (rd p j) (rd p (j + 1))) (zseq 0 n).

(* Why FALSE was returned. *)
Definition true_reason (n : Z) (A p : option (list Z)) (memory : bool) (e : sfail) : Prop :=
  match e with
  | A_not_present => A = None
  | p_not_present => p = None
  | ncol_negative x => x = n /\ n < 0
  | nnz_negative x => exists q, p = Some q /\ x = rd q n /\ x < 0
  | p0_nonzero x => exists q, p = Some q /\ x = rd q 0 /\ x <> 0
  | out_of_memory => memory = false
  | col_length_negative j l => exists q, p = Some q /\ 0 <= j < n /\ l = rd q (j + 1) - rd q j /\ l < 0
  | row_index_out_of_bounds j i =>
      exists a q u, A = Some a /\ p = Some q /\ 0 <= j < n /\ rd q j <= u < rd q (j + 1) /\ rd a u = i /\ ~ 0 <= i < n
  end.

(* Every block allocated is released, once, after it was allocated. *)
Definition sblock_eqb (a b : sblock) : bool := match a, b with Bcount, Bcount | Bmark, Bmark | BM, BM => true | _, _ => false end.
Fixpoint tidy_from (live : list sblock) (l : list sevent) : bool :=
  match l with
  | [] => match live with [] => true | _ => false end
  | Allocated b :: l => negb (existsb (sblock_eqb b) live) && tidy_from (b :: live) l
  | Released b :: l => existsb (sblock_eqb b) live && tidy_from (filter (fun x => negb (sblock_eqb b x)) live) l
  end.
Definition tidy (l : list sevent) : Prop := tidy_from [] l = true.
