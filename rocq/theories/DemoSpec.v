(* Specification vocabulary for the demo programs: the format of the input files and the command line.  A file is the list of its bytes. *)
From Verif Require Import Base.
Set Implicit Arguments.
Open Scope Z_scope.

(* space, tab, newline, vertical tab, form feed, carriage return *)
Definition blank (c : Z) : Prop := In c [32; 9; 10; 11; 12; 13].
Definition digit (c : Z) : Prop := 48 <= c <= 57.
(* the value of a string of digits *)
Definition decimal (ds : list Z) : Z := fold_left (fun v c => 10 * v + (c - 48)) ds 0.
(* s is the number z written in decimal, with an optional sign *)
Inductive numeral : list Z -> Z -> Prop :=
| num_plain ds : ds <> [] -> Forall digit ds -> numeral ds (decimal ds)
| num_plus ds : ds <> [] -> Forall digit ds -> numeral (43 :: ds) (decimal ds)
| num_minus ds : ds <> [] -> Forall digit ds -> numeral (45 :: ds) (- decimal ds).
Definition starts_blank (l : list Z) : Prop := match l with [] => True | c :: _ => blank c end.
(* bytes lists the numbers zs, each preceded by any amount of white space and followed by white space or the end; then comes tail *)
Inductive text (tail : list Z) : list Z -> list Z -> Prop :=
| text_end : text tail tail []
| text_num w s z rest zs : Forall blank w -> numeral s z -> starts_blank rest -> text tail rest zs -> text tail (w ++ s ++ rest) (z :: zs).

(* the triplet format: "m n nz", then nz times "i j value", indices from 1 *)
Definition entry := (Z * Z * Z)%type.
Definition row (e : entry) : Z := fst (fst e).
Definition col (e : entry) : Z := snd (fst e).
Definition val (e : entry) : Z := snd e.
Definition numbers (es : list entry) : list Z := flat_map (fun e => [row e; col e; val e]) es.
Definition triplet_file (m n : Z) (es : list entry) (tail bytes : list Z) : Prop := text tail bytes (m :: n :: zlen es :: numbers es).
(* the numbers that are read as int64_t fit; the entries are inside the matrix *)
Definition fits (z : Z) : Prop := - 2 ^ 63 <= z <= 2 ^ 63 - 1.
Definition inside (m n : Z) (e : entry) : Prop := 1 <= row e <= m /\ 1 <= col e <= n.
(* no position is given twice *)
Definition no_repeat (es : list entry) : Prop := NoDup (map (fun e => (row e, col e)) es).
(* the (0-based) matrix listed: the sum of the values given for a position *)
Definition listed (es : list entry) (i j : Z) : Z :=
  fold_right (fun e acc => (if (row e =? i + 1) && (col e =? j + 1) then val e else 0) + acc) 0 es.
(* the dense format: "m n", then the m*n numbers, row by row *)
Definition dense_file (m n : Z) (vs : list Z) (tail bytes : list Z) : Prop := text tail bytes (m :: n :: vs).
(* after white space, tail has a character that cannot begin a number *)
Definition junk (tail : list Z) : Prop := exists w c t, tail = w ++ c :: t /\ Forall blank w /\ ~ blank c /\ ~ digit c /\ c <> 43 /\ c <> 45.
