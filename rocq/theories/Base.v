(* Outcomes, checked arrays and loops: the vocabulary in which the C code is modelled. *)
From Coq Require Export ZArith List Lia Bool QArith.
Export ListNotations.
Set Implicit Arguments.
Open Scope Z_scope.

(* SLIP_info return codes.  SLIP_LU/Include/SLIP_LU.h:175-183 *)
Inductive info := SLIP_OUT_OF_MEMORY | SLIP_SINGULAR | SLIP_INCORRECT_INPUT | SLIP_INCORRECT | SLIP_PANIC.

(* Outcome of a C function: [Ok] = returns SLIP_OK (with outputs), [Err] = returns the given code,
   [UB] = undefined behaviour (out-of-bounds, division outside the GMP contract, ...),
   [Fuel] = a while loop exceeded the bound given to its model (excluded by the theorems). *)
Inductive res (A : Type) := Ok (a : A) | Err (e : info) | UB | Fuel.
Arguments Ok {A} a. Arguments Err {A} e. Arguments UB {A}. Arguments Fuel {A}.

(* SLIP_CHECK (slip_internal.h:122-130): continue on SLIP_OK, otherwise return the code *)
Definition bind {A B} (m : res A) (k : A -> res B) : res B :=
  match m with Ok a => k a | Err e => Err e | UB => UB | Fuel => Fuel end.
Notation "'let*' x ':=' m 'in' k" := (bind m (fun x => k))
  (at level 200, x pattern, m at level 100, k at level 200, right associativity).

(* Arrays.  [get]/[set] are C's a[i]: outside 0..length-1 is undefined behaviour. *)
Definition zlen {A} (l : list A) : Z := Z.of_nat (length l).
Definition get {A} (l : list A) (i : Z) : res A :=
  if i <? 0 then UB else match nth_error l (Z.to_nat i) with Some v => Ok v | None => UB end.
Fixpoint upd {A} (l : list A) (n : nat) (v : A) : list A :=
  match l, n with
  | [], _ => []
  | _ :: t, O => v :: t
  | a :: t, S n' => a :: upd t n' v
  end.
Definition set {A} (l : list A) (i : Z) (v : A) : res (list A) :=
  if (0 <=? i) && (i <? zlen l) then Ok (upd l (Z.to_nat i) v) else UB.
(* an array of n cells all holding v (calloc, or malloc followed by an initialisation loop) *)
Definition mk {A} (n : Z) (v : A) : list A := repeat v (Z.to_nat n).
(* [lo; lo+1; ...; hi-1] *)
Definition zseq (lo hi : Z) : list Z := map (fun k => lo + Z.of_nat k) (seq 0 (Z.to_nat (hi - lo))).

(* for (i = lo ; i < hi ; i++) body *)
Fixpoint floop {S : Type} (cnt : nat) (i : Z) (body : Z -> S -> res S) (s : S) : res S :=
  match cnt with
  | O => Ok s
  | Datatypes.S c => let* s' := body i s in floop c (i + 1) body s'
  end.
Definition for_ {S : Type} (lo hi : Z) (body : Z -> S -> res S) (s : S) : res S :=
  floop (Z.to_nat (hi - lo)) lo body s.
(* for (i = hi-1 ; i >= lo ; i--) body *)
Fixpoint dloop {S : Type} (cnt : nat) (i : Z) (body : Z -> S -> res S) (s : S) : res S :=
  match cnt with
  | O => Ok s
  | Datatypes.S c => let* s' := body i s in dloop c (i - 1) body s'
  end.
Definition down_ {S : Type} (hi lo : Z) (body : Z -> S -> res S) (s : S) : res S :=
  dloop (Z.to_nat (hi - lo)) (hi - 1) body s.

(* SLIP_mpz_divexact (SLIP_gmp.c; GMP manual: "functions are correct only when d divides n"):
   anything else is outside the contract. *)
Definition divexact (a b : Z) : res Z :=
  if b =? 0 then UB else if a mod b =? 0 then Ok (a / b) else UB.

(*----------------------------------------------------------------------------*)
(* proof vocabulary *)

Definition wp {A} (m : res A) (Q : A -> Prop) (E : info -> Prop) : Prop :=
  match m with Ok a => Q a | Err e => E e | UB => False | Fuel => False end.
Definition nerr : info -> Prop := fun _ => False.

Lemma wp_bind A B (m : res A) (k : A -> res B) Q E :
  wp m (fun a => wp (k a) Q E) E -> wp (bind m k) Q E.
Proof. destruct m; simpl; auto. Qed.

Lemma wp_mono A (m : res A) (Q Q' : A -> Prop) (E E' : info -> Prop) :
  (forall a, Q a -> Q' a) -> (forall e, E e -> E' e) -> wp m Q E -> wp m Q' E'.
Proof. destruct m; simpl; auto. Qed.

Lemma wp_conseq A (m : res A) (Q Q' : A -> Prop) (E : info -> Prop) :
  wp m Q E -> (forall a, Q a -> Q' a) -> wp m Q' E.
Proof. destruct m; simpl; auto. Qed.

Lemma wp_ok A (a : A) (Q : A -> Prop) E : Q a -> wp (Ok a) Q E.
Proof. auto. Qed.

Lemma wp_nerr A (m : res A) (Q : A -> Prop) E : wp m Q nerr -> wp m Q E.
Proof. destruct m; simpl; auto. intros []. Qed.

Lemma wp_ok_ex A (m : res A) Q : wp m Q nerr -> exists a, m = Ok a /\ Q a.
Proof. destruct m; simpl; try tauto; eauto. intros []. Qed.

Lemma wp_exists A (m : res A) Q E : wp m Q E -> (exists a, m = Ok a /\ Q a) \/ (exists e, m = Err e /\ E e).
Proof. destruct m; simpl; try tauto; eauto. Qed.

(* total read with default, used in specifications together with a bound *)
Definition rd (l : list Z) (i : Z) : Z := nth (Z.to_nat i) l 0.

Lemma zlen_nonneg A (l : list A) : 0 <= zlen l.
Proof. unfold zlen. lia. Qed.

Lemma zlen_mk A n (v : A) : 0 <= n -> zlen (mk n v) = n.
Proof. unfold zlen, mk. rewrite repeat_length. lia. Qed.

Lemma length_upd A (l : list A) n v : length (upd l n v) = length l.
Proof. revert n; induction l; destruct n; simpl; auto. Qed.

Lemma zlen_upd A (l : list A) n v : zlen (upd l n v) = zlen l.
Proof. unfold zlen. now rewrite length_upd. Qed.

Lemma nth_upd A (l : list A) n m v d :
  nth m (upd l n v) d = if Nat.eqb m n && Nat.ltb n (length l) then v else nth m l d.
Proof.
  revert n m; induction l as [|a l IH]; intros [|n] [|m]; simpl; auto;
    try (rewrite Bool.andb_false_r; auto); try reflexivity.
  rewrite IH. destruct (Nat.eqb_spec m n); simpl; auto.
Qed.

Lemma nth_error_upd A (l : list A) n m v :
  nth_error (upd l n v) m = if Nat.eqb m n && Nat.ltb n (length l) then Some v else nth_error l m.
Proof.
  revert n m; induction l as [|a l IH]; intros [|n] [|m]; simpl; auto;
    try (rewrite Bool.andb_false_r; auto); try reflexivity.
  rewrite IH. destruct (Nat.eqb_spec m n); simpl; auto.
Qed.

(* writing *)
Definition wr (l : list Z) (i v : Z) : list Z := upd l (Z.to_nat i) v.

Lemma zlen_wr l i v : zlen (wr l i v) = zlen l.
Proof. apply zlen_upd. Qed.

Lemma rd_wr_eq l i v : 0 <= i < zlen l -> rd (wr l i v) i = v.
Proof.
  unfold rd, wr, zlen; intros. rewrite nth_upd, Nat.eqb_refl.
  destruct (Nat.ltb_spec (Z.to_nat i) (length l)); simpl; auto. lia.
Qed.

Lemma rd_wr_ne l i j v : 0 <= i -> 0 <= j -> i <> j -> rd (wr l i v) j = rd l j.
Proof.
  unfold rd, wr; intros. rewrite nth_upd. destruct (Nat.eqb_spec (Z.to_nat j) (Z.to_nat i)); simpl; auto. lia.
Qed.

Lemma rd_wr l i j v : 0 <= i < zlen l -> 0 <= j -> rd (wr l i v) j = if j =? i then v else rd l j.
Proof.
  intros; destruct (Z.eqb_spec j i). subst; apply rd_wr_eq; auto. apply rd_wr_ne; lia.
Qed.

Lemma get_rd l i : 0 <= i < zlen l -> get l i = Ok (rd l i).
Proof.
  unfold get, rd, zlen; intros. destruct (Z.ltb_spec i 0); [lia|].
  rewrite (nth_error_nth' l 0) by lia. reflexivity.
Qed.

Lemma set_wr l i v : 0 <= i < zlen l -> set l i v = Ok (wr l i v).
Proof.
  unfold set, wr; intros. destruct (Z.leb_spec 0 i), (Z.ltb_spec i (zlen l)); simpl; auto; lia.
Qed.

Lemma get_ok_inv A (l : list A) i v : get l i = Ok v -> 0 <= i < zlen l /\ nth_error l (Z.to_nat i) = Some v.
Proof.
  unfold get, zlen. destruct (Z.ltb_spec i 0); [discriminate|].
  destruct (nth_error l (Z.to_nat i)) eqn:E; [|discriminate]. intros [= <-].
  assert (Z.to_nat i < length l)%nat by (apply nth_error_Some; congruence). split; auto. lia.
Qed.

Lemma rd_mk n v i : 0 <= i < n -> rd (mk n v) i = v.
Proof.
  intros. unfold rd, mk. rewrite (nth_indep _ 0 v) by (rewrite repeat_length; lia). apply nth_repeat.
Qed.

Lemma rd_mk0 n i : rd (mk n 0) i = 0.
Proof. unfold rd, mk. apply nth_repeat. Qed.

Lemma zlen_app A (a b : list A) : zlen (a ++ b) = zlen a + zlen b.
Proof. unfold zlen. rewrite app_length. lia. Qed.

Lemma rd_app1 a b i : 0 <= i < zlen a -> rd (a ++ b) i = rd a i.
Proof. unfold rd, zlen; intros. apply app_nth1. lia. Qed.

Lemma rd_app2 a b i : zlen a <= i -> rd (a ++ b) i = rd b (i - zlen a).
Proof. unfold rd, zlen; intros. rewrite app_nth2 by lia. f_equal. lia. Qed.

Lemma zlen_zseq lo hi : lo <= hi -> zlen (zseq lo hi) = hi - lo.
Proof. intros. unfold zlen, zseq. rewrite map_length, seq_length. lia. Qed.

Lemma rd_zseq lo hi i : 0 <= i < hi - lo -> rd (zseq lo hi) i = lo + i.
Proof.
  intros. unfold rd, zseq.
  rewrite (nth_indep _ 0 (lo + Z.of_nat 0)) by (rewrite map_length, seq_length; lia).
  rewrite (map_nth (fun k => lo + Z.of_nat k)), seq_nth by lia. lia.
Qed.

Lemma wp_get l i (Q : Z -> Prop) E : 0 <= i < zlen l -> Q (rd l i) -> wp (get l i) Q E.
Proof. intros; rewrite get_rd; auto. Qed.

Lemma wp_set l i v (Q : list Z -> Prop) E : 0 <= i < zlen l -> Q (wr l i v) -> wp (set l i v) Q E.
Proof. intros; rewrite set_wr; auto. Qed.

Lemma wp_divexact a b c (Q : Z -> Prop) E : b <> 0 -> a = b * c -> Q c -> wp (divexact a b) Q E.
Proof.
  intros Hb -> HQ. unfold divexact. destruct (Z.eqb_spec b 0); [lia|].
  rewrite Z.mul_comm, Z_mod_mult. simpl. now rewrite Z_div_mult_full.
Qed.

(* loop rule *)
Lemma wp_floop S cnt lo (body : Z -> S -> res S) (I : Z -> S -> Prop) s E :
  I lo s ->
  (forall i s, lo <= i < lo + Z.of_nat cnt -> I i s -> wp (body i s) (I (i + 1)) E) ->
  wp (floop cnt lo body s) (I (lo + Z.of_nat cnt)) E.
Proof.
  revert lo s; induction cnt as [|c IH]; intros lo s H0 Hs.
  - simpl. now rewrite Z.add_0_r.
  - cbn [floop]. apply wp_bind. eapply wp_mono; [| |apply Hs; [lia|exact H0]].
    + intros s' Hs'. replace (lo + Z.of_nat (Datatypes.S c)) with (lo + 1 + Z.of_nat c) by lia.
      apply IH; auto. intros i s'' Hi. apply Hs. lia.
    + auto.
Qed.

Lemma wp_for S lo hi (body : Z -> S -> res S) (I : Z -> S -> Prop) s E :
  lo <= hi -> I lo s ->
  (forall i s, lo <= i < hi -> I i s -> wp (body i s) (I (i + 1)) E) ->
  wp (for_ lo hi body s) (I hi) E.
Proof.
  intros Hle H0 Hs. unfold for_.
  replace (I hi) with (I (lo + Z.of_nat (Z.to_nat (hi - lo)))) by (f_equal; lia).
  apply wp_floop; auto. intros i s' Hi. apply Hs. lia.
Qed.

Lemma for_empty S lo hi (body : Z -> S -> res S) s : hi <= lo -> for_ lo hi body s = Ok s.
Proof. intros. unfold for_. replace (Z.to_nat (hi - lo)) with O by lia. reflexivity. Qed.

Lemma wp_dloop S cnt hi (body : Z -> S -> res S) (I : Z -> S -> Prop) s E :
  I (hi + 1) s ->
  (forall i s, hi - Z.of_nat cnt < i <= hi -> I (i + 1) s -> wp (body i s) (I i) E) ->
  wp (dloop cnt hi body s) (I (hi + 1 - Z.of_nat cnt)) E.
Proof.
  revert hi s; induction cnt as [|c IH]; intros hi s H0 Hs.
  - simpl. now rewrite Z.sub_0_r.
  - cbn [dloop]. apply wp_bind. eapply wp_mono; [| |apply Hs; [lia|exact H0]].
    + intros s' Hs'. replace (hi + 1 - Z.of_nat (Datatypes.S c)) with (hi - 1 + 1 - Z.of_nat c) by lia.
      apply IH; auto. now replace (hi - 1 + 1) with hi by lia. intros i s'' Hi. apply Hs. lia.
    + auto.
Qed.

Lemma wp_down S hi lo (body : Z -> S -> res S) (I : Z -> S -> Prop) s E :
  lo <= hi -> I hi s ->
  (forall i s, lo <= i < hi -> I (i + 1) s -> wp (body i s) (I i) E) ->
  wp (down_ hi lo body s) (I lo) E.
Proof.
  intros Hle H0 Hs. unfold down_.
  replace (I lo) with (I (hi - 1 + 1 - Z.of_nat (Z.to_nat (hi - lo)))) by (f_equal; lia).
  apply wp_dloop; auto. now replace (hi - 1 + 1) with hi by lia. intros i s' Hi. apply Hs. lia.
Qed.

(* list extensionality through rd *)
Lemma list_ext (a b : list Z) : zlen a = zlen b -> (forall i, 0 <= i < zlen a -> rd a i = rd b i) -> a = b.
Proof.
  intros Hl H. apply (nth_ext _ _ 0 0). unfold zlen in Hl; lia.
  intros n Hn. specialize (H (Z.of_nat n)). unfold rd, zlen in H. rewrite Nat2Z.id in H. apply H. lia.
Qed.
