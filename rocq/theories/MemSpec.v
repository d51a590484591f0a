(* Specification vocabulary for the memory layer *)
From Verif Require Import Base MSolve MMatrix MMem.
Open Scope Z_scope.

(* p is the address of a live block *)
Definition live (s : st) (p : Z) : Prop := exists b, s_heap s p = Some b.
(* p is a live block other than the one holding the list of GMP blocks *)
Definition user_block (s : st) (p : Z) : Prop := live s p /\ p <> s_list s.
(* p is a live block that was allocated at or after time t, and is not the list *)
Definition new_since (t : nat) (s : st) (p : Z) : Prop := (exists b, s_heap s p = Some b /\ (t <= b_id b)%nat) /\ p <> s_list s.
(* the i-th recorded GMP block *)
Definition entry (s : st) (i : Z) : Z := match s_heap s (s_list s) with Some b => b_data b (8 * i) | None => 0 end.
Definition recorded (s : st) (p : Z) : Prop := exists i, 0 <= i < s_nmalloc s /\ entry s i = p.
(* a limb pointer is NULL, static, or points to a live block *)
Definition sound_pointer (s : st) (p : Z) : Prop := p <= 0 \/ user_block s p.
Definition sound_object (s : st) (fields : list Z) : Prop := forall f, In f fields -> sound_pointer s (s_fld s f).

(* the state between two wrapped calls *)
Definition heap_ok (s : st) : Prop := forall p b, s_heap s p = Some b -> 0 < p /\ (b_id b < s_time s)%nat /\ b_size b < TWO64.
Definition list_ok (s : st) : Prop :=
  s_list s = 0 \/ (1 <= s_nlist s /\ exists b, s_heap s (s_list s) = Some b /\ 8 * s_nlist s <= b_size b).
Definition idle (s : st) : Prop := s_inited s = true /\ heap_ok s /\ list_ok s /\ s_arch s = [].

(* what GMP may do: it frees, reallocates and writes only blocks that are live, and stores no dangling pointer *)
Definition size_t (z : Z) : Prop := 0 <= z < TWO64.
Definition legal (s : st) (a : act) : Prop :=
  match a with
  | GAlloc size => size_t size
  | GFree p => p = 0 \/ user_block s p
  | GRealloc p o n => size_t n /\ 0 <= o /\ (p = 0 \/ (p <> s_list s /\ exists b, s_heap s p = Some b /\ o <= b_size b))
  | GSet f p => sound_pointer s p
  | GWrite p o v => p <> s_list s /\ exists b, s_heap s p = Some b /\ 0 <= o /\ o + 8 <= b_size b
  end.
Fixpoint legal_run (E : env) (l : list act) (s : st) : Prop :=
  match l with
  | [] => True
  | a :: l => legal s a /\ forall s', do_act E a s = Ret tt s' -> legal_run E l s'
  end.
(* what mpfr_free_cache may free *)
Definition caches_ok (s : st) (l : list Z) : Prop := NoDup l /\ forall p, In p l -> user_block s p.

(* the state in which the GMP function starts *)
Definition started (arch : option (list Z)) (s : st) : st :=
  set_nmalloc 0 (match arch with Some l => set_arch l s | None => s end).
Definition archived (arch : option (list Z)) : list Z := match arch with Some l => l | None => [] end.

(* the call names block p / assigns limb pointer f *)
Definition names (a : act) (p : Z) : Prop := match a with GFree q | GRealloc q _ _ | GWrite q _ _ => q = p | _ => False end.
Definition assigns (a : act) (f : Z) : Prop := match a with GSet g _ => g = f | _ => False end.
