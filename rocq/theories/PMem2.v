(* The block list of the GMP memory functions: invariant and recovery from failure *)
From Verif Require Import Base MSolve MMatrix MMem MemSpec PMem.
Set Bullet Behavior "Strict Subproofs".
Set Implicit Arguments.
Open Scope Z_scope.

Definition wpM {A} (m : out A) (Q : A -> st -> Prop) (J : Z -> st -> Prop) : Prop :=
  match m with Ret a s => Q a s | Jump c s => J c s | Undef => False end.
Lemma wpM_bind {A B} (m : M A) (k : A -> M B) s Q J :
  wpM (m s) (fun a s' => wpM (k a s') Q J) J -> wpM (mbind m k s) Q J.
Proof. unfold wpM, mbind. destruct (m s); auto. Qed.
Lemma wpM_mono {A} (m : out A) (Q Q' : A -> st -> Prop) (J J' : Z -> st -> Prop) :
  wpM m Q J -> (forall a s, Q a s -> Q' a s) -> (forall c s, J c s -> J' c s) -> wpM m Q' J'.
Proof. unfold wpM. destruct m; auto. Qed.
Lemma wpM_get {B} (k : st -> M B) s Q J : wpM (k s s) Q J -> wpM (mbind getst k s) Q J.
Proof. auto. Qed.
Lemma wpM_mod {B} f (k : unit -> M B) s Q J : wpM (k tt (f s)) Q J -> wpM (mbind (modst f) k s) Q J.
Proof. auto. Qed.

Lemma put_same {A} (f : Z -> A) a v : put f a v a = v.
Proof. unfold put. rewrite Z.eqb_refl. reflexivity. Qed.
Lemma put_other {A} (f : Z -> A) a v x : x <> a -> put f a v x = f x.
Proof. unfold put. intros. destruct (Z.eqb_spec x a); congruence. Qed.
Lemma put_cases {A} (f : Z -> A) a v x : (x = a /\ put f a v x = v) \/ (x <> a /\ put f a v x = f x).
Proof. unfold put. destruct (Z.eqb_spec x a); auto. Qed.
Lemma live_false s a : is_live s a = false -> s_heap s a = None.
Proof. unfold is_live. destruct (s_heap s a); congruence. Qed.

Section Run.
Variable E : env.
Hypothesis Einit : 1 <= e_list_init E < 2 ^ 50.

(*----------------------------------------------------------------------------*)
(* SLIP_malloc in an initialized library *)
Lemma SLIP_malloc_wp size s (Q : Z -> st -> Prop) J : s_inited s = true -> size_t size ->
  Q 0 s -> Q 0 (tick s) ->
  (forall a b, 0 < a -> s_heap s a = None -> b_id b = s_time s -> b_size b = Z.max 1 size ->
     Q a (tick (set_heap (put (s_heap s) a (Some b)) s))) ->
  wpM (SLIP_malloc E size s) Q J.
Proof.
  intros Hi Hsz H0 H0' H1. unfold wpM, SLIP_malloc, getst, mbind, ret. rewrite Hi. cbn [negb].
  unfold SuiteSparse_malloc, ret. change (1 <? 1) with false. cbv beta iota zeta.
  set (sz := if size <? 1 then 1 else size) in *.
  assert (Hm : sz = Z.max 1 size) by (unfold sz; destruct (Z.ltb_spec size 1); lia).
  destruct (size_ok 1 sz); cbn [negb]; cbv beta iota zeta; [|exact H0].
  unfold malloc_func, alloc_func. cbv beta iota zeta.
  destruct ((e_addr E (s_funs s) (s_time s) <=? 0) || is_live s (e_addr E (s_funs s) (s_time s))) eqn:Hc; [exact H0'|].
  apply orb_false_iff in Hc. destruct Hc as [Ha Hl].
  apply H1; [apply Z.leb_gt in Ha; lia|apply live_false; assumption|reflexivity|].
  cbn [b_size]. rewrite Z.mul_1_l, Z.mod_small; [assumption|]. unfold size_t, TWO64 in *. lia.
Qed.

(* SLIP_realloc growing a block in an initialized library *)
Lemma SLIP_realloc_grow_wp n p b s (Q : Z * bool -> st -> Prop) J : s_inited s = true -> 0 < p -> s_heap s p = Some b ->
  1 <= n -> 2 * n < TWO64 -> 8 * n <= b_size b -> 
  Q (p, false) s -> Q (p, false) (tick s) ->
  (forall a b' h', 0 < a -> (a = p /\ b_id b' = b_id b) \/ (a <> p /\ s_heap s a = None /\ b_id b' = s_time s) -> b_size b' = 16 * n -> 16 * n < TWO64 ->
     (forall o, 0 <= o < 8 * n -> b_data b' o = b_data b o) ->
     (forall x, h' x = if x =? a then Some b' else if x =? p then None else s_heap s x) ->
     Q (a, true) (tick (set_heap h' s))) ->
  wpM (SLIP_realloc E (2 * n) n 8 p s) Q J.
Proof.
  intros Hi Hp Hb Hn1 Hn2 Hsz H0 H0' H1. unfold wpM, SLIP_realloc, getst, mbind, ret. rewrite Hi. cbn [negb]. cbv beta iota zeta.
  rewrite !Z.mod_small by (unfold TWO64 in *; lia). unfold SuiteSparse_realloc, ret, mbind.
  destruct (Z.ltb_spec n 1); [lia|]. destruct (Z.ltb_spec (2 * n) 1); [lia|]. change (8 <? 1) with false. cbv beta iota zeta.
  destruct (size_ok (2 * n) 8) eqn:Hok; cbn [negb]; cbv beta iota zeta; [|exact H0].
  apply size_ok_sound in Hok; [|unfold TWO64 in *; lia|unfold TWO64; lia].
  destruct (Z.eqb_spec p 0); [lia|]. destruct (Z.eqb_spec n (2 * n)); [lia|]. cbv beta.
  unfold realloc_func. rewrite Hb. rewrite Z.mod_small by (unfold TWO64 in *; lia). cbv beta iota zeta.
  set (a := e_addr E (s_funs s) (s_time s)) in *.
  destruct (Z.eqb_spec a p) as [Hap|Hap].
  - destruct (Z.eqb_spec p 0); [lia|]. apply (H1 p (mkB (b_id b) (2 * n * 8) (fun o => if o <? Z.min (b_size b) (2 * n * 8) then b_data b o else e_junk E (s_time s) o)));
      [lia|left; auto|cbn [b_size]; lia|lia| |].
    + intros o Ho. cbn [b_data]. destruct (Z.ltb_spec o (Z.min (b_size b) (2 * n * 8))); [reflexivity|lia].
    + intros x. unfold put. destruct (x =? p); reflexivity.
  - destruct ((a <=? 0) || is_live s a) eqn:Hc.
    + simpl Z.eqb. cbv iota. destruct (Z.ltb_spec (2 * n) n); [lia|]. exact H0'.
    + apply orb_false_iff in Hc. destruct Hc as [Hc1 Hc2]. apply Z.leb_gt in Hc1. apply live_false in Hc2.
      destruct (Z.eqb_spec a 0); [lia|]. apply (H1 a (mkB (s_time s) (2 * n * 8) (fun o => if o <? Z.min (b_size b) (2 * n * 8) then b_data b o else e_junk E (s_time s) o)));
        [lia|right; auto|cbn [b_size]; lia|lia| |].
      * intros o Ho. cbn [b_data]. destruct (Z.ltb_spec o (Z.min (b_size b) (2 * n * 8))); [reflexivity|lia].
      * intros x. unfold put. destruct (x =? a); reflexivity.
Qed.

(*----------------------------------------------------------------------------*)
(* the invariant of a wrapped call that started at time t0 with heap h0.  K: blocks that must stay as they are; F: limb pointers that
   must stay as they are *)
Variables (t0 : nat) (h0 : Z -> option blk) (A0 : list Z) (K : Z -> option blk) (F : Z -> option Z).
Record inv (s : st) : Prop := mkInv {
  i_init : s_inited s = true;
  i_heap : heap_ok s;
  i_time : (t0 <= s_time s)%nat;
  i_list : (s_list s = 0 /\ s_nmalloc s = 0) \/
           (1 <= s_nlist s /\ 0 <= s_nmalloc s <= s_nlist s /\ exists b, s_heap s (s_list s) = Some b /\ 8 * s_nlist s <= b_size b);
  i_inj : forall i j, 0 <= i < s_nmalloc s -> 0 <= j < s_nmalloc s -> entry s i = entry s j -> i = j;
  i_rec : forall p, recorded s p <-> new_since t0 s p;
  i_old : forall p b, s_heap s p = Some b -> (b_id b < t0)%nat -> exists b0, h0 p = Some b0 /\ b_id b0 = b_id b;
  i_arch : s_arch s = A0;
  i_obj : sound_object s A0;
  i_keep : forall p b, K p = Some b -> s_heap s p = Some b /\ p <> s_list s;
  i_fkeep : forall f v, F f = Some v -> s_fld s f = v }.

(* user blocks of s are untouched in s' *)
Definition frame (s s' : st) : Prop :=
  (forall x b, s_heap s x = Some b -> x <> s_list s -> s_heap s' x = Some b /\ x <> s_list s') /\
  s_fld s' = s_fld s /\ s_arch s' = s_arch s.
Lemma frame_refl s : frame s s.  Proof. repeat split; auto. Qed.
Lemma frame_trans s s' s'' : frame s s' -> frame s' s'' -> frame s s''.
Proof. intros (H1 & H2 & H3) (G1 & G2 & G3). split; [|split; congruence]. intros x b Hb Hx. destruct (H1 x b Hb Hx). auto. Qed.
Lemma frame_obj s s' l : frame s s' -> sound_object s l -> sound_object s' l.
Proof.
  intros (H1 & H2 & _) H f Hf. rewrite H2. destruct (H f Hf) as [|[[b Hb] Hx]]; [left; assumption|right].
  destruct (H1 _ b Hb Hx). split; [exists b|]; assumption.
Qed.

Lemma inv_ntrials n s : inv s -> inv (set_ntrials n s).
Proof. intros []. constructor; assumption. Qed.
Lemma inv_tick s : inv s -> inv (tick s).
Proof.
  intros []. constructor; try assumption; simpl; [|lia].
  intros p b Hb. destruct (i_heap0 p b Hb) as (? & ? & ?). simpl. repeat split; try lia; assumption.
Qed.
Lemma inv_list_pos s : inv s -> 0 <= s_list s.
Proof. intros []. destruct i_list0 as [[-> _]|(_ & _ & b & Hb & _)]; [lia|]. apply i_heap0 in Hb. lia. Qed.
Lemma inv_zero_none s : inv s -> s_heap s 0 = None.
Proof. intros []. destruct (s_heap s 0) as [b|] eqn:Hb; [|reflexivity]. apply i_heap0 in Hb. lia. Qed.

Lemma ensure_list_wp s : inv s ->
  wpM ((if s_list s =? 0 then
     (do ok <- slip_gmp_init E; if negb ok then longjmp 2 else ret tt)
   else if s_nmalloc s =? s_nlist s then
     (let newsize := 2 * s_nlist s in
      do r <- SLIP_realloc E newsize (s_nlist s) 8 (s_list s);
      modst (set_list (fst r)) ;;
      if negb (snd r) then longjmp 3 else modst (set_nlist newsize))
   else ret tt) s)
  (fun _ s' => inv s' /\ s_list s' <> 0 /\ s_nmalloc s' < s_nlist s' /\ frame s s')
  (fun _ s' => inv s' /\ frame s s').
Proof.
  intros I. pose proof (inv_zero_none I) as Hz0. destruct I as [Ii Ih It Il Iinj Irec Iold Ia Io Ik If].
  destruct (Z.eqb_spec (s_list s) 0) as [Hl|Hl].
  - destruct Il as [[_ Hnm]|(_ & _ & b & Hb & _)]; [|rewrite Hl in Hb; congruence].
    assert (Hnew : forall p b, s_heap s p = Some b -> (b_id b < t0)%nat).
    { intros p b Hb. destruct (Nat.lt_ge_cases (b_id b) t0) as [|Hge]; [assumption|]. exfalso.
      assert (Hn : new_since t0 s p). { split; [exists b; auto|]. rewrite Hl. intros ->. congruence. }
      apply Irec in Hn. destruct Hn as (i & Hi & _). lia. }
    assert (Hempty : forall s', s_heap s' = s_heap s -> s_nmalloc s' = 0 -> forall p, recorded s' p <-> new_since t0 s' p).
    { intros s' Hh Hn p. split; [intros (i & Hi & _); lia|]. intros [(b & Hb & Hge) _]. rewrite Hh in Hb. apply Hnew in Hb. lia. }
    apply wpM_bind. unfold slip_gmp_init. apply wpM_mod. apply wpM_mod. apply wpM_bind.
    assert (Hfail : forall s', s_heap s' = s_heap s -> s_fld s' = s_fld s -> s_arch s' = s_arch s -> s_inited s' = s_inited s ->
       (s_time s <= s_time s')%nat -> s_list s' = 0 -> s_nmalloc s' = 0 -> inv s' /\ frame s s').
    { intros s' Hh Hf Har Hin Ht Hl' Hn'. split; [constructor|].
      - congruence.
      - intros p b. rewrite Hh. intros Hb. destruct (Ih p b Hb) as (? & ? & ?). repeat split; try lia; assumption.
      - lia.
      - left. auto.
      - intros i j Hi. lia.
      - apply Hempty; assumption.
      - rewrite Hh. assumption.
      - congruence.
      - intros f Hin'. rewrite Hf. destruct (Io f Hin') as [|[[b Hb] Hx]]; [left; assumption|]. right.
        split; [exists b; rewrite Hh; assumption|congruence].
      - intros p b Hp. rewrite Hh, Hl'. rewrite <- Hl. apply Ik. assumption.
      - rewrite Hf. assumption.
      - split; [|split; assumption]. intros x b Hb Hx. rewrite Hh, Hl'. split; [assumption|congruence]. }
    apply SLIP_malloc_wp.
    + assumption.
    + unfold size_t. apply Z.mod_pos_bound. reflexivity.
    + apply wpM_mod. cbn [wpM ret Z.eqb negb longjmp]. apply Hfail; simpl; auto.
    + apply wpM_mod. cbn [wpM ret Z.eqb negb longjmp]. apply Hfail; simpl; auto.
    + intros a b Ha Hna Hid Hsz. apply wpM_mod. unfold wpM at 1, ret at 1. destruct (Z.eqb_spec a 0); [lia|]. cbn [negb]. unfold wpM, ret.
      simpl in Hna, Hid. rewrite Z.mod_small in Hsz by (unfold TWO64; lia).
      set (s' := set_list a _).
      assert (Hh : forall x, x <> a -> s_heap s' x = s_heap s x) by (intros x Hx; simpl; apply put_other; assumption).
      assert (Hha : s_heap s' a = Some b) by (simpl; apply put_same).
      assert (Hfr : frame s s').
      { split; [|split; reflexivity]. intros x c Hc Hx. assert (x <> a) by congruence. rewrite Hh by assumption. split; [assumption|exact H]. }
      split; [constructor|].
      * assumption.
      * intros p c Hc. simpl s_time. destruct (Z.eq_dec p a) as [->|Hp].
        -- rewrite Hha in Hc. injection Hc as <-. repeat split; [lia|simpl; lia|unfold TWO64; lia].
        -- rewrite Hh in Hc by assumption. destruct (Ih p c Hc) as (? & ? & ?). repeat split; [lia|simpl; lia|assumption].
      * simpl. lia.
      * right. simpl s_nlist. simpl s_nmalloc. split; [lia|]. split; [lia|]. exists b. split; [exact Hha|]. lia.
      * intros i j Hi. simpl in Hi. lia.
      * intros p. split; [intros (i & Hi & _); simpl in Hi; lia|]. intros [(c & Hc & Hge) Hp]. change (s_list s') with a in Hp.
        rewrite Hh in Hc by assumption. apply Hnew in Hc. lia.
      * intros p c Hc Hlt. destruct (Z.eq_dec p a) as [->|Hp].
        -- rewrite Hha in Hc. injection Hc as <-. lia.
        -- rewrite Hh in Hc by assumption. apply Iold; assumption.
      * assumption.
      * apply (frame_obj Hfr). assumption.
      * intros p c Hp. destruct (Ik p c Hp) as [Hc Hx]. destruct Hfr as [Hfr _]. apply Hfr; assumption.
      * assumption.
      * split; [exact n|]. split; [simpl; lia|exact Hfr].
  - destruct Il as [[? _]|(Hn1 & Hn2 & b & Hb & Hsz)]; [congruence|].
    destruct (Ih _ _ Hb) as (Hpos & Hid & Hszlt).
    destruct (Z.eqb_spec (s_nmalloc s) (s_nlist s)) as [Hfull|Hfull].
    + cbv zeta. apply wpM_bind.
      assert (I0 : inv s) by (constructor; auto; right; split; [assumption|split; [assumption|exists b; auto]]).
      assert (Hs : set_list (s_list s) s = s) by (destruct s; reflexivity).
      apply (@SLIP_realloc_grow_wp _ _ b); try assumption.
      * unfold TWO64 in *. lia.
      * apply wpM_mod. cbn [fst snd negb wpM longjmp]. rewrite Hs. split; [assumption|apply frame_refl].
      * apply wpM_mod. cbn [fst snd negb wpM longjmp]. 
        assert (Hs' : set_list (s_list s) (tick s) = tick s) by (destruct s; reflexivity). rewrite Hs'.
        split; [apply inv_tick; assumption|]. split; [|split; reflexivity]. intros x c Hc Hx. simpl. auto.
      * intros a b' h' Ha Hcase Hsz' Hlt64 Hdata Hh'. apply wpM_mod. cbn [fst snd negb wpM modst].
        set (s' := set_nlist _ _).
        assert (Hh : forall x, x <> a -> x <> s_list s -> s_heap s' x = s_heap s x).
        { intros x Hx1 Hx2. simpl. rewrite Hh'. destruct (Z.eqb_spec x a); [congruence|]. destruct (Z.eqb_spec x (s_list s)); congruence. }
        assert (Hha : s_heap s' a = Some b') by (simpl; rewrite Hh', Z.eqb_refl; reflexivity).
        assert (Hlist : s_list s' = a) by reflexivity.
        assert (Hold : s_list s <> a -> s_heap s' (s_list s) = None).
        { intros Hx. simpl. rewrite Hh'. destruct (Z.eqb_spec (s_list s) a); [congruence|]. rewrite Z.eqb_refl. reflexivity. }
        assert (Hent : forall i, 0 <= i < s_nmalloc s' -> entry s' i = entry s i).
        { intros i Hi. unfold entry. rewrite Hlist, Hha, Hb. apply Hdata. simpl in Hi. lia. }
        assert (Hfresh : forall x c, s_heap s x = Some c -> x <> s_list s -> x <> a).
        { intros x c Hc Hx ->. destruct Hcase as [[? _]|(_ & Hn & _)]; congruence. }
        assert (Hfr : frame s s').
        { split; [|split; reflexivity]. intros x c Hc Hx. assert (Hxa : x <> a) by (eapply Hfresh; eassumption). 
          rewrite Hh by assumption. split; [assumption|]. rewrite Hlist. assumption. }
        assert (Hback : forall x c, s_heap s' x = Some c -> x <> a -> s_heap s x = Some c /\ x <> s_list s).
        { intros x c Hc Hx. destruct (Z.eq_dec x (s_list s)) as [->|Hxl]; [rewrite Hold in Hc by assumption; discriminate|].
          rewrite Hh in Hc by assumption. auto. }
        assert (I' : inv s').
        { constructor.
          - assumption.
          - intros p c Hc. simpl s_time. destruct (Z.eq_dec p a) as [->|Hp].
            + rewrite Hha in Hc. injection Hc as <-. repeat split; [lia| |lia]. destruct Hcase as [[_ Hid']|(_ & _ & Hid')]; lia.
            + apply Hback in Hc; [|assumption]. destruct Hc as [Hc _]. destruct (Ih p c Hc) as (? & ? & ?). repeat split; [lia|simpl; lia|assumption].
          - simpl. lia.
          - right. change (s_nlist s') with (2 * s_nlist s). change (s_nmalloc s') with (s_nmalloc s). split; [lia|]. split; [lia|].
            exists b'. rewrite Hlist. split; [assumption|lia].
          - intros i j Hi Hj. rewrite !Hent by assumption. apply Iinj; assumption.
          - intros p. split.
            + intros (i & Hi & Hp). rewrite Hent in Hp by assumption.
              assert (Hr : recorded s p) by (exists i; auto). apply Irec in Hr. destruct Hr as [(c & Hc & Hge) Hx].
              destruct Hfr as [Hfr _]. destruct (Hfr p c Hc Hx) as [Hc' Hx']. split; [exists c; auto|assumption].
            + intros [(c & Hc & Hge) Hx]. rewrite Hlist in Hx. apply Hback in Hc; [|assumption]. destruct Hc as [Hc Hxl].
              assert (Hr : new_since t0 s p) by (split; [exists c; auto|assumption]). apply Irec in Hr. destruct Hr as (i & Hi & Hp).
              exists i. split; [exact Hi|]. rewrite Hent by exact Hi. exact Hp.
          - intros p c Hc Hlt. destruct (Z.eq_dec p a) as [->|Hp].
            + rewrite Hha in Hc. injection Hc as <-. destruct Hcase as [[-> Hid']|(_ & _ & Hid')]; [|lia].
              rewrite Hid' in *. apply (Iold _ b Hb). assumption.
            + apply Hback in Hc; [|assumption]. destruct Hc as [Hc _]. apply Iold; assumption.
          - assumption.
          - apply (frame_obj Hfr). assumption.
          - intros p c Hp. destruct (Ik p c Hp) as [Hc Hx]. destruct Hfr as [Hfr _]. apply Hfr; assumption.
          - assumption. }
        split; [exact I'|]. split; [rewrite Hlist; lia|]. split; [change (s_nmalloc s < 2 * s_nlist s); lia|exact Hfr].
    + unfold wpM, ret. split; [constructor; auto; right; split; [assumption|split; [assumption|exists b; auto]]|].
      split; [assumption|]. split; [lia|]. apply frame_refl.
Qed.

(*----------------------------------------------------------------------------*)
Lemma allocate_wp size s : inv s -> size_t size ->
  wpM (slip_gmp_allocate E size s)
  (fun p s' => inv s' /\ frame s s' /\ 0 < p /\ p <> s_list s' /\
     (exists b, s_heap s' p = Some b /\ b_size b = Z.max 1 size /\ (t0 <= b_id b)%nat) /\
     (forall x b, s_heap s x = Some b -> x <> s_list s -> x <> p))
  (fun _ s' => inv s').
Proof.
  intros I Hsz. unfold slip_gmp_allocate. apply wpM_get. apply wpM_bind.
  assert (H1 : forall s1, inv s1 -> frame s s1 ->
    wpM ((do s2 <- getst;
     (if s_list s2 =? 0 then (do ok <- slip_gmp_init E; if negb ok then longjmp 2 else ret tt)
      else if s_nmalloc s2 =? s_nlist s2 then
        (let newsize := 2 * s_nlist s2 in
         do r <- SLIP_realloc E newsize (s_nlist s2) 8 (s_list s2);
         modst (set_list (fst r)) ;;
         if negb (snd r) then longjmp 3 else modst (set_nlist newsize))
      else ret tt) ;;
      do p <- SLIP_malloc E size;
      if p =? 0 then longjmp 4 else
      do s3 <- getst; store (s_list s3) (8 * s_nmalloc s3) p ;; modst (set_nmalloc (s_nmalloc s3 + 1)) ;; ret p) s1)
    (fun p s' => inv s' /\ frame s s' /\ 0 < p /\ p <> s_list s' /\
     (exists b, s_heap s' p = Some b /\ b_size b = Z.max 1 size /\ (t0 <= b_id b)%nat) /\
     (forall x b, s_heap s x = Some b -> x <> s_list s -> x <> p))
    (fun _ s' => inv s')).
  { intros s1 I1 F1. apply wpM_get. apply wpM_bind. eapply wpM_mono; [apply (ensure_list_wp I1)| |intros c s' H; apply H].
    intros _ s2 (I2 & Hl2 & Hnm & F2). pose proof (frame_trans F1 F2) as F12. apply wpM_bind.
    apply SLIP_malloc_wp; [apply I2|assumption|unfold wpM, longjmp; simpl; assumption|unfold wpM, longjmp; simpl; apply inv_tick; assumption|].
    intros a b Ha Hna Hid Hbs. destruct (Z.eqb_spec a 0); [lia|]. apply wpM_get.
    destruct I2 as [Ii Ih It Il Iinj Irec Iold Ia Io Ik If].
    destruct Il as [[? _]|(Hn1 & Hn2 & lb & Hlb & Hlsz)]; [congruence|].
    assert (Hla : s_list s2 <> a) by congruence.
    cbn [tick set_heap s_list s_nmalloc]. unfold mbind, store at 1. cbn [tick set_heap s_heap].
    rewrite put_other by assumption. rewrite Hlb.
    replace ((0 <=? 8 * s_nmalloc s2) && (8 * s_nmalloc s2 + 8 <=? b_size lb)) with true by
      (symmetry; apply andb_true_iff; split; apply Z.leb_le; lia).
    unfold modst, ret, wpM.
    set (s' := set_nmalloc (s_nmalloc s2 + 1) _).
    set (lb' := mkB (b_id lb) (b_size lb) (put (b_data lb) (8 * s_nmalloc s2) a)) in *.
    assert (Hh : forall x, x <> a -> x <> s_list s2 -> s_heap s' x = s_heap s2 x).
    { intros x Hx1 Hx2. simpl. rewrite !put_other by assumption. reflexivity. }
    assert (Hha : s_heap s' a = Some b). { simpl. rewrite put_other by congruence. apply put_same. }
    assert (Hhl : s_heap s' (s_list s2) = Some lb') by (simpl; apply put_same).
    assert (Hlist : s_list s' = s_list s2) by reflexivity.
    assert (Hnm' : s_nmalloc s' = s_nmalloc s2 + 1) by reflexivity.
    assert (Hent : forall i, 0 <= i < s_nmalloc s2 -> entry s' i = entry s2 i).
    { intros i Hi. unfold entry. rewrite Hlist, Hhl, Hlb. unfold lb'. cbn [b_data]. apply put_other. lia. }
    assert (Hent1 : entry s' (s_nmalloc s2) = a).
    { unfold entry. rewrite Hlist, Hhl. apply put_same. }
    assert (Hfr : frame s2 s').
    { split; [|split; reflexivity]. intros x c Hc Hx. assert (x <> a) by congruence. rewrite Hh by assumption. auto. }
    assert (Hfresh : forall i, 0 <= i < s_nmalloc s2 -> entry s2 i <> a).
    { intros i Hi Heq. assert (Hr : recorded s2 a) by (exists i; auto). apply Irec in Hr. destruct Hr as [(c & Hc & _) _]. congruence. }
    split; [|split; [eapply frame_trans; eassumption|]].
    { constructor.
      - assumption.
      - intros p c Hc. change (s_time s') with (S (s_time s2)). destruct (Z.eq_dec p a) as [->|Hpa].
        + rewrite Hha in Hc. injection Hc as <-. unfold size_t, TWO64 in *. repeat split; lia.
        + destruct (Z.eq_dec p (s_list s2)) as [->|Hpl].
          * rewrite Hhl in Hc. injection Hc as <-. destruct (Ih _ _ Hlb) as (? & ? & ?). simpl. repeat split; try lia; assumption.
          * rewrite Hh in Hc by assumption. destruct (Ih _ _ Hc) as (? & ? & ?). repeat split; try lia; assumption.
      - change (s_time s') with (S (s_time s2)). lia.
      - right. change (s_nlist s') with (s_nlist s2). rewrite Hnm', Hlist. split; [lia|]. split; [lia|]. exists lb'. split; [assumption|]. exact Hlsz.
      - rewrite Hnm'. intros i j Hi Hj.
        destruct (Z.eq_dec i (s_nmalloc s2)) as [->|Hi']; destruct (Z.eq_dec j (s_nmalloc s2)) as [->|Hj'].
        + reflexivity.
        + rewrite Hent1, Hent by lia. intros Heq. exfalso. apply (Hfresh j); [lia|congruence].
        + rewrite Hent1, Hent by lia. intros Heq. exfalso. apply (Hfresh i); [lia|congruence].
        + rewrite !Hent by lia. apply Iinj; lia.
      - intros p. split.
        + intros (i & Hi & Hp). rewrite Hnm' in Hi. destruct (Z.eq_dec i (s_nmalloc s2)) as [->|Hi'].
          * rewrite Hent1 in Hp. subst p. split; [|rewrite Hlist; congruence]. exists b. split; [assumption|lia].
          * rewrite Hent in Hp by lia. assert (Hr : recorded s2 p) by (exists i; split; [lia|assumption]). apply Irec in Hr.
            destruct Hr as [(c & Hc & Hge) Hx]. split; [|rewrite Hlist; assumption]. exists c. split; [|assumption]. rewrite Hh; [assumption|congruence|assumption].
        + intros [(c & Hc & Hge) Hx]. rewrite Hlist in Hx. destruct (Z.eq_dec p a) as [->|Hpa].
          * exists (s_nmalloc s2). split; [rewrite Hnm'; lia|assumption].
          * rewrite Hh in Hc by assumption. assert (Hr : new_since t0 s2 p) by (split; [exists c; auto|assumption]). apply Irec in Hr.
            destruct Hr as (i & Hi & Hp). exists i. split; [rewrite Hnm'; lia|]. rewrite Hent by lia. assumption.
      - intros p c Hc Hlt. destruct (Z.eq_dec p a) as [->|Hpa]; [rewrite Hha in Hc; injection Hc as <-; lia|].
        destruct (Z.eq_dec p (s_list s2)) as [->|Hpl].
        + rewrite Hhl in Hc. injection Hc as <-. apply (Iold _ lb Hlb). assumption.
        + rewrite Hh in Hc by assumption. apply Iold; assumption.
      - assumption.
      - apply (frame_obj Hfr). assumption.
      - intros p c Hp. destruct (Ik p c Hp) as [Hc Hx]. destruct Hfr as [Hfr _]. apply Hfr; assumption.
      - assumption. }
    split; [assumption|]. split; [rewrite Hlist; congruence|]. split; [exists b; split; [assumption|split; [assumption|lia]]|].
    intros x c Hc Hx ->. destruct F12 as [F12 _]. destruct (F12 a c Hc Hx) as [Hc' _]. congruence. }
  destruct (s_ntrials s =? 0) eqn:Hn0; [unfold wpM, longjmp; assumption|].
  destruct (0 <? s_ntrials s) eqn:Hn1.
  - unfold wpM at 1, modst at 1. apply H1; [apply inv_ntrials; assumption|]. split; [|split; reflexivity]. auto.
  - unfold wpM at 1, ret at 1. apply H1; [assumption|apply frame_refl].
Qed.

(*----------------------------------------------------------------------------*)
(* slip_gmp_free *)
Definition drop_field (s : st) (p : Z) : Z -> Z := fun f => if existsb (Z.eqb f) (s_arch s) && (s_fld s f =? p) then 0 else s_fld s f.

Lemma safe_free_wp p s (Q : unit -> st -> Prop) J : s_inited s = true -> p <> 0 -> live s p ->
  Q tt (set_heap (put (s_heap s) p None) (set_fld (drop_field s p) s)) -> wpM (safe_free p s) Q J.
Proof.
  intros Hi Hp [b Hb] H. unfold safe_free. apply wpM_mod. unfold wpM, SLIP_free, mbind, getst. cbn [set_fld s_inited]. rewrite Hi. cbn [negb].
  unfold SuiteSparse_free. destruct (Z.eqb_spec p 0); [congruence|]. unfold free_func. cbn [set_fld s_heap]. rewrite Hb. exact H.
Qed.

Lemma remove_entry_wp p s0 lb cnt : forall i, s_heap s0 (s_list s0) = Some lb -> 8 * s_nmalloc s0 <= b_size lb -> 0 <= i ->
  Z.of_nat cnt = s_nmalloc s0 - i -> (forall j, 0 <= j < i -> entry s0 j <> p) ->
  wpM (remove_entry cnt i p s0) (fun _ s' => (s' = s0 /\ forall j, 0 <= j < s_nmalloc s0 -> entry s0 j <> p) \/
    (exists k, 0 <= k < s_nmalloc s0 /\ entry s0 k = p /\
       s' = set_heap (put (s_heap s0) (s_list s0) (Some (mkB (b_id lb) (b_size lb) (put (b_data lb) (8 * k) (entry s0 (s_nmalloc s0 - 1))))))
              (set_nmalloc (s_nmalloc s0 - 1) s0))) (fun _ _ => False).
Proof.
  induction cnt as [|cnt IH]; intros i Hlb Hsz Hi Hcnt Hno.
  - simpl. left. split; [reflexivity|]. intros j Hj. apply Hno. lia.
  - cbn [remove_entry]. apply wpM_get. unfold mbind at 1, load at 1. rewrite Hlb.
    replace ((0 <=? 8 * i) && (8 * i + 8 <=? b_size lb)) with true by (symmetry; apply andb_true_iff; split; apply Z.leb_le; lia).
    assert (Hei : entry s0 i = b_data lb (8 * i)) by (unfold entry; rewrite Hlb; reflexivity).
    destruct (Z.eqb_spec (b_data lb (8 * i)) p) as [Hp|Hp].
    + apply wpM_mod. unfold mbind, load. cbn [set_nmalloc s_heap s_nmalloc s_list]. rewrite Hlb.
      replace ((0 <=? 8 * (s_nmalloc s0 - 1)) && (8 * (s_nmalloc s0 - 1) + 8 <=? b_size lb)) with true by (symmetry; apply andb_true_iff; split; apply Z.leb_le; lia).
      unfold store. cbn [set_nmalloc s_heap]. rewrite Hlb.
      replace ((0 <=? 8 * i) && (8 * i + 8 <=? b_size lb)) with true by (symmetry; apply andb_true_iff; split; apply Z.leb_le; lia).
      simpl. right. exists i. split; [lia|]. split; [congruence|]. unfold entry. rewrite Hlb. reflexivity.
    + apply IH; try assumption; try lia. intros j Hj. destruct (Z.eq_dec j i) as [->|]; [congruence|]. apply Hno. lia.
Qed.

(* effect of slip_gmp_free on everything but the list *)
Definition freed (p : Z) (s s' : st) : Prop :=
  (forall x, x <> s_list s -> s_heap s' x = if x =? p then None else s_heap s x) /\ s_list s' = s_list s /\
  s_fld s' = drop_field s p /\ s_arch s' = s_arch s.

Lemma drop_other s p f : ~ In f (s_arch s) -> drop_field s p f = s_fld s f.
Proof.
  intros H. unfold drop_field. destruct (existsb (Z.eqb f) (s_arch s)) eqn:He; [|reflexivity].
  apply existsb_exists in He. destruct He as (x & Hx & Heq). apply Z.eqb_eq in Heq. subst x. contradiction.
Qed.
Lemma drop_sound s s' p : sound_object s (s_arch s) -> freed p s s' -> sound_object s' (s_arch s).
Proof.
  intros H (Hh & Hl & Hf & _) f Hin. rewrite Hf. unfold drop_field.
  assert (existsb (Z.eqb f) (s_arch s) = true) as -> by (apply existsb_exists; exists f; split; [assumption|apply Z.eqb_refl]).
  destruct (Z.eqb_spec (s_fld s f) p) as [Hp|Hp]; cbn [andb]; [left; lia|].
  destruct (H f Hin) as [|[[b Hb] Hx]]; [left; assumption|]. right. split; [|congruence].
  exists b. rewrite Hh by assumption. destruct (Z.eqb_spec (s_fld s f) p); [congruence|assumption].
Qed.

Hypothesis Fsep : forall f, F f <> None -> ~ In f A0.

Lemma free_wp p s : inv s -> user_block s p -> K p = None ->
  wpM (slip_gmp_free p s) (fun _ s' => inv s' /\ freed p s s') (fun _ _ => False).
Proof.
  intros I [[pb Hpb] Hpl] HKp. destruct I as [Ii Ih It Il Iinj Irec Iold Ia Io Ik If].
  assert (Hp0 : 0 < p) by (apply Ih in Hpb; lia).
  unfold slip_gmp_free. apply wpM_get. apply wpM_bind. destruct (Z.eqb_spec p 0); [lia|]. cbn [negb andb].
  destruct (Z.eqb_spec (s_list s) 0) as [Hl|Hl]; cbn [negb].
  - destruct Il as [[_ Hnm]|(_ & _ & b & Hb & _)]; [|rewrite Hl in Hb; apply Ih in Hb; lia].
    unfold wpM at 1, ret. apply safe_free_wp; [assumption|lia|exists pb; assumption|].
    set (s' := set_heap _ _).
    assert (Hfr : freed p s s').
    { split; [|repeat split]. intros x Hx. simpl. unfold put. reflexivity. }
    assert (Hnone : s_heap s 0 = None) by (destruct (s_heap s 0) eqn:Hz; [apply Ih in Hz; lia|reflexivity]).
    assert (Hsub : forall x c, s_heap s' x = Some c -> s_heap s x = Some c /\ x <> p).
    { intros x c. simpl. destruct (put_cases (s_heap s) p None x) as [[-> ->]|[Hx ->]]; [discriminate|auto]. }
    split; [|assumption]. constructor.
    + assumption.
    + intros x c Hc. apply Hsub in Hc. destruct Hc as [Hc _]. apply Ih in Hc. assumption.
    + assumption.
    + left. auto.
    + intros i j Hi. simpl in Hi. lia.
    + intros q. split; [intros (i & Hi & _); simpl in Hi; lia|]. intros [(c & Hc & Hge) Hx]. apply Hsub in Hc. destruct Hc as [Hc _].
      assert (Hr : new_since t0 s q) by (split; [exists c; auto|exact Hx]). apply Irec in Hr. destruct Hr as (i & Hi & _). lia.
    + intros x c Hc. apply Hsub in Hc. destruct Hc as [Hc _]. apply Iold. assumption.
    + assumption.
    + rewrite <- Ia. apply (@drop_sound s s' p); [rewrite Ia; assumption|assumption].
    + intros x c Hx. destruct (Ik x c Hx) as [Hc Hxl]. split; [|exact Hxl]. simpl. rewrite put_other by congruence. assumption.
    + intros f v Hf. change (s_fld s' f) with (drop_field s p f). rewrite drop_other; [apply If; assumption|]. rewrite Ia. apply Fsep. congruence.
  - destruct Il as [[? _]|(Hn1 & Hn2 & lb & Hlb & Hlsz)]; [congruence|].
    eapply wpM_mono; [apply (@remove_entry_wp p s lb (Z.to_nat (s_nmalloc s)) 0); try assumption; try lia|  |intros ? ? []].
    intros _ s1 [[-> Hno]|(k & Hk & Hek & ->)].
    + apply safe_free_wp; [assumption|lia|exists pb; assumption|]. set (s' := set_heap _ _).
      assert (Hfr : freed p s s').
      { split; [|repeat split]. intros x Hx. simpl. unfold put. reflexivity. }
      assert (Hsub : forall x c, s_heap s' x = Some c -> s_heap s x = Some c /\ x <> p).
      { intros x c. simpl. destruct (put_cases (s_heap s) p None x) as [[-> ->]|[Hx ->]]; [discriminate|auto]. }
      assert (Hlb' : s_heap s' (s_list s) = Some lb) by (simpl; rewrite put_other by congruence; assumption).
      assert (Hent : forall i, entry s' i = entry s i).
      { intros i. unfold entry. change (s_list s') with (s_list s). rewrite Hlb', Hlb. reflexivity. }
      split; [|assumption]. constructor.
      * assumption.
      * intros x c Hc. apply Hsub in Hc. destruct Hc as [Hc _]. apply Ih in Hc. assumption.
      * assumption.
      * right. split; [exact Hn1|]. split; [exact Hn2|]. exists lb. split; [exact Hlb'|exact Hlsz].
      * intros i j. rewrite !Hent. apply Iinj.
      * intros q. split.
        -- intros (i & Hi & Hq). rewrite Hent in Hq. assert (Hr : recorded s q) by (exists i; auto). apply Irec in Hr.
           destruct Hr as [(c & Hc & Hge) Hx]. split; [|exact Hx]. exists c. split; [|assumption]. simpl. rewrite put_other; [assumption|].
           intros ->. apply (Hno i); assumption.
        -- intros [(c & Hc & Hge) Hx]. apply Hsub in Hc. destruct Hc as [Hc _].
           assert (Hr : new_since t0 s q) by (split; [exists c; auto|exact Hx]). apply Irec in Hr. destruct Hr as (i & Hi & Hq).
           exists i. split; [exact Hi|]. rewrite Hent. exact Hq.
      * intros x c Hc. apply Hsub in Hc. destruct Hc as [Hc _]. apply Iold. assumption.
      * assumption.
      * rewrite <- Ia. apply (@drop_sound s s' p); [rewrite Ia; assumption|assumption].
      * intros x c Hx. destruct (Ik x c Hx) as [Hc Hxl]. split; [|exact Hxl]. simpl. rewrite put_other by congruence. assumption.
      * intros f v Hf. change (s_fld s' f) with (drop_field s p f). rewrite drop_other; [apply If; assumption|]. rewrite Ia. apply Fsep. congruence.
    + set (lb' := mkB (b_id lb) (b_size lb) (put (b_data lb) (8 * k) (entry s (s_nmalloc s - 1)))).
      set (s1 := set_heap _ _).
      apply safe_free_wp; [assumption|lia| |].
      { exists pb. simpl. rewrite put_other by assumption. assumption. }
      set (s' := set_heap _ _).
      assert (Hh : forall x, x <> s_list s -> s_heap s' x = if x =? p then None else s_heap s x).
      { intros x Hx. simpl. unfold put. destruct (x =? p); [reflexivity|]. destruct (Z.eqb_spec x (s_list s)); [congruence|reflexivity]. }
      assert (Hhl : s_heap s' (s_list s) = Some lb').
      { simpl. rewrite put_other by congruence. apply put_same. }
      assert (Hfr : freed p s s') by (split; [exact Hh|repeat split]).
      assert (Hent : forall i, 0 <= i < s_nmalloc s - 1 -> entry s' i = if i =? k then entry s (s_nmalloc s - 1) else entry s i).
      { intros i Hi. unfold entry at 1. change (s_list s') with (s_list s). rewrite Hhl. unfold lb'. cbn [b_data].
        destruct (Z.eqb_spec i k) as [->|Hik]; [apply put_same|]. rewrite put_other by lia. unfold entry. rewrite Hlb. reflexivity. }
      assert (Hnm' : s_nmalloc s' = s_nmalloc s - 1) by reflexivity.
      split; [|assumption]. constructor.
      * assumption.
      * intros x c Hc. destruct (Z.eq_dec x (s_list s)) as [->|Hx].
        -- rewrite Hhl in Hc. injection Hc as <-. apply (Ih _ _ Hlb).
        -- rewrite Hh in Hc by assumption. destruct (x =? p); [discriminate|]. apply (Ih _ _ Hc).
      * assumption.
      * right. rewrite Hnm'. split; [exact Hn1|]. split; [change (s_nlist s') with (s_nlist s); lia|]. exists lb'. split; [exact Hhl|exact Hlsz].
      * rewrite Hnm'. intros i j Hi Hj. rewrite !Hent by assumption.
        destruct (Z.eqb_spec i k); destruct (Z.eqb_spec j k); intros Heq; try lia.
        -- apply Iinj in Heq; lia.
        -- apply Iinj in Heq; lia.
        -- apply Iinj in Heq; lia.
      * intros q. split.
        -- intros (i & Hi & Hq). rewrite Hnm' in Hi. rewrite Hent in Hq by assumption.
           assert (Hr : recorded s q /\ q <> p).
           { destruct (Z.eqb_spec i k) as [->|Hik].
             - split; [exists (s_nmalloc s - 1); split; [lia|assumption]|]. intros ->. rewrite <- Hek in Hq. apply Iinj in Hq; lia.
             - split; [exists i; split; [lia|assumption]|]. intros ->. rewrite <- Hek in Hq. apply Iinj in Hq; lia. }
           destruct Hr as [Hr Hqp]. apply Irec in Hr. destruct Hr as [(c & Hc & Hge) Hx]. split; [|exact Hx].
           exists c. split; [|assumption]. rewrite Hh by assumption. destruct (Z.eqb_spec q p); [congruence|assumption].
        -- intros [(c & Hc & Hge) Hx]. change (s_list s') with (s_list s) in Hx. rewrite Hh in Hc by assumption.
           destruct (Z.eqb_spec q p) as [|Hqp]; [discriminate|].
           assert (Hr : new_since t0 s q) by (split; [exists c; auto|exact Hx]). apply Irec in Hr. destruct Hr as (i & Hi & Hq).
           assert (Hik : i <> k) by congruence.
           destruct (Z.eq_dec i (s_nmalloc s - 1)) as [->|Hil].
           ++ exists k. split; [rewrite Hnm'; lia|]. rewrite Hent by lia. rewrite Z.eqb_refl. assumption.
           ++ exists i. split; [rewrite Hnm'; lia|]. rewrite Hent by lia. destruct (Z.eqb_spec i k); [congruence|assumption].
      * intros x c Hc Hlt. destruct (Z.eq_dec x (s_list s)) as [->|Hx].
        -- rewrite Hhl in Hc. injection Hc as <-. apply (Iold _ lb Hlb). assumption.
        -- rewrite Hh in Hc by assumption. destruct (x =? p); [discriminate|]. apply (Iold _ c Hc). assumption.
      * assumption.
      * rewrite <- Ia. apply (@drop_sound s s' p); [rewrite Ia; assumption|assumption].
      * intros x c Hx. destruct (Ik x c Hx) as [Hc Hxl]. split; [|exact Hxl]. rewrite Hh by assumption. 
        destruct (Z.eqb_spec x p); [congruence|assumption].
      * intros f v Hf. change (s_fld s' f) with (drop_field s p f). rewrite drop_other; [apply If; assumption|]. rewrite Ia. apply Fsep. congruence.
Qed.

(*----------------------------------------------------------------------------*)
(* writing to a user block *)
Lemma inv_write p b data s : inv s -> s_heap s p = Some b -> p <> s_list s -> K p = None ->
  inv (set_heap (put (s_heap s) p (Some (mkB (b_id b) (b_size b) data))) s).
Proof.
  intros [Ii Ih It Il Iinj Irec Iold Ia Io Ik If] Hb Hpl HK. set (s' := set_heap _ _).
  assert (Hsome : forall x c, s_heap s' x = Some c -> exists c', s_heap s x = Some c' /\ b_id c' = b_id c /\ b_size c' = b_size c).
  { intros x c. simpl. destruct (put_cases (s_heap s) p (Some (mkB (b_id b) (b_size b) data)) x) as [[-> ->]|[Hx ->]].
    - intros Hc. injection Hc as <-. exists b. auto.
    - intros Hc. exists c. auto. }
  assert (Hsome' : forall x c, s_heap s x = Some c -> exists c', s_heap s' x = Some c' /\ b_id c' = b_id c /\ b_size c' = b_size c).
  { intros x c Hc. simpl. destruct (put_cases (s_heap s) p (Some (mkB (b_id b) (b_size b) data)) x) as [[-> ->]|[Hx ->]].
    - eexists. split; [reflexivity|]. rewrite Hb in Hc. injection Hc as <-. auto.
    - exists c. auto. }
  assert (Hlist : s_heap s' (s_list s) = s_heap s (s_list s)) by (simpl; apply put_other; congruence).
  assert (Hent : forall i, entry s' i = entry s i).
  { intros i. unfold entry. change (s_list s') with (s_list s). rewrite Hlist. reflexivity. }
  constructor.
  - assumption.
  - intros x c Hc. destruct (Hsome _ _ Hc) as (c' & Hc' & E1 & E2). rewrite <- E1, <- E2. apply (Ih _ _ Hc').
  - assumption.
  - destruct Il as [Il|(H1 & H2 & lb & H3 & H4)]; [left; exact Il|right]. split; [exact H1|]. split; [exact H2|]. exists lb. 
    change (s_list s') with (s_list s). rewrite Hlist. auto.
  - intros i j. rewrite !Hent. apply Iinj.
  - intros q. split.
    + intros (i & Hi & Hq). rewrite Hent in Hq. assert (Hr : recorded s q) by (exists i; auto). apply Irec in Hr.
      destruct Hr as [(c & Hc & Hge) Hx]. destruct (Hsome' _ _ Hc) as (c' & Hc' & E1 & _). split; [|exact Hx]. exists c'. rewrite E1. auto.
    + intros [(c & Hc & Hge) Hx]. destruct (Hsome _ _ Hc) as (c' & Hc' & E1 & _).
      assert (Hr : new_since t0 s q) by (split; [exists c'; rewrite E1; auto|exact Hx]). apply Irec in Hr. destruct Hr as (i & Hi & Hq).
      exists i. split; [exact Hi|]. rewrite Hent. exact Hq.
  - intros x c Hc Hlt. destruct (Hsome _ _ Hc) as (c' & Hc' & E1 & _). rewrite <- E1 in *. apply (Iold _ _ Hc'). assumption.
  - assumption.
  - intros f Hf. destruct (Io f Hf) as [|[[c Hc] Hx]]; [left; assumption|right]. split; [|exact Hx].
    destruct (Hsome' _ _ Hc) as (c' & Hc' & _). exists c'. exact Hc'.
  - intros x c Hx. destruct (Ik x c Hx) as [Hc Hxl]. split; [|exact Hxl]. simpl. rewrite put_other by congruence. assumption.
  - assumption.
Qed.

(* an action that leaves the protected blocks and pointers alone *)
Definition spares (a : act) : Prop :=
  match a with
  | GAlloc _ => True
  | GFree p => K p = None
  | GRealloc p _ _ => K p = None
  | GSet f _ => F f = None
  | GWrite p _ _ => K p = None
  end.

Lemma do_act_wp a s : inv s -> legal s a -> spares a -> wpM (do_act E a s) (fun _ s' => inv s') (fun _ s' => inv s').
Proof.
  intros I L Sp. destruct a as [size|p|p o n|f p|p o v]; cbn [do_act legal spares] in *.
  - apply wpM_bind. eapply wpM_mono; [apply (allocate_wp I L)| |auto]. intros p s' (H & _). exact H.
  - destruct L as [->|L].
    + unfold slip_gmp_free. apply wpM_get. cbn [Z.eqb negb andb]. apply wpM_bind. unfold wpM at 1, ret.
      unfold safe_free. apply wpM_mod. unfold wpM, SLIP_free, mbind, getst. cbn [set_fld s_inited]. rewrite (i_init I). cbn [negb SuiteSparse_free Z.eqb].
      unfold ret. set (s' := set_fld _ _).
      assert (Hff : forall f, s_fld s' f = s_fld s f \/ s_fld s' f = 0 /\ s_fld s f = 0).
      { intros f. simpl. destruct (existsb (Z.eqb f) (s_arch s) && (s_fld s f =? 0)) eqn:Hc; [|auto].
        apply andb_true_iff in Hc. destruct Hc as [_ Hc]. apply Z.eqb_eq in Hc. auto. }
      destruct I as [Ii Ih It Il Iinj Irec Iold Ia Io Ik If]. constructor; try assumption.
      * intros f Hf. destruct (Hff f) as [->|[-> _]]; [apply Io; assumption|left; lia].
      * intros f v Hf. destruct (Hff f) as [->|[-> <-]]; apply If; assumption.
    + eapply wpM_mono; [apply (free_wp I L Sp)| |intros ? ? []]. intros _ s' [H _]. exact H.
  - destruct L as (Hn & Ho & Hcase). unfold slip_gmp_reallocate. apply wpM_bind. destruct (Z.eqb_spec p 0) as [->|Hp0].
    + eapply wpM_mono; [apply (allocate_wp I Hn)| |auto]. intros p s' (H & _). exact H.
    + destruct Hcase as [?|(Hpl & pb & Hpb & Hos)]; [congruence|].
      assert (Hub : user_block s p) by (split; [exists pb|]; assumption).
      destruct (Z.eqb_spec n 0) as [->|Hn0].
      * apply wpM_bind. eapply wpM_mono; [apply (free_wp I Hub Sp)| |intros ? ? []]. intros _ s' [H _]. exact H.
      * apply wpM_bind. eapply wpM_mono; [apply (allocate_wp I Hn)| |auto].
        intros q s1 (I1 & (Fr & Ff & Fa) & Hq & Hql & (qb & Hqb & Hqs & Hqid) & Hfresh).
        destruct (Fr p pb Hpb Hpl) as [Hpb1 Hpl1]. assert (Hpq : p <> q) by (eapply Hfresh; eassumption).
        apply wpM_bind. unfold memcpy. rewrite Hqb, Hpb1. destruct Hn as [Hn1 Hn2].
        replace ((0 <=? Z.min o n) && (Z.min o n <=? b_size qb) && (Z.min o n <=? b_size pb) && negb (q =? p)) with true.
        2:{ symmetry. rewrite !andb_true_iff, !Z.leb_le, negb_true_iff, Z.eqb_neq. repeat split; lia. }
        unfold wpM at 1. apply wpM_bind.
        assert (HKq : K q = None).
        { destruct (K q) as [kb|] eqn:HKq; [|reflexivity]. exfalso. destruct (i_keep I HKq) as [Hc Hx]. apply (Hfresh q kb Hc Hx); reflexivity. }
        eapply wpM_mono; [apply (@free_wp p)|intros _ s2 [I2 _]; exact I2|intros ? ? []].
        -- apply inv_write; assumption.
        -- split; [exists pb; simpl; rewrite put_other by congruence; assumption|exact Hpl1].
        -- assumption.
  - unfold wpM, modst. destruct I as [Ii Ih It Il Iinj Irec Iold Ia Io Ik If]. constructor; try assumption.
    + intros g Hg. simpl. destruct (put_cases (s_fld s) f p g) as [[-> ->]|[Hx ->]]; [|apply Io; assumption]. exact L.
    + intros g v Hg. simpl. rewrite put_other; [apply If; assumption|congruence].
  - destruct L as (Hpl & b & Hb & Ho1 & Ho2). unfold store. rewrite Hb.
    replace ((0 <=? o) && (o + 8 <=? b_size b)) with true by (symmetry; apply andb_true_iff; split; apply Z.leb_le; lia).
    unfold wpM. apply inv_write; assumption.
Qed.

Lemma do_acts_wp l : forall s, inv s -> legal_run E l s -> Forall spares l ->
  wpM (do_acts E l s) (fun _ s' => inv s') (fun _ s' => inv s').
Proof.
  induction l as [|a l IH]; intros s I L Sp; cbn [do_acts].
  - exact I.
  - destruct L as [La Lr]. inversion Sp as [|? ? Sa Sl]; subst. apply wpM_bind.
    pose proof (do_act_wp a I La Sa) as H. destruct (do_act E a s) as [[] s'|c s'|] eqn:Ha; cbn [wpM] in *; [|assumption|assumption].
    apply IH; auto.
Qed.

(*----------------------------------------------------------------------------*)
(* slip_gmp_failure *)
Lemma free_all_wp l : forall s, inv s -> caches_ok s l -> (forall p, In p l -> K p = None) ->
  wpM (free_all l s) (fun _ s' => inv s' /\ s_list s' = s_list s /\
     (forall x, x <> s_list s -> s_heap s' x = if existsb (Z.eqb x) l then None else s_heap s x) /\
     (forall f, ~ In f A0 -> s_fld s' f = s_fld s f)) (fun _ _ => False).
Proof.
  induction l as [|p l IH]; intros s I [Hnd Hub] HK; cbn [free_all].
  - cbn [wpM ret existsb]. auto.
  - inversion Hnd as [|? ? Hnp Hnd']; subst. apply wpM_bind.
    eapply wpM_mono; [apply (free_wp I (Hub p (or_introl eq_refl)) (HK p (or_introl eq_refl)))| |intros ? ? []].
    intros _ s1 (I1 & Hh & Hl & Hf & Har). 
    eapply wpM_mono; [apply (IH s1 I1)| |intros ? ? []].
    + split; [assumption|]. intros q Hq. destruct (Hub q (or_intror Hq)) as [[b Hb] Hx]. split; [|congruence].
      exists b. rewrite Hh by assumption. destruct (Z.eqb_spec q p); [congruence|assumption].
    + intros q Hq. apply HK. right. assumption.
    + intros _ s2 (I2 & Hl2 & Hh2 & Hf2). split; [assumption|]. split; [congruence|]. split.
      * intros x Hx. rewrite Hh2 by congruence. cbn [existsb]. rewrite Hh by assumption.
        destruct (Z.eqb_spec x p); cbn [orb]; [destruct (existsb (Z.eqb x) l)|]; reflexivity.
      * intros f Hin. rewrite Hf2 by assumption. rewrite Hf. apply drop_other. rewrite (i_arch I). assumption.
Qed.

Lemma free_entries_wp l cnt : forall i s, s_inited s = true -> s_list s = l -> 0 <= i -> Z.of_nat cnt = s_nmalloc s - i ->
  (exists lb, s_heap s l = Some lb /\ 8 * s_nmalloc s <= b_size lb) ->
  (forall j, i <= j < s_nmalloc s -> 0 < entry s j /\ live s (entry s j) /\ entry s j <> l) ->
  (forall j k, i <= j < s_nmalloc s -> i <= k < s_nmalloc s -> entry s j = entry s k -> j = k) ->
  wpM (free_entries cnt i s) (fun _ s' => s_inited s' = true /\ s_list s' = l /\ s_nmalloc s' = s_nmalloc s /\ s_time s' = s_time s /\
    s_arch s' = s_arch s /\ live s' l /\
    (forall x, x <> l -> ((exists j, i <= j < s_nmalloc s /\ entry s j = x) -> s_heap s' x = None) /\
       ((forall j, i <= j < s_nmalloc s -> entry s j <> x) -> s_heap s' x = s_heap s x)) /\
    (forall f, ~ In f (s_arch s) -> s_fld s' f = s_fld s f) /\
    (forall f, In f (s_arch s) -> s_fld s' f = s_fld s f /\ (forall j, i <= j < s_nmalloc s -> entry s j <> s_fld s f) \/ s_fld s' f = 0))
    (fun _ _ => False).
Proof.
  induction cnt as [|cnt IH]; intros i s Hi Hl H0 Hcnt (lb & Hlb & Hsz) Hent Hinj; cbn [free_entries].
  - cbn [wpM ret]. repeat split; auto.
    + exists lb. assumption.
    + intros (j & Hj & _). lia.
    + intros f Hf. left. split; [reflexivity|]. intros j Hj. lia.
  - apply wpM_get. unfold mbind at 1, load. rewrite Hl, Hlb.
    replace ((0 <=? 8 * i) && (8 * i + 8 <=? b_size lb)) with true by (symmetry; apply andb_true_iff; split; apply Z.leb_le; lia).
    assert (Hei : b_data lb (8 * i) = entry s i) by (unfold entry; rewrite Hl, Hlb; reflexivity). rewrite Hei.
    destruct (Hent i) as (Hp & [pb Hpb] & Hpl); [lia|]. set (p := entry s i) in *.
    apply wpM_bind. apply safe_free_wp; [assumption|lia|exists pb; assumption|].
    apply wpM_bind. unfold store. cbn [set_heap s_heap]. rewrite put_other by congruence. rewrite Hlb.
    replace ((0 <=? 8 * i) && (8 * i + 8 <=? b_size lb)) with true by (symmetry; apply andb_true_iff; split; apply Z.leb_le; lia).
    cbn [wpM]. set (s1 := set_heap _ _). set (lb1 := mkB (b_id lb) (b_size lb) (put (b_data lb) (8 * i) 0)) in *.
    assert (Hlb1 : s_heap s1 l = Some lb1) by (simpl; apply put_same).
    assert (Hh1 : forall x, x <> l -> s_heap s1 x = if x =? p then None else s_heap s x).
    { intros x Hx. simpl. rewrite put_other by assumption. unfold put. reflexivity. }
    assert (Hl1 : s_list s1 = l) by exact Hl.
    assert (Hent1 : forall j, i + 1 <= j -> entry s1 j = entry s j).
    { intros j Hj. unfold entry. rewrite Hl1, Hlb1, Hl, Hlb. unfold lb1. cbn [b_data]. apply put_other. lia. }
    assert (Hnm1 : s_nmalloc s1 = s_nmalloc s) by reflexivity.
    eapply wpM_mono; [apply (IH (i + 1) s1)| |intros ? ? []].
    + assumption.
    + assumption.
    + lia.
    + rewrite Hnm1. lia.
    + exists lb1. split; [assumption|exact Hsz].
    + rewrite Hnm1. intros j Hj. rewrite Hent1 by lia. destruct (Hent j) as (Hq & [qb Hqb] & Hql); [lia|].
      split; [assumption|]. split; [|assumption]. exists qb. rewrite Hh1 by assumption.
      destruct (Z.eqb_spec (entry s j) p) as [Heq|]; [|assumption]. exfalso. apply Hinj in Heq; lia.
    + rewrite Hnm1. intros j k Hj Hk. rewrite !Hent1 by lia. apply Hinj; lia.
    + intros _ s2 (G1 & G2 & G3 & G4 & G5 & G6 & G7 & G8 & G9). rewrite Hnm1 in *. split; [assumption|]. split; [assumption|]. split; [assumption|].
      split; [assumption|]. split; [assumption|]. split; [assumption|]. split; [|split].
      * intros x Hx. destruct (G7 x Hx) as [Ga Gb]. split.
        -- intros (j & Hj & Hjx). destruct (Z.eq_dec j i) as [->|Hji].
           ++ assert (Hpx : p = x) by exact Hjx. rewrite Gb; [rewrite Hh1 by assumption; rewrite Hpx, Z.eqb_refl; reflexivity|].
              intros j Hj'. rewrite Hent1 by lia. intros Heq. rewrite <- Hpx in Heq. apply Hinj in Heq; lia.
           ++ apply Ga. exists j. split; [lia|]. rewrite Hent1 by lia. assumption.
        -- intros Hno. rewrite Gb; [|intros j Hj; rewrite Hent1 by lia; apply Hno; lia]. rewrite Hh1 by assumption.
           destruct (Z.eqb_spec x p) as [->|]; [|reflexivity]. exfalso. apply (Hno i); [lia|reflexivity].
      * intros f Hf. change (s_arch s1) with (s_arch s) in G8. rewrite G8 by assumption. change (s_fld s1 f) with (drop_field s p f).
        apply drop_other. assumption.
      * intros f Hf. change (s_arch s1) with (s_arch s) in G9. destruct (G9 f Hf) as [[Hv Hno]|Hv]; [|right; assumption].
        change (s_fld s1 f) with (drop_field s p f) in Hv, Hno. unfold drop_field in Hv, Hno.
        assert (Hex : existsb (Z.eqb f) (s_arch s) = true) by (apply existsb_exists; exists f; split; [assumption|apply Z.eqb_refl]).
        rewrite Hex in Hv, Hno. cbn [andb] in Hv, Hno. destruct (Z.eqb_spec (s_fld s f) p) as [Hfp|Hfp]; [right; assumption|].
        left. split; [assumption|]. intros j Hj. destruct (Z.eq_dec j i) as [->|Hji]; [change (p <> s_fld s f); congruence|].
        rewrite <- Hent1 by lia. apply Hno. lia.
Qed.

Lemma failure_wp caches s : inv s -> caches_ok s caches -> (forall p, In p caches -> K p = None) ->
  wpM (slip_gmp_failure caches s) (fun _ s' =>
    idle s' /\ s_nmalloc s' = 0 /\ s_nlist s' = 0 /\ s_list s' = 0 /\
    (forall x b, s_heap s' x = Some b <-> s_heap s x = Some b /\ (b_id b < t0)%nat /\ ~ In x caches /\ x <> s_list s) /\
    (forall f, In f A0 -> sound_pointer s' (s_fld s' f)) /\
    (forall f, ~ In f A0 -> s_fld s' f = s_fld s f)) (fun _ _ => False).
Proof.
  intros I0 Hc HK. unfold slip_gmp_failure. apply wpM_bind.
  eapply wpM_mono; [apply (free_all_wp I0 Hc HK)| |intros ? ? []].
  intros _ s1 (I & Hl1 & Hh1 & Hf1). apply wpM_get. apply wpM_bind.
  assert (Hz : forall x, existsb (Z.eqb x) caches = true <-> In x caches).
  { intros x. rewrite existsb_exists. split; [intros (y & Hy & He); apply Z.eqb_eq in He; congruence|]. intros Hx. exists x. split; [assumption|apply Z.eqb_refl]. }
  pose proof (inv_zero_none I) as Hnone. destruct I as [Ii Ih It Il Iinj Irec Iold Ia Io Ik If].
  destruct (Z.eqb_spec (s_list s1) 0) as [Hl|Hl].
  - destruct Il as [[_ Hnm]|(_ & _ & b & Hb & _)]; [|rewrite Hl in Hb; congruence].
    unfold wpM at 1, ret at 1. unfold slip_gmp_finalize. do 3 apply wpM_mod. apply wpM_get. apply wpM_bind.
    unfold SLIP_free, mbind, getst. cbn [set_nlist set_nmalloc set_arch s_inited s_list]. rewrite Ii, Hl. cbn [negb SuiteSparse_free Z.eqb].
    unfold ret. cbn [wpM modst]. 
    assert (Hnonew : forall x b, s_heap s1 x = Some b -> (b_id b < t0)%nat).
    { intros x b Hb. destruct (Nat.lt_ge_cases (b_id b) t0) as [|Hge]; [assumption|]. exfalso.
      assert (Hn : new_since t0 s1 x). { split; [exists b; auto|]. rewrite Hl. intros ->. congruence. }
      apply Irec in Hn. destruct Hn as (i & Hi & _). lia. }
    split; [|split; [reflexivity|]; split; [reflexivity|]; split; [reflexivity|]; split; [|split]].
    + split; [assumption|]. split; [exact Ih|]. split; [left; reflexivity|reflexivity].
    + simpl. intros x b. split.
      * intros Hb. assert (Hx0 : x <> s_list s) by (rewrite <- Hl1, Hl; intros ->; congruence). pose proof (Hnonew _ _ Hb) as Hlt.
        rewrite Hh1 in Hb by assumption. destruct (existsb (Z.eqb x) caches) eqn:He; [discriminate|].
        repeat split; try assumption. rewrite <- Hz. congruence.
      * intros (Hb & Hlt & Hnc & Hx). rewrite Hh1 by assumption. destruct (existsb (Z.eqb x) caches) eqn:He; [|assumption]. apply Hz in He. contradiction.
    + simpl. intros f Hf. destruct (Io f Hf) as [|[[b Hb] Hx]]; [left; assumption|right]. split; [exists b; exact Hb|]. simpl. intros Hz0. rewrite Hz0 in Hb. congruence.
    + simpl. intros f Hf. apply Hf1. assumption.
  - destruct Il as [[? _]|(Hn1 & Hn2 & lb & Hlb & Hlsz)]; [congruence|].
    assert (Hentry : forall j, 0 <= j < s_nmalloc s1 -> 0 < entry s1 j /\ live s1 (entry s1 j) /\ entry s1 j <> s_list s1).
    { intros j Hj. assert (Hr : recorded s1 (entry s1 j)) by (exists j; auto). apply Irec in Hr. destruct Hr as [(b & Hb & _) Hx].
      destruct (Ih _ _ Hb) as (? & _). split; [assumption|]. split; [exists b; assumption|assumption]. }
    eapply wpM_mono; [apply (@free_entries_wp (s_list s1) (Z.to_nat (s_nmalloc s1)) 0 s1)| |intros ? ? []]; try assumption; try reflexivity; try lia.
    { exists lb. split; [assumption|lia]. }
    intros _ s2 (G1 & G2 & G3 & G4 & G5 & [lb2 Hlb2] & G7 & G8 & G9).
    unfold slip_gmp_finalize. do 3 apply wpM_mod. apply wpM_get. apply wpM_bind.
    unfold SLIP_free, mbind, getst. cbn [set_nlist set_nmalloc set_arch s_inited s_list]. rewrite G1, G2. cbn [negb]. unfold SuiteSparse_free.
    destruct (Z.eqb_spec (s_list s1) 0); [congruence|]. unfold free_func. cbn [set_nlist set_nmalloc set_arch s_heap]. rewrite Hlb2. cbn [wpM modst].
    set (s3 := set_list 0 _).
    assert (Hheap : forall x, s_heap s3 x = if x =? s_list s1 then None else s_heap s2 x) by reflexivity.
    assert (Hiff : forall x b, s_heap s3 x = Some b <-> s_heap s x = Some b /\ (b_id b < t0)%nat /\ ~ In x caches /\ x <> s_list s).
    { intros x b. rewrite Hheap. destruct (Z.eqb_spec x (s_list s1)) as [->|Hx].
      - split; [discriminate|]. intros (_ & _ & _ & ?). congruence.
      - destruct (G7 x Hx) as [Ga Gb]. 
        destruct (s_heap s1 x) as [c|] eqn:Hc1.
        + destruct (Nat.lt_ge_cases (b_id c) t0) as [Hlt|Hge].
          * rewrite Gb. 2:{ intros j Hj Heq. assert (Hr : recorded s1 x) by (exists j; auto). apply Irec in Hr. destruct Hr as [(d & Hd & Hge) _]. rewrite Hc1 in Hd. injection Hd as <-. lia. }
            rewrite Hh1 in Hc1 by congruence. destruct (existsb (Z.eqb x) caches) eqn:He; [discriminate|]. rewrite Hc1.
            assert (~ In x caches) by (rewrite <- Hz; congruence).  split; [|tauto]. intros Hcb. injection Hcb as <-. repeat split; try assumption; congruence.
          * assert (Hr : new_since t0 s1 x) by (split; [exists c; auto|assumption]). apply Irec in Hr. rewrite Ga by exact Hr.
            split; [discriminate|]. intros (Hb & Hlt & Hnc & Hxl). rewrite Hh1 in Hc1 by assumption. destruct (existsb (Z.eqb x) caches); [discriminate|].
            rewrite Hb in Hc1. injection Hc1 as <-. lia.
        + rewrite Gb. 2:{ intros j Hj Heq. assert (Hr : recorded s1 x) by (exists j; auto). apply Irec in Hr. destruct Hr as [(d & Hd & Hge) _]. congruence. }
          split; [discriminate|]. intros (Hb & _ & Hnc & Hxl). rewrite Hh1 in Hc1 by assumption.
          destruct (existsb (Z.eqb x) caches) eqn:He; [apply Hz in He; contradiction|congruence]. }
    split; [|split; [reflexivity|]; split; [reflexivity|]; split; [reflexivity|]; split; [exact Hiff|split]].
    + split; [exact G1|]. split.
      * intros x b Hb. change (s_time s3) with (s_time s2). rewrite G4. rewrite Hheap in Hb. destruct (Z.eqb_spec x (s_list s1)) as [|Hx]; [discriminate|].
        destruct (G7 x Hx) as [Ga Gb]. destruct (s_heap s1 x) as [c|] eqn:Hc1.
        -- destruct (Nat.lt_ge_cases (b_id c) t0) as [Hlt|Hge].
           ++ rewrite Gb in Hb. { injection Hb as <-. apply (Ih _ _ Hc1). }
              intros j Hj Heq. assert (Hr : recorded s1 x) by (exists j; auto). apply Irec in Hr. destruct Hr as [(d & Hd & Hge) _]. rewrite Hc1 in Hd. injection Hd as <-. lia.
           ++ assert (Hr : new_since t0 s1 x) by (split; [exists c; auto|assumption]). apply Irec in Hr. rewrite Ga in Hb by exact Hr. discriminate.
        -- rewrite Gb in Hb; [discriminate|]. intros j Hj Heq. assert (Hr : recorded s1 x) by (exists j; auto). apply Irec in Hr. destruct Hr as [(d & Hd & _) _]. congruence.
      * split; [left; reflexivity|reflexivity].
    + intros f Hf. rewrite <- Ia in Hf. change (s_fld s3 f) with (s_fld s2 f). destruct (G9 f Hf) as [[Hv Hno]|Hv].
      * rewrite Hv. rewrite Ia in Hf. destruct (Io f Hf) as [|[[b Hb] Hx]]; [left; assumption|right]. split.
        -- exists b. rewrite Hheap. destruct (Z.eqb_spec (s_fld s1 f) (s_list s1)); [congruence|]. destruct (G7 _ Hx) as [_ Gb]. rewrite Gb; [assumption|exact Hno].
        -- change (s_fld s1 f <> 0). destruct (Ih _ _ Hb). lia.
      * rewrite Hv. left. lia.
    + intros f Hf. change (s_fld s3 f) with (s_fld s2 f). rewrite G8 by (rewrite Ia; assumption). apply Hf1. assumption.
Qed.
End Run.
