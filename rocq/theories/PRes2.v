(* Typing rules for the resource model *)
From Coq Require Import ZArith List Bool Lia Arith.
From Verif Require Import Base MMatrix MRes PRes.
Import ListNotations.
Set Bullet Behavior "Strict Subproofs".
Open Scope Z_scope.

(* what a variable may hold.  W*: NULL or something that can be freed.  YFac u z: an mpz matrix with room for z entries whose entries
   from u on are not initialised.  YAny: a matrix given by the user.  kt: its kind and type, if they matter.  YShal: a shallow matrix.
   YNew, YPart: a matrix under construction.  YZero, YNum: a cleared number, any number.  YIs o: exactly the object o *)
Inductive ty := YNil | YArr | YMat (kt : option (Z * Z)) | YFac (c : bool) (u z : Z) | YAny (kt : option (Z * Z)) | YShal | YNew (z : Z) (kt : option (Z * Z)) | YPart (z : Z) (kt : option (Z * Z)) (e : bool)
  | YZero (k : nat) | YNum (k : nat) | YAna | WM | WA | WS | YIs (o : obj).

Definition okmat (A : rmat) : Prop :=
  0 < r_hdr A /\ okl (r_scale A) /\
  (r_shallow A = false -> 0 <= r_p A /\ 0 <= r_i A /\ 0 <= r_j A /\ 0 <= r_x A /\
     Forall okl (firstn (Z.to_nat (r_nzmax A)) (r_ent A)) /\ Forall nul (skipn (Z.to_nat (r_nzmax A)) (r_ent A)) /\ (r_x A = 0 -> r_ent A = [])).
Definition full (A : rmat) : Prop := okmat A /\ r_shallow A = false /\ 0 < r_x A /\ r_nzmax A <= Z.of_nat (length (r_ent A)).
Definition facm (u z : Z) (A : rmat) : Prop :=
  full A /\ r_nzmax A = z /\ 0 <= u <= z /\ Z.of_nat (length (r_ent A)) = z /\ Forall (eq [0]) (skipn (Z.to_nat u) (r_ent A)).
Definition anym (A : rmat) : Prop := okmat A /\ (r_shallow A = false -> 0 < r_x A).
Definition ktok (kt : option (Z * Z)) (A : rmat) : Prop := match kt with None => True | Some (k, t) => r_kind A = k /\ r_type A = t end.
Definition part (z : Z) (A : rmat) : Prop := okmat A /\ r_shallow A = false /\ r_x A = 0 /\ r_ent A = [] /\ r_nzmax A = z.
Definition good (o : obj) : Prop :=
  match o with Arr p => 0 < p | Mat A => anym A | Ana h p => 0 < h /\ 0 < p | _ => False end.
Lemma obj_eq_dec (a b : obj) : {a = b} + {a <> b}.
Proof. repeat decide equality. Defined.
Definition okty (t : ty) (o : obj) : Prop :=
  match t with
  | YNil => o = Nil
  | YArr => exists p, o = Arr p /\ 0 < p
  | YMat kt => exists A, o = Mat A /\ full A /\ ktok kt A
  | YFac c u z => exists A, o = Mat A /\ facm u z A /\ (c = true -> 0 < r_i A)
  | YAny kt => exists A, o = Mat A /\ anym A /\ ktok kt A
  | YShal => exists A, o = Mat A /\ okmat A /\ r_shallow A = true
  | YNew z kt => exists A, o = Mat A /\ part z A /\ ktok kt A /\ r_scale A = [0; 0] /\ r_p A = 0 /\ r_i A = 0 /\ r_j A = 0
  | YPart z kt e => exists A, o = Mat A /\ part z A /\ ktok kt A /\ (e = true -> r_p A = 0 /\ r_i A = 0 /\ r_j A = 0)
  | YZero k => o = Num (repeat 0%Z k)
  | YNum k => exists l, o = Num l /\ length l = k /\ okl l
  | YAna => exists h p, o = Ana h p /\ 0 < h /\ 0 < p
  | WM => o = Nil \/ exists A, o = Mat A /\ okmat A
  | WA => o = Nil \/ exists p, o = Arr p /\ 0 < p
  | WS => o = Nil \/ exists h p, o = Ana h p /\ 0 < h /\ 0 < p
  | YIs o' => o = o' /\ good o'
  end.
Notation oks := (Forall2 okty).

Definition ktsub (a b : option (Z * Z)) : bool :=
  match b, a with None, _ => true | Some (k, t), Some (k', t') => (k =? k') && (t =? t') | Some _, None => false end.
Lemma ktsub_ok a b A : ktsub a b = true -> ktok a A -> ktok b A.
Proof. destruct b as [[k t]|], a as [[k' t']|]; cbn; try discriminate; trivial. intros E H. apply andb_prop in E. destruct E as [E1 E2]. apply Z.eqb_eq in E1, E2. subst. exact H. Qed.
Definition sub (t c : ty) : bool :=
  match t, c with
  | YNil, (YNil | WM | WA | WS) | YArr, (YArr | WA) | YMat _, WM | YFac _ _ _, (YMat None | YAny None | WM) | YAny _, WM
  | YShal, (YShal | YAny None | WM) | YNew _ _, WM | YPart _ _ _, WM
  | YAna, (YAna | WS) | WM, WM | WA, WA | WS, WS => true
  | YMat a, (YMat b | YAny b) | YAny a, YAny b => ktsub a b
  | YFac c u z, YFac c' u' z' => Bool.eqb c c' && ((u =? u') && (z =? z'))
  | YZero k, YZero k' | YZero k, YNum k' | YNum k, YNum k' => Nat.eqb k k'
  | YIs o, YIs o' => if obj_eq_dec o o' then true else false
  | _, _ => false
  end.
Fixpoint subs (l c : list ty) : bool := match l, c with [], [] => true | t :: l, c' :: c => sub t c' && subs l c | _, _ => false end.
Lemma okl_repeat k : okl (repeat 0 k).
Proof. unfold okl. apply Forall_forall. intros x Hx. apply repeat_spec in Hx. lia. Qed.
Lemma sub_ok t c o : sub t c = true -> okty t o -> okty c o.
Proof.
  assert (HM : forall (P : rmat -> Prop), (forall A, P A -> okmat A) -> (exists A, o = Mat A /\ P A) -> okty WM o).
  { intros P HP (A & -> & H). right. exists A. split; [reflexivity|]. auto. }
  destruct t, c; try discriminate; cbn [sub]; intros E H; try exact H; try (left; exact H); try (right; exact H);
    try (apply HM in H; [exact H|]; intros A HA; cbv beta in HA; unfold full, facm, full, part, anym in HA; tauto).
  - destruct H as (A & -> & H & HK). exists A. split; [reflexivity|]. split; [exact H|]. eapply ktsub_ok; eassumption.
  - destruct H as (A & -> & H & HK). exists A. split; [reflexivity|]. destruct H as (H1 & H2 & H3 & H4). split; [split; auto|]. eapply ktsub_ok; eassumption.
  - destruct kt; [discriminate|]. destruct H as (A & -> & H). exists A. split; [reflexivity|]. split; [apply H|exact I].
  - apply andb_prop in E. destruct E as [E0 E]. apply andb_prop in E. destruct E as [E1 E2]. apply Z.eqb_eq in E1, E2. apply eqb_prop in E0. subst. exact H.
  - destruct kt; [discriminate|]. destruct H as (A & -> & H & _). exists A. split; [reflexivity|]. destruct H as ((H1 & H2 & H3 & H4) & _). split; [split; auto|exact I].
  - destruct H as (A & -> & H & HK). exists A. split; [reflexivity|]. split; [exact H|]. eapply ktsub_ok; eassumption.
  - destruct kt; [discriminate|]. destruct H as (A & -> & H & HK). exists A. split; [reflexivity|]. split; [split; [exact H|congruence]|exact I].
  - apply Nat.eqb_eq in E. subst k0. exact H.
  - apply Nat.eqb_eq in E. subst k0. exists (repeat 0 k). split; [exact H|]. split; [apply repeat_length|apply okl_repeat].
  - apply Nat.eqb_eq in E. subst k0. exact H.
  - destruct (obj_eq_dec o0 o1) as [->|]; [exact H|discriminate].
Qed.
Lemma subs_ok : forall l c f, subs l c = true -> oks l f -> oks c f.
Proof.
  induction l as [|t l IH]; intros [|c cs] f E H; try discriminate; [exact H|]. cbn [subs] in E. apply andb_prop in E. destruct E as [E1 E2].
  inversion H; subst. constructor; [eapply sub_ok; eassumption|eapply IH; eassumption].
Qed.

(* lists *)
Lemma Forall2_length {A B} (R : A -> B -> Prop) l l' : Forall2 R l l' -> length l = length l'.
Proof. induction 1; cbn; congruence. Qed.
Lemma nth_error_upd_eq {A} (l : list A) i x : (i < length l)%nat -> nth_error (upd l i x) i = Some x.
Proof. revert i. induction l; intros [|i] H; cbn in *; try lia; [reflexivity|]. apply IHl. lia. Qed.
Lemma nth_error_upd_ne {A} (l : list A) i j x : i <> j -> nth_error (upd l i x) j = nth_error l j.
Proof. revert i j. induction l; intros [|i] [|j] H; cbn; try reflexivity; try congruence. apply IHl. congruence. Qed.
Lemma upd_length {A} (l : list A) i x : length (upd l i x) = length l.
Proof. revert i. induction l; intros [|i]; cbn; auto. Qed.
Lemma nth_upd_ne {A} (l : list A) i j x d : i <> j -> nth j (upd l i x) d = nth j l d.
Proof. revert i j. induction l; intros [|i] [|j] H; cbn; try reflexivity; try congruence. apply IHl. congruence. Qed.
Lemma firstn_upd {A} n (l : list A) i x : firstn n (upd l i x) = upd (firstn n l) i x.
Proof. revert n i. induction l; intros [|n] [|i]; cbn; try reflexivity. f_equal. apply IHl. Qed.
Lemma skipn_upd_lt {A} n (l : list A) i x : (i < n)%nat -> skipn n (upd l i x) = skipn n l.
Proof. revert n i. induction l; intros [|n] [|i] H; cbn; try reflexivity; try lia. apply IHl. lia. Qed.
Lemma Forall_upd {A} (P : A -> Prop) l i x : Forall P l -> P x -> Forall P (upd l i x).
Proof. intros H Hx. revert i. induction H; intros [|i]; cbn; constructor; auto. Qed.
Lemma oks_nth ts f v t : oks ts f -> nth_error ts v = Some t -> okty t (nth v f Nil) /\ (v < length f)%nat.
Proof. intros H. revert v. induction H; intros [|v] E; cbn in *; try discriminate; [injection E as ->; split; [assumption|lia]|]. destruct (IHForall2 v E). split; [assumption|lia]. Qed.
Lemma oks_upd ts f v t o : oks ts f -> okty t o -> oks (upd ts v t) (upd f v o).
Proof. intros H Ho. revert v. induction H; intros [|v]; cbn; constructor; auto. Qed.
Lemma fc_upd q f v o : (v < length f)%nat -> (fc q (upd f v o) + oc q (nth v f Nil) = fc q f + oc q o)%nat.
Proof. revert v. induction f; intros [|v] H; cbn in *; try lia. specialize (IHf v). lia. Qed.
Lemma fc_app q a b : fc q (a ++ b) = (fc q a + fc q b)%nat.
Proof. induction a; cbn; lia. Qed.
Lemma ec_upd q e i l l' : nth_error e i = Some l -> (ec q (upd e i l') + lc q l = ec q e + lc q l')%nat.
Proof. revert i. induction e; intros [|i] H; cbn in *; try discriminate; [injection H as ->; lia|]. specialize (IHe i H). lia. Qed.
Lemma ec_nul q e : Forall nul e -> ec q e = 0%nat.
Proof. induction 1; cbn; [reflexivity|]. rewrite (lc_nul q x H). exact IHForall. Qed.
Lemma put_back_length {A} vs : forall (f l : list A), length (put_back f vs l) = length f.
Proof. induction vs; intros f [|x l]; cbn; try reflexivity. rewrite IHvs. apply upd_length. Qed.

Lemma oks_put_back vs : forall ts f ats l, oks ts f -> oks ats l -> oks (put_back ts vs ats) (put_back f vs l).
Proof.
  induction vs; intros ts f ats l H H'; [exact H|]. inversion H'; subst; cbn; [exact H|]. apply IHvs; [|assumption]. apply oks_upd; assumption.
Qed.
Lemma fc_put_back q vs : forall f l, NoDup vs -> (forall v, In v vs -> (v < length f)%nat) -> length l = length vs ->
  (fc q (put_back f vs l) + fc q (map (fun v => nth v f Nil) vs) = fc q f + fc q l)%nat.
Proof.
  induction vs as [|v vs IH]; intros f [|x l] HN Hv HL; cbn in HL; try discriminate; [cbn; lia|].
  apply NoDup_cons_iff in HN. destruct HN as [HN1 HN2]. cbn [put_back map fc].
  specialize (IH (upd f v x) l HN2). rewrite upd_length in IH. specialize (IH (fun v H => Hv v (or_intror H)) ltac:(lia)).
  replace (map (fun v0 => nth v0 (upd f v x) Nil) vs) with (map (fun v0 => nth v0 f Nil) vs) in IH.
  2:{ apply map_ext_in. intros w Hw. rewrite nth_upd_ne; [reflexivity|]. intros ->. contradiction. }
  pose proof (fc_upd q f v x (Hv v (or_introl eq_refl))). lia.
Qed.

Section rules.
Variable O : orc.
Variable L0 : list Z.
Variable st : Prop.
Notation hown := (hown O L0).

Definition post {A} (N : nat) (cs : list ty) (base : Z -> nat) (Q : A -> bool -> list ty -> Prop) (r : out A) : Prop :=
  match r with
  | Next a f s => hown (fun q => (fc q f + base q)%nat) s /\ exists g ts, Q a g ts /\ oks ts f /\ (g = true -> st -> nfail s = N)
  | Stop e f s => hown (fun q => (fc q f + base q)%nat) s /\ oks cs f
  | Bad => False
  end.
Definition J {A} (cs : list ty) (g : bool) (ts : list ty) (m : M A) (Q : A -> bool -> list ty -> Prop) : Prop :=
  forall N base f s, oks ts f -> hown (fun q => (fc q f + base q)%nat) s -> (g = true -> st -> nfail s = N) -> post N cs base Q (m f s).
Definition FJ (ats : list ty) (F : fn) (Q : option info -> list ty -> Prop) : Prop :=
  forall base l s, oks ats l -> hown (fun q => (fc q l + base q)%nat) s ->
  match F l s with
  | Fin r l' s' => hown (fun q => (fc q l' + base q)%nat) s' /\ (r = None -> st -> nfail s' = nfail s) /\ exists ts, Q r ts /\ oks ts l'
  | FBad => False
  end.

Lemma J_conseq {A} cs g ts (m : M A) (Q Q' : A -> bool -> list ty -> Prop) :
  J cs g ts m Q -> (forall a g' ts', Q a g' ts' -> Q' a g' ts') -> J cs g ts m Q'.
Proof.
  intros H HQ N base f s Hf Hs Hg. specialize (H N base f s Hf Hs Hg). destruct (m f s); cbn in *; try assumption.
  destruct H as (H1 & g' & ts' & H2 & H3). split; [exact H1|]. exists g', ts'. split; [apply HQ; exact H2|exact H3].
Qed.
Lemma J_sub {A} cs g ts ts2 (m : M A) Q : subs ts ts2 = true -> J cs g ts2 m Q -> J cs g ts m Q.
Proof. intros HS H N base f s Hf. apply H. eapply subs_ok; eassumption. Qed.
Lemma J_ret {A} cs g ts (a : A) (Q : A -> bool -> list ty -> Prop) : Q a g ts -> J cs g ts (ret a) Q.
Proof. intros H N base f s Hf Hs Hg. split; [exact Hs|]. exists g, ts. auto. Qed.
Lemma J_stop {A} cs g ts e (Q : A -> bool -> list ty -> Prop) : subs ts cs = true -> J cs g ts (stop e) Q.
Proof. intros H N base f s Hf Hs Hg. split; [exact Hs|]. eapply subs_ok; eassumption. Qed.
Lemma J_bind {A B} cs g ts (m : M A) (k : A -> M B) Q Q' :
  J cs g ts m Q -> (forall a g' ts', Q a g' ts' -> J cs g' ts' (k a) Q') -> J cs g ts (bind m k) Q'.
Proof.
  intros Hm Hk N base f s Hf Hs Hg. specialize (Hm N base f s Hf Hs Hg). unfold bind. destruct (m f s) as [a f' s'|e f' s'|]; cbn in Hm; try assumption; try contradiction.
  destruct Hm as (H1 & g' & ts' & HQ & Hf' & Hg'). exact (Hk a g' ts' HQ N base f' s' Hf' H1 Hg').
Qed.
(* the next statement *)
Lemma J_seq {A} cs g ts (m : M unit) (k : M A) g' ts' Q :
  J cs g ts m (fun _ g1 t1 => g1 = g' /\ t1 = ts') -> J cs g' ts' k Q -> J cs g ts (m ;; k) Q.
Proof. intros Hm Hk. eapply J_bind; [exact Hm|]. intros a g1 t1 [-> ->]. exact Hk. Qed.
Lemma J_chk cs g ts m Q (Q' : unit -> bool -> list ty -> Prop) : J cs g ts m Q -> (forall e g' ts', Q (Some e) g' ts' -> subs ts' cs = true) ->
  (forall g' ts', Q None g' ts' -> Q' tt g' ts') -> J cs g ts (chk m) Q'.
Proof.
  intros H He HN. unfold chk. eapply J_bind; [exact H|]. intros [e|] g' ts' HQ; [apply J_stop; eauto|apply J_ret; auto].
Qed.

(* statements that change no type *)
Definition keep cs g ts (m : M unit) : Prop := J cs g ts m (fun _ g1 t1 => g1 = g /\ t1 = ts).
Lemma keep_ret cs g ts : keep cs g ts (ret tt).
Proof. apply J_ret. auto. Qed.
Lemma keep_seq cs g ts m k : keep cs g ts m -> keep cs g ts k -> keep cs g ts (m ;; k).
Proof. intros. eapply J_seq; eassumption. Qed.
Lemma keep_rep cs g ts n m : keep cs g ts m -> keep cs g ts (rep n m).
Proof. intros H. induction n; cbn [rep]; [apply keep_ret|apply keep_seq; assumption]. Qed.
Lemma J_pick cs g ts : J cs g ts (pick O) (fun _ g1 t1 => g1 = g /\ t1 = ts).
Proof. intros N base f s Hf Hs Hg. split; [exact Hs|]. exists g, ts. auto. Qed.
Lemma J_pick_bind {A} cs g ts (k : Z -> M A) Q : (forall z, J cs g ts (k z) Q) -> J cs g ts (bind (pick O) k) Q.
Proof. intros H. eapply J_bind; [apply J_pick|]. intros a g1 t1 [-> ->]. apply H. Qed.
Lemma J_coin_bind {A} cs g ts (k : bool -> M A) Q : (forall z, J cs g ts (k z) Q) -> J cs g ts (bind (coin O) k) Q.
Proof. intros H. eapply J_bind with (Q := fun _ g1 t1 => g1 = g /\ t1 = ts); [apply J_pick_bind; intros z; apply J_ret; auto|]. intros a g1 t1 [-> ->]. apply H. Qed.
Lemma keep_some cs g ts m : keep cs g ts m -> keep cs g ts (some_times O m).
Proof. intros H. apply J_pick_bind. intros z. apply keep_rep. exact H. Qed.
Lemma keep_maybe cs g ts m : keep cs g ts m -> keep cs g ts (maybe O m).
Proof. intros H. apply J_coin_bind. intros []; [exact H|apply keep_ret]. Qed.
Lemma keep_coin cs g ts (k : bool -> M unit) : (forall z, keep cs g ts (k z)) -> keep cs g ts (bind (coin O) k).
Proof. intros H. apply J_coin_bind. exact H. Qed.
Lemma J_gread cs g ts : J cs g ts (gread O) (fun (r : option info) g1 t1 => g1 = (if r then false else g) /\ t1 = ts).
Proof.
  intros N base f s Hf Hs Hg. unfold gread. destruct (o_gmp O (clk s)); (split; [exact Hs|]); [exists g|exists false]; exists ts; repeat split; auto. discriminate.
Qed.
Lemma keep_gread cs g ts : subs ts cs = true -> keep cs g ts (chk (gread O)).
Proof. intros HS. eapply J_chk; [apply J_gread| |]; cbv beta. - intros e g' ts' [_ ->]. exact HS. - intros g' ts' [-> ->]. auto. Qed.

(* an operation on the limbs of a part of the variable v: lens with get and put *)
Lemma P_limbs (P : obj -> Prop) cs ts v (op : list Z -> M (option info * list Z)) (pre : list Z -> Prop) (t' : option info -> ty)
  (get : obj -> list Z) (put : obj -> list Z -> obj) (m : M (option info)) :
  limbs_spec O L0 pre op ->
  (forall o, P o -> pre (get o)) ->
  (forall o l, P o -> length l = length (get o) -> forall q, (oc q (put o l) + lc q (get o) = oc q o + lc q l)%nat) ->
  (forall f s, P (nth v f Nil) -> m f s = match op (get (nth v f Nil)) f s with Next (r, l) f' s' => Next r (upd f' v (put (nth v f Nil) l)) s' | Stop e f' s' => Stop e f' s' | Bad => Bad end) ->
  (forall o f s, P o -> match op (get o) f s with Next (r, l) _ _ => okl l -> length l = length (get o) -> okty (t' r) (put o l) | _ => True end) ->
  forall g N base f s, oks ts f -> P (nth v f Nil) -> (v < length f)%nat -> hown (fun q => (fc q f + base q)%nat) s -> (g = true -> st -> nfail s = N) ->
  post N cs base (fun (r : option info) g1 t1 => g1 = (if r then false else g) /\ t1 = upd ts v (t' r)) (m f s).
Proof.
  intros Hop Hpre Hc Hm Ht' g N base f s Hf Ho Hlen Hs Hg. rewrite (Hm f s Ho).
  set (o := nth v f Nil) in *.
  pose proof (fun q => fc_upd q f v Nil Hlen) as Hrest. fold o in Hrest. cbn [oc] in Hrest.
  (* everything but the limbs *)
  set (H := fun q => (fc q f + base q - lc q (get o))%nat).
  assert (HH : forall q, (lc q (get o) <= oc q o)%nat).
  { intros q. pose proof (Hc o (repeat 0 (length (get o))) Ho (repeat_length _ _) q). rewrite (lc_nul q (repeat 0 (length (get o)))) in H0; [lia|].
    apply Forall_forall. intros x Hx. apply repeat_spec in Hx. lia. }
  assert (Hs' : hown (fun q => (lc q (get o) + H q)%nat) s).
  { eapply hown_ext; [|exact Hs]. intros q. unfold H. specialize (HH q). specialize (Hrest q). lia. }
  specialize (Hop (get o) H f s (Hpre o Ho) Hs'). specialize (Ht' o f s Ho).
  destruct (op (get o) f s) as [[r l] f' s'|e f' s'|]; try contradiction. destruct Hop as (-> & H1 & H2 & H3 & H4). cbn [post].
  split.
  - eapply hown_ext; [|exact H1]. intros q. unfold H. specialize (HH q). specialize (Hrest q). specialize (Hc o l Ho H3 q). pose proof (fc_upd q f v (put o l) Hlen). fold o in H0. lia.
  - exists (if r then false else g), (upd ts v (t' r)). split; [auto|]. split; [apply oks_upd; auto|].
    destruct r; [discriminate|]. intros Hgt Hst. rewrite (H4 eq_refl). auto.
Qed.

Lemma mc_x q A e x : r_shallow A = false -> r_x A = x -> (mc q (set_x x e A) + ec q (r_ent A) = mc q A + ec q e)%nat.
Proof. intros H <-. unfold mc, set_x; cbn. rewrite H. lia. Qed.

Lemma full_upd A i l : full A -> okl l -> (i < Z.to_nat (r_nzmax A))%nat -> full (set_x (r_x A) (upd (r_ent A) i l) A).
Proof.
  intros ((H1 & H2 & H3) & H4 & H5 & H6) Hl Hi. unfold full, okmat, set_x; cbn. rewrite upd_length. repeat split; try assumption.
  all: try (apply H3; assumption).
  - rewrite firstn_upd. apply Forall_upd; [apply H3; assumption|exact Hl].
  - rewrite skipn_upd_lt by assumption. apply H3. assumption.
  - lia.
Qed.

Lemma P_entry (P : rmat -> Prop) cs ts v i op (pre : list Z -> Prop) t' :
  (forall A, P A -> full A /\ (Z.to_nat i < Z.to_nat (r_nzmax A))%nat /\ forall l, nth_error (r_ent A) (Z.to_nat i) = Some l -> pre l) ->
  limbs_spec O L0 pre op ->
  (forall A f s l0, P A -> nth_error (r_ent A) (Z.to_nat i) = Some l0 -> match op l0 f s with Next (r, l) _ _ => okl l -> length l = length l0 -> okty (t' r) (Mat (set_x (r_x A) (upd (r_ent A) (Z.to_nat i) l) A)) | _ => True end) ->
  forall g N base f s A, oks ts f -> nth v f Nil = Mat A -> P A -> (v < length f)%nat -> hown (fun q => (fc q f + base q)%nat) s -> (g = true -> st -> nfail s = N) ->
  post N cs base (fun (r : option info) g1 t1 => g1 = (if r then false else g) /\ t1 = upd ts v (t' r)) (on_entry op v i f s).
Proof.
  intros Ht Hop Ht' g N base f s A0 Hf HA0 HPA0.
  set (get := fun o => match o with Mat A => match nth_error (r_ent A) (Z.to_nat i) with Some l => l | None => [] end | _ => [] end).
  set (put := fun o l => match o with Mat A => Mat (set_x (r_x A) (upd (r_ent A) (Z.to_nat i) l) A) | o => o end).
  assert (Hex : forall o, (exists A, o = Mat A /\ P A) -> exists A l, o = Mat A /\ P A /\ full A /\ nth_error (r_ent A) (Z.to_nat i) = Some l /\ get o = l /\ pre l).
  { intros o (A & -> & HP). destruct (Ht A HP) as (HA & Hi & Hp). destruct HA as (H1 & H2 & H3 & H4).
    destruct (nth_error (r_ent A) (Z.to_nat i)) as [l|] eqn:E; [|apply nth_error_None in E; lia]. exists A, l. split; [reflexivity|]. split; [exact HP|]. split; [split; auto|]. split; [exact E|]. split; [cbn; rewrite E; reflexivity|auto]. }
  apply (@P_limbs (fun o => exists A, o = Mat A /\ P A) cs ts v op pre t' get put); try assumption.
  - intros o Ho. destruct (Hex o Ho) as (A & l & -> & _ & _ & _ & -> & Hp). exact Hp.
  - intros o l Ho Hl q. destruct (Hex o Ho) as (A & l0 & -> & _ & HA & E & -> & Hp). cbn [put oc].
    pose proof (mc_x q A (upd (r_ent A) (Z.to_nat i) l) _ (proj1 (proj2 HA)) eq_refl). pose proof (ec_upd q _ _ _ l E). lia.
  - intros f0 s0 Ho. destruct (Hex _ Ho) as (A & l0 & EA & _ & HA & E & Eg & Hp). unfold on_entry, getm, getv, bind, ret. rewrite Eg, EA. cbn [put]. rewrite E.
    destruct (op l0 f0 s0) as [[r l] f' s'|e f' s'|] eqn:Eop; reflexivity.
  - intros o f0 s0 Ho. destruct (Hex o Ho) as (A & l0 & -> & HP & HA & E & Eg & Hp). rewrite Eg. specialize (Ht' A f0 s0 l0 HP E).
    destruct (op l0 f0 s0) as [[r l] f' s'|e f' s'|]; trivial.
  - exists A0. auto.
Qed.

Lemma getm_at v f s A : nth v f Nil = Mat A -> getm v f s = Next A f s.
Proof. intros E. unfold getm, getv, bind, ret. rewrite E. reflexivity. Qed.
Lemma upd_same {A} (l : list A) i x : nth_error l i = Some x -> upd l i x = l.
Proof. revert i. induction l; intros [|i] H; cbn in *; try discriminate; [congruence|]. f_equal. auto. Qed.
Lemma full_entry A i l : full A -> (i < Z.to_nat (r_nzmax A))%nat -> nth_error (r_ent A) i = Some l -> okl l.
Proof.
  intros ((H1 & H2 & H3) & H4 & H5 & H6) Hi E. destruct (H3 H4) as (_ & _ & _ & _ & HF & _).
  rewrite Forall_forall in HF. apply HF. apply nth_error_In with i. rewrite <- (firstn_skipn (Z.to_nat (r_nzmax A)) (r_ent A)) in E.
  rewrite nth_error_app1 in E; [exact E|]. rewrite firstn_length. assert (i < length (r_ent A))%nat by (rewrite <- (firstn_skipn (Z.to_nat (r_nzmax A)) (r_ent A)); apply nth_error_Some; congruence). lia.
Qed.

Lemma J_gent cs g ts v kt : nth_error ts v = Some (YMat kt) -> J cs g ts (gent O v) (fun (r : option info) g1 t1 => g1 = (if r then false else g) /\ t1 = ts).
Proof.
  intros Hv N base f s Hf Hs Hg. destruct (oks_nth _ _ _ _ Hf Hv) as [(A & EA & HA & HK) Hlen]. unfold gent. unfold bind at 1. rewrite (getm_at _ _ _ _ EA). unfold bind, pick.
  destruct ((0 <=? o_val O (clk s)) && (o_val O (clk s) <? r_nzmax A)) eqn:E; [|cbn; split; [exact Hs|]; exists g, ts; auto].
  apply andb_prop in E. destruct E as [E1 E2]. apply Z.leb_le in E1. apply Z.ltb_lt in E2. set (i := o_val O (clk s)) in *.
  pose proof (@P_entry (fun A' => full A' /\ r_nzmax A' = r_nzmax A /\ ktok kt A') cs ts v i (gmp O) okl (fun _ => YMat kt)) as HP.
  cbv beta in HP. rewrite (upd_same ts v (YMat kt) Hv) in HP. apply (HP) with (A := A); clear HP; try assumption.
  - intros A' (HA' & E' & HK'). split; [exact HA'|]. split; [lia|]. intros l. apply full_entry; [assumption|lia].
  - apply gmp_spec.
  - intros A' f0 s0 l0 (HA' & E' & HK') El. destruct (gmp O l0 f0 s0) as [[r l] f' s'|e f' s'|]; trivial. intros Hl _. eexists. split; [reflexivity|]. split; [apply full_upd; [assumption|assumption|lia]|exact HK'].
  - auto.
Qed.
Lemma keep_gent cs g ts v kt : nth_error ts v = Some (YMat kt) -> subs ts cs = true -> keep cs g ts (chk (gent O v)).
Proof. intros Hv HS. eapply J_chk; [eapply J_gent; exact Hv| |]; cbv beta. - intros e g' ts' [_ ->]. exact HS. - intros g' ts' [-> ->]. auto. Qed.

(* entries of a matrix that is being filled *)
Lemma nth_error_skipn {A} n (l : list A) i : nth_error (skipn n l) i = nth_error l (n + i).
Proof. revert l. induction n; intros l; [reflexivity|]. destruct l; cbn; [destruct i; reflexivity|apply IHn]. Qed.
Lemma facm_null u z A i : facm u z A -> (Z.to_nat u <= i)%nat -> (i < Z.to_nat z)%nat -> nth_error (r_ent A) i = Some [0].
Proof.
  intros (H1 & H2 & H3 & H4 & H6) Hi Hz. destruct (nth_error (r_ent A) i) as [l|] eqn:E; [|apply nth_error_None in E; lia].
  rewrite Forall_forall in H6. f_equal. symmetry. apply H6. apply nth_error_In with (i - Z.to_nat u)%nat. rewrite nth_error_skipn. rewrite <- E. f_equal. lia.
Qed.
Lemma facm_upd u z A i l w : facm u z A -> okl l -> 0 <= i < z -> (i < w) -> u <= w <= z -> facm w z (set_x (r_x A) (upd (r_ent A) (Z.to_nat i) l) A).
Proof.
  intros (H1 & H2 & H3 & H4 & H6) Hl Hi Hw Hu. split; [apply full_upd; [assumption|assumption|lia]|]. cbn. rewrite upd_length. repeat split; try lia.
  rewrite skipn_upd_lt by lia. apply Forall_forall. intros x Hx. rewrite Forall_forall in H6. apply H6.
  replace (Z.to_nat w) with (Z.to_nat u + (Z.to_nat w - Z.to_nat u))%nat in Hx by lia. revert Hx. generalize (Z.to_nat w - Z.to_nat u)%nat. generalize (Z.to_nat u). generalize (r_ent A).
  induction l0; intros [|n] m Hx; cbn in *; try assumption; [destruct m; exact Hx| |eapply IHl0; exact Hx]. destruct m; [exact Hx|]. right. clear -Hx. revert m Hx. induction l0; intros [|m] H; cbn in *; try assumption. right. eauto.
Qed.
Lemma J_init_at cs g ts v c u z : nth_error ts v = Some (YFac c u z) -> u < z ->
  J cs g ts (init_at O v u) (fun (r : option info) g1 t1 => g1 = (if r then false else g) /\ t1 = upd ts v (YFac c (u + 1) z)).
Proof.
  intros Hv Hu N base f s Hf Hs Hg. destruct (oks_nth _ _ _ _ Hf Hv) as [(A & EA & HA & HC) Hlen].
  assert (0 <= u) by apply HA. unfold init_at. replace (u <? 0) with false by (symmetry; apply Z.ltb_ge; lia).
  apply (@P_entry (fun A => facm u z A /\ (c = true -> 0 < r_i A)) cs ts v u (ginit O) (Forall (fun p => -1 <= p <= 0)) (fun _ => YFac c (u + 1) z)) with (A := A); try assumption; try (split; assumption).
  - intros A' [HA' HC']. split; [apply HA'|]. pose proof (facm_null u z A' (Z.to_nat u) HA' ltac:(lia) ltac:(lia)) as HNL. destruct HA' as (H1 & H2 & H3 & H4 & H6). split; [lia|]. intros l. rewrite HNL.
    intros E. injection E as <-. repeat constructor; lia.
  - apply ginit_spec.
  - intros A' f0 s0 l0 [HA' HC'] El. destruct (ginit O l0 f0 s0) as [[r l] f' s'|e f' s'|]; trivial. intros Hl _. eexists. split; [reflexivity|]. split; [eapply facm_upd; [eassumption|assumption|lia|lia|lia]|exact HC'].
Qed.
Lemma J_gent_at cs g ts v c u z i : nth_error ts v = Some (YFac c u z) -> 0 <= i < u ->
  J cs g ts (gent_at O v i) (fun (r : option info) g1 t1 => g1 = (if r then false else g) /\ t1 = ts).
Proof.
  intros Hv Hi N base f s Hf Hs Hg. destruct (oks_nth _ _ _ _ Hf Hv) as [(A & EA & HA & HC) Hlen].
  unfold gent_at. replace (i <? 0) with false by (symmetry; apply Z.ltb_ge; lia).
  pose proof (@P_entry (fun A => facm u z A /\ (c = true -> 0 < r_i A)) cs ts v i (gmp O) okl (fun _ => YFac c u z)) as HP. cbv beta in HP. rewrite (upd_same ts v _ Hv) in HP. apply HP with (A := A); clear HP; try assumption; try (split; assumption).
  - intros A' [HA' HC']. split; [apply HA'|]. destruct HA' as (H1 & H2 & H3 & H4 & H6). split; [lia|]. intros l. apply full_entry; [assumption|lia].
  - apply gmp_spec.
  - intros A' f0 s0 l0 [HA' HC'] El. destruct (gmp O l0 f0 s0) as [[r l] f' s'|e f' s'|]; trivial. intros Hl _. eexists. split; [reflexivity|]. pose proof HA' as (H1 & H2 & H3 & H4 & H6). split; [eapply facm_upd; [eassumption|assumption|lia|lia|lia]|exact HC'].
Qed.

(* the scale of a matrix *)
Lemma full_scale A l : full A -> okl l -> full (set_scale l A).
Proof. intros ((H1 & H2 & H3) & H4 & H5 & H6) Hl. split; [|cbn; auto]. split; [exact H1|]. split; [exact Hl|exact H3]. Qed.
Lemma J_scale cs g ts v kt : nth_error ts v = Some (YMat kt) -> J cs g ts (on_scale (gmp O) v) (fun (r : option info) g1 t1 => g1 = (if r then false else g) /\ t1 = ts).
Proof.
  intros Hv N base f s Hf Hs Hg. destruct (oks_nth _ _ _ _ Hf Hv) as [(A & EA & HA & HK) Hlen].
  set (get := fun o => match o with Mat A => r_scale A | _ => [] end). set (put := fun o l => match o with Mat A => Mat (set_scale l A) | o => o end).
  pose proof (@P_limbs (okty (YMat kt)) cs ts v (gmp O) okl (fun _ => YMat kt) get put (on_scale (gmp O) v)) as HP. cbv beta in HP. rewrite (upd_same ts v _ Hv) in HP.
  apply HP; clear HP; try assumption.
  - apply gmp_spec.
  - intros o (A' & -> & HA' & HK'). apply HA'.
  - intros o l (A' & -> & HA' & HK') Hl q. cbn [put get oc]. unfold mc, set_scale; cbn. lia.
  - intros f0 s0 (A' & E' & HA' & HK'). unfold on_scale, getm, getv, bind, ret. rewrite E'. cbn [get put]. destruct (gmp O (r_scale A') f0 s0) as [[r l] f' s'|e f' s'|]; reflexivity.
  - intros o f0 s0 (A' & -> & HA' & HK'). destruct (gmp O (get (Mat A')) f0 s0) as [[r l] f' s'|e f' s'|]; trivial. intros Hl _. eexists. split; [reflexivity|]. split; [apply full_scale; assumption|exact HK'].
  - rewrite EA. exists A. auto.
Qed.
Lemma keep_scale cs g ts v kt : nth_error ts v = Some (YMat kt) -> subs ts cs = true -> keep cs g ts (chk (on_scale (gmp O) v)).
Proof. intros Hv HS. eapply J_chk; [eapply J_scale; exact Hv| |]; cbv beta. - intros e g' ts' [_ ->]. exact HS. - intros g' ts' [-> ->]. auto. Qed.

(* numbers on the stack *)
Lemma J_num_gen cs g ts v t k (op : list Z -> M (option info * list Z)) (pre : list Z -> Prop) :
  nth_error ts v = Some t -> limbs_spec O L0 pre op -> (forall o, okty t o -> exists l, o = Num l /\ length l = k /\ pre l) ->
  J cs g ts (on_num op v) (fun (r : option info) g1 t1 => g1 = (if r then false else g) /\ t1 = upd ts v (YNum k)).
Proof.
  intros Hv Hop Ht N base f s Hf Hs Hg. destruct (oks_nth _ _ _ _ Hf Hv) as [Ho Hlen].
  set (get := fun o => match o with Num l => l | _ => [] end). set (put := fun (o : obj) l => Num l).
  apply (@P_limbs (okty t) cs ts v op pre (fun _ => YNum k) get put (on_num op v)); try assumption.
  - intros o Ho'. destruct (Ht o Ho') as (l & -> & _ & Hp). exact Hp.
  - intros o l Ho' Hl q. destruct (Ht o Ho') as (l' & -> & _ & Hp). cbn. lia.
  - intros f0 s0 Ho'. destruct (Ht _ Ho') as (l' & E & _ & Hp). unfold on_num, getv, bind, ret. rewrite E. cbn [get]. destruct (op l' f0 s0) as [[r l] f' s'|e f' s'|]; reflexivity.
  - intros o f0 s0 Ho'. destruct (Ht o Ho') as (l' & -> & Hk & Hp). destruct (op (get (Num l')) f0 s0) as [[r l] f' s'|e f' s'|]; trivial. cbn [get]. intros Hl HL. exists l. split; [reflexivity|]. split; [lia|exact Hl].
Qed.
Lemma J_num cs g ts v k : nth_error ts v = Some (YNum k) -> J cs g ts (on_num (gmp O) v) (fun (r : option info) g1 t1 => g1 = (if r then false else g) /\ t1 = ts).
Proof.
  intros Hv. eapply J_conseq with (Q := fun (r : option info) g1 t1 => g1 = (if r then false else g) /\ t1 = upd ts v (YNum k)); [|intros r g1 t1; rewrite (upd_same ts v _ Hv); auto]. eapply J_num_gen; [exact Hv|apply gmp_spec|]. intros o (l & -> & H1 & H2). exists l. auto.
Qed.
Lemma keep_num cs g ts v k : nth_error ts v = Some (YNum k) -> subs ts cs = true -> keep cs g ts (chk (on_num (gmp O) v)).
Proof. intros Hv HS. eapply J_chk; [eapply J_num; exact Hv| |]; cbv beta. - intros e g' ts' [_ ->]. exact HS. - intros g' ts' [-> ->]. auto. Qed.
Lemma J_init_num cs g ts v k : nth_error ts v = Some (YZero k) -> subs (upd ts v (YNum k)) cs = true ->
  J cs g ts (chk (on_num (ginit O) v)) (fun _ g1 t1 => g1 = g /\ t1 = upd ts v (YNum k)).
Proof.
  intros Hv HS. eapply J_chk.
  - eapply J_num_gen; [exact Hv|apply ginit_spec|]. intros o ->. exists (repeat 0 k). split; [reflexivity|]. split; [apply repeat_length|]. apply Forall_forall. intros x Hx. apply repeat_spec in Hx. lia.
  - cbv beta. intros e g' ts' [_ ->]. exact HS.
  - cbv beta. intros g' ts' [-> ->]. auto.
Qed.
Lemma J_clear_num cs g ts v k : nth_error ts v = Some (YNum k) -> J cs g ts (clear_num v) (fun _ g1 t1 => g1 = g /\ t1 = upd ts v (YZero k)).
Proof.
  intros Hv N base f s Hf Hs Hg. destruct (oks_nth _ _ _ _ Hf Hv) as [(l & E & Hk & Hl) Hlen]. unfold clear_num, getv, bind, setv. rewrite E.
  pose proof (fun q => fc_upd q f v (Num (repeat 0%Z k)) Hlen) as Hq. rewrite E in Hq. cbn [oc] in Hq.
  assert (H0 : forall q, lc q (repeat 0 k) = 0%nat) by (intros q; apply lc_nul; apply Forall_forall; intros x Hx; apply repeat_spec in Hx; lia).
  pose proof (@clear_spec O L0 l (fun q => (fc q (upd f v (Num (repeat 0%Z k))) + base q)%nat) f s Hl) as HC.
  assert (Hs' : hown (fun q => (lc q l + (fc q (upd f v (Num (repeat 0%Z k))) + base q))%nat) s).
  { eapply hown_ext; [|exact Hs]. intros q. specialize (Hq q). rewrite H0 in Hq. cbv beta. lia. }
  specialize (HC Hs'). destruct (clear l f s) as [l' f' s'|e f' s'|]; try contradiction. destruct HC as (-> & -> & H1 & H2). rewrite Hk. cbn [post].
  split; [exact H1|]. exists g, (upd ts v (YZero k)). split; [auto|]. split; [apply oks_upd; [assumption|reflexivity]|]. intros; rewrite H2; auto.
Qed.

(* free *)
Lemma free_ok H p f s : 0 <= p -> hown (fun q => (lc q [p] + H q)%nat) s -> exists s', free p f s = Next tt f s' /\ hown H s' /\ nfail s' = nfail s.
Proof.
  intros Hp Hs. unfold free. destruct (Z.eqb_spec p 0) as [->|Hp0].
  - exists s. split; [reflexivity|]. split; [|reflexivity]. eapply hown_ext; [|exact Hs]. intros q. cbv beta. rewrite lc_neg by lia. reflexivity.
  - destruct (hown_drop O L0 H p s ltac:(lia) Hs) as [-> HD]. eauto.
Qed.
Lemma J_free_arr cs g ts v : nth_error ts v = Some WA -> J cs g ts (free_arr v) (fun _ g1 t1 => g1 = g /\ t1 = upd ts v YNil).
Proof.
  intros Hv N base f s Hf Hs Hg. destruct (oks_nth _ _ _ _ Hf Hv) as [Ho Hlen]. unfold free_arr, getv, bind, setv.
  pose proof (fun q => fc_upd q f v Nil Hlen) as Hq. destruct Ho as [E|(p & E & Hp)]; rewrite E in *; cbn [oc] in Hq.
  - cbn. split; [exact Hs|]. exists g, (upd ts v YNil). split; [auto|]. split; [|exact Hg].
    assert (EE : upd f v Nil = f). { apply upd_same. rewrite (nth_error_nth' f Nil Hlen), E. reflexivity. } rewrite <- EE. apply oks_upd; [assumption|reflexivity].
  - destruct (free_ok (fun q => (fc q (upd f v Nil) + base q)%nat) p f s ltac:(lia)) as (s' & -> & H1 & H2).
    { eapply hown_ext; [|exact Hs]. intros q. specialize (Hq q). cbv beta. lia. }
    cbn. split; [exact H1|]. exists g, (upd ts v YNil). split; [auto|]. split; [apply oks_upd; [assumption|reflexivity]|]. intros; rewrite H2; auto.
Qed.
Lemma J_analysis_free cs g ts v : nth_error ts v = Some WS -> J cs g ts (analysis_free v) (fun _ g1 t1 => g1 = g /\ t1 = upd ts v YNil).
Proof.
  intros Hv N base f s Hf Hs Hg. destruct (oks_nth _ _ _ _ Hf Hv) as [Ho Hlen]. unfold analysis_free, getv, bind, setv.
  pose proof (fun q => fc_upd q f v Nil Hlen) as Hq. destruct Ho as [E|(h & p & E & Hh & Hp)]; rewrite E in *; cbn [oc] in Hq.
  - cbn. split; [exact Hs|]. exists g, (upd ts v YNil). split; [auto|]. split; [|exact Hg].
    assert (EE : upd f v Nil = f). { apply upd_same. rewrite (nth_error_nth' f Nil Hlen), E. reflexivity. } rewrite <- EE. apply oks_upd; [assumption|reflexivity].
  - destruct (free_ok (fun q => (lc q [h] + (fc q (upd f v Nil) + base q))%nat) p f s ltac:(lia)) as (s' & -> & H1 & H2).
    { eapply hown_ext; [|exact Hs]. intros q. specialize (Hq q). cbv beta. cbn [lc] in *. lia. }
    destruct (free_ok (fun q => (fc q (upd f v Nil) + base q)%nat) h f s' ltac:(lia) H1) as (s'' & -> & H3 & H4).
    cbn. split; [exact H3|]. exists g, (upd ts v YNil). split; [auto|]. split; [apply oks_upd; [assumption|reflexivity]|]. intros; rewrite H4, H2; auto.
Qed.
Lemma clear_all_ok l : forall H f s, Forall okl l -> hown (fun q => (ec q l + H q)%nat) s -> exists s', clear_all l f s = Next tt f s' /\ hown H s' /\ nfail s' = nfail s.
Proof.
  induction l as [|e l IH]; intros H f s Ho Hs; [exists s; auto|]. apply Forall_cons_iff in Ho. destruct Ho as [He Ho]. cbn [clear_all]. unfold bind.
  pose proof (@clear_spec O L0 e (fun q => (ec q l + H q)%nat) f s He) as HC. assert (Hs' : hown (fun q => (lc q e + (ec q l + H q))%nat) s) by (eapply hown_ext; [|exact Hs]; intros q; cbn; lia).
  specialize (HC Hs'). destruct (clear e f s) as [l' f' s'|? f' s'|]; try contradiction. destruct HC as (-> & -> & H1 & H2).
  destruct (IH H f s' Ho H1) as (s'' & -> & H3 & H4). exists s''. split; [reflexivity|]. split; [exact H3|lia].
Qed.
Lemma mat_free_ok v A H f s : nth v f Nil = Mat A -> okmat A -> hown (fun q => (mc q A + H q)%nat) s ->
  exists s', matrix_free v f s = Next tt (upd f v Nil) s' /\ hown H s' /\ nfail s' = nfail s.
Proof.
  intros E (Hh & Hsc & Hns) Hs. unfold matrix_free, getv. unfold bind at 1. rewrite E.
  assert (HX : exists s1, (if r_shallow A then ret tt else free (r_p A) ;; free (r_i A) ;; free (r_j A) ;;
       (if r_x A =? 0 then ret tt else clear_all (firstn (Z.to_nat (r_nzmax A)) (r_ent A))) ;; free (r_x A)) f s = Next tt f s1 /\
       hown (fun q => (lc q (r_scale A) + (lc q [r_hdr A] + H q))%nat) s1 /\ nfail s1 = nfail s).
  { unfold mc in Hs. destruct (r_shallow A).
    - exists s. split; [reflexivity|]. split; [|reflexivity]. eapply hown_ext; [|exact Hs]. intros q. cbv beta. cbn [lc]. lia.
    - destruct (Hns eq_refl) as (Hp & Hi & Hj & Hx & HF & HK & HX).
      set (H1 := fun q => (lc q (r_scale A) + (lc q [r_hdr A] + H q))%nat).
      assert (Hec : forall q, ec q (r_ent A) = ec q (firstn (Z.to_nat (r_nzmax A)) (r_ent A))).
      { intros q. rewrite <- (firstn_skipn (Z.to_nat (r_nzmax A)) (r_ent A)) at 1. rewrite ec_app, (ec_nul q _ HK). lia. }
      destruct (free_ok (fun q => (lc q [r_i A; r_j A; r_x A] + ec q (r_ent A) + H1 q)%nat) (r_p A) f s Hp) as (s1 & E1 & G1 & N1).
      { eapply hown_ext; [|exact Hs]. intros q. cbv beta. unfold H1. cbn [lc]. lia. }
      destruct (free_ok (fun q => (lc q [r_j A; r_x A] + ec q (r_ent A) + H1 q)%nat) (r_i A) f s1 Hi) as (s2 & E2 & G2 & N2).
      { eapply hown_ext; [|exact G1]. intros q. cbv beta. cbn [lc]. lia. }
      destruct (free_ok (fun q => (lc q [r_x A] + ec q (r_ent A) + H1 q)%nat) (r_j A) f s2 Hj) as (s3 & E3 & G3 & N3).
      { eapply hown_ext; [|exact G2]. intros q. cbv beta. cbn [lc]. lia. }
      assert (HC : exists s4, (if r_x A =? 0 then ret tt else clear_all (firstn (Z.to_nat (r_nzmax A)) (r_ent A))) f s3 = Next tt f s4 /\
         hown (fun q => (lc q [r_x A] + H1 q)%nat) s4 /\ nfail s4 = nfail s3).
      { destruct (Z.eqb_spec (r_x A) 0) as [E0|E0].
        - exists s3. split; [reflexivity|]. split; [|reflexivity]. eapply hown_ext; [|exact G3]. intros q. cbv beta. rewrite (HX E0). cbn [ec lc]. lia.
        - destruct (clear_all_ok (firstn (Z.to_nat (r_nzmax A)) (r_ent A)) (fun q => (lc q [r_x A] + H1 q)%nat) f s3 HF) as (s4 & -> & G4 & N4).
          { eapply hown_ext; [|exact G3]. intros q. cbv beta. rewrite Hec. lia. }
          exists s4. auto. }
      destruct HC as (s4 & E4 & G4 & N4). destruct (free_ok H1 (r_x A) f s4 Hx G4) as (s5 & E5 & G5 & N5).
      exists s5. unfold bind. rewrite E1, E2, E3, E4, E5. split; [reflexivity|]. split; [exact G5|lia]. }
  destruct HX as (s1 & E1 & G1 & N1). unfold bind at 1. rewrite E1.
  pose proof (@clear_spec O L0 (r_scale A) (fun q => (lc q [r_hdr A] + H q)%nat) f s1 Hsc G1) as HC. unfold bind at 1. destruct (clear (r_scale A) f s1) as [l' f' s'|? f' s'|]; try contradiction.
  destruct HC as (-> & -> & G2 & N2). destruct (free_ok H (r_hdr A) f s' ltac:(lia) G2) as (s2 & E3 & G3 & N3). unfold bind. rewrite E3. exists s2. split; [reflexivity|]. split; [exact G3|lia].
Qed.
Lemma J_matrix_free cs g ts v : nth_error ts v = Some WM -> J cs g ts (matrix_free v) (fun _ g1 t1 => g1 = g /\ t1 = upd ts v YNil).
Proof.
  intros Hv N base f s Hf Hs Hg. destruct (oks_nth _ _ _ _ Hf Hv) as [Ho Hlen].
  pose proof (fun q => fc_upd q f v Nil Hlen) as Hq. destruct Ho as [E|(A & E & HA)]; rewrite E in *; cbn [oc] in Hq.
  - unfold matrix_free, getv, bind. rewrite E. cbn. split; [exact Hs|]. exists g, (upd ts v YNil). split; [auto|]. split; [|exact Hg].
    assert (EE : upd f v Nil = f). { apply upd_same. rewrite (nth_error_nth' f Nil Hlen), E. reflexivity. } rewrite <- EE. apply oks_upd; [assumption|reflexivity].
  - destruct (mat_free_ok v A (fun q => (fc q (upd f v Nil) + base q)%nat) f s E HA) as (s' & -> & H1 & H2).
    { eapply hown_ext; [|exact Hs]. intros q. cbv beta. specialize (Hq q). cbv beta. lia. }
    cbn. split; [exact H1|]. exists g, (upd ts v YNil). split; [auto|]. split; [apply oks_upd; [assumption|reflexivity]|]. intros; rewrite H2; auto.
Qed.

(* variables *)
Lemma J_setnil cs g ts v : nth_error ts v = Some YNil -> J cs g ts (setv v Nil) (fun _ g1 t1 => g1 = g /\ t1 = ts).
Proof.
  intros Hv N base f s Hf Hs Hg. destruct (oks_nth _ _ _ _ Hf Hv) as [Ho Hlen]. cbn in Ho.
  assert (EE : upd f v Nil = f). { apply upd_same. rewrite (nth_error_nth' f Nil Hlen), Ho. reflexivity. } unfold setv. rewrite EE. split; [exact Hs|]. exists g, ts. auto.
Qed.
Lemma J_hand_over cs g ts v h t : nth_error ts v = Some t -> nth_error ts h = Some YNil -> v <> h ->
  J cs g ts (hand_over v h) (fun _ g1 t1 => g1 = g /\ t1 = upd (upd ts h t) v YNil).
Proof.
  intros Hv Hh Hne N base f s Hf Hs Hg. destruct (oks_nth _ _ _ _ Hf Hv) as [Ho Hlen]. destruct (oks_nth _ _ _ _ Hf Hh) as [Ho' Hlen']. cbn in Ho'.
  unfold hand_over, getv, setv, bind. cbn [post]. split.
  - eapply hown_ext; [|exact Hs]. intros q. cbv beta. pose proof (fc_upd q f h (nth v f Nil) Hlen'). pose proof (fc_upd q (upd f h (nth v f Nil)) v Nil ltac:(rewrite upd_length; exact Hlen)).
    rewrite nth_upd_ne in H0 by congruence. rewrite Ho' in H. cbn [oc] in *. lia.
  - exists g, (upd (upd ts h t) v YNil). split; [auto|]. split; [|exact Hg]. apply oks_upd; [|reflexivity]. apply oks_upd; assumption.
Qed.
Definition usable (t : ty) : bool := match t with YMat _ | YArr | YAna | YAny _ | YFac _ _ _ | YShal | YIs _ => true | _ => false end.
Lemma mc_hdr A : 0 < r_hdr A -> (1 <= mc (r_hdr A) A)%nat.
Proof. intros H. unfold mc. rewrite lc_pos by assumption. rewrite Z.eqb_refl. cbn [lc]. lia. Qed.
Lemma mc_in A : 0 < r_x A -> r_shallow A = false -> (1 <= mc (r_x A) A)%nat.
Proof. intros H E. unfold mc. rewrite E. cbn [lc]. replace (0 <? r_x A) with true by (symmetry; apply Z.ltb_lt; lia). rewrite Z.eqb_refl. cbn [andb]. lia. Qed.
Lemma J_use cs g ts v t : nth_error ts v = Some t -> usable t = true -> J cs g ts (use v) (fun _ g1 t1 => g1 = g /\ t1 = ts).
Proof.
  intros Hv Hu N base f s Hf Hs Hg. destruct (oks_nth _ _ _ _ Hf Hv) as [Ho Hlen]. pose proof (fun q => fc_upd q f v Nil Hlen) as Hq. cbn [oc] in Hq.
  assert (HE : use v f s = Next tt f s).
  { unfold use.
    assert (HA : forall p, 0 < p -> (1 <= oc p (nth v f Nil))%nat -> alive p s = true).
    { intros p Hp H1. eapply hown_alive; [exact Hp|exact Hs|]. specialize (Hq p). cbv beta. lia. }
    assert (HM : forall A, nth v f Nil = Mat A -> okmat A -> (r_shallow A = false -> 0 < r_x A) -> (if alive (r_hdr A) s && (r_shallow A || alive (r_x A) s) then Next tt f s else Bad) = Next tt f s).
    { intros A E HA' Hx. rewrite E in HA. cbn [oc] in HA. pose proof HA' as (Hh & _). rewrite (HA (r_hdr A) Hh (mc_hdr A Hh)). destruct (r_shallow A) eqn:Es; [reflexivity|].
      rewrite (HA (r_x A) (Hx eq_refl) (mc_in A (Hx eq_refl) Es)). reflexivity. }
    assert (Hself : forall p, 0 < p -> (1 <= lc p [p])%nat) by (intros p Hp; rewrite lc_pos by assumption; rewrite Z.eqb_refl; lia).
    destruct t; try discriminate; cbn in Ho.
    - destruct Ho as (p & E & Hp). rewrite E in *. rewrite HA; [reflexivity|assumption|apply Hself; assumption].
    - destruct Ho as (A & E & HA'). rewrite E in *. apply HM; [reflexivity|apply HA'|intros _; apply HA'].
    - destruct Ho as (A & E & HA'). rewrite E in *. apply HM; [reflexivity|apply HA'|intros _; apply HA'].
    - destruct Ho as (A & E & HA' & HK'). rewrite E in *. apply HM; [reflexivity|apply HA'|apply HA'].
    - destruct Ho as (A & E & HA' & HK'). rewrite E in *. apply HM; [reflexivity|apply HA'|congruence].
    - destruct Ho as (h & p & E & Hh & Hp). rewrite E in *. rewrite !HA; [reflexivity|assumption| |assumption|].
      + cbn [oc lc]. pose proof (Hself p Hp). cbn [lc] in H. lia.
      + cbn [oc lc]. pose proof (Hself h Hh). cbn [lc] in H. lia.
    - destruct Ho as (E & Ho). rewrite E in *. destruct o as [|p|A|l|h p]; try contradiction.
      + rewrite HA; [reflexivity|exact Ho|apply Hself; exact Ho].
      + apply HM; [reflexivity|apply Ho|apply Ho].
      + cbn [good] in Ho. destruct Ho as [Hh Hp]. rewrite !HA; [reflexivity|assumption| |assumption|].
        * cbn [oc lc]. pose proof (Hself p Hp). cbn [lc] in H. lia.
        * cbn [oc lc]. pose proof (Hself h Hh). cbn [lc] in H. lia. }
  rewrite HE. cbn. split; [exact Hs|]. exists g, ts. auto.
Qed.
Lemma J_malloc cs g ts v : nth_error ts v = Some YNil ->
  J cs g ts (malloc_arr O v) (fun b g1 t1 => g1 = (g && b)%bool /\ t1 = upd ts v (if b then YArr else YNil)).
Proof.
  intros Hv N base f s Hf Hs Hg. destruct (oks_nth _ _ _ _ Hf Hv) as [Ho Hlen]. cbn in Ho. unfold malloc_arr, alloc, bind, setv, ret.
  pose proof (hown_nxt O L0 _ _ Hs) as Hn. destruct (o_mem O (clk s)).
  - replace (nxt s =? 0) with false by (symmetry; apply Z.eqb_neq; lia). cbn [negb post]. split.
    + eapply hown_ext; [|apply hown_fresh; exact Hs]. intros q. pose proof (fc_upd q f v (Arr (nxt s)) Hlen). rewrite Ho in H. cbn [oc] in H. rewrite lc_pos in H by assumption. cbn [lc] in H. cbv beta. lia.
    + exists (g && true)%bool, (upd ts v YArr). split; [auto|]. split; [apply oks_upd; [assumption|exists (nxt s); auto]|]. rewrite andb_true_r. exact Hg.
  - cbn [Z.eqb negb post]. assert (EE : upd f v Nil = f). { apply upd_same. rewrite (nth_error_nth' f Nil Hlen), Ho. reflexivity. } rewrite EE. split; [exact Hs|].
    exists (g && false)%bool, (upd ts v YNil). split; [auto|]. rewrite andb_false_r. split; [|discriminate]. rewrite <- EE. apply oks_upd; [assumption|reflexivity].
Qed.

(* calls *)
Lemma J_call cs g ts F vs ats Q : FJ ats F Q -> NoDup vs -> (forall v, In v vs -> (v < length ts)%nat) ->
  subs (map (fun v => nth v ts YNil) vs) ats = true -> (forall r ats', Q r ats' -> length ats' = length vs) ->
  J cs g ts (call F vs) (fun r g1 t1 => exists ats', Q r ats' /\ g1 = (if r then false else g) /\ t1 = put_back ts vs ats').
Proof.
  intros HF HN Hv HS HL N base f s Hf Hs Hg. pose proof (Forall2_length _ _ _ Hf) as Hlen.
  assert (Hat : oks (map (fun v => nth v ts YNil) vs) (map (fun v => nth v f Nil) vs)).
  { clear HS HN HL. induction vs as [|v vs IH]; cbn; constructor.
    - assert (Hl : (v < length ts)%nat) by (apply Hv; left; reflexivity). destruct (oks_nth ts f v (nth v ts YNil) Hf) as [H _]; [apply nth_error_nth'; exact Hl|exact H].
    - apply IH. intros w Hw. apply Hv. right. exact Hw. }
  apply (subs_ok _ _ _ HS) in Hat.
  assert (HB : forall l, length l = length vs -> forall q, (fc q (put_back f vs l) + fc q (map (fun v => nth v f Nil) vs) = fc q f + fc q l)%nat).
  { intros l Hl q. apply fc_put_back; [assumption|intros v Hw; rewrite <- Hlen; auto|exact Hl]. }
  assert (HB0 : forall q, (fc q (map (fun v => nth v f Nil) vs) <= fc q f)%nat).
  { intros q. specialize (HB (repeat Nil (length vs)) (repeat_length _ _) q). assert (HZ : forall n, fc q (repeat Nil n) = 0%nat) by (induction n; cbn; auto). rewrite HZ in HB. lia. }
  pose proof (HF (fun q => (fc q f + base q - fc q (map (fun v => nth v f Nil) vs))%nat) _ s Hat) as HC. unfold call.
  assert (Hs' : hown (fun q => (fc q (map (fun v => nth v f Nil) vs) + (fc q f + base q - fc q (map (fun v => nth v f Nil) vs)))%nat) s).
  { eapply hown_ext; [|exact Hs]. intros q. cbv beta. specialize (HB0 q). lia. }
  specialize (HC Hs'). destruct (F (map (fun v => nth v f Nil) vs) s) as [r l' s'|]; try contradiction. destruct HC as (H1 & H2 & ats' & HQ & Hl').
  assert (HLl : length l' = length vs) by (rewrite <- (Forall2_length _ _ _ Hl'); eauto).
  cbn [post]. split.
  - eapply hown_ext; [|exact H1]. intros q. cbv beta. specialize (HB _ HLl q). specialize (HB0 q). lia.
  - exists (if r then false else g), (put_back ts vs ats'). split; [eauto|]. split; [apply oks_put_back; assumption|]. destruct r; [discriminate|]. intros Hgt Hst. rewrite (H2 eq_refl Hst). auto.
Qed.

(* functions *)
Definition dead (t : ty) : bool := match t with YNil | YZero _ => true | _ => false end.
Lemma dead_fc q ts f : forallb dead ts = true -> oks ts f -> fc q f = 0%nat.
Proof.
  intros H HF. induction HF; [reflexivity|]. cbn in *. apply andb_prop in H. destruct H as [H1 H2]. rewrite IHHF by assumption.
  destruct x; try discriminate; cbn in H0; subst; cbn [oc]; [reflexivity|]. rewrite lc_nul; [reflexivity|]. apply Forall_forall. intros x Hx. apply repeat_spec in Hx. lia.
Qed.
Lemma oks_split ts1 ts2 f : oks (ts1 ++ ts2) f -> oks ts1 (firstn (length ts1) f) /\ oks ts2 (skipn (length ts1) f).
Proof.
  intros H. apply Forall2_app_inv_l in H. destruct H as (f1 & f2 & H1 & H2 & ->). rewrite (Forall2_length _ _ _ H1).
  rewrite firstn_app, Nat.sub_diag, firstn_all, firstn_O, app_nil_r, skipn_app, Nat.sub_diag, skipn_all. cbn. auto.
Qed.
Lemma FJ_func ats lts cs locals free_all body (Q : option info -> list ty -> Prop) :
  oks lts locals -> (forall q, fc q locals = 0%nat) ->
  J cs true (ats ++ lts) body (fun r g ts => exists out loc, ts = out ++ loc /\ length out = length ats /\ forallb dead loc = true /\ Q r out /\ (r = None -> g = true)) ->
  J cs false cs free_all (fun _ g ts => exists out loc, ts = out ++ loc /\ length out = length ats /\ forallb dead loc = true /\ forall e, Q (Some e) out) ->
  (forall f s e f' s', free_all f s = Stop e f' s' -> False) ->
  FJ ats (func locals free_all body) Q.
Proof.
  intros Hl Hl0 Hb Hfa Hns base l s Ha Hs. unfold func. pose proof (Forall2_length _ _ _ Ha) as HlenA.
  specialize (Hb (nfail s) base (l ++ locals) s (Forall2_app Ha Hl)).
  assert (Hs0 : hown (fun q => (fc q (l ++ locals) + base q)%nat) s) by (eapply hown_ext; [|exact Hs]; intros q; rewrite fc_app, Hl0; lia).
  specialize (Hb Hs0 (fun _ _ => eq_refl)). 
  assert (HX : forall ts f' s' out loc, hown (fun q => (fc q f' + base q)%nat) s' -> oks ts f' -> ts = out ++ loc -> length out = length ats -> forallb dead loc = true ->
     hown (fun q => (fc q (firstn (length l) f') + base q)%nat) s' /\ oks out (firstn (length l) f')).
  { intros ts f' s' out loc H1 H2 -> H3 H4. apply oks_split in H2. destruct H2 as [H2 H5]. rewrite <- HlenA, <- H3. split; [|exact H2]. eapply hown_ext; [|exact H1]. intros q. cbv beta.
    rewrite <- (firstn_skipn (length out) f') at 1. rewrite fc_app, (dead_fc q loc _ H4 H5). lia. }
  destruct (body (l ++ locals) s) as [r f' s'|e f' s'|]; cbn [post] in Hb; try contradiction.
  - destruct Hb as (H1 & g & ts & (out & loc & E & H2 & H3 & H4 & H5) & H6 & H7). destruct (HX ts f' s' out loc H1 H6 E H2 H3) as [G1 G2].
    split; [exact G1|]. split; [intros -> Hst; apply H7; auto|]. exists out. auto.
  - destruct Hb as (H1 & H2). specialize (Hfa 0%nat base f' s' H2 H1 ltac:(discriminate)). destruct (free_all f' s') as [u f'' s''|e' f'' s''|] eqn:EF; cbn [post] in Hfa; try contradiction.
    + destruct Hfa as (K1 & g & ts & (out & loc & E & K2 & K3 & K4) & K6 & _). destruct (HX ts f'' s'' out loc K1 K6 E K2 K3) as [G1 G2].
      split; [exact G1|]. split; [discriminate|]. exists out. split; [apply K4|exact G2].
    + exfalso. eapply Hns. exact EF.
Qed.
End rules.
