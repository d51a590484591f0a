(* Ownership: the functions that allocate *)
From Coq Require Import ZArith List Bool Lia Arith.
From Verif Require Import Base MMatrix MRes PRes PRes2.
Import ListNotations.
Set Bullet Behavior "Strict Subproofs".
Open Scope Z_scope.

(* statements that are never stopped *)
Definition nostop {A} (m : M A) : Prop := forall f s, match m f s with Stop _ _ _ => False | _ => True end.
Lemma ns_ret {A} (a : A) : nostop (ret a). Proof. intros f s. exact I. Qed.
Lemma ns_bad {A} : nostop (@bad A). Proof. intros f s. exact I. Qed.
Lemma ns_bind {A B} (m : M A) (k : A -> M B) : nostop m -> (forall a, nostop (k a)) -> nostop (bind m k).
Proof. intros H1 H2 f s. unfold bind. specialize (H1 f s). destruct (m f s); try exact I; try contradiction. apply H2. Qed.
Lemma ns_getv v : nostop (getv v). Proof. intros f s. exact I. Qed.
Lemma ns_setv v x : nostop (setv v x). Proof. intros f s. exact I. Qed.
Lemma ns_free p : nostop (free p). Proof. intros f s. unfold free. destruct (p =? 0); [exact I|]. destruct (alive p s); exact I. Qed.
Lemma ns_each g j l : (forall j p, nostop (g j p)) -> nostop (each g j l).
Proof. intros H. revert j. induction l; intros j; cbn [each]; [apply ns_ret|]. apply ns_bind; [apply H|]. intros q. apply ns_bind; [apply IHl|]. intros. apply ns_ret. Qed.
Lemma ns_clear l : nostop (clear l).
Proof. apply ns_each. intros j p f s. unfold clear1. destruct (p =? -2); [exact I|]. destruct (give p s); exact I. Qed.
Lemma ns_clear_all l : nostop (clear_all l).
Proof. induction l; cbn [clear_all]; [apply ns_ret|]. apply ns_bind; [apply ns_clear|]. intros; assumption. Qed.
Lemma ns_free_arr v : nostop (free_arr v).
Proof. apply ns_bind; [apply ns_getv|]. intros []; try apply ns_bad; [apply ns_ret|]. apply ns_bind; [apply ns_free|]. intros; apply ns_setv. Qed.
Lemma ns_clear_num v : nostop (clear_num v).
Proof. apply ns_bind; [apply ns_getv|]. intros []; try apply ns_bad. apply ns_bind; [apply ns_clear|]. intros; apply ns_setv. Qed.
Lemma ns_analysis_free v : nostop (analysis_free v).
Proof. apply ns_bind; [apply ns_getv|]. intros []; try apply ns_bad; [apply ns_ret|]. repeat (apply ns_bind; [apply ns_free|intros]). apply ns_setv. Qed.
Lemma ns_matrix_free v : nostop (matrix_free v).
Proof.
  apply ns_bind; [apply ns_getv|]. intros []; try apply ns_bad; [apply ns_ret|].
  apply ns_bind. { destruct (r_shallow A); [apply ns_ret|]. repeat (apply ns_bind; [apply ns_free|intros]). apply ns_bind; [destruct (r_x A =? 0); [apply ns_ret|apply ns_clear_all]|]. intros; apply ns_free. }
  intros _. apply ns_bind; [apply ns_clear|]. intros _. apply ns_bind; [apply ns_free|]. intros; apply ns_setv.
Qed.
Global Hint Resolve ns_ret ns_free_arr ns_clear_num ns_analysis_free ns_matrix_free : ns.
Ltac nostop_tac := repeat (apply ns_bind; [|intros _]); auto with ns.

Section alloc.
Variable O : orc.
Variable L0 : list Z.
Variable st : Prop.
Notation hown := (hown O L0).
Notation J := (J O L0 st).
Notation FJ := (FJ O L0 st).
Notation post := (post O L0 st).

Definition FQ (oN oE : list ty) : option info -> list ty -> Prop := fun r ts => ts = match r with None => oN | Some _ => oE end.

Lemma J_alloc {A} cs g ts (k : Z -> M A) Q : J cs false ts (k 0) Q ->
  (forall p, 0 < p -> forall N base f s, oks ts f -> hown (fun q => (fc q f + lc q [p] + base q)%nat) s -> (g = true -> st -> nfail s = N) -> post N cs base Q (k p f s)) ->
  J cs g ts (bind (alloc O) k) Q.
Proof.
  intros H0 H1 N base f s Hf Hs Hg. unfold bind, alloc. pose proof (hown_nxt O L0 _ _ Hs) as Hn. destruct (o_mem O (clk s)).
  - apply H1; [assumption|assumption| |exact Hg]. eapply hown_ext; [|apply hown_fresh; exact Hs]. intros q. cbv beta. rewrite lc_pos by assumption. cbn [lc]. lia.
  - apply H0; [assumption|exact Hs|discriminate].
Qed.
Lemma post_setv {A} N base cs g ts t v o p f s (k : M A) Q : oks ts f -> (v < length f)%nat -> okty t o ->
  (forall q, oc q o = (oc q (nth v f Nil) + lc q p)%nat) -> hown (fun q => (fc q f + lc q p + base q)%nat) s -> (g = true -> st -> nfail s = N) ->
  J cs g (upd ts v t) k Q -> post N cs base Q ((setv v o ;; k) f s).
Proof.
  intros Hf Hv Ho Hq Hs Hg HJ. unfold bind, setv. apply HJ; [apply oks_upd; assumption| |exact Hg].
  eapply hown_ext; [|exact Hs]. intros q. cbv beta. pose proof (fc_upd q f v o Hv). specialize (Hq q). lia.
Qed.

(* arrays *)
Lemma okl_nulls type : Forall (fun p => -1 <= p <= 0) (nulls type).
Proof. apply Forall_forall. intros x Hx. apply repeat_spec in Hx. lia. Qed.
Lemma create_loop_ok type : forall todo acc H f s, Forall okl acc -> hown (fun q => (ec q acc + H q)%nat) s ->
  match create_loop O type todo acc f s with
  | Next (Some e) f' s' => f' = f /\ hown (fun q => (ec q e + H q)%nat) s' /\ Forall okl e /\ length e = (length acc + todo)%nat /\ nfail s' = nfail s
  | Next None f' s' => f' = f /\ hown H s'
  | _ => False
  end.
Proof.
  induction todo as [|t IH]; intros acc H f s Ha Hs; cbn [create_loop].
  - cbn. split; [reflexivity|]. split; [exact Hs|]. split; [exact Ha|]. split; [lia|reflexivity].
  - unfold bind at 1. pose proof (@ginit_spec O L0 (nulls type) (fun q => (ec q acc + H q)%nat) f s (okl_nulls type)) as HG. pose proof (ginit_fail O (nulls type) f s) as HF.
    assert (Hs' : hown (fun q => (lc q (nulls type) + (ec q acc + H q))%nat) s).
    { eapply hown_ext; [|exact Hs]. intros q. cbv beta. rewrite (lc_nul q (nulls type)); [reflexivity|]. eapply Forall_impl; [|apply okl_nulls]. cbv beta; lia. }
    specialize (HG Hs'). destruct (ginit O (nulls type) f s) as [[r l] f' s'|? ? ?|]; try contradiction. destruct HG as (-> & H1 & H2 & H3 & H4). cbn [fst snd]. destruct r as [e|].
    + unfold bind. assert (HZ : forall q, lc q l = 0%nat). { intros q. apply lc_nul. eapply Forall_impl; [|apply HF; apply okl_nulls]. cbv beta; lia. }
      destruct (clear_all_ok O L0 acc H f s' Ha) as (s'' & -> & K1 & K2). { eapply hown_ext; [|exact H1]. intros q. cbv beta. rewrite HZ. reflexivity. }
      cbn. auto.
    + specialize (IH (acc ++ [l]) H f s'). assert (HA : Forall okl (acc ++ [l])) by (apply Forall_app; auto).
      specialize (IH HA). assert (H1' : hown (fun q => (ec q (acc ++ [l]) + H q)%nat) s'). { eapply hown_ext; [|exact H1]. intros q. cbv beta. rewrite ec_app. cbn [ec]. lia. }
      specialize (IH H1'). destruct (create_loop O type t (acc ++ [l]) f s') as [[e|] f' s''|? ? ?|]; try contradiction; [|exact IH].
      destruct IH as (-> & K1 & K2 & K3 & K4). split; [reflexivity|]. split; [exact K1|]. split; [exact K2|]. rewrite app_length in K3. cbn in K3. split; [lia|]. rewrite K4. auto.
Qed.
Definition array_post (n : Z) (H : Z -> nat) (f : list obj) (s : rst) (r : out (Z * list (list Z))) : Prop :=
  match r with
  | Next (x, e) f' s' => f' = f /\ 0 <= x /\ hown (fun q => (lc q [x] + ec q e + H q)%nat) s' /\ (x = 0 -> e = []) /\
      (0 < x -> Forall okl e /\ Z.of_nat (length e) = n /\ nfail s' = nfail s)
  | _ => False
  end.
Lemma create_array_ok type n H f s : 0 < n -> hown H s -> array_post n H f s (create_array O type n f s).
Proof.
  intros Hn Hs. unfold create_array. replace (n <=? 0) with false by (symmetry; apply Z.leb_gt; lia). unfold bind at 1, alloc. pose proof (hown_nxt O L0 _ _ Hs) as Hx.
  destruct (o_mem O (clk s)).
  - replace (nxt s =? 0) with false by (symmetry; apply Z.eqb_neq; lia). unfold bind at 1.
    pose proof (create_loop_ok type (Z.to_nat n) [] (fun q => (lc q [nxt s] + H q)%nat) f (fresh s) (Forall_nil _)) as HL.
    assert (Hs' : hown (fun q => (ec q [] + (lc q [nxt s] + H q))%nat) (fresh s)). { eapply hown_ext; [|apply hown_fresh; exact Hs]. intros q. cbv beta. rewrite lc_pos by assumption. cbn [lc ec]. lia. }
    specialize (HL Hs'). destruct (create_loop O type (Z.to_nat n) [] f (fresh s)) as [[e|] f' s'|? ? ?|]; try contradiction.
    + destruct HL as (-> & H1 & H2 & H3 & H4). cbn. split; [reflexivity|]. split; [lia|]. split; [|split; [lia|]].
      * eapply hown_ext; [|exact H1]. intros q. cbn [lc]. lia.
      * intros _. split; [exact H2|]. cbn in H3. split; [lia|]. rewrite H4. reflexivity.
    + destruct HL as (-> & H1). unfold bind. destruct (free_ok O L0 H (nxt s) f s' ltac:(lia) H1) as (s'' & -> & K1 & K2). cbn. split; [reflexivity|]. split; [lia|]. split; [exact K1|]. split; [reflexivity|lia].
  - cbn. split; [reflexivity|]. split; [lia|]. split; [exact Hs|]. split; [reflexivity|lia].
Qed.
Lemma calloc_array_ok type n H f s : 0 < n -> hown H s -> array_post n H f s (calloc_array O type n f s) /\
  match calloc_array O type n f s with Next (x, e) _ _ => 0 < x -> e = repeat (nulls type) (Z.to_nat n) | _ => False end.
Proof.
  intros Hn Hs. unfold calloc_array, bind, alloc. pose proof (hown_nxt O L0 _ _ Hs) as Hx. destruct (o_mem O (clk s)).
  - replace (nxt s =? 0) with false by (symmetry; apply Z.eqb_neq; lia). cbn [ret array_post]. split; [|reflexivity]. split; [reflexivity|]. split; [lia|]. split; [|split; [lia|]].
    + eapply hown_ext; [|apply hown_fresh; exact Hs]. intros q. cbv beta. rewrite lc_pos by assumption. rewrite ec_nul; [cbn [lc]; lia|].
      apply Forall_forall. intros l Hl. apply repeat_spec in Hl. subst. eapply Forall_impl; [|apply okl_nulls]. cbv beta; lia.
    + intros _. rewrite repeat_length. split; [|split; [lia|reflexivity]].
      apply Forall_forall. intros l Hl. apply repeat_spec in Hl. subst. eapply Forall_impl; [|apply okl_nulls]. cbv beta; lia.
  - cbn. split; [|lia]. split; [reflexivity|]. split; [lia|]. split; [exact Hs|]. split; [reflexivity|lia].
Qed.

(* what SLIP_matrix_allocate makes *)
Definition room (kind m n nzmax : Z) : Z := Z.max (if kind =? KDENSE then m * n else nzmax) 1.
Definition made (kind type : Z) (shallow init : bool) (nz : Z) : ty :=
  if shallow then YShal else if negb init && (type =? TMPZ) then YFac (kind =? KCSC) 0 nz else YMat (Some (kind, type)).

(* the scale of a matrix under construction *)
Lemma part_scale z A l : part z A -> okl l -> part z (set_scale l A).
Proof. intros ((K1 & K2 & K3) & K4 & K5 & K6 & K7) Hl. split; [|cbn; auto]. split; [exact K1|]. split; [exact Hl|exact K3]. Qed.
Lemma J_scale_new cs g ts v z kt : nth_error ts v = Some (YNew z kt) ->
  J cs g ts (on_scale (ginit O) v) (fun (r : option info) g1 t1 => g1 = (if r then false else g) /\ t1 = upd ts v (YPart z kt true)).
Proof.
  intros Hv N base f s Hf Hs Hg. destruct (oks_nth _ _ _ _ Hf Hv) as [Ho Hlen].
  set (get := fun o => match o with Mat A => r_scale A | _ => [] end). set (put := fun o l => match o with Mat A => Mat (set_scale l A) | o => o end).
  apply (@P_limbs O L0 st (okty (YNew z kt)) cs ts v (ginit O) (Forall (fun p => -1 <= p <= 0)) (fun _ => YPart z kt true) get put (on_scale (ginit O) v)); try assumption.
  - apply ginit_spec.
  - intros o (A' & -> & HA' & HK' & HS' & _). cbn [get]. rewrite HS'. repeat constructor; lia.
  - intros o l (A' & -> & HA' & _) Hl q. cbn [put get oc]. unfold mc, set_scale; cbn. lia.
  - intros f0 s0 (A' & E' & HA' & _). unfold on_scale, getm, getv, bind, ret. rewrite E'. cbn [get put]. destruct (ginit O (r_scale A') f0 s0) as [[r l] f' s'|e f' s'|]; reflexivity.
  - intros o f0 s0 (A' & -> & HA' & HK' & _ & HI'). destruct (ginit O (get (Mat A')) f0 s0) as [[r l] f' s'|e f' s'|]; trivial. intros Hl _. eexists. split; [reflexivity|]. split; [|split; [exact HK'|intros _; exact HI']]. apply part_scale; assumption.
Qed.
Lemma J_scale_part cs g ts v z kt e : nth_error ts v = Some (YPart z kt e) ->
  J cs g ts (on_scale (gmp O) v) (fun (r : option info) g1 t1 => g1 = (if r then false else g) /\ t1 = upd ts v (YPart z kt e)).
Proof.
  intros Hv N base f s Hf Hs Hg. destruct (oks_nth _ _ _ _ Hf Hv) as [Ho Hlen].
  set (get := fun o => match o with Mat A => r_scale A | _ => [] end). set (put := fun o l => match o with Mat A => Mat (set_scale l A) | o => o end).
  apply (@P_limbs O L0 st (okty (YPart z kt e)) cs ts v (gmp O) okl (fun _ => YPart z kt e) get put (on_scale (gmp O) v)); try assumption.
  - apply gmp_spec.
  - intros o (A' & -> & HA' & _). cbn [get]. apply HA'.
  - intros o l (A' & -> & HA' & _) Hl q. cbn [put get oc]. unfold mc, set_scale; cbn. lia.
  - intros f0 s0 (A' & E' & HA' & _). unfold on_scale, getm, getv, bind, ret. rewrite E'. cbn [get put]. destruct (gmp O (r_scale A') f0 s0) as [[r l] f' s'|e0 f' s'|]; reflexivity.
  - intros o f0 s0 (A' & -> & HA' & HK' & HI'). destruct (gmp O (get (Mat A')) f0 s0) as [[r l] f' s'|e0 f' s'|]; trivial. intros Hl _. eexists. split; [reflexivity|]. split; [|split; [exact HK'|exact HI']]. apply part_scale; assumption.
Qed.


Lemma alloc_sem H f s : hown H s -> exists p s', alloc O f s = Next p f s' /\ 0 <= p /\ hown (fun q => (lc q [p] + H q)%nat) s' /\ (p <> 0 -> nfail s' = nfail s).
Proof.
  intros Hs. unfold alloc. pose proof (hown_nxt O L0 _ _ Hs) as Hn. destruct (o_mem O (clk s)).
  - exists (nxt s), (fresh s). split; [reflexivity|]. split; [lia|]. split; [|reflexivity]. eapply hown_ext; [|apply hown_fresh; exact Hs]. intros q. cbv beta. rewrite lc_pos by assumption. cbn [lc]. lia.
  - exists 0, (failed s). split; [reflexivity|]. split; [lia|]. split; [exact Hs|lia].
Qed.
Definition index_arrays (kind : Z) : M bool :=
  if kind =? KCSC then
    do p <- alloc O; do A <- getm 1; setv 1 (Mat (set_pij p 0 0 A)) ;;
    do i <- alloc O; do A <- getm 1; setv 1 (Mat (set_pij p i 0 A)) ;;
    ret (negb (p =? 0) && negb (i =? 0))
  else if kind =? KTRIP then
    do i <- alloc O; do A <- getm 1; setv 1 (Mat (set_pij 0 i 0 A)) ;;
    do j <- alloc O; do A <- getm 1; setv 1 (Mat (set_pij 0 i j A)) ;;
    ret (negb (i =? 0) && negb (j =? 0))
  else ret true.
Lemma index_arrays_sem kind H B o s : r_p B = 0 -> r_i B = 0 -> r_j B = 0 -> hown H s ->
  exists ok p i j s', index_arrays kind [o; Mat B] s = Next ok [o; Mat (set_pij p i j B)] s' /\ 0 <= p /\ 0 <= i /\ 0 <= j /\
    hown (fun q => (lc q [p; i; j] + H q)%nat) s' /\ (ok = true -> nfail s' = nfail s /\ (kind =? KCSC = true -> 0 < i)).
Proof.
  intros Ep Ei Ej Hs. unfold index_arrays. destruct (kind =? KCSC) eqn:EK; [|destruct (kind =? KTRIP)].
  - destruct (alloc_sem H [o; Mat B] s Hs) as (p & s1 & E1 & Hp & H1 & N1). unfold bind at 1. rewrite E1. cbn.
    destruct (alloc_sem _ [o; Mat (set_pij p 0 0 B)] s1 H1) as (i & s2 & E2 & Hi & H2 & N2). unfold bind at 1. rewrite E2. cbn.
    exists (negb (p =? 0) && negb (i =? 0)), p, i, 0, s2. split; [reflexivity|]. split; [assumption|]. split; [assumption|]. split; [lia|]. split.
    + eapply hown_ext; [|exact H2]. intros q. cbn [lc Z.ltb Z.compare andb]. lia.
    + destruct (Z.eqb_spec p 0), (Z.eqb_spec i 0); cbn; try discriminate. intros _. rewrite N2, N1 by assumption. split; [reflexivity|first [discriminate|lia]].
  - destruct (alloc_sem H [o; Mat B] s Hs) as (p & s1 & E1 & Hp & H1 & N1). unfold bind at 1. rewrite E1. cbn.
    destruct (alloc_sem _ [o; Mat (set_pij 0 p 0 B)] s1 H1) as (i & s2 & E2 & Hi & H2 & N2). unfold bind at 1. rewrite E2. cbn.
    exists (negb (p =? 0) && negb (i =? 0)), 0, p, i, s2. split; [reflexivity|]. split; [lia|]. split; [assumption|]. split; [lia|]. split.
    + eapply hown_ext; [|exact H2]. intros q. cbn [lc Z.ltb Z.compare andb]. lia.
    + destruct (Z.eqb_spec p 0), (Z.eqb_spec i 0); cbn; try discriminate. intros _. rewrite N2, N1 by assumption. split; [reflexivity|first [discriminate|lia]].
  - exists true, 0, 0, 0, s. split; [|split; [lia|]; split; [lia|]; split; [lia|]; split; [exact Hs|split; [reflexivity|discriminate]]]. destruct B; cbn in *. subst. reflexivity.
Qed.

Lemma fj_allocate kind type m n nzmax shallow init :
  FJ [YNil] (SLIP_matrix_allocate O kind type m n nzmax shallow init) (FQ [made kind type shallow init (room kind m n nzmax)] [YNil]).
Proof.
  unfold SLIP_matrix_allocate. fold (room kind m n nzmax). set (z := room kind m n nzmax). assert (Hz : 1 <= z) by (unfold z, room; lia). clearbody z.
  set (kt := Some (kind, type)).
  eapply (@FJ_func O L0 st [YNil] [YNil] [YNil; WM]).
  - repeat constructor.
  - reflexivity.
  - set (QF := fun (r : option info) (g : bool) (ts : list ty) => exists out loc, ts = out ++ loc /\ length out = length [YNil] /\ forallb dead loc = true /\ FQ [made kind type shallow init z] [YNil] r out /\ (r = None -> g = true)).
    cbn [app]. eapply J_seq; [apply J_setnil; reflexivity|].
    destruct ((m <? 0) || (n <? 0) || (kind <? KCSC) || (kind >? KDENSE) || (type <? TMPZ) || (type >? TDBL)).
    { apply J_ret. exists [YNil], [YNil]. repeat split; auto; discriminate. }
    assert (Hend : J [YNil; WM] true [YNil; made kind type shallow init z] (hand_over 1 0 ;; ret None) QF).
    { eapply J_seq; [apply (@J_hand_over O L0 st _ _ _ 1 0 (made kind type shallow init z)); [reflexivity|reflexivity|discriminate]|]. cbn [upd]. apply J_ret. exists [made kind type shallow init z], [YNil]. repeat split; auto. }
    apply J_alloc.
    { cbn [Z.eqb]. apply J_ret. exists [YNil], [YNil]. repeat split; auto; discriminate. }
    intros h Hh N base f s Hf Hs Hg. replace (h =? 0) with false by (symmetry; apply Z.eqb_neq; lia).
    assert (Hlen := Forall2_length _ _ _ Hf). cbn in Hlen. destruct f as [|f0 [|f1 [|? ?]]]; try discriminate. inversion Hf as [|? ? ? ? E0 Hf']; subst. inversion Hf' as [|? ? ? ? E1 _]; subst. cbn in E0, E1. subst.
    eapply (@post_setv _ N base [YNil; WM] true [YNil; YNil] (YNew z kt) 1 _ [h]); try assumption; [cbn; lia| | |].
    { eexists. split; [reflexivity|]. cbn. repeat split; try reflexivity; try lia; try (repeat constructor; lia); try (rewrite firstn_nil; constructor); try (rewrite skipn_nil; constructor). exact Hh. }
    { intros q. cbn [nth oc]. unfold mc. cbn [r_hdr r_shallow r_p r_i r_j r_x r_ent r_scale lc Z.ltb Z.compare andb ec]. lia. }
    clear N base s Hs Hg Hf Hf' h Hh. cbn [upd].
    eapply J_seq. { eapply J_chk; [apply J_scale_new; reflexivity| |]; cbv beta; [intros e g' ts' [_ ->]; reflexivity|intros g' ts' [-> ->]; split; [reflexivity|]]. cbn [upd]. reflexivity. }
    eapply J_seq. { eapply J_chk; [eapply J_scale_part; reflexivity| |]; cbv beta; [intros e g' ts' [_ ->]; reflexivity|intros g' ts' [-> ->]; split; [reflexivity|]]. cbn [upd]. reflexivity. }
    intros N base f s Hf Hs Hg. specialize (Hg eq_refl). destruct f as [|f0 [|f1 [|? ?]]]; try (apply Forall2_length in Hf; discriminate).
    inversion Hf as [|? ? ? ? E0 Hf']; subst. inversion Hf' as [|? ? ? ? E1 _]; subst. cbn in E0. subst f0. destruct E1 as (B & -> & HB & HK & HI). destruct (HI eq_refl) as (Ip & Ii & Ij). clear HI Hf Hf'.
    assert (HB' := HB). destruct HB' as ((K1 & K2 & K3) & K4 & K5 & K6 & K7). unfold bind at 1. destruct shallow.
    { change (post N [YNil; WM] base QF ((hand_over 1 0 ;; ret None) [Nil; Mat (set_shallow true B)] s)). apply Hend.
      - constructor; [reflexivity|]. constructor; [|constructor]. exists (set_shallow true B). split; [reflexivity|]. split; [|reflexivity]. split; [exact K1|]. split; [exact K2|]. cbn. discriminate.
      - eapply hown_ext; [|exact Hs]. intros q. cbn [fc oc]. unfold mc, set_shallow. cbn [r_hdr r_shallow r_p r_i r_j r_x r_ent r_scale]. rewrite K4, K5, K6, Ip, Ii, Ij. cbn [lc ec Z.ltb Z.compare andb]. lia.
      - auto. }
    fold (index_arrays kind).
    set (rest := fun q => (lc q [r_hdr B] + lc q (r_scale B) + base q)%nat).
    destruct (index_arrays_sem kind rest B Nil s Ip Ii Ij) as (ok & p & i & j & s1 & E1 & Hp & Hi & Hj & H1 & N1).
    { eapply hown_ext; [|exact Hs]. intros q. cbn [fc oc]. unfold rest, mc. rewrite K4, K5, K6, Ip, Ii, Ij. cbn [lc ec Z.ltb Z.compare andb]. lia. }
    unfold bind at 1. rewrite E1. clear E1. set (C := set_pij p i j B) in *.
    assert (HA : exists x e s2, (if init && negb ((type =? TINT) || (type =? TDBL)) then create_array O type z else calloc_array O type z) [Nil; Mat C] s1 = Next (x, e) [Nil; Mat C] s2 /\
        0 <= x /\ hown (fun q => (lc q [x] + ec q e + (lc q [p; i; j] + rest q))%nat) s2 /\ (x = 0 -> e = []) /\
        (0 < x -> Forall okl e /\ Z.of_nat (length e) = z /\ nfail s2 = nfail s1 /\ (negb init && (type =? TMPZ) = true -> e = repeat [0] (Z.to_nat z)))).
    { destruct (init && negb ((type =? TINT) || (type =? TDBL))) eqn:EI.
      - pose proof (create_array_ok type z _ [Nil; Mat C] s1 ltac:(lia) H1) as HA. destruct (create_array O type z [Nil; Mat C] s1) as [[x e] f' s'|? ? ?|]; try contradiction.
        destruct HA as (-> & G1 & G2 & G3 & G4). exists x, e, s'. split; [reflexivity|]. split; [exact G1|]. split; [exact G2|]. split; [exact G3|]. intros Hx. destruct (G4 Hx) as (G5 & G6 & G7). split; [exact G5|]. split; [exact G6|]. split; [exact G7|]. apply andb_prop in EI. destruct EI as [-> _]. discriminate.
      - destruct (calloc_array_ok type z _ [Nil; Mat C] s1 ltac:(lia) H1) as [HA HA2]. destruct (calloc_array O type z [Nil; Mat C] s1) as [[x e] f' s'|? ? ?|]; try contradiction.
        destruct HA as (-> & G1 & G2 & G3 & G4). exists x, e, s'. split; [reflexivity|]. split; [exact G1|]. split; [exact G2|]. split; [exact G3|]. intros Hx. destruct (G4 Hx) as (G5 & G6 & G7). split; [exact G5|]. split; [exact G6|]. split; [exact G7|]. intros ET. apply andb_prop in ET. destruct ET as [_ ET]. rewrite (HA2 Hx). unfold nulls, nlimbs. rewrite ET. reflexivity. }
    destruct HA as (x & e & s2 & EX & Hx & H2 & HX0 & HX). unfold bind at 1. rewrite EX. clear EX. cbn [fst snd]. unfold bind at 1. cbn [getm getv bind nth ret]. unfold bind at 1. cbn [setv upd].
    set (D := set_x x e C).
    assert (Hown : hown (fun q => (fc q [Nil; Mat D] + base q)%nat) s2).
    { eapply hown_ext; [|exact H2]. intros q. cbn [fc oc]. unfold mc, D, C, set_x, set_pij, rest. cbn [r_hdr r_shallow r_p r_i r_j r_x r_ent r_scale]. rewrite K4. cbn [lc]. lia. }
    assert (Hok : okmat D).
    { split; [exact K1|]. split; [exact K2|]. intros _. unfold D, C. cbn. rewrite K7. repeat split; try lia.
      - destruct (Z.eq_dec x 0) as [Ex|Ex]; [rewrite HX0 by assumption; rewrite firstn_nil; constructor|]. destruct (HX ltac:(lia)) as (G5 & _). apply Forall_forall. intros l Hl. rewrite Forall_forall in G5. apply G5. rewrite <- (firstn_skipn (Z.to_nat z) e). apply in_or_app. auto.
      - destruct (Z.eq_dec x 0) as [Ex|Ex]; [rewrite HX0 by assumption; rewrite skipn_nil; constructor|]. destruct (HX ltac:(lia)) as (G5 & G6 & _). rewrite skipn_all2 by lia. constructor.
      - exact HX0. }
    destruct (ok && negb (x =? 0)) eqn:EK.
    + apply andb_prop in EK. destruct EK as [-> EK]. destruct (Z.eqb_spec x 0) as [|Ex]; [discriminate|]. destruct (HX ltac:(lia)) as (G5 & G6 & G7 & G8). cbn [ret].
      assert (HF : full D). { split; [exact Hok|]. unfold D, C; cbn. split; [exact K4|]. split; lia. }
      apply Hend.
      * constructor; [reflexivity|]. constructor; [|constructor]. unfold made. destruct (negb init && (type =? TMPZ)) eqn:ET.
        -- exists D. split; [reflexivity|]. split; [|unfold D, C; cbn; apply (N1 eq_refl)]. split; [exact HF|]. unfold D, C; cbn. split; [exact K7|]. split; [lia|]. split; [exact G6|]. rewrite (G8 eq_refl). apply Forall_forall. intros l Hl. apply repeat_spec in Hl. auto.
        -- exists D. split; [reflexivity|]. split; [exact HF|exact HK].
      * exact Hown.
      * intros _ Hst. rewrite G7, (proj1 (N1 eq_refl)). auto.
    + unfold stop. cbn [post PRes2.post]. split; [exact Hown|]. constructor; [reflexivity|]. constructor; [|constructor]. right. exists D. auto.
  - eapply J_conseq; [apply J_matrix_free; reflexivity|]. cbv beta. intros a g' ts' [-> ->]. exists [YNil], [YNil]. cbn. repeat split; auto.
  - intros f s e f' s' E. pose proof (ns_matrix_free 1 f s) as H. rewrite E in H. exact H.
Qed.
End alloc.
