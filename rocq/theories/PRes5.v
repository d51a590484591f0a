(* Ownership: analysis and factorisation *)
From Coq Require Import ZArith List Bool Lia Arith.
From Verif Require Import Base MMatrix MRes PRes PRes2 PRes3 PRes4.
Import ListNotations.
Set Bullet Behavior "Strict Subproofs".
Open Scope Z_scope.

Ltac rm := cbn [r_hdr r_p r_i r_j r_x r_ent r_scale r_shallow r_kind r_type r_m r_n r_nzmax set_nzmax set_pij set_x set_scale set_shallow].
Section fns.
Variable O : orc.
Variable L0 : list Z.
Variable st : Prop.
Notation hown := (hown O L0).
Notation J := (J O L0 st).
Notation FJ := (FJ O L0 st).
Notation post := (post O L0 st).
Notation keep := (keep O L0 st).

Lemma keep_ign_gread cs g ts : (st -> False) -> keep cs g ts (ign (gread O)).
Proof.
  intros Hst N base f s Hf Hs Hg. unfold ign, bind, gread. destruct (o_gmp O (clk s)); cbn; (split; [exact Hs|]); exists g, ts; (split; [auto|]); (split; [exact Hf|]); [exact Hg|intros _ X; contradiction].
Qed.
Lemma J_malloc' {A} cs g ts v (k : bool -> M A) Q : nth_error ts v = Some YNil ->
  J cs g (upd ts v YArr) (k true) Q -> J cs false ts (k false) Q -> J cs g ts (bind (malloc_arr O v) k) Q.
Proof.
  intros Hv H1 H0. eapply J_bind; [apply J_malloc; exact Hv|]. cbv beta. intros [] g' ts' [-> ->]; rewrite ?andb_true_r, ?andb_false_r; [exact H1|]. rewrite (upd_same ts v _ Hv). exact H0.
Qed.

(* a call whose status is ignored *)
Lemma keep_ign cs g ts (m : M (option info)) : (st -> False) -> J cs g ts m (fun _ _ t1 => t1 = ts) -> keep cs g ts (ign m).
Proof.
  intros Hst H N base f s Hf Hs Hg. specialize (H N base f s Hf Hs Hg). unfold ign, bind. destruct (m f s) as [a f1 s1|e f1 s1|]; cbn in *; [|exact H|exact H].
  destruct H as (H1 & g1 & t1 & -> & H2 & H3). split; [exact H1|]. exists g, ts. split; [auto|]. split; [exact H2|]. intros _ X. contradiction.
Qed.
(* AMD frees its workspace on every path *)
Lemma fj_amd tA : usable tA = true -> FJ [tA] (AMD_order O) (FQ [tA] [tA]).
Proof.
  intros HuA. unfold AMD_order. eapply (@FJ_func O L0 st [tA] [YNil; YNil; YNil; YNil; YNil] [tA; YNil; YNil; YNil; YNil; YNil]).
  - repeat constructor.
  - reflexivity.
  - js. apply J_coin_bind. intros []; cbv beta iota; [js; fin|].
    apply J_malloc'; [reflexivity| |]; apply J_malloc'; try reflexivity; cbn [negb orb]; try solve [repeat js; fin].
    apply J_coin_bind. intros []; cbv beta iota.
    + js. apply J_malloc'; [reflexivity| |]; js; apply J_malloc'; try reflexivity; cbn [andb]; js; cbn [negb]; try solve [repeat js; fin].
      js. js. js. apply J_coin_bind. intros []; cbv beta iota; [|js; cbn [negb]; repeat js; fin]. apply J_malloc'; [reflexivity| |]; cbn [negb]; repeat js; fin.
    + js. cbn [negb]. js. js. js. apply J_coin_bind. intros []; cbv beta iota; [|js; cbn [negb]; repeat js; fin]. apply J_malloc'; [reflexivity| |]; cbn [negb]; repeat js; fin.
  - repeat js. fin.
  - intros f s e f' s' E. discriminate.
Qed.

(* SLIP_LU_analyze *)
Lemma fj_analyze args order tA : (st -> order <> 2) -> usable tA = true ->
  FJ [YNil; tA] (SLIP_LU_analyze O args order) (FQ [YAna; tA] [YNil; tA]).
Proof.
  intros Hst HuA. unfold SLIP_LU_analyze. eapply (@FJ_func O L0 st [YNil; tA] [YNil; YNil] [YNil; tA; YNil; YNil]).
  - repeat constructor.
  - reflexivity.
  - set (QF := fun (r : option info) (g : bool) (ts : list ty) => exists out loc, ts = out ++ loc /\ length out = length [YNil; tA] /\ forallb dead loc = true /\ FQ [YAna; tA] [YNil; tA] r out /\ (r = None -> g = true)).
    assert (Herr : forall e g, QF (Some e) g [YNil; tA; YNil; YNil]) by (intros e g; exists [YNil; tA], [YNil; YNil]; repeat split; auto; discriminate).
    destruct args as [e|]. { apply J_ret. apply Herr. }
    js. apply J_alloc. { cbn [Z.eqb]. apply J_ret. apply Herr. }
    intros h Hh N base f s Hf Hs Hg. replace (h =? 0) with false by (symmetry; apply Z.eqb_neq; lia).
    destruct (alloc_sem O L0 _ f s Hs) as (p & s1 & E1 & Hp & H1 & N1). unfold bind at 1. rewrite E1. destruct (Z.eqb_spec p 0) as [->|Hp0].
    { unfold bind. destruct (free_ok O L0 (fun q => (fc q f + base q)%nat) h f s1 ltac:(lia)) as (s2 & -> & H2 & N2). { eapply hown_ext; [|exact H1]. intros q. cbn [lc Z.ltb Z.compare andb]. lia. }
      cbn. split; [exact H2|]. exists false, [YNil; tA; YNil; YNil]. split; [apply Herr|]. split; [exact Hf|discriminate]. }
    destruct (oks_nth _ _ 2 _ Hf eq_refl) as [E2 Hl2]. cbn in E2.
    apply (@post_setv O L0 st _ N base [YNil; tA; YNil; YNil] true [YNil; tA; YNil; YNil] YAna 2 _ [h; p]); try assumption.
    { exists h, p. split; [reflexivity|]. split; lia. }
    { intros q. rewrite E2. reflexivity. }
    { eapply hown_ext; [|exact H1]. intros q. cbn [lc]. lia. }
    { intros _ X. rewrite N1 by assumption. auto. }
    clear dependent f. clear - Hst HuA Herr. cbn [upd]. destruct (Z.eqb_spec order 0).
    + repeat js. subst QF. fin.
    + destruct (Z.eqb_spec order 2) as [->|].
      * js. eapply J_seq.
        { apply keep_ign; [intros X; apply (Hst X); reflexivity|]. eapply J_conseq.
          - apply (@J_call O L0 st _ _ _ _ [1%nat] [tA]); [apply fj_amd; exact HuA|repeat constructor; auto|intros v [<-|[]]; cbn; lia|cbn; rewrite sub_refl by exact HuA; reflexivity|intros r ats' ->; destruct r; reflexivity].
          - cbv beta. intros r g' ts' (ats' & -> & _ & ->). destruct r; reflexivity. }
        repeat js. subst QF. fin.
      * js. apply J_malloc'; [reflexivity| |].
        -- cbn [negb]. repeat js. subst QF. fin.
        -- cbn [negb]. repeat js. apply Herr.
  - repeat js. fin.
  - intros f s e f' s' E. discriminate.
Qed.

(* realloc *)
Lemma realloc_sem grow p H f s : 0 <= p -> hown (fun q => (lc q [p] + H q)%nat) s ->
  exists r ok s', realloc O grow p f s = Next (r, ok) f s' /\ 0 <= r /\ (0 < p -> 0 < r) /\ hown (fun q => (lc q [r] + H q)%nat) s' /\ (ok = false -> r = p) /\ (ok = true -> nfail s' = nfail s /\ 0 < r) /\ (grow = false -> 0 < p -> ok = true).
Proof.
  intros Hp Hs. unfold realloc. pose proof (hown_nxt O L0 _ _ Hs) as Hn. destruct (Z.eqb_spec p 0) as [->|Hp0].
  - destruct (o_mem O (clk s)); [exists (nxt s), true, (fresh s)|exists 0, false, (failed s)]; (split; [reflexivity|]); (split; [lia|]); (split; [lia|]).
    + split; [|split; [discriminate|split; [auto|lia]]]. eapply hown_ext; [|apply hown_fresh; exact Hs]. intros q. cbv beta. rewrite (lc_pos q (nxt s)) by assumption. cbn [lc Z.ltb Z.compare andb]. lia.
    + split; [exact Hs|]. split; [reflexivity|]. split; [discriminate|lia].
  - destruct (hown_drop O L0 H p s ltac:(lia) Hs) as [-> HD]. cbn [negb]. destruct (grow && negb (o_mem O (clk s))) eqn:EG.
    + exists p, false, (failed s). split; [reflexivity|]. split; [lia|]. split; [lia|]. split; [exact Hs|]. split; [reflexivity|]. split; [discriminate|]. intros ->. discriminate.
    + destruct (o_move O (clk s)).
      * exists (nxt s), true, (fresh (drop p s)). split; [reflexivity|]. split; [lia|]. split; [lia|]. split; [|split; [discriminate|auto]].
        eapply hown_ext; [|apply hown_fresh; exact HD]. intros q. cbv beta. rewrite (lc_pos q (nxt s)) by assumption. cbn [lc]. cbn [drop nxt]. lia.
      * exists p, true, (tick s). split; [reflexivity|]. split; [lia|]. split; [lia|]. split; [exact Hs|]. split; [reflexivity|]. split; [split; [reflexivity|lia]|auto].
Qed.
Lemma firstn_all_Z {A} (l : list A) z : Z.of_nat (length l) = z -> firstn (Z.to_nat z) l = l.
Proof. intros <-. rewrite Nat2Z.id. apply firstn_all. Qed.

Lemma J_realloc cs g ts v u z : nth_error ts v = Some (YFac true u z) -> subs ts (upd ts v WM) = true -> subs (upd ts v WM) cs = true ->
  J cs g ts (chk (sparse_realloc O v)) (fun _ g1 t1 => g1 = g /\ t1 = upd ts v (YFac true u (2 * z))).
Proof.
  intros Hv _ HS N base f s Hf Hs Hg. destruct (oks_nth _ _ _ _ Hf Hv) as [(A & E & HA & HC) Hl]. specialize (HC eq_refl).
  destruct HA as (((K1 & K2 & K3) & K4 & K5 & K6) & K7 & K8 & K9 & K10). destruct (K3 K4) as (Kp & Ki & Kj & Kx & KF & KS & KX). clear K3.
  pose proof (fun q => fc_upd q f v Nil Hl) as Hq. rewrite E in Hq. cbn [oc] in Hq.
  set (R := fun q => (lc q [r_hdr A; r_p A; r_j A] + lc q (r_scale A) + ec q (r_ent A) + (fc q (upd f v Nil) + base q))%nat).
  unfold chk, sparse_realloc. unfold bind at 1. unfold bind at 1. rewrite (getm_at _ _ _ _ E).
  destruct (realloc_sem true (r_x A) (fun q => (lc q [r_i A] + R q)%nat) f s ltac:(lia)) as (x & okx & s1 & E1 & X1 & X2 & X3 & X4 & X5 & _).
  { eapply hown_ext; [|exact Hs]. intros q. specialize (Hq q). unfold R, mc in *. rewrite K4 in Hq. cbn [lc] in *. lia. }
  unfold bind at 1. rewrite E1. cbn [fst snd].
  set (e1 := if okx then firstn (Z.to_nat (r_nzmax A)) (r_ent A) ++ repeat [-2] (Z.to_nat (r_nzmax A)) else r_ent A).
  assert (He1 : forall q, ec q e1 = ec q (r_ent A)).
  { intros q. unfold e1. destruct okx; [|reflexivity]. rewrite ec_app, firstn_all_Z by congruence. rewrite (ec_nul q (repeat [-2] _)); [lia|]. apply Forall_forall. intros l Hli. apply repeat_spec in Hli. subst. repeat constructor; lia. }
  unfold bind at 1. unfold setv at 1.
  set (f1 := upd f v (Mat (set_x x e1 A))).
  destruct (realloc_sem true (r_i A) (fun q => (lc q [x] + R q)%nat) f1 s1 ltac:(lia)) as (i & oki & s2 & E2 & I1 & I2 & I3 & I4 & I5 & _).
  { eapply hown_ext; [|exact X3]. intros q. cbv beta. lia. }
  unfold bind at 1. rewrite E2. cbn [fst snd]. unfold bind at 1. unfold setv at 1. unfold f1. rewrite upd_upd.
  set (B := set_pij (r_p A) i (r_j A) (set_x x e1 A)).
  assert (HR : forall o, (forall q, oc q o = (lc q [r_hdr A; r_p A; i; r_j A; x] + lc q (r_scale A) + ec q (r_ent A))%nat) -> hown (fun q => (fc q (upd f v o) + base q)%nat) s2).
  { intros o Ho. eapply hown_ext; [|exact I3]. intros q. unfold R. cbv beta. specialize (Ho q). pose proof (fc_upd q f v o Hl) as Hq'. rewrite E in Hq'. cbn [oc] in Hq'. specialize (Hq q). cbn [lc] in *. lia. }
  destruct (negb oki || negb okx) eqn:EK.
  - cbn [ret]. unfold stop. cbn [PRes2.post]. split.
    + apply HR. intros q. cbn [oc]. unfold mc, B. cbn. rewrite K4, He1. cbn [lc]. lia.
    + eapply subs_ok; [exact HS|]. apply oks_upd; [exact Hf|]. right. exists B. split; [reflexivity|]. split; [exact K1|]. split; [exact K2|]. intros _. unfold B. cbn.
      split; [exact Kp|]. split; [exact I1|]. split; [exact Kj|]. split; [lia|]. specialize (X2 K5).
      assert (HL : length (firstn (Z.to_nat (r_nzmax A)) (r_ent A)) = Z.to_nat (r_nzmax A)) by (rewrite firstn_length; lia).
      unfold e1. destruct okx; [|split; [exact KF|]; split; [exact KS|lia]]. split; [|split; [|lia]].
      * rewrite firstn_app, HL, Nat.sub_diag, firstn_O, app_nil_r, firstn_firstn, Nat.min_id. exact KF.
      * rewrite skipn_app, HL, Nat.sub_diag, skipn_O. rewrite (skipn_all2 (firstn _ _)) by lia. cbn [app]. apply Forall_forall. intros l Hli. apply repeat_spec in Hli. subst. repeat constructor; lia.
  - destruct oki; [|discriminate]. destruct okx; [|discriminate]. unfold bind. unfold setv at 1. rewrite upd_upd. cbn [ret PRes2.post]. destruct (X5 eq_refl) as [X6 X7]. destruct (I5 eq_refl) as [I6 I7].
    rewrite firstn_all_Z by congruence. set (C := set_nzmax (2 * r_nzmax A) _).
    assert (HN : forall n, Forall nul (repeat [0] n)) by (intros n; apply Forall_forall; intros l Hli; apply repeat_spec in Hli; subst; repeat constructor; lia).
    split.
    + apply HR. intros q. cbn [oc]. unfold mc, C. rm. rewrite K4, ec_app, (ec_nul q (repeat [0] _)) by apply HN. cbn [lc]. lia.
    + exists g, (upd ts v (YFac true u (2 * z))). split; [auto|]. split; [|intros G S; rewrite I6, X6; auto]. apply oks_upd; [exact Hf|]. exists C. split; [reflexivity|]. split; [|intros _; exact I7].
      assert (HLC : Z.of_nat (length (r_ent C)) = 2 * z). { unfold C; rm. rewrite app_length, repeat_length. lia. }
      assert (HOK : Forall okl (r_ent C)). { unfold C; rm. apply Forall_app. split; [rewrite <- (firstn_all_Z (r_ent A) (r_nzmax A)) by congruence; exact KF|]. apply Forall_forall. intros l Hli. apply repeat_spec in Hli. subst. repeat constructor; lia. }
      split; [|split; [unfold C; rm; lia|split; [lia|split; [exact HLC|]]]].
      * split; [|split; [exact K4|split; [exact X7|rewrite HLC; unfold C; rm; lia]]]. split; [exact K1|]. split; [exact K2|]. intros _.
        split; [exact Kp|]. split; [exact I1|]. split; [exact Kj|]. split; [unfold C; rm; lia|]. assert (EN : r_nzmax C = 2 * z) by (unfold C; rm; lia). rewrite EN, firstn_all_Z by exact HLC. split; [exact HOK|]. split; [rewrite skipn_all2 by lia; constructor|unfold C; rm; lia].
      * unfold C; rm. rewrite skipn_app. apply Forall_app. split; [exact K10|]. apply Forall_forall. intros l Hli. assert (HI : In l (repeat [0] (Z.to_nat (r_nzmax A)))) by (rewrite <- (firstn_skipn (Z.to_nat u - length (r_ent A)) (repeat [0] _)); apply in_or_app; auto). apply repeat_spec in HI. auto.
Qed.
Lemma J_collapse cs g ts v u z : nth_error ts v = Some (YFac true u z) ->
  J cs g ts (sparse_collapse O v u) (fun _ g1 t1 => g1 = g /\ t1 = upd ts v (YMat None)).
Proof.
  intros Hv N base f s Hf Hs Hg. destruct (oks_nth _ _ _ _ Hf Hv) as [(A & E & HA & HC) Hl]. specialize (HC eq_refl).
  destruct HA as (((K1 & K2 & K3) & K4 & K5 & K6) & K7 & K8 & K9 & K10). destruct (K3 K4) as (Kp & Ki & Kj & Kx & KF & KS & KX). clear K3.
  pose proof (fun q => fc_upd q f v Nil Hl) as Hq. rewrite E in Hq. cbn [oc] in Hq.
  set (R := fun q => (lc q [r_hdr A; r_p A; r_j A] + lc q (r_scale A) + ec q (r_ent A) + (fc q (upd f v Nil) + base q))%nat).
  unfold sparse_collapse. unfold bind at 1. rewrite (getm_at _ _ _ _ E).
  destruct (realloc_sem false (r_i A) (fun q => (lc q [r_x A] + R q)%nat) f s ltac:(lia)) as (i & oki & s1 & E1 & X1 & X2 & X3 & X4 & X5 & X6).
  { eapply hown_ext; [|exact Hs]. intros q. specialize (Hq q). unfold R, mc in *. rewrite K4 in Hq. cbn [lc] in *. lia. }
  unfold bind at 1. rewrite E1. cbn [fst snd]. unfold bind at 1. unfold setv at 1.
  destruct (realloc_sem false (r_x A) (fun q => (lc q [i] + R q)%nat) (upd f v (Mat (set_pij (r_p A) i (r_j A) A))) s1 ltac:(lia)) as (x & okx & s2 & E2 & I1 & I2 & I3 & I4 & I5 & I6).
  { eapply hown_ext; [|exact X3]. intros q. cbv beta. lia. }
  unfold bind at 1. rewrite E2. cbn [fst snd]. unfold setv. rewrite upd_upd.

  specialize (X6 eq_refl HC). subst oki. destruct (X5 eq_refl) as [N1 Hi0]. specialize (I6 eq_refl K5). subst okx. destruct (I5 eq_refl) as [N2 Hx0].
  set (C := set_nzmax u _). assert (HLu : (Z.to_nat u <= length (r_ent A))%nat) by lia.
  assert (HN : Forall nul (skipn (Z.to_nat u) (r_ent A))) by (eapply Forall_impl; [|exact K10]; intros l <-; repeat constructor; lia).
  cbn [PRes2.post]. split.
  - eapply hown_ext; [|exact I3]. intros q. unfold R. cbv beta. pose proof (fc_upd q f v (Mat C) Hl) as Hq'. rewrite E in Hq'. cbn [oc] in Hq'. specialize (Hq q).
    assert (EM : mc q C = (lc q [r_hdr A; r_p A; i; r_j A; x] + lc q (r_scale A) + ec q (r_ent A))%nat).
    { unfold mc, C. rm. rewrite K4. rewrite <- (firstn_skipn (Z.to_nat u) (r_ent A)) at 2. rewrite ec_app, (ec_nul q _ HN). cbn [lc]. lia. }
    rewrite EM in Hq'. cbn [lc] in *. lia.
  - exists g, (upd ts v (YMat None)). split; [auto|]. split; [|intros G S; rewrite N2, N1; auto]. apply oks_upd; [exact Hf|]. exists C. split; [reflexivity|]. split; [|exact I].
    split; [|split; [exact K4|split; [exact Hx0|]]].
    + split; [exact K1|]. split; [exact K2|]. intros _. unfold C; rm. split; [exact Kp|]. split; [exact X1|]. split; [exact Kj|]. split; [exact I1|].
      rewrite firstn_firstn, Nat.min_id. split; [|split; [rewrite skipn_all2 by (rewrite firstn_length; lia); constructor|lia]].
      rewrite <- (firstn_all_Z (r_ent A) (r_nzmax A)) by congruence. rewrite firstn_firstn. rewrite Nat.min_l by lia.
      apply Forall_forall. intros l Hli. rewrite Forall_forall in KF. apply KF. rewrite firstn_all_Z by congruence. rewrite <- (firstn_skipn (Z.to_nat u) (r_ent A)). apply in_or_app. auto.
    + unfold C; rm. rewrite firstn_length. lia.
Qed.

Lemma J_maybe cs g ts ts2 m : J cs g ts m (fun _ g1 t1 => g1 = g /\ t1 = ts2) -> subs ts ts2 = true -> J cs g ts (maybe O m) (fun _ g1 t1 => g1 = g /\ t1 = ts2).
Proof. intros H HS. apply J_coin_bind. intros []; [exact H|]. eapply J_sub; [exact HS|]. apply J_ret. auto. Qed.
Lemma J_chk_init cs g ts v c u z : nth_error ts v = Some (YFac c u z) -> u < z -> subs (upd ts v (YFac c (u + 1) z)) cs = true ->
  J cs g ts (chk (init_at O v u)) (fun _ g1 t1 => g1 = g /\ t1 = upd ts v (YFac c (u + 1) z)).
Proof.
  intros Hv Hu HS. eapply J_chk; [eapply J_init_at; eassumption| |]; cbv beta. - intros e g' ts' [_ ->]. exact HS. - intros g' ts' [-> ->]. auto.
Qed.
Lemma J_chk_gent_at cs g ts v c u z i : nth_error ts v = Some (YFac c u z) -> 0 <= i < u -> subs ts cs = true ->
  J cs g ts (chk (gent_at O v i)) (fun _ g1 t1 => g1 = g /\ t1 = ts).
Proof.
  intros Hv Hu HS. eapply J_chk; [eapply J_gent_at; eassumption| |]; cbv beta. - intros e g' ts' [_ ->]. exact HS. - intros g' ts' [-> ->]. auto.
Qed.

Hint Resolve fj_smallest fj_largest fj_nonzero : fj.
Lemma fj_pivot order k kt c z : 0 <= k < z ->
  FJ [YMat kt; YFac c k z] (slip_get_pivot O order k) (FQ [YMat kt; YFac c (k + 1) z] [YMat kt; WM]).
Proof.
  intros Hk. fjt [YMat kt; YFac c k z] [YZero 2; YZero 2] [YMat kt; WM; YNum 2; YNum 2].
  - cbn [app].
    assert (Hend : J [YMat kt; WM; YNum 2; YNum 2] true [YMat kt; YFac c k z; YNum 2; YNum 2] (chk (gread O) ;; chk (init_at O 1 k) ;; chk (gent_at O 1 k) ;; clear_num 2 ;; clear_num 3 ;; ret None)
      (fun r g ts => exists out loc, ts = out ++ loc /\ length out = length [YMat kt; YFac c k z] /\ forallb dead loc = true /\ FQ [YMat kt; YFac c (k + 1) z] [YMat kt; WM] r out /\ (r = None -> g = true))).
    { js. eapply J_seq; [eapply J_chk_init; [reflexivity|lia|subt]|]. cbn [upd]. eapply J_seq; [eapply J_chk_gent_at; [reflexivity|lia|subt]|]. repeat js. fin. }
    assert (HS : subs [YMat kt; YFac c k z; YZero 2; YZero 2] [YMat kt; YFac c k z; YNum 2; YNum 2] = true) by subt.
    pose proof (J_sub _ _ _ _ _ _ _ _ _ HS Hend) as Hend2.
    destruct (order =? 0). { repeat (first [exact Hend2 | js]). }
    destruct (order =? 1). { repeat (first [exact Hend2 | js]). }
    destruct (order =? 2). { repeat (first [exact Hend2 | js]). }
    destruct (order =? 4). { repeat (first [exact Hend2 | js]). eapply J_seq; [eapply J_maybe; [repeat js; cbv beta; auto|subt]|]. exact Hend. }
    destruct (order =? 5). { repeat (first [exact Hend2 | js]). }
    repeat (first [exact Hend2 | js]). eapply J_seq; [eapply J_maybe; [repeat js; cbv beta; auto|subt]|]. exact Hend.
  - repeat js; fin.
Qed.

(* SLIP_LU_factorize *)
Section factorize.
Variables tA tS : ty.
Hypothesis HuA : usable tA = true.
Hypothesis HuS : usable tS = true.
Definition frame (tL tU tR tx : ty) : list ty := [YNil; YNil; YNil; YNil; tA; tS; tL; tU; tR; YArr; YArr; YArr; YArr; YArr; tx].
Definition fcs : list ty := [YNil; YNil; YNil; YNil; tA; tS; WM; WM; WM; WA; WA; WA; WA; WA; WM].

Lemma J_init_x g tL tU tR c z : sub tL WM = true -> sub tU WM = true -> sub tR WM = true -> forall todo i, 0 <= i -> i + Z.of_nat todo <= z ->
  J fcs g (frame tL tU tR (YFac c i z)) (init_x O todo i) (fun _ g1 t1 => g1 = g /\ t1 = frame tL tU tR (YFac c (i + Z.of_nat todo) z)).
Proof.
  intros HL HU HR. induction todo as [|t IH]; intros i Hi Hz; cbn [init_x].
  - apply J_ret. replace (i + Z.of_nat 0) with i by lia. auto.
  - eapply J_seq; [eapply J_chk_init; [reflexivity|lia|]|].
    + unfold frame, fcs. cbn [upd subs]. rewrite HL, HU, HR, (sub_refl tA HuA), (sub_refl tS HuS). reflexivity.
    + unfold frame. cbn [upd]. specialize (IH (i + 1) ltac:(lia) ltac:(lia)). replace (i + Z.of_nat (S t)) with (i + 1 + Z.of_nat t) by lia. exact IH.
Qed.
Lemma J_copy_column g zl zu tR tx : sub tR WM = true -> sub tx WM = true -> forall todo l u, 0 <= l -> 0 <= u -> l + Z.of_nat todo <= zl -> u + Z.of_nat todo <= zu ->
  J fcs g (frame (YFac true l zl) (YFac true u zu) tR tx) (copy_column O todo l u)
    (fun r g1 t1 => g1 = g /\ 0 <= fst r /\ 0 <= snd r /\ t1 = frame (YFac true (fst r) zl) (YFac true (snd r) zu) tR tx).
Proof.
  intros HR Hx. induction todo as [|t IH]; intros l u Hl Hu Hzl Hzu; cbn [copy_column].
  - apply J_ret. auto.
  - assert (HS : forall l u, subs (frame (YFac true l zl) (YFac true u zu) tR tx) fcs = true) by (intros; unfold frame, fcs; cbn [subs]; rewrite HR, Hx, (sub_refl tA HuA), (sub_refl tS HuS); reflexivity).
    apply J_pick_bind. intros place.
    eapply J_bind with (Q := fun u' g1 t1 => g1 = g /\ 0 <= u' <= u + 1 /\ t1 = frame (YFac true l zl) (YFac true u' zu) tR tx).
    { destruct (place <=? 0); [|apply J_ret; split; [reflexivity|split; [lia|reflexivity]]].
      eapply J_seq; [apply J_keep; apply keep_gread; apply HS|]. eapply J_seq; [eapply J_chk_init; [reflexivity|lia|apply HS]|]. eapply J_seq; [eapply J_chk_gent_at; [reflexivity|lia|apply HS]|]. apply J_ret. split; [reflexivity|]. split; [lia|reflexivity]. }
    cbv beta. intros u' g1 t1 (-> & Hu' & ->).
    eapply J_bind with (Q := fun l' g1 t1 => g1 = g /\ 0 <= l' <= l + 1 /\ t1 = frame (YFac true l' zl) (YFac true u' zu) tR tx).
    { destruct (place >=? 0); [|apply J_ret; split; [reflexivity|split; [lia|reflexivity]]].
      eapply J_seq; [apply J_keep; apply keep_gread; apply HS|]. eapply J_seq; [eapply J_chk_init; [reflexivity|lia|apply HS]|]. eapply J_seq; [eapply J_chk_gent_at; [reflexivity|lia|apply HS]|]. apply J_ret. split; [reflexivity|]. split; [lia|reflexivity]. }
    cbv beta. intros l' g1 t1 (-> & Hl' & ->). apply IH; lia.
Qed.

Hint Resolve fj_tri fj_pivot : fj.
Hint Extern 1 (usable _ = true) => first [reflexivity|assumption] : fj.
Lemma J_factor_step g order n k l u zl zu zr : 0 <= k < zr -> 0 <= l -> 0 <= u -> n <= zl -> n <= zu -> l <= zl -> u <= zu ->
  J fcs g (frame (YFac true l zl) (YFac true u zu) (YFac false k zr) (YMat None)) (factor_step O order n k l u)
    (fun r g1 t1 => g1 = g /\ 0 <= fst r /\ 0 <= snd r /\ exists zl' zu', n <= zl' /\ n <= zu' /\ t1 = frame (YFac true (fst r) zl') (YFac true (snd r) zu') (YFac false (k + 1) zr) (YMat None)).
Proof.
  intros Hk Hl Hu Hn1 Hn2 Hlz Huz. unfold factor_step.
  eapply J_getm; [reflexivity|intros o (A & -> & _); exists A; reflexivity|]. intros A (A' & EA & (_ & HzA & _) & _). injection EA as <-. rewrite HzA.
  assert (HU : forall zl, n <= zl -> l <= zl -> l + n <= zl -> J fcs g (frame (YFac true l zl) (YFac true u zu) (YFac false k zr) (YMat None))
     (do U <- getm 7; (if u + n >? r_nzmax U then chk (sparse_realloc O 7) else ret tt) ;; use 5 ;; use 10 ;; use 9 ;; use 13 ;; use 11 ;; use 12 ;;
        chk (call (slip_ref_triangular_solve O) [14; 6; 4; 8]%nat) ;; chk (call (slip_get_pivot O order k) [14; 8]%nat) ;; do top <- pick O; use 14 ;; copy_column O (Z.to_nat (n - Z.max 0 top)) l u)
     (fun r g1 t1 => g1 = g /\ 0 <= fst r /\ 0 <= snd r /\ exists zl' zu', n <= zl' /\ n <= zu' /\ t1 = frame (YFac true (fst r) zl') (YFac true (snd r) zu') (YFac false (k + 1) zr) (YMat None))).
  { clear dependent A. clear zl Hn1 Hlz. intros zl Hn1 Hlz Hlz2.
    eapply J_getm; [reflexivity|intros o (A & -> & _); exists A; reflexivity|]. intros B (B' & EB & (_ & HzB & _) & _). injection EB as <-. rewrite HzB. clear B HzB.
    assert (HR : forall zu, n <= zu -> u <= zu -> u + n <= zu -> J fcs g (frame (YFac true l zl) (YFac true u zu) (YFac false k zr) (YMat None))
     (use 5 ;; use 10 ;; use 9 ;; use 13 ;; use 11 ;; use 12 ;;
        chk (call (slip_ref_triangular_solve O) [14; 6; 4; 8]%nat) ;; chk (call (slip_get_pivot O order k) [14; 8]%nat) ;; do top <- pick O; use 14 ;; copy_column O (Z.to_nat (n - Z.max 0 top)) l u)
     (fun r g1 t1 => g1 = g /\ 0 <= fst r /\ 0 <= snd r /\ exists zl' zu', n <= zl' /\ n <= zu' /\ t1 = frame (YFac true (fst r) zl') (YFac true (snd r) zu') (YFac false (k + 1) zr) (YMat None))).
    { clear zu Hn2 Huz. intros zu Hn2 Huz Huz2. unfold frame, fcs. do 7 js. js. js. js.
      eapply J_conseq; [apply (@J_copy_column g zl zu (YFac false (k + 1) zr) (YMat None)); try reflexivity; lia|]. cbv beta. intros r g1 t1 (-> & H1 & H2 & ->). split; [reflexivity|]. split; [exact H1|]. split; [exact H2|]. exists zl, zu. auto. }
    destruct (u + n >? zu) eqn:E.
    - eapply J_seq; [eapply J_realloc; [reflexivity|unfold frame; subt|unfold frame, fcs; subt]|]. apply HR; lia.
    - eapply J_seq; [apply J_keep; apply keep_ret|]. apply HR; lia. }
  destruct (l + n >? zl) eqn:E.
  - eapply J_seq; [eapply J_realloc; [reflexivity|unfold frame; subt|unfold frame, fcs; subt]|]. apply HU; lia.
  - eapply J_seq; [apply J_keep; apply keep_ret|]. apply HU; lia.
Qed.
Lemma J_factor_loop g order n zr : forall todo k l u zl zu, 0 <= k -> k + Z.of_nat todo <= zr -> 0 <= l -> 0 <= u -> n <= zl -> n <= zu ->
  J fcs g (frame (YFac true l zl) (YFac true u zu) (YFac false k zr) (YMat None)) (factor_loop O order n todo k l u)
    (fun r g1 t1 => g1 = g /\ exists k' zl' zu', t1 = frame (YFac true (fst r) zl') (YFac true (snd r) zu') (YFac false k' zr) (YMat None)).
Proof.
  induction todo as [|t IH]; intros k l u zl zu Hk Hz Hl Hu Hn1 Hn2; cbn [factor_loop].
  - apply J_ret. split; [reflexivity|]. exists k, zl, zu. reflexivity.
  - intros N base f s Hf. assert (l <= zl /\ u <= zu) as [Hlz Huz].
    { destruct (oks_nth _ _ 6 _ Hf eq_refl) as [(A & _ & (_ & _ & HA & _) & _) _]. destruct (oks_nth _ _ 7 _ Hf eq_refl) as [(B & _ & (_ & _ & HB & _) & _) _]. lia. }
    revert N base f s Hf. change (J fcs g (frame (YFac true l zl) (YFac true u zu) (YFac false k zr) (YMat None)) (do r <- factor_step O order n k l u; factor_loop O order n t (k + 1) (fst r) (snd r))
      (fun r g1 t1 => g1 = g /\ exists k' zl' zu', t1 = frame (YFac true (fst r) zl') (YFac true (snd r) zu') (YFac false k' zr) (YMat None))).
    eapply J_bind; [apply J_factor_step; lia|]. cbv beta. intros r g1 t1 (-> & H1 & H2 & zl' & zu' & H3 & H4 & ->). apply IH; lia.
Qed.
Lemma fj_factorize args order n lnz unz : n <= Z.max lnz 1 -> n <= Z.max unz 1 ->
  FJ [YNil; YNil; YNil; YNil; tA; tS] (SLIP_LU_factorize O args order n lnz unz)
    (FQ [YMat None; YMat None; YMat None; YArr; tA; tS] [YNil; YNil; YNil; YNil; tA; tS]).
Proof.
  intros Hn1 Hn2. fjt [YNil; YNil; YNil; YNil; tA; tS] [YNil; YNil; YNil; YNil; YNil; YNil; YNil; YNil; YNil] fcs.
  - destruct args as [e|]; [repeat js; fin|]. unfold f_work. do 4 js.
    assert (HX : forall z, n <= z -> Z.of_nat (Z.to_nat n) <= Z.max (n * 1) 1) by (intros; lia). specialize (HX n ltac:(lia)).
    apply J_malloc'; [reflexivity| |]; (apply J_malloc'; [reflexivity| |]); (apply J_malloc'; [reflexivity| |]); (apply J_malloc'; [reflexivity| |]); (apply J_malloc'; [reflexivity| |]); cbn [andb upd app];
      try (eapply J_bind; [apply J_stop; unfold fcs; subt|]; intros a g' ts' HF; exact (False_ind _ HF)).
    js. unfold fcs. js. js. js. js. cbn [upd].
    assert (Hr : Z.of_nat (Z.to_nat n) <= room KDENSE n 1 n) by (unfold room; cbn [Z.eqb KDENSE Pos.eqb]; lia).
    assert (Hl : n <= room KCSC n n lnz) by (unfold room; cbn [Z.eqb KCSC KDENSE]; lia).
    assert (Hu : n <= room KCSC n n unz) by (unfold room; cbn [Z.eqb KCSC KDENSE]; lia).
    eapply J_seq; [apply (@J_init_x true (YFac true 0 (room KCSC n n lnz)) (YFac true 0 (room KCSC n n unz)) (YFac false 0 (room KDENSE n 1 n)) false (room KDENSE n 1 n)); try reflexivity; lia|].
    eapply J_sub with (ts2 := frame (YFac true 0 (room KCSC n n lnz)) (YFac true 0 (room KCSC n n unz)) (YFac false 0 (room KDENSE n 1 n)) (YMat None)); [unfold frame; subt|].
    eapply J_bind; [apply J_factor_loop; lia|]. cbv beta. intros r g1 t1 (-> & k' & zl & zu & ->). unfold frame.
    repeat js. eapply J_seq; [eapply J_collapse; reflexivity|]. cbn [upd]. eapply J_seq; [eapply J_collapse; reflexivity|]. cbn [upd].
    do 3 js. cbn [upd].
    eapply J_sub with (ts2 := [YNil; YNil; YNil; YNil; tA; tS; YMat None; YMat None; YMat None; YArr; YNil; YNil; YNil; YNil; YNil]); [subt|].
    repeat js. fin.
  - unfold f_all, f_work, fcs. repeat js. fin.
Qed.
End factorize.
End fns.
