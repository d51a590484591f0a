(* AMD, part 17: the permutation. *)
From Verif Require Import Base Det DetZ Spec MColamd MAmd PCol1 PCol3 PAmd1 PAmd14 PAmd15 PAmd16.
Set Implicit Arguments.
Open Scope Z_scope.
Set Bullet Behavior "Strict Subproofs".

Lemma sumz_mono a b f : 0 <= a <= b -> (forall k, a <= k < b -> 0 <= f k) -> sumz a f <= sumz b f.
Proof.
  intros Hab H. replace b with (a + Z.of_nat (Z.to_nat (b - a))) by lia. assert (X : forall m : nat, (m <= Z.to_nat (b - a))%nat -> sumz a f <= sumz (a + Z.of_nat m) f).
  { induction m as [|m IH]; intros Hm; [rewrite Z.add_0_r; lia|]. replace (a + Z.of_nat (S m)) with (a + Z.of_nat m + 1) by lia. rewrite sumz_S by lia. specialize (IH ltac:(lia)). specialize (H (a + Z.of_nat m) ltac:(lia)). lia. }
  apply X. lia.
Qed.

Lemma inj_perm n (pos : Z -> Z) L : 0 <= n -> (forall x, 0 <= x < n -> 0 <= pos x < n) -> (forall x y, 0 <= x < n -> 0 <= y < n -> pos x = pos y -> x = y) -> zlen L = n -> (forall x, 0 <= x < n -> rd L (pos x) = x) -> is_perm n L.
Proof.
  intros Hn R I LL H.
  assert (S : forall j, 0 <= j < n -> exists x, 0 <= x < n /\ pos x = j).
  { intros j Hj. assert (X : incl (zseq 0 n) (map pos (zseq 0 n))).
    { apply NoDup_length_incl.
      - assert (G : forall l, NoDup l -> (forall x, In x l -> 0 <= x < n) -> NoDup (map pos l)).
        { induction l as [|a l IH]; intros D Q; [constructor|]. apply NoDup_cons_iff in D. destruct D as (D1 & D2). cbn. constructor; [|apply IH; [exact D2|intros; apply Q; right; assumption]]. intros X. apply in_map_iff in X. destruct X as (b & E & Hb). apply D1. replace a with b; [exact Hb|]. apply I; [apply Q; right; exact Hb|apply Q; left; reflexivity|exact E]. }
        apply G; [apply zseq_nodup|]. intros x Hx. apply in_zseq in Hx. exact Hx.
      - rewrite map_length. lia.
      - intros y Hy. apply in_map_iff in Hy. destruct Hy as (x & <- & Hx). apply in_zseq in Hx. apply in_zseq. apply R. exact Hx. }
    specialize (X j (proj2 (in_zseq 0 n j) Hj)). apply in_map_iff in X. destruct X as (x & E & Hx). apply in_zseq in Hx. eauto. }
  split; [lia|]. split.
  - intros j Hj. destruct (S j Hj) as (x & Hx & <-). rewrite H by exact Hx. exact Hx.
  - intros i j Hi Hj. destruct (S i Hi) as (x & Hx & <-). destruct (S j Hj) as (y & Hy & <-). rewrite !H by assumption. intros ->. reflexivity.
Qed.

Section Out.
Variables (n : Z) (P Nv : list Z) (grp r : Z -> Z) (Order : list Z) (K : Z).
Hypothesis T : ptree n P Nv grp r.
Hypothesis LP : zlen P = n.
Hypothesis LN : zlen Nv = n.
Hypothesis Hn : 1 <= n.
Hypothesis PG : forall x, 0 <= x < n -> rd Nv x = 0 -> rd P x <> -1 -> rd P x = grp x.
Hypothesis NUM : numbering n Nv Order K.

Lemma heads_ok : wp (for_ 0 n (fun e Head => let* k := get Order e in if negb (k =? EMPTY) then set Head k e else Ok Head) (mk n EMPTY))
  (fun Head => zlen Head = n /\ (forall j, 0 <= j < K -> 0 <= rd Head j < n /\ rd Order (rd Head j) = j) /\ (forall j, K <= j < n -> rd Head j = EMPTY)) nerr.
Proof.
  destruct NUM as (LO & HK & NO & OI & OS).
  eapply wp_conseq; [apply wp_for with (I := fun e Head => zlen Head = n /\ forall j, 0 <= j < n -> (rd Head j = EMPTY /\ forall x, 0 <= x < e -> rd Order x <> j) \/ (0 <= rd Head j < n /\ rd Order (rd Head j) = j)); [lia| |]|].
  - rewrite zlen_mk by lia. split; [reflexivity|]. intros j Hj. left. rewrite rd_mk by exact Hj. split; [reflexivity|]. intros; lia.
  - intros e Head He (L & H). wg; [lia|]. destruct (NO e He) as [(X & _)|(X & _)].
    + rewrite X, Z.eqb_refl. cbn. split; [exact L|]. intros j Hj. destruct (H j Hj) as [(Y1 & Y2)|Y]; [left|right; exact Y]. split; [exact Y1|]. intros x Hx. destruct (Z.eq_dec x e) as [->|]; [rewrite X; unfold EMPTY; lia|apply Y2; lia].
    + rewrite (proj2 (Z.eqb_neq (rd Order e) EMPTY)) by (unfold EMPTY; lia). cbn [negb]. apply wp_set; [lia|]. rewrite zlen_wr. split; [exact L|]. intros j Hj. rewrite rd_wr by lia. destruct (Z.eqb_spec j (rd Order e)) as [->|Nj]; [right; auto|].
      destruct (H j Hj) as [(Y1 & Y2)|Y]; [left|right; exact Y]. split; [exact Y1|]. intros x Hx. destruct (Z.eq_dec x e) as [->|]; [lia|apply Y2; lia].
  - intros Head (L & H). split; [exact L|]. split.
    + intros j Hj. destruct (H j ltac:(lia)) as [(_ & Y)|Y]; [|exact Y]. destruct (OS j Hj) as (x & Hx & E). exfalso. exact (Y x Hx E).
    + intros j Hj. destruct (H j ltac:(lia)) as [(Y & _)|(Y1 & Y2)]; [exact Y|]. exfalso. destruct (NO _ Y1) as [(X & _)|(X & _)]; [unfold EMPTY in X; lia|lia].
Qed.

Variable Head : list Z.
Hypothesis LH : zlen Head = n.
Hypothesis H1 : forall j, 0 <= j < K -> 0 <= rd Head j < n /\ rd Order (rd Head j) = j.
Hypothesis H2 : forall j, K <= j < n -> rd Head j = EMPTY.
Definition off (j : Z) : Z := sumz j (fun t => rd Nv (rd Head t)).

Lemma head_order x : 0 <= x < n -> 0 < rd Nv x -> 0 <= rd Order x < K /\ rd Head (rd Order x) = x.
Proof.
  intros Hx N. destruct NUM as (LO & HK & NO & OI & OS). destruct (NO x Hx) as [(_ & X)|(X & _)]; [lia|]. split; [exact X|]. destruct (H1 X) as (Y1 & Y2). apply OI; auto. unfold EMPTY. lia.
Qed.
Lemma off_S j : 0 <= j -> off (j + 1) = off j + rd Nv (rd Head j). Proof. intros H. unfold off. exact (@sumz_S j (fun t => rd Nv (rd Head t)) H). Qed.
Lemma off_mono i j : 0 <= i <= j -> j <= K -> off i <= off j. Proof. intros H HK. apply sumz_mono; [exact H|]. intros k Hk. apply (pt_nn T). apply H1. lia. Qed.

Lemma offsets_ok : forall cnt k Next, zlen Next = n -> k = n - Z.of_nat cnt -> 0 <= k <= K -> (forall j, 0 <= j < k -> rd Next (rd Head j) = off j) ->
  wp (a2_offsets cnt k Head Nv Next (off k)) (fun '(Next', nel) => zlen Next' = n /\ nel = off K /\ forall x, 0 <= x < n -> 0 < rd Nv x -> rd Next' x = off (rd Order x)) nerr.
Proof.
  pose proof NUM as (LO & HK & NO & OI & OS).
  assert (DONE : forall Next, (forall j, 0 <= j < K -> rd Next (rd Head j) = off j) -> forall x, 0 <= x < n -> 0 < rd Nv x -> rd Next x = off (rd Order x)).
  { intros Next H x Hx N. destruct (head_order Hx N) as (X1 & X2). rewrite <- X2 at 1. apply H. exact X1. }
  induction cnt as [|cnt IH]; intros k Next L E Hk H; cbn [a2_offsets].
  - cbn [wp]. assert (EK : k = K) by lia. rewrite EK in *. split; [exact L|]. split; [reflexivity|]. apply DONE. exact H.
  - wg; [lia|]. destruct (Z.eq_dec k K) as [->|NK].
    + rewrite H2, Z.eqb_refl by lia. cbn [wp]. split; [exact L|]. split; [reflexivity|]. apply DONE. exact H.
    + destruct (@H1 k ltac:(lia)) as (Y1 & Y2). destruct (Z.eqb_spec (rd Head k) EMPTY) as [Q|_]; [unfold EMPTY in Q; lia|]. ws; [lia|]. wg; [lia|]. rewrite <- off_S by lia. apply IH; [rewrite zlen_wr; exact L|lia|lia|].
      intros j Hj. destruct (Z.eq_dec j k) as [->|Nj]; [apply rd_wr_eq; lia|]. destruct (@H1 j ltac:(lia)) as (Z1 & Z2). assert (DJ : rd Head j <> rd Head k) by (intros X; rewrite X in Z2; lia). rewrite rd_wr_ne by lia. apply H. lia.
Qed.

Definition dense (y : Z) : bool := (rd Nv y =? 0) && (rd P y =? -1).
Definition cd (i : Z) : Z := sumz i (fun y => b2z (dense y)).
Definition cm (e i : Z) : Z := sumz i (fun y => b2z ((rd Nv y =? 0) && (grp y =? e))).
Definition offs (e : Z) : Z := off (rd Order e).
Definition pos (y : Z) : Z := if 0 <? rd Nv y then offs y + cm y n else if rd P y =? -1 then off K + cd y else offs (grp y) + cm (grp y) y.

Lemma grp_el x : 0 <= x < n -> grp x = -1 \/ (0 <= grp x < n /\ 0 < rd Nv (grp x)).
Proof.
  intros Hx. pose proof (pt_nn T Hx). destruct (Z.eq_dec (rd Nv x) 0) as [N|N].
  - destruct (pt_de T Hx N) as [(_ & X)|(_ & X1 & X2 & _)]; auto.
  - destruct (pt_el T Hx ltac:(lia)) as (-> & _). right. split; [exact Hx|lia].
Qed.
Lemma total : off K + cd n = n.
Proof.
  pose proof NUM as (LO & HK & NO & OI & OS).
  assert (X : off K = sumz n (rd Nv)).
  { unfold off. pose proof (@sum_seg n Head 0 K (rd Nv) ltac:(lia)) as S. cbn [Z.add] in S. rewrite S.
    - apply sumz_ext. intros x Hx. destruct (memb Head 0 K x) eqn:M; [reflexivity|]. pose proof (pt_nn T Hx). destruct (Z.eq_dec (rd Nv x) 0) as [|N]; [lia|]. exfalso. destruct (head_order Hx ltac:(lia)) as (Y1 & Y2). rewrite memb_false in M. apply (M (rd Order x)); [lia|exact Y2].
    - intros i j Hi Hj E. destruct (@H1 i ltac:(lia)) as (_ & A), (@H1 j ltac:(lia)) as (_ & B). congruence.
    - intros j Hj. apply H1. lia. }
  rewrite X. rewrite (@sumz_ext n (rd Nv) (fun x => sumz n (fun y => b2z (grp y =? x)))).
  - rewrite sumz_swap. unfold cd. rewrite <- sumz_add. rewrite (@sumz_ext n _ (fun _ => 1)); [rewrite sumz_const; lia|]. intros y Hy. destruct (grp_el Hy) as [G|(G1 & G2)].
    + rewrite sumz_zero by (intros x Hx; rewrite G, (proj2 (Z.eqb_neq (-1) x)) by lia; reflexivity). pose proof (pt_nn T Hy). assert (N : rd Nv y = 0). { destruct (Z.eq_dec (rd Nv y) 0) as [|N]; [assumption|]. destruct (pt_el T Hy ltac:(lia)) as (E & _). lia. }
      destruct (pt_de T Hy N) as [(E & _)|(_ & E & _)]; [|lia]. unfold dense. rewrite N, E. reflexivity.
    + rewrite (@sumz_single n _ (grp y) G1) by (intros x Hx Nx; rewrite (proj2 (Z.eqb_neq (grp y) x)) by lia; reflexivity). rewrite Z.eqb_refl. unfold dense. destruct (Z.eqb_spec (rd Nv y) 0) as [N|]; [|reflexivity]. destruct (pt_de T Hy N) as [(_ & E)|(E & _)]; [lia|]. rewrite (proj2 (Z.eqb_neq _ _) E). reflexivity.
  - intros x Hx. pose proof (pt_nn T Hx). destruct (Z.eq_dec (rd Nv x) 0) as [N|N]; [|apply (pt_el T Hx); lia]. rewrite N. symmetry. apply sumz_zero. intros y Hy. assert (NE : grp y <> x) by (intros E; destruct (grp_el Hy) as [G|(G1 & G2)]; [lia|rewrite E in G2; lia]). rewrite (proj2 (Z.eqb_neq (grp y) x) NE). reflexivity.
Qed.

Lemma nv_cm e : 0 <= e < n -> 0 < rd Nv e -> rd Nv e = cm e n + 1.
Proof.
  intros He N. destruct (pt_el T He N) as (G & S & _). rewrite S. rewrite (@sumz_upd n (fun y => b2z (grp y =? e)) (fun y => b2z ((rd Nv y =? 0) && (grp y =? e))) e He).
  - unfold cm. rewrite G, Z.eqb_refl, (proj2 (Z.eqb_neq (rd Nv e) 0)) by lia. cbn. lia.
  - intros y Hy Ny. destruct (Z.eqb_spec (rd Nv y) 0) as [Q|Q]; [reflexivity|]. pose proof (pt_nn T Hy). destruct (pt_el T Hy ltac:(lia)) as (E & _). rewrite E, (proj2 (Z.eqb_neq y e) Ny). reflexivity.
Qed.
Lemma cm_S e i : 0 <= i -> cm e (i + 1) = cm e i + b2z ((rd Nv i =? 0) && (grp i =? e)). Proof. intros H. unfold cm. apply sumz_S. exact H. Qed.
Lemma cd_S i : 0 <= i -> cd (i + 1) = cd i + b2z (dense i). Proof. intros H. unfold cd. apply sumz_S. exact H. Qed.
Lemma cm_mono e i j : 0 <= i <= j -> cm e i <= cm e j. Proof. intros H. apply sumz_mono; [exact H|]. intros. destruct (_ && _); cbn; lia. Qed.
Lemma cd_mono i j : 0 <= i <= j -> cd i <= cd j. Proof. intros H. apply sumz_mono; [exact H|]. intros. destruct (dense k); cbn; lia. Qed.

(* where the positions lie *)
Lemma pos_el y : 0 <= y < n -> 0 < rd Nv y -> pos y = offs y + rd Nv y - 1 /\ grp y = y.
Proof. intros Hy N. unfold pos. rewrite (proj2 (Z.ltb_lt _ _) N). rewrite (nv_cm Hy N). destruct (pt_el T Hy N) as (G & _). split; [lia|exact G]. Qed.
Lemma pos_dead y : 0 <= y < n -> rd Nv y = 0 -> rd P y <> -1 -> pos y = offs (grp y) + cm (grp y) y /\ 0 <= cm (grp y) y < cm (grp y) n /\ cm (grp y) (y + 1) = cm (grp y) y + 1.
Proof.
  intros Hy N Q. unfold pos. rewrite N, (proj2 (Z.eqb_neq _ _) Q). cbn [Z.ltb Z.compare]. split; [reflexivity|]. assert (E : cm (grp y) (y + 1) = cm (grp y) y + 1) by (rewrite cm_S, N, !Z.eqb_refl by lia; reflexivity). split; [|exact E].
  split; [apply sumz_nonneg; intros; destruct (_ && _); cbn; lia|]. assert (cm (grp y) (y + 1) <= cm (grp y) n) by (apply cm_mono; lia). lia.
Qed.
Lemma pos_dense y : 0 <= y < n -> rd Nv y = 0 -> rd P y = -1 -> pos y = off K + cd y /\ 0 <= cd y < cd n /\ cd (y + 1) = cd y + 1.
Proof.
  intros Hy N Q. unfold pos. rewrite N, Q. cbn [Z.ltb Z.compare Z.eqb]. split; [reflexivity|]. assert (E : cd (y + 1) = cd y + 1) by (rewrite cd_S by lia; unfold dense; rewrite N, Q; reflexivity). split; [|exact E].
  split; [apply sumz_nonneg; intros; destruct (dense k); cbn; lia|]. assert (cd (y + 1) <= cd n) by (apply cd_mono; lia). lia.
Qed.
Definition dn (y : Z) : Prop := rd Nv y = 0 /\ rd P y = -1.
Lemma pos_grp y : 0 <= y < n -> ~ dn y -> 0 <= grp y < n /\ 0 < rd Nv (grp y) /\ offs (grp y) <= pos y < offs (grp y) + rd Nv (grp y).
Proof.
  intros Hy ND. pose proof (pt_nn T Hy). destruct (Z.eq_dec (rd Nv y) 0) as [N|N].
  - assert (Q : rd P y <> -1) by (intros Q; apply ND; split; auto). destruct (pos_dead Hy N Q) as (E1 & E2 & _). destruct (pt_de T Hy N) as [(X & _)|(_ & G1 & G2 & _)]; [contradiction|]. rewrite (nv_cm G1 G2) at 2. split; [exact G1|]. split; [exact G2|]. lia.
  - destruct (@pos_el y Hy ltac:(lia)) as (E & G). rewrite G. repeat split; lia.
Qed.
Lemma offs_next e : 0 <= e < n -> 0 < rd Nv e -> off (rd Order e + 1) = offs e + rd Nv e.
Proof. intros He N. destruct (head_order He N) as (X1 & X2). rewrite off_S, X2 by lia. reflexivity. Qed.

Lemma pos_rng y : 0 <= y < n -> 0 <= pos y < n.
Proof.
  intros Hy. pose proof NUM as (LO & HK & NO & OI & OS). pose proof total as TT. assert (O0 : off 0 = 0) by reflexivity.
  assert (OK0 : 0 <= off K) by (rewrite <- O0; apply off_mono; lia).
  assert (CD : 0 <= cd n) by (apply sumz_nonneg; intros; destruct (dense k); cbn; lia).
  destruct (Z.eq_dec (rd Nv y) 0) as [N|N]; [destruct (Z.eq_dec (rd P y) (-1)) as [Q|Q]|].
  - destruct (pos_dense Hy N Q) as (-> & X & _). lia.
  - destruct (@pos_grp y Hy) as (G1 & G2 & X); [intros (_ & Y); contradiction|]. destruct (head_order G1 G2) as (Y1 & _). pose proof (offs_next G1 G2). assert (off (rd Order (grp y) + 1) <= off K) by (apply off_mono; lia). assert (off 0 <= offs (grp y)) by (apply off_mono; lia). lia.
  - destruct (@pos_grp y Hy) as (G1 & G2 & X); [intros (Y & _); contradiction|]. destruct (head_order G1 G2) as (Y1 & _). pose proof (offs_next G1 G2). assert (off (rd Order (grp y) + 1) <= off K) by (apply off_mono; lia). assert (off 0 <= offs (grp y)) by (apply off_mono; lia). lia.
Qed.
Lemma dn_dec y : dn y \/ ~ dn y. Proof. unfold dn. destruct (Z.eq_dec (rd Nv y) 0), (Z.eq_dec (rd P y) (-1)); tauto. Qed.

Lemma pos_lt y z : 0 <= y < z -> z < n -> pos y <> pos z.
Proof.
  intros Hy Hz E. pose proof NUM as (LO & HK & NO & OI & OS).
  assert (Ry : 0 <= y < n) by lia. assert (Rz : 0 <= z < n) by lia.
  assert (GK : forall x, 0 <= x < n -> ~ dn x -> pos x < off K). { intros x Hx D. destruct (pos_grp Hx D) as (G1 & G2 & X). destruct (head_order G1 G2) as (Y1 & _). pose proof (offs_next G1 G2). assert (off (rd Order (grp x) + 1) <= off K) by (apply off_mono; lia). lia. }
  assert (DK : forall x, 0 <= x < n -> dn x -> off K <= pos x). { intros x Hx (D1 & D2). destruct (pos_dense Hx D1 D2) as (-> & X & _). lia. }
  destruct (dn_dec y) as [Dy|Dy], (dn_dec z) as [Dz|Dz].
  - destruct Dy as (D1 & D2), Dz as (D3 & D4). destruct (pos_dense Ry D1 D2) as (E1 & _ & E2), (pos_dense Rz D3 D4) as (E3 & _). assert (cd (y + 1) <= cd z) by (apply cd_mono; lia). lia.
  - specialize (GK z Rz Dz). specialize (DK y Ry Dy). lia.
  - specialize (GK y Ry Dy). specialize (DK z Rz Dz). lia.
  - destruct (pos_grp Ry Dy) as (G1 & G2 & X), (pos_grp Rz Dz) as (G3 & G4 & X').
    assert (EG : grp y = grp z).
    { destruct (head_order G1 G2) as (Y1 & Y2), (head_order G3 G4) as (Y3 & Y4). pose proof (offs_next G1 G2). pose proof (offs_next G3 G4). destruct (Z.lt_trichotomy (rd Order (grp y)) (rd Order (grp z))) as [Q|[Q|Q]].
      - assert (off (rd Order (grp y) + 1) <= offs (grp z)) by (apply off_mono; lia). lia.
      - rewrite <- Y2, <- Y4, Q. reflexivity.
      - assert (off (rd Order (grp z) + 1) <= offs (grp y)) by (apply off_mono; lia). lia. }
    pose proof (pt_nn T Ry). pose proof (pt_nn T Rz). pose proof (nv_cm G1 G2) as NC.
    destruct (Z.eq_dec (rd Nv y) 0) as [Ny|Ny], (Z.eq_dec (rd Nv z) 0) as [Nz|Nz].
    + assert (Qy : rd P y <> -1) by (intros Q; apply Dy; split; auto). assert (Qz : rd P z <> -1) by (intros Q; apply Dz; split; auto). destruct (pos_dead Ry Ny Qy) as (E1 & _ & E2), (pos_dead Rz Nz Qz) as (E3 & _). rewrite <- EG in E3. assert (cm (grp y) (y + 1) <= cm (grp y) z) by (apply cm_mono; lia). lia.
    + assert (Qy : rd P y <> -1) by (intros Q; apply Dy; split; auto). destruct (pos_dead Ry Ny Qy) as (E1 & E2 & _). destruct (@pos_el z Rz ltac:(lia)) as (E3 & E4). rewrite E4 in EG. rewrite EG in *. lia.
    + assert (Qz : rd P z <> -1) by (intros Q; apply Dz; split; auto). destruct (pos_dead Rz Nz Qz) as (E1 & E2 & _). destruct (@pos_el y Ry ltac:(lia)) as (E3 & E4). rewrite E4 in EG. rewrite <- EG in *. rewrite E4 in NC. lia.
    + destruct (@pos_el y Ry ltac:(lia)) as (_ & E4), (@pos_el z Rz ltac:(lia)) as (_ & E5). lia.
Qed.

Lemma place_ok Next0 : zlen Next0 = n -> (forall x, 0 <= x < n -> 0 < rd Nv x -> rd Next0 x = off (rd Order x)) ->
  wp (for_ 0 n (fun i '(Next, nel) =>
    let* nv := get Nv i in
    if nv =? 0 then
      let* e := get P i in
      if negb (e =? EMPTY) then
        let* x := get Next e in
        let* Next := set Next i x in
        let* Next := set Next e (x + 1) in Ok (Next, nel)
      else let* Next := set Next i nel in Ok (Next, nel + 1)
    else Ok (Next, nel)) (Next0, off K)) (fun '(Next, _) => zlen Next = n /\ forall x, 0 <= x < n -> rd Next x = pos x) nerr.
Proof.
  intros L0 N0.
  eapply wp_conseq; [apply wp_for with (I := fun i '(Next, nel) => zlen Next = n /\ nel = off K + cd i /\ (forall e, 0 <= e < n -> 0 < rd Nv e -> rd Next e = offs e + cm e i) /\ (forall y, 0 <= y < i -> rd Nv y = 0 -> rd Next y = pos y)); [lia| |]|].
  - split; [exact L0|]. split; [unfold cd; rewrite sumz_0 by lia; lia|]. split; [|intros; lia]. intros e He N. rewrite N0 by auto. unfold cm. rewrite sumz_0 by lia. unfold offs. lia.
  - intros i [Next nel] Hi (L & E & A & B). wg; [lia|]. pose proof (pt_nn T Hi). destruct (Z.eqb_spec (rd Nv i) 0) as [N|N].
    + wg; [lia|]. destruct (Z.eqb_spec (rd P i) EMPTY) as [Q|Q]; cbn [negb]; change EMPTY with (-1) in Q.
      * ws; [lia|]. cbn [wp]. rewrite zlen_wr. destruct (pos_dense Hi N Q) as (E1 & _ & E2). split; [exact L|]. split; [lia|]. split.
        -- intros e He Ne. rewrite rd_wr_ne by (try lia; intros ->; lia). rewrite A by auto. rewrite cm_S by lia. destruct (pt_de T Hi N) as [(_ & G)|(G & _)]; [|contradiction]. rewrite G, (proj2 (Z.eqb_neq (-1) e)), Bool.andb_false_r by lia. cbn. lia.
        -- intros y Hy Ny. destruct (Z.eq_dec y i) as [->|]; [rewrite rd_wr_eq by lia; lia|]. rewrite rd_wr_ne by lia. apply B; [lia|exact Ny].
      * destruct (pos_dead Hi N Q) as (E1 & _ & E2). destruct (pt_de T Hi N) as [(X & _)|(_ & G1 & G2 & _)]; [contradiction|]. rewrite (PG Hi N Q). set (e := grp i) in *. assert (Nei : e <> i) by (intros X; rewrite X in G2; lia). wg; [lia|]. ws; [lia|]. ws; [rewrite zlen_wr; lia|]. cbn [wp]. rewrite !zlen_wr.
        split; [exact L|]. split; [rewrite cd_S by lia; unfold dense; rewrite (proj2 (Z.eqb_neq _ _) Q), Bool.andb_false_r; cbn; lia|]. split.
        -- intros e' He Ne. destruct (Z.eq_dec e' e) as [->|Nx]; [rewrite rd_wr_eq by (rewrite zlen_wr; lia); rewrite A by auto; lia|]. rewrite !rd_wr_ne by (try lia; intros ->; lia). rewrite A by auto. rewrite cm_S by lia. fold e. rewrite (proj2 (Z.eqb_neq e e')), Bool.andb_false_r by lia. cbn. lia.
        -- intros y Hy Ny. assert (y <> e) by (intros ->; lia). rewrite rd_wr_ne by lia. destruct (Z.eq_dec y i) as [->|]; [rewrite rd_wr_eq by lia; rewrite A by auto; lia|]. rewrite rd_wr_ne by lia. apply B; [lia|exact Ny].
    + cbn [wp]. split; [exact L|]. rewrite cd_S by lia. unfold dense. rewrite (proj2 (Z.eqb_neq _ _) N). split; [cbn; lia|]. split.
      * intros e He Ne. rewrite A by auto. rewrite cm_S, (proj2 (Z.eqb_neq _ _) N) by lia. cbn. lia.
      * intros y Hy Ny. apply B; [|exact Ny]. assert (y <> i) by congruence. lia.
  - intros [Next nel] (L & _ & A & B). split; [exact L|]. intros x Hx. pose proof (pt_nn T Hx). destruct (Z.eq_dec (rd Nv x) 0) as [N|N]; [apply B; auto|]. unfold pos. rewrite (proj2 (Z.ltb_lt 0 (rd Nv x))) by lia. apply A; [exact Hx|lia].
Qed.
End Out.

Theorem output_ok n P Nv grp r Order : ptree n P Nv grp r -> zlen P = n -> zlen Nv = n -> 1 <= n -> (forall x, 0 <= x < n -> rd Nv x = 0 -> rd P x <> -1 -> rd P x = grp x) -> (exists K, numbering n Nv Order K) ->
  wp (a2_output n Nv P Order) (fun L => zlen L = n /\ is_perm n L) nerr.
Proof.
  intros T LP LN Hn PG (K & NUM). unfold a2_output. apply wp_bind. eapply wp_conseq; [apply (heads_ok Hn NUM)|]. intros Head (LH & H1 & H2). apply wp_bind. change 0 with (off Nv Head 0) at 2. pose proof NUM as (_ & HK & _).
  eapply wp_conseq; [eapply offsets_ok; [eassumption..|apply zlen_mk; lia|lia|lia|intros; lia]|].
  intros [Next nel] (L1 & -> & N1). apply wp_bind. eapply wp_conseq; [eapply place_ok; eassumption|]. intros [Next1 nel1] (L2 & N2).
  set (p := pos n P Nv grp Order K Head) in *.
  assert (PR : forall x, 0 <= x < n -> 0 <= p x < n) by (intros x Hx; eapply pos_rng; eassumption).
  assert (PI : forall x y, 0 <= x < n -> 0 <= y < n -> p x = p y -> x = y).
  { intros x y Hx Hy E. destruct (Z.lt_trichotomy x y) as [Q|[Q|Q]]; [|exact Q|]; exfalso; [refine (_ E)|refine (_ (eq_sym E))]; (eapply pos_lt; [eassumption..|lia|lia]). }
  eapply wp_conseq; [apply wp_for with (I := fun i L => zlen L = n /\ forall x, 0 <= x < i -> rd L (p x) = x); [lia| |]|].
  - rewrite zlen_mk by lia. split; [reflexivity|]. intros; lia.
  - intros i L Hi (L3 & H). wg; [lia|]. rewrite N2 by exact Hi. pose proof (PR i Hi). apply wp_set; [lia|]. rewrite zlen_wr. split; [exact L3|]. intros x Hx. destruct (Z.eq_dec x i) as [->|Nx]; [apply rd_wr_eq; lia|]. pose proof (PR x ltac:(lia)). rewrite rd_wr_ne; [apply H; lia|lia|lia|]. intros E. apply Nx. apply PI; auto; lia.
  - intros L (L3 & H). split; [exact L3|]. apply (@inj_perm n p L); auto. lia.
Qed.
