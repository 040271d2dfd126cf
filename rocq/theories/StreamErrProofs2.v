(** Streams with failing I/O: the invariant of the input streams. *)

From Coq Require Import List Arith Bool ZArith Lia Permutation.
From Verif Require Import WriterModel WriterProofs PrefetchModel PrefetchSpec ScheduleSpec PrefetchProofs
  PrefetchProofs2 PrefetchProofs3 PrefetchErrModel PrefetchErrSpec PrefetchErrProofs PrefetchErrProofs2
  PrefetchErrProps StreamModel StreamProofs StreamProofs2 StreamErrModel StreamErrSpec.
Import ListNotations.

Section IStream.
Context {R : Type}.
Variable B : nat.
Hypothesis HB : 1 <= B.
Local Notation block := (list R).

Lemma y_throws_app : forall (t1 t2 : list (ylabel block)), y_throws (t1 ++ t2) = y_throws t1 + y_throws t2.
Proof. induction t1 as [|[] t1 IH]; intros; cbn; auto. Qed.

Lemma y_handed_app : forall (t1 t2 : list (ylabel block)), y_handed (t1 ++ t2) = y_handed t1 ++ y_handed t2.
Proof. intros. unfold y_handed. apply flat_map_app. Qed.

Lemma yrun_app : forall (y2 : yst block) t2 y3, yrun y2 t2 y3 -> forall y1 t1, yrun y1 t1 y2 -> yrun y1 (t1 ++ t2) y3.
Proof.
  intros y2 t2 y3 H. induction H; intros.
  - rewrite app_nil_r; auto.
  - rewrite app_assoc. econstructor; eauto.
Qed.
Lemma yrun_front : forall (y1 : yst block) l y2 t y3, ystep y1 l y2 -> yrun y2 t y3 -> yrun y1 (l :: t) y3.
Proof. intros. eapply yrun_front_eq; eauto. Qed.
Lemma ysys_run : forall (y : yst block) t y', ysys y t y' -> yrun y t y'.
Proof. intros y t y' H. induction H; [constructor|]. eapply yrun_front; eauto. Qed.

Lemma called_sys : forall (y : yst block) l y', p_called l = false -> ystep y l y' -> y_sys l y y'.
Proof. intros y l y' C H. split; auto. destruct l as [[] | | | ]; cbn in C; auto; discriminate. Qed.

(** Nothing is handed out. *)
Definition still (l : ylabel block) : Prop := y_delivered [l] = [] /\ y_handed [l] = [].

Lemma ystep_facts : forall (y : yst block) l y', p_called l = false -> ystep y l y' ->
  (l = YThrow /\ exists b, p_pc (y_p y) = PGiven b /\ p_held (y_p y') = b :: p_held (y_p y) /\ p_pc (y_p y') = PIdle /\
     y_mem y' = y_mem y) \/
  (exists b k, l = YOk (FRet b (y_mem y b)) /\ p_pc (y_p y) = PWait k /\ p_held (y_p y') = b :: p_held (y_p y) /\
     p_pc (y_p y') = PIdle /\ y_mem y' = y_mem y) \/
  (p_held (y_p y') = p_held (y_p y) /\ still l /\ y_throws [l] = 0).
Proof.
  intros y l y' C H. inversion H; subst; yproj.
  - match goal with K : pcstep _ _ _ |- _ => inversion K; subst; discriminate end.
  - match goal with K : pistep _ _ _ _ |- _ => inversion K; subst end; cbn [y_see] in *; pproj; rewrite ?consumed_held;
      try (right; right; csplit; [auto|split; reflexivity|reflexivity]; fail).
    + right; right; csplit; [|split; reflexivity|reflexivity]. unfold ctor_body.
      destruct (nth_error (p_seq (y_p y)) i) as [k|]; [destruct (k <? p_len (y_p y))|]; auto.
    + right; left. exists b, k. csplit; auto.
  - right; right; csplit; [auto|split; reflexivity|reflexivity].
  - right; right; csplit; [auto|split; reflexivity|reflexivity].
  - right; right; csplit; [auto|split; reflexivity|reflexivity].
  - right; right; csplit; [auto|split; reflexivity|reflexivity].
  - left. split; auto. exists b. csplit; auto.
  - right; right; csplit; [auto|split; reflexivity|reflexivity].
Qed.

Lemma still_app : forall (l : ylabel block) t, still l -> y_delivered (l :: t) = y_delivered t /\ y_handed (l :: t) = y_handed t.
Proof.
  intros l t (S1 & S2). change (l :: t) with ([l] ++ t). rewrite y_delivered_app, y_handed_app, S1, S2. auto.
Qed.

Lemma idle_step : forall (y : yst block) l y', p_called l = false -> ystep y l y' -> p_pc (y_p y) = PIdle ->
  p_pc (y_p y') = PIdle /\ p_held (y_p y') = p_held (y_p y) /\ still l /\ y_throws [l] = 0.
Proof.
  intros y l y' C H P. destruct (ystep_facts _ _ _ C H) as [(_ & b & Q & _)|[(b & k & _ & Q & _)|(X1 & X2 & X3)]];
    try congruence. csplit; auto.
  inversion H; subst; yproj; pproj; auto; try congruence.
  - match goal with K : pcstep _ _ _ |- _ => inversion K; subst; pproj; auto; discriminate end.
  - match goal with K : pistep _ _ _ _ |- _ => inversion K; subst; congruence end.
Qed.

Lemma idle_ysys : forall (y : yst block) t y', ysys y t y' -> p_pc (y_p y) = PIdle -> p_pc (y_p y') = PIdle.
Proof.
  intros y t y' H. induction H; intros P; auto. apply IHysys. eapply idle_step; eauto.
Qed.

Lemma active_ysys : forall (y : yst block) t y', ysys y t y' -> p_pc (y_p y') <> PIdle ->
  p_held (y_p y') = p_held (y_p y) /\ y_delivered t = [] /\ y_handed t = [] /\ y_throws t = 0.
Proof.
  intros y t y' H. induction H; intros P; [csplit; auto|].
  destruct (IHysys P) as (X1 & X2 & X3 & X4).
  destruct (ystep_facts _ _ _ H H0) as [(_ & b & _ & _ & Q & _)|[(b & k & _ & _ & _ & Q & _)|(Y1 & Y2 & Y3)]].
  - exfalso. apply P. eapply idle_ysys; eauto.
  - exfalso. apply P. eapply idle_ysys; eauto.
  - destruct (still_app l t Y2) as (-> & ->). csplit; auto; [congruence|].
    change (l :: t) with ([l] ++ t). rewrite y_throws_app. lia.
Qed.

(** Before the constructor of the prefetcher is over nothing is handed out. *)
Lemma ctor_ysys : forall (y : yst block) t y', ysys y t y' ->
  (p_pc (y_p y) = PIdle \/ p_pc (y_p y) = PFail \/ exists i, p_pc (y_p y) = PCtor i) ->
  p_held (y_p y') = p_held (y_p y) /\ y_delivered t = [] /\ y_handed t = [] /\ y_throws t = 0.
Proof.
  intros y t y' H. induction H; intros P; [csplit; auto|].
  destruct (ystep_facts _ _ _ H H0) as [(_ & b & Q & _)|[(b & k & _ & Q & _)|(Y1 & Y2 & Y3)]];
    try (destruct P as [P|[P|(i & P)]]; congruence).
  assert (P' : p_pc (y_p y2) = PIdle \/ p_pc (y_p y2) = PFail \/ exists i, p_pc (y_p y2) = PCtor i).
  { inversion H0; subst; yproj; pproj; auto; try (destruct P as [P|[P|(i' & P)]]; congruence).
    - match goal with K : pcstep _ _ _ |- _ => inversion K; subst; pproj; auto; discriminate end.
    - match goal with K : pistep _ _ _ _ |- _ => inversion K; subst end; pproj;
        try (destruct P as [P|[P|(i' & P)]]; congruence); auto.
      unfold ctor_body. destruct (nth_error _ i) as [k|]; [destruct (k <? _)|]; pproj; eauto. }
  destruct (IHysys P') as (X1 & X2 & X3 & X4).
  destruct (still_app l t Y2) as (-> & ->). csplit; auto; [congruence|].
  change (l :: t) with ([l] ++ t). rewrite y_throws_app. lia.
Qed.

Variables (fwd : bool) (bids : list bid) (sq : list nat) (bufs : nat) (disk : bid -> block)
          (mem : nat -> option block) (y0 : yst block).
Hypothesis Hsq : all_blocks_once (length bids) sq.
Hypothesis H0 : y_init bids sq bufs disk mem = Some y0.
Hypothesis Hlen : forall d, In d bids -> length (disk d) = B.

Notation ord := (ord fwd).
Notation pos := (pos B fwd).
Notation data := (data fwd bids disk).

Lemma fails_stable : forall tr t y y' k, yrun y0 tr y -> yrun y0 (tr ++ t) y' ->
  k < length (y_delivered tr) -> ~ In k (y_fails tr) -> ~ In k (y_fails (tr ++ t)).
Proof.
  intros tr t y y' k R1 R2 L N Q.
  pose proof (yi_del _ _ _ _ _ _ (yrun_inv _ _ _ _ _ _ _ _ Hsq H0 R1) k L) as E1.
  assert (L2 : k < length (y_delivered (tr ++ t))) by (rewrite y_delivered_app, app_length; lia).
  pose proof (yi_del _ _ _ _ _ _ (yrun_inv _ _ _ _ _ _ _ _ Hsq H0 R2) k L2) as E2.
  rewrite y_delivered_app, nth_error_app1 in E2 by auto. rewrite E1 in E2.
  destruct (in_dec Nat.eq_dec k (y_fails tr)); [tauto|].
  destruct (in_dec Nat.eq_dec k (y_fails (tr ++ t))); [|tauto].
  inversion E2 as [E]. unfold content in E.
  pose proof (del_le _ _ _ _ _ _ Hsq H0 _ _ R1) as Lb.
  destruct (nth_error bids k) eqn:Eb; [discriminate|]. apply nth_error_None in Eb. lia.
Qed.

Lemma fails_range : forall tr y k, yrun y0 tr y -> In k (y_fails tr) -> k < length bids.
Proof.
  intros tr y k R1 Q. pose proof (yrun_inv _ _ _ _ _ _ _ _ Hsq H0 R1) as V.
  destruct (yi_fail _ _ _ _ _ _ V k Q) as (i & r & K1 & K2 & K3).
  destruct (yi_p _ _ _ _ _ _ V) as (btr & back & hs & [C P T]).
  pose proof (k_blk _ _ _ _ _ _ _ _ C) as Eb.
  assert (I : In (q_blk r) sq).
  { assert (I : In (q_blk r) (map q_blk (p_reqs (y_p y)))) by (apply in_map; eapply nth_error_In; eauto).
    rewrite Eb in I. clear - I. revert I. generalize (length (p_reqs (y_p y))). intros n.
    revert n. induction sq as [|z l IH]; intros [|n] I; cbn in I; try tauto. destruct I; cbn; eauto. }
  apply (Permutation_in _ Hsq) in I. apply in_seq in I. lia.
Qed.

Lemma ret_content : forall tr y b a y' c, yrun y0 tr y -> length (y_delivered tr) = c ->
  ystep y (YOk (FRet b a)) y' ->
  c < length bids /\
  (In c (y_fails tr) -> a = None) /\
  (~ In c (y_fails tr) -> exists blk, a = Some blk /\ length blk = B /\ nth_error data c = Some (ord blk)).
Proof.
  intros tr y b a y' c Rn L St.
  assert (Rn' : yrun y0 (tr ++ [YOk (FRet b a)]) y') by (econstructor; eauto).
  assert (Ed : y_delivered (tr ++ [YOk (FRet b a)]) = y_delivered tr ++ [a]) by (rewrite y_delivered_app; reflexivity).
  pose proof (del_le _ _ _ _ _ _ Hsq H0 _ _ Rn') as Lb. rewrite Ed, app_length, L in Lb. cbn in Lb.
  pose proof (yi_del _ _ _ _ _ _ (yrun_inv _ _ _ _ _ _ _ _ Hsq H0 Rn') c) as E.
  rewrite Ed, app_length, L in E. cbn [length] in E. specialize (E ltac:(lia)).
  rewrite nth_error_app2, L, Nat.sub_diag in E by lia. cbn [nth_error] in E.
  rewrite y_fails_app in E. cbn [y_fails] in E. rewrite app_nil_r in E. inversion E as [Ea].
  csplit; [lia| |].
  - intros Q. destruct (in_dec Nat.eq_dec c (y_fails tr)); tauto.
  - intros Q. destruct (in_dec Nat.eq_dec c (y_fails tr)); [tauto|].
    unfold content. destruct (nth_error bids c) as [d|] eqn:D; [|apply nth_error_None in D; lia].
    exists (disk d). cbn. csplit; auto.
    + apply Hlen. eapply nth_error_In; eauto.
    + unfold StreamProofs2.data. rewrite !nth_error_map, D. auto.
Qed.

Record JInv (out : list (option R)) (tr : list (ylabel block)) (j : jst R) : Prop := mkJInv {
  ji_run : yrun y0 tr (j_y j);
  ji_pc : p_pc (y_p (j_y j)) = PIdle;
  ji_more : j_more j = true ->
    p_held (y_p (j_y j)) = [j_cur j] /\ j_elem j < B /\
    exists c, length (y_delivered tr) = S c /\ c < length bids /\ nth_error (y_handed tr) c = Some (j_cur j) /\
      (forall k, k < c -> ~ In k (y_fails tr)) /\
      ((In c (y_fails tr) /\ y_mem (j_y j) (j_cur j) = None /\
        out = map Some (concat (firstn c data)) ++ repeat None (y_throws tr * B + pos (j_elem j))) \/
       (~ In c (y_fails tr) /\ y_throws tr = 0 /\ exists blk, y_mem (j_y j) (j_cur j) = Some blk /\
        length blk = B /\ nth_error data c = Some (ord blk) /\
        out = map Some (concat (firstn c data) ++ firstn (pos (j_elem j)) (ord blk))));
  ji_done : j_more j = false ->
    out = map Some (concat data) /\ y_fails tr = [] /\ y_throws tr = 0 /\ length (y_delivered tr) = length bids
}.

Lemma stuck_ysys : forall t y y' tr k b, ysys y t y' -> yrun y0 tr y -> In k (y_fails tr) ->
  nth_error (y_handed tr) k = Some b -> p_pc (y_p y) = PGiven b ->
  p_pc (y_p y') = PGiven b \/ p_pc (y_p y') = PIdle.
Proof.
  intros t y y' tr k b H. revert tr. induction H; intros tr Rn Hk Hb Hg; auto.
  destruct (C89_error_reported _ _ _ _ _ _ Hsq H0 _ _ _ _ Rn Hk Hb Hg _ _ (called_sys _ _ _ H H1)) as [E|(_ & E & _)].
  - apply (IHysys (tr ++ [l])); auto.
    + econstructor; eauto.
    + rewrite y_fails_app. apply in_or_app; auto.
    + rewrite y_handed_app, nth_error_app1; auto. apply nth_error_Some. congruence.
  - right. eapply idle_ysys; eauto.
Qed.

(** The block in the caller's hands was read if block_consumed() returns. *)
Lemma passed : forall tr y c b t y1 y2 l y3, yrun y0 tr y -> In c (y_fails tr) -> nth_error (y_handed tr) c = Some b ->
  ystep y (YOk (FGive b)) y1 -> ysys y1 t y2 -> ystep y2 (YOk l) y3 -> (exists b' a, l = FRet b' a) \/ l = FNone -> False.
Proof.
  intros tr y c b t y1 y2 l y3 Rn Hc Hb S1 S2 S3 Hl.
  assert (P1 : p_pc (y_p y1) = PGiven b).
  { inversion S1; subst; yproj.
    - match goal with K : pcstep _ _ _ |- _ => inversion K; subst; auto end.
    - destruct l0; try discriminate. match goal with K : pistep _ _ _ _ |- _ => inversion K end. }
  assert (Rn1 : yrun y0 (tr ++ [YOk (FGive b)]) y1) by (econstructor; eauto).
  assert (Hc1 : In c (y_fails (tr ++ [YOk (FGive b)]))) by (rewrite y_fails_app; apply in_or_app; auto).
  assert (Hb1 : nth_error (y_handed (tr ++ [YOk (FGive b)])) c = Some b).
  { rewrite y_handed_app, nth_error_app1; auto. apply nth_error_Some. congruence. }
  assert (Rn2 : yrun y0 ((tr ++ [YOk (FGive b)]) ++ t) y2) by (eapply yrun_app; [apply ysys_run|]; eauto).
  assert (Sy : y_sys (YOk l) y2 y3).
  { split; auto. destruct Hl as [(b' & a & ->)| ->]; auto. }
  destruct (stuck_ysys _ _ _ _ _ _ S2 Rn1 Hc1 Hb1 P1) as [E|E].
  - destruct (C89_error_reported _ _ _ _ _ _ Hsq H0 _ _ c b Rn2) with (l := YOk l) (y' := y3) as [Q|(Q & _)]; auto.
    + rewrite y_fails_app. apply in_or_app; auto.
    + rewrite y_handed_app, nth_error_app1; auto. apply nth_error_Some. congruence.
    + destruct (ystep_facts y2 (YOk l) y3) as [(Q1 & _)|[(b2 & k & _ & Q1 & _)|(_ & _ & _)]]; auto; try congruence.
      { destruct Hl as [(b' & a & ->)| ->]; auto. }
      inversion S3; subst; yproj.
      * match goal with K : pcstep _ _ _ |- _ => destruct Hl as [(? & ? & ->)| ->]; inversion K end.
      * match goal with K : pistep _ _ _ ?s' |- _ => destruct Hl as [(? & ? & Hl)|Hl]; destruct l0; try discriminate;
          inversion K; subst; pproj; congruence end.
      * destruct Hl as [(? & ? & Q2)|Q2]; discriminate.
      * destruct Hl as [(? & ? & Q2)|Q2]; discriminate.
      * destruct Hl as [(? & ? & Q2)|Q2]; discriminate.
    + discriminate.
  - destruct (idle_step y2 (YOk l) y3) as (_ & _ & (Q1 & Q2) & _); auto.
    { destruct Hl as [(b' & a & ->)| ->]; auto. }
    destruct Hl as [(b' & a & ->)| ->]; [discriminate|].
    inversion S3; subst; yproj.
    + match goal with K : pcstep _ _ _ |- _ => inversion K end.
    + destruct l; try discriminate. match goal with K : pistep _ _ _ _ |- _ => inversion K; subst; congruence end.
Qed.

Lemma given_mem : forall tr y k b l y', yrun y0 tr y -> In k (y_fails tr) ->
  nth_error (y_handed tr) k = Some b -> p_pc (y_p y) = PGiven b -> y_sys l y y' -> y_mem y' b = y_mem y b.
Proof.
  intros tr y k b l y' Rn Hk Hb Hpc (St & N).
  pose proof (yrun_inv _ _ _ _ _ _ _ _ Hsq H0 Rn) as V.
  destruct (yi_p _ _ _ _ _ _ V) as (btr & back & hs & [C P T']).
  destruct (handed_inv _ _ _ _ _ _ Hsq H0 _ _ Rn) as (_ & Hh). destruct (Hh _ _ Hb) as (j & r & E1 & E2 & E3).
  pose proof (Hn _ _ _ _ _ _ H0) as Hn.
  destruct (yi_fail _ _ _ _ _ _ V k Hk) as (i & r' & F1 & F2 & F3).
  assert (i = j) by (eapply (blk_inj _ _ _ _ Hsq Hn); eauto; congruence). subst i.
  assert (r' = r) by congruence. subst r'.
  destruct (yi_bad _ _ _ _ _ _ V j F1) as (x & G1 & G2 & _ & G4). assert (x = r) by congruence. subst x.
  rewrite E3 in G4.
  assert (F : y_failed y b = true) by (eapply in_failed; eauto).
  assert (X : forall i r0, nth_error (p_reqs (y_p y)) i = Some r0 -> q_ph r0 = RPosted -> b <> q_buf r0).
  { intros i r0 Hi Hp Q. destruct (k_fin _ _ _ _ _ _ _ _ C i r0 Hi) as (K & _); [congruence|].
    rewrite <- Q, G4 in K. inversion K; subst i. congruence. }
  inversion St; subst; unfold y_mem; yproj; pproj; auto.
  - match goal with K : pcstep _ _ _ |- _ => inversion K; subst; destruct N end.
  - match goal with K : wait_ok _ |- _ => specialize (K (q_buf r) (or_introl Hpc)) end. congruence.
  - rewrite !updn_other by eauto. auto.
  - rewrite !updn_other by eauto. auto.
Qed.

Lemma given_mem_sys : forall t y y' tr k b, ysys y t y' -> yrun y0 tr y -> In k (y_fails tr) ->
  nth_error (y_handed tr) k = Some b -> p_pc (y_p y) = PGiven b -> p_pc (y_p y') = PGiven b ->
  y_mem y' b = y_mem y b.
Proof.
  intros t y y' tr k b H. revert tr. induction H; intros tr Rn Hk Hb Hg Hg'; auto.
  destruct (C89_error_reported _ _ _ _ _ _ Hsq H0 _ _ _ _ Rn Hk Hb Hg _ _ (called_sys _ _ _ H H1)) as [E|(_ & E & _)].
  - rewrite (IHysys (tr ++ [l])); auto.
    + apply (given_mem tr _ k b l); auto. apply called_sys; auto.
    + econstructor; eauto.
    + rewrite y_fails_app. apply in_or_app; auto.
    + rewrite y_handed_app, nth_error_app1; auto. apply nth_error_Some. congruence.
  - exfalso. pose proof (idle_ysys _ _ _ H2 E). congruence.
Qed.

Lemma give_held : forall (y : yst block) b y1, ystep y (YOk (FGive b)) y1 -> p_held (y_p y) = [b] ->
  p_held (y_p y1) = [] /\ p_pc (y_p y1) = PGiven b.
Proof.
  intros y b y1 S1 E. inversion S1; subst; yproj.
  - match goal with K : pcstep _ _ _ |- _ => inversion K; subst; pproj end.
    match goal with K : p_held _ = ?h1 ++ _ :: _ |- _ => rewrite E in K; destruct h1 as [|z h1]; cbn in K; inversion K; auto; destruct h1; discriminate end.
  - destruct l; try discriminate. match goal with K : pistep _ _ _ _ |- _ => inversion K end.
Qed.

Lemma give_mem : forall (y : yst block) b y1, ystep y (YOk (FGive b)) y1 -> y_mem y1 = y_mem y.
Proof.
  intros y b y1 S1. inversion S1; subst; yproj.
  - match goal with K : pcstep _ _ _ |- _ => inversion K; subst; auto end.
  - destruct l; try discriminate. match goal with K : pistep _ _ _ _ |- _ => inversion K end.
Qed.

Lemma repeat_snoc : forall (x : option R) n, repeat x n ++ [x] = repeat x (S n).
Proof. intros x n. induction n; auto. cbn [repeat app]. rewrite IHn. auto. Qed.

Lemma jrun_inv : forall out tr j, jrun B fwd y0 out tr j -> JInv out tr j.
Proof.
  intros out tr j H. destruct (first_pos B HB fwd) as (FP & FE). induction H.
  - (* constructor *)
    assert (Pc0 : p_pc (y_p y0) = PCtor 0 /\ p_held (y_p y0) = []).
    { clear - H0. unfold y_init, p_init in H0. destruct (length bids), bufs; inversion H0; auto. }
    destruct Pc0 as (Pc0 & Hh0).
    destruct (ctor_ysys _ _ _ H) as (Hh1 & D1 & A1 & T1); [eauto|].
    assert (E2 : p_held (y_p y2) = p_held (y_p y1)).
    { inversion H1; subst; yproj.
      - match goal with K : pcstep _ _ _ |- _ => inversion K; subst; auto end.
      - destruct l; try discriminate. match goal with K : pistep _ _ _ _ |- _ => inversion K end. }
    destruct (ystep_facts _ _ _ (eq_refl : p_called (YOk (FRet b a)) = false) H3)
      as [(Q & _)|[(b' & k & Eb & Ek & Hh4 & Ei4 & M4)|(_ & (Q & _) & _)]]; try discriminate.
    inversion Eb; subst b' a. clear Eb.
    destruct (active_ysys _ _ _ H2) as (Hh3 & D3 & A3 & T3); [congruence|].
    assert (Rn3 : yrun y0 (t1 ++ YOk FPull :: t2) y3).
    { eapply yrun_app; [|apply ysys_run; eauto]. eapply yrun_front; eauto. apply ysys_run; auto. }
    assert (Et : t1 ++ YOk FPull :: t2 ++ [YOk (FRet b (y_mem y3 b))] = (t1 ++ YOk FPull :: t2) ++ [YOk (FRet b (y_mem y3 b))])
      by (rewrite <- app_assoc; reflexivity).
    assert (Ed : y_delivered (t1 ++ YOk FPull :: t2) = []).
    { rewrite y_delivered_app, D1. exact D3. }
    assert (Ah : y_handed (t1 ++ YOk FPull :: t2) = []).
    { rewrite y_handed_app, A1. exact A3. }
    assert (Tt : y_throws (t1 ++ YOk FPull :: t2) = 0) by (rewrite y_throws_app, T1; exact T3).
    destruct (ret_content _ _ _ _ _ 0 Rn3 ltac:(rewrite Ed; auto) H3) as (Lc & C1 & C2).
    rewrite Et.
    constructor; cbn [j_y j_cur j_elem j_more]; auto; [econstructor; eauto| |discriminate].
    intros _. csplit; auto.
    + rewrite Hh4, Hh3, E2, Hh1, Hh0. auto.
    + exists 0. csplit; auto.
      * rewrite y_delivered_app, Ed. auto.
      * rewrite y_handed_app, Ah. auto.
      * intros k0 Hk0. lia.
      * rewrite y_fails_app, y_throws_app, Tt. cbn [y_fails y_throws]. rewrite app_nil_r, FP, M4.
        destruct (in_dec Nat.eq_dec 0 (y_fails (t1 ++ YOk FPull :: t2))) as [Q|Q].
        -- left. csplit; auto.
        -- right. destruct (C2 Q) as (blk & X1 & X2 & X3). csplit; auto. exists blk. csplit; auto.
  - (* I/O *)
    destruct IHjrun. destruct (idle_step _ _ _ H1 H2 ji_pc0) as (P' & Hh' & (S1 & S2) & T').
    assert (Rn' : yrun y0 (tr ++ [l]) y') by (econstructor; eauto).
    assert (Ed : y_delivered (tr ++ [l]) = y_delivered tr) by (rewrite y_delivered_app, S1, app_nil_r; auto).
    assert (Ah : y_handed (tr ++ [l]) = y_handed tr) by (rewrite y_handed_app, S2, app_nil_r; auto).
    assert (Tt : y_throws (tr ++ [l]) = y_throws tr) by (rewrite y_throws_app; lia).
    constructor; cbn [j_y j_cur j_elem j_more]; auto; rewrite ?Ed, ?Ah, ?Tt.
    + intros M. destruct (ji_more0 M) as (X1 & X2 & c & X3 & X4 & X5 & X6 & X7).
      assert (Mm : y_mem y' (j_cur j) = y_mem (j_y j) (j_cur j)).
      { eapply (C89_held_buffers_untouched _ _ _ _ _ _ Hsq H0); eauto; [apply called_sys; eauto|]. rewrite X1. cbn; auto. }
      rewrite Mm. csplit; auto; [congruence|]. exists c. csplit; auto.
      * intros k Hk. eapply fails_stable; eauto. lia.
      * destruct X7 as [(Y1 & Y2 & Y3)|(Y1 & Y2)].
        -- left. csplit; auto. rewrite y_fails_app. apply in_or_app; auto.
        -- right. split; auto. eapply fails_stable; eauto. lia.
    + intros M. destruct (ji_done0 M) as (X1 & X2 & X3 & X4). csplit; auto.
      destruct (y_fails (tr ++ [l])) as [|k ks] eqn:E; auto. exfalso.
      assert (Q : In k (y_fails (tr ++ [l]))) by (rewrite E; cbn; auto).
      pose proof (fails_range _ _ _ Rn' Q) as Lk. revert Q. eapply fails_stable; eauto; [lia|]. rewrite X2. auto.
  - (* a record of the block *)
    destruct IHjrun. destruct (ji_more0 H1) as (X1 & X2 & c & X3 & X4 & X5 & X6 & X7).
    destruct (next_pos B HB fwd _ X2 H2) as (NP & NL).
    constructor; cbn [j_y j_cur j_elem j_more]; auto; [|discriminate].
    intros _. csplit; auto. exists c. csplit; auto. unfold record_at.
    destruct X7 as [(Y1 & Y2 & Y3)|(Y1 & Y2 & blk & Y3 & Y4 & Y5 & Y6)].
    + left. csplit; auto. rewrite Y2, Y3, <- app_assoc, NP. f_equal.
      rewrite Nat.add_succ_r. apply repeat_snoc.
    + right. csplit; auto. exists blk. csplit; auto. rewrite Y3.
      destruct (nth_error blk (j_elem j)) as [r|] eqn:En; [|apply nth_error_None in En; lia].
      rewrite Y6, NP. rewrite <- (get_last B HB fwd blk _ r) by auto.
      rewrite app_assoc, (map_app _ (_ ++ _)). auto.
  - (* the last record of a block, another block follows *)
    destruct IHjrun. destruct (ji_more0 H1) as (X1 & X2 & c & X3 & X4 & X5 & X6 & X7).
    pose proof (done_pos B HB fwd _ X2 H2) as NP.
    destruct X7 as [(Y1 & _)|(Y1 & Y2 & blk & Y3 & Y4 & Y5 & Y6)].
    { exfalso. eapply passed; eauto. }
    destruct (give_held _ _ _ H3 X1) as (Hh1 & Pg).
    destruct (ystep_facts _ _ _ (eq_refl : p_called (YOk (FRet b a)) = false) H5)
      as [(Q & _)|[(b' & k & Eb & Ek & Hh4 & Ei4 & M4)|(_ & (Q & _) & _)]]; try discriminate.
    inversion Eb; subst b' a. clear Eb.
    destruct (active_ysys _ _ _ H4) as (Hh3 & D3 & A3 & T3); [congruence|].
    assert (Rn3 : yrun y0 (tr ++ YOk (FGive (j_cur j)) :: t) y2).
    { eapply yrun_app; [|eauto]. eapply yrun_front; eauto. apply ysys_run; auto. }
    assert (Et : tr ++ YOk (FGive (j_cur j)) :: t ++ [YOk (FRet b (y_mem y2 b))] = (tr ++ YOk (FGive (j_cur j)) :: t) ++ [YOk (FRet b (y_mem y2 b))])
      by (rewrite <- app_assoc; reflexivity).
    assert (Ed : y_delivered (tr ++ YOk (FGive (j_cur j)) :: t) = y_delivered tr).
    { rewrite y_delivered_app. change (y_delivered tr ++ y_delivered t = y_delivered tr). rewrite D3. apply app_nil_r. }
    assert (Ah : y_handed (tr ++ YOk (FGive (j_cur j)) :: t) = y_handed tr).
    { rewrite y_handed_app. change (y_handed tr ++ y_handed t = y_handed tr). rewrite A3. apply app_nil_r. }
    assert (Tt : y_throws (tr ++ YOk (FGive (j_cur j)) :: t) = 0).
    { rewrite y_throws_app, Y2. exact T3. }
    destruct (ret_content _ _ _ _ _ (S c) Rn3 ltac:(rewrite Ed; auto) H5) as (Lc & C1 & C2).
    assert (Lh : length (y_handed tr) = S c).
    { destruct (handed_inv _ _ _ _ _ _ Hsq H0 _ _ ji_run0) as (E & _). congruence. }
    rewrite Et.
    constructor; cbn [j_y j_cur j_elem j_more]; auto; [econstructor; eauto| |discriminate].
    intros _. csplit; auto.
    + rewrite Hh4, Hh3, Hh1. auto.
    + exists (S c). rewrite y_delivered_app, y_handed_app, y_fails_app, y_throws_app, Ed, Ah, Tt.
      cbn [y_fails y_throws]. rewrite app_nil_r, FP, M4. csplit; auto.
      * rewrite app_length, X3. cbn. lia.
      * rewrite nth_error_app2, Lh, Nat.sub_diag by lia. auto.
      * intros k0 Hk0. eapply fails_stable; eauto; [lia|].
        destruct (Nat.eq_dec k0 c) as [->|]; auto. apply X6. lia.
      * assert (Eo : out ++ [record_at (j_y j) (j_cur j) (j_elem j)] = map Some (concat (firstn (S c) data))).
        { unfold record_at. rewrite Y3.
          destruct (nth_error blk (j_elem j)) as [r|] eqn:En; [|apply nth_error_None in En; lia].
          rewrite (firstn_snoc _ _ _ Y5), concat_app. cbn [concat]. rewrite app_nil_r, Y6.
          change [Some r] with (map Some [r]). rewrite <- map_app, <- app_assoc. f_equal. f_equal.
          rewrite (get_last B HB fwd blk) by auto. rewrite NP. apply firstn_all2. rewrite ord_len. lia. }
        destruct (in_dec Nat.eq_dec (S c) (y_fails (tr ++ YOk (FGive (j_cur j)) :: t))) as [Q|Q].
        -- left. csplit; auto. rewrite Eo. cbn. rewrite app_nil_r. auto.
        -- right. destruct (C2 Q) as (blk' & Z1 & Z2 & Z3). csplit; auto. exists blk'. csplit; auto.
           rewrite Eo, firstn_O, app_nil_r. auto.
  - (* the last record *)
    destruct IHjrun. destruct (ji_more0 H1) as (X1 & X2 & c & X3 & X4 & X5 & X6 & X7).
    pose proof (done_pos B HB fwd _ X2 H2) as NP.
    destruct X7 as [(Y1 & _)|(Y1 & Y2 & blk & Y3 & Y4 & Y5 & Y6)].
    { exfalso. eapply passed; eauto. }
    assert (Ei : p_pc (y_p y3) = PIdle /\ exists b, p_pc (y_p y2) = PGiven b).
    { inversion H5; subst; yproj.
      - match goal with K : pcstep _ _ _ |- _ => inversion K end.
      - destruct l; try discriminate. match goal with K : pistep _ _ _ _ |- _ => inversion K; subst; pproj; eauto end. }
    destruct Ei as (Ei & b & Eb).
    destruct (active_ysys _ _ _ H4) as (Hh3 & D3 & A3 & T3); [congruence|].
    assert (Rn3 : yrun y0 (tr ++ YOk (FGive (j_cur j)) :: t) y2).
    { eapply yrun_app; [|eauto]. eapply yrun_front; eauto. apply ysys_run; auto. }
    assert (Et : tr ++ YOk (FGive (j_cur j)) :: t ++ [YOk FNone] = (tr ++ YOk (FGive (j_cur j)) :: t) ++ [YOk FNone])
      by (rewrite <- app_assoc; reflexivity).
    assert (Ed : y_delivered (tr ++ YOk (FGive (j_cur j)) :: t) = y_delivered tr).
    { rewrite y_delivered_app. change (y_delivered tr ++ y_delivered t = y_delivered tr). rewrite D3. apply app_nil_r. }
    assert (Rn4 : yrun y0 ((tr ++ YOk (FGive (j_cur j)) :: t) ++ [YOk FNone]) y3) by (econstructor; eauto).
    pose proof (C89_complete _ _ _ _ _ _ Hsq H0 _ _ Rn4) as Cm. rewrite Ed in Cm.
    apply (f_equal (@length _)) in Cm. unfold readable in Cm. rewrite map_length, seq_length, X3 in Cm.
    rewrite Et.
    constructor; cbn [j_y j_cur j_elem j_more]; auto; [discriminate|].
    intros _. rewrite y_delivered_app, y_fails_app, y_throws_app, Ed. cbn [y_fails y_throws]. rewrite app_nil_r. csplit.
    + unfold record_at. rewrite Y3.
      destruct (nth_error blk (j_elem j)) as [r|] eqn:En; [|apply nth_error_None in En; lia].
      assert (Ef : data = firstn (S c) data).
      { rewrite firstn_all2; auto. unfold StreamProofs2.data. rewrite !map_length. lia. }
      rewrite Ef, (firstn_snoc _ _ _ Y5), concat_app. cbn [concat]. rewrite app_nil_r, Y6.
      change [Some r] with (map Some [r]). rewrite <- map_app, <- app_assoc. f_equal. f_equal.
      rewrite (get_last B HB fwd blk) by auto. rewrite NP. apply firstn_all2. rewrite ord_len. lia.
    + destruct (y_fails (tr ++ YOk (FGive (j_cur j)) :: t)) as [|k ks] eqn:E; auto. exfalso.
      assert (Q : In k (y_fails (tr ++ YOk (FGive (j_cur j)) :: t))) by (rewrite E; cbn; auto).
      pose proof (fails_range _ _ _ Rn3 Q) as Lk. revert Q. eapply fails_stable; eauto; [lia|].
      destruct (Nat.eq_dec k c) as [->|]; auto. apply X6. lia.
    + rewrite y_throws_app, Y2. change (y_throws t + 0 = 0). lia.
    + rewrite app_length, X3. cbn. lia.
  - (* block_consumed() throws *)
    destruct IHjrun. destruct (ji_more0 H1) as (X1 & X2 & c & X3 & X4 & X5 & X6 & X7).
    pose proof (done_pos B HB fwd _ X2 H2) as NP.
    destruct (give_held _ _ _ H3 X1) as (Hh1 & Pg).
    destruct (ystep_facts _ _ _ (eq_refl : p_called (YThrow (A := block)) = false) H5)
      as [(_ & b & Gb & Hh4 & Ei4 & M4)|[(b' & k & Eb & _)|(_ & _ & Q)]]; try discriminate.
    destruct (active_ysys _ _ _ H4) as (Hh3 & D3 & A3 & T3); [congruence|].
    assert (Rn3 : yrun y0 (tr ++ YOk (FGive (j_cur j)) :: t) y2).
    { eapply yrun_app; [|eauto]. eapply yrun_front; eauto. apply ysys_run; auto. }
    assert (Et : tr ++ YOk (FGive (j_cur j)) :: t ++ [YThrow] = (tr ++ YOk (FGive (j_cur j)) :: t) ++ [YThrow])
      by (rewrite <- app_assoc; reflexivity).
    assert (Ed : y_delivered (tr ++ YOk (FGive (j_cur j)) :: t) = y_delivered tr).
    { rewrite y_delivered_app. change (y_delivered tr ++ y_delivered t = y_delivered tr). rewrite D3. apply app_nil_r. }
    assert (Ah : y_handed (tr ++ YOk (FGive (j_cur j)) :: t) = y_handed tr).
    { rewrite y_handed_app. change (y_handed tr ++ y_handed t = y_handed tr). rewrite A3. apply app_nil_r. }
    assert (Tt : y_throws (tr ++ YOk (FGive (j_cur j)) :: t) = y_throws tr).
    { rewrite y_throws_app. change (y_throws tr + y_throws t = y_throws tr). lia. }
    assert (Lh : length (y_handed tr) = S c).
    { destruct (handed_inv _ _ _ _ _ _ Hsq H0 _ _ ji_run0) as (E & _). congruence. }
    destruct (C89_throw_only_after_failure _ _ _ _ _ _ Hsq H0 _ _ _ Rn3 H5) as (b2 & k & Gb2 & Fk & Hk).
    rewrite Ah in Hk.
    assert (Lk : k < S c) by (rewrite <- Lh; apply nth_error_Some; congruence).
    assert (Ns : forall k, k < S c -> ~ In k (y_fails tr) -> ~ In k (y_fails (tr ++ YOk (FGive (j_cur j)) :: t))).
    { intros k' Hk' Nk'. eapply fails_stable; eauto. lia. }
    assert (k = c).
    { destruct (Nat.eq_dec k c) as [|N]; auto. exfalso. apply (Ns k Lk); auto. apply X6. lia. }
    subst k.
    destruct X7 as [(Y1 & Y2 & Y3)|(Y1 & _)]; [|exfalso; apply (Ns c); auto].
    assert (b2 = j_cur j) by congruence. assert (b = j_cur j) by congruence. subst b b2.
    rewrite Et.
    constructor; cbn [j_y j_cur j_elem j_more]; auto; [econstructor; eauto| |discriminate].
    intros _. csplit; auto.
    + rewrite Hh4, Hh3, Hh1. auto.
    + exists c. rewrite y_delivered_app, y_handed_app, y_fails_app, y_throws_app, Ed, Ah, Tt.
      cbn [y_fails y_throws]. rewrite !app_nil_r, FP.
      csplit; auto.
      * left. csplit; auto.
        -- rewrite M4.
           assert (Rn1 : yrun y0 (tr ++ [YOk (FGive (j_cur j))]) y1) by (econstructor; eauto).
           rewrite (given_mem_sys _ _ _ (tr ++ [YOk (FGive (j_cur j))]) c (j_cur j) H4); auto.
           ++ rewrite (give_mem _ _ _ H3). auto.
           ++ rewrite y_fails_app. apply in_or_app; auto.
           ++ rewrite y_handed_app, nth_error_app1; auto. apply nth_error_Some. congruence.
        -- unfold record_at. rewrite Y2, Y3, <- app_assoc. f_equal. rewrite repeat_snoc. f_equal. nia.
Qed.

End IStream.
