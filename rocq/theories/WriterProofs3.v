(** Buffered writer: progress, blocking, runs. *)

From Coq Require Import List Arith Bool ZArith Lia Permutation.
From Verif Require Import WriterModel WriterSpec WriterProofs WriterProofs2.
Import ListNotations.

Ltac proj := cbn [w_n w_bs w_mem w_bids w_wreqs w_free w_busy w_batch w_reqs w_disk w_pc w_held
                  set_pc set_held post push_batch poll_hit return_buf flush_end] in *.

Lemma wrun_app : forall {A} (s1 s2 s3 : wst A) t1 t2,
  wrun s1 t1 s2 -> wrun s2 t2 s3 -> wrun s1 (t1 ++ t2) s3.
Proof.
  intros A s1 s2 s3 t1 t2 R1 R2. induction R2.
  - rewrite app_nil_r; auto.
  - rewrite app_assoc. econstructor; eauto.
Qed.

Lemma wrun_one : forall {A} (s s' : wst A) l, wstep s l s' -> wrun s [l] s'.
Proof. intros. change [l] with ([] ++ [l]). econstructor; [constructor|auto]. Qed.

Lemma wrun_front : forall {A} (s1 s2 s3 : wst A) l tr,
  wstep s1 l s2 -> wrun s2 tr s3 -> wrun s1 (l :: tr) s3.
Proof. intros. change (l :: tr) with ([l] ++ tr). eapply wrun_app; eauto. apply wrun_one; auto. Qed.

(** ** Termination of calls *)

Definition pw (r : wreq) : nat :=
  match r_ph r with Posted => 2 | Served => 1 | Ready => 0 end.

Fixpoint phase_weight (l : list wreq) : nat :=
  match l with [] => 0 | r :: l' => pw r + phase_weight l' end.

Definition rank (pc : wpc) (busy : nat) : nat :=
  match pc with
  | Idle => 0 | Dead => 0
  | GTake => 1
  | GPoll k => (busy - k) + 2
  | WPush _ _ => busy + 7
  | WFlush _ _ => busy + 8
  | FFlush => busy + 3
  | FWait l => length l + 1
  | DFlush => busy + 3
  | DWait l => length l + 1
  end.

Definition mu {A} (s : wst A) : nat :=
  4 * length (w_batch s) + phase_weight (w_reqs s) + rank (w_pc s) (length (w_busy s)).

Lemma weight_set : forall l i r r', nth_error l i = Some r ->
  phase_weight (set_nth i r' l) + pw r = phase_weight l + pw r'.
Proof.
  induction l; destruct i; intros r r' H; cbn in *; try discriminate.
  - inversion H; subst. lia.
  - specialize (IHl i r r' H). lia.
Qed.

Lemma weight_app : forall l1 l2, phase_weight (l1 ++ l2) = phase_weight l1 + phase_weight l2.
Proof. induction l1; cbn; intros; auto. rewrite IHl1. lia. Qed.

Lemma removed_length : forall {B} (l : list B) k b, nth_error l k = Some b ->
  S (length (firstn k l ++ skipn (S k) l)) = length l.
Proof.
  intros B l k b H. pose proof (Permutation_length (firstn_skipn_perm l k b H)) as P. cbn [length] in P. lia.
Qed.

Lemma mu_decreases : forall {A} (s : wst A) l s', sstep s l s' -> mu s' < mu s.
Proof.
  intros A s l s' [H|H].
  - assert (Post : forall x z rest, top_of (w_batch s) z x rest ->
        (exists b d, w_pc s = WFlush b d) \/ w_pc s = FFlush \/ w_pc s = DFlush ->
        mu (post s x rest) < mu s).
    { intros x z rest (l1 & l2 & E & -> & _) P. unfold mu. proj. rewrite E.
      rewrite weight_app. rewrite !app_length. cbn [length phase_weight pw r_ph].
      destruct P as [(b & d & ->)|[-> | ->]]; cbn [rank]; lia. }
    inversion H; subst; try (eapply Post; eauto; fail);
      unfold mu; proj; rewrite ?H0; cbn [rank].
    + lia.
    + cbn [length]. rewrite Nat.sub_0_r. lia.
    + pose proof (removed_length _ _ _ H1).
      assert (k < length (w_busy s)) by (apply nth_error_Some; congruence). lia.
    + assert (k < length (w_busy s)) by (apply nth_error_Some; congruence). lia.
    + lia.
    + lia.
    + lia.
    + lia.
    + cbn [length]. lia.
    + lia.
    + lia.
    + cbn [length]. lia.
    + lia.
  - inversion H; subst; unfold mu; proj;
    pose proof (weight_set _ _ _ (MkReq (r_buf r) (r_bid r) Served) H0) as W1;
    pose proof (weight_set _ _ _ (MkReq (r_buf r) (r_bid r) Ready) H0) as W2;
    unfold pw in W1, W2; cbn [r_ph] in W1, W2; rewrite H1 in W1, W2; lia.
Qed.

Lemma min_entry : forall batch : list (Z * nat), batch <> [] ->
  exists z b rest, top_of batch z b rest.
Proof.
  induction batch as [|(z0, b0) l IH]; intros H; [congruence|].
  destruct l as [|e l'].
  - exists z0, b0, []. exists [], []. csplit; auto. intros ? ? [].
  - destruct IH as (z & b & rest & l1 & l2 & E & -> & Hm); [discriminate|].
    rewrite E. destruct (Z_le_gt_dec z0 z).
    + exists z0, b0, (l1 ++ (z, b) :: l2). exists [], (l1 ++ (z, b) :: l2). csplit; auto.
      intros z' b' H'. apply in_app_or in H'. destruct H' as [H'|[H'|H']].
      * assert (z <= z')%Z by (eapply Hm; apply in_or_app; left; eauto). lia.
      * inversion H'; lia.
      * assert (z <= z')%Z by (eapply Hm; apply in_or_app; right; eauto). lia.
    + exists z, b, ((z0, b0) :: l1 ++ l2). exists ((z0, b0) :: l1), l2. csplit; auto.
      cbn. intros z' b' [H'|H']; [inversion H'; lia|eauto].
Qed.

Lemma phase_dec : forall l : list wreq,
  (forall r, In r l -> r_ph r = Ready) \/ exists i r, nth_error l i = Some r /\ r_ph r <> Ready.
Proof.
  induction l as [|r l IH]; [left; intros ? []|].
  destruct IH as [IH|(i & r' & H & P)]; [|right; exists (S i), r'; auto].
  destruct (r_ph r) eqn:E.
  - right; exists 0, r; cbn; split; auto; congruence.
  - right; exists 0, r; cbn; split; auto; congruence.
  - left; intros r' [->|H]; auto.
Qed.

(** Either something can happen, or the call is over, or all buffers sit in
    the batch (or with the caller). *)
Lemma progress : forall {A} n bs disk0 tr (s : wst A) limbo, Inv n bs disk0 tr s limbo ->
  w_pc s = Idle \/ w_pc s = Dead \/ (exists l s', sstep s l s') \/
  (w_pc s = GTake /\ w_free s = [] /\ w_busy s = []).
Proof.
  intros A n bs disk0 tr s limbo V.
  destruct (phase_dec (w_reqs s)) as [AR|(i & r & H & P)].
  2:{ right; right; left. destruct (r_ph r) eqn:E; [| |congruence].
      - eexists; eexists; right; eapply EServe; eauto.
      - eexists; eexists; right; eapply EReady; eauto. }
  assert (Rd : forall b, w_wreqs s b <> None -> is_ready s b = Some true).
  { intros b Hb. unfold is_ready, ready. destruct (w_wreqs s b) as [i|] eqn:E; [|congruence].
    destruct (v_own _ _ _ _ _ _ V b i E) as (r & H & _). rewrite H.
    rewrite AR; auto. eapply nth_error_In; eauto. }
  assert (Mr : forall b, may_reuse s b = true).
  { intros b. unfold may_reuse. specialize (Rd b). unfold is_ready in Rd.
    destruct (w_wreqs s b); auto. assert (Q : Some (ready s n0) = Some true) by (apply Rd; discriminate).
    inversion Q; auto. }
  assert (Bs : forall b, In b (w_busy s) -> is_ready s b = Some true).
  { intros b Hb. apply Rd. apply (v_busy _ _ _ _ _ _ V); auto. }
  destruct (w_pc s) as [ |b d|b d|k| | |l| |l| ] eqn:E; auto.
  - right; right; left. destruct (w_batch s) as [|e l] eqn:Eb.
    + eexists; eexists; left; eapply IWFlushEnd; eauto.
    + destruct (min_entry (w_batch s)) as (z & x & rest & T); [congruence|].
      eexists; eexists; left; eapply IWFlush; eauto.
  - right; right; left. eexists; eexists; left; eapply IWPush; eauto.
  - right; right; left. destruct (nth_error (w_busy s) k) as [b|] eqn:Ek.
    + eexists; eexists; left; eapply IPollHit; eauto. apply Bs. eapply nth_error_In; eauto.
    + apply nth_error_None in Ek. eexists; eexists; left; eapply IPollEnd; eauto.
  - destruct (w_free s) as [|x l] eqn:Ef.
    + destruct (w_busy s) as [|b l] eqn:Eb.
      * right; right; right. auto.
      * right; right; left. eexists; eexists; left. eapply ITakeAny with (k := 0); eauto.
        -- rewrite Eb; reflexivity.
        -- apply Bs. cbn; auto.
    + right; right; left.
      destruct (@exists_last _ (x :: l)) as (l' & b & El); [discriminate|].
      eexists; eexists; left. apply (ITakeFree s l' b); auto. rewrite Ef; exact El.
  - right; right; left. destruct (w_batch s) as [|e l] eqn:Eb.
    + eexists; eexists; left; eapply IFFlushEnd; eauto.
    + destruct (min_entry (w_batch s)) as (z & x & rest & T); [congruence|].
      eexists; eexists; left; eapply IFFlush; eauto.
  - right; right; left. destruct l as [|b l].
    + eexists; eexists; left; eapply IFWaitEnd; eauto.
    + eexists; eexists; left; eapply IFWait; eauto. apply Bs.
      apply (v_wait _ _ _ _ _ _ V (b :: l)); [rewrite E; auto|cbn; auto].
  - right; right; left. destruct (w_batch s) as [|e l] eqn:Eb.
    + eexists; eexists; left; eapply IDFlushEnd; eauto.
    + destruct (min_entry (w_batch s)) as (z & x & rest & T); [congruence|].
      eexists; eexists; left; eapply IDFlush; eauto.
  - right; right; left. destruct l as [|b l].
    + eexists; eexists; left; eapply IDWaitEnd; eauto.
    + eexists; eexists; left; eapply IDWait; eauto. apply Bs.
      apply (v_wait _ _ _ _ _ _ V (b :: l)); [rewrite E; auto|cbn; auto].
Qed.

Lemma sstep_run_inv : forall {A} n bs disk0 tr (s : wst A) limbo l s',
  Inv n bs disk0 tr s limbo -> sstep s l s' ->
  exists limbo', Inv n bs disk0 (tr ++ [l]) s' limbo'.
Proof.
  intros A n bs disk0 tr s limbo l s' V H. eapply wstep_inv; eauto.
  - right; auto.
  - intros ->. destruct H as [H|H]; inversion H.
Qed.

Lemma sstep_held : forall {A} (s : wst A) l s', sstep s l s' ->
  w_held s' = w_held s \/ w_pc s' = Idle.
Proof. intros A s l s' [H|H]; inversion H; subst; proj; auto. Qed.

Lemma inv_count : forall {A} n bs disk0 tr (s : wst A) limbo, Inv n bs disk0 tr s limbo ->
  length (w_free s) + length (w_busy s) + length (w_batch s) + length (w_held s)
  + length (pcb (w_pc s)) + length limbo = n.
Proof.
  intros * V. pose proof (Permutation_length (v_bufs _ _ _ _ _ _ V)) as P.
  rewrite !app_length, map_length, seq_length in P. lia.
Qed.

Lemma returns_wf : forall {A} n bs disk0 k (s : wst A) tr limbo,
  mu s <= k -> Inv n bs disk0 tr s limbo -> bs + length (w_held s) < n -> returns s.
Proof.
  induction k; intros s tr limbo Hk V Hb;
  (destruct (progress _ _ _ _ _ _ V) as [P|[P|[P|(P1 & P2 & P3)]]];
   [apply Returned; auto|apply Returned; auto| |]).
  - destruct P as (l & s' & P). apply mu_decreases in P. lia.
  - exfalso. pose proof (inv_count _ _ _ _ _ _ V) as C. rewrite P1, P2, P3 in C. cbn in C.
    assert (limbo = []) by (apply (v_limbo _ _ _ _ _ _ V); rewrite P1; auto). subst limbo. cbn in C.
    pose proof (proj1 (v_batch _ _ _ _ _ _ V)). lia.
  - apply StillRunning; auto. intros l s' St.
    destruct (sstep_run_inv _ _ _ _ _ _ _ _ V St) as (limbo' & V').
    pose proof (mu_decreases _ _ _ St).
    destruct (sstep_held _ _ _ St) as [E|E].
    + eapply IHk; eauto; [lia|]. rewrite E; auto.
    + apply Returned; auto.
  - exfalso. pose proof (inv_count _ _ _ _ _ _ V) as C. rewrite P1, P2, P3 in C. cbn in C.
    assert (limbo = []) by (apply (v_limbo _ _ _ _ _ _ V); rewrite P1; auto). subst limbo. cbn in C.
    pose proof (proj1 (v_batch _ _ _ _ _ _ V)). lia.
Qed.

(** ** Batch at least as large as the number of buffers *)

Lemma no_flush_disciplined : forall {A} (tr : list (wlabel A)), no_flush tr -> disciplined tr.
Proof. intros A tr (H & _). apply H. Qed.

Lemma no_flush_app : forall {A} (t1 t2 : list (wlabel A)), no_flush (t1 ++ t2) -> no_flush t1 /\ no_flush t2.
Proof.
  intros A t1 t2 (H1 & H2). split; split.
  - intros k Q; apply (H1 k); apply in_or_app; auto.
  - intros Q; apply H2; apply in_or_app; auto.
  - intros k Q; apply (H1 k); apply in_or_app; auto.
  - intros Q; apply H2; apply in_or_app; auto.
Qed.

Record NoPost {A} (tr : list (wlabel A)) (s : wst A) : Prop := mkNP {
  np_busy : w_busy s = [];
  np_count : length (w_batch s) + length (pcb (w_pc s)) = length (calls tr);
  np_pc : ~ closing (w_pc s) /\ forall b d, w_pc s <> WFlush b d
}.

Lemma nopost_step : forall {A} n bs disk0 tr (s : wst A) limbo l s',
  Inv n bs disk0 tr s limbo -> n <= bs -> NoPost tr s -> wstep s l s' -> no_flush [l] ->
  NoPost (tr ++ [l]) s'.
Proof.
  intros A n bs disk0 tr s limbo l s' V Hn N St (F1 & F2).
  destruct N as [B C (P1 & P2)].
  assert (Lm : limbo = []) by (apply (v_limbo _ _ _ _ _ _ V); auto). subst limbo.
  destruct St as [St|[St|St]].
  - inversion St; subst; try (exfalso; apply (F1 keep); cbn; auto; fail);
      try (exfalso; apply F2; cbn; auto; fail).
    + constructor; proj; auto.
      * rewrite calls_app, app_length. cbn. rewrite H in C. cbn in C. lia.
      * split; [auto|discriminate].
    + constructor; proj; auto.
      * rewrite calls_app, app_length. cbn. rewrite H in C. cbn in C. lia.
      * split; [auto|discriminate].
    + pose proof (inv_count _ _ _ _ _ _ V) as K.
      rewrite H0, app_length in K. cbn [length] in K.
      assert (E : enter_write s b d = WPush b d).
      { unfold enter_write. destruct (v_bs _ _ _ _ _ _ V) as (-> & _).
        destruct (bs <=? length (w_batch s)) eqn:Z0; auto. apply Nat.leb_le in Z0. lia. }
      constructor; proj; auto; rewrite E.
      * rewrite calls_app, app_length. cbn. rewrite H in C. cbn in C. lia.
      * split; [auto|discriminate].
  - inversion St; subst; try (exfalso; apply P1; rewrite H; cbn; auto; fail);
      try (exfalso; eapply P2; eauto; fail).
    + constructor; proj; auto.
      * rewrite calls_app, app_length. cbn. rewrite H in C. cbn in C. lia.
      * split; [auto|discriminate].
    + rewrite B in H0. destruct k; discriminate.
    + rewrite B in H0. destruct k; discriminate.
    + constructor; proj; auto.
      * rewrite calls_app, app_length. cbn. rewrite H in C. cbn in C. lia.
      * split; [auto|discriminate].
    + constructor; proj; auto.
      * rewrite calls_app, app_length. cbn. rewrite H in C. cbn in C. lia.
      * split; [auto|discriminate].
    + rewrite B in H1. destruct k; discriminate.
  - inversion St; subst; constructor; proj; auto;
      rewrite calls_app, app_length; cbn; lia.
Qed.

Lemma nopost_run : forall {A} bsz bt mem bids (disk0 : bid -> A) tr s,
  let s0 := w_init bsz bt mem bids disk0 in
  wrun s0 tr s -> no_flush tr -> w_n s0 <= w_bs s0 -> NoPost tr s.
Proof.
  intros A bsz bt mem bids disk0 tr s s0 R. subst s0.
  remember (w_init bsz bt mem bids disk0) as s0 eqn:E0.
  induction R; intros F Hn; subst.
  - constructor; cbn; auto. split; [auto|discriminate].
  - apply no_flush_app in F. destruct F as (F1 & F2).
    destruct (run_inv _ _ _ _ _ _ _ R (no_flush_disciplined _ F1)) as (limbo & V).
    eapply nopost_step; eauto.
Qed.

(** With n <= batch size every further write can be made until all buffers are
    used up. *)
Lemma fill_batch : forall {A} bsz bt mem bids (disk0 : bid -> A) (d : bid) k,
  let s0 := w_init bsz bt mem bids disk0 in
  w_n s0 <= w_bs s0 -> k < w_n s0 ->
  exists tr s b, wrun s0 tr s /\ no_flush tr /\ length (calls tr) = k /\
    w_pc s = Idle /\ w_held s = [b].
Proof.
  intros A bsz bt mem bids disk0 d k s0 Hn. subst s0.
  set (s0 := w_init bsz bt mem bids disk0) in *.
  assert (Get : forall tr s, wrun s0 tr s -> no_flush tr -> w_pc s = GPoll 0 -> w_held s = [] ->
            length (calls tr) < w_n s0 ->
            exists tr' s' b, wrun s0 tr' s' /\ no_flush tr' /\ calls tr' = calls tr /\
              w_pc s' = Idle /\ w_held s' = [b]).
  { intros tr s R F E Hh Hc.
    pose proof (nopost_run _ _ _ _ _ _ _ R F Hn) as [B C _].
    destruct (run_inv _ _ _ _ _ _ _ R (no_flush_disciplined _ F)) as (limbo & V).
    fold s0 in V.
    assert (Lm : limbo = []) by (apply (v_limbo _ _ _ _ _ _ V); rewrite E; auto). subst limbo.
    pose proof (inv_count _ _ _ _ _ _ V) as K. rewrite B, E, Hh in K. rewrite E in C. cbn [pcb length] in C, K.
    destruct (@exists_last _ (w_free s)) as (l & b & El).
    { intros Z0. rewrite Z0 in K. cbn [length] in K. lia. }
    exists (tr ++ [LTau; LRet b]), (return_buf (set_pc s GTake) l (w_busy s) b), b.
    csplit.
    - eapply wrun_app; [exact R|]. eapply wrun_front.
      + right; left. eapply IPollEnd; eauto. rewrite B; cbn; lia.
      + apply wrun_one. right; left. apply (ITakeFree (set_pc s GTake) l b); auto.
    - destruct F as (F1 & F2). split.
      + intros kp Q. apply in_app_or in Q. destruct Q as [Q|[Q|[Q|[]]]]; try discriminate.
        eapply F1; eauto.
      + intros Q. apply in_app_or in Q. destruct Q as [Q|[Q|[Q|[]]]]; try discriminate. auto.
    - rewrite calls_app. cbn. apply app_nil_r.
    - reflexivity.
    - proj. rewrite Hh. auto. }
  induction k; intros Hk.
  - destruct (Get [LGet] (set_pc s0 (GPoll 0))) as (tr & s & b & R & F & C & P & H).
    + apply wrun_one. left. constructor. reflexivity.
    + split; [intros kp [Q|[]]; discriminate|intros [Q|[]]; discriminate].
    + reflexivity.
    + reflexivity.
    + cbn [calls length]. lia.
    + exists tr, s, b. rewrite C. auto.
  - destruct IHk as (tr & s & b & R & F & C & P & H); [lia|].
    destruct (run_inv _ _ _ _ _ _ _ R (no_flush_disciplined _ F)) as (limbo & V).
    fold s0 in V.
    assert (Lm : limbo = []) by (apply (v_limbo _ _ _ _ _ _ V); rewrite P; auto). subst limbo.
    pose proof (inv_count _ _ _ _ _ _ V) as K. rewrite H, P in K. cbn [pcb length] in K.
    assert (E : enter_write s b d = WPush b d).
    { unfold enter_write. destruct (v_bs _ _ _ _ _ _ V) as (-> & _).
      destruct (w_bs s0 <=? length (w_batch s)) eqn:Z0; auto. apply Nat.leb_le in Z0. lia. }
    destruct (Get (tr ++ [LWrite b d (w_mem s b); LTau])
                  (push_batch (set_held (set_pc s (WPush b d)) []) b d))
      as (tr' & s' & b' & R' & F' & C' & P' & H').
    + eapply wrun_app; [exact R|]. eapply wrun_front.
      * left. apply (CWrite s [] b [] d); auto.
      * rewrite E. apply wrun_one. right; left. apply IWPush; reflexivity.
    + destruct F as (F1 & F2). split.
      * intros kp Q. apply in_app_or in Q. destruct Q as [Q|[Q|[Q|[]]]]; try discriminate.
        eapply F1; eauto.
      * intros Q. apply in_app_or in Q. destruct Q as [Q|[Q|[Q|[]]]]; try discriminate. auto.
    + reflexivity.
    + reflexivity.
    + rewrite calls_app, app_length. cbn [calls length]. lia.
    + exists tr', s', b'. csplit; auto. rewrite C', calls_app, app_length. cbn [calls length]. lia.
Qed.

(** A caller that writes and does not flush has a buffer whenever it runs. *)
Lemma idle_held : forall {A} bsz bt mem bids (disk0 : bid -> A) tr s,
  wrun (w_init bsz bt mem bids disk0) tr s -> no_flush tr ->
  ~ closing (w_pc s) /\ (w_pc s = Idle -> calls tr <> [] -> w_held s <> []).
Proof.
  intros A bsz bt mem bids disk0 tr s R.
  remember (w_init bsz bt mem bids disk0) as s0 eqn:E0.
  induction R; intros F; subst.
  - split; [cbn; auto|]. cbn. congruence.
  - apply no_flush_app in F. destruct F as (F1 & (F2 & F3)).
    destruct (IHR eq_refl F1) as (C & H0). rewrite calls_app.
    destruct H as [H|[H|H]]; inversion H; subst;
      try (exfalso; apply (F2 keep); cbn; auto; fail);
      try (exfalso; apply F3; cbn; auto; fail);
      try (exfalso; apply C; rewrite H1; cbn; auto; fail); proj;
      try (split; [auto|cbn; rewrite ?app_nil_r; intros; try discriminate; auto; fail]).
    unfold enter_write. destruct (w_bs s2 <=? length (w_batch s2)); split; cbn; auto; discriminate.
Qed.

Lemma blocked_step : forall {A} bsz bt mem bids (disk0 : bid -> A) tr s l s',
  let s0 := w_init bsz bt mem bids disk0 in
  wrun s0 tr s -> no_flush tr -> w_n s0 <= w_bs s0 -> w_n s0 <= length (calls tr) ->
  w_pc s <> Idle /\
  (wstep s l s' -> no_flush [l] /\ forall b, l <> LRet b).
Proof.
  intros A bsz bt mem bids disk0 tr s l s' s0 R F Hn Hc.
  pose proof (nopost_run _ _ _ _ _ _ _ R F Hn) as [B C (N1 & N2)].
  destruct (run_inv _ _ _ _ _ _ _ R (no_flush_disciplined _ F)) as (limbo & V).
  fold s0 in V. pose proof (inv_count _ _ _ _ _ _ V) as K.
  assert (Ef : w_free s = []) by (apply length_zero_iff_nil; lia).
  assert (Eh : w_held s = []) by (apply length_zero_iff_nil; lia).
  assert (Hp : 0 < w_n s0).
  { unfold s0, w_init; cbn [w_n]. destruct (2 <? bsz) eqn:Z0; [apply Nat.ltb_lt in Z0|]; lia. }
  assert (Ni : w_pc s <> Idle).
  { intros E. apply (proj2 (idle_held _ _ _ _ _ _ _ R F) E); auto.
    intros Q. rewrite Q in Hc. cbn [length] in Hc. lia. }
  split; auto. intros [St|[St|St]]; inversion St; subst; try congruence;
    try (exfalso; apply N1; rewrite H; cbn; auto; fail);
    try (split; [split; [intros ? [Q|[]]; discriminate|intros [Q|[]]; discriminate]|discriminate]; fail).
  - rewrite Ef in H0. destruct l0; discriminate.
  - rewrite B in H1. destruct k; discriminate.
Qed.

Lemma blocked_run : forall {A} bsz bt mem bids (disk0 : bid -> A) tr s,
  let s0 := w_init bsz bt mem bids disk0 in
  wrun s0 tr s -> no_flush tr -> w_n s0 <= w_bs s0 -> w_n s0 <= length (calls tr) ->
  forall tr' s', wrun s tr' s' ->
  no_flush (tr ++ tr') /\ w_pc s' <> Idle /\ (forall b, ~ In (LRet b) tr').
Proof.
  intros A bsz bt mem bids disk0 tr s s0 R F Hn Hc tr' s' R'.
  induction R'.
  - rewrite app_nil_r. csplit; auto. apply (proj1 (blocked_step _ _ _ _ _ _ _ LTau s R F Hn Hc)).
  - destruct (IHR' R) as (F1 & I1 & L1).
    assert (R1 : wrun s0 (tr ++ tr0) s2) by (eapply wrun_app; eauto).
    assert (Hc1 : w_n s0 <= length (calls (tr ++ tr0))) by (rewrite calls_app, app_length; lia).
    destruct (proj2 (blocked_step _ _ _ _ _ _ _ l s3 R1 F1 Hn Hc1) H) as ((G1 & G2) & G3).
    assert (F2 : no_flush (tr ++ tr0 ++ [l])).
    { rewrite app_assoc. destruct F1 as (F1 & F1'). split.
      - intros kp Q. apply in_app_or in Q. destruct Q; [eapply F1; eauto|eapply G1; eauto].
      - intros Q. apply in_app_or in Q. destruct Q; auto. }
    csplit; auto.
    + assert (R2 : wrun s0 (tr ++ tr0 ++ [l]) s3) by (rewrite app_assoc; econstructor; eauto).
      assert (Hc2 : w_n s0 <= length (calls (tr ++ tr0 ++ [l]))) by (rewrite calls_app, app_length; lia).
      apply (proj1 (blocked_step _ _ _ _ _ _ _ LTau s3 R2 F2 Hn Hc2)).
    + intros b Q. apply in_app_or in Q. destruct Q as [Q|[Q|[]]]; [eapply L1; eauto|].
      eapply G3; eauto.
Qed.
