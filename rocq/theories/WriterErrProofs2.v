(** Buffered writer with failing writes: every call is over at some time, and a
    failed write at the head of the busy list. *)

From Coq Require Import List Arith Bool ZArith Lia Permutation.
From Verif Require Import WriterModel WriterSpec WriterProofs WriterProofs2 WriterProofs3 WriterErrModel WriterErrSpec WriterErrProofs.
Import ListNotations.

Section End.
Context {A : Type}.
Implicit Types x : xst A.

(** Requests that may still fail. *)
Definition may_fail (bad : list nat) (l : list wreq) : nat -> nat :=
  fix go k := match k with
    | O => 0
    | S j => go j + match nth_error l j with
        | Some r => match r_ph r with
            | Posted => if existsb (Nat.eqb j) bad then 0 else 1
            | _ => 0 end
        | None => 0 end
    end.

Lemma may_fail_ext : forall bad l l' k,
  (forall i r, i < k -> nth_error l i = Some r -> r_ph r = Posted ->
     exists r', nth_error l' i = Some r' /\ r_ph r' = Posted) ->
  may_fail bad l k <= may_fail bad l' k.
Proof.
  intros bad l l'. induction k as [|k IH]; intros H; cbn [may_fail]; auto.
  assert (may_fail bad l k <= may_fail bad l' k) by (apply IH; intros; eapply H; eauto).
  destruct (nth_error l k) as [r|] eqn:E; [|lia].
  destruct (r_ph r) eqn:P; try lia. destruct (H k r) as (r' & E' & P'); auto.
  rewrite E', P'. lia.
Qed.

Lemma may_fail_bad : forall bad i l k, may_fail (i :: bad) l k <= may_fail bad l k.
Proof.
  intros bad i l. induction k as [|k IH]; cbn [may_fail]; auto.
  destruct (nth_error l k) as [r|]; [|lia]. destruct (r_ph r); try lia.
  cbn [existsb]. destruct (k =? i), (existsb (Nat.eqb k) bad); cbn; lia.
Qed.

Lemma may_fail_less : forall bad i l r k, nth_error l i = Some r -> r_ph r = Posted -> ~ In i bad -> i < k ->
  may_fail (i :: bad) l k < may_fail bad l k.
Proof.
  intros bad i l r k E P N. induction k as [|k IH]; intros L; [lia|]. cbn [may_fail].
  destruct (Nat.eq_dec i k) as [->|D].
  - rewrite E, P. cbn [existsb]. rewrite Nat.eqb_refl.
    assert (existsb (Nat.eqb k) bad = false) as ->.
    { destruct (existsb (Nat.eqb k) bad) eqn:Q; auto. apply existsb_exists in Q.
      destruct Q as (j & Q & F). apply Nat.eqb_eq in F. subst. tauto. }
    cbn. pose proof (may_fail_bad bad k l k). lia.
  - assert (may_fail (i :: bad) l k < may_fail bad l k) by (apply IH; lia).
    destruct (nth_error l k) as [r'|]; [|lia]. destruct (r_ph r'); try lia.
    cbn [existsb]. destruct (k =? i), (existsb (Nat.eqb k) bad); cbn; lia.
Qed.

Lemma may_fail_le : forall bad l k, may_fail bad l k <= k.
Proof.
  intros bad l. induction k as [|k IH]; cbn [may_fail]; auto.
  destruct (nth_error l k) as [r|]; [|lia]. destruct (r_ph r); try lia. destruct (existsb _ _); lia.
Qed.

Definition nu x : nat := 3 * mu (x_w x) + may_fail (x_bad x) (w_reqs (x_w x)) (length (w_reqs (x_w x))).

Lemma set_nth_posted : forall (l : list wreq) i r r' j q, nth_error l i = Some r -> r_ph r' <> Posted ->
  nth_error (set_nth i r' l) j = Some q -> r_ph q = Posted ->
  exists q', nth_error l j = Some q' /\ r_ph q' = Posted.
Proof.
  intros l i r r' j q E N H P. destruct (Nat.eq_dec j i) as [->|D].
  - rewrite set_nth_same in H by (apply nth_error_Some; congruence). inversion H; subst. congruence.
  - rewrite set_nth_other in H by auto. eauto.
Qed.

Lemma estep_less : forall (s : wst A) l s' bad, estep s l s' ->
  may_fail bad (w_reqs s') (length (w_reqs s')) <= may_fail bad (w_reqs s) (length (w_reqs s)).
Proof.
  intros s l s' bad H. inversion H; subst; xproj; rewrite set_nth_length; apply may_fail_ext;
    intros j q _ Hj Hp; eapply set_nth_posted; eauto; cbn; discriminate.
Qed.

Lemma istep_less : forall (s : wst A) l s' bad, istep s l s' ->
  may_fail bad (w_reqs s') (length (w_reqs s')) <= S (may_fail bad (w_reqs s) (length (w_reqs s))).
Proof.
  intros s l s' bad H.
  assert (P : forall q, may_fail bad (w_reqs s ++ [q]) (length (w_reqs s ++ [q]))
                 <= S (may_fail bad (w_reqs s) (length (w_reqs s)))).
  { intros q. rewrite app_length. cbn [length]. rewrite Nat.add_1_r. cbn [may_fail].
    assert (may_fail bad (w_reqs s ++ [q]) (length (w_reqs s)) <= may_fail bad (w_reqs s) (length (w_reqs s))).
    { apply may_fail_ext. intros i r L. rewrite nth_error_app1 by auto. eauto. }
    destruct (nth_error (w_reqs s ++ [q]) (length (w_reqs s))) as [r|]; [|lia].
    destruct (r_ph r); try lia. destruct (existsb _ _); lia. }
  inversion H; subst; xproj; auto.
Qed.

Lemma nu_decreases : forall n bs disk0 tr x l x', XI n bs disk0 tr x -> x_sys l x x' ->
  nu x' < nu x \/ (w_pc (x_w x') = Idle \/ x_term x' = true).
Proof.
  intros n bs disk0 tr x l x' V (H & K). inversion H; subst; xproj.
  - inversion H1; subst; destruct K.
  - left. unfold nu. xproj. pose proof (mu_decreases _ _ _ (or_introl H1)).
    pose proof (istep_less _ _ _ (x_bad x) H1). lia.
  - left. unfold nu. xproj. pose proof (mu_decreases _ _ _ (or_intror H1)).
    pose proof (estep_less _ _ _ (x_bad x) H1). lia.
  - left. unfold nu. xproj.
    assert (may_fail (i :: x_bad x) (w_reqs (x_w x)) (length (w_reqs (x_w x)))
            < may_fail (x_bad x) (w_reqs (x_w x)) (length (w_reqs (x_w x)))).
    { eapply may_fail_less; eauto. apply nth_error_Some. congruence. }
    lia.
  - auto.
  - auto.
  - auto.
  - auto.
  - auto.
  - auto.
  - auto.
Qed.

Lemma bad_dec : forall i (l : list nat), In i l \/ ~ In i l.
Proof. intros i l. destruct (in_dec Nat.eq_dec i l); auto. Qed.

(** Requests the I/O layer still has to deal with. *)
Lemma work_dec : forall bad (l : list wreq),
  (exists i r, nth_error l i = Some r /\ r_ph r <> Ready /\ ~ In i bad) \/
  (forall i r, nth_error l i = Some r -> r_ph r = Ready \/ In i bad).
Proof.
  intros bad l.
  assert (G : forall k, (exists i r, nth_error l i = Some r /\ r_ph r <> Ready /\ ~ In i bad) \/
     (forall i r, i < k -> nth_error l i = Some r -> r_ph r = Ready \/ In i bad)).
  { induction k as [|k [IH|IH]]; [right; lia|auto|].
    destruct (nth_error l k) as [r|] eqn:E.
    - destruct (bad_dec k bad) as [B|B].
      + right. intros i r' L E'. destruct (Nat.eq_dec i k) as [->|]; auto. eapply IH; eauto. lia.
      + destruct (r_ph r) eqn:P; try (left; exists k, r; csplit; auto; congruence).
        right. intros i r' L E'. destruct (Nat.eq_dec i k) as [->|]; [left; congruence|]. eapply IH; eauto. lia.
    - right. intros i r' L E'. destruct (Nat.eq_dec i k) as [->|]; [congruence|]. eapply IH; eauto. lia. }
  destruct (G (length l)) as [G1|G1]; auto. right. intros i r E. eapply G1; eauto.
  apply nth_error_Some. congruence.
Qed.

Lemma x_progress : forall n bs disk0 tr x, XI n bs disk0 tr x -> x_term x = false ->
  w_pc (x_w x) = Idle \/ w_pc (x_w x) = Dead \/ (exists l x', x_sys l x x') \/
  (w_pc (x_w x) = GTake /\ w_free (x_w x) = [] /\ w_busy (x_w x) = []).
Proof.
  intros n bs disk0 tr x V T. destruct (xi_inv _ _ _ _ _ V) as (limbo & I).
  destruct (work_dec (x_bad x) (w_reqs (x_w x))) as [(i & r & E & P & N)|W].
  { right; right; left.
    destruct (r_ph r) eqn:Ep; [| |congruence].
    - eexists; eexists; split; [eapply XIo; [exact T|eapply EServe; eauto|]|exact Logic.I].
      intros j Hj. xproj. rewrite set_nth_other; auto. congruence.
    - eexists; eexists; split; [eapply XIo; [exact T|eapply EReady; eauto|]|exact Logic.I].
      intros j Hj. xproj. rewrite set_nth_other; auto. congruence. }
  assert (Rd : forall b, w_wreqs (x_w x) b <> None -> is_ready (x_w x) b = Some true \/ failed x b = true).
  { intros b Hb. unfold is_ready, ready, failed. destruct (w_wreqs (x_w x) b) as [i|] eqn:E; [|congruence].
    destruct (v_own _ _ _ _ _ _ I b i E) as (r & H & _). rewrite H.
    destruct (W i r H) as [->|B]; auto. right. apply existsb_exists. exists i. split; auto. apply Nat.eqb_refl. }
  assert (Mr : forall b, In b (map snd (w_batch (x_w x))) -> may_reuse (x_w x) b = true).
  { intros b Hb. unfold may_reuse. specialize (Rd b). unfold is_ready in Rd.
    destruct (w_wreqs (x_w x) b); auto.
    destruct Rd as [Q|Q]; [discriminate|inversion Q; auto|]. exfalso. eapply failed_batch; eauto. }
  assert (Bs : forall b, In b (w_busy (x_w x)) -> is_ready (x_w x) b = Some true \/ failed x b = true).
  { intros b Hb. apply Rd. apply (v_busy _ _ _ _ _ _ I); auto. }
  assert (Top : forall e l, w_batch (x_w x) = e :: l ->
     exists z y rest, top_of (w_batch (x_w x)) z y rest /\ may_reuse (x_w x) y = true).
  { intros e l Eb. destruct (min_entry (w_batch (x_w x))) as (z & y & rest & Tp); [congruence|].
    exists z, y, rest. split; auto. apply Mr. destruct Tp as (l1 & l2 & Et & _). rewrite Et, map_app.
    apply in_or_app; cbn; auto. }
  assert (Np : (forall k, w_pc (x_w x) <> GPoll k) -> poll_returns x) by (intros Q k b Ek; destruct (Q k Ek)).
  destruct (w_pc (x_w x)) as [ |b d|b d|k| | |l| |l| ] eqn:E; auto; right; right;
    try (assert (Pr : poll_returns x) by (apply Np; congruence)).
  - left. destruct (w_batch (x_w x)) as [|e l] eqn:Eb.
    + eexists; eexists; split; [eapply XCode; eauto; eapply IWFlushEnd; eauto|exact Logic.I].
    + destruct (Top e l eq_refl) as (z & y & rest & Tp & M). rewrite <- Eb in Tp.
      eexists; eexists; split; [eapply XCode; eauto; eapply IWFlush; eauto|exact Logic.I].
  - left. eexists; eexists; split; [eapply XCode; eauto; eapply IWPush; eauto|exact Logic.I].
  - left. destruct (nth_error (w_busy (x_w x)) k) as [b|] eqn:Ek.
    + destruct (failed x b) eqn:F.
      * eexists; eexists; split; [eapply XPoll; eauto|exact Logic.I].
      * destruct (Bs b) as [Q|Q]; [eapply nth_error_In; eauto| |congruence].
        eexists; eexists; split; [eapply XCode; eauto; [eapply IPollHit; eauto|]|exact Logic.I].
        intros k' b' E1 E2. congruence.
    + pose proof Ek as Ek'. apply nth_error_None in Ek. eexists; eexists; split; [eapply XCode; eauto; [eapply IPollEnd; eauto|]|exact Logic.I].
      intros k' b' E1 E2. congruence.
  - destruct (w_free (x_w x)) as [|y l] eqn:Ef.
    + destruct (w_busy (x_w x)) as [|b l] eqn:Eb; [right; auto|]. left.
      destruct (Bs b) as [Q|Q]; [cbn; auto| |].
      * eexists; eexists; split; [eapply XCode; eauto; eapply ITakeAny with (k := 0); eauto; rewrite Eb; reflexivity|exact Logic.I].
      * eexists; eexists; split; [eapply XAny; eauto; rewrite Eb; cbn; auto|exact Logic.I].
    + left. destruct (@exists_last _ (y :: l)) as (l' & b & El); [discriminate|].
      eexists; eexists; split; [eapply XCode; eauto; apply (ITakeFree (x_w x) l' b); auto; rewrite Ef; exact El|exact Logic.I].
  - left. destruct (w_batch (x_w x)) as [|e l] eqn:Eb.
    + eexists; eexists; split; [eapply XCode; eauto; eapply IFFlushEnd; eauto|exact Logic.I].
    + destruct (Top e l eq_refl) as (z & y & rest & Tp & M). rewrite <- Eb in Tp.
      eexists; eexists; split; [eapply XCode; eauto; eapply IFFlush; eauto|exact Logic.I].
  - left. destruct l as [|b l].
    + eexists; eexists; split; [eapply XCode; eauto; eapply IFWaitEnd; eauto|exact Logic.I].
    + destruct (Bs b) as [Q|Q].
      { apply (v_wait _ _ _ _ _ _ I (b :: l)); [rewrite E; auto|cbn; auto]. }
      * eexists; eexists; split; [eapply XCode; eauto; eapply IFWait; eauto|exact Logic.I].
      * eexists; eexists; split; [eapply XFWait; eauto|exact Logic.I].
  - left. destruct (w_batch (x_w x)) as [|e l] eqn:Eb.
    + eexists; eexists; split; [eapply XCode; eauto; eapply IDFlushEnd; eauto|exact Logic.I].
    + destruct (Top e l eq_refl) as (z & y & rest & Tp & M). rewrite <- Eb in Tp.
      eexists; eexists; split; [eapply XCode; eauto; eapply IDFlush; eauto|exact Logic.I].
  - left. destruct l as [|b l].
    + eexists; eexists; split; [eapply XCode; eauto; eapply IDWaitEnd; eauto|exact Logic.I].
    + destruct (Bs b) as [Q|Q].
      { apply (v_wait _ _ _ _ _ _ I (b :: l)); [rewrite E; auto|cbn; auto]. }
      * eexists; eexists; split; [eapply XCode; eauto; eapply IDWait; eauto|exact Logic.I].
      * eexists; eexists; split; [eapply XDWait; eauto|exact Logic.I].
Qed.

Lemma ends_wf : forall n bs disk0 k x tr,
  nu x <= k -> XI n bs disk0 tr x -> bs + length (w_held (x_w x)) < n -> ends x.
Proof.
  induction k; intros x tr Hk V Hb; (destruct (x_term x) eqn:T; [apply Ended; auto|]);
  (destruct (x_progress _ _ _ _ _ V T) as [P|[P|[P|(P1 & P2 & P3)]]];
   [apply Ended; auto|apply Ended; auto| |]).
  2, 4: exfalso; destruct (xi_inv _ _ _ _ _ V) as (limbo & I); pose proof (inv_count _ _ _ _ _ _ I) as C;
    rewrite P1, P2, P3 in C; cbn in C;
    assert (limbo = []) by (apply (v_limbo _ _ _ _ _ _ I); rewrite P1; auto); subst limbo; cbn in C;
    pose proof (proj1 (v_batch _ _ _ _ _ _ I)); lia.
  - apply Running; auto. intros l x' St. pose proof St as (S1 & S2).
    destruct (nu_decreases _ _ _ _ _ _ _ V St) as [D|[D|D]]; [lia|apply Ended; auto|apply Ended; auto].
  - apply Running; auto. intros l x' St. pose proof St as (S1 & S2).
    destruct (nu_decreases _ _ _ _ _ _ _ V St) as [D|[D|D]]; [|apply Ended; auto|apply Ended; auto].
    assert (V' : XI n bs disk0 (tr ++ [l]) x').
    { eapply xstep_inv; eauto. intros ->. auto. }
    assert (Hh : w_held (x_w x') = w_held (x_w x) \/ w_pc (x_w x') = Idle).
    { inversion S1; subst; xproj; auto.
      - match goal with K : cstep _ _ _ |- _ => inversion K; subst; destruct S2 end.
      - apply (sstep_held _ _ _ (or_introl H0)).
      - apply (sstep_held _ _ _ (or_intror H0)). }
    destruct Hh as [E|E]; [|apply Ended; auto].
    eapply IHk; eauto; [lia|]. rewrite E; auto.
Qed.

(** The failed write at the head of the busy list. *)
Definition stuck x : Prop :=
  match w_busy (x_w x) with
  | b :: _ => failed x b = true /\ forall k, w_pc (x_w x) = GPoll k -> k = 0
  | [] => False
  end /\ w_pc (x_w x) <> GTake.

Lemma failed_mono : forall x x' b, w_wreqs (x_w x') b = w_wreqs (x_w x) b -> incl (x_bad x) (x_bad x') ->
  failed x b = true -> failed x' b = true.
Proof.
  intros x x' b E B F. destruct (failed_in _ _ F) as (i & W & H). unfold failed. rewrite E, W.
  apply existsb_exists. exists i. split; [auto|apply Nat.eqb_refl].
Qed.

Lemma stuck_step : forall n bs disk0 tr x l x', XI n bs disk0 tr x -> stuck x -> xstep x l x' ->
  stuck x' /\ (forall b, l <> XOk (LRet b)).
Proof.
  intros n bs disk0 tr x l x' V (S1 & S2) H. unfold stuck.
  destruct (w_busy (x_w x)) as [|b0 busy] eqn:Eb; [destruct S1|]. destruct S1 as (F & P0).
  assert (Keep : forall x2, w_busy (x_w x2) = w_busy (x_w x) \/ (exists c, w_busy (x_w x2) = w_busy (x_w x) ++ [c]) ->
     w_wreqs (x_w x2) b0 = w_wreqs (x_w x) b0 -> incl (x_bad x) (x_bad x2) ->
     (forall k, w_pc (x_w x2) = GPoll k -> k = 0) -> w_pc (x_w x2) <> GTake ->
     match w_busy (x_w x2) with
     | b :: _ => failed x2 b = true /\ (forall k : nat, w_pc (x_w x2) = GPoll k -> k = 0)
     | [] => False
     end /\ w_pc (x_w x2) <> GTake).
  { intros x2 B W I2 G1 G2. split; auto.
    destruct B as [B|(c & B)]; rewrite B, Eb; cbn [app]; (split; [eapply failed_mono; eauto|auto]). }
  assert (Nr : is_ready (x_w x) b0 <> Some true).
  { destruct (failed_in _ _ F) as (i & W & B). unfold is_ready, ready. rewrite W.
    destruct (xi_bad _ _ _ _ _ V i B) as (r & E & P). rewrite E, P. discriminate. }
  assert (Pst : forall z y rest, top_of (w_batch (x_w x)) z y rest -> (forall k, w_pc (x_w x) <> GPoll k) -> forall l',
     match w_busy (x_w (x_ok x l' (post (x_w x) y rest))) with
     | b :: _ => failed (x_ok x l' (post (x_w x) y rest)) b = true /\
                 (forall k : nat, w_pc (x_w (x_ok x l' (post (x_w x) y rest))) = GPoll k -> k = 0)
     | [] => False
     end /\ w_pc (x_w (x_ok x l' (post (x_w x) y rest))) <> GTake).
  { intros z y rest T G l'. apply Keep; xproj; auto.
    - eauto.
    - rewrite updn_other; auto. intros ->. apply (failed_batch _ _ _ _ _ _ V F).
      destruct T as (l1 & l2 & E & _). rewrite E, map_app. apply in_or_app; cbn; auto.
    - apply incl_refl. }
  destruct (xi_inv _ _ _ _ _ V) as (limbo & I).
  inversion H; subst.
  - split; [|intros b E; inversion E; subst; inversion H1].
    apply Keep; xproj; auto; try apply incl_refl; inversion H1; subst; xproj; auto; try congruence;
      unfold enter_write; destruct (w_bs (x_w x) <=? length (w_batch (x_w x))); discriminate.
  - inversion H1; subst.
    + split; [eapply Pst; eauto; congruence|discriminate].
    + split; [|discriminate]. apply Keep; xproj; auto; try apply incl_refl; congruence.
    + split; [|discriminate]. apply Keep; xproj; auto; try apply incl_refl; congruence.
    + exfalso. rewrite (P0 k H3) in *. rewrite Eb in H4. inversion H4; subst. congruence.
    + exfalso. pose proof (H2 k b H3 H4). rewrite (P0 k H3), Eb in H4. inversion H4; subst. congruence.
    + exfalso. rewrite (P0 k H3) in *. rewrite Eb in H4. cbn in H4. lia.
    + congruence.
    + congruence.
    + split; [eapply Pst; eauto; congruence|discriminate].
    + split; [|discriminate]. apply Keep; xproj; auto; try apply incl_refl; congruence.
    + split; [|discriminate]. apply Keep; xproj; auto; try apply incl_refl; congruence.
    + exfalso. apply Nr. destruct (v_wait _ _ _ _ _ _ I [] ltac:(rewrite H3; reflexivity)) as (_ & W & _).
      destruct (W b0) as [[]|W']; auto. rewrite Eb; cbn; auto.
    + split; [eapply Pst; eauto; congruence|discriminate].
    + split; [|discriminate]. apply Keep; xproj; auto; try apply incl_refl; congruence.
    + split; [|discriminate]. apply Keep; xproj; auto; try apply incl_refl; congruence.
    + split; [|discriminate]. apply Keep; xproj; auto; try apply incl_refl; congruence.
  - split; [|intros b E; inversion E; subst; inversion H1].
    apply Keep; xproj; auto; try apply incl_refl; inversion H1; subst; xproj; auto.
  - split; [|discriminate]. apply Keep; xproj; auto. intros j Hj; cbn; auto.
  - split; [|discriminate]. apply Keep; xproj; auto; try apply incl_refl; discriminate.
  - congruence.
  - split; [|discriminate]. apply Keep; xproj; auto; try apply incl_refl; discriminate.
  - split; [|discriminate]. apply Keep; xproj; auto; try apply incl_refl; discriminate.
  - split; [|discriminate]. apply Keep; xproj; auto; try apply incl_refl; discriminate.
  - split; [|discriminate]. apply Keep; xproj; auto; try apply incl_refl; congruence.
  - split; [|discriminate]. apply Keep; xproj; auto; try apply incl_refl; congruence.
Qed.

End End.
