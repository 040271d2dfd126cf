(** C101: streams of records when transfers fail. *)

From Coq Require Import List Arith Bool ZArith Lia Permutation.
From Verif Require Import WriterModel WriterSpec WriterProofs WriterProofs2 WriterProofs3 WriterProps
  WriterErrModel WriterErrSpec WriterErrProofs WriterErrProps
  PrefetchModel PrefetchSpec ScheduleSpec PrefetchProofs PrefetchProofs2 PrefetchProofs3
  PrefetchErrModel PrefetchErrSpec PrefetchErrProofs PrefetchErrProofs2 PrefetchErrProps
  StreamModel StreamProofs StreamProofs2 StreamProps StreamErrModel StreamErrSpec StreamErrProofs StreamErrProofs2.
Import ListNotations.

Section Output.
Context {R : Type}.
Variable B : nat.
Hypothesis HB : 1 <= B.
Variables (nb : nat) (mem0 : nat -> list R) (bids0 : nat -> bid) (disk0 : bid -> list R) (bids : nat -> bid).
Let x0 := x_init nb (nb / 2) mem0 bids0 disk0.
Let n := w_n (x_w x0).
Hypothesis Hmem : forall b, length (mem0 b) = B.
Hypothesis Hbids : forall i j, bids i = bids j -> i = j.

Lemma e_inv : forall recs tr e, erun B x0 bids recs tr e ->
  EInv B nb (nb / 2) mem0 bids0 disk0 bids recs tr e.
Proof. clear Hbids. intros. eapply erun_inv; eauto. Qed.

Lemma wbs' : w_bs (x_w x0) < n.
Proof. apply C42_ostream_safe. Qed.

Lemma bids_nodup : forall k, NoDup (map bids (seq 0 k)).
Proof. intros k. apply FinFun.Injective_map_NoDup; [exact Hbids|]. apply seq_NoDup. Qed.

(** What the destructor does. *)
Lemma dtor_run : forall recs tr e t x, erun B x0 bids recs tr e -> edtor e t x ->
  xrun x0 (tr ++ t) x /\ x_disciplined (tr ++ t) /\ calls (normal (tr ++ t)) = calls (normal tr) /\
  w_held (x_w x) = [] /\ (w_pc (x_w x) = DFlush \/ (exists l, w_pc (x_w x) = DWait l) \/ w_pc (x_w x) = Dead).
Proof.
  clear Hbids. intros recs tr e t x H Hd. pose proof (e_inv _ _ _ H) as V. inversion Hd as [x1 t' x2 E0 S1 S2]; subst.
  assert (X1 : w_held (x_w x1) = [] /\ w_pc (x_w x1) = DFlush).
  { inversion S1; subst; xproj; match goal with K : _ _ LDestroy _ |- _ => inversion K; subst; xproj end; auto. }
  destruct X1 as (Hh1 & P1).
  assert (G : forall (y : xst (list R)) u y', xsys y u y' -> w_held (x_w y) = [] ->
    (w_pc (x_w y) = DFlush \/ (exists l, w_pc (x_w y) = DWait l) \/ w_pc (x_w y) = Dead) ->
    w_held (x_w y') = [] /\ (w_pc (x_w y') = DFlush \/ (exists l, w_pc (x_w y') = DWait l) \/ w_pc (x_w y') = Dead) /\
    calls (normal u) = [] /\ ~ In (XOk (LFlush true)) u).
  { intros y u y' Hs. induction Hs as [|y1 l y2 u y3 C St Hs IH]; intros Hh P; [csplit; auto|].
    assert (X : w_held (x_w y2) = [] /\ (w_pc (x_w y2) = DFlush \/ (exists l, w_pc (x_w y2) = DWait l) \/ w_pc (x_w y2) = Dead) /\
       calls (normal [l]) = [] /\ l <> XOk (LFlush true)).
    { inversion St; subst; xproj; try (destruct P as [P|[(l' & P)|P]]; congruence);
        try (csplit; auto; discriminate).
      - match goal with K : cstep _ _ _ |- _ => inversion K; subst; discriminate end.
      - match goal with K : istep _ _ _ |- _ => inversion K; subst; xproj end;
          try (destruct P as [P|[(l' & P)|P]]; congruence); csplit; eauto; discriminate.
      - match goal with K : estep _ _ _ |- _ => inversion K; subst; xproj end; csplit; auto; discriminate. }
    destruct X as (X1 & X2 & X3 & X4). destruct (IH X1 X2) as (Y1 & Y2 & Y3 & Y4). csplit; auto.
    - rewrite calls_cons, X3, Y3. auto.
    - intros [Q|Q]; auto. }
  destruct (G _ _ _ S2 Hh1) as (G1 & G2 & G3 & G4); auto.
  csplit; auto.
  - eapply xrun_app; [exact (ei_run _ _ _ _ _ _ _ _ _ _ V)|]. eapply xrun_front; [exact S1|]. apply xsys_run; auto.
  - apply (xdisc_app B bids); [exact (ei_disc _ _ _ _ _ _ _ _ _ _ V)|]. intros [Q|Q]; [discriminate|auto].
  - rewrite normal_app, calls_app. cbn [normal calls]. rewrite G3, app_nil_r. auto.
Qed.

(** If the destructor of the stream returns, no write failed, no operator threw, and
    the blocks contain the records. *)
Theorem C101_closed_means_written : forall recs tr e t x,
  erun B x0 bids recs tr e -> edtor e (t ++ [XOk LDestroyed]) x ->
  fails (tr ++ t) = [] /\ e_thrown e = false /\ throws (tr ++ t) = 0 /\
  (exists blocks, map (x_disk x) (map bids (seq 0 (e_bid e))) = map Some blocks /\ concat blocks = recs /\
     forall b, In b blocks -> length b = B) /\
  (forall d, ~ In d (map bids (seq 0 (e_bid e))) -> x_disk x d = Some (disk0 d)).
Proof.
  intros recs tr e t x H Hd. pose proof (e_inv _ _ _ H) as V. destruct (dtor_run _ _ _ _ _ H Hd) as (Rn & D & Ec & _).
  assert (E0 : e_elem e = 0) by (inversion Hd; auto).
  rewrite app_assoc in Rn, D, Ec.
  destruct (C88_return_means_written _ _ _ _ _ _ _ _ Rn (WriterErrProps.disc_app _ _ D) (or_intror eq_refl)) as (F & P & _ & W).
  assert (Ec' : calls (normal (tr ++ t)) = calls (normal tr)).
  { rewrite <- Ec, (normal_app (tr ++ t)), calls_app. cbn. rewrite app_nil_r. auto. }
  rewrite Ec' in *.
  assert (ND : NoDup (map fst (calls (normal tr)))) by (rewrite (ei_bids _ _ _ _ _ _ _ _ _ _ V); apply bids_nodup).
  specialize (W ND).
  assert (Th : throws (tr ++ t) = 0).
  { destruct (throws (tr ++ t)) eqn:T; auto. exfalso.
    assert (Q : exists u1 u2, tr ++ t = u1 ++ XThrow :: u2).
    { clear - T. revert T. generalize (tr ++ t) as u. intros u. revert n0. induction u as [|l u IH]; intros k T; [discriminate|].
      destruct l; try (destruct (IH _ T) as (u1 & u2 & ->); eexists (_ :: u1), u2; reflexivity).
      exists [], u. reflexivity. }
    destruct Q as (u1 & u2 & Q).
    assert (Rn' := Rn). rewrite Q in Rn'.
    assert (Eq : (u1 ++ XThrow :: u2) ++ [XOk LDestroyed] = (u1 ++ [XThrow]) ++ u2 ++ [XOk LDestroyed]).
    { rewrite <- !app_assoc. reflexivity. }
    rewrite Eq in Rn'. destruct (xrun_split _ _ _ Rn' _ _ eq_refl) as (xm & R1 & _).
    assert (N : fails u1 <> []).
    { eapply C88_throw_only_after_failure; eauto. rewrite Q in D. rewrite <- app_assoc in D. eapply WriterErrProps.disc_app; eauto. }
    rewrite Q, fails_app in F. apply app_eq_nil in F. tauto. }
  csplit; auto.
  - destruct (e_thrown e) eqn:T; auto. pose proof (ei_fails _ _ _ _ _ _ _ _ _ _ V T) as N.
    rewrite fails_app in F. apply app_eq_nil in F. tauto.
  - exists (map snd (calls (normal tr))). csplit.
    + rewrite <- (ei_bids _ _ _ _ _ _ _ _ _ _ V), !map_map. apply map_ext_in. intros (d, a) Q. apply W; auto.
    + rewrite (ei_recs _ _ _ _ _ _ _ _ _ _ V), E0. cbn [firstn]. rewrite app_nil_r. auto.
    + intros b Q. apply in_map_iff in Q. destruct Q as ((d, a) & <- & Q). eapply (ei_len _ _ _ _ _ _ _ _ _ _ V); eauto.
  - intros d N. eapply (other_disk B); [exact bids|exact Rn|exact D|]. rewrite Ec, (ei_bids _ _ _ _ _ _ _ _ _ _ V). auto.
Qed.

(** An operator throws only after a write has failed. *)
Theorem C101_exception_means_failure : forall recs tr e,
  erun B x0 bids recs tr e ->
  throws tr = (if e_thrown e then 1 else 0) /\
  forall u1 u2, tr = u1 ++ XThrow :: u2 -> fails u1 <> [].
Proof.
  clear Hbids. intros recs tr e H. pose proof (e_inv _ _ _ H) as V. split; [exact (ei_throws _ _ _ _ _ _ _ _ _ _ V)|].
  intros u1 u2 ->. pose proof (ei_run _ _ _ _ _ _ _ _ _ _ V) as Rn. pose proof (ei_disc _ _ _ _ _ _ _ _ _ _ V) as D.
  assert (Eq : u1 ++ XThrow :: u2 = (u1 ++ [XThrow]) ++ u2) by (rewrite <- app_assoc; reflexivity).
  rewrite Eq in Rn. destruct (xrun_split _ _ _ Rn _ _ eq_refl) as (xm & R1 & _).
  eapply C88_throw_only_after_failure; eauto. eapply WriterErrProps.disc_app; eauto.
Qed.

(** Once a write has failed the destructor does not return; it ends all the same: the
    program is ended. *)
Theorem C101_failure_not_silent : forall recs tr e t x,
  erun B x0 bids recs tr e -> edtor e t x ->
  ends x /\ (fails (tr ++ t) <> [] -> ~ In (XOk LDestroyed) t /\ w_pc (x_w x) <> Dead).
Proof.
  clear Hbids. intros recs tr e t x H Hd. destruct (dtor_run _ _ _ _ _ H Hd) as (Rn & D & _ & Hh & P). split.
  - eapply C88_calls_end; eauto. rewrite Hh. cbn [length]. pose proof wbs'. unfold n, x0 in *. lia.
  - assert (Dead_in : forall (y : xst (list R)) u y', xsys y u y' -> w_pc (x_w y) <> Dead -> w_pc (x_w y') = Dead -> In (XOk LDestroyed) u).
    { intros y u y' Hs. induction Hs as [|y1 l y2 u y3 C St Hs IH]; intros N E; [congruence|].
      destruct (w_pc (x_w y2)) eqn:E2; try (right; apply IH; congruence). left.
      inversion St; subst; xproj; try congruence; try discriminate.
      - match goal with K : cstep _ _ _ |- _ => inversion K; subst; xproj; try discriminate; congruence end.
      - match goal with K : istep _ _ _ |- _ => inversion K; subst; xproj; try discriminate; try congruence end.
      - match goal with K : estep _ _ _ |- _ => inversion K; subst; xproj; congruence end. }
    assert (No : fails (tr ++ t) <> [] -> ~ In (XOk LDestroyed) t).
    { intros F Q. apply in_split in Q. destruct Q as (u1 & u2 & ->).
      assert (Eq : tr ++ u1 ++ XOk LDestroyed :: u2 = ((tr ++ u1) ++ [XOk LDestroyed]) ++ u2) by (rewrite <- !app_assoc; reflexivity).
      assert (Rn' := Rn). assert (D' := D). rewrite Eq in Rn', D'.
      destruct (xrun_split _ _ _ Rn' _ _ eq_refl) as (xm & R1 & R2).
      destruct (C88_return_means_written _ _ _ _ _ _ _ _ R1 (WriterErrProps.disc_app _ _ (WriterErrProps.disc_app _ _ D')) (or_intror eq_refl)) as (F' & _ & NI & _).
      (* nothing fails afterwards: no request is open *)
      assert (Pm : w_pc (x_w xm) = Dead).
      { destruct (xrun_last _ _ _ _ R1) as (x2 & _ & St).
        inversion St; subst; xproj; match goal with K : _ _ LDestroyed _ |- _ => inversion K; subst; auto end. }
      assert (Go : forall (y : xst (list R)) u y', xrun y u y' -> w_pc (x_w y) = Dead -> (forall b, ~ in_flight (x_w y) b) ->
         w_pc (x_w y') = Dead /\ (forall b, ~ in_flight (x_w y') b) /\ fails u = []).
      { intros y u y' Ru. induction Ru as [|y1 u y2 l y3 Ru IH St]; intros Py Ny; [csplit; auto|].
        destruct (IH Py Ny) as (P2 & N2 & F2). rewrite fails_app, F2.
        inversion St; subst; xproj; try congruence; csplit; auto; try (match goal with K : cstep _ _ _ |- _ => inversion K; congruence
          | K : istep _ _ _ |- _ => inversion K; congruence
          | K : estep _ _ _, Q : nth_error _ _ = Some ?r |- _ => idtac | _ => idtac end).
        all: try (match goal with K : estep _ _ _ |- _ => inversion K; subst end;
                  match goal with Q1 : nth_error _ _ = Some ?r, Q2 : r_ph ?r = _ |- _ =>
                    exfalso; apply (N2 (r_buf r)); exists r; csplit; [eapply nth_error_In; eauto|auto|congruence] end).
        exfalso. apply (N2 (r_buf r)). exists r. csplit; [eapply nth_error_In; eauto|auto|congruence]. }
      destruct (Go _ _ _ R2 Pm NI) as (_ & _ & F2). apply F. rewrite Eq, !fails_app. rewrite fails_app in F'.
      rewrite F', F2. auto. }
    intros F. split; auto. intros E. apply (No F). inversion Hd as [x1 t' x2 E0 S1 S2]; subst. right.
    eapply Dead_in; eauto. inversion S1; subst; xproj; match goal with K : _ _ LDestroy _ |- _ => inversion K; subst; xproj; discriminate end.
Qed.

(** Whatever fails, every complete block of records is on disk or in a buffer of the
    writer; blocks that are not part of the stream are unchanged. *)
Theorem C101_nothing_lost : forall recs tr e t x, erun B x0 bids recs tr e ->
  (t = [] /\ x = e_x e) \/ edtor e t x ->
  exists blocks rest, recs = concat blocks ++ rest /\ length rest < B /\ length blocks = e_bid e /\
    (forall k blk, nth_error blocks k = Some blk -> length blk = B /\
      (x_disk x (bids k) = Some blk \/
       exists b, b < n /\ w_mem (x_w x) b = blk /\ ~ In b (w_held (x_w x)) /\ ~ In b (w_free (x_w x)))) /\
    (forall d, ~ In d (map bids (seq 0 (e_bid e))) -> x_disk x d = Some (disk0 d)).
Proof.
  intros recs tr e t x H Hx. pose proof (e_inv _ _ _ H) as V.
  assert (G : xrun x0 (tr ++ t) x /\ x_disciplined (tr ++ t) /\ calls (normal (tr ++ t)) = calls (normal tr)).
  { destruct Hx as [(-> & ->)|Hx]; [rewrite app_nil_r; csplit; [exact (ei_run _ _ _ _ _ _ _ _ _ _ V)|exact (ei_disc _ _ _ _ _ _ _ _ _ _ V)|auto]|].
    destruct (dtor_run _ _ _ _ _ H Hx) as (X1 & X2 & X3 & _). auto. }
  destruct G as (Rn & D & Ec). destruct V as [V1 V2 V3 V4 V5 V6 V7 V8 V9 V10 V11 V12].
  exists (map snd (calls (normal tr))), (firstn (e_elem e) (w_mem (x_w (e_x e)) (e_cur e))). csplit.
  - auto.
  - rewrite firstn_length, V7. lia.
  - apply (f_equal (@length _)) in V8. rewrite !map_length, seq_length in V8. rewrite map_length. auto.
  - intros k blk Nk. rewrite nth_error_map in Nk. destruct (nth_error (calls (normal tr)) k) as [(d, a)|] eqn:E; [|discriminate].
    cbn in Nk. inversion Nk; subst a.
    assert (Q : In (d, blk) (calls (normal tr))) by (eapply nth_error_In; eauto).
    assert (d = bids k).
    { apply (f_equal (fun l => nth_error l k)) in V8. rewrite !nth_error_map, E in V8. cbn in V8.
      destruct (nth_error (seq 0 (e_bid e)) k) as [k'|] eqn:Ek; [|discriminate]. cbn in V8.
      apply nth_error_nth with (d := 0) in Ek as Ek'. rewrite seq_nth in Ek'; [cbn in Ek'; subst; congruence|].
      rewrite <- (seq_length (e_bid e) 0). apply nth_error_Some. congruence. }
    subst d. split; [eauto|].
    destruct (C88_nothing_forgotten _ _ _ _ _ _ _ Rn D) as (rest & P & K). rewrite Ec in P.
    apply (Permutation_in _ P) in Q. apply in_app_or in Q. destruct Q as [Q|Q].
    + left. eapply (served_disk B); [exact bids|exact Rn|exact D| |exact Q]. rewrite Ec, V8. apply bids_nodup.
    + right. apply K in Q. auto.
  - intros d N. eapply (other_disk B); [exact bids|exact Rn|exact D|]. rewrite Ec, V8. auto.
Qed.

Lemma get_ends : forall x : xst (list R), ends x -> getting (w_pc (x_w x)) -> x_term x = false ->
  exists t x2 x3, xsys x t x2 /\ ((exists b, xstep x2 (XOk (LRet b)) x3) \/ xstep x2 XThrow x3).
Proof.
  clear Hbids. intros x H. induction H as [x [E|[E|E]]|x Ex _ IH]; intros G T.
  - rewrite E in G. destruct G.
  - rewrite E in G. destruct G.
  - congruence.
  - destruct Ex as (l & x' & St & K).
    assert (C : w_called l = false) by (destruct l as [[]| | |]; auto; destruct K).
    destruct (get_step _ _ _ G C St) as (_ & _ & _ & [(G' & _)|[(_ & b & -> & _)|(_ & -> & _)]]).
    + assert (T' : x_term x' = false).
      { inversion St; subst; xproj; auto; match goal with P : w_pc _ = _ |- _ => rewrite P in G; destruct G end. }
      destruct (IH _ _ (conj St K) G' T') as (t & x2 & x3 & X1 & X2).
      exists (l :: t), x2, x3. split; auto. econstructor; eauto.
    + exists [], x, x'. split; [constructor|eauto].
    + exists [], x, x'. split; [constructor|auto].
Qed.

Lemma e_term : forall recs tr e, erun B x0 bids recs tr e -> x_term (e_x e) = false.
Proof.
  clear Hbids. intros recs tr e H. pose proof (e_inv _ _ _ H) as V. inversion H; subst; cbn [e_x] in *.
  all: match goal with K : xstep _ _ ?x |- x_term ?x = false => inversion K; subst; xproj; auto end.
  all: match goal with Q : w_pc ?s = _, V : EInv _ _ _ _ _ _ _ _ _ (MkE _ _ _ _ _) |- _ => pose proof (ei_pc _ _ _ _ _ _ _ _ _ _ V) as P; cbn in P; congruence end.
Qed.

(** operator << ends whatever the I/O layer does: it returns or throws. *)
Theorem C101_put_ends : forall recs tr e r, erun B x0 bids recs tr e -> e_thrown e = false ->
  (exists t e', erun B x0 bids (recs ++ [r]) (tr ++ t) e') /\
  (forall b d a x1 x2 t x3, xstep (e_x e) (XOk (LFill (e_cur e) b)) x1 ->
     xstep x1 (XOk (LWrite (e_cur e) d a)) x2 -> xsys x2 t x3 -> ends x3).
Proof.
  clear Hbids. intros recs tr e r H Th. pose proof (e_inv _ _ _ H) as V. pose proof (e_term _ _ _ H) as Tm.
  destruct V as [V1 V2 V3 V4 V5 V6 V7 V8 V9 V10 V11 V12]. rewrite Th in V4.
  assert (Gen : forall b d a x1 x2 t x3, xstep (e_x e) (XOk (LFill (e_cur e) b)) x1 ->
     xstep x1 (XOk (LWrite (e_cur e) d a)) x2 -> xsys x2 t x3 -> ends x3).
  { intros b d a x1 x2 t x3 S1 S2 S3.
    destruct (xfill _ _ _ _ S1) as (X1 & X2 & X3). destruct (xwrite _ _ _ _ _ S2) as (Y1 & Y2 & Y3 & Y4); [congruence|].
    destruct (get_xsys B HB _ _ _ S3 Y4) as (M2 & (C & F) & G & N). destruct G as [G|G]; [|constructor; auto].
    destruct N as (Hh & _). { intros E. rewrite E in G. destruct G. }
    eapply C88_calls_end.
    - eapply xrun_app; [exact V1|]. eapply xrun_front; [exact S1|]. eapply xrun_front; [exact S2|]. apply xsys_run; eauto.
    - apply (xdisc_app B bids); auto. intros [Q|[Q|Q]]; try discriminate. eapply F; eauto.
    - rewrite Hh, Y2. cbn [length]. pose proof wbs'. unfold n, x0 in *. lia. }
  split; auto.
  set (a := set_nth (e_elem e) r (w_mem (x_w (e_x e)) (e_cur e))).
  assert (St1 : exists s1, cstep (x_w (e_x e)) (LFill (e_cur e) a) s1 /\ w_held s1 = [e_cur e] /\ w_pc s1 = Idle).
  { eexists. csplit; [apply CFill; auto; rewrite V4; cbn; auto| |]; auto. }
  destruct St1 as (s1 & C1 & Hh1 & P1).
  pose proof (XCaller _ _ _ Tm C1) as S1.
  destruct (le_lt_dec B (S (e_elem e))) as [L|L].
  - set (s2 := set_held (set_pc s1 (enter_write s1 (e_cur e) (bids (e_bid e)))) ([] ++ [])).
    assert (C2 : cstep s1 (LWrite (e_cur e) (bids (e_bid e)) (w_mem s1 (e_cur e))) s2) by (apply (CWrite s1 [] (e_cur e) []); auto).
    assert (S2 : xstep (x_ok (e_x e) (LFill (e_cur e) a) s1) (XOk (LWrite (e_cur e) (bids (e_bid e)) (w_mem s1 (e_cur e))))
       (x_ok (x_ok (e_x e) (LFill (e_cur e) a) s1) (LWrite (e_cur e) (bids (e_bid e)) (w_mem s1 (e_cur e))) s2)).
    { apply XCaller; auto. }
    pose proof (Gen _ _ _ _ _ _ _ S1 S2 (XSNil _)) as En.
    destruct (get_ends _ En) as (t & x2 & x3 & X1 & X2); auto.
    { cbn. unfold enter_write. destruct (w_bs s1 <=? length (w_batch s1)); exact Logic.I. }
    destruct X2 as [(b & X2)|X2].
    + do 2 eexists. eapply EPutWrite; eauto.
    + do 2 eexists. eapply EPutThrow; eauto.
  - do 2 eexists. eapply EPut; eauto.
Qed.

End Output.
Print Assumptions C101_closed_means_written.
Print Assumptions C101_exception_means_failure.
Print Assumptions C101_failure_not_silent.
Print Assumptions C101_nothing_lost.
Print Assumptions C101_put_ends.

Section Input.
Context {R : Type}.
Variable B : nat.
Hypothesis HB : 1 <= B.
Variables (fwd : bool) (bids : list bid) (sq : list nat) (bufs : nat) (disk : bid -> list R)
          (mem : nat -> option (list R)) (y0 : yst (list R)).
Hypothesis Hsq : all_blocks_once (length bids) sq.
Hypothesis Hinit : y_init bids sq bufs disk mem = Some y0.
Hypothesis Hlen : forall d, In d bids -> length (disk d) = B.

Lemma records_data : records fwd disk bids = concat (data fwd bids disk).
Proof. unfold records, data, ord. rewrite map_map. destruct fwd; auto. Qed.

Lemma data_len : forall blk, In blk (data fwd bids disk) -> length blk = B.
Proof.
  intros blk Q. unfold data in Q. rewrite map_map in Q. apply in_map_iff in Q. destruct Q as (d & <- & Q).
  rewrite ord_len. auto.
Qed.

Lemma concat_len : forall (l : list (list R)), (forall b, In b l -> length b = B) -> length (concat l) = length l * B.
Proof.
  induction l as [|b l IH]; intros H; auto. cbn [concat length]. rewrite app_length, (H b), IH by (intros; cbn in *; auto). lia.
Qed.

Lemma firstn_concat : forall (l : list (list R)) c, (forall b, In b l -> length b = B) -> c <= length l ->
  concat (firstn c l) = firstn (c * B) (concat l).
Proof.
  induction l as [|b l IH]; intros [|c] H L; auto; [cbn in L; lia|].
  cbn [firstn concat]. rewrite IH by (intros; cbn in *; auto; lia).
  assert (Lb : length b = B) by (apply H; cbn; auto).
  rewrite firstn_app, Lb. replace (S c * B - B) with (c * B) by lia. f_equal.
  rewrite firstn_all2; auto. lia.
Qed.

(** What a stream delivers: first genuine records, in order; then, only if the read of
    the next block failed, unknown ones, with an exception for every [B] of them; there
    is no way past that block. *)
Theorem C101_read_shape : forall out tr j, jrun B fwd y0 out tr j ->
  exists g m, out = map Some (firstn g (records fwd disk bids)) ++ repeat None m /\
    g <= length (records fwd disk bids) /\ y_throws tr = m / B /\
    (0 < m -> g mod B = 0 /\ In (g / B) (y_fails tr) /\ j_more j = true) /\
    (j_more j = true -> g < length (records fwd disk bids)).
Proof.
  intros out tr j H. destruct (jrun_inv B HB fwd _ _ _ _ _ _ Hsq Hinit Hlen _ _ _ H) as [V1 V2 V3 V4].
  rewrite records_data. pose proof (concat_len _ data_len) as CL.
  assert (DL : length (data fwd bids disk) = length bids) by (unfold data; rewrite !map_length; auto).
  destruct (j_more j) eqn:M.
  - destruct (V3 eq_refl) as (_ & He & c & X1 & X2 & X3 & X4 & X5).
    assert (Hp : pos B fwd (j_elem j) < B) by (unfold pos; destruct fwd; lia).
    destruct X5 as [(Y1 & Y2 & Y3)|(Y1 & Y2 & blk & Y3 & Y4 & Y5 & Y6)].
    + exists (c * B), (y_throws tr * B + pos B fwd (j_elem j)).
      rewrite <- firstn_concat by (try apply data_len; lia). csplit; auto.
      * rewrite CL. nia.
      * rewrite Nat.div_add_l, Nat.div_small by lia. lia.
      * intros _. rewrite Nat.mod_mul, Nat.div_mul by lia. auto.
      * rewrite CL. nia.
    + exists (c * B + pos B fwd (j_elem j)), 0. rewrite Nat.div_0_l by lia. csplit; auto.
      * cbn [repeat]. rewrite app_nil_r, Y6. f_equal.
        assert (S1 : data fwd bids disk = firstn c (data fwd bids disk) ++ ord fwd blk :: skipn (S c) (data fwd bids disk)).
        { clear - Y5. revert Y5. generalize (data fwd bids disk) as D. induction c; intros [|x D] Nb; cbn in *; try discriminate.
          - inversion Nb; auto.
          - f_equal. apply IHc; auto. }
        rewrite S1 at 2. rewrite concat_app. cbn [concat].
        assert (Lf : length (concat (firstn c (data fwd bids disk))) = c * B).
        { rewrite concat_len; [rewrite firstn_length; nia|]. intros b Q. apply data_len.
          rewrite <- (firstn_skipn c). apply in_or_app; auto. }
        rewrite firstn_app, Lf. replace (c * B + pos B fwd (j_elem j) - c * B) with (pos B fwd (j_elem j)) by lia.
        rewrite (firstn_all2 (concat (firstn c (data fwd bids disk)))) by lia. f_equal.
        rewrite firstn_app, ord_len, Y4. replace (pos B fwd (j_elem j) - B) with 0 by lia. cbn. rewrite app_nil_r. auto.
      * rewrite CL. nia.
      * lia.
      * intros _. rewrite CL. nia.
  - destruct (V4 eq_refl) as (Y1 & Y2 & Y3 & _).
    exists (length (concat (data fwd bids disk))), 0. rewrite firstn_all, Nat.div_0_l by lia. cbn [repeat]. rewrite app_nil_r.
    csplit; auto; try lia; try discriminate.
Qed.

(** The stream ends only if everything was read. *)
Theorem C101_end_means_all_read : forall out tr j, jrun B fwd y0 out tr j -> j_more j = false ->
  out = map Some (records fwd disk bids) /\ y_fails tr = [] /\ y_throws tr = 0.
Proof.
  intros out tr j H M. destruct (jrun_inv B HB fwd _ _ _ _ _ _ Hsq Hinit Hlen _ _ _ H) as [_ _ _ V4].
  rewrite records_data. destruct (V4 M) as (X1 & X2 & X3 & _). auto.
Qed.

(** No record with a wrong value is delivered from a block that was read. *)
Theorem C101_known_records_right : forall out tr j i r, jrun B fwd y0 out tr j ->
  nth_error out i = Some (Some r) -> nth_error (records fwd disk bids) i = Some r.
Proof.
  intros out tr j i r H Ni. destruct (C101_read_shape _ _ _ H) as (g & m & -> & L & _).
  destruct (Nat.lt_ge_cases i (length (map Some (firstn g (records fwd disk bids))))) as [Li|Li].
  - rewrite nth_error_app1, nth_error_map in Ni by auto.
    destruct (nth_error (firstn g (records fwd disk bids)) i) as [r'|] eqn:E; [|discriminate].
    cbn in Ni. inversion Ni; subst r'. rewrite <- E. symmetry.
    assert (Lg : i < g) by (rewrite map_length, firstn_length in Li; lia).
    clear - Lg. revert i g Lg. generalize (records fwd disk bids) as l.
    induction l as [|x l IH]; intros [|i] [|g] Lg; cbn; auto; try lia. apply IH. lia.
  - exfalso. rewrite nth_error_app2 in Ni by auto. apply nth_error_In in Ni. apply repeat_spec in Ni. discriminate.
Qed.

(** After a failed read the destructor of the stream never returns. *)
Theorem C101_input_destructor : forall out tr j t y, jrun B fwd y0 out tr j -> yrun (j_y j) t y ->
  y_fails (tr ++ t) <> [] -> ~ In (YOk FDestroyed) t.
Proof.
  intros out tr j t y H Ht F Q. destruct (jrun_inv B HB fwd _ _ _ _ _ _ Hsq Hinit Hlen _ _ _ H) as [V1 _ _ _].
  destruct (C89_destructor_never_returns _ _ _ _ _ _ Hsq Hinit (tr ++ t) y) as (_ & N); auto.
  - eapply yrun_app; eauto.
  - apply N. apply in_or_app; auto.
Qed.

Lemma j_term : forall out tr j, jrun B fwd y0 out tr j -> y_term (j_y j) = false.
Proof.
  intros out tr j H. pose proof (jrun_inv B HB fwd _ _ _ _ _ _ Hsq Hinit Hlen _ _ _ H) as V. pose proof (ji_pc _ _ _ _ _ _ _ _ V) as P.
  clear V. induction H; cbn [j_y] in *; auto.
  2: { pose proof (ji_pc _ _ _ _ _ _ _ _ (jrun_inv B HB fwd _ _ _ _ _ _ Hsq Hinit Hlen _ _ _ H)) as P0.
       match goal with K : ystep _ _ ?y |- y_term ?y = false => inversion K; subst; yproj; auto; congruence end. }
  all: match goal with K : ystep _ _ ?y |- y_term ?y = false => inversion K; subst; yproj; auto end.
Qed.

Definition taking (pc : ppc) : Prop := match pc with PGiven _ | PWait _ | PFail => True | _ => False end.

Lemma take_ends : forall y : yst (list R), y_ends y -> taking (p_pc (y_p y)) -> y_term y = false ->
  exists t y2 y3, ysys y t y2 /\ ((exists b a, ystep y2 (YOk (FRet b a)) y3) \/ ystep y2 (YOk FNone) y3 \/ ystep y2 YThrow y3).
Proof.
  intros y H. induction H as [y [E|[E|E]]|y Ex _ IH]; intros G T.
  - rewrite E in G. destruct G.
  - rewrite E in G. destruct G.
  - congruence.
  - destruct Ex as (l & y' & St & K).
    assert (C : p_called l = false) by (destruct l as [[]| | |]; auto; destruct K).
    assert (X : (taking (p_pc (y_p y')) /\ y_term y' = false) \/ (exists b a, l = YOk (FRet b a)) \/ l = YOk FNone \/ l = YThrow).
    { inversion St; subst; yproj; pproj; auto;
        try (match goal with Q : p_pc _ = _ |- _ => rewrite Q in G; destruct G end).
      - match goal with Q : pcstep _ _ _ |- _ => inversion Q; subst; discriminate end.
      - match goal with Q : pistep _ _ _ _ |- _ => inversion Q; subst end;
          try (match goal with Q : p_pc _ = _ |- _ => rewrite Q in G; destruct G end; fail); cbn [y_see]; eauto.
        all: left; split; auto; first [exact Logic.I|cbn [y_p y_set]; match goal with Q : p_pc (consumed _ _) = _ |- _ => rewrite Q end; exact Logic.I]. }
    destruct X as [(G' & T')|[(b & a & ->)|[->| ->]]].
    + destruct (IH _ _ (conj St K) G' T') as (t & y2 & y3 & X1 & X2).
      exists (l :: t), y2, y3. split; auto. econstructor; eauto.
    + exists [], y, y'. split; [constructor|eauto].
    + exists [], y, y'. split; [constructor|auto].
    + exists [], y, y'. split; [constructor|auto].
Qed.

(** operator >> ends if the schedule never starves the reader: it returns or throws. *)
Theorem C101_get_ends : forall out tr j, jrun B fwd y0 out tr j -> j_more j = true ->
  never_starves (min bufs (length bids)) (length bids) sq ->
  (exists r t j', jrun B fwd y0 (out ++ [r]) (tr ++ t) j') /\
  forall y1 t y2, ystep (j_y j) (YOk (FGive (j_cur j))) y1 -> ysys y1 t y2 -> y_ends y2.
Proof.
  intros out tr j H M NS.
  destruct (jrun_inv B HB fwd _ _ _ _ _ _ Hsq Hinit Hlen _ _ _ H) as [V1 V2 V3 _].
  destruct (V3 M) as (Hh & _).
  assert (Gen : forall y1 t y2, ystep (j_y j) (YOk (FGive (j_cur j))) y1 -> ysys y1 t y2 -> y_ends y2).
  { intros y1 t y2 S1 S2. destruct (give_held _ _ _ S1 Hh) as (Hh1 & _).
    assert (Dec : p_pc (y_p y2) = PIdle \/ p_pc (y_p y2) <> PIdle) by (destruct (p_pc (y_p y2)); auto; right; discriminate).
    destruct Dec as [P|P]; [constructor; auto|].
    destruct (active_ysys B HB _ _ _ S2 P) as (Hh2 & _).
    eapply (C89_calls_end _ _ _ _ _ _ Hsq Hinit (tr ++ YOk (FGive (j_cur j)) :: t)).
    - eapply yrun_app; [|exact V1]. eapply yrun_front; eauto. apply ysys_run; auto.
    - rewrite Hh2, Hh1. cbn [length]. rewrite Nat.sub_0_r. auto. }
  split; auto. destruct (block_done B fwd (j_elem j)) eqn:D.
  - assert (S1 : exists y1, ystep (j_y j) (YOk (FGive (j_cur j))) y1).
    { eexists. apply YCaller; [eapply j_term; eauto|]. apply (QGive _ [] (j_cur j) []); auto. }
    destruct S1 as (y1 & S1). destruct (take_ends y1) as (t & y2 & y3 & X1 & X2).
    + eapply Gen; [exact S1|constructor].
    + destruct (give_held _ _ _ S1 Hh) as (_ & ->). exact Logic.I.
    + pose proof (j_term _ _ _ H) as T. inversion S1; subst; yproj; auto.
    + destruct X2 as [(b & a & X2)|[X2|X2]].
      * do 3 eexists. eapply JGetNext; eauto.
      * do 3 eexists. eapply JGetLast; eauto.
      * do 3 eexists. eapply JGetThrow; eauto.
  - exists (record_at (j_y j) (j_cur j) (j_elem j)), []. rewrite app_nil_r. eexists. eapply JGet; eauto.
Qed.

End Input.
Print Assumptions C101_read_shape.
Print Assumptions C101_end_means_all_read.
Print Assumptions C101_known_records_right.
Print Assumptions C101_input_destructor.
Print Assumptions C101_get_ends.

(** If an output stream was closed and an input stream over its blocks ended, the records
    are those that were put, whatever could have failed. *)
Theorem C101_roundtrip : forall {R} B nb mem0 bids0 (disk0 : bid -> list R) bids recs tr e t x fwd sq bufs mem y0 out tr' j,
  1 <= B -> (forall b, length (mem0 b) = B) -> (forall i k, bids i = bids k -> i = k) ->
  erun B (x_init nb (nb / 2) mem0 bids0 disk0) bids recs tr e -> edtor e (t ++ [XOk LDestroyed]) x ->
  all_blocks_once (e_bid e) sq ->
  y_init (stream_bids fwd (map bids (seq 0 (e_bid e)))) sq bufs (w_disk (x_w x)) mem = Some y0 ->
  jrun B fwd y0 out tr' j ->
  let expected := if fwd then recs else rev recs in
  (j_more j = false -> out = map Some expected) /\
  (forall i r, nth_error out i = Some (Some r) -> nth_error expected i = Some r).
Proof.
  intros R B nb mem0 bids0 disk0 bids recs tr e t x fwd sq bufs mem y0 out tr' j HB Hm Hb He Hd Hsq Hi Hj expected.
  destruct (C101_closed_means_written B HB nb mem0 bids0 disk0 bids Hm Hb _ _ _ _ _ He Hd) as (_ & _ & _ & (blocks & W1 & W2 & W3) & _).
  set (ds := map bids (seq 0 (e_bid e))) in *.
  assert (Wd : map (w_disk (x_w x)) ds = blocks).
  { clear - W1. revert blocks W1. induction ds as [|d ds IH]; intros [|b blocks] W1; try discriminate; auto.
    cbn [map] in *. inversion W1 as [[E1 E2]]. unfold x_disk in E1. destruct (x_torn x d); [discriminate|].
    inversion E1. rewrite (IH _ E2). subst. auto. }
  assert (Ld : length (stream_bids fwd ds) = e_bid e).
  { unfold stream_bids, ds. destruct fwd; rewrite ?rev_length, map_length, seq_length; auto. }
  assert (Hl : forall d, In d (stream_bids fwd ds) -> length (w_disk (x_w x) d) = B).
  { intros d Q. assert (Q' : In d ds) by (unfold stream_bids in Q; destruct fwd; [|apply in_rev in Q]; auto).
    apply W3. rewrite <- Wd. apply in_map; auto. }
  rewrite <- Ld in Hsq.
  assert (Ee : records fwd (w_disk (x_w x)) (stream_bids fwd ds) = expected).
  { rewrite records_data, data_all, Wd, W2. auto. }
  split.
  - intros M. destruct (C101_end_means_all_read B HB fwd _ _ _ _ _ _ Hsq Hi Hl _ _ _ Hj M) as (-> & _). rewrite Ee. auto.
  - intros i r Q. rewrite <- Ee. eapply (C101_known_records_right B HB fwd); eauto.
Qed.
Print Assumptions C101_roundtrip.

(** ** Concrete runs *)

Definition ex101_bids (k : nat) : bid := MkBid k (Z.of_nat k).
Definition ex101 : xst (list nat) := x_init 2 1 (fun _ => [0; 0]) (fun _ => MkBid 0 0) (fun _ => [7; 7]).

Lemma xs_eq : forall {R} (x1 x2 x3 : xst (list R)) l l' t, w_called l = false -> xstep x1 l x2 -> l = l' ->
  xsys x2 t x3 -> xsys x1 (l' :: t) x3.
Proof. intros; subst; econstructor; eauto. Qed.
Ltac xnorm := match goal with |- xsys ?s _ _ => let s' := eval cbv in s in change s with s' end.
Ltac scode tac := eapply XSCons; [|apply XCode; [reflexivity|tac; side|pr]|xnorm]; [reflexivity|].
Ltac sbad i := eapply XSCons; [|eapply (XFails _ i); [reflexivity|reflexivity|reflexivity|cbn; tauto]|xnorm]; [reflexivity|].
Ltac sio tac := eapply XSCons; [|apply XIo; [reflexivity|tac; reflexivity|
  let i := fresh in let Q := fresh in intros i Q; cbn in Q |- *; intuition (subst; auto)]|xnorm]; [reflexivity|].
Ltac sthr tac := eapply XSCons; [|tac; side|xnorm]; [reflexivity|].
Ltac snorm := match goal with
  | |- xsys ?s _ _ => let s' := eval cbv in s in change s with s'
  | |- xstep ?s _ _ => let s' := eval cbv in s in change s with s'
  | |- xrun ?s _ _ => let s' := eval cbv in s in change s with s'
  end.
Ltac scal tac := snorm; apply XCaller; [reflexivity|tac; side].

(** Two buffers, batch size 1, blocks of two records.  Records 1 and 2 are block 0,
    3 and 4 are block 1.  The write of block 0 fails and operator << throws. *)
Lemma ex101_throw : exists tr e, erun 2 ex101 ex101_bids [1; 2; 3; 4] tr e /\ e_thrown e = true /\
  fails tr = [ex101_bids 0] /\ throws tr = 1 /\ e_bid e = 2 /\
  x_disk (e_x e) (ex101_bids 0) = None /\ x_disk (e_x e) (ex101_bids 1) = Some [7; 7] /\
  (exists t x, edtor e t x /\ x_term x = true /\ x_disk x (ex101_bids 0) = None /\ x_disk x (ex101_bids 1) = Some [3; 4]) /\
  (exists t x, xrun (stale_put e 9) t x /\ x_disk x (ex101_bids 1) = Some [9; 4]).
Proof.
  eexists. eexists. split.
  - change [1; 2; 3; 4] with (((([] ++ [1]) ++ [2]) ++ [3]) ++ [4]).
    eapply EPutThrow; [eapply EPut; [eapply EPutWrite; [eapply EPut; [eapply ENew| | |]| | | | | |]| | |]| | | | | |].
    + scal ltac:(apply CGet).
    + snorm; scode ltac:(eapply IPollEnd). constructor.
    + snorm; apply XCode; [reflexivity|apply (ITakeFree _ [0] 1); reflexivity|pr].
    + reflexivity.
    + scal ltac:(apply CFill).
    + cbn; lia.
    + reflexivity.
    + scal ltac:(apply CFill).
    + cbn; lia.
    + scal ltac:(apply (CWrite _ [] 1 [])).
    + snorm; scode ltac:(eapply IWPush). scode ltac:(eapply IPollEnd). constructor.
    + snorm; apply XCode; [reflexivity|apply (ITakeFree _ [] 0); reflexivity|pr].
    + reflexivity.
    + scal ltac:(apply CFill).
    + cbn; lia.
    + reflexivity.
    + scal ltac:(apply CFill).
    + cbn; lia.
    + scal ltac:(apply (CWrite _ [] 0 [])).
    + snorm; scode ltac:(eapply (IWFlush _ 0 (ex101_bids 1) 0 1 []); [reflexivity|top (@nil (Z * nat)) (@nil (Z * nat))|reflexivity]).
      scode ltac:(eapply IWFlushEnd). scode ltac:(eapply IWPush). sbad 0. constructor.
    + snorm; eapply (XPoll _ 0 1); reflexivity.
  - csplit; try reflexivity.
    + eexists. eexists. csplit.
      * eapply EDtor; [reflexivity|scal ltac:(apply CDestroy)|snorm].
        scode ltac:(eapply (IDFlush _ 1 0 []); [reflexivity|top (@nil (Z * nat)) (@nil (Z * nat))|reflexivity]).
        scode ltac:(eapply IDFlushEnd).
        sio ltac:(eapply (EServe _ 1)). sthr ltac:(eapply (XDWait _ 1 [0])). constructor.
      * reflexivity.
      * reflexivity.
      * reflexivity.
    + eexists. eexists. split.
      * eapply xrun_front; [scal ltac:(apply CDestroy)|norm].
        eapply xrun_front; [apply XCode; [reflexivity|eapply (IDFlush _ 1 0 []); [reflexivity|top (@nil (Z * nat)) (@nil (Z * nat))|reflexivity]|pr]|norm].
        eapply xrun_front; [apply XIo; [reflexivity|eapply (EServe _ 1); reflexivity|
          let i := fresh in let Q := fresh in intros i Q; cbn in Q |- *; intuition (subst; auto)]|norm]. constructor.
      * reflexivity.
Qed.

(** Without failures the destructor returns. *)
Lemma ex101_closed : exists tr e t x, erun 2 ex101 ex101_bids [1; 2] tr e /\ e_thrown e = false /\
  edtor e (t ++ [XOk LDestroyed]) x /\ x_disk x (ex101_bids 0) = Some [1; 2] /\
  x_disk x (ex101_bids 1) = Some [7; 7].
Proof.
  eexists. eexists. exists [XOk LDestroy; XOk LTau; XOk LTau; XOk (LServe (ex101_bids 0) [1; 2]); XOk LTau; XOk LTau]. eexists. split; [|csplit].
  - change [1; 2] with (([] ++ [1]) ++ [2]).
    eapply EPutWrite; [eapply EPut; [eapply ENew| | |]| | | | | |].
    + scal ltac:(apply CGet).
    + snorm; scode ltac:(eapply IPollEnd). constructor.
    + snorm; apply XCode; [reflexivity|apply (ITakeFree _ [0] 1); reflexivity|pr].
    + reflexivity.
    + scal ltac:(apply CFill).
    + cbn; lia.
    + reflexivity.
    + scal ltac:(apply CFill).
    + cbn; lia.
    + scal ltac:(apply (CWrite _ [] 1 [])).
    + snorm; scode ltac:(eapply IWPush). scode ltac:(eapply IPollEnd). constructor.
    + snorm; apply XCode; [reflexivity|apply (ITakeFree _ [] 0); reflexivity|pr].
  - reflexivity.
  - cbn [app]. eapply EDtor; [reflexivity|scal ltac:(apply CDestroy)|snorm].
    scode ltac:(eapply (IDFlush _ 0 1 []); [reflexivity|top (@nil (Z * nat)) (@nil (Z * nat))|reflexivity]).
    scode ltac:(eapply IDFlushEnd).
    eapply xs_eq; [|apply XIo; [reflexivity|eapply (EServe _ 0); reflexivity|intros i []]|reflexivity|xnorm]; [reflexivity|].
    sio ltac:(eapply (EReady _ 0)). scode ltac:(eapply (IDWait _ 1 [])). scode ltac:(eapply IDWaitEnd). constructor.
  - reflexivity.
  - reflexivity.
Qed.

(** The hypotheses of the theorems of output streams, met by a stream that failed and by one
    that did not. *)
Example C101_case :
  1 <= 2 /\ (forall b : nat, length ((fun _ : nat => [0; 0]) b) = 2) /\
  (forall i j, ex101_bids i = ex101_bids j -> i = j) /\ ex101 = x_init 2 (2 / 2) (fun _ => [0; 0]) (fun _ => MkBid 0 0) (fun _ => [7; 7]) /\
  (exists tr e t x, erun 2 ex101 ex101_bids [1; 2; 3; 4] tr e /\ fails (tr ++ t) <> [] /\ edtor e t x /\ x_term x = true /\
     x_disk x (ex101_bids 0) = None /\ x_disk x (ex101_bids 1) = Some [3; 4]) /\
  (exists tr e t x, erun 2 ex101 ex101_bids [1; 2] tr e /\ e_thrown e = false /\ edtor e (t ++ [XOk LDestroyed]) x /\
     x_disk x (ex101_bids 0) = Some [1; 2]).
Proof.
  csplit; auto.
  - intros i j Q. inversion Q. auto.
  - destruct ex101_throw as (tr & e & H & _ & F & _ & _ & _ & _ & (t & x & Hd & T & D0 & D1) & _).
    exists tr, e, t, x. csplit; auto. rewrite fails_app, F. discriminate.
  - destruct ex101_closed as (tr & e & t & x & H & T & Hd & D0 & _). exists tr, e, t, x. auto.
Qed.

(** A stream must not be used after an exception: the next record goes into a block that
    was accepted before, and the block that is written is not the one that was put. *)
Theorem C101_use_after_exception_refuted :
  ~ (forall B nb (mem0 : nat -> list nat) bids0 disk0 bids recs tr e r t x k,
       1 <= B -> (forall b, length (mem0 b) = B) -> (forall i j, bids i = bids j -> i = j) ->
       erun B (x_init nb (nb / 2) mem0 bids0 disk0) bids recs tr e -> xrun (stale_put e r) t x -> k < e_bid e ->
       x_disk x (bids k) = None \/ x_disk x (bids k) = Some (disk0 (bids k)) \/
       x_disk x (bids k) = Some (firstn B (skipn (k * B) recs))).
Proof.
  intros H. destruct C101_case as (H1 & H2 & H3 & E & _).
  destruct ex101_throw as (tr & e & He & _ & _ & _ & Eb & _ & _ & _ & (t & x & Rx & Dx)).
  rewrite E in He. specialize (H 2 2 _ _ _ ex101_bids _ _ _ 9 _ _ 1 H1 H2 H3 He Rx). rewrite Dx, Eb in H.
  destruct H as [H|[H|H]]; [lia|discriminate..].
Qed.

(** *** Input *)

Definition ex101_disk (d : bid) : list nat := if b_storage d =? 0 then [1; 2] else [3; 4].

Ltac zn := match goal with
  | |- ysys ?s _ _ => let s' := eval cbv in s in change s with s'
  | |- ystep ?s _ _ => let s' := eval cbv in s in change s with s'
  end.
Ltac zcode tac := zn; eapply YSCons; [|apply YCode; [reflexivity|tac; yside|
  let b := fresh in let Q := fresh in intros b [Q|(Q & _)]; inversion Q; reflexivity]|]; [reflexivity|].
Ltac zenv ix := zn; eapply YSCons; [|
  first [eapply (YArrive _ ix); reflexivity|eapply (YSwitch _ ix); reflexivity|eapply (YFinish _ ix); reflexivity]|]; [reflexivity|].
Ltac zbad ix := zn; eapply YSCons; [|eapply (YFails _ ix); reflexivity|]; [reflexivity|].
Lemma y_eq : forall {R} (y y' : yst (list R)) l l', ystep y l y' -> l = l' -> ystep y l' y'.
Proof. intros; subst; auto. Qed.
Ltac zret tac := zn; eapply y_eq; [apply YCode; [reflexivity|tac; yside|
  let b := fresh in let Q := fresh in intros b [Q|(Q & _)]; inversion Q; reflexivity]|cbn [y_see]; reflexivity].

(** Two blocks, two buffers; the read of the second block fails.  Its first record is
    delivered without an exception; the operator that takes its last one throws. *)
Lemma and_then : forall P Q : Prop, P -> (P -> Q) -> P /\ Q.
Proof. tauto. Qed.

Lemma ex101_input : exists y0 out1 tr1 j1 out2 tr2 j2,
  y_init [MkBid 0 0; MkBid 1 0] [0; 1] 2 ex101_disk (fun _ => None) = Some y0 /\
  jrun 2 true y0 out1 tr1 j1 /\ out1 = [Some 1; Some 2; None] /\ ~ In YThrow tr1 /\ y_fails tr1 = [1] /\
  jrun 2 true y0 out2 tr2 j2 /\ out2 = [Some 1; Some 2; None; None] /\ y_throws tr2 = 1 /\ j_more j2 = true.
Proof.
  do 7 eexists. split; [reflexivity|].
  apply and_then; [|intros H1; split; [|split; [|split; [|split; [|csplit]]]]].
  - eapply JGet; [eapply JGetNext; [eapply JGet; [eapply JNew| |]| | | | |]| |].
    + zcode ltac:(apply (JCtor _ _ 0)). zcode ltac:(apply (JCtor _ _ 1)). zcode ltac:(apply (JCtorEnd _ _ 2)).
      zenv 0. zenv 0. zenv 0. zn. constructor.
    + zn. apply YCaller; [reflexivity|apply QPull; yside].
    + zn. constructor.
    + zret ltac:(apply (JRet _ _ 0 0)).
    + reflexivity.
    + reflexivity.
    + reflexivity.
    + reflexivity.
    + zn. apply YCaller; [reflexivity|apply (QGive _ [] 0 []); reflexivity].
    + zcode ltac:(apply (JNext _ _ 0)). zbad 1. zenv 1. zn. constructor.
    + zret ltac:(apply (JRet _ _ 1 1)).
    + reflexivity.
    + reflexivity.
  - vm_compute. reflexivity.
  - vm_compute. intuition discriminate.
  - vm_compute. reflexivity.
  - eapply JGetThrow; [exact H1| | | | |].
    + reflexivity.
    + reflexivity.
    + zn. apply YCaller; [reflexivity|apply (QGive _ [] 1 []); reflexivity].
    + zenv 1. zn. constructor.
    + zn. eapply (YThrows _ 1); reflexivity.
  - vm_compute. reflexivity.
  - vm_compute. reflexivity.
  - reflexivity.
Qed.

Example C101_input_case : exists y0 out tr j,
  1 <= 2 /\ all_blocks_once (length [MkBid 0 0; MkBid 1 0]) [0; 1] /\
  y_init [MkBid 0 0; MkBid 1 0] [0; 1] 2 ex101_disk (fun _ => None) = Some y0 /\
  (forall d, In d [MkBid 0 0; MkBid 1 0] -> length (ex101_disk d) = 2) /\
  never_starves (min 2 2) 2 [0; 1] /\
  jrun 2 true y0 out tr j /\ out = [Some 1; Some 2; None; None] /\ y_throws tr = 1 /\ j_more j = true.
Proof.
  destruct ex101_input as (y0 & _ & _ & _ & out & tr & j & H0 & _ & _ & _ & _ & H1 & E & T & M).
  exists y0, out, tr, j. csplit; auto.
  - unfold all_blocks_once. apply Permutation_refl.
  - intros d [<-|[<-|[]]]; reflexivity.
  - intros k Hk. destruct k as [|[|k]]; cbn; auto; lia.
Qed.

(** A failed read is not reported before records of the block have been delivered. *)
Theorem C101_reported_in_time_refuted :
  ~ (forall B fwd bids sq bufs (disk : bid -> list nat) mem y0 out tr j,
       1 <= B -> all_blocks_once (length bids) sq -> y_init bids sq bufs disk mem = Some y0 ->
       (forall d, In d bids -> length (disk d) = B) ->
       jrun B fwd y0 out tr j -> ~ In YThrow tr -> ~ In None out).
Proof.
  intros H. destruct ex101_input as (y0 & out & tr & j & _ & _ & _ & H0 & H1 & E & N & _).
  destruct C101_input_case as (_ & _ & _ & _ & Q1 & Q2 & _ & Q3 & _).
  apply (H _ _ _ _ _ _ _ _ _ _ _ Q1 Q2 H0 Q3 H1 N). rewrite E. cbn. auto.
Qed.
Print Assumptions C101_use_after_exception_refuted.
Print Assumptions C101_reported_in_time_refuted.
