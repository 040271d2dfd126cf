(** Pools: the structural invariant holds in every execution of a client that
    waits for what it takes out; sizes. *)

From Coq Require Import ZArith List Bool Lia Permutation.
From Verif Require Import PoolModel PoolSpec PoolProofs PoolProofs2.
Import ListNotations.

Lemma p_erase_len : forall d l e, NoDup (map p_bid l) -> p_find d l = Some e ->
  length l = S (length (p_erase d l)).
Proof.
  intros d l e N F. destruct (p_find_split _ _ _ N F) as (l1 & l2 & -> & -> & _).
  rewrite !app_length; cbn; lia.
Qed.

(** Give an owned block to the prefetch pool's free list. *)
Lemma SI_free_p : forall p w s own al b,
  SI p w s (b :: own) al ->
  SI (MkPP (p_free p ++ [b]) (S (p_fsize p)) (p_busy p)) w s own al.
Proof.
  intros p w s own al b I0. eapply SI_free; [exact I0|reflexivity|reflexivity| |].
  - cbn. rewrite (si_fsize _ _ _ _ _ I0), app_length; cbn; lia.
  - cbn. clear; perm.
Qed.

Lemma SI_take_p : forall p w s own al l b,
  SI p w s own al -> p_free p = l ++ [b] ->
  SI (MkPP l (p_fsize p - 1) (p_busy p)) w s (b :: own) al.
Proof.
  intros p w s own al l b I0 E. eapply SI_free; [exact I0|reflexivity|reflexivity| |].
  - cbn. rewrite (si_fsize _ _ _ _ _ I0), E, app_length; cbn; lia.
  - cbn. rewrite E. clear; perm.
Qed.

Lemma SI_add_w : forall p w s own al b,
  SI p w s (b :: own) al -> SI p (w_add w b) s own al.
Proof.
  intros p w s own al b I0. eapply SI_free; [exact I0|reflexivity|reflexivity|apply I0|].
  cbn. clear; perm.
Qed.

Lemma fsize_pos : forall p w s own al l b,
  SI p w s own al -> p_free p = l ++ [b] -> (1 <= p_fsize p)%nat.
Proof.
  intros p w s own al l b I0 E. rewrite (si_fsize _ _ _ _ _ I0), E, app_length; cbn; lia.
Qed.

Lemma SI_invalidate : forall fifo p w s d p' s' r own al,
  p_invalidate fifo p s d p' s' r -> SI p w s own al ->
  SI p' w s' own al /\ p_size p' = p_size p.
Proof.
  intros fifo p w s d p' s' r own al H I0. destruct H; auto.
  pose proof (p_erase_len _ _ _ (si_keys _ _ _ _ _ I0) H) as L.
  split; [|unfold p_size; cbn; lia].
  apply SI_evol with (s' := s2) in I0.
  - eapply SI_remove_p in I0; eauto. apply SI_free_p in I0. exact I0.
  - eapply evol_trans; [eapply env_evol; eauto|].
    eapply evol_trans; [|eapply env_evol; eauto].
    destruct (is_read s1 (p_req e)); [apply cancel_evol|apply evol_refl].
Qed.

Lemma SI_hint0 : forall p w s d p' s' r own al,
  p_hint0 p s d p' s' r -> SI p w s own al -> b_storage d <> O ->
  SI p' w s' own al /\ p_size p' = p_size p.
Proof.
  intros p w s d p' s' r own al H I0 SD. destruct H; auto.
  pose proof (fsize_pos _ _ _ _ _ _ _ I0 H1) as F.
  split.
  - apply SI_take_p with (l := l) (b := b) in I0; auto.
    apply SI_post_p with (d := d) in I0; auto.
  - unfold p_size, p_set; cbn. apply p_find_none in H. rewrite p_erase_none; auto. lia.
Qed.

Lemma SI_hint : forall p w s d p' w' s' r own al,
  p_hint p w s d p' w' s' r -> SI p w s own al -> b_storage d <> O ->
  SI p' w' s' own al /\ p_size p' = p_size p /\ w_size w' = w_size w.
Proof.
  intros p w s d p' w' s' r own al H I0 SD. destruct H; auto.
  - destruct (steal_request_split _ _ _ _ _ H3) as (e & l1 & l2 & EQ & -> & EB & -> & ->).
    pose proof (fsize_pos _ _ _ _ _ _ _ I0 H1) as F. csplit.
    + apply SI_take_p with (l := l) (b := b) in I0; auto.
      eapply SI_transfer in I0; eauto. apply SI_add_w in I0. exact I0.
    + unfold p_size, p_set; cbn. apply p_find_none in H. rewrite p_erase_none; auto. lia.
    + unfold w_size; cbn. rewrite EQ, !app_length; cbn; lia.
  - pose proof (fsize_pos _ _ _ _ _ _ _ I0 H1) as F. csplit; auto.
    + apply SI_take_p with (l := l) (b := b) in I0; auto.
      apply SI_post_p with (d := d) in I0; auto.
    + unfold p_size, p_set; cbn. apply p_find_none in H. rewrite p_erase_none; auto. lia.
Qed.

(** A read from disk into the client's block, seen as a hint that is consumed. *)
Lemma SI_read_disk : forall fifo p w s d b own al s',
  SI p w s (b :: own) al -> p_find d (p_busy p) = None -> b_storage d <> O ->
  env fifo (post s false b d) s' -> finished s' (length (io_reqs s)) = true ->
  SI p w s' (b :: own) al.
Proof.
  intros fifo p w s d b own al s' I0 PF SD E F.
  pose proof (proj1 (p_find_none _ _) PF) as NI.
  apply SI_post_p with (d := d) in I0; auto.
  apply SI_evol with (s' := s') in I0; [|eapply env_evol; eauto].
  eapply (SI_remove_p _ _ _ _ _ d (MkP d b (length (io_reqs s)))) in I0; auto.
  - cbn in I0. rewrite bid_eqb_refl in I0; cbn in I0.
    change (p_erase d (p_busy p)) with (p_erase d (p_busy p)) in I0.
    assert (EE : filter (fun e => negb (bid_eqb (p_bid e) d)) (p_erase d (p_busy p)) = p_busy p).
    { change (p_erase d (p_erase d (p_busy p)) = p_busy p).
      rewrite (p_erase_none d (p_busy p) NI). apply p_erase_none; auto. }
    rewrite EE in I0. destruct p; exact I0.
  - cbn. rewrite bid_eqb_refl; auto.
Qed.

Lemma SI_read : forall fifo p w s b d p' w' s1 b' r own al s',
  p_read p w s b d p' w' s1 b' r -> SI p w s (b :: own) al -> b_storage d <> O ->
  env fifo s1 s' -> finished s' r = true ->
  SI p' w' s' (b' :: own) al /\ p_size p' = p_size p /\ w_size w' = w_size w.
Proof.
  intros fifo p w s b d p' w' s1 b' r own al s' H I0 SD E F. destruct H.
  - pose proof (p_erase_len _ _ _ (si_keys _ _ _ _ _ I0) H) as L.
    csplit; auto; [|unfold p_size; cbn; lia].
    apply SI_evol with (s' := s') in I0; [|eapply env_evol; eauto].
    eapply SI_remove_p in I0; eauto.
    eapply SI_perm with (own' := b :: p_buf e :: own) in I0; [|apply perm_swap].
    apply SI_free_p in I0. exact I0.
  - destruct (steal_request_split _ _ _ _ _ H1) as (e & l1 & l2 & EQ & -> & EB & -> & ->).
    csplit; auto; [|unfold w_size; cbn; rewrite EQ, !app_length; cbn; lia].
    apply SI_evol with (s' := s') in I0; [|eapply env_evol; eauto].
    eapply SI_remove_w in I0; eauto.
    eapply SI_perm with (own' := b :: e_buf e :: own) in I0; [|apply perm_swap].
    apply SI_add_w in I0. exact I0.
  - csplit; auto. eapply SI_read_disk; eauto.
Qed.

Lemma SI_read0 : forall fifo p w s b d p' s1 b' r own al s',
  p_read0 p s b d p' s1 b' r -> SI p w s (b :: own) al -> b_storage d <> O ->
  env fifo s1 s' -> finished s' r = true ->
  SI p' w s' (b' :: own) al /\ p_size p' = p_size p.
Proof.
  intros fifo p w s b d p' s1 b' r own al s' H I0 SD E F. destruct H.
  - csplit; auto. eapply SI_read_disk; eauto.
  - pose proof (p_erase_len _ _ _ (si_keys _ _ _ _ _ I0) H) as L.
    csplit; auto; [|unfold p_size; cbn; lia].
    apply SI_evol with (s' := s') in I0; [|eapply env_evol; eauto].
    eapply SI_remove_p in I0; eauto.
    eapply SI_perm with (own' := b :: p_buf e :: own) in I0; [|apply perm_swap].
    apply SI_free_p in I0. exact I0.
Qed.

Lemma w_mark_len : forall fifo d buf l s l' s',
  w_mark fifo d buf l s l' s' -> length l' = length l.
Proof. intros fifo d buf l s l' s' H; induction H; cbn; auto. Qed.

Lemma w_write_size : forall fifo w s b d w' s' r,
  w_write fifo w s b d w' s' r -> w_size w' = S (w_size w).
Proof.
  intros fifo w s b d w' s' r H; destruct H. apply w_mark_len in H.
  unfold w_size; cbn. rewrite app_length; cbn. lia.
Qed.

Lemma SI_rw_write : forall fifo p w s b d p' w' s' own al,
  rw_write fifo p w s b d p' w' s' -> SI p w s (b :: own) al -> b_storage d <> O ->
  SI p' w' s' own al /\ p_size p' = p_size p /\ w_size w' = S (w_size w).
Proof.
  intros fifo p w s b d p' w' s' own al H I0 SD. destruct H.
  - pose proof (w_write_size _ _ _ _ _ _ _ _ H) as L.
    eapply SI_write in I0; eauto. eapply SI_invalidate in I0; eauto. tauto.
  - pose proof (w_write_size _ _ _ _ _ _ _ _ H) as L.
    eapply SI_write in I0; eauto. eapply SI_invalidate in I0; eauto.
    destruct I0 as (I0 & A). eapply SI_hint in I0; eauto. destruct I0 as (I0 & B & C).
    csplit; auto; congruence.
Qed.

Lemma SI_resize_p : forall p w s nx n p' nx' del own al,
  p_resize p nx n p' nx' del -> SI p w s own al ->
  (forall b, In b al -> b < nx)%nat ->
  p_size p' = Nat.max n (length (p_busy p)) /\ (nx <= nx')%nat /\
  (del = [] \/ nx' = nx) /\ (forall b, In b del -> ~ busy_buffer s b) /\
  exists al', SI p' w s own al' /\ Permutation (del ++ al') (al ++ seq nx (nx' - nx)).
Proof.
  intros p w s nx n p' nx' del own al H I0 LT. destruct H.
  - csplit.
    + unfold p_size in *; cbn. lia.
    + lia.
    + auto.
    + intros b [].
    + exists (seq nx (n - p_size p) ++ al). split.
      * pose proof (si_fsize _ _ _ _ _ I0) as FS.
        apply SI_fresh_seq with (k := (n - p_size p)%nat) (nx := nx) in I0; auto.
        eapply SI_free; [exact I0|reflexivity|reflexivity| |].
        -- cbn. rewrite app_length, seq_length. lia.
        -- cbn. clear; perm.
      * replace (nx + (n - p_size p) - nx)%nat with (n - p_size p)%nat by lia.
        cbn. apply Permutation_app_comm.
  - pose proof (si_fsize _ _ _ _ _ I0) as FS.
    assert (LE : (length del <= p_fsize p)%nat) by lia.
    csplit; [unfold p_size in *; cbn; lia|auto|auto| |].
    { intros b X. eapply not_busy; [exact I0|]. rewrite H0, !in_app_iff; auto. }
    assert (A : SI (MkPP l (p_fsize p - length del) (p_busy p)) w s (del ++ own) al).
    { eapply SI_free; [exact I0|reflexivity|reflexivity| |].
      - cbn. rewrite FS, H0, app_length. lia.
      - cbn. rewrite H0. clear; perm. }
    exists (w_bufs w ++ p_bufs (MkPP l (p_fsize p - length del) (p_busy p)) ++ own).
    pose proof (si_all _ _ _ _ _ A) as P.
    assert (Q : Permutation (del ++ w_bufs w ++
        p_bufs (MkPP l (p_fsize p - length del) (p_busy p)) ++ own) al).
    { eapply Permutation_trans; [|exact P]. clear; perm. }
    split.
    + eapply SI_drops; [exact A|]. apply Permutation_sym; auto.
    + rewrite Nat.sub_diag; cbn. rewrite app_nil_r. auto.
Qed.

(** ** Steps *)

Definition SIx (x : st) (al : list nat) : Prop :=
  SI (s_p x) (s_w x) (s_io x) (s_own x) al /\ (forall b, In b al -> b < s_next x)%nat.

(** What a step does to the set of all blocks. *)
Definition blocks_change (x : st) (a : act) (y : st) (al al' : list nat) : Prop :=
  match a with
  | ANew b => al' = b :: al
  | AResizeW _ | AResizeP _ =>
      exists del, (del = [] \/ s_next y = s_next x) /\
        (forall b, In b del -> ~ busy_buffer (s_io y) b) /\ Permutation (del ++ al') (al ++ seq (s_next x) (s_next y - s_next x))
  | _ => al' = al
  end.

Definition sizes_change (x : st) (a : act) (y : st) : Prop :=
  match a with
  | AWrite _ _ _ | AAdd _ => w_size (s_w y) = S (w_size (s_w x)) /\ p_size (s_p y) = p_size (s_p x)
  | ASteal _ | AStealReq _ _ =>
      w_size (s_w x) = S (w_size (s_w y)) /\ p_size (s_p y) = p_size (s_p x)
  | AAddP _ => w_size (s_w y) = w_size (s_w x) /\ p_size (s_p y) = S (p_size (s_p x))
  | AStealP _ => w_size (s_w y) = w_size (s_w x) /\ p_size (s_p x) = S (p_size (s_p y))
  | AResizeW n => w_size (s_w y) = n /\ p_size (s_p y) = p_size (s_p x)
  | AResizeP n => w_size (s_w y) = w_size (s_w x) /\
                  p_size (s_p y) = Nat.max n (length (p_busy (s_p x)))
  | _ => w_size (s_w y) = w_size (s_w x) /\ p_size (s_p y) = p_size (s_p x)
  end.

Lemma step_SI : forall fifo x a y al,
  step fifo x a y -> waiting a -> SIx x al ->
  sizes_change x a y /\ exists al', SIx y al' /\ blocks_change x a y al al'.
Proof.
  intros fifo x a y al H W (I0 & LT).
  destruct H; cbn [waiting] in W; try contradiction;
    cbn [s_p s_w s_io s_own s_next] in I0, LT;
    unfold sizes_change, SIx, blocks_change; cbn [s_p s_w s_io s_own s_next].
  - split; auto. exists al; csplit; auto. eapply SI_evol; eauto. eapply env_evol; eauto.
  - split; auto. exists al; csplit; auto. destruct I0; constructor; auto.
  - split; auto. exists (nx :: al); csplit; auto.
    + apply SI_fresh; auto. intro X; apply LT in X; lia.
    + intros b [<-|B]; [lia|]. apply LT in B; lia.
  - eapply SI_perm in I0; eauto. destruct (SI_rw_write _ _ _ _ _ _ _ _ _ _ _ H1 I0 H0) as (A & B & C).
    split; auto. exists al; csplit; auto.
  - eapply SI_perm in I0; eauto.
    destruct (SI_read _ _ _ _ _ _ _ _ _ _ _ _ _ _ H1 I0 H0 H2 H3) as (A & B & C).
    split; auto. exists al; csplit; auto.
  - destruct (SI_hint _ _ _ _ _ _ _ _ _ _ H0 I0 H) as (A & B & C).
    split; auto. exists al; csplit; auto.
  - destruct (SI_invalidate _ _ _ _ _ _ _ _ _ _ H I0) as (A & B).
    split; auto. exists al; csplit; auto.
  - split; [split; auto; eapply w_steal_size; eauto|].
    exists al; csplit; auto. eapply SI_steal; eauto.
  - eapply SI_perm in I0; eauto. split.
    + split; auto. unfold w_size; cbn. rewrite app_length; cbn. lia.
    + exists al; csplit; auto. apply SI_add_w; auto.
  - eapply SI_perm in I0; eauto. split.
    + split; auto.
    + exists al; csplit; auto. apply SI_free_p; auto.
  - destruct H. split.
    + split; auto. unfold p_size; cbn.
      pose proof (fsize_pos _ _ _ _ _ _ _ I0 H). lia.
    + exists al; csplit; auto. apply SI_take_p; auto.
  - destruct (SI_resize_w _ _ _ _ _ _ _ _ _ _ _ _ H I0 LT) as (A & B & D1 & D2 & al' & C & D).
    split; auto. exists al'; csplit; eauto 6.
    intros b X. assert (Y : In b (al ++ seq nx (nx' - nx))).
    { eapply Permutation_in; [exact D|]. apply in_app_iff; auto. }
    apply in_app_iff in Y. rewrite in_seq in Y. destruct Y as [Y|Y]; [apply LT in Y|]; lia.
  - destruct (SI_resize_p _ _ _ _ _ _ _ _ _ _ H I0 LT) as (A & B & D1 & D2 & al' & C & D).
    split; auto. exists al'; csplit; eauto 6.
    intros b X. assert (Y : In b (al ++ seq nx (nx' - nx))).
    { eapply Permutation_in; [exact D|]. apply in_app_iff; auto. }
    apply in_app_iff in Y. rewrite in_seq in Y. destruct Y as [Y|Y]; [apply LT in Y|]; lia.
  - destruct (steal_request_split _ _ _ _ _ H0) as (e & l1 & l2 & EQ & -> & EB & -> & ->).
    split.
    + split; auto. unfold w_size; cbn. rewrite EQ, !app_length; cbn; lia.
    + exists al; csplit; auto.
      apply SI_evol with (s' := s') in I0; [|eapply env_evol; eauto].
      eapply SI_remove_w in I0; eauto.
  - destruct (SI_hint0 _ _ _ _ _ _ _ _ _ H0 I0 H) as (A & B).
    split; auto. exists al; csplit; auto.
  - eapply SI_perm in I0; eauto.
    destruct (SI_read0 _ _ _ _ _ _ _ _ _ _ _ _ _ H1 I0 H0 H2 H3) as (A & B).
    split; auto. exists al; csplit; auto.
Qed.

Lemma SIx_init : forall np nw m disk, SIx (init np nw m disk) (seq 0 (np + nw)).
Proof.
  intros. split; cbn.
  - assert (P : Permutation (seq np nw ++ [] ++ (seq 0 np ++ []) ++ []) (seq 0 (np + nw))).
    { rewrite seq_app, !app_nil_r; cbn. apply Permutation_app_comm. }
    constructor; cbn; auto.
    + unfold w_bufs, p_bufs; cbn. rewrite <- app_assoc.
      eapply Permutation_NoDup; [apply Permutation_sym, P|]. apply seq_NoDup.
    + unfold w_bufs, p_bufs; cbn. rewrite <- app_assoc. exact P.
    + rewrite seq_length; auto.
    + constructor.
    + intros i q N. destruct i; discriminate.
    + intros e [].
    + intros e [].
  - intros b B. apply in_seq in B. lia.
Qed.

Lemma run_SI : forall fifo x l y, run fifo x l y -> Forall waiting l ->
  (exists al, SIx x al) -> exists al, SIx y al.
Proof.
  intros fifo x l y H; induction H; intros W (al & A); [eauto|].
  inversion W; subst. destruct (step_SI _ _ _ _ _ H H3 A) as (_ & al' & B & _). eauto.
Qed.
