(** Properties C32 to C35: write pool, prefetch pool, read/write pool. *)

From Coq Require Import ZArith List Bool Lia Permutation.
From Verif Require Import PoolModel PoolSpec PoolProofs PoolProofs2 PoolProofs3 PoolProofs4
  PoolProofs5 PoolProofs6 PoolProofs7.
Import ListNotations.

Lemma reach : forall fifo np nw m disk l x,
  run fifo (init np nw m disk) l x -> Forall waiting l -> exists al, SIx x al.
Proof. intros. eapply run_SI; eauto. eexists; apply SIx_init. Qed.

Lemma SIx_all : forall x al, SIx x al -> NoDup (all_bufs x) /\ Permutation (all_bufs x) al.
Proof. intros x al (I0 & _). split; [apply (si_nodup _ _ _ _ _ I0)|apply (si_all _ _ _ _ _ I0)]. Qed.

(** ** C32 *)

(** Blocks are never lost or duplicated: a block is in exactly one of the free
    and busy lists of the pools and the client's hands.  Only operator new, a
    growing resize (new blocks) and a shrinking resize (deleting blocks without
    a transfer) change the set of blocks. *)
Theorem C32_blocks_conserved : forall fifo np nw m disk l x a y,
  run fifo (init np nw m disk) l x -> Forall waiting l ->
  step fifo x a y -> waiting a ->
  NoDup (all_bufs x) /\ NoDup (all_bufs y) /\
  match a with
  | ANew b => Permutation (all_bufs y) (b :: all_bufs x)
  | AResizeW _ | AResizeP _ =>
      exists del new, (del = [] \/ new = []) /\
        (forall b, In b del -> ~ busy_buffer (s_io y) b) /\
        Permutation (del ++ all_bufs y) (all_bufs x ++ new)
  | _ => Permutation (all_bufs y) (all_bufs x)
  end.
Proof.
  intros fifo np nw m disk l x a y R W S Wa.
  destruct (reach _ _ _ _ _ _ _ R W) as (al & I0).
  destruct (step_SI _ _ _ _ _ S Wa I0) as (_ & al' & I1 & B).
  destruct (SIx_all _ _ I0) as (N0 & P0). destruct (SIx_all _ _ I1) as (N1 & P1).
  csplit; auto.
  assert (T : al' = al -> Permutation (all_bufs y) (all_bufs x)).
  { intros ->. eapply Permutation_trans; [exact P1|apply Permutation_sym; exact P0]. }
  destruct a; cbn [blocks_change] in B; auto.
  - subst al'. eapply Permutation_trans; [exact P1|]. constructor. apply Permutation_sym; auto.
  - destruct B as (del & D1 & D2 & D3). exists del, (seq (s_next x) (s_next y - s_next x)).
    csplit; auto.
    + destruct D1 as [D1|D1]; auto. right. rewrite D1, Nat.sub_diag; auto.
    + eapply Permutation_trans; [apply Permutation_app_head; exact P1|].
      eapply Permutation_trans; [exact D3|]. apply Permutation_app_tail. apply Permutation_sym; auto.
  - destruct B as (del & D1 & D2 & D3). exists del, (seq (s_next x) (s_next y - s_next x)).
    csplit; auto.
    + destruct D1 as [D1|D1]; auto. right. rewrite D1, Nat.sub_diag; auto.
    + eapply Permutation_trans; [apply Permutation_app_head; exact P1|].
      eapply Permutation_trans; [exact D3|]. apply Permutation_app_tail. apply Permutation_sym; auto.
Qed.
Print Assumptions C32_blocks_conserved.

(** No block in the client's hands (in particular one just returned by steal())
    and no free block takes part in a transfer; every transfer that is not over
    uses the block of a busy entry. *)
Theorem C32_only_busy_blocks_in_transfer : forall fifo np nw m disk l x,
  run fifo (init np nw m disk) l x -> Forall waiting l ->
  (forall b, In b (w_free (s_w x) ++ p_free (s_p x) ++ s_own x) -> ~ busy_buffer (s_io x) b) /\
  (forall b, busy_buffer (s_io x) b ->
     In b (map e_buf (w_busy (s_w x))) \/ In b (map p_buf (p_busy (s_p x)))).
Proof.
  intros fifo np nw m disk l x R W. destruct (reach _ _ _ _ _ _ _ R W) as (al & I0 & _). split.
  - intros b B. eapply not_busy; eauto.
  - intros b (i & q & N & <- & F).
    destruct (si_unf _ _ _ _ _ I0 i q N F) as [(e & E1 & _ & <-)|(e & E1 & _ & <-)];
      [left|right]; apply in_map; auto.
Qed.
Print Assumptions C32_only_busy_blocks_in_transfer.

Theorem C32_steal_returns_idle : forall fifo np nw m disk l x b y,
  run fifo (init np nw m disk) l x -> Forall waiting l ->
  step fifo x (ASteal b) y ->
  ~ busy_buffer (s_io y) b /\ In b (w_bufs (s_w x)) /\ ~ In b (w_bufs (s_w y)) /\
  Permutation (s_own y) (b :: s_own x).
Proof.
  intros fifo np nw m disk l x b y R W S.
  destruct (reach _ _ _ _ _ _ _ R W) as (al & I0).
  assert (Wa : waiting (ASteal b)) by exact I.
  destruct (step_SI _ _ _ _ _ S Wa I0) as (_ & al' & I1 & B). cbn in B; subst al'.
  destruct (SIx_all _ _ I0) as (N0 & P0). destruct (SIx_all _ _ I1) as (N1 & P1).
  destruct I0 as (I0 & _). destruct I1 as (I1 & _).
  inversion S; subst; cbn [s_p s_w s_io s_own s_next] in *.
  csplit; auto.
  - eapply not_busy; [exact I1|]. rewrite !in_app_iff; cbn; auto.
  - assert (X : In b (w_bufs w ++ p_bufs p ++ own)).
    { eapply Permutation_in; [apply Permutation_sym, P0|].
      eapply Permutation_in; [exact P1|]. unfold all_bufs; cbn. rewrite !in_app_iff; cbn; auto. }
    rewrite !in_app_iff in X. destruct X as [X|X]; auto. exfalso.
    unfold all_bufs in N1; cbn in N1.
    assert (Q : Permutation (w_bufs w' ++ p_bufs p ++ b :: own) (b :: w_bufs w' ++ p_bufs p ++ own))
      by (clear; perm).
    apply (Permutation_NoDup Q) in N1. apply NoDup_cons_iff in N1. apply (proj1 N1).
    rewrite !in_app_iff; tauto.
  - intro X. unfold all_bufs in N1; cbn in N1.
    assert (Q : Permutation (w_bufs w' ++ p_bufs p ++ b :: own) (b :: w_bufs w' ++ p_bufs p ++ own))
      by (clear; perm).
    apply (Permutation_NoDup Q) in N1. apply NoDup_cons_iff in N1. apply (proj1 N1).
    rewrite !in_app_iff; tauto.
Qed.
Print Assumptions C32_steal_returns_idle.

(** The size reported is the number of blocks owned, and it changes exactly as
    documented: write and add +1, steal -1, resize to the given number. *)
Theorem C32_size : forall fifo np nw m disk l x a y,
  run fifo (init np nw m disk) l x -> Forall waiting l ->
  step fifo x a y -> waiting a ->
  w_size (s_w y) = length (w_bufs (s_w y)) /\
  match a with
  | AWrite _ _ _ | AAdd _ => w_size (s_w y) = S (w_size (s_w x))
  | ASteal _ | AStealReq _ _ => S (w_size (s_w y)) = w_size (s_w x)
  | AResizeW n => w_size (s_w y) = n
  | _ => w_size (s_w y) = w_size (s_w x)
  end.
Proof.
  intros fifo np nw m disk l x a y R W S Wa.
  destruct (reach _ _ _ _ _ _ _ R W) as (al & I0).
  destruct (step_SI _ _ _ _ _ S Wa I0) as (Z & _). split.
  - unfold w_size, w_bufs. rewrite app_length, map_length; auto.
  - destruct a; cbn [sizes_change] in Z; destruct Z as (Z1 & Z2); auto.
Qed.
Print Assumptions C32_size.

(** ** C33 *)

(** Once all I/O is over, every block on disk contains the data of the last
    write to it. *)
Theorem C33_last_write_wins : forall np nw m disk l x d,
  run true (init np nw m disk) l x -> Forall rw_client l ->
  ~ unwritten (s_io x) d ->
  io_disk (s_io x) d = expected disk l d.
Proof.
  intros np nw m disk l x d R W U.
  destruct (run_CI _ _ _ R disk W) as (C & _ & _).
  - eexists; apply SIx_init.
  - apply CIx_init.
  - apply (c1 _ _ _ _ _ C). intros i (q & N & A & B & F). apply U. exists i, q; auto.
Qed.
Print Assumptions C33_last_write_wins.

(** Between operations only the newest write to a block may still be waiting;
    older ones are cancelled, finished, or already being served. *)
Theorem C33_older_writes_do_not_wait : forall np nw m disk l x i j qi qj,
  run true (init np nw m disk) l x -> Forall rw_client l ->
  nth_error (io_reqs (s_io x)) i = Some qi -> nth_error (io_reqs (s_io x)) j = Some qj ->
  q_write qi = true -> q_write qj = true -> q_bid qi = q_bid qj -> (i < j)%nat ->
  q_st qi <> Pending.
Proof.
  intros np nw m disk l x i j qi qj R W Ni Nj Wi Wj B LT P.
  assert (G : newest_waits (s_io x)).
  { eapply (run_newest _ _ _ R disk W).
    - eexists; apply SIx_init.
    - apply CIx_init.
    - intros i0 q0 j0 q0' N. destruct i0; discriminate. }
  pose proof (G i qi j qj Ni Wi P Nj Wj (eq_sym B)). lia.
Qed.
Print Assumptions C33_older_writes_do_not_wait.

(** ** C34 *)

(** Every read of a client that waits returns the expected data. *)
Theorem C34_reads_coherent : forall np nw m disk l x,
  run true (init np nw m disk) l x -> Forall rw_client l -> coherent disk l.
Proof.
  intros np nw m disk l x R W.
  destruct (run_CI _ _ _ R disk W) as (_ & C & _); auto.
  - eexists; apply SIx_init.
  - apply CIx_init.
Qed.
Print Assumptions C34_reads_coherent.

(** read() and hint() are defined in every state (they never run into their
    assertions or a null pointer). *)
Theorem C34_read_hint_defined : forall fifo np nw m disk l x d b,
  run fifo (init np nw m disk) l x -> Forall waiting l ->
  (exists p w s b' r, p_read (s_p x) (s_w x) (s_io x) b d p w s b' r) /\
  (exists p w s r, p_hint (s_p x) (s_w x) (s_io x) d p w s r).
Proof.
  intros fifo np nw m disk l x d b R W.
  destruct (reach _ _ _ _ _ _ _ R W) as (al & I0 & _).
  assert (ST : has_request (s_w x) d = true ->
    exists buf r w1, steal_request (s_w x) d = Some (buf, r, w1)).
  { intros H. apply has_request_spec in H. apply steal_entry_some in H.
    destruct H as (e & l' & H). unfold steal_request. rewrite H. eauto. }
  split; destruct (p_find d (p_busy (s_p x))) as [e|] eqn:F.
  - do 5 eexists. eapply ReadCached; eauto.
  - destruct (has_request (s_w x) d) eqn:H.
    + destruct (ST eq_refl) as (buf & r & w1 & E). do 5 eexists. eapply ReadWrite; eauto.
    + do 5 eexists. eapply ReadDisk; eauto.
  - do 4 eexists. eapply HintAlready; eauto.
  - destruct (p_fsize (s_p x)) as [|k] eqn:Z.
    + do 4 eexists. eapply HintNone; eauto.
    + assert (NE : p_free (s_p x) <> []).
      { rewrite (si_fsize _ _ _ _ _ I0) in Z. intros X. rewrite X in Z. discriminate. }
      destruct (exists_last NE) as (l' & b' & EQ).
      destruct (has_request (s_w x) d) eqn:H.
      * destruct (ST eq_refl) as (buf & r & w1 & E). do 4 eexists.
        eapply HintWrite; eauto. congruence.
      * do 4 eexists. eapply HintRead; eauto. congruence.
Qed.
Print Assumptions C34_read_hint_defined.

(** ** C35 *)

(** Every block of the prefetch pool is free or attached to exactly one hinted
    block identifier, and the counter of free blocks is right. *)
Theorem C35_blocks_free_or_hinted : forall fifo np nw m disk l x,
  run fifo (init np nw m disk) l x -> Forall waiting l ->
  NoDup (p_bufs (s_p x)) /\ NoDup (map p_bid (p_busy (s_p x))) /\
  p_fsize (s_p x) = length (p_free (s_p x)) /\
  p_size (s_p x) = length (p_bufs (s_p x)).
Proof.
  intros fifo np nw m disk l x R W.
  destruct (reach _ _ _ _ _ _ _ R W) as (al & I0 & _). csplit.
  - pose proof (si_nodup _ _ _ _ _ I0) as N. apply nodup_app_r in N.
    apply nodup_app_l in N. auto.
  - apply (si_keys _ _ _ _ _ I0).
  - apply (si_fsize _ _ _ _ _ I0).
  - unfold p_size, p_bufs. rewrite (si_fsize _ _ _ _ _ I0), app_length, map_length. auto.
Qed.
Print Assumptions C35_blocks_free_or_hinted.

Definition hinted (p : ppool) (d : bid) : Prop := In d (map p_bid (p_busy p)).

Lemma hinted_find : forall p d, hinted p d <-> p_find d (p_busy p) <> None.
Proof.
  intros; unfold hinted. split; intros H.
  - intros X. apply p_find_none in X. auto.
  - destruct (p_find d (p_busy p)) eqn:E; [|congruence].
    destruct (p_find_in _ _ _ E) as (A & <-). apply in_map; auto.
Qed.

Lemma hinted_set : forall l n d b r pb, hinted (MkPP l n (p_set (MkP d b r) pb)) d.
Proof. intros; unfold hinted; cbn; auto. Qed.

(** hint() succeeds exactly when the block is already hinted or a free block
    exists; afterwards the block is hinted exactly when it succeeded; other
    hints stay as they were. *)
Theorem C35_hint_succeeds_iff : forall fifo np nw m disk l x d r y,
  run fifo (init np nw m disk) l x -> Forall waiting l ->
  (step fifo x (AHint d r) y \/ step fifo x (AHint0 d r) y) ->
  (r = true <-> hinted (s_p x) d \/ p_free (s_p x) <> []) /\
  (hinted (s_p y) d <-> r = true) /\
  (forall d', d' <> d -> (hinted (s_p y) d' <-> hinted (s_p x) d')).
Proof.
  intros fifo np nw m disk l x d r y R W S.
  destruct (reach _ _ _ _ _ _ _ R W) as (al & I0 & _).
  pose proof (si_fsize _ _ _ _ _ I0) as FS.
  assert (OTHER : forall l n b k pb d', p_find d pb = None -> d' <> d ->
    (hinted (MkPP l n (p_set (MkP d b k) pb)) d' <-> In d' (map p_bid pb))).
  { intros l0 n b k pb d' F NE. apply p_find_none in F. unfold hinted, p_set; cbn.
    rewrite (p_erase_none _ _ F). intuition congruence. }
  assert (NEL : forall A (l0 : list A) b, l0 ++ [b] <> []) by (intros A [|] b; discriminate).
  assert (HB : forall d0 e, p_find d0 (p_busy (s_p x)) = Some e -> hinted (s_p x) d0).
  { intros d0 e F. apply hinted_find. congruence. }
  assert (HN : p_find d (p_busy (s_p x)) = None -> ~ hinted (s_p x) d).
  { intros F H. apply hinted_find in H. auto. }
  assert (FN : p_fsize (s_p x) = O -> p_free (s_p x) = []).
  { intros Z. rewrite Z in FS. destruct (p_free (s_p x)); auto; discriminate. }
  destruct S as [S|S]; inversion S; subst; cbn [s_p s_w s_io s_own s_next] in *.
  - match goal with H : p_hint _ _ _ _ _ _ _ _ |- _ => inversion H; subst end; csplit.
    + split; eauto.
    + split; eauto.
    + tauto.
    + split; auto. intros _. right.
      match goal with H : p_free p = _ |- _ => rewrite H end. apply NEL.
    + split; auto. intros _. apply hinted_set.
    + intros d' NE. apply OTHER; auto.
    + split; auto. intros _. right.
      match goal with H : p_free p = _ |- _ => rewrite H end. apply NEL.
    + split; auto. intros _. apply hinted_set.
    + intros d' NE. apply OTHER; auto.
    + split; [discriminate|]. intros [X|X]; exfalso; [apply HN in X; auto|auto].
    + split; [|discriminate]. intros X. exfalso. apply HN in X; auto.
    + tauto.
  - match goal with H : p_hint0 _ _ _ _ _ _ |- _ => inversion H; subst end; csplit.
    + split; eauto.
    + split; eauto.
    + tauto.
    + split; auto. intros _. right.
      match goal with H : p_free p = _ |- _ => rewrite H end. apply NEL.
    + split; auto. intros _. apply hinted_set.
    + intros d' NE. apply OTHER; auto.
    + split; [discriminate|]. intros [X|X]; exfalso; [apply HN in X; auto|auto].
    + split; [|discriminate]. intros X. exfalso. apply HN in X; auto.
    + tauto.
Qed.
Print Assumptions C35_hint_succeeds_iff.

(** Reading a block and invalidating it consume the hint. *)
Theorem C35_read_consumes_hint : forall fifo x d a y,
  step fifo x a y ->
  (exists b v, a = ARead d b v \/ a = ARead0 d b v) \/ (exists r, a = AInvalidate d r) ->
  ~ hinted (s_p y) d /\
  (forall d', d' <> d -> (hinted (s_p y) d' <-> hinted (s_p x) d')) /\
  (forall r, a = AInvalidate d r -> (r = true <-> hinted (s_p x) d)).
Proof.
  intros fifo x d a y S KK.
  assert (OTHER : forall l n pb d', d' <> d ->
    (hinted (MkPP l n (p_erase d pb)) d' <-> In d' (map p_bid pb))).
  { intros l0 n pb d' NE. unfold hinted; cbn. rewrite !in_map_iff.
    split; intros (e & E1 & E2); exists e; split; auto.
    - apply p_erase_in in E2; tauto.
    - apply p_erase_in; split; auto; congruence. }
  assert (GONE : forall l n pb, ~ hinted (MkPP l n (p_erase d pb)) d).
  { intros l0 n pb X. unfold hinted in X; cbn in X. apply in_map_iff in X.
    destruct X as (e & E1 & E2). apply p_erase_in in E2. tauto. }
  assert (NONE : forall pb, p_find d (p_busy pb) = None -> ~ hinted pb d).
  { intros pb F H. apply hinted_find in H; auto. }
  assert (SOME : forall pb e, p_find d (p_busy pb) = Some e -> hinted pb d).
  { intros pb e F. apply hinted_find. congruence. }
  destruct KK as [(b & v & [-> | ->])|(r & ->)]; inversion S; subst; cbn [s_p].
  - match goal with H : p_read _ _ _ _ _ _ _ _ _ _ |- _ => inversion H; subst end;
      csplit; auto; try tauto; try (intros; discriminate); intros; apply OTHER; auto.
  - match goal with H : p_read0 _ _ _ _ _ _ _ _ |- _ => inversion H; subst end;
      csplit; auto; try tauto; try (intros; discriminate); intros; apply OTHER; auto.
  - match goal with H : p_invalidate _ _ _ _ _ _ _ |- _ => inversion H; subst end; csplit; auto.
    + tauto.
    + intros r E; inversion E; subst. split; [discriminate|]. intros X. exfalso.
      eapply NONE; eauto.
    + intros; apply OTHER; auto.
    + intros r E; inversion E; subst. split; eauto.
Qed.
Print Assumptions C35_read_consumes_hint.

(** The size of the prefetch pool changes only by add, steal and resize; a
    shrinking resize keeps the hinted blocks. *)
Theorem C35_size : forall fifo np nw m disk l x a y,
  run fifo (init np nw m disk) l x -> Forall waiting l ->
  step fifo x a y -> waiting a ->
  match a with
  | AAddP _ => p_size (s_p y) = S (p_size (s_p x))
  | AStealP _ => S (p_size (s_p y)) = p_size (s_p x)
  | AResizeP n => p_size (s_p y) = Nat.max n (length (p_busy (s_p x)))
  | _ => p_size (s_p y) = p_size (s_p x)
  end.
Proof.
  intros fifo np nw m disk l x a y R W S Wa.
  destruct (reach _ _ _ _ _ _ _ R W) as (al & I0).
  destruct (step_SI _ _ _ _ _ S Wa I0) as (Z & _).
  destruct a; cbn [sizes_change] in Z; destruct Z as (Z1 & Z2); auto.
Qed.
Print Assumptions C35_size.

(** ** Concrete executions *)

Definition dA : bid := MkBid 1 0.

Lemma env_two : forall fifo s1 s2 s3, env1 fifo s1 s2 -> env1 fifo s2 s3 -> env fifo s1 s3.
Proof. intros. eapply EnvStep; eauto. eapply EnvStep; eauto. constructor. Qed.

Lemma do_write : forall fifo p w s own nx b d v own' p' w' s',
  v = io_mem s b -> Permutation own (b :: own') -> b_storage d <> O ->
  rw_write fifo p w s b d p' w' s' ->
  step fifo (MkSt p w s own nx) (AWrite b d v) (MkSt p' w' s' own' nx).
Proof. intros; subst; eapply SWrite; eauto. Qed.

Lemma do_read : forall fifo p w s own nx b d own' p' w' s1 b' r s' v,
  Permutation own (b :: own') -> b_storage d <> O ->
  p_read p w s b d p' w' s1 b' r ->
  env fifo s1 s' -> finished s' r = true -> v = io_mem s' b' ->
  step fifo (MkSt p w s own nx) (ARead d b' v) (MkSt p' w' s' (b' :: own') nx).
Proof. intros; subst; eapply SRead; eauto. Qed.

(** One prefetch and one write block.  The client writes 7 (disk: 5), hints the
    block (which moves the write that still waits to the prefetch pool), reads
    it back (the write is served meanwhile), then takes a block out and asks for
    another hint, now read from disk. *)
Definition history : list act :=
  [ANew 2; ASet 2 7; AWrite 2 dA 7; AHint dA true; ANew 3; ARead dA 2 7; ASteal 0;
   AHint dA true; AInvalidate dA true].

Lemma history_runs : exists x, run true (init 1 1 (fun _ => 0%Z) (fun _ => 5%Z)) history x.
Proof.
  eexists. unfold history, init; cbn [seq Nat.add].
  eapply RunCons; [apply SNew|].
  eapply RunCons; [apply SSet; cbn; auto|].
  eapply RunCons.
  { eapply (do_write _ _ _ _ _ _ 2 dA); [reflexivity|apply Permutation_refl|cbn; lia|].
    eapply RWPlain; [apply WWrite; apply MarkNil|apply InvNone; reflexivity]. }
  eapply RunCons.
  { eapply SHint; [cbn; lia|].
    eapply (HintWrite _ _ _ _ []); try reflexivity. cbn; lia. }
  eapply RunCons; [apply SNew|].
  eapply RunCons.
  { eapply (do_read _ _ _ _ _ _ 3 dA); [apply Permutation_refl|cbn; lia| | | |].
    - apply (ReadCached _ _ _ _ _ (MkP dA 2 0)). reflexivity.
    - eapply env_two.
      + eapply (EnvStart _ _ 0); try reflexivity. intros; lia.
      + eapply (EnvWrite _ _ 0); reflexivity.
    - reflexivity.
    - reflexivity. }
  eapply RunCons.
  { eapply SSteal. eapply (WStealFree _ _ _ [1%nat]). reflexivity. }
  eapply RunCons.
  { eapply SHint; [cbn; lia|].
    eapply (HintRead _ _ _ _ []); try reflexivity. cbn; lia. }
  eapply RunCons.
  { eapply SInvalidate. eapply InvSome; [reflexivity|apply EnvRefl| |].
    - cbn. apply EnvRefl.
    - reflexivity. }
  apply RunNil.
Qed.

Example C32_case : exists x l1 y l2, history = l1 ++ ASteal 0 :: l2 /\
  run true (init 1 1 (fun _ => 0%Z) (fun _ => 5%Z)) l1 x /\ Forall waiting l1 /\
  step true x (ASteal 0) y /\ waiting (ASteal 0).
Proof.
  destruct history_runs as (z & R).
  assert (SPLIT : forall l1 a l2 x z, run true x (l1 ++ a :: l2) z ->
    exists y y', run true x l1 y /\ step true y a y').
  { induction l1; cbn; intros a0 l2 x z0 R0; inversion R0; subst.
    - exists x, s1; split; auto. constructor.
    - destruct (IHl1 _ _ _ _ H4) as (y & y' & A & B). exists y, y'; split; auto.
      econstructor; eauto. }
  change history with ([ANew 2; ASet 2 7; AWrite 2 dA 7; AHint dA true; ANew 3; ARead dA 2 7]
    ++ ASteal 0 :: [AHint dA true; AInvalidate dA true]) in R.
  destruct (SPLIT _ _ _ _ _ R) as (x & y & A & B).
  exists x, [ANew 2; ASet 2 7; AWrite 2 dA 7; AHint dA true; ANew 3; ARead dA 2 7], y,
    [AHint dA true; AInvalidate dA true].
  csplit; auto; repeat constructor.
Qed.

(** Two writes to the same block: the first is being served when the second is
    posted, so it cannot be cancelled. *)
Definition writes : list act :=
  [ANew 0; ANew 1; ASet 0 1; ASet 1 2; AWrite 0 dA 1; AIdle; AWrite 1 dA 2; AIdle].

Lemma writes_run : forall fifo s', 
  env fifo (MkIO (set_mem (set_mem (fun _ => 0%Z) 0 1) 1 2) (fun _ => 5%Z)
              [MkReq true 0 dA Running; MkReq true 1 dA Pending]) s' ->
  run fifo (init 0 0 (fun _ => 0%Z) (fun _ => 5%Z)) writes
    (MkSt (MkPP [] 0 []) (MkWP [] [MkW 0 0 (MkBid 0 0); MkW 1 1 dA]) s' [] 2).
Proof.
  intros fifo s' EV. unfold writes, init; cbn [seq Nat.add].
  eapply RunCons; [apply SNew|].
  eapply RunCons; [apply SNew|].
  eapply RunCons; [apply SSet; cbn; auto|].
  eapply RunCons; [apply SSet; cbn; auto|].
  eapply RunCons.
  { eapply (do_write _ _ _ _ _ _ 0 dA _ [1%nat]); [reflexivity|apply perm_swap|cbn; lia|].
    eapply RWPlain; [apply WWrite; apply MarkNil|apply InvNone; reflexivity]. }
  eapply RunCons.
  { eapply SIdle. eapply EnvStep; [|apply EnvRefl].
    eapply (EnvStart _ _ 0); try reflexivity. intros; lia. }
  eapply RunCons.
  { eapply (do_write _ _ _ _ _ _ 1 dA _ []); [reflexivity|apply Permutation_refl|cbn; lia|].
    eapply RWPlain; [|apply InvNone; reflexivity].
    apply WWrite. cbn. eapply MarkHit; [reflexivity|cbn; lia|apply EnvRefl|apply MarkNil]. }
  eapply RunCons; [apply SIdle; exact EV|apply RunNil].
Qed.

(** In order: the disk ends up with the newer data. *)
Example C33_case : exists x,
  run true (init 0 0 (fun _ => 0%Z) (fun _ => 5%Z)) writes x /\ Forall rw_client writes /\
  ~ unwritten (s_io x) dA /\ io_disk (s_io x) dA = 2%Z.
Proof.
  eexists. csplit.
  - eapply writes_run. eapply EnvStep; [eapply (EnvWrite _ _ 0); reflexivity|].
    eapply env_two.
    + eapply (EnvStart _ _ 1); try reflexivity. intros _ _ j q' J N _ _.
      destruct j; [|lia]. cbn in N. inversion N; reflexivity.
    + eapply (EnvWrite _ _ 1); reflexivity.
  - repeat constructor.
  - intros (i & q & N & _ & _ & F). cbn in N.
    destruct i as [|[|i]]; cbn in N; [| |destruct i; discriminate]; inversion N; subst; cbn in F; auto.
  - reflexivity.
Qed.

(** If the I/O system may reorder writes to one block (linuxaio), the older
    write can overwrite the newer one, although the pool did what it could. *)
Theorem C33_unordered_writes_refuted :
  ~ (forall np nw m disk l x d,
       run false (init np nw m disk) l x -> Forall rw_client l ->
       ~ unwritten (s_io x) d -> io_disk (s_io x) d = expected disk l d).
Proof.
  intros H.
  assert (E : exists x, run false (init 0 0 (fun _ => 0%Z) (fun _ => 5%Z)) writes x /\
    ~ unwritten (s_io x) dA /\ io_disk (s_io x) dA = 1%Z).
  { eexists. csplit.
    - eapply writes_run. eapply EnvStep; [eapply (EnvStart _ _ 1); try reflexivity; discriminate|].
      eapply env_two.
      + eapply (EnvWrite _ _ 1); reflexivity.
      + eapply (EnvWrite _ _ 0); reflexivity.
    - intros (i & q & N & _ & _ & F). cbn in N.
      destruct i as [|[|i]]; cbn in N; [| |destruct i; discriminate]; inversion N; subst; cbn in F; auto.
    - reflexivity. }
  destruct E as (x & R & U & D). specialize (H _ _ _ _ _ _ dA R).
  rewrite H in D; [discriminate|repeat constructor|auto].
Qed.
Print Assumptions C33_unordered_writes_refuted.

Example C34_case : exists x,
  run true (init 1 1 (fun _ => 0%Z) (fun _ => 5%Z)) history x /\ Forall rw_client history /\
  history = [ANew 2; ASet 2 7; AWrite 2 dA 7; AHint dA true; ANew 3] ++
    ARead dA 2 7 :: [ASteal 0; AHint dA true; AInvalidate dA true].
Proof.
  destruct history_runs as (x & R). exists x; csplit; auto; repeat constructor.
Qed.

(** A client that reads without waiting: the first read takes the pending write
    out of the write pool, the second goes to the disk and finds the old
    content. *)
Theorem C34_not_waiting_refuted :
  ~ (forall np nw m disk l x,
       run true (init np nw m disk) l x ->
       Forall (fun a => rw_client a \/ exists d b r, a = AReadNoWait d b r) l ->
       coherent disk l).
Proof.
  intros H.
  set (l := [ANew 0; ANew 1; ANew 2; ASet 0 7; AWrite 0 dA 7; AReadNoWait dA 0 0; ARead dA 2 5]).
  assert (E : exists x, run true (init 0 0 (fun _ => 0%Z) (fun _ => 5%Z)) l x).
  { eexists. unfold l, init; cbn [seq Nat.add].
    eapply RunCons; [apply SNew|].
    eapply RunCons; [apply SNew|].
    eapply RunCons; [apply SNew|].
    eapply RunCons; [apply SSet; cbn; auto|].
    eapply RunCons.
    { eapply (do_write _ _ _ _ _ _ 0 dA _ [1; 2]%nat); [reflexivity| |cbn; lia|].
      - change (Permutation [2; 1; 0] (rev [2; 1; 0]))%nat. apply Permutation_rev.
      - eapply RWPlain; [apply WWrite; apply MarkNil|apply InvNone; reflexivity]. }
    eapply RunCons.
    { eapply (SReadNoWait _ _ _ _ _ _ 1 dA); [apply Permutation_refl|cbn; lia|].
      apply (ReadWrite _ _ _ _ _ 0 0 (MkWP [] [])); reflexivity. }
    eapply RunCons.
    { eapply (do_read _ _ _ _ _ _ 2 dA [0%nat]); [apply perm_swap|cbn; lia| | | |].
      - apply ReadDisk; reflexivity.
      - eapply env_two.
        + eapply (EnvStart _ _ 1); try reflexivity. discriminate.
        + eapply (EnvRead _ _ 1); reflexivity.
      - reflexivity.
      - reflexivity. }
    apply RunNil. }
  destruct E as (x & R). specialize (H _ _ _ _ _ _ R).
  assert (C : coherent (fun _ => 5%Z) l).
  { apply H. unfold l. repeat (constructor; [cbn; eauto 6|]). constructor. }
  specialize (C [ANew 0; ANew 1; ANew 2; ASet 0 7; AWrite 0 dA 7; AReadNoWait dA 0 0]
                dA 2%nat 5%Z [] eq_refl).
  vm_compute in C. discriminate.
Qed.
Print Assumptions C34_not_waiting_refuted.

Example C35_case : exists x l1 y l2, history = l1 ++ AHint dA true :: l2 /\ length l1 = 3%nat /\
  run true (init 1 1 (fun _ => 0%Z) (fun _ => 5%Z)) l1 x /\ Forall waiting l1 /\
  step true x (AHint dA true) y /\ waiting (AHint dA true).
Proof.
  destruct history_runs as (z & R).
  assert (SPLIT : forall l1 a l2 x z, run true x (l1 ++ a :: l2) z ->
    exists y y', run true x l1 y /\ step true y a y').
  { induction l1; cbn; intros a0 l2 x z0 R0; inversion R0; subst.
    - exists x, s1; split; auto. constructor.
    - destruct (IHl1 _ _ _ _ H4) as (y & y' & A & B). exists y, y'; split; auto.
      econstructor; eauto. }
  change history with ([ANew 2; ASet 2 7; AWrite 2 dA 7]
    ++ AHint dA true :: [ANew 3; ARead dA 2 7; ASteal 0; AHint dA true; AInvalidate dA true]) in R.
  destruct (SPLIT _ _ _ _ _ R) as (x & y & A & B).
  exists x, [ANew 2; ASet 2 7; AWrite 2 dA 7], y,
    [ANew 3; ARead dA 2 7; ASteal 0; AHint dA true; AInvalidate dA true].
  csplit; auto; repeat constructor.
Qed.
