(** C76 and C77: opening and locking files. *)
From Coq Require Import List Arith NArith ZArith Bool Lia.
From Verif Require Import OpenModel OpenSpec OpenProofs.
Import ListNotations.
Local Open Scope list_scope.
Local Open Scope nat_scope.

(** C76: the descriptor has exactly the properties that were asked for. *)
Theorem C76_flags : forall k mode fl al, ctor_open k mode = Opened fl al ->
  (proper mode ->
     can_read fl = N.testbit mode 0 || N.testbit mode 2 /\
     can_write fl = N.testbit mode 1 || N.testbit mode 2) /\
  has fl O_CREAT = N.testbit mode 3 /\ has fl O_TRUNC = N.testbit mode 5 /\
  has fl O_SYNC = N.testbit mode 6 /\ has fl O_DSYNC = N.testbit mode 6.
Proof.
  intros k mode fl al H. pose proof (opened_flags _ _ _ _ H) as (F0 & F1 & F2 & F3).
  rewrite <- has_CREAT, <- has_TRUNC, <- has_SYNC. csplit; auto.
  - intros P. rewrite can_read_bits, can_write_bits, F0, F1, has_WRONLY, has_RDWR.
    destruct P as [(-> & -> & ->)|[(-> & -> & ->)|(-> & -> & ->)]]; auto.
  - assert (D : fl = open_flags mode \/ fl = N.ldiff (open_flags mode) O_DIRECT).
    { unfold ctor_open in H. destruct (k 0 (open_flags mode)); [left; congruence|].
      destruct (has mode DIRECT && negb (has mode REQUIRE_DIRECT) && einval); [|discriminate].
      destruct (k 1 (N.ldiff (open_flags mode) O_DIRECT)); [right; congruence|discriminate]. }
    clear - D. destruct D as [-> | ->]; flags mode; reflexivity.
  - assert (D : fl = open_flags mode \/ fl = N.ldiff (open_flags mode) O_DIRECT).
    { unfold ctor_open in H. destruct (k 0 (open_flags mode)); [left; congruence|].
      destruct (has mode DIRECT && negb (has mode REQUIRE_DIRECT) && einval); [|discriminate].
      destruct (k 1 (N.ldiff (open_flags mode) O_DIRECT)); [right; congruence|discriminate]. }
    clear - D. destruct D as [-> | ->]; flags mode; reflexivity.
Qed.
Print Assumptions C76_flags.

Lemma ldiff_no_direct : forall fl, has (N.ldiff fl O_DIRECT) O_DIRECT = false.
Proof.
  intros fl. change O_DIRECT with (2 ^ 14)%N at 2. rewrite has_bit, N.ldiff_spec. apply andb_false_r.
Qed.

(** Direct I/O: as required, with one retry if it was only wished for. *)
Theorem C76_direct : forall k mode,
  let first := k 0 (open_flags mode) in
  let wish := N.testbit mode 4 in
  let must := N.testbit mode 8 in
  match ctor_open k mode with
  | Opened fl al =>
      has fl O_DIRECT = (wish || must) && match first with KFd => true | KErr _ => false end /\
      (must = true -> has fl O_DIRECT = true)
  | OpenThrow =>
      exists einval, first = KErr einval /\
        (wish = false \/ must = true \/ einval = false \/
         exists e, k 1 (N.ldiff (open_flags mode) O_DIRECT) = KErr e)
  end.
Proof.
  intros k mode. cbv zeta. rewrite <- has_DIRECT, <- has_REQ. unfold ctor_open.
  pose proof (flags_table mode) as (_ & _ & _ & _ & D & _).
  destruct (k 0 (open_flags mode)) as [|e].
  - rewrite D, andb_true_r. split; auto. intros ->. apply orb_true_r.
  - destruct (has mode DIRECT), (has mode REQUIRE_DIRECT), e; cbn [andb negb];
      try (eexists; split; [reflexivity|]; auto; fail).
    destruct (k 1 (N.ldiff (open_flags mode) O_DIRECT)) eqn:K1.
    + rewrite ldiff_no_direct. split; auto; discriminate.
    + eexists. split; eauto.
Qed.
Print Assumptions C76_direct.

(** Alignment is demanded iff the descriptor is direct, provided that
    REQUIRE_DIRECT comes with DIRECT ... *)
Theorem C76_alignment : forall k mode fl al,
  (N.testbit mode 8 = true -> N.testbit mode 4 = true) ->
  ctor_open k mode = Opened fl al -> al = has fl O_DIRECT.
Proof.
  intros k mode fl al M H. pose proof (flags_table mode) as (_ & _ & _ & _ & D & _).
  rewrite <- has_DIRECT, <- has_REQ in M. unfold ctor_open in H.
  destruct (k 0 (open_flags mode)).
  - injection H as <- <-. rewrite D. destruct (has mode REQUIRE_DIRECT); [rewrite M; auto|rewrite orb_false_r; auto].
  - destruct (has mode DIRECT && negb (has mode REQUIRE_DIRECT) && einval); [|discriminate].
    destruct (k 1 (N.ldiff (open_flags mode) O_DIRECT)); [|discriminate]. injection H as <- <-.
    symmetry. apply ldiff_no_direct.
Qed.
Print Assumptions C76_alignment.

(** ... although file.hpp says that REQUIRE_DIRECT implies DIRECT. *)
Theorem C76_alignment_refuted :
  exists k mode fl, ctor_open k mode = Opened fl false /\ has fl O_DIRECT = true.
Proof.
  exists (fun _ _ => KFd), (N.lor RDWR REQUIRE_DIRECT), (open_flags (N.lor RDWR REQUIRE_DIRECT)). split; reflexivity.
Qed.
Print Assumptions C76_alignment_refuted.

(** Files of the configuration. *)
Theorem C76_create_file : forall c mode k,
  (forall n, n <> 4%N -> n <> 8%N -> N.testbit (create_mode c mode) n = N.testbit mode n) /\
  match ctor_open k (create_mode c mode) with
  | Opened fl al =>
      al = has fl O_DIRECT /\
      match c with
      | DIRECT_OFF => has fl O_DIRECT = false
      | DIRECT_TRY => has fl O_DIRECT = match k 0 (open_flags (create_mode c mode)) with KFd => true | KErr _ => false end
      | DIRECT_ON => has fl O_DIRECT = true
      end
  | OpenThrow => True
  end /\
  create_mode (options_cfg mode) mode =
    if N.testbit mode 8 then N.lor mode DIRECT else mode.
Proof.
  intros c mode k.
  assert (B : forall n, N.testbit (N.lor DIRECT REQUIRE_DIRECT) n = (n =? 4)%N || (n =? 8)%N).
  { intros n. rewrite N.lor_spec. change DIRECT with (2 ^ 4)%N. change REQUIRE_DIRECT with (2 ^ 8)%N.
    rewrite !N.pow2_bits_eqb, (N.eqb_sym 4 n), (N.eqb_sym 8 n). auto. }
  assert (B4 : forall n, N.testbit DIRECT n = (n =? 4)%N).
  { intros n. change DIRECT with (2 ^ 4)%N. rewrite N.pow2_bits_eqb, N.eqb_sym. auto. }
  assert (B8 : forall n, N.testbit REQUIRE_DIRECT n = (n =? 8)%N).
  { intros n. change REQUIRE_DIRECT with (2 ^ 8)%N. rewrite N.pow2_bits_eqb, N.eqb_sym. auto. }
  assert (T : forall c n, N.testbit (create_mode c mode) n =
            if (n =? 4)%N then match c with DIRECT_OFF => false | _ => true end
            else if (n =? 8)%N then match c with DIRECT_ON => true | _ => false end else N.testbit mode n).
  { intros c0 n. unfold create_mode. destruct c0; rewrite ?N.lor_spec, N.ldiff_spec, ?B, ?N.lor_spec, ?B4, ?B8;
      destruct (N.eqb_spec n 4); destruct (N.eqb_spec n 8); subst; cbn;
      rewrite ?andb_true_r, ?andb_false_r, ?orb_true_r, ?orb_false_r; auto; try discriminate. }
  csplit.
  - intros n N4 N8. rewrite T. apply N.eqb_neq in N4, N8. rewrite N4, N8. auto.
  - pose proof (C76_direct k (create_mode c mode)) as D. cbv zeta in D.
    destruct (ctor_open k (create_mode c mode)) as [fl al|] eqn:E; auto. destruct D as (D & D'). split.
    + eapply C76_alignment; [|exact E]. rewrite !T. destruct c; cbn; auto; discriminate.
    + destruct c.
      * rewrite D, !T. reflexivity.
      * rewrite D, !T. reflexivity.
      * apply D'. rewrite T. reflexivity.
  - apply N.bits_inj. intros n. rewrite T. unfold options_cfg. rewrite has_REQ, has_DIRECT.
    destruct (N.testbit mode 8) eqn:E8; [rewrite N.lor_spec, B4|];
      destruct (N.eqb_spec n 4); subst; cbn; rewrite ?orb_true_r, ?orb_false_r; auto.
    + destruct (N.eqb_spec n 8); subst; auto.
    + destruct (N.testbit mode 4) eqn:E4; auto.
    + destruct (N.eqb_spec n 8); subst; auto. destruct (N.testbit mode 4); auto.
Qed.
Print Assumptions C76_create_file.

Definition yes : nat -> N -> kopen := fun _ _ => KFd.
Definition no_direct : nat -> N -> kopen := fun _ fl => if has fl O_DIRECT then KErr true else KFd.

Example C76_case :
  ctor_open yes (N.lor RDWR (N.lor CREAT DIRECT)) = Opened 16450 true /\
  ctor_open no_direct (N.lor RDWR (N.lor CREAT DIRECT)) = Opened 66 false /\
  ctor_open no_direct (create_mode DIRECT_ON (N.lor RDWR CREAT)) = OpenThrow.
Proof. repeat split. Qed.

(** C77: locks.  If processes use proper modes, do not switch locking off and do not
    open a file twice, two objects that use the same file are both read-only. *)
Theorem C77_exclusive : forall s i j o o', reach locking s ->
  usable s i o -> usable s j o' -> i <> j -> ob_ino o = ob_ino o' ->
  ob_pid o <> ob_pid o' /\ can_write (ob_flags o) = false /\ can_write (ob_flags o') = false.
Proof.
  intros s i j o o' R U U' D E. pose proof (reach_inv _ s (fun a H => H) R) as I.
  assert (P : ob_pid o <> ob_pid o').
  { intros P. apply D. destruct U, U'. apply (i_single s I i j o o'); auto; unfold open_fd; congruence. }
  pose proof (i_compat s I _ _ (i_held s I i o U) (i_held s I j o' U') E P) as (K & K'). cbn in K, K'.
  destruct (good_access o (i_good s I i o (proj1 U))) as (_ & A).
  destruct (good_access o' (i_good s I j o' (proj1 U'))) as (_ & A').
  rewrite A, A'. unfold lock_kind in K, K'. destruct (has (ob_mode o) RDONLY), (has (ob_mode o') RDONLY); try discriminate.
  auto.
Qed.
Print Assumptions C77_exclusive.

(** The constructor throws after a successful open and fstat iff another process
    uses the file and one of the two may write. *)
Theorem C77_constructor_iff : forall s i o, reach locking s ->
  nth_error (objs s) i = Some o -> ob_st o = Fresh ->
  exists s', act s (AAfter i true) = Some s' /\
    (nth_error (objs s') i = Some (stage_to Leaked o) <->
       exists j o', usable s j o' /\ ob_pid o' <> ob_pid o /\ ob_ino o' = ob_ino o /\
         (can_write (ob_flags o) = true \/ can_write (ob_flags o') = true)) /\
    (nth_error (objs s') i = Some (stage_to Ready o) <->
       ~ exists j o', usable s j o' /\ ob_pid o' <> ob_pid o /\ ob_ino o' = ob_ino o /\
         (can_write (ob_flags o) = true \/ can_write (ob_flags o') = true)).
Proof.
  intros s i o R Ho So. pose proof (reach_inv _ s (fun a H => H) R) as I.
  pose proof (i_good s I i o Ho) as G. destruct (good_access o G) as (A & W).
  set (Q := exists j o', usable s j o' /\ ob_pid o' <> ob_pid o /\ ob_ino o' = ob_ino o /\
         (can_write (ob_flags o) = true \/ can_write (ob_flags o') = true)).
  assert (L1 : lockable s o = true -> ~ Q).
  { rewrite lockable_iff. intros (_ & L) (j & o' & U & P & Ei & C).
    destruct (L _ (i_held s I j o' U)) as (K1 & K2); cbn; auto.
    destruct (good_access o' (i_good s I j o' (proj1 U))) as (_ & W'). cbn in K1. unfold lock_kind in K1.
    rewrite W, W', K2 in C. destruct (has (ob_mode o') RDONLY); [|discriminate]. destruct C; discriminate. }
  assert (L2 : lockable s o = false -> Q).
  { intros L. destruct (lockable_false s o A L) as (l & Hl & Ei & P & K).
    destruct (i_owner s I l Hl) as (j & o' & U & P' & E' & K').
    destruct (good_access o' (i_good s I j o' (proj1 U))) as (_ & W').
    exists j, o'. csplit; auto; try congruence. destruct K as [K|K].
    - right. rewrite W'. unfold lock_kind in K'. destruct (has (ob_mode o') RDONLY); auto; congruence.
    - left. rewrite W, K. auto. }
  cbn [act]. rewrite Ho, So. rewrite has_NO_LOCK. destruct G as (_ & -> & _).
  assert (Nth : forall st, nth_error (upd (objs s) i (stage_to st)) i = Some (stage_to st o)).
  { intros st. rewrite upd_nth, Nat.eqb_refl, Ho. auto. }
  destruct (lockable s o) eqn:E; eexists; (split; [reflexivity|]); cbn [objs]; rewrite Nth.
  - specialize (L1 eq_refl). clear E L2. split; split; auto; intros X; try tauto.
    exfalso. discriminate.
  - specialize (L2 eq_refl). clear E L1. split; split; auto; intros X; try tauto.
    exfalso. discriminate.
Qed.
Print Assumptions C77_constructor_iff.

(** While an object uses a file, the content changes only by writes of this object,
    provided that nobody truncates. *)
Theorem C77_content : forall s a s' i o,
  reach (fun a => locking a /\ no_trunc a) s -> locking a -> no_trunc a -> act s a = Some s' ->
  usable s i o -> content s' (ob_ino o) <> content s (ob_ino o) ->
  exists d, a = AWrite i d /\ can_write (ob_flags o) = true /\ content s' (ob_ino o) = d.
Proof.
  intros s a s' i o R La Ta H U N.
  pose proof (reach_inv _ s (fun a H => proj1 H) R) as I.
  assert (R' : reach locking s).
  { clear - R. induction R; [constructor|]. destruct H. econstructor; eauto. }
  destruct a as [pid name mode k|k ok|k|k|k|k d|pid]; cbn [act] in H.
  - exfalso. apply N. destruct (ctor_open k mode) as [fl al|] eqn:C; [|congruence].
    pose proof (opened_flags _ _ _ _ C) as (_ & _ & _ & T). rewrite has_TRUNC, Ta in T.
    unfold open_in in H. destruct (names s name) as [ino|] eqn:Nm.
    + rewrite T in H. injection H as <-. auto.
    + destruct (has fl O_CREAT); [|discriminate]. injection H as <-. cbn [content]. unfold setf.
      pose proof (i_ino s I i o (proj1 U)). destruct (Nat.eqb_spec (ob_ino o) (nexti s)); auto. lia.
  - exfalso. apply N. destruct (nth_error (objs s) k) as [x|]; [|discriminate]. destruct (ob_st x); try discriminate.
    destruct ok; [|injection H as <-; auto]. destruct (has (ob_mode x) NO_LOCK); [injection H as <-; auto|].
    destruct (lockable s x); injection H as <-; auto.
  - exfalso. apply N. destruct (nth_error (objs s) k) as [x|]; [|discriminate]. destruct (ob_st x); try discriminate.
    injection H as <-; auto.
  - exfalso. apply N. destruct (nth_error (objs s) k) as [x|]; [|discriminate]. destruct (ob_st x); try discriminate.
    injection H as <-; auto.
  - exfalso. apply N. destruct (nth_error (objs s) k) as [x|]; [|discriminate]. destruct (ob_st x); try discriminate;
    injection H as <-; auto.
  - destruct (nth_error (objs s) k) as [x|] eqn:Hk; [|discriminate]. destruct (ob_st x) eqn:Sx; try discriminate.
    destruct (can_write (ob_flags x)) eqn:W; [|discriminate]. injection H as <-. cbn [content] in *. unfold setf in *.
    destruct (Nat.eqb_spec (ob_ino o) (ob_ino x)); [|congruence].
    destruct (Nat.eq_dec i k) as [->|D].
    + destruct U as (U1 & U2). assert (x = o) by congruence. subst x. exists d. auto.
    + destruct (C77_exclusive s i k o x R' U (conj Hk Sx) D e) as (_ & _ & W'). congruence.
  - exfalso. apply N. injection H as <-. auto.
Qed.
Print Assumptions C77_content.

(** If nobody removes files, this also holds by name. *)
Theorem C77_by_name : forall s i j o o', reach (fun a => locking a /\ no_remove a) s ->
  usable s i o -> usable s j o' -> i <> j -> ob_name o = ob_name o' ->
  can_write (ob_flags o) = false /\ can_write (ob_flags o') = false.
Proof.
  intros s i j o o' R U U' D E.
  assert (R' : reach locking s).
  { clear - R. induction R; [constructor|]. destruct H. econstructor; eauto. }
  assert (Nm : forall i o, nth_error (objs s) i = Some o -> names s (ob_name o) = Some (ob_ino o)).
  { clear - R. induction R as [|s a s' R IH [La Ra] H Si].
    - intros i o H. destruct i; discriminate.
    - assert (Mono : forall n k, names s n = Some k -> names s' n = Some k).
      { intros n k E. destruct a as [pid name mode q|q ok|q|q|q|q d|pid]; cbn [act] in H.
        - destruct (ctor_open q mode) as [fl al|]; [|congruence]. unfold open_in in H.
          destruct (names s name) as [ino|] eqn:Nm; [injection H as <-; auto|].
          destruct (has fl O_CREAT); [|discriminate]. injection H as <-. cbn [names]. unfold setf.
          destruct (Nat.eqb_spec n name); auto. congruence.
        - destruct (nth_error (objs s) q) as [x|]; [|discriminate]. destruct (ob_st x); try discriminate.
          destruct ok; [|injection H as <-; auto]. destruct (has (ob_mode x) NO_LOCK); [injection H as <-; auto|].
          destruct (lockable s x); injection H as <-; auto.
        - destruct (nth_error (objs s) q) as [x|]; [|discriminate]. destruct (ob_st x); try discriminate.
          injection H as <-; auto.
        - destruct (nth_error (objs s) q) as [x|]; [|discriminate]. destruct (ob_st x); try discriminate.
          injection H as <-; auto.
        - destruct Ra.
        - destruct (nth_error (objs s) q) as [x|]; [|discriminate]. destruct (ob_st x); try discriminate.
          destruct (can_write (ob_flags x)); [|discriminate]. injection H as <-; auto.
        - injection H as <-; auto. }
      intros i o' N. destruct (step_objs s a s' H i o' N) as [(o & A & (_ & Q1 & Q2 & _))|(_ & _ & pid & name & mode & k & fl & al & _ & _ & Q & Q')].
      + rewrite Q1, Q2. apply Mono. eauto.
      + rewrite Q. cbn [ob_name ob_ino]. auto. }
  pose proof (Nm i o (proj1 U)) as N1. pose proof (Nm j o' (proj1 U')) as N2.
  assert (Ei : ob_ino o = ob_ino o') by (rewrite E in N1; congruence).
  destruct (C77_exclusive s i j o o' R' U U' D Ei) as (_ & A). exact A.
Qed.
Print Assumptions C77_by_name.

(** A descriptor whose constructor threw is never closed before the process ends. *)
Theorem C77_leak : forall l s s' i o, run s l = Some s' ->
  nth_error (objs s) i = Some o -> ob_st o = Leaked -> ~ In (AExit (ob_pid o)) l ->
  nth_error (objs s') i = Some o.
Proof.
  induction l as [|a l IH]; cbn [run]; intros s s' i o H Ho So Ne; [congruence|].
  destruct (act s a) as [t|] eqn:A; [|discriminate].
  apply (IH t s' i o H); auto; [|intros X; apply Ne; right; auto].
  assert (Up : forall k st x, nth_error (objs s) k = Some x -> ob_st x <> Leaked ->
             nth_error (upd (objs s) k (stage_to st)) i = Some o).
  { intros k st x Hx Sx. rewrite upd_nth. destruct (Nat.eqb_spec i k); auto. subst. congruence. }
  destruct a as [pid name mode q|q ok|q|q|q|q d|pid]; cbn [act] in A.
  - destruct (ctor_open q mode) as [fl al|]; [|congruence]. unfold open_in in A.
    assert (Ap : forall x, nth_error (objs s ++ [x]) i = Some o)
      by (intros x; rewrite nth_error_app1; auto; eapply nth_lt; eauto).
    destruct (names s name); [injection A as <-; cbn [objs]; auto|]. destruct (has fl O_CREAT); [|discriminate].
    injection A as <-. cbn [objs]. auto.
  - destruct (nth_error (objs s) q) as [x|] eqn:Hx; [|discriminate]. destruct (ob_st x) eqn:Sx; try discriminate.
    assert (ob_st x <> Leaked) by congruence.
    destruct ok; [|injection A as <-; cbn [objs]; eapply Up; eauto].
    destruct (has (ob_mode x) NO_LOCK); [injection A as <-; cbn [objs]; eapply Up; eauto|].
    destruct (lockable s x); injection A as <-; cbn [objs]; eapply Up; eauto.
  - destruct (nth_error (objs s) q) as [x|] eqn:Hx; [|discriminate]. destruct (ob_st x) eqn:Sx; try discriminate.
    injection A as <-. cbn [objs]. auto.
  - destruct (nth_error (objs s) q) as [x|] eqn:Hx; [|discriminate]. destruct (ob_st x) eqn:Sx; try discriminate.
    injection A as <-. cbn [objs]. eapply Up; eauto. congruence.
  - destruct (nth_error (objs s) q) as [x|] eqn:Hx; [|discriminate]. destruct (ob_st x) eqn:Sx; try discriminate;
    injection A as <-; cbn [objs]; auto.
  - destruct (nth_error (objs s) q) as [x|] eqn:Hx; [|discriminate]. destruct (ob_st x) eqn:Sx; try discriminate.
    destruct (can_write (ob_flags x)); [|discriminate]. injection A as <-. cbn [objs]. auto.
  - injection A as <-. cbn [objs]. rewrite nth_error_map, Ho. cbn. destruct (Nat.eqb_spec (ob_pid o) pid); auto.
    exfalso. apply Ne. left. congruence.
Qed.
Print Assumptions C77_leak.

(** What does not hold.  The usual mode of the block manager: *)
Definition rw : N := N.lor CREAT RDWR.
Definition writers (s : sys) : list (nat * nat * nat) :=
  map (fun o => (ob_pid o, ob_name o, ob_ino o))
      (filter (fun o => match ob_st o with Ready => can_write (ob_flags o) | _ => false end) (objs s)).

(** One process can use the same file twice, for instance as two disks. *)
Theorem C77_same_process_refuted :
  option_map writers (run sys0 [AOpen 1 7 rw yes; AAfter 0 true; AOpen 1 7 rw yes; AAfter 1 true]) =
    Some [(1, 7, 0); (1, 7, 0)].
Proof. reflexivity. Qed.
Print Assumptions C77_same_process_refuted.

(** Closing one of them, or opening it once more for reading, gives the file to
    other processes. *)
Theorem C77_close_refuted :
  option_map writers (run sys0 [AOpen 1 7 rw yes; AAfter 0 true; AOpen 1 7 rw yes; AAfter 1 true;
                                AClose 1; AOpen 2 7 rw yes; AAfter 2 true]) = Some [(1, 7, 0); (2, 7, 0)] /\
  option_map (fun s => map ob_st (objs s))
             (run sys0 [AOpen 1 7 rw yes; AAfter 0 true; AOpen 1 7 RDONLY yes; AAfter 1 true;
                        AOpen 2 7 RDONLY yes; AAfter 2 true]) = Some [Ready; Ready; Ready].
Proof. split; reflexivity. Qed.
Print Assumptions C77_close_refuted.

(** Opening with TRUNC destroys the content before the lock is refused. *)
Theorem C77_trunc_refuted :
  option_map (fun s => (content s 0, map ob_st (objs s)))
    (run sys0 [AOpen 1 7 rw yes; AAfter 0 true; AWrite 0 [5%Z]; AOpen 2 7 (N.lor rw TRUNC) yes; AAfter 1 true]) =
  Some ([], [Ready; Leaked]).
Proof. reflexivity. Qed.
Print Assumptions C77_trunc_refuted.

(** close_remove closes first: another process can get the file in between, and a
    third one then creates a new file of that name. *)
Theorem C77_close_remove_refuted :
  option_map writers (run sys0 [AOpen 1 7 rw yes; AAfter 0 true; AClose 0; AOpen 2 7 rw yes; AAfter 1 true;
                                ARemove 0; AOpen 3 7 rw yes; AAfter 2 true]) = Some [(2, 7, 0); (3, 7, 1)].
Proof. reflexivity. Qed.
Print Assumptions C77_close_remove_refuted.

(** Replaying a run. *)
Fixpoint distinctb (l : list obj) : bool :=
  match l with
  | [] => true
  | o :: r => forallb (fun o' => negb ((ob_pid o =? ob_pid o') && (ob_ino o =? ob_ino o'))) r && distinctb r
  end.

Lemma distinctb_single : forall s, distinctb (objs s) = true -> single s.
Proof.
  intros s. unfold single. generalize (objs s) as l. induction l as [|x l IH]; cbn [distinctb]; intros H i j o o' A B Fo Fo' P Q.
  - destruct i; discriminate.
  - apply andb_true_iff in H. destruct H as (H & H'). rewrite forallb_forall in H.
    assert (K : forall y, In y l -> ob_pid x = ob_pid y -> ob_ino x = ob_ino y -> False).
    { intros y Y E1 E2. specialize (H y Y). apply Nat.eqb_eq in E1, E2. rewrite E1, E2 in H. discriminate. }
    destruct i, j; cbn in A, B; auto.
    + injection A as <-. apply nth_error_In in B. exfalso. eauto.
    + injection B as <-. apply nth_error_In in A. exfalso. eapply K; eauto.
    + f_equal. eapply IH; eauto.
Qed.

Fixpoint checked (s : sys) (l : list action) : bool :=
  match l with
  | [] => true
  | a :: r => match act s a with Some s' => distinctb (objs s') && checked s' r | None => false end
  end.

Lemma reach_run : forall P l s, reach P s -> Forall P l -> checked s l = true ->
  exists s', run s l = Some s' /\ reach P s'.
Proof.
  intros P l. induction l as [|a l IH]; cbn [checked run]; intros s R F C; eauto.
  inversion F; subst. destruct (act s a) as [t|] eqn:A; [|discriminate]. apply andb_true_iff in C. destruct C as (C & C').
  apply IH; auto. econstructor; eauto. apply distinctb_single. auto.
Qed.

Example C77_case : exists s, reach (fun a => locking a /\ no_remove a) s /\
  map ob_st (objs s) = [Ready; Leaked; Ready] /\ writers s = [(1, 7, 0); (3, 8, 1)] /\ content s 0 = [5%Z].
Proof.
  assert (Prw : proper rw /\ N.testbit rw 7 = false) by (split; [right; right|]; repeat split).
  destruct (reach_run (fun a => locking a /\ no_remove a)
    [AOpen 1 7 rw yes; AAfter 0 true; AWrite 0 [5%Z]; AOpen 2 7 rw yes; AAfter 1 true; AOpen 3 8 rw yes; AAfter 2 true]
    sys0 (reach0 _)) as (s & E & R).
  - repeat constructor; apply Prw.
  - reflexivity.
  - exists s. split; auto. injection E as <-. repeat split.
Qed.
