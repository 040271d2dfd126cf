(** Lemmas for OpenProps.v. *)
From Coq Require Import List Arith NArith ZArith Bool Lia.
From Verif Require Import OpenModel OpenSpec.
Import ListNotations.
Local Open Scope list_scope.
Local Open Scope nat_scope.

Ltac csplit := repeat match goal with |- _ /\ _ => split end.

Lemma land_pow2 : forall m k, N.land m (2 ^ k) = if N.testbit m k then (2 ^ k)%N else 0%N.
Proof.
  intros m k. apply N.bits_inj. intros n. rewrite N.land_spec, N.pow2_bits_eqb.
  destruct (N.eqb_spec k n).
  - subst. destruct (N.testbit m n); [rewrite N.pow2_bits_true|rewrite N.bits_0]; auto.
  - rewrite andb_false_r. destruct (N.testbit m k); [rewrite N.pow2_bits_false|rewrite N.bits_0]; auto.
Qed.

Lemma has_bit : forall m k, has m (2 ^ k) = N.testbit m k.
Proof.
  intros m k. unfold has. rewrite land_pow2. destruct (N.testbit m k); auto.
  replace (2 ^ k =? 0)%N with false; auto. symmetry. apply N.eqb_neq. apply N.pow_nonzero. discriminate.
Qed.

Lemma has_RDONLY : forall m, has m RDONLY = N.testbit m 0. Proof. intros. apply (has_bit m 0). Qed.
Lemma has_WRONLY : forall m, has m WRONLY = N.testbit m 1. Proof. intros. apply (has_bit m 1). Qed.
Lemma has_RDWR : forall m, has m RDWR = N.testbit m 2. Proof. intros. apply (has_bit m 2). Qed.
Lemma has_CREAT : forall m, has m CREAT = N.testbit m 3. Proof. intros. apply (has_bit m 3). Qed.
Lemma has_DIRECT : forall m, has m DIRECT = N.testbit m 4. Proof. intros. apply (has_bit m 4). Qed.
Lemma has_TRUNC : forall m, has m TRUNC = N.testbit m 5. Proof. intros. apply (has_bit m 5). Qed.
Lemma has_SYNC : forall m, has m SYNC = N.testbit m 6. Proof. intros. apply (has_bit m 6). Qed.
Lemma has_NO_LOCK : forall m, has m NO_LOCK = N.testbit m 7. Proof. intros. apply (has_bit m 7). Qed.
Lemma has_REQ : forall m, has m REQUIRE_DIRECT = N.testbit m 8. Proof. intros. apply (has_bit m 8). Qed.

Ltac flags mode :=
  unfold open_flags;
  destruct (has mode RDONLY), (has mode WRONLY), (has mode RDWR), (has mode CREAT), (has mode TRUNC),
    (has mode DIRECT), (has mode REQUIRE_DIRECT), (has mode SYNC).

(** The flags of the descriptor. *)
Lemma flags_table : forall mode,
  let fl := open_flags mode in
  N.testbit fl 0 = has mode WRONLY /\ N.testbit fl 1 = has mode RDWR /\
  has fl O_CREAT = has mode CREAT /\ has fl O_TRUNC = has mode TRUNC /\
  has fl O_DIRECT = has mode DIRECT || has mode REQUIRE_DIRECT /\
  has fl O_DSYNC = has mode SYNC /\ has fl O_SYNC = has mode SYNC.
Proof. intros mode. cbv zeta. flags mode; vm_compute; auto 10. Qed.

Lemma acc_bits : forall fl, N.land fl 3 = ((if N.testbit fl 0 then 1 else 0) + (if N.testbit fl 1 then 2 else 0))%N.
Proof.
  intros fl. apply N.bits_inj. intros n. rewrite N.land_spec.
  destruct n as [|[p|p|]]; try (destruct (N.testbit fl 0), (N.testbit fl 1); cbn; rewrite ?andb_true_r, ?andb_false_r; auto; fail).
Qed.

Lemma ldiff_low : forall fl n, (n < 14)%N -> N.testbit (N.ldiff fl O_DIRECT) n = N.testbit fl n.
Proof.
  intros fl n L. rewrite N.ldiff_spec. change O_DIRECT with (2 ^ 14)%N. rewrite N.pow2_bits_false by lia.
  apply andb_true_r.
Qed.

Lemma has_O_CREAT : forall m, has m O_CREAT = N.testbit m 6. Proof. intros. apply (has_bit m 6). Qed.
Lemma has_O_TRUNC : forall m, has m O_TRUNC = N.testbit m 9. Proof. intros. apply (has_bit m 9). Qed.

(** Whatever path the constructor takes, access, creation and truncation are as
    asked. *)
Lemma opened_flags : forall k mode fl al, ctor_open k mode = Opened fl al ->
  N.testbit fl 0 = has mode WRONLY /\ N.testbit fl 1 = has mode RDWR /\
  has fl O_CREAT = has mode CREAT /\ has fl O_TRUNC = has mode TRUNC.
Proof.
  intros k mode fl al H. unfold ctor_open in H. pose proof (flags_table mode) as T. cbv zeta in T.
  destruct T as (T0 & T1 & T2 & T3 & _).
  destruct (k 0 (open_flags mode)); [injection H as <- <-; auto|].
  destruct (has mode DIRECT && negb (has mode REQUIRE_DIRECT) && einval); [|discriminate].
  destruct (k 1 (N.ldiff (open_flags mode) O_DIRECT)); [|discriminate]. injection H as <- <-.
  rewrite has_O_CREAT, has_O_TRUNC in *. rewrite !ldiff_low by (cbv; auto). auto.
Qed.

Lemma can_write_bits : forall fl, can_write fl = xorb (N.testbit fl 0) (N.testbit fl 1).
Proof.
  intros fl. unfold can_write. rewrite acc_bits. destruct (N.testbit fl 0), (N.testbit fl 1); auto.
Qed.
Lemma can_read_bits : forall fl, can_read fl = negb (N.testbit fl 0).
Proof.
  intros fl. unfold can_read. rewrite acc_bits. destruct (N.testbit fl 0), (N.testbit fl 1); auto.
Qed.

(** *** Lists *)

Lemma upd_nth : forall {X} (f : X -> X) l i j,
  nth_error (upd l i f) j = if j =? i then option_map f (nth_error l j) else nth_error l j.
Proof.
  intros X f l. induction l as [|x l IH]; intros i j.
  - destruct j; cbn [upd nth_error option_map]; match goal with |- context [if ?c then _ else _] => destruct c end; auto.
  - destruct i, j; cbn; auto.
Qed.

Lemma drop_in : forall p n l x, In x (drop p n l) <-> In x l /\ ~ (lk_pid x = p /\ lk_ino x = n).
Proof.
  intros p n l x. unfold drop. rewrite filter_In.
  destruct (Nat.eqb_spec (lk_pid x) p), (Nat.eqb_spec (lk_ino x) n); cbn; intuition congruence.
Qed.

Lemma lockable_iff : forall s o, lockable s o = true <->
  (if has (ob_mode o) RDONLY then can_read (ob_flags o) else can_write (ob_flags o)) = true /\
  forall l, In l (lks s) -> lk_ino l = ob_ino o -> lk_pid l <> ob_pid o ->
    lk_kind l = LRead /\ has (ob_mode o) RDONLY = true.
Proof.
  intros s o. unfold lockable, lock_kind. rewrite andb_true_iff, forallb_forall.
  assert (E : (match (if has (ob_mode o) RDONLY then LRead else LWrite) with
               LRead => can_read (ob_flags o) | LWrite => can_write (ob_flags o) end) =
              if has (ob_mode o) RDONLY then can_read (ob_flags o) else can_write (ob_flags o))
    by (destruct (has (ob_mode o) RDONLY); auto).
  rewrite E. split; intros (A & B); split; auto; intros l L.
  - intros I Q. specialize (B l L). apply negb_true_iff in B.
    rewrite (proj2 (Nat.eqb_eq _ _) I), (proj2 (Nat.eqb_neq _ _) Q) in B. cbn in B.
    destruct (lk_kind l), (has (ob_mode o) RDONLY); cbn in B; try discriminate; auto.
  - apply negb_true_iff. destruct (Nat.eqb_spec (lk_ino l) (ob_ino o)); auto.
    destruct (Nat.eqb_spec (lk_pid l) (ob_pid o)); auto.
    destruct (B l L e n) as (-> & ->). auto.
Qed.

Lemma forallb_ex : forall {X} (f : X -> bool) l, forallb f l = false -> exists x, In x l /\ f x = false.
Proof.
  intros X f l. induction l as [|x l IH]; cbn; [discriminate|]. destruct (f x) eqn:E; cbn.
  - intros H. destruct (IH H) as (y & A & B). eauto.
  - intros _. eauto.
Qed.

Lemma lockable_false : forall s o,
  (if has (ob_mode o) RDONLY then can_read (ob_flags o) else can_write (ob_flags o)) = true ->
  lockable s o = false ->
  exists l, In l (lks s) /\ lk_ino l = ob_ino o /\ lk_pid l <> ob_pid o /\
    (lk_kind l = LWrite \/ has (ob_mode o) RDONLY = false).
Proof.
  intros s o A H. unfold lockable in H. apply andb_false_iff in H. destruct H as [H|H].
  - unfold lock_kind in H. destruct (has (ob_mode o) RDONLY); congruence.
  - apply forallb_ex in H. destruct H as (l & L & H). apply negb_false_iff in H.
    apply andb_true_iff in H. destruct H as (H & K). apply andb_true_iff in H. destruct H as (E & P).
    apply Nat.eqb_eq in E. apply negb_true_iff in P. apply Nat.eqb_neq in P. exists l. csplit; auto.
    unfold lock_kind in K. destruct (lk_kind l), (has (ob_mode o) RDONLY); auto.
Qed.

(** *** The invariant *)

Definition good (o : obj) : Prop :=
  proper (ob_mode o) /\ N.testbit (ob_mode o) 7 = false /\
  N.testbit (ob_flags o) 0 = has (ob_mode o) WRONLY /\ N.testbit (ob_flags o) 1 = has (ob_mode o) RDWR.

Record inv (s : sys) : Prop := {
  i_good : forall i o, nth_error (objs s) i = Some o -> good o;
  i_ino : forall i o, nth_error (objs s) i = Some o -> ob_ino o < nexti s;
  i_name : forall n k, names s n = Some k -> k < nexti s;
  i_held : forall i o, usable s i o -> In (mklk (ob_pid o) (ob_ino o) (lock_kind (ob_mode o))) (lks s);
  i_owner : forall l, In l (lks s) -> exists i o, usable s i o /\ lk_pid l = ob_pid o /\ lk_ino l = ob_ino o /\
              lk_kind l = lock_kind (ob_mode o);
  i_compat : forall l l', In l (lks s) -> In l' (lks s) -> lk_ino l = lk_ino l' -> lk_pid l <> lk_pid l' ->
              lk_kind l = LRead /\ lk_kind l' = LRead;
  i_single : single s
}.

Lemma inv0 : inv sys0.
Proof.
  constructor; unfold usable, single, sys0; cbn; intros; try contradiction; try discriminate;
    try (destruct i; discriminate).
  - destruct H. destruct i; discriminate.
Qed.

Lemma nth_snoc : forall {X} (l : list X) x i y, nth_error (l ++ [x]) i = Some y ->
  nth_error l i = Some y \/ (i = length l /\ y = x).
Proof.
  intros X l x i y H. destruct (Nat.lt_ge_cases i (length l)).
  - rewrite nth_error_app1 in H by auto. auto.
  - rewrite nth_error_app2 in H by auto. destruct (i - length l) eqn:E; cbn in H.
    + right. split; [lia|congruence].
    + destruct n; discriminate.
Qed.

Lemma nth_lt : forall {X} (l : list X) i y, nth_error l i = Some y -> i < length l.
Proof. intros. apply nth_error_Some. congruence. Qed.

(** An object added by open. *)
Lemma open_inv : forall s s' o,
  inv s -> single s' -> good o -> ob_st o = Fresh ->
  objs s' = objs s ++ [o] -> lks s' = lks s -> nexti s <= nexti s' -> ob_ino o < nexti s' ->
  (forall n k, names s' n = Some k -> k < nexti s') -> inv s'.
Proof.
  intros s s' o I Si G F Eo El Ln Li Hn.
  assert (U : forall i x, usable s' i x <-> usable s i x).
  { intros i x. unfold usable. rewrite Eo. split; intros (A & B); split; auto.
    - apply nth_snoc in A. destruct A as [A|(_ & ->)]; auto. congruence.
    - rewrite nth_error_app1; auto. eapply nth_lt; eauto. }
  constructor; auto.
  - intros i x H. rewrite Eo in H. apply nth_snoc in H. destruct H as [H|(_ & ->)]; auto. eapply i_good; eauto.
  - intros i x H. rewrite Eo in H. apply nth_snoc in H. destruct H as [H|(_ & ->)]; auto.
    apply Nat.lt_le_trans with (nexti s); auto. eapply i_ino; eauto.
  - intros i x H. rewrite El. apply (i_held s I i). apply U. auto.
  - intros l H. rewrite El in H. destruct (i_owner s I l H) as (i & x & A & B). exists i, x. split; auto. apply U. auto.
  - intros l l' H H'. rewrite El in H, H'. apply (i_compat s I); auto.
Qed.

(** Same objects up to their stage. *)
Definition same_obj (o o' : obj) : Prop :=
  ob_pid o' = ob_pid o /\ ob_name o' = ob_name o /\ ob_ino o' = ob_ino o /\ ob_mode o' = ob_mode o /\ ob_flags o' = ob_flags o.

Lemma step_objs : forall s a s', act s a = Some s' ->
  forall i o', nth_error (objs s') i = Some o' ->
  (exists o, nth_error (objs s) i = Some o /\ same_obj o o') \/
  (i = length (objs s) /\ ob_st o' = Fresh /\ exists pid name mode k fl al, a = AOpen pid name mode k /\
     ctor_open k mode = Opened fl al /\ o' = mkobj pid name (ob_ino o') mode fl Fresh /\
     names s' name = Some (ob_ino o')).
Proof.
  intros s a s' H i o' N.
  assert (R : forall o, same_obj o o) by (unfold same_obj; auto).
  assert (St : forall st o, same_obj o (stage_to st o)) by (unfold same_obj; auto).
  assert (Up : forall k st, nth_error (upd (objs s) k (stage_to st)) i = Some o' ->
               exists o, nth_error (objs s) i = Some o /\ same_obj o o').
  { intros k st. rewrite upd_nth. destruct (i =? k).
    - destruct (nth_error (objs s) i) eqn:E; [|discriminate]. cbn. intros [= <-]. eauto.
    - intros E. eauto. }
  destruct a as [pid name mode k|k ok|k|k|k|k d|pid]; cbn [act] in H.
  - destruct (ctor_open k mode) as [fl al|] eqn:C; [|injection H as <-; eauto].
    unfold open_in in H. destruct (names s name) as [ino|] eqn:Nm.
    + injection H as <-. cbn [objs names] in *. apply nth_snoc in N. destruct N as [N|(-> & ->)]; eauto.
      right. csplit; auto. exists pid, name, mode, k, fl, al. csplit; auto.
    + destruct (has fl O_CREAT); [|discriminate]. injection H as <-. cbn [objs names] in *.
      apply nth_snoc in N. destruct N as [N|(-> & ->)]; eauto.
      right. csplit; auto. exists pid, name, mode, k, fl, al. csplit; auto.
      unfold setf. rewrite Nat.eqb_refl. auto.
  - destruct (nth_error (objs s) k) as [o|]; [|discriminate]. destruct (ob_st o); try discriminate.
    destruct ok; [|injection H as <-; cbn [objs] in N; eauto].
    destruct (has (ob_mode o) NO_LOCK); [injection H as <-; cbn [objs] in N; eauto|].
    destruct (lockable s o); injection H as <-; cbn [objs] in N; eauto.
  - destruct (nth_error (objs s) k) as [o|]; [|discriminate]. destruct (ob_st o); try discriminate.
    injection H as <-. cbn [objs] in N. eauto.
  - destruct (nth_error (objs s) k) as [o|]; [|discriminate]. destruct (ob_st o); try discriminate.
    injection H as <-. cbn [objs] in N. eauto.
  - destruct (nth_error (objs s) k) as [o|]; [|discriminate]. destruct (ob_st o); try discriminate;
      injection H as <-; cbn [objs] in N; eauto.
  - destruct (nth_error (objs s) k) as [o|]; [|discriminate]. destruct (ob_st o); try discriminate.
    destruct (can_write (ob_flags o)); [|discriminate]. injection H as <-. cbn [objs] in N. eauto.
  - injection H as <-. cbn [objs] in N. rewrite nth_error_map in N.
    destruct (nth_error (objs s) i) as [o|] eqn:E; [|discriminate]. cbn in N. injection N as <-.
    left. exists o. split; auto. destruct (ob_pid o =? pid); auto.
Qed.

(** Setting a lock for an object that is (or becomes) usable. *)
Lemma lock_inv : forall s o i st,
  inv s -> nth_error (objs s) i = Some o -> (ob_st o = Fresh \/ ob_st o = Ready) -> st = Ready ->
  lockable s o = true ->
  single (mksys (names s) (content s) (nexti s) (upd (objs s) i (stage_to st)) (set_lock o (lks s))) ->
  inv (mksys (names s) (content s) (nexti s) (upd (objs s) i (stage_to st)) (set_lock o (lks s))).
Proof.
  intros s o i st I Hi So -> L Si.
  assert (Ofd : open_fd o) by (unfold open_fd; destruct So; congruence).
  assert (Nth : forall j x, nth_error (upd (objs s) i (stage_to Ready)) j = Some x ->
            (j = i /\ x = stage_to Ready o) \/ (j <> i /\ nth_error (objs s) j = Some x)).
  { intros j x. rewrite upd_nth. destruct (Nat.eqb_spec j i); auto. subst. rewrite Hi. cbn. intros [= <-]. auto. }
  assert (Other : forall j x, j <> i -> usable s j x -> ~ (ob_pid x = ob_pid o /\ ob_ino x = ob_ino o)).
  { intros j x J (A & B) (P & Q). apply J. apply (i_single s I j i x o); auto. unfold open_fd. congruence. }
  apply lockable_iff in L. destruct L as (_ & L).
  constructor; cbn [objs names nexti lks]; auto.
  - intros j x H. apply Nth in H. destruct H as [(-> & ->)|(_ & H)]; [exact (i_good s I i o Hi)|exact (i_good s I j x H)].
  - intros j x H. apply Nth in H. destruct H as [(-> & ->)|(_ & H)]; [exact (i_ino s I i o Hi)|exact (i_ino s I j x H)].
  - apply I.
  - intros j x (H & R). cbn [objs] in H. unfold set_lock. apply Nth in H. destruct H as [(-> & ->)|(J & H)].
    + left. reflexivity.
    + right. apply drop_in. split; [apply (i_held s I j); split; auto|]. cbn. apply (Other j); auto. split; auto.
  - intros l [<-|H].
    + exists i, (stage_to Ready o). cbn. csplit; auto. split; auto. cbn [objs]. rewrite upd_nth, Nat.eqb_refl, Hi. auto.
    + apply drop_in in H. destruct H as (H & D). destruct (i_owner s I l H) as (j & x & (A & B) & P & Q & K).
      exists j, x. csplit; auto. split; auto. cbn [objs]. rewrite upd_nth. destruct (Nat.eqb_spec j i); auto.
      subst j. rewrite Hi in A. injection A as <-. tauto.
  - assert (C : forall l, In l (drop (ob_pid o) (ob_ino o) (lks s)) -> lk_ino l = ob_ino o ->
               lk_kind l = LRead /\ lock_kind (ob_mode o) = LRead).
    { intros l H E. apply drop_in in H. destruct H as (H & D). destruct (L l H E) as (K1 & K2); [tauto|].
      unfold lock_kind. rewrite K2. auto. }
    intros l l' [<-|H] [<-|H'] E P; cbn in *.
    + congruence.
    + destruct (C l' H' (eq_sym E)). auto.
    + destruct (C l H E). auto.
    + apply drop_in in H, H'. apply (i_compat s I l l'); tauto.
Qed.

(** Objects that stop being usable, with their locks gone. *)
Lemma shut_inv : forall s nm g l',
  inv s ->
  (forall n k, nm n = Some k -> k < nexti s) ->
  (forall i o', nth_error g i = Some o' -> exists o, nth_error (objs s) i = Some o /\ same_obj o o' /\
     (ob_st o' = Ready -> o' = o)) ->
  (forall i o, nth_error g i = Some o -> usable s i o ->
     In (mklk (ob_pid o) (ob_ino o) (lock_kind (ob_mode o))) l') ->
  (forall l, In l l' -> In l (lks s)) ->
  (forall l i o, In l l' -> usable s i o -> lk_pid l = ob_pid o -> lk_ino l = ob_ino o -> nth_error g i = Some o) ->
  forall c, single (mksys nm c (nexti s) g l') -> inv (mksys nm c (nexti s) g l').
Proof.
  intros s nm g l' I Nm G Hh Sub Stay c Si. constructor; cbn [objs names nexti lks]; auto.
  - intros i o' H. destruct (G i o' H) as (o & A & (_ & _ & _ & M & Fl) & _).
    pose proof (i_good s I i o A) as Q. unfold good in *. rewrite M, Fl. auto.
  - intros i o' H. destruct (G i o' H) as (o & A & (_ & _ & M & _) & _). rewrite M. apply (i_ino s I i o A).
  - intros i o' (H & R). cbn [objs] in H. destruct (G i o' H) as (o & A & _ & E). specialize (E R). subst o'.
    apply (Hh i); auto. split; auto.
  - intros l H. destruct (i_owner s I l (Sub l H)) as (i & o & U & P & Q & K). exists i, o. csplit; auto.
    split; [|apply U]. cbn [objs]. eapply Stay; eauto.
  - intros x y H H'. apply (i_compat s I); auto.
Qed.

Lemma upd_same : forall {X} (f : X -> X) l i x, nth_error l i = Some x -> f x = x -> upd l i f = l.
Proof.
  intros X f l. induction l as [|y l IH]; intros i x H E; auto. destruct i; cbn in *.
  - injection H as ->. rewrite E. auto.
  - rewrite (IH i x); auto.
Qed.

Lemma act_inv : forall s a s', inv s -> locking a -> act s a = Some s' -> single s' -> inv s'.
Proof.
  intros s a s' I La H Si.
  assert (R : forall o, same_obj o o) by (unfold same_obj; auto).
  assert (Upd : forall k st i o', st <> Ready -> nth_error (upd (objs s) k (stage_to st)) i = Some o' ->
            exists o, nth_error (objs s) i = Some o /\ same_obj o o' /\ (ob_st o' = Ready -> o' = o)).
  { intros k st i o' St. rewrite upd_nth. destruct (i =? k).
    - destruct (nth_error (objs s) i) as [o|] eqn:E; [|discriminate]. cbn. intros [= <-]. exists o.
      csplit; auto; [unfold same_obj; auto|]. cbn. congruence.
    - intros E. exists o'. auto. }
  destruct a as [pid name mode k|k ok|k|k|k|k d|pid]; cbn [act] in H.
  - destruct (ctor_open k mode) as [fl al|] eqn:C; [|injection H as <-; auto].
    pose proof (opened_flags _ _ _ _ C) as (F0 & F1 & _). destruct La as (Pm & Nl).
    unfold open_in in H. destruct (names s name) as [ino|] eqn:Nm.
    + injection H as <-. eapply (open_inv s _ (mkobj pid name ino mode fl Fresh)); cbn; eauto.
      * unfold good; cbn; auto.
      * apply (i_name s I name ino Nm).
      * apply I.
    + destruct (has fl O_CREAT); [|discriminate]. injection H as <-.
      eapply (open_inv s _ (mkobj pid name (nexti s) mode fl Fresh)); cbn; eauto.
      * unfold good; cbn; auto.
      * intros n j. unfold setf. destruct (n =? name); [intros [= <-]; lia|]. intros E.
        pose proof (i_name s I n j E). lia.
  - destruct (nth_error (objs s) k) as [o|] eqn:Ho; [|discriminate]. destruct (ob_st o) eqn:So; try discriminate.
    assert (Leak : single (mksys (names s) (content s) (nexti s) (upd (objs s) k (stage_to Leaked)) (lks s)) ->
                   inv (mksys (names s) (content s) (nexti s) (upd (objs s) k (stage_to Leaked)) (lks s))).
    { intros Si'. apply shut_inv; auto; try apply I.
      - intros i o'. apply Upd. discriminate.
      - intros i x _ U. apply (i_held s I i x U).
      - intros l i x _ (U1 & U2) _ _. rewrite upd_nth. destruct (Nat.eqb_spec i k); auto. subst. congruence. }
    destruct ok; [|injection H as <-; auto].
    replace (has (ob_mode o) NO_LOCK) with false in H
      by (rewrite has_NO_LOCK; symmetry; apply (i_good s I k o Ho)).
    destruct (lockable s o) eqn:L; injection H as <-; auto.
    apply lock_inv; auto.
  - destruct (nth_error (objs s) k) as [o|] eqn:Ho; [|discriminate]. destruct (ob_st o) eqn:So; try discriminate.
    injection H as <-. destruct (lockable s o) eqn:L.
    + rewrite <- (upd_same (stage_to Ready) (objs s) k o) in Si |- *; auto.
      * apply lock_inv; auto.
      * destruct o; cbn in *; subst; auto.
      * destruct o; cbn in *; subst; auto.
    + destruct s; auto.
  - destruct (nth_error (objs s) k) as [o|] eqn:Ho; [|discriminate]. destruct (ob_st o) eqn:So; try discriminate.
    injection H as <-. apply shut_inv; auto; try apply I.
    + intros i o'. apply Upd. discriminate.
    + intros i x N U. apply drop_in. split; [apply (i_held s I i x U)|]. cbn. intros (P & Q).
      assert (i = k). { destruct U. apply (i_single s I i k x o); auto; unfold open_fd; congruence. }
      subst i. rewrite upd_nth, Nat.eqb_refl, Ho in N. destruct U as (_ & U). cbn in N. injection N as <-. discriminate.
    + intros l N. apply drop_in in N. tauto.
    + intros l i x N (U1 & U2) P Q. apply drop_in in N. rewrite upd_nth. destruct (Nat.eqb_spec i k); auto. subst.
      exfalso. apply (proj2 N). assert (x = o) by congruence. subst. auto.
  - destruct (nth_error (objs s) k) as [o|] eqn:Ho; [|discriminate].
    assert (E : s' = mksys (setf (names s) (ob_name o) None) (content s) (nexti s) (objs s) (lks s))
      by (destruct (ob_st o); congruence).
    subst s'. clear H. apply shut_inv; auto.
    + intros n j. unfold setf. destruct (n =? ob_name o); [discriminate|]. apply I.
    + intros i o' E. exists o'. auto.
    + intros i x _ U. apply (i_held s I i x U).
    + intros l i x _ (U1 & U2). auto.
  - destruct (nth_error (objs s) k) as [o|] eqn:Ho; [|discriminate]. destruct (ob_st o) eqn:So; try discriminate.
    destruct (can_write (ob_flags o)); [|discriminate]. injection H as <-. apply shut_inv; auto; try apply I.
    + intros i o' E. exists o'. auto.
    + intros i x _ U. apply (i_held s I i x U).
    + intros l i x _ (U1 & U2). auto.
  - injection H as <-. apply shut_inv; auto; try apply I.
    + intros i o'. rewrite nth_error_map. destruct (nth_error (objs s) i) as [o|]; [|discriminate]. cbn.
      intros [= <-]. exists o. destruct (ob_pid o =? pid); csplit; auto; [unfold same_obj; auto|discriminate].
    + intros i x N U. apply filter_In. split; [apply (i_held s I i x U)|]. cbn.
      rewrite nth_error_map in N. destruct U as (U1 & U2). rewrite U1 in N. cbn in N. injection N as N.
      destruct (ob_pid x =? pid); auto. rewrite <- N in U2. discriminate.
    + intros l N. apply filter_In in N. tauto.
    + intros l i x N (U1 & U2) P _. apply filter_In in N. destruct N as (_ & N). rewrite nth_error_map, U1. cbn.
      rewrite <- P. destruct (lk_pid l =? pid); auto. discriminate.
Qed.

Lemma reach_inv : forall (P : action -> Prop) s, (forall a, P a -> locking a) -> reach P s -> inv s.
Proof.
  intros P s L H. induction H; [apply inv0|]. eapply act_inv; eauto.
Qed.

Lemma proper_cases : forall m, proper m ->
  (has m RDONLY = true /\ has m WRONLY = false /\ has m RDWR = false) \/
  (has m RDONLY = false /\ has m WRONLY = true /\ has m RDWR = false) \/
  (has m RDONLY = false /\ has m WRONLY = false /\ has m RDWR = true).
Proof. intros m. rewrite has_RDONLY, has_WRONLY, has_RDWR. auto. Qed.

Lemma good_access : forall o, good o ->
  (if has (ob_mode o) RDONLY then can_read (ob_flags o) else can_write (ob_flags o)) = true /\
  can_write (ob_flags o) = negb (has (ob_mode o) RDONLY).
Proof.
  intros o (P & _ & F0 & F1). rewrite can_write_bits, can_read_bits, F0, F1.
  destruct (proper_cases _ P) as [(-> & -> & ->)|[(-> & -> & ->)|(-> & -> & ->)]]; auto.
Qed.
