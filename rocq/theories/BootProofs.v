(* Proofs about the start of the block manager (C105). *)
From Coq Require Import String Ascii List Arith Bool ZArith Lia.
From Verif Require Import ConfigModel BootModel BootSpec.
Import ListNotations.
Local Open Scope list_scope.

Lemma seq_eq : forall a b, seq a b = true <-> a = b.
Proof. intros a b. unfold seq. destruct (list_eq_dec ascii_dec a b); split; congruence. Qed.

Lemma seq_refl : forall a, seq a a = true.
Proof. intros a. apply seq_eq. reflexivity. Qed.

Lemma seq_neq : forall a b, a <> b -> seq a b = false.
Proof. intros a b N. destruct (seq a b) eqn:E; [|reflexivity]. apply seq_eq in E. contradiction. Qed.

Lemma put_same : forall f p v, put f p v p = v.
Proof. intros. unfold put. rewrite seq_refl. reflexivity. Qed.

Lemma put_other : forall f p v q, p <> q -> put f p v q = f q.
Proof. intros. unfold put. rewrite (seq_neq _ _ H). reflexivity. Qed.

Lemma touch_other : forall f p q, p <> q -> touch f p q = f q.
Proof. intros. unfold touch. destruct (f p); [reflexivity|]. apply put_other. assumption. Qed.

Definition made (x : option Z) : option Z := match x with Some _ => x | None => Some 0%Z end.

Lemma touch_same : forall f p, touch f p p = made (f p).
Proof. intros. unfold touch, made. destruct (f p) eqn:E; [assumption|]. apply put_same. Qed.

(* The kinds *)
Lemma impl_cases : forall d,
  match impl_of d with
  | KSyscall => io_impl d = L "syscall"
  | KAio => io_impl d = L "linuxaio"
  | KMmap => io_impl d = L "mmap"
  | KPerBlock => per_block d
  | KMemory => in_memory d
  | KUnknown => ~ (on_file d \/ per_block d \/ in_memory d)
  end.
Proof.
  intros d. unfold impl_of, per_block, in_memory, on_file, checked.
  repeat match goal with |- context [seq ?a ?b] => destruct (seq a b) eqn:?E end;
    rewrite ?seq_eq in *; auto.
  intros H.
  assert (N : forall a b, seq a b = false -> a <> b)
    by (intros a b X Y; apply seq_eq in Y; congruence).
  repeat match goal with H : seq _ _ = false |- _ => apply N in H end. intuition congruence.
Qed.

Lemma impl_syscall : forall d, io_impl d = L "syscall" -> impl_of d = KSyscall.
Proof. intros d H. unfold impl_of. rewrite H. reflexivity. Qed.
Lemma impl_aio : forall d, io_impl d = L "linuxaio" -> impl_of d = KAio.
Proof. intros d H. unfold impl_of. rewrite H. reflexivity. Qed.
Lemma impl_mmap : forall d, io_impl d = L "mmap" -> impl_of d = KMmap.
Proof. intros d H. unfold impl_of. rewrite H. reflexivity. Qed.
Lemma impl_memory : forall d, in_memory d -> impl_of d = KMemory.
Proof. intros d H. unfold impl_of. rewrite H. reflexivity. Qed.
Lemma impl_per_block : forall d, per_block d -> impl_of d = KPerBlock.
Proof. intros d [H|H]; unfold impl_of; rewrite H; reflexivity. Qed.

Definition isufs (d : disk) : bool :=
  match impl_of d with KSyscall | KAio | KMmap => true | _ => false end.
Definition ischecked (d : disk) : bool :=
  match impl_of d with KSyscall | KAio => true | _ => false end.
Definition isperblock (d : disk) : bool := match impl_of d with KPerBlock => true | _ => false end.
Definition ismemory (d : disk) : bool := match impl_of d with KMemory => true | _ => false end.

Lemma checked_iff : forall d, checked d <-> ischecked d = true.
Proof.
  intros d. split.
  - intros [H|H]; unfold ischecked;
      [rewrite (impl_syscall _ H)|rewrite (impl_aio _ H)]; reflexivity.
  - unfold ischecked, checked. pose proof (impl_cases d) as C. destruct (impl_of d); intros; auto; discriminate.
Qed.

Lemma on_file_iff : forall d, on_file d <-> isufs d = true.
Proof.
  intros d. split.
  - intros [[H|H]|H]; unfold isufs;
      [rewrite (impl_syscall _ H)|rewrite (impl_aio _ H)|rewrite (impl_mmap _ H)]; reflexivity.
  - unfold isufs, on_file, checked. pose proof (impl_cases d) as C. destruct (impl_of d); intros; auto; discriminate.
Qed.

Lemma per_block_iff : forall d, per_block d <-> isperblock d = true.
Proof.
  intros d. split.
  - intros H. unfold isperblock. rewrite (impl_per_block _ H). reflexivity.
  - unfold isperblock. pose proof (impl_cases d) as C. destruct (impl_of d); intros; auto; discriminate.
Qed.

Lemma in_memory_iff : forall d, in_memory d <-> ismemory d = true.
Proof.
  intros d. split.
  - intros H. unfold ismemory. rewrite (impl_memory _ H). reflexivity.
  - unfold ismemory. pose proof (impl_cases d) as C. destruct (impl_of d); intros; auto; discriminate.
Qed.

Lemma impl_same : forall d d', io_impl d = io_impl d' -> impl_of d = impl_of d'.
Proof. intros d d' H. unfold impl_of. rewrite H. reflexivity. Qed.

Section Boot.
Variable device : str -> option Z.
Notation create_file := (create_file device).
Notation open_disks := (open_disks device).
Notation set_size := (set_size device).
Notation bad := (bad device).

Definition isdev (d : disk) : bool :=
  ischecked d && match device (path d) with Some _ => true | None => false end.

Lemma on_device_iff : forall d, on_device device d <-> isdev d = true.
Proof.
  intros d. unfold on_device, isdev. rewrite checked_iff, andb_true_iff.
  destruct (device (path d)); intuition congruence.
Qed.

(* The settings of disk i once it has a device id. *)
Definition numbered (i : nat) (d : disk) (id : Z) : disk :=
  let d1 := set_device (own_queue i d) id in
  match impl_of d1 with KAio => set_queue d1 DEFAULT_LINUXAIO_QUEUE | _ => d1 end.

Definition finished (i : nat) (d : disk) (id : Z) : disk :=
  let d1 := numbered i d id in
  match device (path d) with
  | Some n => if ischecked d then as_device d1 n else d1
  | None => d1
  end.

Definition unlinked (d : disk) : bool :=
  isufs d && unlink_on_open d && match device (path d) with Some _ => false | None => true end.

Definition name_of (d : disk) : option str :=
  if isufs d then (if unlinked d then None else Some (path d))
  else if isperblock d then Some (lock_name (path d)) else None.

Definition isbad (a : attempt) (d : disk) : bool :=
  negb (isufs d || isperblock d || ismemory d)
  || ((isufs d || isperblock d) && match a with ALock | AOpen _ => true | _ => false end
  || (ischecked d && raw_device d && match device (path d) with Some _ => false | None => true end
  || (isdev d && match a with ASize => true | _ => false end
  || (unlinked d && match a with AUnlink => true | _ => false end
  || (match a with AQueue => true | _ => false end
  || (match a with AGrow => true | _ => false end
      && negb ((if isdev d then match device (path d) with Some n => n | None => 0%Z end
                else size d) =? 0)%Z)))))).

Lemma or_iff : forall a b x y, (a <-> x = true) -> (b <-> y = true) -> (a \/ b <-> x || y = true).
Proof. intros a b x y H1 H2. rewrite orb_true_iff, H1, H2. tauto. Qed.

Lemma bad_iff : forall a d, bad a d <-> isbad a d = true.
Proof.
  intros a d. unfold BootSpec.bad, isbad. repeat apply or_iff.
  - rewrite on_file_iff, per_block_iff, in_memory_iff, negb_true_iff, !orb_false_iff.
    destruct (isufs d), (isperblock d), (ismemory d); intuition congruence.
  - rewrite on_file_iff, per_block_iff, andb_true_iff, orb_true_iff.
    destruct a; split; intros [H1 H2]; split; eauto; try discriminate;
      destruct H2 as [H2|[x H2]]; discriminate.
  - rewrite checked_iff, !andb_true_iff. destruct (device (path d)); intuition congruence.
  - rewrite on_device_iff, andb_true_iff. destruct a; intuition congruence.
  - unfold unlinked. rewrite on_file_iff, !andb_true_iff.
    destruct (device (path d)), a; intuition congruence.
  - destruct a; intuition congruence.
  - rewrite andb_true_iff, negb_true_iff, Z.eqb_neq, on_device_iff. unfold isdev.
    destruct (ischecked d), (device (path d)), a; cbn [andb]; intuition congruence.
Qed.

(* Opening fails, or something later does. *)
Definition openbad (a : attempt) (d : disk) : bool :=
  negb (isufs d || isperblock d || ismemory d)
  || ((isufs d || isperblock d) && match a with ALock | AOpen _ => true | _ => false end
  || (ischecked d && raw_device d && match device (path d) with Some _ => false | None => true end
  || (isdev d && match a with ASize => true | _ => false end
  || (unlinked d && match a with AUnlink => true | _ => false end)))).

Definition fsize (d : disk) : Z :=
  if isdev d then match device (path d) with Some n => n | None => 0%Z end else size d.

Definition latebad (a : attempt) (d : disk) : bool :=
  match a with AQueue => true | _ => false end
  || match a with AGrow => true | _ => false end && negb (fsize d =? 0)%Z.

Lemma isbad_split : forall a d, isbad a d = openbad a d || latebad a d.
Proof. intros. unfold isbad, openbad, latebad, fsize. rewrite !orb_assoc. reflexivity. Qed.

Definition opened_files (d : disk) (f : files) : files :=
  if isufs d then
    if unlinked d then put (open_name device f (path d)) (path d) None else open_name device f (path d)
  else if isperblock d then put f (lock_name (path d)) (Some 4096%Z) else f.

Lemma own_queue_fields : forall i d,
  path (own_queue i d) = path d /\ io_impl (own_queue i d) = io_impl d
  /\ device_id (own_queue i d) = device_id d /\ raw_device (own_queue i d) = raw_device d
  /\ unlink_on_open (own_queue i d) = unlink_on_open d /\ size (own_queue i d) = size d.
Proof. intros. unfold own_queue. destruct (queue d =? DEFAULT_QUEUE)%Z; cbn; auto 10. Qed.

Lemma numbered_fields : forall i d id,
  path (numbered i d id) = path d /\ io_impl (numbered i d id) = io_impl d
  /\ device_id (numbered i d id) = id /\ raw_device (numbered i d id) = raw_device d
  /\ unlink_on_open (numbered i d id) = unlink_on_open d /\ size (numbered i d id) = size d.
Proof.
  intros. unfold numbered. pose proof (own_queue_fields i d) as (A & B & C & D & E & F).
  destruct (impl_of _); cbn; auto 10.
Qed.

Definition with_max (c : config) (m : Z) : config :=
  mkConfig (disks c) (first_flash c) (is_initialized c) m.

(* assign_device_id on the counter alone *)
Definition take_id (m id : Z) : Z * Z :=
  if (id =? DEFAULT_DEVICE_ID)%Z then (m, ((m + 1) mod 2 ^ 32)%Z)
  else (id, if (m <? (id + 1) mod 2 ^ 32)%Z then ((id + 1) mod 2 ^ 32)%Z else m).

Lemma assign_take : forall c id,
  assign_device_id c id = (fst (take_id (max_dev c) id), with_max c (snd (take_id (max_dev c) id))).
Proof.
  intros c id. unfold assign_device_id, take_id, next_device_id, update_max_device_id, with_max.
  destruct (id =? DEFAULT_DEVICE_ID)%Z; [reflexivity|].
  destruct (_ <? _)%Z; cbn [fst snd]; destruct c; reflexivity.
Qed.

Lemma create_good : forall a i d c f, openbad a d = false ->
  create_file a (own_queue i d) c f =
  Created (Some (name_of d)) (finished i d (fst (take_id (max_dev c) (device_id d))))
          (with_max c (snd (take_id (max_dev c) (device_id d)))) (opened_files d f) false.
Proof.
  intros a i d c f B. unfold BootModel.create_file.
  pose proof (own_queue_fields i d) as (Qp & Qi & Qd & Qr & Qu & Qs).
  rewrite assign_take, Qd. set (id := fst _). set (m := snd _).
  assert (I : impl_of (set_device (own_queue i d) id) = impl_of d) by (apply impl_same; cbn; assumption).
  assert (P : path (set_device (own_queue i d) id) = path d) by (cbn; assumption).
  assert (R : raw_device (set_device (own_queue i d) id) = raw_device d) by (cbn; assumption).
  assert (U : unlink_on_open (set_device (own_queue i d) id) = unlink_on_open d) by (cbn; assumption).
  unfold finished, name_of, opened_files, openbad, numbered, unlinked, isdev, isufs, isperblock, ismemory, ischecked in *.
  rewrite I in *. remember (set_device (own_queue i d) id) as d1.
  destruct (impl_of d) eqn:K; cbn [negb andb orb] in B; try discriminate; unfold create_ufs;
    cbn [set_queue path raw_device unlink_on_open as_device]; rewrite ?P, ?R, ?U;
    cbn [andb];
    destruct (device (path d)) as [n|]; destruct (raw_device d), (unlink_on_open d), a;
    cbn [andb orb negb] in *; try discriminate; reflexivity.
Qed.

(* What may be left of the files when opening fails. *)
Definition tried (a : attempt) (d : disk) (f : files) : files :=
  if isufs d then match a with AOpen false => f | _ => open_name device f (path d) end
  else if isperblock d then
    match a with
    | AOpen true => touch f (lock_name (path d))
    | ALock => put f (lock_name (path d)) None
    | _ => f
    end
  else f.

Definition partial (a : attempt) (i : nat) (d : disk) (id : Z) : disk :=
  if isdev d then match a with ASize => set_raw (numbered i d id) true | _ => numbered i d id end
  else numbered i d id.

Definition lost (a : attempt) (d : disk) : bool :=
  (isufs d || isperblock d) && match a with AOpen true => true | _ => false end.

Lemma create_bad : forall a i d c f, openbad a d = true ->
  create_file a (own_queue i d) c f =
  Created None (partial a i d (fst (take_id (max_dev c) (device_id d))))
          (with_max c (snd (take_id (max_dev c) (device_id d)))) (tried a d f) (lost a d).
Proof.
  intros a i d c f B. unfold BootModel.create_file.
  pose proof (own_queue_fields i d) as (Qp & Qi & Qd & Qr & Qu & Qs).
  rewrite assign_take, Qd. set (id := fst _). set (m := snd _).
  assert (I : impl_of (set_device (own_queue i d) id) = impl_of d) by (apply impl_same; cbn; assumption).
  assert (P : path (set_device (own_queue i d) id) = path d) by (cbn; assumption).
  assert (R : raw_device (set_device (own_queue i d) id) = raw_device d) by (cbn; assumption).
  assert (U : unlink_on_open (set_device (own_queue i d) id) = unlink_on_open d) by (cbn; assumption).
  unfold partial, tried, lost, openbad, numbered, unlinked, isdev, isufs, isperblock, ismemory, ischecked in *.
  rewrite I in *. remember (set_device (own_queue i d) id) as d1.
  destruct (impl_of d) eqn:K; cbn [negb andb orb] in B; try discriminate; unfold create_ufs;
    cbn [set_queue path raw_device unlink_on_open]; rewrite ?P, ?R, ?U;
    cbn [andb];
    destruct (device (path d)) as [n|]; destruct (raw_device d), (unlink_on_open d), a;
    cbn [andb orb negb] in *; try discriminate; try reflexivity;
    try (destruct made0; reflexivity).
Qed.

(* The loop over a list of disks. *)
Definition eff (d : disk) (f : files) : files :=
  if (fsize d =? 0)%Z then opened_files d f else set_size d (name_of d) (fsize d) (opened_files d f).

Definition ready_file (i : nat) (d : disk) (id : Z) : opened :=
  Opened (finished i d id) (name_of d) (fsize d).

Fixpoint go (i : nat) (e : nat -> attempt) (ds : list disk) (m : Z) (f : files)
  : option (nat * bool) * list opened * list disk * Z * files :=
  match ds with
  | [] => (None, [], [], m, f)
  | d :: ds =>
      let id := fst (take_id m (device_id d)) in
      let m' := snd (take_id m (device_id d)) in
      if openbad (e i) d
      then (Some (i, lost (e i) d), [], partial (e i) i d id :: ds, m', tried (e i) d f)
      else if latebad (e i) d
      then (Some (i, false), [ready_file i d id], finished i d id :: ds, m', opened_files d f)
      else
        let '(r, os, ds1, m1, f1) := go (S i) e ds m' (eff d f) in
        (r, ready_file i d id :: os, finished i d id :: ds1, m1, f1)
  end.

Lemma finished_impl : forall i d id, io_impl (finished i d id) = io_impl d.
Proof.
  intros. pose proof (numbered_fields i d id) as (A & B & _). unfold finished.
  destruct (device (path d)); [destruct (ischecked d)|]; cbn; assumption.
Qed.

Lemma finished_path : forall i d id, path (finished i d id) = path d.
Proof.
  intros. pose proof (numbered_fields i d id) as (A & B & _). unfold finished.
  destruct (device (path d)); [destruct (ischecked d)|]; cbn; assumption.
Qed.

Lemma finished_size : forall i d id, size (finished i d id) = fsize d.
Proof.
  intros. pose proof (numbered_fields i d id) as (A & B & C & D & E & F). unfold finished, fsize, isdev.
  destruct (device (path d)); destruct (ischecked d); cbn; auto.
Qed.

Lemma set_size_impl : forall d d' n z f, io_impl d = io_impl d' -> set_size d n z f = set_size d' n z f.
Proof. intros. unfold BootModel.set_size. rewrite (impl_same _ _ H). reflexivity. Qed.

Lemma upd_app : forall pre x d ds, upd (length pre) x (pre ++ d :: ds) = pre ++ x :: ds.
Proof. induction pre as [|y pre IH]; intros; cbn; [reflexivity|]. rewrite IH. reflexivity. Qed.

Lemma open_go : forall ds pre i e l c f, disks c = pre ++ ds -> length pre = i ->
  open_disks (length ds) i e l c f =
  let '(r, os, ds1, m1, f1) := go i e ds (max_dev c) f in
  (match r with None => Ready (l ++ os) | Some (k, b) => Failed k b end,
   mkConfig (pre ++ ds1) (first_flash c) (is_initialized c) m1,
   match r with None => f1 | Some _ => close_all (l ++ os) f1 end).
Proof.
  induction ds as [|d ds IH]; intros pre i e l c f D L.
  - cbn. rewrite <- D, app_nil_r. destruct c; reflexivity.
  - cbn [length BootModel.open_disks go].
    assert (NE : nth_error (disks c) i = Some d).
    { rewrite D, <- L, nth_error_app2, Nat.sub_diag by lia. reflexivity. }
    rewrite NE. destruct (openbad (e i) d) eqn:OB.
    + rewrite (create_bad _ _ _ _ _ OB). cbn [r_file r_disk r_config r_files r_lost].
      unfold with_disks, with_max. cbn [disks first_flash is_initialized max_dev].
      rewrite D, <- L, upd_app, L, app_nil_r. reflexivity.
    + rewrite (create_good _ _ _ _ _ OB). cbn [r_file r_disk r_config r_files r_lost].
      unfold with_disks, with_max. cbn [disks first_flash is_initialized max_dev].
      rewrite D, <- L, upd_app, L. rewrite finished_size.
      set (id := fst (take_id (max_dev c) (device_id d))).
      set (m' := snd (take_id (max_dev c) (device_id d))).
      change (Opened (finished i d id) (name_of d) (fsize d)) with (ready_file i d id).
      assert (N : forall g,
        open_disks (length ds) (S i) e (l ++ [ready_file i d id])
          (mkConfig (pre ++ finished i d id :: ds) (first_flash c) (is_initialized c) m') g =
        let '(r, os, ds1, m1, f1) :=
          let '(r, os, ds1, m1, f1) := go (S i) e ds m' g in
          (r, ready_file i d id :: os, finished i d id :: ds1, m1, f1) in
        (match r with None => Ready (l ++ os) | Some (k, b) => Failed k b end,
         mkConfig (pre ++ ds1) (first_flash c) (is_initialized c) m1,
         match r with None => f1 | Some _ => close_all (l ++ os) f1 end)).
      { intros g. rewrite (IH (pre ++ [finished i d id])).
        - cbn [max_dev first_flash is_initialized].
          destruct (go (S i) e ds m' g) as [[[[r os] ds1] m1] f1].
          rewrite <- !app_assoc. reflexivity.
        - cbn [disks]. rewrite <- app_assoc. reflexivity.
        - rewrite app_length. cbn. lia. }
      unfold latebad, eff.
      rewrite (set_size_impl (finished i d id) d) by apply finished_impl.
      destruct (e i); cbn [orb andb]; destruct (fsize d =? 0)%Z; cbn [negb];
        try reflexivity; apply N.
Qed.

(* Two configurations of a disk that are the same for the start. *)
Definition alike (d d' : disk) : Prop :=
  path d' = path d /\ io_impl d' = io_impl d
  /\ (isdev d = true
      \/ raw_device d' = raw_device d /\ size d' = size d /\ unlink_on_open d' = unlink_on_open d).

Lemma isdev_alike : forall d d', path d' = path d -> io_impl d' = io_impl d -> isdev d' = isdev d.
Proof. intros d d' P I. unfold isdev, ischecked. rewrite (impl_same _ _ I), P. reflexivity. Qed.

Lemma unlinked_dev : forall d, isdev d = true -> unlinked d = false.
Proof.
  intros d H. unfold isdev, unlinked in *. destruct (device (path d)); [|rewrite andb_false_r in H; discriminate].
  apply andb_false_r.
Qed.

Lemma alike_same : forall d d', alike d d' ->
  (forall a, openbad a d' = openbad a d) /\ (forall a, latebad a d' = latebad a d)
  /\ name_of d' = name_of d /\ fsize d' = fsize d /\ (forall a, lost a d' = lost a d)
  /\ (forall f, opened_files d' f = opened_files d f) /\ (forall f, eff d' f = eff d f).
Proof.
  intros d d' (P & I & C).
  pose proof (isdev_alike _ _ P I) as V.
  assert (U : unlinked d' = unlinked d).
  { destruct C as [C|(C1 & C2 & C3)].
    - rewrite !unlinked_dev by congruence. reflexivity.
    - unfold unlinked, isufs. rewrite (impl_same _ _ I), P, C3. reflexivity. }
  assert (F : fsize d' = fsize d).
  { unfold fsize. rewrite V, P. destruct (isdev d) eqn:E; [reflexivity|].
    destruct C as [C|(C1 & C2 & C3)]; [discriminate|assumption]. }
  assert (R : ischecked d' && raw_device d' && match device (path d') with Some _ => false | None => true end
              = ischecked d && raw_device d && match device (path d) with Some _ => false | None => true end).
  { destruct C as [C|(C1 & C2 & C3)].
    - unfold isdev in *. rewrite P. destruct (device (path d)); [|rewrite andb_false_r in C; discriminate].
      rewrite !andb_false_r. reflexivity.
    - unfold ischecked. rewrite (impl_same _ _ I), P, C1. reflexivity. }
  assert (X : isufs d' = isufs d /\ isperblock d' = isperblock d /\ ismemory d' = ismemory d).
  { unfold isufs, isperblock, ismemory. rewrite (impl_same _ _ I). auto. }
  destruct X as (X1 & X2 & X3).
  assert (N : name_of d' = name_of d) by (unfold name_of; rewrite X1, X2, U, P; reflexivity).
  assert (O : forall f, opened_files d' f = opened_files d f)
    by (intros; unfold opened_files; rewrite X1, X2, U, P; reflexivity).
  split; [|split; [|split; [|split; [|split; [|split]]]]]; auto.
  - intros a. unfold openbad. rewrite X1, X2, X3, R, V, U. reflexivity.
  - intros a. unfold latebad. rewrite F. reflexivity.
  - intros a. unfold lost. rewrite X1, X2. reflexivity.
  - intros f. unfold eff. rewrite F, N, O. destruct (fsize d =? 0)%Z; [reflexivity|].
    apply set_size_impl. assumption.
Qed.

Lemma finished_alike : forall i d id, alike d (finished i d id).
Proof.
  intros. pose proof (numbered_fields i d id) as (A & B & C & D & E & F).
  split; [apply finished_path|split; [apply finished_impl|]].
  unfold isdev, finished. destruct (device (path d)); [destruct (ischecked d)|]; cbn; auto.
Qed.

Lemma partial_alike : forall a i d id, alike d (partial a i d id).
Proof.
  intros. pose proof (numbered_fields i d id) as (A & B & C & D & E & F).
  unfold alike, partial. destruct (isdev d); [destruct a|]; cbn; auto 10.
Qed.

Lemma own_queue_idem : forall i d, own_queue i (own_queue i d) = own_queue i d.
Proof.
  intros. unfold own_queue. destruct (queue d =? DEFAULT_QUEUE)%Z eqn:E.
  - cbn. destruct (Z.of_nat i =? DEFAULT_QUEUE)%Z; reflexivity.
  - rewrite E. reflexivity.
Qed.

Lemma numbered_again : forall i d id d',
  io_impl d' = io_impl d ->
  set_device (own_queue i d') id = set_device (own_queue i d) id
  \/ (impl_of d = KAio /\ set_queue (set_device (own_queue i d') id) DEFAULT_LINUXAIO_QUEUE
                         = set_queue (set_device (own_queue i d) id) DEFAULT_LINUXAIO_QUEUE) ->
  numbered i d' id = numbered i d id.
Proof.
  intros i d id d' I H. unfold numbered.
  assert (K : impl_of (set_device (own_queue i d) id) = impl_of d)
    by (apply impl_same; cbn; apply own_queue_fields).
  assert (K' : impl_of (set_device (own_queue i d') id) = impl_of d).
  { apply impl_same. cbn. rewrite <- I. apply own_queue_fields. }
  rewrite K, K'. destruct H as [H|[A H]].
  - rewrite H. reflexivity.
  - rewrite A. assumption.
Qed.

Lemma numbered_idem : forall i d id, numbered i (numbered i d id) id = numbered i d id.
Proof.
  intros. apply numbered_again; [apply numbered_fields|].
  unfold numbered.
  assert (K : impl_of (set_device (own_queue i d) id) = impl_of d)
    by (apply impl_same; cbn; apply own_queue_fields).
  rewrite K. destruct (impl_of d); [left|right|left|left|left|left]; try (split; [reflexivity|]);
    unfold own_queue, set_device, set_queue; cbn;
    destruct (queue d =? DEFAULT_QUEUE)%Z eqn:E; cbn;
    repeat (match goal with |- context [(?a =? ?b)%Z] => destruct (a =? b)%Z eqn:? end; cbn);
    try reflexivity; try congruence.
Qed.

Lemma as_device_numbered : forall i d id n,
  as_device (numbered i (as_device d n) id) n = as_device (numbered i d id) n.
Proof.
  intros. unfold numbered, own_queue.
  assert (J : impl_of (as_device d n) = impl_of d) by (apply impl_same; reflexivity).
  assert (K : forall q : bool, impl_of (set_device (if q then set_queue (as_device d n) (Z.of_nat i) else as_device d n) id) = impl_of d)
    by (intros []; apply impl_same; reflexivity).
  assert (K' : forall q : bool, impl_of (set_device (if q then set_queue d (Z.of_nat i) else d) id) = impl_of d)
    by (intros []; apply impl_same; reflexivity).
  rewrite K, K'. cbn [queue as_device].
  destruct (queue d =? DEFAULT_QUEUE)%Z; destruct (impl_of d); reflexivity.
Qed.

Lemma finished_idem : forall i d id, finished i (finished i d id) id = finished i d id.
Proof.
  intros. unfold finished at 1. rewrite finished_path.
  replace (ischecked (finished i d id)) with (ischecked d)
    by (unfold ischecked; rewrite (impl_same _ _ (finished_impl i d id)); reflexivity).
  unfold finished. destruct (device (path d)) as [n|]; [|apply numbered_idem].
  destruct (ischecked d); [|apply numbered_idem].
  rewrite as_device_numbered, numbered_idem. reflexivity.
Qed.

Lemma raw_numbered : forall i d id, numbered i (set_raw d true) id = set_raw (numbered i d id) true.
Proof.
  intros. unfold numbered, own_queue.
  assert (K : forall q : bool, impl_of (set_device (if q then set_queue (set_raw d true) (Z.of_nat i) else set_raw d true) id) = impl_of d)
    by (intros []; apply impl_same; reflexivity).
  assert (K' : forall q : bool, impl_of (set_device (if q then set_queue d (Z.of_nat i) else d) id) = impl_of d)
    by (intros []; apply impl_same; reflexivity).
  rewrite K, K'. cbn [queue set_raw].
  destruct (queue d =? DEFAULT_QUEUE)%Z; destruct (impl_of d); reflexivity.
Qed.

Lemma finished_partial : forall a i d id, finished i (partial a i d id) id = finished i d id.
Proof.
  intros. pose proof (partial_alike a i d id) as (P & I & _).
  unfold finished. rewrite P.
  replace (ischecked (partial a i d id)) with (ischecked d)
    by (unfold ischecked; rewrite (impl_same _ _ I); reflexivity).
  unfold partial, isdev. destruct (device (path d)) as [n|]; [|rewrite andb_false_r; apply numbered_idem].
  rewrite andb_true_r.
  destruct (ischecked d); [|apply numbered_idem].
  destruct a; rewrite ?raw_numbered, numbered_idem; reflexivity.
Qed.
End Boot.
