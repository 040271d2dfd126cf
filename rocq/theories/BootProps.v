(* C105: starting the block manager *)
From Coq Require Import String Ascii List Arith Bool ZArith Lia.
From Verif Require Import ConfigModel BootModel BootSpec BootProofs BootRetry.
Import ListNotations.
Local Open Scope list_scope.

Section Props.
Variable expand : str -> str.
Variable parse_size : str -> option Z.
Variable pid : Z.
Variable getenv : str -> option str.
Variable conf_files : str -> option str.
Variable device : str -> option Z.
Notation start := (start expand parse_size pid getenv conf_files device).
Notation initialised := (check_initialized expand parse_size pid getenv conf_files).
Notation go := (go device).

Lemma start_go : forall e s c, s_manager s = None -> initialised (s_config s) = (true, c) ->
  start e s =
  let '(r, os, ds, m, f) := go 0 e (disks c) (max_dev c) (s_files s) in
  let c' := mkConfig ds (first_flash c) (is_initialized c) m in
  match r with
  | None => (true, State c' f (Some os) (s_allocators s) (s_descriptors s))
  | Some (n, b) => (false, State c' (close_all os f) None (s_allocators s + n)
                                 (if b then S (s_descriptors s) else s_descriptors s))
  end.
Proof.
  intros e s c M I. unfold BootModel.start. rewrite M, I.
  rewrite (open_go device (disks c) [] 0 e [] c (s_files s) eq_refl eq_refl).
  destruct (go 0 e (disks c) (max_dev c) (s_files s)) as [[[[r os] ds] m] f].
  destruct r as [[n b]|]; reflexivity.
Qed.

Lemma go_ok : forall ds i e m f os ds1 m1 f1, go i e ds m f = (None, os, ds1, m1, f1) ->
  length os = length ds /\ ds1 = map o_disk os
  /\ forall j d, nth_error ds j = Some d ->
       isbad device (e (i + j)) d = false
       /\ exists id, nth_error os j = Some (ready_file device (i + j) d id)
                     /\ (device_id d <> DEFAULT_DEVICE_ID -> id = device_id d).
Proof.
  induction ds as [|d ds IH]; intros i e m f os ds1 m1 f1 G; cbn [BootProofs.go] in G.
  - injection G as <- <- _ _. split; [reflexivity|]. split; [reflexivity|]. intros [|j] d; discriminate.
  - destruct (openbad device (e i) d) eqn:OB; [discriminate|].
    destruct (latebad device (e i) d) eqn:LB; [discriminate|].
    destruct (go (S i) e ds _ (eff device d f)) as [[[[r os'] ds'] m''] f''] eqn:GG.
    injection G as -> <- <- <- <-.
    destruct (IH _ _ _ _ _ _ _ _ GG) as (A & B & C).
    split; [cbn; congruence|]. split; [cbn; congruence|].
    intros [|j] x X; cbn in X.
    + injection X as <-. rewrite Nat.add_0_r. split; [rewrite isbad_split, OB, LB; reflexivity|].
      eexists. split; [reflexivity|]. unfold take_id. intros N.
      apply Z.eqb_neq in N. rewrite N. reflexivity.
    + destruct (C _ _ X) as (P & id & Q). rewrite Nat.add_succ_r.
      split; [assumption|]. exists id. exact Q.
Qed.

Lemma go_fail : forall ds i e m f k l os ds1 m1 f1, go i e ds m f = (Some (k, l), os, ds1, m1, f1) ->
  exists n d, k = i + n /\ nth_error ds n = Some d /\ isbad device (e k) d = true /\ l = lost (e k) d
  /\ length ds1 = length ds
  /\ forall j x, j < n -> nth_error ds j = Some x -> isbad device (e (i + j)) x = false.
Proof.
  induction ds as [|d ds IH]; intros i e m f k l os ds1 m1 f1 G; cbn [BootProofs.go] in G; [discriminate|].
  destruct (openbad device (e i) d) eqn:OB.
  { injection G as <- <- <- <- <- <-. exists 0, d. rewrite Nat.add_0_r.
    split; [reflexivity|]. split; [reflexivity|]. split; [rewrite isbad_split, OB; reflexivity|].
    split; [reflexivity|]. split; [reflexivity|]. intros j x J. lia. }
  destruct (latebad device (e i) d) eqn:LB.
  { injection G as <- <- <- <- <- <-. exists 0, d. rewrite Nat.add_0_r.
    split; [reflexivity|]. split; [reflexivity|]. split; [rewrite isbad_split, LB; apply orb_true_r|].
    split. { unfold latebad, lost in *. destruct (e i); try discriminate; symmetry; apply andb_false_r. }
    split; [reflexivity|]. intros j x J. lia. }
  destruct (go (S i) e ds _ (eff device d f)) as [[[[r os'] ds'] m''] f''] eqn:GG.
  injection G as -> <- <- <- <-.
  destruct (IH _ _ _ _ _ _ _ _ _ _ GG) as (n & x & A & B & C & D & E & F).
  exists (S n), x. split; [lia|]. split; [assumption|]. split; [assumption|]. split; [assumption|].
  split; [cbn; lia|].
  intros [|j] y J Y; cbn in Y.
  - injection Y as <-. rewrite Nat.add_0_r, isbad_split, OB, LB. reflexivity.
  - rewrite Nat.add_succ_r. apply (F j y); [lia|assumption].
Qed.

Lemma not_bad : forall a d, isbad device a d = false <-> ~ bad device a d.
Proof. intros. rewrite bad_iff. destruct (isbad device a d); intuition congruence. Qed.

Lemma lost_iff : forall a d, loses a d <-> lost a d = true.
Proof.
  intros. unfold loses, lost. rewrite on_file_iff, per_block_iff, andb_true_iff, orb_true_iff.
  destruct a as [[]| | | | | |]; intuition congruence.
Qed.

Lemma finished_ready : forall i d id,
  (device_id d <> DEFAULT_DEVICE_ID -> id = device_id d) ->
  ready_disk device i d (finished device i d id).
Proof.
  intros i d id ID.
  assert (K : impl_of (set_device (own_queue i d) id) = impl_of d)
    by (apply impl_same; cbn; apply own_queue_fields).
  assert (Q : queue (numbered i d id) =
              if seq (io_impl d) (L "linuxaio") then DEFAULT_LINUXAIO_QUEUE
              else if (queue d =? DEFAULT_QUEUE)%Z then Z.of_nat i else queue d).
  { unfold numbered. rewrite K. pose proof (impl_cases d) as C.
    destruct (seq (io_impl d) (L "linuxaio")) eqn:E.
    - apply seq_eq in E. rewrite (impl_aio _ E). reflexivity.
    - assert (N : impl_of d <> KAio) by (intros X; rewrite X in C; apply seq_eq in C; congruence).
      destruct (impl_of d); try contradiction; unfold own_queue;
        cbn; destruct (queue d =? DEFAULT_QUEUE)%Z; reflexivity. }
  assert (R : direct (numbered i d id) = direct d /\ flash (numbered i d id) = flash d
              /\ queue_length (numbered i d id) = queue_length d
              /\ autogrow (numbered i d id) = autogrow d
              /\ delete_on_exit (numbered i d id) = delete_on_exit d).
  { unfold numbered. rewrite K. unfold own_queue.
    destruct (queue d =? DEFAULT_QUEUE)%Z; destruct (impl_of d); cbn; auto 10. }
  destruct R as (R1 & R2 & R3 & R4 & R5).
  pose proof (numbered_fields i d id) as (A & B & C & D & E & F).
  assert (FC : finished device i d id = numbered i d id /\ isdev device d = false
               \/ exists n, device (path d) = Some n /\ isdev device d = true
                            /\ finished device i d id = as_device (numbered i d id) n).
  { unfold finished, isdev. destruct (device (path d)) as [n|]; [destruct (ischecked d)|];
      [right; exists n; auto|left; auto|left; rewrite andb_false_r; auto]. }
  destruct FC as [[-> V]|(n & N & V & ->)]; constructor; cbn; auto;
    try (intros X; rewrite C; auto; fail); rewrite on_device_iff, V; try discriminate; intros X;
    solve [auto 10|congruence].
Qed.

Lemma name_spec : forall d, isbad device AFine d = false -> file_of device d (name_of device d).
Proof.
  intros d B. unfold file_of. rewrite on_file_iff, per_block_iff, in_memory_iff.
  unfold name_of. destruct (isufs d) eqn:U.
  - unfold unlinked. rewrite U. cbn [andb].
    destruct (unlink_on_open d), (device (path d)); cbn [andb]; intuition congruence.
  - destruct (isperblock d) eqn:P; [intuition congruence|].
    unfold isbad in B. rewrite U, P in B. destruct (ismemory d); [intuition congruence|discriminate].
Qed.

Lemma bad_fine : forall a d, isbad device a d = false -> isbad device AFine d = false.
Proof.
  intros a d. unfold isbad. rewrite !orb_false_iff.
  intros (A & B & C & D & E & F & G). rewrite !andb_false_r. auto 10.
Qed.

(* The start succeeds exactly if no disk is bad; then every disk has one file
   and one allocator of its size, in the order of the configuration, and the
   settings of the disk are those of the configuration except for what has
   been filled in. *)
Theorem C105_start : forall e s c t, s_manager s = None -> initialised (s_config s) = (true, c) ->
  start e s = (true, t) ->
  (forall i d, nth_error (disks c) i = Some d -> ~ bad device (e i) d)
  /\ exists l, s_manager t = Some l /\ length l = length (disks c)
     /\ disks (s_config t) = map o_disk l
     /\ s_allocators t = s_allocators s /\ s_descriptors t = s_descriptors s
     /\ forall i o d, nth_error l i = Some o -> nth_error (disks c) i = Some d ->
          ready_disk device i d (o_disk o) /\ file_of device (o_disk o) (o_name o)
          /\ o_bytes o = size (o_disk o).
Proof.
  intros e s c t M I G. rewrite (start_go e s c M I) in G.
  destruct (go 0 e (disks c) (max_dev c) (s_files s)) as [[[[r os] ds] m] f] eqn:GG.
  destruct r as [[n b]|]; [discriminate|]. injection G as <-.
  destruct (go_ok _ _ _ _ _ _ _ _ _ GG) as (A & B & C). cbn [plus] in C.
  split. { intros i d D. apply not_bad. apply (C _ _ D). }
  exists os. cbn [s_manager s_config disks s_allocators s_descriptors].
  split; [reflexivity|]. split; [assumption|]. split; [assumption|].
  split; [reflexivity|]. split; [reflexivity|].
  intros i o d O D. destruct (C _ _ D) as (NB & id & N & ID).
  assert (o = ready_file device i d id) by congruence. subst o. cbn [ready_file o_disk o_name o_bytes].
  split; [apply finished_ready; assumption|].
  split; [|symmetry; apply finished_size].
  destruct (alike_same _ _ _ (finished_alike device i d id)) as (OB & LB & NM & _).
  rewrite <- NM. apply name_spec. rewrite isbad_split, OB, LB, <- isbad_split. eapply bad_fine. eassumption.
Qed.

(* Otherwise it fails at the first disk that is bad; there is no block manager,
   so that the next call tries again; the allocators of the disks before it are
   lost, and the descriptor of the bad one in the case of [loses]. *)
Theorem C105_failure : forall e s c t, s_manager s = None -> initialised (s_config s) = (true, c) ->
  start e s = (false, t) ->
  exists k d, nth_error (disks c) k = Some d /\ bad device (e k) d
  /\ (forall j x, j < k -> nth_error (disks c) j = Some x -> ~ bad device (e j) x)
  /\ s_manager t = None
  /\ length (disks (s_config t)) = length (disks c)
  /\ s_allocators t = s_allocators s + k
  /\ (loses (e k) d -> s_descriptors t = S (s_descriptors s))
  /\ (~ loses (e k) d -> s_descriptors t = s_descriptors s).
Proof.
  intros e s c t M I G. rewrite (start_go e s c M I) in G.
  destruct (go 0 e (disks c) (max_dev c) (s_files s)) as [[[[r os] ds] m] f] eqn:GG.
  destruct r as [[n b]|]; [|discriminate]. injection G as <-.
  destruct (go_fail _ _ _ _ _ _ _ _ _ _ _ GG) as (k & d & K & D & B & X & N & C). cbn [plus] in *. subst n.
  exists k, d. split; [assumption|]. split; [apply bad_iff; assumption|].
  split. { intros j x J Y. apply not_bad. apply (C _ _ J Y). }
  cbn [s_manager s_config disks s_allocators s_descriptors].
  split; [reflexivity|]. split; [assumption|]. split; [reflexivity|].
  rewrite lost_iff, <- X. destruct b; split; try congruence; intuition congruence.
Qed.

(* A call that finds a block manager does nothing. *)
Theorem C105_again : forall e s l, s_manager s = Some l -> start e s = (true, s).
Proof. intros e s l M. unfold BootModel.start. rewrite M. reflexivity. Qed.

(* Failed attempts after another, none of them because of the configuration. *)
Inductive failures : state -> state -> Prop :=
| f_none : forall s, failures s s
| f_more : forall e s c s1 s2, s_manager s = None -> initialised (s_config s) = (true, c) ->
    start e s = (false, s1) -> failures s1 s2 -> failures s s2.

(* What the proof needs about device ids. *)
Definition ids_safe (s : state) : Prop :=
  forall c, initialised (s_config s) = (true, c) -> safe (max_dev c) (disks c).

Lemma retry_safe : forall s s', failures s s' -> s_manager s = None -> ids_safe s ->
  (exists c, initialised (s_config s) = (true, c)) ->
  forall e,
  fst (start e s') = fst (start e s)
  /\ (fst (start e s) = true ->
      s_config (snd (start e s')) = s_config (snd (start e s))
      /\ s_manager (snd (start e s')) = s_manager (snd (start e s))
      /\ forall p, s_files (snd (start e s')) p = s_files (snd (start e s)) p).
Proof.
  induction 1 as [s|e0 s c s1 s2 M I G F IH]; intros MN IDS [c0 I0] e.
  - split; [reflexivity|]. auto.
  - clear c0 I0. pose proof (IDS c I) as FB.
    rewrite (start_go e0 s c M I) in G.
    destruct (go 0 e0 (disks c) (max_dev c) (s_files s)) as [[[[r os] ds] m] f] eqn:GG.
    destruct r as [[n l]|]; [|discriminate]. injection G as <-.
    destruct (retry_go _ _ _ _ _ _ _ _ _ _ _ _ GG FB) as (FB1 & AL & R).
    set (s1 := State _ _ _ _ _) in *.
    assert (IN : is_initialized c = true).
    { unfold check_initialized, initialize in I. destruct (is_initialized (s_config s)) eqn:E.
      - injection I as <-. assumption.
      - destruct (length _ =? 0)%nat.
        + destruct (find_config _ _ _ _ _ _) as [[] c2]; [injection I as <-; reflexivity|discriminate].
        + injection I as <-. reflexivity. }
    assert (I1 : initialised (s_config s1) = (true, s_config s1)).
    { unfold check_initialized. cbn [s1 s_config is_initialized]. rewrite IN. reflexivity. }
    assert (M1 : s_manager s1 = None) by reflexivity.
    assert (IDS1 : ids_safe s1).
    { intros c1 E. rewrite I1 in E. injection E as <-. exact FB1. }
    destruct (IH M1 IDS1 (ex_intro _ _ I1) e) as (A & B).
    assert (J : fst (start e s1) = fst (start e s)
      /\ (fst (start e s) = true ->
          s_config (snd (start e s1)) = s_config (snd (start e s))
          /\ s_manager (snd (start e s1)) = s_manager (snd (start e s))
          /\ forall p, s_files (snd (start e s1)) p = s_files (snd (start e s)) p)).
    { rewrite (start_go e s c M I), (start_go e s1 _ M1 I1).
      cbn [s1 s_config disks max_dev s_files first_flash is_initialized].
      specialize (R e (s_files s) (close_all os f)). unfold same in R.
      destruct (go 0 e (disks c) (max_dev c) (s_files s)) as [[[[r2 os2] ds2] m2] f2] eqn:G2.
      destruct (go 0 e ds m (close_all os f)) as [[[[r3 os3] ds3] m3] f3] eqn:G3.
      destruct R as [<- R]. destruct r2 as [[k2 b2]|]; cbn [fst snd]; [split; [reflexivity|discriminate]|].
      split; [reflexivity|]. intros _. destruct (R eq_refl) as (<- & <- & <-).
      cbn [s_config s_manager s_files]. split; [reflexivity|]. split; [reflexivity|].
      intros p. rewrite (go_effs _ _ _ _ _ _ _ _ _ _ G2), (go_effs _ _ _ _ _ _ _ _ _ _ G3).
      rewrite (effs_alike device _ _ AL). eapply retry_files. exact GG. }
    destruct J as (J1 & J2). split; [congruence|].
    intros T. destruct (J2 T) as (C1 & C2 & C3). rewrite <- J1 in T.
    destruct (B T) as (D1 & D2 & D3). split; [congruence|]. split; [congruence|].
    intros p. rewrite D3. apply C3.
Qed.

(* Device ids have 32 bits, and the counter does not stand at the number that
   means "automatic".  When the configuration is read, the counter is 0. *)
Definition ids_ok (s : state) : Prop :=
  forall c, initialised (s_config s) = (true, c) -> ids_fit c.

(* However often the start failed before, it succeeds and fails as it would have
   done at once, and if it succeeds the result is the same: the configuration,
   the block manager, every file. *)
Theorem C105_retry : forall s s', failures s s' -> s_manager s = None -> ids_ok s ->
  (exists c, initialised (s_config s) = (true, c)) ->
  forall e,
  fst (start e s') = fst (start e s)
  /\ (fst (start e s) = true ->
      s_config (snd (start e s')) = s_config (snd (start e s))
      /\ s_manager (snd (start e s')) = s_manager (snd (start e s))
      /\ forall p, s_files (snd (start e s')) p = s_files (snd (start e s)) p).
Proof.
  intros s s' F M IDS I. apply retry_safe; try assumption.
  intros c E. destruct (IDS c E) as (A & B). split; [lia|]. split; [exact B|lia].
Qed.

(* In a program that starts, nothing but the type of the ids is needed. *)
Theorem C105_retry_fresh : forall s s', failures s s' -> s_manager s = None ->
  is_initialized (s_config s) = false ->
  (forall c d, initialised (s_config s) = (true, c) -> In d (disks c) ->
     (0 <= device_id d <= DEFAULT_DEVICE_ID)%Z) ->
  (exists c, initialised (s_config s) = (true, c)) ->
  forall e,
  fst (start e s') = fst (start e s)
  /\ (fst (start e s) = true ->
      s_config (snd (start e s')) = s_config (snd (start e s))
      /\ s_manager (snd (start e s')) = s_manager (snd (start e s))
      /\ forall p, s_files (snd (start e s')) p = s_files (snd (start e s)) p).
Proof.
  intros s s' F M N T I. apply C105_retry; try assumption.
  intros c E. split; [|intros d X; exact (T c d E X)].
  assert (Z : max_dev c = 0%Z); [|rewrite Z; unfold DEFAULT_DEVICE_ID; lia].
  unfold check_initialized in E. rewrite N in E. unfold initialize in E.
  destruct (length _ =? 0)%nat.
  - destruct (find_config _ _ _ _ _ _) as [[] c2]; [injection E as <-; reflexivity|discriminate].
  - injection E as <-. reflexivity.
Qed.
End Props.
