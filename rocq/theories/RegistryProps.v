(** C71, C72 and C73: table of queues, assignment of disks, queue length. *)
From Coq Require Import List ZArith Bool Lia.
From Verif Require Import RegistryModel RegistrySpec RegistryProofs.
Import ListNotations.
Local Open Scope Z_scope.

(** C71: calls for one disk go to one queue, calls for different disks to
    different queues. *)
Theorem C71_one_queue_per_disk : forall ops i j o p x y d e u v,
  let out := fst (rrun false ops r_init) in
  nth_error ops i = Some o -> nth_error ops j = Some p ->
  nth_error out i = Some x -> nth_error out j = Some y ->
  about o = Some d -> about p = Some e -> served_by x = Some u -> served_by y = Some v ->
  (u = v <-> d = e).
Proof.
  intros ops i j o p x y d e u v out O P X Y A B U V.
  destruct (named_final ops r_init i o x d u rinv_init O X A U) as (q & Q & <-).
  destruct (named_final ops r_init j p y e v rinv_init P Y B V) as (q' & Q' & <-).
  pose proof (rinv_run ops r_init rinv_init) as I. split.
  - intros E. eapply (v_inj _ I); eauto.
  - intros ->. congruence.
Qed.
Print Assumptions C71_one_queue_per_disk.

(** The first file or request for a disk decides what kind of queue it has, and
    how long a linuxaio queue is.  A request is refused (the program dies) exactly
    if the queue is a linuxaio queue and the request is not. *)
Theorem C71_add : forall ops r d kernel,
  let o := OAdd r d kernel in
  let out := fst (rstep false o (snd (rrun false ops r_init))) in
  match r, decided d (ops ++ [o]) with
  | None, _ => out = RThrow
  | Some _, None => out = RThrow
  | Some r, Some (Aio _) => if rq_aio r then exists u, out = RAdded u else out = RDie
  | Some _, Some Qwqr => exists u, out = RAdded u
  end.
Proof.
  intros ops r d kernel o out.
  pose proof (kind_decided (ops ++ [o]) d) as K. rewrite rrun_snd in K. cbn [snd] in K.
  pose proof (rinv_run ops r_init rinv_init) as I.
  set (s := snd (rrun false ops r_init)) in *. clearbody s.
  rewrite <- K. subst out o. cbn [rstep]. unfold add_request.
  destruct (qfind (r_map s) d) as [[q|]|] eqn:F.
  - cbn [fst snd]. rewrite F. cbn [option_map]. destruct r as [r|]; [|reflexivity].
    cbn [q_add]. destruct (q_kind q); eauto. destruct (rq_aio r); eauto.
  - exfalso. apply (v_null _ I d). exact F.
  - rewrite create_want. destruct (want (is_aio r) (len_of r) kernel) as [k|] eqn:Wk; cbn [fst snd].
    + cbn [r_map qfind]. rewrite Z.eqb_refl. cbn [option_map q_kind]. destruct r as [r|]; [|reflexivity].
      cbn [q_add q_kind]. destruct k; eauto. destruct (rq_aio r); eauto.
    + rewrite F. cbn. destruct r; reflexivity.
Qed.
Print Assumptions C71_add.

(** Queries say whether the queue exists; cancelling a request of an unknown disk
    does nothing; the priority is ignored. *)
Theorem C71_lookup : forall ops d r,
  let s := snd (rrun false ops r_init) in
  (decided d ops = None <-> get_queue d s = RQueue None) /\
  (decided d ops = None <-> cancel_request r d s = RFalse) /\
  set_priority_op s = RUnit.
Proof.
  intros ops d r s. pose proof (kind_decided ops d) as K.
  pose proof (rinv_run ops r_init rinv_init) as I. fold s in K, I. pose proof (v_null _ I d) as N.
  rewrite <- K. unfold get_queue, cancel_request. csplit.
  - destruct (qfind (r_map s) d) as [[q|]|]; cbn; split; congruence.
  - destruct (qfind (r_map s) d) as [[q|]|]; cbn; try (split; congruence).
    unfold q_cancel. destruct r as [r|]; [destruct (q_kind q); [|destruct (rq_aio r)]|]; split; discriminate.
  - unfold set_priority_op.
    assert (G : forall l s, rinv s -> (forall kv, In kv (r_map s) -> snd kv <> None) ->
              forall kv, In kv (r_map (snd (rrun false l s))) -> snd kv <> None).
    { clear. induction l as [|o l IH]; intros s I H; cbn [rrun]; auto.
      pose proof (rstep_table o s I) as T. pose proof (rinv_step o s I) as I1.
      destruct (rstep false o s) as [x s1]. cbn [snd] in *.
      specialize (IH s1 I1). destruct (rrun false l s1). cbn [snd] in *. apply IH.
      destruct T as [(e & k & _ & _ & ->)|(-> & _)]; auto. cbn. intros kv [<-|K]; auto. cbn. discriminate. }
    destruct (existsb _ (r_map s)) eqn:E; auto. apply existsb_exists in E. destruct E as (kv & K1 & K2).
    exfalso. refine (G ops r_init rinv_init _ kv K1 _); [intros ? []|]. destruct (snd kv); [discriminate|auto].
Qed.
Print Assumptions C71_lookup.

(** If every negotiation succeeds, the unspecified order of evaluation does not
    matter. *)
Theorem C71_order_irrelevant : forall ops s,
  (forall o, In o ops -> match o with
     | OMake f k => f_aio f = true -> exists n, snd (setup k (f_len f)) = NOk n
     | OAdd (Some r) d k => rq_aio r = true -> exists n, snd (setup k (rq_len r)) = NOk n
     | _ => True end) ->
  rrun true ops s = rrun false ops s.
Proof.
  induction ops as [|o ops IH]; intros s H; auto. cbn [rrun].
  assert (E : rstep true o s = rstep false o s).
  { pose proof (H o (or_introl eq_refl)) as Ho. destruct o as [f k|r d k| | |]; auto; cbn [rstep].
    - unfold make_queue, create. destruct (qfind _ _); auto. destruct (f_aio f); auto.
      destruct (Ho eq_refl) as (n & ->). auto.
    - unfold add_request, create. destruct (qfind _ _); auto. destruct r as [r|]; auto. cbn [is_aio len_of].
      destruct (rq_aio r); auto. destruct (Ho eq_refl) as (n & ->). auto. }
  rewrite E. destruct (rstep false o s). rewrite IH; auto. intros; apply H; right; auto.
Qed.
Print Assumptions C71_order_irrelevant.

(** If a negotiation fails and the left side is evaluated first, the table keeps a
    null pointer: every later request for this disk crashes, whatever happens in
    between, and get_queue says that there is no queue. *)
Lemma null_stays : forall ops s d, qfind (r_map s) d = Some None ->
  qfind (r_map (snd (rrun true ops s))) d = Some None.
Proof.
  induction ops as [|o ops IH]; intros s d H; auto. cbn [rrun].
  assert (E : qfind (r_map (snd (rstep true o s))) d = Some None).
  { assert (C : forall aio len k e, qfind (r_map s) e = None ->
              qfind (r_map (snd (create true aio len k e s))) d = Some None).
    { intros aio len k e Fe. assert (e <> d) by congruence. unfold create.
      destruct aio; [destruct (snd (setup k len))|]; cbn; destruct (Z.eqb_spec e d); congruence. }
    destruct o as [f k|r e k| | |]; auto; cbn [rstep].
    - unfold make_queue. destruct (qfind (r_map s) (f_queue f)) eqn:F; auto.
      specialize (C (f_aio f) (f_len f) k _ F). destruct (create _ _ _ _ _ _). auto.
    - unfold add_request. destruct (qfind (r_map s) e) eqn:F; auto.
      specialize (C (is_aio r) (len_of r) k _ F). destruct (create _ _ _ _ _ _). auto. }
  destruct (rstep true o s) as [x s1]. specialize (IH s1 d E). destruct (rrun true ops s1). auto.
Qed.

Theorem C71_failed_construction_refuted : forall f kernel ops r k2 s,
  f_aio f = true -> qfind (r_map s) (f_queue f) = None ->
  (forall n, snd (setup kernel (f_len f)) <> NOk n) ->
  let s1 := snd (rstep true (OMake f kernel) s) in
  let s2 := snd (rrun true ops s1) in
  fst (rstep true (OMake f kernel) s) = RThrow /\
  fst (rstep true (OAdd r (f_queue f) k2) s2) = RCrash /\
  fst (rstep true (OMake f k2) s2) = RUnit /\
  fst (rstep true (OGet (f_queue f)) s2) = RQueue None.
Proof.
  intros f kernel ops r k2 s A F N s1 s2.
  assert (E : rstep true (OMake f kernel) s = (RThrow, MkR ((f_queue f, None) :: r_map s) (r_next s))).
  { cbn [rstep]. unfold make_queue, create. rewrite F, A.
    destruct (snd (setup kernel (f_len f))) eqn:E; auto. exfalso. eapply N; eauto. }
  assert (Q : qfind (r_map s2) (f_queue f) = Some None).
  { apply null_stays. subst s1. rewrite E. cbn. rewrite Z.eqb_refl. auto. }
  rewrite E. cbn [rstep fst snd]. unfold add_request, make_queue, get_queue. rewrite !Q. auto.
Qed.
Print Assumptions C71_failed_construction_refuted.

Definition kyes : Z -> kres := fun _ => KOk.
Definition kno : Z -> kres := fun _ => KErr.
Definition plain (n : nat) := Some (MkReq n false 0).
Definition aio (n : nat) (l : Z) := Some (MkReq n true l).
(** Disk 7 gets a linuxaio queue of 5 events from its first request; a plain
    request for it kills the program.  Disk 0 accepts both. *)
Example C71_case :
  fst (rrun false [OAdd (aio 1 5) 7 kyes; OAdd (plain 2) 0 kyes; OAdd (aio 3 9) 7 kyes; OAdd (aio 4 9) 0 kyes;
                   OCancel (plain 2) 0; OCancel (plain 5) 8; OGet 7; OAdd None 9 kyes; OGet 9;
                   OAdd (plain 6) 7 kyes] r_init) =
  [RAdded 0; RAdded 1; RAdded 0; RAdded 1; RCancel 1; RFalse; RQueue (Some 0%nat); RThrow; RQueue (Some 2%nat); RDie] /\
  decided 7 [OAdd (aio 1 5) 7 kyes; OAdd (aio 3 9) 7 kyes] = Some (Aio 5) /\
  fst (rrun true [OAdd (aio 1 5) 7 kno; OAdd (aio 1 5) 7 kyes] r_init) = [RThrow; RCrash] /\
  fst (rrun false [OAdd (aio 1 5) 7 kno; OAdd (aio 1 5) 7 kyes] r_init) = [RThrow; RAdded 0].
Proof. vm_compute. auto. Qed.

(** C72: after the constructor of the block manager, requests of disks [i] and [j]
    go to the same queue iff they have the same queue number: -2 for linuxaio,
    else the configured one, else the number of the disk. *)
Definition queue_number (c : rconf) (i : nat) : Z :=
  if c_aio c then -2 else if c_queue c =? -1 then Z.of_nat i else c_queue c.

Lemma manager_false : forall lhs cs kernel s, block_manager lhs cs kernel r_init = (true, s) ->
  block_manager false cs kernel r_init = (true, s).
Proof.
  intros [] cs kernel s H; auto. unfold block_manager in *. rewrite open_same; rewrite H; auto.
Qed.

Lemma manager_queue : forall lhs cs kernel s i c, block_manager lhs cs kernel r_init = (true, s) ->
  nth_error cs i = Some c -> rinv s /\
  exists q, qfind (r_map s) (queue_number c i) = Some (Some q) /\ f_queue (disk_file c i) = queue_number c i.
Proof.
  intros lhs cs kernel s i c H N. apply manager_false in H. unfold block_manager in H.
  pose proof (open_run (disk_files cs 0) kernel r_init) as R.
  pose proof (open_asked (disk_files cs 0) kernel r_init (disk_file c i) rinv_init) as A.
  rewrite H in R, A. cbn [fst snd] in R, A. split.
  - rewrite R by auto. apply rinv_run, rinv_init.
  - destruct A as (q & Q); auto.
    { apply (nth_error_In _ i). rewrite (disk_files_nth _ _ _ _ N). auto. }
    exists q. assert (E : f_queue (disk_file c i) = queue_number c i).
    { unfold disk_file, queue_number, DEFAULT_QUEUE, DEFAULT_LINUXAIO_QUEUE. cbn. auto. }
    rewrite <- E. auto.
Qed.

Lemma submit_known : forall lhs f id k s q, qfind (r_map s) (f_queue f) = Some (Some q) ->
  submit lhs f id k s = match q_kind q with Aio _ => if f_aio f then RAdded (q_uid q) else RDie | Qwqr => RAdded (q_uid q) end.
Proof. intros. unfold submit, add_request. rewrite H. reflexivity. Qed.

Lemma no_ask : forall x j0 kernel, c_aio x = false -> c_queue x <> -2 ->
  asks (-2) (OMake (disk_file x j0) kernel) = None.
Proof.
  intros x j0 kernel Ax Nx. unfold asks.
  replace (f_queue (disk_file x j0) =? -2) with false; auto. symmetry. apply Z.eqb_neq.
  unfold disk_file, DEFAULT_QUEUE, DEFAULT_LINUXAIO_QUEUE. cbn [f_queue]. rewrite Ax.
  destruct (c_queue x =? -1); lia.
Qed.

Theorem C72_shared_iff : forall lhs cs kernel s i j c e a b ki kj u v,
  block_manager lhs cs kernel r_init = (true, s) ->
  nth_error cs i = Some c -> nth_error cs j = Some e ->
  submit lhs (disk_file c i) a ki s = RAdded u -> submit lhs (disk_file e j) b kj s = RAdded v ->
  (u = v <-> queue_number c i = queue_number e j).
Proof.
  intros lhs cs kernel s i j c e a b ki kj u v H N M S T.
  destruct (manager_queue _ _ _ _ _ _ H N) as (I & q & Q & E).
  destruct (manager_queue _ _ _ _ _ _ H M) as (_ & p & P & F).
  rewrite (submit_known _ _ _ _ _ q) in S by congruence. rewrite (submit_known _ _ _ _ _ p) in T by congruence.
  assert (u = q_uid q) by (destruct (q_kind q); [congruence|destruct (f_aio (disk_file c i)); congruence]).
  assert (v = q_uid p) by (destruct (q_kind p); [congruence|destruct (f_aio (disk_file e j)); congruence]).
  subst. split.
  - intros U. eapply (v_inj _ I); eauto.
  - intros U. rewrite U in Q. congruence.
Qed.
Print Assumptions C72_shared_iff.

(** If no disk that is not linuxaio was given queue -2, every disk accepts
    requests and has a queue of its kind; the linuxaio queue has the length that
    the first linuxaio disk asked for. *)
Theorem C72_accepted : forall lhs cs kernel s i c id k,
  block_manager lhs cs kernel r_init = (true, s) ->
  (forall c, In c cs -> c_aio c = false -> c_queue c <> -2) ->
  nth_error cs i = Some c ->
  (exists u, submit lhs (disk_file c i) id k s = RAdded u) /\
  exists q, qfind (r_map s) (queue_number c i) = Some (Some q) /\
    q_kind q = if c_aio c then
                 match find c_aio cs with
                 | Some first => match snd (setup kernel (c_len first)) with NOk n => Aio n | _ => Qwqr end
                 | None => Qwqr
                 end
               else Qwqr.
Proof.
  intros lhs cs kernel s i c id k H No N.
  destruct (manager_queue _ _ _ _ _ _ H N) as (I & q & Q & E).
  assert (K : q_kind q = if c_aio c then
                 match find c_aio cs with
                 | Some first => match snd (setup kernel (c_len first)) with NOk n => Aio n | _ => Qwqr end
                 | None => Qwqr
                 end
               else Qwqr).
  { apply manager_false in H. unfold block_manager in H.
    pose proof (open_run (disk_files cs 0) kernel r_init) as R. rewrite H in R. cbn [fst snd] in R.
    pose proof (kind_decided (map (fun f => OMake f kernel) (disk_files cs 0)) (queue_number c i)) as D.
    rewrite <- R in D by auto. rewrite Q in D. cbn [option_map] in D. symmetry in D.
    pose proof (decided_in _ _ _ _ D) as (f & F1 & F2 & F3).
    apply disk_files_in in F1. destruct F1 as (j & e & M & ->). cbn [Nat.add] in *.
    assert (Q2 : f_queue (disk_file e j) = queue_number e j) by reflexivity. rewrite Q2 in F2.
    destruct (c_aio c) eqn:A.
    - (* the first linuxaio disk decides *)
      assert (G : forall l j0, (forall e, In e l -> c_aio e = false -> c_queue e <> -2) ->
        decided (-2) (map (fun f => OMake f kernel) (disk_files l j0)) = Some (q_kind q) ->
        (forall f, In f (disk_files l j0) -> f_aio f = true -> want true (f_len f) kernel <> None \/ True) ->
        exists first, find c_aio l = Some first).
      { induction l as [|x l IHl]; intros j0 Nx Dx _; [discriminate|]. cbn [find].
        destruct (c_aio x) eqn:Ax; [eauto|]. cbn [disk_files map decided] in Dx.
        pose proof (no_ask x j0 kernel Ax (Nx x (or_introl eq_refl) Ax)) as Z0.
        rewrite Z0 in Dx. apply (IHl (S j0)); auto. intros; apply Nx; auto. right; auto. }
      unfold queue_number in D, F2. rewrite A in D, F2.
      (* go along the list *)
      assert (L : forall l j0 s0, (forall e, In e l -> c_aio e = false -> c_queue e <> -2) -> rinv s0 ->
        qfind (r_map s0) (-2) = None -> fst (open_disks false (disk_files l j0) kernel s0) = true ->
        forall first, find c_aio l = Some first -> exists n, snd (setup kernel (c_len first)) = NOk n /\
          decided (-2) (map (fun f => OMake f kernel) (disk_files l j0)) = Some (Aio n)).
      { induction l as [|x l IHl]; intros j0 s0 Nx I0 F0 Ok first Fi; [discriminate|]. cbn [find] in Fi.
        cbn [disk_files map decided open_disks] in *.
        destruct (c_aio x) eqn:Ax.
        - injection Fi as <-.
          assert (W0 : make_queue false (disk_file x j0) kernel s0 =
             match want true (c_len x) kernel with
             | Some kd => (RUnit, MkR ((-2, Some (MkQ (r_next s0) kd)) :: r_map s0) (S (r_next s0)))
             | None => (RThrow, s0) end).
          { unfold make_queue. cbn [f_queue f_aio f_len disk_file]. rewrite Ax. unfold DEFAULT_LINUXAIO_QUEUE.
            rewrite F0. rewrite create_want. destruct (want true (c_len x) kernel); auto. }
          rewrite W0 in Ok. unfold want in Ok. destruct (snd (setup kernel (c_len x))) as [n| |] eqn:Sx; try discriminate.
          exists n. split; auto. unfold asks, disk_file. cbn [f_queue f_aio f_len]. rewrite Ax.
          unfold DEFAULT_LINUXAIO_QUEUE. rewrite Z.eqb_refl, Sx. auto.
        - assert (Z0 : asks (-2) (OMake (disk_file x j0) kernel) = None).
          { exact (no_ask x j0 kernel Ax (Nx x (or_introl eq_refl) Ax)). }
          rewrite Z0. pose proof (rstep_table (OMake (disk_file x j0) kernel) s0 I0) as T.
          pose proof (rinv_step (OMake (disk_file x j0) kernel) s0 I0) as I1. cbn [rstep] in T, I1.
          destruct (make_queue false (disk_file x j0) kernel s0) as [y s1]. cbn [snd] in *.
          destruct y; try discriminate. apply (IHl (S j0) s1); auto.
          { intros; apply Nx; auto. right; auto. }
          destruct T as [(d & kd & As & _ & ->)|(-> & _)]; auto. cbn [r_map qfind].
          destruct (Z.eqb_spec d (-2)); [congruence|auto]. }
      destruct (G cs 0%nat No D) as (first & Fi); [tauto|]. rewrite Fi.
      destruct (L cs 0%nat r_init No rinv_init eq_refl ltac:(rewrite H; auto) first Fi) as (n & Sn & Dn).
      rewrite Sn. congruence.
    - assert (Ae : f_aio (disk_file e j) = false).
      { cbn [f_aio disk_file]. destruct (c_aio e) eqn:Ae; auto. exfalso.
        unfold queue_number in F2. rewrite Ae, A in F2.
        pose proof (No c (nth_error_In _ _ N) A). destruct (c_queue c =? -1); lia. }
      rewrite Ae in F3. unfold want in F3. congruence. }
  split.
  - rewrite (submit_known _ _ _ _ _ q) by congruence. cbn [f_aio disk_file]. rewrite K.
    destruct (c_aio c); [destruct (find c_aio cs); [destruct (snd _)|]|]; eauto.
  - eauto.
Qed.
Print Assumptions C72_accepted.

(** Default configurations without linuxaio: a queue for each disk. *)
Theorem C72_default_separate : forall lhs cs kernel s i j c e a b ki kj u v,
  block_manager lhs cs kernel r_init = (true, s) ->
  (forall c, In c cs -> c_aio c = false /\ c_queue c = -1) ->
  nth_error cs i = Some c -> nth_error cs j = Some e -> i <> j ->
  submit lhs (disk_file c i) a ki s = RAdded u -> submit lhs (disk_file e j) b kj s = RAdded v -> u <> v.
Proof.
  intros lhs cs kernel s i j c e a b ki kj u v H D N M Ne S T U.
  apply (C72_shared_iff _ _ _ _ _ _ _ _ _ _ _ _ _ _ H N M S T) in U.
  destruct (D c (nth_error_In _ _ N)) as (A & Q). destruct (D e (nth_error_In _ _ M)) as (B & P).
  unfold queue_number in U. rewrite A, B, Q, P in U. cbn in U. lia.
Qed.
Print Assumptions C72_default_separate.

(** Without linuxaio the constructor cannot fail here. *)
Theorem C72_no_aio_succeeds : forall lhs cs kernel s, (forall c, In c cs -> c_aio c = false) ->
  fst (block_manager lhs cs kernel s) = true.
Proof.
  intros lhs cs kernel s H. unfold block_manager. generalize 0%nat. revert s.
  induction cs as [|c cs IH]; intros s n; auto. cbn [disk_files open_disks].
  unfold make_queue, create. cbn [disk_file f_aio f_queue]. rewrite (H c) by (left; auto).
  destruct (qfind _ _); apply IH; intros; apply H; right; auto.
Qed.
Print Assumptions C72_no_aio_succeeds.

(** "One queue for each disk" (config.hpp:92) is false if another disk was given
    the same number. *)
Theorem C72_default_shared_refuted : exists cs s u,
  block_manager false cs kyes r_init = (true, s) /\
  nth_error cs 0 = Some (MkC false (-1) 0) /\ nth_error cs 1 = Some (MkC false 0 0) /\
  submit false (disk_file (MkC false (-1) 0) 0) 1 kyes s = RAdded u /\
  submit false (disk_file (MkC false 0 0) 1) 2 kyes s = RAdded u.
Proof.
  exists [MkC false (-1) 0; MkC false 0 0]. eexists. eexists. csplit; reflexivity.
Qed.
Print Assumptions C72_default_shared_refuted.

(** A plain disk with the queue number -2 beside a linuxaio disk: its first
    request kills the program. *)
Theorem C72_minus_two_refuted : exists cs s,
  block_manager false cs kyes r_init = (true, s) /\
  nth_error cs 1 = Some (MkC false (-2) 0) /\
  submit false (disk_file (MkC false (-2) 0) 1) 1 kyes s = RDie.
Proof. exists [MkC true (-1) 0; MkC false (-2) 0]. eexists. csplit; reflexivity. Qed.
Print Assumptions C72_minus_two_refuted.

(** Two plain disks and two linuxaio disks. *)
Example C72_case :
  let cs := [MkC false (-1) 0; MkC true (-1) 20; MkC false 9 0; MkC true 3 50] in
  let s := snd (block_manager false cs kyes r_init) in
  fst (block_manager false cs kyes r_init) = true /\
  map (fun ci => submit false (disk_file (fst ci) (snd ci)) 1 kyes s) (combine cs (seq 0 4)) =
    [RAdded 0; RAdded 1; RAdded 2; RAdded 1] /\
  qfind (r_map s) (-2) = Some (Some (MkQ 1 (Aio 20))).
Proof. vm_compute. auto. Qed.

(** C73: the negotiation always ends, after at most 32 tries. *)
Theorem C73_ends : forall kernel desired, -2147483648 <= desired < 2147483648 ->
  snd (setup kernel desired) <> NNoFuel /\ (length (fst (setup kernel desired)) <= 32)%nat.
Proof.
  intros kernel desired H. unfold setup. set (m := start_events desired).
  assert (B : -2147483648 <= m < 2147483648) by (subst m; unfold start_events; destruct (desired =? 0); lia).
  clearbody m. destruct (Z_le_gt_dec m 1).
  - destruct (negotiate_small 32 kernel m l) as (X & ->). split; [auto|lia].
  - destruct (negotiate_done 32 0 kernel m) as (X & Y); [cbn; lia|lia|]. split; [auto|lia].
Qed.
Print Assumptions C73_ends.

(** It never settles for fewer events than desired. *)
Theorem C73_never_fewer : forall kernel desired n, 0 <= desired < 2147483648 ->
  snd (setup kernel desired) = NOk n -> 0 < n ->
  start_events desired <= n /\ kernel n = KOk.
Proof.
  intros kernel desired n H E P. unfold setup in E. eapply negotiate_grows; eauto.
  unfold start_events. destruct (Z.eqb_spec desired 0); lia.
Qed.
Print Assumptions C73_never_fewer.

(** With a kernel that does not grant more after having refused: the constructor
    succeeds iff the first try does, with exactly the desired number (64 for 0). *)
Theorem C73_all_or_nothing : forall kernel desired n, monotone kernel -> 0 <= desired < 2147483648 ->
  (snd (setup kernel desired) = NOk n <->
   n = (if desired =? 0 then 64 else desired) /\ kernel n = KOk).
Proof.
  intros kernel desired n Mo H. unfold setup. set (m := start_events desired).
  assert (B : 0 < m < 2147483648 /\ m = (if desired =? 0 then 64 else desired)).
  { subst m. unfold start_events. destruct (Z.eqb_spec desired 0); lia. }
  destruct B as (B & <-). clearbody m.
  assert (U : to_unsigned m = m) by (unfold to_unsigned; apply Z.mod_small; lia).
  destruct (kernel m) eqn:K.
  - rewrite negotiate_S, U, K. cbn [snd]. split; [intros E; injection E as <-; auto|intros (-> & _); auto].
  - split; [|intros (-> & E); congruence]. intros E. exfalso. revert E.
    apply (negotiate_refused 33 kernel m m); auto; try lia. congruence.
  - split; [|intros (-> & E); congruence]. intros E. exfalso. revert E.
    apply (negotiate_refused 33 kernel m m); auto; try lia. congruence.
Qed.
Print Assumptions C73_all_or_nothing.

(** "Try with half as many events" (linuxaio_queue.cpp:52): with 32 events left
    the default fails although 32 would be granted. *)
Theorem C73_half_refuted : exists kernel,
  monotone kernel /\ halving 33 kernel 64 = Some 32 /\ setup kernel 0 =
    ([64; 128; 256; 512; 1024; 2048; 4096; 8192; 16384; 32768; 65536; 131072; 262144; 524288; 1048576; 2097152;
      4194304; 8388608; 16777216], NThrow).
Proof.
  exists (linux 32). csplit; try reflexivity. intros n m H. unfold linux.
  destruct (Z.ltb_spec 8388608 m); [discriminate|]. destruct (Z.eqb_spec m 0); [discriminate|].
  destruct (Z.ltb_spec 32 m); [discriminate|]. intros _.
  destruct (Z.ltb_spec 8388608 n); [lia|]. destruct (Z.eqb_spec n 0); [lia|].
  destruct (Z.ltb_spec 32 n); [lia|auto].
Qed.
Print Assumptions C73_half_refuted.

(** Exactly this for Linux: it works iff the desired number is available. *)
Theorem C73_linux : forall limit desired, 0 <= limit -> 0 < desired <= 8388608 ->
  snd (setup (linux limit) desired) = if desired <=? limit then NOk desired else NThrow.
Proof.
  intros limit desired L D.
  assert (Mo : monotone (linux limit)).
  { intros n m H. unfold linux.
    destruct (Z.ltb_spec 8388608 m); [discriminate|]. destruct (Z.eqb_spec m 0); [discriminate|].
    destruct (Z.ltb_spec limit m); [discriminate|]. intros _.
    destruct (Z.ltb_spec 8388608 n); [lia|]. destruct (Z.eqb_spec n 0); [lia|].
    destruct (Z.ltb_spec limit n); [lia|auto]. }
  assert (D2 : 0 <= desired < 2147483648) by lia.
  destruct (Z.leb_spec desired limit).
  - apply (C73_all_or_nothing _ _ _ Mo D2). destruct (Z.eqb_spec desired 0); [lia|]. split; auto.
    unfold linux. destruct (Z.ltb_spec 8388608 desired); [lia|]. destruct (Z.eqb_spec desired 0); [lia|].
    destruct (Z.ltb_spec limit desired); [lia|auto].
  - destruct (C73_ends (linux limit) desired ltac:(lia)) as (E & _).
    destruct (snd (setup (linux limit) desired)) as [n| |] eqn:R; try congruence. exfalso.
    apply (C73_all_or_nothing _ _ _ Mo D2) in R. destruct (Z.eqb_spec desired 0); [lia|]. destruct R as (-> & R).
    unfold linux in R. destruct (Z.ltb_spec 8388608 desired); [lia|]. destruct (Z.eqb_spec desired 0); [lia|].
    destruct (Z.ltb_spec limit desired); [discriminate|lia].
Qed.
Print Assumptions C73_linux.

Example C73_case : setup (linux 100) 0 = ([64], NOk 64) /\ setup (linux 100) 100 = ([100], NOk 100) /\
  snd (setup (linux 100) 101) = NThrow /\ setup (linux 0) 1 = ([1], NThrow) /\
  setup (linux 100) (-5) = ([-5], NThrow).
Proof. vm_compute. auto. Qed.
