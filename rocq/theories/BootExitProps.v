(* C105, C106: the files after the start and after the end of the program *)
From Coq Require Import String Ascii List Arith Bool ZArith Lia.
From Verif Require Import ConfigModel BootModel BootSpec BootProofs BootRetry BootProps BootExit.
Import ListNotations.
Local Open Scope list_scope.

Print Assumptions C105_start.
Print Assumptions C105_failure.
Print Assumptions C105_again.
Print Assumptions C105_retry.
Print Assumptions C105_retry_fresh.

Section Props.
Variable expand : str -> str.
Variable parse_size : str -> option Z.
Variable pid : Z.
Variable getenv : str -> option str.
Variable conf_files : str -> option str.
Variable device : str -> option Z.
Notation start := (start expand parse_size pid getenv conf_files device).
Notation initialised := (check_initialized expand parse_size pid getenv conf_files).
Notation run := (run expand parse_size pid getenv conf_files device).
Notation finish := (finish device).

(* After a start the file of a disk that shares no name with another disk has
   the configured size, whatever it had before; without a size it exists; it
   does not exist if it was unlinked; the lock file of a fileperblock disk exists. *)
Theorem C105_files : forall e s c t l i o, s_manager s = None -> initialised (s_config s) = (true, c) ->
  start e s = (true, t) -> s_manager t = Some l -> nth_error l i = Some o ->
  let d := o_disk o in
  (on_file d -> device (path d) = None -> alone device (disks (s_config t)) i (path d) ->
     s_files t (path d) =
       if unlink_on_open d then None
       else if (size d =? 0)%Z
       then match s_files s (path d) with Some n => Some n | None => Some 0%Z end
       else Some (size d))
  /\ (per_block d -> alone device (disks (s_config t)) i (lock_name (path d)) ->
      s_files t (lock_name (path d)) = Some 4096%Z)
  /\ (forall p, (forall x, In x (disks (s_config t)) -> ~ works_on device x p) -> s_files t p = s_files s p).
Proof.
  intros e s c t l i o M I G ML N. cbn zeta.
  assert (T : t = snd (start e s)) by (rewrite G; reflexivity).
  split; [|split].
  3: { intros p W. subst t. apply (untouched_do expand parse_size pid getenv conf_files device (OStart e)).
       - unfold inv. rewrite M. exact Logic.I.
       - intros (x & X & Y). exact (W x X Y). }
  all: clear T; rewrite (start_go _ _ _ _ _ _ e s c M I) in G;
    destruct (go device 0 e (disks c) (max_dev c) (s_files s)) as [[[[r os] ds] m] f] eqn:GG;
    destruct r as [[n b]|]; [discriminate|]; injection G as <-; cbn [s_manager] in ML; injection ML as <-;
    destruct (go_ok _ _ _ _ _ _ _ _ _ _ GG) as (LN & DS & C); cbn [plus] in C;
    (assert (ND : exists d, nth_error (disks c) i = Some d);
     [destruct (nth_error (disks c) i) eqn:E; [eauto|]; apply nth_error_None in E;
      assert (nth_error os i = None) by (apply nth_error_None; lia); congruence|]);
    destruct ND as (d & ND); destruct (C _ _ ND) as (_ & id & N' & _);
    assert (o = ready_file device i d id) by congruence; subst o; cbn [ready_file o_disk s_config disks s_files];
    rewrite finished_path, (go_effs _ _ _ _ _ _ _ _ _ _ GG);
    destruct (finished_alike device i d id) as (A1 & A2 & A3);
    (assert (AL : forall p, alone device ds i p ->
        exists g, g p = s_files s p /\ effs device (disks c) (s_files s) p = eff device d g p);
     [intros p A; apply (effs_nth device _ i); [assumption|];
      intros j x J Y; apply cls_works; intros W; destruct (C _ _ Y) as (_ & idj & Nj & _);
      apply (A j (finished device j x idj) J);
      [rewrite DS, (map_nth_error o_disk _ _ Nj); reflexivity|
       left; apply (alike_works device _ _ _ (finished_alike device j x idj)); assumption]|]).
  - intros O D A. destruct (AL _ A) as (g & G1 & ->).
    assert (O' : on_file d) by (unfold on_file, checked in *; rewrite A2 in O; exact O).
    assert (DV : isdev device d = false) by (unfold isdev; rewrite D; apply andb_false_r).
    destruct A3 as [A3|(A3 & A4 & A5)]; [congruence|]. rewrite A4, A5.
    destruct (eff_size device d g O' D) as [E1 E2].
    destruct (unlink_on_open d) eqn:U; [auto|].
    destruct (Z.eqb_spec (size d) 0) as [Z|Z]; [|auto].
    unfold eff, fsize, opened_files. rewrite DV, Z. cbn [Z.eqb]. rewrite on_file_iff in O'.
    rewrite O', (unlinked_file _ _ O' D), U, (open_name_file _ _ _ D), touch_same, G1.
    destruct (s_files s (path d)); reflexivity.
  - intros O A. destruct (AL _ A) as (g & G1 & ->).
    assert (O' : isperblock d = true).
    { apply per_block_iff. unfold per_block in *. rewrite A2 in O. exact O. }
    assert (U : isufs d = false) by (unfold isufs, isperblock in *; destruct (impl_of d); auto; discriminate).
    unfold eff, opened_files. rewrite U, O'.
    destruct (fsize device d =? 0)%Z; [apply put_same|].
    rewrite set_size_other by congruence. apply put_same.
Qed.

(* Whatever a program does: after its end the files of the disks that say so
   are gone. *)
Theorem C106_deleted : forall ops s0 d,
  In d (disks (s_config (run ops s0))) -> delete_on_exit d = true ->
  finish (run ops s0) (path d) = None.
Proof. intros ops s0 d I D. apply removed; assumption. Qed.

(* The file of another disk that was opened is back at its configured size,
   however much it has grown; it does not exist if it was unlinked. *)
Theorem C106_sizes : forall ops s0 l i o, s_manager s0 = None ->
  s_manager (run ops s0) = Some l -> nth_error l i = Some o ->
  let d := o_disk o in
  on_file d -> device (path d) = None -> alone device (disks (s_config (run ops s0))) i (path d) ->
  (unlink_on_open d = true -> finish (run ops s0) (path d) = None)
  /\ (unlink_on_open d = false -> delete_on_exit d = false -> (0 < size d)%Z ->
      finish (run ops s0) (path d) = Some (size d)).
Proof.
  intros ops s0 l i o M0 M N. cbn zeta. intros O D A.
  assert (V0 : inv device s0) by (unfold inv; rewrite M0; exact Logic.I).
  assert (S0 : is_size device s0) by (intros l0 i0 o0 X; congruence).
  pose proof (inv_run expand parse_size pid getenv conf_files device ops s0 V0) as V.
  pose proof (size_run expand parse_size pid getenv conf_files device ops s0 V0 S0) as Z.
  set (s := run ops s0) in *.
  assert (P : private device s i (path (o_disk o))).
  { intros j x J X W. apply (A j x J X). left. assumption. }
  destruct (opened_in device s l i o V M N) as (O1 & (SN & SB & SD) & O3).
  destruct (Z l i o M N O D P) as [Z1 Z2].
  assert (F : Forall (sound device) l) by (unfold inv in V; rewrite M in V; apply V).
  destruct (end_nth device l i o (s_files s) (path (o_disk o)) F N) as (g & G1 & G2).
  { intros j x J X. destruct (opened_in device s l j x V M X) as (_ & _ & X3). exact (P j _ J X3). }
  unfold BootModel.finish. rewrite M.
  pose proof O as O'. rewrite on_file_iff in O'.
  assert (UL : unlinked device (o_disk o) = unlink_on_open (o_disk o)) by (apply unlinked_file; assumption).
  assert (CF : forall h, close_file o h = h).
  { intros h. unfold close_file. unfold isufs in O'. destruct (impl_of (o_disk o)); reflexivity || discriminate. }
  split.
  - intros U. apply remove_none. rewrite G2. unfold end_disk. rewrite CF, SN. unfold name_of. rewrite O', UL, U.
    destruct (_ <? _)%Z; [rewrite set_size_other by congruence|]; rewrite G1; auto.
  - intros U DE SZ. rewrite remove_untouched.
    + rewrite G2. unfold end_disk. rewrite CF, SN. unfold name_of. rewrite O', UL, U.
      destruct (Z.ltb_spec (size (o_disk o)) (o_bytes o)) as [LT|GE].
      * unfold set_size. rewrite D. unfold isufs in O'.
        destruct (impl_of (o_disk o)); try discriminate; apply put_same.
      * rewrite G1, Z2 by (assumption || lia). f_equal. lia.
    + intros d I [X1 X2]. apply In_nth_error in I. destruct I as [j J].
      destruct (Nat.eq_dec j i) as [->|NE]; [congruence|].
      apply (A j d NE J). right. auto.
Qed.

(* No lock file stays. *)
Theorem C106_locks : forall ops s0 l i o, s_manager s0 = None ->
  s_manager (run ops s0) = Some l -> nth_error l i = Some o ->
  per_block (o_disk o) ->
  alone device (disks (s_config (run ops s0))) i (lock_name (path (o_disk o))) ->
  finish (run ops s0) (lock_name (path (o_disk o))) = None.
Proof.
  intros ops s0 l i o M0 M N O A.
  assert (V0 : inv device s0) by (unfold inv; rewrite M0; exact Logic.I).
  pose proof (inv_run expand parse_size pid getenv conf_files device ops s0 V0) as V.
  set (s := run ops s0) in *.
  assert (F : Forall (sound device) l) by (unfold inv in V; rewrite M in V; apply V).
  destruct (end_nth device l i o (s_files s) (lock_name (path (o_disk o))) F N) as (g & G1 & G2).
  { intros j x J X W. destruct (opened_in device s l j x V M X) as (_ & _ & X3).
    apply (A j _ J X3). left. assumption. }
  unfold BootModel.finish. rewrite M. apply remove_none. rewrite G2.
  unfold end_disk, close_file. rewrite (impl_per_block _ O). apply put_same.
Qed.

(* Every other name is as it was: names of no disk, and devices. *)
Theorem C106_untouched : forall ops s0 p, s_manager s0 = None ->
  (forall d, In d (disks (s_config (run ops s0))) -> ~ concerns device d p) ->
  finish (run ops s0) p = s_files s0 p.
Proof.
  intros ops s0 p M0 W.
  assert (V0 : inv device s0) by (unfold inv; rewrite M0; exact Logic.I).
  pose proof (inv_run expand parse_size pid getenv conf_files device ops s0 V0) as V.
  assert (U : s_files (run ops s0) p = s_files s0 p).
  { apply untouched_run; [assumption|]. intros (d & I & X). apply (W d I). left. assumption. }
  set (s := run ops s0) in *.
  unfold BootModel.finish. rewrite remove_untouched.
  - destruct (s_manager s) as [l|] eqn:M; [|assumption].
    unfold inv in V. rewrite M in V. destruct V as [[rest R] F].
    rewrite end_disks_untouched; [assumption|apply Forall_rev; assumption|].
    intros o O X. apply in_rev in O. apply (W (o_disk o)); [|left; assumption].
    rewrite R. apply in_or_app. left. apply in_map. assumption.
  - intros d I X. apply (W d I). right. assumption.
Qed.

(* In particular the node of a device that is used by syscall and linuxaio disks
   of the block manager only. *)
Theorem C106_devices : forall ops s0 l p, s_manager s0 = None ->
  s_manager (run ops s0) = Some l -> device p <> None ->
  (forall i d, nth_error (disks (s_config (run ops s0))) i = Some d ->
     (path d = p -> i < length l /\ checked d) /\ ~ (per_block d /\ works_on device d p)) ->
  finish (run ops s0) p = s_files s0 p.
Proof.
  intros ops s0 l p M0 M D H. apply C106_untouched; [assumption|].
  intros d I X. apply In_nth_error in I. destruct I as [i I]. destruct (H i d I) as [H1 H2].
  destruct X as [[(_ & X & _)|X]|[X1 X2]].
  - contradiction.
  - apply H2. split; [apply X|right; exact X].
  - destruct (H1 (eq_sym X2)) as (L & C).
    assert (V0 : inv device s0) by (unfold inv; rewrite M0; exact Logic.I).
    pose proof (inv_run expand parse_size pid getenv conf_files device ops s0 V0) as V.
    destruct (nth_error l i) as [o|] eqn:N; [|apply nth_error_None in N; lia].
    destruct (opened_in device _ l i o V M N) as (_ & (_ & _ & SD) & O3).
    assert (o_disk o = d) by congruence. subst d.
    rewrite SD in X1; [discriminate|].
    apply on_device_iff. split; [assumption|]. rewrite <- X2. assumption.
Qed.
End Props.
Print Assumptions C105_files.
Print Assumptions C106_deleted.
Print Assumptions C106_sizes.
Print Assumptions C106_locks.
Print Assumptions C106_untouched.
Print Assumptions C106_devices.

(* Concrete programs *)
Definition dev1 (p : str) : option Z := if seq p (L "/dev/sdb") then Some 1000%Z else None.
Definition none (p : str) : option str := None.
Notation start1 := (start (fun x => x) (fun _ => None) 1%Z none none dev1).
Notation run1 := (run (fun x => x) (fun _ => None) 1%Z none none dev1).
Notation finish1 := (finish dev1).

Definition mk (p : string) (sz : Z) (io : string) (del unl : bool) : disk :=
  mkDisk (L p) sz (L io) true del DIRECT_TRY false DEFAULT_QUEUE DEFAULT_DEVICE_ID false unl 0.

Fixpoint world (l : list (string * Z)) : files :=
  match l with
  | [] => fun _ => None
  | (p, n) :: l => put (world l) (L p) (Some n)
  end.

Definition fresh (f : files) : state := State (mkConfig [] 3 false 7) f None 0 0.

Definition adds (l : list disk) : list op := map OAdd l.

Definition four : list disk :=
  [mk "/a" 10 "syscall" false false; mk "/dev/sdb" 5 "linuxaio" true false;
   mk "/p" 30 "fileperblock_mmap" true false; mk "/u" 40 "mmap" false true].

Definition old : list (string * Z) :=
  [("/a", 100); ("/dev/sdb", 0); ("/other", 3); ("/u", 8)]%string%Z.

Definition good : nat -> attempt := fun _ => AFine.
Definition fail_at (k : nat) (a : attempt) : nat -> attempt := fun i => if i =? k then a else AFine.

Lemma ends : forall e s b, fst (start1 e s) = b -> start1 e s = (b, snd (start1 e s)).
Proof. intros e s b <-. apply surjective_pairing. Qed.

Definition sizes (f : files) : list (option Z) :=
  map f [L "/a"; L "/dev/sdb"; L "/other"; L "/p"; lock_name (L "/p"); block_name (L "/p") 8; L "/u"].

Definition summary (s : state) :=
  (sizes (s_files s), s_allocators s, s_descriptors s,
   match s_manager s with
   | None => None
   | Some l => Some (map (fun o => (queue (o_disk o), device_id (o_disk o), size (o_disk o),
                                    o_bytes o, o_name o)) l)
   end).

(* The first start fails while it locks /p, the second when the queue of /u is
   made; the third gives what an immediate success gives. *)
Example C105_case :
  let s := run1 (adds four) (fresh (world old)) in
  let s1 := snd (start1 (fail_at 2 (AOpen true)) s) in
  let s2 := snd (start1 (fail_at 3 AQueue) s1) in
  s_manager s = None
  /\ (fst (start1 (fail_at 2 (AOpen true)) s), fst (start1 (fail_at 3 AQueue) s1),
      fst (start1 good s2), fst (start1 good s)) = (false, false, true, true)
  /\ summary s1 = ([Some 10; Some 0; Some 3; None; Some 0; None; Some 8]%Z, 2, 1, None)
  /\ summary s2 = ([Some 10; Some 0; Some 3; None; None; None; None]%Z, 5, 1, None)
  /\ summary (snd (start1 good s2)) =
     ([Some 10; Some 0; Some 3; None; Some 4096; None; None]%Z, 5, 1,
      Some [(0, 0, 10, 10, Some (L "/a")); (-2, 1, 1000, 1000, Some (L "/dev/sdb"));
            (2, 2, 30, 30, Some (lock_name (L "/p"))); (3, 3, 40, 40, None)]%Z)
  /\ s_config (snd (start1 good s2)) = s_config (snd (start1 good s))
  /\ s_manager (snd (start1 good s2)) = s_manager (snd (start1 good s)).
Proof. vm_compute. auto 10. Qed.

(* The hypotheses of the theorem about failures hold in it. *)
Example C105_retry_case :
  let s := run1 (adds four) (fresh (world old)) in
  ids_ok (fun x => x) (fun _ => None) 1%Z none none s
  /\ exists s2, failures (fun x => x) (fun _ => None) 1%Z none none dev1 s s2
                /\ s_allocators s2 = 5 /\ fst (start1 good s2) = true.
Proof.
  intros s. split.
  - intros c E.
    assert (D : disks c = four /\ max_dev c = 0%Z).
    { vm_compute in E. injection E as <-. split; reflexivity. }
    destruct D as [D M]. split; rewrite ?D, ?M; [unfold DEFAULT_DEVICE_ID; lia|].
    intros d I. cbn in I. unfold DEFAULT_DEVICE_ID. intuition (subst; cbn; lia).
  - set (s1 := snd (start1 (fail_at 2 (AOpen true)) s)).
    set (s2 := snd (start1 (fail_at 3 AQueue) s1)).
    exists s2. split; [|split; vm_compute; reflexivity].
    assert (I0 : exists c, check_initialized (fun x => x) (fun _ => None) 1%Z none none (s_config s) = (true, c))
      by (eexists; vm_compute; reflexivity).
    assert (I1 : exists c, check_initialized (fun x => x) (fun _ => None) 1%Z none none (s_config s1) = (true, c))
      by (eexists; vm_compute; reflexivity).
    destruct I0 as [c0 I0]. destruct I1 as [c1 I1].
    eapply (f_more _ _ _ _ _ _ (fail_at 2 (AOpen true)) s c0 s1); [reflexivity|exact I0| |].
    { apply ends. vm_compute. reflexivity. }
    eapply (f_more _ _ _ _ _ _ (fail_at 3 AQueue) s1 c1 s2); [vm_compute; reflexivity|exact I1| |].
    { apply ends. vm_compute. reflexivity. }
    apply f_none.
Qed.

(* The counter may start anew: the first disk has the number 2^32 - 2, the second
   gets 2^32 - 1, which is then taken for "none yet"; it gets the same again. *)
Definition with_id (d : disk) (n : Z) : disk :=
  mkDisk (path d) (size d) (io_impl d) (autogrow d) (delete_on_exit d) (direct d) (flash d) (queue d)
    n (raw_device d) (unlink_on_open d) (queue_length d).
Definition high : list disk :=
  [with_id (mk "/a" 10 "syscall" false false) 4294967294; mk "/b" 10 "syscall" false false;
   mk "/c" 10 "syscall" false false].
Definition ids_of (s : state) : option (list Z) :=
  option_map (map (fun o => device_id (o_disk o))) (s_manager s).

Example C105_ids_case :
  let s := run1 (adds high) (fresh (world [])) in
  let s1 := snd (start1 (fail_at 2 ALock) s) in
  is_initialized (s_config s) = false /\ fst (start1 (fail_at 2 ALock) s) = false
  /\ max_dev (s_config s1) = 1%Z
  /\ ids_of (snd (start1 good s)) = Some [4294967294; 4294967295; 0]%Z
  /\ ids_of (snd (start1 good s1)) = Some [4294967294; 4294967295; 0]%Z.
Proof. vm_compute. auto. Qed.

(* The condition on the counter is needed: after a file with the number 2^32 - 2
   has been opened, the first disk gets 2^32 - 1, and after a failure another
   number. *)
Theorem C105_counter_refuted :
  ~ (forall s s', failures (fun x => x) (fun _ => None) 1%Z none none dev1 s s' ->
       s_manager s = None -> is_initialized (s_config s) = true ->
       (forall d, In d (disks (s_config s)) -> (0 <= device_id d <= DEFAULT_DEVICE_ID)%Z) ->
       (0 <= max_dev (s_config s) <= DEFAULT_DEVICE_ID)%Z ->
       fst (start1 good s) = true -> ids_of (snd (start1 good s')) = ids_of (snd (start1 good s))).
Proof.
  intros H.
  set (ds := [mk "/a" 10 "syscall" false false; mk "/b" 10 "syscall" false false]).
  set (s := State (mkConfig ds 0 true 4294967295) (world []) None 0 0).
  set (s1 := snd (start1 (fail_at 1 ALock) s)).
  assert (F : failures (fun x => x) (fun _ => None) 1%Z none none dev1 s s1).
  { eapply (f_more _ _ _ _ _ _ (fail_at 1 ALock) s (s_config s) s1); [reflexivity|reflexivity| |apply f_none].
    apply ends. vm_compute. reflexivity. }
  specialize (H s s1 F eq_refl eq_refl).
  assert (X : ids_of (snd (start1 good s1)) = ids_of (snd (start1 good s))).
  { apply H.
    - intros d I. cbn in I. unfold DEFAULT_DEVICE_ID. intuition (subst; cbn; lia).
    - unfold DEFAULT_DEVICE_ID. cbn. lia.
    - vm_compute. reflexivity. }
  vm_compute in X. discriminate.
Qed.

(* Two disks may have the same path: the file is then smaller than a disk. *)
Theorem C105_same_path_refuted :
  ~ (forall e s t l i o, s_manager s = None -> start1 e s = (true, t) -> s_manager t = Some l ->
       nth_error l i = Some o -> on_file (o_disk o) -> dev1 (path (o_disk o)) = None ->
       unlink_on_open (o_disk o) = false ->
       exists n, s_files t (path (o_disk o)) = Some n /\ (o_bytes o <= n)%Z).
Proof.
  intros H.
  set (s := run1 (adds [mk "/a" 10 "syscall" false false; mk "/a" 5 "syscall" false false]) (fresh (world []))).
  set (t := snd (start1 good s)).
  assert (G : start1 good s = (true, t))
    by (apply ends; vm_compute; reflexivity).
  assert (M : exists l, s_manager t = Some l /\ exists o, nth_error l 0 = Some o
     /\ o_bytes o = 10%Z /\ path (o_disk o) = L "/a" /\ io_impl (o_disk o) = L "syscall"
     /\ unlink_on_open (o_disk o) = false).
  { vm_compute. eexists. split; [reflexivity|]. eexists. split; [reflexivity|]. auto. }
  destruct M as (l & M & o & N & B & P & I & U).
  destruct (H good s t l 0 o eq_refl G M N) as (n & F & LE).
  - left. left. assumption.
  - rewrite P. reflexivity.
  - assumption.
  - rewrite P in F. assert (X : s_files t (L "/a") = Some 5%Z) by (vm_compute; reflexivity).
    rewrite X in F. injection F as <-. lia.
Qed.

(* A start that fails has changed files nevertheless: the content of /a is lost. *)
Theorem C105_failure_files_refuted :
  ~ (forall e s t p, start1 e s = (false, t) -> s_files t p = s_files s p).
Proof.
  intros H.
  set (s := run1 (adds four) (fresh (world old))).
  specialize (H (fail_at 2 ALock) s (snd (start1 (fail_at 2 ALock) s)) (L "/a")).
  assert (X : start1 (fail_at 2 ALock) s = (false, snd (start1 (fail_at 2 ALock) s)))
    by (apply ends; vm_compute; reflexivity).
  specialize (H X). vm_compute in H. discriminate.
Qed.

(* The whole life of a program with four disks, of which two grow. *)
Definition life : list op :=
  adds four ++ [OStart (fail_at 1 ALock); OStart good; OGrow 0 50; OServe 2 8 4; OGrow 3 5;
                OGrow 0 6; OStart (fail_at 0 ALock); OAdd (mk "/other" 1 "memory" false false)].

Example C106_case :
  let s := run1 life (fresh (world old)) in
  sizes (s_files s) = [Some 66; Some 0; Some 3; None; Some 4096; Some 4; None]%Z
  /\ sizes (finish1 s) = [Some 10; Some 0; Some 3; None; None; Some 4; None]%Z
  /\ map delete_on_exit (disks (s_config s)) = [false; false; true; false; false].
Proof. vm_compute. auto. Qed.

(* The hypotheses of the theorem about sizes hold for /a. *)
Example C106_sizes_case :
  exists l o, s_manager (run1 life (fresh (world old))) = Some l /\ nth_error l 0 = Some o
  /\ on_file (o_disk o) /\ dev1 (path (o_disk o)) = None /\ (o_bytes o = 66)%Z /\ size (o_disk o) = 10%Z
  /\ alone dev1 (disks (s_config (run1 life (fresh (world old))))) 0 (path (o_disk o)).
Proof.
  assert (M : exists l o, s_manager (run1 life (fresh (world old))) = Some l /\ nth_error l 0 = Some o
    /\ path (o_disk o) = L "/a" /\ io_impl (o_disk o) = L "syscall" /\ o_bytes o = 66%Z /\ size (o_disk o) = 10%Z)
    by (vm_compute; eexists; eexists; split; [reflexivity|]; split; [reflexivity|]; auto).
  destruct M as (l & o & M & N & P & I & B & Z). exists l, o. rewrite P.
  split; [assumption|]. split; [assumption|]. split; [left; left; assumption|]. split; [reflexivity|].
  split; [assumption|]. split; [assumption|].
  assert (K : map (fun d => (path d, isperblock d)) (disks (s_config (run1 life (fresh (world old))))) =
     [(L "/a", false); (L "/dev/sdb", false); (L "/p", true); (L "/u", false); (L "/other", false)])
    by (vm_compute; reflexivity).
  intros j d J D. apply (map_nth_error (fun d => (path d, isperblock d))) in D. rewrite K in D.
  clear M N I B Z P K l o. intros [[(_ & _ & X)|(X & Y)]|[_ X]].
  - destruct j as [|[|[|[|[|[|j]]]]]]; try contradiction; cbn in D; try discriminate;
      injection D as D1 D2; rewrite <- D1 in X; discriminate.
  - apply per_block_iff in X.
    destruct j as [|[|[|[|[|[|j]]]]]]; try contradiction; cbn in D; try discriminate;
      injection D as D1 D2; try congruence; rewrite <- D1 in Y.
    destruct Y as [Y|[off Y]]; discriminate.
  - destruct j as [|[|[|[|[|[|j]]]]]]; try contradiction; cbn in D; try discriminate;
      injection D as D1 D2; rewrite <- D1 in X; discriminate.
Qed.

(* A fileperblock disk that is to be deleted leaves the files of its blocks. *)
Theorem C106_blocks_refuted :
  ~ (forall ops f l i o off, (forall p, f p = None) ->
       s_manager (run1 ops (fresh f)) = Some l -> nth_error l i = Some o ->
       per_block (o_disk o) -> delete_on_exit (o_disk o) = true ->
       finish1 (run1 ops (fresh f)) (block_name (path (o_disk o)) off) = None).
Proof.
  intros H.
  set (ops := [OAdd (mk "/p" 30 "fileperblock_syscall" true false); OStart good; OServe 0 8 4]).
  assert (M : exists l o, s_manager (run1 ops (fresh (world []))) = Some l /\ nth_error l 0 = Some o
    /\ path (o_disk o) = L "/p" /\ io_impl (o_disk o) = L "fileperblock_syscall" /\ delete_on_exit (o_disk o) = true)
    by (vm_compute; eexists; eexists; split; [reflexivity|]; split; [reflexivity|]; auto).
  destruct M as (l & o & M & N & P & I & D).
  specialize (H ops (world []) l 0 o 8%N (fun _ => eq_refl) M N (or_introl I) D).
  rewrite P in H. vm_compute in H. discriminate.
Qed.

(* A program that never starts the block manager removes files nevertheless. *)
Theorem C106_never_started_refuted :
  ~ (forall ops f p n, f p = Some n -> s_manager (run1 ops (fresh f)) = None ->
       finish1 (run1 ops (fresh f)) p = Some n).
Proof.
  intros H.
  specialize (H [OAdd (mk "/a" 30 "syscall" true false)] (world old) (L "/a") 100%Z eq_refl eq_refl).
  vm_compute in H. discriminate.
Qed.

(* A disk in memory removes a file that nobody has opened. *)
Theorem C106_memory_refuted :
  ~ (forall ops f p n l, f p = Some n -> s_manager (run1 ops (fresh f)) = Some l ->
       Forall in_memory (disks (s_config (run1 ops (fresh f)))) ->
       finish1 (run1 ops (fresh f)) p = Some n).
Proof.
  intros H.
  set (ops := [OAdd (mk "/a" 30 "memory" true false); OStart good]).
  assert (M : exists l, s_manager (run1 ops (fresh (world old))) = Some l)
    by (vm_compute; eexists; reflexivity).
  destruct M as (l & M).
  specialize (H ops (world old) (L "/a") 100%Z l eq_refl M).
  assert (F : Forall in_memory (disks (s_config (run1 ops (fresh (world old))))))
    by (vm_compute; constructor; [reflexivity|constructor]).
  specialize (H F). vm_compute in H. discriminate.
Qed.

(* A device that is used with mmap loses its node. *)
Theorem C106_mmap_device_refuted :
  ~ (forall ops f l p, s_manager (run1 ops (fresh f)) = Some l -> dev1 p <> None ->
       (forall d, In d (disks (s_config (run1 ops (fresh f)))) -> on_file d) ->
       finish1 (run1 ops (fresh f)) p = f p).
Proof.
  intros H.
  set (ops := [OAdd (mk "/dev/sdb" 30 "mmap" true false); OStart good]).
  assert (M : exists l, s_manager (run1 ops (fresh (world old))) = Some l)
    by (vm_compute; eexists; reflexivity).
  destruct M as (l & M).
  specialize (H ops (world old) l (L "/dev/sdb") M).
  assert (X : dev1 (L "/dev/sdb") <> None) by (vm_compute; discriminate).
  specialize (H X).
  assert (F : forall d, In d (disks (s_config (run1 ops (fresh (world old))))) -> on_file d).
  { intros d. vm_compute. intros [<-|[]]. right. reflexivity. }
  specialize (H F). vm_compute in H. discriminate.
Qed.

(* And so does one for which the start has not come to. *)
Theorem C106_failed_device_refuted :
  ~ (forall ops f p, dev1 p <> None ->
       (forall d, In d (disks (s_config (run1 ops (fresh f)))) -> checked d) ->
       finish1 (run1 ops (fresh f)) p = f p).
Proof.
  intros H.
  set (ops := [OAdd (mk "/a" 30 "syscall" false false); OAdd (mk "/dev/sdb" 30 "syscall" true false);
               OStart (fail_at 0 (AOpen false))]).
  specialize (H ops (world old) (L "/dev/sdb")).
  assert (X : dev1 (L "/dev/sdb") <> None) by (vm_compute; discriminate).
  specialize (H X).
  assert (F : forall d, In d (disks (s_config (run1 ops (fresh (world old))))) -> checked d).
  { intros d. vm_compute. intros [<-|[<-|[]]]; left; reflexivity. }
  specialize (H F). vm_compute in H. discriminate.
Qed.

(* A disk without a size that has never grown leaves the file as it was. *)
Theorem C106_size_zero_refuted :
  ~ (forall ops f l i o, s_manager (run1 ops (fresh f)) = Some l -> nth_error l i = Some o ->
       on_file (o_disk o) -> dev1 (path (o_disk o)) = None ->
       alone dev1 (disks (s_config (run1 ops (fresh f)))) i (path (o_disk o)) ->
       unlink_on_open (o_disk o) = false -> delete_on_exit (o_disk o) = false ->
       (0 <= size (o_disk o))%Z ->
       finish1 (run1 ops (fresh f)) (path (o_disk o)) = Some (size (o_disk o))).
Proof.
  intros H.
  set (ops := [OAdd (mk "/a" 0 "syscall" false false); OStart good]).
  assert (M : exists l o, s_manager (run1 ops (fresh (world old))) = Some l /\ nth_error l 0 = Some o
    /\ path (o_disk o) = L "/a" /\ io_impl (o_disk o) = L "syscall" /\ delete_on_exit (o_disk o) = false
    /\ unlink_on_open (o_disk o) = false /\ size (o_disk o) = 0%Z)
    by (vm_compute; eexists; eexists; split; [reflexivity|]; split; [reflexivity|]; auto 10).
  destruct M as (l & o & M & N & P & I & D & U & Z).
  specialize (H ops (world old) l 0 o M N (or_introl (or_introl I))).
  rewrite P, Z in H. specialize (H eq_refl).
  assert (A : alone dev1 (disks (s_config (run1 ops (fresh (world old))))) 0 (L "/a")).
  { intros j d J X.
    assert (LD : length (disks (s_config (run1 ops (fresh (world old))))) = 1) by (vm_compute; reflexivity).
    assert (j < 1) by (rewrite <- LD; apply nth_error_Some; congruence). lia. }
  specialize (H A U D (Z.le_refl 0)). vm_compute in H. discriminate.
Qed.

Print Assumptions C105_counter_refuted.
Print Assumptions C105_same_path_refuted.
Print Assumptions C105_failure_files_refuted.
Print Assumptions C106_blocks_refuted.
Print Assumptions C106_never_started_refuted.
Print Assumptions C106_memory_refuted.
Print Assumptions C106_mmap_device_refuted.
Print Assumptions C106_failed_device_refuted.
Print Assumptions C106_size_zero_refuted.
