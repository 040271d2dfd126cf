(* C104: which members of the library's objects are free of data races. *)
From Coq Require Import List Arith Lia Bool.
From Verif Require LockModel LockProofs.
From Verif Require Import RaceModel RaceSpec RaceProofs.
Import LockModel(mtx, Mtx, class(..), single(..)).
Import ListNotations.

(* No execution of any functions by any number of threads has a data race on a
   protected member. *)
Theorem C104_protected st x :
  reach every st -> protected (vmember x) -> ~ race st x.
Proof.
  intros Hr Hp (i & j & w & Hij & Hi & Hj). apply Hij.
  assert (HG : exists m, g_protected x = Some m).
  { destruct x as [[] o]; cbn in Hp; try contradiction; eexists; reflexivity. }
  destruct HG as [m Hm].
  eapply (exclusive every G_every ok_every st x true w m); eauto;
    unfold G_every; rewrite Hm; reflexivity.
Qed.
Print Assumptions C104_protected.

(* Nor on the statistics as long as nobody reads them. *)
Theorem C104_statistics st x :
  reach usual st -> statistic (vmember x) -> ~ race st x.
Proof.
  intros Hr Hp (i & j & w & Hij & Hi & Hj). apply Hij.
  assert (HG : exists m, forall w, G_usual x w = Some m).
  { destruct x as [[] o]; cbn in Hp; try contradiction; eexists; intros []; reflexivity. }
  destruct HG as [m Hm].
  eapply (exclusive usual G_usual (fun p => ok_usual G_usual p (or_intror eq_refl))
            st x true w m); eauto.
Qed.
Print Assumptions C104_statistics.

(* Two threads never write at once a member of the statistics, the size of a
   memory file or the pointer of a singleton. *)
Theorem C104_writes st x :
  reach every st -> write_protected (vmember x) -> ~ write_race st x.
Proof.
  intros Hr Hp (i & j & Hij & Hi & Hj). apply Hij.
  assert (HG : exists m, G_every x true = Some m).
  { destruct x as [[] o]; cbn in Hp;
      try (exfalso; destruct Hp as [[]|[[]|[Hp|[s0 Hp]]]]; discriminate);
      eexists; reflexivity. }
  destruct HG as [m Hm].
  eapply (exclusive every G_every ok_every st x true true m); eauto.
Qed.
Print Assumptions C104_writes.

(* A block allocator on its own is safe as long as nobody asks for its sizes. *)
Theorem C104_allocator st d :
  reach alone st -> ~ race st (Var MFree d).
Proof.
  intros Hr (i & j & w & Hij & Hi & Hj). apply Hij.
  eapply (exclusive alone G_alone ok_alone st (Var MFree d) true w (Mtx CAlloc d)); eauto.
Qed.
Print Assumptions C104_allocator.

(* ---- Concrete executions. ---- *)

(* At an access to the member, a write or not. *)
Definition is_at (x : member) (b : bool) (v : var) (w : bool) : bool :=
  Bool.eqb b w &&
  match x, vmember v with
  | MInst s, MInst s' =>
      match s, s' with
      | SBm, SBm | SCfg, SCfg | SDq, SDq | SStats, SStats => true | _, _ => false end
  | MError, MError | MFile, MFile | MCb, MCb | MMemSize, MMemSize | MFsR, MFsR | MStR, MStR
  | MRun, MRun | MDev, MDev | MFpb, MFpb | MFree, MFree | MQr, MQr => true
  | _, _ => false
  end.

(* Threads 0 and 1 run p0 and p1, each with its choices, and stop where told. *)
Definition two (p0 p1 : prog) (c0 c1 : list choice) (s0 s1 : var -> bool -> bool)
  : list (nat * choice) :=
  let st := [[Do p0]; [Do p1]] in
  let a := fill 300 s0 0 st c0 in
  match run st a with
  | Some st1 => (a ++ fill 300 s1 1 st1 c1)%list
  | None => a
  end.

Lemma started (E : prog -> Prop) p0 p1 : E p0 -> E p1 -> reach E [[Do p0]; [Do p1]].
Proof.
  intros H0 H1.
  apply (run_reach E [(0, Call p0); (1, Call p1)] (repeat [] 2));
    [|apply spawned|reflexivity].
  cbn. intros i p [Hp|[Hp|[]]]; injection Hp as <- <-; auto.
Qed.

Definition no_call (cs : list (nat * choice)) : bool :=
  forallb (fun c => match c with (_, Call _) => false | _ => true end) cs.

Lemma run_two (E : prog -> Prop) p0 p1 cs st :
  E p0 -> E p1 -> no_call cs = true -> run [[Do p0]; [Do p1]] cs = Some st -> reach E st.
Proof.
  intros H0 H1 Hn Hx. eapply run_reach; [|apply (started E p0 p1 H0 H1)|exact Hx].
  intros i p Hp. unfold no_call in Hn. rewrite forallb_forall in Hn.
  specialize (Hn _ Hp). discriminate.
Qed.

(* What the two threads are about to do. *)
Definition heads (st : option sys) : list (option (var * bool)) :=
  match st with
  | Some st => map (fun k => match k with Do (Acc x w) :: _ => Some (x, w) | _ => None end) st
  | None => []
  end.

Lemma race_two (E : prog -> Prop) p0 p1 cs x w :
  E p0 -> E p1 -> no_call cs = true ->
  heads (run [[Do p0]; [Do p1]] cs) = [Some (x, true); Some (x, w)] ->
  exists st, reach E st /\ race st x.
Proof.
  intros H0 H1 Hn Hh. destruct (run [[Do p0]; [Do p1]] cs) as [st|] eqn:Hx; [|discriminate].
  exists st. split; [exact (run_two E p0 p1 cs st H0 H1 Hn Hx)|].
  destruct st as [|[|[[]|m|m] k0] [|[|[[]|m1|m1] k1] [|]]]; cbn in Hh; try discriminate.
  injection Hh as -> -> -> ->. exists 0, 1, w. split; [lia|].
  split; eexists; reflexivity.
Qed.

Lemma races (E : prog -> Prop) p0 p1 c0 c1 s0 s1 x w :
  E p0 -> E p1 -> no_call (two p0 p1 c0 c1 s0 s1) = true ->
  heads (run [[Do p0]; [Do p1]] (two p0 p1 c0 c1 s0 s1)) = [Some (x, true); Some (x, w)] ->
  exists st, reach E st /\ race st x.
Proof. intros. eapply (race_two E p0 p1 (two p0 p1 c0 c1 s0 s1)); eauto. Qed.

Ltac callable :=
  first [ solve [repeat constructor] | apply e_snapshot | apply e_stats_get | apply g_get ].

Ltac racing E p0 p1 c0 c1 x w :=
  eapply (races E p0 p1 c0 c1 (is_at x true) (is_at x w) (Var x _) w);
  [ callable | callable | vm_compute; reflexivity | vm_compute; reflexivity ].

(* Thread 0 is in qwqr's add_request, thread 1 wants to push to the same
   queue and has to wait; both write to it, one after the other. *)
Example C104_case :
  exists st, reach every st /\ protected MQr /\
    about_to st 0 (Var MQr 5) true /\
    (exists k, nth_error st 1 = Some (Do (With (Mtx CDq 0)
       (rd MQueues 0 ;; Or Skip (new_queue 5 ;; wr MQueues 0) ;;
        Or Skip (Or (qwqr_add 5) (aio_add 5)))) :: k)) /\
    ~ race st (Var MQr 5).
Proof.
  assert (HX : exists st,
    run [[Do (submit 5)]; [Do (submit 5)]]
      (two (submit 5) (submit 5) [L; L; R; L; L; L] [L] (is_at MQr true) (fun _ _ => false)) = Some st /\
    about_to st 0 (Var MQr 5) true /\
    (exists k, nth_error st 1 = Some (Do (With (Mtx CDq 0)
       (rd MQueues 0 ;; Or Skip (new_queue 5 ;; wr MQueues 0) ;;
        Or Skip (Or (qwqr_add 5) (aio_add 5)))) :: k))).
  { eexists. split; [vm_compute; reflexivity|].
    split; eexists; vm_compute; reflexivity. }
  destruct HX as (st & Hx & H0 & H1). exists st.
  assert (Hr : reach every st).
  { eapply (run_two every (submit 5) (submit 5)); [| | |exact Hx];
      [apply e_usual, u_submit | apply e_usual, u_submit | vm_compute; reflexivity]. }
  split; [exact Hr|]. split; [exact I|]. split; [exact H0|]. split; [exact H1|].
  apply C104_protected; [exact Hr|exact I].
Qed.

(* ---- Members with data races. ---- *)

(* A singleton's pointer is written while get_instance of another thread reads it. *)
Theorem C104_singleton_refuted s :
  exists st, reach usual st /\ race st (Var (MInst s) 0).
Proof.
  destruct s.
  - racing usual (get_bm ;; bm_new) (get_bm ;; bm_new) [R; R; L; L] (@nil choice) (MInst SBm) false.
  - racing usual get_cfg get_cfg [R; R] (@nil choice) (MInst SCfg) false.
  - racing usual (get_dq ;; dq_other) (get_dq ;; dq_other) [R; R; L] (@nil choice) (MInst SDq) false.
  - racing usual get_stats get_stats [R; R] (@nil choice) (MInst SStats) false.
Qed.
Print Assumptions C104_singleton_refuted.

(* file_ of a request is cleared by the thread that serves it while cancel reads it. *)
Theorem C104_file_refuted :
  exists st, reach usual st /\ race st (Var MFile 7).
Proof.
  racing usual (serve 7 0) (req_cancel 3 7) [R; L; L; L; L; L; L; L; R] (@nil choice) MFile false.
Qed.
Print Assumptions C104_file_refuted.

(* error_ of a request is written by the thread that serves it while poll reads it. *)
Theorem C104_error_refuted :
  exists st, reach usual st /\ race st (Var MError 7).
Proof.
  racing usual (serve 7 0) (poll 7) [R; L; L; L; L; R] (@nil choice) MError false.
Qed.
Print Assumptions C104_error_refuted.

(* The size of a memory file is set while size reads it. *)
Theorem C104_memory_size_refuted :
  exists st, reach usual st /\ race st (Var MMemSize 7).
Proof. racing usual (mem_op 7) (mem_size 7) [R] (@nil choice) MMemSize false. Qed.
Print Assumptions C104_memory_size_refuted.

(* The counters of a file are written while a snapshot of the statistics reads them. *)
Theorem C104_snapshot_refuted :
  exists st, reach every st /\ race st (Var MFsR 2).
Proof.
  racing every (serve 7 2) snapshot_files [R; L; L] [L; R; O 2] MFsR false.
Qed.
Print Assumptions C104_snapshot_refuted.

(* The times of parallel transfers are written while get_pread_time reads them. *)
Theorem C104_stats_refuted :
  exists st, reach every st /\ race st (Var MStR 0).
Proof. racing every (serve 7 2) stats_get [R; L; L; L] [L; R; L] MStR false. Qed.
Print Assumptions C104_stats_refuted.

(* A timer is started while another thread reads it. *)
Theorem C104_timer_refuted :
  exists st, reach usual st /\ race st (Var MRun 4).
Proof. racing usual (timer_start 4) (timer_read 4) (@nil choice) [R] MRun false. Qed.
Print Assumptions C104_timer_refuted.

(* Two calls of create_file may take the same device number: both are about to
   write the counter. *)
Theorem C104_device_refuted :
  exists st, reach usual st /\ race st (Var MDev 0).
Proof. racing usual create_file create_file [L; R] [L; R] MDev true. Qed.
Print Assumptions C104_device_refuted.

(* The size of a fileperblock_file is set while size reads it. *)
Theorem C104_fileperblock_refuted :
  exists st, reach usual st /\ race st (Var MFpb 4).
Proof. racing usual (fpb_size 4) (fpb_size 4) [L] [R] MFpb false. Qed.
Print Assumptions C104_fileperblock_refuted.

(* A block allocator on its own races with the question how much is free. *)
Theorem C104_allocator_refuted :
  exists st, reach alone_get st /\ race st (Var MFree 4).
Proof. racing alone_get (alloc_delete 4) (alloc_get 4) (@nil choice) (@nil choice) MFree false. Qed.
Print Assumptions C104_allocator_refuted.

(* The posting thread fills the control block of a request that cancel hands
   to the kernel: the one has given back the mutex that the other has. *)
Theorem C104_control_block_refuted :
  exists st, reach usual st /\ race st (Var MCb 7).
Proof.
  racing usual (aio_post 0) (req_cancel_aio 0 7 1)
    [R; L; R; L; R; L; R; O 7] [L; L; R; R] MCb false.
Qed.
Print Assumptions C104_control_block_refuted.
