(** Theorems about the disk block allocator (properties C01-C10, C65). *)
From Coq Require Import ZArith List Bool Lia Permutation.
From Verif Require Import AllocModel AllocSpec AllocProofs AllocInv AllocMain AllocConcModel AllocConcProofs.
Import ListNotations.
Local Open Scope Z_scope.

(** A concrete history used as the non-trivial case: allocate blocks of
    different sizes, delete some so that the free space is fragmented, allocate
    again (this batch is split over several regions), delete again. *)
Definition demo_ops : list aop :=
  [OpNew [4; 4; 2; 6; 3]; OpDelete 1; OpDelete 2; OpNew [4; 5]; OpNew [100]; OpDelete 0].
Definition demo_alloc : allocator :=
  match new_allocator 20 false with Ret a => a | _ => mk_allocator [] 0 0 0 0 false end.
Definition demo : client := client_run (mk_client demo_alloc []) demo_ops.

Example demo_reachable : reachable 20 false demo.
Proof.
  split; [lia|]. exists demo_alloc, demo_ops. split; [reflexivity|]. split; [|reflexivity].
  intros sizes Hin. unfold demo_ops in Hin. simpl in Hin.
  repeat destruct Hin as [Hin|Hin]; try discriminate; try tauto;
    inversion Hin; subst; (split; [discriminate|repeat constructor; lia]).
Qed.
Example demo_value : cl_live demo = [(8, 2); (16, 3); (4, 4); (10, 5)] /\
  free_space (cl_alloc demo) = [(0, 4); (15, 1); (19, 1)] /\ disk_bytes (cl_alloc demo) = 20.
Proof. vm_compute. auto. Qed.

(** C01 *)
Theorem C01_live_blocks_disjoint : forall cfg grow c, reachable cfg grow c ->
  pairwise_disjoint (cl_live c) /\
  (forall r, In r (cl_live c) -> 0 < snd r /\ inside (disk_bytes (cl_alloc c)) r) /\
  storage_size (cl_alloc c) = disk_bytes (cl_alloc c).
Proof. exact live_disjoint. Qed.
Print Assumptions C01_live_blocks_disjoint.
Example C01_case : (length (cl_live demo) > 1)%nat /\ reachable 20 false demo.
Proof. split; [vm_compute; lia|exact demo_reachable]. Qed.

(** C02 *)
Theorem C02_counters_exact : forall cfg grow c, reachable cfg grow c ->
  let a := cl_alloc c in
  used_bytes a = total_size (cl_live c) /\
  free_bytes a + total_size (cl_live c) = disk_bytes a /\
  free_bytes a = total_size (free_space a) /\
  0 <= free_bytes a /\
  (forall x, covered (free_space a) x <-> 0 <= x < disk_bytes a /\ ~ covered (cl_live c) x).
Proof. exact counters_exact. Qed.
Print Assumptions C02_counters_exact.
Example C02_case : used_bytes (cl_alloc demo) = 14 /\ free_bytes (cl_alloc demo) = 6.
Proof. vm_compute. auto. Qed.

(** C03 *)
Theorem C03_free_list_coalesced : forall cfg grow c, reachable cfg grow c ->
  coalesced_from (-1) (free_space (cl_alloc c)) /\
  (cl_live c = [] -> 0 < disk_bytes (cl_alloc c) ->
     free_space (cl_alloc c) = [(0, disk_bytes (cl_alloc c))]).
Proof. exact coalesced_always. Qed.
Print Assumptions C03_free_list_coalesced.

(** After deleting everything, any batch that fits the disk is served back to
    back from offset 0. *)
Theorem C03_empty_disk_serves_contiguously : forall cfg grow c sizes, reachable cfg grow c ->
  cl_live c = [] -> good_batch sizes -> fold_right Z.add 0 sizes <= disk_bytes (cl_alloc c) ->
  exists a' offs, new_blocks (cl_alloc c) sizes = AllocOk a' offs /\
    back_to_back 0 sizes offs /\ disk_bytes a' = disk_bytes (cl_alloc c).
Proof.
  intros cfg grow c sizes H E Hg Hle.
  assert (0 < disk_bytes (cl_alloc c)).
  { pose proof (sum_sizes_pos _ Hg) as K. rewrite sum_fold in K. lia. }
  destruct (coalesced_always _ _ _ H) as [_ K]. specialize (K E H0).
  destruct (contiguous_first_fit cfg grow c sizes 0 (disk_bytes (cl_alloc c)) H Hg) as (a' & offs & A & B & C & _).
  - rewrite K. simpl; auto.
  - auto.
  - rewrite K. simpl. intros p' s' [Ei|[]]. inversion Ei; subst. lia.
  - eauto.
Qed.
Print Assumptions C03_empty_disk_serves_contiguously.

Definition demo_empty : client := client_run demo [OpDelete 2; OpDelete 0; OpDelete 1; OpDelete 0].
Example demo_empty_reachable : reachable 20 false demo_empty.
Proof.
  split; [lia|]. exists demo_alloc, (demo_ops ++ [OpDelete 2; OpDelete 0; OpDelete 1; OpDelete 0]).
  split; [reflexivity|]. split.
  - intros sizes Hin. apply in_app_or in Hin. destruct Hin as [Hin|Hin].
    + unfold demo_ops in Hin. simpl in Hin.
      repeat destruct Hin as [Hin|Hin]; try discriminate; try tauto;
        inversion Hin; subst; (split; [discriminate|repeat constructor; lia]).
    + simpl in Hin. repeat destruct Hin as [Hin|Hin]; try discriminate; tauto.
  - unfold demo_empty, client_run. rewrite fold_left_app. reflexivity.
Qed.
Example C03_case : cl_live demo_empty = [] /\ free_space (cl_alloc demo_empty) = [(0, 20)].
Proof. vm_compute. auto. Qed.

(** C04 *)
Theorem C04_alloc_delete_identity : forall cfg grow c sizes a' offs l, reachable cfg grow c ->
  good_batch sizes ->
  new_blocks (cl_alloc c) sizes = AllocOk a' offs ->
  disk_bytes a' = disk_bytes (cl_alloc c) ->
  Permutation l (combine offs sizes) ->
  delete_all a' l = Ret (cl_alloc c).
Proof. exact alloc_delete_identity. Qed.
Print Assumptions C04_alloc_delete_identity.
Example C04_case : exists a', new_blocks (cl_alloc demo) [1; 3; 1] = AllocOk a' [0; 1; 15] /\
  disk_bytes a' = disk_bytes (cl_alloc demo) /\
  delete_all a' [(1, 3); (15, 1); (0, 1)] = Ret (cl_alloc demo).
Proof. eexists. split; [vm_compute; reflexivity|]. split; vm_compute; reflexivity. Qed.

(** If the file did grow, everything but the extension is restored. *)
Theorem C04_alloc_delete_after_growth : forall cfg grow c sizes a' offs l, reachable cfg grow c ->
  good_batch sizes ->
  new_blocks (cl_alloc c) sizes = AllocOk a' offs ->
  Permutation l (combine offs sizes) ->
  exists a2, delete_all a' l = Ret a2 /\ disk_bytes a2 = disk_bytes a' /\
    free_bytes a2 = free_bytes (cl_alloc c) + (disk_bytes a' - disk_bytes (cl_alloc c)) /\
    forall x, covered (free_space a2) x <->
              covered (free_space (cl_alloc c)) x \/ disk_bytes (cl_alloc c) <= x < disk_bytes a'.
Proof. exact alloc_delete_growth. Qed.
Print Assumptions C04_alloc_delete_after_growth.
Example C04_growth_case : exists a', new_blocks (cl_alloc demo) [5] = AllocOk a' [19] /\
  disk_bytes a' = 25.
Proof. eexists. split; [vm_compute; reflexivity|]. vm_compute; reflexivity. Qed.

(** C05 *)
Theorem C05_throws_iff_out_of_space : forall cfg grow c sizes, reachable cfg grow c ->
  good_batch sizes ->
  ((exists a', new_blocks (cl_alloc c) sizes = AllocThrow a') <->
     grow = false /\ free_bytes (cl_alloc c) < fold_right Z.add 0 sizes) /\
  (forall a', new_blocks (cl_alloc c) sizes = AllocThrow a' -> a' = cl_alloc c).
Proof. intros cfg grow c sizes. rewrite <- sum_fold. apply throws_iff. Qed.
Print Assumptions C05_throws_iff_out_of_space.
Example C05_case : new_blocks (cl_alloc demo) [4; 3] = AllocThrow (cl_alloc demo) /\
  exists a' o, new_blocks (cl_alloc demo) [2; 2; 1; 1] = AllocOk a' o.
Proof. split; [vm_compute; reflexivity|]. do 2 eexists. vm_compute. reflexivity. Qed.

(** C06: exact characterisation of growth without autogrow. *)
Theorem C06_growth_iff_fragmented : forall cfg c sizes a' offs, reachable cfg false c ->
  good_batch sizes ->
  new_blocks (cl_alloc c) sizes = AllocOk a' offs ->
  (disk_bytes a' <> disk_bytes (cl_alloc c) <->
   exists k s, nth_error sizes k = Some s /\
     no_hole (cl_live c ++ firstn k (combine offs sizes)) (disk_bytes (cl_alloc c)) s) /\
  disk_bytes (cl_alloc c) <= disk_bytes a' <= disk_bytes (cl_alloc c) + fold_right Z.add 0 sizes.
Proof. intros. rewrite <- sum_fold. eapply grows_iff; eauto. Qed.
Print Assumptions C06_growth_iff_fragmented.

(** "Without autogrow the file never exceeds its configured size" is false. *)
Theorem C06_never_grows_refuted : exists cfg c sizes a' offs, reachable cfg false c /\
  good_batch sizes /\ new_blocks (cl_alloc c) sizes = AllocOk a' offs /\ cfg < disk_bytes a'.
Proof.
  exists 20, demo, [5]. do 2 eexists. split; [exact demo_reachable|].
  split; [split; [discriminate|repeat constructor; lia]|].
  split; [vm_compute; reflexivity|]. vm_compute; reflexivity.
Qed.
Print Assumptions C06_never_grows_refuted.

(** C65: with one block size, and a configured size that is a multiple of it, a
    disk without autogrow keeps its size and all offsets are multiples. *)
Theorem C65_uniform_blocks_never_grow : forall b cfg grow ops a0, 0 < b -> 0 <= cfg -> (b | cfg) ->
  new_allocator cfg grow = Ret a0 ->
  (forall sizes, In (OpNew sizes) ops -> sizes <> [] /\ forall s, In s sizes -> s = b) ->
  let c := client_run (mk_client a0 []) ops in
  (forall o s, In (o, s) (cl_live c) -> (b | o) /\ (b | s)) /\
  (grow = false -> disk_bytes (cl_alloc c) = cfg).
Proof. exact reachable_mult. Qed.
Print Assumptions C65_uniform_blocks_never_grow.
Example C65_case : (4 | 16) /\ (exists a0, new_allocator 16 false = Ret a0 /\
  cl_live (client_run (mk_client a0 []) [OpNew [4;4;4]; OpDelete 1; OpNew [4;4]]) =
    [(0,4); (8,4); (4,4); (12,4)]).
Proof. split; [exists 4; reflexivity|]. eexists. split; [vm_compute; reflexivity|]. vm_compute; reflexivity. Qed.

(** C07 *)
Theorem C07_bad_delete_detected : forall cfg grow c pos size, reachable cfg grow c ->
  0 <= pos -> 0 < size ->
  (delete_block (cl_alloc c) pos size = Throw <->
   exists x, pos <= x < pos + size /\ covered (free_space (cl_alloc c)) x) /\
  (delete_block (cl_alloc c) pos size <> AssertFail).
Proof.
  intros cfg grow c pos size H Hp Hs.
  destruct (delete_throws_iff cfg grow c pos size H Hp Hs) as [A B]. split; auto.
  rewrite A. unfold overlaps, in_range; simpl. firstorder.
Qed.
Print Assumptions C07_bad_delete_detected.
Theorem C07_delete_twice_throws : forall cfg grow c i o s, reachable cfg grow c ->
  nth_error (cl_live c) i = Some (o, s) ->
  exists a', delete_block (cl_alloc c) o s = Ret a' /\ delete_block a' o s = Throw.
Proof. exact delete_twice_throws. Qed.
Print Assumptions C07_delete_twice_throws.
Example C07_case : delete_block (cl_alloc demo) 14 4 = Throw /\
  nth_error (cl_live demo) 2 = Some (4, 4).
Proof. vm_compute. auto. Qed.

(** C08 *)
Theorem C08_serves_every_block : forall cfg grow c sizes, reachable cfg grow c -> good_batch sizes ->
  (exists a' offs, new_blocks (cl_alloc c) sizes = AllocOk a' offs /\
                   length offs = length sizes) \/
  new_blocks (cl_alloc c) sizes = AllocThrow (cl_alloc c).
Proof. exact serves_all. Qed.
Print Assumptions C08_serves_every_block.
(** The recursion depth never exceeds the number of blocks: more fuel does not
    change the result, in any state and for any batch. *)
Theorem C08_recursion_well_founded : forall f1 f2 a sizes,
  (length sizes < f1)%nat -> (length sizes < f2)%nat ->
  new_blocks_fuel f1 a sizes = new_blocks_fuel f2 a sizes.
Proof. exact fuel_irrelevant. Qed.
Print Assumptions C08_recursion_well_founded.
Example C08_case : exists a', new_blocks (cl_alloc demo) [1; 1; 1; 1; 1; 1] = AllocOk a' [0; 1; 2; 3; 15; 19].
Proof. eexists. vm_compute. reflexivity. Qed.

(** The precondition "non-empty batch" is needed: an empty batch on a full disk
    fails the assertion [size > 1] of line 253 (release builds recurse for ever). *)
Theorem C08_empty_batch_refuted : exists cfg grow c, reachable cfg grow c /\
  new_blocks (cl_alloc c) [] = AllocAssert.
Proof.
  exists 0, false, (mk_client (mk_allocator [] 0 0 0 0 false) []). split; [|reflexivity].
  split; [lia|]. exists (mk_allocator [] 0 0 0 0 false), []. split; [reflexivity|].
  split; [|reflexivity]. intros ? [].
Qed.
Print Assumptions C08_empty_batch_refuted.

(** C09 *)
Theorem C09_contiguous_first_fit : forall cfg grow c sizes p s, reachable cfg grow c ->
  good_batch sizes ->
  In (p, s) (free_space (cl_alloc c)) -> fold_right Z.add 0 sizes <= s ->
  (forall p' s', In (p', s') (free_space (cl_alloc c)) -> p' < p ->
     s' < fold_right Z.add 0 sizes) ->
  exists a' offs, new_blocks (cl_alloc c) sizes = AllocOk a' offs /\
    back_to_back p sizes offs /\ disk_bytes a' = disk_bytes (cl_alloc c) /\
    (forall r, r <> (p, s) -> In r (free_space (cl_alloc c)) -> In r (free_space a')) /\
    (forall r, In r (free_space a') -> In r (free_space (cl_alloc c)) \/
       r = (p + fold_right Z.add 0 sizes, s - fold_right Z.add 0 sizes)) /\
    (forall x, covered (free_space a') x <->
       covered (free_space (cl_alloc c)) x /\ ~ in_range x (p, fold_right Z.add 0 sizes)).
Proof. exact contiguous_first_fit. Qed.
Print Assumptions C09_contiguous_first_fit.
Example C09_case : In (0, 4) (free_space (cl_alloc demo)) /\
  exists a', new_blocks (cl_alloc demo) [1; 2] = AllocOk a' [0; 1].
Proof. split; [vm_compute; auto|]. eexists. vm_compute. reflexivity. Qed.

(** C10 *)
Theorem C10_concurrent_allocation_safe : forall cfg grow a progs sched,
  0 <= cfg -> new_allocator cfg grow = Ret a ->
  (forall p sizes, In p progs -> In (TNew sizes) p -> good_batch sizes) ->
  let s := sys_run (sys_init a progs) sched in
  sys_bad s = false /\
  pairwise_disjoint (sys_blocks s) /\
  (forall r, In r (sys_blocks s) -> 0 < snd r /\ inside (disk_bytes (sys_alloc s)) r) /\
  used_bytes (sys_alloc s) = total_size (sys_blocks s) /\
  free_bytes (sys_alloc s) = total_size (free_space (sys_alloc s)) /\
  coalesced_from (-1) (free_space (sys_alloc s)) /\
  (forall x, covered (free_space (sys_alloc s)) x <->
             0 <= x < disk_bytes (sys_alloc s) /\ ~ covered (sys_blocks s) x).
Proof. exact conc_safe. Qed.
Print Assumptions C10_concurrent_allocation_safe.

(** Every interleaving terminates: a call for n blocks needs at most 2n-1
    critical sections whatever the other threads do. *)
Theorem C10_concurrent_allocation_terminates : forall cfg grow a progs sched,
  0 <= cfg -> new_allocator cfg grow = Ret a ->
  (forall p sizes, In p progs -> In (TNew sizes) p -> good_batch sizes) ->
  busy_schedule (sys_init a progs) sched ->
  (length sched <= list_sum (map (fun p => list_sum (map op_work p)) progs))%nat.
Proof.
  intros cfg grow a progs sched Hc E Hp Hb.
  assert (H : sys_inv cfg grow (sys_init a progs)).
  { apply sys_init_inv; auto. intros p Hin. apply Forall_forall. intros [z|i] Ho; simpl; eauto. }
  pose proof (busy_bound _ _ _ _ H Hb) as K. revert K.
  unfold sys_work, sys_init. simpl. rewrite map_map.
  replace (map (fun x => thread_work {| th_prog := x; th_pending := []; th_cur := [] |}) progs)
    with (map (fun p => list_sum (map op_work p)) progs); auto.
  apply map_ext. intros p. unfold thread_work. simpl. lia.
Qed.
Print Assumptions C10_concurrent_allocation_terminates.

(** The same batch that can never fail half way alone can do so when another
    thread allocates in between, and its first block is then lost. *)
Theorem C10_atomic_failure_refuted : exists a progs sched,
  new_allocator 4 false = Ret a /\
  (forall p sizes, In p progs -> In (TNew sizes) p -> good_batch sizes) /\
  sys_lost (sys_run (sys_init a progs) sched) = [(0, 1)].
Proof.
  eexists. exists [[TNew [1;1;1;1]; TDelete 0; TDelete 1; TNew [1]]; [TNew [1; 1]]].
  exists [0;0;0;0;1;1;1;0;0;1]%nat. split; [reflexivity|]. split.
  - intros p sizes Hp Hs. simpl in Hp. repeat destruct Hp as [<-|Hp]; simpl in Hs;
      repeat destruct Hs as [Hs|Hs]; try discriminate; try tauto;
      inversion Hs; subst; (split; [discriminate|repeat constructor; lia]).
  - vm_compute. reflexivity.
Qed.
Print Assumptions C10_atomic_failure_refuted.
