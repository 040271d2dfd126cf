(** Properties C11-C16 of the block manager. *)
From Coq Require Import ZArith List Bool Lia.
From Verif Require Import AllocModel AllocSpec ManagerModel ManagerSpec ManagerProofs ManagerMain.
Import ListNotations.
Local Open Scope Z_scope.

(** A concrete world used by the examples: three disks of 100, 50 and 0 bytes,
    the last one growing; striping over the three disks. *)
Definition cfgs3 : list (Z * bool) := [(100, false); (50, false); (0, true)].
Definition stripe3 (i : nat) : nat := Nat.modulo i 3.

Definition run_ops (m : manager) (ops : list mop) : option mclient :=
  fold_left (fun oc o => match oc with
    | Some c => match mclient_step c o with StepOk c' | StepThrow c' => Some c' | StepBad => None end
    | None => None end) ops (Some (start m)).

Definition world (cfgs : list (Z * bool)) (ops : list mop) : mclient :=
  match new_manager cfgs with
  | Ret m => match run_ops m ops with Some c => c | None => start m end
  | _ => start (mk_manager [] 0 0 0)
  end.

Lemma run_ops_reach : forall n ops c c', Forall (valid_mop n) ops ->
  fold_left (fun oc o => match oc with
    | Some c => match mclient_step c o with StepOk c' | StepThrow c' => Some c' | StepBad => None end
    | None => None end) ops (Some c) = Some c' -> mhistory n true c ops c'.
Proof.
  intros n ops. induction ops as [|o ops IH]; intros c c' Hv H; simpl in H.
  - inversion H; constructor.
  - inversion Hv; subst. destruct (mclient_step c o) eqn:E.
    + eapply mh_ok; eauto.
    + eapply mh_throw; eauto.
    + exfalso. clear - H. induction ops; simpl in H; [discriminate|auto].
Qed.

Definition world_ok (cfgs : list (Z * bool)) (ops : list mop) : bool :=
  match new_manager cfgs with
  | Ret m => match run_ops m ops with Some _ => true | None => false end
  | _ => false
  end.

Lemma world_reachable : forall cfgs ops, (forall s g, In (s, g) cfgs -> 0 <= s) ->
  Forall (valid_mop (length cfgs)) ops -> world_ok cfgs ops = true ->
  mreachable cfgs true (world cfgs ops).
Proof.
  intros cfgs ops H Hv Hw. split; auto. unfold world_ok, world in *.
  destruct (new_manager cfgs) as [m| |]; try discriminate.
  destruct (run_ops m ops) as [c|] eqn:E; [|discriminate].
  exists m, ops. split; auto. apply run_ops_reach; auto.
Qed.

Lemma stripe3_lt : forall i, (stripe3 i < 3)%nat.
Proof. intros; apply PeanoNat.Nat.mod_upper_bound; lia. Qed.

Ltac finite_in := repeat match goal with
  | H : In _ _ |- _ => simpl in H
  | H : _ \/ _ |- _ => destruct H as [H|H]
  | H : False |- _ => destruct H
  | H : (_, _) = (_, _) |- _ => inversion H; clear H
  end.
Ltac reach := apply world_reachable; [intros; finite_in; lia| |vm_compute; reflexivity];
  repeat (apply Forall_cons || apply Forall_nil); try exact I;
  (split; [intros; try apply stripe3_lt; simpl; lia|intros; finite_in; lia]).

Definition ops3 : list mop :=
  [MNew 20 stripe3 0 [20; 20; 20; 20]; MNew 0 stripe3 1 [30; 7; 45]; MDelete 1; MDelete 3].
Definition demo3 : mclient := world cfgs3 ops3.

Lemma demo3_reachable : mreachable cfgs3 true demo3.
Proof. unfold demo3. reach. Qed.

(** ** C11 *)
Theorem C11_managed_blocks_disjoint : forall cfgs may_throw c i j bi bj,
  mreachable cfgs may_throw c -> i <> j ->
  nth_error (mc_held c) i = Some bi -> nth_error (mc_held c) j = Some bj ->
  b_storage bi = b_storage bj -> disjoint (range_of bi) (range_of bj).
Proof. exact held_disjoint. Qed.
Print Assumptions C11_managed_blocks_disjoint.

Theorem C11_managed_blocks_inside : forall cfgs may_throw c b,
  mreachable cfgs may_throw c -> In b (mc_held c) ->
  exists d a, b_storage b = Managed d /\ nth_error (m_allocs (mc_m c)) d = Some a /\
    0 < b_size b /\ inside (disk_bytes a) (range_of b) /\
    forall x, in_range x (range_of b) -> ~ covered (free_space a) x.
Proof. exact held_inside. Qed.
Print Assumptions C11_managed_blocks_inside.

(** No call runs into a failed assertion or an out-of-range access, and
    deleting a held block always succeeds. *)
Theorem C11_no_undefined_behaviour : forall cfgs may_throw c o,
  mreachable cfgs may_throw c -> valid_mop (length cfgs) o -> mclient_step c o <> StepBad.
Proof. exact step_never_bad. Qed.
Print Assumptions C11_no_undefined_behaviour.

Theorem C11_delete_succeeds : forall cfgs may_throw c i,
  mreachable cfgs may_throw c -> exists c', mclient_step c (MDelete i) = StepOk c'.
Proof. exact step_delete_ok. Qed.
Print Assumptions C11_delete_succeeds.

(** Capacity is the free bytes plus the bytes of held blocks. *)
Theorem C11_bytes_accounted : forall cfgs may_throw c, mreachable cfgs may_throw c ->
  manager_total_bytes (mc_m c) = manager_free_bytes (mc_m c) + sum_bids (mc_held c).
Proof. exact manager_bytes. Qed.
Print Assumptions C11_bytes_accounted.

Example C11_case : mreachable cfgs3 true demo3 /\
  map (fun b => (b_storage b, range_of b)) (mc_held demo3) =
    [(Managed 0, (0, 20)); (Managed 2, (0, 20)); (Managed 0, (20, 20)); (Managed 2, (20, 7));
     (Managed 0, (40, 45))].
Proof. split; [exact demo3_reachable|]. vm_compute. reflexivity. Qed.

(** ** C12 *)
Theorem C12_current_allocation_fixed_size : forall cfgs may_throw m ops c,
  (forall s g, In (s, g) cfgs -> 0 <= s) -> new_manager cfgs = Ret m ->
  mhistory (length cfgs) may_throw (start m) ops c -> (forall o, In o ops -> fixed_size_op o) ->
  m_current (mc_m c) = sum_bids (mc_held c).
Proof. exact current_fixed. Qed.
Print Assumptions C12_current_allocation_fixed_size.

(** Exact value for mixed histories: too high by the bytes of the deleted
    variable-size blocks. *)
Theorem C12_current_allocation_exact : forall cfgs may_throw c, mreachable cfgs may_throw c ->
  m_current (mc_m c) = sum_bids (mc_held c) + mc_deleted0 c.
Proof. exact current_exact. Qed.
Print Assumptions C12_current_allocation_exact.

(** So the naive claim is false: one variable-size block, allocated and deleted. *)
Theorem C12_current_allocation_refuted : ~ (forall cfgs may_throw c, mreachable cfgs may_throw c ->
  m_current (mc_m c) = sum_bids (mc_held c)).
Proof.
  intros H. set (ops := [MNew 0 stripe3 0 [8]; MDelete 0]).
  assert (R : mreachable cfgs3 true (world cfgs3 ops)) by (unfold ops; reach).
  specialize (H _ _ _ R). vm_compute in H. discriminate.
Qed.
Print Assumptions C12_current_allocation_refuted.

Example C12_case : m_current (mc_m demo3) = 142 /\ sum_bids (mc_held demo3) = 112 /\ mc_deleted0 demo3 = 30.
Proof. vm_compute. auto. Qed.
Example C12_fixed_case : exists m, new_manager cfgs3 = Ret m /\
  let ops := [MNew 20 stripe3 0 [20; 20; 20]; MDelete 1] in
  (forall o, In o ops -> fixed_size_op o) /\
  option_map (fun c => m_current (mc_m c)) (run_ops m ops) = Some 40.
Proof.
  eexists. split; [reflexivity|]. split; [|vm_compute; reflexivity].
  intros o [<-|[<-|[]]]; simpl; auto. lia.
Qed.

(** ** C13 *)
Theorem C13_total_is_bytes_ever : forall cfgs may_throw c, mreachable cfgs may_throw c ->
  m_total (mc_m c) = mc_ever c.
Proof. exact total_exact. Qed.
Print Assumptions C13_total_is_bytes_ever.

Theorem C13_total_never_decreases : forall cfgs may_throw m ops1 ops2 c1 c2,
  (forall s g, In (s, g) cfgs -> 0 <= s) -> new_manager cfgs = Ret m ->
  mhistory (length cfgs) may_throw (start m) ops1 c1 ->
  mhistory (length cfgs) may_throw c1 ops2 c2 ->
  m_total (mc_m c1) <= m_total (mc_m c2).
Proof.
  intros cfgs t m ops1 ops2 c1 c2 H E H1 H2. eapply total_monotone; eauto.
  eapply history_inv; eauto. eapply start_inv; eauto.
Qed.
Print Assumptions C13_total_never_decreases.

(** Without throwing calls the maximum is the maximum of current_allocation
    over all prefixes of the history. *)
Theorem C13_maximum_is_high_water_mark : forall cfgs m ops c,
  (forall s g, In (s, g) cfgs -> 0 <= s) -> new_manager cfgs = Ret m ->
  mhistory (length cfgs) false (start m) ops c ->
  (forall ops1 ops2 c1, ops = ops1 ++ ops2 -> mhistory (length cfgs) false (start m) ops1 c1 ->
     m_current (mc_m c1) <= m_maximum (mc_m c)) /\
  (exists ops1 ops2 c1, ops = ops1 ++ ops2 /\ mhistory (length cfgs) false (start m) ops1 c1 /\
     m_current (mc_m c1) = m_maximum (mc_m c)).
Proof. exact maximum_exact. Qed.
Print Assumptions C13_maximum_is_high_water_mark.

Example C13_case : m_total (mc_m demo3) = 162 /\ m_maximum (mc_m demo3) = 162 /\ m_current (mc_m demo3) = 142.
Proof. vm_compute. auto. Qed.

(** With a throwing call, current_allocation can exceed maximum_allocation:
    the blocks placed before the throw are counted, the maximum is not updated. *)
Definition leak_ops : list mop := [MNew 0 (fun i => Nat.min i 1) 0 [60; 200]].
Definition leak_world : mclient := world [(100, false); (100, false)] leak_ops.
Lemma leak_reachable : mreachable [(100, false); (100, false)] true leak_world.
Proof. unfold leak_world, leak_ops. reach. Qed.
Theorem C13_maximum_with_throw_refuted : ~ (forall cfgs c, mreachable cfgs true c ->
  m_current (mc_m c) <= m_maximum (mc_m c)).
Proof. intros H. specialize (H _ _ leak_reachable). vm_compute in H. apply H. reflexivity. Qed.
Print Assumptions C13_maximum_with_throw_refuted.

(** ** C14 *)
Theorem C14_disk_choice : forall cfgs may_throw c tsize f off sizes,
  mreachable cfgs may_throw c -> valid_mop (length cfgs) (MNew tsize f off sizes) ->
  exists disks, placement (mc_m c) f off sizes disks /\
  match manager_new_blocks (mc_m c) f off (map (fresh_bid tsize) sizes) with
  | MOk m' bids' =>
      ~ nowhere (mc_m c) disks sizes /\
      map b_storage bids' = map Managed disks /\ map b_size bids' = sizes /\
      forall d a, nth_error (m_allocs (mc_m c)) d = Some a -> exists a',
        nth_error (m_allocs m') d = Some a' /\
        (select d disks sizes = [] -> a' = a) /\
        (select d disks sizes <> [] ->
           new_blocks a (select d disks sizes) = AllocOk a' (select d disks (map b_offset bids')))
  | MThrow m' bids' => nowhere (mc_m c) disks sizes
  | MBad => False
  end.
Proof. exact new_blocks_placement. Qed.
Print Assumptions C14_disk_choice.

(** The specification of the choice determines the disks. *)
Theorem C14_placement_unique : forall m f off sizes d1 d2,
  (forall i, (f i < length (m_allocs m))%nat) ->
  placement m f off sizes d1 -> placement m f off sizes d2 -> d1 = d2.
Proof. exact placement_unique. Qed.
Print Assumptions C14_placement_unique.

(** demo3 has 15 free bytes on disk 0 and 50 on disk 1: the third block is
    moved from disk 0 to disk 1, the fourth from disk 1 to disk 2. *)
Example C14_case :
  match manager_new_blocks (mc_m demo3) (fun i => Nat.modulo i 2) 0 (map (fresh_bid 0) [10; 5; 6; 46]) with
  | MOk _ bids => map b_storage bids = [Managed 0; Managed 1; Managed 1; Managed 2]
  | _ => False
  end.
Proof. vm_compute. reflexivity. Qed.

(** ** C15 *)
(** A call throws exactly if some block found no room on any disk (with C14:
    the placement is unique). *)
Theorem C15_throws_iff_no_room : forall cfgs may_throw c tsize f off sizes disks,
  mreachable cfgs may_throw c -> valid_mop (length cfgs) (MNew tsize f off sizes) ->
  placement (mc_m c) f off sizes disks ->
  ((exists m' bids', manager_new_blocks (mc_m c) f off (map (fresh_bid tsize) sizes) = MThrow m' bids') <->
   nowhere (mc_m c) disks sizes).
Proof.
  intros cfgs t c tsize f off sizes disks H Hv Hp.
  destruct (new_blocks_placement _ _ _ _ _ _ _ H Hv) as (disks' & Hp' & SP).
  assert (disks' = disks).
  { eapply placement_unique; eauto. destruct (mreachable_inv _ _ _ H) as (_ & L & _). rewrite L.
    apply Hv. }
  subst disks'.
  destruct (manager_new_blocks (mc_m c) f off (map (fresh_bid tsize) sizes)) as [m' b'|m' b'|].
  - split; [intros (? & ? & K); discriminate|]. intros K. destruct SP as [SP _]. contradiction.
  - split; auto. intros _. eauto.
  - destruct SP.
Qed.
Print Assumptions C15_throws_iff_no_room.

(** The caller can undo a throwing call by deleting its whole range: on every
    disk that did not grow the state is exactly the one before the call. *)
Theorem C15_recover_after_throw : forall cfgs may_throw c tsize f off sizes m' bids',
  mreachable cfgs may_throw c -> valid_mop (length cfgs) (MNew tsize f off sizes) ->
  manager_new_blocks (mc_m c) f off (map (fresh_bid tsize) sizes) = MThrow m' bids' ->
  exists m'', manager_delete_blocks m' bids' = Ret m'' /\
   forall d a, nth_error (m_allocs (mc_m c)) d = Some a -> exists a'',
     nth_error (m_allocs m'') d = Some a'' /\ disk_bytes a <= disk_bytes a'' /\
     free_bytes a'' = free_bytes a + (disk_bytes a'' - disk_bytes a) /\
     (disk_bytes a'' = disk_bytes a -> a'' = a).
Proof. exact throw_keeps. Qed.
Print Assumptions C15_recover_after_throw.

(** If all blocks go to one disk, a throwing call changes nothing. *)
Theorem C15_one_disk_atomic : forall cfgs may_throw c tsize f off sizes m' bids' disks d0,
  mreachable cfgs may_throw c -> valid_mop (length cfgs) (MNew tsize f off sizes) ->
  manager_new_blocks (mc_m c) f off (map (fresh_bid tsize) sizes) = MThrow m' bids' ->
  placement (mc_m c) f off sizes disks -> (forall d, In d disks -> d = d0) ->
  m' = mc_m c /\ bids' = map (fresh_bid tsize) sizes.
Proof. exact throw_one_disk. Qed.
Print Assumptions C15_one_disk_atomic.

(** Blocks held before a throwing call stay held: C11 covers the state after
    it, because the history may contain throwing calls. *)
Theorem C15_throw_keeps_held : forall cfgs may_throw c o c',
  mreachable cfgs may_throw c -> valid_mop (length cfgs) o -> mclient_step c o = StepThrow c' ->
  mreachable cfgs true c' /\ exists got, mc_held c' = mc_held c ++ got.
Proof.
  intros cfgs t c o c' (H & m & ops & E & Hh) Hv Hs. split.
  - split; auto. exists m, (ops ++ [o]). split; auto.
    clear E. induction Hh.
    + eapply mh_throw; eauto. constructor.
    + eapply mh_ok; eauto.
    + eapply mh_throw; eauto.
  - destruct o as [tsize f off sizes|i]; cbn [mclient_step] in Hs.
    + destruct (manager_new_blocks (mc_m c) f off (map (fresh_bid tsize) sizes)); inversion Hs; subst; simpl; eauto.
    + destruct (nth_error (mc_held c) i); [|discriminate].
      destruct (manager_delete_block (mc_m c) b); inversion Hs; subst. exists []. rewrite app_nil_r. auto.
Qed.
Print Assumptions C15_throw_keeps_held.

(** Atomicity over several disks is false. *)
Theorem C15_atomic_refuted : ~ (forall cfgs may_throw c tsize f off sizes m' bids',
  mreachable cfgs may_throw c -> valid_mop (length cfgs) (MNew tsize f off sizes) ->
  manager_new_blocks (mc_m c) f off (map (fresh_bid tsize) sizes) = MThrow m' bids' -> m' = mc_m c).
Proof.
  intros H.
  assert (R : mreachable [(100, false); (100, false)] true (world [(100, false); (100, false)] [])) by reach.
  destruct (manager_new_blocks (mc_m (world [(100, false); (100, false)] [])) (fun i => Nat.min i 1) 0
              (map (fresh_bid 0) [60; 200])) as [m1 b1|m1 b1|] eqn:E.
  - vm_compute in E; discriminate.
  - specialize (H _ _ _ 0 (fun i => Nat.min i 1) O [60; 200] m1 b1 R).
    assert (m1 = mc_m (world [(100, false); (100, false)] [])).
    { apply H; [|exact E]. split; [intros; simpl; lia|intros; finite_in; lia]. }
    subst m1. vm_compute in E. discriminate.
  - vm_compute in E; discriminate.
Qed.
Print Assumptions C15_atomic_refuted.

Example C15_case :
  match manager_new_blocks (mc_m demo3) (fun i => Nat.modulo i 2) 0 (map (fresh_bid 0) [10; 5]) with
  | MOk _ bids => map b_storage bids = [Managed 0; Managed 1] | _ => False end /\
  map b_storage (mc_held leak_world) = [Managed 0] /\ mc_ever leak_world = 60.
Proof. vm_compute. auto. Qed.

(** ** C16 *)
Theorem C16_delete_invalid_noop : forall m b, b_storage b = NoStorage \/ b_storage b = Unmanaged ->
  manager_delete_block m b = Ret m.
Proof. exact delete_invalid. Qed.
Print Assumptions C16_delete_invalid_noop.

Theorem C16_delete_blocks_sequential : forall l1 l2 m,
  manager_delete_blocks m (l1 ++ l2) =
    match manager_delete_blocks m l1 with Ret m' => manager_delete_blocks m' l2 | r => r end /\
  forall b, manager_delete_blocks m [b] = manager_delete_block m b.
Proof.
  intros l1 l2 m. split.
  - revert m. induction l1 as [|b l1 IH]; intros m; simpl; auto.
    destruct (manager_delete_block m b); auto.
  - intros b. simpl. destruct (manager_delete_block m b); auto.
Qed.
Print Assumptions C16_delete_blocks_sequential.

(** Deleting everything held makes every disk one free region. *)
Theorem C16_delete_everything : forall cfgs may_throw c, mreachable cfgs may_throw c ->
  exists m', manager_delete_blocks (mc_m c) (mc_held c) = Ret m' /\
   forall d a, nth_error (m_allocs (mc_m c)) d = Some a -> exists a',
     nth_error (m_allocs m') d = Some a' /\ disk_bytes a' = disk_bytes a /\
     free_bytes a' = disk_bytes a /\
     free_space a' = if Z.eqb (disk_bytes a) 0 then [] else [(0, disk_bytes a)].
Proof. exact delete_everything. Qed.
Print Assumptions C16_delete_everything.

Example C16_case : match manager_delete_blocks (mc_m demo3)
    (mk_bid Unmanaged 3 9 9 :: fresh_bid 4 4 :: mc_held demo3) with
  | Ret m => map free_space (m_allocs m) = [[(0, 100)]; [(0, 50)]; [(0, 27)]]
  | _ => False end.
Proof. vm_compute. reflexivity. Qed.
