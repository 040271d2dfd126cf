(** C94: allocating blocks when a disk file refuses to grow. *)
From Coq Require Import ZArith List Bool Lia Permutation PeanoNat.
From Verif Require Import AllocModel AllocSpec AllocProofs AllocInv AllocMain
  ManagerModel ManagerSpec ManagerProofs ManagerMain GrowModel GrowSpec GrowProofs GrowMain.
Import ListNotations.
Local Open Scope Z_scope.

(** A concrete run: a disk of 34 bytes with every second block freed, and a
    batch of two blocks for which there are enough free bytes.  The block of 12
    bytes finds no region that is large enough, and the file does not grow. *)
Definition one_disk (i : nat) : nat := 0.
Definition never (k : nat) : bool := false.
Definition frag_ops : list mop :=
  [MNew 0 one_disk 0 [10; 5; 10; 5; 4]; MDelete 0; MDelete 1; MDelete 2].

Fixpoint grun (ok : nat -> bool) (c : gclient) (ops : list mop) : option gclient :=
  match ops with
  | [] => Some c
  | o :: r => match gclient_step ok c o with GOk c' | GThrow c' => grun ok c' r | GBad => None end
  end.

Lemma grun_history : forall ok n ops c c', Forall (valid_mop n) ops -> grun ok c ops = Some c' ->
  ghistory ok n c ops c'.
Proof.
  intros ok n ops. induction ops as [|o ops IH]; intros c c' Hv H; cbn [grun] in H.
  - inversion H; constructor.
  - inversion Hv; subst. destruct (gclient_step ok c o) eqn:E.
    + eapply gh_ok; eauto.
    + eapply gh_throw; eauto.
    + discriminate.
Qed.

Definition gworld (ok : nat -> bool) (cfgs : list (Z * bool)) (ops : list mop) : gclient :=
  match new_manager cfgs with
  | Ret m => match grun ok (gstart m) ops with Some c => c | None => gstart m end
  | _ => gstart (mk_manager [] 0 0 0)
  end.

Definition gworld_ok (ok : nat -> bool) (cfgs : list (Z * bool)) (ops : list mop) : bool :=
  match new_manager cfgs with
  | Ret m => match grun ok (gstart m) ops with Some _ => true | None => false end
  | _ => false
  end.

Lemma gworld_reachable : forall ok cfgs ops, sane cfgs -> Forall (valid_mop (length cfgs)) ops ->
  gworld_ok ok cfgs ops = true -> greachable ok cfgs (gworld ok cfgs ops).
Proof.
  intros ok cfgs ops H Hv Hw. split; auto. unfold gworld_ok, gworld in *.
  destruct (new_manager cfgs) as [m| |]; try discriminate.
  destruct (grun ok (gstart m) ops) as [c|] eqn:E; [|discriminate].
  exists m, ops. split; auto. apply grun_history; auto.
Qed.

Definition frag : gclient := gworld never [(34, false)] frag_ops.
Definition frag2 : gclient :=
  match gclient_step never frag (MNew 0 one_disk 0 [10; 12]) with GThrow c => c | _ => frag end.

Lemma frag_valid : Forall (valid_mop 1) frag_ops.
Proof.
  repeat (apply Forall_cons || apply Forall_nil); try exact I.
  split; [intros; unfold one_disk; lia|]. intros s Hs. simpl in Hs.
  repeat (destruct Hs as [<-|Hs]; [lia|]). destruct Hs.
Qed.
Lemma frag_reachable : greachable never [(34, false)] frag.
Proof.
  apply gworld_reachable.
  - intros s g [E|[]]. inversion E; lia.
  - exact frag_valid.
  - vm_compute. reflexivity.
Qed.
Lemma frag_batch : valid_mop 1 (MNew 0 one_disk 0 [10; 12]).
Proof.
  split; [intros; unfold one_disk; lia|]. intros s Hs. simpl in Hs.
  repeat (destruct Hs as [<-|Hs]; [lia|]); destruct Hs.
Qed.
Lemma frag_step : gclient_step never frag (MNew 0 one_disk 0 [10; 12]) = GThrow frag2.
Proof. vm_compute. reflexivity. Qed.

Lemma greach_step : forall ok cfgs c o c', greachable ok cfgs c -> valid_mop (length cfgs) o ->
  gclient_step ok c o = GOk c' \/ gclient_step ok c o = GThrow c' -> greachable ok cfgs c'.
Proof.
  intros ok cfgs c o c' (H & m & ops & E & Hh) Hv Hs. split; auto. exists m, (ops ++ [o]). split; auto.
  eapply ghistory_app; eauto. destruct Hs as [Hs|Hs]; [eapply gh_ok|eapply gh_throw]; eauto; constructor.
Qed.

(** Whatever growth fails: no assertion fails, nothing is undefined. *)
Theorem C94_no_undefined_behaviour : forall ok cfgs c o, greachable ok cfgs c -> valid_mop (length cfgs) o ->
  gclient_step ok c o <> GBad.
Proof.
  intros ok cfgs c o H Hv E. pose proof (gstep_inv ok _ _ _ (greach_inv ok _ _ H) Hv) as K. rewrite E in K. exact K.
Qed.
Print Assumptions C94_no_undefined_behaviour.

(** Blocks the client holds never overlap, and lie inside the file in space that
    is not free. *)
Theorem C94_held_disjoint : forall ok cfgs c i j bi bj, greachable ok cfgs c -> i <> j ->
  nth_error (gc_held c) i = Some bi -> nth_error (gc_held c) j = Some bj ->
  b_storage bi = b_storage bj -> disjoint (range_of bi) (range_of bj).
Proof.
  intros ok cfgs c i j bi bj H Hij Ei Ej Es. destruct (greach_inv ok _ _ H) as [I _].
  assert (A : forall k b, nth_error (gc_held c) k = Some b -> nth_error (gc_held c ++ gc_lost c) k = Some b).
  { intros k b K. rewrite nth_error_app1; auto. apply nth_error_Some. congruence. }
  apply (minv_disjoint _ _ i j bi bj I Hij); auto.
Qed.
Print Assumptions C94_held_disjoint.

Theorem C94_held_inside : forall ok cfgs c b, greachable ok cfgs c -> In b (gc_held c) ->
  exists d a, b_storage b = Managed d /\ nth_error (m_allocs (gc_m c)) d = Some a /\
    0 < b_size b /\ inside (disk_bytes a) (range_of b) /\
    forall x, in_range x (range_of b) -> ~ covered (free_space a) x.
Proof.
  intros ok cfgs c b H Hb. destruct (greach_inv ok _ _ H) as [I _].
  apply (minv_inside _ _ b I). apply in_or_app; auto.
Qed.
Print Assumptions C94_held_inside.

(** Deleting a held block succeeds. *)
Theorem C94_delete_succeeds : forall ok cfgs c i, greachable ok cfgs c ->
  exists c', gclient_step ok c (MDelete i) = GOk c'.
Proof.
  intros ok cfgs c i H. destruct (greach_inv ok _ _ H) as [I _]. cbn [gclient_step].
  destruct (nth_error (gc_held c) i) as [b|] eqn:E; [|eauto].
  pose proof (remove_nth_perm _ _ _ E) as P.
  assert (P2 : Permutation (gc_held c ++ gc_lost c) (b :: remove_nth i (gc_held c) ++ gc_lost c)).
  { change (b :: remove_nth i (gc_held c) ++ gc_lost c) with ((b :: remove_nth i (gc_held c)) ++ gc_lost c).
    apply Permutation_app_tail. exact P. }
  apply (minv_perm _ _ _ P2) in I.
  destruct (manager_delete_ok _ _ _ I) as (m' & E1 & _). rewrite E1. eauto.
Qed.
Print Assumptions C94_delete_succeeds.

(** Every byte is free, held or lost. *)
Theorem C94_bytes_accounted : forall ok cfgs c, greachable ok cfgs c ->
  manager_total_bytes (gc_m c) =
  manager_free_bytes (gc_m c) + sum_bids (gc_held c) + sum_bids (gc_lost c).
Proof.
  intros ok cfgs c H. destruct (greach_inv ok _ _ H) as [I _]. rewrite (minv_bytes _ _ I), sum_bids_app. lia.
Qed.
Print Assumptions C94_bytes_accounted.

(** The allocation counter does not know about lost blocks: for ids of
    fixed-size type it is the number of bytes held. *)
Theorem C94_counter_blind : forall ok cfgs m ops c, sane cfgs -> new_manager cfgs = Ret m ->
  ghistory ok (length cfgs) (gstart m) ops c -> (forall o, In o ops -> fixed_size_op o) ->
  m_current (gc_m c) = sum_bids (gc_held c).
Proof.
  intros ok cfgs m ops c H E Hh Hf. pose proof (gstart_inv _ _ H E) as I.
  destruct (ghistory_fixed ok _ _ _ _ Hh I) as [K _]; auto.
  split; cbn; [|tauto]. unfold new_manager in E. destruct (new_allocators cfgs); inversion E. reflexivity.
Qed.
Print Assumptions C94_counter_blind.

(** A lost block stays lost: in every later state it is neither free nor part
    of a block somebody holds. *)
Theorem C94_lost_forever : forall ok cfgs c ops c' b, greachable ok cfgs c ->
  ghistory ok (length cfgs) c ops c' -> In b (gc_lost c) ->
  exists d a, b_storage b = Managed d /\ nth_error (m_allocs (gc_m c')) d = Some a /\
    0 < b_size b /\ inside (disk_bytes a) (range_of b) /\
    (forall x, in_range x (range_of b) -> ~ covered (free_space a) x) /\
    (forall b', In b' (gc_held c') -> b_storage b' = Managed d -> disjoint (range_of b') (range_of b)).
Proof.
  intros ok cfgs c ops c' b H Hh Hb. pose proof (greach_inv ok _ _ H) as I0.
  destruct (ghistory_inv ok _ _ _ _ Hh I0) as [[I _] (dr & El)].
  assert (Hb' : In b (gc_lost c')) by (rewrite El; apply in_or_app; auto).
  destruct (minv_inside _ _ b I (in_or_app _ _ _ (or_intror Hb'))) as (d & a & A1 & A2 & A3 & A4 & A5).
  exists d, a. csplit; auto. intros b' Hin Hs.
  destruct (In_nth_error _ _ Hin) as (i & Ei). destruct (In_nth_error _ _ Hb') as (j & Ej).
  assert (Hi : (i < length (gc_held c'))%nat) by (apply nth_error_Some; congruence).
  apply (minv_disjoint _ _ i (length (gc_held c') + j)%nat b' b I); [lia| | |congruence].
  - rewrite nth_error_app1; auto.
  - rewrite nth_error_app2 by lia. replace (length (gc_held c') + j - length (gc_held c'))%nat with j by lia. auto.
Qed.
Print Assumptions C94_lost_forever.

(** An allocation throws only because a disk of fixed size has not enough free
    bytes, and then it loses nothing, or because a growth failed. *)
Theorem C94_throw_reason : forall ok cfgs c tsize f off sizes c', greachable ok cfgs c ->
  valid_mop (length cfgs) (MNew tsize f off sizes) ->
  gclient_step ok c (MNew tsize f off sizes) = GThrow c' ->
  (gc_lost c' = gc_lost c /\ exists disks d a, placement (gc_m c) f off sizes disks /\
     nth_error (m_allocs (gc_m c)) d = Some a /\
     autogrow a = false /\ free_bytes a < fold_right Z.add 0 (select d disks sizes)) \/
  growth_fails ok (gc_calls c) (gc_calls c').
Proof.
  intros ok cfgs c tsize f off sizes c' H Hv E.
  destruct (gthrow_facts ok _ _ _ _ _ _ _ (greach_inv ok _ _ H) Hv E)
    as (disks & d & a & dr & got & A1 & A2 & A3 & A4 & A5 & A6 & A7 & A8).
  destruct A7 as [(B1 & B2 & ->)|B]; [left|right; exact B].
  rewrite app_nil_r in A3. split; auto. exists disks, d, a. rewrite sum_fold in B2. auto.
Qed.
Print Assumptions C94_throw_reason.

(** A call loses blocks of one disk only, never all it wanted there, and only
    if that disk had enough free bytes for all of them. *)
Theorem C94_loss_needs_fragmentation : forall ok cfgs c tsize f off sizes c', greachable ok cfgs c ->
  valid_mop (length cfgs) (MNew tsize f off sizes) ->
  gclient_step ok c (MNew tsize f off sizes) = GThrow c' -> gc_lost c' <> gc_lost c ->
  exists disks d a dropped, placement (gc_m c) f off sizes disks /\
    nth_error (m_allocs (gc_m c)) d = Some a /\
    gc_lost c' = gc_lost c ++ dropped /\ (forall b, In b dropped -> b_storage b = Managed d) /\
    (length dropped < length (select d disks sizes))%nat /\
    fold_right Z.add 0 (select d disks sizes) <= free_bytes a.
Proof.
  intros ok cfgs c tsize f off sizes c' H Hv E Hne.
  destruct (gthrow_facts ok _ _ _ _ _ _ _ (greach_inv ok _ _ H) Hv E)
    as (disks & d & a & dr & got & A1 & A2 & A3 & A4 & A5 & A6 & A7 & A8).
  exists disks, d, a, dr. rewrite <- sum_fold. csplit; auto. apply A8. intros ->. apply Hne.
  rewrite app_nil_r in A3. exact A3.
Qed.
Print Assumptions C94_loss_needs_fragmentation.

(** If every block ever asked for has the same size, and the configured sizes of
    the disks are multiples of it, nothing is ever lost. *)
Theorem C94_one_size_nothing_lost : forall ok b cfgs m ops c, sane cfgs ->
  (forall s g, In (s, g) cfgs -> (b | s)) -> new_manager cfgs = Ret m ->
  ghistory ok (length cfgs) (gstart m) ops c -> (forall o, In o ops -> uniform_op b o) ->
  gc_lost c = [].
Proof.
  intros ok b cfgs m ops c H Hb E Hh Hu. pose proof (gstart_inv _ _ H E) as I.
  pose proof (gstart_mult b _ _ H Hb E) as M.
  destruct (ghistory_mult ok b _ _ _ _ Hh I M Hu) as [K _]. exact K.
Qed.
Print Assumptions C94_one_size_nothing_lost.

(** A call in which no growth fails does what ManagerModel says. *)
Theorem C94_same_without_failure : forall ok cfgs c o, greachable ok cfgs c -> valid_mop (length cfgs) o ->
  match gclient_step ok c o with
  | GOk c' => growth_fails ok (gc_calls c) (gc_calls c') \/
      gc_lost c' = gc_lost c /\ exists ever del0,
        mclient_step (mk_mclient (gc_m c) (gc_held c) 0 0) o =
        StepOk (mk_mclient (gc_m c') (gc_held c') ever del0)
  | GThrow c' => growth_fails ok (gc_calls c) (gc_calls c') \/
      gc_lost c' = gc_lost c /\ exists ever del0,
        mclient_step (mk_mclient (gc_m c) (gc_held c) 0 0) o =
        StepThrow (mk_mclient (gc_m c') (gc_held c') ever del0)
  | GBad => False
  end.
Proof.
  intros ok cfgs c o H Hv. pose proof (greach_inv ok _ _ H) as I.
  pose proof (gstep_same ok _ _ _ 0 0 I Hv) as K. pose proof (gstep_inv ok _ _ _ I Hv) as J.
  destruct (gclient_step ok c o) as [c'|c'|]; auto.
  destruct J as [_ J]. destruct K as [K|K]; [left; exact K|right]. split; auto.
Qed.
Print Assumptions C94_same_without_failure.

(** And a call that succeeds had no failing growth. *)
Theorem C94_failure_throws : forall ok cfgs c tsize f off sizes c', greachable ok cfgs c ->
  valid_mop (length cfgs) (MNew tsize f off sizes) ->
  gclient_step ok c (MNew tsize f off sizes) = GOk c' ->
  ~ growth_fails ok (gc_calls c) (gc_calls c').
Proof.
  intros ok cfgs c tsize f off sizes c' H Hv E (k & Hk & F). destruct (greach_inv ok _ _ H) as [I L].
  cbn [gclient_step] in E.
  destruct (valid_mop_fresh _ _ _ _ _ Hv) as (V1 & V2 & V3 & V4). rewrite <- L in V1.
  pose proof (manager_new_f_spec ok (gc_calls c) (gc_m c) _ f off _ I V1 V2 V3) as SP.
  destruct (manager_new_f ok (gc_calls c) (gc_m c) f off (map (fresh_bid tsize) sizes)) as [[m' b'|m' b' dr|] n'];
    inversion E; subst c'.
  destruct SP as (_ & _ & _ & _ & _ & _ & _ & [_ A]). cbn [gc_calls] in Hk. rewrite A in F by auto. discriminate.
Qed.
Print Assumptions C94_failure_throws.

(** The claim one would like, that after a throwing call all bytes are free or
    held (C15 proves it when growth does not fail), is false. *)
Theorem C94_recover_refuted : ~ (forall ok cfgs c o c', greachable ok cfgs c -> valid_mop (length cfgs) o ->
  gclient_step ok c o = GThrow c' ->
  manager_total_bytes (gc_m c') = manager_free_bytes (gc_m c') + sum_bids (gc_held c')).
Proof.
  intros H. specialize (H never [(34, false)] frag _ frag2 frag_reachable frag_batch frag_step).
  vm_compute in H. discriminate.
Qed.
Print Assumptions C94_recover_refuted.

(** The disk of fixed size 34 has 24 free bytes; the batch of 22 bytes throws
    and ten bytes are gone. *)
Example C94_case : greachable never [(34, false)] frag2 /\
  manager_free_bytes (gc_m frag) = 24 /\
  map range_of (gc_held frag) = [(10, 5); (25, 5)] /\
  gc_held frag2 = gc_held frag /\ map range_of (gc_lost frag2) = [(0, 10)] /\
  manager_free_bytes (gc_m frag2) = 14 /\ gc_calls frag2 = 1%nat.
Proof.
  split; [exact (greach_step _ _ _ _ _ frag_reachable frag_batch (or_intror frag_step))|].
  vm_compute. repeat split; reflexivity.
Qed.

Definition three_blocks : list mop := [MNew 8 one_disk 0 [8; 8]; MNew 8 one_disk 0 [8]].
Example C94_one_size_case : exists m c, new_manager [(16, true)] = Ret m /\
  ghistory never 1 (gstart m) three_blocks c /\ (forall o, In o three_blocks -> uniform_op 8 o) /\
  length (gc_held c) = 2%nat /\ gc_calls c = 1%nat.
Proof.
  exists (gc_m (gworld never [(16, true)] [])), (gworld never [(16, true)] three_blocks).
  split; [vm_compute; reflexivity|]. split.
  - apply grun_history.
    + repeat (apply Forall_cons || apply Forall_nil); (split; [intros; unfold one_disk; lia|]);
        intros s Hs; simpl in Hs; repeat (destruct Hs as [<-|Hs]; [lia|]); destruct Hs.
    + vm_compute. reflexivity.
  - split.
    + intros o [<-|[<-|[]]] s Hs; simpl in Hs; repeat (destruct Hs as [<-|Hs]; [reflexivity|]); destruct Hs.
    + vm_compute. auto.
Qed.
