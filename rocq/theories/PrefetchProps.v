(** C39: the block prefetcher. *)

From Coq Require Import List Arith Bool ZArith Lia Permutation.
From Verif Require Import WriterModel WriterProofs PrefetchModel PrefetchSpec ScheduleModel ScheduleSpec
  ScheduleProps PrefetchProofs PrefetchProofs2 PrefetchProofs3.
Import ListNotations.

(** For every caller, every schedule that contains each block once and every
    behaviour of the I/O layer: the blocks are handed out in the order of the
    sequence with the contents they have on disk, and no assertion fails. *)
Theorem C39_in_order : forall {A} bids sq bufs (disk : bid -> A) mem s0 tr s,
  all_blocks_once (length bids) sq ->
  p_init bids sq bufs disk mem = Some s0 -> prun false s0 tr s ->
  delivered tr = firstn (length (delivered tr)) (stream disk bids) /\
  length (delivered tr) <= length bids /\ p_pc s <> PFail.
Proof.
  intros A bids sq bufs disk mem s0 tr s Hp H0 R.
  destruct (prun_inv _ _ _ _ _ _ _ _ Hp H0 R) as (back & ret & hs & [C P (T1 & T2)]).
  csplit.
  - rewrite T2. auto.
  - rewrite T1. rewrite firstn_length. unfold stream. rewrite map_length. lia.
  - intros E. unfold Pc in P. rewrite E in P. auto.
Qed.
Print Assumptions C39_in_order.

(** block_consumed() returns false only when all blocks have been handed out. *)
Theorem C39_complete : forall {A} bids sq bufs (disk : bid -> A) mem s0 tr s,
  all_blocks_once (length bids) sq ->
  p_init bids sq bufs disk mem = Some s0 -> prun false s0 tr s ->
  p_last tr FNone -> delivered tr = stream disk bids.
Proof.
  intros A bids sq bufs disk mem s0 tr s Hp H0 R (tr' & ->).
  destruct (prun_snoc_inv _ _ _ _ R _ _ eq_refl) as (s1 & R1 & St0).
  destruct (prun_inv _ _ _ _ _ _ _ _ Hp H0 R1) as (back & ret & hs & [C P (T1 & T2)]).
  rewrite delivered_app. cbn [delivered]. rewrite app_nil_r, T1.
  apply firstn_all2. unfold stream. rewrite map_length.
  destruct St0 as [St|[St|St]]; [inversion St| |inversion St]. inversion St as [| | |b Eb W NF Le Es| | | | |].
  unfold Pc in P. rewrite Eb in P. destruct P as (_ & P2 & _).
  destruct (k_const _ _ _ _ _ _ _ _ C) as (E1 & _). unfold p_len in Le. rewrite E1 in Le. lia.
Qed.
Print Assumptions C39_complete.

(** A buffer in the caller's hands was handed out once, and neither the
    prefetcher nor the I/O layer changes it. *)
Theorem C39_held_buffers_untouched : forall {A} bids sq bufs (disk : bid -> A) mem s0 tr s,
  all_blocks_once (length bids) sq ->
  p_init bids sq bufs disk mem = Some s0 -> prun false s0 tr s ->
  NoDup (p_held s) /\
  (forall b, In b (p_held s) -> b < bufs) /\
  (forall b r, In b (p_held s) -> In r (p_reqs s) -> q_buf r = b -> q_ph r <> RPosted) /\
  (forall b l s', In b (p_held s) -> psstep false s l s' -> p_mem s' b = p_mem s b).
Proof.
  intros A bids sq bufs disk mem s0 tr s Hp H0 R.
  destruct (init_facts _ _ _ _ _ _ H0) as (Hn & _).
  destruct (prun_inv _ _ _ _ _ _ _ _ Hp H0 R) as (back & ret & hs & V).
  pose proof V as [C P T].
  assert (X : p_held s = [] \/ (incl (p_held s) hs /\ NoDup (p_held s))).
  { pose proof (k_nd _ _ _ _ _ _ _ _ C) as ND. unfold Pc in P. destruct (p_pc s); try tauto.
    - destruct P as (_ & _ & ->). right. split; auto. apply incl_refl.
    - destruct P as (_ & _ & ->). inversion ND; subst. right. split; auto. apply incl_tl, incl_refl.
    - destruct P as (_ & _ & _ & _ & ->). right. split; auto. apply incl_refl. }
  destruct X as [X|(X1 & X2)].
  - rewrite X. csplit; try (intros; cbn in *; tauto). constructor.
  - csplit; auto.
    + intros b Hb. apply X1, (k_hs _ _ _ _ _ _ _ _ C) in Hb. destruct Hb as (j & r & H & E & _).
      pose proof (k_bufn _ _ _ _ _ _ _ _ C _ _ H). lia.
    + intros b r Hb Hr E. apply X1, (k_hs _ _ _ _ _ _ _ _ C) in Hb.
      destruct Hb as (j & r' & H & E' & L & Nb).
      apply In_nth_error in Hr. destruct Hr as (i & Hi). intros Ph.
      assert (Ei : i = j).
      { eapply (k_live _ _ _ _ _ _ _ _ C); eauto; [|congruence].
        apply (k_fin _ _ _ _ _ _ _ _ C i r); auto; congruence. }
      subst i. assert (r' = r) by congruence. subst r'.
      destruct (returned_phase _ _ _ _ Hp Hn _ _ _ _ _ _ C H L); congruence.
    + intros b l s' Hb St. eapply (held_untouched bids sq disk); eauto.
Qed.
Print Assumptions C39_held_buffers_untouched.

(** Every call returns if the schedule never starves a reader that has as many
    buffers as the caller does not hold. *)
Theorem C39_calls_return : forall {A} bids sq bufs (disk : bid -> A) mem s0 tr s,
  all_blocks_once (length bids) sq ->
  p_init bids sq bufs disk mem = Some s0 -> prun false s0 tr s ->
  never_starves (min bufs (length bids) - length (p_held s)) (length bids) sq -> p_returns s.
Proof.
  intros A bids sq bufs disk mem s0 tr s Hp H0 R NS.
  destruct (init_facts _ _ _ _ _ _ H0) as (Hn & _).
  destruct (prun_inv _ _ _ _ _ _ _ _ Hp H0 R) as (back & ret & hs & V).
  eapply p_returns_wf; eauto.
Qed.
Print Assumptions C39_calls_return.

(** compute_prefetch_schedule delivers such schedules: with them, a caller that
    gives each buffer back before it takes the next one never blocks. *)
Theorem C39_computed_schedule : forall disks m D out,
  ids_up_to D disks -> 1 <= m -> schedule disks m D out ->
  all_blocks_once (length disks) out /\
  never_starves (min m (length disks)) (length disks) out.
Proof.
  intros disks m D out V Hm Sc.
  pose proof (proj2 (C36_schedule_is_permutation disks m D V Hm) out Sc) as P. split; auto.
  intros k Hk. pose proof (C37_never_starves disks m D out V Hm Sc k Hk) as I.
  unfold requested in *. destruct (Nat.le_ge_cases m (length disks)) as [L|L].
  - rewrite Nat.min_l by auto. auto.
  - rewrite Nat.min_r by auto. rewrite firstn_all2.
    + apply (Permutation_in _ (Permutation_sym P)). apply in_seq. lia.
    + unfold all_blocks_once in P. rewrite (Permutation_length P), seq_length. lia.
Qed.
Print Assumptions C39_computed_schedule.

(** A call that waits for a block whose read has not been requested never
    returns. *)
Theorem C39_starving_blocks : forall {A} bids sq bufs (disk : bid -> A) mem s0 tr s k,
  all_blocks_once (length bids) sq ->
  p_init bids sq bufs disk mem = Some s0 -> prun false s0 tr s ->
  p_pc s = PWait k -> ~ In k (firstn (p_nread s) sq) ->
  forall tr' s', prun false s tr' s' ->
    p_pc s' = PWait k /\ (forall b a, ~ In (FRet b a) tr').
Proof.
  intros A bids sq bufs disk mem s0 tr s k Hp H0 R E N tr' s' R'.
  destruct (init_facts _ _ _ _ _ _ H0) as (Hn & _).
  destruct (prun_inv _ _ _ _ _ _ _ _ Hp H0 R) as (back & ret & hs & V).
  destruct (starved_run _ _ _ _ Hp Hn _ _ _ _ _ _ _ _ V E N R') as (_ & X1 & _ & X2). auto.
Qed.
Print Assumptions C39_starving_blocks.

(** After destruction no read is going on. *)
Theorem C39_destroyed : forall {A} bids sq bufs (disk : bid -> A) mem s0 tr s,
  all_blocks_once (length bids) sq ->
  p_init bids sq bufs disk mem = Some s0 -> prun false s0 tr s ->
  p_pc s = PDead -> forall b, ~ reading_into s b.
Proof.
  intros A bids sq bufs disk mem s0 tr s Hp H0 R E b (r & Hr & _ & Ph).
  destruct (prun_inv _ _ _ _ _ _ _ _ Hp H0 R) as (back & ret & hs & [C P _]).
  unfold Pc in P. rewrite E in P. destruct P as (_ & P).
  apply In_nth_error in Hr. destruct Hr as (j & Hj). apply Ph.
  eapply (rwait_fin _ _ _ _ _ _ _ _ _ _ _ C (P (q_buf r) _)); eauto.
  Unshelve. eapply (k_bufn _ _ _ _ _ _ _ _ C); eauto.
Qed.
Print Assumptions C39_destroyed.

(** ** Concrete runs *)

Lemma prun_front_eq : forall {A} sp (s1 s2 s3 : pst A) l l' tr,
  pstep sp s1 l s2 -> l = l' -> prun sp s2 tr s3 -> prun sp s1 (l' :: tr) s3.
Proof.
  intros A sp s1 s2 s3 l l' tr H -> R. induction R.
  - change [l'] with ([] ++ [l']). econstructor; [constructor|auto].
  - rewrite app_comm_cons. econstructor; eauto.
Qed.

Ltac pnorm := match goal with |- prun _ ?s _ _ => let s' := eval cbv in s in change s with s' end.
Ltac pside := first [reflexivity | cbn; auto; fail | cbn; lia | cbn; discriminate | idtac].
Ltac pcal tac := eapply prun_front_eq; [left; tac; pside|reflexivity|pnorm].
Ltac pcode tac := eapply prun_front_eq; [right; left; tac; pside|reflexivity|pnorm].
Ltac penv ix := eapply prun_front_eq; [right; right;
  first [eapply (RArrive _ ix); reflexivity|eapply (RSwitch _ ix); reflexivity
        |eapply (RFinish _ ix); reflexivity]|reflexivity|pnorm].

Definition ex_bids := [MkBid 0 0; MkBid 0 8; MkBid 1 0].
Definition ex_disk (d : bid) : nat := 10 * b_storage d + Z.to_nat (b_offset d).

(** Three blocks, two buffers, schedule 1, 0, 2.  The data of block 0 arrive
    first. *)
Definition ex_ptr : list (plabel nat) :=
  [FTau; FTau; FTau; FTau; FTau; FPull; FRet 1 (Some 0); FGive 1; FTau; FTau; FTau; FTau;
   FRet 0 (Some 8); FFill 0 77; FGive 0; FTau; FTau; FTau; FTau; FRet 1 (Some 10); FTau; FGive 1; FNone].

Example C39_case : exists s0 s1 s2,
  all_blocks_once (length ex_bids) [1; 0; 2] /\
  p_init ex_bids [1; 0; 2] 2 ex_disk (fun _ => None) = Some s0 /\
  never_starves (min 2 (length ex_bids)) (length ex_bids) [1; 0; 2] /\
  prun false s0 (firstn 8 ex_ptr) s1 /\ p_held s1 = [] /\ p_pc s1 = PGiven 1 /\
  prun false s1 (skipn 8 ex_ptr) s2 /\
  delivered ex_ptr = [Some 0; Some 8; Some 10].
Proof.
  eexists. eexists. eexists. csplit.
  - unfold all_blocks_once. cbn. apply perm_swap.
  - reflexivity.
  - intros k Hk. cbn in Hk. destruct k as [|[|[|k]]]; cbn; auto; lia.
  - unfold ex_ptr, firstn.
    pcode ltac:(apply (JCtor _ _ 0)). pcode ltac:(apply (JCtor _ _ 1)).
    penv 1. penv 1.
    pcode ltac:(apply (JCtorEnd _ _ 2)). pcal ltac:(apply QPull).
    pcode ltac:(apply (JRet _ _ 0 1)).
    pcal ltac:(apply (QGive _ [] 1 [])). constructor.
  - reflexivity.
  - reflexivity.
  - unfold ex_ptr, skipn. pnorm.
    penv 1. pcode ltac:(apply (JNext _ _ 1)). penv 0. penv 0.
    pcode ltac:(apply (JRet _ _ 1 0)). pcal ltac:(apply (QFill _ 0 77)).
    pcal ltac:(apply (QGive _ [] 0 [])). penv 0. pcode ltac:(apply (JNext _ _ 0)).
    penv 2. penv 2. pcode ltac:(apply (JRet _ _ 2 1)). penv 2.
    pcal ltac:(apply (QGive _ [] 1 [])). pcode ltac:(apply (JNone _ _ 1)). constructor.
  - reflexivity.
Qed.

(** With one buffer and the schedule 1, 0 the first pull blocks forever. *)
Example C39_case_starving : exists s0 s,
  p_init (firstn 2 ex_bids) [1; 0] 1 ex_disk (fun _ => None) = Some s0 /\
  prun false s0 [FTau; FTau; FPull] s /\ p_pc s = PWait 0 /\ ~ In 0 (firstn (p_nread s) [1; 0]).
Proof.
  eexists. eexists. csplit; [reflexivity| | |].
  - pcode ltac:(apply (JCtor _ _ 0)). pcode ltac:(apply (JCtorEnd _ _ 1)). pcal ltac:(apply QPull). constructor.
  - reflexivity.
  - cbn. intros [Q|[]]; discriminate.
Qed.

(** The order of the blocks depends on condition variables that do not wake up
    spuriously: onoff_switch::wait_for_on does not test its flag again. *)
Theorem C39_spurious_wakeup_refuted :
  ~ (forall bids sq bufs (disk : bid -> nat) mem s0 tr s,
       all_blocks_once (length bids) sq ->
       p_init bids sq bufs disk mem = Some s0 -> prun true s0 tr s ->
       delivered tr = firstn (length (delivered tr)) (stream disk bids)).
Proof.
  intros H.
  enough (X : exists s0 s, p_init ex_bids [0; 1; 2] 1 ex_disk (fun _ => None) = Some s0 /\
                prun true s0 [FTau; FTau; FPull; FRet 0 None] s).
  { destruct X as (s0 & s & I0 & R). apply (H ex_bids [0; 1; 2] 1 ex_disk (fun _ => None)) in R; [discriminate| |].
    - apply Permutation_refl.
    - exact I0. }
  eexists. eexists. split; [reflexivity|].
  pcode ltac:(apply (JCtor _ _ 0)). pcode ltac:(apply (JCtorEnd _ _ 1)). pcal ltac:(apply QPull).
  pcode ltac:(apply (JRet _ _ 0 0)). constructor.
Qed.
Print Assumptions C39_spurious_wakeup_refuted.
