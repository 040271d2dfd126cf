(** Properties C17 and C18 of the allocation strategies. *)
From Coq Require Import ZArith List Bool Lia.
From Verif Require Import StrategyModel StrategySpec StrategyProofs ManagerModel ManagerSpec.
Import ListNotations.
Local Open Scope Z_scope.

(** ** C17 *)
Theorem C17_strategies_in_range : forall b e i, good_range b e ->
  in_disks b e (striping (make_range b e) i) /\
  (forall draw, in_disks b e (fully_random (make_range b e) draw i)) /\
  (forall draw, in_disks b e (simple_random (make_range b e) draw i)) /\
  (forall draws, in_disks b e (random_cyclic (make_range b e) (make_perm (e - b) draws) i)) /\
  in_disks b (b + 1) (single_disk b i).
Proof.
  intros b e i H. split; [|split; [|split; [|split]]].
  - apply striping_in; auto.
  - intros. apply fully_random_in; auto.
  - intros. apply simple_random_in; auto.
  - intros. apply random_cyclic_in; auto. apply make_perm_perm.
  - exists b. split; auto. lia.
Qed.
Print Assumptions C17_strategies_in_range.

Theorem C17_interleaved_in_range : forall b e nruns i, good_range b e -> 0 < nruns ->
  in_disks b e (interleaved_striping (make_range b e) nruns i) /\
  (forall draw, in_disks b e (interleaved_fully_random (make_range b e) nruns draw i)) /\
  (forall draws, in_disks b e (interleaved_simple_random (make_range b e) nruns draws i)) /\
  (forall draws, in_disks b e
     (interleaved_random_cyclic (make_range b e) nruns (fun k => make_perm (e - b) (draws k)) i)) /\
  in_disks b (b + 1) (first_disk_only b i).
Proof.
  intros b e nruns i H Hn. split; [|split; [|split; [|split]]].
  - apply interleaved_striping_in; auto.
  - intros. apply fully_random_in; auto.
  - intros. apply interleaved_simple_random_in; auto.
  - intros. apply interleaved_random_cyclic_in; auto. intros. apply make_perm_perm.
  - exists b. split; auto. lia.
Qed.
Print Assumptions C17_interleaved_in_range.

(** The offset adapter keeps the range of its base, for any int offset. *)
Theorem C17_offset_in_range : forall base b e offset i,
  (forall j, 0 <= j < 2 ^ 64 -> in_disks b e (base j)) -> in_disks b e (offset_allocator base offset i).
Proof. intros base b e offset i H. apply H. apply u64_range. Qed.
Print Assumptions C17_offset_in_range.

(** The block manager's precondition on strategies (C11, C14) is met by every
    strategy over the disks 0 .. n-1. *)
Definition as_functor (f : Z -> option Z) (i : nat) : nat :=
  match f (Z.of_nat i) with Some d => Z.to_nat d | None => O end.
Theorem C17_strategies_fit_manager : forall n f tsize off sizes, (0 < n)%nat ->
  (forall i, in_disks 0 (Z.of_nat n) (f i)) -> (forall s, In s sizes -> 0 < s /\ (tsize = s \/ tsize = 0)) ->
  valid_mop n (MNew tsize (as_functor f) off sizes).
Proof.
  intros n f tsize off sizes Hn H Hs. split; auto. intros i. unfold as_functor.
  destruct (H (Z.of_nat i)) as (d & -> & Hd). lia.
Qed.
Print Assumptions C17_strategies_fit_manager.

(** An empty range (for example the flash range of a configuration without
    flash disks) makes every cyclic strategy divide by zero. *)
Theorem C17_empty_range_undefined : forall b i draw draws,
  striping (make_range b b) i = None /\ fully_random (make_range b b) draw i = None /\
  simple_random (make_range b b) draw i = None /\
  random_cyclic (make_range b b) (make_perm (b - b) draws) i = None.
Proof.
  intros b i draw draws. unfold make_range. rewrite Z.sub_diag. repeat split; reflexivity.
Qed.
Print Assumptions C17_empty_range_undefined.

Definition some_draws (i : nat) : nat := (i * 7 + 3)%nat.
Example C17_case : good_range 2 7 /\
  make_perm 5 some_draws = [3; 4; 2; 1; 0] /\
  map (random_cyclic (make_range 2 7) (make_perm 5 some_draws)) [0; 1; 2; 3; 4; 5; 6] =
    [Some 5; Some 6; Some 4; Some 3; Some 2; Some 5; Some 6] /\
  map (offset_allocator (striping (make_range 2 7)) (-1)) [0; 1; 2] = [Some 2; Some 2; Some 3].
Proof. split; [unfold good_range; lia|]. vm_compute. auto. Qed.

(** ** C18 *)
Theorem C18_even_distribution : forall b e d s n, good_range b e -> b <= d < e -> 0 <= s ->
  even_share (Z.of_nat n) (e - b) (uses (striping (make_range b e)) s 1 n d) /\
  (forall draws, even_share (Z.of_nat n) (e - b)
     (uses (random_cyclic (make_range b e) (make_perm (e - b) draws)) s 1 n d)) /\
  (forall draw, s + Z.of_nat n + (e - b) <= 2 ^ 64 ->
     even_share (Z.of_nat n) (e - b) (uses (simple_random (make_range b e) draw) s 1 n d)).
Proof.
  intros b e d s n H Hd Hs. split; [|split].
  - apply striping_even; auto.
  - intros. apply random_cyclic_even; auto. apply make_perm_perm.
  - intros. apply simple_random_even; auto.
Qed.
Print Assumptions C18_even_distribution.

(** A full round uses every disk exactly once. *)
Theorem C18_full_round_exactly_once : forall b e d s, good_range b e -> b <= d < e -> 0 <= s ->
  uses (striping (make_range b e)) s 1 (Z.to_nat (e - b)) d = 1 /\
  (forall draws, uses (random_cyclic (make_range b e) (make_perm (e - b) draws)) s 1 (Z.to_nat (e - b)) d = 1) /\
  (forall draw, s + 2 * (e - b) <= 2 ^ 64 ->
     uses (simple_random (make_range b e) draw) s 1 (Z.to_nat (e - b)) d = 1).
Proof.
  intros b e d s H Hd Hs.
  destruct (C18_even_distribution b e d s (Z.to_nat (e - b)) H Hd Hs) as (A & B & C).
  rewrite Z2Nat.id in * by lia.
  split; [|split].
  - apply (even_full_window (e - b)); [lia|auto].
  - intros. apply (even_full_window (e - b)); [lia|auto].
  - intros. apply (even_full_window (e - b)); [lia|]. apply C. lia.
Qed.
Print Assumptions C18_full_round_exactly_once.

(** An offset only shifts the window (as long as offset + i does not wrap), so
    n consecutive blocks are still spread evenly. *)
Lemma uses_offset : forall f offset d n s, 0 <= offset + s -> offset + s + Z.of_nat n <= 2 ^ 64 ->
  uses (offset_allocator f offset) s 1 n d = uses f (offset + s) 1 n d.
Proof.
  intros f offset d n. induction n as [|n IH]; intros s Hs Hn; auto.
  rewrite Nat2Z.inj_succ in Hn. cbn [uses].
  rewrite IH by lia. rewrite Z.add_assoc. f_equal.
  unfold offset_allocator. replace (u64 (offset + s)) with (offset + s); auto.
  unfold u64. rewrite Z.mod_small; lia.
Qed.

Theorem C18_offset_even_distribution : forall b e d s n offset,
  good_range b e -> b <= d < e -> 0 <= offset + s -> offset + s + Z.of_nat n <= 2 ^ 64 ->
  even_share (Z.of_nat n) (e - b)
    (uses (offset_allocator (striping (make_range b e)) offset) s 1 n d) /\
  (forall draws, even_share (Z.of_nat n) (e - b)
     (uses (offset_allocator (random_cyclic (make_range b e) (make_perm (e - b) draws)) offset) s 1 n d)) /\
  (forall draw, offset + s + Z.of_nat n + (e - b) <= 2 ^ 64 ->
     even_share (Z.of_nat n) (e - b)
       (uses (offset_allocator (simple_random (make_range b e) draw) offset) s 1 n d)).
Proof.
  intros b e d s n offset H Hd Hs Hn.
  destruct (C18_even_distribution b e d (offset + s) n H Hd Hs) as (A & B & C).
  split; [|split]; intros; rewrite uses_offset by lia; auto.
Qed.
Print Assumptions C18_offset_even_distribution.

(** Within run r of an interleaved strategy: blocks q, q+1, ... of the run have
    the indices r + q*nruns, r + (q+1)*nruns, ... *)
Theorem C18_interleaved_even_within_run : forall b e nruns r q d n,
  good_range b e -> 0 < nruns -> 0 <= r < nruns -> 0 <= q -> b <= d < e ->
  even_share (Z.of_nat n) (e - b)
    (uses (interleaved_striping (make_range b e) nruns) (r + q * nruns) nruns n d) /\
  (forall draws, even_share (Z.of_nat n) (e - b)
    (uses (interleaved_random_cyclic (make_range b e) nruns (fun k => make_perm (e - b) (draws k)))
       (r + q * nruns) nruns n d)) /\
  (forall draws, q + Z.of_nat n + (e - b) <= 2 ^ 64 -> even_share (Z.of_nat n) (e - b)
    (uses (interleaved_simple_random (make_range b e) nruns draws) (r + q * nruns) nruns n d)).
Proof.
  intros b e nruns r q d n H Hn Hr Hq Hd. split; [|split].
  - apply interleaved_striping_even; auto.
  - intros. apply interleaved_random_cyclic_even; auto. apply make_perm_perm.
  - intros. apply interleaved_simple_random_even; auto.
Qed.
Print Assumptions C18_interleaved_even_within_run.

(** simple_random loses the guarantee where i + offset wraps around 2^64:
    here three consecutive indices use disk 0 twice and disk 2 never. *)
Theorem C18_wraparound_refuted : ~ (forall b e d s draw, good_range b e -> b <= d < e -> 0 <= s ->
  s + (e - b) <= 2 ^ 64 ->
  uses (simple_random (make_range b e) draw) s 1 (Z.to_nat (e - b)) d = 1).
Proof.
  intros H. specialize (H 0 3 0 (2 ^ 64 - 3) 2).
  assert (E : uses (simple_random (make_range 0 3) 2) (2 ^ 64 - 3) 1 (Z.to_nat (3 - 0)) 0 = 1).
  { apply H; unfold good_range; lia. }
  vm_compute in E. discriminate.
Qed.
Print Assumptions C18_wraparound_refuted.

Example C18_case : map (uses (striping (make_range 2 7)) 13 1 12) [2; 3; 4; 5; 6] = [2; 2; 2; 3; 3] /\
  map (uses (interleaved_random_cyclic (make_range 2 7) 3 (fun k => make_perm 5 some_draws)) 4 3 5) [2; 3; 4; 5; 6]
    = [1; 1; 1; 1; 1].
Proof. vm_compute. auto. Qed.
