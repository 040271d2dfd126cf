(** Properties C44, C45 and C46: the block scheduler is a transparent cache within
    its memory limit. *)
From Coq Require Import ZArith List Bool Lia Permutation Arith.
From Verif Require Import BsModel BsSpec BsProofs BsProofs2 BsProofs3 BsProofs4 BsProofs5.
Import ListNotations.

(** A block manager for the concrete cases. *)
Definition pick0 (_ : nat) (l : list nat) : nat := S (list_max l).
Lemma pick0_fresh : fresh_blocks pick0.
Proof.
  intros n l H. unfold pick0 in H.
  assert (K : Forall (fun k => k <= list_max l) l) by (apply list_max_le; lia).
  rewrite Forall_forall in K. specialize (K _ H). lia.
Qed.

Section Props.
Variable pick : nat -> list nat -> nat.
Variable dflt : option Z.
Hypothesis Fresh : fresh_blocks pick.

Lemma protocol_R max m d ops rs s p : protocol_run pick dflt max m d ops rs s p -> R max [] [] s p.
Proof.
  intros (E & L & ->). exact (proj1 (run_R pick dflt Fresh _ _ _ _ _ _ (R_start max m d) E L)).
Qed.

(** ** C44 *)

(** Every result agrees with the view of the client. *)
Theorem C44_transparent max m d ops rs s :
  run pick dflt (start max m d) ops = Ok (s, rs) -> legal_run c0 (combine ops rs) ->
  length rs = length ops /\ agrees dflt c0 (combine ops rs).
Proof.
  intros E L. destruct (run_R pick dflt Fresh _ _ _ _ _ _ (R_start max m d) E L) as (_ & A & B). auto.
Qed.

(** The client is never led to undefined behaviour; only acquire can run out of
    memory. *)
Theorem C44_defined max m d ops rs s p o : protocol_run pick dflt max m d ops rs s p -> legal p o ->
  (exists s1 r, do pick dflt s o = Ok (s1, r)) \/
  (exists b un, o = Acq b un /\ do pick dflt s o = NoMemory).
Proof.
  intros H L. destruct (do_ok pick dflt Fresh _ _ _ _ (protocol_R _ _ _ _ _ _ _ H) L) as [(s1 & r & E & _)|(b & un & E1 & E2 & _)]; eauto.
Qed.

(** ** C45 *)

(** The limit, and every internal block has one place. *)
Theorem C45_limit max m d ops rs s p : protocol_run pick dflt max m d ops rs s p ->
  nalloc s <= max /\ NoDup (free_i s ++ buffers_of s) /\
  (forall i, In i (free_i s ++ buffers_of s) <-> i < nalloc s).
Proof.
  intros H. apply protocol_R in H.
  pose proof (R_perm _ _ _ _ _ H) as P. cbn [app] in P. change (held (nblk s) (blk s)) with (buffers_of s) in P.
  split; [pose proof (R_max _ _ _ _ _ H); lia|]. split; [exact (perm_NoDup_seq _ _ P)|].
  intros i. rewrite P, in_seq. lia.
Qed.

(** An acquired block keeps its internal block until the release that ends its
    acquisition. *)
Theorem C45_acquired_not_evicted max m d ops rs s p o s1 r b :
  protocol_run pick dflt max m d ops rs s p -> do pick dflt s o = Ok (s1, r) ->
  is_acquired (blk s b) = true -> (forall x, o = Rel b x -> rc (blk s b) <> 1) ->
  int (blk s b) <> None /\ int (blk s1 b) = int (blk s b).
Proof.
  intros H E Ha Hr. apply protocol_R in H. destruct (R_internal _ _ _ _ H Ha) as (Hi & Hb). split.
  - intros K. unfold is_internal in Hi. rewrite K in Hi. discriminate.
  - eapply keep_int; eassumption.
Qed.

(** In bytes the limit may be exceeded by less than a block. *)
Theorem C45_bytes mem size m d ops rs s p : 0 < size ->
  protocol_run pick dflt (max_blocks mem size) m d ops rs s p -> nalloc s * size < mem + size.
Proof.
  intros Hs H. destruct (C45_limit _ _ _ _ _ _ _ H) as (L & _). unfold max_blocks in L.
  pose proof (Nat.mul_div_le (mem + size - 1) size). nia.
Qed.

(** ** C46 *)

Theorem C46_acquire_succeeds_iff max m d ops rs s p b un : protocol_run pick dflt max m d ops rs s p ->
  simu p = false -> legal p (Acq b un) ->
  ((exists s1 r, do pick dflt s (Acq b un) = Ok (s1, r)) <->
   is_internal (blk s b) = true \/ length (acquired_blocks s) < max).
Proof.
  intros H Ep L. apply protocol_R in H. destruct (R_counts pick _ _ _ H) as (C1 & C2 & C3 & C4).
  destruct (do_ok pick dflt Fresh _ _ _ _ H L) as [(s1 & r & E & _)|(b' & un' & Eo & E & _ & N1 & N2 & N3 & N4)].
  - split; [|eauto]. intros _. destruct (is_internal (blk s b)) eqn:Ei; [auto|right].
    destruct (Nat.lt_ge_cases (length (acquired_blocks s)) max) as [K|K]; [assumption|exfalso].
    assert (F : free_i s = []) by (apply length_zero_iff_nil; lia).
    assert (Rm : remaining s = 0) by lia.
    assert (Q : evictables (al s) = []) by (apply C4; lia).
    unfold is_internal in Ei. destruct (int (blk s b)) eqn:E2; [discriminate|].
    cbn [do] in E. unfold acquire in E. rewrite (live_lt _ _ _ _ _ _ H L) in E. cbn [negb] in E.
    rewrite (R_simu _ _ _ _ _ H) in Ep. rewrite (Ncase _ Ep), E2 in E.
    unfold get_block, get_free in E. rewrite F, Rm in E. cbn [Nat.ltb Nat.leb] in E.
    apply pop_none in Q. rewrite Q in E. discriminate.
  - injection Eo as <- <-. split.
    + intros (s1 & r & E'). congruence.
    + intros [K|K].
      * unfold is_internal in K. rewrite N1 in K. discriminate.
      * apply C4 in N4. rewrite N2 in C1. cbn in C1. lia.
Qed.

(** If acquire does not succeed, it is the failed assertion and nothing else. *)
Theorem C46_else_no_memory max m d ops rs s p b un : protocol_run pick dflt max m d ops rs s p ->
  simu p = false -> legal p (Acq b un) -> is_internal (blk s b) = false ->
  max <= length (acquired_blocks s) -> do pick dflt s (Acq b un) = NoMemory.
Proof.
  intros H Ep L Ei Ha. destruct (C44_defined _ _ _ _ _ _ _ _ H L) as [E|(b' & un' & _ & E)]; [|exact E].
  apply (proj1 (C46_acquire_succeeds_iff _ _ _ _ _ _ _ _ _ H Ep L)) in E.
  destruct E as [E|E]; [congruence|lia].
Qed.

(** It evicts only if all blocks of the limit are in use; then one block that is
    not acquired. *)
Theorem C46_evicts_only_if_needed max m d ops rs s p b un s1 r c : protocol_run pick dflt max m d ops rs s p ->
  legal p (Acq b un) -> do pick dflt s (Acq b un) = Ok (s1, r) -> evicts s s1 c ->
  free_i s = [] /\ nalloc s = max /\ is_internal (blk s b) = false /\ is_acquired (blk s c) = false /\
  (forall c', evicts s s1 c' -> c' = c).
Proof.
  intros H L E Hc. apply protocol_R in H. cbn [do] in E.
  destruct (acquire pick dflt s b un) as [(s2, i)| |] eqn:Ea; cbn [bind] in E; try discriminate.
  injection E as <- <-. destruct (acquire_effect _ _ _ _ _ _ _ Ea) as (A1 & A2 & A3 & A4 & A5).
  assert (Q : forall c, evicts s s2 c -> is_sim (al s) = false /\ int (blk s b) = None /\ get_free s = None /\
              is_evictable (blk s c) = true /\ exists a, pop_evictable (al s) = Some (c, a)).
  { clear c Hc. intros c (K1 & K2). destruct (Nat.eq_dec c b) as [->|n].
    - destruct (is_sim (al s)) eqn:Es; [rewrite A3 in K2 by reflexivity; congruence|].
      destruct (A4 eq_refl). congruence.
    - destruct (A2 c n) as [K|(X1 & X2 & X3 & _ & X4 & X5)]; [rewrite K in K2; congruence|auto]. }
  destruct (Q c Hc) as (Q1 & Q2 & Q3 & Q4 & a & Q5).
  unfold get_free in Q3. destruct (free_i s) eqn:Ef; [|discriminate].
  destruct (Nat.ltb_spec 0 (remaining s)) as [K|K]; [discriminate|].
  split; [reflexivity|]. split; [pose proof (R_max _ _ _ _ _ H); lia|].
  split; [unfold is_internal; rewrite Q2; reflexivity|]. split; [apply evictable_not_acquired; exact Q4|].
  intros c' Hc'. destruct (Q c' Hc') as (_ & _ & _ & _ & a' & Q5'). congruence.
Qed.

End Props.

Print Assumptions C44_transparent.
Print Assumptions C44_defined.
Print Assumptions C45_limit.
Print Assumptions C45_acquired_not_evicted.
Print Assumptions C45_bytes.
Print Assumptions C46_acquire_succeeds_iff.
Print Assumptions C46_else_no_memory.
Print Assumptions C46_evicts_only_if_needed.

(** ** Concrete cases *)

(** Three blocks in two internal blocks: every block keeps its value through
    evictions, a switch to LFD and flush; an external block is initialised and
    extracted. *)
Definition ops44 : list op :=
  [Alloc; Alloc; Alloc;
   Acq 0 false; Write 0 10%Z; Rel 0 true; Acq 1 true; Write 1 11%Z; Rel 1 true;
   NewExt 12%Z; Init 2 (Some 1); Acq 2 false; Rel 2 false;
   Acq 0 false; Acq 1 false; Rel 0 false; Write 1 21%Z; Acq 1 false; Rel 1 true; Rel 1 false;
   ToLfd [mkPse op_acquire 2 1; mkPse op_release 2 2]; Acq 2 false; Rel 2 false;
   Flush; Acq 1 false; Read 1; Rel 1 false; Extract 2; ReadExt 1; IsInit 2; IsInit 1; Deinit 1; IsInit 1].
Definition res44 : list res :=
  [RId 0; RId 1; RId 2;
   RData 7%Z; RNone; RNone; RData 7%Z; RNone; RNone;
   RExt (Some 1); RNone; RData 12%Z; RNone;
   RData 10%Z; RData 11%Z; RNone; RNone; RData 21%Z; RNone; RNone;
   RNone; RData 12%Z; RNone;
   RNone; RData 21%Z; RData 21%Z; RNone; RExt (Some 1); RData 12%Z; RBool false; RBool true; RNone; RBool false].

Ltac legal_tac := cbn; repeat match goal with
  | |- _ /\ _ => split
  | |- True => exact I
  | |- _ = _ => reflexivity
  | |- (_ <= _)%nat => lia
  | |- _ -> _ => intros
  | |- _ <> _ => discriminate
  end.

Example C44_case :
  results (run pick0 None (start 2 (fun _ => 7%Z) (fun _ => 0%Z)) ops44) = Some res44 /\
  legal_run c0 (combine ops44 res44) /\
  (* the values of blocks 0 and 1 have been on disk in between *)
  match run pick0 None (start 2 (fun _ => 7%Z) (fun _ => 0%Z)) (firstn 13 ops44) with
  | Ok (s, _) => is_internal (blk s 0) = false /\ is_external (blk s 0) = true /\ nalloc s = 2
  | _ => False
  end.
Proof.
  split; [vm_compute; reflexivity|]. split.
  - unfold ops44, res44. legal_tac; try (right; legal_tac); try (left; reflexivity);
      try (right; left; reflexivity); try (right; right; left; reflexivity); try lia.
  - vm_compute. auto.
Qed.

(** acquire(uninitialized) of a block with a value, released as not dirty: the
    value is lost although the block was never dirty. *)
Theorem C44_uninitialized_clean_refuted :
  results (run pick0 None (start 2 (fun _ => 7%Z) (fun _ => 0%Z))
    [Alloc; NewExt 12%Z; Init 0 (Some 1); Acq 0 true; Rel 0 false; Acq 0 false])
  = Some [RId 0; RExt (Some 1); RNone; RData 7%Z; RNone; RData 7%Z].
Proof. vm_compute. reflexivity. Qed.
Print Assumptions C44_uninitialized_clean_refuted.

Example C45_case :
  match run pick0 None (start 2 (fun _ => 7%Z) (fun _ => 0%Z))
          [Alloc; Alloc; Alloc; Acq 0 false; Rel 0 true; Acq 1 false; Acq 2 false] with
  | Ok (s, _) => nalloc s = 2 /\ free_i s = [] /\ buffers_of s = [1; 0] /\
      is_acquired (blk s 1) = true /\ rc (blk s 1) = 1 /\ is_internal (blk s 0) = false
  | _ => False
  end.
Proof. vm_compute. repeat split. Qed.

(** In bytes the limit does not hold. *)
Theorem C45_bytes_refuted :
  exists mem size ops, 0 < size /\
  match run pick0 None (start (max_blocks mem size) (fun _ => 7%Z) (fun _ => 0%Z)) ops with
  | Ok (s, _) => mem < nalloc s * size
  | _ => False
  end.
Proof. exists 9, 4, [Alloc; Acq 0 false]. vm_compute. lia. Qed.
Print Assumptions C45_bytes_refuted.

(** With both internal blocks acquired a third block cannot be acquired; with one
    of them released it can, and that block is evicted. *)
Example C46_case :
  let ops := [Alloc; Alloc; Alloc; Acq 0 false; Acq 1 false] in
  match run pick0 None (start 2 (fun _ => 7%Z) (fun _ => 0%Z)) ops with
  | Ok (s, _) =>
      acquired_blocks s = [0; 1] /\ do pick0 None s (Acq 2 false) = NoMemory /\
      match run pick0 None s [Rel 0 true; Acq 2 false] with
      | Ok (s1, _) => evicts s s1 0 /\ nalloc s1 = 2
      | _ => False
      end
  | _ => False
  end.
Proof. vm_compute. repeat split. Qed.
