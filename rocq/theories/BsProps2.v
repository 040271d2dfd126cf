(** Properties C47, C48 and C49: the eviction order of LRU and LFD, and the
    simulation. *)
From Coq Require Import ZArith List Bool Lia Permutation Arith Sorted.
From Verif Require Import BsModel BsSpec BsProofs BsProofs2 BsProofs3 BsProofs4 BsProofs5 BsProofs6 BsProofs7 BsProps1.
Import ListNotations.

Section Props.
Variable pick : nat -> list nat -> nat.
Variable dflt : option Z.
Hypothesis Fresh : fresh_blocks pick.

Lemma evicts_head s b un s1 r c : do pick dflt s (Acq b un) = Ok (s1, r) -> evicts s s1 c ->
  exists a, pop_evictable (al s) = Some (c, a).
Proof.
  intros E (K1 & K2). cbn [do] in E.
  destruct (acquire pick dflt s b un) as [(s2, i)| |] eqn:Ea; cbn [bind] in E; try discriminate.
  injection E as <- <-. destruct (acquire_effect _ _ _ _ _ _ _ Ea) as (A1 & A2 & A3 & A4 & A5).
  destruct (Nat.eq_dec c b) as [->|n].
  - destruct (is_sim (al s)) eqn:Es; [rewrite A3 in K2 by reflexivity; congruence|].
    destruct (A4 eq_refl). congruence.
  - destruct (A2 c n) as [K|(X1 & X2 & X3 & _ & X4 & X5)]; [rewrite K in K2; congruence|auto].
Qed.

(** ** C47 *)

Theorem C47_lru max m d ops rs s p b un s1 r c c' : protocol_run pick dflt max m d ops rs s p ->
  forallb no_switch ops = true -> do pick dflt s (Acq b un) = Ok (s1, r) -> evicts s s1 c ->
  In c' (evictable_blocks s) -> c' <> c -> last_release ops c < last_release ops c'.
Proof.
  intros H Hs E Hc Hc' n. pose proof (protocol_R _ _ Fresh _ _ _ _ _ _ _ H) as HR.
  destruct H as (Er & L & _).
  destruct (lru_order pick dflt Fresh _ _ _ _ _ _ Hs Er L) as (q & Q1 & Q2).
  destruct (evicts_head _ _ _ _ _ _ E Hc) as (a & Hp). rewrite Q1 in Hp. destruct q as [|x q]; [discriminate|].
  cbn in Hp. injection Hp as -> <-.
  assert (K : In c' (evictables (al s))).
  { unfold evictable_blocks, those in Hc'. apply filter_In in Hc'. destruct Hc' as (K1 & K2). apply in_seq in K1.
    apply (R_q _ _ _ _ _ HR). split; [lia|]. split; [assumption|auto]. }
  rewrite Q1 in K. cbn in K. destruct K as [K|K]; [congruence|].
  inversion Q2 as [|? ? S1 F]; subst. rewrite Forall_forall in F. apply F. assumption.
Qed.

(** ** C48 *)

(** The prediction sequence is [ps1 ++ ps2], and the operations since the switch
    are those of [ps1]. *)
Theorem C48_lfd max m d ops0 ps1 ps2 ops rs s p b un s1 r c c' :
  protocol_run pick dflt max m d (ops0 ++ [ToLfd (ps1 ++ ps2)] ++ ops) rs s p ->
  forallb no_switch ops = true -> entries ps1 = flat_map predicts ops ->
  (forall x, In x (ps1 ++ ps2) -> (Z.of_nat (ptime x) < 2 ^ 62 - 1)%Z) ->
  do pick dflt s (Acq b un) = Ok (s1, r) -> evicts s s1 c -> In c' (evictable_blocks s) ->
  not_later (next_acquire ps2 c') (next_acquire ps2 c).
Proof.
  intros H Hs He Ht E Hc Hc'. pose proof (protocol_R _ _ Fresh _ _ _ _ _ _ _ H) as HR.
  destruct H as (Er & L & _).
  destruct (run_app _ _ _ _ _ _ _ Er) as (s2 & rs1 & rs2 & E1 & E2 & ->).
  rewrite combine_app in L by (symmetry; eapply run_length; exact E1).
  apply legal_run_app in L. destruct L as (L1 & L2).
  cbn [app run do bind] in E2.
  destruct (run pick dflt (to_lfd s2 (ps1 ++ ps2)) ops) as [(s4, xs)| |] eqn:E3; cbn [bind] in E2; try discriminate.
  injection E2 as <- <-. cbn [app combine legal_run] in L2. destruct L2 as (_ & L2).
  pose proof (proj1 (run_R pick dflt Fresh _ _ _ _ _ _ (R_start max m d) E1 L1)) as H2.
  destruct (do_ok pick dflt Fresh max s2 _ (ToLfd (ps1 ++ ps2)) H2 I) as [(s5 & r5 & E5 & A5 & H5)|(b5 & un5 & Eo & _)];
    [|discriminate].
  cbn in A5. subst r5. cbn [do] in E5. injection E5 as <-.
  destruct (lfd_run pick dflt Fresh max ops _ _ _ _ ps1 ps2 H5 eq_refl E3 L2 Hs He (lfd_start _ _)) as (q & Q1 & Q2 & Q3).
  destruct (evicts_head _ _ _ _ _ _ E Hc) as (a & Hp). rewrite Q1 in Hp. destruct q as [|(z, x) q]; [discriminate|].
  cbn in Hp. injection Hp as -> <-.
  assert (K : In c' (evictables (al s4))).
  { unfold evictable_blocks, those in Hc'. apply filter_In in Hc'. destruct Hc' as (K1 & K2). apply in_seq in K1.
    apply (R_q _ _ _ _ _ HR). split; [lia|]. split; [assumption|auto]. }
  rewrite Q1 in K. cbn [evictables] in K. apply in_map_iff in K. destruct K as ((z', x') & K1 & K2). cbn in K1. subst x'.
  destruct (Q3 _ _ K2) as (B' & HB'). destruct (Q3 z c (or_introl eq_refl)) as (B & HB).
  eapply (prio_order ps2 c' c B' B).
  - intros y Hy. apply Ht. apply in_or_app. right; assumption.
  - rewrite <- HB, <- HB'. destruct K2 as [K2|K2]; [injection K2 as ->; lia|].
    inversion Q2 as [|? ? S1 F]; subst. rewrite Forall_forall in F. exact (F _ K2).
Qed.

(** ** C49 *)

(** The program [ops] run online, and simulated from the same state. *)
Theorem C49_simulation max m d ops0 rs0 s p ops s1 rs : protocol_run pick dflt max m d ops0 rs0 s p ->
  acquired_blocks s = [] ->
  run pick dflt (to_lru s) ops = Ok (s1, rs) -> legal_run (set_simu p false) (combine ops rs) ->
  forallb simulated ops = true -> (Z.of_nat (S (length ops)) < 2 ^ 64)%Z ->
  exists t1 rs1 k1 m1, run pick dflt (to_sim s) (filter no_access ops) = Ok (t1, rs1) /\ al t1 = Sim k1 m1 /\
    answers (combine (filter no_access ops) rs1) = answers (combine ops rs) /\
    entries (pseq m1) = flat_map predicts ops /\
    StronglySorted le (map ptime (pseq m1)).
Proof.
  intros H Ha E L Hs Hn. pose proof (protocol_R _ _ Fresh _ _ _ _ _ _ _ H) as HR.
  destruct H as (_ & L0 & ->). set (p := after_all c0 (combine ops0 rs0)) in *.
  destruct (J_start max s p HR Ha) as (k & m0 & HJ & Em).
  { apply drt_inv; [assumption|]. reflexivity. }
  destruct (do_ok pick dflt Fresh max s p ToLru HR I) as [(s5 & r5 & E5 & A5 & H5)|(b5 & un5 & Eo & _)];
    [|discriminate].
  cbn in A5. subst r5. cbn [do] in E5. injection E5 as <-.
  destruct (sim_run pick dflt Fresh max ops 0 _ _ _ _ _ _ _ H5 eq_refl E L Hs HJ Hn)
    as (t1 & rs1 & k1 & m1 & I1 & I2 & I3 & I4 & I5).
  exists t1, rs1, k1, m1. rewrite I4, Em. auto.
Qed.

End Props.

Print Assumptions C47_lru.
Print Assumptions C48_lfd.
Print Assumptions C49_simulation.

(** ** Concrete cases *)

Definition s0 (max : nat) : st := start max (fun _ => 7%Z) (fun _ => 0%Z).

(** Block 1 was released before block 0. *)
Example C47_case :
  let ops := [Alloc; Alloc; Alloc; Acq 0 false; Acq 1 false; Rel 1 true; Rel 0 true] in
  match run pick0 None (s0 2) ops with
  | Ok (s, rs) => legal_run c0 (combine ops rs) /\ forallb no_switch ops = true /\
      evictable_blocks s = [0; 1] /\ last_release ops 1 = 6 /\ last_release ops 0 = 7 /\
      match do pick0 None s (Acq 2 false) with
      | Ok (s1, _) => evicts s s1 1
      | _ => False
      end
  | _ => False
  end.
Proof.
  vm_compute. repeat match goal with |- _ /\ _ => split end; auto; try (right; split; auto; lia).
Qed.

(** After a simulation the order is reversed: the block released last is evicted
    first. *)
Theorem C47_after_simulation_refuted :
  let ops := [Alloc; Alloc; Alloc; Acq 0 false; Acq 1 false; Rel 1 true; Rel 0 true; ToSim; ToLru] in
  match run pick0 None (s0 2) ops with
  | Ok (s, rs) => legal_run c0 (combine ops rs) /\ evictable_blocks s = [0; 1] /\
      last_release ops 1 < last_release ops 0 /\
      match do pick0 None s (Acq 2 false) with
      | Ok (s1, _) => evicts s s1 0
      | _ => False
      end
  | _ => False
  end.
Proof.
  vm_compute. repeat match goal with |- _ /\ _ => split end; auto; try (right; split; auto; lia).
Qed.
Print Assumptions C47_after_simulation_refuted.

(** Block 0 is used before block 1, and block 2 before both; block 1 is evicted
    although block 0 was released earlier. *)
Example C48_case :
  let ps1 := [mkPse op_acquire 0 0; mkPse op_acquire 1 0; mkPse op_release_dirty 0 1; mkPse op_release_dirty 1 1] in
  let ps2 := [mkPse op_acquire 2 1; mkPse op_release 2 2; mkPse op_acquire 0 2; mkPse op_release 0 3;
              mkPse op_acquire 1 3; mkPse op_release 1 4] in
  let run1 := [Acq 0 false; Acq 1 false; Rel 0 true; Rel 1 true] in
  let ops := [Alloc; Alloc; Alloc] ++ [ToLfd (ps1 ++ ps2)] ++ run1 in
  match run pick0 None (s0 2) ops with
  | Ok (s, rs) => legal_run c0 (combine ops rs) /\ entries ps1 = flat_map predicts run1 /\
      evictable_blocks s = [0; 1] /\ next_acquire ps2 0 = Some 2 /\ next_acquire ps2 1 = Some 3 /\
      match do pick0 None s (Acq 2 false) with
      | Ok (s1, _) => evicts s s1 1
      | _ => False
      end
  | _ => False
  end.
Proof.
  vm_compute. repeat match goal with |- _ /\ _ => split end; auto; try (right; split; auto; lia).
Qed.

(** A program with an initialised and an uninitialised block. *)
Example C49_case :
  let ops0 := [Alloc; Alloc; Acq 0 false; Write 0 5%Z; Rel 0 true] in
  let ops := [IsInit 0; IsInit 1; Acq 0 false; Read 0; Rel 0 false; IsInit 0; Acq 1 true; IsInit 1;
              Rel 1 false; IsInit 1; Acq 1 true; Write 1 6%Z; Rel 1 true; IsInit 1; Deinit 0; IsInit 0;
              Free 0; Alloc; IsInit 0] in
  match run pick0 None (s0 2) ops0 with
  | Ok (s, rs0) => acquired_blocks s = [] /\
      match run pick0 None (to_lru s) ops, run pick0 None (to_sim s) (filter no_access ops) with
      | Ok (_, rs), Ok (_, rs1) =>
          answers (combine ops rs) = [RBool true; RBool false; RBool true; RBool true; RBool false;
            RBool true; RBool false; RId 0; RBool false] /\
          answers (combine (filter no_access ops) rs1) = answers (combine ops rs) /\ rs1 <> rs
      | _, _ => False
      end
  | _ => False
  end.
Proof. vm_compute. repeat split. discriminate. Qed.

(** A block that is acquired when the simulation starts: its release makes it
    uninitialised in the simulation, but not online. *)
Theorem C49_acquired_at_start_refuted :
  let ops0 := [Alloc; Acq 0 false; Write 0 5%Z; Rel 0 true; Acq 0 false] in
  let ops := [Rel 0 false; IsInit 0] in
  match run pick0 None (s0 2) ops0 with
  | Ok (s, rs0) => legal_run c0 (combine ops0 rs0) /\ acquired_blocks s = [0] /\
      legal_run (after_all c0 (combine ops0 rs0)) (combine ops [RNone; RBool true]) /\
      results (run pick0 None (to_lru s) ops) = Some [RNone; RBool true] /\
      results (run pick0 None (to_sim s) ops) = Some [RNone; RBool false]
  | _ => False
  end.
Proof.
  vm_compute. repeat match goal with |- _ /\ _ => split end; auto; try (right; split; auto; lia).
Qed.
Print Assumptions C49_acquired_at_start_refuted.

(** initialize with an invalid external block: initialised in the simulation, but
    not online. *)
Theorem C49_invalid_external_block_refuted :
  let ops := [Init 0 None; IsInit 0] in
  match run pick0 None (s0 2) [Alloc] with
  | Ok (s, rs0) =>
      legal_run (after_all c0 (combine [Alloc] rs0)) (combine ops [RNone; RBool false]) /\
      results (run pick0 None (to_lru s) ops) = Some [RNone; RBool false] /\
      results (run pick0 None (to_sim s) ops) = Some [RNone; RBool true]
  | _ => False
  end.
Proof.
  vm_compute. repeat match goal with |- _ /\ _ => split end; auto; try (right; split; auto; lia).
Qed.
Print Assumptions C49_invalid_external_block_refuted.

(** Simulating free_swappable_block is not undone when the simulation ends: the
    block can be allocated anew although it holds the old value. *)
Theorem C49_free_is_not_simulated_refuted :
  results (run pick0 None (s0 2)
    [Alloc; Acq 0 false; Write 0 5%Z; Rel 0 true; ToSim; Free 0; ToLru; Alloc; IsInit 0; Acq 0 false])
  = Some [RId 0; RData 7%Z; RNone; RNone; RNone; RNone; RNone; RId 0; RBool true; RData 5%Z].
Proof. vm_compute. reflexivity. Qed.
Print Assumptions C49_free_is_not_simulated_refuted.
