(** Theorems about the addressable queues (properties C53, C54). *)
From Coq Require Import ZArith List Bool Lia.
From Verif Require Import AqModel AqSpec AqProofs AqProofs2.
Import ListNotations.
Local Open Scope Z_scope.

(** C53: on every sequence of operations the queue gives the results of a list
    without repetitions; the only undefined operation is popping when that list
    is empty. *)
Theorem C53_fifo_refines_list : forall ops,
  match fifo_spec_run [] ops with
  | Some (l, xs) => exists q, fifo_run fifo_new ops = Some (q, xs) /\
      fifo_empty q = (match l with [] => true | _ => false end) /\
      fifo_top q = hd_error l /\ NoDup l
  | None => fifo_run fifo_new ops = None
  end.
Proof.
  intros ops. pose proof (fifo_run_refines ops _ _ fifo_new_rel) as H.
  destruct (fifo_spec_run [] ops) as [[l xs]|]; auto.
  destruct H as (q & E & R). exists q. split; auto.
  pose proof (fr_vals _ _ R) as V. unfold fifo_empty, fifo_top. destruct (vals q) as [|[i e] r];
    simpl in V; subst l; simpl; split; auto; split; auto; apply (fr_nodup _ _ R).
Qed.
Print Assumptions C53_fifo_refines_list.
Example C53_case : exists q,
  fifo_run fifo_new [FInsert 5; FInsert 7; FInsert 9; FInsert 5; FErase 7; FErase 8; FPop; FPop]
  = Some (q, [1; 1; 1; 0; 1; 0; 9; 5]).
Proof. eexists. vm_compute. reflexivity. Qed.

(** C54: for every comparison class that is a strict weak order, every run of
    the queue is a run of a map from keys to their latest priorities in which
    pop takes out a key with the smallest priority (the smallest such key).  No
    operation except popping the empty queue is undefined. *)
Theorem C54_priority_map : forall P (c : P -> P -> bool) ops q xs, strict_weak c ->
  pq_run c (pq_new P) ops = Some (q, xs) ->
  exists m, pq_spec_run c no_prios ops m xs /\
    (pq_empty q = true <-> forall e, m e = None) /\
    (forall e, pq_top q = Some e -> is_first c m e) /\
    (forall o, allowed q o -> pq_do c q o <> None).
Proof.
  intros P c ops q xs SW E.
  destruct (pq_run_refines P c SW ops _ _ _ _ (pq_new_rel P c) E) as (m & S1 & R).
  exists m. split; auto. destruct (pq_rel_top P c SW q m R) as [T1 T2]. split; auto. split; auto.
  intros o A. destruct (pq_do_refines P c SW q m o R A) as (q' & x & m' & D & _). congruence.
Qed.
Print Assumptions C54_priority_map.

Example C54_case : exists q,
  strict_weak Z.ltb /\
  pq_run Z.ltb (pq_new Z) [PInsert 1 30; PInsert 2 10; PInsert 3 20; PInsert 2 40; PErase 9; PPop; PInsert 4 30; PPop; PErase 4; PPop]
  = Some (q, [1; 1; 1; 0; 0; 3; 1; 1; 1; 2]).
Proof.
  eexists. split; [|vm_compute; reflexivity]. constructor.
  - intros x. apply Z.ltb_irrefl.
  - intros x y z. rewrite !Z.ltb_lt. lia.
  - intros x y z. rewrite !Z.ltb_ge. lia.
Qed.
(** With a comparison that identifies priorities (here: by tens) the old
    priority object may stay in the queue, but only an equivalent one. *)
Example C54_case_equiv : exists q,
  pq_run (fun a b => a / 10 <? b / 10) (pq_new Z) [PInsert 1 12; PInsert 1 15; PInsert 2 19; PPop]
  = Some (q, [1; 0; 1; 1]) /\ pvals q = [(19, 2)].
Proof. eexists. vm_compute. auto. Qed.
