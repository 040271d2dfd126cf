(** Property C85: how far the prefetching algorithm looks ahead. *)
From Coq Require Import ZArith List Bool Lia Permutation Arith.
From Verif Require Import BsModel BsSpec BsProofs BsProofs2 BsProofs4 BsProps1 PfModel PfSpec PfInv PfProofs1 PfProofs5 PfProofs6 PfProofs12 PfProofs13 PfProps1.
Import ListNotations.

Lemma reading_being max Q c p b : Inv max [] Q c p -> reading p b -> being_read p b.
Proof.
  intros H [D|(g & w & W1 & W2 & W3 & W4)]; [left; exact D|right].
  exists g, w. repeat split; auto.
  destruct (I_w _ _ _ _ _ H g w W1) as (_ & _ & _ & K). rewrite W3 in K. destruct K as (m & _ & _ & _ & _ & _ & _ & T7).
  destruct (T7 W2) as (_ & _ & _ & _ & _ & _ & _ & _ & _ & S10).
  unfold wants in W2. apply orb_true_iff in W2. destruct W2 as [W2|W2]; [assumption|].
  destruct (w_ph w); try discriminate. destruct (S10 eq_refl) as [K|[]]. assumption.
Qed.

Section Props.
Variable pick : nat -> list nat -> nat.
Variable dflt : option Z.
Hypothesis Fresh : fresh_blocks pick.

(** The operations to come are scheduled up to a point: either all of them, or
    the next one is an acquire that needs another internal block, and there is
    none: the limit is reached, none is free, and every block that is internal
    and not acquired is needed by an operation that is scheduled. *)
Theorem C85_as_far_as_possible max m d ops rs s c ps o ops1 rs1 rest p c1 :
  prefetch_run pick dflt max m d ops rs s c ps o ops1 rs1 rest p c1 ->
  exists Q, rest = Q ++ uns p /\
    (uns p = [] \/
     (exists x r, uns p = x :: r /\ acquires x = true /\ buffer_of p (snd x) = None) /\
     nalloc (base p) = max /\ free_i (base p) = [] /\
     (forall b, b < nblk (base p) -> is_evictable (bk p b) = true ->
        exists k, In (k, b) Q /\ (acquires (k, b) = true \/ k = op_deinitialize /\ dirty (bk p b) = true))).
Proof.
  intros H. apply prefetch_run_ok in H; [|assumption]. destruct H as ((Q & H & E & Sc & _) & _ & _ & Er & _).
  exists Q. split; [congruence|]. destruct Sc as [Sc|(Bd & k & b & r & E1 & E2 & E3)]; [auto|right]. unfold budget in Bd.
  split; [exists (k, b), r; split; [assumption|]; split; [destruct k; auto; discriminate|exact E3]|].
  split; [pose proof (I_max _ _ _ _ _ H); lia|]. split; [apply length_zero_iff_nil; lia|].
  intros y Hy Ev. assert (Ef : fe p = []) by (apply length_zero_iff_nil; lia).
  destruct (proj2 (I_ev _ _ _ _ _ H y) (conj Hy Ev)) as [K|K]; [rewrite Ef in K; contradiction|].
  apply (I_se _ _ _ _ _ H) in K. rewrite (I_ops _ _ _ _ _ H) in K. unfold bk.
  assert (G : forall l, keep (dirty (B p y)) l = true -> exists k, In k l /\ (is_acq k = true \/ k = op_deinitialize /\ dirty (B p y) = true)).
  { induction l as [|k' l IH]; [discriminate|]. cbn [keep]. destruct k'; intros G; try (destruct (IH G) as (k'' & G1 & G2); exists k''; split; [right; assumption|assumption]).
    - exists op_acquire. cbn. auto.
    - exists op_acquire_uninitialized. cbn. auto.
    - destruct (dirty (B p y)); [exists op_deinitialize; cbn; auto|]. destruct (IH G) as (k'' & G1 & G2). exists k''. split; [right; assumption|assumption]. }
  destruct (G _ K) as (k' & G1 & G2). exists k'. split; [apply proj_in; assumption|]. unfold acquires. cbn. destruct k'; auto; try (destruct G2 as [G2|(G2 & _)]; discriminate).
Qed.

(** A block that is acquired by a scheduled operation has an internal block,
    attached or reserved. *)
Theorem C85_internal_blocks max m d ops rs s c ps o ops1 rs1 rest p c1 Q :
  prefetch_run pick dflt max m d ops rs s c ps o ops1 rs1 rest p c1 -> rest = Q ++ uns p ->
  forall x, In x Q -> acquires x = true -> buffer_of p (snd x) <> None.
Proof.
  intros H E (k, b) Hx Ha. apply prefetch_run_ok in H; [|assumption]. destruct H as ((Q' & H & E' & _) & _ & _ & Er & _).
  assert (EQ : Q' = Q) by (apply (app_inv_tail (uns p)); congruence). subst Q'.
  apply (I_nores _ _ _ _ _ H). rewrite (I_ops _ _ _ _ _ H). unfold has_acq. apply existsb_exists. exists k. split; [apply proj_in; exact Hx|]. destruct k; auto; discriminate.
Qed.

(** If the next operation of a block among the scheduled ones acquires it for
    reading, then it is internal already, and its value is there or is being
    read. *)
Theorem C85_prefetched max m d ops rs s c ps o ops1 rs1 rest p c1 Q1 Q2 b x :
  prefetch_run pick dflt max m d ops rs s c ps o ops1 rs1 rest p c1 ->
  rest = (Q1 ++ (op_acquire, b) :: Q2) ++ uns p -> (forall k, ~ In (k, b) Q1) ->
  refs (vw c1 b) = 0 -> val (vw c1 b) = Some x ->
  exists i, int (bk p b) = Some i /\ (mem (base p) i = x \/ being_read p b).
Proof.
  intros H E N Hr Hv. apply prefetch_run_ok in H; [|assumption]. destruct H as ((Q' & H & E' & _ & Rd & _) & _ & _ & Er & _).
  assert (EQ : Q' = Q1 ++ (op_acquire, b) :: Q2) by (apply (app_inv_tail (uns p)); congruence). subst Q'.
  assert (P1 : proj b Q1 = []).
  { destruct (proj b Q1) as [|k l] eqn:Ep; [reflexivity|exfalso]. apply (N k). apply proj_in. rewrite Ep. left; reflexivity. }
  assert (K : int (B p b) <> None).
  { apply Rd; [assumption|congruence|]. rewrite (I_ops _ _ _ _ _ H), proj_app, P1, proj_cons, Nat.eqb_refl. reflexivity. }
  unfold bk. pose proof (I_data _ _ _ _ _ H b x Hr Hv) as D. unfold data in D. destruct (int (B p b)) as [i|]; [|contradiction]. exists i. split; [reflexivity|].
  destruct (dirty (B p b)); [auto|]. destruct D as (_ & [[]|[D|D]]); eauto using reading_being.
Qed.

(** An acquire of a block with a value that succeeds finds it internal, with the
    value or with a read under way that was started before. *)
Theorem C85_next_acquire_ready max m d ops rs s c ps o ops1 rs1 rest p c1 b q r x :
  prefetch_run pick dflt max m d ops rs s c ps o ops1 rs1 ((op_acquire, b) :: rest) p c1 ->
  legal c1 (Acq b false) -> val (vw c1 b) = Some x -> pdo pick dflt p (Acq b false) = Ok (q, r) ->
  exists i, int (bk p b) = Some i /\ (refs (vw c1 b) = 0 -> mem (base p) i = x \/ being_read p b).
Proof.
  intros H L Hv E. pose proof H as H0. apply prefetch_run_ok in H; [|assumption]. destruct H as ((Q & H & E' & Sc & Rd & _) & _ & _ & Er & _).
  assert (K : int (B p b) <> None).
  { destruct (Nat.eq_dec (refs (vw c1 b)) 0) as [Hr|Hr]; [|destruct (I_acq _ _ _ _ _ H b) as (i & K & _); [lia|congruence]].
    destruct Q as [|(k, b') Q].
    - exfalso. destruct (C84_acquire_succeeds_iff pick dflt Fresh _ _ _ _ _ _ _ _ _ _ _ _ _ _ b false H0 L) as (K & _).
      destruct (proj1 K (ex_intro _ q (ex_intro _ r E))) as [K2|K2].
      + unfold is_acquired, bk in K2. apply Nat.ltb_lt in K2. rewrite (I_rc _ _ _ _ _ H) in K2. lia.
      + assert (Eu : uns p = (op_acquire, b) :: rest) by (cbn in E'; congruence).
        destruct Sc as [Sc|(Bd & k1 & b1 & r1 & E1 & E2 & E3)]; [congruence|]. assert (b1 = b) by congruence. subst b1. unfold budget in Bd.
        pose proof (inv_counts _ _ _ _ _ H) as C. pose proof (I_max _ _ _ _ _ H) as Mx.
        assert (K3 : length (those (nblk (base p)) (holds p)) <= length (acquired_blocks (base p))); [|lia].
        apply those_le. intros y Hy Hh. unfold holds in Hh. destruct (hold p y) as [i|] eqn:Eh; [|discriminate]. unfold hold in Eh.
        assert (Sy : sops p y = []) by (rewrite (I_ops _ _ _ _ _ H); reflexivity).
        assert (Mn : sched p y = None).
        { destruct (sched p y) as [m0|] eqn:Em; [|reflexivity]. exfalso. apply (I_ne _ _ _ _ _ H y m0 Em). unfold sops in Sy. rewrite Em in Sy. assumption. }
        rewrite Mn in Eh. destruct (int (B p y)) as [j|] eqn:Ej; [|discriminate].
        destruct (is_acquired (B p y)) eqn:Ea; [reflexivity|exfalso].
        unfold is_acquired in Ea. apply Nat.ltb_ge in Ea.
        assert (Ev : In y (fe p) \/ In y (se p)).
        { apply (I_ev _ _ _ _ _ H). split; [assumption|]. unfold is_acquired in Ea. pose proof (I_rc _ _ _ _ _ H y) as Rc.
          unfold is_evictable, is_internal, is_acquired. rewrite Ej. assert (Nz : Nat.ltb 0 (rc (B p y)) = false) by (apply Nat.ltb_ge; assumption).
          rewrite Nz. cbn. destruct (val (vw c1 y)) as [v|] eqn:Evv; [|assert (Bn : B p y = sb_new) by (apply (I_un _ _ _ _ _ H); [lia|assumption]); rewrite Bn in Ej; discriminate].
          reflexivity || (pose proof (I_data _ _ _ _ _ H y v) as D; unfold data in D; rewrite Ej in D; destruct (dirty (B p y)); [reflexivity|]; destruct D as ((e & D & _) & _); [lia|assumption|]; unfold is_external; rewrite D; reflexivity). }
        destruct Ev as [Ev|Ev]; [assert (Ef : fe p = []) by (apply length_zero_iff_nil; lia); rewrite Ef in Ev; contradiction|].
        apply (I_se _ _ _ _ _ H) in Ev. rewrite Sy in Ev. discriminate.
    - assert (Eq : (k, b') = (op_acquire, b)) by (cbn in E'; congruence). injection Eq as -> ->. apply Rd; [assumption|congruence|].
      rewrite (I_ops _ _ _ _ _ H), proj_cons, Nat.eqb_refl. reflexivity. }
  unfold bk. destruct (int (B p b)) as [i|] eqn:Ei; [|contradiction]. exists i. split; [reflexivity|]. intros Hr.
  pose proof (I_data _ _ _ _ _ H b x Hr Hv) as D. unfold data in D. rewrite Ei in D. destruct (dirty (B p b)); [auto|]. destruct D as (_ & [[]|[D|D]]); eauto using reading_being.
Qed.
End Props.

Print Assumptions C85_as_far_as_possible.
Print Assumptions C85_internal_blocks.
Print Assumptions C85_prefetched.
Print Assumptions C85_next_acquire_ready.

(** ** Concrete cases *)

(** At the start the acquires of blocks 0 and 1 are scheduled and both are being
    read, one of them by a handler after a write; the third acquire has to wait
    for an internal block.  At the end everything is scheduled. *)
Example C85_case :
  match p83 0, p83 18 with
  | Ok (p, _), Ok (q, _) =>
      pseqn p = [(op_acquire, 0); (op_acquire, 1); (op_release_dirty, 0)] ++ uns p /\
      hd_error (uns p) = Some (op_acquire, 2) /\ buffer_of p 2 = None /\
      is_internal (bk p 0) = true /\ is_internal (bk p 1) = true /\ mem (base p) 1 <> 10%Z /\
      match rds p 0 with Some r => r_ext r = 1 /\ r_done r = false | None => False end /\
      match wq p 2 with Some w => w_shall w = true /\ w_start w = 1 /\ w_ph w = Queued | None => False end /\
      uns q = [] /\ length (pseqn q) = 5
  | _, _ => False
  end.
Proof. vm_compute. repeat split; discriminate. Qed.

(** ** Claims that do not hold *)

Definition outcome {A} (x : out (A * list res)) : option (option (list res)) :=
  match x with Ok (_, rs) => Some (Some rs) | NoMemory => Some None | Undefined => None end.

(** extract_external_block fails if the block is still internal, as it is after
    being acquired: here the assertion of swappable_block::extract_external_block
    (line 239).  The online algorithm does the same without failing. *)
Theorem C83_extract_refuted :
  let ops := [Acq 0 false; Rel 0 false; Extract 0] in
  outcome (bind (pf_start pick0 s83 (flat_map predicts ops) []) (fun p => prun pick0 None p ops)) = None /\
  outcome (run pick0 None s83 ops) = Some (Some [RData 10%Z; RNone; RExt (Some 1)]).
Proof. vm_compute. split; reflexivity. Qed.
Print Assumptions C83_extract_refuted.

(** flush (which asks for the evictable blocks, and so ends all that is
    scheduled) makes the next acquire fail. *)
Theorem C83_flush_refuted :
  let ops := [Acq 0 false; Rel 0 false; Flush; Acq 1 false] in
  outcome (bind (pf_start pick0 s83 (flat_map predicts ops) []) (fun p => prun pick0 None p ops)) = Some None /\
  outcome (run pick0 None s83 ops) = Some (Some [RData 10%Z; RNone; RNone; RData 11%Z]).
Proof. vm_compute. split; reflexivity. Qed.
Print Assumptions C83_flush_refuted.

(** The block that is evicted is the one with the least number, not the least
    recently used: block 1 was released before block 0. *)
Theorem C85_lru_refuted :
  exists s, results (run pick0 None (start 2 (fun _ => 7%Z) (fun _ => 0%Z))
      [Alloc; Alloc; Alloc; Acq 1 false; Rel 1 true; Acq 0 false; Rel 0 true]) <> None /\
    (match run pick0 None (start 2 (fun _ => 7%Z) (fun _ => 0%Z))
      [Alloc; Alloc; Alloc; Acq 1 false; Rel 1 true; Acq 0 false; Rel 0 true] with Ok (x, _) => s = x | _ => False end) /\
    (match pf_start pick0 s [(op_acquire, 2)] [] with
     | Ok p => is_internal (bk p 0) = false /\ is_internal (bk p 1) = true
     | _ => False
     end).
Proof.
  eexists. split; [vm_compute; discriminate|]. split; [vm_compute; reflexivity|]. vm_compute. split; reflexivity.
Qed.
Print Assumptions C85_lru_refuted.
