(** C41-C43: the buffered writer. *)

From Coq Require Import List Arith Bool ZArith Lia Permutation.
From Verif Require Import WriterModel WriterSpec WriterProofs WriterProofs2 WriterProofs3 WriterProofs4.
Import ListNotations.

Section Props.
Context {A : Type}.
Variables (bsz bt : nat) (mem : nat -> A) (bids : nat -> bid) (disk0 : bid -> A).
Let s0 := w_init bsz bt mem bids disk0.

(** ** C41 *)

(** At any moment what was written to disk is a part of what was passed to
    write(), with the contents of the moments of the calls; nothing is written
    twice. *)
Theorem C41_written_at_most_once : forall tr s,
  wrun s0 tr s -> disciplined tr ->
  exists rest, Permutation (calls tr) (served tr ++ rest).
Proof.
  intros tr s R H. destruct (run_inv _ _ _ _ _ _ _ R H) as (limbo & V).
  eexists. apply (v_data _ _ _ _ _ _ V).
Qed.

(** When flush() or the destructor has returned, everything has been written
    and no transfer is going on. *)
Theorem C41_complete_after_flush : forall tr s,
  wrun s0 tr s -> disciplined tr ->
  last_event tr LFlushed \/ last_event tr LDestroyed ->
  Permutation (calls tr) (served tr) /\ forall b, ~ in_flight s b.
Proof.
  intros tr s R H Hl. inversion R; subst.
  - exfalso. destruct Hl as [(t & E)|(t & E)]; destruct t; discriminate.
  - assert (D : disciplined tr0) by (intros Q; apply H; apply in_or_app; auto).
    destruct (run_inv _ _ _ _ _ _ _ H0 D) as (limbo & V).
    assert (St : (l = LFlushed \/ l = LDestroyed) /\ istep s2 l s).
    { destruct Hl as [(t & E)|(t & E)]; apply app_inj_tail in E; destruct E as (_ & ->);
      (split; [auto|]); destruct H1 as [H1|[H1|H1]]; auto; inversion H1. }
    destruct St as (El & St).
    assert (W : waited (w_pc s2) = Some [] /\ w_reqs s = w_reqs s2 /\
                calls (tr0 ++ [l]) = calls tr0 /\ served (tr0 ++ [l]) = served tr0).
    { rewrite calls_app, served_app. destruct El; subst l; inversion St; subst;
      rewrite H2; cbn; rewrite !app_nil_r; auto. }
    destruct W as (W & Er & Ec & Es).
    pose proof (inv_all_ready _ _ _ _ _ _ V W) as AR.
    destruct (v_wait _ _ _ _ _ _ V [] W) as (Eb & _).
    split.
    + rewrite Ec, Es. pose proof (v_data _ _ _ _ _ _ V) as P.
      rewrite (posted_none (w_mem s2) (w_reqs s2) AR), Eb in P.
      unfold pcd in P. destruct (w_pc s2); try discriminate; cbn in P; rewrite app_nil_r in P; auto.
    + intros b (r & Hr & _ & Hp). apply Hp. rewrite Er in Hr. apply AR; auto.
Qed.

(** A buffer in the hands of the caller takes part in no transfer, waits for
    none, and was handed out only once. *)
Theorem C41_handed_out_buffers_idle : forall tr s,
  wrun s0 tr s -> disciplined tr ->
  NoDup (w_held s) /\
  forall b, In b (w_held s) ->
    b < w_n s0 /\ ~ in_flight s b /\ ~ In b (map snd (w_batch s)) /\
    ~ In b (w_free s) /\ ~ In b (w_busy s).
Proof.
  intros tr s R H. destruct (run_inv _ _ _ _ _ _ _ R H) as (limbo & V). fold s0 in V.
  pose proof (inv_nodup _ _ _ _ _ _ V) as ND. split.
  - do 3 apply nodup_app_r in ND. clear - ND. induction (w_held s); constructor; inversion ND; subst; auto.
    intros Q; apply H1; apply in_or_app; auto.
  - intros b Hb.
    assert (Nb : ~ In b (w_busy s)).
    { intros B. apply nodup_app_r in ND. apply (nodup_app_not _ _ _ ND B).
      apply in_or_app; right. apply in_or_app; auto. }
    csplit; auto.
    + assert (Q : In b (seq 0 (w_n s0))).
      { apply (Permutation_in _ (v_bufs _ _ _ _ _ _ V)).
        do 3 (apply in_or_app; right). apply in_or_app; auto. }
      apply in_seq in Q. lia.
    + eapply inv_idle; eauto.
    + intros B. do 2 apply nodup_app_r in ND. apply (nodup_app_not _ _ _ ND B).
      apply in_or_app; auto.
    + intros B. apply (nodup_app_not _ _ _ ND B).
      do 2 (apply in_or_app; right). apply in_or_app; auto.
Qed.

(** The disk after flush() or destruction, if no block was written twice. *)
Theorem C41_disk_content : forall tr s,
  wrun s0 tr s -> disciplined tr ->
  last_event tr LFlushed \/ last_event tr LDestroyed ->
  NoDup (map fst (calls tr)) ->
  (forall d a, In (d, a) (calls tr) -> w_disk s d = a) /\
  (forall d, ~ In d (map fst (calls tr)) -> w_disk s d = disk0 d).
Proof.
  intros tr s R H Hl ND.
  destruct (C41_complete_after_flush tr s R H Hl) as (P & _).
  destruct (run_inv _ _ _ _ _ _ _ R H) as (limbo & V).
  assert (ND' : NoDup (map fst (served tr))).
  { eapply Permutation_NoDup; [apply Permutation_map; exact P|auto]. }
  assert (G : forall (ws : list (bid * A)) f, NoDup (map fst ws) ->
     (forall d a, In (d, a) ws -> disk_after f ws d = a) /\
     (forall d, ~ In d (map fst ws) -> disk_after f ws d = f d)).
  { unfold disk_after. induction ws as [|(d0, a0) ws IH]; intros f N.
    - split; [intros ? ? []|auto].
    - cbn in N. inversion N; subst. cbn [fold_left fst snd].
      destruct (IH (updb f d0 a0) H3) as (G1 & G2). split.
      + intros d a [E|E]; [|auto]. inversion E; subst.
        rewrite G2 by auto. unfold updb. assert (bid_eqb d d = true) by (apply bid_eqb_eq; auto).
        rewrite H0; auto.
      + intros d Nd. cbn in Nd. rewrite G2 by tauto. unfold updb.
        destruct (bid_eqb d d0) eqn:E; auto. apply bid_eqb_eq in E. subst. tauto. }
  destruct (G (served tr) disk0 ND') as (G1 & G2). split.
  - intros d a Hin. rewrite (v_disk _ _ _ _ _ _ V). apply G1. apply (Permutation_in _ P); auto.
  - intros d Hn. rewrite (v_disk _ _ _ _ _ _ V). apply G2. intros Q; apply Hn.
    eapply Permutation_in; [apply Permutation_sym, Permutation_map; exact P|auto].
Qed.

(** ** C42 *)

(** Every call returns if the batch and the buffers the caller holds cannot
    use up all buffers. *)
Theorem C42_calls_return : forall tr s,
  wrun s0 tr s -> disciplined tr ->
  w_bs s0 + length (w_held s) < w_n s0 -> returns s.
Proof.
  intros tr s R H Hb. destruct (run_inv _ _ _ _ _ _ _ R H) as (limbo & V). fold s0 in V.
  eapply returns_wf; eauto.
Qed.

(** With a batch size of at least the number of buffers a caller that only
    writes can get as far as the n-th write, and this call (and with it the
    caller) is blocked forever. *)
Theorem C42_large_batch_blocks : w_n s0 <= w_bs s0 ->
  (exists tr s, wrun s0 tr s /\ no_flush tr /\ length (calls tr) = w_n s0) /\
  forall tr s, wrun s0 tr s -> no_flush tr -> w_n s0 <= length (calls tr) ->
    forall tr' s', wrun s tr' s' -> w_pc s' <> Idle /\ (forall b, ~ In (LRet b) tr').
Proof.
  intros Hn. split.
  - assert (Hp : 0 < w_n s0).
    { unfold s0, w_init; cbn [w_n]. destruct (2 <? bsz) eqn:Z0; [apply Nat.ltb_lt in Z0|]; lia. }
    destruct (fill_batch bsz bt mem bids disk0 (MkBid 0 0) (w_n s0 - 1)) as (tr & s & b & R & F & C & P & H);
      auto; [fold s0; lia|].
    exists (tr ++ [LWrite b (MkBid 0 0) (w_mem s b)]). eexists. csplit.
    + eapply wrun_app; [exact R|]. apply wrun_one. left. apply (CWrite s [] b []); auto.
    + destruct F as (F1 & F2). split.
      * intros kp Q. apply in_app_or in Q. destruct Q as [Q|[Q|[]]]; try discriminate. eapply F1; eauto.
      * intros Q. apply in_app_or in Q. destruct Q as [Q|[Q|[]]]; try discriminate. auto.
    + rewrite calls_app, app_length. cbn [calls length]. lia.
  - intros tr s R F Hc tr' s' R'. apply (blocked_run _ _ _ _ _ _ _ R F Hn Hc tr' s' R').
Qed.

(** ** C43 *)

(** flush() leaves the caller with the buffers it has and makes all buffers
    free; the next get_free_block() returns the last one. *)
Theorem C43_flush_frees_all : forall tr s,
  wrun s0 (tr ++ [LFlushed]) s ->
  w_free s = seq 0 (w_n s0) /\ w_busy s = [] /\
  (forall t b s', wrun s (LGet :: t ++ [LRet b]) s' -> (forall x, ~ In (LRet x) t) ->
     b = w_n s0 - 1).
Proof.
  intros tr s R. pose proof (range_run _ _ _ _ _ _ _ R) as G. fold s0 in G.
  destruct (wrun_snoc_inv _ _ _ R _ _ eq_refl) as (s1 & R1 & St).
  pose proof (range_run _ _ _ _ _ _ _ R1) as G1. fold s0 in G1.
  assert (E : s = flush_end s1) by (destruct St as [St|[St|St]]; inversion St; auto).
  assert (Ef : w_free s = seq 0 (w_n s0)) by (rewrite E; proj; rewrite (g_n _ _ G1); auto).
  assert (Eb : w_busy s = []) by (rewrite E; auto).
  csplit; auto. intros t b s' R2 N.
  assert (Hp : 0 < w_n s0).
  { unfold s0, w_init; cbn [w_n]. destruct (2 <? bsz) eqn:Z0; [apply Nat.ltb_lt in Z0|]; lia. }
  eapply (next_get s s' t (seq 0 (w_n s0 - 1))); eauto.
  - rewrite E; auto.
  - rewrite Ef. replace (w_n s0) with (S (w_n s0 - 1)) at 1 by lia. rewrite seq_S. cbn. auto.
Qed.

(** So a buffer the caller keeps over a flush() is handed out a second time by
    later calls of get_free_block(). *)
Theorem C43_kept_buffer_handed_out_again : forall tr s b,
  wrun s0 (tr ++ [LFlushed]) s -> In b (w_held s) ->
  exists tr' s', wrun s tr' s' /\
    (forall x, In x tr' -> x = LGet \/ x = LTau \/ exists c, x = LRet c) /\
    2 <= count_occ Nat.eq_dec (w_held s') b.
Proof.
  intros tr s b R Hb. destruct (C43_flush_frees_all tr s R) as (Ef & Eb & _).
  pose proof (range_run _ _ _ _ _ _ _ R) as G. fold s0 in G.
  pose proof (g_held _ _ G) as Gh. rewrite Forall_forall in Gh. specialize (Gh b Hb).
  assert (Ei : w_pc s = Idle).
  { destruct (wrun_snoc_inv _ _ _ R _ _ eq_refl) as (s1 & R1 & St).
    destruct St as [St|[St|St]]; inversion St; auto. }
  destruct (take_many 0 s Ei Eb (seq 0 (w_n s0))) as (tr' & s' & R' & X & _ & _ & _ & H'); [auto|].
  exists tr', s'. csplit; auto. rewrite H', count_occ_app.
  assert (C1 : count_occ Nat.eq_dec (w_held s) b > 0) by (apply count_occ_In; auto).
  assert (C2 : count_occ Nat.eq_dec (seq 0 (w_n s0)) b > 0).
  { apply count_occ_In, in_seq. lia. }
  lia.
Qed.

End Props.

(** ** C42: buf_ostream *)

(** buf_ostream constructs its writer with batch size nbuffers / 2
    (/repo/foxxll/mng/buf_ostream.hpp lines 50-55) and holds one buffer. *)
Theorem C42_ostream_safe : forall {A} nbuffers mem bids (disk0 : bid -> A),
  let s0 := w_init nbuffers (nbuffers / 2) mem bids disk0 in w_bs s0 < w_n s0.
Proof.
  intros. subst s0. unfold w_init; cbn [w_bs w_n].
  destruct (2 <? nbuffers) eqn:E.
  - apply Nat.ltb_lt in E. destruct (nbuffers / 2) eqn:D; [lia|]. rewrite <- D.
    apply Nat.div_lt; lia.
  - apply Nat.ltb_ge in E. destruct nbuffers as [|[|[|n]]]; cbn; lia.
Qed.

Print Assumptions C41_written_at_most_once.
Print Assumptions C41_complete_after_flush.
Print Assumptions C41_handed_out_buffers_idle.
Print Assumptions C41_disk_content.
Print Assumptions C42_calls_return.
Print Assumptions C42_large_batch_blocks.
Print Assumptions C42_ostream_safe.
Print Assumptions C43_flush_frees_all.
Print Assumptions C43_kept_buffer_handed_out_again.

(** ** Concrete runs *)

Ltac norm := match goal with |- wrun ?s _ _ => let s' := eval cbv in s in change s with s' end.
Lemma front_eq : forall {A} (s1 s2 s3 : wst A) l l' tr,
  wstep s1 l s2 -> l = l' -> wrun s2 tr s3 -> wrun s1 (l' :: tr) s3.
Proof. intros; subst; eapply wrun_front; eauto. Qed.

Ltac side := first [reflexivity | cbn; auto; fail | cbn; lia | idtac].
Ltac cal tac := eapply front_eq; [left; tac; side|reflexivity|norm].
Ltac code tac := eapply front_eq; [right; left; tac; side|reflexivity|norm].
Ltac env ix := eapply front_eq; [right; right;
  first [eapply (EServe _ ix); reflexivity|eapply (EReady _ ix); reflexivity]
  |reflexivity|norm].

Ltac top l1 l2 := exists l1, l2; csplit; try reflexivity; cbn; intros ? ? ?;
  repeat match goal with H : _ \/ _ |- _ => destruct H end; try tauto;
  match goal with H : (_, _) = (_, _) |- _ => inversion H; subst; lia end.

Definition ex_d1 := MkBid 0 100.
Definition ex_d2 := MkBid 1 40.
Definition ex_d3 := MkBid 0 0.

Definition ex_init : wst nat := w_init 3 2 (fun _ => 0) (fun _ => ex_d1) (fun _ => 7).

(** Three buffers, batch size 2: three writes, the third of which posts the
    batch, then a flush. *)
Definition ex_trace : list (wlabel nat) :=
  [LGet; LTau; LRet 2; LFill 2 11; LWrite 2 ex_d1 11; LTau; LTau; LRet 1;
   LFill 1 22; LWrite 1 ex_d2 22; LTau; LTau; LRet 0; LFill 0 33; LWrite 0 ex_d3 33;
   LTau; LTau; LTau; LTau; LServe ex_d1 11; LTau; LTau; LTau; LRet 2;
   LFlush false; LTau; LServe ex_d3 33; LTau; LServe ex_d2 22; LTau; LTau; LTau; LTau; LFlushed].

Lemma ex_run : exists s, wrun ex_init ex_trace s /\
  map (w_disk s) [ex_d1; ex_d2; ex_d3; MkBid 5 5] = [11; 22; 33; 7] /\
  w_free s = [0; 1; 2] /\ w_held s = [].
Proof.
  eexists. split.
  - unfold ex_init, ex_trace. norm.
    cal ltac:(apply CGet). code ltac:(apply (IPollEnd _ 0)).
    code ltac:(apply (ITakeFree _ [0; 1] 2)).
    cal ltac:(apply (CFill _ 2 11)).
    cal ltac:(apply (CWrite _ [] 2 [] ex_d1)).
    code ltac:(apply (IWPush _ 2 ex_d1)).
    code ltac:(apply (IPollEnd _ 0)).
    code ltac:(apply (ITakeFree _ [0] 1)).
    cal ltac:(apply (CFill _ 1 22)).
    cal ltac:(apply (CWrite _ [] 1 [] ex_d2)).
    code ltac:(apply (IWPush _ 1 ex_d2)).
    code ltac:(apply (IPollEnd _ 0)).
    code ltac:(apply (ITakeFree _ [] 0)).
    cal ltac:(apply (CFill _ 0 33)).
    cal ltac:(apply (CWrite _ [] 0 [] ex_d3)).
    code ltac:(apply (IWFlush _ 0 ex_d3 40 1 [(100%Z, 2)]); [|top (@nil (Z * nat)) [(100%Z, 2)]|]).
    code ltac:(apply (IWFlush _ 0 ex_d3 100 2 []); [|top (@nil (Z * nat)) (@nil (Z * nat))|]).
    code ltac:(apply (IWFlushEnd _ 0 ex_d3)).
    code ltac:(apply (IWPush _ 0 ex_d3)).
    env 1. env 1.
    code ltac:(apply (IPollMiss _ 0 1)).
    code ltac:(apply (IPollHit _ 1 2)).
    code ltac:(apply (ITakeFree _ [] 2)).
    cal ltac:(apply (CFlush _ false)).
    code ltac:(apply (IFFlush _ 0 0 []); [|top (@nil (Z * nat)) (@nil (Z * nat))|]).
    env 2. env 2. env 0. env 0.
    code ltac:(apply IFFlushEnd).
    code ltac:(apply (IFWait _ 1 [0])).
    code ltac:(apply (IFWait _ 0 [])).
    code ltac:(apply IFWaitEnd).
    constructor.
  - csplit; reflexivity.
Qed.

Ltac notin := let Q := fresh in cbn; intros Q;
  repeat match type of Q with _ \/ _ => destruct Q as [Q|Q]; [discriminate|] end; exact Q.

(** Hypotheses and conclusions of C41 on this run. *)
Example C41_case : exists s, wrun ex_init ex_trace s /\ disciplined ex_trace /\
  last_event ex_trace LFlushed /\ NoDup (map fst (calls ex_trace)) /\
  calls ex_trace = [(ex_d1, 11); (ex_d2, 22); (ex_d3, 33)] /\
  served ex_trace = [(ex_d1, 11); (ex_d3, 33); (ex_d2, 22)] /\
  w_disk s ex_d2 = 22.
Proof.
  destruct ex_run as (s & R & D & _). exists s. csplit; auto.
  - unfold disciplined. notin.
  - eexists (firstn 33 ex_trace). reflexivity.
  - cbn. repeat constructor; notin.
  - inversion D; auto.
Qed.

(** Four blocks with the same offset go into the batch, the second and the
    third to the same place.  std::priority_queue of libstdc++ takes four
    entries of equal priority out in the order 1, 3, 2, 4; although the I/O
    layer serves the requests in the order in which they were posted, the
    content of the earlier call remains on disk. *)
Definition ex_e (k : nat) := MkBid k 0.
Definition ex_same : list (wlabel nat) :=
  [LGet; LTau; LRet 4; LWrite 4 (ex_e 1) 0; LTau; LTau; LRet 3;
   LFill 3 11; LWrite 3 (ex_e 0) 11; LTau; LTau; LRet 2;
   LFill 2 22; LWrite 2 (ex_e 0) 22; LTau; LTau; LRet 1; LWrite 1 (ex_e 2) 0;
   LTau; LTau; LRet 0; LFlush false; LTau; LTau; LTau; LTau;
   LServe (ex_e 1) 0; LTau; LServe (ex_e 0) 22; LTau; LServe (ex_e 0) 11; LTau;
   LServe (ex_e 2) 0; LTau; LTau; LTau; LTau; LTau; LTau; LFlushed].

Theorem C41_same_block_twice_refuted :
  ~ (forall bsz bt mem bids (disk0 : bid -> nat) tr s d l1 a l2,
       wrun (w_init bsz bt mem bids disk0) tr s -> disciplined tr -> last_event tr LFlushed ->
       calls tr = l1 ++ (d, a) :: l2 -> ~ In d (map fst l2) -> w_disk s d = a).
Proof.
  intros H.
  assert (R : exists s, wrun (w_init 5 4 (fun _ => 0) ex_e (fun _ => 7)) ex_same s /\ w_disk s (ex_e 0) = 11).
  { eexists. split.
    - unfold ex_same. norm.
      cal ltac:(apply CGet). code ltac:(apply (IPollEnd _ 0)).
      code ltac:(apply (ITakeFree _ [0; 1; 2; 3] 4)).
      cal ltac:(apply (CWrite _ [] 4 [] (ex_e 1))). code ltac:(apply (IWPush _ 4 (ex_e 1))).
      code ltac:(apply (IPollEnd _ 0)). code ltac:(apply (ITakeFree _ [0; 1; 2] 3)).
      cal ltac:(apply (CFill _ 3 11)).
      cal ltac:(apply (CWrite _ [] 3 [] (ex_e 0))). code ltac:(apply (IWPush _ 3 (ex_e 0))).
      code ltac:(apply (IPollEnd _ 0)). code ltac:(apply (ITakeFree _ [0; 1] 2)).
      cal ltac:(apply (CFill _ 2 22)).
      cal ltac:(apply (CWrite _ [] 2 [] (ex_e 0))). code ltac:(apply (IWPush _ 2 (ex_e 0))).
      code ltac:(apply (IPollEnd _ 0)). code ltac:(apply (ITakeFree _ [0] 1)).
      cal ltac:(apply (CWrite _ [] 1 [] (ex_e 2))). code ltac:(apply (IWPush _ 1 (ex_e 2))).
      code ltac:(apply (IPollEnd _ 0)). code ltac:(apply (ITakeFree _ [] 0)).
      cal ltac:(apply (CFlush _ false)).
      code ltac:(apply (IFFlush _ 0 4 [(0%Z, 1); (0%Z, 2); (0%Z, 3)]);
        [|top [(0%Z, 1); (0%Z, 2); (0%Z, 3)] (@nil (Z * nat))|]).
      code ltac:(apply (IFFlush _ 0 2 [(0%Z, 1); (0%Z, 3)]); [|top [(0%Z, 1)] [(0%Z, 3)]|]).
      code ltac:(apply (IFFlush _ 0 3 [(0%Z, 1)]); [|top [(0%Z, 1)] (@nil (Z * nat))|]).
      code ltac:(apply (IFFlush _ 0 1 []); [|top (@nil (Z * nat)) (@nil (Z * nat))|]).
      env 0. env 0. env 1. env 1. env 2. env 2. env 3. env 3.
      code ltac:(apply IFFlushEnd).
      code ltac:(apply (IFWait _ 4 [2; 3; 1])). code ltac:(apply (IFWait _ 2 [3; 1])).
      code ltac:(apply (IFWait _ 3 [1])). code ltac:(apply (IFWait _ 1 [])).
      code ltac:(apply IFWaitEnd). constructor.
    - reflexivity. }
  destruct R as (s & R & D).
  enough (w_disk s (ex_e 0) = 22) by congruence.
  eapply (H 5 4) with (l1 := [(ex_e 1, 0); (ex_e 0, 11)]) (l2 := [(ex_e 2, 0)]); eauto.
  - unfold disciplined. notin.
  - exists (firstn 39 ex_same). reflexivity.
  - notin.
Qed.
Print Assumptions C41_same_block_twice_refuted.

(** The prefix of the run in which the third write() is waiting for a buffer:
    the condition of C42 holds and nothing has been transferred yet. *)
Example C42_case : exists s, wrun ex_init (firstn 19 ex_trace) s /\
  disciplined (firstn 19 ex_trace) /\ w_bs ex_init + length (w_held s) < w_n ex_init /\
  w_free s = [] /\ w_pc s = GPoll 0 /\ length (w_busy s) = 2.
Proof.
  eexists. split.
  - unfold ex_init, ex_trace, firstn. norm.
    cal ltac:(apply CGet). code ltac:(apply (IPollEnd _ 0)).
    code ltac:(apply (ITakeFree _ [0; 1] 2)).
    cal ltac:(apply (CFill _ 2 11)).
    cal ltac:(apply (CWrite _ [] 2 [] ex_d1)).
    code ltac:(apply (IWPush _ 2 ex_d1)).
    code ltac:(apply (IPollEnd _ 0)).
    code ltac:(apply (ITakeFree _ [0] 1)).
    cal ltac:(apply (CFill _ 1 22)).
    cal ltac:(apply (CWrite _ [] 1 [] ex_d2)).
    code ltac:(apply (IWPush _ 1 ex_d2)).
    code ltac:(apply (IPollEnd _ 0)).
    code ltac:(apply (ITakeFree _ [] 0)).
    cal ltac:(apply (CFill _ 0 33)).
    cal ltac:(apply (CWrite _ [] 0 [] ex_d3)).
    code ltac:(apply (IWFlush _ 0 ex_d3 40 1 [(100%Z, 2)]); [|top (@nil (Z * nat)) [(100%Z, 2)]|]).
    code ltac:(apply (IWFlush _ 0 ex_d3 100 2 []); [|top (@nil (Z * nat)) (@nil (Z * nat))|]).
    code ltac:(apply (IWFlushEnd _ 0 ex_d3)).
    code ltac:(apply (IWPush _ 0 ex_d3)).
    constructor.
  - csplit; try reflexivity; [unfold disciplined; notin|cbn; lia].
Qed.

(** ... and a pair of parameters for which the writer blocks. *)
Example C42_case_large_batch :
  w_n (w_init 2 2 (fun _ => 0) (fun _ => ex_d1) (fun _ => 7)) = 2 /\
  w_bs (w_init 2 2 (fun _ => 0) (fun _ => ex_d1) (fun _ => 7)) = 2.
Proof. split; reflexivity. Qed.

(** Two buffers, batch size 1.  The caller goes on using buffer 0 after a
    flush: it fills and writes it, gets it once more through write(), changes
    it while the first write is still waiting, and block d2 gets the content
    meant for d3. *)
Definition ex_keep : list (wlabel nat) :=
  [LGet; LTau; LRet 1; LFill 1 11; LWrite 1 ex_d1 11; LTau; LTau; LRet 0;
   LFlush true; LTau; LTau; LServe ex_d1 11; LTau; LTau; LFlushed;
   LFill 0 22; LWrite 0 ex_d2 22; LTau; LTau; LRet 1;
   LFill 1 33; LWrite 1 ex_d3 33; LTau; LTau; LTau; LTau; LTau; LRet 0; LFill 0 44;
   LServe ex_d2 44].

Lemma ex_keep_run : exists s1 s2 s3,
  wrun (w_init 2 1 (fun _ => 0) ex_e (fun _ => 7)) (firstn 15 ex_keep) s1 /\
  wrun s1 (firstn 14 (skipn 15 ex_keep)) s2 /\ wrun s2 (skipn 29 ex_keep) s3 /\
  In 0 (w_held s1) /\ In 0 (w_held s2) /\ in_flight s2 0 /\ w_disk s3 ex_d2 = 44.
Proof.
  eexists. eexists. eexists. split.
  - unfold ex_keep, firstn. norm.
    cal ltac:(apply CGet). code ltac:(apply (IPollEnd _ 0)).
    code ltac:(apply (ITakeFree _ [0] 1)).
    cal ltac:(apply (CFill _ 1 11)).
    cal ltac:(apply (CWrite _ [] 1 [] ex_d1)). code ltac:(apply (IWPush _ 1 ex_d1)).
    code ltac:(apply (IPollEnd _ 0)). code ltac:(apply (ITakeFree _ [] 0)).
    cal ltac:(apply (CFlush _ true)).
    code ltac:(apply (IFFlush _ 100 1 []); [|top (@nil (Z * nat)) (@nil (Z * nat))|]).
    code ltac:(apply IFFlushEnd). env 0. env 0.
    code ltac:(apply (IFWait _ 1 [])). code ltac:(apply IFWaitEnd). constructor.
  - split.
    + unfold ex_keep, firstn, skipn. norm.
      cal ltac:(apply (CFill _ 0 22)).
      cal ltac:(apply (CWrite _ [] 0 [] ex_d2)). code ltac:(apply (IWPush _ 0 ex_d2)).
      code ltac:(apply (IPollEnd _ 0)). code ltac:(apply (ITakeFree _ [0] 1)).
      cal ltac:(apply (CFill _ 1 33)).
      cal ltac:(apply (CWrite _ [] 1 [] ex_d3)).
      code ltac:(apply (IWFlush _ 1 ex_d3 40 0 []); [|top (@nil (Z * nat)) (@nil (Z * nat))|]).
      code ltac:(apply (IWFlushEnd _ 1 ex_d3)). code ltac:(apply (IWPush _ 1 ex_d3)).
      code ltac:(apply (IPollMiss _ 0 0)). code ltac:(apply (IPollEnd _ 1)).
      code ltac:(apply (ITakeFree _ [] 0)).
      cal ltac:(apply (CFill _ 0 44)). constructor.
    + split.
      * unfold ex_keep, skipn. norm. env 1. constructor.
      * csplit; [cbn; auto|cbn; auto| |reflexivity].
        exists (MkReq 0 ex_d2 Posted). csplit; [cbn; auto|reflexivity|discriminate].
Qed.

(** Without the restriction to callers that drop their buffers at flush(), the
    claim of C41 is false: a buffer may be handed out while it is in flight,
    and something is written that was never passed to write(). *)
Theorem C43_keeping_buffers_refuted :
  ~ (forall bsz bt mem bids (disk0 : bid -> nat) tr s,
       wrun (w_init bsz bt mem bids disk0) tr s ->
       forall d a, In (d, a) (served tr) -> In (d, a) (calls tr)) /\
  ~ (forall bsz bt mem bids (disk0 : bid -> nat) tr s b,
       wrun (w_init bsz bt mem bids disk0) tr s -> In b (w_held s) -> ~ in_flight s b).
Proof.
  destruct ex_keep_run as (s1 & s2 & s3 & R1 & R2 & R3 & _ & Hh & Hf & _).
  pose proof (wrun_app _ _ _ _ _ R1 R2) as R12.
  pose proof (wrun_app _ _ _ _ _ R12 R3) as R. split.
  - intros H. specialize (H _ _ _ _ _ _ _ R ex_d2 44). cbn in H.
    destruct H as [H|[H|[H|[]]]]; auto; inversion H.
  - intros H. apply (H _ _ _ _ _ _ _ 0 R12 Hh Hf).
Qed.
Print Assumptions C43_keeping_buffers_refuted.

(** The hypotheses of the C43 theorems: buffer 0 is kept over the flush. *)
Example C43_case : exists s,
  wrun (w_init 2 1 (fun _ => 0) ex_e (fun _ => 7)) (firstn 14 ex_keep ++ [LFlushed]) s /\
  In 0 (w_held s).
Proof. destruct ex_keep_run as (s1 & _ & _ & R1 & _ & _ & H & _). exists s1. auto. Qed.
