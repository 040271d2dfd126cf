(** Property C90: the LFD algorithm of the block scheduler reads as few blocks as
    possible. *)
From Coq Require Import ZArith List Bool Lia Permutation Arith.
From Verif Require Import BsModel BsSpec BsProofs BsProofs2 BsProofs3 BsProofs4 BsProofs5 BsProofs6 BsProps1 BeladySpec BeladyProofs BeladyProofs2.
Import ListNotations.

Section Props.
Variable pick : nat -> list nat -> nat.
Variable dflt : option Z.
Hypothesis Fresh : fresh_blocks pick.

Lemma none_acquired max m d ops rs s p : protocol_run pick dflt max m d ops rs s p -> acquired_blocks s = [] ->
  forall c, refs (vw p c) = 0.
Proof.
  intros H Ha c. pose proof (protocol_R _ _ Fresh _ _ _ _ _ _ _ H) as HR. destruct (live p c) eqn:Lc.
  - destruct (R_rel _ _ _ _ _ HR c Lc) as (Er & _). rewrite <- Er.
    destruct (is_acquired (blk s c)) eqn:Ec; [exfalso|apply acquired_false; assumption].
    assert (K : In c (acquired_blocks s)).
    { unfold acquired_blocks, those. apply filter_In. split; [|assumption]. apply in_seq.
      pose proof (proj1 (R_live _ _ _ _ _ HR c) Lc). lia. }
    rewrite Ha in K. contradiction.
  - rewrite (proj2 (R_new _ _ _ _ _ HR c Lc)). reflexivity.
Qed.

(** The switch and the program, after the operations [ops0]. *)
Lemma program_after max m d ops0 o rs0 s0 p0 l rs s p : protocol_run pick dflt max m d ops0 rs0 s0 p0 ->
  (o = ToLru \/ exists ps, o = ToLfd ps) ->
  protocol_run pick dflt max m d (ops0 ++ [o] ++ program l) rs s p ->
  exists s1 rs1, do pick dflt s0 o = Ok (s1, RNone) /\ R max [] [] s1 (set_simu p0 false) /\
    run pick dflt s1 (program l) = Ok (s, rs1) /\ legal_run (set_simu p0 false) (combine (program l) rs1) /\
    internal_blocks s1 = internal_blocks s0.
Proof.
  intros (E0 & L0 & ->) Ho (E & L & _).
  destruct (run_app _ _ _ _ _ _ _ E) as (s2 & rs1 & rs2 & E1 & E2 & ->).
  assert (K : s2 = s0 /\ rs1 = rs0) by (split; congruence). destruct K as (-> & ->). clear E1.
  rewrite combine_app in L by (symmetry; eapply run_length; exact E0).
  apply legal_run_app in L. destruct L as (_ & L2).
  pose proof (proj1 (run_R pick dflt Fresh _ _ _ _ _ _ (R_start max m d) E0 L0)) as H0.
  set (p0 := after_all c0 (combine ops0 rs0)) in *.
  assert (Lo : legal p0 o) by (destruct Ho as [->|(ps & ->)]; exact I).
  assert (Ao : forall r, after p0 o r = set_simu p0 false) by (destruct Ho as [->|(ps & ->)]; reflexivity).
  cbn [app run] in E2. destruct (do pick dflt s0 o) as [(s1, x)| |] eqn:Ed; cbn [bind] in E2; try discriminate.
  destruct (run pick dflt s1 (program l)) as [(s4, xs)| |] eqn:E3; cbn [bind] in E2; try discriminate.
  injection E2 as <- <-. cbn [app combine legal_run] in L2. destruct L2 as (_ & L2). rewrite Ao in L2.
  destruct (R_step pick dflt Fresh _ _ _ _ _ _ H0 Lo Ed) as (H1 & _). rewrite Ao in H1.
  exists s1, xs. destruct Ho as [->|(ps & ->)]; cbn [do] in Ed.
  - injection Ed as <- <-. repeat (split; [assumption || reflexivity|]). reflexivity.
  - unfold to_lfd in *. destruct (lfd_scan ps). injection Ed as <- <-. repeat (split; [assumption || reflexivity|]). reflexivity.
Qed.

(** ** C90 *)

(** The program [l] is run with LFD and its forecast, after the operations
    [ops0], when no block is acquired and those the program uses hold values.
    Whatever way of serving its requests with the memory of the scheduler there
    is, LFD reads no more blocks. *)
Theorem C90_reads_minimal max m d ops0 rs0 s0 p0 l rs s p n :
  protocol_run pick dflt max m d ops0 rs0 s0 p0 -> acquired_blocks s0 = [] ->
  (forall b, In b (requests l) -> val (vw p0 b) <> None) ->
  (Z.of_nat (length l) < 2 ^ 62 - 1)%Z ->
  protocol_run pick dflt max m d (ops0 ++ [ToLfd (forecast 0 l)] ++ program l) rs s p ->
  served max (internal_blocks s0) (requests l) n ->
  reads pick dflt (to_lfd s0 (forecast 0 l)) (program l) <= n.
Proof.
  intros H0 Ha Hv Ht H Hn. pose proof (none_acquired _ _ _ _ _ _ _ H0 Ha) as Hz.
  destruct (program_after _ _ _ _ _ _ _ _ _ _ _ _ H0 (or_intror (ex_intro _ _ eq_refl)) H) as (s1 & rs1 & Ed & H1 & E1 & L1 & Ei).
  cbn [do] in Ed. injection Ed as <-.
  pose proof (lfd_program pick dflt Fresh max l 0 _ _ _ _ H1 eq_refl Hz Hv Ht (lfd_start _ _) E1 L1) as Hl.
  rewrite Ei in Hl. eapply lfd_optimal; [| |exact Hl|exact Hn]; [apply internal_NoDup|].
  pose proof (protocol_R _ _ Fresh _ _ _ _ _ _ _ H0) as HR. pose proof (R_counts pick _ _ _ HR) as (C1 & C2 & _). lia.
Qed.

(** Its own run is such a way, so the minimum is attained. *)
Theorem C90_minimum_attained max m d ops0 rs0 s0 p0 l rs s p :
  protocol_run pick dflt max m d ops0 rs0 s0 p0 -> acquired_blocks s0 = [] ->
  (forall b, In b (requests l) -> val (vw p0 b) <> None) ->
  protocol_run pick dflt max m d (ops0 ++ [ToLfd (forecast 0 l)] ++ program l) rs s p ->
  served max (internal_blocks s0) (requests l) (reads pick dflt (to_lfd s0 (forecast 0 l)) (program l)).
Proof.
  intros H0 Ha Hv H. pose proof (none_acquired _ _ _ _ _ _ _ H0 Ha) as Hz.
  destruct (program_after _ _ _ _ _ _ _ _ _ _ _ _ H0 (or_intror (ex_intro _ _ eq_refl)) H) as (s1 & rs1 & Ed & H1 & E1 & L1 & Ei).
  cbn [do] in Ed. injection Ed as <-. rewrite <- Ei. eapply program_served; eassumption || reflexivity.
Qed.

(** In particular the online algorithm reads at least as many. *)
Theorem C90_no_more_than_lru max m d ops0 rs0 s0 p0 l rs s p rs' s' p' :
  protocol_run pick dflt max m d ops0 rs0 s0 p0 -> acquired_blocks s0 = [] ->
  (forall b, In b (requests l) -> val (vw p0 b) <> None) ->
  (Z.of_nat (length l) < 2 ^ 62 - 1)%Z ->
  protocol_run pick dflt max m d (ops0 ++ [ToLfd (forecast 0 l)] ++ program l) rs s p ->
  protocol_run pick dflt max m d (ops0 ++ [ToLru] ++ program l) rs' s' p' ->
  reads pick dflt (to_lfd s0 (forecast 0 l)) (program l) <= reads pick dflt (to_lru s0) (program l).
Proof.
  intros H0 Ha Hv Ht H H'. eapply C90_reads_minimal; try eassumption.
  pose proof (none_acquired _ _ _ _ _ _ _ H0 Ha) as Hz.
  destruct (program_after _ _ _ _ _ _ _ _ _ _ _ _ H0 (or_introl eq_refl) H') as (s1 & rs1 & Ed & H1 & E1 & L1 & Ei).
  cbn [do] in Ed. injection Ed as <-. rewrite <- Ei. eapply program_served; eassumption || reflexivity.
Qed.

(** The forecast is what a simulation of the program records. *)
Theorem C90_forecast_simulated s0 l t1 rs1 : run pick dflt (to_sim s0) (sim_program l) = Ok (t1, rs1) ->
  exists k m1, al t1 = Sim k m1 /\ pseq m1 = forecast 0 l.
Proof.
  intros E. unfold to_sim in E. edestruct (sim_records pick dflt l) as (m1 & I1 & I2); [|exact E|]; [reflexivity|].
  eexists. exists m1. split; [exact I1|]. rewrite I2. reflexivity.
Qed.

End Props.

Print Assumptions C90_reads_minimal.
Print Assumptions C90_minimum_attained.
Print Assumptions C90_no_more_than_lru.
Print Assumptions C90_forecast_simulated.

(** ** Concrete cases *)

Definition setup90 : list op :=
  [Alloc; Alloc; Alloc; Acq 0 false; Write 0 10; Rel 0 true; Acq 1 false; Write 1 11; Rel 1 true;
   Acq 2 false; Write 2 12; Rel 2 true; Flush].
Definition prog90 : list visit :=
  [mkVisit 0 [None] false; mkVisit 1 [] false; mkVisit 2 [None; Some 5%Z] true; mkVisit 0 [] false;
   mkVisit 1 [None] false; mkVisit 2 [] false].
Definition s90 : st := match run pick0 None (start 2 (fun _ => 7%Z) (fun _ => 0%Z)) setup90 with Ok (s, _) => s | _ => start 0 (fun _ => 0%Z) (fun _ => 0%Z) end.

(** Three blocks are used in turn with room for two: LFD reads four blocks, the
    online algorithm all six. *)
Example C90_case :
  (exists rs p, protocol_run pick0 None 2 (fun _ => 7%Z) (fun _ => 0%Z) setup90 rs s90 p /\
     forall b, In b (requests prog90) -> val (vw p b) <> None) /\
  acquired_blocks s90 = [] /\ internal_blocks s90 = [] /\
  (exists rs s p, protocol_run pick0 None 2 (fun _ => 7%Z) (fun _ => 0%Z)
     (setup90 ++ [ToLfd (forecast 0 prog90)] ++ program prog90) rs s p) /\
  (exists rs s p, protocol_run pick0 None 2 (fun _ => 7%Z) (fun _ => 0%Z)
     (setup90 ++ [ToLru] ++ program prog90) rs s p) /\
  reads pick0 None (to_lfd s90 (forecast 0 prog90)) (program prog90) = 4 /\
  reads pick0 None (to_lru s90) (program prog90) = 6 /\
  served 2 [] (requests prog90) 4.
Proof.
  repeat match goal with |- _ /\ _ => split end;
    try (vm_compute; reflexivity);
    try (do 3 eexists; split; [vm_compute; reflexivity|]; split; [|reflexivity]; cbn; repeat split; auto; right; split; auto; lia).
  - do 2 eexists. split; [split; [vm_compute; reflexivity|split; [|reflexivity]]|].
    + cbn; repeat split; auto; right; split; auto; lia.
    + cbn. intros b Hb. intuition subst; discriminate.
  - refine (served_cons 2 [] [0] 0 _ 3 _ _ _ _); [repeat constructor; auto|cbn; lia|left; reflexivity|].
    refine (served_cons 2 [0] [0; 1] 1 _ 2 _ _ _ _); [repeat constructor; cbn; intuition discriminate|cbn; lia|right; left; reflexivity|].
    refine (served_cons 2 [0; 1] [0; 2] 2 _ 1 _ _ _ _); [repeat constructor; cbn; intuition discriminate|cbn; lia|right; left; reflexivity|].
    refine (served_cons 2 [0; 2] [0; 2] 0 _ 1 _ _ _ _); [repeat constructor; cbn; intuition discriminate|cbn; lia|left; reflexivity|].
    refine (served_cons 2 [0; 2] [1; 2] 1 _ 0 _ _ _ _); [repeat constructor; cbn; intuition discriminate|cbn; lia|left; reflexivity|].
    refine (served_cons 2 [1; 2] [1; 2] 2 _ 0 _ _ _ _); [repeat constructor; cbn; intuition discriminate|cbn; lia|right; left; reflexivity|].
    constructor.
Qed.

(** Only the reads are minimal.  With the writes counted as well another
    choice can be better: LFD evicts the dirty block 0, which is used last, and
    has to write it once more; with a wrong forecast it keeps it. *)
Definition setup90w : list op :=
  [Alloc; Alloc; Alloc; Acq 0 false; Write 0 10; Rel 0 true; Acq 1 false; Write 1 11; Rel 1 true;
   Acq 2 false; Write 2 12; Rel 2 true; Flush; Acq 1 false; Rel 1 false; Acq 0 false; Write 0 20; Rel 0 true].
Definition prog90w : list visit := [mkVisit 2 [] false; mkVisit 1 [] false; mkVisit 0 [Some 30%Z] true].
Definition other90w : list pse := forecast 0 [mkVisit 2 [] false; mkVisit 0 [] true; mkVisit 1 [] false].
Definition s90w : st := match run pick0 None (start 2 (fun _ => 7%Z) (fun _ => 0%Z)) setup90w with Ok (s, _) => s | _ => start 0 (fun _ => 0%Z) (fun _ => 0%Z) end.

Theorem C90_transfers_refuted :
  (exists rs p, protocol_run pick0 None 2 (fun _ => 7%Z) (fun _ => 0%Z) setup90w rs s90w p /\
     forall b, In b (requests prog90w) -> val (vw p b) <> None) /\
  acquired_blocks s90w = [] /\
  (exists rs s p, protocol_run pick0 None 2 (fun _ => 7%Z) (fun _ => 0%Z)
     (setup90w ++ [ToLfd (forecast 0 prog90w)] ++ program prog90w ++ [Flush]) rs s p) /\
  (exists rs s p, protocol_run pick0 None 2 (fun _ => 7%Z) (fun _ => 0%Z)
     (setup90w ++ [ToLfd other90w] ++ program prog90w ++ [Flush]) rs s p) /\
  let tr s := reads pick0 None s (program prog90w ++ [Flush]) + writes pick0 None s (program prog90w ++ [Flush]) in
  tr (to_lfd s90w (forecast 0 prog90w)) = 4 /\ tr (to_lfd s90w other90w) = 3.
Proof.
  repeat match goal with |- _ /\ _ => split end;
    try (vm_compute; reflexivity);
    try (do 3 eexists; split; [vm_compute; reflexivity|]; split; [|reflexivity]; cbn; repeat split; auto; right; split; auto; lia).
  - do 2 eexists. split; [split; [vm_compute; reflexivity|split; [|reflexivity]]|].
    + cbn; repeat split; auto; right; split; auto; lia.
    + cbn. intros b Hb. intuition subst; discriminate.
  - vm_compute. split; reflexivity.
Qed.
Print Assumptions C90_transfers_refuted.
