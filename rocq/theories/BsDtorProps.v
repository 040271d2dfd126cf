(** Properties C86 and C87: the external blocks of the block scheduler, and its
    destructors. *)
From Coq Require Import ZArith List Bool Lia Permutation Arith.
From Verif Require Import BsModel BsSpec BsProofs BsProofs2 BsProofs3 BsProofs4 BsProofs5 BsProps1 BsSpaceProofs BsDtorModel BsDtorProofs BsDtorProofs2
  PfModel PfSpec PfInv PfProofs12 PfProofs13 PfProofs14 PfProps1 PfSpaceProofs PfDtorModel PfDtorProofs.
Import ListNotations.

(** A block that holds a value or is acquired. *)
Definition has_value (c : client) (b : nat) : bool :=
  match val (vw c b) with Some _ => true | None => Nat.ltb 0 (refs (vw c b)) end.

Section Props.
Variable pick : nat -> list nat -> nat.
Variable dflt : option Z.
Hypothesis Fresh : fresh_blocks pick.

Lemma protocol_exact max m d ops rs s p : protocol_run pick dflt max m d ops rs s p -> exact s p.
Proof.
  intros (E & L & ->). exact (exact_run pick dflt Fresh max ops _ _ _ _ (R_start max m d) (exact_start max m d) E L).
Qed.

(** ** C86 *)

(** The external blocks in use are those of the client and those of swappable
    blocks; nothing is leaked, and nothing of these is freed. *)
Theorem C86_exact max m d ops rs s c : protocol_run pick dflt max m d ops rs s c ->
  NoDup (used s) /\
  (forall e, In e (used s) <-> own c e <> None \/ exists b, ext (blk s b) = Some e) /\
  (forall b b' e, ext (blk s b) = Some e -> ext (blk s b') = Some e -> b = b') /\
  (forall b e, ext (blk s b) = Some e -> own c e = None).
Proof.
  intros H. destruct (protocol_exact _ _ _ _ _ _ _ H) as (N & X). apply (protocol_R pick dflt Fresh) in H.
  split; [exact N|]. split; [|split; [apply (R_inj _ _ _ _ _ H)|intros b e Hb; apply (R_used _ _ _ _ _ H b e Hb)]].
  intros e. split; [apply X|]. intros [K|(b & K)]; [|apply (R_used _ _ _ _ _ H b e K)].
  destruct (own c e) as [x|] eqn:Eo; [|congruence]. apply (R_own _ _ _ _ _ H e x Eo).
Qed.

(** A block without a value that is not acquired has none. *)
Theorem C86_no_value max m d ops rs s c b : protocol_run pick dflt max m d ops rs s c ->
  has_value c b = false -> ext (blk s b) = None.
Proof.
  intros H Hv. apply (protocol_R pick dflt Fresh) in H. unfold has_value in Hv.
  destruct (val (vw c b)) eqn:Ev; [discriminate|]. apply Nat.ltb_ge in Hv. destruct (live c b) eqn:El.
  - eapply no_value_no_ext; try eassumption. lia.
  - destruct (R_new _ _ _ _ _ H b El) as (E & _). rewrite E. reflexivity.
Qed.

(** So the number of external blocks is at most the number of those of the client
    plus the number of blocks that hold a value or are acquired. *)
Theorem C86_space max m d ops rs s c l : protocol_run pick dflt max m d ops rs s c ->
  (forall e, own c e <> None -> In e l) ->
  length (used s) <= length l + length (those (nblk s) (has_value c)).
Proof.
  intros H Hl. destruct (C86_exact _ _ _ _ _ _ _ H) as (N & X & _ & _).
  set (f := fun b => match ext (blk s b) with Some e => e | None => 0 end).
  assert (I : incl (used s) (l ++ map f (those (nblk s) (has_value c)))).
  { intros e He. apply in_or_app. apply X in He. destruct He as [K|(b & K)]; [auto|right].
    apply in_map_iff. exists b. split; [unfold f; rewrite K; reflexivity|]. apply filter_In. split.
    - apply in_seq. destruct (le_lt_dec (nblk s) b) as [J|J]; [|lia]. exfalso.
      pose proof (protocol_R pick dflt Fresh _ _ _ _ _ _ _ H) as HR.
      assert (El : live c b = false) by (destruct (live c b) eqn:El; [apply (R_live _ _ _ _ _ HR) in El; lia|reflexivity]).
      destruct (R_new _ _ _ _ _ HR b El) as (E & _). rewrite E in K. discriminate.
    - destruct (has_value c b) eqn:Ev; [reflexivity|]. rewrite (C86_no_value _ _ _ _ _ _ _ b H Ev) in K. discriminate. }
  pose proof (NoDup_incl_length N I) as K. rewrite app_length, map_length in K. exact K.
Qed.

(** Only deinitialize and free_swappable_block of the block it belongs to, and the
    client itself, free an external block. *)
Theorem C86_freed_only_by s o s1 r e : do pick dflt s o = Ok (s1, r) -> In e (used s) -> ~ In e (used s1) ->
  o = DelExt e \/ exists b, (o = Deinit b \/ o = Free b) /\ ext (blk s b) = Some e.
Proof. intros E H N. destruct (freed_do pick dflt Fresh s o s1 r e E H); tauto. Qed.

(** deinitialize and free_swappable_block free it. *)
Theorem C86_freed max m d ops rs s c o s1 r b e : protocol_run pick dflt max m d ops rs s c -> legal c o ->
  do pick dflt s o = Ok (s1, r) -> o = Deinit b \/ o = Free b -> simu c = false -> ext (blk s b) = Some e -> ~ In e (used s1).
Proof.
  intros H L E Ho Hs He K. apply (protocol_R pick dflt Fresh) in H. pose proof (R_simu _ _ _ _ _ H) as Es. rewrite Hs in Es. symmetry in Es.
  assert (G : forall s2, deinitialize s b = Ok s2 -> In e (used s2) -> False).
  { intros s2 E2 K2. destruct (deinit_ext _ _ _ E2 Es) as (_ & E3). rewrite E3, He in K2. apply in_remove in K2. tauto. }
  destruct Ho as [-> | ->]; cbn [do] in E; unfold free_block in E; destruct (deinitialize s b) as [s2| |] eqn:E2; try discriminate; cbn [bind] in E; injection E as <- <-;
    exact (G _ eq_refl K).
Qed.

(** The same with the prefetching algorithm. *)
Theorem C86_prefetch_exact max m d ops rs s c ps o ops1 rs1 rest p c1 :
  prefetch_run pick dflt max m d ops rs s c ps o ops1 rs1 rest p c1 ->
  NoDup (used (base p)) /\
  (forall e, In e (used (base p)) <-> own c1 e <> None \/ exists b, ext (blk (base p) b) = Some e) /\
  (forall b b' e, ext (blk (base p) b) = Some e -> ext (blk (base p) b') = Some e -> b = b') /\
  (forall b e, ext (blk (base p) b) = Some e -> own c1 e = None) /\
  (forall b, has_value c1 b = false -> ext (blk (base p) b) = None).
Proof.
  intros H. destruct (exact_prefetch_run pick dflt Fresh _ _ _ _ _ _ _ _ _ _ _ _ _ _ H) as (N & X).
  destruct (prefetch_run_ok pick dflt Fresh _ _ _ _ _ _ _ _ _ _ _ _ _ _ H) as ((Q & I & _) & _).
  split; [exact N|]. split; [|split; [apply (I_inj _ _ _ _ _ I)|split; [intros b e Hb; apply (I_used _ _ _ _ _ I b e Hb)|]]].
  - intros e. split; [apply X|]. intros [K|(b & K)]; [|apply (I_used _ _ _ _ _ I b e K)].
    destruct (own c1 e) as [x|] eqn:Eo; [|congruence]. apply (I_own _ _ _ _ _ I e x Eo).
  - intros b Hv. unfold has_value in Hv. destruct (val (vw c1 b)) eqn:Ev; [discriminate|]. apply Nat.ltb_ge in Hv.
    rewrite (I_un _ _ _ _ _ I b); [reflexivity|lia|assumption].
Qed.

Theorem C86_prefetch_freed_only_by p o q r e : pdo pick dflt p o = Ok (q, r) -> In e (used (base p)) -> ~ In e (used (base q)) ->
  (forall b, o <> Extract b) -> o <> Flush ->
  o = DelExt e \/ exists b, (o = Deinit b \/ o = Free b) /\ ext (blk (base p) b) = Some e.
Proof. intros E H N N1 N2. destruct (freed_pdo pick dflt Fresh p o q r e E H N1 N2); tauto. Qed.

(** ** C87 *)

(** The destructor frees every external block of the scheduler except those of
    blocks that are still acquired, and none of the client, whose contents stay;
    the message about lost internal blocks gives the number of acquired blocks. *)
Theorem C87_destructor max m d ops rs s c : protocol_run pick dflt max m d ops rs s c ->
  exists s1, bs_dtor max s = Ok (s1, Z.of_nat (length (acquired_blocks s))) /\ NoDup (used s1) /\
  (forall e, In e (used s1) <-> own c e <> None \/ exists b, is_acquired (blk s b) = true /\ ext (blk s b) = Some e) /\
  (forall e x, own c e = Some x -> disk s1 e = x) /\
  (forall b, is_acquired (blk s b) = false -> sb_initialized (blk s1 b) = false).
Proof.
  intros H. pose proof (protocol_exact _ _ _ _ _ _ _ H) as X. apply (protocol_R pick dflt Fresh) in H.
  destruct (dtor_ok max s c H X) as (s1 & E & A1 & A2 & A3 & A4). exists s1. split; [exact E|]. split; [exact A1|]. split; [exact A2|]. split.
  - intros e x K. rewrite A3. apply (R_own _ _ _ _ _ H e x K).
  - intros b Hb. rewrite A4, Hb. reflexivity.
Qed.

(** If no block is acquired, nothing is left but what the client owns. *)
Theorem C87_nothing_leaked max m d ops rs s c : protocol_run pick dflt max m d ops rs s c -> (forall b, refs (vw c b) = 0) ->
  exists s1, bs_dtor max s = Ok (s1, 0%Z) /\ forall e, In e (used s1) <-> own c e <> None.
Proof.
  intros H Hr. destruct (C87_destructor _ _ _ _ _ _ _ H) as (s1 & E & _ & A & _). apply (protocol_R pick dflt Fresh) in H.
  assert (Na : forall b, is_acquired (blk s b) = false).
  { intros b. destruct (live c b) eqn:El.
    - destruct (R_rel _ _ _ _ _ H b El) as (K & _). unfold is_acquired. rewrite K, Hr. reflexivity.
    - destruct (R_new _ _ _ _ _ H b El) as (K & _). rewrite K. reflexivity. }
  exists s1. split.
  - rewrite E. replace (acquired_blocks s) with (@nil nat); [reflexivity|]. unfold acquired_blocks, those.
    induction (seq 0 (nblk s)) as [|x l IH]; [reflexivity|]. cbn [filter]. rewrite Na. exact IH.
  - intros e. rewrite A. split; [|auto]. intros [K|(b & K & _)]; [assumption|]. rewrite Na in K. discriminate.
Qed.

(** The same while the prefetching algorithm is in use, whatever is in flight. *)
Theorem C87_prefetch_destructor max m d ops rs s c ps o ops1 rs1 rest p c1 :
  prefetch_run pick dflt max m d ops rs s c ps o ops1 rs1 rest p c1 ->
  exists s1, pf_dtor max p = Ok (s1, Z.of_nat (length (acquired_blocks (base p)))) /\ NoDup (used s1) /\
  (forall e, In e (used s1) <-> own c1 e <> None \/ exists b, is_acquired (blk (base p) b) = true /\ ext (blk (base p) b) = Some e) /\
  (forall e x, own c1 e = Some x -> disk s1 e = x).
Proof.
  intros H. pose proof (exact_prefetch_run pick dflt Fresh _ _ _ _ _ _ _ _ _ _ _ _ _ _ H) as X.
  destruct (prefetch_run_ok pick dflt Fresh _ _ _ _ _ _ _ _ _ _ _ _ _ _ H) as ((Q & I & _) & _).
  exact (pf_dtor_ok max Q c1 p I X).
Qed.

(** An algorithm object that is constructed for the scheduler but not switched to
    takes the values of all evictable blocks with it when it is destroyed.  The
    scheduler can still be used: it behaves as if these blocks had been
    deinitialised. *)
Theorem C87_unused_algorithm max m d ops rs s c : protocol_run pick dflt max m d ops rs s c ->
  exists s1, unused_algorithm s = Ok s1 /\
  forall ops1 rs1 s2, run pick dflt s1 ops1 = Ok (s2, rs1) -> legal_run (lost s c) (combine ops1 rs1) ->
  agrees dflt (lost s c) (combine ops1 rs1).
Proof.
  intros H. apply (protocol_R pick dflt Fresh) in H. destruct (unused_ok pick dflt Fresh max s c H) as (s1 & E & R1).
  exists s1. split; [exact E|]. intros ops1 rs1 s2 E1 L1. exact (proj1 (proj2 (run_R pick dflt Fresh _ _ _ _ _ _ R1 E1 L1))).
Qed.

End Props.

(** Three blocks and two internal blocks; external block 1 was taken over from the
    client, 2 is of block 0 (evicted), 3 of the client. *)
Definition ops86 : list op :=
  [Alloc; Alloc; Alloc; NewExt 12%Z; Init 2 (Some 1); Acq 0 true; Write 0 10%Z; Rel 0 true;
   Acq 1 true; Write 1 11%Z; Rel 1 true; Acq 2 false; NewExt 13%Z].
Definition out86 := run pick0 None (start 2 (fun _ => 7%Z) (fun _ => 0%Z)) ops86.
Definition s86 : st := match out86 with Ok (s, _) => s | _ => start 0 (fun _ => 0%Z) (fun _ => 0%Z) end.
Definition res86 : list res := match out86 with Ok (_, rs) => rs | _ => [] end.
Definition c86 : client := after_all c0 (combine ops86 res86).
Lemma run86 : run pick0 None (start 2 (fun _ => 7%Z) (fun _ => 0%Z)) ops86 = Ok (s86, res86).
Proof. vm_compute. reflexivity. Qed.

Example C86_case :
  protocol_run pick0 None 2 (fun _ => 7%Z) (fun _ => 0%Z) ops86 res86 s86 c86 /\
  used s86 = [3; 2; 1] /\ own c86 3 = Some 13%Z /\ ext (blk s86 0) = Some 2 /\ ext (blk s86 1) = None /\ ext (blk s86 2) = Some 1 /\
  map (has_value c86) [0; 1; 2; 3] = [true; true; true; false] /\
  match do pick0 None s86 (Deinit 0) with Ok (s1, _) => used s1 = [3; 1] | _ => False end.
Proof.
  split; [|vm_compute; repeat split]. split; [exact run86|]. split; [apply legalb_run_ok; vm_compute; reflexivity|].
  unfold c86. reflexivity.
Qed.

(** Block 2 is acquired: its external block 1 and an internal block are lost; if it
    is released before, they are not. *)
Example C87_case :
  protocol_run pick0 None 2 (fun _ => 7%Z) (fun _ => 0%Z) ops86 res86 s86 c86 /\
  match bs_dtor 2 s86 with Ok (s1, n) => used s1 = [3; 1] /\ n = 1%Z /\ disk s1 3 = 13%Z | _ => False end /\
  match run pick0 None s86 [Rel 2 false] with
  | Ok (s, _) => match bs_dtor 2 s with Ok (s1, n) => used s1 = [3] /\ n = 0%Z | _ => False end
  | _ => False
  end.
Proof. split; [exact (proj1 C86_case)|]. vm_compute. repeat split. Qed.

(** With the prefetching algorithm, a write and two reads in flight. *)
Example C87_prefetch_case :
  match p83 4 with
  | Ok (p, _) => wq p 0 <> None /\ match pf_dtor 2 p with Ok (s1, n) => n = Z.of_nat (length (acquired_blocks (base p))) /\ length (used s1) < length (used (base p)) | _ => False end
  | _ => False
  end.
Proof. vm_compute. repeat split; [discriminate|lia]. Qed.

Definition d86 : st := match bs_dtor 2 s86 with Ok (s, _) => s | _ => s86 end.
Lemma dtor86 : bs_dtor 2 s86 = Ok (d86, 1%Z).
Proof. vm_compute. reflexivity. Qed.
Lemma used86 : used d86 = [3; 1].
Proof. vm_compute. reflexivity. Qed.
Lemma own86 : own c86 1 = None.
Proof. vm_compute. reflexivity. Qed.

(** The destructor does not free all external blocks of the scheduler. *)
Theorem C87_acquired_leaks_refuted :
  exists max ops rs s c s1 n e, protocol_run pick0 None max (fun _ => 7%Z) (fun _ => 0%Z) ops rs s c /\
  bs_dtor max s = Ok (s1, n) /\ In e (used s1) /\ own c e = None.
Proof.
  exists 2, ops86, res86, s86, c86, d86, 1%Z, 1. split; [exact (proj1 C86_case)|]. split; [exact dtor86|].
  split; [rewrite used86; right; left; reflexivity|exact own86].
Qed.

(** Constructing an algorithm object and destroying it again does not keep the
    values of the blocks: block 1 held 11. *)
Theorem C87_unused_keeps_values_refuted :
  val (vw c86 1) = Some 11%Z /\ refs (vw c86 1) = 0 /\
  match unused_algorithm s86 with
  | Ok s1 => results (run pick0 (Some 0%Z) s1 [IsInit 1; Acq 1 false]) = Some [RBool false; RData 0%Z]
  | _ => False
  end.
Proof. vm_compute. repeat split. Qed.

Print Assumptions C86_exact.
Print Assumptions C86_no_value.
Print Assumptions C86_space.
Print Assumptions C86_freed_only_by.
Print Assumptions C86_freed.
Print Assumptions C86_prefetch_exact.
Print Assumptions C86_prefetch_freed_only_by.
Print Assumptions C87_destructor.
Print Assumptions C87_nothing_leaked.
Print Assumptions C87_prefetch_destructor.
Print Assumptions C87_unused_algorithm.
Print Assumptions C87_acquired_leaks_refuted.
Print Assumptions C87_unused_keeps_values_refuted.
