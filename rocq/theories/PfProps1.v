(** Properties C83 and C84: with the prefetching algorithm the block scheduler is
    a transparent cache within its memory limit, whatever the I/O threads do
    when. *)
From Coq Require Import ZArith List Bool Lia Permutation Arith.
From Verif Require Import BsModel BsSpec BsProofs BsProofs2 BsProofs4 BsProps1 PfModel PfSpec PfInv PfProofs1 PfProofs6 PfProofs12 PfProofs13 PfProofs14.
Import ListNotations.

Section Props.
Variable pick : nat -> list nat -> nat.
Variable dflt : option Z.
Hypothesis Fresh : fresh_blocks pick.

(** ** C83 *)

(** Switching to the algorithm is always possible. *)
Theorem C83_start max m d ops rs s c ps o :
  protocol_run pick dflt max m d ops rs s c -> simu c = false -> predictable s ps ->
  exists p, pf_start pick s ps o = Ok p.
Proof.
  intros H Hs (P1 & P2). apply protocol_R in H; [|assumption].
  destruct (start_ok pick Fresh max s c ps o H Hs P1 P2) as (p & E & _). eauto.
Qed.

(** Every result agrees with the view of the client. *)
Theorem C83_transparent max m d ops rs s c ps o ops1 rs1 rest p c1 :
  prefetch_run pick dflt max m d ops rs s c ps o ops1 rs1 rest p c1 ->
  length rs1 = length ops1 /\ agrees dflt c (combine ops1 rs1).
Proof. intros H. apply prefetch_run_ok in H; [|assumption]. tauto. Qed.

(** An operation that is predicted and legal is defined; only acquire can run out
    of memory. *)
Theorem C83_defined max m d ops rs s c ps o ops1 rs1 rest p c1 x :
  prefetch_run pick dflt max m d ops rs s c ps o ops1 rs1 (predicts x ++ rest) p c1 ->
  legal c1 x -> supported (nblk s) c1 x ->
  (exists q r, pdo pick dflt p x = Ok (q, r)) \/
  (exists b un, x = Acq b un /\ pdo pick dflt p x = NoMemory).
Proof.
  intros H L Sp. apply prefetch_run_ok in H; [|assumption]. destruct H as (P & _ & _ & E & N). rewrite <- N in Sp.
  destruct (pdo_ok pick dflt Fresh max c1 p x rest P L Sp E) as [(q & r & K & _)|(b & un & K1 & K2 & _)]; eauto.
Qed.

(** At any time the client may switch back to the online algorithm, and goes on
    with the same views. *)
Theorem C83_switch_back max m d ops rs s c ps o ops1 rs1 rest p c1 :
  prefetch_run pick dflt max m d ops rs s c ps o ops1 rs1 rest p c1 ->
  exists s1, pf_to_lru p = Ok s1 /\
    (forall ops2 rs2 s2, run pick dflt s1 ops2 = Ok (s2, rs2) -> legal_run c1 (combine ops2 rs2) ->
       length rs2 = length ops2 /\ agrees dflt c1 (combine ops2 rs2)) /\
    (forall x, legal c1 x -> (exists s2 r, do pick dflt s1 x = Ok (s2, r)) \/
                             (exists b un, x = Acq b un /\ do pick dflt s1 x = NoMemory)).
Proof.
  intros H. apply prefetch_run_ok in H; [|assumption]. destruct H as ((Q & H & _) & _).
  destruct (to_lru_ok max Q c1 p H) as (s1 & E & HR & _). exists s1. split; [assumption|]. split.
  - intros ops2 rs2 s2 E2 L. destruct (run_R pick dflt Fresh _ _ _ _ _ _ HR E2 L) as (_ & K1 & K2). auto.
  - intros x L. destruct (do_ok pick dflt Fresh _ _ _ _ HR L) as [(s2 & r & K & _)|(b & un & K1 & K2 & _)]; eauto.
Qed.

(** ** C84 *)

(** Every internal block is in one place: free, attached or reserved. *)
Theorem C84_limit max m d ops rs s c ps o ops1 rs1 rest p c1 :
  prefetch_run pick dflt max m d ops rs s c ps o ops1 rs1 rest p c1 ->
  nalloc (base p) <= max /\ NoDup (free_i (base p) ++ all_buffers p) /\
  (forall i, In i (free_i (base p) ++ all_buffers p) <-> i < nalloc (base p)).
Proof.
  intros H. apply prefetch_run_ok in H; [|assumption]. destruct H as ((Q & H & _) & _).
  assert (E : all_buffers p = hl (nblk (base p)) (hold p)) by reflexivity.
  assert (K : forall i, cnt i (free_i (base p) ++ all_buffers p) = if Nat.ltb i (nalloc (base p)) then 1 else 0).
  { intros i. rewrite cnt_app, E. apply (I_cnt _ _ _ _ _ H). }
  split; [pose proof (I_max _ _ _ _ _ H); lia|]. split.
  - apply (NoDup_count_occ Nat.eq_dec). intros i. specialize (K i). unfold cnt in K. rewrite K. destruct (Nat.ltb i _); lia.
  - intros i. rewrite cnt_in, K. destruct (Nat.ltb_spec i (nalloc (base p))); lia.
Qed.

(** An acquired block keeps its internal block until the release that ends its
    acquisition. *)
Theorem C84_acquired_not_evicted max m d ops rs s c ps o ops1 rs1 rest p c1 x q r b :
  prefetch_run pick dflt max m d ops rs s c ps o ops1 rs1 rest p c1 -> supported (nblk s) c1 x ->
  pdo pick dflt p x = Ok (q, r) -> is_acquired (bk p b) = true -> (forall d, x = Rel b d -> rc (bk p b) <> 1) ->
  int (bk p b) <> None /\ int (bk q b) = int (bk p b).
Proof.
  intros H Sp E Ha Hr. apply prefetch_run_ok in H; [|assumption]. destruct H as ((Q & H & _) & _).
  unfold bk in *. unfold is_acquired in Ha. apply Nat.ltb_lt in Ha. pose proof Ha as Ha2. rewrite (I_rc _ _ _ _ _ H) in Ha2.
  destruct (I_acq _ _ _ _ _ H b Ha2) as (i & Ei & _). split; [congruence|]. rewrite Ei.
  assert (Nf : x <> Flush) by (intros ->; exact Sp).
  exact (kept_do pick dflt p x q r b i Nf E Ha Ei Hr).
Qed.

(** The next acquire succeeds if and only if the block is acquired or not all
    internal blocks are; else it is the failed assertion for a lack of memory. *)
Theorem C84_acquire_succeeds_iff max m d ops rs s c ps o ops1 rs1 rest p c1 b un :
  prefetch_run pick dflt max m d ops rs s c ps o ops1 rs1 (predicts (Acq b un) ++ rest) p c1 ->
  legal c1 (Acq b un) ->
  ((exists q r, pdo pick dflt p (Acq b un) = Ok (q, r)) <->
   is_acquired (bk p b) = true \/ length (acquired_blocks (base p)) < max) /\
  ((forall q r, pdo pick dflt p (Acq b un) <> Ok (q, r)) -> pdo pick dflt p (Acq b un) = NoMemory).
Proof.
  intros H L. apply prefetch_run_ok in H; [|assumption]. destruct H as (P & _ & _ & E & N).
  assert (Lm : length (acquired_blocks (base p)) <= max).
  { destruct P as (Q & H & _). pose proof (inv_counts _ _ _ _ _ H) as C. pose proof (I_max _ _ _ _ _ H).
    assert (K : length (acquired_blocks (base p)) <= length (those (nblk (base p)) (holds p))); [|lia].
    apply those_le. intros y _ Hy. eapply acq_holds; eassumption. }
  destruct (pdo_ok pick dflt Fresh max c1 p (Acq b un) rest P L I E) as [(q & r & K & _)|(b' & un' & K1 & K2 & K3 & K4)].
  - split; [|intros Kn; exfalso; eapply Kn; eassumption]. split; [|eauto]. intros _.
    destruct (is_acquired (bk p b)) eqn:Ea; [auto|right]. destruct (Nat.lt_ge_cases (length (acquired_blocks (base p))) max) as [K2|K2]; [assumption|exfalso].
    rewrite (full_fails pick dflt Fresh max c1 p b un rest P L E Ea) in K; [discriminate|lia].
  - injection K1 as <- <-. split; [|auto]. split.
    + intros (q & r & K). congruence.
    + intros [K|K]; [unfold bk in K; congruence|lia].
Qed.

End Props.

Print Assumptions C83_start.
Print Assumptions C83_transparent.
Print Assumptions C83_defined.
Print Assumptions C83_switch_back.
Print Assumptions C84_limit.
Print Assumptions C84_acquired_not_evicted.
Print Assumptions C84_acquire_succeeds_iff.

(** ** Concrete cases *)

(** Four blocks in two internal blocks, with values; block 3 is then freed. *)
Definition ops83 : list op :=
  [Alloc; Alloc; Alloc; Alloc;
   Acq 0 true; Write 0 10%Z; Rel 0 true; Acq 1 true; Write 1 11%Z; Rel 1 true;
   Acq 2 true; Write 2 12%Z; Rel 2 true; Acq 3 true; Write 3 13%Z; Rel 3 true; Free 3].
Definition res83 : list res :=
  [RId 0; RId 1; RId 2; RId 3;
   RData 7%Z; RNone; RNone; RData 7%Z; RNone; RNone;
   RData 10%Z; RNone; RNone; RData 11%Z; RNone; RNone; RNone].
(** While prefetching: reading, modifying and evicting blocks, the free block is
    allocated again and gets an external block; deinitialize. *)
Definition pops83 : list op :=
  [Acq 0 false; Write 0 20%Z; Acq 1 false; Rel 0 true; Acq 2 false; Rel 1 false; Alloc; NewExt 33%Z; Init 3 (Some 4);
   Acq 3 false; Rel 2 false; Write 3 34%Z; Rel 3 true; Acq 0 false; Read 0; Acq 0 false; Rel 0 false; Rel 0 false;
   Deinit 1; Acq 3 false; IsInit 1; Acq 1 true; Rel 3 false; Rel 1 false].
Definition pres83 : list res :=
  [RData 10%Z; RNone; RData 11%Z; RNone; RData 12%Z; RNone; RId 3; RExt (Some 4); RNone;
   RData 33%Z; RNone; RNone; RNone; RData 20%Z; RData 20%Z; RData 20%Z; RNone; RNone;
   RNone; RData 34%Z; RBool false; RData 20%Z; RNone; RNone].
Definition s83 : st :=
  match run pick0 None (start 2 (fun _ => 7%Z) (fun _ => 0%Z)) ops83 with Ok (s, _) => s | _ => start 0 (fun _ => 0%Z) (fun _ => 0%Z) end.
Definition c83 : client := after_all c0 (combine ops83 res83).
(** What the I/O threads do: some steps early, some never before a wait. *)
Definition o83 : list (list act) :=
  [[]; [RT 0]; [WT 2]; []; [WS 2]; [WT 0; WS 0; WC 0]; []; [RT 1; WO 0]; []; [RT 2; RT 3]; [WT 2]; [WT 3; WS 3; WC 3; WO 3]].
Definition p83 (n : nat) : out (pst * list res) :=
  bind (pf_start pick0 s83 (flat_map predicts pops83) o83) (fun p => prun pick0 None p (firstn n pops83)).

(** A check of the protocol. *)
Definition isnone {A} (x : option A) : bool := match x with None => true | _ => false end.
Definition legalb (p : client) (o : op) : bool :=
  match o with
  | Acq b _ | IsInit b => live p b
  | Rel b d => let v := vw p b in
      live p b && (simu p || Nat.leb 1 (refs v) && (negb (Nat.eqb (refs v) 1) || d || drt v || negb (mdf v) || isnone (val v)))
  | Deinit b | Extract b => live p b && (simu p || Nat.eqb (refs (vw p b)) 0)
  | Init b e => live p b && (simu p || Nat.eqb (refs (vw p b)) 0 && isnone (val (vw p b)) &&
      match e with Some e => negb (isnone (own p e)) | None => true end)
  | Free b => live p b && Nat.eqb (refs (vw p b)) 0 && (negb (simu p) || isnone (val (vw p b)))
  | Write b _ | Read b => live p b && negb (simu p) && Nat.leb 1 (refs (vw p b))
  | WriteExt e _ | ReadExt e | DelExt e => negb (isnone (own p e))
  | _ => true
  end.
Fixpoint legalb_run (p : client) (tr : list (op * res)) : bool :=
  match tr with
  | [] => true
  | (o, r) :: t => legalb p o && legalb_run (after p o r) t
  end.
Lemma isnone_true {A} (x : option A) : isnone x = true -> x = None.
Proof. destruct x; [discriminate|reflexivity]. Qed.
Lemma isnone_false {A} (x : option A) : negb (isnone x) = true -> x <> None.
Proof. destruct x; [discriminate|discriminate]. Qed.
Lemma legalb_ok p o : legalb p o = true -> legal p o.
Proof.
  destruct o; cbn [legalb legal]; cbv zeta; auto; rewrite ?andb_true_iff, ?orb_true_iff, ?andb_true_iff, ?orb_true_iff, ?Nat.eqb_eq, ?Nat.leb_le; auto using isnone_false.
  - intros (H1 & [H2|(H2 & H3)]); auto. split; auto. right. split; auto. intros H4. destruct H3 as [[[[H3|H3]|H3]|H3]|H3]; auto.
    + rewrite H4 in H3. discriminate.
    + right; right; left. apply negb_true_iff. assumption.
    + right; right; right. apply isnone_true. assumption.
  - intros (H1 & [H2|((H2 & H3) & H4)]); auto. split; auto. right. split; auto. split; [apply isnone_true; assumption|].
    destruct e; [apply isnone_false; assumption|exact I].
  - intros ((H1 & H2) & H3). split; auto. split; auto. intros H4. rewrite H4 in H3. destruct H3; [discriminate|apply isnone_true; assumption].
  - intros ((H1 & H2) & H3). split; auto. split; auto. apply negb_true_iff. assumption.
  - intros ((H1 & H2) & H3). split; auto. split; auto. apply negb_true_iff. assumption.
Qed.
Lemma legalb_run_ok tr : forall p, legalb_run p tr = true -> legal_run p tr.
Proof.
  induction tr as [|(o, r) tr IH]; intros p; cbn; [auto|]. rewrite andb_true_iff. intros (H1 & H2). split; [apply legalb_ok; assumption|auto].
Qed.

Definition q83 : pst :=
  match p83 18 with Ok (p, _) => p | _ => mkP s83 [] [] (fun _ => None) (fun _ => None) (fun _ => None) 0 [] [] [] end.
Lemma s83_run : run pick0 None (start 2 (fun _ => 7%Z) (fun _ => 0%Z)) ops83 = Ok (s83, res83).
Proof. vm_compute. reflexivity. Qed.
Lemma p83_run : bind (pf_start pick0 s83 (flat_map predicts pops83) o83) (fun p0 => prun pick0 None p0 (firstn 18 pops83)) = Ok (q83, firstn 18 pres83).
Proof. vm_compute. reflexivity. Qed.

Example C83_case :
  prefetch_run pick0 None 2 (fun _ => 7%Z) (fun _ => 0%Z) ops83 res83 s83 c83 (flat_map predicts pops83) o83
    (firstn 18 pops83) (firstn 18 pres83) (flat_map predicts (skipn 18 pops83))
    q83
    (after_all c83 (combine (firstn 18 pops83) (firstn 18 pres83))) /\
  results (p83 24) = Some pres83 /\
  (* switching back with a write and prefetched blocks in flight *)
  (match p83 4 with
   | Ok (p, _) => wq p 0 <> None /\ is_internal (bk p 2) = true /\ mem (base p) 1 = 20%Z /\
       match pf_to_lru p with
       | Ok s => results (run pick0 None s [Rel 1 false; Acq 2 false; Rel 2 false; Acq 0 false]) = Some [RNone; RData 12%Z; RNone; RData 20%Z]
       | _ => False
       end
   | _ => False
   end).
Proof.
  split; [|split; [vm_compute; reflexivity|]].
  - constructor.
    + split; [|split; [|reflexivity]].
      * exact s83_run.
      * apply legalb_run_ok. vm_compute. reflexivity.
    + reflexivity.
    + split.
      * assert (K : Forall (fun x : pop_kind * nat => snd x < nblk s83) (flat_map predicts pops83)) by (vm_compute; repeat constructor).
        intros k b H. rewrite Forall_forall in K. apply (K _ H).
      * assert (K : existsb (fun x : pop_kind * nat => match fst x with op_extract_external_block => true | _ => false end) (flat_map predicts pops83) = false)
          by (vm_compute; reflexivity).
        intros b H. assert (K2 : true = false); [|discriminate]. rewrite <- K. symmetry. apply existsb_exists. eexists. split; [exact H|reflexivity].
    + reflexivity.
    + exact p83_run.
    + apply legalb_run_ok. vm_compute. reflexivity.
    + unfold pops83, pres83. cbn [firstn combine supported_run supported].
      repeat (split; [exact I|]). split; [|repeat (split; [exact I|]); exact I]. exists 3. split; [vm_compute; lia|vm_compute; reflexivity].
    + reflexivity.
  - vm_compute. repeat split; discriminate.
Qed.

(** After five operations both internal blocks are acquired.  A third block
    cannot be acquired then. *)
Example C84_case :
  (match p83 3 with
   | Ok (p, _) => nalloc (base p) = 2 /\ free_i (base p) = [] /\ all_buffers p = [1; 0] /\ acquired_blocks (base p) = [0; 1]
   | _ => False
   end) /\
  (match p83 18 with
   | Ok (p, _) => buffer_of p 1 = Some 1 /\ is_internal (bk p 1) = false /\ free_i (base p) ++ all_buffers p = [1; 0] 
   | _ => False
   end) /\
  (let ops := [Acq 0 false; Acq 1 false; Acq 2 false] in
   match bind (pf_start pick0 s83 (flat_map predicts ops) []) (fun p => prun pick0 None p (firstn 2 ops)) with
   | Ok (p, _) => pdo pick0 None p (Acq 2 false) = NoMemory /\ length (acquired_blocks (base p)) = 2
   | _ => False
   end).
Proof. vm_compute. repeat split. Qed.
