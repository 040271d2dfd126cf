(** C110: a concrete run of a scheduler beside another client on one store, and a claim that
    does not hold. *)

From Coq Require Import ZArith List Bool Arith Lia Permutation.
From Verif Require Import ManagerModel FileModel StoreModel StoreSpec StoreProofs2 StoreProps TogetherModel.
From Verif Require Import BsModel BsSpec BsProps1 BsStoreModel BsStoreSpec BsStoreProps.
Import ListNotations.

(** Contents take two bytes; block [e] of the scheduler is at byte 2e. *)
Definition enc110 (v : Z) : list Z := [v; v].
Definition dec110 (x : list (option Z)) : Z := match x with Some v :: _ => v | _ => 0%Z end.
Definition pl110 (e : nat) : ManagerModel.bid := place 2 (WriterModel.MkBid 0 (2 * Z.of_nat e)).
Definition cfgs110 : list (Z * bool) := [(32%Z, false)].
Definition disks110 : list StoreModel.disk := [DMem []].
Definition init110 : store :=
  match open_store cfgs110 disks110 with
  | Some s => s | None => mk_store (mk_mclient (mk_manager [] 0 0 0) [] 0 0) [] [] end.

(** The other client has a block, at byte 0. *)
Definition start110 : store * list event :=
  match run_store 4 init110 [] [SNew 2 (fun _ => 0) 0 [2]%Z; SWrite 0 [5; 6]%Z; SServe ok92 0] with
  | Some p => p | None => (init110, []) end.

Lemma stores110 : stores 2 enc110 dec110 pl110.
Proof.
  split; [|split].
  - intros e e' E. pose proof (f_equal ManagerModel.b_offset E) as Q.
    unfold pl110, place in Q. cbn [ManagerModel.b_offset WriterModel.b_offset] in Q. lia.
  - reflexivity.
  - intros v. split; reflexivity.
Qed.

Lemma setup110 : setup cfgs110 disks110 init110.
Proof.
  split; [|split; [|split]].
  - intros s g H. cbn in H. destruct H as [H|[]]; inversion H; lia.
  - reflexivity.
  - intros k H. cbn in H. destruct H as [<-|[]]; cbn; auto.
  - reflexivity.
Qed.

Lemma history110 : shistory true 1 4 init110 (snd start110) (fst start110).
Proof.
  unfold start110.
  destruct (run_store 4 init110 [] [SNew 2 (fun _ => 0) 0 [2]%Z; SWrite 0 [5; 6]%Z; SServe ok92 0])
    as [(s & tr)|] eqn:E; [|vm_compute in E; discriminate].
  cbn [fst snd]. eapply run_history; [constructor| | |exact E].
  - repeat (apply Forall_cons || apply Forall_nil); cbn [disks_ok]; auto.
  - intros _. vm_compute. reflexivity.
Qed.

(** *** Playing a script *)

Inductive cmd := CCall (o : op) | COther (o : sop) | CNew | CDel (h : nat) | CWrite (h : nat) | CWritten (q : nat)
  | CRead (h : nat) | CReadDone (q : nat) | CReturn.

Definition elseb (us : list nat) (t : store) (o : sop) : bool :=
  let free b := forallb (fun e => negb (StoreSpec.bid_eqb b (pl110 e))) us in
  match o with
  | SNew _ _ _ _ => false
  | SDelete _ h | SWrite h _ | SRead h =>
      match nth_error (mc_held (st_client t)) h with Some b => free b | None => false end
  | SServe _ q => match nth_error (st_pending t) q with Some r => free (rq_bid r) | None => false end
  end.

Definition at_h (t : store) (h : nat) (x : nat) : bool :=
  match nth_error (mc_held (st_client t)) h with Some b => StoreSpec.bid_eqb b (pl110 x) | None => false end.

Definition got_disk (got : list (nat * list (option Z))) (x : nat) : Z :=
  match find (fun p => Nat.eqb (fst p) x) got with Some (_, data) => dec110 data | None => 0%Z end.

Definition play1 (k : conf) (c : cmd) : option conf :=
  let '(mkConf tr s c0 us todo w rd got evs t) := k in
  match c with
  | CCall o => match c0, todo, w, rd, got with
      | None, [], [], [], [] => Some (mkConf tr s (Some o) us (acts pick0 s o) [] [] [] evs t)
      | _, _, _, _, _ => None end
  | COther o =>
      if allowedb t o && elseb us t o then
        match store_step 4 t o with
        | Some (t', e) => Some (mkConf tr s c0 us todo w rd got (e :: evs) t') | None => None end
      else None
  | CNew => match todo with
      | ANew x :: l =>
          if allowedb t (SNew 2 (fun _ => 0) 0 [2]%Z) then
            match store_step 4 t (SNew 2 (fun _ => 0) 0 [2]%Z) with
            | Some (t', EAlloc [b]) =>
                if StoreSpec.bid_eqb b (pl110 x)
                then Some (mkConf tr s c0 (x :: us) l w rd got (EAlloc [pl110 x] :: evs) t') else None
            | _ => None end
          else None
      | _ => None end
  | CDel h => match todo with
      | ADel x :: l =>
          if at_h t h x then
            match store_step 4 t (SDelete (an_open ok92) h) with
            | Some (t', e) => Some (mkConf tr s c0 (remove Nat.eq_dec x us) l w rd got (e :: evs) t')
            | None => None end
          else None
      | _ => None end
  | CWrite h => match todo with
      | AWrite x v :: l =>
          if at_h t h x then
            match store_step 4 t (SWrite h (enc110 v)) with
            | Some (t', e) => Some (mkConf tr s c0 us l (x :: w) rd got (e :: evs) t')
            | None => None end
          else None
      | _ => None end
  | CWritten q => match w with
      | x :: _ =>
          match store_step 4 t (SServe ok92 q) with
          | Some (t', EWritten b true) =>
              if StoreSpec.bid_eqb b (pl110 x)
              then Some (mkConf tr s c0 us todo (remove Nat.eq_dec x w) rd got (EWritten (pl110 x) true :: evs) t')
              else None
          | _ => None end
      | _ => None end
  | CRead h => match todo with
      | ARead x :: l =>
          if at_h t h x then
            match store_step 4 t (SRead h) with
            | Some (t', e) => Some (mkConf tr s c0 us l w (x :: rd) got (e :: evs) t')
            | None => None end
          else None
      | _ => None end
  | CReadDone q => match rd with
      | x :: _ =>
          match store_step 4 t (SServe ok92 q) with
          | Some (t', EReadDone b (Some data)) =>
              if StoreSpec.bid_eqb b (pl110 x)
              then Some (mkConf tr s c0 us todo w (remove Nat.eq_dec x rd) ((x, data) :: got)
                           (EReadDone (pl110 x) (Some data) :: evs) t')
              else None
          | _ => None end
      | _ => None end
  | CReturn => match c0, todo, w, rd, got with
      | Some o, [], [], [], ([] | [_]) =>
          match do pick0 None (with_disk s (got_disk got)) o with
          | Ok (s', r) => Some (mkConf (tr ++ [(o, r)]) s' None us [] [] [] [] evs t)
          | _ => None end
      | _, _, _, _, _ => None end
  end.

Fixpoint play (k : conf) (l : list cmd) : option conf :=
  match l with
  | [] => Some k
  | c :: r => match play1 k c with Some k' => play k' r | None => None end
  end.

Lemma bid_true : forall a b, StoreSpec.bid_eqb a b = true -> a = b.
Proof. intros a b. apply StoreProofs2.bid_eqb_spec. Qed.

Lemma free_ok : forall us b, forallb (fun e => negb (StoreSpec.bid_eqb b (pl110 e))) us = true ->
  forall e, In e us -> b <> pl110 e.
Proof.
  intros us b H e He E. rewrite forallb_forall in H. specialize (H e He). subst b.
  rewrite StoreProofs2.bid_eqb_refl in H. discriminate.
Qed.

Lemma elseb_ok : forall us t o, elseb us t o = true -> elsewhere pl110 us t o /\ disks_ok 1 o.
Proof.
  intros us t o H. destruct o as [ts f off sz|os h|h d|h|a q]; cbn [elseb elsewhere disks_ok] in *;
    [discriminate| | | |].
  1-3: split; auto; intros b Hb; rewrite Hb in H; apply free_ok; auto.
  split; auto. intros r Hr. rewrite Hr in H. apply free_ok; auto.
Qed.

Lemma at_h_ok : forall t h x, at_h t h x = true -> nth_error (mc_held (st_client t)) h = Some (pl110 x).
Proof.
  unfold at_h. intros t h x H. destruct (nth_error _ h) as [b|]; [|discriminate]. f_equal. apply bid_true. auto.
Qed.

Lemma some_inj : forall {A} (a b : A), Some a = Some b -> b = a.
Proof. congruence. Qed.

Lemma play1_ok : forall k c k', play1 k c = Some k' -> jstep pick0 None enc110 dec110 pl110 1 4 k k'.
Proof.
  intros [tr s c0 us todo w rd got evs t] c k' H. destruct c as [o|o| |h|h|q|h|q|]; cbn [play1] in H.
  - destruct c0, todo, w, rd, got; try discriminate. inversion H. apply JCall.
  - destruct (allowedb t o) eqn:A; [|discriminate]. cbn [andb] in H.
    destruct (elseb us t o) eqn:E; [|discriminate]. destruct (elseb_ok _ _ _ E) as (E1 & E2).
    destruct (store_step 4 t o) as [(t', e)|] eqn:S0; [|discriminate]. inversion H.
    eapply JOther; eauto. apply allowedb_ok; auto.
  - destruct todo as [|[x|x|x v|x] l]; try discriminate.
    destruct (allowedb t (SNew 2 (fun _ => 0) 0 [2%Z])) eqn:A; [|discriminate].
    destruct (store_step 4 t (SNew 2 (fun _ => 0) 0 [2%Z])) as [(t', [ [|b [|b2 r]] | | | | | ])|] eqn:S0; try discriminate.
    destruct (StoreSpec.bid_eqb b (pl110 x)) eqn:E; [|discriminate]. apply bid_true in E. subst b. inversion H.
    eapply JNew; [| |exact S0]; eauto. apply allowedb_ok; auto. cbn. auto.
  - destruct todo as [|[x|x|x v|x] l]; try discriminate. destruct (at_h t h x) eqn:A; [|discriminate].
    destruct (store_step 4 t (SDelete (an_open ok92) h)) as [(t', e)|] eqn:S0; [|discriminate]. inversion H.
    eapply JDel; eauto using at_h_ok.
  - destruct todo as [|[x|x|x v|x] l]; try discriminate. destruct (at_h t h x) eqn:A; [|discriminate].
    destruct (store_step 4 t (SWrite h (enc110 v))) as [(t', e)|] eqn:S0; [|discriminate]. inversion H.
    eapply JWrite; eauto using at_h_ok.
  - destruct w as [|x w]; [discriminate|].
    destruct (store_step 4 t (SServe ok92 q)) as [(t', e)|] eqn:S0; [|discriminate].
    destruct e as [ | | | |b [|]|]; try discriminate.
    destruct (StoreSpec.bid_eqb b (pl110 x)) eqn:E; [|discriminate]. apply bid_true in E. subst b. apply some_inj in H. rewrite H.
    eapply JWritten; [left; reflexivity|exact S0].
  - destruct todo as [|[x|x|x v|x] l]; try discriminate. destruct (at_h t h x) eqn:A; [|discriminate].
    destruct (store_step 4 t (SRead h)) as [(t', e)|] eqn:S0; [|discriminate]. inversion H.
    eapply JRead; eauto using at_h_ok.
  - destruct rd as [|x rd]; [discriminate|].
    destruct (store_step 4 t (SServe ok92 q)) as [(t', e)|] eqn:S0; [|discriminate].
    destruct e as [ | | | | |b [data|]]; try discriminate.
    destruct (StoreSpec.bid_eqb b (pl110 x)) eqn:E; [|discriminate]. apply bid_true in E. subst b. apply some_inj in H. rewrite H.
    eapply JReadDone; [left; reflexivity|exact S0].
  - destruct c0 as [o|], todo, w, rd; try (destruct got as [|p [|p' got]]; discriminate).
    assert (G : (got = [] \/ exists p, got = [p]) /\
      match do pick0 None (with_disk s (got_disk got)) o with
      | Ok (s', r) => Some (mkConf (tr ++ [(o, r)]) s' None us [] [] [] [] evs t) | _ => None end = Some k').
    { destruct got as [|p [|p' got]]; try discriminate; split; eauto. }
    destruct G as (G & D). destruct (do pick0 None (with_disk s (got_disk got)) o) as [(s', r)| |] eqn:E; try discriminate.
    inversion D. eapply JReturn; eauto. intros x data Hx. unfold got_disk.
    destruct G as [->|((y, z) & ->)]; [destruct Hx|]. destruct Hx as [Hx|[]]. inversion Hx.
    cbn [find fst]. rewrite Nat.eqb_refl. reflexivity.
Qed.

Lemma play_ok : forall l k0 k k', jrun pick0 None enc110 dec110 pl110 1 4 k0 k -> play k l = Some k' ->
  jrun pick0 None enc110 dec110 pl110 1 4 k0 k'.
Proof.
  induction l as [|c l IH]; cbn [play]; intros k0 k k' J H; [inversion H; subst; auto|].
  destruct (play1 k c) as [k1|] eqn:E; [|discriminate].
  eapply IH; [|exact H]. eapply JMore; [exact J|]. eapply play1_ok; eauto.
Qed.

(** One internal block, two swappable ones: the first is evicted for the second and back, then
    changed and flushed, and the other client writes and reads meanwhile. *)
Definition call (o : op) : list cmd := [CCall o; CReturn].
Definition begin110 : list cmd :=
  call Alloc ++ call Alloc ++ call (Acq 0 true) ++ call (Write 0 7%Z) ++ call (Rel 0 true).
Definition script110 : list cmd :=
  begin110 ++
  [CCall (Acq 1 true); COther (SWrite 0 [3; 4]%Z); CNew; CWrite 1; COther (SServe ok92 0); CWritten 0; CReturn] ++
  call (Write 1 9%Z) ++ call (Rel 1 true) ++
  [CCall (Acq 0 false); CNew; CWrite 2; CRead 1; COther (SRead 0); CWritten 0; CReadDone 0; COther (SServe ok92 0); CReturn] ++
  call (Write 0 8%Z) ++ call (Rel 0 true) ++
  [CCall Flush; CWrite 1; CWritten 0; CReturn].
Definition k0_110 : conf := begins 1 (fun _ => 0%Z) (fun _ => 0%Z) (fst start110).

Example C110_case : fresh_blocks pick0 /\ stores 2 enc110 dec110 pl110 /\ setup cfgs110 disks110 init110 /\
  shistory true 1 4 init110 (snd start110) (fst start110) /\
  exists k, jrun pick0 None enc110 dec110 pl110 1 4 k0_110 k /\ proper k /\
    k_tr k = [(Alloc, RId 0); (Alloc, RId 1); (Acq 0 true, RData 0); (Write 0 7, RNone); (Rel 0 true, RNone);
      (Acq 1 true, RData 7); (Write 1 9, RNone); (Rel 1 true, RNone);
      (Acq 0 false, RData 7); (Write 0 8, RNone); (Rel 0 true, RNone); (Flush, RNone)]%Z /\
    expected (k_evs k ++ snd start110) (pl110 1) = Some [8; 8]%Z /\
    expected (k_evs k ++ snd start110) (pl110 2) = Some [9; 9]%Z /\
    expected (k_evs k ++ snd start110) (pl110 0) = Some [3; 4]%Z /\ st_pending (k_t k) = [].
Proof.
  split; [exact pick0_fresh|]. split; [exact stores110|]. split; [exact setup110|]. split; [exact history110|].
  destruct (play k0_110 script110) as [k|] eqn:E; [|vm_compute in E; discriminate].
  exists k. split; [eapply play_ok; [apply JStart|exact E]|].
  assert (T : k_tr k = [(Alloc, RId 0); (Alloc, RId 1); (Acq 0 true, RData 0); (Write 0 7, RNone); (Rel 0 true, RNone);
      (Acq 1 true, RData 7); (Write 1 9, RNone); (Rel 1 true, RNone);
      (Acq 0 false, RData 7); (Write 0 8, RNone); (Rel 0 true, RNone); (Flush, RNone)]%Z).
  { vm_compute in E. injection E as <-. reflexivity. }
  split.
  { split; [rewrite T; cbn; intuition (auto; lia)|]. vm_compute in E. injection E as <-. exact I. }
  split; [exact T|].
  vm_compute in E. injection E as <-. cbn [k_evs k_t st_pending]. repeat split; vm_compute; reflexivity.
Qed.

(** Before a flush the store need not have the contents of a block that was released. *)
Theorem C110_before_flush_refuted : ~ (forall k, jrun pick0 None enc110 dec110 pl110 1 4 k0_110 k -> proper k ->
  k_op k = None -> forall b v, live (client_of k) b = true -> refs (vw (client_of k) b) = 0 ->
  val (vw (client_of k) b) = Some v ->
  exists e, ext (blk (k_s k) b) = Some e /\ expected (k_evs k ++ snd start110) (pl110 e) = Some (enc110 v)).
Proof.
  intros H. destruct (play k0_110 begin110) as [k|] eqn:E; [|vm_compute in E; discriminate].
  assert (J : jrun pick0 None enc110 dec110 pl110 1 4 k0_110 k) by (eapply play_ok; [apply JStart|exact E]).
  assert (T : k_tr k = [(Alloc, RId 0); (Alloc, RId 1); (Acq 0 true, RData 0); (Write 0 7, RNone); (Rel 0 true, RNone)]%Z
    /\ k_op k = None /\ ext (blk (k_s k) 0) = None).
  { vm_compute in E. injection E as <-. auto. }
  destruct T as (T & To & Te).
  destruct (H k J) with (b := 0) (v := 7%Z) as (e & He & _); auto;
    try (unfold client_of; rewrite T; reflexivity).
  - split; [rewrite T; cbn; intuition (auto; lia)|]. rewrite To. exact I.
  - congruence.
Qed.

Print Assumptions C110_case.
Print Assumptions C110_before_flush_refuted.
