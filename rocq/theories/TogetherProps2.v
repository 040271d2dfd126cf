(** C107: a concrete run of an output stream, another client and an input stream on one
    store, and a claim that does not hold. *)

From Coq Require Import List Arith Bool ZArith Lia Permutation.
From Verif Require Import ManagerModel FileModel StoreModel StoreSpec StoreProofs2 StoreProps TogetherStore.
From Verif Require Import WriterModel WriterSpec WriterProofs WriterProofs2 WriterProofs3 WriterProps
  WriterErrModel WriterErrSpec WriterErrProofs WriterErrProps
  PrefetchModel PrefetchSpec ScheduleSpec PrefetchProofs PrefetchErrModel PrefetchErrSpec PrefetchErrProofs
  PrefetchErrProps StreamModel StreamProofs2 StreamProps StreamErrModel StreamErrSpec StreamErrProofs StreamErrProps
  TogetherModel TogetherSpec TogetherProofs TogetherRead TogetherProps.
Import ListNotations.

Local Notation wbid := WriterModel.bid.
Local Notation bid := ManagerModel.bid.
Local Notation bid_eqb := StoreSpec.bid_eqb.

(** Records are bytes, blocks have two of them.  Stream [i] uses every second block of two
    bytes on disk [i]. *)
Definition enc107 (v : list nat) : list Z := map Z.of_nat v.
Definition dec107 (x : list (option Z)) : list nat :=
  map (fun o => match o with Some z => Z.to_nat z | None => 0 end) x.
Definition outs107 (i k : nat) : wbid := MkBid i (4 * Z.of_nat k).
Definition ins107 (j : nat) : list wbid := [outs107 0 0].
Definition cfgs107 : list (Z * bool) := [(8%Z, false)].
Definition disks107 : list disk := [DMem []].
Definition init107 : store :=
  match open_store cfgs107 disks107 with
  | Some s => s | None => mk_store (mk_mclient (mk_manager [] 0 0 0) [] 0 0) [] [] end.
Definition older107 : list sop := [SNew 2 (fun _ => 0) 0 [2; 2]%Z; SWrite 0 [8; 8]%Z; SServe ok92 0].
Definition start107 : store * list event :=
  match run_store 4 init107 [] older107 with Some p => p | None => (init107, []) end.

Lemma apart107 : apart outs107.
Proof.
  intros i k i' k' E. unfold outs107 in E. split; [exact (f_equal WriterModel.b_storage E)|].
  pose proof (f_equal WriterModel.b_offset E) as Q. cbn [WriterModel.b_offset] in Q. lia.
Qed.

Lemma stores107 : stores_blocks 2 2 enc107 dec107.
Proof.
  intros v L. split; [unfold enc107; rewrite map_length, L; auto|].
  unfold enc107, dec107. rewrite !map_map. rewrite <- (map_id v) at 2. apply map_ext. intros a. apply Nat2Z.id.
Qed.

Lemma setup107 : setup cfgs107 disks107 init107.
Proof.
  split; [|split; [|split]].
  - intros s g H. cbn in H. destruct H as [H|[]]; inversion H; lia.
  - reflexivity.
  - intros k H. cbn in H. destruct H as [<-|[]]; cbn; auto.
  - reflexivity.
Qed.

Lemma history107 : shistory true 1 4 init107 (snd start107) (fst start107).
Proof.
  unfold start107. destruct (run_store 4 init107 [] older107) as [(s & tr)|] eqn:E; [|vm_compute in E; discriminate].
  cbn [fst snd]. eapply run_history; [constructor| | |exact E].
  - repeat (apply Forall_cons || apply Forall_nil); cbn [disks_ok]; auto.
  - intros _. vm_compute. reflexivity.
Qed.

Lemma fresh107 : fresh 2 outs107 (fst start107).
Proof. intros r i k H. vm_compute in H. destruct H. Qed.

(** *** Playing a script: one output stream, one input stream, other clients *)

Inductive act :=
| ALabel (l : xlabel (list nat)) | ASubmit (v : list nat) (h : nat) | AServed (v : list nat) (q : nat)
| ARead (h : nat) | AIn (l : ylabel (list nat)) | AHand (b : nat) (x : list (option Z)) | AOther (o : sop).

Definition my : bid := place 2 (outs107 0 0).

Definition is_closed (tr : list (xlabel (list nat))) : bool :=
  existsb (fun l => match l with XOk LDestroyed => true | _ => false end) tr.

Definition held_is (s : store) (h : nat) : bool :=
  match nth_error (mc_held (st_client s)) h with Some b => bid_eqb b my | None => false end.

Definition spare (b : bid) : bool := negb (Z.eqb (Z.modulo (ManagerModel.b_offset b) 4) 0).

Definition elseb (s : store) (o : sop) : bool :=
  match o with
  | SNew _ _ _ _ => false
  | SDelete _ h | SWrite h _ | SRead h =>
      match nth_error (mc_held (st_client s)) h with Some b => spare b | None => false end
  | SServe _ k => match nth_error (st_pending s) k with
      | Some r => match rq_data r with Some _ => spare (rq_bid r) | None => true end | None => false end
  end.

Definition list_eqb {A} (eqb : A -> A -> bool) (a b : list A) : bool :=
  (length a =? length b) && forallb (fun p => eqb (fst p) (snd p)) (combine a b).

Record play_st := MkPlay { pl_evs : list event; pl_tr : list (xlabel (list nat));
  pl_rt : list (ylabel (list nat)); pl_s : store }.

Definition optz_eqb (a b : option Z) : bool :=
  match a, b with Some x, Some y => Z.eqb x y | None, None => true | _, _ => false end.

Definition play1 (p : play_st) (a : act) : option play_st :=
  let '(MkPlay evs tr rt s) := p in
  match a with
  | ALabel l => if transfers l then None else Some (MkPlay evs (tr ++ [l]) rt s)
  | ASubmit v h =>
      if (submits evs my <? asked tr (outs107 0 0)) && (length v =? 2) && held_is s h then
        match store_step 4 s (SWrite h (enc107 v)) with
        | Some (s', e) => Some (MkPlay (e :: evs) tr rt s') | None => None end
      else None
  | AServed v q =>
      match nth_error (st_pending s) q with
      | Some (mk_rq b (Some d)) =>
          if bid_eqb b my && (length v =? 2) && list_eqb Z.eqb d (enc107 v) then
            match store_step 4 s (SServe ok92 q) with
            | Some (s', EWritten b' true) =>
                if bid_eqb b' my then Some (MkPlay (EWritten my true :: evs) (tr ++ [XOk (LServe (outs107 0 0) v)]) rt s')
                else None
            | _ => None end
          else None
      | _ => None end
  | ARead h =>
      if is_closed tr && (0 <? asked tr (outs107 0 0)) && held_is s h then
        match store_step 4 s (SRead h) with
        | Some (s', e) => Some (MkPlay (e :: evs) tr rt s') | None => None end
      else None
  | AIn l => if hands_out l then None else Some (MkPlay evs tr (rt ++ [l]) s)
  | AHand b x =>
      if (length (y_delivered rt) =? 0) &&
         existsb (fun e => match e with EReadDone b' (Some x') => bid_eqb b' my && list_eqb optz_eqb x' x | _ => false end) evs
      then Some (MkPlay evs tr (rt ++ [YOk (FRet b (Some (dec107 x)))]) s) else None
  | AOther o =>
      if allowedb s o && elseb s o then
        match store_step 4 s o with
        | Some (s', e) => Some (MkPlay (e :: evs) tr rt s') | None => None end
      else None
  end.

Fixpoint play (p : play_st) (l : list act) : option play_st :=
  match l with
  | [] => Some p
  | a :: r => match play1 p a with Some p' => play p' r | None => None end
  end.

Lemma list_eqb_eq : forall {A} (eqb : A -> A -> bool), (forall a b, eqb a b = true -> a = b) ->
  forall a b, list_eqb eqb a b = true -> a = b.
Proof.
  intros A eqb H. unfold list_eqb. induction a as [|x a IH]; intros [|y b] E; cbn in E; try discriminate; auto.
  apply andb_true_iff in E. destruct E as (E1 & E2). apply andb_true_iff in E2. destruct E2 as (E2 & E3).
  apply H in E2. subst y. f_equal. apply IH. rewrite E1, E3. auto.
Qed.

Lemma optz_eqb_eq : forall a b, optz_eqb a b = true -> a = b.
Proof. intros [x|] [y|] H; cbn in H; try discriminate; auto. apply Z.eqb_eq in H. congruence. Qed.

Lemma bid_eqb_true : forall a b, bid_eqb a b = true -> a = b.
Proof. intros a b. apply StoreProofs2.bid_eqb_spec. Qed.

Lemma spare_free : forall b, spare b = true -> ~ owned 2 outs107 b.
Proof.
  intros b H (i & k & ->). unfold spare, place, outs107 in H. cbn [ManagerModel.b_offset WriterModel.b_offset] in H.
  rewrite Z.mul_comm, Z_mod_mult in H. discriminate.
Qed.

Definition plays (p : play_st) : Prop :=
  exists trs rts, together 2 2 enc107 dec107 outs107 ins107 1 4 (fst start107) (pl_evs p) trs rts (pl_s p) /\
    trs 0 = pl_tr p /\ (forall i, i <> 0 -> trs i = []) /\ rts 0 = pl_rt p.

Lemma updn0 : forall {A} (f : nat -> A) v, updn f 0 v 0 = v.
Proof. auto. Qed.
Lemma updn0_other : forall {A} (f : nat -> A) v i, i <> 0 -> updn f 0 v i = f i.
Proof. intros A f v i H. unfold updn. destruct (Nat.eqb_spec i 0); auto. contradiction. Qed.

Lemma play1_plays : forall p a p', plays p -> play1 p a = Some p' -> plays p'.
Proof.
  intros [evs tr rt s] a p' (trs & rts & H & E1 & E2 & E3) E. cbn [pl_evs pl_s pl_tr pl_rt] in *.
  destruct a as [l|v h|v q|h|l|b x|o]; cbn [play1] in E.
  - destruct (transfers l) eqn:T; inversion E; subst. exists (updn trs 0 (trs 0 ++ [l])), rts. csplit; auto.
    + cbn [pl_evs pl_s]. apply TOut; auto.
    + intros i N. rewrite updn0_other; auto.
  - destruct (_ && _) eqn:C; [|discriminate]. apply andb_true_iff in C. destruct C as (C & C3).
    apply andb_true_iff in C. destruct C as (C1 & C2). apply Nat.ltb_lt in C1. apply Nat.eqb_eq in C2.
    unfold held_is in C3. destruct (nth_error _ h) as [b|] eqn:Eh; [|discriminate]. apply bid_eqb_true in C3. subst b.
    destruct (store_step _ _ _) as [(s' & e)|] eqn:Es; inversion E; subst. exists trs, rts. csplit; auto.
    cbn [pl_evs pl_s]. eapply (TSubmit _ _ _ _ _ _ _ _ _ _ _ _ _ 0 0); eauto.
  - destruct (nth_error _ q) as [[b [d|]]|] eqn:Eq; try discriminate.
    destruct (_ && _) eqn:C; [|discriminate]. apply andb_true_iff in C. destruct C as (C & C3).
    apply andb_true_iff in C. destruct C as (C1 & C2). apply Nat.eqb_eq in C2. apply bid_eqb_true in C1.
    apply (list_eqb_eq Z.eqb) in C3; [|intros; apply Z.eqb_eq; auto]. subst b d.
    destruct (store_step _ _ _) as [(s' & [| | | |b' [|]|])|] eqn:Es; try discriminate.
    destruct (bid_eqb b' my) eqn:Eb; inversion E; subst. apply bid_eqb_true in Eb. subst b'.
    exists (updn trs 0 (trs 0 ++ [XOk (LServe (outs107 0 0) v)])), rts. csplit; auto.
    + cbn [pl_evs pl_s]. eapply TServed; eauto.
    + intros i N. rewrite updn0_other; auto.
  - destruct (_ && _) eqn:C; [|discriminate]. apply andb_true_iff in C. destruct C as (C & C3).
    apply andb_true_iff in C. destruct C as (C1 & C2). apply Nat.ltb_lt in C2.
    unfold held_is in C3. destruct (nth_error _ h) as [b|] eqn:Eh; [|discriminate]. apply bid_eqb_true in C3. subst b.
    destruct (store_step _ _ _) as [(s' & e)|] eqn:Es; inversion E; subst. exists trs, rts. csplit; auto.
    cbn [pl_evs pl_s]. eapply (TRead _ _ _ _ _ _ _ _ _ _ _ _ _ 0 0); eauto.
    unfold is_closed in C1. apply existsb_exists in C1. destruct C1 as (l & Hl & Q).
    destruct l as [[]| | |]; try discriminate. auto.
  - destruct (hands_out l) eqn:T; inversion E; subst. exists trs, (updn rts 0 (rts 0 ++ [l])). csplit; auto.
    cbn [pl_evs pl_s]. apply TIn; auto.
  - destruct (_ && _) eqn:C; [|discriminate]. apply andb_true_iff in C. destruct C as (C1 & C2).
    apply Nat.eqb_eq in C1. apply existsb_exists in C2. destruct C2 as (e & He & Q).
    destruct e as [| | | | |b' [x'|]]; try discriminate. apply andb_true_iff in Q. destruct Q as (Q1 & Q2).
    apply bid_eqb_true in Q1. apply (list_eqb_eq optz_eqb optz_eqb_eq) in Q2. inversion E; subst.
    exists trs, (updn rts 0 (rts 0 ++ [YOk (FRet b (Some (dec107 x)))])). csplit; auto.
    cbn [pl_evs pl_s]. eapply THand; eauto. rewrite C1. auto.
  - destruct (_ && _) eqn:C; [|discriminate]. apply andb_true_iff in C. destruct C as (C1 & C2).
    destruct (store_step _ _ _) as [(s' & e)|] eqn:Es; inversion E; subst. exists trs, rts. csplit; auto.
    cbn [pl_evs pl_s]. eapply TOther; eauto.
    + apply allowedb_ok; auto. destruct o; cbn; auto. discriminate.
    + destruct o as [|os h|h d|h|a k]; cbn [elseb elsewhere] in *; try discriminate.
      * intros b Q. rewrite Q in C2. apply spare_free; auto.
      * intros b Q. rewrite Q in C2. apply spare_free; auto.
      * intros b Q. rewrite Q in C2. apply spare_free; auto.
      * intros r Q N. rewrite Q in C2. destruct (rq_data r); [apply spare_free; auto|congruence].
Qed.

Lemma play_plays : forall l p p', plays p -> play p l = Some p' -> plays p'.
Proof.
  induction l as [|a l IH]; intros p p' H E; cbn [play] in E; [inversion E; subst; auto|].
  destruct (play1 p a) as [q|] eqn:Eq; [|discriminate]. apply (IH q p'); auto. apply (play1_plays p a q); auto.
Qed.

Lemma plays_start : plays (MkPlay [] [] [] (fst start107)).
Proof. exists (fun _ => []), (fun _ => []). csplit; auto. constructor. Qed.

(** *** The stream writes 1 and 2; the other client uses the second block meanwhile *)

Definition tr107 : list (xlabel (list nat)) :=
  [XOk LGet; XOk LTau; XOk (LRet 1); XOk (LFill 1 [1; 0]); XOk (LFill 1 [1; 2]);
   XOk (LWrite 1 (outs107 0 0) [1; 2]); XOk LTau; XOk LTau; XOk (LRet 0)].
Definition t107 : list (xlabel (list nat)) :=
  [XOk LDestroy; XOk LTau; XOk LTau; XOk (LServe (outs107 0 0) [1; 2]); XOk LTau; XOk LTau].
Definition rt107 : list (ylabel (list nat)) :=
  [YOk FTau; YOk FTau; YOk FTau; YOk FTau; YOk FPull; YOk FTau; YOk (FRet 0 (Some [1; 2]));
   YOk (FGive 0); YOk FNone].

Lemma erun_eq : forall {R} B (x0 : xst (list R)) bids recs tr tr' e,
  erun B x0 bids recs tr e -> tr = tr' -> erun B x0 bids recs tr' e.
Proof. intros; subst; auto. Qed.
Lemma jrun_eq : forall {R} B fwd (y0 : yst (list R)) out out' tr tr' j,
  jrun B fwd y0 out tr j -> out = out' -> tr = tr' -> jrun B fwd y0 out' tr' j.
Proof. intros; subst; auto. Qed.

Lemma out107 : exists e x, erun 2 ex101 (outs107 0) [1; 2] tr107 e /\ e_bid e = 1 /\
  edtor e (t107 ++ [XOk LDestroyed]) x.
Proof.
  eexists. eexists. split; [|csplit].
  - eapply erun_eq.
    + change [1; 2] with (([] ++ [1]) ++ [2]).
      eapply EPutWrite; [eapply EPut; [eapply ENew| | |]| | | | | |].
      * scal ltac:(apply CGet).
      * snorm; scode ltac:(eapply IPollEnd). constructor.
      * snorm; apply XCode; [reflexivity|apply (ITakeFree _ [0] 1); reflexivity|pr].
      * reflexivity.
      * scal ltac:(apply CFill).
      * cbn; lia.
      * reflexivity.
      * scal ltac:(apply CFill).
      * cbn; lia.
      * scal ltac:(apply (CWrite _ [] 1 [])).
      * snorm; scode ltac:(eapply IWPush). scode ltac:(eapply IPollEnd). constructor.
      * snorm; apply XCode; [reflexivity|apply (ITakeFree _ [] 0); reflexivity|pr].
    + reflexivity.
  - reflexivity.
  - cbn [app t107]. eapply EDtor; [reflexivity|scal ltac:(apply CDestroy)|snorm].
    scode ltac:(eapply (IDFlush _ 0 1 []); [reflexivity|top (@nil (Z * nat)) (@nil (Z * nat))|reflexivity]).
    scode ltac:(eapply IDFlushEnd).
    eapply xs_eq; [|apply XIo; [reflexivity|eapply (EServe _ 0); reflexivity|intros i []]|reflexivity|xnorm]; [reflexivity|].
    sio ltac:(eapply (EReady _ 0)). scode ltac:(eapply (IDWait _ 1 [])). scode ltac:(eapply IDWaitEnd). constructor.
Qed.

Lemma in107 : exists y0 jj, y_init [outs107 0 0] [0] 1 (fun _ => [1; 2]) (fun _ => None) = Some y0 /\
  jrun 2 true y0 [Some 1; Some 2] rt107 jj /\ j_more jj = false.
Proof.
  do 2 eexists. split; [reflexivity|]. split.
  - eapply jrun_eq; [eapply JGetLast; [eapply JGet; [eapply JNew| |]| | | | |]| |].
    + zcode ltac:(apply (JCtor _ _ 0)). zcode ltac:(apply (JCtorEnd _ _ 1)). zenv 0. zenv 0. zn. constructor.
    + zn. apply YCaller; [reflexivity|apply QPull; yside].
    + zenv 0. zn. constructor.
    + zret ltac:(apply (JRet _ _ 0 0)).
    + reflexivity.
    + reflexivity.
    + reflexivity.
    + reflexivity.
    + zn. apply YCaller; [reflexivity|apply (QGive _ [] 0 []); reflexivity].
    + zn. constructor.
    + zret ltac:(apply (JNone _ _ 0)).
    + reflexivity.
    + reflexivity.
  - reflexivity.
Qed.

Definition script107 : list act :=
  map ALabel (firstn 6 tr107) ++ [AOther (SWrite 1 [9; 9]%Z); ASubmit [1; 2] 0] ++ map ALabel (skipn 6 tr107) ++
  map ALabel (firstn 3 t107) ++ [AServed [1; 2] 1; AOther (SServe ok92 0)] ++ map ALabel (skipn 4 t107) ++
  [ALabel (XOk LDestroyed)] ++ [AIn (YOk FTau); AIn (YOk FTau); ARead 0; AOther (SRead 1); AOther (SServe ok92 0)] ++
  [AIn (YOk FTau); AIn (YOk FTau); AIn (YOk FPull); AIn (YOk FTau); AHand 0 [Some 1; Some 2]%Z;
   AIn (YOk (FGive 0)); AIn (YOk FNone); AOther (SServe ok92 0)].

(** The hypotheses of the theorems are met: the stream was closed, the reader is at its
    end, and the other client has read its own block. *)
Example C107_case : 1 <= 2 /\ apart outs107 /\ stores_blocks 2 2 enc107 dec107 /\ setup cfgs107 disks107 init107 /\
  shistory true (length cfgs107) 4 init107 (snd start107) (fst start107) /\ fresh 2 outs107 (fst start107) /\
  exists evs trs rts s e x y0 jj,
    together 2 2 enc107 dec107 outs107 ins107 (length cfgs107) 4 (fst start107) evs trs rts s /\
    (forall i, i <> 0 -> writer_events (outs107 i) (trs i)) /\
    erun 2 (x_init 2 (2 / 2) (fun _ => [0; 0]) (fun _ => MkBid 0 0) (fun _ => [7; 7])) (outs107 0) [1; 2] tr107 e /\
    edtor e (t107 ++ [XOk LDestroyed]) x /\ trs 0 = tr107 ++ t107 ++ [XOk LDestroyed] /\
    ins107 0 = stream_bids true (map (outs107 0) (seq 0 (e_bid e))) /\ all_blocks_once (e_bid e) [0] /\
    y_init (ins107 0) [0] 1 (fun _ => [1; 2]) (fun _ => None) = Some y0 /\
    jrun 2 true y0 [Some 1; Some 2] (rts 0) jj /\ j_more jj = false /\
    hd_error evs = Some (EReadDone (mk_bid (Managed 0) 2 2 2) (Some [Some 9; Some 9]%Z)).
Proof.
  split; [lia|]. split; [exact apart107|]. split; [exact stores107|]. split; [exact setup107|].
  split; [exact history107|]. split; [exact fresh107|].
  destruct (play (MkPlay [] [] [] (fst start107)) script107) as [p|] eqn:E; [|vm_compute in E; discriminate].
  pose proof (play_plays _ _ _ plays_start E) as (trs & rts & H & E1 & E2 & E3).
  vm_compute in E. inversion E; subst p. clear E. cbn [pl_evs pl_tr pl_rt pl_s] in *.
  destruct out107 as (e & x & He & Eb & Hd). destruct in107 as (y0 & jj & Hi & Hj & Hm).
  do 8 eexists. split; [exact H|]. split.
  { intros i N. rewrite (E2 i N). exists 1, 1, (fun _ => []), (fun _ => MkBid 0 0), (fun _ => []).
    eexists. split; [constructor|]. split; [intros []|]. split; [constructor|intros d []]. }
  split; [exact He|]. split; [exact Hd|]. split; [rewrite E1; reflexivity|]. split; [rewrite Eb; reflexivity|].
  split; [rewrite Eb; unfold all_blocks_once; apply Permutation_refl|]. split; [exact Hi|].
  split; [rewrite E3; exact Hj|]. split; [exact Hm|reflexivity].
Qed.

(** Records put into a stream are not in the store before the stream is closed. *)
Theorem C107_before_close_refuted :
  ~ (forall B size enc dec outs ins cfgs disks ba s00 s0 older evs trs rts s i nb
       (mem0 : nat -> list nat) bids0 disk0 recs tr e k,
     1 <= B -> apart outs -> stores_blocks B size enc dec -> 1 <= ba -> setup cfgs disks s00 ->
     shistory true (length cfgs) ba s00 older s0 -> fresh size outs s0 ->
     together B size enc dec outs ins (length cfgs) ba s0 evs trs rts s ->
     (forall i', writer_events (outs i') (trs i')) -> (forall b, length (mem0 b) = B) ->
     erun B (x_init nb (nb / 2) mem0 bids0 disk0) (outs i) recs tr e -> trs i = tr -> k < e_bid e ->
     exists blk, expected (evs ++ older) (place size (outs i k)) = Some (enc blk) /\
       forall m r, nth_error blk m = Some r -> nth_error recs (k * B + m) = Some r).
Proof.
  intros H.
  destruct (play (MkPlay [] [] [] (fst start107)) (map ALabel tr107)) as [p|] eqn:E; [|vm_compute in E; discriminate].
  pose proof (play_plays _ _ _ plays_start E) as (trs & rts & Ht & E1 & E2 & E3).
  vm_compute in E. inversion E; subst p. clear E. cbn [pl_evs pl_tr pl_rt pl_s] in *.
  destruct out107 as (e & x & He & Eb & Hd).
  assert (W : forall i', writer_events (outs107 i') (trs i')).
  { intros i. destruct (Nat.eq_dec i 0) as [->|N].
    - rewrite E1. eapply (proj1 (C107_stream_is_writer 2 ltac:(lia) 2 (fun _ => [0; 0]) (fun _ => MkBid 0 0)
        (fun _ => [7; 7]) (outs107 0) [1; 2] tr107 e ltac:(auto)
        ltac:(intros a b Q; apply apart107 in Q; tauto) He)).
    - rewrite (E2 i N). exists 1, 1, (fun _ => []), (fun _ => MkBid 0 0), (fun _ => []).
      eexists. split; [constructor|]. split; [intros []|]. split; [constructor|intros d []]. }
  destruct (H 2 2%Z enc107 dec107 outs107 ins107 cfgs107 disks107 4 init107 (fst start107) (snd start107)
    _ trs rts _ 0 2 (fun _ => [0; 0]) (fun _ => MkBid 0 0) (fun _ => [7; 7]) [1; 2] tr107 e 0
    ltac:(lia) apart107 stores107 ltac:(lia) setup107 history107 fresh107 Ht W (fun b : nat => eq_refl) He E1
    ltac:(rewrite Eb; lia)) as (blk & X1 & X2).
  vm_compute in X1. destruct blk as [|a [|b [|]]]; try discriminate.
  specialize (X2 0 a eq_refl). cbn in X2. inversion X2; subst a. cbn in X1. discriminate.
Qed.
Print Assumptions C107_before_close_refuted.
