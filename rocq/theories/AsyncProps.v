(** C115: asynchronous transfers of clients that wait. *)

From Coq Require Import ZArith List Bool Lia.
From Verif Require Import WriterProofs AllocSpec ManagerModel ManagerSpec ManagerProps AsyncModel AsyncSpec AsyncProofs.
Import ListNotations.
Local Open Scope Z_scope.

(** Clients that wait see a sequential machine: whatever they see (and every byte no request
    under way changes) is as if each request were executed as a whole when it is completed. *)
Theorem C115_sequential : forall w tr s', run (MkS w []) tr s' -> polite tr ->
  exists w', seq_run [] w tr w' /\
    forall l, (forall c i r, In (c, i, r) (pending [] tr) -> ~ changes r l) -> s_val s' l = w' l.
Proof.
  intros w tr s' R P.
  assert (E : forall s t s2, run s t s2 -> forall w0, sim s w0 ->
    (forall t1 l t2, t = t1 ++ l :: t2 -> polite_label (pending (pend s) t1) l) -> pend s2 = pending (pend s) t).
  { intros s t s2 R'. induction R' as [s|s1 s2 t s3 St R' IH|s1 l s2 t s3 St R' IH]; intros w0 M P'; auto.
    - destruct (sim_silent _ _ _ M St) as (M' & E). rewrite <- E. apply (IH w0); auto. rewrite E. auto.
    - destruct (sim_label _ _ _ _ M St (P' [] l t eq_refl)) as (w1 & Q1 & M1 & E).
      change (pending (pend s1) (l :: t)) with (pending (after (pend s1) l) t). rewrite <- E. apply (IH w1); auto.
      intros t1 k t2 ->. rewrite E. apply (P' (l :: t1) k t2). reflexivity. }
  destruct (sim_run _ _ _ R w (sim_init w) P) as (w' & Q & M). exists w'. split; auto.
  intros l Hl. apply (sm_out _ _ M). intros e He. apply (Hl (e_client e) (e_id e)).
  change (@nil posted) with (pend (MkS w [])). rewrite <- (E _ _ _ R w (sim_init w) P). apply in_pend; auto.
Qed.
Print Assumptions C115_sequential.

(** Clients with memory and blocks of their own need to wait only for their own requests, and
    each sees what it would see alone. *)
Theorem C115_clients : forall (own : nat -> loc -> Prop) w tr s',
  (forall c d m, own c m -> own d m -> c = d) ->
  run (MkS w []) tr s' -> Forall (keeps_to own) tr -> (forall c, polite (part c tr)) ->
  forall c, exists w', seq_run [] w (part c tr) w' /\
    forall l, own c l -> (forall i r, In (c, i, r) (pending [] (part c tr)) -> ~ changes r l) -> s_val s' l = w' l.
Proof.
  intros own w tr s' D R F P c.
  destruct (C115_sequential _ _ _ R (polite_parts own tr D F P)) as (w1 & Q & A).
  assert (O : owned own []) by (intros ? ? ? ? []).
  destruct (seq_part own D _ _ _ _ Q F O c w (fun _ _ => eq_refl)) as (w' & Q' & A'). exists w'. split; [exact Q'|].
  intros l Ol Hl. rewrite A', A; auto. intros d i r I C. destruct (Nat.eq_dec d c) as [->|N].
  - apply (Hl i r); auto. change (@nil posted) with (filter (mine c) []). rewrite pending_part. apply filter_In.
    split; auto. unfold mine. cbn. apply Nat.eqb_refl.
  - apply N. apply (D d c l); auto. apply (pending_owned own tr [] O F d i r l I). apply changes_uses; auto.
Qed.
Print Assumptions C115_clients.

(** In particular on blocks of the block manager: block [j] belongs to client [who j], the byte
    [a] of memory to [mem a]. *)
Definition block_owner (held : list bid) (who : nat -> nat) (mem : Z -> nat) (c : nat) (l : loc) : Prop :=
  match l with
  | Mem a => mem a = c
  | Disk f o => exists j b, nth_error held j = Some b /\ who j = c /\ b_storage b = Managed f /\ in_range o (range_of b)
  end.

Theorem C115_blocks : forall cfgs may_throw mc who mem w tr s',
  mreachable cfgs may_throw mc ->
  run (MkS w []) tr s' -> Forall (keeps_to (block_owner (mc_held mc) who mem)) tr -> (forall c, polite (part c tr)) ->
  forall c, exists w', seq_run [] w (part c tr) w' /\
    forall l, block_owner (mc_held mc) who mem c l ->
      (forall i r, In (c, i, r) (pending [] (part c tr)) -> ~ changes r l) -> s_val s' l = w' l.
Proof.
  intros cfgs mt mc who mem w tr s' H R F P c. apply C115_clients; auto.
  intros d e [a|f o] A B; cbn [block_owner] in *; [congruence|].
  destruct A as (j & b & A1 & A2 & A3 & A4). destruct B as (j' & b' & B1 & B2 & B3 & B4).
  destruct (Nat.eq_dec j j') as [->|N]; [congruence|]. exfalso.
  apply (C11_managed_blocks_disjoint _ _ _ _ _ _ _ H N A1 B1 (eq_trans A3 (eq_sym B3)) o). auto.
Qed.
Print Assumptions C115_blocks.

Lemma run_snoc : forall a t b, run a t b -> forall l c, step b (Some l) c -> run a (t ++ [l]) c.
Proof.
  intros a t b R. induction R; intros x c St; cbn.
  - eapply RLabel; [eauto|constructor].
  - eapply RSilent; eauto.
  - eapply RLabel; eauto.
Qed.

(** A request can always be completed. *)
Lemma move_all : forall n s l1 e l2, s_fly s = l1 ++ e :: l2 -> (length (e_todo e) <= n)%nat ->
  (forall k, In k (e_todo e) -> 0 <= k < r_size (e_req e)) ->
  exists v e', run s [] (MkS v (l1 ++ e' :: l2)) /\ e_client e' = e_client e /\ e_id e' = e_id e /\ e_todo e' = [].
Proof.
  induction n as [|n IH]; intros s l1 e l2 F L K.
  - exists (s_val s), e. rewrite <- F. destruct s. csplit; auto; [constructor|destruct (e_todo e); auto; cbn in L; lia].
  - destruct (e_todo e) as [|k t] eqn:T.
    + exists (s_val s), e. rewrite <- F. destruct s. csplit; auto. constructor.
    + pose proof (SMove s l1 e l2 k F (K k (or_introl eq_refl))) as St.
      match type of St with step _ _ ?x => set (s2 := x) in * end.
      destruct (IH s2 l1 (MkE (e_client e) (e_id e) (e_req e) (filter (fun j => negb (j =? k)) (e_todo e)) true) l2) as (v & e' & R & A & B & C).
      * reflexivity.
      * cbn [e_todo]. rewrite T. cbn [filter]. rewrite Z.eqb_refl. cbn [negb].
        assert (X : forall (g : Z -> bool) l, (length (filter g l) <= length l)%nat).
        { intros g. induction l as [|y l IHl]; cbn; auto. destruct (g y); cbn; lia. }
        specialize (X (fun j => negb (j =? k)) t). cbn in L. lia.
      * cbn [e_todo e_req]. intros j Hj. apply filter_In in Hj. rewrite T in Hj. apply K. apply Hj.
      * exists v, e'. csplit; auto. eapply RSilent; eauto.
Qed.

Theorem C115_completes : forall w tr s e, run (MkS w []) tr s -> In e (s_fly s) ->
  exists s', run s [Done (e_client e) (e_id e)] s'.
Proof.
  intros w tr s e R He.
  assert (K : forall s0 t s1, run s0 t s1 ->
    (forall e k, In e (s_fly s0) -> In k (e_todo e) -> 0 <= k < r_size (e_req e)) ->
    forall e k, In e (s_fly s1) -> In k (e_todo e) -> 0 <= k < r_size (e_req e)).
  { assert (T : forall s0 l s1, step s0 l s1 -> (forall e k, In e (s_fly s0) -> In k (e_todo e) -> 0 <= k < r_size (e_req e)) ->
      forall e k, In e (s_fly s1) -> In k (e_todo e) -> 0 <= k < r_size (e_req e)).
    { intros s0 l s1 St K e0 k I J.
      destruct St as [s0 c i r Fr|s0 c a v|s0 c a|s0 l1 e1 l2 j F Hj|s0 l1 e1 l2 F T|s0 l1 e1 l2 F|s0 l1 e1 l2 F T]; cbn [s_fly] in *; eauto;
        try (eapply K; eauto; rewrite F; apply in_app_iff in I; apply in_app_iff; cbn; tauto).
      - apply in_app_iff in I. destruct I as [I|[<-|[]]]; eauto. apply in_offsets; auto.
      - apply in_app_iff in I. destruct I as [I|[<-|I]].
        + eapply K; eauto. rewrite F. apply in_app_iff. auto.
        + cbn [e_todo e_req] in *. apply filter_In in J. eapply K; [|apply J]. rewrite F. apply in_app_iff. cbn. auto.
        + eapply K; eauto. rewrite F. apply in_app_iff. cbn. auto. }
    intros s0 t s1 R0. induction R0; intros K; auto; apply IHR0; eapply T; eauto. }
  destruct (in_split _ _ He) as (l1 & l2 & F).
  destruct (move_all (length (e_todo e)) s l1 e l2 F (le_n _)) as (v & e' & R' & A & B & C).
  - intros k Hk. eapply (K _ _ _ R); eauto. cbn. intros ? ? [].
  - exists (MkS v (l1 ++ l2)).
    apply (run_snoc _ _ _ R'). rewrite <- A, <- B. pose proof (SDone (MkS v (l1 ++ e' :: l2)) l1 e' l2 eq_refl C) as D. exact D.
Qed.
Print Assumptions C115_completes.

(** Two clients: one writes two bytes and reads them back, the other reads a block meanwhile and
    changes memory of its own. *)
Definition wr := MkR true 0 0 100 2.
Definition rd := MkR false 0 0 200 2.
Definition other := MkR false 0 28 300 1.
Definition ex_trace : list label :=
  [Poke 0 100 7; Poke 0 101 8; Post 0 0 wr; Post 1 1 other; Poke 1 301 5; Done 0 0; Post 0 2 rd; Done 1 1; Peek 1 300 9; Done 0 2;
   Peek 0 200 7; Peek 0 201 8].
Definition ex_w (l : loc) : Z := match l with Disk 0 28 => 9 | _ => 0 end.

Ltac mv n k := eapply RSilent;
  [match goal with |- step ?s None _ => refine (SMove s (firstn n (s_fly s)) _ (skipn (S n) (s_fly s)) k _ _) end; [reflexivity|cbn; lia]|];
  cbn.
Ltac lab := eapply RLabel; [first [apply SPost; cbn; intros ? E; repeat (destruct E as [<-|E]; [discriminate|]); destruct E
  |apply SPoke]|]; cbn [s_fly s_val app].

Ltac fin := match goal with |- step (MkS ?v (?e :: ?l)) _ _ => exact (SDone (MkS v (e :: l)) [] e l eq_refl eq_refl) end.

Lemma mem_inj : forall a b, Mem a = Mem b -> a = b.
Proof. intros a b H. congruence. Qed.
Lemma disk_inj : forall f o g p, Disk f o = Disk g p -> f = g /\ o = p.
Proof. intros. split; congruence. Qed.

Fixpoint polite_from (p : list posted) (tr : list label) : Prop :=
  match tr with [] => True | l :: tr' => polite_label p l /\ polite_from (after p l) tr' end.
Lemma polite_from_ok : forall tr p, polite_from p tr -> forall t1 l t2, tr = t1 ++ l :: t2 -> polite_label (pending p t1) l.
Proof.
  induction tr as [|a tr IH]; intros p H t1 l t2 E; [destruct t1; discriminate|]. destruct H as (H & H2).
  destruct t1 as [|b t1]; inversion E; subst; auto. apply (IH (after p b) H2 t1 l t2 eq_refl).
Qed.

Example C115_case : exists s', run (MkS ex_w []) ex_trace s' /\ polite ex_trace.
Proof.
  eexists. split.
  - unfold ex_trace. lab. lab. lab. lab. lab. mv 0%nat 1. mv 1%nat 0. mv 0%nat 0.
    eapply RLabel; [fin|]. cbn.
    lab. mv 1%nat 0. 
    eapply RLabel; [fin|]. cbn.
    eapply RLabel; [match goal with |- step ?s _ _ => exact (SPeek s 1%nat 300) end|].
    mv 0%nat 1.
    eapply RLabel; [fin|]. cbn.
    eapply RLabel; [match goal with |- step ?s _ _ => exact (SPeek s 0%nat 200) end|].
    eapply RLabel; [match goal with |- step ?s _ _ => exact (SPeek s 0%nat 201) end|]. apply RNil.
  - intros t1 l t2 E. apply (polite_from_ok ex_trace [] ) with (t2 := t2); auto. unfold ex_trace.
    cbn [polite_from after app filter is_posted fst snd Nat.eqb andb negb polite_label].
    csplit; auto; intros d i q H; cbn in H; repeat (destruct H as [H|H]; [inversion H; subst|]); try destruct H.
    all: unfold conflict, uses, changes; intros X; unfold src, dst, wr, rd, other in X; cbn [r_size r_write r_file r_off r_buf] in X.
    all: repeat match goal with H : exists _, _ |- _ => destruct H | H : _ /\ _ |- _ => destruct H | H : _ \/ _ |- _ => destruct H end; subst;
      try discriminate; repeat match goal with H : @eq loc _ _ |- _ => first [apply mem_inj in H|apply disk_inj in H; destruct H] end; lia.
Qed.

(** The same clients on blocks of a block manager: the first block of disk 0 belongs to client 0,
    the others to client 1. *)
Definition ex_who (j : nat) : nat := match j with O => 0%nat | _ => 1%nat end.
Definition ex_mem (a : Z) : nat := if a <? 300 then 0%nat else 1%nat.

Ltac no_uses := unfold conflict, uses, changes; intros X; unfold src, dst, wr, rd, other in X; cbn [r_size r_write r_file r_off r_buf] in X;
  repeat match goal with H : exists _, _ |- _ => destruct H | H : _ /\ _ |- _ => destruct H | H : _ \/ _ |- _ => destruct H end; subst;
  try discriminate; repeat match goal with H : @eq loc _ _ |- _ => first [apply mem_inj in H|apply disk_inj in H; destruct H] end; lia.

Example C115_clients_case : mreachable cfgs3 true demo3 /\
  Forall (keeps_to (block_owner (mc_held demo3) ex_who ex_mem)) ex_trace /\ forall c, polite (part c ex_trace).
Proof.
  split; [exact demo3_reachable|]. split.
  - pose proof (proj2 C11_case) as Hh. revert Hh. generalize (mc_held demo3). intros held Hh.
    assert (M0 : forall a, a < 300 -> block_owner held ex_who ex_mem 0 (Mem a)).
    { intros a Ha. cbn [block_owner]. unfold ex_mem. destruct (Z.ltb_spec a 300); auto; lia. }
    assert (M1 : forall a, 300 <= a -> block_owner held ex_who ex_mem 1 (Mem a)).
    { intros a Ha. cbn [block_owner]. unfold ex_mem. destruct (Z.ltb_spec a 300); auto; lia. }
    destruct held as [|b0 [|b1 [|b2 held]]]; try discriminate. cbn [map] in Hh. inversion Hh as [[A1 A2 A3 B1 B2 B3 C1 C2 C3 R]].
    assert (D0 : forall o, 0 <= o < 20 -> block_owner (b0 :: b1 :: b2 :: held) ex_who ex_mem 0 (Disk 0 o)).
    { intros o Ho. exists 0%nat, b0. csplit; auto. unfold in_range, range_of. rewrite A2, A3. cbn [fst snd]. lia. }
    assert (D1 : forall o, 20 <= o < 40 -> block_owner (b0 :: b1 :: b2 :: held) ex_who ex_mem 1 (Disk 0 o)).
    { intros o Ho. exists 2%nat, b2. csplit; auto; [congruence|]. unfold in_range, range_of. cbn [fst snd]. lia. }
    clear Hh R.
    unfold ex_trace. repeat (apply Forall_cons || apply Forall_nil); cbn [keeps_to]; auto;
      try (apply M0; lia); try (apply M1; lia);
      intros m (k & Hk & [-> | ->]); unfold src, dst, wr, rd, other in *; cbn [r_size r_write r_file r_off r_buf] in *;
      first [apply M0; lia|apply D0; lia|apply M1; lia|apply D1; lia].
  - intros [|[|c]] t1 l t2 E; (eapply polite_from_ok; [|exact E]).
    + unfold ex_trace. cbn [part filter client_of Nat.eqb polite_from after app is_posted fst snd andb negb polite_label].
      csplit; auto; intros d i q H; cbn in H; repeat (destruct H as [H|H]; [inversion H; subst|]); try destruct H; no_uses.
    + unfold ex_trace. cbn [part filter client_of Nat.eqb polite_from after app is_posted fst snd andb negb polite_label].
      csplit; auto; intros d i q H; cbn in H; repeat (destruct H as [H|H]; [inversion H; subst|]); try destruct H; no_uses.
    + unfold ex_trace. cbn. auto.
Qed.
(** A client that changes a buffer while it is being written does not. *)
Theorem C115_impolite_refuted :
  ~ (forall w tr s', run (MkS w []) tr s' -> exists w', seq_run [] w tr w' /\
      forall l, (forall c i r, In (c, i, r) (pending [] tr) -> ~ changes r l) -> s_val s' l = w' l).
Proof.
  intros H. set (r := MkR true 0 0 100 1).
  destruct (H (fun _ => 0) [Post 0 0 r; Poke 0 100 1; Done 0 0] (MkS (upd (upd (fun _ => 0) (Disk 0 0) 0) (Mem 100) 1) [])) as (w' & Q & A).
  - lab. mv 0%nat 0. lab.
    eapply RLabel; [fin|]. apply RNil.
  - assert (E : s_val (MkS (upd (upd (fun _ => 0) (Disk 0 0) 0) (Mem 100) 1) []) (Disk 0 0) = w' (Disk 0 0)).
    { apply A. intros c i q I. cbn in I. destruct I. }
    vm_compute in E.
    inversion Q as [|p w l w1 tr w2 S1 Q1]; subst. inversion Q1 as [|p w l w3 tr w4 S2 Q2]; subst.
    inversion Q2 as [|p w l w5 tr w6 S3 Q3]; subst. inversion Q3 as [p w w7 S4|]; subst.
    cbn in S1, S2, S3. destruct S2 as (S2 & _). destruct S3 as (q & [I|[]] & S3 & _). inversion I; subst q.
    specialize (S3 0 ltac:(cbn; lia)). cbn in S3. rewrite S4, S3, S2 in E. discriminate.
Qed.
Print Assumptions C115_impolite_refuted.
