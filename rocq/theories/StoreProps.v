(** C92: the block store as a whole. *)

From Coq Require Import String Ascii.
From Coq Require Import ZArith List Bool Arith Lia.
From Verif Require Import AllocModel ManagerModel ManagerSpec FileModel FileSpec FileProofs StoreModel StoreSpec
  StoreProofs StoreProofs2.
Import ListNotations.
Local Open Scope Z_scope.

(** The setup common to the theorems: disks of any of the three types, with
    sizes from the configuration, one file each. *)
Definition setup (cfgs : list (Z * bool)) (disks : list disk) (s0 : store) : Prop :=
  (forall s g, In (s, g) cfgs -> 0 <= s) /\ length disks = length cfgs /\
  (forall k, In k disks -> new_disk k) /\ open_store cfgs disks = Some s0.

(** ** Runs of concrete operations, for the examples *)

Fixpoint run_store (ba : nat) (s : store) (tr : list event) (ops : list sop) : option (store * list event) :=
  match ops with
  | [] => Some (s, tr)
  | o :: r => match store_step ba s o with Some (s', e) => run_store ba s' (e :: tr) r | None => None end
  end.

Definition allowedb (s : store) (o : sop) : bool :=
  match o with
  | SNew tsize f off sizes => forallb (fun x => (0 <? x) && ((tsize =? x) || (tsize =? 0))) sizes
  | SDelete _ i => match nth_error (mc_held (st_client s)) i with
      | Some b => forallb (fun r => negb (bid_eqb (rq_bid r) b)) (st_pending s) | None => false end
  | SWrite i d => match nth_error (mc_held (st_client s)) i with
      | Some b => (Z.of_nat (length d) =? b_size b) &&
                  forallb (fun r => negb (bid_eqb (rq_bid r) b)) (st_pending s) | None => false end
  | SRead i => match nth_error (mc_held (st_client s)) i with
      | Some b => forallb (fun r => match rq_data r with None => true | _ => negb (bid_eqb (rq_bid r) b) end) (st_pending s)
      | None => false end
  | SServe _ k => (k <? length (st_pending s))%nat
  end.

Definition disks_ok (n : nat) (o : sop) : Prop :=
  match o with SNew _ f _ _ => forall i, (f i < n)%nat | _ => True end.

Lemma allowedb_ok : forall n s o, disks_ok n o -> allowedb s o = true -> allowed n s o.
Proof.
  assert (G : forall l b, forallb (fun r => negb (bid_eqb (rq_bid r) b)) l = true ->
    forall r, In r l -> rq_bid r <> b).
  { intros l b H r Hr E. rewrite forallb_forall in H. specialize (H r Hr). rewrite E in H.
    rewrite bid_eqb_refl in H. discriminate. }
  intros n s o D H. destruct o as [tsize f off sizes|os i|i d|i|a k]; cbn [allowedb allowed] in *.
  - split; auto. rewrite forallb_forall in H. intros x Hx. specialize (H x Hx).
    apply andb_true_iff in H. destruct H as (A & B). apply orb_true_iff in B.
    rewrite !Z.eqb_eq in B. apply Z.ltb_lt in A. auto.
  - destruct (nth_error _ i) as [b|]; [|discriminate]. exists b. eauto.
  - destruct (nth_error _ i) as [b|]; [|discriminate]. apply andb_true_iff in H. destruct H as (A & B).
    apply Z.eqb_eq in A. exists b. eauto.
  - destruct (nth_error _ i) as [b|]; [|discriminate]. exists b. split; auto. intros r Hr Nd E.
    rewrite forallb_forall in H. specialize (H r Hr). rewrite E in H.
    destruct (rq_data r); [|auto]. rewrite bid_eqb_refl in H. discriminate.
  - apply Nat.ltb_lt. auto.
Qed.

Fixpoint all_allowed (ba : nat) (s : store) (ops : list sop) : bool :=
  match ops with
  | [] => true
  | o :: r => allowedb s o &&
      match store_step ba s o with Some (s', _) => all_allowed ba s' r | None => false end
  end.

Lemma run_history : forall rules n ba s0 ops s tr s' tr', shistory rules n ba s0 tr s ->
  Forall (disks_ok n) ops -> (rules = true -> all_allowed ba s ops = true) ->
  run_store ba s tr ops = Some (s', tr') -> shistory rules n ba s0 tr' s'.
Proof.
  intros rules n ba s0. induction ops as [|o ops IH]; intros s tr s' tr' H F A R; cbn [run_store] in R.
  - inversion R; subst. auto.
  - inversion F; subst. cbn [all_allowed] in A. destruct (store_step ba s o) as [(s1 & e)|] eqn:E; [|discriminate].
    eapply (IH s1 (e :: tr)); eauto.
    + eapply sh_step; eauto. intros Q. specialize (A Q). apply andb_true_iff in A.
      apply allowedb_ok; tauto.
    + intros Q. specialize (A Q). apply andb_true_iff in A. tauto.
Qed.

(** ** C92 *)

(** Whatever is allocated, deleted, written and read meanwhile, in whatever
    order the requests are served and whichever of them fail: a read that
    succeeds delivers what was last written to its block. *)
Theorem C92_reads_last_written : forall ba cfgs disks s0 newer b x older s d,
  (1 <= ba)%nat -> setup cfgs disks s0 ->
  shistory true (length cfgs) ba s0 (newer ++ EReadDone b (Some x) :: older) s ->
  expected older b = Some d -> x = map Some d.
Proof.
  intros ba cfgs disks s0 newer b x older s d Hba (A & B & C & D) H E.
  eapply history_read; eauto. eapply open_inv; eauto.
Qed.
Print Assumptions C92_reads_last_written.

(** Nothing a client following the rules does, and no request served, accesses
    memory outside of a file, asserts or goes wrong. *)
Theorem C92_no_undefined_behaviour : forall ba cfgs disks s0 tr s o,
  (1 <= ba)%nat -> setup cfgs disks s0 -> shistory true (length cfgs) ba s0 tr s ->
  allowed (length cfgs) s o -> exists s' e, store_step ba s o = Some (s', e).
Proof.
  intros ba cfgs disks s0 tr s o Hba (A & B & C & D) H Al.
  destruct (step_any ba cfgs tr s o Hba (history_sinv _ _ _ _ _ Hba (open_inv _ _ _ A B C D) H) Al)
    as (s' & e & E & _). eauto.
Qed.
Print Assumptions C92_no_undefined_behaviour.

(** If the system does not fail, no request does: all blocks lie inside of
    their files. *)
Theorem C92_requests_succeed : forall ba cfgs disks s0 tr s a k s' e,
  (1 <= ba)%nat -> setup cfgs disks s0 -> shistory true (length cfgs) ba s0 tr s ->
  (k < length (st_pending s))%nat -> working a -> store_step ba s (SServe a k) = Some (s', e) ->
  exists r, nth_error (st_pending s) k = Some r /\
    match rq_data r with
    | Some _ => e = EWritten (rq_bid r) true
    | None => exists x, e = EReadDone (rq_bid r) (Some x) /\ Z.of_nat (length x) = b_size (rq_bid r)
    end.
Proof.
  intros ba cfgs disks s0 tr s a k s' e Hba (A & B & C & D) H L W E.
  pose proof (history_sinv _ _ _ _ _ Hba (open_inv _ _ _ A B C D) H) as I.
  destruct (step_serve ba cfgs tr s a k I L) as (s2 & e2 & E2 & _ & _ & N).
  rewrite E in E2. inversion E2; subst. specialize (N W). clear E2.
  destruct (nth_error (st_pending s) k) as [r|] eqn:Er; [|apply nth_error_None in Er; lia].
  exists r. split; auto. pose proof (nth_error_In _ _ Er) as Hr.
  destruct (si_pend _ _ _ I r Hr) as (Hb & _).
  destruct (disk_exists _ _ _ _ I Hb) as (dk & Ek & Hk).
  destruct (held_where _ _ _ (si_reach _ _ _ I) Hb) as (Pn & aa & _ & _ & Pz).
  cbn [store_step] in E. rewrite Er, Ek in E.
  destruct (rq_data r) as [data|].
  - destruct (disk_write a dk (off_of (rq_bid r)) data) as ([x| |] & dk'); inversion E; subst; auto.
    exfalso. destruct (N (rq_bid r)) as (Q & _). auto.
  - pose proof (disk_read_spec a dk (off_of (rq_bid r)) (len_of (rq_bid r)) Pn Hk) as Rd.
    destruct (disk_read a dk (off_of (rq_bid r)) (len_of (rq_bid r))) as ([x| |] & dk'); inversion E; subst.
    + exists x. split; auto. destruct Rd as (_ & _ & _ & Rd). rewrite (Rd x eq_refl).
      assert (G : forall kk off n, length (content kk off n) = n).
      { intros [f|f|p d] off n; cbn [content]; rewrite map_length; try apply seq_length.
        apply FileProps.fit_len. }
      rewrite G. unfold len_of. lia.
    + exfalso. destruct (N (rq_bid r)) as (_ & Q). auto.
Qed.
Print Assumptions C92_requests_succeed.

(** *** The rules matter *)

Definition cfgs92 : list (Z * bool) := [(8, false); (0, true); (0, true)].
Definition disks92 : list disk :=
  [DMem []; DSys [7; 7; 7; 7; 7; 7]; DPer "p" (fun _ => None)].
Definition stripe92 (i : nat) : nat := Nat.modulo i 3.
Definition ok92 : answers := mk_answers (fun _ => Xfer 3) (fun _ => Xfer 3) (fun _ => Xfer 3).
Definition bad92 : answers := mk_answers (fun _ => Xfer 3) (fun _ => Xfer 3) (fun i => if Nat.eqb i 3 then Fail else Xfer 3).

Definition start92 : store :=
  match open_store cfgs92 disks92 with Some s => s | None => mk_store (mk_mclient (mk_manager [] 0 0 0) [] 0 0) [] [] end.

Lemma setup92 : setup cfgs92 disks92 start92.
Proof.
  split; [|split; [|split]].
  - intros s g H. cbn in H. destruct H as [H|[H|[H|[]]]]; inversion H; lia.
  - reflexivity.
  - intros k H. cbn in H. destruct H as [<-|[<-|[<-|[]]]]; cbn; auto.
  - reflexivity.
Qed.

Lemma stripe92_lt : forall i, (stripe92 i < length cfgs92)%nat.
Proof. intros i. apply Nat.mod_upper_bound. discriminate. Qed.

(** A client that deletes a block while a write to it is pending destroys the
    data of the one who gets the place next. *)
Definition rude92 : list sop :=
  [SNew 4 stripe92 0 [4]; SWrite 0 [1; 1; 1; 1]; SDelete (an_open ok92) 0;
   SNew 4 stripe92 0 [4]; SWrite 0 [2; 2; 2; 2]; SServe ok92 1; SServe ok92 0;
   SRead 0; SServe ok92 0].

Theorem C92_rules_needed_refuted : ~ (forall ba cfgs disks s0 newer b x older s d,
  (1 <= ba)%nat -> setup cfgs disks s0 ->
  shistory false (length cfgs) ba s0 (newer ++ EReadDone b (Some x) :: older) s ->
  expected older b = Some d -> x = map Some d).
Proof.
  intros H.
  destruct (run_store 4 start92 [] rude92) as [(s & tr)|] eqn:E; [|vm_compute in E; discriminate].
  assert (Hh : shistory false (length cfgs92) 4 start92 tr s).
  { eapply run_history; [constructor| |discriminate|exact E].
    repeat (apply Forall_cons || apply Forall_nil); cbn [disks_ok]; auto; apply stripe92_lt. }
  vm_compute in E. inversion E; subst tr s; clear E.
  specialize (H 4%nat cfgs92 disks92 start92 [] _ _ _ _ [2; 2; 2; 2] ltac:(lia) setup92 Hh eq_refl).
  discriminate.
Qed.
Print Assumptions C92_rules_needed_refuted.

(** *** Files of several fileperblock disks in one directory do not collide *)

Lemma last_mark : forall (l1 l2 d1 d2 : list ascii) c, ~ In c d1 -> ~ In c d2 ->
  l1 ++ c :: d1 = l2 ++ c :: d2 -> l1 = l2 /\ d1 = d2.
Proof.
  induction l1 as [|x l1 IH]; intros [|y l2] d1 d2 c N1 N2 E; cbn in E; inversion E; subst; auto.
  - exfalso. apply N1. apply in_or_app. right. left. auto.
  - exfalso. apply N2. apply in_or_app. right. left. auto.
  - destruct (IH l2 d1 d2 c N1 N2 H1). subst. auto.
Qed.

Lemma digits_no_mark : forall u c, In c (digits u) ->
  In c (list_ascii_of_string "0123456789").
Proof.
  induction u; intros c H; cbn [digits] in H; [destruct H|..]; destruct H as [<-|H]; auto; cbn; tauto.
Qed.

Lemma name_shape : forall p off, exists ds, file_name p off =
  (list_ascii_of_string p ++ list_ascii_of_string "_fpb") ++ "_"%char :: ds /\
  (forall c, In c ds -> In c (list_ascii_of_string "0123456789")) /\ ds <> [].
Proof.
  intros p off. exists (repeat "0"%char (20 - length (decimal off)) ++ decimal off). split; [|split].
  - unfold file_name. rewrite <- app_assoc. reflexivity.
  - intros c H. apply in_app_or in H. destruct H as [H|H].
    + apply repeat_spec in H. subst. cbn. auto.
    + unfold decimal in H. eapply digits_no_mark; eauto.
  - intros E. apply app_eq_nil in E. destruct E as (A & B). rewrite B in A. discriminate.
Qed.

Lemma mark_not_digit : ~ In "_"%char (list_ascii_of_string "0123456789").
Proof. cbn. intros H. repeat destruct H as [H|H]; try discriminate. destruct H. Qed.

Theorem C92_block_files_apart : forall p off p' off',
  (file_name p off = file_name p' off' <-> p = p' /\ off = off') /\
  file_name p off <> lock_name p'.
Proof.
  intros p off p' off'. destruct (name_shape p off) as (ds & E & H & N).
  destruct (name_shape p' off') as (ds' & E' & H' & N').
  split; [split|].
  - intros Q. assert (P : p = p').
    { rewrite E, E' in Q. apply last_mark in Q.
      - destruct Q as (Q & _). apply app_inv_tail in Q.
        rewrite <- (string_of_list_ascii_of_string p), <- (string_of_list_ascii_of_string p'). congruence.
      - intros I. apply mark_not_digit. auto.
      - intros I. apply mark_not_digit. auto. }
    subst p'. split; auto. eapply file_name_inj; eauto.
  - intros (-> & ->). auto.
  - intros Q. rewrite E in Q. unfold lock_name in Q.
    change (list_ascii_of_string "_fpb_lock") with
      (list_ascii_of_string "_fpb" ++ "_"%char :: list_ascii_of_string "lock") in Q.
    rewrite app_assoc in Q. apply last_mark in Q.
    + destruct Q as (_ & ->). specialize (H "l"%char (or_introl eq_refl)).
      cbn in H. repeat destruct H as [H|H]; try discriminate. destruct H.
    + intros I. apply mark_not_digit. auto.
    + cbn. intros I. repeat destruct I as [I|I]; try discriminate. destruct I.
Qed.
Print Assumptions C92_block_files_apart.

(** *** A history on three kinds of disks *)

Definition polite92 : list sop :=
  [SNew 4 stripe92 0 [4; 4; 4; 4]; SWrite 0 [1; 2; 3; 4]; SWrite 1 [5; 6; 7; 8]; SWrite 2 [9; 10; 11; 12];
   SServe ok92 1; SServe ok92 1; SServe ok92 0;
   SRead 1; SRead 1; SDelete (an_open ok92) 0; SServe ok92 1; SNew 0 stripe92 1 [5; 3];
   SWrite 4 [20; 21; 22]; SServe ok92 1; SWrite 3 [30; 31; 32; 33; 34]; SServe bad92 1;
   SRead 0; SRead 1; SRead 3; SRead 4; SServe ok92 4; SServe ok92 3; SServe ok92 2; SServe ok92 1; SServe ok92 0].

Definition blk (d : nat) (o n t : Z) : bid := mk_bid (Managed d) o n t.

Example C92_case : setup cfgs92 disks92 start92 /\ working ok92 /\
  exists s tr, shistory true (length cfgs92) 4 start92 tr s /\
  run_store 4 start92 [] polite92 = Some (s, tr) /\
  firstn 5 tr = [EReadDone (blk 1 0 4 4) (Some [Some 5; Some 6; Some 7; Some 8]);
                 EReadDone (blk 1 0 4 4) (Some [Some 5; Some 6; Some 7; Some 8]);
                 EReadDone (blk 2 0 4 4) (Some [Some 9; Some 10; Some 11; Some 12]);
                 EReadDone (blk 1 4 5 0) (Some [Some 30; Some 31; Some 32; Some 0; Some 0]);
                 EReadDone (blk 2 4 3 0) (Some [Some 20; Some 21; Some 22])] /\
  expected tr (blk 2 4 3 0) = Some [20; 21; 22] /\
  expected tr (blk 1 4 5 0) = None.
Proof.
  split; [exact setup92|]. split; [intros i; split; [|split]; exists 2%nat; reflexivity|].
  destruct (run_store 4 start92 [] polite92) as [(s & tr)|] eqn:E; [|vm_compute in E; discriminate].
  exists s, tr. split.
  - eapply run_history; [constructor| | |exact E].
    + repeat (apply Forall_cons || apply Forall_nil); cbn [disks_ok]; auto; apply stripe92_lt.
    + intros _. vm_compute. reflexivity.
  - split; auto. vm_compute in E. inversion E; subst tr. vm_compute. auto 6.
Qed.
