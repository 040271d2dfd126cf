(** What the block scheduler asks of the store, and that its disk is only what it asks for. *)

From Coq Require Import ZArith List Bool Arith Lia Permutation.
From Verif Require Import BsModel BsSpec BsProofs BsProofs2 BsProofs3 BsProofs4 BsProofs5.
From Verif Require Import BsStoreModel.
Import ListNotations.

(** The blocks that are there, and their contents, after these acts. *)
Fixpoint us_after (l : list act) (u : list nat) : list nat :=
  match l with
  | [] => u
  | ANew e :: l => us_after l (e :: u)
  | ADel e :: l => us_after l (remove Nat.eq_dec e u)
  | _ :: l => us_after l u
  end.
Fixpoint wr (l : list act) (d : nat -> Z) : nat -> Z :=
  match l with
  | [] => d
  | AWrite e v :: l => wr l (upd d e v)
  | _ :: l => wr l d
  end.

(** The acts can be done with the blocks [u], of which [B] have no content and [T] have been
    accessed; in the end every block has a content. *)
Fixpoint valid (u B T : list nat) (l : list act) : Prop :=
  match l with
  | [] => B = []
  | ANew e :: l => ~ In e u /\ valid (e :: u) (e :: B) T l
  | ADel e :: l => In e u /\ ~ In e T /\ valid (remove Nat.eq_dec e u) B T l
  | AWrite e v :: l => In e u /\ ~ In e T /\ valid u (remove Nat.eq_dec e B) (e :: T) l
  | ARead e :: l => In e u /\ ~ In e B /\ ~ In e T /\ valid u B (e :: T) l
  end.

Lemma us_app : forall l1 l2 u, us_after (l1 ++ l2) u = us_after l2 (us_after l1 u).
Proof. induction l1 as [|[] l1 IH]; intros; cbn; auto. Qed.
Lemma wr_app : forall l1 l2 d, wr (l1 ++ l2) d = wr l2 (wr l1 d).
Proof. induction l1 as [|[] l1 IH]; intros; cbn; auto. Qed.

Lemma wr_not : forall l d e, (forall v, ~ In (AWrite e v) l) -> wr l d e = d e.
Proof.
  induction l as [|a l IH]; intros d e N; cbn; auto.
  assert (N' : forall v, ~ In (AWrite e v) l) by (intros v Q; apply (N v); right; auto).
  destruct a; try (rewrite IH by auto; reflexivity).
  rewrite IH by auto. apply upd_other. intros ->. apply (N v). left; auto.
Qed.
Lemma wr_agree : forall l d d' e, d e = d' e -> wr l d e = wr l d' e.
Proof.
  induction l as [|a l IH]; intros d d' e E; cbn; auto. destruct a; auto.
  apply IH. unfold upd. destruct (e =? e0); auto.
Qed.

Lemma valid_touched : forall l u B T e, valid u B T l -> In e T ->
  ~ In (ARead e) l /\ forall v, ~ In (AWrite e v) l.
Proof.
  induction l as [|a l IH]; intros u B T e V I; cbn; [tauto|].
  destruct a; cbn in V.
  - destruct V as (_ & V). destruct (IH _ _ _ _ V I) as (A & C). split; [|intros v]; intros [Q|Q]; try discriminate; eauto. eapply C; eauto.
  - destruct V as (_ & _ & V). destruct (IH _ _ _ _ V I) as (A & C). split; [|intros v]; intros [Q|Q]; try discriminate; eauto. eapply C; eauto.
  - destruct V as (_ & N & V). destruct (IH _ _ _ _ V (or_intror I)) as (A & C).
    split; [|intros v']; intros [Q|Q]; try discriminate; eauto; [inversion Q; subst; auto|eapply C; eauto].
  - destruct V as (_ & _ & N & V). destruct (IH _ _ _ _ V (or_intror I)) as (A & C).
    split; [|intros v']; intros [Q|Q]; try discriminate; eauto; [inversion Q; subst; auto|eapply C; eauto].
Qed.

Lemma valid_read : forall l u B T e, valid u B T l -> In (ARead e) l -> forall v, ~ In (AWrite e v) l.
Proof.
  induction l as [|a l IH]; intros u B T e V I v; cbn; [tauto|].
  destruct a; cbn in V; destruct I as [I|I]; try discriminate; intros [Q|Q]; try discriminate.
  - destruct V as (_ & V). eapply IH; eauto.
  - destruct V as (_ & _ & V). eapply IH; eauto.
  - destruct V as (_ & _ & V). inversion Q; subst. apply (valid_touched _ _ _ _ e V (or_introl eq_refl)); auto.
  - destruct V as (_ & _ & V). eapply IH; eauto.
  - destruct V as (_ & _ & _ & V). inversion I; subst. eapply (valid_touched _ _ _ _ e V (or_introl eq_refl)); eauto.
  - destruct V as (_ & _ & _ & V). eapply IH; eauto.
Qed.

(** ** The disk *)

Lemma with_same : forall s, with_disk s (disk s) = s.
Proof. intros []. reflexivity. Qed.
Lemma with_with : forall s d d', with_disk (with_disk s d) d' = with_disk s d'.
Proof. intros []. reflexivity. Qed.

Definition mapo {A} (f : A -> A) (x : out A) : out A :=
  match x with Ok a => Ok (f a) | NoMemory => NoMemory | Undefined => Undefined end.
Definition on1 {A} (l : list act) (d : nat -> Z) (x : st * A) : st * A :=
  (with_disk (fst x) (wr l d), snd x).

Section Ops.
Variable pick : nat -> list nat -> nat.
Variable dflt : option Z.

Lemma clean_disk : forall s b d,
  clean pick (with_disk s d) b = mapo (fun s1 => with_disk s1 (wr (clean_acts pick s b) d)) (clean pick s b).
Proof.
  intros s b d. unfold clean, clean_acts. cbn [blk with_disk].
  destruct (dirty (blk s b)); cbn [negb]; [|reflexivity].
  destruct (ext (blk s b)); cbn [new_ext]; destruct (int (blk s b)); reflexivity.
Qed.

Lemma clean_used : forall s b s1, clean pick s b = Ok s1 -> used s1 = us_after (clean_acts pick s b) (used s).
Proof.
  intros s b s1. unfold clean, clean_acts.
  destruct (dirty (blk s b)); cbn [negb]; [|intros E; inversion E; reflexivity].
  destruct (ext (blk s b)); cbn [new_ext]; destruct (int (blk s b)); intros E; inversion E; reflexivity.
Qed.

Lemma detach_disk : forall s b d,
  detach pick (with_disk s d) b = mapo (on1 (clean_acts pick s b) d) (detach pick s b).
Proof.
  intros s b d. unfold detach. cbn [blk with_disk]. destruct (is_evictable (blk s b)); cbn [negb]; [|reflexivity].
  rewrite clean_disk. destruct (clean pick s b) as [s1| |]; cbn [mapo bind]; auto. cbn [blk with_disk].
  destruct (int (blk s1 b)); reflexivity.
Qed.

Lemma detach_used : forall s b s1 i, detach pick s b = Ok (s1, i) ->
  used s1 = us_after (clean_acts pick s b) (used s).
Proof.
  intros s b s1 i. unfold detach. destruct (is_evictable (blk s b)); cbn [negb]; [|discriminate].
  destruct (clean pick s b) as [s2| |] eqn:E; cbn [bind]; try discriminate. apply clean_used in E.
  destruct (int (blk s2 b)); [|discriminate]. intros K; inversion K; subst. exact E.
Qed.

Lemma get_free_disk : forall s d, get_free (with_disk s d) =
  match get_free s with Some (s1, i) => Some (with_disk s1 d, i) | None => None end.
Proof.
  intros s d. unfold get_free. cbn [free_i with_disk remaining]. destruct (free_i s); [|reflexivity].
  destruct (0 <? remaining s); reflexivity.
Qed.

Lemma get_block_disk : forall s d,
  get_block pick (with_disk s d) = mapo (on1 (get_block_acts pick s) d) (get_block pick s).
Proof.
  intros s d. unfold get_block, get_block_acts. rewrite get_free_disk. cbn [al with_disk].
  destruct (get_free s) as [(s1, i)|]; [reflexivity|]. destruct (pop_evictable (al s)) as [(v, a)|]; [|reflexivity].
  change (set_al (with_disk s d) a) with (with_disk (set_al s a) d). apply detach_disk.
Qed.

Lemma get_block_used : forall s s1 i, get_block pick s = Ok (s1, i) ->
  used s1 = us_after (get_block_acts pick s) (used s).
Proof.
  intros s s1 i. unfold get_block, get_block_acts. destruct (get_free s) as [(s2, j)|] eqn:E.
  - intros K; inversion K; subst. unfold get_free in E. destruct (free_i s).
    + destruct (0 <? remaining s); [|discriminate]. inversion E; reflexivity.
    + inversion E; reflexivity.
  - destruct (pop_evictable (al s)) as [(v, a)|]; [|discriminate]. intros K. apply (detach_used _ _ _ _ K).
Qed.

Lemma get_block_disk_same : forall s s1 i, get_block pick s = Ok (s1, i) ->
  disk s1 = wr (get_block_acts pick s) (disk s).
Proof.
  intros s s1 i E. pose proof (get_block_disk s (disk s)) as K. rewrite with_same, E in K. cbn in K.
  inversion K as [Q]. rewrite Q. reflexivity.
Qed.

Lemma clean_acts_noread : forall s b e, ~ In (ARead e) (clean_acts pick s b).
Proof.
  intros s b e. unfold clean_acts. destruct (negb (dirty (blk s b))); [auto|].
  destruct (int (blk s b)); [|auto]. destruct (ext (blk s b)); cbn; intuition discriminate.
Qed.

Lemma acquire_disk : forall s b un d, (forall e, In (ARead e) (acquire_acts pick s b un) -> d e = disk s e) ->
  acquire pick dflt (with_disk s d) b un =
  mapo (on1 (acquire_acts pick s b un) d) (acquire pick dflt s b un).
Proof.
  intros s b un d. unfold acquire, acquire_acts. cbn [nblk al with_disk blk].
  destruct (b <? nblk s); cbn [negb]; [|reflexivity].
  destruct (is_sim (al s)) eqn:Es; [destruct (al s); try discriminate; reflexivity|].
  rewrite !(Ncase _ Es).
  assert (Q : forall (x y : list act), match al s with Sim _ _ => x | _ => y end = y)
    by (intros; destruct (al s); auto; discriminate). rewrite ?Q.
  destruct (int (blk s b)) as [i|].
  - intros _. destruct (is_acquired (blk s b)); reflexivity.
  - rewrite get_block_disk. destruct (get_block pick s) as [(s1, i)| |] eqn:Eg; cbn [mapo bind on1]; auto.
    cbn [fst snd blk with_disk]. intros Hd.
    destruct (sb_initialized (blk s1 b)); cbn [andb].
    + destruct un; cbn [negb].
      * cbn [mapo on1 fst snd]. rewrite app_nil_r. reflexivity.
      * destruct (ext (blk s1 b)) as [e|]; [|reflexivity].
        cbn [mapo on1 fst snd]. unfold on1. cbn [fst snd]. rewrite wr_app. cbn [wr].
        assert (E : wr (get_block_acts pick s) d e = disk s1 e).
        { rewrite (get_block_disk_same _ _ _ Eg). apply wr_agree, Hd.
          cbn [negb andb]. apply in_or_app. right. cbn; auto. }
        unfold set_mem, set_b, with_disk. cbn. rewrite E. reflexivity.
    + rewrite app_nil_r. destruct dflt; [destruct un|]; reflexivity.
Qed.

Lemma acquire_used : forall s b un s1 x, acquire pick dflt s b un = Ok (s1, x) ->
  used s1 = us_after (acquire_acts pick s b un) (used s).
Proof.
  intros s b un s1 x. unfold acquire, acquire_acts. destruct (b <? nblk s); cbn [negb]; [|discriminate].
  destruct (is_sim (al s)) eqn:Es; [destruct (al s); try discriminate; intros K; inversion K; reflexivity|].
  rewrite !(Ncase _ Es).
  assert (Q : forall (x y : list act), match al s with Sim _ _ => x | _ => y end = y)
    by (intros; destruct (al s); auto; discriminate). rewrite ?Q.
  destruct (int (blk s b)) as [i|].
  - intros K; inversion K; subst. destruct (is_acquired (blk s b)); reflexivity.
  - destruct (get_block pick s) as [(s2, i)| |] eqn:Eg; cbn [mapo bind on1]; try discriminate.
    pose proof (get_block_used _ _ _ Eg) as U. rewrite us_app, <- U.
    destruct (sb_initialized (blk s2 b)); cbn [andb].
    + destruct un; cbn [negb]; [intros K; inversion K; reflexivity|].
      destruct (ext (blk s2 b)); [|discriminate]. intros K; inversion K; reflexivity.
    + intros K; inversion K. destruct dflt; [destruct un|]; reflexivity.
Qed.

Lemma release_acts_nil : forall s b d, release_acts pick s b d = [].
Proof.
  intros s b d. unfold release_acts. destruct (al s); auto;
    (destruct (is_acquired _ || (dirty _ || is_external _)) eqn:E; auto;
     apply orb_false_iff in E; destruct E as (_ & E); apply orb_false_iff in E; destruct E as (E & _);
     unfold clean_acts; cbn [blk set_b]; rewrite upd_same, E; reflexivity).
Qed.

Lemma release_with_disk : forall s b d ins ins' dd,
  (forall x, ins' (with_disk x dd) = ins x) ->
  release_with pick (with_disk s dd) b d ins' =
    mapo (fun s1 => with_disk s1 dd) (release_with pick s b d ins).
Proof.
  intros s b d ins ins' dd Hi. unfold release_with. cbn [blk with_disk].
  destruct (is_acquired (blk s b)); cbn [negb]; [|reflexivity].
  set (B1 := mkSb _ _ _ _). destruct (is_acquired B1); [reflexivity|].
  change (set_b (with_disk s dd) b B1) with (with_disk (set_b s b B1) dd).
  destruct (dirty B1 || is_external B1) eqn:E.
  - rewrite Hi. reflexivity.
  - rewrite detach_disk. apply orb_false_iff in E. destruct E as (E & _).
    destruct (detach pick (set_b s b B1) b) as [(s2, i)| |]; cbn [mapo bind]; auto. unfold on1. cbn [fst snd].
    unfold clean_acts. cbn [blk set_b]. rewrite upd_same, E. reflexivity.
Qed.

Lemma release_with_used : forall s b d ins s1, release_with pick s b d ins = Ok s1 -> used s1 = used s.
Proof.
  intros s b d ins s1. unfold release_with. destruct (is_acquired (blk s b)); cbn [negb]; [|discriminate].
  set (B1 := mkSb _ _ _ _). destruct (is_acquired B1); [intros K; inversion K; reflexivity|].
  destruct (dirty B1 || is_external B1) eqn:E; [intros K; inversion K; reflexivity|].
  destruct (detach pick (set_b s b B1) b) as [(s2, i)| |] eqn:D; cbn [bind]; try discriminate.
  intros K; inversion K. pose proof (detach_used _ _ _ _ D) as U. cbn. rewrite U.
  apply orb_false_iff in E. destruct E as (E & _). unfold clean_acts. cbn [blk set_b]. rewrite upd_same, E. reflexivity.
Qed.

Lemma release_disk : forall s b d dd,
  release pick (with_disk s dd) b d = mapo (fun s1 => with_disk s1 dd) (release pick s b d).
Proof.
  intros s b d dd. unfold release. cbn [nblk al with_disk]. destruct (b <? nblk s); cbn [negb]; [|reflexivity].
  destruct (al s) as [q|k m|q [|t nu]]; [|reflexivity| |].
  - apply release_with_disk. reflexivity.
  - match goal with |- context [set_al (with_disk s dd) ?a] => change (set_al (with_disk s dd) a) with (with_disk (set_al s a) dd) end.
    apply release_with_disk. reflexivity.
  - rewrite (release_with_disk s b d (fun s1 => Lfd (pq_insert q b (priority (blk s1 b) t)) (t :: nu))) by reflexivity.
    destruct (release_with pick s b d _) as [s2| |]; cbn [mapo bind]; auto. cbn [al with_disk].
    destruct (al s2) as [| |q1 [|t1 nu1]]; reflexivity.
Qed.

Lemma release_used : forall s b d s1, release pick s b d = Ok s1 -> used s1 = used s.
Proof.
  intros s b d s1. unfold release. destruct (b <? nblk s); cbn [negb]; [|discriminate].
  destruct (al s) as [q|k m|q [|t nu]].
  - apply release_with_used.
  - intros K; inversion K; reflexivity.
  - intros K. apply release_with_used in K. exact K.
  - destruct (release_with pick s b d _) as [s2| |] eqn:E; cbn [bind]; try discriminate.
    apply release_with_used in E. destruct (al s2) as [| |q1 [|t1 nu1]]; try discriminate.
    intros K; inversion K; exact E.
Qed.

Lemma deinit_disk : forall s b dd,
  deinitialize (with_disk s dd) b = mapo (fun s1 => with_disk s1 dd) (deinitialize s b).
Proof.
  intros s b dd. unfold deinitialize. cbn [nblk al with_disk blk]. destruct (b <? nblk s); cbn [negb]; [|reflexivity].
  destruct (al s) as [q|k m|q nu]; [|reflexivity|]; cbv zeta;
    (destruct (is_acquired (blk s b)); [reflexivity|]);
    destruct (is_evictable (blk s b)), (ext (blk s b)), (int (blk s b)); reflexivity.
Qed.

Lemma deinit_used : forall s b s1, deinitialize s b = Ok s1 -> used s1 = us_after (deinit_acts s b) (used s).
Proof.
  intros s b s1. unfold deinitialize, deinit_acts. destruct (b <? nblk s); cbn [negb]; [|discriminate].
  destruct (al s) as [q|k m|q nu]; [|intros K; inversion K; reflexivity|]; cbv zeta;
    (destruct (is_acquired (blk s b)); [discriminate|]);
    destruct (is_evictable (blk s b)), (ext (blk s b)), (int (blk s b)); intros K; inversion K; reflexivity.
Qed.

Lemma initialize_disk : forall s b e dd,
  initialize (with_disk s dd) b e = mapo (fun s1 => with_disk s1 dd) (initialize s b e).
Proof.
  intros s b e dd. unfold initialize. cbn [nblk al with_disk blk]. destruct (b <? nblk s); cbn [negb]; [|reflexivity].
  destruct (al s); [|reflexivity|]; destruct (sb_initialized (blk s b)); reflexivity.
Qed.
Lemma initialize_used : forall s b e s1, initialize s b e = Ok s1 -> used s1 = used s.
Proof.
  intros s b e s1. unfold initialize. destruct (b <? nblk s); cbn [negb]; [|discriminate].
  destruct (al s); [|intros K; inversion K; reflexivity|]; destruct (sb_initialized (blk s b)); try discriminate;
   intros K; inversion K; reflexivity.
Qed.

Lemma clean_acts_al : forall s a b, clean_acts pick (set_al s a) b = clean_acts pick s b.
Proof. reflexivity. Qed.

Lemma extract_disk : forall s b dd,
  extract pick (with_disk s dd) b = mapo (on1 (extract_acts pick s b) dd) (extract pick s b).
Proof.
  intros s b dd. unfold extract, extract_acts. cbn [nblk al with_disk blk].
  destruct (b <? nblk s); cbn [negb]; [|reflexivity].
  destruct (is_sim (al s)) eqn:Es; [destruct (al s); try discriminate; reflexivity|].
  assert (Q : forall A (x : alg -> A) (y : A), match al s with Sim k m => x (Sim k m) | _ => y end = y)
    by (intros; destruct (al s); auto; discriminate).
  rewrite !(Ncase _ Es).
  assert (Q2 : forall (x y : list act), match al s with Sim _ _ => x | _ => y end = y)
    by (intros; destruct (al s); auto; discriminate). rewrite ?Q2. cbv zeta.
  set (s1 := if is_evictable (blk s b) then set_al s (erase_evictable (al s) b) else s).
  replace (if is_evictable (blk s b) then set_al (with_disk s dd) (erase_evictable (al s) b) else with_disk s dd)
    with (with_disk s1 dd) by (unfold s1; destruct (is_evictable (blk s b)); reflexivity).
  destruct (is_internal (blk s b)).
  - rewrite detach_disk. replace (clean_acts pick s1 b) with (clean_acts pick s b)
      by (unfold s1; destruct (is_evictable (blk s b)); reflexivity).
    destruct (detach pick s1 b) as [(s2, i)| |]; reflexivity.
  - reflexivity.
Qed.

Lemma extract_used : forall s b s1 x, extract pick s b = Ok (s1, x) ->
  used s1 = us_after (extract_acts pick s b) (used s).
Proof.
  intros s b s1 x. unfold extract, extract_acts.
  destruct (b <? nblk s); cbn [negb]; [|discriminate].
  destruct (is_sim (al s)) eqn:Es; [destruct (al s); try discriminate; intros K; inversion K; reflexivity|].
  rewrite !(Ncase _ Es).
  assert (Q2 : forall (x y : list act), match al s with Sim _ _ => x | _ => y end = y)
    by (intros; destruct (al s); auto; discriminate). rewrite ?Q2. cbv zeta.
  set (s2 := if is_evictable (blk s b) then set_al s (erase_evictable (al s) b) else s).
  assert (U : used s2 = used s) by (unfold s2; destruct (is_evictable (blk s b)); reflexivity).
  assert (C : clean_acts pick s2 b = clean_acts pick s b) by (unfold s2; destruct (is_evictable (blk s b)); reflexivity).
  destruct (is_internal (blk s b)).
  - destruct (detach pick s2 b) as [(s3, i)| |] eqn:E; cbn [bind]; try discriminate.
    intros K; inversion K. cbn. apply detach_used in E. congruence.
  - cbn [bind]. intros K; inversion K. exact U.
Qed.

Lemma flush_acts_disk : forall n s dd, flush_acts pick n (with_disk s dd) = flush_acts pick n s.
Proof.
  induction n as [|n IH]; intros s dd; cbn [flush_acts al with_disk]; [reflexivity|].
  destruct (pop_evictable (al s)) as [(b, a)|]; [|reflexivity].
  change (set_al (with_disk s dd) a) with (with_disk (set_al s a) dd).
  f_equal. rewrite clean_disk. destruct (clean pick (set_al s a) b) as [s1| |]; cbn [mapo bind]; auto.
  rewrite detach_disk. destruct (detach pick s1 b) as [(s2, i)| |]; cbn [mapo on1 fst snd]; auto.
  unfold on1. cbn [fst snd].
  match goal with |- context [return_free (with_disk s2 ?w) i] => change (return_free (with_disk s2 w) i) with (with_disk (return_free s2 i) w) end.
  apply IH.
Qed.

Lemma clean_clean : forall s b s1, clean pick s b = Ok s1 -> clean_acts pick s1 b = [].
Proof.
  intros s b s1. unfold clean. destruct (dirty (blk s b)) eqn:D; cbn [negb].
  - destruct (ext (blk s b)); cbn [new_ext]; destruct (int (blk s b)); intros E; inversion E;
      unfold clean_acts; cbn; rewrite upd_same; reflexivity.
  - intros E; inversion E; subst. unfold clean_acts. rewrite D. reflexivity.
Qed.

Lemma flush_disk : forall n s dd,
  flush pick n (with_disk s dd) = mapo (fun s1 => with_disk s1 (wr (flush_acts pick n s) dd)) (flush pick n s).
Proof.
  induction n as [|n IH]; intros s dd; cbn [flush flush_acts al with_disk].
  - destruct (pop_evictable (al s)) as [(b, a)|]; reflexivity.
  - destruct (pop_evictable (al s)) as [(b, a)|]; [|reflexivity].
    change (set_al (with_disk s dd) a) with (with_disk (set_al s a) dd).
    rewrite clean_disk. destruct (clean pick (set_al s a) b) as [s1| |] eqn:E; cbn [mapo bind]; auto.
    rewrite detach_disk. rewrite (clean_clean _ _ _ E).
    destruct (detach pick s1 b) as [(s2, i)| |]; cbn [mapo on1 bind]; auto. unfold on1. cbn [fst snd wr bind].
    match goal with |- context [return_free (with_disk s2 ?w) i] => change (return_free (with_disk s2 w) i) with (with_disk (return_free s2 i) w) end.
    rewrite IH, wr_app. reflexivity.
Qed.

Lemma flush_used : forall n s s1, flush pick n s = Ok s1 -> used s1 = us_after (flush_acts pick n s) (used s).
Proof.
  induction n as [|n IH]; intros s s1; cbn [flush flush_acts].
  - destruct (pop_evictable (al s)) as [(b, a)|]; [discriminate|]. intros E; inversion E; reflexivity.
  - destruct (pop_evictable (al s)) as [(b, a)|]; [|intros E; inversion E; reflexivity].
    destruct (clean pick (set_al s a) b) as [s2| |] eqn:E; cbn [bind]; try discriminate.
    pose proof (clean_used _ _ _ E) as U. cbn [used set_al] in U.
    destruct (detach pick s2 b) as [(s3, i)| |] eqn:D; cbn [bind]; try discriminate.
    pose proof (detach_used _ _ _ _ D) as U2. rewrite (clean_clean _ _ _ E) in U2. cbn in U2.
    intros K. rewrite (IH _ _ K), us_app. cbn [used return_free set_free_i]. congruence.
Qed.

Lemma flush_noread : forall n s e, ~ In (ARead e) (flush_acts pick n s).
Proof.
  induction n as [|n IH]; intros s e; cbn [flush_acts].
  - destruct (pop_evictable (al s)) as [(b, a)|]; auto.
  - destruct (pop_evictable (al s)) as [(b, a)|]; auto. intros K. apply in_app_or in K.
    destruct K as [K|K]; [eapply clean_acts_noread; eauto|].
    destruct (bind _ _) as [(s2, i)| |]; [eapply IH; eauto|auto|auto].
Qed.

Lemma acts_disk : forall s o dd, acts pick (with_disk s dd) o = acts pick s o.
Proof.
  intros s o dd. destruct o; try reflexivity.
  - cbn [acts]. unfold acquire_acts. cbn [al with_disk blk]. rewrite get_block_disk.
    destruct (al s); auto; (destruct (int (blk s b)); [reflexivity|]);
      (f_equal; [unfold get_block_acts; rewrite get_free_disk; cbn [al with_disk]; destruct (get_free s) as [(?, ?)|]; reflexivity|]);
      destruct (get_block pick s) as [(s1, i)| |]; reflexivity.
  - cbn [acts]. apply flush_acts_disk.
Qed.

(** Of its disk an operation uses only what it reads, and does to it only what it asks for. *)
Lemma do_disk : forall s o d, (forall e, In (ARead e) (acts pick s o) -> d e = disk s e) ->
  do pick dflt (with_disk s d) o = mapo (on1 (acts pick s o) d) (do pick dflt s o).
Proof.
  intros s o d. destruct o; cbn [do acts]; intros Hd.
  - rewrite (acquire_disk _ _ _ _ Hd). destruct (acquire pick dflt s b un) as [(s1, [i|])| |]; reflexivity.
  - rewrite release_disk, release_acts_nil. destruct (release pick s b d0); reflexivity.
  - rewrite deinit_disk. unfold deinit_acts. destruct (deinitialize s b); cbn [mapo bind on1]; auto. unfold on1. cbn [fst snd].
    destruct (al s); auto; destruct (ext (blk s b)); reflexivity.
  - rewrite initialize_disk. destruct (initialize s b e); reflexivity.
  - rewrite extract_disk. destruct (extract pick s b) as [(s1, x)| |]; reflexivity.
  - change (is_initialized (with_disk s d) b) with (is_initialized s b). destruct (is_initialized s b); reflexivity.
  - unfold allocate. cbn [free_s with_disk]. destruct (free_s s); reflexivity.
  - unfold free_block. rewrite deinit_disk. unfold deinit_acts. destruct (deinitialize s b); cbn [mapo bind on1]; auto.
    unfold on1. cbn [fst snd]. destruct (al s); auto; destruct (ext (blk s b)); reflexivity.
  - cbn [al with_disk]. rewrite flush_disk. destruct (flush pick _ s); reflexivity.
  - cbn [al with_disk]. destruct (al s); reflexivity.
  - reflexivity.
  - reflexivity.
  - unfold to_lfd. destruct (lfd_scan ps). reflexivity.
  - change (access (with_disk s d) b) with (access s b). destruct (access s b); reflexivity.
  - change (access (with_disk s d) b) with (access s b). destruct (access s b); reflexivity.
  - reflexivity.
  - reflexivity.
  - cbn. unfold on1. cbn. rewrite (Hd e (or_introl eq_refl)). reflexivity.
  - reflexivity.
Qed.

Lemma do_used : forall s o s1 r, do pick dflt s o = Ok (s1, r) -> used s1 = us_after (acts pick s o) (used s).
Proof.
  intros s o s1 r. destruct o; cbn [do acts].
  - destruct (acquire pick dflt s b un) as [(s2, i)| |] eqn:E; cbn [bind]; try discriminate.
    intros K; inversion K; subst. eapply acquire_used; eauto.
  - destruct (release pick s b d) as [s2| |] eqn:E; cbn [bind]; try discriminate. rewrite release_acts_nil.
    intros K; inversion K; subst. eapply release_used; eauto.
  - destruct (deinitialize s b) as [s2| |] eqn:E; cbn [bind]; try discriminate.
    intros K; inversion K; subst. eapply deinit_used; eauto.
  - destruct (initialize s b e) as [s2| |] eqn:E; cbn [bind]; try discriminate.
    intros K; inversion K; subst. eapply initialize_used; eauto.
  - destruct (extract pick s b) as [(s2, x)| |] eqn:E; cbn [bind]; try discriminate.
    intros K; inversion K; subst. eapply extract_used; eauto.
  - destruct (is_initialized s b); cbn [bind]; try discriminate. intros K; inversion K; reflexivity.
  - unfold allocate. destruct (free_s s); intros K; inversion K; reflexivity.
  - unfold free_block. destruct (deinitialize s b) as [s2| |] eqn:E; cbn [bind]; try discriminate.
    intros K; inversion K; subst. cbn. eapply deinit_used; eauto.
  - destruct (flush pick _ s) as [s2| |] eqn:E; cbn [bind]; try discriminate.
    intros K; inversion K; subst. eapply flush_used; eauto.
  - intros K; inversion K. destruct (al s); reflexivity.
  - intros K; inversion K; reflexivity.
  - intros K; inversion K; reflexivity.
  - unfold to_lfd. destruct (lfd_scan ps). intros K; inversion K; reflexivity.
  - destruct (access s b); cbn [bind]; try discriminate. intros K; inversion K; reflexivity.
  - destruct (access s b); cbn [bind]; try discriminate. intros K; inversion K; reflexivity.
  - intros K; inversion K; reflexivity.
  - intros K; inversion K; reflexivity.
  - intros K; inversion K; reflexivity.
  - intros K; inversion K; reflexivity.
Qed.

Lemma do_disk_same : forall s o s1 r, do pick dflt s o = Ok (s1, r) -> disk s1 = wr (acts pick s o) (disk s).
Proof.
  intros s o s1 r E. pose proof (do_disk s o (disk s) (fun _ _ => eq_refl)) as K. rewrite with_same, E in K.
  cbn in K. unfold on1 in K. cbn in K. inversion K as [Q]. rewrite Q. reflexivity.
Qed.

(** ** The acts can be done *)

Hypothesis Fresh : fresh_blocks pick.

Lemma remove_single : forall e : nat, remove Nat.eq_dec e [e] = [].
Proof. intros e. cbn. destruct (Nat.eq_dec e e); congruence. Qed.

Lemma clean_valid : forall s b T s1 l, clean pick s b = Ok s1 ->
  (forall e, In e T -> In e (used s)) ->
  (forall e, ext (blk s b) = Some e -> In e (used s) /\ ~ In e T) ->
  (forall T', (T' = T \/ exists e, ext (blk s1 b) = Some e /\ T' = e :: T) -> valid (used s1) [] T' l) ->
  valid (used s) [] T (clean_acts pick s b ++ l).
Proof.
  intros s b T s1 l. unfold clean, clean_acts. destruct (dirty (blk s b)); cbn [negb].
  - destruct (ext (blk s b)) as [e|]; cbn [new_ext]; destruct (int (blk s b)); intros E; inversion E; subst;
      intros HT He Hl; cbn [app valid remove].
    + destruct (He e eq_refl) as (A & C). split; auto. split; auto. apply Hl. right. exists e.
      cbn. rewrite upd_same. auto.
    + set (e := pick (ncall s) (used s)) in *. pose proof (Fresh (ncall s) (used s)) as F. fold e in F.
      split; auto. split; [left; auto|]. split; [intros Q; apply F; auto|].
      destruct (Nat.eq_dec e e); [|congruence]. apply Hl. right. exists e. cbn. rewrite upd_same. auto.
  - intros E; inversion E; subst. intros HT He Hl. cbn [app]. apply Hl. auto.
Qed.

Lemma detach_clean : forall s b s1 i, detach pick s b = Ok (s1, i) -> exists s2, clean pick s b = Ok s2 /\
  used s1 = used s2 /\ ext (blk s1 b) = ext (blk s2 b).
Proof.
  intros s b s1 i. unfold detach. destruct (is_evictable (blk s b)); cbn [negb]; [|discriminate].
  destruct (clean pick s b) as [s2| |]; cbn [bind]; try discriminate.
  destruct (int (blk s2 b)); [|discriminate]. intros K; inversion K; subst. exists s2.
  cbn. rewrite upd_same. auto.
Qed.

Lemma clean_detach_valid : forall s b T s1 i l, detach pick s b = Ok (s1, i) ->
  (forall e, In e T -> In e (used s)) ->
  (forall e, ext (blk s b) = Some e -> In e (used s) /\ ~ In e T) ->
  (forall T', (T' = T \/ exists e, ext (blk s1 b) = Some e /\ T' = e :: T) -> valid (used s1) [] T' l) ->
  valid (used s) [] T (clean_acts pick s b ++ l).
Proof.
  intros s b T s1 i l D HT He Hl. destruct (detach_clean _ _ _ _ D) as (s2 & C & U & X).
  eapply clean_valid; eauto. intros T' Q. rewrite <- U. apply Hl. rewrite X. auto.
Qed.

Lemma acquire_valid : forall max s p b un, R max [] [] s p -> valid (used s) [] [] (acquire_acts pick s b un).
Proof.
  intros max s p b un H. unfold acquire_acts.
  assert (Q : int (blk s b) = None -> valid (used s) [] [] (get_block_acts pick s ++
     match get_block pick s with
     | Ok (s1, _) => if sb_initialized (blk s1 b) && negb un
                     then match ext (blk s1 b) with Some e => [ARead e] | None => [] end else []
     | _ => [] end)).
  { intros Ei. destruct (get_block_ok pick Fresh _ _ _ H) as [(s1 & i & Eg & H1 & _)|(Eg & _ & _ & Ev)].
    - rewrite Eg.
      assert (Last : forall T', (T' = [] \/ exists v e, v <> b /\ ext (blk s1 v) = Some e /\ T' = [e]) ->
        valid (used s1) [] T' (if sb_initialized (blk s1 b) && negb un
                     then match ext (blk s1 b) with Some e => [ARead e] | None => [] end else [])).
      { intros T' HT. destruct (sb_initialized (blk s1 b) && negb un); [|reflexivity].
        destruct (ext (blk s1 b)) as [e|] eqn:Ee; [|reflexivity]. cbn [valid].
        destruct (R_used _ _ _ _ _ H1 b e Ee). split; auto. split; auto. split; auto.
        destruct HT as [->|(v & e' & N & Hv & ->)]; [auto|].
        intros [<-|[]]. apply N. eapply (R_inj _ _ _ _ _ H1); eauto. }
      unfold get_block in Eg. pose proof (get_block_used s s1 i) as U. unfold get_block in U. specialize (U Eg).
      unfold get_block_acts in *. destruct (get_free s) as [(s2, j)|].
      + cbn [app]. cbn in U. rewrite <- U. apply Last; auto.
      + destruct (pop_evictable (al s)) as [(v, a)|] eqn:Ep; [|discriminate].
        destruct (R_pop _ _ _ _ _ _ H Ep) as (A & Ev & Vb & Lv).
        change (used s) with (used (set_al s a)).
        eapply (clean_detach_valid _ _ _ _ _ _ Eg).
        * intros e [].
        * intros e Ee. split; [|auto]. apply (R_used _ _ _ _ _ H v e Ee).
        * intros T' [->|(e & Ee & ->)]; apply Last; auto. right. exists v, e. split; auto.
          intros ->. apply evictable_inv in Ev. destruct Ev as (_ & k & Ek). congruence.
    - rewrite Eg. rewrite app_nil_r. unfold get_block in Eg. unfold get_block_acts.
      destruct (get_free s); [discriminate|]. destruct (pop_evictable (al s)) as [(v, a)|] eqn:Ep; [|reflexivity].
      destruct (pop_evictables _ _ _ Ep) as (X & _). congruence. }
  destruct (al s); try reflexivity; destruct (int (blk s b)); try reflexivity; auto.
Qed.

Lemma flush_valid : forall max p n s T, R max [] [] s p ->
  (forall e, In e T -> In e (used s)) ->
  (forall e c, In e T -> ext (blk s c) = Some e -> int (blk s c) = None) ->
  valid (used s) [] T (flush_acts pick n s).
Proof.
  intros max p. induction n as [|n IH]; intros s T H HT Hi; cbn [flush_acts].
  - destruct (pop_evictable (al s)) as [(b, a)|]; reflexivity.
  - destruct (pop_evictable (al s)) as [(b, a)|] eqn:Ep; [|reflexivity].
    destruct (R_pop _ _ _ _ _ _ H Ep) as (A & Ev & Vb & Lv).
    destruct (detach_ok pick Fresh _ _ _ _ _ A Lv Ev) as (s1 & i & e & D & Ei & A1 & Eb & _).
    pose proof (R_return _ _ _ _ _ _ A1) as A2.
    pose proof (clean_detach pick (set_al s a) b Ev) as CD. rewrite D in CD. cbn [bind] in CD.
    change (used s) with (used (set_al s a)).
    destruct (clean pick (set_al s a) b) as [s2| |] eqn:C; cbn [bind] in CD |- *; try discriminate.
    destruct (detach pick s2 b) as [(s3, j)| |] eqn:D2; cbn [bind] in CD |- *; try discriminate.
    assert (CE : return_free s3 j = return_free s1 i) by congruence. rewrite CE.
    eapply (clean_detach_valid _ _ _ _ _ _ D).
    + exact HT.
    + intros e' Ee. split; [apply (R_used _ _ _ _ _ H b e' Ee)|]. intros Q.
      specialize (Hi e' b Q Ee). cbn in Ei. congruence.
    + intros T' HT'. change (used s1) with (used (return_free s1 i)). apply IH; auto.
      * pose proof (detach_used _ _ _ _ D) as U. cbn [used set_al] in U.
        assert (U1 : forall x, In x (used s) -> In x (used s1)).
        { intros x Q. rewrite U. unfold clean_acts. destruct (negb (dirty (blk (set_al s a) b))); [exact Q|].
          destruct (int (blk (set_al s a) b)); [|exact Q].
          destruct (ext (blk (set_al s a) b)); [exact Q|]. right. exact Q. }
        intros x Q. cbn. destruct HT' as [->|(e' & Ee & ->)]; auto.
        destruct Q as [<-|Q]; auto. apply (R_used _ _ _ _ _ A1 b e' Ee).
      * intros x c Q X. cbn in X |- *. rewrite Eb in X |- *. destruct (Nat.eq_dec c b) as [->|N].
        { rewrite upd_same. reflexivity. }
        rewrite upd_other in X |- * by auto. destruct HT' as [->|(e' & Ee & ->)]; [eapply Hi; eauto|].
        destruct Q as [<-|Q]; [|eapply Hi; eauto].
        exfalso. apply N. eapply (R_inj _ _ _ _ _ A1); [|exact Ee]. rewrite Eb, upd_other by auto. exact X.
Qed.

Lemma acts_valid : forall max s p o, R max [] [] s p -> legal p o -> valid (used s) [] [] (acts pick s o).
Proof.
  intros max s p o H L. destruct o; cbn [acts]; try reflexivity.
  - eapply acquire_valid; eauto.
  - rewrite release_acts_nil. reflexivity.
  - unfold deinit_acts. destruct (al s); try reflexivity; destruct (ext (blk s b)) as [e|] eqn:Ee; try reflexivity;
      cbn [valid]; destruct (R_used _ _ _ _ _ H b e Ee); auto.
  - unfold extract_acts. destruct (is_sim (al s)) eqn:Es; [destruct (al s); try discriminate; reflexivity|].
    assert (Q2 : forall (x y : list act), match al s with Sim _ _ => x | _ => y end = y)
      by (intros; destruct (al s); auto; discriminate). rewrite Q2.
    destruct (is_internal (blk s b)) eqn:Ei; [|reflexivity].
    unfold clean_acts. destruct (dirty (blk s b)); cbn [negb]; [|reflexivity].
    destruct (int (blk s b)) as [i|]; [|reflexivity].
    destruct (ext (blk s b)) as [e|] eqn:Ee; cbn [valid remove].
    + destruct (R_used _ _ _ _ _ H b e Ee). cbn; auto.
    + pose proof (Fresh (ncall s) (used s)) as F. destruct (Nat.eq_dec _ _); [|congruence]. cbn; auto.
  - unfold deinit_acts. destruct (al s); try reflexivity; destruct (ext (blk s b)) as [e|] eqn:Ee; try reflexivity;
      cbn [valid]; destruct (R_used _ _ _ _ _ H b e Ee); auto.
  - eapply flush_valid; [exact H|intros ? []|intros ? ? []].
  - cbn [valid remove]. pose proof (Fresh (ncall s) (used s)) as F. destruct (Nat.eq_dec _ _); [|congruence]. cbn; auto.
  - cbn in L. destruct (own p e) as [x|] eqn:E; [|congruence]. destruct (R_own _ _ _ _ _ H e x E).
    cbn. auto.
  - cbn in L. destruct (own p e) as [x|] eqn:E; [|congruence]. destruct (R_own _ _ _ _ _ H e x E).
    cbn. auto.
  - cbn in L. destruct (own p e) as [x|] eqn:E; [|congruence]. destruct (R_own _ _ _ _ _ H e x E).
    cbn. auto.
Qed.

End Ops.
