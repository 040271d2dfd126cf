(** Prefetch schedule: invariant of the event loop. *)

From Coq Require Import List Arith Bool Lia Permutation.
From Verif Require Import ScheduleModel ScheduleSpec.
Import ListNotations.

Ltac csplit := repeat match goal with |- _ /\ _ => split end.

Lemma upd_same : forall {A} (f : nat -> A) k v, upd f k v k = v.
Proof. intros; unfold upd; rewrite Nat.eqb_refl; auto. Qed.
Lemma upd_other : forall {A} (f : nat -> A) k v x, x <> k -> upd f k v x = f x.
Proof. intros; unfold upd; destruct (x =? k) eqn:E; auto. apply Nat.eqb_eq in E; congruence. Qed.

(** ** All queued blocks *)

Definition allq (D : nat) (q : nat -> list nat) : list nat := flat_map q (seq 0 (S D)).

Lemma flat_map_upd_notin : forall l (q : nat -> list nat) d v,
  ~ In d l -> flat_map (upd q d v) l = flat_map q l.
Proof.
  induction l; intros q d v H; cbn; auto. cbn in H.
  rewrite IHl by tauto. rewrite upd_other by (intro; subst; tauto). auto.
Qed.

Lemma seq_split_at : forall n d, d < n -> seq 0 n = seq 0 d ++ d :: seq (S d) (n - S d).
Proof.
  intros n d H. replace n with (d + S (n - S d)) at 1 by lia.
  rewrite seq_app. cbn. auto.
Qed.

Lemma allq_split : forall D q d v, d <= D ->
  exists a c, allq D q = a ++ q d ++ c /\ allq D (upd q d v) = a ++ v ++ c.
Proof.
  intros D q d v H. unfold allq. rewrite (seq_split_at (S D) d) by lia.
  exists (flat_map q (seq 0 d)), (flat_map q (seq (S d) (S D - S d))).
  split.
  - rewrite flat_map_app. cbn [flat_map]. auto.
  - rewrite flat_map_app. cbn [flat_map]. rewrite upd_same.
    rewrite !flat_map_upd_notin; auto; rewrite in_seq; lia.
Qed.

Lemma allq_push : forall D q d x, d <= D ->
  Permutation (allq D (upd q d (q d ++ [x]))) (x :: allq D q).
Proof.
  intros D q d x H. destruct (allq_split D q d (q d ++ [x]) H) as (a & c & E1 & E2).
  rewrite E1, E2. rewrite <- app_assoc. cbn.
  rewrite !app_assoc. apply Permutation_sym, Permutation_middle.
Qed.

Lemma allq_pop : forall D q d j rest, d <= D -> q d = j :: rest ->
  Permutation (allq D q) (j :: allq D (upd q d rest)).
Proof.
  intros D q d j rest H E. destruct (allq_split D q d rest H) as (a & c & E1 & E2).
  rewrite E1, E2, E. cbn. apply Permutation_sym, Permutation_middle.
Qed.

Lemma in_allq : forall D q b, In b (allq D q) <-> exists d, d <= D /\ In b (q d).
Proof.
  intros. unfold allq. rewrite in_flat_map. split.
  - intros (d & A & B). apply in_seq in A. exists d; split; auto; lia.
  - intros (d & A & B). exists d; split; auto. apply in_seq; lia.
Qed.

Lemma get_disk_le : forall i disks D d, get_disk i disks D = Some d -> d <= D.
Proof.
  unfold get_disk; intros. destruct (nth_error disks i) as [[x|]|]; try congruence.
  - destruct (x <=? D) eqn:E; inversion H; subst. apply Nat.leb_le; auto.
  - inversion H; auto.
Qed.

Section Loop.
Variable disks : list (option nat).
Variable D m : nat.
Let L := length disks.
Let disk (b : nat) := get_disk b disks D.
Hypothesis Hdisks : forall b, b < L -> disk b <> None.

Definition key (e : nat * nat) : nat * option nat := (fst e, disk (snd e)).

Definition late (out : nat -> option nat) (t k j : nat) : Prop :=
  k < j < L /\ (out j = None \/ exists t', out j = Some t' /\ t < t').

Record Core (q : nat -> list nat) (ev : list (nat * nat)) (i old : nat)
       (busy : nat -> bool) (out : nat -> option nat) (outs : list (nat * nat)) : Prop := mkCore {
  c_i     : i <= L;
  c_perm  : Permutation (map snd ev ++ allq D q ++ map snd outs) (seq i (L - i));
  c_out   : forall t b, In (t, b) outs <-> out b = Some t;
  c_q     : forall d b, d <= D -> In b (q d) -> disk b = Some d;
  c_time  : forall t b, In (t, b) ev -> 1 <= t /\ (t = old \/ t = old + 1);
  c_key   : NoDup (map key (ev ++ outs));
  c_busy  : 0 < old -> forall d, d <= D ->
            (busy d = true <-> exists b, In (old + 1, b) ev /\ disk b = Some d);
  c_outle : forall t b, In (t, b) outs -> 1 <= t <= old;
  c_late  : forall t k, In (t, k) outs -> forall l, NoDup l ->
            (forall j, In j l -> late out t k j) -> length l < m
}.

Lemma core_lt : forall q ev i old busy out outs, Core q ev i old busy out outs ->
  forall b, In b (map snd ev ++ allq D q ++ map snd outs) -> i <= b < L.
Proof.
  intros * C b H. pose proof (c_i _ _ _ _ _ _ _ C).
  apply (Permutation_in _ (c_perm _ _ _ _ _ _ _ C)) in H.
  apply in_seq in H. lia.
Qed.

Lemma core_nodup : forall q ev i old busy out outs, Core q ev i old busy out outs ->
  NoDup (map snd ev ++ allq D q ++ map snd outs).
Proof.
  intros * C. eapply Permutation_NoDup; [apply Permutation_sym, (c_perm _ _ _ _ _ _ _ C)|].
  apply seq_NoDup.
Qed.

(** Taking out the event (t, b). *)
Lemma core_pop : forall q e1 t b e2 i old busy out outs,
  Core q (e1 ++ (t, b) :: e2) i old busy out outs ->
  (forall t' b', In (t', b') (e1 ++ e2) -> t <= t') ->
  length (e1 ++ (t, b) :: e2) + length (allq D q) <= m ->
  Core q (e1 ++ e2) i t (if old =? t then busy else fun _ => false)
       (upd out b (Some t)) ((t, b) :: outs).
Proof.
  intros * C Hmin HM.
  assert (Inb : In (t, b) (e1 ++ (t, b) :: e2)) by (apply in_or_app; cbn; auto).
  pose proof (c_time _ _ _ _ _ _ _ C _ _ Inb) as (T1 & T2).
  assert (Sub : forall x, In x (e1 ++ e2) -> In x (e1 ++ (t, b) :: e2)).
  { intros x H. apply in_app_or in H. apply in_or_app. cbn. tauto. }
  pose proof (core_nodup _ _ _ _ _ _ _ C) as ND.
  assert (Pm : Permutation (map snd (e1 ++ (t, b) :: e2)) (b :: map snd (e1 ++ e2))).
  { rewrite !map_app. cbn. apply Permutation_sym, Permutation_middle. }
  assert (ND' : NoDup (b :: map snd (e1 ++ e2) ++ allq D q ++ map snd outs)).
  { eapply Permutation_NoDup; [|exact ND].
    change (b :: map snd (e1 ++ e2) ++ allq D q ++ map snd outs)
      with ((b :: map snd (e1 ++ e2)) ++ allq D q ++ map snd outs).
    apply Permutation_app_tail. auto. }
  assert (NbO : forall t', ~ In (t', b) outs).
  { intros t' H. apply NoDup_cons_iff in ND'. destruct ND' as (N & _). apply N.
    apply in_or_app; right. apply in_or_app; right. apply in_map_iff.
    exists (t', b); auto. }
  assert (Ob : out b = None).
  { destruct (out b) eqn:E; auto. apply (c_out _ _ _ _ _ _ _ C) in E. exfalso; eapply NbO; eauto. }
  assert (OL : forall t' b', In (t', b') outs -> t' <= t).
  { intros t' b' H. apply (c_outle _ _ _ _ _ _ _ C) in H. lia. }
  constructor.
  - apply (c_i _ _ _ _ _ _ _ C).
  - eapply Permutation_trans; [|apply (c_perm _ _ _ _ _ _ _ C)].
    eapply Permutation_trans; [|apply Permutation_app_tail; apply Permutation_sym; exact Pm].
    cbn. rewrite !app_assoc. apply Permutation_sym, Permutation_middle.
  - intros t' b'. cbn. destruct (Nat.eq_dec b' b) as [->|N].
    + rewrite upd_same. split.
      * intros [H|H]; [inversion H; auto|]. exfalso; eapply NbO; eauto.
      * intros H; inversion H; auto.
    + rewrite upd_other by auto. rewrite <- (c_out _ _ _ _ _ _ _ C). split; auto.
      intros [H|H]; auto. inversion H; congruence.
  - apply (c_q _ _ _ _ _ _ _ C).
  - intros t' b' H. pose proof (Hmin _ _ H). apply Sub in H.
    apply (c_time _ _ _ _ _ _ _ C) in H. lia.
  - pose proof (c_key _ _ _ _ _ _ _ C) as K.
    eapply Permutation_NoDup; [|exact K].
    apply Permutation_map. rewrite <- !app_assoc. cbn.
    apply Permutation_app_head. apply Permutation_middle.
  - intros Ht d Hd. destruct (old =? t) eqn:E.
    + apply Nat.eqb_eq in E; subst old. rewrite (c_busy _ _ _ _ _ _ _ C) by auto.
      split; intros (b' & A & B); exists b'; split; auto.
      apply in_app_or in A. apply in_or_app. cbn in A.
      destruct A as [A|[A|A]]; auto. inversion A; lia.
    + apply Nat.eqb_neq in E. split; [discriminate|]. intros (b' & A & B).
      apply Sub in A. apply (c_time _ _ _ _ _ _ _ C) in A. lia.
  - intros t' b' [H|H]; [inversion H; lia|].
    pose proof (OL _ _ H). apply (c_outle _ _ _ _ _ _ _ C) in H. lia.
  - intros t' k [H|H] l Hl Hlate.
    + inversion H; subst t' k.
      assert (Inc : incl l (map snd (e1 ++ e2) ++ allq D q)).
      { intros j Hj. destruct (Hlate j Hj) as (A & B).
        assert (Nj : j <> b) by lia.
        rewrite upd_other in B by auto.
        assert (Oj : out j = None).
        { destruct B as [B|(t' & B & Lt)]; auto.
          apply (c_out _ _ _ _ _ _ _ C) in B. apply OL in B. lia. }
        assert (In j (map snd (e1 ++ (t, b) :: e2) ++ allq D q ++ map snd outs)).
        { apply (Permutation_in _ (Permutation_sym (c_perm _ _ _ _ _ _ _ C))).
          apply in_seq.
          assert (i <= b < L).
          { apply (core_lt _ _ _ _ _ _ _ C). apply in_or_app; left. apply in_map_iff.
            exists (t, b); auto. }
          lia. }
        apply in_app_or in H0. apply in_or_app. destruct H0 as [H0|H0].
        - left. apply (Permutation_in _ Pm) in H0. destruct H0; [congruence|auto].
        - apply in_app_or in H0. destruct H0 as [H0|H0]; auto.
          exfalso. apply in_map_iff in H0. destruct H0 as ((t', j') & E & H0). cbn in E; subst j'.
          apply (c_out _ _ _ _ _ _ _ C) in H0. congruence. }
      apply NoDup_incl_length in Inc; auto.
      rewrite !app_length in *. rewrite map_length, !app_length in Inc. cbn in *. lia.
    + apply (c_late _ _ _ _ _ _ _ C _ _ H l Hl).
      intros j Hj. destruct (Hlate j Hj) as (A & B). split; auto.
      destruct (Nat.eq_dec j b) as [->|N]; auto. rewrite upd_other in B; auto.
Qed.

(** Scheduling block [j] of a disk that is not busy for the next step. *)
Lemma core_schedule : forall q ev i old busy out outs q' i' j d,
  Core q ev i old busy out outs ->
  0 < old -> busy d = false -> disk j = Some d ->
  i' <= L ->
  Permutation (map snd ((old + 1, j) :: ev) ++ allq D q' ++ map snd outs) (seq i' (L - i')) ->
  (forall d' b, d' <= D -> In b (q' d') -> disk b = Some d') ->
  Core q' ((old + 1, j) :: ev) i' old (upd busy d true) out outs.
Proof.
  intros * C Ho Hb Hd Hi P Q. constructor; auto.
  - apply (c_out _ _ _ _ _ _ _ C).
  - intros t b [H|H]; [inversion H; lia|]. apply (c_time _ _ _ _ _ _ _ C) in H; auto.
  - cbn. constructor; [|apply (c_key _ _ _ _ _ _ _ C)].
    intros H. apply in_map_iff in H. destruct H as ((t, b) & E & H).
    unfold key in E. cbn in E. inversion E; subst t.
    apply in_app_or in H. destruct H as [H|H].
    + assert (busy d = true).
      { apply (c_busy _ _ _ _ _ _ _ C Ho). eapply get_disk_le; eauto.
        exists b; split; auto. congruence. }
      congruence.
    + apply (c_outle _ _ _ _ _ _ _ C) in H. lia.
  - intros _ d' Hd'. destruct (Nat.eq_dec d' d) as [->|N].
    + rewrite upd_same. split; auto. intros _. exists j; split; auto. cbn; auto.
    + rewrite upd_other by auto. rewrite (c_busy _ _ _ _ _ _ _ C Ho d' Hd').
      split; intros (b & A & B); exists b; split; auto; cbn; auto.
      cbn in A. destruct A as [A|A]; auto. inversion A; congruence.
  - apply (c_outle _ _ _ _ _ _ _ C).
  - apply (c_late _ _ _ _ _ _ _ C).
Qed.

(** Queueing the next block. *)
Lemma core_enqueue : forall q ev i old busy out outs d,
  Core q ev (S i) old busy out outs -> disk i = Some d ->
  Core (upd q d (q d ++ [i])) ev i old busy out outs.
Proof.
  intros * C Hd. pose proof (get_disk_le _ _ _ _ Hd) as Hle.
  pose proof (c_i _ _ _ _ _ _ _ C) as HL.
  constructor; try apply C.
  - lia.
  - replace (L - i) with (S (L - S i)) by lia. cbn.
    eapply Permutation_trans;
      [|apply perm_skip; apply (c_perm _ _ _ _ _ _ _ C)].
    eapply Permutation_trans;
      [apply Permutation_app_head; apply Permutation_app_tail; apply allq_push; auto|].
    cbn. apply Permutation_sym, Permutation_middle.
  - intros d' b Hd' H. destruct (Nat.eq_dec d' d) as [->|N].
    + rewrite upd_same in H. apply in_app_or in H. destruct H as [H|[H|[]]].
      * apply (c_q _ _ _ _ _ _ _ C); auto.
      * subst; auto.
    + rewrite upd_other in H by auto. apply (c_q _ _ _ _ _ _ _ C); auto.
Qed.

(** The invariant between two iterations. *)
Record Inv (s : sim) (outs : list (nat * nat)) : Prop := mkInv {
  i_core : Core (s_queues s) (s_events s) (s_i s) (s_old s) (s_busy s) (s_out s) outs;
  i_disk : forall d, d <= D -> s_queues s d <> [] ->
           exists t b, In (t, b) (s_events s) /\ disk b = Some d;
  i_live : 0 < s_i s -> s_events s <> [];
  i_room : length (s_events s) + length (allq D (s_queues s)) <= m
}.

(** The invariant after lines 125-149, when the disk of [b] has not been
    served yet. *)
Record Mid (b : nat) (s : sim) (outs : list (nat * nat)) : Prop := mkMid {
  d_core : Core (s_queues s) (s_events s) (s_i s) (s_old s) (s_busy s) (s_out s) outs;
  d_disk : forall d, d <= D -> s_queues s d <> [] -> disk b <> Some d ->
           exists t b, In (t, b) (s_events s) /\ disk b = Some d;
  d_live : 0 < s_i s -> s_events s <> [];
  d_room : length (s_events s) + length (allq D (s_queues s)) <= m;
  d_old  : 0 < s_old s
}.

Lemma next_block_mid : forall b s outs,
  Core (s_queues s) (s_events s) (s_i s) (s_old s) (s_busy s) (s_out s) outs ->
  (forall d, d <= D -> s_queues s d <> [] -> disk b <> Some d ->
     exists t b, In (t, b) (s_events s) /\ disk b = Some d) ->
  length (s_events s) + length (allq D (s_queues s)) < m ->
  0 < s_old s ->
  exists s', next_block disks D (s_old s) s = Some s' /\ Mid b s' outs /\ s_old s' = s_old s.
Proof.
  intros b s outs C Hd Hr Ho. unfold next_block.
  destruct (s_i s) as [|i'] eqn:Ei.
  { exists s. csplit; auto. constructor; auto; try lia. rewrite Ei; auto. }
  assert (Hi' : i' < L) by (pose proof (c_i _ _ _ _ _ _ _ C); lia).
  fold (disk i').
  destruct (disk i') as [d|] eqn:Ed; [|exfalso; eapply Hdisks; eauto].
  pose proof (get_disk_le _ _ _ _ Ed) as Hle.
  destruct (s_busy s d) eqn:Eb.
  - eexists; split; [reflexivity|]. split; [|auto].
    pose proof (proj1 (c_busy _ _ _ _ _ _ _ C Ho d Hle) Eb) as (b' & Hb1 & Hb2).
    constructor; cbn [s_queues s_events s_i s_old s_busy s_out]; auto.
    + apply core_enqueue; auto.
    + intros d' Hd' Hq Hn. destruct (Nat.eq_dec d' d) as [->|N].
      * eauto.
      * rewrite upd_other in Hq by auto. auto.
    + intros _ E. rewrite E in Hb1. destruct Hb1.
    + pose proof (Permutation_length (allq_push D (s_queues s) d i' Hle)) as E.
      cbn [length] in E. lia.
  - destruct (s_queues s d) as [|j rest] eqn:Eq.
    + eexists; split; [reflexivity|]. split; [|auto].
      constructor; cbn [s_queues s_events s_i s_old s_busy s_out]; auto.
      * apply core_schedule with (q := s_queues s) (i := S i'); auto; try lia.
        -- replace (L - i') with (S (L - S i')) by lia. cbn. apply perm_skip.
           apply (c_perm _ _ _ _ _ _ _ C).
        -- apply (c_q _ _ _ _ _ _ _ C).
      * intros d' Hd' Hq Hn. destruct (Hd d' Hd' Hq Hn) as (t & b' & A & B).
        exists t, b'; split; auto. cbn; auto.
      * intros _ E. discriminate.
    + eexists; split; [reflexivity|]. split; [|auto].
      pose proof (allq_pop D (s_queues s) d j rest Hle Eq) as P.
      constructor; cbn [s_queues s_events s_i s_old s_busy s_out]; auto.
      * apply core_schedule with (q := s_queues s) (i := S i'); auto; try lia.
        -- apply (c_q _ _ _ _ _ _ _ C); auto. rewrite Eq; cbn; auto.
        -- eapply Permutation_trans; [|apply (c_perm _ _ _ _ _ _ _ C)].
           cbn. eapply Permutation_trans; [apply Permutation_middle|].
           apply Permutation_app_head. rewrite app_comm_cons.
           apply Permutation_app_tail. apply Permutation_sym; auto.
        -- intros d' x Hd' Hx. apply (c_q _ _ _ _ _ _ _ C); auto.
           destruct (Nat.eq_dec d' d) as [->|N].
           ++ rewrite upd_same in Hx. rewrite Eq; cbn; auto.
           ++ rewrite upd_other in Hx; auto.
      * intros d' Hd' Hq Hn. destruct (Nat.eq_dec d' d) as [->|N].
        -- exists (s_old s + 1), j; split; cbn; auto.
           apply (c_q _ _ _ _ _ _ _ C); auto. rewrite Eq; cbn; auto.
        -- rewrite upd_other in Hq by auto.
           destruct (Hd d' Hd' Hq Hn) as (t & b' & A & B).
           exists t, b'; split; auto. cbn; auto.
      * intros _ E. discriminate.
      * apply Permutation_length in P. cbn in *. lia.
Qed.

Lemma next_of_disk_inv : forall b s outs,
  b < L -> Mid b s outs ->
  exists s', next_of_disk disks D (s_old s) b s = Some s' /\ Inv s' outs.
Proof.
  intros b s outs Hb M. destruct M as [C Hd Hl Hr Ho]. unfold next_of_disk.
  fold (disk b). destruct (disk b) as [d|] eqn:Ed; [|exfalso; eapply Hdisks; eauto].
  pose proof (get_disk_le _ _ _ _ Ed) as Hle.
  destruct (s_busy s d) eqn:Eb.
  - exists s; split; auto. constructor; auto.
    intros d' Hd' Hq. destruct (Nat.eq_dec d' d) as [->|N].
    + pose proof (proj1 (c_busy _ _ _ _ _ _ _ C Ho d Hle) Eb) as (b' & Hb1 & Hb2); eauto.
    + apply Hd; auto; congruence.
  - destruct (s_queues s d) as [|j rest] eqn:Eq.
    + exists s; split; auto. constructor; auto.
      intros d' Hd' Hq. destruct (Nat.eq_dec d' d) as [->|N]; [congruence|].
      apply Hd; auto; congruence.
    + eexists; split; [reflexivity|].
      pose proof (allq_pop D (s_queues s) d j rest Hle Eq) as P.
      assert (Dj : disk j = Some d).
      { apply (c_q _ _ _ _ _ _ _ C); auto. rewrite Eq; cbn; auto. }
      constructor; cbn [s_queues s_events s_i s_old s_busy s_out]; auto.
      * apply core_schedule with (q := s_queues s) (i := s_i s); auto; try lia.
        -- apply (c_i _ _ _ _ _ _ _ C).
        -- eapply Permutation_trans; [|apply (c_perm _ _ _ _ _ _ _ C)].
           cbn. eapply Permutation_trans; [apply Permutation_middle|].
           apply Permutation_app_head. rewrite app_comm_cons.
           apply Permutation_app_tail. apply Permutation_sym; auto.
        -- intros d' x Hd' Hx. apply (c_q _ _ _ _ _ _ _ C); auto.
           destruct (Nat.eq_dec d' d) as [->|N].
           ++ rewrite upd_same in Hx. rewrite Eq; cbn; auto.
           ++ rewrite upd_other in Hx; auto.
      * intros d' Hd' Hq. destruct (Nat.eq_dec d' d) as [->|N].
        -- exists (s_old s + 1), j; split; cbn; auto.
        -- rewrite upd_other in Hq by auto.
           destruct (Hd d' Hd' Hq) as (t & b' & A & B); [congruence|].
           exists t, b'; split; auto. cbn; auto.
      * intros _ E. discriminate.
      * apply Permutation_length in P. cbn in *. lia.
Qed.

Lemma handle_inv : forall s outs e1 t b e2,
  Inv s outs ->
  s_events s = e1 ++ (t, b) :: e2 ->
  (forall t' b', In (t', b') (e1 ++ e2) -> t <= t') ->
  exists s', handle disks D t b
      (mkSim (s_queues s) (e1 ++ e2) (s_i s) (s_old s) (s_busy s) (s_out s)) = Some s'
    /\ Inv s' ((t, b) :: outs).
Proof.
  intros s outs e1 t b e2 I E Hmin. destruct I as [C Hd Hl Hr].
  rewrite E in C, Hr, Hd.
  pose proof (core_pop _ _ _ _ _ _ _ _ _ _ C Hmin Hr) as C'.
  assert (Hb : b < L).
  { apply (core_lt _ _ _ _ _ _ _ C). apply in_or_app; left.
    apply in_map_iff. exists (t, b); split; auto. apply in_or_app; cbn; auto. }
  assert (Ht : 0 < t).
  { apply (c_outle _ _ _ _ _ _ _ C' t b). cbn; auto. }
  unfold handle.
  set (s1 := put_out t b _).
  assert (Es : s1 = mkSim (s_queues s) (e1 ++ e2) (s_i s) t
                      (if s_old s =? t then s_busy s else fun _ => false)
                      (upd (s_out s) b (Some t))).
  { unfold s1, put_out, new_time. cbn [s_old]. destruct (s_old s =? t) eqn:Et; cbn; auto.
    apply Nat.eqb_eq in Et. rewrite Et. auto. }
  destruct (next_block_mid b s1 ((t, b) :: outs)) as (s2 & N2 & M2 & O2).
  - rewrite Es; cbn; auto.
  - rewrite Es; cbn. intros d Hd' Hq Hn. destruct (Hd d Hd' Hq) as (t' & b' & A & B).
    exists t', b'; split; auto. apply in_app_or in A. apply in_or_app.
    destruct A as [A|[A|A]]; auto. inversion A; congruence.
  - rewrite Es; cbn. rewrite app_length in *. cbn in Hr. lia.
  - rewrite Es; cbn; auto.
  - assert (Et : s_old s1 = t) by (rewrite Es; auto). rewrite Et in *.
    rewrite N2. destruct (next_of_disk_inv b s2 ((t, b) :: outs) Hb M2) as (s3 & N3 & I3).
    rewrite O2 in N3. eauto.
Qed.

Lemma step_inv : forall s s' outs, Inv s outs -> sim_step disks D s s' ->
  exists t b e1 e2, s_events s = e1 ++ (t, b) :: e2 /\ Inv s' ((t, b) :: outs) /\
     (forall t' b', In (t', b') (e1 ++ e2) -> t <= t').
Proof.
  intros s s' outs I H. inversion H; subst.
  destruct (handle_inv _ _ _ _ _ _ I H0 H1) as (s2 & E & I2).
  rewrite E in H2. inversion H2; subst. exists t, b, e1, e2; auto.
Qed.

Lemma min_event : forall ev : list (nat * nat), ev <> [] ->
  exists e1 t b e2, ev = e1 ++ (t, b) :: e2 /\
    (forall t' b', In (t', b') (e1 ++ e2) -> t <= t').
Proof.
  induction ev as [|(t0, b0) ev IH]; intros H; [congruence|].
  destruct ev as [|e ev'].
  - exists [], t0, b0, []; split; auto. intros ? ? [].
  - destruct IH as (e1 & t & b & e2 & E & Hm); [discriminate|].
    rewrite E. destruct (le_lt_dec t0 t).
    + exists [], t0, b0, (e1 ++ (t, b) :: e2); split; auto. cbn.
      intros t' b' H'. apply in_app_or in H'. destruct H' as [H'|[H'|H']].
      * assert (t <= t') by (eapply Hm; apply in_or_app; left; eauto). lia.
      * inversion H'; lia.
      * assert (t <= t') by (eapply Hm; apply in_or_app; right; eauto). lia.
    + exists ((t0, b0) :: e1), t, b, e2; split; auto. cbn.
      intros t' b' [H'|H']; [inversion H'; lia|eauto].
Qed.

Lemma step_exists : forall s outs, Inv s outs -> s_events s <> [] ->
  exists s', sim_step disks D s s'.
Proof.
  intros s outs I H. destruct (min_event _ H) as (e1 & t & b & e2 & E & Hm).
  destruct (handle_inv _ _ _ _ _ _ I E Hm) as (s' & Hs & _).
  exists s'. econstructor; eauto.
Qed.

Lemma inv_outs_le : forall s outs, Inv s outs -> length outs + length (s_events s) <= L.
Proof.
  intros s outs I. destruct I as [C _ _ _].
  pose proof (Permutation_length (c_perm _ _ _ _ _ _ _ C)) as P.
  rewrite !app_length, !map_length, seq_length in P. lia.
Qed.

Lemma inv_end : forall s outs, Inv s outs -> s_events s = [] ->
  sim_end_ok D s /\ Permutation (map snd outs) (seq 0 L).
Proof.
  intros s outs I E. destruct I as [C Hd Hl Hr].
  assert (Ei : s_i s = 0).
  { destruct (s_i s); auto. exfalso. apply Hl; auto; lia. }
  assert (Eq : forall d, d <= D -> s_queues s d = []).
  { intros d H. destruct (s_queues s d) as [|j rest] eqn:Q; auto.
    destruct (Hd d H) as (t & b & A & _); [congruence|]. rewrite E in A. destruct A. }
  split.
  - unfold sim_end_ok; csplit; auto.
  - pose proof (c_perm _ _ _ _ _ _ _ C) as P. rewrite E, Ei in P.
    assert (Ea : allq D (s_queues s) = []).
    { destruct (allq D (s_queues s)) as [|x l] eqn:Ea; auto.
      assert (In x (allq D (s_queues s))) by (rewrite Ea; cbn; auto).
      apply in_allq in H. destruct H as (d & A & B). rewrite Eq in B; auto. destruct B. }
    rewrite Ea in P. cbn in P. rewrite Nat.sub_0_r in P. auto.
Qed.

End Loop.
