(** The simulation when the last [m + 1] blocks are on one disk. *)
From Coq Require Import List Arith Bool Lia.
From Verif Require Import ScheduleModel ScheduleSpec.
Import ListNotations.

Lemma upd_eq {A} (f : nat -> A) k v : upd f k v k = v.
Proof. unfold upd. rewrite Nat.eqb_refl. reflexivity. Qed.
Lemma upd_ne {A} (f : nat -> A) k v x : x <> k -> upd f k v x = f x.
Proof. intros H. unfold upd. destruct (Nat.eqb_spec x k); [contradiction|reflexivity]. Qed.

Section Run.
Variable disks : list (option nat).
Variables m D d : nat.
Let L := length disks.
Hypothesis Hall : forall b, b < L -> exists e, get_disk b disks D = Some e.
Hypothesis Hm : 1 <= m.
Hypothesis HL : m < L.
Hypothesis Hend : forall b, L - m - 1 <= b < L -> get_disk b disks D = Some d.
Hypothesis Hd : d <= D.

(** The blocks from [L - 1 - a] downwards. *)
Definition down (a n : nat) : list nat := map (fun j => L - 1 - j) (seq a n).

Lemma fill_end : forall n q, n <= m ->
  exists q', fill disks D n (L - (m - n)) q = Some (L - m, q') /\
    q' d = q d ++ down (m - n) n /\ forall e, e <> d -> q' e = q e.
Proof.
  induction n as [|n IH]; intros q Hn.
  - exists q. cbn. rewrite Nat.sub_0_r. split; [reflexivity|]. unfold down. cbn. rewrite app_nil_r. auto.
  - assert (E : L - (m - S n) = S (L - (m - S n) - 1)) by lia.
    rewrite E. cbn [fill]. rewrite (Hend (L - (m - S n) - 1)) by lia.
    set (i' := L - (m - S n) - 1).
    assert (Ei : i' = L - (m - n)) by (unfold i'; lia). rewrite Ei.
    destruct (IH (upd q d (q d ++ [L - (m - n)]))) as (q' & I1 & I2 & I3); [lia|].
    exists q'. split; [exact I1|]. split.
    + rewrite I2, upd_eq, <- app_assoc. cbn [app]. f_equal.
      unfold down. cbn [seq map]. f_equal; [lia|]. f_equal. f_equal. lia.
    + intros e He. rewrite I3 by assumption. apply upd_ne. assumption.
Qed.

Lemma first_nil n : forall from q ev, (forall e, from <= e < from + n -> q e = []) -> first_events from n q ev = (q, ev).
Proof.
  induction n as [|n IH]; intros from q ev H; cbn; [reflexivity|].
  rewrite (H from) by lia. apply IH. intros e He. apply H. lia.
Qed.
Lemma first_one n : forall from q ev j rest, from <= d < from + n -> q d = j :: rest ->
  (forall e, e <> d -> q e = []) -> first_events from n q ev = (upd q d rest, (1, j) :: ev).
Proof.
  induction n as [|n IH]; intros from q ev j rest H E O; [lia|]. cbn [first_events].
  destruct (Nat.eq_dec from d) as [->|n0].
  - rewrite E. apply first_nil. intros e He. rewrite upd_ne by lia. apply O. lia.
  - rewrite (O from n0). apply IH; auto. lia.
Qed.

(** The state after [k] events. *)
Record at_event (k : nat) (s : sim) : Prop := mkAt {
  a_ev : s_events s = if k <? L then [(S k, L - 1 - k)] else [];
  a_old : s_old s = k;
  a_i : s_i s = Nat.min (L - m) (L - 1 - k);
  a_qd : s_queues s d = down (S k) (m - 1 - k);
  a_q : forall e, e <> d -> s_queues s e = [];
  a_out : forall b, b < L -> L - k <= b -> s_out s b = Some (L - b)
}.

Lemma at_start busy0 s0 : sim_init disks m D busy0 = Some s0 -> at_event 0 s0.
Proof.
  unfold sim_init. fold L. destruct (L <? D); [discriminate|].
  destruct (fill_end m (fun _ => []) (le_n m)) as (q & E1 & E2 & E3).
  rewrite Nat.sub_diag, Nat.sub_0_r in E1. rewrite E1.
  rewrite Nat.sub_diag in E2. cbn [app] in E2.
  assert (E4 : q d = L - 1 :: down 1 (m - 1)).
  { rewrite E2. unfold down. destruct m as [|m']; [lia|]. cbn [seq map]. rewrite Nat.sub_succ, !Nat.sub_0_r. reflexivity. }
  rewrite (first_one (S D) 0 q [] (L - 1) (down 1 (m - 1))); [|lia|exact E4|exact E3].
  intros K. injection K as <-. constructor; cbn [s_old s_queues s_events s_i s_out s_busy].
  - rewrite (proj2 (Nat.ltb_lt 0 L)) by lia. rewrite Nat.sub_0_r. reflexivity.
  - reflexivity.
  - lia.
  - rewrite upd_eq, Nat.sub_0_r. reflexivity.
  - intros e He. rewrite upd_ne by assumption. apply E3. assumption.
  - intros b Hb K. lia.
Qed.

Lemma at_next k s s' : at_event k s -> sim_step disks D s s' -> at_event (S k) s' /\ k < L.
Proof.
  intros [A1 A2 A3 A4 A5 A6] St. inversion St as [s1 s2 e1 t b e2 Ee Ht Eh]; subst s1 s2.
  rewrite A1 in Ee. destruct (Nat.ltb_spec k L) as [Hk|Hk]; [|destruct e1; discriminate].
  assert (K : e1 = [] /\ e2 = [] /\ t = S k /\ b = L - 1 - k).
  { destruct e1 as [|x e1]; cbn in Ee.
    - injection Ee as <- <- <-. auto.
    - injection Ee as _ Ee. destruct e1; discriminate. }
  destruct K as (-> & -> & -> & ->). clear Ee Ht St. split; [|assumption].
  cbn [app] in Eh. unfold handle, new_time in Eh. cbn [s_old s_queues s_events s_i s_out] in Eh.
  rewrite A2, (proj2 (Nat.eqb_neq k (S k))) in Eh by lia.
  unfold put_out in Eh. cbn [s_old s_queues s_events s_i s_out s_busy] in Eh.
  assert (Ho : forall b, b < L -> L - S k <= b -> upd (s_out s) (L - 1 - k) (Some (S k)) b = Some (L - b)).
  { intros b Hb Hb'. unfold upd. destruct (Nat.eqb_spec b (L - 1 - k)) as [->|n]; [f_equal; lia|].
    apply A6; lia. }
  unfold next_block in Eh. cbn [s_old s_queues s_events s_i s_out s_busy] in Eh. rewrite A3 in Eh.
  destruct (Nat.lt_ge_cases (S k) m) as [Hp|Hp].
  - (* the queue of the disk is not empty *)
    assert (Ei : Nat.min (L - m) (L - 1 - k) = S (L - m - 1)) by lia. rewrite Ei in Eh.
    rewrite (Hend (L - m - 1)) in Eh by lia.
    assert (Eq : down (S k) (m - 1 - k) = (L - 1 - S k) :: down (S (S k)) (m - 1 - S k)).
    { unfold down. replace (m - 1 - k) with (S (m - 1 - S k)) by lia. reflexivity. }
    rewrite A4, Eq in Eh. unfold next_of_disk in Eh. rewrite (Hend (L - 1 - k)) in Eh by lia.
    cbn [s_busy] in Eh. rewrite upd_eq in Eh. injection Eh as <-.
    constructor; cbn [s_old s_queues s_events s_i s_out s_busy].
    + rewrite (proj2 (Nat.ltb_lt (S k) L)) by lia. rewrite Nat.add_1_r. reflexivity.
    + reflexivity.
    + lia.
    + apply upd_eq.
    + intros e He. rewrite upd_ne by assumption. auto.
    + exact Ho.
  - assert (Q0 : forall e, s_queues s e = []).
    { intros e. destruct (Nat.eq_dec e d) as [->|n]; [|auto]. rewrite A4. replace (m - 1 - k) with 0 by lia. reflexivity. }
    destruct (Hall (L - 1 - k)) as (eb & Eb); [lia|].
    destruct (Nat.eq_dec (S k) L) as [El|Nl].
    + assert (Ei : Nat.min (L - m) (L - 1 - k) = 0) by lia. rewrite Ei in Eh.
      unfold next_of_disk in Eh. rewrite Eb in Eh. cbn [s_busy s_queues] in Eh. rewrite Q0 in Eh. injection Eh as <-.
      constructor; cbn [s_old s_queues s_events s_i s_out s_busy].
      * rewrite (proj2 (Nat.ltb_ge (S k) L)) by lia. reflexivity.
      * reflexivity.
      * lia.
      * rewrite Q0. replace (m - 1 - S k) with 0 by lia. reflexivity.
      * auto.
      * exact Ho.
    + assert (Ei : Nat.min (L - m) (L - 1 - k) = S (L - 1 - S k)) by lia. rewrite Ei in Eh.
      destruct (Hall (L - 1 - S k)) as (e & Ee); [lia|]. rewrite Ee, Q0 in Eh.
      unfold next_of_disk in Eh. rewrite Eb in Eh. cbn [s_busy s_queues] in Eh. rewrite Q0 in Eh.
      assert (Eh' : Some (mkSim (s_queues s) [(S k + 1, L - 1 - S k)] (L - 1 - S k) (S k)
                   (upd (fun _ => false) e true) (upd (s_out s) (L - 1 - k) (Some (S k)))) = Some s').
      { destruct (upd (fun _ => false) e true eb); exact Eh. }
      injection Eh' as <-.
      constructor; cbn [s_old s_queues s_events s_i s_out s_busy].
      * rewrite (proj2 (Nat.ltb_lt (S k) L)) by lia. rewrite Nat.add_1_r. reflexivity.
      * reflexivity.
      * lia.
      * rewrite Q0. replace (m - 1 - S k) with 0 by lia. reflexivity.
      * auto.
      * exact Ho.
Qed.

Lemma at_steps busy0 s0 n s : sim_init disks m D busy0 = Some s0 -> sim_steps disks D n s0 s -> at_event n s.
Proof.
  intros E R. remember s0 as z eqn:Hz in R. induction R as [s1|n s1 s2 s3 R IH St]; subst.
  - eapply at_start. exact E.
  - eapply at_next; [apply IH; reflexivity|exact St].
Qed.

Lemma at_end n s : at_event n s -> s_events s = [] -> n >= L.
Proof. intros [A1 _ _ _ _ _] E. rewrite A1 in E. destruct (Nat.ltb_spec n L); [discriminate|assumption]. Qed.

Lemma order_times out : forall n i l, (forall b, i <= b < i + n -> out b = Some (L - b)) ->
  write_order out i n = Some l -> l = map (fun b => (b, L - b)) (seq i n).
Proof.
  induction n as [|n IH]; intros i l H E; cbn [write_order] in E.
  - injection E as <-. reflexivity.
  - rewrite (H i) in E by lia. destruct (write_order out (S i) n) as [l'|] eqn:E'; [|discriminate].
    injection E as <-. cbn [seq map]. f_equal. apply IH; [|assumption]. intros b Hb. apply H. lia.
Qed.
Lemma sort_times n : forall i, i + n <= L ->
  sort_time (map (fun b => (b, L - b)) (seq i n)) = map (fun b => (b, L - b)) (seq i n).
Proof.
  induction n as [|n IH]; intros i H; [reflexivity|]. cbn [seq map sort_time]. rewrite IH by lia.
  destruct n as [|n]; [reflexivity|]. cbn [seq map insert_time snd].
  rewrite (proj2 (Nat.ltb_ge (L - i) (L - S i))) by lia. reflexivity.
Qed.

Lemma identity_of_times out l : (forall b, b < L -> out b = Some (L - b)) ->
  write_order out 0 L = Some l -> map fst (sort_time l) = seq 0 L.
Proof.
  intros H E. rewrite (order_times out L 0 l) by (auto; intros; apply H; lia).
  rewrite sort_times by lia. rewrite map_map. cbn. apply map_id.
Qed.

End Run.
