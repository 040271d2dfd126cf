(** Scheduling the operations of the sequence. *)
From Coq Require Import ZArith List Bool Lia Permutation Arith.
From Verif Require Import BsModel BsSpec BsProofs PfModel PfInv PfProofs1 PfProofs2 PfProofs3 PfProofs4 PfProofs5.
Import ListNotations.

Lemma has_in b l : has b l = true <-> In b l.
Proof.
  unfold has. rewrite existsb_exists. split.
  - intros (x & Hx & E). apply Nat.eqb_eq in E. subst. assumption.
  - intros Hx. exists b. split; [assumption|apply Nat.eqb_refl].
Qed.
Lemma has_not b l : has b l = false <-> ~ In b l.
Proof. rewrite <- has_in. destruct (has b l); split; congruence. Qed.
Lemma in_ins x b l : In x (ins b l) <-> x = b \/ In x l.
Proof.
  unfold ins. destruct (has b l) eqn:E; cbn; [|intuition].
  apply has_in in E. split; [auto|]. intros [->|K]; assumption.
Qed.
Lemma ins_nodup b l : NoDup l -> NoDup (ins b l).
Proof. intros N. unfold ins. destruct (has b l) eqn:E; [assumption|]. constructor; [apply has_not; assumption|assumption]. Qed.
Lemma in_del x b l : In x (del b l) <-> In x l /\ x <> b.
Proof. split; [apply in_remove|]. intros (K & N). apply in_in_remove; assumption. Qed.
Lemma del_nodup b l : NoDup l -> NoDup (del b l).
Proof.
  unfold del. induction l as [|x l IH]; intros N; [constructor|]. inversion N; subst. cbn. destruct (Nat.eq_dec b x); [auto|].
  constructor; [|auto]. intros K. apply in_remove in K. destruct K. contradiction.
Qed.
Lemma del_length b l : NoDup l -> In b l -> length l = S (length (del b l)).
Proof.
  unfold del. induction l as [|x l IH]; intros N Hi; [contradiction|]. inversion N; subst. cbn [remove].
  destruct (Nat.eq_dec b x) as [->|n].
  - cbn [length]. rewrite notin_remove by assumption. reflexivity.
  - destruct Hi as [<-|Hi]; [contradiction|]. cbn [length]. rewrite (IH H2 Hi). reflexivity.
Qed.
Lemma pop_least_ok l g r : pop_least l = Some (g, r) -> In g l /\ r = del g l.
Proof.
  unfold pop_least. destruct l as [|x l]; [discriminate|]. intros E. injection E as E1 E2. subst r. unfold del. rewrite E1.
  split; [|reflexivity]. rewrite <- E1. clear.
  assert (K : fold_right Nat.min x l = x \/ In (fold_right Nat.min x l) l).
  { induction l as [|y l IH]; [left; reflexivity|]. cbn [fold_right].
    destruct (Nat.min_spec y (fold_right Nat.min x l)) as [(_ & ->)|(_ & ->)]; [right; left; reflexivity|].
    destruct IH as [IH|IH]; [left; assumption|right; right; assumption]. }
  destruct K as [K|K]; [left; auto|right; assumption].
Qed.
Lemma pop_least_none l : pop_least l = None -> l = [].
Proof. destruct l; [reflexivity|discriminate]. Qed.

Definition rdy (c : client) (p : pst) : Prop := forall b,
  refs (vw c b) = 0 -> val (vw c b) <> None -> hd_error (sops p b) = Some op_acquire -> int (B p b) <> None.

(** Either everything is scheduled, or the next operation needs an internal
    block and there is none. *)
Definition SC (p : pst) : Prop := uns p = [] \/
  (budget p = 0 /\ exists k b r, uns p = (k, b) :: r /\ is_acq k = true /\ hold p b = None).

(** The block of the operation that is executed. *)
Definition curok (c : client) (p : pst) (cur : option nat) : Prop :=
  match cur with
  | None => True
  | Some b => int (B p b) <> None \/ val (vw c b) = None \/ (budget p = 0 /\ has_acq (sops p b) = false)
  end.

(** ** Attaching a reserved block *)

Lemma inv_attach max Q c p b m i x : Inv max [] Q c p -> sched p b = Some m -> m_res m = Some i ->
  int (B p b) = None -> refs (vw c b) = 0 -> val (vw c b) = Some x -> nxt_acq (sops p b) = true ->
  Inv max [b] Q c (set_se (put_meta (set_base p (set_b (base p) b (mkSb (ext (B p b)) (Some i) (dirty (B p b)) (rc (B p b))))) b
                                    (set_res m None)) (ins b (se p))).
Proof.
  intros H Em Er Ei Hr Hv Hn. pose proof H as H0.
  assert (Hb := sched_rng H b m Em).
  assert (D0 := I_data _ _ _ _ _ H b x Hr Hv). unfold data in D0. rewrite Ei in D0. destruct D0 as (D0 & D0').
  assert (Rc0 : rc (B p b) = 0) by (rewrite (I_rc _ _ _ _ _ H); assumption).
  assert (Rd : m_read m = None).
  { destruct (m_read m) as [k|] eqn:Ek; [|reflexivity]. exfalso.
    destruct (I_r _ _ _ _ _ H b m k Em Ek) as (r & _ & K & _). congruence. }
  assert (NF : ~ In b (fe p)).
  { intros K. destruct (ev_facts H b (proj2 (fe_ev H b K))) as (_ & _ & j & y & K2 & _). congruence. }
  set (q := set_se _ _). destruct H.
  assert (Hh : forall y, hold q y = hold p y).
  { intros y. subst q. unfold hold. usimp. unfold upd. destruct (Nat.eqb_spec y b) as [->|n]; [|reflexivity].
    cbn [int]. rewrite Ei, Em. symmetry. assumption. }
  assert (So : forall y, sops q y = sops p y).
  { intros y. subst q. unfold sops. usimp. ucase; [rewrite Em; reflexivity|reflexivity]. }
  assert (Bn : forall y, y <> b -> B q y = B p y) by (intros y n; subst q; usimp; rewrite upd_other; auto).
  assert (Bb : B q b = mkSb (ext (B p b)) (Some i) (dirty (B p b)) (rc (B p b))) by (subst q; usimp; apply upd_same).
  assert (Be : forall y, ext (B q y) = ext (B p y)) by (intros y; destruct (Nat.eq_dec y b) as [->|n]; [rewrite Bb|rewrite Bn]; auto).
  assert (Bd : forall y, dirty (B q y) = dirty (B p y)) by (intros y; destruct (Nat.eq_dec y b) as [->|n]; [rewrite Bb|rewrite Bn]; auto).
  assert (Br : forall y, rc (B q y) = rc (B p y)) by (intros y; destruct (Nat.eq_dec y b) as [->|n]; [rewrite Bb|rewrite Bn]; auto).
  assert (D : forall y z, dsk p y z -> dsk q y z).
  { intros y z (e & D1 & D2). exists e. rewrite Be. split; [assumption|exact D2]. }
  assert (Sc : forall y m', sched q y = Some m' -> (y = b /\ m' = set_res m None) \/ (y <> b /\ sched p y = Some m')).
  { intros y m' E. subst q. usimp. ucase; [injection E as <-; left; auto|right; auto]. }
  assert (Scn : forall y, y <> b -> sched q y = sched p y) by (intros y n; subst q; usimp; apply upd_other; assumption).
  constructor; change (wq q) with (wq p); change (fe q) with (fe p); change (uns q) with (uns p); change (se q) with (ins b (se p)); auto;
    try (intros y; rewrite ?Be, ?Bd, ?Br, ?So; auto; fail).
  - intros j. rewrite (hl_ext _ (hold p) (hold q)) by (intros; apply Hh). apply I_cnt.
  - intros y m' E N. destruct (Sc _ _ E) as [(-> & ->)|(n & E')]; [reflexivity|]. rewrite Bn in N by assumption. eauto.
  - intros y e. rewrite Be. apply I_used.
  - intros y y' e. rewrite !Be. apply I_inj.
  - intros y Hy. destruct (I_new y Hy) as (K1 & K2). split; [|assumption]. rewrite Bn; [assumption|]. intros ->. rewrite K2 in Hv. discriminate.
  - intros y Hy. destruct (I_rng y Hy) as (K1 & K2). split; [|assumption]. rewrite Scn; [assumption|]. cbn in Hy. lia.
  - intros g w E. destruct (I_w g w E) as (A1 & A2 & A3 & A4). rewrite Be, Bd, Br. csplit; auto.
    destruct (w_taker w) as [t|] eqn:Et.
    + destruct A4 as (m0 & T1 & T2 & T3 & T4 & T5 & T6 & T7).
      exists (if Nat.eqb t b then set_res m None else m0). unfold taken. rewrite Hh, So, Bd, Be.
      assert (M : sched q t = Some (if Nat.eqb t b then set_res m None else m0)).
      { destruct (Nat.eqb_spec t b) as [->|n]; [subst q; usimp; apply upd_same|rewrite Scn; assumption]. }
      assert (M1 : m_giver (if Nat.eqb t b then set_res m None else m0) = (true, g) /\
                   m_read (if Nat.eqb t b then set_res m None else m0) = m_read m0).
      { destruct (Nat.eqb_spec t b) as [->|n]; [|auto]. rewrite Em in T1. injection T1 as <-. auto. }
      destruct M1 as (M1 & M2). rewrite M2. csplit; auto.
      * destruct T5 as [T5|[T5|[]]]; auto. destruct (Nat.eq_dec g b) as [->|n]; [right; right; left; reflexivity|].
        left. rewrite Bn by assumption. assumption.
      * intros N. destruct (Nat.eq_dec t b) as [->|n]; [right; right; left; reflexivity|].
        rewrite Bn in N by assumption. destruct (T6 N) as [K|[K|[]]]; auto.
      * intros Es. destruct (T7 Es) as (S1 & S2 & S3 & S4 & S5 & S6 & S7 & S8 & S9 & S10). csplit; auto.
        -- destruct (Nat.eq_dec t b) as [->|n]; [rewrite Bb; discriminate|rewrite Bn; assumption].
        -- apply in_ins. auto.
        -- intros N. destruct (S10 N) as [K|[]]. auto.
    + destruct A4 as (T1 & T2 & T3 & T4 & T5 & T6). unfold eager. rewrite So. csplit; auto. rewrite Bn; [assumption|].
      intros ->. congruence.
  - intros t m' g E Eg. rewrite !Br. destruct (Sc _ _ E) as [(-> & ->)|(n & E')]; eauto.
  - intros y m' k E Ek. destruct (Sc _ _ E) as [(-> & ->)|(n & E')]; [cbn in Ek; congruence|].
    destruct (I_r y m' k E' Ek) as (r & A1 & A2 & A3 & A4 & A5 & A6 & A7 & A8 & A9 & A10).
    exists r. rewrite Bn, So by assumption. csplit; auto. apply in_ins. auto.
  - intros k r K1 K2. destruct (I_k k r K1 K2) as (y & m' & K3 & K4). exists y, m'. split; [|assumption].
    rewrite Scn; [assumption|]. intros ->. congruence.
  - intros y y' m1 m2 k E1 K1 E2 K2.
    assert (K : forall y m', sched q y = Some m' -> m_read m' = Some k -> sched p y = Some m').
    { intros z mz Ez Kz. destruct (Sc _ _ Ez) as [(-> & ->)|(n & E')]; [cbn in Kz; congruence|assumption]. }
    eauto.
  - intros y K1 K2. rewrite Bn; [auto|]. intros ->. congruence.
  - intros y z K1 K2. unfold data. rewrite Bd. destruct (Nat.eq_dec y b) as [->|n].
    + rewrite Bb. cbn [int]. rewrite D0. split; [|left; left; reflexivity]. apply D. assert (z = x) by congruence. subst. assumption.
    + specialize (I_data y z K1 K2). unfold data in I_data. rewrite Bn by assumption. change (mem (base q)) with (mem (base p)).
      destruct (int (B p y)); [|destruct I_data; split; auto]. destruct (dirty (B p y)); [assumption|].
      destruct I_data as (D1 & D2). split; [auto|]. destruct D2 as [[]|[D2|D2]]; auto. right; right.
      destruct D2 as [(m' & k & r & R1 & R2)|D2]; [left|right; exact D2]. exists m', k, r. rewrite Scn by assumption. auto.
  - intros y Hy. specialize (I_acq y Hy). unfold acqd in *. rewrite Bn; [exact I_acq|]. intros ->. lia.
  - intros y m' E. destruct (Sc _ _ E) as [(-> & ->)|(n & E')]; [cbn [set_res m_ops]|]; eauto.
  - apply ins_nodup. assumption.
  - intros y. rewrite in_ins. change (nblk (base q)) with (nblk (base p)). destruct (Nat.eq_dec y b) as [->|n].
    + rewrite Bb. unfold is_evictable, is_acquired, is_internal. cbn [rc int]. rewrite Rc0. cbn. tauto.
    + rewrite Bn by assumption. rewrite <- I_ev. tauto.
  - intros y K1 K2. apply in_ins in K2. destruct K2 as [->|K2]; [contradiction|eauto].
  - intros y Hy. rewrite Bd, So. apply in_ins in Hy. destruct Hy as [->|Hy]; [|auto]. apply has_acq_keep, nxt_has. assumption.
  - intros y m' E N. destruct (Sc _ _ E) as [(-> & ->)|(n & E')]; [cbn in N; contradiction|eauto].
  - intros y. rewrite So, Hh. auto.
  - intros y [<-|[]]. rewrite Bd, So. csplit; auto. apply in_ins. auto.
Qed.

Section Oracles.
Variable pick : nat -> list nat -> nat.
Hypothesis Fresh : fresh_blocks pick.

Lemma inv_prefetch max Q c p b m i x : Inv max [] Q c p -> sched p b = Some m -> m_res m = Some i ->
  int (B p b) = None -> refs (vw c b) = 0 -> val (vw c b) = Some x -> nxt_acq (sops p b) = true ->
  (wq p b = None \/ forall g, m_giver m = (true, g) -> g <> b) ->
  exists q, prefetch pick p b = Ok q /\ Inv max [] Q c q /\ fe q = fe p /\ uns q = uns p /\ pseqn q = pseqn p /\
    free_i (base q) = free_i (base p) /\ remaining (base q) = remaining (base p) /\ nblk (base q) = nblk (base p) /\
    (forall y, sops q y = sops p y) /\ int (B q b) <> None /\
    (forall y, y <> b -> is_internal (B q y) = is_internal (B p y)).
Proof.
  intros H Em Er Ei Hr Hv Hn Hw.
  pose proof (inv_attach _ _ _ _ _ _ _ _ H Em Er Ei Hr Hv Hn) as H1.
  unfold prefetch, with_meta. rewrite Em. unfold attach, bk, is_internal at 1. rewrite Ei, Er. cbn [bind].
  cbn [se set_base put_meta set_sched] in *.
  match goal with |- context [schedule_read _ _ ?st _] => set (p1 := st) in * end.
  assert (Em1 : sched p1 b = Some (set_res m None)) by (subst p1; usimp; apply upd_same).
  assert (Rd : m_read m = None).
  { destruct (m_read m) as [k|] eqn:Ek; [|reflexivity]. exfalso.
    destruct (I_r _ _ _ _ _ H b m k Em Ek) as (r & _ & K & _). congruence. }
  assert (K : exists q, schedule_read pick 3 p1 b = Ok q /\ Inv max [] Q c q /\ fr p1 q).
  { destruct (wq p b) as [w|] eqn:Ew.
    - destruct Hw as [Hw|Hw]; [discriminate|].
      apply (inv_schedule_read pick max Q c p1 b (set_res m None)); auto.
      intros g w' Eg Ew'. cbn [set_res m_giver] in Eg. change (wq p1) with (wq p) in Ew'.
      destruct (I_g _ _ _ _ _ H b m g Em Eg) as (_ & _ & _ & _ & G). specialize (G w' Ew').
      destruct (I_w _ _ _ _ _ H g w' Ew') as (_ & _ & _ & T). rewrite G in T.
      destruct T as (m' & _ & _ & _ & _ & _ & _ & T). destruct (wants w'); [|reflexivity]. exfalso.
      destruct (T eq_refl) as (_ & T2 & _). congruence.
    - destruct (inv_start_or_after max [b] [] Q c p1 b (set_res m None) H1) as (q & Q1 & Q2 & Q3 & Q4); auto.
      + left; reflexivity.
      + intros y [].
      + intros y [<-|[]] N; contradiction.
      + exists q. csplit; auto. cbn [schedule_read]. change (wq p1 b) with (wq p b). rewrite Ew. assumption. }
  destruct K as (q & Q1 & Q2 & Q3). exists q. destruct Q3.
  assert (K : is_internal (B q b) = true) by (rewrite fr_int; subst p1; usimp; rewrite upd_same; reflexivity).
  csplit; auto.
  - intros y. rewrite fr_ops. unfold sops. destruct (Nat.eq_dec y b) as [->|n]; [rewrite Em1, Em; reflexivity|].
    subst p1. usimp. rewrite upd_other by assumption. reflexivity.
  - unfold is_internal in K. destruct (int (B q b)); discriminate.
  - intros y n. rewrite fr_int. subst p1. usimp. rewrite upd_other by assumption. reflexivity.
Qed.

Lemma push_sched p k b m : sched p b = Some m -> push p k b = set_ops m (m_ops m ++ [k]).
Proof. intros E. unfold push. rewrite E. reflexivity. Qed.
Lemma push_ops p k b : m_ops (push p k b) = sops p b ++ [k].
Proof. unfold push, sops. destruct (sched p b); reflexivity. Qed.
Lemma push_read p k b m : sched p b = Some m -> m_read (push p k b) = m_read m.
Proof. intros E. rewrite (push_sched _ _ _ _ E). reflexivity. Qed.

(** What scheduling an operation does to the rest. *)
Record schd (c : client) (p q : pst) (k : pop_kind) (b : nat) : Prop := mkSchd {
  sd_bud : budget q <= budget p;
  sd_ops : forall y, sops q y = if Nat.eqb y b then sops p y ++ [k] else sops p y;
  sd_ev : forall y, int (B p y) <> None -> int (B q y) = None -> has_acq (sops p y) = false /\ y <> b /\ budget p = S (budget q);
  sd_res : int (B p b) = None -> is_acq k = true -> hold p b = None -> budget p = S (budget q);
  sd_read : refs (vw c b) = 0 -> val (vw c b) <> None -> sops p b = [] -> k = op_acquire -> int (B q b) <> None
}.

Lemma rdy_schd c p q k b : rdy c p -> schd c p q k b -> rdy c q.
Proof.
  intros H [] y Hr Hv Ho. rewrite sd_ops0 in Ho.
  assert (K : hd_error (sops p y) = Some op_acquire -> int (B q y) <> None).
  { intros E. pose proof (H y Hr Hv E) as K. intros K2. destruct (sd_ev0 y K K2) as (A & _). destruct (sops p y) as [|k0 r]; [discriminate|].
    injection E as ->. discriminate. }
  destruct (Nat.eqb_spec y b) as [->|n]; [|auto]. destruct (sops p b) as [|k0 r] eqn:E; [|auto]. injection Ho as ->. auto.
Qed.
Lemma cur_schd max Q c p q k b cur : Inv max [] Q c p -> curok c p cur -> (cur <> None -> budget p <= 1) -> schd c p q k b -> curok c q cur.
Proof.
  intros H Hc Hb []. destruct cur as [x|]; [|exact I]. specialize (Hb ltac:(discriminate)). cbn in *.
  assert (K : int (B p x) <> None -> int (B q x) <> None \/ val (vw c x) = None \/ (budget q = 0 /\ has_acq (sops q x) = false)).
  { intros Hc'. destruct (int (B q x)) eqn:E; [left; discriminate|]. right; right. destruct (sd_ev0 x Hc' E) as (A1 & A2 & A3). split; [lia|].
    rewrite sd_ops0. destruct (Nat.eqb_spec x b); [contradiction|assumption]. }
  destruct Hc as [Hc|[Hc|(Hc & Hc')]]; auto.
  destruct (int (B p x)) as [j|] eqn:Ej; [apply K; discriminate|]. right; right. split; [lia|].
  rewrite sd_ops0. destruct (Nat.eqb_spec x b) as [->|n]; [|assumption]. rewrite has_acq_app, Hc'. cbn. rewrite orb_false_r.
  destruct (is_acq k) eqn:Ek; [|reflexivity]. exfalso.
  assert (Hh : hold p b = None).
  { unfold hold. rewrite Ej. destruct (sched p b) as [m|] eqn:Em; [|reflexivity]. destruct (m_res m) eqn:Er; [|reflexivity].
    exfalso. pose proof (I_res _ _ _ _ _ H b m Em) as A. rewrite Er in A. specialize (A ltac:(discriminate)).
    unfold sops in Hc'. rewrite Em in Hc'. congruence. }
  specialize (sd_res0 Ej eq_refl Hh). lia.
Qed.

Lemma set_fe_se p : set_se (set_fe p (fe p)) (se p) = p.
Proof. destruct p. reflexivity. Qed.

(** The cases in which no internal block is needed. *)
Lemma inv_push_stay max Q c p k b : Inv max [] Q c p -> uns p <> [] -> b < nblk (base p) ->
  (is_acq k = true -> hold p b <> None /\ int (B p b) = None) ->
  (k = op_deinitialize -> dirty (B p b) = true -> ~ In b (fe p)) ->
  Inv max [] (Q ++ [(k, b)]) c (put_meta p b (push p k b)) /\ schd c p (put_meta p b (push p k b)) k b.
Proof.
  intros H Hu Hb Hk Hd. split.
  - pose proof (inv_push max [] Q c p k b (fe p) (se p) H Hb Hu) as K. rewrite set_fe_se in K.
    apply K; auto using incl_refl; try tauto; try apply H.
    intros Hf.
      assert (A : is_acq k = true -> False).
      { intros A. destruct (Hk A) as (_ & A2). destruct (ev_facts H b (proj2 (fe_ev H b Hf))) as (_ & _ & i & x & A3 & _). congruence. }
      destruct k; cbn; auto; try (exfalso; apply A; reflexivity). destruct (dirty (B p b)); [|reflexivity]. exfalso. apply Hd; auto.
  - constructor; auto.
    + intros y. unfold sops at 1. usimp. ucase; [apply push_ops|reflexivity].
    + intros y K1 K2. exfalso. auto.
    + intros _ A. destruct (Hk A). contradiction.
    + intros _ _ Es ->. exfalso. destruct (Hk eq_refl) as (A1 & A2). apply A1. unfold hold. rewrite A2.
      destruct (sched p b) as [m|] eqn:Em; [|reflexivity]. destruct (m_res m) eqn:Er; [|reflexivity].
      pose proof (I_res _ _ _ _ _ H b m Em) as A. rewrite Er in A. specialize (A ltac:(discriminate)).
      unfold sops in Es. rewrite Em in Es. rewrite Es in A. discriminate.
Qed.
Lemma inv_push_move max Q c p k b : Inv max [] Q c p -> uns p <> [] -> b < nblk (base p) ->
  is_internal (B p b) = true -> keep (dirty (B p b)) [k] = true ->
  exists q, move_se (put_meta p b (push p k b)) b = q /\ Inv max [] (Q ++ [(k, b)]) c q /\ schd c p q k b /\
    uns q = uns p /\ pseqn q = pseqn p /\ base q = base p.
Proof.
  intros H Hu Hb Hi Hk. eexists. split; [reflexivity|]. unfold move_se. usimp.
  assert (So : forall q, sched q = upd (sched p) b (Some (push p k b)) -> forall y, sops q y = if Nat.eqb y b then sops p y ++ [k] else sops p y).
  { intros q Eq y. unfold sops at 1. rewrite Eq. ucase; [apply push_ops|reflexivity]. }
  assert (Hi' : int (B p b) <> None) by (unfold is_internal in Hi; destruct (int (B p b)); discriminate).
  assert (Hh : hold p b <> None) by (unfold hold; destruct (int (B p b)); [discriminate|contradiction]).
  destruct (has b (fe p)) eqn:Ef.
  - apply has_in in Ef. csplit; auto.
    + apply (inv_push max [] Q c p k b (del b (fe p)) (ins b (se p)) H Hb Hu); auto.
      * apply del_nodup, (I_fend _ _ _ _ _ H).
      * apply ins_nodup, (I_send _ _ _ _ _ H).
      * intros y Hy. apply in_del in Hy. tauto.
      * intros y Hy. apply in_ins. auto.
      * intros y. rewrite in_del, in_ins. destruct (Nat.eq_dec y b) as [->|n]; intuition.
      * intros y K1 K2. apply in_del in K1. apply in_ins in K2. destruct K1, K2; [contradiction|]. eapply (I_dis _ _ _ _ _ H); eassumption.
      * intros K. apply in_del in K. destruct K. contradiction.
      * intros y Hy. apply in_ins in Hy. destruct Hy as [->|Hy]; auto.
    + constructor; auto.
      * unfold budget. usimp. rewrite (del_length b (fe p)) by (auto; apply (I_fend _ _ _ _ _ H)). lia.
      * intros y K1 K2. exfalso. auto.
      * intros K. contradiction.
  - apply has_not in Ef. csplit; auto.
    + pose proof (inv_push max [] Q c p k b (fe p) (se p) H Hb Hu) as K. rewrite set_fe_se in K.
      apply K; auto using incl_refl; try tauto; try apply H.
    + constructor; auto.
      * intros y K1 K2. exfalso. auto.
      * intros K. contradiction.
Qed.

(** An acquire of a block that holds nothing. *)
Lemma inv_reserve max Q c p k b : Inv max [] Q c p -> uns p <> [] -> b < nblk (base p) -> is_acq k = true -> hold p b = None ->
  exists q ok, reserve pick (put_meta p b (push p k b)) b = Ok (q, ok) /\ uns q = uns p /\ pseqn q = pseqn p /\ nblk (base q) = nblk (base p) /\
    (ok = true -> Inv max [] (Q ++ [(k, b)]) c q /\ budget p = S (budget q) /\
       (forall y, sops q y = if Nat.eqb y b then sops p y ++ [k] else sops p y) /\
       int (B q b) = None /\
       (forall y, int (B p y) <> None -> int (B q y) = None -> has_acq (sops p y) = false /\ y <> b) /\
       ext (B q b) = ext (B p b) /\ dirty (B q b) = dirty (B p b) /\
       exists m, sched q b = Some m /\ m_res m <> None /\ (forall g, m_giver m = (true, g) -> g <> b)) /\
    (ok = false -> q = put_meta p b (push p k b) /\ budget p = 0).
Proof.
  intros H Hu Hb Hk Hh.
  assert (Hi : int (B p b) = None) by (unfold hold in Hh; destruct (int (B p b)); [discriminate|reflexivity]).
  assert (Mr : m_read (push p k b) = None).
  { unfold push. destruct (sched p b) as [m|] eqn:Em; [|reflexivity]. cbn. eapply r_read; eassumption. }
  assert (Mg : fst (m_giver (push p k b)) = false).
  { unfold push. destruct (sched p b) as [m|] eqn:Em; [|reflexivity]. cbn. eapply no_hold_no_giver; eassumption. }
  unfold reserve, with_meta. usimp. rewrite upd_same.
  destruct (get_free (base p)) as [(s1, i)|] eqn:Eg.
  - destruct (get_free_ok _ _ _ Eg) as (G1 & G2 & G3 & G4 & G5 & G6 & G7 & G8 & G9).
    eexists. exists true. split; [reflexivity|]. usimp. csplit; auto; [|discriminate]. intros _. csplit.
    + eapply (inv_reserve_free max Q c p _ b i k (m_giver (push p k b))); usimp; auto.
      * rewrite upd_same. unfold set_res. rewrite Mr, push_ops. reflexivity.
      * intros y n. rewrite !upd_other by assumption. reflexivity.
      * intros y. rewrite G5. reflexivity.
    + unfold budget. usimp. lia.
    + intros y. unfold sops at 1. usimp. unfold upd. destruct (Nat.eqb_spec y b) as [->|n]; [|reflexivity].
      cbn [set_res m_ops]. apply push_ops.
    + rewrite G5. assumption.
    + intros y K1 K2. rewrite G5 in K2. contradiction.
    + rewrite G5. reflexivity.
    + rewrite G5. reflexivity.
    + exists (set_res (push p k b) (Some i)). rewrite upd_same. usimp. csplit; auto; [discriminate|].
      intros g E. rewrite E in Mg. discriminate.
  - apply get_free_none in Eg. destruct (pop_least (fe p)) as [(g, r)|] eqn:Ep.
    2:{ apply pop_least_none in Ep. eexists. exists false. split; [reflexivity|]. csplit; auto; [discriminate|].
        intros _. split; [reflexivity|]. unfold budget. rewrite Ep. cbn. lia. }
    apply pop_least_ok in Ep. destruct Ep as (Hg & ->).
    destruct (fe_ev H g Hg) as (Rg & Ev). destruct (ev_facts H g Ev) as (C1 & C2 & i & x & C3 & C4 & C5).
    unfold data in C5. rewrite C3 in C5.
    assert (Ne : g <> b) by (intros ->; congruence).
    assert (Wg : wq p g = None).
    { destruct (wq p g) as [w|] eqn:E; [|reflexivity]. exfalso. destruct (no_eager _ _ _ _ _ _ _ H Hu E) as (t & Et).
      destruct (I_w _ _ _ _ _ H g w E) as (_ & _ & _ & K). rewrite Et in K. destruct K as (m & K1 & K2 & _ & _ & K & _).
      destruct K as [K|[K|[]]]; [congruence|]. subst t.
      destruct (I_g _ _ _ _ _ H g m g K1 K2) as (_ & _ & _ & K3 & _). apply prec_has in K3.
      rewrite <- (I_ops _ _ _ _ _ H) in K3. pose proof (I_fe _ _ _ _ _ H g Hg) as K4. apply keep_no_acq in K4. congruence. }
    rewrite upd_other by assumption.
    assert (K0 : match sched p g with Some mg => keep (dirty (bk (put_meta p b (push p k b)) g)) (m_ops mg) | None => false end = false).
    { pose proof (I_fe _ _ _ _ _ H g Hg) as K. unfold sops in K. unfold bk. usimp. destruct (sched p g); [assumption|reflexivity]. }
    rewrite K0. clear K0. unfold schedule_write, bk. usimp.
    destruct (dirty (B p g)) eqn:Ed; cbn [negb].
    + assert (E : exists s1 e, match ext (B p g) with Some e => (base p, e) | None => new_ext pick (base p) end = (s1, e) /\
        remaining s1 = remaining (base p) /\ nalloc s1 = nalloc (base p) /\ free_i s1 = free_i (base p) /\ nblk s1 = nblk (base p) /\
        blk s1 = blk (base p) /\ free_s s1 = free_s (base p) /\ mem s1 = mem (base p) /\ disk s1 = disk (base p) /\
        (ext (B p g) = Some e /\ used s1 = used (base p) \/ ext (B p g) = None /\ used s1 = e :: used (base p) /\ ~ In e (used (base p)))).
      { destruct (ext (B p g)) as [e|].
        - exists (base p), e. csplit; auto.
        - eexists. eexists. split; [reflexivity|]. usimp. csplit; auto. }
      destruct E as (s1 & e & E & U1 & U2 & U3 & U4 & U5 & U6 & U7 & U8 & U9). rewrite E, C3, Wg. cbn [bind].
      assert (E2 : is_evictable (blk (set_b s1 g (mkSb (Some e) (Some i) false (rc (B p g)))) g) = true).
      { usimp. rewrite upd_same. unfold is_evictable, is_acquired, is_internal. cbn. rewrite C1. reflexivity. }
      rewrite (pdetach_ok pick _ g i); usimp; [|exact E2|rewrite upd_same; reflexivity|rewrite upd_same; reflexivity].
      rewrite upd_same. cbn [bind]. usimp. rewrite upd_same. usimp. rewrite upd_same. cbn [bind].
      eexists. exists true. split; [reflexivity|]. usimp. csplit; auto; [|discriminate]. intros _. csplit.
      * eapply (inv_reserve_evict max Q c p _ b i k (true, g)) with (g := g) (e := e); usimp; auto.
        -- rewrite upd_same. unfold set_res, set_giver. cbn [m_res m_giver m_read m_ops]. rewrite Mr, push_ops. reflexivity.
        -- intros y n. rewrite !upd_other by assumption. reflexivity.
        -- destruct U9 as [(V1 & V2)|(V1 & V2 & V3)]; [left|right]; auto.
        -- intros y. apply in_del.
        -- apply del_nodup, (I_fend _ _ _ _ _ H).
        -- rewrite Ed. reflexivity.
        -- rewrite upd_same. reflexivity.
        -- intros y n. rewrite !upd_other, U5 by assumption. reflexivity.
        -- rewrite upd_same, Ed. reflexivity.
        -- intros y n. rewrite !upd_other by assumption. reflexivity.
      * unfold budget. usimp. rewrite ?U1, ?U3. rewrite (del_length g (fe p)) by (auto; apply (I_fend _ _ _ _ _ H)). lia.
      * intros y. unfold sops at 1. usimp. unfold upd at 1 2. destruct (Nat.eqb_spec y b) as [->|n]; [|reflexivity].
        cbn [set_res set_giver m_ops]. apply push_ops.
      * rewrite !upd_other, U5 by auto. assumption.
      * intros y K1 K2. destruct (Nat.eq_dec y g) as [->|n].
        -- split; [|assumption]. eapply keep_no_acq. apply (I_fe _ _ _ _ _ H g Hg).
        -- rewrite !upd_other, U5 in K2 by auto. contradiction.
      * rewrite !upd_other, U5 by auto. reflexivity.
      * rewrite !upd_other, U5 by auto. reflexivity.
      * exists (set_res (set_giver (push p k b) (true, g)) (Some i)). rewrite upd_same. usimp. csplit; auto; [discriminate|].
        intros g' E'. injection E' as <-. assumption.
    + cbn [bind]. destruct C5 as (C5 & _). pose proof C5 as (e & Ee & _).
      rewrite (pdetach_ok pick _ g i); usimp; auto. cbn [bind]. usimp. rewrite upd_same.
      eexists. exists true. split; [reflexivity|]. usimp. csplit; auto; [|discriminate]. intros _. csplit.
      * eapply (inv_reserve_evict max Q c p _ b i k (false, g)) with (g := g) (e := e); usimp; auto.
        -- rewrite upd_same. unfold set_res, set_giver. cbn [m_res m_giver m_read m_ops]. rewrite Mr, push_ops. reflexivity.
        -- intros y n. rewrite !upd_other by assumption. reflexivity.
        -- intros y. apply in_del.
        -- apply del_nodup, (I_fend _ _ _ _ _ H).
        -- rewrite Ed. reflexivity.
        -- rewrite upd_same, Ee. reflexivity.
        -- intros y n. rewrite !upd_other by assumption. reflexivity.
        -- rewrite Ed. reflexivity.
      * unfold budget. usimp. rewrite (del_length g (fe p)) by (auto; apply (I_fend _ _ _ _ _ H)). lia.
      * intros y. unfold sops at 1. usimp. unfold upd at 1 2. destruct (Nat.eqb_spec y b) as [->|n]; [|reflexivity].
        cbn [set_res set_giver m_ops]. apply push_ops.
      * rewrite !upd_other by auto. assumption.
      * intros y K1 K2. destruct (Nat.eq_dec y g) as [->|n].
        -- split; [|assumption]. eapply keep_no_acq. apply (I_fe _ _ _ _ _ H g Hg).
        -- rewrite !upd_other in K2 by auto. contradiction.
      * rewrite !upd_other by auto. reflexivity.
      * rewrite !upd_other by auto. reflexivity.
      * exists (set_res (set_giver (push p k b) (false, g)) (Some i)). rewrite upd_same. usimp. csplit; auto; discriminate.
Qed.
End Oracles.
