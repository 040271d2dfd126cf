(** Waiting, and scheduling a read that needs no swap. *)
From Coq Require Import ZArith List Bool Lia Permutation Arith.
From Verif Require Import BsModel BsSpec BsProofs PfModel PfInv PfProofs1.
Import ListNotations.

(** What waiting and scheduling a read leave alone. *)
Record fr (p q : pst) : Prop := mkFr {
  fr_fe : fe q = fe p; fr_se : se q = se p; fr_seq : pseqn q = pseqn p; fr_uns : uns q = uns p;
  fr_free : free_i (base q) = free_i (base p);
  fr_rem : remaining (base q) = remaining (base p);
  fr_nal : nalloc (base q) = nalloc (base p);
  fr_nblk : nblk (base q) = nblk (base p);
  fr_frs : free_s (base q) = free_s (base p);
  fr_used : used (base q) = used (base p);
  fr_ops : forall b, sops q b = sops p b;
  fr_int : forall b, is_internal (B q b) = is_internal (B p b)
}.
Definition same_blk (p q : pst) : Prop := forall b, B q b = B p b.

Lemma fr_refl p : fr p p.
Proof. constructor; auto. Qed.
Lemma fr_trans p q r : fr p q -> fr q r -> fr p r.
Proof. intros [] []. constructor; try congruence; intros b; etransitivity; eauto. Qed.
Lemma io_fr p q : io p q -> fr p q.
Proof.
  intros []. constructor; auto.
  - intros b. specialize (io_sched b). unfold sops. destruct (sched p b), (sched q b); try tauto.
  - intros b. rewrite io_blk. reflexivity.
Qed.
Lemma io_same p q : io p q -> same_blk p q.
Proof. intros [] b. auto. Qed.
Lemma same_refl p : same_blk p p.
Proof. intros b. reflexivity. Qed.
Lemma same_trans p q r : same_blk p q -> same_blk q r -> same_blk p r.
Proof. intros H1 H2 b. rewrite H2. apply H1. Qed.
Lemma io_meta p q b m : io p q -> sched p b = Some m -> exists m', sched q b = Some m' /\
  m_res m' = m_res m /\ m_giver m' = m_giver m /\ m_ops m' = m_ops m /\ (m_read m <> None -> m_read m' = m_read m).
Proof. intros [] E. specialize (io_sched b). rewrite E in io_sched. destruct (sched q b) as [m'|]; [eauto|contradiction]. Qed.
Lemma io_w p q g w : io p q -> wq p g = Some w -> exists w', wq q g = Some w' /\
  w_buf w' = w_buf w /\ w_ext w' = w_ext w /\ w_shall w' = w_shall w /\ w_start w' = w_start w /\
  w_taker w' = w_taker w /\ ph_le (w_ph w) (w_ph w') /\ (wants w' = true -> wants w = true).
Proof. intros [] E. specialize (io_wq g). rewrite E in io_wq. destruct (wq q g) as [w'|]; [eauto|contradiction]. Qed.
Lemma io_none p q g : io p q -> wq p g = None -> wq q g = None.
Proof. intros [] E. specialize (io_wq g). rewrite E in io_wq. destruct (wq q g) as [w'|]; [contradiction|reflexivity]. Qed.

(** ** Waiting for a write *)

Definition rank (x : phase) : nat := match x with Queued => 0 | Written => 1 | Soon => 2 | Go => 3 | Over => 4 end.

Lemma inv_step max L Q c p g w a n : Inv max L Q c p -> wq p g = Some w -> n <= rank (w_ph w) ->
  nth_error [WT g; WS g; WC g; WO g] n = Some a ->
  exists q w', do_act p a = Ok q /\ Inv max L Q c q /\ io p q /\ wq q g = Some w' /\ S n <= rank (w_ph w').
Proof.
  intros H E N Ea. destruct (inv_act _ _ _ _ _ a H) as (q & Q1 & Q2 & Q3).
  destruct n as [|[|[|[|n]]]]; cbn in Ea; try (injection Ea as <-).
  5:{ destruct n; discriminate. }
  all: cbn [do_act] in *; rewrite E in *; destruct (w_ph w) eqn:Ep; cbn in N; try lia; exists q.
  all: try (injection Q1 as <-; exists w; rewrite Ep; cbn; csplit; auto; lia).
  - injection Q1 as <-. exists (set_ph w Written). unfold w_transfer in *. usimp. rewrite upd_same. csplit; auto.
  - injection Q1 as <-. exists (set_ph w Soon). unfold w_soon in *. usimp. rewrite upd_same. csplit; auto.
  - injection Q1 as <-. exists (set_ph w (if w_shall w then Go else Over)). unfold w_check in *. usimp. rewrite upd_same.
    csplit; auto. destruct (w_shall w); cbn; lia.
  - destruct (inv_WO _ _ _ _ _ _ _ H E Ep) as (q' & R1 & _ & _ & R4). assert (q' = q) by congruence. subst q'.
    exists (set_ph w Over). csplit; auto.
Qed.

Lemma inv_await max L Q c p g w : Inv max L Q c p -> wq p g = Some w ->
  exists q w', await_w p g = Ok q /\ Inv max L Q c q /\ io p q /\ wq q g = Some w' /\ w_ph w' = Over.
Proof.
  intros H E. unfold await_w. destruct (inv_env _ _ _ _ _ H) as (p1 & P1 & P2 & P3). rewrite P1. cbn [bind].
  destruct (io_w _ _ _ _ P3 E) as (w1 & W1 & _).
  destruct (inv_step _ _ _ _ _ _ _ _ 0 P2 W1 (Nat.le_0_l _) eq_refl) as (p2 & w2 & A1 & A2 & A3 & A4 & A5).
  destruct (inv_step _ _ _ _ _ _ _ _ 1 A2 A4 A5 eq_refl) as (p3 & w3 & B1 & B2 & B3 & B4 & B5).
  destruct (inv_step _ _ _ _ _ _ _ _ 2 B2 B4 B5 eq_refl) as (p4 & w4 & C1 & C2 & C3 & C4 & C5).
  destruct (inv_step _ _ _ _ _ _ _ _ 3 C2 C4 C5 eq_refl) as (p5 & w5 & D1 & D2 & D3 & D4 & D5).
  exists p5, w5. cbn [do_acts]. rewrite A1. cbn [bind]. rewrite B1. cbn [bind]. rewrite C1. cbn [bind]. rewrite D1. cbn [bind].
  csplit; auto.
  - eapply io_trans; [eassumption|]. eapply io_trans; [eassumption|]. eapply io_trans; [eassumption|]. eapply io_trans; eassumption.
  - destruct (w_ph w5); cbn in D5; try lia. reflexivity.
Qed.

Lemma inv_drop max L Q c p g w : Inv max L Q c p -> wq p g = Some w -> w_ph w = Over ->
  Inv max L Q c (drop_w p g).
Proof.
  intros H E N. pose proof H as H0. destruct H. constructor; usimp; auto.
  - intros b Hb. destruct (I_rng b Hb). split; [assumption|]. ucase; auto.
  - intros g' w' E'. ucase; [discriminate|].
    destruct (I_w g' w' E') as (A1 & A2 & A3 & A4). csplit; auto. destruct (w_taker w') as [t|].
    + destruct A4 as (m & T1 & T2 & T3 & T4 & T5 & T6 & T7). exists m. unfold taken. usimp.
      csplit; auto. intros Hs. destruct (T7 Hs) as (S1 & S2 & S3 & S4 & S5 & S6 & S7 & S8 & S9 & S10).
      csplit; auto. ucase; auto.
    + exact A4.
  - intros t m g' K1 K2. destruct (I_g t m g' K1 K2) as (A1 & A2 & A3 & A4 & A5). csplit; auto.
    intros w' E'. ucase; [discriminate|auto].
  - intros b m k K1 K2. destruct (I_r b m k K1 K2) as (r & A1 & A2 & A3 & A4 & A5 & A6 & A7 & A8 & A9 & A10).
    exists r. csplit; auto.
    + ucase; auto.
    + intros g' w' Eg E'. ucase; [discriminate|eauto].
  - intros b y K1 K2. specialize (I_data b y K1 K2). unfold data in *. usimp.
    assert (D : dsk p b y -> dsk (drop_w p g) b y).
    { intros (e & D1 & D2). exists e. split; [exact D1|]. usimp. ucase; [|assumption]. rewrite E in D2. apply D2. congruence. }
    destruct (int (B p b)) as [i|]; [|tauto]. destruct (dirty (B p b)); [assumption|].
    destruct I_data as (D1 & D2). split; [auto|]. destruct D2 as [D2|[D2|D2]]; auto. right. right.
    destruct D2 as [D2|(g' & w' & W1 & W2 & W3 & W4)]; [left; exact D2|right].
    exists g', w'. usimp. rewrite upd_other; [auto|]. intros ->. congruence.
Qed.

Lemma drop_fr p g : fr p (drop_w p g).
Proof. constructor; auto. Qed.

(** The sequence of the states: the request is over, then its entry is erased. *)
Lemma inv_wait_entry max L Q c p g w : Inv max L Q c p -> wq p g = Some w ->
  exists q w', wait_entry p g = Ok (drop_w q g) /\ Inv max L Q c q /\ Inv max L Q c (drop_w q g) /\ io p q /\
    wq q g = Some w' /\ w_ph w' = Over.
Proof.
  intros H E. destruct (inv_await _ _ _ _ _ _ _ H E) as (q & w' & Q1 & Q2 & Q3 & Q4 & Q5).
  exists q, w'. unfold wait_entry. rewrite Q1. cbn [bind]. csplit; auto. eapply inv_drop; eassumption.
Qed.

(** Meta data: the giver or the read may be reset. *)
Lemma inv_meta max L Q c p t m m' : Inv max L Q c p -> sched p t = Some m ->
  m_res m' = m_res m -> m_ops m' = m_ops m ->
  (m_giver m' = m_giver m \/
   fst (m_giver m') = false /\ (forall g w, m_giver m = (true, g) -> wq p g = Some w -> False)) ->
  (m_read m' = m_read m \/
   m_read m' = None /\ fst (m_giver m') = false /\
   (forall k r, m_read m = Some k -> rds p k = Some r -> r_done r = true)) ->
  Inv max L Q c (put_meta p t m').
Proof.
  intros H Et Hr Ho Hg Hd. pose proof H as H0. destruct H.
  assert (Sc : forall b m0, upd (sched p) t (Some m') b = Some m0 ->
      (b = t /\ m0 = m') \/ (b <> t /\ sched p b = Some m0)).
  { intros b' m0 E. ucase; [injection E as <-; left; auto|right; auto]. }
  assert (Hh : forall b, hold (put_meta p t m') b = hold p b).
  { intros b. unfold hold. usimp. destruct (int (B p b)); [reflexivity|]. ucase; [rewrite Et; assumption|reflexivity]. }
  assert (So : forall b, sops (put_meta p t m') b = sops p b).
  { intros b. unfold sops. usimp. ucase; [rewrite Et; assumption|reflexivity]. }
  assert (G1 : forall g, m_giver m' = (true, g) -> m_giver m = (true, g)).
  { intros g E. destruct Hg as [Hg|(Hg & _)]; [congruence|]. rewrite E in Hg. discriminate. }
  assert (G2 : forall k, m_read m' = Some k -> m_read m = Some k).
  { intros k E. destruct Hd as [Hd|(Hd & _)]; congruence. }
  constructor; usimp; auto.
  - intros j. rewrite (hl_ext _ (hold p) (hold _)) by (intros; apply Hh). apply I_cnt.
  - intros b m0 E N. destruct (Sc _ _ E) as [(-> & ->)|(n & E')]; [rewrite Hr|]; eauto.
  - intros b Hb. destruct (I_rng b Hb). split; [|assumption]. ucase; [congruence|assumption].
  - intros g w E. destruct (I_w g w E) as (A1 & A2 & A3 & A4). csplit; auto.
    destruct (w_taker w) as [t'|] eqn:Ew.
    + destruct A4 as (m0 & T1 & T2 & T3 & T4 & T5 & T6 & T7).
      exists (if Nat.eqb t' t then m' else m0). unfold taken. rewrite Hh, So. usimp.
      destruct (Nat.eqb_spec t' t) as [->|n].
      * rewrite Et in T1. injection T1 as <-. rewrite upd_same.
        destruct Hg as [Hg|(_ & Hg)]; [|exfalso; eauto].
        assert (Hd' : m_read m' = m_read m).
        { destruct Hd as [Hd|(_ & Hd & _)]; [assumption|]. rewrite Hg, T2 in Hd. discriminate. }
        rewrite Hd', Hg. csplit; auto.
      * rewrite upd_other by assumption. csplit; auto.
    + destruct A4 as (T1 & T2 & T3 & T4 & T5 & T6). unfold eager. rewrite So. usimp. csplit; auto.
  - intros t' m0 g E Eg. destruct (Sc _ _ E) as [(-> & ->)|(n & E')]; eauto.
  - intros b m0 k E Ek. rewrite So. destruct (Sc _ _ E) as [(-> & ->)|(n & E')].
    + destruct (I_r t m k Et (G2 _ Ek)) as (r & A1 & A2 & A3 & A4 & A5 & A6 & A7 & A8 & A9 & A10). exists r. csplit; auto.
      intros g w Eg. eauto.
    + destruct (I_r b m0 k E' Ek) as (r & A1 & A2 & A3 & A4 & A5 & A6 & A7 & A8 & A9 & A10). exists r. csplit; auto.
  - intros k r E D. destruct (I_k k r E D) as (b & m0 & K1 & K2). destruct (Nat.eq_dec b t) as [->|n].
    + exists t, m'. rewrite upd_same. split; [reflexivity|]. rewrite Et in K1. injection K1 as <-.
      destruct Hd as [Hd|(_ & _ & Hd)]; [congruence|]. specialize (Hd _ _ K2 E). congruence.
    + exists b, m0. rewrite upd_other by assumption. auto.
  - intros b1 b2 m1 m2 k E1 K1 E2 K2.
    destruct (Sc _ _ E1) as [(-> & ->)|(n1 & E1')], (Sc _ _ E2) as [(-> & ->)|(n2 & E2')]; eauto.
  - intros b y K1 K2. specialize (I_data b y K1 K2). unfold data in *. usimp.
    destruct (int (B p b)) as [j|]; [|exact I_data]. destruct (dirty (B p b)); [exact I_data|].
    destruct I_data as (D1 & D2). split; [exact D1|]. destruct D2 as [D2|[D2|D2]]; auto. right. right.
    destruct D2 as [(m0 & k & r & W1 & W2 & W3 & W4)|D2]; [left|right; exact D2].
    destruct (Nat.eq_dec b t) as [->|n].
    + rewrite Et in W1. injection W1 as <-. exists m', k, r. usimp. rewrite upd_same. csplit; auto.
      destruct Hd as [Hd|(_ & _ & Hd)]; [congruence|]. specialize (Hd _ _ W2 W3). congruence.
    + exists m0, k, r. usimp. rewrite upd_other by assumption. auto.
  - intros b. rewrite So. auto.
  - intros b m0 E. destruct (Sc _ _ E) as [(-> & ->)|(n & E')]; [rewrite Ho|]; eauto.
  - intros b Hb. rewrite So. auto.
  - intros b Hb. rewrite So. auto.
  - intros b m0 E N. destruct (Sc _ _ E) as [(-> & ->)|(n & E')]; [rewrite Ho; rewrite Hr in N|]; eauto.
  - intros b Hb. rewrite So in Hb. rewrite Hh. auto.
  - intros b Hb. rewrite So. auto.
Qed.

Lemma meta_fr p t m m' : sched p t = Some m -> m_ops m' = m_ops m -> fr p (put_meta p t m').
Proof.
  intros E Eo. constructor; usimp; auto. intros b. unfold sops. usimp. ucase; [rewrite E; assumption|reflexivity].
Qed.

Lemma inv_wait_id max L Q c p g : Inv max L Q c p ->
  exists q, wait_id p g = Ok q /\ Inv max L Q c q /\ fr p q /\ same_blk p q /\ wq q g = None /\
    (forall t m, sched p t = Some m -> exists m', sched q t = Some m' /\ m_res m' = m_res m /\
       m_giver m' = m_giver m /\ m_ops m' = m_ops m /\ (m_read m <> None -> m_read m' = m_read m)) /\
    (forall t, sched p t = None -> sched q t = None) /\ (forall t, wq p t = None -> wq q t = None).
Proof.
  intros H. unfold wait_id. destruct (wq p g) as [w|] eqn:E.
  - destruct (inv_wait_entry _ _ _ _ _ _ _ H E) as (q & w' & Q1 & Q2 & Q3 & Q4 & Q5 & Q6). exists (drop_w q g).
    csplit; auto.
    + eapply fr_trans; [apply io_fr; eassumption|apply drop_fr].
    + apply io_same in Q4. intros b. apply Q4.
    + usimp. apply upd_same.
    + intros t m Et. usimp. eapply io_meta; eassumption.
    + intros t Et. usimp. destruct Q4. specialize (io_sched t). rewrite Et in io_sched. destruct (sched q t); [contradiction|reflexivity].
    + intros t Et. usimp. ucase; [reflexivity|]. eapply io_none; eassumption.
  - exists p. csplit; auto using fr_refl, same_refl. intros t m Et. exists m. auto.
Qed.

Lemma inv_wait_giver max L Q c p t m : Inv max L Q c p -> sched p t = Some m ->
  exists q m', wait_giver p t = Ok q /\ Inv max L Q c q /\ fr p q /\ same_blk p q /\
    sched q t = Some m' /\ fst (m_giver m') = false /\ m_res m' = m_res m /\ m_ops m' = m_ops m /\
    (forall t, sched p t = None -> sched q t = None) /\ (forall t, wq p t = None -> wq q t = None).
Proof.
  intros H E. unfold wait_giver, with_meta. rewrite E. destruct (fst (m_giver m)) eqn:Eg.
  - destruct (inv_wait_id _ _ _ _ _ (snd (m_giver m)) H) as (q & Q1 & Q2 & Q3 & Q4 & Q5 & Q6 & Q7 & Q8).
    rewrite Q1. cbn [bind]. destruct (Q6 t m E) as (m' & M1 & M2 & M3 & M4 & M5). rewrite M1.
    eexists. exists (set_giver m' (false, snd (m_giver m'))). split; [reflexivity|]. csplit; auto.
    + eapply inv_meta; eauto. right. split; [reflexivity|]. intros g w Eg' Ew.
      rewrite M3 in Eg'. rewrite Eg' in Q5. cbn in Q5. congruence.
    + eapply fr_trans; [eassumption|]. eapply meta_fr; eauto.
    + usimp. apply upd_same.
    + intros t' Et. usimp. rewrite upd_other; [auto|]. intros ->. congruence.
  - exists p, m. csplit; auto using fr_refl, same_refl.
Qed.

Lemma inv_await_r max L Q c p k : Inv max L Q c p -> exists q, await_r p k = Ok q /\ Inv max L Q c q /\ io p q /\
  (forall r, rds q k = Some r -> r_done r = true).
Proof.
  intros H. unfold await_r. destruct (inv_env _ _ _ _ _ H) as (p1 & P1 & P2 & P3). rewrite P1. cbn [bind].
  destruct (inv_act _ _ _ _ _ (RT k) P2) as (q & Q1 & Q2 & Q3). exists q. csplit; auto.
  - eapply io_trans; eassumption.
  - cbn [do_act] in Q1. destruct (rds p1 k) as [r|] eqn:E.
    + destruct (r_done r) eqn:D.
      * injection Q1 as <-. intros r' E'. congruence.
      * injection Q1 as <-. unfold r_transfer. usimp. rewrite upd_same. intros r' E'. injection E' as <-. reflexivity.
    + injection Q1 as <-. congruence.
Qed.

Lemma inv_wait_on_read max L Q c p t m : Inv max L Q c p -> sched p t = Some m ->
  exists q m', wait_on_read p t = Ok q /\ Inv max L Q c q /\ fr p q /\ same_blk p q /\
    sched q t = Some m' /\ fst (m_giver m') = false /\ m_read m' = None /\ m_res m' = m_res m /\ m_ops m' = m_ops m /\
    (forall t, sched p t = None -> sched q t = None) /\ (forall t, wq p t = None -> wq q t = None).
Proof.
  intros H E. destruct (inv_wait_giver _ _ _ _ _ _ _ H E) as (p1 & m1 & P1 & P2 & P3 & P4 & P5 & P6 & P7 & P8 & P9 & P10).
  unfold wait_on_read. rewrite P1. cbn [bind]. unfold with_meta. rewrite P5. destruct (m_read m1) as [k|] eqn:Er.
  - destruct (inv_await_r _ _ _ _ _ k P2) as (q & Q1 & Q2 & Q3 & Q4). rewrite Q1. cbn [bind].
    destruct (io_meta _ _ _ _ Q3 P5) as (m2 & M1 & M2 & M3 & M4 & M5). rewrite M1.
    eexists. exists (set_read m2 None). split; [reflexivity|]. csplit; auto.
    + eapply inv_meta; eauto. right. csplit; auto; [cbn; congruence|]. intros k' r Ek Ek2.
      rewrite M5 in Ek by congruence. assert (k' = k) by congruence. subst k'. eauto.
    + eapply fr_trans; [eassumption|]. eapply fr_trans; [apply io_fr; eassumption|]. eapply meta_fr; eauto.
    + intros b'. usimp. etransitivity; [apply (io_same _ _ Q3)|]. apply P4.
    + usimp. apply upd_same.
    + usimp. congruence.
    + usimp. congruence.
    + usimp. congruence.
    + intros t' Et. usimp. apply P9 in Et. destruct Q3. specialize (io_sched t'). rewrite Et in io_sched.
      rewrite upd_other; [destruct (sched q t'); [contradiction|reflexivity]|]. intros ->. congruence.
    + intros t' Et. usimp. eapply io_none; [eassumption|]. auto.
  - exists p1, m1. csplit; auto.
Qed.

(** ** Limbo *)

Lemma inv_unlim max L L' Q c p b : Inv max L Q c p -> incl L' L -> (forall x, In x L -> x <> b -> In x L') ->
  (forall i x, int (B p b) = Some i -> val (vw c b) = Some x -> mem (base p) i = x \/ reading p b) ->
  (forall g w, wq p g = Some w -> w_taker w = Some b -> wants w = true \/ b = g \/ In b L') ->
  (forall g w, wq p g = Some w -> w_taker w = Some b -> w_ph w = Go -> w_shall w = true \/ In b L') ->
  wq p b = None -> Inv max L' Q c p.
Proof.
  intros H HL1 HL2 HD Ht Hgo Hw. pose proof H as H0. destruct H.
  constructor; auto.
  - intros g w E. destruct (I_w g w E) as (A1 & A2 & A3 & A4). csplit; auto. destruct (w_taker w) as [t|] eqn:Ew.
    + destruct A4 as (m & T1 & T2 & T3 & T4 & T5 & T6 & T7). exists m. unfold taken. csplit; auto.
      * destruct T5 as [T|[T|T]]; auto. right; right. apply HL2; [assumption|]. intros ->. congruence.
      * intros N. destruct (Nat.eq_dec t b) as [->|n]; [eauto|]. destruct (T6 N) as [T|[T|T]]; auto.
      * intros Hs. destruct (T7 Hs) as (S1 & S2 & S3 & S4 & S5 & S6 & S7 & S8 & S9 & S10). csplit; auto.
        intros N. destruct (Nat.eq_dec t b) as [->|n]; [eauto|]. destruct (S10 N); auto.
    + exact A4.
  - intros b' y K1 K2. specialize (I_data b' y K1 K2). unfold data in *.
    destruct (int (B p b')) as [j|] eqn:Ej; [|exact I_data]. destruct (dirty (B p b')); [exact I_data|].
    destruct I_data as (D1 & D2). split; [exact D1|]. destruct (Nat.eq_dec b' b) as [->|n].
    + right. apply HD; assumption.
    + destruct D2 as [D2|[D2|D2]]; auto.
Qed.

(** Changing what the handler shall do. *)
Lemma inv_w_change max L L' Q c p g w w' : Inv max L Q c p -> wq p g = Some w ->
  w_buf w' = w_buf w -> w_ext w' = w_ext w -> w_ph w' = w_ph w -> w_taker w' = w_taker w ->
  incl L L' -> (forall b, In b L' -> lim_ok p b) ->
  (forall t, w_taker w = Some t -> wants w' = true ->
     w_start w' = t /\ int (B p t) <> None /\ t <> g /\ wq p t = None /\ dirty (B p t) = false /\
     ext (B p t) <> None /\ In t (se p) /\ nxt_acq (sops p t) = true /\
     (forall m, sched p t = Some m -> w_ph w <> Over -> m_read m = None)) ->
  (w_taker w = None -> wants w' = false) ->
  (wants w = true -> wants w' = false -> forall t, w_taker w = Some t -> In t L') ->
  (forall t, w_taker w = Some t -> w_ph w = Go -> w_shall w' = true \/ In t L') ->
  Inv max L' Q c (put_w p g w').
Proof.
  intros H E Eb Ee Ep Et HL HL2 Hs Hn Hi Hgo. pose proof H as H0. destruct H. constructor; usimp; auto.
  - intros b Hb. destruct (I_rng b Hb). split; [assumption|]. ucase; [congruence|assumption].
  - intros g' w0 E'. ucase.
    + injection E' as <-. destruct (I_w g w E) as (A1 & A2 & A3 & A4). rewrite Ee, Et. csplit; auto.
      destruct (w_taker w) as [t|] eqn:Ew.
      * destruct A4 as (m & T1 & T2 & T3 & T4 & T5 & T6 & T7). exists m. unfold taken. usimp. rewrite Eb.
        csplit; auto.
        -- intuition.
        -- intros N. destruct (wants w') eqn:Es; [auto|]. destruct (T6 N) as [T|[T|T]]; auto.
        -- intros Es. destruct (Hs t eq_refl Es) as (S1 & S2 & S3 & S4 & S5 & S6 & S7 & S8 & S9).
           rewrite Ep. csplit; auto. ucase; [contradiction|assumption].
      * destruct A4 as (T1 & T2 & T3 & T4 & T5 & T6). unfold eager. usimp. rewrite Eb. csplit; auto.
    + destruct (I_w g' w0 E') as (A1 & A2 & A3 & A4). csplit; auto.
      destruct (w_taker w0) as [t|].
      * destruct A4 as (m & T1 & T2 & T3 & T4 & T5 & T6 & T7). exists m. unfold taken. usimp.
        csplit; auto; [intuition|intuition|]. intros Es. destruct (T7 Es) as (S1 & S2 & S3 & S4 & S5 & S6 & S7 & S8 & S9 & S10).
        csplit; auto; [ucase; [congruence|assumption]|]. intros N. destruct (S10 N); auto.
      * exact A4.
  - intros t m g' K1 K2. destruct (I_g t m g' K1 K2) as (A1 & A2 & A3 & A4 & A5). csplit; auto.
    intros w0 E'. ucase; [injection E' as <-; rewrite Et; auto|auto].
  - intros b m k K1 K2. destruct (I_r b m k K1 K2) as (r & A1 & A2 & A3 & A4 & A5 & A6 & A7 & A8 & A9 & A10).
    exists r. csplit; auto.
    + ucase; [congruence|assumption].
    + intros g' w0 Eg E'. ucase; [|eauto]. injection E' as <-. rewrite Ep. eauto.
  - intros b y K1 K2. specialize (I_data b y K1 K2). unfold data in *. usimp.
    assert (D : dsk p b y -> dsk (put_w p g w') b y).
    { intros (e & D1 & D2). exists e. split; [exact D1|]. usimp. ucase; [|assumption]. rewrite E in D2. rewrite Ep. auto. }
    destruct (int (B p b)) as [i|]; [|tauto]. destruct (dirty (B p b)); [assumption|].
    destruct I_data as (D1 & D2). split; [auto|]. destruct D2 as [D2|[D2|D2]]; auto.
    destruct D2 as [D2|(g' & w0 & W1 & W2 & W3 & W4)]; [right; right; left; exact D2|].
    destruct (Nat.eq_dec g' g) as [->|n].
    + rewrite E in W1. injection W1 as <-. destruct (wants w') eqn:Es; [|left; auto].
      right. right. right. exists g, w'. usimp. rewrite upd_same. csplit; auto; congruence.
    + right. right. right. exists g', w0. usimp. rewrite upd_other by assumption. auto.
Qed.

Lemma put_w_fr p g w : fr p (put_w p g w).
Proof. constructor; auto. Qed.

(** ** Starting a read now or after the write of the giver *)

Lemma inv_start_or_after max L L' Q c p b m : Inv max L Q c p -> In b L -> incl L' L ->
  (forall x, In x L -> x <> b -> In x L') ->
  sched p b = Some m -> m_read m = None -> wq p b = None ->
  exists q, start_or_after p b = Ok q /\ Inv max L' Q c q /\ fr p q /\ same_blk p q.
Proof.
  intros H Hb HL1 HL2 Em Er Hw. pose proof (I_lim _ _ _ _ _ H b Hb) as Lb.
  destruct Lb as (Lb1 & Lb2 & Lb3).
  destruct (se_clean H b Lb1 Lb2) as (i & e & x & C1 & C2 & C3 & C4 & C5 & _).
  unfold start_or_after, with_meta. rewrite Em. destruct (m_giver m) as (fg, g) eqn:Eg. cbn [fst snd].
  (* no request has [b] as its taker unless the giver is set *)
  assert (NT : forall p m L, Inv max L Q c p -> sched p b = Some m -> fst (m_giver m) = false ->
               forall g w, wq p g = Some w -> w_taker w = Some b -> False).
  { clear. intros p m L H Em Eg g w E Et. destruct (I_w _ _ _ _ _ H g w E) as (_ & _ & _ & K). rewrite Et in K.
    destruct K as (m' & K1 & K2 & _). rewrite Em in K1. injection K1 as <-. rewrite K2 in Eg. discriminate. }
  assert (ST : forall p m, Inv max L Q c p -> sched p b = Some m -> m_read m = None -> fst (m_giver m) = false ->
             lim_ok p b -> wq p b = None ->
             exists q, start_read p b b = Ok q /\ Inv max L' Q c q /\ fr p q /\ same_blk p q).
  { clear - HL1 HL2 NT. intros p m H Em Er Eg Lb Hw.
    destruct (inv_start_read _ L L' Q c p b m H) as (q & Q1 & Q2 & Q3 & _); auto.
    - intros g w E. rewrite E in Eg. discriminate.
    - intros g w E Et. exfalso. eapply NT; eassumption.
    - exists q. csplit; auto using io_fr, io_same. }
  destruct fg.
  2:{ apply (ST p m); auto; [rewrite Eg; reflexivity|split; auto]. }
  destruct (wq p g) as [w|] eqn:Ew.
  2:{ assert (H1 : Inv max L Q c (put_meta p b (set_giver m (false, g)))).
      { eapply inv_meta; eauto. right. split; [reflexivity|]. intros g' w' E' Ew'. congruence. }
      destruct (ST _ (set_giver m (false, g)) H1) as (q & Q1 & Q2 & Q3 & Q4); auto.
      - usimp. apply upd_same.
      - split; [exact Lb1|]. split; [exact Lb2|]. unfold sops. usimp. rewrite upd_same. unfold sops in Lb3. rewrite Em in Lb3. exact Lb3.
      - exists q. csplit; auto. eapply fr_trans; [|eassumption]. eapply meta_fr; eauto. }
  destruct (I_g _ _ _ _ _ H b m g Em Eg) as (G1 & G2 & G3 & G4 & G5). specialize (G5 w Ew).
  assert (n : b <> g) by (intros ->; congruence).
  set (w' := set_shall (set_taker (set_start w b) (Some b)) true).
  assert (H1 : Inv max L Q c (put_w p g w')).
  { apply (inv_w_change _ L L Q c p g w w'); auto using incl_refl.
    - apply (I_lim _ _ _ _ _ H).
    - intros t Et _. assert (t = b) by congruence. subst t. csplit; auto; try congruence.
    - congruence.
    - discriminate. }
  destruct (inv_env _ _ _ _ _ H1) as (p1 & P1 & P2 & P3). rewrite P1. cbn [bind].
  assert (E1 : wq (put_w p g w') g = Some w') by (usimp; apply upd_same).
  destruct (io_w _ _ _ _ P3 E1) as (w1 & W1 & W2 & W3 & W4 & W5 & W6 & W7). rewrite W1.
  assert (Em' : sched (put_w p g w') b = Some m) by exact Em.
  destruct (io_meta _ _ _ _ P3 Em') as (m1 & M1 & M2 & M3 & M4 & M5).
  assert (F1 : fr p p1) by (eapply fr_trans; [apply put_w_fr|apply io_fr; eassumption]).
  assert (S1 : same_blk p p1) by (apply io_same in P3; intros b'; apply P3).
  assert (Hw1 : wq p1 b = None).
  { eapply io_none; [eassumption|]. usimp. rewrite upd_other; assumption. }
  destruct (done_soon w1) eqn:Ed.
  2:{ assert (Wn : wants w1 = true) by (unfold wants; rewrite W4; reflexivity).
      exists p1. csplit; auto. eapply inv_unlim; eauto.
      - intros i' x' _ _. right. right. exists g, w1. rewrite W6. csplit; auto. unfold done_soon in Ed.
        intros K. rewrite K in Ed. discriminate.
      - intros g' w0 E0 Et. left. destruct (I_w _ _ _ _ _ P2 g' w0 E0) as (_ & _ & _ & K). rewrite Et in K.
        destruct K as (m' & K1 & K2 & _). rewrite M1 in K1. injection K1 as <-. rewrite M3, Eg in K2. injection K2 as <-.
        rewrite W1 in E0. injection E0 as <-. assumption.
      - intros g' w0 E0 Et Eo. left. destruct (I_w _ _ _ _ _ P2 g' w0 E0) as (_ & _ & _ & K). rewrite Et in K.
        destruct K as (m' & K1 & K2 & _). rewrite M1 in K1. injection K1 as <-. rewrite M3, Eg in K2. injection K2 as <-.
        rewrite W1 in E0. injection E0 as <-. rewrite W4. reflexivity. }
  destruct (inv_wait_entry _ _ _ _ _ _ _ P2 W1) as (q & w2 & Q1 & Q2 & Q3 & Q4 & Q5 & Q6). rewrite Q1. cbn [bind].
  destruct (io_meta _ _ _ _ Q4 M1) as (m2 & R1 & R2 & R3 & R4 & R5).
  usimp. rewrite R1.
  assert (H3 : Inv max L Q c (put_meta (drop_w q g) b (set_giver m2 (false, g)))).
  { eapply inv_meta; eauto. right. split; [reflexivity|]. intros g' w0 E' Ew'. rewrite R3, M3, Eg in E'.
    injection E' as <-. usimp. rewrite upd_same in Ew'. discriminate. }
  assert (Hw3 : wq (drop_w q g) b = None).
  { usimp. rewrite upd_other by assumption. eapply io_none; eassumption. }
  assert (F3 : fr p (put_meta (drop_w q g) b (set_giver m2 (false, g)))).
  { eapply fr_trans; [exact F1|]. eapply fr_trans; [apply io_fr; exact Q4|]. eapply fr_trans; [apply drop_fr|].
    eapply meta_fr; [exact R1|reflexivity]. }
  assert (S3 : same_blk p (put_meta (drop_w q g) b (set_giver m2 (false, g)))).
  { intros b'. usimp. etransitivity; [apply (io_same _ _ Q4)|]. apply S1. }
  assert (Em3 : sched (put_meta (drop_w q g) b (set_giver m2 (false, g))) b = Some (set_giver m2 (false, g))) by (usimp; apply upd_same).
  assert (Lb' : lim_ok (put_meta (drop_w q g) b (set_giver m2 (false, g))) b).
  { apply (I_lim _ _ _ _ _ H3). assumption. }
  destruct (m_read m2) as [k|] eqn:Ek.
  - eexists. split; [reflexivity|]. csplit; auto. eapply inv_unlim; eauto.
    + intros i' x' Hi Hx. destruct (I_r _ _ _ _ _ H3 b _ k Em3) as (r & A1 & A2 & A3 & A4 & A5 & A6 & A7 & A8 & A9 & A10).
      { usimp. assumption. }
      destruct (r_done r) eqn:Er'.
      * left. rewrite A2 in Hi. injection Hi as <-. auto.
      * right. left. eauto 8.
  - destruct (ST _ _ H3 Em3) as (q' & T1 & T2 & T3 & T4); auto.
    exists q'. csplit; auto; [eapply fr_trans; eassumption|eapply same_trans; eassumption].
Qed.
