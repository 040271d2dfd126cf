(** The steps of the I/O threads preserve the invariant. *)
From Coq Require Import ZArith List Bool Lia Permutation Arith.
From Verif Require Import BsModel BsSpec BsProofs PfModel PfInv.
Import ListNotations.

Ltac csplit := repeat match goal with |- _ /\ _ => split end.
Ltac usimp := cbn [base fe se sched wq rds nrd pseqn uns orc set_base set_fe set_se set_sched set_wq set_rds
  set_seq set_uns set_orc put_meta put_w drop_w
  remaining nalloc free_i nblk blk free_s al mem disk used ncall set_free_i set_b set_free_s set_al set_mem set_disk set_used
  w_buf w_ext w_ph w_shall w_start w_taker set_ph set_shall set_start set_taker
  m_res m_giver m_read m_ops set_res set_giver set_read set_ops r_buf r_ext r_done
  ext int dirty rc fst snd] in *.
(** Case distinction on an updated function. *)
Ltac ucase :=
  match goal with
  | H : context[upd ?f ?a ?v ?x] |- _ => unfold upd in H; destruct (Nat.eqb_spec x a); subst
  | |- context[upd ?f ?a ?v ?x] => unfold upd; destruct (Nat.eqb_spec x a); subst
  end.

Section Facts.
Context {max : nat} {L : list nat} {Q : list (pop_kind * nat)} {c : client} {p : pst}.
Hypothesis H : Inv max L Q c p.

Lemma out_of_range b : nblk (base p) <= b -> B p b = sb_new /\ sched p b = None /\ wq p b = None.
Proof.
  intros Hb. destruct (I_rng _ _ _ _ _ H b Hb) as (E1 & E2). csplit; auto.
  apply (I_new _ _ _ _ _ H). destruct (live c b) eqn:E; [|reflexivity].
  apply (I_live _ _ _ _ _ H) in E. lia.
Qed.
Lemma sched_rng b m : sched p b = Some m -> b < nblk (base p).
Proof. intros E. destruct (Nat.lt_ge_cases b (nblk (base p))); [assumption|]. destruct (out_of_range b) as (_ & E2 & _); [assumption|congruence]. Qed.
Lemma wq_rng b w : wq p b = Some w -> b < nblk (base p).
Proof. intros E. destruct (Nat.lt_ge_cases b (nblk (base p))); [assumption|]. destruct (out_of_range b) as (_ & _ & E2); [assumption|congruence]. Qed.
Lemma hold_rng b i : hold p b = Some i -> b < nblk (base p).
Proof.
  intros E. destruct (Nat.lt_ge_cases b (nblk (base p))) as [|K]; [assumption|].
  destruct (out_of_range b K) as (E1 & E2 & _). unfold hold in E. rewrite E1, E2 in E. discriminate.
Qed.
Lemma hold_int b i : int (B p b) = Some i -> hold p b = Some i.
Proof. intros E. unfold hold. rewrite E. reflexivity. Qed.
Lemma hold_res b m : sched p b = Some m -> int (B p b) = None -> hold p b = m_res m.
Proof. intros E E2. unfold hold. rewrite E2, E. reflexivity. Qed.
Lemma hold_uniq b b' i : hold p b = Some i -> hold p b' = Some i -> b = b'.
Proof.
  intros E1 E2. destruct (Nat.eq_dec b b') as [|n]; [assumption|exfalso].
  pose proof (hl_two _ _ b b' i (hold_rng _ _ E1) (hold_rng _ _ E2) n E1 E2) as K.
  pose proof (I_cnt _ _ _ _ _ H i) as K2. destruct (Nat.ltb i (nalloc (base p))); lia.
Qed.
Lemma int_uniq b b' i : int (B p b) = Some i -> int (B p b') = Some i -> b = b'.
Proof. intros E1 E2. eapply hold_uniq; apply hold_int; eassumption. Qed.
Lemma w_val g w : wq p g = Some w -> refs (vw c g) = 0 /\ exists x, val (vw c g) = Some x.
Proof.
  intros E. destruct (I_w _ _ _ _ _ H g w E) as (E1 & _ & E2 & _). rewrite (I_rc _ _ _ _ _ H) in E1.
  split; [assumption|]. destruct (val (vw c g)) as [x|] eqn:Ev; [eauto|].
  rewrite (I_un _ _ _ _ _ H g E1 Ev) in E2. discriminate.
Qed.
Lemma ev_facts b : is_evictable (B p b) = true -> rc (B p b) = 0 /\ refs (vw c b) = 0 /\
  exists i x, int (B p b) = Some i /\ val (vw c b) = Some x /\ data L p b x.
Proof.
  intros E. unfold is_evictable, is_acquired, is_internal in E. apply andb_true_iff in E. destruct E as (E1 & E2).
  apply negb_true_iff, Nat.ltb_ge in E1. assert (E0 : rc (B p b) = 0) by lia.
  split; [assumption|]. assert (Er : refs (vw c b) = 0) by (rewrite <- (I_rc _ _ _ _ _ H); assumption).
  split; [assumption|]. destruct (int (B p b)) as [i|] eqn:Ei; [|discriminate].
  destruct (val (vw c b)) as [x|] eqn:Ev.
  - exists i, x. csplit; auto. apply (I_data _ _ _ _ _ H); assumption.
  - rewrite (I_un _ _ _ _ _ H b Er Ev) in Ei. discriminate.
Qed.
Lemma se_ev b : In b (se p) -> b < nblk (base p) /\ is_evictable (B p b) = true.
Proof. intros E. apply (I_ev _ _ _ _ _ H). right; assumption. Qed.
Lemma fe_ev b : In b (fe p) -> b < nblk (base p) /\ is_evictable (B p b) = true.
Proof. intros E. apply (I_ev _ _ _ _ _ H). left; assumption. Qed.
Lemma se_facts b : In b (se p) -> rc (B p b) = 0 /\ refs (vw c b) = 0 /\
  exists i x, int (B p b) = Some i /\ val (vw c b) = Some x /\ data L p b x.
Proof. intros E. apply ev_facts. apply se_ev. assumption. Qed.
Lemma se_clean b : In b (se p) -> dirty (B p b) = false -> exists i e x,
  int (B p b) = Some i /\ ext (B p b) = Some e /\ refs (vw c b) = 0 /\ val (vw c b) = Some x /\ dsk p b x /\
  (In b L \/ mem (base p) i = x \/ reading p b).
Proof.
  intros Hs Hd. destruct (se_facts b Hs) as (_ & Hr & i & x & Hi & Hv & HD).
  unfold data in HD. rewrite Hi, Hd in HD. destruct HD as (D1 & D2). pose proof D1 as (e & De & _).
  exists i, e, x. csplit; auto.
Qed.
(** The request of a taker that does not read yet has its data in the buffer. *)
Lemma queued_mem g w x : wq p g = Some w -> w_ph w <> Over -> val (vw c g) = Some x ->
  mem (base p) (w_buf w) = x \/ exists t m k, sched p t = Some m /\ m_read m = Some k /\ m_giver m = (true, g).
Proof.
  intros E N Ev. destruct (I_w _ _ _ _ _ H g w E) as (_ & _ & _ & K). destruct (w_taker w) as [t|].
  - destruct K as (m & K1 & K2 & K3 & K4 & _). destruct (m_read m) as [k|] eqn:Em; [right; eauto 6|left; auto].
  - left. apply K. assumption.
Qed.
Lemma not_over_mem g w x : wq p g = Some w -> w_ph w <> Over -> val (vw c g) = Some x -> mem (base p) (w_buf w) = x.
Proof.
  intros E N Ev. destruct (queued_mem g w x E N Ev) as [K|(t & m & k & K1 & K2 & K3)]; [assumption|exfalso].
  destruct (I_r _ _ _ _ _ H t m k K1 K2) as (r & _ & _ & _ & _ & _ & _ & _ & _ & K & _). apply N. eapply K; eassumption.
Qed.
End Facts.

Lemma inv_orc max L Q c p o : Inv max L Q c p -> Inv max L Q c (set_orc p o).
Proof. intros []. constructor; assumption. Qed.

(** ** The phase of a write *)

Definition lim_ok (p : pst) (b : nat) : Prop :=
  In b (se p) /\ dirty (B p b) = false /\ nxt_acq (sops p b) = true.

Lemma inv_phase max L L' Q c p g w x : Inv max L Q c p -> wq p g = Some w -> w_ph w <> Queued -> w_ph w <> Over ->
  x <> Queued -> incl L L' -> (forall b, In b L' -> lim_ok p b) ->
  (x = Over -> wants w = true -> exists t, w_taker w = Some t /\ In t L') ->
  (x = Go -> w_shall w = true) -> (w_ph w = Go -> x = Over) -> Inv max L' Q c (put_w p g (set_ph w x)).
Proof.
  intros H E N1 N2 Nx HL HL2 Hx Hg Hg2. pose proof H as H0.
  assert (Wa : wants (set_ph w x) = true -> wants w = true).
  { unfold wants. usimp. intros K. apply orb_true_iff in K. destruct K as [K|K]; [rewrite K; reflexivity|].
    destruct x; try discriminate. rewrite Hg; reflexivity. }
  assert (Wb : wants w = true -> x <> Over -> wants (set_ph w x) = true).
  { unfold wants. usimp. intros K Kx. apply orb_true_iff in K. destruct K as [K|K]; [rewrite K; reflexivity|].
    destruct (w_ph w); try discriminate. contradiction Kx; auto. }
  destruct H. constructor; usimp; auto.
  - intros b Hb. split; [apply I_rng; assumption|]. ucase; [|apply I_rng; assumption].
    apply I_rng in Hb. destruct Hb. congruence.
  - (* I_w *)
    intros g' w' E'. ucase.
    + injection E' as <-. usimp. destruct (I_w g w E) as (A1 & A2 & A3 & A4). csplit; auto.
      destruct (w_taker w) as [t|].
      * destruct A4 as (m & T1 & T2 & T3 & T4 & T5 & T6 & T7). exists m. unfold taken. usimp.
        csplit; auto; [intuition| |].
        { intros K. destruct (T6 K) as [K2|[K2|K2]]; auto. assert (Dx : x = Over \/ x <> Over) by (destruct x; auto; right; discriminate).
          destruct Dx as [->|Nx']; [|auto]. destruct (Hx eq_refl K2) as (t' & Et & It). injection Et as <-. auto. }
        intros Hs. destruct (T7 (Wa Hs)) as (S1 & S2 & S3 & S4 & S5 & S6 & S7 & S8 & S9 & S10).
        csplit; auto.
        ucase; [contradiction|assumption].
      * destruct A4 as (A0 & A4). split; [|exact A4]. destruct (wants (set_ph w x)) eqn:K; [|reflexivity]. rewrite (Wa eq_refl) in A0. discriminate.
    + destruct (I_w g' w' E') as (A1 & A2 & A3 & A4). csplit; auto.
      destruct (w_taker w') as [t|].
      * destruct A4 as (m & T1 & T2 & T3 & T4 & T5 & T6 & T7). exists m. unfold taken. usimp.
        csplit; auto; [intuition|intuition|]. intros Hs. destruct (T7 Hs) as (S1 & S2 & S3 & S4 & S5 & S6 & S7 & S8 & S9 & S10).
        csplit; auto; [ucase; [congruence|assumption]|intuition].
      * exact A4.
  - intros t m g' K1 K2. destruct (I_g t m g' K1 K2) as (A1 & A2 & A3 & A4 & A5). csplit; auto.
    intros w' E'. ucase; [injection E' as <-; usimp; auto|auto].
  - intros b m k K1 K2. destruct (I_r b m k K1 K2) as (r & A1 & A2 & A3 & A4 & A5 & A6 & A7 & A8 & A9 & A10).
    exists r. csplit; auto.
    + ucase; [congruence|assumption].
    + intros g' w' Eg E'. ucase; [|eauto]. injection E' as <-. usimp. exfalso. apply N2. eauto.
  - intros b y K1 K2. specialize (I_data b y K1 K2). unfold data in *. usimp.
    assert (D : dsk p b y -> dsk (put_w p g (set_ph w x)) b y).
    { intros (e & D1 & D2). exists e. split; [exact D1|]. usimp. ucase; [|assumption]. usimp. rewrite E in D2. auto. }
    destruct (int (B p b)) as [i|]; [|tauto]. destruct (dirty (B p b)); [assumption|].
    destruct I_data as (D1 & D2). split; [auto|]. destruct D2 as [D2|[D2|D2]]; auto.
    destruct D2 as [D2|(g' & w' & W1 & W2 & W3 & W4)]; [right; right; left; exact D2|].
    destruct (Nat.eq_dec g' g) as [->|n].
    + rewrite E in W1. injection W1 as <-.
      assert (Dx : x = Over \/ x <> Over) by (destruct x; auto; right; discriminate).
      destruct Dx as [->|Nx'].
      * left. destruct (Hx eq_refl W2) as (t & T1 & T2). congruence.
      * right. right. right. exists g, (set_ph w x). usimp. rewrite upd_same. csplit; auto.
    + right. right. right. exists g', w'. usimp. rewrite upd_other by assumption. auto.
Qed.

Lemma inv_WT max L Q c p g w : Inv max L Q c p -> wq p g = Some w -> w_ph w = Queued ->
  Inv max L Q c (w_transfer p g w).
Proof.
  intros H E N. pose proof H as H0. destruct H.
  destruct (I_w g w E) as (G1 & G2 & G3 & G4). destruct (w_val H0 g w E) as (Gr & x & Gx).
  assert (Gm : mem (base p) (w_buf w) = x) by (apply (not_over_mem H0 g w); congruence).
  assert (DO : forall b e, ext (B p b) = Some e -> b <> g ->
             disk (base (w_transfer p g w)) e = disk (base p) e).
  { intros b e Eb n. unfold w_transfer. usimp. apply upd_other. intros ->. apply n. eapply I_inj; eassumption. }
  unfold w_transfer in *. constructor; usimp; auto.
  - intros e d Ho. destruct (I_own e d Ho) as (O1 & O2). split; [assumption|]. rewrite upd_other; [assumption|].
    intros ->. destruct (I_used g _ G3). congruence.
  - intros b Hb. split; [apply I_rng; assumption|]. ucase; [|apply I_rng; assumption].
    apply I_rng in Hb. destruct Hb. congruence.
  - intros g' w' E'. ucase.
    + injection E' as <-. usimp. csplit; auto.
      assert (WQ : wants (set_ph w Written) = wants w) by (unfold wants; usimp; rewrite N; reflexivity).
      destruct (w_taker w) as [t|].
      * destruct G4 as (m & T1 & T2 & T3 & T4 & T5 & T6 & T7). exists m. unfold taken. usimp. rewrite WQ.
        csplit; auto. intros Hs. destruct (T7 Hs) as (S1 & S2 & S3 & S4 & S5 & S6 & S7 & S8 & S9 & S10).
        csplit; auto; [ucase; [contradiction|assumption]| |discriminate]. intros _. apply S9. congruence.
      * unfold eager. rewrite WQ. exact G4.
    + destruct (I_w g' w' E') as (A1 & A2 & A3 & A4). csplit; auto.
      destruct (w_taker w') as [t|].
      * destruct A4 as (m & T1 & T2 & T3 & T4 & T5 & T6 & T7). exists m. unfold taken. usimp.
        csplit; auto. intros Hs. destruct (T7 Hs) as (S1 & S2 & S3 & S4 & S5 & S6 & S7 & S8 & S9 & S10).
        csplit; auto. ucase; [congruence|assumption].
      * exact A4.
  - intros t m g' K1 K2. destruct (I_g t m g' K1 K2) as (A1 & A2 & A3 & A4 & A5). csplit; auto.
    intros w' E'. ucase; [injection E' as <-; usimp; auto|auto].
  - intros b m k K1 K2. destruct (I_r b m k K1 K2) as (r & A1 & A2 & A3 & A4 & A5 & A6 & A7 & A8 & A9 & A10).
    exists r. csplit; auto.
    + ucase; [congruence|assumption].
    + intros g' w' Eg E'. ucase; [|eauto]. injection E' as <-. usimp. exfalso. specialize (A9 g w Eg E). congruence.
  - intros b y K1 K2. specialize (I_data b y K1 K2). unfold data in *. usimp.
    assert (D : dsk p b y -> dsk (w_transfer p g w) b y).
    { intros (e & D1 & D2). exists e. unfold w_transfer. usimp. split; [exact D1|]. destruct (Nat.eq_dec b g) as [->|n].
      - rewrite upd_same. usimp. intros _. rewrite G3 in D1. injection D1 as <-. rewrite upd_same. congruence.
      - rewrite (upd_other (wq p)) by assumption. rewrite (DO b e D1 n). assumption. }
    unfold w_transfer in D. usimp.
    destruct (int (B p b)) as [i|]; [|tauto]. destruct (dirty (B p b)); [assumption|].
    destruct I_data as (D1 & D2). split; [auto|]. destruct D2 as [D2|[D2|D2]]; auto. right. right.
    destruct D2 as [D2|(g' & w' & W1 & W2 & W3 & W4)]; [left; exact D2|right].
    destruct (Nat.eq_dec g' g) as [->|n].
    + rewrite E in W1. injection W1 as <-. exists g, (set_ph w Written). usimp. rewrite upd_same. csplit; auto; [unfold wants in *; usimp; rewrite N in W2; exact W2|discriminate].
    + exists g', w'. usimp. rewrite upd_other by assumption. auto.
  - intros b Hb. destruct (I_acq b Hb) as (i & A1 & A2 & A3 & A4 & A5 & A6). exists i. usimp. csplit; auto.
    intros D. rewrite (A5 D). destruct (ext (B p b)) as [e|] eqn:Ee; [|reflexivity]. cbn. f_equal. symmetry.
    apply (DO b); [assumption|]. intros ->. lia.
Qed.

Lemma inv_RT max L Q c p k r : Inv max L Q c p -> rds p k = Some r -> r_done r = false ->
  Inv max L Q c (r_transfer p k r).
Proof.
  intros H E N. pose proof H as H0. destruct H.
  destruct (I_k k r E N) as (b0 & m0 & R1 & R2).
  destruct (I_r b0 m0 k R1 R2) as (r' & R3 & R4 & R5 & R6 & R7 & R8 & R9 & R10 & R11 & R12).
  rewrite E in R3. injection R3 as <-.
  destruct (se_clean H0 b0 R9 R7) as (i0 & e0 & x0 & C1 & C2 & C3 & C4 & (e1 & C5 & C6) & _).
  rewrite R8 in C6. assert (Dx : disk (base p) (r_ext r) = x0) by congruence.
  assert (MO : forall b i, hold p b = Some i -> b <> b0 -> upd (mem (base p)) (r_buf r) (disk (base p) (r_ext r)) i = mem (base p) i).
  { intros b i Eb n. apply upd_other. intros ->. apply n. eapply (hold_uniq H0); [exact Eb|]. apply hold_int; assumption. }
  unfold r_transfer in *. constructor; usimp; auto.
  - intros g w E'. destruct (I_w g w E') as (A1 & A2 & A3 & A4). csplit; auto.
    destruct (w_taker w) as [t|].
    + destruct A4 as (m & T1 & T2 & T3 & T4 & T5 & T6 & T7). exists m. unfold taken. usimp. csplit; auto.
      intros Hm x Hx. destruct (Nat.eq_dec t b0) as [->|n]; [congruence|]. rewrite (MO t); auto.
    + destruct A4 as (T1 & T2 & T3 & T4 & T5 & T6). unfold eager. usimp. csplit; auto.
      intros x Hx. destruct (Nat.eq_dec g b0) as [->|n]; [congruence|]. rewrite (MO g); auto. apply hold_int; assumption.
  - intros b m k' K1 K2. destruct (I_r b m k' K1 K2) as (r' & A1 & A2 & A3 & A4 & A5 & A6 & A7 & A8 & A9 & A10).
    destruct (Nat.eq_dec k' k) as [->|n].
    + assert (b = b0) by (eapply I_kinj; eassumption). subst b. rewrite E in A1. injection A1 as <-.
      exists (mkRq (r_buf r) (r_ext r) true). usimp. rewrite upd_same. csplit; auto.
      intros _ x Hx. rewrite upd_same. congruence.
    + exists r'. rewrite upd_other by assumption. csplit; auto. intros D x Hx.
      rewrite (MO b); [auto|apply hold_int; assumption|]. intros ->. congruence.
  - intros k' r' E' D. ucase; [injection E' as <-; discriminate|eauto].
  - intros k' r' E'. ucase; eauto.
  - intros b y K1 K2. specialize (I_data b y K1 K2). unfold data in *. usimp.
    destruct (int (B p b)) as [i|] eqn:Ei; [|exact I_data].
    destruct (Nat.eq_dec b b0) as [->|n].
    + rewrite R7 in *. destruct I_data as (D1 & D2). split; [exact D1|]. right. left.
      assert (i = r_buf r) by congruence. subst i. rewrite upd_same. congruence.
    + rewrite (MO b) by (auto using hold_int). destruct (dirty (B p b)); [assumption|].
      destruct I_data as (D1 & D2). split; [exact D1|]. destruct D2 as [D2|[D2|D2]]; auto. right. right.
      destruct D2 as [(m & k' & r' & W1 & W2 & W3 & W4)|D2]; [left|right; exact D2].
      exists m, k', r'. usimp. csplit; auto. rewrite upd_other; [assumption|]. intros ->. apply n. eapply I_kinj; eassumption.
  - intros b Hb. destruct (I_acq b Hb) as (i & A1 & A2 & A3 & A4 & A5 & A6). exists i. usimp. csplit; auto.
    rewrite (MO b); [assumption|apply hold_int; assumption|]. intros ->. lia.
Qed.

(** ** Starting a read *)

Lemma inv_start_read max L L' Q c p b m : Inv max L Q c p -> sched p b = Some m -> m_read m = None ->
  lim_ok p b -> wq p b = None ->
  (forall g w, m_giver m = (true, g) -> wq p g = Some w -> w_ph w = Over) ->
  incl L' L -> (forall x, In x L -> x <> b -> In x L') ->
  (forall g w, wq p g = Some w -> w_taker w = Some b -> wants w = true \/ b = g \/ In b L') ->
  exists q, start_read p b b = Ok q /\ Inv max L' Q c q /\ io p q /\
    (forall m', sched q b = Some m' -> m_read m' <> None) /\ wq q = wq p /\
    q = put_meta (set_rds p (upd (rds p) (nrd p) (rds q (nrd p))) (S (nrd p))) b (set_read m (Some (nrd p))).
Proof.
  intros H Eb Em (Hs & Hd & Hn) Hw Hg HL1 HL2 Ht. pose proof H as H0. destruct H.
  destruct (se_clean H0 b Hs Hd) as (i & e & x & C1 & C2 & C3 & C4 & C5 & _).
  assert (HL3 : forall b', b' <> b -> In b' L -> In b' L') by auto.
  eexists. split; [|split; [|split; [|split; [|split]]]].
  - unfold start_read, bk. rewrite C1, C2. unfold with_meta. rewrite Eb, Hd. reflexivity.
  - assert (Sc : forall b' m', upd (sched p) b (Some (set_read m (Some (nrd p)))) b' = Some m' ->
        (b' = b /\ m' = set_read m (Some (nrd p))) \/ (b' <> b /\ sched p b' = Some m')).
    { intros b' m' E. ucase; [injection E as <-; left; auto|right; auto]. }
    assert (Ho : forall q, base q = base p -> sched q = upd (sched p) b (Some (set_read m (Some (nrd p)))) ->
        forall b', hold q b' = hold p b').
    { intros q E1 E2 b'. unfold hold. rewrite E1, E2. destruct (int (B p b')); [reflexivity|].
      ucase; [rewrite Eb|]; reflexivity. }
    assert (So : forall q, sched q = upd (sched p) b (Some (set_read m (Some (nrd p)))) ->
        forall b', sops q b' = sops p b').
    { intros q E2 b'. unfold sops. rewrite E2. ucase; [rewrite Eb|]; reflexivity. }
    match goal with |- Inv _ _ _ _ ?q => specialize (Ho q eq_refl eq_refl); specialize (So q eq_refl); set (q0 := q) in * end.
    assert (Kn : rds p (nrd p) = None).
    { destruct (rds p (nrd p)) eqn:E; [|reflexivity]. apply I_kn in E. lia. }
    constructor; try (unfold q0; usimp; auto; fail).
    + intros j. rewrite (hl_ext _ (hold p) (hold q0)) by auto. unfold q0. usimp. apply I_cnt.
    + intros b' m' E N. unfold q0 in *. usimp. destruct (Sc _ _ E) as [(-> & ->)|(n & E')]; usimp; eauto.
    + unfold q0. usimp. intros b' Hb. destruct (I_rng b' Hb). split; [|assumption]. ucase; [congruence|assumption].
    + intros g w E. unfold q0 in E. usimp. destruct (I_w g w E) as (A1 & A2 & A3 & A4). csplit; auto.
      destruct (w_taker w) as [t|] eqn:Ew.
      * destruct A4 as (m' & T1 & T2 & T3 & T4 & T5 & T6 & T7).
        exists (if Nat.eqb t b then set_read m (Some (nrd p)) else m'). unfold taken. rewrite Ho, So.
        assert (T5' : int (B p g) = None \/ t = g \/ In g L').
        { destruct T5 as [T5|[T5|T5]]; auto. right; right. apply HL3; [|assumption]. intros ->. congruence. }
        unfold q0. usimp. destruct (Nat.eqb_spec t b) as [->|n].
        -- rewrite Eb in T1. injection T1 as <-. rewrite upd_same. usimp. csplit; auto; try discriminate; try (intros _; eauto; fail).
           intros Hs'. destruct (T7 Hs') as (S1 & S2 & S3 & S4 & S5 & S6 & S7 & S8 & S9 & S10). csplit; auto.
           { intros N. exfalso. apply N. eauto. }
           intros N. exfalso. rewrite (Hg g w T2 E) in N. discriminate.
        -- rewrite upd_other by assumption. csplit; auto.
           { intros N. destruct (T6 N) as [T|[T|T]]; auto. }
           intros Hs'. destruct (T7 Hs') as (S1 & S2 & S3 & S4 & S5 & S6 & S7 & S8 & S9 & S10). csplit; auto.
           intros N. destruct (S10 N); auto.
      * destruct A4 as (T1 & T2 & T3 & T4 & T5 & T6). unfold eager. rewrite So. csplit; auto.
    + intros t m' g E Eg. unfold q0 in E. usimp. destruct (Sc _ _ E) as [(-> & ->)|(n & E')]; usimp.
      * destruct (I_g b m g Eb Eg) as (A1 & A2 & A3 & A4 & A5). csplit; auto.
      * destruct (I_g t m' g E' Eg) as (A1 & A2 & A3 & A4 & A5). csplit; auto.
    + intros b' m' k E Ek. rewrite So. unfold q0 in E. usimp. destruct (Sc _ _ E) as [(-> & ->)|(n & E')]; usimp.
      * injection Ek as <-. exists (mkRq i e false). unfold q0. usimp. rewrite upd_same. csplit; auto.
        -- apply (se_facts H0 b Hs).
        -- discriminate.
      * destruct (I_r b' m' k E' Ek) as (r & A1 & A2 & A3 & A4 & A5 & A6 & A7 & A8 & A9 & A10). exists r.
        unfold q0. usimp. rewrite upd_other by (intros ->; congruence). csplit; auto.
    + unfold q0. usimp. intros k r E D. ucase.
      * exists b, (set_read m (Some (nrd p))). rewrite upd_same. auto.
      * destruct (I_k k r E D) as (b' & m' & K1 & K2). exists b', m'. rewrite upd_other; [auto|]. intros ->. congruence.
    + unfold q0. usimp. intros b1 b2 m1 m2 k E1 K1 E2 K2.
      destruct (Sc _ _ E1) as [(-> & ->)|(n1 & E1')], (Sc _ _ E2) as [(-> & ->)|(n2 & E2')]; usimp; auto.
      * injection K1 as <-. destruct (I_r b2 m2 _ E2' K2) as (r & A1 & _). congruence.
      * injection K2 as <-. destruct (I_r b1 m1 _ E1' K1) as (r & A1 & _). congruence.
      * eauto.
    + unfold q0. usimp. intros k r E. ucase; [lia|]. apply I_kn in E. lia.
    + intros b' y K1 K2. specialize (I_data b' y K1 K2). unfold data in *. unfold q0 at 1 2 3 4. usimp.
      destruct (int (B p b')) as [j|]; [|exact I_data]. destruct (dirty (B p b')); [exact I_data|].
      destruct I_data as (D1 & D2). split; [exact D1|].
      destruct (Nat.eq_dec b' b) as [->|n].
      * right. right. left. exists (set_read m (Some (nrd p))), (nrd p), (mkRq i e false). unfold q0. usimp.
        rewrite !upd_same. auto.
      * destruct D2 as [D2|[D2|D2]]; auto. right. right. destruct D2 as [(m' & k & r & W1 & W2 & W3 & W4)|D2]; [left|right; exact D2].
        exists m', k, r. unfold q0. usimp. rewrite !upd_other; auto. intros ->. congruence.
    + intros b'. rewrite So. auto.
    + unfold q0. usimp. intros b' m' E. destruct (Sc _ _ E) as [(-> & ->)|(n & E')]; usimp; eauto.
    + intros b' Hb. rewrite So. auto.
    + intros b' Hb. rewrite So. auto.
    + unfold q0. usimp. intros b' m' E N. destruct (Sc _ _ E) as [(-> & ->)|(n & E')]; usimp; eauto.
    + intros b' Hb. rewrite So in Hb. rewrite Ho. auto.
    + intros b' Hb. rewrite So. apply I_lim. apply HL1. assumption.
  - constructor; usimp; auto.
    + intros b'. ucase.
      * rewrite Eb. usimp. csplit; auto. congruence.
      * destruct (sched p b'); auto.
    + intros g. destruct (wq p g) as [w|]; auto. csplit; auto; destruct (w_ph w); exact I.
  - usimp. rewrite upd_same. intros m' E. injection E as <-. discriminate.
  - reflexivity.
  - usimp. rewrite upd_same. reflexivity.
Qed.

(** ** All steps *)

Lemma io_put_ph p g w x : wq p g = Some w -> ph_le (w_ph w) x -> (x = Go -> wants w = true) -> io p (put_w p g (set_ph w x)).
Proof.
  intros E K Kg. constructor; usimp; auto.
  - intros b. destruct (sched p b); auto.
  - intros g'. ucase.
    + rewrite E. usimp. csplit; auto. unfold wants at 1. usimp. intros W. apply orb_true_iff in W.
      destruct W as [W|W]; [unfold wants; rewrite W; reflexivity|]. destruct x; try discriminate. auto.
    + destruct (wq p g') as [w'|]; auto. csplit; auto; destruct (w_ph w'); exact I.
Qed.

Lemma inv_WC max L Q c p g w : Inv max L Q c p -> wq p g = Some w -> w_ph w = Soon ->
  Inv max L Q c (w_check p g w) /\ io p (w_check p g w).
Proof.
  intros H E N. unfold w_check. split.
  - apply (inv_phase _ L); auto using incl_refl; try congruence; try apply (I_lim _ _ _ _ _ H).
    + destruct (w_shall w); discriminate.
    + intros K K2. exfalso. unfold wants in K2. rewrite N in K2. destruct (w_shall w); discriminate.
    + intros K. destruct (w_shall w); [reflexivity|discriminate].
  - apply io_put_ph; [assumption|rewrite N; destruct (w_shall w); exact I|].
    intros K. unfold wants. destruct (w_shall w); [reflexivity|discriminate].
Qed.

Lemma inv_WO max L Q c p g w : Inv max L Q c p -> wq p g = Some w -> w_ph w = Go ->
  exists q, w_over p g w = Ok q /\ Inv max L Q c q /\ io p q /\ wq q g = Some (set_ph w Over).
Proof.
  intros H E N. unfold w_over.
  assert (PL : ph_le (w_ph w) Over) by (rewrite N; exact I).
  assert (Es : wants w = true) by (unfold wants; rewrite N; apply orb_true_r).
  destruct (I_w _ _ _ _ _ H g w E) as (G1 & G2 & G3 & G4). destruct (w_taker w) as [t|] eqn:Et.
  2:{ destruct G4 as (K & _). congruence. }
  destruct G4 as (m & T1 & T2 & T3 & T4 & T5 & T6 & T7).
  destruct (T7 Es) as (S1 & S2 & S3 & S4 & S5 & S6 & S7 & S8 & S9 & S10). rewrite S1.
  assert (Lt : lim_ok p t) by (split; auto).
  assert (H1 : Inv max (t :: L) Q c (put_w p g (set_ph w Over))).
  { apply (inv_phase _ L); auto; try congruence.
    - apply incl_tl, incl_refl.
    - intros b [<-|Hb]; [assumption|apply (I_lim _ _ _ _ _ H); assumption].
    - intros _ _. exists t. split; [assumption|left; reflexivity]. }
  destruct (inv_start_read _ (t :: L) L Q c _ t m H1) as (q & Q1 & Q2 & Q3 & Q4 & Q5 & Q6); auto.
  - apply S9. congruence.
  - usimp. rewrite upd_other; assumption.
  - usimp. intros g' w' Eg E'. rewrite T2 in Eg. injection Eg as <-. rewrite upd_same in E'. injection E' as <-. reflexivity.
  - apply incl_tl, incl_refl.
  - intros x [<-|Hx] n; [contradiction|assumption].
  - usimp. intros g' w' E' Ew.
    destruct (Nat.eq_dec g' g) as [->|n].
    { rewrite upd_same in E'. injection E' as <-. destruct (S10 N) as [K|K]; auto. left. unfold wants. usimp. rewrite K. reflexivity. }
    rewrite upd_other in E' by assumption. destruct (I_w _ _ _ _ _ H g' w' E') as (_ & _ & _ & K). rewrite Ew in K.
    destruct K as (m' & K1 & K2 & _). congruence.
  - destruct (start_read p t t) as [p1| |] eqn:Ep.
    + cbn [bind]. eexists. split; [reflexivity|].
      assert (Eq : q = put_w p1 g (set_ph w Over)).
      { clear - Q1 Ep. unfold start_read, bk, with_meta in *. usimp.
        destruct (int (B p t)); [|discriminate]. destruct (ext (B p t)); [|discriminate].
        destruct (sched p t); [|discriminate]. injection Q1 as <-. injection Ep as <-. destruct (dirty (B p t)); reflexivity. }
      rewrite <- Eq. split; [assumption|]. split.
      * eapply io_trans; [|eassumption]. apply io_put_ph; auto.
      * rewrite Eq. usimp. apply upd_same.
    + exfalso. clear - Q1 Ep. unfold start_read, bk, with_meta in *. usimp.
      destruct (int (B p t)); [|discriminate]. destruct (ext (B p t)); [|discriminate].
      destruct (sched p t); discriminate.
    + exfalso. clear - Q1 Ep. unfold start_read, bk, with_meta in *. usimp.
      destruct (int (B p t)); [|discriminate]. destruct (ext (B p t)); [|discriminate].
      destruct (sched p t); discriminate.
Qed.

Lemma inv_act max L Q c p a : Inv max L Q c p -> exists q, do_act p a = Ok q /\ Inv max L Q c q /\ io p q.
Proof.
  intros H. destruct a as [g|g|g|g|k]; cbn [do_act].
  - destruct (wq p g) as [w|] eqn:E; [|eexists; csplit; eauto using io_refl].
    destruct (w_ph w) eqn:Ep; try (eexists; csplit; eauto using io_refl; fail).
    eexists. split; [reflexivity|]. split; [apply inv_WT; assumption|].
    constructor; unfold w_transfer; usimp; auto.
    + intros b. destruct (sched p b); auto.
    + intros g'. ucase.
      * rewrite E. usimp. csplit; auto; [rewrite Ep; exact I|]. unfold wants. usimp. rewrite Ep. auto.
      * destruct (wq p g') as [w'|]; auto. csplit; auto; destruct (w_ph w'); exact I.
  - destruct (wq p g) as [w|] eqn:E; [|eexists; csplit; eauto using io_refl].
    destruct (w_ph w) eqn:Ep; try (eexists; csplit; eauto using io_refl; fail).
    eexists. split; [reflexivity|]. split.
    + apply (inv_phase _ L); auto using incl_refl; try congruence; try apply (I_lim _ _ _ _ _ H).
    + apply io_put_ph; [assumption|rewrite Ep; exact I|discriminate].
  - destruct (wq p g) as [w|] eqn:E; [|eexists; csplit; eauto using io_refl].
    destruct (w_ph w) eqn:Ep; try (eexists; csplit; eauto using io_refl; fail).
    destruct (inv_WC _ _ _ _ _ _ _ H E Ep) as (Q2 & Q3). eauto.
  - destruct (wq p g) as [w|] eqn:E; [|eexists; csplit; eauto using io_refl].
    destruct (w_ph w) eqn:Ep; try (eexists; csplit; eauto using io_refl; fail).
    destruct (inv_WO _ _ _ _ _ _ _ H E Ep) as (q & Q1 & Q2 & Q3 & _). eauto.
  - destruct (rds p k) as [r|] eqn:E; [|eexists; csplit; eauto using io_refl].
    destruct (r_done r) eqn:Ed; [eexists; csplit; eauto using io_refl|].
    eexists. split; [reflexivity|]. split; [apply inv_RT; assumption|].
    constructor; unfold r_transfer; usimp; auto.
    + intros b. destruct (sched p b); auto.
    + intros g'. destruct (wq p g') as [w'|]; auto. csplit; auto; destruct (w_ph w'); exact I.
Qed.

Lemma inv_acts max L Q c l : forall p, Inv max L Q c p -> exists q, do_acts p l = Ok q /\ Inv max L Q c q /\ io p q.
Proof.
  induction l as [|a l IH]; intros p H; cbn [do_acts].
  - eexists. csplit; eauto using io_refl.
  - destruct (inv_act _ _ _ _ _ a H) as (q & Q1 & Q2 & Q3). rewrite Q1. cbn [bind].
    destruct (IH q Q2) as (r & R1 & R2 & R3). exists r. csplit; auto. eapply io_trans; eassumption.
Qed.

Lemma io_orc p o : io p (set_orc p o).
Proof.
  constructor; usimp; auto.
  - intros b. destruct (sched p b); auto.
  - intros g'. destruct (wq p g') as [w'|]; auto. csplit; auto; destruct (w_ph w'); exact I.
Qed.

Lemma inv_env max L Q c p : Inv max L Q c p -> exists q, env p = Ok q /\ Inv max L Q c q /\ io p q.
Proof.
  intros H. unfold env. destruct (orc p) as [|l r].
  - eexists. csplit; eauto using io_refl.
  - destruct (inv_acts _ _ _ _ l _ (inv_orc _ _ _ _ _ r H)) as (q & Q1 & Q2 & Q3). exists q. csplit; auto.
    eapply io_trans; [apply io_orc|eassumption].
Qed.
