(** Switching to the prefetching algorithm and back. *)
From Coq Require Import ZArith List Bool Lia Permutation Arith.
From Verif Require Import BsModel BsSpec BsProofs BsProofs2 BsProofs4 PfModel PfSpec PfInv PfProofs1 PfProofs2 PfProofs3 PfProofs4 PfProofs5 PfProofs6 PfProofs7 PfProofs8 PfProofs9 PfProofs10 PfProofs11 PfProofs12.
Import ListNotations.

Lemma fold_ins l : forall a, NoDup a -> NoDup (fold_left (fun l b => ins b l) l a) /\
  (forall y, In y (fold_left (fun l b => ins b l) l a) <-> In y l \/ In y a).
Proof.
  induction l as [|x l IH]; intros a N; [cbn; tauto|]. cbn [fold_left]. destruct (IH (ins x a) (ins_nodup x a N)) as (K1 & K2). split; [assumption|].
  intros y. rewrite K2, in_ins. cbn. intuition.
Qed.
Lemma insert_sorted_perm b l : Permutation (insert_sorted b l) (b :: l).
Proof.
  induction l as [|x l IH]; [reflexivity|]. cbn. destruct (Nat.leb b x); [reflexivity|]. rewrite IH. constructor.
Qed.
Lemma sort_perm l : Permutation (fold_right insert_sorted [] l) l.
Proof. induction l as [|x l IH]; [reflexivity|]. cbn. rewrite insert_sorted_perm. constructor. assumption. Qed.

(** ** Starting *)

Lemma inv_first max s c fe0 ps o : R max [] [] s c -> simu c = false -> NoDup fe0 -> (forall b, In b fe0 <-> In b (evictables (al s))) ->
  Inv max [] [] c (mkP s fe0 [] (fun _ => None) (fun _ => None) (fun _ => None) 0 ps ps o).
Proof.
  intros H Hs Hn He. destruct H.
  assert (Rel : forall b, brel (mem s) (disk s) (blk s b) (vw c b)).
  { intros b. destruct (live c b) eqn:E; [auto|]. destruct (R_new b E) as (-> & ->). unfold brel. cbn. auto. }
  constructor; usimp; auto; try discriminate.
  - intros i. cbn [app] in R_perm. pose proof (proj1 (Permutation_count_occ Nat.eq_dec _ _) R_perm i) as K.
    change (cnt i (free_i s ++ held (nblk s) (blk s)) = cnt i (seq 0 (nalloc s))) in K. rewrite cnt_app, cnt_seq in K. cbn in K.
    assert (Eh : hl (nblk s) (hold (mkP s fe0 [] (fun _ => None) (fun _ => None) (fun _ => None) 0 ps ps o)) = held (nblk s) (blk s)).
    { apply flat_map_ext_in. intros b _. unfold hold. usimp. destruct (int (blk s b)); reflexivity. }
    rewrite Eh. assumption.
  - intros b. destruct (Rel b) as (K & _). assumption.
  - intros b K1 K2. destruct (Rel b) as (K3 & K4). destruct (blk s b) as [e i d n]. cbn [int rc ext dirty] in *.
    destruct i as [i|]; [destruct K4 as (K4 & _); destruct (K4 K1); congruence|]. destruct K4 as (_ & -> & K4). rewrite K2 in K4.
    destruct e; [discriminate|]. rewrite K3, K1. reflexivity.
  - intros b x K1 K2. destruct (Rel b) as (K3 & K4). unfold data, dsk. usimp. destruct (int (blk s b)) as [i|].
    + destruct K4 as (K4 & _). destruct (K4 K1) as (K5 & K6). destruct (dirty (blk s b)); [congruence|]. rewrite K2 in *. specialize (K6 eq_refl).
      destruct (ext (blk s b)) as [e|]; [|discriminate]. cbn in K6. split; [exists e; split; congruence|]. right; left. congruence.
    + destruct K4 as (_ & K4 & K5). split; [assumption|]. rewrite K2 in K5. destruct (ext (blk s b)) as [e|]; [|discriminate]. exists e. split; [reflexivity|]. cbn in K5. congruence.
  - intros b K1. destruct (Rel b) as (K3 & K4). unfold acqd. usimp. destruct (int (blk s b)) as [i|]; [|destruct K4; lia].
    destruct K4 as (_ & K4). exists i. split; [reflexivity|]. apply K4. assumption.
  - constructor.
  - intros b. rewrite He, R_q. cbn. tauto.
  - intros b [].
Qed.

(** ** Ending: the state without the metadata of some blocks *)

Definition rsv (p : pst) (b : nat) : option nat := match sched p b with Some m => m_res m | None => None end.

Record ers (D : nat -> bool) (p q : pst) : Prop := mkErs {
  er_wq : forall g, wq q g = wq p g; er_rds : forall k, rds q k = rds p k; er_nrd : nrd q = nrd p; er_orc : orc q = orc p;
  er_s : forall b, sched q b = if D b then None else sched p b;
  er_blk : forall b, B q b = B p b; er_mem : forall i, mem (base q) i = mem (base p) i; er_disk : forall e, disk (base q) e = disk (base p) e;
  er_nblk : nblk (base q) = nblk (base p); er_nal : nalloc (base q) = nalloc (base p); er_rem : remaining (base q) = remaining (base p);
  er_used : used (base q) = used (base p); er_frs : free_s (base q) = free_s (base p)
}.
(** Nothing is in progress for these blocks. *)
Definition idle (D : nat -> bool) (p : pst) : Prop := forall b m, D b = true -> sched p b = Some m -> fst (m_giver m) = false /\ m_read m = None.
(** What stays. *)
Record stay (p q : pst) (p' q' : pst) : Prop := mkStay {
  st_rsv : forall b, rsv p' b = rsv p b; st_fri : free_i (base q') = free_i (base q); st_frp : free_i (base p') = free_i (base p);
  st_fe : fe q' = fe q; st_se : se q' = se q; st_fep : fe p' = fe p; st_sep : se p' = se p; st_n : nblk (base p') = nblk (base p);
  st_wq : forall g, wq p g = None -> wq p' g = None
}.
Lemma stay_refl p q : stay p q p q.
Proof. constructor; auto. Qed.
Lemma stay_trans p q p1 q1 p2 q2 : stay p q p1 q1 -> stay p1 q1 p2 q2 -> stay p q p2 q2.
Proof. intros [] []. constructor; try congruence; auto. Qed.

Definition both (max : nat) (c : client) (Q : list (pop_kind * nat)) (D : nat -> bool) (p q : pst) (x y : out pst) (E : nat -> bool) : Prop :=
  exists p' q', x = Ok p' /\ y = Ok q' /\ Inv max [] Q c p' /\ ers D p' q' /\ idle E p' /\ stay p q p' q'.

Lemma idle_io D p q : (forall b, D b = true -> sched q b = sched p b) -> idle D p -> idle D q.
Proof. intros E K b m Hb Em. rewrite E in Em by assumption. eauto. Qed.

Lemma act_er max c Q D p q a : Inv max [] Q c p -> ers D p q -> idle D p -> both max c Q D p q (do_act p a) (do_act q a) D.
Proof.
  intros H Er Hi. destruct (inv_act _ _ _ _ _ a H) as (p' & E1 & H' & F). pose proof Er as Er0. destruct Er.
  assert (Same : both max c Q D p q (Ok p) (Ok q) D) by (exists p, q; csplit; auto using stay_refl).
  unfold both. destruct a; cbn [do_act] in *.
  - rewrite er_wq0. destruct (wq p b) as [w|] eqn:Ew; [|exact Same].
    destruct (w_ph w) eqn:Ep; try exact Same. injection E1 as <-.
    do 2 eexists. csplit; try reflexivity; auto.
    + unfold w_transfer. constructor; usimp; auto.
      * intros g. unfold upd. destruct (Nat.eqb g b); auto.
      * intros e. rewrite er_mem0. unfold upd. destruct (Nat.eqb e (w_ext w)); auto.
    + constructor; unfold w_transfer; usimp; auto. intros g K. rewrite upd_other; [assumption|congruence].
  - rewrite er_wq0. destruct (wq p b) as [w|] eqn:Ew; [|exact Same].
    destruct (w_ph w) eqn:Ep; try exact Same. injection E1 as <-.
    do 2 eexists. csplit; try reflexivity; auto.
    + unfold w_soon. constructor; usimp; auto. intros g. unfold upd. destruct (Nat.eqb g b); auto.
    + constructor; unfold w_soon; usimp; auto. intros g K. rewrite upd_other; [assumption|congruence].
  - rewrite er_wq0. destruct (wq p b) as [w|] eqn:Ew; [|exact Same].
    destruct (w_ph w) eqn:Ep; try exact Same. injection E1 as <-.
    do 2 eexists. csplit; try reflexivity; auto.
    + unfold w_check. constructor; usimp; auto. intros g. unfold upd. destruct (Nat.eqb g b); auto.
    + constructor; unfold w_check; usimp; auto. intros g K. rewrite upd_other; [assumption|congruence].
  - rewrite er_wq0. destruct (wq p b) as [w|] eqn:Ew; [|exact Same].
    destruct (w_ph w) eqn:Ep; try exact Same. unfold w_over in *.
    { destruct (I_w _ _ _ _ _ H b w Ew) as (_ & _ & _ & K). destruct (w_taker w) as [t|]; [|discriminate].
      destruct K as (m & T1 & T2 & _ & _ & _ & _ & _).
      assert (Dt : D t = false) by (destruct (D t) eqn:Ed; [destruct (Hi t m Ed T1) as (K & _); rewrite T2 in K; discriminate|reflexivity]).
      unfold start_read, with_meta, bk in *. rewrite er_blk0, er_s0, Dt, T1 in *. destruct (int (B p (w_start w))) as [i|] eqn:Ei; [|discriminate].
      destruct (ext (B p (w_start w))) as [e|]; [|discriminate]. cbn [bind] in *.
      case_eq (dirty (B p (w_start w))); intros Hd; rewrite Hd in E1; injection E1 as <-; do 2 eexists; csplit; try reflexivity; auto.
      * constructor; usimp; auto.
        -- intros g. unfold upd. destruct (Nat.eqb g b); auto.
        -- intros k. rewrite er_nrd0. unfold upd. destruct (Nat.eqb k (nrd p)); auto.
        -- intros x. rewrite er_nrd0. destruct (Nat.eq_dec x t) as [->|n]; [rewrite !upd_same, Dt; reflexivity|]. rewrite !upd_other by assumption. apply er_s0.
        -- intros x. unfold upd. destruct (Nat.eqb x (w_start w)); auto.
      * intros x m0 Hx Em0. usimp. rewrite upd_other in Em0 by congruence. apply (Hi x); auto.
      * constructor; usimp; auto.
        -- intros x. unfold rsv. usimp. destruct (Nat.eq_dec x t) as [->|n]; [rewrite upd_same, T1; reflexivity|]. rewrite upd_other by assumption. reflexivity.
        -- intros g K. rewrite upd_other by congruence. exact K.
      * constructor; usimp; auto.
        -- intros g. unfold upd. destruct (Nat.eqb g b); auto.
        -- intros k. rewrite er_nrd0. unfold upd. destruct (Nat.eqb k (nrd p)); auto.
        -- intros x. rewrite er_nrd0. destruct (Nat.eq_dec x t) as [->|n]; [rewrite !upd_same, Dt; reflexivity|]. rewrite !upd_other by assumption. apply er_s0.
      * intros x m0 Hx Em0. usimp. rewrite upd_other in Em0 by congruence. apply (Hi x); auto.
      * constructor; usimp; auto.
        -- intros x. unfold rsv. usimp. destruct (Nat.eq_dec x t) as [->|n]; [rewrite upd_same, T1; reflexivity|]. rewrite upd_other by assumption. reflexivity.
        -- intros g K. rewrite upd_other by congruence. exact K. }
  - rewrite er_rds0. destruct (rds p k) as [r|] eqn:Ek; [|exact Same].
    destruct (r_done r) eqn:Ed; [exact Same|]; injection E1 as <-.
    do 2 eexists. csplit; try reflexivity; auto.
    + unfold r_transfer. constructor; usimp; auto.
      * intros x. unfold upd. destruct (Nat.eqb x k); auto.
      * intros x. rewrite er_disk0. unfold upd. destruct (Nat.eqb x (r_buf r)); auto.
    + constructor; unfold r_transfer; usimp; auto.
Qed.

Lemma both_bind max c Q D p q x y D1 (f g : pst -> out pst) D2 E2 : both max c Q D p q x y D1 ->
  (forall p' q', Inv max [] Q c p' -> ers D p' q' -> idle D1 p' -> stay p q p' q' -> x = Ok p' -> y = Ok q' -> both max c Q D2 p' q' (f p') (g q') E2) ->
  both max c Q D2 p q (bind x f) (bind y g) E2.
Proof.
  intros (p' & q' & -> & -> & H1 & H2 & H3 & H4) K. cbn [bind]. destruct (K p' q' H1 H2 H3 H4 eq_refl eq_refl) as (p2 & q2 & K1 & K2 & K3 & K4 & K5 & K6).
  exists p2, q2. csplit; auto. eapply stay_trans; eassumption.
Qed.

Lemma acts_er max c Q D l : forall p q, Inv max [] Q c p -> ers D p q -> idle D p -> both max c Q D p q (do_acts p l) (do_acts q l) D.
Proof.
  induction l as [|a l IH]; intros p q H Er Hi; [exists p, q; csplit; auto using stay_refl|].
  cbn [do_acts]. eapply both_bind; [apply (act_er max c Q D p q a H Er Hi)|]. intros. apply IH; assumption.
Qed.
Lemma env_er max c Q D p q : Inv max [] Q c p -> ers D p q -> idle D p -> both max c Q D p q (env p) (env q) D.
Proof.
  intros H Er Hi. unfold env. pose proof Er as Er0. destruct Er. rewrite er_orc0. destruct (orc p) as [|l r]; [exists p, q; csplit; auto using stay_refl|].
  destruct (acts_er max c Q D l (set_orc p r) (set_orc q r)) as (p' & q' & K1 & K2 & K3 & K4 & K5 & []); auto.
  - apply inv_orc. assumption.
  - constructor; usimp; auto.
  - exists p', q'. csplit; auto. constructor; auto.
Qed.
Lemma wait_id_er max c Q D p q b : Inv max [] Q c p -> ers D p q -> idle D p ->
  both max c Q D p q (wait_id p b) (wait_id q b) D /\ (forall p', wait_id p b = Ok p' -> wq p' b = None).
Proof.
  intros H Er Hi. destruct (inv_wait_id _ _ _ _ _ b H) as (p1 & W1 & W2 & _ & _ & W3 & _). split; [|intros p' E; rewrite W1 in E; injection E as <-; assumption].
  unfold wait_id in *. rewrite (er_wq _ _ _ Er). destruct (wq p b) as [w|]; [|exists p, q; csplit; auto using stay_refl].
  unfold wait_entry, await_w in *.
  assert (K : both max c Q D p q (bind (env p) (fun p1 => do_acts p1 [WT b; WS b; WC b; WO b])) (bind (env q) (fun p1 => do_acts p1 [WT b; WS b; WC b; WO b])) D).
  { eapply both_bind; [apply (env_er max c Q D p q H Er Hi)|]. intros. apply acts_er; assumption. }
  destruct K as (p2 & q2 & K1 & K2 & K3 & K4 & K5 & K6). rewrite K1, K2 in *. cbn [bind] in *. injection W1 as <-.
  do 2 eexists. csplit; try reflexivity; auto.
  - destruct K4. constructor; usimp; auto. intros g. unfold upd. destruct (Nat.eqb g b); auto.
  - destruct K6. constructor; usimp; auto. intros g K. unfold upd. destruct (Nat.eqb g b); auto.
Qed.

Lemma wait_on_read_er max c Q D p q t m : Inv max [] Q c p -> ers D p q -> idle D p -> D t = false -> sched p t = Some m ->
  both max c Q D p q (wait_on_read p t) (wait_on_read q t) (fun b => D b || Nat.eqb b t) /\
  (forall p', wait_on_read p t = Ok p' -> exists m', sched p' t = Some m').
Proof.
  intros H Er Hi Dt Em. destruct (inv_wait_on_read _ _ _ _ _ t m H Em) as (p1 & m1 & W1 & W2 & _ & _ & W4 & W5 & W6 & _).
  split; [|intros p' E; rewrite W1 in E; injection E as <-; eauto].
  assert (Step1 : both max c Q D p q (wait_giver p t) (wait_giver q t) D).
  { unfold wait_giver, with_meta. rewrite (er_s _ _ _ Er), Dt, Em. destruct (fst (m_giver m)) eqn:Eg; [|exists p, q; csplit; auto using stay_refl].
    destruct (inv_wait_giver _ _ _ _ _ t m H Em) as (p2 & m2 & G1 & G2 & _). unfold wait_giver, with_meta in G1. rewrite Em, Eg in G1.
    destruct (wait_id_er max c Q D p q (snd (m_giver m)) H Er Hi) as ((p3 & q3 & K1 & K2 & K3 & K4 & K5 & K6) & _). rewrite K1, K2 in *. cbn [bind] in *.
    rewrite (er_s _ _ _ K4), Dt. destruct (sched p3 t) as [m3|] eqn:Em3; [|discriminate]. injection G1 as <-.
    do 2 eexists. csplit; try reflexivity; auto.
    - destruct K4. constructor; usimp; auto. intros b. destruct (Nat.eq_dec b t) as [->|n]; [rewrite !upd_same, Dt; reflexivity|]. rewrite !upd_other by assumption. auto.
    - eapply idle_io; [|exact K5]. intros b Hb. usimp. apply upd_other. congruence.
    - destruct K6. constructor; usimp; auto. intros b. rewrite <- st_rsv0. unfold rsv. usimp.
      destruct (Nat.eq_dec b t) as [->|n]; [rewrite upd_same, Em3; reflexivity|]. rewrite upd_other by assumption. reflexivity. }
  unfold wait_on_read in *. destruct Step1 as (p2 & q2 & G1 & G2 & K3 & K4 & K5 & K6). rewrite G1, G2 in *. cbn [bind] in *. unfold with_meta in *.
  rewrite (er_s _ _ _ K4), Dt. destruct (sched p2 t) as [m2|] eqn:Em2; [|discriminate]. destruct (m_read m2) as [k|] eqn:Ek.
  - unfold await_r in *.
    assert (K : both max c Q D p2 q2 (bind (env p2) (fun p1 => do_act p1 (RT k))) (bind (env q2) (fun p1 => do_act p1 (RT k))) D).
    { eapply both_bind; [apply (env_er max c Q D p2 q2 K3 K4 K5)|]. intros. apply act_er; assumption. }
    destruct K as (p3 & q3 & L1 & L2 & L3 & L4 & L5 & L6). rewrite L1, L2 in *. cbn [bind] in *. rewrite (er_s _ _ _ L4), Dt.
    destruct (sched p3 t) as [m3|] eqn:Em3; [|discriminate]. injection W1 as <-.
    do 2 eexists. csplit; try reflexivity; auto.
    + destruct L4. constructor; usimp; auto. intros b. destruct (Nat.eq_dec b t) as [->|n]; [rewrite !upd_same, Dt; reflexivity|]. rewrite !upd_other by assumption. auto.
    + intros b mb Hb Emb. destruct (Nat.eq_dec b t) as [->|n]; [rewrite W4 in Emb; injection Emb as <-; auto|].
      usimp. rewrite upd_other in Emb by assumption. apply (L5 b); auto. apply orb_true_iff in Hb. destruct Hb as [Hb|Hb]; [assumption|]. apply Nat.eqb_eq in Hb. contradiction.
    + eapply stay_trans; [eassumption|]. destruct L6. constructor; usimp; auto. intros b. rewrite <- st_rsv0. unfold rsv. usimp.
      destruct (Nat.eq_dec b t) as [->|n]; [rewrite upd_same, Em3; reflexivity|]. rewrite upd_other by assumption. reflexivity.
  - injection W1 as <-. exists p2, q2. csplit; auto.
    intros b mb Hb Emb. destruct (Nat.eq_dec b t) as [->|n]; [rewrite W4 in Emb; injection Emb as <-; auto|].
    apply (K5 b); auto. apply orb_true_iff in Hb. destruct Hb as [Hb|Hb]; [assumption|]. apply Nat.eqb_eq in Hb. contradiction.
Qed.

Lemma hl_S n h : hl (S n) h = hl n h ++ opt (h n).
Proof. unfold hl. rewrite seq_S, flat_map_app. cbn. rewrite app_nil_r. reflexivity. Qed.

Lemma drain_sched_ok max c Q n : forall k p q F0 S0, Inv max [] Q c p -> ers (fun b => Nat.ltb b k) p q -> idle (fun b => Nat.ltb b k) p ->
  (forall j, cnt j (free_i (base q)) = cnt j (free_i (base p)) + cnt j (hl k (rsv p))) -> fe q = F0 -> se q = S0 ->
  exists p' q', drain_sched q (seq k n) = Ok q' /\ Inv max [] Q c p' /\ ers (fun b => Nat.ltb b (k + n)) p' q' /\ idle (fun b => Nat.ltb b (k + n)) p' /\
    (forall j, cnt j (free_i (base q')) = cnt j (free_i (base p')) + cnt j (hl (k + n) (rsv p'))) /\ fe q' = F0 /\ se q' = S0 /\
    fe p' = fe p /\ se p' = se p /\ nblk (base p') = nblk (base p).
Proof.
  induction n as [|n IH]; intros k p q F0 S0 H Er Hi Hc Ef Es.
  - exists p, q. rewrite Nat.add_0_r. csplit; auto.
  - cbn [seq drain_sched]. pose proof (er_s _ _ _ Er k) as Ek. cbv beta in Ek. rewrite Nat.ltb_irrefl in Ek. rewrite Ek.
    assert (Lk : forall b, Nat.ltb b (S k) = (Nat.ltb b k || Nat.eqb b k)%bool).
    { intros b. destruct (Nat.ltb_spec b (S k)), (Nat.ltb_spec b k), (Nat.eqb_spec b k); cbn; auto; lia. }
    replace (k + S n) with (S k + n) by lia.
    destruct (sched p k) as [m|] eqn:Em.
    + assert (Dk : (fun b => Nat.ltb b k) k = false) by apply Nat.ltb_irrefl.
      destruct (wait_on_read_er max c Q _ p q k m H Er Hi Dk Em) as ((p1 & q1 & W1 & W2 & W3 & W4 & W5 & W6) & W7).
      rewrite W2. cbn [bind]. unfold with_meta. pose proof (er_s _ _ _ W4 k) as Ek1. cbv beta in Ek1. rewrite Nat.ltb_irrefl in Ek1. rewrite Ek1.
      destruct (W7 p1 W1) as (m1 & Em1). rewrite Em1.
      set (q2 := match m_res m1 with Some i => set_base q1 (return_free (base q1) i) | None => q1 end).
      destruct (IH (S k) p1 (set_sched q2 (upd (sched q2) k None)) F0 S0) as (p' & q' & I1 & I2 & I3 & I4 & I5 & I6 & I7 & I8 & I9 & I10); auto.
      * destruct W4. subst q2. unfold return_free. constructor; intros; destruct (m_res m1); usimp; auto.
        -- rewrite Lk. destruct (Nat.eq_dec b k) as [->|nk]; [rewrite upd_same, Nat.eqb_refl, orb_true_r; reflexivity|].
           rewrite upd_other by assumption. rewrite er_s0. apply Nat.eqb_neq in nk. rewrite nk, orb_false_r. reflexivity.
        -- rewrite Lk. destruct (Nat.eq_dec b k) as [->|nk]; [rewrite upd_same, Nat.eqb_refl, orb_true_r; reflexivity|].
           rewrite upd_other by assumption. rewrite er_s0. apply Nat.eqb_neq in nk. rewrite nk, orb_false_r. reflexivity.
      * intros b mb Hb. apply W5. rewrite <- Lk. assumption.
      * intros j. rewrite hl_S, cnt_app. specialize (Hc j). destruct W6.
        assert (Eh : hl k (rsv p1) = hl k (rsv p)) by (apply hl_ext; auto). rewrite Eh.
        assert (Er1 : rsv p1 k = m_res m1) by (unfold rsv; rewrite Em1; reflexivity). rewrite Er1. subst q2. destruct (m_res m1) as [i|]; unfold return_free; usimp; cbn [opt].
        -- rewrite !cnt_cons. change (cnt j []) with 0. rewrite st_fri0, st_frp0. lia.
        -- change (cnt j []) with 0. rewrite st_fri0, st_frp0. lia.
      * destruct W6. subst q2. destruct (m_res m1); usimp; congruence.
      * destruct W6. subst q2. destruct (m_res m1); usimp; congruence.
      * destruct W6. exists p', q'. csplit; auto; congruence.
    + destruct (IH (S k) p q F0 S0) as (p' & q' & I1 & I2 & I3 & I4 & I5 & I6 & I7 & I8 & I9 & I10); auto.
      * destruct Er. constructor; auto. intros b. rewrite Lk, er_s0. destruct (Nat.eqb_spec b k) as [->|nk]; [rewrite Em, orb_true_r; destruct (Nat.ltb k k); reflexivity|].
        rewrite orb_false_r. reflexivity.
      * intros b mb Hb Emb. apply (Hi b); auto. rewrite Lk in Hb. destruct (Nat.eqb_spec b k) as [->|nk]; [congruence|]. rewrite orb_false_r in Hb. assumption.
      * intros j. rewrite hl_S, cnt_app, Hc. unfold rsv at 3. rewrite Em. cbn [opt]. change (cnt j []) with 0. lia.
      * exists p', q'. csplit; auto.
Qed.

Lemma drain_w_ok max c Q D n : forall k p q, Inv max [] Q c p -> ers D p q -> idle D p -> (forall b, b < k -> wq p b = None) ->
  exists p' q', drain_w q (seq k n) = Ok q' /\ Inv max [] Q c p' /\ ers D p' q' /\ idle D p' /\ stay p q p' q' /\ (forall b, b < k + n -> wq p' b = None).
Proof.
  induction n as [|n IH]; intros k p q H Er Hi Hw.
  - exists p, q. csplit; auto using stay_refl. rewrite Nat.add_0_r. assumption.
  - cbn [seq drain_w]. destruct (wait_id_er max c Q D p q k H Er Hi) as ((p1 & q1 & W1 & W2 & W3 & W4 & W5 & W6) & W7). rewrite W2. cbn [bind].
    destruct (IH (S k) p1 q1 W3 W4 W5) as (p' & q' & I1 & I2 & I3 & I4 & I5 & I6).
    + intros b Hb. destruct (Nat.eq_dec b k) as [->|nk]; [apply W7; assumption|]. apply (st_wq _ _ _ _ W6). apply Hw. lia.
    + exists p', q'. csplit; auto; [eapply stay_trans; eassumption|]. intros b Hb. apply I6. lia.
Qed.

Lemma hl_split n (h r f : nat -> option nat) j : (forall b, h b = match f b with Some i => Some i | None => r b end) ->
  (forall b i, b < n -> f b = Some i -> r b = None) -> cnt j (hl n h) = cnt j (hl n f) + cnt j (hl n r).
Proof.
  intros E K. unfold hl. assert (K2 : forall b i, In b (seq 0 n) -> f b = Some i -> r b = None) by (intros b i Hb; apply in_seq in Hb; apply K; lia).
  induction (seq 0 n) as [|x l IH]; [reflexivity|]. cbn [flat_map]. rewrite !cnt_app, IH by (intros b i Hb; apply K2; right; assumption).
  rewrite E. destruct (f x) as [i|] eqn:Ef; [rewrite (K2 x i (or_introl eq_refl) Ef)|]; cbn [opt]; change (cnt j []) with 0; lia.
Qed.

(** Back to the online algorithm. *)
Lemma to_lru_ok max Q c p : Inv max [] Q c p -> exists s, pf_to_lru p = Ok s /\ R max [] [] s c /\ is_sim (al s) = false /\ nblk s = nblk (base p).
Proof.
  intros H. unfold pf_to_lru, deinit. set (F0 := fold_left (fun l b => ins b l) (se p) (fe p)).
  destruct (fold_ins (se p) (fe p) (I_fend _ _ _ _ _ H)) as (Fn & Fi). fold F0 in Fn, Fi.
  destruct (drain_sched_ok max c Q (nblk (base p)) 0 p (set_se (set_fe p F0) []) F0 []) as (p1 & q1 & D1 & D2 & D3 & D4 & D5 & D6 & D7 & D8 & D9 & D10); auto.
  - constructor; usimp; auto.
  - intros b m Hb. discriminate.
  - usimp. rewrite D1. cbn [bind]. cbn [plus] in *.
    destruct (drain_w_ok max c Q _ (nblk (base q1)) 0 p1 q1 D2 D3 D4) as (p2 & q2 & W1 & W2 & W3 & W4 & W5 & W6); [intros; lia|].
    rewrite W1. cbn [bind]. eexists. split; [reflexivity|].
    assert (En : nblk (base p2) = nblk (base p)) by (destruct W5; congruence).
    assert (Wn : forall b, wq p2 b = None).
    { intros b. destruct (Nat.lt_ge_cases b (nblk (base p2))) as [K|K]; [apply W6; rewrite (er_nblk _ _ _ D3); cbn; lia|]. apply (I_rng _ _ _ _ _ W2 b K). }
    assert (Rn : forall b m, sched p2 b = Some m -> m_read m = None).
    { intros b m Em. apply (W4 b); auto. apply Nat.ltb_lt. rewrite <- En. eapply (sched_rng W2). eassumption. }
    assert (Nr : forall b, reading p2 b -> False).
    { intros b [(m & k & r & K1 & K2 & _)|(g & w & K1 & _)]; [rewrite (Rn _ _ K1) in K2; discriminate|rewrite Wn in K1; discriminate]. }
    assert (Fe : fe q2 = F0) by (destruct W5; congruence).
    assert (Ev : forall b, In b F0 <-> b < nblk (base p2) /\ is_evictable (B p2 b) = true).
    { intros b. rewrite Fi, <- (I_ev _ _ _ _ _ W2). destruct W5. rewrite st_fep0, st_sep0, D8, D9. tauto. }
    pose proof (sort_perm (fe q2)) as Ps. rewrite Fe in *.
    split; [|split; [reflexivity|cbn; rewrite (er_nblk _ _ _ W3), En; reflexivity]].
    destruct W3. constructor; cbn [set_al remaining nalloc free_i nblk blk free_s al mem disk used ncall evictables]; rewrite ?er_nblk0, ?er_nal0, ?er_rem0, ?er_used0, ?er_frs0.
    + cbn [app]. apply (Permutation_count_occ Nat.eq_dec). intros j. change (cnt j (free_i (base q2) ++ held (nblk (base p2)) (blk (base q2))) = cnt j (seq 0 (nalloc (base p2)))).
      rewrite cnt_app, cnt_seq. cbn [Nat.leb andb plus]. rewrite <- (I_cnt _ _ _ _ _ W2 j). destruct W5. rewrite st_fri0, D5, st_frp0.
      rewrite (hl_split (nblk (base p2)) (hold p2) (rsv p2) (fun b => int (B p2 b)) j).
      * assert (E1 : hl (nblk (base p)) (rsv p1) = hl (nblk (base p2)) (rsv p2)) by (rewrite En; apply hl_ext; intros b _; symmetry; apply st_rsv0).
        rewrite E1. assert (E2 : held (nblk (base p2)) (blk (base q2)) = hl (nblk (base p2)) (fun b => int (B p2 b))) by (apply flat_map_ext_in; intros b _; rewrite er_blk0; reflexivity).
        rewrite E2. lia.
      * intros b. unfold hold, rsv. destruct (int (B p2 b)); reflexivity.
      * intros b i _ Ei. unfold rsv. destruct (sched p2 b) as [m|] eqn:Em; [|reflexivity]. apply (I_one _ _ _ _ _ W2 b m Em). congruence.
    + apply (I_max _ _ _ _ _ W2).
    + eapply Permutation_NoDup; [symmetry; exact Ps|assumption].
    + intros b. rewrite er_blk0. split; intros K.
      * assert (K2 : In b F0) by (eapply Permutation_in; [exact Ps|exact K]). apply Ev in K2. cbn. tauto.
      * eapply Permutation_in; [symmetry; exact Ps|]. apply Ev. tauto.
    + intros b e. rewrite er_blk0. apply (I_used _ _ _ _ _ W2).
    + intros b b' e. rewrite !er_blk0. apply (I_inj _ _ _ _ _ W2).
    + intros e d. rewrite er_disk0. apply (I_own _ _ _ _ _ W2).
    + apply (I_live _ _ _ _ _ W2).
    + apply (I_fnd _ _ _ _ _ W2).
    + apply (I_free _ _ _ _ _ W2).
    + intros b. rewrite er_blk0. apply (I_new _ _ _ _ _ W2).
    + apply (I_simu _ _ _ _ _ W2).
    + intros b _. rewrite er_blk0. unfold brel. split; [apply (I_rc _ _ _ _ _ W2)|].
      destruct (Nat.eq_dec (refs (vw c b)) 0) as [Er|Er].
      * destruct (val (vw c b)) as [x|] eqn:Evl.
        -- pose proof (I_data _ _ _ _ _ W2 b x Er Evl) as D. unfold data, dsk in D. rewrite Wn in D. destruct (int (B p2 b)) as [i|].
           ++ split; [|lia]. intros _. rewrite er_mem0. destruct (dirty (B p2 b)); [split; [congruence|discriminate]|]. destruct D as ((e & E1 & E2) & D).
              rewrite E1. cbn. rewrite er_disk0. split; [|congruence]. destruct D as [[]|[D|D]]; [congruence|]. exfalso. eauto.
           ++ destruct D as (E1 & e & E2 & E3). rewrite E2. cbn. rewrite er_disk0. csplit; auto. congruence.
        -- rewrite (I_un _ _ _ _ _ W2 b Er Evl). cbn. auto.
      * destruct (I_acq _ _ _ _ _ W2 b) as (i & A1 & A2 & A3 & A4 & A5 & A6); [lia|]. rewrite A1. split; [lia|]. intros _. rewrite er_mem0. csplit; auto.
        intros Ed. rewrite (A5 Ed). destruct (ext (B p2 b)); [cbn; rewrite er_disk0|]; reflexivity.
Qed.

Section Oracles.
Variable pick : nat -> list nat -> nat.
Variable dflt : option Z.
Hypothesis Fresh : fresh_blocks pick.

Lemma start_ok max s c ps o : R max [] [] s c -> simu c = false -> (forall k b, In (k, b) ps -> b < nblk s) -> (forall b, ~ In (op_extract_external_block, b) ps) ->
  exists p, pf_start pick s ps o = Ok p /\ PF max c p /\ pseqn p = ps /\ nblk (base p) = nblk s.
Proof.
  intros H Hs Hi He. unfold pf_start. set (fe0 := fold_left (fun l b => ins b l) (evictables (al s)) []).
  destruct (fold_ins (evictables (al s)) [] (NoDup_nil _)) as (Fn & Fi). fold fe0 in Fn, Fi.
  assert (H0 : Inv max [] [] c (mkP s fe0 [] (fun _ => None) (fun _ => None) (fun _ => None) 0 ps ps o)).
  { apply inv_first; auto. intros b. rewrite Fi. cbn. tauto. }
  set (p0 := mkP s fe0 [] (fun _ => None) (fun _ => None) (fun _ => None) 0 ps ps o) in *.
  destruct (inv_sched_loop pick Fresh max c None ps [] p0 H0 eq_refl) as (q & l1 & L1 & L2 & L3 & L4 & L5 & L6 & L7 & L8 & L9); auto.
  - intros b _ _ K. discriminate.
  - exact I.
  - intros K. contradiction.
  - exists q. split; [exact L1|]. csplit; auto. exists l1. cbn [app] in L3. csplit; auto.
    + rewrite L7. exact L2.
    + rewrite L7, L8. exact Hi.
    + rewrite L7. exact He.
Qed.

(** Runs. *)
Lemma prun_ok max ops : forall c p q rs ps, PF max c p -> prun pick dflt p ops = Ok (q, rs) -> legal_run c (combine ops rs) ->
  supported_run (nblk (base p)) c (combine ops rs) -> pseqn p = flat_map predicts ops ++ ps ->
  PF max (after_all c (combine ops rs)) q /\ agrees dflt c (combine ops rs) /\ length rs = length ops /\ pseqn q = ps /\ nblk (base q) = nblk (base p).
Proof.
  induction ops as [|o ops IH]; intros c p q rs ps P E L Sp Eq.
  - cbn in E. injection E as <- <-. cbn in *. csplit; auto.
  - cbn [prun] in E. destruct (pdo pick dflt p o) as [(p1, x)| |] eqn:E1; cbn [bind] in E; try discriminate.
    destruct (prun pick dflt p1 ops) as [(p2, xs)| |] eqn:E2; cbn [bind] in E; try discriminate. injection E as <- <-.
    cbn [combine legal_run agrees after_all supported_run] in *. destruct L as (L1 & L2), Sp as (Sp1 & Sp2).
    cbn [flat_map] in Eq. rewrite <- app_assoc in Eq.
    destruct (pdo_ok pick dflt Fresh max c p o _ P L1 Sp1 Eq) as [(q1 & x1 & K1 & K2 & K3 & K4 & K5)|(b & un & _ & K & _)]; [|congruence].
    rewrite E1 in K1. injection K1 as <- <-.
    destruct (IH _ p1 p2 xs ps K3 E2 L2) as (I1 & I2 & I3 & I4 & I5); auto; [rewrite K5; assumption|].
    csplit; auto; [cbn; congruence|congruence].
Qed.
Lemma prefetch_run_ok max m d ops rs s c ps o ops1 rs1 rest p c1 :
  prefetch_run pick dflt max m d ops rs s c ps o ops1 rs1 rest p c1 ->
  PF max c1 p /\ agrees dflt c (combine ops1 rs1) /\ length rs1 = length ops1 /\ pseqn p = rest /\ nblk (base p) = nblk s.
Proof.
  intros [(P1 & P2 & P3) pr_nosim0 pr_predictable0 pr_predicted0 pr_run0 pr_legal0 pr_supported0 pr_after0].
  pose proof (proj1 (run_R pick dflt Fresh _ _ _ _ _ _ (R_start max m d) P1 P2)) as HR. rewrite <- P3 in HR.
  destruct pr_predictable0 as (Q1 & Q2).
  destruct (start_ok max s c ps o HR pr_nosim0 Q1 Q2) as (p0 & E0 & K1 & K2 & K3). rewrite E0 in pr_run0. cbn [bind] in pr_run0.
  destruct (prun_ok max ops1 c p0 p rs1 rest K1 pr_run0 pr_legal0) as (I1 & I2 & I3 & I4 & I5); [congruence|congruence|].
  subst c1. csplit; auto. congruence.
Qed.
End Oracles.
