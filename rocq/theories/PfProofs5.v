(** Scheduling an operation: getting an internal block. *)
From Coq Require Import ZArith List Bool Lia Permutation Arith.
From Verif Require Import BsModel BsSpec BsProofs PfModel PfInv PfProofs1 PfProofs2 PfProofs3 PfProofs4.
Import ListNotations.

(** States that differ only in the representation of the maps. *)
Lemma inv_peq max L Q c p q : Inv max L Q c p ->
  fe q = fe p -> se q = se p -> uns q = uns p -> rds q = rds p -> nrd q = nrd p -> base q = base p ->
  (forall b, sched q b = sched p b) -> (forall b, wq q b = wq p b) -> Inv max L Q c q.
Proof.
  intros H E1 E2 E3 E4 E5 E6 E7 E8.
  assert (Hh : forall b, hold q b = hold p b) by (intros b; unfold hold; rewrite E6, E7; reflexivity).
  assert (So : forall b, sops q b = sops p b) by (intros b; unfold sops; rewrite E7; reflexivity).
  assert (D : forall b y, dsk p b y -> dsk q b y).
  { intros b y (e & D1 & D2). exists e. rewrite E6, E8. auto. }
  destruct H. constructor; rewrite ?E1, ?E2, ?E3, ?E4, ?E5, ?E6; auto; try (intros b; rewrite ?So, ?Hh; auto; fail).
  - intros i. rewrite (hl_ext _ (hold p) (hold q)) by (intros; apply Hh). auto.
  - intros b m. rewrite E7. apply I_one.
  - intros b Hb. rewrite E7, E8. auto.
  - intros g w. rewrite E8. intros E. destruct (I_w g w E) as (A1 & A2 & A3 & A4). csplit; auto.
    destruct (w_taker w).
    + destruct A4 as (m & T1 & T2 & T3 & T4 & T5 & T6 & T7). exists m. unfold taken.
      rewrite !E7, E8, E6, E2, So, Hh. csplit; auto.
    + unfold eager in *. rewrite E6, E3, E1, So. exact A4.
  - intros t m g. rewrite E7. intros K1 K2. destruct (I_g t m g K1 K2) as (A1 & A2 & A3 & A4 & A5). csplit; auto.
    intros w. rewrite E8. auto.
  - intros b m k. rewrite E7. intros K1 K2. destruct (I_r b m k K1 K2) as (r & A1 & A2 & A3 & A4 & A5 & A6 & A7 & A8 & A9 & A10).
    exists r. rewrite E8, So. csplit; auto. intros g w. rewrite E8. eauto.
  - intros k r K1 K2. destruct (I_k k r K1 K2) as (b & m & K3 & K4). exists b, m. rewrite E7. auto.
  - intros b b' m m' k. rewrite !E7. eauto.
  - intros b y K1 K2. specialize (I_data b y K1 K2). unfold data in *. rewrite E6.
    destruct (int (B p b)); [|destruct I_data; split; auto]. destruct (dirty (B p b)); [assumption|].
    destruct I_data as (D1 & D2). split; [auto|]. destruct D2 as [D2|[D2|D2]]; auto. right; right.
    destruct D2 as [(m & k & r & R1 & R2)|(g & w & R1 & R2)]; [left; exists m, k, r; rewrite E7, E4; auto|right; exists g, w; rewrite E8; auto].
  - intros b Hb. specialize (I_acq b Hb). unfold acqd in *. rewrite E6. exact I_acq.
  - intros b m. rewrite E7. apply I_ne.
  - intros b m. rewrite E7. apply I_res.
Qed.

Lemma no_eager max L Q c p g w : Inv max L Q c p -> uns p <> [] -> wq p g = Some w -> exists t, w_taker w = Some t.
Proof.
  intros H N E. destruct (I_w _ _ _ _ _ H g w E) as (_ & _ & _ & K). destruct (w_taker w) as [t|]; [eauto|].
  destruct K as (_ & _ & K & _). contradiction.
Qed.

Lemma inv_uns max L Q c p r : Inv max L Q c p -> uns p <> [] -> Inv max L Q c (set_uns p r).
Proof.
  intros H N. pose proof H as H0. destruct H. constructor; usimp; auto.
  intros g w E. destruct (no_eager _ _ _ _ _ _ _ H0 N E) as (t & Et).
  destruct (I_w g w E) as (A1 & A2 & A3 & A4). csplit; auto. rewrite Et in *. exact A4.
Qed.
Lemma inv_seq max L Q c p r : Inv max L Q c p -> Inv max L Q c (set_seq p r).
Proof. intros []. constructor; assumption. Qed.

Definition push (p : pst) (k : pop_kind) (b : nat) : meta :=
  match sched p b with
  | None => mkM None (false, 0) None [k]
  | Some m => set_ops m (m_ops m ++ [k])
  end.

Lemma proj_new b k Q x : proj x (Q ++ [(k, b)]) = if Nat.eqb b x then proj x Q ++ [k] else proj x Q.
Proof. rewrite proj_app, proj_cons. destruct (Nat.eqb b x); [reflexivity|]. cbn. apply app_nil_r. Qed.

(** An operation is added; the block may move to the scheduled set. *)
Lemma inv_push max L Q c p k b fe' se' : Inv max L Q c p -> b < nblk (base p) -> uns p <> [] ->
  NoDup fe' -> NoDup se' -> incl fe' (fe p) -> incl (se p) se' ->
  (forall x, In x fe' \/ In x se' <-> In x (fe p) \/ In x (se p)) -> (forall x, In x fe' -> In x se' -> False) ->
  (In b fe' -> keep (dirty (B p b)) [k] = false) ->
  (forall x, In x se' -> In x (se p) \/ x = b /\ keep (dirty (B p b)) [k] = true) ->
  (is_acq k = true -> hold p b <> None) ->
  Inv max L (Q ++ [(k, b)]) c (put_meta (set_se (set_fe p fe') se') b (push p k b)).
Proof.
  intros H Hb Hu N1 N2 I1 I2 Hi Hd Hf Hs Ha. pose proof H as H0. destruct H.
  set (q := put_meta (set_se (set_fe p fe') se') b (push p k b)).
  assert (Hh : forall x, hold q x = hold p x).
  { intros x. subst q. unfold hold, push. usimp. destruct (int (B p x)); [reflexivity|]. ucase; [|reflexivity].
    destruct (sched p b) as [m|]; reflexivity. }
  assert (So : forall x, sops q x = if Nat.eqb x b then sops p x ++ [k] else sops p x).
  { intros x. subst q. unfold sops, push. usimp. ucase; [|reflexivity].
    destruct (sched p b) as [m|]; reflexivity. }
  assert (Sk : forall x d, keep d (sops p x) = true -> keep d (sops q x) = true).
  { intros x d E. rewrite So. destruct (Nat.eqb x b); [|assumption]. rewrite keep_app, E. reflexivity. }
  assert (Sn : forall x, nxt_acq (sops p x) = true -> nxt_acq (sops q x) = true).
  { intros x E. rewrite So. destruct (Nat.eqb x b); [|assumption]. apply nxt_app. assumption. }
  assert (Sc : forall x m, sched q x = Some m -> (x <> b /\ sched p x = Some m) \/
     (x = b /\ sched p b = None /\ m = mkM None (false, 0) None [k]) \/
     (x = b /\ exists m0, sched p b = Some m0 /\ m = set_ops m0 (m_ops m0 ++ [k]))).
  { intros x m E. subst q. usimp. ucase; [|auto]. injection E as <-. right. unfold push. destruct (sched p b) as [m0|]; [right|left]; eauto. }
  assert (Fw : forall x m0, sched p x = Some m0 -> exists m, sched q x = Some m /\ m_res m = m_res m0 /\ m_giver m = m_giver m0 /\ m_read m = m_read m0).
  { intros x m0 E. subst q. usimp. ucase; [|eauto]. unfold push. rewrite E. eauto. }
  assert (Bw : forall x m, sched q x = Some m -> (fst (m_giver m) = true \/ m_read m <> None \/ m_res m <> None) ->
     exists m0, sched p x = Some m0 /\ m_res m = m_res m0 /\ m_giver m = m_giver m0 /\ m_read m = m_read m0).
  { intros x m E K. destruct (Sc _ _ E) as [(n & E')|[(-> & E' & ->)|(-> & m0 & E' & ->)]]; [eauto 6| |eauto 6].
    cbn in K. exfalso. destruct K as [K|[K|K]]; congruence. }
  change (Inv max L (Q ++ [(k, b)]) c q).
  constructor; change (base q) with (base p); change (fe q) with fe'; change (se q) with se';
    change (wq q) with (wq p); change (rds q) with (rds p); change (nrd q) with (nrd p); auto.
  - intros i. rewrite (hl_ext _ (hold p) (hold q)) by (intros; apply Hh). auto.
  - intros x m E N. destruct (m_res m) as [r|] eqn:Em; [|reflexivity]. exfalso.
    destruct (Bw x m E) as (m0 & K1 & K2 & _); [right; right; congruence|]. pose proof (I_one x m0 K1 N). congruence.
  - intros x Hx. destruct (I_rng x Hx) as (K1 & K2). split; [|assumption]. subst q. usimp. rewrite upd_other by lia. assumption.
  - intros g w E. destruct (I_w g w E) as (A1 & A2 & A3 & A4). csplit; auto.
    destruct (no_eager _ _ _ _ _ _ _ H0 Hu E) as (t & Et). rewrite Et in *.
    destruct A4 as (m0 & T1 & T2 & T3 & T4 & T5 & T6 & T7). destruct (Fw t m0 T1) as (m & M1 & M2 & M3 & M4).
    exists m. unfold taken. rewrite Hh, M3, M4. change (base q) with (base p). change (wq q) with (wq p). change (se q) with se'.
    csplit; auto. intros Es. destruct (T7 Es) as (S1 & S2 & S3 & S4 & S5 & S6 & S7 & S8 & S9 & S10). csplit; auto.
  - intros t m g E Eg. destruct (Bw t m E) as (m0 & K1 & K2 & K3 & K4); [left; rewrite Eg; reflexivity|].
    rewrite K3 in Eg. destruct (I_g t m0 g K1 Eg) as (A1 & A2 & A3 & A4 & A5). csplit; auto. apply prec_app. assumption.
  - intros x m r E Er. destruct (Bw x m E) as (m0 & K1 & K2 & K3 & K4); [right; left; congruence|].
    rewrite K4 in Er. destruct (I_r x m0 r K1 Er) as (r' & A1 & A2 & A3 & A4 & A5 & A6 & A7 & A8 & A9 & A10).
    exists r'. rewrite K3. csplit; auto.
  - intros r r' K1 K2. destruct (I_k r r' K1 K2) as (x & m0 & K3 & K4). destruct (Fw x m0 K3) as (m & M1 & M2 & M3 & M4).
    exists x, m. split; [assumption|congruence].
  - intros x x' m m' r E1 R1 E2 R2.
    destruct (Bw x m E1) as (m0 & K1 & K2 & K3 & K4); [right; left; congruence|].
    destruct (Bw x' m' E2) as (m0' & K1' & K2' & K3' & K4'); [right; left; congruence|]. rewrite K4 in R1. rewrite K4' in R2. eauto.
  - intros x y K1 K2. specialize (I_data x y K1 K2). unfold data in *. change (base q) with (base p).
    destruct (int (B p x)); [|exact I_data]. destruct (dirty (B p x)); [exact I_data|].
    destruct I_data as (D1 & D2). split; [exact D1|]. destruct D2 as [D2|[D2|D2]]; auto. right; right.
    destruct D2 as [(m0 & r & r' & R1 & R2 & R3)|D2]; [left|right; exact D2].
    destruct (Fw x m0 R1) as (m & M1 & M2 & M3 & M4). exists m, r, r'. csplit; auto; [congruence|apply R3..].
  - intros x. rewrite So, proj_new, I_ops. rewrite (Nat.eqb_sym x b). destruct (Nat.eqb_spec b x); [subst|]; reflexivity.
  - intros x m E. destruct (Sc _ _ E) as [(n & E')|[(-> & E' & ->)|(-> & m0 & E' & ->)]]; usimp; eauto; [discriminate|].
    intros K. apply app_eq_nil in K. destruct K; discriminate.
  - intros x. rewrite Hi. auto.
  - intros x Hx. rewrite So. specialize (I_fe x (I1 x Hx)). destruct (Nat.eqb_spec x b) as [->|n]; [|assumption].
    rewrite keep_app, I_fe. cbn [orb]. auto.
  - intros x Hx. destruct (Hs x Hx) as [Hx'|(-> & Hk)]; [apply Sk; auto|]. rewrite So, Nat.eqb_refl, keep_app, Hk. apply orb_true_r.
  - intros x m E N. destruct (Bw x m E) as (m0 & K1 & K2 & _); [right; right; assumption|]. rewrite K2 in N.
    specialize (I_res x m0 K1 N). assert (K : has_acq (sops q x) = true).
    { rewrite <- keep_false. apply Sk. rewrite keep_false. unfold sops. rewrite K1. assumption. }
    unfold sops in K. rewrite E in K. assumption.
  - intros x. rewrite So, Hh. destruct (Nat.eqb_spec x b) as [->|n]; [|auto]. rewrite has_acq_app. intros K.
    apply orb_true_iff in K. destruct K as [K|K]; [auto|]. cbn in K. rewrite orb_false_r in K. auto.
  - intros x Hx. destruct (I_lim x Hx) as (K1 & K2 & K3). csplit; auto.
Qed.

(** ** A free internal block *)

Definition budget (p : pst) : nat := length (fe p) + length (free_i (base p)) + remaining (base p).

Lemma cnt_seq i a n : cnt i (seq a n) = if (Nat.leb a i && Nat.ltb i (a + n))%bool then 1 else 0.
Proof.
  pose proof (seq_NoDup n a) as N. pose proof (proj1 (NoDup_count_occ Nat.eq_dec _) N i) as K. fold (cnt i (seq a n)) in K.
  pose proof (cnt_in i (seq a n)) as C. rewrite in_seq in C.
  destruct (Nat.leb_spec a i), (Nat.ltb_spec i (a + n)); cbn [andb]; lia.
Qed.

Lemma get_free_ok s s1 i : get_free s = Some (s1, i) ->
  (forall j, cnt j (free_i s1) + (if Nat.eq_dec i j then 1 else 0) + (if Nat.ltb j (nalloc s) then 1 else 0) =
             cnt j (free_i s) + (if Nat.ltb j (nalloc s1) then 1 else 0)) /\
  nalloc s1 + remaining s1 = nalloc s + remaining s /\
  length (free_i s) + remaining s = S (length (free_i s1) + remaining s1) /\
  nblk s1 = nblk s /\ blk s1 = blk s /\ free_s s1 = free_s s /\ mem s1 = mem s /\ disk s1 = disk s /\ used s1 = used s.
Proof.
  unfold get_free. destruct (free_i s) as [|i0 r] eqn:Ef.
  - destruct (Nat.ltb_spec 0 (remaining s)) as [Hr|]; [|discriminate].
    remember (Nat.min alloc_at_once (remaining s)) as num eqn:En. intros E. injection E as <- <-.
    assert (1 <= num <= remaining s) by (unfold alloc_at_once in En; lia). clear En.
    cbn [remaining nalloc free_i nblk blk free_s mem disk used]. rewrite seq_length. csplit; auto; try lia; try (cbn; lia).
    intros j. rewrite cnt_seq. change (cnt j []) with 0.
    destruct (Nat.leb_spec (nalloc s + 1) j), (Nat.ltb_spec j (nalloc s + 1 + (num - 1))), (Nat.eq_dec (nalloc s) j),
      (Nat.ltb_spec j (nalloc s)), (Nat.ltb_spec j (nalloc s + num)); cbn [andb]; lia.
  - intros E. injection E as <- <-. cbn. csplit; auto. intros j. unfold cnt.
    destruct (Nat.eq_dec i0 j); destruct (Nat.ltb j (nalloc s)); lia.
Qed.
Lemma get_free_none s : get_free s = None <-> length (free_i s) + remaining s = 0.
Proof.
  unfold get_free. destruct (free_i s); cbn [length]; [|split; [discriminate|lia]].
  destruct (Nat.ltb_spec 0 (remaining s)); split; try discriminate; try lia; auto.
Qed.

(** A block without an internal block is the taker of no request. *)
Lemma no_hold_no_giver max L Q c p b m : Inv max L Q c p -> sched p b = Some m -> hold p b = None -> fst (m_giver m) = false.
Proof.
  intros H E N. destruct (m_giver m) as (f, g) eqn:Eg. destruct f; [|reflexivity]. exfalso.
  destruct (I_g _ _ _ _ _ H b m g E Eg) as (_ & _ & _ & K & _). apply prec_has in K. rewrite <- (I_ops _ _ _ _ _ H) in K.
  apply (I_nores _ _ _ _ _ H) in K. contradiction.
Qed.

Section Reserve.
Variables (max : nat) (Q : list (pop_kind * nat)) (c : client) (p q : pst).
Variables (b i : nat) (k : pop_kind) (gv : bool * nat) (mb' : meta).
Hypothesis H : Inv max [] Q c p.
Hypothesis Hu : uns p <> [].
Hypothesis Hb : b < nblk (base p).
Hypothesis Hk : is_acq k = true.
Hypothesis Nb : hold p b = None.
Hypothesis q_se : se q = se p.
Hypothesis q_rds : rds q = rds p.
Hypothesis q_nrd : nrd q = nrd p.
Hypothesis q_nblk : nblk (base q) = nblk (base p).
Hypothesis q_frs : free_s (base q) = free_s (base p).
Hypothesis q_mem : mem (base q) = mem (base p).
Hypothesis q_disk : disk (base q) = disk (base p).
Hypothesis q_sb : sched q b = Some mb'.
Hypothesis q_s : forall x, x <> b -> sched q x = sched p x.
Hypothesis q_mb : mb' = mkM (Some i) gv None (sops p b ++ [k]).

Lemma r_int : int (B p b) = None.
Proof. unfold hold in Nb. destruct (int (B p b)); [discriminate|reflexivity]. Qed.
Lemma r_read m : sched p b = Some m -> m_read m = None.
Proof.
  intros E. destruct (m_read m) as [r|] eqn:Er; [|reflexivity]. exfalso.
  destruct (I_r _ _ _ _ _ H b m r E Er) as (r' & _ & K & _). rewrite r_int in K. discriminate.
Qed.
Lemma r_ops x : sops q x = if Nat.eqb x b then sops p x ++ [k] else sops p x.
Proof.
  unfold sops at 1. destruct (Nat.eqb_spec x b) as [->|n]; [rewrite q_sb, q_mb; reflexivity|rewrite q_s by assumption; reflexivity].
Qed.
Lemma r_acq : has_acq (sops p b) = false.
Proof. destruct (has_acq (sops p b)) eqn:E; [|reflexivity]. apply (I_nores _ _ _ _ _ H) in E. contradiction. Qed.
Lemma r_keep x d : keep d (sops p x) = true -> keep d (sops q x) = true.
Proof. intros E. rewrite r_ops. destruct (Nat.eqb x b); [|assumption]. rewrite keep_app, E. reflexivity. Qed.
Lemma r_nxt x : nxt_acq (sops p x) = true -> nxt_acq (sops q x) = true.
Proof. intros E. rewrite r_ops. destruct (Nat.eqb x b); [|assumption]. apply nxt_app. assumption. Qed.
Lemma r_no_taker g w : wq p g = Some w -> w_taker w = Some b -> False.
Proof.
  intros E Et. destruct (I_w _ _ _ _ _ H g w E) as (_ & _ & _ & K). rewrite Et in K.
  destruct K as (m & _ & _ & K & _). congruence.
Qed.
Lemma r_not_se : ~ In b (se p).
Proof. intros E. destruct (se_facts H b E) as (_ & _ & i' & x & K & _). rewrite r_int in K. discriminate. Qed.
Lemma r_not_fe : ~ In b (fe p).
Proof. intros E. destruct (ev_facts H b (proj2 (fe_ev H b E))) as (_ & _ & i' & x & K & _). rewrite r_int in K. discriminate. Qed.

(** *** From the free blocks *)
Section Free.
Hypothesis q_fe : fe q = fe p.
Hypothesis q_gv : fst gv = false.
Hypothesis q_B : forall x, B q x = B p x.
Hypothesis q_wq : forall x, wq q x = wq p x.
Hypothesis q_used : used (base q) = used (base p).
Hypothesis q_cnt : forall j, cnt j (free_i (base q)) + (if Nat.eq_dec i j then 1 else 0) + (if Nat.ltb j (nalloc (base p)) then 1 else 0) =
             cnt j (free_i (base p)) + (if Nat.ltb j (nalloc (base q)) then 1 else 0).
Hypothesis q_max : nalloc (base q) + remaining (base q) = nalloc (base p) + remaining (base p).

Lemma rf_hold x : hold q x = if Nat.eqb x b then Some i else hold p x.
Proof.
  unfold hold. rewrite q_B. destruct (Nat.eqb_spec x b) as [->|n].
  - rewrite r_int, q_sb, q_mb. reflexivity.
  - rewrite q_s by assumption. reflexivity.
Qed.

Lemma inv_reserve_free : Inv max [] (Q ++ [(k, b)]) c q.
Proof.
  pose proof H as H0. pose proof r_not_se as NS. pose proof r_int as NI. destruct H.
  assert (D : forall x y, dsk p x y -> dsk q x y).
  { intros x y (e & D1 & D2). exists e. rewrite q_B, q_wq, q_disk. auto. }
  constructor; rewrite ?q_fe, ?q_se, ?q_rds, ?q_nrd, ?q_nblk, ?q_frs, ?q_mem, ?q_disk, ?q_used; auto;
    try (intros x; rewrite ?q_B; auto; fail).
  - intros j. pose proof (I_cnt j) as K. pose proof (q_cnt j) as K2.
    pose proof (hl_upd (nblk (base p)) (hold p) (hold q) b j Hb) as K3. rewrite rf_hold, Nat.eqb_refl, Nb in K3. cbn [opt] in K3.
    rewrite cnt_cons in K3. cbn [cnt count_occ] in K3.
    assert (A : forall x, x <> b -> hold q x = hold p x).
    { intros x n. rewrite rf_hold. destruct (Nat.eqb_spec x b); [contradiction|reflexivity]. }
    specialize (K3 A). lia.
  - lia.
  - intros x m E N. rewrite q_B in N. destruct (Nat.eq_dec x b) as [->|n]; [congruence|]. rewrite q_s in E by assumption. eauto.
  - intros x e. rewrite q_B. apply I_used.
  - intros x x' e. rewrite !q_B. apply I_inj.
  - intros x Hx. rewrite q_wq, q_s by lia. auto.
  - intros g w. rewrite q_wq. intros E. destruct (I_w g w E) as (A1 & A2 & A3 & A4). rewrite !q_B. csplit; auto.
    destruct (no_eager _ _ _ _ _ _ _ H0 Hu E) as (t & Et). rewrite Et in *.
    destruct A4 as (m & T1 & T2 & T3 & T4 & T5 & T6 & T7).
    assert (Nt : t <> b) by (intros ->; eapply r_no_taker; eassumption).
    exists m. unfold taken. rewrite !q_B, q_s, rf_hold, q_mem, q_se, q_wq by assumption.
    destruct (Nat.eqb_spec t b) as [|_]; [contradiction|]. csplit; auto.
    intros Es. destruct (T7 Es) as (S1 & S2 & S3 & S4 & S5 & S6 & S7 & S8 & S9 & S10). csplit; auto. apply r_nxt. assumption.
  - intros t m g E Eg. rewrite !q_B. destruct (Nat.eq_dec t b) as [->|n].
    { rewrite q_sb, q_mb in E. injection E as <-. usimp. rewrite Eg in q_gv. discriminate. }
    rewrite q_s in E by assumption. destruct (I_g t m g E Eg) as (A1 & A2 & A3 & A4 & A5). csplit; auto.
    + apply prec_app. assumption.
    + intros w. rewrite q_wq. auto.
  - intros x m r E Er. destruct (Nat.eq_dec x b) as [->|n].
    { rewrite q_sb, q_mb in E. injection E as <-. discriminate. }
    rewrite q_s in E by assumption. destruct (I_r x m r E Er) as (r' & A1 & A2 & A3 & A4 & A5 & A6 & A7 & A8 & A9 & A10).
    exists r'. rewrite q_B, q_wq. csplit; auto; [apply r_nxt; assumption|]. intros g w. rewrite q_wq. eauto.
  - intros r r' K1 K2. destruct (I_k r r' K1 K2) as (x & m & K3 & K4). exists x, m. split; [|assumption].
    rewrite q_s; [assumption|]. intros ->. rewrite (r_read m) in K4 by assumption. discriminate.
  - intros x x' m m' r E1 R1 E2 R2.
    assert (K : forall x m, sched q x = Some m -> m_read m = Some r -> sched p x = Some m).
    { intros y my Ey Ky. rewrite <- q_s; [assumption|]. intros ->. rewrite q_sb, q_mb in Ey. injection Ey as <-. discriminate. }
    eauto.
  - intros x y K1 K2. specialize (I_data x y K1 K2). unfold data in *. rewrite q_B, q_mem.
    destruct (int (B p x)); [|destruct I_data; split; auto]. destruct (dirty (B p x)); [assumption|].
    destruct I_data as (D1 & D2). split; [auto|]. destruct D2 as [[]|[D2|D2]]; auto. right; right.
    destruct D2 as [(m & r & r' & R1 & R2 & R3)|(g & w & R1 & R2)].
    + left. exists m, r, r'. rewrite q_s, q_rds; auto. intros ->. rewrite (r_read m R1) in R2. discriminate.
    + right. exists g, w. rewrite q_wq. auto.
  - intros x Hx. specialize (I_acq x Hx). unfold acqd in *. rewrite q_B, q_mem, q_disk. exact I_acq.
  - intros x. rewrite r_ops, proj_new, I_ops. rewrite (Nat.eqb_sym x b). destruct (Nat.eqb_spec b x); [subst|]; reflexivity.
  - intros x m E. destruct (Nat.eq_dec x b) as [->|n]; [|rewrite q_s in E by assumption; eauto].
    rewrite q_sb, q_mb in E. injection E as <-. usimp. intros K. apply app_eq_nil in K. destruct K; discriminate.
  - intros x Hx. rewrite q_B, r_ops. destruct (Nat.eqb_spec x b) as [->|n]; [|auto]. exfalso. apply r_not_fe. assumption.
  - intros x Hx. rewrite q_B. apply r_keep. auto.
  - intros x m E N. destruct (Nat.eq_dec x b) as [->|n]; [|rewrite q_s in E by assumption; eauto].
    rewrite q_sb, q_mb in E. injection E as <-. usimp. rewrite has_acq_app. cbn. rewrite Hk. rewrite orb_true_r. reflexivity.
  - intros x. rewrite rf_hold, r_ops. destruct (Nat.eqb_spec x b); [discriminate|auto].
  - intros x [].
Qed.
End Free.

(** *** From an evictable block *)
Section Evict.
Variables (g e : nat) (x : Z).
Hypothesis Fresh_e : ext (B p g) = Some e /\ used (base q) = used (base p) \/
  ext (B p g) = None /\ dirty (B p g) = true /\ used (base q) = e :: used (base p) /\ ~ In e (used (base p)).
Hypothesis Hg : In g (fe p).
Hypothesis Ig : int (B p g) = Some i.
Hypothesis q_fe : forall y, In y (fe q) <-> In y (fe p) /\ y <> g.
Hypothesis q_fend : NoDup (fe q).
Hypothesis q_free : free_i (base q) = free_i (base p).
Hypothesis q_rem : remaining (base q) = remaining (base p).
Hypothesis q_nal : nalloc (base q) = nalloc (base p).
Hypothesis q_gv : gv = (dirty (B p g), g).
Hypothesis q_Bg : B q g = mkSb (Some e) None false (rc (B p g)).
Hypothesis q_B : forall y, y <> g -> B q y = B p y.
Hypothesis q_wg : wq q g = if dirty (B p g) then Some (mkW i e Queued false 0 (Some b)) else wq p g.
Hypothesis q_w : forall y, y <> g -> wq q y = wq p y.

Lemma e_ne : g <> b.
Proof. intros ->. rewrite r_int in Ig. discriminate. Qed.
Lemma e_acq : keep (dirty (B p g)) (sops p g) = false.
Proof. apply (I_fe _ _ _ _ _ H). assumption. Qed.
Lemma e_noacq : has_acq (sops p g) = false.
Proof. eapply keep_no_acq. apply e_acq. Qed.
Lemma e_no_nxt : nxt_acq (sops p g) = true -> False.
Proof. intros E. apply nxt_has in E. rewrite e_noacq in E. discriminate. Qed.
Lemma e_no_giver m h : sched p g = Some m -> m_giver m = (true, h) -> False.
Proof.
  intros E Eg. destruct (I_g _ _ _ _ _ H g m h E Eg) as (_ & _ & _ & K & _). apply prec_has in K.
  rewrite <- (I_ops _ _ _ _ _ H), e_noacq in K. discriminate.
Qed.
Lemma e_no_taker h w : wq p h = Some w -> w_taker w = Some g -> False.
Proof.
  intros E Et. destruct (I_w _ _ _ _ _ H h w E) as (_ & _ & _ & K). rewrite Et in K.
  destruct K as (m & K1 & K2 & _). eapply e_no_giver; eassumption.
Qed.
Lemma e_wg : wq p g = None.
Proof.
  destruct (wq p g) as [w|] eqn:E; [|reflexivity]. exfalso. destruct (no_eager _ _ _ _ _ _ _ H Hu E) as (t & Et).
  destruct (I_w _ _ _ _ _ H g w E) as (_ & _ & _ & K). rewrite Et in K. destruct K as (m & K1 & K2 & _ & _ & K & _).
  destruct K as [K|[K|[]]]; [congruence|]. subst t. eapply e_no_giver; eassumption.
Qed.
Lemma e_read m r : sched p g = Some m -> m_read m = Some r -> False.
Proof.
  intros E Er. destruct (I_r _ _ _ _ _ H g m r E Er) as (r' & _ & _ & _ & _ & _ & _ & _ & K & _). apply e_no_nxt. assumption.
Qed.
Lemma e_res : hold q g = None.
Proof.
  unfold hold. rewrite q_Bg, q_s by apply e_ne. cbn [int]. destruct (sched p g) as [m|] eqn:E; [|reflexivity].
  apply (I_one _ _ _ _ _ H g m E). rewrite Ig. discriminate.
Qed.
Lemma e_hold_b : hold q b = Some i.
Proof. unfold hold. rewrite q_B by (apply not_eq_sym, e_ne). rewrite r_int, q_sb, q_mb. reflexivity. Qed.
Lemma e_hold y : y <> b -> y <> g -> hold q y = hold p y.
Proof. intros n1 n2. unfold hold. rewrite q_B, q_s by assumption. reflexivity. Qed.
Lemma e_reading : reading p g -> False.
Proof.
  intros [(m & r & r' & R1 & R2 & _)|(h & w & R1 & _ & R2 & _)]; [eapply e_read; eassumption|eapply e_no_taker; eassumption].
Qed.
Lemma e_ext y e' : ext (B q y) = Some e' -> ext (B p y) = Some e' \/ (y = g /\ e' = e).
Proof. destruct (Nat.eq_dec y g) as [->|n]; [rewrite q_Bg; cbn; intros E; injection E as <-; auto|rewrite q_B by assumption; auto]. Qed.
Lemma e_dsk y z : y <> g -> dsk p y z -> dsk q y z.
Proof. intros n (e' & D1 & D2). exists e'. rewrite q_B, q_w, q_disk by assumption. auto. Qed.
Lemma e_wq y w : wq q y = Some w -> wq p y = Some w \/ (y = g /\ dirty (B p g) = true /\ w = mkW i e Queued false 0 (Some b)).
Proof.
  intros E. destruct (Nat.eq_dec y g) as [->|n]; [|rewrite q_w in E by assumption; auto].
  rewrite q_wg in E. destruct (dirty (B p g)); [injection E as <-|]; auto.
Qed.
Lemma e_wfw y w : wq p y = Some w -> wq q y = Some w.
Proof. intros E. rewrite q_w; [assumption|]. intros ->. rewrite e_wg in E. discriminate. Qed.

Lemma inv_reserve_evict : Inv max [] (Q ++ [(k, b)]) c q.
Proof.
  pose proof H as H0. pose proof r_not_se as NS. pose proof r_int as NI. pose proof e_ne as Ne.
  assert (Rg := fe_ev H g Hg). destruct Rg as (Rg & Eg). destruct (ev_facts H g Eg) as (C1 & C2 & i' & x' & C3 & C4 & C5).
  rewrite Ig in C3. injection C3 as <-. unfold data in C5. rewrite Ig in C5.
  assert (NoO : forall d, own c e = Some d -> False).
  { intros d E. destruct Fresh_e as [(F1 & F2)|(F1 & F2 & F3 & F4)].
    - destruct (I_used _ _ _ _ _ H g e F1). congruence.
    - destruct (I_own _ _ _ _ _ H e d E). contradiction. }
  assert (Ue : incl (used (base p)) (used (base q))).
  { destruct Fresh_e as [(F1 & F2)|(F1 & F2 & F3 & F4)]; [rewrite F2|rewrite F3]; intros y; [auto|right; assumption]. }
  assert (Ie : In e (used (base q))).
  { destruct Fresh_e as [(F1 & F2)|(F1 & F2 & F3 & F4)]; [rewrite F2; eapply I_used; eassumption|rewrite F3; left; reflexivity]. }
  assert (Ue' : forall y, ext (B p y) = Some e -> y = g).
  { intros y E. destruct Fresh_e as [(F1 & F2)|(F1 & F2 & F3 & F4)]; [eapply I_inj; eassumption|].
    exfalso. apply F4. eapply I_used; eassumption. }
  assert (Ix : forall y, ext (B q y) = Some e -> y = g).
  { intros y E. destruct (e_ext _ _ E) as [E'|(-> & _)]; auto. }
  destruct H. constructor; rewrite ?q_se, ?q_rds, ?q_nrd, ?q_nblk, ?q_frs, ?q_mem, ?q_disk, ?q_free, ?q_rem, ?q_nal; auto.
  - intros j. pose proof (I_cnt j) as K. rewrite (hl_swap _ (hold p) (hold q) b g); auto; [apply e_hold| |].
    + rewrite e_hold_b. symmetry. apply (hold_int _ _ Ig).
    + rewrite e_res, Nb. reflexivity.
  - intros y m E N. destruct (Nat.eq_dec y b) as [->|n1]; [rewrite q_B in N by auto; congruence|].
    destruct (Nat.eq_dec y g) as [->|n2]; [rewrite q_Bg in N; contradiction|].
    rewrite q_s in E by assumption. rewrite q_B in N by assumption. eauto.
  - intros y e' E. destruct (e_ext _ _ E) as [E'|(-> & ->)].
    + destruct (I_used y e' E'). split; [apply Ue; assumption|assumption].
    + split; [assumption|]. destruct (own c e) as [d|] eqn:Eo; [exfalso; eauto|reflexivity].
  - intros y y' e' E1 E2. destruct (e_ext _ _ E1) as [E1'|(K1 & K1')]; destruct (e_ext _ _ E2) as [E2'|(K2 & K2')]; subst; eauto.
    symmetry. auto.
  - intros e' d E. destruct (I_own e' d E). split; [apply Ue; assumption|assumption].
  - intros y Hy. destruct (I_new y Hy) as (K1 & K2). split; [|assumption]. rewrite q_B; [assumption|].
    intros ->. rewrite K1 in Ig. discriminate.
  - intros y Hy. destruct (I_rng y Hy) as (K1 & K2). rewrite q_s by lia. split; [assumption|]. rewrite q_w by lia. assumption.
  - (* I_w *)
    intros h w E. destruct (e_wq h w E) as [E'|(-> & Hd & ->)].
    + assert (n : h <> g) by (intros ->; rewrite e_wg in E'; discriminate).
      destruct (I_w h w E') as (A1 & A2 & A3 & A4). rewrite q_B by assumption. csplit; auto.
      destruct (no_eager _ _ _ _ _ _ _ H0 Hu E') as (t & Et). rewrite Et in *.
      destruct A4 as (m & T1 & T2 & T3 & T4 & T5 & T6 & T7).
      assert (Nt : t <> b) by (intros ->; eapply r_no_taker; eassumption).
      assert (Ng : t <> g) by (intros ->; eapply e_no_taker; eassumption).
      exists m. unfold taken. rewrite !q_B, q_s, e_hold, q_mem, q_se by assumption. csplit; auto.
      intros Es. destruct (T7 Es) as (S1 & S2 & S3 & S4 & S5 & S6 & S7 & S8 & S9 & S10). csplit; auto.
      * rewrite q_w; assumption.
      * apply r_nxt. assumption.
    + rewrite q_Bg. usimp. csplit; auto. exists mb'. unfold taken. rewrite e_hold_b, q_Bg, q_mem, (q_B b) by auto.
      rewrite Hd in C5. usimp. csplit; auto.
      * rewrite q_mb. usimp. rewrite q_gv, Hd. reflexivity.
      * intros _ y Hy. rewrite C4 in Hy. injection Hy as <-. assumption.
      * intros N. first [congruence|cbv in N; discriminate N].
  - (* I_g *)
    intros t m h E Eh. destruct (Nat.eq_dec t b) as [->|n].
    + rewrite q_sb, q_mb in E. injection E as <-. usimp. rewrite q_gv in Eh. injection Eh as Hd <-.
      rewrite q_Bg, q_B by auto. cbn [rc]. csplit; auto.
      * destruct (Nat.eq_dec (rc (B p b)) 0) as [K|K]; [assumption|]. exfalso. rewrite I_rc in K.
        destruct (I_acq b) as (j & K2 & _); [lia|]. congruence.
      * intros K. apply q_fe in K. destruct K as (_ & K). congruence.
      * apply prec_new; [assumption|]. rewrite <- I_ops. rewrite <- Hd. apply e_acq.
      * intros w E. destruct (e_wq _ _ E) as [E'|(_ & _ & ->)]; [rewrite e_wg in E'; discriminate|reflexivity].
    + rewrite q_s in E by assumption. destruct (I_g t m h E Eh) as (A1 & A2 & A3 & A4 & A5).
      assert (Nh : h <> g) by (intros ->; contradiction).
      assert (Nt : t <> g) by (intros ->; eapply e_no_giver; eassumption).
      rewrite !q_B by assumption. csplit; auto.
      * intros K. apply q_fe in K. destruct K. contradiction.
      * apply prec_app. assumption.
      * intros w. rewrite q_w by assumption. auto.
  - intros y m r E Er. destruct (Nat.eq_dec y b) as [->|n].
    { rewrite q_sb, q_mb in E. injection E as <-. discriminate. }
    rewrite q_s in E by assumption. assert (n' : y <> g) by (intros ->; eapply e_read; eassumption).
    destruct (I_r y m r E Er) as (r' & A1 & A2 & A3 & A4 & A5 & A6 & A7 & A8 & A9 & A10).
    exists r'. rewrite q_B, q_w by assumption. csplit; auto; [apply r_nxt; assumption|]. intros h w Eh Ew.
    destruct (e_wq _ _ Ew) as [E'|(-> & _ & ->)]; [eauto|]. exfalso.
    destruct (I_g y m g E Eh) as (_ & _ & K & _). contradiction.
  - intros r r' K1 K2. destruct (I_k r r' K1 K2) as (y & m & K3 & K4). exists y, m. split; [|assumption].
    rewrite q_s; [assumption|]. intros ->. rewrite (r_read m) in K4 by assumption. discriminate.
  - intros y y' m m' r E1 R1 E2 R2.
    assert (K : forall y m, sched q y = Some m -> m_read m = Some r -> sched p y = Some m).
    { intros z mz Ez Kz. rewrite <- q_s; [assumption|]. intros ->. rewrite q_sb, q_mb in Ez. injection Ez as <-. discriminate. }
    eauto.
  - intros y. destruct (Nat.eq_dec y g) as [->|n]; [rewrite q_Bg; apply I_rc|rewrite q_B by assumption; apply I_rc].
  - intros y K1 K2. pose proof (I_un y K1 K2) as K. rewrite q_B; [assumption|]. intros ->. rewrite K in Ig. discriminate.
  - (* I_data *)
    intros y z K1 K2. destruct (Nat.eq_dec y g) as [->|n].
    + unfold data. rewrite q_Bg. cbn [int dirty]. split; [reflexivity|].
      exists e. rewrite q_Bg. split; [reflexivity|]. rewrite q_wg, q_disk. case_eq (dirty (B p g)); intros Hd.
      * intros N. contradiction.
      * rewrite e_wg. rewrite Hd in C5. destruct C5 as ((e0 & D1 & D2) & _). rewrite e_wg in D2.
        destruct Fresh_e as [(F1 & F2)|(F1 & F2 & _)]; [|congruence]. congruence.
    + specialize (I_data y z K1 K2). unfold data in *. rewrite q_B, q_mem by assumption.
      destruct (int (B p y)); [|destruct I_data; split; auto using e_dsk]. destruct (dirty (B p y)); [assumption|].
      destruct I_data as (D1 & D2). split; [auto using e_dsk|]. destruct D2 as [[]|[D2|D2]]; auto. right; right.
      destruct D2 as [(m & r & r' & R1 & R2 & R3)|(h & w & R1 & R2)].
      * left. exists m, r, r'. rewrite q_s, q_rds; auto. intros ->. rewrite (r_read m R1) in R2. discriminate.
      * right. exists h, w. split; [apply e_wfw; assumption|assumption].
  - intros y Hy. specialize (I_acq y Hy). unfold acqd in *. rewrite q_B, q_mem, q_disk; [exact I_acq|].
    intros ->. lia.
  - intros y. rewrite r_ops, proj_new, I_ops. rewrite (Nat.eqb_sym y b). destruct (Nat.eqb_spec b y); [subst|]; reflexivity.
  - intros y m E. destruct (Nat.eq_dec y b) as [->|n]; [|rewrite q_s in E by assumption; eauto].
    rewrite q_sb, q_mb in E. injection E as <-. cbn [m_ops]. intros K. apply app_eq_nil in K. destruct K; discriminate.
  - intros y. rewrite q_fe. destruct (Nat.eq_dec y g) as [->|n].
    + rewrite q_Bg. unfold is_evictable, is_internal. cbn. rewrite andb_false_r. split; [|intros (_ & K); discriminate].
      intros [(_ & K)|K]; [congruence|]. exfalso. eauto.
    + rewrite q_B by assumption. rewrite <- I_ev. tauto.
  - intros y K1 K2. apply q_fe in K1. destruct K1. eauto.
  - intros y Hy. apply q_fe in Hy. destruct Hy as (Hy & n). rewrite q_B, r_ops by assumption.
    destruct (Nat.eqb_spec y b) as [->|n']; [|auto]. exfalso. apply r_not_fe. assumption.
  - intros y Hy. rewrite q_B; [apply r_keep; auto|]. intros ->. eauto.
  - intros y m E N. destruct (Nat.eq_dec y b) as [->|n]; [|rewrite q_s in E by assumption; eauto].
    rewrite q_sb, q_mb in E. injection E as <-. cbn [m_ops]. rewrite has_acq_app. cbn. rewrite Hk. rewrite orb_true_r. reflexivity.
  - intros y. rewrite r_ops. destruct (Nat.eqb_spec y b) as [->|n]; [rewrite e_hold_b; discriminate|]. intros Hy.
    rewrite e_hold; auto. intros ->. rewrite e_noacq in Hy. discriminate.
  - intros y [].
Qed.
End Evict.
End Reserve.
