(** The invariant between operations, and every operation keeps it. *)
From Coq Require Import ZArith List Bool Lia Permutation Arith.
From Verif Require Import BsModel BsSpec BsProofs BsProofs2 BsProofs4 PfModel PfSpec PfInv PfProofs1 PfProofs2 PfProofs3 PfProofs4 PfProofs5 PfProofs6 PfProofs7 PfProofs8 PfProofs9 PfProofs10 PfProofs11.
Import ListNotations.

(** Changes that leave the blocks alone. *)
Section Outside.
Variables (max : nat) (Q : list (pop_kind * nat)) (c c' : client) (p : pst) (s' : st).
Hypothesis H : Inv max [] Q c p.
Hypothesis s_blk : blk s' = blk (base p).
Hypothesis s_mem : mem s' = mem (base p).
Hypothesis s_fri : free_i s' = free_i (base p).
Hypothesis s_nal : nalloc s' = nalloc (base p).
Hypothesis s_rem : remaining s' = remaining (base p).
Hypothesis s_nblk : nblk s' = nblk (base p).
Hypothesis c_vw : forall y, vw c' y = vw c y.
Hypothesis c_simu : simu c' = simu c.
Hypothesis Ext : forall y e, ext (B p y) = Some e -> disk s' e = disk (base p) e /\ In e (used s') /\ own c' e = None.
Hypothesis Own : forall e d, own c' e = Some d -> In e (used s') /\ disk s' e = d.
Hypothesis Live : forall b, live c' b = true <-> b < nblk (base p) /\ ~ In b (free_s s').
Hypothesis Fnd : NoDup (free_s s').
Hypothesis Free : forall b, In b (free_s s') -> b < nblk (base p).
Hypothesis New : forall b, live c' b = false -> B p b = sb_new /\ vw c b = v0.

Lemma inv_outside : Inv max [] Q c' (set_base p s').
Proof.
  set (q := set_base p s').
  assert (Eb : forall y, B q y = B p y) by (intros y; subst q; usimp; rewrite s_blk; reflexivity).
  assert (Eh : forall y, hold q y = hold p y) by (intros y; unfold hold; rewrite Eb; reflexivity).
  assert (Ed : forall y x, dsk p y x -> dsk q y x).
  { intros y x (e & D1 & D2). exists e. rewrite Eb. split; [assumption|]. subst q. usimp. destruct (Ext y e D1) as (-> & _). assumption. }
  destruct H. subst q. constructor; usimp; rewrite ?s_fri, ?s_nal, ?s_rem, ?s_nblk; auto.
  - intros i. rewrite (hl_ext _ (hold p) (hold (set_base p s')) (fun y _ => Eh y)). auto.
  - intros b m. rewrite s_blk. apply I_one.
  - intros b e. rewrite s_blk. intros E. destruct (Ext b e E) as (_ & A). exact A.
  - intros b b' e. rewrite s_blk. apply I_inj.
  - intros b Hb. rewrite s_blk, c_vw. auto.
  - congruence.
  - intros g w E. destruct (I_w g w E) as (A1 & A2 & A3 & A4). rewrite s_blk. csplit; auto. destruct (w_taker w) as [t|].
    + destruct A4 as (m & T1 & T2 & T3 & T4 & T5 & T6 & T7). exists m. unfold taken. rewrite Eh, c_vw. usimp. rewrite s_blk, s_mem. csplit; auto.
    + destruct A4 as (T1 & T2 & T3 & T4 & T5 & T6). unfold eager. rewrite c_vw. usimp. rewrite s_blk, s_mem. csplit; auto.
  - intros t m g E Eg. rewrite s_blk. eauto.
  - intros b m k E Ek. rewrite s_blk, s_mem, c_vw. eauto.
  - intros b. rewrite s_blk, c_vw. auto.
  - intros b. rewrite s_blk, c_vw. auto.
  - intros b x. rewrite c_vw. intros K1 K2. specialize (I_data b x K1 K2). unfold data in *. usimp. rewrite s_blk, s_mem.
    destruct (int (B p b)) as [i|]; [|destruct I_data; auto]. destruct (dirty (B p b)); [assumption|]. destruct I_data. auto.
  - intros b. rewrite c_vw. intros K. destruct (I_acq b K) as (i & A1 & A2 & A3 & A4 & A5 & A6). exists i. usimp. rewrite s_blk, s_mem. csplit; auto.
    intros Ed'. rewrite (A5 Ed'). destruct (ext (B p b)) as [e|] eqn:Ee; [|reflexivity]. cbn. destruct (Ext b e Ee) as (-> & _). reflexivity.
  - intros b. rewrite s_blk. auto.
  - intros b. rewrite s_blk. apply I_fe.
  - intros b. rewrite s_blk. apply I_se.
  - intros b K. rewrite Eh. auto.
  - intros b [].
Qed.
Lemma SC_outside : SC p -> SC (set_base p s').
Proof.
  apply SC_hold; [reflexivity| |].
  - unfold budget. usimp. rewrite s_fri, s_rem. reflexivity.
  - intros y. unfold hold. usimp. rewrite s_blk. reflexivity.
Qed.
Lemma rdy_outside : rdy c p -> rdy c' (set_base p s').
Proof. intros K b. rewrite c_vw. usimp. rewrite s_blk. apply K. Qed.
End Outside.

(** ** Counting internal blocks *)

Lemma cnt_length l n : (forall i, cnt i l = if Nat.ltb i n then 1 else 0) -> length l = n.
Proof.
  intros K. assert (P : Permutation l (seq 0 n)).
  { apply (Permutation_count_occ Nat.eq_dec). intros i. change (cnt i l = cnt i (seq 0 n)). rewrite K, cnt_seq. cbn. reflexivity. }
  apply Permutation_length in P. rewrite seq_length in P. assumption.
Qed.
Lemma hl_length n h : length (hl n h) = length (those n (fun b => match h b with Some _ => true | None => false end)).
Proof.
  unfold hl, those. induction (seq 0 n) as [|x l IH]; [reflexivity|]. cbn. rewrite app_length, IH. destruct (h x); reflexivity.
Qed.
Lemma those_le n f g : (forall b, b < n -> f b = true -> g b = true) -> length (those n f) <= length (those n g).
Proof.
  intros K. unfold those. assert (K2 : forall b, In b (seq 0 n) -> f b = true -> g b = true) by (intros b Hb; apply in_seq in Hb; apply K; lia).
  clear K. induction (seq 0 n) as [|x l IH]; [auto|]. cbn.
  assert (IH' : length (filter f l) <= length (filter g l)) by (apply IH; intros; apply K2; auto; right; assumption).
  destruct (f x) eqn:E; [rewrite (K2 x (or_introl eq_refl) E); cbn; lia|]. destruct (g x); cbn; lia.
Qed.
Lemma those_lt n f g b : (forall b, b < n -> f b = true -> g b = true) -> b < n -> f b = false -> g b = true ->
  length (those n f) < length (those n g).
Proof.
  intros K Hb E1 E2. unfold those.
  assert (E : seq 0 n = seq 0 b ++ b :: seq (S b) (n - S b)).
  { replace n with (b + S (n - S b)) at 1 by lia. rewrite seq_app. reflexivity. }
  rewrite E, !filter_app, !app_length. cbn [filter]. rewrite E1, E2. cbn [length].
  assert (G : forall l, (forall x, In x l -> x < n) -> length (filter f l) <= length (filter g l)).
  { induction l as [|x l IH]; intros Hl; [auto|]. cbn. specialize (IH (fun y Hy => Hl y (or_intror Hy))).
    specialize (K x (Hl x (or_introl eq_refl))). destruct (f x); [rewrite K by reflexivity; cbn; lia|]. destruct (g x); cbn; lia. }
  pose proof (G (seq 0 b)) as G1. pose proof (G (seq (S b) (n - S b))) as G2.
  assert (length (filter f (seq 0 b)) <= length (filter g (seq 0 b))) by (apply G1; intros x Hx; apply in_seq in Hx; lia).
  assert (length (filter f (seq (S b) (n - S b))) <= length (filter g (seq (S b) (n - S b)))) by (apply G2; intros x Hx; apply in_seq in Hx; lia).
  lia.
Qed.

Definition holds (p : pst) (b : nat) : bool := match hold p b with Some _ => true | None => false end.
Lemma inv_counts max L Q c p : Inv max L Q c p -> length (free_i (base p)) + length (those (nblk (base p)) (holds p)) = nalloc (base p).
Proof.
  intros H. change (length (those (nblk (base p)) (holds p))) with (length (those (nblk (base p)) (fun b => match hold p b with Some _ => true | None => false end))).
  rewrite <- (hl_length (nblk (base p)) (hold p)), <- app_length. apply cnt_length. intros i. rewrite cnt_app. apply (I_cnt _ _ _ _ _ H).
Qed.
Lemma acq_holds max L Q c p b : Inv max L Q c p -> is_acquired (B p b) = true -> holds p b = true.
Proof.
  intros H K. unfold is_acquired in K. apply Nat.ltb_lt in K. rewrite (I_rc _ _ _ _ _ H) in K. destruct (I_acq _ _ _ _ _ H b K) as (i & E & _).
  unfold holds. rewrite (hold_int _ _ E). reflexivity.
Qed.

(** ** Between operations *)

Definition PF (max : nat) (c : client) (p : pst) : Prop :=
  exists Q, Inv max [] Q c p /\ pseqn p = Q ++ uns p /\ SC p /\ rdy c p /\
    (forall k b, In (k, b) (pseqn p) -> b < nblk (base p)) /\
    (forall b, ~ In (op_extract_external_block, b) (pseqn p)).

Section Oracles.
Variable pick : nat -> list nat -> nat.
Variable dflt : option Z.
Hypothesis Fresh : fresh_blocks pick.

Lemma inv_data_init max Q c p b : Inv max [] Q c p -> (sb_initialized (B p b) = true <-> 1 <= refs (vw c b) \/ val (vw c b) <> None).
Proof.
  intros H. split.
  - intros E. destruct (refs (vw c b)) as [|n] eqn:Er; [right|left; lia]. intros Ev. rewrite (I_un _ _ _ _ _ H b Er Ev) in E. discriminate.
  - unfold sb_initialized, is_internal, is_external, has_external. destruct (refs (vw c b)) as [|n] eqn:Er.
    + intros [K|K]; [lia|]. destruct (val (vw c b)) as [x|] eqn:Ev; [|contradiction]. pose proof (I_data _ _ _ _ _ H b x Er Ev) as D. unfold data in D.
      destruct (int (B p b)); [reflexivity|]. destruct D as (-> & e & -> & _). reflexivity.
    + intros _. destruct (I_acq _ _ _ _ _ H b) as (i & -> & _); [lia|]. reflexivity.
Qed.

Lemma PF_env max c p : PF max c p -> exists q, env p = Ok q /\ PF max c q /\ pseqn q = pseqn p /\ nblk (base q) = nblk (base p) /\
  (forall b, B q b = B p b).
Proof.
  intros (Q & H & E & Hs & Hr & Hi & He). destruct (inv_env _ _ _ _ _ H) as (q & E1 & H1 & F1). pose proof (io_fr _ _ F1) as F2.
  exists q. csplit; auto; try apply F2; try apply F1. exists Q. rewrite (fr_seq _ _ F2), (fr_uns _ _ F2), (fr_nblk _ _ F2). csplit; auto.
  - eapply (SC_fr _ _ _ _ _ _ _ p); eassumption.
  - eapply rdy_fr; eassumption.
Qed.

Lemma PF_seq max c p k b r : PF max c p -> pseqn p = (k, b) :: r ->
  (exists Q, Inv max [] ((k, b) :: Q) c p /\ r = Q ++ uns p) \/
  (Inv max [] [] c p /\ uns p = (k, b) :: r /\ is_acq k = true /\ hold p b = None /\ budget p = 0).
Proof.
  intros (Q & H & E & Hs & Hr & Hi & He) E2. rewrite E in E2. destruct Q as [|x Q].
  - right. cbn in E2. destruct Hs as [K|(K1 & k1 & b1 & r1 & K2 & K3 & K4)]; [congruence|]. rewrite E2 in K2. injection K2 as <- <- <-. auto.
  - left. cbn in E2. injection E2 as -> <-. eauto.
Qed.

Definition keeps (max : nat) (c : client) (p : pst) (o : op) (r : list (pop_kind * nat)) : Prop :=
  exists q x, pdo pick dflt p o = Ok (q, x) /\ allowed dflt c o x /\ PF max (after c o x) q /\ pseqn q = r /\ nblk (base q) = nblk (base p).

Lemma PF_sub max c p q Q l1 r k b : Inv max [] (Q ++ l1) c q -> uns p = l1 ++ uns q -> SC q -> rdy c q -> pseqn q = r ->
  nblk (base q) = nblk (base p) -> (forall k b, In (k, b) (pseqn p) -> b < nblk (base p)) ->
  (forall b, ~ In (op_extract_external_block, b) (pseqn p)) -> pseqn p = (k, b) :: r -> r = Q ++ uns p -> PF max c q.
Proof.
  intros H E1 Hs Hr E2 E3 Hi He E4 E5. exists (Q ++ l1). csplit; auto.
  - rewrite E2, E5, E1, app_assoc. reflexivity.
  - intros k' b' K. rewrite E3. apply (Hi k'). rewrite E4. right. rewrite <- E2. assumption.
  - intros b' K. apply (He b'). rewrite E4. right. rewrite <- E2. assumption.
Qed.

Lemma pdo_ok max c p0 o r : PF max c p0 -> legal c o -> supported (nblk (base p0)) c o -> pseqn p0 = predicts o ++ r ->
  keeps max c p0 o r \/
  (exists b un, o = Acq b un /\ pdo pick dflt p0 o = NoMemory /\ is_acquired (B p0 b) = false /\ length (acquired_blocks (base p0)) = max).
Proof.
  intros P0 Hl Hs E0. destruct (PF_env _ _ _ P0) as (p & E1 & P1 & E2 & E3 & E4). unfold keeps, pdo. rewrite E1. cbn [bind]. rewrite <- E3 in *. rewrite <- E2 in E0.
  assert (Ea : acquired_blocks (base p0) = acquired_blocks (base p)).
  { unfold acquired_blocks, those. rewrite E3. apply filter_ext. intros b. rewrite E4. reflexivity. }
  rewrite Ea. clear Ea. setoid_rewrite <- E4. clear P0 E1 E2 E3 E4 p0.
  assert (Old : forall c' s', PF max c p -> (forall Q, Inv max [] Q c p -> Inv max [] Q c' (set_base p s')) -> (SC p -> SC (set_base p s')) -> (rdy c p -> rdy c' (set_base p s')) ->
     nblk s' = nblk (base p) -> PF max c' (set_base p s')).
  { intros c' s' (Q & H & E & H2 & H3 & H4 & H5) G1 G2 G3 G4. exists Q. csplit; auto. usimp. rewrite G4. assumption. }
  pose proof P1 as (Q0 & H0 & Es0 & S0 & R0 & Hi & He).
  assert (Sm : simu c = false) by apply (I_simu _ _ _ _ _ H0).
  assert (Hu : forall k b, In (k, b) (uns p) -> b < nblk (base p)) by (intros k b K; apply (Hi k); rewrite Es0; apply in_or_app; auto).
  destruct o; cbn [predicts app] in E0; try contradiction.
  - (* acquire *)
    destruct (PF_seq _ _ _ _ _ _ P1 E0) as [(Q & H & E)|(H & E & Hk & Hh & Hb)].
    + left. destruct (inv_pacquire dflt max Q c p b un r H S0 R0 Hl E0) as (q & i & A1 & A2 & A3 & A4 & A5 & A6 & A7 & A8).
      rewrite A1. cbn [bind]. do 2 eexists. split; [reflexivity|]. csplit; auto.
      eapply (PF_sub _ _ p q Q []); try eassumption. rewrite app_nil_r. assumption. symmetry. assumption.
    + right. exists b, un. split; [reflexivity|]. unfold pacquire. rewrite (next_is_ok _ _ _ _ E0). cbn [bind].
      assert (Eo : sops p b = []) by (rewrite (I_ops _ _ _ _ _ H); reflexivity).
      assert (En : sched p b = None).
      { unfold sops in Eo. destruct (sched p b) as [m|] eqn:Em; [|reflexivity]. exfalso. apply (I_ne _ _ _ _ _ H b m Em). assumption. }
      unfold scheduled_op. usimp. rewrite En. cbn [negb bind]. split; [reflexivity|].
      assert (Na : is_acquired (B p b) = false).
      { destruct (is_acquired (B p b)) eqn:Ea; [|reflexivity]. pose proof (acq_holds _ _ _ _ _ _ H Ea) as K. unfold holds in K. rewrite Hh in K. discriminate. }
      split; [assumption|]. unfold budget in Hb. pose proof (inv_counts _ _ _ _ _ H) as Cn. pose proof (I_max _ _ _ _ _ H) as Cm.
      assert (Le1 : length (acquired_blocks (base p)) <= length (those (nblk (base p)) (holds p))).
      { apply those_le. intros y _ K. eapply acq_holds; eassumption. }
      assert (Le2 : length (those (nblk (base p)) (holds p)) <= length (acquired_blocks (base p))).
      { apply those_le. intros y Hy K. destruct (is_acquired (B p y)) eqn:Ea; [reflexivity|exfalso].
        assert (Ey : sops p y = []) by (rewrite (I_ops _ _ _ _ _ H); reflexivity).
        unfold holds, hold in K. destruct (int (B p y)) as [i|] eqn:Ei.
        - assert (Ev : y < nblk (base p) /\ is_evictable (B p y) = true) by (unfold is_evictable, is_internal; rewrite Ea, Ei; auto).
          apply (I_ev _ _ _ _ _ H) in Ev. destruct Ev as [Ev|Ev].
          + assert (length (fe p) = 0) by lia. destruct (fe p); [contradiction|discriminate].
          + apply (I_se _ _ _ _ _ H) in Ev. rewrite Ey in Ev. discriminate.
        - unfold sops in Ey. destruct (sched p y) as [m|] eqn:Em; [|discriminate]. apply (I_ne _ _ _ _ _ H y m Em). assumption. }
      lia.
  - (* release *)
    left. destruct Hl as (Hl1 & Hl2). assert (Hl : legal c (Rel b d)) by (split; assumption).
    destruct (PF_seq _ _ _ _ _ _ P1 E0) as [(Q & H & E)|(H & E & Hk & _)]; [|destruct d; discriminate].
    assert (Hn : noext (proj b Q)).
    { intros K. apply proj_in in K. apply (He b). rewrite E0, E. right. apply in_or_app. auto. }
    destruct (inv_prelease pick Fresh max Q c p b d r H S0 R0 Hl E0 Hu Hn) as (q & l1 & A1 & A2 & A3 & A4 & A5 & A6 & A7).
    rewrite A1. cbn [bind]. do 2 eexists. split; [reflexivity|]. csplit; auto; try reflexivity.
    eapply (PF_sub _ _ p q Q l1); eassumption.
  - (* deinitialize *)
    left. destruct Hl as (Hl1 & Hl2). destruct (PF_seq _ _ _ _ _ _ P1 E0) as [(Q & H & E)|(H & E & Hk & _)]; [|discriminate].
    destruct Hl2 as [K|Hl2]; [congruence|].
    destruct (inv_pdeinitialize pick Fresh max Q c p b r H S0 R0 Hl1 Hl2 E0 Hu) as (q & l1 & A1 & A2 & A3 & A4 & A5 & A6 & A7).
    rewrite A1. cbn [bind]. do 2 eexists. split; [reflexivity|]. cbn [after allowed]. rewrite Sm. csplit; auto.
    eapply (PF_sub _ _ p q Q l1); eassumption.
  - (* initialize *)
    left. destruct (PF_seq _ _ _ _ _ _ P1 E0) as [(Q & H & E)|(H & E & Hk & _)]; [|discriminate].
    destruct (inv_pinitialize pick max Q c p b e r H S0 R0 Hl E0) as (q & A1 & A2 & A3 & A4 & A5 & A6 & A7).
    rewrite A1. cbn [bind]. do 2 eexists. split; [reflexivity|]. csplit; auto; try reflexivity.
    eapply (PF_sub _ _ p q Q []); try eassumption. rewrite app_nil_r. assumption. symmetry. assumption.
  - (* is_initialized *)
    left. cbn in Hl. pose proof (proj1 (I_live _ _ _ _ _ H0 b) Hl) as (Hb & _). apply Nat.ltb_lt in Hb. rewrite Hb. cbn [negb].
    do 2 eexists. split; [reflexivity|]. csplit; auto. right. eexists. split; [reflexivity|]. eapply inv_data_init. eassumption.
  - (* allocate *)
    left. destruct Hs as (y & Hy1 & Hy2).
    assert (Hin : In y (free_s (base p))).
    { destruct (in_dec Nat.eq_dec y (free_s (base p))) as [|n]; [assumption|exfalso]. assert (K : live c y = true) by (apply (I_live _ _ _ _ _ H0); auto). congruence. }
    unfold allocate. destruct (free_s (base p)) as [|x l] eqn:Ef; [contradiction|].
    pose proof (fold_min_in x l) as Hm. cbv zeta. set (b := fold_right Nat.min x l) in *. clearbody b. rewrite <- Ef in Hm.
    assert (Ll : live c b = false) by (destruct (live c b) eqn:Eb; [apply (I_live _ _ _ _ _ H0) in Eb; tauto|reflexivity]).
    do 2 eexists. split; [reflexivity|]. cbn [after allowed]. csplit; auto; [eauto|].
    change (PF max (set_live c b true) (set_base p (set_free_s (base p) (rm_first b (x :: l))))). rewrite <- Ef.
    pose proof (I_fnd _ _ _ _ _ H0) as Fn. rewrite rm_first_remove by assumption.
    assert (Ev : forall y, vw (set_live c b true) y = vw c y).
    { intros z. cbn. unfold upd. destruct (Nat.eqb_spec z b) as [->|]; [|reflexivity]. symmetry. apply (I_new _ _ _ _ _ H0). assumption. }
    apply Old; auto.
    + intros Q H. apply (inv_outside max Q c); auto; usimp; auto.
      * intros z e E. destruct (I_used _ _ _ _ _ H z e E). auto.
      * apply (I_own _ _ _ _ _ H).
      * intros z. cbn [set_live live]. unfold upd. destruct (Nat.eqb_spec z b) as [->|n].
        -- split; [|reflexivity]. intros _. split; [apply (I_free _ _ _ _ _ H); assumption|]. intros K. apply in_remove in K. tauto.
        -- rewrite (I_live _ _ _ _ _ H). split; intros (K1 & K2); split; auto; intros K3; apply K2; [apply in_remove in K3; tauto|apply in_in_remove; assumption].
      * apply del_nodup. assumption.
      * intros z K. apply in_remove in K. apply (I_free _ _ _ _ _ H). tauto.
      * intros z. cbn [set_live live]. unfold upd. destruct (Nat.eqb_spec z b) as [->|n]; [discriminate|]. apply (I_new _ _ _ _ _ H).
    + apply rdy_outside; auto.
  - (* free *)
    left. destruct Hl as (Hl1 & Hl2 & _). destruct (PF_seq _ _ _ _ _ _ P1 E0) as [(Q & H & E)|(H & E & Hk & _)]; [|discriminate].
    destruct (inv_pdeinitialize pick Fresh max Q c p b r H S0 R0 Hl1 Hl2 E0 Hu) as (q & l1 & A1 & A2 & A3 & A4 & A5 & A6 & A7).
    rewrite A1. cbn [bind]. do 2 eexists. split; [reflexivity|]. cbn [after allowed]. csplit; auto.
    assert (PQ : PF max (set_vw c b v0) q) by (eapply (PF_sub _ _ p q Q l1); eassumption).
    destruct PQ as (Q' & H' & E' & S' & R' & Hi' & He').
    assert (Vv : vw (set_vw c b v0) b = v0) by apply upd_same.
    assert (Bn : B q b = sb_new) by (apply (I_un _ _ _ _ _ H'); rewrite Vv; reflexivity).
    exists Q'. csplit; auto.
    + apply (inv_outside max Q' (set_vw c b v0)); auto; usimp; auto.
      * intros z e Ee. destruct (I_used _ _ _ _ _ H' z e Ee). auto.
      * apply (I_own _ _ _ _ _ H').
      * intros z. pose proof (I_live _ _ _ _ _ H' z) as K. cbn [set_vw live] in K. cbn [set_live live]. unfold upd. destruct (Nat.eqb_spec z b) as [->|n].
        -- split; [discriminate|]. intros (_ & K2). exfalso. apply K2. left. reflexivity.
        -- rewrite K. cbn. intuition.
      * constructor; [|apply (I_fnd _ _ _ _ _ H')]. intros K. pose proof (proj1 (I_live _ _ _ _ _ H' b) Hl1). tauto.
      * intros z [<-|K]; [apply (I_live _ _ _ _ _ H' b); assumption|apply (I_free _ _ _ _ _ H'); assumption].
      * intros z. cbn [set_live live]. unfold upd at 1. destruct (Nat.eqb_spec z b) as [->|n]; [auto|]. apply (I_new _ _ _ _ _ H').
  - (* timestep *)
    left. do 2 eexists. split; [reflexivity|]. csplit; auto; reflexivity.
  - (* write *)
    left. destruct Hl as (Hl1 & _ & Hl2).
    pose proof (I_acq _ _ _ _ _ H0 b Hl2) as (i & A1 & A2 & A3).
    assert (Ra : 1 <= rc (B p b)) by (rewrite (I_rc _ _ _ _ _ H0); assumption).
    unfold bk. unfold is_acquired. replace (Nat.ltb 0 (rc (B p b))) with true by (symmetry; apply Nat.ltb_lt; lia). cbn [negb]. rewrite A1.
    do 2 eexists. split; [reflexivity|]. csplit; auto; try reflexivity. cbn [after].
    assert (Vo : forall y, y <> b -> vw (set_vw c b (mkV (val (vw c b)) (refs (vw c b)) d (drt (vw c b)) true)) y = vw c y) by (intros y n; apply upd_other; assumption).
    assert (Vb : vw (set_vw c b (mkV (val (vw c b)) (refs (vw c b)) d (drt (vw c b)) true)) b = mkV (val (vw c b)) (refs (vw c b)) d (drt (vw c b)) true) by apply upd_same.
    apply Old; auto.
    + intros Q H. pose proof (quiet_acq _ _ _ _ _ _ H Ra) as (Q1 & Q2 & Q3).
      assert (Hh : hold p b = Some i) by (apply hold_int; assumption).
      assert (Ne : is_evictable (B p b) = false).
      { unfold is_evictable, is_acquired. replace (Nat.ltb 0 (rc (B p b))) with true by (symmetry; apply Nat.ltb_lt; lia). reflexivity. }
      assert (Nin : ~ (In b (fe p) \/ In b (se p))) by (intros K; apply (I_ev _ _ _ _ _ H) in K; destruct K; congruence).
      apply (inv_local max Q c _ p (set_base p (set_mem (base p) i d)) b); auto; rewrite ?Vb; usimp; auto; cbn [refs val].
      * destruct (sched p b) as [m|] eqn:Em; [|reflexivity]. exists m. csplit; auto. apply (Q2 m eq_refl).
      * intros m Em. apply (Q2 m Em).
      * intros y j n E. apply upd_other. intros ->. apply n. eapply (hold_uniq H); eassumption.
      * intros m K1 K2. eapply (I_one _ _ _ _ _ H); eassumption.
      * intros e E. destruct (I_used _ _ _ _ _ H b e E). csplit; auto. intros y n E'. apply n. eapply (I_inj _ _ _ _ _ H); eassumption.
      * intros y e n E. apply (I_used _ _ _ _ _ H y). assumption.
      * apply (I_own _ _ _ _ _ H).
      * apply (I_rc _ _ _ _ _ H).
      * lia.
      * lia.
      * intros _. exists i. usimp. rewrite upd_same. cbn [work drt mdf val]. destruct A3 as (A4 & A5 & A6 & A7). csplit; auto. discriminate.
      * intros g w E Et. exfalso. destruct (I_w _ _ _ _ _ H g w E) as (_ & _ & _ & K). rewrite Et in K. destruct K as (m0 & T1 & T2 & _).
        destruct (Q2 m0 T1) as (_ & K). rewrite T2 in K. discriminate.
      * intros m g E Eg. destruct (Q2 m E) as (_ & K). rewrite Eg in K. discriminate.
      * intros t m E Eg. exfalso. eauto.
      * apply (I_fend _ _ _ _ _ H).
      * apply (I_send _ _ _ _ _ H).
      * tauto.
      * tauto.
      * rewrite Ne. split; [tauto|discriminate].
      * tauto.
      * apply (I_res _ _ _ _ _ H).
      * intros _. change (hold p b <> None). rewrite Hh. discriminate.
    + intros K y. destruct (Nat.eq_dec y b) as [->|n]; [rewrite Vb; cbn [refs]; lia|]. rewrite Vo by assumption. apply K.
  - (* read *)
    left. destruct Hl as (Hl1 & _ & Hl2).
    pose proof (I_acq _ _ _ _ _ H0 b Hl2) as (i & A1 & A2 & A3).
    assert (Ra : 1 <= rc (B p b)) by (rewrite (I_rc _ _ _ _ _ H0); assumption).
    unfold bk. unfold is_acquired. replace (Nat.ltb 0 (rc (B p b))) with true by (symmetry; apply Nat.ltb_lt; lia). cbn [negb]. rewrite A1.
    do 2 eexists. split; [reflexivity|]. csplit; auto. cbn. congruence.
  - (* new external block *)
    left. cbn [new_ext]. set (e := pick (ncall (base p)) (used (base p))).
    assert (Fe : ~ In e (used (base p))) by apply Fresh.
    assert (Oe : own c e = None) by (destruct (own c e) as [x|] eqn:Eo; [destruct (I_own _ _ _ _ _ H0 e x Eo); contradiction|reflexivity]).
    do 2 eexists. split; [reflexivity|]. csplit; auto; [cbn; eauto|]. cbn [after].
    match goal with |- PF _ _ (set_base p ?x) => set (s' := x) end.
    apply Old; auto.
    + intros Q H. apply (inv_outside max Q c); subst s'; auto; usimp; auto.
      * intros y e' E. destruct (I_used _ _ _ _ _ H y e' E) as (K1 & K2). assert (n : e' <> e) by (intros ->; contradiction).
        cbn [set_own own]. rewrite !upd_other by assumption. csplit; auto. right. assumption.
      * intros e' d'. cbn [set_own own]. destruct (Nat.eq_dec e' e) as [->|n].
        -- rewrite !upd_same. intros E. injection E as <-. split; [left; reflexivity|reflexivity].
        -- rewrite !upd_other by assumption. intros E. destruct (I_own _ _ _ _ _ H e' d' E). split; [right|]; assumption.
      * apply (I_live _ _ _ _ _ H).
      * apply (I_fnd _ _ _ _ _ H).
      * apply (I_free _ _ _ _ _ H).
      * apply (I_new _ _ _ _ _ H).
  - (* write an external block *)
    left. cbn in Hl. do 2 eexists. split; [reflexivity|]. csplit; auto; try reflexivity. cbn [after].
    apply Old; auto.
    + intros Q H. apply (inv_outside max Q c); auto; usimp; auto.
      * intros y e' E. destruct (I_used _ _ _ _ _ H y e' E) as (K1 & K2). assert (n : e' <> e) by (intros ->; contradiction).
        cbn [set_own own]. rewrite !upd_other by assumption. auto.
      * intros e' d'. cbn [set_own own]. destruct (Nat.eq_dec e' e) as [->|n].
        -- rewrite !upd_same. intros E. injection E as <-. split; [|reflexivity]. destruct (own c e) as [x|] eqn:Eo; [|contradiction].
           destruct (I_own _ _ _ _ _ H e x Eo). assumption.
        -- rewrite !upd_other by assumption. apply (I_own _ _ _ _ _ H).
      * apply (I_live _ _ _ _ _ H).
      * apply (I_fnd _ _ _ _ _ H).
      * apply (I_free _ _ _ _ _ H).
      * apply (I_new _ _ _ _ _ H).
  - (* read an external block *)
    left. cbn in Hl. do 2 eexists. split; [reflexivity|]. csplit; auto. cbn. destruct (own c e) as [x|] eqn:Eo; [|contradiction].
    exists x. split; [reflexivity|]. destruct (I_own _ _ _ _ _ H0 e x Eo). congruence.
  - (* delete an external block *)
    left. cbn in Hl. do 2 eexists. split; [reflexivity|]. csplit; auto; try reflexivity. cbn [after].
    unfold del_ext. apply Old; auto.
    intros Q H. apply (inv_outside max Q c); auto; usimp; auto.
    + intros y e' E. destruct (I_used _ _ _ _ _ H y e' E) as (K1 & K2). assert (n : e' <> e) by (intros ->; contradiction).
      cbn [set_own own]. rewrite !upd_other by assumption. csplit; auto. apply in_in_remove; assumption.
    + intros e' d'. cbn [set_own own]. destruct (Nat.eq_dec e' e) as [->|n].
      * rewrite !upd_same. discriminate.
      * rewrite !upd_other by assumption. intros E. destruct (I_own _ _ _ _ _ H e' d' E). split; [apply in_in_remove|]; assumption.
    + apply (I_live _ _ _ _ _ H).
    + apply (I_fnd _ _ _ _ _ H).
    + apply (I_free _ _ _ _ _ H).
    + apply (I_new _ _ _ _ _ H).
Qed.

(** An acquire cannot succeed if every internal block is in use. *)
Lemma full_fails max c p b un r : PF max c p -> legal c (Acq b un) -> pseqn p = predicts (Acq b un) ++ r ->
  is_acquired (B p b) = false -> length (acquired_blocks (base p)) = max -> pdo pick dflt p (Acq b un) = NoMemory.
Proof.
  intros P Hl E Na Hm. destruct (pdo_ok max c p (Acq b un) r P Hl I E) as [(q & x & E1 & _)|(b' & un' & _ & K & _)]; [exfalso|assumption].
  unfold pdo in E1. destruct (PF_env _ _ _ P) as (p1 & E2 & P1 & E3 & E4 & E5). rewrite E2 in E1. cbn [bind] in E1. rewrite <- E3 in E. cbn [predicts app] in E.
  unfold pacquire in E1. rewrite (next_is_ok _ _ _ _ E) in E1. cbn [bind] in E1.
  destruct (PF_seq _ _ _ _ _ _ P1 E) as [(Q & H & _)|(H & _ & _)].
  - assert (Ha : holds p1 b = true).
    { unfold holds. destruct (hold p1 b) eqn:Eh; [reflexivity|exfalso]. apply (I_nores _ _ _ _ _ H b); [|assumption].
      rewrite (I_ops _ _ _ _ _ H), proj_cons, Nat.eqb_refl. destruct un; reflexivity. }
    assert (Hb : b < nblk (base p1)) by (apply (I_live _ _ _ _ _ H); exact Hl).
    assert (Lt : length (acquired_blocks (base p1)) < length (those (nblk (base p1)) (holds p1))).
    { apply (those_lt _ _ _ b); auto; [|rewrite E5; assumption]. intros y _ K. eapply acq_holds; eassumption. }
    assert (Ea : acquired_blocks (base p1) = acquired_blocks (base p)).
    { unfold acquired_blocks, those. rewrite E4. apply filter_ext. intros y. rewrite E5. reflexivity. }
    rewrite Ea, Hm in Lt. pose proof (inv_counts _ _ _ _ _ H). pose proof (I_max _ _ _ _ _ H). lia.
  - assert (Eo : sops p1 b = []) by (rewrite (I_ops _ _ _ _ _ H); reflexivity).
    unfold scheduled_op in E1. usimp. unfold sops in Eo. destruct (sched p1 b) as [m|]; [rewrite Eo in E1|]; discriminate.
Qed.
End Oracles.
