(** The destructors of the block scheduler. *)
From Coq Require Import ZArith List Bool Lia Permutation Arith.
From Verif Require Import BsModel BsSpec BsProofs BsProofs2 BsProofs4 BsProofs5 BsSpaceProofs BsDtorModel.
Import ListNotations.

(** The blocks of [l] were deinitialised. *)
Definition dropped (l : list nat) (s s1 : st) : Prop :=
  (forall x, In x l -> blk s1 x = sb_new) /\ (forall x, ~ In x l -> blk s1 x = blk s x) /\
  (forall e, In e (used s1) <-> In e (used s) /\ forall x, In x l -> ext (blk s x) <> Some e) /\
  (NoDup (used s) -> NoDup (used s1)) /\
  disk s1 = disk s /\ remaining s1 = remaining s /\ nblk s1 = nblk s /\ free_s s1 = free_s s /\ al s1 = al s.

Lemma not_acquired_rc X : is_acquired X = false -> rc X = 0.
Proof. unfold is_acquired. intros H. apply Nat.ltb_ge in H. lia. Qed.

Lemma sb_deinit_ok s b : is_acquired (blk s b) = false -> exists s1, sb_deinit s b = Ok (s1, int (blk s b)) /\
  dropped [b] s s1 /\ free_i s1 = free_i s.
Proof.
  intros H. unfold sb_deinit. rewrite H. eexists. split; [reflexivity|]. rewrite (not_acquired_rc _ H).
  split; [|destruct (ext (blk s b)); reflexivity].
  unfold dropped. split; [|split; [|split; [|split]]].
  - intros x [<-|[]]. cbn. rewrite upd_same. reflexivity.
  - intros x Hx. cbn. rewrite upd_other; [destruct (ext (blk s b)); reflexivity|]. intros ->. apply Hx. left; reflexivity.
  - intros e. destruct (ext (blk s b)) as [y|] eqn:Ey; cbn.
    + split.
      * intros K. apply in_remove in K. destruct K as (K & N). split; [assumption|]. intros x [<-|[]]. congruence.
      * intros (K & N). apply in_in_remove; [|assumption]. intros ->. apply (N b); [left; reflexivity|assumption].
    + split; [intros K; split; [assumption|]|tauto]. intros x [<-|[]]. congruence.
  - destruct (ext (blk s b)); cbn; [apply remove_keeps_NoDup|auto].
  - destruct (ext (blk s b)); repeat split.
Qed.

Lemma dropped_nil s : dropped [] s s.
Proof.
  unfold dropped. split; [intros x []|]. split; [reflexivity|]. split; [|auto 10]. intros e. split; [|tauto]. intros H. split; [assumption|]. intros x [].
Qed.
Lemma dropped_trans l1 l2 s s1 s2 : dropped l1 s s1 -> dropped l2 s1 s2 -> dropped (l1 ++ l2) s s2.
Proof.
  intros (A1 & A2 & A3 & A4 & A5 & A6 & A7 & A8 & A9) (B1 & B2 & B3 & B4 & B5 & B6 & B7 & B8 & B9).
  unfold dropped. split; [|split; [|split; [|split]]].
  - intros x Hx. destruct (in_dec Nat.eq_dec x l2) as [K|K]; [auto|]. rewrite B2 by assumption. apply A1. apply in_app_or in Hx. tauto.
  - intros x Hx. rewrite B2, A2; [reflexivity| |]; intros K; apply Hx; apply in_or_app; auto.
  - intros e. rewrite B3, A3. split.
    + intros ((K1 & K2) & K3). split; [assumption|]. intros x Hx. destruct (in_dec Nat.eq_dec x l1) as [J|J]; [auto|].
      rewrite <- A2 by assumption. apply K3. apply in_app_or in Hx. tauto.
    + intros (K1 & K2). split; [split; [assumption|]|].
      * intros x Hx. apply K2. apply in_or_app. auto.
      * intros x Hx. destruct (in_dec Nat.eq_dec x l1) as [J|J]; [rewrite A1 by assumption; discriminate|]. rewrite A2 by assumption.
        apply K2. apply in_or_app. auto.
  - auto.
  - repeat split; congruence.
Qed.
Lemma dropped_same l s s1 s2 : dropped l s s1 -> blk s2 = blk s1 -> used s2 = used s1 -> disk s2 = disk s1 -> remaining s2 = remaining s1 ->
  nblk s2 = nblk s1 -> free_s s2 = free_s s1 -> al s2 = al s1 -> dropped l s s2.
Proof. unfold dropped. intros H -> -> -> -> -> -> ->. exact H. Qed.

Lemma drop_evictables_ok l : forall s, NoDup l -> (forall b, In b l -> is_evictable (blk s b) = true) ->
  exists s1, drop_evictables l s = Ok s1 /\ dropped l s s1 /\ length (free_i s1) = length (free_i s) + length l.
Proof.
  induction l as [|b l IH]; intros s N H; cbn [drop_evictables].
  - exists s. split; [reflexivity|]. split; [apply dropped_nil|]. cbn. lia.
  - inversion N as [|? ? Nb Nl]; subst. pose proof (H b (or_introl eq_refl)) as Hb.
    pose proof (evictable_not_acquired _ Hb) as Ha. destruct (sb_deinit_ok s b Ha) as (s1 & E & D & F). rewrite E. cbn [bind].
    destruct (int (blk s b)) as [i|] eqn:Ei.
    2:{ unfold is_evictable, is_internal in Hb. rewrite Ei, andb_false_r in Hb. discriminate. }
    destruct (IH (return_free s1 i) Nl) as (s2 & E2 & D2 & F2).
    { intros x Hx. cbn. destruct D as (_ & D & _). rewrite D; [apply H; right; assumption|]. intros [<-|[]]. contradiction. }
    exists s2. split; [exact E2|]. split.
    + change (b :: l) with ([b] ++ l). eapply dropped_trans; [|exact D2]. eapply dropped_same; [exact D|reflexivity..].
    + rewrite F2. cbn. rewrite F. lia.
Qed.

Lemma drop_rest_ok l : forall n s, NoDup l -> (forall b, In b l -> is_acquired (blk s b) = false -> int (blk s b) = None) ->
  exists s1, drop_rest l n s = Ok (s1, n) /\ dropped (filter (fun b => negb (is_acquired (blk s b))) l) s s1 /\ free_i s1 = free_i s.
Proof.
  induction l as [|b l IH]; intros n s N H; cbn [drop_rest filter].
  - exists s. split; [reflexivity|]. split; [apply dropped_nil|reflexivity].
  - inversion N as [|? ? Nb Nl]; subst. destruct (is_acquired (blk s b)) eqn:Ea; cbn [negb].
    + apply IH; [assumption|]. intros x Hx. apply H. right; assumption.
    + destruct (sb_deinit_ok s b Ea) as (s1 & E & D & F). rewrite E. cbn [bind]. rewrite (H b (or_introl eq_refl) Ea).
      assert (Es : forall x, In x l -> blk s1 x = blk s x).
      { intros x Hx. destruct D as (_ & D & _). apply D. intros [<-|[]]. contradiction. }
      destruct (IH n s1 Nl) as (s2 & E2 & D2 & F2).
      { intros x Hx. rewrite Es by assumption. apply H. right; assumption. }
      exists s2. split; [exact E2|]. split; [|congruence].
      match goal with |- dropped (b :: ?f) _ _ => change (b :: f) with ([b] ++ f) end. eapply dropped_trans; [exact D|].
      erewrite filter_ext_in; [exact D2|]. intros x Hx. cbn. rewrite Es by assumption. reflexivity.
Qed.

Lemma filter_disjoint {A} (f g h : A -> bool) l : (forall x, In x l -> h x = f x || g x) -> (forall x, In x l -> f x = true -> g x = false) ->
  length (filter h l) = length (filter f l) + length (filter g l).
Proof.
  induction l as [|x l IH]; intros H D; cbn; [reflexivity|].
  assert (I : length (filter h l) = length (filter f l) + length (filter g l)) by (apply IH; intros; [apply H|apply D]; auto; right; assumption).
  rewrite (H x) by (left; reflexivity). specialize (D x (or_introl eq_refl)). destruct (f x); cbn; [rewrite D by reflexivity; cbn; lia|].
  destruct (g x); cbn; lia.
Qed.

Lemma evictable_count max s c : R max [] [] s c ->
  length (internal_blocks s) = length (acquired_blocks s) + length (evictables (al s)).
Proof.
  intros H. assert (E : length (evictables (al s)) = length (those (nblk s) (fun b => is_evictable (blk s b)))).
  { apply Permutation_length. apply NoDup_Permutation; [apply (R_qnd _ _ _ _ _ H)|apply NoDup_filter, seq_NoDup|].
    intros x. rewrite (R_q _ _ _ _ _ H). unfold those. rewrite filter_In, in_seq. cbn. intuition lia. }
  rewrite E. unfold internal_blocks, acquired_blocks, those. apply filter_disjoint; intros x _.
  - unfold is_evictable. destruct (is_acquired (blk s x)) eqn:Ea; cbn; [|reflexivity]. apply (R_internal _ _ _ _ H Ea).
  - unfold is_evictable. intros ->. reflexivity.
Qed.

(** ** The destructor *)

Definition after_dtor (s : st) (c : client) (s1 : st) : Prop :=
  NoDup (used s1) /\
  (forall e, In e (used s1) <-> own c e <> None \/ exists b, is_acquired (blk s b) = true /\ ext (blk s b) = Some e) /\
  disk s1 = disk s /\
  (forall b, blk s1 b = if is_acquired (blk s b) then blk s b else sb_new).

Lemma alg_dtor_ok max s c : R max [] [] s c -> exists s1, alg_dtor s = Ok s1 /\
  (forall x, In x (evictables (al s)) -> blk s1 x = sb_new) /\ (forall x, ~ In x (evictables (al s)) -> blk s1 x = blk s x) /\
  (forall e, In e (used s1) <-> In e (used s) /\ forall x, In x (evictables (al s)) -> ext (blk s x) <> Some e) /\
  (NoDup (used s) -> NoDup (used s1)) /\ disk s1 = disk s /\ remaining s1 = remaining s /\ nblk s1 = nblk s /\ free_s s1 = free_s s /\
  al s1 = no_evictables (al s) /\ length (free_i s1) = length (free_i s) + length (evictables (al s)).
Proof.
  intros H. destruct (drop_evictables_ok (evictables (al s)) s) as (s1 & E & D & F).
  { apply (R_qnd _ _ _ _ _ H). }
  { intros b Hb. apply (R_q _ _ _ _ _ H) in Hb. tauto. }
  unfold alg_dtor. rewrite E. cbn [bind]. eexists. split; [reflexivity|].
  destruct D as (D1 & D2 & D3 & D4 & D5 & D6 & D7 & D8 & D9). cbn. rewrite D9. auto 20.
Qed.

Lemma dtor_ok max s c : R max [] [] s c -> exact s c ->
  exists s1, bs_dtor max s = Ok (s1, Z.of_nat (length (acquired_blocks s))) /\ after_dtor s c s1.
Proof.
  intros H (N & X). destruct (alg_dtor_ok _ _ _ H) as (s1 & E & A1 & A2 & A3 & A4 & A5 & A6 & A7 & A8 & _ & A9).
  unfold bs_dtor. rewrite E. cbn [bind]. unfold rest_dtor. clear E.
  pose proof (evictable_count _ _ _ H) as C1. destruct (R_counts (fun _ _ => 0) _ _ _ H) as (C2 & C3 & _ & _).
  assert (Out : forall b, nblk s <= b -> blk s b = sb_new).
  { intros b Hb. apply (R_new _ _ _ _ _ H). destruct (live c b) eqn:El; [|reflexivity]. apply (R_live _ _ _ _ _ H) in El. lia. }
  assert (Int : forall b, is_acquired (blk s1 b) = false -> int (blk s1 b) = None).
  { intros b. destruct (in_dec Nat.eq_dec b (evictables (al s))) as [K|K]; [rewrite A1 by assumption; reflexivity|]. rewrite A2 by assumption. intros Ha.
    destruct (int (blk s b)) as [i|] eqn:Ei; [|reflexivity]. exfalso. apply K. apply (R_q _ _ _ _ _ H).
    split; [|split; [|auto]].
    - destruct (le_lt_dec (nblk s) b) as [J|J]; [|assumption]. rewrite (Out b J) in Ei. discriminate.
    - unfold is_evictable, is_internal. rewrite Ha, Ei. reflexivity. }
  assert (Acq : forall b, is_acquired (blk s1 b) = is_acquired (blk s b)).
  { intros b. destruct (in_dec Nat.eq_dec b (evictables (al s))) as [K|K]; [|rewrite A2 by assumption; reflexivity]. rewrite A1 by assumption.
    apply (R_q _ _ _ _ _ H) in K. destruct K as (_ & K & _). rewrite (evictable_not_acquired _ K). reflexivity. }
  assert (Ev : forall b, In b (evictables (al s)) -> is_acquired (blk s b) = false).
  { intros b K. apply (R_q _ _ _ _ _ H) in K. destruct K as (_ & K & _). apply evictable_not_acquired. assumption. }
  assert (Own : forall e, own c e <> None -> In e (used s) /\ forall b, ext (blk s b) <> Some e).
  { intros e He. destruct (own c e) as [d|] eqn:Eo; [|congruence]. split; [apply (R_own _ _ _ _ _ H e d Eo)|].
    intros b Hb. destruct (R_used _ _ _ _ _ H b e Hb). congruence. }
  destruct (Nat.eqb (length (free_s s1)) (nblk s1)) eqn:El.
  - apply Nat.eqb_eq in El. rewrite A7, A8 in El. cbn [bind].
    assert (All : forall b, blk s b = sb_new).
    { intros b. destruct (le_lt_dec (nblk s) b) as [J|J]; [apply Out; assumption|]. apply (R_new _ _ _ _ _ H).
      assert (K : In b (free_s s)).
      { assert (I : incl (seq 0 (nblk s)) (free_s s)).
        { apply NoDup_length_incl; [apply (R_fnd _ _ _ _ _ H)|rewrite seq_length; lia|].
          intros x Hx. apply in_seq. pose proof (R_free _ _ _ _ _ H x Hx). lia. }
        apply I. apply in_seq. lia. }
      destruct (live c b) eqn:Eb; [|reflexivity]. apply (R_live _ _ _ _ _ H) in Eb. tauto. }
    eexists. split; [f_equal; f_equal|].
    + rewrite A6, A9. lia.
    + split; [auto|]. split; [|split; [assumption|]].
      * intros e. rewrite A3. split.
        -- intros (K & _). destruct (X e K) as [J|(b & J)]; [auto|]. rewrite All in J. discriminate.
        -- intros [K|(b & K & _)]; [|rewrite All in K; discriminate]. destruct (Own e K). auto.
      * intros b. rewrite All. cbn. destruct (in_dec Nat.eq_dec b (evictables (al s))) as [K|K]; [apply A1; assumption|]. rewrite A2, All by assumption. reflexivity.
  - destruct (drop_rest_ok (seq 0 (nblk s1)) 0 s1) as (s2 & E2 & D & F); [apply seq_NoDup|intros b _; apply Int|].
    rewrite E2. cbn [bind]. destruct D as (D1 & D2 & D3 & D4 & D5 & D6 & D7 & D8 & D9).
    assert (Fi : forall b, In b (filter (fun b => negb (is_acquired (blk s1 b))) (seq 0 (nblk s1))) <-> b < nblk s /\ is_acquired (blk s b) = false).
    { intros b. rewrite filter_In, in_seq, A7, Acq. destruct (is_acquired (blk s b)); cbn; intuition (try discriminate; lia). }
    eexists. split; [f_equal; f_equal|].
    + rewrite D6, A6, F, A9. lia.
    + split; [auto|]. split; [|split; [congruence|]].
      * intros e. rewrite D3, A3. split.
        -- intros ((K1 & K2) & K3). destruct (X e K1) as [J|(b & J)]; [auto|right]. exists b. split; [|assumption].
           destruct (is_acquired (blk s b)) eqn:Eb; [reflexivity|exfalso].
           destruct (in_dec Nat.eq_dec b (evictables (al s))) as [K|K]; [exact (K2 b K J)|].
           apply (K3 b); [|rewrite A2; assumption]. apply Fi. split; [|assumption].
           destruct (le_lt_dec (nblk s) b) as [I|I]; [|assumption]. rewrite (Out b I) in J. discriminate.
        -- intros K. assert (In e (used s) /\ forall b, is_acquired (blk s b) = false -> ext (blk s b) <> Some e) as (J1 & J2).
           { destruct K as [K|(b & K1 & K2)]; [destruct (Own e K); auto|]. split; [apply (R_used _ _ _ _ _ H b e K2)|].
             intros b' Hb' He. rewrite (R_inj _ _ _ _ _ H b b' e K2 He) in K1. congruence. }
           split; [split; [assumption|]|].
           ++ intros x Hx. apply J2, Ev. assumption.
           ++ intros x Hx. apply Fi in Hx. destruct (in_dec Nat.eq_dec x (evictables (al s))) as [I|I]; [rewrite A1 by assumption; discriminate|].
              rewrite A2 by assumption. apply J2. tauto.
      * intros b. destruct (in_dec Nat.eq_dec b (filter (fun b => negb (is_acquired (blk s1 b))) (seq 0 (nblk s1)))) as [K|K].
        -- rewrite D1 by assumption. apply Fi in K. destruct K as (_ & ->). reflexivity.
        -- rewrite D2 by assumption. destruct (is_acquired (blk s b)) eqn:Eb.
           ++ apply A2. intros J. rewrite (Ev _ J) in Eb. discriminate.
           ++ assert (J : nblk s <= b) by (destruct (le_lt_dec (nblk s) b) as [J|J]; [assumption|]; exfalso; apply K, Fi; auto).
              destruct (in_dec Nat.eq_dec b (evictables (al s))) as [I|I]; [apply A1; assumption|]. rewrite A2 by assumption. apply Out. assumption.
Qed.
