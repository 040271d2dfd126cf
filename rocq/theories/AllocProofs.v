(** Proofs about the disk allocator model. *)
From Coq Require Import ZArith List Bool Lia Permutation.
From Verif Require Import AllocModel AllocSpec.
Import ListNotations.
Local Open Scope Z_scope.

(** * Lists of regions *)

Fixpoint end_of (lo : Z) (m : list (Z * Z)) : Z :=
  match m with [] => lo | (p, s) :: m' => end_of (p + s) m' end.

Lemma coalesced_app : forall L R lo,
  coalesced_from lo (L ++ R) <-> coalesced_from lo L /\ coalesced_from (end_of lo L) R.
Proof.
  induction L as [|[p s] L IH]; intros R lo; simpl; [tauto|].
  rewrite IH. tauto.
Qed.

Lemma end_of_app : forall L R lo, end_of lo (L ++ R) = end_of (end_of lo L) R.
Proof. induction L as [|[p s] L IH]; intros; simpl; auto. Qed.

Lemma end_of_ge : forall L lo, coalesced_from lo L -> lo <= end_of lo L.
Proof.
  induction L as [|[p s] L IH]; intros lo H; simpl in *; [lia|].
  destruct H as (H1 & H2 & H3). apply IH in H3. lia.
Qed.

Lemma coalesced_weaken : forall m lo lo', lo' <= lo -> coalesced_from lo m -> coalesced_from lo' m.
Proof. destruct m as [|[p s] m]; simpl; intros; intuition lia. Qed.

Lemma coalesced_in : forall m lo p s, coalesced_from lo m -> In (p, s) m ->
  lo < p /\ 0 < s /\ p + s <= end_of lo m.
Proof.
  induction m as [|[p0 s0] m IH]; intros lo p s H Hin; simpl in *; [tauto|].
  destruct H as (H1 & H2 & H3). destruct Hin as [E|Hin].
  - inversion E; subst. apply end_of_ge in H3. lia.
  - destruct (IH _ _ _ H3 Hin) as (A & B & C). lia.
Qed.

Lemma total_size_app : forall L R, total_size (L ++ R) = total_size L + total_size R.
Proof. induction L as [|[p s] L IH]; intros; simpl; [lia|rewrite IH; lia]. Qed.

Lemma covered_app : forall L R x, covered (L ++ R) x <-> covered L x \/ covered R x.
Proof.
  intros. unfold covered. split.
  - intros (r & Hin & Hr). apply in_app_or in Hin. destruct Hin; [left|right]; eauto.
  - intros [(r & Hin & Hr)|(r & Hin & Hr)]; exists r; split; auto; apply in_or_app; auto.
Qed.

Lemma covered_cons : forall r l x, covered (r :: l) x <-> in_range x r \/ covered l x.
Proof.
  intros. unfold covered. simpl. split.
  - intros (r' & [E|Hin] & Hr); subst; eauto.
  - intros [H|(r' & Hin & Hr)]; eauto.
Qed.

Lemma covered_nil : forall x, ~ covered [] x.
Proof. intros x (r & [] & _). Qed.

Lemma covered_coalesced_lb : forall m lo x, coalesced_from lo m -> covered m x -> lo < x.
Proof.
  intros m lo x H ((p, s) & Hin & Hr). unfold in_range in Hr. simpl in Hr.
  destruct (coalesced_in _ _ _ _ H Hin). lia.
Qed.

Lemma covered_coalesced_ub : forall m lo x, coalesced_from lo m -> covered m x -> x < end_of lo m.
Proof.
  intros m lo x H ((p, s) & Hin & Hr). unfold in_range in Hr. simpl in Hr.
  destruct (coalesced_in _ _ _ _ H Hin) as (? & ? & ?). lia.
Qed.

Lemma coalesced_end_covered : forall m lo, coalesced_from lo m -> m <> [] ->
  covered m (end_of lo m - 1).
Proof.
  induction m as [|[p s] m IH]; intros lo H Hne; [congruence|].
  simpl in *. destruct H as (H1 & H2 & H3). apply covered_cons.
  destruct m as [|e m].
  - left. unfold in_range; simpl. lia.
  - right. apply IH; auto. discriminate.
Qed.

(** Two coalesced region lists covering the same bytes are equal. *)
Lemma coalesced_ext : forall m1 m2 lo, coalesced_from lo m1 -> coalesced_from lo m2 ->
  (forall x, covered m1 x <-> covered m2 x) -> m1 = m2.
Proof.
  induction m1 as [|[p1 s1] m1 IH]; intros m2 lo H1 H2 Heq.
  - destruct m2 as [|[p2 s2] m2]; auto. exfalso.
    simpl in H2. destruct H2 as (A & B & C).
    apply (covered_nil p2). apply Heq. apply covered_cons. left. unfold in_range; simpl; lia.
  - destruct m2 as [|[p2 s2] m2].
    + exfalso. simpl in H1. destruct H1 as (A & B & C).
      apply (covered_nil p1). apply Heq. apply covered_cons. left. unfold in_range; simpl; lia.
    + simpl in H1, H2. destruct H1 as (A1 & B1 & C1). destruct H2 as (A2 & B2 & C2).
      assert (Ep : p1 = p2).
      { assert (covered ((p2, s2) :: m2) p1) as K1.
        { apply Heq. apply covered_cons. left. unfold in_range; simpl; lia. }
        assert (covered ((p1, s1) :: m1) p2) as K2.
        { apply Heq. apply covered_cons. left. unfold in_range; simpl; lia. }
        apply covered_cons in K1. apply covered_cons in K2.
        unfold in_range in K1, K2; simpl in K1, K2.
        destruct K1 as [K1|K1]; [|apply (covered_coalesced_lb _ _ _ C2) in K1];
        (destruct K2 as [K2|K2]; [|apply (covered_coalesced_lb _ _ _ C1) in K2]); lia. }
      subst p2.
      assert (Es : s1 = s2).
      { assert (forall x, p1 <= x < p1 + s1 -> x < p1 + s2) as G1.
        { intros x Hx. destruct (Z_lt_le_dec x (p1 + s2)); auto. exfalso.
          (* p1+s2 is not covered by the second list *)
          assert (covered ((p1, s2) :: m2) (p1 + s2)) as K.
          { apply Heq. apply covered_cons. left. unfold in_range; simpl; lia. }
          apply covered_cons in K. unfold in_range in K; simpl in K.
          destruct K as [K|K]; [lia|]. apply (covered_coalesced_lb _ _ _ C2) in K. lia. }
        assert (forall x, p1 <= x < p1 + s2 -> x < p1 + s1) as G2.
        { intros x Hx. destruct (Z_lt_le_dec x (p1 + s1)); auto. exfalso.
          assert (covered ((p1, s1) :: m1) (p1 + s1)) as K.
          { apply Heq. apply covered_cons. left. unfold in_range; simpl; lia. }
          apply covered_cons in K. unfold in_range in K; simpl in K.
          destruct K as [K|K]; [lia|]. apply (covered_coalesced_lb _ _ _ C1) in K. lia. }
        specialize (G1 (p1 + s1 - 1)). specialize (G2 (p1 + s2 - 1)). lia. }
      subst s2. f_equal. eapply IH; eauto.
      intros x. specialize (Heq x). rewrite !covered_cons in Heq. unfold in_range in Heq; simpl in Heq.
      split; intros K.
      * pose proof (covered_coalesced_lb _ _ _ C1 K). destruct Heq as [Heq _].
        destruct (Heq (or_intror K)); auto. lia.
      * pose proof (covered_coalesced_lb _ _ _ C2 K). destruct Heq as [_ Heq].
        destruct (Heq (or_intror K)); auto. lia.
Qed.

(** * Map operations on sorted lists *)

Definition keys_lt (L : list (Z * Z)) (k : Z) := forall p s, In (p, s) L -> p < k.
Definition keys_gt (R : list (Z * Z)) (k : Z) := forall p s, In (p, s) R -> k < p.

Lemma map_set_mid : forall L R k v, keys_lt L k -> keys_gt R k ->
  map_set k v (L ++ R) = L ++ (k, v) :: R.
Proof.
  induction L as [|[p s] L IH]; intros R k v HL HR; simpl.
  - destruct R as [|[p s] R]; simpl; auto.
    assert (k < p) by (apply (HR p s); left; auto).
    destruct (Z.ltb_spec k p); auto; lia.
  - assert (p < k) by (apply (HL p s); left; auto).
    destruct (Z.ltb_spec k p); [lia|]. destruct (Z.eqb_spec k p); [lia|].
    rewrite IH; auto. intros p' s' Hin. apply (HL p' s'). right; auto.
Qed.

Lemma map_erase_mid : forall L R k v, keys_lt L k ->
  map_erase k (L ++ (k, v) :: R) = L ++ R.
Proof.
  induction L as [|[p s] L IH]; intros R k v HL; simpl.
  - rewrite Z.eqb_refl. auto.
  - assert (p < k) by (apply (HL p s); left; auto).
    destruct (Z.eqb_spec k p); [lia|]. rewrite IH; auto.
    intros p' s' Hin. apply (HL p' s'). right; auto.
Qed.

Lemma coalesced_keys_lt : forall L R lo p s, coalesced_from lo (L ++ (p, s) :: R) -> keys_lt L p.
Proof.
  intros L R lo p s H p' s' Hin. apply coalesced_app in H. destruct H as [H1 H2].
  simpl in H2. destruct (coalesced_in _ _ _ _ H1 Hin) as (? & ? & ?). lia.
Qed.

Lemma coalesced_keys_gt : forall L R lo p s, coalesced_from lo (L ++ (p, s) :: R) -> keys_gt R p.
Proof.
  intros L R lo p s H p' s' Hin. apply coalesced_app in H. destruct H as [H1 H2].
  simpl in H2. destruct H2 as (? & ? & H2). destruct (coalesced_in _ _ _ _ H2 Hin). lia.
Qed.

(** Split of a sorted map at a position. *)
Lemma split_at : forall m lo pos, coalesced_from lo m ->
  exists L R, m = L ++ R /\
    (forall p s, In (p, s) L -> p <= pos) /\
    (forall p s, In (p, s) R -> pos < p) /\
    upper_bound pos m = hd_error R /\
    entry_before pos m = hd_error (rev L).
Proof.
  induction m as [|[p s] m IH]; intros lo pos H.
  - exists [], []. simpl. intuition.
  - simpl in H. destruct H as (H1 & H2 & H3). simpl.
    destruct (Z.ltb_spec pos p) as [Hlt|Hge].
    + exists [], ((p, s) :: m). simpl. repeat split; auto; try tauto.
      intros p' s' [E|Hin]; [inversion E; subst; auto|].
      destruct (coalesced_in _ _ _ _ H3 Hin) as (? & ? & ?). lia.
    + destruct (IH _ pos H3) as (L & R & E & HL & HR & HU & HB).
      exists ((p, s) :: L), R. subst m. simpl. repeat split; auto.
      * intros p' s' [E|Hin]; [inversion E; subst; auto|eauto].
      * rewrite HB. destruct (rev L) as [|e l] eqn:E; simpl; auto.
Qed.

Lemma hd_rev_snoc : forall {A} (L : list A) e, hd_error (rev L) = Some e ->
  exists L', L = L' ++ [e].
Proof.
  intros A L e H. destruct (rev L) as [|x l] eqn:E; simpl in H; inversion H; subst.
  exists (rev l). apply (f_equal (@rev A)) in E. rewrite rev_involutive in E. simpl in E. auto.
Qed.

(** * add_free_region *)

Definition with_space (a : allocator) (m : space_map) (fb : Z) : allocator :=
  {| free_space := m; free_bytes := fb; disk_bytes := disk_bytes a;
     cfg_bytes := cfg_bytes a; storage_size := storage_size a; autogrow := autogrow a |}.

Ltac zb := repeat match goal with
  | |- context[?a <? ?b] => destruct (Z.ltb_spec a b)
  | |- context[?a <=? ?b] => destruct (Z.leb_spec a b)
  | |- context[?a =? ?b] => destruct (Z.eqb_spec a b)
  end; simpl.

Ltac range := unfold in_range in *; cbn [fst snd] in *.

Lemma add_free_region_throw : forall a lo pos size,
  coalesced_from lo (free_space a) -> 0 < size ->
  overlaps (free_space a) pos size -> add_free_region a pos size = Throw.
Proof.
  intros a lo pos size H Hs (x & ((p, s) & Hin & Hc) & Hr).
  unfold add_free_region. cbv zeta. set (m := free_space a) in *.
  destruct m as [|e0 m0] eqn:Em; [destruct Hin|]. rewrite <- Em in *. clear e0 m0 Em.
  destruct (split_at _ _ pos H) as (L & R & E & HL & HR & HU & HB).
  rewrite HU, HB.
  assert (In (p, s) L \/ In (p, s) R) as [Hi|Hi] by (apply in_app_or; rewrite <- E; auto).
  - (* in L: must be the last of L *)
    destruct (hd_error (rev L)) as [[pp ps]|] eqn:EL.
    + apply hd_rev_snoc in EL. destruct EL as (L' & EL).
      assert ((p, s) = (pp, ps) \/ In (p, s) L') as [Ei|Hi'].
      { rewrite EL in Hi. apply in_app_or in Hi. simpl in Hi. intuition. }
      * inversion Ei; subst pp ps. specialize (HL p s Hi). range.
        destruct (Z.leb_spec p pos); [|lia]. destruct (Z.ltb_spec pos (p + s)); [|lia]. reflexivity.
      * (* p+s < pp <= pos, contradiction *)
        exfalso. rewrite E, EL in H. rewrite <- app_assoc in H. apply coalesced_app in H.
        destruct H as [Ha Hb]. simpl in Hb.
        destruct (coalesced_in _ _ _ _ Ha Hi') as (? & ? & ?).
        specialize (HL pp ps). rewrite EL in HL. assert (pp <= pos) by (apply HL; apply in_or_app; simpl; auto).
        range. lia.
    + destruct (rev L) eqn:ER; [|discriminate].
      apply (f_equal (@rev _)) in ER. rewrite rev_involutive in ER. simpl in ER. subst L. destruct Hi.
  - (* in R: the first of R starts inside the new region *)
    destruct R as [|[sp ss] R']; [destruct Hi|]. simpl hd_error.
    assert (sp <= p).
    { destruct Hi as [Ei|Hi]; [inversion Ei; lia|].
      rewrite E in H. pose proof (coalesced_keys_gt _ _ _ _ _ H _ _ Hi). lia. }
    specialize (HR sp ss (or_introl eq_refl)). range.
    replace ((pos <=? sp) && (sp <? pos + size)) with true
      by (symmetry; apply andb_true_iff; split; [apply Z.leb_le|apply Z.ltb_lt]; lia).
    match goal with |- (if ?b then _ else _) = _ => destruct b; reflexivity end.
Qed.

Lemma add_free_region_ok : forall a lo pos size,
  coalesced_from lo (free_space a) -> lo < pos -> 0 < size ->
  ~ overlaps (free_space a) pos size ->
  exists m', add_free_region a pos size = Ret (with_space a m' (free_bytes a + size)) /\
    coalesced_from lo m' /\
    (forall x, covered m' x <-> covered (free_space a) x \/ in_range x (pos, size)) /\
    total_size m' = total_size (free_space a) + size.
Proof.
  intros a lo pos size H Hlo Hs Hno.
  unfold add_free_region, with_space. cbv zeta. set (m := free_space a) in *.
  destruct m as [|e0 m0] eqn:Em.
  { exists [(pos, size)]. simpl. repeat split; auto; try lia.
    - intros (r & [E|[]] & Hr). subst. auto.
    - intros [Hc|Hr]; [destruct (covered_nil _ Hc)|]. exists (pos, size). simpl; auto. }
  rewrite <- Em in *.
  assert (Hlen : length m <> 0%nat) by (rewrite Em; simpl; lia).
  clear e0 m0 Em.
  destruct (split_at _ _ pos H) as (L & R & E & HL & HR & HU & HB).
  rewrite HU, HB.
  (* facts *)
  assert (FL : forall p s, In (p, s) L -> p + s <= pos).
  { intros p s Hin. destruct (Z_le_gt_dec (p + s) pos); auto. exfalso. apply Hno.
    assert (In (p, s) m) by (rewrite E; apply in_or_app; auto).
    specialize (HL p s Hin). exists pos. split; [exists (p, s); split; auto; range; lia|range; lia]. }
  assert (FR : forall p s, In (p, s) R -> pos + size <= p).
  { intros p s Hin. destruct (Z_le_gt_dec (pos + size) p); auto. exfalso. apply Hno.
    assert (In (p, s) m) by (rewrite E; apply in_or_app; auto).
    specialize (HR p s Hin). destruct (coalesced_in _ _ _ _ H H0) as (? & ? & ?).
    exists p. split; [exists (p, s); split; auto; range; lia|range; lia]. }
  rewrite E in H.
  destruct (hd_error (rev L)) as [[pp ps]|] eqn:EL.
  - (* a predecessor exists *)
    apply hd_rev_snoc in EL. destruct EL as (L' & EL). rewrite EL in *.
    assert (FP : pp + ps <= pos) by (apply (FL pp ps); apply in_or_app; simpl; auto).
    rewrite <- app_assoc in H. simpl in H.
    pose proof (coalesced_keys_lt _ _ _ _ _ H) as KL'.
    assert (KLp : keys_lt (L' ++ [(pp, ps)]) pos).
    { intros p s Hin. destruct (Z.eq_dec p pos); [|specialize (HL p s Hin); lia].
      subst p. specialize (FL pos s Hin). apply coalesced_app in H. destruct H as [Ha Hb].
      apply in_app_or in Hin. destruct Hin as [Hin|[Hin|[]]].
      - destruct (coalesced_in _ _ _ _ Ha Hin). lia.
      - inversion Hin; subst. simpl in Hb. lia. }
    assert (KRp : keys_gt R pos) by (intros p s Hin; specialize (HR p s Hin); lia).
    assert (KRpp : keys_gt R pp) by (apply (coalesced_keys_gt L' R lo pp ps); auto).
    pose proof H as H'. apply coalesced_app in H'. destruct H' as [Ha Hb].
    simpl in Hb. destruct Hb as (Hb1 & Hb2 & Hb3).
    rewrite (proj2 (andb_false_iff (pp <=? pos) (pos <? pp + ps)))
      by (right; apply Z.ltb_ge; lia).
    destruct R as [|[sp ss] R']; simpl hd_error.
    + (* no successor *)
      rewrite app_nil_r in E. destruct (Z.eqb_spec (pp + ps) pos).
      * exists (L' ++ [(pp, size + ps)]). split; [|split; [|split]].
        { f_equal. f_equal. rewrite E. rewrite map_erase_mid by auto.
          rewrite map_set_mid; auto; intros ? ? [].
 }
        { apply coalesced_app. split; auto. simpl. split; auto. split; [lia|exact I]. }
        { intros x. rewrite E. rewrite !covered_app, !covered_cons.
          range. pose proof (covered_nil x). intuition lia. }
        { rewrite E. rewrite !total_size_app. simpl. lia. }
      * exists ((L' ++ [(pp, ps)]) ++ [(pos, size)]). split; [|split; [|split]].
        { f_equal. f_equal. rewrite E. rewrite <- (app_nil_r (L' ++ [(pp, ps)])) at 1.
          rewrite map_set_mid; auto; intros ? ? [].
 }
        { rewrite <- app_assoc. apply coalesced_app. split; auto. simpl. intuition lia. }
        { intros x. rewrite E. rewrite !covered_app, !covered_cons.
          range. pose proof (covered_nil x). intuition lia. }
        { rewrite E. rewrite !total_size_app. simpl. lia. }
    + (* successor and predecessor *)
      assert (FS : pos + size <= sp) by (apply (FR sp ss); simpl; auto).
      simpl in Hb3. destruct Hb3 as (Hb3 & Hb4 & Hb5).
      assert (KR' : keys_gt R' pos).
      { intros p s Hin. destruct (coalesced_in _ _ _ _ Hb5 Hin). lia. }
      assert (KR'' : keys_gt R' pp).
      { intros p s Hin. destruct (coalesced_in _ _ _ _ Hb5 Hin). lia. }
      rewrite (proj2 (andb_false_iff (pos <=? sp) (sp <? pos + size)))
        by (right; apply Z.ltb_ge; lia).
      assert (El : (1 <? Z.of_nat (length m)) = true).
      { rewrite E, !app_length. simpl. apply Z.ltb_lt. lia. }
      rewrite El.
      assert (Em2 : m = (L' ++ [(pp, ps)]) ++ (sp, ss) :: R') by auto.
      assert (KLs : keys_lt (L' ++ [(pp, ps)]) sp).
      { intros p s Hin. specialize (KLp p s Hin). lia. }
      destruct (Z.eqb_spec sp (pos + size)); destruct (Z.eqb_spec (pp + ps) pos).
      * exists (L' ++ (pp, size + ss + ps) :: R'). split; [|split; [|split]].
        { f_equal. f_equal. rewrite Em2. rewrite map_erase_mid by auto.
          rewrite <- app_assoc. simpl. rewrite map_erase_mid by auto.
          rewrite map_set_mid; auto. }
        { apply coalesced_app. split; auto. simpl. repeat split; auto; try lia.
          eapply coalesced_weaken; [|exact Hb5]. lia. }
        { intros x. rewrite Em2. rewrite <- app_assoc. simpl. rewrite !covered_app, !covered_cons.
          range. intuition lia. }
        { rewrite Em2. rewrite <- app_assoc. simpl. rewrite !total_size_app. simpl. lia. }
      * exists ((L' ++ [(pp, ps)]) ++ (pos, size + ss) :: R'). split; [|split; [|split]].
        { f_equal. f_equal. rewrite Em2. rewrite map_erase_mid by auto.
          rewrite map_set_mid; auto. }
        { rewrite <- app_assoc. apply coalesced_app. split; auto. simpl. repeat split; auto; try lia.
          eapply coalesced_weaken; [|exact Hb5]. lia. }
        { intros x. rewrite Em2. rewrite <- !app_assoc. simpl. rewrite !covered_app, !covered_cons.
          range. intuition lia. }
        { rewrite Em2. rewrite <- !app_assoc. simpl. rewrite !total_size_app. simpl. lia. }
      * exists (L' ++ (pp, size + ps) :: (sp, ss) :: R'). split; [|split; [|split]].
        { f_equal. f_equal. rewrite Em2. rewrite <- app_assoc. simpl. rewrite map_erase_mid by auto.
          rewrite map_set_mid; auto. }
        { apply coalesced_app. split; auto. simpl. repeat split; auto; lia. }
        { intros x. rewrite Em2. rewrite <- app_assoc. simpl. rewrite !covered_app, !covered_cons.
          range. intuition lia. }
        { rewrite Em2. rewrite <- app_assoc. simpl. rewrite !total_size_app. simpl. lia. }
      * exists ((L' ++ [(pp, ps)]) ++ (pos, size) :: (sp, ss) :: R'). split; [|split; [|split]].
        { f_equal. f_equal. rewrite Em2. rewrite map_set_mid; auto. }
        { rewrite <- app_assoc. apply coalesced_app. split; auto. simpl. repeat split; auto; lia. }
        { intros x. rewrite Em2. rewrite <- !app_assoc. simpl. rewrite !covered_app, !covered_cons.
          range. intuition lia. }
        { rewrite Em2. rewrite <- !app_assoc. simpl. rewrite !total_size_app. simpl. lia. }
  - (* no predecessor: L empty *)
    destruct (rev L) eqn:ER; [|discriminate].
    apply (f_equal (@rev _)) in ER. rewrite rev_involutive in ER. simpl in ER. subst L.
    simpl in E, H. destruct R as [|[sp ss] R'].
    { exfalso. rewrite E in Hlen. simpl in Hlen. lia. }
    simpl hd_error.
    assert (FS : pos + size <= sp) by (apply (FR sp ss); simpl; auto).
    simpl in H. destruct H as (Hb3 & Hb4 & Hb5).
    assert (KR' : keys_gt R' pos).
    { intros p s Hin. destruct (coalesced_in _ _ _ _ Hb5 Hin). lia. }
    rewrite (proj2 (andb_false_iff (sp <=? pos) (pos <? sp + ss)))
      by (left; apply Z.leb_gt; lia).
    rewrite (proj2 (andb_false_iff (pos <=? sp) (sp <? pos + size)))
      by (right; apply Z.ltb_ge; lia).
    assert (G : exists m',
      (if sp =? pos + size then map_set pos (size + ss) (map_erase sp m) else map_set pos size m) = m' /\
      coalesced_from lo m' /\
      (forall x, covered m' x <-> covered m x \/ in_range x (pos, size)) /\
      total_size m' = total_size m + size).
    { rewrite E. simpl map_erase. rewrite Z.eqb_refl. destruct (Z.eqb_spec sp (pos + size)).
      - exists ((pos, size + ss) :: R'). split; [|split; [|split]].
        + change R' with ([] ++ R') at 1. rewrite map_set_mid; auto; intros ? ? [].

        + simpl. repeat split; auto; try lia. eapply coalesced_weaken; [|exact Hb5]. lia.
        + intros x. rewrite !covered_cons. range. intuition lia.
        + simpl. lia.
      - exists ((pos, size) :: (sp, ss) :: R'). split; [|split; [|split]].
        + change ((sp, ss) :: R') with ([] ++ (sp, ss) :: R') at 1. rewrite map_set_mid; auto; intros ? ? [].
        + simpl. repeat split; auto; try lia.
        + intros x. rewrite !covered_cons. range. intuition lia.
        + simpl. lia. }
    destruct G as (m' & G1 & G2). exists m'. split; auto.
    destruct (1 <? Z.of_nat (length m)); destruct (Z.eqb_spec sp (pos + size)); subst m'; reflexivity.
Qed.
