(** Invariant of the disk allocator and its preservation. *)
From Coq Require Import ZArith List Bool Lia Permutation PeanoNat.
From Verif Require Import AllocModel AllocSpec AllocProofs.
Import ListNotations.
Local Open Scope Z_scope.

Record inv (a : allocator) (live : list (Z * Z)) : Prop := mk_inv {
  i_coal : coalesced_from (-1) (free_space a);
  i_sum  : free_bytes a = total_size (free_space a);
  i_disk : 0 <= disk_bytes a;
  i_pos  : Forall (fun r => 0 < snd r) live;
  i_dis  : ForallOrdPairs disjoint live;
  i_part : forall x, 0 <= x < disk_bytes a <-> covered (free_space a) x \/ covered live x;
  i_excl : forall x, ~ (covered (free_space a) x /\ covered live x);
  i_tot  : disk_bytes a = free_bytes a + total_size live;
  i_stor : storage_size a = disk_bytes a
}.

Definition same_cfg (a a' : allocator) : Prop :=
  autogrow a' = autogrow a /\ cfg_bytes a' = cfg_bytes a.

Lemma same_cfg_refl : forall a, same_cfg a a.
Proof. split; auto. Qed.
Lemma same_cfg_trans : forall a b c, same_cfg a b -> same_cfg b c -> same_cfg a c.
Proof. unfold same_cfg; intuition congruence. Qed.

Lemma disjoint_sym : forall r1 r2, disjoint r1 r2 -> disjoint r2 r1.
Proof. unfold disjoint; intros r1 r2 H x [A B]; apply (H x); auto. Qed.

Lemma FOP_app : forall {A} (R : A -> A -> Prop) l1 l2,
  ForallOrdPairs R (l1 ++ l2) <->
  ForallOrdPairs R l1 /\ ForallOrdPairs R l2 /\ (forall x y, In x l1 -> In y l2 -> R x y).
Proof.
  induction l1 as [|x l1 IH]; intros l2; simpl; split.
  - intros H; repeat split; auto; [constructor|intros ? ? []].
  - tauto.
  - intros H; inversion H; subst. apply IH in H3. destruct H3 as (A1 & A2 & A3).
    rewrite Forall_app in H2. destruct H2 as [B1 B2]. repeat split; auto.
    + constructor; auto.
    + intros u v [E|Hu] Hv; subst; auto. rewrite Forall_forall in B2. auto.
  - intros (H1 & H2 & H3). inversion H1; subst. constructor.
    + apply Forall_app; split; auto. apply Forall_forall. intros; apply H3; auto.
    + apply IH. repeat split; auto.
Qed.

Lemma FOP_perm : forall l1 l2, Permutation l1 l2 ->
  ForallOrdPairs disjoint l1 -> ForallOrdPairs disjoint l2.
Proof.
  intros l1 l2 P. induction P; intros H.
  - constructor.
  - inversion H; subst. constructor; auto.
    apply Forall_forall. intros y Hy. rewrite Forall_forall in H2. apply H2.
    apply Permutation_in with (2 := Hy). apply Permutation_sym; auto.
  - inversion H; subst. inversion H2; subst. inversion H3; subst.
    constructor; [constructor|constructor]; auto. apply disjoint_sym; auto.
  - auto.
Qed.

Lemma covered_perm : forall l1 l2 x, Permutation l1 l2 -> covered l1 x -> covered l2 x.
Proof. intros l1 l2 x P (r & Hin & Hr). exists r. split; auto. eapply Permutation_in; eauto. Qed.

Lemma total_size_perm : forall l1 l2, Permutation l1 l2 -> total_size l1 = total_size l2.
Proof. intros l1 l2 P. induction P; simpl; lia. Qed.

Lemma inv_perm : forall a l1 l2, Permutation l1 l2 -> inv a l1 -> inv a l2.
Proof.
  intros a l1 l2 P H. pose proof (Permutation_sym P) as P'. destruct H. constructor; auto.
  - rewrite Forall_forall in *. intros r Hr. apply i_pos0. eapply Permutation_in; eauto.
  - eapply FOP_perm; eauto.
  - intros x. rewrite i_part0. split; (intros [K|K]; [left; auto|right; eapply covered_perm; eauto]).
  - intros x [A B]. apply (i_excl0 x). split; auto. eapply covered_perm; eauto.
  - rewrite <- (total_size_perm _ _ P). auto.
Qed.

Lemma FOP_nth : forall (l : list (Z * Z)), ForallOrdPairs disjoint l -> pairwise_disjoint l.
Proof.
  induction l as [|r l IH]; intros H i j r1 r2 Hij Hi Hj.
  - destruct i; discriminate.
  - inversion H; subst. rewrite Forall_forall in H2.
    destruct i, j; simpl in *; try congruence.
    + inversion Hi; subst. apply H2. eapply nth_error_In; eauto.
    + inversion Hj; subst. apply disjoint_sym. apply H2. eapply nth_error_In; eauto.
    + eapply (IH H3 i j); eauto.
Qed.

Lemma coalesced_nonneg_total : forall m lo, coalesced_from lo m -> 0 <= total_size m.
Proof.
  induction m as [|[p s] m IH]; intros lo H; simpl in *; [lia|].
  destruct H as (? & ? & H). apply IH in H. lia.
Qed.

Lemma coalesced_le_total : forall m lo p s, coalesced_from lo m -> In (p, s) m -> s <= total_size m.
Proof.
  induction m as [|[p0 s0] m IH]; intros lo p s H Hin; simpl in *; [tauto|].
  destruct H as (? & ? & H). destruct Hin as [E|Hin].
  - inversion E; subst. apply coalesced_nonneg_total in H. lia.
  - specialize (IH _ _ _ H Hin). lia.
Qed.

(** A contiguous run of free bytes lies in a single region. *)
Lemma covered_run : forall m lo pos n, coalesced_from lo m -> 0 < n ->
  (forall x, pos <= x < pos + n -> covered m x) ->
  exists p s, In (p, s) m /\ p <= pos /\ pos + n <= p + s.
Proof.
  induction m as [|[p s] m IH]; intros lo pos n H Hn Hc.
  - exfalso. apply (covered_nil pos). apply Hc. lia.
  - simpl in H. destruct H as (H1 & H2 & H3).
    assert (covered ((p, s) :: m) pos) as K by (apply Hc; lia).
    apply covered_cons in K. destruct K as [K|K].
    + range. exists p, s. split; [left; auto|]. split; [lia|].
      destruct (Z_le_gt_dec (pos + n) (p + s)); auto. exfalso.
      assert (covered ((p, s) :: m) (p + s)) as K2 by (apply Hc; lia).
      apply covered_cons in K2. destruct K2 as [K2|K2]; [range; lia|].
      apply (covered_coalesced_lb _ _ _ H3) in K2. lia.
    + pose proof (covered_coalesced_lb _ _ _ H3 K) as Hlb.
      destruct (IH (p + s) pos n H3 Hn) as (p' & s' & A & B & C).
      { intros x Hx. specialize (Hc x Hx). apply covered_cons in Hc.
        destruct Hc as [Hc|Hc]; auto. range. lia. }
      exists p', s'. split; [right; auto|auto].
Qed.

(** * delete_block of a live block *)
Lemma inv_delete : forall a o s live,
  inv a ((o, s) :: live) ->
  exists a', delete_block a o s = Ret a' /\ inv a' live /\ same_cfg a a' /\
             disk_bytes a' = disk_bytes a /\ free_bytes a' = free_bytes a + s.
Proof.
  intros a o s live H. destruct H.
  assert (0 < s) by (inversion i_pos0; auto).
  assert (Hex : forall x, in_range x (o, s) -> ~ covered (free_space a) x).
  { intros x Hx Hc. apply (i_excl0 x). split; auto. apply covered_cons; auto. }
  destruct (add_free_region_ok a (-1) o s) as (m' & E & Hc & Hcov & Ht); auto.
  { assert (0 <= o < disk_bytes a); [|lia]. apply i_part0. right. apply covered_cons. left. range. lia. }
  { intros (x & A & B). apply (Hex x); auto. }
  unfold delete_block. rewrite E. eexists. split; [reflexivity|]. split; [|unfold same_cfg, with_space; simpl; intuition].
  inversion i_dis0; subst. inversion i_pos0; subst. rewrite Forall_forall in H2.
  assert (Hdl : forall x, in_range x (o, s) -> ~ covered live x).
  { intros x Hx (r & Hin & Hr). apply (H2 r Hin x). auto. }
  constructor; simpl; auto.
  - lia.
  - intros x. rewrite Hcov. rewrite i_part0, covered_cons. tauto.
  - intros x [A B]. apply Hcov in A. destruct A as [A|A].
    + apply (i_excl0 x). split; auto. apply covered_cons; auto.
    + apply (Hdl x); auto.
  - simpl in i_tot0. lia.
Qed.

(** * grow_file *)
Lemma inv_grow : forall a live n, inv a live -> 0 < n ->
  exists a', grow_file a n = Ret a' /\ inv a' live /\ same_cfg a a' /\
             disk_bytes a' = disk_bytes a + n /\ free_bytes a' = free_bytes a + n /\
             exists p s, In (p, s) (free_space a') /\ n <= s.
Proof.
  intros a live n H Hn. destruct H. unfold grow_file.
  destruct (Z.eqb_spec n 0); [lia|]. cbv zeta.
  match goal with |- context [add_free_region ?b _ _] => set (a1 := b) end.
  destruct (add_free_region_ok a1 (-1) (disk_bytes a) n) as (m' & E & Hc & Hcov & Ht); auto; try lia.
  { intros (x & A & B). assert (0 <= x < disk_bytes a) by (apply i_part0; auto). range. lia. }
  rewrite E. eexists. split; [reflexivity|]. subst a1. unfold with_space, same_cfg in *; simpl in *.
  split; [|split; [auto|split; [auto|split; [auto|]]]].
  - constructor; simpl; auto; try lia.
    + intros x. rewrite Hcov. specialize (i_part0 x). range.
      split.
      * intros Hx. destruct (Z_lt_le_dec x (disk_bytes a)); [|left; right; lia].
        destruct i_part0 as [G _]. destruct G; auto; lia.
      * intros [[A|A]|A]; [apply or_introl with (B := covered live x) in A| |
          apply or_intror with (A := covered (free_space a) x) in A];
          try (apply i_part0 in A); lia.
    + intros x [A B]. apply Hcov in A. destruct A as [A|A]; [apply (i_excl0 x); auto|].
      assert (0 <= x < disk_bytes a) by (apply i_part0; auto). range. lia.
  - destruct (covered_run m' (-1) (disk_bytes a) n Hc Hn) as (p & s & A & B & C).
    { intros x Hx. apply Hcov. right. range. lia. }
    exists p, s. split; auto. lia.
Qed.

(** * find_region *)
Lemma find_region_some : forall req m p s, find_region req m = Some (p, s) ->
  exists L R, m = L ++ (p, s) :: R /\ req <= s /\ (forall p' s', In (p', s') L -> s' < req).
Proof.
  induction m as [|[p0 s0] m IH]; intros p s H; simpl in H; [discriminate|].
  destruct (Z.leb_spec req s0).
  - inversion H; subst. exists [], m. simpl. repeat split; auto. intros ? ? [].
  - destruct (IH _ _ H) as (L & R & E & A & B). exists ((p0, s0) :: L), R. subst m.
    simpl. repeat split; auto. intros p' s' [Ei|Hin]; [inversion Ei; subst; auto|eauto].
Qed.

Lemma find_region_none : forall req m, find_region req m = None ->
  forall p s, In (p, s) m -> s < req.
Proof.
  induction m as [|[p0 s0] m IH]; intros H p s Hin; simpl in *; [tauto|].
  destruct (Z.leb_spec req s0); [discriminate|].
  destruct Hin as [E|Hin]; [inversion E; subst; auto|eauto].
Qed.

Lemma find_region_exists : forall req m p s, In (p, s) m -> req <= s ->
  find_region req m <> None.
Proof. intros req m p s Hin Hle H. pose proof (find_region_none _ _ H _ _ Hin). lia. Qed.

(** * assign_offsets *)
Lemma assign_offsets_length : forall sizes pos, length (assign_offsets pos sizes) = length sizes.
Proof. induction sizes; intros; simpl; auto. Qed.

Lemma sum_sizes_nonneg : forall sizes, Forall (fun s => 0 < s) sizes -> 0 <= sum_sizes sizes.
Proof. induction 1; simpl; lia. Qed.

Lemma sum_sizes_app : forall a b, sum_sizes (a ++ b) = sum_sizes a + sum_sizes b.
Proof. induction a; intros; simpl; [lia|rewrite IHa; lia]. Qed.

Lemma sum_sizes_pos : forall sizes, good_batch sizes -> 0 < sum_sizes sizes.
Proof.
  intros sizes [H1 H2]. destruct sizes as [|s r]; [congruence|].
  inversion H2; subst. apply sum_sizes_nonneg in H4. simpl. lia.
Qed.

Lemma assign_covered : forall sizes pos x, Forall (fun s => 0 < s) sizes ->
  (covered (combine (assign_offsets pos sizes) sizes) x <-> pos <= x < pos + sum_sizes sizes).
Proof.
  induction sizes as [|s r IH]; intros pos x H; simpl.
  - split; [intros K; destruct (covered_nil _ K)|lia].
  - inversion H; subst. rewrite covered_cons, (IH (pos + s) x H3). range.
    pose proof (sum_sizes_nonneg _ H3). lia.
Qed.

Lemma assign_disjoint : forall sizes pos, Forall (fun s => 0 < s) sizes ->
  ForallOrdPairs disjoint (combine (assign_offsets pos sizes) sizes).
Proof.
  induction sizes as [|s r IH]; intros pos H; simpl; [constructor|].
  inversion H; subst. constructor; auto. apply Forall_forall. intros [o' s'] Hin x [A B].
  assert (covered (combine (assign_offsets (pos + s) r) r) x) as K by (exists (o', s'); auto).
  apply assign_covered in K; auto. range. lia.
Qed.

Lemma assign_total : forall sizes pos, total_size (combine (assign_offsets pos sizes) sizes) = sum_sizes sizes.
Proof. induction sizes; intros; simpl; auto. rewrite IHsizes. auto. Qed.

Lemma assign_pos : forall sizes pos, Forall (fun s => 0 < s) sizes ->
  Forall (fun r => 0 < snd r) (combine (assign_offsets pos sizes) sizes).
Proof. induction sizes; intros pos H; simpl; inversion H; subst; constructor; auto. Qed.

(** * Taking a region *)

Definition take_region (m : space_map) (p s req : Z) : space_map :=
  let m1 := map_erase p m in
  if req <? s then map_set (p + req) (s - req) m1 else m1.

Lemma take_region_spec : forall L R p s req,
  coalesced_from (-1) (L ++ (p, s) :: R) -> 0 < req <= s ->
  exists T, take_region (L ++ (p, s) :: R) p s req = L ++ T ++ R /\
    T = (if req <? s then [(p + req, s - req)] else []) /\
    coalesced_from (-1) (L ++ T ++ R) /\
    (forall x, covered (L ++ T ++ R) x <->
       covered (L ++ (p, s) :: R) x /\ ~ in_range x (p, req)) /\
    total_size (L ++ T ++ R) = total_size (L ++ (p, s) :: R) - req.
Proof.
  intros L R p s req H Hr. unfold take_region.
  pose proof (coalesced_keys_lt _ _ _ _ _ H) as KL.
  pose proof (coalesced_keys_gt _ _ _ _ _ H) as KR.
  pose proof H as H'. apply coalesced_app in H'. destruct H' as [Ha Hb]. simpl in Hb.
  destruct Hb as (Hb1 & Hb2 & Hb3).
  rewrite map_erase_mid by auto. cbv zeta.
  assert (FL : forall x, covered L x -> x < p).
  { intros x Hx. apply (covered_coalesced_ub _ _ _ Ha) in Hx. lia. }
  assert (FR : forall x, covered R x -> p + s < x).
  { intros x Hx. apply (covered_coalesced_lb _ _ _ Hb3) in Hx. lia. }
  destruct (Z.ltb_spec req s).
  - exists [(p + req, s - req)]. split; [|split; [auto|split; [|split]]].
    + rewrite map_set_mid; auto.
      * intros p' s' Hin. specialize (KL p' s' Hin). lia.
      * intros p' s' Hin. destruct (coalesced_in _ _ _ _ Hb3 Hin). lia.
    + apply coalesced_app. split; auto. simpl. repeat split; try lia.
      replace (p + req + (s - req)) with (p + s) by lia. auto.
    + intros x. simpl. rewrite !covered_app, !covered_cons. range.
      specialize (FL x). specialize (FR x). intuition lia.
    + simpl. rewrite !total_size_app. simpl. lia.
  - exists []. simpl. split; [auto|split; [auto|split; [|split]]].
    + apply coalesced_app. split; auto. eapply coalesced_weaken; [|exact Hb3]. lia.
    + intros x. rewrite !covered_app, !covered_cons. range.
      specialize (FL x). specialize (FR x). intuition lia.
    + rewrite !total_size_app. simpl. lia.
Qed.

Lemma inv_take : forall a live sizes L R p s,
  inv a live -> good_batch sizes ->
  free_space a = L ++ (p, s) :: R -> sum_sizes sizes <= s ->
  let req := sum_sizes sizes in
  inv {| free_space := take_region (free_space a) p s req; free_bytes := free_bytes a - req;
         disk_bytes := disk_bytes a; cfg_bytes := cfg_bytes a;
         storage_size := storage_size a; autogrow := autogrow a |}
      (live ++ combine (assign_offsets p sizes) sizes).
Proof.
  intros a live sizes L R p s H Hg E Hle req. destruct H.
  pose proof (sum_sizes_pos _ Hg) as Hpos. destruct Hg as [_ Hall].
  rewrite E in *. destruct (take_region_spec L R p s req) as (T & E1 & _ & E2 & E3 & E4); auto.
  rewrite E1.
  assert (Hcov : forall x, covered (combine (assign_offsets p sizes) sizes) x <-> in_range x (p, req)).
  { intros x. rewrite assign_covered by auto. range. fold req. tauto. }
  assert (Hin : forall x, in_range x (p, req) -> covered (L ++ (p, s) :: R) x).
  { intros x Hx. apply covered_app. right. apply covered_cons. left. range. unfold req in *. lia. }
  assert (Hdec : forall x, in_range x (p, req) \/ ~ in_range x (p, req)).
  { intros x. range. unfold req in *. lia. }
  constructor; simpl; auto.
  - lia.
  - apply Forall_app. split; auto. apply assign_pos; auto.
  - apply FOP_app. split; auto. split; [apply assign_disjoint; auto|].
    intros r1 r2 H1 H2 x [A B]. apply (i_excl0 x). split; [|exists r1; auto].
    apply Hin. apply Hcov. exists r2; auto.
  - intros x. rewrite E3, (covered_app live), Hcov, i_part0. specialize (Hin x). specialize (Hdec x). tauto.
  - intros x [A B]. apply E3 in A. rewrite (covered_app live), Hcov in B. apply (i_excl0 x). tauto.
  - rewrite total_size_app, assign_total. unfold req in *. lia.
Qed.

(** * The critical section *)

Lemma not_disjoint_intro : forall r1 r2 x, in_range x r1 -> in_range x r2 -> ~ disjoint r1 r2.
Proof. intros r1 r2 x A B H. apply (H x); auto. Qed.

(** No free region of size >= s means no hole of size s. *)
Lemma no_region_no_hole : forall a live s, inv a live -> 0 < s ->
  (forall p z, In (p, z) (free_space a) -> z < s) -> no_hole live (disk_bytes a) s.
Proof.
  intros a live s H Hs Hn o [H1 H2]. simpl in *.
  (* find a byte of [o, o+s) covered by live *)
  assert (D : (exists x, o <= x < o + s /\ covered live x) \/
              (forall x, o <= x < o + s -> ~ covered live x)).
  { clear - Hs.
    assert (Hd : forall x, covered live x \/ ~ covered live x).
    { intros x. induction live as [|r l IH]; [right; apply covered_nil|].
      rewrite covered_cons. destruct IH as [IH|IH]; auto.
      destruct (Z_le_gt_dec (fst r) x); destruct (Z_lt_le_dec x (fst r + snd r)); unfold in_range;
        try (left; left; lia); right; intros [K|K]; auto; lia. }
    assert (Hk : forall n : nat, (exists x, o <= x < o + Z.of_nat n /\ covered live x) \/
              (forall x, o <= x < o + Z.of_nat n -> ~ covered live x)).
    { induction n as [|n IH]; [right; intros; lia|].
      destruct IH as [(x & A & B)|IH]; [left; exists x; split; auto; lia|].
      destruct (Hd (o + Z.of_nat n)) as [K|K].
      - left. exists (o + Z.of_nat n). split; auto; lia.
      - right. intros x Hx. destruct (Z.eq_dec x (o + Z.of_nat n)); [subst; auto|apply IH; lia]. }
    specialize (Hk (Z.to_nat s)). rewrite Z2Nat.id in Hk by lia. auto. }
  destruct D as [(x & A & (r & Hin & Hr))|D].
  - exists r. split; auto. apply not_disjoint_intro with x; auto.
  - exfalso. destruct H.
    destruct (covered_run (free_space a) (-1) o s) as (p & z & A & B & C); auto.
    { intros x Hx. assert (0 <= x < disk_bytes a) as K by lia. apply i_part0 in K.
      destruct K; auto. destruct (D x Hx); auto. }
    specialize (Hn p z A). lia.
Qed.

Lemma inv_nonneg_free : forall a live, inv a live -> 0 <= free_bytes a.
Proof. intros a live H. destruct H. pose proof (coalesced_nonneg_total _ _ i_coal0). lia. Qed.

Lemma section_spec : forall a live sizes,
  inv a live -> good_batch sizes ->
  match new_blocks_section a sizes with
  | SecDone a' offs =>
      inv a' (live ++ combine offs sizes) /\ length offs = length sizes /\ same_cfg a a' /\
      disk_bytes a <= disk_bytes a' /\
      (autogrow a = false -> sum_sizes sizes <= free_bytes a) /\
      (autogrow a = false -> disk_bytes a' <> disk_bytes a ->
         exists s, sizes = [s] /\ no_hole live (disk_bytes a) s) /\
      (autogrow a = false -> disk_bytes a' <= disk_bytes a + sum_sizes sizes)
  | SecSplit a' =>
      inv a' live /\ same_cfg a a' /\ disk_bytes a <= disk_bytes a' /\
      sum_sizes sizes <= free_bytes a' /\ (1 < length sizes)%nat /\
      (autogrow a = false -> a' = a)
  | SecThrow => autogrow a = false /\ free_bytes a < sum_sizes sizes
  | SecAssert => False
  end.
Proof.
  intros a live sizes H Hg. pose proof (sum_sizes_pos _ Hg) as Hpos.
  unfold new_blocks_section. cbv zeta.
  (* first growth *)
  assert (G : exists a1,
     (if free_bytes a <? sum_sizes sizes
      then if autogrow a then grow_file a (sum_sizes sizes) else Throw else Ret a) = Ret a1 /\
     inv a1 live /\ same_cfg a a1 /\ disk_bytes a <= disk_bytes a1 /\
     sum_sizes sizes <= free_bytes a1 /\ (autogrow a = false -> a1 = a) \/
     ((if free_bytes a <? sum_sizes sizes
      then if autogrow a then grow_file a (sum_sizes sizes) else Throw else Ret a) = Throw /\
      autogrow a = false /\ free_bytes a < sum_sizes sizes)).
  { pose proof (inv_nonneg_free _ _ H) as Hnn.
    destruct (Z.ltb_spec (free_bytes a) (sum_sizes sizes)).
    - destruct (autogrow a) eqn:Ea.
      + destruct (inv_grow _ _ _ H Hpos) as (a' & A & B & C & D & E & F).
        exists a'. left. split; [exact A|]. split; [exact B|]. split; [exact C|].
        split; [lia|]. split; [lia|discriminate].
      + exists a. right. auto.
    - exists a. left. split; [auto|]. split; [auto|]. split; [apply same_cfg_refl|].
      split; [lia|]. split; [lia|auto]. }
  destruct G as (a1 & [(E1 & I1 & C1 & D1 & F1 & N1)|(E1 & A1 & A2)]).
  2:{ rewrite E1. auto. }
  rewrite E1. clear E1.
  destruct (find_region (sum_sizes sizes) (free_space a1)) as [[p s]|] eqn:EF.
  - (* found directly *)
    destruct (find_region_some _ _ _ _ EF) as (L & R & E & Hle & _).
    destruct (Z.ltb_spec (free_bytes a1) (sum_sizes sizes)); [lia|].
    pose proof (inv_take a1 live sizes L R p s I1 Hg E Hle) as I2.
    unfold take_region in I2. cbv zeta in I2. simpl in I2.
    assert (K : autogrow a = false -> sum_sizes sizes <= free_bytes a).
    { intros Ha. specialize (N1 Ha). subst a1. auto. }
    assert (Goal1 : match Ret (a1, Some (p, s)) with
      | Ret (a2, Some (rp, rs)) => True | _ => True end) by exact I.
    destruct sizes as [|z [|z' r]]; (split; [exact I2|]; split; [apply assign_offsets_length|];
      split; [destruct C1; split; auto|]; split; [simpl; auto|]; split; auto; split;
      [intros Ha Hne; specialize (N1 Ha); subst a1; simpl in Hne; congruence|
       intros Ha; specialize (N1 Ha); subst a1; cbn [disk_bytes]; lia]).
  - destruct sizes as [|z r].
    { destruct Hg; congruence. }
    destruct r as [|z' r].
    + (* one block: grow *)
      assert (Hz : 0 < z) by (simpl in Hpos; lia).
      destruct (inv_grow _ _ _ I1 Hz) as (a2 & A & B & C & D & E & (p & s & Hin & Hs)).
      rewrite A. simpl sum_sizes in *.
      destruct (find_region (z + 0) (free_space a2)) as [[p' s']|] eqn:EF2.
      2:{ exfalso. eapply find_region_exists; [exact Hin| |exact EF2]. lia. }
      destruct (find_region_some _ _ _ _ EF2) as (L & R & E2 & Hle & _).
      destruct (Z.ltb_spec (free_bytes a2) (z + 0)); [lia|].
      pose proof (inv_take a2 live [z] L R p' s' B Hg E2 Hle) as I2.
      unfold take_region in I2. cbv zeta in I2. simpl in I2.
      split; [exact I2|]. split; [reflexivity|].
      split; [destruct C1, C; split; simpl; congruence|].
      split; [simpl; lia|]. split.
      * intros Ha. specialize (N1 Ha). subst a1. auto.
      * split.
        -- intros Ha _. specialize (N1 Ha). subst a1. exists z. split; auto.
           apply no_region_no_hole; auto. intros q w Hq.
           pose proof (find_region_none _ _ EF _ _ Hq). lia.
        -- intros Ha. specialize (N1 Ha). subst a1. cbn [disk_bytes]. lia.
    + (* several: split *)
      cbn [length]. destruct (Z.ltb_spec 1 (Z.of_nat (S (S (length r))))); [|lia].
      split; auto. split; auto. split; auto. split; auto. split; [simpl; lia|auto].
Qed.

(** * new_blocks *)

Lemma good_firstn : forall sizes, good_batch sizes -> (1 < length sizes)%nat ->
  good_batch (firstn (Nat.div2 (length sizes)) sizes) /\
  good_batch (skipn (Nat.div2 (length sizes)) sizes) /\
  (length (firstn (Nat.div2 (length sizes)) sizes) < length sizes)%nat /\
  (length (skipn (Nat.div2 (length sizes)) sizes) < length sizes)%nat.
Proof.
  intros sizes [H1 H2] Hl.
  assert (D : (0 < Nat.div2 (length sizes) < length sizes)%nat).
  { split; [|apply Nat.lt_div2; lia].
    destruct (length sizes) as [|[|n]]; simpl; lia. }
  rewrite firstn_length, skipn_length.
  repeat split; try lia.
  - intros E. apply (f_equal (@length Z)) in E. rewrite firstn_length in E. simpl in E. lia.
  - rewrite <- (firstn_skipn (Nat.div2 (length sizes)) sizes), Forall_app in H2. tauto.
  - intros E. apply (f_equal (@length Z)) in E. rewrite skipn_length in E. simpl in E. lia.
  - rewrite <- (firstn_skipn (Nat.div2 (length sizes)) sizes), Forall_app in H2. tauto.
Qed.

Lemma combine_app : forall {A B} (a1 a2 : list A) (b1 b2 : list B),
  length a1 = length b1 -> combine (a1 ++ a2) (b1 ++ b2) = combine a1 b1 ++ combine a2 b2.
Proof.
  induction a1; intros a2 b1 b2 H; destruct b1; simpl in *; try discriminate; auto.
  f_equal. apply IHa1. lia.
Qed.

Lemma combine_total : forall offs sizes, length offs = length sizes ->
  total_size (combine offs sizes) = sum_sizes sizes.
Proof.
  induction offs; intros sizes H; destruct sizes; simpl in *; try discriminate; auto.
  rewrite IHoffs; auto.
Qed.

Lemma new_blocks_fuel_spec : forall fuel a live sizes,
  inv a live -> good_batch sizes -> (length sizes < fuel)%nat ->
  match new_blocks_fuel fuel a sizes with
  | AllocOk a' offs =>
      inv a' (live ++ combine offs sizes) /\ length offs = length sizes /\ same_cfg a a' /\
      disk_bytes a <= disk_bytes a' /\
      (autogrow a = false -> sum_sizes sizes <= free_bytes a) /\
      (autogrow a = false -> disk_bytes a' <> disk_bytes a ->
         exists k s, nth_error sizes k = Some s /\
           no_hole (live ++ firstn k (combine offs sizes)) (disk_bytes a) s) /\
      (autogrow a = false -> disk_bytes a' <= disk_bytes a + sum_sizes sizes)
  | AllocThrow a' => a' = a /\ autogrow a = false /\ free_bytes a < sum_sizes sizes
  | AllocAssert => False
  | AllocFuel => False
  end.
Proof.
  induction fuel as [|f IH]; intros a live sizes H Hg Hl; [lia|].
  cbn [new_blocks_fuel]. pose proof (section_spec a live sizes H Hg) as S.
  destruct (new_blocks_section a sizes) as [a' offs|a'| |].
  - destruct S as (S1 & S2 & S3 & S4 & S5 & S6 & S7). do 5 (split; [assumption|]).
    split; [|assumption]. intros Ha Hne. destruct (S6 Ha Hne) as (s & E & Hh). exists 0%nat, s. subst sizes.
    simpl. rewrite app_nil_r. auto.
  - destruct S as (I1 & C1 & D1 & F1 & L1 & N1).
    destruct (good_firstn _ Hg L1) as (G1 & G2 & L2 & L3). cbv zeta.
    set (half := Nat.div2 (length sizes)) in *.
    assert (Esz : sum_sizes sizes = sum_sizes (firstn half sizes) + sum_sizes (skipn half sizes)).
    { rewrite <- sum_sizes_app, firstn_skipn. auto. }
    pose proof (sum_sizes_pos _ G1) as P1. pose proof (sum_sizes_pos _ G2) as P2.
    specialize (IH) as IH2.
    specialize (IH a' live (firstn half sizes) I1 G1 ltac:(lia)).
    destruct (new_blocks_fuel f a' (firstn half sizes)) as [a1 o1|at1| |]; auto.
    + destruct IH as (J1 & J2 & J3 & J4 & J5 & J6 & J7).
      specialize (IH2 a1 (live ++ combine o1 (firstn half sizes)) (skipn half sizes) J1 G2 ltac:(lia)).
      assert (Ff : sum_sizes (skipn half sizes) <= free_bytes a1).
      { pose proof (i_tot _ _ J1) as T1. pose proof (i_tot _ _ I1) as T2.
        rewrite total_size_app, combine_total in T1 by auto. lia. }
      destruct (new_blocks_fuel f a1 (skipn half sizes)) as [a2 o2|at2| |]; auto.
      * destruct IH2 as (K1 & K2 & K3 & K4 & K5 & K6 & K7).
        assert (Ec : combine (o1 ++ o2) sizes =
                     combine o1 (firstn half sizes) ++ combine o2 (skipn half sizes)).
        { rewrite <- (firstn_skipn half sizes) at 1. apply combine_app. auto. }
        split; [rewrite Ec, app_assoc; auto|].
        split.
        { rewrite app_length, J2, K2, <- app_length, firstn_skipn. auto. }
        split; [eapply same_cfg_trans; [exact C1|eapply same_cfg_trans; eauto]|].
        split; [lia|].
        split.
        { intros Ha. specialize (N1 Ha). subst a'. auto. }
        split.
        2:{ intros Ha. specialize (N1 Ha). subst a'. specialize (J7 Ha).
            assert (Ha1 : autogrow a1 = false) by (destruct J3; congruence).
            specialize (K7 Ha1). lia. }
        intros Ha Hne. specialize (N1 Ha). subst a'. rewrite Ec.
        destruct (Z.eq_dec (disk_bytes a1) (disk_bytes a)) as [Eq|Neq].
        { assert (Ha1 : autogrow a1 = false) by (destruct J3; congruence).
          destruct (K6 Ha1 ltac:(congruence)) as (k & s & A & B).
          exists (length (combine o1 (firstn half sizes)) + k)%nat, s. split.
          - rewrite combine_length, J2, Nat.min_id.
            rewrite <- (firstn_skipn half sizes) at 1.
            rewrite nth_error_app2 by lia.
            replace (length (firstn half sizes) + k - length (firstn half sizes))%nat with k by lia. auto.
          - rewrite firstn_app_2, app_assoc. rewrite <- Eq. auto. }
        { destruct (J6 Ha Neq) as (k & s & A & B). exists k, s. split.
          - rewrite <- (firstn_skipn half sizes) at 1. rewrite nth_error_app1; auto.
            apply nth_error_Some. congruence.
          - rewrite firstn_app.
            assert (k < length (combine o1 (firstn half sizes)))%nat.
            { rewrite combine_length, J2, Nat.min_id. apply nth_error_Some. congruence. }
            replace (k - length (combine o1 (firstn half sizes)))%nat with 0%nat by lia.
            simpl. rewrite app_nil_r. auto. }
      * exfalso. lia.
    + exfalso. lia.
  - auto.
  - auto.
Qed.
