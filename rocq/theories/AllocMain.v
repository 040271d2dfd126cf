(** Consequences of the allocator invariant for client histories. *)
From Coq Require Import ZArith List Bool Lia Permutation PeanoNat.
From Verif Require Import AllocModel AllocSpec AllocProofs AllocInv.
Import ListNotations.
Local Open Scope Z_scope.

Ltac csplit := repeat match goal with |- _ /\ _ => split end.

Ltac dinv H := destruct H as [i_coal0 i_sum0 i_disk0 i_pos0 i_dis0 i_part0 i_excl0 i_tot0 i_stor0].

Definition good_client (cfg : Z) (grow : bool) (c : client) : Prop :=
  inv (cl_alloc c) (cl_live c) /\ cfg_bytes (cl_alloc c) = cfg /\ autogrow (cl_alloc c) = grow.

Lemma inv_empty : forall cfg grow,
  inv {| free_space := []; free_bytes := 0; disk_bytes := 0;
         cfg_bytes := cfg; storage_size := 0; autogrow := grow |} [].
Proof.
  intros. constructor; simpl; auto; try lia.
  - constructor.
  - intros x. split; [lia|]. intros [K|K]; destruct (covered_nil _ K).
  - intros x [K _]. destruct (covered_nil _ K).
Qed.

Lemma new_allocator_inv : forall cfg grow a, 0 <= cfg -> new_allocator cfg grow = Ret a ->
  good_client cfg grow (mk_client a []) /\ disk_bytes a = cfg.
Proof.
  intros cfg grow a Hc H. unfold new_allocator in H.
  destruct (Z.eq_dec cfg 0) as [->|Hne].
  - inversion H; subst. unfold good_client; csplit; simpl; auto; apply inv_empty.
  - destruct (inv_grow _ _ cfg (inv_empty cfg grow)) as (a' & E & I & [C1 C2] & D & F & _); [lia|].
    rewrite E in H. inversion H; subst. unfold good_client; csplit; auto.
Qed.

Lemma new_allocator_ok : forall cfg grow, 0 <= cfg -> exists a, new_allocator cfg grow = Ret a.
Proof.
  intros cfg grow Hc. unfold new_allocator.
  destruct (Z.eq_dec cfg 0) as [->|Hne]; [eexists; reflexivity|].
  destruct (inv_grow _ _ cfg (inv_empty cfg grow)) as (a' & E & _); [lia|]. eauto.
Qed.

Lemma remove_nth_perm : forall {A} (l : list A) i x, nth_error l i = Some x ->
  Permutation l (x :: remove_nth i l).
Proof.
  induction l as [|y l IH]; intros i x H; destruct i; simpl in *; try discriminate.
  - inversion H; subst. apply Permutation_refl.
  - etransitivity; [apply perm_skip, IH; eauto|apply perm_swap].
Qed.

Lemma new_blocks_spec : forall a live sizes,
  inv a live -> good_batch sizes ->
  match new_blocks a sizes with
  | AllocOk a' offs =>
      inv a' (live ++ combine offs sizes) /\ length offs = length sizes /\ same_cfg a a' /\
      disk_bytes a <= disk_bytes a' /\
      (autogrow a = false -> sum_sizes sizes <= free_bytes a) /\
      (autogrow a = false -> disk_bytes a' <> disk_bytes a ->
         exists k s, nth_error sizes k = Some s /\
           no_hole (live ++ firstn k (combine offs sizes)) (disk_bytes a) s) /\
      (autogrow a = false -> disk_bytes a' <= disk_bytes a + sum_sizes sizes)
  | AllocThrow a' => a' = a /\ autogrow a = false /\ free_bytes a < sum_sizes sizes
  | AllocAssert => False
  | AllocFuel => False
  end.
Proof. intros. apply new_blocks_fuel_spec; auto. Qed.

Lemma client_step_good : forall cfg grow c o, good_client cfg grow c ->
  (forall sizes, o = OpNew sizes -> good_batch sizes) -> good_client cfg grow (client_step c o).
Proof.
  intros cfg grow c o (H & Hc & Hg) Ho. destruct o as [sizes|i]; simpl.
  - pose proof (new_blocks_spec _ _ sizes H (Ho _ eq_refl)) as S.
    destruct (new_blocks (cl_alloc c) sizes) as [a' offs|a'| |].
    + destruct S as (S1 & S2 & [S3 S3'] & _). unfold good_client; csplit; simpl; auto; congruence.
    + destruct S as (-> & _). unfold good_client; csplit; simpl; auto.
    + tauto.
    + tauto.
  - destruct (nth_error (cl_live c) i) as [[o s]|] eqn:E; [|split; auto].
    pose proof (remove_nth_perm _ _ _ E) as P.
    destruct (inv_delete _ _ _ _ (inv_perm _ _ _ P H)) as (a' & E' & I & [C1 C2] & _).
    rewrite E'. unfold good_client; csplit; simpl; auto; congruence.
Qed.

Lemma client_run_good : forall cfg grow ops c, good_client cfg grow c -> valid_history ops ->
  good_client cfg grow (client_run c ops).
Proof.
  induction ops as [|o ops IH]; intros c H Hv; simpl; auto.
  apply IH.
  - apply client_step_good; auto. intros sizes ->. apply Hv. simpl; auto.
  - intros sizes Hin. apply Hv. simpl; auto.
Qed.

Lemma reachable_inv : forall cfg grow c, reachable cfg grow c -> good_client cfg grow c.
Proof.
  intros cfg grow c (Hc & a0 & ops & E & Hv & ->). apply client_run_good; auto.
  apply (new_allocator_inv _ _ _ Hc E).
Qed.

(** ** C01, C02, C03 *)

Lemma pos_range : forall r, 0 < snd r -> in_range (fst r) r /\ in_range (fst r + snd r - 1) r.
Proof. intros r H. unfold in_range. lia. Qed.

Lemma inv_inside : forall a live r, inv a live -> In r live -> 0 < snd r /\ inside (disk_bytes a) r.
Proof.
  intros a live r H Hin. dinv H. rewrite Forall_forall in i_pos0.
  specialize (i_pos0 r Hin). split; auto.
  destruct (pos_range r i_pos0) as [A B].
  assert (0 <= fst r < disk_bytes a) by (apply i_part0; right; exists r; auto).
  assert (0 <= fst r + snd r - 1 < disk_bytes a) by (apply i_part0; right; exists r; auto).
  unfold inside. lia.
Qed.

Lemma live_disjoint : forall cfg grow c, reachable cfg grow c ->
  pairwise_disjoint (cl_live c) /\
  (forall r, In r (cl_live c) -> 0 < snd r /\ inside (disk_bytes (cl_alloc c)) r) /\
  storage_size (cl_alloc c) = disk_bytes (cl_alloc c).
Proof.
  intros cfg grow c H. apply reachable_inv in H. destruct H as (H & _).
  split; [apply FOP_nth, i_dis with (1 := H)|].
  split; [intros; eapply inv_inside; eauto|apply i_stor with (1 := H)].
Qed.

Lemma counters_exact : forall cfg grow c, reachable cfg grow c ->
  let a := cl_alloc c in
  used_bytes a = total_size (cl_live c) /\
  free_bytes a + total_size (cl_live c) = disk_bytes a /\
  free_bytes a = total_size (free_space a) /\
  0 <= free_bytes a /\
  (forall x, covered (free_space a) x <-> 0 <= x < disk_bytes a /\ ~ covered (cl_live c) x).
Proof.
  intros cfg grow c H. apply reachable_inv in H. destruct H as (H & _). simpl.
  pose proof (inv_nonneg_free _ _ H). dinv H.
  unfold used_bytes. repeat split; auto; try lia.
  - apply i_part0. auto.
  - apply i_part0. auto.
  - intros K. apply (i_excl0 x). auto.
  - intros [A B]. apply i_part0 in A. tauto.
Qed.

Lemma single_region : forall m n, coalesced_from (-1) m -> 0 < n ->
  (forall x, covered m x <-> 0 <= x < n) -> m = [(0, n)].
Proof.
  intros m n H Hn Hc. apply coalesced_ext with (lo := -1); auto.
  - simpl. lia.
  - intros x. rewrite Hc, covered_cons. split.
    + intros. left. range. lia.
    + intros [K|K]; [range; lia|destruct (covered_nil _ K)].
Qed.

Lemma coalesced_always : forall cfg grow c, reachable cfg grow c ->
  coalesced_from (-1) (free_space (cl_alloc c)) /\
  (cl_live c = [] -> 0 < disk_bytes (cl_alloc c) ->
     free_space (cl_alloc c) = [(0, disk_bytes (cl_alloc c))]).
Proof.
  intros cfg grow c H. apply reachable_inv in H. destruct H as (H & _).
  split; [apply H|]. intros E Hd. dinv H. rewrite E in *.
  apply single_region; auto. intros x. rewrite i_part0. split; auto.
  intros [K|K]; auto. destruct (covered_nil _ K).
Qed.

(** ** C04 *)

Lemma delete_all_inv : forall blocks a live, inv a (live ++ blocks) ->
  exists a', delete_all a blocks = Ret a' /\ inv a' live /\ same_cfg a a' /\
             disk_bytes a' = disk_bytes a.
Proof.
  induction blocks as [|[o s] blocks IH]; intros a live H; simpl.
  - rewrite app_nil_r in H. exists a. split; auto. split; auto. split; auto. apply same_cfg_refl.
  - apply inv_perm with (l2 := (o, s) :: live ++ blocks) in H.
    2:{ apply Permutation_sym, Permutation_middle. }
    destruct (inv_delete _ _ _ _ H) as (a1 & E & I & C & D & F). rewrite E.
    destruct (IH _ _ I) as (a2 & E2 & I2 & C2 & D2). exists a2. split; auto. split; auto.
    split; [eapply same_cfg_trans; eauto|congruence].
Qed.

(** The live blocks and the file size determine the allocator. *)
Lemma inv_canonical : forall a a' live, inv a live -> inv a' live -> same_cfg a a' ->
  disk_bytes a' = disk_bytes a -> a' = a.
Proof.
  intros a a' live H H' [C1 C2] D. dinv H.
  destruct H' as [i_coal1 i_sum1 i_disk1 i_pos1 i_dis1 i_part1 i_excl1 i_tot1 i_stor1].
  assert (free_space a' = free_space a).
  { apply coalesced_ext with (lo := -1); auto.
    intros x. specialize (i_part0 x). specialize (i_part1 x).
    specialize (i_excl0 x). specialize (i_excl1 x). rewrite D in i_part1. tauto. }
  destruct a, a'; simpl in *. f_equal; auto; try congruence; lia.
Qed.

Lemma alloc_delete_identity : forall cfg grow c sizes a' offs l, reachable cfg grow c ->
  good_batch sizes ->
  new_blocks (cl_alloc c) sizes = AllocOk a' offs ->
  disk_bytes a' = disk_bytes (cl_alloc c) ->
  Permutation l (combine offs sizes) ->
  delete_all a' l = Ret (cl_alloc c).
Proof.
  intros cfg grow c sizes a' offs l H Hg E D P.
  apply reachable_inv in H. destruct H as (H & _).
  pose proof (new_blocks_spec _ _ _ H Hg) as S. rewrite E in S.
  destruct S as (S1 & _ & S3 & _).
  apply inv_perm with (l2 := cl_live c ++ l) in S1.
  2:{ apply Permutation_app_head, Permutation_sym; auto. }
  destruct (delete_all_inv _ _ _ S1) as (a2 & E2 & I2 & C2 & D2).
  rewrite E2. f_equal. eapply inv_canonical; eauto.
  - eapply same_cfg_trans; eauto.
  - congruence.
Qed.

(** With growth, everything except the extension is restored. *)
Lemma alloc_delete_growth : forall cfg grow c sizes a' offs l, reachable cfg grow c ->
  good_batch sizes ->
  new_blocks (cl_alloc c) sizes = AllocOk a' offs ->
  Permutation l (combine offs sizes) ->
  exists a2, delete_all a' l = Ret a2 /\ disk_bytes a2 = disk_bytes a' /\
    free_bytes a2 = free_bytes (cl_alloc c) + (disk_bytes a' - disk_bytes (cl_alloc c)) /\
    forall x, covered (free_space a2) x <->
              covered (free_space (cl_alloc c)) x \/ disk_bytes (cl_alloc c) <= x < disk_bytes a'.
Proof.
  intros cfg grow c sizes a' offs l H Hg E P.
  apply reachable_inv in H. destruct H as (H & _).
  pose proof (new_blocks_spec _ _ _ H Hg) as S. rewrite E in S.
  destruct S as (S1 & _ & S3 & S4 & _).
  apply inv_perm with (l2 := cl_live c ++ l) in S1.
  2:{ apply Permutation_app_head, Permutation_sym; auto. }
  destruct (delete_all_inv _ _ _ S1) as (a2 & E2 & I2 & C2 & D2).
  exists a2. split; auto. split; auto. split.
  - pose proof (i_tot _ _ I2). pose proof (i_tot _ _ H). lia.
  - intros x. pose proof (i_part _ _ I2 x) as P2. pose proof (i_excl _ _ I2 x) as X2.
    pose proof (i_part _ _ H x) as P1. pose proof (i_excl _ _ H x) as X1. rewrite D2 in P2.
    pose proof (i_disk _ _ H).
    split.
    + intros K. assert (0 <= x < disk_bytes a') by tauto.
      destruct (Z_lt_le_dec x (disk_bytes (cl_alloc c))); [left|right; lia].
      assert (0 <= x < disk_bytes (cl_alloc c)) by lia. tauto.
    + intros [K|K].
      * assert (0 <= x < disk_bytes (cl_alloc c)) by tauto.
        assert (0 <= x < disk_bytes a') by lia. tauto.
      * assert (0 <= x < disk_bytes a') by lia.
        assert (~ (0 <= x < disk_bytes (cl_alloc c))) by lia. tauto.
Qed.

(** ** C05, C08 *)

Lemma throws_iff : forall cfg grow c sizes, reachable cfg grow c -> good_batch sizes ->
  ((exists a', new_blocks (cl_alloc c) sizes = AllocThrow a') <->
     grow = false /\ free_bytes (cl_alloc c) < sum_sizes sizes) /\
  (forall a', new_blocks (cl_alloc c) sizes = AllocThrow a' -> a' = cl_alloc c).
Proof.
  intros cfg grow c sizes H Hg. apply reachable_inv in H. destruct H as (H & _ & Hgr).
  pose proof (new_blocks_spec _ _ _ H Hg) as S.
  destruct (new_blocks (cl_alloc c) sizes) as [a' offs|a'| |]; try tauto.
  - destruct S as (_ & _ & _ & _ & S5 & _). split; [|discriminate]. split.
    + intros (? & ?); discriminate.
    + intros [A B]. rewrite Hgr in S5. specialize (S5 A). lia.
  - destruct S as (S1 & S2 & S3). split; [|intros; congruence].
    split; [intros _; split; [congruence|auto]|eauto].
Qed.

Lemma serves_all : forall cfg grow c sizes, reachable cfg grow c -> good_batch sizes ->
  (exists a' offs, new_blocks (cl_alloc c) sizes = AllocOk a' offs /\
                   length offs = length sizes) \/
  new_blocks (cl_alloc c) sizes = AllocThrow (cl_alloc c).
Proof.
  intros cfg grow c sizes H Hg. apply reachable_inv in H. destruct H as (H & _ & Hgr).
  pose proof (new_blocks_spec _ _ _ H Hg) as S.
  destruct (new_blocks (cl_alloc c) sizes) as [a' offs|a'| |]; try tauto.
  - left. exists a', offs. split; auto. tauto.
  - right. destruct S as (-> & _). auto.
Qed.

Lemma section_split_len : forall a sizes a', new_blocks_section a sizes = SecSplit a' ->
  (1 < length sizes)%nat.
Proof.
  intros a sizes a' H. unfold new_blocks_section in H. cbv zeta in H.
  repeat match type of H with
  | match ?x with _ => _ end = _ => destruct x eqn:?; try discriminate
  end.
  apply Z.ltb_lt in Heqb. lia.
Qed.

Lemma fuel_irrelevant : forall f1 f2 a sizes, (length sizes < f1)%nat -> (length sizes < f2)%nat ->
  new_blocks_fuel f1 a sizes = new_blocks_fuel f2 a sizes.
Proof.
  induction f1 as [|f1 IH]; intros f2 a sizes H1 H2; [lia|].
  destruct f2 as [|f2]; [lia|]. cbn [new_blocks_fuel].
  destruct (new_blocks_section a sizes) as [? ?|a'| |] eqn:E; auto.
  apply section_split_len in E. cbv zeta.
  assert (D : (0 < Nat.div2 (length sizes) < length sizes)%nat).
  { split; [destruct (length sizes) as [|[|n]]; simpl; lia|apply Nat.lt_div2; lia]. }
  rewrite (IH f2 a' (firstn (Nat.div2 (length sizes)) sizes)) by (rewrite firstn_length; lia).
  destruct (new_blocks_fuel f2 a' (firstn (Nat.div2 (length sizes)) sizes)) as [a1 o1|?| |]; auto.
  rewrite (IH f2 a1 (skipn (Nat.div2 (length sizes)) sizes)) by (rewrite skipn_length; lia).
  reflexivity.
Qed.

(** ** C06 *)

Lemma nth_error_combine : forall {A B} (l1 : list A) (l2 : list B) k y,
  length l1 = length l2 -> nth_error l2 k = Some y ->
  exists x, nth_error (combine l1 l2) k = Some (x, y).
Proof.
  induction l1 as [|x l1 IH]; intros l2 k y Hl H; destruct l2; simpl in *; try discriminate.
  - destruct k; discriminate.
  - destruct k; simpl in *.
    + inversion H; subst. eauto.
    + apply IH; auto.
Qed.

Lemma grows_iff : forall cfg c sizes a' offs, reachable cfg false c -> good_batch sizes ->
  new_blocks (cl_alloc c) sizes = AllocOk a' offs ->
  (disk_bytes a' <> disk_bytes (cl_alloc c) <->
   exists k s, nth_error sizes k = Some s /\
     no_hole (cl_live c ++ firstn k (combine offs sizes)) (disk_bytes (cl_alloc c)) s) /\
  disk_bytes (cl_alloc c) <= disk_bytes a' <= disk_bytes (cl_alloc c) + sum_sizes sizes.
Proof.
  intros cfg c sizes a' offs H Hg E. apply reachable_inv in H. destruct H as (H & _ & Hgr).
  pose proof (new_blocks_spec _ _ _ H Hg) as S. rewrite E in S.
  destruct S as (S1 & S2 & S3 & S4 & S5 & S6 & S7).
  split; [|split; auto]. split; auto.
  intros (k & s & Hk & Hn) Eq.
  destruct (nth_error_combine offs sizes k s S2 Hk) as (o & Ho).
  pose proof (nth_error_In _ _ Ho) as Hin.
  destruct (inv_inside _ _ (o, s) S1) as [Hp Hi]; [apply in_or_app; auto|].
  rewrite Eq in Hi. destruct (Hn o Hi) as (r & Hr & Hd). apply Hd.
  pose proof (i_dis _ _ S1) as Hdis.
  rewrite <- (firstn_skipn k (combine offs sizes)), app_assoc in Hdis.
  apply FOP_app in Hdis. destruct Hdis as (_ & _ & Hdis). apply Hdis; auto.
  clear - Ho. revert offs sizes Ho.
  induction k as [|k IH]; intros offs sizes Ho; destruct (combine offs sizes) eqn:Ec; simpl in *; try discriminate.
  - inversion Ho; auto.
  - assert (forall (l : list (Z * Z)) k x, nth_error l k = Some x -> In x (skipn k l)) as G.
    { clear. induction l; intros k x H; destruct k; simpl in *; try discriminate; auto.
      inversion H; auto. }
    apply G; auto.
Qed.

(** ** C07 *)

Lemma delete_throws_iff : forall cfg grow c pos size, reachable cfg grow c ->
  0 <= pos -> 0 < size ->
  (delete_block (cl_alloc c) pos size = Throw <-> overlaps (free_space (cl_alloc c)) pos size) /\
  (delete_block (cl_alloc c) pos size <> AssertFail).
Proof.
  intros cfg grow c pos size H Hp Hs. apply reachable_inv in H. destruct H as (H & _).
  assert (D : overlaps (free_space (cl_alloc c)) pos size \/
              ~ overlaps (free_space (cl_alloc c)) pos size).
  { clear. unfold overlaps.
    induction (free_space (cl_alloc c)) as [|[p s] m IH].
    - right. intros (x & K & _). destruct (covered_nil _ K).
    - assert (IH' : (exists x, covered m x /\ in_range x (pos, size)) \/
                    ~ (exists x, covered m x /\ in_range x (pos, size))).
      { apply IH. }
      destruct IH' as [(x & A & B)|K].
      + left. exists x. rewrite covered_cons. auto.
      + destruct (Z_lt_le_dec (Z.max p pos) (Z.min (p + s) (pos + size))).
        * left. exists (Z.max p pos). rewrite covered_cons. range. split; [left; lia|lia].
        * right. intros (x & A & B). rewrite covered_cons in A.
          destruct A as [A|A]; [range; lia|apply K; eauto]. }
  unfold delete_block. dinv H. destruct D as [D|D].
  - rewrite (add_free_region_throw _ _ _ _ i_coal0 Hs D). split; [tauto|discriminate].
  - destruct (add_free_region_ok (cl_alloc c) (-1) pos size i_coal0 ltac:(lia) Hs D) as (m' & E & _).
    rewrite E. split; [|discriminate]. split; [discriminate|tauto].
Qed.

Lemma delete_twice_throws : forall cfg grow c i o s, reachable cfg grow c ->
  nth_error (cl_live c) i = Some (o, s) ->
  exists a', delete_block (cl_alloc c) o s = Ret a' /\ delete_block a' o s = Throw.
Proof.
  intros cfg grow c i o s H E. apply reachable_inv in H. destruct H as (H & _).
  pose proof (remove_nth_perm _ _ _ E) as P. apply inv_perm with (1 := P) in H.
  destruct (inv_delete _ _ _ _ H) as (a' & E' & I & _ & D & _).
  exists a'. split; auto. unfold delete_block.
  assert (Hs : 0 < s) by (pose proof (i_pos _ _ H) as Hp; inversion Hp; auto).
  apply add_free_region_throw with (lo := -1); auto; [apply I|].
  exists o. assert (R : in_range o (o, s)) by (range; lia). split; auto.
  assert (0 <= o < disk_bytes a').
  { rewrite D. apply (i_part _ _ H). right. apply covered_cons. auto. }
  apply (i_part _ _ I) in H0. destruct H0 as [K|(r & Hr & K)]; auto. exfalso.
  pose proof (i_dis _ _ H) as Hd. inversion Hd as [|? ? Hf ?]; subst. rewrite Forall_forall in Hf.
  apply (Hf r Hr o). auto.
Qed.

(** ** C09 *)

Lemma assign_back_to_back : forall sizes pos, back_to_back pos sizes (assign_offsets pos sizes).
Proof.
  intros sizes pos. split; [apply assign_offsets_length|].
  revert pos. induction sizes as [|s r IH]; intros pos k Hk; simpl in *; [lia|].
  destruct k as [|k]; simpl; [lia|]. rewrite IH by lia. lia.
Qed.

Lemma sum_fold : forall sizes, sum_sizes sizes = fold_right Z.add 0 sizes.
Proof. induction sizes; simpl; congruence. Qed.

Lemma find_region_first : forall m lo req p s, coalesced_from lo m -> In (p, s) m -> req <= s ->
  (forall p' s', In (p', s') m -> p' < p -> s' < req) -> find_region req m = Some (p, s).
Proof.
  induction m as [|[p0 s0] m IH]; intros lo req p s H Hin Hle Hf; simpl in *; [tauto|].
  destruct H as (H1 & H2 & H3). destruct Hin as [E|Hin].
  - inversion E; subst. destruct (Z.leb_spec req s); [auto|lia].
  - destruct (coalesced_in _ _ _ _ H3 Hin) as (? & ? & ?).
    assert (s0 < req) by (apply (Hf p0 s0); [auto|lia]).
    destruct (Z.leb_spec req s0); [lia|]. eapply IH; eauto.
Qed.

Lemma contiguous_first_fit : forall cfg grow c sizes p s, reachable cfg grow c ->
  good_batch sizes ->
  In (p, s) (free_space (cl_alloc c)) -> fold_right Z.add 0 sizes <= s ->
  (forall p' s', In (p', s') (free_space (cl_alloc c)) -> p' < p ->
     s' < fold_right Z.add 0 sizes) ->
  exists a' offs, new_blocks (cl_alloc c) sizes = AllocOk a' offs /\
    back_to_back p sizes offs /\ disk_bytes a' = disk_bytes (cl_alloc c) /\
    (forall r, r <> (p, s) -> In r (free_space (cl_alloc c)) -> In r (free_space a')) /\
    (forall r, In r (free_space a') -> In r (free_space (cl_alloc c)) \/
       r = (p + fold_right Z.add 0 sizes, s - fold_right Z.add 0 sizes)) /\
    (forall x, covered (free_space a') x <->
       covered (free_space (cl_alloc c)) x /\ ~ in_range x (p, fold_right Z.add 0 sizes)).
Proof.
  intros cfg grow c sizes p s H Hg Hin Hle Hf. rewrite <- !sum_fold in *.
  apply reachable_inv in H. destruct H as (H & _).
  pose proof (sum_sizes_pos _ Hg) as Hpos. dinv H. set (a := cl_alloc c) in *.
  assert (EF : find_region (sum_sizes sizes) (free_space a) = Some (p, s)).
  { eapply find_region_first; eauto. }
  pose proof (coalesced_le_total _ _ _ _ i_coal0 Hin) as Ht.
  destruct (find_region_some _ _ _ _ EF) as (L & R & E & _ & _).
  destruct (take_region_spec L R p s (sum_sizes sizes)) as (T & E1 & E0 & E2 & E3 & E4);
    [rewrite <- E; auto|lia|].
  unfold new_blocks. cbn [new_blocks_fuel]. unfold new_blocks_section. cbv zeta.
  destruct (Z.ltb_spec (free_bytes a) (sum_sizes sizes)) as [Hlt|_]; [lia|].
  rewrite EF.
  assert (Etk : (if sum_sizes sizes <? s
     then map_set (p + sum_sizes sizes) (s - sum_sizes sizes) (map_erase p (free_space a))
     else map_erase p (free_space a)) = L ++ T ++ R).
  { rewrite <- E1, <- E. reflexivity. }
  destruct (Z.ltb_spec (free_bytes a) (sum_sizes sizes)) as [Hlt|_]; [lia|].
  exists {| free_space := L ++ T ++ R; free_bytes := free_bytes a - sum_sizes sizes;
            disk_bytes := disk_bytes a; cfg_bytes := cfg_bytes a;
            storage_size := storage_size a; autogrow := autogrow a |},
         (assign_offsets p sizes).
  split.
  { destruct sizes as [|z [|z' r]]; rewrite Etk; reflexivity. }
  split; [apply assign_back_to_back|]. cbn [disk_bytes free_space]. split; auto.
  split; [|split].
  - intros r Hne Hr. rewrite E in Hr. apply in_app_or in Hr. apply in_or_app.
    destruct Hr as [Hr|[Hr|Hr]]; auto; [congruence|]. right. apply in_or_app. auto.
  - intros r Hr. apply in_app_or in Hr. rewrite E. destruct Hr as [Hr|Hr].
    + left. apply in_or_app; auto.
    + apply in_app_or in Hr. destruct Hr as [Hr|Hr].
      * right. rewrite E0 in Hr. destruct (sum_sizes sizes <? s); simpl in Hr; intuition.
      * left. apply in_or_app. right. right. auto.
  - intros x. rewrite E3, <- E. tauto.
Qed.

(** ** Uniform block size: a disk that may not grow never grows *)

Definition live_mult (b : Z) (live : list (Z * Z)) : Prop :=
  forall o s, In (o, s) live -> (b | o) /\ (b | s).

Lemma free_region_mult : forall b a live p s, inv a live -> live_mult b live ->
  (b | disk_bytes a) -> In (p, s) (free_space a) -> (b | p) /\ (b | s).
Proof.
  intros b a live p s H Hl Hd Hin.
  assert (Hreg : forall x, in_range x (p, s) -> covered (free_space a) x) by (intros x Hx; exists (p, s); auto).
  dinv H.
  destruct (coalesced_in _ _ _ _ i_coal0 Hin) as (Hp & Hs & _).
  assert (Hend : p + s <= disk_bytes a).
  { assert (0 <= p + s - 1 < disk_bytes a); [|lia]. apply i_part0. left. apply Hreg. range; lia. }
  (* the bytes next to a region are not free *)
  assert (Hgap : forall m lo, coalesced_from lo m -> In (p, s) m -> ~ covered m (p - 1) /\ ~ covered m (p + s)).
  { clear. induction m as [|[p0 s0] m IH]; intros lo Hc Hin; simpl in *; [tauto|].
    destruct Hc as (H1 & H2 & H3). rewrite !covered_cons. destruct Hin as [E|Hin].
    - inversion E; subst. split; (intros [K|K]; [range; lia|]);
        apply (covered_coalesced_lb _ _ _ H3) in K; lia.
    - destruct (IH _ H3 Hin) as [A B]. destruct (coalesced_in _ _ _ _ H3 Hin) as (? & ? & ?).
      split; intros [K|K]; auto; range; lia. }
  destruct (Hgap _ _ i_coal0 Hin) as [G1 G2].
  assert (Ep : (b | p)).
  { destruct (Z.eq_dec p 0) as [->|Hne]; [apply Z.divide_0_r|].
    assert (0 <= p - 1 < disk_bytes a) as K by lia. apply i_part0 in K. destruct K as [K|K]; [tauto|].
    destruct K as ((o, z) & Hi & Hr). destruct (Hl _ _ Hi) as [D1 D2].
    assert (p = o + z).
    { range. destruct (Z_lt_le_dec p (o + z)); [|lia]. exfalso. apply (i_excl0 p). split.
      - apply Hreg. range; lia.
      - exists (o, z). split; auto. range; lia. }
    subst p. apply Z.divide_add_r; auto. }
  assert (Ee : (b | p + s)).
  { destruct (Z.eq_dec (p + s) (disk_bytes a)) as [->|Hne]; auto.
    assert (0 <= p + s < disk_bytes a) as K by lia. apply i_part0 in K. destruct K as [K|K]; [tauto|].
    destruct K as ((o, z) & Hi & Hr). destruct (Hl _ _ Hi) as [D1 D2].
    assert (p + s = o).
    { range. destruct (Z.eq_dec (p + s) o); auto. exfalso. apply (i_excl0 (p + s - 1)). split.
      - apply Hreg. range; lia.
      - exists (o, z). split; auto. range; lia. }
    subst o. auto. }
  split; auto. replace s with (p + s - p) by lia. apply Z.divide_sub_r; auto.
Qed.

Lemma assign_mult : forall b sizes pos, (b | pos) -> (forall s, In s sizes -> s = b) ->
  live_mult b (combine (assign_offsets pos sizes) sizes).
Proof.
  induction sizes as [|z r IH]; intros pos Hp Hs o s Hin; simpl in *; [tauto|].
  assert (z = b) by auto. subst z. destruct Hin as [E|Hin].
  - inversion E; subst. split; auto. apply Z.divide_refl.
  - eapply IH; [| |exact Hin]; auto. apply Z.divide_add_r; auto. apply Z.divide_refl.
Qed.

Lemma sum_mult : forall b sizes, (forall s, In s sizes -> s = b) -> (b | sum_sizes sizes).
Proof.
  induction sizes as [|z r IH]; intros H; simpl; [apply Z.divide_0_r|].
  apply Z.divide_add_r; [rewrite (H z); simpl; auto; apply Z.divide_refl|apply IH; simpl in *; auto].
Qed.

Lemma section_mult : forall b a live sizes, inv a live -> good_batch sizes ->
  live_mult b live -> (b | disk_bytes a) -> (forall s, In s sizes -> s = b) ->
  match new_blocks_section a sizes with
  | SecDone a' offs => live_mult b (live ++ combine offs sizes) /\ (b | disk_bytes a') /\
                       (autogrow a = false -> disk_bytes a' = disk_bytes a)
  | SecSplit a' => (b | disk_bytes a') /\ (autogrow a = false -> disk_bytes a' = disk_bytes a)
  | _ => True
  end.
Proof.
  intros b a live sizes H Hg Hl Hd Hs. pose proof (section_spec a live sizes H Hg) as S.
  pose proof (sum_sizes_pos _ Hg) as Hpos.
  unfold new_blocks_section in *. cbv zeta in *.
  assert (G : exists a1,
     (if free_bytes a <? sum_sizes sizes
      then if autogrow a then grow_file a (sum_sizes sizes) else Throw else Ret a) = Ret a1 /\
     inv a1 live /\ (b | disk_bytes a1) /\ sum_sizes sizes <= free_bytes a1 /\
     (autogrow a = false -> a1 = a) \/
     (if free_bytes a <? sum_sizes sizes
      then if autogrow a then grow_file a (sum_sizes sizes) else Throw else Ret a) = Throw).
  { pose proof (inv_nonneg_free _ _ H).
    destruct (Z.ltb_spec (free_bytes a) (sum_sizes sizes)).
    - destruct (autogrow a); [|exists a; auto].
      destruct (inv_grow _ _ _ H Hpos) as (a' & A & B & C & D & E & _).
      exists a'. left. csplit; auto; try lia; try discriminate.
      rewrite D. apply Z.divide_add_r; auto. apply sum_mult; auto.
    - exists a. left. auto. }
  destruct G as (a1 & [(E & I1 & D1 & F1 & N1)|E]); rewrite E in *; [|auto].
  destruct (find_region (sum_sizes sizes) (free_space a1)) as [[p s]|] eqn:EF.
  - destruct (find_region_some _ _ _ _ EF) as (L & R & Efs & Hle & _).
    assert (Hpm : (b | p)).
    { eapply (free_region_mult b a1 live p s); eauto. rewrite Efs. apply in_or_app; simpl; auto. }
    assert (Hres : live_mult b (live ++ combine (assign_offsets p sizes) sizes)).
    { intros o z Hin. apply in_app_or in Hin. destruct Hin as [Hin|Hin]; [eauto|].
      eapply assign_mult; eauto. }
    destruct (Z.ltb_spec (free_bytes a1) (sum_sizes sizes)); [lia|].
    assert (Hn : autogrow a = false -> disk_bytes a1 = disk_bytes a) by (intros Ha; rewrite (N1 Ha); auto).
    destruct sizes as [|z [|z' r]]; cbn [disk_bytes]; auto.
  - destruct sizes as [|z r]; [destruct Hg; congruence|].
    destruct r as [|z' r].
    + (* impossible: a free region of at least one block exists *)
      exfalso. assert (z = b) by (apply Hs; simpl; auto). subst z.
      simpl sum_sizes in *. destruct (free_space a1) as [|[p s] m] eqn:Ef.
      * pose proof (i_sum _ _ I1) as K. rewrite Ef in K. simpl in K. lia.
      * assert (In (p, s) (free_space a1)) as Hin by (rewrite Ef; simpl; auto).
        destruct (free_region_mult b a1 live p s I1 Hl D1 Hin) as [_ Hsm].
        destruct (coalesced_in _ _ _ _ (i_coal _ _ I1) Hin) as (_ & Hps & _).
        apply Z.divide_pos_le in Hsm; auto. rewrite Ef in Hin.
        apply (find_region_none _ _ EF) in Hin. lia.
    + destruct (1 <? Z.of_nat (length (z :: z' :: r))); auto.
      split; auto. intros Ha. rewrite (N1 Ha). auto.
Qed.

Lemma new_blocks_fuel_mult : forall b fuel a live sizes, inv a live -> good_batch sizes ->
  (length sizes < fuel)%nat ->
  live_mult b live -> (b | disk_bytes a) -> (forall s, In s sizes -> s = b) ->
  match new_blocks_fuel fuel a sizes with
  | AllocOk a' offs => live_mult b (live ++ combine offs sizes) /\ (b | disk_bytes a') /\
                       (autogrow a = false -> disk_bytes a' = disk_bytes a)
  | _ => True
  end.
Proof.
  induction fuel as [|f IH]; intros a live sizes H Hg Hf Hl Hd Hs; [lia|].
  pose proof (section_spec a live sizes H Hg) as S.
  pose proof (section_mult b a live sizes H Hg Hl Hd Hs) as M. cbn [new_blocks_fuel].
  destruct (new_blocks_section a sizes) as [a' offs|a'| |] eqn:ES; auto.
  destruct S as (I1 & C1 & D1 & F1 & L1 & N1). destruct M as (M1 & M2).
  destruct (good_firstn _ Hg L1) as (G1 & G2 & L2 & L3). cbv zeta.
  set (half := Nat.div2 (length sizes)) in *.
  assert (Hs1 : forall s, In s (firstn half sizes) -> s = b).
  { intros s Hin. apply Hs. rewrite <- (firstn_skipn half sizes). apply in_or_app; auto. }
  assert (Hs2 : forall s, In s (skipn half sizes) -> s = b).
  { intros s Hin. apply Hs. rewrite <- (firstn_skipn half sizes). apply in_or_app; auto. }
  pose proof (IH a' live (firstn half sizes) I1 G1 ltac:(lia) Hl M1 Hs1) as J.
  pose proof (new_blocks_fuel_spec f a' live (firstn half sizes) I1 G1 ltac:(lia)) as JS.
  destruct (new_blocks_fuel f a' (firstn half sizes)) as [a1 o1|?| |]; auto.
  destruct J as (J1 & J2 & J3). destruct JS as (K1 & K2 & K3 & _).
  pose proof (IH a1 (live ++ combine o1 (firstn half sizes)) (skipn half sizes) K1 G2 ltac:(lia) J1 J2 Hs2) as Q.
  pose proof (new_blocks_fuel_spec f a1 _ (skipn half sizes) K1 G2 ltac:(lia)) as QS.
  destruct (new_blocks_fuel f a1 (skipn half sizes)) as [a2 o2|?| |]; auto.
  destruct Q as (Q1 & Q2 & Q3). split; [|split; auto].
  - rewrite <- (firstn_skipn half sizes), combine_app, app_assoc; auto.
  - intros Ha. destruct C1 as [C1 _]. destruct K3 as [K3 _].
    rewrite Q3, J3, M2; auto; congruence.
Qed.

Lemma reachable_mult : forall b cfg grow ops a0, 0 < b -> 0 <= cfg -> (b | cfg) ->
  new_allocator cfg grow = Ret a0 ->
  (forall sizes, In (OpNew sizes) ops -> sizes <> [] /\ forall s, In s sizes -> s = b) ->
  let c := client_run (mk_client a0 []) ops in
  live_mult b (cl_live c) /\ (grow = false -> disk_bytes (cl_alloc c) = cfg).
Proof.
  intros b cfg grow ops a0 Hb Hc Hd E Hops.
  destruct (new_allocator_inv _ _ _ Hc E) as [G0 D0].
  assert (forall ops c, good_client cfg grow c -> live_mult b (cl_live c) -> (b | disk_bytes (cl_alloc c)) ->
    (grow = false -> disk_bytes (cl_alloc c) = cfg) ->
    (forall sizes, In (OpNew sizes) ops -> sizes <> [] /\ forall s, In s sizes -> s = b) ->
    let c' := client_run c ops in
    live_mult b (cl_live c') /\ (grow = false -> disk_bytes (cl_alloc c') = cfg)) as Gen.
  { clear ops Hops. induction ops as [|o ops IH]; intros c Gc Hl Hm Hg Hops; [simpl; auto|].
    assert (Hgood : forall sizes, o = OpNew sizes -> good_batch sizes).
    { intros sizes ->. destruct (Hops sizes) as [Hne Hs]; [simpl; auto|]. split; auto.
      apply Forall_forall. intros s Hin. rewrite (Hs s Hin). auto. }
    pose proof (client_step_good _ _ _ o Gc Hgood) as Gc'.
    apply IH; auto; [| | |intros sizes Hin; apply Hops; simpl; auto];
      clear IH Gc'; destruct Gc as (I & _ & Ga); destruct o as [sizes|i]; simpl.
    - destruct (Hops sizes) as [Hne Hs]; [simpl; auto|].
      pose proof (new_blocks_fuel_mult b _ _ _ sizes I (Hgood _ eq_refl) (Nat.lt_succ_diag_r _) Hl Hm Hs) as M.
      unfold new_blocks. destruct (new_blocks_fuel _ _ sizes); simpl; tauto.
    - destruct (nth_error (cl_live c) i) as [[o s]|] eqn:En; auto.
      destruct (delete_block _ _ _); auto. simpl.
      intros o' s' Hin. apply Hl. pose proof (remove_nth_perm _ _ _ En) as P.
      eapply Permutation_in; [apply Permutation_sym; exact P|]. right. auto.
    - destruct (Hops sizes) as [Hne Hs]; [simpl; auto|].
      pose proof (new_blocks_fuel_mult b _ _ _ sizes I (Hgood _ eq_refl) (Nat.lt_succ_diag_r _) Hl Hm Hs) as M.
      pose proof (new_blocks_spec _ _ sizes I (Hgood _ eq_refl)) as S.
      unfold new_blocks in *. destruct (new_blocks_fuel _ _ sizes); simpl; try tauto.
      destruct S as (-> & _). auto.
    - destruct (nth_error (cl_live c) i) as [[o s]|] eqn:En; auto.
      pose proof (inv_perm _ _ _ (remove_nth_perm _ _ _ En) I) as I'.
      destruct (inv_delete _ _ _ _ I') as (a' & E' & _ & _ & D' & _). rewrite E'. simpl. congruence.
    - destruct (Hops sizes) as [Hne Hs]; [simpl; auto|]. intros Hf.
      pose proof (new_blocks_fuel_mult b _ _ _ sizes I (Hgood _ eq_refl) (Nat.lt_succ_diag_r _) Hl Hm Hs) as M.
      pose proof (new_blocks_spec _ _ sizes I (Hgood _ eq_refl)) as S.
      unfold new_blocks in *. destruct (new_blocks_fuel _ _ sizes); simpl; try (apply Hg; auto; fail).
      + destruct M as (_ & _ & M). rewrite M; auto. congruence.
      + destruct S as (-> & _). auto.
    - destruct (nth_error (cl_live c) i) as [[o s]|] eqn:En; auto.
      pose proof (inv_perm _ _ _ (remove_nth_perm _ _ _ En) I) as I'.
      destruct (inv_delete _ _ _ _ I') as (a' & E' & _ & _ & D' & _). rewrite E'. simpl.
      intros Hf. rewrite D'. auto. }
  apply Gen; auto.
  - intros o s [].
  - simpl. rewrite D0. auto.
Qed.
