From Coq Require Import ZArith List Bool Lia Permutation PeanoNat.
From Verif Require Import AllocModel AllocSpec AllocProofs AllocInv AllocMain ManagerModel ManagerSpec ManagerProofs.
Import ListNotations.
Local Open Scope Z_scope.

(** * deletion *)
Lemma manager_delete_ok : forall m b held, minv m (b :: held) ->
  exists m', manager_delete_block m b = Ret m' /\ minv m' held /\
    m_total m' = m_total m /\ m_current m' = m_current m - b_tsize b /\ m_maximum m' = m_maximum m /\
    length (m_allocs m') = length (m_allocs m) /\
    (forall d a, nth_error (m_allocs m) d = Some a -> exists a', nth_error (m_allocs m') d = Some a' /\
       same_cfg a a' /\ disk_bytes a' = disk_bytes a).
Proof.
  intros m b held [Ha Hh]. destruct (Hh b (or_introl eq_refl)) as (_ & d & Es & Hd).
  unfold manager_delete_block. rewrite Es.
  destruct (nth_error (m_allocs m) d) as [a|] eqn:Ea; [|apply nth_error_None in Ea; lia].
  pose proof (Ha d a Ea) as I. unfold blocks_on in I. simpl in I. unfold on_disk at 1 in I.
  rewrite Es, Nat.eqb_refl in I. simpl in I.
  destruct (inv_delete _ _ _ _ I) as (a' & E & I' & C & D & _). rewrite E.
  eexists. split; [reflexivity|]. simpl. csplit; auto.
  - split; simpl.
    + intros d' x Ex. destruct (Nat.eq_dec d d') as [<-|Hne].
      * rewrite nth_error_set_nth_eq in Ex by auto. inversion Ex; subst. exact I'.
      * rewrite nth_error_set_nth_ne in Ex by auto. specialize (Ha d' x Ex).
        unfold blocks_on in Ha. simpl in Ha. unfold on_disk at 1 in Ha. rewrite Es in Ha.
        destruct (Nat.eqb_spec d d'); [congruence|]. exact Ha.
    + intros b' Hb'. rewrite set_nth_length. apply Hh. simpl; auto.
  - apply set_nth_length.
  - intros d' x Ex. destruct (Nat.eq_dec d d') as [<-|Hne].
    + rewrite Ea in Ex. inversion Ex; subst. exists a'. split; [apply nth_error_set_nth_eq; auto|auto].
    + exists x. split; [rewrite nth_error_set_nth_ne; auto|]. split; auto. apply same_cfg_refl.
Qed.

Lemma manager_delete_blocks_ok : forall bids m held,
  (forall b, In b bids -> b_storage b <> Unmanaged) ->
  minv m (held ++ filter valid bids) ->
  exists m', manager_delete_blocks m bids = Ret m' /\ minv m' held /\
    m_current m' = m_current m - fold_right Z.add 0 (map b_tsize (filter valid bids)) /\
    length (m_allocs m') = length (m_allocs m) /\
    (forall d a, nth_error (m_allocs m) d = Some a -> exists a', nth_error (m_allocs m') d = Some a' /\
       same_cfg a a' /\ disk_bytes a' = disk_bytes a).
Proof.
  induction bids as [|b bids IH]; intros m held Hu Hm; simpl in *.
  - rewrite app_nil_r in Hm. exists m. csplit; auto; try lia.
    intros d a E. exists a. csplit; auto. apply same_cfg_refl.
  - unfold valid at 1 in Hm. unfold valid at 1. unfold manager_delete_block.
    destruct (b_storage b) as [|d|] eqn:Es.
    + apply IH; auto.
    + fold (manager_delete_block m b).
      apply minv_perm with (l2 := b :: held ++ filter valid bids) in Hm.
      2:{ apply Permutation_sym, Permutation_middle. }
      destruct (manager_delete_ok _ _ _ Hm) as (m1 & E1 & M1 & _ & C1 & _ & L1 & A1).
      unfold manager_delete_block in E1. rewrite Es in E1. rewrite E1.
      destruct (IH m1 held) as (m2 & E2 & M2 & C2 & L2 & A2); auto.
      exists m2. csplit; auto.
      * simpl. lia.
      * congruence.
      * intros d' a Ea. destruct (A1 _ _ Ea) as (a1 & F1 & F2 & F3).
        destruct (A2 _ _ F1) as (a2 & G1 & G2 & G3). exists a2. csplit; auto.
        -- eapply same_cfg_trans; eauto.
        -- congruence.
    + exfalso. apply (Hu b); auto.
Qed.

(** * choosing disks *)
Definition roomy (allocs : list allocator) (bytes : list Z) (d : nat) (s : Z) : Prop :=
  room allocs bytes d s = true.

Lemma search_disk_spec : forall allocs bytes s disk count adv, (disk < length allocs)%nat ->
  (exists k, (adv <= k < adv + count)%nat /\ search_disk allocs bytes s disk adv count = Nat.modulo (disk + k) (length allocs) /\
     roomy allocs bytes (Nat.modulo (disk + k) (length allocs)) s /\
     forall k', (adv <= k' < k)%nat -> ~ roomy allocs bytes (Nat.modulo (disk + k') (length allocs)) s) \/
  (search_disk allocs bytes s disk adv count = disk /\
     forall k', (adv <= k' < adv + count)%nat -> ~ roomy allocs bytes (Nat.modulo (disk + k') (length allocs)) s).
Proof.
  induction count as [|c IH]; intros adv Hd; cbn [search_disk].
  - right. split; auto. intros; lia.
  - destruct (room allocs bytes ((disk + adv) mod length allocs) s) eqn:E.
    + left. exists adv. csplit; auto; try lia; intros; lia.
    + destruct (IH (S adv) Hd) as [(k & A & B & C & D)|(A & B)].
      * left. exists k. csplit; auto; try lia; intros k' Hk'.
        destruct (Nat.eq_dec k' adv) as [->|]; [unfold roomy; congruence|apply D; lia].
      * right. split; auto. intros k' Hk'.
        destruct (Nat.eq_dec k' adv) as [->|]; [unfold roomy; congruence|apply B; lia].
Qed.

Definition choice_ok (allocs : list allocator) (bytes : list Z) (s : Z) (fk d : nat) : Prop :=
  (exists adv, (adv < length allocs)%nat /\ d = Nat.modulo (fk + adv) (length allocs) /\
     roomy allocs bytes d s /\
     forall adv', (adv' < adv)%nat -> ~ roomy allocs bytes (Nat.modulo (fk + adv') (length allocs)) s) \/
  (d = fk /\ forall d', (d' < length allocs)%nat -> ~ roomy allocs bytes d' s).

Lemma choose_disk_spec : forall allocs bytes s fk, (fk < length allocs)%nat ->
  choice_ok allocs bytes s fk (choose_disk allocs bytes s fk).
Proof.
  intros allocs bytes s fk Hf. unfold choose_disk, choice_ok.
  destruct (room allocs bytes fk s) eqn:E.
  - left. exists O. rewrite Nat.add_0_r, Nat.mod_small by auto. csplit; auto; try lia; intros; lia.
  - destruct (search_disk_spec allocs bytes s fk (length allocs - 1) 1 Hf) as [(k & A & B & C & D)|(A & B)].
    + left. exists k. rewrite B. csplit; auto; try lia. intros k' Hk'.
      destruct k' as [|k']; [rewrite Nat.add_0_r, Nat.mod_small by auto; unfold roomy; congruence|].
      apply D. lia.
    + right. rewrite A. split; auto. intros d' Hd'.
      destruct (Nat.eq_dec d' fk) as [->|Hne]; [unfold roomy; congruence|].
      destruct (le_lt_dec fk d') as [Hle|Hlt].
      * specialize (B (d' - fk)%nat). replace (fk + (d' - fk))%nat with d' in B by lia.
        rewrite Nat.mod_small in B by lia. apply B. lia.
      * specialize (B (length allocs + d' - fk)%nat).
        replace (fk + (length allocs + d' - fk))%nat with (d' + 1 * length allocs)%nat in B by lia.
        rewrite Nat.mod_add in B by lia. rewrite Nat.mod_small in B by lia. apply B. lia.
Qed.

Lemma choice_lt : forall allocs bytes s fk d, (fk < length allocs)%nat ->
  choice_ok allocs bytes s fk d -> (d < length allocs)%nat.
Proof.
  intros allocs bytes s fk d Hf [(k & _ & -> & _)|(-> & _)]; auto. apply Nat.mod_upper_bound. lia.
Qed.

Definition bump (d : nat) (s : Z) (bytes : list Z) : list Z := set_nth d (nth d bytes 0 + s) bytes.

Lemma nth_bump : forall d s bytes d', (d < length bytes)%nat ->
  nth d' (bump d s bytes) 0 = nth d' bytes 0 + (if Nat.eqb d d' then s else 0).
Proof.
  intros d s bytes d' H. unfold bump. destruct (Nat.eqb_spec d d') as [<-|Hne].
  - rewrite nth_set_nth_eq; auto.
  - rewrite nth_set_nth_ne by auto. lia.
Qed.

Lemma room_ext : forall allocs b1 b2 d s, nth d b1 0 = nth d b2 0 ->
  room allocs b1 d s = room allocs b2 d s.
Proof. intros. unfold room. rewrite H. auto. Qed.

Lemma choice_ext : forall allocs b1 b2 s fk d, (forall d', nth d' b1 0 = nth d' b2 0) ->
  choice_ok allocs b1 s fk d -> choice_ok allocs b2 s fk d.
Proof.
  intros allocs b1 b2 s fk d H. unfold choice_ok, roomy.
  intros [(k & A & B & C & D)|(A & B)].
  - left. exists k. csplit; auto.
    + rewrite <- (room_ext allocs b1 b2); auto.
    + intros k' Hk'. rewrite <- (room_ext allocs b1 b2); auto.
  - right. split; auto. intros d' Hd'. rewrite <- (room_ext allocs b1 b2); auto.
Qed.

Lemma choose_disks_spec : forall f allocs sizes bytes i disks, length bytes = length allocs ->
  choose_disks f allocs bytes i sizes = Some disks ->
  length disks = length sizes /\
  forall k s, nth_error sizes k = Some s -> exists d bk, nth_error disks k = Some d /\
    (f (i + k)%nat < length allocs)%nat /\ (d < length allocs)%nat /\
    length bk = length allocs /\
    (forall d', (d' < length allocs)%nat -> nth d' bk 0 = nth d' bytes 0 + bytes_before k d' disks sizes) /\
    choice_ok allocs bk s (f (i + k)%nat) d.
Proof.
  induction sizes as [|s sizes IH]; intros bytes i disks Hl H; cbn [choose_disks] in H.
  - inversion H; subst. split; auto. intros k s Hk. destruct k; discriminate.
  - destruct (Nat.ltb_spec (f i) (length allocs)) as [Hf|]; [|discriminate].
    set (d := choose_disk allocs bytes s (f i)) in *.
    pose proof (choose_disk_spec allocs bytes s (f i) Hf) as Hc. fold d in Hc.
    pose proof (choice_lt _ _ _ _ _ Hf Hc) as Hd.
    fold (bump d s bytes) in H.
    destruct (choose_disks f allocs (bump d s bytes) (S i) sizes) as [ds|] eqn:E; [|discriminate].
    inversion H; subst disks.
    destruct (IH (bump d s bytes) (S i) ds) as [L1 L2]; auto.
    { unfold bump. rewrite set_nth_length. auto. }
    split; [simpl; auto|]. intros k s' Hk. destruct k as [|k]; simpl in Hk.
    + inversion Hk; subst s'. exists d, bytes. rewrite Nat.add_0_r. simpl. csplit; auto.
      intros; lia.
    + destruct (L2 k s' Hk) as (d' & bk & A & B & C & D & F & G).
      replace (i + S k)%nat with (S i + k)%nat by lia.
      exists d', bk. csplit; auto.
      intros x Hx. rewrite F by auto. rewrite nth_bump by lia. simpl. lia.
Qed.

Lemma choose_disks_some : forall f allocs sizes bytes i,
  (forall j, (f j < length allocs)%nat) -> exists disks, choose_disks f allocs bytes i sizes = Some disks.
Proof.
  intros f allocs sizes. induction sizes as [|s r IH]; intros bytes i Hf; cbn [choose_disks]; eauto.
  destruct (Nat.ltb_spec (f i) (length allocs)); [|specialize (Hf i); lia].
  destruct (IH (set_nth (choose_disk allocs bytes s (f i)) (nth (choose_disk allocs bytes s (f i)) bytes 0 + s) bytes) (S i) Hf) as (ds & E).
  rewrite E. eauto.
Qed.

Lemma roomy_has_room : forall m disks sizes bk k d s, (d < length (m_allocs m))%nat ->
  nth d bk 0 = bytes_before k d disks sizes ->
  (roomy (m_allocs m) bk d s <-> has_room m disks sizes k d s).
Proof.
  intros m disks sizes bk k d s Hd Hb. unfold roomy, room, has_room, has_available_space.
  destruct (nth_error (m_allocs m) d) as [a|] eqn:E.
  2:{ apply nth_error_None in E. lia. }
  rewrite (nth_error_nth _ _ no_alloc E). rewrite Hb, orb_true_iff, Z.leb_le. tauto.
Qed.

Lemma chosen : forall m f off sizes disks,
  choose_disks f (m_allocs m) (repeat 0 (length (m_allocs m))) off sizes = Some disks ->
  length disks = length sizes /\
  forall k s, nth_error sizes k = Some s -> exists d, nth_error disks k = Some d /\
    (d < length (m_allocs m))%nat /\ spec_choice m disks sizes k s (f (off + k)%nat) d.
Proof.
  intros m f off sizes disks H.
  destruct (choose_disks_spec _ _ _ _ _ _ (repeat_length _ _) H) as [A B]. split; auto.
  intros k s Hk. destruct (B k s Hk) as (d & bk & E & Hf & Hd & _ & Hb & Hc).
  exists d. split; auto. split; auto.
  assert (Hb' : forall d', (d' < length (m_allocs m))%nat -> nth d' bk 0 = bytes_before k d' disks sizes).
  { intros d' Hd'. rewrite Hb by auto. rewrite nth_repeat. lia. }
  destruct Hc as [(adv & C1 & C2 & C3 & C4)|(C1 & C2)].
  - left. exists adv. csplit; auto.
    + eapply roomy_has_room; eauto.
    + intros adv' Ha Hr. apply (C4 adv' Ha). eapply roomy_has_room; eauto;
        [|apply Hb']; apply Nat.mod_upper_bound; lia.
  - right. split; auto. intros d' Hr.
    assert (Hd' : (d' < length (m_allocs m))%nat).
    { apply nth_error_Some. unfold has_room in Hr. destruct (nth_error (m_allocs m) d'); [discriminate|tauto]. }
    apply (C2 d' Hd'). eapply roomy_has_room; eauto.
Qed.

(** * which disks overflow *)
Lemma bytes_before_S : forall k d disks sizes x s,
  nth_error disks k = Some x -> nth_error sizes k = Some s ->
  bytes_before (S k) d disks sizes = bytes_before k d disks sizes + (if Nat.eqb x d then s else 0).
Proof.
  induction k as [|k IH]; intros d disks sizes x s H1 H2; destruct disks as [|y disks], sizes as [|t sizes];
    simpl in H1, H2; try discriminate.
  - inversion H1; inversion H2; subst. simpl. lia.
  - specialize (IH d disks sizes x s H1 H2).
    change (bytes_before (S (S k)) d (y :: disks) (t :: sizes)) with
      ((if Nat.eqb y d then t else 0) + bytes_before (S k) d disks sizes).
    rewrite IH. simpl. lia.
Qed.

Lemma bytes_before_mono : forall k k' d disks sizes, (forall s, In s sizes -> 0 < s) -> (k <= k')%nat ->
  bytes_before k d disks sizes <= bytes_before k' d disks sizes.
Proof.
  induction k as [|k IH]; intros k' d disks sizes Hs Hk.
  - simpl. clear Hk. revert k' disks. induction sizes as [|s sizes IHs]; intros k' disks.
    + destruct k', disks; simpl; lia.
    + destruct k', disks; simpl; try lia. specialize (IHs ltac:(simpl in Hs; auto) k' disks).
      specialize (Hs s (or_introl eq_refl)). destruct (Nat.eqb n d); lia.
  - destruct k' as [|k']; [lia|]. destruct disks, sizes; simpl; try lia.
    specialize (IH k' d disks sizes ltac:(simpl in Hs; auto) ltac:(lia)). lia.
Qed.

Lemma seq_shift_filter : forall (P : nat -> bool) n a, filter P (seq (S a) n) = map S (filter (fun i => P (S i)) (seq a n)).
Proof.
  intros P n. induction n; intros a; simpl; auto. destruct (P (S a)); simpl; rewrite IHn; auto.
Qed.

Lemma indices_on_cons : forall d x disks,
  indices_on d (x :: disks) = (if Nat.eqb x d then [O] else []) ++ map S (indices_on d disks).
Proof.
  intros. unfold indices_on. cbn [length seq filter nth]. rewrite seq_shift_filter. cbn [nth].
  destruct (Nat.eqb x d); reflexivity.
Qed.

Lemma sizes_on_cons : forall d x disks b bids,
  sizes_on (x :: disks) (b :: bids) d = (if Nat.eqb x d then [b_size b] else []) ++ sizes_on disks bids d.
Proof.
  intros. unfold sizes_on. rewrite indices_on_cons, map_app, map_map. cbn [nth].
  f_equal. destruct (Nat.eqb x d); reflexivity.
Qed.

Lemma total_on : forall disks bids d, length disks = length bids ->
  sum_sizes (sizes_on disks bids d) = bytes_before (length bids) d disks (map b_size bids).
Proof.
  induction disks as [|x disks IH]; intros bids d Hl; destruct bids as [|b bids]; simpl in Hl; try discriminate.
  - reflexivity.
  - rewrite sizes_on_cons, sum_sizes_app, IH by lia. cbn [length bytes_before map].
    destruct (Nat.eqb x d); cbn [sum_sizes]; lia.
Qed.

Lemma fits_all : forall m disks sizes, length disks = length sizes ->
  (forall d a, nth_error (m_allocs m) d = Some a -> 0 <= free_bytes a) ->
  (forall k s d, nth_error sizes k = Some s -> nth_error disks k = Some d -> has_room m disks sizes k d s) ->
  forall k d a, (k <= length sizes)%nat -> nth_error (m_allocs m) d = Some a -> autogrow a = false ->
    bytes_before k d disks sizes <= free_bytes a.
Proof.
  intros m disks sizes Hl H0 Hr k. induction k as [|k IH]; intros d a Hk Ea Hg.
  - simpl. eauto.
  - destruct (nth_error sizes k) as [s|] eqn:Es; [|apply nth_error_None in Es; lia].
    destruct (nth_error disks k) as [x|] eqn:Ex; [|apply nth_error_None in Ex; lia].
    rewrite (bytes_before_S _ _ _ _ _ _ Ex Es). specialize (IH d a ltac:(lia) Ea Hg).
    destruct (Nat.eqb_spec x d) as [->|]; [|lia].
    specialize (Hr k s d Es Ex). unfold has_room in Hr. rewrite Ea in Hr.
    destruct Hr as [Hr|Hr]; [congruence|lia].
Qed.

(** * whole call *)
Lemma NoDup_concat_indices : forall disks ds, NoDup ds -> NoDup (concat (map (fun d => indices_on d disks) ds)).
Proof.
  intros disks ds H. induction H as [|d ds Hn H IH]; simpl; [constructor|].
  assert (forall i, In i (indices_on d disks) -> ~ In i (concat (map (fun d => indices_on d disks) ds))).
  { intros i Hi Hc. apply in_concat in Hc. destruct Hc as (l & Hl & Hi'). apply in_map_iff in Hl.
    destruct Hl as (d' & <- & Hd'). apply indices_on_nth with (x := O) in Hi, Hi'.
    assert (d = d') by (destruct Hi, Hi'; congruence). subst; auto. }
  revert H0. generalize (indices_on_nodup d disks). generalize (indices_on d disks).
  intros l Hl Hd. induction Hl; simpl; auto. constructor.
  - intros K. apply in_app_or in K. destruct K; auto. apply (Hd x); simpl; auto.
  - apply IHHl. intros i Hi. apply Hd. simpl; auto.
Qed.

Lemma filter_map_nth : forall (P : bid -> bool) l,
  filter P l = map (fun i => nth i l dflt) (filter (fun i => P (nth i l dflt)) (seq 0 (length l))).
Proof.
  intros P l. induction l as [|b l IH]; auto. cbn [length seq filter nth].
  rewrite seq_shift_filter. cbn [nth]. destruct (P b); simpl; rewrite IH, map_map; reflexivity.
Qed.

Lemma collect_map : forall disks ds bids,
  collect disks ds bids = map (fun i => nth i bids dflt) (concat (map (fun d => indices_on d disks) ds)).
Proof.
  intros. unfold collect. rewrite concat_map, map_map. reflexivity.
Qed.

Lemma placed_valid_perm : forall disks ds m bids m' bids' held, NoDup ds ->
  length disks = length bids -> (forall b, In b bids -> valid b = false) ->
  placed disks ds m bids m' bids' held -> Permutation (filter valid bids') (collect disks ds bids').
Proof.
  intros disks ds m bids m' bids' held Hn Hl Hf Hp.
  destruct Hp as (P1 & P2 & P3 & P4 & P5 & _).
  rewrite filter_map_nth, collect_map. apply Permutation_map. apply NoDup_Permutation.
  - apply NoDup_filter, seq_NoDup.
  - apply NoDup_concat_indices; auto.
  - intros i. rewrite filter_In, in_seq, in_concat. split.
    + intros [Hi Hv].
      assert (D : (exists d, In d ds /\ In i (indices_on d disks)) \/
                  (forall d, In d ds -> ~ In i (indices_on d disks))).
      { clear. induction ds as [|d ds IH]; [right; intros ? []|].
        destruct (in_dec Nat.eq_dec i (indices_on d disks)); [left; exists d; simpl; auto|].
        destruct IH as [(d' & A & B)|IH]; [left; exists d'; simpl; auto|].
        right. intros d' [<-|Hd']; auto. }
      destruct D as [(d & A & B)|D].
      * exists (indices_on d disks). split; auto. apply in_map_iff. eauto.
      * rewrite (P5 i D) in Hv. rewrite (Hf (nth i bids dflt)) in Hv; [discriminate|].
        apply nth_In. lia.
    + intros (l & Hin & Hi). apply in_map_iff in Hin. destruct Hin as (d & <- & Hd).
      pose proof (P4 i d Hd Hi) as Hs. apply indices_on_spec in Hi. split; [lia|].
      unfold valid. rewrite Hs. auto.
Qed.

Lemma fresh_good : forall tsize sizes,
  (forall s, In s sizes -> 0 < s /\ (tsize = s \/ tsize = 0)) ->
  (forall b, In b (map (fresh_bid tsize) sizes) -> good_size b) /\
  (forall b, In b (map (fresh_bid tsize) sizes) -> valid b = false) /\
  map b_size (map (fresh_bid tsize) sizes) = sizes.
Proof.
  intros tsize sizes H. split; [|split].
  - intros b Hb. apply in_map_iff in Hb. destruct Hb as (s & <- & Hs). apply H in Hs. exact Hs.
  - intros b Hb. apply in_map_iff in Hb. destruct Hb as (s & <- & Hs). auto.
  - rewrite map_map. simpl. apply map_id.
Qed.

Lemma NoDup_app_left : forall {A} (l1 l2 : list A), NoDup (l1 ++ l2) -> NoDup l1.
Proof.
  intros A l1 l2. induction l1; simpl; intros H; [constructor|]. inversion H; subst.
  constructor; auto. intros K. apply H2. apply in_or_app; auto.
Qed.

Lemma sum_bids_perm : forall l1 l2, Permutation l1 l2 -> sum_bids l1 = sum_bids l2.
Proof. unfold sum_bids. intros l1 l2 P. induction P; simpl; lia. Qed.

(** Everything about one call of new_blocks with fresh ids. *)
Lemma manager_new_spec : forall m held f off bids,
  minv m held -> (forall i, (f i < length (m_allocs m))%nat) ->
  (forall b, In b bids -> good_size b) -> (forall b, In b bids -> valid b = false) ->
  exists disks,
  choose_disks f (m_allocs m) (repeat 0 (length (m_allocs m))) off (map b_size bids) = Some disks /\
  match manager_new_blocks m f off bids with
  | MOk m' bids' =>
      ~ nowhere m disks (map b_size bids) /\
      (exists m0, placed disks (seq 0 (length (m_allocs m))) m bids m0 bids' held /\
         m' = mk_manager (m_allocs m0) (m_total m0) (m_current m0) (Z.max (m_maximum m0) (m_current m0))) /\
      minv m' (held ++ bids') /\ filter valid bids' = bids'
  | MThrow m' bids' =>
      nowhere m disks (map b_size bids) /\
      (exists ds1 d ds2, seq 0 (length (m_allocs m)) = ds1 ++ d :: ds2 /\
         indices_on d disks <> [] /\ placed disks ds1 m bids m' bids' held) /\
      minv m' (held ++ filter valid bids')
  | MBad => False
  end.
Proof.
  intros m held f off bids Hm Hf Hg Hv.
  destruct (choose_disks_some f (m_allocs m) (map b_size bids) (repeat 0 (length (m_allocs m))) off Hf) as (disks & E).
  exists disks. split; auto. unfold manager_new_blocks. rewrite E.
  destruct (chosen _ _ _ _ _ E) as [Hl Hc]. rewrite map_length in Hl.
  pose proof (alloc_on_disks_spec disks (seq 0 (length (m_allocs m))) m bids held (seq_NoDup _ _)
    (fun d Hd => proj2 (proj1 (in_seq _ _ _) Hd)) Hl Hg Hm) as SP.
  assert (Hnn : forall d a, nth_error (m_allocs m) d = Some a -> 0 <= free_bytes a).
  { intros d a Ea. destruct Hm as [Hm _]. eapply inv_nonneg_free; eauto. }
  assert (Hpos : forall s, In s (map b_size bids) -> 0 < s).
  { intros s Hs. apply in_map_iff in Hs. destruct Hs as (b & <- & Hb). apply Hg; auto. }
  assert (Hov : nowhere m disks (map b_size bids) -> exists d a, (d < length (m_allocs m))%nat /\
            nth_error (m_allocs m) d = Some a /\ autogrow a = false /\
            free_bytes a < sum_sizes (sizes_on disks bids d)).
  { intros (k & s & Hk & Hno). destruct (Hc k s Hk) as (d & Ed & Hd & _).
    destruct (nth_error (m_allocs m) d) as [a|] eqn:Ea; [|apply nth_error_None in Ea; lia].
    exists d, a. csplit; auto.
    - specialize (Hno d). unfold has_room in Hno. rewrite Ea in Hno. destruct (autogrow a); tauto.
    - rewrite total_on by auto. specialize (Hno d). unfold has_room in Hno. rewrite Ea in Hno.
      pose proof (bytes_before_S k d _ _ _ _ Ed Hk) as Hb. rewrite Nat.eqb_refl in Hb.
      assert (bytes_before (S k) d disks (map b_size bids) <= bytes_before (length bids) d disks (map b_size bids)).
      { apply bytes_before_mono; auto. assert (k < length (map b_size bids))%nat by (apply nth_error_Some; congruence).
        rewrite map_length in H. lia. }
      assert (~ (bytes_before k d disks (map b_size bids) + s <= free_bytes a)) by tauto. lia. }
  assert (Hfit : forall d a, nth_error (m_allocs m) d = Some a -> autogrow a = false ->
            free_bytes a < sum_sizes (sizes_on disks bids d) -> nowhere m disks (map b_size bids)).
  { intros d a Ea Ha Hlt.
    (* search for a block without room on its disk *)
    assert (D : nowhere m disks (map b_size bids) \/
        (forall k s x, nth_error (map b_size bids) k = Some s -> nth_error disks k = Some x ->
            has_room m disks (map b_size bids) k x s)).
    { assert (Dk : forall n, nowhere m disks (map b_size bids) \/
        (forall k s x, (k < n)%nat -> nth_error (map b_size bids) k = Some s -> nth_error disks k = Some x ->
            has_room m disks (map b_size bids) k x s)).
      { induction n as [|n IH]; [right; intros; lia|]. destruct IH as [IH|IH]; auto.
        destruct (nth_error (map b_size bids) n) as [s|] eqn:En.
        - destruct (Hc n s En) as (x & Ex & Hx & Hch).
          destruct Hch as [(adv & C1 & C2 & C3 & C4)|(C1 & C2)].
          + right. intros k s' x' Hk Es Ex'. destruct (Nat.eq_dec k n) as [->|].
            * rewrite Ex in Ex'. rewrite En in Es. inversion Ex'; inversion Es; subst. auto.
            * apply IH; auto. lia.
          + left. exists n, s. auto.
        - right. intros k s' x' Hk Es Ex'. destruct (Nat.eq_dec k n) as [->|]; [congruence|].
          apply IH; auto. lia. }
      destruct (Dk (length bids)) as [Dk'|Dk']; auto. right. intros k s x Es Ex. apply Dk'; auto.
      rewrite <- (map_length b_size bids). apply nth_error_Some. congruence. }
    destruct D as [D|D]; auto. exfalso.
    assert (bytes_before (length bids) d disks (map b_size bids) <= free_bytes a).
    { eapply fits_all; eauto; rewrite ?map_length; auto. }
    rewrite total_on in Hlt by auto. lia. }
  destruct (alloc_on_disks (seq 0 (length (m_allocs m))) disks m bids) as [m' bids'|m' bids'|] eqn:EA; auto.
  - split.
    { intros Hn. destruct (Hov Hn) as (d & a & Hd & Ea & Ha & Hlt).
      destruct SP as (_ & _ & _ & _ & _ & _ & _ & _ & _ & S10).
      destruct (S10 d a Ea) as (a' & _ & _ & _ & _ & Q & _). specialize (Q ltac:(apply in_seq; lia) Ha). lia. }
    split; [eauto|].
    pose proof (placed_valid_perm _ _ _ _ _ _ _ (seq_NoDup _ _) Hl Hv SP) as P.
    assert (Fv : filter valid bids' = bids').
    { destruct SP as (S1 & S2 & S3 & S4 & _).
      assert (G : forall b, In b bids' -> valid b = true).
      { intros b Hb. destruct (In_nth _ _ dflt Hb) as (i & Hi & <-).
        assert (Hi' : (i < length disks)%nat) by lia.
        assert (exists s, nth_error (map b_size bids) i = Some s) as (s & Es).
        { destruct (nth_error (map b_size bids) i) eqn:En; eauto.
          apply nth_error_None in En. rewrite map_length in En. lia. }
        destruct (Hc i s Es) as (d & Ed & Hd & _).
        unfold valid. rewrite (S4 i d); auto.
        - apply in_seq. lia.
        - apply indices_on_nth with (x := O). split; auto. eapply nth_error_nth; eauto. }
      clear - G. induction bids' as [|b l IH]; simpl; auto. rewrite (G b) by (simpl; auto).
      f_equal. apply IH. intros; apply G; simpl; auto. }
    split; auto. destruct SP as (_ & _ & _ & _ & _ & S6 & _).
    rewrite Fv in P. apply minv_perm with (l2 := held ++ bids') in S6.
    + destruct S6 as [A B]. split; auto.
    + apply Permutation_app_head, Permutation_sym; auto.
  - destruct SP as (ds1 & d & ds2 & a & Es & Sp & Ea & Ha & Hlt).
    split; [eapply Hfit; eauto|].
    assert (Hne : indices_on d disks <> []).
    { intros En. rewrite sizes_nil_sum in Hlt by auto. specialize (Hnn d a Ea). lia. }
    split; [exists ds1, d, ds2; auto|].
    assert (Nd : NoDup ds1).
    { pose proof (seq_NoDup (length (m_allocs m)) 0) as N. rewrite Es in N.
      apply NoDup_app_left in N. auto. }
    pose proof (placed_valid_perm _ _ _ _ _ _ _ Nd Hl Hv Sp) as P.
    destruct Sp as (_ & _ & _ & _ & _ & S6 & _).
    eapply minv_perm; [|exact S6]. apply Permutation_app_head, Permutation_sym; auto.
Qed.

(** * histories *)
Definition cinv (n : nat) (c : mclient) : Prop :=
  minv (mc_m c) (mc_held c) /\ length (m_allocs (mc_m c)) = n /\
  m_current (mc_m c) = sum_bids (mc_held c) + mc_deleted0 c /\
  m_total (mc_m c) = mc_ever c.

Lemma new_allocators_ok : forall cfgs, (forall s g, In (s, g) cfgs -> 0 <= s) ->
  exists l, new_allocators cfgs = Ret l /\ length l = length cfgs /\
   forall d a, nth_error l d = Some a -> inv a [] /\ exists s g, nth_error cfgs d = Some (s, g) /\
     new_allocator s g = Ret a.
Proof.
  induction cfgs as [|[s g] r IH]; intros H; simpl.
  - exists []. csplit; auto. intros d a E. destruct d; discriminate.
  - destruct (new_allocator_ok s g) as (a & E); [eapply H; simpl; eauto|].
    destruct IH as (l & E2 & L & Q); [intros; eapply H; simpl; eauto|].
    rewrite E, E2. exists (a :: l). csplit; auto; [simpl; auto|].
    intros d x Ex. destruct d as [|d]; simpl in Ex.
    + inversion Ex; subst x. split; [|exists s, g; auto].
      pose proof (new_allocator_inv s g a) as K. destruct K as [K _]; auto.
      * eapply H; simpl; eauto.
      * destruct K as [K _]. exact K.
    + apply Q; auto.
Qed.

Lemma valid_mop_fresh : forall n tsize f off sizes, valid_mop n (MNew tsize f off sizes) ->
  (forall i, (f i < n)%nat) /\
  (forall b, In b (map (fresh_bid tsize) sizes) -> good_size b) /\
  (forall b, In b (map (fresh_bid tsize) sizes) -> valid b = false) /\
  map b_size (map (fresh_bid tsize) sizes) = sizes.
Proof. intros n tsize f off sizes [A B]. split; auto. apply fresh_good; auto. Qed.

Lemma step_inv : forall n c o, cinv n c -> valid_mop n o ->
  match mclient_step c o with StepOk c' | StepThrow c' => cinv n c' | StepBad => False end.
Proof.
  intros n c o (I & L & C & T) Hv. destruct o as [tsize f off sizes|i]; cbn [mclient_step].
  - destruct (valid_mop_fresh _ _ _ _ _ Hv) as (V1 & V2 & V3 & V4). rewrite <- L in V1.
    destruct (manager_new_spec (mc_m c) (mc_held c) f off _ I V1 V2 V3) as (disks & E & SP).
    destruct (chosen _ _ _ _ _ E) as [Hl _]. rewrite map_length in Hl.
    destruct (manager_new_blocks (mc_m c) f off (map (fresh_bid tsize) sizes)) as [m' b'|m' b'|]; auto.
    + destruct SP as (_ & (m0 & P & ->) & M & Fv). 
      pose proof (placed_valid_perm _ _ _ _ _ _ _ (seq_NoDup _ _) Hl V3 P) as Q.
      destruct P as (P1 & P2 & P3 & P4 & P5 & P6 & P7 & P8 & P9 & P10).
      unfold cinv; cbn -[Z.max sum_bids]. rewrite Fv in *. rewrite sum_bids_app, (sum_bids_perm _ _ Q).
      csplit; auto; lia.
    + destruct SP as (_ & (ds1 & d & ds2 & Es & _ & P) & M).
      assert (Nd : NoDup ds1).
      { pose proof (seq_NoDup (length (m_allocs (mc_m c))) 0) as N. rewrite Es in N.
        apply NoDup_app_left in N. auto. }
      pose proof (placed_valid_perm _ _ _ _ _ _ _ Nd Hl V3 P) as Q.
      destruct P as (P1 & P2 & P3 & P4 & P5 & P6 & P7 & P8 & P9 & P10).
      unfold cinv; cbn -[sum_bids]. rewrite sum_bids_app, (sum_bids_perm _ _ Q).
      csplit; auto; lia.
  - destruct (nth_error (mc_held c) i) as [b|] eqn:E; [|unfold cinv; auto].
    pose proof (remove_nth_perm _ _ _ E) as P.
    apply (minv_perm _ _ _ P) in I.
    destruct (manager_delete_ok _ _ _ I) as (m' & E1 & M & D1 & D2 & D3 & D4 & _).
    rewrite E1. unfold cinv; cbn. rewrite (sum_bids_perm _ _ P) in C. unfold sum_bids in *. simpl in C.
    csplit; auto; lia.
Qed.

Lemma history_inv : forall n t c ops c', mhistory n t c ops c' -> cinv n c -> cinv n c'.
Proof.
  intros n t c ops c' H. induction H; intros I; auto; apply IHmhistory;
    pose proof (step_inv _ _ _ I H) as K + pose proof (step_inv _ _ _ I H0) as K.
  - rewrite H0 in K. auto.
  - rewrite H1 in K. auto.
Qed.

Lemma start_inv : forall cfgs m, (forall s g, In (s, g) cfgs -> 0 <= s) -> new_manager cfgs = Ret m ->
  cinv (length cfgs) (start m).
Proof.
  intros cfgs m H E. unfold new_manager in E. destruct (new_allocators_ok cfgs H) as (l & El & L & Q).
  rewrite El in E. inversion E; subst m. unfold cinv; simpl. csplit; auto.
  split; simpl; [|intros ? []]. intros d a Ea. apply Q in Ea. destruct Ea as [Ea _].
  unfold blocks_on. simpl. auto.
Qed.

Lemma mreachable_inv : forall cfgs t c, mreachable cfgs t c -> cinv (length cfgs) c.
Proof.
  intros cfgs t c (H & m & ops & E & Hh). eapply history_inv; eauto. eapply start_inv; eauto.
Qed.

(** C11 *)
Lemma held_disjoint : forall cfgs t c i j bi bj, mreachable cfgs t c -> i <> j ->
  nth_error (mc_held c) i = Some bi -> nth_error (mc_held c) j = Some bj ->
  b_storage bi = b_storage bj -> disjoint (range_of bi) (range_of bj).
Proof.
  intros cfgs t c i j bi bj H Hij Ei Ej Es. destruct (mreachable_inv _ _ _ H) as ([Ia Ih] & _).
  destruct (Ih bi (nth_error_In _ _ Ei)) as (_ & d & Ed & Hd).
  destruct (nth_error (m_allocs (mc_m c)) d) as [a|] eqn:Ea; [|apply nth_error_None in Ea; lia].
  pose proof (Ia d a Ea) as I. dinv I. clear - i_dis0 Ed Ei Ej Es Hij.
  assert (G : forall l i j, (i < j)%nat ->
    forall x y, nth_error l i = Some x -> nth_error l j = Some y -> b_storage x = Managed d -> b_storage y = Managed d ->
    ForallOrdPairs disjoint (blocks_on d l) -> disjoint (range_of x) (range_of y)).
  { clear. induction l as [|b l IH]; intros i j Hlt x y Ex Ey Sx Sy P; [destruct i; discriminate|].
    destruct j as [|j]; [lia|]. simpl in Ey. destruct i as [|i]; simpl in Ex.
    - inversion Ex; subst x. unfold blocks_on in P. simpl in P. unfold on_disk at 1 in P.
      rewrite Sx, Nat.eqb_refl in P. simpl in P. inversion P as [|? ? Hf _]; subst.
      rewrite Forall_forall in Hf. apply (Hf (range_of y)).
      apply in_map_iff. exists y. split; auto. apply filter_In. split; [eapply nth_error_In; eauto|].
      unfold on_disk. rewrite Sy, Nat.eqb_refl. auto.
    - eapply (IH i j); eauto; [lia|].
      unfold blocks_on in *. simpl in P. destruct (on_disk d b); auto. simpl in P. inversion P; auto. }
  destruct (Nat.lt_ge_cases i j) as [Hlt|Hge].
  - eapply (G _ i j); eauto; congruence.
  - assert (D : disjoint (range_of bj) (range_of bi)) by (eapply (G _ j i); eauto; try lia; congruence).
    intros x [A B]. apply (D x). split; auto.
Qed.

Lemma held_inside : forall cfgs t c b, mreachable cfgs t c -> In b (mc_held c) ->
  exists d a, b_storage b = Managed d /\ nth_error (m_allocs (mc_m c)) d = Some a /\
    0 < b_size b /\ inside (disk_bytes a) (range_of b) /\
    forall x, in_range x (range_of b) -> ~ covered (free_space a) x.
Proof.
  intros cfgs t c b H Hb. destruct (mreachable_inv _ _ _ H) as ([Ia Ih] & _).
  destruct (Ih b Hb) as (Hg & d & Ed & Hd).
  destruct (nth_error (m_allocs (mc_m c)) d) as [a|] eqn:Ea; [|apply nth_error_None in Ea; lia].
  pose proof (Ia d a Ea) as I.
  assert (Hin : In (range_of b) (blocks_on d (mc_held c))).
  { apply in_map_iff. exists b. split; auto. apply filter_In. split; auto.
    unfold on_disk. rewrite Ed, Nat.eqb_refl. auto. }
  exists d, a. destruct (inv_inside _ _ _ I Hin) as [A B]. csplit; auto.
  intros x Hx Hc. dinv I. apply (i_excl0 x). split; auto. exists (range_of b). auto.
Qed.

(** C12 *)
Lemma current_exact : forall cfgs t c, mreachable cfgs t c ->
  m_current (mc_m c) = sum_bids (mc_held c) + mc_deleted0 c.
Proof. intros cfgs t c H. destruct (mreachable_inv _ _ _ H) as (_ & _ & C & _). auto. Qed.

Definition fixed_held (c : mclient) : Prop :=
  mc_deleted0 c = 0 /\ forall b, In b (mc_held c) -> b_tsize b = b_size b.

Lemma In_remove_nth : forall {A} i (l : list A) x, In x (remove_nth i l) -> In x l.
Proof.
  intros A i. induction i; intros l x H; destruct l; simpl in *; auto. destruct H; auto.
Qed.

Lemma step_fixed : forall n c o c', cinv n c -> fixed_held c -> valid_mop n o -> fixed_size_op o ->
  (mclient_step c o = StepOk c' \/ mclient_step c o = StepThrow c') -> fixed_held c'.
Proof.
  intros n c o c' (I & L & C & T) [F1 F2] Hv Hf Hs. destruct o as [tsize f off sizes|i]; cbn [mclient_step] in Hs.
  - destruct (valid_mop_fresh _ _ _ _ _ Hv) as (V1 & V2 & V3 & V4). rewrite <- L in V1.
    destruct (manager_new_spec (mc_m c) (mc_held c) f off _ I V1 V2 V3) as (disks & E & SP).
    simpl in Hf.
    assert (G : forall ds m' b', placed disks ds (mc_m c) (map (fresh_bid tsize) sizes) m' b' (mc_held c) ->
       forall b, In b (filter valid b') -> b_tsize b = b_size b).
    { intros ds m' b' P b Hb. apply filter_In in Hb. destruct Hb as [Hb _].
      destruct (In_nth _ _ dflt Hb) as (i & Hi & <-). destruct P as (P1 & _ & P3 & _).
      destruct (P3 i) as [A B]. rewrite A, B.
      assert (Hin : In (nth i (map (fresh_bid tsize) sizes) dflt) (map (fresh_bid tsize) sizes))
        by (apply nth_In; congruence).
      apply in_map_iff in Hin. destruct Hin as (s & <- & Hs'). simpl.
      destruct Hv as [_ Hv]. destruct (Hv s Hs') as [_ [->|]]; [auto|congruence]. }
    destruct (manager_new_blocks (mc_m c) f off (map (fresh_bid tsize) sizes)) as [m' b'|m' b'|]; [| |tauto];
      destruct Hs as [Hs|Hs]; inversion Hs; subst c'; split; simpl; auto;
      intros b Hb; apply in_app_or in Hb; destruct Hb as [Hb|Hb]; auto.
    + destruct SP as (_ & (m0 & P & _) & _). eapply G; eauto.
    + destruct SP as (_ & (ds1 & d & ds2 & _ & _ & P) & _). eapply G; eauto.
  - destruct (nth_error (mc_held c) i) as [b|] eqn:E.
    2:{ destruct Hs as [Hs|Hs]; inversion Hs; subst. split; auto. }
    destruct (manager_delete_block (mc_m c) b); destruct Hs as [Hs|Hs]; inversion Hs; subst; split; simpl; auto.
    + rewrite F2 by (eapply nth_error_In; eauto). lia.
    + intros x Hx. apply F2. eapply In_remove_nth; eauto.
Qed.

Lemma current_fixed : forall cfgs t m ops c, (forall s g, In (s, g) cfgs -> 0 <= s) ->
  new_manager cfgs = Ret m -> mhistory (length cfgs) t (start m) ops c ->
  (forall o, In o ops -> fixed_size_op o) ->
  m_current (mc_m c) = sum_bids (mc_held c).
Proof.
  intros cfgs t m ops c H E Hh Hf.
  assert (G : fixed_held c).
  { pose proof (start_inv _ _ H E) as I. assert (F : fixed_held (start m)) by (split; simpl; tauto).
    clear E. induction Hh; auto.
    - pose proof (step_inv _ _ _ I H0) as K. rewrite H1 in K. apply IHHh.
      + intros o' Ho'; apply Hf; simpl; auto.
      + auto.
      + apply (step_fixed (length cfgs) c o c1); auto. apply Hf; simpl; auto.
    - pose proof (step_inv _ _ _ I H1) as K. rewrite H2 in K. apply IHHh.
      + intros o' Ho'; apply Hf; simpl; auto.
      + auto.
      + apply (step_fixed (length cfgs) c o c1); auto. apply Hf; simpl; auto. }
  destruct G as [G _].
  rewrite (current_exact cfgs t c); [lia|]. split; auto. exists m, ops; auto.
Qed.

(** C13 *)
Lemma total_exact : forall cfgs t c, mreachable cfgs t c -> m_total (mc_m c) = mc_ever c.
Proof. intros cfgs t c H. destruct (mreachable_inv _ _ _ H) as (_ & _ & _ & T). auto. Qed.

Lemma sum_bids_nonneg : forall l, (forall b, In b l -> 0 < b_size b) -> 0 <= sum_bids l.
Proof.
  unfold sum_bids. induction l as [|b l IH]; intros H; simpl; [lia|].
  specialize (H b (or_introl eq_refl)) as K. specialize (IH (fun b Hb => H b (or_intror Hb))). lia.
Qed.

Lemma step_counters : forall n c o, cinv n c -> valid_mop n o ->
  match mclient_step c o with
  | StepOk c' => m_total (mc_m c) <= m_total (mc_m c') /\
      (m_current (mc_m c) <= m_maximum (mc_m c) -> m_current (mc_m c') <= m_maximum (mc_m c')) /\
      (m_maximum (mc_m c') = m_maximum (mc_m c) \/ m_maximum (mc_m c') = m_current (mc_m c')) /\
      m_maximum (mc_m c) <= m_maximum (mc_m c')
  | StepThrow c' => m_total (mc_m c) <= m_total (mc_m c') /\ m_maximum (mc_m c') = m_maximum (mc_m c)
  | StepBad => False
  end.
Proof.
  intros n c o H Hv. pose proof (step_inv _ _ _ H Hv) as K. destruct H as (I & L & C & T).
  destruct o as [tsize f off sizes|i]; cbn [mclient_step] in *.
  - destruct (valid_mop_fresh _ _ _ _ _ Hv) as (V1 & V2 & V3 & V4). rewrite <- L in V1.
    destruct (manager_new_spec (mc_m c) (mc_held c) f off _ I V1 V2 V3) as (disks & E & SP).
    destruct (manager_new_blocks (mc_m c) f off (map (fresh_bid tsize) sizes)) as [m' b'|m' b'|]; auto;
      destruct K as (K1 & K2 & K3 & K4); cbn -[Z.max sum_bids] in *.
    + assert (0 <= sum_bids (filter valid b')).
      { apply sum_bids_nonneg. intros b Hb. destruct K1 as [_ K1]. apply (K1 b). apply in_or_app; auto. }
      destruct SP as (_ & (m0 & P & ->) & _). destruct P as (_ & _ & _ & _ & _ & _ & _ & _ & P9 & _).
      cbn -[Z.max sum_bids] in *. csplit; lia.
    + assert (0 <= sum_bids (filter valid b')).
      { apply sum_bids_nonneg. intros b Hb. destruct K1 as [_ K1]. apply (K1 b). apply in_or_app; auto. }
      destruct SP as (_ & (ds1 & d & ds2 & _ & _ & P) & _). destruct P as (_ & _ & _ & _ & _ & _ & _ & _ & P9 & _).
      csplit; lia.
  - destruct (nth_error (mc_held c) i) as [b|] eqn:E; [|csplit; lia].
    pose proof (remove_nth_perm _ _ _ E) as P.
    apply (minv_perm _ _ _ P) in I.
    destruct (manager_delete_ok _ _ _ I) as (m' & E1 & M & D1 & D2 & D3 & D4 & _).
    rewrite E1. cbn. destruct I as [_ I]. destruct (I b (or_introl eq_refl)) as [[G1 G2] _].
    csplit; lia.
Qed.

Lemma total_monotone : forall n t c ops c', cinv n c -> mhistory n t c ops c' ->
  m_total (mc_m c) <= m_total (mc_m c').
Proof.
  intros n t c ops c' I H. induction H; try lia.
  - pose proof (step_counters _ _ _ I H) as K. pose proof (step_inv _ _ _ I H) as K2. rewrite H0 in *.
    specialize (IHmhistory K2). lia.
  - pose proof (step_counters _ _ _ I H0) as K. pose proof (step_inv _ _ _ I H0) as K2. rewrite H1 in *.
    specialize (IHmhistory K2). lia.
Qed.

Lemma maximum_general : forall n c ops c', mhistory n false c ops c' -> cinv n c ->
  m_current (mc_m c) <= m_maximum (mc_m c) ->
  m_maximum (mc_m c) <= m_maximum (mc_m c') /\
  (forall ops1 ops2 c1, ops = ops1 ++ ops2 -> mhistory n false c ops1 c1 -> m_current (mc_m c1) <= m_maximum (mc_m c')) /\
  (m_maximum (mc_m c') = m_maximum (mc_m c) \/
   exists ops1 ops2 c1, ops = ops1 ++ ops2 /\ mhistory n false c ops1 c1 /\ m_current (mc_m c1) = m_maximum (mc_m c')).
Proof.
  intros n c ops c' H. induction H; intros I Hle; [|  |discriminate].
  - csplit; auto; [lia|]. intros ops1 ops2 c1 E H1. destruct ops1; [|discriminate]. inversion H1; subst. auto.
  - pose proof (step_counters _ _ _ I H) as K. pose proof (step_inv _ _ _ I H) as K2. rewrite H0 in *.
    destruct K as (_ & Ka & Kb & Kc). destruct (IHmhistory K2 (Ka Hle)) as (A & B & D). csplit.
    + lia.
    + intros ops1 ops2' cx E Hx. destruct ops1 as [|o1 ops1]; [inversion Hx; subst; lia|].
      simpl in E. inversion E; subst. inversion Hx; subst; [|discriminate].
      rewrite H0 in H6. inversion H6; subst. eapply B; eauto.
    + destruct D as [D|(ops1 & ops2' & cx & E & Hx & D)].
      * destruct Kb as [Kb|Kb]; [left; congruence|]. right. exists [o], ops, c1. csplit; auto; [|congruence].
        eapply mh_ok; eauto. constructor.
      * right. exists (o :: ops1), ops2', cx. subst. csplit; auto. eapply mh_ok; eauto.
Qed.

Lemma maximum_exact : forall cfgs m ops c, (forall s g, In (s, g) cfgs -> 0 <= s) ->
  new_manager cfgs = Ret m -> mhistory (length cfgs) false (start m) ops c ->
  (forall ops1 ops2 c1, ops = ops1 ++ ops2 -> mhistory (length cfgs) false (start m) ops1 c1 ->
     m_current (mc_m c1) <= m_maximum (mc_m c)) /\
  (exists ops1 ops2 c1, ops = ops1 ++ ops2 /\ mhistory (length cfgs) false (start m) ops1 c1 /\
     m_current (mc_m c1) = m_maximum (mc_m c)).
Proof.
  intros cfgs m ops c H E Hh. pose proof (start_inv _ _ H E) as I.
  assert (m_current m = 0 /\ m_maximum m = 0) as [C0 M0].
  { unfold new_manager in E. destruct (new_allocators cfgs); inversion E; auto. }
  destruct (maximum_general _ _ _ _ Hh I) as (_ & A & B); [simpl; lia|]. split; auto.
  destruct B as [B|B]; auto. exists [], ops, (start m). csplit; auto; [constructor|]. simpl in *. congruence.
Qed.

(** C14 *)
Lemma select_indices : forall {A} d disks (xs : list A) x, length disks = length xs ->
  map (fun i => nth i xs x) (indices_on d disks) = select d disks xs.
Proof.
  intros A d disks. induction disks as [|y disks IH]; intros xs x Hl; [reflexivity|].
  destruct xs as [|z xs]; [discriminate|]. rewrite indices_on_cons, map_app, map_map. cbn [nth select].
  rewrite IH by (simpl in Hl; lia). destruct (Nat.eqb y d); reflexivity.
Qed.

Lemma select_map : forall {A B} (g : A -> B) d disks xs, select d disks (map g xs) = map g (select d disks xs).
Proof.
  intros A B g d disks. induction disks as [|y disks IH]; intros xs; [reflexivity|].
  destruct xs; [reflexivity|]. simpl. destruct (Nat.eqb y d); simpl; rewrite IH; auto.
Qed.

Lemma has_room_ext : forall m d1 d2 sizes k, (forall i, (i < k)%nat -> nth_error d1 i = nth_error d2 i) ->
  forall d s, has_room m d1 sizes k d s <-> has_room m d2 sizes k d s.
Proof.
  intros m d1 d2 sizes k H d s. unfold has_room. destruct (nth_error (m_allocs m) d); [|tauto].
  replace (bytes_before k d d2 sizes) with (bytes_before k d d1 sizes); [tauto|].
  clear - H. revert d1 d2 sizes H. induction k as [|k IH]; intros d1 d2 sizes H; auto.
  specialize (H O ltac:(lia)) as H0. destruct d1, d2; simpl in H0; try discriminate; auto.
  inversion H0; subst. destruct sizes; simpl; auto. f_equal. apply IH.
  intros i Hi. apply (H (S i)). lia.
Qed.

Lemma placement_unique : forall m f off sizes d1 d2, (forall i, (f i < length (m_allocs m))%nat) ->
  placement m f off sizes d1 -> placement m f off sizes d2 -> d1 = d2.
Proof.
  intros m f off sizes d1 d2 Hf [L1 P1] [L2 P2].
  assert (G : forall k i, (i < k)%nat -> nth_error d1 i = nth_error d2 i).
  { induction k as [|k IH]; intros i Hi; [lia|]. destruct (Nat.eq_dec i k) as [->|]; [|apply IH; lia].
    destruct (nth_error sizes k) as [s|] eqn:Es.
    2:{ apply nth_error_None in Es. transitivity (@None nat); [|symmetry]; apply nth_error_None; lia. }
    destruct (P1 k s Es) as (x & Ex & Hx & Cx). destruct (P2 k s Es) as (y & Ey & Hy & Cy).
    rewrite Ex, Ey. f_equal.
    pose proof (has_room_ext m d1 d2 sizes k IH) as R.
    destruct Cx as [(a1 & A1 & A2 & A3 & A4)|(A1 & A2)], Cy as [(b1 & B1 & B2 & B3 & B4)|(B1 & B2)].
    - assert (a1 = b1); [|congruence].
      destruct (Nat.lt_trichotomy a1 b1) as [Hlt|[|Hlt]]; auto; exfalso.
      + apply (B4 a1 Hlt). rewrite <- A2. apply R. auto.
      + apply (A4 b1 Hlt). rewrite <- B2. apply R. auto.
    - exfalso. apply (B2 x). apply R. auto.
    - exfalso. apply (A2 y). apply R. auto.
    - congruence. }
  clear - G L1 L2. assert (L : length d1 = length d2) by congruence. clear L1 L2.
  revert d2 G L. induction d1 as [|x d1 IH]; intros d2 G L; destruct d2; simpl in L; try discriminate; auto.
  specialize (G 1%nat O ltac:(lia)) as G0. simpl in G0. inversion G0; subst. f_equal. apply IH; auto.
  intros k i Hi. apply (G (S k) (S i)). lia.
Qed.

Lemma select_nil : forall {A} d disks (xs : list A), length disks = length xs ->
  select d disks xs = [] -> indices_on d disks = [].
Proof.
  intros A d disks. induction disks as [|y disks IH]; intros xs L E; [reflexivity|].
  destruct xs; [discriminate|]. rewrite indices_on_cons. simpl in E. destruct (Nat.eqb y d); [discriminate|].
  rewrite (IH xs); auto.
Qed.

Lemma new_blocks_placement : forall cfgs t c tsize f off sizes,
  mreachable cfgs t c -> valid_mop (length cfgs) (MNew tsize f off sizes) ->
  exists disks, placement (mc_m c) f off sizes disks /\
  match manager_new_blocks (mc_m c) f off (map (fresh_bid tsize) sizes) with
  | MOk m' bids' =>
      ~ nowhere (mc_m c) disks sizes /\
      map b_storage bids' = map Managed disks /\ map b_size bids' = sizes /\
      forall d a, nth_error (m_allocs (mc_m c)) d = Some a -> exists a',
        nth_error (m_allocs m') d = Some a' /\
        (select d disks sizes = [] -> a' = a) /\
        (select d disks sizes <> [] ->
           new_blocks a (select d disks sizes) = AllocOk a' (select d disks (map b_offset bids')))
  | MThrow m' bids' => nowhere (mc_m c) disks sizes
  | MBad => False
  end.
Proof.
  intros cfgs t c tsize f off sizes H Hv. destruct (mreachable_inv _ _ _ H) as (I & L & C & T).
  destruct (valid_mop_fresh _ _ _ _ _ Hv) as (V1 & V2 & V3 & V4). rewrite <- L in V1.
  destruct (manager_new_spec (mc_m c) (mc_held c) f off _ I V1 V2 V3) as (disks & E & SP).
  rewrite V4 in *. pose proof (chosen _ _ _ _ _ E) as Hc.
  exists disks. split; [exact Hc|]. destruct Hc as [Hl Hc].
  destruct (manager_new_blocks (mc_m c) f off (map (fresh_bid tsize) sizes)) as [m' b'|m' b'|]; auto; [|tauto].
  destruct SP as (N & (m0 & P & ->) & M & Fv). split; auto.
  destruct P as (P1 & P2 & P3 & P4 & P5 & P6 & P7 & P8 & P9 & P10).
  rewrite map_length in P1.
  assert (Esz : map b_size b' = sizes).
  { transitivity (map b_size (map (fresh_bid tsize) sizes)); [|exact V4]. apply nth_ext with (d := b_size dflt) (d' := b_size dflt).
    - rewrite !map_length. auto.
    - intros i _. rewrite !map_nth. apply P3. }
  csplit; auto.
  - apply nth_ext with (d := b_storage dflt) (d' := Managed O); [rewrite !map_length; congruence|].
    intros i Hi. rewrite map_length in Hi. rewrite !map_nth.
    assert (Hi' : (i < length disks)%nat) by congruence.
    apply P4.
    + apply in_seq. destruct (nth_error sizes i) as [s|] eqn:En.
      2:{ apply nth_error_None in En. lia. }
      destruct (Hc i s En) as (d & Ed & Hd & _). rewrite (nth_error_nth _ _ _ Ed). lia.
    + apply indices_on_nth with (x := O). auto.
  - intros d a Ea. destruct (P10 d a Ea) as (a' & Q1 & Q2 & Q3 & Q4 & Q5 & Q6 & Q7).
    exists a'. csplit; auto.
    + intros Hs. apply Q7. eapply select_nil; eauto.
    + intros Hs. destruct Q6 as (offs & Q8 & Q9).
      * apply in_seq. split; [lia|]. apply nth_error_Some. congruence.
      * intros Hn. apply Hs. rewrite <- (select_indices d disks sizes 0) by auto. rewrite Hn. auto.
      * assert (Es : sizes_on disks (map (fresh_bid tsize) sizes) d = select d disks sizes).
        { unfold sizes_on. rewrite <- (select_indices d disks sizes 0) by auto. apply map_ext_in.
          intros i Hi. apply indices_on_spec in Hi.
          transitivity (nth i (map b_size (map (fresh_bid tsize) sizes)) 0); [|rewrite V4; auto].
          rewrite <- (map_nth b_size). apply nth_indep. rewrite !map_length. lia. }
        rewrite Es in Q8. rewrite Q8. f_equal. rewrite <- Q9.
        rewrite <- (select_indices d disks (map b_offset b') (b_offset dflt)) by (rewrite map_length; congruence).
        apply map_ext. intros i. symmetry. apply map_nth.
Qed.

(** C15 *)
Lemma throw_keeps : forall cfgs t c tsize f off sizes m' bids',
  mreachable cfgs t c -> valid_mop (length cfgs) (MNew tsize f off sizes) ->
  manager_new_blocks (mc_m c) f off (map (fresh_bid tsize) sizes) = MThrow m' bids' ->
  exists m'', manager_delete_blocks m' bids' = Ret m'' /\
   forall d a, nth_error (m_allocs (mc_m c)) d = Some a -> exists a'',
     nth_error (m_allocs m'') d = Some a'' /\ disk_bytes a <= disk_bytes a'' /\
     free_bytes a'' = free_bytes a + (disk_bytes a'' - disk_bytes a) /\
     (disk_bytes a'' = disk_bytes a -> a'' = a).
Proof.
  intros cfgs t c tsize f off sizes m' b' H Hv E. destruct (mreachable_inv _ _ _ H) as (I & L & C & T).
  destruct (valid_mop_fresh _ _ _ _ _ Hv) as (V1 & V2 & V3 & V4). rewrite <- L in V1.
  destruct (manager_new_spec (mc_m c) (mc_held c) f off _ I V1 V2 V3) as (disks & _ & SP).
  rewrite E in SP. destruct SP as (_ & (ds1 & d & ds2 & Es & _ & P) & M).
  destruct P as (P1 & P2 & P3 & P4 & P5 & P6 & P7 & P8 & P9 & P10).
  assert (Hu : forall b, In b b' -> b_storage b <> Unmanaged).
  { intros b Hb. destruct (valid b) eqn:Ev.
    - destruct M as [_ M]. destruct (M b) as (_ & x & Ex & _); [|rewrite Ex; discriminate].
      apply in_or_app. right. apply filter_In. auto.
    - unfold valid in Ev. destruct (b_storage b); discriminate. }
  destruct (manager_delete_blocks_ok b' m' (mc_held c) Hu M) as (m'' & E2 & M2 & _ & L2 & A2).
  exists m''. split; auto. intros x a Ea. destruct (P10 x a Ea) as (a1 & Q1 & Q2 & Q3 & _).
  destruct (A2 x a1 Q1) as (a2 & R1 & R2 & R3). exists a2.
  destruct I as [Ia _]. destruct M2 as [Ma _]. pose proof (Ia _ _ Ea) as J1. pose proof (Ma _ _ R1) as J2.
  csplit; auto; [lia| |].
  - destruct J1, J2. lia.
  - intros Hd. eapply inv_canonical; eauto. 
    + destruct Q2, R2. unfold same_cfg; split; congruence.
Qed.

(** C16 *)
Lemma delete_everything : forall cfgs t c, mreachable cfgs t c ->
  exists m', manager_delete_blocks (mc_m c) (mc_held c) = Ret m' /\
   forall d a, nth_error (m_allocs (mc_m c)) d = Some a -> exists a',
     nth_error (m_allocs m') d = Some a' /\ disk_bytes a' = disk_bytes a /\
     free_bytes a' = disk_bytes a /\
     free_space a' = if Z.eqb (disk_bytes a) 0 then [] else [(0, disk_bytes a)].
Proof.
  intros cfgs t c H. destruct (mreachable_inv _ _ _ H) as (I & L & _ & _).
  assert (Fv : filter valid (mc_held c) = mc_held c).
  { destruct I as [_ I]. revert I. generalize (length (m_allocs (mc_m c))). clear.
    intros n I. induction (mc_held c) as [|b l IH]; simpl; auto.
    destruct (I b (or_introl eq_refl)) as (_ & d & Ed & _). unfold valid at 1. rewrite Ed. f_equal.
    apply IH. intros; apply I; simpl; auto. }
  destruct (manager_delete_blocks_ok (mc_held c) (mc_m c) []) as (m' & E & M & _ & L2 & A); auto.
  - intros b Hb. destruct I as [_ I]. destruct (I b Hb) as (_ & d & Ed & _). rewrite Ed. discriminate.
  - rewrite Fv. auto.
  - exists m'. split; auto. intros d a Ea. destruct (A d a Ea) as (a' & A1 & A2 & A3).
    exists a'. csplit; auto.
    + destruct M as [M _]. specialize (M d a' A1). dinv M. unfold blocks_on in i_tot0. simpl in i_tot0. lia.
    + destruct M as [M _]. specialize (M d a' A1). dinv M. unfold blocks_on in *. simpl in *.
      apply coalesced_ext with (lo := -1); auto.
      * rewrite A3 in i_disk0. destruct (Z.eqb_spec (disk_bytes a) 0); simpl; auto. split; [lia|]. split; [lia|auto].
      * intros x. transitivity (0 <= x < disk_bytes a).
        -- rewrite <- A3. rewrite i_part0. split; [auto|]. intros [K|K]; auto.
           destruct K as (r & [] & _).
        -- unfold covered, in_range. destruct (Z.eqb_spec (disk_bytes a) 0) as [Hz|Hz].
           ++ split; [lia|]. intros (r & [] & _).
           ++ split.
              ** intros Hx. exists (0, disk_bytes a). split; [left; auto|simpl; lia].
              ** intros (r & [<-|[]] & Hr). simpl in Hr. lia.
Qed.

Lemma throw_one_disk : forall cfgs t c tsize f off sizes m' bids' disks d0,
  mreachable cfgs t c -> valid_mop (length cfgs) (MNew tsize f off sizes) ->
  manager_new_blocks (mc_m c) f off (map (fresh_bid tsize) sizes) = MThrow m' bids' ->
  placement (mc_m c) f off sizes disks -> (forall d, In d disks -> d = d0) ->
  m' = mc_m c /\ bids' = map (fresh_bid tsize) sizes.
Proof.
  intros cfgs t c tsize f off sizes m' b' disks d0 H Hv E Hp Hd.
  destruct (mreachable_inv _ _ _ H) as (I & L & C & T).
  destruct (valid_mop_fresh _ _ _ _ _ Hv) as (V1 & V2 & V3 & V4). rewrite <- L in V1.
  destruct (manager_new_spec (mc_m c) (mc_held c) f off _ I V1 V2 V3) as (disks' & Ed & SP).
  rewrite V4 in *. assert (disks' = disks).
  { eapply placement_unique; eauto. exact (chosen _ _ _ _ _ Ed). }
  subst disks'.
  rewrite E in SP. destruct SP as (_ & (ds1 & d & ds2 & Es & Hne & P) & M).
  destruct P as (P1 & P2 & P3 & P4 & P5 & P6 & P7 & P8 & P9 & P10).
  assert (Hnd : forall x, In x ds1 -> indices_on x disks = []).
  { intros x Hx. destruct (indices_on x disks) as [|i l] eqn:Ei; auto. exfalso.
    assert (In i (indices_on x disks)) as Hi by (rewrite Ei; simpl; auto).
    destruct (indices_on d disks) as [|j l'] eqn:Ej; [congruence|].
    assert (In j (indices_on d disks)) as Hj by (rewrite Ej; simpl; auto).
    apply indices_on_nth with (x := O) in Hi, Hj. destruct Hi as [Hi <-], Hj as [Hj Hjd].
    assert (nth i disks O = d0) by (apply Hd, nth_In; auto).
    assert (nth j disks O = d0) by (apply Hd, nth_In; auto).
    pose proof (seq_NoDup (length (m_allocs (mc_m c))) 0) as N. rewrite Es in N.
    apply NoDup_remove_2 in N. apply N. apply in_or_app. left. congruence. }
  assert (Ec : collect disks ds1 b' = []).
  { unfold collect. clear - Hnd. induction ds1 as [|x r IH]; simpl; auto.
    rewrite (Hnd x) by (simpl; auto). simpl. apply IH. intros; apply Hnd; simpl; auto. }
  rewrite Ec in *. split.
  - assert (Ea : m_allocs m' = m_allocs (mc_m c)).
    { apply nth_ext with (d := no_alloc) (d' := no_alloc); [auto|]. intros i Hi.
      rewrite P2 in Hi. destruct (nth_error (m_allocs (mc_m c)) i) as [a|] eqn:Ea.
      2:{ apply nth_error_None in Ea. lia. }
      destruct (P10 i a Ea) as (a' & Q1 & _ & _ & Q4 & _ & _ & Q7).
      rewrite (nth_error_nth _ _ _ Q1), (nth_error_nth _ _ _ Ea).
      destruct (in_dec Nat.eq_dec i ds1) as [Hin|Hin]; auto. }
    destruct m', (mc_m c). simpl in *. unfold sum_bids in *. simpl in *. f_equal; auto; lia.
  - apply nth_ext with (d := dflt) (d' := dflt); [congruence|]. intros i _. apply P5.
    intros x Hx. rewrite Hnd by auto. auto.
Qed.

Lemma step_never_bad : forall cfgs t c o, mreachable cfgs t c -> valid_mop (length cfgs) o ->
  mclient_step c o <> StepBad.
Proof.
  intros cfgs t c o H Hv E. pose proof (step_inv _ _ _ (mreachable_inv _ _ _ H) Hv) as K.
  rewrite E in K. auto.
Qed.

Lemma step_delete_ok : forall cfgs t c i, mreachable cfgs t c ->
  exists c', mclient_step c (MDelete i) = StepOk c'.
Proof.
  intros cfgs t c i H. destruct (mreachable_inv _ _ _ H) as (I & _). cbn [mclient_step].
  destruct (nth_error (mc_held c) i) as [b|] eqn:E; [|eauto].
  apply (minv_perm _ _ _ (remove_nth_perm _ _ _ E)) in I.
  destruct (manager_delete_ok _ _ _ I) as (m' & E1 & _). rewrite E1. eauto.
Qed.

Lemma delete_invalid : forall m b, b_storage b = NoStorage \/ b_storage b = Unmanaged ->
  manager_delete_block m b = Ret m.
Proof. intros m b [H|H]; unfold manager_delete_block; rewrite H; auto. Qed.

(** Sums over the disks. *)
Lemma manager_bytes : forall cfgs t c, mreachable cfgs t c ->
  manager_total_bytes (mc_m c) = manager_free_bytes (mc_m c) + sum_bids (mc_held c).
Proof.
  intros cfgs t c H. destruct (mreachable_inv _ _ _ H) as ([Ia Ih] & _).
  unfold manager_total_bytes, manager_free_bytes. revert Ia Ih. generalize (mc_held c) (m_allocs (mc_m c)).
  intros held allocs Ia Ih.
  assert (G : forall al k, (forall d a, nth_error al d = Some a -> inv a (blocks_on (k + d) held)) ->
     fold_right Z.add 0 (map disk_bytes al) = fold_right Z.add 0 (map free_bytes al) +
       fold_right Z.add 0 (map (fun d => total_size (blocks_on d held)) (seq k (length al)))).
  { induction al as [|a al IH]; intros k Hk; simpl; auto.
    pose proof (Hk O a eq_refl) as I. rewrite Nat.add_0_r in I.
    rewrite (IH (S k)).
    - dinv I. lia.
    - intros d x Ex. replace (S k + d)%nat with (k + S d)%nat by lia. apply Hk. auto. }
  rewrite (G allocs O) by auto. f_equal. clear G Ia.
  induction held as [|b held IH].
  - unfold blocks_on; simpl. induction (seq 0 (length allocs)); simpl; auto.
  - assert (Ih' : forall b, In b held -> good_size b /\ exists d, b_storage b = Managed d /\ (d < length allocs)%nat)
      by (intros; apply Ih; simpl; auto).
    specialize (IH Ih'). change (sum_bids (b :: held)) with (b_size b + sum_bids held). rewrite <- IH.
    destruct (Ih b (or_introl eq_refl)) as (_ & d & Ed & Hd).
    assert (Gs : forall n k, fold_right Z.add 0 (map (fun d => total_size (blocks_on d (b :: held))) (seq k n)) =
      (if (Nat.leb k d && Nat.ltb d (k + n))%bool then b_size b else 0) +
      fold_right Z.add 0 (map (fun d => total_size (blocks_on d held)) (seq k n))).
    { induction n as [|n IHn]; intros k; cbn [seq map fold_right].
      - destruct (Nat.leb_spec k d), (Nat.ltb_spec d (k + 0)); simpl; lia.
      - rewrite IHn. unfold blocks_on at 1. cbn [filter]. unfold on_disk at 1. rewrite Ed.
        destruct (Nat.eqb_spec d k) as [->|Hne].
        + cbn [map total_size snd]. fold (blocks_on k held).
          destruct (Nat.leb_spec k k), (Nat.ltb_spec k (k + S n)), (Nat.leb_spec (S k) k); simpl; lia.
        + fold (blocks_on k held).
          destruct (Nat.leb_spec k d), (Nat.ltb_spec d (k + S n)), (Nat.leb_spec (S k) d), (Nat.ltb_spec d (S k + n)); simpl; lia. }
    rewrite Gs. destruct (Nat.leb_spec 0 d), (Nat.ltb_spec d (0 + length allocs)); simpl; lia.
Qed.
