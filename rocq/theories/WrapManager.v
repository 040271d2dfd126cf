(** The block manager with 64-bit arithmetic. *)
From Coq Require Import ZArith List Bool Lia PeanoNat Permutation.
From Verif Require Import AllocModel AllocSpec AllocProofs AllocInv AllocMain
  ManagerModel ManagerSpec ManagerProofs ManagerMain WrapModel WrapSpec WrapProofs.
Import ListNotations.
Local Open Scope Z_scope.

Lemma room64_eq : forall allocs bytes d s, 0 <= nth d bytes 0 -> 0 < s -> nth d bytes 0 + s < W ->
  room64 allocs bytes d s = room allocs bytes d s.
Proof. intros. unfold room64, room. rewrite w_small by lia. reflexivity. Qed.

Lemma search64_eq : forall allocs bytes s count disk adv, 0 < s ->
  (forall d, 0 <= nth d bytes 0 /\ nth d bytes 0 + s < W) ->
  search_disk64 allocs bytes s disk adv count = search_disk allocs bytes s disk adv count.
Proof.
  intros allocs bytes s. induction count as [|n IH]; intros disk adv Hs H; [reflexivity|].
  cbn [search_disk64 search_disk]. cbv zeta. rewrite room64_eq by (auto; apply H). rewrite IH by auto. reflexivity.
Qed.

Lemma choose_disk64_eq : forall allocs bytes s disk, 0 < s ->
  (forall d, 0 <= nth d bytes 0 /\ nth d bytes 0 + s < W) ->
  choose_disk64 allocs bytes s disk = choose_disk allocs bytes s disk.
Proof.
  intros. unfold choose_disk64, choose_disk. rewrite room64_eq by (auto; apply H0).
  rewrite search64_eq by auto. reflexivity.
Qed.

Lemma nth_set_nth_cases : forall {A} (l : list A) i j x d,
  nth j (set_nth i x l) d = nth j l d \/ (i = j /\ nth j (set_nth i x l) d = x).
Proof.
  intros A l i j x d. destruct (Nat.eq_dec i j) as [->|Hne].
  - destruct (lt_dec j (length l)).
    + right. split; auto. apply nth_set_nth_eq; auto.
    + left. rewrite !nth_overflow; auto; try rewrite set_nth_length; lia.
  - left. apply nth_set_nth_ne; auto.
Qed.

Lemma choose_disks64_eq : forall f allocs sizes bytes i, (forall s, In s sizes -> 0 < s) ->
  (forall d, 0 <= nth d bytes 0 /\ nth d bytes 0 + sum_sizes sizes < W) ->
  choose_disks64 f allocs bytes i sizes = choose_disks f allocs bytes i sizes.
Proof.
  intros f allocs. induction sizes as [|s r IH]; intros bytes i Hs H; [reflexivity|].
  cbn [choose_disks64 choose_disks]. destruct (Nat.ltb (f i) (length allocs)); [|reflexivity]. cbv zeta.
  assert (Hp : 0 < s) by (apply Hs; simpl; auto).
  assert (Hr : 0 <= sum_sizes r).
  { apply sum_sizes_nonneg. apply Forall_forall. intros z Hz. apply Hs. simpl; auto. }
  simpl sum_sizes in H.
  assert (Hd : forall d, 0 <= nth d bytes 0 /\ nth d bytes 0 + s < W) by (intros d; specialize (H d); lia).
  rewrite choose_disk64_eq by auto. set (d := choose_disk allocs bytes s (f i)).
  rewrite (w_small (nth d bytes 0 + s)) by (specialize (Hd d); lia).
  rewrite IH; [reflexivity| |].
  - intros z Hz. apply Hs. simpl; auto.
  - intros d'. destruct (nth_set_nth_cases bytes d d' (nth d bytes 0 + s) 0) as [E|[E E']].
    + rewrite E. specialize (H d'). lia.
    + rewrite E'. specialize (H d). lia.
Qed.

(** Bytes that a call places on the disks [ds]. *)
Definition load (disks : list nat) (bids : list bid) (ds : list nat) : Z :=
  fold_right Z.add 0 (map (fun d => sum_sizes (sizes_on disks bids d)) ds).

Lemma load_le : forall disks bids ds, NoDup ds -> length disks = length bids ->
  (forall b, In b bids -> 0 < b_size b) -> load disks bids ds <= sum_sizes (map b_size bids).
Proof.
  induction disks as [|x disks IH]; intros bids ds Hn Hl Hb; destruct bids as [|b bids]; try discriminate Hl.
  - unfold load. simpl. clear. induction ds; simpl; auto. lia.
  - assert (E : load (x :: disks) (b :: bids) ds =
       fold_right Z.add 0 (map (fun d => if Nat.eqb x d then b_size b else 0) ds) + load disks bids ds).
    { unfold load. clear. induction ds as [|d ds IH]; [reflexivity|]. cbn [map fold_right].
      rewrite IH, sizes_on_cons, sum_sizes_app. destruct (Nat.eqb x d); simpl sum_sizes; lia. }
    rewrite E. cbn [map sum_sizes].
    specialize (IH bids ds Hn ltac:(simpl in Hl; lia) ltac:(intros; apply Hb; simpl; auto)).
    assert (fold_right Z.add 0 (map (fun d => if Nat.eqb x d then b_size b else 0) ds) <= b_size b); [|lia].
    specialize (Hb b (or_introl eq_refl)). clear - Hn Hb. induction Hn as [|d ds Hd Hn IH]; simpl; [lia|].
    destruct (Nat.eqb_spec x d) as [->|]; [|lia].
    assert (Z0 : fold_right Z.add 0 (map (fun d0 => if Nat.eqb d d0 then b_size b else 0) ds) = 0); [|lia].
    clear - Hd. induction ds as [|e ds IH]; simpl in *; auto.
    destruct (Nat.eqb_spec d e) as [->|]; [tauto|]. rewrite IH by tauto. lia.
Qed.

Lemma sizes_on_good : forall disks bids d, length disks = length bids ->
  (forall b, In b bids -> 0 < b_size b) -> Forall (fun s => 0 < s) (sizes_on disks bids d).
Proof.
  intros disks bids d Hl Hb. apply Forall_forall. intros s Hs. unfold sizes_on in Hs. apply in_map_iff in Hs.
  destruct Hs as (i & <- & Hi). apply indices_on_spec in Hi. apply Hb. apply in_nth_bids. lia.
Qed.

Lemma alloc_on_disks64_eq : forall disks ds m bids, NoDup ds -> length disks = length bids ->
  (forall b, In b bids -> 0 < b_size b) ->
  (forall d a, In d ds -> nth_error (m_allocs m) d = Some a -> exists live, inv a live /\
     disk_bytes a + load disks bids ds < W) ->
  0 <= m_total m -> m_total m + load disks bids ds < W ->
  0 <= m_current m -> m_current m + load disks bids ds < W ->
  alloc_on_disks64 ds disks m bids = alloc_on_disks ds disks m bids.
Proof.
  intros disks. induction ds as [|d ds IH]; intros m bids Hn Hl Hb Ha Ht Ht' Hc Hc'; [reflexivity|].
  inversion Hn as [|? ? Hd Hn']; subst. cbn [alloc_on_disks64 alloc_on_disks]. cbv zeta.
  assert (El : load disks bids (d :: ds) = sum_sizes (sizes_on disks bids d) + load disks bids ds) by reflexivity.
  pose proof (sizes_on_good disks bids d Hl Hb) as Fd.
  pose proof (sum_sizes_nonneg _ Fd) as Sd.
  assert (Hl0 : 0 <= load disks bids ds).
  { unfold load. clear - Hl Hb. induction ds as [|e ds IH]; simpl; [lia|].
    pose proof (sum_sizes_nonneg _ (sizes_on_good disks bids e Hl Hb)). lia. }
  destruct (indices_on d disks) as [|i0 idxs] eqn:Ei.
  - apply IH; auto; try lia. intros e a He Ea. destruct (Ha e a (or_intror He) Ea) as (live & I & D).
    exists live. split; auto. lia.
  - rewrite <- Ei. destruct (nth_error (m_allocs m) d) as [a|] eqn:Ea; [|reflexivity].
    destruct (Ha d a (or_introl eq_refl) Ea) as (live & I & D).
    change (map (fun i : nat => b_size (nth i bids (fresh_bid 0 0))) (indices_on d disks)) with (sizes_on disks bids d).
    assert (Hg : good_batch (sizes_on disks bids d)).
    { split; auto. unfold sizes_on. rewrite Ei. discriminate. }
    pose proof (i_disk _ _ I) as D0.
    assert (EN : new_blocks64 a (sizes_on disks bids d) = new_blocks a (sizes_on disks bids d)).
    { apply (new_blocks64_eq a live); auto; try lia.
      destruct (new_blocks a (sizes_on disks bids d)) as [a' offs| | |] eqn:E; simpl; try exact W_pos.
      pose proof (new_blocks_growth _ _ _ _ _ I Hg E). lia. }
    rewrite EN. destruct (new_blocks a (sizes_on disks bids d)) as [a' offs| | |] eqn:E; try reflexivity.
    rewrite !fold_w by lia. rewrite !w_small by lia.
    pose proof (new_blocks_spec _ _ _ I Hg) as NS. rewrite E in NS. destruct NS as (_ & NL & _).
    destruct (scatter_spec d (indices_on d disks) offs bids) as (T1 & T2 & T3 & _).
    { apply indices_on_nodup. }
    { rewrite NL. unfold sizes_on. apply map_length. }
    { intros i Hi. apply indices_on_spec in Hi. lia. }
    set (bids1 := scatter d (indices_on d disks) offs bids) in *.
    assert (Es : forall e, sizes_on disks bids1 e = sizes_on disks bids e).
    { intros e. unfold sizes_on. apply map_ext. intros i. apply T3. }
    assert (Eload : load disks bids1 ds = load disks bids ds).
    { unfold load. f_equal. apply map_ext. intros e. rewrite Es. reflexivity. }
    apply IH; auto; cbn [m_allocs m_total m_current]; rewrite ?Eload; try lia.
    + intros b Hin. destruct (In_nth _ _ dflt Hin) as (i & Hi & <-). destruct (T3 i) as [-> _].
      apply Hb. apply in_nth_bids. lia.
    + intros e x He Ex. rewrite nth_error_set_nth_ne in Ex by (intros ->; auto).
      destruct (Ha e x (or_intror He) Ex) as (lx & Ix & Dx). exists lx. split; auto. lia.
Qed.

(** * Histories *)

(** What is kept along a history of which [r] bytes of requests are to come. *)
Definition roomleft (n : nat) (c : mclient) (r : Z) : Prop :=
  cinv n c /\
  (forall d a, nth_error (m_allocs (mc_m c)) d = Some a -> disk_bytes a + r < W) /\
  m_total (mc_m c) + r < W /\ m_current (mc_m c) <= m_total (mc_m c) /\ 0 <= mc_deleted0 c.

Lemma held_sum : forall held, (forall b, In b held -> good_size b) ->
  0 <= sum_bids held /\ forall b, In b held -> b_size b <= sum_bids held.
Proof.
  induction held as [|x held IH]; intros H; unfold sum_bids in *; simpl; [split; [lia|tauto]|].
  destruct IH as [A B]; [intros; apply H; simpl; auto|]. pose proof (H x (or_introl eq_refl)) as [Px _].
  split; [lia|]. intros b [->|Hb]; [lia|]. specialize (B b Hb). lia.
Qed.

Lemma current_nonneg : forall n c r, roomleft n c r -> 0 <= m_current (mc_m c).
Proof.
  intros n c r ((I & L & C & T) & _ & _ & _ & D). rewrite C.
  destruct (held_sum (mc_held c)) as [A _]; [|lia]. intros b Hb. apply (mi_held _ _ I b Hb).
Qed.

Lemma valid_cost : forall n o, valid_mop n o -> 0 <= cost o.
Proof.
  intros n [t f off sizes|i] V; simpl; [|lia]. destruct V as [_ V]. rewrite sum_eq. apply sum_sizes_nonneg.
  apply Forall_forall. intros s Hs. apply V; auto.
Qed.

Lemma mstep64_eq : forall n c o r, roomleft n c (cost o + r) -> valid_mop n o -> 0 <= r ->
  mclient_step64 c o = mclient_step c o.
Proof.
  intros n c o r R V Hr. pose proof (current_nonneg _ _ _ R) as Hcur.
  pose proof (valid_cost _ _ V) as Hcost.
  destruct R as ((I & L & C & T) & Hd & Ht & Hct & Hdel).
  destruct o as [tsize f off sizes|i]; cbn [mclient_step64 mclient_step].
  - simpl in Hd, Ht, Hcost. rewrite sum_eq in *. destruct (valid_mop_fresh _ _ _ _ _ V) as (V1 & V2 & V3 & V4).
    assert (Hpos : forall b, In b (map (fresh_bid tsize) sizes) -> 0 < b_size b) by (intros b Hb; apply V2; auto).
    assert (E : manager_new_blocks64 (mc_m c) f off (map (fresh_bid tsize) sizes) =
                manager_new_blocks (mc_m c) f off (map (fresh_bid tsize) sizes)).
    { unfold manager_new_blocks64, manager_new_blocks. cbv zeta.
      rewrite choose_disks64_eq.
      2:{ intros s Hs. apply in_map_iff in Hs. destruct Hs as (b & <- & Hb). auto. }
      2:{ intros d. rewrite nth_repeat. rewrite V4. split; [lia|]. lia. }
      destruct (choose_disks f (m_allocs (mc_m c)) (repeat 0 (length (m_allocs (mc_m c)))) off
                  (map b_size (map (fresh_bid tsize) sizes))) as [disks|] eqn:Ed; [|reflexivity].
      destruct (chosen _ _ _ _ _ Ed) as [Hlen _]. rewrite map_length in Hlen.
      pose proof (load_le disks (map (fresh_bid tsize) sizes) (seq 0 (length (m_allocs (mc_m c)))) (seq_NoDup _ _) Hlen Hpos) as LL.
      rewrite V4 in LL.
      rewrite alloc_on_disks64_eq; auto; try lia; try apply seq_NoDup.
      intros d a _ Ea. exists (blocks_on d (mc_held c)). split; [apply I; auto|]. specialize (Hd d a Ea). lia. }
    rewrite E. reflexivity.
  - destruct (nth_error (mc_held c) i) as [b|] eqn:En; [|reflexivity].
    assert (Hin : In b (mc_held c)) by (eapply nth_error_In; eauto).
    assert (E : manager_delete_block64 (mc_m c) b = manager_delete_block (mc_m c) b).
    { unfold manager_delete_block64, manager_delete_block.
      destruct (mi_held _ _ I b Hin) as (Gb & d & Sb & Hlt). rewrite Sb.
      destruct (nth_error (m_allocs (mc_m c)) d) as [a|] eqn:Ea; [|reflexivity].
      pose proof (mi_alloc _ _ I d a Ea) as Ia.
      rewrite (delete64_eq a (blocks_on d (remove_nth i (mc_held c)))).
      - destruct (delete_block a (b_offset b) (b_size b)); try reflexivity.
        rewrite w_small; [reflexivity|].
        destruct (held_sum (mc_held c)) as [_ B]; [intros y Hy; apply (mi_held _ _ I y Hy)|].
        specialize (B b Hin). destruct Gb as [G1 G2]. simpl in Ht. lia.
      - pose proof (remove_nth_perm _ _ _ En) as P.
        eapply inv_perm; [|exact Ia].
        pose proof (blocks_on_perm d _ _ P) as Q. cbn [blocks_on] in Q.
        unfold blocks_on in Q |- *. simpl filter in Q.
        replace (on_disk d b) with true in Q; [exact Q|].
        unfold on_disk. rewrite Sb. symmetry. apply Nat.eqb_refl.
      - specialize (Hd d a Ea). simpl in Hd. lia. }
    rewrite E. reflexivity.
Qed.

Lemma sum_bids_nonneg : forall l, (forall b, In b l -> good_size b) -> 0 <= sum_bids l.
Proof. intros l H. apply held_sum. auto. Qed.

(** Disks grow by at most what was requested; so do the counters. *)
Lemma placed_growth : forall disks ds m bids m' bids' held, NoDup ds -> length disks = length bids ->
  (forall b, In b bids -> 0 < b_size b) -> minv m held ->
  placed disks ds m bids m' bids' held ->
  (forall d a', nth_error (m_allocs m') d = Some a' -> exists a, nth_error (m_allocs m) d = Some a /\
     disk_bytes a' <= disk_bytes a + sum_sizes (map b_size bids)) /\
  0 <= sum_bids (collect disks ds bids') <= sum_sizes (map b_size bids).
Proof.
  intros disks ds m bids m' bids' held Hn Hl Hb I (P1 & P2 & P3 & P4 & P5 & P6 & P7 & P8 & P9 & P10).
  assert (Hall : 0 <= sum_sizes (map b_size bids)).
  { apply sum_sizes_nonneg. apply Forall_forall. intros s Hs. apply in_map_iff in Hs.
    destruct Hs as (b & <- & Hin). auto. }
  split.
  - intros d a' Ea'.
    assert (exists a, nth_error (m_allocs m) d = Some a) as (a & Ea).
    { destruct (nth_error (m_allocs m) d) eqn:E; eauto. apply nth_error_None in E.
      assert (d < length (m_allocs m'))%nat by (apply nth_error_Some; congruence). lia. }
    exists a. split; auto. destruct (P10 d a Ea) as (x & Ex & _ & _ & Q1 & _ & Q2 & Q3).
    assert (x = a') by congruence. subst x.
    destruct (in_dec Nat.eq_dec d ds) as [Hd|Hd]; [|rewrite (Q1 Hd); lia].
    destruct (indices_on d disks) as [|i idxs] eqn:Ei; [rewrite Q3 by auto; lia|].
    destruct (Q2 Hd) as (offs & EN & _); [discriminate|].
    pose proof (sizes_on_good disks bids d Hl Hb) as Fd.
    assert (Hg : good_batch (sizes_on disks bids d)).
    { split; auto. unfold sizes_on. rewrite Ei. discriminate. }
    pose proof (new_blocks_growth _ _ _ _ _ (mi_alloc _ _ I d a Ea) Hg EN) as G.
    pose proof (load_le disks bids [d] ltac:(constructor; [simpl; tauto|constructor]) Hl Hb) as LL.
    unfold load in LL. cbn [map fold_right] in LL. lia.
  - assert (E : sum_bids (collect disks ds bids') = load disks bids ds).
    { unfold collect, load. clear - P3. induction ds as [|d ds IH]; [reflexivity|].
      cbn [map concat fold_right]. rewrite sum_bids_app, IH, sum_bids_sizes, map_map. f_equal.
      f_equal. unfold sizes_on. apply map_ext. intros i. apply P3. }
    rewrite E. split; [|apply load_le; auto].
    unfold load. clear - Hl Hb. induction ds as [|e ds IH]; simpl; [lia|].
    pose proof (sum_sizes_nonneg _ (sizes_on_good disks bids e Hl Hb)). lia.
Qed.

Lemma roomleft_step : forall n c o r c', roomleft n c (cost o + r) -> valid_mop n o -> 0 <= r ->
  (mclient_step c o = StepOk c' \/ mclient_step c o = StepThrow c') -> roomleft n c' r.
Proof.
  intros n c o r c' R V Hr Hs. pose proof (valid_cost _ _ V) as Hcost.
  pose proof R as ((I & L & C & T) & Hd & Ht & Hct & Hdel).
  split.
  { pose proof (step_inv n c o (proj1 R) V) as S. destruct Hs as [Hs|Hs]; rewrite Hs in S; exact S. }
  destruct o as [tsize f off sizes|i]; cbn [mclient_step] in Hs.
  - simpl in Hd, Ht, Hcost. rewrite sum_eq in *. destruct (valid_mop_fresh _ _ _ _ _ V) as (V1 & V2 & V3 & V4). rewrite <- L in V1.
    assert (Hpos : forall b, In b (map (fresh_bid tsize) sizes) -> 0 < b_size b) by (intros b Hb; apply V2; auto).
    destruct (manager_new_spec (mc_m c) (mc_held c) f off _ I V1 V2 V3) as (disks & E & SP).
    destruct (chosen _ _ _ _ _ E) as [Hlen _]. rewrite map_length in Hlen.
    assert (G : forall ds m' b', NoDup ds ->
      placed disks ds (mc_m c) (map (fresh_bid tsize) sizes) m' b' (mc_held c) ->
      (forall d a, nth_error (m_allocs m') d = Some a -> disk_bytes a + r < W) /\
      m_total m' + r < W /\ m_current m' <= m_total m').
    { intros ds m' b' Hn P. destruct (placed_growth _ _ _ _ _ _ _ Hn Hlen Hpos I P) as [G1 G2].
      rewrite V4 in *. destruct P as (_ & _ & _ & _ & _ & _ & P7 & P8 & _).
      split; [|split; lia]. intros d a Ea. destruct (G1 d a Ea) as (a0 & Ea0 & Hle). specialize (Hd d a0 Ea0). lia. }
    destruct (manager_new_blocks (mc_m c) f off (map (fresh_bid tsize) sizes)) as [m' b'|m' b'|]; [| |tauto];
      destruct Hs as [Hs|Hs]; inversion Hs; subst c'; cbn [mc_m mc_deleted0].
    + destruct SP as (_ & (m0 & P & ->) & _). destruct (G _ _ _ (seq_NoDup _ _) P) as (A1 & A2 & A3).
      cbn [m_allocs m_total m_current]. auto.
    + destruct SP as (_ & (ds1 & d & ds2 & Es & _ & P) & _).
      destruct (G _ _ _ (NoDup_app_left ds1 (d :: ds2) ltac:(rewrite <- Es; apply seq_NoDup)) P) as (A1 & A2 & A3). auto.
  - simpl in Hd, Ht. destruct (nth_error (mc_held c) i) as [b|] eqn:En.
    2:{ destruct Hs as [Hs|Hs]; inversion Hs; subst c'. auto. }
    assert (Hin : In b (mc_held c)) by (eapply nth_error_In; eauto).
    destruct (mi_held _ _ I b Hin) as (Gb & d & Sb & Hlt).
    unfold manager_delete_block in Hs. rewrite Sb in Hs.
    destruct (nth_error (m_allocs (mc_m c)) d) as [a|] eqn:Ea; [|destruct Hs; discriminate].
    assert (Ia : inv a ((b_offset b, b_size b) :: blocks_on d (remove_nth i (mc_held c)))).
    { pose proof (mi_alloc _ _ I d a Ea) as Ia. eapply inv_perm; [|exact Ia].
      pose proof (blocks_on_perm d _ _ (remove_nth_perm _ _ _ En)) as Q. unfold blocks_on in Q |- *. simpl filter in Q.
      replace (on_disk d b) with true in Q; [exact Q|]. unfold on_disk. rewrite Sb. symmetry. apply Nat.eqb_refl. }
    destruct (inv_delete _ _ _ _ Ia) as (a' & Ed & _ & _ & Dd & _). rewrite Ed in Hs.
    destruct Hs as [Hs|Hs]; inversion Hs; subst c'; cbn [mc_m mc_deleted0 m_allocs m_total m_current].
    destruct Gb as [G1 G2].
    split; [|split; [lia|split; lia]].
    intros e x Ex. destruct (Nat.eq_dec d e) as [<-|Hne].
    + rewrite nth_error_set_nth_eq in Ex by auto. injection Ex as <-. rewrite Dd. eauto.
    + rewrite nth_error_set_nth_ne in Ex by auto. eauto.
Qed.

Lemma history_valid : forall n t c ops c', mhistory n t c ops c' -> 0 <= mrequested ops.
Proof.
  intros n t c ops c' H. unfold mrequested. induction H; simpl; [lia| |]; pose proof (valid_cost n o ltac:(assumption)); lia.
Qed.
Lemma history64_valid : forall n t c ops c', mhistory64 n t c ops c' -> 0 <= mrequested ops.
Proof.
  intros n t c ops c' H. unfold mrequested. induction H; simpl; [lia| |]; pose proof (valid_cost n o ltac:(assumption)); lia.
Qed.

Lemma history64_iff : forall n t ops c c', roomleft n c (mrequested ops) ->
  (mhistory64 n t c ops c' <-> mhistory n t c ops c').
Proof.
  intros n t. induction ops as [|o ops IH]; intros c c' R.
  - split; intros H; inversion H; subst; constructor.
  - change (mrequested (o :: ops)) with (cost o + mrequested ops) in R.
    split; intros H; inversion H as [|c0 o0 c1 ops0 c2 V S1 H'|c0 o0 c1 ops0 c2 Mt V S1 H']; subst.
    + pose proof (history64_valid _ _ _ _ _ H') as N. rewrite (mstep64_eq n c o _ R V N) in S1.
      apply (mh_ok _ _ _ _ c1); auto. apply IH; auto. eapply roomleft_step; eauto.
    + pose proof (history64_valid _ _ _ _ _ H') as N. rewrite (mstep64_eq n c o _ R V N) in S1.
      apply (mh_throw _ _ _ _ c1); auto. apply IH; auto. eapply roomleft_step; eauto.
    + pose proof (history_valid _ _ _ _ _ H') as N.
      apply (mh64_ok _ _ _ _ c1); auto. { rewrite (mstep64_eq n c o _ R V N). exact S1. }
      apply IH; auto. eapply roomleft_step; eauto.
    + pose proof (history_valid _ _ _ _ _ H') as N.
      apply (mh64_throw _ _ _ _ c1); auto. { rewrite (mstep64_eq n c o _ R V N). exact S1. }
      apply IH; auto. eapply roomleft_step; eauto.
Qed.

Lemma new_manager64_eq : forall cfgs, (forall s g, In (s, g) cfgs -> 0 <= s < W) ->
  new_manager64 cfgs = new_manager cfgs.
Proof.
  intros cfgs H. unfold new_manager64, new_manager.
  assert (E : new_allocators64 cfgs = new_allocators cfgs); [|rewrite E; reflexivity].
  induction cfgs as [|[s g] cfgs IH]; [reflexivity|]. cbn [new_allocators64 new_allocators].
  rewrite new_allocator64_eq by (apply (H s g); simpl; auto).
  rewrite IH by (intros; apply (H s0 g0); simpl; auto).
  destruct (new_allocators_ok cfgs) as (l & -> & _).
  { intros s' g' Hin. specialize (H s' g' (or_intror Hin)). lia. }
  destruct (new_allocator s g); reflexivity.
Qed.

Lemma start_roomleft : forall cfgs m r, (forall s g, In (s, g) cfgs -> 0 <= s /\ s + r < W) -> 0 <= r < W ->
  new_manager cfgs = Ret m -> roomleft (length cfgs) (start m) r.
Proof.
  intros cfgs m r H Hr E.
  assert (H0 : forall s g, In (s, g) cfgs -> 0 <= s) by (intros s g Hin; apply (H s g Hin)).
  split; [eapply start_inv; eauto|].
  unfold new_manager in E. destruct (new_allocators_ok cfgs H0) as (l & El & L & Q).
  rewrite El in E. inversion E; subst m. simpl. split; [|lia].
  intros d a Ea. destruct (Q d a Ea) as (_ & s & g & Ec & Ea'). apply nth_error_In in Ec.
  destruct (H s g Ec) as [A B]. destruct (new_allocator_inv _ _ _ A Ea') as [_ D]. lia.
Qed.
