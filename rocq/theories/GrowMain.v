(** Growth that may fail: the block manager and its clients. *)
From Coq Require Import ZArith List Bool Lia Permutation PeanoNat.
From Verif Require Import AllocModel AllocSpec AllocProofs AllocInv AllocMain
  ManagerModel ManagerSpec ManagerProofs ManagerMain GrowModel GrowSpec GrowProofs.
Import ListNotations.
Local Open Scope Z_scope.

(** * Consequences of [minv] *)
Lemma minv_disjoint : forall m held i j bi bj, minv m held -> i <> j ->
  nth_error held i = Some bi -> nth_error held j = Some bj ->
  b_storage bi = b_storage bj -> disjoint (range_of bi) (range_of bj).
Proof.
  intros m held i j bi bj [Ia Ih] Hij Ei Ej Es.
  destruct (Ih bi (nth_error_In _ _ Ei)) as (_ & d & Ed & Hd).
  destruct (nth_error (m_allocs m) d) as [a|] eqn:Ea; [|apply nth_error_None in Ea; lia].
  pose proof (i_dis _ _ (Ia d a Ea)) as P0. clear - P0 Ed Ei Ej Es Hij.
  assert (G : forall l i j, (i < j)%nat ->
    forall x y, nth_error l i = Some x -> nth_error l j = Some y -> b_storage x = Managed d -> b_storage y = Managed d ->
    ForallOrdPairs disjoint (blocks_on d l) -> disjoint (range_of x) (range_of y)).
  { clear. induction l as [|b l IH]; intros i j Hlt x y Ex Ey Sx Sy P; [destruct i; discriminate|].
    destruct j as [|j]; [lia|]. simpl in Ey. destruct i as [|i]; simpl in Ex.
    - inversion Ex; subst x. unfold blocks_on in P. simpl in P. unfold on_disk at 1 in P.
      rewrite Sx, Nat.eqb_refl in P. simpl in P. inversion P as [|? ? Hf _]; subst.
      rewrite Forall_forall in Hf. apply (Hf (range_of y)).
      apply in_map_iff. exists y. split; auto. apply filter_In. split; [eapply nth_error_In; eauto|].
      unfold on_disk. rewrite Sy, Nat.eqb_refl. auto.
    - eapply (IH i j); eauto; [lia|].
      unfold blocks_on in *. simpl in P. destruct (on_disk d b); auto. simpl in P. inversion P; auto. }
  destruct (Nat.lt_ge_cases i j) as [Hlt|Hge].
  - eapply (G _ i j); eauto; congruence.
  - assert (D : disjoint (range_of bj) (range_of bi)) by (eapply (G _ j i); eauto; try lia; congruence).
    intros x [A B]. apply (D x). split; auto.
Qed.

Lemma minv_inside : forall m held b, minv m held -> In b held ->
  exists d a, b_storage b = Managed d /\ nth_error (m_allocs m) d = Some a /\
    0 < b_size b /\ inside (disk_bytes a) (range_of b) /\
    forall x, in_range x (range_of b) -> ~ covered (free_space a) x.
Proof.
  intros m held b [Ia Ih] Hb.
  destruct (Ih b Hb) as (Hg & d & Ed & Hd).
  destruct (nth_error (m_allocs m) d) as [a|] eqn:Ea; [|apply nth_error_None in Ea; lia].
  pose proof (Ia d a Ea) as I.
  assert (Hin : In (range_of b) (blocks_on d held)).
  { apply in_map_iff. exists b. split; auto. apply filter_In. split; auto.
    unfold on_disk. rewrite Ed, Nat.eqb_refl. auto. }
  exists d, a. destruct (inv_inside _ _ _ I Hin) as [A B]. csplit; auto.
  intros x Hx Hc. apply (i_excl _ _ I x). split; auto. exists (range_of b). auto.
Qed.

Lemma minv_bytes : forall m held, minv m held ->
  manager_total_bytes m = manager_free_bytes m + sum_bids held.
Proof.
  intros m held [Ia Ih].
  unfold manager_total_bytes, manager_free_bytes. revert Ia Ih. generalize (m_allocs m).
  intros allocs Ia Ih.
  assert (G : forall al k, (forall d a, nth_error al d = Some a -> inv a (blocks_on (k + d) held)) ->
     fold_right Z.add 0 (map disk_bytes al) = fold_right Z.add 0 (map free_bytes al) +
       fold_right Z.add 0 (map (fun d => total_size (blocks_on d held)) (seq k (length al)))).
  { induction al as [|a al IH]; intros k Hk; simpl; auto.
    pose proof (Hk O a eq_refl) as I. rewrite Nat.add_0_r in I.
    rewrite (IH (S k)).
    - pose proof (i_tot _ _ I). lia.
    - intros d x Ex. replace (S k + d)%nat with (k + S d)%nat by lia. apply Hk. auto. }
  rewrite (G allocs O) by auto. f_equal. clear G Ia.
  induction held as [|b held IH].
  - unfold blocks_on; simpl. induction (seq 0 (length allocs)); simpl; auto.
  - assert (Ih' : forall b, In b held -> good_size b /\ exists d, b_storage b = Managed d /\ (d < length allocs)%nat)
      by (intros; apply Ih; simpl; auto).
    specialize (IH Ih'). change (sum_bids (b :: held)) with (b_size b + sum_bids held). rewrite <- IH.
    destruct (Ih b (or_introl eq_refl)) as (_ & d & Ed & Hd).
    assert (Gs : forall n k, fold_right Z.add 0 (map (fun d => total_size (blocks_on d (b :: held))) (seq k n)) =
      (if (Nat.leb k d && Nat.ltb d (k + n))%bool then b_size b else 0) +
      fold_right Z.add 0 (map (fun d => total_size (blocks_on d held)) (seq k n))).
    { induction n as [|n IHn]; intros k; cbn [seq map fold_right].
      - destruct (Nat.leb_spec k d), (Nat.ltb_spec d (k + 0)); simpl; lia.
      - rewrite IHn. unfold blocks_on at 1. cbn [filter]. unfold on_disk at 1. rewrite Ed.
        destruct (Nat.eqb_spec d k) as [->|Hne].
        + cbn [map total_size snd]. fold (blocks_on k held).
          destruct (Nat.leb_spec k k), (Nat.ltb_spec k (k + S n)), (Nat.leb_spec (S k) k); simpl; lia.
        + fold (blocks_on k held).
          destruct (Nat.leb_spec k d), (Nat.ltb_spec d (k + S n)), (Nat.leb_spec (S k) d), (Nat.ltb_spec d (S k + n)); simpl; lia. }
    rewrite Gs. destruct (Nat.leb_spec 0 d), (Nat.ltb_spec d (0 + length allocs)); simpl; lia.
Qed.

(** * Blocks that get an offset *)
Definition given (d : nat) (ob : Z * bid) : bid :=
  mk_bid (Managed d) (fst ob) (b_size (snd ob)) (b_tsize (snd ob)).
Definition news (d : nat) (w : list Z) (local : list bid) : list bid := map (given d) (combine w local).

Lemma news_storage : forall d w local b, In b (news d w local) -> b_storage b = Managed d.
Proof. intros d w local b H. apply in_map_iff in H. destruct H as (ob & <- & _). reflexivity. Qed.

Lemma news_good : forall d w local b, In b (news d w local) -> exists b0, In b0 local /\
  b_size b = b_size b0 /\ b_tsize b = b_tsize b0.
Proof.
  intros d w local b H. apply in_map_iff in H. destruct H as ([o b0] & <- & H).
  apply in_combine_r in H. exists b0. auto.
Qed.

Lemma news_on : forall d w local, blocks_on d (news d w local) = combine w (map b_size local).
Proof.
  intros d w. induction w as [|o w IH]; intros local; [reflexivity|]. destruct local as [|b l]; [reflexivity|].
  unfold blocks_on in *. cbn [news combine map filter]. unfold on_disk at 1. cbn [given b_storage].
  rewrite Nat.eqb_refl. cbn [map]. f_equal. apply IH.
Qed.

Lemma news_off : forall d d' w local, d' <> d -> blocks_on d' (news d w local) = [].
Proof.
  intros d d' w local H. unfold blocks_on.
  assert (G : forall l, (forall b, In b l -> b_storage b = Managed d) -> filter (on_disk d') l = []).
  { induction l as [|b l IH]; intros Hl; [reflexivity|]. cbn [filter]. unfold on_disk at 1.
    rewrite (Hl b) by (simpl; auto). destruct (Nat.eqb_spec d d'); [congruence|]. apply IH. intros; apply Hl; simpl; auto. }
  rewrite G; [reflexivity|]. apply news_storage.
Qed.

Lemma news_sum : forall d w local, length w = length local -> sum_bids (news d w local) = sum_sizes (map b_size local).
Proof.
  intros d w. induction w as [|o w IH]; intros local H; destruct local as [|b l]; simpl in H; try discriminate; [reflexivity|].
  unfold sum_bids in *. cbn [news combine map fold_right sum_sizes given b_size fst snd]. unfold news in IH. rewrite IH by lia. reflexivity.
Qed.

Lemma minv_update : forall m X d a a' w local t c x, minv m X -> nth_error (m_allocs m) d = Some a ->
  inv a' (blocks_on d X ++ combine w (map b_size local)) -> (forall b, In b local -> good_size b) ->
  minv (mk_manager (set_nth d a' (m_allocs m)) t c x) (X ++ news d w local).
Proof.
  intros m X d a a' w local t c x [Ia Ih] Ea I' Hg.
  assert (Hd : (d < length (m_allocs m))%nat) by (apply nth_error_Some; congruence).
  split; cbn [m_allocs].
  - intros d' y Ey. rewrite blocks_on_app. destruct (Nat.eq_dec d d') as [<-|Hne].
    + rewrite nth_error_set_nth_eq in Ey by auto. inversion Ey; subst y. rewrite news_on. exact I'.
    + rewrite nth_error_set_nth_ne in Ey by auto. rewrite news_off, app_nil_r by auto. auto.
  - intros b Hb. rewrite set_nth_length. apply in_app_or in Hb. destruct Hb as [Hb|Hb]; [auto|]. split.
    + destruct (news_good _ _ _ _ Hb) as (b0 & A & B & C). unfold good_size. rewrite B, C. apply Hg; auto.
    + exists d. split; [eapply news_storage; eauto|auto].
Qed.

Lemma filter_valid_set : forall bids i b, (i < length bids)%nat -> valid (nth i bids dflt) = false ->
  valid b = true -> Permutation (filter valid (set_nth i b bids)) (b :: filter valid bids).
Proof.
  induction bids as [|x l IH]; intros i b Hi Hv Hb; [simpl in Hi; lia|].
  destruct i as [|i].
  - cbn [nth] in Hv. cbn [set_nth filter]. rewrite Hb, Hv. reflexivity.
  - cbn [nth] in Hv. cbn [set_nth filter]. cbn [length] in Hi. destruct (valid x).
    + rewrite (IH i b) by (auto; lia). apply perm_swap.
    + apply IH; auto. lia.
Qed.

Lemma scatter_valid : forall d idxs offs bids, NoDup idxs -> length offs = length idxs ->
  (forall i, In i idxs -> (i < length bids)%nat /\ valid (nth i bids dflt) = false) ->
  Permutation (filter valid (scatter d idxs offs bids))
              (filter valid bids ++ news d offs (map (fun i => nth i bids dflt) idxs)).
Proof.
  induction idxs as [|i idxs IH]; intros offs bids Hn Hl Hb; destruct offs as [|o offs]; simpl in Hl; try discriminate.
  - unfold news. simpl. rewrite app_nil_r. reflexivity.
  - inversion Hn as [|? ? Hni Hn']; subst. cbn [scatter]. cbv zeta.
    destruct (Hb i (or_introl eq_refl)) as [Hi Hv].
    set (b := mk_bid (Managed d) o (b_size (nth i bids dflt)) (b_tsize (nth i bids dflt))).
    rewrite IH; auto.
    + rewrite (filter_valid_set bids i b) by auto.
      assert (E : map (fun j => nth j (set_nth i b bids) dflt) idxs = map (fun j => nth j bids dflt) idxs).
      { apply map_ext_in. intros j Hj. apply nth_set_nth_ne. intros ->. auto. }
      rewrite E. unfold news. cbn [map combine]. apply Permutation_middle.
    + intros j Hj. rewrite set_nth_length. destruct (Hb j (or_intror Hj)) as [A B]. split; auto.
      rewrite nth_set_nth_ne; auto. intros ->. auto.
Qed.

Section Oracle.
Variable ok : nat -> bool.

Lemma alloc_on_disks_f_spec : forall disks ds n m bids held,
  NoDup ds -> (forall d, In d ds -> (d < length (m_allocs m))%nat) ->
  length disks = length bids -> (forall b, In b bids -> good_size b) ->
  (forall d i, In d ds -> In i (indices_on d disks) -> valid (nth i bids dflt) = false) ->
  minv m (held ++ filter valid bids) ->
  match alloc_on_disks_f ok n ds disks m bids with
  | (FMOk m' bids', n') =>
      minv m' (held ++ filter valid bids') /\ length (m_allocs m') = length (m_allocs m) /\
      map b_size bids' = map b_size bids /\ map b_tsize bids' = map b_tsize bids /\
      m_current m' - sum_bids (filter valid bids') = m_current m - sum_bids (filter valid bids) /\
      m_total m' - sum_bids (filter valid bids') = m_total m - sum_bids (filter valid bids) /\
      (forall i, valid (nth i bids dflt) = true -> valid (nth i bids' dflt) = true) /\
      (forall d i, In d ds -> In i (indices_on d disks) -> valid (nth i bids' dflt) = true) /\
      all_ok ok n n'
  | (FMThrow m' bids' dropped, n') =>
      minv m' (held ++ filter valid bids' ++ dropped) /\ length (m_allocs m') = length (m_allocs m) /\
      map b_size bids' = map b_size bids /\ map b_tsize bids' = map b_tsize bids /\
      m_current m' - sum_bids (filter valid bids') = m_current m - sum_bids (filter valid bids) /\
      m_total m' - sum_bids (filter valid bids') = m_total m - sum_bids (filter valid bids) /\
      (n <= n')%nat /\
      exists d a, In d ds /\ nth_error (m_allocs m) d = Some a /\
        (forall b, In b dropped -> b_storage b = Managed d) /\
        (length dropped < length (indices_on d disks))%nat /\
        (autogrow a = false /\ free_bytes a < sum_sizes (sizes_on disks bids d) /\ dropped = [] \/
         one_fails ok n n') /\
        (dropped <> [] -> sum_sizes (sizes_on disks bids d) <= free_bytes a)
  | (FMBad, _) => False
  end.
Proof.
  intros disks ds. induction ds as [|d ds IH]; intros n m bids held Hn Hd Hl Hg Hf Hm; cbn [alloc_on_disks_f].
  - csplit; auto; try lia; try (intros ? ? Hx; destruct Hx; fail). apply all_ok_refl.
  - inversion Hn as [|? ? Hnd Hn']; subst. cbv zeta.
    destruct (indices_on d disks) as [|i0 ir] eqn:Ei.
    + specialize (IH n m bids held Hn' (fun x Hx => Hd x (or_intror Hx)) Hl Hg
                     (fun x i Hx => Hf x i (or_intror Hx)) Hm).
      destruct (alloc_on_disks_f ok n ds disks m bids) as [[m' b'|m' b' dr|] n']; auto.
      * destruct IH as (A1 & A2 & A3 & A4 & A5 & A6 & A7 & A8 & A9). csplit; auto.
        intros d' i [<-|Hd'] Hi; [rewrite Ei in Hi; destruct Hi|eauto].
      * destruct IH as (A1 & A2 & A3 & A4 & A5 & A6 & A7 & d1 & a1 & B). csplit; auto.
        exists d1, a1. destruct B as (B1 & B). split; [right; exact B1|exact B].
    + assert (Hnn : indices_on d disks <> []) by (rewrite Ei; discriminate).
      rewrite <- Ei. clear i0 ir Ei.
      destruct (nth_error (m_allocs m) d) as [a|] eqn:Ea.
      2:{ exfalso. apply nth_error_None in Ea. specialize (Hd d (or_introl eq_refl)). lia. }
      set (local := map (fun i => nth i bids dflt) (indices_on d disks)).
      assert (Esz : map b_size local = sizes_on disks bids d).
      { unfold local, sizes_on. rewrite map_map. reflexivity. }
      assert (Hrange : forall i, In i (indices_on d disks) -> (i < length bids)%nat).
      { intros i Hi. apply indices_on_spec in Hi. lia. }
      assert (Hloc : forall b, In b local -> good_size b).
      { intros b Hb. apply in_map_iff in Hb. destruct Hb as (i & <- & Hi). apply Hg, in_nth_bids; auto. }
      assert (Hgb : good_batch (map b_size local)).
      { split.
        - rewrite Esz. unfold sizes_on. destruct (indices_on d disks); [congruence|discriminate].
        - apply Forall_forall. intros s Hs. apply in_map_iff in Hs. destruct Hs as (b & <- & Hb). apply Hloc; auto. }
      assert (Ll : length (map b_size local) = length (indices_on d disks)) by (unfold local; rewrite !map_length; auto).
      pose proof (new_blocks_f_spec ok (S (length (map b_size local))) n a _ (map b_size local)
                    (mi_alloc _ _ Hm d a Ea) Hgb (Nat.lt_succ_diag_r _)) as SP.
      destruct (new_blocks_f ok (S (length (map b_size local))) n a (map b_size local)) as [[a' offs|a' w| |] n1];
        try (destruct SP; fail).
      * destruct SP as (S1 & S2 & S3 & S4 & S5).
        assert (Lo : length offs = length (indices_on d disks)) by congruence.
        destruct (scatter_spec d (indices_on d disks) offs bids (indices_on_nodup _ _) Lo Hrange)
          as (T1 & T2 & T3 & T4).
        assert (Hpre : forall i, In i (indices_on d disks) -> (i < length bids)%nat /\ valid (nth i bids dflt) = false).
        { intros i Hi. split; auto. apply (Hf d i); simpl; auto. }
        pose proof (scatter_valid d (indices_on d disks) offs bids (indices_on_nodup _ _) Lo Hpre) as SV.
        fold local in SV. set (bids1 := scatter d (indices_on d disks) offs bids) in *.
        set (m1 := mk_manager _ _ _ _).
        assert (Mm : minv m1 (held ++ filter valid bids1)).
        { eapply minv_perm; [|exact (minv_update _ _ d a a' offs local _ _ _ Hm Ea S1 Hloc)].
          rewrite <- app_assoc. apply Permutation_app_head. symmetry. exact SV. }
        assert (Hdd : forall x, In x ds -> (x < length (m_allocs m1))%nat).
        { intros x Hx. unfold m1. cbn [m_allocs]. rewrite set_nth_length. apply Hd; simpl; auto. }
        assert (Ms : forall i, b_size (nth i bids1 dflt) = b_size (nth i bids dflt)) by (intros i; apply T3).
        assert (Es1 : map b_size bids1 = map b_size bids).
        { apply (nth_ext _ _ (b_size dflt) (b_size dflt)); [rewrite !map_length; auto|].
          intros i _. rewrite !map_nth. apply T3. }
        assert (Et1 : map b_tsize bids1 = map b_tsize bids).
        { apply (nth_ext _ _ (b_tsize dflt) (b_tsize dflt)); [rewrite !map_length; auto|].
          intros i _. rewrite !map_nth. apply T3. }
        assert (Hg1 : forall b, In b bids1 -> good_size b).
        { intros b Hb. destruct (In_nth _ _ dflt Hb) as (i & Hi & <-). destruct (T3 i) as [X1 X2].
          unfold good_size. rewrite X1, X2. apply Hg, in_nth_bids. congruence. }
        assert (Hnot : forall d' i, In d' ds -> In i (indices_on d' disks) -> ~ In i (indices_on d disks)).
        { intros d' i Hd' Hi Hi2. apply indices_on_nth with (x := O) in Hi. apply indices_on_nth with (x := O) in Hi2.
          assert (d = d') by (destruct Hi, Hi2; congruence). subst d'. auto. }
        assert (Hf1 : forall d' i, In d' ds -> In i (indices_on d' disks) -> valid (nth i bids1 dflt) = false).
        { intros d' i Hd' Hi. rewrite T2 by eauto. apply (Hf d' i); simpl; auto. }
        assert (Hv1 : forall i, In i (indices_on d disks) -> valid (nth i bids1 dflt) = true).
        { intros i Hi. assert (K : In (nth i bids1 dflt) (map (fun i => nth i bids1 dflt) (indices_on d disks)))
            by (apply in_map_iff; eauto).
          rewrite T4 in K. apply in_map_iff in K. destruct K as (io & K & _). rewrite <- K. reflexivity. }
        assert (Hvm : forall i, valid (nth i bids dflt) = true -> valid (nth i bids1 dflt) = true).
        { intros i Hi. destruct (in_dec Nat.eq_dec i (indices_on d disks)) as [Hx|Hx]; [auto|]. rewrite T2; auto. }
        assert (Esum : sum_bids (filter valid bids1) = sum_bids (filter valid bids) + sum_sizes (map b_size local)).
        { rewrite (sum_bids_perm _ _ SV), sum_bids_app, news_sum; auto. rewrite Lo, <- Ll, map_length. auto. }
        specialize (IH n1 m1 bids1 held Hn' Hdd ltac:(congruence) Hg1 Hf1 Mm).
        destruct (alloc_on_disks_f ok n1 ds disks m1 bids1) as [[m' b'|m' b' dr|] n']; auto.
        -- destruct IH as (A1 & A2 & A3 & A4 & A5 & A6 & A7 & A8 & A9).
           unfold m1 in A2, A5, A6. cbn [m_allocs m_current m_total] in A2, A5, A6. rewrite set_nth_length in A2.
           csplit; try congruence; auto; try lia.
           ++ intros d' i [<-|Hd'] Hi; [auto|eauto].
           ++ eapply all_ok_trans; eauto.
        -- destruct IH as (A1 & A2 & A3 & A4 & A5 & A6 & A7 & d1 & x & B1 & B2 & B3 & B4 & B5 & B6).
           unfold m1 in A2, A5, A6, B2. cbn [m_allocs m_current m_total] in A2, A5, A6, B2.
           rewrite set_nth_length in A2.
           assert (d <> d1) by (intros ->; auto). rewrite nth_error_set_nth_ne in B2 by auto.
           assert (Eso : sizes_on disks bids1 d1 = sizes_on disks bids d1).
           { unfold sizes_on. apply map_ext. auto. }
           rewrite Eso in *. destruct S5 as [S5 _].
           csplit; try congruence; auto; try lia.
           exists d1, x. split; [simpl; auto|]. split; [exact B2|]. split; [exact B3|]. split; [exact B4|].
           split; [|exact B6]. destruct B5 as [B5|B5]; [left; exact B5|right].
           apply (one_fails_wide ok _ _ _ _ B5 S5 (le_n _)).
      * destruct SP as (S1 & S2 & S3 & S4 & S5 & S6 & S7).
        assert (Mm : minv (mk_manager (set_nth d a' (m_allocs m)) (m_total m) (m_current m) (m_maximum m))
                          (held ++ filter valid bids ++ news d w local)).
        { rewrite app_assoc. eapply minv_update; eauto. }
        assert (Ld : length (news d w local) = length w).
        { unfold news. rewrite map_length, combine_length. rewrite map_length in S2. lia. }
        csplit; cbn [m_allocs m_current m_total]; try apply set_nth_length; auto.
        exists d, a. split; [simpl; auto|]. split; [exact Ea|]. split; [apply news_storage|].
        split; [fold (given d); change (map (given d) (combine w local)) with (news d w local); lia|].
        rewrite <- Esz. split.
        -- destruct S6 as [(X1 & X2 & X3 & X4)|X]; [left|right; exact X].
           csplit; auto. rewrite X4. reflexivity.
        -- intros Hne. destruct (Z.lt_ge_cases (free_bytes a) (sum_sizes (map b_size local))) as [Hlt|]; [|auto].
           destruct (S7 Hlt) as [_ X]. rewrite X in Hne. exfalso. apply Hne. reflexivity.
Qed.

Lemma filter_all : forall {A} (p : A -> bool) l, (forall x, In x l -> p x = true) -> filter p l = l.
Proof. induction l as [|x l IH]; intros H; simpl; auto. rewrite (H x) by (simpl; auto). f_equal. apply IH. intros; apply H; simpl; auto. Qed.
Lemma filter_none : forall {A} (p : A -> bool) l, (forall x, In x l -> p x = false) -> filter p l = [].
Proof. induction l as [|x l IH]; intros H; simpl; auto. rewrite (H x) by (simpl; auto). apply IH. intros; apply H; simpl; auto. Qed.

Lemma manager_new_f_spec : forall n m X f off bids, minv m X ->
  (forall i, (f i < length (m_allocs m))%nat) ->
  (forall b, In b bids -> good_size b) -> (forall b, In b bids -> valid b = false) ->
  match manager_new_f ok n m f off bids with
  | (FMOk m' bids', n') =>
      minv m' (X ++ bids') /\ filter valid bids' = bids' /\ length (m_allocs m') = length (m_allocs m) /\
      map b_size bids' = map b_size bids /\ map b_tsize bids' = map b_tsize bids /\
      m_current m' = m_current m + sum_bids bids' /\
      m_total m' = m_total m + sum_bids bids' /\ all_ok ok n n'
  | (FMThrow m' bids' dropped, n') =>
      minv m' (X ++ filter valid bids' ++ dropped) /\ length (m_allocs m') = length (m_allocs m) /\
      map b_size bids' = map b_size bids /\ map b_tsize bids' = map b_tsize bids /\
      m_current m' = m_current m + sum_bids (filter valid bids') /\
      m_total m' = m_total m + sum_bids (filter valid bids') /\ (n <= n')%nat /\
      exists disks d a, choose_disks f (m_allocs m) (repeat 0 (length (m_allocs m))) off (map b_size bids) = Some disks /\
        nth_error (m_allocs m) d = Some a /\
        (forall b, In b dropped -> b_storage b = Managed d) /\
        (length dropped < length (indices_on d disks))%nat /\
        (autogrow a = false /\ free_bytes a < sum_sizes (sizes_on disks bids d) /\ dropped = [] \/
         one_fails ok n n') /\
        (dropped <> [] -> sum_sizes (sizes_on disks bids d) <= free_bytes a)
  | (FMBad, _) => False
  end.
Proof.
  intros n m X f off bids Hm Hf Hg Hv. unfold manager_new_f. cbv zeta.
  destruct (choose_disks_some f (m_allocs m) (map b_size bids) (repeat 0 (length (m_allocs m))) off Hf) as (disks & E).
  rewrite E. destruct (choose_disks_spec f (m_allocs m) (map b_size bids) _ off disks (repeat_length _ _) E) as (Hl & Hch).
  rewrite map_length in Hl.
  assert (Fn : filter valid bids = []) by (apply filter_none; auto).
  assert (Hf0 : forall d i, In d (seq 0 (length (m_allocs m))) -> In i (indices_on d disks) -> valid (nth i bids dflt) = false).
  { intros d i _ Hi. apply indices_on_spec in Hi. apply Hv, nth_In. lia. }
  assert (Hd0 : forall d, In d (seq 0 (length (m_allocs m))) -> (d < length (m_allocs m))%nat).
  { intros d Hd. apply in_seq in Hd. lia. }
  assert (Hm0 : minv m (X ++ filter valid bids)) by (rewrite Fn, app_nil_r; auto).
  pose proof (alloc_on_disks_f_spec disks (seq 0 (length (m_allocs m))) n m bids X (seq_NoDup _ _) Hd0 Hl Hg Hf0 Hm0) as SP.
  rewrite Fn in SP. change (sum_bids []) with 0 in SP.
  destruct (alloc_on_disks_f ok n (seq 0 (length (m_allocs m))) disks m bids) as [[m' b'|m' b' dr|] n']; [| |destruct SP].
  - destruct SP as (A1 & A2 & A3 & A4 & A5 & A6 & A7 & A8 & A9).
    assert (Lb : length b' = length bids) by (apply (f_equal (@length Z)) in A3; rewrite !map_length in A3; auto).
    assert (Fv : filter valid b' = b').
    { apply filter_all. intros b Hb. destruct (In_nth _ _ dflt Hb) as (i & Hi & <-).
      assert (Hx : exists s, nth_error (map b_size bids) i = Some s).
      { destruct (nth_error (map b_size bids) i) eqn:K; eauto. apply nth_error_None in K. rewrite map_length in K. lia. }
      destruct Hx as (s & Hx). destruct (Hch i s Hx) as (d & _ & Q & _ & Q2 & _).
      apply (A8 d i); [apply in_seq; lia|]. apply indices_on_nth with (x := O).
      split; [lia|]. apply nth_error_nth with (d := O) in Q. exact Q. }
    rewrite Fv in *. cbn [m_allocs m_current m_total]. csplit; auto; try lia.
    destruct A1 as [B1 B2]. split; auto.
  - destruct SP as (A1 & A2 & A3 & A4 & A5 & A6 & A7 & d & a & B1 & B).
    csplit; auto; try lia. exists disks, d, a. split; [reflexivity|]. exact B.
Qed.

(** * Clients *)
Definition ginv (n : nat) (c : gclient) : Prop :=
  minv (gc_m c) (gc_held c ++ gc_lost c) /\ length (m_allocs (gc_m c)) = n.

Lemma gstep_inv : forall n c o, ginv n c -> valid_mop n o ->
  match gclient_step ok c o with
  | GOk c' => ginv n c' /\ gc_lost c' = gc_lost c
  | GThrow c' => ginv n c' /\ exists dr, gc_lost c' = gc_lost c ++ dr
  | GBad => False
  end.
Proof.
  intros n c o (I & L) Hv. destruct o as [tsize f off sizes|i]; cbn [gclient_step].
  - destruct (valid_mop_fresh _ _ _ _ _ Hv) as (V1 & V2 & V3 & V4). rewrite <- L in V1.
    pose proof (manager_new_f_spec (gc_calls c) (gc_m c) _ f off _ I V1 V2 V3) as SP.
    destruct (manager_new_f ok (gc_calls c) (gc_m c) f off (map (fresh_bid tsize) sizes)) as [[m' b'|m' b' dr|] n']; auto.
    + destruct SP as (A1 & A2 & A3 & _). rewrite A2. unfold ginv. cbn. csplit; auto; try congruence.
      eapply minv_perm; [|exact A1]. rewrite <- !app_assoc. apply Permutation_app_head, Permutation_app_comm.
    + destruct SP as (A1 & A2 & _). unfold ginv. cbn. csplit; eauto; try congruence.
      eapply minv_perm; [|exact A1]. rewrite <- !app_assoc. apply Permutation_app_head.
      rewrite !app_assoc. apply Permutation_app_tail, Permutation_app_comm.
  - destruct (nth_error (gc_held c) i) as [b|] eqn:E; [|unfold ginv; auto].
    pose proof (remove_nth_perm _ _ _ E) as P.
    assert (P2 : Permutation (gc_held c ++ gc_lost c) (b :: remove_nth i (gc_held c) ++ gc_lost c)).
    { change (b :: remove_nth i (gc_held c) ++ gc_lost c) with ((b :: remove_nth i (gc_held c)) ++ gc_lost c).
      apply Permutation_app_tail. exact P. }
    apply (minv_perm _ _ _ P2) in I.
    destruct (manager_delete_ok _ _ _ I) as (m' & E1 & M & D1 & D2 & D3 & D4 & _).
    rewrite E1. unfold ginv; cbn. csplit; auto; congruence.
Qed.

Lemma ghistory_inv : forall n c ops c', ghistory ok n c ops c' -> ginv n c ->
  ginv n c' /\ exists dr, gc_lost c' = gc_lost c ++ dr.
Proof.
  intros n c ops c' H. induction H as [c|c o c1 ops c2 Hv Hs Hh IH|c o c1 ops c2 Hv Hs Hh IH]; intros I.
  - split; auto. exists []. rewrite app_nil_r. auto.
  - pose proof (gstep_inv _ _ _ I Hv) as K. rewrite Hs in K. destruct K as [K1 K2].
    destruct (IH K1) as (J1 & dr & J2). split; auto. exists dr. congruence.
  - pose proof (gstep_inv _ _ _ I Hv) as K. rewrite Hs in K. destruct K as [K1 (d0 & K2)].
    destruct (IH K1) as (J1 & dr & J2). split; auto. exists (d0 ++ dr). rewrite app_assoc. congruence.
Qed.

Lemma gstart_inv : forall cfgs m, sane cfgs -> new_manager cfgs = Ret m -> ginv (length cfgs) (gstart m).
Proof.
  intros cfgs m H E. destruct (start_inv cfgs m H E) as (A & B & _). split; auto.
Qed.

Lemma greach_inv : forall cfgs c, greachable ok cfgs c -> ginv (length cfgs) c.
Proof.
  intros cfgs c (H & m & ops & E & Hh). eapply ghistory_inv; eauto. eapply gstart_inv; eauto.
Qed.

Lemma ghistory_app : forall n c ops c1, ghistory ok n c ops c1 -> forall ops2 c2, ghistory ok n c1 ops2 c2 ->
  ghistory ok n c (ops ++ ops2) c2.
Proof.
  intros n c ops c1 H. induction H as [c|c o c1 ops c2 Hv Hs Hh IH|c o c1 ops c2 Hv Hs Hh IH]; intros ops2 c3 H2; auto; cbn [app].
  - eapply gh_ok; eauto.
  - eapply gh_throw; eauto.
Qed.

(** * Counters *)
Definition gfixed (c : gclient) : Prop :=
  m_current (gc_m c) = sum_bids (gc_held c) /\ forall b, In b (gc_held c) -> b_tsize b = b_size b.

Lemma tsize_eq : forall n tsize f off sizes (b' : list bid), valid_mop n (MNew tsize f off sizes) -> tsize <> 0 ->
  map b_size b' = map b_size (map (fresh_bid tsize) sizes) ->
  map b_tsize b' = map b_tsize (map (fresh_bid tsize) sizes) ->
  forall b, In b b' -> b_tsize b = b_size b.
Proof.
  intros n tsize f off sizes b' [_ Hv] Ht E1 E2. rewrite !map_map in E1, E2. cbn in E1, E2. rewrite map_id in E1.
  revert b' E1 E2. induction sizes as [|s sizes IH]; intros b' E1 E2 b Hb.
  - destruct b' as [|x b']; [destruct Hb|discriminate].
  - destruct b' as [|x b']; [destruct Hb|]. cbn [map] in E1, E2.
    injection E1 as X1 X2. injection E2 as Y1 Y2. destruct Hb as [<-|Hb].
    + destruct (Hv s (or_introl eq_refl)) as [_ [K|K]]; congruence.
    + apply (IH (fun s Hs => Hv s (or_intror Hs)) b'); auto.
Qed.

Lemma gstep_fixed : forall n c o, ginv n c -> gfixed c -> valid_mop n o -> fixed_size_op o ->
  match gclient_step ok c o with GOk c' | GThrow c' => gfixed c' | GBad => False end.
Proof.
  intros n c o (I & L) [F1 F2] Hv Hf. destruct o as [tsize f off sizes|i]; cbn [gclient_step].
  - destruct (valid_mop_fresh _ _ _ _ _ Hv) as (V1 & V2 & V3 & V4). rewrite <- L in V1.
    pose proof (manager_new_f_spec (gc_calls c) (gc_m c) _ f off _ I V1 V2 V3) as SP.
    destruct (manager_new_f ok (gc_calls c) (gc_m c) f off (map (fresh_bid tsize) sizes)) as [[m' b'|m' b' dr|] n']; auto.
    + destruct SP as (A1 & A2 & A3 & A4 & A5 & A6 & _). rewrite A2. split; cbn [gc_m gc_held].
      * rewrite sum_bids_app. lia.
      * intros b Hb. apply in_app_or in Hb. destruct Hb as [Hb|Hb]; [auto|].
        eapply tsize_eq; eauto.
    + destruct SP as (A1 & A2 & A3 & A4 & A5 & _). split; cbn [gc_m gc_held].
      * rewrite sum_bids_app. lia.
      * intros b Hb. apply in_app_or in Hb. destruct Hb as [Hb|Hb]; [auto|].
        apply filter_In in Hb. destruct Hb as [Hb _]. eapply tsize_eq; eauto.
  - destruct (nth_error (gc_held c) i) as [b|] eqn:E; [|split; auto].
    pose proof (remove_nth_perm _ _ _ E) as P.
    assert (P2 : Permutation (gc_held c ++ gc_lost c) (b :: remove_nth i (gc_held c) ++ gc_lost c)).
    { change (b :: remove_nth i (gc_held c) ++ gc_lost c) with ((b :: remove_nth i (gc_held c)) ++ gc_lost c).
      apply Permutation_app_tail. exact P. }
    apply (minv_perm _ _ _ P2) in I.
    destruct (manager_delete_ok _ _ _ I) as (m' & E1 & M & D1 & D2 & D3 & D4 & _).
    rewrite E1. split; cbn [gc_m gc_held].
    + rewrite D2, F1, (sum_bids_perm _ _ P), (F2 b) by (eapply nth_error_In; eauto).
      unfold sum_bids. simpl. lia.
    + intros x Hx. apply F2. eapply In_remove_nth; eauto.
Qed.

Lemma ghistory_fixed : forall n c ops c', ghistory ok n c ops c' -> ginv n c -> gfixed c ->
  (forall o, In o ops -> fixed_size_op o) -> gfixed c'.
Proof.
  intros n c ops c' H. induction H as [c|c o c1 ops c2 Hv Hs Hh IH|c o c1 ops c2 Hv Hs Hh IH]; intros I F Ho; auto;
    pose proof (gstep_inv _ _ _ I Hv) as K1; pose proof (gstep_fixed _ _ _ I F Hv (Ho o (or_introl eq_refl))) as K2;
    rewrite Hs in K1, K2; destruct K1 as [K1 _]; apply IH; auto; intros o' Ho'; apply Ho; simpl; auto.
Qed.

(** * Blocks of one size *)
Definition gmult (b : Z) (c : gclient) : Prop :=
  gc_lost c = [] /\
  (forall x, In x (gc_held c) -> (b | b_offset x) /\ (b | b_size x)) /\
  (forall d a, nth_error (m_allocs (gc_m c)) d = Some a -> (b | disk_bytes a)).

Lemma blocks_mult : forall b X d, (forall x, In x X -> (b | b_offset x) /\ (b | b_size x)) -> live_mult b (blocks_on d X).
Proof.
  intros b X d H o s Hin. apply in_map_iff in Hin. destruct Hin as (x & E & Hx). unfold range_of in E. inversion E; subst.
  apply filter_In in Hx. apply H. tauto.
Qed.

Lemma alloc_on_disks_f_mult : forall b disks ds n m bids held,
  NoDup ds -> (forall d, In d ds -> (d < length (m_allocs m))%nat) ->
  length disks = length bids -> (forall x, In x bids -> good_size x /\ b_size x = b) ->
  (forall d i, In d ds -> In i (indices_on d disks) -> valid (nth i bids dflt) = false) ->
  minv m (held ++ filter valid bids) ->
  (forall x, In x (held ++ filter valid bids) -> (b | b_offset x) /\ (b | b_size x)) ->
  (forall d a, nth_error (m_allocs m) d = Some a -> (b | disk_bytes a)) ->
  match alloc_on_disks_f ok n ds disks m bids with
  | (FMOk m' bids', _) =>
      (forall x, In x (held ++ filter valid bids') -> (b | b_offset x) /\ (b | b_size x)) /\
      (forall d a, nth_error (m_allocs m') d = Some a -> (b | disk_bytes a))
  | (FMThrow m' bids' dropped, _) => dropped = [] /\
      (forall x, In x (held ++ filter valid bids') -> (b | b_offset x) /\ (b | b_size x)) /\
      (forall d a, nth_error (m_allocs m') d = Some a -> (b | disk_bytes a))
  | (FMBad, _) => True
  end.
Proof.
  intros b disks ds. induction ds as [|d ds IH]; intros n m bids held Hn Hd Hl Hg Hf Hm Hx Hb; cbn [alloc_on_disks_f].
  - auto.
  - inversion Hn as [|? ? Hnd Hn']; subst. cbv zeta.
    destruct (indices_on d disks) as [|i0 ir] eqn:Ei.
    + apply (IH n m bids held Hn' (fun x Hx => Hd x (or_intror Hx)) Hl Hg (fun x i Hx => Hf x i (or_intror Hx)) Hm Hx Hb).
    + assert (Hnn : indices_on d disks <> []) by (rewrite Ei; discriminate).
      rewrite <- Ei. clear i0 ir Ei.
      destruct (nth_error (m_allocs m) d) as [a|] eqn:Ea; [|auto].
      set (local := map (fun i => nth i bids dflt) (indices_on d disks)).
      assert (Esz : map b_size local = sizes_on disks bids d).
      { unfold local, sizes_on. rewrite map_map. reflexivity. }
      assert (Hrange : forall i, In i (indices_on d disks) -> (i < length bids)%nat).
      { intros i Hi. apply indices_on_spec in Hi. lia. }
      assert (Hloc : forall x, In x local -> good_size x /\ b_size x = b).
      { intros x Hin. apply in_map_iff in Hin. destruct Hin as (i & <- & Hi). apply Hg, in_nth_bids; auto. }
      assert (Hgb : good_batch (map b_size local)).
      { split.
        - rewrite Esz. unfold sizes_on. destruct (indices_on d disks); [congruence|discriminate].
        - apply Forall_forall. intros s Hs. apply in_map_iff in Hs. destruct Hs as (x & <- & Hin). apply Hloc; auto. }
      assert (Hsb : forall s, In s (map b_size local) -> s = b).
      { intros s Hs. apply in_map_iff in Hs. destruct Hs as (x & <- & Hin). apply Hloc; auto. }
      assert (Ll : length (map b_size local) = length (indices_on d disks)) by (unfold local; rewrite !map_length; auto).
      pose proof (new_blocks_f_spec ok (S (length (map b_size local))) n a _ (map b_size local)
                    (mi_alloc _ _ Hm d a Ea) Hgb (Nat.lt_succ_diag_r _)) as SP.
      pose proof (new_blocks_f_mult ok b (S (length (map b_size local))) n a _ (map b_size local)
                    (mi_alloc _ _ Hm d a Ea) Hgb (Nat.lt_succ_diag_r _) (blocks_mult _ _ d Hx) (Hb d a Ea) Hsb) as MU.
      destruct (new_blocks_f ok (S (length (map b_size local))) n a (map b_size local)) as [[a' offs|a' w| |] n1]; auto.
      * destruct SP as (S1 & S2 & S3 & S4 & S5). destruct MU as [MU1 MU2].
        assert (Lo : length offs = length (indices_on d disks)) by congruence.
        destruct (scatter_spec d (indices_on d disks) offs bids (indices_on_nodup _ _) Lo Hrange)
          as (T1 & T2 & T3 & T4).
        assert (Hpre : forall i, In i (indices_on d disks) -> (i < length bids)%nat /\ valid (nth i bids dflt) = false).
        { intros i Hi. split; auto. apply (Hf d i); simpl; auto. }
        pose proof (scatter_valid d (indices_on d disks) offs bids (indices_on_nodup _ _) Lo Hpre) as SV.
        fold local in SV. set (bids1 := scatter d (indices_on d disks) offs bids) in *.
        set (m1 := mk_manager _ _ _ _).
        assert (Hloc' : forall x, In x local -> good_size x) by (intros x Hin; apply Hloc; auto).
        assert (Mm : minv m1 (held ++ filter valid bids1)).
        { eapply minv_perm; [|exact (minv_update _ _ d a a' offs local _ _ _ Hm Ea S1 Hloc')].
          rewrite <- app_assoc. apply Permutation_app_head. symmetry. exact SV. }
        apply (IH n1 m1 bids1 held); auto.
        -- intros x Hin. unfold m1. cbn [m_allocs]. rewrite set_nth_length. apply Hd; simpl; auto.
        -- congruence.
        -- intros x Hin. destruct (In_nth _ _ dflt Hin) as (i & Hi & <-). destruct (T3 i) as [X1 X2].
           unfold good_size. rewrite X1, X2. apply Hg, in_nth_bids. congruence.
        -- intros d' i Hd' Hi. rewrite T2.
           ++ apply (Hf d' i); simpl; auto.
           ++ intros Hi2. apply indices_on_nth with (x := O) in Hi. apply indices_on_nth with (x := O) in Hi2.
              assert (d = d') by (destruct Hi, Hi2; congruence). subst d'. auto.
        -- intros x Hin.
           assert (Q : In x ((held ++ filter valid bids) ++ news d offs local)).
           { apply in_app_or in Hin. rewrite <- app_assoc. destruct Hin as [Hin|Hin]; apply in_or_app; [auto|right].
             eapply Permutation_in; [exact SV|exact Hin]. }
           apply in_app_or in Q. destruct Q as [Q|Q]; [auto|].
           assert (Q2 : In (b_offset x, b_size x) (blocks_on d (news d offs local))).
           { apply in_map_iff. exists x. split; auto. apply filter_In. split; auto. unfold on_disk.
             rewrite (news_storage _ _ _ _ Q), Nat.eqb_refl. auto. }
           rewrite news_on in Q2. apply (MU1 (b_offset x) (b_size x)). apply in_or_app. auto.
        -- intros d' y Ey. unfold m1 in Ey. cbn [m_allocs] in Ey. destruct (Nat.eq_dec d d') as [<-|Hne].
           ++ rewrite nth_error_set_nth_eq in Ey by (apply Hd; simpl; auto). inversion Ey; subst. auto.
           ++ rewrite nth_error_set_nth_ne in Ey by auto. eapply Hb; eauto.
      * destruct SP as (S1 & S2 & S3 & S4 & S5 & S6 & S7). destruct (S7 MU) as [-> ->].
        cbn [combine map m_allocs]. csplit; auto. intros d' y Ey. rewrite set_nth_same in Ey by auto. eapply Hb; eauto.
Qed.

Lemma gstep_mult : forall b n c o, ginv n c -> gmult b c -> valid_mop n o -> uniform_op b o ->
  match gclient_step ok c o with GOk c' | GThrow c' => gmult b c' | GBad => False end.
Proof.
  intros b n c o (I & L) (F1 & F2 & F3) Hv Hu. destruct o as [tsize f off sizes|i]; cbn [gclient_step].
  - destruct (valid_mop_fresh _ _ _ _ _ Hv) as (V1 & V2 & V3 & V4). rewrite <- L in V1.
    pose proof (manager_new_f_spec (gc_calls c) (gc_m c) _ f off _ I V1 V2 V3) as SP.
    rewrite F1, app_nil_r in I.
    assert (Fn : filter valid (map (fresh_bid tsize) sizes) = []) by (apply filter_none; auto).
    assert (Hm0 : minv (gc_m c) (gc_held c ++ filter valid (map (fresh_bid tsize) sizes))) by (rewrite Fn, app_nil_r; auto).
    unfold manager_new_f in *. cbv zeta in *.
    destruct (choose_disks f (m_allocs (gc_m c)) (repeat 0 (length (m_allocs (gc_m c)))) off
                (map b_size (map (fresh_bid tsize) sizes))) as [disks|] eqn:E; [|destruct SP].
    destruct (choose_disks_spec f (m_allocs (gc_m c)) _ _ off disks (repeat_length _ _) E) as (Hl & _).
    rewrite map_length in Hl.
    assert (Hgs : forall x, In x (map (fresh_bid tsize) sizes) -> good_size x /\ b_size x = b).
    { intros x Hx. split; auto. apply in_map_iff in Hx. destruct Hx as (s & <- & Hs). cbn. apply Hu; auto. }
    assert (Hf0 : forall d i, In d (seq 0 (length (m_allocs (gc_m c)))) -> In i (indices_on d disks) ->
              valid (nth i (map (fresh_bid tsize) sizes) dflt) = false).
    { intros d i _ Hi. apply indices_on_spec in Hi. apply V3, nth_In. lia. }
    assert (Hd0 : forall d, In d (seq 0 (length (m_allocs (gc_m c)))) -> (d < length (m_allocs (gc_m c)))%nat).
    { intros d Hd. apply in_seq in Hd. lia. }
    assert (Hx0 : forall x, In x (gc_held c ++ filter valid (map (fresh_bid tsize) sizes)) -> (b | b_offset x) /\ (b | b_size x)).
    { rewrite Fn, app_nil_r. auto. }
    pose proof (alloc_on_disks_f_mult b disks _ (gc_calls c) (gc_m c) _ (gc_held c) (seq_NoDup _ _) Hd0 Hl Hgs Hf0 Hm0 Hx0 F3) as MU.
    destruct (alloc_on_disks_f ok (gc_calls c) (seq 0 (length (m_allocs (gc_m c)))) disks (gc_m c)
                (map (fresh_bid tsize) sizes)) as [[m' b'|m' b' dr|] n']; [| |destruct SP].
    + destruct MU as [M1 M2]. unfold gmult. cbn. auto.
    + destruct MU as (-> & M1 & M2). unfold gmult. cbn. rewrite F1. auto.
  - destruct (nth_error (gc_held c) i) as [x|] eqn:E; [|unfold gmult; auto].
    pose proof (remove_nth_perm _ _ _ E) as P. rewrite F1, app_nil_r in I.
    apply (minv_perm _ _ _ P) in I.
    destruct (manager_delete_ok _ _ _ I) as (m' & E1 & M & D1 & D2 & D3 & D4 & D5).
    rewrite E1. unfold gmult; cbn. csplit; auto.
    + intros y Hy. apply F2. eapply In_remove_nth; eauto.
    + intros d a' Ea'.
      assert (Hx : exists a, nth_error (m_allocs (gc_m c)) d = Some a).
      { destruct (nth_error (m_allocs (gc_m c)) d) eqn:K; eauto. apply nth_error_None in K.
        assert (d < length (m_allocs m'))%nat by (apply nth_error_Some; congruence). lia. }
      destruct Hx as (a & Ea). destruct (D5 d a Ea) as (a2 & X1 & X2 & X3).
      assert (a2 = a') by congruence. subst a2. rewrite X3. eapply F3; eauto.
Qed.

Lemma ghistory_mult : forall b n c ops c', ghistory ok n c ops c' -> ginv n c -> gmult b c ->
  (forall o, In o ops -> uniform_op b o) -> gmult b c'.
Proof.
  intros b n c ops c' H. induction H as [c|c o c1 ops c2 Hv Hs Hh IH|c o c1 ops c2 Hv Hs Hh IH]; intros I F Ho; auto;
    pose proof (gstep_inv _ _ _ I Hv) as K1; pose proof (gstep_mult b _ _ _ I F Hv (Ho o (or_introl eq_refl))) as K2;
    rewrite Hs in K1, K2; destruct K1 as [K1 _]; apply IH; auto; intros o' Ho'; apply Ho; simpl; auto.
Qed.

Lemma gstart_mult : forall b cfgs m, sane cfgs -> (forall s g, In (s, g) cfgs -> (b | s)) ->
  new_manager cfgs = Ret m -> gmult b (gstart m).
Proof.
  intros b cfgs m H Hb E. unfold new_manager in E. destruct (new_allocators_ok cfgs H) as (l & El & L & Q).
  rewrite El in E. inversion E; subst m. unfold gmult, gstart. cbn. csplit; auto; [tauto|].
  intros d a Ea. destruct (Q d a Ea) as (_ & s & g & E1 & E2).
  destruct (new_allocator_inv s g a (H s g (nth_error_In _ _ E1)) E2) as [_ D].
  rewrite D. eapply Hb, nth_error_In; eauto.
Qed.

(** * Calls in which no growth fails *)
Definition mr_of (r : fmresult) : mresult :=
  match r with FMOk m b => MOk m b | FMThrow m b _ => MThrow m b | FMBad => MBad end.
Definition dropped_of (r : fmresult) : list bid :=
  match r with FMThrow _ _ dr => dr | _ => [] end.

Lemma alloc_on_disks_f_same : forall disks ds n m bids held r n',
  NoDup ds -> (forall d, In d ds -> (d < length (m_allocs m))%nat) ->
  length disks = length bids -> (forall b, In b bids -> good_size b) ->
  (forall d i, In d ds -> In i (indices_on d disks) -> valid (nth i bids dflt) = false) ->
  minv m (held ++ filter valid bids) ->
  alloc_on_disks_f ok n ds disks m bids = (r, n') ->
  (n <= n')%nat /\ (one_fails ok n n' \/ mr_of r = alloc_on_disks ds disks m bids /\ dropped_of r = []).
Proof.
  intros disks ds. induction ds as [|d ds IH]; intros n m bids held r n' Hn Hd Hl Hg Hf Hm E;
    cbn [alloc_on_disks_f alloc_on_disks] in *.
  - inversion E; subst. split; auto.
  - inversion Hn as [|? ? Hnd Hn']; subst. cbv zeta in *.
    destruct (indices_on d disks) as [|i0 ir] eqn:Ei.
    + apply (IH n m bids held r n' Hn' (fun x Hx => Hd x (or_intror Hx)) Hl Hg (fun x i Hx => Hf x i (or_intror Hx)) Hm E).
    + assert (Hnn : indices_on d disks <> []) by (rewrite Ei; discriminate).
      rewrite <- Ei in *. clear i0 ir Ei.
      destruct (nth_error (m_allocs m) d) as [a|] eqn:Ea; [|inversion E; subst; auto].
      set (local := map (fun i => nth i bids dflt) (indices_on d disks)) in *.
      assert (Esz : map (fun i => b_size (nth i bids dflt)) (indices_on d disks) = map b_size local).
      { unfold local. rewrite map_map. reflexivity. }
      rewrite Esz.
      assert (Hrange : forall i, In i (indices_on d disks) -> (i < length bids)%nat).
      { intros i Hi. apply indices_on_spec in Hi. lia. }
      assert (Hloc : forall x, In x local -> good_size x).
      { intros x Hin. apply in_map_iff in Hin. destruct Hin as (i & <- & Hi). apply Hg, in_nth_bids; auto. }
      assert (Hgb : good_batch (map b_size local)).
      { split.
        - unfold local. destruct (indices_on d disks); [congruence|discriminate].
        - apply Forall_forall. intros s Hs. apply in_map_iff in Hs. destruct Hs as (x & <- & Hin). apply Hloc; auto. }
      assert (Ll : length (map b_size local) = length (indices_on d disks)) by (unfold local; rewrite !map_length; auto).
      pose proof (new_blocks_f_spec ok (S (length (map b_size local))) n a _ (map b_size local)
                    (mi_alloc _ _ Hm d a Ea) Hgb (Nat.lt_succ_diag_r _)) as SP.
      destruct (new_blocks_f ok (S (length (map b_size local))) n a (map b_size local)) as [r1 n1] eqn:E1.
      pose proof (new_blocks_f_same ok _ _ _ _ _ _ _ (mi_alloc _ _ Hm d a Ea) Hgb (Nat.lt_succ_diag_r _) E1) as SS.
      unfold new_blocks. destruct r1 as [a' offs|a' w| |]; try (destruct SP; fail).
      * destruct SP as (S1 & S2 & S3 & S4 & [S5 _]).
        assert (Lo : length offs = length (indices_on d disks)) by congruence.
        destruct (scatter_spec d (indices_on d disks) offs bids (indices_on_nodup _ _) Lo Hrange)
          as (T1 & T2 & T3 & T4).
        assert (Hpre : forall i, In i (indices_on d disks) -> (i < length bids)%nat /\ valid (nth i bids dflt) = false).
        { intros i Hi. split; auto. apply (Hf d i); simpl; auto. }
        pose proof (scatter_valid d (indices_on d disks) offs bids (indices_on_nodup _ _) Lo Hpre) as SV.
        fold local in SV. set (bids1 := scatter d (indices_on d disks) offs bids) in *.
        set (m1 := mk_manager _ _ _ _) in *.
        assert (Mm : minv m1 (held ++ filter valid bids1)).
        { eapply minv_perm; [|exact (minv_update _ _ d a a' offs local _ _ _ Hm Ea S1 Hloc)].
          rewrite <- app_assoc. apply Permutation_app_head. symmetry. exact SV. }
        assert (Q : (n1 <= n')%nat /\ (one_fails ok n1 n' \/ mr_of r = alloc_on_disks ds disks m1 bids1 /\ dropped_of r = [])).
        { apply (IH n1 m1 bids1 held r n'); auto.
          - intros x Hin. unfold m1. cbn [m_allocs]. rewrite set_nth_length. apply Hd; simpl; auto.
          - congruence.
          - intros x Hin. destruct (In_nth _ _ dflt Hin) as (i & Hi & <-). destruct (T3 i) as [X1 X2].
            unfold good_size. rewrite X1, X2. apply Hg, in_nth_bids. congruence.
          - intros d' i Hd' Hi. rewrite T2.
            + apply (Hf d' i); simpl; auto.
            + intros Hi2. apply indices_on_nth with (x := O) in Hi. apply indices_on_nth with (x := O) in Hi2.
              assert (d = d') by (destruct Hi, Hi2; congruence). subst d'. auto. }
        destruct Q as [Q1 Q2]. split; [lia|].
        destruct SS as [SS|SS]; [left; eapply one_fails_wide; [exact SS|lia|lia]|].
        destruct Q2 as [Q2|Q2]; [left; eapply one_fails_wide; [exact Q2|lia|lia]|].
        right. rewrite <- SS. cbn [res_of]. exact Q2.
      * destruct SP as (S1 & S2 & S3 & S4 & S5 & S6 & S7). inversion E; subst. split; [lia|].
        destruct SS as [SS|SS]; [auto|]. destruct S6 as [(_ & _ & -> & ->)|S6]; [|auto]. right.
        rewrite <- SS. cbn [res_of mr_of dropped_of combine map]. auto.
Qed.

Lemma gstep_same : forall n c o ever del0, ginv n c -> valid_mop n o ->
  match gclient_step ok c o with
  | GOk c' => one_fails ok (gc_calls c) (gc_calls c') \/
      exists ever' del0', mclient_step (mk_mclient (gc_m c) (gc_held c) ever del0) o =
        StepOk (mk_mclient (gc_m c') (gc_held c') ever' del0')
  | GThrow c' => one_fails ok (gc_calls c) (gc_calls c') \/ gc_lost c' = gc_lost c /\
      exists ever' del0', mclient_step (mk_mclient (gc_m c) (gc_held c) ever del0) o =
        StepThrow (mk_mclient (gc_m c') (gc_held c') ever' del0')
  | GBad => False
  end.
Proof.
  intros n c o ever del0 (I & L) Hv. destruct o as [tsize f off sizes|i]; cbn [gclient_step mclient_step mc_m mc_held mc_ever mc_deleted0].
  - destruct (valid_mop_fresh _ _ _ _ _ Hv) as (V1 & V2 & V3 & V4). rewrite <- L in V1.
    pose proof (manager_new_f_spec (gc_calls c) (gc_m c) _ f off _ I V1 V2 V3) as SP.
    assert (Fn : filter valid (map (fresh_bid tsize) sizes) = []) by (apply filter_none; auto).
    assert (Hm0 : minv (gc_m c) ((gc_held c ++ gc_lost c) ++ filter valid (map (fresh_bid tsize) sizes))) by (rewrite Fn, app_nil_r; auto).
    unfold manager_new_f, manager_new_blocks in *. cbv zeta in *.
    destruct (choose_disks f (m_allocs (gc_m c)) (repeat 0 (length (m_allocs (gc_m c)))) off
                (map b_size (map (fresh_bid tsize) sizes))) as [disks|] eqn:E; [|destruct SP].
    destruct (choose_disks_spec f (m_allocs (gc_m c)) _ _ off disks (repeat_length _ _) E) as (Hl & _).
    rewrite map_length in Hl.
    assert (Hf0 : forall d i, In d (seq 0 (length (m_allocs (gc_m c)))) -> In i (indices_on d disks) ->
              valid (nth i (map (fresh_bid tsize) sizes) dflt) = false).
    { intros d i _ Hi. apply indices_on_spec in Hi. apply V3, nth_In. lia. }
    assert (Hd0 : forall d, In d (seq 0 (length (m_allocs (gc_m c)))) -> (d < length (m_allocs (gc_m c)))%nat).
    { intros d Hd. apply in_seq in Hd. lia. }
    destruct (alloc_on_disks_f ok (gc_calls c) (seq 0 (length (m_allocs (gc_m c)))) disks (gc_m c)
                (map (fresh_bid tsize) sizes)) as [r n'] eqn:Er.
    destruct (alloc_on_disks_f_same disks _ (gc_calls c) (gc_m c) _ _ r n' (seq_NoDup _ _) Hd0 Hl V2 Hf0 Hm0 Er) as [_ SS].
    destruct r as [m' b'|m' b' dr|]; [| |destruct SP]; cbn [gc_calls gc_m gc_held gc_lost].
    + destruct SS as [SS|[SS _]]; [auto|right]. rewrite <- SS. cbn [mr_of]. eauto.
    + destruct SS as [SS|[SS SD]]; [auto|right]. rewrite <- SS. cbn [mr_of dropped_of] in *. subst dr.
      rewrite app_nil_r. split; eauto.
  - destruct (nth_error (gc_held c) i) as [b|] eqn:E; [|right; eauto].
    pose proof (remove_nth_perm _ _ _ E) as P.
    assert (P2 : Permutation (gc_held c ++ gc_lost c) (b :: remove_nth i (gc_held c) ++ gc_lost c)).
    { change (b :: remove_nth i (gc_held c) ++ gc_lost c) with ((b :: remove_nth i (gc_held c)) ++ gc_lost c).
      apply Permutation_app_tail. exact P. }
    apply (minv_perm _ _ _ P2) in I.
    destruct (manager_delete_ok _ _ _ I) as (m' & E1 & _).
    rewrite E1. right. cbn. eauto.
Qed.

(** What a throwing allocation leaves behind. *)
Lemma gthrow_facts : forall n c tsize f off sizes c', ginv n c -> valid_mop n (MNew tsize f off sizes) ->
  gclient_step ok c (MNew tsize f off sizes) = GThrow c' ->
  exists disks d a dropped got, placement (gc_m c) f off sizes disks /\
    nth_error (m_allocs (gc_m c)) d = Some a /\
    gc_lost c' = gc_lost c ++ dropped /\ gc_held c' = gc_held c ++ got /\
    (forall b, In b dropped -> b_storage b = Managed d) /\
    (length dropped < length (select d disks sizes))%nat /\
    (autogrow a = false /\ free_bytes a < sum_sizes (select d disks sizes) /\ dropped = [] \/
     one_fails ok (gc_calls c) (gc_calls c')) /\
    (dropped <> [] -> sum_sizes (select d disks sizes) <= free_bytes a).
Proof.
  intros n c tsize f off sizes c' (I & L) Hv E. cbn [gclient_step] in E.
  destruct (valid_mop_fresh _ _ _ _ _ Hv) as (V1 & V2 & V3 & V4). rewrite <- L in V1.
  pose proof (manager_new_f_spec (gc_calls c) (gc_m c) _ f off _ I V1 V2 V3) as SP.
  destruct (manager_new_f ok (gc_calls c) (gc_m c) f off (map (fresh_bid tsize) sizes)) as [[m' b'|m' b' dr|] n']; inversion E; subst c'.
  destruct SP as (A1 & A2 & A3 & A4 & A5 & A6 & A7 & disks & d & a & B0 & B1 & B2 & B3 & B4 & B5).
  rewrite V4 in B0. destruct (chosen _ _ _ _ _ B0) as [Hl Hp].
  assert (Es : sizes_on disks (map (fresh_bid tsize) sizes) d = select d disks sizes).
  { unfold sizes_on. rewrite <- (map_map (fun i => nth i (map (fresh_bid tsize) sizes) dflt) b_size).
    rewrite (select_indices d disks (map (fresh_bid tsize) sizes) dflt) by (rewrite map_length; auto).
    rewrite <- select_map, V4. reflexivity. }
  rewrite Es in *.
  assert (Ls : length (indices_on d disks) = length (select d disks sizes)).
  { rewrite <- Es. unfold sizes_on. rewrite map_length. reflexivity. }
  exists disks, d, a, dr, (filter valid b'). cbn [gc_m gc_held gc_lost gc_calls].
  split; [split; [exact Hl|exact Hp]|]. split; [exact B1|]. split; [reflexivity|]. split; [reflexivity|].
  split; [exact B2|]. split; [rewrite <- Ls; exact B3|]. split; [exact B4|exact B5].
Qed.

End Oracle.
