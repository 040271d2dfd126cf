From Coq Require Import ZArith List Bool Lia Permutation PeanoNat.
From Verif Require Import AllocModel AllocSpec AllocProofs AllocInv AllocMain ManagerModel ManagerSpec.
Import ListNotations.
Local Open Scope Z_scope.

Notation dflt := (fresh_bid 0 0).

Definition on_disk (d : nat) (b : bid) : bool :=
  match b_storage b with Managed d' => Nat.eqb d' d | _ => false end.

Definition blocks_on (d : nat) (held : list bid) : list (Z * Z) :=
  map range_of (filter (on_disk d) held).

Definition good_size (b : bid) : Prop := 0 < b_size b /\ (b_tsize b = b_size b \/ b_tsize b = 0).

Record minv (m : manager) (held : list bid) : Prop := mk_minv {
  mi_alloc : forall d a, nth_error (m_allocs m) d = Some a -> inv a (blocks_on d held);
  mi_held  : forall b, In b held -> good_size b /\
               exists d, b_storage b = Managed d /\ (d < length (m_allocs m))%nat
}.

Lemma blocks_on_app : forall d l1 l2, blocks_on d (l1 ++ l2) = blocks_on d l1 ++ blocks_on d l2.
Proof. intros. unfold blocks_on. rewrite filter_app, map_app. auto. Qed.

Lemma filter_perm : forall {A} (f : A -> bool) l1 l2, Permutation l1 l2 ->
  Permutation (filter f l1) (filter f l2).
Proof.
  intros A f l1 l2 P. induction P; simpl.
  - constructor.
  - destruct (f x); auto.
  - destruct (f x), (f y); auto. apply perm_swap.
  - etransitivity; eauto.
Qed.

Lemma blocks_on_perm : forall d l1 l2, Permutation l1 l2 -> Permutation (blocks_on d l1) (blocks_on d l2).
Proof. intros. unfold blocks_on. apply Permutation_map, filter_perm; auto. Qed.

Lemma minv_perm : forall m l1 l2, Permutation l1 l2 -> minv m l1 -> minv m l2.
Proof.
  intros m l1 l2 P [A B]. split.
  - intros d a E. eapply inv_perm; [apply blocks_on_perm, P|auto].
  - intros b Hb. apply B. eapply Permutation_in; [apply Permutation_sym, P|auto].
Qed.

(** * lists *)
Lemma set_nth_length : forall {A} i (x : A) l, length (set_nth i x l) = length l.
Proof. induction i; intros x l; destruct l; simpl; auto. Qed.

Lemma nth_error_set_nth_eq : forall {A} i (x : A) l, (i < length l)%nat ->
  nth_error (set_nth i x l) i = Some x.
Proof. induction i; intros x l H; destruct l; simpl in *; try lia; auto. apply IHi; lia. Qed.

Lemma nth_error_set_nth_ne : forall {A} i j (x : A) l, i <> j ->
  nth_error (set_nth i x l) j = nth_error l j.
Proof. induction i; intros j x l H; destruct l, j; simpl; auto; try congruence. Qed.

Lemma nth_set_nth_eq : forall {A} i (x : A) l d, (i < length l)%nat -> nth i (set_nth i x l) d = x.
Proof. induction i; intros x l d H; destruct l; simpl in *; try lia; auto. apply IHi; lia. Qed.

Lemma nth_set_nth_ne : forall {A} i j (x : A) l d, i <> j -> nth j (set_nth i x l) d = nth j l d.
Proof. induction i; intros j x l d H; destruct l, j; simpl; auto; try congruence. Qed.

Lemma set_nth_same : forall {A} i (x : A) l, nth_error l i = Some x -> set_nth i x l = l.
Proof. induction i; intros x l H; destruct l; simpl in *; try discriminate; f_equal; auto. congruence. Qed.

Lemma indices_on_spec : forall d disks i,
  In i (indices_on d disks) <-> (i < length disks)%nat /\ nth i disks (S d) = d.
Proof.
  intros. unfold indices_on. rewrite filter_In, in_seq, Nat.eqb_eq. split; intros [A B]; split; auto; lia.
Qed.

Lemma indices_on_nth : forall d disks i x, In i (indices_on d disks) <->
  (i < length disks)%nat /\ nth i disks x = d.
Proof.
  intros. rewrite indices_on_spec. split; intros [A B]; split; auto;
    rewrite (nth_indep _ _ x) in * by lia; auto; rewrite (nth_indep _ _ (S d)); auto.
Qed.

Lemma indices_on_nodup : forall d disks, NoDup (indices_on d disks).
Proof. intros. apply NoDup_filter, seq_NoDup. Qed.

(** * scatter *)
Lemma scatter_spec : forall d idxs offs bids, NoDup idxs -> length offs = length idxs ->
  (forall i, In i idxs -> (i < length bids)%nat) ->
  length (scatter d idxs offs bids) = length bids /\
  (forall i, ~ In i idxs -> nth i (scatter d idxs offs bids) dflt = nth i bids dflt) /\
  (forall i, b_size (nth i (scatter d idxs offs bids) dflt) = b_size (nth i bids dflt) /\
             b_tsize (nth i (scatter d idxs offs bids) dflt) = b_tsize (nth i bids dflt)) /\
  map (fun i => nth i (scatter d idxs offs bids) dflt) idxs =
  map (fun io => mk_bid (Managed d) (snd io) (b_size (nth (fst io) bids dflt))
                        (b_tsize (nth (fst io) bids dflt))) (combine idxs offs).
Proof.
  induction idxs as [|i idxs IH]; intros offs bids Hn Hl Hb; destruct offs as [|o offs]; simpl in *; try discriminate.
  - repeat split; auto.
  - inversion Hn; subst. set (b1 := set_nth i _ bids).
    assert (Hi : (i < length bids)%nat) by auto.
    destruct (IH offs b1) as (A & B & C & D); auto.
    { intros j Hj. unfold b1. rewrite set_nth_length. auto. }
    split; [rewrite A; apply set_nth_length|]. split; [|split].
    + intros j Hj. rewrite B by tauto. apply nth_set_nth_ne. intros ->. tauto.
    + intros j. destruct (C j) as [C1 C2]. rewrite C1, C2. unfold b1.
      destruct (Nat.eq_dec i j) as [<-|Hne].
      * rewrite nth_set_nth_eq by auto. auto.
      * rewrite nth_set_nth_ne by auto. auto.
    + f_equal.
      * rewrite B by auto. unfold b1. rewrite nth_set_nth_eq; auto.
      * rewrite D. apply map_ext_in. intros [j oj] Hin. simpl. apply in_combine_l in Hin.
        assert (i <> j) by (intros ->; auto). unfold b1.
        rewrite !nth_set_nth_ne by auto. auto.
Qed.

(** Blocks the loop has placed so far. *)
Definition collect (disks ds : list nat) (bids : list bid) : list bid :=
  concat (map (fun d => map (fun i => nth i bids dflt) (indices_on d disks)) ds).

Definition sizes_on (disks : list nat) (bids : list bid) (d : nat) : list Z :=
  map (fun i => b_size (nth i bids dflt)) (indices_on d disks).

Definition placed (disks : list nat) (ds : list nat) (m : manager) (bids : list bid)
                  (m' : manager) (bids' : list bid) (held : list bid) : Prop :=
  length bids' = length bids /\ length (m_allocs m') = length (m_allocs m) /\
  (forall i, b_size (nth i bids' dflt) = b_size (nth i bids dflt) /\
             b_tsize (nth i bids' dflt) = b_tsize (nth i bids dflt)) /\
  (forall i d, In d ds -> In i (indices_on d disks) -> b_storage (nth i bids' dflt) = Managed d) /\
  (forall i, (forall d, In d ds -> ~ In i (indices_on d disks)) -> nth i bids' dflt = nth i bids dflt) /\
  minv m' (held ++ collect disks ds bids') /\
  m_total m' = m_total m + sum_bids (collect disks ds bids') /\
  m_current m' = m_current m + sum_bids (collect disks ds bids') /\
  m_maximum m' = m_maximum m /\
  (forall d a, nth_error (m_allocs m) d = Some a -> exists a',
     nth_error (m_allocs m') d = Some a' /\ same_cfg a a' /\ disk_bytes a <= disk_bytes a' /\
     (~ In d ds -> a' = a) /\
     (In d ds -> autogrow a = false -> sum_sizes (sizes_on disks bids d) <= free_bytes a) /\
     (In d ds -> indices_on d disks <> [] -> exists offs,
        new_blocks a (sizes_on disks bids d) = AllocOk a' offs /\
        map (fun i => b_offset (nth i bids' dflt)) (indices_on d disks) = offs) /\
     (indices_on d disks = [] -> a' = a)).

Lemma sum_bids_app : forall l1 l2, sum_bids (l1 ++ l2) = sum_bids l1 + sum_bids l2.
Proof. unfold sum_bids. intros. rewrite map_app. induction l1; simpl; lia. Qed.

Lemma sum_bids_sizes : forall l, sum_bids l = sum_sizes (map b_size l).
Proof. unfold sum_bids. induction l; simpl; congruence. Qed.

Lemma sizes_nil_sum : forall disks bids d, indices_on d disks = [] -> sum_sizes (sizes_on disks bids d) = 0.
Proof. intros disks bids d H. unfold sizes_on. rewrite H. auto. Qed.

Lemma in_nth_bids : forall (bids : list bid) i, (i < length bids)%nat -> In (nth i bids dflt) bids.
Proof. intros. apply nth_In; auto. Qed.

Lemma alloc_on_disks_spec : forall disks ds m bids held,
  NoDup ds -> (forall d, In d ds -> (d < length (m_allocs m))%nat) ->
  length disks = length bids -> (forall b, In b bids -> good_size b) -> minv m held ->
  match alloc_on_disks ds disks m bids with
  | MOk m' bids' => placed disks ds m bids m' bids' held
  | MThrow m' bids' => exists ds1 d ds2 a, ds = ds1 ++ d :: ds2 /\
      placed disks ds1 m bids m' bids' held /\
      nth_error (m_allocs m) d = Some a /\ autogrow a = false /\
      free_bytes a < sum_sizes (sizes_on disks bids d)
  | MBad => False
  end.
Proof.
  induction ds as [|d ds IH]; intros m bids held Hn Hd Hl Hg Hm; cbn [alloc_on_disks].
  - unfold placed, collect, sum_bids. simpl. rewrite app_nil_r.
    csplit; auto; try lia; try (intros ? ? Hx; destruct Hx; fail).
    intros d a E. exists a. csplit; auto; try lia; try apply same_cfg_refl; intros [].
  - inversion Hn as [|? ? Hnd Hn']; subst. cbv zeta.
    destruct (indices_on d disks) as [|i0 ir] eqn:Ei.
    + (* no block on this disk *)
      specialize (IH m bids held Hn' (fun x Hx => Hd x (or_intror Hx)) Hl Hg Hm).
      assert (Hpl : forall ds' m' bids', placed disks ds' m bids m' bids' held -> ~ In d ds' ->
                placed disks (d :: ds') m bids m' bids' held).
      { intros ds' m' bids' Hp Hni. destruct Hp as (P1 & P2 & P3 & P4 & P5 & P6 & P7 & P8 & P9 & P10).
        assert (Ec : collect disks (d :: ds') bids' = collect disks ds' bids').
        { unfold collect. simpl. rewrite Ei. auto. }
        unfold placed. rewrite Ec. csplit; auto.
        - intros i d' [<-|Hd'] Hi; [rewrite Ei in Hi; destruct Hi|eauto].
        - intros i Hi. apply P5. intros d' Hd'. apply Hi. simpl; auto.
        - intros d' a E. destruct (P10 d' a E) as (a' & Q1 & Q2 & Q3 & Q4 & Q5 & Q6 & Q7).
          exists a'. csplit; auto.
          + intros Hx. apply Q4. intros Hy. apply Hx. simpl; auto.
          + intros [<-|Hx]; [|auto]. intros Ha. rewrite sizes_nil_sum by auto.
            destruct Hm as [Hm _]. specialize (Hm _ _ E). apply (inv_nonneg_free _ _ Hm).
          + intros [<-|Hx]; [|auto]. congruence. }
      destruct (alloc_on_disks ds disks m bids) as [m' bids'|m' bids'|]; auto.
      destruct IH as (ds1 & d1 & ds2 & a & E & Hp & R).
      exists (d :: ds1), d1, ds2, a. split; [subst; auto|]. split; auto.
      apply Hpl; auto. intros Hx. apply Hnd. rewrite E. apply in_or_app; auto.
    + assert (Hnn : indices_on d disks <> []) by (rewrite Ei; discriminate).
      rewrite <- Ei. clear i0 ir Ei.
      destruct (nth_error (m_allocs m) d) as [a|] eqn:Ea.
      2:{ exfalso. apply nth_error_None in Ea. specialize (Hd d (or_introl eq_refl)). lia. }
      fold (sizes_on disks bids d).
      assert (Hrange : forall i, In i (indices_on d disks) -> (i < length bids)%nat).
      { intros i Hi. apply indices_on_spec in Hi. lia. }
      assert (Hgb : good_batch (sizes_on disks bids d)).
      { split.
        - unfold sizes_on. destruct (indices_on d disks); [congruence|discriminate].
        - apply Forall_forall. intros s Hs. unfold sizes_on in Hs. apply in_map_iff in Hs.
          destruct Hs as (i & <- & Hi). apply Hg. apply in_nth_bids; auto. }
      destruct Hm as [Hma Hmh].
      pose proof (new_blocks_spec a _ _ (Hma d a Ea) Hgb) as S.
      destruct (new_blocks a (sizes_on disks bids d)) as [a' offs|a'| |] eqn:Enb; try tauto.
      * destruct S as (S1 & S2 & S3 & S4 & S5 & _).
        assert (Hlo : length offs = length (indices_on d disks)).
        { rewrite S2. unfold sizes_on. apply map_length. }
        destruct (scatter_spec d (indices_on d disks) offs bids) as (T1 & T2 & T3 & T4); auto.
        { apply indices_on_nodup. }
        set (m1 := mk_manager _ _ _ _). set (bids1 := scatter d (indices_on d disks) offs bids) in *.
        set (new := map (fun i => nth i bids1 dflt) (indices_on d disks)) in *.
        assert (Enew : map b_size new = sizes_on disks bids d).
        { unfold new, sizes_on. rewrite map_map. apply map_ext. intros i. apply T3. }
        assert (Hnew : forall b, In b new -> b_storage b = Managed d).
        { rewrite T4. intros b Hb. apply in_map_iff in Hb. destruct Hb as (io & <- & _). auto. }
        assert (Hnewg : forall b, In b new -> good_size b).
        { intros b Hb. unfold new in Hb. apply in_map_iff in Hb. destruct Hb as (i & <- & Hi).
          destruct (T3 i) as [T3a T3b]. unfold good_size. rewrite T3a, T3b.
          apply Hg. apply in_nth_bids; auto. }
        assert (Ebo : blocks_on d new = combine offs (sizes_on disks bids d)).
        { unfold blocks_on.
          assert (F : filter (on_disk d) new = new).
          { clear - Hnew. induction new as [|b l IHl]; simpl; auto.
            unfold on_disk at 1. rewrite (Hnew b) by (simpl; auto). rewrite Nat.eqb_refl.
            f_equal. apply IHl. intros; apply Hnew; simpl; auto. }
          rewrite F, T4, map_map. simpl. unfold sizes_on in *.
          clear - S2. revert offs S2. induction (indices_on d disks) as [|i l IHl]; intros offs S2.
          - destruct offs; simpl in *; auto; discriminate.
          - destruct offs as [|o offs]; simpl in *; [discriminate|]. f_equal. apply IHl. lia. }
        assert (Ebo' : forall d', d' <> d -> blocks_on d' new = []).
        { intros d' Hd'. unfold blocks_on. clear - Hnew Hd'.
          induction new as [|b l IHl]; simpl; auto.
          unfold on_disk at 1. rewrite (Hnew b) by (simpl; auto).
          destruct (Nat.eqb_spec d d'); [congruence|].
          apply IHl. intros; apply Hnew; simpl; auto. }
        assert (Hdl : (d < length (m_allocs m))%nat) by (apply Hd; simpl; auto).
        assert (Hm1 : minv m1 (held ++ new)).
        { split.
          - intros d' x Ex. unfold m1 in Ex. simpl in Ex. rewrite blocks_on_app.
            destruct (Nat.eq_dec d d') as [<-|Hne].
            + rewrite nth_error_set_nth_eq in Ex by auto. inversion Ex; subst x.
              rewrite Ebo. exact S1.
            + rewrite nth_error_set_nth_ne in Ex by auto. rewrite Ebo' by auto.
              rewrite app_nil_r. auto.
          - intros b Hb. unfold m1; simpl. rewrite set_nth_length.
            apply in_app_or in Hb. destruct Hb as [Hb|Hb]; [auto|].
            split; [auto|]. exists d. split; auto. }
        assert (Hds : forall d', In d' ds -> (d' < length (m_allocs m1))%nat).
        { intros d' Hd'. unfold m1; simpl. rewrite set_nth_length. apply Hd; simpl; auto. }
        assert (Hg1 : forall b, In b bids1 -> good_size b).
        { intros b Hb. destruct (In_nth _ _ dflt Hb) as (i & Hi & <-).
          destruct (T3 i) as [T3a T3b]. unfold good_size. rewrite T3a, T3b.
          apply Hg. apply in_nth_bids. rewrite <- T1. auto. }
        specialize (IH m1 bids1 (held ++ new) Hn' Hds ltac:(lia) Hg1 Hm1).
        assert (Hpl : forall ds' m' bids', ~ In d ds' -> placed disks ds' m1 bids1 m' bids' (held ++ new) ->
                  placed disks (d :: ds') m bids m' bids' held).
        { intros ds' m' bids' Hni Hp. destruct Hp as (P1 & P2 & P3 & P4 & P5 & P6 & P7 & P8 & P9 & P10).
          assert (Ekeep : forall i, In i (indices_on d disks) -> nth i bids' dflt = nth i bids1 dflt).
          { intros i Hi. apply P5. intros d' Hd' Hi'. apply indices_on_nth with (x := O) in Hi.
            apply indices_on_nth with (x := O) in Hi'. assert (d = d') by (destruct Hi, Hi'; congruence).
            subst d'. auto. }
          assert (Ec : collect disks (d :: ds') bids' = new ++ collect disks ds' bids').
          { unfold collect. simpl. f_equal. unfold new. apply map_ext_in. auto. }
          unfold placed. rewrite Ec, sum_bids_app.
          assert (Esz : sum_bids new = sum_sizes (sizes_on disks bids d)).
          { rewrite sum_bids_sizes, Enew. auto. }
          csplit.
          - congruence.
          - rewrite P2. unfold m1; simpl. apply set_nth_length.
          - intros i. destruct (P3 i) as [P3a P3b]. destruct (T3 i) as [T3a T3b].
            rewrite P3a, P3b. auto.
          - intros i d' [<-|Hd'] Hi; [|eauto]. rewrite Ekeep by auto.
            apply Hnew. unfold new. apply in_map_iff. eauto.
          - intros i Hi. rewrite P5 by (intros; apply Hi; simpl; auto).
            apply T2. apply Hi. simpl; auto.
          - rewrite app_assoc. auto.
          - rewrite P7. unfold m1; simpl. rewrite Esz. lia.
          - rewrite P8. unfold m1; simpl. rewrite Esz. lia.
          - rewrite P9. auto.
          - intros d' x Ex. destruct (Nat.eq_dec d d') as [<-|Hne].
            + rewrite Ea in Ex. inversion Ex; subst x.
              destruct (P10 d a') as (a2 & Q1 & Q2 & Q3 & Q4 & Q5 & Q6 & Q7).
              { unfold m1; simpl. apply nth_error_set_nth_eq; auto. }
              exists a2. specialize (Q4 Hni). subst a2. csplit; auto; [| |congruence].
              { intros Hx. destruct Hx; simpl; auto. }
              intros _ _. exists offs. split; [exact Enb|].
              transitivity (map b_offset new).
              * unfold new. rewrite map_map. apply map_ext_in. intros i Hi. rewrite Ekeep; auto.
              * rewrite T4, map_map. simpl. clear - Hlo.
                revert offs Hlo. induction (indices_on d disks) as [|i l IHl]; intros offs Hlo.
                -- destruct offs; simpl in *; auto; discriminate.
                -- destruct offs as [|o offs]; simpl in *; [discriminate|]. f_equal. apply IHl. lia.
            + destruct (P10 d' x) as (a2 & Q1 & Q2 & Q3 & Q4 & Q5 & Q6 & Q7).
              { unfold m1; simpl. rewrite nth_error_set_nth_ne; auto. }
              exists a2. csplit; auto.
              * intros Hx. apply Q4. intros Hy. apply Hx; simpl; auto.
              * intros [Hx|Hx] Ha; [congruence|]. specialize (Q5 Hx Ha).
                replace (sizes_on disks bids d') with (sizes_on disks bids1 d'); auto.
                unfold sizes_on. apply map_ext. intros i. apply T3.
              * intros [Hx|Hx] Ha; [congruence|].
                replace (sizes_on disks bids d') with (sizes_on disks bids1 d'); auto.
                unfold sizes_on. apply map_ext. intros i. apply T3. }
        destruct (alloc_on_disks ds disks m1 bids1) as [m' bids'|m' bids'|]; auto.
        destruct IH as (ds1 & d1 & ds2 & x & E & Hp & R1 & R2 & R3).
        exists (d :: ds1), d1, ds2, x. split; [subst; auto|].
        assert (d <> d1) by (intros ->; apply Hnd; rewrite E; apply in_or_app; simpl; auto).
        split; [apply Hpl; auto; intros Hx; apply Hnd; rewrite E; apply in_or_app; auto|].
        split; [unfold m1 in R1; simpl in R1; rewrite nth_error_set_nth_ne in R1; auto|].
        split; auto.
        replace (sizes_on disks bids d1) with (sizes_on disks bids1 d1); auto.
        unfold sizes_on. apply map_ext. intros i. apply T3.
      * destruct S as (-> & S2 & S3). exists [], d, ds, a. split; auto.
        rewrite set_nth_same by auto.
        split; [|auto]. unfold placed, collect, sum_bids. simpl. rewrite app_nil_r.
        csplit; auto; try lia; try (intros ? ? Hx; destruct Hx; fail).
        -- split; auto.
        -- intros d' x E. exists x. csplit; auto; try lia; try apply same_cfg_refl; intros [].
Qed.
