(** Proofs about the disks of the block store. *)

From Coq Require Import String Ascii.
From Coq Require Import ZArith List Bool Arith Lia.
From Verif Require Import AllocModel ManagerModel FileModel FileSpec FileProofs FileProps
  StoreModel StoreSpec.
Import ListNotations.
Local Open Scope nat_scope.

(** What a read of [n] bytes at [off] would see. *)
Definition content (k : disk) (off n : nat) : list (option byte) :=
  match k with
  | DMem f => map (fun i => nth i f None) (seq off n)
  | DSys f => map (fun i => Some (byte_at f i)) (seq off n)
  | DPer p d => map Some (fit n (stored d (file_name p off)))
  end.

(** The file is large enough for positions below [n]. *)
Definition holds (k : disk) (n : nat) : Prop :=
  match k with
  | DMem f => n <= length f
  | DSys f => n <= length f
  | DPer _ _ => True
  end.

Definition apart (off n off' n' : nat) : Prop := off' + n' <= off \/ off + n <= off'.

Lemma map_seq_ext : forall {X} (g h : nat -> X) off n,
  (forall i, off <= i < off + n -> g i = h i) -> map g (seq off n) = map h (seq off n).
Proof. intros X g h off n H. apply map_ext_in. intros i Hi. apply in_seq in Hi. auto. Qed.

Lemma set_size_content : forall k m off n, off + n <= m ->
  content (disk_set_size k m) off n = content k off n.
Proof.
  intros [f|f|p d] m off n H; cbn [disk_set_size content]; auto.
  - apply map_seq_ext. intros i Hi. rewrite (proj2 (m_resize_spec f m)).
    destruct (Nat.ltb_spec i m); auto; lia.
  - apply map_seq_ext. intros i Hi. rewrite (proj2 (truncate_spec f m)).
    destruct (Nat.ltb_spec i m); auto; lia.
Qed.

Lemma set_size_holds : forall k m, holds (disk_set_size k m) m.
Proof.
  intros [f|f|p d] m; cbn [disk_set_size holds]; auto.
  - rewrite (proj1 (m_resize_spec f m)). auto.
  - rewrite (proj1 (truncate_spec f m)). auto.
Qed.

Lemma holds_le : forall k n m, n <= m -> holds k m -> holds k n.
Proof. intros [f|f|p d] n m; cbn [holds]; intros; auto; lia. Qed.

Lemma fit_fit : forall n c, fit n (fit n c) = fit n c.
Proof.
  intros. rewrite <- (fit_truncate (fit n c)). unfold os_truncate. rewrite fit_len, Nat.sub_diag.
  cbn [repeat]. rewrite app_nil_r. rewrite <- (fit_len n c) at 1. apply firstn_all.
Qed.

Lemma content_names : forall p d d' off n, 
  (forall name, name <> file_name p off -> d' name = d name) ->
  forall off' n', 0 < n -> 0 < n' -> apart off n off' n' ->
  content (DPer p d') off' n' = content (DPer p d) off' n'.
Proof.
  intros p d d' off n H off' n' Hn Hn' A. cbn [content]. unfold stored. rewrite H; auto.
  intros E. apply file_name_inj in E. unfold apart in A. lia.
Qed.

(** Reading. *)
Lemma disk_read_spec : forall a k off n, 0 < n -> holds k (off + n) ->
  match disk_read a k off n with
  | (TBad, _) => False
  | (t, k') => (forall m, holds k m -> holds k' m) /\
      (forall off' n', 0 < n' -> apart off n off' n' -> content k' off' n' = content k off' n') /\
      content k' off n = content k off n /\
      (forall x, t = TOk x -> x = content k off n)
  end.
Proof.
  intros a k off n Hn H. destruct k as [f|f|p d]; cbn [disk_read holds] in *.
  - unfold m_read. destruct (Nat.leb_spec (off + n) (length f)); [|lia].
    repeat split; auto. intros x E. inversion E; subst. cbn [content]. apply get_map; auto.
  - pose proof (C30_read (an_xfer a) f off n) as R.
    destruct (fst (serve_read (an_xfer a) f off n)) as [b|b|]; [| |tauto]; repeat split; auto;
      intros x E; inversion E; subst. cbn [content]. rewrite map_map. auto.
  - pose proof (C31_isolation true false p d (PRead (an_open a) (an_size a) (an_xfer a) off n)) as I.
    cbn [p_step op_offset] in I.
    assert (St : forall b d', p_read true false p (an_open a) (an_size a) (an_xfer a) d off n = (b, d') ->
      fit n (stored d' (file_name p off)) = fit n (stored d (file_name p off)) /\ b <> Stuck).
    { intros b d' E. unfold p_read in E. destruct (an_open a 0); [inversion E; subst; split; auto; discriminate|].
      destruct (open_file true false d (file_name p off)) as [c|] eqn:O; [|inversion E; subst; split; auto; discriminate].
      apply open_stored in O. subst c.
      pose proof (set_size_spec (an_size a) (stored d (file_name p off)) n) as Sz.
      destruct (set_size (an_size a) (stored d (file_name p off)) n) as [c'|c'|]; [| |tauto]; inversion E; subst.
      - split.
        + unfold stored at 1. rewrite upd_dir_same, fit_truncate. apply fit_fit.
        + pose proof (C30_read (an_xfer a) (os_truncate (stored d (file_name p off)) n) 0 n) as R.
          destruct (fst (serve_read (an_xfer a) (os_truncate (stored d (file_name p off)) n) 0 n)); [| |tauto]; discriminate.
      - split; [|discriminate]. unfold stored at 1. rewrite upd_dir_same.
        destruct Sz as ([->| ->] & _); auto. rewrite fit_truncate. apply fit_fit. }
    destruct (p_read true false p (an_open a) (an_size a) (an_xfer a) d off n) as ([b|b|] & d') eqn:E.
    + destruct (I true d' eq_refl) as (I1 & _). destruct (St _ _ eq_refl) as (S1 & _).
      split; [auto|]. split; [|split].
      * intros off' n' Hn' A. apply (content_names p d d' off n I1); auto.
      * cbn [content]. rewrite S1. auto.
      * intros x Ex. inversion Ex; subst. apply p_read_done in E. destruct E as (-> & _). auto.
    + destruct (I false d' eq_refl) as (I1 & _). destruct (St _ _ eq_refl) as (S1 & _).
      split; [auto|]. split; [|split].
      * intros off' n' Hn' A. apply (content_names p d d' off n I1); auto.
      * cbn [content]. rewrite S1. auto.
      * discriminate.
    + exfalso. destruct (St _ _ eq_refl) as (_ & S2). auto.
Qed.

Lemma map_nth_seq : forall {X} (data : list X) off def,
  map (fun i => nth (i - off) data def) (seq off (length data)) = data.
Proof.
  intros X data off def. apply (nth_ext _ _ (nth (0 - off) data def) def).
  - rewrite map_length, seq_length. auto.
  - intros i Hi. rewrite map_length, seq_length in Hi.
    rewrite (map_nth (fun i => nth (i - off) data def)), seq_nth by auto. f_equal. lia.
Qed.

(** Writing. *)
Lemma disk_write_spec : forall a k off data, 0 < length data -> holds k (off + length data) ->
  match disk_write a k off data with
  | (TBad, _) => False
  | (t, k') => (forall m, holds k m -> holds k' m) /\
      (forall off' n', 0 < n' -> apart off (length data) off' n' -> content k' off' n' = content k off' n') /\
      (forall x, t = TOk x -> content k' off (length data) = map Some data)
  end.
Proof.
  intros a k off data Hn H. destruct k as [f|f|p d]; cbn [disk_write holds] in *.
  - pose proof (m_write_spec f off (map Some data)) as W. rewrite map_length in W.
    destruct (m_write f off (map Some data)) as [f'|]; [|lia]. destruct W as (_ & L & W).
    cbn [holds content]. split; [intros; lia|]. split.
    + intros off' n' Hn' A. apply map_seq_ext. intros i Hi. rewrite W.
      replace (covers off (length data) i) with false; auto. symmetry. apply covers_false.
      unfold apart in A. lia.
    + intros x _. rewrite <- (map_nth_seq (map Some data) off None). rewrite map_length.
      apply map_seq_ext. intros i Hi. rewrite W.
      replace (covers off (length data) i) with true; auto. symmetry. apply covers_true. lia.
  - pose proof (C30_write (an_xfer a) f off data) as W.
    destruct (fst (serve_write (an_xfer a) f off data)) as [f'|f'|] eqn:E; [| |tauto].
    + destruct W as (W1 & _ & W). cbn [holds content].
      rewrite W1 by (destruct data; cbn in *; [lia|discriminate]). split; [intros; lia|]. split.
      * intros off' n' Hn' A. apply map_seq_ext. intros i Hi. rewrite W.
        replace (covers off (length data) i) with false; auto. symmetry. apply covers_false.
        unfold apart in A. lia.
      * intros x _. rewrite <- (map_nth_seq data off 0%Z) at 2. rewrite map_map.
        apply map_seq_ext. intros i Hi. rewrite W.
        replace (covers off (length data) i) with true; auto. symmetry. apply covers_true. lia.
    + destruct W as (m & Hm & W). cbn [holds content].
      assert (L : length f <= length f').
      { unfold serve_write in E.
        pose proof (s_write_spec (an_xfer a) (S (length data)) 0 f off data ltac:(lia)) as Q.
        destruct (s_write (S (length data)) (an_xfer a) 0 f off data) as ([g|g|] & c); cbn [fst] in E;
          inversion E; subst. destruct Q as ((m' & _ & [(_ & ->)|(_ & ->)]) & _); auto.
        rewrite (proj1 (os_write_spec _ _ _)). lia. }
      split; [intros; lia|]. split; [|discriminate].
      intros off' n' Hn' A. apply map_seq_ext. intros i Hi. rewrite W.
      replace (covers off m i) with false; auto. symmetry. apply covers_false.
      unfold apart in A. lia.
  - pose proof (C31_isolation true false p d (PWrite (an_open a) (an_size a) (an_xfer a) off data)) as I.
    cbn [p_step op_offset] in I.
    destruct (p_write true false p (an_open a) (an_size a) (an_xfer a) d off data) as ([[]|b|] & d') eqn:E.
    + destruct (I true d' eq_refl) as (I1 & _). split; [auto|]. split.
      * intros off' n' Hn' A. apply (content_names p d d' off (length data) I1); auto.
      * intros x _. cbn [content]. apply p_write_done in E. subst d'. unfold stored. rewrite upd_dir_same.
        f_equal. rewrite <- fit_truncate. unfold os_truncate. rewrite firstn_all, Nat.sub_diag.
        cbn [repeat]. apply app_nil_r.
    + destruct (I false d' eq_refl) as (I1 & _). split; [auto|]. split; [|discriminate].
      intros off' n' Hn' A. apply (content_names p d d' off (length data) I1); auto.
    + destruct (I false d' eq_refl) as (I1 & _). split; [auto|]. split; [|discriminate].
      intros off' n' Hn' A. apply (content_names p d d' off (length data) I1); auto.
Qed.

(** Discarding. *)
Lemma disk_discard_spec : forall ba o k off n, 1 <= ba -> 0 < n -> holds k (off + n) ->
  exists k', disk_discard ba o k off n = Some k' /\ (forall m, holds k m -> holds k' m) /\
    (forall off' n', 0 < n' -> apart off n off' n' -> content k' off' n' = content k off' n').
Proof.
  intros ba o k off n Hba Hn H. destruct k as [f|f|p d]; cbn [disk_discard holds] in *.
  - pose proof (m_discard_spec ba Hba (S n) f off n ltac:(lia)) as W.
    destruct (m_discard (S n) ba f off n) as [f'|]; [|lia]. destruct W as (_ & L & W).
    eexists. split; [reflexivity|]. cbn [holds content]. split; [intros; lia|].
    intros off' n' Hn' A. apply map_seq_ext. intros i Hi. rewrite W.
    replace (covers off n i) with false; auto. symmetry. apply covers_false. unfold apart in A. lia.
  - eexists. split; [reflexivity|]. auto.
  - eexists. split; [reflexivity|]. split; [auto|].
    intros off' n' Hn' A. apply (content_names p d _ off n); auto.
    intros name Hname. unfold p_discard. destruct (o 0); auto. apply upd_dir_other; auto.
Qed.

(** With a system that works nothing fails. *)
Lemma disk_read_works : forall a k off n, working a -> 0 < n -> holds k (off + n) ->
  exists x k', disk_read a k off n = (TOk x, k').
Proof.
  intros a k off n W Hn H. destruct k as [f|f|p d]; cbn [disk_read holds] in *.
  - unfold m_read. destruct (Nat.leb_spec (off + n) (length f)); [eauto|lia].
  - destruct (proj2 (C30_short_transfers_succeed (an_xfer a) f off [] n (fun i => proj2 (proj2 (W i)))) ltac:(lia))
      as (b & ->). eauto.
  - unfold p_read. destruct (W 0) as ((k0 & ->) & (k1 & E1) & _).
    destruct (W 1) as (_ & (k2 & E2) & _). destruct (W 2) as (_ & (k3 & E3) & _).
    unfold open_file, set_size. rewrite E1, E2, E3.
    assert (G : forall c : list byte, exists b,
      fst (serve_read (an_xfer a) (os_truncate c n) 0 n) = Done b).
    { intros c. apply (proj2 (C30_short_transfers_succeed (an_xfer a) (os_truncate c n) 0 [] n (fun i => proj2 (proj2 (W i))))).
      rewrite (proj1 (truncate_spec c n)). auto. }
    destruct (d (file_name p off)) as [c|].
    + destruct (G c) as (b & E). destruct (length c <? n); rewrite E; eauto.
    + destruct (G []) as (b & E). destruct (length (@nil byte) <? n); rewrite E; eauto.
Qed.

Lemma disk_write_works : forall a k off data, working a -> holds k (off + length data) ->
  exists x k', disk_write a k off data = (TOk x, k').
Proof.
  intros a k off data W H. destruct k as [f|f|p d]; cbn [disk_write holds] in *.
  - unfold m_write. rewrite map_length. destruct (Nat.leb_spec (off + length data) (length f)); [eauto|lia].
  - destruct (proj1 (C30_short_transfers_succeed (an_xfer a) f off data 0 (fun i => proj2 (proj2 (W i)))))
      as (b & ->). eauto.
  - unfold p_write. destruct (W 0) as ((k0 & ->) & (k1 & E1) & _).
    destruct (W 1) as (_ & (k2 & E2) & _). destruct (W 2) as (_ & (k3 & E3) & _).
    unfold open_file, set_size. rewrite E1, E2, E3.
    assert (G : forall c : list byte, exists b, fst (serve_write (an_xfer a) c 0 data) = Done b).
    { intros c. apply (proj1 (C30_short_transfers_succeed (an_xfer a) c 0 data 0 (fun i => proj2 (proj2 (W i))))). }
    destruct (d (file_name p off)) as [c|].
    + destruct (G (os_truncate c (length data))) as (b & E).
      destruct (length c <? length data); rewrite E; eauto.
    + destruct (G (os_truncate [] (length data))) as (b & E).
      destruct (length (@nil byte) <? length data); rewrite E; eauto.
Qed.
