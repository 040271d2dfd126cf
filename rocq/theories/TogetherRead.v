(** What an input stream delivers depends only on the blocks it was handed out. *)

From Coq Require Import List Arith Bool ZArith Lia Permutation.
From Verif Require Import WriterModel WriterSpec WriterProofs
  PrefetchModel PrefetchSpec ScheduleSpec PrefetchProofs PrefetchProofs2 PrefetchProofs3
  PrefetchErrModel PrefetchErrSpec PrefetchErrProofs PrefetchErrProofs2 PrefetchErrProps
  StreamModel StreamProofs StreamProofs2 StreamProps StreamErrModel StreamErrSpec StreamErrProofs StreamErrProofs2 StreamErrProps.
Import ListNotations.

Section Read.
Context {R : Type}.
Local Notation block := (list R).
Variable B : nat.
Hypothesis HB : 1 <= B.
Variables (fwd : bool) (bids : list bid) (sq : list nat) (bufs : nat) (disk W : bid -> block)
          (mem : nat -> option block) (y0 : yst block).
Hypothesis Hsq : all_blocks_once (length bids) sq.
Hypothesis Hinit : y_init bids sq bufs disk mem = Some y0.
Hypothesis Hlen : forall d, In d bids -> length (disk d) = B.

Lemma firstn_ext : forall {X} (l l' : list X) c, (forall k, k < c -> nth_error l k = nth_error l' k) ->
  firstn c l = firstn c l'.
Proof.
  intros X l. induction l as [|x l IH]; intros [|y l'] [|c] H; cbn; auto.
  - specialize (H 0 ltac:(lia)). discriminate.
  - specialize (H 0 ltac:(lia)). discriminate.
  - pose proof (H 0 ltac:(lia)) as E. cbn in E. inversion E; subst. f_equal. apply IH.
    intros k Hk. exact (H (S k) ltac:(lia)).
Qed.

Lemma concat_split : forall {X} (l : list (list X)) c x, nth_error l c = Some x ->
  exists rest, concat l = concat (firstn c l) ++ x ++ rest.
Proof.
  intros X l. induction l as [|y l IH]; intros [|c] x H; cbn in *; try discriminate.
  - inversion H; subst. eauto.
  - destruct (IH c x H) as (rest & E). exists rest. rewrite E, <- app_assoc. auto.
Qed.

Lemma nth_map_some : forall {X} (l : list X) k r, nth_error (map Some l) k = Some (Some r) -> nth_error l k = Some r.
Proof. intros X l k r H. rewrite nth_error_map in H. destruct (nth_error l k); cbn in H; congruence. Qed.

Lemma nth_app_l : forall {X} (l l' : list X) k r, nth_error l k = Some r -> nth_error (l ++ l') k = Some r.
Proof. intros X l l' k r H. rewrite nth_error_app1; auto. apply nth_error_Some. congruence. Qed.

Lemma nth_firstn_some : forall {X} (l : list X) c k r, nth_error (firstn c l) k = Some r -> nth_error l k = Some r.
Proof. intros X l. induction l as [|x l IH]; intros [|c] [|k] r H; cbn in *; try discriminate; auto. eapply IH; eauto. Qed.

Theorem out_agrees : forall out tr j, jrun B fwd y0 out tr j ->
  (forall c v d, nth_error (y_delivered tr) c = Some (Some v) -> nth_error bids c = Some d -> v = W d) ->
  (j_more j = false -> out = map Some (records fwd W bids)) /\
  (forall i r, nth_error out i = Some (Some r) -> nth_error (records fwd W bids) i = Some r).
Proof.
  intros out tr j H A. pose proof (jrun_inv B HB fwd _ _ _ _ _ _ Hsq Hinit Hlen _ _ _ H) as [V1 _ V3 V4].
  destruct (C89_in_order _ _ _ _ _ _ Hsq Hinit _ _ V1) as (E & L & _).
  assert (Ag : forall c, c < length (y_delivered tr) -> ~ In c (y_fails tr) ->
    nth_error (data fwd bids disk) c = nth_error (data fwd bids W) c).
  { intros c Hc N. destruct (nth_error bids c) as [d|] eqn:D; [|apply nth_error_None in D; lia].
    assert (Q : nth_error (y_delivered tr) c = Some (Some (disk d))).
    { rewrite E. assert (Q : nth_error (readable disk bids (y_fails tr)) c = Some (Some (disk d))).
      { rewrite (readable_nth bids disk) by lia. destruct (in_dec Nat.eq_dec c (y_fails tr)); [tauto|].
        unfold content. rewrite D. auto. }
      rewrite <- Q. rewrite <- (firstn_skipn (length (y_delivered tr)) (readable disk bids (y_fails tr))) at 2.
      rewrite nth_error_app1; auto. rewrite <- E. auto. }
    unfold data. rewrite !nth_error_map, D. cbn. rewrite (A c _ d Q D). auto. }
  change (records fwd W bids) with (records fwd W bids). rewrite (records_data fwd bids W).
  destruct (j_more j) eqn:M.
  - split; [discriminate|]. destruct (V3 eq_refl) as (_ & _ & c & X1 & X2 & X3 & X4 & X5).
    assert (F : firstn c (data fwd bids disk) = firstn c (data fwd bids W)).
    { apply firstn_ext. intros k Hk. apply Ag; [lia|auto]. }
    intros i r Q.
    assert (Pre : nth_error (map Some (concat (firstn c (data fwd bids disk)))) i = Some (Some r) ->
      nth_error (concat (data fwd bids W)) i = Some r).
    { intros P. apply nth_map_some in P. rewrite F in P.
      rewrite <- (firstn_skipn c (data fwd bids W)), concat_app. apply nth_app_l. auto. }
    destruct X5 as [(Y1 & Y2 & Y3)|(Y1 & Y2 & blk & Y3 & Y4 & Y5 & Y6)].
    + rewrite Y3 in Q. destruct (Nat.lt_ge_cases i (length (map Some (concat (firstn c (data fwd bids disk)))))) as [Li|Li].
      * rewrite nth_error_app1 in Q by auto. auto.
      * exfalso. rewrite nth_error_app2 in Q by auto. apply nth_error_In, repeat_spec in Q. discriminate.
    + rewrite Y6 in Q. apply nth_map_some in Q. rewrite (Ag c) in Y5 by (auto; lia).
      destruct (concat_split _ _ _ Y5) as (rest & ->). rewrite F in Q.
      destruct (Nat.lt_ge_cases i (length (concat (firstn c (data fwd bids W))))) as [Li|Li].
      * rewrite nth_error_app1 in Q |- * by auto. auto.
      * rewrite nth_error_app2 in Q |- * by auto. apply nth_firstn_some in Q. apply nth_app_l. auto.
  - destruct (V4 eq_refl) as (Z1 & Z2 & Z3 & Z4).
    assert (F : data fwd bids disk = data fwd bids W).
    { rewrite <- (firstn_all (data fwd bids disk)), <- (firstn_all (data fwd bids W)).
      assert (Ld : forall f : bid -> block, length (data fwd bids f) = length bids) by (intros f; unfold data; rewrite !map_length; auto).
      rewrite !Ld. apply firstn_ext. intros k Hk. apply Ag; [lia|]. rewrite Z2. auto. }
    rewrite <- F. split; [auto|]. intros i r Q. rewrite Z1 in Q. apply nth_map_some. auto.
Qed.

End Read.
