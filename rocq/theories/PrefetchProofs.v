(** Prefetcher: the invariant and its preservation. *)

From Coq Require Import List Arith Bool Lia Permutation.
From Verif Require Import WriterModel WriterProofs PrefetchModel PrefetchSpec ScheduleSpec.
Import ListNotations.

Section Inv.
Context {A : Type}.
Variables (bids : list bid) (sq : list nat) (disk : bid -> A) (n : nat).
Let len := length bids.
Hypothesis Hperm : all_blocks_once len sq.
Hypothesis Hn : 0 < n <= len.
Implicit Types s : pst A.

Lemma sq_length : length sq = len.
Proof. rewrite (Permutation_length Hperm). apply seq_length. Qed.
Lemma sq_nodup : NoDup sq.
Proof. eapply Permutation_NoDup; [apply Permutation_sym, Hperm|apply seq_NoDup]. Qed.
Lemma sq_range : forall k, In k sq -> k < len.
Proof. intros k H. apply (Permutation_in _ Hperm) in H. apply in_seq in H. lia. Qed.
Lemma sq_all : forall k, k < len -> In k sq.
Proof. intros k H. apply (Permutation_in _ (Permutation_sym Hperm)). apply in_seq. lia. Qed.

Definition content (k : nat) : option A := option_map disk (nth_error bids k).

Record Core s (back : list nat) (ret : nat) (hs : list nat) : Prop := mkCore {
  k_const : p_bids s = bids /\ p_seq s = sq /\ p_disk s = disk /\ p_n s = n;
  k_blk : map q_blk (p_reqs s) = firstn (length (p_reqs s)) sq;
  k_live : forall j1 r1 j2 r2, nth_error (p_reqs s) j1 = Some r1 -> nth_error (p_reqs s) j2 = Some r2 ->
     ~ In (q_blk r1) back -> ~ In (q_blk r2) back -> q_buf r1 = q_buf r2 -> j1 = j2;
  k_bufn : forall j r, nth_error (p_reqs s) j = Some r -> q_buf r < n;
  k_hs : forall b, In b hs <-> exists j r, nth_error (p_reqs s) j = Some r /\ q_buf r = b /\
     q_blk r < ret /\ ~ In (q_blk r) back;
  k_nd : NoDup hs;
  k_count : length hs + length back = ret;
  k_on : forall k, p_on s k = true <-> exists j r, nth_error (p_reqs s) j = Some r /\ q_blk r = k /\
     (q_ph r = RSwitched \/ q_ph r = RFinished);
  k_ret : forall k, k < ret -> p_on s k = true;
  k_back : NoDup back /\ forall k, In k back -> k < ret;
  k_mem : forall j r, nth_error (p_reqs s) j = Some r -> ~ In (q_blk r) back -> ret <= q_blk r ->
     q_ph r <> RPosted -> p_mem s (q_buf r) = content (q_blk r);
  k_fin : forall j r, nth_error (p_reqs s) j = Some r -> q_ph r <> RFinished ->
     p_rreq s (q_buf r) = Some j /\ ~ In (q_blk r) back;
  k_own : forall b j, p_rreq s b = Some j ->
     exists r, nth_error (p_reqs s) j = Some r /\ q_buf r = b;
  k_pref : forall j r, nth_error (p_reqs s) j = Some r -> p_pref s (q_blk r) = Some (q_buf r)
}.

Definition nr s (back : list nat) : Prop :=
  length (p_reqs s) = p_nread s /\ p_nread s = min len (n + length back).

Definition Pc s (back : list nat) (ret : nat) (hs : list nat) : Prop :=
  match p_pc s with
  | PCtor i => i <= n /\ length (p_reqs s) = i /\ p_nread s = n /\ back = [] /\ ret = 0 /\
               p_ncons s = 0 /\ p_held s = [] /\ hs = [] /\
               forall j r, nth_error (p_reqs s) j = Some r -> q_buf r = j
  | PIdle => nr s back /\ p_ncons s = ret /\ hs = p_held s
  | PGiven b => nr s back /\ p_ncons s = ret /\ hs = b :: p_held s
  | PWait k => nr s back /\ k = ret /\ p_ncons s = S ret /\ k < len /\ hs = p_held s
  | PDtor i => p_held s = [] /\ forall b, b < i -> rwait s b = true
  | PDead => p_held s = [] /\ forall b, b < n -> rwait s b = true
  | PFail => False
  end.

Record PInv (tr : list (plabel A)) s (back : list nat) (ret : nat) (hs : list nat) : Prop := mkPInv {
  i_core : Core s back ret hs;
  i_pc : Pc s back ret hs;
  i_tr : delivered tr = firstn ret (stream disk bids) /\ length (delivered tr) = ret
}.

Lemma delivered_app : forall t1 t2 : list (plabel A), delivered (t1 ++ t2) = delivered t1 ++ delivered t2.
Proof. induction t1 as [|[] t1]; intros; cbn; auto. rewrite IHt1; auto. Qed.

(** ** Consequences *)

Lemma blk_at : forall s back ret hs j r, Core s back ret hs ->
  nth_error (p_reqs s) j = Some r -> nth_error sq j = Some (q_blk r).
Proof.
  intros s back ret hs j r C H.
  assert (E : nth_error (map q_blk (p_reqs s)) j = Some (q_blk r)) by (rewrite nth_error_map, H; auto).
  rewrite (k_blk _ _ _ _ C) in E.
  assert (L : j < length (p_reqs s)) by (apply nth_error_Some; congruence).
  rewrite <- E. clear E H. revert j L. generalize (length (p_reqs s)). generalize sq.
  induction sq0; intros; destruct n0; destruct j; cbn; auto; try lia.
  apply IHsq0; lia.
Qed.

Lemma blk_inj : forall s back ret hs j1 r1 j2 r2, Core s back ret hs ->
  nth_error (p_reqs s) j1 = Some r1 -> nth_error (p_reqs s) j2 = Some r2 ->
  q_blk r1 = q_blk r2 -> j1 = j2.
Proof.
  intros * C H1 H2 E.
  pose proof (blk_at _ _ _ _ _ _ C H1) as N1. pose proof (blk_at _ _ _ _ _ _ C H2) as N2.
  rewrite E in N1. rewrite <- N2 in N1.
  apply (proj1 (NoDup_nth_error sq) sq_nodup) in N1; auto.
  apply nth_error_Some. rewrite N1, N2. discriminate.
Qed.

Lemma blk_lt : forall s back ret hs j r, Core s back ret hs ->
  nth_error (p_reqs s) j = Some r -> q_blk r < len.
Proof.
  intros * C H. apply sq_range. eapply nth_error_In. eapply blk_at; eauto.
Qed.

(** A request for a block that has been handed out has its data. *)
Lemma returned_phase : forall s back ret hs j r, Core s back ret hs ->
  nth_error (p_reqs s) j = Some r -> q_blk r < ret -> q_ph r = RSwitched \/ q_ph r = RFinished.
Proof.
  intros * C H L. apply (k_ret _ _ _ _ C) in L. apply (k_on _ _ _ _ C) in L.
  destruct L as (j' & r' & H' & E & P).
  assert (j' = j) by (eapply blk_inj; eauto). subst. congruence.
Qed.

(** The requests of a buffer that can be waited for have finished. *)
Lemma rwait_fin : forall s back ret hs b j r, Core s back ret hs -> rwait s b = true ->
  nth_error (p_reqs s) j = Some r -> q_buf r = b -> q_ph r = RFinished.
Proof.
  intros * C W H E. destruct (q_ph r) eqn:P; auto; exfalso;
  (destruct (k_fin _ _ _ _ C j r H) as (O1 & _); [congruence|]);
  unfold rwait in W; rewrite E in O1; rewrite O1, H, P in W; discriminate.
Qed.

(** ** Steps of the I/O layer *)

Lemma set_nth_inv : forall {B} (l : list B) i v j x, nth_error (set_nth i v l) j = Some x ->
  (j = i /\ x = v /\ i < length l) \/ (j <> i /\ nth_error l j = Some x).
Proof.
  intros B l i v j x H. destruct (Nat.eq_dec j i) as [->|N].
  - left. assert (L : i < length l).
    { rewrite <- (set_nth_length l i v). apply nth_error_Some. congruence. }
    rewrite set_nth_same in H by auto. inversion H; auto.
  - right. rewrite set_nth_other in H by auto. auto.
Qed.

Lemma map_set_nth : forall {B C} (f : B -> C) l i v x, nth_error l i = Some x -> f v = f x ->
  map f (set_nth i v l) = map f l.
Proof.
  induction l; destruct i; intros v x H E; cbn in *; try discriminate; auto.
  - inversion H; subst. rewrite E; auto.
  - erewrite IHl; eauto.
Qed.

(** A change of phase of request [i]. *)
Lemma core_phase : forall s back ret hs i r ph mem on, Core s back ret hs ->
  nth_error (p_reqs s) i = Some r -> q_ph r <> RFinished -> (q_ph r <> RPosted -> ph <> RPosted) ->
  (forall k, on k = true <-> p_on s k = true \/ (k = q_blk r /\ (ph = RSwitched \/ ph = RFinished))) ->
  (q_ph r = RSwitched -> ph = RFinished) ->
  (forall b, b <> q_buf r -> mem b = p_mem s b) ->
  (ret <= q_blk r -> ph <> RPosted -> mem (q_buf r) = content (q_blk r)) ->
  Core (set_req s i (MkRd (q_buf r) (q_blk r) ph) mem on) back ret hs.
Proof.
  intros * C H NF NP On Sw Mo Ms. pose proof C as C0. destruct C0.
  set (r' := MkRd (q_buf r) (q_blk r) ph).
  assert (Old : forall j x, nth_error (set_nth i r' (p_reqs s)) j = Some x ->
     exists y, nth_error (p_reqs s) j = Some y /\ q_buf x = q_buf y /\ q_blk x = q_blk y /\
       (j <> i -> x = y) /\ (j = i -> x = r' /\ y = r)).
  { intros j x E. apply set_nth_inv in E. destruct E as [(-> & -> & L)|(N & E)].
    - exists r. csplit; auto. intros []; auto.
    - exists x. csplit; auto; try tauto. }
  assert (New : forall j y, nth_error (p_reqs s) j = Some y ->
     exists x, nth_error (set_nth i r' (p_reqs s)) j = Some x /\ q_buf x = q_buf y /\ q_blk x = q_blk y /\
       (j <> i -> x = y) /\ (j = i -> x = r' /\ y = r)).
  { intros j y E. destruct (Nat.eq_dec j i) as [->|N].
    - exists r'. rewrite set_nth_same by (apply nth_error_Some; congruence).
      assert (y = r) by congruence. subst. csplit; auto; try tauto.
    - exists y. rewrite set_nth_other by auto. csplit; auto; try tauto. }
  constructor; cbn [set_req p_bids p_seq p_disk p_n p_nread p_ncons p_mem p_rreq p_on p_pref p_reqs p_pc p_held]; fold r'; auto.
  - rewrite set_nth_length. rewrite <- k_blk0. eapply map_set_nth; eauto.
  - intros j1 r1 j2 r2 H1 H2 B1 B2 E.
    apply Old in H1. apply Old in H2.
    destruct H1 as (y1 & H1 & U1 & V1 & _). destruct H2 as (y2 & H2 & U2 & V2 & _).
    apply (k_live0 j1 y1 j2 y2); auto; congruence.
  - intros j x E. apply Old in E. destruct E as (y & E & -> & _). eauto.
  - intros b0. rewrite k_hs0. split; intros (j & x & E & B1 & B2 & B3).
    + destruct (New _ _ E) as (y & E' & U & V & _). exists j, y. rewrite U, V. auto.
    + destruct (Old _ _ E) as (y & E' & U & V & _). exists j, y. rewrite <- U, <- V. auto.
  - intros k. rewrite On, k_on0. split.
    + intros [(j & x & E & B & P)|(-> & P)].
      * destruct (New _ _ E) as (y & E' & U & V & W1 & W2). exists j, y. csplit; auto; [congruence|].
        destruct (Nat.eq_dec j i) as [Z|Z].
        -- destruct (W2 Z) as (-> & ->). cbn. destruct P as [P|P]; [right; auto|congruence].
        -- rewrite (W1 Z). auto.
      * exists i, r'. rewrite set_nth_same by (apply nth_error_Some; congruence). auto.
    + intros (j & x & E & B & P). destruct (Old _ _ E) as (y & E' & U & V & W1 & W2).
      destruct (Nat.eq_dec j i) as [Z|Z].
      * destruct (W2 Z) as (-> & ->). right. auto.
      * left. exists j, y. rewrite (W1 Z) in *. auto.
  - intros k L. apply On. left. auto.
  - intros j x E B R P. destruct (Old _ _ E) as (y & E' & U & V & W1 & W2).
    destruct (Nat.eq_dec j i) as [Z|Z].
    + destruct (W2 Z) as (-> & ->). cbn in *. auto.
    + rewrite (W1 Z) in *. rewrite Mo.
      * eapply k_mem0; eauto.
      * intros Q. apply Z. eapply k_live0; eauto. apply (proj2 (k_fin0 _ _ H NF)).
  - intros j x E P. destruct (Old _ _ E) as (y & E' & U & V & W1 & W2).
    rewrite U, V. apply k_fin0 with (r := y); auto.
    destruct (Nat.eq_dec j i) as [Z|Z].
    + destruct (W2 Z) as (-> & ->). auto.
    + rewrite <- (W1 Z). auto.
  - intros b j E. destruct (k_own0 _ _ E) as (y & E' & U).
    destruct (New _ _ E') as (x & E'' & U' & _). exists x. split; auto; congruence.
  - intros j x E. destruct (Old _ _ E) as (y & E' & U & V & _). rewrite U, V. eauto.
Qed.

Lemma pestep_rwait : forall s l s' b back ret hs, Core s back ret hs -> pestep s l s' ->
  rwait s b = true -> rwait s' b = true.
Proof.
  intros * C H W. inversion H; subst; unfold rwait in *; cbn [set_req p_rreq p_reqs];
  destruct (p_rreq s b) as [j|]; auto;
  (destruct (Nat.eq_dec j i) as [->|N];
   [rewrite H0, H1 in W; discriminate|rewrite set_nth_other by auto; auto]).
Qed.

Lemma pestep_inv : forall tr s back ret hs l s', PInv tr s back ret hs -> pestep s l s' ->
  PInv (tr ++ [l]) s' back ret hs.
Proof.
  intros * V H. destruct V as [C P T].
  assert (El : delivered (tr ++ [l]) = delivered tr).
  { rewrite delivered_app. inversion H; subst; cbn; apply app_nil_r. }
  constructor; [| |rewrite El; auto].
  - inversion H; subst.
    + apply core_phase; auto; try congruence.
      * intros k. split; [auto|]. intros [?|(_ & [?|?])]; auto; discriminate.
      * intros b Nb. apply updn_other; auto.
      * intros _ _. rewrite updn_same. unfold content.
        destruct (k_const _ _ _ _ C) as (Eb & _ & Ed & _). rewrite <- Eb, <- Ed, H2. auto.
    + apply core_phase; auto; try congruence.
      * intros k. unfold updn. destruct (k =? q_blk r) eqn:E.
        -- apply Nat.eqb_eq in E. tauto.
        -- apply Nat.eqb_neq in E. tauto.
      * intros L _. apply (k_mem _ _ _ _ C i r); auto; try congruence.
        apply (k_fin _ _ _ _ C i r); congruence.
    + apply core_phase; auto; try congruence.
      * intros k. split; [auto|]. intros [?|(-> & _)]; auto.
        apply (k_on _ _ _ _ C). exists i, r. auto.
      * intros L _. apply (k_mem _ _ _ _ C i r); auto; try congruence.
        apply (k_fin _ _ _ _ C i r); congruence.
  - assert (Eq : p_pc s' = p_pc s /\ length (p_reqs s') = length (p_reqs s) /\ p_nread s' = p_nread s /\
                 p_ncons s' = p_ncons s /\ p_held s' = p_held s).
    { inversion H; subst; cbn; rewrite set_nth_length; auto. }
    destruct Eq as (E1 & E2 & E3 & E4 & E5).
    unfold Pc, nr in *. rewrite E1, E2, E3, E4, E5.
    assert (Rw : forall b, rwait s b = true -> rwait s' b = true) by (intros b Hb; exact (pestep_rwait s l s' b back ret hs C H Hb)).
    destruct (p_pc s); auto.
    + destruct P as (P1 & P2 & P3 & P4 & P5 & P6 & P7 & P8 & P9). csplit; auto.
      intros j x E. inversion H; subst; cbn [set_req p_reqs] in E;
      (apply set_nth_inv in E; destruct E as [(-> & -> & _)|(_ & E)]; cbn; eauto).
    + destruct P; split; auto.
    + destruct P; split; auto.
Qed.

End Inv.
