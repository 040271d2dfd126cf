(** Streams: the invariants. *)

From Coq Require Import List Arith Bool ZArith Lia Permutation.
From Verif Require Import WriterModel WriterSpec WriterProofs WriterProofs2 WriterProofs3 WriterProps
  PrefetchModel PrefetchSpec ScheduleSpec PrefetchProofs PrefetchProofs2 PrefetchProofs3 PrefetchProps
  StreamModel.
Import ListNotations.

Section Lists.
Context {R : Type}.

Lemma firstn_set : forall (l : list R) e r, e < length l ->
  firstn (S e) (set_nth e r l) = firstn e l ++ [r].
Proof.
  induction l as [|x l IH]; intros e r H; [cbn in H; lia|].
  destruct e; [reflexivity|]. cbn [set_nth]. cbn in H. cbn [firstn app].
  f_equal. apply IH. lia.
Qed.

Lemma rev_nth_error : forall (l : list R) e, e < length l ->
  nth_error (rev l) (length l - 1 - e) = nth_error l e.
Proof.
  intros l e H. destruct (nth_error l e) as [x|] eqn:E; [|apply nth_error_None in E; lia].
  rewrite nth_error_nth' with (d := x) by (rewrite rev_length; lia).
  rewrite rev_nth by lia. replace (length l - S (length l - 1 - e)) with e by lia.
  f_equal. apply nth_error_nth; auto.
Qed.
End Lists.

Section OStream.
Context {R : Type}.
Variable B : nat.
Hypothesis HB : 1 <= B.
Local Notation block := (list R).

Lemma sys_run : forall (s s' : wst block) t, sys s t s' -> wrun s t s'.
Proof.
  intros s s' t H. induction H; [constructor|]. eapply wrun_front; eauto. right; auto.
Qed.

Lemma sstep_facts : forall (s : wst block) l s', sstep s l s' ->
  w_mem s' = w_mem s /\ calls [l] = [] /\ (forall k, l <> LFlush k) /\ w_n s' = w_n s /\ w_bs s' = w_bs s /\
  ((exists b, l = LRet b /\ w_held s' = b :: w_held s /\ w_pc s' = Idle) \/
   (w_held s' = w_held s /\ forall b, l <> LRet b)).
Proof.
  intros s l s' [H|H]; inversion H; subst; proj; csplit; auto; try (right; split; auto; discriminate);
    try discriminate; left; eexists; csplit; reflexivity.
Qed.

Lemma idle_sys : forall (s s' : wst block) t, sys s t s' -> w_pc s = Idle ->
  w_pc s' = Idle /\ w_held s' = w_held s.
Proof.
  intros s s' t H. induction H; intros E; auto.
  destruct IHsys as (X1 & X2).
  - destruct H as [H|H]; inversion H; subst; try congruence; proj; auto.
  - split; auto. rewrite X2. destruct H as [H|H]; inversion H; subst; try congruence; proj; auto.
Qed.

Lemma sys_active : forall (s s' : wst block) t, sys s t s' ->
  w_mem s' = w_mem s /\ calls t = [] /\ (forall k, ~ In (LFlush k) t) /\
  (w_pc s' <> Idle -> w_held s' = w_held s).
Proof.
  intros s s' t H. induction H.
  - csplit; auto.
  - destruct (sstep_facts _ _ _ H) as (M & C & F & _ & _ & X).
    destruct IHsys as (Y1 & Y2 & Y3 & Y4). csplit.
    + congruence.
    + change (l :: tr) with ([l] ++ tr). rewrite calls_app, C, Y2. auto.
    + intros k [Q|Q]; [eapply F; eauto|eapply Y3; eauto].
    + intros N. destruct X as [(b & -> & Hh & Hp)|(Hh & _)].
      * exfalso. apply N. eapply idle_sys; eauto.
      * rewrite Y4; auto.
Qed.

Lemma ret_active : forall (s s' : wst block) b, sstep s (LRet b) s' ->
  w_pc s <> Idle /\ w_held s' = b :: w_held s /\ w_pc s' = Idle /\ w_mem s' = w_mem s.
Proof.
  intros s s' b [H|H]; inversion H; subst; proj; csplit; auto; congruence.
Qed.

Variables (nb bt : nat) (mem0 : nat -> block) (bids0 : nat -> bid) (disk0 : bid -> block) (bids : nat -> bid).
Let w0 := w_init nb bt mem0 bids0 disk0.
Hypothesis Hmem : forall b, length (mem0 b) = B.

Record OInv (recs : list R) (tr : list (wlabel block)) (o : ost R) : Prop := mkOInv {
  oi_run : wrun w0 tr (o_w o);
  oi_disc : disciplined tr;
  oi_pc : w_pc (o_w o) = Idle;
  oi_held : w_held (o_w o) = [o_cur o];
  oi_elem : o_elem o < B;
  oi_mem : forall b, length (w_mem (o_w o) b) = B;
  oi_bids : map fst (calls tr) = map bids (seq 0 (o_bid o));
  oi_len : forall d a, In (d, a) (calls tr) -> length a = B;
  oi_recs : recs = concat (map snd (calls tr)) ++ firstn (o_elem o) (w_mem (o_w o) (o_cur o))
}.

Lemma set_nth_len : forall (l : block) e r, length (set_nth e r l) = length l.
Proof. intros; apply set_nth_length. Qed.

Lemma fill_step : forall (s : wst block) b a s1, cstep s (LFill b a) s1 ->
  w_mem s1 = updn (w_mem s) b a /\ w_held s1 = w_held s /\ w_pc s1 = Idle /\ In b (w_held s).
Proof. intros s b a s1 H. inversion H; subst; proj; auto. Qed.

Lemma write_step : forall (s : wst block) b d a s1, cstep s (LWrite b d a) s1 -> w_held s = [b] ->
  w_mem s1 = w_mem s /\ w_held s1 = [] /\ a = w_mem s b /\ w_pc s1 <> Idle.
Proof.
  intros s b d a s1 H E. inversion H; subst; proj. csplit; auto.
  - rewrite E in H5. destruct h1 as [|x h1]; cbn in H5; inversion H5; auto.
    destruct h1; discriminate.
  - unfold enter_write. destruct (w_bs s <=? length (w_batch s)); discriminate.
Qed.

Lemma disc_app : forall (t1 t2 : list (wlabel block)), disciplined t1 -> ~ In (LFlush true) t2 ->
  disciplined (t1 ++ t2).
Proof. intros t1 t2 H1 H2 Q. apply in_app_or in Q. destruct Q; auto. Qed.

Lemma orun_inv : forall recs tr o, orun B w0 bids recs tr o -> OInv recs tr o.
Proof.
  intros recs tr o H. induction H.
  - (* constructor *)
    assert (E1 : s1 = set_pc w0 (GPoll 0)) by (inversion H; auto).
    assert (M1 : w_mem s1 = mem0) by (subst s1; reflexivity).
    assert (Hh1 : w_held s1 = []) by (subst s1; reflexivity).
    destruct (sys_active _ _ _ H0) as (M & C & F & Hh).
    destruct (ret_active _ _ _ H1) as (P & Hh' & P' & M').
    constructor; cbn [o_w o_cur o_elem o_bid].
    + eapply wrun_front; [left; exact H|]. eapply wrun_app; [apply sys_run; eauto|].
      apply wrun_one. right; auto.
    + intros [Q|Q]; [discriminate|]. apply in_app_or in Q.
      destruct Q as [Q|[Q|[]]]; [eapply F; eauto|discriminate].
    + auto.
    + rewrite Hh', Hh, Hh1; auto.
    + lia.
    + rewrite M', M, M1. auto.
    + cbn [calls]. rewrite calls_app, C. reflexivity.
    + cbn [calls]. rewrite calls_app, C. intros d a [].
    + cbn [calls]. rewrite calls_app, C. reflexivity.
  - (* I/O *)
    destruct IHorun. cbn [o_w o_cur o_elem o_bid] in *.
    assert (X : w_mem s' = w_mem (o_w o) /\ w_held s' = w_held (o_w o) /\ w_pc s' = w_pc (o_w o) /\
                calls [l] = [] /\ l <> LFlush true).
    { inversion H0; subst; proj; csplit; auto; discriminate. }
    destruct X as (X1 & X2 & X3 & X4 & X5).
    assert (Ec : calls (tr ++ [l]) = calls tr) by (rewrite calls_app, X4, app_nil_r; auto).
    constructor; cbn [o_w o_cur o_elem o_bid]; rewrite ?Ec, ?X1, ?X2, ?X3; auto.
    + econstructor; eauto. right; right; auto.
    + apply disc_app; auto. intros [Q|[]]; auto.
  - (* record within the block *)
    destruct IHorun. cbn [o_w o_cur o_elem o_bid] in *.
    destruct (fill_step _ _ _ _ H0) as (X1 & X2 & X3 & X4).
    set (a := set_nth (o_elem o) r (w_mem (o_w o) (o_cur o))) in *.
    assert (Ec : calls (tr ++ [LFill (o_cur o) a]) = calls tr).
    { rewrite calls_app. cbn. apply app_nil_r. }
    constructor; cbn [o_w o_cur o_elem o_bid]; rewrite ?Ec, ?X1, ?X2, ?X3; auto.
    + econstructor; eauto. left; auto.
    + apply disc_app; auto. intros [Q|[]]; discriminate.
    + intros b. unfold updn. destruct (b =? o_cur o); auto. unfold a. rewrite set_nth_len. auto.
    + rewrite updn_same. unfold a. rewrite firstn_set by (rewrite oi_mem0; auto).
      rewrite oi_recs0 at 1. rewrite app_assoc. auto.
  - (* last record of the block *)
    destruct IHorun. cbn [o_w o_cur o_elem o_bid] in *.
    destruct (fill_step _ _ _ _ H0) as (X1 & X2 & X3 & X4).
    set (a0 := set_nth (o_elem o) r (w_mem (o_w o) (o_cur o))) in *.
    destruct (write_step _ _ _ _ _ H2) as (Y1 & Y2 & Y3 & Y4); [congruence|].
    destruct (sys_active _ _ _ H3) as (M & C & F & Hh).
    destruct (ret_active _ _ _ H4) as (P & Hh' & P' & M').
    assert (Ea : a = a0) by (rewrite Y3, X1, updn_same; auto). clear Y3. rewrite Ea in *. clear Ea a.
    assert (La : length a0 = B) by (unfold a0; rewrite set_nth_len; auto).
    assert (Ec : calls (tr ++ LFill (o_cur o) a0 :: LWrite (o_cur o) (bids (o_bid o)) a0 :: t ++ [LRet b])
                 = calls tr ++ [(bids (o_bid o), a0)]).
    { rewrite calls_app. cbn [calls]. rewrite calls_app, C. auto. }
    constructor; cbn [o_w o_cur o_elem o_bid]; rewrite ?Ec; auto.
    + eapply wrun_app; [eauto|]. eapply wrun_front; [left; eauto|]. eapply wrun_front; [left; eauto|].
      eapply wrun_app; [apply sys_run; eauto|]. apply wrun_one. right; auto.
    + apply disc_app; auto. intros [Q|[Q|Q]]; try discriminate. apply in_app_or in Q.
      destruct Q as [Q|[Q|[]]]; [eapply F; eauto|discriminate].
    + rewrite Hh', Hh, Y2; auto.
    + intros b'. rewrite M', M, Y1, X1. unfold updn. destruct (b' =? o_cur o); auto.
    + rewrite map_app, oi_bids0. rewrite seq_S, map_app. auto.
    + intros d a1 Q. apply in_app_or in Q. destruct Q as [Q|[Q|[]]]; eauto. inversion Q; subst. auto.
    + rewrite map_app, concat_app. cbn [map snd concat]. rewrite !app_nil_r.
      rewrite oi_recs0 at 1. rewrite <- app_assoc. f_equal.
      assert (S (o_elem o) = B) by lia.
      rewrite <- (firstn_all a0), La. rewrite <- H5. unfold a0.
      rewrite firstn_set by (rewrite oi_mem0; auto). auto.
Qed.

End OStream.
