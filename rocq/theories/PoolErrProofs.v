(** Invariants of the pools with failing requests. *)
From Coq Require Import List Bool Arith Permutation Lia.
From Verif Require Import PoolErrModel.
Import ListNotations.

(** *** Counting *)
Definition cnt (x : nat) (l : list nat) : nat := count_occ Nat.eq_dec l x.
Definition one (x a : nat) : nat := if Nat.eq_dec a x then 1 else 0.

Lemma cnt_cons : forall x a l, cnt x (a :: l) = one x a + cnt x l.
Proof. intros. unfold cnt, one. cbn. destruct (Nat.eq_dec a x); auto. Qed.
Lemma cnt_nil : forall x, cnt x [] = 0.
Proof. auto. Qed.
Lemma cnt_app : forall x l l', cnt x (l ++ l') = cnt x l + cnt x l'.
Proof. intros. unfold cnt. apply count_occ_app. Qed.
Lemma perm_cnt : forall l l', Permutation l l' <-> forall x, cnt x l = cnt x l'.
Proof. intros. unfold cnt. apply Permutation_count_occ. Qed.
Lemma in_cnt : forall x l, In x l <-> 1 <= cnt x l.
Proof. intros. unfold cnt. rewrite (count_occ_In Nat.eq_dec). lia. Qed.

Ltac cn := repeat (rewrite ?cnt_app, ?cnt_cons, ?cnt_nil, ?map_app in *; cbn [map fst snd e_buf e_req e_bid] in *).

Definition places (x : st) : list nat :=
  wf x ++ map e_buf (wb x) ++ pf x ++ map e_buf (pb x) ++ map fst (own x) ++ gone x ++ lost x.

(** *** Progress *)
Lemma progress_refl : forall s, progress s s.
Proof. induction s; constructor; auto. unfold moves. auto. Qed.

Lemma progress_trans : forall a b c, progress a b -> progress b c -> progress a c.
Proof.
  unfold progress. intros a b c H. revert c. induction H as [|x y l l' M F IH]; intros c H2; inversion H2; subst; constructor; auto.
  unfold moves in *. match goal with H : _ /\ _ /\ _, K : _ /\ _ /\ _ |- _ => destruct H as (? & ? & [?|?]), K as (? & ? & [?|?]) end;
    repeat split; try congruence; auto; try (left; congruence); right; congruence.
Qed.

Lemma progress_nth : forall a b r, progress a b ->
  match nth_error a r, nth_error b r with
  | Some q, Some q' => moves q q'
  | None, None => True
  | _, _ => False
  end.
Proof.
  intros a b r H. revert r. induction H as [|x y l l' M F IH]; intros r; destruct r; cbn; auto. apply IH.
Qed.

Lemma progress_len : forall a b, progress a b -> length b = length a.
Proof. intros a b H. symmetry. induction H; cbn; auto. Qed.

Lemma progress_status : forall a b r, progress a b -> status a r <> Flight -> status b r = status a r.
Proof.
  intros a b r H N. pose proof (progress_nth a b r H) as P. unfold status in *.
  destruct (nth_error a r) as [q|] eqn:E; [|congruence]. destruct (nth_error b r) as [q'|]; [|tauto].
  destruct P as (_ & _ & [P|P]); congruence.
Qed.

(** Request [r] is in flight for block [b]. *)
Definition flying (s : list rq) (r b : nat) : Prop := exists rd, nth_error s r = Some (MkRq b rd Flight).

Lemma progress_flying : forall a b r x, progress a b -> flying b r x -> flying a r x.
Proof.
  intros a b r x H (rd & E). pose proof (progress_nth a b r H) as P. rewrite E in P. unfold flying.
  destruct (nth_error a r) as [[qb qr qs]|]; [|tauto]. destruct P as (P1 & P2 & P3). cbn in *. subst.
  destruct P3 as [->| ->]; eauto.
Qed.

Lemma flying_status : forall s r b, flying s r b -> status s r = Flight.
Proof. intros s r b (rd & E). unfold status. rewrite E. auto. Qed.

Lemma post_flying : forall s b rd r x, flying (post s b rd) r x -> flying s r x \/ (r = length s /\ x = b).
Proof.
  intros s b rd r x (d & E). unfold post in E. destruct (Nat.lt_ge_cases r (length s)) as [L|L].
  - rewrite nth_error_app1 in E by auto. left. exists d. auto.
  - rewrite nth_error_app2 in E by auto. destruct (r - length s) as [|k] eqn:K.
    + cbn in E. injection E as <- _. right. split; auto. lia.
    + cbn in E. destruct k; discriminate.
Qed.

Lemma post_status : forall s b rd r, r <> length s -> status (post s b rd) r = status s r.
Proof.
  intros s b rd r N. unfold status, post. destruct (Nat.lt_ge_cases r (length s)) as [L|L].
  - rewrite nth_error_app1 by auto. auto.
  - replace (nth_error (s ++ [MkRq b rd Flight]) r) with (@None rq).
    + replace (nth_error s r) with (@None rq); auto. symmetry. apply nth_error_None. auto.
    + symmetry. apply nth_error_None. rewrite app_length. cbn. lia.
Qed.
Lemma post_status_new : forall s b rd, status (post s b rd) (length s) = Flight.
Proof. intros. unfold status, post. rewrite nth_error_app2, Nat.sub_diag; auto. Qed.

Definition some_bad (s : list rq) : Prop := exists r, status s r = Bad.

Lemma bad_progress : forall a b, progress a b -> some_bad a -> some_bad b.
Proof. intros a b H (r & E). exists r. rewrite (progress_status a b r H); auto; congruence. Qed.
Lemma bad_post : forall s b rd, some_bad s -> some_bad (post s b rd).
Proof.
  intros s b rd (r & E). exists r. rewrite post_status; auto. intros ->. unfold status in E.
  rewrite (proj2 (nth_error_None s (length s))) in E by lia. discriminate.
Qed.

(** *** The parts of steal *)
Lemma walk_progress : forall l s s' r, walk l s s' r -> progress s s'.
Proof.
  induction 1; auto using progress_refl. eapply progress_trans; eauto.
Qed.
Lemma wait_any_progress : forall l s s' r, wait_any l s s' r -> progress s s'.
Proof.
  intros l s s' r H. inversion H; subst.
  - eapply walk_progress; eauto.
  - eapply progress_trans; [eapply walk_progress; eauto|]. eapply progress_trans; [eauto|]. eapply walk_progress; eauto.
Qed.
Lemma walk_found : forall l s s' l1 e l2, walk l s s' (RFound l1 e l2) ->
  l = l1 ++ e :: l2 /\ status s' (e_req e) = Good.
Proof.
  intros l s s' l1 e l2 H. remember (RFound l1 e l2) as r eqn:E. revert l1 e l2 E.
  induction H as [s|x l s s1 P B|x l s s1 P B|x l s s1 s2 r P B W IH]; intros l1 e l2 E; try discriminate.
  - injection E as <- <- <-. auto.
  - destruct r as [| |k1 y k2]; try discriminate. cbn in E. injection E as <- <- <-.
    destruct (IH _ _ _ eq_refl) as (-> & G). auto.
Qed.
Lemma walk_throw : forall l s s', walk l s s' RThrow -> exists e, In e l /\ status s' (e_req e) = Bad.
Proof.
  intros l s s' H. remember RThrow as r eqn:E. revert E.
  induction H as [s|x l s s1 P B|x l s s1 P B|x l s s1 s2 r P B W IH]; intros E; try discriminate.
  - exists x. split; auto. left. auto.
  - destruct r; try discriminate. destruct (IH eq_refl) as (e & I & G). exists e. split; auto. right. auto.
Qed.
Lemma wait_any_found : forall l s s' l1 e l2, wait_any l s s' (RFound l1 e l2) ->
  l = l1 ++ e :: l2 /\ status s' (e_req e) = Good.
Proof. intros l s s' l1 e l2 H. inversion H; subst; eapply walk_found; eauto. Qed.
Lemma wait_any_throw : forall l s s', wait_any l s s' RThrow -> exists e, In e l /\ status s' (e_req e) = Bad.
Proof. intros l s s' H. inversion H; subst; eapply walk_throw; eauto. Qed.

Lemma check_progress : forall l s s' mv rest t, check l s s' mv rest t -> progress s s'.
Proof. induction 1; auto using progress_refl; eapply progress_trans; eauto. Qed.
Lemma check_perm : forall l s s' mv rest t, check l s s' mv rest t ->
  forall x, cnt x (map e_buf l) = cnt x mv + cnt x (map e_buf rest).
Proof. induction 1; intros x; cn; auto; try (rewrite IHcheck); lia. Qed.
Lemma check_rest : forall l s s' mv rest t, check l s s' mv rest t -> incl rest l.
Proof.
  induction 1; intros y Hy; auto.
  - right. auto.
  - destruct Hy as [<-|Hy]; [left; auto|right; auto].
Qed.
(** An entry that does not stay is over. *)
Lemma check_left : forall l s s' mv rest t, check l s s' mv rest t ->
  forall e, In e l -> In e rest \/ status s' (e_req e) = Good.
Proof.
  induction 1 as [s|e l s s1 P B|e l s s1 s2 mv rest t P B C IH|e l s s1 s2 mv rest t P B C IH]; intros x Hx; [destruct Hx|auto| |].
  - destruct Hx as [<-|Hx]; auto. right. rewrite (progress_status s1 s2); auto; [|congruence].
    eapply check_progress; eauto.
  - destruct Hx as [<-|Hx]; [left; left; auto|]. destruct (IH x Hx); auto. left. right. auto.
Qed.
Lemma check_throw : forall l s s' mv rest, check l s s' mv rest true -> exists e, In e rest /\ status s' (e_req e) = Bad.
Proof.
  intros l s s' mv rest H. remember true as t eqn:E. revert E.
  induction H as [s|e l s s1 P B|e l s s1 s2 mv rest t P B C IH|e l s s1 s2 mv rest t P B C IH]; intros E; try discriminate; auto.
  - exists e. split; auto. left. auto.
  - destruct (IH E) as (y & I & G). exists y. split; auto. right. auto.
Qed.
(** It returns only if none of the entries had failed. *)
Lemma check_returns : forall l s s' mv rest, check l s s' mv rest false ->
  forall e, In e l -> status s (e_req e) <> Bad.
Proof.
  intros l s s' mv rest H. remember false as t eqn:E. revert E.
  induction H as [s|e l s s1 P B|e l s s1 s2 mv rest t P B C IH|e l s s1 s2 mv rest t P B C IH];
    intros E x Hx; try discriminate; try (destruct Hx; fail).
  - destruct Hx as [<-|Hx].
    + intros G. rewrite (progress_status s s1) in B; congruence.
    + intros G. apply (IH E x Hx). rewrite (progress_status s s1); auto; congruence.
  - destruct Hx as [<-|Hx].
    + intros G. rewrite (progress_status s s1) in B; congruence.
    + intros G. apply (IH E x Hx). rewrite (progress_status s s1); auto; congruence.
Qed.

Lemma steal_progress : forall f b s f' b' s' o lo, steal f b s f' b' s' o lo -> progress s s'.
Proof.
  intros f b s f' b' s' o lo H. inversion H; subst; try apply progress_refl.
  - eapply wait_any_progress; eauto.
  - eapply progress_trans; [eapply wait_any_progress; eauto|eapply check_progress; eauto].
  - eapply progress_trans; [eapply wait_any_progress; eauto|eapply check_progress; eauto].
Qed.
Lemma steal_perm : forall f b s f' b' s' o lo, steal f b s f' b' s' o lo ->
  forall x, cnt x f + cnt x (map e_buf b) =
    cnt x f' + cnt x (map e_buf b') + cnt x (match o with Some y => [y] | None => [] end) + cnt x lo.
Proof.
  intros f b s f' b' s' o lo H x. inversion H; subst; cn; try lia.
  - match goal with W : wait_any _ _ _ _, C : check _ _ _ _ _ _ |- _ =>
      apply wait_any_found in W; destruct W as (-> & _); pose proof (check_perm _ _ _ _ _ _ C x) end. cn. lia.
  - match goal with W : wait_any _ _ _ _, C : check _ _ _ _ _ _ |- _ =>
      apply wait_any_found in W; destruct W as (-> & _); pose proof (check_perm _ _ _ _ _ _ C x) end. cn. lia.
Qed.
Lemma steal_rest : forall f b s f' b' s' o lo, steal f b s f' b' s' o lo -> incl b' b.
Proof.
  intros f b s f' b' s' o lo H. inversion H; subst; try apply incl_refl;
    match goal with W : wait_any _ _ _ _, C : check _ _ _ _ _ _ |- _ =>
      apply wait_any_found in W; destruct W as (-> & _); pose proof (check_rest _ _ _ _ _ _ C) as I end;
    intros y Hy; apply I in Hy; rewrite in_app_iff in *; cbn; tauto.
Qed.
Lemma steal_left : forall f b s f' b' s' o lo, steal f b s f' b' s' o lo ->
  forall e, In e b -> In e b' \/ status s' (e_req e) = Good.
Proof.
  intros f b s f' b' s' o lo H. inversion H; subst; auto;
    match goal with W : wait_any _ _ _ _, C : check _ _ _ _ _ _ |- _ =>
      apply wait_any_found in W; destruct W as (-> & G); pose proof (check_left _ _ _ _ _ _ C) as I;
      apply check_progress in C end;
    intros y Hy; rewrite in_app_iff in Hy; cbn in Hy;
    (destruct Hy as [Hy|[<-|Hy]]; [apply I; rewrite in_app_iff; auto| |apply I; rewrite in_app_iff; auto]);
    right; rewrite (progress_status s1 s'); auto; congruence.
Qed.
Lemma steal_throw : forall f b s f' b' s' lo, steal f b s f' b' s' None lo ->
  f = [] /\ (exists e, In e b' /\ status s' (e_req e) = Bad) /\ length lo <= 1.
Proof.
  intros f b s f' b' s' lo H. inversion H; subst.
  - split; auto. split; [|cbn; lia]. eapply wait_any_throw; eauto.
  - split; auto. split; [|cbn; lia]. eapply check_throw; eauto.
Qed.
Lemma steal_ret_lo : forall f b s f' b' s' x lo, steal f b s f' b' s' (Some x) lo -> lo = [].
Proof. intros f b s f' b' s' x lo H. inversion H; auto. Qed.

Lemma shrink_progress : forall k f b s f' b' s' del lo t, shrink k f b s f' b' s' del lo t -> progress s s'.
Proof.
  induction 1; [apply progress_refl| |eapply steal_progress; eauto].
  eapply progress_trans; [eapply steal_progress; eauto|auto].
Qed.
Lemma shrink_perm : forall k f b s f' b' s' del lo t, shrink k f b s f' b' s' del lo t ->
  forall x, cnt x f + cnt x (map e_buf b) = cnt x f' + cnt x (map e_buf b') + cnt x del + cnt x lo.
Proof.
  induction 1; intros x; cn; [lia| |].
  - match goal with W : steal _ _ _ _ _ _ _ _ |- _ => pose proof (steal_perm _ _ _ _ _ _ _ _ W x) end. cn.
    specialize (IHshrink x). lia.
  - match goal with W : steal _ _ _ _ _ _ _ _ |- _ => pose proof (steal_perm _ _ _ _ _ _ _ _ W x) end. cn. lia.
Qed.
Lemma shrink_rest : forall k f b s f' b' s' del lo t, shrink k f b s f' b' s' del lo t -> incl b' b.
Proof.
  induction 1; [apply incl_refl| |eapply steal_rest; eauto].
  eapply incl_tran; [eauto|eapply steal_rest; eauto].
Qed.
Lemma shrink_left : forall k f b s f' b' s' del lo t, shrink k f b s f' b' s' del lo t ->
  forall e, In e b -> In e b' \/ status s' (e_req e) = Good.
Proof.
  induction 1 as [f b s|k f b s f1 b1 s1 x f2 b2 s2 del lo t S1 S2 IH|k f b s f1 b1 s1 lo S1]; intros e He; auto.
  - destruct (steal_left _ _ _ _ _ _ _ _ S1 e He) as [H|H]; auto. right.
    rewrite (progress_status s1 s2); auto; [|congruence]. eapply shrink_progress; eauto.
  - eapply steal_left; eauto.
Qed.
Lemma shrink_throw : forall k f b s f' b' s' del lo, shrink k f b s f' b' s' del lo true ->
  (exists e, In e b' /\ status s' (e_req e) = Bad) /\ length lo <= 1.
Proof.
  intros k f b s f' b' s' del lo H. remember true as t eqn:E. revert E.
  induction H; intros E; try discriminate; auto.
  match goal with W : steal _ _ _ _ _ _ _ _ |- _ => apply steal_throw in W; tauto end.
Qed.
Lemma shrink_ret : forall k f b s f' b' s' del lo, shrink k f b s f' b' s' del lo false -> lo = [] /\ length del = k.
Proof.
  intros k f b s f' b' s' del lo H. remember false as t eqn:E. revert E.
  induction H; intros E; try discriminate; auto. destruct (IHshrink E) as (-> & <-). auto.
Qed.

Lemma drain_progress : forall l s s' del lo, drain l s s' del lo -> progress s s'.
Proof. induction 1; auto using progress_refl. eapply progress_trans; eauto. Qed.
Lemma drain_perm : forall l s s' del lo, drain l s s' del lo ->
  forall x, cnt x (map e_buf l) = cnt x del + cnt x lo.
Proof. induction 1; intros x; cn; auto; try rewrite IHdrain; lia. Qed.
Lemma drain_left : forall l s s' del lo, drain l s s' del lo ->
  forall e, In e l -> In (e_buf e) lo \/ status s' (e_req e) = Good.
Proof.
  induction 1 as [s|e l s s1 s2 del lo P B D IH|e l s s1 P B]; intros x Hx; [destruct Hx| |].
  - destruct Hx as [<-|Hx]; auto. right. rewrite (progress_status s1 s2); auto; [|congruence].
    eapply drain_progress; eauto.
  - left. apply in_map. auto.
Qed.
Lemma drain_lost : forall l s s' del lo, drain l s s' del lo -> lo <> [] -> exists e, In e l /\ status s' (e_req e) = Bad.
Proof.
  induction 1 as [s|e l s s1 s2 del lo P B D IH|e l s s1 P B]; intros N; [congruence| |].
  - destruct (IH N) as (y & I & G). exists y. split; auto. right. auto.
  - exists e. split; auto. left. auto.
Qed.

(** *** find and erase *)
Lemma find_split : forall d l e, find d l = Some e ->
  exists l1 l2, l = l1 ++ e :: l2 /\ erase d l = l1 ++ l2 /\ e_bid e = d.
Proof.
  induction l as [|x l IH]; intros e H; [discriminate|]. cbn in *. destruct (Nat.eqb_spec (e_bid x) d).
  - injection H as <-. exists [], l. auto.
  - destruct (IH e H) as (l1 & l2 & -> & -> & E). exists (x :: l1), l2. auto.
Qed.
Lemma mark_buf : forall d l, map e_buf (mark d l) = map e_buf l.
Proof. intros. unfold mark. rewrite map_map. apply map_ext. intros e. destruct (Nat.eqb (e_bid e) d); auto. Qed.
Lemma mark_in : forall d l e, In e l -> exists e', In e' (mark d l) /\ e_buf e' = e_buf e /\ e_req e' = e_req e.
Proof.
  intros d l e H. exists (if Nat.eqb (e_bid e) d then MkE 0 (e_buf e) (e_req e) else e). split.
  - unfold mark. apply in_map_iff. eauto.
  - destruct (Nat.eqb (e_bid e) d); auto.
Qed.

(** *** The invariant *)
Definition at_busy (l : list entry) (r b : nat) : Prop := exists e, In e l /\ e_req e = r /\ e_buf e = b.

Definition home (x : st) (r b : nat) : Prop :=
  at_busy (wb x) r b \/ at_busy (pb x) r b \/ In (b, Some r) (own x) \/ In b (lost x).

Record inv (x : st) : Prop := {
  i_perm : Permutation (places x) (seq 0 (next x));
  i_fly : forall r b, flying (rqs x) r b -> home x r b;
  i_bad : lost x <> [] -> some_bad (rqs x) }.

Lemma inv_init : forall np nw, inv (init np nw).
Proof.
  intros. constructor; cbn.
  - unfold places. cbn. rewrite !app_nil_r. rewrite seq_app. cbn. apply Permutation_app_comm.
  - intros r b (rd & E). destruct r; discriminate.
  - congruence.
Qed.

Lemma seq_cnt : forall x n k, cnt x (seq 0 (n + k)) = cnt x (seq 0 n) + cnt x (seq n k).
Proof. intros. rewrite seq_app, cnt_app. auto. Qed.

Lemma own_cnt : forall x o1 o2 (p : nat * option nat),
  cnt x (map fst (o1 ++ p :: o2)) = cnt x (map fst (o1 ++ o2)) + one x (fst p).
Proof. intros. cn. lia. Qed.

Lemma busy_app : forall l1 l2 r b, at_busy (l1 ++ l2) r b <-> at_busy l1 r b \/ at_busy l2 r b.
Proof.
  intros. unfold at_busy. split.
  - intros (e & H & E). apply in_app_or in H. destruct H; [left|right]; eauto.
  - intros [(e & H & E)|(e & H & E)]; exists e; rewrite in_app_iff; auto.
Qed.
Lemma busy_cons : forall e l r b, at_busy (e :: l) r b <-> (e_req e = r /\ e_buf e = b) \/ at_busy l r b.
Proof.
  intros. unfold at_busy. split.
  - intros (x & [<-|H] & E); [left; auto|right; eauto].
  - intros [E|(x & H & E)]; [exists e|exists x]; cbn; tauto.
Qed.
Lemma busy_erase : forall d l e r b, find d l = Some e ->
  (at_busy l r b <-> (e_req e = r /\ e_buf e = b) \/ at_busy (erase d l) r b).
Proof.
  intros d l e r b H. apply find_split in H. destruct H as (l1 & l2 & -> & -> & _).
  rewrite !busy_app, busy_cons. tauto.
Qed.
Lemma busy_mark : forall d l r b, at_busy (mark d l) r b <-> at_busy l r b.
Proof.
  intros. unfold at_busy. split.
  - intros (e & H & E). unfold mark in H. apply in_map_iff in H. destruct H as (y & <- & H). exists y.
    destruct (Nat.eqb (e_bid y) d); auto.
  - intros (e & H & E1 & E2). destruct (mark_in d l e H) as (e' & H' & B & R). exists e'. split; auto. split; congruence.
Qed.
Lemma erase_cnt : forall d l e x, find d l = Some e ->
  cnt x (map e_buf l) = cnt x (map e_buf (erase d l)) + one x (e_buf e).
Proof.
  intros d l e x H. apply find_split in H. destruct H as (l1 & l2 & -> & -> & _). cn. lia.
Qed.
Lemma own_split : forall (o1 o2 : list (nat * option nat)) p q, In q (o1 ++ p :: o2) -> q = p \/ In q (o1 ++ o2).
Proof. intros o1 o2 p q H. rewrite in_app_iff in *. cbn in H. destruct H as [H|[H|H]]; auto. Qed.
