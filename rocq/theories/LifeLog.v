(** Lifetime of requests and files: what the log says. *)
From Coq Require Import List Bool PeanoNat Lia Permutation.
From Verif Require Import LifeModel LifeSpec LifeProofs LifeProofs2 LifeMain LifeMain2 LifeMain3.
Import ListNotations.

Definition on_file (f : nat) (o : obj) : bool :=
  match o_file o with Some g => Nat.eqb g f | None => false end.

Lemma misused_cons : forall l f e, misused l f -> misused (e :: l) f.
Proof.
  intros l f e [(n & N & I) | (l1 & l2 & c & r & n & E & I)].
  - left. exists n. simpl. auto.
  - right. exists (e :: l1), l2, c, r, n. subst. auto.
Qed.

Lemma misused_alive : forall l f g x, misused l f -> misused (with_alive g x l) f.
Proof. intros. unfold with_alive. destruct (f_alive x); auto. apply misused_cons. auto. Qed.

Lemma times_cons : forall p e l, times p (e :: l) = (if p e then S (times p l) else times p l).
Proof. intros. unfold times. simpl. destruct (p e); auto. Qed.

Lemma times_alive : forall p f x l, p (EBadFile f) = false -> times p (with_alive f x l) = times p l.
Proof. intros. unfold with_alive. destruct (f_alive x); auto. rewrite times_cons, H. auto. Qed.

Lemma in_alive : forall e f x l, In e (with_alive f x l) <->
  (In e l \/ (f_alive x = false /\ e = EBadFile f)).
Proof.
  intros. unfold with_alive. destruct (f_alive x); simpl; intuition (try congruence); auto.
Qed.

Lemma cons_split : forall (e d : event) l l1 l2, e :: l = l1 ++ d :: l2 ->
  (l1 = [] /\ e = d /\ l = l2) \/ exists l1', l = l1' ++ d :: l2.
Proof.
  intros. destruct l1; simpl in H; injection H as H1 H2.
  - left. auto.
  - right. exists l1. auto.
Qed.

Lemma alive_split : forall f x d l l1 l2, (forall g, d <> EBadFile g) ->
  with_alive f x l = l1 ++ d :: l2 -> exists l1', l = l1' ++ d :: l2.
Proof.
  intros f x d l l1 l2 N H. unfold with_alive in H. destruct (f_alive x); eauto.
  apply cons_split in H. destruct H as [(_ & H & _) | H]; auto. congruence.
Qed.

Lemma filter_upd : forall (p : obj -> bool) l i o o', nth_error l i = Some o ->
  length (filter p (upd i o' l)) + (if p o then 1 else 0) =
  length (filter p l) + (if p o' then 1 else 0).
Proof.
  intros. destruct (upd_split _ _ _ _ H) as (l1 & l2 & L & U). rewrite U, L.
  rewrite !filter_app, !app_length. simpl. destruct (p o), (p o'); simpl; lia.
Qed.

Lemma filter_none : forall (p : obj -> bool) l, length (filter p l) = 0 ->
  forall r o, nth_error l r = Some o -> p o = false.
Proof.
  intros. apply nth_error_In in H0. destruct (p o) eqn:E; auto.
  assert (In o (filter p l)) by (apply filter_In; auto).
  destruct (filter p l); simpl in *; [tauto | lia].
Qed.

Lemma filter_none_conv : forall (p : obj -> bool) l,
  (forall r o, nth_error l r = Some o -> p o = false) -> length (filter p l) = 0.
Proof.
  intros. destruct (filter p l) eqn:E; auto.
  assert (In o (filter p l)) by (rewrite E; simpl; auto).
  apply filter_In in H0. destruct H0 as (I & P). apply In_nth_error in I. destruct I as (r & I).
  rewrite (H _ _ I) in P. discriminate.
Qed.

Lemma nth_app_new : forall (os : list obj) x r o, nth_error (os ++ [x]) r = Some o ->
  (r < length os /\ nth_error os r = Some o) \/ (r = length os /\ o = x).
Proof.
  intros. destruct (Nat.lt_ge_cases r (length os)) as [L | L].
  - left. rewrite nth_error_app1 in H by auto. auto.
  - right. rewrite nth_error_app2 in H by auto. destruct (r - length os) eqn:D; simpl in H.
    + injection H as H. split; auto. lia.
    + destruct n; discriminate.
Qed.

Lemma upd_nth : forall A i (x : A) l j, i < length l ->
  nth_error (upd i x l) j = if Nat.eq_dec i j then Some x else nth_error l j.
Proof.
  intros. destruct (Nat.eq_dec i j).
  - subst. destruct (nth_error l j) eqn:E.
    + eapply nth_upd_eq; eauto.
    + apply nth_error_None in E. lia.
  - apply nth_upd_neq; auto.
Qed.

Lemma nth_lt : forall A (l : list A) i x, nth_error l i = Some x -> i < length l.
Proof. intros. apply nth_error_Some. congruence. Qed.

(** * Deleted requests *)

Definition i_free (g : ghost) : Prop := forall r, times (is_free r) (g_log g) =
  match nth_error (g_objs g) r with Some o => if o_freed o then 1 else 0 | None => 0 end.

Ltac gsimp := cbn [g_objs g_files g_log g_refs g_own] in *.

Lemma prim_free : forall k g g', core g -> i_free g -> prim k g g' -> i_free g'.
Proof.
  unfold i_free. intros k g g' C H P r. specialize (H r). destruct P; gsimp;
    rewrite ?times_cons, ?times_alive by reflexivity; cbn [is_free]; auto;
    try (rewrite upd_nth by (eapply nth_lt; eauto);
         destruct (Nat.eq_dec r0 r) as [E | E];
         [subst r0; rewrite H0 in H; simpl; exact H | auto]; fail).
  - (* free *)
    rewrite upd_nth by (eapply nth_lt; eauto).
    assert (F : o_freed o = false) by (eapply (live _ r0 o C); simpl; eauto).
    destruct (Nat.eq_dec r0 r) as [E | E]; [subst; rewrite Nat.eqb_refl | rewrite (proj2 (Nat.eqb_neq _ _) E); auto].
    rewrite H0, F in H. simpl. rewrite H. auto.
  - (* last *)
    rewrite upd_nth by (eapply nth_lt; eauto). destruct (Nat.eq_dec r0 r) as [E | E]; auto.
    subst r0. rewrite H1 in H. simpl. auto.
  - (* reject *)
    rewrite upd_nth by (eapply nth_lt; eauto).
    assert (F : o_freed o = false) by (eapply (live _ r0 o C); simpl; eauto).
    destruct (Nat.eq_dec r0 r) as [E | E]; [subst; rewrite Nat.eqb_refl | rewrite (proj2 (Nat.eqb_neq _ _) E); auto].
    rewrite H0, F in H. simpl. rewrite H. auto.
  - (* new *)
    rewrite H. destruct (Nat.lt_ge_cases r (length os)) as [L | L].
    + rewrite nth_error_app1 by auto. auto.
    + rewrite nth_error_app2 by auto. rewrite (proj2 (nth_error_None os r) L).
      destruct (r - length os) as [|n]; simpl; auto. destruct n; auto.
  - destruct e; try discriminate; auto.
Qed.

Definition i_freest (g : ghost) : Prop := forall r st, In (EFree r st) (g_log g) ->
  st = READY2DIE \/ (is_rejected (g_log g) r /\ st = OP).

Lemma rejected_cons : forall l e r, is_rejected l r -> is_rejected (e :: l) r.
Proof. intros l e r (c & f & I). exists c, f. simpl. auto. Qed.
Lemma rejected_alive : forall l f x r, is_rejected l r -> is_rejected (with_alive f x l) r.
Proof. intros. unfold with_alive. destruct (f_alive x); auto. apply rejected_cons. auto. Qed.

Lemma prim_freest : forall k g g', core g -> i_freest g -> prim k g g' -> i_freest g'.
Proof.
  unfold i_freest. intros k g g' C H P r st I. destruct P; gsimp; auto;
    try (apply H in I; destruct I as [I | (I1 & I2)]; auto using rejected_cons; fail);
    try (destruct I as [I | I]; [try discriminate | apply H in I;
         destruct I as [I | (I1 & I2)]; auto using rejected_cons]).
  - (* free *)
    injection I as I1 I2. subst. left.
    assert (K : o_cnt o = S (count R r)).
    { rewrite (co_cnt _ C _ _ H0). cbn [g_refs]. rewrite count_cons. destruct (Nat.eq_dec r r); congruence. }
    assert (F : o_freed o = false) by (eapply (live _ r o C); simpl; eauto).
    destruct (co_rest _ C r o H0) as [(Q & _) | (_ & Q & _)]; try congruence.
    simpl. intros X. apply in_map_iff in X. destruct X as ((y & p) & E & X). simpl in E. subst y.
    apply H1 in X. apply count_in in X. lia.
  - (* reject *)
    destruct I as [I | [I | I]]; [discriminate | | ].
    + injection I as I1 I2. subst. right.
      destruct (co_ok _ C r PNew o (or_introl eq_refl) H0) as (Q & _). split; auto.
      exists c, (o_fid o). simpl. auto.
    + apply H in I. destruct I as [I | (I1 & I2)]; auto using rejected_cons.
  - (* release *)
    destruct I as [I | I]; [discriminate|].
    apply in_alive in I. destruct I as [I | (_ & I)]; [|discriminate].
    apply H in I. destruct I as [I | (I1 & I2)]; auto using rejected_cons, rejected_alive.
  - apply in_alive in I. destruct I as [I | (_ & I)]; [|discriminate].
    apply H in I. destruct I as [I | (I1 & I2)]; auto using rejected_cons, rejected_alive.
  - destruct I as [I | I]; [discriminate|].
    apply in_alive in I. destruct I as [I | (_ & I)]; [|discriminate].
    apply H in I. destruct I as [I | (I1 & I2)]; auto using rejected_cons, rejected_alive.
  - subst. discriminate.
Qed.

Definition i_bad (g : ghost) : Prop :=
  forall r, ~ In (EBadReq r) (g_log g) /\ ~ In (ENullFin r) (g_log g).

Lemma prim_bad : forall k g g', i_bad g -> prim k g g' -> i_bad g'.
Proof.
  unfold i_bad. intros k g g' H P r. destruct (H r) as (A & B).
  destruct P; gsimp; split; auto; intros I;
    try (destruct I as [I | I]; [try discriminate; subst; discriminate | ]); auto;
    try (destruct I as [I | I]; [discriminate | ]); auto;
    apply in_alive in I; destruct I as [I | (_ & I)]; auto; discriminate.
Qed.

(** * Leaked requests *)

Definition i_last (k : kind) (g : ghost) : Prop :=
  (forall r, In (ELast r) (g_log g) <->
     exists o, nth_error (g_objs g) r = Some o /\ o_freed o = false /\ o_cnt o = 0) /\
  (forall r, In (ELast r) (g_log g) -> k = Aio).

Lemma last_alive : forall f x l r, In (ELast r) (with_alive f x l) <-> In (ELast r) l.
Proof. intros. rewrite in_alive. split; [intros [|(_ & X)]; auto; discriminate | auto]. Qed.

(** An update that keeps whether the object is leaked. *)
Lemma leak_upd : forall os i o o' r, nth_error os i = Some o ->
  ((o_freed o' = false /\ o_cnt o' = 0) <-> (o_freed o = false /\ o_cnt o = 0)) ->
  ((exists x, nth_error (upd i o' os) r = Some x /\ o_freed x = false /\ o_cnt x = 0) <->
   (exists x, nth_error os r = Some x /\ o_freed x = false /\ o_cnt x = 0)).
Proof.
  intros os i o o' r N E. rewrite upd_nth by (eapply nth_lt; eauto).
  destruct (Nat.eq_dec i r).
  - subst. rewrite N. split; intros (x & X & Y); injection X as X; subst x.
    + exists o. split; auto. tauto.
    + exists o'. split; auto. tauto.
  - tauto.
Qed.

Lemma cnt_of : forall g r o, core g -> nth_error (g_objs g) r = Some o -> In r (g_refs g) -> o_cnt o <> 0.
Proof.
  intros. rewrite (co_cnt _ H _ _ H0). apply count_in in H1. lia.
Qed.

Lemma prim_last : forall k g g', core g -> i_last k g -> prim k g g' -> i_last k g'.
Proof.
  intros k g g' C (H & HK) P.
  assert (CF := cnt_of g). destruct P; gsimp; (split; [intros r' | intros r' I]); gsimp.
  - auto.
  - eauto.
  - rewrite H. symmetry. eapply leak_upd; eauto. simpl. specialize (CF _ _ C H0 H1). split; lia.
  - eauto.
  - assert (IR : In r R) by (eapply (co_sub _ C); simpl; eauto).
    rewrite H. symmetry. eapply leak_upd; eauto. simpl. specialize (CF _ _ C H0 IR). split; lia.
  - eauto.
  - rewrite H. symmetry. eapply leak_upd; eauto. simpl. split; lia.
  - eauto.
  - (* free *)
    specialize (CF _ _ C H0 (or_introl eq_refl)).
    split.
    + intros [I | I]; [discriminate|]. apply H in I. rewrite upd_nth by (eapply nth_lt; eauto).
      destruct I as (x & X & Y & Z). destruct (Nat.eq_dec r r').
      * subst. rewrite H0 in X. injection X as X. subst x. lia.
      * exists x. auto.
    + intros (x & X & Y & Z). right. apply H. rewrite upd_nth in X by (eapply nth_lt; eauto).
      destruct (Nat.eq_dec r r'); eauto. injection X as X. subst x. discriminate.
  - destruct I as [I | I]; [discriminate | eauto].
  - (* last *)
    specialize (CF _ _ C H1 (or_introl eq_refl)).
    assert (F : o_freed o = false) by (eapply (live _ r o C); simpl; eauto).
    split.
    + intros [I | I].
      * injection I as I. subst. exists (with_cnt (o_cnt o - 1) o).
        split; [eapply nth_upd_eq; eauto | simpl; auto].
      * apply H in I. rewrite upd_nth by (eapply nth_lt; eauto).
        destruct I as (x & X & Y & Z). destruct (Nat.eq_dec r r').
        -- subst. exists (with_cnt (o_cnt o - 1) o). simpl. auto.
        -- exists x. auto.
    + intros (x & X & Y & Z). rewrite upd_nth in X by (eapply nth_lt; eauto).
      destruct (Nat.eq_dec r r'); [left; congruence|]. right. apply H. eauto.
  - auto.
  - (* reject *)
    specialize (CF _ _ C H0 (or_introl eq_refl)).
    split.
    + intros [I | [I | I]]; try discriminate. apply H in I. rewrite upd_nth by (eapply nth_lt; eauto).
      destruct I as (x & X & Y & Z). destruct (Nat.eq_dec r r').
      * subst. rewrite H0 in X. injection X as X. subst x. lia.
      * exists x. auto.
    + intros (x & X & Y & Z). right. right. apply H. rewrite upd_nth in X by (eapply nth_lt; eauto).
      destruct (Nat.eq_dec r r'); eauto. injection X as X. subst x. discriminate.
  - destruct I as [I | [I | I]]; try discriminate. eauto.
  - rewrite H. symmetry. eapply leak_upd; eauto. simpl. tauto.
  - eauto.
  - assert (Q : In (ELast r') (ERelease r f :: with_alive f x l) <-> In (ELast r') l).
    { split; [intros [I | I]; [discriminate | apply last_alive in I; auto] | right; apply last_alive; auto]. }
    rewrite Q, H. symmetry. eapply leak_upd; eauto. simpl. tauto.
  - destruct I as [I | I]; [discriminate|]. apply last_alive in I. eauto.
  - rewrite H. symmetry. eapply leak_upd; eauto. simpl. tauto.
  - eauto.
  - rewrite last_alive. auto.
  - apply last_alive in I. eauto.
  - (* new *)
    assert (Q : In (ELast r') (ENewReq c (length os) f :: with_alive f x l) <-> In (ELast r') l).
    { split; [intros [I | I]; [discriminate | apply last_alive in I; auto] | right; apply last_alive; auto]. }
    rewrite Q, H. split; intros (y & Y & Z).
    + exists y. split; auto. rewrite nth_error_app1; auto. eapply nth_lt; eauto.
    + apply nth_app_new in Y. destruct Y as [(L & Y) | (L & Y)]; [eauto|]. subst y. simpl in Z. lia.
  - destruct I as [I | I]; [discriminate|]. apply last_alive in I. eauto.
  - auto.
  - eauto.
  - rewrite <- H. simpl. split; [intros [I | I]; [discriminate | auto] | auto].
  - destruct I as [I | I]; [discriminate | eauto].
  - rewrite <- H. simpl. split; [intros [I | I]; [subst; discriminate | auto] | auto].
  - destruct I as [I | I]; [subst; discriminate | eauto].
  - rewrite <- H. simpl. split; [intros [I | I]; [discriminate | auto] | auto].
  - destruct I as [I | I]; [discriminate | eauto].
  - rewrite <- H. simpl. split; [intros [I | I]; [discriminate | auto] | auto].
  - destruct I as [I | I]; [discriminate | eauto].
Qed.

(** * Completed requests *)

Definition i_settled (g : ghost) : Prop := forall r, settled_in (g_log g) r -> is_ready (g_objs g) r.

Lemma settled_cons : forall e l r, settled_in (e :: l) r ->
  settled_in l r \/ exists c, e = EWaited c r \/ e = ECancelled c r (Some true).
Proof.
  intros e l r (c & [[I | I] | [I | I]]); subst;
    [right; exists c; auto | left; exists c; auto | right; exists c; auto | left; exists c; auto].
Qed.

Lemma settled_alive : forall f x l r, settled_in (with_alive f x l) r -> settled_in l r.
Proof.
  intros. unfold with_alive in H. destruct (f_alive x); auto. apply settled_cons in H.
  destruct H as [H | (c & [H | H])]; auto; discriminate.
Qed.

Lemma prim_settled : forall k g g', core g -> i_settled g -> prim k g g' -> i_settled g'.
Proof.
  intros k g g' C H P r I.
  assert (K : settled_in (g_log g) r -> is_ready (g_objs g') r).
  { intros Q. eapply prim_ready; eauto. }
  destruct P; gsimp; auto;
    try (apply K; apply settled_cons in I; destruct I as [I | (c' & [I | I])]; auto; discriminate).
  - apply settled_cons in I. destruct I as [I | (c' & [I | I])]; try discriminate.
    apply settled_cons in I. destruct I as [I | (c' & [I | I])]; try discriminate. auto.
  - apply settled_cons in I. destruct I as [I | (c' & [I | I])]; try discriminate.
    apply K. eapply settled_alive; eauto.
  - apply K. eapply settled_alive; eauto.
  - apply settled_cons in I. destruct I as [I | (c' & [I | I])]; try discriminate.
    apply K. eapply settled_alive; eauto.
  - apply settled_cons in I. destruct I as [I | (c' & [I | I])]; auto; subst; discriminate.
  - apply settled_cons in I. destruct I as [I | (c' & [I | I])]; auto; try discriminate.
    injection I as I1 I2. subst. exists o. auto.
  - apply settled_cons in I. destruct I as [I | (c' & [I | I])]; auto; try discriminate.
    injection I as I1 I2. subst. exists o. auto.
Qed.

(** * Requests and their files *)

Definition i_new (g : ghost) : Prop := forall r f, (exists c, In (ENewReq c r f) (g_log g)) <->
  exists o, nth_error (g_objs g) r = Some o /\ o_fid o = f.

Lemma fid_upd : forall os i o o' r f, nth_error os i = Some o -> o_fid o' = o_fid o ->
  ((exists x, nth_error (upd i o' os) r = Some x /\ o_fid x = f) <->
   (exists x, nth_error os r = Some x /\ o_fid x = f)).
Proof.
  intros os i o o' r f N E. rewrite upd_nth by (eapply nth_lt; eauto).
  destruct (Nat.eq_dec i r).
  - subst. rewrite N. split; intros (x & X & Y); injection X as X; subst x.
    + exists o. split; auto. congruence.
    + exists o'. split; auto. congruence.
  - tauto.
Qed.

Lemma new_cons : forall e l r f, (forall c r f, e <> ENewReq c r f) ->
  ((exists c, In (ENewReq c r f) (e :: l)) <-> exists c, In (ENewReq c r f) l).
Proof.
  intros. split; intros (c & I); exists c; simpl in *; auto. destruct I as [I | I]; auto.
  exfalso. eapply H; eauto.
Qed.

Lemma new_alive : forall g x l r f,
  (exists c, In (ENewReq c r f) (with_alive g x l)) <-> exists c, In (ENewReq c r f) l.
Proof.
  intros. unfold with_alive. destruct (f_alive x); [tauto|]. apply new_cons. discriminate.
Qed.

Lemma prim_new : forall k g g', i_new g -> prim k g g' -> i_new g'.
Proof.
  intros k g g' H P r' f'. specialize (H r' f'). destruct P; gsimp; auto;
    try (rewrite H; symmetry; eapply fid_upd; eauto; fail);
    try (rewrite new_cons by discriminate; rewrite H; symmetry; eapply fid_upd; eauto; fail);
    try (rewrite new_cons by discriminate; auto; fail).
  - rewrite new_cons by discriminate. rewrite new_cons by discriminate.
    rewrite H. symmetry. eapply fid_upd; eauto.
  - rewrite new_cons by discriminate. rewrite new_alive, H. symmetry. eapply fid_upd; eauto.
  - rewrite new_alive. auto.
  - split.
    + intros (c' & [I | I]).
      * injection I as I1 I2 I3. subst. exists (mk_obj (Some f') f' OP 1 false). split; auto.
        rewrite nth_error_app2 by auto. rewrite Nat.sub_diag. auto.
      * assert (Q : exists c, In (ENewReq c r' f') l) by (apply new_alive with (g := f) (x := x); eauto).
        apply H in Q. destruct Q as (o & N & E). exists o. split; auto.
        rewrite nth_error_app1; auto. eapply nth_lt; eauto.
    + intros (o & N & E). apply nth_app_new in N. destruct N as [(L & N) | (L & N)].
      * assert (Q : exists c, In (ENewReq c r' f') l) by (apply H; eauto).
        apply (new_alive f x) in Q. destruct Q as (c' & Q). exists c'. right. auto.
      * subst. exists c. simpl. auto.
  - destruct e; try discriminate; rewrite new_cons by discriminate; auto.
Qed.

Definition i_dom (g : ghost) : Prop := forall r o f,
  nth_error (g_objs g) r = Some o -> o_file o = Some f -> f < length (g_files g).

Lemma prim_dom : forall k g g', i_dom g -> prim k g g' -> i_dom g'.
Proof.
  unfold i_dom. intros k g g' H P r' o' f' N E. destruct P; gsimp; rewrite ?length_upd; eauto;
    try (apply nth_upd in N; destruct N as [(E1 & E2 & _) | (E1 & E2)];
         [subst; simpl in E; try discriminate; eauto | eauto]; fail).
  - apply nth_app_new in N. destruct N as [(L & N) | (L & N)]; eauto. subst. simpl in E.
    injection E as E. subst. eapply nth_lt; eauto.
  - rewrite app_length. specialize (H _ _ _ N E). lia.
Qed.

Definition i_nref (g : ghost) : Prop := forall f x,
  nth_error (g_files g) f = Some x -> f_nref x = length (filter (on_file f) (g_objs g)).

Lemma prim_nref : forall k g g', core g -> i_dom g -> i_nref g -> prim k g g' -> i_nref g'.
Proof.
  unfold i_nref. intros k g g' C D H P f' x' N.
  assert (U : forall os i o o', nth_error os i = Some o -> o_file o' = o_file o ->
     length (filter (on_file f') (upd i o' os)) = length (filter (on_file f') os)).
  { intros os i o o' A B. pose proof (filter_upd (on_file f') _ _ _ o' A) as Q.
    unfold on_file in Q at 2 4. rewrite B in Q. lia. }
  destruct P; gsimp; eauto; try (erewrite U; [|eauto|reflexivity]; eauto; fail).
  - (* release *)
    pose proof (filter_upd (on_file f') _ _ _ (with_file None o) H0) as Q.
    unfold on_file in Q at 2 4. rewrite H1 in Q. simpl in Q.
    apply nth_upd in N. destruct N as [(E1 & E2 & _) | (E1 & E2)].
    + subst. simpl. rewrite (H _ _ H2). rewrite Nat.eqb_refl in Q. lia.
    + rewrite (H _ _ E2). rewrite (proj2 (Nat.eqb_neq _ _) E1) in Q. lia.
  - (* new *)
    rewrite filter_app, app_length. simpl. unfold on_file at 2. simpl.
    apply nth_upd in N. destruct N as [(E1 & E2 & _) | (E1 & E2)].
    + subst. simpl. rewrite (H _ _ H0), Nat.eqb_refl. simpl. lia.
    + rewrite (H _ _ E2). rewrite (proj2 (Nat.eqb_neq _ _) E1). simpl. lia.
  - (* newfile *)
    destruct (Nat.lt_ge_cases f' (length fs)) as [L | L].
    + rewrite nth_error_app1 in N by auto. auto.
    + rewrite nth_error_app2 in N by auto. destruct (f' - length fs) as [|n]; [|destruct n; discriminate].
      simpl in N. injection N as N. subst x'. simpl. symmetry. apply filter_none_conv.
      intros r o A. unfold on_file. destruct (o_file o) eqn:F; auto.
      specialize (D _ _ _ A F). simpl in D. apply Nat.eqb_neq. lia.
  - apply nth_upd in N. destruct N as [(E1 & E2 & _) | (E1 & E2)]; auto. subst. simpl. auto.
Qed.

Definition i_bal (g : ghost) : Prop :=
  (forall f x, nth_error (g_files g) f = Some x ->
     f_nref x + times (is_release_of f) (g_log g) = times (is_new_on f) (g_log g)) /\
  (forall f, length (g_files g) <= f -> times (is_new_on f) (g_log g) = 0 /\
     times (is_release_of f) (g_log g) = 0).

Ltac rwt := rewrite ?times_cons, ?times_alive by reflexivity; cbn [is_new_on is_release_of].

Lemma prim_bal : forall k g g', core g -> i_nref g -> i_bal g -> prim k g g' -> i_bal g'.
Proof.
  unfold i_bal. intros k g g' C NR (H & H') P.
  destruct P; gsimp; (split; [intros f' x' N | intros f' L]); rewrite ?length_upd in *;
    try (specialize (H f' x' N)); try (specialize (H' f' L)); rwt; auto.
  - (* release *)
    apply nth_upd in N. destruct N as [(E1 & E2 & _) | (E1 & E2)].
    + subst. specialize (H _ _ H2). simpl. rewrite Nat.eqb_refl.
      assert (0 < f_nref x).
      { rewrite (NR _ _ H2). gsimp.
        destruct (length (filter (on_file f') os)) eqn:Z; [|lia].
        pose proof (filter_none _ _ Z _ _ H0) as Q. unfold on_file in Q. rewrite H1, Nat.eqb_refl in Q. discriminate. }
      lia.
    + specialize (H _ _ E2). rewrite (proj2 (Nat.eqb_neq _ _) E1). lia.
  - assert (f <> f') by (apply nth_lt in H2; lia).
    rewrite (proj2 (Nat.eqb_neq _ _) H3). auto.
  - (* new *)
    apply nth_upd in N. destruct N as [(E1 & E2 & _) | (E1 & E2)].
    + subst. specialize (H _ _ H0). simpl. rewrite Nat.eqb_refl. lia.
    + specialize (H _ _ E2). rewrite (proj2 (Nat.eqb_neq _ _) E1). lia.
  - assert (f <> f') by (apply nth_lt in H0; lia).
    rewrite (proj2 (Nat.eqb_neq _ _) H1). auto.
  - (* newfile *)
    destruct (Nat.lt_ge_cases f' (length fs)) as [L | L].
    + rewrite nth_error_app1 in N by auto. auto.
    + destruct (H' _ L). rewrite nth_error_app2 in N by auto.
      destruct (f' - length fs) as [|n]; [|destruct n; discriminate].
      simpl in N. injection N as N. subst x'. simpl. lia.
  - rewrite app_length in L. apply H'. lia.
  - apply nth_upd in N. destruct N as [(E1 & E2 & _) | (E1 & E2)]; auto. subst. simpl. auto.
  - destruct e; try discriminate; auto.
  - destruct e; try discriminate; auto.
Qed.

(** * Destroyed files *)

Definition i_dest (g : ghost) : Prop :=
  (forall f x, nth_error (g_files g) f = Some x ->
     (f_alive x = false <-> exists n, In (EDestroy f n) (g_log g))) /\
  (forall f n, In (EDestroy f n) (g_log g) -> f < length (g_files g)).

Lemma dest_cons : forall e l f, (forall f n, e <> EDestroy f n) ->
  ((exists n, In (EDestroy f n) (e :: l)) <-> exists n, In (EDestroy f n) l).
Proof.
  intros. split; intros (c & I); exists c; simpl in *; auto. destruct I as [I | I]; auto.
  exfalso. eapply H; eauto.
Qed.

Lemma dest_alive : forall g x l f,
  (exists c, In (EDestroy f c) (with_alive g x l)) <-> exists c, In (EDestroy f c) l.
Proof.
  intros. unfold with_alive. destruct (f_alive x); [tauto|]. apply dest_cons. discriminate.
Qed.

Lemma i_dest_alt : forall g, i_dest g <->
  (forall f x, nth_error (g_files g) f = Some x ->
     (f_alive x = false <-> exists n, In (EDestroy f n) (g_log g))) /\
  (forall f, (exists n, In (EDestroy f n) (g_log g)) -> f < length (g_files g)).
Proof.
  intros. unfold i_dest. split; intros (A & B); split; auto.
  - intros f (n & I). eauto.
  - intros f n I. apply B. eauto.
Qed.

Lemma prim_dest : forall k g g', i_dest g -> prim k g g' -> i_dest g'.
Proof.
  intros k g g' I P. rewrite i_dest_alt in *. destruct I as (H & H').
  assert (U : forall fs i x x' f' y, nth_error fs i = Some x -> f_alive x' = f_alive x ->
     nth_error (upd i x' fs) f' = Some y -> exists z, nth_error fs f' = Some z /\ f_alive z = f_alive y).
  { intros fs i x x' f' y A B Q. apply nth_upd in Q. destruct Q as [(E1 & E2 & _) | (E1 & E2)].
    - subst. exists x. auto.
    - exists y. auto. }
  destruct P; gsimp; (split; [intros f' x' N | intros f' I]); rewrite ?length_upd;
    rewrite ?dest_cons in * by discriminate; rewrite ?dest_alive in *; auto.
  - destruct (U _ _ _ _ _ _ H2 (eq_refl _ : f_alive (mk_fobj (f_nref x - 1) (f_alive x)) = _) N) as (z & Z & E).
    rewrite <- E. auto.
  - destruct (U _ _ _ _ _ _ H0 (eq_refl _ : f_alive (mk_fobj (S (f_nref x)) (f_alive x)) = _) N) as (z & Z & E).
    rewrite <- E. auto.
  - destruct (Nat.lt_ge_cases f' (length fs)) as [L | L].
    + rewrite nth_error_app1 in N by auto. auto.
    + rewrite nth_error_app2 in N by auto. destruct (f' - length fs) as [|n]; [|destruct n; discriminate].
      simpl in N. injection N as N. subst x'. simpl. split; [discriminate|].
      intros Q. apply H' in Q. lia.
  - rewrite app_length. apply H' in I. lia.
  - apply nth_upd in N. destruct N as [(E1 & E2 & _) | (E1 & E2)].
    + subst. simpl. split; auto. intros _. exists (f_nref x). auto.
    + rewrite (H _ _ E2). split; intros (n & Q); exists n; simpl in *; auto.
      destruct Q as [Q | Q]; auto. injection Q as Q1 Q2. congruence.
  - destruct I as (n & [I | I]).
    + injection I as I1 I2. subst. eapply nth_lt; eauto.
    + apply H'. eauto.
  - rewrite dest_cons by (intros; intro; subst; discriminate). auto.
  - rewrite dest_cons in I by (intros; intro; subst; discriminate). auto.
Qed.

Definition no_obj_on (os : list obj) (f : nat) : Prop :=
  forall r o, nth_error os r = Some o -> o_file o <> Some f.

Definition i_safe (g : ghost) : Prop :=
  (forall f x, nth_error (g_files g) f = Some x -> f_alive x = false ->
     misused (g_log g) f \/ no_obj_on (g_objs g) f) /\
  (forall f, In (EBadFile f) (g_log g) -> misused (g_log g) f).

Lemma no_obj_upd : forall os i o o' f, nth_error os i = Some o ->
  (o_file o' = o_file o \/ o_file o' = None) -> no_obj_on os f -> no_obj_on (upd i o' os) f.
Proof.
  intros os i o o' f N E H r x X. apply nth_upd in X. destruct X as [(E1 & E2 & _) | (E1 & E2)].
  - subst. destruct E as [E | E]; rewrite E; [eapply H; eauto | discriminate].
  - eapply H; eauto.
Qed.

Lemma prim_safe : forall k g g', i_dest g -> i_nref g -> i_dom g -> i_safe g -> prim k g g' -> i_safe g'.
Proof.
  intros k g g' (DE & DE') NR DM (H & H') P.
  assert (MC := misused_cons). assert (MA := misused_alive).
  destruct P; gsimp; (split; [intros f' x' N A | intros f' I]); gsimp; eauto;
    try (destruct (H _ _ N A) as [Q | Q]; [left; auto | right; eauto using no_obj_upd]; fail);
    try (destruct (H _ _ N A) as [Q | Q]; [left; auto |
         right; eapply no_obj_upd; eauto; simpl; auto]; fail);
    try (destruct I as [I | I]; [discriminate | auto]; fail).
  - (* reject *) destruct I as [I | [I | I]]; [discriminate | discriminate | auto].
  - (* release *)
    assert (Q : misused l f' \/ no_obj_on os f').
    { apply nth_upd in N. destruct N as [(E1 & E2 & _) | (E1 & E2)]; eauto.
      subst. eapply H; eauto. }
    destruct Q as [Q | Q]; auto. right. eapply no_obj_upd; eauto; simpl; auto.
  - destruct I as [I | I]; [discriminate|]. apply in_alive in I. destruct I as [I | (I & E)]; auto.
    injection E as E. subst. apply MC, MA. destruct (H _ _ H2 I) as [Q | Q]; auto.
    exfalso. eapply Q; eauto.
  - apply in_alive in I. destruct I as [I | (I & E)]; auto.
    injection E as E. subst. apply MA. destruct (H _ _ H2 I) as [Q | Q]; auto.
    exfalso. eapply Q; eauto.
  - (* new *)
    destruct (Nat.eq_dec f f') as [E | E].
    + subst. rewrite upd_nth in N by (eapply nth_lt; eauto).
      destruct (Nat.eq_dec f' f'); [|congruence]. injection N as N. subst x'. simpl in A.
      left. right. destruct (proj1 (DE _ _ H0) A) as (n & I).
      exists [], (with_alive f' x l), c, (length os), n. split; auto. apply in_alive. auto.
    + rewrite nth_upd_neq in N by auto. destruct (H _ _ N A) as [Q | Q]; auto.
      right. intros r o X. apply nth_app_new in X. destruct X as [(L & X) | (L & X)]; [eapply Q; eauto|].
      subst. simpl. congruence.
  - destruct I as [I | I]; [discriminate|]. apply in_alive in I. destruct I as [I | (I & E)]; auto.
    injection E as E. subst. right. destruct (proj1 (DE _ _ H0) I) as (n & J).
    exists [], (with_alive f x l), c, (length os), n. split; auto. apply in_alive. auto.
  - (* newfile *)
    destruct (Nat.lt_ge_cases f' (length fs)) as [L | L].
    + rewrite nth_error_app1 in N by auto. eauto.
    + rewrite nth_error_app2 in N by auto. destruct (f' - length fs) as [|n]; [|destruct n; discriminate].
      simpl in N. injection N as N. subst x'. discriminate.
  - (* destroy *)
    apply nth_upd in N. destruct N as [(E1 & E2 & _) | (E1 & E2)].
    + subst. destruct (Nat.eq_dec (f_nref x) 0) as [Z | Z].
      * right. intros r o X. rewrite (NR _ _ H0) in Z. pose proof (filter_none _ _ Z _ _ X) as Q.
        unfold on_file in Q. intros E. rewrite E, Nat.eqb_refl in Q. discriminate.
      * left. left. exists (f_nref x). split; [lia | simpl; auto].
    + destruct (H _ _ E2 A) as [Q | Q]; auto.
  - destruct I as [I | I]; [subst; discriminate | auto].
Qed.

(** * What ~file saw *)

Definition i_seen (g : ghost) : Prop :=
  forall f n l1 l2, g_log g = l1 ++ EDestroy f n :: l2 ->
    n + times (is_release_of f) l2 = times (is_new_on f) l2 /\
    ((forall c r, In (ENewReq c r f) l2 -> settled_in l2 r) -> n = 0).

Lemma prim_seen : forall k g g', core g -> i_bal g -> i_nref g -> i_new g -> i_settled g ->
  i_seen g -> prim k g g' -> i_seen g'.
Proof.
  intros k g g' C (BA & _) NR NW ST H P f' n' l1 l2 E.
  destruct P; gsimp; eauto;
    try (apply cons_split in E; destruct E as [(_ & E & _) | (l1' & E)]; [discriminate | eauto]; fail).
  - apply cons_split in E. destruct E as [(_ & E & _) | (l1' & E)]; [discriminate|].
    apply cons_split in E. destruct E as [(_ & E & _) | (l1'' & E)]; [discriminate | eauto].
  - apply cons_split in E. destruct E as [(_ & E & _) | (l1' & E)]; [discriminate|].
    apply alive_split in E; [|discriminate]. destruct E as (l1'' & E). eauto.
  - apply alive_split in E; [|discriminate]. destruct E as (l1'' & E). eauto.
  - apply cons_split in E. destruct E as [(_ & E & _) | (l1' & E)]; [discriminate|].
    apply alive_split in E; [|discriminate]. destruct E as (l1'' & E). eauto.
  - apply cons_split in E. destruct E as [(_ & E & E2) | (l1' & E)]; [|eauto].
    injection E as E3 E4. subst. split; [auto|]. intros Q. rewrite (NR _ _ H0). gsimp.
    apply filter_none_conv. intros r o X. unfold on_file. destruct (o_file o) as [f|] eqn:F; auto.
    destruct (Nat.eqb_spec f f'); auto. subst f. exfalso.
    (* the request was made on this file, so it is settled and has released it *)
    assert (FI : o_fid o = f').
    { destruct (in_dec Nat.eq_dec r (map fst O)) as [I | I].
      - apply in_map_iff in I. destruct I as ((y & p) & Y & I). simpl in Y. subst y.
        pose proof (co_ok _ C _ _ _ I X) as PK. destruct p; simpl in PK; destruct PK; congruence.
      - destruct (co_rest _ C _ _ X I) as [(_ & Y) | (_ & _ & _ & Y)]; congruence. }
    assert (EX : exists c, In (ENewReq c r f') l2) by (apply NW; eauto).
    destruct EX as (c & EX). apply Q in EX. apply ST in EX. destruct EX as (o2 & X2 & RD).
    simpl in X2. assert (o2 = o) by congruence. subst o2.
    destruct (in_dec Nat.eq_dec r (map fst O)) as [I | I].
    + apply in_map_iff in I. destruct I as ((y & p) & Y & I). simpl in Y. subst y.
      pose proof (co_ok _ C _ _ _ I X) as PK. destruct p; simpl in PK; destruct PK; congruence.
    + destruct (co_rest _ C _ _ X I) as [(_ & Y) | (_ & _ & Y & _)]; congruence.
  - apply cons_split in E. destruct E as [(_ & E & _) | (l1' & E)]; [subst; discriminate | eauto].
Qed.

(** A file that is released after it was destroyed is touched. *)
Definition i_late (g : ghost) : Prop :=
  forall r f n l1 l2, g_log g = l1 ++ ERelease r f :: l2 -> In (EDestroy f n) l2 -> In (EBadFile f) l2.

Lemma prim_late : forall k g g', i_dest g -> i_late g -> prim k g g' -> i_late g'.
Proof.
  intros k g g' (DE & _) H P r' f' n' l1 l2 E I.
  destruct P; gsimp; eauto;
    try (apply cons_split in E; destruct E as [(_ & E & _) | (l1' & E)]; [discriminate | eauto]; fail).
  - apply cons_split in E. destruct E as [(_ & E & _) | (l1' & E)]; [discriminate|].
    apply cons_split in E. destruct E as [(_ & E & _) | (l1'' & E)]; [discriminate | eauto].
  - apply cons_split in E. destruct E as [(_ & E & E2) | (l1' & E)].
    + injection E as E3 E4. subst. apply in_alive in I. destruct I as [I | (_ & I)]; [|discriminate].
      apply in_alive. right. split; auto. apply (DE _ _ H2). eauto.
    + apply alive_split in E; [|discriminate]. destruct E as (l1'' & E). eauto.
  - apply alive_split in E; [|discriminate]. destruct E as (l1'' & E). eauto.
  - apply cons_split in E. destruct E as [(_ & E & _) | (l1' & E)]; [discriminate|].
    apply alive_split in E; [|discriminate]. destruct E as (l1'' & E). eauto.
  - apply cons_split in E. destruct E as [(_ & E & _) | (l1' & E)]; [subst; discriminate | eauto].
Qed.

(** * All together *)

Record linv (k : kind) (g : ghost) : Prop := {
  l_core : core g; l_free : i_free g; l_freest : i_freest g; l_bad : i_bad g; l_last : i_last k g;
  l_settled : i_settled g; l_new : i_new g; l_dom : i_dom g; l_nref : i_nref g; l_bal : i_bal g;
  l_dest : i_dest g; l_safe : i_safe g; l_seen : i_seen g; l_late : i_late g
}.

Lemma prim_linv : forall k g g', linv k g -> prim k g g' -> linv k g'.
Proof.
  intros k g g' [] P. constructor.
  - eapply prim_core; eauto.
  - eapply prim_free; eauto.
  - eapply prim_freest; eauto.
  - eapply prim_bad; eauto.
  - eapply prim_last; eauto.
  - eapply prim_settled; eauto.
  - eapply prim_new; eauto.
  - eapply prim_dom; eauto.
  - eapply prim_nref; eauto.
  - eapply prim_bal; eauto.
  - eapply prim_dest; eauto.
  - eapply prim_safe; eauto.
  - eapply prim_seen; eauto.
  - eapply prim_late; eauto.
Qed.

Lemma nil_nth : forall A r (x : A), nth_error [] r = Some x -> False.
Proof. destruct r; discriminate. Qed.

Lemma empty_linv : forall k, linv k empty_ghost.
Proof.
  intros. constructor.
  - apply empty_core.
  - intros r. simpl. destruct r; auto.
  - intros r st [].
  - intros r. simpl. tauto.
  - split; [intros r; split; [intros [] | intros (o & N & _); exfalso; exact (nil_nth _ _ _ N)] | intros r []].
  - intros r (c & [[] | []]).
  - intros r f. split; [intros (c & []) | intros (o & N & _); exfalso; exact (nil_nth _ _ _ N)].
  - intros r o f N. exfalso. exact (nil_nth _ _ _ N).
  - intros f x N. exfalso. exact (nil_nth _ _ _ N).
  - split; [intros f x N; exfalso; exact (nil_nth _ _ _ N) | intros; simpl; auto].
  - split; [intros f x N; exfalso; exact (nil_nth _ _ _ N) | intros f n []].
  - split; [intros f x N; exfalso; exact (nil_nth _ _ _ N) | intros f []].
  - intros f n l1 l2 E. simpl in E. destruct l1; discriminate.
  - intros r f n l1 l2 E. simpl in E. destruct l1; discriminate.
Qed.

Lemma prims_linv : forall k g g', linv k g -> prims k g g' -> linv k g'.
Proof.
  intros k g g' L P. induction P as [g|g g1 g2 P IH Q].
  - exact L.
  - exact (prim_linv _ _ _ (IH L) Q).
Qed.

Lemma reachable_linv : forall k ns nc s, reachable k ns nc s -> linv k (ghost_of s).
Proof.
  intros k ns nc s R. destruct (reachable_prims _ _ _ _ R) as (P & _).
  eapply prims_linv; eauto. apply empty_linv.
Qed.
