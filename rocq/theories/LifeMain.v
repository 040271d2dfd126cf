(** Lifetime of requests and files: every action is a sequence of primitive
    effects, so the core invariant holds in every reachable state. *)
From Coq Require Import List Bool PeanoNat Lia Permutation.
From Verif Require Import LifeModel LifeSpec LifeProofs LifeProofs2.
Import ListNotations.

Definition ghost_of (s : state) : ghost := abs s (refs s) (own s).

(** A client that is about to make [rp] in cancel() has a pointer. *)
Definition can1 (s : state) : Prop :=
  forall cl r, In cl (st_clients s) -> cl_pc cl = CCan1 r -> In r (cl_hold cl).

Definition inv (s : state) : Prop := core (ghost_of s) /\ can1 s.

Lemma waiting_app : forall a b, waiting (a ++ b) = waiting a ++ waiting b.
Proof. intros. apply map_app. Qed.

Ltac deq :=
  repeat match goal with
  | |- context [if ?d then _ else _] => destruct d
  | H : context [if ?d then _ else _] |- _ => destruct d
  end.

Lemma client_refs_eq : forall c, client_refs c = cl_hold c ++ cpc_refs (cl_pc c).
Proof. auto. Qed.
Lemma server_refs_eq : forall v, server_refs v = sv_cbs v ++ spc_refs (sv_pc v).
Proof. auto. Qed.
Lemma server_own_eq : forall v, server_own v = waiting (sv_cbs v) ++ spc_own (sv_pc v).
Proof. auto. Qed.

Ltac cnt1 :=
  repeat rewrite flat_map_app; cbn [flat_map];
  repeat rewrite client_refs_eq; repeat rewrite server_refs_eq; repeat rewrite server_own_eq;
  cbn [map app cl_hold cl_pc sv_cbs sv_pc cpc_refs spc_refs client_own spc_own stage_own];
  repeat rewrite waiting_app; cbn [waiting map];
  repeat rewrite count_occ_app; cbn [count_occ].

Ltac cnt := cnt1; repeat rewrite count_occ_app; cbn [count_occ];
  repeat rewrite count_occ_app; cbn [count_occ]; deq; try congruence; try (unfold waiting in *; lia).

(** Permutations by counting; [H] are permutations to be used. *)
Ltac pcount := apply (Permutation_count_occ Nat.eq_dec); intros z.
Ltac pcount2 := apply (Permutation_count_occ ph_dec); intros z.

Ltac csplit3 := split; [|split].

Lemma clients_given_refs : forall h st r cls cls', clients_given h st r cls cls' ->
  Permutation (flat_map client_refs cls') (given h st r ++ flat_map client_refs cls) /\
  flat_map client_own cls' = flat_map client_own cls /\
  forall c cl', nth_error cls' c = Some cl' ->
    exists cl, nth_error cls c = Some cl /\ cl_pc cl' = cl_pc cl /\
      (forall x, In x (cl_hold cl) -> In x (cl_hold cl')).
Proof.
  intros. destruct st; destruct h as [d|]; simpl in *;
    try (subst; split; [apply Permutation_refl | split; [auto | intros; exists cl'; auto]]).
  destruct H as (cl & N & E). csplit3.
  - destruct (upd_split _ _ _ _ N) as (l1 & l2 & L & U). rewrite U in E. subst cls cls'.
    pcount. cnt.
  - destruct (upd_split _ _ _ _ N) as (l1 & l2 & L & U). rewrite U in E. subst cls cls'.
    rewrite !flat_map_app. simpl. auto.
  - intros. subst cls'. apply nth_upd in H. destruct H as [(E1 & E2 & _) | (E1 & E2)].
    + subst. exists cl. simpl. auto.
    + exists cl'. auto.
Qed.

Lemma in_refs_client : forall s c cl r, nth_error (st_clients s) c = Some cl -> In r (client_refs cl) ->
  In r (refs s).
Proof.
  intros. unfold refs. rewrite !in_app_iff. do 3 right. apply in_flat_map. exists cl.
  split; auto. eapply nth_error_In; eauto.
Qed.

Lemma in_refs_server : forall s i v r, nth_error (st_servers s) i = Some v -> In r (server_refs v) ->
  In r (refs s).
Proof.
  intros. unfold refs. rewrite !in_app_iff. do 2 right. left. apply in_flat_map. exists v.
  split; auto. eapply nth_error_In; eauto.
Qed.

Lemma holds_in : forall cl r, holds cl r = true -> In r (cl_hold cl).
Proof.
  unfold holds. intros. apply existsb_exists in H. destruct H as (x & I & E).
  apply Nat.eqb_eq in E. subst. auto.
Qed.

(** Two references: not a new request. *)
Lemma not_new : forall s r, core (ghost_of s) -> 1 < count (refs s) r -> ~ In (r, PNew) (own s).
Proof. intros s r C H I. pose proof (co_new _ C _ I). simpl in H0. lia. Qed.

Lemma new_is_client : forall s r, In (r, PNew) (own s) ->
  exists c cl, nth_error (st_clients s) c = Some cl /\ cl_pc cl = CNew r.
Proof.
  unfold own. intros. rewrite !in_app_iff in H. destruct H as [H | [H | [H | H]]].
  - apply in_waiting in H. destruct H. discriminate.
  - apply in_waiting in H. destruct H. discriminate.
  - apply in_flat_map in H. destruct H as (v & V & H). exfalso.
    unfold server_own in H. rewrite in_app_iff in H. destruct H as [H | H].
    { apply in_waiting in H. destruct H. discriminate. }
    destruct (sv_pc v); simpl in H; try tauto.
    + destruct H; [discriminate | tauto].
    + rewrite in_app_iff in H. destruct H as [H | H].
      * destruct st; simpl in H; intuition discriminate.
      * apply in_waiting in H. destruct H. discriminate.
    + apply in_waiting in H. destruct H. discriminate.
    + rewrite in_app_iff in H. destruct H as [H | H]; apply in_waiting in H; destruct H; discriminate.
  - apply in_flat_map in H. destruct H as (v & V & H). apply In_nth_error in V. destruct V as (c & V).
    exists c, v. split; auto. unfold client_own in H. destruct (cl_pc v); simpl in H; try tauto.
    + destruct H; [|tauto]. injection H as H. subst. auto.
    + destruct st; simpl in H; intuition discriminate.
Qed.

(** A request some thread has a pointer to outside of aread/awrite is not new. *)
Lemma held_not_new : forall s c cl r, core (ghost_of s) -> nth_error (st_clients s) c = Some cl ->
  In r (cl_hold cl) -> ~ In (r, PNew) (own s).
Proof.
  intros s c cl r C N I X. destruct (new_is_client _ _ X) as (d & cl2 & N2 & P2).
  revert X. apply not_new; auto. unfold refs, count.
  rewrite !count_occ_app.
  assert (1 < count_occ Nat.eq_dec (flat_map client_refs (st_clients s)) r); [|lia].
  apply (count_occ_In Nat.eq_dec) in I.
  destruct (Nat.eq_dec c d) as [E | E].
  - subst. assert (cl2 = cl) by congruence. subst.
    destruct (upd_split _ _ _ _ N) as (l1 & l2 & L & _). rewrite L.
    rewrite flat_map_app. cbn [flat_map]. rewrite !count_occ_app. unfold client_refs at 2. rewrite P2.
    rewrite count_occ_app. cbn [cpc_refs count_occ]. destruct (Nat.eq_dec r r); [lia | congruence].
  - destruct (upd_split _ _ _ _ N) as (l1 & l2 & L & U).
    assert (I2 : In cl2 (l1 ++ l2)).
    { assert (N3 : nth_error (upd c (mk_client [] CIdle) (st_clients s)) d = Some cl2)
        by (rewrite nth_upd_neq; auto).
      rewrite U in N3. apply nth_error_In in N3. rewrite in_app_iff in *. simpl in N3.
      destruct N3 as [N3 | [N3 | N3]]; auto. subst cl2. discriminate. }
    assert (Q : In r (flat_map client_refs (l1 ++ l2))).
    { apply in_flat_map. exists cl2. split; auto. unfold client_refs. rewrite P2, in_app_iff. simpl. auto. }
    apply (count_occ_In Nat.eq_dec) in Q. rewrite L. rewrite flat_map_app in *. cbn [flat_map].
    rewrite !count_occ_app in *. unfold client_refs at 2. rewrite count_occ_app. lia.
Qed.

(** A request that another place than its creator has a reference to is not new. *)
Lemma other_not_new : forall s r, core (ghost_of s) ->
  In r (st_queue s ++ st_kern s ++ flat_map server_refs (st_servers s)) -> ~ In (r, PNew) (own s).
Proof.
  intros s r C I X. destruct (new_is_client _ _ X) as (d & cl2 & N2 & P2).
  revert X. apply not_new; auto. unfold refs, count.
  assert (Q : In r (flat_map client_refs (st_clients s))).
  { apply in_flat_map. exists cl2. split; [eapply nth_error_In; eauto|].
    unfold client_refs. rewrite P2, in_app_iff. simpl. auto. }
  apply (count_occ_In Nat.eq_dec) in Q, I. rewrite !count_occ_app in *. lia.
Qed.
