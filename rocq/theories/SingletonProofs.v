(** Invariants of the singleton used by many threads. *)
From Coq Require Import List Arith Bool Lia.
From Verif Require Import SingletonModel.
Import ListNotations.

Ltac csplit := repeat match goal with |- _ /\ _ => split end.

Definition bn (b : bool) : nat := if b then 1 else 0.
Fixpoint cnt {A} (f : A -> bool) (l : list A) : nat :=
  match l with [] => 0 | x :: r => bn (f x) + cnt f r end.

Lemma set_nth_length : forall A (l : list A) i x, length (set_nth l i x) = length l.
Proof.
  induction l; intros [|i] x; cbn; auto. unfold set_nth in *. cbn. rewrite IHl. auto.
Qed.

Lemma set_nth_cnt : forall A (f : A -> bool) l i x y, nth_error l i = Some x ->
  cnt f (set_nth l i y) + bn (f x) = cnt f l + bn (f y).
Proof.
  induction l; intros [|i] x y H; cbn in *; try discriminate.
  - inversion H; subst. unfold set_nth; cbn. lia.
  - specialize (IHl _ _ y H). unfold set_nth in *. cbn. lia.
Qed.

Lemma set_nth_same : forall A (l : list A) i x y, nth_error l i = Some x ->
  nth_error (set_nth l i y) i = Some y.
Proof.
  induction l; intros [|i] x y H; cbn in *; try discriminate; auto.
  unfold set_nth in *. cbn. eauto.
Qed.

Lemma set_nth_other : forall A (l : list A) i j y, i <> j ->
  nth_error (set_nth l i y) j = nth_error l j.
Proof.
  induction l; intros [|i] [|j] y H; cbn in *; try reflexivity; try congruence.
  unfold set_nth in *. cbn. apply IHl. congruence.
Qed.

Lemma cnt_pos : forall A (f : A -> bool) l i x, nth_error l i = Some x -> f x = true -> 1 <= cnt f l.
Proof.
  induction l; intros [|i] x H F; cbn in *; try discriminate.
  - inversion H; subst. rewrite F. cbn. lia.
  - specialize (IHl _ _ H F). lia.
Qed.

Lemma cnt_zero : forall A (f : A -> bool) l, (forall x, In x l -> f x = false) -> cnt f l = 0.
Proof. induction l; intros H; cbn; auto. rewrite (H a) by (left; auto). cbn. apply IHl. intros; apply H; right; auto. Qed.

Definition inside (p : pc) : bool :=
  match p with CTest | CNew | CReg | CRead | DTake | DDelete _ => true | _ => false end.
Definition is_reg (p : pc) : bool := match p with CReg => true | _ => false end.
Definition is_token (p : pc) : bool := match p with DLock | DTake => true | _ => false end.
Definition is_delete (p : pc) : bool := match p with DDelete _ => true | _ => false end.

Definition e_constructed (e : sevent) := match e with EConstructed _ => true | _ => false end.
Definition e_registered (e : sevent) := match e with ERegistered => true | _ => false end.
Definition e_bombed (e : sevent) := match e with EBombed => true | _ => false end.
Definition e_deleted (e : sevent) := match e with EDeleted _ => true | _ => false end.

(** What a returned pointer is, given what happened before (latest first). *)
Definition good_return (r : list sevent) (p : ptr) : Prop :=
  (exists n, p = Obj n /\ In (EConstructed n) r /\ ~ In EBombed r /\ ~ In (EDeleted n) r) \/
  (p = Bomb /\ In EBombed r).
Fixpoint good_trace (tr : list sevent) : Prop :=
  match tr with
  | [] => True
  | EReturned p :: r => good_trace r /\ good_return r p
  | _ :: r => good_trace r
  end.

(** What holds where a thread is. *)
Definition at_pc (i : ptr) (p : pc) : Prop :=
  match p with
  | CNew => i = Null
  | CReg => i = Obj 0
  | CRead | GRead => i <> Null
  | DDelete q => i = Bomb
  | _ => True
  end.

Record sinv (s : sstate) : Prop := {
  i_owner : forall t p, nth_error (s_pcs s) t = Some p -> inside p = true -> s_lock s = Some t;
  i_owned : forall t, s_lock s = Some t -> exists p, nth_error (s_pcs s) t = Some p /\ inside p = true;
  i_pc : forall t p, nth_error (s_pcs s) t = Some p -> at_pc (s_inst s) p;
  i_null : s_inst s = Null -> s_made s = 0;
  i_obj : forall n, s_inst s = Obj n -> n = 0 /\ s_made s = 1 /\ In (EConstructed 0) (s_trace s);
  i_made : s_made s <= 1 /\ cnt e_constructed (s_trace s) = s_made s;
  i_bomb : In EBombed (s_trace s) <-> s_inst s = Bomb;
  i_del : forall n, In (EDeleted n) (s_trace s) -> s_inst s = Bomb;
  i_trace : good_trace (s_trace s)
}.

Lemma nth_repeat_inv : forall A (x y : A) n t, nth_error (repeat x n) t = Some y -> y = x.
Proof. intros. apply nth_error_In in H. apply repeat_spec in H. auto. Qed.

Lemma sinv_init : forall n, sinv (s_init n).
Proof.
  intros n. constructor; cbn; auto; intros; try discriminate.
  - apply nth_repeat_inv in H. subst. discriminate.
  - apply nth_repeat_inv in H. subst. cbn. auto.
  - split; [tauto|discriminate].
  - tauto.
Qed.

(** Moving one thread: what is needed of the new program counter. *)
Lemma owner_move : forall s t p q pcs' lock',
  sinv s -> nth_error (s_pcs s) t = Some p -> pcs' = set_nth (s_pcs s) t q ->
  (inside p = true \/ s_lock s = None -> lock' = if inside q then Some t else None) ->
  (inside p = false -> s_lock s <> None -> inside q = false /\ lock' = s_lock s) ->
  (forall t' p', nth_error pcs' t' = Some p' -> inside p' = true -> lock' = Some t') /\
  (forall t', lock' = Some t' -> exists p', nth_error pcs' t' = Some p' /\ inside p' = true).
Proof.
  intros s t p q pcs' lock' I H -> A B.
  assert (C : (inside p = true \/ s_lock s = None) \/ (inside p = false /\ s_lock s <> None)).
  { destruct (inside p); auto. destruct (s_lock s); auto. right; split; congruence. }
  destruct C as [C|(C & D)].
  - specialize (A C). clear B. split.
    + intros t' p' N In'. destruct (Nat.eq_dec t t') as [<-|Ne].
      * rewrite (set_nth_same _ _ _ _ _ H) in N. inversion N; subst. rewrite In'. auto.
      * rewrite set_nth_other in N by auto. pose proof (i_owner _ I _ _ N In') as O.
        destruct C as [C|C]; [|congruence]. pose proof (i_owner _ I _ _ H C). congruence.
    + intros t' E. rewrite A in E. destruct (inside q) eqn:Q; [|discriminate]. inversion E; subst.
      exists q. split; auto. eapply set_nth_same; eauto.
  - destruct (B C D) as (Q & ->). split.
    + intros t' p' N In'. destruct (Nat.eq_dec t t') as [<-|Ne].
      * rewrite (set_nth_same _ _ _ _ _ H) in N. inversion N; subst. congruence.
      * rewrite set_nth_other in N by auto. eapply i_owner; eauto.
    + intros t' E. destruct (i_owned _ I _ E) as (p' & N & In'). exists p'. split; auto.
      rewrite set_nth_other; auto. intros ->. congruence.
Qed.

Lemma pc_move : forall s i' t q,
  (forall t p, nth_error (s_pcs s) t = Some p -> at_pc (s_inst s) p) ->
  (forall t' p, t' <> t -> nth_error (s_pcs s) t' = Some p -> at_pc (s_inst s) p -> at_pc i' p) ->
  at_pc i' q ->
  forall t' p, nth_error (set_nth (s_pcs s) t q) t' = Some p -> at_pc i' p.
Proof.
  intros s i' t q I A B t' p N.
  destruct (Nat.eq_dec t t') as [<-|Ne].
  - assert (L : t < length (s_pcs s)).
    { rewrite <- (set_nth_length _ (s_pcs s) t q). apply nth_error_Some. congruence. }
    destruct (nth_error (s_pcs s) t) eqn:X; [|apply nth_error_None in X; lia].
    rewrite (set_nth_same _ _ _ _ _ X) in N. inversion N; subst. auto.
  - rewrite set_nth_other in N by auto. eapply A; eauto.
Qed.

Lemma good_return_obj : forall s, sinv s -> s_inst s <> Null -> good_return (s_trace s) (s_inst s).
Proof.
  intros s I N. destruct (s_inst s) as [|n|] eqn:E; [congruence| |].
  - left. destruct (i_obj _ I _ E) as (-> & _ & C). exists 0. csplit; auto.
    + intros B. apply (i_bomb _ I) in B. congruence.
    + intros B. apply (i_del _ I) in B. congruence.
  - right. split; auto. apply (i_bomb _ I). auto.
Qed.

(** Threads inside the critical section are one. *)
Lemma other_outside : forall s t p t' p', sinv s -> nth_error (s_pcs s) t = Some p -> inside p = true ->
  t' <> t -> nth_error (s_pcs s) t' = Some p' -> inside p' = false.
Proof.
  intros s t p t' p' I H In1 Ne H'. destruct (inside p') eqn:E; auto.
  pose proof (i_owner _ I _ _ H In1). pose proof (i_owner _ I _ _ H' E). congruence.
Qed.

Lemma sinv_step : forall b s s', sinv s -> sstep b s s' -> sinv s'.
Proof.
  intros b s s' I St. inversion St; subst; clear St.
  - (* SGet *) destruct (owner_move s t _ GTest _ (s_lock s) I H eq_refl) as (O1 & O2); cbn.
    { intros [C|C]; [discriminate|auto]. } { auto. }
    destruct I. constructor; cbn; auto. eapply (pc_move s _ t GTest); eauto; cbn; auto.
  - destruct (owner_move s t _ CLock _ (s_lock s) I H eq_refl) as (O1 & O2); cbn.
    { intros [C|C]; [discriminate|auto]. } { auto. }
    destruct I. constructor; cbn; auto. eapply (pc_move s _ t CLock); eauto; cbn; auto.
  - (* SGTest *)
    set (q := match s_inst s with Null => CLock | _ => GRead end).
    assert (Q : inside q = false) by (subst q; destruct (s_inst s); auto).
    destruct (owner_move s t _ q _ (s_lock s) I H eq_refl) as (O1 & O2); cbn.
    { rewrite Q. intros [C|C]; [discriminate|auto]. } { auto. }
    destruct I. constructor; cbn; auto. eapply (pc_move s _ t q); eauto; cbn; auto.
    subst q. destruct (s_inst s) eqn:E; cbn; rewrite ?E; auto; congruence.
  - (* SGRead *)
    destruct (owner_move s t _ Idle _ (s_lock s) I H eq_refl) as (O1 & O2); cbn.
    { intros [C|C]; [discriminate|auto]. } { auto. }
    pose proof (i_pc _ I _ _ H) as P. cbn in P. pose proof (good_return_obj _ I P) as G.
    destruct I. constructor; cbn; auto.
    + eapply (pc_move s _ t Idle); eauto; cbn; auto.
    + intros n E. destruct (i_obj0 _ E) as (A & B & C). csplit; auto.
    + rewrite <- i_bomb0. intuition discriminate.
    + intros n [X|X]; [discriminate|]. eapply i_del0; eauto.
  - (* SCLock *)
    destruct (owner_move s t _ CTest _ (Some t) I H eq_refl) as (O1 & O2); cbn.
    { auto. } { congruence. }
    destruct I. constructor; cbn; auto. eapply (pc_move s _ t CTest); eauto; cbn; auto.
  - (* SCTest *)
    set (q := match s_inst s with Null => CNew | _ => CRead end).
    assert (Q : inside q = true) by (subst q; destruct (s_inst s); auto).
    pose proof (i_owner _ I _ _ H eq_refl) as L.
    destruct (owner_move s t _ q _ (s_lock s) I H eq_refl) as (O1 & O2); cbn.
    { rewrite Q. auto. } { discriminate. }
    destruct I. constructor; cbn; auto. eapply (pc_move s _ t q); eauto; cbn; auto.
    subst q. destruct (s_inst s) eqn:E; cbn; rewrite ?E; auto; congruence.
  - (* SCNew *)
    pose proof (i_owner _ I _ _ H eq_refl) as L. pose proof (i_pc _ I _ _ H) as P. cbn in P.
    pose proof (i_null _ I P) as M0.
    destruct (owner_move s t _ CReg _ (s_lock s) I H eq_refl) as (O1 & O2); cbn.
    { auto. } { discriminate. }
    assert (OO : forall t' p, t' <> t -> nth_error (s_pcs s) t' = Some p -> inside p = false)
      by (intros t0 p0 Ne N; exact (other_outside _ _ _ _ _ I H eq_refl Ne N)).
    destruct I. constructor; cbn; auto; rewrite ?M0 in *.
    + eapply (pc_move s _ t CReg); eauto; cbn; rewrite ?M0; auto.
      intros t' p Ne N. specialize (OO _ _ Ne N). destruct p; cbn in *; auto; try discriminate; congruence.
    + discriminate.
    + intros n E. injection E as <-. auto.
    + split; [lia|]. destruct i_made0. lia.
    + split; [|discriminate]. intros [X|X]; [discriminate|]. apply i_bomb0 in X. congruence.
    + intros n [X|X]; [discriminate|]. apply i_del0 in X. congruence.
  - (* SCThrow *)
    pose proof (i_owner _ I _ _ H eq_refl) as L.
    destruct (owner_move s t _ Idle _ None I H eq_refl) as (O1 & O2); cbn.
    { auto. } { discriminate. }
    destruct I. constructor; cbn; auto.
    + eapply (pc_move s _ t Idle); eauto; cbn; auto.
    + intros n E. destruct (i_obj0 _ E) as (A & B & C). csplit; auto.
    + rewrite <- i_bomb0. intuition discriminate.
    + intros n [X|X]; [discriminate|]. eapply i_del0; eauto.
  - (* SCReg *)
    pose proof (i_owner _ I _ _ H eq_refl) as L. pose proof (i_pc _ I _ _ H) as P. cbn in P.
    destruct (owner_move s t _ CRead _ (s_lock s) I H eq_refl) as (O1 & O2); cbn.
    { auto. } { discriminate. }
    destruct I. constructor; cbn; auto.
    + eapply (pc_move s _ t CRead); eauto; cbn; auto. congruence.
    + intros n E. destruct (i_obj0 _ E) as (A & B & C). csplit; auto.
    + rewrite <- i_bomb0. intuition discriminate.
    + intros n [X|X]; [discriminate|]. eapply i_del0; eauto.
  - (* SCRead *)
    pose proof (i_owner _ I _ _ H eq_refl) as L. pose proof (i_pc _ I _ _ H) as P. cbn in P.
    pose proof (good_return_obj _ I P) as G.
    destruct (owner_move s t _ Idle _ None I H eq_refl) as (O1 & O2); cbn.
    { auto. } { discriminate. }
    destruct I. constructor; cbn; auto.
    + eapply (pc_move s _ t Idle); eauto; cbn; auto.
    + intros n E. destruct (i_obj0 _ E) as (A & B & C). csplit; auto.
    + rewrite <- i_bomb0. intuition discriminate.
    + intros n [X|X]; [discriminate|]. eapply i_del0; eauto.
  - destruct (owner_move s t _ DLock _ (s_lock s) I H eq_refl) as (O1 & O2); cbn.
    { intros [C|C]; [discriminate|auto]. } { auto. }
    destruct I. constructor; cbn; auto. eapply (pc_move s _ t DLock); eauto; cbn; auto.
  - destruct (owner_move s t _ DLock _ (s_lock s) I H0 eq_refl) as (O1 & O2); cbn.
    { intros [C|C]; [discriminate|auto]. } { auto. }
    destruct I. constructor; cbn; auto. eapply (pc_move s _ t DLock); eauto; cbn; auto.
  - destruct (owner_move s t _ DTake _ (Some t) I H eq_refl) as (O1 & O2); cbn.
    { auto. } { congruence. }
    destruct I. constructor; cbn; auto. eapply (pc_move s _ t DTake); eauto; cbn; auto.
  - (* SDTake *)
    pose proof (i_owner _ I _ _ H eq_refl) as L.
    destruct (owner_move s t _ (DDelete (s_inst s)) _ (s_lock s) I H eq_refl) as (O1 & O2); cbn.
    { auto. } { discriminate. }
    assert (OO : forall t' p, t' <> t -> nth_error (s_pcs s) t' = Some p -> inside p = false)
      by (intros t0 p0 Ne N; exact (other_outside _ _ _ _ _ I H eq_refl Ne N)).
    destruct I. constructor; cbn; auto.
    + eapply (pc_move s _ t (DDelete (s_inst s))); eauto; cbn; auto.
      intros t' p Ne N. specialize (OO _ _ Ne N). destruct p; cbn in *; auto; try discriminate.
    + discriminate.
    + discriminate.
    + split; auto.
  - (* SDDelete *)
    pose proof (i_owner _ I _ _ H eq_refl) as L. pose proof (i_pc _ I _ _ H) as P. cbn in P.
    destruct (owner_move s t _ Idle _ None I H eq_refl) as (O1 & O2); cbn.
    { auto. } { discriminate. }
    assert (PC : forall t' p, nth_error (set_nth (s_pcs s) t Idle) t' = Some p -> at_pc (s_inst s) p).
    { eapply (pc_move s _ t Idle); cbn; auto. apply I. }
    destruct I. destruct p as [|n|]; constructor; cbn; auto; try exact PC;
      try (intros m E; congruence).
    + rewrite <- i_bomb0. intuition discriminate.
    + rewrite <- i_bomb0. intuition discriminate.
Qed.

Lemma sinv_reach : forall b n s, sreach b n s -> sinv s.
Proof. induction 1; [apply sinv_init|eapply sinv_step; eauto]. Qed.

(** Tokens: without calls by hand, every destruction is a registered handler. *)
Record tinv (s : sstate) : Prop := {
  t_reg : cnt e_registered (s_trace s) + cnt is_reg (s_pcs s) = s_made s;
  t_tok : s_handlers s + cnt is_token (s_pcs s) + cnt e_bombed (s_trace s) = cnt e_registered (s_trace s);
  t_del : cnt is_delete (s_pcs s) + cnt e_deleted (s_trace s) = cnt e_bombed (s_trace s);
  t_pc : forall t p, nth_error (s_pcs s) t = Some (DDelete p) -> p = Obj 0;
  t_ok : ~ In EBadDelete (s_trace s);
  t_names : forall n, In (EDeleted n) (s_trace s) -> n = 0
}.

Lemma tinv_init : forall n, tinv (s_init n).
Proof.
  intros n. assert (Z : forall f : pc -> bool, f Idle = false -> cnt f (repeat Idle n) = 0).
  { intros f F. apply cnt_zero. intros x X. apply repeat_spec in X. subst; auto. }
  constructor; cbn; rewrite ?Z; auto.
  - intros t p N. apply nth_repeat_inv in N. discriminate.
  - tauto.
Qed.

Lemma delete_move : forall s t q pcs', (forall t p, nth_error (s_pcs s) t = Some (DDelete p) -> p = Obj 0) ->
  pcs' = set_nth (s_pcs s) t q -> (forall p, q = DDelete p -> p = Obj 0) ->
  forall t' p, nth_error pcs' t' = Some (DDelete p) -> p = Obj 0.
Proof.
  intros s t q pcs' I -> Q t' p N. destruct (Nat.eq_dec t t') as [<-|Ne].
  - destruct (nth_error (s_pcs s) t) eqn:X.
    + rewrite (set_nth_same _ _ _ _ _ X) in N. inversion N; subst. auto.
    + apply nth_error_None in X. assert (length (set_nth (s_pcs s) t q) <= t) by (rewrite set_nth_length; auto).
      apply nth_error_None in H. congruence.
  - rewrite set_nth_other in N by auto. eauto.
Qed.

Lemma tinv_step : forall s s', sinv s -> tinv s -> sstep false s s' -> tinv s'.
Proof.
  intros s s' I T St. pose proof (i_made _ I) as (M & _).
  assert (BM : cnt e_bombed (s_trace s) = 0 -> s_inst s <> Bomb).
  { intros Z E. apply (i_bomb _ I) in E. destruct (In_nth_error _ _ E) as (k & K).
    pose proof (cnt_pos _ e_bombed _ _ _ K eq_refl). lia. }
  inversion St; subst; clear St; try discriminate;
    try match goal with H : nth_error (s_pcs s) ?t = Some ?p |- context [move _ ?t ?q] =>
      pose proof (set_nth_cnt _ is_reg _ _ _ q H) as N1;
      pose proof (set_nth_cnt _ is_token _ _ _ q H) as N2;
      pose proof (set_nth_cnt _ is_delete _ _ _ q H) as N3
    end;
    match goal with |- context [move _ ?t ?q] =>
      pose proof (delete_move s t q _ (t_pc _ T) eq_refl) as D end;
    try solve [destruct T; constructor; cbn in *; try (destruct (s_inst s); cbn in * ); auto; try lia;
      try (apply D; intros; discriminate);
      try (intros [X|X]; [discriminate|auto]); try (intros ? [X|X]; [discriminate|eauto])].
  - (* SDTake *)
    assert (Z : cnt is_token (s_pcs s) >= 1) by (eapply cnt_pos; eauto).
    assert (B0 : cnt e_bombed (s_trace s) = 0) by (destruct T; lia).
    assert (Q : s_inst s = Obj 0).
    { destruct (s_inst s) as [|n|] eqn:E.
      - pose proof (i_null _ I E). destruct T; lia.
      - destruct (i_obj _ I _ E) as (-> & _); auto.
      - exfalso. apply BM; auto. }
    rewrite Q in *. destruct T; constructor; cbn in *; auto; try lia.
    + apply D. intros p E. injection E as <-; auto.
    + intros [X|X]; [discriminate|auto].
    + intros n [X|X]; [discriminate|eauto].
  - (* SDDelete *)
    pose proof (t_pc _ T _ _ H) as ->. destruct T; constructor; cbn in *; auto; try lia.
    + apply D. intros; discriminate.
    + intros [X|X]; [discriminate|auto].
    + intros n [X|X]; [injection X as <-; auto|eauto].
Qed.

Lemma tinv_reach : forall n s, sreach false n s -> tinv s.
Proof. induction 1; [apply tinv_init|eapply tinv_step; eauto using sinv_reach]. Qed.

(** Progress: while a call is in progress, some call can go on, and the work
    left decreases. *)
Definition weight (p : pc) : nat :=
  match p with
  | Idle => 0 | GTest => 7 | CLock => 6 | CTest => 5 | CNew => 3 | CReg => 2 | CRead => 1 | GRead => 1
  | DLock => 3 | DTake => 2 | DDelete _ => 1
  end.
Fixpoint total (l : list pc) : nat := match l with [] => 0 | p :: r => weight p + total r end.

Lemma set_nth_total : forall l i x y, nth_error l i = Some x ->
  total (set_nth l i y) + weight x = total l + weight y.
Proof.
  induction l; intros [|i] x y H; cbn in *; try discriminate.
  - inversion H; subst. unfold set_nth; cbn. lia.
  - specialize (IHl _ _ y H). unfold set_nth in *. cbn. lia.
Qed.

Lemma total_zero : forall l, total l = 0 -> forall p, In p l -> p = Idle.
Proof. induction l; cbn; intros H p []; subst. - destruct p; cbn in H; auto; lia. - apply IHl; auto. lia. Qed.

Lemma total_pos : forall l, total l <> 0 -> exists i p, nth_error l i = Some p /\ p <> Idle.
Proof.
  induction l; cbn; intros H; [lia|]. destruct (weight a) eqn:W.
  - destruct IHl as (i & p & N & P); [lia|]. exists (S i), p. auto.
  - exists 0, a. split; auto. intros ->. discriminate.
Qed.

Lemma can_step : forall b s, sinv s -> total (s_pcs s) <> 0 ->
  exists s', sstep b s s' /\ total (s_pcs s') < total (s_pcs s).
Proof.
  intros b s I T.
  assert (G : exists t p, nth_error (s_pcs s) t = Some p /\ p <> Idle /\ (inside p = true \/ s_lock s = None)).
  { destruct (s_lock s) as [t|] eqn:L.
    - destruct (i_owned _ I _ L) as (p & N & P). exists t, p. csplit; auto. intros ->. discriminate.
    - destruct (total_pos _ T) as (t & p & N & P). exists t, p. auto. }
  destruct G as (t & p & N & P & C).
  assert (W : forall q, weight q < weight p -> total (set_nth (s_pcs s) t q) < total (s_pcs s)).
  { intros q Q. pose proof (set_nth_total _ _ _ q N). lia. }
  destruct p; [congruence| | | | | | | | | | ];
    try (destruct C as [C|C]; [discriminate|]).
  - eexists; split; [apply (SGTest b s t); auto|cbn; destruct (s_inst s); apply W; cbn; lia].
  - eexists; split; [apply (SGRead b s t); auto|cbn; apply W; cbn; lia].
  - eexists; split; [apply (SCLock b s t); auto|cbn; apply W; cbn; lia].
  - eexists; split; [apply (SCTest b s t); auto|cbn; destruct (s_inst s); apply W; cbn; lia].
  - eexists; split; [apply (SCNew b s t); auto|cbn; apply W; cbn; lia].
  - eexists; split; [apply (SCReg b s t); auto|cbn; apply W; cbn; lia].
  - eexists; split; [apply (SCRead b s t); auto|cbn; apply W; cbn; lia].
  - eexists; split; [apply (SDLock b s t); auto|cbn; apply W; cbn; lia].
  - eexists; split; [apply (SDTake b s t); auto|cbn; apply W; cbn; lia].
  - eexists; split; [apply (SDDelete b s t p); auto|destruct p; cbn; apply W; cbn; lia].
Qed.
