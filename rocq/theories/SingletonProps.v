(** C69 and C70: singletons. *)
From Coq Require Import List Arith Bool Lia.
From Verif Require Import SingletonModel SingletonSpec SingletonProofs SingletonProofs2.
Import ListNotations.

Inductive steps (b : bool) : sstate -> sstate -> Prop :=
| Steps0 s : steps b s s
| StepsS s s1 s2 : sstep b s s1 -> steps b s1 s2 -> steps b s s2.

Lemma steps_reach : forall b n s s', sreach b n s -> steps b s s' -> sreach b n s'.
Proof. intros b n s s' R H. induction H; auto. apply IHsteps. econstructor; eauto. Qed.
(** Replay: the step [c] of thread [t]. *)
Ltac go c t := eapply StepsS; [eapply (c _ _ t); reflexivity|]; cbv.

Lemma cnt_flat : forall A B (f : A -> bool) (g : A -> list B) l,
  (forall x, length (g x) = bn (f x)) -> length (flat_map g l) = cnt f l.
Proof. induction l; cbn; intros H; auto. rewrite app_length, IHl, H by auto. lia. Qed.

Lemma cnt_app : forall A (f : A -> bool) a b, cnt f (a ++ b) = cnt f a + cnt f b.
Proof. induction a; cbn; intros; auto. rewrite IHa. lia. Qed.
Lemma cnt_rev : forall A (f : A -> bool) l, cnt f (rev l) = cnt f l.
Proof. induction l; cbn; auto. rewrite cnt_app, IHl. cbn. lia. Qed.

(** C69: at most one object is ever constructed, whatever the threads do. *)
Theorem C69_constructed_once : forall by_hand n s, sreach by_hand n s ->
  length (constructions (history s)) <= 1.
Proof.
  intros b n s R. pose proof (sinv_reach _ _ _ R) as I. unfold constructions, history.
  rewrite (cnt_flat _ _ e_constructed) by (intros []; reflexivity).
  rewrite cnt_rev. destruct (i_made _ I). lia.
Qed.
Print Assumptions C69_constructed_once.

Lemma good_split : forall l2 p l1, good_trace (l2 ++ EReturned p :: l1) -> good_return l1 p.
Proof. induction l2 as [|e l2 IH]; cbn; intros p l1 H; [tauto|]. destruct e; try (apply IH; tauto). Qed.

(** Every call returns that object, alive, or size_t(-1) after the destruction
    has begun; never null. *)
Theorem C69_returned : forall by_hand n s l1 p l2, sreach by_hand n s ->
  history s = l1 ++ EReturned p :: l2 ->
  (exists o, p = Obj o /\ constructions l1 = [o] /\ ~ In EBombed l1 /\ ~ In (EDeleted o) l1) \/
  (p = Bomb /\ In EBombed l1).
Proof.
  intros b n s l1 p l2 R E. pose proof (sinv_reach _ _ _ R) as I.
  unfold history in E.
  assert (T : s_trace s = rev l2 ++ EReturned p :: rev l1).
  { rewrite <- (rev_involutive (s_trace s)), E, rev_app_distr. cbn. rewrite <- app_assoc. auto. }
  pose proof (i_trace _ I) as G. rewrite T in G. apply good_split in G.
  destruct G as [(o & -> & A & B & C)|(-> & A)].
  - left. exists o. rewrite <- in_rev in *. csplit; auto; try (intros K; apply in_rev in K; auto).
    pose proof (C69_constructed_once _ _ _ R) as L. unfold history in L. rewrite E in L.
    unfold constructions in *. rewrite flat_map_app, app_length in L.
    apply in_rev in A. apply in_rev in A.
    assert (K : In o (flat_map (fun e => match e with EConstructed n => [n] | _ => [] end) l1)).
    { apply in_flat_map. exists (EConstructed o). cbn. auto. }
    destruct (flat_map _ l1) as [|x [|y r]]; cbn in *; try lia; try tauto.
    destruct K as [<-|[]]; auto.
  - right. split; auto. apply in_rev; auto.
Qed.
Print Assumptions C69_returned.

(** If only the exit handlers call destroy_instance, the object is deleted at
    most once, by a handler that was registered once. *)
Theorem C69_deleted_once : forall n s, sreach false n s ->
  ~ In EBadDelete (history s) /\ length (deletions (history s)) <= 1 /\
  (forall o, In (EDeleted o) (history s) -> In (EConstructed o) (history s) /\ In EBombed (history s)) /\
  (Forall (eq Idle) (s_pcs s) -> s_handlers s + length (deletions (history s)) = length (constructions (history s))).
Proof.
  intros n s R. pose proof (sinv_reach _ _ _ R) as I. pose proof (tinv_reach _ _ R) as T.
  unfold history, deletions, constructions.
  rewrite (cnt_flat _ _ e_constructed (fun e => match e with EConstructed n => [n] | _ => [] end)) by (intros []; reflexivity).
  rewrite (cnt_flat _ _ e_deleted (fun e => match e with EDeleted n => [n] | _ => [] end)) by (intros []; reflexivity).
  rewrite !cnt_rev.
  destruct (i_made _ I) as (M1 & M2). csplit.
  - intros K. apply in_rev in K. apply (t_ok _ T); auto.
  - destruct T; lia.
  - intros o K. rewrite <- !in_rev in *. pose proof (t_names _ T _ K) as ->.
    pose proof (i_del _ I _ K) as B. apply (i_bomb _ I) in B. split; auto.
    assert (s_made s = 1).
    { apply In_nth_error in K. destruct K as (k & K). pose proof (cnt_pos _ e_deleted _ _ _ K eq_refl).
      destruct T; lia. }
    assert (C : cnt e_constructed (s_trace s) = 1) by lia.
    clear - C R. assert (N : forall s, sreach false n s -> forall e, In (EConstructed e) (s_trace s) -> e = 0).
    { clear. intros s R. induction R as [|s s' R IH St]; cbn; [tauto|].
      pose proof (sinv_reach _ _ _ R) as I.
      inversion St; subst; cbn; auto; try (intros e [K|K]; [discriminate|auto]).
      - intros e [K|K]; auto. injection K as <-. pose proof (i_pc _ I _ _ H) as P. cbn in P. apply (i_null _ I P).
      - destruct p; cbn; auto; intros e [K|K]; try discriminate; auto. }
    specialize (N s R). induction (s_trace s) as [|e l IHl]; cbn in *; [lia|].
    destruct e; cbn in *; try (right; apply IHl; auto; intros; apply N; auto).
    left. f_equal. apply N; auto.
  - intros F. assert (Z : forall f : pc -> bool, f Idle = false -> cnt f (s_pcs s) = 0).
    { intros f Hf. apply cnt_zero. intros x X. rewrite Forall_forall in F. rewrite <- (F x X). auto. }
    destruct T. rewrite !Z in * by reflexivity. lia.
Qed.
Print Assumptions C69_deleted_once.

(** destroy_instance is public; called by hand, the exit handler deletes the
    invalid pointer. *)
Definition drive1 : list sevent :=
  [EConstructed 0; ERegistered; EReturned (Obj 0); EBombed; EDeleted 0; EBombed; EBadDelete].
Theorem C69_destroy_by_hand_refuted : exists s, sreach true 1 s /\ history s = drive1.
Proof.
  eexists. split.
  - eapply steps_reach; [apply SR0|].
    go SGet 0.
    go SGTest 0.
    go SCLock 0.
    go SCTest 0.
    go SCNew 0.
    go SCReg 0.
    go SCRead 0.
    go SDestroy 0.
    go SDLock 0.
    go SDTake 0.
    go SDDelete 0.
    go SHandler 0.
    go SDLock 0.
    go SDTake 0.
    go SDDelete 0.
    apply Steps0.
  - reflexivity.
Qed.
Print Assumptions C69_destroy_by_hand_refuted.

(** Calls can always be finished. *)
Theorem C69_calls_return : forall by_hand n s, sreach by_hand n s ->
  exists s', steps by_hand s s' /\ Forall (eq Idle) (s_pcs s').
Proof.
  intros b n s R. remember (total (s_pcs s)) as m eqn:M. revert s R M.
  induction m as [m IH] using lt_wf_ind. intros s R M.
  destruct (Nat.eq_dec (total (s_pcs s)) 0) as [Z|Z].
  - exists s. split; [constructor|]. apply Forall_forall. intros p P. symmetry. eapply total_zero; eauto.
  - destruct (can_step b s (sinv_reach _ _ _ R) Z) as (s1 & St & L).
    destruct (IH (total (s_pcs s1)) ltac:(lia) s1 (SRS _ _ _ _ R St) eq_refl) as (s' & A & B).
    exists s'. split; auto. econstructor; eauto.
Qed.
Print Assumptions C69_calls_return.

(** Two threads race: both see null, the second waits for the lock and gets the
    object of the first. *)
Example C69_case : exists s, sreach false 2 s /\
  history s = [EConstructed 0; ERegistered; EReturned (Obj 0); EReturned (Obj 0); EBombed; EDeleted 0; EReturned Bomb].
Proof.
  eexists. split.
  - eapply steps_reach; [apply SR0|].
    go SGet 0.
    go SGet 1.
    go SGTest 0.
    go SGTest 1.
    go SCLock 1.
    go SCTest 1.
    go SCNew 1.
    go SCReg 1.
    go SCRead 1.
    go SCLock 0.
    go SCTest 0.
    go SCRead 0.
    go SHandler 0.
    go SDLock 0.
    go SDTake 0.
    go SDDelete 0.
    go SGet 1.
    go SGTest 1.
    go SGRead 1.
    apply Steps0.
  - reflexivity.
Qed.

(** C70: if destructors only use what their constructors needed, a program ends
    without crash or deadlock, the singletons are destroyed in exactly the
    reverse order of their construction, each once, and a singleton is
    destroyed before everything its constructor needed. *)
Theorem C70_reverse_order : forall uses d_uses rank default gets,
  ranked uses rank -> (forall a u, In u (d_uses a) -> needs uses a u) ->
  exists fuel0, forall fuel, fuel0 <= fuel -> exists s order,
    program uses d_uses fuel default gets = LDone s /\
    life s = map Created order ++ map Destroyed (rev order) /\
    NoDup order /\ (forall g, In g gets -> In g order) /\
    (forall a u, In a order -> needs uses a u ->
       occurs_before (Created u) (Created a) (life s) /\
       occurs_before (Destroyed a) (Destroyed u) (life s)).
Proof.
  intros uses d_uses rank default gets Rk D.
  set (m := S (list_max (map rank gets))).
  assert (M : forall g, In g gets -> rank g < m).
  { intros g G. pose proof (proj1 (list_max_le (map rank gets) (list_max (map rank gets))) (Nat.le_refl _)) as F.
    rewrite Forall_forall in F. specialize (F (rank g) (in_map rank _ _ G)). subst m. lia. }
  clearbody m.
  (* the stack does not depend on the fuel *)
  assert (Mono : forall f a locked s s', get uses f false locked a s = LDone s' ->
             forall f', f <= f' -> get uses f' false locked a s = LDone s').
  { induction f as [|f IH]; intros a locked s s' H f' L; [discriminate|].
    destruct f' as [|f']; [lia|]. cbn in *. destruct (l_inst s a); auto.
    destruct (existsb (Nat.eqb a) locked); auto.
    assert (Fd : forall l s s', lfold (get uses f false (a :: locked)) l s = LDone s' ->
               lfold (get uses f' false (a :: locked)) l s = LDone s').
    { induction l as [|u l IHl]; cbn; intros s0 s1 E; auto.
      destruct (get uses f false (a :: locked) u s0) eqn:G; cbn in E; try discriminate.
      rewrite (IH _ _ _ _ G f') by lia. cbn. auto. }
    destruct (lfold (get uses f false (a :: locked)) (uses a) s) eqn:E; cbn in H; try discriminate.
    rewrite (Fd _ _ _ E). cbn. auto. }
  destruct (gets_done uses rank Rk m gets l_init M (W_init uses)) as (s0 & E0); [cbn; discriminate|].
  destruct (gets_grow _ _ _ _ E0) as (W0 & T0 & G0 & B0).
  exists (m + length (l_stack s0) + 2). intros fuel F.
  assert (E1 : lfold (get uses fuel false []) gets l_init = LDone s0).
  { clear - E0 Mono F. assert (Lm : m <= fuel) by lia. clear F. revert E0. generalize l_init. induction gets as [|g gets IH]; cbn [lfold]; intros s E; auto.
    destruct (get uses m false [] g s) eqn:G; cbn [lbind] in E; try discriminate.
    rewrite (Mono _ _ _ _ _ G fuel) by lia. cbn [lbind]. auto. }
  destruct (run_all uses d_uses D default (l_stack s0) fuel s0 W0 eq_refl ltac:(lia)) as (s & Es & Ts).
  exists s, (rev (l_stack s0)). unfold program. rewrite E1. cbn [lbind].
  assert (L : life s = map Created (rev (l_stack s0)) ++ map Destroyed (rev (rev (l_stack s0)))).
  { unfold life. rewrite Ts, T0, rev_app_distr, <- !map_rev, rev_involutive. auto. }
  csplit; auto.
  - apply NoDup_rev, W0.
  - intros g G. apply -> in_rev. auto.
  - intros a u A N. rewrite L, rev_involutive. apply in_rev in A. apply in_split in A.
    destruct A as (l1 & l2 & A). pose proof (needs_deeper _ _ W0 _ _ N _ _ A) as K.
    apply in_split in K. destruct K as (k1 & k2 & ->). rewrite A. split.
    + exists (map Created (rev k2)), (map Created (rev k1)),
        (map Created (rev l1) ++ map Destroyed (l1 ++ a :: k1 ++ u :: k2)).
      repeat (rewrite ?rev_app_distr, ?map_app, <- ?app_assoc; cbn [rev map app]). reflexivity.
    + exists (map Created (rev (l1 ++ a :: k1 ++ u :: k2)) ++ map Destroyed l1), (map Destroyed k1), (map Destroyed k2).
      repeat (rewrite ?rev_app_distr, ?map_app, <- ?app_assoc; cbn [rev map app]). reflexivity.
Qed.
Print Assumptions C70_reverse_order.

Definition foxxll_rank (a : nat) : nat := match a with 1 => 1 | 3 => 2 | _ => 0 end.
Example C70_case :
  ranked foxxll_uses foxxll_rank /\
  (forall a u, In u (foxxll_d_uses a) -> needs foxxll_uses a u) /\
  match program foxxll_uses foxxll_d_uses 9 true [2; 3; 0] with
  | LDone s => life s = [Created 2; Created 0; Created 1; Created 3;
                         Destroyed 3; Destroyed 1; Destroyed 0; Destroyed 2]
  | _ => False
  end.
Proof.
  split; [|split].
  - intros a u H. destruct a as [|[|[|[|a]]]]; cbn in *; intuition (subst; cbn; lia).
  - intros a u H. destruct a as [|[|a]]; cbn in *; try tauto. destruct H as [<-|[]].
    constructor. cbn; auto.
  - vm_compute. reflexivity.
Qed.

(** The singletons of the library, whatever a program gets and in which order: it
    ends, the block manager is destroyed first, and the statistics outlive the
    queues. *)
Theorem C70_library : forall default gets, exists fuel0, forall fuel, fuel0 <= fuel -> exists s order,
  program foxxll_uses foxxll_d_uses fuel default gets = LDone s /\
  life s = map Created order ++ map Destroyed (rev order) /\
  (In 1 gets -> occurs_before (Destroyed 1) (Destroyed 0) (life s)) /\
  (In 3 gets -> occurs_before (Destroyed 3) (Destroyed 2) (life s) /\
                occurs_before (Destroyed 3) (Destroyed 1) (life s) /\
                occurs_before (Destroyed 1) (Destroyed 0) (life s)).
Proof.
  intros default gets. destruct C70_case as (Rk & D & _).
  destruct (C70_reverse_order foxxll_uses foxxll_d_uses foxxll_rank default gets Rk D) as (f0 & H).
  exists f0. intros fuel F. destruct (H fuel F) as (s & order & E & L & Nd & G & B). exists s, order.
  assert (N10 : needs foxxll_uses 1 0) by (constructor; cbn; auto).
  assert (N32 : needs foxxll_uses 3 2) by (constructor; cbn; auto).
  assert (N31 : needs foxxll_uses 3 1) by (constructor; cbn; auto).
  csplit; auto.
  - intros K. apply (B 1 0); auto.
  - intros K. csplit; [apply (B 3 2); auto|apply (B 3 1); auto|]. apply (B 1 0); auto.
    destruct (B 3 1 (G 3 K) N31) as ((l1 & l2 & l3 & E1) & _).
    assert (I : In (Created 1) (life s)) by (rewrite E1; apply in_elt).
    rewrite L in I. apply in_app_or in I. destruct I as [I|I]; apply in_map_iff in I; destruct I as (x & Ex & Ix); congruence.
Qed.
Print Assumptions C70_library.

(** A destructor that uses a singleton which its constructor did not need: if
    that one was constructed later, it is destroyed earlier and the program
    crashes.  If it was never constructed, it is constructed at exit with atexit(),
    while the handler list of foxxll deadlocks. *)
Theorem C70_other_uses_refuted :
  let d_uses := fun a => if a =? 0 then [1] else [] in
  program (fun _ => []) d_uses 9 true [0; 1] = LCrash /\
  program (fun _ => []) d_uses 9 false [0; 1] = LCrash /\
  match program (fun _ => []) d_uses 9 true [0] with
  | LDone s => life s = [Created 0; Created 1; Destroyed 0; Destroyed 1]
  | _ => False
  end /\
  program (fun _ => []) d_uses 9 false [0] = LDeadlock.
Proof. cbv. auto. Qed.
Print Assumptions C70_other_uses_refuted.

(** A constructor that needs its own singleton never returns. *)
Theorem C70_cycle_never_returns : forall uses d_uses default gets a, In a gets -> needs uses a a ->
  forall fuel s, program uses d_uses fuel default gets <> LDone s.
Proof.
  intros uses d_uses default gets a Ia N fuel s E. unfold program in E.
  destruct (lfold (get uses fuel false []) gets l_init) as [s0| | |] eqn:E0; cbn in E; try discriminate.
  destruct (gets_grow _ _ _ _ E0) as (W0 & _ & G0 & _).
  pose proof (G0 _ Ia) as K. apply in_split in K. destruct K as (l1 & l2 & K).
  pose proof (needs_deeper _ _ W0 _ _ N _ _ K) as K2.
  pose proof (w_nodup _ _ W0) as Nd. rewrite K in Nd. apply NoDup_remove_2 in Nd. apply Nd. apply in_or_app; auto.
Qed.
Print Assumptions C70_cycle_never_returns.
