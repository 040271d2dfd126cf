(** Lifetime of requests and files: every step is a sequence of a few primitive
    effects on objects, files, references and the log; the invariant is kept by
    each of them. *)
From Coq Require Import List Bool PeanoNat Lia Permutation.
From Verif Require Import LifeModel LifeSpec.
Import ListNotations.

(** * Lists *)

Lemma length_upd : forall A i (x : A) l, length (upd i x l) = length l.
Proof. induction i; destruct l; simpl; auto. Qed.

Lemma nth_upd_eq : forall A i (x y : A) l, nth_error l i = Some y -> nth_error (upd i x l) i = Some x.
Proof. induction i; destruct l; simpl; intros; try discriminate; eauto. Qed.

Lemma nth_upd_neq : forall A i j (x : A) l, i <> j -> nth_error (upd i x l) j = nth_error l j.
Proof. induction i; destruct l, j; simpl; intros; auto; try lia. Qed.

Lemma upd_split : forall A i (x : A) l, nth_error l i = Some x ->
  exists l1 l2, l = l1 ++ x :: l2 /\ forall y, upd i y l = l1 ++ y :: l2.
Proof.
  induction i; destruct l; simpl; intros; try discriminate.
  - injection H as H. subst. exists [], l. auto.
  - destruct (IHi x l H) as (l1 & l2 & E & U). exists (a :: l1), l2. subst.
    split; auto. intros y. simpl. f_equal. apply U.
Qed.

Lemma remove_one_perm : forall r l m, remove_one r l = Some m -> Permutation l (r :: m).
Proof.
  induction l; simpl; intros; try discriminate.
  destruct (Nat.eqb_spec a r).
  - injection H as H. subst. auto.
  - destruct (remove_one r l) eqn:E; try discriminate. injection H as H. subst.
    rewrite (IHl _ eq_refl). apply perm_swap.
Qed.

Lemma remove_each_perm : forall rs l m, remove_each rs l = Some m -> Permutation l (rs ++ m).
Proof.
  induction rs; simpl; intros.
  - injection H as H. subst. auto.
  - destruct (remove_one a l) eqn:E; try discriminate.
    apply remove_one_perm in E. rewrite E. constructor. auto.
Qed.

(** * Phases of requests that are not complete, and who completes them *)

Inductive ph := PNew | PWait | PDone | PRel.

Definition stage_own (r : nat) (st : stage) : list (nat * ph) :=
  match st with
  | StStats | StDone => [(r, PWait)]
  | StHandler | StNotify | StRelease => [(r, PDone)]
  | StReady => [(r, PRel)]
  | StTail => []
  end.
Definition waiting (l : list nat) : list (nat * ph) := map (fun r => (r, PWait)) l.
Definition spc_own (p : spc) : list (nat * ph) :=
  match p with
  | SvIdle => []
  | SvServe r => [(r, PWait)]
  | SvFin r st rest => stage_own r st ++ waiting rest
  | SvDrop _ rest => waiting rest
  | SvFill todo done => waiting done ++ waiting todo
  | SvClear _ => []
  end.
Definition server_own (v : server) : list (nat * ph) := waiting (sv_cbs v) ++ spc_own (sv_pc v).
Definition client_own (c : client) : list (nat * ph) :=
  match cl_pc c with
  | CNew r => [(r, PNew)]
  | CCanFin r st => stage_own r st
  | _ => []
  end.
Definition own (s : state) : list (nat * ph) :=
  waiting (st_queue s) ++ waiting (st_kern s) ++
  flat_map server_own (st_servers s) ++ flat_map client_own (st_clients s).

Definition ph_dec : forall a b : nat * ph, {a = b} + {a <> b}.
Proof. decide equality; [decide equality | apply Nat.eq_dec]. Defined.

Lemma in_waiting : forall r p l, In (r, p) (waiting l) -> In r l /\ p = PWait.
Proof.
  unfold waiting. intros. apply in_map_iff in H. destruct H as (x & E & H).
  injection E as E1 E2. subst. auto.
Qed.

Lemma stage_own_r : forall r st x p, In (x, p) (stage_own r st) -> x = r.
Proof. destruct st; simpl; intuition; try (injection H0; congruence). Qed.

Lemma server_own_refs : forall v r p, In (r, p) (server_own v) -> In r (server_refs v).
Proof.
  unfold server_own, server_refs. intros. rewrite in_app_iff in *.
  destruct H. { apply in_waiting in H. tauto. }
  right. destruct (sv_pc v); simpl in *.
  - tauto.
  - destruct H; [|tauto]. injection H; auto.
  - rewrite in_app_iff in H. destruct H.
    + apply stage_own_r in H. auto.
    + apply in_waiting in H. tauto.
  - apply in_waiting in H. tauto.
  - rewrite in_app_iff in H. rewrite !in_app_iff.
    destruct H as [H | H]; apply in_waiting in H; tauto.
  - tauto.
Qed.

Lemma client_own_refs : forall c r p, In (r, p) (client_own c) -> In r (cpc_refs (cl_pc c)).
Proof.
  unfold client_own. intros. destruct (cl_pc c); simpl in *; try tauto.
  - destruct H; [|tauto]. injection H; auto.
  - apply stage_own_r in H. auto.
Qed.

(** Whoever is to complete a request has a reference to it. *)
Lemma own_refs : forall s r p, In (r, p) (own s) -> In r (refs s).
Proof.
  unfold own, refs. intros. rewrite !in_app_iff in *.
  destruct H as [H | [H | [H | H]]].
  - apply in_waiting in H. tauto.
  - apply in_waiting in H. tauto.
  - apply in_flat_map in H. destruct H as (v & V & H). do 2 right. left.
    apply in_flat_map. exists v. split; auto. eapply server_own_refs; eauto.
  - apply in_flat_map in H. destruct H as (v & V & H). do 3 right.
    apply in_flat_map. exists v. split; auto. unfold client_refs. rewrite in_app_iff. right.
    eapply client_own_refs; eauto.
Qed.

(** * Primitive effects *)

Record ghost := mk_g {
  g_objs : list obj; g_files : list fobj; g_log : list event;
  g_refs : list nat; g_own : list (nat * ph)
}.

Definition count (l : list nat) (r : nat) : nat := count_occ Nat.eq_dec l r.

Definition with_alive (f : nat) (x : fobj) (l : list event) : list event :=
  if f_alive x then l else EBadFile f :: l.

Definition benign (e : event) : bool :=
  match e with
  | EServe _ _ _ | EHandler _ | EPoll _ _ _ | ENull _ => true
  | ECancelled _ _ (Some true) => false
  | ECancelled _ _ _ => true
  | _ => false
  end.

Inductive prim (k : kind) : ghost -> ghost -> Prop :=
| P_perm : forall os fs l R R' O O', Permutation R R' -> Permutation O O' ->
    prim k (mk_g os fs l R O) (mk_g os fs l R' O')
| P_inc : forall os fs l R O r o, nth_error os r = Some o -> In r R -> ~ In (r, PNew) O ->
    prim k (mk_g os fs l R O) (mk_g (upd r (with_cnt (S (o_cnt o)) o) os) fs l (r :: R) O)
| P_push : forall os fs l R O r o, nth_error os r = Some o ->
    prim k (mk_g os fs l R ((r, PNew) :: O))
           (mk_g (upd r (with_cnt (S (o_cnt o)) o) os) fs l (r :: R) ((r, PWait) :: O))
| P_dec : forall os fs l R O r o, nth_error os r = Some o -> (forall p, In (r, p) O -> In r R) ->
    o_cnt o - 1 <> 0 -> ~ In (r, PNew) O ->
    prim k (mk_g os fs l (r :: R) O) (mk_g (upd r (with_cnt (o_cnt o - 1) o) os) fs l R O)
| P_free : forall os fs l R O r o, nth_error os r = Some o -> (forall p, In (r, p) O -> In r R) ->
    o_cnt o - 1 = 0 ->
    prim k (mk_g os fs l (r :: R) O)
           (mk_g (upd r (with_freed (with_cnt (o_cnt o - 1) o)) os) fs (EFree r (o_state o) :: l) R O)
| P_last : forall os fs l R O r o, k = Aio -> nth_error os r = Some o ->
    (forall p, In (r, p) O -> In r R) -> o_cnt o - 1 = 0 ->
    prim k (mk_g os fs l (r :: R) O)
           (mk_g (upd r (with_cnt (o_cnt o - 1) o) os) fs (ELast r :: l) R O)
| P_reject : forall os fs l R O r o c, nth_error os r = Some o -> o_cnt o - 1 = 0 ->
    prim k (mk_g os fs l (r :: R) ((r, PNew) :: O))
           (mk_g (upd r (with_freed (with_cnt (o_cnt o - 1) o)) os) fs
                 (EReject c r (o_fid o) :: EFree r (o_state o) :: l) R O)
| P_done : forall os fs l R O r o, nth_error os r = Some o ->
    prim k (mk_g os fs l R ((r, PWait) :: O)) (mk_g (upd r (with_state DONE o) os) fs l R ((r, PDone) :: O))
| P_release : forall os fs l R O r o f x, nth_error os r = Some o -> o_file o = Some f ->
    nth_error fs f = Some x ->
    prim k (mk_g os fs l R ((r, PDone) :: O))
           (mk_g (upd r (with_file None o) os) (upd f (mk_fobj (f_nref x - 1) (f_alive x)) fs)
                 (ERelease r f :: with_alive f x l) R ((r, PRel) :: O))
| P_ready : forall os fs l R O r o, nth_error os r = Some o ->
    prim k (mk_g os fs l R ((r, PRel) :: O)) (mk_g (upd r (with_state READY2DIE o) os) fs l R O)
| P_use : forall os fs l R O r o f x, nth_error os r = Some o -> o_file o = Some f ->
    nth_error fs f = Some x ->
    prim k (mk_g os fs l R O) (mk_g os fs (with_alive f x l) R O)
| P_new : forall os fs l R O f x c, nth_error fs f = Some x ->
    prim k (mk_g os fs l R O)
           (mk_g (os ++ [mk_obj (Some f) f OP 1 false]) (upd f (mk_fobj (S (f_nref x)) (f_alive x)) fs)
                 (ENewReq c (length os) f :: with_alive f x l)
                 (length os :: R) ((length os, PNew) :: O))
| P_newfile : forall os fs l R O,
    prim k (mk_g os fs l R O) (mk_g os (fs ++ [mk_fobj 0 true]) l R O)
| P_destroy : forall os fs l R O f x, nth_error fs f = Some x -> f_alive x = true ->
    prim k (mk_g os fs l R O)
           (mk_g os (upd f (mk_fobj (f_nref x) false) fs) (EDestroy f (f_nref x) :: l) R O)
| P_log : forall os fs l R O e, benign e = true ->
    prim k (mk_g os fs l R O) (mk_g os fs (e :: l) R O)
| P_waited : forall os fs l R O c r o, nth_error os r = Some o -> o_state o = READY2DIE ->
    prim k (mk_g os fs l R O) (mk_g os fs (EWaited c r :: l) R O)
| P_cancelled : forall os fs l R O c r o, nth_error os r = Some o -> o_state o = READY2DIE ->
    prim k (mk_g os fs l R O) (mk_g os fs (ECancelled c r (Some true) :: l) R O).

Inductive prims (k : kind) : ghost -> ghost -> Prop :=
| prims_refl : forall g, prims k g g
| prims_step : forall g g1 g2, prims k g g1 -> prim k g1 g2 -> prims k g g2.

Lemma prims_one : forall k g g', prim k g g' -> prims k g g'.
Proof. intros. eapply prims_step; [apply prims_refl | auto]. Qed.

Lemma prims_trans : forall k g g1 g2, prims k g g1 -> prims k g1 g2 -> prims k g g2.
Proof. intros k g g1 g2 A B. induction B; auto. eapply prims_step; [apply IHB; auto | auto]. Qed.

(** * The core invariant *)

Definition phase_ok (p : ph) (o : obj) : Prop :=
  match p with
  | PNew | PWait => o_state o = OP /\ o_file o = Some (o_fid o)
  | PDone => o_state o = DONE /\ o_file o = Some (o_fid o)
  | PRel => o_state o = DONE /\ o_file o = None
  end.

Definition is_rejected (l : list event) (r : nat) : Prop := exists c f, In (EReject c r f) l.

Record core (g : ghost) : Prop := {
  co_cnt : forall r o, nth_error (g_objs g) r = Some o -> o_cnt o = count (g_refs g) r;
  co_dom : forall r, In r (g_refs g) -> r < length (g_objs g);
  co_freed : forall r o, nth_error (g_objs g) r = Some o -> o_freed o = true -> o_cnt o = 0;
  co_nodup : NoDup (map fst (g_own g));
  co_sub : forall r p, In (r, p) (g_own g) -> In r (g_refs g);
  co_ok : forall r p o, In (r, p) (g_own g) -> nth_error (g_objs g) r = Some o -> phase_ok p o;
  co_new : forall r, In (r, PNew) (g_own g) -> count (g_refs g) r = 1;
  co_rest : forall r o, nth_error (g_objs g) r = Some o -> ~ In r (map fst (g_own g)) ->
      (o_state o = READY2DIE /\ o_file o = None) \/
      (is_rejected (g_log g) r /\ o_freed o = true /\ o_state o = OP /\ o_file o = Some (o_fid o))
}.

Lemma count_in : forall l r, In r l <-> 0 < count l r.
Proof. intros. unfold count. apply count_occ_In. Qed.

Lemma count_cons : forall x l r, count (x :: l) r = (if Nat.eq_dec x r then S (count l r) else count l r).
Proof. intros. unfold count. simpl. destruct (Nat.eq_dec x r); auto. Qed.

Lemma live : forall g r o, core g -> In r (g_refs g) -> nth_error (g_objs g) r = Some o -> o_freed o = false.
Proof.
  intros. destruct (o_freed o) eqn:E; auto. exfalso.
  pose proof (co_freed g H r o H1 E). rewrite (co_cnt g H r o H1) in H2.
  apply count_in in H0. lia.
Qed.

Lemma live_obj : forall g r, core g -> In r (g_refs g) ->
  exists o, nth_error (g_objs g) r = Some o /\ o_freed o = false.
Proof.
  intros. pose proof (co_dom g H r H0).
  destruct (nth_error (g_objs g) r) as [o|] eqn:E.
  - exists o. split; auto. eapply live; eauto.
  - apply nth_error_None in E. lia.
Qed.

Lemma nth_upd : forall A i (x : A) l j y, nth_error (upd i x l) j = Some y ->
  (i = j /\ x = y /\ j < length l) \/ (i <> j /\ nth_error l j = Some y).
Proof.
  intros. destruct (Nat.eq_dec i j).
  - left. subst. destruct (nth_error l j) eqn:E.
    + rewrite (nth_upd_eq _ _ _ _ _ E) in H. injection H as H.
      split; auto. split; auto. apply nth_error_Some. congruence.
    + apply nth_error_None in E. assert (nth_error (upd j x l) j = None).
      { apply nth_error_None. rewrite length_upd. auto. }
      congruence.
  - right. rewrite nth_upd_neq in H by auto. auto.
Qed.

Lemma prim_core : forall k g g', core g -> prim k g g' -> core g'.
Proof.
  intros k g g' C P. destruct C as [C1 C2 C3 C4 C5 C6 C7 C8].
  destruct P; cbn [g_objs g_files g_log g_refs g_own] in *.
  - (* perm *)
    assert (E : forall r, count R' r = count R r).
    { intros. unfold count. symmetry. apply (Permutation_count_occ Nat.eq_dec); auto. }
    constructor; cbn [g_objs g_files g_log g_refs g_own]; intros.
    + rewrite E. auto.
    + apply C2. eapply Permutation_in; [apply Permutation_sym|]; eauto.
    + eauto.
    + eapply Permutation_NoDup; [apply Permutation_map|]; eauto.
    + eapply Permutation_in; [eauto|]. eapply C5.
      eapply Permutation_in; [apply Permutation_sym|]; eauto.
    + eapply C6; eauto. eapply Permutation_in; [apply Permutation_sym|]; eauto.
    + rewrite E. apply C7. eapply Permutation_in; [apply Permutation_sym|]; eauto.
    + apply C8; auto. intros X. apply H2.
      eapply Permutation_in; [apply Permutation_map|]; eauto.
  - (* inc *)
    assert (NF : o_freed o = false).
    { destruct (o_freed o) eqn:E; auto. pose proof (C3 _ _ H E). rewrite (C1 _ _ H) in H2.
      apply count_in in H0. lia. }
    constructor; cbn [g_objs g_files g_log g_refs g_own]; intros.
    + rewrite count_cons. apply nth_upd in H2. destruct H2 as [(E1 & E2 & _) | (E1 & E2)]; subst.
      * destruct (Nat.eq_dec r0 r0); [|congruence]. simpl. f_equal. auto.
      * destruct (Nat.eq_dec r r0); [congruence|]. auto.
    + rewrite length_upd. destruct H2; subst; auto.
    + apply nth_upd in H2. destruct H2 as [(E1 & E2 & _) | (E1 & E2)]; subst; eauto.
      simpl in H3. congruence.
    + auto.
    + right. eauto.
    + apply nth_upd in H3. destruct H3 as [(E1 & E2 & _) | (E1 & E2)]; subst; eauto.
      specialize (C6 _ _ _ H2 H). destruct p; simpl in *; auto.
    + rewrite count_cons. destruct (Nat.eq_dec r r0); subst; auto. tauto.
    + apply nth_upd in H2. destruct H2 as [(E1 & E2 & _) | (E1 & E2)]; subst; eauto.
      specialize (C8 _ _ H H3). simpl. destruct C8 as [|(? & ? & ?)]; auto; try congruence.
  - (* push *)
    assert (IR : In r R) by (eapply C5; simpl; eauto).
    assert (NF : o_freed o = false).
    { destruct (o_freed o) eqn:E; auto. pose proof (C3 _ _ H E). rewrite (C1 _ _ H) in H0.
      apply count_in in IR. lia. }
    constructor; cbn [g_objs g_files g_log g_refs g_own]; intros.
    + rewrite count_cons. apply nth_upd in H0. destruct H0 as [(E1 & E2 & _) | (E1 & E2)]; subst.
      * destruct (Nat.eq_dec r0 r0); [|congruence]. simpl. f_equal. auto.
      * destruct (Nat.eq_dec r r0); [congruence|]. auto.
    + rewrite length_upd. destruct H0; subst; auto.
    + apply nth_upd in H0. destruct H0 as [(E1 & E2 & _) | (E1 & E2)]; subst; eauto.
      simpl in H1. congruence.
    + auto.
    + destruct H0 as [E | H0]. { injection E as E1 E2. subst. left. auto. }
      right. eapply C5. simpl. eauto.
    + assert (Q : exists p', In (r0, p') ((r, PNew) :: O) /\ (p' = p \/ (p' = PNew /\ p = PWait))).
      { destruct H0 as [E | H0]; [injection E as E1 E2; subst; exists PNew | exists p]; simpl; auto. }
      destruct Q as (p' & Q & QP).
      clear H0. apply nth_upd in H1. destruct H1 as [(E1 & E2 & _) | (E1 & E2)].
      * rewrite <- E1 in Q. specialize (C6 _ _ _ Q H). subst o0.
        destruct QP as [E | (E & E')]; [rewrite <- E; destruct p' | rewrite E in C6; rewrite E'];
          simpl in *; auto.
      * specialize (C6 _ _ _ Q E2).
        destruct QP as [E | (E & E')]; [rewrite <- E; auto | rewrite E in C6; rewrite E'; auto].
    + destruct H0 as [E | H0]; [discriminate|]. rewrite count_cons.
      destruct (Nat.eq_dec r r0).
      * subst. exfalso. inversion C4; subst. apply H3. apply (in_map fst) in H0. auto.
      * apply C7. simpl. auto.
    + apply nth_upd in H0. destruct H0 as [(E1 & E2 & _) | (E1 & E2)]; subst; eauto.
      exfalso. apply H1. simpl. auto.
  - (* dec *)
    assert (NF : o_freed o = false).
    { destruct (o_freed o) eqn:E; auto. pose proof (C3 _ _ H E). lia. }
    assert (K : o_cnt o = S (count R r)).
    { rewrite (C1 _ _ H), count_cons. destruct (Nat.eq_dec r r); congruence. }
    constructor; cbn [g_objs g_files g_log g_refs g_own]; intros.
    + apply nth_upd in H3. destruct H3 as [(E1 & E2 & _) | (E1 & E2)]; subst.
      * simpl. lia.
      * rewrite (C1 _ _ E2), count_cons. destruct (Nat.eq_dec r r0); [congruence|]. auto.
    + rewrite length_upd. apply C2. right. auto.
    + apply nth_upd in H3. destruct H3 as [(E1 & E2 & _) | (E1 & E2)]; subst; eauto.
      simpl in H4. congruence.
    + auto.
    + pose proof (C5 _ _ H3) as [E | ]; auto. subst. eauto.
    + apply nth_upd in H4. destruct H4 as [(E1 & E2 & _) | (E1 & E2)]; subst; eauto.
      specialize (C6 _ _ _ H3 H). destruct p; simpl in *; auto.
    + pose proof (C7 _ H3). rewrite count_cons in H4. destruct (Nat.eq_dec r r0); subst; auto. tauto.
    + apply nth_upd in H3. destruct H3 as [(E1 & E2 & _) | (E1 & E2)]; subst; eauto.
      specialize (C8 _ _ H H4). simpl. destruct C8 as [|(? & ? & ?)]; auto; try congruence.
  - (* free *)
    assert (K : o_cnt o = S (count R r)).
    { rewrite (C1 _ _ H), count_cons. destruct (Nat.eq_dec r r); congruence. }
    assert (NR : ~ In r R) by (rewrite count_in; lia).
    assert (NF : o_freed o = false).
    { destruct (o_freed o) eqn:E; auto. pose proof (C3 _ _ H E). lia. }
    constructor; cbn [g_objs g_files g_log g_refs g_own]; intros.
    + apply nth_upd in H2. destruct H2 as [(E1 & E2 & _) | (E1 & E2)]; subst.
      * simpl. lia.
      * rewrite (C1 _ _ E2), count_cons. destruct (Nat.eq_dec r r0); [congruence|]. auto.
    + rewrite length_upd. apply C2. right. auto.
    + apply nth_upd in H2. destruct H2 as [(E1 & E2 & _) | (E1 & E2)]; subst; eauto.
    + auto.
    + pose proof (C5 _ _ H2) as [E | ]; auto. subst. eauto.
    + apply nth_upd in H3. destruct H3 as [(E1 & E2 & _) | (E1 & E2)]; subst; eauto.
      exfalso. eauto.
    + pose proof (C7 _ H2). rewrite count_cons in H3. destruct (Nat.eq_dec r r0); subst; auto.
      exfalso. eauto.
    + assert (LR : forall x, is_rejected l x -> is_rejected (EFree r (o_state o) :: l) x).
      { intros x (c & f & I). exists c, f. simpl. auto. }
      apply nth_upd in H2. destruct H2 as [(E1 & E2 & _) | (E1 & E2)]; subst.
      * specialize (C8 _ _ H H3). simpl. destruct C8 as [|(? & ? & ?)]; auto; try congruence.
      * specialize (C8 _ _ E2 H3). destruct C8 as [|(? & ? & ?)]; auto.
  - (* last *)
    assert (K : o_cnt o = S (count R r)).
    { rewrite (C1 _ _ H0), count_cons. destruct (Nat.eq_dec r r); congruence. }
    assert (NR : ~ In r R) by (rewrite count_in; lia).
    assert (NF : o_freed o = false).
    { destruct (o_freed o) eqn:E; auto. pose proof (C3 _ _ H0 E). lia. }
    constructor; cbn [g_objs g_files g_log g_refs g_own]; intros.
    + apply nth_upd in H3. destruct H3 as [(E1 & E2 & _) | (E1 & E2)]; subst.
      * simpl. lia.
      * rewrite (C1 _ _ E2), count_cons. destruct (Nat.eq_dec r r0); [congruence|]. auto.
    + rewrite length_upd. apply C2. right. auto.
    + apply nth_upd in H3. destruct H3 as [(E1 & E2 & _) | (E1 & E2)]; subst; eauto.
    + auto.
    + pose proof (C5 _ _ H3) as [E | ]; auto. subst. eauto.
    + apply nth_upd in H4. destruct H4 as [(E1 & E2 & _) | (E1 & E2)]; subst; eauto.
      exfalso. eauto.
    + pose proof (C7 _ H3). rewrite count_cons in H4. destruct (Nat.eq_dec r r0); subst; auto.
      exfalso. eauto.
    + assert (LR : forall x, is_rejected l x -> is_rejected (ELast r :: l) x).
      { intros x (c & f & I). exists c, f. simpl. auto. }
      apply nth_upd in H3. destruct H3 as [(E1 & E2 & _) | (E1 & E2)]; subst.
      * specialize (C8 _ _ H0 H4). simpl. destruct C8 as [|(? & ? & ?)]; auto; try congruence.
      * specialize (C8 _ _ E2 H4). destruct C8 as [|(? & ? & ?)]; auto.
  - (* reject *)
    assert (K : o_cnt o = S (count R r)).
    { rewrite (C1 _ _ H), count_cons. destruct (Nat.eq_dec r r); congruence. }
    assert (NR : ~ In r R) by (rewrite count_in; lia).
    assert (NO : ~ In r (map fst O)) by (simpl in C4; inversion C4; auto).
    assert (LR : forall x, is_rejected l x ->
                 is_rejected (EReject c r (o_fid o) :: EFree r (o_state o) :: l) x).
    { intros x (c0 & f & I). exists c0, f. simpl. auto. }
    constructor; cbn [g_objs g_files g_log g_refs g_own]; intros.
    + apply nth_upd in H1. destruct H1 as [(E1 & E2 & _) | (E1 & E2)]; subst.
      * simpl. lia.
      * rewrite (C1 _ _ E2), count_cons. destruct (Nat.eq_dec r r0); [congruence|]. auto.
    + rewrite length_upd. apply C2. right. auto.
    + apply nth_upd in H1. destruct H1 as [(E1 & E2 & _) | (E1 & E2)]; subst; eauto.
    + simpl in C4. inversion C4; auto.
    + destruct (C5 r0 p) as [E | ]; simpl; auto. subst. exfalso. apply NO. apply (in_map fst) in H1. auto.
    + apply nth_upd in H2. destruct H2 as [(E1 & E2 & _) | (E1 & E2)]; subst.
      * exfalso. apply NO. apply (in_map fst) in H1. auto.
      * eapply C6; simpl; eauto.
    + assert (r <> r0). { intros E. subst. apply NO. apply (in_map fst) in H1. auto. }
      specialize (C7 r0 (or_intror H1)). rewrite count_cons in C7.
      destruct (Nat.eq_dec r r0); [congruence|]. auto.
    + apply nth_upd in H1. destruct H1 as [(E1 & E2 & _) | (E1 & E2)]; subst.
      * right. destruct (C6 r0 PNew o (or_introl eq_refl) H) as (A & B). simpl.
        split; [exists c, (o_fid o); simpl; auto | auto].
      * specialize (C8 _ _ E2). destruct C8 as [|(? & ? & ?)]; auto.
        simpl. intros [E | I]; auto.
  - (* done *)
    assert (NO : ~ In r (map fst O)) by (simpl in C4; inversion C4; auto).
    constructor; cbn [g_objs g_files g_log g_refs g_own]; intros.
    + apply nth_upd in H0. destruct H0 as [(E1 & E2 & _) | (E1 & E2)]; subst; auto. simpl. auto.
    + rewrite length_upd. auto.
    + apply nth_upd in H0. destruct H0 as [(E1 & E2 & _) | (E1 & E2)]; subst; eauto. simpl in *. eauto.
    + auto.
    + destruct H0 as [E | I]; [injection E as E1 E2; subst; eapply C5; simpl; eauto | eapply C5; simpl; eauto].
    + apply nth_upd in H1. destruct H1 as [(E1 & E2 & _) | (E1 & E2)]; subst.
      * destruct H0 as [E | I].
        -- injection E as E2. subst. destruct (C6 r0 PWait o (or_introl eq_refl) H). simpl. auto.
        -- exfalso. apply NO. apply (in_map fst) in I. auto.
      * destruct H0 as [E | I]; [injection E as E3 E4; congruence|]. eapply C6; simpl; eauto.
    + destruct H0 as [E | I]; [discriminate|]. apply C7. simpl. auto.
    + apply nth_upd in H0. destruct H0 as [(E1 & E2 & _) | (E1 & E2)]; subst.
      * exfalso. apply H1. simpl. auto.
      * apply C8; auto.
  - (* release *)
    assert (NO : ~ In r (map fst O)) by (simpl in C4; inversion C4; auto).
    assert (LR : forall y, is_rejected l y -> is_rejected (ERelease r f :: with_alive f x l) y).
    { intros y (c0 & f0 & I). exists c0, f0. unfold with_alive. destruct (f_alive x); simpl; auto. }
    constructor; cbn [g_objs g_files g_log g_refs g_own]; intros.
    + apply nth_upd in H2. destruct H2 as [(E1 & E2 & _) | (E1 & E2)]; subst; auto. simpl. auto.
    + rewrite length_upd. auto.
    + apply nth_upd in H2. destruct H2 as [(E1 & E2 & _) | (E1 & E2)]; subst; eauto. simpl in *. eauto.
    + auto.
    + destruct H2 as [E | I]; [injection E as E1 E2; subst; eapply C5; simpl; eauto | eapply C5; simpl; eauto].
    + apply nth_upd in H3. destruct H3 as [(E1 & E2 & _) | (E1 & E2)]; subst.
      * destruct H2 as [E | I].
        -- injection E as E2. subst. destruct (C6 r0 PDone o (or_introl eq_refl) H). simpl. auto.
        -- exfalso. apply NO. apply (in_map fst) in I. auto.
      * destruct H2 as [E | I]; [injection E as E3 E4; congruence|]. eapply C6; simpl; eauto.
    + destruct H2 as [E | I]; [discriminate|]. apply C7. simpl. auto.
    + apply nth_upd in H2. destruct H2 as [(E1 & E2 & _) | (E1 & E2)]; subst.
      * exfalso. apply H3. simpl. auto.
      * destruct (C8 _ _ E2 H3) as [|(? & ?)]; auto.
  - (* ready *)
    assert (NO : ~ In r (map fst O)) by (simpl in C4; inversion C4; auto).
    constructor; cbn [g_objs g_files g_log g_refs g_own]; intros.
    + apply nth_upd in H0. destruct H0 as [(E1 & E2 & _) | (E1 & E2)]; subst; auto. simpl. auto.
    + rewrite length_upd. auto.
    + apply nth_upd in H0. destruct H0 as [(E1 & E2 & _) | (E1 & E2)]; subst; eauto. simpl in *. eauto.
    + simpl in C4. inversion C4; auto.
    + eapply C5. simpl. eauto.
    + apply nth_upd in H1. destruct H1 as [(E1 & E2 & _) | (E1 & E2)]; subst.
      * exfalso. apply NO. apply (in_map fst) in H0. auto.
      * eapply C6; simpl; eauto.
    + apply C7. simpl. auto.
    + apply nth_upd in H0. destruct H0 as [(E1 & E2 & _) | (E1 & E2)]; subst.
      * left. destruct (C6 r0 PRel o (or_introl eq_refl) H). simpl. auto.
      * apply C8; auto. simpl. intros [E | I]; auto.
  - (* use *)
    assert (LR : forall y, is_rejected l y -> is_rejected (with_alive f x l) y).
    { intros y (c0 & f0 & I). exists c0, f0. unfold with_alive. destruct (f_alive x); simpl; auto. }
    constructor; cbn [g_objs g_files g_log g_refs g_own]; intros; eauto.
    destruct (C8 _ _ H2 H3) as [|(? & ?)]; auto.
  - (* new *)
    assert (LR : forall y, is_rejected l y -> is_rejected (ENewReq c (length os) f :: with_alive f x l) y).
    { intros y (c0 & f0 & I). exists c0, f0. unfold with_alive. destruct (f_alive x); simpl; auto. }
    assert (NR : ~ In (length os) R). { intros I. apply C2 in I. lia. }
    assert (NO : ~ In (length os) (map fst O)).
    { intros I. apply in_map_iff in I. destruct I as ((r & p) & E & I). simpl in E. subst.
      apply NR. eauto. }
    assert (NA : forall r o, nth_error (os ++ [mk_obj (Some f) f OP 1 false]) r = Some o ->
              (r < length os /\ nth_error os r = Some o) \/
              (r = length os /\ o = mk_obj (Some f) f OP 1 false)).
    { intros r o E. destruct (Nat.lt_ge_cases r (length os)) as [L | L].
      - left. rewrite nth_error_app1 in E by auto. auto.
      - right. rewrite nth_error_app2 in E by auto. destruct (r - length os) eqn:D; simpl in E.
        + injection E as E. split; auto. lia.
        + destruct n; discriminate. }
    constructor; cbn [g_objs g_files g_log g_refs g_own]; intros.
    + rewrite count_cons. apply NA in H0. destruct H0 as [(L & E) | (E1 & E2)].
      * destruct (Nat.eq_dec (length os) r); [lia|]. auto.
      * subst. destruct (Nat.eq_dec (length os) (length os)); [|congruence]. simpl.
        rewrite count_in in NR. lia.
    + rewrite app_length. simpl. destruct H0 as [E | I]; [lia | apply C2 in I; lia].
    + apply NA in H0. destruct H0 as [(L & E) | (E1 & E2)]; eauto. subst. discriminate.
    + simpl. constructor; auto.
    + destruct H0 as [E | I]; [injection E as E1 E2; subst; simpl; auto | right; eauto].
    + apply NA in H1. destruct H0 as [E | I].
      * injection E as E1 E2. subst. destruct H1 as [(L & E) | (E1 & E2)]; [lia|]. subst. simpl. auto.
      * destruct H1 as [(L & E) | (E1 & E2)]; [eauto|]. subst. exfalso. apply NO.
        apply (in_map fst) in I. auto.
    + rewrite count_cons. destruct H0 as [E | I].
      * injection E as E1. subst. destruct (Nat.eq_dec (length os) (length os)); [|congruence].
        rewrite count_in in NR. lia.
      * destruct (Nat.eq_dec (length os) r); [|auto]. subst. exfalso. apply NO.
        apply (in_map fst) in I. auto.
    + apply NA in H0. destruct H0 as [(L & E) | (E1 & E2)].
      * destruct (C8 _ _ E) as [|(? & ?)]; auto. intros I. apply H1. simpl. auto.
      * exfalso. apply H1. simpl. auto.
  - constructor; cbn [g_objs g_files g_log g_refs g_own]; intros; eauto.
  - assert (LR : forall y, is_rejected l y -> is_rejected (EDestroy f (f_nref x) :: l) y).
    { intros y (c0 & f0 & I). exists c0, f0. simpl; auto. }
    constructor; cbn [g_objs g_files g_log g_refs g_own]; intros; eauto.
    destruct (C8 _ _ H1 H2) as [|(? & ?)]; auto.
  - assert (LR : forall y, is_rejected l y -> is_rejected (e :: l) y).
    { intros y (c0 & f0 & I). exists c0, f0. simpl; auto. }
    constructor; cbn [g_objs g_files g_log g_refs g_own]; intros; eauto.
    destruct (C8 _ _ H0 H1) as [|(? & ?)]; auto.
  - assert (LR : forall y, is_rejected l y -> is_rejected (EWaited c r :: l) y).
    { intros y (c0 & f0 & I). exists c0, f0. simpl; auto. }
    constructor; cbn [g_objs g_files g_log g_refs g_own]; intros; eauto.
    destruct (C8 _ _ H1 H2) as [|(? & ?)]; auto.
  - assert (LR : forall y, is_rejected l y -> is_rejected (ECancelled c r (Some true) :: l) y).
    { intros y (c0 & f0 & I). exists c0, f0. simpl; auto. }
    constructor; cbn [g_objs g_files g_log g_refs g_own]; intros; eauto.
    destruct (C8 _ _ H1 H2) as [|(? & ?)]; auto.
Qed.

Lemma prims_core : forall k g g', core g -> prims k g g' -> core g'.
Proof. intros k g g' C P. induction P; auto. eapply prim_core; [apply IHP; auto | eauto]. Qed.
