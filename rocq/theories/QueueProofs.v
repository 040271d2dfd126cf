(** The life-cycle invariant of the queue machine. *)
From Coq Require Import List Bool PeanoNat Lia.
From Verif Require Import QueueModel QueueSpec.
Import ListNotations.

(** Lists. *)
Lemma upd_length : forall A i (x : A) l, length (upd i x l) = length l.
Proof. induction i; destruct l; cbn; auto. Qed.

Lemma nth_upd_eq : forall A i (x y : A) l, nth_error l i = Some y -> nth_error (upd i x l) i = Some x.
Proof. induction i; destruct l; cbn; intros; try discriminate; eauto. Qed.

Lemma nth_upd_neq : forall A i j (x : A) l, i <> j -> nth_error (upd i x l) j = nth_error l j.
Proof.
  induction i; destruct l; cbn; intros; auto; destruct j; cbn; auto; try lia.
Qed.

Lemma nth_upd : forall A i j (x y : A) l, nth_error l i = Some y ->
  nth_error (upd i x l) j = if Nat.eqb i j then Some x else nth_error l j.
Proof.
  intros. destruct (Nat.eqb_spec i j).
  - subst. eapply nth_upd_eq; eauto.
  - apply nth_upd_neq; auto.
Qed.

Lemma nth_snoc : forall A (l : list A) x i,
  nth_error (l ++ [x]) i = if Nat.eqb i (length l) then Some x else nth_error l i.
Proof.
  induction l; destruct i; cbn; auto. destruct i; auto.
Qed.

(** Phases of a request, read off the log. *)
Inductive ph :=
| PNone | PPush (c : nat) | PQueued | PServe | PTake (c : nat)
| PFin (o : option nat) (st : stage) | PEnd (o : option nat) | PBad.

Definition is_none (o : option nat) : bool := match o with None => true | Some _ => false end.

Definition adv (e : event) (p : ph) : ph :=
  match p, e with
  | PNone, ECreate c _ => PPush c
  | PPush _, EPush _ => PQueued
  | PQueued, EPop _ => PServe
  | PQueued, EErase c _ => PTake c
  | PServe, EServe _ _ => PFin None SDone
  | PTake c, ETook c' _ => if Nat.eqb c c' then PFin (Some c) SDone else PBad
  | PFin o SDone, EDone _ => PFin o SHandler
  | PFin o SHandler, EHandler _ b => if Bool.eqb b (is_none o) then PFin o SNotify else PBad
  | PFin o SHandler, ENoHandler _ => PFin o SNotify
  | PFin o SNotify, ENotify _ _ => PFin o SRelease
  | PFin o SRelease, ERelease _ => PFin o SReady
  | PFin o SReady, EReady _ => PEnd o
  | _, _ => PBad
  end.

Fixpoint loc (r : nat) (log : list event) : ph :=
  match log with
  | [] => PNone
  | e :: l => if about r e then adv e (loc r l) else loc r l
  end.

(** Who is responsible for a request. *)
Definition wown (p : wpc) : option (nat * ph) :=
  match p with
  | WServe r => Some (r, PServe)
  | WFin r st => Some (r, PFin None st)
  | _ => None
  end.

Definition cown (c : nat) (p : cpc) : option (nat * ph) :=
  match p with
  | CPush r => Some (r, PPush c)
  | CTake r _ _ _ => Some (r, PTake c)
  | CFin r st _ _ _ => Some (r, PFin (Some c) st)
  | _ => None
  end.

Inductive own (s : state) (r : nat) : ph -> Prop :=
| own_w : forall p, wown (st_wpc s) = Some (r, p) -> own s r p
| own_c : forall c pc p, nth_error (st_clients s) c = Some pc -> cown c pc = Some (r, p) -> own s r p
| own_q : forall w, In r (queue w s) -> own s r PQueued.

Definition active (p : ph) : Prop :=
  match p with PNone | PEnd _ | PBad => False | _ => True end.

Definition fields (p : ph) (q : req) : Prop :=
  match p with
  | PNone | PBad => False
  | PPush _ | PQueued | PServe | PTake _ | PFin _ SDone => q_state q = OP /\ q_file q = true
  | PFin _ SReady => q_state q = DONE /\ q_file q = false
  | PFin _ _ => q_state q = DONE /\ q_file q = true
  | PEnd _ => q_state q = READY2DIE /\ q_file q = false
  end.

Record linv (k : kind) (s : state) : Prop := {
  l_own : forall r p, own s r p -> loc r (st_log s) = p;
  l_act : forall r, active (loc r (st_log s)) -> own s r (loc r (st_log s));
  l_fld : forall r q, nth_error (st_reqs s) r = Some q -> fields (loc r (st_log s)) q;
  l_dom : forall r, nth_error (st_reqs s) r = None -> loc r (st_log s) = PNone;
  l_dir : forall r w, In r (queue w s) ->
          exists q, nth_error (st_reqs s) r = Some q /\ which k (q_op q) = w;
  l_nodup : forall w, NoDup (queue w s);
  l_one : k = OneQ -> st_rq s = [] /\ st_phase s = true
}.

(** Parts of a request that its life cycle depends on. *)
Definition core (q : req) := (q_op q, q_state q, q_file q).

Lemma fields_core : forall p q q', core q = core q' -> fields p q -> fields p q'.
Proof.
  unfold core. intros p q q' H F. injection H as H1 H2 H3.
  unfold fields in *. rewrite <- H2, <- H3. exact F.
Qed.

Lemma about_fun : forall r r' e, about r e = true -> about r' e = true -> r = r'.
Proof.
  intros r r' [] H1 H2; cbn in *; try discriminate;
    apply Nat.eqb_eq in H1; apply Nat.eqb_eq in H2; congruence.
Qed.

(** Steps that do not touch the life of any request. *)
Lemma linv_silent : forall k s s',
  linv k s ->
  st_rq s' = st_rq s -> st_wq s' = st_wq s ->
  wown (st_wpc s') = wown (st_wpc s) ->
  (forall c r p, (exists pc, nth_error (st_clients s') c = Some pc /\ cown c pc = Some (r, p)) <->
                 (exists pc, nth_error (st_clients s) c = Some pc /\ cown c pc = Some (r, p))) ->
  (forall r, option_map core (nth_error (st_reqs s') r) = option_map core (nth_error (st_reqs s) r)) ->
  (forall r, loc r (st_log s') = loc r (st_log s)) ->
  (k = OneQ -> st_phase s = true -> st_phase s' = true) ->
  linv k s'.
Proof.
  intros k s s' L HR HW Hw Hc Hq Hl Hp.
  assert (Q : forall w, queue w s' = queue w s) by (intros []; cbn; auto).
  assert (O : forall r p, own s' r p <-> own s r p).
  { intros r p; split; intros X; destruct X as [p X | c pc p X Y | w X].
    - apply own_w. congruence.
    - destruct (proj1 (Hc c r p)) as (pc' & A & B); [eauto|]. eapply own_c; eauto.
    - rewrite Q in X. eapply own_q; eauto.
    - apply own_w. congruence.
    - destruct (proj2 (Hc c r p)) as (pc' & A & B); [eauto|]. eapply own_c; eauto.
    - rewrite <- Q in X. eapply own_q; eauto. }
  constructor; intros.
  - rewrite Hl. apply (l_own k s L). apply O; auto.
  - rewrite Hl in *. apply O. apply (l_act k s L); auto.
  - rewrite Hl. specialize (Hq r). rewrite H in Hq. cbn in Hq.
    destruct (nth_error (st_reqs s) r) as [q0|] eqn:E; cbn in Hq; [|discriminate].
    injection Hq as Hq1 Hq2 Hq3. eapply fields_core; [|eapply (l_fld k s L); eauto].
    unfold core; congruence.
  - rewrite Hl. apply (l_dom k s L). specialize (Hq r). rewrite H in Hq.
    destruct (nth_error (st_reqs s) r); cbn in Hq; congruence.
  - rewrite Q in H. destruct (l_dir k s L r w H) as (q & A & B).
    specialize (Hq r). rewrite A in Hq. destruct (nth_error (st_reqs s') r) as [q'|]; [|discriminate].
    exists q'. split; auto. cbn in Hq. injection Hq as Hq1 Hq2 Hq3. congruence.
  - rewrite Q. apply (l_nodup k s L).
  - rewrite HR. destruct (l_one k s L H); split; auto.
Qed.

(** Steps that advance the life of one request [r]. *)
Lemma linv_move : forall k s s' e r p',
  linv k s ->
  st_log s' = e :: st_log s -> about r e = true ->
  adv e (loc r (st_log s)) = p' -> p' <> PNone -> p' <> PBad ->
  (forall r' x, r' <> r -> own s' r' x <-> own s r' x) ->
  (forall x, own s' r x -> x = p') -> (active p' -> own s' r p') ->
  (forall r', r' <> r -> option_map core (nth_error (st_reqs s') r') = option_map core (nth_error (st_reqs s) r')) ->
  (exists q', nth_error (st_reqs s') r = Some q' /\ fields p' q' /\
     forall q, nth_error (st_reqs s) r = Some q -> q_op q' = q_op q) ->
  (forall w, In r (queue w s') -> exists q, nth_error (st_reqs s') r = Some q /\ which k (q_op q) = w) ->
  (forall w r', r' <> r -> In r' (queue w s') -> In r' (queue w s)) ->
  (forall w, NoDup (queue w s')) ->
  (k = OneQ -> st_rq s' = [] /\ st_phase s' = true) ->
  linv k s'.
Proof.
  intros k s s' e r p' L Hlog Ab Hadv NN NB O1 O2 O3 Rq (q' & Q1 & Q2 & Q3) D1 D2 ND One.
  assert (LR : loc r (st_log s') = p') by (rewrite Hlog; cbn; rewrite Ab; auto).
  assert (LO : forall r', r' <> r -> loc r' (st_log s') = loc r' (st_log s)).
  { intros r' Hr. rewrite Hlog; cbn. destruct (about r' e) eqn:E; auto.
    exfalso; apply Hr; eapply about_fun; eauto. }
  constructor; intros.
  - destruct (Nat.eq_dec r0 r) as [->|N].
    + rewrite LR. symmetry; auto.
    + rewrite LO by auto. apply (l_own k s L). apply O1; auto.
  - destruct (Nat.eq_dec r0 r) as [->|N].
    + rewrite LR in *. auto.
    + rewrite LO in * by auto. apply O1; auto. apply (l_act k s L); auto.
  - destruct (Nat.eq_dec r0 r) as [->|N].
    + rewrite LR. congruence.
    + rewrite LO by auto. specialize (Rq r0 N). rewrite H in Rq; cbn in Rq.
      destruct (nth_error (st_reqs s) r0) as [q0|] eqn:E; cbn in Rq; [|discriminate].
      injection Rq as A B C. eapply fields_core; [|eapply (l_fld k s L); eauto]. unfold core; congruence.
  - destruct (Nat.eq_dec r0 r) as [->|N]; [congruence|].
    rewrite LO by auto. apply (l_dom k s L). specialize (Rq r0 N). rewrite H in Rq.
    destruct (nth_error (st_reqs s) r0); cbn in Rq; congruence.
  - destruct (Nat.eq_dec r0 r) as [->|N]; auto.
    destruct (l_dir k s L r0 w (D2 _ _ N H)) as (q & A & B).
    specialize (Rq r0 N). rewrite A in Rq. destruct (nth_error (st_reqs s') r0) as [q1|]; [|discriminate].
    exists q1. split; auto. cbn in Rq. injection Rq as X Y Z. congruence.
  - auto.
  - auto.
Qed.

Lemma linv_init : forall k n, linv k (init n).
Proof.
  intros. constructor; cbn; intros; auto.
  - destruct H as [p H | c pc p H1 H2 | w H].
    + discriminate.
    + cbn in H1. apply nth_error_In in H1. apply repeat_spec in H1. subst; discriminate.
    + destruct w; cbn in H; tauto.
  - tauto.
  - destruct r; discriminate.
  - destruct w; cbn in *; tauto.
  - destruct w; cbn; constructor.
Qed.
