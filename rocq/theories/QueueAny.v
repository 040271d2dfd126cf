(** wait_any: switches and registrations. *)
From Coq Require Import List Bool PeanoNat Lia.
From Verif Require Import QueueModel QueueSpec QueueProofs QueueLife QueueTrace QueueClients QueueMain.
Import ListNotations.

Definition notified (r : nat) (log : list event) : Prop := exists d, In (ENotify r d) log.
Definition thrown (log : list event) : Prop := exists c rs r, In (EAnyThrow c rs r) log.

(** The part of a program counter inside wait_any. *)
Definition anyv (p : cpc) : option cpc :=
  match p with
  | CAnyAdd _ _ _ | CAnyUndo _ _ _ _ | CAnyWait _ _ | CAnyScan _ _ _ _ _ => Some p
  | _ => None
  end.
Definition av (s : state) (c : nat) : option cpc :=
  match nth_error (st_clients s) c with Some p => anyv p | None => None end.

(** The switch and the requests it may be registered with. *)
Definition user (p : cpc) : option (nat * list nat) :=
  match p with
  | CAnyAdd done _ sw => Some (sw, done)
  | CAnyUndo del _ _ sw => Some (sw, del)
  | CAnyWait all sw => Some (sw, all)
  | CAnyScan todo _ _ sw _ => Some (sw, todo)
  | _ => None
  end.
Definition waiting (p : cpc) : bool :=
  match p with CAnyAdd _ _ _ | CAnyWait _ _ => true | _ => false end.
Definition scan_ok (log : list event) (p : cpc) : Prop :=
  match p with
  | CAnyScan todo _ None _ false => exists r, In r todo /\ notified r log
  | _ => True
  end.

Definition wt (s : state) (r : nat) : list nat :=
  match nth_error (st_reqs s) r with Some q => q_waiters q | None => [] end.

Record ainv (s : state) : Prop := {
  a_alive : forall c p sw rs, av s c = Some p -> user p = Some (sw, rs) ->
      nth_error (st_sws s) sw = Some SwOff \/ nth_error (st_sws s) sw = Some SwOn;
  a_dist : forall c1 c2 p1 p2 sw r1 r2, av s c1 = Some p1 -> av s c2 = Some p2 ->
      user p1 = Some (sw, r1) -> user p2 = Some (sw, r2) -> c1 = c2;
  a_reg : forall r sw, In sw (wt s r) ->
      (exists c p rs, av s c = Some p /\ user p = Some (sw, rs) /\ In r rs) \/
      (nth_error (st_sws s) sw = Some SwDead /\ thrown (st_log s));
  a_hold : forall c p sw rs r, av s c = Some p -> waiting p = true -> user p = Some (sw, rs) -> In r rs ->
      In sw (wt s r) /\ (notified r (st_log s) -> nth_error (st_sws s) sw = Some SwOn);
  a_on : forall c p sw rs, av s c = Some p -> waiting p = true -> user p = Some (sw, rs) ->
      nth_error (st_sws s) sw = Some SwOn -> exists r, In r rs /\ notified r (st_log s);
  a_scan : forall c p, av s c = Some p -> scan_ok (st_log s) p
}.

Ltac csplit := repeat match goal with |- _ /\ _ => split end.

(** notify_waiters. *)
Lemma switch_on_spec : forall l sw l' b, switch_on l sw = (l', b) ->
  (forall x, nth_error l x = Some SwDead -> nth_error l' x = Some SwDead) /\
  (forall x, x <> sw -> nth_error l' x = nth_error l x) /\
  (nth_error l sw = Some SwOff \/ nth_error l sw = Some SwOn -> nth_error l' sw = Some SwOn) /\
  (b = true -> nth_error l sw = Some SwDead) /\
  (nth_error l sw = None -> nth_error l' sw = None).
Proof.
  unfold switch_on. intros l sw l' b H.
  destruct (nth_error l sw) as [[]|] eqn:E; injection H as <- <-; csplit; intros; auto;
    try discriminate; try (destruct H; discriminate);
    try (rewrite nth_upd_neq; auto; congruence); try (eapply nth_upd_eq; eauto; fail).
Qed.

Lemma notify_spec : forall ws l l' b, notify_all ws l = (l', b) ->
  (forall x, nth_error l x = Some SwDead -> nth_error l' x = Some SwDead) /\
  (forall x, ~ In x ws -> nth_error l' x = nth_error l x) /\
  (forall x, In x ws -> nth_error l x = Some SwOff \/ nth_error l x = Some SwOn -> nth_error l' x = Some SwOn) /\
  (forall x, nth_error l x = Some SwOn -> nth_error l' x = Some SwOn) /\
  (b = true -> exists x, In x ws /\ nth_error l x = Some SwDead).
Proof.
  induction ws as [|w ws IH]; intros l l' b H; cbn in H.
  - injection H as <- <-. csplit; intros; auto; try contradiction; discriminate.
  - destruct (switch_on l w) as [l1 b1] eqn:S1. destruct (notify_all ws l1) as [l2 b2] eqn:S2.
    injection H as <- <-. apply switch_on_spec in S1. destruct S1 as (A1 & A2 & A3 & A4 & A5).
    destruct (IH _ _ _ S2) as (B1 & B2 & B3 & B4 & B5).
    assert (ON : forall x, nth_error l x = Some SwOn -> nth_error l1 x = Some SwOn).
    { intros x X. destruct (Nat.eq_dec x w) as [->|N]; auto. rewrite A2; auto. }
    csplit.
    + auto.
    + intros x N. rewrite B2, A2; auto; intros X; apply N; cbn; auto.
    + intros x I X. destruct (Nat.eq_dec x w) as [->|N].
      * apply B4. auto.
      * destruct I as [->|I]; [congruence|]. apply B3; auto. rewrite A2; auto.
    + auto.
    + intros X. apply orb_prop in X. destruct X as [X|X].
      * exists w. split; [left; auto | auto].
      * destruct (B5 X) as (x & I & D). exists x. split; [right; auto|].
        destruct (Nat.eq_dec x w) as [->|N]; [|rewrite A2 in D; auto].
        destruct (nth_error l w) as [[]|] eqn:E; auto.
        -- rewrite A3 in D by auto. discriminate.
        -- rewrite A3 in D by auto. discriminate.
        -- rewrite A5 in D by auto. discriminate.
Qed.

Lemma notified_fin : forall k s r, linv k s -> notified r (st_log s) -> fin (loc r (st_log s)).
Proof.
  intros k s r L (d & I0).
  destruct (in_word k s r (ENotify r d) _ L eq_refl) as (l & W & I); auto; [cbn; apply Nat.eqb_refl|].
  destruct (loc r (st_log s)) as [|c0| | |c0|o st|o|]; cbn; auto; try (destruct o); try (destruct st); auto;
    words W; cbn in I; repeat (destruct I as [I|I]; [discriminate I|]); tauto.
Qed.

Lemma not_notified : forall k s r q, linv k s -> nth_error (st_reqs s) r = Some q -> finished q = false ->
  ~ notified r (st_log s).
Proof.
  intros k s r q L H F N. apply (notified_fin k s r L) in N. rewrite (fin_finished _ _ _ _ L H N) in F. discriminate.
Qed.

(** Steps outside wait_any that do not notify. *)
Definition quiet_ev (e : event) : bool := match e with ENotify _ _ => false | _ => true end.

Lemma notified_same : forall r e log, quiet_ev e = true -> notified r (e :: log) -> notified r log.
Proof. intros r e log Q (d & [->|I]); [discriminate | exists d; auto]. Qed.
Lemma notified_more : forall r e log, notified r log -> notified r (e :: log).
Proof. intros r e log (d & I). exists d. right. auto. Qed.
Lemma thrown_more : forall e log, thrown log -> thrown (e :: log).
Proof. intros e log (c & rs & r & I). exists c, rs, r. right. auto. Qed.

Lemma scan_more : forall p e log, scan_ok log p -> scan_ok (e :: log) p.
Proof.
  intros p e log. destruct p; cbn; auto. destruct res; auto. destruct spurious; auto.
  intros (r & A & B). exists r. split; auto. apply notified_more; auto.
Qed.

Lemma ainv_frame : forall s s', ainv s ->
  (forall c, av s' c = av s c) -> (forall r, wt s' r = wt s r) -> st_sws s' = st_sws s ->
  (st_log s' = st_log s \/ exists e, st_log s' = e :: st_log s /\ quiet_ev e = true) -> ainv s'.
Proof.
  intros s s' [A1 A2 A3 A4 A5 A6] HA HW HS HL.
  assert (N1 : forall r, notified r (st_log s') <-> notified r (st_log s)).
  { intros r. destruct HL as [->|(e & -> & Q)]; [tauto|]. split; [apply notified_same; auto | apply notified_more]. }
  assert (N2 : thrown (st_log s) -> thrown (st_log s')).
  { destruct HL as [->|(e & -> & Q)]; auto. apply thrown_more. }
  constructor.
  - intros. rewrite HA, HS in *. eauto.
  - intros. rewrite HA in *. eauto.
  - intros r sw I. rewrite HW in I. rewrite HS. destruct (A3 r sw I) as [(c & p & rs & X & Y & Z)|(X & Y)]; [left|right; auto].
    exists c, p, rs. rewrite HA. auto.
  - intros c p sw rs r X Y Z I. rewrite HA in X. rewrite HW, HS, N1. eauto.
  - intros c p sw rs X Y Z I. rewrite HA in X. rewrite HS in I. destruct (A5 _ _ _ _ X Y Z I) as (r & B & C).
    exists r. rewrite N1. auto.
  - intros c p X. rewrite HA in X. specialize (A6 _ _ X). destruct HL as [->|(e & -> & Q)]; auto. apply scan_more; auto.
Qed.

(** A notification. *)
Lemma ainv_notify : forall k s s' r q l bad, linv k s -> ainv s ->
  nth_error (st_reqs s) r = Some q -> notify_all (q_waiters q) (st_sws s) = (l, bad) ->
  (forall c, av s' c = av s c) -> (forall r, wt s' r = wt s r) -> st_sws s' = l ->
  st_log s' = ENotify r bad :: st_log s -> ainv s' /\ (bad = true -> thrown (st_log s)).
Proof.
  intros k s s' r q l bad L [A1 A2 A3 A4 A5 A6] HQ HN HA HW HS HL.
  destruct (notify_spec _ _ _ _ HN) as (B1 & B2 & B3 & B4 & B5).
  assert (WQ : wt s r = q_waiters q) by (unfold wt; rewrite HQ; auto).
  assert (NR : notified r (st_log s')) by (exists bad; rewrite HL; left; auto).
  assert (ALIVE : forall sw, nth_error (st_sws s) sw = Some SwOff \/ nth_error (st_sws s) sw = Some SwOn ->
                    nth_error l sw = Some SwOff \/ nth_error l sw = Some SwOn).
  { intros sw X. destruct (in_dec Nat.eq_dec sw (q_waiters q)) as [I|N]; [right; auto|]. rewrite B2; auto. }
  split; [constructor|].
  - intros c p sw rs X Y. rewrite HA in X. rewrite HS. eauto.
  - intros. rewrite HA in *. eauto.
  - intros r' sw I. rewrite HW in I. rewrite HS, HL. destruct (A3 r' sw I) as [(c & p & rs & X & Y & Z)|(X & Y)]; [left|right].
    + exists c, p, rs. rewrite HA. auto.
    + split; auto. apply thrown_more; auto.
  - intros c p sw rs r' X Y Z I. rewrite HA in X. destruct (A4 _ _ _ _ _ X Y Z I) as (C1 & C2).
    rewrite HW, HS. split; auto. intros (d & N). rewrite HL in N. destruct N as [N|N].
    + injection N as -> ->. apply B3; [rewrite <- WQ; auto | eauto].
    + apply B4. apply C2. exists d. auto.
  - intros c p sw rs X Y Z I. rewrite HA in X. rewrite HS in I.
    destruct (A1 _ _ _ _ X Z) as [O|O].
    + destruct (in_dec Nat.eq_dec sw (q_waiters q)) as [J|N]; [|rewrite B2 in I; congruence].
      rewrite <- WQ in J. destruct (A3 _ _ J) as [(c' & p' & rs' & X' & Y' & Z')|(X' & _)]; [|congruence].
      assert (c' = c) by (eapply A2; eauto). subst c'. rewrite X in X'. injection X' as <-. rewrite Z in Y'. injection Y' as <-.
      exists r. auto.
    + destruct (A5 _ _ _ _ X Y Z O) as (r' & C & D). exists r'. split; auto. rewrite HL. apply notified_more; auto.
  - intros c p X. rewrite HA in X. rewrite HL. apply scan_more. eauto.
  - intros E. destruct (B5 E) as (x & I & D). rewrite <- WQ in I.
    destruct (A3 _ _ I) as [(c & p & rs & X & Y & Z)|(_ & X)]; auto.
    destruct (A1 _ _ _ _ X Y); congruence.
Qed.

(** One client moves inside wait_any. *)
Lemma ainv_move : forall s s' c p0 p1 sw rs0 rs1, ainv s ->
  av s c = Some p0 -> user p0 = Some (sw, rs0) ->
  av s' c = Some p1 -> user p1 = Some (sw, rs1) ->
  (forall c', c' <> c -> av s' c' = av s c') ->
  (forall r sw', sw' <> sw -> (In sw' (wt s' r) <-> In sw' (wt s r))) ->
  (forall r, In sw (wt s' r) -> In r rs1) ->
  (waiting p1 = true -> forall r, In r rs1 -> In sw (wt s' r) /\
        (notified r (st_log s) -> nth_error (st_sws s) sw = Some SwOn)) ->
  (waiting p1 = true -> nth_error (st_sws s) sw = Some SwOn -> exists r, In r rs1 /\ notified r (st_log s)) ->
  scan_ok (st_log s) p1 ->
  st_sws s' = st_sws s -> st_log s' = st_log s -> ainv s'.
Proof.
  intros s s' c p0 p1 sw rs0 rs1 [A1 A2 A3 A4 A5 A6] H0 U0 H1 U1 HO HW HR HH HON HSC HS HL.
  assert (NEQ : forall c' p rs', c' <> c -> av s c' = Some p -> ~ user p = Some (sw, rs')).
  { intros c' p rs' N X Y. apply N. eapply A2; eauto. }
  constructor.
  - intros c' p sw' rs X Y. rewrite HS. destruct (Nat.eq_dec c' c) as [->|N].
    + rewrite H1 in X. injection X as <-. rewrite U1 in Y. injection Y as <- <-. eauto.
    + rewrite HO in X; eauto.
  - intros c1 c2 q1 q2 sw' r1 r2 X1 X2 Y1 Y2.
    destruct (Nat.eq_dec c1 c) as [->|N1], (Nat.eq_dec c2 c) as [->|N2]; auto.
    + exfalso. rewrite H1 in X1. injection X1 as <-. rewrite U1 in Y1. injection Y1 as <- <-.
      rewrite HO in X2; auto. eapply NEQ; eauto.
    + exfalso. rewrite H1 in X2. injection X2 as <-. rewrite U1 in Y2. injection Y2 as <- <-.
      rewrite HO in X1; auto. eapply NEQ; eauto.
    + rewrite HO in X1, X2; auto. eauto.
  - intros r sw' I. rewrite HS, HL. destruct (Nat.eq_dec sw' sw) as [->|N].
    + left. exists c, p1, rs1. auto.
    + apply HW in I; auto. destruct (A3 _ _ I) as [(c' & p & rs & X & Y & Z)|X]; [left|right; auto].
      exists c', p, rs. rewrite HO; auto. intros ->. congruence.
  - intros c' p sw' rs r X Y Z I. rewrite HS, HL. destruct (Nat.eq_dec c' c) as [->|N].
    + rewrite H1 in X. injection X as <-. rewrite U1 in Z. injection Z as <- <-. auto.
    + rewrite HO in X; auto. assert (sw' <> sw) by (intros ->; eapply NEQ; eauto).
      rewrite HW; auto. eauto.
  - intros c' p sw' rs X Y Z I. rewrite HS in I. rewrite HL. destruct (Nat.eq_dec c' c) as [->|N].
    + rewrite H1 in X. injection X as <-. rewrite U1 in Z. injection Z as <- <-. auto.
    + rewrite HO in X; eauto.
  - intros c' p X. rewrite HL. destruct (Nat.eq_dec c' c) as [->|N].
    + rewrite H1 in X. injection X as <-. auto.
    + rewrite HO in X; eauto.
Qed.

(** One client leaves wait_any. *)
Lemma ainv_exit : forall s s' c p0 sw rs0 e, ainv s ->
  av s c = Some p0 -> user p0 = Some (sw, rs0) -> av s' c = None ->
  (forall c', c' <> c -> av s' c' = av s c') ->
  (forall r sw', sw' <> sw -> (In sw' (wt s' r) <-> In sw' (wt s r))) ->
  (forall r, In sw (wt s' r) -> thrown (e :: st_log s)) ->
  st_sws s' = upd sw SwDead (st_sws s) -> st_log s' = e :: st_log s -> quiet_ev e = true -> ainv s'.
Proof.
  intros s s' c p0 sw rs0 e [A1 A2 A3 A4 A5 A6] H0 U0 H1 HO HW HR HS HL HE.
  assert (NEQ : forall c' p sw' rs', c' <> c -> av s c' = Some p -> user p = Some (sw', rs') -> sw' <> sw).
  { intros c' p sw' rs' N X Y ->. apply N. eapply A2; eauto. }
  assert (DEAD : nth_error (st_sws s') sw = Some SwDead).
  { rewrite HS. destruct (A1 _ _ _ _ H0 U0) as [X|X]; eapply nth_upd_eq; eauto. }
  assert (SAME : forall x, x <> sw -> nth_error (st_sws s') x = nth_error (st_sws s) x).
  { intros x N. rewrite HS. apply nth_upd_neq. auto. }
  assert (N1 : forall r, notified r (st_log s') <-> notified r (st_log s)).
  { intros r. rewrite HL. split; [apply notified_same; auto | apply notified_more]. }
  assert (G : forall c' p, av s' c' = Some p -> c' <> c /\ av s c' = Some p).
  { intros c' p X. destruct (Nat.eq_dec c' c) as [->|N]; [congruence|]. rewrite HO in X; auto. }
  constructor.
  - intros c' p sw' rs X Y. destruct (G _ _ X) as (N & X'). rewrite SAME; eauto.
  - intros c1 c2 q1 q2 sw' r1 r2 X1 X2 Y1 Y2. destruct (G _ _ X1), (G _ _ X2). eauto.
  - intros r sw' I. destruct (Nat.eq_dec sw' sw) as [->|N].
    + right. split; auto. rewrite HL. eauto.
    + apply HW in I; auto. rewrite SAME; auto. destruct (A3 _ _ I) as [(c' & p & rs & X & Y & Z)|(X & Y)]; [left|right].
      * exists c', p, rs. rewrite HO; auto. intros ->. congruence.
      * split; auto. rewrite HL. apply thrown_more; auto.
  - intros c' p sw' rs r X Y Z I. destruct (G _ _ X) as (N & X').
    assert (sw' <> sw) by eauto. rewrite HW, SAME, N1; auto. eauto.
  - intros c' p sw' rs X Y Z I. destruct (G _ _ X) as (N & X').
    assert (sw' <> sw) by eauto. rewrite SAME in I; auto. destruct (A5 _ _ _ _ X' Y Z I) as (r & C & D).
    exists r. rewrite N1. auto.
  - intros c' p X. destruct (G _ _ X) as (N & X'). rewrite HL. apply scan_more. eauto.
Qed.

(** Reading off the client table and the waiters. *)
Lemma av_upd : forall s s' c p0 p1, nth_error (st_clients s) c = Some p0 -> st_clients s' = upd c p1 (st_clients s) ->
  av s' c = anyv p1 /\ forall c', c' <> c -> av s' c' = av s c'.
Proof.
  intros s s' c p0 p1 H E. unfold av. rewrite E. split.
  - rewrite (nth_upd_eq _ _ _ _ _ H). auto.
  - intros c' N. rewrite nth_upd_neq; auto.
Qed.

Lemma av_quiet : forall s s' c p0 p1, nth_error (st_clients s) c = Some p0 -> st_clients s' = upd c p1 (st_clients s) ->
  anyv p0 = None -> anyv p1 = None -> forall c', av s' c' = av s c'.
Proof.
  intros s s' c p0 p1 H E N0 N1 c'. destruct (av_upd _ _ _ _ _ H E) as (A & B).
  destruct (Nat.eq_dec c' c) as [->|N]; auto. rewrite A, N1. unfold av. rewrite H. auto.
Qed.

Lemma av_at : forall s c p, nth_error (st_clients s) c = Some p -> av s c = anyv p.
Proof. intros s c p H. unfold av. rewrite H. auto. Qed.

Lemma wt_upd : forall s s' r q q', nth_error (st_reqs s) r = Some q -> st_reqs s' = upd r q' (st_reqs s) ->
  forall r', wt s' r' = if Nat.eqb r r' then q_waiters q' else wt s r'.
Proof.
  intros s s' r q q' H E r'. unfold wt. rewrite E, (nth_upd _ _ _ _ _ _ H). destruct (Nat.eqb r r'); auto.
Qed.

Lemma wt_same : forall s s' r q q', nth_error (st_reqs s) r = Some q -> st_reqs s' = upd r q' (st_reqs s) ->
  q_waiters q' = q_waiters q -> forall r', wt s' r' = wt s r'.
Proof.
  intros s s' r q q' H E W r'. rewrite (wt_upd _ _ _ _ _ H E). destruct (Nat.eqb_spec r r'); auto. subst.
  unfold wt. rewrite H. auto.
Qed.

Lemma wt_insert : forall s s' r q sw, nth_error (st_reqs s) r = Some q ->
  st_reqs s' = upd r (set_waiters (insert_waiter sw (q_waiters q)) q) (st_reqs s) ->
  forall r' x, In x (wt s' r') <-> In x (wt s r') \/ (r' = r /\ x = sw).
Proof.
  intros s s' r q sw H E r' x. rewrite (wt_upd _ _ _ _ _ H E). destruct (Nat.eqb_spec r r') as [<-|N].
  - unfold wt. rewrite H. cbn. unfold insert_waiter. destruct (existsb (Nat.eqb sw) (q_waiters q)) eqn:X.
    + split; auto. intros [I|(_ & ->)]; auto. apply existsb_exists in X. destruct X as (y & I & Y).
      apply Nat.eqb_eq in Y. subst. auto.
    + cbn. split; [intros [<-|I]; auto | intros [I|(_ & ->)]; auto].
  - split; auto. intros [I|(-> & _)]; congruence.
Qed.

Lemma wt_erase : forall s s' r q sw, nth_error (st_reqs s) r = Some q ->
  st_reqs s' = upd r (set_waiters (erase_waiter sw (q_waiters q)) q) (st_reqs s) ->
  forall r' x, In x (wt s' r') <-> In x (wt s r') /\ ~ (r' = r /\ x = sw).
Proof.
  intros s s' r q sw H E r' x. rewrite (wt_upd _ _ _ _ _ H E). destruct (Nat.eqb_spec r r') as [<-|N].
  - unfold wt. rewrite H. cbn. unfold erase_waiter. rewrite filter_In.
    destruct (Nat.eqb_spec sw x); cbn; intuition congruence.
  - intuition congruence.
Qed.

Lemma stage_waiters : forall q st, q_waiters (stage_req q st) = q_waiters q.
Proof. intros q []; reflexivity. Qed.

(** Completing a request. *)
Lemma ainv_complete : forall k s s' r q st b, linv k s -> ainv s -> nth_error (st_reqs s) r = Some q ->
  (forall c, av s' c = av s c) ->
  st_reqs s' = st_reqs (complete_step r q st b s) -> st_sws s' = st_sws (complete_step r q st b s) ->
  st_log s' = st_log (complete_step r q st b s) -> 
  ainv s' /\ (forall r0, In (ENotify r0 true) (st_log s') -> In (ENotify r0 true) (st_log s) \/ thrown (st_log s)).
Proof.
  intros k s s' r q st b L I H HA HR HS HL.
  assert (HW : forall r', wt s' r' = wt s r').
  { eapply wt_same; [exact H | rewrite HR; apply complete_reqs; auto | apply stage_waiters]. }
  destruct st; cbn in *.
  - split; [refine (ainv_frame s s' I HA HW HS (or_intror _)); eexists; split; [exact HL|reflexivity]|].
    intros r0 X. rewrite HL in X. destruct X as [X|X]; [discriminate|auto].
  - destruct (q_handler q); (split; [refine (ainv_frame s s' I HA HW HS (or_intror _)); eexists; split; [exact HL|reflexivity]|]);
      intros r0 X; rewrite HL in X; destruct X as [X|X]; try discriminate; auto.
  - destruct (notify_all (q_waiters q) (st_sws s)) as [l bad] eqn:N. cbn in *.
    destruct (ainv_notify k s s' r q l bad L I H N HA HW HS HL) as (A & B). split; auto.
    intros r0 X. rewrite HL in X. destruct X as [X|X]; auto. injection X as -> ->. auto.
  - split; [refine (ainv_frame s s' I HA HW HS (or_intror _)); eexists; split; [exact HL|reflexivity]|].
    intros r0 X. rewrite HL in X. destruct X as [X|X]; [discriminate|auto].
  - split; [refine (ainv_frame s s' I HA HW HS (or_intror _)); eexists; split; [exact HL|reflexivity]|].
    intros r0 X. rewrite HL in X. destruct X as [X|X]; [discriminate|auto].
Qed.

Lemma av_eq : forall s s', st_clients s' = st_clients s -> forall c, av s' c = av s c.
Proof. intros s s' E c. unfold av. rewrite E. auto. Qed.
Lemma wt_eq : forall s s', st_reqs s' = st_reqs s -> forall c, wt s' c = wt s c.
Proof. intros s s' E c. unfold wt. rewrite E. auto. Qed.

Ltac aframe s := match goal with I : ainv s |- _ => refine (ainv_frame s _ I _ _ _ _) end;
  [first [apply av_eq; reflexivity | eapply av_quiet; [eassumption | reflexivity | reflexivity | reflexivity]]
  |apply wt_eq; reflexivity | reflexivity
  |first [left; reflexivity | right; eexists; split; reflexivity]].

Lemma ainv_wstep : forall k s s', linv k s -> ainv s -> wstep k s s' -> ainv s'.
Proof.
  intros k s s' L I T. destruct T; try (aframe s; fail).
  - destruct (st_phase s); aframe s.
  - refine (ainv_frame s _ I _ _ _ _).
    + apply av_eq; reflexivity.
    + eapply wt_same; [eassumption | reflexivity | reflexivity].
    + reflexivity.
    + right; eexists; split; reflexivity.
  - refine (proj1 (ainv_complete k s _ r q st true L I H0 _ _ _ _)); try reflexivity.
    apply av_eq. cbn. apply complete_frame.
  - refine (proj1 (ainv_complete k s _ r q SReady true L I H0 _ _ _ _)); try reflexivity.
Qed.

Lemma ainv_start : forall k c s s', linv k s -> ainv s -> start_op k c s s' -> ainv s'.
Proof.
  intros k c s s' L I T. destruct T; try (aframe s; fail).
  - (* add *) refine (ainv_frame s _ I _ _ _ _); [|  |reflexivity|right; eexists; split; reflexivity].
    + eapply av_quiet; [eassumption | reflexivity | reflexivity | reflexivity].
    + intros r. unfold wt. cbn. rewrite nth_snoc. destruct (Nat.eqb_spec r (length (st_reqs s))); auto. subst.
      rewrite (proj2 (nth_error_None _ _)); auto.
  - (* wait_any *)
    destruct I as [A1 A2 A3 A4 A5 A6].
    set (s' := set_sws (st_sws s ++ [SwOff]) (set_client c (CAnyAdd [] rs (length (st_sws s))) s)).
    destruct (av_upd s s' c CIdle (CAnyAdd [] rs (length (st_sws s)))) as (U1 & U2); auto. cbn in U1.
    assert (OLD : forall x v, nth_error (st_sws s) x = Some v -> nth_error (st_sws s') x = Some v).
    { intros x v X. cbn. rewrite nth_error_app1; auto. apply nth_error_Some. congruence. }
    assert (LT : forall c' p sw' rs', av s c' = Some p -> user p = Some (sw', rs') -> sw' < length (st_sws s)).
    { intros c' p sw' rs' X Y. apply nth_error_Some. destruct (A1 _ _ _ _ X Y); congruence. }
    assert (BACK : forall x, x < length (st_sws s) -> nth_error (st_sws s') x = nth_error (st_sws s) x).
    { intros x X. cbn. apply nth_error_app1; auto. }
    assert (G : forall c' p, av s' c' = Some p -> (c' = c /\ p = CAnyAdd [] rs (length (st_sws s))) \/ (c' <> c /\ av s c' = Some p)).
    { intros c' p X. destruct (Nat.eq_dec c' c) as [->|N]; [left|right].
      - rewrite U1 in X. injection X as <-. auto.
      - rewrite U2 in X; auto. }
    constructor.
    + intros c' p sw rs' X Y. destruct (G _ _ X) as [(-> & ->)|(N & X')].
      * injection Y as <- <-. left. cbn. rewrite nth_error_app2; auto. rewrite Nat.sub_diag. reflexivity.
      * destruct (A1 _ _ _ _ X' Y) as [Z|Z]; apply OLD in Z; auto.
    + intros c1 c2 p1 p2 sw r1 r2 X1 X2 Y1 Y2.
      destruct (G _ _ X1) as [(-> & ->)|(N1 & X1')], (G _ _ X2) as [(-> & ->)|(N2 & X2')]; auto.
      * injection Y1 as <- <-. pose proof (LT _ _ _ _ X2' Y2). lia.
      * injection Y2 as <- <-. pose proof (LT _ _ _ _ X1' Y1). lia.
      * eauto.
    + intros r sw X. change (wt s' r) with (wt s r) in X. destruct (A3 _ _ X) as [(c' & p & rs' & B1 & B2 & B3)|(B1 & B2)]; [left|right; auto].
      exists c', p, rs'. rewrite U2; auto. intros ->. unfold av in B1. rewrite H in B1. discriminate.
    + intros c' p sw rs' r X Y Z J. destruct (G _ _ X) as [(-> & ->)|(N & X')].
      * injection Z as <- <-. destruct J.
      * change (wt s' r) with (wt s r). rewrite BACK by eauto. change (st_log s') with (st_log s). eauto.
    + intros c' p sw rs' X Y Z J. destruct (G _ _ X) as [(-> & ->)|(N & X')].
      * injection Z as <- <-. exfalso. cbn in J. rewrite nth_error_app2 in J; auto. rewrite Nat.sub_diag in J. discriminate.
      * rewrite BACK in J by eauto. change (st_log s') with (st_log s). eauto.
    + intros c' p X. destruct (G _ _ X) as [(-> & ->)|(N & X')]; [exact Logic.I|]. change (st_log s') with (st_log s). eauto.
Qed.

Lemma wt_in_regs : forall s c p sw rs r, ainv s -> av s c = Some p -> user p = Some (sw, rs) ->
  In sw (wt s r) -> In r rs.
Proof.
  intros s c p sw rs r [A1 A2 A3 A4 A5 A6] X Y I. destruct (A3 _ _ I) as [(c' & p' & rs' & B1 & B2 & B3)|(B1 & _)].
  - assert (c' = c) by eauto. subst. rewrite X in B1. injection B1 as <-. rewrite Y in B2. injection B2 as <-. auto.
  - destruct (A1 _ _ _ _ X Y); congruence.
Qed.

Ltac avs s c H := 
  match type of H with nth_error _ _ = Some ?p0 =>
    pose proof (av_at s c p0 H) as AT; cbn in AT
  end.

Lemma ainv_cstep : forall k c s s', linv k s -> ainv s -> cstep k c s s' -> ainv s'.
Proof.
  intros k c s s' L I T. destruct T; try (aframe s; fail).
  - (* push *) destruct (which k (q_op q)); aframe s.
  - (* erase *) destruct (which k (q_op q)); aframe s.
  - refine (proj1 (ainv_complete k s _ r q st false L I H0 _ _ _ _)); try reflexivity.
    eapply av_quiet; [exact H | cbn; rewrite (proj1 (proj2 (proj2 (proj2 (complete_frame _ _ _ _ _))))); reflexivity | reflexivity | reflexivity].
  - refine (proj1 (ainv_complete k s _ r q SReady false L I H0 _ _ _ _)); try reflexivity.
    eapply av_quiet; [exact H | reflexivity | reflexivity | reflexivity].
  - (* add *) avs s c H.
    set (s' := set_client c _ _). destruct (av_upd s s' c _ (CAnyAdd (done ++ [r]) todo sw) H eq_refl) as (U1 & U2).
    pose proof (wt_insert s s' r q sw H0 eq_refl) as W.
    eapply (ainv_move s s' c); eauto; try reflexivity.
    + intros r' sw' N. rewrite W. intuition congruence.
    + intros r' X. rewrite in_app_iff. cbn. apply W in X. destruct X as [X|(-> & _)]; auto.
      left. eapply wt_in_regs; eauto. reflexivity.
    + intros _ r' X. rewrite in_app_iff in X. cbn in X. destruct X as [X|[<-|[]]].
      * destruct (a_hold s I c _ sw done r' AT eq_refl eq_refl X) as (B1 & B2). rewrite W. auto.
      * rewrite W. split; auto. intros N. exfalso. eapply not_notified; eauto.
    + intros _ X. destruct (a_on s I c _ sw done AT eq_refl eq_refl X) as (r' & B1 & B2).
      exists r'. rewrite in_app_iff. auto.
  - (* hit *) avs s c H.
    set (s' := set_client c _ _). destruct (av_upd s s' c _ (CAnyUndo done (done ++ r :: todo) r sw) H eq_refl) as (U1 & U2).
    eapply (ainv_move s s' c); eauto; try reflexivity.
    + intros r' X. eapply wt_in_regs; eauto. reflexivity.
    + intros X; discriminate.
    + intros X; discriminate.
  - (* add throw *) avs s c H.
    set (s' := emit _ _). destruct (av_upd s s' c _ CIdle H eq_refl) as (U1 & U2).
    eapply (ainv_exit s s' c); eauto; try reflexivity.
    intros r' X. do 3 eexists. left. reflexivity.
  - (* undo *) avs s c H.
    set (s' := set_client c _ _). destruct (av_upd s s' c _ (CAnyUndo del all res sw) H eq_refl) as (U1 & U2).
    pose proof (wt_erase s s' r q sw H0 eq_refl) as W.
    eapply (ainv_move s s' c); eauto; try reflexivity.
    + intros r' sw' N. rewrite W. intuition congruence.
    + intros r' X. apply W in X. destruct X as (X & N).
      pose proof (wt_in_regs s c _ sw _ r' I AT eq_refl X) as R. apply in_app_iff in R. destruct R as [R|[<-|[]]]; auto.
      exfalso. auto.
    + intros X; discriminate.
    + intros X; discriminate.
  - (* undo ret *) avs s c H.
    set (s' := emit _ _). destruct (av_upd s s' c _ CIdle H eq_refl) as (U1 & U2).
    eapply (ainv_exit s s' c); eauto; try reflexivity.
    intros r' X. destruct (wt_in_regs s c _ sw _ r' I AT eq_refl X).
  - (* undo throw *) avs s c H.
    set (s' := emit _ _). destruct (av_upd s s' c _ CIdle H eq_refl) as (U1 & U2).
    eapply (ainv_exit s s' c); eauto; try reflexivity.
    intros r' X. do 3 eexists. left. reflexivity.
  - (* all added *) avs s c H.
    set (s' := set_client c _ _). destruct (av_upd s s' c _ (CAnyWait done sw) H eq_refl) as (U1 & U2).
    eapply (ainv_move s s' c); eauto; try reflexivity.
    + intros r' X. eapply wt_in_regs; eauto. reflexivity.
    + intros _ r' X. apply (a_hold s I c _ sw done r' AT eq_refl eq_refl X).
    + intros _ X. apply (a_on s I c _ sw done AT eq_refl eq_refl X).
  - (* woken *) avs s c H.
    set (s' := set_client c _ _). destruct (av_upd s s' c _ (CAnyScan all all None sw false) H eq_refl) as (U1 & U2).
    eapply (ainv_move s s' c); eauto; try reflexivity.
    + intros r' X. eapply wt_in_regs; eauto. reflexivity.
    + intros X; discriminate.
    + intros X; discriminate.
    + cbn. apply (a_on s I c _ sw all AT eq_refl eq_refl H0).
  - (* spurious *) avs s c H.
    set (s' := set_client c _ _). destruct (av_upd s s' c _ (CAnyScan all all None sw true) H eq_refl) as (U1 & U2).
    eapply (ainv_move s s' c); eauto; try reflexivity.
    + intros r' X. eapply wt_in_regs; eauto. reflexivity.
    + intros X; discriminate.
    + intros X; discriminate.
  - (* scan skip *) avs s c H.
    set (s' := set_client c _ _). destruct (av_upd s s' c _ (CAnyScan todo all (Some res) sw sp) H eq_refl) as (U1 & U2).
    pose proof (wt_erase s s' r q sw H0 eq_refl) as W.
    eapply (ainv_move s s' c); eauto; try reflexivity.
    + intros r' sw' N. rewrite W. intuition congruence.
    + intros r' X. apply W in X. destruct X as (X & N).
      pose proof (wt_in_regs s c _ sw _ r' I AT eq_refl X) as R. destruct R as [<-|R]; auto. exfalso. auto.
    + intros X; discriminate.
    + intros X; discriminate.
  - (* scan poll *) avs s c H.
    set (s' := set_client c _ _). destruct (av_upd s s' c _ (CAnyScan todo all (if finished q then Some r else None) sw sp) H eq_refl) as (U1 & U2).
    pose proof (wt_erase s s' r q sw H0 eq_refl) as W.
    eapply (ainv_move s s' c); eauto; try reflexivity.
    + intros r' sw' N. rewrite W. intuition congruence.
    + intros r' X. apply W in X. destruct X as (X & N).
      pose proof (wt_in_regs s c _ sw _ r' I AT eq_refl X) as R. destruct R as [<-|R]; auto. exfalso. auto.
    + intros X; discriminate.
    + intros X; discriminate.
    + pose proof (a_scan s I _ _ AT) as SC. cbn in SC |- *. destruct sp; [destruct (finished q); exact Logic.I|].
      destruct (finished q) eqn:F; [exact Logic.I|]. destruct SC as (r' & [<-|B] & C).
      * exfalso. eapply not_notified; eauto.
      * eauto.
  - (* scan throw *) avs s c H.
    set (s' := emit _ _). destruct (av_upd s s' c _ CIdle H eq_refl) as (U1 & U2).
    pose proof (wt_erase s s' r q sw H0 eq_refl) as W.
    eapply (ainv_exit s s' c); eauto; try reflexivity.
    + intros r' sw' N. rewrite W. intuition congruence.
    + intros r' X. do 3 eexists. left. reflexivity.
  - (* scan ret *) avs s c H.
    set (s' := emit _ _). destruct (av_upd s s' c _ CIdle H eq_refl) as (U1 & U2).
    eapply (ainv_exit s s' c); eauto; try reflexivity.
    intros r' X. destruct (wt_in_regs s c _ sw _ r' I AT eq_refl X).
Qed.

Lemma ainv_init : forall n, ainv (init n).
Proof.
  intros n.
  assert (N : forall c p, av (init n) c = Some p -> False).
  { intros c p X. unfold av in X. cbn in X. destruct (nth_error (repeat CIdle n) c) eqn:E; [|discriminate].
    apply nth_error_In, repeat_spec in E. subst. discriminate. }
  constructor; intros; try (exfalso; eapply N; eauto; fail).
  unfold wt in H. cbn in H. destruct r; destruct H.
Qed.

Lemma ainv_reachable : forall k n s, qreachable k n s -> ainv s.
Proof.
  intros k n s R.
  assert (X : linv k s /\ ainv s).
  { eapply (steps_ind_inv k (fun s => linv k s /\ ainv s)); [| |exact R].
    - intros a b (A & B) T. split; [eapply linv_step; eauto|].
      destruct T; [eapply ainv_wstep | eapply ainv_start | eapply ainv_cstep]; eauto.
    - split; [apply linv_init | apply ainv_init]. }
  tauto.
Qed.

(** A destroyed switch is touched only after wait_any has thrown. *)
Lemma ev_notify_dead : forall k s s' r, linv k s -> ainv s -> step k s s' ->
  st_log s' = ENotify r true :: st_log s -> thrown (st_log s).
Proof.
  intros k s s' r L I T E.
  assert (C : forall q st b r0, nth_error (st_reqs s) r0 = Some q ->
     ENotify r true :: st_log s = st_log (complete_step r0 q st b s) -> thrown (st_log s)).
  { intros q st b r0 H X. rewrite complete_log in X.
    destruct st; cbn in X; try discriminate; [destruct (q_handler q); discriminate|].
    destruct (notify_all (q_waiters q) (st_sws s)) as [l bad] eqn:N. cbn in X. injection X as -> <-.
    destruct (notify_spec _ _ _ _ N) as (_ & _ & _ & _ & B). destruct (B eq_refl) as (x & J & D).
    assert (J' : In x (wt s r0)) by (unfold wt; rewrite H; auto).
    destruct (a_reg s I _ _ J') as [(c & p & rs & X & Y & Z)|(_ & X)]; auto.
    destruct (a_alive s I _ _ _ _ X Y); congruence. }
  destruct T as [s s' T | c s s' T | c s s' T]; destruct T; cbn in E;
    try (exfalso; apply cons_neq in E; exact E); try discriminate E;
    try (exfalso; destruct (which _ _); cbn in E; discriminate E);
    try (exfalso; destruct (st_phase s); cbn in E; discriminate E);
    eapply C; eauto.
Qed.
