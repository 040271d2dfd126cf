(* If every program locks in the order of one rank, no execution deadlocks. *)
From Coq Require Import List Arith Lia.
From Verif Require Import LockModel LockSpec.
Import ListNotations.

Lemma mtx_eq_dec (a b : mtx) : {a = b} + {a <> b}.
Proof. repeat decide equality. Defined.

(* The order in which the mutexes are taken. *)
Definition crank (c : class) : nat :=
  match c with
  | CSing SBm => 0 | CSing SCfg => 1 | CSing SDq => 2
  | CDq => 3 | CBm => 4 | CAlloc => 5
  | CRead | CWrite | C1q | CAio => 6
  | CFd => 7 | CWaiters => 8
  | CState | CThread | CSwitch | CSem => 9
  | CFsR | CFsW => 10
  | CSing SStats => 11 | CExit => 12
  | CStR | CStW | CStIo | CStWait | CStList | CTimer => 13
  end.

Definition rank (m : mtx) : nat := crank (mclass m).

(* All ranks in the list are below n. *)
Definition below (l : list mtx) (n : nat) : Prop := forall h, In h l -> rank h < n.

(* The program, run with the mutexes [l] locked, follows the order.  [h]:
   handlers may call the library.  [qt]: nothing waits while it holds more
   than the mutex of the condition variable. *)
Fixpoint ok (h qt : bool) (l : list mtx) (p : prog) : Prop :=
  match p with
  | Skip => True
  | With m p => below l (rank m) /\ ok h qt (m :: l) p
  | Wait m => (exists t, l = m :: t) /\ (qt = true -> l = [m])
  | Block => qt = true -> l = []
  | User => h = true -> l = []
  | Seq p q | Or p q => ok h qt l p /\ ok h qt l q
  | Star p => ok h qt l p
  | Any f => forall n, ok h qt l (f n)
  end.

Definition awake (k : thread) : Prop :=
  match k with Asleep _ :: _ => False | _ => True end.

Fixpoint wfk (h qt : bool) (k : thread) : Prop :=
  match k with
  | [] => True
  | Do p :: k' => ok h qt (scopes k') p /\ awake k' /\ wfk h qt k'
  | Rel m :: k' => below (scopes k') (rank m) /\ awake k' /\ wfk h qt k'
  | Asleep m :: k' =>
      ((exists t, scopes k' = m :: t) /\ (qt = true -> scopes k' = [m])) /\
      awake k' /\ wfk h qt k'
  end.

Lemma held_awake k : awake k -> held k = scopes k.
Proof. destruct k as [|[]]; simpl; tauto. Qed.

Lemma held_scopes k m : In m (held k) -> In m (scopes k).
Proof.
  destruct k as [|[p|x|x] k]; simpl; auto.
  destruct (scopes k); simpl; auto.
Qed.

Lemma scopes_app a b : scopes (a ++ b) = scopes a ++ scopes b.
Proof. induction a as [|[] a IH]; simpl; auto. now rewrite IH. Qed.

Lemma scopes_rel l : scopes (map Rel l) = l.
Proof. induction l; simpl; congruence. Qed.

Lemma awake_app h qt a k : awake a -> wfk h qt (a ++ k) -> awake (a ++ k) -> awake k.
Proof.
  revert h qt. induction a as [|x a IH]; intros h qt Ha Hw Hk; [exact Hk|].
  destruct x as [p|m|m]; simpl in Ha; try tauto; simpl in Hw.
  - destruct Hw as (_ & Hak & Hw). apply (IH h qt); auto.
    destruct a as [|[] a]; simpl; auto.
  - destruct Hw as (_ & Hak & Hw). apply (IH h qt); auto.
    destruct a as [|[] a]; simpl; auto.
Qed.

Lemma throw_wf h qt pre k :
  awake (pre ++ k) -> wfk h qt (pre ++ k) ->
  awake (map Rel (scopes pre) ++ k) /\ wfk h qt (map Rel (scopes pre) ++ k).
Proof.
  induction pre as [|x pre IH]; simpl; intros Ha Hw; [auto|].
  destruct x as [p|m|m]; simpl in *; try tauto.
  - destruct Hw as (Hb & Ha' & Hw). destruct (IH Ha' Hw) as [Ha2 Hw2].
    split; [exact I|]. split; [|auto].
    rewrite !scopes_app, scopes_rel in *. exact Hb.
Qed.

Section Gen.
Variables (E H : prog -> Prop) (h qt : bool).
Hypothesis HE : forall p, E p -> ok h qt [] p.
Hypothesis HH : forall p, H p -> h = true /\ ok h qt [] p.

Lemma tstep_wf fr k k' : tstep E H fr k k' -> wfk h qt k -> wfk h qt k' .
Proof.
  intros Hs Hw. destruct Hs; simpl in *;
    try (destruct Hw as (Ho & Ha & Hw)); try tauto.
  - (* call *) destruct (HH p H0) as [Hh Hp].
    rewrite (Ho Hh) in *. tauto.
  - specialize (Ho n). tauto.
  - now apply throw_wf.
  - auto.
Qed.

(* What a step adds to the mutexes held is one free mutex. *)
Lemma tstep_held fr k k' m :
  tstep E H fr k k' -> wfk h qt k -> In m (held k') -> In m (held k) \/ fr m.
Proof.
  intros Hs Hw Hm. pose proof (held_scopes _ _ Hm) as Hsc.
  destruct Hs; simpl in *;
    try (destruct Hw as (Ho & Ha & Hw)); try tauto.
  - destruct Hsc as [<-|]; auto.
  - destruct Ho as [[t Ht] _]. rewrite Ht in *. simpl in *. destruct Hsc as [<-|]; auto.
  - left. rewrite scopes_app, scopes_rel in Hsc. now rewrite scopes_app.
Qed.

Lemma nth_upd (st : sys) i (k' : thread) (k : thread) j :
  nth_error st i = Some k ->
  nth_error (firstn i st ++ k' :: skipn (S i) st) j =
  if Nat.eq_dec i j then Some k' else nth_error st j.
Proof.
  revert i j. induction st as [|a st IH]; intros [|i] [|j] Hn; simpl in *;
    try discriminate; auto.
  rewrite (IH i j Hn). destruct (Nat.eq_dec i j), (Nat.eq_dec (S i) (S j)); auto; lia.
Qed.

Definition inv (st : sys) : Prop :=
  (forall i k, nth_error st i = Some k -> wfk h qt k) /\
  (forall i j m, holds st i m -> holds st j m -> i = j).

Lemma reach_inv st : reach E H st -> inv st.
Proof.
  induction 1 as [|st st' _ [IW IX] Hs].
  - split; [intros [|i] k Hk; discriminate|].
    intros i j m (k & Hk & _). destruct i; discriminate.
  - destruct Hs as [i k k' Hn Ht|].
    + pose proof (IW i k Hn) as Hk. split.
      * intros j k2 Hj. rewrite (nth_upd st i k' k j Hn) in Hj.
        destruct (Nat.eq_dec i j) as [<-|]; [|eauto].
        injection Hj as <-. eapply tstep_wf; eauto.
      * assert (HN : forall a m, a <> i ->
                  holds (firstn i st ++ k' :: skipn (S i) st) a m -> holds st a m).
        { intros a m Ha (k2 & Hk2 & Hm). rewrite (nth_upd st i k' k a Hn) in Hk2.
          destruct (Nat.eq_dec i a); [congruence|]. exists k2. auto. }
        assert (HI : forall m,
                  holds (firstn i st ++ k' :: skipn (S i) st) i m ->
                  holds st i m \/ free m st).
        { intros m (k2 & Hk2 & Hm). rewrite (nth_upd st i k' k i Hn) in Hk2.
          destruct (Nat.eq_dec i i); [|congruence]. injection Hk2 as <-.
          destruct (tstep_held _ _ _ m Ht Hk Hm); [left; exists k; auto|auto]. }
        assert (HF : forall a m, a <> i -> free m st ->
                  ~ holds (firstn i st ++ k' :: skipn (S i) st) a m).
        { intros a m Ha Hf Hh. destruct (HN a m Ha Hh) as (k2 & Hk2 & Hm).
          apply (Hf k2); auto. eapply nth_error_In; eauto. }
        intros a b m Ha Hb.
        destruct (Nat.eq_dec a i) as [->|Na], (Nat.eq_dec b i) as [->|Nb]; auto.
        -- destruct (HI m Ha) as [Ho|Hf]; [|exfalso; eapply HF; eauto].
           apply (IX i b m); auto.
        -- destruct (HI m Hb) as [Ho|Hf]; [|exfalso; eapply HF; eauto].
           apply (IX a i m); auto.
        -- apply (IX a b m); auto.
    + split.
      * intros i k Hk. destruct (Nat.lt_ge_cases i (length st)).
        -- rewrite nth_error_app1 in Hk by auto. eauto.
        -- rewrite nth_error_app2 in Hk by auto.
           destruct (i - length st) as [|[|]]; simpl in Hk; try discriminate.
           injection Hk as <-. exact I.
      * assert (HN : forall a m, holds (st ++ [[]]) a m -> holds st a m).
        { intros a m (k & Hk & Hm). destruct (Nat.lt_ge_cases a (length st)).
          - rewrite nth_error_app1 in Hk by auto. exists k. auto.
          - rewrite nth_error_app2 in Hk by auto.
            destruct (a - length st) as [|[|]]; simpl in Hk; try discriminate.
            injection Hk as <-. destruct Hm. }
        intros a b m Ha Hb. eauto.
Qed.

(* A thread that wants a mutex holds only mutexes of a lower rank. *)
Lemma wants_rank st i m m' :
  inv st -> wants st i m' -> holds st i m -> rank m < rank m'.
Proof.
  intros [IW _] (k & Hw) (k0 & Hk0 & Hm).
  destruct Hw as [Hk|[p Hk]]; rewrite Hk in Hk0; injection Hk0 as <-; apply IW in Hk;
    simpl in Hk.
  - destruct Hk as (((t & Ht) & _) & Ha & Hk). simpl in Hm. rewrite Ht in Hm. simpl in Hm.
    clear Ha IW. revert Ht Hk. induction k as [|[p|x|x] k IH]; simpl; intros Ht Hk.
    + discriminate.
    + apply IH; tauto.
    + injection Ht as -> Ht. rewrite Ht in Hk. apply Hk. exact Hm.
    + apply IH; tauto.
  - destruct Hk as ((Hb & _) & _). apply Hb. exact Hm.
Qed.

Lemma no_deadlock st D : inv st -> ~ deadlock st D.
Proof.
  intros HI [Hne HD].
  assert (HB : forall m, rank m <= 13).
  { intros [[[] | | | | | | | | | | | | | | | | | | | | | | ] o]; cbv; lia. }
  assert (HG : forall n i m, In i D -> wants st i m -> rank m >= n -> False \/
             exists i' m', In i' D /\ wants st i' m' /\ rank m' >= S n).
  { intros n i m Hi Hw Hr. right. destruct (HD i Hi) as (m1 & j & Hw1 & Hj & Hh).
    destruct (HD j Hj) as (m2 & j2 & Hw2 & _).
    assert (m1 = m) as ->.
    { destruct Hw as (k & Hw), Hw1 as (k1 & Hw1).
      destruct Hw as [A|[p A]], Hw1 as [B|[p1 B]]; rewrite A in B; congruence. }
    exists j, m2. split; auto. split; auto.
    pose proof (wants_rank st j m m2 HI Hw2 Hh). lia. }
  assert (HA : forall n, exists i m, In i D /\ wants st i m /\ rank m >= n).
  { induction n as [|n (i & m & Hi & Hw & Hr)].
    - destruct D as [|i D]; [congruence|]. destruct (HD i) as (m & j & Hw & _); [now left|].
      exists i, m. split; [now left|]. split; [auto|lia].
    - destruct (HG n i m Hi Hw Hr) as [[]|HX]. exact HX. }
  destruct (HA 14) as (i & m & _ & _ & Hr). specialize (HB m). lia.
Qed.

Lemma holder_dec st m : (exists j, holds st j m) \/ (forall j, ~ holds st j m).
Proof.
  induction st as [|k st IH].
  - right. intros [|j] (k & Hk & _); discriminate.
  - destruct (in_dec mtx_eq_dec m (held k)) as [Hm|Hm].
    + left. exists 0, k. auto.
    + destruct IH as [(j & k' & Hk & Hh)|IH].
      * left. exists (S j), k'. auto.
      * right. intros [|j] (k' & Hk & Hh); simpl in Hk.
        -- congruence.
        -- apply (IH j). exists k'. auto.
Qed.

(* If nothing waits with a mutex held, a mutex that is wanted is on its way. *)
Lemma runner st i m :
  qt = true -> inv st -> holds st i m ->
  exists r m', holds st r m' /\ running st r.
Proof.
  intros Hq HI.
  assert (HB : forall m, rank m <= 13).
  { intros [[[] | | | | | | | | | | | | | | | | | | | | | | ] o]; cbv; lia. }
  remember (14 - rank m) as n eqn:En. revert i m En.
  induction n as [n IH] using lt_wf_ind. intros i m -> Hh.
  assert (Hid : ~ idle st i).
  { intros (k & Hk). destruct Hh as (k0 & Hk0 & Hm). destruct HI as [IW _].
    destruct Hk as [[x Hk]|Hk]; rewrite Hk in Hk0; injection Hk0 as <-; apply IW in Hk;
      simpl in Hk.
    - destruct Hk as ((_ & Hk) & _). simpl in Hm. rewrite (Hk Hq) in Hm. exact Hm.
    - destruct Hk as (Hk & _). simpl in Hm. rewrite (Hk Hq) in Hm. exact Hm. }
  assert (Hne : exists x k, nth_error st i = Some (x :: k)).
  { destruct Hh as ([|x k] & Hk & Hm); [destruct Hm|eauto]. }
  assert (HW : (exists m', wants st i m') \/ (forall m', ~ wants st i m')).
  { destruct Hne as (x & k & Hk).
    assert ((exists m', x = Asleep m' \/ exists p, x = Do (With m' p)) \/
            (forall m', x <> Asleep m' /\ forall p, x <> Do (With m' p))) as [(m' & Hx)|Hx].
    { destruct x as [[]| |]; try (right; intros; split; intros; congruence);
        left; eexists; eauto. }
    - left. exists m', k. destruct Hx as [->|[p ->]]; eauto.
    - right. intros m' (k' & [A|[p A]]); rewrite A in Hk; injection Hk as <- <-;
        destruct (Hx m'); congruence. }
  destruct HW as [[m' Hw]|Hw].
  - destruct (holder_dec st m') as [[j Hj]|Hj].
    + pose proof (wants_rank st i m m' HI Hw Hh).
      pose proof (HB m'). apply (IH (14 - rank m')) with (i := j) (m := m'); auto; lia.
    + exists i, m. split; auto. split; auto. split; auto.
      intros m2 Hw2. assert (m2 = m') as ->; auto.
      destruct Hw as (k & Hw), Hw2 as (k1 & Hw1).
      destruct Hw as [A|[p A]], Hw1 as [B|[p1 B]]; rewrite A in B; congruence.
  - exists i, m. split; auto. split; auto. split; auto.
    intros m2 Hw2. now apply Hw in Hw2.
Qed.

Lemma handler_free st i :
  h = true -> inv st -> at_handler st i -> forall m, ~ holds st i m.
Proof.
  intros Hh [IW _] (k & Hk) m (k0 & Hk0 & Hm). rewrite Hk in Hk0. injection Hk0 as <-.
  apply IW in Hk. simpl in Hk. destruct Hk as (Hk & _). simpl in Hm.
  rewrite (Hk Hh) in Hm. exact Hm.
Qed.
End Gen.

(* A running thread can take a step. *)
Lemma running_steps E H st i :
  running st i -> exists k k', nth_error st i = Some k /\
    tstep E H (fun m => free m st) k k'.
Proof.
  intros (Hid & (x & k & Hk) & Hf). exists (x :: k).
  assert (HF : forall m, wants st i m -> free m st).
  { intros m Hw k1 Hk1 Hm. apply In_nth_error in Hk1 as [j Hj].
    apply (Hf m Hw j). exists k1. auto. }
  destruct x as [p|m|m].
  - destruct p.
    + eexists; split; [eauto|constructor].
    + eexists; split; [eauto|constructor]. apply HF. exists k. eauto.
    + eexists; split; [eauto|constructor].
    + eexists; split; [eauto|constructor].
    + eexists; split; [eauto|apply t_return].
    + eexists; split; [eauto|constructor].
    + eexists; split; [eauto|apply t_or_l].
    + eexists; split; [eauto|apply t_star_end].
    + exists (Do (f 0) :: k); split; [eauto|apply t_any].
  - eexists; split; [eauto|constructor].
  - exfalso. apply Hid. exists k. eauto.
Qed.

(* A thread that wants a mutex that is held cannot. *)
Lemma wanting_stuck E H st i m j k k' :
  wants st i m -> holds st j m -> nth_error st i = Some k ->
  ~ tstep E H (fun m => free m st) k k'.
Proof.
  intros (k0 & Hw) (kj & Hkj & Hm) Hk Hs.
  assert (HF : ~ free m st).
  { intros Hf. apply (Hf kj); auto. eapply nth_error_In; eauto. }
  destruct Hw as [A|[p A]]; rewrite A in Hk; injection Hk as <-; inversion Hs; subst; auto.
Qed.
