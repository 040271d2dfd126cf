(* If every program has the mutex of a member locked whenever it uses the
   member, no execution has a race on it. *)
From Coq Require Import List Arith Lia Bool.
From Verif Require LockModel LockProofs.
From Verif Require Import RaceModel RaceSpec.
Import LockModel(mtx, Mtx, class(..), single(..), qsem, qfree, qposted).
Import ListNotations.

(* Which mutex an access needs, if any. *)
Definition guard : Type := var -> bool -> option mtx.

(* The program, run with the mutexes [l] locked, has locked what its accesses
   need, and waits only with the mutex it waits with on top. *)
Fixpoint ok (G : guard) (l : list mtx) (p : prog) : Prop :=
  match p with
  | Skip => True
  | With m p => ok G (m :: l) p
  | Wait m => exists t, l = m :: t
  | Acc x w => match G x w with Some m => In m l | None => True end
  | User => True
  | Seq p q | Or p q => ok G l p /\ ok G l q
  | Star p => ok G l p
  | Any f => forall n, ok G l (f n)
  end.

Definition awake (k : thread) : Prop :=
  match k with Asleep _ :: _ => False | _ => True end.

Fixpoint wfk (G : guard) (k : thread) : Prop :=
  match k with
  | [] => True
  | Do p :: k' => ok G (scopes k') p /\ awake k' /\ wfk G k'
  | Rel m :: k' => awake k' /\ wfk G k'
  | Asleep m :: k' => (exists t, scopes k' = m :: t) /\ awake k' /\ wfk G k'
  end.

Definition holds (st : sys) (i : nat) (m : mtx) : Prop :=
  exists k, nth_error st i = Some k /\ In m (held k).

Lemma held_scopes k m : In m (held k) -> In m (scopes k).
Proof.
  destruct k as [|[p|x|x] k]; simpl; auto.
  destruct (scopes k); simpl; auto.
Qed.

Lemma scopes_app a b : scopes (a ++ b) = scopes a ++ scopes b.
Proof. induction a as [|[] a IH]; simpl; auto. now rewrite IH. Qed.

Lemma scopes_rel l : scopes (map Rel l) = l.
Proof. induction l; simpl; congruence. Qed.

Lemma throw_wf G pre k :
  awake (pre ++ k) -> wfk G (pre ++ k) ->
  awake (map Rel (scopes pre) ++ k) /\ wfk G (map Rel (scopes pre) ++ k).
Proof.
  induction pre as [|x pre IH]; simpl; intros Ha Hw; [auto|].
  destruct x as [p|m|m]; simpl in *; try tauto.
Qed.

(* What suffices with some mutexes locked suffices with more below them. *)
Lemma ok_more G p : forall l t, ok G l p -> ok G (l ++ t) p.
Proof.
  induction p; simpl; intros l t Hp; try tauto.
  - apply (IHp (m :: l) t Hp).
  - destruct Hp as [t' ->]. exists (t' ++ t). reflexivity.
  - destruct (G x w); auto. apply in_or_app. auto.
  - destruct Hp. auto.
  - destruct Hp. auto.
  - auto.
  - intros n. apply H, Hp.
Qed.

Section Gen.
Variables (E : prog -> Prop) (G : guard).
Hypothesis HE : forall p, E p -> ok G [] p.

Lemma tstep_wf fr k k' : tstep E fr k k' -> wfk G k -> wfk G k'.
Proof.
  intros Hs Hw. destruct Hs; simpl in *;
    try (destruct Hw as (Ho & Ha & Hw)); try tauto.
  - split; [|tauto]. apply (ok_more G p [] (scopes k)). now apply HE.
  - specialize (Ho n). tauto.
  - now apply throw_wf.
  - auto.
Qed.

Lemma tstep_held fr k k' m :
  tstep E fr k k' -> wfk G k -> In m (held k') -> In m (held k) \/ fr m.
Proof.
  intros Hs Hw Hm. pose proof (held_scopes _ _ Hm) as Hsc.
  destruct Hs; simpl in *;
    try (destruct Hw as (Ho & Ha & Hw)); try tauto.
  - destruct Hsc as [<-|]; auto.
  - destruct Ho as [t Ht]. rewrite Ht in *. simpl in *. destruct Hsc as [<-|]; auto.
  - left. rewrite scopes_app, scopes_rel in Hsc. now rewrite scopes_app.
Qed.

Lemma nth_upd (st : sys) i (k' : thread) (k : thread) j :
  nth_error st i = Some k ->
  nth_error (firstn i st ++ k' :: skipn (S i) st) j =
  if Nat.eq_dec i j then Some k' else nth_error st j.
Proof.
  revert i j. induction st as [|a st IH]; intros [|i] [|j] Hn; simpl in *;
    try discriminate; auto.
  rewrite (IH i j Hn). destruct (Nat.eq_dec i j), (Nat.eq_dec (S i) (S j)); auto; lia.
Qed.

Definition inv (st : sys) : Prop :=
  (forall i k, nth_error st i = Some k -> wfk G k) /\
  (forall i j m, holds st i m -> holds st j m -> i = j).

Lemma reach_inv st : reach E st -> inv st.
Proof.
  induction 1 as [|st st' _ [IW IX] Hs].
  - split; [intros [|i] k Hk; discriminate|].
    intros i j m (k & Hk & _). destruct i; discriminate.
  - destruct Hs as [i k k' Hn Ht|].
    + pose proof (IW i k Hn) as Hk. split.
      * intros j k2 Hj. rewrite (nth_upd st i k' k j Hn) in Hj.
        destruct (Nat.eq_dec i j) as [<-|]; [|eauto].
        injection Hj as <-. eapply tstep_wf; eauto.
      * assert (HN : forall a m, a <> i ->
                  holds (firstn i st ++ k' :: skipn (S i) st) a m -> holds st a m).
        { intros a m Ha (k2 & Hk2 & Hm). rewrite (nth_upd st i k' k a Hn) in Hk2.
          destruct (Nat.eq_dec i a); [congruence|]. exists k2. auto. }
        assert (HI : forall m,
                  holds (firstn i st ++ k' :: skipn (S i) st) i m ->
                  holds st i m \/ free m st).
        { intros m (k2 & Hk2 & Hm). rewrite (nth_upd st i k' k i Hn) in Hk2.
          destruct (Nat.eq_dec i i); [|congruence]. injection Hk2 as <-.
          destruct (tstep_held _ _ _ m Ht Hk Hm); [left; exists k; auto|auto]. }
        assert (HF : forall a m, a <> i -> free m st ->
                  ~ holds (firstn i st ++ k' :: skipn (S i) st) a m).
        { intros a m Ha Hf Hh. destruct (HN a m Ha Hh) as (k2 & Hk2 & Hm).
          apply (Hf k2); auto. eapply nth_error_In; eauto. }
        intros a b m Ha Hb.
        destruct (Nat.eq_dec a i) as [->|Na], (Nat.eq_dec b i) as [->|Nb]; auto.
        -- destruct (HI m Ha) as [Ho|Hf]; [|exfalso; eapply HF; eauto].
           apply (IX i b m); auto.
        -- destruct (HI m Hb) as [Ho|Hf]; [|exfalso; eapply HF; eauto].
           apply (IX a i m); auto.
        -- apply (IX a b m); auto.
    + split.
      * intros i k Hk. destruct (Nat.lt_ge_cases i (length st)).
        -- rewrite nth_error_app1 in Hk by auto. eauto.
        -- rewrite nth_error_app2 in Hk by auto.
           destruct (i - length st) as [|[|]]; simpl in Hk; try discriminate.
           injection Hk as <-. exact I.
      * assert (HN : forall a m, holds (st ++ [[]]) a m -> holds st a m).
        { intros a m (k & Hk & Hm). destruct (Nat.lt_ge_cases a (length st)).
          - rewrite nth_error_app1 in Hk by auto. exists k. auto.
          - rewrite nth_error_app2 in Hk by auto.
            destruct (a - length st) as [|[|]]; simpl in Hk; try discriminate.
            injection Hk as <-. destruct Hm. }
        intros a b m Ha Hb. eauto.
Qed.

(* Two accesses that need the same mutex are never both next. *)
Lemma exclusive st x w1 w2 m i j :
  reach E st -> G x w1 = Some m -> G x w2 = Some m ->
  about_to st i x w1 -> about_to st j x w2 -> i = j.
Proof.
  intros Hr G1 G2 (k1 & H1) (k2 & H2). destruct (reach_inv st Hr) as [IW IX].
  apply (IX i j m).
  - exists (Do (Acc x w1) :: k1). split; [exact H1|]. apply IW in H1. simpl in H1.
    rewrite G1 in H1. simpl. tauto.
  - exists (Do (Acc x w2) :: k2). split; [exact H2|]. apply IW in H2. simpl in H2.
    rewrite G2 in H2. simpl. tauto.
Qed.
End Gen.

(* ---- The mutex of each member. ---- *)

(* The mutex of a member wherever it is read or written. *)
Definition g_protected (x : var) : option mtx :=
  let o := vobj x in
  match vmember x with
  | MState => Some (Mtx CState o)
  | MTState => Some (Mtx CThread o)
  | MSwitch => Some (Mtx CSwitch o)
  | MSem => Some (Mtx CSem o)
  | MWaiters => Some (Mtx CWaiters o)
  | MQr => Some (Mtx CRead o)
  | MQw => Some (Mtx CWrite o)
  | MQ1 => Some (Mtx C1q o)
  | MAioQ => Some (Mtx CAio o)
  | MQueues => Some (Mtx CDq 0)
  | MCount | MFree => Some (Mtx CBm 0)
  | MFdes | MPos | MMem => Some (Mtx CFd o)
  | MStList => Some (Mtx CStList 0)
  | MAcc => Some (Mtx CTimer o)
  | MExit => Some (Mtx CExit 0)
  | _ => None
  end.

(* The mutex of a counter of the statistics. *)
Definition g_statistic (x : var) : option mtx :=
  match vmember x with
  | MFsR => Some (Mtx CFsR (vobj x))
  | MFsW => Some (Mtx CFsW (vobj x))
  | MStR => Some (Mtx CStR 0)
  | MStW => Some (Mtx CStW 0)
  | MStIo => Some (Mtx CStIo 0)
  | MStWait => Some (Mtx CStWait 0)
  | _ => None
  end.

(* The mutex of a member when it is written. *)
Definition g_write (x : var) : option mtx :=
  match vmember x with
  | MMemSize => Some (Mtx CFd (vobj x))
  | MInst s => Some (Mtx (CSing s) 0)
  | _ => None
  end.

Definition or_else {A} (a b : option A) : option A := match a with Some _ => a | None => b end.

(* Including what only writes need. *)
Definition G_every : guard :=
  fun x w => or_else (g_protected x) (if w then or_else (g_write x) (g_statistic x) else None).
Definition G_usual : guard :=
  fun x w => or_else (g_protected x) (or_else (g_statistic x) (if w then g_write x else None)).
Definition G_alone : guard :=
  fun x w => match vmember x with MFree => Some (Mtx CAlloc (vobj x)) | _ => None end.

Ltac oks :=
  repeat first
    [ exact I
    | match goal with
      | |- _ /\ _ => split
      | |- forall _, _ => intro
      | |- exists t, _ :: _ = _ :: t => eexists; reflexivity
      | |- In _ (_ :: _) => first [left; reflexivity | right]
      end
    | progress (cbn [ok locked]) ].

Lemma ok_usual G p :
  (G = G_every \/ G = G_usual) -> usual p -> ok G [] p.
Proof.
  intros HG Hp.
  assert (HS : forall s l, ok G l (destroy s)).
  { intros s l. destruct HG as [-> | ->]; destruct s; cbv -[In]; oks. }
  destruct Hp; try (destruct HG as [-> | ->]; cbv -[In Nat.add Nat.mul]; oks; fail).
Qed.

Lemma ok_every p : every p -> ok G_every [] p.
Proof.
  intros Hp. destruct Hp; [apply ok_usual; auto| | |]; cbv -[In]; oks.
Qed.

Lemma ok_alone p : alone p -> ok G_alone [] p.
Proof. intros Hp. destruct Hp; cbv -[In]; oks. Qed.

(* ---- Concrete executions. ---- *)

Inductive choice : Type :=
| D | L | R | O (n : nat) | Call (p : prog).

Definition freeb (m : mtx) (st : sys) : bool :=
  forallb (fun k => if in_dec LockProofs.mtx_eq_dec m (held k) then false else true) st.

Definition exec (st : sys) (k : thread) (c : choice) : option thread :=
  match k, c with
  | [], Call p => Some [Do p]
  | Do User :: k, Call p => Some (Do p :: Do User :: k)
  | Do User :: k, L => Some k
  | Do Skip :: k, D => Some k
  | Do (With m p) :: k, D => if freeb m st then Some (Do p :: Rel m :: k) else None
  | Rel m :: k, D => Some k
  | Do (Wait m) :: k, D => Some (Asleep m :: k)
  | Asleep m :: k, D => if freeb m st then Some k else None
  | Do (Acc x w) :: k, D => Some k
  | Do (Seq p q) :: k, D => Some (Do p :: Do q :: k)
  | Do (Or p q) :: k, L => Some (Do p :: k)
  | Do (Or p q) :: k, R => Some (Do q :: k)
  | Do (Star p) :: k, L => Some k
  | Do (Star p) :: k, R => Some (Do p :: Do (Star p) :: k)
  | Do (Any f) :: k, O n => Some (Do (f n) :: k)
  | _, _ => None
  end.

Fixpoint run (st : sys) (cs : list (nat * choice)) : option sys :=
  match cs with
  | [] => Some st
  | (i, c) :: cs =>
      match nth_error st i with
      | Some k =>
          match exec st k c with
          | Some k' => run (firstn i st ++ k' :: skipn (S i) st) cs
          | None => None
          end
      | None => None
      end
  end.

Lemma freeb_free m st : freeb m st = true -> free m st.
Proof.
  unfold freeb. rewrite forallb_forall. intros Hf k Hk Hm. specialize (Hf k Hk).
  destruct (in_dec LockProofs.mtx_eq_dec m (held k)); [discriminate|contradiction].
Qed.

Lemma exec_step (E : prog -> Prop) st k c k' :
  (forall p, c = Call p -> E p) -> exec st k c = Some k' ->
  tstep E (fun m => free m st) k k'.
Proof.
  intros HC Hx.
  destruct k as [|[p|m|m] k]; [|destruct p| |]; destruct c; cbn in Hx; try discriminate;
    try (destruct (freeb _ _) eqn:Hf; [apply freeb_free in Hf|discriminate]);
    injection Hx as <-; try (constructor; auto; fail).
Qed.

Lemma run_reach (E : prog -> Prop) cs : forall st st',
  (forall i p, In (i, Call p) cs -> E p) ->
  reach E st -> run st cs = Some st' -> reach E st'.
Proof.
  induction cs as [|[i c] cs IH]; cbn; intros st st' HC Hr Hx.
  - now injection Hx as <-.
  - destruct (nth_error st i) as [k|] eqn:Hk; [|discriminate].
    destruct (exec st k c) as [k'|] eqn:He; [|discriminate].
    eapply IH; [|eapply r_step; [exact Hr|]|exact Hx].
    + intros j p Hp. apply (HC j). auto.
    + eapply s_thread; [exact Hk|]. eapply exec_step; [|exact He].
      intros p ->. apply (HC i). auto.
Qed.

Lemma spawned E n : reach E (repeat [] n).
Proof.
  induction n as [|n IH]; [constructor|].
  replace (repeat [] (S n)) with (repeat (@nil item) n ++ [[]]).
  - eapply r_step; [exact IH|constructor].
  - symmetry. change (S n) with (1 + n). rewrite Nat.add_comm. now rewrite repeat_app.
Qed.

(* A schedule for thread i: deterministic steps are filled in, up to the first
   access with [stop] after the choices are used up. *)
Fixpoint fill (fuel : nat) (stop : var -> bool -> bool) (i : nat) (st : sys) (cs : list choice)
  : list (nat * choice) :=
  match fuel with
  | 0 => []
  | S fuel =>
      match nth_error st i with
      | Some k =>
          match k, cs with
          | Do (Acc v w) :: _, [] =>
              if stop v w then []
              else match exec st k D with
                   | Some k' => (i, D) :: fill fuel stop i (firstn i st ++ k' :: skipn (S i) st) cs
                   | None => [] end
          | _, _ =>
              match exec st k D with
              | Some k' => (i, D) :: fill fuel stop i (firstn i st ++ k' :: skipn (S i) st) cs
              | None =>
                  match cs with
                  | c :: cs' =>
                      match exec st k c with
                      | Some k' => (i, c) :: fill fuel stop i (firstn i st ++ k' :: skipn (S i) st) cs'
                      | None => []
                      end
                  | [] => []
                  end
              end
          end
      | None => []
      end
  end.
