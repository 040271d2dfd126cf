(** C78: the stop watch. *)
From Coq Require Import List ZArith Bool Lia.
From Verif Require Import TimerModel.
Import ListNotations.
Local Open Scope Z_scope.

(** Specification: the watch is on from a start to the next stop; [total on prev sum l now]
    is the time during which it is on, from the last reset to [now]. *)
Fixpoint total (on : bool) (prev sum : Z) (l : list (Z * top)) (now : Z) : Z :=
  match l with
  | [] => sum + (if on then now - prev else 0)
  | (t, op) :: r =>
      let sum' := sum + (if on then t - prev else 0) in
      match op with
      | TStart => total true t sum' r now
      | TStop => total false t sum' r now
      | TReset => total on t 0 r now
      | TAdd o => total on t (sum' + seconds t o) r now
      end
  end.

(** Started only when off, stopped only when on. *)
Fixpoint alternating (on : bool) (l : list (Z * top)) : Prop :=
  match l with
  | [] => True
  | (_, TStart) :: r => on = false /\ alternating true r
  | (_, TStop) :: r => on = true /\ alternating false r
  | _ :: r => alternating on r
  end.

Fixpoint nondecreasing (prev : Z) (l : list (Z * top)) : Prop :=
  match l with
  | [] => True
  | (t, op) :: r => prev <= t /\ nondecreasing t r /\
      match op with TAdd o => 0 <= seconds t o | _ => True end
  end.

Lemma run_total : forall l t prev now, alternating (running t) l ->
  seconds now (trun t l) =
  total (running t) prev (if running t then accumulated t + (prev - last_clock t) else accumulated t) l now.
Proof.
  induction l as [|[x op] r IH]; intros t prev now A.
  - cbn. unfold seconds. destruct (running t); lia.
  - unfold trun in *. cbn [fold_left]. destruct op as [| | |o]; cbn [alternating] in A; cbn [total].
    + destruct A as (R & A). rewrite (IH _ x) by (cbn; auto). cbn. rewrite R. f_equal. lia.
    + destruct A as (R & A). rewrite (IH _ x) by (cbn; auto). cbn. rewrite R. f_equal. lia.
    + rewrite (IH _ x) by (cbn; auto). cbn. f_equal. destruct (running t); lia.
    + rewrite (IH _ x) by (cbn; auto). cbn [tstep snd fst add_timer running accumulated last_clock].
      f_equal. destruct (running t); lia.
Qed.

(** C78: a watch that is used alternately shows exactly the time during which it was
    on since the last reset, plus what was added, in all units. *)
Theorem C78_exact : forall l t0 b now, alternating b l ->
  let t := trun (new_timer t0 b) l in
  seconds now t = total b t0 0 l now /\ mseconds now t = seconds now t * 1000 /\
  useconds now t = seconds now t * 1000000.
Proof.
  intros l t0 b now A. cbv zeta. split.
  - destruct b; unfold new_timer.
    + rewrite (run_total _ _ t0) by auto. cbn. f_equal. lia.
    + rewrite (run_total _ _ t0) by auto. reflexivity.
  - unfold mseconds, useconds, seconds. destruct (running _); split; lia.
Qed.
Print Assumptions C78_exact.

(** Between resets the reading never decreases. *)
Theorem C78_monotone : forall l l' t0 b now now',
  alternating b (l ++ l') -> (forall x, ~ In (x, TReset) l') ->
  nondecreasing t0 (l ++ [(now, TReset)]) -> nondecreasing now (l' ++ [(now', TReset)]) ->
  seconds now (trun (new_timer t0 b) l) <= seconds now' (trun (new_timer t0 b) (l ++ l')).
Proof.
  intros l l' t0 b now now' A NR N1 N2.
  assert (G : forall l' t, alternating (running t) l' -> (forall x, ~ In (x, TReset) l') ->
            forall now, nondecreasing now (l' ++ [(now', TReset)]) ->
            seconds now t <= seconds now' (trun t l')).
  { clear. induction l' as [|[x op] r IH]; intros t A NR now N; cbn [app nondecreasing] in N.
    - destruct N as (N & _). unfold seconds. cbn. destruct (running t); lia.
    - destruct N as (N & N' & O). unfold trun in *. cbn [fold_left].
      apply Z.le_trans with (seconds x (tstep t (x, op))).
      + unfold seconds at 1. destruct op as [| | |o]; cbn [alternating] in A; unfold tstep; cbn [snd fst].
        * destruct A as (-> & _). unfold seconds. cbn. lia.
        * destruct A as (-> & _). unfold seconds. cbn. lia.
        * exfalso. apply (NR x). left. auto.
        * unfold seconds at 1. cbn [add_timer running accumulated last_clock]. destruct (running t); lia.
      + apply IH; auto.
        * destruct op; cbn in *; try apply A.
        * intros y Y. apply (NR y). right. auto. }
  unfold trun. rewrite fold_left_app. apply G; auto.
  clear - A. revert A. assert (R : running (new_timer t0 b) = b) by (destruct b; auto).
  rewrite <- R at 1. generalize (new_timer t0 b) as t. clear. induction l as [|[x op] l IH]; intros t A; auto.
  cbn [fold_left]. apply IH. destruct op; cbn in *; try apply A.
Qed.
Print Assumptions C78_monotone.

(** Used otherwise it is wrong: a second start forgets the time since the first, a
    second stop counts an interval twice, a stop without start counts the time since
    the epoch of the clock. *)
Theorem C78_other_use_refuted :
  let l1 := [(10, TStart); (20, TStart)] in
  let l2 := [(10, TStart); (20, TStop); (25, TStop)] in
  let l3 := [(10, TStop)] in
  seconds 30 (trun (new_timer 0 false) l1) = 10 /\ total false 0 0 l1 30 = 20 /\
  seconds 30 (trun (new_timer 0 false) l2) = 25 /\ total false 0 0 l2 30 = 10 /\
  seconds 30 (trun (new_timer 5 false) l3) = 10 /\ total false 5 0 l3 30 = 0.
Proof. repeat split. Qed.
Print Assumptions C78_other_use_refuted.

Example C78_case :
  let l := [(10, TStart); (15, TStop); (20, TAdd (mktimer true 7 18)); (30, TStart)] in
  alternating false l /\ seconds 32 (trun (new_timer 0 false) l) = 16 /\ total false 0 0 l 32 = 16.
Proof. repeat split. Qed.
