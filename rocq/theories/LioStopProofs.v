(** Invariants of the kernel AIO queue with its destructor. *)

From Coq Require Import List Arith Bool Lia ZArith.
From Verif Require Import LioModel LioSpec LioProofs LioProofs2 LioStopModel LioStopSpec.
Import ListNotations.

(** The invariant of the running queue, with [tp] and [tw] additional signals of
    the two semaphores. *)
Record InvT (tp tw max : nat) (s : st) : Prop := mkInvT {
  T_free : fr s + p_acq (poster s) + length (infl s) + length (dn s) + p_unsig (poster s)
           + w_unsig (waiter s) = max;
  T_post : po s + p_sign (poster s) + w_ate (waiter s)
           = length (infl s) + length (dn s) + p_pend (poster s) + w_pend (waiter s) + tw;
  T_wait : wt s + adders s + p_got (poster s) = length (waiting s) + length (cancelers s) + tp;
  T_lock : lock s = p_lock (poster s);
  T_ok : p_ok (poster s) (fr s) (waiting s);
  T_plain : Forall c_plain (cancelers s);
  T_all : forall i, cnt i (added s) =
            cnt i (waiting s) + cnt i (flat_map c_rem (cancelers s)) + cnt i (p_reqs (poster s))
            + cnt i (infl s) + cnt i (dn s) + cnt i (p_rem (poster s)) + cnt i (w_rem (waiter s))
            + cnt i (ccalls s);
  T_once : forall i, cnt i (added s) <= 1;
  T_sub : forall i, cnt i (submitted s) = cnt i (infl s) + cnt i (dn s) + cnt i (reaped s);
  T_reap : forall i, cnt i (reaped s) = cnt i (p_rem (poster s)) + cnt i (w_rem (waiter s))
             + cnt i (map fst (filter (fun x => negb (snd x)) (handled s)));
  T_hand : map fst (handled s) = ccalls s;
  T_crash : crashed s = false
}.

Lemma invt_init max : InvT 0 0 max (init max).
Proof. constructor; cbn; auto; try lia; try (intros; lia). Qed.

Theorem invt_step tp tw max ps s s' : InvT tp tw max s -> step max false ps s s' -> InvT tp tw max s'.
Proof.
  intros I H. destruct I as [If Ip Iw Il Iok Ipl Ia Io Is Ir Ih Ic].
  destruct H.
  - (* add *)
    unf; constructor; fields; auto; try (cnts; lia).
    + destruct (poster s); auto. cbn in *. destruct Iok as (? & ? & ?).
      rewrite Il in H0. discriminate.
    + intros j. sp j. cnts. destruct (Nat.eqb_spec j i); subst; lia.
    + intros j. sp j. cnts. destruct (Nat.eqb_spec j i); subst; [|lia].
      apply cnt_not_In in H1. lia.
  - unf; constructor; fields; auto; lia.
  - rewrite H0 in *. unf; constructor; fields; auto; pcs; auto; try lia.
  - rewrite H0 in *. unf; constructor; fields; auto; pcs; auto; lia.
  - rewrite H0 in *. unf; constructor; fields; auto; pcs; auto; lia.
  - rewrite H0 in *. rewrite H2 in *. unf; constructor; fields; auto; pcs; auto; try lia.
    + split; [discriminate|lia].
    + intros j; sp j; pcs; lia.
  - rewrite H0 in *. unf; constructor; fields; auto; pcs; auto; try lia.
  - rewrite H0 in *. unf; constructor; fields; auto; pcs; auto; try lia.
    + destruct Iok as (? & ?). destruct r; [congruence|cbn in *; lia].
    + destruct Iok. repeat split; auto. lia.
  - rewrite H0 in *. unf; constructor; fields; auto; pcs; auto; try lia.
    + destruct Iok as (? & ?). destruct r; [congruence|cbn in *; lia].
    + destruct Iok. split; auto. lia.
  - rewrite H0 in *. rewrite H2 in *. unf; constructor; fields; auto; cnts; auto; try lia.
    + destruct Iok as (? & ? & ?). split; [destruct r; discriminate|intros; lia].
    + intros j; sp j; cnts; lia.
  - rewrite H0 in *. unf; constructor; fields; auto; pcs; auto; try lia.
    + destruct Iok as (? & ?). destruct r; [congruence|cbn in *; lia].
    + tauto.
  - rewrite H0 in *. unf; constructor; fields; auto; cnts; auto; try lia.
    + destruct a; [congruence|cbn; lia].
    + intros j; sp j; cnts; lia.
    + intros j; sp j; cnts; lia.
  - rewrite H0 in *. unf; constructor; fields; auto; pcs; auto; lia.
  - rewrite H0 in *. unf; destruct c; constructor; fields; auto; pcs; auto; try lia; try discriminate.
  - rewrite H0 in *. pose proof (take_length _ _ _ H1) as TL. pose proof (take_cnt _ _ _ H1) as TC.
    unf; destruct e; constructor; fields; auto; cnts; auto; try lia;
      intros j; sp j; cnts; lia.
  - rewrite H0 in *.
    destruct H1; unf; fields.
    + constructor; fields; auto; pcs; auto; lia.
    + assert (F : cnt i (ccalls s) = 0)
        by (sp i; pcs; rewrite Nat.eqb_refl in *; lia).
      rewrite complete_fresh by assumption.
      constructor; fields; auto; pcs; auto; try lia; try congruence;
        intros j; sp j; pcs; destruct (Nat.eqb_spec j i); subst; lia.
    + constructor; fields; auto; pcs; auto; lia.
    + constructor; fields; auto; pcs; auto; lia.
  - rewrite H0 in *. unf; constructor; fields; auto; pcs; auto; lia.
  - rewrite H0 in *. pose proof (take_length _ _ _ H1) as TL. pose proof (take_cnt _ _ _ H1) as TC.
    unf; constructor; fields; auto; cnts; auto; try lia;
      intros j; sp j; cnts; lia.
  - rewrite H0 in *. unf; constructor; fields; auto; pcs; auto; lia.
  - rewrite H0 in *.
    destruct H1; unf; fields.
    + constructor; fields; auto; pcs; auto; try lia.
      destruct (poster s); pcs; auto; try lia; intuition lia.
    + assert (F : cnt i (ccalls s) = 0)
        by (sp i; pcs; rewrite Nat.eqb_refl in *; lia).
      rewrite complete_fresh by assumption.
      constructor; fields; auto; pcs; auto; try lia; try congruence;
        intros j; sp j; pcs; destruct (Nat.eqb_spec j i); subst; lia.
    + constructor; fields; auto; pcs; auto; lia.
    + constructor; fields; auto; pcs; auto; lia.
  - rewrite H0 in *. unf; constructor; fields; auto; cnts; auto; try lia;
      intros j; sp j; cnts; lia.
  - rewrite H1 in *. unf; constructor; fields; auto; cnts; auto; try lia.
    + destruct (poster s); pcs; auto. congruence.
    + constructor; [exact Logic.I|assumption].
    + intros j; sp j; cnts; lia.
  - rewrite H0 in *.
    assert (F : cnt i (ccalls s) = 0)
        by (sp i; rewrite flat_map_mid in *; cnts; rewrite Nat.eqb_refl in *; lia).
    rewrite complete_fresh by assumption.
    unf; constructor; fields; auto; try (cnts; lia); try congruence.
    + apply Forall_app in Ipl. destruct Ipl as (P1 & P2). apply Forall_app. split; [assumption|].
      inversion P2; subst. constructor; [exact Logic.I|assumption].
    + intros j; sp j; rewrite flat_map_mid in *; cnts; destruct (Nat.eqb_spec j i); subst; lia.
    + pcs. congruence.
  - rewrite H0 in *. unf; constructor; fields; auto; try (cnts; lia).
    + apply Forall_app in Ipl. destruct Ipl as (P1 & P2). apply Forall_app. split; [assumption|].
      inversion P2; subst. assumption.
    + intros j; sp j; rewrite flat_map_mid in *; rewrite flat_map_app; cnts; lia.
  - discriminate.
  - rewrite H0 in Ipl. apply Forall_app in Ipl. destruct Ipl as (_ & P). inversion P; contradiction.
  - rewrite H0 in Ipl. apply Forall_app in Ipl. destruct Ipl as (_ & P). inversion P; contradiction.
  - rewrite H0 in Ipl. apply Forall_app in Ipl. destruct Ipl as (_ & P). inversion P; contradiction.
  - rewrite H0 in Ipl. apply Forall_app in Ipl. destruct Ipl as (_ & P). inversion P; contradiction.
  - rewrite H0 in Ipl. apply Forall_app in Ipl. destruct Ipl as (_ & P). inversion P; contradiction.
Qed.

