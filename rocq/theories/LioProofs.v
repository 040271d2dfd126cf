(** Invariants of the kernel AIO queue. *)

From Coq Require Import List Arith Bool Lia.
From Verif Require Import LioModel LioSpec.
Import ListNotations.

(** Number of occurrences. *)
Fixpoint cnt (i : id) (l : list id) : nat :=
  match l with
  | [] => 0
  | x :: l => (if Nat.eqb i x then 1 else 0) + cnt i l
  end.

Lemma cnt_app i a b : cnt i (a ++ b) = cnt i a + cnt i b.
Proof. induction a; cbn; lia. Qed.

Lemma cnt_In i l : In i l <-> 1 <= cnt i l.
Proof.
  induction l as [|x l IH]; cbn; [lia|].
  destruct (Nat.eqb_spec i x) as [e|n]; split; intros H.
  - lia.
  - left; congruence.
  - destruct H as [H|H]; [congruence|]. apply IH in H. lia.
  - right. apply IH. lia.
Qed.

Lemma cnt_not_In i l : ~ In i l <-> cnt i l = 0.
Proof. rewrite cnt_In. lia. Qed.

Lemma cnt_NoDup l : (forall i, cnt i l <= 1) -> NoDup l.
Proof.
  induction l as [|x l IH]; intros H; constructor.
  - specialize (H x). cbn in H. rewrite Nat.eqb_refl in H. apply cnt_not_In. lia.
  - apply IH. intros i. specialize (H i). cbn in H. lia.
Qed.

Lemma take_cnt (l a b : list id) : take l a b -> forall i, cnt i l = cnt i a + cnt i b.
Proof. induction 1; intros i; cbn; try specialize (IHtake i); lia. Qed.

Lemma take_length {X} (l a b : list X) : take l a b -> length l = length a + length b.
Proof. induction 1; cbn; lia. Qed.

Lemma take_all {X} (l : list X) : take l l [].
Proof. induction l; constructor; assumption. Qed.

Lemma take_firstn {X} n (l : list X) : take l (firstn n l) (skipn n l).
Proof.
  revert n; induction l as [|x l IH]; intros n.
  - rewrite firstn_nil, skipn_nil. constructor.
  - destruct n; cbn.
    + constructor. specialize (IH 0). rewrite firstn_O in IH. exact IH.
    + constructor. apply IH.
Qed.

(** What the positions of the threads stand for. *)
Definition h_unsig h := match h with H_free e => length e | _ => 0 end.
Definition h_pend h := match h with H_free e => length e | H_comp _ k => k | H_wait k => k end.

Definition p_acq p := match p with
  | P_coll r => length r - 1 | P_coll2 r => length r | P_free r => length r - 1
  | P_sub c => length c | P_sig _ c => length c | P_reap c => length c
  | P_han _ c => length c | _ => 0 end.
Definition p_unsig p := match p with P_han h _ => h_unsig h | _ => 0 end.
Definition p_pend p := match p with P_han h _ => h_pend h | _ => 0 end.
Definition p_sign p := match p with P_sig n _ => n | _ => 0 end.
Definition p_got p := match p with P_got => 1 | P_comp => 1 | _ => 0 end.
Definition p_lock p := match p with P_coll _ => true | P_coll2 _ => true | _ => false end.
Definition p_ok p (f : nat) (w : list id) := match p with
  | P_coll r => r <> [] /\ (2 <= length r -> 1 <= f)
  | P_coll2 r => r <> [] /\ 1 <= f /\ w <> []
  | P_free r => r <> [] /\ (2 <= length r -> 1 <= f)
  | P_sub c => c <> [] | P_reap c => c <> [] | P_han _ c => c <> []
  | P_sig n c => 1 <= n
  | _ => True end.

Definition w_unsig w := match w with W_comp e => length e | W_han h => h_unsig h | _ => 0 end.
Definition w_pend w := match w with W_comp e => length e | W_han h => h_pend h | _ => 0 end.
Definition w_ate w := match w with W_get => 1 | W_comp _ => 1 | _ => 0 end.

Definition c_rem c := match c with C_compl i => [i] | _ => [] end.
Definition c_plain c := match c with C_compl _ => True | C_wait _ => True | _ => False end.

(** The invariant without successful cancellations of posted requests. *)
Record Inv (max : nat) (s : st) : Prop := mkInv {
  I_free : fr s + p_acq (poster s) + length (infl s) + length (dn s) + p_unsig (poster s)
           + w_unsig (waiter s) = max;
  I_post : po s + p_sign (poster s) + w_ate (waiter s)
           = length (infl s) + length (dn s) + p_pend (poster s) + w_pend (waiter s);
  I_wait : wt s + adders s + p_got (poster s) = length (waiting s) + length (cancelers s);
  I_lock : lock s = p_lock (poster s);
  I_ok : p_ok (poster s) (fr s) (waiting s);
  I_plain : Forall c_plain (cancelers s);
  I_all : forall i, cnt i (added s) =
            cnt i (waiting s) + cnt i (flat_map c_rem (cancelers s)) + cnt i (p_reqs (poster s))
            + cnt i (infl s) + cnt i (dn s) + cnt i (p_rem (poster s)) + cnt i (w_rem (waiter s))
            + cnt i (ccalls s);
  I_once : forall i, cnt i (added s) <= 1;
  I_sub : forall i, cnt i (submitted s) = cnt i (infl s) + cnt i (dn s) + cnt i (reaped s);
  I_reap : forall i, cnt i (reaped s) = cnt i (p_rem (poster s)) + cnt i (w_rem (waiter s))
             + cnt i (map fst (filter (fun x => negb (snd x)) (handled s)));
  I_hand : map fst (handled s) = ccalls s;
  I_crash : crashed s = false
}.

Lemma inv_init max : Inv max (init max).
Proof.
  constructor; cbn; auto; try lia; try (intros; lia).
Qed.

Lemma existsb_cnt i l : existsb (Nat.eqb i) l = false <-> cnt i l = 0.
Proof.
  induction l as [|x l IH]; cbn; [tauto|].
  destruct (Nat.eqb i x); cbn; [split; [discriminate|lia]|exact IH].
Qed.

Lemma complete_fresh s i c : cnt i (ccalls s) = 0 ->
  complete s i c = mkSt (waiting s) (wt s) (fr s) (po s) (lock s) (infl s) (dn s) (poster s)
         (waiter s) (adders s) (cancelers s) ((i, c) :: handled s) (crashed s) (added s)
         (submitted s) (reaped s) (i :: ccalls s).
Proof. intros H. unfold complete. apply existsb_cnt in H. rewrite H. reflexivity. Qed.

Lemma flat_map_mid {X Y} (f : X -> list Y) a x b :
  flat_map f (a ++ x :: b) = flat_map f a ++ f x ++ flat_map f b.
Proof. rewrite flat_map_app. reflexivity. Qed.

Ltac unf := unfold set_poster, set_waiter, set_cancelers, set_waiting, set_wt, set_fr, set_po,
  set_lock, set_kernel, set_adders, log_added, log_submitted, log_reaped in *.

Ltac fields := cbn [waiting wt fr po lock infl dn poster waiter adders cancelers handled crashed
  added submitted reaped ccalls] in *.

Ltac pcs := cbn [p_reqs p_acq p_unsig p_pend p_rem p_sign p_got p_lock p_ok w_unsig w_pend w_rem
  w_ate c_rem c_plain h_unsig h_pend h_rem cnt app length flat_map map filter fst snd negb] in *.

Ltac cnts := pcs; repeat (rewrite cnt_app in * || rewrite app_length in * || rewrite flat_map_app in *);
  pcs.

Ltac sp i := repeat match goal with H : forall _ : id, _ |- _ => specialize (H i) end.

Theorem inv_step max ps s s' : Inv max s -> step max false ps s s' -> Inv max s'.
Proof.
  intros I H. destruct I as [If Ip Iw Il Iok Ipl Ia Io Is Ir Ih Ic].
  destruct H.
  - (* add *)
    unf; constructor; fields; auto; try (cnts; lia).
    + destruct (poster s); auto. cbn in *. destruct Iok as (? & ? & ?).
      rewrite Il in H0. discriminate.
    + intros j. sp j. cnts. destruct (Nat.eqb_spec j i); subst; lia.
    + intros j. sp j. cnts. destruct (Nat.eqb_spec j i); subst; [|lia].
      apply cnt_not_In in H1. lia.
  - unf; constructor; fields; auto; lia.
  - rewrite H0 in *. unf; constructor; fields; auto; pcs; auto; try lia.
  - rewrite H0 in *. unf; constructor; fields; auto; pcs; auto; lia.
  - rewrite H0 in *. unf; constructor; fields; auto; pcs; auto; lia.
  - rewrite H0 in *. rewrite H2 in *. unf; constructor; fields; auto; pcs; auto; try lia.
    + split; [discriminate|lia].
    + intros j; sp j; pcs; lia.
  - rewrite H0 in *. unf; constructor; fields; auto; pcs; auto; try lia.
  - rewrite H0 in *. unf; constructor; fields; auto; pcs; auto; try lia.
    + destruct Iok as (? & ?). destruct r; [congruence|cbn in *; lia].
    + destruct Iok. repeat split; auto. lia.
  - rewrite H0 in *. unf; constructor; fields; auto; pcs; auto; try lia.
    + destruct Iok as (? & ?). destruct r; [congruence|cbn in *; lia].
    + destruct Iok. split; auto. lia.
  - rewrite H0 in *. rewrite H2 in *. unf; constructor; fields; auto; cnts; auto; try lia.
    + destruct Iok as (? & ? & ?). split; [destruct r; discriminate|intros; lia].
    + intros j; sp j; cnts; lia.
  - rewrite H0 in *. unf; constructor; fields; auto; pcs; auto; try lia.
    + destruct Iok as (? & ?). destruct r; [congruence|cbn in *; lia].
    + tauto.
  - rewrite H0 in *. unf; constructor; fields; auto; cnts; auto; try lia.
    + destruct a; [congruence|cbn; lia].
    + intros j; sp j; cnts; lia.
    + intros j; sp j; cnts; lia.
  - rewrite H0 in *. unf; constructor; fields; auto; pcs; auto; lia.
  - rewrite H0 in *. unf; destruct c; constructor; fields; auto; pcs; auto; try lia; try discriminate.
  - rewrite H0 in *. pose proof (take_length _ _ _ H1) as TL. pose proof (take_cnt _ _ _ H1) as TC.
    unf; destruct e; constructor; fields; auto; cnts; auto; try lia;
      intros j; sp j; cnts; lia.
  - rewrite H0 in *.
    destruct H1; unf; fields.
    + constructor; fields; auto; pcs; auto; lia.
    + assert (F : cnt i (ccalls s) = 0)
        by (sp i; pcs; rewrite Nat.eqb_refl in *; lia).
      rewrite complete_fresh by assumption.
      constructor; fields; auto; pcs; auto; try lia; try congruence;
        intros j; sp j; pcs; destruct (Nat.eqb_spec j i); subst; lia.
    + constructor; fields; auto; pcs; auto; lia.
    + constructor; fields; auto; pcs; auto; lia.
  - rewrite H0 in *. unf; constructor; fields; auto; pcs; auto; lia.
  - rewrite H0 in *. pose proof (take_length _ _ _ H1) as TL. pose proof (take_cnt _ _ _ H1) as TC.
    unf; constructor; fields; auto; cnts; auto; try lia;
      intros j; sp j; cnts; lia.
  - rewrite H0 in *. unf; constructor; fields; auto; pcs; auto; lia.
  - rewrite H0 in *.
    destruct H1; unf; fields.
    + constructor; fields; auto; pcs; auto; try lia.
      destruct (poster s); pcs; auto; try lia; intuition lia.
    + assert (F : cnt i (ccalls s) = 0)
        by (sp i; pcs; rewrite Nat.eqb_refl in *; lia).
      rewrite complete_fresh by assumption.
      constructor; fields; auto; pcs; auto; try lia; try congruence;
        intros j; sp j; pcs; destruct (Nat.eqb_spec j i); subst; lia.
    + constructor; fields; auto; pcs; auto; lia.
    + constructor; fields; auto; pcs; auto; lia.
  - rewrite H0 in *. unf; constructor; fields; auto; cnts; auto; try lia;
      intros j; sp j; cnts; lia.
  - rewrite H1 in *. unf; constructor; fields; auto; cnts; auto; try lia.
    + destruct (poster s); pcs; auto. congruence.
    + constructor; [exact Logic.I|assumption].
    + intros j; sp j; cnts; lia.
  - rewrite H0 in *.
    assert (F : cnt i (ccalls s) = 0)
        by (sp i; rewrite flat_map_mid in *; cnts; rewrite Nat.eqb_refl in *; lia).
    rewrite complete_fresh by assumption.
    unf; constructor; fields; auto; try (cnts; lia); try congruence.
    + apply Forall_app in Ipl. destruct Ipl as (P1 & P2). apply Forall_app. split; [assumption|].
      inversion P2; subst. constructor; [exact Logic.I|assumption].
    + intros j; sp j; rewrite flat_map_mid in *; cnts; destruct (Nat.eqb_spec j i); subst; lia.
    + pcs. congruence.
  - rewrite H0 in *. unf; constructor; fields; auto; try (cnts; lia).
    + apply Forall_app in Ipl. destruct Ipl as (P1 & P2). apply Forall_app. split; [assumption|].
      inversion P2; subst. assumption.
    + intros j; sp j; rewrite flat_map_mid in *; rewrite flat_map_app; cnts; lia.
  - discriminate.
  - rewrite H0 in Ipl. apply Forall_app in Ipl. destruct Ipl as (_ & P). inversion P; contradiction.
  - rewrite H0 in Ipl. apply Forall_app in Ipl. destruct Ipl as (_ & P). inversion P; contradiction.
  - rewrite H0 in Ipl. apply Forall_app in Ipl. destruct Ipl as (_ & P). inversion P; contradiction.
  - rewrite H0 in Ipl. apply Forall_app in Ipl. destruct Ipl as (_ & P). inversion P; contradiction.
  - rewrite H0 in Ipl. apply Forall_app in Ipl. destruct Ipl as (_ & P). inversion P; contradiction.
Qed.

Theorem inv_reach max ps s : reach max false ps s -> Inv max s.
Proof. induction 1; [apply inv_init|eapply inv_step; eassumption]. Qed.
