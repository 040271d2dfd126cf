(** C27: the threads of the kernel AIO queue have a bounded amount of work to do for each request. *)

From Coq Require Import List Arith Bool Lia Permutation.
From Verif Require Import LioModel LioSpec LioProofs LioProofs2 LioProps.
Import ListNotations.

(** The posting thread takes a signal although there is no request, and gives it back: a step that
    changes nothing but its position and the counter of signals, with nothing in the list. *)
Definition spin (s s' : st) : Prop :=
  waiting s = [] /\ (poster s = P_idle \/ poster s = P_got \/ poster s = P_comp) /\
  exists p n, (p = P_idle \/ p = P_got \/ p = P_comp) /\ s' = set_poster (set_wt s n) p.

(** [work max n s s']: from [s] to [s'] without any call of a client, with [n] steps that are no
    such turns. *)
Inductive work (max : nat) : nat -> st -> st -> Prop :=
| W_none s : work max 0 s s
| W_step n s s1 s2 : inner_step max false false s s1 -> ~ spin s s1 -> work max n s1 s2 -> work max (S n) s s2
| W_spin n s s1 s2 : inner_step max false false s s1 -> spin s s1 -> work max n s1 s2 -> work max n s s2.

(** [steps max n s s']: [n] steps without any call of a client. *)
Inductive steps (max : nat) : nat -> st -> st -> Prop :=
| N_none s : steps max 0 s s
| N_step n s s1 s2 : inner_step max false false s s1 -> steps max n s1 s2 -> steps max (S n) s s2.

Definition q_mu p (w : list id) := match p with
  | P_idle => 1
  | P_got => match w with [] => 1 | _ => 0 end
  | P_comp => match w with [] => 1 | _ => 2 end
  | P_coll r => 16 * length r + 2
  | P_coll2 r => 16 * length r + 1
  | P_free r => 16 * length r
  | P_sub c => 15 * length c
  | P_sig _ _ => 2
  | _ => 0 end.
Definition nu s := 19 * length (waiting s) + q_mu (poster s) (waiting s) + w_mu (waiter s)
  + 12 * length (infl s) + 11 * length (dn s) + adders s + c_mu (cancelers s).

Lemma c_mu_app : forall a b, c_mu (a ++ b) = c_mu a + c_mu b.
Proof. induction a as [|c a IH]; intros b; cbn [app c_mu]; auto. rewrite IH. destruct c; lia. Qed.

(** Each step that is no such turn makes the remaining work smaller. *)
Lemma step_work : forall max s s', Inv max s -> full (poster s) -> inner_step max false false s s' ->
  nu s' < nu s \/ (spin s s' /\ nu s' = nu s /\ (poster s = P_idle -> wt s <> 0)).
Proof.
  intros max s s' V Fu (St & Ea & Ec).
  pose proof V as [If Ip Iw Il Iok Ipl Ia Io Is Ir Ih Ic].
  assert (NK : forall x k y, cancelers s = x ++ k :: y -> c_plain k).
  { intros x k y E. rewrite E in Ipl. apply Forall_app in Ipl. destruct Ipl as (_ & P). inversion P; assumption. }
  destruct St as [s i X1 X2 X3|s n X1 X2|s n X1 X2 X3|s X1 X2 X3 X4|s X1 X2|s i w X1 X2 X3 X4|s r X1 X2 X3|s r X1 X2 X3 X4|s r X1 X2 X3
    |s r i w n X1 X2 X3 X4|s r n X1 X2 X3|s a b X1 X2 X3 X4|s c X1 X2 X3|s n c X1 X2|s c e d X1 X2 X3 X4|s h c s' h' X1 X2 X3
    |s n X1 X2 X3|s e d X1 X2 X3 X4 X5|s e X1 X2|s h s' h' X1 X2 X3|s a i b X1 X2|s a i b X1 X2 X3|s x i y X1 X2|s x i y n X1 X2 X3
    |s a i b X1 X2 X3 X4|s x i h y s' h' X1 X2 X3|s x i h y s' X1 X2 X3|s x i y X1 X2|s x i y X1 X2|s x i y n X1 X2 X3];
    try discriminate; try (exfalso; exact (NK _ _ _ X2)).
  - exfalso. unf; cbn in Ea. apply (f_equal (@length _)) in Ea. cbn in Ea. lia.
  - left. unf; unfold nu; fields. lia.
  - destruct (waiting s) as [|i w] eqn:Ew.
    + right. split.
      * split; [auto|]. split; [auto|]. exists P_got, n. auto.
      * split; [|congruence]. unf; unfold nu; fields. rewrite X2, Ew. auto.
    + left. unf; unfold nu; fields. rewrite X2, Ew. cbn [q_mu]. lia.
  - right. split.
    + split; [auto|]. split; [auto|]. exists P_comp, (wt s). split; auto.
    + split; [|congruence]. unf; unfold nu; fields. rewrite X2, X4. auto.
  - destruct (waiting s) as [|i w] eqn:Ew.
    + right. split.
      * split; [auto|]. split; [auto|]. exists P_idle, (S (wt s)). auto.
      * split; [|congruence]. unf; unfold nu; fields. rewrite X2, Ew. auto.
    + left. unf; unfold nu; fields. rewrite X2, Ew. cbn [q_mu]. lia.
  - left. unf; unfold nu; fields. rewrite X2, X4. cbn [q_mu length]. lia.
  - left. unf; unfold nu; fields. rewrite X2. cbn [q_mu]. lia.
  - left. unf; unfold nu; fields. rewrite X2. cbn [q_mu]. lia.
  - left. unf; unfold nu; fields. rewrite X2. cbn [q_mu]. lia.
  - left. unf; unfold nu; fields. rewrite X2, X4. cbn [q_mu length]. rewrite app_length. cbn [length]. lia.
  - left. unf; unfold nu; fields. rewrite X2 in *. cbn [q_mu]. cbn in Iok. destruct Iok as (Nr & _). destruct r; [congruence|cbn [length]; lia].
  - left. destruct X4 as [X4|X4]; [discriminate|]. subst b. rewrite app_nil_r in X2.
    unf; unfold nu; fields. rewrite X2. cbn [q_mu]. rewrite app_length. destruct a; [congruence|cbn [length]; lia].
  - left. rewrite X2 in Fu. cbn in Fu. subst c. unf; unfold nu; fields. rewrite X2. cbn [q_mu]. lia.
  - rewrite X2 in Fu. contradiction.
  - rewrite X2 in Fu. contradiction.
  - left. unf; unfold nu; fields. rewrite X2. cbn [w_mu]. lia.
  - left. apply take_length in X3. unf; unfold nu; fields. rewrite X2. cbn [w_mu]. lia.
  - left. unf; unfold nu; fields. rewrite X2. cbn [w_mu]. lia.
  - left. destruct X3 as [s evs|s i rem k|s k|s k Hk]; unf; unfold nu; fields; rewrite ?X2; cbn [w_mu length]; try lia.
    unfold complete. destruct existsb; fields; rewrite ?X2; cbn [w_mu length]; lia.
  - left. unf; unfold nu; fields. rewrite X2, !app_length. cbn [length]. lia.
  - exfalso. unf; cbn in Ec. lia.
  - left. unf; unfold nu; fields. unfold complete. destruct existsb; fields; rewrite X2, !c_mu_app; cbn [c_mu]; lia.
  - left. unf; unfold nu; fields. rewrite X2, !c_mu_app. cbn [c_mu]. lia.
Qed.

(** The requests that were added and not yet handled. *)
Lemma nu_bound : forall max s, Inv max s -> full (poster s) ->
  nu s <= 20 * (length (added s) - length (handled s)) + 3 * length (cancelers s) + 7.
Proof.
  intros max s V Fu. pose proof V as [If Ip Iw Il Iok Ipl Ia Io Is Ir Ih Ic].
  assert (P : Permutation (added s) (waiting s ++ flat_map c_rem (cancelers s) ++ p_reqs (poster s) ++ infl s ++ dn s
                ++ p_rem (poster s) ++ w_rem (waiter s) ++ ccalls s)).
  { apply cnt_perm. intros i. rewrite !cnt_app. specialize (Ia i). lia. }
  apply Permutation_length in P. rewrite !app_length in P.
  assert (Hc : length (handled s) = length (ccalls s)) by (rewrite <- Ih, map_length; auto).
  assert (Cm : c_mu (cancelers s) <= 2 * length (cancelers s)).
  { clear. induction (cancelers s) as [|c l IH]; cbn [c_mu length]; [lia|]. destruct c; lia. }
  assert (Qm : q_mu (poster s) (waiting s) <= 16 * length (p_reqs (poster s)) + 2).
  { destruct (poster s); cbn [q_mu p_reqs]; try destruct (waiting s); lia. }
  assert (Wm : w_mu (waiter s) <= 5 * length (w_rem (waiter s)) + 5).
  { destruct (waiter s) as [| |e|[e|r k|k]]; cbn [w_mu w_rem h_rem length]; lia. }
  unfold nu. lia.
Qed.

(** C27: without calls of clients, the two threads, the kernel and the clients inside of functions
    make at most 20 steps for each request that is not yet handled, 3 for each cancellation under
    way and 7 more, apart from turns of the posting thread in which it finds no request. *)
Theorem C27_bounded_work : forall max s n s', reach max false false s -> work max n s s' ->
  n <= 20 * (length (added s) - length (handled s)) + 3 * length (cancelers s) + 7.
Proof.
  intros max s n s' R W. pose proof (nu_bound _ _ (inv_reach _ _ _ R) (full_reach _ _ R)) as B.
  assert (G : n <= nu s); [|lia]. clear B.
  induction W as [s|n s s1 s2 St Ns W IH|n s s1 s2 St Sp W IH]; [lia| |].
  - destruct (step_work _ _ _ (inv_reach _ _ _ R) (full_reach _ _ R) St) as [L|(Sp & _)]; [|contradiction].
    assert (R1 : reach max false false s1) by (eapply R_step; [exact R|apply St]). specialize (IH R1). lia.
  - destruct (step_work _ _ _ (inv_reach _ _ _ R) (full_reach _ _ R) St) as [L|(_ & E & _)];
      assert (R1 : reach max false false s1) by (eapply R_step; [exact R|apply St]); specialize (IH R1); lia.
Qed.
Print Assumptions C27_bounded_work.

(** Such turns need a cancellation under way. *)
Lemma no_spin : forall max s s', Inv max s -> full (poster s) -> cancelers s = [] -> inner_step max false false s s' ->
  ~ spin s s' /\ cancelers s' = [].
Proof.
  intros max s s' V Fu Ec St. split.
  - intros (Ew & Hp & p & n & Hq & E). pose proof (I_wait _ _ V) as Iw. rewrite Ew, Ec in Iw. cbn in Iw.
    assert (Ep : poster s = P_idle) by (destruct Hp as [Hp|[Hp|Hp]]; auto; rewrite Hp in Iw; cbn in Iw; lia).
    destruct (step_work _ _ _ V Fu St) as [L|(_ & _ & N)]; [|specialize (N Ep); lia].
    subst s'. unfold nu in L. unf; fields. rewrite Ew, Ep in L. destruct Hq as [Hq|[Hq|Hq]]; subst p; cbn [q_mu] in L; lia.
  - destruct St as (_ & _ & Lc). rewrite Ec in Lc. cbn in Lc. destruct (cancelers s'); [auto|cbn in Lc; lia].
Qed.

(** C27: unless a cancellation is under way, whatever the threads and the kernel do, they are done
    after at most 20 steps for each request not yet handled and 7 more; and as long as a request is
    not handled, they can do something. *)
Theorem C27_must_finish : forall max s n s', 1 <= max -> reach max false false s -> cancelers s = [] -> steps max n s s' ->
  n <= 20 * (length (added s) - length (handled s)) + 7 /\
  ((forall s2, ~ inner_step max false false s' s2) -> all_handled s').
Proof.
  intros max s n s' Hm R Ec St.
  assert (G : work max n s s' /\ reach max false false s').
  { induction St as [s|n s s1 s2 T St IH]; [split; [constructor|auto]|].
    destruct (no_spin _ _ _ (inv_reach _ _ _ R) (full_reach _ _ R) Ec T) as (N & E1).
    assert (R1 : reach max false false s1) by (eapply R_step; [exact R|apply T]).
    destruct (IH R1 E1) as (A & B). split; auto. eapply W_step; eauto. }
  destruct G as (W & R'). split.
  - pose proof (C27_bounded_work _ _ _ _ R W) as B. rewrite Ec in B. cbn [length] in B. lia.
  - intros Stuck. destruct (progress max s' Hm (inv_reach _ _ _ R') (full_reach _ _ R')) as [A|(s2 & T & _)]; auto.
    exfalso. eapply Stuck; eauto.
Qed.
Print Assumptions C27_must_finish.

(** While a cancellation is under way this is not so: the posting thread turns as long as the client
    has not taken back the signal of the request it removed. *)
Theorem C27_turns_refuted : forall max, exists s, reach max false false s /\ waiting s = [] /\
  (exists i, cancelers s = [C_compl i]) /\ forall n, steps max (3 * n) s s.
Proof.
  intros max. pose proof (R_init max false false) as R. unfold init in R.
  fwd R (S_add _ _ _ _ 1).
  fwd R S_add_signal.
  fwd R (S_c_erase _ _ _ _ [] 1 []).
  match type of R with reach _ _ _ ?x => exists x end. split; [exact R|]. split; [reflexivity|]. split; [exists 1; reflexivity|].
  induction n as [|n IH]; [constructor|]. replace (3 * S n) with (S (S (S (3 * n)))) by lia.
  eapply N_step; [split; [eapply S_p_wait; reflexivity|split; [reflexivity|cbn; lia]]|].
  eapply N_step; [split; [eapply S_p_empty; reflexivity|split; [reflexivity|cbn; lia]]|].
  eapply N_step; [split; [eapply S_p_compensate; reflexivity|split; [reflexivity|cbn; lia]]|].
  exact IH.
Qed.
Print Assumptions C27_turns_refuted.

(** Two requests are in the list when the clients stop; all steps of the queue lead to the end. *)
Example C27_live_case : exists s, reach 1 false false s /\ cancelers s = [] /\ waiting s = [1; 2] /\
  length (added s) - length (handled s) = 2 /\ exists s', steps 1 2 s s' /\ poster s' = P_coll [1].
Proof.
  pose proof (R_init 1 false false) as R. unfold init in R.
  fwd R (S_add _ _ _ _ 1).
  fwd R S_add_signal.
  fwd R (S_add _ _ _ _ 2).
  match type of R with reach _ _ _ ?x => exists x end. repeat (split; [first [exact R | reflexivity]|]).
  eexists. split.
  - eapply N_step; [split; [eapply S_p_wait; reflexivity|split; [reflexivity|cbn; lia]]|].
    eapply N_step; [split; [eapply S_p_first; reflexivity|split; [reflexivity|cbn; lia]]|]. constructor.
  - reflexivity.
Qed.
