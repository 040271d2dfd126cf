(** Progress of the kernel AIO queue, and cancellations of posted requests. *)

From Coq Require Import List Arith Bool Lia.
From Verif Require Import LioModel LioSpec LioProofs.
Import ListNotations.

(** ** Progress when io_submit accepts everything *)

Definition full p := match p with
  | P_reap _ => False | P_han _ _ => False | P_sig _ c => c = [] | _ => True end.

Lemma full_step max s s' : full (poster s) -> step max false false s s' -> full (poster s').
Proof.
  intros F H. destruct H; unf; fields; cbn [full]; auto;
    try (match goal with E : poster s = _ |- _ => rewrite E in F; cbn in F end); auto.
  - destruct H2; [discriminate|assumption].
  - discriminate.
  - subst c. exact Logic.I.
  - contradiction.
  - contradiction.
  - destruct H1; unf; fields; auto. unfold complete. destruct existsb; assumption.
  - unfold complete. destruct existsb; assumption.
  - destruct H1; unf; fields; auto. unfold complete. destruct existsb; assumption.
  - destruct H1; unf; fields; auto. unfold complete. destruct existsb; assumption.
  - unfold complete. destruct existsb; assumption.
Qed.

Lemma full_reach max s : reach max false false s -> full (poster s).
Proof. induction 1; [exact Logic.I|eapply full_step; eassumption]. Qed.

Definition p_mu p (w : list id) := match p with
  | P_idle => 1
  | P_got => match w with [] => 3 | _ => 0 end
  | P_comp => 2
  | P_coll r => 16 * length r + 2
  | P_coll2 r => 16 * length r + 1
  | P_free r => 16 * length r
  | P_sub c => 15 * length c
  | P_sig _ _ => 2
  | _ => 0 end.
Definition w_mu w := match w with
  | W_idle => 1
  | W_get => 0
  | W_comp e => 5 * length e + 5
  | W_han (H_free e) => 5 * length e + 4
  | W_han (H_comp r _) => 5 * length r + 3
  | W_han (H_wait _) => 2
  end.
Fixpoint c_mu l := match l with
  | [] => 0
  | C_compl _ :: l => 2 + c_mu l
  | _ :: l => 1 + c_mu l end.

Definition mu s := 19 * length (waiting s) + p_mu (poster s) (waiting s) + w_mu (waiter s)
  + 12 * length (infl s) + 11 * length (dn s) + adders s + c_mu (cancelers s).

Definition better max s := exists s', inner_step max false false s s' /\ mu s' < mu s.

Ltac go C := eexists; split; [split; [eapply C; eauto|split; [reflexivity|cbn; lia]]|].

(** The poster is at the beginning with nothing to do, or waits for a free
    event. *)
Lemma progress_rest max s : 1 <= max -> Inv max s -> adders s = 0 ->
  (poster s = P_idle /\ waiting s = [] \/ exists r, poster s = P_free r /\ fr s = 0) ->
  all_handled s \/ better max s.
Proof.
  intros Hm I Ha Hp.
  pose proof I as [If Ip Iw Il Iok Ipl Ia Io Is Ir Ih Ic].
  assert (G : p_got (poster s) = 0 /\ p_sign (poster s) = 0 /\ p_pend (poster s) = 0).
  { destruct Hp as [(-> & _)|(r & -> & _)]; auto. }
  destruct G as (G1 & G2 & G3).
  destruct (cancelers s) as [|c y] eqn:Ec.
  - destruct (waiter s) as [| |e|h] eqn:Ew.
    + destruct (po s) as [|n] eqn:Epo.
      * cbn [w_ate w_pend] in Ip. rewrite G2, G3 in Ip.
        assert (Ei : infl s = []) by (destruct (infl s); [reflexivity|cbn in Ip; lia]).
        assert (Ed : dn s = []) by (destruct (dn s); [reflexivity|cbn in Ip; lia]).
        destruct Hp as [(Ep & Ewt)|(r & Ep & Ef)].
        -- left. intros i Hi. apply cnt_In in Hi. specialize (Ia i).
           rewrite Ep, Ewt, Ei, Ed in Ia. pcs.
           assert (K : In i (ccalls s)) by (apply cnt_In; lia).
           rewrite <- Ih in K. apply in_map_iff in K. destruct K as ((j, b) & <- & K).
           exists b. exact K.
        -- exfalso. rewrite Ep in *. rewrite Ei, Ed in If. pcs.
           destruct Iok as (N & K). destruct r as [|x [|y r]]; [congruence| |]; cbn in *; lia.
      * right. go S_w_wait. unf; unfold mu; fields. rewrite Ew. cbn. lia.
    + assert (D : 1 <= length (infl s) + length (dn s)).
      { cbn [w_ate w_pend] in Ip. lia. }
      destruct (dn s) as [|d0 dl] eqn:Ed.
      * destruct (infl s) as [|i il] eqn:Ei; [cbn in D; lia|].
        right. eexists. split; [split; [eapply (S_kernel _ _ _ s [] i il); auto|split; [reflexivity|cbn; lia]]|].
        unf; unfold mu; fields. rewrite Ed, Ei. cbn [length app]. lia.
      * right. eexists. split; [split; [eapply (S_w_get _ _ _ s (d0 :: dl) []); auto|split; [reflexivity|cbn; lia]]|].
        -- rewrite Ed. apply take_all.
        -- cbn; lia.
        -- lia.
        -- unf; unfold mu; fields. rewrite Ew, Ed. cbn [length w_mu]. lia.
    + right. go S_w_compensate. unf; unfold mu; fields. rewrite Ew. cbn [w_mu]. lia.
    + right. destruct h as [e|[|i rem] k|k].
      * eexists. split; [split; [eapply S_w_handle; [assumption|eassumption|apply HS_free]|split; [reflexivity|cbn; lia]]|].
        unf; unfold mu; fields. rewrite Ew. cbn [w_mu]. lia.
      * eexists. split; [split; [eapply S_w_handle; [assumption|eassumption|apply HS_end]|split; [reflexivity|cbn; lia]]|].
        unf; unfold mu; fields. rewrite Ew. cbn [w_mu length]. lia.
      * assert (F : cnt i (ccalls s) = 0)
          by (sp i; pcs; rewrite Nat.eqb_refl in *; lia).
        eexists. split; [split; [eapply S_w_handle; [assumption|eassumption|apply HS_comp]|]|].
        -- rewrite complete_fresh by assumption. split; [reflexivity|cbn; lia].
        -- rewrite complete_fresh by assumption. unf; unfold mu; fields. rewrite Ew. cbn [w_mu length]. lia.
      * eexists. split; [split; [eapply S_w_handle; [assumption|eassumption|apply HS_wait]|split; [reflexivity|cbn; lia]]|].
        -- cbn [w_ate w_pend h_pend] in Ip. lia.
        -- unf; unfold mu; fields. rewrite Ew. cbn [w_mu]. lia.
  - right. inversion Ipl; subst. destruct c; try contradiction.
    + assert (F : cnt i (ccalls s) = 0).
      { sp i. try rewrite Ec in *. pcs. rewrite Nat.eqb_refl in *. cbn in *. lia. }
      eexists. split; [split; [eapply (S_c_complete _ _ _ s [] i y); assumption|]|].
      * rewrite complete_fresh by assumption. unf; fields. split; [reflexivity|rewrite Ec; cbn; lia].
      * rewrite complete_fresh by assumption. unf; unfold mu; fields. rewrite Ec. cbn [c_mu app]. lia.
    + cbn [length] in Iw. rewrite Ha, G1 in Iw.
      destruct (wt s) as [|n] eqn:En; [lia|].
      eexists. split; [split; [eapply (S_c_wait _ _ _ s [] i y n); auto|]|].
      * unf; fields. split; [reflexivity|rewrite Ec; cbn; lia].
      * unf; unfold mu; fields. rewrite Ec. cbn [c_mu app]. lia.
Qed.

Lemma progress max s : 1 <= max -> Inv max s -> full (poster s) -> all_handled s \/ better max s.
Proof.
  intros Hm I Fu.
  pose proof I as [If Ip Iw Il Iok Ipl Ia Io Is Ir Ih Ic].
  destruct (adders s) as [|n] eqn:Ea.
  2:{ right. go S_add_signal. unf; unfold mu; fields. lia. }
  destruct (poster s) as [| | |r|r|r|c|n c|c|h c] eqn:Ep; cbn [full] in Fu; try contradiction.
  - destruct (waiting s) as [|i w] eqn:Ew.
    + apply progress_rest; auto.
    + right. cbn in Iw. destruct (wt s) as [|n] eqn:En; [lia|].
      go S_p_wait. unf; unfold mu; fields. rewrite Ep, Ew. cbn [p_mu length]. lia.
  - right. cbn in Il. destruct (waiting s) as [|i w] eqn:Ew.
    + go S_p_empty. unf; unfold mu; fields. rewrite Ep, Ew. cbn [p_mu]. lia.
    + go S_p_first. unf; unfold mu; fields. rewrite Ep, Ew. cbn [p_mu length]. lia.
  - right. go S_p_compensate. unf; unfold mu; fields. rewrite Ep. cbn [p_mu]. lia.
  - right. destruct (le_lt_dec 2 (fr s)) as [Hf|Hf].
    + destruct (waiting s) as [|i w] eqn:Ew.
      * go S_p_stop. unf; unfold mu; fields. rewrite Ep. cbn [p_mu]. lia.
      * eexists. split; [split; [eapply S_p_acquire; eauto; congruence|split; [reflexivity|cbn; lia]]|].
        unf; unfold mu; fields. rewrite Ep. cbn [p_mu]. lia.
    + eexists. split; [split; [eapply S_p_stop; eauto|split; [reflexivity|cbn; lia]]|].
      unf; unfold mu; fields. rewrite Ep. cbn [p_mu]. lia.
  - right. destruct (wt s) as [|n] eqn:En.
    + go S_p_giveback. unf; unfold mu; fields. rewrite Ep. cbn [p_mu]. lia.
    + cbn in Iok. destruct Iok as (_ & _ & Nw).
      destruct (waiting s) as [|i w] eqn:Ew; [congruence|].
      go S_p_more. unf; unfold mu; fields. rewrite Ep, Ew. cbn [p_mu length].
      rewrite app_length. cbn [length]. lia.
  - destruct (fr s) as [|n] eqn:En.
    + apply progress_rest; auto; right; eauto.
    + right. go S_p_last. unf; unfold mu; fields. rewrite Ep. cbn [p_mu].
      cbn in Iok. destruct Iok as (Nr & _). destruct r; [congruence|cbn [length]; lia].
  - right. cbn in Iok.
    assert (E : poster s = P_sub (c ++ [])) by (rewrite app_nil_r; exact Ep).
    eexists. split; [split; [eapply (S_p_submit _ _ _ s c []); auto|split; [reflexivity|cbn; lia]]|].
    unf; unfold mu; fields. rewrite Ep. cbn [p_mu]. rewrite app_length.
    destruct c; [congruence|cbn [length]; lia].
  - right. subst c. go S_p_signal. unf; unfold mu; fields. rewrite Ep. cbn [p_mu]. lia.
Qed.

Lemma can_finish max s : 1 <= max -> reach max false false s ->
  exists s', star (inner_step max false false) s s' /\ all_handled s'.
Proof.
  intros Hm. remember (mu s) as m eqn:Em. revert s Em.
  induction m as [m IH] using lt_wf_ind. intros s -> R.
  destruct (progress max s Hm (inv_reach _ _ _ R) (full_reach _ _ R)) as [A|(s1 & St & Lt)].
  - exists s. split; [constructor|assumption].
  - destruct (IH (mu s1) Lt s1 eq_refl) as (s2 & St2 & A).
    { eapply R_step; [exact R|]. apply St. }
    exists s2. split; [econstructor; eassumption|assumption].
Qed.

(** ** The deadlock when io_submit does not accept everything *)

Definition dead (c : list id) (s : st) : Prop :=
  poster s = P_han (H_wait 1) c /\ waiter s = W_get /\ po s = 0 /\ infl s = [] /\ dn s = [].

Lemma complete_pcs s i c :
  poster (complete s i c) = poster s /\ waiter (complete s i c) = waiter s /\
  po (complete s i c) = po s /\ infl (complete s i c) = infl s /\ dn (complete s i c) = dn s.
Proof. unfold complete. destruct existsb; auto. Qed.

Lemma dead_step max ps c s s' : Inv max s -> dead c s -> step max false ps s s' -> dead c s'.
Proof.
  intros I (Dp & Dw & Do & Di & Dd) H.
  pose proof (I_plain _ _ I) as Ipl.
  assert (NK : forall x k y, cancelers s = x ++ k :: y -> c_plain k).
  { intros x k y E. rewrite E in Ipl. apply Forall_app in Ipl. destruct Ipl as (_ & P).
    inversion P; assumption. }
  destruct H; try congruence; try (exfalso; exact (NK _ _ _ H0)); unfold dead; unf; fields; auto.
  - assert (h = H_wait 1) by congruence. subst h. inversion H1; subst. lia.
  - rewrite Dd in H1. inversion H1; subst. cbn in H2. lia.
  - rewrite Di in H0. destruct a; discriminate.
  - destruct (complete_pcs s i true) as (-> & -> & -> & -> & ->). auto.
Qed.

Lemma dead_forever max ps c s : reach max false ps s -> dead c s ->
  forall s', star (step max false ps) s s' -> reach max false ps s' /\ dead c s'.
Proof.
  intros R D s' St. induction St as [|s s1 s2 H St IH]; [auto|].
  apply IH.
  - eapply R_step; eassumption.
  - eapply dead_step; [|exact D|exact H]. eapply inv_reach; exact R.
Qed.

Lemma dead_unhandled max c s i : Inv max s -> dead c s -> In i c -> ~ was_handled s i.
Proof.
  intros I (Dp & _) Hi (b & Hb).
  pose proof (I_all _ _ I i) as A. pose proof (I_once _ _ I i) as O.
  rewrite Dp in A. cbn [p_reqs p_rem h_rem] in A.
  apply cnt_In in Hi.
  assert (K : In i (ccalls s)) by (rewrite <- (I_hand _ _ I); apply in_map_iff; exists (i, b); auto).
  apply cnt_In in K. lia.
Qed.

Ltac fwd_ R tac :=
  match type of R with reach ?m ?p ?q ?s =>
    let H := fresh "H" in let R' := fresh "R" in
    eassert (step m p q s _) as H;
      [tac; first [reflexivity | discriminate | left; reflexivity | apply take_all
                  | cbn; lia | cbn; intuition discriminate]
      |pose proof (R_step _ _ _ _ _ R H) as R'; clear H; clear R; rename R' into R;
       unf; cbn in R]
  end.
Tactic Notation "fwd" hyp(R) uconstr(c) := fwd_ R ltac:(eapply c).
Tactic Notation "fwdh" hyp(R) uconstr(c) uconstr(d) := fwd_ R ltac:(eapply c; [| |eapply d]).

Lemma reach_dead m : exists s, reach (S (S m)) false true s /\ dead [2] s /\ In 2 (added s).
Proof.
  pose proof (R_init (S (S m)) false true) as R. unfold init in R.
  fwd R (S_add _ _ _ _ 1).
  fwd R S_add_signal.
  fwd R S_p_wait.
  fwd R S_p_first.
  fwd R S_p_stop.
  fwd R S_p_last.
  fwd R (S_p_submit _ _ _ _ [1] []).
  fwd R S_p_signal.
  fwd R (S_kernel _ _ _ _ [] 1 []).
  fwd R (S_add _ _ _ _ 2).
  fwd R S_add_signal.
  fwd R S_p_wait.
  fwd R S_p_first.
  fwd R S_p_stop.
  fwd R S_p_last.
  fwd R S_p_again.
  fwd R S_w_wait.
  fwd R S_p_reap.
  fwdh R S_p_handle HS_free.
  fwdh R S_p_handle HS_comp.
  fwdh R S_p_handle HS_end.
  eexists. split; [exact R|]. split; [unfold dead; cbn; auto|cbn; auto].
Qed.

(** ** Cancellation of posted requests *)

Definition k_ok (s : st) (c : cpc) : Prop := match c with
  | C_compl _ => True
  | C_wait _ => True
  | K_han i (H_free e) => e = [i]
  | K_han i (H_comp rem k) => k = 1 /\ (rem = [i] \/ rem = [] /\ In i (ccalls s))
  | K_han i (H_wait k) => k = 1 /\ In i (ccalls s)
  | K_free i => In i (ccalls s)
  | K_compl i => In i (ccalls s)
  | K_wait i => crashed s = true /\ 2 <= cnt i (ccalls s)
  end.

Definition KInv (s : st) : Prop :=
  Forall (k_ok s) (cancelers s) /\ NoDup (map fst (handled s)) /\
  incl (map fst (handled s)) (ccalls s).

Lemma k_ok_mono s s' c : (forall i, cnt i (ccalls s) <= cnt i (ccalls s')) ->
  (crashed s = true -> crashed s' = true) -> k_ok s c -> k_ok s' c.
Proof.
  intros M C. assert (MI : forall i, In i (ccalls s) -> In i (ccalls s')).
  { intros i. rewrite !cnt_In. specialize (M i). lia. }
  destruct c as [| |i [e|rem k|k]| | |i]; cbn; intros H; intuition.
  specialize (M i). lia.
Qed.

Lemma complete_mono s i c j : cnt j (ccalls s) <= cnt j (ccalls (complete s i c)).
Proof. unfold complete. destruct existsb; cbn; lia. Qed.

Lemma complete_In s i c : In i (ccalls (complete s i c)).
Proof. unfold complete. destruct existsb; cbn; auto. Qed.

Lemma complete_handled s i c :
  NoDup (map fst (handled s)) -> incl (map fst (handled s)) (ccalls s) ->
  NoDup (map fst (handled (complete s i c))) /\
  incl (map fst (handled (complete s i c))) (ccalls (complete s i c)).
Proof.
  intros N I. unfold complete. destruct (existsb (Nat.eqb i) (ccalls s)) eqn:E; cbn.
  - split; [assumption|]. intros x Hx. right. auto.
  - split.
    + constructor; [|assumption]. intros K. apply I in K. apply existsb_cnt in E.
      apply cnt_In in K. lia.
    + intros x [->|Hx]; [left; reflexivity|right; auto].
Qed.

Lemma complete_crash s i c : crashed s = true -> crashed (complete s i c) = true.
Proof. unfold complete. destruct existsb; cbn; auto. Qed.

Lemma complete_cancelers s i c : cancelers (complete s i c) = cancelers s.
Proof. unfold complete. destruct existsb; reflexivity. Qed.

Lemma complete_again s i c : In i (ccalls s) ->
  crashed (complete s i c) = true /\ 2 <= cnt i (ccalls (complete s i c)).
Proof.
  intros H. apply cnt_In in H. unfold complete.
  destruct (existsb (Nat.eqb i) (ccalls s)) eqn:E.
  - cbn. rewrite Nat.eqb_refl. split; [reflexivity|lia].
  - apply existsb_cnt in E. lia.
Qed.

(** handle_events: the calls of completed() and the handlers. *)
Lemma hstep_mono c s h s' h' : hstep c s h s' h' ->
  (forall j, cnt j (ccalls s) <= cnt j (ccalls s')) /\
  (crashed s = true -> crashed s' = true) /\ cancelers s' = cancelers s /\
  (NoDup (map fst (handled s)) -> incl (map fst (handled s)) (ccalls s) ->
   NoDup (map fst (handled s')) /\ incl (map fst (handled s')) (ccalls s')).
Proof.
  destruct 1; unf; fields; auto.
  repeat split; try (intros; apply complete_mono); try apply complete_crash;
    try apply complete_cancelers; apply complete_handled; assumption.
Qed.

Lemma Forall_mid {X} (P : X -> Prop) a x b y :
  Forall P (a ++ x :: b) -> (P x -> P y) -> Forall P (a ++ y :: b).
Proof.
  intros F H. apply Forall_app in F. destruct F as (F1 & F2). inversion F2; subst.
  apply Forall_app. split; [assumption|constructor; auto].
Qed.

Lemma Forall_del {X} (P : X -> Prop) a x b : Forall P (a ++ x :: b) -> Forall P (a ++ b).
Proof.
  intros F. apply Forall_app in F. destruct F as (F1 & F2). inversion F2; subst.
  apply Forall_app. auto.
Qed.

Lemma kinv_step max pc ps s s' : KInv s -> step max pc ps s s' -> KInv s'.
Proof.
  intros (F & N & I) H.
  assert (Same : forall s', cancelers s' = cancelers s -> ccalls s' = ccalls s ->
            crashed s' = crashed s -> handled s' = handled s -> KInv s').
  { intros t E1 E2 E3 E4. unfold KInv. rewrite E1, E2, E4. split; [|auto].
    eapply Forall_impl; [|exact F]. intros c. apply k_ok_mono; [intros; rewrite E2; lia|congruence]. }
  destruct H; try (apply Same; unf; reflexivity).
  - (* poster handles *)
    destruct (hstep_mono _ _ _ _ _ H1) as (M & C & E & Hh). unfold KInv; unf; fields.
    rewrite E. split; [|auto]. eapply Forall_impl; [|exact F]. intros c0. apply k_ok_mono; auto.
  - destruct (hstep_mono _ _ _ _ _ H1) as (M & C & E & Hh). unfold KInv; unf; fields.
    rewrite E. split; [|auto]. eapply Forall_impl; [|exact F]. intros c0. apply k_ok_mono; auto.
  - unfold KInv; unf; fields. split; [|auto]. constructor; [exact Logic.I|].
    eapply Forall_impl; [|exact F]. intros c. apply k_ok_mono; auto.
  - rewrite H0 in F. unfold KInv; unf; fields.
    destruct (complete_handled s i true N I) as (N' & I'). split; [|auto].
    apply Forall_mid with (x := C_compl i); [|cbn; auto].
    eapply Forall_impl; [|exact F]. intros c.
    apply k_ok_mono; cbn; [intros; apply complete_mono|apply complete_crash].
  - rewrite H0 in F. unfold KInv; unf; fields. split; [|auto]. apply Forall_del in F.
    eapply Forall_impl; [|exact F]. intros c. apply k_ok_mono; auto.
  - unfold KInv; unf; fields. split; [|auto]. constructor; [reflexivity|].
    eapply Forall_impl; [|exact F]. intros c. apply k_ok_mono; auto.
  - rewrite H0 in F. destruct (hstep_mono _ _ _ _ _ H1) as (M & C & E & Hh).
    unfold KInv; unf; fields. destruct (Hh N I). split; [|auto].
    assert (F' : Forall (k_ok s') (x ++ K_han i h :: y)).
    { eapply Forall_impl; [|exact F]. intros c. apply k_ok_mono; auto. }
    assert (K : k_ok s (K_han i h)).
    { apply Forall_app in F. destruct F as (_ & F). inversion F; assumption. }
    apply Forall_mid with (y := K_han i h') in F'.
    + eapply Forall_impl; [|exact F']. intros c. apply k_ok_mono; auto.
    + intros _. inversion H1; subst; cbn in K |- *.
      * subst. split; [reflexivity|left; reflexivity].
      * destruct K as (-> & [K|(K & _)]); [|discriminate]. injection K as -> ->.
        split; [reflexivity|]. right. split; [reflexivity|apply complete_In].
      * destruct K as (-> & [K|(_ & K)]); [discriminate|]. auto.
  - rewrite H0 in F. destruct (hstep_mono _ _ _ _ _ H1) as (M & C & E & Hh).
    unfold KInv; unf; fields. destruct (Hh N I). split; [|auto].
    assert (F' : Forall (k_ok s') (x ++ K_han i h :: y)).
    { eapply Forall_impl; [|exact F]. intros c. apply k_ok_mono; auto. }
    apply Forall_mid with (y := K_free i) in F'.
    + eapply Forall_impl; [|exact F']. intros c. apply k_ok_mono; auto.
    + inversion H1; subst. cbn. tauto.
  - rewrite H0 in F. unfold KInv; unf; fields. split; [|auto].
    apply Forall_mid with (y := K_compl i) in F; [|cbn; auto].
    eapply Forall_impl; [|exact F]. intros c. apply k_ok_mono; auto.
  - rewrite H0 in F. unfold KInv; unf; fields.
    destruct (complete_handled s i true N I) as (N' & I'). split; [|auto].
    assert (K : k_ok s (K_compl i)).
    { apply Forall_app in F. destruct F as (_ & F). inversion F; assumption. }
    cbn in K. destruct (complete_again s i true K) as (Cr & Cn).
    apply Forall_mid with (x := K_compl i); [|intros _; cbn; auto].
    eapply Forall_impl; [|exact F]. intros c.
    apply k_ok_mono; cbn; [intros; apply complete_mono|apply complete_crash].
  - rewrite H0 in F. unfold KInv; unf; fields. split; [|auto]. apply Forall_del in F.
    eapply Forall_impl; [|exact F]. intros c. apply k_ok_mono; auto.
Qed.

Lemma kinv_reach max pc ps s : reach max pc ps s -> KInv s.
Proof.
  induction 1; [|eapply kinv_step; eassumption].
  repeat split; try constructor. intros x [].
Qed.
