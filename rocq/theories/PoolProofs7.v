(** Pools: coherence of whole executions. *)

From Coq Require Import ZArith List Bool Lia Permutation.
From Verif Require Import PoolModel PoolSpec PoolProofs PoolProofs2 PoolProofs3 PoolProofs4
  PoolProofs5 PoolProofs6.
Import ListNotations.

Lemma CI_cancel_read : forall L p w s own al d e,
  SI p w s own al -> CI L (Some d) (p_busy p) (w_busy w) s ->
  In e (p_busy p) -> p_bid e = d -> is_read s (p_req e) = true ->
  CI L (Some d) (p_busy p) (w_busy w) (cancel s (p_req e)).
Proof.
  intros L p w s own al d e I0 C E EB RD. unfold is_read in RD.
  destruct (nth_error (io_reqs s) (p_req e)) as [q|] eqn:N; [|discriminate].
  apply negb_true_iff in RD.
  pose proof (cancel_evol s (p_req e)) as EV. revert EV. unfold cancel. rewrite N.
  destruct (q_st q) eqn:P; auto. intros EV.
  set (s' := set_st s (p_req e) q Finished) in *. set (i := p_req e) in *.
  assert (NS : forall j q', nth_error (io_reqs s') j = Some q' ->
    (j = i /\ q' = with_st q Finished) \/ (j <> i /\ nth_error (io_reqs s) j = Some q'))
    by (intros; eapply nth_set; eauto).
  assert (U : forall d j, unf s' d j <-> unf s d j).
  { intros d0 j; split; [apply (unf_evol _ _ _ _ EV); auto|].
    intros (q' & N' & A & B & D). exists q'. csplit; auto.
    unfold s'. rewrite nth_set_other; auto. intros ->. congruence. }
  assert (NP : forall j, notpend s' j -> notpend s j \/ j = i).
  { intros j (q' & N' & A). destruct (NS _ _ N') as [(-> & _)|(_ & B)]; auto.
    left; exists q'; auto. }
  constructor.
  - intros j q' N'. destruct (NS _ _ N') as [(-> & ->)|(_ & B)]; cbn; eapply c0; eauto.
  - intros d0 H. cbn. apply (c1 _ _ _ _ _ C). intros j X. apply (H j). apply U; auto.
  - intros j q' N' W' F M. destruct (NS _ _ N') as [(-> & ->)|(NE & B)]; [cbn in F; congruence|].
    cbn. apply (c2 _ _ _ _ _ C j q'); auto. intros; apply M; apply U; auto.
  - intros x E' A. destruct (c3 _ _ _ _ _ C x E' A) as (X & Y & Z). csplit; auto.
    + intros j UJ; apply Y; apply U in UJ; tauto.
    + intros NPE j J UJ. apply U in UJ. destruct (NP _ NPE) as [NPE'|EI].
      * apply (Z NPE' j J); tauto.
      * exfalso. eapply wp_entry_disj; [exact I0|exact E'|exact E|exact EI].
  - intros x E' We NPE j J UJ. apply U in UJ. apply (is_write_evol _ _ _ EV) in We.
    destruct (NP _ NPE) as [NPE'|EI].
    + apply (c4 _ _ _ _ _ C x E' We NPE' j J); tauto.
    + destruct We as (q' & N' & W'). rewrite EI, N in N'. congruence.
  - intros x E' SK. destruct (c4' _ _ _ _ _ C x E' SK) as (X & Y & Z). csplit; auto.
    + intros We. apply (is_write_evol _ _ _ EV) in We. destruct (Y We) as (Y1 & Y2).
      split; auto. intros j UJ; apply Y2; apply U in UJ; tauto.
    + intros We. assert (We' : ~ is_write s (p_req x)) by (intro; apply We; apply (is_write_evol _ _ _ EV); auto).
      destruct (Z We') as (Z1 & Z2). split; [intros j UJ; apply U in UJ; apply (Z1 j); tauto|].
      intros F. apply Z2. apply finished_spec in F. destruct F as (q' & N' & F).
      destruct (NS _ _ N') as [(EI & ->)|(NE & B)]; [|apply finished_spec; eauto].
      exfalso. apply SK. assert (x = e) by (eapply p_entry_inj; eauto). subst x. congruence.
  - intros d0 j UJ. apply U in UJ.
    destruct (c5 _ _ _ _ _ C d0 j UJ) as [X|(x & E1 & E2 & E3 & E4)]; auto.
    right; exists x; csplit; auto. apply (is_write_evol _ _ _ EV); auto.
  - intros j q' N' W' R k K UK. apply U in UK.
    destruct (NS _ _ N') as [(-> & ->)|(_ & B)]; cbn in *; [discriminate|].
    apply (c7 _ _ _ _ _ C j q' B W' R k K); tauto.
  - apply (c8 _ _ _ _ _ C).
Qed.

Lemma CI_invalidate : forall L skip p w s d p' s' r own al,
  p_invalidate true p s d p' s' r -> SI p w s own al ->
  CI L skip (p_busy p) (w_busy w) s -> (skip = None \/ skip = Some d) ->
  CI L None (p_busy p') (w_busy w) s'.
Proof.
  intros L skip p w s d p' s' r own al H I0 C SK.
  assert (C' : CI L (Some d) (p_busy p) (w_busy w) s)
    by (destruct SK as [->| ->]; auto; apply CI_weaken; auto).
  destruct H; [eapply CI_none; eauto|]. cbn [p_busy].
  destruct (p_find_in _ _ _ H) as (E & EB).
  pose proof (SI_evol _ _ _ _ _ _ I0 (env_evol _ _ _ H0)) as I1.
  pose proof (CI_env _ _ _ _ _ _ _ _ H0 I0 C') as C1.
  eapply CI_remove_p with (skip := Some d); eauto; [|apply (si_keys _ _ _ _ _ I0)].
  destruct (is_read s1 (p_req e)) eqn:R.
  - eapply CI_env; [exact H1| |].
    + eapply SI_evol; [exact I1|apply cancel_evol].
    + eapply CI_cancel_read; eauto.
  - eapply CI_env; eauto.
Qed.

Lemma CI_hint : forall L p w s d p' w' s' r own al,
  p_hint p w s d p' w' s' r -> SI p w s own al -> b_storage d <> O ->
  CI L None (p_busy p) (w_busy w) s -> CI L None (p_busy p') (w_busy w') s'.
Proof.
  intros L p w s d p' w' s' r own al H I0 SD C. destruct H; auto; cbn [p_busy].
  - destruct (steal_request_split _ _ _ _ _ H3) as (e & l1 & l2 & EQ & -> & EB & -> & ->).
    cbn [w_add w_busy]. eapply CI_transfer; eauto.
  - eapply CI_post_read; eauto.
Qed.

Lemma CI_rw_write : forall L p w s b d p' w' s' own al,
  rw_write true p w s b d p' w' s' -> SI p w s (b :: own) al -> b_storage d <> O ->
  CI L None (p_busy p) (w_busy w) s ->
  CI (upd L d (io_mem s b)) None (p_busy p') (w_busy w') s'.
Proof.
  intros L p w s b d p' w' s' own al H I0 SD C. destruct H.
  - pose proof (SI_write _ _ _ _ _ _ _ _ _ _ _ H I0) as I1.
    eapply CI_invalidate; eauto. eapply CI_write; eauto.
  - pose proof (SI_write _ _ _ _ _ _ _ _ _ _ _ H I0) as I1.
    pose proof (proj1 (SI_invalidate _ _ _ _ _ _ _ _ _ _ H0 I1)) as I2.
    eapply CI_hint; eauto. eapply CI_invalidate; eauto. eapply CI_write; eauto.
Qed.

Lemma p_set_erase : forall d b r l, p_find d l = None ->
  p_erase d (p_set (MkP d b r) l) = l.
Proof.
  intros d b r l F. apply p_find_none in F. unfold p_set, p_erase; cbn.
  rewrite bid_eqb_refl; cbn. fold (p_erase d l). rewrite (p_erase_none d l F).
  apply p_erase_none; auto.
Qed.

Lemma CI_p_content : forall L p w s e,
  CI L None (p_busy p) (w_busy w) s -> In e (p_busy p) -> finished s (p_req e) = true ->
  io_mem s (p_buf e) = L (p_bid e).
Proof.
  intros L p w s e C E F. destruct (c4' _ _ _ _ _ C e E ltac:(discriminate)) as (_ & Y & Z).
  destruct (is_write_dec s (p_req e)) as [W|W].
  - apply Y; auto.
  - apply Z; auto.
Qed.

Lemma CI_read : forall L p w s b d p' w' s1 b' r own al s',
  p_read p w s b d p' w' s1 b' r -> SI p w s (b :: own) al -> b_storage d <> O ->
  CI L None (p_busy p) (w_busy w) s -> env true s1 s' -> finished s' r = true ->
  CI L None (p_busy p') (w_busy w') s' /\ io_mem s' b' = L d.
Proof.
  intros L p w s b d p' w' s1 b' r own al s' H I0 SD C EV F. destruct H; cbn [p_busy].
  - pose proof (CI_env _ _ _ _ _ _ _ _ EV I0 C) as C1.
    destruct (p_find_in _ _ _ H) as (E & EB). split.
    + eapply CI_remove_p; eauto. apply (si_keys _ _ _ _ _ I0).
    + rewrite <- EB. eapply CI_p_content; eauto.
  - destruct (steal_request_split _ _ _ _ _ H1) as (e & l1 & l2 & EQ & -> & EB & -> & ->).
    pose proof (CI_env _ _ _ _ _ _ _ _ EV I0 C) as C1. cbn [w_add w_busy].
    assert (E : In e (w_busy w)) by (rewrite EQ; apply in_mid; auto). split.
    + rewrite EQ in C1. eapply CI_remove_w; eauto.
    + rewrite <- EB. apply (c3 _ _ _ _ _ C1 e E). congruence.
  - set (e := MkP d b (length (io_reqs s))).
    set (p1 := MkPP (p_free p) (p_fsize p) (p_set e (p_busy p))).
    pose proof (SI_post_p _ _ _ _ _ _ _ I0 H SD) as I1. fold e in I1. fold p1 in I1.
    assert (C1 : CI L None (p_busy p1) (w_busy w) (post s false b d))
      by (eapply CI_post_read; eauto).
    pose proof (CI_env _ _ _ _ _ _ _ _ EV I1 C1) as C2.
    assert (PF : p_find d (p_busy p1) = Some e) by (cbn; rewrite bid_eqb_refl; auto).
    split.
    + rewrite <- (p_set_erase d b (length (io_reqs s)) (p_busy p) H).
      eapply CI_remove_p; eauto. apply (si_keys _ _ _ _ _ I1).
    + change b with (p_buf e). change d with (p_bid e).
      eapply CI_p_content; eauto. left; auto.
Qed.

Lemma CI_check : forall L p own al l s mv rest s',
  w_check true l s mv rest s' -> forall f pre,
  SI p (MkWP f (pre ++ l)) s own al -> CI L None (p_busy p) (pre ++ l) s ->
  CI L None (p_busy p) (pre ++ rest) s'.
Proof.
  intros L p own al l s mv rest s' H; induction H; intros f pre I0 C; auto.
  - pose proof (CI_env _ _ p (MkWP f (pre ++ e :: l)) _ _ _ _ H I0 C) as C1.
    apply SI_evol with (s' := s1) in I0; [|eapply env_evol; eauto].
    apply SI_remove_w with (l1 := pre) (e := e) (l2 := l) in I0; auto.
    apply (IHw_check (f ++ [e_buf e]) pre).
    + eapply SI_free; [exact I0|reflexivity|reflexivity|apply I0|]. clear; perm.
    + eapply CI_remove_w; eauto.
  - pose proof (CI_env _ _ p (MkWP f (pre ++ e :: l)) _ _ _ _ H I0 C) as C1.
    apply SI_evol with (s' := s1) in I0; [|eapply env_evol; eauto].
    specialize (IHw_check f (pre ++ [e])). rewrite <- !app_assoc in IHw_check. auto.
Qed.

Lemma CI_steal : forall L p w s w' s' b own al,
  w_steal true w s w' s' b -> SI p w s own al ->
  CI L None (p_busy p) (w_busy w) s -> CI L None (p_busy p) (w_busy w') s'.
Proof.
  intros L p w s w' s' b own al H I0 C. destruct H; auto. cbn [w_busy].
  pose proof (CI_env _ _ _ _ _ _ _ _ H0 I0 C) as C1. rewrite H1 in C1.
  apply SI_evol with (s' := s1) in I0; [|eapply env_evol; eauto].
  eapply SI_remove_w in I0; eauto.
  eapply (CI_check _ _ _ _ _ _ _ _ _ H3 _ []); [exact I0|].
  cbn [app]. eapply CI_remove_w; eauto.
Qed.

Lemma CI_steals : forall L p k w s w' s' bs,
  w_steals true k w s w' s' bs -> forall own al, SI p w s own al ->
  CI L None (p_busy p) (w_busy w) s -> CI L None (p_busy p) (w_busy w') s'.
Proof.
  intros L p k w s w' s' bs H; induction H; intros own al I0 C; auto.
  eapply IHw_steals.
  - eapply SI_steal; eauto.
  - eapply CI_steal; eauto.
Qed.

(** ** Executions *)

Definition next_expected (L : bid -> Z) (a : act) : bid -> Z :=
  match a with AWrite _ d v => upd L d v | _ => L end.

Definition CIx (L : bid -> Z) (x : st) : Prop :=
  CI L None (p_busy (s_p x)) (w_busy (s_w x)) (s_io x).

Lemma step_CI : forall L x a y al,
  step true x a y -> rw_client a -> SIx x al -> CIx L x ->
  CIx (next_expected L a) y /\
  match a with ARead d b v => v = L d | _ => True end.
Proof.
  intros L x a y al H W (I0 & LT) C.
  destruct H; cbn [rw_client] in W; try contradiction;
    cbn [s_p s_w s_io s_own s_next] in I0, LT;
    unfold CIx, next_expected in *; cbn [s_p s_w s_io s_own s_next] in *.
  - split; auto. eapply CI_env; eauto.
  - split; auto. eapply CI_mem; eauto. intros i b0 EN. unfold set_mem.
    destruct (Nat.eqb b0 b) eqn:E; auto. apply Nat.eqb_eq in E; subst b0. exfalso.
    assert (P : Permutation (w_bufs w ++ p_bufs p ++ own)
       ((map e_buf (w_busy w) ++ map p_buf (p_busy p)) ++ (w_free w ++ p_free p ++ own)))
      by (clear; perm).
    pose proof (Permutation_NoDup P (si_nodup _ _ _ _ _ I0)) as N.
    eapply nodup_app_disj; [exact N| |].
    + apply entry_pairs in EN. rewrite <- pairs_bufs.
      exact (in_map snd _ _ EN).
    + rewrite !in_app_iff; auto.
  - auto.
  - split; auto. eapply CI_rw_write; eauto. eapply SI_perm; eauto.
  - eapply SI_perm in I0; eauto. eapply CI_read; eauto.
  - split; auto. eapply CI_hint; eauto.
  - split; auto. eapply CI_invalidate; eauto.
  - split; auto. eapply CI_steal; eauto.
  - auto.
  - auto.
  - split; auto. destruct H; auto.
  - split; auto. destruct H; auto. eapply CI_steals; eauto.
  - split; auto. destruct H; auto.
  - split; auto.
    destruct (steal_request_split _ _ _ _ _ H0) as (e & l1 & l2 & EQ & -> & EB & -> & ->).
    pose proof (CI_env _ _ _ _ _ _ _ _ H1 I0 C) as C1. rewrite EQ in C1.
    cbn [w_busy]. eapply CI_remove_w; eauto.
Qed.

Lemma rw_client_waiting : forall a, rw_client a -> waiting a.
Proof. destruct a; cbn; auto. Qed.

Lemma expected_cons : forall L a h d, expected L (a :: h) d = expected (next_expected L a) h d.
Proof. intros; destruct a; cbn; auto. Qed.

Lemma run_CI : forall x l y, run true x l y -> forall L, Forall rw_client l ->
  (exists al, SIx x al) -> CIx L x ->
  CIx (fun d => expected L l d) y /\ coherent L l /\ exists al, SIx y al.
Proof.
  intros x l y H; induction H; intros L W (al & I0) C.
  - csplit; eauto. intros [|? ?] d b v h2 E; discriminate.
  - inversion W; subst.
    destruct (step_CI _ _ _ _ _ H H3 I0 C) as (C1 & R).
    destruct (step_SI _ _ _ _ _ H (rw_client_waiting _ H3) I0) as (_ & al' & I1 & _).
    destruct (IHrun _ H4 (ex_intro _ al' I1) C1) as (C2 & CO & I2). csplit; auto.
    + destruct a; exact C2.
    + intros h1 d b v h2 E. destruct h1 as [|a' h1]; cbn [app] in E; inversion E; subst.
      * cbn in R. exact R.
      * rewrite expected_cons. eapply CO; reflexivity.
Qed.

Lemma CIx_init : forall np nw m disk, CIx disk (init np nw m disk).
Proof.
  intros. constructor; cbn; intros; auto; try contradiction;
    try (destruct i; discriminate).
  - destruct H as (q & N & _). destruct i; discriminate.
  - constructor.
Qed.

(** ** No older write keeps waiting behind a newer one *)

Definition newest_waits (s : io) : Prop :=
  forall i q j q', nth_error (io_reqs s) i = Some q -> q_write q = true -> q_st q = Pending ->
    nth_error (io_reqs s) j = Some q' -> q_write q' = true -> q_bid q' = q_bid q -> (j <= i)%nat.

Lemma evol_newest : forall s s', evol s s' -> newest_waits s -> newest_waits s'.
Proof.
  intros s s' E G i q j q' N W P N' W' B.
  destruct (evol_back _ _ _ _ E N) as (q0 & N0 & A1 & A2 & A3 & A4).
  destruct (evol_back _ _ _ _ E N') as (q1 & N1 & B1 & B2 & B3 & B4).
  rewrite P in A4. destruct (q_st q0) eqn:S0; cbn in A4; try contradiction.
  eapply (G i q0 j q1); eauto; congruence.
Qed.

Lemma env_newest : forall fifo s s', env fifo s s' -> newest_waits s -> newest_waits s'.
Proof. intros. eapply evol_newest; eauto. eapply env_evol; eauto. Qed.

Lemma post_read_newest : forall s b d, newest_waits s -> newest_waits (post s false b d).
Proof.
  intros s b d G i q j q' N W P N' W' B.
  destruct (post_inv _ _ _ _ _ _ N) as [N0|(_ & ->)]; [|discriminate].
  destruct (post_inv _ _ _ _ _ _ N') as [N1|(_ & ->)]; [|discriminate].
  eapply (G i q j q'); eauto.
Qed.

(** After write_pool::write only the prefetch pool can hold an older waiting
    write. *)
Lemma write_newest : forall L p w s own al b d w' s' r,
  w_write true w s b d w' s' r ->
  SI p w s (b :: own) al -> CI L None (p_busy p) (w_busy w) s -> b_storage d <> O ->
  newest_waits s ->
  forall i q j q', nth_error (io_reqs s') i = Some q -> q_write q = true -> q_st q = Pending ->
    nth_error (io_reqs s') j = Some q' -> q_write q' = true -> q_bid q' = q_bid q ->
    (j <= i)%nat \/ exists e, In e (p_busy p) /\ p_bid e = d /\ p_req e = i.
Proof.
  intros L p w s own al b d w' s' r H I0 C SD G. destruct H.
  assert (M : exists s0, SI p w s0 (b :: own) al /\ CI L None (p_busy p) (w_busy w) s0 /\
    newest_waits s0 /\ evol s0 s1 /\
    forall e, In e (w_busy w) -> e_bid e = d -> forall q, nth_error (io_reqs s1) (e_req e) = Some q -> q_st q <> Pending).
  { destruct (mark_inv _ _ _ _ _ _ _ H SD (c8 _ _ _ _ _ C))
      as [(-> & -> & X)|(l1 & e & l2 & s0 & EQ & A & B & -> & -> & X)].
    - exists s; csplit; auto; [apply evol_refl|]. intros e E EB. exfalso. apply (X e); auto.
    - exists s0. csplit; auto.
      + eapply SI_evol; eauto. eapply env_evol; eauto.
      + eapply CI_env; eauto.
      + eapply env_newest; eauto.
      + apply cancel_evol.
      + intros e' E' EB' q N P. rewrite EQ in E'. apply in_mid in E'.
        destruct E' as [->|E']; [|apply (X e'); auto].
        unfold cancel in N. destruct (nth_error (io_reqs s0) (e_req e)) as [q0|] eqn:N0.
        * destruct (q_st q0) eqn:P0; try congruence.
          rewrite (nth_set_same _ _ _ _ N0) in N. inversion N; subst. discriminate.
        * congruence. }
  destruct M as (s0 & I1 & C1 & G1 & EV & MK). clear H I0 C G.
  intros i q j q' N W P N' W' B.
  destruct (post_inv _ _ _ _ _ _ N) as [N0|(-> & ->)].
  2: { left. apply nth_lt in N'. cbn in N'. rewrite app_length in N'; cbn in N'. lia. }
  destruct (post_inv _ _ _ _ _ _ N') as [N1|(-> & ->)].
  { left. eapply (evol_newest _ _ EV G1 i q j q'); eauto. }
  right. cbn in B.
  destruct (evol_back _ _ _ _ EV N0) as (q0 & M0 & A1 & A2 & A3 & A4).
  rewrite P in A4. destruct (q_st q0) eqn:S0; cbn in A4; try contradiction.
  assert (U : unf s0 d i) by (exists q0; csplit; auto; congruence).
  destruct (c5 _ _ _ _ _ C1 d i U) as [(e & E1 & E2 & E3)|(e & E1 & E2 & E3 & E4)].
  - exfalso. destruct (si_w _ _ _ _ _ I1 e E1) as (qe & Ne & We & _ & Be).
    assert (Be' : q_bid qe = d) by (destruct Be; congruence).
    assert (e_req e <= i)%nat by (eapply (G1 i q0 (e_req e) qe); eauto; congruence).
    assert (EI : e_req e = i) by lia. subst i. apply (MK e E1 E2 q N0 P).
  - exists e; csplit; auto. destruct E3 as (qe & Ne & We).
    destruct (si_p _ _ _ _ _ I1 e E1) as (qe' & Ne' & _ & Be & _).
    assert (p_req e <= i)%nat; [|lia].
    eapply (G1 i q0 (p_req e) qe); eauto; congruence.
Qed.

Lemma invalidate_evol : forall fifo p s d p' s' r,
  p_invalidate fifo p s d p' s' r -> evol s s'.
Proof.
  intros fifo p s d p' s' r H; destruct H; [apply evol_refl|].
  eapply evol_trans; [eapply env_evol; eauto|].
  eapply evol_trans; [|eapply env_evol; eauto].
  destruct (is_read s1 (p_req e)); [apply cancel_evol|apply evol_refl].
Qed.

Lemma hint_newest : forall p w s d p' w' s' r,
  p_hint p w s d p' w' s' r -> newest_waits s -> newest_waits s'.
Proof. intros p w s d p' w' s' r H G; destruct H; auto. apply post_read_newest; auto. Qed.

Lemma write_invalidate_newest : forall L p w s b d w1 s1 r p1 s2 h own al,
  w_write true w s b d w1 s1 r -> p_invalidate true p s1 d p1 s2 h ->
  SI p w s (b :: own) al -> b_storage d <> O ->
  CI L None (p_busy p) (w_busy w) s -> newest_waits s -> newest_waits s2.
Proof.
  intros L p w s b d w1 s1 r p1 s2 h own al H HI I0 SD C G.
  pose proof (write_newest _ _ _ _ _ _ _ _ _ _ _ H I0 C SD G) as M.
  pose proof (invalidate_evol _ _ _ _ _ _ _ HI) as EV.
  intros i q j q' N W P N' W' B.
  destruct (evol_back _ _ _ _ EV N) as (q0 & N0 & A1 & A2 & A3 & A4).
  destruct (evol_back _ _ _ _ EV N') as (q1 & N1 & B1 & B2 & B3 & B4).
  rewrite P in A4. destruct (q_st q0) eqn:S0; cbn in A4; try contradiction.
  destruct (M i q0 j q1) as [|(e & E1 & E2 & E3)]; auto; try congruence.
  exfalso. destruct HI.
  - apply p_find_none in H0. apply H0. rewrite <- E2. apply in_map; auto.
  - destruct (p_find_in _ _ _ H0) as (F1 & F2).
    assert (e0 = e) by (eapply NoDup_map_inj; [apply (si_keys _ _ _ _ _ I0)|auto|auto|congruence]).
    subst e0. apply finished_spec in H3. destruct H3 as (qf & Nf & Ff). congruence.
Qed.

Lemma check_evol : forall fifo l s mv rest s', w_check fifo l s mv rest s' -> evol s s'.
Proof.
  intros fifo l s mv rest s' H; induction H; [apply evol_refl| |];
    (eapply evol_trans; [eapply env_evol; eauto|auto]).
Qed.
Lemma steal_evol : forall fifo w s w' s' b, w_steal fifo w s w' s' b -> evol s s'.
Proof.
  intros fifo w s w' s' b H; destruct H; [apply evol_refl|].
  eapply evol_trans; [eapply env_evol; eauto|eapply check_evol; eauto].
Qed.
Lemma steals_evol : forall fifo k w s w' s' bs, w_steals fifo k w s w' s' bs -> evol s s'.
Proof.
  intros fifo k w s w' s' bs H; induction H; [apply evol_refl|].
  eapply evol_trans; [eapply steal_evol; eauto|auto].
Qed.

Lemma step_newest : forall L x a y al,
  step true x a y -> rw_client a -> SIx x al -> CIx L x ->
  newest_waits (s_io x) -> newest_waits (s_io y).
Proof.
  intros L x a y al H W (I0 & LT) C G. unfold CIx in C.
  destruct H; cbn [rw_client] in W; try contradiction;
    cbn [s_p s_w s_io s_own s_next] in *; auto.
  - eapply env_newest; eauto.
  - eapply SI_perm in I0; eauto. destruct H1.
    + eapply write_invalidate_newest; eauto.
    + eapply hint_newest; eauto. eapply write_invalidate_newest; eauto.
  - eapply env_newest; eauto. destruct H1; auto. apply post_read_newest; auto.
  - eapply hint_newest; eauto.
  - eapply evol_newest; [eapply invalidate_evol; eauto|auto].
  - eapply evol_newest; [eapply steal_evol; eauto|auto].
  - destruct H; auto. eapply evol_newest; [eapply steals_evol; eauto|auto].
  - eapply env_newest; eauto.
Qed.

Lemma run_newest : forall x l y, run true x l y -> forall L, Forall rw_client l ->
  (exists al, SIx x al) -> CIx L x -> newest_waits (s_io x) -> newest_waits (s_io y).
Proof.
  intros x l y H; induction H; intros L W (al & I0) C G; auto.
  inversion W; subst.
  destruct (step_CI _ _ _ _ _ H H3 I0 C) as (C1 & _).
  destruct (step_SI _ _ _ _ _ H (rw_client_waiting _ H3) I0) as (_ & al' & I1 & _).
  eapply IHrun; eauto. eapply step_newest; eauto.
Qed.
