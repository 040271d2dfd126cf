(** Acquired blocks keep their internal blocks. *)
From Coq Require Import ZArith List Bool Lia Permutation Arith.
From Verif Require Import BsModel BsSpec BsProofs PfModel PfSpec PfInv.
Import ListNotations.

Definition pin (p q : pst) : Prop := forall b i, 1 <= rc (B p b) -> int (B p b) = Some i -> int (B q b) = Some i /\ rc (B q b) = rc (B p b).

Lemma pin_refl p : pin p p.
Proof. intros b i. auto. Qed.
Lemma pin_trans p q r : pin p q -> pin q r -> pin p r.
Proof. intros H1 H2 b i K1 K2. destruct (H1 b i K1 K2) as (K3 & K4). destruct (H2 b i) as (K5 & K6); [lia|assumption|]. split; [assumption|lia]. Qed.
Lemma pin_same p q : (forall b, B q b = B p b) -> pin p q.
Proof. intros H b i. rewrite H. auto. Qed.
Lemma pin_set p q s b X : (forall y, y <> b -> blk s y = B p y) -> (forall i, 1 <= rc (B p b) -> int (B p b) = Some i -> int X = Some i /\ rc X = rc (B p b)) ->
  (forall y, B q y = upd (blk s) b X y) -> pin p q.
Proof.
  intros H K E y i K1 K2. rewrite E. destruct (Nat.eq_dec y b) as [->|n]; [rewrite upd_same; auto|]. rewrite upd_other, H by assumption. auto.
Qed.

Ltac inj H := injection H as <-.
Ltac sm := apply pin_same; intros; reflexivity.

Lemma pin_start_read p b t q : start_read p b t = Ok q -> pin p q.
Proof.
  unfold start_read, with_meta, bk. destruct (int (B p b)) as [i|] eqn:Ei; [|discriminate]. destruct (ext (B p b)); [|discriminate].
  destruct (sched p t); [|discriminate]. intros E. inj E. destruct (dirty (B p b)); [|sm].
  eapply (pin_set p _ (base p) b); [reflexivity| |intros; reflexivity]. intros j K1 K2. cbn. split; congruence.
Qed.
Lemma pin_act p a q : do_act p a = Ok q -> pin p q.
Proof.
  destruct a; cbn [do_act].
  - destruct (wq p b) as [w|]; [|intros E; inj E; apply pin_refl]. destruct (w_ph w); intros E; inj E; sm.
  - destruct (wq p b) as [w|]; [|intros E; inj E; apply pin_refl]. destruct (w_ph w); intros E; inj E; sm.
  - destruct (wq p b) as [w|]; [|intros E; inj E; apply pin_refl]. destruct (w_ph w); intros E; inj E; sm.
  - destruct (wq p b) as [w|]; [|intros E; inj E; apply pin_refl]. destruct (w_ph w); try (intros E; inj E; sm).
    unfold w_over. destruct (w_taker w) as [t|]; [|discriminate].
    destruct (start_read p (w_start w) t) as [p1| |] eqn:E1; try discriminate. cbn [bind]. intros E. inj E.
    eapply pin_trans; [eapply pin_start_read; eassumption|sm].
  - destruct (rds p k) as [r|]; [|intros E; inj E; apply pin_refl]. destruct (r_done r); intros E; inj E; sm.
Qed.
Lemma pin_acts l : forall p q, do_acts p l = Ok q -> pin p q.
Proof.
  induction l as [|a l IH]; intros p q E; cbn [do_acts] in E; [inj E; apply pin_refl|].
  destruct (do_act p a) as [p1| |] eqn:E1; try discriminate. eapply pin_trans; [eapply pin_act; eassumption|eapply IH; eassumption].
Qed.
Lemma pin_env p q : env p = Ok q -> pin p q.
Proof.
  unfold env. destruct (orc p); intros E; [inj E; apply pin_refl|]. eapply pin_trans; [|eapply pin_acts; eassumption]. sm.
Qed.
Lemma pin_wait_entry p b q : wait_entry p b = Ok q -> pin p q.
Proof.
  unfold wait_entry, await_w. destruct (env p) as [p1| |] eqn:E1; try discriminate. cbn [bind]. destruct (do_acts p1 _) as [p2| |] eqn:E2; try discriminate.
  cbn [bind]. intros E. inj E. eapply pin_trans; [eapply pin_env; eassumption|]. eapply pin_trans; [eapply pin_acts; eassumption|sm].
Qed.
Lemma pin_wait_id p b q : wait_id p b = Ok q -> pin p q.
Proof. unfold wait_id. destruct (wq p b); intros E; [eapply pin_wait_entry; eassumption|inj E; apply pin_refl]. Qed.
Lemma pin_wait_giver p t q : wait_giver p t = Ok q -> pin p q.
Proof.
  unfold wait_giver, with_meta. destruct (sched p t) as [m|]; [|discriminate]. destruct (fst (m_giver m)); [|intros E; inj E; apply pin_refl].
  destruct (wait_id p _) as [p1| |] eqn:E1; try discriminate. cbn [bind]. destruct (sched p1 t); [|discriminate]. intros E. inj E.
  eapply pin_trans; [eapply pin_wait_id; eassumption|sm].
Qed.
Lemma pin_wait_on_read p t q : wait_on_read p t = Ok q -> pin p q.
Proof.
  unfold wait_on_read, with_meta. destruct (wait_giver p t) as [p1| |] eqn:E1; try discriminate. cbn [bind]. destruct (sched p1 t) as [m|]; [|discriminate].
  apply pin_wait_giver in E1. destruct (m_read m) as [k|]; [|intros E; inj E; assumption].
  unfold await_r. destruct (env p1) as [p2| |] eqn:E2; try discriminate. cbn [bind]. destruct (do_act p2 (RT k)) as [p3| |] eqn:E3; try discriminate. cbn [bind].
  destruct (sched p3 t); [|discriminate]. intros E. inj E. eapply pin_trans; [eassumption|]. eapply pin_trans; [eapply pin_env; eassumption|].
  eapply pin_trans; [eapply pin_act; eassumption|sm].
Qed.
Lemma pin_get_ready p t q i : get_ready p t = Ok (q, i) -> pin p q.
Proof.
  unfold get_ready, with_meta. destruct (wait_giver p t) as [p1| |] eqn:E1; try discriminate. cbn [bind]. destruct (sched p1 t) as [m|]; [|discriminate].
  intros E. injection E as <- <-. eapply pin_trans; [eapply pin_wait_giver; eassumption|sm].
Qed.
Lemma pin_attach p b i q : attach p b i = Ok q -> pin p q.
Proof.
  unfold attach, is_internal, bk. destruct (int (B p b)) eqn:Ei; [discriminate|]. intros E. inj E.
  eapply (pin_set p _ (base p) b); [reflexivity| |intros; reflexivity]. congruence.
Qed.

Section Oracles.
Variable pick : nat -> list nat -> nat.
Variable dflt : option Z.

Lemma pin_clean s b s1 : clean pick s b = Ok s1 -> (forall y, y <> b -> blk s1 y = blk s y) /\ rc (blk s1 b) = rc (blk s b).
Proof.
  unfold clean. destruct (negb (dirty (blk s b))); [intros E; inj E; auto|]. destruct (ext (blk s b)) as [e|].
  - destruct (int (blk s b)) eqn:E2; [|discriminate]. intros E. inj E. cbn. split; [intros; apply upd_other; assumption|rewrite upd_same; reflexivity].
  - cbn. destruct (int (blk s b)) eqn:E2; [|discriminate]. intros E. inj E. cbn. split; [intros; apply upd_other; assumption|rewrite upd_same; reflexivity].
Qed.
Lemma pin_detach p b q i : pdetach pick p b = Ok (q, i) -> pin p q.
Proof.
  unfold pdetach, detach. destruct (is_evictable (B p b)) eqn:Ee; [|discriminate]. cbn [negb]. destruct (clean pick (base p) b) as [s1| |] eqn:Ec; try discriminate. cbn [bind].
  destruct (int (blk s1 b)); [|discriminate]. cbn [bind]. intros E. injection E as <- <-. destruct (pin_clean _ _ _ Ec) as (K1 & K2).
  eapply (pin_set p _ s1 b); [assumption| |intros; reflexivity]. intros j K3 _. exfalso. unfold is_evictable, is_acquired in Ee. destruct (Nat.ltb_spec 0 (rc (B p b))); [|lia].
  cbn in Ee. rewrite ?andb_false_r in Ee. discriminate.
Qed.
Lemma pin_schedule_write p b q x : schedule_write pick p b = Ok (q, x) -> pin p q.
Proof.
  unfold schedule_write, bk. destruct (dirty (B p b)); cbn [negb]; [|intros E; injection E as <- <-; apply pin_refl].
  destruct (ext (B p b)) as [e|]; [|unfold new_ext]; cbv zeta; (destruct (int (B p b)) as [i|] eqn:Ei; [|discriminate]); (destruct (wq p b); [discriminate|]); intros E; injection E as <- <-.
  - eapply (pin_set p _ (base p) b); [reflexivity| |intros; reflexivity]. cbn. intros; split; congruence.
  - match goal with |- pin _ ?q => assert (K : forall y, B q y = upd (blk (base p)) b (mkSb (Some (pick (ncall (base p)) (used (base p)))) (Some i) false (rc (B p b))) y) by reflexivity end.
    eapply (pin_set p _ (base p) b); [reflexivity| |exact K]. cbn. intros; split; congruence.
Qed.
Lemma pin_try p b q x : try_interrupt p b = Ok (q, x) -> pin p q.
Proof.
  unfold try_interrupt. destruct (wq p b) as [w|]; [|discriminate]. destruct (env _) as [p1| |] eqn:E1; try discriminate. cbn [bind].
  apply pin_env in E1. assert (K : pin p p1) by (eapply pin_trans; [|exact E1]; sm).
  destruct (wq p1 b) as [w1|]; [|discriminate]. destruct (negb (done_soon w1)); [intros E; injection E as <- <-; assumption|].
  destruct (w_taker w1) as [t|]; [|discriminate]. destruct (wait_entry p1 b) as [p2| |] eqn:E2; try discriminate. cbn [bind]. unfold with_meta.
  destruct (sched p2 t); [|discriminate]. intros E. injection E as <- <-. eapply pin_trans; [eassumption|]. eapply pin_wait_entry. eassumption.
Qed.
Lemma pin_fix_taker p t q : fix_taker p t = Ok q -> pin p q.
Proof.
  unfold fix_taker, with_meta. destruct (sched p t) as [m|]; [|discriminate]. destruct (fst (m_giver m)); [|intros E; inj E; apply pin_refl].
  destruct (wq p (snd (m_giver m))); intros E; inj E; sm.
Qed.
Lemma pin_swap p o b q : swap_givers p o b = Ok q -> pin p q.
Proof.
  unfold swap_givers, with_meta. destruct (sched p o) as [mo|]; [|discriminate]. destruct (sched p b) as [mb|]; [|discriminate].
  destruct (sched (put_meta p o _) b); [|discriminate]. match goal with |- bind (fix_taker ?x _) _ = _ -> _ => set (p2 := x) end.
  destruct (fix_taker p2 o) as [p3| |] eqn:E3; try discriminate. cbn [bind]. intros E. eapply pin_trans; [|eapply pin_trans; [eapply pin_fix_taker; exact E3|eapply pin_fix_taker; exact E]].
  sm.
Qed.
Lemma pin_start_or_after p b q : start_or_after p b = Ok q -> pin p q.
Proof.
  unfold start_or_after, with_meta. destruct (sched p b) as [m|]; [|discriminate]. destruct (fst (m_giver m)); [|apply pin_start_read].
  destruct (wq p (snd (m_giver m))) as [w|].
  - destruct (env _) as [p1| |] eqn:E1; try discriminate. cbn [bind]. apply pin_env in E1. assert (K : pin p p1) by (eapply pin_trans; [|exact E1]; sm).
    destruct (wq p1 _) as [w1|]; [|discriminate]. destruct (done_soon w1); [|intros E; inj E; assumption].
    destruct (wait_entry p1 _) as [p2| |] eqn:E2; try discriminate. cbn [bind]. apply pin_wait_entry in E2. assert (K2 : pin p p2) by (eapply pin_trans; eassumption).
    destruct (sched p2 b) as [m2|]; [|discriminate]. destruct (m_read m2); intros E.
    + inj E. eapply pin_trans; [exact K2|sm].
    + eapply pin_trans; [exact K2|]. eapply pin_trans; [|eapply pin_start_read; exact E]. sm.
  - intros E. eapply pin_trans; [|eapply pin_start_read; exact E]. sm.
Qed.
Lemma pin_schedule_read n : forall p b q, schedule_read pick n p b = Ok q -> pin p q.
Proof.
  induction n as [|n IH]; intros p b q; cbn [schedule_read].
  all: destruct (wq p b) as [w|]; [|apply pin_start_or_after]; destruct (w_shall w).
  all: destruct (w_taker w) as [o|]; [|discriminate].
  all: try (destruct (try_interrupt p b) as [(p1, x)| |] eqn:E1; try discriminate; cbn [bind]; apply pin_try in E1; destruct x;
            [|intros E; eapply pin_trans; [exact E1|eapply pin_start_or_after; exact E]]).
  all: match goal with |- bind (swap_givers ?p0 _ _) _ = _ -> _ => destruct (swap_givers p0 o b) as [p2| |] eqn:E2; try discriminate end; cbn [bind]; apply pin_swap in E2.
  all: destruct (pdetach pick p2 b) as [(p3, i)| |] eqn:E3; try discriminate; cbn [bind]; apply pin_detach in E3.
  1,3: destruct (pdetach pick p3 o) as [(p4, j)| |] eqn:E4; try discriminate; cbn [bind]; apply pin_detach in E4;
       destruct (attach p4 b (Some j)) as [p5| |] eqn:E5; try discriminate; cbn [bind]; apply pin_attach in E5;
       destruct (attach p5 o (Some i)) as [p6| |] eqn:E6; try discriminate; cbn [bind]; apply pin_attach in E6; try discriminate;
       intros E; apply IH in E; eauto 10 using pin_trans.
  all: unfold with_meta; destruct (sched p3 o) as [mo|]; [|discriminate]; destruct (attach p3 b (m_res mo)) as [p4| |] eqn:E4; try discriminate; cbn [bind]; apply pin_attach in E4;
       destruct (sched p4 o); [|discriminate]; intros E; inj E; eapply pin_trans; [exact E2|]; eapply pin_trans; [exact E3|]; eapply pin_trans; [exact E4|sm].
Qed.
Lemma pin_get_free p s1 i : get_free (base p) = Some (s1, i) -> forall y, blk s1 y = B p y.
Proof.
  unfold get_free. destruct (free_i (base p)); [destruct (Nat.ltb 0 (remaining (base p))); [|discriminate]|]; intros E; injection E as <- <-; reflexivity.
Qed.
Lemma pin_reserve p b q x : reserve pick p b = Ok (q, x) -> pin p q.
Proof.
  unfold reserve, with_meta. destruct (sched p b) as [m|]; [|discriminate]. destruct (get_free (base p)) as [(s1, i)|] eqn:Eg.
  - intros E. injection E as <- <-. apply pin_same. intros y. cbn. eapply pin_get_free. eassumption.
  - destruct (pop_least (fe p)) as [(g, r)|]; [|intros E; injection E as <- <-; apply pin_refl].
    destruct (match sched p g with Some mg => keep (dirty (bk p g)) (m_ops mg) | None => false end); [discriminate|].
    destruct (schedule_write pick (set_fe p r) g) as [(p1, wr)| |] eqn:E1; try discriminate. cbn [bind]. apply pin_schedule_write in E1.
    destruct (pdetach pick p1 g) as [(p2, i)| |] eqn:E2; try discriminate. cbn [bind]. apply pin_detach in E2.
    destruct (sched p2 b) as [m2|]; [|discriminate].
    assert (K : pin p p2) by (eapply pin_trans; [exact E1|exact E2]).
    destruct wr; [destruct (wq _ g); [|discriminate]|]; intros E; injection E as <- <-; (eapply pin_trans; [exact K|sm]).
Qed.
Lemma pin_prefetch p b q : prefetch pick p b = Ok q -> pin p q.
Proof.
  unfold prefetch, with_meta. destruct (sched p b) as [m|]; [|discriminate]. destruct (attach p b (m_res m)) as [p1| |] eqn:E1; try discriminate. cbn [bind]. apply pin_attach in E1.
  intros E. apply pin_schedule_read in E. eapply pin_trans; [exact E1|]. eapply pin_trans; [|exact E]. sm.
Qed.
Lemma move_se_B p b y : B (move_se p b) y = B p y.
Proof. unfold move_se. destruct (has b (fe p)); reflexivity. Qed.
Lemma pin_sched_one p k b q x : sched_one pick p k b = Ok (q, x) -> pin p q.
Proof.
  unfold sched_one. destruct (negb (Nat.ltb b (nblk (base p)))); [discriminate|].
  match goal with |- context [if is_acq k then _ else _] => set (p1 := match sched p b with None => _ | Some m => _ end) end.
  assert (K1 : forall y, B p1 y = B p y) by (intros y; subst p1; destruct (sched p b); reflexivity).
  destruct (is_acq k).
  - destruct (is_internal (bk p b)); [intros E; injection E as <- <-; apply pin_same; intros y; rewrite move_se_B; apply K1|].
    unfold with_meta. destruct (sched p1 b) as [m|]; [|discriminate]. destruct (m_res m); [intros E; injection E as <- <-; apply pin_same; assumption|].
    destruct (reserve pick p1 b) as [(p2, ok)| |] eqn:E2; try discriminate. cbn [bind]. apply pin_reserve in E2.
    assert (K2 : pin p p2) by (eapply pin_trans; [apply pin_same; exact K1|exact E2]). destruct ok.
    + destruct (sched p2 b) as [m2|]; [|discriminate]. destruct (to_read (bk p2 b) (m_ops m2)).
      * destruct (prefetch pick p2 b) as [p3| |] eqn:E3; try discriminate. cbn [bind]. intros E. injection E as <- <-. eapply pin_trans; [exact K2|]. eapply pin_prefetch. eassumption.
      * intros E. injection E as <- <-. assumption.
    + intros E. injection E as <- <-. eapply pin_trans; [exact K2|]. destruct (sched p b); sm.
  - assert (K2 : pin p p1) by (apply pin_same; assumption).
    destruct k; try (intros E; injection E as <- <-; assumption). intros E. injection E as <- <-.
    destruct (dirty (bk p b)); [|assumption]. apply pin_same. intros y. rewrite move_se_B. apply K1.
Qed.
Lemma pin_write_all l : forall p q, write_all pick p l = Ok q -> pin p q.
Proof.
  induction l as [|b l IH]; intros p q; cbn [write_all]; [intros E; inj E; apply pin_refl|]. destruct (wq p b); [apply IH|].
  destruct (schedule_write pick p b) as [(p1, x)| |] eqn:E1; try discriminate. cbn [bind]. intros E. eapply pin_trans; [eapply pin_schedule_write; eassumption|apply IH; assumption].
Qed.
Lemma pin_sched_loop l : forall p q, sched_loop pick l p = Ok q -> pin p q.
Proof.
  induction l as [|(k, b) l IH]; intros p q; cbn [sched_loop]; [apply pin_write_all|].
  destruct (sched_one pick p k b) as [(p1, x)| |] eqn:E1; try discriminate. cbn [bind]. apply pin_sched_one in E1. destruct x; intros E.
  - apply IH in E. eapply pin_trans; [exact E1|]. eapply pin_trans; [|exact E]. sm.
  - inj E. assumption.
Qed.
Lemma pin_sched_next p q : sched_next pick p = Ok q -> pin p q.
Proof. apply pin_sched_loop. Qed.
Lemma pin_op_done p b q : op_done p b = Ok q -> pin p q.
Proof.
  unfold op_done, with_meta. destruct (sched p b) as [m|]; [|discriminate]. destruct (m_ops m) as [|k [|k' r]]; [discriminate| |intros E; inj E; sm].
  destruct (fst (m_giver m)); [discriminate|]. intros E. inj E. sm.
Qed.
Lemma next_is_B p k b q : next_is p k b = Ok q -> forall y, B q y = B p y.
Proof.
  unfold next_is. destruct (pseqn p) as [|(k', b') r]; [discriminate|]. destruct (kind_eqb k k' && Nat.eqb b b'); [|discriminate]. intros E. inj E. reflexivity.
Qed.

(** Only the internal block. *)
Definition kept (c : nat) (p q : pst) : Prop := int (B q c) = int (B p c).
Lemma kept_pin c p q i : pin p q -> 1 <= rc (B p c) -> int (B p c) = Some i -> int (B q c) = Some i.
Proof. intros H K1 K2. apply (H c i K1 K2). Qed.

Lemma kept_acquire p b un q i c j : pacquire dflt p b un = Ok (q, i) -> 1 <= rc (B p c) -> int (B p c) = Some j -> int (B q c) = Some j.
Proof.
  unfold pacquire. intros E K1 K2. destruct (next_is p _ b) as [p1| |] eqn:E1; try discriminate. cbn [bind] in E. pose proof (next_is_B _ _ _ _ E1) as Eb.
  rewrite <- Eb in K1, K2. destruct (negb (scheduled_op p1 _ b)); [discriminate|].
  match type of E with bind ?x _ = _ => destruct x as [p2| |] eqn:E2 end; try discriminate. cbn [bind] in E.
  assert (P2 : pin p1 p2).
  { destruct (is_internal (bk p1 b)).
    - destruct (negb (is_acquired (bk p1 b))); [|inj E2; apply pin_refl]. destruct (has b (se p1)); [|discriminate].
      apply pin_wait_on_read in E2. eapply pin_trans; [|exact E2]. sm.
    - destruct (negb (un || negb (sb_initialized (bk p1 b)))); [discriminate|]. destruct (get_ready p1 b) as [(p3, x)| |] eqn:E3; try discriminate. cbn [bind] in E2.
      eapply pin_trans; [eapply pin_get_ready; eassumption|eapply pin_attach; eassumption]. }
  destruct (P2 c j K1 K2) as (K3 & K4). unfold bk in E. destruct (int (B p2 b)) as [i2|] eqn:Ei; [|discriminate].
  match type of E with bind (op_done ?x _) _ = _ => set (p3 := x) in * end. destruct (op_done p3 b) as [p4| |] eqn:E4; try discriminate. cbn [bind] in E. injection E as <- <-.
  apply pin_op_done in E4.
  assert (E5 : forall y, B p3 y = upd (blk (base p2)) b (mkSb (ext (B p2 b)) (Some i2) (dirty (B p2 b)) (S (rc (B p2 b)))) y).
  { intros y. subst p3. destruct (is_internal (blk (base p1) b) || un); [reflexivity|]. destruct dflt; reflexivity. }
  apply (kept_pin c p3 p4 j E4); rewrite E5; (destruct (Nat.eq_dec c b) as [->|n]; [rewrite upd_same; cbn; try lia; congruence|rewrite upd_other by assumption; try lia; assumption]).
Qed.
Lemma kept_release p b d q c j : prelease pick p b d = Ok q -> 1 <= rc (B p c) -> int (B p c) = Some j -> (c = b -> rc (B p c) <> 1) -> int (B q c) = Some j.
Proof.
  unfold prelease. intros E K1 K2 Hr. destruct (next_is p _ b) as [p1| |] eqn:E1; try discriminate. cbn [bind] in E. pose proof (next_is_B _ _ _ _ E1) as Eb.
  rewrite <- Eb in K1, K2, Hr. destruct (negb (scheduled_op p1 _ b)); [discriminate|]. destruct (negb (is_acquired (bk p1 b))); [discriminate|].
  unfold bk in E. set (B1 := mkSb (ext (B p1 b)) (int (B p1 b)) (d || dirty (B p1 b)) (rc (B p1 b) - 1)) in *. cbv zeta in E.
  set (p2 := set_base p1 (set_b (base p1) b B1)) in *.
  assert (Q1 : 1 <= rc (B p2 c)).
  { subst p2. cbn. destruct (Nat.eq_dec c b) as [->|n]; [rewrite upd_same; cbn; specialize (Hr eq_refl); lia|rewrite upd_other; assumption]. }
  assert (Q2 : int (B p2 c) = Some j).
  { subst p2. cbn. destruct (Nat.eq_dec c b) as [->|n]; [rewrite upd_same; assumption|rewrite upd_other; assumption]. }
  unfold with_meta in E. destruct (sched p2 b) as [m|]; [|discriminate].
  match type of E with bind ?x _ = _ => destruct x as [p3| |] eqn:E3 end; try discriminate. cbn [bind] in E. apply pin_op_done in E.
  apply (kept_pin c p2 q j); auto. eapply pin_trans; [|exact E]. clear E.
  destruct (is_acquired B1); [inj E3; apply pin_refl|]. destruct (dirty B1 || is_external B1).
  - destruct (keep (dirty B1) (tl (m_ops m))).
    + destruct (to_clean (tl (m_ops m))); [|inj E3; sm]. destruct (schedule_write pick _ b) as [(p4, x)| |] eqn:E4; try discriminate. inj E3.
      eapply pin_trans; [|eapply pin_schedule_write; exact E4]. sm.
    + destruct (uns (set_fe p2 (ins b (fe p2)))).
      * destruct (wq _ b); [inj E3; sm|]. destruct (schedule_write pick _ b) as [(p4, x)| |] eqn:E4; try discriminate. inj E3.
        eapply pin_trans; [|eapply pin_schedule_write; exact E4]. sm.
      * eapply pin_trans; [|eapply pin_sched_next; exact E3]. sm.
  - destruct (pdetach pick p2 b) as [(p4, i)| |] eqn:E4; try discriminate. cbn [bind] in E3. apply pin_detach in E4. eapply pin_trans; [exact E4|].
    destruct (keep (dirty B1) (tl (m_ops m))).
    + destruct (sched p4 b); [|discriminate]. inj E3. sm.
    + destruct (uns (set_base p4 (return_free (base p4) i))); [inj E3; sm|]. eapply pin_trans; [|eapply pin_sched_next; exact E3]. sm.
Qed.
Lemma pin_deinitialize p b q : pdeinitialize pick p b = Ok q -> pin p q.
Proof.
  unfold pdeinitialize. intros E. destruct (next_is p _ b) as [p1| |] eqn:E1; try discriminate. cbn [bind] in E. pose proof (next_is_B _ _ _ _ E1) as Eb.
  eapply pin_trans; [apply pin_same; exact Eb|]. clear E1 Eb p.
  destruct (negb (scheduled_op p1 _ b)); [discriminate|]. unfold with_meta in E. destruct (sched p1 b) as [m|]; [|discriminate].
  match type of E with bind ?x _ = _ => destruct x as [p2| |] eqn:E2 end; try discriminate. cbn [bind] in E.
  assert (Eb : forall y, B p2 y = B p1 y).
  { destruct (is_evictable (bk p1 b)); [|inj E2; reflexivity]. destruct (keep (dirty (bk p1 b)) (m_ops m)); repeat match type of E2 with (if ?x then _ else _) = _ => destruct x end; try discriminate; inj E2; reflexivity. }
  clear E2. destruct (is_acquired (bk p1 b)) eqn:Ea; [discriminate|]. unfold bk in *.
  match type of E with bind (match int _ with None => Ok ?x | _ => _ end) _ = _ => set (p3 := x) in * end.
  assert (P3 : pin p1 p3).
  { eapply (pin_set p1 _ (base p2) b); [intros; apply Eb| |intros y; subst p3; cbn; destruct (ext (B p1 b)); reflexivity].
    intros i K. unfold is_acquired in Ea. apply Nat.ltb_ge in Ea. lia. }
  match type of E with bind ?x _ = _ => destruct x as [p4| |] eqn:E4 end; try discriminate. cbn [bind] in E. apply pin_op_done in E.
  eapply pin_trans; [exact P3|]. eapply pin_trans; [|exact E]. clear E.
  destruct (int (B p1 b)) as [i|]; [|inj E4; apply pin_refl]. destruct (keep false (tl (m_ops m))).
  - destruct (sched p3 b); [|discriminate]. inj E4. sm.
  - destruct (uns (set_base p3 (return_free (base p3) i))); [inj E4; sm|]. eapply pin_trans; [|eapply pin_sched_next; exact E4]. sm.
Qed.
Lemma pin_initialize p b e q : pinitialize pick p b e = Ok q -> pin p q.
Proof.
  unfold pinitialize. intros E. destruct (next_is p _ b) as [p1| |] eqn:E1; try discriminate. cbn [bind] in E. pose proof (next_is_B _ _ _ _ E1) as Eb.
  eapply pin_trans; [apply pin_same; exact Eb|]. clear E1 Eb p.
  destruct (negb (scheduled_op p1 _ b)); [discriminate|]. destruct (sb_initialized (bk p1 b)); [discriminate|]. unfold with_meta in E.
  match type of E with match sched ?x b with _ => _ end = _ => set (p2 := x) in * end.
  assert (P2 : pin p1 p2).
  { eapply (pin_set p1 _ (base p1) b); [reflexivity| |intros; reflexivity]. cbn. auto. }
  eapply pin_trans; [exact P2|]. destruct (sched p2 b) as [m|]; [|discriminate].
  destruct (to_read (bk p2 b) (tl (m_ops m))).
  - destruct (prefetch pick p2 b) as [p3| |] eqn:E3; try discriminate. cbn [bind] in E. eapply pin_trans; [eapply pin_prefetch; eassumption|eapply pin_op_done; eassumption].
  - eapply pin_op_done. eassumption.
Qed.

Lemma pin_extract p b q e : pextract p b = Ok (q, e) -> pin p q.
Proof.
  unfold pextract. intros E. destruct (next_is p _ b) as [p1| |] eqn:E1; try discriminate. cbn [bind] in E. pose proof (next_is_B _ _ _ _ E1) as Eb.
  eapply pin_trans; [apply pin_same; exact Eb|]. clear E1 Eb p. destruct (negb (scheduled_op p1 _ b)); [discriminate|].
  destruct (wait_id p1 b) as [p2| |] eqn:E2; try discriminate. cbn [bind] in E. apply pin_wait_id in E2.
  destruct (op_done p2 b) as [p3| |] eqn:E3; try discriminate. cbn [bind] in E. apply pin_op_done in E3.
  destruct (is_internal (bk p3 b)) eqn:Ei; [discriminate|]. injection E as <- <-. eapply pin_trans; [exact E2|]. eapply pin_trans; [exact E3|].
  eapply (pin_set p3 _ (base p3) b); [reflexivity| |intros; reflexivity]. cbn. auto.
Qed.

Lemma kept_do p o q x c j : o <> Flush -> pdo pick dflt p o = Ok (q, x) -> 1 <= rc (B p c) -> int (B p c) = Some j ->
  (forall d, o = Rel c d -> rc (B p c) <> 1) -> int (B q c) = Some j.
Proof.
  intros Hs E K1 K2 Hr. unfold pdo in E. destruct (env p) as [p1| |] eqn:E1; try discriminate. cbn [bind] in E. apply pin_env in E1.
  destruct (E1 c j K1 K2) as (K3 & K4). rewrite <- K4 in K1, Hr. clear K2.
  destruct o.
  - destruct (pacquire dflt p1 b un) as [(p2, i)| |] eqn:E2; try discriminate. injection E as <- <-. eapply kept_acquire; eassumption.
  - destruct (prelease pick p1 b d) as [p2| |] eqn:E2; try discriminate. injection E as <- <-. eapply kept_release; [exact E2|assumption|assumption|].
    intros ->. apply (Hr d). reflexivity.
  - destruct (pdeinitialize pick p1 b) as [p2| |] eqn:E2; try discriminate. injection E as <- <-. eapply kept_pin; [eapply pin_deinitialize; exact E2|assumption|assumption].
  - destruct (pinitialize pick p1 b e) as [p2| |] eqn:E2; try discriminate. injection E as <- <-. eapply kept_pin; [eapply pin_initialize; exact E2|assumption|assumption].
  - destruct (pextract p1 b) as [(p2, e)| |] eqn:E2; try discriminate. injection E as <- <-. eapply kept_pin; [eapply pin_extract; exact E2|assumption|assumption].
  - destruct (negb _); [discriminate|]. injection E as <- <-. assumption.
  - destruct (free_s (base p1)) as [|b r] eqn:Ef; [discriminate|]. unfold allocate in E. rewrite Ef in E. injection E as <- <-. assumption.
  - destruct (pdeinitialize pick p1 b) as [p2| |] eqn:E2; try discriminate. injection E as <- <-. apply pin_deinitialize in E2. apply (E2 c j K1 K3).
  - contradiction.
  - injection E as <- <-. assumption.
  - discriminate.
  - discriminate.
  - discriminate.
  - destruct (negb _); [discriminate|]. destruct (int _); [|discriminate]. injection E as <- <-. assumption.
  - destruct (negb _); [discriminate|]. destruct (int _); [|discriminate]. injection E as <- <-. assumption.
  - injection E as <- <-. assumption.
  - injection E as <- <-. assumption.
  - injection E as <- <-. assumption.
  - injection E as <- <-. assumption.
Qed.
End Oracles.
