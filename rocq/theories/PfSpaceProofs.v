(** External blocks with the prefetching algorithm: what is in use belongs to a
    swappable block or to the client. *)
From Coq Require Import ZArith List Bool Lia Permutation Arith.
From Verif Require Import BsModel BsSpec BsProofs BsProofs4 BsSpaceProofs PfModel PfSpec PfInv PfProofs4 PfProofs12 PfProofs13 PfProofs14.
Import ListNotations.

Definition pg (p q : pst) : Prop := gr (base p) (base q).

Lemma pg_refl p : pg p p.
Proof. apply gr_refl. Qed.
Lemma pg_trans p q r : pg p q -> pg q r -> pg p r.
Proof. apply gr_trans. Qed.
Lemma pg_same p q : (forall b, B q b = B p b) -> used (base q) = used (base p) -> pg p q.
Proof. intros H E. apply gr_same; [|assumption]. intros b e. rewrite H. auto. Qed.
Lemma pg_set p q s b X : (forall y, y <> b -> blk s y = B p y) -> (forall e, ext (B p b) = Some e -> ext X = Some e) ->
  (forall y, B q y = upd (blk s) b X y) -> used (base q) = used (base p) -> pg p q.
Proof.
  intros H K E U. apply gr_same; [|assumption]. intros y e K1. rewrite E. destruct (Nat.eq_dec y b) as [->|n]; [rewrite upd_same; auto|]. rewrite upd_other, H by assumption. auto.
Qed.

Ltac inj H := injection H as <-.
Ltac sm := apply pg_same; intros; reflexivity.

Lemma pg_start_read p b t q : start_read p b t = Ok q -> pg p q.
Proof.
  unfold start_read, with_meta, bk. destruct (int (B p b)) as [i|] eqn:Ei; [|discriminate]. destruct (ext (B p b)) eqn:Ee; [|discriminate].
  destruct (sched p t); [|discriminate]. intros E. inj E. destruct (dirty (B p b)); [|sm].
  eapply (pg_set p _ (base p) b); [reflexivity| |intros; reflexivity|reflexivity]. cbn. congruence.
Qed.
Lemma pg_act p a q : do_act p a = Ok q -> pg p q.
Proof.
  destruct a; cbn [do_act].
  - destruct (wq p b) as [w|]; [|intros E; inj E; apply pg_refl]. destruct (w_ph w); intros E; inj E; sm.
  - destruct (wq p b) as [w|]; [|intros E; inj E; apply pg_refl]. destruct (w_ph w); intros E; inj E; sm.
  - destruct (wq p b) as [w|]; [|intros E; inj E; apply pg_refl]. destruct (w_ph w); intros E; inj E; sm.
  - destruct (wq p b) as [w|]; [|intros E; inj E; apply pg_refl]. destruct (w_ph w); try (intros E; inj E; sm).
    unfold w_over. destruct (w_taker w) as [t|]; [|discriminate].
    destruct (start_read p (w_start w) t) as [p1| |] eqn:E1; try discriminate. cbn [bind]. intros E. inj E.
    eapply pg_trans; [eapply pg_start_read; eassumption|sm].
  - destruct (rds p k) as [r|]; [|intros E; inj E; apply pg_refl]. destruct (r_done r); intros E; inj E; sm.
Qed.
Lemma pg_acts l : forall p q, do_acts p l = Ok q -> pg p q.
Proof.
  induction l as [|a l IH]; intros p q E; cbn [do_acts] in E; [inj E; apply pg_refl|].
  destruct (do_act p a) as [p1| |] eqn:E1; try discriminate. eapply pg_trans; [eapply pg_act; eassumption|eapply IH; eassumption].
Qed.
Lemma pg_env p q : env p = Ok q -> pg p q.
Proof.
  unfold env. destruct (orc p); intros E; [inj E; apply pg_refl|]. eapply pg_trans; [|eapply pg_acts; eassumption]. sm.
Qed.
Lemma pg_wait_entry p b q : wait_entry p b = Ok q -> pg p q.
Proof.
  unfold wait_entry, await_w. destruct (env p) as [p1| |] eqn:E1; try discriminate. cbn [bind]. destruct (do_acts p1 _) as [p2| |] eqn:E2; try discriminate.
  cbn [bind]. intros E. inj E. eapply pg_trans; [eapply pg_env; eassumption|]. eapply pg_trans; [eapply pg_acts; eassumption|sm].
Qed.
Lemma pg_wait_id p b q : wait_id p b = Ok q -> pg p q.
Proof. unfold wait_id. destruct (wq p b); intros E; [eapply pg_wait_entry; eassumption|inj E; apply pg_refl]. Qed.
Lemma pg_wait_giver p t q : wait_giver p t = Ok q -> pg p q.
Proof.
  unfold wait_giver, with_meta. destruct (sched p t) as [m|]; [|discriminate]. destruct (fst (m_giver m)); [|intros E; inj E; apply pg_refl].
  destruct (wait_id p _) as [p1| |] eqn:E1; try discriminate. cbn [bind]. destruct (sched p1 t); [|discriminate]. intros E. inj E.
  eapply pg_trans; [eapply pg_wait_id; eassumption|sm].
Qed.
Lemma pg_wait_on_read p t q : wait_on_read p t = Ok q -> pg p q.
Proof.
  unfold wait_on_read, with_meta. destruct (wait_giver p t) as [p1| |] eqn:E1; try discriminate. cbn [bind]. destruct (sched p1 t) as [m|]; [|discriminate].
  apply pg_wait_giver in E1. destruct (m_read m) as [k|]; [|intros E; inj E; assumption].
  unfold await_r. destruct (env p1) as [p2| |] eqn:E2; try discriminate. cbn [bind]. destruct (do_act p2 (RT k)) as [p3| |] eqn:E3; try discriminate. cbn [bind].
  destruct (sched p3 t); [|discriminate]. intros E. inj E. eapply pg_trans; [eassumption|]. eapply pg_trans; [eapply pg_env; eassumption|].
  eapply pg_trans; [eapply pg_act; eassumption|sm].
Qed.
Lemma pg_get_ready p t q i : get_ready p t = Ok (q, i) -> pg p q.
Proof.
  unfold get_ready, with_meta. destruct (wait_giver p t) as [p1| |] eqn:E1; try discriminate. cbn [bind]. destruct (sched p1 t) as [m|]; [|discriminate].
  intros E. injection E as <- <-. eapply pg_trans; [eapply pg_wait_giver; eassumption|sm].
Qed.
Lemma pg_attach p b i q : attach p b i = Ok q -> pg p q.
Proof.
  unfold attach, is_internal, bk. destruct (int (B p b)) eqn:Ei; [discriminate|]. intros E. inj E.
  eapply (pg_set p _ (base p) b); [reflexivity| |intros; reflexivity|reflexivity]. cbn. congruence.
Qed.

Section Oracles.
Variable pick : nat -> list nat -> nat.
Variable dflt : option Z.
Hypothesis Fresh : fresh_blocks pick.

Lemma pg_detach p b q i : pdetach pick p b = Ok (q, i) -> pg p q.
Proof.
  unfold pdetach. destruct (detach pick (base p) b) as [[s j]| |] eqn:E; try discriminate. cbn [bind]. intros K. injection K as <- <-.
  exact (gr_detach pick Fresh _ _ _ _ E).
Qed.
Lemma pg_schedule_write p b q x : schedule_write pick p b = Ok (q, x) -> pg p q.
Proof.
  unfold schedule_write, bk. destruct (dirty (B p b)); cbn [negb]; [|intros E; injection E as <- <-; apply pg_refl].
  destruct (ext (B p b)) as [e|] eqn:Ee; [|unfold new_ext]; cbv zeta; (destruct (int (B p b)) as [i|] eqn:Ei; [|discriminate]); (destruct (wq p b); [discriminate|]); intros E; injection E as <- <-.
  - eapply (pg_set p _ (base p) b); [reflexivity| |intros; reflexivity|reflexivity]. cbn. congruence.
  - unfold pg, gr. cbn. split; [|split; [|split]].
    + intros N. constructor; [apply Fresh|assumption].
    + intros y e' He. unfold upd. destruct (Nat.eqb y b) eqn:Ey; [|assumption]. apply Nat.eqb_eq in Ey. congruence.
    + intros e' [<-|H]; [right|auto]. exists b. rewrite upd_same. reflexivity.
    + auto.
Qed.
Lemma pg_try p b q x : try_interrupt p b = Ok (q, x) -> pg p q.
Proof.
  unfold try_interrupt. destruct (wq p b) as [w|]; [|discriminate]. destruct (env _) as [p1| |] eqn:E1; try discriminate. cbn [bind].
  apply pg_env in E1. assert (K : pg p p1) by (eapply pg_trans; [|exact E1]; sm).
  destruct (wq p1 b) as [w1|]; [|discriminate]. destruct (negb (done_soon w1)); [intros E; injection E as <- <-; assumption|].
  destruct (w_taker w1) as [t|]; [|discriminate]. destruct (wait_entry p1 b) as [p2| |] eqn:E2; try discriminate. cbn [bind]. unfold with_meta.
  destruct (sched p2 t); [|discriminate]. intros E. injection E as <- <-. eapply pg_trans; [eassumption|]. eapply pg_wait_entry. eassumption.
Qed.
Lemma pg_fix_taker p t q : fix_taker p t = Ok q -> pg p q.
Proof.
  unfold fix_taker, with_meta. destruct (sched p t) as [m|]; [|discriminate]. destruct (fst (m_giver m)); [|intros E; inj E; apply pg_refl].
  destruct (wq p (snd (m_giver m))); intros E; inj E; sm.
Qed.
Lemma pg_swap p o b q : swap_givers p o b = Ok q -> pg p q.
Proof.
  unfold swap_givers, with_meta. destruct (sched p o) as [mo|]; [|discriminate]. destruct (sched p b) as [mb|]; [|discriminate].
  destruct (sched (put_meta p o _) b); [|discriminate]. match goal with |- bind (fix_taker ?x _) _ = _ -> _ => set (p2 := x) end.
  destruct (fix_taker p2 o) as [p3| |] eqn:E3; try discriminate. cbn [bind]. intros E. eapply pg_trans; [|eapply pg_trans; [eapply pg_fix_taker; exact E3|eapply pg_fix_taker; exact E]].
  sm.
Qed.
Lemma pg_start_or_after p b q : start_or_after p b = Ok q -> pg p q.
Proof.
  unfold start_or_after, with_meta. destruct (sched p b) as [m|]; [|discriminate]. destruct (fst (m_giver m)); [|apply pg_start_read].
  destruct (wq p (snd (m_giver m))) as [w|].
  - destruct (env _) as [p1| |] eqn:E1; try discriminate. cbn [bind]. apply pg_env in E1. assert (K : pg p p1) by (eapply pg_trans; [|exact E1]; sm).
    destruct (wq p1 _) as [w1|]; [|discriminate]. destruct (done_soon w1); [|intros E; inj E; assumption].
    destruct (wait_entry p1 _) as [p2| |] eqn:E2; try discriminate. cbn [bind]. apply pg_wait_entry in E2. assert (K2 : pg p p2) by (eapply pg_trans; eassumption).
    destruct (sched p2 b) as [m2|]; [|discriminate]. destruct (m_read m2); intros E.
    + inj E. eapply pg_trans; [exact K2|sm].
    + eapply pg_trans; [exact K2|]. eapply pg_trans; [|eapply pg_start_read; exact E]. sm.
  - intros E. eapply pg_trans; [|eapply pg_start_read; exact E]. sm.
Qed.
Lemma pg_schedule_read n : forall p b q, schedule_read pick n p b = Ok q -> pg p q.
Proof.
  induction n as [|n IH]; intros p b q; cbn [schedule_read].
  all: destruct (wq p b) as [w|]; [|apply pg_start_or_after]; destruct (w_shall w).
  all: destruct (w_taker w) as [o|]; [|discriminate].
  all: try (destruct (try_interrupt p b) as [(p1, x)| |] eqn:E1; try discriminate; cbn [bind]; apply pg_try in E1; destruct x;
            [|intros E; eapply pg_trans; [exact E1|eapply pg_start_or_after; exact E]]).
  all: match goal with |- bind (swap_givers ?p0 _ _) _ = _ -> _ => destruct (swap_givers p0 o b) as [p2| |] eqn:E2; try discriminate end; cbn [bind]; apply pg_swap in E2.
  all: destruct (pdetach pick p2 b) as [(p3, i)| |] eqn:E3; try discriminate; cbn [bind]; apply pg_detach in E3.
  1,3: destruct (pdetach pick p3 o) as [(p4, j)| |] eqn:E4; try discriminate; cbn [bind]; apply pg_detach in E4;
       destruct (attach p4 b (Some j)) as [p5| |] eqn:E5; try discriminate; cbn [bind]; apply pg_attach in E5;
       destruct (attach p5 o (Some i)) as [p6| |] eqn:E6; try discriminate; cbn [bind]; apply pg_attach in E6; try discriminate;
       intros E; apply IH in E; eauto 10 using pg_trans.
  all: unfold with_meta; destruct (sched p3 o) as [mo|]; [|discriminate]; destruct (attach p3 b (m_res mo)) as [p4| |] eqn:E4; try discriminate; cbn [bind]; apply pg_attach in E4;
       destruct (sched p4 o); [|discriminate]; intros E; inj E; eapply pg_trans; [exact E2|]; eapply pg_trans; [exact E3|]; eapply pg_trans; [exact E4|sm].
Qed.
Lemma pg_reserve p b q x : reserve pick p b = Ok (q, x) -> pg p q.
Proof.
  unfold reserve, with_meta. destruct (sched p b) as [m|]; [|discriminate]. destruct (get_free (base p)) as [(s1, i)|] eqn:Eg.
  - intros E. injection E as <- <-. exact (gr_get_free _ _ _ Eg).
  - destruct (pop_least (fe p)) as [(g, r)|]; [|intros E; injection E as <- <-; apply pg_refl].
    destruct (match sched p g with Some mg => keep (dirty (bk p g)) (m_ops mg) | None => false end); [discriminate|].
    destruct (schedule_write pick (set_fe p r) g) as [(p1, wr)| |] eqn:E1; try discriminate. cbn [bind]. apply pg_schedule_write in E1.
    destruct (pdetach pick p1 g) as [(p2, i)| |] eqn:E2; try discriminate. cbn [bind]. apply pg_detach in E2.
    destruct (sched p2 b) as [m2|]; [|discriminate].
    assert (K : pg p p2) by (eapply pg_trans; [exact E1|exact E2]).
    destruct wr; [destruct (wq _ g); [|discriminate]|]; intros E; injection E as <- <-; (eapply pg_trans; [exact K|sm]).
Qed.
Lemma pg_prefetch p b q : prefetch pick p b = Ok q -> pg p q.
Proof.
  unfold prefetch, with_meta. destruct (sched p b) as [m|]; [|discriminate]. destruct (attach p b (m_res m)) as [p1| |] eqn:E1; try discriminate. cbn [bind]. apply pg_attach in E1.
  intros E. apply pg_schedule_read in E. eapply pg_trans; [exact E1|]. eapply pg_trans; [|exact E]. sm.
Qed.
Lemma move_se_base p b : base (move_se p b) = base p.
Proof. unfold move_se. destruct (has b (fe p)); reflexivity. Qed.
Lemma pg_base p q : base q = base p -> pg p q.
Proof. unfold pg. intros ->. apply gr_refl. Qed.
Lemma pg_sched_one p k b q x : sched_one pick p k b = Ok (q, x) -> pg p q.
Proof.
  unfold sched_one. destruct (negb (Nat.ltb b (nblk (base p)))); [discriminate|].
  match goal with |- context [if is_acq k then _ else _] => set (p1 := match sched p b with None => _ | Some m => _ end) end.
  assert (K1 : base p1 = base p) by (subst p1; destruct (sched p b); reflexivity).
  destruct (is_acq k).
  - destruct (is_internal (bk p b)); [intros E; injection E as <- <-; apply pg_base; rewrite move_se_base; apply K1|].
    unfold with_meta. destruct (sched p1 b) as [m|]; [|discriminate]. destruct (m_res m); [intros E; injection E as <- <-; apply pg_base; assumption|].
    destruct (reserve pick p1 b) as [(p2, ok)| |] eqn:E2; try discriminate. cbn [bind]. apply pg_reserve in E2.
    assert (K2 : pg p p2) by (eapply pg_trans; [apply pg_base; exact K1|exact E2]). destruct ok.
    + destruct (sched p2 b) as [m2|]; [|discriminate]. destruct (to_read (bk p2 b) (m_ops m2)).
      * destruct (prefetch pick p2 b) as [p3| |] eqn:E3; try discriminate. cbn [bind]. intros E. injection E as <- <-. eapply pg_trans; [exact K2|]. eapply pg_prefetch. eassumption.
      * intros E. injection E as <- <-. assumption.
    + intros E. injection E as <- <-. eapply pg_trans; [exact K2|]. destruct (sched p b); sm.
  - assert (K2 : pg p p1) by (apply pg_base; assumption).
    destruct k; try (intros E; injection E as <- <-; assumption). intros E. injection E as <- <-.
    destruct (dirty (bk p b)); [|assumption]. apply pg_base. rewrite move_se_base. apply K1.
Qed.
Lemma pg_write_all l : forall p q, write_all pick p l = Ok q -> pg p q.
Proof.
  induction l as [|b l IH]; intros p q; cbn [write_all]; [intros E; inj E; apply pg_refl|]. destruct (wq p b); [apply IH|].
  destruct (schedule_write pick p b) as [(p1, x)| |] eqn:E1; try discriminate. cbn [bind]. intros E. eapply pg_trans; [eapply pg_schedule_write; eassumption|apply IH; assumption].
Qed.
Lemma pg_sched_loop l : forall p q, sched_loop pick l p = Ok q -> pg p q.
Proof.
  induction l as [|(k, b) l IH]; intros p q; cbn [sched_loop]; [apply pg_write_all|].
  destruct (sched_one pick p k b) as [(p1, x)| |] eqn:E1; try discriminate. cbn [bind]. apply pg_sched_one in E1. destruct x; intros E.
  - apply IH in E. eapply pg_trans; [exact E1|]. eapply pg_trans; [|exact E]. sm.
  - inj E. assumption.
Qed.
Lemma pg_sched_next p q : sched_next pick p = Ok q -> pg p q.
Proof. apply pg_sched_loop. Qed.
Lemma pg_op_done p b q : op_done p b = Ok q -> pg p q.
Proof.
  unfold op_done, with_meta. destruct (sched p b) as [m|]; [|discriminate]. destruct (m_ops m) as [|k [|k' r]]; [discriminate| |intros E; inj E; sm].
  destruct (fst (m_giver m)); [discriminate|]. intros E. inj E. sm.
Qed.
Lemma next_is_base p k b q : next_is p k b = Ok q -> base q = base p.
Proof.
  unfold next_is. destruct (pseqn p) as [|(k', b') r]; [discriminate|]. destruct (kind_eqb k k' && Nat.eqb b b'); [|discriminate]. intros E. inj E. reflexivity.
Qed.

Lemma pg_acquire p b un q i : pacquire dflt p b un = Ok (q, i) -> pg p q.
Proof.
  unfold pacquire. intros E. destruct (next_is p _ b) as [p1| |] eqn:E1; try discriminate. cbn [bind] in E. apply next_is_base, pg_base in E1.
  destruct (negb (scheduled_op p1 _ b)); [discriminate|].
  match type of E with bind ?x _ = _ => destruct x as [p2| |] eqn:E2 end; try discriminate. cbn [bind] in E.
  assert (P2 : pg p1 p2).
  { destruct (is_internal (bk p1 b)).
    - destruct (negb (is_acquired (bk p1 b))); [|inj E2; apply pg_refl]. destruct (has b (se p1)); [|discriminate].
      apply pg_wait_on_read in E2. eapply pg_trans; [|exact E2]. sm.
    - destruct (negb (un || negb (sb_initialized (bk p1 b)))); [discriminate|]. destruct (get_ready p1 b) as [(p3, x)| |] eqn:E3; try discriminate. cbn [bind] in E2.
      eapply pg_trans; [eapply pg_get_ready; eassumption|eapply pg_attach; eassumption]. }
  unfold bk in E. destruct (int (B p2 b)) as [i2|] eqn:Ei; [|discriminate].
  match type of E with bind (op_done ?x _) _ = _ => set (p3 := x) in * end. destruct (op_done p3 b) as [p4| |] eqn:E4; try discriminate. cbn [bind] in E. injection E as <- <-.
  apply pg_op_done in E4. eapply pg_trans; [exact E1|]. eapply pg_trans; [exact P2|]. eapply pg_trans; [|exact E4].
  eapply (pg_set p2 p3 (base p2) b (mkSb (ext (B p2 b)) (Some i2) (dirty (B p2 b)) (S (rc (B p2 b))))); [reflexivity|auto| |].
  - intros y. subst p3. destruct (is_internal (blk (base p1) b) || un); [reflexivity|]. destruct dflt; reflexivity.
  - subst p3. destruct (is_internal (blk (base p1) b) || un); [reflexivity|]. destruct dflt; reflexivity.
Qed.
Lemma pg_release p b d q : prelease pick p b d = Ok q -> pg p q.
Proof.
  unfold prelease. intros E. destruct (next_is p _ b) as [p1| |] eqn:E1; try discriminate. cbn [bind] in E. apply next_is_base, pg_base in E1.
  eapply pg_trans; [exact E1|]. clear E1.
  destruct (negb (scheduled_op p1 _ b)); [discriminate|]. destruct (negb (is_acquired (bk p1 b))); [discriminate|].
  unfold bk in E. set (B1 := mkSb (ext (B p1 b)) (int (B p1 b)) (d || dirty (B p1 b)) (rc (B p1 b) - 1)) in *. cbv zeta in E.
  set (p2 := set_base p1 (set_b (base p1) b B1)) in *.
  assert (P2 : pg p1 p2) by (eapply (pg_set p1 p2 (base p1) b B1); [reflexivity|auto|reflexivity|reflexivity]).
  eapply pg_trans; [exact P2|].
  unfold with_meta in E. destruct (sched p2 b) as [m|]; [|discriminate].
  match type of E with bind ?x _ = _ => destruct x as [p3| |] eqn:E3 end; try discriminate. cbn [bind] in E. apply pg_op_done in E.
  eapply pg_trans; [|exact E]. clear E.
  destruct (is_acquired B1); [inj E3; apply pg_refl|]. destruct (dirty B1 || is_external B1).
  - destruct (keep (dirty B1) (tl (m_ops m))).
    + destruct (to_clean (tl (m_ops m))); [|inj E3; sm]. destruct (schedule_write pick _ b) as [(p4, x)| |] eqn:E4; try discriminate. inj E3.
      eapply pg_trans; [|eapply pg_schedule_write; exact E4]. sm.
    + destruct (uns (set_fe p2 (ins b (fe p2)))).
      * destruct (wq _ b); [inj E3; sm|]. destruct (schedule_write pick _ b) as [(p4, x)| |] eqn:E4; try discriminate. inj E3.
        eapply pg_trans; [|eapply pg_schedule_write; exact E4]. sm.
      * eapply pg_trans; [|eapply pg_sched_next; exact E3]. sm.
  - destruct (pdetach pick p2 b) as [(p4, i)| |] eqn:E4; try discriminate. cbn [bind] in E3. apply pg_detach in E4. eapply pg_trans; [exact E4|].
    destruct (keep (dirty B1) (tl (m_ops m))).
    + destruct (sched p4 b); [|discriminate]. inj E3. sm.
    + destruct (uns (set_base p4 (return_free (base p4) i))); [inj E3; sm|]. eapply pg_trans; [|eapply pg_sched_next; exact E3]. sm.
Qed.
Lemma pg_deinitialize p b q : pdeinitialize pick p b = Ok q -> exists p1, pg p1 q /\
  (forall y, ext (B p1 y) = if Nat.eqb y b then None else ext (B p y)) /\
  used (base p1) = match ext (B p b) with Some e => remove Nat.eq_dec e (used (base p)) | None => used (base p) end.
Proof.
  unfold pdeinitialize. intros E. destruct (next_is p _ b) as [p1| |] eqn:E1; try discriminate. cbn [bind] in E. apply next_is_base in E1.
  rewrite <- E1. clear E1 p.
  destruct (negb (scheduled_op p1 _ b)); [discriminate|]. unfold with_meta in E. destruct (sched p1 b) as [m|]; [|discriminate].
  match type of E with bind ?x _ = _ => destruct x as [p2| |] eqn:E2 end; try discriminate. cbn [bind] in E.
  assert (Eb : base p2 = base p1).
  { destruct (is_evictable (bk p1 b)); [|inj E2; reflexivity]. destruct (keep (dirty (bk p1 b)) (m_ops m)); repeat match type of E2 with (if ?x then _ else _) = _ => destruct x end; try discriminate; inj E2; reflexivity. }
  clear E2. destruct (is_acquired (bk p1 b)) eqn:Ea; [discriminate|]. unfold bk in *.
  match type of E with bind (match int _ with None => Ok ?x | _ => _ end) _ = _ => set (p3 := x) in * end.
  match type of E with bind ?x _ = _ => destruct x as [p4| |] eqn:E4 end; try discriminate. cbn [bind] in E. apply pg_op_done in E.
  exists p3. split; [|split].
  - eapply pg_trans; [|exact E]. clear E.
    destruct (int (B p1 b)) as [i|]; [|inj E4; apply pg_refl]. destruct (keep false (tl (m_ops m))).
    + destruct (sched p3 b); [|discriminate]. inj E4. sm.
    + destruct (uns (set_base p3 (return_free (base p3) i))); [inj E4; sm|]. eapply pg_trans; [|eapply pg_sched_next; exact E4]. sm.
  - intros y. subst p3. cbn. rewrite Eb. destruct (ext (B p1 b)); cbn; unfold upd; destruct (Nat.eqb y b); reflexivity.
  - subst p3. cbn. rewrite Eb. destruct (ext (B p1 b)); reflexivity.
Qed.
Lemma pg_initialize p b e q : pinitialize pick p b e = Ok q -> exists p1, pg p1 q /\
  (forall y, ext (B p1 y) = if Nat.eqb y b then e else ext (B p y)) /\ used (base p1) = used (base p).
Proof.
  unfold pinitialize. intros E. destruct (next_is p _ b) as [p1| |] eqn:E1; try discriminate. cbn [bind] in E. apply next_is_base in E1.
  rewrite <- E1. clear E1 p.
  destruct (negb (scheduled_op p1 _ b)); [discriminate|]. destruct (sb_initialized (bk p1 b)); [discriminate|]. unfold with_meta in E.
  match type of E with match sched ?x b with _ => _ end = _ => set (p2 := x) in * end.
  exists p2. split; [|split; [|reflexivity]].
  - destruct (sched p2 b) as [m|]; [|discriminate].
    destruct (to_read (bk p2 b) (tl (m_ops m))).
    + destruct (prefetch pick p2 b) as [p3| |] eqn:E3; try discriminate. cbn [bind] in E. eapply pg_trans; [eapply pg_prefetch; eassumption|eapply pg_op_done; eassumption].
    + eapply pg_op_done. eassumption.
  - intros y. subst p2. cbn. unfold upd. destruct (Nat.eqb y b); reflexivity.
Qed.

(** ** Whole operations *)

Lemma exact_pdo max c p o q r rest : PF max c p -> legal c o -> supported (nblk (base p)) c o -> pseqn p = predicts o ++ rest ->
  pdo pick dflt p o = Ok (q, r) -> exact (base p) c -> exact (base q) (after c o r).
Proof.
  intros P L S0 Eq E X. destruct (PF_env _ _ _ P) as (p1 & E1 & P1 & _ & Nb & _).
  unfold pdo in E. rewrite E1 in E. cbn [bind] in E. apply pg_env in E1.
  assert (X1 : exact (base p1) c) by (apply (exact_gr (base p) _ c); auto). clear X E1 Eq. rewrite <- Nb in S0. clear Nb P p.
  assert (Sm : simu c = false) by (destruct P1 as (Q & H & _); apply (I_simu _ _ _ _ _ H)).
  destruct o; cbn [supported] in S0; try contradiction; cbn [after]; rewrite ?Sm.
  - destruct (pacquire dflt p1 b un) as [[p2 i]| |] eqn:E2; try discriminate. cbn [bind] in E. injection E as <- <-.
    apply (exact_gr (base p1) _ c); [eapply pg_acquire; eassumption|auto|exact X1].
  - destruct (prelease pick p1 b d) as [p2| |] eqn:E2; try discriminate. cbn [bind] in E. injection E as <- <-.
    apply (exact_gr (base p1) _ c); [eapply pg_release; eassumption|auto|exact X1].
  - destruct (pdeinitialize pick p1 b) as [p2| |] eqn:E2; try discriminate. cbn [bind] in E. injection E as <- <-.
    destruct (pg_deinitialize _ _ _ E2) as (p3 & G & K1 & K2).
    apply (exact_gr (base p3) _ c); [exact G|auto|]. apply (exact_removed (base p1) b _ c); [exact K1|exact K2|auto|exact X1].
  - destruct (pinitialize pick p1 b e) as [p2| |] eqn:E2; try discriminate. cbn [bind] in E. injection E as <- <-.
    destruct (pg_initialize _ _ _ _ E2) as (p3 & G & K1 & K2). destruct L as (L0 & [L|(L1 & L2 & L3)]); [congruence|].
    assert (Ee : ext (B p1 b) = None).
    { destruct P1 as (Q & H & _). rewrite (I_un _ _ _ _ _ H b L1 L2). reflexivity. }
    match goal with |- exact _ ?c1 => apply (exact_gr (base p3) _ c1) end; [exact G|auto|].
    destruct X1 as (N & K). split; [rewrite K2; exact N|]. intros x Hx. rewrite K2 in Hx. destruct (K x Hx) as [J|(y & J)].
    + destruct e as [e|]; [|left; exact J]. rewrite own_set. destruct (Nat.eqb x e) eqn:Ex; [|left; exact J].
      apply Nat.eqb_eq in Ex. subst x. right. exists b. rewrite K1, Nat.eqb_refl. reflexivity.
    + right. exists y. rewrite K1. destruct (Nat.eqb y b) eqn:Ey; [|exact J]. apply Nat.eqb_eq in Ey. congruence.
  - destruct (negb _); [discriminate|]. injection E as <- <-. exact X1.
  - destruct (free_s (base p1)) as [|x l] eqn:Ef; [discriminate|]. unfold allocate in E. rewrite Ef in E. injection E as <- <-.
    apply (exact_gr (base p1) _ c); [apply gr_same; auto|auto|exact X1].
  - destruct (pdeinitialize pick p1 b) as [p2| |] eqn:E2; try discriminate. cbn [bind] in E. injection E as <- <-.
    destruct (pg_deinitialize _ _ _ E2) as (p3 & G & K1 & K2).
    apply (exact_gr (base p3) _ c); [|auto|apply (exact_removed (base p1) b _ c); [exact K1|exact K2|auto|exact X1]]. eapply gr_trans; [exact G|]. apply gr_same; auto.
  - injection E as <- <-. exact X1.
  - destruct (negb _); [discriminate|]. destruct (int (bk p1 b)); [|discriminate]. injection E as <- <-.
    apply (exact_gr (base p1) _ c); [apply gr_same; auto|auto|exact X1].
  - destruct (negb _); [discriminate|]. destruct (int (bk p1 b)); [|discriminate]. injection E as <- <-. exact X1.
  - cbn [new_ext] in E. injection E as <- <-. destruct X1 as (N & K). split; [constructor; [apply Fresh|exact N]|].
    intros e [<-|He]; rewrite own_set.
    + left. rewrite Nat.eqb_refl. discriminate.
    + destruct (Nat.eqb e _); [left; discriminate|]. exact (K e He).
  - injection E as <- <-. apply (exact_gr (base p1) _ c); [apply gr_same; auto| |exact X1]. intros x Hx. rewrite own_set. destruct (Nat.eqb x e); [discriminate|exact Hx].
  - injection E as <- <-. exact X1.
  - injection E as <- <-. destruct X1 as (N & K). split; [apply remove_keeps_NoDup; exact N|]. intros x Hx. apply in_remove in Hx. destruct Hx as (Hx & Hn).
    rewrite own_set. apply Nat.eqb_neq in Hn. rewrite Hn. exact (K x Hx).
Qed.

Lemma exact_prun max ops : forall c p q rs ps, PF max c p -> prun pick dflt p ops = Ok (q, rs) -> legal_run c (combine ops rs) ->
  supported_run (nblk (base p)) c (combine ops rs) -> pseqn p = flat_map predicts ops ++ ps -> exact (base p) c ->
  exact (base q) (after_all c (combine ops rs)).
Proof.
  induction ops as [|o ops IH]; intros c p q rs ps P E L Sp Eq X.
  - cbn in E. injection E as <- <-. exact X.
  - cbn [prun] in E. destruct (pdo pick dflt p o) as [(p1, x)| |] eqn:E1; cbn [bind] in E; try discriminate.
    destruct (prun pick dflt p1 ops) as [(p2, xs)| |] eqn:E2; cbn [bind] in E; try discriminate. injection E as <- <-.
    cbn [combine legal_run after_all supported_run] in *. destruct L as (L1 & L2), Sp as (Sp1 & Sp2).
    cbn [flat_map] in Eq. rewrite <- app_assoc in Eq.
    destruct (pdo_ok pick dflt Fresh max c p o _ P L1 Sp1 Eq) as [(q1 & x1 & K1 & K2 & K3 & K4 & K5)|(b & un & _ & K & _)]; [|congruence].
    rewrite E1 in K1. injection K1 as <- <-.
    eapply (IH _ p1 p2 xs ps K3 E2 L2); [rewrite K5; assumption|assumption|]. eapply exact_pdo; eassumption.
Qed.

Lemma exact_prefetch_run max m d ops rs s c ps o ops1 rs1 rest p c1 :
  prefetch_run pick dflt max m d ops rs s c ps o ops1 rs1 rest p c1 -> exact (base p) c1.
Proof.
  intros [(P1 & P2 & P3) pr_nosim0 pr_predictable0 pr_predicted0 pr_run0 pr_legal0 pr_supported0 pr_after0].
  pose proof (proj1 (run_R pick dflt Fresh _ _ _ _ _ _ (R_start max m d) P1 P2)) as HR. rewrite <- P3 in HR.
  pose proof (exact_run pick dflt Fresh max ops _ _ _ _ (R_start max m d) (exact_start max m d) P1 P2) as X. rewrite <- P3 in X.
  destruct pr_predictable0 as (Q1 & Q2).
  destruct (start_ok pick Fresh max s c ps o HR pr_nosim0 Q1 Q2) as (p0 & E0 & K1 & K2 & K3). rewrite E0 in pr_run0. cbn [bind] in pr_run0.
  subst c1. eapply exact_prun; [exact K1|exact pr_run0|exact pr_legal0|congruence| |]; [rewrite K2; exact pr_predicted0|].
  apply (exact_gr s _ c); [|auto|exact X]. unfold pf_start in E0. apply pg_sched_next in E0. exact E0.
Qed.

(** ** deinit *)

Lemma pg_drain_sched l : forall p q, drain_sched p l = Ok q -> pg p q.
Proof.
  induction l as [|b l IH]; intros p q; cbn [drain_sched]; [intros E; inj E; apply pg_refl|]. destruct (sched p b); [|apply IH].
  destruct (wait_on_read p b) as [p1| |] eqn:E1; try discriminate. cbn [bind]. unfold with_meta. destruct (sched p1 b) as [m2|]; [|discriminate].
  intros E. apply IH in E. apply pg_wait_on_read in E1. eapply pg_trans; [exact E1|]. eapply pg_trans; [|exact E]. destruct (m_res m2); sm.
Qed.
Lemma pg_drain_w l : forall p q, drain_w p l = Ok q -> pg p q.
Proof.
  induction l as [|b l IH]; intros p q; cbn [drain_w]; [intros E; inj E; apply pg_refl|]. destruct (wait_id p b) as [p1| |] eqn:E1; try discriminate. cbn [bind].
  intros E. eapply pg_trans; [eapply pg_wait_id; exact E1|apply IH; exact E].
Qed.
Lemma pg_deinit p q : deinit p = Ok q -> pg p q.
Proof.
  unfold deinit. destruct (drain_sched _ _) as [p1| |] eqn:E1; try discriminate. cbn [bind]. intros E. apply pg_drain_sched in E1. apply pg_drain_w in E.
  eapply pg_trans; [|eapply pg_trans; [exact E1|exact E]]. sm.
Qed.

End Oracles.
