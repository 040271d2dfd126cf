(** C114: reports of the allocator, helpers. *)

From Coq Require Import ZArith List Bool Lia.
From Verif Require Import AllocModel AllocSpec AllocProps WriterProofs DumpModel.
Import ListNotations.
Local Open Scope Z_scope.

Lemma dump_loop_spec : forall m total, 
  dump_loop total m = (m, match m with [] => total | _ => (total + total_size m) mod 2 ^ 64 end).
Proof.
  induction m as [|(p, s) m IH]; intros total; cbn [dump_loop]; auto. rewrite IH. f_equal. cbn [total_size snd].
  destruct m as [|e m]; [cbn [total_size]; f_equal; lia|]. rewrite Z.add_mod_idemp_l by discriminate. f_equal. lia.
Qed.

(** The dump lists exactly the free regions, in order and coalesced, and the total is the number
    of free bytes. *)
Theorem C114_dump : forall cfg grow c, reachable cfg grow c -> disk_bytes (cl_alloc c) < 2 ^ 64 ->
  let (l, total) := dump (cl_alloc c) in
  coalesced_from (-1) l /\
  (forall x, covered l x <-> 0 <= x < disk_bytes (cl_alloc c) /\ ~ covered (cl_live c) x) /\
  total = free_bytes (cl_alloc c) /\ total + total_size (cl_live c) = disk_bytes (cl_alloc c).
Proof.
  intros cfg grow c H B. unfold dump. rewrite dump_loop_spec.
  destruct (C02_counters_exact _ _ _ H) as (_ & F1 & F2 & F3 & F4).
  destruct (C03_free_list_coalesced _ _ _ H) as (G & _).
  assert (L : 0 <= total_size (cl_live c)).
  { pose proof (C01_live_blocks_disjoint _ _ _ H) as L. destruct L as (_ & L & _). clear - L.
    induction (cl_live c) as [|r l IH]; cbn [total_size]; [lia|]. 
    assert (0 < snd r) by (apply (L r); left; auto). assert (0 <= total_size l) by (apply IH; intros; apply L; right; auto). lia. }
  assert (T : match free_space (cl_alloc c) with [] => 0 | _ => (0 + total_size (free_space (cl_alloc c))) mod 2 ^ 64 end =
    free_bytes (cl_alloc c)).
  { rewrite F2. destruct (free_space (cl_alloc c)); auto. rewrite Z.mod_small; auto. lia. }
  rewrite T. csplit; auto.
Qed.
Print Assumptions C114_dump.

Example C114_dump_case : reachable 20 false demo /\ dump (cl_alloc demo) = ([(0, 4); (15, 1); (19, 1)], 6).
Proof. split; [exact demo_reachable|reflexivity]. Qed.

Lemma upper_bound_in : forall p m e, upper_bound p m = Some e -> In e m /\ p < fst e.
Proof.
  induction m as [|(k, v) m IH]; cbn; intros e H; [discriminate|]. destruct (Z.ltb_spec p k).
  - inversion H; subst. cbn. auto.
  - destruct (IH _ H). auto.
Qed.

Lemma entry_before_in : forall p m e, entry_before p m = Some e -> In e m.
Proof.
  induction m as [|(k, v) m IH]; cbn; intros e H; [discriminate|]. destruct (Z.ltb_spec p k); [discriminate|].
  destruct (entry_before p m) eqn:E; [right; apply IH; auto|]. inversion H; subst. auto.
Qed.

(** delete_block complains exactly if it throws, about a free region that the block meets. *)
Theorem C114_complaint : forall cfg grow c pos size, reachable cfg grow c -> 0 < size ->
  (delete_block (cl_alloc c) pos size = Throw <-> complain (cl_alloc c) pos size <> None) /\
  (forall k, complain (cl_alloc c) pos size = Some k ->
     exists r, In r (free_space (cl_alloc c)) /\ ~ disjoint r (pos, size) /\
       ((k = InEmpty (pos, size) r /\ in_range pos r) \/
        (k = Overlaps (pos, size) r /\ in_range (fst r) (pos, size) /\ ~ in_range pos r))).
Proof.
  intros cfg grow c pos size H Hs. split.
  - unfold delete_block, add_free_region, complain. destruct (free_space (cl_alloc c)) as [|e0 m0] eqn:Em.
    + cbn. split; [discriminate|congruence].
    + rewrite <- Em. set (m := free_space (cl_alloc c)) in *.
      destruct (entry_before pos m) as [(pp, ps)|] eqn:Ep.
      * destruct ((pp <=? pos) && (pos <? pp + ps)); [split; [congruence|auto]|].
        destruct (upper_bound pos m) as [(sp, ss)|] eqn:Es.
        -- destruct ((pos <=? sp) && (sp <? pos + size)); [split; [congruence|auto]|].
           destruct (1 <? Z.of_nat (length m)), (sp =? pos + size), (pp + ps =? pos); split; try discriminate; congruence.
        -- destruct (pp + ps =? pos); split; try discriminate; congruence.
      * destruct (upper_bound pos m) as [(sp, ss)|] eqn:Es.
        -- destruct (upper_bound_in _ _ _ Es) as (_ & L). cbn [fst] in L.
           assert (Q : (sp <=? pos) = false) by (apply Z.leb_gt; lia). rewrite Q. cbn [andb].
           destruct ((pos <=? sp) && (sp <? pos + size)); [split; [congruence|auto]|].
           destruct (1 <? Z.of_nat (length m)), (sp =? pos + size); split; try discriminate; congruence.
        -- split; [discriminate|congruence].
  - intros k. unfold complain. set (m := free_space (cl_alloc c)).
    assert (P : forall r, In r m -> 0 < snd r).
    { destruct (C03_free_list_coalesced _ _ _ H) as (G & _). fold m in G. revert G. generalize (-1). clear.
      induction m as [|(p, s) m IH]; intros lo G r Hr; [destruct Hr|]. destruct G as (G1 & G2 & G3).
      destruct Hr as [<-|Hr]; [cbn; lia|]. eapply IH; [exact G3|auto]. }
    assert (A2 : forall sp ss, upper_bound pos m = Some (sp, ss) ->
      (if (pos <=? sp) && (sp <? pos + size) then Some (Overlaps (pos, size) (sp, ss)) else None) = Some k ->
      exists r, In r m /\ ~ disjoint r (pos, size) /\
       ((k = InEmpty (pos, size) r /\ in_range pos r) \/
        (k = Overlaps (pos, size) r /\ in_range (fst r) (pos, size) /\ ~ in_range pos r))).
    { intros sp ss E K. destruct (upper_bound_in _ _ _ E) as (I & L). cbn [fst] in L. specialize (P _ I). cbn [snd] in P.
      destruct (Z.leb_spec pos sp), (Z.ltb_spec sp (pos + size)); cbn [andb] in K; try discriminate.
      inversion K; subst. exists (sp, ss). csplit; auto.
      - intros D. apply (D sp). unfold in_range; cbn. lia.
      - right. csplit; auto; unfold in_range; cbn; lia. }
    assert (A1 : forall pp ps, In (pp, ps) m -> (pp <=? pos) && (pos <? pp + ps) = true ->
      exists r, In r m /\ ~ disjoint r (pos, size) /\
       ((InEmpty (pos, size) (pp, ps) = InEmpty (pos, size) r /\ in_range pos r) \/
        (InEmpty (pos, size) (pp, ps) = Overlaps (pos, size) r /\ in_range (fst r) (pos, size) /\ ~ in_range pos r))).
    { intros pp ps I K. apply andb_prop in K. destruct K as (K1 & K2). apply Z.leb_le in K1. apply Z.ltb_lt in K2.
      exists (pp, ps). csplit; auto.
      - intros D. apply (D pos). unfold in_range; cbn. lia.
      - left. split; auto. unfold in_range; cbn. lia. }
    destruct (entry_before pos m) as [(pp, ps)|] eqn:Ep.
    + destruct ((pp <=? pos) && (pos <? pp + ps)) eqn:K; [intros Q; inversion Q; subst; apply A1; auto; eapply entry_before_in; eauto|].
      destruct (upper_bound pos m) as [(sp, ss)|] eqn:Es; [apply A2; auto|discriminate].
    + destruct (upper_bound pos m) as [(sp, ss)|] eqn:Es; [|discriminate].
      destruct ((sp <=? pos) && (pos <? sp + ss)) eqn:K; [|apply A2; auto].
      intros Q; inversion Q; subst; apply A1; auto. eapply upper_bound_in; eauto.
Qed.
Print Assumptions C114_complaint.

Example C114_complaint_case :
  complain (cl_alloc demo) 14 4 = Some (Overlaps (14, 4) (15, 1)) /\
  complain (cl_alloc demo) 2 8 = Some (InEmpty (2, 8) (0, 4)) /\ complain (cl_alloc demo) 4 4 = None.
Proof. vm_compute. auto. Qed.

(** swap_1D_arrays exchanges two arrays that do not overlap, or are the same, and nothing else. *)
Lemma swap_loop_spec : forall V n (f : Z -> V) a b i x, (Z.abs (a - b) >= i + Z.of_nat n \/ a = b) -> 0 <= i ->
  swap_loop f a b i n x =
    if (a + i <=? x) && (x <? a + i + Z.of_nat n) then f (x - a + b)
    else if (b + i <=? x) && (x <? b + i + Z.of_nat n) then f (x - b + a) else f x.
Proof.
  induction n as [|n IH]; intros f a b i x D Hi; cbn [swap_loop].
  - destruct (Z.leb_spec (a + i) x), (Z.ltb_spec x (a + i + Z.of_nat 0)), (Z.leb_spec (b + i) x), (Z.ltb_spec x (b + i + Z.of_nat 0));
      cbn [andb]; auto; lia.
  - rewrite IH by lia. unfold swap_cells, set_cell.
    destruct (Z.leb_spec (a + (i + 1)) x), (Z.ltb_spec x (a + (i + 1) + Z.of_nat n)), (Z.leb_spec (b + (i + 1)) x),
      (Z.ltb_spec x (b + (i + 1) + Z.of_nat n)), (Z.leb_spec (a + i) x), (Z.ltb_spec x (a + i + Z.of_nat (S n))),
      (Z.leb_spec (b + i) x), (Z.ltb_spec x (b + i + Z.of_nat (S n))); cbn [andb]; try lia;
    repeat match goal with |- context [?u =? ?v] => destruct (Z.eqb_spec u v) end; try lia; try (f_equal; lia).
Qed.

Theorem C114_swap : forall V (f : Z -> V) a b n, (a + Z.of_nat n <= b \/ b + Z.of_nat n <= a \/ a = b) ->
  let g := swap_1D_arrays f a b n in
  (forall i, 0 <= i < Z.of_nat n -> g (a + i) = f (b + i) /\ g (b + i) = f (a + i)) /\
  (forall x, ~ (a <= x < a + Z.of_nat n) -> ~ (b <= x < b + Z.of_nat n) -> g x = f x).
Proof.
  intros V f a b n D g. unfold g, swap_1D_arrays. split.
  - intros i Hi. rewrite !swap_loop_spec by lia. rewrite !Z.add_0_r.
    destruct (Z.leb_spec a (a + i)), (Z.ltb_spec (a + i) (a + Z.of_nat n)), (Z.leb_spec a (b + i)), (Z.ltb_spec (b + i) (a + Z.of_nat n)),
      (Z.leb_spec b (b + i)), (Z.ltb_spec (b + i) (b + Z.of_nat n)); cbn [andb]; try lia; split; f_equal; lia.
  - intros x H1 H2. rewrite swap_loop_spec by lia. rewrite !Z.add_0_r.
    destruct (Z.leb_spec a x), (Z.ltb_spec x (a + Z.of_nat n)), (Z.leb_spec b x), (Z.ltb_spec x (b + Z.of_nat n)); cbn [andb]; auto; lia.
Qed.
Print Assumptions C114_swap.

Example C114_swap_case : map (swap_1D_arrays (fun x => x) 0 5 3) [0; 1; 2; 3; 4; 5; 6; 7; 8] = [5; 6; 7; 3; 4; 0; 1; 2; 8].
Proof. reflexivity. Qed.

(** Arrays that overlap in part are not exchanged. *)
Theorem C114_swap_refuted : ~ (forall (f : Z -> Z) a b n i, 0 <= i < Z.of_nat n ->
  swap_1D_arrays f a b n (a + i) = f (b + i) /\ swap_1D_arrays f a b n (b + i) = f (a + i)).
Proof. intros H. destruct (H (fun x => x) 0 1 2%nat 1 ltac:(cbn; lia)) as (_ & Q). vm_compute in Q. discriminate. Qed.
Print Assumptions C114_swap_refuted.

(** The pop helpers return an end of the container and leave the rest; on an empty container
    they are undefined. *)
Theorem C114_pop : forall V (c : list V),
  (forall x r, pop_front c = Some (x, r) <-> c = x :: r) /\ (pop_front c = None <-> c = []) /\
  (forall x r, pop_back c = Some (x, r) <-> c = r ++ [x]) /\ (pop_back c = None <-> c = []).
Proof.
  intros V c. unfold pop_front, pop_back. csplit.
  - intros x r. destruct c; split; intros H; inversion H; subst; auto.
  - destruct c; split; congruence.
  - intros x r. destruct (rev c) as [|y l] eqn:E.
    + split; [discriminate|]. intros ->. rewrite rev_app_distr in E. discriminate.
    + apply (f_equal (@rev V)) in E. rewrite rev_involutive in E. cbn in E. subst c. split; intros H.
      * inversion H; subst. auto.
      * apply app_inj_tail in H. destruct H as (-> & ->). auto.
  - destruct (rev c) as [|y l] eqn:E; split; auto; try discriminate.
    + intros _. apply (f_equal (@rev V)) in E. rewrite rev_involutive in E. auto.
    + intros ->. discriminate.
Qed.
Print Assumptions C114_pop.

Example C114_pop_case : pop_back [1; 2; 3] = Some (3, [1; 2]).
Proof. reflexivity. Qed.
