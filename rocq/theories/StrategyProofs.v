From Coq Require Import ZArith List Bool Lia Permutation PeanoNat.
From Verif Require Import StrategyModel StrategySpec.
Import ListNotations.
Local Open Scope Z_scope.

Lemma u64_small : forall x, 0 <= x < 2 ^ 64 -> u64 x = x.
Proof. intros. unfold u64. apply Z.mod_small. auto. Qed.

Lemma u64_range : forall x, 0 <= u64 x < 2 ^ 64.
Proof. intros. unfold u64. apply Z.mod_pos_bound. lia. Qed.

Lemma make_range_good : forall b e, good_range b e -> make_range b e = mk_range b (e - b).
Proof. intros b e [H1 H2]. unfold make_range. rewrite u64_small by lia. auto. Qed.

Lemma umod_some : forall x d, d <> 0 -> umod x d = Some (x mod d).
Proof. intros. unfold umod. destruct (Z.eqb_spec d 0); [lia|auto]. Qed.

(** * shuffling *)
Lemma put_length : forall {A} i (x : A) l, length (put i x l) = length l.
Proof. intros A i x l. revert i. induction l; intros [|i]; simpl; auto. Qed.

Lemma put_perm : forall {A} (l : list A) i x y, nth_error l i = Some y ->
  Permutation (y :: put i x l) (x :: l).
Proof.
  intros A l. induction l as [|z l IH]; intros i x y H; [destruct i; discriminate|].
  destruct i as [|i]; simpl in *.
  - inversion H; subst. apply perm_swap.
  - eapply perm_trans; [apply perm_swap|]. eapply perm_trans; [apply perm_skip, IH; eauto|]. apply perm_swap.
Qed.

Lemma nth_error_put_ne : forall {A} (l : list A) i j x, i <> j -> nth_error (put i x l) j = nth_error l j.
Proof.
  intros A l. induction l as [|z l IH]; intros i j x H; destruct i, j; simpl; auto; try lia.
Qed.
Lemma nth_error_put_eq : forall {A} (l : list A) i x, (i < length l)%nat -> nth_error (put i x l) i = Some x.
Proof. intros A l. induction l; intros [|i] x H; simpl in *; auto; try lia. apply IHl. lia. Qed.

Lemma swap_perm : forall {A} i j (l : list A), Permutation (swap i j l) l.
Proof.
  intros A i j l. unfold swap. destruct (nth_error l i) as [x|] eqn:Ei; auto.
  destruct (nth_error l j) as [y|] eqn:Ej; auto.
  destruct (Nat.eq_dec i j) as [->|Hne].
  - rewrite Ei in Ej. inversion Ej; subst.
    assert (E : nth_error (put j y l) j = Some y).
    { apply nth_error_put_eq. apply nth_error_Some. congruence. }
    apply Permutation_cons_inv with (a := y). eapply perm_trans; [apply put_perm; eauto|].
    eapply perm_trans; [apply put_perm; eauto|]. auto.
  - apply Permutation_cons_inv with (a := y).
    eapply perm_trans; [apply put_perm; rewrite nth_error_put_ne; eauto|].
    apply put_perm; auto.
Qed.

Lemma shuffle_perm : forall {A} draws (l : list A), Permutation (random_shuffle draws l) l.
Proof.
  intros A draws l. unfold random_shuffle. generalize (seq 1 (length l - 1)). intros is.
  revert l. induction is as [|i is IH]; intros l; simpl; auto.
  eapply perm_trans; [apply IH|]. apply swap_perm.
Qed.

Lemma identity_in : forall n x, In x (identity_perm n) <-> 0 <= x < Z.of_nat n.
Proof.
  intros n x. unfold identity_perm. rewrite in_map_iff. split.
  - intros (k & <- & H). apply in_seq in H. lia.
  - intros H. exists (Z.to_nat x). split; [lia|]. apply in_seq. lia.
Qed.

Lemma identity_nodup : forall n, NoDup (identity_perm n).
Proof.
  intros n. unfold identity_perm. apply FinFun.Injective_map_NoDup; [|apply seq_NoDup].
  intros x y H. lia.
Qed.

Lemma make_perm_perm : forall d draws, Permutation (make_perm d draws) (identity_perm (Z.to_nat d)).
Proof. intros. apply shuffle_perm. Qed.

(** A permutation of 0..D-1, as a function. *)
Definition perm_of (D : Z) (p : list Z) : Prop := Permutation p (identity_perm (Z.to_nat D)).

Lemma perm_nth : forall D p k, 0 <= k < D -> perm_of D p ->
  exists x, nth_error p (Z.to_nat k) = Some x /\ 0 <= x < D.
Proof.
  intros D p k Hk Hp. pose proof (Permutation_length Hp) as L. unfold identity_perm in L.
  rewrite map_length, seq_length in L.
  destruct (nth_error p (Z.to_nat k)) as [x|] eqn:E.
  - exists x. split; auto. apply nth_error_In in E. apply (Permutation_in _ Hp) in E.
    apply identity_in in E. lia.
  - apply nth_error_None in E. lia.
Qed.

Lemma perm_inv : forall D p c, 0 <= c < D -> perm_of D p ->
  exists k, 0 <= k < D /\ forall j, 0 <= j < D -> (nth_error p (Z.to_nat j) = Some c <-> j = k).
Proof.
  intros D p c Hc Hp. pose proof (Permutation_length Hp) as L. unfold identity_perm in L.
  rewrite map_length, seq_length in L.
  assert (Hin : In c p) by (apply (Permutation_in _ (Permutation_sym Hp)), identity_in; lia).
  apply In_nth_error in Hin. destruct Hin as (n & En).
  assert (n < length p)%nat by (apply nth_error_Some; congruence).
  exists (Z.of_nat n). split; [lia|]. intros j Hj. split.
  - intros E. assert (N : NoDup p) by (eapply Permutation_NoDup; [apply Permutation_sym; exact Hp|apply identity_nodup]).
    rewrite NoDup_nth_error in N. specialize (N n (Z.to_nat j) H). rewrite En, E in N.
    specialize (N eq_refl). lia.
  - intros ->. rewrite Nat2Z.id. auto.
Qed.

(** * in range *)
Lemma add_begin_in : forall b e x, good_range b e -> 0 <= x < e - b -> in_disks b e (add_begin b (Some x)).
Proof.
  intros b e x [H1 H2] Hx. exists (b + x). simpl. rewrite u64_small by lia. split; auto. lia.
Qed.

Lemma striping_in : forall b e i, good_range b e -> in_disks b e (striping (make_range b e) i).
Proof.
  intros b e i H. rewrite make_range_good by auto. unfold striping. simpl.
  destruct H as [H1 H2]. rewrite umod_some by lia. apply add_begin_in; [split; auto|].
  apply Z.mod_pos_bound. lia.
Qed.

Lemma fully_random_in : forall b e draw i, good_range b e -> in_disks b e (fully_random (make_range b e) draw i).
Proof. intros. apply striping_in; auto. Qed.

Lemma simple_random_in : forall b e draw i, good_range b e -> in_disks b e (simple_random (make_range b e) draw i).
Proof.
  intros b e draw i H. rewrite make_range_good by auto. unfold simple_random. simpl.
  destruct H as [H1 H2]. rewrite !umod_some by lia. apply add_begin_in; [split; auto|].
  apply Z.mod_pos_bound. lia.
Qed.

Lemma random_cyclic_in : forall b e p i, good_range b e -> perm_of (e - b) p ->
  in_disks b e (random_cyclic (make_range b e) p i).
Proof.
  intros b e p i H Hp. rewrite make_range_good by auto. unfold random_cyclic. simpl.
  destruct H as [H1 H2]. rewrite umod_some by lia.
  destruct (perm_nth (e - b) p (i mod (e - b))) as (x & E & Hx); auto.
  { apply Z.mod_pos_bound. lia. }
  rewrite E. apply (add_begin_in b e x); [split; auto|lia].
Qed.

Lemma udiv_some : forall x d, d <> 0 -> udiv x d = Some (x / d).
Proof. intros. unfold udiv. destruct (Z.eqb_spec d 0); [lia|auto]. Qed.

Lemma interleaved_striping_in : forall b e n i, good_range b e -> 0 < n ->
  in_disks b e (interleaved_striping (make_range b e) n i).
Proof. intros. unfold interleaved_striping. rewrite udiv_some by lia. apply striping_in; auto. Qed.

Lemma interleaved_simple_random_in : forall b e n draws i, good_range b e -> 0 < n ->
  in_disks b e (interleaved_simple_random (make_range b e) n draws i).
Proof.
  intros. unfold interleaved_simple_random. rewrite udiv_some, umod_some by lia.
  apply (simple_random_in b e (draws (i mod n)) (i / n)); auto.
Qed.

Lemma interleaved_random_cyclic_in : forall b e n perms i, good_range b e -> 0 < n ->
  (forall k, 0 <= k < n -> perm_of (e - b) (perms k)) ->
  in_disks b e (interleaved_random_cyclic (make_range b e) n perms i).
Proof.
  intros. unfold interleaved_random_cyclic. rewrite udiv_some, umod_some by lia.
  apply random_cyclic_in; auto. apply H1. apply Z.mod_pos_bound. auto.
Qed.

(** * balance *)
(** Number of x in [s, s+n) with x mod D = c. *)
Fixpoint hits (D c s : Z) (n : nat) : Z :=
  match n with O => 0 | S n' => (if s mod D =? c then 1 else 0) + hits D c (s + 1) n' end.

Lemma hits_step : forall D c s, 0 < D -> 0 <= c < D ->
  (s + 1 + (D - 1 - c)) / D = (s + (D - 1 - c)) / D + (if s mod D =? c then 1 else 0).
Proof.
  intros D c s HD Hc.
  pose proof (Z.div_mod s D ltac:(lia)) as E. pose proof (Z.mod_pos_bound s D HD) as B.
  set (q := s / D) in *. set (r := s mod D) in *.
  replace (s + 1 + (D - 1 - c)) with (r + D - c + q * D) by lia.
  replace (s + (D - 1 - c)) with (r + D - 1 - c + q * D) by lia.
  rewrite !Z.div_add by lia.
  destruct (Z.eqb_spec r c).
  - replace (r + D - c) with (0 + 1 * D) by lia. rewrite Z.div_add by lia.
    rewrite (Z.div_small (r + D - 1 - c)) by lia. rewrite Z.div_0_l by lia. lia.
  - destruct (Z.lt_ge_cases r c).
    + rewrite !Z.div_small by lia. lia.
    + replace (r + D - c) with (r - c + 1 * D) by lia.
      replace (r + D - 1 - c) with (r - c - 1 + 1 * D) by lia.
      rewrite !Z.div_add by lia. rewrite !Z.div_small by lia. lia.
Qed.

Lemma hits_exact : forall D c, 0 < D -> 0 <= c < D -> forall n s,
  hits D c s n = (s + Z.of_nat n + (D - 1 - c)) / D - (s + (D - 1 - c)) / D.
Proof.
  intros D c HD Hc n. induction n as [|n IH]; intros s.
  - simpl. rewrite Z.add_0_r. lia.
  - cbn [hits]. rewrite IH, (hits_step D c s HD Hc).
    replace (s + Z.of_nat (S n) + (D - 1 - c)) with (s + 1 + Z.of_nat n + (D - 1 - c)) by lia. lia.
Qed.

Lemma hits_share : forall D c s n, 0 < D -> 0 <= c < D -> even_share (Z.of_nat n) D (hits D c s n).
Proof.
  intros D c s n HD Hc. rewrite hits_exact by auto. unfold even_share.
  set (A := s + (D - 1 - c)). replace (s + Z.of_nat n + (D - 1 - c)) with (A + Z.of_nat n) by (unfold A; lia).
  set (N := Z.of_nat n).
  pose proof (Z.div_mod A D ltac:(lia)) as E1. pose proof (Z.mod_pos_bound A D HD) as B1.
  pose proof (Z.div_mod (A + N) D ltac:(lia)) as E2. pose proof (Z.mod_pos_bound (A + N) D HD) as B2.
  pose proof (Z.div_mod N D ltac:(lia)) as E3. pose proof (Z.mod_pos_bound N D HD) as B3.
  pose proof (Z.div_mod (N + D - 1) D ltac:(lia)) as E4. pose proof (Z.mod_pos_bound (N + D - 1) D HD) as B4.
  set (qa := A / D) in *. set (qb := (A + N) / D) in *. set (qn := N / D) in *. set (qm := (N + D - 1) / D) in *.
  split; nia.
Qed.

Lemma uses_hits : forall f D c d step n s k0, (forall k, k0 <= k < k0 + Z.of_nat n ->
    (exists x, f (s + (k - k0) * step) = Some x /\ (x = d <-> k mod D = c))) ->
  uses f s step n d = hits D c k0 n.
Proof.
  intros f D c d step n. induction n as [|n IH]; intros s k0 H; cbn [uses hits]; auto.
  destruct (H k0 ltac:(lia)) as (x & E & Hx). rewrite Z.sub_diag, Z.mul_0_l, Z.add_0_r in E. rewrite E.
  f_equal.
  - destruct (Z.eqb_spec x d), (Z.eqb_spec (k0 mod D) c); auto; exfalso; tauto.
  - apply IH. intros k Hk. destruct (H k ltac:(lia)) as (y & Ey & Hy). exists y. split; auto.
    rewrite <- Ey. f_equal. lia.
Qed.

Lemma add_mod_inv : forall D a x c, 0 < D -> 0 <= c < D ->
  ((x + a) mod D = c <-> x mod D = (c - a) mod D).
Proof.
  intros D a x c HD Hc. split; intros H.
  - rewrite <- H. rewrite Zminus_mod_idemp_l. f_equal. lia.
  - rewrite <- Zplus_mod_idemp_l, H, Zplus_mod_idemp_l. replace (c - a + a) with c by lia.
    apply Z.mod_small. auto.
Qed.

(** An in-range, D-periodic, injective assignment spreads evenly. *)
Lemma striping_value : forall b e i, good_range b e -> striping (make_range b e) i = Some (b + i mod (e - b)).
Proof.
  intros b e i H. rewrite make_range_good by auto. unfold striping. destruct H as [H1 H2]. simpl.
  rewrite umod_some by lia. simpl. pose proof (Z.mod_pos_bound i (e - b) ltac:(lia)).
  rewrite u64_small by lia. auto.
Qed.

Lemma simple_random_value : forall b e draw i, good_range b e -> 0 <= i -> i + (e - b) <= 2 ^ 64 ->
  simple_random (make_range b e) draw i = Some (b + (i + draw mod (e - b)) mod (e - b)).
Proof.
  intros b e draw i H Hi Hw. rewrite make_range_good by auto. unfold simple_random. destruct H as [H1 H2]. simpl.
  rewrite !umod_some by lia. simpl.
  pose proof (Z.mod_pos_bound draw (e - b) ltac:(lia)).
  rewrite (u64_small (i + _)) by lia.
  pose proof (Z.mod_pos_bound (i + draw mod (e - b)) (e - b) ltac:(lia)).
  rewrite u64_small by lia. auto.
Qed.

Lemma random_cyclic_value : forall b e p i, good_range b e -> perm_of (e - b) p ->
  exists x, random_cyclic (make_range b e) p i = Some (b + x) /\ 0 <= x < e - b /\
    nth_error p (Z.to_nat (i mod (e - b))) = Some x.
Proof.
  intros b e p i H Hp. rewrite make_range_good by auto. unfold random_cyclic. destruct H as [H1 H2]. simpl.
  rewrite umod_some by lia.
  destruct (perm_nth (e - b) p (i mod (e - b))) as (x & E & Hx); auto.
  { apply Z.mod_pos_bound. lia. }
  rewrite E. exists x. rewrite u64_small by lia. auto.
Qed.

Lemma striping_even : forall b e d s n, good_range b e -> b <= d < e ->
  even_share (Z.of_nat n) (e - b) (uses (striping (make_range b e)) s 1 n d).
Proof.
  intros b e d s n H Hd. destruct H as [H1 H2].
  rewrite (uses_hits _ (e - b) (d - b) d 1 n s s).
  - apply hits_share; lia.
  - intros k Hk. rewrite striping_value by (split; auto).
    replace (s + (k - s) * 1) with k by lia. eexists. split; [reflexivity|]. lia.
Qed.

Lemma simple_random_even : forall b e draw d s n, good_range b e -> b <= d < e -> 0 <= s ->
  s + Z.of_nat n + (e - b) <= 2 ^ 64 ->
  even_share (Z.of_nat n) (e - b) (uses (simple_random (make_range b e) draw) s 1 n d).
Proof.
  intros b e draw d s n H Hd Hs Hw. destruct H as [H1 H2].
  rewrite (uses_hits _ (e - b) ((d - b - draw mod (e - b)) mod (e - b)) d 1 n s s).
  - apply hits_share; [lia|]. apply Z.mod_pos_bound. lia.
  - intros k Hk. replace (s + (k - s) * 1) with k by lia.
    rewrite simple_random_value; try lia; [|split; auto].
    eexists. split; [reflexivity|]. rewrite <- add_mod_inv by lia. lia.
Qed.

Lemma random_cyclic_even : forall b e p d s n, good_range b e -> perm_of (e - b) p -> b <= d < e ->
  even_share (Z.of_nat n) (e - b) (uses (random_cyclic (make_range b e) p) s 1 n d).
Proof.
  intros b e p d s n H Hp Hd.
  destruct (perm_inv (e - b) p (d - b)) as (k0 & Hk0 & Hi); [lia|auto|].
  rewrite (uses_hits _ (e - b) k0 d 1 n s s).
  - apply hits_share; lia.
  - intros k Hk. replace (s + (k - s) * 1) with k by lia.
    destruct (random_cyclic_value b e p k H Hp) as (x & E & Hx & Ex). exists (b + x). split; auto.
    pose proof (Z.mod_pos_bound k (e - b) ltac:(lia)) as B. rewrite <- (Hi _ B), Ex. split.
    + intros. f_equal. lia.
    + intros K. inversion K. lia.
Qed.

Lemma run_index : forall n r q k, 0 < n -> 0 <= r < n ->
  (r + q * n + k * n) / n = q + k /\ (r + q * n + k * n) mod n = r.
Proof.
  intros n r q k Hn Hr. replace (r + q * n + k * n) with (r + (q + k) * n) by lia. split.
  - rewrite Z.div_add by lia. rewrite Z.div_small by lia. lia.
  - rewrite Z.mod_add by lia. apply Z.mod_small. auto.
Qed.

(** Blocks q, q+1, ... of run r have the indices r + q*nruns + k*nruns. *)
Lemma interleaved_striping_even : forall b e nruns r q d n, good_range b e -> 0 < nruns -> 0 <= r < nruns ->
  b <= d < e ->
  even_share (Z.of_nat n) (e - b)
    (uses (interleaved_striping (make_range b e) nruns) (r + q * nruns) nruns n d).
Proof.
  intros b e nruns r q d n H Hn Hr Hd. destruct H as [H1 H2].
  rewrite (uses_hits _ (e - b) (d - b) d nruns n _ q).
  - apply hits_share; lia.
  - intros k Hk. unfold interleaved_striping. rewrite udiv_some by lia.
    destruct (run_index nruns r q (k - q) Hn Hr) as [E _]. rewrite E.
    rewrite striping_value by (split; auto). eexists. split; [reflexivity|].
    replace (q + (k - q)) with k by lia. lia.
Qed.

Lemma interleaved_simple_random_even : forall b e nruns draws r q d n, good_range b e -> 0 < nruns -> 0 <= r < nruns ->
  b <= d < e -> 0 <= q -> q + Z.of_nat n + (e - b) <= 2 ^ 64 ->
  even_share (Z.of_nat n) (e - b)
    (uses (interleaved_simple_random (make_range b e) nruns draws) (r + q * nruns) nruns n d).
Proof.
  intros b e nruns draws r q d n H Hn Hr Hd Hq Hw. destruct H as [H1 H2].
  rewrite (uses_hits _ (e - b) ((d - b - draws r mod (e - b)) mod (e - b)) d nruns n _ q).
  - apply hits_share; [lia|]. apply Z.mod_pos_bound. lia.
  - intros k Hk. unfold interleaved_simple_random. rewrite udiv_some, umod_some by lia.
    destruct (run_index nruns r q (k - q) Hn Hr) as [E F]. rewrite E, F.
    replace (q + (k - q)) with k by lia.
    pose proof (simple_random_value b e (draws r) k) as V. unfold simple_random in V. rewrite V; try lia; [|split; auto].
    eexists. split; [reflexivity|]. rewrite <- add_mod_inv by lia. lia.
Qed.

Lemma interleaved_random_cyclic_even : forall b e nruns perms r q d n, good_range b e -> 0 < nruns ->
  0 <= r < nruns -> perm_of (e - b) (perms r) -> b <= d < e ->
  even_share (Z.of_nat n) (e - b)
    (uses (interleaved_random_cyclic (make_range b e) nruns perms) (r + q * nruns) nruns n d).
Proof.
  intros b e nruns perms r q d n H Hn Hr Hp Hd.
  destruct (perm_inv (e - b) (perms r) (d - b)) as (k0 & Hk0 & Hi); [lia|auto|].
  rewrite (uses_hits _ (e - b) k0 d nruns n _ q).
  - apply hits_share; lia.
  - intros k Hk. unfold interleaved_random_cyclic. rewrite udiv_some, umod_some by lia.
    destruct (run_index nruns r q (k - q) Hn Hr) as [E F]. rewrite E, F.
    replace (q + (k - q)) with k by lia.
    destruct (random_cyclic_value b e (perms r) k H Hp) as (x & Ev & Hx & Ex). exists (b + x). split; auto.
    pose proof (Z.mod_pos_bound k (e - b) ltac:(lia)) as B. rewrite <- (Hi _ B), Ex. split.
    + intros. f_equal. lia.
    + intros K. inversion K. lia.
Qed.

Lemma even_full_window : forall D c, 0 < D -> even_share D D c -> c = 1.
Proof.
  intros D c HD [A B]. rewrite Z.div_same in A by lia.
  replace (D + D - 1) with (D - 1 + 1 * D) in B by lia. rewrite Z.div_add in B by lia.
  rewrite Z.div_small in B by lia. lia.
Qed.
