(** C79 and C80: summaries of statistics. *)
From Coq Require Import List ZArith QArith Qfield Bool Permutation Sorted Lia.
From Verif Require Import SummaryModel.
Import ListNotations.
Local Open Scope list_scope.
Local Open Scope Z_scope.

Ltac csplit := repeat match goal with |- _ /\ _ => split end.

(** Specification. *)
Definition sum (l : list Z) : Z := fold_right Z.add 0 l.
Definition count (p : Z -> bool) (l : list Z) : nat := length (filter p l).

Lemma wrap_add : forall w a b, 0 <= w -> wrap w (wrap w a + b) = wrap w (a + b).
Proof. intros. unfold wrap. apply Zplus_mod_idemp_l. Qed.

Lemma fold_wrap : forall w vs s, 0 <= w ->
  fold_left (fun s x => wrap w (s + fst x)) vs (wrap w s) = wrap w (s + sum (map (@fst Z nat) vs)).
Proof.
  intros w vs. induction vs as [|x vs IH]; intros s W; cbn [fold_left map sum fold_right].
  - f_equal. lia.
  - rewrite wrap_add by auto. rewrite IH by auto. f_equal. fold (sum (map (@fst Z nat) vs)). lia.
Qed.

Lemma sum_perm : forall l l', Permutation l l' -> sum l = sum l'.
Proof.
  unfold sum. intros l l' P. induction P; cbn [fold_right]; lia.
Qed.

Lemma count_perm : forall p l l', Permutation l l' -> count p l = count p l'.
Proof.
  intros p l l' P. unfold count. induction P; cbn; try (destruct (p x)); try (destruct (p y)); cbn; lia.
Qed.

Lemma count_le : forall p l, (count p l <= length l)%nat.
Proof. intros p l. unfold count. induction l; cbn; [lia|]. destruct (p a); cbn; lia. Qed.

Lemma count_none : forall p l, (forall x, In x l -> p x = false) -> count p l = 0%nat.
Proof.
  intros p l. unfold count. induction l as [|a l IH]; intros H; auto. cbn. rewrite (H a) by (left; auto).
  apply IH. intros. apply H. right. auto.
Qed.

(** Sorted values. *)
Definition nondec (l : list Z) : Prop := StronglySorted Z.le l.

Lemma nondec_map : forall vs, StronglySorted (fun a b : Z * nat => ~ (fst b < fst a)) vs -> nondec (map fst vs).
Proof.
  induction 1 as [|a l S IH F]; constructor; auto. rewrite Forall_forall in *. intros x Hx.
  apply in_map_iff in Hx. destruct Hx as (y & <- & Hy). specialize (F y Hy). cbn in F. lia.
Qed.

Lemma Mono : forall l i j, nondec l -> (i <= j < length l)%nat -> nth i l 0 <= nth j l 0.
Proof.
  induction l as [|a l IH]; intros i j S B; [cbn in B; lia|]. inversion S as [|? ? S' F]; subst.
  destruct i, j; cbn; try lia.
  - rewrite Forall_forall in F. apply F. apply nth_In. cbn in B. lia.
  - apply IH; auto. cbn in B. lia.
Qed.

Lemma count_below : forall l k p, nondec l -> (k < length l)%nat ->
  (forall x, nth k l 0 <= x -> p x = false) -> (count p l <= k)%nat.
Proof.
  induction l as [|a l IH]; intros k p S K P; [cbn in K; lia|]. inversion S as [|? ? S' F]; subst.
  destruct k; cbn [nth] in P.
  - rewrite count_none; auto. intros x [<-|Hx]; [apply P; lia|]. rewrite Forall_forall in F. apply P. auto.
  - unfold count. cbn. specialize (IH k p S'). cbn in K. unfold count in IH.
    destruct (p a); cbn; specialize (IH ltac:(lia) P); lia.
Qed.

Lemma count_above : forall l k p, nondec l -> (k < length l)%nat ->
  (forall x, x <= nth k l 0 -> p x = false) -> (count p l <= length l - 1 - k)%nat.
Proof.
  induction l as [|a l IH]; intros k p S K P; [cbn in K; lia|]. inversion S as [|? ? S' F]; subst.
  unfold count. cbn [filter]. destruct k; cbn [nth] in P.
  - rewrite (P a) by lia. pose proof (count_le p l) as C. unfold count in C. cbn. lia.
  - cbn in K. assert (Pa : p a = false).
    { apply P. rewrite Forall_forall in F. apply F. apply nth_In. lia. }
    rewrite Pa. specialize (IH k p S' ltac:(lia) P). unfold count in IH. cbn. lia.
Qed.

(** C79: the summary of unsorted values [vs], whatever order the sort chooses for
    equal values.  Total up to wrap-around; minimum and maximum; a median: at most
    half of the values are smaller and at most half larger. *)
Theorem C79_summary : forall w vs vs', 0 <= w -> sorted_of vs vs' -> vs <> [] ->
  let s := summarize w vs' in
  let l := map fst vs in
  s_total s = wrap w (sum l) /\ s_total s = fetch_sum w l /\
  In (s_min s) l /\ In (s_max s) l /\ (forall x, In x l -> s_min s <= x <= s_max s) /\
  (s_average s * inject_Z (Z.of_nat (length vs)) == inject_Z (s_total s))%Q /\
  ((forall x, In x l -> 0 <= x /\ 2 * x < 2 ^ w) ->
     (2 * count (fun x => 2 * x <? s_median2 s)%Z l <= length vs)%nat /\
     (2 * count (fun x => s_median2 s <? 2 * x)%Z l <= length vs)%nat).
Proof.
  intros w vs vs' W (P & S) NE. cbv zeta.
  assert (L : length vs = length vs') by (apply Permutation_length; auto).
  assert (NE' : vs' <> []) by (intros ->; apply NE; apply Permutation_nil; apply Permutation_sym; auto).
  assert (Pm : Permutation (map fst vs) (map fst vs')) by (apply Permutation_map; auto).
  pose proof (nondec_map vs' S) as N.
  assert (E0 : exists n, length vs' = Datatypes.S n) by (destruct vs'; [congruence|cbn; eauto]).
  destruct E0 as (n & En).
  set (l := map fst vs') in *.
  assert (Ll : length l = Datatypes.S n) by (subst l; rewrite map_length; auto).
  assert (At : forall i, fst (nth i vs' (0, O)) = nth i l 0).
  { intros i. subst l. symmetry. exact (map_nth (@fst Z nat) vs' (0, O) i). }
  assert (Sum : summarize w vs' =
     mksum (wrap w (sum l)) (nth 0 l 0) (nth n l 0)
       (if Nat.eqb (Nat.modulo (Datatypes.S n) 2) 1 then 2 * nth (Nat.div (Datatypes.S n) 2) l 0
        else wrap w (nth (Nat.div (Datatypes.S n) 2 - 1) l 0 + nth (Nat.div (Datatypes.S n) 2) l 0))
       (inject_Z (wrap w (sum l)) / inject_Z (Z.of_nat (Datatypes.S n)))).
  { assert (F : fold_left (fun s x => wrap w (s + fst x)) vs' 0 = wrap w (sum l)).
    { pose proof (fold_wrap w vs' 0 W) as F. unfold wrap in F at 2. rewrite Zmod_0_l in F. exact F. }
    assert (U : forall u, u <> [] -> summarize w u =
      let n := length u in
      let at_ i := fst (nth i u (0%Z, O)) in
      let mid := Nat.div n 2 in
      let total := fold_left (fun s x => wrap w (s + fst x)) u 0%Z in
      mksum total (at_ O) (at_ (n - 1)%nat)
            (if Nat.eqb (Nat.modulo n 2) 1 then (2 * at_ mid)%Z else wrap w (at_ (mid - 1)%nat + at_ mid))
            (inject_Z total / inject_Z (Z.of_nat n))) by (intros [|? ?] ?; [congruence|reflexivity]).
    rewrite (U vs' NE'). cbv zeta. rewrite En, !At, F. replace (Datatypes.S n - 1)%nat with n by lia. reflexivity. }
  rewrite Sum. cbn [s_total s_min s_max s_median2 s_average].
  csplit.
  - f_equal. apply sum_perm. apply Permutation_sym. auto.
  - unfold fetch_sum. assert (G : forall (u : list Z) s, fold_left (fun s x => wrap w (s + x)) u (wrap w s) = wrap w (s + sum u)).
    { induction u as [|x u IH]; intros s; cbn [fold_left sum fold_right]; [f_equal; lia|].
      rewrite wrap_add by auto. rewrite IH. f_equal. fold (sum u). lia. }
    specialize (G (map fst vs) 0). unfold wrap in G at 2. rewrite Zmod_0_l in G. rewrite G.
    cbn [Z.add]. f_equal. apply sum_perm. apply Permutation_sym. auto.
  - apply (Permutation_in _ (Permutation_sym Pm)). apply nth_In. lia.
  - apply (Permutation_in _ (Permutation_sym Pm)). apply nth_In. lia.
  - intros x Hx. apply (Permutation_in _ Pm) in Hx. apply (In_nth l x 0) in Hx. destruct Hx as (i & Hi & <-).
    split; apply Mono; auto; lia.
  - rewrite L, En. field. intros C. apply (inject_Z_injective (Z.of_nat (Datatypes.S n)) 0) in C. lia.
  - intros B. assert (Bl : forall x, In x l -> 0 <= x /\ 2 * x < 2 ^ w)
      by (intros x Hx; apply B; apply (Permutation_in _ (Permutation_sym Pm)); auto).
    rewrite !(count_perm _ _ _ Pm). rewrite L, En.
    pose proof (Nat.div_mod (Datatypes.S n) 2 ltac:(lia)) as D.
    pose proof (Nat.mod_upper_bound (Datatypes.S n) 2 ltac:(lia)) as D2.
    set (mid := Nat.div (Datatypes.S n) 2) in *.
    destruct (Nat.eqb_spec (Nat.modulo (Datatypes.S n) 2) 1) as [E|E].
    + split.
      * assert (C : (count (fun x => (2 * x <? 2 * nth mid l 0)%Z) l <= mid)%nat).
        { apply count_below; auto; [lia|]. intros x Hx. apply Z.ltb_ge. lia. }
        lia.
      * assert (C : (count (fun x => (2 * nth mid l 0 <? 2 * x)%Z) l <= length l - 1 - mid)%nat).
        { apply count_above; auto; [lia|]. intros x Hx. apply Z.ltb_ge. lia. }
        lia.
    + assert (M : (1 <= mid)%nat) by lia.
      assert (Wm : wrap w (nth (mid - 1) l 0 + nth mid l 0) = nth (mid - 1) l 0 + nth mid l 0).
      { pose proof (Bl (nth (mid - 1) l 0)) as B1. pose proof (Bl (nth mid l 0)) as B2.
        destruct B1; [apply nth_In; lia|]. destruct B2; [apply nth_In; lia|].
        unfold wrap. apply Z.mod_small. lia. }
      rewrite Wm.
      assert (Le : nth (mid - 1) l 0 <= nth mid l 0) by (apply Mono; auto; lia).
      split.
      * assert (C : (count (fun x => (2 * x <? nth (mid - 1) l 0 + nth mid l 0)%Z) l <= mid)%nat).
        { apply count_below; auto; [lia|]. intros x Hx. apply Z.ltb_ge. lia. }
        lia.
      * assert (C : (count (fun x => (nth (mid - 1) l 0 + nth mid l 0 <? 2 * x)%Z) l <= length l - 1 - (mid - 1))%nat).
        { apply count_above; auto; [lia|]. intros x Hx. apply Z.ltb_ge. lia. }
        lia.
Qed.
Print Assumptions C79_summary.

(** Without the bound the two middle values wrap around before they are halved. *)
Theorem C79_median_wrap_refuted :
  let vs := [(2147483648, 0%nat); (2147483648, 1%nat)] in
  sorted_of vs vs /\ s_median2 (summarize 32 vs) = 0 /\ s_min (summarize 32 vs) = 2147483648.
Proof.
  cbv zeta. csplit; try reflexivity; auto.
  repeat constructor; cbn; lia.
Qed.
Print Assumptions C79_median_wrap_refuted.

Example C79_case :
  let vs := [(5, 0%nat); (1, 1%nat); (9, 2%nat); (3, 3%nat)] in
  let vs' := [(1, 1%nat); (3, 3%nat); (5, 0%nat); (9, 2%nat)] in
  sorted_of vs vs' /\ summarize 64 vs' = mksum 18 1 9 8 (18 # 4).
Proof.
  cbv zeta. split; [split|reflexivity].
  - apply Permutation_sym. eapply perm_trans; [apply perm_skip, perm_swap|]. eapply perm_trans; [apply perm_swap|].
    apply perm_skip. apply perm_skip. apply perm_swap.
  - repeat constructor; cbn; lia.
Qed.

(** C80: std::sort needs a strict weak order on the values. *)
Definition strict_weak (l : list dbl) : Prop :=
  (forall a, In a l -> dlt a a = false) /\
  (forall a b c, In a l -> In b l -> In c l -> dlt a b = true -> dlt b c = true -> dlt a c = true) /\
  (forall a b c, In a l -> In b l -> In c l ->
     dlt a b = false -> dlt b a = false -> dlt b c = false -> dlt c b = false ->
     dlt a c = false /\ dlt c a = false).

Lemma dlt_fin : forall x y, dlt (Fin x) (Fin y) = true <-> (x < y)%Q.
Proof.
  intros x y. cbn. rewrite negb_true_iff. split; intros H.
  - apply Qnot_le_lt. intros L. apply Qle_bool_iff in L. congruence.
  - destruct (Qle_bool y x) eqn:E; auto. apply Qle_bool_iff in E. exfalso. apply (Qlt_not_le _ _ H E).
Qed.
Lemma dlt_fin_f : forall x y, dlt (Fin x) (Fin y) = false <-> (y <= x)%Q.
Proof.
  intros x y. cbn. rewrite negb_false_iff. apply Qle_bool_iff.
Qed.

(** Defined iff there is no NaN, or no two different numbers. *)
Theorem C80_sort_defined_iff : forall l,
  strict_weak l <-> (~ In NaN l \/ forall a b, In a l -> In b l -> dlt a b = false).
Proof.
  intros l.
  assert (Dec : In NaN l \/ ~ In NaN l).
  { induction l as [|x l IH]; [right; auto|]. destruct x; try (left; left; auto; fail);
      (destruct IH as [IH|IH]; [left; right; auto|right; intros [?|?]; [discriminate|auto]]). }
  split.
  - intros (_ & _ & T). destruct Dec as [D|D]; auto. right. intros a b Ha Hb.
    assert (N1 : forall x, dlt NaN x = false) by auto.
    assert (N2 : forall x, dlt x NaN = false) by (destruct x; auto).
    apply (T a NaN b); auto.
  - intros [N|E].
    + assert (NN : forall a, In a l -> a <> NaN) by (intros a Ha ->; auto).
      unfold strict_weak. csplit.
      * intros a Ha. destruct a; auto. apply dlt_fin_f. apply Qle_refl.
      * intros a b c Ha Hb Hc H1 H2.
        destruct a as [| | |x], b as [| | |y], c as [| | |z]; try discriminate; auto.
        apply dlt_fin in H1, H2. apply dlt_fin. apply Qlt_trans with y; auto.
      * intros a b c Ha Hb Hc H1 H2 H3 H4. apply NN in Ha, Hb, Hc.
        destruct a as [| | |x], b as [| | |y], c as [| | |z]; try discriminate; try congruence; auto.
        apply dlt_fin_f in H1, H2, H3, H4. rewrite !dlt_fin_f. split; eapply Qle_trans; eauto.
    + unfold strict_weak. csplit; intros; rewrite ?E in *; auto; discriminate.
Qed.
Print Assumptions C80_sort_defined_iff.

(** It is defined for the parallel speeds, which have a common time ... *)
Theorem C80_parallel_speeds_defined : forall bytes time,
  Forall (fun b => 0 <= b) bytes -> (0 <= time)%Q ->
  strict_weak (map (fun b => speed b time) bytes).
Proof.
  intros bytes time B T. apply C80_sort_defined_iff. unfold speed, ddiv. destruct (Qeq_bool time 0) eqn:Z0.
  - right. rewrite Forall_forall in B.
    assert (K : forall a, In a (map (fun b => match qsign (inject_Z b) with Eq => NaN | Lt => NInf | Gt => PInf end) bytes) ->
              a = NaN \/ a = PInf).
    { intros a Ha. apply in_map_iff in Ha. destruct Ha as (b & <- & Hb). specialize (B b Hb).
      unfold qsign. destruct (Qcompare_spec (inject_Z b) 0) as [Q|Q|Q]; auto. exfalso.
      apply (Qlt_not_le _ _ Q). change 0%Q with (inject_Z 0). rewrite <- Zle_Qle. auto. }
    intros a b Ha Hb. destruct (K a Ha) as [->| ->], (K b Hb) as [->| ->]; auto.
  - left. intros H. apply in_map_iff in H. destruct H as (b & H & _). discriminate.
Qed.
Print Assumptions C80_parallel_speeds_defined.

(** ... but not for the speeds of single files: one file that was never read and
    two with different speeds are enough. *)
Theorem C80_file_speeds_refuted :
  ~ strict_weak [speed 10 1; speed 0 0; speed 20 1].
Proof.
  rewrite C80_sort_defined_iff. intros [H|H].
  - apply H. right. left. reflexivity.
  - specialize (H (speed 10 1) (speed 20 1) ltac:(left; auto) ltac:(right; right; left; auto)). discriminate.
Qed.
Print Assumptions C80_file_speeds_refuted.

Lemma self_ratio : forall a, dlt (ddiv a a) half = false.
Proof.
  intros [| | |q]; try reflexivity. cbn [ddiv]. destruct (Qeq_bool q 0) eqn:E.
  - apply Qeq_bool_iff in E. unfold qsign. replace (q ?= 0)%Q with Eq; auto. symmetry. apply Qeq_alt. auto.
  - apply Qeq_bool_neq in E. apply dlt_fin_f.
    assert (Q1 : (q / q == 1)%Q) by (field; auto). rewrite Q1. discriminate.
Qed.

Lemma last_nth : forall (l : list dbl) d, last l d = nth (length l - 1) l d.
Proof.
  intros l d. destruct l as [|a l]; auto. revert a. induction l as [|b l IH]; intros a; auto.
  change (last (a :: b :: l) d) with (last (b :: l) d). rewrite IH. cbn. rewrite Nat.sub_0_r. auto.
Qed.

Lemma scan_ok : forall n vs i, (i < length vs)%nat -> (length vs <= n + i)%nat ->
  snd (scan n vs i) = true /\ (forall k, In k (fst (scan n vs i)) -> (k < length vs)%nat).
Proof.
  induction n as [|n IH]; intros vs i Hi Hn; [lia|]. cbn [scan].
  destruct (dlt (ddiv (nth i vs NaN) (last vs NaN)) half) eqn:E.
  - assert (Ni : i <> (length vs - 1)%nat).
    { intros ->. rewrite last_nth, self_ratio in E. discriminate. }
    specialize (IH vs (S i) ltac:(lia) ltac:(lia)). destruct (scan n vs (S i)) as (l & e). cbn [fst snd] in *.
    destruct IH as (-> & IH). split; auto. intros k [<-|Hk]; auto.
  - cbn. split; auto. intros k [<-|[]]. auto.
Qed.

(** The warnings never read outside the lists, whatever the values are (also after a
    sort with an undefined order that only permuted them). *)
Theorem C80_warnings_in_bounds : forall pio pread pwrite rd wr,
  length pread = length pio -> length pwrite = length pio ->
  length rd = length pio -> length wr = length pio ->
  let '(r, w, ended) := warn_slow pio pread pwrite in
  ended = true /\ (forall k, In k r -> (k < length pread)%nat) /\ (forall k, In k w -> (k < length pwrite)%nat) /\
  (warn_load rd wr = true -> rd <> [] /\ wr <> []).
Proof.
  intros pio pread pwrite rd wr L1 L2 L3 L4.
  assert (Two : forall vs, dlt (ddiv (dmin vs) (dmax vs)) half = true -> (2 <= length vs)%nat).
  { intros vs H. destruct vs as [|a [|b vs]]; cbn [length]; try lia.
    - discriminate.
    - unfold dmin, dmax in H. cbn [hd last] in H. rewrite self_ratio in H. discriminate. }
  assert (Ld : warn_load rd wr = true -> rd <> [] /\ wr <> []).
  { unfold warn_load. intros H.
    assert (K : forall u, dlt (ddiv (Fin (inject_Z (s_min (summarize 64 u)))) (Fin (inject_Z (s_max (summarize 64 u))))) half = true -> u <> []).
    { intros u Hu ->. discriminate. }
    apply orb_true_iff in H. destruct H as [H|H]; apply K in H.
    - split; auto. intros ->. destruct rd; [congruence|]. cbn in *. lia.
    - split; auto. intros ->. destruct wr; [congruence|]. cbn in *. lia. }
  unfold warn_slow. destruct (slow pio pread pwrite) eqn:Sl.
  - assert (N2 : (2 <= length pio)%nat).
    { unfold slow in Sl. apply orb_true_iff in Sl. destruct Sl as [Sl|Sl].
      - apply orb_true_iff in Sl. destruct Sl as [Sl|Sl]; apply Two in Sl; lia.
      - apply Two in Sl. lia. }
    destruct (scan_ok (length pread) pread 1) as (E1 & B1); [lia|lia|].
    destruct (scan_ok (length pwrite) pwrite 1) as (E2 & B2); [lia|lia|].
    destruct (scan (length pread) pread 1) as (r & re), (scan (length pwrite) pwrite 1) as (x & we). cbn [fst snd] in *.
    subst re we. csplit; auto; intros k [<-|Hk]; auto; lia.
  - csplit; auto; intros k [].
Qed.
Print Assumptions C80_warnings_in_bounds.

Example C80_case :
  let v := [speed 10 1; speed 30 1; speed 100 1] in
  warn_slow v v v = ([0; 1; 2]%nat, [0; 1; 2]%nat, true).
Proof. reflexivity. Qed.
