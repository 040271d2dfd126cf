(** Theorems about the storage, the limits and the printing of uint_pair (C121). *)
From Coq Require Import ZArith NArith DecimalN List Bool Lia.
From Verif Require Import UtilModel UtilSpec UtilProofs UtilProps PackModel.
Import ListNotations.
Local Open Scope Z_scope.

(** A value of uint_pair whose high part has [k] bytes. *)
Definition valid (k : nat) (p : upair) : Prop := wf_pair (8 * Z.of_nat k) p.
(** A sequence of bytes. *)
Definition octets (l : list Z) : Prop := Forall (fun b => 0 <= b < 256) l.

(** ** Bytes of an integer *)

Lemma int_bytes_length : forall n x, length (int_bytes n x) = n.
Proof. induction n; intros; cbn; auto. Qed.
Lemma int_bytes_octets : forall n x, octets (int_bytes n x).
Proof. induction n as [|n IH]; intros x; constructor; [apply Z.mod_pos_bound; lia|apply IH]. Qed.
Lemma pow256 : forall n, 2 ^ (8 * Z.of_nat (S n)) = 256 * 2 ^ (8 * Z.of_nat n).
Proof. intros n. replace (8 * Z.of_nat (S n)) with (8 + 8 * Z.of_nat n) by lia. rewrite Z.pow_add_r by lia. auto. Qed.
Lemma bytes_of_int : forall n x, unsigned (8 * Z.of_nat n) x -> bytes_int (int_bytes n x) = x.
Proof.
  induction n as [|n IH]; intros x H; cbn [int_bytes bytes_int].
  - unfold unsigned in H. cbn in H. lia.
  - rewrite IH; [pose proof (Z.div_mod x 256 ltac:(lia)); lia|]. unfold unsigned in *. rewrite pow256 in H.
    split; [apply Z.div_pos; lia|]. apply Z.div_lt_upper_bound; lia.
Qed.
Lemma bytes_int_range : forall l, octets l -> unsigned (8 * Z.of_nat (length l)) (bytes_int l).
Proof.
  induction 1 as [|b l Hb Hl IH]; [cbv; split; congruence|]. cbn [length bytes_int]. unfold unsigned in *. rewrite pow256. lia.
Qed.
Lemma int_of_bytes : forall l, octets l -> int_bytes (length l) (bytes_int l) = l.
Proof.
  induction 1 as [|b l Hb Hl IH]; cbn [length int_bytes bytes_int]; auto.
  replace (b + 256 * bytes_int l) with (b + bytes_int l * 256) by ring.
  rewrite Z_mod_plus_full, Z.div_add, Z.div_small, Z.mod_small by lia. cbn. rewrite IH. auto.
Qed.
Lemma int_bytes_nth : forall n i x, (i < n)%nat -> nth i (int_bytes n x) 0 = x / 256 ^ Z.of_nat i mod 256.
Proof.
  induction n as [|n IH]; intros [|i] x H; try lia; cbn [int_bytes nth].
  - change (256 ^ Z.of_nat 0) with 1. rewrite Z.div_1_r. auto.
  - rewrite IH by lia. rewrite Nat2Z.inj_succ, Z.pow_succ_r by lia. rewrite Z.div_div; auto; lia.
Qed.

(** ** One value *)

(** A value takes digits/8 bytes without any gap; these give the value back, and each sequence of
    bytes represents exactly one value. *)
Theorem C121_representation : forall k, 
  Z.of_nat (bytes k) * 8 = digits k /\
  (forall p, length (store k p) = bytes k /\ octets (store k p)) /\
  (forall p, valid k p -> load (store k p) = p) /\
  (forall l, length l = bytes k -> octets l -> valid k (load l) /\ store k (load l) = l).
Proof.
  intros k. split; [unfold bytes, digits; lia|]. split; [|split].
  - intros p. unfold store. rewrite app_length, !int_bytes_length. split; auto.
    apply Forall_app. split; apply int_bytes_octets.
  - intros [l h] [Hl Hh]. unfold load, store. cbn [low high] in *.
    rewrite firstn_app, skipn_app, int_bytes_length, Nat.sub_diag.
    rewrite (firstn_all2 (n := 4)) by (rewrite int_bytes_length; auto).
    rewrite (skipn_all2 (n := 4)) by (rewrite int_bytes_length; auto).
    cbn [firstn skipn]. rewrite app_nil_r. cbn [app]. rewrite !bytes_of_int by auto. auto.
  - intros l E O. unfold bytes in E.
    assert (O1 : octets (firstn 4 l)) by (rewrite <- (firstn_skipn 4 l) in O; apply Forall_app in O; apply O).
    assert (O2 : octets (skipn 4 l)) by (rewrite <- (firstn_skipn 4 l) in O; apply Forall_app in O; apply O).
    assert (L1 : length (firstn 4 l) = 4%nat) by (rewrite firstn_length; lia).
    assert (L2 : length (skipn 4 l) = k) by (rewrite skipn_length; lia).
    split.
    + split; cbn [load low high].
      * pose proof (bytes_int_range _ O1) as R. rewrite L1 in R. exact R.
      * pose proof (bytes_int_range _ O2) as R. rewrite L2 in R. exact R.
    + unfold store, load. cbn [low high].
      rewrite <- L1 at 1. rewrite int_of_bytes by auto. rewrite <- L2 at 1. rewrite int_of_bytes by auto.
      apply firstn_skipn.
Qed.
Print Assumptions C121_representation.

(** The bytes are those of the number, the least significant first: the same as the first bytes of
    the uint64_t of the same value. *)
Theorem C121_little_endian : forall k p i, (1 <= k)%nat -> valid k p -> (i < bytes k)%nat ->
  nth i (store k p) 0 = ull p / 256 ^ Z.of_nat i mod 256.
Proof.
  intros k p i Hk V Hi. pose proof V as [Hl Hh]. unfold bytes in Hi. rewrite (ull_num _ _ V). unfold num, store.
  destruct (Nat.lt_ge_cases i 4) as [Lt|Ge].
  - rewrite app_nth1, int_bytes_nth by (rewrite ?int_bytes_length; auto).
    assert (E : exists q, high p * 2 ^ 32 = q * 256 * 256 ^ Z.of_nat i).
    { destruct i as [|[|[|[|i]]]]; try lia; cbn [Z.of_nat Pos.of_succ_nat Pos.succ];
        [exists (high p * 2 ^ 24)|exists (high p * 2 ^ 16)|exists (high p * 2 ^ 8)|exists (high p)]; lia. }
    destruct E as (q & ->). rewrite Z.add_comm, Z.div_add by (apply Z.pow_nonzero; lia).
    rewrite Z_mod_plus_full. auto.
  - rewrite app_nth2 by (rewrite int_bytes_length; auto). rewrite int_bytes_length, int_bytes_nth by lia.
    f_equal. replace (Z.of_nat i) with (4 + Z.of_nat (i - 4)) by lia.
    rewrite Z.pow_add_r by lia. rewrite <- Z.div_div by (try apply Z.pow_pos_nonneg; lia). f_equal.
    change (256 ^ 4) with (2 ^ 32). rewrite Z.div_add_l by lia. unfold unsigned in Hl. rewrite Z.div_small by lia. lia.
Qed.
Print Assumptions C121_little_endian.

(** Comparing the bytes one by one (memcmp) would not be the numeric order. *)
Fixpoint memcmp_lt (a b : list Z) : bool :=
  match a, b with
  | x :: a, y :: b => (x <? y) || ((x =? y) && memcmp_lt a b)
  | _, _ => false
  end.
Theorem C121_memcmp_refuted : ~ forall k p q, valid k p -> valid k q ->
  (memcmp_lt (store k p) (store k q) = true <-> lt_pair p q = true).
Proof.
  intros H. specialize (H 1%nat (mk_upair 256 0) (mk_upair 1 0)).
  assert (V : forall x, 0 <= x <= 256 -> valid 1 (mk_upair x 0)) by (intros x Hx; unfold valid, wf_pair, unsigned; cbn [low high]; lia).
  specialize (H (V 256 ltac:(lia)) (V 1 ltac:(lia))). destruct H as (H & _). vm_compute in H. specialize (H eq_refl). discriminate.
Qed.
Print Assumptions C121_memcmp_refuted.

(** ** Arrays *)

Lemma firstn_app_le : forall (A : Type) n (a b : list A), (n <= length a)%nat -> firstn n (a ++ b) = firstn n a.
Proof. intros A n a b H. rewrite firstn_app. replace (n - length a)%nat with 0%nat by lia. rewrite firstn_O, app_nil_r. auto. Qed.
Lemma skipn_app_ge : forall (A : Type) n (a b : list A), (length a <= n)%nat -> skipn n (a ++ b) = skipn (n - length a) b.
Proof. intros A n a b H. rewrite skipn_app, skipn_all2 by auto. auto. Qed.
Lemma skipn_skipn' : forall (A : Type) a b (l : list A), skipn a (skipn b l) = skipn (b + a) l.
Proof. intros A a b. induction b as [|b IH]; intros l; cbn; auto. destruct l; [apply skipn_nil|apply IH]. Qed.

(** Assigning to an element of a block changes this element, no other one and no byte elsewhere
    in the block. *)
Theorem C121_elements : forall k m i p, valid k p -> (i * bytes k + bytes k <= length m)%nat ->
  get k (set k m i p) i = p /\
  (forall j, j <> i -> get k (set k m i p) j = get k m j) /\
  length (set k m i p) = length m /\
  (forall x, (x < i * bytes k \/ i * bytes k + bytes k <= x)%nat -> nth_error (set k m i p) x = nth_error m x) /\
  (octets m -> octets (set k m i p)).
Proof.
  intros k m i p V B. destruct (C121_representation k) as (_ & S1 & S2 & _). destruct (S1 p) as (Ls & Os).
  assert (L1 : length (firstn (i * bytes k) m) = (i * bytes k)%nat) by (rewrite firstn_length; lia).
  csplit.
  - unfold get, set. rewrite skipn_app_ge by lia. rewrite L1, Nat.sub_diag. cbn [skipn].
    rewrite firstn_app_le by lia. rewrite <- Ls, firstn_all. auto.
  - intros j N. unfold get. f_equal. unfold set. destruct (Nat.lt_ge_cases j i) as [Lt|Ge].
    + assert (X : (j * bytes k + bytes k <= i * bytes k)%nat) by nia.
      rewrite skipn_app. rewrite firstn_app_le by (rewrite skipn_length; lia).
      rewrite <- (firstn_skipn (i * bytes k) m) at 2. rewrite (skipn_app (j * bytes k) (firstn (i * bytes k) m)).
      rewrite firstn_app_le by (rewrite skipn_length; lia). auto.
    + assert (X : (i * bytes k + bytes k <= j * bytes k)%nat) by nia.
      rewrite skipn_app_ge by lia. rewrite skipn_app_ge by lia. rewrite L1, Ls, skipn_skipn'. f_equal. f_equal. lia.
  - unfold set. rewrite !app_length, L1, Ls, skipn_length. lia.
  - intros x [X|X]; unfold set.
    + rewrite nth_error_app1 by lia. rewrite <- (firstn_skipn (i * bytes k) m) at 2. rewrite nth_error_app1 by lia. auto.
    + rewrite nth_error_app2 by lia. rewrite nth_error_app2 by lia. rewrite L1, Ls.
      rewrite <- (firstn_skipn (i * bytes k + bytes k) m) at 2. rewrite nth_error_app2 by (rewrite firstn_length; lia).
      f_equal. rewrite firstn_length. lia.
  - intros O. unfold set. rewrite <- (firstn_skipn (i * bytes k) m) in O. apply Forall_app in O. destruct O as (O1 & O2).
    apply Forall_app. split; auto. apply Forall_app. split; auto.
    rewrite <- skipn_skipn'. rewrite <- (firstn_skipn (bytes k) (skipn (i * bytes k) m)) in O2. apply Forall_app in O2. apply O2.
Qed.
Print Assumptions C121_elements.

(** ** Limits and printing *)

(** What numeric_limits says is true of the values and of their arithmetic: the least and the
    greatest value, the number of digits, the absence of a sign; behind the greatest value comes
    the least one. *)
Theorem C121_limits : forall k, (1 <= k)%nat -> let n := limits_of k in
  valid k (nl_min n) /\ valid k (nl_max n) /\ nl_lowest n = nl_min n /\
  (forall p, valid k p -> le_pair (nl_lowest n) p = true /\ le_pair p (nl_max n) = true) /\
  ull (nl_min n) = 0 /\ ull (nl_max n) = nl_radix n ^ nl_digits n - 1 /\
  nl_digits n = 8 * Z.of_nat (bytes k) /\
  incr (8 * Z.of_nat k) (nl_max n) = nl_min n /\ decr (8 * Z.of_nat k) (nl_min n) = nl_max n /\
  (nl_signed n = true <-> exists p, valid k p /\ ull p < 0) /\
  nl_specialized n = true /\ nl_integer n = true /\ nl_exact n = true /\ nl_infinity n = false /\
  ull (nl_epsilon n) = 0 /\ ull (nl_round_error n) = 0 /\
  nl_min_exponent n = 0 /\ nl_min_exponent10 n = 0 /\ nl_max_exponent n = 0 /\ nl_max_exponent10 n = 0.
Proof.
  intros k Hk n. assert (Hh : 1 <= 8 * Z.of_nat k) by lia.
  destruct (C51_extremes _ Hh) as (W1 & W2 & E1 & E2 & Ex).
  assert (En : nl_max n = pair_max (8 * Z.of_nat k)) by reflexivity.
  assert (Em : nl_min n = pair_min) by reflexivity.
  assert (Inj : forall p q, valid k p -> valid k q -> ull p = ull q -> p = q).
  { intros p q Vp Vq E. rewrite (ull_num _ _ Vp), (ull_num _ _ Vq) in E. eapply num_inj; eauto. }
  assert (P : 1 < 2 ^ (32 + 8 * Z.of_nat k)) by (apply Z.pow_gt_1; lia).
  csplit; auto.
  - change (nl_lowest n) with pair_min. rewrite En. intros p V.
    destruct (C51_comparisons _ _ _ Hh W1 V) as (_ & _ & _ & A & _). destruct (C51_comparisons _ _ _ Hh V W2) as (_ & _ & _ & B & _).
    pose proof (Ex p V). split; [apply A|apply B]; lia.
  - unfold n, limits_of, digits, bytes. cbn [nl_digits]. lia.
  - rewrite En, Em. destruct (C50_arithmetic _ _ _ Hh W2 W2) as ((A & B) & _). apply Inj; auto.
    rewrite B, E1, E2. replace (2 ^ (32 + 8 * Z.of_nat k) - 1 + 1) with (2 ^ (32 + 8 * Z.of_nat k)) by lia. apply Z_mod_same_full.
  - rewrite En, Em. destruct (C50_arithmetic _ _ _ Hh W1 W1) as (_ & (A & B) & _). apply Inj; auto.
    rewrite B, E1, E2. symmetry. apply Z.mod_unique with (-1); lia.
  - split; [discriminate|]. intros (p & V & L). exfalso. pose proof (Ex p V). lia.
Qed.
Print Assumptions C121_limits.

(** What is printed is the number in decimal, without superfluous zeros; so different values are
    printed differently. *)
Theorem C121_print : forall k p, (1 <= k)%nat -> valid k p ->
  Z.of_N (N.of_uint (print p)) = ull p /\ Decimal.unorm (print p) = print p /\
  forall q, valid k q -> print p = print q -> p = q.
Proof.
  intros k p Hk V. assert (Hh : 1 <= 8 * Z.of_nat k) by lia. destruct (C51_extremes _ Hh) as (_ & _ & E1 & _ & Ex).
  assert (G : forall p, valid k p -> Z.of_N (N.of_uint (print p)) = ull p).
  { intros x Vx. unfold print. rewrite Unsigned.of_to. pose proof (Ex x Vx). apply Z2N.id. lia. }
  csplit; auto.
  - unfold print. rewrite <- Unsigned.to_of. rewrite Unsigned.of_to. auto.
  - intros q Vq E. pose proof (G p V) as A. pose proof (G q Vq) as B. rewrite E in A. rewrite A in B.
    rewrite (ull_num _ _ V), (ull_num _ _ Vq) in B. eapply num_inj; eauto.
Qed.
Print Assumptions C121_print.

(** Three elements of uint40 in a block of 16 bytes; the one in the middle is set to 2^39 + 258. *)
Example C121_case :
  let p := from_uint64 8 (2 ^ 39 + 258) in
  valid 1 p /\ store 1 p = [2; 1; 0; 0; 128] /\
  set 1 (repeat 255 16) 1 p = [255; 255; 255; 255; 255; 2; 1; 0; 0; 128; 255; 255; 255; 255; 255; 255] /\
  get 1 (set 1 (repeat 255 16) 1 p) 2 = nl_max (limits_of 1) /\
  print p = N.to_uint 549755814146.
Proof. cbv zeta. csplit; try (vm_compute; reflexivity); unfold valid, wf_pair, unsigned; cbn; lia. Qed.
