(** Lemmas about the helpers. *)
From Coq Require Import ZArith List Bool Lia Znumtheory.
From Verif Require Import UtilModel UtilSpec.
Local Open Scope Z_scope.

Lemma land_ones_mod : forall x n, 0 <= n -> Z.land x (2 ^ n - 1) = x mod 2 ^ n.
Proof.
  intros x n Hn. replace (2 ^ n - 1) with (Z.ones n) by (rewrite Z.ones_equiv; lia).
  apply Z.land_ones; auto.
Qed.

Lemma lor_shiftl_add : forall a b n, 0 <= n -> 0 <= b < 2 ^ n ->
  Z.lor (Z.shiftl a n) b = a * 2 ^ n + b.
Proof.
  intros a b n Hn Hb. rewrite <- Z.shiftl_mul_pow2 by auto.
  assert (D : Z.land (Z.shiftl a n) b = 0).
  { apply Z.bits_inj'. intros k Hk. rewrite Z.land_spec, Z.bits_0.
    destruct (Z.ltb_spec k n).
    - rewrite Z.shiftl_spec_low by lia. reflexivity.
    - replace b with (b mod 2 ^ n) by (apply Z.mod_small; lia).
      rewrite Z.mod_pow2_bits_high by lia. apply andb_false_r. }
  rewrite <- Z.lxor_lor by auto. rewrite <- Z.add_nocarry_lxor by auto. reflexivity.
Qed.

Lemma pow32_pos : forall h, 0 <= h -> 0 < 2 ^ h.
Proof. intros. apply Z.pow_pos_nonneg; lia. Qed.

Lemma ull_num : forall h p, wf_pair h p -> ull p = num p.
Proof.
  intros h p [Hl _]. unfold ull, num, low_bits. apply lor_shiftl_add; [lia|exact Hl].
Qed.

Lemma num_range : forall h p, 0 <= h -> wf_pair h p -> unsigned (32 + h) (num p).
Proof.
  intros h p Hh [Hl Hi]. unfold unsigned, num in *. rewrite Z.pow_add_r by lia.
  pose proof (pow32_pos h Hh). nia.
Qed.

Lemma from_uint64_parts : forall h a, 0 <= h ->
  from_uint64 h a = mk_upair (a mod 2 ^ 32) ((a / 2 ^ 32) mod 2 ^ h).
Proof.
  intros h a Hh. unfold from_uint64, low_max, high_max, low_bits.
  rewrite Z.shiftr_div_pow2 by lia. rewrite !land_ones_mod by lia. reflexivity.
Qed.

Lemma from_uint64_wf : forall h a, 0 <= h -> wf_pair h (from_uint64 h a).
Proof.
  intros h a Hh. rewrite from_uint64_parts by auto. pose proof (pow32_pos h Hh).
  split; unfold unsigned; cbn [low high]; apply Z.mod_pos_bound; lia.
Qed.

Lemma from_uint64_num : forall h a, 0 <= h -> num (from_uint64 h a) = a mod 2 ^ (32 + h).
Proof.
  intros h a Hh. rewrite from_uint64_parts by auto. unfold num; cbn [low high].
  rewrite Z.pow_add_r by lia. pose proof (pow32_pos h Hh).
  rewrite (Z.rem_mul_r a (2 ^ 32) (2 ^ h)) by lia. lia.
Qed.

Lemma num_inj : forall h p q, wf_pair h p -> wf_pair h q -> num p = num q -> p = q.
Proof.
  intros h [l1 h1] [l2 h2] [H1 H2] [H3 H4] E. unfold unsigned, num in *; simpl in *.
  assert (h1 = h2) by lia. assert (l1 = l2) by lia. congruence.
Qed.

Lemma assert_iff : forall h a, 0 <= h -> 0 <= a ->
  (from_uint64_assert h a = true <-> a < 2 ^ (32 + h)).
Proof.
  intros h a Hh Ha. unfold from_uint64_assert, low_bits.
  rewrite Z.shiftr_div_pow2 by lia. rewrite Z.eqb_eq.
  assert (0 < 2 ^ (32 + h)) by (apply Z.pow_pos_nonneg; lia).
  split; intros K.
  - apply Z.div_small_iff in K; lia.
  - apply Z.div_small; lia.
Qed.

Lemma wrap_range : forall w x, 0 <= w -> unsigned w (wrap w x).
Proof. intros w x Hw. unfold unsigned, wrap. apply Z.mod_pos_bound. apply pow32_pos; auto. Qed.

Lemma incr_spec : forall h p, 0 <= h -> wf_pair h p ->
  wf_pair h (incr h p) /\ num (incr h p) = (num p + 1) mod 2 ^ (32 + h).
Proof.
  intros h p Hh [Hl Hi]. pose proof (pow32_pos h Hh) as Ph.
  unfold incr, low_max. unfold unsigned in *.
  destruct (Z.eqb_spec (low p) (2 ^ 32 - 1)) as [E|E].
  - split.
    + split; simpl; [unfold unsigned; lia|apply wrap_range; auto].
    + unfold num; cbn [low high]. unfold wrap.
      rewrite Z.pow_add_r by lia.
      replace (high p * 2 ^ 32 + low p + 1) with (2 ^ 32 * (high p + 1)) by (rewrite E; ring).
      rewrite Zmult_mod_distr_l. ring.
  - assert (W : wrap 32 (low p + 1) = low p + 1) by (unfold wrap; apply Z.mod_small; lia).
    rewrite W. split.
    + split; unfold unsigned; simpl; lia.
    + unfold num; cbn [low high]. rewrite Z.mod_small; [lia|].
      rewrite Z.pow_add_r by lia. nia.
Qed.

Lemma decr_spec : forall h p, 0 <= h -> wf_pair h p ->
  wf_pair h (decr h p) /\ num (decr h p) = (num p - 1) mod 2 ^ (32 + h).
Proof.
  intros h p Hh [Hl Hi]. pose proof (pow32_pos h Hh) as Ph.
  unfold decr, low_max. unfold unsigned in *.
  destruct (Z.eqb_spec (low p) 0) as [E|E].
  - split.
    + split; simpl; [unfold unsigned; lia|apply wrap_range; auto].
    + unfold num; cbn [low high]. unfold wrap. rewrite E.
      rewrite Z.pow_add_r by lia.
      destruct (Z.eq_dec (high p) 0) as [Z0|Z0].
      * rewrite Z0. replace ((0 - 1) mod 2 ^ h) with (2 ^ h - 1).
        2:{ symmetry. rewrite <- (Z_mod_plus_full _ 1). rewrite Z.mod_small; lia. }
        symmetry. rewrite <- (Z_mod_plus_full _ 1). rewrite Z.mod_small; nia.
      * rewrite (Z.mod_small (high p - 1)) by lia. rewrite Z.mod_small; nia.
  - assert (W : wrap 32 (low p - 1) = low p - 1) by (unfold wrap; apply Z.mod_small; lia).
    rewrite W. split.
    + split; unfold unsigned; simpl; lia.
    + unfold num; cbn [low high]. rewrite Z.mod_small; [lia|].
      rewrite Z.pow_add_r by lia. nia.
Qed.

Lemma add_spec : forall h p b, 1 <= h -> wf_pair h p -> wf_pair h b ->
  wf_pair h (add h p b) /\ num (add h p b) = (num p + num b) mod 2 ^ (32 + h).
Proof.
  intros h p b Hh [Hl Hi] [Hl' Hi']. pose proof (pow32_pos h ltac:(lia)) as Ph.
  assert (2 ^ 1 <= 2 ^ h) by (apply Z.pow_le_mono_r; lia).
  unfold add, unsigned in *. cbv zeta.
  assert (W : wrap 64 (low p + low b) = low p + low b) by (unfold wrap; apply Z.mod_small; lia).
  rewrite W. unfold low_max, high_max, low_bits.
  rewrite Z.shiftr_div_pow2 by lia. rewrite !land_ones_mod by lia.
  assert (C : 0 <= (low p + low b) / 2 ^ 32 <= 1).
  { split; [apply Z.div_pos; lia|]. apply Z.lt_succ_r. apply Z.div_lt_upper_bound; lia. }
  rewrite (Z.mod_small ((low p + low b) / 2 ^ 32)) by lia.
  split.
  - split; cbn [low high]; [unfold unsigned; apply Z.mod_pos_bound; lia|apply wrap_range; lia].
  - unfold num; cbn [low high]. unfold wrap. rewrite Z.pow_add_r by lia.
    pose proof (Z.div_mod (low p + low b) (2 ^ 32) ltac:(lia)) as E.
    set (c := (low p + low b) / 2 ^ 32) in *. set (m := (low p + low b) mod 2 ^ 32) in *.
    replace (high p * 2 ^ 32 + low p + (high b * 2 ^ 32 + low b))
      with (m + 2 ^ 32 * (high p + high b + c)) by lia.
    assert (0 <= m < 2 ^ 32) by (apply Z.mod_pos_bound; lia).
    rewrite (Z.rem_mul_r (m + 2 ^ 32 * (high p + high b + c)) (2 ^ 32) (2 ^ h)) by lia.
    replace (m + 2 ^ 32 * (high p + high b + c)) with (m + (high p + high b + c) * 2 ^ 32) by ring.
    rewrite Z_mod_plus_full, Z.div_add by lia. rewrite (Z.mod_small m), (Z.div_small m) by lia.
    rewrite Z.add_0_l. ring.
Qed.

Lemma from_int32_spec : forall h a, 0 <= h -> - 2 ^ 31 <= a < 2 ^ 31 ->
  wf_pair h (from_int32 h a) /\ num (from_int32 h a) = a mod 2 ^ (32 + h).
Proof.
  intros h a Hh Ha. pose proof (pow32_pos h Hh) as Ph. unfold from_int32, high_max, wrap.
  rewrite Z.pow_add_r by lia. destruct (Z.leb_spec 0 a).
  - split.
    + split; unfold unsigned; cbn [low high]; [apply Z.mod_pos_bound|]; lia.
    + unfold num; cbn [low high]. rewrite !Z.mod_small; try nia.
  - assert (E : a mod 2 ^ 32 = a + 2 ^ 32).
    { rewrite <- (Z_mod_plus_full a 1). rewrite Z.mod_small; lia. }
    rewrite E. split.
    + split; unfold unsigned; cbn [low high]; lia.
    + unfold num; cbn [low high]. rewrite <- (Z_mod_plus_full a 1). rewrite Z.mod_small; nia.
Qed.

(** * longhash1 *)

Lemma bijection_comp : forall w f g, bijection w f -> bijection w g ->
  bijection w (fun x => g (f x)).
Proof.
  intros w f g (F1 & F2 & F3) (G1 & G2 & G3). split; [|split].
  - auto.
  - intros y Hy. destruct (G2 y Hy) as (z & Hz & <-). destruct (F2 z Hz) as (x & Hx & <-). eauto.
  - intros x y Hx Hy E. apply F3; auto.
Qed.

Lemma xor_shr_twice : forall k x, 0 <= k -> xor_shr k (xor_shr k x) = xor_shr (k + k) x.
Proof.
  intros k x Hk. unfold xor_shr. rewrite Z.shiftr_lxor, Z.shiftr_shiftr by lia.
  rewrite <- Z.lxor_assoc. rewrite (Z.lxor_assoc x (Z.shiftr x k) (Z.shiftr x k)).
  rewrite Z.lxor_nilpotent, Z.lxor_0_r. reflexivity.
Qed.

Lemma lxor_range : forall w x y, 0 <= w -> unsigned w x -> unsigned w y -> unsigned w (Z.lxor x y).
Proof.
  intros w x y Hw Hx Hy. unfold unsigned in *.
  assert (E : Z.lxor x y = Z.lxor x y mod 2 ^ w).
  { apply Z.bits_inj'. intros n Hn. destruct (Z.ltb_spec n w).
    - rewrite Z.mod_pow2_bits_low by lia. reflexivity.
    - rewrite Z.mod_pow2_bits_high by lia. rewrite Z.lxor_spec.
      replace x with (x mod 2 ^ w) by (apply Z.mod_small; lia).
      replace y with (y mod 2 ^ w) by (apply Z.mod_small; lia).
      rewrite !Z.mod_pow2_bits_high by lia. reflexivity. }
  rewrite E. apply Z.mod_pos_bound. apply pow32_pos; auto.
Qed.

Lemma xor_shr_range : forall w k x, 0 <= w -> 0 <= k -> unsigned w x -> unsigned w (xor_shr k x).
Proof.
  intros w k x Hw Hk Hx. unfold xor_shr. apply lxor_range; auto.
  unfold unsigned in *. rewrite Z.shiftr_div_pow2 by auto.
  assert (1 <= 2 ^ k) by (pose proof (pow32_pos k Hk); lia).
  split; [apply Z.div_pos; lia|].
  apply Z.le_lt_trans with x; [|lia]. apply Z.div_le_upper_bound; nia.
Qed.

Lemma xor_shr_big : forall w k x, 0 <= w <= k -> unsigned w x -> xor_shr k x = x.
Proof.
  intros w k x Hk Hx. unfold xor_shr, unsigned in *. rewrite Z.shiftr_div_pow2 by lia.
  rewrite Z.div_small; [apply Z.lxor_0_r|]. split; [lia|].
  apply Z.lt_le_trans with (2 ^ w); [lia|]. apply Z.pow_le_mono_r; lia.
Qed.

Lemma xor_shr_inj : forall w k x y, 0 <= w -> 0 < k -> unsigned w x -> unsigned w y ->
  xor_shr k x = xor_shr k y -> x = y.
Proof.
  intros w k x y Hw Hk Hx Hy E.
  assert (K : xor_shr k (Z.lxor x y) = 0).
  { unfold xor_shr in *. rewrite Z.shiftr_lxor.
    rewrite <- Z.lxor_assoc. rewrite (Z.lxor_assoc x y), (Z.lxor_comm y), <- Z.lxor_assoc, E.
    rewrite (Z.lxor_assoc (Z.lxor y (Z.shiftr y k)) y).
    rewrite Z.lxor_nilpotent. reflexivity. }
  apply Z.lxor_eq. pose proof (lxor_range _ _ _ Hw Hx Hy) as Hz. set (z := Z.lxor x y) in *.
  unfold xor_shr in K. apply Z.lxor_eq in K. rewrite Z.shiftr_div_pow2 in K by lia.
  destruct (Z.eq_dec z 0) as [|Hz0]; auto. exfalso.
  assert (2 ^ 1 <= 2 ^ k) by (apply Z.pow_le_mono_r; lia).
  assert (z / 2 ^ k < z) by (apply Z.div_lt; unfold unsigned in Hz; lia). lia.
Qed.

Lemma xor_shr_bijection : forall k, 0 < k -> bijection 64 (xor_shr k).
Proof.
  intros k Hk. split; [|split].
  - intros; apply xor_shr_range; auto; lia.
  - intros y Hy.
    exists (xor_shr k (xor_shr (2*k) (xor_shr (4*k) (xor_shr (8*k) (xor_shr (16*k) (xor_shr (32*k) y)))))).
    split; [repeat (apply xor_shr_range; try lia); auto|].
    rewrite xor_shr_twice by lia. replace (k + k) with (2 * k) by lia.
    rewrite xor_shr_twice by lia. replace (2 * k + 2 * k) with (4 * k) by lia.
    rewrite xor_shr_twice by lia. replace (4 * k + 4 * k) with (8 * k) by lia.
    rewrite xor_shr_twice by lia. replace (8 * k + 8 * k) with (16 * k) by lia.
    rewrite xor_shr_twice by lia. replace (16 * k + 16 * k) with (32 * k) by lia.
    rewrite xor_shr_twice by lia. apply xor_shr_big with 64; auto; lia.
  - intros x y Hx Hy E. apply (xor_shr_inj 64 k); auto; lia.
Qed.

Lemma affine_bijection : forall w m i c f, 0 <= w ->
  (m * i) mod 2 ^ w = 1 mod 2 ^ w ->
  (forall x, unsigned w x -> f x = (m * x + c) mod 2 ^ w) -> bijection w f.
Proof.
  intros w m i c f Hw Hi Hf. pose proof (pow32_pos w Hw) as P.
  assert (K : forall z, (i * (m * z)) mod 2 ^ w = z mod 2 ^ w).
  { intros z. replace (i * (m * z)) with ((m * i) * z) by ring.
    rewrite Z.mul_mod, Hi, <- Z.mul_mod by lia. f_equal. ring. }
  split; [|split].
  - intros x Hx. rewrite Hf by auto. apply Z.mod_pos_bound; auto.
  - intros y Hy. exists ((i * (y - c)) mod 2 ^ w).
    assert (U : unsigned w ((i * (y - c)) mod 2 ^ w)) by (apply Z.mod_pos_bound; auto).
    split; auto. rewrite Hf by auto.
    rewrite Z.add_mod, Z.mul_mod_idemp_r by lia.
    replace (m * (i * (y - c))) with (i * (m * (y - c))) by ring. rewrite K.
    rewrite <- Z.add_mod by lia. replace (y - c + c) with y by ring.
    apply Z.mod_small; auto.
  - intros x y Hx Hy E. rewrite !Hf in E by auto.
    assert (M : (m * x) mod 2 ^ w = (m * y) mod 2 ^ w).
    { replace (m * x) with ((m * x + c) - c) by ring. replace (m * y) with ((m * y + c) - c) by ring.
      rewrite Zminus_mod, E, <- Zminus_mod. reflexivity. }
    rewrite <- (Z.mod_small x (2 ^ w)), <- (Z.mod_small y (2 ^ w)) by auto.
    rewrite <- (K x), <- (K y). rewrite Z.mul_mod, M, <- Z.mul_mod by lia. reflexivity.
Qed.

Lemma add_not_shl_affine : forall k x, 0 <= k ->
  add_not_shl k x = ((1 - 2 ^ k) * x + (-1)) mod 2 ^ 64.
Proof.
  intros k x Hk. unfold add_not_shl, lnot64, wrap. rewrite Z.shiftl_mul_pow2 by auto.
  replace (x + (2 ^ 64 - 1 - (x * 2 ^ k) mod 2 ^ 64)) with ((x - 1 - (x * 2 ^ k) mod 2 ^ 64) + 1 * 2 ^ 64) by ring.
  rewrite Z_mod_plus_full. rewrite Zminus_mod_idemp_r. f_equal. ring.
Qed.

Lemma add_shl_affine : forall k x, 0 <= k -> add_shl k x = ((1 + 2 ^ k) * x + 0) mod 2 ^ 64.
Proof.
  intros k x Hk. unfold add_shl, wrap. rewrite Z.shiftl_mul_pow2 by auto.
  rewrite Zplus_mod_idemp_r. f_equal. ring.
Qed.

Lemma longhash1_bijection : bijection 64 longhash1.
Proof.
  unfold longhash1. cbv zeta.
  assert (A : bijection 64 (add_not_shl 32)).
  { apply (affine_bijection 64 (1 - 2 ^ 32) (1 + 2 ^ 32) (-1)); [lia|reflexivity|].
    intros; apply add_not_shl_affine; lia. }
  assert (B : bijection 64 (add_not_shl 13)).
  { apply (affine_bijection 64 (1 - 2 ^ 13) (1 + 2 ^ 13 + 2 ^ 26 + 2 ^ 39 + 2 ^ 52) (-1)); [lia|reflexivity|].
    intros; apply add_not_shl_affine; lia. }
  assert (C : bijection 64 (add_shl 3)).
  { apply (affine_bijection 64 (1 + 2 ^ 3) 10248191152060862009 0); [lia|reflexivity|].
    intros; apply add_shl_affine; lia. }
  assert (D : bijection 64 (add_not_shl 27)).
  { apply (affine_bijection 64 (1 - 2 ^ 27) (1 + 2 ^ 27 + 2 ^ 54) (-1)); [lia|reflexivity|].
    intros; apply add_not_shl_affine; lia. }
  pose proof (bijection_comp _ _ _ A (xor_shr_bijection 22 ltac:(lia))) as H1.
  pose proof (bijection_comp _ _ _ H1 B) as H2.
  pose proof (bijection_comp _ _ _ H2 (xor_shr_bijection 8 ltac:(lia))) as H3.
  pose proof (bijection_comp _ _ _ H3 C) as H4.
  pose proof (bijection_comp _ _ _ H4 (xor_shr_bijection 15 ltac:(lia))) as H5.
  pose proof (bijection_comp _ _ _ H5 D) as H6.
  exact (bijection_comp _ _ _ H6 (xor_shr_bijection 31 ltac:(lia))).
Qed.
