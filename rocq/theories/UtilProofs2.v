(** Lemmas about div_ceil, rounding, aligned allocation and block layout. *)
From Coq Require Import ZArith List Bool Lia.
From Verif Require Import UtilModel UtilSpec UtilProofs.
Local Open Scope Z_scope.

Lemma div_ceil_spec : forall w n d, 0 <= w -> unsigned w n -> 1 <= d ->
  exists q, div_ceil w n d = Some q /\ unsigned w q /\ n <= q * d /\
            (forall q', n <= q' * d -> q <= q').
Proof.
  intros w n d Hw [Hn1 Hn2] Hd. unfold div_ceil.
  destruct (Z.eqb_spec d 0); [lia|].
  pose proof (Z.div_mod n d ltac:(lia)) as E. pose proof (Z.mod_pos_bound n d ltac:(lia)) as B.
  assert (0 <= n / d) by (apply Z.div_pos; lia).
  set (q := n / d + (if n mod d =? 0 then 0 else 1)).
  assert (R : 0 <= q < 2 ^ w).
  { unfold q. destruct (Z.eqb_spec (n mod d) 0); nia. }
  exists q. split; [unfold wrap; rewrite Z.mod_small by auto; reflexivity|].
  split; [exact R|]. unfold q. destruct (Z.eqb_spec (n mod d) 0); split; try nia;
    intros q' Hq'; nia.
Qed.

Lemma land_high : forall w p n, 0 <= p <= w -> unsigned w n ->
  Z.land n (2 ^ w - 2 ^ p) = n / 2 ^ p * 2 ^ p.
Proof.
  intros w p n Hp Hn. unfold unsigned in Hn.
  replace (2 ^ w - 2 ^ p) with (Z.shiftl (Z.ones (w - p)) p).
  2:{ rewrite Z.shiftl_mul_pow2, Z.ones_equiv by lia.
      replace (2 ^ w) with (2 ^ (w - p) * 2 ^ p) by (rewrite <- Z.pow_add_r by lia; f_equal; lia).
      unfold Z.pred. ring. }
  rewrite <- Z.shiftr_div_pow2, <- Z.shiftl_mul_pow2 by lia.
  apply Z.bits_inj'. intros k Hk. rewrite Z.land_spec.
  destruct (Z.ltb_spec k p).
  - rewrite !Z.shiftl_spec_low by lia. apply andb_false_r.
  - rewrite !Z.shiftl_spec by lia. rewrite Z.shiftr_spec by lia.
    replace (k - p + p) with k by lia.
    destruct (Z.ltb_spec k w).
    + rewrite Z.ones_spec_low by lia. apply andb_true_r.
    + replace n with (n mod 2 ^ w) by (apply Z.mod_small; lia).
      rewrite Z.mod_pow2_bits_high by lia. reflexivity.
Qed.

Lemma round_up_value : forall w n p, 0 <= p < w -> unsigned w n ->
  round_up_to_power_of_two w n p =
    if n mod 2 ^ p =? 0 then n else (n / 2 ^ p * 2 ^ p + 2 ^ p) mod 2 ^ w.
Proof.
  intros w n p Hp Hn. unfold round_up_to_power_of_two. cbv zeta.
  assert (2 ^ p < 2 ^ w) by (apply Z.pow_lt_mono_r; lia).
  pose proof (pow32_pos p ltac:(lia)).
  rewrite Z.shiftl_mul_pow2, Z.mul_1_l by lia. unfold wrap.
  rewrite (Z.mod_small (2 ^ p)) by lia. rewrite (Z.mod_small (2 ^ p - 1)) by lia.
  rewrite land_ones_mod by lia.
  replace (2 ^ w - 1 - (2 ^ p - 1)) with (2 ^ w - 2 ^ p) by lia.
  rewrite land_high by (auto; lia). reflexivity.
Qed.

Lemma round_up_spec : forall w n p, 0 <= p < w -> unsigned w n -> n <= 2 ^ w - 2 ^ p ->
  let r := round_up_to_power_of_two w n p in
  unsigned w r /\ (2 ^ p | r) /\ n <= r /\ (forall r', (2 ^ p | r') -> n <= r' -> r <= r').
Proof.
  intros w n p Hp Hn Hfit. cbv zeta. rewrite round_up_value by auto. unfold unsigned in *.
  pose proof (pow32_pos p ltac:(lia)) as P.
  pose proof (Z.div_mod n (2 ^ p) ltac:(lia)) as E. pose proof (Z.mod_pos_bound n (2 ^ p) P) as B.
  assert (W : 2 ^ w = 2 ^ (w - p) * 2 ^ p) by (rewrite <- Z.pow_add_r by lia; f_equal; lia).
  destruct (Z.eqb_spec (n mod 2 ^ p) 0) as [Z0|Z0].
  - split; [lia|]. split; [apply Z.mod_divide; lia|]. split; [lia|]. auto.
  - assert (Q : n / 2 ^ p < 2 ^ (w - p) - 1).
    { apply Z.nle_gt. intros K. assert (2 ^ p * (2 ^ (w - p) - 1) <= 2 ^ p * (n / 2 ^ p)) by nia. lia. }
    rewrite Z.mod_small by nia.
    split; [nia|]. split; [exists (n / 2 ^ p + 1); ring|]. split; [lia|].
    intros r' [q ->] Hr. assert (n / 2 ^ p < q) by nia. nia.
Qed.

Lemma round_up_overflow : forall w n p, 0 <= p < w -> unsigned w n -> 2 ^ w - 2 ^ p < n ->
  round_up_to_power_of_two w n p = 0.
Proof.
  intros w n p Hp Hn Hfit. rewrite round_up_value by auto. unfold unsigned in *.
  pose proof (pow32_pos p ltac:(lia)) as P.
  pose proof (Z.div_mod n (2 ^ p) ltac:(lia)) as E. pose proof (Z.mod_pos_bound n (2 ^ p) P) as B.
  assert (W : 2 ^ w = 2 ^ (w - p) * 2 ^ p) by (rewrite <- Z.pow_add_r by lia; f_equal; lia).
  assert (Q : n / 2 ^ p = 2 ^ (w - p) - 1) by nia.
  destruct (Z.eqb_spec (n mod 2 ^ p) 0) as [Z0|Z0]; [nia|].
  rewrite Q. replace ((2 ^ (w - p) - 1) * 2 ^ p + 2 ^ p) with (1 * 2 ^ w) by lia.
  apply Z_mod_mult.
Qed.

Lemma aligned_result_spec : forall alignment buffer meta, 1 <= alignment ->
  let r := aligned_result alignment buffer meta in
  (alignment | r + meta) /\ buffer + 8 < r <= buffer + 8 + alignment.
Proof.
  intros a b m Ha. cbv zeta. unfold aligned_result.
  pose proof (Z.mod_pos_bound (b + 8 + m) a ltac:(lia)) as B.
  pose proof (Z.div_mod (b + 8 + m) a ltac:(lia)) as E. split; [|lia].
  exists ((b + 8 + m) / a + 1). lia.
Qed.

Lemma typed_block_elems : forall raw elem nref meta,
  1 <= elem -> 0 <= nref -> 0 <= meta -> elem + 16 * nref + meta <= raw < 2 ^ 64 ->
  let n := block_elems raw elem nref meta in
  1 <= n /\ n * elem + 16 * nref + meta <= raw < (n + 1) * elem + 16 * nref + meta.
Proof.
  intros raw elem nref meta He Hn Hm Hr. cbv zeta. unfold block_elems, bid_bytes, wrap.
  rewrite Z.mod_small by lia.
  set (x := raw - 16 * nref - meta).
  pose proof (Z.div_mod x elem ltac:(lia)). pose proof (Z.mod_pos_bound x elem ltac:(lia)).
  assert (1 <= x / elem) by (apply Z.div_le_lower_bound; unfold x; lia).
  unfold x in *. nia.
Qed.
