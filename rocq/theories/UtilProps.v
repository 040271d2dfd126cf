(** Theorems about the helpers (properties C50-C52, C55-C57). *)
From Coq Require Import ZArith List Bool Lia.
From Verif Require Import UtilModel UtilSpec UtilProofs UtilProofs2.
Local Open Scope Z_scope.

Ltac csplit := repeat match goal with |- _ /\ _ => split end.

(** C50: arithmetic of uint_pair with a high part of [h] bits (8 and 16 in the
    code), in terms of the 64-bit integer [ull] returns. *)
Theorem C50_roundtrip : forall h, 1 <= h ->
  (forall a, unsigned (32 + h) a ->
     from_uint64_assert h a = true /\ wf_pair h (from_uint64 h a) /\ ull (from_uint64 h a) = a) /\
  (forall p, wf_pair h p -> unsigned (32 + h) (ull p) /\ from_uint64 h (ull p) = p) /\
  (forall a, 0 <= a -> ~ unsigned (32 + h) a -> from_uint64_assert h a = false).
Proof.
  intros h Hh. split; [|split].
  - intros a Ha. pose proof (from_uint64_wf h a ltac:(lia)) as W. csplit; auto.
    + apply assert_iff; unfold unsigned in *; lia.
    + rewrite (ull_num h), from_uint64_num by (auto; lia). apply Z.mod_small. exact Ha.
  - intros p Hp. rewrite (ull_num h) by auto. pose proof (num_range h p ltac:(lia) Hp) as R.
    split; auto. apply (num_inj h); auto; [apply from_uint64_wf; lia|].
    rewrite from_uint64_num by lia. apply Z.mod_small. exact R.
  - intros a Ha Hn. destruct (from_uint64_assert h a) eqn:E; auto.
    apply assert_iff in E; try lia. exfalso. apply Hn. unfold unsigned. lia.
Qed.
Print Assumptions C50_roundtrip.

Theorem C50_arithmetic : forall h p b, 1 <= h -> wf_pair h p -> wf_pair h b ->
  (wf_pair h (incr h p) /\ ull (incr h p) = (ull p + 1) mod 2 ^ (32 + h)) /\
  (wf_pair h (decr h p) /\ ull (decr h p) = (ull p - 1) mod 2 ^ (32 + h)) /\
  (wf_pair h (add h p b) /\ ull (add h p b) = (ull p + ull b) mod 2 ^ (32 + h)).
Proof.
  intros h p b Hh Hp Hb.
  destruct (incr_spec h p ltac:(lia) Hp) as [W1 E1].
  destruct (decr_spec h p ltac:(lia) Hp) as [W2 E2].
  destruct (add_spec h p b ltac:(lia) Hp Hb) as [W3 E3].
  rewrite !(ull_num h) by auto. auto.
Qed.
Print Assumptions C50_arithmetic.

Theorem C50_from_int : forall h a, 1 <= h ->
  (unsigned 32 a -> wf_pair h (from_uint32 a) /\ ull (from_uint32 a) = a) /\
  (- 2 ^ 31 <= a < 2 ^ 31 ->
     wf_pair h (from_int32 h a) /\ ull (from_int32 h a) = a mod 2 ^ (32 + h)).
Proof.
  intros h a Hh. split; intros Ha.
  - assert (W : wf_pair h (from_uint32 a)).
    { split; auto. unfold unsigned; simpl. pose proof (pow32_pos h ltac:(lia)). lia. }
    split; [exact W|]. rewrite (ull_num h) by exact W. reflexivity.
  - destruct (from_int32_spec h a ltac:(lia) Ha) as [W E]. rewrite (ull_num h) by auto. auto.
Qed.
Print Assumptions C50_from_int.
(** Carries in both directions, at the width of uint40. *)
Example C50_case :
  ull (incr 8 (from_uint64 8 4294967295)) = 4294967296 /\
  ull (decr 8 (from_uint64 8 0)) = 1099511627775 /\
  ull (add 8 (from_uint64 8 1099511627775) (from_uint64 8 5000000000)) = 4999999999 /\
  ull (from_int32 16 (-2)) = 281474976710654.
Proof. vm_compute. auto. Qed.

(** C51 *)
Theorem C51_comparisons : forall h a b, 1 <= h -> wf_pair h a -> wf_pair h b ->
  (eq_pair a b = true <-> ull a = ull b) /\ (ne_pair a b = true <-> ull a <> ull b) /\
  (lt_pair a b = true <-> ull a < ull b) /\ (le_pair a b = true <-> ull a <= ull b) /\
  (gt_pair a b = true <-> ull a > ull b) /\ (ge_pair a b = true <-> ull a >= ull b).
Proof.
  intros h a b Hh Ha Hb. rewrite !(ull_num h) by auto.
  destruct Ha as [A1 A2], Hb as [B1 B2].
  unfold eq_pair, ne_pair, lt_pair, le_pair, gt_pair, ge_pair, num, unsigned in *.
  rewrite ?orb_true_iff, ?andb_true_iff, ?negb_true_iff, ?Z.eqb_eq, ?Z.eqb_neq, ?Z.ltb_lt, ?Z.leb_le.
  csplit; lia.
Qed.
Print Assumptions C51_comparisons.

Theorem C51_extremes : forall h, 1 <= h ->
  wf_pair h pair_min /\ wf_pair h (pair_max h) /\
  ull pair_min = 0 /\ ull (pair_max h) = 2 ^ (32 + h) - 1 /\
  (forall p, wf_pair h p -> ull pair_min <= ull p <= ull (pair_max h)).
Proof.
  intros h Hh. pose proof (pow32_pos h ltac:(lia)) as P.
  assert (W1 : wf_pair h pair_min) by (split; unfold unsigned; simpl; lia).
  assert (W2 : wf_pair h (pair_max h)) by (split; unfold unsigned, pair_max, low_max, high_max; cbn [low high]; lia).
  assert (M : num (pair_max h) = 2 ^ (32 + h) - 1).
  { unfold num, pair_max, low_max, high_max; cbn [low high]. rewrite Z.pow_add_r by lia. ring. }
  assert (N : num pair_min = 0) by reflexivity.
  rewrite (ull_num h pair_min), (ull_num h (pair_max h)) by auto. csplit; auto.
  intros p Hp. rewrite (ull_num h p) by auto. pose proof (num_range h p ltac:(lia) Hp) as R.
  unfold unsigned in R. lia.
Qed.
Print Assumptions C51_extremes.
Example C51_case : lt_pair (from_uint64 8 4294967295) (from_uint64 8 4294967296) = true /\
  gt_pair (from_uint64 8 8589934592) (from_uint64 8 4294967299) = true.
Proof. vm_compute. auto. Qed.

(** C52: whatever addresses malloc returns and whether or not realloc moves the
    block, the data (behind the meta information) is aligned, pointer, meta
    information and data lie inside the buffer of the given final size, the
    back pointer fits in front of the result, and aligned_dealloc frees that
    buffer, whatever the user writes into the meta information and the data. *)
Theorem C52_aligned_allocation : forall alignment size meta realloc moved buf1 buf2 ptr buf total realloc',
  1 <= alignment -> 0 <= size -> 0 <= meta -> 0 < buf1 -> 0 < buf2 ->
  aligned_alloc alignment size meta realloc moved buf1 buf2 = (ptr, buf, total, realloc') ->
  (alignment | ptr + meta) /\
  buf <= ptr - 8 /\ ptr + meta + size <= buf + total /\ total <= alloc_size alignment size meta /\
  (forall mem mem', (forall a, a + 8 <= ptr -> mem' a = store_back_pointer mem ptr buf a) ->
     aligned_dealloc mem' ptr = Some buf).
Proof.
  intros alignment size meta realloc moved buf1 buf2 ptr buf total realloc' Ha Hs Hm H1 H2 E.
  unfold aligned_alloc in E.
  assert (D : forall b, 0 < b -> ptr = aligned_result alignment b meta -> forall mem mem',
    (forall a, a + 8 <= ptr -> mem' a = store_back_pointer mem ptr b a) ->
     aligned_dealloc mem' ptr = Some b).
  { intros b Hb -> mem mem' Hmem. pose proof (aligned_result_spec alignment b meta Ha) as (_ & R).
    unfold aligned_dealloc. destruct (Z.eqb_spec (aligned_result alignment b meta) 0); [lia|].
    rewrite Hmem by lia. unfold store_back_pointer. rewrite Z.eqb_refl. reflexivity. }
  pose proof (aligned_result_spec alignment buf1 meta Ha) as (A1 & R1).
  pose proof (aligned_result_spec alignment buf2 meta Ha) as (A2 & R2).
  unfold realloc_size, alloc_size in *.
  match type of E with context [if ?b then _ else _] => destruct b eqn:C end.
  - apply andb_true_iff in C. destruct C as [C _]. apply Z.ltb_lt in C.
    destruct moved; inversion E; subst; csplit; auto; try lia; apply D; auto.
  - inversion E; subst; csplit; auto; try lia; apply D; auto.
Qed.
Print Assumptions C52_aligned_allocation.
Example C52_case : aligned_alloc 4096 100 8 true false 1000 0 = (4088, 1000, 3196, true) /\
  aligned_alloc 4096 100 8 true true 1000 20000 = (20472, 20000, 4212, false).
Proof. vm_compute. auto. Qed.

(** C55 *)
Theorem C55_div_ceil : forall w n d, 0 <= w -> unsigned w n -> 1 <= d ->
  exists q, div_ceil w n d = Some q /\ unsigned w q /\ n <= q * d /\
            (forall q', n <= q' * d -> q <= q').
Proof. exact div_ceil_spec. Qed.
Print Assumptions C55_div_ceil.

Theorem C55_round_up : forall w n p, 0 <= p < w -> unsigned w n -> n <= 2 ^ w - 2 ^ p ->
  let r := round_up_to_power_of_two w n p in
  unsigned w r /\ (2 ^ p | r) /\ n <= r /\ (forall r', (2 ^ p | r') -> n <= r' -> r <= r').
Proof. exact round_up_spec. Qed.
Print Assumptions C55_round_up.

(** Without the bound the result wraps to zero, for every such input. *)
Theorem C55_round_up_overflow : forall w n p, 0 <= p < w -> unsigned w n -> 2 ^ w - 2 ^ p < n ->
  round_up_to_power_of_two w n p = 0.
Proof. exact round_up_overflow. Qed.
Print Assumptions C55_round_up_overflow.
Example C55_case : div_ceil 64 (2 ^ 64 - 1) 2 = Some (2 ^ 63) /\ div_ceil 64 0 7 = Some 0 /\
  round_up_to_power_of_two 64 48 4 = 48 /\ round_up_to_power_of_two 64 49 4 = 64 /\
  round_up_to_power_of_two 64 (2 ^ 64 - 1) 12 = 0.
Proof. vm_compute. auto. Qed.

(** C56 *)
Theorem C56_longhash1_bijective : bijection 64 longhash1.
Proof. exact longhash1_bijection. Qed.
Print Assumptions C56_longhash1_bijective.
Example C56_case : longhash1 0 <> longhash1 (2 ^ 32) /\ unsigned 64 (longhash1 0).
Proof. split; [vm_compute; discriminate|split; vm_compute; [discriminate|reflexivity]]. Qed.

(** C57: elements, references, meta information and filler follow each other
    without overlap, fill the raw block exactly, and one more element would not
    have fitted. *)
Theorem C57_layout : forall raw elem nref meta,
  1 <= elem -> 0 <= nref -> 0 <= meta -> elem + bid_bytes * nref + meta <= raw < 2 ^ 64 ->
  let n := block_elems raw elem nref meta in
  1 <= n /\
  (forall i j, 0 <= i < j -> j < n -> ends_before (elem_offset elem i) elem (elem_offset elem j)) /\
  (forall i, 0 <= i < n -> 0 <= elem_offset elem i /\
     ends_before (elem_offset elem i) elem (ref_offset raw elem nref meta 0)) /\
  (forall i j, 0 <= i < j -> j <= nref ->
     ends_before (ref_offset raw elem nref meta i) bid_bytes (ref_offset raw elem nref meta j)) /\
  ends_before (info_offset raw elem nref meta) meta (filler_offset raw elem nref meta) /\
  filler_offset raw elem nref meta + filler_size raw elem nref meta = raw /\
  0 <= filler_size raw elem nref meta < elem.
Proof.
  intros raw elem nref meta He Hn Hm Hr. unfold bid_bytes in Hr.
  destruct (typed_block_elems raw elem nref meta He Hn Hm Hr) as [N1 N2]. cbv zeta.
  unfold ends_before, filler_size, filler_offset, info_offset, ref_offset, elem_offset, bid_bytes, wrap.
  set (n := block_elems raw elem nref meta) in *.
  assert (F : 0 <= raw - (elem * n + 16 * nref + meta) < elem) by nia.
  rewrite Z.mod_small by nia.
  csplit; intros; try split; try nia.
Qed.
Print Assumptions C57_layout.

(** [has_only_data] decides whether elements can be addressed across an array
    of blocks as if it were one array of elements. *)
Theorem C57_has_only_data : forall raw elem nref meta,
  1 <= elem -> 0 <= nref -> 0 <= meta -> elem + bid_bytes * nref + meta <= raw < 2 ^ 64 ->
  let n := block_elems raw elem nref meta in
  (has_only_data raw elem nref meta = true <->
   forall i, 0 <= i -> raw * (i / n) + elem_offset elem (i mod n) = elem * i) /\
  (has_only_data raw elem nref meta = true <->
   nref = 0 /\ meta = 0 /\ filler_size raw elem nref meta = 0).
Proof.
  intros raw elem nref meta He Hn Hm Hr. unfold bid_bytes in Hr.
  destruct (typed_block_elems raw elem nref meta He Hn Hm Hr) as [N1 N2]. cbv zeta.
  unfold has_only_data, filler_size, filler_offset, info_offset, ref_offset, elem_offset, bid_bytes, wrap.
  set (n := block_elems raw elem nref meta) in *. rewrite Z.eqb_eq.
  split; split.
  - intros E i Hi. pose proof (Z.div_mod i n ltac:(lia)) as D. rewrite E.
    replace (n * elem * (i / n) + elem * (i mod n)) with (elem * (n * (i / n) + i mod n)) by ring.
    rewrite <- D. reflexivity.
  - intros K. specialize (K n ltac:(lia)). rewrite Z.div_same, Z.mod_same in K by lia. lia.
  - intros E. assert (F : raw - (elem * n + 16 * nref + meta) = 0) by nia.
    rewrite F. csplit; try nia; reflexivity.
  - intros (-> & -> & K). rewrite Z.mod_small in K by nia. nia.
Qed.
Print Assumptions C57_has_only_data.
Example C57_case : block_elems 4096 12 2 4 = 338 /\ filler_size 4096 12 2 4 = 4 /\
  has_only_data 4096 12 2 4 = false /\ has_only_data 4096 8 0 0 = true.
Proof. vm_compute. auto. Qed.
