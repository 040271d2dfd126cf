(** Model of the small integer and memory helpers.

    Sources (in /repo/foxxll):
      common/uint_types.hpp 52-248     uint_pair (uint40, uint48)
      common/utils.hpp 61-73, 75-86, 95-106   div_ceil, longhash1, round_up_to_power_of_two
      common/aligned_alloc.hpp 48-131  aligned_alloc, aligned_dealloc
      mng/typed_block.hpp 45-284       layout of typed_block

    Machine integers are numbers with explicit wrap-around; bit operations are
    those of the standard library on Z. *)
From Coq Require Import ZArith List Bool.
Import ListNotations.
Local Open Scope Z_scope.

(** Conversion to an unsigned type of [w] bits, uint_types.hpp lines 135-136, 184-185. *)
Definition wrap (w x : Z) : Z := x mod 2 ^ w.

(** * uint_pair<HighType>, [h] = 8 * sizeof(HighType) *)

(** uint_types.hpp lines 63-65. *)
Record upair := mk_upair { low : Z; high : Z }.

(** Limits of the parts, uint_types.hpp:68-83. *)
Definition low_bits : Z := 32.
(** uint_types.hpp lines 68-71. *)
Definition low_max : Z := 2 ^ 32 - 1.
(** uint_types.hpp lines 77-80. *)
Definition high_max (h : Z) : Z := 2 ^ h - 1.

(** Constructor from uint32_t, uint_types.hpp lines 119-121. *)
Definition from_uint32 (a : Z) : upair := mk_upair a 0.

(** Constructor from int32_t, uint_types.hpp lines 124-131. *)
Definition from_int32 (h a : Z) : upair :=
  if 0 <=? a then mk_upair (wrap 32 a) 0 else mk_upair (wrap 32 a) (high_max h).

(** Constructor from uint64_t, uint_types.hpp lines 134-140, and the condition it asserts. *)
Definition from_uint64 (h a : Z) : upair :=
  mk_upair (Z.land a low_max) (Z.land (Z.shiftr a low_bits) (high_max h)).
(** uint_types.hpp line 139. *)
Definition from_uint64_assert (h a : Z) : bool := Z.shiftr a (low_bits + h) =? 0.

(** ull, u64 and the cast operator, uint_types.hpp lines 143-158. *)
Definition ull (p : upair) : Z := Z.lor (Z.shiftl (high p) low_bits) (low p).

(** Prefix ++, uint_types.hpp lines 161-168. *)
Definition incr (h : Z) (p : upair) : upair :=
  if low p =? low_max then mk_upair 0 (wrap h (high p + 1))
  else mk_upair (wrap 32 (low p + 1)) (high p).

(** Prefix --, uint_types.hpp lines 171-178. *)
Definition decr (h : Z) (p : upair) : upair :=
  if low p =? 0 then mk_upair low_max (wrap h (high p - 1))
  else mk_upair (wrap 32 (low p - 1)) (high p).

(** +=, uint_types.hpp lines 181-187. *)
Definition add (h : Z) (p b : upair) : upair :=
  let sum := wrap 64 (low p + low b) in
  mk_upair (Z.land sum low_max)
           (wrap h (high p + high b + Z.land (Z.shiftr sum low_bits) (high_max h))).

(** Comparisons, uint_types.hpp lines 190-223. *)
Definition eq_pair (a b : upair) : bool := (low a =? low b) && (high a =? high b).
(** uint_types.hpp lines 196-199. *)
Definition ne_pair (a b : upair) : bool := negb (low a =? low b) || negb (high a =? high b).
(** uint_types.hpp lines 202-205. *)
Definition lt_pair (a b : upair) : bool :=
  (high a <? high b) || ((high a =? high b) && (low a <? low b)).
(** uint_types.hpp lines 208-211. *)
Definition le_pair (a b : upair) : bool :=
  (high a <? high b) || ((high a =? high b) && (low a <=? low b)).
(** uint_types.hpp lines 214-217. *)
Definition gt_pair (a b : upair) : bool :=
  (high b <? high a) || ((high a =? high b) && (low b <? low a)).
(** uint_types.hpp lines 220-223. *)
Definition ge_pair (a b : upair) : bool :=
  (high b <? high a) || ((high a =? high b) && (low b <=? low a)).

(** min and max, uint_types.hpp lines 232-247. *)
Definition pair_min : upair := mk_upair 0 0.
(** uint_types.hpp lines 241-247. *)
Definition pair_max (h : Z) : upair := mk_upair low_max (high_max h).

(** * utils.hpp *)

(** div_ceil on an unsigned type, utils.hpp:61-73: [None] is a division by
    zero.  (The sum cannot wrap: see the theorem.) *)
Definition div_ceil (w n d : Z) : option Z :=
  if d =? 0 then None
  else Some (wrap w (n / d + (if n mod d =? 0 then 0 else 1))).

(** longhash1, utils.hpp:75-86: [key += ~(key << k)], [key += (key << k)],
    [key ^= (key >> k)] on uint64_t. *)
Definition lnot64 (x : Z) : Z := 2 ^ 64 - 1 - x.
(** utils.hpp lines 77, 79, 83. *)
Definition add_not_shl (k x : Z) : Z := wrap 64 (x + lnot64 (wrap 64 (Z.shiftl x k))).
(** utils.hpp line 81. *)
Definition add_shl (k x : Z) : Z := wrap 64 (x + wrap 64 (Z.shiftl x k)).
(** utils.hpp lines 78, 80, 82, 84. *)
Definition xor_shr (k x : Z) : Z := Z.lxor x (Z.shiftr x k).

(** utils.hpp lines 75-86. *)
Definition longhash1 (key : Z) : Z :=
  let key := add_not_shl 32 key in
  let key := xor_shr 22 key in
  let key := add_not_shl 13 key in
  let key := xor_shr 8 key in
  let key := add_shl 3 key in
  let key := xor_shr 15 key in
  let key := add_not_shl 27 key in
  let key := xor_shr 31 key in
  key.

(** round_up_to_power_of_two, utils.hpp:95-106, on an unsigned type of [w] bits
    ([power] < w; otherwise the shift is undefined). *)
Definition round_up_to_power_of_two (w n power : Z) : Z :=
  let pot := wrap w (Z.shiftl 1 power) in
  let mask := wrap w (pot - 1) in
  if Z.land n mask =? 0 then n
  else wrap w (Z.land n (2 ^ w - 1 - mask) + pot).

(** * aligned_alloc, aligned_alloc.hpp:48-118 (default variant)

    [buffer] is what malloc returned for [alloc_size] bytes.  The result is the
    pointer handed out; the data begins [meta] bytes behind it.  sizeof(char* )
    is 8.  [realloc_size] is the size the buffer is shrunk to.  Memory is a
    function from addresses of 8-byte cells to their content; [aligned_alloc]
    stores the buffer address in front of the result. *)
Definition alloc_size (alignment size meta : Z) : Z := alignment + 8 + meta + size.

(** aligned_alloc.hpp lines 80-82. *)
Definition aligned_result (alignment buffer meta : Z) : Z :=
  let reserve_buffer := buffer + 8 + meta in
  reserve_buffer + alignment - reserve_buffer mod alignment - meta.

(** aligned_alloc.hpp line 93. *)
Definition realloc_size (buffer result size meta : Z) : Z := (result - buffer) + meta + size.

(** aligned_alloc.hpp line 107. *)
Definition store_back_pointer (mem : Z -> Z) (result buffer : Z) : Z -> Z :=
  fun a => if a =? result - 8 then buffer else mem a.

(** aligned_dealloc, aligned_alloc.hpp lines 122-131: the address passed to free;
    nothing for null. *)
Definition aligned_dealloc (mem : Z -> Z) (ptr : Z) : option Z :=
  if ptr =? 0 then None else Some (mem (ptr - 8)).

(** The allocation with the system's choices made explicit: [bufs] are the
    addresses malloc returns one after the other, [moved] tells whether realloc
    moved the block (then the copy is freed and the allocation is repeated
    without realloc).  Result: pointer, buffer it lies in, final size of that
    buffer, whether realloc stays enabled.
    aligned_alloc.hpp lines 48-118. *)
Definition aligned_alloc (alignment size meta : Z) (may_use_realloc moved : bool)
                         (buf1 buf2 : Z) : Z * Z * Z * bool :=
  let a := alloc_size alignment size meta in
  let r1 := aligned_result alignment buf1 meta in
  let s1 := realloc_size buf1 r1 size meta in
  if (s1 <? a) && may_use_realloc then
    if moved then (aligned_result alignment buf2 meta, buf2, a, false)
    else (r1, buf1, s1, true)
  else (r1, buf1, a, may_use_realloc).

(** * Layout of typed_block, typed_block.hpp

    [elem] = sizeof(Type), [meta] = sizeof(MetaInfoType) (0 for void),
    sizeof(BID<RawSize>) = 16 (bid.hpp: a pointer and a 64-bit offset).
    Simplification: types without alignment padding; [static_assert] rejects
    a block whose size is not the raw size. *)
Definition bid_bytes : Z := 16.

(** Number of elements, typed_block.hpp:185, 203 (size_t arithmetic). *)
Definition block_elems (raw elem nref meta : Z) : Z :=
  wrap 64 (raw - bid_bytes * nref - meta) / elem.

(** Offsets of the parts: elem array, ref array, info, filler (88, 150, 192, 221)
    and size of the filler (expand_struct, 245).
    typed_block.hpp lines 88, 150, 192, 221, 245. *)
Definition elem_offset (elem i : Z) : Z := elem * i.
(** typed_block.hpp line 150. *)
Definition ref_offset (raw elem nref meta i : Z) : Z := elem * block_elems raw elem nref meta + bid_bytes * i.
(** typed_block.hpp line 192. *)
Definition info_offset (raw elem nref meta : Z) : Z := ref_offset raw elem nref meta nref.
(** typed_block.hpp line 221. *)
Definition filler_offset (raw elem nref meta : Z) : Z := info_offset raw elem nref meta + meta.
(** typed_block.hpp line 245. *)
Definition filler_size (raw elem nref meta : Z) : Z := wrap 64 (raw - filler_offset raw elem nref meta).

(** has_only_data, 284.
    typed_block.hpp line 284. *)
Definition has_only_data (raw elem nref meta : Z) : bool :=
  raw =? block_elems raw elem nref meta * elem.
