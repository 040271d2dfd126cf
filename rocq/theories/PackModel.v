(** Model of the storage, the limits and the printing of uint_pair.

    Sources (in /repo/foxxll):
      common/uint_types.hpp 49-65, 84-111   the packed members, digits, bytes
      common/uint_types.hpp 225-248         operator <<, min, max
      common/uint_types.hpp 249-265         packed; uint40, uint48
      common/uint_types.hpp 273-329         numeric_limits
      mng/typed_block.hpp 88, 97-100        elements of a block one behind the other

    The values and their arithmetic are those of UtilModel.v.  Simplification: the byte order is
    the little-endian one of the machines the library is compiled for; the code leaves it to the
    compiler. *)
From Coq Require Import ZArith NArith List.
From Verif Require Import UtilModel.
Import ListNotations.
Local Open Scope Z_scope.

(** digits, uint_types.hpp lines 74, 83, 87: [k] = sizeof(HighType), 1 for uint40 (line 262) and 2
    for uint48 (line 265). *)
Definition digits (k : nat) : Z := 8 * 4 + 8 * Z.of_nat k.
(** bytes, uint_types.hpp line 90. *)
Definition bytes (k : nat) : nat := 4 + k.
(** The number of bits of the high part, uint_types.hpp line 83. *)
Definition high_bits (k : nat) : Z := 8 * Z.of_nat k.

(** The representation of an unsigned member of [n] bytes, uint_types.hpp lines 63-65 (byte order:
    see above). *)
Fixpoint int_bytes (n : nat) (x : Z) : list Z :=
  match n with
  | O => []
  | S n => x mod 256 :: int_bytes n (x / 256)
  end.
(** The value of such a member, uint_types.hpp lines 63-65. *)
Fixpoint bytes_int (l : list Z) : Z :=
  match l with
  | [] => 0
  | b :: l => b + 256 * bytes_int l
  end.

(** The representation of a uint_pair, uint_types.hpp lines 63-65 in the order of declaration,
    packed: lines 49-51, 249-254. *)
Definition store (k : nat) (p : upair) : list Z := int_bytes 4 (low p) ++ int_bytes k (high p).
(** The uint_pair that some bytes represent, uint_types.hpp lines 63-65. *)
Definition load (l : list Z) : upair := mk_upair (bytes_int (firstn 4 l)) (bytes_int (skipn 4 l)).

(** Element [i] of an array of uint_pair in the memory [m], such as the elements of a block,
    typed_block.hpp lines 88, 97-100; the distance is sizeof, asserted in uint_types.hpp lines
    102-110. *)
Definition get (k : nat) (m : list Z) (i : nat) : upair := load (firstn (bytes k) (skipn (i * bytes k) m)).
(** Assignment to element [i], typed_block.hpp lines 97-100. *)
Definition set (k : nat) (m : list Z) (i : nat) (p : upair) : list Z :=
  firstn (i * bytes k) m ++ store k p ++ skipn (i * bytes k + bytes k) m.

(** operator <<, uint_types.hpp lines 226-229: what a stream with default flags writes for an
    uint64_t, the decimal digits. *)
Definition print (p : upair) : Decimal.uint := N.to_uint (Z.to_N (ull p)).

(** numeric_limits, uint_types.hpp lines 273-329.  Not declared there and hence unusable: digits10,
    max_digits10, is_modulo, is_bounded, infinity and further ones. *)
Record limits := MkLimits {
  nl_specialized : bool; nl_min : upair; nl_max : upair; nl_lowest : upair; nl_signed : bool;
  nl_integer : bool; nl_exact : bool; nl_radix : Z; nl_digits : Z; nl_epsilon : upair;
  nl_round_error : upair; nl_min_exponent : Z; nl_min_exponent10 : Z; nl_max_exponent : Z;
  nl_max_exponent10 : Z; nl_infinity : bool }.
(** uint_types.hpp lines 277-327. *)
Definition limits_of (k : nat) : limits :=
  MkLimits true pair_min (pair_max (high_bits k)) pair_min false
    true true 2 (digits k) (mk_upair 0 0)
    (mk_upair 0 0) 0 0 0
    0 false.
