(** Model of the memory of blocks: the operators new and delete of typed_block, new_alloc
    and aligned_alloc, with 64-bit arithmetic and a heap.

    Source: /repo/foxxll/common/aligned_alloc.hpp lines 28-131,
    /repo/foxxll/mng/typed_block.hpp lines 359-409,
    /repo/foxxll/common/new_alloc.hpp lines 38-119.

    Simplifications.
    - malloc gives any address where there is room, or the null pointer; realloc to a
      smaller size keeps the place, moves the block or gives the null pointer (oracles).
      realloc to size 0 does not free.
    - Memory consists of 8-byte cells at any address; writing one destroys those that
      overlap it.
    - The default variant of aligned_alloc (without FOXXLL_WASTE_MORE_MEMORY...); 64-bit
      pointers.  Pointer arithmetic outside of a buffer is taken for arithmetic of numbers.
    - One thread.  Constructors, destructors and construct/destroy of elements are writes of
      the client. *)

From Coq Require Import ZArith List Bool.
Import ListNotations.
Local Open Scope Z_scope.

(** aligned_alloc.hpp lines 59, 93: size_t. *)
Definition w64 (x : Z) : Z := x mod 2 ^ 64.

(** Model device: the heap that aligned_alloc.hpp lines 47-131 use: the buffers malloc has
    given out (address and size), the contents of memory, and
    aligned_alloc_settings<int>::may_use_realloc (lines 28-34). *)
Record heap := mk_heap { live : list (Z * Z); mem : Z -> option Z; may : bool }.

(** aligned_alloc.hpp lines 28-34: at the start of the program. *)
Definition heap0 : heap := mk_heap [] (fun _ => None) true.

(** Model device: answers of realloc, aligned_alloc.hpp line 95. *)
Inductive ranswer := RKeep | RMove | RNull.

(** Model device: results; [Impossible]: malloc does not answer like that
    (aligned_alloc.hpp lines 47-131). *)
Inductive out (X : Type) := Ok (x : X) | BadAlloc (h : heap) | Ub | Impossible.
Arguments Ok {X}. Arguments BadAlloc {X}. Arguments Ub {X}. Arguments Impossible {X}.

(** Model device: two buffers do not overlap (aligned_alloc.hpp line 60: malloc). *)
Definition apartb (x y : Z * Z) : bool :=
  (fst x + Z.max 1 (snd x) <=? fst y) || (fst y + Z.max 1 (snd y) <=? fst x).

(** aligned_alloc.hpp line 60: malloc may return address [a] for [n] bytes. *)
Definition fits (h : heap) (a n : Z) : bool :=
  (0 <? a) && (a + Z.max 1 n <=? 2 ^ 64) && forallb (apartb (a, n)) (live h).

(** aligned_alloc.hpp line 130: free of the buffer at [a]. *)
Definition without (a : Z) (l : list (Z * Z)) : list (Z * Z) := filter (fun x => negb (fst x =? a)) l.

(** aligned_alloc.hpp line 107: the bytes from [a] on are in a buffer. *)
Definition within (l : list (Z * Z)) (a n : Z) : bool :=
  existsb (fun x => (fst x <=? a) && (a + n <=? fst x + snd x)) l.

(** aligned_alloc.hpp line 107: a cell is written. *)
Definition put (m : Z -> option Z) (a v : Z) : Z -> option Z :=
  fun x => if x =? a then Some v else if Z.abs (x - a) <? 8 then None else m x.

(** aligned_alloc.hpp line 59. *)
Definition alloc_bytes (A size meta : Z) : Z := w64 (A + 8 + meta + size).

(** aligned_alloc.hpp lines 80-82. *)
Definition result_of (A b meta : Z) : Z :=
  let reserve := b + 8 + meta in reserve + A - reserve mod A - meta.

(** aligned_alloc.hpp lines 107-117: the address of the buffer is stored before the result. *)
Definition finish (h : heap) (b r : Z) : out (heap * Z) :=
  if within (live h) (r - 8) 8 then Ok (mk_heap (live h) (put (mem h) (r - 8) b) (may h), r) else Ub.

(** aligned_alloc.hpp lines 47-118 without the lines for realloc. *)
Definition alloc_plain (A size meta : Z) (m : option Z) (h : heap) : out (heap * Z) :=
  let n := alloc_bytes A size meta in
  match m with
  | None => BadAlloc h
  | Some b => if fits h b n then finish (mk_heap ((b, n) :: live h) (mem h) (may h)) b (result_of A b meta)
              else Impossible
  end.

(** aligned_alloc.hpp lines 47-118: malloc answers [m1] and, if it is called again because
    realloc did not keep the buffer, [m2].  If realloc gives the null pointer, the buffer
    stays allocated. *)
Definition aligned_alloc (A size meta : Z) (m1 : option Z) (r : ranswer) (m2 : option Z) (h : heap) : out (heap * Z) :=
  let n := alloc_bytes A size meta in
  match m1 with
  | None => BadAlloc h
  | Some b =>
      if fits h b n then
        let res := result_of A b meta in
        let rs := w64 (res - b + meta + size) in
        if (rs <? n) && may h then
          match r with
          | RKeep => finish (mk_heap ((b, rs) :: live h) (mem h) true) b res
          | RMove => alloc_plain A size meta m2 (mk_heap (live h) (mem h) false)
          | RNull => alloc_plain A size meta m2 (mk_heap ((b, n) :: live h) (mem h) false)
          end
        else finish (mk_heap ((b, n) :: live h) (mem h) (may h)) b res
      else Impossible
  end.

(** aligned_dealloc, aligned_alloc.hpp lines 120-131: free of what is stored before the
    pointer; freeing something else than a buffer is undefined. *)
Definition aligned_dealloc (p : Z) (h : heap) : out heap :=
  if p =? 0 then Ok h
  else match mem h (p - 8) with
       | Some b => if existsb (fun x => fst x =? b) (live h)
                   then Ok (mk_heap (without b (live h)) (mem h) (may h)) else Ub
       | None => Ub
       end.

(** typed_block.hpp lines 359-374 and 376-391: operator new and operator new[]; [raw] is
    raw_size. *)
Definition block_new (A raw bytes : Z) (m1 : option Z) (r : ranswer) (m2 : option Z) (h : heap) : out (heap * Z) :=
  let meta := bytes mod raw in aligned_alloc A (bytes - meta) meta m1 r m2 h.

(** new_alloc.hpp lines 82-85: max_size. *)
Definition max_size (raw : Z) : Z := (2 ^ 64 - 1) / raw.

(** new_alloc.hpp lines 88-91: allocate. *)
Definition allocate (A raw num : Z) (m1 : option Z) (r : ranswer) (m2 : option Z) (h : heap) : out (heap * Z) :=
  block_new A raw (w64 (num * raw)) m1 r m2 h.

(** What a program does with blocks: typed_block.hpp lines 359-409, new_alloc.hpp lines
    88-119; [OPoke] writes a cell of its memory. *)
Inductive mop :=
| ONew (bytes : Z) (m1 : option Z) (r : ranswer) (m2 : option Z)
| OAlloc (num : Z) (m1 : option Z) (r : ranswer) (m2 : option Z)
| ODelete (p : Z)
| OPoke (p off v : Z).

(** typed_block.hpp lines 359-409, new_alloc.hpp lines 88-119: the heap afterwards and the
    pointer returned, if any. *)
Definition mstep (A raw : Z) (h : heap) (o : mop) : out (heap * option Z) :=
  match o with
  | ONew bytes m1 r m2 =>
      match block_new A raw bytes m1 r m2 h with
      | Ok (h', p) => Ok (h', Some p) | BadAlloc h' => BadAlloc h' | Ub => Ub | Impossible => Impossible end
  | OAlloc num m1 r m2 =>
      match allocate A raw num m1 r m2 h with
      | Ok (h', p) => Ok (h', Some p) | BadAlloc h' => BadAlloc h' | Ub => Ub | Impossible => Impossible end
  | ODelete p =>
      match aligned_dealloc p h with
      | Ok h' => Ok (h', None) | BadAlloc h' => BadAlloc h' | Ub => Ub | Impossible => Impossible end
  | OPoke p off v =>
      if within (live h) (p + off) 8 then Ok (mk_heap (live h) (put (mem h) (p + off) v) (may h), None) else Ub
  end.
