(** Model of what direct I/O wants of a request for a managed block: alignment of
    offset, size and buffer.

    Sources (in /repo/foxxll):
      io/request.hpp:34               BlockAlignment
      io/request.cpp 40-55            check_alignment
      io/serving_request.cpp 25-38    where it is called
      mng/typed_block.hpp 306-390     read, write, operator new, operator new[]

    Offsets come from the block manager (ManagerModel.v), buffers from
    aligned_alloc (UtilModel.v). *)
From Coq Require Import ZArith List Bool.
From Verif Require Import AllocModel ManagerModel UtilModel.
Import ListNotations.
Local Open Scope Z_scope.

(** request.hpp:34. *)
Definition BlockAlignment : Z := 4096.

(** Members of a request used here, request.hpp lines 65-69. *)
Record io_request := mk_ior { io_buffer : Z; io_offset : Z; io_bytes : Z }.

(** The three messages of request.cpp lines 42-53. *)
Inductive complaint := BadOffset | BadSize | BadBuffer.

(** request.cpp:40-54: what is written to the log. *)
Definition check_alignment (r : io_request) : list complaint :=
  (if io_offset r mod BlockAlignment =? 0 then [] else [BadOffset]) ++
  (if io_bytes r mod BlockAlignment =? 0 then [] else [BadSize]) ++
  (if io_buffer r mod BlockAlignment =? 0 then [] else [BadBuffer]).

(** serving_request.cpp:31-37, compiled with FOXXLL_CHECK_BLOCK_ALIGNING. *)
Definition constructed (need_alignment : bool) (r : io_request) : list complaint :=
  if need_alignment then check_alignment r else [].

(** typed_block.hpp:307-357: the request of read() and write() of a block at
    address [addr]; a BID<0> must be large enough (assertion: None). *)
Definition block_request (raw addr : Z) (b : bid) : option io_request :=
  if b_tsize b =? 0
  then if raw <=? b_size b then Some (mk_ior addr (b_offset b) raw) else None
  else Some (mk_ior addr (b_offset b) raw).

(** typed_block.hpp:359-391: operator new and new[]; [bytes] is what the compiler
    asks for, n * raw_size and a cookie it keeps in front of the blocks.  Result:
    the address of the i-th block. *)
Definition block_address (raw bytes : Z) (realloc moved : bool) (buf1 buf2 i : Z) : Z :=
  let meta := bytes mod raw in
  let '(result, _, _, _) := aligned_alloc BlockAlignment (bytes - meta) meta realloc moved buf1 buf2 in
  result + meta + i * raw.
