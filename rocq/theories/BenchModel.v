(** The file benchmark, /repo/tools/benchmark_files.cpp, lines 101-461: writing a
    pattern to files, reading it and verifying it.

    Simplifications.  Integers are unbounded, except where the program converts to
    32 bits.  A file is an array of 32-bit words addressed by byte position; only
    positions that differ from the offset by a multiple of four are meant, so transfers
    of sizes that are not multiples of four are not modelled.  Different names denote
    different files.  Requests of one round are served in any order; any of them may
    fail, in which case wait_all throws; a read beyond the end of the file always fails
    (syscall_file.cpp:77-99).  Times, the text printed and the mode of opening are left
    out; so is the buffer's allocation. *)

From Coq Require Import ZArith List Bool Permutation Lia.
Import ListNotations.
Local Open Scope Z_scope.

(** Command line, benchmark_files.cpp lines 101-190. *)
Record args := mk_args {
  a_offset : Z; a_length : Z; a_block : Z; a_batch : Z; a_files : Z;
  a_pattern : Z; a_resize : bool; a_write : bool; a_read : bool; a_verify : bool
}.

(** Conversion to unsigned int, benchmark_files.cpp lines 250, 295. *)
Definition u32 (x : Z) : Z := x mod 2 ^ 32.

(** benchmark_files.cpp lines 192-196. *)
Definition block_size (a : args) : Z := if a_block a =? 0 then 8 * 1024 * 1024 else a_block a.
(** benchmark_files.cpp lines 192-196. *)
Definition batch_size (a : args) : Z := if a_batch a =? 0 then 1 else a_batch a.

(** benchmark_files.cpp lines 190, 232-234. *)
Definition endpos (a : args) : Z := a_offset a + a_length a.
(** benchmark_files.cpp lines 232-234. *)
Definition step_size (a : args) : Z := block_size a * batch_size a.
(** benchmark_files.cpp lines 232-234. *)
Definition block_int (a : args) : Z := block_size a / 4.

(** Model device: a file, opened in benchmark_files.cpp lines 248-268. *)
Record file := mk_file { f_size : Z; f_word : Z -> Z }.

(** Local variables of benchmark_files.cpp lines 232-417. *)
Record state := mk_state {
  s_offset : Z; s_buffer : Z -> Z; s_files : Z -> file; s_failed : bool;
  s_written : Z; s_readb : Z
}.

(** Model device: the values of a loop counter, benchmark_files.cpp lines 292-307. *)
Definition zseq (n : Z) : list Z := map Z.of_nat (seq 0 (Z.to_nat n)).
(** Model device: assignment to one word of an array, benchmark_files.cpp lines 250,
    295, 389. *)
Definition upd {A} (f : Z -> A) (i : Z) (x : A) : Z -> A := fun j => if j =? i then x else f j.

(** The words of the pattern: benchmark_files.cpp line 250 (and 389, 395 without the
    conversion). *)
Definition pattern (a : args) (i : Z) : Z := if a_pattern a =? 0 then i else a_pattern a.

(** benchmark_files.cpp lines 248-266: the state in which the main loop begins. 
    set_size (line 265) keeps
    the words before the new end; new words are 0. *)
Definition start (a : args) (fs : Z -> file) : state :=
  mk_state (a_offset a) (fun i => u32 (pattern a i))
    (if a_resize a
     then (fun d => if (0 <=? d) && (d <? a_files a)
                    then mk_file (endpos a) (fun p => if p <? f_size (fs d) then f_word (fs d) p else 0)
                    else fs d)
     else fs)
    false 0 0.

(** benchmark_files.cpp line 278. *)
Definition more (a : args) (off : Z) : bool := (off + step_size a <=? endpos a) || (a_length a =? 0).

(** benchmark_files.cpp lines 280-282. *)
Definition cur_step (a : args) (off : Z) : Z :=
  if a_length a =? 0 then step_size a else Z.min (step_size a) (endpos a - off).
(** utils.hpp line 71, used in benchmark_files.cpp lines 280-282. *)
Definition div_ceil (n d : Z) : Z := n / d + (if n mod d =? 0 then 0 else 1).

(** benchmark_files.cpp lines 292-296: the number of each sector of 512 bytes goes to
    its word 42. *)
Fixpoint marks (fuel : nat) (a : args) (step_int j b : Z) (buf : Z -> Z) : option (Z -> Z) :=
  match fuel with
  | O => None
  | S fuel' =>
      if j <? step_int
      then marks fuel' a step_int (j + 512 / 4) (b + 1)
             (fold_left (fun buf i => upd buf (step_int * i + j) (u32 b)) (zseq (a_files a)) buf)
      else Some buf
  end.
(** benchmark_files.cpp lines 291-296. *)
Definition mark (a : args) (off : Z) (buf : Z -> Z) : option (Z -> Z) :=
  let step_int := cur_step a off / 4 in
  marks (S (Z.to_nat step_int)) a step_int 42 (off / 512) buf.

(** A request: file, first word in the buffer, position in the file, bytes.
    benchmark_files.cpp lines 298-307, 337-346. *)
Record req := mk_req { r_file : Z; r_index : Z; r_pos : Z; r_bytes : Z }.

(** benchmark_files.cpp lines 298-307 and 337-346. *)
Definition requests (a : args) (off : Z) : list req :=
  let step_int := cur_step a off / 4 in
  flat_map (fun i => map (fun j => mk_req i (step_int * i + j * block_int a) (off + j * block_size a) (block_size a))
                         (zseq (div_ceil (cur_step a off) (block_size a))))
           (zseq (a_files a)).

(** Effect of awrite, benchmark_files.cpp lines 298-307. *)
Definition serve_write (buf : Z -> Z) (fs : Z -> file) (r : req) : Z -> file :=
  let f := fs (r_file r) in
  upd fs (r_file r)
    (mk_file (Z.max (f_size f) (r_pos r + r_bytes r))
       (fun p => if (r_pos r <=? p) && (p <? r_pos r + r_bytes r)
                 then buf (r_index r + (p - r_pos r) / 4) else f_word f p)).
(** benchmark_files.cpp lines 298-312. *)
Definition serve_writes (buf : Z -> Z) (l : list req) (fs : Z -> file) : Z -> file :=
  fold_left (serve_write buf) l fs.

(** syscall_file.cpp lines 57-90. *)
Definition in_file (fs : Z -> file) (r : req) : bool := r_pos r + r_bytes r <=? f_size (fs (r_file r)).
(** Effect of aread, benchmark_files.cpp lines 337-346. *)
Definition serve_read (fs : Z -> file) (buf : Z -> Z) (r : req) : Z -> Z :=
  fun k => if (r_index r <=? k) && (k <? r_index r + r_bytes r / 4)
           then f_word (fs (r_file r)) (r_pos r + 4 * (k - r_index r)) else buf k.
(** benchmark_files.cpp lines 337-351. *)
Definition serve_reads (fs : Z -> file) (l : list req) (buf : Z -> Z) : option (Z -> Z) :=
  if forallb (in_file fs) l then Some (fold_left (serve_read fs) l buf) else None.

(** benchmark_files.cpp lines 377-391: the numbers of the sectors are compared (as
    64-bit numbers) and
    replaced by the pattern. *)
Definition check_sector (a : args) (off step_int d : Z) (bf : (Z -> Z) * bool) (s : Z) : (Z -> Z) * bool :=
  let i := d * step_int + s * (512 / 4) + 42 in
  let b := off / 512 + s in
  (upd (fst bf) i (u32 (pattern a i)), snd bf || negb (fst bf i =? b)).
(** benchmark_files.cpp lines 377-391. *)
Definition check_sectors (a : args) (off : Z) (bf : (Z -> Z) * bool) : (Z -> Z) * bool :=
  let step_int := cur_step a off / 4 in
  fold_left (fun bf d => fold_left (check_sector a off step_int d) (zseq (cur_step a off / 512)) bf)
            (zseq (a_files a)) bf.

(** benchmark_files.cpp lines 393-408; after an error the loop goes on in the next file,
    and ++i in line 393
    then skips its first word. *)
Fixpoint scan (fuel : nat) (a : args) (step_int i : Z) (buf : Z -> Z) (failed : bool) : option bool :=
  match fuel with
  | O => None
  | S fuel' =>
      if i <? a_files a * step_int
      then if buf i =? pattern a i then scan fuel' a step_int (i + 1) buf failed
           else scan fuel' a step_int ((i / step_int + 1) * step_int + 1) buf true
      else Some failed
  end.

(** benchmark_files.cpp lines 375-409. *)
Definition verify (a : args) (off : Z) (buf : Z -> Z) (failed : bool) : option ((Z -> Z) * bool) :=
  let step_int := cur_step a off / 4 in
  let bf := check_sectors a off (buf, failed) in
  match scan (S (Z.to_nat (a_files a * step_int))) a step_int 0 (fst bf) (snd bf) with
  | Some failed' => Some (fst bf, failed')
  | None => None
  end.

(** One round, benchmark_files.cpp lines 280-411, up to its read requests and after. *)
Definition write_phase (a : args) (s : state) (ws : list req) : option state :=
  if a_write a then
    match mark a (s_offset s) (s_buffer s) with
    | Some buf => Some (mk_state (s_offset s) buf (serve_writes buf ws (s_files s)) (s_failed s)
                          (s_written s + cur_step a (s_offset s)) (s_readb s))
    | None => None
    end
  else Some s.
(** benchmark_files.cpp lines 333-361. *)
Definition read_phase (a : args) (s : state) (rs : list req) : option state :=
  if a_read a || a_verify a then
    match serve_reads (s_files s) rs (s_buffer s) with
    | Some buf => Some (mk_state (s_offset s) buf (s_files s) (s_failed s)
                          (s_written s) (s_readb s + cur_step a (s_offset s)))
    | None => None
    end
  else Some s.
(** benchmark_files.cpp lines 375-411. *)
Definition verify_phase (a : args) (s : state) : option state :=
  if a_verify a then
    match verify a (s_offset s) (s_buffer s) (s_failed s) with
    | Some (buf, failed) => Some (mk_state (s_offset s + cur_step a (s_offset s)) buf (s_files s) failed
                                    (s_written s) (s_readb s))
    | None => None
    end
  else Some (mk_state (s_offset s + cur_step a (s_offset s)) (s_buffer s) (s_files s) (s_failed s)
               (s_written s) (s_readb s)).

(** The main loop and its try block, benchmark_files.cpp lines 277-417.  [bool]: an
    exception ended it. *)
Inductive run (a : args) : state -> bool -> state -> Prop :=
| run_end : forall s, more a (s_offset s) = false -> run a s false s
| run_write_error : forall s buf ws, more a (s_offset s) = true -> a_write a = true ->
    mark a (s_offset s) (s_buffer s) = Some buf -> incl ws (requests a (s_offset s)) ->
    run a s true (mk_state (s_offset s) buf (serve_writes buf ws (s_files s)) (s_failed s) (s_written s) (s_readb s))
| run_read_error : forall s ws s1, more a (s_offset s) = true -> a_read a || a_verify a = true ->
    Permutation ws (requests a (s_offset s)) -> write_phase a s ws = Some s1 -> run a s true s1
| run_round : forall s ws rs s1 s2 s3 th s4, more a (s_offset s) = true ->
    Permutation ws (requests a (s_offset s)) -> write_phase a s ws = Some s1 ->
    Permutation rs (requests a (s_offset s)) -> read_phase a s1 rs = Some s2 ->
    verify_phase a s2 = Some s3 -> run a s3 th s4 -> run a s th s4.

(** benchmark_files.cpp lines 101-461 once the command line has been read: the value
    returned. *)
Definition tool (a : args) (fs : Z -> file) (th : bool) (code : Z) (fs' : Z -> file) (written readb : Z) : Prop :=
  exists s, run a (start a fs) th s /\ code = (if s_failed s then 1 else 0) /\ fs' = s_files s /\
    written = s_written s /\ readb = s_readb s.
