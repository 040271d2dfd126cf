(** The remaining programs of /repo/tools: create_files.cpp (lines 88-273),
    benchmark_disks.cpp (lines 61-266) and benchmark_disks_random.cpp (lines 42-227),
    as far as which bytes and blocks they transfer and what they count.

    Simplifications.  Integers are unbounded; a division by zero is [Undefined].  The
    rounds of requests are listed in the order in which they are issued; nothing fails,
    since any failure only cuts the list short (create_files: terminates the program).
    Allocated blocks are numbered in the order of allocation.  Times, limits of time, the
    text printed and the buffers' contents (except in create_files) are left out. *)

From Coq Require Import ZArith List Bool Lia.
Import ListNotations.
Local Open Scope Z_scope.

(** Model device: the values of a loop counter, create_files.cpp lines 187-196. *)
Definition zseq (n : Z) : list Z := map Z.of_nat (seq 0 (Z.to_nat n)).
(** create_files.cpp line 88. *)
Definition MiB : Z := 1024 * 1024.

(** Model device: result, undefined behaviour, or too little fuel, of create_files.cpp
    lines 90-273. *)
Inductive res (A : Type) := Done (x : A) | Undefined | Fuel.
Arguments Done {A}. Arguments Undefined {A}. Arguments Fuel {A}.

(** common/utils.hpp, line 71. *)
Definition div_ceil (n d : Z) : res Z :=
  if d =? 0 then Undefined else Done (n / d + (if n mod d =? 0 then 0 else 1)).

(** * create_files *)

(** A write request: disk, first word in the buffer, position in the file, bytes.
    create_files.cpp lines 187-196. *)
Record wreq := mk_wreq { w_disk : Z; w_index : Z; w_pos : Z; w_bytes : Z }.

(** create_files.cpp lines 118-127. *)
Definition buffer_size (windows : bool) : Z := if windows then 64 * MiB else 256 * MiB.
(** create_files.cpp line 125. *)
Definition chunks : Z := 2.

(** create_files.cpp lines 187-196. *)
Definition create_round (bs ndisks offset cur : Z) : list wreq :=
  flat_map (fun i => map (fun j => mk_wreq i (bs / 4 * i + j * (bs / chunks / 4)) (offset + j * (cur / chunks)) (cur / chunks))
                         (zseq chunks))
           (zseq ndisks).

(** create_files.cpp lines 171-261; each element is what one wait_all waits for. *)
Fixpoint create_loop (fuel : nat) (bs ndisks length offset : Z) : res (list (list wreq)) :=
  match fuel with
  | O => Fuel
  | S fuel' =>
      if offset <? length then
        let cur := if length =? 0 then bs else Z.min bs (length - offset) in
        match create_loop fuel' bs ndisks length (offset + cur) with
        | Done l => Done (create_round bs ndisks offset cur :: l)
        | r => r
        end
      else Done []
  end.

(** The words of the buffer, create_files.cpp lines 135-136. *)
Definition buffer_word (k : Z) : Z := k mod 2 ^ 32.

(** * benchmark_disks *)

(** A round: blocks allocated (first number, how many), whether they are then written
    and read, and the bytes added to each total.
    benchmark_disks.cpp lines 124-230. *)
Record round := mk_round { b_first : Z; b_count : Z; b_active : bool; b_counted : Z }.

(** benchmark_disks.cpp lines 124-230. *)
Fixpoint disks_loop (fuel : nat) (raw batch start endpos offset nblocks : Z) : res (list round) :=
  match fuel with
  | O => Fuel
  | S fuel' =>
      if offset <? endpos then
        let cur := Z.min batch (endpos - offset) in
        match div_ceil cur raw with
        | Done n =>
            match disks_loop fuel' raw batch start endpos (offset + cur) (nblocks + n) with
            | Done l => Done (mk_round nblocks n (negb (offset <? start)) cur :: l)
            | r => r
            end
        | Undefined => Undefined
        | Fuel => Fuel
        end
      else Done []
  end.

(** benchmark_disks.cpp lines 61-95 (for size > 0); also the length of the arrays of
    buffers and requests. *)
Definition disks (fuel : nat) (size start batch_blocks raw ndisks : Z) : res (Z * list round) :=
  let batch0 := raw * (if batch_blocks =? 0 then ndisks else batch_blocks) in
  match div_ceil batch0 raw with
  | Done n =>
      match disks_loop fuel raw (n * raw) start (start + size) 0 0 with
      | Done l => Done (n, l)
      | Undefined => Undefined
      | Fuel => Fuel
      end
  | Undefined => Undefined
  | Fuel => Fuel
  end.

(** * benchmark_disks_random *)

(** benchmark_disks_random.cpp lines 144-152 and 171-179: positions in the shuffled
    vector, by batch. *)
Fixpoint random_loop (fuel : nat) (in_batch offset remaining : Z) : res (list (list Z)) :=
  match fuel with
  | O => Fuel
  | S fuel' =>
      if remaining =? 0 then Done []
      else
        let this := Z.min in_batch remaining in
        match random_loop fuel' in_batch (offset + this) (remaining - this) with
        | Done l => Done (map (fun j => j + offset) (zseq this) :: l)
        | r => r
        end
  end.

(** What run_test does: refuse, or the length of the arrays and the blocks of each batch.
    benchmark_disks_random.cpp lines 47-152. *)
Inductive random_res := Refused | Ran (in_span : Z) (num_blocks : Z) (batches : list (list Z)).

(** benchmark_disks_random.cpp lines 47-76 and 139-152 (the same again for reading);
    [shuffled] is the vector of
    blocks after std::shuffle. *)
Definition random (fuel : nat) (span block work batch : Z) (shuffled : list Z) : res random_res :=
  if 128 * MiB <? block then Done Refused
  else
    match div_ceil work block, div_ceil span block with
    | Done nb0, Done ns =>
        let nb1 := Z.min nb0 ns in
        let nb := if nb1 =? 0 then ns else nb1 in
        let work' := nb * block in
        let batch' := if batch =? 0 then work' else batch in
        match div_ceil batch' block with
        | Done ib =>
            match div_ceil nb ib with
            | Done _ =>
                match random_loop fuel ib 0 nb with
                | Done l => Done (Ran ns nb (map (map (fun p => nth (Z.to_nat p) shuffled (-1))) l))
                | Undefined => Undefined
                | Fuel => Fuel
                end
            | Undefined => Undefined
            | Fuel => Fuel
            end
        | Undefined => Undefined
        | Fuel => Fuel
        end
    | _, _ => Undefined
    end.
