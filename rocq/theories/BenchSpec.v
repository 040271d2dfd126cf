(** What the file benchmark should do, for BenchModel.v. *)

From Coq Require Import ZArith List Bool Lia.
From Verif Require Import BenchModel.
Local Open Scope Z_scope.

(** Sizes that suit the program. *)
Definition plain (a : args) : Prop :=
  0 <= a_offset a /\ a_offset a mod 4 = 0 /\ 0 <= a_length a /\ 0 < block_size a /\ 0 < batch_size a /\ 0 <= a_files a /\
  0 <= a_pattern a < 2 ^ 32 /\ block_size a mod 4 = 0.
Definition suits (a : args) : Prop := plain a /\ step_size a mod 512 = 0.

(** Bytes done per file by a run that is not interrupted. *)
Definition covered (a : args) : Z := a_length a / step_size a * step_size a.

(** No number is cut to 32 bits, as far as the first [n] bytes are concerned. *)
Definition fits (a : args) (n : Z) : Prop :=
  (a_offset a / 512 + n / 512 <= 2 ^ 32) /\ (a_pattern a = 0 -> a_files a * (step_size a / 4) <= 2 ^ 32).

(** The word that belongs at position [p] of file [d]. *)
Definition expected (a : args) (d p : Z) : Z :=
  let k := (p - a_offset a) / 4 in
  if k mod 128 =? 42 then (a_offset a / 512 + k / 128) mod 2 ^ 32
  else if a_pattern a =? 0 then (d * (step_size a / 4) + k mod (step_size a / 4)) mod 2 ^ 32
  else a_pattern a.

Definition place (a : args) (n d p : Z) : Prop :=
  0 <= d < a_files a /\ a_offset a <= p < a_offset a + n /\ (p - a_offset a) mod 4 = 0.
Definition holds_pattern (a : args) (n : Z) (fs : Z -> file) : Prop :=
  forall d p, place a n d p -> f_word (fs d) p = expected a d p.
