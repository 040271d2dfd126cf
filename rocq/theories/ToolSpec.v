(** What the tools of ToolModel.v should do. *)

From Coq Require Import ZArith List Bool Lia.
From Verif Require Import ToolModel.
Local Open Scope Z_scope.

Definition range (a b : Z) : list Z := map (fun j => a + Z.of_nat j) (seq 0 (Z.to_nat (b - a))).
Definition ceil (n d : Z) : Z := (n + d - 1) / d.

(** A request writes byte [p] of disk [d]; how often it is written. *)
Definition hits (d p : Z) (r : wreq) : bool :=
  (w_disk r =? d) && ((w_pos r <=? p) && (p <? w_pos r + w_bytes r)).
Definition times (d p : Z) (l : list wreq) : nat := length (filter (hits d p) l).

(** The word of the buffer that ends up at byte [p] (a multiple of four) of disk [d]. *)
Definition source (bs len d p : Z) : Z :=
  let q := p mod bs in
  let c := Z.min bs (len - (p - q)) in
  bs / 4 * d + (if q <? c / 2 then q / 4 else bs / 8 + (q - c / 2) / 4).

Definition blocks_of (l : list round) : list Z := flat_map (fun r => range (b_first r) (b_first r + b_count r)) l.
Definition counted (l : list round) : Z := fold_right (fun r n => b_counted r + n) 0 l.
