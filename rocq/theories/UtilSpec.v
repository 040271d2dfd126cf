(** Vocabulary for statements about the helpers. *)
From Coq Require Import ZArith List.
From Verif Require Import UtilModel.
Local Open Scope Z_scope.

(** A value of an unsigned machine type of [w] bits. *)
Definition unsigned (w x : Z) : Prop := 0 <= x < 2 ^ w.

(** A uint_pair whose parts are values of their types. *)
Definition wf_pair (h : Z) (p : upair) : Prop := unsigned 32 (low p) /\ unsigned h (high p).

(** The number a pair stands for. *)
Definition num (p : upair) : Z := high p * 2 ^ 32 + low p.

(** [f] maps the values of [w] bits one to one onto themselves. *)
Definition bijection (w : Z) (f : Z -> Z) : Prop :=
  (forall x, unsigned w x -> unsigned w (f x)) /\
  (forall y, unsigned w y -> exists x, unsigned w x /\ f x = y) /\
  (forall x y, unsigned w x -> unsigned w y -> f x = f y -> x = y).

(** Byte ranges given as offset and size. *)
Definition ends_before (o1 s1 o2 : Z) : Prop := o1 + s1 <= o2.
