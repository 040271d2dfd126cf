(** Model of the summaries of I/O statistics and of their use when printing.

    Sources: /repo/foxxll/io/iostats.cpp lines 384-434 (fetch_sum, summary),
    604-647 (speeds), 664-811 (to_ostream: the two warnings).

    Simplifications.
    - Numbers are exact: doubles are rationals, two infinities and NaN, without
      rounding and with one zero.  Integer types are modelled with wrap-around.
    - std::sort gives any sorted permutation if the comparison is a strict weak
      order on the values; otherwise the behaviour is undefined.
    - The text that is printed is left out; only what is accessed is kept. *)
From Coq Require Import List ZArith QArith Bool Permutation Sorted.
Import ListNotations.
Local Open Scope list_scope.

(** *** Integer summaries: T = unsigned (w = 32) or uint64_t (w = 64) *)

(** The sums of iostats.cpp lines 389 and 422 in type T. *)
Definition wrap (w : Z) (x : Z) : Z := Z.modulo x (2 ^ w).

(** fetch_sum, iostats.cpp lines 384-390. *)
Definition fetch_sum (w : Z) (vs : list Z) : Z :=
  fold_left (fun s x => wrap w (s + x)) vs 0%Z.

(** summary<T>, iostats.cpp lines 392-434; the median is kept doubled.  [vs] are the values
    after sorting.  quiet_NaN<T>() is 0 for integer types. *)
Record summary := mksum { s_total : Z; s_min : Z; s_max : Z; s_median2 : Z; s_average : Q }.

(** iostats.cpp lines 409-433. *)
Definition summarize (w : Z) (vs : list (Z * nat)) : summary :=
  match vs with
  | [] => mksum 0 0 0 0 0
  | _ :: _ =>
      let n := length vs in
      let at_ i := fst (nth i vs (0%Z, O)) in
      let mid := Nat.div n 2 in
      let total := fold_left (fun s x => wrap w (s + fst x)) vs 0%Z in
      mksum total (at_ O) (at_ (n - 1)%nat)
            (if Nat.eqb (Nat.modulo n 2) 1 then (2 * at_ mid)%Z else wrap w (at_ (mid - 1)%nat + at_ mid))
            (inject_Z total / inject_Z (Z.of_nat n))
  end.

(** The comparison of the sort, iostats.cpp lines 402-407, on integers. *)
Definition sorted_of (vs vs' : list (Z * nat)) : Prop :=
  Permutation vs vs' /\ StronglySorted (fun a b => ~ (fst b < fst a)%Z) vs'.

(** *** Doubles *)

(** double, the type of iostats.cpp lines 604-647. *)
Inductive dbl := NaN | PInf | NInf | Fin (q : Q).

(** The operator < of double, iostats.cpp lines 762-764, 771, 780. *)
Definition dlt (a b : dbl) : bool :=
  match a, b with
  | NaN, _ | _, NaN => false
  | PInf, _ => false
  | _, NInf => false
  | NInf, _ => true
  | _, PInf => true
  | Fin x, Fin y => negb (Qle_bool y x)
  end.

(** For the division of iostats.cpp lines 608-644. *)
Definition qsign (x : Q) : comparison := Qcompare x 0.

(** IEEE division.
    iostats.cpp lines 608-644, 762-764, 771, 780. *)
Definition ddiv (a b : dbl) : dbl :=
  match a, b with
  | NaN, _ | _, NaN => NaN
  | Fin x, Fin y =>
      if Qeq_bool y 0
      then match qsign x with Eq => NaN | Gt => PInf | Lt => NInf end
      else Fin (x / y)
  | Fin _, _ => Fin 0
  | PInf, Fin y => match qsign y with Lt => NInf | _ => PInf end
  | NInf, Fin y => match qsign y with Lt => PInf | _ => NInf end
  | _, _ => NaN
  end.

(** iostats.cpp lines 604-647: bytes divided by a time, of the file or common to all. *)
Definition speed (bytes : Z) (time : Q) : dbl := ddiv (Fin (inject_Z bytes)) (Fin time).

(** The constant 0.5 of iostats.cpp lines 762-788. *)
Definition half : dbl := Fin (1 # 2).

(** The loops of iostats.cpp lines 771 and 780:
    [for (int i = 1; v[i].first / v.back().first < 0.5; ++i)].
    [scan n vs i] lists the indices that are read, for at most [n] steps; the last
    component is whether the loop has ended. *)
Fixpoint scan (n : nat) (vs : list dbl) (i : nat) : list nat * bool :=
  match n with
  | O => ([], false)
  | S m =>
      if dlt (ddiv (nth i vs NaN) (last vs NaN)) half
      then let (l, e) := scan m vs (S i) in (i :: l, e)
      else ([i], true)
  end.

(** summary<double>: min and max of the sorted values; NaN if there are none.
    iostats.cpp lines 411, 428. *)
Definition dmin (vs : list dbl) : dbl := hd NaN vs.
(** iostats.cpp lines 412, 429. *)
Definition dmax (vs : list dbl) : dbl := last vs NaN.

(** The warning about slow disks, iostats.cpp lines 762-785: indices read in the sorted
    parallel speeds of reading and writing. *)
Definition slow (pio pread pwrite : list dbl) : bool :=
  dlt (ddiv (dmin pio) (dmax pio)) half || dlt (ddiv (dmin pread) (dmax pread)) half ||
  dlt (ddiv (dmin pwrite) (dmax pwrite)) half.

(** iostats.cpp lines 762-785. *)
Definition warn_slow (pio pread pwrite : list dbl) : list nat * list nat * bool :=
  if slow pio pread pwrite then
    let (r, re) := scan (length pread) pread 1 in
    let (w, we) := scan (length pwrite) pwrite 1 in
    (O :: r, O :: w, re && we)
  else ([], [], true).

(** The warning about load balancing, iostats.cpp lines 787-808, on the sorted byte counts:
    whether front() and back() are called. *)
Definition warn_load (rd wr : list (Z * nat)) : bool :=
  let d x := Fin (inject_Z x) in
  let r := summarize 64 rd in
  let w := summarize 64 wr in
  dlt (ddiv (d (s_min r)) (d (s_max r))) half || dlt (ddiv (d (s_min w)) (d (s_max w))) half.
