(** Vocabulary for the properties of the disk configuration. *)

From Coq Require Import String Ascii List Arith Bool ZArith.
From Verif Require Import ConfigModel.
Import ListNotations.
Local Open Scope list_scope.

(** [s] begins with [k]. *)
Definition starts (k s : str) : Prop := exists r, s = k ++ r.

Definition newline : ascii := "010"%char.

(** [s] is a text with the lines [ls]: each line is ended by a newline, which
    may be missing after the last line if that line is not empty. *)
Definition is_lines (s : str) (ls : list str) : Prop :=
  Forall (fun l => ~ In newline l) ls /\
  (s = concat (map (fun l => l ++ [newline]) ls) \/
   exists init last, ls = init ++ [last] /\ last <> [] /\
     s = concat (map (fun l => l ++ [newline]) init) ++ last).

(** Lines that are skipped. *)
Definition blank_or_comment (l : str) : Prop := l = [] \/ starts (L "#") l.

(** [sub P ls r]: [r] are the elements of [ls] with the property, in order. *)
Inductive sub {X} (P : X -> Prop) : list X -> list X -> Prop :=
| sub_nil : sub P [] []
| sub_take x l r : P x -> sub P l r -> sub P (x :: l) (x :: r)
| sub_skip x l r : ~ P x -> sub P l r -> sub P (x :: l) r.

(** [part l lo hi]: the elements of the index range [lo, hi). *)
Definition part {X} (l : list X) (lo hi : Z) : list X :=
  firstn (Z.to_nat hi - Z.to_nat lo) (skipn (Z.to_nat lo) l).

(** The members have values of their types. *)
Definition typed (d : disk) : Prop :=
  (- 2 ^ 31 <= queue d < 2 ^ 31)%Z /\
  (0 <= device_id d < 2 ^ 32)%Z /\
  (- 2 ^ 31 <= queue_length d < 2 ^ 31)%Z.

(** What the text form of the options can express. *)
Definition expressible (d : disk) : Prop :=
  io_impl d <> [] /\ ~ In " "%char (io_impl d) /\
  flash d = false /\
  queue d <> (-2)%Z /\
  (io_impl d = L "linuxaio" -> queue d = (-1)%Z) /\
  (raw_device d = true -> io_impl d = L "syscall") /\
  (unlink_on_open d = true ->
     io_impl d = L "syscall" \/ io_impl d = L "linuxaio" \/ io_impl d = L "mmap") /\
  (queue_length d <> 0%Z -> io_impl d = L "linuxaio").

(** The places where a configuration file is looked for, in this order. *)
Definition opt {X Y} (o : option X) (f : X -> list Y) : list Y :=
  match o with Some x => f x | None => [] end.

Definition candidates (getenv : str -> option str) : list str :=
  opt (getenv (L "STXXLCFG")) (fun x => [x]) ++
  opt (getenv (L "HOSTNAME")) (fun h => [L "./.stxxl." ++ h]) ++
  [L "./.stxxl"] ++
  opt (getenv (L "HOME")) (fun d =>
    opt (getenv (L "HOSTNAME")) (fun h => [d ++ L "/.stxxl." ++ h]) ++
    [d ++ L "/.stxxl"]).

(** The first candidate that exists has the content [s]. *)
Definition first_existing (fs : str -> option str) (ps : list str) (s : str) : Prop :=
  exists before p after, ps = before ++ p :: after /\
    Forall (fun q => fs q = None) before /\ fs p = Some s.
