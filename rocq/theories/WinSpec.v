(** Vocabulary for the properties of the Windows file classes. *)
From Coq Require Import ZArith NArith List Bool.
From Verif Require Import OpenModel WinModel.
Import ListNotations.
Local Open Scope Z_scope.

(** Executions, with what the calls answered. *)
Inductive wrun (b : build) : world -> list (act * event) -> world -> Prop :=
| wrun_nil : forall w, wrun b w [] w
| wrun_step : forall w a ev w1 tr w2, step b w a = Step w1 ev -> wrun b w1 tr w2 ->
    wrun b w ((a, ev) :: tr) w2.

(** Any files; nothing open. *)
Definition wstart (files : nat -> option wfile) : world := mk_world (mk_kernel files [] 0%nat) (fun _ => None).

Definition wreachable (b : build) (w : world) : Prop :=
  exists files tr, wrun b (wstart files) tr w.

(** The object whose call an action belongs to. *)
Definition actor (a : act) : option nat :=
  match a with
  | AOpen o _ _ _ | ALock o _ | ASize o | ASetSize o _ _ | AResize o _ | AReopen o _
  | AServe o _ _ _ _ | ADestroy o _ | ARemove o _ => Some o
  | _ => None
  end.

(** Object o is idle and has an open handle. *)
Definition ready (w : world) (o : nat) (ob : wobj) (h : nat) : Prop :=
  w_objs w o = Some ob /\ o_phase ob = Idle /\ o_des ob = Some h.

(** Calls of o that do not resize or close; its writes all returned. *)
Definition only_transfers (o : nat) (tr : list (act * event)) : Prop :=
  forall a ev, In (a, ev) tr -> actor a = Some o ->
    match a with
    | AServe _ _ _ (WRITE _) _ => ev = EvDone
    | AServe _ _ _ (READ _) _ | ASize _ | ALock _ _ => True
    | _ => False
    end.

(** What o wrote, oldest first. *)
Fixpoint written (o : nat) (tr : list (act * event)) : list (Z * list Z) :=
  match tr with
  | [] => []
  | (AServe o' _ off (WRITE d) _, _) :: r => if Nat.eqb o' o then (off, d) :: written o r else written o r
  | _ :: r => written o r
  end.

(** The byte that the last write to position x put there, if any. *)
Definition covers (x : Z) (wr : Z * list Z) : bool :=
  (fst wr <=? x) && (x <? fst wr + Z.of_nat (length (snd wr))).
Definition last_byte (ws : list (Z * list Z)) (x : Z) : option Z :=
  match find (covers x) (rev ws) with
  | Some (off, d) => Some (nth (Z.to_nat (x - off)) d 0)
  | None => None
  end.

(** Where the writes end. *)
Definition end_of (size : Z) (ws : list (Z * list Z)) : Z :=
  fold_left (fun n wr => match snd wr with [] => n | d => Z.max n (fst wr + Z.of_nat (length d)) end) ws size.

(** No handle of the file is open, by anybody. *)
Definition nobody (w : world) (p : nat) : Prop :=
  forall i r, In (i, r) (k_handles (w_k w)) -> h_path r <> p.

(** When the file p can be opened in a mode, on a machine whose calls do not fail
    without reason. *)
Definition wants_write (mode : N) : bool := has mode WRONLY || has mode RDWR.
Definition may_open (w : world) (p : nat) (mode : N) (supported : bool) : Prop :=
  nobody w p /\
  (has mode DIRECT = true -> has mode REQUIRE_DIRECT = true -> supported = true) /\
  match k_files (w_k w) p with
  | None => has mode TRUNC = false
  | Some f => (has mode TRUNC = true -> wants_write mode = true) /\
              (wants_write mode = true -> f_ro f = false)
  end.

Definition good_env (e : env) : Prop :=
  e_deny1 e = false /\ e_deny2 e = false /\ e_lock e = true /\ e_close e = true /\ e_end e = true.
