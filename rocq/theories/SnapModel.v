(** Model of taking a snapshot of the statistics while operations run, and of
    scoped_print_iostats: /repo/foxxll/io/iostats.hpp lines 248-315, 411-465,
    486-535, 643-723, and iostats.cpp lines 367-373, 497-662, 813-832.

    Simplifications.
    - Those of StatsModel.
    - The getters read plain members without a mutex while other threads write
      them (iostats.hpp lines 189-234, 419-463).  In C++ this is a data race
      (property C104); here every getter reads the current value at once.
    - No file is created between the first and the last read of a run (the list
      of files is locked while it is copied, iostats.cpp line 369, but the
      members of the files are not).
    - Text that is printed is a list of pieces; how numbers and the table of
      statistics are formatted is not modelled. *)

From Coq Require Import ZArith List Bool String.
From Verif Require Import StatsModel.
Import ListNotations.
Local Open Scope Z_scope.

(** The members of file_stats copied by the constructor of file_stats_data,
    iostats.hpp lines 267-276. *)
Inductive field := FDev | FRCount | FWCount | FRBytes | FWBytes | FRTime | FWTime.

(** The values stats_data(const stats&) asks for, iostats.hpp lines 524-535;
    [MClock now] is timestamp() in line 532. *)
Inductive member :=
| MPReads | MPWrites | MPIos | MWait | MWaitRead | MWaitWrite
| MClock (now : Z) | MFile (i : nat) (f : field).

(** The getters of file_stats, iostats.hpp lines 185-234. *)
Definition get_field (x : field) (f : file_stats) : Z :=
  match x with
  | FDev => fs_dev f
  | FRCount => fs_rcount f | FWCount => fs_wcount f
  | FRBytes => fs_rbytes f | FWBytes => fs_wbytes f
  | FRTime => fs_rtime f | FWTime => fs_wtime f
  end.

(** The getters of stats, iostats.hpp lines 415-463.  Files outside of the list
    are never asked for. *)
Definition get (creation : Z) (m : member) (s : stats) : Z :=
  match m with
  | MPReads => g_p (s_reads s)
  | MPWrites => g_p (s_writes s)
  | MPIos => g_p (s_ios s)
  | MWait => g_t (s_waits s)
  | MWaitRead => g_t (s_wread s)
  | MWaitWrite => g_t (s_wwrite s)
  | MClock now => now - creation
  | MFile i x => match nth_error (s_files s) i with Some f => get_field x f | None => 0 end
  end.

(** file_stats_data(const file_stats&), iostats.hpp lines 268-275: the order in
    which the members are initialised. *)
Definition fields : list field := [FDev; FRCount; FWCount; FRBytes; FWBytes; FRTime; FWTime].

(** stats_data(const stats&), iostats.hpp lines 524-535, with
    deepcopy_file_stats_data_list, iostats.cpp lines 367-373: the order in which
    the values are read. *)
Definition snapshot_program (now : Z) (files : nat) : list member :=
  [MPReads; MPWrites; MPIos; MWait; MWaitRead; MWaitWrite; MClock now] ++
  flat_map (fun i => map (MFile i) fields) (seq 0 files).

(** What happens to the statistics: a critical section of a thread
    (iostats.cpp lines 44-347) or a getter of a thread that takes a snapshot
    (iostats.hpp lines 524-535). *)
Inductive event := ESec (c : section) | EGet (m : member).

(** Executing the events: the values read, in order.
    iostats.cpp lines 44-347, iostats.hpp lines 524-535. *)
Fixpoint reads (creation : Z) (tr : list event) (s : stats) : list (member * Z) :=
  match tr with
  | [] => []
  | ESec c :: tr' => reads creation tr' (sec_step c s)
  | EGet m :: tr' => (m, get creation m s) :: reads creation tr' s
  end.

(** The list of file_stats_data built from the values read, iostats.hpp lines
    267-276. *)
Fixpoint files_from (vals : list Z) : list fdata :=
  match vals with
  | d :: rc :: wc :: rb :: wb :: rt :: wt :: vals' =>
      MkFD d rc wc rb wb rt wt :: files_from vals'
  | _ => []
  end.

(** The stats_data built from the values read, iostats.hpp lines 524-535. *)
Definition data_from (vals : list Z) : option sdata :=
  match vals with
  | p1 :: p2 :: p3 :: w1 :: w2 :: w3 :: e :: vals' =>
      Some (MkSD p1 p2 p3 w1 w2 w3 e (files_from vals'))
  | _ => None
  end.

(** * scoped_print_iostats *)

(** iostats.hpp lines 661-674. *)
Record scoped := MkSc {
  sc_message : string; sc_key : string; sc_begin : sdata;
  sc_bytes : Z; sc_on_destruction : bool }.

(** One line given to the log: iostats.hpp line 691, or report(), iostats.cpp
    lines 813-832.  [Rate bytes per_second] is the part of lines 821-825. *)
Inductive piece :=
| Starting (message : string)
| Finished (message : string)
| Rate (bytes per_second : Z)
| Stats (d : sdata) (prefix : string).

(** Lines, an exception of operator - (iostats.cpp line 815) or the undefined
    conversion of an infinity or too large number to uint64_t (line 824). *)
Inductive outcome (A : Type) := Out (x : A) | OThrow | OUndefined.
Arguments Out {A} x.
Arguments OThrow {A}.
Arguments OUndefined {A}.

(** scoped_print_iostats(message, key, bytes), iostats.hpp lines 684-692.
    [now] is the statistics' snapshot taken in line 687. *)
Definition scoped_new (message key : string) (bytes : Z) (now : sdata) : scoped * list piece :=
  (MkSc message key now bytes true, [Starting message]).

(** iostats.hpp lines 694-696. *)
Definition scoped_new2 (message : string) (bytes : Z) (now : sdata) : scoped * list piece :=
  scoped_new message "" bytes now.

(** iostats.hpp lines 698-700. *)
Definition scoped_new1 (bytes : Z) (now : sdata) : scoped * list piece :=
  scoped_new2 "" bytes now.

(** report(), iostats.cpp lines 813-832.  The speed of line 822 is a double; it
    is cut to an integer in line 824, which is undefined unless the cut value
    fits uint64_t.  Rounding to double is not modelled; times are in units of
    1/[unit] seconds. *)
Definition report (unit : Z) (x : scoped) (now : sdata) : outcome (list piece) :=
  match sd_sub now (sc_begin x) with
  | None => OThrow
  | Some d =>
      let head := [Finished (sc_message x)] in
      if sc_bytes x =? 0 then Out (head ++ [Stats d (sc_key x)])
      else if sd_elapsed d =? 0 then OUndefined
      else
        let bps := Z.quot (sc_bytes x * unit) (sd_elapsed d) in
        if (0 <=? bps) && (bps <? 2 ^ 64)
        then Out (head ++ [Rate (sc_bytes x) bps; Stats d (sc_key x)])
        else OUndefined
  end.

(** A call on the object: report(), final_report() (iostats.hpp lines 712-716)
    or the end of its life (719-723), at which the statistics are [now]. *)
Inductive call := CReport (now : sdata) | CFinal (now : sdata) | CDestroy (now : sdata).

(** iostats.hpp lines 709-723. *)
Definition scoped_call (unit : Z) (c : call) (x : scoped) : scoped * outcome (list piece) :=
  match c with
  | CReport now => (x, report unit x now)
  | CFinal now =>
      let x' := MkSc (sc_message x) (sc_key x) (sc_begin x) (sc_bytes x) false in
      (x', report unit x' now)
  | CDestroy now => (x, if sc_on_destruction x then report unit x now else Out [])
  end.

(** The calls of one object, iostats.hpp lines 709-723. *)
Fixpoint scoped_run (unit : Z) (cs : list call) (x : scoped) : list (outcome (list piece)) :=
  match cs with
  | [] => []
  | c :: cs' => let (x', o) := scoped_call unit c x in o :: scoped_run unit cs' x'
  end.

(** stats_data's simple getters, iostats.cpp lines 589-602, 649-662, iostats.hpp
    lines 630-633. *)
Definition sd_get (m : member) (x : sdata) : option Z :=
  match m with
  | MPReads => Some (sd_preads x)
  | MPWrites => Some (sd_pwrites x)
  | MPIos => Some (sd_pios x)
  | MWait => Some (sd_wait x)
  | MWaitRead => Some (sd_wread x)
  | MWaitWrite => Some (sd_wwrite x)
  | MClock _ => Some (sd_elapsed x)
  | MFile i f =>
      match nth_error (sd_files x) i with
      | None => None
      | Some d => Some (match f with
                        | FDev => fd_dev d
                        | FRCount => fd_rcount d | FWCount => fd_wcount d
                        | FRBytes => fd_rbytes d | FWBytes => fd_wbytes d
                        | FRTime => fd_rtime d | FWTime => fd_wtime d
                        end)
      end
  end.
