(** Model of the Windows file classes, used by any number of objects and processes.

    Sources: /repo/foxxll/io/wfs_file_base.cpp lines 34-246, wfs_file_base.hpp
    lines 36-58, wincall_file.cpp lines 32-105, file.hpp lines 62-88.

    Simplifications.
    - The functions of Windows, from their documentation: CreateFileA with share mode
      0 fails if any other handle of the file is open, and other programs cannot open
      the file as long as the handle is; TRUNCATE_EXISTING needs an existing file and
      GENERIC_WRITE; a file with the attribute "read-only" cannot be opened for
      writing; without buffering offset, size and address must be multiples of the
      sector size; bytes added by SetEndOfFile or skipped by WriteFile are arbitrary.
      Any of the functions may fail for other reasons (arbitrary bits of [env]).
    - Modes have at least one of RDONLY, WRONLY, RDWR: handles without access rights
      are outside the rules for sharing.
    - Release builds: the assert in lines 65 and 86 of wincall_file.cpp is absent.
    - All functions but the constructor and close_remove hold fd_mutex_ throughout, so
      that each is one step.  Only set_size is split where it has closed its handle and
      the file is open to others.
    - Paths are numbers.  Other programs do anything to files of which no handle with
      share mode 0 is open. *)
From Coq Require Import ZArith NArith List Bool.
From Verif Require Import OpenModel.
Import ListNotations.
Local Open Scope Z_scope.

(** * Windows *)

(** A file: size, bytes (those beyond the size mean nothing), attribute read-only.
    Model device: a file, used by wfs_file_base.cpp lines 34-246. *)
Record wfile := mk_wfile { f_size : Z; f_data : Z -> Z; f_ro : bool }.

(** An open handle.  [h_foreign]: it belongs to another program; [h_share]: others may
    open the file too.
    Model device: a handle, from wfs_file_base.cpp lines 92-113 or another program. *)
Record whandle := mk_whandle {
  h_path : nat; h_read : bool; h_write : bool; h_nobuf : bool; h_foreign : bool; h_share : bool;
  h_locked : bool; h_pos : Z
}.

(** Model device: the files and handles of Windows, used by wfs_file_base.cpp lines 34-246. *)
Record kernel := mk_kernel { k_files : nat -> option wfile; k_handles : list (nat * whandle); k_next : nat }.

(** What the rest of the world decides in one call.
     Model device: the answers in wfs_file_base.cpp lines 34-246 and wincall_file.cpp
        lines 32-105. *)
Record env := mk_env {
  e_deny1 : bool;      (* the first CreateFileA fails *)
  e_deny2 : bool;      (* the second CreateFileA fails *)
  e_nobuf : bool;      (* unbuffered access is supported *)
  e_lock : bool;       (* LockFile succeeds *)
  e_fullpath : bool;   (* GetFullPathNameA succeeds *)
  e_close : bool;      (* CloseHandle succeeds *)
  e_room : Z;          (* bytes that can be written before the disk is full *)
  e_end : bool;        (* SetEndOfFile succeeds *)
  e_junk : Z -> Z      (* bytes that nobody has written *)
}.

(** The build: FOXXLL_DIRECT_IO_OFF; the machine: sector size.
    wfs_file_base.cpp lines 71-115, 132-152. *)
Record build := mk_build { direct_off : bool; sector : Z }.

(** Model device: lookup or update of the state of Windows, used by wfs_file_base.cpp
    lines 34-246. *)
Definition upd {A} (f : nat -> option A) (x : nat) (v : option A) : nat -> option A :=
  fun y => if Nat.eqb y x then v else f y.

(** Model device: lookup or update of the state of Windows, used by wfs_file_base.cpp
    lines 34-246. *)
Definition find_handle (k : kernel) (h : nat) : option whandle :=
  match find (fun e => Nat.eqb (fst e) h) (k_handles k) with Some (_, r) => Some r | None => None end.

(** Model device: lookup or update of the state of Windows, used by wfs_file_base.cpp
    lines 34-246. *)
Definition drop_handle (k : kernel) (h : nat) : kernel :=
  mk_kernel (k_files k) (filter (fun e => negb (Nat.eqb (fst e) h)) (k_handles k)) (k_next k).

(** Model device: lookup or update of the state of Windows, used by wfs_file_base.cpp
    lines 34-246. *)
Definition set_handle (k : kernel) (h : nat) (r : whandle) : kernel :=
  mk_kernel (k_files k) (map (fun e => if Nat.eqb (fst e) h then (h, r) else e) (k_handles k)) (k_next k).

(** Model device: lookup or update of the state of Windows, used by wfs_file_base.cpp
    lines 34-246. *)
Definition set_file (k : kernel) (p : nat) (f : option wfile) : kernel :=
  mk_kernel (upd (k_files k) p f) (k_handles k) (k_next k).

(** Model device: lookup or update of the state of Windows, used by wfs_file_base.cpp
    lines 34-246. *)
Definition new_handle (k : kernel) (r : whandle) : kernel * nat :=
  (mk_kernel (k_files k) ((k_next k, r) :: k_handles k) (S (k_next k)), k_next k).

(** A handle of the file is open that does not go together with a new one.
     Model device: lookup or update of the state of Windows, used by wfs_file_base.cpp
        lines 34-246. *)
Definition in_use (k : kernel) (p : nat) (share : bool) : bool :=
  existsb (fun e => Nat.eqb (h_path (snd e)) p && negb (h_share (snd e) && share)) (k_handles k).

(** CreateFileA with share mode 0.
    wfs_file_base.cpp lines 34-118. *)
Definition create_file (k : kernel) (p : nat) (rd wr trunc nobuf ro supported deny : bool)
  : option (kernel * nat) :=
  if deny then None
  else if in_use k p false then None
  else if nobuf && negb supported then None
  else
    let r := mk_whandle p rd wr nobuf false false false 0 in
    match k_files k p with
    | None => if trunc then None
              else Some (new_handle (set_file k p (Some (mk_wfile 0 (fun _ => 0) ro))) r)
    | Some f =>
        if f_ro f && wr then None
        else if trunc
        then (if wr then Some (new_handle (set_file k p (Some (mk_wfile 0 (f_data f) (f_ro f)))) r) else None)
        else Some (new_handle k r)
    end.

(** LockFile.
    wfs_file_base.cpp lines 173-181. *)
Definition lock_file (k : kernel) (h : nat) (ok : bool) : option kernel :=
  match find_handle k h with
  | Some r => if ok then Some (set_handle k h
                (mk_whandle (h_path r) (h_read r) (h_write r) (h_nobuf r) (h_foreign r) (h_share r) true (h_pos r)))
              else None
  | None => None
  end.

(** SetFilePointerEx(h, n, FILE_BEGIN); n is a signed 64-bit number.
    wfs_file_base.cpp line 218, wincall_file.cpp lines 45-58. *)
Definition set_pointer (k : kernel) (h : nat) (n : Z) : option kernel :=
  match find_handle k h with
  | Some r => if n <? 2 ^ 63
              then Some (set_handle k h (mk_whandle (h_path r) (h_read r) (h_write r) (h_nobuf r)
                                           (h_foreign r) (h_share r) (h_locked r) n))
              else None
  | None => None
  end.

(** SetEndOfFile.
    wfs_file_base.cpp lines 225-229. *)
Definition set_end (b : build) (k : kernel) (h : nat) (e : env) : option kernel :=
  match find_handle k h with
  | Some r =>
      match k_files k (h_path r) with
      | Some f =>
          if h_write r && e_end e && (negb (h_nobuf r) || (h_pos r mod sector b =? 0))
          then Some (set_file k (h_path r) (Some (mk_wfile (h_pos r)
                 (fun x => if x <? f_size f then f_data f x else e_junk e x) (f_ro f))))
          else None
      | None => None
      end
  | None => None
  end.

(** Unbuffered transfers.
    wincall_file.cpp lines 60-103. *)
Definition aligned (b : build) (r : whandle) (buffer n : Z) : bool :=
  negb (h_nobuf r) || ((h_pos r mod sector b =? 0) && (n mod sector b =? 0) && (buffer mod sector b =? 0)).

(** Model device: what ReadFile reads, wincall_file.cpp lines 60-82. *)
Definition bytes_at (f : wfile) (pos n : Z) : list Z :=
  map (fun i => f_data f (pos + Z.of_nat i)) (seq 0 (Z.to_nat n)).

(** ReadFile: the bytes read.
    wincall_file.cpp lines 60-82. *)
Definition read_file (b : build) (k : kernel) (h : nat) (buffer n : Z) : option (list Z) :=
  match find_handle k h with
  | Some r =>
      match k_files k (h_path r) with
      | Some f => if h_read r && aligned b r buffer n
                  then Some (bytes_at f (h_pos r) (Z.min n (Z.max 0 (f_size f - h_pos r))))
                  else None
      | None => None
      end
  | None => None
  end.

(** Model device: what WriteFile changes, wincall_file.cpp lines 83-103. *)
Definition overwrite (f : wfile) (pos : Z) (data : list Z) (junk : Z -> Z) : wfile :=
  mk_wfile (Z.max (f_size f) (pos + Z.of_nat (length data)))
    (fun x => if (pos <=? x) && (x <? pos + Z.of_nat (length data)) then nth (Z.to_nat (x - pos)) data 0
              else if x <? f_size f then f_data f x else junk x) (f_ro f).

(** WriteFile: the number of bytes written.
    wincall_file.cpp lines 83-103. *)
Definition write_file (b : build) (k : kernel) (h : nat) (buffer : Z) (data : list Z) (e : env)
  : option (kernel * Z) :=
  match find_handle k h with
  | Some r =>
      match k_files k (h_path r) with
      | Some f =>
          if h_write r && aligned b r buffer (Z.of_nat (length data))
          then let written := firstn (Z.to_nat (e_room e)) data in
               match written with
               | [] => Some (k, 0)
               | _ => Some (set_file k (h_path r) (Some (overwrite f (h_pos r) written (e_junk e))),
                            Z.of_nat (length written))
               end
          else None
      | None => None
      end
  | None => None
  end.

(** DeleteFileA: no handle may be open.
    wfs_file_base.cpp lines 242-246. *)
Definition delete_file (k : kernel) (p : nat) : kernel :=
  match k_files k p with
  | Some f => if f_ro f || existsb (fun e => Nat.eqb (h_path (snd e)) p) (k_handles k) then k
              else set_file k p None
  | None => k
  end.

(** * wfs_file_base *)

(** A call inside set_size whose handle is closed: before (wfs_file_base.cpp lines
    214-229) and after
    (lines 236-237) the size was set. *)
Inductive phase := Idle | Resizing (n : Z) | Reopening.

(** wfs_file_base.hpp:41-46, file.hpp:192.  [o_sector] is the member
    [bytes_per_sector_]; None: not initialised. *)
Record wobj := mk_wobj {
  o_path : nat; o_mode : N; o_des : option nat; o_locked : bool; o_need : bool;
  o_sector : option Z; o_phase : phase
}.

(** Results of wfs_file_base.cpp lines 34-118. *)
Inductive opened := Opened (k : kernel) (h : nat) | Invalid | Failed.

(** open_file_impl, wfs_file_base.cpp:34-118; CREAT and SYNC are ignored. *)
Definition open_file_impl (b : build) (k : kernel) (p : nat) (mode : N) (e : env) : opened :=
  let ro := has mode RDONLY in
  let rd := has mode RDONLY || has mode RDWR in
  let wr := has mode WRONLY || has mode RDWR in
  let trunc := has mode TRUNC in
  if has mode DIRECT && direct_off b && has mode REQUIRE_DIRECT then Invalid
  else
    let nobuf := has mode DIRECT && negb (direct_off b) in
    match create_file k p rd wr trunc nobuf ro (e_nobuf e) (e_deny1 e) with
    | Some (k', h) => Opened k' h
    | None =>
        if negb (direct_off b) && has mode DIRECT && negb (has mode REQUIRE_DIRECT) then
          match create_file k p rd wr trunc false ro (e_nobuf e) (e_deny2 e) with
          | Some (k', h) => Opened k' h
          | None => Failed
          end
        else Failed
    end.

(** The constructor returned, or threw; with the kernel it left behind.
    wfs_file_base.cpp lines 120-153. *)
Inductive built := Built (k : kernel) (o : wobj) | NotBuilt (k : kernel).

(** wfs_file_base.cpp lines 132-152: the local variable in line 143 hides the member,
    which is set only
    if GetFullPathNameA fails. *)
Definition sector_member (mode : N) (e : env) : option Z :=
  if negb (has mode RDONLY) && has mode DIRECT
  then (if e_fullpath e then None else Some 512)
  else None.

(** Constructor, wfs_file_base.cpp lines 120-153.  If lock() throws the handle stays open. *)
Definition construct (b : build) (k : kernel) (p : nat) (mode : N) (e : env) : built :=
  let finish k des locked := Built k (mk_wobj p mode des locked (has mode DIRECT) (sector_member mode e) Idle) in
  match open_file_impl b k p mode e with
  | Failed => NotBuilt k
  | Invalid => if has mode NO_LOCK then finish k None false else NotBuilt k
  | Opened k1 h =>
      if has mode NO_LOCK then finish k1 (Some h) false
      else match lock_file k1 h (e_lock e) with
           | Some k2 => finish k2 (Some h) true
           | None => NotBuilt k1
           end
  end.

(** Assignment to file_des_, wfs_file_base.cpp lines 160-171, 215, 236-237. *)
Definition with_des (o : wobj) (des : option nat) (ph : phase) : wobj :=
  mk_wobj (o_path o) (o_mode o) des (o_locked o) (o_need o) (o_sector o) ph.

(** * The world *)

(** Model device: Windows and all objects of wfs_file_base.cpp, wfs_file_base.hpp lines
    36-58. *)
Record world := mk_world { w_k : kernel; w_objs : nat -> option wobj }.

(** Model device: how the calls of wfs_file_base.cpp lines 120-246 and wincall_file.cpp
    lines 32-105 end. *)
Inductive event :=
| EvDone                    (* returned *)
| EvThrow                   (* io_error *)
| EvSize (n : Z)            (* size() returned n *)
| EvRead (data : list Z)    (* the buffer after a read without error *)
| EvSilent.                 (* no call returned *)

(** Model device: a step of wfs_file_base.cpp lines 120-246 or wincall_file.cpp lines
    32-105. *)
Inductive result := Step (w : world) (ev : event) | Undefined | Disabled.

(** wincall_file.cpp lines 32-105. *)
Inductive transfer := READ (bytes : Z) | WRITE (data : list Z).

(** wfs_file_base.cpp lines 120-246, wincall_file.cpp lines 32-105, and other programs. *)
Inductive act :=
| AOpen (o p : nat) (mode : N) (e : env)
| ALock (o : nat) (e : env)
| ASize (o : nat)
| ASetSize (o : nat) (n : Z) (e : env)
| AResize (o : nat) (e : env)
| AReopen (o : nat) (e : env)
| AServe (o : nat) (buffer offset : Z) (t : transfer) (e : env)
| ADestroy (o : nat) (e : env)
| ARemove (o : nat) (e : env)
| FOpen (p : nat) (rd wr share : bool)
| FClose (h : nat)
| FChange (p : nat) (f : option wfile).

(** Model device: an object of wfs_file_base.cpp changes (lines 120-246). *)
Definition put (w : world) (k : kernel) (o : nat) (ob : option wobj) : world :=
  mk_world k (upd (w_objs w) o ob).

(** An object that exists and none of whose functions is in progress.
    Model device: no function of wfs_file_base.cpp lines 160-246 runs. *)
Definition idle (w : world) (o : nat) : option wobj :=
  match w_objs w o with
  | Some ob => match o_phase ob with Idle => Some ob | _ => None end
  | None => None
  end.

(** lock(), wfs_file_base.cpp:173-181. *)
Definition lock_step (w : world) (o : nat) (ob : wobj) (e : env) : result :=
  if o_locked ob then Step w EvDone
  else match o_des ob with
       | None => Step w EvThrow
       | Some h =>
           match lock_file (w_k w) h (e_lock e) with
           | Some k => Step (put w k o (Some (mk_wobj (o_path ob) (o_mode ob) (o_des ob) true (o_need ob)
                                                (o_sector ob) Idle))) EvDone
           | None => Step w EvThrow
           end
       end.

(** size(), wfs_file_base.cpp:183-196. *)
Definition file_size (k : kernel) (ob : wobj) : option Z :=
  match o_des ob with
  | None => None
  | Some h => match find_handle k h with
              | Some r => match k_files k (h_path r) with Some f => Some (f_size f) | None => None end
              | None => None
              end
  end.

(** SetFilePointerEx and SetEndOfFile, wfs_file_base.cpp lines 218-229. *)
Definition resize (b : build) (k : kernel) (h : nat) (n : Z) (e : env) : option kernel :=
  match set_pointer k h n with
  | Some k1 => set_end b k1 h e
  | None => None
  end.

(** set_size(), wfs_file_base.cpp lines 198-229. *)
Definition set_size_step (b : build) (w : world) (o : nat) (ob : wobj) (n : Z) (e : env) : result :=
  match o_des ob, file_size (w_k w) ob with
  | Some h, Some _ =>
      if has (o_mode ob) RDONLY then Step w EvDone
      else
        let plain :=
          match resize b (w_k w) h n e with
          | Some k => Step (mk_world k (w_objs w)) EvDone
          | None => Step w EvThrow
          end in
        if has (o_mode ob) DIRECT then
          match o_sector ob with
          | None => Undefined
          | Some s =>
              if n mod s =? 0 then plain
              else if e_close e
              then Step (put w (drop_handle (w_k w) h) o (Some (with_des ob None (Resizing n)))) EvSilent
              else Step w EvThrow
          end
        else plain
  | _, _ => Step w EvThrow
  end.

(** set_size() went on, wfs_file_base.cpp lines 215-236. *)
Definition resize_step (b : build) (w : world) (o : nat) (ob : wobj) (n : Z) (e : env) : result :=
  match open_file_impl b (w_k w) (o_path ob) WRONLY e with
  | Opened k1 h =>
      match resize b k1 h n e with
      | Some k2 =>
          if e_close e
          then Step (put w (drop_handle k2 h) o (Some (with_des ob None Reopening))) EvSilent
          else Step (put w k2 o (Some (with_des ob (Some h) Idle))) EvThrow
      | None => Step (put w k1 o (Some (with_des ob (Some h) Idle))) EvThrow
      end
  | _ => Step (put w (w_k w) o (Some (with_des ob None Idle))) EvThrow
  end.

(** set_size() ends, wfs_file_base.cpp line 237. *)
Definition reopen_step (b : build) (w : world) (o : nat) (ob : wobj) (e : env) : result :=
  match open_file_impl b (w_k w) (o_path ob) (N.ldiff (o_mode ob) TRUNC) e with
  | Opened k1 h => Step (put w k1 o (Some (with_des ob (Some h) Idle))) EvDone
  | Invalid => Step (put w (w_k w) o (Some (with_des ob None Idle))) EvDone
  | Failed => Step (put w (w_k w) o (Some (with_des ob None Idle))) EvThrow
  end.

(** close(), wfs_file_base.cpp lines 160-171. *)
Definition close_handle (k : kernel) (ob : wobj) (e : env) : kernel * bool :=
  match o_des ob with
  | None => (k, true)
  | Some h => if e_close e then (drop_handle k h, true) else (k, false)
  end.

(** wincall_file::serve(), wincall_file.cpp:32-105; [DWORD] has 32 bits. *)
Definition serve_step (b : build) (w : world) (ob : wobj) (buffer offset : Z) (t : transfer) (e : env) : result :=
  match o_des ob with
  | None => Step w EvThrow
  | Some h =>
      match set_pointer (w_k w) h offset with
      | None => Step w EvThrow
      | Some k1 =>
          match t with
          | READ bytes =>
              match read_file b k1 h buffer (bytes mod 2 ^ 32) with
              | Some l => Step (mk_world k1 (w_objs w))
                            (if Z.of_nat (length l) =? bytes then EvRead l else EvThrow)
              | None => Step (mk_world k1 (w_objs w)) EvThrow
              end
          | WRITE data =>
              let bytes := Z.of_nat (length data) in
              match write_file b k1 h buffer (firstn (Z.to_nat (bytes mod 2 ^ 32)) data) e with
              | Some (k2, n) => Step (mk_world k2 (w_objs w)) (if n =? bytes then EvDone else EvThrow)
              | None => Step (mk_world k1 (w_objs w)) EvThrow
              end
          end
      end
  end.

(** wfs_file_base.cpp lines 120-246, wincall_file.cpp lines 32-105. *)
Definition step (b : build) (w : world) (a : act) : result :=
  match a with
  | AOpen o p mode e =>
      match w_objs w o with
      | Some _ => Disabled
      | None =>
          if has mode RDONLY || has mode WRONLY || has mode RDWR then
            match construct b (w_k w) p mode e with
            | Built k ob => Step (put w k o (Some ob)) EvDone
            | NotBuilt k => Step (mk_world k (w_objs w)) EvThrow
            end
          else Disabled
      end
  | ALock o e => match idle w o with Some ob => lock_step w o ob e | None => Disabled end
  | ASize o =>
      match idle w o with
      | Some ob => Step w (match file_size (w_k w) ob with Some n => EvSize n | None => EvThrow end)
      | None => Disabled
      end
  | ASetSize o n e =>
      match idle w o with
      | Some ob => if 0 <=? n then set_size_step b w o ob n e else Disabled
      | None => Disabled
      end
  | AResize o e =>
      match w_objs w o with
      | Some ob => match o_phase ob with Resizing n => resize_step b w o ob n e | _ => Disabled end
      | None => Disabled
      end
  | AReopen o e =>
      match w_objs w o with
      | Some ob => match o_phase ob with Reopening => reopen_step b w o ob e | _ => Disabled end
      | None => Disabled
      end
  | AServe o buffer offset t e =>
      match idle w o with
      | Some ob => if 0 <=? offset then serve_step b w ob buffer offset t e else Disabled
      | None => Disabled
      end
  (* lines 155-158; a destructor that throws ends the process: not continued *)
  | ADestroy o e =>
      match idle w o with
      | Some ob => let '(k, ok) := close_handle (w_k w) ob e in
                   if ok then Step (put w k o None) EvDone else Disabled
      | None => Disabled
      end
  (* close_remove(), lines 242-246 *)
  | ARemove o e =>
      match idle w o with
      | Some ob => let '(k, ok) := close_handle (w_k w) ob e in
                   if ok then Step (put w (delete_file k (o_path ob)) o (Some (with_des ob None Idle))) EvDone
                   else Step w EvThrow
      | None => Disabled
      end
  | FOpen p rd wr share =>
      if in_use (w_k w) p share then Disabled
      else Step (mk_world (fst (new_handle (w_k w) (mk_whandle p rd wr false true share false 0))) (w_objs w)) EvSilent
  | FClose h =>
      match find_handle (w_k w) h with
      | Some r => if h_foreign r then Step (mk_world (drop_handle (w_k w) h) (w_objs w)) EvSilent else Disabled
      | None => Disabled
      end
  | FChange p f =>
      if existsb (fun e => Nat.eqb (h_path (snd e)) p && negb (h_foreign (snd e))) (k_handles (w_k w)) then Disabled
      else Step (mk_world (set_file (w_k w) p f) (w_objs w)) EvSilent
  end.
