(** Model of the disk configuration: class config and class disk_config, and the
    assignment of device ids in create_file.

    Sources: /repo/foxxll/mng/config.cpp lines 49-286, 290-598,
    /repo/foxxll/mng/config.hpp lines 36-175,
    /repo/foxxll/io/create_file.cpp lines 61-70,
    /repo/foxxll/io/file.hpp lines 89-92.

    Simplifications.
    - The Unix variants of the functions.
    - A thrown exception is [None]; the text of messages and the log output are
      not modelled. A disk_config whose constructor throws is lost.
    - The library tlx is not part of the repository (extlib/tlx is empty).
      tlx::split is modelled below from its documentation;
      tlx::expand_environment_variables and tlx::parse_si_iec_units are
      arbitrary functions (section variables).
    - Members that the constructor of config leaves uninitialised (first_flash,
      max_device_id_) have arbitrary values.
    - A file is its content; files do not change while they are read. *)

From Coq Require Import String Ascii List Arith Bool ZArith NArith.
From Verif Require Import FileModel.
Import ListNotations.
Local Open Scope list_scope.

Notation str := (list ascii) (only parsing).

(** String literals.
    As in config.cpp lines 341-344, 429-530. *)
Definition L (s : string) : str := list_ascii_of_string s.

(** The comparison of strings, config.cpp lines 341, 344, 429-530. *)
Definition seq (a b : str) : bool := if list_eq_dec ascii_dec a b then true else false.

(** ** tlx::split *)

(** [limit]: number of fields that may still be produced ([None]: no limit);
    [cur]: the characters since the last separator. The last field contains
    the rest of the string.
    tlx::split, not in the repository; used in config.cpp lines 339, 367, 420, 426. *)
Fixpoint split_go (sep : ascii) (limit : option nat) (cur s : str) : list str :=
  match s with
  | [] => [cur]
  | c :: s' =>
      if ascii_dec c sep then
        match limit with
        | None => cur :: split_go sep None [] s'
        | Some n => if (n <=? 1)%nat then [cur ++ c :: s']
                    else cur :: split_go sep (Some (n - 1)%nat) [] s'
        end
      else split_go sep limit (cur ++ [c]) s'
  end.

(** split(sep, str).
    config.cpp line 420. *)
Definition split (sep : ascii) (s : str) : list str := split_go sep None [] s.

(** split(sep, str, min_fields, limit): padded with empty fields.
    config.cpp lines 339, 367, 426. *)
Definition split_min (sep : ascii) (s : str) (min_fields limit : nat) : list str :=
  let f := split_go sep (Some limit) [] s in
  f ++ repeat [] (min_fields - length f).

(** ** Numbers *)

(** Output of an int or an unsigned int with operator <<.
    config.cpp lines 547-598 (queue, device_id, queue_length). *)
Definition print_int (z : Z) : str :=
  match Z.to_int z with
  | Decimal.Pos u => digits u
  | Decimal.Neg u => "-"%char :: digits u
  end.

(** A digit, for strtoul of config.cpp lines 481, 500, 511. *)
Definition digit_value (c : ascii) : option Z :=
  let n := nat_of_ascii c in
  if ((48 <=? n) && (n <=? 57))%nat then Some (Z.of_nat n - 48)%Z else None.

(** White space of isspace() in the C locale.
    For strtoul of config.cpp lines 481, 500, 511. *)
Definition is_space (c : ascii) : bool :=
  let n := nat_of_ascii c in ((n =? 32) || ((9 <=? n) && (n <=? 13)))%nat.

(** The digits of a number: value, and the characters from endp on.
    For strtoul of config.cpp lines 481, 500, 511. *)
Fixpoint read_digits (acc : Z) (s : str) : Z * str :=
  match s with
  | [] => (acc, [])
  | c :: s' => match digit_value c with
               | Some d => read_digits (10 * acc + d)%Z s'
               | None => (acc, s)
               end
  end.

(** White space skipped by strtoul, config.cpp lines 481, 500, 511. *)
Fixpoint skip_space (s : str) : str :=
  match s with
  | c :: s' => if is_space c then skip_space s' else s
  | [] => []
  end.

(** Largest value of strtoul, config.cpp lines 481, 500, 511. *)
Definition ULONG_MAX : Z := (2 ^ 64 - 1)%Z.

(** strtoul(s.c_str(), &endp, 10) as ISO C describes it: the value, and what
    endp points to.
    config.cpp lines 481, 500, 511. *)
Definition strtoul (s : str) : Z * str :=
  let t := skip_space s in
  let '(neg, d) := match t with
                   | c :: t' => if ascii_dec c "-" then (true, t')
                                else if ascii_dec c "+" then (false, t')
                                else (false, t)
                   | [] => (false, t)
                   end in
  match d with
  | c :: _ =>
      match digit_value c with
      | Some _ =>
          let '(v, r) := read_digits 0 d in
          if (ULONG_MAX <? v)%Z then (ULONG_MAX, r)
          else ((if neg then (- v) mod 2 ^ 64 else v)%Z, r)
      | None => (0%Z, s)
      end
  | [] => (0%Z, s)
  end.

(** [*endp == 0]: the end of the string or an embedded zero character.
    config.cpp lines 482, 501, 512. *)
Definition at_end (r : str) : bool :=
  match r with
  | [] => true
  | c :: _ => if ascii_dec c zero then true else false
  end.

(** static_cast<int>.
    config.cpp lines 481, 500, 511. *)
Definition to_int (z : Z) : Z := ((z + 2 ^ 31) mod 2 ^ 32 - 2 ^ 31)%Z.

(** Conversion to unsigned int.
    config.cpp line 511. *)
Definition to_uint (z : Z) : Z := (z mod 2 ^ 32)%Z.

(** ** disk_config *)

(** file.hpp lines 89-92. *)
Definition DEFAULT_QUEUE : Z := (-1)%Z.
(** file.hpp line 90. *)
Definition DEFAULT_LINUXAIO_QUEUE : Z := (-2)%Z.
(** file.hpp line 92. *)
Definition DEFAULT_DEVICE_ID : Z := (2 ^ 32 - 1)%Z.

(** config.hpp line 86. *)
Inductive direct_type := DIRECT_OFF | DIRECT_TRY | DIRECT_ON.

(** Members, config.hpp lines 43-106. *)
Record disk := mkDisk {
  path : str;
  size : Z;
  io_impl : str;
  autogrow : bool;
  delete_on_exit : bool;
  direct : direct_type;
  flash : bool;
  queue : Z;
  device_id : Z;
  raw_device : bool;
  unlink_on_open : bool;
  queue_length : Z
}.

(** Assignment to the member, config.cpp lines 408, 418. *)
Definition set_io d v := mkDisk (path d) (size d) v (autogrow d) (delete_on_exit d) (direct d)
  (flash d) (queue d) (device_id d) (raw_device d) (unlink_on_open d) (queue_length d).
(** Assignment to the member, config.cpp lines 436-441. *)
Definition set_autogrow d v := mkDisk (path d) (size d) (io_impl d) v (delete_on_exit d)
  (direct d) (flash d) (queue d) (device_id d) (raw_device d) (unlink_on_open d) (queue_length d).
(** Assignment to the member, config.cpp lines 450-453. *)
Definition set_delete d v := mkDisk (path d) (size d) (io_impl d) (autogrow d) v
  (direct d) (flash d) (queue d) (device_id d) (raw_device d) (unlink_on_open d) (queue_length d).
(** Assignment to the member, config.cpp lines 459-465. *)
Definition set_direct d v := mkDisk (path d) (size d) (io_impl d) (autogrow d) (delete_on_exit d)
  v (flash d) (queue d) (device_id d) (raw_device d) (unlink_on_open d) (queue_length d).
(** Assignment to the member, config.cpp line 481. *)
Definition set_queue d v := mkDisk (path d) (size d) (io_impl d) (autogrow d) (delete_on_exit d)
  (direct d) (flash d) v (device_id d) (raw_device d) (unlink_on_open d) (queue_length d).
(** Assignment to the member, config.cpp line 511. *)
Definition set_device d v := mkDisk (path d) (size d) (io_impl d) (autogrow d) (delete_on_exit d)
  (direct d) (flash d) (queue d) v (raw_device d) (unlink_on_open d) (queue_length d).
(** Assignment to the member, config.cpp lines 519-526. *)
Definition set_raw d v := mkDisk (path d) (size d) (io_impl d) (autogrow d) (delete_on_exit d)
  (direct d) (flash d) (queue d) (device_id d) v (unlink_on_open d) (queue_length d).
(** Assignment to the member, config.cpp lines 527-536. *)
Definition set_unlink d v := mkDisk (path d) (size d) (io_impl d) (autogrow d) (delete_on_exit d)
  (direct d) (flash d) (queue d) (device_id d) (raw_device d) v (queue_length d).
(** Assignment to the member, config.cpp line 500. *)
Definition set_qlen d v := mkDisk (path d) (size d) (io_impl d) (autogrow d) (delete_on_exit d)
  (direct d) (flash d) (queue d) (device_id d) (raw_device d) (unlink_on_open d) v.

(** Member initialisers of disk_config(path, size, io_impl), config.cpp lines 303-317. *)
Definition fresh (p : str) (sz : Z) (io : str) : disk :=
  mkDisk p sz io true false DIRECT_TRY false DEFAULT_QUEUE DEFAULT_DEVICE_ID false false 0.

(** A number as an argument of a parameter, config.cpp lines 480-482, 499-501, 510-512. *)
Definition number (s : str) : option Z :=
  let '(v, r) := strtoul s in if at_end r then Some v else None.

(** One round of the loop in parse_fileio, config.cpp lines 422-544, for the parameter p. *)
Definition parse_param (d : disk) (p : str) : option disk :=
  let eq := split_min "=" p 2 2 in
  let eq0 := nth 0 eq [] in
  let eq1 := nth 1 eq [] in
  if seq p [] then Some d
  else if seq p (L "autogrow") || seq p (L "noautogrow") || seq eq0 (L "autogrow") then
    if seq p (L "autogrow") then Some (set_autogrow d true)
    else if seq p (L "noautogrow") then Some (set_autogrow d false)
    else if seq eq1 (L "off") then Some (set_autogrow d false)
    else if seq eq1 (L "on") then Some (set_autogrow d true)
    else if seq eq1 (L "no") then Some (set_autogrow d false)
    else if seq eq1 (L "yes") then Some (set_autogrow d true)
    else None
  else if seq p (L "delete") || seq p (L "delete_on_exit") then Some (set_delete d true)
  else if seq p (L "direct") || seq p (L "nodirect") || seq eq0 (L "direct") then
    if seq p (L "direct") then Some (set_direct d DIRECT_ON)
    else if seq p (L "nodirect") then Some (set_direct d DIRECT_OFF)
    else if seq eq1 (L "off") then Some (set_direct d DIRECT_OFF)
    else if seq eq1 (L "try") then Some (set_direct d DIRECT_TRY)
    else if seq eq1 (L "on") then Some (set_direct d DIRECT_ON)
    else if seq eq1 (L "no") then Some (set_direct d DIRECT_OFF)
    else if seq eq1 (L "yes") then Some (set_direct d DIRECT_ON)
    else None
  else if seq eq0 (L "queue") then
    if seq (io_impl d) (L "linuxaio") then None
    else option_map (fun v => set_queue d (to_int v)) (number eq1)
  else if seq eq0 (L "queue_length") then
    if seq (io_impl d) (L "linuxaio")
    then option_map (fun v => set_qlen d (to_int v)) (number eq1)
    else None
  else if seq eq0 (L "device_id") || seq eq0 (L "devid") then
    option_map (fun v => set_device d (to_uint (to_int v))) (number eq1)
  else if seq p (L "raw_device") then
    if seq (io_impl d) (L "syscall") then Some (set_raw d true) else None
  else if seq p (L "unlink") || seq p (L "unlink_on_open") then
    if seq (io_impl d) (L "syscall") || seq (io_impl d) (L "linuxaio")
       || seq (io_impl d) (L "mmap")
    then Some (set_unlink d true) else None
  else None.

(** The loop of config.cpp lines 422-544. *)
Fixpoint parse_params (d : disk) (ps : list str) : option disk :=
  match ps with
  | [] => Some d
  | p :: ps => match parse_param d p with
               | Some d' => parse_params d' ps
               | None => None
               end
  end.

(** find_first_not_of(' ') and substr(leadspace), config.cpp lines 406-408; substr throws
    if there is no other character. *)
Fixpoint strip (s : str) : option str :=
  match s with
  | [] => None
  | c :: s' => if ascii_dec c " " then strip s' else Some s
  end.

(** find(' ') and the two substr, config.cpp lines 411-418. *)
Fixpoint cut (s : str) : str * option str :=
  match s with
  | [] => ([], None)
  | c :: s' => if ascii_dec c " " then ([], Some s')
               else let '(a, b) := cut s' in (c :: a, b)
  end.

(** parse_fileio, config.cpp lines 403-545. *)
Definition parse_fileio (d : disk) : option disk :=
  match strip (io_impl d) with
  | None => None
  | Some io =>
      match cut io with
      | (_, None) => Some (set_io d io)
      | (name, Some paramstr) => parse_params (set_io d name) (split " " paramstr)
      end
  end.

(** disk_config(path, size, io_impl), config.cpp lines 303-319. *)
Definition make_disk (p : str) (sz : Z) (io : str) : option disk :=
  parse_fileio (fresh p sz io).

(** fileio_string, config.cpp lines 547-598. *)
Definition fileio_string (d : disk) : str :=
  io_impl d
  ++ (if autogrow d then [] else L " autogrow=no")
  ++ (if delete_on_exit d then L " delete_on_exit" else [])
  ++ (match direct d with
      | DIRECT_OFF => L " direct=off"
      | DIRECT_TRY => []
      | DIRECT_ON => L " direct=on"
      end)
  ++ (if flash d then L " flash" else [])
  ++ (if negb (queue d =? DEFAULT_QUEUE)%Z && negb (queue d =? DEFAULT_LINUXAIO_QUEUE)%Z
      then L " queue=" ++ print_int (queue d) else [])
  ++ (if negb (device_id d =? DEFAULT_DEVICE_ID)%Z
      then L " devid=" ++ print_int (device_id d) else [])
  ++ (if raw_device d then L " raw_device" else [])
  ++ (if unlink_on_open d then L " unlink_on_open" else [])
  ++ (if negb (queue_length d =? 0)%Z
      then L " queue_length=" ++ print_int (queue_length d) else []).

Section Config.
(** tlx::expand_environment_variables, tlx::parse_si_iec_units(_, _, 'M') and
    the process id. *)
Variable expand : str -> str.
Variable parse_size : str -> option Z.
Variable pid : Z.

(** path.find("$$") and path.replace(pos, 3, pid), config.cpp lines 373-381. *)
Fixpoint replace_pid (s : str) : str :=
  match s with
  | [] => []
  | c :: s' =>
      match s' with
      | c' :: s'' =>
          if ascii_dec c "$" then
            if ascii_dec c' "$" then print_int pid ++ skipn 1 s''
            else c :: replace_pid s'
          else c :: replace_pid s'
      | [] => [c]
      end
  end.

(** parse_line, config.cpp lines 336-401, on an existing object. *)
Definition parse_line (d : disk) (line : str) : option disk :=
  let eqfield := split_min "=" line 2 2 in
  let key := nth 0 eqfield [] in
  let fl := if seq key (L "disk") then Some false
            else if seq key (L "flash") then Some true else None in
  match fl with
  | None => None
  | Some fl =>
      let cmfield := split_min "," (nth 1 eqfield []) 3 3 in
      match parse_size (nth 1 cmfield []) with
      | None => None
      | Some sz =>
          parse_fileio
            (mkDisk (replace_pid (expand (nth 0 cmfield []))) sz (nth 2 cmfield [])
                    true (if (sz =? 0)%Z then true else false) DIRECT_TRY fl
                    DEFAULT_QUEUE DEFAULT_DEVICE_ID
                    (raw_device d) false (queue_length d))
      end
  end.

(** disk_config(), config.cpp lines 290-301; disk_config(line), lines 321-334. *)
Definition disk0 : disk := fresh [] 0 [].
(** disk_config(line), config.cpp lines 321-334. *)
Definition disk_of_line (line : str) : option disk := parse_line disk0 line.

(** ** config *)

(** config.hpp lines 119-128 and 175. *)
Record config := mkConfig {
  disks : list disk;
  first_flash : Z;
  is_initialized : bool;
  max_dev : Z
}.

(** std::getline until the end of the file.
    config.cpp line 154. *)
Fixpoint getlines (cur s : str) : list str :=
  match s with
  | [] => match cur with [] => [] | _ => [cur] end
  | c :: s' => if ascii_dec c "010" then cur :: getlines [] s'
               else getlines (cur ++ [c]) s'
  end.

(** The loop of load_config_file, config.cpp lines 154-167: what is in disks_list and in
    flash_list at the end; if a line throws, what is in disks_list then. *)
Fixpoint load_lines (ls : list str) (dl fl : list disk) : (list disk * list disk) + list disk :=
  match ls with
  | [] => inl (dl, fl)
  | l :: ls =>
      match l with
      | [] => load_lines ls dl fl
      | c :: _ =>
          if ascii_dec c "#" then load_lines ls dl fl
          else match disk_of_line l with
               | None => inr dl
               | Some e => if flash e then load_lines ls dl (fl ++ [e])
                           else load_lines ls (dl ++ [e]) fl
               end
      end
  end.

(** add_disk, config.cpp lines 181-187. *)
Definition add_disk (c : config) (d : disk) : config :=
  mkConfig (disks c ++ [d]) ((first_flash c + 1) mod 2 ^ 32) (is_initialized c) (max_dev c).

(** load_default_config, config.cpp lines 133-142; default_disk_path, default_disk_io_impl. *)
Definition load_default_config (c : config) : bool * config :=
  match make_disk (L "/var/tmp/foxxll") (1000 * 1024 * 1024) (L "syscall") with
  | Some e => (true, add_disk c (set_autogrow (set_delete e true) true))
  | None => (false, c)
  end.

(** load_config_file, config.cpp lines 144-179; [file]: the content, [None] if the file
    cannot be opened. The flag tells whether the function returns normally. *)
Definition load_config_file (c : config) (file : option str) : bool * config :=
  match file with
  | None => load_default_config c
  | Some s =>
      match load_lines (getlines [] s) (disks c) [] with
      | inr dl => (false, mkConfig dl (first_flash c) (is_initialized c) (max_dev c))
      | inl (dl, fl) =>
          (negb (length (dl ++ fl) =? 0)%nat,
           mkConfig (dl ++ fl) (Z.of_nat (length dl) mod 2 ^ 32) (is_initialized c) (max_dev c))
      end
  end.

(** The environment and the files. *)
Variable getenv : str -> option str.
Variable fs : str -> option str.

(** config.cpp lines 42-47. *)
Definition exist_file (p : str) : bool := match fs p with Some _ => true | None => false end.

(** The choice made by find_config, config.cpp lines 84-131; [None]: default configuration. *)
Definition find_path : option str :=
  let base_check (base : str) : option str :=
    match getenv (L "HOSTNAME") with
    | Some h => if exist_file (base ++ L "." ++ h) then Some (base ++ L "." ++ h)
                else if exist_file base then Some base else None
    | None => if exist_file base then Some base else None
    end in
  let search :=
    match base_check (L "./.stxxl") with
    | Some p => Some p
    | None => match getenv (L "HOME") with
              | Some home => base_check (home ++ L "/.stxxl")
              | None => None
              end
    end in
  match getenv (L "STXXLCFG") with
  | Some cfg => if exist_file cfg then Some cfg else search
  | None => search
  end.

(** config.cpp lines 84-131. *)
Definition find_config (c : config) : bool * config :=
  match find_path with
  | Some p => load_config_file c (fs p)
  | None => load_default_config c
  end.

(** initialize, config.cpp lines 66-82. *)
Definition initialize (c : config) : bool * config :=
  let c1 := mkConfig (disks c) 0 (is_initialized c) (max_dev c) in
  let '(ok, c2) := if (length (disks c1) =? 0)%nat then find_config c1 else (true, c1) in
  if ok then (true, mkConfig (disks c2) (first_flash c2) true 0) else (false, c2).

(** check_initialized, config.hpp lines 151-154. *)
Definition check_initialized (c : config) : bool * config :=
  if is_initialized c then (true, c) else initialize c.

(** regular_disk_range, flash_range and total_size, config.cpp lines 205-217 and 273-286;
    [None]: the assertion fails. *)
Definition regular_disk_range (c : config) : option (Z * Z) :=
  if is_initialized c then Some (0%Z, first_flash c) else None.

(** config.cpp lines 211-217. *)
Definition flash_range (c : config) : option (Z * Z) :=
  if is_initialized c then Some (first_flash c, (Z.of_nat (length (disks c)) mod 2 ^ 32)%Z) else None.

(** config.cpp lines 273-286. *)
Definition total_size (c : config) : option Z :=
  if is_initialized c
  then Some (fold_left (fun t d => ((t + size d) mod 2 ^ 64)%Z) (disks c) 0%Z) else None.

(** config::config() config.cpp lines 49-51: the other members are uninitialised. *)
Definition new_config (ff md : Z) : config := mkConfig [] ff false md.

End Config.

(** ** Device ids *)

(** next_device_id, config.cpp lines 194-197: the id, and the counter afterwards. *)
Definition next_device_id (c : config) : Z * config :=
  (max_dev c, mkConfig (disks c) (first_flash c) (is_initialized c) ((max_dev c + 1) mod 2 ^ 32)).

(** update_max_device_id, config.cpp lines 199-203. *)
Definition update_max_device_id (c : config) (devid : Z) : config :=
  if (max_dev c <? (devid + 1) mod 2 ^ 32)%Z
  then mkConfig (disks c) (first_flash c) (is_initialized c) ((devid + 1) mod 2 ^ 32)
  else c.

(** create_file.cpp lines 61-70: the device id of the file that is created. *)
Definition assign_device_id (c : config) (devid : Z) : Z * config :=
  if (devid =? DEFAULT_DEVICE_ID)%Z then next_device_id c
  else (devid, update_max_device_id c devid).

(** A sequence of create_file with the given device ids.
    create_file.cpp lines 61-70. *)
Fixpoint assign_all (c : config) (reqs : list Z) : list Z * config :=
  match reqs with
  | [] => ([], c)
  | r :: rs => let '(i, c1) := assign_device_id c r in
               let '(is, c2) := assign_all c1 rs in (i :: is, c2)
  end.
