(** Model of main() of foxxll_tool and of the version functions.

    Sources: /repo/tools/foxxll_tool.cpp 54-142, /repo/foxxll/version.hpp 27-81,
    /repo/foxxll/common/version.cpp 20-48.

    Simplifications.
    - What a subtool does is a parameter: a function from its arguments to its result.
    - Strings are sequences of bytes without a NUL; the printed text is left out except for the
      names listed and the name not found. *)

From Coq Require Import ZArith String List Bool.
Import ListNotations.
Local Open Scope string_scope.

(** foxxll_tool.cpp lines 54-60: struct SubTool without description and function. *)
Record subtool := MkSub { st_name : string; st_short : bool }.

(** foxxll_tool.cpp lines 62-86.  The entry without a name that ends the table is left out. *)
Definition subtools : list subtool :=
  [MkSub "info" false; MkSub "create_files" false; MkSub "benchmark_disks" false;
   MkSub "benchmark_files" false; MkSub "benchmark_disks_random" false].

(** foxxll_tool.cpp lines 102-114: the names in the order of printing, those of one line last. *)
Definition listed : list string :=
  map st_name (filter (fun t => negb (st_short t)) subtools) ++ map st_name (filter st_short subtools).

(** foxxll_tool.cpp lines 128-131: the first entry with that name, from index [i]. *)
Fixpoint find_tool (i : nat) (l : list subtool) (name : string) : option nat :=
  match l with
  | [] => None
  | t :: l' => if String.eqb (st_name t) name then Some i else find_tool (S i) l' name
  end.

(** snprintf into progsub[256], foxxll_tool.cpp lines 121, 133. *)
Definition progsub (a0 a1 : string) : string := substring 0 255 (a0 ++ " " ++ a1).

(** How main() ends: a subtool returned; the usage was printed (with the name that was not
    found); the usage was to be printed without a program name, which is undefined (argv[0] is
    a null pointer, line 91).  foxxll_tool.cpp lines 119-142. *)
Inductive ended :=
| Ran (tool : nat) (args : list string) (result : Z)
| Usage (unknown : option string) (names : list string) (result : Z)
| NoName.

(** main(), foxxll_tool.cpp lines 119-142, and main_usage(), 88-117.  The message about different
    versions (lines 123-124) is left out. *)
Definition tool_main (func : nat -> list string -> Z) (argv : list string) : ended :=
  match argv with
  | [] => NoName
  | [_] => Usage None listed 0
  | a0 :: a1 :: rest =>
      match find_tool 0 subtools a1 with
      | Some i => let args := progsub a0 a1 :: rest in Ran i args (func i args)
      | None => Usage (Some a1) listed 0
      end
  end.

(** FOXXLL_VERSION_{MAJOR,MINOR,PATCH}: version.hpp line 25. *)
Record version := MkV { v_major : Z; v_minor : Z; v_patch : Z }.

(** version.hpp line 28, version.cpp lines 35-38. *)
Definition version_integer (v : version) : Z := v_major v * 10000 + v_minor v * 100 + v_patch v.

(** check_library_version(), version.hpp lines 72-81; versions of the headers and the library
    (version.cpp lines 20-33). *)
Definition check_library_version (headers library : version) : Z :=
  if negb (Z.eqb (v_major library) (v_major headers)) then 1
  else if negb (Z.eqb (v_minor library) (v_minor headers)) then 2
  else if negb (Z.eqb (v_patch library) (v_patch headers)) then 3
  else 0.
