(** What is expected of files: statements about single bytes, determined by the
    history of operations. *)

From Coq Require Import Ascii List Arith Bool ZArith.
From Verif Require Import FileModel.
Import ListNotations.

(** Position [k] lies in the range of [n] bytes from [off]. *)
Definition covers (off n k : nat) : bool := (off <=? k) && (k <? off + n).

(** Value of byte [k] after the operations (the newest one first): the byte of
    the last write that covers it, if it was not cut off or discarded since. *)
Fixpoint m_byte (ops : list mop) (k : nat) : option byte :=
  match ops with
  | [] => None
  | MWrite off d :: older =>
      if covers off (length d) k then nth (k - off) d None else m_byte older k
  | MResize n :: older => if k <? n then m_byte older k else None
  | MDiscard off n :: older => if covers off n k then None else m_byte older k
  end.

(** The file size: that of the last resize. *)
Fixpoint m_size (ops : list mop) : nat :=
  match ops with
  | [] => 0
  | MResize n :: _ => n
  | _ :: older => m_size older
  end.

(** The operation stays inside of the file. *)
Definition m_inside (size : nat) (o : mop) : Prop :=
  match o with
  | MWrite off d => off + length d <= size
  | MResize _ => True
  | MDiscard off n => n = 0 \/ off + n <= size
  end.

(** Bytes past the end count as zero. *)
Definition byte_at (f : list byte) (k : nat) : byte := nth k f 0%Z.

Fixpoint s_byte (f0 : list byte) (ops : list sop) (k : nat) : byte :=
  match ops with
  | [] => byte_at f0 k
  | SWrite _ off d :: older =>
      if covers off (length d) k then nth (k - off) d 0%Z else s_byte f0 older k
  | SResize _ n :: older => if k <? n then s_byte f0 older k else 0%Z
  end.

Fixpoint s_size (f0 : list byte) (ops : list sop) : nat :=
  match ops with
  | [] => length f0
  | SWrite _ off d :: older =>
      if length d =? 0 then s_size f0 older else max (s_size f0 older) (off + length d)
  | SResize _ n :: _ => n
  end.

Definition result {X} (o : outcome X) : option X :=
  match o with Done x => Some x | _ => None end.

(** Cut or extended with zeros to [n] bytes. *)
Definition fit (n : nat) (l : list byte) : list byte := firstn n (l ++ repeat 0%Z n).

(** What block [off] contains after the operations (newest first). *)
Fixpoint block_content (c0 : list byte) (ops : list pop) (off : nat) : list byte :=
  match ops with
  | [] => c0
  | PWrite _ _ _ off' data :: older =>
      if off' =? off then data else block_content c0 older off
  | PRead _ _ _ off' n :: older =>
      if off' =? off then fit n (block_content c0 older off) else block_content c0 older off
  | PDiscard _ off' :: older =>
      if off' =? off then [] else block_content c0 older off
  end.

Definition op_offset (op : pop) : nat :=
  match op with
  | PWrite _ _ _ off _ => off
  | PRead _ _ _ off _ => off
  | PDiscard _ off => off
  end.

(** Content of a block's file, an absent file counting as an empty one. *)
Definition stored (d : dir) (name : list Ascii.ascii) : list byte :=
  match d name with Some c => c | None => [] end.
