(** When reads of a file deliver its contents, possibly only in part *)
From Coq Require Import List Ascii.
From Verif Require Import ModelIO ModelRead SpecRead.
Import ListNotations.

(** All the bytes, or the first ones before a read fails *)
Definition readable (s : source) (file : list ascii) : Prop :=
  delivers s file false \/ exists t more, delivers s t true /\ file = t ++ more.
(** The first read succeeds and returns all of the file or [n] bytes after the white space at the start. *)
Definition first_read_suffices (n : nat) (s : source) (file : list ascii) : Prop :=
  match s with
  | Data b :: _ => n <= length (trim_ascii_start b) \/ b = file
  | Failure :: _ => False
  | [] => True
  end.
