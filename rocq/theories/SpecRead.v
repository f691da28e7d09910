(** What a source delivers: pieces that are not empty and, if it fails, the bytes before the first
    failing read. *)
From Coq Require Import List Ascii.
From Verif Require Import ModelRead.
Import ListNotations.

Inductive delivers : source -> list ascii -> bool -> Prop :=
| delivers_end : delivers [] [] false
| delivers_failure s : delivers (Failure :: s) [] true
| delivers_piece b s t failed : b <> [] -> delivers s t failed -> delivers (Data b :: s) (b ++ t) failed.

(** The records are the first ones of all the records. *)
Definition first_of {A} (l all : list A) : Prop := exists more, all = l ++ more.
