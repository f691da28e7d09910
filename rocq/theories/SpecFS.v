(** What the user of cres knows about files. *)
From Coq Require Import List.
From Verif Require Import Num ModelText ModelMain ModelFS.
Import ListNotations.

(** The pairs of input and output paths whose input contains events: all but the files with the
    normalisation of STRIPPER XML files. *)
Definition has_events {N : NumOps} (xml : text -> option (xml_tag N)) (start : disk) (files : path * path) : bool :=
  match start (fst files) with
  | Some content => negb (is_xml content && match xml content with Some (XNormalization _ _) => true | _ => false end)
  | None => true
  end.
Definition with_events {N : NumOps} (xml : text -> option (xml_tag N)) (start : disk) (paths : list (path * path)) :=
  filter (has_events xml start) paths.

(** The inputs exist and have these contents; all outputs are different files, and no output is an
    input. *)
Definition input_files (start : disk) (paths : list (path * path)) (inputs : list text) : Prop :=
  Forall2 (fun files content => start (fst files) = Some content) paths inputs.
Definition separate (paths : list (path * path)) : Prop :=
  NoDup (map snd paths) /\ forall p, In p (map fst paths) -> ~ In p (map snd paths).

(** None of the system calls failed. *)
Definition no_failure (faults : nat -> option nat) (log : list syscall) : Prop :=
  forall n, n < length log -> faults n = None.
