(** Model of the program cres from ROOT ntuples to ROOT ntuples: src/io.rs:472-621 [CombinedFileIO] with
    src/ntuple.rs as the format of all files, src/bin/main.rs:49-119 and src/cres.rs:181-295.

    As in ModelNtuple.v a file is a list of events, and opening, reading and writing succeed.  The events
    passed to the writer are what the output file contains after the writer was dropped.  Files that
    are no ntuples are in ModelIO.v and ModelMain.v; files of both kinds in one run are not modelled. *)
From Verif Require Import Base Num ModelEvent ModelText ModelNtuple ModelCres.

Section Program.
Context (N : NumOps) (Other : Type).
Notation event := (ntuple_event N Other).

(** src/io.rs:473-480 [CombinedFileIO], without the size hints, and what the output files contain *)
Record ncio := mkNCIO {
  n_files : list (list event);
  n_current : option (nt_io N Other);
  n_idx : nat;
  n_outs : list (list event)
}.

(** src/io.rs:500-518 [open]: the output file is created anew.  [None]: index out of range *)
Definition ncio_open (idx : nat) (s : ncio) : option ncio :=
  match nth_error (n_files s) idx, set_nth idx [] (n_outs s) with
  | Some file, Some outs => Some (mkNCIO (n_files s) (Some (nt_open file)) idx outs)
  | _, _ => None
  end.

(** src/io.rs:520-534 [init]: opens all files, then the first one again *)
Fixpoint ncio_init_loop (idx n : nat) (s : ncio) : option ncio :=
  match n with
  | 0 => Some s
  | S n => match ncio_open idx s with Some s => ncio_init_loop (S idx) n s | None => None end
  end.
Definition ncio_init (s : ncio) : option ncio :=
  match n_files s with
  | [] => Some s
  | _ => match ncio_init_loop 0 (length (n_files s)) s with Some s => ncio_open 0 s | None => None end
  end.
(** src/io.rs:483-498 [new] *)
Definition ncio_new (files : list (list event)) : option ncio :=
  ncio_init (mkNCIO files None 0 (repeat [] (length files))).

(** src/io.rs:549-557 [rewind] *)
Definition ncio_rewind (s : ncio) : ncio := mkNCIO (n_files s) None (n_idx s) (n_outs s).

(** src/io.rs:559-587 [next].  [fuel]: one round per file.  [None]: a panic *)
Fixpoint ncio_next (fuel : nat) (s : ncio) : option (option event * ncio) :=
  match fuel with
  | 0 => None
  | S fuel =>
      match n_current s with
      | Some f =>
          match nt_next f with
          | (Some r, f) => Some (Some r, mkNCIO (n_files s) (Some f) (n_idx s) (n_outs s))
          | (None, f) =>
              let s := mkNCIO (n_files s) (Some f) (n_idx s) (n_outs s) in
              if n_idx s + 1 =? length (n_files s) then Some (None, s)
              else match ncio_open (n_idx s + 1) s with Some s => ncio_next fuel s | None => None end
          end
      | None =>
          match n_files s with
          | [] => Some (None, s)
          | _ => match ncio_open 0 s with Some s => ncio_next fuel s | None => None end
          end
      end
  end.

(** src/cres.rs:248-250: reading until the end; [fuel] bounds the number of events *)
Fixpoint ncio_read_all (fuel : nat) (s : ncio) : option (list event * ncio) :=
  match fuel with
  | 0 => None
  | S fuel =>
      match ncio_next (S (length (n_files s))) s with
      | None => None
      | Some (None, s) => Some ([], s)
      | Some (Some r, s) => match ncio_read_all fuel s with Some (l, s) => Some (r :: l, s) | None => None end
      end
  end.

(** src/io.rs:605-615: the loop over the files, from number [idx]; the weights that are left.
    [finish_weight_update] does nothing for ntuples (src/traits.rs:26-28). *)
Fixpoint ncio_update_files (mw : bool) (names : list text) (idx n : nat) (weights : list (list N)) (s : ncio)
    : option (list (list N) * ncio) :=
  match n with
  | 0 => Some (weights, s)
  | S n =>
      match ncio_open idx s with
      | None => None
      | Some s =>
          match n_current s with
          | None => None
          | Some f =>
              match nt_combined_loop mw names weights f with
              | None => None
              | Some (weights, f) =>
                  match set_nth idx (io_out f) (n_outs s) with
                  | None => None
                  | Some outs => ncio_update_files mw names (S idx) n weights (mkNCIO (n_files s) (Some f) (n_idx s) outs)
                  end
              end
          end
      end
  end.
(** src/io.rs:597-618 [update_all_weights]: also the number of events *)
Definition ncio_update_all (mw : bool) (names : list text) (weights : list (list N)) (s : ncio) : option (nat * ncio) :=
  match ncio_update_files mw names 0 (length (n_files s)) weights (ncio_rewind s) with
  | Some (rest, s) => Some (length weights - length rest, s)
  | None => None
  end.

(** *** The program *)
Context (mw : bool) (names : list text) (sort : sorter) (cluster : Event N -> option (Event N))
  (shuffle : list (Event N + @cres_error unit) -> list (Event N + @cres_error unit))
  (resample unweighter : list (Event N) -> option (list (Event N) + unit)).

(** src/io.rs:742-760 [try_convert] for ntuples and src/cluster.rs:106-166; the "error" [tt] is a panic *)
Definition nt_convert (r : event) : Event N + unit :=
  match convert_ntuple mw sort names r with Some ev => inl ev | None => inr tt end.
Definition nt_cluster (ev : Event N) : Event N + unit :=
  match cluster ev with Some ev => inl ev | None => inr tt end.
(** src/cres.rs:181-230 on these events; the events of ntuples are not treated in parallel *)
Definition nt_run (records : list event) : @outcome N unit :=
  cres_run (fun _ => true) nt_convert nt_cluster mw sort shuffle resample unweighter (map inl records).

(** How the program ends: with the output files, an error or a panic *)
Inductive nt_ending := NtDone (outputs : list (list event)) | NtError | NtCrash.
(** src/bin/main.rs:68-116 *)
Definition nt_program (fuel : nat) (files : list (list event)) : nt_ending :=
  match ncio_new files with
  | None => NtCrash
  | Some s =>
      match ncio_read_all fuel s with
      | None => NtCrash
      | Some (records, s) =>
          match nt_run records with
          | Panicked => NtCrash
          | Failed (IdErr _) => NtError
          | Failed _ => NtCrash
          | Wrote weights =>
              match ncio_update_all mw names weights s with
              | Some (_, s) => NtDone (n_outs s)
              | None => NtCrash
              end
          end
      end
  end.
End Program.
Arguments mkNCIO {N Other}. Arguments n_files {N Other}. Arguments n_current {N Other}. Arguments n_idx {N Other}. Arguments n_outs {N Other}.
Arguments ncio_open {N Other}. Arguments ncio_init_loop {N Other}. Arguments ncio_init {N Other}. Arguments ncio_new {N Other}. Arguments ncio_rewind {N Other}.
Arguments ncio_next {N Other}. Arguments ncio_read_all {N Other}. Arguments ncio_update_files {N Other}. Arguments ncio_update_all {N Other}.
Arguments nt_convert {N Other}. Arguments nt_cluster {N}. Arguments nt_run {N Other}. Arguments nt_program {N Other}.
Arguments NtDone {N Other}. Arguments NtError {N Other}. Arguments NtCrash {N Other}.
