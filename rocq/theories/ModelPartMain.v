(** Model of the programs cres-make-partition (src/bin/partition.rs) and cres-classify-events
    (src/bin/classify-events.rs), from the contents of the input files to the contents of the output
    files, for text formats.

    Not modelled: ROOT ntuples, argument files, logging, failing file operations.  Reading and
    writing YAML (crate serde_yaml) and the compression are parameters. *)
From Coq Require Import NArith.
From Verif Require Import Base Num ModelEvent ModelText ModelIO ModelNaive ModelVPTree ModelResampler ModelPartition ModelClassify
  ModelDistance ModelCluster ModelOpt.

Section Programs.
Context (N : NumOps) (double : parser N) (checks mw : bool) (sort : sorter).
(** attribute of the header of a STRIPPER XML file *)
Context (nsubevents : text -> BinNums.N).

(** src/io.rs [FileReader::try_new] and its iterator, for each file.  [None]: an error or a panic *)
Definition file_records (file : text) : option (text * list text) :=
  read_records checks (nsubevents file) (detect_event_file_format file) file.

Section Partition.
Context (cluster : Event N -> option (Event N)) (dist : Event N -> Event N -> N) (choose : chooser) (par_min_size : nat).

(** src/bin/partition.rs:68-77: the loop over the records of a file.  Only events with negative weight
    are kept, and only these are clustered.  Simplification: the records are read before the first one
    is treated *)
Fixpoint negative_events (f : format) (records : list text) : res (list (Event N)) :=
  match records with
  | [] => Ok []
  | record :: rest =>
      bind (convert double mw sort f record) (fun ev =>
      match ev_weight ev with
      | None => Panic
      | Some w =>
          if nltb w n0 then
            match cluster ev with
            | None => Panic
            | Some ev => bind (negative_events f rest) (fun l => Ok (ev :: l))
            end
          else negative_events f rest
      end)
  end.

(** src/bin/partition.rs:65-78: the loop over the files *)
Fixpoint collect_events (files : list text) : res (list (Event N)) :=
  match files with
  | [] => Ok []
  | file :: rest =>
      match file_records file with
      | None => Panic
      | Some (_, records) =>
          bind (negative_events (detect_event_file_format file) records) (fun l =>
          bind (collect_events rest) (fun l' => Ok (l ++ l')))
      end
  end.

(** [Event::default] (src/event.rs:120, derived) *)
Definition default_event : Event N := mkEvent 0 (weights_default mw) [].

(** src/bin/partition.rs:106-109: vantage points become events; [std::mem::take] leaves the default
    event behind *)
Fixpoint take_events (evs : list (Event N)) (vp : list (Bisection N nat)) : option (list (Bisection N (Event N))) :=
  match vp with
  | [] => Some []
  | b :: vp =>
      match nth_error evs (b_pt b), set_nth (b_pt b) default_event evs with
      | Some ev, Some evs =>
          match take_events evs vp with Some l => Some (mkBis ev (b_r b) :: l) | None => None end
      | _, _ => None
      end
  end.

(** [DistWrapper] (src/distance.rs) on indices.  Indices are always in range *)
Definition index_dist (evs : list (Event N)) (i j : nat) : N := dist (nth i evs default_event) (nth j evs default_event).

(** src/bin/partition.rs:64-114: the partition *)
Definition partition_program (regions : BinNums.N) (files : list text) : res (list (Bisection N (Event N))) :=
  bind (collect_events files) (fun evs =>
  match make_partition sort choose par_min_size (index_dist evs) (length evs) regions with
  | TooFew => Err (InvalidEntry "regions")
  | Crash => Panic
  | Partition vp =>
      match take_events evs vp with
      | None => Panic
      | Some vp => match from_vp vp with Some vp => Ok vp | None => Panic end
      end
  end).
End Partition.

(** src/bin/classify-events.rs:72-94: the loop over the files; the contents of the outputs for each *)
Fixpoint classify_files (cluster : Event N -> option (Event N)) (dist : Event N -> Event N -> N)
    (vp : list (Bisection N (Event N))) (files : list text) : res (list (list text)) :=
  match files with
  | [] => Ok []
  | file :: rest =>
      bind (classify_byte_records double mw sort cluster dist vp checks (nsubevents file) (detect_event_file_format file) file) (fun outs =>
      bind (classify_files cluster dist vp rest) (fun l => Ok (outs :: l)))
  end.

(** The two programs.  [C]: settings of clustering and distance, which are stored together with the
    partition; [yaml] and [unyaml]: [serde_yaml::to_writer] and [serde_yaml::from_reader];
    [compress]: [compress_writer] (src/compression.rs:21-48) *)
Section Main.
Context (C : Type) (cluster : C -> Event N -> option (Event N)) (dist : C -> Event N -> Event N -> N) (choose : chooser).
Context (yaml : C * list (Bisection N (Event N)) -> text) (unyaml : text -> option (C * list (Bisection N (Event N))))
  (compress : Compression -> text -> text).

(** src/bin/partition.rs:26-125: the contents of the output file; [1000] is PAR_MIN_SIZE,
    src/vptree.rs:276 *)
Definition partition_main (c : C) (regions : BinNums.N) (compression : option Compression) (files : list text) : res text :=
  bind (partition_program (cluster c) (dist c) choose 1000 regions files) (fun vp =>
  let contents := yaml (c, vp) in
  Ok (match compression with Some a => compress a contents | None => contents end)).

(** src/bin/classify-events.rs:31-97: the partition file is read as it is *)
Definition classify_main (part_file : text) (files : list text) : res (list (list text)) :=
  match unyaml part_file with
  | None => Err (InvalidEntry "partition")
  | Some (c, vp) => classify_files (cluster c) (dist c) vp files
  end.
End Main.
End Programs.
Arguments file_records : clear implicits.
Arguments negative_events {N}. Arguments collect_events {N}. Arguments default_event {N}. Arguments take_events {N}.
Arguments index_dist {N}. Arguments partition_program {N}. Arguments classify_files {N}. Arguments partition_main {N} double checks mw sort nsubevents {C}.
Arguments classify_main {N} double checks mw sort nsubevents {C}.
