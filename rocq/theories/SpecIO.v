(** What it means to read or to rewrite several files one after the other. *)
From Coq Require Import List.
From Verif Require Import Num ModelText ModelHepMC ModelLHEF ModelStripper ModelIO.
Import ListNotations.

(** Calling [next] until the end delivers these records. *)
Inductive delivers {S} (next : S -> step S) : S -> list text -> S -> Prop :=
| d_end s s' : next s = Finished s' -> delivers next s [] s'
| d_item s record s1 l s' : next s = Item record s1 -> delivers next s1 l s' -> delivers next s (record :: l) s'.
(** Calling [next] a number of times delivers these records. *)
Inductive delivers_first {S} (next : S -> step S) : S -> list text -> S -> Prop :=
| f_none s : delivers_first next s [] s
| f_item s record s1 l s' : next s = Item record s1 -> delivers_first next s1 l s' -> delivers_first next s (record :: l) s'.

Section Files.
Context {N : NumOps} (double : parser N) (show : N -> text) (xml_info : text -> option (text * BinNums.N))
  (checks mw : bool) (names : list text) (scaling : list (text * N)).

(** The records of one file, as they are in the file *)
Definition file_records (file : text) (records : list text) : Prop :=
  match detect_event_file_format file with
  | HepMC2 => hepmc_records (hepmc_open file) = Some records
  | Lhef => lhef_records (lhef_open file) = Some records
  | StripperXml => exists r scale e, build_from_files xml_info checks scaling file = Ok (IOStripper r scale) /\
                     stripper_records checks r = Some (records, e)
  | BlackHatNtuple => False
  end.
(** The records delivered for one file: for STRIPPER XML with rescaled weights *)
Definition file_items (file : text) (items : list text) : Prop :=
  exists records, file_records file records /\
  match build_from_files xml_info checks scaling file with
  | Ok (IOStripper _ scale) => Forall2 (fun x y => rescale_weight double show scale x = Ok y) records items
  | _ => items = records
  end.
(** Rewriting one file on its own *)
Definition file_rewrite (file : text) (weights : list (list N)) : res (text * nat) :=
  match build_from_files xml_info checks scaling file with
  | Ok (IOHepMC _) => hepmc_rewrite show mw names weights file
  | Ok (IOLhef _) => lhef_rewrite show mw weights file
  | Ok (IOStripper r scale) => stripper_update_all double show checks mw scale weights r
  | Err e => Err e
  | Panic => Panic
  end.
End Files.

(** Dealing out weights to files with the given numbers of records *)
Fixpoint deal {A} (counts : list nat) (weights : list A) : list (list A) :=
  match counts with
  | [] => []
  | c :: counts => firstn c weights :: deal counts (skipn c weights)
  end.

(** Results one after the other, up to the first failure *)
Fixpoint sequence {A} (l : list (res A)) : res (list A) :=
  match l with
  | [] => Ok []
  | x :: l => bind x (fun a => bind (sequence l) (fun m => Ok (a :: m)))
  end.

(** Calls of [update] with these weights all return [Ok(true)]. *)
Inductive updates {S W} (update : W -> S -> res (bool * S)) : S -> list W -> S -> Prop :=
| u_none s : updates update s [] s
| u_next s w s1 ws s' : update w s = Ok (true, s1) -> updates update s1 ws s' -> updates update s (w :: ws) s'.
(** All of a file, or all but the last line *)
Definition up_to_footer (out complete : text) : Prop := complete = out \/ complete = out ++ lhef_footer.

(** The states a user can bring a combined reader into. *)
Section History.
Context {N : NumOps} (double : parser N) (show : N -> text) (xml_info : text -> option (text * BinNums.N))
  (checks mw : bool) (names : list text) (scaling : list (text * N)) (files : list text).
Inductive io_history : cio N -> Prop :=
| io_new s : cio_new xml_info checks scaling files = Ok s -> io_history s
| io_rewind s : io_history s -> io_history (cio_rewind s)
| io_next s record s' : io_history s -> cio_next double show xml_info checks scaling (cio_fuel s) s = Item record s' -> io_history s'
| io_failed s e s' : io_history s -> cio_next double show xml_info checks scaling (cio_fuel s) s = Failed e s' -> io_history s'
| io_finished s s' : io_history s -> cio_next double show xml_info checks scaling (cio_fuel s) s = Finished s' -> io_history s'
| io_update_all s ws n s' : io_history s -> cio_update_all double show xml_info checks mw names scaling ws s = Ok (n, s') -> io_history s'
| io_update_next s w b s' : io_history s -> cio_update_next double show xml_info checks mw names scaling (cio_fuel s) w s = Ok (b, s') -> io_history s'.
End History.
