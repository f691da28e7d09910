(** Model of src/stripper_xml.rs.  Not modelled: the XML parser used for the header and for
    normalisation files ([extract_xml_info], lines 337-436); its results are parameters. *)
From Verif Require Import Base Num ModelEvent ModelText ModelHepMC.

Definition subevent_mark : text := lit "<se".

(** [checks]: integer overflow panics (debug builds).  Otherwise the subtraction wraps. *)
Definition usize_pred (checks : bool) (n : N) : option N :=
  if (n =? 0)%N then if checks then None else Some (2 ^ 64 - 1)%N else Some (n - 1)%N.

(** src/stripper_xml.rs:38-43 [FileReader]; the path is represented by the content of the file *)
Record sreader := mkSReader { sr_file : text; sr_source : text; sr_rem : N; sr_header : text }.

(** src/stripper_xml.rs:518-535 [init_source]; [None]: the subtraction in [truncate] panics *)
Definition stripper_init (checks : bool) (file : text) : option (text * text) :=
  let cut header := firstn (length header - 3) header in
  match scan (S (length file)) "e" subevent_mark [] file with
  | Found header rest => Some (cut header, rest)
  | AtEnd header =>
      if length header <? 3 then if checks then None else Some (header, [])
      else Some (cut header, [])
  end.

(** src/stripper_xml.rs:65-97 [read_raw] *)
Inductive sraw := SEnd | SRecord (record : text) (r : sreader) | SUtf8Error (r : sreader) | SPanic.
Definition stripper_read_raw (checks : bool) (r : sreader) : sraw :=
  let found record rest :=
    let r' := mkSReader (sr_file r) rest (sr_rem r) (sr_header r) in
    if utf8 record then
      match usize_pred checks (sr_rem r) with
      | Some n => SRecord record (mkSReader (sr_file r) rest n (sr_header r))
      | None => SPanic
      end
    else SUtf8Error r' in
  match scan (S (length (sr_source r))) "e" subevent_mark subevent_mark (sr_source r) with
  | AtEnd record => if 3 <? length record then found record [] else SEnd
  | Found record rest => found (firstn (length record - 3) record) rest
  end.

(** src/stripper_xml.rs:47-63 [try_new]; [nsubevents] is the attribute of the tag [Eventrecord]
    in the header *)
Definition stripper_open (checks : bool) (nsubevents : N) (file : text) : option sreader :=
  match stripper_init checks file with
  | Some (header, source) => Some (mkSReader file source nsubevents header)
  | None => None
  end.

(** src/stripper_xml.rs:113-117 [rewind] *)
Definition stripper_rewind (checks : bool) (r : sreader) : option sreader :=
  match stripper_init checks (sr_file r) with
  | Some (_, source) => Some (mkSReader (sr_file r) source (sr_rem r) (sr_header r))
  | None => None
  end.

(** src/stripper_xml.rs:123-125 [next] until [None] is returned: the records; [None] stands for a
    panic or an error *)
Fixpoint stripper_rest (checks : bool) (fuel : nat) (r : sreader) : option (list text * sreader) :=
  match fuel with
  | 0 => None
  | S fuel =>
      match stripper_read_raw checks r with
      | SPanic | SUtf8Error _ => None
      | SEnd => Some ([], mkSReader (sr_file r) [] (sr_rem r) (sr_header r))
      | SRecord record r' =>
          match stripper_rest checks fuel r' with Some (l, e) => Some (record :: l, e) | None => None end
      end
  end.
Definition stripper_records (checks : bool) (r : sreader) : option (list text * sreader) :=
  stripper_rest checks (S (length (sr_source r))) r.

Section Stripper.
Context (N : NumOps) (double : parser N) (show : N -> text).

(** src/stripper_xml.rs:612-616 [weight_start]: what remains *)
Definition weight_start (line : text) : option text :=
  match strip_prefix subevent_mark line with
  | Some r => match space1 r with Some r => strip_prefix (lit "w=" ++ [QUOTE]) r | None => None end
  | None => None
  end.

(** src/stripper_xml.rs:239-246 and 201-210: replace the weight of a record, given the old one *)
Definition replace_weight (record : text) (new : N -> N) : res text :=
  bind (or_err (weight_start record) (ParseEntry "start of event record")) (fun rest =>
  bind (or_err (double rest) (ParseEntry "weight entry")) (fun '(old, rest') =>
  replace_range record (length record - length rest) (length record - length rest') (show (new old)))).

(** src/stripper_xml.rs:195-216 [rescale_weight] *)
Definition rescale_weight (scale : N) (record : text) : res text :=
  replace_weight record (fun old => nmul scale old).

(** src/stripper_xml.rs:218-256 [update_next_weights_helper], for one record that was read *)
Definition stripper_update (mw : bool) (scale : N) (weights : list N) (record : text) : res text :=
  if weights_is_empty weights then Ok record
  else
    match central weights with
    | None => Panic
    | Some w =>
        bind (replace_weight record (fun _ => ndiv w scale)) (fun record =>
        if mw && (1 <? length weights) then Panic (* unimplemented!() *) else Ok record)
    end.

(** nom [multispace0] *)
Definition is_multispace (c : ascii) : bool := ceq c SP || ceq c TAB || ceq c NL || ceq c CR.
Definition chr (c : ascii) (t : text) : option text := strip_prefix [c] t.

(** src/stripper_xml.rs:618-630 *)
Definition particle_start (t : text) : option text := strip_prefix (lit "<p") (snd (span is_multispace t)).
Definition particle_status : parser Z :=
  fun t => match strip_prefix (lit "id=" ++ [QUOTE]) (space0 t) with Some r => i32 r | None => None end.
Definition particle_id : parser Z := fun t => match chr "," t with Some r => i32 r | None => None end.

(** src/stripper_xml.rs:632-646 [particle_momentum] *)
Definition then_comma (o : option (N * text)) : option (N * text) :=
  match o with
  | Some (x, r) => match chr "," r with Some r => Some (x, r) | None => None end
  | None => None
  end.
Definition particle_momentum : parser (FourVector N) :=
  fun t =>
    match then_comma (double (space0 t)) with
    | Some (e, t) =>
      match then_comma (double t) with
      | Some (x, t) =>
        match then_comma (double t) with
        | Some (y, t) =>
          match double t with
          | Some (z, t) => Some (fv_from e x y z, space0 t)
          | None => None
          end
        | None => None
        end
      | None => None
      end
    | None => None
    end.

(** src/stripper_xml.rs:576-604: the loop over the particles; every round consumes a "<p" *)
Fixpoint stripper_particles (fuel : nat) (rest : text) (event : EventBuilder N) : res (EventBuilder N) :=
  match particle_start rest with
  | None => Ok event
  | Some r =>
      match fuel with
      | 0 => Panic (* not reached *)
      | S fuel =>
          bind (or_err (particle_status r) (ParseEntry "particle status entry")) (fun '(status, r) =>
          if negb (Z.eqb status 0) then
            bind (or_err (find (lit "</p>") r) (UnclosedTag "<p")) (fun particle_end =>
            stripper_particles fuel (skipn (particle_end + 4) r) event)
          else
            bind (or_err (particle_id r) (ParseEntry "particle id entry")) (fun '(pid, r) =>
            bind (or_err (strip_prefix [QUOTE; ">"%char] r) (IncompleteTag "<p>")) (fun r =>
            match r with
            | [] => Panic                     (* &r[1..] *)
            | c :: r =>
                if (128 <=? N_of_ascii c)%N then Panic (* not a character boundary *)
                else
                  bind (or_err (particle_momentum r) (ParseEntry "particle momentum entry")) (fun '(p, r) =>
                  bind (or_err (strip_prefix (lit "</p>") r) (UnclosedTag "<p")) (fun rest =>
                  stripper_particles fuel rest (add_outgoing event pid p)))
            end)))
      end
  end.

(** src/stripper_xml.rs:549-609 [parse_stripper_xml] *)
Definition parse_stripper_xml (mw : bool) (sort : sorter) (record : text) : res (Event N) :=
  bind (or_err (weight_start record) (ParseEntry "start of event record")) (fun rest =>
  bind (or_err (double rest) (ParseEntry "weight entry")) (fun '(weight, rest) =>
  bind (or_err (find [">"%char] rest) (IncompleteTag "<se>")) (fun tag_end =>
  let rest := skipn (tag_end + 1) rest in
  bind (stripper_particles (length rest) rest (add_weight mw (builder_new mw) weight)) (fun event =>
  Ok (build sort event))))).

(** src/stripper_xml.rs:651-662 [update_all_weights], after [rewind] *)
Fixpoint stripper_update_loop (checks mw : bool) (scale : N) (weights : list (list N)) (r : sreader) (out : text) (n : nat) : res (text * nat) :=
  match weights with
  | [] => Ok (out, n)
  | w :: weights =>
      match stripper_read_raw checks r with
      | SPanic => Panic
      | SUtf8Error _ => Err (InvalidEntry "utf8")
      | SEnd => Ok (out, n)
      | SRecord record r =>
          bind (stripper_update mw scale w record) (fun record =>
          stripper_update_loop checks mw scale weights r (out ++ record) (S n))
      end
  end.

(** [update_all_weights] of a [FileIO] whose reader is in the state [r]; the header was written by
    [FileIO::try_new], src/stripper_xml.rs:143-177 *)
Definition stripper_update_all (checks mw : bool) (scale : N) (weights : list (list N)) (r : sreader) : res (text * nat) :=
  match stripper_rewind checks r with
  | None => Panic
  | Some r' => stripper_update_loop checks mw scale weights r' (sr_header r) 0
  end.

(** src/stripper_xml.rs:289-335 [extract_scaling], after each file was classified: scale factors
    of normalisation files, numbers of events of event files, in the order of the files.  The
    hash map is an association list; the entry is created by the first file with that name. *)
Inductive stripper_tag := Normalization (name : text) (scale : N) | Eventrecord (name : text) (nevents : nat).
Fixpoint upd_entry (name : text) (init : N * nat) (f : N * nat -> N * nat) (l : list (text * (N * nat))) : list (text * (N * nat)) :=
  match l with
  | [] => [(name, f init)]
  | (n, x) :: l => if list_eq_dec ascii_dec n name then (n, f x) :: l else (n, x) :: upd_entry name init f l
  end.
Definition minus_one : N := nsub n0 n1.
Definition scaling_step (l : list (text * (N * nat))) (t : stripper_tag) : list (text * (N * nat)) :=
  match t with
  | Normalization name scale => upd_entry name (n0, 0%nat) (fun '(_, k) => (scale, k)) l
  | Eventrecord name nevents => upd_entry name (minus_one, 0%nat) (fun '(s, k) => (s, (k + nevents)%nat)) l
  end.
Definition extract_scaling (tags : list stripper_tag) : list (text * N) :=
  map (fun '(name, (scale, nevents)) => (name, ndiv scale (nofnat nevents))) (fold_left scaling_step tags []).
End Stripper.
Arguments replace_weight {N}. Arguments rescale_weight {N}. Arguments stripper_update {N}. Arguments particle_momentum {N}.
Arguments stripper_particles {N}. Arguments parse_stripper_xml {N}. Arguments stripper_update_loop {N}. Arguments stripper_update_all {N}.
Arguments Normalization {N}. Arguments Eventrecord {N}. Arguments extract_scaling {N}. Arguments then_comma {N}.
