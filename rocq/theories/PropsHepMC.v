(** Properties C31-C33: reading and rewriting HepMC files. *)
From Verif Require Import Base BaseProofs Num ModelEvent ModelText SpecText SpecFormats SpecHepMC TextProofs ReaderProofs ParserProofs
  ModelHepMC HepMCProofs HepMCProofs2 HepMCProofs3 NamesProofs FileProofs TextExamples.

(** C31.  Header and records together are the file; every record is one event. *)
Theorem C31_lossless : forall file,
  utf8 file = true -> occurs event_line file -> ~ finishes_with event_line file ->
  exists records, hepmc_records (hepmc_open file) = Some records /\
    hepmc_parts file (rd_header (hepmc_open file)) records.
Proof.
  intros file Hu Ho Hend. destruct (hepmc_records_spec file Ho Hend) as (records & Hp & Hr).
  exists records. split; [|exact Hp]. rewrite Hr. replace (forallb utf8 records) with true; [reflexivity|].
  destruct Hp as (Hfile & Hne & _ & [a Ha] & Hb & _).
  rewrite <- (utf8_concat (fun _ => True) "E" records Ec_ascii) by (intros r Hr'; apply Hb; exact Hr').
  destruct records as [|r records]; [congruence|]. destruct (Hb r (or_introl eq_refl)) as [[b ->] _].
  rewrite Hfile in Hu. cbn [concat app] in *. rewrite utf8_cut in Hu by reflexivity. apply andb_true_iff in Hu as [_ Hu]. symmetry. exact Hu.
Qed.
Print Assumptions C31_lossless.

(** Files that are not valid UTF-8 are split in the same way, if reading does not panic. *)
Theorem C31_any_bytes : forall file records,
  occurs event_line file -> ~ finishes_with event_line file ->
  hepmc_records (hepmc_open file) = Some records -> hepmc_parts file (rd_header (hepmc_open file)) records.
Proof.
  intros file records Ho Hend H. destruct (hepmc_records_spec file Ho Hend) as (rs & Hp & Hr).
  rewrite Hr in H. destruct (forallb utf8 rs); [|discriminate]. injection H as ->. exact Hp.
Qed.
Print Assumptions C31_any_bytes.

(** There is only one way to split a file into such parts. *)
Theorem C31_unique : forall file h1 r1 h2 r2, hepmc_parts file h1 r1 -> hepmc_parts file h2 r2 -> h1 = h2 /\ r1 = r2.
Proof. exact hepmc_parts_unique. Qed.
Print Assumptions C31_unique.

(** An event with two weights, one outgoing and one incoming particle, in a file with two events *)
Definition ex_record1 : text := Eval vm_compute in
  ln "E 1 2 3 4 5 6 7 8 9 10 0 2  5 7 comment" ++ ln "N 2 ""nominal"" ""up""" ++ ln "U GEV MM" ++
  ln "P 1 2212 0 0 40 40 0 4" ++ ln "P 2 11 3 4 12 13 0 1" ++ ln "V 1".
Definition ex_record2 : text := Eval vm_compute in
  ln "E 2 2 3 4 5 6 7 8 9 10 1 99 2 -8 6" ++ ln "N 2 ""nominal"" ""up""" ++ ln "U GEV MM" ++ ln "P 1 22 1 0 0 1 0 1".
Definition ex_header : text := Eval vm_compute in ln "HepMC::Version 2.06" ++ ln "HepMC::IO_GenEvent-START_EVENT_LISTING".
Definition ex_file : text := Eval vm_compute in ex_header ++ ex_record1 ++ ex_record2.
Example C31_case : utf8 ex_file = true /\ occurs event_line ex_file /\ ~ finishes_with event_line ex_file /\
  rd_header (hepmc_open ex_file) = ex_header /\ hepmc_records (hepmc_open ex_file) = Some [ex_record1; ex_record2].
Proof.
  split; [vmr|]. split; [|split; [|split]].
  - exists (removelast ex_header), (tl (ex_record1 ++ ex_record2)). vmr.
  - apply ends_with_false. vmr.
  - vmr.
  - vmr.
Qed.

(** What is lost otherwise.  Without an event: the last byte of the header.  A marker at the very
    end: its 'E'.  Invalid UTF-8 in an event: a panic. *)
Theorem C31_no_event : forall file, ~ occurs event_line file ->
  hepmc_records (hepmc_open file) = Some [] /\ rd_header (hepmc_open file) = removelast file.
Proof.
  intros file H. unfold hepmc_records, hepmc_open. destruct (hepmc_init_spec file) as [[_ ->]|(h & rest & -> & [a ->] & _)].
  - split; reflexivity.
  - exfalso. apply H. exists a, rest. rewrite <- app_assoc. reflexivity.
Qed.
Print Assumptions C31_no_event.
Definition ex_trailing : text := Eval vm_compute in lit "x" ++ [NL] ++ ln "E 1" ++ lit "E".
Definition ex_one : text := Eval vm_compute in ln "E 1".
Theorem C31_trailing_marker_refuted : exists file records, utf8 file = true /\ occurs event_line file /\
  hepmc_records (hepmc_open file) = Some records /\ rd_header (hepmc_open file) ++ concat records <> file.
Proof.
  exists ex_trailing, [ex_one]. split; [vmr|]. split; [exists (lit "x"), (lit " 1" ++ [NL] ++ lit "E"); vmr|]. split; [vmr|].
  cbn. discriminate.
Qed.
Print Assumptions C31_trailing_marker_refuted.
Definition ex_invalid : text := Eval vm_compute in ln "x" ++ lit "E " ++ ["255"%char].
Theorem C31_invalid_utf8_refuted : exists file, occurs event_line file /\ ~ finishes_with event_line file /\
  hepmc_records (hepmc_open file) = None.
Proof.
  exists ex_invalid. split; [|split].
  - exists (lit "x"), (lit " " ++ ["255"%char]). vmr.
  - apply ends_with_false. vmr.
  - vmr.
Qed.
Print Assumptions C31_invalid_utf8_refuted.

(** C32.  One weight: for every record that can be read, the weight is replaced, nothing else
    changes except that of several blanks in front of the weight one remains, and the event
    read back has the new weight and the same particles. *)
Theorem C32_single : forall (N : NumOps) (D : N -> Prop) double show sort names record ev w,
  number_text N D double show ->
  parse_hepmc double false sort names record = Ok ev -> D w ->
  exists record', hepmc_update show false names [w] record = Ok record' /\
    entry_replaced (fun p => exists n, before_weights n p) (show w) record record' /\
    parse_hepmc double false sort names record' = Ok (mkEvent (ev_id ev) [w] (ev_out ev)).
Proof. intros N D double show sort names record ev w HT. apply hepmc_single_replaced. exact HT. Qed.
Print Assumptions C32_single.

(** A whole file: every event gets its own weight, in order, and the new file can be read. *)
Theorem C32_file : forall (N : NumOps) (D : N -> Prop) double show sort names file ws records,
  number_text N D double show ->
  occurs event_line file -> ~ finishes_with event_line file ->
  hepmc_records (hepmc_open file) = Some records -> length ws = length records -> Forall D ws ->
  (forall r, In r records -> exists ev, parse_hepmc double false sort names r = Ok ev) ->
  exists file' records', hepmc_rewrite show false names (map (fun w => [w]) ws) file = Ok (file', length records) /\
    rd_header (hepmc_open file') = rd_header (hepmc_open file) /\
    hepmc_records (hepmc_open file') = Some records' /\ length records' = length records /\
    forall i w r r', nth_error ws i = Some w -> nth_error records i = Some r -> nth_error records' i = Some r' ->
      entry_replaced (fun p => exists n, before_weights n p) (show w) r r' /\
      exists ev, parse_hepmc double false sort names r = Ok ev /\
        parse_hepmc double false sort names r' = Ok (mkEvent (ev_id ev) [w] (ev_out ev)).
Proof. intros N D double show sort names file ws records HT. apply hepmc_file. exact HT. Qed.
Print Assumptions C32_file.

(** With the "multiweight" feature and without names of weights *)
Theorem C32_unnamed : forall (N : NumOps) (D : N -> Prop) double show sort record ev w,
  number_text N D double show ->
  parse_hepmc double true sort [] record = Ok ev -> D w ->
  exists record', hepmc_update show true [] [w] record = Ok record' /\
    entry_replaced (fun p => exists n, before_weights n p) (show w) record record' /\
    parse_hepmc double true sort [] record' = Ok (mkEvent (ev_id ev) [w] (ev_out ev)).
Proof. intros N D double show sort record ev w HT. apply hepmc_unnamed. exact HT. Qed.
Print Assumptions C32_unnamed.

(** With names: if every name was found exactly once (so that the event has one more weight
    than there are names), then updating either fails with an error (which needs more names
    than weights), or changes only the first and the named weights, and the event read back has
    the new named weights and the same particles.  Its central weight is the new one, unless
    the first weight is itself one of the named ones: then it is the new weight of that name. *)
Theorem C32_named_partial : forall (N : NumOps) (D : N -> Prop) double show sort names record ev w0 ws,
  number_text N D double show ->
  names <> [] -> NoDup names -> parse_hepmc double true sort names record = Ok ev ->
  Forall D (w0 :: ws) -> length ws = length names -> length (ev_weights ev) = length (w0 :: ws) ->
  hepmc_update show true names (w0 :: ws) record = Err (ParseEntry "weight name entry") \/
  exists record' l w1, hepmc_update show true names (w0 :: ws) record = Ok record' /\
    weight_names record l /\ only_weights_changed names l record record' /\
    parse_hepmc double true sort names record' = Ok (mkEvent (ev_id ev) (w1 :: ws) (ev_out ev)) /\
    (forall name, nth_error l 0 = Some name -> In name names -> nth_error ws 0 = Some w1) /\
    ((forall name, nth_error l 0 = Some name -> ~ In name names) -> w1 = w0).
Proof.
  intros N D double show sort names record ev w0 ws HT H1 H2 H3 H4 H5 H6.
  destruct (hepmc_multi N D double show sort HT names record ev w0 ws H1 H2 H3 H4 H5 H6) as [[H _]|(record' & l & w1 & G1 & [G2 _] & G3 & G4 & G5 & G6 & _)]; [left; exact H|].
  right. exists record', l, w1. auto 6.
Qed.
Print Assumptions C32_named_partial.

(** If the record has a line of names with as many names as it announces, then there is no error. *)
Theorem C32_named : forall (N : NumOps) (D : N -> Prop) double show sort names record ev w0 ws l,
  number_text N D double show ->
  names <> [] -> NoDup names -> parse_hepmc double true sort names record = Ok ev ->
  Forall D (w0 :: ws) -> length ws = length names -> length (ev_weights ev) = length (w0 :: ws) ->
  weight_names record l -> l <> [] ->
  exists record' w1, hepmc_update show true names (w0 :: ws) record = Ok record' /\
    only_weights_changed names l record record' /\
    parse_hepmc double true sort names record' = Ok (mkEvent (ev_id ev) (w1 :: ws) (ev_out ev)) /\
    (forall name, nth_error l 0 = Some name -> In name names -> nth_error ws 0 = Some w1) /\
    ((forall name, nth_error l 0 = Some name -> ~ In name names) -> w1 = w0).
Proof.
  intros N D double show sort names record ev w0 ws l HT H1 H2 H3 H4 H5 H6 Hl Hne.
  destruct (hepmc_multi N D double show sort HT names record ev w0 ws H1 H2 H3 H4 H5 H6) as [[_ (a & num & v & r & E & Ha & Hn & Hr & Hp)]|(record' & l2 & w1 & G1 & [G2 Hl2] & G3 & G4 & G5 & G6 & _)].
  - destruct (names_complete names record l Hl Hne a num v r E Ha Hn Hr) as [ps Hps]. congruence.
  - assert (l2 = l) as -> by (apply (weight_names_fun record); assumption).
    exists record', w1. auto 6.
Qed.
Print Assumptions C32_named.

(** The hypotheses hold for the example: weights 5 and 7 become -12 and 3. *)
Definition ex_ev1 : Event ZN := Eval vm_compute in
  match @parse_hepmc ZN z_double true isort [lit "up"] ex_record1 with Ok ev => ev | _ => mkEvent 0 [] [] end.
Definition ex_updated1 : text := Eval vm_compute in
  ln "E 1 2 3 4 5 6 7 8 9 10 0 2 -12 3" ++ ln "N 2 ""nominal"" ""up""" ++ ln "U GEV MM" ++
  ln "P 1 2212 0 0 40 40 0 4" ++ ln "P 2 11 3 4 12 13 0 1" ++ ln "V 1".
Example C32_case : number_text ZN (fun _ => True) z_double z_show /\
  @parse_hepmc ZN z_double true isort [lit "up"] ex_record1 = Ok ex_ev1 /\ ev_weights ex_ev1 = [5; 7]%Z /\
  map fst (ev_out ex_ev1) = [11%Z] /\ weight_names ex_record1 [lit "nominal"; lit "up"] /\
  @hepmc_update ZN z_show true [lit "up"] [-12; 3]%Z ex_record1 = Ok ex_updated1 /\
  @parse_hepmc ZN z_double true isort [lit "up"] ex_updated1 = Ok (@mkEvent ZN (ev_id ex_ev1) [-12; 3]%Z (ev_out ex_ev1)).
Proof.
  split; [exact z_text|]. split; [vmr|]. split; [reflexivity|]. split; [reflexivity|]. split; [|split; vmr].
  exists (lit "E 1 2 3 4 5 6 7 8 9 10 0 2  5 7 comment"), [SP; "2"%char], 2%N, ((SP :: QUOTE :: lit "nominal" ++ [QUOTE]) ++ SP :: QUOTE :: lit "up" ++ [QUOTE]),
    (ln "" ++ ln "U GEV MM" ++ ln "P 1 2212 0 0 40 40 0 4" ++ ln "P 2 11 3 4 12 13 0 1" ++ ln "V 1").
  assert (Hb : blanks [SP]) by (split; [discriminate|constructor; [left; reflexivity|constructor]]).
  assert (Hq : forall t : text, existsb (Ascii.eqb quote) t = false -> ~ In quote t).
  { intros t Ht Hi. assert (existsb (Ascii.eqb quote) t = true) by (apply existsb_exists; exists quote; split; [exact Hi|apply Ascii.eqb_refl]). congruence. }
  split; [symmetry; vmr|]. split; [apply find_none; vmr|]. split; [|split; [|reflexivity]].
  - exists [SP], ["2"%char]. split; [reflexivity|]. split; [exact Hb|]. split; [discriminate|]. split; [|reflexivity]. constructor; [|constructor]. vm_compute; split; congruence.
  - apply (quoted_list_cons [SP] (lit "nominal") [lit "up"] ([SP] ++ quote :: lit "up" ++ quote :: [])); [exact Hb|apply Hq; reflexivity|].
    apply (quoted_list_cons [SP] (lit "up") [] []); [exact Hb|apply Hq; reflexivity|constructor].
Qed.
Definition ex_file' : text := Eval vm_compute in
  ex_header ++ (ln "E 1 2 3 4 5 6 7 8 9 10 0 2 100 7 comment" ++ ln "N 2 ""nominal"" ""up""" ++ ln "U GEV MM" ++
  ln "P 1 2212 0 0 40 40 0 4" ++ ln "P 2 11 3 4 12 13 0 1" ++ ln "V 1") ++
  ln "E 2 2 3 4 5 6 7 8 9 10 1 99 2 0 6" ++ ln "N 2 ""nominal"" ""up""" ++ ln "U GEV MM" ++ ln "P 1 22 1 0 0 1 0 1".
Example C32_file_case : @hepmc_rewrite ZN z_show false [] [[100]; [0]]%Z ex_file = Ok (ex_file', 2) /\
  (forall r, In r [ex_record1; ex_record2] -> exists ev, @parse_hepmc ZN z_double false isort [] r = Ok ev).
Proof.
  split; [vmr|]. intros r [<-|[<-|[]]].
  - let r := eval vm_compute in (@parse_hepmc ZN z_double false isort [] ex_record1) in match r with Ok ?a => exists a end. vmr.
  - let r := eval vm_compute in (@parse_hepmc ZN z_double false isort [] ex_record2) in match r with Ok ?a => exists a end. vmr.
Qed.

(** If a name is listed twice, the event can be read but not written: writing panics with the
    weights that were read. *)
Definition ex_dup : text := Eval vm_compute in ln "E 1 2 3 4 5 6 7 8 9 10 0 2 5 7" ++ ln "N 2 ""up"" ""up""" ++ ln "U GEV MM".
Theorem C32_duplicate_name_refuted : exists names record (ev : Event ZN),
  NoDup names /\ @parse_hepmc ZN z_double true isort names record = Ok ev /\
  @hepmc_update ZN z_show true names (ev_weights ev) record = Panic.
Proof.
  exists [lit "up"], ex_dup.
  let r := eval vm_compute in (@parse_hepmc ZN z_double true isort [lit "up"] ex_dup) in match r with Ok ?a => exists a end.
  split; [constructor; [intros []|constructor]|]. split; vmr.
Qed.
Print Assumptions C32_duplicate_name_refuted.
(** The same happens if the record has no line of names at all: no error is reported when
    reading. *)
Definition ex_missing : text := Eval vm_compute in ln "E 1 2 3 4 5 6 7 8 9 10 0 2 5 7" ++ ln "U GEV MM".
Theorem C32_missing_names_refuted : exists names record (ev : Event ZN),
  NoDup names /\ names <> [] /\ @parse_hepmc ZN z_double true isort names record = Ok ev /\
  @hepmc_update ZN z_show true names (ev_weights ev) record = Panic.
Proof.
  exists [lit "up"], ex_missing.
  let r := eval vm_compute in (@parse_hepmc ZN z_double true isort [lit "up"] ex_missing) in match r with Ok ?a => exists a end.
  split; [constructor; [intros []|constructor]|]. split; [discriminate|]. split; vmr.
Qed.
Print Assumptions C32_missing_names_refuted.
(** And if the first weight is selected by name, the central weight is overwritten. *)
Definition ex_over' : text := Eval vm_compute in ln "E 1 2 3 4 5 6 7 8 9 10 0 2 2 7" ++ ln "N 2 ""nominal"" ""up""".
Definition ex_over : text := Eval vm_compute in ln "E 1 2 3 4 5 6 7 8 9 10 0 2 5 7" ++ ln "N 2 ""nominal"" ""up""".
Theorem C32_central_overwritten_refuted : exists names record record' (ev : Event ZN),
  NoDup names /\ @parse_hepmc ZN z_double true isort names record = Ok ev /\ ev_weights ev = [5; 5]%Z /\
  @hepmc_update ZN z_show true names [1; 2]%Z record = Ok record' /\
  match @parse_hepmc ZN z_double true isort names record' with Ok ev' => ev_weights ev' = [2; 2]%Z | _ => False end.
Proof.
  exists [lit "nominal"], ex_over, ex_over'.
  let r := eval vm_compute in (@parse_hepmc ZN z_double true isort [lit "nominal"] ex_over) in match r with Ok ?a => exists a end.
  split; [constructor; [intros []|constructor]|]. split; [vmr|]. split; [reflexivity|]. split; [vmr|].
  match goal with |- match ?x with _ => _ end => let r := eval vm_compute in x in replace x with r by (symmetry; vmr) end. reflexivity.
Qed.
Print Assumptions C32_central_overwritten_refuted.
(** A record without any weight: reading panics. *)
Definition ex_none : text := Eval vm_compute in ln "E 1 2 3 4 5 6 7 8 9 10 0 0" ++ ln "U GEV MM".
Theorem C32_no_weights_refuted : exists names record, @parse_hepmc ZN z_double true isort names record = Panic.
Proof. exists [], ex_none. vmr. Qed.
Print Assumptions C32_no_weights_refuted.
