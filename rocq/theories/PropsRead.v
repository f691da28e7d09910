(** Property C86: files are read in pieces, and reads can fail. *)
From Verif Require Import Base BaseProofs Num ModelEvent ModelText SpecText TextProofs ModelHepMC ModelLHEF ModelStripper ModelIO ModelMain
  PropsHepMC PropsFormats TextExamples PropsMain ModelRead SpecRead ReadProofs ReadProofs2.
From Coq Require Import Lia.

(** How the bytes of a file are divided into pieces has no influence on what is read: header and
    records are those of the contents. *)
Theorem C86_hepmc : forall s t, delivers s t false ->
  exists rest, open_s hepmc_format s = Opened (rd_header (hepmc_open t)) rest /\
    match hepmc_records (hepmc_open t) with
    | Some records => read_records_s hepmc_format tt rest = (records, AllRead)
    | None => snd (read_records_s hepmc_format tt rest) = ReadCrashed
    end.
Proof.
  intros s t Hd. pose proof (reader_ok hepmc_format hepmc_M hepmc_H hepmc_E s t Hd) as H. rewrite hepmc_open_t in H.
  destruct H as (s' & E & H). exists s'. split; [exact E|].
  rewrite (H tt (S (length (rd_source (hepmc_open t)))) ltac:(lia)). apply hepmc_rest_t. lia.
Qed.
Print Assumptions C86_hepmc.
Theorem C86_lhef : forall s t, delivers s t false ->
  exists rest, open_s lhef_format s = Opened (rd_header (lhef_open t)) rest /\
    match lhef_records (lhef_open t) with
    | Some records => read_records_s lhef_format tt rest = (records, AllRead)
    | None => snd (read_records_s lhef_format tt rest) = ReadCrashed
    end.
Proof.
  intros s t Hd. pose proof (reader_ok lhef_format lhef_M lhef_H lhef_E s t Hd) as H. rewrite lhef_open_t in H.
  destruct H as (s' & E & H). exists s'. split; [exact E|].
  rewrite (H tt (S (length (rd_source (lhef_open t)))) ltac:(lia)). apply lhef_rest_t. lia.
Qed.
Print Assumptions C86_lhef.
(** In STRIPPER files invalid UTF-8 is an error. *)
Theorem C86_stripper : forall checks nsubevents s t, delivers s t false ->
  match stripper_open checks nsubevents t with
  | None => open_s (stripper_format checks) s = OpenCrashed
  | Some r => exists rest, open_s (stripper_format checks) s = Opened (sr_header r) rest /\
      match stripper_records checks r with
      | Some (records, _) => read_records_s (stripper_format checks) nsubevents rest = (records, AllRead)
      | None => snd (read_records_s (stripper_format checks) nsubevents rest) <> AllRead
      end
  end.
Proof.
  intros checks n s t Hd. pose proof (reader_ok (stripper_format checks) (stripper_M checks) (stripper_H checks) (stripper_E checks) s t Hd) as H.
  rewrite stripper_open_t in H. unfold stripper_open. destruct (stripper_init checks t) as [[h q]|]; [|exact H].
  destruct H as (s' & E & H). exists s'. split; [exact E|]. rewrite (H n (S (length q)) ltac:(lia)).
  apply (stripper_rest_t checks (S (length q)) (mkSReader t q n h)). cbn [sr_source]. lia.
Qed.
Print Assumptions C86_stripper.

(** After a failed read the end of the file is never reported.  What has been delivered before are
    the first records of the file, whatever the part is that cannot be read. *)
Theorem C86_hepmc_failing : forall s t, delivers s t true ->
  open_s hepmc_format s = OpenFailed \/
  exists header rest records e, open_s hepmc_format s = Opened header rest /\
    read_records_s hepmc_format tt rest = (records, e) /\ e <> AllRead /\
    forall more, rd_header (hepmc_open (t ++ more)) = header /\
      forall all, hepmc_records (hepmc_open (t ++ more)) = Some all -> e = ReadFailed /\ first_of records all.
Proof.
  intros s t Hd. destruct (reader_fail hepmc_format hepmc_M hepmc_H hepmc_F s t Hd) as [H|[(_ & H)|(h & s' & Ho & H)]]; [left; exact H| |].
  { specialize (H []). rewrite hepmc_open_t in H. discriminate. }
  right. destruct (H tt) as (l & e & Er & He & Hm). exists h, s', l, e. split; [exact Ho|]. split; [exact Er|]. split; [exact He|].
  intros more. destruct (Hm more) as (r & Hr & Hf). rewrite hepmc_open_t in Hr. injection Hr as <- <-. split; [reflexivity|].
  intros all Ha. specialize (Hf (S (length (rd_source (hepmc_open (t ++ more))))) ltac:(lia)).
  pose proof (hepmc_rest_t (S (length (rd_source (hepmc_open (t ++ more))))) (hepmc_open (t ++ more)) ltac:(lia)) as P.
  unfold hepmc_records in Ha. rewrite Ha in P. rewrite P in Hf. destruct Hf as [Hf|[_ Hf]]; [exact Hf|discriminate].
Qed.
Print Assumptions C86_hepmc_failing.
Theorem C86_lhef_failing : forall s t, delivers s t true ->
  open_s lhef_format s = OpenFailed \/
  exists header rest records e, open_s lhef_format s = Opened header rest /\
    read_records_s lhef_format tt rest = (records, e) /\ e <> AllRead /\
    forall more, rd_header (lhef_open (t ++ more)) = header /\
      forall all, lhef_records (lhef_open (t ++ more)) = Some all -> e = ReadFailed /\ first_of records all.
Proof.
  intros s t Hd. destruct (reader_fail lhef_format lhef_M lhef_H lhef_F s t Hd) as [H|[(_ & H)|(h & s' & Ho & H)]]; [left; exact H| |].
  { specialize (H []). rewrite lhef_open_t in H. discriminate. }
  right. destruct (H tt) as (l & e & Er & He & Hm). exists h, s', l, e. split; [exact Ho|]. split; [exact Er|]. split; [exact He|].
  intros more. destruct (Hm more) as (r & Hr & Hf). rewrite lhef_open_t in Hr. injection Hr as <- <-. split; [reflexivity|].
  intros all Ha. specialize (Hf (S (length (rd_source (lhef_open (t ++ more))))) ltac:(lia)).
  pose proof (lhef_rest_t (S (length (rd_source (lhef_open (t ++ more))))) (lhef_open (t ++ more)) ltac:(lia)) as P.
  unfold lhef_records in Ha. rewrite Ha in P. rewrite P in Hf. destruct Hf as [Hf|[_ Hf]]; [exact Hf|discriminate].
Qed.
Print Assumptions C86_lhef_failing.
Theorem C86_stripper_failing : forall checks nsubevents s t, delivers s t true ->
  open_s (stripper_format checks) s = OpenFailed \/
  exists header rest records e, open_s (stripper_format checks) s = Opened header rest /\
    read_records_s (stripper_format checks) nsubevents rest = (records, e) /\ e <> AllRead /\
    forall more, exists r, stripper_open checks nsubevents (t ++ more) = Some r /\ sr_header r = header /\
      forall all r', stripper_records checks r = Some (all, r') -> e = ReadFailed /\ first_of records all.
Proof.
  intros checks n s t Hd.
  destruct (reader_fail (stripper_format checks) (stripper_M checks) (stripper_H checks) (stripper_F checks) s t Hd) as [H|[(_ & H)|(h & s' & Ho & H)]]; [left; exact H| |].
  { specialize (H (lit "<se")). rewrite stripper_open_t in H. unfold stripper_init in H.
    destruct (scan _ _ _ [] (t ++ lit "<se")) as [a q|a] eqn:E; [discriminate|]. exfalso.
    pose proof (stripper_atend _ _ E) as X. rewrite X in H. destruct (length (t ++ lit "<se") <? 3) eqn:El; [|discriminate].
    apply Nat.ltb_lt in El. rewrite app_length in El. cbn in El. lia. }
  right. destruct (H n) as (l & e & Er & He & Hm). exists h, s', l, e. split; [exact Ho|]. split; [exact Er|]. split; [exact He|].
  intros more. destruct (Hm more) as (r & Hr & Hf). rewrite stripper_open_t in Hr. unfold stripper_open. rewrite Hr.
  exists (mkSReader (t ++ more) r n h). split; [reflexivity|]. split; [reflexivity|].
  intros all r' Ha. specialize (Hf (S (length r)) ltac:(lia)).
  pose proof (stripper_rest_t checks (S (length r)) (mkSReader (t ++ more) r n h) ltac:(cbn [sr_source]; lia)) as P.
  unfold stripper_records in Ha. cbn [sr_source sr_rem] in *. rewrite Ha in P. rewrite P in Hf. destruct Hf as [Hf|[_ Hf]]; [exact Hf|discriminate].
Qed.
Print Assumptions C86_stripper_failing.

(** The format is recognised as from the contents of the file, provided that the first read
    succeeds, and returns all of the file or at least 17 bytes after the white space at the start. *)
Theorem C86_detect_partial : forall b s t, delivers (Data b :: s) t false ->
  17 <= length (trim_ascii_start b) \/ b = t -> detect_s (Data b :: s) = detect_event_file_format t.
Proof.
  intros b s t Hd Hb. inversion Hd as [| |b' s' t' f Hne Hd' E1 E2 E3]; subst. cbn [detect_s]. destruct Hb as [Hb|Hb].
  - symmetry. apply detect_more. exact Hb.
  - rewrite <- Hb. reflexivity.
Qed.
Print Assumptions C86_detect_partial.

(** Otherwise it need not be: here the first piece of a file with two events is short, or the first
    read fails.  The file is then read as HepMC, without any events, and no error is reported. *)
Definition rd_short : source := [Data (firstn 4 lh_good); Data (skipn 4 lh_good)].
Theorem C86_detect_refuted :
  delivers rd_short lh_good false /\ detect_event_file_format lh_good = Lhef /\
  lhef_records (lhef_open lh_good) = Some [lh_record1'; lh_record2] /\
  detect_s rd_short = HepMC2 /\ detect_s (Failure :: rd_short) = HepMC2 /\
  exists rest, open_s hepmc_format rd_short = Opened (rd_header (hepmc_open lh_good)) rest /\
    read_records_s hepmc_format tt rest = ([], AllRead).
Proof.
  assert (D : delivers rd_short lh_good false).
  { assert (E : lh_good = firstn 4 lh_good ++ skipn 4 lh_good ++ []) by vmr. rewrite E. apply delivers_piece; [discriminate|].
    apply delivers_piece; [discriminate|]. apply delivers_end. }
  split; [exact D|]. split; [vmr|]. split; [vmr|]. split; [vmr|]. split; [vmr|].
  destruct (C86_hepmc rd_short lh_good D) as (rest & E & H). exists rest. split; [exact E|].
  assert (X : hepmc_records (hepmc_open lh_good) = Some []) by vmr. rewrite X in H. exact H.
Qed.
Print Assumptions C86_detect_refuted.

(** The scale factors are those of the contents of the files, provided that all reads succeed and
    that the first one returns all of the file or at least 5 bytes after the white space at the start. *)
Definition first_piece_suffices (n : nat) (f : text * source) : Prop :=
  delivers (snd f) (fst f) false /\
  match snd f with Data b :: _ => n <= length (trim_ascii_start b) \/ b = fst f | _ => True end.
Theorem C86_scaling_partial : forall (N : NumOps) (xml : text -> option (xml_tag N)) files,
  Forall (first_piece_suffices 5) files -> event_files_s N xml files = event_files xml (map fst files).
Proof.
  intros N xml files H. induction H as [|[file s] files [Hd Hb] Hf IH]; [reflexivity|]. cbn [fst snd] in *.
  cbn [event_files_s event_files map fst]. rewrite IH. destruct s as [|[b|] s].
  - inversion Hd. reflexivity.
  - rewrite (delivers_all _ _ Hd). assert (X : is_xml b = is_xml file).
    { inversion Hd as [| |b' s' t' f Hne Hd' E1 E2 E3]. subst. destruct Hb as [Hb|Hb]; [symmetry; apply xml_more; exact Hb|rewrite <- Hb; reflexivity]. }
    rewrite X. destruct (is_xml file); [|reflexivity]. destruct (xml file) as [[]|]; reflexivity.
  - inversion Hd.
Qed.
Print Assumptions C86_scaling_partial.

(** A failed read is no error: the number of events in one file is not counted, and all scale
    factors are too large by a factor of two. *)
Definition rd_inputs : list (text * source) := [(m_norm, [Data m_norm]); (m_stripper, [Data m_stripper]); (m_stripper, [Data m_stripper])].
Definition rd_failing : list (text * source) := [(m_norm, [Data m_norm]); (m_stripper, [Data m_stripper]); (m_stripper, [Failure; Data m_stripper])].
Theorem C86_scaling_refuted : exists tags tags',
  Forall (first_piece_suffices 5) rd_inputs /\ map fst rd_failing = map fst rd_inputs /\
  event_files_s ZN m_xml rd_inputs = Ok ([m_stripper; m_stripper], tags) /\ extract_scaling tags = [(lit "RR", 1%Z)] /\
  event_files_s ZN m_xml rd_failing = Ok ([m_stripper; m_stripper], tags') /\ extract_scaling tags' = [(lit "RR", 2%Z)].
Proof.
  exists [Normalization (N := ZN) (lit "RR") 4%Z; Eventrecord (N := ZN) (lit "RR") 2; Eventrecord (N := ZN) (lit "RR") 2],
         [Normalization (N := ZN) (lit "RR") 4%Z; Eventrecord (N := ZN) (lit "RR") 2].
  assert (D : forall t : text, t <> [] -> first_piece_suffices 5 (t, [Data t])).
  { intros t Ht. split; [|right; reflexivity]. cbn [fst snd]. rewrite <- (app_nil_r t) at 2. apply delivers_piece; [exact Ht|apply delivers_end]. }
  split; [repeat (apply Forall_cons; [apply D; discriminate|]); apply Forall_nil|].
  split; [reflexivity|]. split; [vmr|]. split; [vmr|]. split; vmr.
Qed.
Print Assumptions C86_scaling_refuted.

(** Cases: the second record is cut by a failing read; only the first one is delivered. *)
Definition rd_cut : source := [Data (lh_header ++ firstn 10 lh_record1'); Data (skipn 10 lh_record1'); Data (firstn 20 lh_record2); Failure; Data lh_tail].
Example C86_case : delivers rd_cut (lh_header ++ lh_record1' ++ firstn 20 lh_record2) true /\
  (exists rest, open_s lhef_format rd_cut = Opened lh_header rest /\ read_records_s lhef_format tt rest = ([lh_record1'], ReadFailed)) /\
  (exists rest, open_s lhef_format rd_short = Opened lh_header rest /\ read_records_s lhef_format tt rest = ([lh_record1'; lh_record2], AllRead)) /\
  open_s lhef_format [Data (firstn 12 lh_header); Failure] = OpenFailed.
Proof.
  split.
  { assert (E : lh_header ++ lh_record1' ++ firstn 20 lh_record2 = (lh_header ++ firstn 10 lh_record1') ++ skipn 10 lh_record1' ++ firstn 20 lh_record2 ++ []) by vmr.
    rewrite E. unfold rd_cut. repeat (apply delivers_piece; [discriminate|]). apply delivers_failure. }
  split; [|split].
  - let r := eval vm_compute in (open_s lhef_format rd_cut) in match r with Opened _ ?a => exists a end. split; vmr.
  - let r := eval vm_compute in (open_s lhef_format rd_short) in match r with Opened _ ?a => exists a end. split; vmr.
  - vmr.
Qed.
