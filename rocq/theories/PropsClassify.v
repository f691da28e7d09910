(** C47: sorting events into regions; C56: reading the results; C57: names of the output files. *)
From Coq Require Import ZArith Permutation Reals DecimalString DecimalNat.
From Verif Require Import Base BaseProofs Num ModelEvent ModelText SpecText SpecFormats TextProofs ReaderProofs ParserProofs
  ModelHepMC ModelLHEF ModelStripper FormatProofs RecordProofs FileProofs FileProofs2 FileProofs3 ModelIO ModelPartition
  SpecPartition PartitionProofs ModelClassify SpecClassify ClassifyProofs ClassifyProofs2 ClassifyProofs3 SpecScaling TextExamples PropsHepMC PropsFormats PropsPartition.
From Coq Require Import Lia.

Definition last_line (f : format) : text :=
  match f with HepMC2 => hepmc_end | Lhef => lhef_end | StripperXml => stripper_end | BlackHatNtuple => [] end.

(** The assignment of regions to records: the region of the clustered event that the record contains *)
Definition assignment {N : NumOps} (double : parser N) mw sort cluster (dist : Event N -> Event N -> N) vp (f : format)
    (records : list text) (regions : list nat) : Prop :=
  Forall2 (fun r i => exists ev ev', convert double mw sort f r = Ok ev /\ cluster ev = Some ev' /\ region dist vp ev' = Some i) records regions.

Lemma selected_filter {A} (g : A -> nat) i : forall l, selected i (map g l) l = filter (fun r => g r =? i) l.
Proof.
  unfold selected. induction l as [|r l IH]; [reflexivity|]. cbn [map combine filter fst]. destruct (g r =? i); cbn [map snd]; rewrite IH; reflexivity.
Qed.
Lemma assignment_place {N : NumOps} (double : parser N) mw sort cluster (dist : Event N -> Event N -> N) vp f records regions :
  assignment double mw sort cluster dist vp f records regions ->
  regions = map (place N double mw sort cluster dist vp f) records /\
  forall r, In r records -> record_region double mw sort cluster dist vp f r = Ok (place N double mw sort cluster dist vp f r).
Proof.
  unfold assignment. induction 1 as [|r i records regions (ev & ev' & H1 & H2 & H3) H [-> IH]].
  - split; [reflexivity|]. intros r [].
  - assert (E : record_region double mw sort cluster dist vp f r = Ok i) by (unfold record_region; rewrite H1; cbn [bind]; rewrite H2, H3; reflexivity).
    assert (Ep : place N double mw sort cluster dist vp f r = i) by (unfold place; rewrite E; reflexivity).
    cbn [map]. rewrite Ep. split; [reflexivity|]. intros x [<-|Hx]; [rewrite Ep; exact E|apply IH; exact Hx].
Qed.
Lemma place_assignment {N : NumOps} (double : parser N) mw sort cluster (dist : Event N -> Event N -> N) vp f records :
  (forall r, In r records -> record_region double mw sort cluster dist vp f r = Ok (place N double mw sort cluster dist vp f r)) ->
  assignment double mw sort cluster dist vp f records (map (place N double mw sort cluster dist vp f) records).
Proof.
  intros H. unfold assignment. induction records as [|r records IH]; cbn [map]; constructor.
  - specialize (H r (or_introl eq_refl)). unfold record_region in H. destruct (convert double mw sort f r) as [ev| |]; try discriminate. cbn [bind] in H.
    destruct (cluster ev) as [ev'|] eqn:Ec; [|discriminate]. destruct (region dist vp ev') as [i|] eqn:Er; [|discriminate]. injection H as H.
    exists ev, ev'. rewrite Er, H. auto.
  - apply IH. intros x Hx. apply H. right. exact Hx.
Qed.
Lemma repeat_nth {A} (x : A) n i : i < n -> nth_error (repeat x n) i = Some x.
Proof. revert i. induction n as [|n IH]; intros i Hi; [lia|]. destruct i; [reflexivity|]. apply IH. lia. Qed.

Lemma classify_ok {N : NumOps} (double : parser N) mw sort cluster (dist : Event N -> Event N -> N) vp checks n f file outs :
  classify_byte_records double mw sort cluster dist vp checks n f file = Ok outs ->
  exists header records, read_records checks n f file = Some (header, records) /\
    (forall r, In r records -> record_region double mw sort cluster dist vp f r = Ok (place N double mw sort cluster dist vp f r) /\
      place N double mw sort cluster dist vp f r < partition_len vp) /\
    length outs = partition_len vp /\
    forall i out, nth_error outs i = Some out ->
      out = header ++ concat (map (fun r => trim_footer r f) (filter (fun r => place N double mw sort cluster dist vp f r =? i) records)) ++ footer_line f.
Proof.
  unfold classify_byte_records. destruct (read_records checks n f file) as [[header records]|]; [|discriminate].
  destruct (classify_loop double mw sort cluster dist vp f records _) as [outs0| |] eqn:E; try discriminate. intros H. injection H as <-.
  apply loop_spec in E as (HL & HR & HN). unfold text in *. rewrite repeat_length in *. exists header, records. split; [reflexivity|]. split; [exact HR|].
  split; [rewrite map_length; exact HL|]. intros i out Hout.
  assert (Hi : i < partition_len vp) by (rewrite <- HL; rewrite <- (map_length (fun out => out ++ footer_line f) outs0); apply nth_error_Some; congruence).
  specialize (HN i header (repeat_nth _ _ _ Hi)). rewrite (map_nth_error (fun out => out ++ footer_line f) _ _ HN) in Hout. injection Hout as <-.
  rewrite <- app_assoc. reflexivity.
Qed.

(** What is written: every record belongs to the region of its event; the output for region [i]
    consists of the header, the records of that region in the original order, each without the
    footer of the file in case it has one at its end, and the footer on a line. *)
Theorem C47_outputs : forall (N : NumOps) (double : parser N) mw sort cluster (dist : Event N -> Event N -> N) vp checks n f file outs,
  classify_byte_records double mw sort cluster dist vp checks n f file = Ok outs ->
  exists header records regions,
    read_records checks n f file = Some (header, records) /\
    assignment double mw sort cluster dist vp f records regions /\
    length outs = length vp + 1 /\ (forall i, In i regions -> i < length outs) /\
    forall i out, nth_error outs i = Some out -> exists texts,
      Forall2 (without_footer (last_line f)) (selected i regions records) texts /\
      out = header ++ concat texts ++ last_line f ++ [newline].
Proof.
  intros N double mw sort cluster dist vp checks n f file outs H.
  assert (Hf : f <> BlackHatNtuple) by (intros ->; discriminate).
  apply classify_ok in H as (header & records & Hread & Hreg & Hlen & Hout).
  exists header, records, (map (place N double mw sort cluster dist vp f) records). split; [exact Hread|].
  split; [apply place_assignment; intros r Hr; apply Hreg; exact Hr|]. split; [exact Hlen|]. split.
  - intros i Hi. apply in_map_iff in Hi as (r & <- & Hr). rewrite Hlen. apply Hreg. exact Hr.
  - intros i out Ho. rewrite selected_filter. eexists. split; [|rewrite (Hout i out Ho); destruct f; reflexivity].
    clear -Hf. induction (filter _ records) as [|r l IH]; constructor; [|exact IH].
    replace (last_line f) with (get_footer f) by (destruct f; reflexivity). apply trim_footer_spec. exact Hf.
Qed.
Print Assumptions C47_outputs.

(** No record is lost or written twice: the selected records of all regions are together the records. *)
Theorem C47_exactly_once : forall (A : Type) (l : list A) regions n,
  length regions = length l -> (forall i, In i regions -> i < n) ->
  Permutation (concat (map (fun i => selected i regions l) (seq 0 n))) l.
Proof.
  intros A l. induction l as [|x l IH]; intros [|i regions] n Hl Hi; try discriminate.
  - replace (map _ (seq 0 n)) with (map (fun _ : nat => @nil A) (seq 0 n)) by (apply map_ext; intros; reflexivity).
    clear. induction (seq 0 n); [constructor|assumption].
  - assert (Hin : i < n) by (apply Hi; left; reflexivity).
    assert (E : forall k, selected k (i :: regions) (x :: l) = (if i =? k then [x] else []) ++ selected k regions l).
    { intros k. unfold selected. cbn [combine filter fst]. destruct (i =? k); reflexivity. }
    replace (seq 0 n) with (seq 0 i ++ i :: seq (S i) (n - S i)).
    2:{ replace n with (i + S (n - S i)) at 2 by lia. rewrite seq_app. reflexivity. }
    rewrite map_app, concat_app. cbn [map concat]. rewrite E, Nat.eqb_refl. cbn [app].
    assert (Hsame : forall ks, ~ In i ks -> map (fun k => selected k (i :: regions) (x :: l)) ks = map (fun k => selected k regions l) ks).
    { intros ks Hk. apply map_ext_in. intros k Hk'. rewrite E. destruct (Nat.eqb_spec i k) as [->|]; [contradiction|reflexivity]. }
    rewrite !Hsame by (rewrite in_seq; lia). rewrite <- Permutation_middle. constructor.
    rewrite <- (IH regions n) at 2; [|injection Hl; auto|intros k Hk; apply Hi; right; exact Hk].
    replace (seq 0 n) with (seq 0 i ++ i :: seq (S i) (n - S i)).
    2:{ replace n with (i + S (n - S i)) at 2 by lia. rewrite seq_app. reflexivity. }
    rewrite map_app, concat_app. cbn [map concat]. apply Permutation_refl.
Qed.
Print Assumptions C47_exactly_once.

(** It succeeds if all records can be read and clustered; in a valid partition every event has a region. *)
Theorem C47_succeeds : forall (N : NumOps) (double : parser N) mw sort cluster (dist : Event N -> Event N -> N) vp k checks n f file header records,
  length vp + 1 = 2 ^ k -> read_records checks n f file = Some (header, records) ->
  (forall r, In r records -> exists ev ev', convert double mw sort f r = Ok ev /\ cluster ev = Some ev') ->
  exists outs, classify_byte_records double mw sort cluster dist vp checks n f file = Ok outs.
Proof.
  intros N double mw sort cluster dist vp k checks n f file header records Hk Hread Hconv. unfold classify_byte_records. rewrite Hread.
  destruct (loop_ok N double mw sort cluster dist vp f records (repeat header (partition_len vp))) as [outs ->].
  - intros r Hr. destruct (Hconv r Hr) as (ev & ev' & H1 & H2). destruct (C38_region N _ dist vp k ev' Hk) as (path & _ & H3 & H4 & _).
    exists (num path). unfold record_region, text in *. rewrite H1. cbn [bind]. rewrite H2, H3. rewrite repeat_length. auto.
  - cbn [bind]. eauto.
Qed.
Print Assumptions C47_succeeds.

(** *** Reading the outputs again.  LHEF: the output for a region contains exactly the records of
    that region, byte for byte. *)
Theorem C56_lhef : forall (N : NumOps) (double : parser N) mw sort cluster (dist : Event N -> Event N -> N) vp checks n file header records regions outs,
  occurs init_end file ->
  classify_byte_records double mw sort cluster dist vp checks n Lhef file = Ok outs ->
  read_records checks n Lhef file = Some (header, records) ->
  assignment double mw sort cluster dist vp Lhef records regions ->
  forall i out, nth_error outs i = Some out -> read_records checks n Lhef out = Some (header, selected i regions records).
Proof.
  intros N double mw sort cluster dist vp checks n file header records regions outs Hocc H Hread Hreg i out Hout.
  apply classify_ok in H as (header' & records' & Hread' & _ & _ & Ho). rewrite Hread in Hread'. injection Hread' as <- <-.
  apply assignment_place in Hreg as [-> _]. rewrite selected_filter. rewrite (Ho i out Hout). clear Ho Hout.
  cbn [read_records] in Hread |- *. destruct (lhef_records_spec file Hocc) as (rs & tail & Hp & Hr). rewrite Hr in Hread.
  destruct (forallb utf8 rs) eqn:Hu; [|discriminate]. injection Hread as <- ->.
  pose proof (lhef_readback file _ records tail (filter (fun r => place N double mw sort cluster dist vp Lhef r =? i) records) Hp Hu) as Hback.
  rewrite Hback by (intros r Hr'; apply filter_In in Hr'; tauto).
  f_equal. f_equal. set (sel := filter _ records) in *.
  assert (Hsel : forall r, In r sel -> In r records) by (intros r Hr'; apply filter_In in Hr'; tauto).
  destruct Hp as (_ & Hh & Hrr & _).
  replace (map (fun r => trim_footer r Lhef) sel) with sel.
  2:{ transitivity (map (fun r => r) sel); [symmetry; apply map_id|]. apply map_ext_in. intros r Hin. symmetry. apply lhef_trim. apply (Hrr r). auto. }
  destruct (lhef_read_parts (rd_header (lhef_open file) ++ concat sel ++ footer_line Lhef) (rd_header (lhef_open file)) sel (footer_line Lhef)) as [-> _]; [|reflexivity].
  split; [reflexivity|]. split; [exact Hh|]. split; [auto|]. apply find_none. reflexivity.
Qed.
Print Assumptions C56_lhef.

(** HepMC: the output for a region contains the same events as the records of that region, in the
    same order, if every record consists of complete lines, the last of which is not blank.
    (Full claim: without this condition.) *)
Theorem C56_hepmc_partial : forall (N : NumOps) D (double : parser N) show mw sort cluster (dist : Event N -> Event N -> N) vp checks n file header records regions outs,
  number_text N D double show ->
  occurs event_line file -> ~ finishes_with event_line file ->
  classify_byte_records double mw sort cluster dist vp checks n HepMC2 file = Ok outs ->
  read_records checks n HepMC2 file = Some (header, records) ->
  assignment double mw sort cluster dist vp HepMC2 records regions ->
  (forall r r', In r records -> without_footer hepmc_end r r' -> full_line r') ->
  forall i out, nth_error outs i = Some out -> exists header' records',
    read_records checks n HepMC2 out = Some (header', records') /\
    Forall2 (fun r' r => parse_hepmc double mw sort [] r' = parse_hepmc double mw sort [] r) records' (selected i regions records).
Proof.
  intros N D double show mw sort cluster dist vp checks n file header records regions outs HT Hocc Hend H Hread Hreg Hfull i out Hout.
  apply classify_ok in H as (header' & records' & Hread' & _ & _ & Ho). rewrite Hread in Hread'. injection Hread' as <- <-.
  apply assignment_place in Hreg as [-> _]. rewrite selected_filter. rewrite (Ho i out Hout). clear Ho Hout.
  cbn [read_records] in Hread |- *. destruct (hepmc_records_spec file Hocc Hend) as (rs & Hp & Hr). rewrite Hr in Hread.
  destruct (forallb utf8 rs) eqn:Hu; [|discriminate]. injection Hread as <- ->.
  destruct (hepmc_readback N D double show sort mw HT file _ records (filter (fun r => place N double mw sort cluster dist vp HepMC2 r =? i) records) Hp Hu) as (rs & Hrs & Hall).
  - intros r Hr'. apply filter_In in Hr' as [Hin _]. split; [exact Hin|]. apply (Hfull r); [exact Hin|]. apply (trim_footer_spec HepMC2). discriminate.
  - unfold hepmc_tail in Hrs. rewrite Hrs. eauto.
Qed.
Print Assumptions C56_hepmc_partial.

(** STRIPPER XML: the same, if only the last record finishes with the end tag of the file. *)
Theorem C56_stripper_partial : forall (N : NumOps) D (double : parser N) show mw sort cluster (dist : Event N -> Event N -> N) vp checks n file header records regions outs,
  number_text N D double show ->
  occurs subevent_start file -> ~ finishes_with subevent_start file ->
  classify_byte_records double mw sort cluster dist vp checks n StripperXml file = Ok outs ->
  read_records checks n StripperXml file = Some (header, records) ->
  assignment double mw sort cluster dist vp StripperXml records regions ->
  all_but_last (fun r => ~ exists y, footed stripper_end r y) records ->
  forall i out, nth_error outs i = Some out -> exists header' records',
    read_records checks n StripperXml out = Some (header', records') /\
    Forall2 (fun r' r => parse_stripper_xml double mw sort r' = parse_stripper_xml double mw sort r) records' (selected i regions records).
Proof.
  intros N D double show mw sort cluster dist vp checks n file header records regions outs HT Hocc Hend H Hread Hreg Hlast i out Hout.
  apply classify_ok in H as (header' & records' & Hread' & _ & _ & Ho). rewrite Hread in Hread'. injection Hread' as <- <-.
  apply assignment_place in Hreg as [-> Hreg]. rewrite selected_filter. rewrite (Ho i out Hout). clear Ho Hout.
  cbn [read_records] in Hread |- *. destruct (stripper_open checks n file) as [r|] eqn:Eo; [|discriminate].
  destruct (stripper_parts_exist checks n file r Eo Hocc Hend) as (rs & Hp & _ & Honly).
  destruct (stripper_records checks r) as [[l e]|] eqn:Er; [|discriminate]. injection Hread as <- ->.
  destruct (Honly _ _ eq_refl) as [<- Hu].
  assert (Hn : (checks = true -> N.of_nat (length records) <= n)%N).
  { intros ->. pose proof (stripper_count_le _ _ _ _ Er) as Hc. unfold stripper_open in Eo. destruct (stripper_init true file) as [[? ?]|]; [|discriminate]. injection Eo as <-. exact Hc. }
  destruct (stripper_readback N D double show sort mw HT checks n file _ records (fun r => place N double mw sort cluster dist vp StripperXml r =? i) Hp Hu Hn Hlast) as (rd & rs & e' & E1 & E2 & Hall).
  - intros x Hx. specialize (Hreg x Hx). unfold record_region, convert in Hreg. destruct (parse_stripper_xml double mw sort x) as [ev| |]; try discriminate. eauto.
  - exists (sr_header rd), rs. split; [|exact Hall]. unfold text in *. rewrite E1, E2. reflexivity.
Qed.
Print Assumptions C56_stripper_partial.

(** *** Examples: two regions.  An event belongs to region 0 if its weight is 5. *)
Definition ex_dist (a b : Event ZN) : ZN := match ev_weights a, ev_weights b with x :: _, y :: _ => Z.abs (x - y) | _, _ => 0%Z end.
Definition ex_vp : list (Bisection ZN (Event ZN)) := [mkBis (F:=ZN) (mkEvent (N:=ZN) 0 [5%Z] []) 0%Z].
Definition ex_classify f file := classify_byte_records (N:=ZN) z_double false isort Some ex_dist ex_vp true 2 f file.

Definition ex_footer : text := Eval vm_compute in ln "HepMC::IO_GenEvent-END_EVENT_LISTING".
Definition ex_footed : text := Eval vm_compute in ex_file ++ ex_footer.
Definition ex_out0 : text := Eval vm_compute in ex_header ++ ex_record1 ++ ex_footer.
Definition ex_out1 : text := Eval vm_compute in ex_header ++ ex_record2 ++ ex_footer.
Example C56_hepmc_case :
  occurs event_line ex_footed /\ ~ finishes_with event_line ex_footed /\ length ex_vp + 1 = 2 ^ 1 /\
  read_records true 2 HepMC2 ex_footed = Some (ex_header, [ex_record1; ex_record2 ++ ex_footer]) /\
  (forall r r', In r [ex_record1; ex_record2 ++ ex_footer] -> without_footer hepmc_end r r' -> full_line r') /\
  ex_classify HepMC2 ex_footed = Ok [ex_out0; ex_out1].
Proof.
  split; [|split; [|split; [|split; [|split]]]].
  - exists (removelast ex_header), (tl (ex_record1 ++ ex_record2 ++ ex_footer)). vmr.
  - apply ends_with_false. vmr.
  - reflexivity.
  - vmr.
  - intros r r' Hr H. rewrite (without_footer_unique HepMC2 r r' (trim_footer r HepMC2) ltac:(discriminate) H (trim_footer_spec HepMC2 r ltac:(discriminate))).
    destruct Hr as [<-|[<-|[]]].
    + exists (removelast (removelast ex_record1)), "1"%char. split; [vmr|]. apply is_white_false. reflexivity.
    + exists (removelast (removelast ex_record2)), "1"%char. split; [vmr|]. apply is_white_false. reflexivity.
  - vmr.
Qed.
Definition lh_out0 : text := Eval vm_compute in lh_header ++ lh_record1' ++ ln "</LesHouchesEvents>".
Definition lh_out1 : text := Eval vm_compute in lh_header ++ lh_record2 ++ ln "</LesHouchesEvents>".
Example C56_lhef_case : occurs init_end lh_good /\ ex_classify Lhef lh_good = Ok [lh_out0; lh_out1].
Proof. split; [exists (firstn (length lh_header - 8) lh_header), (skipn (length lh_header) lh_good); vmr|vmr]. Qed.
Definition st_out0 : text := Eval vm_compute in st_header ++ st_record1 ++ ln "</Eventrecord>".
Definition st_out1 : text := Eval vm_compute in st_header ++ st_record2.
Example C56_stripper_case : occurs subevent_start st_file /\ ~ finishes_with subevent_start st_file /\
  read_records true 2 StripperXml st_file = Some (st_header, [st_record1; st_record2]) /\
  all_but_last (fun r => ~ exists y, footed stripper_end r y) [st_record1; st_record2] /\
  ex_classify StripperXml st_file = Ok [st_out0; st_out1].
Proof.
  split; [|split; [|split; [|split]]].
  - exists st_header, (skipn 3 st_record1 ++ st_record2). vmr.
  - apply ends_with_false. vmr.
  - vmr.
  - intros a x b E Hb. destruct a as [|a0 [|a1 a]]; cbn in E.
    + injection E as <- <-. pose proof (trim_footer_spec StripperXml st_record1 ltac:(discriminate)) as [(ws & Hw & Hws)|[_ H]]; [|exact H].
      exfalso. assert (Ht : trim_footer st_record1 StripperXml = st_record1) by vmr. rewrite Ht in Hw.
      rewrite <- (app_nil_r st_record1) in Hw at 1. apply app_inv_head in Hw. discriminate.
    + injection E as <- <- <-. exfalso; apply Hb; reflexivity.
    + destruct a; discriminate.
  - vmr.
Qed.

(** A blank line between two events: the event before it is read without problems from the input,
    but not from the output, where the footer follows the blank line. *)
Definition blank_file : text := Eval vm_compute in ex_header ++ ex_record1 ++ [NL] ++ ex_record2 ++ ex_footer.
Definition blank_record : text := Eval vm_compute in ex_record1 ++ [NL].
Definition blank_out0 : text := Eval vm_compute in ex_header ++ blank_record ++ ex_footer.
Definition blank_read : text := Eval vm_compute in blank_record ++ ex_footer.
Theorem C56_hepmc_refuted : exists file header records out0 out1 rs,
  read_records true 2 HepMC2 file = Some (header, records) /\
  (forall r, In r records -> exists ev, parse_hepmc (N:=ZN) z_double false isort [] r = Ok ev) /\
  ex_classify HepMC2 file = Ok [out0; out1] /\
  read_records true 2 HepMC2 out0 = Some (header, rs) /\ length rs = 1 /\
  forall r, In r rs -> parse_hepmc (N:=ZN) z_double false isort [] r = Err (UnrecognisedEntry "start").
Proof.
  exists blank_file, ex_header, [blank_record; ex_record2 ++ ex_footer], blank_out0, ex_out1, [blank_read].
  split; [vmr|]. split.
  { intros r [<-|[<-|[]]].
    - let r := eval vm_compute in (parse_hepmc (N:=ZN) z_double false isort [] blank_record) in match r with Ok ?a => exists a end. vmr.
    - let r := eval vm_compute in (parse_hepmc (N:=ZN) z_double false isort [] (ex_record2 ++ ex_footer)) in match r with Ok ?a => exists a end. vmr. }
  split; [vmr|]. split; [vmr|]. split; [reflexivity|]. intros r [<-|[]]. vmr.
Qed.
Print Assumptions C56_hepmc_refuted.

(** *** Scale factors of STRIPPER XML.  The header, with the number of events, is copied to the
    output for each region.  Used alone with the normalisation file, an output has the scale factor
    of the input. *)
Theorem C56_scaling_alone : forall (N : NumOps) name (scale : N) k,
  extract_scaling [Normalization name scale; Eventrecord name k] = [(name, ndiv scale (nofnat k))].
Proof.
  intros N name scale k. unfold extract_scaling, scaling_step. cbn [fold_left upd_entry]. destruct (list_eq_dec ascii_dec name name) as [_|H]; [reflexivity|congruence].
Qed.
Print Assumptions C56_scaling_alone.
(** If the outputs for all [m] regions are used together, the events are counted [m] times: the
    factor is that of the input divided by [m]. *)
Theorem C56_scaling_together_refuted : forall name (scale : RN) k m, (0 < k)%nat -> (0 < m)%nat ->
  extract_scaling (N := RN) (Normalization name scale :: repeat (Eventrecord name k) m) = [(name, (scale / (INR k * INR m))%R)].
Proof.
  intros name scale k m Hk Hm. unfold extract_scaling. cbn [fold_left scaling_step upd_entry].
  assert (G : forall m j, fold_left (@scaling_step RN) (repeat (Eventrecord name k) m) [(name, (scale, j))] = [(name, (scale, j + m * k))]).
  { clear. induction m as [|m IH]; intros j; cbn [repeat fold_left]; [rewrite Nat.add_0_r; reflexivity|].
    cbn [scaling_step upd_entry]. destruct (list_eq_dec ascii_dec name name) as [_|H]; [|congruence]. rewrite IH. replace (j + k + m * k) with (j + S m * k) by lia. reflexivity. }
  rewrite G. cbn [map]. do 2 f_equal. cbn [nofnat ndiv RN]. rewrite Nat.add_0_l, mult_INR. f_equal. apply Rmult_comm.
Qed.
Print Assumptions C56_scaling_together_refuted.

(** *** Names of the output files (C57) *)
Lemma show_nat_inj i j : show_nat i = show_nat j -> i = j.
Proof.
  unfold show_nat, lit. intros H. apply (f_equal string_of_list_ascii) in H. rewrite !string_of_list_ascii_of_string in H.
  apply (f_equal NilZero.uint_of_string) in H.
  assert (Hn : forall k, Nat.to_uint k <> Decimal.Nil).
  { intros k. pose proof (DecimalNat.Unsigned.of_to k) as E. intros H0. rewrite H0 in E. cbn in E. subst k. discriminate. }
  rewrite !NilZero.usu in H by apply Hn. injection H as H. rewrite <- (DecimalNat.Unsigned.of_to i), <- (DecimalNat.Unsigned.of_to j), H. reflexivity.
Qed.
Lemma join_path_inj dir a b : a <> [] -> b <> [] -> ~ begins_with (lit "/") a -> ~ begins_with (lit "/") b -> join_path dir a = join_path dir b -> a = b.
Proof.
  intros Ha Hb Ha' Hb' H. unfold join_path in H. destruct a as [|a0 a]; [congruence|]. destruct b as [|b0 b]; [congruence|].
  destruct (ceq a0 "/") eqn:Ea; [apply ceq_true in Ea; subst; exfalso; apply Ha'; eexists; reflexivity|].
  destruct (ceq b0 "/") eqn:Eb; [apply ceq_true in Eb; subst; exfalso; apply Hb'; eexists; reflexivity|].
  destruct (rev dir) as [|d r]; [exact H|]. destruct (ceq d "/").
  - apply app_inv_head in H. exact H.
  - apply app_inv_head in H. apply app_inv_head in H. exact H.
Qed.
Lemma file_name_slash path : ~ In "/"%char (file_name path).
Proof.
  unfold file_name. rewrite <- in_rev. destruct (span _ (rev path)) as [a b] eqn:E. apply span_spec in E as (_ & Ha & _). cbn [fst].
  rewrite Forall_forall in Ha. intros H. apply Ha in H. rewrite ceq_refl in H. discriminate.
Qed.
Lemma split_dot_spec file : let '(p, s) := split_once_dot file in ~ In "."%char p /\ (file = p ++ "."%char :: s \/ (file = p /\ s = [])).
Proof.
  unfold split_once_dot. destruct (find (lit ".") file) as [n|] eqn:E.
  - apply find_char_some in E as (a & b & -> & <- & Ha). rewrite firstn_app, firstn_all, Nat.sub_diag. cbn [firstn]. rewrite app_nil_r.
    split; [exact Ha|]. left. f_equal. f_equal. rewrite skipn_app, skipn_all2 by lia. replace (S (length a) - length a) with 1 by lia. reflexivity.
  - apply find_char_none in E. split; [exact E|]. right. auto.
Qed.
Lemma outname_start path i : let '(p, s) := split_once_dot (file_name path) in p ++ lit "." ++ show_nat i ++ lit "." ++ s <> [] /\ ~ begins_with (lit "/") (p ++ lit "." ++ show_nat i ++ lit "." ++ s).
Proof.
  pose proof (split_dot_spec (file_name path)) as H. destruct (split_once_dot (file_name path)) as [p s]. destruct H as [_ H]. split; [destruct p; discriminate|].
  intros [q Hq]. destruct p as [|p0 p]; [discriminate|]. cbn in Hq. injection Hq as -> _. apply (file_name_slash path). destruct H as [->|[-> _]]; left; reflexivity.
Qed.

Lemma app_first_dot (p p' s s' : text) : ~ In "."%char p -> ~ In "."%char p' -> p ++ "."%char :: s = p' ++ "."%char :: s' -> p = p' /\ s = s'.
Proof.
  intros Hp Hp' E. destruct (app_split_mid _ _ _ _ E) as [(r & Hr & Hq)|(r & Hr & Hq)].
  - destruct r as [|r0 r]; cbn in Hq; injection Hq as Hq; [rewrite app_nil_r in Hr; auto|]. subst r0. exfalso. apply Hp. rewrite Hr. apply in_or_app. right. left. reflexivity.
  - destruct r as [|r0 r]; cbn in Hq; injection Hq as Hq; [rewrite app_nil_r in Hr; auto|]. subst r0. exfalso. apply Hp'. rewrite Hr. apply in_or_app. right. left. reflexivity.
Qed.
Lemma show_nat_chars i : Forall number_char (show_nat i) /\ ~ In "."%char (show_nat i).
Proof.
  split; [apply show_uint_chars|]. unfold show_nat, lit.
  assert (H : forall d, ~ In "."%char (list_ascii_of_string (NilEmpty.string_of_uint d))).
  { induction d; cbn; intuition discriminate. }
  destruct (Nat.to_uint i); cbn; intuition (try discriminate); eapply H; eassumption.
Qed.

(** Two outputs have the same path only if they are for the same region and the names of the inputs
    (without directory) are the same, or differ only by a dot at the end. *)
Theorem C57_collisions : forall outdir path1 path2 i j, byte_outname outdir path1 i = byte_outname outdir path2 j ->
  i = j /\ (file_name path1 = file_name path2 \/ file_name path1 = file_name path2 ++ lit "." \/ file_name path2 = file_name path1 ++ lit ".").
Proof.
  intros outdir path1 path2 i j. unfold byte_outname, make_outname. pose proof (outname_start path1 i) as Hi. pose proof (outname_start path2 j) as Hj.
  pose proof (split_dot_spec (file_name path1)) as H1. pose proof (split_dot_spec (file_name path2)) as H2.
  destruct (split_once_dot (file_name path1)) as [p s]. destruct (split_once_dot (file_name path2)) as [p' s'].
  destruct H1 as [Hp H1], H2 as [Hp' H2]. intros H. apply join_path_inj in H; try tauto.
  apply app_first_dot in H; try tauto. destruct H as [<- H]. apply app_first_dot in H; [|apply show_nat_chars|apply show_nat_chars].
  destruct H as [H <-]. apply show_nat_inj in H. split; [exact H|].
  destruct H1 as [->|[-> ->]], H2 as [->|[-> E]]; auto. subst s. auto.
Qed.
Print Assumptions C57_collisions.
(** They are in the output directory: the path is that of the directory, a slash and a name without slash. *)
Theorem C57_in_outdir : forall outdir path i, outdir <> [] -> ~ finishes_with (lit "/") outdir ->
  exists name, byte_outname outdir path i = outdir ++ lit "/" ++ name /\ ~ In "/"%char name.
Proof.
  intros outdir path i Hne Hs. unfold byte_outname, make_outname. pose proof (outname_start path i) as Hi. pose proof (split_dot_spec (file_name path)) as Hsp.
  pose proof (file_name_slash path) as Hfn. destruct (split_once_dot (file_name path)) as [p s]. destruct Hsp as [_ Hsp]. destruct Hi as [Hn Hb].
  set (name := p ++ lit "." ++ show_nat i ++ lit "." ++ s) in *. exists name. split.
  - unfold join_path. destruct name as [|c name]; [congruence|]. destruct (ceq c "/") eqn:Ec; [apply ceq_true in Ec; subst; exfalso; apply Hb; eexists; reflexivity|].
    destruct (rev outdir) as [|d r] eqn:Er; [apply (f_equal (@rev _)) in Er; rewrite rev_involutive in Er; cbn in Er; congruence|].
    destruct (ceq d "/") eqn:Ed; [|reflexivity]. apply ceq_true in Ed. subst d. exfalso. apply Hs. exists (rev r). rewrite <- (rev_involutive outdir), Er. reflexivity.
  - assert (Hdigit : ~ In "/"%char (show_nat i)).
    { intros H. destruct (show_nat_chars i) as [Hc _]. rewrite Forall_forall in Hc. apply Hc in H. apply number_charb_true in H. discriminate. }
    assert (Hps : ~ In "/"%char p /\ ~ In "/"%char s).
    { destruct Hsp as [E|[E ->]].
      - rewrite E in Hfn. rewrite in_app_iff in Hfn. cbn in Hfn. tauto.
      - rewrite E in Hfn. cbn. tauto. }
    unfold name. rewrite !in_app_iff. cbn. intuition discriminate.
Qed.
Print Assumptions C57_in_outdir.
(** Different input files can have the same output files: the directory of the input is ignored. *)
Theorem C57_inputs_refuted : exists outdir path1 path2, path1 <> path2 /\ forall i, byte_outname outdir path1 i = byte_outname outdir path2 i.
Proof. exists (lit "out"), (lit "a/events.hepmc"), (lit "b/events.hepmc"). split; [discriminate|reflexivity]. Qed.
Print Assumptions C57_inputs_refuted.
(** For ntuples the path of the input is not removed: for an absolute path the output is not in the
    output directory, but next to the input; with a dot in the path the name of a directory is split. *)
Theorem C57_ntuple_refuted : forall i,
  ntuple_outname (lit "out") (lit "/data/events.root") i = lit "/data/events." ++ show_nat i ++ lit ".root" /\
  ntuple_outname (lit "out") (lit "../events.root") i = lit "out/." ++ show_nat i ++ lit "../events.root".
Proof. intros i. split; reflexivity. Qed.
Print Assumptions C57_ntuple_refuted.

Example C57_case : byte_outname (lit "out") (lit "data/run.1.hepmc") 12 = lit "out/run.12.1.hepmc" /\ byte_outname (lit "out/") (lit "run") 0 = lit "out/run.0.".
Proof. split; vmr. Qed.
