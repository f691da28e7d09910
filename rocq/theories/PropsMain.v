(** Property C63: the whole program, from the input files to the output files. *)
From Coq Require Import Reals Lra.
From Verif Require Import Base BaseProofs Num ModelEvent ModelText SpecText SpecFormats TextProofs ModelHepMC ModelLHEF ModelStripper ModelIO FormatProofs FileProofs2 FileProofs3
  TextExamples PropsHepMC PropsFormats PropsRecord ModelCres SpecCres SpecWeights CresProofs CresProofs2 ModelNaive ModelSeeds ModelCell ModelResampler ModelMain SpecMain MainProofs MainProofs2 MainProofs3.
From Coq Require Import Lia.

(** If the program succeeds, then reading the input files gives events and reading them with
    the output files in place of those with events gives the same events, in the same order,
    with the weights computed by the run (unless there are none), provided that these numbers
    survive being written.  This holds for any number of files in any mixture of the text
    formats, one weight for each event, every clustering, resampler and unweighter, and every
    order in which the parallel tasks finish. *)
Theorem C63_round_trip : forall (N : NumOps) (D : N -> Prop) double show xml checks mw names sort cluster shuffle resample unweighter
    fuel inputs files tags outs,
  number_text N D double show -> mw = false \/ names = [] -> stops_at_tag xml -> reorders shuffle -> sort_ok sort ->
  event_files xml inputs = Ok (files, tags) ->
  Forall (well_formed D double xml checks (extract_scaling tags)) files ->
  cres_program double show xml checks mw names sort cluster shuffle resample unweighter fuel inputs = Done outs ->
  length outs = length files /\
  exists records evs W,
    (exists s s' fuel, open_inputs xml checks inputs = Ok (extract_scaling tags, s) /\
       read_all double show xml checks (extract_scaling tags) fuel s = Some (map inl records, s')) /\
    Forall2 (fun r ev => try_convert double mw names sort r = inl ev) records evs /\
    run_on double mw names sort cluster shuffle resample unweighter (map inl records) = Wrote W /\
    length W = length evs /\
    reads double show xml checks mw names sort inputs evs /\
    (Forall (writable D (extract_scaling tags)) W ->
     reads double show xml checks mw names sort (replace_events xml inputs outs) (reweighted_all evs W)).
Proof.
  intros N D double show xml checks mw names sort cluster shuffle resample unweighter fuel inputs files tags outs
    HT Hm Hx Hs Hsort He Hwf Hp.
  destruct (program_round N D double show xml checks mw names sort HT Hm Hx cluster shuffle resample unweighter Hs Hsort fuel inputs files tags outs He Hwf Hp)
    as (records & evs & W & Hrun & Hc & Hl & Hlo & (s & s' & Ho & Hr) & HW).
  split; [exact Hlo|]. exists records, evs, W. split; [|split; [exact Hc|split; [exact Hrun|split; [exact Hl|split; [|exact HW]]]]].
  - exists s, s', (S (length records)). split; [exact Ho|]. apply Hr. lia.
  - exists (extract_scaling tags), s, (S (length records)), (map inl records), s'. split; [exact Ho|]. split; [apply Hr; lia|].
    clear -Hc. induction Hc as [|r ev rs evs H _ IH]; constructor; [|exact IH]. exists r. auto.
Qed.
Print Assumptions C63_round_trip.

(** Consequence: with real numbers and one weight for each event, the sum of the weights in
    the output files is the sum of the weights in the input files without the events that have
    no identified particles. *)
Theorem C63_total : forall (D : R -> Prop) (double : parser RN) show xml checks names sort sort' cluster shuffle strategy (algo : search_algo RN) dist max
    fuel inputs files tags outs,
  number_text RN D double show -> stops_at_tag xml -> reorders shuffle -> sort_ok sort ->
  (forall e e' : Event RN, cluster e = Some e' -> ev_weights e' = ev_weights e) ->
  event_files xml inputs = Ok (files, tags) ->
  Forall (well_formed D double xml checks (extract_scaling tags)) files ->
  cres_program double show xml checks false names sort cluster shuffle
    (lib_resample false sort' strategy algo dist max) lib_no_unweight fuel inputs = Done outs ->
  exists evs W, reads double show xml checks false names sort inputs evs /\
    (Forall (writable D (extract_scaling tags)) W -> exists evs',
     reads double show xml checks false names sort (replace_events xml inputs outs) evs' /\
     length evs' = length evs /\ map ev_out evs' = map ev_out evs /\
     total (map ev_weights evs') 0 =
       (total (map ev_weights evs) 0 - total (map ev_weights (filter (fun e => negb (keeps_particles cluster e)) evs)) 0)%R).
Proof.
  intros D double show xml checks names sort sort' cluster shuffle strategy algo dist max fuel inputs files tags outs HT Hx Hs Hsort Hcl He Hwf Hp.
  destruct (C63_round_trip RN D double show xml checks false names sort cluster shuffle _ _ fuel inputs files tags outs HT (or_introl eq_refl) Hx Hs Hsort He Hwf Hp)
    as (_ & records & evs & W & _ & Hc & Hrun & Hl & Hr1 & Hr2).
  exists evs, W. split; [exact Hr1|]. intros HW. exists (reweighted_all evs W). split; [exact (Hr2 HW)|].
  assert (Hll : length (combine evs W) = length evs) by (rewrite combine_length; lia).
  split; [unfold reweighted_all; rewrite map_length; exact Hll|]. split.
  { clear -Hl. unfold reweighted_all. revert W Hl. induction evs as [|e evs IH]; intros [|w W] Hl; try discriminate; [reflexivity|].
    cbn [combine map]. f_equal. apply IH. injection Hl as Hl. exact Hl. }
  unfold run_on in Hrun. rewrite map_map in Hrun. cbn beta iota in Hrun.
  destruct (run_wrote Hs Hsort Hrun) as (_ & evs0 & _ & _ & _ & Hev & _).
  destruct (clustered_of double false names sort cluster (or_introl eq_refl) Hcl records evs evs0 Hc Hev) as (Hw & Hd & H1).
  assert (Hsh : shaped false 1 (map ev_weights evs0)).
  { rewrite Hw. split; [lia|]. split; [auto|]. exact H1. }
  assert (E : map ev_weights (reweighted_all evs W) = written (map ev_weights evs0) W).
  { rewrite Hw. clear -Hl. unfold reweighted_all, written. revert W Hl. induction evs as [|e evs IH]; intros [|w W] Hl; try discriminate; [reflexivity|].
    cbn [combine map]. f_equal. apply IH. injection Hl as Hl. exact Hl. }
  rewrite E, <- Hw, <- Hd. eapply (run_total_no_unweight (mw := false)); eauto.
Qed.
Print Assumptions C63_total.

(** *** A run with four files: HepMC, normalisation, LHEF, STRIPPER XML *)
Definition m_norm : text := Eval vm_compute in ln "<?xml version=""1.0""?>" ++ ln "<Normalization name=""RR"">4</Normalization>".
Definition m_xml (t : text) : option (xml_tag ZN) :=
  match find (lit "<Eventrecord") t with
  | Some _ => Some (XEventrecord (lit "RR") 2 2)
  | None => match find (lit "<Normalization") t with Some _ => Some (XNormalization (lit "RR") (4%Z : ZN)) | None => None end
  end.
Definition m_record : text := Eval vm_compute in ln "<se w=""17"">" ++ ln "<p id=""1,21"">0,0,0,0</p>" ++ ln "<p id=""0,11""> 13,3,4,12</p></se>".
Definition m_stripper : text := Eval vm_compute in st_header ++ m_record ++ st_record2.
Definition m_inputs : list text := [ex_file; m_norm; lh_good; m_stripper].
(** The distance is the difference of the numbers of particle types. *)
Definition m_dist (a b : Event ZN) : ZN := Z.abs (Z.of_nat (length (ev_out a)) - Z.of_nat (length (ev_out b))).
Definition m_resample : list (Event ZN) -> option (list (Event ZN) + option read_error) :=
  lib_resample (N := ZN) false isort MostNegative (naive_nearest first_min) m_dist 2%Z.
Definition m_program : list text -> ending :=
  @cres_program ZN z_double z_show m_xml true false [] isort Some (fun l => rev l) m_resample lib_no_unweight 10.
Definition m_outs : list text := Eval vm_compute in match m_program m_inputs with Done o => o | _ => [] end.
Definition m_records : list event_record := Eval vm_compute in
  match @open_inputs ZN m_xml true m_inputs with
  | Ok (scaling, s) =>
      match @read_all ZN z_double z_show m_xml true scaling 10 s with
      | Some (l, _) => flat_map (fun r => match r with inl r => [r] | inr _ => [] end) l
      | None => []
      end
  | _ => []
  end.
Definition m_events : list (Event ZN) := Eval vm_compute in
  flat_map (fun r => match @try_convert ZN z_double false [] isort r with inl e => [e] | inr _ => [] end) m_records.
Definition m_weights : list (list ZN) := [[6]; [6]; [6]; [0]; [6]; [0]]%Z.

Lemma m_stops : stops_at_tag m_xml.
Proof.
  intros t rest name n m. unfold m_xml. destruct (find (lit "<Eventrecord") t) as [k|] eqn:E; [|destruct (find (lit "<Normalization") t); discriminate].
  intros ->. apply find_some in E. destruct E as (a & b & -> & _).
  destruct (find (lit "<Eventrecord") ((a ++ lit "<Eventrecord" ++ b) ++ rest)) eqn:E; [reflexivity|].
  apply find_none in E. exfalso. apply E. exists a, (b ++ rest). rewrite <- !app_assoc. reflexivity.
Qed.

Example C63_case :
  number_text ZN (fun _ => True) z_double z_show /\ stops_at_tag m_xml /\
  (exists tags, event_files m_xml m_inputs = Ok ([ex_file; lh_good; m_stripper], tags) /\ @extract_scaling ZN tags = [(lit "RR", 2%Z)] /\
   Forall (well_formed (N := ZN) (fun _ => True) z_double m_xml true (extract_scaling tags)) [ex_file; lh_good; m_stripper]) /\
  m_program m_inputs = Done m_outs /\
  run_on z_double false [] isort Some (fun l => rev l) m_resample lib_no_unweight (map inl m_records) = Wrote m_weights /\
  Forall (writable (N := ZN) (fun _ => True) [(lit "RR", 2%Z)]) m_weights /\
  map ev_weights m_events = [[5]; [-8]; [5]; [-6]; [34]; [-6]]%Z /\
  nth_error m_outs 2 = Some (st_header ++
    (ln "<se w=""3"">" ++ ln "<p id=""1,21"">0,0,0,0</p>" ++ ln "<p id=""0,11""> 13,3,4,12</p></se>") ++
    ln "<se  w=""0"">" ++ ln "<p id=""0,22""> 7,0,0,7</p></se></e></Eventrecord>").
Proof.
  split; [exact z_text|]. split; [exact m_stops|]. split.
  { exists [Normalization (lit "RR") (4%Z : ZN); Eventrecord (lit "RR") 2]. split; [vmr|]. split; [vmr|].
    constructor; [|constructor; [|constructor; [|constructor]]].
    - split; [vmr|]. replace (detect_event_file_format ex_file) with HepMC2 by (symmetry; vmr). apply ends_with_false. vmr.
    - split; [vmr|]. replace (detect_event_file_format lh_good) with Lhef by (symmetry; vmr). split; [apply C34_case|].
      intros h rs tail Hp. apply lhef_read_parts in Hp. destruct Hp as [_ Hp]. 
      replace (lhef_records (lhef_open lh_good)) with (Some [lh_record1'; lh_record2]) in Hp by (symmetry; apply C34_case).
      destruct (forallb utf8 rs); [|discriminate]. injection Hp as <-. apply C34_case.
    - split; [vmr|]. replace (detect_event_file_format m_stripper) with StripperXml by (symmetry; vmr).
      split; [exists st_header, (skipn 3 m_record ++ st_record2); vmr|]. split; [apply ends_with_false; vmr|].
      intros h rs Hp name n m. assert (Hq : stripper_parts m_stripper st_header [m_record; st_record2]).
      { split; [vmr|]. split; [discriminate|]. split.
        - apply find_none. vmr.
        - assert (Hf : forall r, find subevent_start (tl r) = None -> forall a b, r = a ++ subevent_start ++ b -> a = []).
          { intros r Hr a b ->. destruct a as [|c a]; [reflexivity|]. exfalso. apply find_none in Hr. apply Hr. exists a, b. reflexivity. }
          intros r [<-|[<-|[]]]; (split; [|apply Hf; vmr]); [exists (skipn 3 m_record)|exists (skipn 3 st_record2)]; vmr. }
      destruct (stripper_parts_unique _ _ _ _ _ Hp Hq) as [-> ->]. replace (m_xml st_header) with (Some (XEventrecord (N := ZN) (lit "RR") 2 2)) by (symmetry; vmr).
      intros H. injection H as <- <- <-. split; [intros _; cbn; lia|]. intros scale Hs.
      destruct C52_case as (_ & _ & _ & _ & _ & H & _). intros x [<-|[<-|[]]].
      + exists (firstn 7 m_record), (lit "17"), (skipn 9 m_record), 17%Z. split; [|split; [vmr|exact I]].
        split; [vmr|]. split; [exists [SP]; split; [vmr|]; split; [discriminate|repeat constructor]|]. split.
        * apply Forall_forall. intros c [<-|[<-|[]]]; apply number_charb_true; reflexivity.
        * exists (skipn 10 m_record). vmr.
      + destruct (H st_record2 (or_intror (or_introl eq_refl))) as (pre & num & post & v & H1 & H2). exists pre, num, post, v. auto. }
  split; [vmr|]. split; [vmr|]. split.
  { apply Forall_forall. intros ws H. assert (E : exists z, ws = [(2 * z)%Z]).
    { repeat (destruct H as [<-|H]; [first [exists 3%Z; reflexivity|exists 0%Z; reflexivity]|]). destruct H. }
    destruct E as [z ->]. right. exists (2 * z)%Z. split; [reflexivity|]. split; [exact I|].
    intros name scale [E|[]]. injection E as <- <-. split; [exact I|]. change (2 * (2 * z / 2) = 2 * z)%Z. rewrite (Z.mul_comm 2 z), Z.div_mul by lia. lia. }
  split; [reflexivity|]. vmr.
Qed.


(** *** Real numbers: three events, of which the last has no outgoing particles *)
Definition r_rec1 : text := Eval vm_compute in ln "E 1 2 3 4 5 6 7 8 9 10 0 1 5" ++ ln "P 1 11 3 4 12 13 0 1".
Definition r_rec2 : text := Eval vm_compute in ln "E 2 2 3 4 5 6 7 8 9 10 0 1 -1" ++ ln "P 1 11 3 4 12 13 0 1".
Definition r_rec3 : text := Eval vm_compute in ln "E 3 2 3 4 5 6 7 8 9 10 0 1 7" ++ ln "P 1 11 3 4 12 13 0 2".
Definition r_file : text := Eval vm_compute in ex_header ++ r_rec1 ++ r_rec2 ++ r_rec3.
Definition r_noxml : text -> option (xml_tag RN) := fun _ => None.
(** Each of two events is the neighbour of the other. *)
Definition r_algo : search_algo RN := fun _ dist _ i => Some [(1 - i, dist i (1 - i))].
Definition r_resample : list (Event RN) -> option (list (Event RN) + option read_error) :=
  lib_resample false isort MostNegative r_algo (fun _ _ => 1%R) 2%R.
Definition r_ids (l : list (Event RN + cres_error (Err := option read_error))) : list (Event RN + cres_error (Err := option read_error)) := l.
Definition r_program : list text -> ending :=
  cres_program r_double r_show r_noxml true false [] isort Some r_ids r_resample lib_no_unweight 10.
Definition r_records : list event_record := [HepMCRecord r_rec1; HepMCRecord r_rec2; HepMCRecord r_rec3].

Definition r_out : list (Z * list (FourVector RN)) := [(11%Z, [fv_from (N := RN) 13 3 4 12])]%R.

Lemma r_resampled o1 o2 : r_resample [mkEvent 0 [5%R : RN] o1; mkEvent 1 [(-1)%R : RN] o2] =
  Some (inl [mkEvent 0 [2%R : RN] o1; mkEvent 1 [2%R : RN] o2]).
Proof.
  assert (E1 : nltb (n := RN) 5%R 0%R = false) by (cbn; unfold Rltb; destruct (Rlt_dec 5 0); [lra|reflexivity]).
  assert (E2 : nltb (n := RN) (-1)%R 0%R = true) by (cbn; unfold Rltb; destruct (Rlt_dec (-1) 0); [reflexivity|lra]).
  assert (E3 : nleb (n := RN) 0%R (-1 + 5)%R = true) by (cbn; unfold Rleb; destruct (Rle_dec 0 (-1 + 5)); [reflexivity|lra]).
  unfold r_resample, lib_resample, resampler_resample, select_seeds. cbn [map omap central nth_error ev_weights length seq combine filter].
  change (n0 (n := RN)) with 0%R. rewrite E1, E2. cbn [map fst].
  assert (Er : resample_seeds (N := RN) false (r_algo 2 (dist_wrapper (fun _ _ => 1%R) [mkEvent 0 [5%R : RN] o1; mkEvent 1 [(-1)%R : RN] o2]) 2%R) [1] [[5%R]; [(-1)%R]]
    = Some ([[2]; [2]]%R, [mkCell [1; 0] 1%R (-1 + 5)%R])).
  { cbn [resample_seeds]. unfold seed_step, r_algo, cell_new. cbn. unfold Rleb. destruct (Rle_dec 0 (-1 + 5)); [|lra]. cbn.
    unfold Rltb. destruct (Rlt_dec 0 (-1)); [lra|]. replace ((0 + 5 + -1) / (1 + 1))%R with 2%R by field. reflexivity. }
  cbn. cbn in Er. rewrite Er. reflexivity.
Qed.
Lemma r_run : run_on r_double false [] isort Some r_ids r_resample lib_no_unweight (map inl r_records) = Wrote [[2]; [2]; [0]]%R.
Proof.
  unfold run_on, cres_run.
  set (ev := read_events _ _ _ _ _).
  assert (E : ev = inl [mkEvent 0 [5%R : RN] r_out; mkEvent 1 [(-1)%R : RN] r_out; mkEvent 2 [7%R : RN] []]) by reflexivity.
  rewrite E. cbn [filter ev_out r_out negb]. rewrite r_resampled. reflexivity.
Qed.
Lemma r_files show : exists s s', open_inputs r_noxml true [r_file] = Ok ([], s) /\
  read_all r_double show r_noxml true [] 10 s = Some (map inl r_records, s') /\
  forall a b c, exists s'', cio_update_all r_double show (header_info r_noxml) true false [] [] [[a]; [b]; [c]] s' = Ok (3, s'').
Proof.
  eexists. eexists. split; [lazy; reflexivity|]. split; [lazy; reflexivity|]. intros a b c. eexists. lazy. reflexivity.
Qed.
Example C63_total_case :
  number_text RN integer r_double r_show /\ stops_at_tag r_noxml /\ event_files r_noxml [r_file] = Ok ([r_file], []) /\
  well_formed integer r_double r_noxml true [] r_file /\
  (exists outs, r_program [r_file] = Done outs) /\
  run_on r_double false [] isort Some r_ids r_resample lib_no_unweight (map inl r_records) = Wrote [[2]; [2]; [0]]%R /\
  Forall (writable integer []) [[2]; [2]; [0]]%R.
Proof.
  split; [exact r_text|]. split; [intros t rest name n m; discriminate|]. split; [reflexivity|]. split.
  { split; [vmr|]. replace (detect_event_file_format r_file) with HepMC2 by (symmetry; vmr). apply ends_with_false. vmr. }
  split; [|split; [exact r_run|]].
  - destruct (r_files r_show) as (s & s' & H1 & H2 & H3). unfold r_program, cres_program. rewrite H1, H2, r_run.
    destruct (H3 2 2 0)%R as (s'' & H4). exists (c_outs s''). exact (f_equal (fun x => match x with Ok (_, s) => Done (c_outs s) | Err _ => Error | Panic => Crash end) H4).
  - assert (H : forall z, writable (N := RN) integer [] [IZR z]).
    { intros z. right. exists (IZR z). split; [reflexivity|]. split; [exists z; reflexivity|intros ? ? []]. }
    constructor; [apply H|]. constructor; [apply H|]. constructor; [apply H|constructor].
Qed.

(** *** Formats of files (C64) *)
Lemma ws_spec c : is_ascii_ws c = true <-> white_ascii c.
Proof.
  unfold is_ascii_ws, white_ascii, ceq, SP, TAB, NL, CR. rewrite !orb_true_iff, !Ascii.eqb_eq. cbn [In]. intuition (subst; tauto || congruence).
Qed.
Lemma white_not_start c : white_ascii c -> c <> "<"%char /\ c <> "r"%char.
Proof. intros H. cbn in H. split; intros ->; intuition discriminate. Qed.
Lemma trim_blanks s t : Forall white_ascii s -> trim_ascii_start (s ++ t) = trim_ascii_start t.
Proof.
  unfold trim_ascii_start. induction 1 as [|c s Hc _ IH]; [reflexivity|]. cbn [app span]. rewrite (proj2 (ws_spec c) Hc).
  destruct (span is_ascii_ws (s ++ t)). exact IH.
Qed.
Lemma trim_split t : exists s, t = s ++ trim_ascii_start t /\ Forall white_ascii s.
Proof.
  unfold trim_ascii_start. induction t as [|c t (s & E & H)]; [exists []; split; [reflexivity|constructor]|]. cbn [span].
  destruct (is_ascii_ws c) eqn:Ec; [|exists []; split; [reflexivity|constructor]].
  destruct (span is_ascii_ws t) as [u v]. cbn [snd] in *. exists (c :: s). split; [cbn; congruence|]. constructor; [apply ws_spec; exact Ec|exact H].
Qed.
Lemma after_blanks c start file : ~ white_ascii c ->
  begins_with_after_blanks (c :: start) file <-> starts_with (c :: start) (trim_ascii_start file) = true.
Proof.
  intros Hc. rewrite starts_begins. split.
  - intros (s & rest & -> & Hs). rewrite trim_blanks by exact Hs. exists rest. unfold trim_ascii_start. cbn [app span].
    destruct (is_ascii_ws c) eqn:E; [apply ws_spec in E; contradiction|reflexivity].
  - intros [rest H]. destruct (trim_split file) as (s & E & Hs). exists s, rest. rewrite <- H. auto.
Qed.

(** The format of a file is found from its first bytes. *)
Theorem C64_detected : forall file,
  (detect_event_file_format file = BlackHatNtuple <-> begins_with (list_ascii_of_string "root") file) /\
  (detect_event_file_format file = StripperXml <-> begins_with_after_blanks (list_ascii_of_string "<?xml") file) /\
  (detect_event_file_format file = Lhef <-> begins_with (list_ascii_of_string "<LesHouchesEvents") file) /\
  (detect_event_file_format file = HepMC2 <->
     ~ begins_with (list_ascii_of_string "root") file /\ ~ begins_with_after_blanks (list_ascii_of_string "<?xml") file /\
     ~ begins_with (list_ascii_of_string "<LesHouchesEvents") file).
Proof.
  intros file. pose proof (after_blanks "<"%char (lit "?xml") file ltac:(intros H; destruct (white_not_start _ H); congruence)) as Hx.
  change ("<"%char :: lit "?xml") with (lit "<?xml") in Hx.
  pose proof (starts_begins (lit "root") file) as Hr. pose proof (starts_begins (lit "<LesHouchesEvents") file) as Hl.
  change (list_ascii_of_string "root") with (lit "root"). change (list_ascii_of_string "<?xml") with (lit "<?xml").
  change (list_ascii_of_string "<LesHouchesEvents") with (lit "<LesHouchesEvents").
  assert (D1 : begins_with (lit "root") file -> ~ begins_with_after_blanks (lit "<?xml") file /\ ~ begins_with (lit "<LesHouchesEvents") file).
  { intros [r ->]. split; [|intros [r2 H]; discriminate]. intros (s & r2 & H & Hs). destruct s as [|c s]; [discriminate|]. injection H as <- _.
    inversion Hs as [|? ? Hc _]. subst. destruct (white_not_start _ Hc). congruence. }
  assert (D2 : begins_with (lit "<LesHouchesEvents") file -> ~ begins_with_after_blanks (lit "<?xml") file).
  { intros [r ->] (s & r2 & H & Hs). destruct s as [|c s]; [discriminate|]. injection H as <- _.
    inversion Hs as [|? ? Hc _]. subst. destruct (white_not_start _ Hc). congruence. }
  rewrite Hx, <- Hr, <- Hl in *. unfold detect_event_file_format.
  destruct (starts_with (lit "root") file), (starts_with (lit "<?xml") (trim_ascii_start file)), (starts_with (lit "<LesHouchesEvents") file); intuition discriminate.
Qed.
Print Assumptions C64_detected.

(** A Les Houches event file is an XML document, and may begin with an XML declaration or with
    white space.  Such files are not recognised. *)
Theorem C64_lhef_refuted : exists declaration file,
  begins_with (list_ascii_of_string "<?xml") declaration /\ detect_event_file_format file = Lhef /\
  (exists records, lhef_records (lhef_open file) = Some records /\ length records = 2) /\
  detect_event_file_format (declaration ++ file) = StripperXml /\
  detect_event_file_format (newline :: file) = HepMC2.
Proof.
  exists (ln "<?xml version=""1.0""?>"), lh_good. split; [eexists; reflexivity|]. split; [vmr|].
  split; [exists [lh_record1'; lh_record2]; split; [apply C34_case|reflexivity]|]. split; vmr.
Qed.
Print Assumptions C64_lhef_refuted.
Example C64_case : map detect_event_file_format [ex_file; lh_good; SP :: st_file; lit "root"] = [HepMC2; Lhef; StripperXml; BlackHatNtuple].
Proof. vmr. Qed.
