(** C70 with the feature "multiweight" *)
From Verif Require Import Base BaseProofs Num ModelEvent ModelText SpecText SpecFormats SpecHepMC TextProofs ModelHepMC ModelLHEF ModelStripper ModelIO
  TextExamples PropsHepMC PropsFormats ModelCres SpecCres CresProofs ModelNaive ModelSeeds ModelCell ModelResampler SpecSearch NaiveProofs RunProofs2 ModelMain SpecMain PropsMain
  SpecPanic PanicProofs PanicProofs2 PropsPanic.
From Coq Require Import Lia.

(** With this feature, but no weights selected by name, every event has one weight; HepMC events
    without weights have to be excluded as well.  (Not covered: weights selected by name.) *)
Theorem C70_program_multi_partial : forall (N : NumOps) (D kind : N -> Prop) double show xml checks sort cluster shuffle resample unweighter inputs fuel,
  number_text N D double show -> (forall t w r, double t = Some (w, r) -> kind w) -> reorders shuffle -> sort_ok sort ->
  (forall e : Event N, exists e', cluster e = Some e' /\ ev_weights e' = ev_weights e) ->
  total_step kind resample -> total_step (fun _ => True) unweighter ->
  Forall (readable checks) inputs -> ~ has_bad_record double show xml checks inputs ->
  ~ (exists scaling s fuel l s' t, open_inputs xml checks inputs = Ok (scaling, s) /\
      read_all double show xml checks scaling fuel s = Some (l, s') /\ In (inl (HepMCRecord t)) l /\ hepmc_without_weights t) ->
  length (concat inputs) < fuel ->
  cres_program double show xml checks true [] sort cluster shuffle resample unweighter fuel inputs <> Crash.
Proof.
  intros N D kind double show xml checks sort cluster shuffle resample unweighter inputs fuel HT Hk Hs Hsort Hcl Hr Hu Hread Hbad Hno Hfuel.
  apply (program_np N D double show xml checks true [] sort HT (or_intror eq_refl) kind cluster shuffle resample unweighter Hs Hsort Hcl Hr Hu inputs fuel Hk Hread Hfuel).
  intros scaling s l s' Ho Hra r Hin Hc. unfold try_convert in Hc. destruct r as [t|t|t].
  - destruct (parse_hepmc double true sort [] t) eqn:E; try discriminate. apply (hepmc_panic N D double show sort HT) in E.
    apply Hno. exists scaling, s, fuel, l, s', t. auto.
  - apply Hbad. exists scaling, s, fuel, l, s', (LHEFRecord t). split; [exact Ho|]. split; [exact Hra|]. split; [exact Hin|]. cbn [bad_record].
    destruct (parse_lhef double true sort t) eqn:E; try discriminate. apply (lhef_panic N double sort) in E. exact E.
  - apply Hbad. exists scaling, s, fuel, l, s', (StripperXmlRecord t). split; [exact Ho|]. split; [exact Hra|]. split; [exact Hin|]. cbn [bad_record].
    destruct (parse_stripper_xml double true sort t) eqn:E; try discriminate. exact (stripper_panic N D double show sort HT _ _ E).
Qed.
Print Assumptions C70_program_multi_partial.

(** The files of C70_case *)
Definition p_multi_resample : list (Event ZN) -> option (list (Event ZN) + option read_error) :=
  lib_resample true isort MostNegative (naive_nearest first_min) (fun _ _ => 1%Z : ZN) (10%Z : ZN).
Example C70_multi_case :
  Forall (readable true) [ex_file; lh_good] /\ ~ has_bad_record (N := ZN) z_double z_show m_xml true [ex_file; lh_good] /\
  ~ (exists scaling s fuel l s' t, @open_inputs ZN m_xml true [ex_file; lh_good] = Ok (scaling, s) /\
      read_all z_double z_show m_xml true scaling fuel s = Some (l, s') /\ In (inl (HepMCRecord t)) l /\ hepmc_without_weights t) /\
  total_step (fun _ => True) p_multi_resample /\
  @cres_program ZN z_double z_show m_xml true true [] isort Some (fun l => rev l) p_multi_resample lib_no_unweight 2000 [ex_file; lh_good] <> Crash.
Proof.
  assert (H1 : Forall (readable true) [ex_file; lh_good]).
  { assert (X : forall f, utf8 f = true -> match detect_event_file_format f with StripperXml => false | _ => true end = true -> readable true f).
    { intros f Hu Hd. split; [exact Hu|]. right. intros E. rewrite E in Hd. discriminate. }
    apply Forall_cons; [apply X; vmr|]. apply Forall_cons; [apply X; vmr|]. apply Forall_nil. }
  assert (H2 : ~ has_bad_record (N := ZN) z_double z_show m_xml true [ex_file; lh_good]) by apply C70_case.
  assert (H3 : ~ (exists scaling s fuel l s' t, @open_inputs ZN m_xml true [ex_file; lh_good] = Ok (scaling, s) /\
      read_all z_double z_show m_xml true scaling fuel s = Some (l, s') /\ In (inl (HepMCRecord t)) l /\ hepmc_without_weights t)).
  { intros (scaling & s & k & l & s' & t & Ho & Hr & Hin & Hb).
    assert (E1 : @open_inputs ZN m_xml true [ex_file; lh_good] = Ok ([], p_start)) by vmr.
    assert (E2 : @read_all ZN z_double z_show m_xml true [] 10 p_start = Some (map inl [HepMCRecord ex_record1; HepMCRecord ex_record2; LHEFRecord lh_record1'; LHEFRecord lh_record2], p_end)) by vmr.
    rewrite Ho in E1. injection E1 as -> ->.
    pose proof (read_fun _ _ _ _ _ _ _ _ _ _ Hr E2) as Eq. apply (f_equal fst) in Eq. cbn [fst] in Eq. subst l.
    apply (C70_hepmc_multi ZN (fun _ => True) z_double z_show isort [] _ z_text) in Hb.
    cbn [map] in Hin. destruct Hin as [H|[H|[H|[H|[]]]]]; [injection H as <-; revert Hb|injection H as <-; revert Hb|discriminate H|discriminate H].
    - assert (E : match @parse_hepmc ZN z_double true isort [] ex_record1 with Panic => false | _ => true end = true) by vmr. intros Hb. rewrite Hb in E. discriminate.
    - assert (E : match @parse_hepmc ZN z_double true isort [] ex_record2 with Panic => false | _ => true end = true) by vmr. intros Hb. rewrite Hb in E. discriminate. }
  assert (H4 : total_step (fun _ => True) p_multi_resample).
  { apply lib_resample_total; [exact isort_ok|exact zn_order|]. intros evs.
    apply (@RunProofs2.naive_valid ZN (fun _ => True)); auto using zn_order. exact NaiveProofs.first_min_ok. }
  split; [exact H1|]. split; [exact H2|]. split; [exact H3|]. split; [exact H4|].
  apply (C70_program_multi_partial ZN (fun _ => True) (fun _ => True) z_double z_show m_xml true isort Some (fun l => rev l) p_multi_resample lib_no_unweight); auto.
  - exact z_text.
  - intros l. apply Permutation_rev.
  - exact isort_ok.
  - intros e. exists e. auto.
  - apply lib_no_unweight_total.
  - apply Nat.ltb_lt. vmr.
Qed.
