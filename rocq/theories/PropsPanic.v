(** Properties C70 and C71: panics and success. *)
From Verif Require Import Base BaseProofs Num ModelEvent ModelText SpecText SpecFormats SpecHepMC TextProofs ModelHepMC ModelLHEF ModelStripper ModelIO
  TextExamples PropsHepMC PropsFormats ModelCres SpecCres CresProofs ModelNaive ModelSeeds ModelCell ModelResampler SpecSearch NaiveProofs RunProofs2 ModelMain SpecMain PropsMain
  SpecPanic PanicProofs PanicProofs2.
From Coq Require Import Lia.

(** *** Records *)
(** Without the feature "multiweight", no HepMC record makes the parser panic: the result is an
    event or an error. *)
Theorem C70_hepmc : forall (N : NumOps) (D : N -> Prop) double show sort names record,
  number_text N D double show -> @parse_hepmc N double false sort names record <> Panic.
Proof. intros N D double show sort names record HT. apply (hepmc_np N D double show sort HT). Qed.
Print Assumptions C70_hepmc.

(** With it, exactly the records without weights do. *)
Theorem C70_hepmc_multi : forall (N : NumOps) (D : N -> Prop) double show sort names record,
  number_text N D double show -> (@parse_hepmc N double true sort names record = Panic <-> hepmc_without_weights record).
Proof. intros N D double show sort names record HT. apply (hepmc_panic N D double show sort HT). Qed.
Print Assumptions C70_hepmc_multi.

(** LHEF: exactly the records with fewer than two particles do. *)
Theorem C70_lhef : forall (N : NumOps) double sort mw record,
  @parse_lhef N double mw sort record = Panic <-> lhef_too_few record.
Proof. intros N double sort mw record. apply lhef_panic. Qed.
Print Assumptions C70_lhef.

(** STRIPPER XML: only records that are cut after a tag, or where such a tag is followed by a
    byte that is not ASCII. *)
Theorem C70_stripper : forall (N : NumOps) (D : N -> Prop) double show sort mw record,
  number_text N D double show -> @parse_stripper_xml N double mw sort record = Panic -> stripper_cut record.
Proof. intros N D double show sort mw record HT. apply (stripper_panic N D double show sort HT). Qed.
Print Assumptions C70_stripper.

(** *** The program *)
(** The full property: whatever the input files, the program does not panic. *)
Definition no_panic {N : NumOps} double show xml checks mw names sort cluster shuffle resample unweighter : Prop :=
  forall inputs fuel, length (concat inputs) < fuel -> @cres_program N double show xml checks mw names sort cluster shuffle resample unweighter fuel inputs <> Crash.

(** It does not hold: files that are not UTF-8, LHEF events with one particle, truncated STRIPPER
    files, and HepMC events without weights (feature "multiweight"). *)
Definition p_utf8 : text := Eval vm_compute in ex_header ++ ex_record1 ++ ln "E 2" ++ ["255"%char; NL] ++ ex_record2.
Definition p_one : text := Eval vm_compute in lh_header ++ [NL] ++ ln "<event>" ++ ln " 1 1 5 0 0 0" ++ ln " 22 1 0 0 0 0 0 0 7 7 0" ++ lit "</event>" ++ lh_tail.
Definition p_cut : text := Eval vm_compute in st_header ++ ln "<se w=""5"">" ++ lit "<p id=""0,11"">".
Definition p_none : text := Eval vm_compute in ex_header ++ ln "E 1 2 3 4 5 6 7 8 9 10 0 0" ++ ln "V 1".
Definition p_program (checks mw : bool) (fuel : nat) : list text -> ending :=
  @cres_program ZN z_double z_show m_xml checks mw [] isort Some (fun l => rev l) m_resample lib_no_unweight fuel.

Theorem C70_program_refuted :
  let crash checks mw inputs := length (concat inputs) < 500 /\ p_program checks mw 500 inputs = Crash in
  (forall checks, crash checks false [p_utf8] /\ crash checks false [p_one] /\ crash checks false [m_norm; p_cut] /\ crash checks true [p_none]) /\
  forall checks mw, ~ no_panic (N := ZN) z_double z_show m_xml checks mw [] isort Some (fun l => rev l) m_resample lib_no_unweight.
Proof.
  intros crash. assert (H : forall checks mw inputs, Nat.ltb (length (concat inputs)) 500 = true -> p_program checks mw 500 inputs = Crash -> crash checks mw inputs).
  { intros checks mw inputs H1 H2. split; [apply Nat.ltb_lt; exact H1|exact H2]. }
  split.
  - intros [|]; repeat split; try (apply Nat.ltb_lt; vmr); vmr.
  - intros checks mw Hn. assert (H1 : crash checks mw [p_one]) by (destruct checks, mw; (apply H; [vmr|vmr])).
    destruct H1 as [H1 H2]. exact (Hn _ _ H1 H2).
Qed.
Print Assumptions C70_program_refuted.

(** What does hold: one weight per event; if all files are valid UTF-8 and no record has too
    few particles or is cut, the program ends with output files or an error. *)
Theorem C70_program_partial : forall (N : NumOps) (D kind : N -> Prop) double show xml checks names sort cluster shuffle resample unweighter inputs fuel,
  number_text N D double show -> (forall t w r, double t = Some (w, r) -> kind w) -> reorders shuffle -> sort_ok sort ->
  (forall e : Event N, exists e', cluster e = Some e' /\ ev_weights e' = ev_weights e) ->
  total_step kind resample -> total_step (fun _ => True) unweighter ->
  Forall (readable checks) inputs -> ~ has_bad_record double show xml checks inputs -> length (concat inputs) < fuel ->
  cres_program double show xml checks false names sort cluster shuffle resample unweighter fuel inputs <> Crash.
Proof.
  intros N D kind double show xml checks names sort cluster shuffle resample unweighter inputs fuel HT Hk Hs Hsort Hcl Hr Hu Hread Hbad Hfuel.
  apply (program_np N D double show xml checks false names sort HT (or_introl eq_refl) kind cluster shuffle resample unweighter Hs Hsort Hcl Hr Hu inputs fuel Hk Hread Hfuel).
  intros scaling s l s' Ho Hra r Hin Hc. apply Hbad. exists scaling, s, fuel, l, s', r. split; [exact Ho|]. split; [exact Hra|]. split; [exact Hin|].
  unfold try_convert in Hc. destruct r as [t|t|t]; cbn [bad_record].
  - destruct (parse_hepmc double false sort names t) eqn:E; try discriminate. exact (hepmc_np N D double show sort HT _ _ E).
  - destruct (parse_lhef double false sort t) eqn:E; try discriminate. apply (lhef_panic N double sort) in E. exact E.
  - destruct (parse_stripper_xml double false sort t) eqn:E; try discriminate. exact (stripper_panic N D double show sort HT _ _ E).
Qed.
Print Assumptions C70_program_partial.

(** In particular: HepMC files in UTF-8, whatever they contain, with the resampler and the
    unweighter of the library. *)
Theorem C70_program_hepmc : forall (N : NumOps) (D kind : N -> Prop) double show xml checks names sort cluster shuffle sort' strategy (algo : search_algo N) dist max psum m draws inputs fuel,
  number_text N D double show -> (forall t w r, double t = Some (w, r) -> kind w) -> reorders shuffle -> sort_ok sort ->
  (forall e : Event N, exists e', cluster e = Some e' /\ ev_weights e' = ev_weights e) ->
  sort_ok sort' -> order_on N kind -> (forall evs, valid_search (length evs) (algo (length evs) (dist_wrapper dist evs) max)) ->
  neqb m n0 = true \/ nltb n0 m = true ->
  Forall (fun file => utf8 file = true /\ detect_event_file_format file = HepMC2) inputs -> length (concat inputs) < fuel ->
  cres_program double show xml checks false names sort cluster shuffle
    (lib_resample false sort' strategy algo dist max) (lib_unweight psum m draws) fuel inputs <> Crash.
Proof.
  intros N D kind double show xml checks names sort cluster shuffle sort' strategy algo dist max psum m draws inputs fuel
    HT Hk Hs Hsort Hcl Hsort' Hord Hv Hm Hin Hfuel.
  eapply (C70_program_partial N D kind); try eassumption.
  - apply lib_resample_total; assumption.
  - apply lib_unweight_total. exact Hm.
  - eapply Forall_impl; [|exact Hin]. intros file [H1 H2]. split; [exact H1|]. right. rewrite H2. discriminate.
  - intros (scaling & s & k & l & s' & r & Ho & Hr & Hi & Hb). destruct (hepmc_records_only N double show xml checks inputs scaling s k l s' r) as [t ->]; try assumption.
    eapply Forall_impl; [|exact Hin]. intros file [_ H]. exact H.
Qed.
Print Assumptions C70_program_hepmc.

(** *** Success *)
(** If all files can be read and their records converted, the program writes the output: no
    error and no panic.  (Here and below: without the feature "multiweight", or with it but
    without named weights.) *)
Theorem C71_success : forall (N : NumOps) (D kind : N -> Prop) double show xml checks mw names sort cluster shuffle resample unweighter inputs evs fuel,
  number_text N D double show -> mw = false \/ names = [] -> Forall (fun e => Forall kind (ev_weights e)) evs -> reorders shuffle -> sort_ok sort ->
  (forall e : Event N, exists e', cluster e = Some e' /\ ev_weights e' = ev_weights e /\ ev_id e' = ev_id e) ->
  total_step kind resample -> total_step (fun _ => True) unweighter ->
  reads double show xml checks mw names sort inputs evs -> length evs < fuel ->
  exists outs, cres_program double show xml checks mw names sort cluster shuffle resample unweighter fuel inputs = Done outs.
Proof.
  intros N D kind double show xml checks mw names sort cluster shuffle resample unweighter inputs evs fuel HT Hm Hk Hs Hsort Hcl Hr Hu Hread Hfuel.
  apply (program_reads N D double show xml checks mw names sort HT Hm kind cluster shuffle resample unweighter Hs Hsort) with (evs := evs); try assumption.
  - intros e. destruct (Hcl e) as (e' & E & Hw & _). eauto.
  - intros e e' E. destruct (Hcl e) as (e2 & E2 & _ & Hi). congruence.
Qed.
Print Assumptions C71_success.

(** Conversely it succeeds only then. *)
Theorem C71_only : forall (N : NumOps) double show xml checks mw names sort cluster shuffle resample unweighter inputs fuel outs,
  reorders shuffle -> sort_ok sort ->
  @cres_program N double show xml checks mw names sort cluster shuffle resample unweighter fuel inputs = Done outs ->
  exists evs, reads double show xml checks mw names sort inputs evs.
Proof.
  intros N double show xml checks mw names sort cluster shuffle resample unweighter inputs fuel outs Hs Hsort H.
  unfold cres_program in H. destruct (open_inputs xml checks inputs) as [[scaling s]| |] eqn:Ho; try discriminate.
  destruct (read_all double show xml checks scaling fuel s) as [[l s']|] eqn:Hr; [|discriminate].
  destruct (run_on double mw names sort cluster shuffle resample unweighter l) as [|e|W] eqn:Hrun; [discriminate|exfalso; destruct e as [[?|]|[?|]|[?|]|[?|]|[?|]|?]; cbn in H; discriminate|].
  unfold run_on in Hrun. destruct (run_wrote Hs Hsort Hrun) as (_ & evs0 & _ & _ & _ & [Hl Hev] & _). rewrite map_length in Hl.
  assert (Hall : Forall (fun r => exists x ev, r = inl x /\ try_convert double mw names sort x = inl ev) l).
  { apply Forall_forall. intros r Hin. destruct (In_nth_error _ _ Hin) as [n Hn].
    destruct (nth_error evs0 n) as [e|] eqn:En; [|apply nth_error_None in En; assert (n < length l) by (apply nth_error_Some; congruence); lia].
    destruct (Hev n (match r with inl r => inl r | inr e => inr (Some e) end) e) as (rec & ev & ev' & H1 & H2 & _); [rewrite nth_error_map, Hn; reflexivity|exact En|].
    destruct r as [r|r]; [|discriminate]. injection H1 as ->. eauto. }
  assert (Hevs : exists evs, Forall2 (fun r ev => exists x, r = inl x /\ try_convert double mw names sort x = inl ev) l evs).
  { clear -Hall. induction Hall as [|r l (x & ev & H1 & H2) _ (evs & IH)]; [exists []; constructor|]. exists (ev :: evs). constructor; eauto. }
  destruct Hevs as [evs Hevs]. exists evs, scaling, s, fuel, l, s'. auto.
Qed.
Print Assumptions C71_only.

Lemma kind_true (N : NumOps) (evs : list (Event N)) : Forall (fun e => Forall (fun _ => True) (ev_weights e)) evs.
Proof. apply Forall_forall. intros e _. apply Forall_forall. auto. Qed.
Lemma read_fun {N : NumOps} double show xml checks scaling (s : cio N) k k2 a b : read_all double show xml checks scaling k s = Some a ->
  read_all double show xml checks scaling k2 s = Some b -> a = b.
Proof.
  intros Hr Hr2. apply (MainProofs2.read_all_mono N double show xml checks) with (fuel' := k + k2) in Hr; [|lia].
  apply (MainProofs2.read_all_mono N double show xml checks) with (fuel' := k + k2) in Hr2; [|lia]. congruence.
Qed.
Lemma reads_fun {N : NumOps} double show xml checks mw names sort inputs evs evs' : @reads N double show xml checks mw names sort inputs evs ->
  reads double show xml checks mw names sort inputs evs' -> evs = evs'.
Proof.
  intros (sc & s & k & l & s' & Ho & Hr & HF) (sc2 & s2 & k2 & l2 & s2' & Ho2 & Hr2 & HF2). rewrite Ho in Ho2. injection Ho2 as <- <-.
  apply (MainProofs2.read_all_mono N double show xml checks) with (fuel' := k + k2) in Hr; [|lia].
  apply (MainProofs2.read_all_mono N double show xml checks) with (fuel' := k + k2) in Hr2; [|lia]. rewrite Hr in Hr2. injection Hr2 as <- <-.
  clear -HF HF2. revert evs' HF2. induction HF as [|r ev l evs (x & -> & H) _ IH]; intros evs' HF2; inversion HF2 as [|? ev' ? evs2 (x' & Ex & H') HF3]; subst; [reflexivity|].
  injection Ex as <-. f_equal; [congruence|]. apply IH. exact HF3.
Qed.

(** Together with C63: for well-formed files the program succeeds, and reading the output gives
    the same events with the weights computed by the run. *)
Theorem C71_total_correctness : forall (N : NumOps) (D kind : N -> Prop) double show xml checks mw names sort cluster shuffle resample unweighter
    inputs files tags evs fuel,
  number_text N D double show -> mw = false \/ names = [] -> Forall (fun e => Forall kind (ev_weights e)) evs -> stops_at_tag xml -> reorders shuffle -> sort_ok sort ->
  (forall e : Event N, exists e', cluster e = Some e' /\ ev_weights e' = ev_weights e /\ ev_id e' = ev_id e) ->
  total_step kind resample -> total_step (fun _ => True) unweighter ->
  event_files xml inputs = Ok (files, tags) ->
  Forall (well_formed D double xml checks (extract_scaling tags)) files ->
  reads double show xml checks mw names sort inputs evs -> length evs < fuel ->
  exists outs W,
    cres_program double show xml checks mw names sort cluster shuffle resample unweighter fuel inputs = Done outs /\
    length outs = length files /\ length W = length evs /\
    (exists records, Forall2 (fun r ev => try_convert double mw names sort r = inl ev) records evs /\
       run_on double mw names sort cluster shuffle resample unweighter (map inl records) = Wrote W) /\
    (Forall (writable D (extract_scaling tags)) W ->
     reads double show xml checks mw names sort (replace_events xml inputs outs) (reweighted_all evs W)).
Proof.
  intros N D kind double show xml checks mw names sort cluster shuffle resample unweighter inputs files tags evs fuel
    HT Hm Hk Hx Hs Hsort Hcl Hr Hu He Hwf Hread Hfuel.
  destruct (C71_success N D kind double show xml checks mw names sort cluster shuffle resample unweighter inputs evs fuel) as [outs Hp]; try assumption.
  destruct (C63_round_trip N D double show xml checks mw names sort cluster shuffle resample unweighter fuel inputs files tags outs HT Hm Hx Hs Hsort He Hwf Hp)
    as (Hlo & records & evs2 & W & _ & Hc & Hrun & HlW & Hread2 & HW).
  assert (evs2 = evs) as -> by (eapply reads_fun; eassumption). exists outs, W. split; [exact Hp|]. split; [exact Hlo|]. split; [exact HlW|]. split; [eauto|exact HW].
Qed.
Print Assumptions C71_total_correctness.

(** *** Cases *)
Lemma zn_order : order_on ZN (fun _ => True).
Proof.
  repeat split; cbn; intros.
  - rewrite !Z.leb_le. lia.
  - rewrite !Z.leb_le in *. lia.
  - destruct (Z.leb y x) eqn:E; cbn; [apply Z.leb_le in E; apply Z.ltb_ge; exact E|apply Z.leb_gt in E; apply Z.ltb_lt; exact E].
Qed.
Lemma m_resample_total : total_step (fun _ => True) m_resample.
Proof.
  apply lib_resample_total; [exact isort_ok|exact zn_order|]. intros evs.
  apply (@RunProofs2.naive_valid ZN (fun _ => True)); auto using zn_order. exact NaiveProofs.first_min_ok.
Qed.

(** A HepMC file whose second event is broken: an error. *)
Definition p_broken : text := Eval vm_compute in ex_header ++ ex_record1 ++ ln "E 2 2 3 4 5 6 7 8 9 10 x 0" ++ ["195"%char; "164"%char; NL].
Definition p_error : list text := [ex_file; p_broken].
Definition p_start : cio ZN := Eval vm_compute in match @open_inputs ZN m_xml true [ex_file; lh_good] with Ok (_, s) => s | _ => mkCIO [] None 0 0 (0%N, None) [] end.
Definition p_end : cio ZN := Eval vm_compute in match @read_all ZN z_double z_show m_xml true [] 10 p_start with Some (_, s) => s | _ => mkCIO [] None 0 0 (0%N, None) [] end.
Example C70_case :
  Forall (fun file => utf8 file = true /\ detect_event_file_format file = HepMC2) p_error /\ length (concat p_error) < 600 /\
  (forall checks, @cres_program ZN z_double z_show m_xml checks false [] isort Some (fun l => rev l) m_resample (lib_unweight (@nsum ZN) 3%Z (fun _ => 1%Z)) 600 p_error = Error) /\
  total_step (fun _ => True) m_resample /\ order_on ZN (fun _ => True) /\ (nltb n0 (3%Z : ZN) = true) /\
  ~ has_bad_record (N := ZN) z_double z_show m_xml true [ex_file; lh_good] /\
  hepmc_without_weights (skipn (length ex_header) p_none) /\
  lhef_too_few (lit "<event>" ++ [NL] ++ lit " 1 1 5 0 0 0") /\
  @parse_stripper_xml ZN z_double false isort (ln "<se w=""5"">" ++ lit "<p id=""0,11"">") = Panic.
Proof.
  split; [repeat constructor; vmr|]. split; [apply Nat.ltb_lt; vmr|]. split; [intros [|]; vmr|]. split; [exact m_resample_total|]. split; [exact zn_order|]. split; [reflexivity|]. split.
  { intros (scaling & s & k & l & s' & r & Ho & Hr & Hin & Hb).
    assert (E1 : @open_inputs ZN m_xml true [ex_file; lh_good] = Ok ([], p_start)) by vmr.
    assert (E2 : @read_all ZN z_double z_show m_xml true [] 10 p_start = Some (map inl [HepMCRecord ex_record1; HepMCRecord ex_record2; LHEFRecord lh_record1'; LHEFRecord lh_record2], p_end)) by vmr.
    rewrite Ho in E1. injection E1 as -> ->.
  pose proof (read_fun _ _ _ _ _ _ _ _ _ _ Hr E2) as Eq. apply (f_equal fst) in Eq. cbn [fst] in Eq. subst l.
    cbn [map] in Hin. destruct Hin as [H|[H|[H|[H|[]]]]]; injection H as <-; cbn [bad_record] in Hb; try contradiction;
      apply (C70_lhef ZN z_double isort false) in Hb; revert Hb; [replace (parse_lhef _ _ _ lh_record1') with (@parse_lhef ZN z_double false isort lh_record1') by reflexivity|];
      destruct C34_case as (_ & _ & _ & _ & _ & Hg & _); [destruct (Hg lh_record1' (or_introl eq_refl)) as [ev ->]|destruct (Hg lh_record2 (or_intror (or_introl eq_refl))) as [ev ->]]; discriminate. }
  split; [apply (C70_hepmc_multi ZN (fun _ => True) z_double z_show isort [] _ z_text); vmr|].
  split; [apply (C70_lhef ZN z_double isort false); vmr|]. vmr.
Qed.

(** The run with four files of C63 *)
Definition m_start : cio ZN := Eval vm_compute in match @open_inputs ZN m_xml true m_inputs with Ok (_, s) => s | _ => mkCIO [] None 0 0 (0%N, None) [] end.
Definition m_end : cio ZN := Eval vm_compute in match @read_all ZN z_double z_show m_xml true [(lit "RR", 2%Z)] 10 m_start with Some (_, s) => s | _ => mkCIO [] None 0 0 (0%N, None) [] end.
Example C71_case :
  number_text ZN (fun _ => True) z_double z_show /\ stops_at_tag m_xml /\ total_step (fun _ => True) m_resample /\
  total_step (N := ZN) (Err := option read_error) (fun _ => True) lib_no_unweight /\
  reads z_double z_show m_xml true false [] isort m_inputs m_events /\ length m_events = 6 /\ m_program m_inputs = Done m_outs.
Proof.
  destruct C63_case as (H1 & H2 & (tags & H3 & H4 & H5) & H6 & _). split; [exact H1|]. split; [exact H2|]. split; [exact m_resample_total|].
  split; [apply lib_no_unweight_total|]. split; [|split; [reflexivity|exact H6]].
  exists [(lit "RR", 2%Z)], m_start, 10, (map inl m_records), m_end. split; [vmr|]. split; [vmr|].
  assert (Hm : Forall2 (fun r ev => @try_convert ZN z_double false [] isort r = inl ev) m_records m_events) by (repeat constructor; vmr).
  clear -Hm. induction Hm as [|r ev rs evs H _ IH]; cbn [map]; constructor; eauto.
Qed.
