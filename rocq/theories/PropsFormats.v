(** Properties C33-C35 and C52: reading and rewriting LHEF and STRIPPER XML files. *)
From Coq Require Import Reals Lia Permutation Lra.
From Verif Require Import Base BaseProofs Num ModelEvent ModelText SpecText SpecFormats SpecHepMC TextProofs ReaderProofs ParserProofs
  ModelHepMC ModelLHEF ModelStripper FormatProofs FileProofs FileProofs2 FileProofs3 SpecScaling ScalingProofs TextExamples PropsHepMC.

(** *** LHEF (C34) *)
(** Header, records and what is never read are the file. *)
Theorem C34_lossless : forall file,
  occurs init_end file -> utf8 file = true ->
  exists records tail, lhef_records (lhef_open file) = Some records /\
    lhef_parts file (rd_header (lhef_open file)) records tail.
Proof.
  intros file Ho Hu. destruct (lhef_records_spec file Ho) as (records & tail & Hp & Hr). exists records, tail. split; [|exact Hp].
  rewrite Hr. replace (forallb utf8 records) with true; [reflexivity|]. symmetry. destruct Hp as (Hfile & [[a Ha] _] & Hrec & _).
  rewrite Hfile, Ha in Hu. destruct init_end_last as [m' Hm]. change init_end with lhef_init_end in Hu. rewrite Hm in Hu.
  rewrite <- !app_assoc in Hu. cbn [app] in Hu. rewrite app_assoc in Hu. rewrite utf8_cut_after in Hu by reflexivity.
  apply andb_true_iff in Hu as [_ Hu]. rewrite utf8_concat_after in Hu.
  - apply andb_true_iff in Hu as [Hu _]. exact Hu.
  - intros r Hr'. destruct (Hrec r Hr') as [[b ->] _]. destruct event_end_last as [n Hn]. change event_end with lhef_event_end. rewrite Hn.
    exists (b ++ n). rewrite app_assoc. reflexivity.
Qed.
Print Assumptions C34_lossless.
Theorem C34_unique : forall file h1 r1 t1 h2 r2 t2,
  lhef_parts file h1 r1 t1 -> lhef_parts file h2 r2 t2 -> h1 = h2 /\ r1 = r2 /\ t1 = t2.
Proof. exact lhef_parts_unique. Qed.
Print Assumptions C34_unique.

(** Rewriting the weight of a record changes nothing else (of several blanks in front of the
    weight one remains), and the new weight can be read. *)
Theorem C34_record : forall (N : NumOps) (D : N -> Prop) double show sort mw record ev w,
  number_text N D double show ->
  parse_lhef double mw sort record = Ok ev -> D w ->
  exists record', lhef_update show mw [w] record = Ok record' /\
    entry_replaced lhef_before_weight (show w) record record' /\
    parse_lhef double mw sort record' = Ok (mkEvent (ev_id ev) [w] (ev_out ev)).
Proof. intros N D double show sort mw record ev w HT. apply lhef_rewrite_one. exact HT. Qed.
Print Assumptions C34_record.

(** Whole files, if each </event> is on its own line *)
Theorem C34_file : forall (N : NumOps) (D : N -> Prop) double show sort mw file ws records,
  number_text N D double show ->
  occurs init_end file -> lhef_records (lhef_open file) = Some records -> length ws = length records -> Forall D ws ->
  (forall r, In r records -> finishes_with (newline :: event_end) r) ->
  (forall r, In r records -> exists ev, parse_lhef double mw sort r = Ok ev) ->
  exists file' records', lhef_rewrite show mw (map (fun w => [w]) ws) file = Ok (file', length records) /\
    file' = rd_header (lhef_open file) ++ concat records' ++ (newline :: lit "</LesHouchesEvents>" ++ [newline]) /\
    rd_header (lhef_open file') = rd_header (lhef_open file) /\
    lhef_records (lhef_open file') = Some records' /\ length records' = length records /\
    forall i w r r', nth_error ws i = Some w -> nth_error records i = Some r -> nth_error records' i = Some r' ->
      entry_replaced lhef_before_weight (show w) r r' /\
      exists ev, parse_lhef double mw sort r = Ok ev /\ parse_lhef double mw sort r' = Ok (mkEvent (ev_id ev) [w] (ev_out ev)).
Proof. intros N D double show sort mw file ws records HT. apply (lhef_file N D double show sort HT). Qed.
Print Assumptions C34_file.

Definition lh_header : text := Eval vm_compute in ln "<LesHouchesEvents version=""3.0"">" ++ ln "<init>" ++ ln "2212 2212 1 1" ++ lit "</init>".
Definition lh_record1 : text := Eval vm_compute in [NL] ++ ln "<event>" ++ ln " 3 1   5 0 0 0" ++ ln " 21 -1 0 0 0 0 0 0 7 7 0" ++
  ln "11 1 0 0 0 0 3 4 12 13 0" ++ ln "# comment" ++ lit "</event>".
Definition lh_record2 : text := Eval vm_compute in [NL] ++ ln "<event>" ++ ln " 2 1 -6 0 0 0" ++ ln " 22 1 0 0 0 0 0 0 7 7 0" ++
  ln "11 1 0 0 0 0 3 4 12 13 0" ++ lit "</event>".
Definition lh_tail : text := Eval vm_compute in [NL] ++ ln "</LesHouchesEvents>".
Definition lh_file : text := Eval vm_compute in lh_header ++ lh_record1 ++ lh_record2 ++ lh_tail.
Definition lh_ev1 : Event ZN := Eval vm_compute in
  match parse_lhef (N:=ZN) z_double false isort lh_record2 with Ok ev => ev | _ => mkEvent 0 [] [] end.
Definition lh_file' : text := Eval vm_compute in lh_header ++ 
  ([NL] ++ ln "<event>" ++ ln " 3 1 100 0 0 0" ++ ln " 21 -1 0 0 0 0 0 0 7 7 0" ++ ln "11 1 0 0 0 0 3 4 12 13 0" ++ ln "# comment" ++ lit "</event>") ++
  ([NL] ++ ln "<event>" ++ ln " 2 1 7 0 0 0" ++ ln " 22 1 0 0 0 0 0 0 7 7 0" ++ ln "11 1 0 0 0 0 3 4 12 13 0" ++ lit "</event>") ++ lh_tail.
(** A line that is not a particle: reading fails.  Without it everything works. *)
Definition lh_record1' : text := Eval vm_compute in [NL] ++ ln "<event>" ++ ln " 2 1   5 0 0 0" ++ ln " 21 -1 0 0 0 0 0 0 7 7 0" ++
  ln "11 1 0 0 0 0 3 4 12 13 0" ++ ln "# comment" ++ lit "</event>".
Definition lh_good : text := Eval vm_compute in lh_header ++ lh_record1' ++ lh_record2 ++ lh_tail.
Example C34_case : occurs init_end lh_good /\ utf8 lh_good = true /\ rd_header (lhef_open lh_good) = lh_header /\
  lhef_records (lhef_open lh_good) = Some [lh_record1'; lh_record2] /\
  (forall r, In r [lh_record1'; lh_record2] -> finishes_with (newline :: event_end) r) /\
  (forall r, In r [lh_record1'; lh_record2] -> exists ev, parse_lhef (N:=ZN) z_double false isort r = Ok ev) /\
  parse_lhef (N:=ZN) z_double false isort lh_record2 = Ok lh_ev1 /\ map fst (ev_out lh_ev1) = [22; 11]%Z /\ ev_weights lh_ev1 = [-6]%Z /\
  parse_lhef (N:=ZN) z_double false isort lh_record1 = Err (ParseEntry "IDUP entry").
Proof.
  split; [exists (firstn (length lh_header - 8) lh_header), (skipn (length lh_header) lh_good); vmr|].
  split; [vmr|]. split; [vmr|]. split; [vmr|]. split; [|split; [|split; [vmr|split; [reflexivity|split; [reflexivity|vmr]]]]].
  - intros r [<-|[<-|[]]]; [exists (firstn (length lh_record1' - 9) lh_record1')|exists (firstn (length lh_record2 - 9) lh_record2)]; vmr.
  - intros r [<-|[<-|[]]].
    + let r := eval vm_compute in (parse_lhef (N:=ZN) z_double false isort lh_record1') in match r with Ok ?a => exists a end. vmr.
    + let r := eval vm_compute in (parse_lhef (N:=ZN) z_double false isort lh_record2) in match r with Ok ?a => exists a end. vmr.
Qed.
Example C34_file_case : lhef_rewrite (N:=ZN) z_show false [[100]; [7]]%Z lh_file = Ok (lh_file', 2).
Proof. vmr. Qed.

(** Outside of the hypotheses: fewer than two particles, and a record without a line break, panic
    (when reading and when writing); if the end tag directly follows the weight, it is lost. *)
Definition lh_one : text := Eval vm_compute in [NL] ++ ln "<event>" ++ ln " 1 1 5 0 0 0" ++ ln "11 1 0 0 0 0 3 4 12 13 0" ++ lit "</event>".
Definition lh_glued : text := Eval vm_compute in ln "<event>" ++ lit " 2 1 5</event>".
Definition lh_glued' : text := Eval vm_compute in ln "<event>" ++ lit " 2 1 7".
Theorem C34_edge_cases_refuted :
  parse_lhef (N:=ZN) z_double false isort lh_one = Panic /\
  lhef_update (N:=ZN) z_show false [7%Z] event_end = Panic /\
  (exists ev, parse_lhef (N:=ZN) z_double false isort lh_glued = Ok ev) /\
  lhef_update (N:=ZN) z_show false [7%Z] lh_glued = Ok lh_glued'.
Proof.
  split; [vmr|]. split; [vmr|]. split; [|vmr].
  let r := eval vm_compute in (parse_lhef (N:=ZN) z_double false isort lh_glued) in match r with Ok ?a => exists a end. vmr.
Qed.
Print Assumptions C34_edge_cases_refuted.
(** More weights than events: the footer is not written. *)
Theorem C34_footer_refuted : forall (N : NumOps) show mw file records (ws : list (list N)),
  lhef_records (lhef_open file) = Some records -> length records < length ws -> Forall (fun w => w = []) ws ->
  lhef_rewrite show mw ws file = Ok (rd_header (lhef_open file) ++ concat records, length records).
Proof.
  intros N show mw file records ws H Hl Hw. rewrite (lhef_rewrite_list N show mw ws file records H).
  replace (update_list (lhef_update show mw) ws records) with (Ok records : res (list text)).
  - cbn [bind]. replace (length ws <=? length records) with false by (symmetry; apply Nat.leb_gt; exact Hl). rewrite app_nil_r. reflexivity.
  - symmetry. clear H. revert records Hl. induction Hw as [|w ws -> Hw IH]; intros records Hl; [cbn in Hl; lia|].
    destruct records as [|r records]; [reflexivity|]. cbn [update_list]. unfold lhef_update at 1. cbn [weights_is_empty bind].
    rewrite IH by (cbn in Hl; lia). reflexivity.
Qed.
Print Assumptions C34_footer_refuted.

(** *** STRIPPER XML (C52) *)
Theorem C52_lossless : forall checks n file r,
  stripper_open checks n file = Some r -> occurs subevent_start file -> ~ finishes_with subevent_start file ->
  exists records, stripper_parts file (sr_header r) records /\
    (forallb utf8 records = true -> (checks = true -> N.of_nat (length records) <= n)%N ->
      exists e, stripper_records checks r = Some (records, e)) /\
    (forall l e, stripper_records checks r = Some (l, e) -> l = records).
Proof.
  intros checks n file r Ho Hocc Hend. destruct (stripper_parts_exist checks n file r Ho Hocc Hend) as (rs & H1 & H2 & H3).
  exists rs. split; [exact H1|]. split; [exact H2|]. intros l e H. apply (H3 l e H).
Qed.
Print Assumptions C52_lossless.
Theorem C52_unique : forall file h1 r1 h2 r2, stripper_parts file h1 r1 -> stripper_parts file h2 r2 -> h1 = h2 /\ r1 = r2.
Proof. exact stripper_parts_unique. Qed.
Print Assumptions C52_unique.

(** Events are read with their weights multiplied by the scale factor and written with weights
    divided by it.  A whole file: only the numbers are changed, and reading the new file gives
    the new weights and the same particles. *)
Theorem C52_file : forall (N : NumOps) (D : N -> Prop) double show sort checks mw scale n file r records e ws,
  number_text N D double show ->
  stripper_open checks n file = Some r -> occurs subevent_start file -> ~ finishes_with subevent_start file ->
  stripper_records checks r = Some (records, e) -> (checks = true -> N.of_nat (length records) <= n)%N ->
  length ws = length records ->
  (forall w, In w ws -> D w /\ D (ndiv w scale) /\ nmul scale (ndiv w scale) = w) ->
  (forall x, In x records -> exists pre num post v, stripper_weight x pre num post /\ double num = Some (v, []) /\ D (nmul scale v)) ->
  let read record := bind (rescale_weight double show scale record) (parse_stripper_xml double mw sort) in
  (forall x, In x records -> exists ev, read x = Ok ev) ->
  exists file' records' r', stripper_update_all double show checks mw scale (map (fun w => [w]) ws) r = Ok (file', length records) /\
    stripper_open checks n file' = Some r' /\ sr_header r' = sr_header r /\
    (exists e', stripper_records checks r' = Some (records', e')) /\ length records' = length records /\
    forall i w x x', nth_error ws i = Some w -> nth_error records i = Some x -> nth_error records' i = Some x' ->
      (exists pre num post, stripper_weight x pre num post /\ x' = pre ++ show (ndiv w scale) ++ post) /\
      exists ev, read x = Ok ev /\ read x' = Ok (mkEvent (ev_id ev) [w] (ev_out ev)).
Proof. intros N D double show sort checks mw scale n file r records e ws HT. apply (stripper_file N D double show sort HT). Qed.
Print Assumptions C52_file.
(** In exact arithmetic the condition on the weights always holds, in floating point it does not:
    a weight of 1 with the scale factor 49 is read back as another number. *)
Theorem C52_exact_scale : forall scale w : RN, scale <> 0%R -> nmul (n:=RN) scale (ndiv w scale) = w.
Proof. intros scale w H. cbn in *. field. exact H. Qed.
Print Assumptions C52_exact_scale.
Definition b64_49 : B64 := Eval vm_compute in nofnat 49.
Definition b64_1 : B64 := Eval vm_compute in nofnat 1.
Theorem C52_binary64_refuted : nltb (nmul b64_49 (ndiv b64_1 b64_49)) b64_1 = true.
Proof. vmr. Qed.
Print Assumptions C52_binary64_refuted.

(** One event: the weight that is read is the scaled one. *)
Theorem C52_weight_read : forall (N : NumOps) (D : N -> Prop) double show sort mw scale record pre num post v ev,
  number_text N D double show ->
  stripper_weight record pre num post -> double num = Some (v, []) -> D (nmul scale v) ->
  bind (rescale_weight double show scale record) (parse_stripper_xml double mw sort) = Ok ev -> ev_weights ev = [nmul scale v].
Proof.
  intros N D double show sort mw scale record pre num post v ev HT Hsw Hd HD H.
  unfold rescale_weight in H. rewrite (stripper_replace N D double show HT record pre num post v _ Hsw Hd) in H. cbn [bind] in H.
  destruct Hsw as (_ & Hpre & _ & Hpost).
  pose proof (nt_round _ _ _ _ HT _ HD) as Hr.
  pose proof (stripper_read_back N D double show sort HT mw pre _ _ post _ _ ev Hpre Hpost Hr Hr H) as H2. rewrite H in H2. injection H2 as H2. rewrite H2. reflexivity.
Qed.
Print Assumptions C52_weight_read.

(** Scale factors: for every name that occurs, the last normalisation (-1 if there is none)
    divided by the total number of events; one factor for each name. *)
Theorem C52_scaling : forall (N : NumOps) (tags : list (stripper_tag N)),
  NoDup (map fst (extract_scaling tags)) /\
  forall name x, In (name, x) (extract_scaling tags) <->
    mentioned name tags /\ x = ndiv (last (norms name tags) (nsub n0 n1)) (nofnat (total name tags)).
Proof. exact extract_scaling_spec. Qed.
Print Assumptions C52_scaling.
Theorem C52_scaling_any_order : forall (N : NumOps) (tags tags' : list (stripper_tag N)),
  Permutation tags tags' -> (forall name, length (norms name tags) <= 1) ->
  forall name x, In (name, x) (extract_scaling tags) <-> In (name, x) (extract_scaling tags').
Proof. exact scaling_perm. Qed.
Print Assumptions C52_scaling_any_order.
(** If the normalisation of a channel is missing, no error is reported: all its weights change
    sign. *)
Theorem C52_missing_normalisation_refuted : exists (tags : list (stripper_tag RN)) name x,
  extract_scaling tags = [(name, x)] /\ norms name tags = [] /\ total name tags = 1 /\ (x < 0)%R.
Proof.
  exists [Eventrecord (lit "RR") 1], (lit "RR"), (ndiv (n:=RN) (nsub (n:=RN) n0 n1) (nofnat (n:=RN) 1)).
  split; [reflexivity|]. split; [reflexivity|]. split; [reflexivity|]. cbn. lra.
Qed.
Print Assumptions C52_missing_normalisation_refuted.

Definition st_header : text := Eval vm_compute in ln "<?xml version=""1.0""?>" ++ ln "<Eventrecord nevents=""2"" nsubevents=""2"" name=""RR"">" ++ ln "<e>".
Definition st_record1 : text := Eval vm_compute in ln "<se w=""5"">" ++ ln "<p id=""1,21"">0,0,0,0</p>" ++ ln "<p id=""0,11""> 13,3,4,12</p></se>" .
Definition st_record2 : text := Eval vm_compute in ln "<se  w=""-3"">" ++ ln "<p id=""0,22""> 7,0,0,7</p></se></e></Eventrecord>".
Definition st_file : text := Eval vm_compute in st_header ++ st_record1 ++ st_record2.
Definition st_reader : sreader := Eval vm_compute in
  match stripper_open true 2 st_file with Some r => r | None => mkSReader [] [] 0 [] end.
Definition st_end : sreader := Eval vm_compute in
  match stripper_records true st_reader with Some (_, e) => e | None => st_reader end.
Definition st_file' : text := Eval vm_compute in st_header ++
  (ln "<se w=""9"">" ++ ln "<p id=""1,21"">0,0,0,0</p>" ++ ln "<p id=""0,11""> 13,3,4,12</p></se>") ++
  ln "<se  w=""0"">" ++ ln "<p id=""0,22""> 7,0,0,7</p></se></e></Eventrecord>".
Definition st_ev1 : Event ZN := Eval vm_compute in
  match bind (rescale_weight (N:=ZN) z_double z_show 2%Z st_record1) (parse_stripper_xml z_double false isort) with Ok ev => ev | _ => mkEvent 0 [] [] end.
Example C52_case : stripper_open true 2 st_file = Some st_reader /\ occurs subevent_start st_file /\ ~ finishes_with subevent_start st_file /\
  stripper_records true st_reader = Some ([st_record1; st_record2], st_end) /\ sr_header st_reader = st_header /\
  (forall x, In x [st_record1; st_record2] -> exists pre num post v, stripper_weight x pre num post /\ z_double num = Some (v, [])) /\
  bind (rescale_weight (N:=ZN) z_double z_show 2%Z st_record1) (parse_stripper_xml z_double false isort) = Ok st_ev1 /\
  ev_weights st_ev1 = [10%Z] /\ map fst (ev_out st_ev1) = [11%Z] /\
  stripper_update_all (N:=ZN) z_double z_show true false 2%Z [[18]; [0]]%Z st_reader = Ok (st_file', 2).
Proof.
  split; [vmr|]. split; [exists st_header, (skipn 3 st_record1 ++ st_record2); vmr|]. split; [apply ends_with_false; vmr|].
  split; [vmr|]. split; [reflexivity|]. split; [|split; [vmr|split; [reflexivity|split; [reflexivity|vmr]]]].
  intros x [<-|[<-|[]]].
  - exists (firstn 7 st_record1), (lit "5"), (skipn 8 st_record1), 5%Z. split; [|vmr].
    split; [vmr|]. split; [exists [SP]; split; [vmr|]; split; [discriminate|repeat constructor]|]. split.
    + apply Forall_forall. intros c [<-|[]]; apply number_charb_true; reflexivity.
    + exists (skipn 9 st_record1). vmr.
  - exists (firstn 8 st_record2), (lit "-3"), (skipn 10 st_record2), (-3)%Z. split; [|vmr].
    split; [vmr|]. split; [exists [SP; SP]; split; [vmr|]; split; [discriminate|repeat constructor]|]. split.
    + apply Forall_forall. intros c [<-|[<-|[]]]; apply number_charb_true; reflexivity.
    + exists (skipn 11 st_record2). vmr.
Qed.

(** *** Rewinding (C35) *)
Inductive history (next : reader -> option (option text * reader)) (rewind : reader -> reader) : reader -> reader -> Prop :=
| h_start r : history next rewind r r
| h_next r record r1 r2 : next r = Some (record, r1) -> history next rewind r1 r2 -> history next rewind r r2
| h_rewind r r2 : history next rewind (rewind r) r2 -> history next rewind r r2.
Theorem C35_hepmc : forall file r, history hepmc_next hepmc_rewind (hepmc_open file) r -> hepmc_rewind r = hepmc_open file.
Proof.
  intros file r H. assert (Hf : rd_file r = file /\ rd_header r = rd_header (hepmc_open file)).
  { remember (hepmc_open file) as r0 eqn:E0. assert (Hf0 : rd_file r0 = file /\ rd_header r0 = rd_header (hepmc_open file)).
    { subst r0. unfold hepmc_open. destruct (hepmc_init file). auto. }
    clear E0. revert Hf0. induction H as [|r x r1 r2 Hn Hr IH|r r2 Hr IH]; intros Hf0; [intuition congruence| |].
    - destruct (hepmc_next_file _ _ _ Hn). destruct IH as [H1 H2]; [intuition congruence|]. intuition congruence.
    - destruct IH as [H1 H2]; [unfold hepmc_rewind; destruct (hepmc_init (rd_file r)); exact Hf0|].
      assert (E : rd_header (hepmc_rewind r) = rd_header r) by (unfold hepmc_rewind; destruct (hepmc_init (rd_file r)); reflexivity). intuition congruence. }
  destruct Hf as [Hf Hh]. unfold hepmc_rewind, hepmc_open in *. rewrite Hf. destruct (hepmc_init file). rewrite Hh. reflexivity.
Qed.
Print Assumptions C35_hepmc.
Theorem C35_lhef : forall file r, history lhef_next lhef_rewind (lhef_open file) r -> lhef_rewind r = lhef_open file.
Proof.
  intros file r H. assert (Hf : rd_file r = file /\ rd_header r = rd_header (lhef_open file)).
  { remember (lhef_open file) as r0 eqn:E0. assert (Hf0 : rd_file r0 = file /\ rd_header r0 = rd_header (lhef_open file)).
    { subst r0. unfold lhef_open. destruct (lhef_init file). auto. }
    clear E0. revert Hf0. induction H as [|r x r1 r2 Hn Hr IH|r r2 Hr IH]; intros Hf0; [intuition congruence| |].
    - destruct (lhef_next_file _ _ _ Hn). destruct IH as [H1 H2]; [intuition congruence|]. intuition congruence.
    - destruct IH as [H1 H2]; [unfold lhef_rewind; destruct (lhef_init (rd_file r)); exact Hf0|].
      assert (E : rd_header (lhef_rewind r) = rd_header r) by (unfold lhef_rewind; destruct (lhef_init (rd_file r)); reflexivity). intuition congruence. }
  destruct Hf as [Hf Hh]. unfold lhef_rewind, lhef_open in *. rewrite Hf. destruct (lhef_init file). rewrite Hh. reflexivity.
Qed.
Print Assumptions C35_lhef.
Example C35_case : exists r, history hepmc_next hepmc_rewind (hepmc_open ex_file) r /\ rd_source r = [] /\ hepmc_rewind r = hepmc_open ex_file.
Proof.
  destruct (hepmc_next (hepmc_open ex_file)) as [[x1 r1]|] eqn:E1; [|exfalso; revert E1; vm_compute; discriminate].
  destruct (hepmc_next r1) as [[x2 r2]|] eqn:E2; [|exfalso; revert E1 E2; vm_compute; intros H; injection H as _ <-; vm_compute; discriminate].
  assert (H : history hepmc_next hepmc_rewind (hepmc_open ex_file) r2).
  { eapply h_next; [exact E1|]. eapply h_next; [exact E2|]. apply h_start. }
  exists r2. split; [exact H|]. split; [|apply C35_hepmc; exact H].
  revert E2. vm_compute in E1. injection E1 as _ <-. vm_compute. intros E2. injection E2 as _ <-. reflexivity.
Qed.

(** A STRIPPER XML reader starts again from the first event, but keeps counting down the number
    of remaining events.  In release builds the same records are delivered. *)
Theorem C35_stripper_partial : forall checks n file r r',
  stripper_open checks n file = Some r -> stripper_reach checks r r' ->
  stripper_rewind checks r' = stripper_open checks (sr_rem r') file.
Proof. exact stripper_rewind_open. Qed.
Print Assumptions C35_stripper_partial.
Theorem C35_stripper_release : forall n file r r' r'' records e,
  stripper_open false n file = Some r -> occurs subevent_start file -> ~ finishes_with subevent_start file ->
  stripper_reach false r r' -> stripper_rewind false r' = Some r'' -> stripper_records false r = Some (records, e) ->
  exists e', stripper_records false r'' = Some (records, e').
Proof.
  intros n file r r' r'' records e Ho Hocc Hend Hr Hrw Hrec.
  destruct (stripper_parts_exist false n file r Ho Hocc Hend) as (rs & Hp & _ & Honly). destruct (Honly _ _ Hrec) as [-> Hu].
  rewrite (stripper_rewind_open false n file r r' Ho Hr) in Hrw.
  destruct (stripper_read_parts false (sr_rem r') file _ rs Hp Hend) as (r2 & Ho2 & _ & _ & _ & Hok & _). rewrite Hrw in Ho2. injection Ho2 as <-.
  apply Hok; [exact Hu|discriminate].
Qed.
Print Assumptions C35_stripper_release.
(** In debug builds, however, after reading all events of a file with the correct number of
    events, reading again after a rewind always panics, and so does updating the weights. *)
Theorem C35_stripper_refuted : forall n file r records e,
  stripper_open true n file = Some r -> occurs subevent_start file -> ~ finishes_with subevent_start file ->
  stripper_records true r = Some (records, e) -> n = N.of_nat (length records) ->
  exists e', stripper_rewind true e = Some e' /\ stripper_records true e' = None /\
    forall (N : NumOps) double show mw scale (w : list N) ws, stripper_update_all double show true mw scale (w :: ws) e = Panic.
Proof.
  intros n file r records e Ho Hocc Hend Hrec Hn.
  destruct (stripper_parts_exist true n file r Ho Hocc Hend) as (rs & Hp & _ & Honly). destruct (Honly _ _ Hrec) as [-> Hu].
  assert (Hrem : sr_rem r = n) by (unfold stripper_open in Ho; destruct (stripper_init true file) as [[h s]|]; [injection Ho as <-; reflexivity|discriminate]).
  destruct (stripper_rest_count true _ r rs e Hrec) as [He Hr]; [lia|].
  assert (He0 : sr_rem e = 0%N) by lia.
  destruct (stripper_read_parts true (sr_rem e) file _ rs Hp Hend) as (r2 & Ho2 & Hh2 & _ & Hrem2 & _ & Honly2).
  pose proof (stripper_rewind_open true n file r e Ho Hr) as Hrw. rewrite Ho2 in Hrw.
  exists r2. split; [exact Hrw|].
  assert (Hnone : stripper_records true r2 = None).
  { destruct (stripper_records true r2) as [[l e2]|] eqn:E; [|reflexivity]. exfalso.
    assert (l = []) by (eapply stripper_no_rem; [|exact E]; congruence). subst l. destruct (Honly2 _ _ eq_refl) as [<- _]. destruct Hp as (_ & Hne & _). apply Hne; reflexivity. }
  split; [exact Hnone|]. intros N double show mw scale w ws. unfold stripper_update_all. rewrite Hrw. cbn [stripper_update_loop].
  destruct (stripper_read_raw_spec true r2) as [[Hs Hraw]|(rec & rest & Hcase & Hb & Ho1 & Hraw)]; rewrite Hraw.
  - exfalso. unfold stripper_records in Hnone. cbn [stripper_rest] in Hnone. rewrite Hraw in Hnone. discriminate.
  - destruct (utf8 rec) eqn:Eu.
    + unfold usize_pred. rewrite Hrem2, He0. reflexivity.
    + exfalso.
      assert (Hu1 : exists l, stripper_records true r = Some l /\ fst l = rs) by (rewrite Hrec; eauto).
      unfold stripper_open in Ho, Ho2. destruct (stripper_init true file) as [[h s]|]; [|discriminate]. injection Ho as <-. injection Ho2 as <-.
      unfold stripper_records in Hrec. cbn [stripper_rest sr_source] in Hrec.
      destruct (stripper_read_raw_spec true (mkSReader file s n h)) as [[Hs2 Hraw2]|(rec2 & rest2 & Hcase2 & Hb2 & Ho12 & Hraw2)]; rewrite Hraw2 in Hrec.
      * injection Hrec as Hrs _. destruct Hp as (_ & Hne & _). apply Hne. symmetry. exact Hrs.
      * cbn [sr_source] in Hcase, Hcase2.
        assert (E : rec = rec2).
        { unfold stripper_read_raw in Hraw, Hraw2. cbn [sr_source sr_file sr_header sr_rem] in Hraw, Hraw2.
          assert (Hpieces : forall x rx, (x = se s /\ rx = [] /\ s <> [] \/ se s = x ++ se rx) -> exists X, se s = x ++ X /\ at_start X).
          { intros x rx [(-> & -> & _)|H]; [exists []; rewrite app_nil_r; split; [reflexivity|left; reflexivity]|].
            exists (se rx). split; [exact H|]. right. exists rx. reflexivity. }
          destruct (Hpieces _ _ Hcase) as (X & HX & HXs). destruct (Hpieces _ _ Hcase2) as (X2 & HX2 & HXs2).
          destruct (piece_unique rec rec2 X X2) as [E _]; auto.
          - left. destruct Hb2 as [b ->]. discriminate.
          - left. destruct Hb as [b ->]. discriminate.
          - rewrite <- HX. exact HX2. }
        subst rec2. rewrite Eu in Hrec. discriminate.
Qed.
Print Assumptions C35_stripper_refuted.

(** *** Empty weights (C33) *)
Theorem C33_record : forall (N : NumOps) double show mw names scale record,
  hepmc_update show mw names (@nil N) record = Ok record /\ lhef_update show mw (@nil N) record = Ok record /\
  stripper_update double show mw scale (@nil N) record = Ok record.
Proof. intros. repeat split. Qed.
Print Assumptions C33_record.
Lemma update_list_same {A} (f : list A -> text -> res text) : (forall r, f [] r = Ok r) ->
  forall records, update_list f (repeat [] (length records)) records = Ok records.
Proof. intros Hf. induction records as [|r records IH]; [reflexivity|]. cbn [length repeat update_list]. rewrite Hf. cbn [bind]. rewrite IH. reflexivity. Qed.
(** Whole files *)
Theorem C33_hepmc_file : forall (N : NumOps) show mw names file records,
  occurs event_line file -> ~ finishes_with event_line file -> hepmc_records (hepmc_open file) = Some records ->
  hepmc_rewrite show mw names (repeat (@nil N) (length records)) file = Ok (file, length records).
Proof.
  intros N show mw names file records Hocc Hend H. rewrite (hepmc_rewrite_list N show mw names _ file records H).
  rewrite update_list_same by reflexivity. cbn [bind]. destruct (C31_any_bytes file records Hocc Hend H) as [Hf _]. rewrite <- Hf. reflexivity.
Qed.
Print Assumptions C33_hepmc_file.
Theorem C33_lhef_file : forall (N : NumOps) show mw file records,
  occurs init_end file -> lhef_records (lhef_open file) = Some records ->
  exists tail, lhef_parts file (rd_header (lhef_open file)) records tail /\
    lhef_rewrite show mw (repeat (@nil N) (length records)) file =
      Ok (rd_header (lhef_open file) ++ concat records ++ (newline :: lit "</LesHouchesEvents>" ++ [newline]), length records).
Proof.
  intros N show mw file records Hocc H. destruct (lhef_records_spec file Hocc) as (rs & tail & Hp & Hr). rewrite H in Hr.
  destruct (forallb utf8 rs); [|discriminate]. injection Hr as ->. exists tail. split; [exact Hp|].
  rewrite (lhef_rewrite_list N show mw _ file rs H). rewrite update_list_same by reflexivity. cbn [bind]. rewrite repeat_length, Nat.leb_refl. reflexivity.
Qed.
Print Assumptions C33_lhef_file.
Theorem C33_stripper_file : forall (N : NumOps) double show checks mw scale n file r records e,
  stripper_open checks n file = Some r -> occurs subevent_start file -> ~ finishes_with subevent_start file ->
  stripper_records checks r = Some (records, e) ->
  stripper_update_all double show checks mw scale (repeat (@nil N) (length records)) r = Ok (file, length records).
Proof.
  intros N double show checks mw scale n file r records e Ho Hocc Hend H.
  destruct (stripper_parts_exist checks n file r Ho Hocc Hend) as (rs & (Hf & _) & _ & Honly). destruct (Honly _ _ H) as [-> _].
  rewrite (stripper_update_all_list N double show checks mw scale _ n file r rs e Ho H). rewrite update_list_same by reflexivity. cbn [bind].
  rewrite <- Hf. reflexivity.
Qed.
Print Assumptions C33_stripper_file.
Example C33_case : hepmc_rewrite (N:=ZN) z_show true [lit "up"] [[]; []] ex_file = Ok (ex_file, 2) /\
  lhef_rewrite (N:=ZN) z_show true [[]; []] lh_file = Ok (lh_file, 2) /\
  stripper_update_all (N:=ZN) z_double z_show true true 2%Z [[]; []] st_reader = Ok (st_file, 2).
Proof. split; [vmr|]. split; vmr. Qed.
