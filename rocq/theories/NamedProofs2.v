(** Proofs about named weights, 2: files of HepMC records, and the program on such files. *)
From Coq Require Import Reals Lra.
From Verif Require Import Base BaseProofs Num ModelEvent ModelText SpecText SpecFormats SpecHepMC TextProofs ReaderProofs ParserProofs
  ModelHepMC HepMCProofs HepMCProofs2 HepMCProofs3 ModelLHEF ModelStripper FormatProofs ModelIO SpecIO FileProofs FileProofs2 FileProofs3 IOProofs
  PropsHepMC PropsFormats ModelCres SpecCres CresProofs ModelMain SpecMain MainProofs MainProofs2 PanicProofs2 SpecNamed.
From Coq Require Import Lia.

(** the new record can take the place of the old one *)
Definition fits (r r' : text) : Prop := utf8 r' = true /\ ~ occurs event_mark r' /\ begins_with ["E"%char] r' /\ 2 <= length r' /\
  (finishes_with [NL] r -> finishes_with [NL] r').
Lemma removelast_no_occurs m file : ~ occurs m file -> m <> [] -> ~ occurs m (removelast file).
Proof.
  intros Hno Hm (a & b & H). apply Hno. destruct file as [|c file].
  - cbn in H. destruct a; [|discriminate]. destruct m; [congruence|discriminate].
  - pose proof (app_removelast_last c (l := c :: file) ltac:(discriminate)) as E. exists a, (b ++ [last (c :: file) c]). rewrite E at 1. rewrite H, <- !app_assoc. reflexivity.
Qed.
Lemma hepmc_file_records file records : ~ finishes_with event_mark file -> hepmc_records (hepmc_open file) = Some records ->
  Forall (fun r => utf8 r = true /\ ~ occurs event_mark r /\ begins_with ["E"%char] r) records.
Proof.
  intros Hend Hrec. destruct (find event_mark file) as [p|] eqn:E.
  - assert (Hocc : occurs event_mark file) by (apply find_some in E; destruct E as (a & b & E & _); exists a, b; exact E).
    destruct (hepmc_records_spec file Hocc Hend) as (rs & (_ & _ & _ & _ & Hb & _) & Hrs). rewrite Hrec in Hrs.
    destruct (forallb utf8 rs) eqn:Hu; [|discriminate]. injection Hrs as ->. rewrite forallb_forall in Hu.
    apply Forall_forall. intros r Hr. destruct (Hb r Hr). auto.
  - apply find_none in E. destruct (C31_no_event file E) as [Hr _]. rewrite Hr in Hrec. injection Hrec as <-. constructor.
Qed.
Lemma hepmc_fits file rs l : ~ finishes_with event_mark file -> detect_event_file_format file = HepMC2 ->
  hepmc_records (hepmc_open file) = Some rs -> Forall2 fits rs l ->
  let file' := rd_header (hepmc_open file) ++ concat l in
  detect_event_file_format file' = HepMC2 /\ hepmc_records (hepmc_open file') = Some l.
Proof.
  intros Hend Hdet Hrec Hall. cbv zeta.
  destruct (find event_mark file) as [p|] eqn:Ef.
  2:{ apply find_none in Ef. destruct (C31_no_event file Ef) as [Hr Hh]. rewrite Hr in Hrec. injection Hrec as <-. inversion Hall; subst.
    cbn [concat]. rewrite app_nil_r, Hh. split.
    - destruct file as [|c file]; [reflexivity|]. pose proof (app_removelast_last c (l := c :: file) ltac:(discriminate)) as E. rewrite E in Hdet.
      eapply detect_shorter. exact Hdet.
    - apply C31_no_event. apply removelast_no_occurs; [exact Ef|discriminate]. }
  assert (Hocc : occurs event_mark file) by (apply find_some in Ef; destruct Ef as (a & b & E & _); exists a, b; exact E).
  destruct (hepmc_records_spec file Hocc Hend) as (rs0 & Hparts & Hrs). rewrite Hrec in Hrs.
  destruct (forallb utf8 rs0) eqn:Hu; [|discriminate]. injection Hrs as <-. clear Hu.
  destruct Hparts as (Hfile & Hne & Hoh & Hfh & Hb & Hlast). set (file' := rd_header (hepmc_open file) ++ concat l).
  pose proof (Forall2_len _ _ _ _ _ Hall) as Hll.
  assert (Hnth : forall i r', nth_error l i = Some r' -> exists r, nth_error rs i = Some r /\ fits r r').
  { intros i r' Hr'. assert (Hi : i < length l) by (apply nth_error_Some; congruence).
    destruct (nth_error rs i) as [r|] eqn:Er; [|apply nth_error_None in Er; unfold text in *; lia].
    destruct (Forall2_nth _ _ _ _ _ Hall i r Er) as (r2 & E2 & H). exists r. split; [reflexivity|]. rewrite Hr' in E2. injection E2 as <-. exact H. }
  assert (Hlne : l <> []) by (intros ->; destruct rs; [apply Hne; reflexivity|discriminate]).
  assert (Hin : forall r', In r' l -> utf8 r' = true /\ ~ occurs event_mark r' /\ begins_with ["E"%char] r' /\ 2 <= length r').
  { intros r' Hr'. destruct (In_nth_error _ _ Hr') as [i Hi]. destruct (Hnth i r' Hi) as (r & _ & H). unfold fits in H. tauto. }
  assert (Hparts' : hepmc_parts file' (rd_header (hepmc_open file)) l).
  { split; [reflexivity|]. split; [exact Hlne|]. split; [exact Hoh|]. split; [exact Hfh|]. split.
    - intros r' Hr'. destruct (Hin r' Hr') as (_ & G2 & G3 & _). auto.
    - intros a x b Hab Hbne. assert (Hi : nth_error l (length a) = Some x) by (rewrite Hab, nth_error_app2, Nat.sub_diag by lia; reflexivity).
      destruct (Hnth _ _ Hi) as (r & Er & (_ & _ & _ & _ & G5)). apply G5.
      destruct (nth_error_split rs (length a) Er) as (a' & b' & Hab' & Hla). apply (Hlast a' r b' Hab').
      intros ->. rewrite Hab' in Hll. rewrite Hab in Hll. rewrite !app_length in Hll. cbn in Hll. destruct b; [congruence|cbn in Hll; lia]. }
  assert (Hend' : ~ finishes_with event_mark file').
  { apply finishes_concat; [exact Hlne|]. intros r' Hr'. destruct (Hin r' Hr') as (_ & G2 & G3 & G4). auto. }
  destruct (hepmc_read_parts file' _ l Hparts' Hend') as [Hh Hr]. split.
  - rewrite Hfile in Hdet. unfold file'. destruct rs as [|r0 rs]; [exfalso; apply Hne; reflexivity|]. destruct l as [|l0 l]; [congruence|]. cbn [concat] in *.
    destruct (Hb r0 (or_introl eq_refl)) as [[b ->] _]. destruct (Hin l0 (or_introl eq_refl)) as (_ & _ & [b' ->] & _).
    cbn [app] in *. eapply detect_hepmc; [exact Hfh|exact Hdet].
  - rewrite Hr. replace (forallb utf8 l) with true; [reflexivity|]. symmetry. apply forallb_forall. intros r' Hr'. apply Hin. exact Hr'.
Qed.

Lemma update_list_inv {A} (f : A -> text -> res text) : forall ws rs l, update_list f ws rs = Ok l -> length ws = length rs ->
  length l = length rs /\ forall i w r r', nth_error ws i = Some w -> nth_error rs i = Some r -> nth_error l i = Some r' -> f w r = Ok r'.
Proof.
  induction ws as [|w ws IH]; intros [|r rs] l H Hl; try discriminate.
  - cbn in H. injection H as <-. split; [reflexivity|]. intros [|i]; discriminate.
  - cbn [update_list] in H. inv_bind H. inv_bind H. injection H as <-. cbn in Hl. destruct (IH rs x0 E0 ltac:(lia)) as [H1 H2].
    split; [cbn; congruence|]. intros [|i] w1 r1 r1' Hw Hr Hr'; cbn [nth_error] in *; [congruence|]. eapply H2; eauto.
Qed.

Section Program.
Context (N : NumOps) (double : parser N) (show : N -> text) (xml : text -> option (xml_tag N))
  (checks mw : bool) (names : list text) (sort : sorter).
Notation xi := (header_info xml).
Notation build := (build_from_files xi checks).
Notation hepmc_of := (fun file rs => detect_event_file_format file = HepMC2 /\ hepmc_records (hepmc_open file) = Some rs).

Lemma hepmc_recs scaling file rs : hepmc_of file rs -> file_recs N double show xml checks scaling file (map HepMCRecord rs).
Proof.
  intros [Hd Hr]. assert (Hb : build scaling file = Ok (IOHepMC (hepmc_open file))) by (unfold build_from_files; rewrite Hd; reflexivity).
  exists rs, (IOHepMC (hepmc_open file)). split; [|split; [exact Hb|reflexivity]]. exists rs. split; [unfold file_records; rewrite Hd; exact Hr|]. rewrite Hb. reflexivity.
Qed.
Lemma hepmc_rewritten scaling file rs ws out n : hepmc_of file rs -> length ws = length rs ->
  file_rewrite double show xi checks mw names scaling file ws = Ok (out, n) ->
  exists l, update_list (hepmc_update show mw names) ws rs = Ok l /\ out = rd_header (hepmc_open file) ++ concat l.
Proof.
  intros [Hd Hr] Hl H. assert (Hb : build scaling file = Ok (IOHepMC (hepmc_open file))) by (unfold build_from_files; rewrite Hd; reflexivity).
  assert (Hrec : file_records xi checks scaling file rs) by (unfold file_records; rewrite Hd; exact Hr).
  destruct (records_raw N xi checks scaling file rs Hrec) as (f0 & fe & Hb0 & Hdl). rewrite Hb in Hb0. injection Hb0 as <-.
  rewrite (file_rewrite_list N double show xi checks mw names scaling file rs _ fe ws Hrec Hb Hdl) in H by (unfold text in *; lia).
  inv_bind H. injection H as <- _. cbn [fio_header fio_finish]. exists x. split; [exact E|]. rewrite app_nil_r. reflexivity.
Qed.
Lemma files_rewritten scaling : forall inputs recss W rs, Forall hepmc_file inputs -> Forall2 hepmc_of inputs recss -> length W = length (concat recss) ->
  sequence (map (fun x => file_rewrite double show xi checks mw names scaling (fst x) (snd x)) (combine inputs (deal (map (@length text) recss) W))) = Ok rs ->
  exists l, length l = length (concat recss) /\
    (forall i w r r', nth_error W i = Some w -> nth_error (concat recss) i = Some r -> nth_error l i = Some r' -> hepmc_update show mw names w r = Ok r') /\
    (Forall2 fits (concat recss) l -> hepmc_contents (map fst rs) l).
Proof.
  induction inputs as [|file inputs IH]; intros recss W rs Hf Hr Hl Hs.
  - inversion Hr; subst. cbn in Hs. injection Hs as <-. exists []. split; [reflexivity|]. split; [intros [|i] w r r' _ H; discriminate|].
    intros _. exists []. split; constructor.
  - inversion Hf as [|? ? Hf1 Hf2]; subst. inversion Hr as [|? r1 ? recss2 Hr1 Hr2]; subst. cbn [map deal combine sequence concat fst snd] in *.
    rewrite app_length in Hl. inv_bind Hs. destruct x as [out n]. inv_bind Hs. injection Hs as <-. rename x into rs.
    pose proof (firstn_skipn (length r1) W) as HWs. set (w1 := firstn (length r1) W) in *. set (w2 := skipn (length r1) W) in *.
    assert (Hl1 : length w1 = length r1) by (unfold w1; rewrite firstn_length; unfold text in *; lia).
    assert (Hl2 : length w2 = length (concat recss2)) by (unfold w2; rewrite skipn_length; unfold text in *; lia).
    destruct (hepmc_rewritten scaling file r1 w1 out n Hr1 Hl1 E) as (l1 & Hul & Hout).
    destruct (update_list_inv _ _ _ _ Hul Hl1) as [Hll Hpt].
    destruct (IH recss2 w2 rs Hf2 Hr2 Hl2 E0) as (l2 & Hll2 & Hpt2 & Hg2).
    exists (l1 ++ l2). split; [rewrite !app_length; unfold text in *; lia|]. split.
    + intros i w r r' Hw Hri Hri'. rewrite <- HWs in Hw. destruct (Nat.lt_ge_cases i (length r1)) as [Hi|Hi].
      * rewrite nth_error_app1 in Hw by (unfold text in *; lia). rewrite nth_error_app1 in Hri by (unfold text in *; lia). rewrite nth_error_app1 in Hri' by (unfold text in *; lia). eapply Hpt; eauto.
      * rewrite nth_error_app2 in Hw by (unfold text in *; lia). rewrite nth_error_app2 in Hri by (unfold text in *; lia). rewrite nth_error_app2 in Hri' by (unfold text in *; lia).
        rewrite Hl1 in Hw. rewrite Hll in Hri'. eapply Hpt2; eauto.
    + intros Hg. apply Forall2_app_inv_l in Hg as (a & b & Ha & Hb & Eab). pose proof (Forall2_len _ _ _ _ _ Ha) as Hla.
      assert (a = l1 /\ b = l2) as [-> ->].
      { assert (length l1 = length a) as Hq by (unfold text in *; lia). clear -Eab Hq. revert l1 Eab Hq. induction a as [|x a IH]; intros [|y l1] Eab Hq; try discriminate; [auto|].
        cbn in Eab. injection Eab as -> Eab. destruct (IH l1 Eab ltac:(cbn in Hq; lia)) as [-> ->]. auto. }
      destruct (Hg2 Hb) as (recss' & Hrs' & ->). exists (l1 :: recss'). split; [|reflexivity]. cbn [map fst]. constructor; [|exact Hrs'].
      rewrite Hout. destruct Hf1 as (_ & _ & Hend). destruct Hr1 as [Hd1 Hrc1]. exact (hepmc_fits file r1 l1 Hend Hd1 Hrc1 Ha).
Qed.

(** and it succeeds if all records can be updated *)
Lemma files_rewrite_done scaling : forall inputs recss W ls, Forall2 hepmc_of inputs recss ->
  map (@length (list N)) W = map (@length text) recss -> Forall2 (fun x l => update_list (hepmc_update show mw names) (fst x) (snd x) = Ok l) (combine W recss) ls ->
  sequence (map (fun x => file_rewrite double show xi checks mw names scaling (fst x) (snd x)) (combine inputs (deal (map (@length text) recss) (concat W)))) =
  Ok (map (fun x => (rd_header (hepmc_open (fst x)) ++ concat (snd x), length (snd x))) (combine inputs ls)).
Proof.
  induction inputs as [|file inputs IH]; intros recss W ls Hr HW Hu.
  - reflexivity.
  - inversion Hr as [|? r1 ? recss2 Hr1 Hr2]; subst. destruct W as [|w1 W]; [discriminate|]. cbn [map] in HW. injection HW as HW1 HW.
    cbn [combine] in Hu. inversion Hu as [|? l1 ? ls2 Hu1 Hu2]; subst. cbn [fst snd] in Hu1. cbn [map deal combine sequence concat fst snd].
    rewrite firstn_app, skipn_app. rewrite <- HW1 at 1. rewrite firstn_all. replace (length r1 - length w1) with 0 by (rewrite HW1; lia). cbn [firstn skipn]. rewrite app_nil_r.
    rewrite skipn_all2 by (rewrite HW1; lia). cbn [app].
    destruct Hr1 as [Hd Hrc]. assert (Hb : build scaling file = Ok (IOHepMC (hepmc_open file))) by (unfold build_from_files; rewrite Hd; reflexivity).
    assert (Hrec : file_records xi checks scaling file r1) by (unfold file_records; rewrite Hd; exact Hrc).
    destruct (records_raw N xi checks scaling file r1 Hrec) as (f0 & fe & Hb0 & Hdl). rewrite Hb in Hb0. injection Hb0 as <-.
    rewrite (file_rewrite_list N double show xi checks mw names scaling file r1 _ fe w1 Hrec Hb Hdl) by (rewrite HW1; lia).
    change (upd N double show mw names (IOHepMC (hepmc_open file))) with (hepmc_update (N := N) show mw names). rewrite Hu1. cbn [bind fio_header fio_finish]. rewrite app_nil_r.
    rewrite (IH recss2 W ls2 Hr2 HW Hu2). reflexivity.
Qed.

Context (cluster : Event N -> option (Event N))
  (shuffle : list (Event N + @cres_error (option read_error)) -> list (Event N + @cres_error (option read_error)))
  (resample unweighter : list (Event N) -> option (list (Event N) + option read_error)).
Hypothesis Hshuffle : reorders shuffle.
Hypothesis Hsort : sort_ok sort.
Notation program := (cres_program double show xml checks mw names sort cluster shuffle resample unweighter).
Notation run := (run_on double mw names sort cluster shuffle resample unweighter).

Lemma hepmc_program fuel inputs outs records : Forall hepmc_file inputs -> hepmc_contents inputs records -> program fuel inputs = Done outs ->
  exists W records', run (map inl (map HepMCRecord records)) = Wrote W /\ length W = length records /\ length records' = length records /\
    (forall i w r r', nth_error W i = Some w -> nth_error records i = Some r -> nth_error records' i = Some r' -> hepmc_update show mw names w r = Ok r') /\
    Forall (fun r => utf8 r = true /\ ~ occurs event_mark r /\ begins_with ["E"%char] r) records /\
    (Forall2 fits records records' -> hepmc_contents outs records').
Proof.
  intros Hf (recss & Hrec & ->) Hp. unfold cres_program, open_inputs in Hp.
  rewrite (hep_files N xml inputs) in Hp by (eapply Forall_impl; [|exact Hf]; intros file H; apply H). cbn [bind] in Hp. set (scaling := extract_scaling []) in *.
  destruct (cio_new xi checks scaling inputs) as [s|er|] eqn:En; cbn [bind] in Hp; try discriminate.
  assert (Hrecs : Forall2 (file_recs N double show xml checks scaling) inputs (map (map HepMCRecord) recss)).
  { clear -Hrec. induction Hrec; constructor; auto. apply hepmc_recs. assumption. }
  destruct (read_all double show xml checks scaling fuel s) as [[rds s1]|] eqn:Er; [|discriminate].
  destruct (read_files_unique N double show xml checks scaling inputs _ s fuel _ Hrecs En Er) as [Hrds Hw1]. cbn [fst snd] in Hrds, Hw1. subst rds.
  rewrite <- concat_map in Hp.
  destruct (run (map inl (map HepMCRecord (concat recss)))) as [|e|W] eqn:Erun; [discriminate|destruct e as [[?|]|[?|]|[?|]|[?|]|[?|]|?]; discriminate|].
  destruct (cio_update_all double show xi checks mw names scaling W s1) as [[nw s2]|er|] eqn:Eu; try discriminate. injection Hp as <-.
  pose proof Erun as Hrun. unfold run_on in Hrun. rewrite map_map in Hrun.
  destruct (run_wrote Hshuffle Hsort Hrun) as (HlW & _). rewrite !map_length in HlW.
  assert (Hfr : Forall2 (file_records xi checks scaling) inputs recss).
  { eapply Forall2_weaken; [|exact Hrec]. intros file rs [Hd Hr]. unfold file_records. rewrite Hd. exact Hr. }
  pose proof (cio_update N double show xi checks mw names scaling inputs recss W s1 Hfr Hw1) as Hup.
  destruct (sequence _) as [rs|er|] eqn:Es in Hup; [|congruence|congruence]. destruct Hup as (s3 & E3 & _ & Ho3). rewrite Eu in E3. injection E3 as _ <-.
  destruct (files_rewritten scaling inputs recss W rs Hf Hrec HlW Es) as (l & Hll & Hpt & Hg).
  exists W, l. split; [reflexivity|]. split; [exact HlW|]. split; [exact Hll|]. split; [exact Hpt|]. split; [|rewrite Ho3; exact Hg].
  clear -Hf Hrec. induction Hrec as [|file rs inputs recss [Hd Hr] _ IH]; [constructor|]. inversion Hf as [|? ? (_ & _ & Hend) Hf2]; subst.
  cbn [concat]. apply Forall_app. split; [|apply IH; exact Hf2]. eapply hepmc_file_records; [exact Hend|exact Hr].
Qed.
Lemma hepmc_program_done fuel inputs recss W ls : Forall2 hepmc_of inputs recss -> length (concat recss) < fuel ->
  run (map inl (map HepMCRecord (concat recss))) = Wrote (concat W) -> map (@length (list N)) W = map (@length text) recss ->
  Forall2 (fun x l => update_list (hepmc_update show mw names) (fst x) (snd x) = Ok l) (combine W recss) ls ->
  program fuel inputs = Done (map (fun x => rd_header (hepmc_open (fst x)) ++ concat (snd x)) (combine inputs ls)).
Proof.
  intros Hrec Hfuel Hrun HW Hu. unfold cres_program, open_inputs.
  rewrite (hep_files N xml inputs) by (clear -Hrec; induction Hrec as [|? ? ? ? [H _]]; constructor; assumption). cbn [bind]. set (scaling := extract_scaling []).
  assert (Hrecs : Forall2 (file_recs N double show xml checks scaling) inputs (map (map HepMCRecord) recss)).
  { clear -Hrec. induction Hrec; constructor; auto. apply hepmc_recs. assumption. }
  destruct (new_ok N xi checks scaling inputs (files_build N double show xml checks scaling _ _ Hrecs)) as (s & Hs & _). rewrite Hs. cbn [bind].
  destruct (read_files N double show xml checks scaling inputs _ s Hrecs Hs) as (s1 & Hw1 & Hall).
  rewrite Hall by (rewrite <- concat_map, map_length; exact Hfuel). rewrite <- concat_map, Hrun.
  assert (Hfr : Forall2 (file_records xi checks scaling) inputs recss).
  { eapply Forall2_weaken; [|exact Hrec]. intros file rs [Hd Hr]. unfold file_records. rewrite Hd. exact Hr. }
  pose proof (cio_update N double show xi checks mw names scaling inputs recss (concat W) s1 Hfr Hw1) as Hup.
  rewrite (files_rewrite_done scaling inputs recss W ls Hrec HW Hu) in Hup. destruct Hup as (s3 & E3 & _ & Ho3). rewrite E3, Ho3, map_map. reflexivity.
Qed.
End Program.

(** Updating a record needs only the written forms of the weights. *)
Lemma set_entries_as (N M : NumOps) (show : N -> text) (show' : M -> text) : forall pos ws ws' es, map show ws = map show' ws' -> set_entries show es pos ws = set_entries show' es pos ws'.
Proof.
  induction pos as [|p pos IH]; intros [|w ws] [|w' ws'] es H; try discriminate; try reflexivity. cbn [set_entries map] in *. injection H as H1 H2. rewrite H1.
  destruct (set_nth p (show' w') es); [apply IH; exact H2|reflexivity].
Qed.
Lemma update_as (N M : NumOps) (show : N -> text) (show' : M -> text) mw names ws ws' record : map show ws = map show' ws' ->
  hepmc_update show mw names ws record = hepmc_update show' mw names ws' record.
Proof.
  intros H. unfold hepmc_update. destruct ws as [|w ws], ws' as [|w' ws']; try discriminate; [reflexivity|]. cbn [weights_is_empty central].
  destruct (or_err (non_weight_entries record) _) as [x|e|]; cbn [bind]; try reflexivity. destruct (or_err (u32_entry x) _) as [[nw rest]|e|]; cbn [bind]; try reflexivity.
  assert (Hc : forall r p, update_central_weight show r p w = update_central_weight show' r p w').
  { intros r p. unfold update_central_weight. cbn [map] in H. injection H as H1 _. rewrite H1. reflexivity. }
  unfold central. cbn [nth_error]. rewrite Hc. destruct (update_central_weight show' record _ w') as [r|e|]; cbn [bind]; try reflexivity. destruct mw; [|reflexivity].
  unfold update_named_weights. assert (Hl : length (w :: ws) = length (w' :: ws')) by (rewrite <- (map_length show), H; apply map_length). rewrite Hl.
  destruct (negb _); [reflexivity|]. destruct names; [reflexivity|]. destruct (or_err (find _ r) _) as [st|e|]; cbn [bind]; try reflexivity.
  destruct (or_err (u32_entry _) _) as [[nn rest2]|e|]; cbn [bind]; try reflexivity. destruct (name_positions _ _ _ _) as [ps|e|]; cbn [bind]; try reflexivity.
  cbn [skipn map] in *. injection H as _ H. rewrite (set_entries_as N M show show' _ _ _ _ H). reflexivity.
Qed.
