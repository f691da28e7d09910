(** Properties C36 and C37: several files one after the other. *)
From Verif Require Import Base BaseProofs Num ModelEvent ModelText SpecText SpecFormats TextProofs ReaderProofs ParserProofs
  ModelHepMC ModelLHEF ModelStripper ModelIO SpecIO FileProofs FileProofs2 FileProofs3 IOProofs TextExamples PropsHepMC PropsFormats.
From Coq Require Import Lia.

(** *** Several files (C36) *)
(** Reading delivers the records of the first file, then those of the second, and so on. *)
Theorem C36_read : forall (N : NumOps) double show xml_info checks (scaling : list (text * N)) files items,
  Forall2 (file_items double show xml_info checks scaling) files items ->
  exists s s', cio_new xml_info checks scaling files = Ok s /\
    delivers (fun s => cio_next double show xml_info checks scaling (cio_fuel s) s) s (concat items) s'.
Proof.
  intros N double show xml_info checks scaling files items H.
  destruct (new_ok N xml_info checks scaling files) as (s & Hs & _).
  { intros j file E. destruct (Forall2_nth _ _ _ _ _ H j file E) as (l & _ & Hl). destruct (items_next N double show xml_info checks scaling _ _ Hl) as (f & _ & Hf & _). eauto. }
  destruct (cio_read N double show xml_info checks scaling files items s H Hs) as (s' & Hd & _). eauto.
Qed.
Print Assumptions C36_read.
(** The same after a rewind, whatever happened before, *)
Theorem C36_reread : forall (N : NumOps) double show xml_info checks mw names (scaling : list (text * N)) files items s,
  Forall2 (file_items double show xml_info checks scaling) files items ->
  io_history double show xml_info checks mw names scaling files s ->
  exists s', delivers (fun s => cio_next double show xml_info checks scaling (cio_fuel s) s) (cio_rewind s) (concat items) s'.
Proof.
  intros N double show xml_info checks mw names scaling files items s H Hs.
  destruct (cio_read_again N double show xml_info checks scaling files items s H (history_wf N double show xml_info checks mw names scaling files s Hs)) as (s' & Hd & _). eauto.
Qed.
Print Assumptions C36_reread.
(** and there is nothing else reading can deliver. *)
Theorem C36_read_unique : forall (S : Type) (next : S -> step S) s l1 s1 l2 s2,
  delivers next s l1 s1 -> delivers next s l2 s2 -> l1 = l2 /\ s1 = s2.
Proof.
  intros S next s l1 s1 l2 s2 H. revert l2 s2. induction H as [s s' H|s x s1 l s' H Hd IH]; intros l2 s2 H2; inversion H2 as [? ? Hn|? ? ? ? ? Hn Hd2]; subst.
  - split; congruence.
  - congruence.
  - congruence.
  - rewrite H in Hn. injection Hn as -> <-. destruct (IH _ _ Hd2) as [-> ->]. auto.
Qed.
Print Assumptions C36_read_unique.

(** Updating gives each output the contents it would have if its input was rewritten alone with
    its share of the weights, and returns the number of records written; the first failure of
    any of these is the failure of the whole. *)
Theorem C36_update : forall (N : NumOps) double show xml_info checks mw names (scaling : list (text * N)) files records ws s,
  Forall2 (file_records xml_info checks scaling) files records ->
  io_history double show xml_info checks mw names scaling files s ->
  let shares := combine files (deal (map (@length text) records) ws) in
  match sequence (map (fun '(file, share) => file_rewrite double show xml_info checks mw names scaling file share) shares) with
  | Ok rewritten => exists s',
      cio_update_all double show xml_info checks mw names scaling ws s = Ok (Nat.min (length ws) (list_sum (map (@length text) records)), s') /\
      c_outs s' = map fst rewritten
  | Err e => cio_update_all double show xml_info checks mw names scaling ws s = Err e
  | Panic => cio_update_all double show xml_info checks mw names scaling ws s = Panic
  end.
Proof.
  intros N double show xml_info checks mw names scaling files records ws s H Hs shares.
  pose proof (cio_update N double show xml_info checks mw names scaling files records ws s H (history_wf N double show xml_info checks mw names scaling files s Hs)) as Hu.
  fold shares in Hu. replace (map (fun '(file, share) => file_rewrite double show xml_info checks mw names scaling file share) shares)
    with (map (fun x => file_rewrite double show xml_info checks mw names scaling (fst x) (snd x)) shares) by (apply map_ext; intros []; reflexivity).
  destruct (sequence _) as [rs|e|]; [|exact Hu|exact Hu]. destruct Hu as (s' & H1 & _ & H2). eauto.
Qed.
Print Assumptions C36_update.
(** The shares of the weights, one after the other, are the weights in their order. *)
Theorem C36_shares : forall (A : Type) counts (ws : list A),
  concat (deal counts ws) = firstn (list_sum counts) ws /\
  forall i c share, nth_error counts i = Some c -> nth_error (deal counts ws) i = Some share ->
    length share = Nat.min c (length ws - list_sum (firstn i counts)).
Proof.
  intros A counts. induction counts as [|c counts IH]; intros ws; cbn [deal concat].
  - split; [reflexivity|]. intros [|i]; discriminate.
  - split.
    + rewrite (proj1 (IH _)). change (list_sum (c :: counts)) with (c + list_sum counts). generalize (list_sum counts). clear. revert ws.
      induction c as [|c IHc]; intros ws n; [reflexivity|]. destruct ws; cbn [firstn skipn app Nat.add]; [rewrite !firstn_nil; reflexivity|]. rewrite IHc. reflexivity.
    + intros [|i] k share; cbn [nth_error].
      * intros E1 E2. injection E1 as <-. injection E2 as <-. rewrite firstn_length. cbn. lia.
      * intros E1 E2. rewrite (proj2 (IH _) _ _ _ E1 E2), skipn_length. change (list_sum (firstn (S i) (c :: counts))) with (c + list_sum (firstn i counts)). f_equal. lia.
Qed.
Print Assumptions C36_shares.

(** The bounds given by [size_hint] hold at any time, if the numbers announced in STRIPPER XML
    files are right; if there are only such files, they are exact. *)
Theorem C36_size_hint : forall (N : NumOps) double show xml_info checks (scaling : list (text * N)) files items s l1 l2 s1,
  Forall2 (file_items double show xml_info checks scaling) files items ->
  Forall2 (fun file l => forall r scale, build_from_files xml_info checks scaling file = Ok (IOStripper r scale) -> sr_rem r = N.of_nat (length l)) files items ->
  cio_new xml_info checks scaling files = Ok s -> concat items = l1 ++ l2 ->
  delivers_first (fun s => cio_next double show xml_info checks scaling (cio_fuel s) s) s l1 s1 ->
  (fst (cio_size_hint s1) <= N.of_nat (length l2))%N /\ (forall u, snd (cio_size_hint s1) = Some u -> u = N.of_nat (length l2)).
Proof. intros N double show xml_info checks scaling files items s l1 l2 s1. apply cio_hint. Qed.
Print Assumptions C36_size_hint.

Definition io_info (header : text) : option (text * BinNums.N) := Some (lit "RR", 2%N).
Definition io_scaling : list (text * ZN) := [(lit "RR", 2%Z)].
Definition io_empty : text := Eval vm_compute in lit "HepMC::Version 2.06".
Definition io_files : list text := [ex_file; io_empty; lh_file; st_file].
Definition io_records : list (list text) := [[ex_record1; ex_record2]; []; [lh_record1; lh_record2]; [st_record1; st_record2]].
Definition io_items : list (list text) := Eval vm_compute in
  [[ex_record1; ex_record2]; []; [lh_record1; lh_record2];
   match rescale_weight (N:=ZN) z_double z_show 2%Z st_record1, rescale_weight (N:=ZN) z_double z_show 2%Z st_record2 with Ok a, Ok b => [a; b] | _, _ => [] end].
Definition io_ws : list (list ZN) := [[9]; [8]; [7]; [6]; [4]; [2]]%Z.
Definition io_outs : list (text * nat) := Eval vm_compute in
  match sequence (map (fun '(file, share) => file_rewrite (N:=ZN) z_double z_show io_info true false [] io_scaling file share) (combine io_files (deal [2; 0; 2; 2] io_ws))) with
  | Ok l => l | _ => [] end.
Lemma io_case_records : Forall2 (file_records (N:=ZN) io_info true io_scaling) io_files io_records.
Proof.
  constructor; [vm_cast_no_check (eq_refl (Some [ex_record1; ex_record2]))|].
  constructor; [vm_cast_no_check (eq_refl (Some (@nil text)))|].
  constructor; [vm_cast_no_check (eq_refl (Some [lh_record1; lh_record2]))|]. constructor; [|constructor].
  exists st_reader, (2%Z : ZN), st_end. split; [vmr|vmr].
Qed.
Example C36_case : Forall2 (file_records (N:=ZN) io_info true io_scaling) io_files io_records /\
  Forall2 (file_items (N:=ZN) z_double z_show io_info true io_scaling) io_files io_items /\
  map (@length text) io_items = [2; 0; 2; 2] /\ map snd io_outs = [2; 0; 2; 2] /\ nth_error (map fst io_outs) 3 = Some (st_header ++
  (ln "<se w=""2"">" ++ ln "<p id=""1,21"">0,0,0,0</p>" ++ ln "<p id=""0,11""> 13,3,4,12</p></se>") ++
  ln "<se  w=""1"">" ++ ln "<p id=""0,22""> 7,0,0,7</p></se></e></Eventrecord>") /\
  sequence (map (fun '(file, share) => file_rewrite (N:=ZN) z_double z_show io_info true false [] io_scaling file share) (combine io_files (deal (map (@length text) io_records) io_ws))) = Ok io_outs.
Proof.
  split; [exact io_case_records|]. split.
  - pose proof io_case_records as H. inversion_clear H as [|? ? ? ? H1 H2]. inversion_clear H2 as [|? ? ? ? H3 H4]. inversion_clear H4 as [|? ? ? ? H5 H6]. inversion_clear H6 as [|? ? ? ? H7 _].
    constructor; [eexists; split; [exact H1|reflexivity]|]. constructor; [eexists; split; [exact H3|reflexivity]|].
    constructor; [eexists; split; [exact H5|reflexivity]|]. constructor; [|constructor]. eexists. split; [exact H7|].
    replace (build_from_files (N:=ZN) io_info true io_scaling st_file) with (Ok (IOStripper (N:=ZN) st_reader 2%Z)) by (symmetry; vmr).
    constructor; [vmr|]. constructor; [vmr|constructor].
  - split; [vmr|]. split; [vmr|]. split; [vmr|vmr].
Qed.

(** *** Weights one by one (C37) *)
(** With a single file [Ok(false)] marks the end: *)
Definition single_update {N : NumOps} double show checks mw names (w : list N) (f : fio N) : res (bool * fio N) :=
  match fio_update double show checks mw names w f with
  | Ok (Some _, f') => Ok (true, f')
  | Ok (None, f') => Ok (false, f')
  | Err e => Err e
  | Panic => Panic
  end.
Theorem C37_single : forall (N : NumOps) double show xml_info checks mw names (scaling : list (text * N)) file records ws r f,
  file_records xml_info checks scaling file records -> build_from_files xml_info checks scaling file = Ok f ->
  file_rewrite double show xml_info checks mw names scaling file ws = Ok r -> length ws = length records ->
  exists f', updates (single_update double show checks mw names) f ws f' /\
    forall w, exists f'', single_update double show checks mw names w f' = Ok (false, f'').
Proof.
  intros N double show xml_info checks mw names scaling file records ws r f Hr Hb Hw Hlen.
  destruct (records_raw N xml_info checks scaling file records Hr) as (f0 & f1 & Hb0 & Hd). rewrite Hb in Hb0. injection Hb0 as <-.
  rewrite (file_rewrite_list N double show xml_info checks mw names scaling file records f f1 ws Hr Hb Hd) in Hw by lia.
  destruct (update_list (upd N double show mw names f) ws records) as [ts|e|] eqn:E; try discriminate. clear Hw Hr Hb.
  revert ws ts E Hlen. induction Hd as [f f' H|f x f1 l f' H Hd IH]; intros ws ts E Hlen.
  - destruct ws; [|discriminate]. exists f. split; [constructor|]. intros w. exists f'. unfold single_update. rewrite fupdate_raw, H. reflexivity.
  - destruct ws as [|w ws]; [discriminate|]. cbn [update_list] in E. destruct (upd N double show mw names f w x) as [t|e|] eqn:Eu; try discriminate. cbn [bind] in E.
    destruct (update_list (upd N double show mw names f) ws l) as [ts'|e|] eqn:El; try discriminate.
    rewrite (same_kind_upd N double show mw names f f1) in El by (apply (raw_next_kind N checks f x f1); auto).
    destruct (IH ws ts' El ltac:(cbn in Hlen; lia)) as (f2 & Hu & He). exists f2. split; [|exact He]. econstructor; [|exact Hu]. unfold single_update. rewrite fupdate_raw, H, Eu. reflexivity.
Qed.
Print Assumptions C37_single.

(** Several files: as long as there are records left, each call returns [Ok(true)] and the
    outputs are those of [update_all_weights], except for missing closing lines. *)
Theorem C37_several_partial : forall (N : NumOps) double show xml_info checks mw names (scaling : list (text * N)) files records ws rewritten s,
  files <> [] -> Forall2 (file_records xml_info checks scaling) files records -> cio_new xml_info checks scaling files = Ok s ->
  length ws <= list_sum (map (@length text) records) ->
  sequence (map (fun '(file, share) => file_rewrite double show xml_info checks mw names scaling file share) (combine files (deal (map (@length text) records) ws))) = Ok rewritten ->
  exists s', updates (cio_update_next double show xml_info checks mw names scaling (S (length files))) s ws s' /\
    Forall2 up_to_footer (c_outs s') (map fst rewritten).
Proof.
  intros N double show xml_info checks mw names scaling files records ws rewritten s Hne Hf Hn Hlen Hs.
  assert (Hb : forall j file, nth_error files j = Some file -> exists f, build_from_files xml_info checks scaling file = Ok f).
  { intros j file E. destruct (Forall2_nth _ _ _ _ _ Hf j file E) as (l & _ & Hl). destruct (records_raw N xml_info checks scaling _ _ Hl) as (f & _ & H & _). eauto. }
  destruct (new_headers N xml_info checks scaling files s Hb Hne Hn) as (file & rest & f & -> & Hbf & Hw & Hc & Hi & Ho).
  inversion Hf as [|? l ? ls Hl Hls]; subst. destruct (records_raw N xml_info checks scaling _ _ Hl) as (f0 & f' & Hb0 & Hd). rewrite Hbf in Hb0. injection Hb0 as <-.
  rewrite (map_ext _ (fun x => file_rewrite double show xml_info checks mw names scaling (fst x) (snd x))) in Hs by (intros []; reflexivity).
  cbn [map deal combine sequence fst snd] in Hs. rewrite (file_rewrite_list N double show xml_info checks mw names scaling file l f f' _ Hl Hbf Hd) in Hs by (rewrite firstn_length; lia).
  destruct (update_list (upd N double show mw names f) (firstn (length l) ws) l) as [ts|e|] eqn:Ets; try discriminate. cbn [bind] in Hs.
  destruct (sequence _) as [rs|e|] eqn:Eseq; try discriminate. cbn [bind] in Hs. injection Hs as <-.
  destruct (updates_all N double show xml_info checks mw names scaling (file :: rest) (S (length (file :: rest))) ltac:(lia) rest ws (S (length (file :: rest))) s f l f' ts ls rs [] (fio_header f))
    as (s' & Hs' & outs & Ho' & Hf').
  { exact Hw. } { exact Hc. } { exact Hd. } { rewrite Hi. reflexivity. } { rewrite Hi. cbn. lia. } { cbn. lia. } { rewrite Hi. reflexivity. } { exact Ho. } { exact Hls. }
  { cbn in Hlen. unfold list_sum. lia. } { exact Ets. } { exact Eseq. }
  exists s'. split.
  - destruct ws as [|w ws]; [subst s'; constructor|]. destruct Hs' as (s1 & H1 & H2). econstructor; eassumption.
  - rewrite Ho'. exact Hf'.
Qed.
Print Assumptions C37_several_partial.

(** But [Ok(false)] is never returned unless the list of files is empty, *)
Theorem C37_never_false : forall (N : NumOps) double show xml_info checks mw names (scaling : list (text * N)) files fuel w s s',
  files <> [] -> io_history double show xml_info checks mw names scaling files s ->
  cio_update_next double show xml_info checks mw names scaling fuel w s <> Ok (false, s').
Proof.
  intros N double show xml_info checks mw names scaling files fuel w s s' Hne Hs. apply (never_false N double show xml_info checks mw names scaling files).
  - eapply history_wf. exact Hs.
  - eapply history_idx; eassumption.
Qed.
Print Assumptions C37_never_false.
(** after the last record of the last file the program panics, *)
Theorem C37_end_panics : forall (N : NumOps) double show xml_info checks mw names (scaling : list (text * N)) files s f f' w fuel,
  io_history double show xml_info checks mw names scaling files s -> c_current s = Some f -> c_idx s + 1 = length files ->
  fio_update double show checks mw names w f = Ok (None, f') ->
  cio_update_next double show xml_info checks mw names scaling fuel w s = Panic.
Proof.
  intros N double show xml_info checks mw names scaling files s f f' w fuel Hs Hc Hi Hu. rewrite fupdate_raw in Hu.
  destruct (raw_next N checks f) as [g|x g|e g|] eqn:E; try discriminate; [|destruct (upd _ _ _ _ _ _ _ _); discriminate].
  eapply at_end_panics; try eassumption. eapply history_wf. exact Hs.
Qed.
Print Assumptions C37_end_panics.
(** and so it does for the first record after a rewind. *)
Theorem C37_rewind_panics : forall (N : NumOps) double show xml_info checks mw names (scaling : list (text * N)) files s w fuel,
  files <> [] -> io_history double show xml_info checks mw names scaling files s ->
  cio_update_next double show xml_info checks mw names scaling fuel w (cio_rewind s) = Panic.
Proof.
  intros N double show xml_info checks mw names scaling files s w fuel Hne Hs. pose proof (history_idx N double show xml_info checks mw names scaling files s Hne Hs) as Hi.
  destruct (history_wf N double show xml_info checks mw names scaling files s Hs) as [Hf _].
  destruct fuel; cbn [cio_update_next]; cbn [cio_rewind c_idx c_files c_current]; rewrite Hf; replace (c_idx s <? length files) with true by (symmetry; apply Nat.ltb_lt; exact Hi); reflexivity.
Qed.
Print Assumptions C37_rewind_panics.

Definition io_start : cio ZN := Eval vm_compute in
  match cio_new (N:=ZN) io_info true io_scaling [ex_file] with Ok s => s | _ => mkCIO [] None 0 0 (0%N, None) [] end.
Definition io_mid : cio ZN := Eval vm_compute in
  match cio_update_next (N:=ZN) z_double z_show io_info true false [] io_scaling 2 [9]%Z io_start with Ok (_, s) => s | _ => io_start end.
Definition io_after : cio ZN := Eval vm_compute in
  match cio_update_next (N:=ZN) z_double z_show io_info true false [] io_scaling 2 [8]%Z io_mid with Ok (_, s) => s | _ => io_start end.
Definition io_at_end : reader := Eval vm_compute in match c_current io_after with Some (IOHepMC r) => r | _ => hepmc_open [] end.
(** One file with two events: the third call should return [Ok(false)]. *)
Theorem C37_refuted : exists (N : NumOps) double show xml_info checks mw names (scaling : list (text * N)) file records s s' ws,
  number_text N (fun _ => True) double show /\
  file_records xml_info checks scaling file records /\ length records = length ws /\
  cio_new xml_info checks scaling [file] = Ok s /\ updates (cio_update_next double show xml_info checks mw names scaling 2) s ws s' /\
  forall w fuel, cio_update_next double show xml_info checks mw names scaling fuel w s' = Panic.
Proof.
  exists ZN, z_double, z_show, io_info, true, false, [], io_scaling, ex_file, [ex_record1; ex_record2], io_start, io_after, [[9]; [8]]%Z.
  split; [exact z_text|]. split; [vm_cast_no_check (eq_refl (Some [ex_record1; ex_record2]))|]. split; [reflexivity|]. assert (Hn : cio_new (N:=ZN) io_info true io_scaling [ex_file] = Ok io_start) by vmr. split; [exact Hn|].
  assert (H1 : cio_update_next (N:=ZN) z_double z_show io_info true false [] io_scaling 2 [9]%Z io_start = Ok (true, io_mid)) by vmr.
  assert (H2 : cio_update_next (N:=ZN) z_double z_show io_info true false [] io_scaling 2 [8]%Z io_mid = Ok (true, io_after)) by vmr.
  split; [econstructor; [exact H1|econstructor; [exact H2|constructor]]|]. intros w fuel.
  apply (C37_end_panics ZN z_double z_show io_info true false [] io_scaling [ex_file] io_after (IOHepMC io_at_end) (IOHepMC io_at_end)).
  - apply io_update_next with (s := io_mid) (w := [8]%Z) (b := true); [|exact H2].
    apply io_update_next with (s := io_start) (w := [9]%Z) (b := true); [apply io_new; exact Hn|exact H1].
  - vmr.
  - reflexivity.
  - cbn [fio_update]. replace (hepmc_next io_at_end) with (Some (@None text, io_at_end)) by (symmetry; vmr). reflexivity.
Qed.
Print Assumptions C37_refuted.
