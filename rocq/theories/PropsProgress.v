(** Property C83: progress bars do not hide messages. *)
From Coq Require Import ZArith Lia Ascii String.
From Verif Require Import Base BaseProofs Num ModelEvent ModelText ModelStripper ModelIO ModelCell ModelSeeds ModelNaive ModelResampler ModelCres ModelLog ModelPartition ModelClassify ModelPartMain
  ModelProgress SpecProgress ProgressProofs ProgressProofs2 TextExamples PropsHepMC PropsFormats PropsClassify.
From Verif Require ModelCApi.
Open Scope list_scope.

(** C83: a run that succeeds shows all messages the level asks for, in particular the ones of C81
    ([lines], which are the messages of level "info" or "warn" in the model of the log), and leaves the level
    as it was. *)
Theorem C83_run : forall (N : NumOps) (O Rec Err S : Type) (is_ntuple : Rec -> bool) convert cluster mw sort hash psum attended hint shuffle
    (prepare : list (Event N) -> option S) (treat_seeds : S -> list (Event N) -> option (list (Event N) * list O)) unweighter update (records : list (Rec + Err)) s s',
  run_logged is_ntuple convert cluster mw sort hash psum attended hint shuffle prepare treat_seeds unweighter update records s = (s', RSuccess) ->
  exists lines cells final W events search out obs,
    cres_run_log is_ntuple convert cluster mw sort hash psum shuffle (resample_of prepare treat_seeds) unweighter records = (lines ++ [LCells cells; LFinal final], Wrote W) /\
    update W = RSuccess /\ prepare events = Some search /\ treat_seeds search events = Some (out, obs) /\
    lg_level s' = lg_level s /\
    lg_shown s' = lg_shown s ++ visible (lg_level s)
      ((if hint =? 0 then [(Info, MReading)] else []) ++
       map (fun l => (match l with LIgnored _ | LCategories _ => Warn | _ => Info end, MLine l)) lines ++
       [(Info, MInit); (Info, MLine (LCells cells))] ++ map (fun o => (Info, MObserver o)) obs ++ [(Info, MLine (LFinal final))]).
Proof. intros N O Rec Err S is_ntuple convert cluster mw sort hash psum attended hint shuffle prepare treat_seeds unweighter update records s s'. apply run_success. Qed.
Print Assumptions C83_run.

(** The level after any run: as before, unless it was "info" and the run ended while a bar was shown,
    that is, by an error while records with known number were read, by a panic while seeds were
    treated, or by a failure to write the weights.  Then logging is switched off. *)
Theorem C83_level : forall (N : NumOps) (O Rec Err S : Type) (is_ntuple : Rec -> bool) convert cluster mw sort hash psum attended hint shuffle
    (prepare : list (Event N) -> option S) (treat_seeds : S -> list (Event N) -> option (list (Event N) * list O)) unweighter update (records : list (Rec + Err)) s s' r,
  run_logged is_ntuple convert cluster mw sort hash psum attended hint shuffle prepare treat_seeds unweighter update records s = (s', r) ->
  let model := snd (cres_run_log is_ntuple convert cluster mw sort hash psum shuffle (resample_of prepare treat_seeds) unweighter records) in
  (lg_level s' = lg_level s /\
     (lg_level s <> Info \/ r = RSuccess \/ (r = RPanic /\ model = Panicked) \/ exists e, r = RError e /\ model = Failed e)) \/
  (lg_level s = Info /\ lg_level s' = Off /\
     ((0 < hint /\ exists e, r = RError e /\ snd (read_loop is_ntuple convert cluster 0 records) = Some e) \/
      (r = RPanic /\ model = Panicked /\ exists events search, prepare events = Some search /\ treat_seeds search events = None) \/
      (exists W, model = Wrote W /\ update W <> RSuccess /\ r = match update W with RError e => RError (IOErr e) | _ => RPanic end))).
Proof. intros N O Rec Err S is_ntuple convert cluster mw sort hash psum attended hint shuffle prepare treat_seeds unweighter update records s s' r. apply run_level. Qed.
Print Assumptions C83_level.

(** A run of the library with any components *)
Definition is_run {N : NumOps} {O E : Type} (run : logger (run_msg N O) -> logger (run_msg N O) * run_result (@cres_error E)) : Prop :=
  exists (Rec S : Type) (is_ntuple : Rec -> bool) convert cluster mw sort hash psum attended hint shuffle (prepare : list (Event N) -> option S) treat_seeds unweighter update records,
  forall s, run s = run_logged is_ntuple convert cluster mw sort hash psum attended hint shuffle prepare treat_seeds unweighter update records s.

(** Any number of runs in the same process: the level remains the same if it is not "info", or if no
    run failed; it never becomes anything but "off" otherwise. *)
Theorem C83_history : forall (N : NumOps) (O E : Type) runs (s s' : logger (run_msg N O)) (rs : list (run_result (@cres_error E))),
  Forall is_run runs -> in_sequence runs s = (s', rs) ->
  (lg_level s' = lg_level s \/ lg_level s = Info /\ lg_level s' = Off) /\
  (lg_level s <> Info \/ Forall (fun r => r = RSuccess) rs -> lg_level s' = lg_level s).
Proof.
  intros N O E runs s s' rs F. revert s s' rs. induction F as [|run runs Hr F IH]; intros s s' rs H; cbn [in_sequence] in H.
  - injection H as <- <-. split; [left|]; reflexivity.
  - destruct (run s) as [s1 r1] eqn:E1. destruct (in_sequence runs s1) as [s2 rs2] eqn:E2. injection H as <- <-.
    destruct Hr as (Rec & S & is_ntuple & convert & cluster & mw & sort & hash & psum & attended & hint & shuffle & prepare & treat_seeds & unweighter & update & records & Hr).
    rewrite Hr in E1. destruct (IH _ _ _ E2) as [I1 I2]. pose proof (run_level _ _ _ _ _ _ _ _ _ _ _ _ _ _ _ _ _ _ _ _ _ _ _ E1) as X. split.
    + destruct X as [[X _]|(X1 & X2 & _)].
      * rewrite X in I1. exact I1.
      * right. split; [exact X1|]. destruct I1 as [I1|[I1 _]]; congruence.
    + intros [Hl|Hl].
      * destruct X as [[X _]|(X1 & _)]; [|congruence]. rewrite <- X. apply I2. left. congruence.
      * inversion Hl as [|? ? H1 H2]; subst. assert (lg_level s1 = lg_level s) as <-; [|apply I2; right; exact H2].
        destruct X as [[X _]|(_ & _ & [(_ & e & X & _)|[(X & _)|(W & _ & _ & X)]])]; [exact X|discriminate..|]. destruct (update W); discriminate.
Qed.
Print Assumptions C83_history.

(** Once logging is off, no message is shown, whatever the later runs do. *)
Theorem C83_silent : forall (N : NumOps) (O E : Type) runs (s s' : logger (run_msg N O)) (rs : list (run_result (@cres_error E))),
  Forall is_run runs -> lg_level s = Off -> in_sequence runs s = (s', rs) -> s' = s.
Proof.
  intros N O E runs s s' rs F. revert s s' rs. induction F as [|run runs Hr F IH]; intros s s' rs L H; cbn [in_sequence] in H; [injection H as <- _; reflexivity|].
  destruct (run s) as [s1 r1] eqn:E1. destruct (in_sequence runs s1) as [s2 rs2] eqn:E2. injection H as <- _.
  destruct Hr as (Rec & S & is_ntuple & convert & cluster & mw & sort & hash & psum & attended & hint & shuffle & prepare & treat_seeds & unweighter & update & records & Hr).
  rewrite Hr in E1. apply run_off in E1; [|exact L]. subst s1. exact (IH _ _ _ L E2).
Qed.
Print Assumptions C83_silent.

(** FINDING: bars do hide messages.  If reading fails for files whose number of events is known (STRIPPER XML,
    ntuples), then logging stays switched off, and no later run in the process shows anything. *)
Theorem C83_refuted : forall (N : NumOps) (O Rec Err S : Type) (is_ntuple : Rec -> bool) convert cluster mw sort hash psum attended hint shuffle
    (prepare : list (Event N) -> option S) (treat_seeds : S -> list (Event N) -> option (list (Event N) * list O)) unweighter update (records : list (Rec + Err)) e s runs s' rs,
  In (inr e) records -> 0 < hint -> lg_level s = Info -> Forall is_run runs ->
  in_sequence ((fun s => run_logged is_ntuple convert cluster mw sort hash psum attended hint shuffle prepare treat_seeds unweighter update records s) :: runs) s = (s', rs) ->
  lg_level s' = Off /\ lg_shown s' = lg_shown s /\ exists err, hd RPanic rs = RError err.
Proof.
  intros N O Rec Err S is_ntuple convert cluster mw sort hash psum attended hint shuffle prepare treat_seeds unweighter update records e s runs s' rs Hin Hh L F H.
  cbn [in_sequence] in H. destruct (run_read_error N O Rec Err S is_ntuple convert cluster mw sort hash psum attended hint shuffle prepare treat_seeds unweighter update records e s Hin Hh L) as [err E1].
  rewrite E1 in H. destruct (in_sequence runs (mkLogger Off (lg_shown s))) as [s2 rs2] eqn:E2. injection H as <- <-.
  apply C83_silent in E2; [|exact F|reflexivity]. subst s2. split; [reflexivity|]. split; [reflexivity|]. exists err. reflexivity.
Qed.
Print Assumptions C83_refuted.

(** *** The program cres-classify-events *)
(** The result is the one of ModelPartMain.v if all footers can be written *)
Theorem C83_classify_same : forall (N : NumOps) (double : parser N) checks mw sort nsubevents attended footer_fails (C : Type) cluster dist
    (unyaml : text -> option (C * list (Bisection N (Event N)))) part_file files s, (forall k i, footer_fails k i = false) ->
  snd (classify_main_logged double checks mw sort nsubevents attended footer_fails cluster dist unyaml part_file files s) =
  classify_main double checks mw sort nsubevents cluster dist unyaml part_file files.
Proof.
  intros N double checks mw sort nsubevents attended footer_fails C cluster dist unyaml part_file files s H. unfold classify_main_logged, classify_main.
  destruct (unyaml part_file) as [[c vp]|]; [|reflexivity]. apply files_same. exact H.
Qed.
Print Assumptions C83_classify_same.

(** Otherwise, footers that cannot be written are missing in the outputs, and the program goes on. *)
Theorem C83_classify_outputs : forall (N : NumOps) (double : parser N) checks mw sort nsubevents attended footer_fails (C : Type) cluster dist
    (unyaml : text -> option (C * list (Bisection N (Event N)))) part_file files s s' outs,
  classify_main_logged double checks mw sort nsubevents attended footer_fails cluster dist unyaml part_file files s = (s', Ok outs) ->
  exists full, classify_main double checks mw sort nsubevents cluster dist unyaml part_file files = Ok full /\ length outs = length full /\
    forall k file o_k i out, nth_error files k = Some file -> nth_error outs k = Some o_k -> nth_error o_k i = Some out ->
      exists f_k, nth_error full k = Some f_k /\ length f_k = length o_k /\
        nth_error f_k i = Some (if footer_fails k i then out ++ footer_line (detect_event_file_format file) else out).
Proof.
  intros N double checks mw sort nsubevents attended footer_fails C cluster dist unyaml part_file files s s' outs. unfold classify_main_logged, classify_main.
  destruct (unyaml part_file) as [[c vp]|]; [|discriminate]. intros H. exact (files_outputs _ _ _ _ _ _ _ _ _ _ _ _ 0 _ _ _ H).
Qed.
Print Assumptions C83_classify_outputs.

(** If the level is not "info", or the number of events is not known for any file, all messages are
    shown as the level asks for, and every missing footer is reported as an error. *)
Theorem C83_classify_partial : forall (N : NumOps) (double : parser N) checks mw sort nsubevents attended footer_fails (C : Type) cluster dist
    (unyaml : text -> option (C * list (Bisection N (Event N)))) part_file c vp files s s' outs,
  unyaml part_file = Some (c, vp) ->
  lg_level s <> Info \/ Forall (fun file => size_hint checks (nsubevents file) (detect_event_file_format file) file = 0) files ->
  classify_main_logged double checks mw sort nsubevents attended footer_fails cluster dist unyaml part_file files s = (s', Ok outs) ->
  lg_level s' = lg_level s /\
  lg_shown s' = lg_shown s ++ visible (lg_level s)
    ((Info, CUsing (partition_len vp)) :: concat (map (file_messages footer_fails (partition_len vp)) (seq 0 (length files))) ++ [(Info, CDone)]).
Proof.
  intros N double checks mw sort nsubevents attended footer_fails C cluster dist unyaml part_file c vp files s s' outs Hu Hl H. unfold classify_main_logged in H. rewrite Hu in H.
  assert (F : Forall (not_hidden checks nsubevents (lg_level (log_at Info (CUsing (partition_len vp)) s))) files).
  { rewrite log_at_spec. cbn [lg_level]. destruct Hl as [Hl|Hl].
    - apply Forall_forall. intros x _. left. exact Hl.
    - eapply Forall_impl; [|exact Hl]. intros x Hx. right. exact Hx. }
  rewrite (files_messages _ _ _ _ _ _ _ _ _ _ _ _ _ _ _ _ F H), log_all_spec, log_at_spec. cbn [lg_level lg_shown]. split; [reflexivity|].
  rewrite <- app_assoc, <- visible_app. reflexivity.
Qed.
Print Assumptions C83_classify_partial.

(** Readers of HepMC and LHEF files do not know the number of events. *)
Theorem C83_text_hint : forall checks n f file, f <> StripperXml -> size_hint checks n f file = 0.
Proof. intros checks n [] file H; try reflexivity. congruence. Qed.
Print Assumptions C83_text_hint.

(** FINDING: with level "info", the last message is the one about the first file with known number of
    events.  The program succeeds; footers that are missing in the outputs of this and all later files, and the
    end of the program, are not reported. *)
Theorem C83_classify_refuted : forall (N : NumOps) (double : parser N) checks mw sort nsubevents attended footer_fails (C : Type) cluster dist
    (unyaml : text -> option (C * list (Bisection N (Event N)))) part_file c vp before file after s s' outs,
  unyaml part_file = Some (c, vp) -> lg_level s = Info ->
  Forall (fun file => size_hint checks (nsubevents file) (detect_event_file_format file) file = 0) before ->
  0 < size_hint checks (nsubevents file) (detect_event_file_format file) file ->
  classify_main_logged double checks mw sort nsubevents attended footer_fails cluster dist unyaml part_file (before ++ file :: after) s = (s', Ok outs) ->
  lg_level s' = Off /\
  lg_shown s' = lg_shown s ++ visible Info
    ((Info, CUsing (partition_len vp)) :: concat (map (file_messages footer_fails (partition_len vp)) (seq 0 (length before))) ++ [(Info, CReading (length before))]).
Proof.
  intros N double checks mw sort nsubevents attended footer_fails C cluster dist unyaml part_file c vp before file after s s' outs Hu L F Hh H. unfold classify_main_logged in H. rewrite Hu in H.
  apply files_hidden in H; [|rewrite log_at_spec; exact L|exact F|exact Hh]. rewrite H, log_at_spec. cbn [lg_level lg_shown]. rewrite L. split; [reflexivity|].
  rewrite <- app_assoc, <- visible_app. reflexivity.
Qed.
Print Assumptions C83_classify_refuted.

(** *** Logging in C programs *)
(** Calls of [cres_logger_from_env]: thread, validity of the name, level in the variable *)
Fixpoint logger_calls {M} (calls : list (nat * bool * option level)) (p : c_process M) : c_process M * list Z :=
  match calls with
  | [] => (p, [])
  | (thread, utf8, value) :: calls =>
      let '(p, c) := cres_logger_from_env p thread utf8 value in let '(p, cs) := logger_calls calls p in (p, c :: cs)
  end.
(** The first call with a valid name, and no other one, returns 0 and sets the level, by default "info"; all
    others return -1 and leave an error message for their thread. *)
Theorem C83_logger : forall (M : Type) (pre post : list (nat * bool * option level)) thread value (p : c_process M) (cs : list Z),
  Forall (fun c => snd (fst c) = false) pre -> logger_calls (pre ++ (thread, true, value) :: post) process_start = (p, cs) ->
  cs = repeat (-1)%Z (length pre) ++ 0%Z :: repeat (-1)%Z (length post) /\
  p_log p = mkLogger (match value with Some l => l | None => Info end) [] /\
  forall t, p_errors p t = if existsb (fun c => fst (fst c) =? t) (pre ++ post) then Some ModelCApi.panic_text else None.
Proof.
  intros M pre post thread value p cs F H.
  assert (P : forall post (q p' : c_process M) cs', p_logger q = true -> logger_calls post q = (p', cs') ->
    cs' = repeat (-1)%Z (length post) /\ p_log p' = p_log q /\ forall t, p_errors p' t = if existsb (fun c => fst (fst c) =? t) post then Some ModelCApi.panic_text else p_errors q t).
  { clear. induction post as [|[[th u] v] post IH]; intros q p' cs' L H; cbn [logger_calls] in H; [injection H as <- <-; repeat split; reflexivity|].
    unfold cres_logger_from_env in H. rewrite L in H.
    destruct u; cbn [negb] in H; destruct (logger_calls post _) as [p2 cs2] eqn:E; injection H as <- <-; (apply IH in E; [|first [exact L|reflexivity]]); destruct E as (-> & E2 & E3); (split; [reflexivity|]); (split; [exact E2|]);
    intros t; rewrite E3; cbn [p_errors existsb fst]; unfold ModelCApi.set_error; rewrite (Nat.eqb_sym t th); (destruct (th =? t); cbn [orb]; [destruct (existsb _ _); reflexivity|reflexivity]). }
  assert (Q : forall pre (q p' : c_process M) cs', Forall (fun c : nat * bool * option level => snd (fst c) = false) pre -> p_logger q = false ->
    logger_calls (pre ++ (thread, true, value) :: post) q = (p', cs') ->
    cs' = repeat (-1)%Z (length pre) ++ 0%Z :: repeat (-1)%Z (length post) /\ p_log p' = mkLogger (match value with Some l => l | None => Info end) (lg_shown (p_log q)) /\
    forall t, p_errors p' t = if existsb (fun c => fst (fst c) =? t) (pre ++ post) then Some ModelCApi.panic_text else p_errors q t).
  { clear -P. induction pre as [|[[th u] v] pre IH]; intros q p' cs' F L H; cbn [app logger_calls] in H.
    - unfold cres_logger_from_env in H. cbn [negb] in H. rewrite L in H. destruct (logger_calls post _) as [p2 cs2] eqn:E. injection H as <- <-. apply P in E; [|reflexivity].
      destruct E as (-> & E2 & E3). split; [reflexivity|]. split; [exact E2|]. exact E3.
    - inversion F as [|? ? Hu F']; subst. cbn [fst snd] in Hu. subst u. unfold cres_logger_from_env in H. cbn [negb] in H.
      destruct (logger_calls (pre ++ _) _) as [p2 cs2] eqn:E. injection H as <- <-. apply IH in E; [|exact F'|exact L]. destruct E as (-> & E2 & E3). split; [reflexivity|]. split; [exact E2|].
      intros t. rewrite E3. cbn [p_errors existsb fst app]. unfold ModelCApi.set_error. rewrite (Nat.eqb_sym t th). destruct (th =? t); cbn [orb]; [destruct (existsb _ _); reflexivity|reflexivity]. }
  exact (Q pre process_start p cs F eq_refl H).
Qed.
Print Assumptions C83_logger.

(** *** Cases *)
(** Three events, of which the second has a negative weight, and one that has no particles *)
Definition p_events : list (Event ZN) := [mkEvent (N := ZN) 0 [5]%Z [(1%Z, [fv_new])]; mkEvent (N := ZN) 0 [-1]%Z [(1%Z, [fv_new])]; mkEvent (N := ZN) 0 [9]%Z []].
Definition p_convert (e : Event ZN) : Event ZN + unit := inl e.
(** naive search with constant distance; the observer reports the number of cells *)
Definition p_seeds (_ : unit) (evs : list (Event ZN)) : option (list (Event ZN) * list nat) :=
  match lib_resample (N := ZN) (Err := unit) false isort MostNegative (naive_nearest first_min) (fun _ _ => 1%Z) 10%Z evs with
  | Some (inl evs) => Some (evs, [1]) | _ => None end.
Definition p_run (hint : nat) (fails : bool) (records : list (Event ZN + unit)) : logger (run_msg ZN nat) -> logger (run_msg ZN nat) * run_result (@cres_error unit) :=
  run_logged (fun _ => false) p_convert p_convert false isort (fun l => l) nsum true hint (fun l => l) (fun _ => Some tt) p_seeds lib_no_unweight
    (fun _ => if fails then RError tt else RSuccess) records.
(** Two runs with level "info": both show their messages.  With level "warn", only the warning is shown. *)
Definition p_shown : list (run_msg ZN nat) := Eval vm_compute in lg_shown (fst (p_run 3 false (map inl p_events) (mkLogger Info []))).
Example C83_case :
  p_shown = [MLine (LRead 3); MLine (LIgnored 1); MLine (LCategory 2 [(1%Z, 1)]); MLine (LInitial (mkStats (N := ZN) 4%Z 5%Z 0%Z)); MInit;
             MLine (LCells 1); MObserver 1; MLine (LFinal (mkStats (N := ZN) 4%Z 2%Z 0%Z))] /\
  in_sequence [p_run 3 false (map inl p_events); p_run 0 false (map inl p_events)] (mkLogger Info []) =
    (mkLogger Info (p_shown ++ MReading :: p_shown), [RSuccess; RSuccess]) /\
  p_run 0 false (map inl p_events) (mkLogger Warn []) = (mkLogger Warn [MLine (LIgnored 1)], RSuccess) /\
  Forall is_run [p_run 3 false (map inl p_events); p_run 0 false (map inl p_events)].
Proof.
  split; [vm_compute; reflexivity|]. split; [vmr|]. split; [vmr|]. repeat apply Forall_cons; try apply Forall_nil; do 17 eexists; intros s; reflexivity.
Qed.
(** The first run fails while reading or writing; the second one, which succeeds, shows nothing. *)
Example C83_refuted_case :
  in_sequence [p_run 3 false (map inl p_events ++ [inr tt]); p_run 0 false (map inl p_events)] (mkLogger Info []) = (mkLogger Off [], [RError (IOErr tt); RSuccess]) /\
  in_sequence [p_run 3 true (map inl p_events); p_run 0 false (map inl p_events)] (mkLogger Info []) = (mkLogger Off p_shown, [RError (IOErr tt); RSuccess]) /\
  in_sequence [p_run 0 false (map inl p_events ++ [inr tt]); p_run 3 false (map inl p_events)] (mkLogger Info []) = (mkLogger Info (MReading :: p_shown), [RError (IOErr tt); RSuccess]).
Proof. repeat split; vmr. Qed.

(** A STRIPPER XML file and a HepMC file are classified; the footer of the second output of each cannot be written. *)
Definition c_run (level : level) (files : list text) :=
  classify_main_logged (N := ZN) z_double true false isort (fun _ => 2%N) true (fun _ i => i =? 1) (fun _ : unit => Some) (fun _ => ex_dist)
    (fun _ => Some (tt, ex_vp)) [] files (mkLogger level []).
Definition st_cut : text := Eval vm_compute in st_header ++ trim_footer st_record2 StripperXml.
Definition ex_cut : text := Eval vm_compute in ex_header ++ ex_record2.
Example C83_classify_case :
  c_run Info [ex_footed; st_file] = (mkLogger Off [CUsing 2; CReading 0; CFooter 0 1; CReading 1], Ok [[ex_out0; ex_cut]; [st_out0; st_cut]]) /\
  c_run Debug [ex_footed; st_file] = (mkLogger Debug [CUsing 2; CReading 0; CFooter 0 1; CReading 1; CFooter 1 1; CDone], Ok [[ex_out0; ex_cut]; [st_out0; st_cut]]) /\
  c_run Info [ex_footed; ex_footed] = (mkLogger Info [CUsing 2; CReading 0; CFooter 0 1; CReading 1; CFooter 1 1; CDone], Ok [[ex_out0; ex_cut]; [ex_out0; ex_cut]]) /\
  c_run Info [st_file; ex_footed] = (mkLogger Off [CUsing 2; CReading 0], Ok [[st_out0; st_cut]; [ex_out0; ex_cut]]) /\
  size_hint true 2 (detect_event_file_format st_file) st_file = 2 /\ size_hint true 2 (detect_event_file_format ex_footed) ex_footed = 0.
Proof. repeat split; vmr. Qed.
(** The second call has an invalid name, the third one is too late. *)
Example C83_logger_case : let '(p, cs) := logger_calls (M := unit) [(0, false, None); (1, true, Some Warn); (2, true, Some Trace)] process_start in
  cs = [-1; 0; -1]%Z /\ p_log p = mkLogger Warn [] /\ p_errors p 0 = Some ModelCApi.panic_text /\ p_errors p 1 = None /\ p_errors p 2 = Some ModelCApi.panic_text.
Proof. vm_compute. repeat split; reflexivity. Qed.
