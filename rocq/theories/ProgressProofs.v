(** Proofs about progress bars and logging. *)
From Coq Require Import ZArith Lia.
From Verif Require Import Base Num ModelEvent ModelText ModelStripper ModelIO ModelCell ModelSeeds ModelResampler ModelCres ModelLog ModelPartition ModelClassify ModelPartMain ModelProgress SpecProgress.

Section Bars.
Context {M : Type}.
Implicit Type s : logger M.

Lemma log_at_spec l (m : M) s : log_at l m s = mkLogger (lg_level s) (lg_shown s ++ visible (lg_level s) [(l, m)]).
Proof. unfold log_at, visible, enabled. cbn [filter fst]. destruct (rank l <=? rank (lg_level s)); [reflexivity|]. cbn [map]. rewrite app_nil_r. destruct s; reflexivity. Qed.

Lemma visible_app max (a b : list (level * M)) : visible max (a ++ b) = visible max a ++ visible max b.
Proof. unfold visible. rewrite filter_app, map_app. reflexivity. Qed.
Lemma visible_nil max : visible (M := M) max [] = []. Proof. reflexivity. Qed.

Lemma log_all_spec msgs s : log_all msgs s = mkLogger (lg_level s) (lg_shown s ++ visible (lg_level s) msgs).
Proof.
  unfold log_all. revert s. induction msgs as [|[l m] msgs IH]; intros s; [cbn [fold_left]; rewrite visible_nil, app_nil_r; destruct s; reflexivity|].
  cbn [fold_left fst snd]. rewrite IH, log_at_spec. cbn [lg_level lg_shown]. rewrite <- app_assoc, <- visible_app. reflexivity.
Qed.

(** A bar that is finished leaves no trace. *)
Lemma bar_roundtrip a s : bar_finish (fst (bar_new a s)) (snd (bar_new a s)) = s.
Proof. destruct s as [[] sh]; reflexivity. Qed.
(** One that is not switches logging off if the level is "info". *)
Lemma bar_dropped a s : snd (bar_new a s) = mkLogger (match lg_level s with Info => Off | l => l end) (lg_shown s).
Proof. destruct s as [[] sh]; reflexivity. Qed.

Lemma visible_low max (msgs : list (level * M)) : enabled max Warn = false -> Forall (fun m => 2 <= rank (fst m)) msgs -> visible max msgs = [].
Proof.
  intros H F. unfold visible. induction F as [|m msgs Hm F IH]; [reflexivity|]. cbn [filter].
  assert (rank (fst m) <=? rank max = false) as -> by (unfold enabled in H; apply Nat.leb_gt in H; apply Nat.leb_gt; cbn in H; lia). exact IH.
Qed.
Lemma visible_off (msgs : list (level * M)) : Forall (fun m => fst m <> Off) msgs -> visible Off msgs = [].
Proof.
  intros F. unfold visible. induction F as [|[l m] msgs Hm F IH]; [reflexivity|]. cbn [filter fst]. destruct l; try exact IH. cbn in Hm. congruence.
Qed.
End Bars.

Section Run.
Context (N : NumOps) (O Rec Err S : Type) (is_ntuple : Rec -> bool) (convert : Rec -> Event N + Err) (cluster : Event N -> Event N + Err).
Context (mw : bool) (sort : sorter) (hash : list (category * nat) -> list (category * nat)) (psum : list N -> N) (attended : bool) (hint : nat)
  (shuffle : list (Event N + @cres_error Err) -> list (Event N + @cres_error Err)).
Context (prepare : list (Event N) -> option S) (treat_seeds : S -> list (Event N) -> option (list (Event N) * list O))
  (unweighter : list (Event N) -> option (list (Event N) + Err)) (update : list (list N) -> run_result Err).
Implicit Type s : logger (run_msg N O).

Definition with_severity (l : log_line N) : level * run_msg N O := (severity l, MLine l).

Lemma severity_warn (ls : list (log_line N)) : Forall (fun m : level * run_msg N O => 2 <= rank (fst m)) (map with_severity ls).
Proof. apply Forall_map. apply Forall_forall. intros l _. destruct l; cbn; lia. Qed.

Lemma log_lines_spec ls s : log_lines ls s = mkLogger (lg_level s) (lg_shown s ++ visible (lg_level s) (map with_severity ls)).
Proof. apply log_all_spec. Qed.

Notation run := (run_logged is_ntuple convert cluster mw sort hash psum attended hint shuffle prepare treat_seeds unweighter update).
Notation log := (cres_run_log is_ntuple convert cluster mw sort hash psum shuffle (resample_of prepare treat_seeds) unweighter).

(** What is logged before the resampler *)
Definition census_part nevents (events : list (Event N)) : list (log_line N) :=
  LRead nevents :: (if length events <? nevents then [LIgnored (nevents - length events)] else []) ++ log_multiplicities sort hash events.

Lemma census_logged nevents (events : list (Event N)) s :
  (let s := log_lines [LRead nevents] s in
   let s := if length events <? nevents then log_lines [LIgnored (nevents - length events)] s else s in
   if enabled (lg_level s) Warn then log_lines (log_multiplicities sort hash events) s else s) =
  mkLogger (lg_level s) (lg_shown s ++ visible (lg_level s) (map with_severity (census_part nevents events))).
Proof.
  cbv zeta. unfold census_part.
  set (s1 := if length events <? nevents then _ else _).
  assert (E1 : s1 = mkLogger (lg_level s) (lg_shown s ++ visible (lg_level s) (map with_severity (LRead nevents :: (if length events <? nevents then [LIgnored (nevents - length events)] else []))))).
  { unfold s1. destruct (length events <? nevents); rewrite !log_lines_spec; cbn [lg_level lg_shown].
    - rewrite <- app_assoc, <- visible_app. reflexivity.
    - reflexivity. }
  rewrite E1. cbn [lg_level]. destruct (enabled (lg_level s) Warn) eqn:W.
  - rewrite log_lines_spec. cbn [lg_level lg_shown]. rewrite <- app_assoc, <- visible_app, <- map_app. reflexivity.
  - rewrite app_comm_cons, map_app, visible_app. rewrite (visible_low _ _ W (severity_warn (log_multiplicities sort hash events))), app_nil_r. reflexivity.
Qed.

(** A successful run *)
Lemma run_success records s s' : run records s = (s', RSuccess) ->
  exists lines cells final W events search out obs,
    log records = (lines ++ [LCells cells; LFinal final], Wrote W) /\ update W = RSuccess /\
    prepare events = Some search /\ treat_seeds search events = Some (out, obs) /\
    lg_level s' = lg_level s /\
    lg_shown s' = lg_shown s ++ visible (lg_level s)
      ((if hint =? 0 then [(Info, MReading)] else []) ++ map with_severity lines ++ [(Info, MInit); (Info, MLine (LCells cells))] ++
       map (fun o => (Info, MObserver o)) obs ++ [(Info, MLine (LFinal final))]).
Proof.
  unfold run_logged, cres_run_log, read_events.
  destruct (if 0 <? hint then bar_new attended s else (bar_default, log_at Info MReading s)) as [b0 s0] eqn:E0.
  assert (F0 : bar_finish b0 s0 = mkLogger (lg_level s) (lg_shown s ++ visible (lg_level s) (if hint =? 0 then [(Info, MReading)] else []))).
  { destruct hint as [|h]; cbn in E0.
    - injection E0 as <- <-. unfold bar_finish, bar_default; cbn [logging_disabled]. apply log_at_spec.
    - cbn [Nat.eqb]. rewrite visible_nil, app_nil_r. pose proof (bar_roundtrip attended s) as X. destruct (bar_new attended s) as [x y]. injection E0 as <- <-. cbn [fst snd] in X. rewrite X. destruct s; reflexivity. }
  destruct (read_loop is_ntuple convert cluster 0 records) as [pushed [err|]]; [discriminate|].
  destruct (collect (shuffle pushed)) as [events|err]; [|discriminate]. rewrite F0. clear F0 E0 b0 s0.
  set (used := filter _ events). set (n := length events).
  set (s0 := mkLogger (lg_level s) _).
  pose proof (census_logged n used s0) as C. cbv zeta in C. rewrite C. clear C.
  set (s1 := mkLogger (lg_level s0) _). unfold resample_logged, resampler_log.
  unfold resample_of at 1. destruct (omap ev_weight used) as [wts|] eqn:Ew; [|discriminate].
  destruct (prepare used) as [search|] eqn:Ep; [|discriminate].
  set (s2 := log_at Info (MLine (LCells _)) _).
  pose proof (bar_roundtrip attended s2) as B. destruct (bar_new attended s2) as [b2 s2'] eqn:E2. cbn [fst snd] in B.
  destruct (treat_seeds search used) as [[out obs]|] eqn:Et; [|discriminate]. rewrite B. clear B E2 b2 s2'.
  destruct (unweighter out) as [[evs|]|] eqn:Eu; try discriminate.
  destruct (omap ev_weight (sort (Event N) ev_leb evs)) as [wts'|]; [|discriminate].
  set (s3 := log_lines [LFinal _] _).
  destruct (weights_table mw n (sort (Event N) ev_leb evs)) as [W|]; [|discriminate].
  unfold update_logged. pose proof (bar_roundtrip attended s3) as B. destruct (bar_new attended s3) as [b3 s3'] eqn:E3. cbn [fst snd] in B.
  destruct (update W) eqn:EW; try discriminate. rewrite B. intros E. injection E as <-.
  exists (census_part n used ++ [LInitial (weight_stats nsum wts)]), (length (filter (fun w => nltb w n0) wts)), (weight_stats psum wts'), W, used, search, out, obs.
  split. { f_equal. unfold census_part. rewrite <- !app_comm_cons, <- !app_assoc. reflexivity. }
  split; [exact EW|]. split; [exact Ep|]. split; [exact Et|].
  subst s3 s2 s1 s0. rewrite log_lines_spec, log_all_spec, !log_at_spec. cbn [lg_level lg_shown]. split; [reflexivity|].
  rewrite <- !app_assoc, <- !visible_app. rewrite !map_app. cbn [map]. rewrite <- !app_assoc. reflexivity.
Qed.

(** When the level "off" is not noticed: nothing changes. *)
Lemma run_off records s s' r : lg_level s = Off -> run records s = (s', r) -> s' = s.
Proof.
  intros L. destruct s as [l sh]. cbn [lg_level] in L. subst l. unfold run_logged, resample_logged, update_logged.
  assert (B : (if 0 <? hint then bar_new attended (mkLogger Off sh) else (bar_default, log_at Info MReading (mkLogger Off sh))) = (bar_default, mkLogger Off sh)) by (destruct (0 <? hint); reflexivity).
  rewrite B. clear B.
  assert (A : forall msgs : list (log_line N), log_lines msgs (mkLogger Off sh) = mkLogger Off sh :> logger (run_msg N O)).
  { intros msgs. rewrite log_lines_spec. cbn [lg_level lg_shown]. rewrite visible_off, app_nil_r; [reflexivity|].
    apply Forall_map, Forall_forall. intros x _. destruct x; discriminate. }
  destruct (read_loop is_ntuple convert cluster 0 records) as [pushed [err|]]; [congruence|].
  change (bar_finish bar_default (mkLogger Off sh)) with (mkLogger Off sh : logger (run_msg N O)). destruct (collect (shuffle pushed)) as [events|err]; [|congruence].
  set (used := filter _ events). set (n := length events).
  pose proof (census_logged n used (mkLogger Off sh)) as C. cbv zeta in C. rewrite C. clear C. cbn [lg_level lg_shown].
  rewrite (visible_low (M := run_msg N O) Off _ eq_refl (severity_warn (census_part n used))), app_nil_r.
  destruct (omap ev_weight used) as [wts|]; [|congruence].
  change (log_at Info MInit (log_at Info (MLine (LInitial (weight_stats nsum wts))) (mkLogger Off sh))) with (mkLogger Off sh : logger (run_msg N O)).
  destruct (prepare used) as [search|]; [|congruence].
  change (bar_new attended (log_at Info (MLine (LCells (length (filter (fun w => nltb w n0) wts)))) (mkLogger Off sh))) with (bar_default, mkLogger Off sh : logger (run_msg N O)).
  destruct (treat_seeds search used) as [[out obs]|]; [|congruence].
  change (bar_finish bar_default (mkLogger Off sh)) with (mkLogger Off sh : logger (run_msg N O)).
  replace (log_all (map (fun o => (Info, MObserver o)) obs) (mkLogger Off sh)) with (mkLogger Off sh : logger (run_msg N O)).
  2:{ rewrite log_all_spec. cbn [lg_level lg_shown]. rewrite visible_off, app_nil_r; [reflexivity|]. apply Forall_map, Forall_forall. discriminate. }
  destruct (unweighter out) as [[evs|]|]; try congruence.
  destruct (omap ev_weight (sort (Event N) ev_leb evs)) as [wts'|]; [|congruence]. rewrite A.
  destruct (weights_table mw n (sort (Event N) ev_leb evs)) as [W|]; [|congruence].
  cbn. destruct (update W); cbn; congruence.
Qed.

(** The level after a run *)
Definition dropped_level (l : level) : level := match l with Info => Off | l => l end.

Lemma run_level records s s' r : run records s = (s', r) ->
  (lg_level s' = lg_level s /\
     (lg_level s <> Info \/ r = RSuccess \/ (r = RPanic /\ snd (log records) = Panicked) \/ exists e, r = RError e /\ snd (log records) = Failed e)) \/
  (lg_level s = Info /\ lg_level s' = Off /\
     ((0 < hint /\ exists e, r = RError e /\ snd (read_loop is_ntuple convert cluster 0 records) = Some e) \/
      (r = RPanic /\ snd (log records) = Panicked /\ exists events search, prepare events = Some search /\ treat_seeds search events = None) \/
      (exists W, snd (log records) = Wrote W /\ update W <> RSuccess /\ r = match update W with RError e => RError (IOErr e) | _ => RPanic end))).
Proof.
  unfold run_logged, cres_run_log, read_events.
  destruct (if 0 <? hint then bar_new attended s else (bar_default, log_at Info MReading s)) as [b0 s0] eqn:E0.
  assert (F0 : lg_level (bar_finish b0 s0) = lg_level s).
  { destruct hint as [|h]; cbn in E0.
    - injection E0 as <- <-. unfold bar_finish, bar_default; cbn [logging_disabled]. rewrite log_at_spec. reflexivity.
    - pose proof (bar_roundtrip attended s) as X. destruct (bar_new attended s) as [x y]. injection E0 as <- <-. cbn [fst snd] in X. rewrite X. reflexivity. }
  destruct (read_loop is_ntuple convert cluster 0 records) as [pushed [err|]].
  { intros E. injection E as <- <-. cbn [snd]. destruct (0 <? hint) eqn:Hh.
    - apply Nat.ltb_lt in Hh. pose proof (bar_dropped attended s) as X. rewrite E0 in X. cbn [snd] in X. subst s0. cbn [lg_level].
      destruct (lg_level s); try (left; split; [reflexivity|]; left; discriminate). right. split; [reflexivity|]. split; [reflexivity|]. left. split; [exact Hh|]. exists err. split; reflexivity.
    - injection E0 as <- <-. left. split; [rewrite log_at_spec; reflexivity|]. right. right. right. exists err. split; reflexivity. }
  set (s1 := bar_finish b0 s0) in *. clearbody s1. clear E0 b0 s0.
  destruct (collect (shuffle pushed)) as [events|err].
  2:{ intros E. injection E as <- <-. left. split; [exact F0|]. right. right. right. exists err. split; reflexivity. }
  set (used := filter _ events). set (n := length events).
  pose proof (census_logged n used s1) as C. cbv zeta in C. rewrite C. clear C.
  set (s2 := mkLogger (lg_level s1) _). assert (F2 : lg_level s2 = lg_level s) by exact F0. clearbody s2.
  unfold resample_logged, resampler_log, resample_of.
  destruct (omap ev_weight used) as [wts|] eqn:Ew.
  2:{ intros E. injection E as <- <-. left. split; [exact F2|]. right. right. left. split; reflexivity. }
  set (s3 := log_at Info MInit _). assert (F3 : lg_level s3 = lg_level s) by (unfold s3; rewrite !log_at_spec; exact F2). clearbody s3.
  destruct (prepare used) as [search|] eqn:Ep.
  2:{ intros E. injection E as <- <-. left. split; [exact F3|]. right. right. left. split; reflexivity. }
  set (s4 := log_at Info _ s3). assert (F4 : lg_level s4 = lg_level s) by (unfold s4; rewrite log_at_spec; exact F3). clearbody s4.
  pose proof (bar_roundtrip attended s4) as B. pose proof (bar_dropped attended s4) as D. destruct (bar_new attended s4) as [b4 s4'] eqn:E4. cbn [fst snd] in B, D.
  destruct (treat_seeds search used) as [[out obs]|] eqn:Et.
  2:{ intros E. injection E as <- <-. subst s4'. cbn [lg_level]. rewrite F4. destruct (lg_level s); try (left; split; [reflexivity|]; left; discriminate).
      right. split; [reflexivity|]. split; [reflexivity|]. right. left. split; [reflexivity|]. split; [reflexivity|]. exists used, search. split; assumption. }
  rewrite B. set (s5 := log_all _ s4). assert (F5 : lg_level s5 = lg_level s) by (unfold s5; rewrite log_all_spec; exact F4). clearbody s5.
  destruct (unweighter out) as [[evs|err]|] eqn:Eu.
  2:{ intros E. injection E as <- <-. left. split; [exact F5|]. right. right. right. eexists. split; reflexivity. }
  2:{ intros E. injection E as <- <-. left. split; [exact F5|]. right. right. left. split; reflexivity. }
  destruct (omap ev_weight (sort (Event N) ev_leb evs)) as [wts'|].
  2:{ intros E. injection E as <- <-. left. split; [exact F5|]. right. right. left. split; reflexivity. }
  set (s6 := log_lines _ s5). assert (F6 : lg_level s6 = lg_level s) by (unfold s6; rewrite log_lines_spec; exact F5). clearbody s6.
  destruct (weights_table mw n (sort (Event N) ev_leb evs)) as [W|].
  2:{ intros E. injection E as <- <-. left. split; [exact F6|]. right. right. left. split; reflexivity. }
  clear B D E4. unfold update_logged. pose proof (bar_roundtrip attended s6) as B. pose proof (bar_dropped attended s6) as D. destruct (bar_new attended s6) as [b6 s6'] eqn:E6. cbn [fst snd] in B, D.
  destruct (update W) eqn:EW; intros E; injection E as <- <-.
  3:{ left. rewrite B. split; [exact F6|]. right. left. reflexivity. }
  all: subst s6'; cbn [lg_level]; rewrite F6; destruct (lg_level s); try (left; split; [reflexivity|]; left; discriminate);
    right; split; [reflexivity|]; split; [reflexivity|]; right; right; exists W; split; [reflexivity|]; rewrite EW; split; [discriminate|reflexivity].
Qed.

(** Errors while reading a file with known number of events *)
Lemma read_loop_error id (records : list (Rec + Err)) e : In (inr e) records -> exists err, snd (read_loop is_ntuple convert cluster id records) = Some err.
Proof.
  revert id. induction records as [|r records IH]; intros id Hin; [destruct Hin|]. destruct r as [r|e'].
  - destruct Hin as [Hin|Hin]; [discriminate|]. destruct (IH (Datatypes.S id) Hin) as [err Herr]. cbn [read_loop].
    destruct (is_ntuple r).
    + destruct (treat convert cluster id r); [|eexists; reflexivity]. destruct (read_loop is_ntuple convert cluster (Datatypes.S id) records). exists err. exact Herr.
    + destruct (read_loop is_ntuple convert cluster (Datatypes.S id) records). exists err. exact Herr.
  - exists (IOErr e'). reflexivity.
Qed.

Lemma run_read_error records e s : In (inr e) records -> 0 < hint -> lg_level s = Info ->
  exists err, run records s = (mkLogger Off (lg_shown s), RError err).
Proof.
  intros Hin Hh L. destruct (read_loop_error 0 records e Hin) as [err Herr]. exists err. unfold run_logged.
  apply Nat.ltb_lt in Hh. rewrite Hh. unfold bar_new. rewrite L. destruct (read_loop is_ntuple convert cluster 0 records) as [p o]. cbn [snd] in Herr. subst o. reflexivity.
Qed.
End Run.
Arguments with_severity {N O}.
