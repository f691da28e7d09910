(** Proofs about the messages of cres-classify-events. *)
From Coq Require Import ZArith Lia Ascii String.
From Verif Require Import Base BaseProofs Num ModelEvent ModelText ModelStripper ModelIO ModelPartition ModelClassify ModelPartMain ModelProgress SpecProgress ProgressProofs.
Open Scope list_scope.

Lemma imap_length {A B} (f : nat -> A -> B) i l : length (imap f i l) = length l.
Proof. revert i. induction l as [|a l IH]; intros i; [reflexivity|]. cbn [imap length]. f_equal. apply IH. Qed.
Lemma imap_nth {A B} (f : nat -> A -> B) l : forall i j, nth_error (imap f i l) j = option_map (f (i + j)) (nth_error l j).
Proof.
  induction l as [|a l IH]; intros i j; [destruct j; reflexivity|]. destruct j as [|j]; cbn [imap nth_error option_map]; [rewrite Nat.add_0_r; reflexivity|].
  rewrite IH. do 2 f_equal. lia.
Qed.
Lemma imap_const {A B} (f : A -> B) i (l : list A) : imap (fun _ => f) i l = map f l.
Proof. revert i. induction l as [|a l IH]; intros i; [reflexivity|]. cbn [imap map]. f_equal. apply IH. Qed.
Lemma imap_ext {A B} (f g : nat -> A -> B) i (l : list A) : (forall i a, f i a = g i a) -> imap f i l = imap g i l.
Proof. intros H. revert i. induction l as [|a l IH]; intros i; [reflexivity|]. cbn [imap]. rewrite H, IH. reflexivity. Qed.

Section Classify.
Context (N : NumOps) (double : parser N) (checks mw : bool) (sort : sorter) (nsubevents : text -> BinNums.N) (attended : bool).
Context (footer_fails : nat -> nat -> bool).
Context (cluster : Event N -> option (Event N)) (dist : Event N -> Event N -> N) (vp : list (Bisection N (Event N))).

Notation file_logged := (classify_file_logged double checks mw sort nsubevents attended footer_fails cluster dist vp).
Notation files_logged := (classify_files_logged double checks mw sort nsubevents attended footer_fails cluster dist vp).
Notation files_plain := (classify_files double checks mw sort nsubevents cluster dist vp).
Definition hint_of (file : text) : nat := size_hint checks (nsubevents file) (detect_event_file_format file) file.

Lemma set_nth_len {A} i (a : A) l l' : set_nth i a l = Some l' -> length l' = length l.
Proof.
  revert i l'. induction l as [|x l IH]; intros i l'; [destruct i; discriminate|]. destruct i as [|i]; cbn [set_nth]; [intros E; injection E as <-; reflexivity|].
  destruct (set_nth i a l) as [l''|] eqn:E; [|discriminate]. intros X. injection X as <-. cbn [length]. f_equal. exact (IH _ _ E).
Qed.

Lemma loop_length f records outs outs' : classify_loop double mw sort cluster dist vp f records outs = Ok outs' -> length outs' = length outs.
Proof.
  revert outs. induction records as [|r records IH]; intros outs; cbn [classify_loop]; [intros E; injection E as <-; reflexivity|].
  destruct (record_region double mw sort cluster dist vp f r) as [i| |]; cbn [bind]; try discriminate.
  destruct (nth_error outs i) as [out|]; [|discriminate]. destruct (set_nth i (out ++ trim_footer r f) outs) as [outs1|] eqn:E; [|discriminate].
  intros H. rewrite (IH _ H). exact (set_nth_len _ _ _ _ E).
Qed.

Lemma footers_messages k (outs : list text) : forall i0,
  concat (imap (fun i (_ : text) => if footer_fails k i then [(Error, CFooter k i)] else []) i0 outs) =
  map (fun i => (Error, CFooter k i)) (filter (footer_fails k) (seq i0 (length outs))).
Proof.
  induction outs as [|o outs IH]; intros i0; [reflexivity|]. cbn [imap concat length seq filter]. rewrite IH. destruct (footer_fails k i0); reflexivity.
Qed.

(** One file that is classified *)
Lemma file_ok k file s s' outs : file_logged k file s = (s', Ok outs) ->
  s' = log_all (map (fun i => (Error, CFooter k i)) (filter (footer_fails k) (seq 0 (partition_len vp))))
         (if 0 <? hint_of file then snd (bar_new attended s) else s) /\
  exists full, classify_byte_records double mw sort cluster dist vp checks (nsubevents file) (detect_event_file_format file) file = Ok full /\
    length outs = length full /\
    forall i out, nth_error outs i = Some out ->
      nth_error full i = Some (if footer_fails k i then out ++ footer_line (detect_event_file_format file) else out).
Proof.
  unfold classify_file_logged, classify_byte_records. fold (hint_of file). set (f := detect_event_file_format file).
  destruct (read_records checks (nsubevents file) f file) as [[header records]|]; [|discriminate].
  destruct (if 0 <? hint_of file then bar_new attended s else (bar_default, s)) as [b s1] eqn:E1.
  assert (F : s1 = if 0 <? hint_of file then snd (bar_new attended s) else s) by (destruct (0 <? hint_of file); [rewrite E1|injection E1 as _ <-]; reflexivity).
  destruct (classify_loop double mw sort cluster dist vp f records (repeat header (partition_len vp))) as [o| |] eqn:El; try discriminate.
  intros E. injection E as <- <-. rewrite footers_messages, (loop_length _ _ _ _ El), repeat_length, <- F. split; [reflexivity|].
  eexists. split; [reflexivity|]. rewrite imap_length, map_length. split; [reflexivity|]. intros i out. rewrite imap_nth. cbn [Nat.add].
  rewrite nth_error_map. unfold text in *. destruct (nth_error o i) as [x|]; cbn [option_map]; [|intros X; discriminate X]. intros X. injection X as <-. destruct (footer_fails k i); reflexivity.
Qed.

(** The result does not depend on logging, and is the one of ModelPartMain.v if no footer fails *)
Lemma file_same k file s : (forall i, footer_fails k i = false) ->
  snd (file_logged k file s) = classify_byte_records double mw sort cluster dist vp checks (nsubevents file) (detect_event_file_format file) file.
Proof.
  intros H. unfold classify_file_logged, classify_byte_records. destruct (read_records _ _ _ _) as [[header records]|]; [|reflexivity].
  destruct (if 0 <? _ then bar_new attended s else (bar_default, s)) as [b s1]. destruct (classify_loop _ _ _ _ _ _ _ _) as [o| |]; cbn [bind snd]; try reflexivity.
  f_equal. rewrite <- (imap_const _ 0). apply imap_ext. intros i a. rewrite H. reflexivity.
Qed.
Lemma files_same files : forall k s, (forall k i, footer_fails k i = false) -> snd (files_logged k files s) = files_plain files.
Proof.
  induction files as [|file files IH]; intros k s H; [reflexivity|]. cbn [classify_files_logged classify_files].
  pose proof (file_same k file (log_at Info (CReading k) s) (H k)) as E. destruct (file_logged k file (log_at Info (CReading k) s)) as [s1 r1]. cbn [snd] in E. rewrite <- E.
  destruct r1 as [outs| |]; cbn [bind]; try reflexivity. specialize (IH (Datatypes.S k) s1 H).
  destruct (files_logged (Datatypes.S k) files s1) as [s2 r2]. cbn [snd] in IH. rewrite <- IH. destruct r2; reflexivity.
Qed.

(** Messages if the level is not "info" or the number of events is not known beforehand *)
Definition not_hidden (l : level) (file : text) : Prop := l <> Info \/ hint_of file = 0.

Lemma not_hidden_bar s file : not_hidden (lg_level s) file -> (if 0 <? hint_of file then snd (bar_new attended s) else s : logger classify_msg) = s.
Proof.
  intros [H|H].
  - rewrite bar_dropped. destruct s as [l sh]. cbn [lg_level lg_shown] in *. destruct (0 <? hint_of file); [|reflexivity]. destruct l; congruence.
  - rewrite H. reflexivity.
Qed.

Lemma files_messages files : forall k s s' outs, Forall (not_hidden (lg_level s)) files -> files_logged k files s = (s', Ok outs) ->
  s' = log_all (concat (map (file_messages footer_fails (partition_len vp)) (seq k (length files))) ++ [(Info, CDone)]) s.
Proof.
  induction files as [|file files IH]; intros k s s' outs F H.
  - cbn [classify_files_logged] in H. injection H as <- _. reflexivity.
  - inversion F as [|? ? Hf F']; subst. cbn [classify_files_logged] in H.
    destruct (file_logged k file (log_at Info (CReading k) s)) as [s1 r1] eqn:E1. destruct r1 as [o1| |]; try discriminate.
    destruct (file_ok _ _ _ _ _ E1) as [S1 _]. rewrite not_hidden_bar in S1 by (rewrite log_at_spec; exact Hf).
    destruct (files_logged (Datatypes.S k) files s1) as [s2 r2] eqn:E2. destruct r2 as [o2| |]; try discriminate. injection H as <- _.
    assert (L : lg_level s1 = lg_level s) by (rewrite S1, log_all_spec, log_at_spec; reflexivity).
    rewrite (IH _ _ _ _ (eq_ind_r (fun l => Forall (not_hidden l) files) F' L) E2), S1. cbn [length seq map concat].
    rewrite !log_all_spec, log_at_spec. cbn [lg_level lg_shown]. f_equal. rewrite <- !app_assoc, <- !visible_app. f_equal.
Qed.

(** Nothing is shown after level "off". *)
Lemma files_off files : forall k s s' r, lg_level s = Off -> files_logged k files s = (s', r) -> s' = s.
Proof.
  assert (A : forall l (m : classify_msg) s, lg_level s = Off -> l <> Off -> log_at l m s = s).
  { intros l m [l' sh] H Hl. cbn [lg_level] in H. subst l'. destruct l; try reflexivity. congruence. }
  assert (B : forall msgs (s : logger classify_msg), lg_level s = Off -> Forall (fun m => fst m <> Off) msgs -> log_all msgs s = s).
  { intros msgs s H Hm. rewrite log_all_spec, H, visible_off, app_nil_r by exact Hm. rewrite <- H. destruct s; reflexivity. }
  induction files as [|file files IH]; intros k s s' r L H.
  - cbn [classify_files_logged] in H. injection H as <- _. apply A; [exact L|discriminate].
  - cbn [classify_files_logged] in H. rewrite (A _ _ _ L) in H by discriminate.
    assert (E : fst (file_logged k file s) = s).
    { unfold classify_file_logged. fold (hint_of file). destruct (read_records _ _ _ _) as [[header records]|]; [|reflexivity].
      replace (if 0 <? hint_of file then bar_new attended s else (bar_default, s)) with (bar_default, s).
      2:{ unfold bar_new. rewrite L. destruct (0 <? hint_of file); reflexivity. }
      destruct (classify_loop _ _ _ _ _ _ _ _); cbn [fst]; try reflexivity. rewrite footers_messages. apply B; [exact L|]. apply Forall_map, Forall_forall. discriminate. }
    destruct (file_logged k file s) as [s1 r1]. cbn [fst] in E. subst s1. destruct r1 as [o1| |]; try congruence.
    destruct (files_logged (Datatypes.S k) files s) as [s2 r2] eqn:E2. specialize (IH _ _ _ _ L E2). destruct r2; congruence.
Qed.

Lemma files_app pre rest : forall k s s' outs, files_logged k (pre ++ rest) s = (s', Ok outs) -> Forall (not_hidden (lg_level s)) pre ->
  exists outs', files_logged (k + length pre) rest (log_all (concat (map (file_messages footer_fails (partition_len vp)) (seq k (length pre)))) s) = (s', Ok outs').
Proof.
  induction pre as [|file pre IH]; intros k s s' outs H F.
  - cbn [app length seq map concat] in *. rewrite Nat.add_0_r. exists outs. exact H.
  - inversion F as [|? ? Hf F']; subst. cbn [app classify_files_logged] in H.
    destruct (file_logged k file (log_at Info (CReading k) s)) as [s1 r1] eqn:E1. destruct r1 as [o1| |]; try discriminate.
    destruct (file_ok _ _ _ _ _ E1) as [S1 _]. rewrite not_hidden_bar in S1 by (rewrite log_at_spec; exact Hf).
    destruct (files_logged (Datatypes.S k) (pre ++ rest) s1) as [s2 r2] eqn:E2. destruct r2 as [o2| |]; try discriminate. injection H as <- _.
    assert (L : lg_level s1 = lg_level s) by (rewrite S1, log_all_spec, log_at_spec; reflexivity).
    destruct (IH _ _ _ _ E2 (eq_ind_r (fun l => Forall (not_hidden l) pre) F' L)) as [o' Ho]. exists o'. cbn [length seq map concat].
    replace (k + Datatypes.S (length pre)) with (Datatypes.S k + length pre) by lia. rewrite <- Ho. f_equal.
    rewrite S1, !log_all_spec, log_at_spec. cbn [lg_level lg_shown]. f_equal. rewrite <- !app_assoc, <- !visible_app. reflexivity.
Qed.

(** With level "info", nothing is shown from the first file on for which the number of events is known *)
Lemma files_hidden pre file rest s s' outs : lg_level s = Info -> Forall (fun f => hint_of f = 0) pre -> 0 < hint_of file ->
  files_logged 0 (pre ++ file :: rest) s = (s', Ok outs) ->
  s' = mkLogger Off (lg_shown s ++ visible Info (concat (map (file_messages footer_fails (partition_len vp)) (seq 0 (length pre))) ++ [(Info, CReading (length pre))])).
Proof.
  intros L F Hh H. assert (F' : Forall (not_hidden (lg_level s)) pre) by (eapply Forall_impl; [|exact F]; intros a Ha; right; exact Ha).
  destruct (files_app _ _ _ _ _ _ H F') as [o' E]. cbn [Nat.add classify_files_logged] in E.
  set (s1 := log_at Info (CReading (length pre)) _) in E.
  assert (E1 : s1 = mkLogger Info (lg_shown s ++ visible Info (concat (map (file_messages footer_fails (partition_len vp)) (seq 0 (length pre))) ++ [(Info, CReading (length pre))]))).
  { unfold s1. rewrite log_at_spec, log_all_spec. cbn [lg_level lg_shown]. rewrite L, <- app_assoc, <- visible_app. reflexivity. }
  destruct (file_logged (length pre) file s1) as [s2 r2] eqn:E2. destruct r2 as [o2| |]; try discriminate.
  destruct (file_ok _ _ _ _ _ E2) as [S2 _]. apply Nat.ltb_lt in Hh. rewrite Hh, bar_dropped, E1 in S2. cbn [lg_level lg_shown] in S2.
  rewrite log_all_spec in S2. cbn [lg_level lg_shown] in S2. rewrite visible_off, app_nil_r in S2 by (apply Forall_map, Forall_forall; discriminate).
  destruct (files_logged (Datatypes.S (length pre)) rest s2) as [s3 r3] eqn:E3. assert (s3 = s2) as -> by (eapply files_off; [|exact E3]; rewrite S2; reflexivity).
  destruct r3; try discriminate. injection E as <- _. exact S2.
Qed.

(** Contents of the outputs *)
Lemma files_outputs files : forall k s s' outs, files_logged k files s = (s', Ok outs) ->
  exists full, files_plain files = Ok full /\ length outs = length full /\
    forall j file o_k i out, nth_error files j = Some file -> nth_error outs j = Some o_k -> nth_error o_k i = Some out ->
      exists f_k, nth_error full j = Some f_k /\ length f_k = length o_k /\
        nth_error f_k i = Some (if footer_fails (k + j) i then out ++ footer_line (detect_event_file_format file) else out).
Proof.
  induction files as [|file files IH]; intros k s s' outs H; cbn [classify_files_logged] in H.
  - injection H as _ <-. exists []. split; [reflexivity|]. split; [reflexivity|]. intros [|j]; discriminate.
  - destruct (file_logged k file (log_at Info (CReading k) s)) as [s1 r1] eqn:E1. destruct r1 as [o1| |]; try discriminate.
    destruct (file_ok _ _ _ _ _ E1) as (_ & f1 & C1 & L1 & N1).
    destruct (files_logged (Datatypes.S k) files s1) as [s2 r2] eqn:E2. destruct r2 as [o2| |]; try discriminate. injection H as _ <-.
    destruct (IH _ _ _ _ E2) as (f2 & C2 & L2 & N2). exists (f1 :: f2). cbn [classify_files]. rewrite C1. cbn [bind]. rewrite C2. cbn [bind]. split; [reflexivity|].
    split; [cbn [length]; congruence|]. intros [|j] fl o_k i out Hf Ho Hi; cbn [nth_error] in Hf, Ho.
    + injection Hf as <-. injection Ho as <-. exists f1. rewrite Nat.add_0_r. split; [reflexivity|]. split; [congruence|]. apply N1. exact Hi.
    + destruct (N2 _ _ _ _ _ Hf Ho Hi) as (f_k & A1 & A2 & A3). exists f_k. replace (k + Datatypes.S j) with (Datatypes.S k + j) by lia. repeat split; assumption.
Qed.
End Classify.
