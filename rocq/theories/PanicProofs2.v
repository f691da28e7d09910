(** The program as a whole: when it panics, and when it succeeds. *)
From Verif Require Import Base BaseProofs Num ModelEvent ModelText SpecText SpecFormats SpecHepMC SpecPanic TextProofs ReaderProofs ParserProofs
  ModelHepMC HepMCProofs ModelLHEF ModelStripper FormatProofs ModelIO SpecIO FileProofs FileProofs2 IOProofs
  ModelUnweight ModelCres SpecCres CresProofs HepMCProofs2 CresProofs2 SpecSearch SpecWeights ModelResampler RunProofs RunProofs2 ModelMain SpecMain MainProofs MainProofs2 MainProofs3 PanicProofs.
From Coq Require Import Lia.

Section Main.
Context (N : NumOps) (D : N -> Prop) (double : parser N) (show : N -> text) (xml : text -> option (xml_tag N))
  (checks mw : bool) (names : list text) (sort : sorter).
Hypothesis HT : number_text N D double show.
Hypothesis Hnone : mw = false \/ names = [].
Notation xi := (header_info xml).
Notation build := (build_from_files xi checks).
Notation fnext := (fio_next double show checks).
Notation cnext := (cio_next double show xi checks).
Notation conv := (try_convert double mw names sort).

Section Read.
Context (scaling : list (text * N)).

(** *** One file *)
Lemma utf8_after a m c rest : is_ascii c -> utf8 ((a ++ m ++ [c]) ++ rest) = utf8 (a ++ m ++ [c]) && utf8 rest.
Proof. intros Hc. rewrite !app_assoc, <- (app_assoc (a ++ m)). cbn [app]. apply utf8_cut_after. exact Hc. Qed.
Definition fsrc (f : fio N) : text := match f with IOHepMC r | IOLhef r => rd_source r | IOStripper r _ => sr_source r end.
(** no panic while reading *)
Definition fsafe (f : fio N) : Prop :=
  match f with IOHepMC r | IOLhef r => utf8 (rd_source r) = true | IOStripper r _ => checks = false end.

Lemma rescale_np scale x : rescale_weight double show scale x <> Panic.
Proof.
  unfold rescale_weight, replace_weight. intros H. bp H. bp H. destruct x1 as [old r']. unfold replace_range in H.
  assert (H1 : suffix x x0).
  { unfold weight_start in E. destruct (strip_prefix _ x) as [t1|] eqn:F1 in E; [|discriminate]. destruct (space1 t1) as [t2|] eqn:F2 in E; [|discriminate].
    apply suffix_strip in F1, E. apply space1_some in F2 as (s & -> & _). eapply suffix_trans; [exact F1|]. eapply suffix_trans; [|exact E]. exists s. reflexivity. }
  apply suffix_len in H1. apply (suffix_double N D double show HT) in E0. apply suffix_len in E0.
  destruct ((length x - length r' <? length x - length x0) || (length x <? length x - length r')) eqn:Eb; [|discriminate].
  apply orb_true_iff in Eb as [Eb|Eb]; apply Nat.ltb_lt in Eb; lia.
Qed.

Lemma fnext_shrinks f x f' : fnext f = Item x f' -> length (fsrc f') < length (fsrc f).
Proof.
  destruct f as [r|r|r scale]; cbn.
  - unfold hepmc_next, hepmc_read_raw. pose proof (scan_spec "E"%char event_mark (ex_intro _ [NL] eq_refl) (S (length (rd_source r))) ["E"%char] (rd_source r) (Nat.lt_succ_diag_r _)) as Hs.
    destruct (scan _ _ _ _ _) as [rec rest|rec].
    + destruct Hs as (y & E & _ & Hc & _). destruct (utf8 _); [|discriminate]. intros H; injection H as _ <-. cbn. rewrite E, app_length.
      destruct Hc as [Hne _]. destruct y; [congruence|cbn; lia].
    + destruct Hs as [-> _]. cbn [app length]. destruct (1 <? S (length (rd_source r))) eqn:E; [|discriminate]. apply Nat.ltb_lt in E.
      destruct (utf8 _); [|discriminate]. intros H; injection H as _ <-. cbn. lia.
  - unfold lhef_next, lhef_read_raw. pose proof (scan_spec ">"%char lhef_event_end (ex_intro _ (lit "</event") eq_refl) (S (length (rd_source r))) [] (rd_source r) (Nat.lt_succ_diag_r _)) as Hs.
    destruct (scan _ _ _ _ _) as [rec rest|rec]; [|discriminate].
    destruct Hs as (y & E & _ & Hc & _). destruct (utf8 _); [|discriminate]. intros H; injection H as _ <-. cbn. rewrite E, app_length.
    destruct Hc as [Hne _]. destruct y; [congruence|cbn; lia].
  - assert (H : forall y r1, stripper_read_raw checks r = SRecord y r1 -> length (sr_source r1) < length (sr_source r)).
    { unfold stripper_read_raw. pose proof (scan_spec "e"%char subevent_mark (ex_intro _ (lit "<s") eq_refl) (S (length (sr_source r))) subevent_mark (sr_source r) (Nat.lt_succ_diag_r _)) as Hs.
      destruct (scan _ _ _ _ _) as [rec rest|rec]; intros y r1.
      - destruct Hs as (z & E & _ & Hc & _). destruct (utf8 _); [|discriminate]. destruct (usize_pred _ _); [|discriminate]. intros H; injection H as _ <-. cbn. rewrite E, app_length.
        destruct Hc as [Hne _]. destruct z; [congruence|cbn; lia].
      - destruct Hs as [-> _]. destruct (3 <? length (subevent_mark ++ sr_source r)) eqn:E; [|discriminate]. apply Nat.ltb_lt in E. rewrite app_length in E. change (length subevent_mark) with 3 in E.
        destruct (utf8 _); [|discriminate]. destruct (usize_pred _ _); [|discriminate]. intros H; injection H as _ <-. cbn. lia. }
    destruct (stripper_read_raw checks r) as [|y r1|r1|] eqn:E; try discriminate. destruct (rescale_weight double show scale y); try discriminate.
    intros H'; injection H' as _ <-. cbn. eapply H. reflexivity.
Qed.

Lemma fnext_safe f : fsafe f ->
  match fnext f with ModelIO.Panicked => False | Item _ f' | Finished f' => fsafe f' | ModelIO.Failed _ _ => True end.
Proof.
  destruct f as [r|r|r scale]; cbn [fio_next fsafe].
  - intros Hu. unfold hepmc_next, hepmc_read_raw. pose proof (scan_spec "E"%char event_mark (ex_intro _ [NL] eq_refl) (S (length (rd_source r))) ["E"%char] (rd_source r) (Nat.lt_succ_diag_r _)) as Hs.
    destruct (scan _ _ _ _ _) as [rec rest|rec].
    + destruct Hs as (y & E & -> & [Hne [a Ha]] & _).
      assert (Hr : ["E"%char] ++ y = (a ++ [NL]) ++ ["E"%char]) by (rewrite Ha, <- app_assoc; reflexivity).
      rewrite Hr, removelast_last. assert (Hw : utf8 (((a ++ [NL]) ++ "E"%char :: rest)) = true).
      { replace ((a ++ [NL]) ++ "E"%char :: rest) with ("E"%char :: y ++ rest).
        - rewrite <- E. change (utf8 ("E"%char :: rd_source r)) with (utf8 ([] ++ "E"%char :: rd_source r)). rewrite utf8_cut_after by reflexivity. exact Hu.
        - change (("E"%char :: y ++ rest) = (a ++ [NL]) ++ "E"%char :: rest). transitivity ((["E"%char] ++ y) ++ rest); [reflexivity|]. rewrite Hr, <- !app_assoc. reflexivity. }
      rewrite utf8_cut in Hw by reflexivity. apply andb_true_iff in Hw as [Hw1 Hw2]. rewrite Hw1. cbn.
      change ("E"%char :: rest) with ([] ++ "E"%char :: rest) in Hw2. rewrite utf8_cut_after in Hw2 by reflexivity. exact Hw2.
    + destruct Hs as [-> _]. destruct (1 <? length _); [|reflexivity].
      change (["E"%char] ++ rd_source r) with ([] ++ "E"%char :: rd_source r). rewrite utf8_cut_after by reflexivity. rewrite Hu. reflexivity.
  - intros Hu. unfold lhef_next, lhef_read_raw. pose proof (scan_spec ">"%char lhef_event_end (ex_intro _ (lit "</event") eq_refl) (S (length (rd_source r))) [] (rd_source r) (Nat.lt_succ_diag_r _)) as Hs.
    destruct (scan _ _ _ _ _) as [rec rest|rec]; [|reflexivity].
    destruct Hs as (y & E & -> & [Hne [a Ha]] & _). cbn [app] in *. rewrite E, Ha in Hu.
    change lhef_event_end with (lit "</event" ++ [">"%char]) in *. rewrite utf8_after in Hu by reflexivity.
    apply andb_true_iff in Hu as [Hu1 Hu2]. rewrite Ha, Hu1. exact Hu2.
  - intros Hc. assert (H : stripper_read_raw checks r <> SPanic).
    { unfold stripper_read_raw, usize_pred. rewrite Hc. destruct (scan _ _ _ _ _); [|destruct (3 <? _); [|discriminate]];
        (destruct (utf8 _); [|discriminate]); destruct (sr_rem r =? 0)%N; discriminate. }
    destruct (stripper_read_raw checks r) as [|y r1|r1|]; [exact Hc| |exact I|congruence].
    destruct (rescale_weight double show scale y) eqn:E; [exact Hc|exact I|]. exfalso. exact (rescale_np _ _ E).
Qed.

(** The hypotheses on the files with events *)
Definition safe_file (file : text) : Prop := utf8 file = true /\ (checks = false \/ detect_event_file_format file <> StripperXml).
Lemma build_safe file f : safe_file file -> build scaling file = Ok f -> fsafe f /\ length (fsrc f) <= length file.
Proof.
  intros [Hu Hc]. unfold build_from_files. destruct (detect_event_file_format file).
  - intros H; injection H as <-. cbn [fsafe fsrc]. unfold hepmc_open, hepmc_init.
    pose proof (scan_spec "E"%char event_mark (ex_intro _ [NL] eq_refl) (S (length file)) [] file (Nat.lt_succ_diag_r _)) as Hs.
    destruct (scan _ _ _ _ _) as [rec rest|rec]; [|split; [reflexivity|cbn; lia]]. cbn [rd_source].
    destruct Hs as (y & E & _ & [_ [a Ha]] & _). cbn [app] in Ha. split; [|rewrite E, app_length; lia].
    rewrite E, Ha in Hu. change event_mark with ([NL] ++ ["E"%char]) in Hu. rewrite utf8_after in Hu by reflexivity.
    apply andb_true_iff in Hu as [_ Hu]. exact Hu.
  - intros H; injection H as <-. cbn [fsafe fsrc]. unfold lhef_open, lhef_init.
    pose proof (scan_spec ">"%char lhef_init_end (ex_intro _ (NL :: lit "</init") eq_refl) (S (length file)) [] file (Nat.lt_succ_diag_r _)) as Hs.
    destruct (scan _ _ _ _ _) as [rec rest|rec]; [|split; [reflexivity|cbn; lia]]. cbn [rd_source].
    destruct Hs as (y & E & _ & [_ [a Ha]] & _). cbn [app] in Ha. split; [|rewrite E, app_length; lia].
    rewrite E, Ha in Hu. change lhef_init_end with ((NL :: lit "</init") ++ [">"%char]) in Hu. rewrite utf8_after in Hu by reflexivity. apply andb_true_iff in Hu as [_ Hu]. exact Hu.
  - discriminate.
  - destruct Hc as [Hc|Hc]; [|congruence]. destruct (stripper_init checks file) as [[h s]|] eqn:E; [|discriminate].
    destruct (header_info xml h) as [[n k]|]; [|discriminate]. destruct (lookup_scale scaling n); [|discriminate]. intros H; injection H as <-.
    split; [exact Hc|]. cbn. unfold stripper_init in E.
    pose proof (scan_spec "e"%char subevent_mark (ex_intro _ (lit "<s") eq_refl) (S (length file)) [] file (Nat.lt_succ_diag_r _)) as Hs.
    destruct (scan _ _ _ _ _) as [rec rest|rec].
    + injection E as _ <-. destruct Hs as (y & -> & _). rewrite app_length. lia.
    + destruct (length rec <? 3); [destruct checks; [discriminate|]|]; injection E as _ <-; cbn; lia.
Qed.
Lemma build_np file : safe_file file -> build scaling file <> Panic.
Proof.
  intros [_ Hc]. unfold build_from_files. destruct (detect_event_file_format file); try discriminate. destruct Hc as [Hc|Hc]; [|congruence].
  unfold stripper_init. rewrite Hc. destruct (scan _ _ _ _ _) as [rec rest|rec]; [|destruct (length rec <? 3)];
    (destruct (header_info xml _) as [[n k]|]; [|discriminate]; destruct (lookup_scale scaling n); discriminate).
Qed.
Lemma open_np files s i : wf N files s -> i < length files -> Forall safe_file files -> cio_open xi checks scaling i s <> Panic.
Proof.
  intros Hw Hi Hs H. unfold cio_open in H. rewrite (proj1 Hw) in H. destruct (nth_error files i) as [file|] eqn:E; [|apply nth_error_None in E; lia].
  rewrite Forall_forall in Hs. bp H; [exact (build_np file (Hs _ (nth_error_In _ _ E)) H)|].
  assert (Hlt : i < length (c_outs s)) by (rewrite (proj2 Hw); exact Hi). destruct (set_nth_some (fio_header x) (c_outs s) Hlt) as [outs Eo]. rewrite Eo in H. discriminate.
Qed.
Lemma new_np files : Forall safe_file files -> cio_new xi checks scaling files <> Panic.
Proof.
  intros Hs. unfold cio_new, cio_init. cbn [c_files]. destruct (length files =? 0) eqn:E0; [discriminate|]. apply Nat.eqb_neq in E0.
  assert (Hl : forall n i s, wf N files s -> i + n = length files -> cio_init_loop xi checks scaling i n s <> Panic).
  { induction n as [|n IH]; intros i s Hw Hin H; cbn [cio_init_loop] in H; [discriminate|].
    bp H; [exact (open_np files s i Hw ltac:(lia) Hs H)|]. destruct (open_inv N xi checks scaling files s i _ Hw E) as (Hw1 & file1 & f1 & En & Hb & Hc & _). rewrite Hc in H.
    apply IH in H; [exact H|exact Hw1|lia]. }
  intros H. set (s0 := mkCIO files None 0 0 (0%N, Some 0%N) (repeat [] (length files))) in H. assert (Hw0 : wf N files s0) by (split; [reflexivity|apply repeat_length]).
  bp H; [exact (Hl (length files) 0 s0 Hw0 eq_refl H)|]. apply (init_loop_wf N xi checks scaling files) in E; [|exact Hw0].
  exact (open_np files x 0 E ltac:(lia) Hs H).
Qed.

(** *** Several files: [next] *)
Definition rest_len (files : list text) (i : nat) : nat := length (concat (skipn (S i) files)).
(** all records of the current file and of those after it can be read *)
Definition reads_rest (files : list text) (i : nat) (f : fio N) : Prop :=
  (exists l f', delivers fnext f l f') /\
  forall j file, i < j -> nth_error files j = Some file -> exists g l g', build scaling file = Ok g /\ delivers fnext g l g'.

Ltac hw := match goal with Hw : wf _ _ _ |- _ => split; [reflexivity || exact (proj1 Hw)|exact (proj2 Hw)] end.
Lemma next_total files : forall fuel s f, wf N files s -> c_current s = Some f -> length files <= c_idx s + fuel + 1 -> c_idx s < length files ->
  (forall j file, nth_error files j = Some file -> exists f, build scaling file = Ok f) ->
  (Forall safe_file files -> fsafe f -> cnext scaling fuel s <> ModelIO.Panicked) /\
  match cnext scaling fuel s with
  | ModelIO.Panicked => True
  | Finished s' => wf N files s' /\ reads_rest files (c_idx s) f
  | ModelIO.Failed _ s' => wf N files s'
  | Item t s' => wf N files s' /\ exists g, c_current s' = Some g /\ c_idx s' < length files /\
      (reads_rest files (c_idx s') g -> reads_rest files (c_idx s) f) /\
      (Forall safe_file files -> fsafe f -> fsafe g /\ length (fsrc g) + rest_len files (c_idx s') < length (fsrc f) + rest_len files (c_idx s))
  end.
Proof.
  induction fuel as [|fuel IH]; intros s f Hw Hc Hfuel Hidx Hb.
  - assert (Hlast : c_idx s + 1 = length files) by lia. cbn [cio_next]. rewrite Hc. destruct (fnext f) as [f1|x f1|e f1|] eqn:Ef.
    + rewrite (proj1 Hw), Hlast, Nat.eqb_refl. split; [discriminate|]. split; [hw|]. split; [exists [], f1; apply d_end; exact Ef|].
      intros j file Hj Hn. exfalso. assert (j < length files) by (apply nth_error_Some; congruence). lia.
    + split; [discriminate|]. split; [hw|]. exists f1. cbn. split; [reflexivity|]. split; [exact Hidx|]. split.
      * intros [(l & f' & Hd) Hr]. split; [exists (x :: l), f'; eapply d_item; eassumption|exact Hr].
      * intros _ Hs. pose proof (fnext_safe _ Hs) as Hs'. rewrite Ef in Hs'. split; [exact Hs'|]. apply fnext_shrinks in Ef. lia.
    + split; [discriminate|]. hw.
    + split; [|exact I]. intros _ Hs _. pose proof (fnext_safe _ Hs) as Hs'. rewrite Ef in Hs'. exact Hs'.
  - cbn [cio_next]. rewrite Hc. destruct (fnext f) as [f1|x f1|e f1|] eqn:Ef.
    + rewrite (proj1 Hw). destruct (Nat.eq_dec (c_idx s + 1) (length files)) as [Hlast|Hlast].
      * rewrite Hlast, Nat.eqb_refl. split; [discriminate|]. split; [hw|]. split; [exists [], f1; apply d_end; exact Ef|].
        intros j file Hj Hn. exfalso. assert (j < length files) by (apply nth_error_Some; congruence). lia.
      * replace (c_idx s + 1 =? length files) with false by (symmetry; apply Nat.eqb_neq; exact Hlast).
        destruct (nth_error files (c_idx s + 1)) as [file|] eqn:En; [|apply nth_error_None in En; lia]. destruct (Hb _ _ En) as [g Hg].
        destruct (open_ok N xi checks scaling files s _ file g Hw En Hg) as (outs & _ & Hlo & Ho). rewrite Ho.
        set (s1 := mkCIO files (Some g) (c_idx s + 1) (c_nread s) (c_hint s) outs).
        assert (Hw1 : wf N files s1) by (split; [reflexivity|exact Hlo]).
        destruct (IH s1 g Hw1 eq_refl ltac:(cbn [s1 c_idx]; lia) ltac:(cbn [s1 c_idx]; lia) Hb) as [Hnp Hn]. cbn [s1 c_idx] in Hn.
        assert (Hstep : reads_rest files (c_idx s + 1) g -> reads_rest files (c_idx s) f).
        { intros [(l & g' & Hd) Hr]. split; [exists [], f1; apply d_end; exact Ef|]. intros j file' Hj Hf. destruct (Nat.eq_dec j (c_idx s + 1)) as [->|Hne].
          - rewrite En in Hf. injection Hf as <-. eauto.
          - apply (Hr j); [lia|exact Hf]. }
        assert (Hsg : Forall safe_file files -> fsafe g /\ length (fsrc g) <= length file).
        { intros Hs. apply (build_safe file); [|exact Hg]. rewrite Forall_forall in Hs. apply Hs. eapply nth_error_In. exact En. }
        assert (Hrl : rest_len files (c_idx s) = length file + rest_len files (c_idx s + 1)).
        { unfold rest_len. replace (S (c_idx s)) with (c_idx s + 1) by lia. rewrite (skipn_nth_cons _ _ _ _ En). cbn [concat]. rewrite app_length. reflexivity. }
        split; [intros Hs _; apply Hnp; [exact Hs|apply Hsg; exact Hs]|].
        destruct (cnext scaling fuel s1) as [s2|t s2|e s2|]; [| |exact Hn|exact I].
        -- destruct Hn as [Hw2 Hr]. split; [exact Hw2|exact (Hstep Hr)].
        -- destruct Hn as (Hw2 & h & Hch & Hih & Hr & Hlt). split; [exact Hw2|]. exists h. split; [exact Hch|]. split; [exact Hih|]. split; [auto|].
           intros Hs Hf. destruct (Hsg Hs) as [Hg1 Hg2]. destruct (Hlt Hs Hg1) as [Hh1 Hh2]. split; [exact Hh1|]. lia.
    + split; [discriminate|]. split; [hw|]. exists f1. cbn. split; [reflexivity|]. split; [exact Hidx|]. split.
      * intros [(l & f' & Hd) Hr]. split; [exists (x :: l), f'; eapply d_item; eassumption|exact Hr].
      * intros _ Hs. pose proof (fnext_safe _ Hs) as Hs'. rewrite Ef in Hs'. split; [exact Hs'|]. apply fnext_shrinks in Ef. lia.
    + split; [discriminate|]. hw.
    + split; [|exact I]. intros _ Hs _. pose proof (fnext_safe _ Hs) as Hs'. rewrite Ef in Hs'. exact Hs'.
Qed.

Notation readall := (read_all double show xml checks scaling).
Lemma read_rest files : (forall j file, nth_error files j = Some file -> exists f, build scaling file = Ok f) ->
  forall fuel s f, wf N files s -> c_current s = Some f -> c_idx s < length files ->
  (Forall safe_file files -> fsafe f -> length (fsrc f) + rest_len files (c_idx s) < fuel -> readall fuel s <> None) /\
  match readall fuel s with
  | None => True
  | Some (l, s') => wf N files s' /\ (Forall (fun r => exists x, r = inl x) l -> reads_rest files (c_idx s) f)
  end.
Proof.
  intros Hb. induction fuel as [|fuel IH]; intros s f Hw Hc Hidx; [split; [lia|exact I]|]. cbn [read_all].
  destruct (next_total files (cio_fuel s) s f Hw Hc) as [Hnp Hn]; [unfold cio_fuel; rewrite (proj1 Hw); lia|exact Hidx|exact Hb|].
  destruct (cnext scaling (cio_fuel s) s) as [s1|t s1|e s1|].
  - split; [discriminate|]. split; [apply Hn|]. intros _. apply Hn.
  - destruct Hn as (Hw1 & g & Hg & Hi1 & Hr & Hlt). rewrite Hg. destruct (IH s1 g Hw1 Hg Hi1) as [IH1 IH2]. split.
    + intros Hs Hf Hm. destruct (Hlt Hs Hf) as [Hfg Hl]. specialize (IH1 Hs Hfg ltac:(lia)). destruct (readall fuel s1) as [[l s']|]; congruence.
    + destruct (readall fuel s1) as [[l s']|]; [|exact I]. destruct IH2 as [Hw' Hall]. split; [exact Hw'|]. intros H. inversion H; subst. auto.
  - split; [discriminate|]. split; [exact Hn|]. intros H. inversion H as [|? ? [x Hx]]. discriminate.
  - split; [|exact I]. intros Hs Hf _ _. exact (Hnp Hs Hf eq_refl).
Qed.
Lemma read_new files s : cio_new xi checks scaling files = Ok s ->
  (forall fuel, Forall safe_file files -> length (concat files) < fuel -> readall fuel s <> None) /\
  forall fuel l s', readall fuel s = Some (l, s') -> wf N files s' /\
    (Forall (fun r => exists x, r = inl x) l -> forall file, In file files -> exists g l g', build scaling file = Ok g /\ delivers fnext g l g').
Proof.
  intros Hn. pose proof (new_build N xml checks scaling files s Hn) as Hb.
  destruct (new_ok N xi checks scaling files Hb) as (s0 & Hs0 & Hw & _ & Hcase & _). rewrite Hn in Hs0. injection Hs0 as <-.
  destruct Hcase as [[-> Hc]|(file & f & E0 & Hbf & Hc & Hi)].
  - assert (Hr : forall fuel, readall (S fuel) s = Some ([], s)).
    { intros fuel. cbn [read_all]. unfold cio_fuel. cbn [cio_next]. rewrite Hc, (proj1 Hw). reflexivity. }
    split.
    + intros [|fuel] _ Hf; [cbn in Hf; lia|]. rewrite Hr. discriminate.
    + intros [|fuel] l s' H; [discriminate|]. rewrite Hr in H. injection H as <- <-. split; [exact Hw|]. intros _ file [].
  - assert (Hlt : c_idx s < length files) by (rewrite Hi; apply nth_error_Some; congruence). split.
    + intros fuel Hs Hl. destruct (read_rest files Hb fuel s f Hw Hc Hlt) as [H _].
      assert (Hsf : safe_file file) by (rewrite Forall_forall in Hs; apply Hs; eapply nth_error_In; exact E0). destruct (build_safe file f Hsf Hbf) as [H1 H2].
      apply H; [exact Hs|exact H1|]. rewrite Hi. unfold rest_len. destruct files as [|file0 files]; [discriminate|]. injection E0 as ->. cbn [concat skipn] in *. rewrite app_length in Hl. lia.
    + intros fuel l s' H. destruct (read_rest files Hb fuel s f Hw Hc Hlt) as [_ H2]. rewrite H in H2. destruct H2 as [Hw' Hall]. split; [exact Hw'|].
      intros Hl file1 Hin. destruct (Hall Hl) as [(l0 & f' & Hd) Hr]. destruct (In_nth_error _ _ Hin) as [j Hj]. destruct (Nat.eq_dec j 0) as [->|Hne].
      * rewrite E0 in Hj. injection Hj as <-. eauto.
      * apply (Hr j); [lia|exact Hj].
Qed.

(** *** What was read is what is in the files *)
Lemma delivered_hepmc : forall f l f', delivers fnext f l f' -> forall r, f = IOHepMC r -> forall fuel, length (rd_source r) < fuel -> hepmc_rest fuel r = Some l.
Proof.
  induction 1 as [f f' H|f x f1 l f' H Hd IH]; intros r -> [|fuel] Hl; try lia; cbn [hepmc_rest]; cbn [fio_next] in H.
  - destruct (hepmc_next r) as [[[y|] r']|]; try discriminate. reflexivity.
  - pose proof (fnext_shrinks (IOHepMC r) x f1) as Hs. cbn [fio_next fsrc] in Hs. destruct (hepmc_next r) as [[[y|] r']|]; try discriminate. injection H as <- <-.
    specialize (Hs eq_refl). cbn [fsrc] in Hs. rewrite (IH r' eq_refl fuel) by lia. reflexivity.
Qed.
Lemma delivered_lhef : forall f l f', delivers fnext f l f' -> forall r, f = IOLhef r -> forall fuel, length (rd_source r) < fuel -> lhef_rest fuel r = Some l.
Proof.
  induction 1 as [f f' H|f x f1 l f' H Hd IH]; intros r -> [|fuel] Hl; try lia; cbn [lhef_rest]; cbn [fio_next] in H.
  - destruct (lhef_next r) as [[[y|] r']|]; try discriminate. reflexivity.
  - pose proof (fnext_shrinks (IOLhef r) x f1) as Hs. cbn [fio_next fsrc] in Hs. destruct (lhef_next r) as [[[y|] r']|]; try discriminate. injection H as <- <-.
    specialize (Hs eq_refl). cbn [fsrc] in Hs. rewrite (IH r' eq_refl fuel) by lia. reflexivity.
Qed.
Lemma delivered_stripper scale : forall f l f', delivers fnext f l f' -> forall r, f = IOStripper r scale -> forall fuel, length (sr_source r) < fuel ->
  exists records e, stripper_rest checks fuel r = Some (records, e) /\ Forall2 (fun x y => rescale_weight double show scale x = Ok y) records l.
Proof.
  induction 1 as [f f' H|f x f1 l f' H Hd IH]; intros r -> [|fuel] Hl; try lia; cbn [stripper_rest]; cbn [fio_next] in H.
  - destruct (stripper_read_raw checks r) as [|y r1|r1|]; try discriminate; [eexists _, _; split; [reflexivity|constructor]|].
    destruct (rescale_weight double show scale y); discriminate.
  - pose proof (fnext_shrinks (IOStripper r scale) x f1) as Hs. cbn [fio_next fsrc] in Hs. destruct (stripper_read_raw checks r) as [|y r1|r1|]; try discriminate.
    destruct (rescale_weight double show scale y) as [z|e|] eqn:Er; try discriminate. injection H as <- <-.
    specialize (Hs eq_refl). cbn [fsrc] in Hs. destruct (IH r1 eq_refl fuel) as (records & e & E & HF); [lia|]. rewrite E. eexists _, _. split; [reflexivity|]. constructor; assumption.
Qed.
Lemma delivered file g l g' : build scaling file = Ok g -> delivers fnext g l g' -> file_items double show xi checks scaling file l.
Proof.
  intros Hb Hd. unfold file_items, file_records. pose proof Hb as Hb'. unfold build_from_files in Hb'. destruct (detect_event_file_format file) eqn:Ed.
  - injection Hb' as <-. exists l. rewrite Hb. split; [|reflexivity]. unfold hepmc_records. eapply delivered_hepmc; [exact Hd|reflexivity|lia].
  - injection Hb' as <-. exists l. rewrite Hb. split; [|reflexivity]. unfold lhef_records. eapply delivered_lhef; [exact Hd|reflexivity|lia].
  - discriminate.
  - destruct (stripper_init checks file) as [[h s]|]; [|discriminate]. destruct (header_info xml h) as [[n k]|]; [|discriminate]. destruct (lookup_scale scaling n) as [scale|]; [|discriminate].
    injection Hb' as <-. destruct (delivered_stripper scale _ _ _ Hd _ eq_refl (S (length s))) as (records & e & E & HF); [cbn; lia|].
    exists records. rewrite Hb. split; [|exact HF]. eexists _, scale, e. split; [reflexivity|exact E].
Qed.

(** *** Writing never fails for records that could be converted *)
Lemma entry_ok pre rest (w v : N) (r : text) : double_entry double rest = Some (v, r) -> exists t, update_central_weight show (pre ++ rest) (length pre) w = Ok t.
Proof.
  intros E. destruct (double_entry_some HT _ _ _ E) as (s & p & junk & post & -> & -> & Hs & Hp & _ & Hw & Hpost & _).
  unfold update_central_weight. rewrite HepMCProofs2.skipn_pre. replace (s ++ p ++ junk ++ post) with (s ++ (p ++ junk) ++ post) by (rewrite <- app_assoc; reflexivity).
  rewrite any_entry_app by assumption. cbn [or_err bind]. unfold replace_range. rewrite !app_length.
  destruct Hs as [Hs _]. destruct s as [|c s]; [congruence|]. cbn [length].
  match goal with |- context[if ?b then _ else _] => replace b with false end; [eauto|].
  symmetry. apply orb_false_iff. split; apply Nat.ltb_ge; lia.
Qed.
Lemma hepmc_upd_ok r ev ws : parse_hepmc double mw sort names r = Ok ev -> length ws <= 1 -> exists t, hepmc_update show mw names ws r = Ok t.
Proof.
  intros H Hlw. unfold hepmc_update. destruct ws as [|w ws]; [cbn; eauto|]. cbn [weights_is_empty central nth_error].
  unfold parse_hepmc in H. inv_bind H. clear H. destruct x as [[v vs] rest]. unfold extract_weights in E. destruct (starts_with_E r) eqn:HE; [|discriminate]. cbn [negb] in E.
  inv_bind E. inv_bind E. destruct x0 as [nw rest'].
  assert (Hfst : exists v' r3, double_entry double rest' = Some (v', r3)).
  { destruct mw; inv_bind E.
    - destruct x0 as [l r3]. destruct (N.to_nat nw) as [|k]; [cbn [count] in E2; injection E2 as <- _; discriminate|]. cbn [count] in E2.
      destruct (double_entry double rest') as [[v' r4]|]; [eauto|discriminate].
    - destruct x0 as [v' r3]. eauto. }
  clear E. destruct Hfst as (v' & r3 & E2). rewrite E0. cbn [or_err bind]. rewrite E1. cbn [or_err bind].
  destruct (head_spec _ _ _ _ HE E0 E1) as (pre & -> & _). rewrite app_length, Nat.add_sub.
  destruct (entry_ok pre rest' w v' r3 E2) as [t Ht]. rewrite Ht. cbn [bind].
  destruct mw; [|eauto]. destruct Hnone as [?| ->]; [discriminate|]. unfold update_named_weights. destruct ws; [|cbn [length] in Hlw; lia]. cbn. eauto.
Qed.
Lemma lhef_upd_ok r ev ws : parse_lhef double mw sort r = Ok ev -> length ws <= 1 -> exists t, lhef_update show mw ws r = Ok t.
Proof.
  intros H Hlw. unfold lhef_update. destruct ws as [|w ws]; [cbn; eauto|]. cbn [weights_is_empty central nth_error].
  destruct (lhef_head N double sort mw r ev H) as (p & n & rest & -> & _ & _ & Htl & Hall). unfold lhef_tail in Htl. inv_bind Htl. destruct x as [v r1].
  assert (Hh : heads whitespace rest).
  { destruct (double_entry_some HT _ _ _ E) as (s & q & junk & post & -> & _ & [Hs1 Hs2] & _). destruct s as [|c s]; [congruence|]. inversion Hs2; subst. cbn. apply blank_ws. assumption. }
  destruct (Hall rest Hh) as [_ ->]. cbn [or_err bind]. rewrite app_length, Nat.add_sub. destruct (entry_ok p rest w v r1 E) as [t Ht]. rewrite Ht. cbn [bind].
  replace (1 <? length (w :: ws)) with false by (symmetry; apply Nat.ltb_ge; exact Hlw). rewrite andb_false_r. eauto.
Qed.
Lemma stripper_upd_ok scale x y ws : rescale_weight double show scale x = Ok y -> length ws <= 1 -> exists t, stripper_update double show mw scale ws x = Ok t.
Proof.
  intros H Hlw. unfold stripper_update. destruct ws as [|w ws]; [cbn; eauto|]. cbn [weights_is_empty central nth_error].
  replace (1 <? length (w :: ws)) with false by (symmetry; apply Nat.ltb_ge; exact Hlw). rewrite andb_false_r.
  unfold rescale_weight, replace_weight in *. inv_bind H. inv_bind H. destruct x1 as [old r']. rewrite E. cbn [or_err bind]. rewrite E0. cbn [or_err bind].
  unfold replace_range in *. destruct (_ || _); [discriminate|]. cbn [bind]. eauto.
Qed.

Lemma rewrite_ok file recs ws : file_recs N double show xml checks scaling file recs -> Forall (fun r => exists ev, conv r = inl ev) recs -> length ws = length recs -> Forall (fun w => length w <= 1) ws ->
  exists records out n, file_records xi checks scaling file records /\ length records = length recs /\ file_rewrite double show xi checks mw names scaling file ws = Ok (out, n).
Proof.
  intros (items & f & (records & Hrec & Hitems) & Hb & ->) Hconv Hlen HF1. rewrite Forall_forall in HF1. rewrite map_length in Hlen |- *. rewrite Hb in Hitems.
  destruct (records_raw N xi checks scaling file records Hrec) as (f0 & fe & Hb0 & Hd). rewrite Hb in Hb0. injection Hb0 as <-.
  assert (Hlr : length records = length items) by (destruct f; [rewrite Hitems; reflexivity..|eapply Forall2_len; exact Hitems]).
  rewrite Forall_map in Hconv. rewrite Forall_forall in Hconv.
  assert (Hu : exists l, update_list (upd N double show mw names f) ws records = Ok l).
  { destruct (update_list_forall2 (upd N double show mw names f) (fun _ _ _ => True) ws records) as (l & Hl & _); [congruence| |eauto].
    intros w r Hinw Hin. specialize (HF1 w Hinw). destruct f as [rd|rd|rd scale]; cbn [upd].
    - subst items. destruct (Hconv r Hin) as [ev Hev]. apply as_result_inl in Hev. destruct (hepmc_upd_ok r ev w Hev HF1) as [t Ht]. eauto.
    - subst items. destruct (Hconv r Hin) as [ev Hev]. apply as_result_inl in Hev. destruct (lhef_upd_ok r ev w Hev HF1) as [t Ht]. eauto.
    - destruct (In_nth_error _ _ Hin) as [i Hi]. destruct (Forall2_nth _ _ _ _ _ Hitems i r Hi) as (y & _ & Hy). destruct (stripper_upd_ok scale r y w Hy HF1) as [t Ht]. eauto. }
  destruct Hu as [l Hl]. exists records. pose proof (file_rewrite_list N double show xi checks mw names scaling file records f fe ws Hrec Hb Hd) as Hrw.
  rewrite Hl in Hrw. cbn [bind] in Hrw. eexists _, _. split; [exact Hrec|]. split; [exact Hlr|]. apply Hrw. unfold text in *. lia.
Qed.
Lemma rewrite_all files recss : Forall2 (file_recs N double show xml checks scaling) files recss -> forall ws, Forall (fun r => exists ev, conv r = inl ev) (concat recss) -> length ws = length (concat recss) -> Forall (fun w => length w <= 1) ws ->
  exists ls rs, Forall2 (file_records xi checks scaling) files ls /\
    sequence (map (fun x => file_rewrite double show xi checks mw names scaling (fst x) (snd x)) (combine files (deal (map (@length text) ls) ws))) = Ok rs.
Proof.
  induction 1 as [|file recs files recss Hf _ IH]; intros ws Hc Hl H1w; [exists [], []; split; [constructor|reflexivity]|].
  cbn [concat] in *. rewrite app_length in Hl.
  assert (Hsp : Forall (fun w : list N => length w <= 1) (firstn (length recs) ws) /\ Forall (fun w : list N => length w <= 1) (skipn (length recs) ws)) by (apply Forall_app; rewrite firstn_skipn; exact H1w).
  destruct Hsp as [Hsp1 Hsp2]. apply Forall_app in Hc as [Hc1 Hc2].
  destruct (rewrite_ok file recs (firstn (length recs) ws) Hf Hc1) as (records & out & n & H1 & H2 & H3); [rewrite firstn_length; lia|exact Hsp1|].
  destruct (IH (skipn (length recs) ws) Hc2) as (ls & rs & H4 & H5); [rewrite skipn_length; lia|exact Hsp2|].
  exists (records :: ls), ((out, n) :: rs). split; [constructor; assumption|]. cbn [map deal combine sequence fst snd]. unfold text in *. rewrite H2, H3. cbn [bind]. rewrite H5. reflexivity.
Qed.
End Read.

(** *** HepMC files only *)
Section Hep.
Context (scaling : list (text * N)).
Definition hep_state (s : cio N) : Prop :=
  Forall (fun file => detect_event_file_format file = HepMC2) (c_files s) /\ match c_current s with None | Some (IOHepMC _) => True | _ => False end.
Lemma hep_open i s s' : hep_state s -> cio_open xi checks scaling i s = Ok s' -> hep_state s'.
Proof.
  intros [H1 H2] H. unfold cio_open in H. destruct (nth_error (c_files s) i) as [file|] eqn:E; [|discriminate]. inv_bind H.
  destruct (set_nth i (fio_header x) (c_outs s)); [|discriminate]. injection H as <-. split; [exact H1|]. cbn [c_current].
  rewrite Forall_forall in H1. apply nth_error_In in E. unfold build_from_files in E0. rewrite (H1 file E) in E0. injection E0 as <-. exact I.
Qed.
Lemma hep_new files s : Forall (fun file => detect_event_file_format file = HepMC2) files -> cio_new xi checks scaling files = Ok s -> hep_state s.
Proof.
  intros Hf H. unfold cio_new, cio_init in H. cbn [c_files] in H.
  assert (H0 : hep_state (mkCIO files None 0 0 (0%N, Some 0%N) (repeat [] (length files)))) by (split; [exact Hf|exact I]).
  destruct (length files =? 0); [injection H as <-; exact H0|]. inv_bind H.
  assert (Hl : forall n idx s s', hep_state s -> cio_init_loop xi checks scaling idx n s = Ok s' -> hep_state s').
  { clear. induction n as [|n IH]; intros idx s s' Hs H; cbn [cio_init_loop] in H; [injection H as <-; exact Hs|]. inv_bind H.
    apply (hep_open _ _ _ Hs) in E. destruct (c_current x) as [f|] eqn:Ec; [|discriminate]. eapply IH; [|exact H]. destruct E as [E1 E2]. split; [exact E1|]. cbn [c_current]. rewrite Ec in E2. exact E2. }
  eapply hep_open; [|exact H]. eapply Hl; [exact H0|exact E].
Qed.
Lemma hep_next : forall fuel s t s', hep_state s -> cnext scaling fuel s = Item t s' -> hep_state s'.
Proof.
  induction fuel as [|fuel IH]; intros s t s' Hs H; cbn [cio_next] in H; pose proof Hs as [H1 H2].
  all: destruct (c_current s) as [f|] eqn:Ec; [|destruct (length (c_files s) =? 0); try discriminate].
  all: try (destruct f as [r|r|r sc]; try contradiction; cbn [fio_next] in H; destruct (hepmc_next r) as [[[y|] r']|]; try discriminate;
    [injection H as <- <-; split; [exact H1|exact I]|]; destruct (_ =? _); try discriminate).
  all: destruct (cio_open xi checks scaling _ s) as [s1|e|] eqn:Eo; try discriminate; (eapply IH; [eapply hep_open; [exact Hs|exact Eo]|exact H]).
Qed.
Lemma hep_read : forall fuel s l s', hep_state s -> read_all double show xml checks scaling fuel s = Some (l, s') -> forall r, In (inl r) l -> exists t, r = HepMCRecord t.
Proof.
  induction fuel as [|fuel IH]; intros s l s' Hs H; [discriminate|]. cbn [read_all] in H.
  destruct (cnext scaling (cio_fuel s) s) as [s1|t s1|e s1|] eqn:E; try discriminate.
  - injection H as <- <-. intros r [].
  - apply hep_next in E; [|exact Hs]. destruct (c_current s1) as [f|] eqn:Ec; [|discriminate].
    destruct (read_all double show xml checks scaling fuel s1) as [[l1 s2]|] eqn:Er; [|discriminate]. injection H as <- <-.
    intros r [Hr|Hr]; [|eapply IH; eassumption]. injection Hr as <-. destruct E as [_ E]. rewrite Ec in E. destruct f; try contradiction. cbn [record_of]. eauto.
  - injection H as <- <-. intros r [Hr|[]]. discriminate.
Qed.
End Hep.
Lemma hep_files inputs : Forall (fun file => detect_event_file_format file = HepMC2) inputs -> event_files xml inputs = Ok (inputs, []).
Proof.
  induction 1 as [|file inputs Hf _ IH]; [reflexivity|]. cbn [event_files].
  assert (is_xml file = false) as ->; [|rewrite IH; reflexivity].
  unfold detect_event_file_format in Hf. unfold is_xml. destruct (starts_with (lit "root") file); [discriminate|]. destruct (starts_with (lit "<?xml") (trim_ascii_start file)); [discriminate|reflexivity].
Qed.
Lemma hepmc_records_only inputs scaling s fuel l s' r : Forall (fun file => detect_event_file_format file = HepMC2) inputs ->
  open_inputs xml checks inputs = Ok (scaling, s) -> read_all double show xml checks scaling fuel s = Some (l, s') -> In (inl r) l -> exists t, r = HepMCRecord t.
Proof.
  intros Hf Ho Hr. unfold open_inputs in Ho. rewrite (hep_files inputs Hf) in Ho. cbn [bind] in Ho. inv_bind Ho. injection Ho as <- <-.
  apply (hep_read (extract_scaling []) fuel x l s'); [|exact Hr]. eapply hep_new; [exact Hf|exact E].
Qed.

(** *** One weight for each event *)
Section Weight.
Context (Dw : N -> Prop).
Lemma convert_weight r ev : (forall t w r, double t = Some (w, r) -> Dw w) -> conv r = inl ev -> exists w, ev_weights ev = [w] /\ Dw w.
Proof.
  intros HDw H. unfold try_convert in H. destruct r as [t|t|t]; apply as_result_inl in H.
  - unfold parse_hepmc in H. inv_bind H. destruct x as [[w ws] rest]. inv_bind H. destruct x as [u b]. injection H as <-. exists w.
    apply lines_keep in E0; [|exact Hnone]. split; [destruct u; unfold ModelEvent.build, rescale_energies; cbn [ev_weights b_weights]; rewrite E0, add_one; reflexivity|].
    unfold extract_weights in E. destruct (negb _); [discriminate|]. inv_bind E. inv_bind E. destruct x0 as [nw r0].
    assert (E3 : exists r3, double_entry double r0 = Some (w, r3)).
    { destruct mw; inv_bind E.
      - destruct x0 as [l r3]. destruct (N.to_nat nw) as [|k]; [cbn [count] in E3; injection E3 as <- _; discriminate|]. cbn [count] in E3.
        destruct (double_entry double r0) as [[v' r4]|]; [|discriminate]. destruct (count (double_entry double) k r4) as [[l' r5]|]; [|discriminate].
        injection E3 as <- _. injection E as <- _ _. eauto.
      - destruct x0 as [v r3]. injection E as <- _ _. eauto. }
    destruct E3 as [r3 E3].
    unfold double_entry, preceded1 in E3. destruct (space1 _); [|discriminate]. eapply HDw. exact E3.
  - unfold parse_lhef in H. inv_bind H. inv_bind H. destruct x0 as [nup r1]. destruct (_ <? _); [discriminate|]. inv_bind H. destruct x0 as [? r2]. inv_bind H. destruct x0 as [w r3].
    inv_bind H. injection H as <-. exists w. apply lhef_keep in E3. split; [unfold ModelEvent.build; cbn [ev_weights]; rewrite E3, add_one; reflexivity|].
    unfold double_entry, preceded1 in E2. destruct (space1 _); [|discriminate]. eapply HDw. exact E2.
  - unfold parse_stripper_xml in H. inv_bind H. inv_bind H. destruct x0 as [w r1]. inv_bind H. inv_bind H. injection H as <-. exists w. apply stripper_keep in E2.
    split; [unfold ModelEvent.build; cbn [ev_weights]; rewrite E2, add_one; reflexivity|]. eapply HDw. exact E0.
Qed.

End Weight.
Lemma convert_any r ev : conv r = inl ev -> exists w, ev_weights ev = [w].
Proof. intros H. destruct (convert_weight (fun _ => True) r ev (fun _ _ _ _ => I) H) as (w & Hw & _). eauto. Qed.

(** *** The program *)
Section Run.
Context (Dw : N -> Prop).
Context (cluster : Event N -> option (Event N))
  (shuffle : list (Event N + @cres_error (option read_error)) -> list (Event N + @cres_error (option read_error)))
  (resample unweighter : list (Event N) -> option (list (Event N) + option read_error)).
Hypothesis Hshuffle : reorders shuffle.
Hypothesis Hsort : sort_ok sort.
Hypothesis Hcluster : forall e, exists e', cluster e = Some e' /\ ev_weights e' = ev_weights e.
Hypothesis Hres : total_step Dw resample.
Hypothesis Hunw : total_step (fun _ => True) unweighter.
Notation program := (cres_program double show xml checks mw names sort cluster shuffle resample unweighter).
Notation run := (run_on double mw names sort cluster shuffle resample unweighter).
Notation tcl := (try_cluster cluster).

(** nothing is wrong with any record *)
Lemma run_good records : (forall r ev, In (inl r) records -> conv r = inl ev -> exists w, ev_weights ev = [w] /\ Dw w) ->
  (forall r err, In r records -> ~ fault (N := N) conv tcl r err) ->
  exists W, cres_run (fun _ => false) conv tcl mw sort shuffle resample unweighter records = Wrote W /\ length W = length records /\ Forall (fun w => length w <= 1) W.
Proof.
  intros HD0 Hf. destruct (@run_used N _ _ (fun _ => false) conv tcl mw sort resample unweighter shuffle records Hshuffle Hf) as (evs & used & Hev & Hp & _ & _ & H).
  assert (Hids : map ev_id evs = seq 0 (length records)) by (eapply CresProofs2.events_of_ids; exact Hev).
  assert (Hone : Forall (fun e => exists w, ev_weights e = [w] /\ Dw w) evs).
  { apply Forall_forall. intros e Hin. destruct (In_nth_error _ _ Hin) as [n Hn]. destruct Hev as [Hl Hev].
    destruct (nth_error records n) as [r|] eqn:Er; [|apply nth_error_None in Er; assert (n < length evs) by (apply nth_error_Some; congruence); lia].
    destruct (Hev n r e Er Hn) as (rec & ev & ev' & -> & H1 & H2 & _ & ->). cbn [ev_weights].
    unfold try_cluster in H2. destruct (Hcluster ev) as (e2 & E2 & Hw). rewrite E2 in H2. injection H2 as <-. rewrite Hw. exact (HD0 rec ev (nth_error_In _ _ Er) H1). }
  assert (Hone' : Forall (fun e => exists w, ev_weights e = [w] /\ Dw w) used).
  { eapply Permutation_Forall; [exact Hp|]. apply Forall_forall. intros e Hin. apply filter_In in Hin. rewrite Forall_forall in Hone. apply Hone. apply Hin. }
  assert (Hnd : NoDup (map ev_id used)).
  { eapply Permutation_NoDup; [apply Permutation_map; exact Hp|]. apply CresProofs2.nodup_filter_map. rewrite Hids. apply seq_NoDup. }
  destruct (Hres used Hone' Hnd) as (evs1 & E1 & Hw1 & Hn1 & Hi1). destruct (H evs1 E1) as (_ & _ & H2).
  destruct (Hunw evs1) as (evs2 & E2 & Hw2 & Hn2 & Hi2); [eapply Forall_impl; [|exact Hw1]; intros e (w & Hw); eauto|exact Hn1|].
  destruct (H2 evs2 E2 Hsort) as (W & HW & HlW & HW1 & HW2).
  - rewrite Forall_forall in Hw2 |- *. intros e Hin. destruct (Hw2 e Hin) as (w & Hw). split; [rewrite Hw; discriminate|].
    assert (Hid : In (ev_id e) (map ev_id evs)).
    { assert (Hiu : In (ev_id e) (map ev_id used)) by (apply Hi1, Hi2, in_map, Hin). apply in_map_iff in Hiu as (e0 & He0 & Hin0). apply in_map_iff. exists e0. split; [exact He0|].
      apply (Permutation_in _ (Permutation_sym Hp)) in Hin0. apply filter_In in Hin0. apply Hin0. }
    rewrite Hids in Hid. apply in_seq in Hid. lia.
  - exact Hn2.
  - exists W. split; [exact HW|]. split; [exact HlW|]. rewrite Forall_forall. intros ws Hws. apply In_nth_error in Hws. destruct Hws as [n Hnw].
    assert (Hnl : n < length W) by (apply nth_error_Some; congruence). rewrite HlW in Hnl.
    destruct (in_dec Nat.eq_dec n (map ev_id evs2)) as [Hi|Hi].
    + apply in_map_iff in Hi. destruct Hi as (e & <- & Hein). rewrite (HW1 e Hein) in Hnw. injection Hnw as <-. rewrite Forall_forall in Hw2.
      destruct (Hw2 e Hein) as (w & ->). cbn. lia.
    + rewrite (HW2 n Hnl Hi) in Hnw. injection Hnw as <-. destruct mw; cbn; lia.
Qed.

Lemma open_ok_inv inputs scaling s : open_inputs xml checks inputs = Ok (scaling, s) ->
  exists files tags, event_files xml inputs = Ok (files, tags) /\ scaling = extract_scaling tags /\ cio_new xi checks scaling files = Ok s.
Proof.
  unfold open_inputs. destruct (event_files xml inputs) as [[files tags]| |]; try discriminate. cbn [bind].
  destruct (cio_new xi checks (extract_scaling tags) files) as [s1| |] eqn:E; try discriminate. cbn [bind]. intros H; injection H as <- <-. eauto.
Qed.

(** After reading: if all records are there and can be converted, the output is written. *)
Lemma program_tail scaling files s fuel records s' : cio_new xi checks scaling files = Ok s ->
  read_all double show xml checks scaling fuel s = Some (map inl records, s') -> Forall (fun r => exists ev, conv r = inl ev) records ->
  forall W, length W = length records -> Forall (fun w => length w <= 1) W -> exists n s2, cio_update_all double show xi checks mw names scaling W s' = Ok (n, s2).
Proof.
  intros Hn Hr Hconv W HlW HF1. destruct (read_new scaling files s Hn) as [_ Hinv]. destruct (Hinv _ _ _ Hr) as [Hw' Hall].
  assert (Hdel : forall file, In file files -> exists g l g', build scaling file = Ok g /\ delivers fnext g l g').
  { apply Hall. apply Forall_map. apply Forall_forall. eauto. }
  assert (Hrecs : exists recss, Forall2 (file_recs N double show xml checks scaling) files recss).
  { clear -Hdel HT. induction files as [|file files IH]; [exists []; constructor|]. destruct (Hdel file (or_introl eq_refl)) as (g & l & g' & Hb & Hd).
    destruct IH as [recss IH]; [intros f Hf; apply Hdel; right; exact Hf|]. exists (map (record_of g) l :: recss). constructor; [|exact IH].
    exists l, g. split; [eapply delivered; eassumption|]. auto. }
  destruct Hrecs as [recss Hrecs]. destruct (read_files_unique N double show xml checks scaling files recss s fuel _ Hrecs Hn Hr) as [Heq _]. cbn [fst] in Heq.
  assert (Hrr : records = concat recss).
  { revert Heq. generalize (concat recss). clear. induction records as [|r records IH]; intros [|r' l] H; try discriminate; [reflexivity|].
    cbn [map] in H. injection H as <- H. f_equal. apply IH. exact H. }
  subst records. destruct (rewrite_all scaling files recss Hrecs W Hconv HlW HF1) as (ls & rs & H1 & H2).
  pose proof (cio_update N double show xi checks mw names scaling files ls W s' H1 Hw') as Hup. rewrite H2 in Hup. destruct Hup as (s3 & E3 & _). eauto.
Qed.

(** Reading and converting succeed: so does the program. *)
Lemma program_done inputs scaling s records s' : open_inputs xml checks inputs = Ok (scaling, s) ->
  forall fuel0, read_all double show xml checks scaling fuel0 s = Some (map inl records, s') ->
  (forall r ev, In r records -> conv r = inl ev -> exists w, ev_weights ev = [w] /\ Dw w) ->
  (forall r, In r records -> forall err, ~ fault (N := N) conv tcl (inl r) err) ->
  forall fuel, fuel0 <= fuel -> exists outs, program fuel inputs = Done outs.
Proof.
  intros Ho fuel0 Hr HD0 Hf fuel Hle. apply (read_all_mono N double show xml checks) with (fuel' := fuel) in Hr; [|exact Hle].
  unfold cres_program. rewrite Ho, Hr. unfold run_on. rewrite map_map.
  destruct (run_good (map inl records)) as (W & HW & HlW & HF1).
  { intros r ev Hin. apply in_map_iff in Hin as (x & E & Hx). injection E as ->. apply HD0. exact Hx. }
  { intros r err Hin. apply in_map_iff in Hin as (x & <- & Hx). apply Hf. exact Hx. }
  rewrite map_length in HlW. rewrite (map_ext _ inl (fun r => eq_refl)). rewrite HW.
  destruct (open_ok_inv inputs scaling s Ho) as (files & tags & _ & _ & Hn).
  destruct (program_tail scaling files s fuel records s' Hn Hr) with (W := W) as (n & s2 & Hu); [|exact HlW|exact HF1|rewrite Hu; eauto].
  apply Forall_forall. intros r Hin. destruct (conv r) as [ev|e] eqn:E; [eauto|]. exfalso. eapply (Hf r Hin). constructor. exact E.
Qed.
(** If no record makes the parsers panic, the program does not panic. *)
Lemma program_np inputs fuel : (forall t w r, double t = Some (w, r) -> Dw w) -> Forall safe_file inputs -> length (concat inputs) < fuel ->
  (forall scaling s l s', open_inputs xml checks inputs = Ok (scaling, s) -> read_all double show xml checks scaling fuel s = Some (l, s') ->
     forall r, In (inl r) l -> conv r <> inr None) ->
  program fuel inputs <> Crash.
Proof.
  intros HDw Hs Hfuel Hnp. unfold cres_program. destruct (open_inputs xml checks inputs) as [[scaling s]| |] eqn:Ho; [|discriminate|].
  2:{ exfalso. unfold open_inputs in Ho. bp Ho.
      - revert Ho. clear. induction inputs as [|file inputs IH]; cbn [event_files]; [discriminate|].
        destruct (is_xml file); [destruct (xml file) as [[? ?|? ? ?]|]; [| |discriminate]|]; intros H; bp H; auto; destruct x; discriminate.
      - destruct x as [files tags]. bp Ho; [|discriminate]. revert Ho. apply new_np.
        clear -E Hs. revert files tags E. induction Hs as [|file inputs Hf _ IH]; intros files tags E; cbn [event_files] in E; [injection E as <- _; constructor|].
        destruct (is_xml file); [destruct (xml file) as [[? ?|? ? ?]|]; [| |discriminate]|]; inv_bind E; destruct x as [fs ts]; injection E as <- _; try constructor; eauto. }
  destruct (open_ok_inv inputs scaling s Ho) as (files & tags & He & _ & Hn).
  assert (Hsub : Forall safe_file files /\ length (concat files) <= length (concat inputs)).
  { clear -He Hs. revert files tags He. induction Hs as [|file inputs Hf _ IH]; intros files tags E; cbn [event_files] in E; [injection E as <- _; split; [constructor|lia]|].
    destruct (is_xml file); [destruct (xml file) as [[? ?|? ? ?]|]; [| |discriminate]|]; inv_bind E; destruct x as [fs ts]; injection E as <- _;
      destruct (IH _ _ E0) as [H1 H2]; cbn [concat]; rewrite ?app_length; (split; [try constructor; assumption|lia]). }
  destruct Hsub as [Hsf Hl]. destruct (read_new scaling files s Hn) as [Htot Hinv].
  destruct (read_all double show xml checks scaling fuel s) as [[l s']|] eqn:Hr; [|exfalso; apply (Htot fuel Hsf ltac:(lia)); exact Hr].
  specialize (Hnp scaling s l s' eq_refl Hr).
  set (recs := map (fun r : event_record + read_error => match r with inl r => inl r | inr e => inr (Some e) end) l).
  assert (Hdec : (exists r err, In r recs /\ fault conv tcl r err) \/ (forall r err, In r recs -> ~ fault conv tcl r err)).
  { clearbody recs. clear -Hcluster. induction recs as [|r recs IH]; [right; intros r err []|].
    assert (Hr : (exists err, fault conv tcl r err) \/ forall err, ~ fault conv tcl r err).
    { destruct r as [r|e]; [|left; eexists; constructor]. destruct (conv r) as [ev|e] eqn:E; [|left; eexists; constructor; exact E].
      destruct (tcl ev) as [ev'|e] eqn:E2; [|left; eexists; eapply fault_cluster; eassumption].
      destruct (Nat.eq_dec (ev_id ev') 0) as [Hz|Hz]; [|left; eexists; eapply fault_id; eassumption].
      right. intros err HF. inversion HF; subst; congruence. }
    destruct Hr as [[err Hr]|Hr]; [left; exists r, err; split; [left; reflexivity|exact Hr]|].
    destruct IH as [(r' & err & Hin & HF)|IH]; [left; exists r', err; split; [right; exact Hin|exact HF]|right].
    intros r' err [<-|Hin]; [apply Hr|apply IH; exact Hin]. }
  unfold run_on. fold recs. destruct Hdec as [Hbad|Hgood].
  - destruct (@run_fault N _ _ (fun _ => false) conv tcl mw sort resample unweighter shuffle recs Hshuffle Hbad) as (r & err & Hin & HF & ->).
    inversion HF; subst; cbn [end_of]; try discriminate.
    + destruct e; [discriminate|]. exfalso. unfold recs in Hin. apply in_map_iff in Hin as (x & Hx & _). destruct x; discriminate.
    + destruct e; [discriminate|]. exfalso. unfold recs in Hin. apply in_map_iff in Hin as ([x|x] & Hx & Hi); [|discriminate]. injection Hx as ->. eapply Hnp; eassumption.
    + exfalso. unfold try_cluster in H0. destruct (Hcluster ev) as (e2 & E2 & _). rewrite E2 in H0. discriminate.
  - destruct (run_good recs (fun r ev _ => convert_weight Dw r ev HDw) Hgood) as (W & -> & HlW & HF1).
    assert (Hl2 : exists records, l = map inl records).
    { clear -Hgood. subst recs. induction l as [|[r|e] l IH]; [exists []; reflexivity| |exfalso; eapply Hgood; [left; reflexivity|constructor]].
      destruct IH as [records ->]; [intros r' err Hin; apply Hgood; right; exact Hin|]. exists (r :: records). reflexivity. }
    destruct Hl2 as [records ->]. unfold recs in HlW. rewrite !map_length in HlW.
    destruct (program_tail scaling files s fuel records s' Hn Hr) with (W := W) as (n & s2 & Hu); [|exact HlW|exact HF1|rewrite Hu; discriminate].
    apply Forall_forall. intros r Hin. destruct (conv r) as [ev|e] eqn:E; [eauto|]. exfalso. eapply (Hgood (inl r)); [unfold recs; rewrite map_map; apply in_map_iff; eauto|]. constructor. exact E.
Qed.

(** *** Success *)
Lemma read_all_exact scaling : forall fuel s l s', read_all double show xml checks scaling fuel s = Some (l, s') ->
  read_all double show xml checks scaling (S (length l)) s = Some (l, s').
Proof.
  induction fuel as [|fuel IH]; intros s l s' H; [discriminate|]. cbn [read_all] in H.
  destruct (cnext scaling (cio_fuel s) s) as [s1|t s1|e s1|] eqn:E; try discriminate.
  - injection H as <- <-. cbn [length read_all]. rewrite E. reflexivity.
  - destruct (c_current s1) eqn:Ec; [|discriminate]. destruct (read_all double show xml checks scaling fuel s1) as [[l1 s2]|] eqn:Er; [|discriminate].
    injection H as <- <-. apply IH in Er. cbn [length]. remember (S (length l1)) as n. cbn [read_all]. rewrite E, Ec, Er. reflexivity.
  - injection H as <- <-. cbn [length read_all]. rewrite E. reflexivity.
Qed.
Lemma convert_id r ev : conv r = inl ev -> ev_id ev = 0.
Proof.
  intros H. unfold try_convert in H. destruct r as [t|t|t]; apply as_result_inl in H.
  - unfold parse_hepmc in H. inv_bind H. destruct x as [[w ws] rest]. inv_bind H. destruct x as [u b]. injection H as <-. reflexivity.
  - unfold parse_lhef in H. inv_bind H. inv_bind H. destruct x0 as [nup r1]. destruct (_ <? _); [discriminate|]. inv_bind H. destruct x0 as [? r2]. inv_bind H. destruct x0 as [w r3].
    inv_bind H. injection H as <-. reflexivity.
  - unfold parse_stripper_xml in H. inv_bind H. inv_bind H. destruct x0 as [w r1]. inv_bind H. inv_bind H. injection H as <-. reflexivity.
Qed.
Lemma program_reads inputs evs : (forall e e', cluster e = Some e' -> ev_id e' = ev_id e) ->
  Forall (fun e => Forall Dw (ev_weights e)) evs ->
  reads double show xml checks mw names sort inputs evs -> forall fuel, length evs < fuel -> exists outs, program fuel inputs = Done outs.
Proof.
  intros Hid HD0 (scaling & s & fuel0 & l & s' & Ho & Hr & HF) fuel Hlt.
  apply read_all_exact in Hr. assert (Hl : length l = length evs) by (eapply Forall2_len; exact HF).
  assert (Hl2 : exists records, l = map inl records /\ forall r, In r records -> exists ev, conv r = inl ev /\ Forall Dw (ev_weights ev)).
  { clear -HF HD0. induction HF as [|x ev l evs (r & -> & Hc) _ IH]; [exists []; split; [reflexivity|intros r []]|]. inversion HD0; subst. destruct IH as (records & -> & Hall); [assumption|].
    exists (r :: records). split; [reflexivity|]. intros r' [<-|Hin]; eauto. }
  destruct Hl2 as (records & -> & Hc).
  refine (program_done inputs scaling s records s' Ho _ Hr _ _ fuel _); [| |lia].
  { intros r ev Hin Hev. destruct (Hc r Hin) as (ev' & Hev' & HD1). rewrite Hev in Hev'. injection Hev' as <-.
    destruct (convert_any r ev Hev) as [w Hw]. rewrite Hw in HD1. inversion HD1; subst. eauto. }
  intros r Hin err HF'. destruct (Hc r Hin) as (ev & Hev & _). destruct (Hcluster ev) as (e2 & E2 & _).
  inversion HF'; subst; unfold try_cluster in *; try congruence.
  - rewrite Hev in H0. injection H0 as <-. rewrite E2 in H1. discriminate.
  - rewrite Hev in H0. injection H0 as <-. rewrite E2 in H1. injection H1 as <-. apply H2. rewrite (Hid _ _ E2). eapply convert_id. exact Hev.
Qed.
End Run.
End Main.

(** *** The components of the library *)
Lemma lib_no_unweight_total (N : NumOps) Err (kind : N -> Prop) : total_step (Err := Err) kind lib_no_unweight.
Proof.
  intros evs H Hn. exists evs. split; [reflexivity|]. split; [eapply Forall_impl; [|exact H]; intros e (w & Hw & _); eauto|]. split; [exact Hn|apply incl_refl].
Qed.
Lemma lib_resample_total (N : NumOps) Err (kind : N -> Prop) mw sort strategy (algo : search_algo N) dist max : sort_ok sort -> order_on N kind ->
  (forall evs, valid_search (length evs) (algo (length evs) (dist_wrapper dist evs) max)) ->
  total_step (Err := Err) kind (lib_resample mw sort strategy algo dist max).
Proof.
  intros Hs Ho Hv evs Hw Hn.
  assert (Hsh : shaped mw 1 (map ev_weights evs)).
  { split; [lia|]. split; [auto|]. apply Forall_map. eapply Forall_impl; [|exact Hw]. intros e (w & -> & _). reflexivity. }
  destruct (@resampler_some N kind mw 1 sort strategy algo dist max evs Hs Ho) as (evs' & cells & E); [|exact Hsh|apply Hv|].
  { rewrite Forall_map. eapply Forall_impl; [|exact Hw]. intros e (w & -> & Hk). repeat constructor. exact Hk. }
  destruct (resample_thinned E) as [Hid _]. exists evs'. split; [unfold lib_resample; rewrite E; reflexivity|]. rewrite Hid. split; [|split; [exact Hn|apply incl_refl]].
  apply resampler_inv in E. destruct E as (seeds & ws' & _ & Hr & ->).
  pose proof (resample_seeds_length _ _ _ _ Hr) as Hl. rewrite map_length in Hl. assert (H3 : shaped mw 1 ws') by (eapply resample_seeds_shaped; [exact Hsh|exact Hr]); destruct H3 as (_ & _ & H3).
  destruct (with_weights_spec _ _ Hl) as (E1 & _ & _). rewrite <- E1 in H3. apply Forall_map in H3. eapply Forall_impl; [|exact H3].
  intros e He. cbn beta in He. destruct (ev_weights e) as [|w [|? ?]]; try discriminate. eauto.
Qed.
Lemma lib_unweight_total (N : NumOps) Err psum (m : N) draws : neqb m n0 = true \/ nltb n0 m = true ->
  total_step (Err := Err) (fun _ => True) (lib_unweight psum m draws).
Proof.
  intros Hm evs Hw Hn.
  set (P := fun e : Event N => exists w, ev_weights e = [w]).
  assert (HP : Forall P evs) by (eapply Forall_impl; [|exact Hw]; intros e (w & H & _); exists w; exact H). clear Hw.
  assert (Hwt : forall l, Forall P l -> exists ws, omap ev_weight l = Some ws).
  { induction 1 as [|e l (w & He) _ (ws & IH)]; [exists []; reflexivity|]. exists (w :: ws). cbn [omap]. unfold ev_weight at 1. rewrite He. cbn [central nth_error]. rewrite IH. reflexivity. }
  assert (Hsc : forall e x, P e -> P (rescale_weights e x)).
  { intros e x (w & He). eexists. unfold rescale_weights. cbn [ev_weights]. rewrite He. reflexivity. }
  assert (H : exists evs' k, unweight psum m draws evs = Some (evs', k) /\ Forall P evs').
  { unfold unweight. destruct (neqb m n0 || (length evs =? 0)) eqn:E; [eauto|]. apply orb_false_iff in E as [E _].
    destruct Hm as [Hm|Hm]; [congruence|]. rewrite Hm. cbn [negb]. destruct (Hwt evs HP) as [ws ->].
    assert (Hr : forall l k, Forall P l -> exists r k', retain_loop m draws k l = Some (r, k') /\ Forall P r).
    { induction l as [|e l IH]; intros k HF; [exists [], k; split; [reflexivity|constructor]|]. inversion HF as [|? ? (w & He) HF']; subst.
      cbn [retain_loop]. unfold ev_weight. rewrite He. cbn [central nth_error].
      destruct (nltb m (nabs w)); [destruct (IH k HF') as (r & k' & -> & H2)|destruct (IH (S k) HF') as (r & k' & -> & H2)];
        eexists _, _; (split; [reflexivity|]); [|destruct (nltb (draws k) (nabs w))]; try constructor; try assumption; exists w; exact He. }
    destruct (Hr evs 0 HP) as (kept & k & -> & Hk).
    assert (Hli : exists lifted, omap (lift_weight m) kept = Some lifted /\ Forall P lifted).
    { clear -Hk Hsc. induction Hk as [|e l He _ (lifted & IH & HF)]; [exists []; split; [reflexivity|constructor]|].
      cbn [omap]. destruct He as (w & He). unfold lift_weight at 1, ev_weight. rewrite He. cbn [central nth_error]. rewrite IH.
      eexists. split; [reflexivity|]. constructor; [|exact HF]. destruct (nltb _ _); [apply Hsc|]; exists w; exact He. }
    destruct Hli as (lifted & -> & Hl). destruct (Hwt lifted Hl) as [ws' ->]. eexists _, _. split; [reflexivity|].
    apply Forall_map. eapply Forall_impl; [|exact Hl]. intros e He. apply Hsc. exact He. }
  destruct H as (evs' & k & E & HF). exists evs'. unfold lib_unweight. rewrite E. split; [reflexivity|]. split; [exact HF|].
  pose proof (unweight_thinned E) as T. split; [eapply thinned_nodup; eassumption|].
  intros i Hi. apply in_map_iff in Hi as (e' & <- & Hin). destruct (thinned_in T Hin) as (e & He & -> & _). apply in_map. exact He.
Qed.
