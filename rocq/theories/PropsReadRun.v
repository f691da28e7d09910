(** Property C90: complete runs on files that are read in pieces and whose reads can fail. *)
From Verif Require Import Base BaseProofs Num ModelEvent ModelText SpecText TextProofs ModelHepMC ModelLHEF ModelStripper ModelIO ModelResampler ModelUnweight
  ModelCres SpecCres CresProofs ModelMain PropsHepMC PropsFormats TextExamples PropsMain ModelRead SpecRead ReadProofs ReadProofs2 PropsRead ModelReadRun SpecReadRun ReadRunProofs.
From Coq Require Import Lia.

Lemma fails_not_written (N : NumOps) double mw names sort cluster shuffle resample unweighter l (W : list (list N)) :
  sort_ok sort -> reorders shuffle -> fails l -> run_on double mw names sort cluster shuffle resample unweighter l <> Wrote W.
Proof.
  intros Hs Hr (p & e & ->) H. unfold run_on in H. apply run_wrote in H as (_ & evs & _ & _ & _ & He & _); [|exact Hr|exact Hs].
  eapply events_of_no_fault; [exact He| |apply fault_read]. rewrite map_app. apply in_or_app. right. left. reflexivity.
Qed.

Lemma event_files_incl (N : NumOps) (xml : text -> option (xml_tag N)) : forall inputs files tags, event_files xml inputs = Ok (files, tags) -> incl files inputs.
Proof.
  induction inputs as [|f inputs IH]; intros files tags H; cbn [event_files] in H.
  - injection H as <- _. apply incl_refl.
  - assert (K : forall (g : list text * list (stripper_tag N) -> res (list text * list (stripper_tag N))),
      (forall fs ts files tags, g (fs, ts) = Ok (files, tags) -> files = fs \/ files = f :: fs) ->
      bind (event_files xml inputs) g = Ok (files, tags) -> incl files (f :: inputs)).
    { intros g Hg B. destruct (event_files xml inputs) as [[fs ts]|e|]; try discriminate. cbn [bind] in B. specialize (IH _ _ eq_refl).
      destruct (Hg _ _ _ _ B) as [->| ->]; [apply incl_tl; exact IH|apply incl_cons; [left; reflexivity|apply incl_tl; exact IH]]. }
    destruct (is_xml f).
    + destruct (xml f) as [[name sc|name n m]|]; [| |discriminate]; (eapply K; [|exact H]); intros fs ts a b E; injection E as <- _; auto.
    + eapply K; [|exact H]. intros fs ts a b E; injection E as <- _; auto.
Qed.

Lemma run_sim : forall exact (N : NumOps) (double : parser N) show xml checks mw names sort cluster shuffle resample unweighter first reads fuel inputs,
  sort_ok sort -> reorders shuffle -> length first = length inputs -> Forall (first_piece_suffices 5) (combine inputs first) ->
  (forall file, In file inputs -> good reads exact file) ->
  let run := cres_program_s double show xml checks mw names sort cluster shuffle resample unweighter first reads fuel inputs in
  run = cres_program double show xml checks mw names sort cluster shuffle resample unweighter fuel inputs \/ (exact = false /\ forall outs, run <> Done outs).
Proof.
  intros exact N double show xml checks mw names sort cluster shuffle resample unweighter first reads fuel inputs Hs Hr Hl Hfirst G run.
    unfold run, cres_program_s, cres_program, open_inputs.
    rewrite (C86_scaling_partial _ xml _ Hfirst).
    assert (Em : map fst (combine inputs first) = inputs).
    { clear -Hl. revert first Hl. induction inputs as [|f inputs IH]; intros [|s first] H; try discriminate; [reflexivity|].
      cbn [combine map fst]. rewrite IH; [reflexivity|]. cbn in H. lia. }
    rewrite Em. destruct (event_files xml inputs) as [[files tags]|e|] eqn:Ef; cbn [bind]; [|left; reflexivity|left; reflexivity].
    assert (Gf : Forall (good reads exact) files).
    { apply Forall_forall. intros f Hf. apply G. exact (event_files_incl _ _ _ _ _ Ef _ Hf). }
    pose proof (new_sim N xml checks (extract_scaling tags) reads exact files Gf) as H1.
    destruct (scio_new xml checks (extract_scaling tags) reads files) as [x|e|]; cbn [sim] in H1.
    2: { destruct H1 as [->|H1]; [left; reflexivity|right; split; [exact H1|discriminate]]. }
    2: { rewrite H1. left. reflexivity. }
    destruct H1 as (y & -> & R). cbn [bind].
    pose proof (read_all_sim N double show xml checks (extract_scaling tags) reads exact fuel x y R) as H2.
    destruct (read_all_s double show xml checks (extract_scaling tags) reads fuel x) as [[l x']|]; [|rewrite H2; left; reflexivity].
    destruct H2 as [[Hf Hx]|(y' & -> & H2)].
    { right. split; [exact Hx|]. intros outs. pose proof (fun W => fails_not_written N double mw names sort cluster shuffle resample unweighter l W Hs Hr Hf) as X.
      destruct (run_on double mw names sort cluster shuffle resample unweighter l) as [|e|W]; [discriminate| |destruct (X W eq_refl)].
      destruct e as [[]|[]|[]|[]|[]|]; discriminate. }
    destruct H2 as [R'|Hf].
    2: { pose proof (fun W => fails_not_written N double mw names sort cluster shuffle resample unweighter l W Hs Hr Hf) as X.
      destruct (run_on double mw names sort cluster shuffle resample unweighter l) as [|e|W]; [left; reflexivity|left; reflexivity|destruct (X W eq_refl)]. }
    destruct (run_on double mw names sort cluster shuffle resample unweighter l) as [|e|W]; [left; reflexivity|left; reflexivity|].
    pose proof (update_all_sim N double show xml checks mw names (extract_scaling tags) reads exact W x' y' R') as H3.
    destruct (scio_update_all double show xml checks mw names (extract_scaling tags) reads W x') as [[n x'']|e|]; cbn [sim] in H3.
    - destruct H3 as ((n' & y'') & -> & _ & R''). cbn [snd] in R''. left. destruct R'' as (_ & _ & _ & _ & _ & -> & _). reflexivity.
    - destruct H3 as [->|H3]; [left; reflexivity|right; split; [exact H3|discriminate]].
    - rewrite H3. left. reflexivity.
Qed.

(** However files are divided into pieces: if no read fails, the run ends as on the contents of the files. *)
Theorem C90_pieces : forall (N : NumOps) (double : parser N) show xml checks mw names sort cluster shuffle resample unweighter first reads fuel inputs,
  sort_ok sort -> reorders shuffle -> length first = length inputs -> Forall (first_piece_suffices 5) (combine inputs first) ->
  (forall k file, In file inputs -> delivers (reads k file) file false /\ first_read_suffices 17 (reads k file) file) ->
  cres_program_s double show xml checks mw names sort cluster shuffle resample unweighter first reads fuel inputs =
  cres_program double show xml checks mw names sort cluster shuffle resample unweighter fuel inputs.
Proof.
  intros N double show xml checks mw names sort cluster shuffle resample unweighter first reads fuel inputs Hs Hr Hl Hfirst Hreads.
  destruct (run_sim true N double show xml checks mw names sort cluster shuffle resample unweighter first reads fuel inputs Hs Hr Hl Hfirst) as [E|[E _]];
    [|exact E|discriminate].
  intros file Hf k. destruct (Hreads k file Hf) as [C S]. split; [|exact S]. exists file, false, []. rewrite app_nil_r. repeat split; auto.
Qed.
Print Assumptions C90_pieces.

(** Whichever reads of events fail: the run ends as on the contents of the files, or not successfully. *)
Theorem C90_failing_partial : forall (N : NumOps) (double : parser N) show xml checks mw names sort cluster shuffle resample unweighter first reads fuel inputs,
  sort_ok sort -> reorders shuffle -> length first = length inputs -> Forall (first_piece_suffices 5) (combine inputs first) ->
  (forall k file, In file inputs -> readable (reads k file) file /\ first_read_suffices 17 (reads k file) file) ->
  let run := cres_program_s double show xml checks mw names sort cluster shuffle resample unweighter first reads fuel inputs in
  run = cres_program double show xml checks mw names sort cluster shuffle resample unweighter fuel inputs \/ forall outs, run <> Done outs.
Proof.
  intros N double show xml checks mw names sort cluster shuffle resample unweighter first reads fuel inputs Hs Hr Hl Hfirst Hreads run.
  destruct (run_sim false N double show xml checks mw names sort cluster shuffle resample unweighter first reads fuel inputs Hs Hr Hl Hfirst) as [E|[_ E]];
    [|left; exact E|right; exact E].
  intros file Hf k. destruct (Hreads k file Hf) as [C S]. split; [|exact S]. destruct C as [C|(t & more & C & E)].
  - exists file, false, []. rewrite app_nil_r. repeat split; auto; discriminate.
  - exists t, true, more. repeat split; auto; discriminate.
Qed.
Print Assumptions C90_failing_partial.

Definition list_eqb (a b : text) : bool := if list_eq_dec ascii_dec a b then true else false.

(** Cases: three files with events, each in two pieces; [at_] says which opening of a file meets a failure. *)
Definition rr_program (first : list source) (reads : nat -> text -> source) (inputs : list text) : ending :=
  @cres_program_s ZN z_double z_show m_xml true false [] isort Some (fun l => rev l) m_resample lib_no_unweight first reads 10 inputs.
Definition rr_whole (file : text) : source := [Data file].
Definition rr_pieces (file : text) : source := [Data (firstn 40 file); Data (skipn 40 file)].
Definition rr_cut (file : text) : source := [Data (firstn 40 file); Data (firstn (length file - 50) (skipn 40 file)); Failure].
Definition rr_reads (at_ : nat) (k : nat) (file : text) : source := if k =? at_ then rr_cut file else rr_pieces file.

Lemma rr_delivers (file : text) : 40 < length file -> delivers (rr_pieces file) file false.
Proof.
  intros H. unfold rr_pieces.
  assert (A : firstn 40 file <> []) by (intros A; apply (f_equal (@length _)) in A; rewrite firstn_length in A; cbn [length] in A; lia).
  assert (B : skipn 40 file <> []) by (intros B; apply (f_equal (@length _)) in B; rewrite skipn_length in B; cbn [length] in B; lia).
  assert (E : delivers [Data (firstn 40 file); Data (skipn 40 file)] (firstn 40 file ++ skipn 40 file ++ []) false)
    by (apply delivers_piece; [exact A|]; apply delivers_piece; [exact B|]; apply delivers_end).
  rewrite app_nil_r, firstn_skipn in E. exact E.
Qed.
Lemma rr_cut_readable (file : text) : 50 < length file -> readable (rr_cut file) file.
Proof.
  intros H. right. exists (firstn 40 file ++ firstn (length file - 50) (skipn 40 file) ++ []), (skipn (length file - 50) (skipn 40 file)). split.
  - unfold rr_cut.
    assert (A : firstn 40 file <> []) by (intros A; apply (f_equal (@length _)) in A; rewrite firstn_length in A; cbn [length] in A; lia).
    assert (B : firstn (length file - 50) (skipn 40 file) <> [])
      by (intros B; apply (f_equal (@length _)) in B; rewrite firstn_length, skipn_length in B; cbn [length] in B; lia).
    apply delivers_piece; [exact A|]. apply delivers_piece; [exact B|]. apply delivers_failure.
  - rewrite app_nil_r, <- app_assoc, firstn_skipn, firstn_skipn. reflexivity.
Qed.
Lemma rr_first (file : text) : 17 <= length (trim_ascii_start (firstn 40 file)) ->
  first_read_suffices 17 (rr_pieces file) file /\ first_read_suffices 17 (rr_cut file) file.
Proof. intros H. split; left; exact H. Qed.

Definition rr_lhef : list text := Eval vm_compute in match m_program [lh_good] with Done o => o | _ => [] end.
(** A failure in the first pass is an error, as is one in the second pass before the last event that is
    written.  If only what follows the last event cannot be read in the second pass, the outputs are the same. *)
Example C90_case :
  length (map rr_whole m_inputs) = length m_inputs /\ Forall (first_piece_suffices 5) (combine m_inputs (map rr_whole m_inputs)) /\
  (forall file, In file m_inputs -> delivers (rr_pieces file) file false /\ first_read_suffices 17 (rr_pieces file) file) /\
  (forall at_ k file, In file m_inputs -> readable (rr_reads at_ k file) file /\ first_read_suffices 17 (rr_reads at_ k file) file) /\
  rr_program (map rr_whole m_inputs) (fun _ => rr_pieces) m_inputs = Done m_outs /\
  rr_program (map rr_whole m_inputs) (rr_reads 9) m_inputs = Error /\
  rr_program (map rr_whole m_inputs) (rr_reads 17) m_inputs = Error /\
  rr_program [rr_whole lh_good] (rr_reads 3) [lh_good] = Error /\
  rr_program [rr_whole lh_good] (rr_reads 5) [lh_good] = Done rr_lhef /\ m_program [lh_good] = Done rr_lhef.
Proof.
  assert (L : forall file, In file m_inputs -> 50 < length file /\ 17 <= length (trim_ascii_start (firstn 40 file))).
  { intros file [<-|[<-|[<-|[<-|[]]]]]; (split; [apply Nat.ltb_lt|apply Nat.leb_le]; vmr). }
  split; [reflexivity|]. split.
  { assert (D : forall t : text, t <> [] -> first_piece_suffices 5 (t, [Data t])).
    { intros t Ht. split; [|right; reflexivity]. cbn [fst snd]. rewrite <- (app_nil_r t) at 2. apply delivers_piece; [exact Ht|apply delivers_end]. }
    unfold m_inputs. cbn [map combine]. unfold rr_whole.
    repeat (apply Forall_cons; [apply D; discriminate|]); apply Forall_nil. }
  split.
  { intros file H. destruct (L file H) as [L1 L2]. split; [apply rr_delivers; lia|apply rr_first; exact L2]. }
  split.
  { intros a k file H. destruct (L file H) as [L1 L2]. unfold rr_reads. destruct (k =? a).
    - split; [apply rr_cut_readable; exact L1|apply rr_first; exact L2].
    - split; [left; apply rr_delivers; lia|apply rr_first; exact L2]. }
  split; [vmr|]. split; [vmr|]. split; [vmr|]. split; [vmr|]. split; vmr.
Qed.

(** If the first read of a file returns too few bytes, no read fails and still the outputs are different:
    the events are not recognised.  The negative weight remains, and the last byte is lost. *)
Theorem C90_detect_refuted : delivers rd_short lh_good false /\ m_program [lh_good] = Done rr_lhef /\
  rr_program [rr_whole lh_good] (fun _ _ => rd_short) [lh_good] = Done [removelast lh_good] /\ rr_lhef <> [removelast lh_good] /\
  occurs (lit " 2 1 -6 0 0 0") (removelast lh_good).
Proof.
  split; [exact (proj1 C86_detect_refuted)|]. split; [vmr|]. split; [vmr|]. split.
  - intros E. apply (f_equal (fun l => list_eqb (hd [] l) (removelast lh_good))) in E. revert E.
    assert (A : list_eqb (hd [] rr_lhef) (removelast lh_good) = false) by vmr. assert (B : list_eqb (hd [] [removelast lh_good]) (removelast lh_good) = true) by vmr.
    rewrite A, B. discriminate.
  - exists (firstn (match find (lit " 2 1 -6 0 0 0") lh_good with Some k => k | None => 0 end) lh_good),
      (removelast (skipn (match find (lit " 2 1 -6 0 0 0") lh_good with Some k => k + 13 | None => 0 end) lh_good)). vmr.
Qed.
Print Assumptions C90_detect_refuted.

(** If a read fails while the scale factors are extracted, the run is successful but the weights are
    different. *)
Definition rr_mixed : list text := [ex_file; m_norm; m_stripper; m_stripper].
Definition rr_good : list text := Eval vm_compute in match m_program rr_mixed with Done o => o | _ => [] end.
Definition rr_bad : list text := Eval vm_compute in
  match rr_program [rr_whole ex_file; rr_whole m_norm; rr_whole m_stripper; Failure :: rr_whole m_stripper] (fun _ => rr_whole) rr_mixed with Done o => o | _ => [] end.
Theorem C90_scaling_refuted :
  m_program rr_mixed = Done rr_good /\ rr_program (map rr_whole rr_mixed) (fun _ => rr_whole) rr_mixed = Done rr_good /\
  rr_program [rr_whole ex_file; rr_whole m_norm; rr_whole m_stripper; Failure :: rr_whole m_stripper] (fun _ => rr_whole) rr_mixed = Done rr_bad /\
  length rr_good = 3 /\ length rr_bad = 3 /\ hd [] rr_good <> hd [] rr_bad.
Proof.
  split; [vmr|]. split; [vmr|]. split; [vmr|]. split; [reflexivity|]. split; [reflexivity|].
  intros E. apply (f_equal (list_eqb (hd [] rr_good))) in E. revert E.
  assert (A : list_eqb (hd [] rr_good) (hd [] rr_good) = true) by vmr. assert (B : list_eqb (hd [] rr_good) (hd [] rr_bad) = false) by vmr.
  rewrite A, B. discriminate.
Qed.
Print Assumptions C90_scaling_refuted.
