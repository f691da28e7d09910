(** Files: what is on disk after a run (C65), what success means (C66), and what is on disk if the
    program or the computer stops at any time (C67). *)
From Verif Require Import Base BaseProofs Num ModelEvent ModelText SpecText SpecFormats ModelHepMC ModelLHEF ModelStripper ModelIO IOProofs ModelCres ModelMain
  ModelFS SpecFS FSProofs FSProofs2 FSProofs3 FSProofs4 FSProofs5 TextExamples PropsHepMC PropsFormats PropsMain MainProofs.

(** C65: if no system call fails, the program ends as if files were just their contents: with
    success, the output files contain what was computed from the contents of the input files, no
    matter how large the buffers are; without, it fails or panics.  All other files, in particular
    the inputs, are unchanged. *)
Theorem C65_files : forall (N : NumOps) start faults cap (double : parser N) show xml checks mw names sort cluster shuffle resample unweighter fuel paths inputs st log,
  input_files start paths inputs -> separate paths ->
  disk_program start faults cap double show xml checks mw names sort cluster shuffle resample unweighter fuel paths = (st, log) ->
  no_failure faults log ->
  match cres_program double show xml checks mw names sort cluster shuffle resample unweighter fuel inputs with
  | Done outputs => st = Success /\
      Forall2 (fun files output => replay start log (snd files) = Some output) (with_events xml start paths) outputs
  | Error => st = Failure
  | Crash => st = Crashed
  end /\
  forall p, ~ In p (map snd (with_events xml start paths)) -> replay start log p = start p.
Proof.
  intros N start faults cap double show xml checks mw names sort cluster shuffle resample unweighter fuel paths inputs st log Hin Hsep Hd Hf.
  pose proof (program_status start faults cap N double show xml checks mw names sort cluster shuffle resample unweighter fuel paths inputs Hin Hsep) as Hs.
  rewrite Hd in Hs. cbn zeta in Hs. cbn [fst snd] in Hs. destruct Hs as (Hg & Hst & _). specialize (Hst Hf).
  split; [|intros p Hp; exact (grows_other start _ _ _ p Hg Hp)].
  destruct (cres_program double show xml checks mw names sort cluster shuffle resample unweighter fuel inputs) as [os| |] eqn:Ep; [|exact Hst..].
  split; [exact Hst|].
  pose proof (program_contents start faults cap N double show xml checks mw names sort cluster shuffle resample unweighter fuel paths inputs os Hin Hsep Ep) as Hc.
  rewrite Hd in Hc. cbn zeta in Hc. cbn [fst snd] in Hc. destruct Hc as (Hl & target & Ht & _ & Hcl). specialize (Hcl Hst).
  apply Forall2_from_nth; [symmetry; exact Hl|]. intros j [a p] o Ej Eo. cbn [snd]. specialize (Ht j a p Ej). pose proof (eq_trans (eq_sym Eo) Ht) as Et. injection Et as ->.
  assert (Hj : j < length (with_events xml start paths)) by (apply nth_error_Some; congruence).
  destruct (Hcl j a p Hj Ej) as (L & [HL1 HL2] & _ & HL3). specialize (HL3 Hf). rewrite HL2, firstn_all2; [reflexivity|exact HL3].
Qed.
Print Assumptions C65_files.

(** C66: success is only reported if all records were written; an output file can then lack no
    more than the contents of one buffer, at its end.  Errors of system calls never make the
    program panic. *)
Theorem C66_success_partial : forall (N : NumOps) start faults cap (double : parser N) show xml checks mw names sort cluster shuffle resample unweighter fuel paths inputs st log,
  input_files start paths inputs -> separate paths ->
  disk_program start faults cap double show xml checks mw names sort cluster shuffle resample unweighter fuel paths = (st, log) ->
  (st = Success ->
   exists outputs, cres_program double show xml checks mw names sort cluster shuffle resample unweighter fuel inputs = Done outputs /\
     Forall2 (fun files output => exists content missing, replay start log (snd files) = Some content /\
         output = content ++ missing /\ length missing <= cap)
       (with_events xml start paths) outputs) /\
  (st = Crashed -> cres_program double show xml checks mw names sort cluster shuffle resample unweighter fuel inputs = Crash).
Proof.
  intros N start faults cap double show xml checks mw names sort cluster shuffle resample unweighter fuel paths inputs st log Hin Hsep Hd.
  pose proof (program_status start faults cap N double show xml checks mw names sort cluster shuffle resample unweighter fuel paths inputs Hin Hsep) as Hs.
  rewrite Hd in Hs. cbn zeta in Hs. cbn [fst snd] in Hs. destruct Hs as (_ & _ & Hst & Hcr). split; [|exact Hcr]. intros E.
  destruct (Hst E) as [os Ep]. exists os. split; [exact Ep|].
  pose proof (program_contents start faults cap N double show xml checks mw names sort cluster shuffle resample unweighter fuel paths inputs os Hin Hsep Ep) as Hc.
  rewrite Hd in Hc. cbn zeta in Hc. cbn [fst snd] in Hc. destruct Hc as (Hl & target & Ht & _ & Hcl). specialize (Hcl E).
  apply Forall2_from_nth; [symmetry; exact Hl|]. intros j [a p] o Ej Eo. cbn [snd]. specialize (Ht j a p Ej). pose proof (eq_trans (eq_sym Eo) Ht) as Et. injection Et as ->.
  assert (Hj : j < length (with_events xml start paths)) by (apply nth_error_Some; congruence).
  destruct (Hcl j a p Hj Ej) as (L & [HL1 HL2] & HL3 & _). exists (firstn L (target p)), (skipn L (target p)).
  split; [exact HL2|]. split; [symmetry; apply firstn_skipn|]. rewrite skipn_length. unfold text in *; lia.
Qed.
Print Assumptions C66_success_partial.

(** C67: suppose that the program or the computer stops after any number of system calls, some of
    which may have failed.  Then all files but the outputs are as they were, and each output is as
    it was, or contains the beginning of what the complete run would have written. *)
Theorem C67_stopped : forall (N : NumOps) start faults cap (double : parser N) show xml checks mw names sort cluster shuffle resample unweighter fuel paths inputs st log k,
  input_files start paths inputs -> separate paths ->
  disk_program start faults cap double show xml checks mw names sort cluster shuffle resample unweighter fuel paths = (st, log) ->
  let now := replay start (firstn k log) in
  (forall p, ~ In p (map snd (with_events xml start paths)) -> now p = start p) /\
  forall outputs, cres_program double show xml checks mw names sort cluster shuffle resample unweighter fuel inputs = Done outputs ->
    Forall2 (fun files output => now (snd files) = start (snd files) \/ exists content, now (snd files) = Some content /\ begins_with content output)
      (with_events xml start paths) outputs.
Proof.
  intros N start faults cap double show xml checks mw names sort cluster shuffle resample unweighter fuel paths inputs st log k Hin Hsep Hd. cbn zeta. split.
  - pose proof (program_status start faults cap N double show xml checks mw names sort cluster shuffle resample unweighter fuel paths inputs Hin Hsep) as Hs.
    rewrite Hd in Hs. cbn zeta in Hs. cbn [fst snd] in Hs. destruct Hs as (Hg & _). intros p Hp. exact (grows_other start _ _ _ p (grows_firstn _ _ k Hg) Hp).
  - intros os Ep.
    pose proof (program_contents start faults cap N double show xml checks mw names sort cluster shuffle resample unweighter fuel paths inputs os Hin Hsep Ep) as Hc.
    rewrite Hd in Hc. cbn zeta in Hc. cbn [fst snd] in Hc. destruct Hc as (Hl & target & Ht & Hsafe & _).
    apply Forall2_from_nth; [symmetry; exact Hl|]. intros j [a p] o Ej Eo. cbn [snd]. specialize (Ht j a p Ej). pose proof (eq_trans (eq_sym Eo) Ht) as Et. injection Et as ->.
    destruct (Hsafe k p) as [H|(L & _ & H)]; [apply (in_map snd _ _ (nth_error_In _ _ Ej))|left; exact H|right].
    exists (firstn L (target p)). split; [exact H|]. exists (skipn L (target p)). symmetry. apply firstn_skipn.
Qed.
Print Assumptions C67_stopped.

(** *** Examples: the run of [C63_case], with buffers of 100 bytes *)
Definition fs_program (start : disk) (faults : nat -> option nat) (cap : nat) (paths : list (path * path)) : status * list syscall :=
  @disk_program start faults cap ZN z_double z_show m_xml true false [] isort Some (fun l => rev l) m_resample lib_no_unweight 10 paths.
Definition fs_start : disk := fun p => match p with 0 => Some ex_file | 1 => Some m_norm | 2 => Some lh_good | 3 => Some m_stripper | 12 => Some (lit "old") | _ => None end.
Definition fs_paths : list (path * path) := [(0, 10); (1, 11); (2, 12); (3, 13)].
Definition fs_log : list syscall := Eval vm_compute in snd (fs_program fs_start (fun _ => None) 100 fs_paths).
(** a fault at call number 7 *)
Definition fs_fault (n : nat) : nat -> option nat := fun m => if m =? n then Some 5 else None.

Lemma fs_meets : input_files fs_start fs_paths m_inputs /\ separate fs_paths.
Proof.
  split; [repeat constructor|]. split; [repeat constructor; cbn; intuition lia|]. cbn. intuition lia.
Qed.
Example C65_case : input_files fs_start fs_paths m_inputs /\ separate fs_paths /\
  fs_program fs_start (fun _ => None) 100 fs_paths = (Success, fs_log) /\ no_failure (fun _ => None) fs_log /\
  with_events m_xml fs_start fs_paths = [(0, 10); (2, 12); (3, 13)] /\
  map (replay fs_start fs_log) [10; 11; 12; 13] = match m_outs with [a; b; c] => [Some a; None; Some b; Some c] | _ => [] end.
Proof. destruct fs_meets. split; [assumption|]. split; [assumption|]. split; [vmr|]. split; [intros n _; reflexivity|]. split; vmr. Qed.

(** Not if two inputs share an output (which happens if they have the same name in different
    directories, C58): the program succeeds, and the output contains the output for the second
    input followed by the end of the output for the first. *)
Definition real_cap : nat := N.to_nat 8192.
Definition fs_short : text := Eval vm_compute in ex_header ++ ln "E 1 2 3 4 5 6 7 8 9 10 0 1 3" ++ ln "P 1 11 3 4 12 13 0 1".
Definition fs_shared : disk := fun p => match p with 0 => Some ex_file | 1 => Some fs_short | _ => None end.
Definition fs_shared_paths : list (path * path) := [(0, 5); (1, 5)].
Definition fs_shared_log : list syscall := Eval vm_compute in snd (fs_program fs_shared (fun _ => None) real_cap fs_shared_paths).
Definition fs_shared_outs : list text := Eval vm_compute in match m_program [ex_file; fs_short] with Done o => o | _ => [] end.
Theorem C65_shared_refuted : exists first second,
  input_files fs_shared fs_shared_paths [ex_file; fs_short] /\
  m_program [ex_file; fs_short] = Done [first; second] /\
  fs_program fs_shared (fun _ => None) real_cap fs_shared_paths = (Success, fs_shared_log) /\
  replay fs_shared fs_shared_log 5 = Some (second ++ skipn (length second) first) /\
  length second < length first.
Proof.
  exists (nth 0 fs_shared_outs []), (nth 1 fs_shared_outs []). split; [repeat constructor|]. split; [vmr|]. split; [vmr|]. split; [vmr|].
  apply Nat.ltb_lt. vmr.
Qed.
Print Assumptions C65_shared_refuted.

(** Not if the output is the input, which happens if the output directory is the directory of
    the input: the first system call empties the file, and from then on it contains no events, only
    the header or a part of it.  (How the program ends is not claimed: it depends on when the input
    is read, see ModelFS.v.) *)
Definition fs_inplace_log : list syscall := Eval vm_compute in snd (fs_program fs_shared (fun _ => None) real_cap [(0, 0)]).
Theorem C65_in_place_refuted :
  snd (fs_program fs_shared (fun _ => None) real_cap [(0, 0)]) = fs_inplace_log /\
  fs_shared 0 = Some ex_file /\ (exists events, ex_file = ex_header ++ events /\ events <> []) /\
  replay fs_shared (firstn 1 fs_inplace_log) 0 = Some [] /\
  forall k, 1 <= k -> exists content, replay fs_shared (firstn k fs_inplace_log) 0 = Some content /\ begins_with content ex_header.
Proof.
  split; [vmr|]. split; [reflexivity|]. split.
  { exists (skipn (length ex_header) ex_file). split; [vmr|]. intros H. apply (f_equal (@length ascii)) in H. vm_compute in H. discriminate. }
  split; [vmr|]. intros k Hk. assert (E : forall n, exists content, replay fs_shared (firstn (S n) fs_inplace_log) 0 = Some content /\ begins_with content ex_header).
  { assert (P : forall L, begins_with (firstn L ex_header) ex_header) by (intros L; exists (skipn L ex_header); symmetry; apply firstn_skipn).
    intros [|[|[|[|n]]]].
    - exists (firstn 0 ex_header). split; [vmr|apply P].
    - exists (firstn 0 ex_header). split; [vmr|apply P].
    - exists (firstn 59 ex_header). split; [vmr|apply P].
    - exists (firstn 0 ex_header). split; [vmr|apply P].
    - rewrite firstn_all2 by (vm_compute; lia). exists (firstn 58 ex_header). split; [vmr|apply P]. }
  destruct k as [|k]; [lia|]. apply E.
Qed.
Print Assumptions C65_in_place_refuted.

(** C66 does not hold: if the disk is full and every write fails, the program still succeeds with
    small files, which are all empty. *)
Definition fs_full : nat -> option nat := fun n => if existsb (Nat.eqb n) [0; 1; 3; 5; 7; 9; 12; 13; 15] then None else Some 0.
Definition fs_full_log : list syscall := Eval vm_compute in snd (fs_program fs_start fs_full real_cap fs_paths).
Theorem C66_refuted :
  input_files fs_start fs_paths m_inputs /\ separate fs_paths /\
  fs_program fs_start fs_full real_cap fs_paths = (Success, fs_full_log) /\
  m_program m_inputs = Done m_outs /\ Forall (fun output => length output > 200) m_outs /\
  map (replay fs_start fs_full_log) (map snd (with_events m_xml fs_start fs_paths)) = [Some []; Some []; Some []].
Proof.
  destruct fs_meets. split; [assumption|]. split; [assumption|]. split; [vmr|]. split; [vmr|]. split; [|vmr].
  apply Forall_forall. intros o Ho. apply Nat.ltb_lt.
  assert (E : forallb (fun o : text => 200 <? length o) m_outs = true) by vmr. rewrite forallb_forall in E. apply E, Ho.
Qed.
Print Assumptions C66_refuted.

(** The hypotheses of C66 and C67, with an error: call number 14 writes only 5 bytes; and with an
    error that is not noticed: call number 16 *)
Definition fs_log14 : list syscall := Eval vm_compute in snd (fs_program fs_start (fs_fault 14) 100 fs_paths).
Definition fs_log16 : list syscall := Eval vm_compute in snd (fs_program fs_start (fs_fault 16) 100 fs_paths).
Example C66_case : input_files fs_start fs_paths m_inputs /\ separate fs_paths /\ m_program m_inputs = Done m_outs /\
  fs_program fs_start (fs_fault 14) 100 fs_paths = (Failure, fs_log14) /\
  replay fs_start fs_log14 10 = Some (firstn 64 (nth 0 m_outs [])) /\
  fs_program fs_start (fs_fault 16) 100 fs_paths = (Success, fs_log16) /\
  replay fs_start fs_log16 10 = Some (firstn 179 (nth 0 m_outs [])) /\ length (nth 0 m_outs []) = 255.
Proof. destruct fs_meets. split; [assumption|]. split; [assumption|]. do 5 (split; [vmr|]). vmr. Qed.

(** An output of an earlier run is already lost if a later run fails: here the second input has a
    record without a weight. *)
Definition fs_bad : text := Eval vm_compute in ex_header ++ ln "E 1 2 3 4 5 6 7 8 9 10 0 0" ++ ln "P 1 11 3 4 12 13 0 1".
Definition fs_earlier : disk := fun p => match p with 0 => Some ex_file | 1 => Some fs_bad | 10 => Some ex_file | _ => None end.
Definition fs_earlier_log : list syscall := Eval vm_compute in snd (fs_program fs_earlier (fun _ => None) real_cap [(0, 10); (1, 11)]).
Theorem C67_earlier_refuted :
  input_files fs_earlier [(0, 10); (1, 11)] [ex_file; fs_bad] /\ separate [(0, 10); (1, 11)] /\
  fs_program fs_earlier (fun _ => None) real_cap [(0, 10); (1, 11)] = (Failure, fs_earlier_log) /\
  fs_earlier 10 = Some ex_file /\ replay fs_earlier fs_earlier_log 10 = Some ex_header /\ length ex_header < length ex_file.
Proof.
  split; [repeat constructor|]. split; [split; [repeat constructor; cbn; intuition lia|cbn; intuition lia]|]. do 3 (split; [vmr|]). apply Nat.ltb_lt. vmr.
Qed.
Print Assumptions C67_earlier_refuted.
Example C67_case : input_files fs_start fs_paths m_inputs /\ separate fs_paths /\ m_program m_inputs = Done m_outs /\
  fs_program fs_start (fun _ => None) 100 fs_paths = (Success, fs_log) /\ fs_start 12 = Some (lit "old") /\
  map (fun k => option_map (@length ascii) (replay fs_start (firstn k fs_log) 12)) [0; 1; 2; 5; 16; 18; 19; 24] =
    [Some 3; Some 3; Some 0; Some 61; Some 0; Some 61; Some 151; Some 251].
Proof. destruct fs_meets. split; [assumption|]. split; [assumption|]. split; [vmr|]. split; [vmr|]. split; vmr. Qed.
