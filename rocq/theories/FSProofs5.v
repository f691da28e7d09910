(** The program with files as a whole. *)
From Verif Require Import Base BaseProofs Num ModelEvent ModelText ModelHepMC ModelLHEF ModelStripper ModelIO IOProofs ModelCres ModelMain ModelFS SpecFS
  FSProofs FSProofs2 FSProofs3 FSProofs4.

Definition lookup (p : path) (l : list (path * text)) : text :=
  match List.find (fun x => fst x =? p) l with Some (_, o) => o | None => [] end.
Lemma lookup_nth : forall ps os j p o, NoDup ps -> nth_error ps j = Some p -> nth_error os j = Some o -> lookup p (combine ps os) = o.
Proof.
  unfold lookup. induction ps as [|q ps IH]; intros [|o' os] [|j] p o Hn Hp Ho; try discriminate; cbn in *.
  - injection Hp as ->. injection Ho as ->. rewrite Nat.eqb_refl. reflexivity.
  - inversion Hn as [|? ? Hq Hn']; subst. destruct (Nat.eqb_spec q p) as [->|_]; [|eapply IH; eauto]. destruct Hq. eapply nth_error_In; eauto.
Qed.

Section Program.
Context (start : disk) (faults : nat -> option nat) (cap : nat).
Context (N : NumOps) (double : parser N) (show : N -> text) (xml : text -> option (xml_tag N))
  (checks mw : bool) (names : list text) (sort : sorter) (cluster : Event N -> option (Event N))
  (shuffle : list (Event N + @cres_error (option read_error)) -> list (Event N + @cres_error (option read_error)))
  (resample unweighter : list (Event N) -> option (list (Event N) + option read_error)).
Notation nofault := (no_failure faults).
Notation events := (with_events xml start).
Notation program := (cres_program double show xml checks mw names sort cluster shuffle resample unweighter).
Notation dprogram := (disk_program start faults cap double show xml checks mw names sort cluster shuffle resample unweighter).

Lemma event_paths_spec paths inputs : input_files start paths inputs ->
  match event_files xml inputs with
  | Ok (fs, ts) => event_paths start xml paths = Ok (events paths, ts) /\ input_files start (events paths) fs
  | Err e => event_paths start xml paths = Err e
  | Panic => event_paths start xml paths = Panic
  end.
Proof.
  unfold input_files, with_events. induction 1 as [|[a p] content paths inputs Hc _ IH]; cbn [event_files event_paths filter]; [split; [reflexivity|constructor]|].
  cbn [fst] in Hc. rewrite Hc.
  assert (E : has_events xml start (a, p) = negb (is_xml content && match xml content with Some (XNormalization _ _) => true | _ => false end)) by (unfold has_events; cbn [fst]; rewrite Hc; reflexivity).
  rewrite E. clear E. destruct (is_xml content); cbn [andb].
  - destruct (xml content) as [[name scale|name n1 n2]|]; [| |reflexivity];
      (destruct (event_files xml inputs) as [[fs ts]|e|]; cbn [bind]; [destruct IH as [-> IH]|rewrite IH; reflexivity..]); cbn [bind negb]; (split; [reflexivity|]); [exact IH|].
    constructor; assumption.
  - destruct (event_files xml inputs) as [[fs ts]|e|]; cbn [bind]; [destruct IH as [-> IH]|rewrite IH; reflexivity..]. cbn [bind negb]. split; [reflexivity|]. constructor; assumption.
Qed.
Lemma filter_map_in A B (f : A -> bool) (g : A -> B) l x : In x (map g (filter f l)) -> In x (map g l).
Proof. intros H. apply in_map_iff in H as (y & <- & Hy). apply filter_In in Hy. apply in_map, Hy. Qed.
Lemma filter_map_nodup A B (f : A -> bool) (g : A -> B) l : NoDup (map g l) -> NoDup (map g (filter f l)).
Proof.
  induction l as [|x l IH]; cbn; intros H; [constructor|]. inversion H as [|? ? Hx Hl]; subst. destruct (f x); [|auto]. cbn. constructor; [|auto].
  intros Hi. apply Hx. eapply filter_map_in; eauto.
Qed.
Lemma separate_events paths : separate paths -> separate (events paths).
Proof.
  intros [H1 H2]. split; [apply filter_map_nodup, H1|]. intros p Hp Hq. eapply H2; eapply filter_map_in; eauto.
Qed.

Lemma read_loop_error (f : event_record -> Event N + option read_error) g l e : forall i,
  snd (read_loop (fun _ => false) f g i (map inl l ++ [inr e])) = Some (IOErr e).
Proof.
  induction l as [|r l IH]; intros i; [reflexivity|]. cbn [map app read_loop]. specialize (IH (S i)).
  destruct (read_loop (fun _ => false) f g (S i) (map inl l ++ [inr e])) as [pushed r']. exact IH.
Qed.
Lemma run_on_error l e : run_on double mw names sort cluster shuffle resample unweighter (map inl l ++ [inr e]) = ModelCres.Failed (IOErr (Some e)).
Proof.
  unfold run_on. rewrite map_app, map_map. cbn [map]. unfold cres_run, read_events.
  pose proof (read_loop_error (try_convert double mw names sort) (try_cluster cluster) l (Some e) 0) as H.
  destruct (read_loop _ _ _ 0 _) as [pushed r]. cbn [snd] in H. subst r. reflexivity.
Qed.

Definition status_of_ending (e : ending) : status := match e with Done _ => Success | Error => Failure | Crash => Crashed end.


(** *** The status *)
Lemma program_status fuel paths inputs : input_files start paths inputs -> separate paths ->
  let st := fst (dprogram fuel paths) in
  let log := snd (dprogram fuel paths) in
  grows (map snd (events paths)) [] log /\
  (nofault log -> st = status_of_ending (program fuel inputs)) /\
  (st = Success -> exists os, program fuel inputs = Done os) /\
  (st = Crashed -> program fuel inputs = Crash).
Proof.
  intros Hin Hsep0. cbn zeta. pose proof (separate_events paths Hsep0) as Hsep. pose proof (event_paths_spec paths inputs Hin) as Hev.
  unfold disk_program, cres_program, open_inputs. destruct (event_files xml inputs) as [[fs ts]|e|]; cbn [bind].
  2,3: rewrite Hev; cbn [fst snd]; split; [apply grows_refl|]; split; [reflexivity|]; split; [discriminate|]; try discriminate; reflexivity.
  destruct Hev as [-> Hfs]. set (ps := events paths) in *. set (scaling := extract_scaling ts) in *. pose proof (proj2 Hsep) as Hdis.
  assert (Fin : forall (s : dio N) (r : Prop), sane N ps s -> (nofault (d_log s) -> r) -> grows (map snd ps) [] (drop_current faults (d_current s) (d_log s)) /\
    (nofault (drop_current faults (d_current s) (d_log s)) -> r)).
  { intros s r [H1 H2] Hr. pose proof (drop_current_grows faults N ps (d_current s) (d_log s) H2) as G.
    split; [eapply grows_trans; eauto|]. intros Hf. apply Hr. eapply grows_nofault; eauto. }
  pose proof (new_agree start faults cap N xml checks scaling ps fs Hfs Hdis) as Hnew. cbn zeta in Hnew. unfold agree in Hnew.
  destruct (dio_new start faults cap xml checks scaling ps []) as [[u|e|] s0]; cbn [fst snd] in Hnew; destruct Hnew as [Hs0 Hnew].
  2:{ cbn [fst snd]. apply and_assoc. split; [|split; discriminate]. apply Fin; [exact Hs0|]. intros Hf. destruct Hnew as [->|Hn]; [reflexivity|contradiction]. }
  2:{ cbn [fst snd]. rewrite Hnew. apply and_assoc. split; [|split; [discriminate|reflexivity]]. apply Fin; [exact Hs0|reflexivity]. }
  destruct Hnew as (c0 & -> & Hm0). cbn [bind].
  destruct (read_agree start faults cap N double show xml checks scaling ps fs Hfs Hdis fuel c0 s0 Hm0) as (_ & Hs1 & Hread).
  destruct (dio_read_all start faults cap double show xml checks scaling ps fuel s0) as [[records|] s1]; cbn [fst snd] in *.
  2:{ rewrite Hread. apply and_assoc. split; [|split; [discriminate|reflexivity]]. apply Fin; [exact Hs1|reflexivity]. }
  destruct Hread as [(c1 & -> & Hm1)|(Hf1 & l0 & e & ->)].
  2:{ rewrite run_on_error. cbn [fst snd status_of end_of]. apply and_assoc. split; [|split; discriminate]. apply Fin; [exact Hs1|]. intros Hf. contradiction. }
  destruct (run_on double mw names sort cluster shuffle resample unweighter records) as [|er|ws]; cbn [fst snd].
  - apply and_assoc. split; [|split; [discriminate|reflexivity]]. apply Fin; [exact Hs1|reflexivity].
  - apply and_assoc. split; [apply Fin; [exact Hs1|]; intros _; destruct er as [[]|[]|[]|[]|[]|]; reflexivity|].
    destruct er as [[]|[]|[]|[]|[]|]; (split; [discriminate|]); try discriminate; reflexivity.
  - destruct (update_all_agree start faults cap N double show xml checks mw names scaling ps fs Hfs Hdis ws c1 s1 Hm1) as [_ [Hs2 Hup]].
    destruct (dio_update_all start faults cap double show xml checks mw names scaling ps ws s1) as [[v|e|] s2]; cbn [fst snd] in *; apply and_assoc.
    + destruct Hup as ([k c2] & -> & _). split; [apply Fin; [exact Hs2|reflexivity]|]. split; [eauto|discriminate].
    + split; [|split; discriminate]. apply Fin; [exact Hs2|]. intros Hf. destruct Hup as [->|Hn]; [reflexivity|contradiction].
    + rewrite Hup. split; [apply Fin; [exact Hs2|reflexivity]|]. split; [discriminate|reflexivity].
Qed.

(** *** The contents *)
Lemma init_loop_wf scaling fs : forall n idx c c', wf N fs c -> cio_init_loop (header_info xml) checks scaling idx n c = Ok c' -> wf N fs c'.
Proof.
  induction n as [|n IH]; intros idx c c' Hw H; cbn [cio_init_loop] in H; [injection H as <-; exact Hw|].
  destruct (cio_open (header_info xml) checks scaling idx c) as [c1|e|] eqn:E; try discriminate. cbn [bind] in H.
  destruct (open_inv N _ checks scaling fs c idx c1 Hw E) as [Hw1 _]. destruct (c_current c1); [|discriminate]. eapply IH; [|exact H]. exact Hw1.
Qed.
Lemma new_wf scaling fs c : cio_new (header_info xml) checks scaling fs = Ok c -> wf N fs c.
Proof.
  unfold cio_new, cio_init. cbn [c_files]. intros H.
  assert (Hw : wf N fs (mkCIO fs None 0 0 (0%N, Some 0%N) (repeat [] (length fs)))) by (split; [reflexivity|apply repeat_length]).
  destruct (length fs =? 0); [injection H as <-; exact Hw|].
  destruct (cio_init_loop (header_info xml) checks scaling 0 (length fs) _) as [c1|e|] eqn:E; try discriminate. cbn [bind] in H.
  destruct (open_inv N _ checks scaling fs c1 0 c (init_loop_wf _ _ _ _ _ _ Hw E) H) as [Hw1 _]. exact Hw1.
Qed.
Lemma read_wf scaling fs : forall fuel c l c', wf N fs c -> read_all double show xml checks scaling fuel c = Some (l, c') -> wf N fs c'.
Proof.
  induction fuel as [|fuel IH]; intros c l c' Hw H; cbn [read_all] in H; [discriminate|].
  pose proof (next_wf N double show (header_info xml) checks scaling fs (cio_fuel c) c Hw) as Hn.
  destruct (cio_next double show (header_info xml) checks scaling (cio_fuel c) c) as [c1|t c1|e c1|]; [injection H as <- <-; exact Hn| |injection H as <- <-; exact Hn|discriminate].
  destruct (c_current c1); [|discriminate]. destruct (read_all double show xml checks scaling fuel c1) as [[l1 c2]|] eqn:E; [|discriminate]. injection H as <- <-. eauto.
Qed.

Lemma program_contents fuel paths inputs os : input_files start paths inputs -> separate paths -> program fuel inputs = Done os ->
  let ps := events paths in
  let st := fst (dprogram fuel paths) in
  let log := snd (dprogram fuel paths) in
  length os = length ps /\
  exists target, (forall j a p, nth_error ps j = Some (a, p) -> nth_error os j = Some (target p)) /\
    safe start (map snd ps) target log /\
    (st = Success -> closed start faults cap ps target (length ps) log).
Proof.
  intros Hin Hsep0 Hprog. cbn zeta. pose proof (separate_events paths Hsep0) as Hsep. pose proof (event_paths_spec paths inputs Hin) as Hev.
  unfold disk_program. unfold cres_program, open_inputs in Hprog. destruct (event_files xml inputs) as [[fs ts]|e|]; cbn [bind] in Hprog; try discriminate.
  destruct Hev as [-> Hfs]. set (ps := events paths) in *. set (scaling := extract_scaling ts) in *. pose proof (proj2 Hsep) as Hdis.
  destruct (cio_new (header_info xml) checks scaling fs) as [c0|?|] eqn:Ec0; cbn [bind] in Hprog; try discriminate.
  destruct (read_all double show xml checks scaling fuel c0) as [[records c1]|] eqn:Er; try discriminate.
  destruct (run_on double mw names sort cluster shuffle resample unweighter records) as [|er|ws] eqn:Erun; try discriminate.
  { destruct er as [[]|[]|[]|[]|[]|]; discriminate. }
  unfold cio_update_all in Hprog. pose proof (new_wf _ _ _ Ec0) as Hw0. pose proof (read_wf _ _ _ _ _ _ Hw0 Er) as Hw1. rewrite (proj1 Hw1) in Hprog.
  destruct (cio_update_files double show (header_info xml) checks mw names scaling 0 (length fs) ws (cio_rewind c1)) as [[rest cend]|?|] eqn:Eu; cbn [bind] in Hprog; try discriminate.
  injection Hprog as <-. assert (Hwr : wf N fs (cio_rewind c1)) by exact Hw1.
  pose proof (ps_len start ps fs Hfs) as Hpl.
  assert (Hl : length (c_outs cend) = length ps).
  { destruct (cupds_firstn N double show _ checks mw names scaling fs _ _ _ _ _ _ Hwr Eu) as [_ [_ Hl]]. rewrite Hpl. exact Hl. }
  split; [exact Hl|]. set (os := c_outs cend) in *. set (T := fun p => lookup p (combine (map snd ps) os)). exists T.
  assert (HT : forall j a p, nth_error ps j = Some (a, p) -> nth_error os j = Some (T p)).
  { intros j a p En. destruct (nth_error os j) as [o|] eqn:E.
    - f_equal. symmetry. apply (lookup_nth _ _ j); [apply Hsep|apply (map_nth_error snd _ _ En)|exact E].
    - apply nth_error_None in E. assert (j < length ps) by (apply nth_error_Some; congruence). unfold text in *; lia. }
  split; [exact HT|].
  assert (Hhead : forall i a p, nth_error ps i = Some (a, p) -> exists content f rest', nth_error fs i = Some content /\
      build_from_files (header_info xml) checks scaling content = Ok f /\ T p = fio_header f ++ rest').
  { intros i a p En. assert (Hi : i < length fs) by (rewrite <- Hpl; apply nth_error_Some; congruence).
    destruct (cupds_headers N double show _ checks mw names scaling fs _ _ _ _ _ _ Hwr Eu i ltac:(lia) ltac:(lia)) as (file & f & t & E1 & E2 & E3).
    exists file, f, t. split; [exact E1|]. split; [exact E2|]. specialize (HT i a p En). unfold os in HT. congruence. }
  pose proof (new_reading start faults cap N xml checks scaling ps fs Hfs Hsep T Hhead) as R0.
  pose proof (new_agree start faults cap N xml checks scaling ps fs Hfs Hdis) as Hnew. cbn zeta in Hnew. unfold agree in Hnew. rewrite Ec0 in Hnew.
  pose proof (reading_finish start faults cap N ps T) as RF.
  destruct (dio_new start faults cap xml checks scaling ps []) as [[u|e|] s0]; cbn [fst snd] in *; [|split; [apply RF, R0|discriminate]..].
  destruct Hnew as (_ & c0' & Ec0' & Hm0). injection Ec0' as <-.
  pose proof (read_reading start faults cap N double show xml checks scaling ps fs Hfs Hsep T Hhead fuel s0 R0) as R1.
  destruct (read_agree start faults cap N double show xml checks scaling ps fs Hfs Hdis fuel c0 s0 Hm0) as (_ & Hs1 & Hread).
  destruct (dio_read_all start faults cap double show xml checks scaling ps fuel s0) as [[records'|] s1]; cbn [fst snd] in *; [|split; [apply RF, R1|discriminate]].
  destruct Hread as [(c1' & Er' & Hm1)|(_ & l0 & e & ->)].
  2:{ rewrite run_on_error. cbn [fst snd status_of end_of]. split; [apply RF, R1|discriminate]. }
  rewrite Er in Er'. injection Er' as <- <-. rewrite Erun. unfold dio_update_all.
  destruct (rewind_mirrors faults N ps fs c1 s1 Hm1) as [Hm2 _].
  assert (W0 : writing start faults cap N ps T 0 (dio_rewind faults s1)).
  { split; [exact (RF _ R1)|]. split; [apply Hm2|]. cbn. intros j a p Hj. lia. }
  pose proof (update_files_writing start faults cap N double show xml checks mw names scaling ps fs Hfs Hsep T Hhead (length ps) 0 ws _ _ rest cend Hm2 W0 eq_refl) as U.
  rewrite <- Hpl in Eu. specialize (U Eu (fun j a p _ => HT j a p)). cbn zeta in U. destruct U as [U1 U2].
  destruct (dio_update_files start faults cap double show xml checks mw names scaling ps 0 (length ps) ws (dio_rewind faults s1)) as [[v|e|] s2]; cbn [fst snd] in *.
  2,3: split; [exact (closing_finish start faults cap N ps T _ U1)|discriminate].
  destruct (writing_drop start faults cap N ps Hsep T (length ps) s2 (U2 v eq_refl)) as (D1 & D2 & _). split; [exact D1|]. intros _. exact D2.
Qed.
End Program.
