(** C93: complete programs. *)
From Coq Require Import NArith ZArith Reals Lra Lia SpecFloat Sorted.
From Flocq Require Import Core.Core IEEE754.BinarySingleNaN.
From Verif Require Import Base BaseProofs Num ModelEvent ModelText ModelIO ModelMain SpecMain ModelCres SpecCres ModelDistance ModelCell ModelSeeds ModelNaive ModelVPTree ModelResampler
  ModelNumber ModelUnweight SpecWeights SpecEvent SpecDistance SpecSearch SpecTree SpecTreeNear SpecMoments SpecAccuracy SpecSeparated
  B64Proofs B64Errors B64Finite SumProofs EventProofs NaiveProofs PropsTreeNear B64Distance DistanceProofs DistAccuracy DistAccuracy5 SeparatedProofs SeparatedProofs2 PropsHepMC PropsNumber PropsAccuracy PropsSeparated.
From Coq Require Import List.
Import ListNotations.
Local Open Scope R_scope.

(** The two searches of the program *)
Definition tree_or_naive (sort : sorter) (algo : search_algo B64) : Prop :=
  exists choose, choose_ok choose /\ (algo = tree_nearest sort choose \/ algo = naive_nearest choose).

(** If the exact distances of the clustered events with particles differ by more than the rounding errors, then the program ends in the
    same way, with the same output files, whichever search is chosen and however candidates with equal distances are ordered.
    [pss i] are the particles and jets of the event number [i] of the input, [x i j] is the exact distance of the events [i] and [j]. *)
Theorem C93_program : forall double show xml checks mw names sort sort' cluster shuffle unweighter fuel inputs (evs : list (Event B64)) strategy
    (km : assignment B64) B T tau n max algo algo' (pss : nat -> list (Z * FourVector B64)) x,
  reorders shuffle -> sort_ok sort' -> / 2 ^ 400 <= B <= 2 ^ 500 -> 1 <= T <= 2 ^ 9 -> within T tau -> b64_fin max \/ max = b64_inf ->
  tree_or_naive sort' algo -> tree_or_naive sort' algo' ->
  reads double show xml checks mw names sort inputs evs -> (N.of_nat (length evs) <= usize_max)%N ->
  (forall i e e', nth_error evs i = Some e -> cluster e = Some e' -> ev_out e' <> [] ->
     ev_out e' = ev_out (build sort' (made (N := B64) mw (pss i) [])) /\ few_upto km B n (pss i) /\ Forall not_nan (ev_weights e')) ->
  (Z.of_nat (n + n) <= 2 ^ 40)%Z ->
  let kept i := exists e e', nth_error evs i = Some e /\ cluster e = Some e' /\ ev_out e' <> [] in
  (forall i j, kept i -> kept j -> exact_distance tau (pss i) (pss j) (x i j)) ->
  separated_on kept x max (enough n T B) ->
  let dist a b := match distance sort' km tau a b with Some d => d | None => n0 end in
  let program algo := cres_program double show xml checks mw names sort cluster shuffle (lib_resample mw sort' strategy algo dist max) unweighter fuel inputs in
  program algo = program algo'.
Proof.
  intros double show xml checks mw names sort sort' cluster shuffle unweighter fuel inputs evs strategy km B T tau n max algo algo' pss x
    Hs Hs' HB HT Htau Hmax Ha Ha' Hread Hl Hps Hn kept Hx [Hsep Hsepm] dist program.
  apply program_swap_ids with (evs := evs); [exact Hs|exact Hread|]. intros used [Hnd Hu].
  assert (KU : forall u, In u used -> kept (ev_id u)).
  { intros u Hin. destruct (Hu u Hin) as [Hne (e0 & e1 & E0 & E1 & Eo & _)]. exists e0, e1. rewrite <- Eo. auto. }
  assert (PU : forall u, In u used -> ev_out u = ev_out (build sort' (made (N := B64) mw (pss (ev_id u)) [])) /\ few_upto km B n (pss (ev_id u)) /\ Forall not_nan (ev_weights u)).
  { intros u Hin. destruct (Hu u Hin) as [Hne (e0 & e1 & E0 & E1 & Eo & Ew)]. rewrite Eo, Ew. rewrite Eo in Hne. exact (Hps _ _ _ E0 E1 Hne). }
  assert (Lu : (N.of_nat (length used) <= usize_max)%N).
  { assert (length used <= length evs)%nat; [|lia]. rewrite <- (map_length ev_id used), <- (seq_length (length evs) 0). apply NoDup_incl_length; [exact Hnd|].
    intros i Hi. apply in_map_iff in Hi as (u & <- & Hin). destruct (Hu u Hin) as [_ (e0 & _ & E0 & _)]. apply in_seq. split; [lia|]. apply nth_error_Some. congruence. }
  set (idx := fun i => match nth_error used i with Some u => ev_id u | None => 0%nat end).
  assert (IX : forall i, (i < length used)%nat -> exists u, nth_error used i = Some u /\ idx i = ev_id u /\ In u used).
  { intros i Hi. unfold idx. destruct (nth_error used i) as [u|] eqn:E; [|apply nth_error_None in E; lia]. exists u. split; [reflexivity|]. split; [reflexivity|]. eapply nth_error_In; exact E. }
  assert (KI : forall i, (i < length used)%nat -> kept (idx i)) by (intros i Hi; destruct (IX i Hi) as (u & _ & -> & Hin); apply KU; exact Hin).
  assert (NI : forall i j, (i < length used)%nat -> (j < length used)%nat -> i <> j -> idx i <> idx j).
  { intros i j Hi Hj Hne E. apply Hne. assert (M : forall k, (k < length used)%nat -> nth_error (map ev_id used) k = Some (idx k)).
    { intros k Hk. destruct (IX k Hk) as (u & Eu & -> & _). apply map_nth_error. exact Eu. }
    apply (proj1 (NoDup_nth_error (map ev_id used)) Hnd i j); [rewrite map_length; exact Hi|]. rewrite (M i Hi), (M j Hj), E. reflexivity. }
  assert (F2 : Forall2 (fun e ps => ev_out e = ev_out (build sort' (made (N := B64) mw ps [])) /\ few_upto km B n ps /\ Forall not_nan (ev_weights e)) used (map (fun u => pss (ev_id u)) used)).
  { clear -PU. induction used as [|u used IH]; cbn [map]; constructor; [apply PU; left; reflexivity|]. apply IH. intros v Hv. apply PU. right. exact Hv. }
  assert (Hd : forall e1 e2, In e1 used -> In e2 used -> distance sort' km tau e1 e2 = Some (dist e1 e2)).
  { intros e1 e2 H1 H2. destruct (PU e1 H1) as (O1 & P1 & _), (PU e2 H2) as (O2 & P2 & _).
    destruct (C92_distance sort' km B T tau mw n n (pss (ev_id e1)) (pss (ev_id e2)) [] [] Hs' HB HT Htau P1 P2 Hn) as (d & r & E & _).
    unfold dist. unfold distance in *. rewrite O1, O2, E. reflexivity. }
  assert (G : forall a, tree_or_naive sort' a -> lib_resample (Err := option read_error) mw sort' strategy a dist max used = lib_resample mw sort' strategy (naive_nearest first_min) dist max used).
  { assert (G1 : forall c c', choose_ok c -> choose_ok c' -> lib_resample (Err := option read_error) mw sort' strategy (tree_nearest sort' c) dist max used = lib_resample mw sort' strategy (naive_nearest c') dist max used).
    { intros c c' Hc Hc'.
      assert (R := C93_run sort' c c' km B T tau mw n strategy used (map (fun u => pss (ev_id u)) used) dist (fun i j => x (idx i) (idx j)) max (naive_nearest c')
        Hs' Hc Hc' HB HT Htau Hmax F2 Hn Hd).
      match type of R with ?A -> ?B -> ?C -> ?D -> ?E => assert E as R' end.
      { apply R; [| |exact Lu|left; reflexivity].
        - intros i j ps1 ps2 E1 E2. rewrite nth_error_map in E1, E2. unfold idx.
          destruct (nth_error used i) as [u|] eqn:Eu; [|discriminate]. destruct (nth_error used j) as [v|] eqn:Ev; [|discriminate]. cbn [option_map] in E1, E2. injection E1 as <-. injection E2 as <-.
          apply Hx; apply KU; eapply nth_error_In; eassumption.
        - split.
          + intros q i j Hq Hi Hj H1 H2 H3. apply Hsep; auto.
          + intros q i Hq Hi H1 Hm. apply Hsepm; auto. }
      unfold lib_resample. destruct (resampler_resample mw sort' strategy (tree_nearest sort' c) dist max used) as [[e cs]|], (resampler_resample mw sort' strategy (naive_nearest c') dist max used) as [[e' cs']|]; try contradiction; [|reflexivity].
      destruct R' as [-> _]. reflexivity. }
    intros a (c & Hc & [->| ->]).
    - apply G1; [exact Hc|exact first_min_ok].
    - rewrite <- (G1 first_min c first_min_ok Hc). apply G1; exact first_min_ok. }
  rewrite (G algo Ha), (G algo' Ha'). reflexivity.
Qed.
Print Assumptions C93_program.

(** A case: a HepMC file with three events of one electron each, the first one with negative weight; both searches succeed. *)
Definition s_rec (weight px : text) : text := Eval lazy in
  lit "E 1 2 3 4 5 6 7 8 9 10 0 1 " ++ weight ++ [NL] ++ lit "P 1 11 " ++ px ++ lit " 0 0 5 0 1" ++ [NL].
Definition s_records : list event_record := Eval vm_compute in
  [HepMCRecord (s_rec (lit "-1") (lit "1")); HepMCRecord (s_rec (lit "3") (lit "2")); HepMCRecord (s_rec (lit "5") (lit "4"))].
Definition s_file : text := Eval vm_compute in ex_header ++ s_rec (lit "-1") (lit "1") ++ s_rec (lit "3") (lit "2") ++ s_rec (lit "5") (lit "4").
Definition s_evs : list (Event B64) := Eval vm_compute in
  map (fun r => match try_convert b64_double false [] isort r with inl e => e | inr _ => mkEvent 0 [] [] end) s_records.
Definition s_open : cio B64 := Eval vm_compute in match @open_inputs B64 n_noxml true [s_file] with Ok (_, s) => s | _ => mkCIO [] None 0 0 (0%N, None) [] end.
Definition s_end : cio B64 := Eval vm_compute in match @read_all B64 b64_double b64_show n_noxml true [] 10 s_open with Some (_, s) => s | _ => mkCIO [] None 0 0 (0%N, None) [] end.
Lemma s_reads : reads b64_double b64_show n_noxml true false [] isort [s_file] s_evs.
Proof.
  exists [], s_open, 10%nat, (map inl s_records), s_end. split; [vmr|]. split; [vmr|].
  constructor; [eexists; split; [reflexivity|vmr]|]. constructor; [eexists; split; [reflexivity|vmr]|]. constructor; [eexists; split; [reflexivity|vmr]|constructor].
Qed.
Definition s_dist (a b : Event B64) : B64 := match distance isort (fun _ _ => n0) n0 a b with Some d => d | None => n0 end.
Definition s_program (algo : search_algo B64) : ending :=
  cres_program b64_double b64_show n_noxml true false [] isort Some (fun l => rev l) (lib_resample false isort MostNegative algo s_dist b64_inf) lib_no_unweight 10 [s_file].
Definition s_outs : list text := Eval vm_compute in match s_program (naive_nearest first_min) with Done o => o | _ => [] end.
Lemma s_naive : s_program (naive_nearest first_min) = Done s_outs.
Proof. vmr. Qed.

Lemma s_events i e : nth_error s_evs i = Some e -> (i < 3)%nat /\ ev_out e = ev_out (build isort (made (N := B64) false (line_ps i) [])) /\ Forall not_nan (ev_weights e).
Proof.
  destruct i as [|[|[|i]]]; cbn [nth_error s_evs]; intros E; try (injection E as <-; split; [lia|]; split; [vmr|repeat constructor; discriminate]).
  destruct i; discriminate.
Qed.
Example C93_program_case : s_program (tree_nearest isort first_min) = Done s_outs /\ length s_outs = 1%nat.
Proof.
  assert (Bb : / 2 ^ 400 <= 16 <= 2 ^ 500).
  { split; [apply Rle_trans with 1; [rewrite <- Rinv_1; apply Rinv_le_contravar; [lra|apply pow_R1_Rle; lra]|lra]|].
    apply Rle_trans with (2 ^ 4); [lra|apply Rle_pow; [lra|lia]]. }
  assert (Tb : 1 <= 1 <= 2 ^ 9) by (split; [lra|apply pow_R1_Rle; lra]).
  assert (W0 : within 1 (n0 : B64)) by (split; [split; reflexivity|change (b64_val (n0 : B64)) with 0; rewrite Rabs_R0; lra]).
  split; [|reflexivity]. rewrite <- s_naive. unfold s_program, s_dist.
  assert (K : forall i, (exists e e' : Event B64, nth_error s_evs i = Some e /\ Some e = Some e' /\ ev_out e' <> []) -> (i < 3)%nat).
  { intros i (e & e' & E & _). exact (proj1 (s_events i e E)). }
  apply (C93_program b64_double b64_show n_noxml true false [] isort isort Some (fun l => rev l) lib_no_unweight 10 [s_file] s_evs MostNegative (fun _ _ => n0) 16 1 n0 1 b64_inf
    (tree_nearest isort first_min) (naive_nearest first_min) line_ps line_x).
  - intros l. apply Permutation_rev.
  - exact isort_ok.
  - exact Bb.
  - exact Tb.
  - exact W0.
  - right. reflexivity.
  - exists first_min. split; [exact first_min_ok|left; reflexivity].
  - exists first_min. split; [exact first_min_ok|right; reflexivity].
  - exact s_reads.
  - vm_compute. discriminate.
  - intros i e e' E Ee _. injection Ee as <-. destruct (s_events i e E) as (Hi & Ho & Hw). split; [exact Ho|]. split; [apply line_few; exact Hi|exact Hw].
  - lia.
  - intros i j Hi Hj. apply line_exact; apply K; assumption.
  - destruct line_separated as [S1 S2]. split.
    + intros q i j Hq Hi Hj. apply S1; apply K; assumption.
    + intros q i Hq Hi. apply S2; apply K; assumption.
Qed.
