(** C80: runs in binary64, the arithmetic of the program, do not overflow. *)
From Coq Require Import Reals Lra List Arith Lia NArith ZArith Permutation Bool SpecFloat.
From Flocq Require Import Core.Core IEEE754.BinarySingleNaN.
From Verif Require Import Base BaseProofs Num ModelEvent ModelText SpecText ModelStripper ModelIO ModelCell ModelSeeds ModelNaive ModelVPTree ModelResampler ModelConc ModelCres SpecCres
  ModelMain SpecMain SpecWeights SpecSearch SpecConc CellProofs RunProofs RunProofs2 SeedsProofs NaiveProofs ConcProofs ConcProofs2 VPTreeProofs2 CresProofs CresProofs2 MainProofs MainProofs3
  B64Proofs B64Errors SpecRounding B64Run B64Run2 B64Finite ModelNumber SpecNumber NumberProofs NumberProofs2 PanicProofs2 PropsMain PropsPanic PropsNumber PropsConc PropsRounding.
Import ListNotations.
Local Open Scope list_scope.
Local Open Scope R_scope.

(** *** The resampler *)
Lemma seeds_bound sort strategy (evs : list (Event B64)) seeds : sort_ok sort -> finite_sample (map ev_weights evs) ->
  select_seeds (N := B64) sort strategy (map ev_weights evs) = Some seeds -> (length seeds <= length evs)%nat.
Proof.
  intros Hsort Hf H1.
  assert (HD : forall i w, weight_at (N := B64) (map ev_weights evs) i = Some w -> not_nan w) by (intros i w; apply fin_not_nan; exact Hf).
  destruct (select_seeds_spec _ _ Hsort B64_order HD H1) as (Hnd & _).
  pose proof (select_seeds_lt Hsort B64_order HD H1) as Hlt.
  rewrite <- (seq_length (length evs) 0). apply NoDup_incl_length; [exact Hnd|]. intros i Hi. apply in_seq. specialize (Hlt i Hi). rewrite map_length in Hlt. lia.
Qed.

(** For [n] events with n(n+1) <= 2^53 and finite weights whose absolute values add up to at most
    2^1022: all new weights and all sums of weights in cells are finite, and the total of the
    weights is kept up to rounding.  (The largest number is a bit less than 2^1024.) *)
Theorem C80_run : forall mw nw sort strategy (algo : search_algo B64) dist max (evs evs' : list (Event B64)) cells,
  sort_ok sort -> shaped mw nw (map ev_weights evs) -> (Z.of_nat (length evs * (length evs + 1)) <= 2 ^ 53)%Z ->
  finite_sample (map ev_weights evs) -> (forall k, total_abs (b64_sample (map ev_weights evs)) k <= 2 ^ 1022) ->
  resampler_resample mw sort strategy algo dist max evs = Some (evs', cells) ->
  finite_sample (map ev_weights evs') /\
  Forall (fun c => b64_fin (weight_sum c)) cells /\
  forall k, Rabs (total (b64_sample (map ev_weights evs')) k - total (b64_sample (map ev_weights evs)) k) <=
    rounding_error (length evs) (total_abs (b64_sample (map ev_weights evs)) k).
Proof.
  intros mw nw sort strategy algo dist max evs evs' cells Hsort Hs Hn Hf Hb H.
  assert (Hz : (Z.of_nat (length evs) <= 2 ^ 53)%Z) by (revert Hn; generalize (length evs); intros n; nia).
  assert (Hz' : (Z.of_nat (length (map ev_weights evs)) <= 2 ^ 53)%Z) by (rewrite map_length; exact Hz).
  pose proof H as H0. apply resampler_inv in H. destruct H as (seeds & ws' & H1 & H2 & Ee).
  pose proof (seeds_bound sort strategy evs seeds Hsort Hf H1) as Hsl.
  pose proof (resample_seeds_length _ _ _ _ H2) as Hl. rewrite map_length in Hl.
  destruct (with_weights_spec _ _ Hl) as (E1 & _). unfold weights_state in *. cbn [num B64] in *. rewrite <- Ee in E1.
  pose proof (seeds_cells _ _ _ _ _ _ _ H2) as Hc. pose proof (resample_seeds_cells _ _ _ _ H2) as H3.
  destruct (cells_small _ _ _ H3) as [S2 S1]. rewrite map_length in S1, S2.
  assert (HB : bounded (map ev_weights evs) (cells_steps cells) (cells_members cells)).
  { apply bounded_mono with (n := (length evs * (length evs + 1))%nat) (p := (length evs * length evs)%nat).
    - intros k. apply closed_bound; [exact Hn|lia|apply Hb].
    - eapply Nat.le_trans; [exact S1|]. apply Nat.mul_le_mono_r. lia.
    - eapply Nat.le_trans; [exact S2|]. apply Nat.mul_le_mono_r. lia. }
  assert (Hf' : finite_sample (map ev_weights evs')).
  { change (finite_sample (map (@ev_weights B64) evs')). refine (eq_ind_r finite_sample _ E1). eapply run_finite; [exact (shaped_wf Hs)|exact Hz'|exact Hf|exact H3|exact HB]. }
  split; [exact Hf'|]. split.
  - eapply sums_finite; [exact (shaped_wf Hs)|exact Hz'|exact Hf|exact H2|exact HB].
  - eapply resampler_error; [exact Hsort|exact Hs|exact Hz|exact Hf|exact Hf'|exact H0].
Qed.
Print Assumptions C80_run.

(** ... for any number of threads and any schedule, and with any seeds. *)
Theorem C80_any_schedule : forall mw nw (nearest : search B64) (ws0 : list (list B64)) seeds nthreads k (s : cstate B64),
  valid_search (length ws0) nearest -> shaped mw nw ws0 -> (forall i, In i seeds -> i < length ws0)%nat ->
  conc_steps mw nearest k (conc_init nthreads seeds (ws0 : weights_state B64)) s -> quiescent s ->
  finite_sample ws0 -> (Z.of_nat (length seeds * (length ws0 + 1)) <= 2 ^ 53)%Z -> (Z.of_nat (length ws0) <= 2 ^ 53)%Z ->
  (forall j, total_abs (b64_sample ws0) j <= 2 ^ 1022) ->
  finite_sample (mem s) /\
  forall j, Rabs (total (b64_sample (mem s)) j - total (b64_sample ws0) j) <=
    rounding (length seeds * (length ws0 + 1)) * total_abs (b64_sample ws0) j
    + (1 + rounding (length seeds * (length ws0 + 1))) * (INR (length seeds * length ws0) * half_ulp_min).
Proof.
  intros mw nw nearest ws0 seeds nthreads k s H1 H2 H3 H4 H5 Hf Hn Hz Hb.
  assert (Hf' : finite_sample (mem s)).
  { destruct (linearise_spec H1 H2 H3 H4 H5) as (cells & A & B & _). destruct (cells_small _ _ _ A) as [C1 C2].
    eapply run_finite; [exact (shaped_wf H2)|exact Hz|exact Hf|exact A|].
    apply bounded_mono with (n := (length seeds * (length ws0 + 1))%nat) (p := (length seeds * length ws0)%nat).
    - intros j. apply closed_bound; [exact Hn|apply Nat.mul_le_mono_l; lia|apply Hb].
    - eapply Nat.le_trans; [exact C2|]. apply Nat.mul_le_mono_r. exact B.
    - eapply Nat.le_trans; [exact C1|]. apply Nat.mul_le_mono_r. exact B. }
  split; [exact Hf'|]. exact (conc_total_err H1 H2 H3 H4 H5 Hf Hf' Hz).
Qed.
Print Assumptions C80_any_schedule.

(** *** The program *)
Section Run.
Context (Rec Err : Type) (is_ntuple : Rec -> bool) (convert : Rec -> Event B64 + Err)
  (cluster : Event B64 -> Event B64 + Err) (sort sort' : sorter)
  (shuffle : list (Event B64 + @cres_error Err) -> list (Event B64 + @cres_error Err)) (strategy : Strategy)
  (algo : search_algo B64) (dist : Event B64 -> Event B64 -> B64) (max : B64)
  (records : list (Rec + Err)) (W : list (list B64)) (evs : list (Event B64)).
Notation resample := (lib_resample (N := B64) (Err := Err) false sort' strategy algo dist max).
Notation input := (map ev_weights evs).
Hypothesis Hs : reorders shuffle.
Hypothesis Hsort : sort_ok sort.
Hypothesis Hsort' : sort_ok sort'.
Hypothesis He : events_of convert cluster records evs.
Hypothesis Hshape : shaped false 1 input.
Hypothesis Hsize : (Z.of_nat (length evs * (length evs + 1)) <= 2 ^ 53)%Z.
Hypothesis Hfin : finite_sample input.
Hypothesis Hbound : total_abs (b64_sample input) 0 <= 2 ^ 1022.

Lemma run_fin_weights :
  cres_run is_ntuple convert cluster false sort shuffle resample lib_no_unweight records = Wrote W -> finite_sample W.
Proof.
  intros H. destruct (run_wrote Hs Hsort H) as (Hl & evs' & used & evs1 & evs2 & He' & Hp & Hr & Hu & Hid & Hw).
  assert (evs' = evs) as -> by (eapply events_fun; eassumption). cbn in Hu. injection Hu as <-.
  unfold lib_resample in Hr. destruct (resampler_resample false sort' strategy algo dist max used) as [[evs1' cells]|] eqn:Er; [|discriminate].
  injection Hr as ->.
  assert (Hul : (length used <= length evs)%nat) by (rewrite <- (Permutation_length Hp); clear; induction evs as [|e l IH]; [apply le_n|]; cbn [filter length]; destruct (has_particles e); cbn [length]; lia).
  assert (Hus : forall P : Event B64 -> Prop, (forall e, In e evs -> P e) -> forall e, In e used -> P e).
  { intros P HP e Hin. eapply Permutation_in in Hin; [|apply Permutation_sym; exact Hp]. apply filter_In in Hin. apply HP, Hin. }
  assert (Hshu : shaped false 1 (map ev_weights used)).
  { destruct Hshape as (H1 & H2 & H3). split; [exact H1|]. split; [exact H2|]. apply Forall_map, Forall_forall. apply Hus. intros e Hin. unfold uniform in H3. rewrite Forall_forall in H3. apply H3. apply in_map. exact Hin. }
  assert (Hfu : finite_sample (map ev_weights used)).
  { apply Forall_map, Forall_forall. apply Hus. intros e Hin. unfold finite_sample in Hfin. rewrite Forall_forall in Hfin. apply Hfin. apply in_map. exact Hin. }
  assert (Hbu : forall k, total_abs (b64_sample (map ev_weights used)) k <= 2 ^ 1022).
  { intros [|k].
    - eapply Rle_trans; [|exact Hbound]. eapply b64_used; eassumption.
    - assert (E : total_abs (b64_sample (map ev_weights used)) (S k) = 0).
      { unfold total_abs, b64_sample. rewrite !map_map. destruct Hshu as (_ & _ & H3). unfold uniform in H3. apply Forall_map in H3. clear -H3.
        induction H3 as [|e l H _ IH]; [reflexivity|]. cbn [map]. rewrite SumProofs.Rsum_cons, IH. destruct (ev_weights e) as [|w [|? ?]]; try discriminate. cbn [map nth]. destruct k; cbn [nth]; rewrite Rabs_R0; lra. }
      rewrite E. apply pow_le. lra. }
  assert (Hz : (Z.of_nat (length used * (length used + 1)) <= 2 ^ 53)%Z).
  { eapply Z.le_trans; [|exact Hsize]. apply Nat2Z.inj_le. apply Nat.mul_le_mono; lia. }
  destruct (C80_run false 1 sort' strategy algo dist max used evs1 cells Hsort' Hshu Hz Hfu Hbu Er) as [Hf1 _].
  apply resampler_inv in Er. destruct Er as (seeds & ws' & _ & E2 & Ew).
  pose proof (resample_seeds_length _ _ _ _ E2) as Hl'. rewrite map_length in Hl'. destruct (with_weights_spec _ _ Hl') as (W1 & W2 & _).
  assert (Hnd : NoDup (map ev_id evs1)) by (rewrite Ew, W2; eapply used_nodup; eauto).
  destruct (Hw Hnd) as [Hw1 Hw2]. apply Forall_forall. intros ws Hin. apply In_nth_error in Hin as [n Hn].
  destruct (in_dec Nat.eq_dec n (map ev_id evs1)) as [Hi|Hi].
  - apply in_map_iff in Hi as (e & <- & Hi). rewrite (Hw1 e Hi) in Hn. injection Hn as <-.
    unfold finite_sample in Hf1. rewrite Forall_forall in Hf1. apply Hf1, in_map. exact Hi.
  - assert (Hlt : (n < length records)%nat) by (rewrite <- Hl; apply nth_error_Some; congruence). rewrite (Hw2 n Hlt Hi) in Hn. injection Hn as <-.
    constructor; [split; reflexivity|constructor].
Qed.
End Run.

(** Both searches of the program work if no distance is NaN. *)
Theorem C80_search : forall sort choose n (dist : nat -> nat -> B64) max, sort_ok sort -> choose_ok choose ->
  (forall i j, (i < n)%nat -> (j < n)%nat -> not_nan (dist i j)) -> not_nan max ->
  valid_search n (naive_nearest choose n dist max) /\ valid_search n (tree_nearest sort choose n dist max).
Proof.
  intros sort choose n dist max Hs Hc Hd Hm. split; [apply (@naive_valid B64 not_nan); auto using B64_order|].
  intros q Hq. destruct (@tree_sound B64 not_nan sort choose n dist max q B64_order Hs Hc Hd Hq) as (l & E & Hnd & Hl).
  exists l. split; [exact E|]. split; [exact Hnd|]. intros i Hi. apply in_map_iff in Hi as ([j d] & <- & Hin). apply Hl in Hin. cbn [fst]. tauto.
Qed.
Print Assumptions C80_search.

(** The program with text files (HepMC and LHEF) and one weight for each event: if the input can be read,
    and the absolute values of the weights add up to at most 2^1022, then the program succeeds, the
    output files can be read, they hold the same events with finite weights, and the total of
    the weights is that of the input, without the events that have no identified particles, up to rounding. *)
Theorem C80_program : forall show xml checks names sort sort' choose cluster shuffle strategy (algo : search_algo B64) dist max fuel inputs files evs,
  displays show -> stops_at_tag xml -> reorders shuffle -> sort_ok sort -> sort_ok sort' -> choose_ok choose ->
  (forall e : Event B64, exists e', cluster e = Some e' /\ ev_weights e' = ev_weights e /\ ev_id e' = ev_id e) ->
  algo = naive_nearest choose \/ algo = tree_nearest sort' choose ->
  (forall a b, not_nan (dist a b)) -> not_nan max ->
  event_files xml inputs = Ok (files, []) -> Forall (well_formed b64_fin b64_double xml checks []) files ->
  reads b64_double show xml checks false names sort inputs evs -> (length evs < fuel)%nat ->
  finite_sample (map ev_weights evs) -> total_abs (b64_sample (map ev_weights evs)) 0 <= 2 ^ 1022 ->
  (Z.of_nat (length evs * (length evs + 1)) <= 2 ^ 53)%Z ->
  exists outs evs',
    cres_program b64_double show xml checks false names sort cluster shuffle
      (lib_resample false sort' strategy algo dist max) lib_no_unweight fuel inputs = Done outs /\
    length outs = length files /\
    reads b64_double show xml checks false names sort (replace_events xml inputs outs) evs' /\
    length evs' = length evs /\ map ev_out evs' = map ev_out evs /\ finite_sample (map ev_weights evs') /\
    Rabs (total (b64_sample (map ev_weights evs')) 0 -
        (total (b64_sample (map ev_weights evs)) 0 - total (b64_sample (map ev_weights (filter (fun e => negb (keeps_particles cluster e)) evs))) 0))
      <= rounding_error (length evs) (total_abs (b64_sample (map ev_weights evs)) 0).
Proof.
  intros show xml checks names sort sort' choose cluster shuffle strategy algo dist max fuel inputs files evs
    Hd Hx Hs Hsort Hsort' Hc Hcl Halgo Hdist Hmax He Hwf Hread Hfuel Hf Hb Hn.
  assert (Hcl' : forall e e' : Event B64, cluster e = Some e' -> ev_weights e' = ev_weights e) by (intros e e' E; destruct (Hcl e) as (e2 & E2 & Hw & _); congruence).
  destruct (C71_success B64 b64_fin not_nan b64_double show xml checks false names sort cluster shuffle
    (lib_resample false sort' strategy algo dist max) lib_no_unweight inputs evs fuel) as [outs Hp]; auto.
  { apply displays_number_text. exact Hd. }
  { apply Forall_forall. intros e Hin. unfold finite_sample in Hf. rewrite Forall_forall in Hf. eapply Forall_impl; [|exact (Hf _ (in_map ev_weights _ _ Hin))]. intros w. apply b64_fin_not_nan. }
  { apply lib_resample_total; [exact Hsort'|exact B64_order|]. intros l.
    assert (Hnn : forall i j, (i < length l)%nat -> (j < length l)%nat -> not_nan (dist_wrapper dist l i j)).
    { intros i j _ _. unfold dist_wrapper. destruct (nth_error l i); [|discriminate]. destruct (nth_error l j); [apply Hdist|discriminate]. }
    destruct (C80_search sort' choose (length l) (dist_wrapper dist l) max Hsort' Hc Hnn Hmax) as [V1 V2].
    destruct Halgo as [-> | ->]; assumption. }
  { apply lib_no_unweight_total. }
  destruct (C63_round_trip B64 b64_fin b64_double show xml checks false names sort cluster shuffle _ _ fuel inputs files [] outs
    (displays_number_text show Hd) (or_introl eq_refl) Hx Hs Hsort He Hwf Hp) as (Hlo & _).
  destruct (C72_total show xml checks names sort sort' cluster shuffle strategy algo dist max fuel inputs files outs Hd Hx Hs Hsort Hsort' Hcl' He Hwf Hp)
    as (records & evs0 & W & Hcv & Hrun & Hr1 & Hr2).
  assert (evs0 = evs) as -> by (eapply reads_fun; eassumption).
  assert (Hz : (Z.of_nat (length evs) <= 2 ^ 53)%Z) by (revert Hn; generalize (length evs); intros n; nia).
  assert (HfW : finite_sample W).
  { unfold run_on in Hrun. rewrite map_map in Hrun. cbn beta iota in Hrun.
    destruct (run_wrote Hs Hsort Hrun) as (Hl & evs0 & _ & _ & _ & Hev & _).
    destruct (clustered_of b64_double false names sort cluster (or_introl eq_refl) Hcl' records evs evs0 Hcv Hev) as (Hw & _ & H1).
    assert (Hlen0 : length evs0 = length evs) by (rewrite <- (map_length ev_weights evs0), Hw; apply map_length).
    eapply (run_fin_weights _ _ _ _ _ _ _ _ _ _ _ _ _ W evs0); [exact Hs|exact Hsort|exact Hsort'|exact Hev| |rewrite Hlen0; exact Hn| | |exact Hrun].
    - rewrite Hw. split; [lia|]. split; [auto|]. exact H1.
    - pose proof Hf as Hf0. rewrite <- Hw in Hf0. exact Hf0.
    - pose proof Hb as Hb0. rewrite <- Hw in Hb0. exact Hb0. }
  destruct (Hr2 Hf HfW Hz) as (evs' & R1 & R2 & R3 & R4 & R5).
  exists outs, evs'. split; [exact Hp|]. split; [exact Hlo|]. split; [exact R1|]. split; [exact R2|]. split; [exact R3|]. split; [rewrite R4; exact HfW|exact R5].
Qed.
Print Assumptions C80_program.

(** *** Without the bound *)
(** The full property: if all weights are finite, so are the new ones. *)
Definition never_overflows (mw : bool) : Prop := forall nw sort strategy (algo : search_algo B64) dist max (evs evs' : list (Event B64)) cells,
  sort_ok sort -> shaped mw nw (map ev_weights evs) -> finite_sample (map ev_weights evs) ->
  resampler_resample mw sort strategy algo dist max evs = Some (evs', cells) -> finite_sample (map ev_weights evs').

(** Weights 2^1023, 2^1023 and -3/2 2^1023, with the total 2^1022: the mean of the weights 2^1022 / 3 is
    computed by adding the weights in the order of the events, so that all weights become infinite. *)
Definition over_event (i : nat) (w : Z) : Event B64 := mkEvent i [b64_of_Z w] [].
Definition over_events : list (Event B64) := Eval vm_compute in
  [over_event 0 (2 ^ 1023); over_event 1 (2 ^ 1023); over_event 2 (- (3 * 2 ^ 1022))].
Definition over_run (mw : bool) : option (list (Event B64) * list (Cell B64)) :=
  resampler_resample mw isort MostNegative (naive_nearest first_min) (fun _ _ => b64_of_Z 1) (b64_of_Z 10) over_events.
Definition over_after : list (Event B64) := Eval vm_compute in match over_run true with Some (e, _) => e | None => [] end.
Definition over_cells : list (Cell B64) := Eval vm_compute in match over_run true with Some (_, c) => c | None => [] end.
Theorem C80_overflow_refuted : forall mw, ~ never_overflows mw /\
  exists evs' cells, over_run mw = Some (evs', cells) /\ map ev_weights evs' = repeat [S754_infinity false] 3 /\
    Forall (fun c => b64_fin (weight_sum c)) cells.
Proof.
  intros mw. assert (E : over_run mw = Some (over_after, over_cells)) by (destruct mw; vmr). split.
  - intros H. assert (Hs : shaped mw 1 (map ev_weights over_events)) by (split; [lia|split; [reflexivity|repeat constructor]]).
    assert (Hf : finite_sample (map ev_weights over_events)) by (repeat constructor).
    specialize (H 1%nat isort MostNegative _ _ _ over_events over_after over_cells isort_ok Hs Hf E).
    inversion H as [|? ? H1 _]; subst. inversion H1 as [|? ? [_ H2] _]; subst. discriminate H2.
  - exists over_after, over_cells. split; [exact E|]. split; [reflexivity|]. repeat constructor.
Qed.
Print Assumptions C80_overflow_refuted.

(** *** Cases *)
Lemma pow_1022 x : x <= 2 ^ 60 -> x <= 2 ^ 1022.
Proof. intros H. eapply Rle_trans; [exact H|]. apply Rle_pow; [lra|lia]. Qed.

Lemma far_abs k : total_abs (b64_sample (map ev_weights far_events)) k <= 2 ^ 1022.
Proof.
  unfold total_abs, b64_sample. cbn [map far_events far_event ev_weights].
  rewrite !(fun z H => proj2 (b64_of_Z_val z H)) by (cbn; lia). apply pow_1022.
  destruct k as [|k]; [|destruct k]; cbn [nth]; rewrite !SumProofs.Rsum_cons, SumProofs.Rsum_nil, ?Rabs_R0; [|lra|lra].
  change (- 2 ^ 53)%Z with (Z.opp (2 ^ 53)). rewrite opp_IZR.
  repeat match goal with |- context [Rabs ?x] => first [rewrite (Rabs_left x) by lra | rewrite (Rabs_right x) by lra] end. lra.
Qed.
(** The run of C61_case *)
Example C80_run_case : forall mw, sort_ok isort /\ shaped mw 1 (map ev_weights far_events) /\ (Z.of_nat (length far_events * (length far_events + 1)) <= 2 ^ 53)%Z /\
  finite_sample (map ev_weights far_events) /\ (forall k, total_abs (b64_sample (map ev_weights far_events)) k <= 2 ^ 1022) /\
  resampler_resample mw isort LeastNegative far_search far_dist (b64_of_Z 100) far_events = Some (fst (far_run mw), snd (far_run mw)) /\
  length (snd (far_run mw)) = 2%nat.
Proof.
  intros mw. split; [exact isort_ok|]. split; [apply far_shaped|]. split; [cbn; lia|]. split; [apply far_finite|]. split; [exact far_abs|].
  split; [rewrite far_run_eq; destruct (far_run mw); reflexivity|destruct mw; reflexivity].
Qed.

(** The run of two threads of C05_case *)
Example C80_any_schedule_case : valid_search (length race_weights) race_search /\ shaped false 1 race_weights /\
  (forall i, In i [0; 2] -> i < length race_weights)%nat /\
  (exists k s, conc_steps false race_search k (conc_init 2 [0; 2]%nat race_weights) s /\ quiescent s /\ mem s <> race_weights) /\
  finite_sample race_weights /\ (Z.of_nat (length [0; 2]%nat * (length race_weights + 1)) <= 2 ^ 53)%Z /\
  forall j, total_abs (b64_sample race_weights) j <= 2 ^ 1022.
Proof.
  destruct C05_case as (H1 & H2 & H3 & H4). split; [exact H1|]. split; [exact H2|]. split; [exact H3|]. split; [exact H4|].
  split; [repeat constructor|]. split; [cbn; lia|]. intros k. unfold total_abs, b64_sample, race_weights. cbn [map].
  rewrite !(fun z H => proj2 (b64_of_Z_val z H)) by (cbn; lia). apply pow_1022.
  destruct k as [|k]; [|destruct k]; cbn [nth]; rewrite !SumProofs.Rsum_cons, SumProofs.Rsum_nil, ?Rabs_R0; [|lra|lra].
  repeat match goal with |- context [Rabs ?x] => first [rewrite (Rabs_left x) by lra | rewrite (Rabs_right x) by lra] end. lra.
Qed.

(** The program of C72_case, with both searches *)
Definition n_evs : list (Event B64) := Eval vm_compute in
  map (fun r => match try_convert b64_double false [] isort r with inl e => e | inr _ => mkEvent 0 [] [] end) n_records.
Definition n_open : cio B64 := Eval vm_compute in match @open_inputs B64 n_noxml true [n_file] with Ok (_, s) => s | _ => mkCIO [] None 0 0 (0%N, None) [] end.
Definition n_end : cio B64 := Eval vm_compute in match @read_all B64 b64_double b64_show n_noxml true [] 10 n_open with Some (_, s) => s | _ => mkCIO [] None 0 0 (0%N, None) [] end.
Lemma n_reads : reads b64_double b64_show n_noxml true false [] isort [n_file] n_evs.
Proof.
  exists [], n_open, 10%nat, (map inl n_records), n_end. split; [vmr|]. split; [vmr|].
  constructor; [eexists; split; [reflexivity|vmr]|]. constructor; [eexists; split; [reflexivity|vmr]|]. constructor; [eexists; split; [reflexivity|vmr]|constructor].
Qed.
Example C80_program_case : displays b64_show /\ stops_at_tag n_noxml /\ reorders (fun l : list (Event B64 + @cres_error (option read_error)) => rev l) /\
  (forall e : Event B64, exists e', Some e = Some e' /\ ev_weights e' = ev_weights e /\ ev_id e' = ev_id e) /\
  (forall a b : Event B64, not_nan ((fun _ _ => b64_of_Z 1) a b)) /\ not_nan (b64_of_Z 10) /\
  event_files n_noxml [n_file] = Ok ([n_file], []) /\ Forall (well_formed b64_fin b64_double n_noxml true []) [n_file] /\
  reads b64_double b64_show n_noxml true false [] isort [n_file] n_evs /\ (length n_evs < 10)%nat /\
  finite_sample (map ev_weights n_evs) /\ total_abs (b64_sample (map ev_weights n_evs)) 0 <= 2 ^ 1022 /\
  (Z.of_nat (length n_evs * (length n_evs + 1)) <= 2 ^ 53)%Z /\ length n_evs = 3%nat /\
  (exists outs, cres_program b64_double b64_show n_noxml true false [] isort Some (fun l => rev l)
    (lib_resample false isort MostNegative (tree_nearest isort first_min) (fun _ _ => b64_of_Z 1) (b64_of_Z 10)) lib_no_unweight 10 [n_file] = Done outs).
Proof.
  destruct C72_case as (H1 & H2 & H3 & H4 & _).
  assert (Hr : reorders (fun l : list (Event B64 + @cres_error (option read_error)) => rev l)) by (intros l; apply Permutation_rev).
  assert (Ha : total_abs (b64_sample (map ev_weights n_evs)) 0 <= 2 ^ 1022).
  { unfold total_abs, b64_sample, n_evs, b64_val, SF2R, F2R. cbn [map ev_weights nth]. apply pow_1022. rewrite !SumProofs.Rsum_cons, SumProofs.Rsum_nil. cbn.
    repeat match goal with |- context [Rabs ?x] => first [rewrite (Rabs_left x) by lra | rewrite (Rabs_right x) by lra] end. lra. }
  assert (Hf : finite_sample (map ev_weights n_evs)) by (repeat constructor).
  assert (Hc : forall e : Event B64, exists e', Some e = Some e' /\ ev_weights e' = ev_weights e /\ ev_id e' = ev_id e) by (intros e; exists e; auto).
  assert (Hd : forall a b : Event B64, not_nan ((fun _ _ => b64_of_Z 1) a b)) by (intros a b; cbv beta; apply b64_fin_not_nan, b64_of_Z_val; cbn; lia).
  assert (Hm : not_nan (b64_of_Z 10)) by (apply b64_fin_not_nan, b64_of_Z_val; cbn; lia).
  repeat (split; [first [assumption|exact n_reads|cbn; lia|reflexivity]|]).
  destruct (C80_program b64_show n_noxml true [] isort isort first_min Some (fun l => rev l) MostNegative (tree_nearest isort first_min) (fun _ _ => b64_of_Z 1)
    (b64_of_Z 10) 10 [n_file] [n_file] n_evs) as (outs & _ & Ho & _); auto using isort_ok, first_min_ok, n_reads; [cbn; lia|cbn; lia|]. exists outs. exact Ho.
Qed.
