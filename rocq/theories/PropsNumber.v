(** C72: numbers survive being written to and read from event files. *)
From Coq Require Import Reals Lra List Arith Lia NArith ZArith Ascii Bool SpecFloat.
From Flocq Require Import Core.Core IEEE754.BinarySingleNaN.
From Verif Require Import Base Num ModelEvent ModelText SpecText TextProofs ModelStripper ModelIO ModelCres SpecCres ModelMain SpecMain B64Proofs SpecRounding
  ModelSeeds ModelCell ModelResampler ModelNaive TextExamples PropsHepMC SpecWeights CresProofs MainProofs MainProofs3 ModelNumber SpecNumber NumberProofs NumberProofs2 PropsMain.
Import ListNotations.
Local Open Scope list_scope.
Local Open Scope nat_scope.

(** Reading: a decimal number, whatever follows it, becomes the nearest double. *)
Theorem C72_read : forall neg v t rest, decimal_number neg v t -> heads (fun c => ~ number_char c) rest ->
  exists x, b64_double (t ++ rest) = Some (x, rest) /\ nearest_double neg v x.
Proof. exact b64_double_reads. Qed.
Print Assumptions C72_read.

(** Nothing else is read as a number, except for NaN and infinity. *)
Theorem C72_read_only : forall t x rest, b64_double t = Some (x, rest) ->
  (exists neg v p, t = p ++ rest /\ decimal_number neg v p /\ nearest_double neg v x) \/
  (exists p, t = p ++ rest /\ (map to_lower p = lit "nan" /\ x = S754_nan \/
     In (map to_lower p) [lit "inf"; lit "infinity"] /\ x = S754_infinity false)).
Proof.
  intros t x rest H. unfold b64_double, nom_double in H. destruct (recognize_float t) as [[d r]|] eqn:E.
  - injection H as <- <-. apply float_spec in E as (s & m & y & -> & Hs & Hi & Hf & Hne & Hm & Hy). left. eexists _, _, (s ++ m ++ y). split; [reflexivity|]. split.
    + exists s, (d_int d), (d_frac d), m, (d_exp d), y. repeat (split; [eassumption|]). split; [reflexivity|]. repeat (split; [eassumption|]). reflexivity.
    + destruct d as [neg i f k]. apply decimal_nearest; [exact Hi|exact Hf|reflexivity].
  - right. clear E. assert (Ht : forall tag t r, tag_no_case tag t = Some r -> exists p, t = p ++ r /\ map to_lower p = map to_lower tag).
    { clear. induction tag as [|c tag IH]; intros t r; cbn [tag_no_case]; [intros H; injection H as <-; exists []; auto|].
      destruct t as [|d t]; [discriminate|]. destruct (ceq _ _) eqn:E; [|discriminate]. intros H. apply ceq_true in E. destruct (IH t r H) as (p & -> & Hp).
      exists (d :: p). split; [reflexivity|]. cbn. congruence. }
    cbn [exception b64_exceptions] in H.
    destruct (tag_no_case (lit "nan") t) as [r|] eqn:E1.
    { injection H as <- <-. destruct (Ht _ _ _ E1) as (p & -> & Hp). exists p. split; [reflexivity|]. left. auto. }
    destruct (tag_no_case (lit "infinity") t) as [r|] eqn:E2.
    { injection H as <- <-. destruct (Ht _ _ _ E2) as (p & -> & Hp). exists p. split; [reflexivity|]. right. split; [|reflexivity]. right. left. symmetry. exact Hp. }
    destruct (tag_no_case (lit "inf") t) as [r|] eqn:E3; [|discriminate].
    injection H as <- <-. destruct (Ht _ _ _ E3) as (p & -> & Hp). exists p. split; [reflexivity|]. right. split; [|reflexivity]. left. symmetry. exact Hp.
Qed.
Print Assumptions C72_read_only.

(** Writing: if numbers are printed as documented for [to_string], finite numbers are read back
    exactly, whatever follows them. *)
Theorem C72_finite : forall show x rest, displays show -> b64_fin x -> heads (fun c => ~ number_char c) rest ->
  b64_double (show x ++ rest) = Some (x, rest).
Proof.
  intros show x rest Hs Hx Hr. destruct (Hs x Hx) as (s & i & f & m & v & _ & _ & _ & _ & _ & _ & Hd & Hv).
  destruct (b64_double_reads _ v (show x) rest Hd Hr) as (y & Hy & Hn). rewrite Hy. do 2 f_equal. exact (nearest_self _ v x y Hn Hx Hv eq_refl).
Qed.
Print Assumptions C72_finite.

(** There is a way to print numbers as documented. *)
Theorem C72_exists : displays b64_show.
Proof. exact b64_show_displays. Qed.
Print Assumptions C72_exists.

(** These are the assumptions about numbers made elsewhere (C30, C53-C55, C63, C70, ...). *)
Theorem C72_number_text : forall show, displays show -> number_text B64 b64_fin b64_double show.
Proof. exact displays_number_text. Qed.
Print Assumptions C72_number_text.

(** *** Numbers that are not finite *)
(** The full property: a number is read back if it is not NaN. *)
Definition all_read_back (show : B64 -> text) : Prop := forall x, x <> S754_nan -> b64_double (show x) = Some (x, []).
(** In Rust, infinities are written as "inf" and "-inf"; the latter cannot be read. *)
Theorem C72_infinite_refuted : forall show, show (S754_infinity true) = lit "-inf" -> b64_double (show (S754_infinity true)) = None /\ ~ all_read_back show.
Proof.
  intros show H. assert (E : b64_double (show (S754_infinity true)) = None) by (rewrite H; vmr). split; [exact E|].
  intros Ha. specialize (Ha (S754_infinity true)). rewrite E in Ha. discriminate Ha. discriminate.
Qed.
Print Assumptions C72_infinite_refuted.

(** *** The program *)
(** With binary64 numbers, HepMC and LHEF files, and one weight for each event: the output files
    hold the new weights, bit for bit, if these are finite. *)
Theorem C72_program : forall show xml checks names sort cluster shuffle resample unweighter fuel inputs files outs,
  displays show -> stops_at_tag xml -> reorders shuffle -> sort_ok sort ->
  event_files xml inputs = Ok (files, []) -> Forall (well_formed b64_fin b64_double xml checks []) files ->
  cres_program b64_double show xml checks false names sort cluster shuffle resample unweighter fuel inputs = Done outs ->
  exists records evs W,
    Forall2 (fun r ev => try_convert b64_double false names sort r = inl ev) records evs /\
    run_on b64_double false names sort cluster shuffle resample unweighter (map inl records) = Wrote W /\
    reads b64_double show xml checks false names sort inputs evs /\
    (finite_sample W -> Forall (fun ws => length ws <= 1) W ->
     reads b64_double show xml checks false names sort (replace_events xml inputs outs) (reweighted_all evs W)).
Proof.
  intros show xml checks names sort cluster shuffle resample unweighter fuel inputs files outs Hd Hx Hs Hsort He Hwf Hp.
  destruct (C63_round_trip B64 b64_fin b64_double show xml checks false names sort cluster shuffle resample unweighter fuel inputs files [] outs
    (displays_number_text show Hd) (or_introl eq_refl) Hx Hs Hsort He Hwf Hp) as (_ & records & evs & W & _ & Hc & Hrun & _ & Hr1 & Hr2).
  exists records, evs, W. split; [exact Hc|]. split; [exact Hrun|]. split; [exact Hr1|]. intros Hf Hl. apply Hr2.
  change (extract_scaling []) with (@nil (text * B64)). clear -Hf Hl. induction Hf as [|ws W Hw _ IH]; [constructor|]. inversion Hl; subst. constructor; [|auto].
  destruct ws as [|w [|? ?]]; [left; reflexivity| |cbn in *; lia]. right. exists w. inversion Hw; subst. split; [reflexivity|]. split; [assumption|]. intros name scale [].
Qed.
Print Assumptions C72_program.

(** ... and, with the resampler of the library, the sum of the weights in the output files is that
    of the input files, without the events that have no identified particles, up to rounding. *)
Theorem C72_total : forall show xml checks names sort sort' cluster shuffle strategy (algo : search_algo B64) dist max fuel inputs files outs,
  displays show -> stops_at_tag xml -> reorders shuffle -> sort_ok sort -> sort_ok sort' ->
  (forall e e' : Event B64, cluster e = Some e' -> ev_weights e' = ev_weights e) ->
  event_files xml inputs = Ok (files, []) -> Forall (well_formed b64_fin b64_double xml checks []) files ->
  cres_program b64_double show xml checks false names sort cluster shuffle
    (lib_resample false sort' strategy algo dist max) lib_no_unweight fuel inputs = Done outs ->
  exists records evs W,
    Forall2 (fun r ev => try_convert b64_double false names sort r = inl ev) records evs /\
    run_on b64_double false names sort cluster shuffle (lib_resample false sort' strategy algo dist max) lib_no_unweight (map inl records) = Wrote W /\
    reads b64_double show xml checks false names sort inputs evs /\
    (finite_sample (map ev_weights evs) -> finite_sample W -> (Z.of_nat (length evs) <= 2 ^ 53)%Z -> exists evs',
     reads b64_double show xml checks false names sort (replace_events xml inputs outs) evs' /\
     length evs' = length evs /\ map ev_out evs' = map ev_out evs /\ map ev_weights evs' = W /\
     (Rabs (total (b64_sample (map ev_weights evs')) 0 -
        (total (b64_sample (map ev_weights evs)) 0 - total (b64_sample (map ev_weights (filter (fun e => negb (keeps_particles cluster e)) evs))) 0))
      <= rounding_error (length evs) (total_abs (b64_sample (map ev_weights evs)) 0))%R).
Proof.
  intros show xml checks names sort sort' cluster shuffle strategy algo dist max fuel inputs files outs Hd Hx Hs Hsort Hsort' Hcl He Hwf Hp.
  destruct (C72_program show xml checks names sort cluster shuffle _ _ fuel inputs files outs Hd Hx Hs Hsort He Hwf Hp) as (records & evs & W & Hc & Hrun & Hr1 & Hr2).
  exists records, evs, W. split; [exact Hc|]. split; [exact Hrun|]. split; [exact Hr1|]. intros Hf HfW Hn.
  unfold run_on in Hrun. rewrite map_map in Hrun. cbn beta iota in Hrun.
  destruct (run_wrote Hs Hsort Hrun) as (Hl & evs0 & _ & _ & _ & Hev & _).
  destruct (clustered_of b64_double false names sort cluster (or_introl eq_refl) Hcl records evs evs0 Hc Hev) as (Hw & Hd0 & H1).
  assert (Hlr : length evs = length records) by (symmetry; exact (Forall2_len _ _ _ _ _ Hc)). rewrite map_length, <- Hlr in Hl.
  assert (Hsh : shaped false 1 (map ev_weights evs0)).
  { rewrite Hw. split; [lia|]. split; [auto|]. exact H1. }
  assert (HW1 : Forall (fun ws => length ws = 1) W) by (eapply run_single; [exact Hs|exact Hsort|exact Hev|exact Hsh|exact Hrun]).
  assert (HW2 : Forall (fun ws => length ws <= 1) W) by (eapply Forall_impl; [|exact HW1]; cbn; intros ws H; lia).
  assert (Hlen0 : length evs0 = length evs) by (rewrite <- (map_length ev_weights evs0), Hw; apply map_length).
  assert (E : map ev_weights (reweighted_all evs W) = written64 (map ev_weights evs0) W).
  { rewrite Hw. clear -Hl. unfold reweighted_all, written64. revert W Hl. induction evs as [|e evs IH]; intros [|w W] Hl; try discriminate; [reflexivity|].
    cbn [combine map]. f_equal. apply IH. injection Hl as Hl. exact Hl. }
  exists (reweighted_all evs W). split; [exact (Hr2 HfW HW2)|]. split; [|split; [|split]].
  - unfold reweighted_all. rewrite map_length, combine_length. lia.
  - clear -Hl. unfold reweighted_all. revert W Hl. induction evs as [|e evs IH]; intros [|w W] Hl; try discriminate; [reflexivity|].
    cbn [combine map]. f_equal. apply IH. injection Hl as Hl. exact Hl.
  - clear -Hl HW1. unfold reweighted_all. revert W Hl HW1. induction evs as [|e evs IH]; intros [|w W] Hl HW1; try discriminate; [reflexivity|].
    inversion HW1; subst. cbn [combine map]. apply f_equal2; [|apply IH; [injection Hl as Hl; exact Hl|assumption]].
    cbn [fst snd reweighted ev_weights]. unfold written_weights, weights_is_empty. destruct w; [discriminate|reflexivity].
  - assert (Hf0 : finite_sample (map ev_weights evs0)) by (pose proof Hf as Hf0; rewrite <- Hw in Hf0; exact Hf0).
    rewrite E, <- Hw, <- Hd0, <- Hlen0. eapply run_total_rounded; [exact Hs|exact Hsort|exact Hsort'|exact Hev|exact Hsh|rewrite Hlen0; exact Hn|exact Hf0|exact HfW|exact Hrun].
Qed.
Print Assumptions C72_total.

(** *** Examples *)
Example C72_read_case : decimal_number true (-1 / 400)%R (lit "-2.50E-03") /\ heads (fun c => ~ number_char c) (lit " 7") /\
  b64_double (lit "-2.50E-03 7") = Some (S754_finite true 5764607523034235 (-61), lit " 7") /\
  b64_double (lit ".5") = Some (S754_finite false 4503599627370496 (-53), []) /\ b64_double (lit "1e400") = Some (S754_infinity false, []) /\
  b64_double (lit "-1e-400") = Some (S754_zero true, []) /\ b64_double (lit "1e") = None /\ b64_double (lit ".") = None.
Proof.
  split.
  - exists (lit "-"), (lit "2"), (lit "50"), (lit "2.50"), (-3)%Z, (lit "E-03"). split; [reflexivity|]. split; [constructor|].
    assert (Hd : forall ds, forallb is_digit ds = true -> digits ds).
    { intros ds H. apply Forall_forall. intros c Hc. apply is_digit_true. rewrite forallb_forall in H. auto. }
    split; [apply Hd; reflexivity|]. split; [apply Hd; reflexivity|]. split; [discriminate|]. split; [exact (pointed_some (lit "2") (lit "50"))|]. split.
    + apply (scaled_some "E" true (lit "-") (lit "03")); [right; left; reflexivity|constructor|discriminate|apply Hd; reflexivity].
    + change (decimal_value (lit "2" ++ lit "50")) with 250%N. change (-3 - Z.of_nat (length (lit "50")))%Z with (-5)%Z. cbn [Z.of_N]. rewrite powerRZ_split. change (10 ^ Z.max (-5) 0)%Z with 1%Z. change (10 ^ Z.max (- (-5)) 0)%Z with 100000%Z. lra.
  - split; [|repeat split; vmr]. cbn. unfold number_char, decimal_digit. cbn. intros H. repeat (destruct H as [H|H]; [try discriminate; lia|]). discriminate.
Qed.

(** three events with the weights 0.3, -0.1 and 1/4, the last without outgoing particles *)
Definition n_rec (weight last : text) : text := Eval lazy in
  lit "E 1 2 3 4 5 6 7 8 9 10 0 1 " ++ weight ++ [NL] ++ lit "P 1 11 3 4.25 1.2e1 13.25 0 " ++ last ++ [NL].
Definition n_file : text := Eval vm_compute in
  PropsHepMC.ex_header ++ n_rec (lit "0.3") (lit "1") ++ n_rec (lit "-0.1") (lit "1") ++ n_rec (lit "2.5e-1") (lit "2").
Definition n_noxml : text -> option (xml_tag B64) := fun _ => None.
Definition n_resample : list (Event B64) -> option (list (Event B64) + option read_error) :=
  lib_resample false isort MostNegative (naive_nearest first_min) (fun _ _ => b64_of_Z 1) (b64_of_Z 10).
Definition n_program : list text -> ending :=
  cres_program b64_double b64_show n_noxml true false [] isort Some (fun l => rev l) n_resample lib_no_unweight 10.
Definition n_outs : list text := Eval vm_compute in match n_program [n_file] with Done o => o | _ => [] end.
Definition n_records : list event_record := Eval vm_compute in
  [HepMCRecord (n_rec (lit "0.3") (lit "1")); HepMCRecord (n_rec (lit "-0.1") (lit "1")); HepMCRecord (n_rec (lit "2.5e-1") (lit "2"))].
Definition n_weights : list (list B64) := Eval vm_compute in
  match run_on b64_double false [] isort Some (fun l => rev l) n_resample lib_no_unweight (map inl n_records) with Wrote W => W | _ => [] end.
(** the double next to 0.1, below it, twice *)
Example C72_case : displays b64_show /\ stops_at_tag n_noxml /\
  event_files n_noxml [n_file] = Ok ([n_file], []) /\ Forall (well_formed b64_fin b64_double n_noxml true []) [n_file] /\
  n_program [n_file] = Done n_outs /\
  run_on b64_double false [] isort Some (fun l => rev l) n_resample lib_no_unweight (map inl n_records) = Wrote n_weights /\
  finite_sample n_weights /\ Forall (fun ws => length ws <= 1) n_weights /\
  n_weights = [[S754_finite false 7205759403792793 (-56)]; [S754_finite false 7205759403792793 (-56)]; [S754_zero false]] /\
  b64_double (lit "0.1") = Some (S754_finite false 7205759403792794 (-56), []).
Proof.
  split; [exact C72_exists|]. split; [intros t rest name n m H; discriminate H|]. split; [vmr|]. split.
  { constructor; [|constructor]. split; [vmr|]. replace (detect_event_file_format n_file) with HepMC2 by (symmetry; vmr). apply ends_with_false. vmr. }
  split; [vmr|]. split; [vmr|]. split; [repeat constructor|]. split; [repeat constructor|]. split; vmr.
Qed.
