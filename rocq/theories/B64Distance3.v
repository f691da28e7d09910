(** Distances in binary64: an event has distance zero from itself; runs with distances that are never NaN *)
From Coq Require Import ZArith Reals Lra Lia Permutation SpecFloat FunctionalExtensionality.
From Flocq Require Import Core.Core IEEE754.BinarySingleNaN.
From Verif Require Import Base BaseProofs Num ModelEvent ModelText ModelIO ModelMain SpecMain ModelCres SpecCres CresProofs ModelResampler ModelDistance SpecWeights SpecEvent SpecDistance B64Proofs B64Errors B64Finite SpecMoments
  EventProofs DistanceProofs DistanceProofs2 PropsDistance B64Distance B64Distance2 IOProofs MainProofs MainProofs2.
Set Implicit Arguments.
Local Open Scope R_scope.

(** *** Zero *)
Lemma fmt_0 : fmt 0.
Proof. apply generic_format_0. Qed.
Lemma big_0 : 0 <= big.
Proof. apply Rle_trans with (2 ^ 0); [cbn; lra|apply pow_big; lia]. Qed.
Lemma zero_within x : within 0 x -> b64_val x = 0.
Proof. intros [_ H]. pose proof (Rabs_pos (b64_val x)). destruct (Req_dec (b64_val x) 0) as [E|E]; [exact E|]. apply Rabs_pos_lt in E. lra. Qed.
Lemma sub_zero x : b64_fin x -> within 0 (nsub (n := B64) x x).
Proof. intros F. apply sub_v; [exact F|exact F|apply fmt_0|apply big_0|]. rewrite Rminus_diag_eq by reflexivity. rewrite Rabs_R0. lra. Qed.
Lemma mul_zero x y : b64_fin x -> within 0 y -> within 0 (nmul (n := B64) x y).
Proof. intros Fx Hy. apply mul_v; [exact Fx|exact (proj1 Hy)|apply fmt_0|apply big_0|]. rewrite (zero_within Hy), Rmult_0_r, Rabs_R0. lra. Qed.
Lemma square_zero x : within 0 x -> upto 0 (nmul (n := B64) x x).
Proof. intros H. pose proof (mul_zero (proj1 H) H) as M. split; [exact (proj1 M)|]. rewrite (zero_within M). lra. Qed.
Lemma sum_zero x y : upto 0 x -> upto 0 y -> upto 0 (nadd (n := B64) x y).
Proof. intros Hx Hy. apply (@add_upto _ _ 0 0); [exact Hx|exact Hy|lra|apply fmt_0|apply big_0]. Qed.
Lemma sqrt_zero x : upto 0 x -> upto 0 (nsqrt (n := B64) x).
Proof.
  intros [F [H0 H1]]. destruct (@sqrt_v x 0 0 F H0 fmt_0) as [W [P _]]; [lra|lra|lra|]. split; [exact (proj1 W)|]. rewrite (zero_within W). lra.
Qed.

Section Self.
Context (sort : sorter) (Hsort : sort_ok sort) (tau : B64) (Htau : within (2 ^ 9) tau).

Lemma pt_dist_self p : moderate p -> upto 0 (pt_dist p p tau).
Proof.
  intros Hp. destruct (moderate_pt Hp) as (Pp & Px & Py & Pz). unfold pt_dist, pt_dist_sq. apply sqrt_zero, sum_zero.
  - unfold spatial_norm_sq, fv_sub, update_pt, nsum. cbn [fv_x fv_y fv_z fold_left]. repeat apply sum_zero; [apply upto_0; lra| | |]; apply square_zero, sub_zero.
    + exact (proj1 Px).
    + exact (proj1 Py).
    + exact (proj1 Pz).
  - apply square_zero, mul_zero; [exact (proj1 Htau)|]. apply sub_zero. exact (proj1 Pp).
Qed.
Lemma fold_zero (l : list B64) : forall x, upto 0 x -> Forall (upto 0) l -> upto 0 (fold_left (nadd (n := B64)) l x).
Proof. induction l as [|y l IH]; intros x Hx H; [exact Hx|]. inversion H; subst. cbn [fold_left]. apply IH; [apply sum_zero; assumption|assumption]. Qed.
Lemma paired_self P : Forall moderate P -> upto 0 (paired_distance tau P P).
Proof.
  intros HP. unfold paired_distance, nsum. apply fold_zero; [apply upto_0; lra|]. induction HP as [|p P Hp _ IH]; constructor; [apply pt_dist_self; exact Hp|exact IH].
Qed.
Lemma min_self km P : Forall moderate P -> (length P <= 3)%nat -> exists d, min_paired_distance sort km tau P P = Some d /\ upto 0 d.
Proof.
  intros HP H3. unfold min_paired_distance. rewrite Nat.ltb_irrefl. unfold min_paired_distance_le. rewrite Nat.sub_diag. cbn [repeat]. rewrite app_nil_r. cbv zeta.
  destruct (@padded sort Hsort P P HP (le_n _)) as [HF HL]. rewrite Nat.sub_diag in HF, HL. cbn [repeat] in HF, HL. rewrite app_nil_r in HF, HL. rewrite HL.
  assert (Pm : Permutation P (@sort (FourVector B64) (@fv_leb B64) P)).
  { apply Hsort. apply (fv_preorder B64_cmp). intros p Hp. rewrite Forall_forall in HP. apply moderate_not_nan. auto. }
  assert (N : exists d, min_paired_distance_naive tau (@sort (FourVector B64) (@fv_leb B64) P) P = Some d /\ upto 0 d).
  { assert (U : forall m, Permutation P m -> upto (INR (length P) * 2 ^ 512) (paired_distance tau m P)).
    { intros m Hm. rewrite (Permutation_length Hm) in H3 |- *. apply paired_upto; [exact Htau| |exact HP|lia]. eapply Permutation_Forall; eassumption. }
    destruct (@C22_enumeration_binary64 sort tau P P Hsort) as (r & E & (m & Hm & Em) & Hmin).
    - eapply Forall_impl; [|exact HP]. exact moderate_not_nan.
    - intros m Hm. apply b64_fin_not_nan. exact (proj1 (U m Hm)).
    - exists r. split; [exact E|]. specialize (Hmin P (Permutation_refl _)). pose proof (paired_self HP) as [F0 [Z0 Z1]].
      assert (Ur : upto (INR (length P) * 2 ^ 512) r) by (rewrite Em; apply U; exact Hm).
      destruct Ur as [Fr [Hr _]]. rewrite b64_leb in Hmin by assumption. split; [exact Fr|]. split; [exact Hr|].
      unfold Rleb in Hmin. destruct (Rle_dec (b64_val r) (b64_val (paired_distance tau P P))); [lra|discriminate]. }
  destruct P as [|a [|b P]].
  - exists n0. split; [reflexivity|]. apply upto_0. lra.
  - apply Permutation_length_1_inv in Pm. rewrite Pm. exists (pt_dist a a tau). split; [reflexivity|]. apply pt_dist_self. inversion HP; assumption.
  - cbn [length] in *. replace (S (S (length P)) <=? max_part_naive)%nat with true by (symmetry; apply Nat.leb_le; unfold max_part_naive; lia). exact N.
Qed.

Lemma distance_self km e : moderate_event e -> few_of_each e -> exists d, distance sort km tau e e = Some d /\ b64_fin d /\ b64_val d = 0.
Proof.
  unfold moderate_event, few_of_each, distance. intros HM HF.
  assert (H : forall out x, Forall (fun g => Forall moderate (snd g)) out -> Forall (fun g : Z * list (FourVector B64) => (length (snd g) <= 3)%nat) out -> upto 0 x ->
    exists d, merge_loop sort km tau x out out = Some d /\ upto 0 d).
  { induction out as [|[t P] out IH]; intros x H1 H2 Hx; [exists x; split; [reflexivity|exact Hx]|].
    inversion H1; inversion H2; subst. cbn [merge_loop]. rewrite Z.compare_refl. destruct (@min_self km P) as (d & -> & Hd); [assumption|assumption|].
    apply IH; [assumption|assumption|apply sum_zero; assumption]. }
  destruct (H (ev_out e) n0 HM HF) as (d & E & F & H0); [apply upto_0; lra|]. exists d. split; [exact E|]. split; [exact F|]. lra.
Qed.
End Self.

(** *** Runs that differ in the resampler only *)
Lemma run_swap {N : NumOps} {Rec Err} is_ntuple (convert : Rec -> Event N + Err) cluster mw sort shuffle (R1 R2 : list (Event N) -> option (list (Event N) + Err)) unweighter records :
  reorders shuffle ->
  (forall evs used, events_of convert cluster records evs -> incl used evs -> R1 used = R2 used) ->
  ModelCres.cres_run is_ntuple convert cluster mw sort shuffle R1 unweighter records = ModelCres.cres_run is_ntuple convert cluster mw sort shuffle R2 unweighter records.
Proof.
  intros Hs HR. unfold ModelCres.cres_run. destruct (read_events is_ntuple convert cluster shuffle records) as [used|err] eqn:E; [|reflexivity].
  destruct (read_events_ok Hs E) as (evs & He & Hp).
  rewrite (HR evs); [reflexivity|exact He|]. intros e Hin. apply filter_In in Hin as [Hin _]. eapply Permutation_in; [apply Permutation_sym; exact Hp|exact Hin].
Qed.

Lemma program_swap {N : NumOps} double show xml checks mw names sort cluster shuffle R1 R2 unweighter fuel inputs evs :
  reorders shuffle -> @reads N double show xml checks mw names sort inputs evs ->
  (forall used, (forall e, In e used -> exists e0 e1, In e0 evs /\ cluster e0 = Some e1 /\ ev_out e = ev_out e1) -> R1 used = R2 used) ->
  cres_program double show xml checks mw names sort cluster shuffle R1 unweighter fuel inputs =
  cres_program double show xml checks mw names sort cluster shuffle R2 unweighter fuel inputs.
Proof.
  intros Hs (sc & s & k & l & s' & Ho & Hr & HF) HR. unfold cres_program. rewrite Ho.
  destruct (read_all double show xml checks sc fuel s) as [[records s2]|] eqn:E; [|reflexivity].
  apply (read_all_mono N double show xml checks) with (fuel' := (k + fuel)%nat) in Hr; [|lia].
  apply (read_all_mono N double show xml checks) with (fuel' := (k + fuel)%nat) in E; [|lia]. rewrite Hr in E. injection E as <- <-.
  unfold run_on. rewrite (@run_swap N _ _ _ _ _ _ _ _ R1 R2); [reflexivity|exact Hs|].
  intros evs0 used [Hl He] Hi. apply HR. intros e Hin. apply Hi in Hin. apply In_nth_error in Hin as [n Hn].
  assert (Hlt : (n < length (map (fun r : event_record + read_error => match r with inl x => inl x | inr err => inr (Some err) end) l))%nat).
  { rewrite <- Hl. apply nth_error_Some. congruence. }
  rewrite map_length in Hlt. destruct (nth_error l n) as [r|] eqn:Er; [|apply nth_error_None in Er; lia].
  destruct (Forall2_nth _ _ _ _ _ HF n r Er) as (e0 & E0 & x & -> & Hx).
  destruct (He n _ _ (map_nth_error _ _ _ Er) Hn) as (r' & ev & ev' & A & B & C & X). injection A as <-. rewrite Hx in B. injection B as <-.
  exists e0, ev'. split; [eapply nth_error_In; exact E0|]. unfold try_cluster in C. destruct (cluster e0) as [c|]; [|discriminate]. injection C as <-.
  split; [reflexivity|]. destruct X as [_ ->]. reflexivity.
Qed.

Lemma resample_swap {N : NumOps} {Err} mw sort strategy algo (d1 d2 : Event N -> Event N -> N) max used :
  (forall a b, In a used -> In b used -> d1 a b = d2 a b) ->
  lib_resample (Err := Err) mw sort strategy algo d1 max used = lib_resample mw sort strategy algo d2 max used.
Proof.
  intros H. unfold lib_resample, resampler_resample. replace (dist_wrapper d2 used) with (dist_wrapper d1 used); [reflexivity|].
  apply functional_extensionality. intros i. apply functional_extensionality. intros j. unfold dist_wrapper.
  destruct (nth_error used i) as [a|] eqn:Ea; [|reflexivity]. destruct (nth_error used j) as [b|] eqn:Eb; [|reflexivity].
  apply H; eapply nth_error_In; eassumption.
Qed.
