(** Programs that differ in the search for neighbours only. *)
From Coq Require Import NArith ZArith Reals Lra Lia Permutation SpecFloat Sorted.
From Verif Require Import Base BaseProofs Num ModelEvent ModelText ModelIO ModelMain SpecMain ModelCres SpecCres CresProofs IOProofs MainProofs MainProofs2.
From Coq Require Import List.
Import ListNotations.
Set Implicit Arguments.

(** What the resampler of a run is given: the clustered events, numbered by their position in the input *)
Definition clustered_part {N : NumOps} (cluster : Event N -> option (Event N)) (evs used : list (Event N)) : Prop :=
  NoDup (map ev_id used) /\
  forall u, In u used -> ev_out u <> [] /\
    exists e0 e1, nth_error evs (ev_id u) = Some e0 /\ cluster e0 = Some e1 /\ ev_out u = ev_out e1 /\ ev_weights u = ev_weights e1.

Lemma nodup_map_filter A C (f : A -> C) p l : NoDup (map f l) -> NoDup (map f (filter p l)).
Proof.
  induction l as [|a l IH]; cbn [map filter]; intros H; [exact H|]. inversion H as [|? ? Ha H']; subst. destruct (p a); [|apply IH; exact H'].
  cbn [map]. constructor; [|apply IH; exact H']. intros Hin. apply Ha. apply in_map_iff in Hin as (b & <- & Hb). apply in_map. apply filter_In in Hb. tauto.
Qed.

Lemma nth_error_seq n : forall a i, (i < n)%nat -> nth_error (seq a n) i = Some (a + i)%nat.
Proof. induction n as [|n IH]; intros a [|i] H; cbn; try lia; [f_equal; lia|]. rewrite IH by lia. f_equal. lia. Qed.

Lemma program_swap_ids {N : NumOps} double show xml checks mw names sort cluster shuffle R1 R2 unweighter fuel inputs evs :
  reorders shuffle -> @reads N double show xml checks mw names sort inputs evs ->
  (forall used, clustered_part cluster evs used -> R1 used = R2 used) ->
  cres_program double show xml checks mw names sort cluster shuffle R1 unweighter fuel inputs =
  cres_program double show xml checks mw names sort cluster shuffle R2 unweighter fuel inputs.
Proof.
  intros Hs (sc & s & k & l & s' & Ho & Hr & HF) HR. unfold cres_program. rewrite Ho.
  destruct (read_all double show xml checks sc fuel s) as [[records s2]|] eqn:E; [|reflexivity].
  apply (read_all_mono N double show xml checks) with (fuel' := (k + fuel)%nat) in Hr; [|lia].
  apply (read_all_mono N double show xml checks) with (fuel' := (k + fuel)%nat) in E; [|lia]. rewrite Hr in E. injection E as <- <-.
  unfold run_on, ModelCres.cres_run.
  match goal with |- context [read_events ?a ?b ?c ?d ?e] => destruct (read_events a b c d e) as [all|err] eqn:Er; [|reflexivity] end.
  destruct (read_events_ok Hs Er) as (evs0 & [Hl He] & Hp).
  rewrite HR; [reflexivity|]. rewrite map_length in Hl.
  assert (V : forall n e, nth_error evs0 n = Some e -> ev_id e = n /\ exists e0 e1, nth_error evs n = Some e0 /\ cluster e0 = Some e1 /\ ev_out e = ev_out e1 /\ ev_weights e = ev_weights e1).
  { intros n e Hn. assert (Hlt : (n < length l)%nat) by (rewrite <- Hl; apply nth_error_Some; congruence).
    destruct (nth_error l n) as [r|] eqn:Er'; [|apply nth_error_None in Er'; lia].
    destruct (Forall2_nth _ _ _ _ _ HF n r Er') as (e0 & E0 & x & -> & Hx).
    destruct (He n _ _ (map_nth_error _ _ _ Er') Hn) as (r' & ev & ev' & A & B & C & X & ->). injection A as <-. rewrite Hx in B. injection B as <-.
    split; [reflexivity|]. exists e0, ev'. unfold try_cluster in C. destruct (cluster e0) as [c|]; [|discriminate]. injection C as <-. auto. }
  split.
  - apply nodup_map_filter. eapply Permutation_NoDup; [apply Permutation_map; exact Hp|].
    replace (map ev_id evs0) with (seq 0 (length evs0)); [apply seq_NoDup|]. apply nth_error_ext. intros n. rewrite nth_error_map.
    destruct (nth_error evs0 n) as [e|] eqn:En; cbn [option_map].
    + rewrite (proj1 (V n e En)). apply nth_error_seq. apply nth_error_Some. congruence.
    + apply nth_error_None. rewrite seq_length. apply nth_error_None. exact En.
  - intros u Hu. apply filter_In in Hu as [Hu Hne]. split; [destruct (ev_out u); [discriminate|discriminate]|].
    apply (Permutation_in _ (Permutation_sym Hp)) in Hu. apply In_nth_error in Hu as [n Hn]. destruct (V n u Hn) as [<- V']. exact V'.
Qed.
