(** C87: distances in binary64, the arithmetic of the program, are finite. *)
From Coq Require Import Reals Lra List Arith Lia NArith ZArith Permutation Bool SpecFloat.
From Flocq Require Import Core.Core IEEE754.BinarySingleNaN.
From Verif Require Import Base BaseProofs Num ModelEvent ModelText SpecText ModelStripper ModelIO ModelCell ModelSeeds ModelNaive ModelVPTree ModelResampler ModelConc ModelCres SpecCres
  ModelMain SpecMain SpecWeights SpecSearch SpecDistance ModelDistance NaiveProofs VPTreeProofs2 CresProofs MainProofs
  B64Proofs B64Errors SpecRounding B64Run B64Finite ModelNumber SpecNumber NumberProofs PropsMain PropsPanic PropsNumber PropsFinite PropsDistance
  SpecMoments B64Distance B64Distance2 B64Distance3.
Import ListNotations.
Local Open Scope list_scope.
Local Open Scope R_scope.

(** *** The distance of two events *)

(** No NaN, and no overflow, for any number of particles. *)
Theorem C87_finite : forall sort km tau e1 e2, sort_ok sort -> km_tame km -> within (2 ^ 9) tau -> moderate_event e1 -> moderate_event e2 ->
  (Z.of_nat (particles e1 + particles e2) <= 2 ^ 53)%Z ->
  exists d, distance sort km tau e1 e2 = Some d /\ b64_fin d /\ Rabs (b64_val d) <= INR (particles e1 + particles e2) * 2 ^ 513.
Proof. intros sort km tau e1 e2 Hs Hk Ht H1 H2 Hn. exact (@distance_within sort Hs tau Ht km e1 e2 Hk H1 H2 Hn). Qed.
Print Assumptions C87_finite.

(** With at most three particles of each type the assignment algorithm is not used; the
    distance is not negative, *)
Theorem C87_few : forall sort km tau e1 e2, sort_ok sort -> within (2 ^ 9) tau -> moderate_event e1 -> moderate_event e2 -> few_of_each e1 -> few_of_each e2 ->
  (Z.of_nat (particles e1 + particles e2) <= 2 ^ 53)%Z ->
  exists d, distance sort km tau e1 e2 = Some d /\ b64_fin d /\ 0 <= b64_val d <= INR (particles e1 + particles e2) * 2 ^ 512.
Proof. intros sort km tau e1 e2 Hs Ht H1 H2 F1 F2 Hn. exact (@distance_few sort Hs tau Ht km e1 e2 H1 H2 F1 F2 Hn). Qed.
Print Assumptions C87_few.

(** and an event has exactly the distance zero from itself, although the momenta are rounded. *)
Theorem C87_self : forall sort km tau e, sort_ok sort -> within (2 ^ 9) tau -> moderate_event e -> few_of_each e ->
  exists d, distance sort km tau e e = Some d /\ b64_fin d /\ b64_val d = 0.
Proof. intros sort km tau e Hs Ht HM HF. exact (@distance_self sort Hs tau Ht km e HM HF). Qed.
Print Assumptions C87_self.

(** The limit on the momenta is needed: the transverse momentum of a particle with finite
    momentum overflows, and the distance of its event from itself is NaN, even for the default
    weight zero of the transverse momentum.  (With debug assertions, [N64] panics.) *)
Definition huge : B64 := Eval vm_compute in b64_of_Z (2 ^ 600).
Theorem C87_huge_refuted : ~ (forall sort km tau (p : FourVector B64) ws d, sort_ok sort -> within (2 ^ 9) tau ->
  (exists e x y z : B64, p = fv_from e x y z /\ b64_fin e /\ b64_fin x /\ b64_fin y /\ b64_fin z) ->
  distance sort km tau (mkEvent 0 ws [(90%Z, [p])]) (mkEvent 0 ws [(90%Z, [p])]) = Some d -> not_nan d).
Proof.
  intros H. apply (H isort (fun _ _ => n0) n0 (fv_from (N := B64) huge huge n0 n0) [b64_of_Z 1] S754_nan); [exact isort_ok| | |vmr|reflexivity].
  - apply within_0, Rlt_le, pow_pos.
  - exists huge, huge, n0, n0. split; [reflexivity|]. repeat split; reflexivity.
Qed.
Print Assumptions C87_huge_refuted.

(** *** The program *)
(** C80_program with the distance of the program in place of one that is assumed to be never
    NaN: it suffices that the momenta of the clustered events are moderate. *)
Theorem C87_program : forall show xml checks names sort sort' choose cluster shuffle strategy (algo : search_algo B64) km tau max fuel inputs files evs,
  displays show -> stops_at_tag xml -> reorders shuffle -> sort_ok sort -> sort_ok sort' -> choose_ok choose ->
  (forall e : Event B64, exists e', cluster e = Some e' /\ ev_weights e' = ev_weights e /\ ev_id e' = ev_id e) ->
  (forall e e', In e evs -> cluster e = Some e' -> moderate_event e' /\ (Z.of_nat (particles e') <= 2 ^ 52)%Z /\ (km_tame km \/ few_of_each e')) ->
  algo = naive_nearest choose \/ algo = tree_nearest sort' choose ->
  within (2 ^ 9) tau -> not_nan max ->
  event_files xml inputs = Ok (files, []) -> Forall (well_formed b64_fin b64_double xml checks []) files ->
  reads b64_double show xml checks false names sort inputs evs -> (length evs < fuel)%nat ->
  finite_sample (map ev_weights evs) -> total_abs (b64_sample (map ev_weights evs)) 0 <= 2 ^ 1022 ->
  (Z.of_nat (length evs * (length evs + 1)) <= 2 ^ 53)%Z ->
  exists outs evs',
    cres_program b64_double show xml checks false names sort cluster shuffle
      (lib_resample false sort' strategy algo (fun a b => match distance sort' km tau a b with Some d => d | None => n0 end) max) lib_no_unweight fuel inputs = Done outs /\
    length outs = length files /\
    reads b64_double show xml checks false names sort (replace_events xml inputs outs) evs' /\
    length evs' = length evs /\ map ev_out evs' = map ev_out evs /\ finite_sample (map ev_weights evs') /\
    Rabs (total (b64_sample (map ev_weights evs')) 0 -
        (total (b64_sample (map ev_weights evs)) 0 - total (b64_sample (map ev_weights (filter (fun e => negb (keeps_particles cluster e)) evs))) 0))
      <= rounding_error (length evs) (total_abs (b64_sample (map ev_weights evs)) 0).
Proof.
  intros show xml checks names sort sort' choose cluster shuffle strategy algo km tau max fuel inputs files evs
    Hd Hx Hs Hsort Hsort' Hc Hcl Hmod Halgo Htau Hmax He Hwf Hread Hfuel Hf Hb Hn.
  set (dist := fun a b => match distance sort' km tau a b with Some d => d | None => n0 end).
  set (dist' := fun a b => match dist a b with S754_nan => n0 | d => d end).
  assert (Hdist : forall a b, not_nan (dist' a b)) by (intros a b; unfold dist'; destruct (dist a b); discriminate).
  rewrite (@program_swap B64 b64_double show xml checks false names sort cluster shuffle _
    (lib_resample false sort' strategy algo dist' max) lib_no_unweight fuel inputs evs Hs Hread).
  { exact (C80_program show xml checks names sort sort' choose cluster shuffle strategy algo dist' max fuel inputs files evs
      Hd Hx Hs Hsort Hsort' Hc Hcl Halgo Hdist Hmax He Hwf Hread Hfuel Hf Hb Hn). }
  intros used Hu. apply resample_swap. intros a b Ha Hb'.
  assert (M : forall e, In e used -> moderate_event e /\ (Z.of_nat (particles e) <= 2 ^ 52)%Z /\ (km_tame km \/ few_of_each e)).
  { intros e Hin. destruct (Hu e Hin) as (e0 & e1 & H0 & H1 & H2). unfold moderate_event, particles, few_of_each. rewrite H2. exact (Hmod e0 e1 H0 H1). }
  destruct (M a Ha) as (Ma & Na & Ka), (M b Hb') as (Mb & Nb & Kb).
  assert (D : exists d, distance sort' km tau a b = Some d /\ b64_fin d).
  { destruct Ka as [Hk|Fa]; [|destruct Kb as [Hk|Fb]].
    - destruct (C87_finite sort' km tau a b Hsort' Hk Htau Ma Mb) as (d & E & F & _); [lia|]. exists d. auto.
    - destruct (C87_finite sort' km tau a b Hsort' Hk Htau Ma Mb) as (d & E & F & _); [lia|]. exists d. auto.
    - destruct (C87_few sort' km tau a b Hsort' Htau Ma Mb Fa Fb) as (d & E & F & _); [lia|]. exists d. auto. }
  destruct D as (d & E & F). unfold dist', dist. rewrite E. apply b64_fin_not_nan in F. destruct d; try reflexivity. exfalso. apply F. reflexivity.
Qed.
Print Assumptions C87_program.

(** *** Cases *)
Lemma within_dec z x : (0 <= z <= 2 ^ 53)%Z -> b64_fin x -> nleb (n := B64) x (b64_of_Z z) = true -> nleb (n := B64) (b64_of_Z (- z)) x = true -> within (2 ^ 500) x.
Proof.
  intros Hz F H1 H2. destruct (b64_of_Z_val z) as [Fz Vz]; [lia|]. destruct (b64_of_Z_val (- z)) as [Fz' Vz']; [lia|].
  rewrite b64_leb in H1, H2 by assumption. rewrite Vz in H1. rewrite Vz', opp_IZR in H2. unfold Rleb in *.
  destruct (Rle_dec (b64_val x) (IZR z)); [|discriminate]. destruct (Rle_dec (- IZR z) (b64_val x)); [|discriminate]. split; [exact F|].
  apply Rle_trans with (IZR z); [apply Rabs_le; lra|]. apply Rle_trans with (2 ^ 53); [|apply pow_mono; lia].
  rewrite <- bpow_pow. change (bpow radix2 (Z.of_nat 53)) with (IZR (2 ^ 53)). apply IZR_le. lia.
Qed.
Definition moderateb (p : FourVector B64) : bool :=
  forallb (fun x => valid_binary prec64 emax64 x && match x with S754_zero _ | S754_finite _ _ _ => true | _ => false end && nleb (n := B64) x (b64_of_Z 1000) && nleb (n := B64) (b64_of_Z (- 1000)) x) [fv_x p; fv_y p; fv_z p]
  && match fv_e p with S754_nan => false | _ => true end.
Lemma moderate_dec p : p = fv_from (fv_e p) (fv_x p) (fv_y p) (fv_z p) -> moderateb p = true -> moderate p.
Proof.
  intros E H. unfold moderateb in H. apply andb_prop in H as [H He]. cbn [forallb] in H. rewrite !andb_true_iff in H. destruct H as (Hx & Hy & Hz & _).
  exists (fv_e p), (fv_x p), (fv_y p), (fv_z p). split; [exact E|]. split; [destruct (fv_e p); discriminate|].
  repeat split; eapply within_dec with (z := 1000%Z); try lia; try tauto; split; try tauto;
    match goal with |- is_finite_SF ?x = true => destruct x; intuition congruence end.
Qed.

(** an assignment algorithm as assumed: it takes the weights on the diagonal *)
Definition km_diagonal : assignment B64 := fun n w => nsum (N := B64) (map (fun i => w i i) (seq 0 n)).
Lemma km_diagonal_tame : km_tame km_diagonal.
Proof.
  intros n w Hn Hw. unfold km_diagonal, nsum.
  assert (H : forall l k x, within (INR k * 2 ^ 513) x -> Forall (fun i => within (2 ^ 512) (w i i)) l -> (Z.of_nat (k + length l) <= 2 ^ 53)%Z ->
    within (INR (k + length l) * 2 ^ 513) (fold_left (nadd (n := B64)) (map (fun i => w i i) l) x)).
  { induction l as [|i l IH]; intros k x Hx Hl Hk; [cbn [length map fold_left]; rewrite Nat.add_0_r; exact Hx|].
    inversion Hl as [|? ? Hi Hl']; subst. cbn [length map fold_left] in *. replace (k + S (length l))%nat with (S k + length l)%nat in * by lia.
    apply IH; [|exact Hl'|exact Hk]. assert (Hk' : (Z.of_nat (S k) <= 2 ^ 53)%Z) by lia.
    apply add_v; [exact (proj1 Hx)|exact (proj1 Hi)|apply fmt_mult; exact Hk'|apply count_big; [exact Hk'|lia]|].
    eapply Rle_trans; [apply Rabs_triang|]. destruct Hx as [_ Hx], Hi as [_ Hi]. rewrite S_INR.
    replace (2 ^ 513) with (2 ^ 512 + 2 ^ 512) in * by apply pow_double. pose proof (pow_pos 512). lra. }
  rewrite <- (seq_length n 0) at 1. apply (H (seq 0 n) 0%nat n0).
  - cbn [INR]. rewrite Rmult_0_l. apply within_0. lra.
  - apply Forall_forall. intros i Hi. apply in_seq in Hi. apply Hw; lia.
  - rewrite seq_length. exact Hn.
Qed.

(** two events with five and four jets and a lepton each *)
Definition jet (e x y z : Z) : FourVector B64 := fv_from (N := B64) (b64_of_Z e) (b64_of_Z x) (b64_of_Z y) (b64_of_Z z).
Definition jets1 : Event B64 := Eval vm_compute in
  mkEvent (N := B64) 0 [b64_of_Z 1] [(90%Z, [jet 60 3 4 50; jet 70 (-5) 12 60; jet 80 30 40 (-50); jet 90 1 2 3; jet 20 (-7) 7 7]); (11%Z, [jet 5 3 4 0])].
Definition jets2 : Event B64 := Eval vm_compute in
  mkEvent (N := B64) 1 [b64_of_Z (-1)] [(90%Z, [jet 61 3 5 50; jet 72 (-5) 13 60; jet 83 30 41 (-50); jet 94 2 2 3]); (11%Z, [jet 13 5 12 0])].
Lemma jets_moderate : moderate_event jets1 /\ moderate_event jets2.
Proof.
  split; unfold moderate_event, jets1, jets2; cbn [ev_out];
    repeat (first [apply Forall_nil | apply Forall_cons; cbn [snd]]); apply moderate_dec; vmr.
Qed.
Example C87_case : sort_ok isort /\ km_tame km_diagonal /\ within (2 ^ 9) (b64_of_Z 1) /\ moderate_event jets1 /\ moderate_event jets2 /\
  (Z.of_nat (particles jets1 + particles jets2) <= 2 ^ 53)%Z /\ ~ few_of_each jets1 /\
  exists d, distance isort km_diagonal (b64_of_Z 1) jets1 jets2 = Some d /\ b64_fin d.
Proof.
  assert (Ht : within (2 ^ 9) (b64_of_Z 1)).
  { destruct (b64_of_Z_val 1) as [F V]; [lia|]. split; [exact F|]. rewrite V, Rabs_pos_eq by lra. replace 1 with (2 ^ 0) by reflexivity. apply pow_mono. lia. }
  destruct jets_moderate as [H1 H2]. assert (Hn : (Z.of_nat (particles jets1 + particles jets2) <= 2 ^ 53)%Z) by (cbn; lia).
  split; [exact isort_ok|]. split; [exact km_diagonal_tame|]. split; [exact Ht|]. split; [exact H1|]. split; [exact H2|]. split; [exact Hn|]. split.
  - intros H. inversion H as [|? ? H3 _]. cbn in H3. lia.
  - destruct (C87_finite isort km_diagonal (b64_of_Z 1) jets1 jets2 isort_ok km_diagonal_tame Ht H1 H2 Hn) as (d & E & F & _). exists d. auto.
Qed.

(** The program of C80_program_case, with the distance of the program *)
Lemma n_evs_moderate : forall e, In e n_evs -> moderate_event e /\ few_of_each e /\ (Z.of_nat (particles e) <= 2 ^ 52)%Z.
Proof.
  apply Forall_forall. unfold n_evs. repeat (first [apply Forall_nil | apply Forall_cons]);
    (split; [unfold moderate_event; cbn [ev_out]; repeat (first [apply Forall_nil | apply Forall_cons; cbn [snd]]); try (apply moderate_dec; vmr)|]);
    (split; [unfold few_of_each; cbn [ev_out]; repeat (first [apply Forall_nil | apply Forall_cons; cbn [snd]]); cbn; lia|cbn; lia]).
Qed.
Example C87_program_case : (forall e e', In e n_evs -> Some e = Some e' -> moderate_event e' /\ (Z.of_nat (particles e') <= 2 ^ 52)%Z /\ (km_tame km_diagonal \/ few_of_each e')) /\
  (exists e, In e n_evs /\ particles e = 1%nat) /\
  exists outs, cres_program b64_double b64_show n_noxml true false [] isort Some (fun l => rev l)
    (lib_resample false isort MostNegative (tree_nearest isort first_min) (fun a b => match distance isort km_diagonal n0 a b with Some d => d | None => n0 end) (b64_of_Z 10))
    lib_no_unweight 10 [n_file] = Done outs.
Proof.
  assert (Hm : forall e e', In e n_evs -> Some e = Some e' -> moderate_event e' /\ (Z.of_nat (particles e') <= 2 ^ 52)%Z /\ (km_tame km_diagonal \/ few_of_each e')).
  { intros e e' Hin E. injection E as <-. destruct (n_evs_moderate e Hin) as (H1 & H2 & H3). auto. }
  split; [exact Hm|]. split; [eexists; split; [left; reflexivity|reflexivity]|].
  destruct C80_program_case as (H1 & H2 & H3 & H4 & H5 & H6 & H7 & H8 & H9 & H10 & H11 & H12 & H13 & _).
  destruct (C87_program b64_show n_noxml true [] isort isort first_min Some (fun l => rev l) MostNegative (tree_nearest isort first_min) km_diagonal n0
    (b64_of_Z 10) 10 [n_file] [n_file] n_evs) as (outs & _ & Ho & _); auto using isort_ok, first_min_ok.
  - apply within_0, Rlt_le, pow_pos.
  - exists outs. exact Ho.
Qed.
