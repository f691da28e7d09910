(** Rounding errors of the distance: metric up to rounding, and searches. *)
From Coq Require Import NArith ZArith Reals Lra Lia Permutation SpecFloat Sorted.
From Flocq Require Import Core.Core IEEE754.BinarySingleNaN.
From Verif Require Import Base BaseProofs Num ModelEvent ModelDistance SpecWeights SpecEvent SpecDistance B64Proofs B64Errors B64Finite SpecMoments SpecAccuracy SpecTreeNear SumProofs EventProofs PairingProofs DistanceProofs DistanceProofs2 PropsDistance B64Distance B64Distance2 DistAccuracy DistAccuracy2 DistAccuracy3 DistAccuracy4.
From Coq Require Import List.
Import ListNotations.
Local Open Scope R_scope.
Set Implicit Arguments.

Section Exact.
Context (sort : sorter) (Hsort : sort_ok sort) (km : assignment B64).
Context (B T : R) (Blo : / 2 ^ 400 <= B) (Bhi : B <= 2 ^ 500) (T1 : 1 <= T) (T9 : T <= 2 ^ 9).
Context (tau : B64) (Ftau : b64_fin tau) (Htau : Rabs (b64_val tau) <= T).
Let M := minv (mom_dist (b64_val tau)) zero_mom.

Definition all_ids (ps1 ps2 : list (Z * FourVector B64)) : list Z := nodup Z.eq_dec (map fst ps1 ++ map fst ps2).
Definition exact (ps1 ps2 : list (Z * FourVector B64)) : R :=
  Rsum (map (fun id => M (with_id id (real_particles ps1)) (with_id id (real_particles ps2))) (all_ids ps1 ps2)).

Lemma all_ids_in ps1 ps2 id : In id (all_ids ps1 ps2) <-> In id (map fst ps1) \/ In id (map fst ps2).
Proof. unfold all_ids. rewrite nodup_In, in_app_iff. reflexivity. Qed.

Lemma exact_ok ps1 ps2 : exact_distance tau ps1 ps2 (exact ps1 ps2).
Proof.
  exists (all_ids ps1 ps2), (fun id => M (with_id id (real_particles ps1)) (with_id id (real_particles ps2))).
  split; [apply NoDup_nodup|]. split; [intros id; apply all_ids_in|]. split; [|reflexivity].
  intros id. apply min_pairing_mp, minv_spec.
Qed.

Lemma real_ids ps : map fst (real_particles ps) = map fst ps.
Proof. unfold real_particles. rewrite map_map. reflexivity. Qed.
Lemma phys_real ps : phys (real_particles ps).
Proof. unfold phys, real_particles. apply Forall_map, Forall_forall. intros x _. reflexivity. Qed.

Lemma exact_RN ps1 ps2 :
  distance (N := RN) sort km_brute (b64_val tau) (build sort (made (N := RN) true (real_particles ps1) [])) (build sort (made (N := RN) true (real_particles ps2) []))
  = Some (exact ps1 ps2).
Proof.
  apply (@distance_RN sort km_brute (b64_val tau) Hsort km_brute_ok true true (real_particles ps1) (real_particles ps2) [] [] (all_ids ps1 ps2));
    [apply phys_real|apply phys_real|apply NoDup_nodup|].
  intros id. rewrite !real_ids. apply all_ids_in.
Qed.

Lemma exact_metric p1 p2 p3 : exact p2 p1 = exact p1 p2 /\ exact p1 p3 <= exact p1 p2 + exact p2 p3.
Proof.
  destruct (@C20_pseudometric sort km_brute (b64_val tau) true (real_particles p1) (real_particles p2) (real_particles p3) [] [] [] Hsort km_brute_ok
    (phys_real p1) (phys_real p2) (phys_real p3)) as (d12 & d23 & d13 & E1 & E2 & E3 & _ & _ & E4 & H).
  rewrite exact_RN in E1, E2, E3, E4. injection E1 as <-. injection E2 as <-. injection E3 as <-. injection E4 as E4. split; assumption.
Qed.

Lemma distance_exact mw mw' n n' ps ps' (ws ws' : list B64) : few_upto km B n ps -> few_upto km B n' ps' -> (Z.of_nat (n + n') <= 2 ^ 40)%Z ->
  exists d, distance sort km tau (build sort (made mw ps ws)) (build sort (made mw' ps' ws')) = Some d /\
    b64_fin d /\ 0 <= b64_val d <= dist_bound (n + n') T B /\ Rabs (b64_val d - exact ps ps') <= dist_error (n + n') T B.
Proof.
  intros H H' Hn. destruct (@distance_near sort Hsort km B T Blo Bhi T1 T9 tau Ftau Htau mw mw' n n' ps ps' ws ws' (all_ids ps ps') H H' Hn) as (d & E & Hd).
  - apply NoDup_nodup.
  - intros id. apply all_ids_in.
  - exists d. split; [exact E|]. pose proof (near_upper Blo T1 Hn Hd) as U. destruct Hd as (F & P & _ & Hd). split; [exact F|]. split.
    + split; [exact P|]. unfold dist_bound. lra.
    + unfold dist_error. fold b64_eps. replace ((200 * INR (n + n') + 9 * INR (n + n') ^ 2) * b64_eps * T * B) with ((200 * INR (n + n') + 9 * INR (n + n') ^ 2) * (b64_eps * (T * B))) by ring. exact Hd.
Qed.

Lemma few_near_metric mw n (evs : list (list (Z * FourVector B64) * list B64)) (dist : nat -> nat -> B64) :
  Forall (fun e => few_upto km B n (fst e)) evs -> (Z.of_nat (n + n) <= 2 ^ 40)%Z ->
  (forall i j e1 e2, nth_error evs i = Some e1 -> nth_error evs j = Some e2 ->
     distance sort km tau (build sort (made mw (fst e1) (snd e1))) (build sort (made mw (fst e2) (snd e2))) = Some (dist i j)) ->
  near_metric (length evs) (3 * dist_error (n + n) T B) (dist_bound (n + n) T B) dist /\
  forall i j e1 e2, nth_error evs i = Some e1 -> nth_error evs j = Some e2 -> Rabs (b64_val (dist i j) - exact (fst e1) (fst e2)) <= dist_error (n + n) T B.
Proof.
  intros He Hn Hd.
  assert (K : forall i j e1 e2, nth_error evs i = Some e1 -> nth_error evs j = Some e2 ->
    b64_fin (dist i j) /\ 0 <= b64_val (dist i j) <= dist_bound (n + n) T B /\ Rabs (b64_val (dist i j) - exact (fst e1) (fst e2)) <= dist_error (n + n) T B).
  { intros i j e1 e2 H1 H2. rewrite Forall_forall in He. pose proof (He _ (nth_error_In _ _ H1)) as F1. pose proof (He _ (nth_error_In _ _ H2)) as F2.
    destruct (distance_exact mw mw (snd e1) (snd e2) F1 F2 Hn) as (d & E & R). rewrite (Hd i j e1 e2 H1 H2) in E. injection E as ->. exact R. }
  assert (G : forall i, (i < length evs)%nat -> exists e, nth_error evs i = Some e).
  { intros i Hi. destruct (nth_error evs i) as [e|] eqn:E; [eauto|]. apply nth_error_None in E. lia. }
  split; [|intros i j e1 e2 H1 H2; apply (K i j e1 e2 H1 H2)].
  split; [|split].
  - intros i j Hi Hj. destruct (G i Hi) as (e1 & E1), (G j Hj) as (e2 & E2). destruct (K i j e1 e2 E1 E2) as (F & R & _). auto.
  - intros i j Hi Hj. destruct (G i Hi) as (e1 & E1), (G j Hj) as (e2 & E2). destruct (K i j e1 e2 E1 E2) as (_ & _ & R1), (K j i e2 e1 E2 E1) as (_ & _ & R2).
    destruct (exact_metric (fst e1) (fst e2) (fst e2)) as [S _]. rewrite S in R2. apply Rabs_le_inv in R1, R2. apply Rabs_le. lra.
  - intros i j k Hi Hj Hk. destruct (G i Hi) as (e1 & E1), (G j Hj) as (e2 & E2), (G k Hk) as (e3 & E3).
    destruct (K i j e1 e2 E1 E2) as (_ & _ & R1), (K j k e2 e3 E2 E3) as (_ & _ & R2), (K i k e1 e3 E1 E3) as (_ & _ & R3).
    destruct (exact_metric (fst e1) (fst e2) (fst e3)) as [_ S]. apply Rabs_le_inv in R1, R2, R3. lra.
Qed.
End Exact.

Lemma exact_unique tau ps1 ps2 r r' : exact_distance tau ps1 ps2 r -> exact_distance tau ps1 ps2 r' -> r = r'.
Proof.
  intros (ids & f & Hn & Hi & Hf & ->) (ids' & f' & Hn' & Hi' & Hf' & ->).
  assert (P : Permutation ids ids') by (apply NoDup_Permutation; auto; intros id; rewrite Hi, Hi'; reflexivity).
  assert (E : forall id, f id = f' id).
  { intros id. eapply mp_unique; apply min_pairing_mp; [apply Hf|apply Hf']. }
  rewrite (map_ext f f' E). apply Rsum_perm, Permutation_map. exact P.
Qed.
