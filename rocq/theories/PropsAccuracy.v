(** C92: the distance computed in binary64. *)
From Coq Require Import NArith ZArith Reals Lra Lia SpecFloat.
From Flocq Require Import Core.Core IEEE754.BinarySingleNaN.
From Verif Require Import Base BaseProofs Num ModelEvent ModelDistance ModelNaive ModelVPTree SpecWeights SpecEvent SpecDistance SpecSearch SpecTree SpecTreeNear SpecMoments SpecAccuracy
  B64Proofs B64Finite EventProofs NaiveProofs PropsTreeNear B64Distance DistAccuracyKm DistAccuracy5 TextExamples.
From Coq Require Import List.
Import ListNotations.
Local Open Scope R_scope.

(** For events made through the interface from momenta with components up to [B] — with at most three particles of each type,
    or any number of them if the assignment algorithm is accurate — the computed distance is a finite number that differs from the documented one, in exact arithmetic, by at most
    (200 k + 9 k^2) 2^-53 T B, where [k] is the number of particles in both events. *)
Theorem C92_distance : forall sort (km : assignment B64) B T tau mw n1 n2 ps1 ps2 (ws1 ws2 : list B64),
  sort_ok sort -> / 2 ^ 400 <= B <= 2 ^ 500 -> 1 <= T <= 2 ^ 9 -> within T tau ->
  few_upto km B n1 ps1 -> few_upto km B n2 ps2 -> (Z.of_nat (n1 + n2) <= 2 ^ 40)%Z ->
  exists d r, distance sort km tau (build sort (made mw ps1 ws1)) (build sort (made mw ps2 ws2)) = Some d /\
    b64_fin d /\ 0 <= b64_val d /\ exact_distance tau ps1 ps2 r /\ Rabs (b64_val d - r) <= dist_error (n1 + n2) T B.
Proof.
  intros sort km B T tau mw n1 n2 ps1 ps2 ws1 ws2 Hs [B1 B2] [T1 T2] [Ft Ht] H1 H2 Hn.
  destruct (@distance_exact sort Hs km B T B1 B2 T1 T2 tau Ft Ht mw mw n1 n2 ps1 ps2 ws1 ws2 H1 H2 Hn) as (d & E & F & [P _] & R).
  exists d, (exact tau ps1 ps2). split; [exact E|]. split; [exact F|]. split; [exact P|]. split; [apply exact_ok|exact R].
Qed.
Print Assumptions C92_distance.

(** The exact distance is unique. *)
Theorem C92_exact_unique : forall tau ps1 ps2 r r', exact_distance tau ps1 ps2 r -> exact_distance tau ps1 ps2 r' -> r = r'.
Proof. exact exact_unique. Qed.
Print Assumptions C92_exact_unique.

(** Hence the search with the tree respects the documented distances up to rounding errors: for any number of events with at
    most [n] particles each, all neighbours are found in the order of their exact distances, up to an error of
    8 dist_error + 2^-53 dist_bound. *)
Theorem C92_search : forall sort choose (km : assignment B64) B T tau mw n (evs : list (list (Z * FourVector B64) * list B64)) dist q,
  sort_ok sort -> choose_ok choose -> / 2 ^ 400 <= B <= 2 ^ 500 -> 1 <= T <= 2 ^ 9 -> within T tau ->
  Forall (fun e => few_upto km B n (fst e)) evs -> (Z.of_nat (n + n) <= 2 ^ 40)%Z ->
  (forall i j e1 e2, nth_error evs i = Some e1 -> nth_error evs j = Some e2 ->
     distance sort km tau (build sort (made mw (fst e1) (snd e1))) (build sort (made mw (fst e2) (snd e2))) = Some (dist i j)) ->
  (N.of_nat (length evs) <= usize_max)%N -> (q < length evs)%nat ->
  exists l, tree_nearest (F := B64) sort choose (length evs) dist b64_inf q = Some l /\ NoDup (map fst l) /\
    (forall i, In i (map fst l) <-> (i < length evs)%nat /\ i <> q) /\
    forall l1 i d l2 y ei eq ey ri ry, l = l1 ++ (i, d) :: l2 -> ~ In y (map fst l1) -> y <> q ->
      nth_error evs q = Some eq -> nth_error evs i = Some ei -> nth_error evs y = Some ey ->
      exact_distance tau (fst eq) (fst ei) ri -> exact_distance tau (fst eq) (fst ey) ry ->
      ri <= ry + (8 * dist_error (n + n) T B + / 2 ^ 53 * dist_bound (n + n) T B).
Proof.
  intros sort choose km B T tau mw n evs dist q Hs Hc [B1 B2] [T1 T2] [Ft Ht] He Hn Hd Hl Hq.
  destruct (@few_near_metric sort Hs km B T B1 B2 T1 T2 tau Ft Ht mw n evs dist He Hn Hd) as [NM NE].
  destruct (C91_near sort choose (length evs) _ _ dist b64_inf q Hs Hc NM (or_intror eq_refl) Hl Hq) as (l & E & N1 & N2 & N3 & N4).
  exists l. split; [exact E|]. split; [exact N1|]. split.
  - intros i. split.
    + intros Hi. apply in_map_iff in Hi as ([i' d] & <- & Hi). destruct (N2 i' d Hi) as (A1 & A2 & _). split; [exact A1|exact A2].
    + intros [Hi Hiq]. destruct (in_dec Nat.eq_dec i (map fst l)) as [Y|Y]; [exact Y|]. destruct (N4 i Hi Hiq Y) as [[_ F] _]. discriminate F.
  - intros l1 i d l2 y ei eq ey ri ry El Hy Hyq Eq Ei Ey Hri Hry.
    assert (Ly : (y < length evs)%nat) by (apply nth_error_Some; rewrite Ey; discriminate).
    pose proof (N3 l1 i d l2 El y Ly Hyq Hy) as L. destruct (N2 i d) as (_ & _ & -> & _); [rewrite El; apply in_or_app; right; left; reflexivity|].
    pose proof (NE q i eq ei Eq Ei) as R1. pose proof (NE q y eq ey Eq Ey) as R2.
    rewrite (C92_exact_unique _ _ _ _ _ Hri (exact_ok tau (fst eq) (fst ei))), (C92_exact_unique _ _ _ _ _ Hry (exact_ok tau (fst eq) (fst ey))).
    apply Rabs_le_inv in R1, R2. replace (bpow radix2 (-53)) with (/ 2 ^ 53) in L; [lra|].
    rewrite <- bpow_pow, <- bpow_opp. reflexivity.
Qed.
Print Assumptions C92_search.

(** A case: two jets and an electron against one jet; the bound is 24384 2^-53 < 2^-38; and three events in a search. *)
Definition zfv (e x y z : Z) : FourVector B64 := fv_from (N := B64) (b64_of_Z e) (b64_of_Z x) (b64_of_Z y) (b64_of_Z z).
Definition a_ev1 : list (Z * FourVector B64) := [(90%Z, zfv 5 3 4 0); (11%Z, zfv 2 1 (-1) 1); (90%Z, zfv 13 5 12 1)].
Definition a_ev2 : list (Z * FourVector B64) := [(90%Z, zfv 13 6 12 (-1))].
Definition a_ev3 : list (Z * FourVector B64) := [(11%Z, zfv 3 1 1 1)].
Definition a_tau : B64 := ndiv (n := B64) (b64_of_Z 1) (b64_of_Z 2).
Definition a_dist (ps1 ps2 : list (Z * FourVector B64)) : option B64 :=
  distance isort (fun _ _ => n0) a_tau (build isort (made (N := B64) true ps1 [])) (build isort (made (N := B64) true ps2 [])).
Definition a_d12 : option B64 := Eval vm_compute in a_dist a_ev1 a_ev2.

Lemma zfv_upto e x y z : (Z.abs e <= 16)%Z -> (Z.abs x <= 16)%Z -> (Z.abs y <= 16)%Z -> (Z.abs z <= 16)%Z -> mom_upto 16 (zfv e x y z).
Proof.
  intros He Hx Hy Hz.
  assert (W : forall a, (Z.abs a <= 16)%Z -> within 16 (b64_of_Z a)).
  { intros a Ha. destruct (@b64_of_Z_val a ltac:(lia)) as [F V]. split; [exact F|]. rewrite V, <- abs_IZR. apply IZR_le. exact Ha. }
  exists (b64_of_Z e), (b64_of_Z x), (b64_of_Z y), (b64_of_Z z). split; [reflexivity|]. split; [apply b64_fin_not_nan, (W e He)|].
  split; [apply W; exact Hx|]. split; [apply W; exact Hy|apply W; exact Hz].
Qed.
Lemma filter_le A (f : A -> bool) l : (length (filter f l) <= length l)%nat.
Proof. induction l as [|a l IH]; cbn; [lia|]. destruct (f a); cbn; lia. Qed.
Lemma a_few1 km : few_upto km 16 3 a_ev1.
Proof.
  split; [repeat constructor; cbn [snd]; apply zfv_upto; lia|]. split; [|cbn; lia].
  right. intros id. eapply Nat.le_trans; [apply filter_le|]. cbn. lia.
Qed.
Lemma a_few2 km : few_upto km 16 3 a_ev2.
Proof.
  split; [repeat constructor; cbn [snd]; apply zfv_upto; lia|]. split; [|cbn; lia].
  right. intros id. eapply Nat.le_trans; [apply filter_le|]. cbn. lia.
Qed.
Lemma a_few3 km : few_upto km 16 3 a_ev3.
Proof.
  split; [repeat constructor; cbn [snd]; apply zfv_upto; lia|]. split; [|cbn; lia].
  right. intros id. eapply Nat.le_trans; [apply filter_le|]. cbn. lia.
Qed.
Lemma a_d12_eq : a_dist a_ev1 a_ev2 = a_d12.
Proof. vmr. Qed.
Lemma a_tau_within : within 1 a_tau.
Proof.
  assert (E : a_tau = S754_finite false 4503599627370496 (-53)) by vmr. rewrite E. split; [split; reflexivity|].
  unfold b64_val, SF2R, F2R. cbn [Fnum Fexp cond_Zopp]. rewrite Rabs_pos_eq.
  - replace (-53)%Z with (- (53))%Z by reflexivity. rewrite bpow_opp.
    replace (bpow radix2 53) with (IZR (2 ^ 53)) by (rewrite <- (IZR_Zpower radix2); [reflexivity|lia]).
    apply Rmult_le_reg_r with (IZR (2 ^ 53)); [apply IZR_lt; lia|]. rewrite Rmult_assoc, Rinv_l by (apply IZR_neq; lia). rewrite Rmult_1_l, Rmult_1_r. apply IZR_le. lia.
  - apply Rmult_le_pos; [apply IZR_le; lia|apply bpow_ge_0].
Qed.

Example C92_case : exists d r, a_dist a_ev1 a_ev2 = Some d /\ a_d12 = Some d /\ exact_distance a_tau a_ev1 a_ev2 r /\
  Rabs (b64_val d - r) <= (200 * 6 + 9 * 6 ^ 2) * / 2 ^ 53 * 16.
Proof.
  assert (S6 : INR (3 + 3) = 6) by (cbn; lra).
  destruct (C92_distance isort (fun _ _ => n0) 16 1 a_tau true 3 3 a_ev1 a_ev2 [] [] isort_ok) as (d & r & E & _ & _ & X & R).
  - split; [apply Rle_trans with 1; [rewrite <- Rinv_1; apply Rinv_le_contravar; [lra|apply pow_R1_Rle; lra]|lra]|].
    apply Rle_trans with (2 ^ 4); [lra|apply Rle_pow; [lra|lia]].
  - split; [lra|apply pow_R1_Rle; lra].
  - exact a_tau_within.
  - apply a_few1.
  - apply a_few2.
  - lia.
  - exists d, r. fold (a_dist a_ev1 a_ev2) in E. split; [exact E|]. rewrite <- a_d12_eq. split; [exact E|]. split; [exact X|].
    unfold dist_error in R. rewrite S6 in R. lra.
Qed.

Definition a_evs : list (list (Z * FourVector B64) * list B64) := [(a_ev1, []); (a_ev2, []); (a_ev3, [])].
Definition a_table (i j : nat) : B64 :=
  match nth_error a_evs i, nth_error a_evs j with
  | Some e1, Some e2 => match distance isort (fun _ _ => n0) a_tau (build isort (made (N := B64) true (fst e1) (snd e1))) (build isort (made (N := B64) true (fst e2) (snd e2)))
                        with Some d => d | None => n0 end
  | _, _ => n0
  end.
Example C92_search_case : exists l, tree_nearest (F := B64) isort first_min 3 a_table b64_inf 0 = Some l /\ NoDup (map fst l) /\
  (forall i, In i (map fst l) <-> (i < 3)%nat /\ i <> 0%nat).
Proof.
  assert (P : Forall (fun e => few_upto (fun _ _ => n0) 16 3 (fst e)) a_evs) by (unfold a_evs; apply Forall_cons; [apply a_few1|]; apply Forall_cons; [apply a_few2|]; apply Forall_cons; [apply a_few3|]; apply Forall_nil).
  assert (Bb : / 2 ^ 400 <= 16 <= 2 ^ 500).
  { split; [apply Rle_trans with 1; [rewrite <- Rinv_1; apply Rinv_le_contravar; [lra|apply pow_R1_Rle; lra]|lra]|].
    apply Rle_trans with (2 ^ 4); [lra|apply Rle_pow; [lra|lia]]. }
  assert (Tb : 1 <= 1 <= 2 ^ 9) by (split; [lra|apply pow_R1_Rle; lra]).
  destruct (C92_search isort first_min (fun _ _ => n0) 16 1 a_tau true 3 a_evs a_table 0 isort_ok first_min_ok Bb Tb a_tau_within P) as (l & E & H1 & H2 & _).
  - lia.
  - intros i j e1 e2 E1 E2. rewrite Forall_forall in P.
    destruct (C92_distance isort (fun _ _ => n0) 16 1 a_tau true 3 3 (fst e1) (fst e2) (snd e1) (snd e2) isort_ok Bb Tb a_tau_within) as (d & r & E & _).
    + apply P. eapply nth_error_In. exact E1.
    + apply P. eapply nth_error_In. exact E2.
    + lia.
    + unfold a_table. rewrite E1, E2, E. reflexivity.
  - vm_compute. discriminate.
  - cbn. lia.
  - exists l. auto.
Qed.

(** More than three particles of a type: four jets against five, with an assignment algorithm that tries everything; the bound is
    2529 2^-53 16 < 2^-36. *)
Definition a_ev4 : list (Z * FourVector B64) := [(90%Z, zfv 5 3 4 0); (90%Z, zfv 2 1 (-1) 1); (90%Z, zfv 13 5 12 1); (90%Z, zfv 9 0 4 8)].
Definition a_ev5 : list (Z * FourVector B64) := [(90%Z, zfv 13 6 12 (-1)); (90%Z, zfv 2 1 1 1); (90%Z, zfv 5 4 3 0); (90%Z, zfv 9 1 4 8); (90%Z, zfv 1 0 0 1)].
Lemma a_many : few_upto km64 16 4 a_ev4 /\ few_upto km64 16 5 a_ev5.
Proof.
  split; (split; [repeat constructor; cbn [snd]; apply zfv_upto; lia|]; split; [left; exact km64_accurate|cbn; lia]).
Qed.
Example C92_many_case : exists d r,
  distance isort km64 a_tau (build isort (made (N := B64) true a_ev4 [])) (build isort (made (N := B64) true a_ev5 [])) = Some d /\
  exact_distance a_tau a_ev4 a_ev5 r /\ Rabs (b64_val d - r) <= (200 * 9 + 9 * 9 ^ 2) * / 2 ^ 53 * 16.
Proof.
  assert (S9 : INR (4 + 5) = 9) by (cbn; lra).
  destruct (C92_distance isort km64 16 1 a_tau true 4 5 a_ev4 a_ev5 [] [] isort_ok) as (d & r & E & _ & _ & X & R).
  - split; [apply Rle_trans with 1; [rewrite <- Rinv_1; apply Rinv_le_contravar; [lra|apply pow_R1_Rle; lra]|lra]|].
    apply Rle_trans with (2 ^ 4); [lra|apply Rle_pow; [lra|lia]].
  - split; [lra|apply pow_R1_Rle; lra].
  - exact a_tau_within.
  - apply a_many.
  - apply a_many.
  - lia.
  - exists d, r. split; [exact E|]. split; [exact X|]. unfold dist_error in R. rewrite S9 in R. lra.
Qed.
