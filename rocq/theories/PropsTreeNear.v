(** C91: the tree search with rounded distances. *)
From Coq Require Import NArith ZArith Reals Lra Lia SpecFloat.
From Flocq Require Import Core.Core IEEE754.BinarySingleNaN.
From Verif Require Import Base BaseProofs Num ModelEvent ModelDistance ModelCell ModelSeeds ModelNaive ModelVPTree ModelResampler SpecSearch SpecTree SpecTreeNear
  SpecMoments B64Proofs NaiveProofs VPTreeProofs VPTreeProofs2 VPTreeB64 VPTreeNear TextExamples.
From Coq Require Import List.
Import ListNotations.
Local Open Scope R_scope.

(** If the computed distances are a metric up to errors of [slack] and at most [bound], then the search in machine
    arithmetic succeeds, and the order of the neighbours and the limit are respected up to an error of
    2 slack + 2^-53 bound, however many points there are and however deep the tree is. *)
Theorem C91_near : forall sort choose n slack bound (dist : nat -> nat -> B64) max q,
  sort_ok sort -> choose_ok choose -> near_metric n slack bound dist -> b64_fin max \/ max = b64_inf ->
  (N.of_nat n <= usize_max)%N -> (q < n)%nat ->
  exists l, tree_nearest (F := B64) sort choose n dist max q = Some l /\
    near_list n q (dist q) max (2 * slack + bpow radix2 (-53) * bound) l.
Proof. intros sort choose n slack bound dist max q Hs Hc Hm Hx Hn Hq. apply (tree_near_B64 Hm); auto. Qed.
Print Assumptions C91_near.

(** Six events with one particle each, event 0 of weight -1.  The coordinates are multiples of 2^-43 *)
Definition coord (z : Z) : B64 := ndiv (n := B64) (b64_of_Z z) (b64_of_Z (2 ^ 43)).
Definition one_particle (id : nat) (w x y z : Z) : Event B64 :=
  mkEvent (N := B64) id [b64_of_Z w] [(11%Z, [fv_from (N := B64) (b64_of_Z 1000) (coord x) (coord y) (coord z)])].
Definition six : list (Event B64) :=
  [one_particle 0 (-1) 2889306994405750 4135285503348247 3440762578541442;
   one_particle 1 1 2877043945659045 4117734163941500 3426158993907414;
   one_particle 2 1 2893774170414272 4160242874720444 3446135707648142;
   one_particle 3 1 1438521972829522 2058867081970750 1713079496953707;
   one_particle 4 1 4117734163941500 2877043945659045 3426158993907414;
   one_particle 5 1 0 0 0].
Definition computed (e1 e2 : Event B64) : B64 :=
  match distance isort (fun _ _ => n0) n0 e1 e2 with Some d => d | None => n0 end.
Definition six_dist : nat -> nat -> B64 := dist_wrapper computed six.

Definition tree_answer : list (nat * B64) := Eval vm_compute in
  match tree_nearest (F := B64) isort first_min 6 six_dist b64_inf 0 with Some l => l | None => [] end.
Lemma tree_answer_eq : tree_nearest (F := B64) isort first_min 6 six_dist b64_inf 0 = Some tree_answer.
Proof. vmr. Qed.

(** A finite number with an exponent of at least -60, in units of 2^-60 *)
Definition in_units (x : B64) : option Z :=
  match x with
  | S754_zero _ => Some 0%Z
  | S754_finite s m e => if (-60 <=? e)%Z then Some (cond_Zopp s (Z.pos m * 2 ^ (e + 60))) else None
  | _ => None
  end.
Lemma in_units_ok x z : in_units x = Some z -> valid_binary prec64 emax64 x = true ->
  b64_fin x /\ b64_val x = IZR z * bpow radix2 (-60).
Proof.
  intros H V. destruct x as [s|s| |s m e]; cbn [in_units] in H; try discriminate.
  - injection H as <-. split; [split; auto|]. cbn. lra.
  - destruct (Z.leb_spec (-60) e) as [He|]; [|discriminate]. injection H as <-. split; [split; auto|].
    change (F2R (Float radix2 (cond_Zopp s (Z.pos m)) e) = IZR (cond_Zopp s (Z.pos m * 2 ^ (e + 60))) * bpow radix2 (-60)).
    unfold F2R. cbn [Fnum Fexp].
    assert (E : cond_Zopp s (Z.pos m * 2 ^ (e + 60)) = (cond_Zopp s (Z.pos m) * 2 ^ (e + 60))%Z)
      by (destruct s; cbn [cond_Zopp]; lia).
    rewrite E, (mult_IZR (cond_Zopp s (Z.pos m))), Rmult_assoc. f_equal.
    replace e with ((e + 60) + -60)%Z at 1 by lia. rewrite bpow_plus. f_equal.
    rewrite <- (IZR_Zpower radix2); [reflexivity|lia].
Qed.

Definition units_of (dist : nat -> nat -> B64) (i j : nat) : Z := match in_units (dist i j) with Some z => z | None => -1 end.
Definition check_near (n : nat) (slack bound : Z) (dist : nat -> nat -> B64) : bool :=
  let t := units_of dist in let r := seq 0 n in
  forallb (fun i => forallb (fun j => valid_binary prec64 emax64 (dist i j) && (0 <=? t i j)%Z && (t i j <=? bound)%Z &&
     (Z.abs (t i j - t j i) <=? slack)%Z && forallb (fun k => (t i k <=? t i j + t j k + slack)%Z) r) r) r.
Lemma check_near_ok n slack bound dist : check_near n slack bound dist = true ->
  near_metric n (IZR slack * bpow radix2 (-60)) (IZR bound * bpow radix2 (-60)) dist.
Proof.
  intros H. unfold check_near in H. cbv zeta in H. rewrite forallb_forall in H.
  assert (A : forall i j, (i < n)%nat -> (j < n)%nat -> b64_fin (dist i j) /\ b64_val (dist i j) = IZR (units_of dist i j) * bpow radix2 (-60) /\
     (0 <= units_of dist i j <= bound)%Z /\ (Z.abs (units_of dist i j - units_of dist j i) <= slack)%Z /\
     forall k, (k < n)%nat -> (units_of dist i k <= units_of dist i j + units_of dist j k + slack)%Z).
  { intros i j Hi Hj. assert (Ii : In i (seq 0 n)) by (apply in_seq; lia). assert (Ij : In j (seq 0 n)) by (apply in_seq; lia).
    specialize (H i Ii). rewrite forallb_forall in H. specialize (H j Ij). rewrite !andb_true_iff in H.
    destruct H as ((((H1 & H2) & H3) & H4) & H5). apply Z.leb_le in H2, H3, H4. rewrite forallb_forall in H5.
    assert (E : in_units (dist i j) = Some (units_of dist i j)).
    { unfold units_of in H2 |- *. destruct (in_units (dist i j)); [reflexivity|lia]. }
    destruct (in_units_ok _ _ E H1) as [F V]. split; auto. split; auto. split; [lia|]. split; auto.
    intros k Hk. apply Z.leb_le, H5, in_seq. lia. }
  pose proof (bpow_gt_0 radix2 (-60)) as Hu. set (u := bpow radix2 (-60)) in *.
  assert (L : forall a b, (a <= b)%Z -> IZR a * u <= IZR b * u). { intros a b Hab. apply Rmult_le_compat_r; [lra|apply IZR_le; auto]. }
  split; [|split].
  - intros i j Hi Hj. destruct (A i j Hi Hj) as (F & -> & [H1 H2] & _). split; auto. split; [|apply L; auto].
    replace 0 with (IZR 0 * u) by (rewrite Rmult_0_l; auto). apply L; auto.
  - intros i j Hi Hj. destruct (A i j Hi Hj) as (_ & -> & _ & H' & _). destruct (A j i Hj Hi) as (_ & -> & _).
    rewrite <- Rmult_minus_distr_r, <- minus_IZR, Rabs_mult, <- abs_IZR, (Rabs_pos_eq u) by lra. apply L; auto.
  - intros i j k Hi Hj Hk. destruct (A i j Hi Hj) as (_ & -> & _ & _ & H'). destruct (A i k Hi Hk) as (_ & -> & _). destruct (A j k Hj Hk) as (_ & -> & _).
    rewrite <- !Rmult_plus_distr_r, <- !plus_IZR. apply L. auto.
Qed.

(** The computed distances of these events are a metric up to 2^-43 (2^17 units) and at most 2^10. *)
Lemma six_near : near_metric 6 (IZR (2 ^ 17) * bpow radix2 (-60)) (IZR (2 ^ 70) * bpow radix2 (-60)) six_dist.
Proof. apply check_near_ok. vmr. Qed.

Example C91_case : near_metric 6 (IZR (2 ^ 17) * bpow radix2 (-60)) (IZR (2 ^ 70) * bpow radix2 (-60)) six_dist /\
  tree_nearest (F := B64) isort first_min 6 six_dist b64_inf 0 = Some tree_answer /\
  near_list 6 0 (six_dist 0) b64_inf (2 * (IZR (2 ^ 17) * bpow radix2 (-60)) + bpow radix2 (-53) * (IZR (2 ^ 70) * bpow radix2 (-60))) tree_answer.
Proof.
  split; [exact six_near|]. split; [exact tree_answer_eq|].
  destruct (C91_near isort first_min 6 _ _ six_dist b64_inf 0 isort_ok first_min_ok six_near) as (l & E & H).
  - right. reflexivity.
  - vm_compute. discriminate.
  - lia.
  - rewrite tree_answer_eq in E. injection E as <-. exact H.
Qed.

Lemma units_within x z : in_units x = Some z -> valid_binary prec64 emax64 x = true -> (Z.abs z <= 2 ^ 100)%Z -> within (2 ^ 500) x.
Proof.
  intros E V H. unfold within. destruct (in_units_ok _ _ E V) as [F ->]. split; auto.
  rewrite Rabs_mult, <- abs_IZR, (Rabs_pos_eq (bpow radix2 (-60))) by apply bpow_ge_0.
  apply IZR_le in H. apply Rle_trans with (IZR (2 ^ 100) * bpow radix2 0).
  - apply Rmult_le_compat; auto using bpow_ge_0.
    + apply (IZR_le 0). lia.
    + apply bpow_le. lia.
  - rewrite Rmult_1_r. replace (2 ^ 500) with (IZR (2 ^ 500)).
    + apply IZR_le. vm_compute. discriminate.
    + symmetry. apply (pow_IZR 2 500).
Qed.
Definition check_coord (x : B64) : bool :=
  valid_binary prec64 emax64 x && match in_units x with Some u => (Z.abs u <=? 2 ^ 100)%Z | None => false end.
Lemma check_coord_ok x : check_coord x = true -> within (2 ^ 500) x.
Proof.
  unfold check_coord. rewrite andb_true_iff. intros [V H]. destruct (in_units x) as [u|] eqn:E; [|discriminate].
  apply Z.leb_le in H. apply (units_within x u); auto.
Qed.
Lemma particle_moderate id w x y z : check_coord (coord x) && check_coord (coord y) && check_coord (coord z) = true ->
  moderate_event (one_particle id w x y z).
Proof.
  rewrite !andb_true_iff. intros [[Hx Hy] Hz]. unfold moderate_event, one_particle. cbn [ev_out].
  apply Forall_cons; [|apply Forall_nil]. cbn [snd]. apply Forall_cons; [|apply Forall_nil].
  exists (b64_of_Z 1000), (coord x), (coord y), (coord z). split; [reflexivity|]. split; [|auto using check_coord_ok].
  apply b64_fin_not_nan, b64_of_Z_val. lia.
Qed.
Lemma six_moderate : Forall moderate_event six.
Proof. unfold six. repeat (apply Forall_cons; [apply particle_moderate; vmr|]). apply Forall_nil. Qed.

(** The answer is not exact: for these events, with the distance of the program, the search from event 0 first finds
    event 2, although event 1 is nearer; the other search finds event 1. *)
Theorem C91_exact_refuted : exists (evs : list (Event B64)) d1 d2 rest,
  Forall moderate_event evs /\ length evs = 6%nat /\
  let dist := dist_wrapper computed evs in
  tree_nearest (F := B64) isort first_min 6 dist b64_inf 0 = Some ((2%nat, d2) :: (1%nat, d1) :: rest) /\
  nltb (n := B64) d1 d2 = true /\ ~ nearest_list (N := B64) 6 0 (dist 0%nat) b64_inf ((2%nat, d2) :: (1%nat, d1) :: rest) /\
  exists l, naive_nearest (N := B64) first_min 6 dist b64_inf 0 = Some ((1%nat, d1) :: l).
Proof.
  exists six, (six_dist 0 1), (six_dist 0 2), (skipn 2 tree_answer).
  split; [exact six_moderate|]. split; [reflexivity|]. cbv zeta. fold six_dist.
  split; [|split; [|split]].
  - rewrite tree_answer_eq. vmr.
  - vmr.
  - intros (_ & _ & _ & H). inversion H as [|? ? _ H']; subst. apply Forall_inv in H'. revert H'. cbn [snd].
    change (nleb (n := B64) (six_dist 0 2) (six_dist 0 1) <> true).
    replace (nleb (n := B64) (six_dist 0 2) (six_dist 0 1)) with false by (symmetry; vmr). discriminate.
  - exists (match naive_nearest (N := B64) first_min 6 six_dist b64_inf 0 with Some (_ :: l) => l | _ => [] end). vmr.
Qed.
Print Assumptions C91_exact_refuted.

Definition run_with (algo : search_algo B64) : list (Event B64) * list (Cell B64) :=
  match resampler_resample (N := B64) false isort MostNegative algo computed b64_inf six with Some r => r | None => ([], []) end.
Definition tree_events := Eval vm_compute in fst (run_with (tree_nearest isort first_min)).
Definition tree_cells := Eval vm_compute in snd (run_with (tree_nearest isort first_min)).
Definition naive_events := Eval vm_compute in fst (run_with (naive_nearest first_min)).
Definition naive_cells := Eval vm_compute in snd (run_with (naive_nearest first_min)).

(** Then the results of a run depend on the search that is chosen, although the distances of the other events
    from the only seed, event 0, are different: the cell of event 0 contains event 2 or event 1. *)
Theorem C91_same_run_refuted : exists (evs : list (Event B64)) evs1 evs2 cells1 cells2,
  Forall moderate_event evs /\
  (let d := dist_wrapper computed evs in let n := length evs in
   forall i j, (i < n)%nat -> (j < n)%nat -> i <> j -> neqb (n := B64) (d 0%nat i) (d 0%nat j) = false) /\
  resampler_resample (N := B64) false isort MostNegative (tree_nearest isort first_min) computed b64_inf evs = Some (evs1, cells1) /\
  resampler_resample (N := B64) false isort MostNegative (naive_nearest first_min) computed b64_inf evs = Some (evs2, cells2) /\
  map ev_weights evs1 = [[n0]; [n1]; [n0]; [n1]; [n1]; [n1]] /\
  map ev_weights evs2 = [[n0]; [n0]; [n1]; [n1]; [n1]; [n1]].
Proof.
  exists six, tree_events, naive_events, tree_cells, naive_cells. split; [exact six_moderate|]. split.
  - cbv zeta. fold six_dist. intros i j Hi Hj Hij.
    assert (H : forallb (fun i => forallb (fun j => Nat.eqb i j || negb (neqb (n := B64) (six_dist 0 i) (six_dist 0 j))) (seq 0 6)) (seq 0 6) = true) by vmr.
    rewrite forallb_forall in H. specialize (H i ltac:(apply in_seq; cbn in Hi; lia)).
    rewrite forallb_forall in H. specialize (H j ltac:(apply in_seq; cbn in Hj; lia)).
    apply orb_true_iff in H. destruct H as [H|H]; [apply Nat.eqb_eq in H; contradiction|]. apply negb_true_iff in H. exact H.
  - split; [vmr|]. split; [vmr|]. split; vmr.
Qed.
Print Assumptions C91_same_run_refuted.
