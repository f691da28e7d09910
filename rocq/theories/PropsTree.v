(** C15-C19: the vantage-point tree. *)
From Coq Require Import NArith ZArith Reals Lra SpecFloat.
From Verif Require Import Base BaseProofs Num ModelEvent ModelCell ModelSeeds ModelNaive ModelVPTree
  ModelResampler SpecSearch SpecTree NaiveProofs RunProofs2 VPTreeProofs VPTreeProofs2 UnlimitedProofs B64Proofs VPTreeB64.

(** C15: construction succeeds, keeps exactly the given points, and gives a vantage-point
    tree.  Any arithmetic with a total order on the distances that occur, any distance
    function, depth, correct sort and choice of the corner point. *)
Theorem C15_build : forall (N : NumOps) (D : N -> Prop), order_on N D ->
  forall sort, sort_ok sort -> forall (dist : nat -> nat -> N) choose, choose_ok choose ->
  forall depth pts, (forall p q, In p pts -> In q pts -> D (dist p q)) ->
  exists nodes, tree_of sort choose dist depth pts = Some nodes /\
    Permutation pts (map vantage_pt nodes) /\ vp_tree dist depth nodes.
Proof. exact tree_of_spec. Qed.
Print Assumptions C15_build.

Example C15_case :
  let pos := [4; 0; 9; 2; 2]%Z in
  let dist := fun i j : nat => b64_of_Z (Z.abs (nth i pos 0 - nth j pos 0)%Z) in
  tree_of (F := B64) isort first_min dist usize_max [0; 1; 2; 3; 4] =
  Some [mkNode 2 (Some (mkChildren (b64_of_Z 7) 2));
        mkNode 4 (Some (mkChildren (b64_of_Z 2) 0)); mkNode 0 None;
        mkNode 1 (Some (mkChildren (b64_of_Z 2) 0)); mkNode 3 None].
Proof. cbv zeta. vmr. Qed.

(** C16: for a metric (over the reals) the search is exact: [nearest_list] of [SpecSearch]. *)
Theorem C16_tree_exact : forall sort choose n (dist : nat -> nat -> R) max q,
  sort_ok sort -> choose_ok choose -> metric_on n dist ->
  (N.of_nat n <= usize_max)%N -> q < n ->
  exists l, tree_nearest (F := RN) sort choose n dist max q = Some l /\
    nearest_list (N := RN) n q (dist q) max l.
Proof. exact tree_exact. Qed.
Print Assumptions C16_tree_exact.

(** The pruning survives any monotone rounding that leaves distances alone. *)
Theorem C16_tree_exact_rounded : forall sort choose n (dist : nat -> nat -> R) rnd max q,
  sort_ok sort -> choose_ok choose -> metric_on n dist -> exact_rounding n dist rnd ->
  (N.of_nat n <= usize_max)%N -> q < n ->
  exists l, tree_nearest (F := RRnd rnd) sort choose n dist max q = Some l /\
    nearest_list (N := RRnd rnd) n q (dist q) max l.
Proof. exact tree_exact_rounded. Qed.
Print Assumptions C16_tree_exact_rounded.

(** The same in IEEE-754 binary64: whenever the computed distances are finite, non-negative
    and satisfy symmetry and the triangle inequality (as real numbers), the search in machine
    arithmetic is exact; the limit may be infinite. *)
Theorem C16_tree_exact_B64 : forall sort choose n (dist : nat -> nat -> B64) max q,
  sort_ok sort -> choose_ok choose -> b64_metric n dist -> not_nan max ->
  (N.of_nat n <= usize_max)%N -> q < n ->
  exists l, tree_nearest (F := B64) sort choose n dist max q = Some l /\
    nearest_list (N := B64) n q (dist q) max l.
Proof. exact tree_exact_B64. Qed.
Print Assumptions C16_tree_exact_B64.

(** A depth limit does no harm as long as fewer than 2^(depth+1) points are stored. *)
Theorem C16_depth_limit : forall sort choose n depth (dist : nat -> nat -> R) max q,
  sort_ok sort -> choose_ok choose -> metric_on n dist ->
  (N.of_nat n < 2 ^ N.succ depth)%N -> q < n ->
  exists nodes l, tree_of (F := RN) sort choose dist depth (seq 0 n) = Some nodes /\
    nearest_in nodes dist max q = Some l /\ nearest_list (N := RN) n q (dist q) max l.
Proof. exact tree_depth_exact. Qed.
Print Assumptions C16_depth_limit.

Definition on_line (pos : list Z) (i j : nat) : B64 :=
  b64_of_Z (Z.abs (nth i pos 0%Z - nth j pos 0%Z)%Z).

Lemma on_line_metric pos n : (forall i, (Z.abs (nth i pos 0) <= 1000)%Z) -> b64_metric n (on_line pos).
Proof.
  intros Hp.
  assert (Hv : forall i j, b64_fin (on_line pos i j) /\
            b64_val (on_line pos i j) = IZR (Z.abs (nth i pos 0%Z - nth j pos 0%Z))).
  { intros i j. apply b64_of_Z_val. pose proof (Hp i). pose proof (Hp j). lia. }
  split.
  - intros i j _ _. destruct (Hv i j) as [H1 ->]. split; auto. apply (IZR_le 0). lia.
  - split.
    + intros i j _ _. rewrite (proj2 (Hv i j)), (proj2 (Hv j i)). f_equal. lia.
    + intros i j k _ _ _. rewrite (proj2 (Hv i j)), (proj2 (Hv i k)), (proj2 (Hv j k)).
      rewrite <- plus_IZR. apply IZR_le. lia.
Qed.

(** Hypotheses met, and the search evaluated: five points on a line. *)
Example C16_case :
  let pos := [4; 0; 9; 2; 3]%Z in
  b64_metric 5 (on_line pos) /\ metric_on 5 (fun i j => b64_val (on_line pos i j)) /\
  tree_nearest (F := B64) isort first_min 5 (on_line pos) (b64_of_Z 4) 0 =
    Some [(4, b64_of_Z 1); (3, b64_of_Z 2); (1, b64_of_Z 4)] /\
  tree_nearest (F := B64) isort first_min 5 (on_line pos) b64_inf 0 =
    Some [(4, b64_of_Z 1); (3, b64_of_Z 2); (1, b64_of_Z 4); (2, b64_of_Z 5)].
Proof.
  cbv zeta. assert (H : b64_metric 5 (on_line [4; 0; 9; 2; 3]%Z)).
  { apply on_line_metric. intros i. do 5 (destruct i as [|i]; [cbn; lia|]). destruct i; cbn; lia. }
  split; [exact H|split; [exact (proj2 H)|split; vmr]].
Qed.

(** With a smaller depth (a public constructor argument) points are missed: four points,
    depth 1; point 0 is not found from point 1 although no point is nearer. *)
Theorem C16_depth_limit_refuted : exists n depth (dist : nat -> nat -> B64) max q nodes l,
  b64_metric n dist /\ not_nan max /\ q < n /\
  tree_of (F := B64) isort first_min dist depth (seq 0 n) = Some nodes /\
  nearest_in nodes dist max q = Some l /\ ~ nearest_list n q (dist q) max l.
Proof.
  exists 4, 1%N, (on_line [0; 1; 2; 3]%Z), b64_inf, 1.
  let r := eval vm_compute in (tree_of (F := B64) isort first_min (on_line [0; 1; 2; 3]%Z) 1 (seq 0 4)) in
  match r with Some ?a => exists a;
    let r2 := eval vm_compute in (nearest_in a (on_line [0; 1; 2; 3]%Z) b64_inf 1) in
    match r2 with Some ?l => exists l end end.
  split; [|split; [|split; [lia|split; [vmr|split; [vmr|]]]]].
  - apply on_line_metric. intros i. do 4 (destruct i as [|i]; [cbn; lia|]). destruct i; cbn; lia.
  - discriminate.
  - intros (_ & H & _).
    assert (H1 : In 0 [2; 3]); [|cbn in H1; lia].
    apply H. split; [lia|]. split; [lia|]. vm_compute. reflexivity.
Qed.
Print Assumptions C16_depth_limit_refuted.

(** The tree search satisfies the premise of C07 when no distance exceeds the limit. *)
Theorem C07_tree_is_complete : forall sort choose n (dist : nat -> nat -> R) max,
  sort_ok sort -> choose_ok choose -> metric_on n dist -> (N.of_nat n <= usize_max)%N ->
  (forall i j, i < n -> j < n -> (dist i j <= max)%R) ->
  complete_search n (tree_nearest (F := RN) sort choose n dist max).
Proof.
  intros sort choose n dist max Hs Hc Hm Hn Hmax q Hq.
  destruct (tree_exact max Hs Hc Hm Hn Hq) as (l & E & H1 & H2 & _).
  exists l. split; [exact E|]. split.
  - split; [exact H1|]. intros i Hi. apply H2 in Hi. tauto.
  - intros i Hi Hiq. apply H2. split; auto. split; auto. apply Rleb_true. apply Hmax; auto.
Qed.
Print Assumptions C07_tree_is_complete.

(** For this, the distance need not be a metric: it suffices that no distance is negative or exceeds the limit; in
    exact arithmetic, and with binary64 numbers for finite distances and any limit, also infinity. *)
Theorem C07_any_distance : forall sort choose n (dist : nat -> nat -> R) max,
  sort_ok sort -> choose_ok choose -> (N.of_nat n <= usize_max)%N ->
  (forall i j, i < n -> j < n -> (0 <= dist i j <= max)%R) ->
  complete_search n (tree_nearest (F := RN) sort choose n dist max).
Proof. exact tree_unlimited_R. Qed.
Print Assumptions C07_any_distance.
Theorem C07_any_distance_b64 : forall sort choose n (dist : nat -> nat -> B64) max,
  sort_ok sort -> choose_ok choose -> (N.of_nat n <= usize_max)%N -> not_nan max ->
  (forall i j, i < n -> j < n -> b64_fin (dist i j) /\ (0 <= b64_val (dist i j))%R /\ nleb (dist i j) max = true) ->
  complete_search n (tree_nearest (F := B64) sort choose n dist max).
Proof. exact tree_unlimited_B64. Qed.
Print Assumptions C07_any_distance_b64.
(** Three points, where the way from 0 to 2 via 1 is shorter than the direct one, and the limit infinity *)
Definition shortcut (i j : nat) : B64 := if Nat.eqb i j then n0 else if Nat.eqb (i + j) 2 then b64_of_Z 5 else b64_of_Z 1.
Example C07_any_distance_case : (forall i j, i < 3 -> j < 3 ->
    b64_fin (shortcut i j) /\ (0 <= b64_val (shortcut i j))%R /\ nleb (shortcut i j) b64_inf = true) /\
  nltb (nadd (shortcut 0 1) (shortcut 1 2)) (shortcut 0 2) = true /\
  tree_nearest (F := B64) isort first_min 3 shortcut b64_inf 0 = Some [(1, b64_of_Z 1); (2, b64_of_Z 5)].
Proof.
  split; [|split; vmr]. intros i j Hi Hj.
  assert (H : exists z, shortcut i j = b64_of_Z z /\ (0 <= z <= 5)%Z).
  { unfold shortcut. destruct (Nat.eqb i j); [exists 0%Z; split; [reflexivity|lia]|]. destruct (Nat.eqb (i + j) 2); [exists 5%Z|exists 1%Z]; split; try reflexivity; lia. }
  destruct H as (z & -> & Hz). destruct (b64_of_Z_val z) as [F V]; [lia|]. split; [exact F|]. split; [rewrite V; apply (IZR_le 0); lia|].
  pose proof (b64_fin_not_nan _ F) as X. destruct F as [_ F]. destruct (b64_of_Z z) as [[]|[]| |[] m e]; try reflexivity; discriminate.
Qed.

(** C17: both algorithms give the same distances and the same set of neighbours; the same
    list when the distances from the query are pairwise different. *)
Theorem C17_tree_naive : forall sort choose choose' n (dist : nat -> nat -> R) max q,
  sort_ok sort -> choose_ok choose -> choose_ok choose' -> metric_on n dist ->
  (N.of_nat n <= usize_max)%N -> q < n ->
  exists lt ln, tree_nearest (F := RN) sort choose n dist max q = Some lt /\
    naive_nearest (N := RN) choose' n dist max q = Some ln /\
    map snd lt = map snd ln /\ Permutation lt ln /\
    ((forall i j, i < n -> j < n -> i <> q -> j <> q -> dist q i = dist q j -> i = j) -> lt = ln).
Proof. exact tree_naive_dists. Qed.
Print Assumptions C17_tree_naive.

(** ... and then the whole resampling run is the same. *)
Theorem C17_same_run : forall sort choose choose' strategy mw dist max (evs : list (Event RN)),
  sort_ok sort -> choose_ok choose -> choose_ok choose' ->
  let n := length evs in let d := dist_wrapper dist evs in
  metric_on n d -> (N.of_nat n <= usize_max)%N ->
  (forall q i j, q < n -> i < n -> j < n -> i <> q -> j <> q -> d q i = d q j -> i = j) ->
  resampler_resample mw sort strategy (tree_nearest sort choose) dist max evs =
  resampler_resample mw sort strategy (naive_nearest choose') dist max evs.
Proof.
  intros sort choose choose' strategy mw dist max evs Hs Hc Hc' n d Hm Hn Hinj.
  apply run_search_irrelevant; auto. intros q Hq.
  destruct (tree_naive_dists max Hs Hc Hc' Hm Hn Hq) as (lt & ln & E1 & E2 & _ & _ & H).
  fold n d. rewrite E1, E2, H; auto. intros i j. apply Hinj; auto.
Qed.
Print Assumptions C17_same_run.

Local Open Scope R_scope.
Definition three_events : list (Event RN) :=
  [mkEvent 0 [-1] [(1%Z, [mkFV 0 0 0 0 0])]; mkEvent 1 [3] [(1%Z, [mkFV 0 1 0 0 1])];
   mkEvent 2 [-2] [(1%Z, [mkFV 0 3 0 0 3])]].
Definition z_dist (a b : Event RN) : R :=
  match ev_out a, ev_out b with
  | [(_, [p])], [(_, [q])] => Rabs (fv_z p - fv_z q)
  | _, _ => 0
  end.

Example C17_case :
  let d := dist_wrapper z_dist three_events in
  metric_on 3 d /\
  (forall q i j, (q < 3)%nat -> (i < 3)%nat -> (j < 3)%nat -> i <> q -> j <> q -> d q i = d q j -> i = j).
Proof.
  cbv zeta.
  assert (H : forall i j, (i < 3)%nat -> (j < 3)%nat ->
    dist_wrapper z_dist three_events i j = Rabs (nth i [0; 1; 3] 0 - nth j [0; 1; 3] 0)).
  { intros i j Hi Hj. do 3 (destruct i as [|i]; [do 3 (destruct j as [|j]; [reflexivity|]); lia|]); lia. }
  split; [split|].
  - intros i j Hi Hj. rewrite !H by auto. apply Rabs_minus_sym.
  - intros i j k Hi Hj Hk. rewrite !H by auto.
    replace (nth i [0; 1; 3] 0 - nth k [0; 1; 3] 0) with
      ((nth i [0; 1; 3] 0 - nth j [0; 1; 3] 0) + (nth j [0; 1; 3] 0 - nth k [0; 1; 3] 0)) by ring.
    apply Rabs_triang.
  - intros q i j Hq Hi Hj Hiq Hjq. rewrite !H by auto.
    do 3 (destruct q as [|q]; [do 3 (destruct i as [|i]; [do 3 (destruct j as [|j]; [cbn;
      intros E; try congruence; exfalso; revert E; unfold Rabs; repeat destruct Rcase_abs; lra|]); lia|]); lia|]); lia.
Qed.
Local Close Scope R_scope.

(** C18: with infinite distances the search is not exact.  Two groups of two points, points
    of different groups infinitely far apart (an extended metric).  In a debug build the
    subtraction infinity - infinity panics; in a release build, modelled here, the
    NaN makes the pruning test fail and the other half of the tree is skipped: the
    search from 0 never delivers point 1 at distance 1, for any limit. *)
Definition two_groups (i j : nat) : B64 :=
  if Nat.eqb i j then n0 else if Nat.eqb (i / 2) (j / 2) then b64_of_Z 1 else b64_inf.

Definition ext_metric (n : nat) (dist : nat -> nat -> B64) : Prop :=
  forall i j k, i < n -> j < n -> k < n ->
    nleb n0 (dist i j) = true /\ dist i i = n0 /\ dist i j = dist j i /\
    nleb (dist i k) (nadd (dist i j) (dist j k)) = true.

Theorem C18_refuted : exists n (dist : nat -> nat -> B64) q,
  ext_metric n dist /\ q < n /\
  forall max, max = b64_inf \/ max = b64_of_Z 10 -> exists l,
    tree_nearest (F := B64) isort first_min n dist max q = Some l /\
    ~ nearest_list n q (dist q) max l /\
    exists ln, naive_nearest (N := B64) first_min n dist max q = Some ln /\
               nearest_list n q (fun i => dist i q) max ln.
Proof.
  exists 4, two_groups, 0. split; [|split; [lia|]].
  - intros i j k Hi Hj Hk.
    do 4 (destruct i as [|i]; [do 4 (destruct j as [|j]; [do 4 (destruct k as [|k];
      [repeat split; vmr|]); lia|]); lia|]); lia.
  - assert (Hn : forall max, not_nan max -> exists ln,
        naive_nearest (N := B64) first_min 4 two_groups max 0 = Some ln /\
        nearest_list 4 0 (fun i => two_groups i 0) max ln).
    { intros max Hm. apply (naive_nearest_ok B64_order); auto using first_min_ok; try lia.
      intros i Hi. do 4 (destruct i as [|i]; [vm_compute; discriminate|]). lia. }
    intros max [-> | ->].
    + exists [(2, b64_inf); (3, b64_inf)]. split; [vmr|]. split; [|apply Hn; discriminate].
      intros (_ & H & _). assert (H1 : In 1 [2; 3]); [|cbn in H1; lia].
      apply H. split; [lia|]. split; [lia|]. vm_compute. reflexivity.
    + exists []. split; [vmr|]. split; [|apply Hn; vm_compute; discriminate].
      intros (_ & H & _). assert (H1 : In 1 []); [|destruct H1].
      apply H. split; [lia|]. split; [lia|]. vm_compute. reflexivity.
Qed.
Print Assumptions C18_refuted.

(** What remains true for infinite distances, and in fact for every distance function in
    every arithmetic: the search does not panic and delivers only points within the
    limit, other than the query, each once and with the right distance. *)
Theorem C18_only_omissions_partial : forall (N : NumOps) (D : N -> Prop) sort choose n
    (dist : nat -> nat -> N) max q,
  order_on N D -> sort_ok sort -> choose_ok choose ->
  (forall i j, i < n -> j < n -> D (dist i j)) -> q < n ->
  exists l, tree_nearest sort choose n dist max q = Some l /\ NoDup (map fst l) /\
    forall i d, In (i, d) l -> i < n /\ i <> q /\ d = dist q i /\ nleb (dist q i) max = true.
Proof. exact tree_sound. Qed.
Print Assumptions C18_only_omissions_partial.

Example C18_case : forall i j, i < 4 -> j < 4 -> not_nan (two_groups i j).
Proof.
  intros i j Hi Hj.
  do 4 (destruct i as [|i]; [do 4 (destruct j as [|j]; [vm_compute; discriminate|]); lia|]); lia.
Qed.

(** C19: parallel construction gives the same array as sequential construction, for every
    threshold of at least 2 (the code uses 1000; with 0 or 1 the code would panic on small
    slices). *)
Theorem C19_par_build : forall (N : NumOps) sort (dist : nat -> nat -> N) choose par_min_size depth pts,
  2 <= par_min_size ->
  par_tree_of sort choose par_min_size dist depth pts = tree_of sort choose dist depth pts.
Proof. exact @par_tree_eq. Qed.
Print Assumptions C19_par_build.

Example C19_case :
  par_tree_of (F := B64) isort first_min 2 (on_line [4; 0; 9; 2; 3]%Z) usize_max (seq 0 5) =
  tree_of (F := B64) isort first_min (on_line [4; 0; 9; 2; 3]%Z) usize_max (seq 0 5) /\
  par_tree_of (F := B64) isort first_min 1 (on_line [4; 0; 9; 2; 3]%Z) usize_max (seq 0 5) = None.
Proof. split; vmr. Qed.
